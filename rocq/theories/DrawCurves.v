(** Model of the drawing of curve segments in /repo/src/stepper_context.rs, with
    the geometry it uses in binary64 (Floats.v): vectors, Line and ConcatCurve.
    Bezier and CircleSegment in binary64 are left open (record [geometry]): the
    theorems hold for whatever they compute. *)
From Coq Require Import ZArith List Bool.
From Verif Require Import Base Floats AccVector IntegerCurve StepperContext ApproxCurve.
Import ListNotations.
Open Scope Z_scope.

(** coords.rs:119-127, 130-139, 147-155 and 10-12, 22-29: [+], [-], [*] by a
    number, [length] and [unit]. *)
Definition fvzero : fvec := mk_fvec fzero fzero.
Definition fvadd (a b : fvec) : fvec := mk_fvec (fadd (fx a) (fx b)) (fadd (fy a) (fy b)).
Definition fvsub (a b : fvec) : fvec := mk_fvec (fsub (fx a) (fx b)) (fsub (fy a) (fy b)).
Definition fvmul (a : fvec) (s : f64) : fvec := mk_fvec (fmul (fx a) s) (fmul (fy a) s).
Definition fvlength (a : fvec) : f64 := fsqrt (fadd (fmul (fx a) (fx a)) (fmul (fy a) (fy a))).
Definition fvunit (a : fvec) : fvec :=
  let l := fvlength a in mk_fvec (fdiv (fx a) l) (fdiv (fy a) l).
Definition fdot (a b : fvec) : f64 := fadd (fmul (fx a) (fx b)) (fmul (fy a) (fy b)).

(** curves/line.rs:9-30 *)
Definition fline (end_ : fvec) : fcurve :=
  let length := fvlength end_ in
  let dir := if feq length fzero then mk_fvec fone fzero else fvunit end_ in
  mk_fcurve length (fun pos => Ok (fvmul dir pos, dir)).

(** Bezier::new (curves/bezier.rs:18-31) for c1, c2, p2 and CircleSegment::new
    (curves/circle_segment.rs) for radius, start, end; either may panic (a panic
    of its [length] is counted as a panic of its construction).
    [g_find] is slice::binary_search_by on the end lengths: the index it returns,
    or a panic when a comparison with NaN is unwrapped. *)
Record geometry := mk_geometry {
  g_bezier : fvec -> fvec -> fvec -> res fcurve;
  g_circle : f64 -> f64 -> f64 -> res fcurve;
  g_find : list f64 -> f64 -> res nat }.

(** ** curves/concat_curve.rs *)

(** concat_curve.rs:4-8 *)
Record fseg := mk_fseg { fs_end : fvec; fs_len : f64; fs_curve : fcurve }.

Fixpoint last_fseg (l : list fseg) : option fseg :=
  match l with [] => None | [s] => Some s | _ :: r => last_fseg r end.

(** concat_curve.rs:63-69 *)
Definition fconcat_length (l : list fseg) : f64 :=
  match last_fseg l with Some s => fs_len s | None => fzero end.

(** concat_curve.rs:32-45 ConcatCurve::add *)
Definition fconcat_add (l : list fseg) (curve : fcurve) : res (list fseg) :=
  let clen := fc_length curve in
  let end_coord := match last_fseg l with None => fvzero | Some s => fs_end s end in
  let! (p, _) := fc_value curve clen in
  Ok (l ++ [mk_fseg (fvadd p end_coord) (fadd clen (fconcat_length l)) curve]).

(** concat_curve.rs:71-92 ConcatCurve::value, of a non-empty list *)
Definition fconcat_value (g : geometry) (l : list fseg) (pos : f64) : res (fvec * fvec) :=
  let! i := g_find g (map fs_len l) pos in
  let i := Nat.min i (length l - 1) in
  let! seg := unwrap (nth_error l i) in
  let! (start_coord, start_len) :=
    match i with
    | O => Ok (fvzero, fzero)
    | S k => let! prev := unwrap (nth_error l k) in Ok (fs_end prev, fs_len prev)
    end in
  let! (point, deriv) := fc_value (fs_curve seg) (fsub pos start_len) in
  Ok (fvadd point start_coord, deriv).

Definition fconcat (g : geometry) (l : list fseg) : fcurve := mk_fcurve (fconcat_length l) (fconcat_value g l).

(** ** stepper_context.rs *)

(** stepper_context.rs:14-22 CurveSegment *)
Inductive segment :=
| SGoTo (p : fvec)
| SLineTo (p : fvec)
| SCloseTo (p : fvec)
| SCurveTo (p2 c1 c2 : fvec)
| SArc (rx ry start end_ rotation : f64).

(** f64::EPSILON is 2^-52. *)
Definition fepsilon : f64 := lit 1 (2 ^ 52).
Definition fabs (x : f64) : f64 := BinarySingleNaN.Babs x.

(** stepper_context.rs:101-127 curve_segment_to_info: the curve and the new
    current position, or None. *)
Definition seg_info (g : geometry) (seg : segment) (pos : fvec) : res (option (fcurve * fvec)) :=
  match seg with
  | SLineTo p2 | SCloseTo p2 => Ok (Some (fline (fvsub p2 pos), p2))
  | SCurveTo p2 c1 c2 =>
      let rel := fvsub p2 pos in
      let! b := g_bezier g c1 (fvadd rel c2) rel in
      Ok (Some (b, p2))
  | SArc rx ry start end_ _ =>
      if fgt (fabs (fsub rx ry)) fepsilon then Ok None
      else
        let! circle := g_circle g rx start end_ in
        let! (e, _) := fc_value circle (fc_length circle) in
        Ok (Some (circle, fvadd pos e))
  | SGoTo _ => Ok None
  end.

(** stepper_context.rs:152-156 *)
Definition acc_max_err (acc err : Z * Z) : Z * Z :=
  (acc_max (fst acc) (fst err), acc_max (snd acc) (snd err)).

(** stepper_context.rs:470-490 draw_curve; the caller's list becomes empty. *)
Definition draw_curve (g : geometry) (s : scales) (c : ctx) (start : fvec) (curves : list fseg) (v : f64)
  : res (ctx * (Z * Z)) :=
  match curves with
  | [] => Ok (c, (0, 0))
  | _ =>
      let! (_, start_dir) := fconcat_value g curves fzero in
      let v_start := fvmul start_dir v in
      let! c := add_weight_change c (move_weight c) (ticks_of c AX) in
      let! c := goto_speed s c (fx start) (fy start) (fx v_start) (fy v_start) in
      let! c := add_weight_change c (curve_weight c) (ticks_of c AX) in
      approx_curve s c start (fconcat g curves) v
  end.

(** stepper_context.rs:158-159 *)
Definition min_cos_connect : f64 := lit 99619 100000.
(** stepper_context.rs:525, 1e-6 *)
Definition short : f64 := lit 1 1000000.

(** The variables of the loop in draw_curves. *)
Record drawing := mk_drawing {
  d_ctx : ctx; d_pos : fvec; d_start : fvec; d_prev : option fvec;
  d_curves : list fseg; d_err : Z * Z }.

(** stepper_context.rs:510-551, one round of the loop. *)
Definition draw_step (g : geometry) (s : scales) (v : f64) (d : drawing) (seg : segment) : res drawing :=
  match seg with
  | SGoTo p =>
      let! ix := to_steps s (fx p) AX in
      let! stays := (if ix =? c_pos (channel (d_ctx d) AX)
                     then let! iy := to_steps s (fy p) AY in Ok (iy =? c_pos (channel (d_ctx d) AY))
                     else Ok false) in
      if stays then Ok d
      else
        let! (c, err) := draw_curve g s (d_ctx d) (d_start d) (d_curves d) v in
        Ok (mk_drawing c p p None [] (acc_max_err (d_err d) err))
  | _ =>
      if match seg with SCloseTo p2 => flt (fvlength (fvsub (d_pos d) p2)) short | _ => false end then
        match seg with
        | SCloseTo p2 => Ok (mk_drawing (d_ctx d) p2 (d_start d) (d_prev d) (d_curves d) (d_err d))
        | _ => Panic
        end
      else
        let! info := seg_info g seg (d_pos d) in
        let! (curve, next_pos) := unwrap info in
        let! (_, start_dir) := fc_value curve fzero in
        let! d := (match d_prev d with
                   | Some prev =>
                       if flt (fdot start_dir prev) min_cos_connect then
                         let! (c, err) := draw_curve g s (d_ctx d) (d_start d) (d_curves d) v in
                         Ok (mk_drawing c (d_pos d) (d_pos d) (d_prev d) [] (acc_max_err (d_err d) err))
                       else Ok d
                   | None => Ok d
                   end) in
        let! (_, end_dir) := fc_value curve (fc_length curve) in
        let! curves := fconcat_add (d_curves d) curve in
        Ok (mk_drawing (d_ctx d) next_pos (d_start d) (Some end_dir) curves (d_err d))
  end.

Fixpoint draw_loop (g : geometry) (s : scales) (v : f64) (d : drawing) (segs : list segment) : res drawing :=
  match segs with
  | [] => Ok d
  | seg :: r => let! d := draw_step g s v d seg in draw_loop g s v d r
  end.

(** stepper_context.rs:492-565 draw_curves; it never returns Err. *)
Definition draw_curves (g : geometry) (s : scales) (c : ctx) (segs : list segment) (v : f64)
  : res (ctx * (Z * Z)) :=
  match segs with
  | [] => Ok (c, (0, 0))
  | _ =>
      let pos := mk_fvec (coord_from_steps s (c_pos (channel c AX)) AX)
                         (coord_from_steps s (c_pos (channel c AY)) AY) in
      let! d := draw_loop g s v (mk_drawing c pos pos None [] (0, 0)) segs in
      let! (c, err) := draw_curve g s (d_ctx d) (d_start d) (d_curves d) v in
      let! c := add_weight_change c (move_weight c) (ticks_of c AX) in
      Ok (c, acc_max_err (d_err d) err)
  end.

(** A geometry with lines only and a linear search (first end length not below
    the position), for examples. *)
Fixpoint first_ge (l : list f64) (x : f64) : res nat :=
  match l with
  | [] => Ok O
  | y :: r => if flt y x then let! i := first_ge r x in Ok (S i)
              else if fle x y then Ok O else Panic
  end.
Definition lines_only : geometry :=
  mk_geometry (fun _ _ _ => Panic) (fun _ _ _ => Panic) first_ge.
