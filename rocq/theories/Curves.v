(** Model of src/curves/{line,circle_segment,bezier,bezier_curve,concat_curve}.rs,
    of the trait in src/curve_approx.rs and of CurveSegment in
    src/stepper_context.rs.

    Numbers are reals: rounding, NaN and infinities are not modelled. *)
From Coq Require Import Reals ZArith List Lia.
From Verif Require Import Base Coords Polynomials.
Import ListNotations.
Open Scope R_scope.

(** curve_approx.rs:3-17 trait CurveInfo: a trait object. *)
Record curve_info := mk_curve { ci_length : res R; ci_value : R -> res (vec * vec) }.

Definition vzero : vec := mk_vec 0 0.

(** ** line.rs *)

(** line.rs:4-7 *)
Record line := mk_line { l_dir : vec; l_length : R }.

(** line.rs:10-18 Line::new *)
Definition line_new (end_ : vec) : line :=
  let length := vlength end_ in
  let dir := if Req_EM_T length 0 then mk_vec 1 0 else unit_vec end_ in
  mk_line dir length.

(** line.rs:26-28 *)
Definition line_value (l : line) (pos : R) : vec * vec :=
  (vscale (l_dir l) pos, l_dir l).

(** line.rs:21-29 impl CurveInfo for Line *)
Definition line_info (l : line) : curve_info :=
  mk_curve (Ok (l_length l)) (fun pos => Ok (line_value l pos)).

(** ** circle_segment.rs *)

(** circle_segment.rs:5-11 *)
Record circle := mk_circle {
  c_radius : R; c_start : R; c_end : R; c_center : vec; c_scale : R }.

(** circle_segment.rs:26-32 and 62-68 *)
Definition angle_scale (radius start_angle end_angle : R) : R :=
  if Rle_dec start_angle end_angle then 1 / radius else -1 / radius.

(** circle_segment.rs:14-34 CircleSegment::new *)
Definition circle_new (radius start_angle end_angle : R) : circle :=
  mk_circle radius start_angle end_angle
    (mk_vec (- cos start_angle * radius) (- sin start_angle * radius))
    (angle_scale radius start_angle end_angle).

(** circle_segment.rs:36-70 CircleSegment::new_start_direction *)
Definition circle_new_start_direction (end_ start_direction : vec) : circle :=
  let p0 := vscale end_ (1 / 2) in
  let p1 := rotate_90_ccw end_ in
  let p2 := rotate_90_ccw start_direction in
  let b := (vx p1 * vy p0 - vx p0 * vy p1) / (vx p1 * vy p2 - vx p2 * vy p1) in
  let center := vscale p2 b in
  let radius := vlength center in
  let start_angle := angle (vneg center) in
  let end_angle := angle (vsub end_ center) in
  let end_angle' :=
    if Rlt_dec (diff_sign start_direction center) 0 then
      if Rlt_dec end_angle start_angle then end_angle + 2 * PI else end_angle
    else
      if Rlt_dec start_angle end_angle then end_angle - 2 * PI else end_angle in
  mk_circle radius start_angle end_angle' center (angle_scale radius start_angle end_angle').

(** circle_segment.rs:74-76 *)
Definition circle_length (c : circle) : R := c_radius c * Rabs (c_end c - c_start c).

(** circle_segment.rs:78-93 *)
Definition circle_value (c : circle) (pos : R) : vec * vec :=
  let a := pos * c_scale c + c_start c in
  let s := sin a in
  let co := cos a in
  (vadd (mk_vec (co * c_radius c) (s * c_radius c)) (c_center c),
   if Rle_dec (c_start c) (c_end c) then mk_vec (- s) co else mk_vec s (- co)).

Definition circle_info (c : circle) : curve_info :=
  mk_curve (Ok (circle_length c)) (fun pos => Ok (circle_value c pos)).

(** ** bezier.rs *)

(** bezier.rs:82-88 coefficients_from_control *)
Definition coefficients_from_control (p0 p1 p2 : R) : R * R * R :=
  (3 * p0, 3 * (-2 * p0 + p1), 3 * (p0 - p1) + p2).

(** bezier.rs:90-92 deriv_from_coefficients *)
Definition deriv_from_coefficients (c : R * R * R) : list R :=
  let '(c0, c1, c2) := c in [c0; 2 * c1; 3 * c2].

(** bezier.rs:5-11 *)
Record bezier := mk_bezier {
  b_segments : list int_seg; b_c1 : vec; b_c2 : vec; b_p2 : vec }.

(** bezier.rs:19-23: the squared speed. *)
Definition speed_poly (c1 c2 p2 : vec) : res (list R) :=
  let dx := deriv_from_coefficients (coefficients_from_control (vx c1) (vx c2) (vx p2)) in
  let dy := deriv_from_coefficients (coefficients_from_control (vy c1) (vy c2) (vy p2)) in
  let! xx := polymul dx dx in
  let! yy := polymul dy dy in
  Ok (polyadd xx yy).

(** bezier.rs:18-32 Bezier::new *)
Definition bezier_new (c1 c2 p2 : vec) : res bezier :=
  let! dl2 := speed_poly c1 c2 p2 in
  let! segments := build_segments dl2 0 1 9 in
  Ok (mk_bezier segments c1 c2 p2).

(** The threshold 1e-9 in bezier.rs:45 and 50. *)
Definition min_gradient : R := 1 / 1000000000.

(** bezier.rs:35-55 Bezier::bezier_value *)
Definition bezier_value (c1 c2 p2 : vec) (t : R) : vec * vec :=
  let p00 := vscale c1 t in
  let p01 := vadd c1 (vscale (vsub c2 c1) t) in
  let p02 := vadd c2 (vscale (vsub p2 c2) t) in
  let p10 := vadd p00 (vscale (vsub p01 p00) t) in
  let p11 := vadd p01 (vscale (vsub p02 p01) t) in
  let p20 := vadd p10 (vscale (vsub p11 p10) t) in
  let d :=
    if Rlt_dec t (1 / 2) then
      let d := vsub p11 p20 in
      if Rlt_dec (vlength d) min_gradient then c2 else d
    else
      let d := vsub p20 p10 in
      if Rlt_dec (vlength d) min_gradient then vsub p2 c1 else d in
  (p20, unit_vec d).

(** A binary search: the keys of the slice, the key searched. *)
Definition searcher := list R -> R -> search_result.

Definition seg_first (s : int_seg) : R := nth 0 (seg_int s) 0.

(** bezier.rs:59-61 Bezier::length *)
Definition bezier_length (find : searcher) (b : bezier) : res R :=
  eval_int (find (map seg_start (b_segments b)) 1) (b_segments b) 1.

(** bezier.rs:63-72 Bezier::value; find_param indexes int[0] of segments that
    are never empty. *)
Definition bezier_at (find : searcher) (fuel : nat) (b : bezier) (pos : R) : res (vec * vec) :=
  let! t :=
    if Rle_dec pos 0 then Ok 0
    else
      let! len := bezier_length find b in
      if Rle_dec len pos then Ok 1
      else find_param fuel (find (map seg_first (b_segments b)) pos) (b_segments b) pos in
  Ok (bezier_value (b_c1 b) (b_c2 b) (b_p2 b) t).

Definition bezier_info (find : searcher) (fuel : nat) (b : bezier) : curve_info :=
  mk_curve (bezier_length find b) (bezier_at find fuel b).

(** ** bezier_curve.rs *)

(** bezier_curve.rs:6-11; c2 is relative to p2 *)
Record bezier_segment := mk_bs { bs_c1 : vec; bs_c2 : vec; bs_p2 : vec }.

(** bezier_curve.rs:27-32 BezierSegment::point *)
Definition bs_point (b : bezier_segment) (t : R) : vec :=
  let t2 := t * t in
  let ti := 1 - t in
  let ti2 := ti * ti in
  vadd (vadd (vscale (bs_c1 b) (3 * ti2 * t))
             (vscale (vadd (bs_p2 b) (bs_c2 b)) (3 * ti * t2)))
       (vscale (bs_p2 b) (t2 * t)).

(** bezier_curve.rs:34-45 BezierSegment::split *)
Definition bs_split (b : bezier_segment) (t : R) : bezier_segment * bezier_segment :=
  let p00 := vscale (bs_c1 b) t in
  let p01 := vadd (bs_c1 b) (vscale (vsub (vadd (bs_p2 b) (bs_c2 b)) (bs_c1 b)) t) in
  let p02 := vadd (bs_p2 b) (vscale (bs_c2 b) (1 - t)) in
  let p10 := vadd p00 (vscale (vsub p01 p00) t) in
  let p11 := vadd p01 (vscale (vsub p02 p01) t) in
  let p20 := vadd p10 (vscale (vsub p11 p10) t) in
  (mk_bs p00 (vsub p10 p20) p20,
   mk_bs (vsub p11 p20) (vsub p02 (bs_p2 b)) (vsub (bs_p2 b) p20)).

(** ** concat_curve.rs *)

(** concat_curve.rs:4-8 *)
Record concat_seg := mk_cs { cs_end_coord : vec; cs_end_len : R; cs_curve : curve_info }.

(** [segments.last()] *)
Fixpoint last_seg (l : list concat_seg) : option concat_seg :=
  match l with
  | [] => None
  | [s] => Some s
  | _ :: r => last_seg r
  end.

(** concat_curve.rs:63-69 *)
Definition concat_length (l : list concat_seg) : R :=
  match last_seg l with Some s => cs_end_len s | None => 0 end.

(** concat_curve.rs:32-45 ConcatCurve::add *)
Definition concat_add (l : list concat_seg) (curve : curve_info) : res (list concat_seg) :=
  let! clen := ci_length curve in
  let end_coord := match last_seg l with None => vzero | Some s => cs_end_coord s end in
  let! (p, _) := ci_value curve clen in
  Ok (l ++ [mk_cs (vadd p end_coord) (clen + concat_length l) curve]).

(** concat_curve.rs:71-92 ConcatCurve::value *)
Definition concat_value (find : searcher) (l : list concat_seg) (pos : R) : res (vec * vec) :=
  let i := match find (map cs_end_len l) pos with Found i => i | Insert i => i end in
  let! last := pred_index (length l) in
  let i := Nat.min i last in
  let! seg := get l i in
  let! (start_coord, start_len) :=
    match i with
    | O => Ok (vzero, 0)
    | S k => let! prev := get l k in Ok (cs_end_coord prev, cs_end_len prev)
    end in
  let! (point, deriv) := ci_value (cs_curve seg) (pos - start_len) in
  Ok (vadd point start_coord, deriv).

Definition concat_info (find : searcher) (l : list concat_seg) : curve_info :=
  mk_curve (Ok (concat_length l)) (concat_value find l).

(** ** stepper_context.rs *)

(** stepper_context.rs:14-22 CurveSegment *)
Inductive curve_segment :=
| GoTo (p : vec)
| LineTo (p : vec)
| CloseTo (p : vec)
| CurveTo (p2 c1 c2 : vec)
| Arc (rx ry start end_ rotation : R).

(** stepper_context.rs:25-48 CurveSegment::transform *)
Definition segment_transform (s : curve_segment) (trans : transform) : curve_segment :=
  match s with
  | GoTo p => GoTo (tapply trans p)
  | LineTo p => LineTo (tapply trans p)
  | CloseTo p => CloseTo (tapply trans p)
  | CurveTo p2 c1 c2 =>
      CurveTo (tapply trans p2) (tapply (no_translation trans) c1)
              (tapply (no_translation trans) c2)
  | Arc rx ry start end_ rotation =>
      let '(_, scale, trans_rot, _, _) := decompose trans in
      Arc (vx scale * rx) (vy scale * ry) start end_ (rotation + trans_rot)
  end.

(** stepper_context.rs:101-127 curve_segment_to_info: the curve and the new
    current position, or None. *)
Definition segment_to_info (find : searcher) (fuel : nat) (seg : curve_segment) (pos : vec)
  : res (option (curve_info * vec)) :=
  match seg with
  | LineTo p2 | CloseTo p2 =>
      let rel := vsub p2 pos in
      Ok (Some (line_info (line_new rel), p2))
  | CurveTo p2 c1 c2 =>
      let rel := vsub p2 pos in
      let! b := bezier_new c1 (vadd rel c2) rel in
      Ok (Some (bezier_info find fuel b, p2))
  | Arc rx ry start end_ _ =>
      if Rlt_dec f64_epsilon (Rabs (rx - ry)) then Ok None
      else
        let c := circle_new rx start end_ in
        let '(e, _) := circle_value c (circle_length c) in
        Ok (Some (circle_info c, vadd pos e))
  | GoTo _ => Ok None
  end.
