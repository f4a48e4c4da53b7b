(** Second model, in binary64 (Floats.v), of the geometry that PathBuild.v, Coords.v
    and Curves.v model over the real numbers: transforms, the path building half of
    /repo/src/svg_path_parser.rs, and the evaluation of Bezier curves. *)
From Coq Require Import ZArith List Bool NArith Ascii String.
From Flocq Require Import BinarySingleNaN.
From Verif Require Import Base Chars Floats ApproxCurve DrawCurves.
Import ListNotations.

(** coords.rs:188-195 *)
Record ftransform := mk_ftr { fm0 : f64; fm1 : f64; fm2 : f64; fm3 : f64; fm4 : f64; fm5 : f64 }.

(** coords.rs:197-206 and 326-333 *)
Definition ftmul (a b : ftransform) : ftransform :=
  mk_ftr (fadd (fmul (fm0 a) (fm0 b)) (fmul (fm2 a) (fm1 b)))
         (fadd (fmul (fm1 a) (fm0 b)) (fmul (fm3 a) (fm1 b)))
         (fadd (fmul (fm0 a) (fm2 b)) (fmul (fm2 a) (fm3 b)))
         (fadd (fmul (fm1 a) (fm2 b)) (fmul (fm3 a) (fm3 b)))
         (fadd (fadd (fmul (fm0 a) (fm4 b)) (fmul (fm2 a) (fm5 b))) (fm4 a))
         (fadd (fadd (fmul (fm1 a) (fm4 b)) (fmul (fm3 a) (fm5 b))) (fm5 a)).

(** coords.rs:335-343 *)
Definition ftapply (t : ftransform) (v : fvec) : fvec :=
  mk_fvec (fadd (fadd (fmul (fm0 t) (fx v)) (fmul (fm2 t) (fy v))) (fm4 t))
          (fadd (fadd (fmul (fm1 t) (fx v)) (fmul (fm3 t) (fy v))) (fm5 t)).

(** svg_path_parser.rs:321-335 *)
Record fpath_ctx := mk_fpctx { fp_pos : fvec; fp_start : fvec; fp_last_control : option fvec }.
Definition fpath_ctx_new : fpath_ctx := mk_fpctx fvzero fvzero None.

(** [if rel { pos += p } else { pos = p }] *)
Definition fmoved (rel : bool) (pos p : fvec) : fvec := if rel then fvadd pos p else p.

(** svg_path_parser.rs:513-521 and 533-541 *)
Fixpoint fbuild_lines (rel : bool) (tr : ftransform) (pos : fvec) (args : list f64)
  : fvec * list segment :=
  match args with
  | x :: y :: rest =>
      let pos := fmoved rel pos (mk_fvec x y) in
      let '(e, segs) := fbuild_lines rel tr pos rest in
      (e, SLineTo (ftapply tr pos) :: segs)
  | _ => (pos, [])
  end.

(** svg_path_parser.rs:548-556 *)
Fixpoint fbuild_vertical (rel : bool) (tr : ftransform) (pos : fvec) (args : list f64)
  : fvec * list segment :=
  match args with
  | [] => (pos, [])
  | y :: rest =>
      let pos := mk_fvec (fx pos) (if rel then fadd (fy pos) y else y) in
      let '(e, segs) := fbuild_vertical rel tr pos rest in
      (e, SLineTo (ftapply tr pos) :: segs)
  end.

(** svg_path_parser.rs:565-573 *)
Fixpoint fbuild_horizontal (rel : bool) (tr : ftransform) (pos : fvec) (args : list f64)
  : fvec * list segment :=
  match args with
  | [] => (pos, [])
  | x :: rest =>
      let pos := mk_fvec (if rel then fadd (fx pos) x else x) (fy pos) in
      let '(e, segs) := fbuild_horizontal rel tr pos rest in
      (e, SLineTo (ftapply tr pos) :: segs)
  end.

(** svg_path_parser.rs:590-594 and 648-652 *)
Definition foffset (rel : bool) (pos : fvec) : fvec := if rel then pos else fvzero.

(** svg_path_parser.rs:587-630 *)
Fixpoint fbuild_cubics (rel : bool) (tr : ftransform) (pos : fvec) (ctl : option fvec) (args : list f64)
  : fvec * option fvec * list segment :=
  match args with
  | x1 :: y1 :: x2 :: y2 :: x :: y :: rest =>
      let off := foffset rel pos in
      let p2 := fvadd (mk_fvec x y) off in
      let c1 := fvadd (mk_fvec x1 y1) off in
      let c2 := fvadd (mk_fvec x2 y2) off in
      let c1' := fvsub (ftapply tr c1) (ftapply tr pos) in
      let p2' := ftapply tr p2 in
      let c2' := fvsub (ftapply tr c2) p2' in
      let '(e, ctl, segs) := fbuild_cubics rel tr p2 (Some c2) rest in
      (e, ctl, SCurveTo p2' c1' c2' :: segs)
  | _ => (pos, ctl, [])
  end.

(** [2.0 / 3.0] *)
Definition two_thirds : f64 := lit 2 3.

(** svg_path_parser.rs:645-684 *)
Fixpoint fbuild_quadratics (rel : bool) (tr : ftransform) (pos : fvec) (ctl : option fvec) (args : list f64)
  : fvec * option fvec * list segment :=
  match args with
  | x1 :: y1 :: x :: y :: rest =>
      let off := foffset rel pos in
      let p2 := fvadd (mk_fvec x y) off in
      let m1 := fvadd (mk_fvec x1 y1) off in
      let last := fvadd (fvmul (fvsub m1 p2) two_thirds) p2 in
      let c1 := fvmul (fvsub (ftapply tr m1) (ftapply tr pos)) two_thirds in
      let p2' := ftapply tr p2 in
      let c2 := fvmul (fvsub (ftapply tr m1) p2') two_thirds in
      let '(e, ctl, segs) := fbuild_quadratics rel tr p2 (Some last) rest in
      (e, ctl, SCurveTo p2' c1 c2 :: segs)
  | _ => (pos, ctl, [])
  end.

(** [args.len() < n] or [args.len() % n != 0] *)
Definition fwrong_count (n : nat) (args : list f64) : bool :=
  Nat.ltb (List.length args) n || negb (Nat.eqb (Nat.modulo (List.length args) n) 0).

(** The quotient of two positive integers of any size, rounded once. *)
Definition fratio (neg : bool) (n d : positive) : f64 :=
  SF2B _ (proj1 (Bdiv_correct_aux 53 1024 prec_ok emax_ok mode_NE neg n 0 false d 0)).

(** f64::sin_cos, f64::tan and f64::atan2: their rounding is not specified, so they are parameters. *)
Record trig := mk_trig { f_sin : f64 -> f64; f_cos : f64 -> f64; f_tan : f64 -> f64; f_atan2 : f64 -> f64 -> f64 }.

(** std::f64::consts::PI = 3.14159265358979323846264338327950288 *)
Definition f_pi : f64 := fratio false 314159265358979323846264338327950288 (10 ^ 35).
Definition fradians (a : f64) : f64 := fdiv (fmul a f_pi) (f_of_Z 180).

(** [f64; 4] as a two by two matrix, by rows. *)
Record fmat := mk_fmat { fe0 : f64; fe1 : f64; fe2 : f64; fe3 : f64 }.

(** svg_path_parser.rs:377-384 *)
Definition fmul2x2 (a b : fmat) : fmat :=
  mk_fmat (fadd (fmul (fe0 a) (fe0 b)) (fmul (fe1 a) (fe2 b)))
          (fadd (fmul (fe0 a) (fe1 b)) (fmul (fe1 a) (fe3 b)))
          (fadd (fmul (fe2 a) (fe0 b)) (fmul (fe3 a) (fe2 b)))
          (fadd (fmul (fe2 a) (fe1 b)) (fmul (fe3 a) (fe3 b))).

(** svg_path_parser.rs:386-393 *)
Definition finvert2x2 (m : fmat) : option fmat :=
  let d := fsub (fmul (fe0 m) (fe3 m)) (fmul (fe1 m) (fe2 m)) in
  if feq d fzero then None
  else Some (mk_fmat (fdiv (fe3 m) d) (fdiv (fneg (fe1 m)) d) (fdiv (fneg (fe2 m)) d) (fdiv (fe0 m) d)).

(** svg_path_parser.rs:395-397 *)
Definition ftranspose2x2 (m : fmat) : fmat := mk_fmat (fe0 m) (fe2 m) (fe1 m) (fe3 m).

(** svg_path_parser.rs:418-429 *)
Definition fellipse_form (g : trig) (rx ry rot : f64) : fmat :=
  let rs := f_sin g rot in
  let rc := f_cos g rot in
  let rs2 := fmul rs rs in
  let rc2 := fmul rc rc in
  let rx2 := fmul rx rx in
  let ry2 := fmul ry ry in
  let A := fadd (fdiv rc2 rx2) (fdiv rs2 ry2) in
  let B := fadd (fdiv rs2 rx2) (fdiv rc2 ry2) in
  let C := fmul (fmul (fsub (fdiv fone rx2) (fdiv fone ry2)) rs) rc in
  mk_fmat A C C B.

(** svg_path_parser.rs:439-457 *)
Definition fellipse_of_form (g : trig) (q : fmat) : res (f64 * f64 * f64) :=
  let trot := fdiv (f_atan2 g (fmul (fneg (fe2 q)) (f_of_Z 2)) (fsub (fe3 q) (fe0 q))) (f_of_Z 2) in
  let ts := f_sin g trot in
  let tc := f_cos g trot in
  let ts2 := fmul ts ts in
  let tc2 := fmul tc tc in
  let tcs := fmul tc ts in
  let den := fadd (fadd (fmul (fe0 q) tc2) (fmul (fmul (f_of_Z 2) (fe2 q)) tcs)) (fmul (fe3 q) ts2) in
  if fle den fzero then Panic
  else
    let tr_x := fsqrt (fdiv fone den) in
    let den := fadd (fsub (fmul (fe0 q) ts2) (fmul (fmul (f_of_Z 2) (fe2 q)) tcs)) (fmul (fe3 q) tc2) in
    if fle den fzero then Panic
    else
      let tr_y := fsqrt (fdiv fone den) in
      Ok (tr_x, tr_y, trot).

(** svg_path_parser.rs:415-458 transform_ellipse *)
Definition ftransform_ellipse (g : trig) (rx ry rot : f64) (m : fmat) : res (f64 * f64 * f64) :=
  let q := fellipse_form g rx ry rot in
  let! invm := unwrap (finvert2x2 m) in
  let q := fmul2x2 (ftranspose2x2 invm) q in
  let q := fmul2x2 q invm in
  fellipse_of_form g q.

(** svg_path_parser.rs:737-769: the two points of the ellipse with radii rx, ry whose
    difference is (dx, dy), or None if the ellipse is too small. *)
Definition fchord (rx ry dx dy : f64) : option (f64 * f64 * f64 * f64) :=
  if flt (fabs dy) (fabs dx) then
    let k := fdiv dy dx in
    let ry2 := fmul ry ry in
    let c := fadd (fdiv ry2 (fmul rx rx)) (fmul k k) in
    let m2 := fdiv (fsub (fdiv (fmul (fmul c dx) dx) (f_of_Z 4)) ry2) (fsub (fdiv (fmul k k) c) fone) in
    if flt m2 fzero then None
    else
      let m := fsqrt m2 in
      let mp := fdiv (fmul (fneg k) m) c in
      let x1 := fsub mp (fdiv dx (f_of_Z 2)) in
      let x2 := fadd mp (fdiv dx (f_of_Z 2)) in
      Some (x1, fadd (fmul k x1) m, x2, fadd (fmul k x2) m)
  else
    let k := fdiv dx dy in
    let rx2 := fmul rx rx in
    let c := fadd (fdiv rx2 (fmul ry ry)) (fmul k k) in
    let m2 := fdiv (fsub (fdiv (fmul (fmul c dy) dy) (f_of_Z 4)) rx2) (fsub (fdiv (fmul k k) c) fone) in
    if flt m2 fzero then None
    else
      let m := fsqrt m2 in
      let mp := fdiv (fmul (fneg k) m) c in
      let y1 := fsub mp (fdiv dy (f_of_Z 2)) in
      let y2 := fadd mp (fdiv dy (f_of_Z 2)) in
      Some (fadd (fmul k y1) m, y1, fadd (fmul k y2) m, y2).

(** svg_path_parser.rs:771-788 *)
Definition farc_angles (g : trig) (rx ry x1 y1 x2 y2 : f64) (large_arc sweep : bool) : f64 * f64 :=
  let a1 := f_atan2 g (fdiv y1 ry) (fdiv x1 rx) in
  let a2 := f_atan2 g (fdiv y2 ry) (fdiv x2 rx) in
  let a2 :=
    if xorb large_arc (fgt (fabs (fsub a2 a1)) f_pi) then
      if flt a1 a2 then fsub a2 (fmul (f_of_Z 2) f_pi) else fadd a2 (fmul (f_of_Z 2) f_pi)
    else a2 in
  if xorb sweep (fgt a2 a1) then (fadd a2 f_pi, fadd a1 f_pi) else (a1, a2).

(** svg_path_parser.rs:460-480 ArcArgs and get_arc_args *)
Record farc_args := mk_farc_args {
  farc_rx : f64; farc_ry : f64; farc_rot : f64; farc_large : bool; farc_sweep : bool; farc_x : f64; farc_y : f64 }.

(** svg_path_parser.rs:716-803 *)
Definition farc_segment (g : trig) (tr : ftransform) (a : farc_args) (d : fvec) : res (option segment) :=
  let! (rx, ry, rot) :=
    ftransform_ellipse g (farc_rx a) (farc_ry a) (farc_rot a) (mk_fmat (fm0 tr) (fm2 tr) (fm1 tr) (fm3 tr)) in
  let rs := f_sin g (farc_rot a) in
  let rc := f_cos g (farc_rot a) in
  let dx := fsub (fmul (fx d) rc) (fmul (fy d) rs) in
  let dy := fadd (fmul (fx d) rs) (fmul (fy d) rc) in
  match fchord rx ry dx dy with
  | None => Ok None
  | Some (x1, y1, x2, y2) =>
      let '(a1, a2) := farc_angles g rx ry x1 y1 x2 y2 (farc_large a) (farc_sweep a) in
      Ok (Some (SArc rx ry a1 a2 rot))
  end.

(** svg_path_parser.rs:698-811: one turn of the while loop. *)
Definition fbuild_arc (g : trig) (rel : bool) (tr : ftransform) (pos : fvec) (a : farc_args) : res (option (fvec * segment)) :=
  let p := mk_fvec (farc_x a) (farc_y a) in
  let d := fvsub (if rel then ftapply tr (fvadd p pos) else ftapply tr p) (ftapply tr pos) in
  if feq (fx d) fzero && feq (fy d) fzero then Ok None
  else
    let! seg := farc_segment g tr a d in
    match seg with
    | None => Ok None
    | Some seg => Ok (Some (fmoved rel pos p, seg))
    end.

(** svg_path_parser.rs:695-812, the loop, with get_arc_args. *)
Fixpoint fbuild_arcs (g : trig) (rel : bool) (tr : ftransform) (pos : fvec) (args : list f64) : res (option (fvec * list segment)) :=
  match args with
  | rx :: ry :: rot :: large_arc :: sweep :: x :: y :: rest =>
      let! one := fbuild_arc g rel tr pos
        (mk_farc_args rx ry (fradians rot) (negb (feq large_arc fzero)) (negb (feq sweep fzero)) x y) in
      match one with
      | None => Ok None
      | Some (pos, seg) =>
          let! more := fbuild_arcs g rel tr pos rest in
          match more with
          | None => Ok None
          | Some (pos, segs) => Ok (Some (pos, seg :: segs))
          end
      end
  | _ => Ok (Some (pos, []))
  end.

(** svg_path_parser.rs:482-822 build_path, see PathBuild.v. *)
Definition fbuild_path (g : trig) (c : fpath_ctx) (cmd : char) (args : list f64) (tr : ftransform) (first_elem : bool)
  : res (option (fpath_ctx * list segment)) :=
  let rel := is_lower cmd in
  let pos := fp_pos c in
  if is_one_of (chars "mM") cmd then
    if fwrong_count 2 args then Ok None
    else
      match args with
      | x :: y :: rest =>
          let start := fmoved (rel && negb first_elem) pos (mk_fvec x y) in
          let '(e, segs) := fbuild_lines rel tr start rest in
          Ok (Some (mk_fpctx e start None, SGoTo (ftapply tr start) :: segs))
      | _ => Ok (Some (mk_fpctx pos (fp_start c) None, []))
      end
  else if is_one_of (chars "lL") cmd then
    if fwrong_count 2 args then Ok None
    else let '(e, segs) := fbuild_lines rel tr pos args in Ok (Some (mk_fpctx e (fp_start c) None, segs))
  else if is_one_of (chars "vV") cmd then
    if Nat.eqb (List.length args) 0 then Ok None
    else let '(e, segs) := fbuild_vertical rel tr pos args in Ok (Some (mk_fpctx e (fp_start c) None, segs))
  else if is_one_of (chars "hH") cmd then
    if Nat.eqb (List.length args) 0 then Ok None
    else let '(e, segs) := fbuild_horizontal rel tr pos args in Ok (Some (mk_fpctx e (fp_start c) None, segs))
  else if is_one_of (chars "cC") cmd then
    if fwrong_count 6 args then Ok None
    else
      let '(e, ctl, segs) := fbuild_cubics rel tr pos (fp_last_control c) args in
      Ok (Some (mk_fpctx e (fp_start c) ctl, segs))
  else if is_one_of (chars "qQ") cmd then
    if fwrong_count 4 args then Ok None
    else
      let '(e, ctl, segs) := fbuild_quadratics rel tr pos (fp_last_control c) args in
      Ok (Some (mk_fpctx e (fp_start c) ctl, segs))
  else if is_one_of (chars "aA") cmd then
    if fwrong_count 7 args then Ok None
    else
      let! r := fbuild_arcs g rel tr pos args in
      match r with
      | None => Ok None
      | Some (e, segs) => Ok (Some (mk_fpctx e (fp_start c) (fp_last_control c), segs))
      end
  else if is_one_of (chars "zZ") cmd then
    Ok (Some (mk_fpctx (fp_start c) (fp_start c) (fp_last_control c), [SCloseTo (ftapply tr (fp_start c))]))
  else Ok None.

(** svg_path_parser.rs:831-848, see PathBuild.v *)
Fixpoint fbuild_commands (g : trig) (c : fpath_ctx) (cmds : list (char * list f64)) (tr : ftransform) (first_elem : bool)
  : res (option (fpath_ctx * list segment)) :=
  match cmds with
  | [] => Ok (Some (c, []))
  | (cmd, args) :: rest =>
      let! r := fbuild_path g c cmd args tr first_elem in
      match r with
      | None => Ok None
      | Some (c, segs) =>
          let! r := fbuild_commands g c rest tr false in
          match r with
          | None => Ok None
          | Some (c, more) => Ok (Some (c, segs ++ more))
          end
      end
  end.

(** ** curves/bezier.rs and the part of curves/sqrt_poly.rs that finds parameters *)

(** bezier.rs:34-56 bezier_value *)
Definition fbezier_value (c1 c2 p2 : fvec) (t : f64) : fvec * fvec :=
  let p00 := fvmul c1 t in
  let p01 := fvadd c1 (fvmul (fvsub c2 c1) t) in
  let p02 := fvadd c2 (fvmul (fvsub p2 c2) t) in
  let p10 := fvadd p00 (fvmul (fvsub p01 p00) t) in
  let p11 := fvadd p01 (fvmul (fvsub p02 p01) t) in
  let p20 := fvadd p10 (fvmul (fvsub p11 p10) t) in
  let d :=
    if flt t (lit 1 2) then
      let d := fvsub p11 p20 in
      if flt (fvlength d) (lit 1 1000000000) then c2 else d
    else
      let d := fvsub p20 p10 in
      if flt (fvlength d) (lit 1 1000000000) then fvsub p2 c1 else d in
  (p20, fvunit d).

(** sqrt_poly.rs:11-19 polyval *)
Definition fpolyval (p : list f64) (t : f64) : f64 := fold_right (fun c s => fadd (fmul s t) c) fzero p.

(** sqrt_poly.rs:181-218: the fields [start] of build_segments for low = 0, high = 1, n = 9. *)
Definition fstep : f64 := fdiv (fsub fone fzero) (f_of_Z 10).
Definition fstarts : list f64 :=
  fzero :: map (fun i => fsub (fadd fzero (fmul fstep (fadd (f_of_Z i) (lit 1 2)))) fstep) [1; 2; 3; 4; 5; 6; 7; 8; 9]%Z
  ++ [fsub fone (fdiv fstep (f_of_Z 2)); fone].

(** The table of a Bezier curve: its fields [int], the integrals of Taylor polynomials
    (which need powf), are left open. *)
Definition ftable (ints : list (list f64)) : list (f64 * list f64) := combine fstarts ints.

(** slice::binary_search_by on the keys: [Ok (true, i)] is rust's Ok(i), [Ok (false, i)]
    its Err(i), [Panic] the unwrap of a comparison with NaN. *)
Definition searcher := list f64 -> f64 -> res (bool * nat).

Definition head_of (int : list f64) : res f64 := unwrap (nth_error int 0).
Fixpoint heads (tab : list (f64 * list f64)) : res (list f64) :=
  match tab with
  | [] => Ok []
  | (_, int) :: r => let! h := head_of int in let! hs := heads r in Ok (h :: hs)
  end.

(** sqrt_poly.rs:220-225 eval_int *)
Definition feval_int (search : searcher) (tab : list (f64 * list f64)) (t : f64) : res f64 :=
  let! (found, i) := search (map fst tab) t in
  if found then
    let! (_, int) := unwrap (nth_error tab i) in head_of int
  else
    match i with
    | O => Panic
    | S k => let! (start, int) := unwrap (nth_error tab k) in Ok (fpolyval int (fsub t start))
    end.

(** sqrt_poly.rs:235-243, the bisection *)
Fixpoint fbisect (fuel : nat) (p : list f64) (l low high : f64) : res f64 :=
  if fgt (fsub high low) fepsilon then
    match fuel with
    | O => OutOfFuel
    | S fuel =>
        let mid := fmul (fadd high low) (lit 1 2) in
        let v := fpolyval p mid in
        if fgt v l then fbisect fuel p l low mid else fbisect fuel p l mid high
    end
  else Ok low.

(** sqrt_poly.rs:227-247 find_param *)
Definition ffind_param (fuel : nat) (search : searcher) (tab : list (f64 * list f64)) (l : f64) : res f64 :=
  let! keys := heads tab in
  let! (found, i) := search keys l in
  if found then
    let! (start, _) := unwrap (nth_error tab i) in Ok start
  else
    let! _ := assert (Nat.ltb i (List.length tab)) in
    match i with
    | O => Panic
    | S k =>
        let! (s1, _) := unwrap (nth_error tab i) in
        let! (s0, p) := unwrap (nth_error tab k) in
        let! low := fbisect fuel p l fzero (fsub s1 s0) in
        Ok (fadd low s0)
    end.

(** bezier.rs:59-75: length and value.  [ints c1 c2 p2] is what Bezier::new (18-31)
    puts in its table. *)
Definition fbezier (fuel : nat) (search : searcher) (ints : fvec -> fvec -> fvec -> list (list f64))
    (c1 c2 p2 : fvec) : res fcurve :=
  let tab := ftable (ints c1 c2 p2) in
  let! len := feval_int search tab fone in
  Ok (mk_fcurve len (fun pos =>
    let! t :=
      if fle pos fzero then Ok fzero
      else
        let! len := feval_int search tab fone in
        if fle len pos then Ok fone
        else ffind_param fuel search tab pos in
    Ok (fbezier_value c1 c2 p2 t))).
