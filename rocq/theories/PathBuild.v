(** Model of the path building half of /repo/src/svg_path_parser.rs: from path
    commands with their arguments to the segments of stepper_context.rs.

    f64 is modelled by the real numbers, as in Coords.v and Curves.v.  The texts
    of error messages and the println! calls are left out. *)
From Coq Require Import Reals List Bool NArith Ascii String.
From Verif Require Import Base Chars Coords Curves.
Import ListNotations.
Open Scope R_scope.

(** svg_path_parser.rs:321-335 PathContext and PathContext::new *)
Record path_ctx := mk_pctx { p_pos : vec; p_start : vec; p_last_control : option vec }.
Definition path_ctx_new : path_ctx := mk_pctx (mk_vec 0 0) (mk_vec 0 0) None.

(** [f64; 4] as a two by two matrix, by rows. *)
Record mat := mk_mat { e0 : R; e1 : R; e2 : R; e3 : R }.

(** svg_path_parser.rs:377-384 *)
Definition mul2x2 (a b : mat) : mat :=
  mk_mat (e0 a * e0 b + e1 a * e2 b)
         (e0 a * e1 b + e1 a * e3 b)
         (e2 a * e0 b + e3 a * e2 b)
         (e2 a * e1 b + e3 a * e3 b).

(** svg_path_parser.rs:386-393 *)
Definition invert2x2 (m : mat) : option mat :=
  let d := e0 m * e3 m - e1 m * e2 m in
  if Req_EM_T d 0 then None
  else Some (mk_mat (e3 m / d) (- e1 m / d) (- e2 m / d) (e0 m / d)).

(** svg_path_parser.rs:395-397 *)
Definition transpose2x2 (m : mat) : mat := mk_mat (e0 m) (e2 m) (e1 m) (e3 m).

(** svg_path_parser.rs:418-429: the form A*x^2 + B*y^2 + 2*C*x*y of an ellipse.  A zero radius
    makes these entries infinite or NaN in f64; R's division says nothing useful there. *)
Definition ellipse_form (rx ry rot : R) : mat :=
  let rs := sin rot in
  let rc := cos rot in
  let rs2 := rs * rs in
  let rc2 := rc * rc in
  let rx2 := rx * rx in
  let ry2 := ry * ry in
  let A := rc2 / rx2 + rs2 / ry2 in
  let B := rs2 / rx2 + rc2 / ry2 in
  let C := (1 / rx2 - 1 / ry2) * rs * rc in
  mk_mat A C C B.

(** svg_path_parser.rs:439-457: radii and rotation of the ellipse of a form. *)
Definition ellipse_of_form (q : mat) : res (R * R * R) :=
  let trot := atan2 (- e2 q * 2) (e3 q - e0 q) / 2 in
  let ts := sin trot in
  let tc := cos trot in
  let ts2 := ts * ts in
  let tc2 := tc * tc in
  let tcs := tc * ts in
  let den := e0 q * tc2 + 2 * e2 q * tcs + e3 q * ts2 in
  if Rle_dec den 0 then Panic
  else
    let tr_x := sqrt (1 / den) in
    let den := e0 q * ts2 - 2 * e2 q * tcs + e3 q * tc2 in
    if Rle_dec den 0 then Panic
    else
      let tr_y := sqrt (1 / den) in
      Ok (tr_x, tr_y, trot).

(** svg_path_parser.rs:415-458 transform_ellipse *)
Definition transform_ellipse (rx ry rot : R) (m : mat) : res (R * R * R) :=
  let q := ellipse_form rx ry rot in
  let! invm := unwrap (invert2x2 m) in
  let q := mul2x2 (transpose2x2 invm) q in
  let q := mul2x2 q invm in
  ellipse_of_form q.

(** svg_path_parser.rs:737-769: the two points of the ellipse with radii rx, ry whose
    difference is (dx, dy), or None if the ellipse is too small. *)
Definition chord (rx ry dx dy : R) : option (R * R * R * R) :=
  if Rlt_dec (Rabs dy) (Rabs dx) then
    let k := dy / dx in
    let ry2 := ry * ry in
    let c := ry2 / (rx * rx) + k * k in
    let m2 := (c * dx * dx / 4 - ry2) / (k * k / c - 1) in
    if Rlt_dec m2 0 then None
    else
      let m := sqrt m2 in
      let mp := - k * m / c in
      let x1 := mp - dx / 2 in
      let x2 := mp + dx / 2 in
      Some (x1, k * x1 + m, x2, k * x2 + m)
  else
    let k := dx / dy in
    let rx2 := rx * rx in
    let c := rx2 / (ry * ry) + k * k in
    let m2 := (c * dy * dy / 4 - rx2) / (k * k / c - 1) in
    if Rlt_dec m2 0 then None
    else
      let m := sqrt m2 in
      let mp := - k * m / c in
      let y1 := mp - dy / 2 in
      let y2 := mp + dy / 2 in
      Some (k * y1 + m, y1, k * y2 + m, y2).

(** [a > b] and [a < b] as bool. *)
Definition gtb (a b : R) : bool := if Rlt_dec b a then true else false.

(** svg_path_parser.rs:771-788: the angles of the arc between the two points that has
    the size and the direction the flags ask for. *)
Definition arc_angles (rx ry x1 y1 x2 y2 : R) (large_arc sweep : bool) : R * R :=
  let a1 := atan2 (y1 / ry) (x1 / rx) in
  let a2 := atan2 (y2 / ry) (x2 / rx) in
  let a2 :=
    if xorb large_arc (gtb (Rabs (a2 - a1)) PI) then
      if gtb a2 a1 then a2 - 2 * PI else a2 + 2 * PI
    else a2 in
  if xorb sweep (gtb a2 a1) then (a2 + PI, a1 + PI) else (a1, a2).

(** svg_path_parser.rs:460-480 ArcArgs and get_arc_args *)
Record arc_args := mk_arc_args {
  arc_rx : R; arc_ry : R; arc_rot : R; arc_large : bool; arc_sweep : bool; arc_x : R; arc_y : R }.
Definition nonzero (v : R) : bool := if Req_EM_T v 0 then false else true.
Definition get_arc_args (args : list R) : option (arc_args * list R) :=
  match args with
  | rx :: ry :: rot :: large_arc :: sweep :: x :: y :: rest =>
      Some (mk_arc_args rx ry (rot * PI / 180) (nonzero large_arc) (nonzero sweep) x y, rest)
  | _ => None
  end.

(** svg_path_parser.rs:716-803: the segment of an arc whose end points differ by [d]
    after transformation. *)
Definition arc_segment (tr : transform) (a : arc_args) (d : vec) : res (option curve_segment) :=
  let! (rx, ry, rot) :=
    transform_ellipse (arc_rx a) (arc_ry a) (arc_rot a) (mk_mat (m0 tr) (m2 tr) (m1 tr) (m3 tr)) in
  let rs := sin (arc_rot a) in
  let rc := cos (arc_rot a) in
  let dx := vx d * rc - vy d * rs in
  let dy := vx d * rs + vy d * rc in
  match chord rx ry dx dy with
  | None => Ok None
  | Some (x1, y1, x2, y2) =>
      let '(a1, a2) := arc_angles rx ry x1 y1 x2 y2 (arc_large a) (arc_sweep a) in
      Ok (Some (Arc rx ry a1 a2 rot))
  end.

(** svg_path_parser.rs:698-811: one turn of the while loop: the new current point and
    the segment, or None for an error. *)
Definition build_arc (rel : bool) (tr : transform) (pos : vec) (a : arc_args)
  : res (option (vec * curve_segment)) :=
  let p := mk_vec (arc_x a) (arc_y a) in
  let d := vsub (if rel then tapply tr (vadd p pos) else tapply tr p) (tapply tr pos) in
  if nonzero (vx d) || nonzero (vy d) then
    let! seg := arc_segment tr a d in
    match seg with
    | None => Ok None
    | Some seg =>
        let pos := if rel then mk_vec (vx pos + arc_x a) (vy pos + arc_y a) else p in
        Ok (Some (pos, seg))
    end
  else Ok None.

(** svg_path_parser.rs:695-812, the loop; every turn takes seven arguments. *)
Fixpoint build_arcs (fuel : nat) (rel : bool) (tr : transform) (pos : vec) (args : list R)
  : res (option (vec * list curve_segment)) :=
  match get_arc_args args with
  | None => Ok (Some (pos, []))
  | Some (a, rest) =>
      match fuel with
      | O => OutOfFuel
      | S fuel =>
          let! one := build_arc rel tr pos a in
          match one with
          | None => Ok None
          | Some (pos, seg) =>
              let! more := build_arcs fuel rel tr pos rest in
              match more with
              | None => Ok None
              | Some (pos, segs) => Ok (Some (pos, seg :: segs))
              end
          end
      end
  end.

(** The point a pair of arguments denotes: [if rel { pos += p } else { pos = p }]. *)
Definition moved (rel : bool) (pos p : vec) : vec := if rel then vadd pos p else p.

(** svg_path_parser.rs:513-521 and 533-541: the points after the first of a move-to and
    all of a line-to (PointIterator, 343-375, takes pairs): the last point and the
    segments pushed. *)
Fixpoint build_lines (rel : bool) (tr : transform) (pos : vec) (args : list R)
  : vec * list curve_segment :=
  match args with
  | x :: y :: rest =>
      let pos := moved rel pos (mk_vec x y) in
      let '(e, segs) := build_lines rel tr pos rest in
      (e, LineTo (tapply tr pos) :: segs)
  | _ => (pos, [])
  end.

(** svg_path_parser.rs:548-556 *)
Fixpoint build_vertical (rel : bool) (tr : transform) (pos : vec) (args : list R)
  : vec * list curve_segment :=
  match args with
  | [] => (pos, [])
  | y :: rest =>
      let pos := mk_vec (vx pos) (if rel then vy pos + y else y) in
      let '(e, segs) := build_vertical rel tr pos rest in
      (e, LineTo (tapply tr pos) :: segs)
  end.

(** svg_path_parser.rs:565-573 *)
Fixpoint build_horizontal (rel : bool) (tr : transform) (pos : vec) (args : list R)
  : vec * list curve_segment :=
  match args with
  | [] => (pos, [])
  | x :: rest =>
      let pos := mk_vec (if rel then vx pos + x else x) (vy pos) in
      let '(e, segs) := build_horizontal rel tr pos rest in
      (e, LineTo (tapply tr pos) :: segs)
  end.

(** svg_path_parser.rs:590-594 and 648-652 *)
Definition offset (rel : bool) (pos : vec) : vec := if rel then pos else mk_vec 0 0.

(** svg_path_parser.rs:587-630, the loop of the cubic curve-to. *)
Fixpoint build_cubics (rel : bool) (tr : transform) (pos : vec) (ctl : option vec) (args : list R)
  : vec * option vec * list curve_segment :=
  match args with
  | x1 :: y1 :: x2 :: y2 :: x :: y :: rest =>
      let off := offset rel pos in
      let p2 := vadd (mk_vec x y) off in
      let c1 := vadd (mk_vec x1 y1) off in
      let c2 := vadd (mk_vec x2 y2) off in
      let c1' := vsub (tapply tr c1) (tapply tr pos) in
      let p2' := tapply tr p2 in
      let c2' := vsub (tapply tr c2) p2' in
      let '(e, ctl, segs) := build_cubics rel tr p2 (Some c2) rest in
      (e, ctl, CurveTo p2' c1' c2' :: segs)
  | _ => (pos, ctl, [])
  end.

(** svg_path_parser.rs:645-684, the loop of the quadratic curve-to. *)
Fixpoint build_quadratics (rel : bool) (tr : transform) (pos : vec) (ctl : option vec) (args : list R)
  : vec * option vec * list curve_segment :=
  match args with
  | x1 :: y1 :: x :: y :: rest =>
      let off := offset rel pos in
      let p2 := vadd (mk_vec x y) off in
      let m1 := vadd (mk_vec x1 y1) off in
      let last := vadd (vscale (vsub m1 p2) (2 / 3)) p2 in
      let c1 := vscale (vsub (tapply tr m1) (tapply tr pos)) (2 / 3) in
      let p2' := tapply tr p2 in
      let c2 := vscale (vsub (tapply tr m1) p2') (2 / 3) in
      let '(e, ctl, segs) := build_quadratics rel tr p2 (Some last) rest in
      (e, ctl, CurveTo p2' c1 c2 :: segs)
  | _ => (pos, ctl, [])
  end.

(** [args.len() < n] or [args.len() % n != 0] *)
Definition wrong_count (n : nat) (args : list R) : bool :=
  Nat.ltb (List.length args) n || negb (Nat.eqb (Nat.modulo (List.length args) n) 0).

(** svg_path_parser.rs:482-822 build_path: the new context and the segments pushed on
    [segs]; [Ok None] stands for Err.  (On an error in an arc the segments before it
    stay pushed, but parse_path and parse_document give up then.) *)
Definition build_path (c : path_ctx) (cmd : char) (args : list R) (tr : transform) (first_elem : bool)
  : res (option (path_ctx * list curve_segment)) :=
  let rel := is_lower cmd in
  let pos := p_pos c in
  if is_one_of (chars "mM") cmd then
    if wrong_count 2 args then Ok None
    else
      match args with
      | x :: y :: rest =>
          let start := moved (rel && negb first_elem) pos (mk_vec x y) in
          let '(e, segs) := build_lines rel tr start rest in
          Ok (Some (mk_pctx e start None, GoTo (tapply tr start) :: segs))
      | _ => Ok (Some (mk_pctx pos (p_start c) None, []))
      end
  else if is_one_of (chars "lL") cmd then
    if wrong_count 2 args then Ok None
    else let '(e, segs) := build_lines rel tr pos args in Ok (Some (mk_pctx e (p_start c) None, segs))
  else if is_one_of (chars "vV") cmd then
    if Nat.eqb (List.length args) 0 then Ok None
    else let '(e, segs) := build_vertical rel tr pos args in Ok (Some (mk_pctx e (p_start c) None, segs))
  else if is_one_of (chars "hH") cmd then
    if Nat.eqb (List.length args) 0 then Ok None
    else let '(e, segs) := build_horizontal rel tr pos args in Ok (Some (mk_pctx e (p_start c) None, segs))
  else if is_one_of (chars "cC") cmd then
    if wrong_count 6 args then Ok None
    else
      let '(e, ctl, segs) := build_cubics rel tr pos (p_last_control c) args in
      Ok (Some (mk_pctx e (p_start c) ctl, segs))
  else if is_one_of (chars "qQ") cmd then
    if wrong_count 4 args then Ok None
    else
      let '(e, ctl, segs) := build_quadratics rel tr pos (p_last_control c) args in
      Ok (Some (mk_pctx e (p_start c) ctl, segs))
  else if is_one_of (chars "aA") cmd then
    if wrong_count 7 args then Ok None
    else
      let! r := build_arcs (List.length args) rel tr pos args in
      match r with
      | None => Ok None
      | Some (e, segs) => Ok (Some (mk_pctx e (p_start c) (p_last_control c), segs))
      end
  else if is_one_of (chars "zZ") cmd then
    Ok (Some (mk_pctx (p_start c) (p_start c) (p_last_control c), [CloseTo (tapply tr (p_start c))]))
  else Ok None.

(** The commands of a path in order (svg_path_parser.rs:831-848, the loop of parse_path
    without the lexing): only the first command is built with [first_elem]. *)
Fixpoint build_commands (c : path_ctx) (cmds : list (char * list R)) (tr : transform) (first_elem : bool)
  : res (option (path_ctx * list curve_segment)) :=
  match cmds with
  | [] => Ok (Some (c, []))
  | (cmd, args) :: rest =>
      let! r := build_path c cmd args tr first_elem in
      match r with
      | None => Ok None
      | Some (c, segs) =>
          let! r := build_commands c rest tr false in
          match r with
          | None => Ok None
          | Some (c, more) => Ok (Some (c, segs ++ more))
          end
      end
  end.
