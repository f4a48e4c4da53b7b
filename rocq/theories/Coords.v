(** Model of /repo/src/coords.rs: vectors and affine transforms.

    f64 is modelled by the real numbers: rounding, overflow, NaN and signed zeros
    are not modelled here. *)
From Coq Require Import Reals Lra.
Open Scope R_scope.

(** coords.rs:5-8, Vector; [Point] is the same type (coords.rs:345). *)
Record vec := mk_vec { vx : R; vy : R }.
Notation point := vec (only parsing).

(** coords.rs:10-12. *)
Definition vlength (v : vec) : R := sqrt (vx v * vx v + vy v * vy v).
(** coords.rs:14-16. *)
Definition scalar_mul (u v : vec) : R := vx u * vx v + vy u * vy v.
(** coords.rs:18-20. *)
Definition cross_mul (u v : vec) : R := vx u * vy v - vy u * vx v.
(** coords.rs:23-29. *)
Definition unit_vec (v : vec) : vec := mk_vec (vx v / vlength v) (vy v / vlength v).

(** f64::atan2, with atan2(0,0) = 0. *)
Definition atan2 (y x : R) : R :=
  if Rlt_dec 0 x then atan (y / x)
  else if Rlt_dec x 0 then
    (if Rlt_dec y 0 then atan (y / x) - PI else atan (y / x) + PI)
  else if Rlt_dec 0 y then PI / 2
  else if Rlt_dec y 0 then - (PI / 2)
  else 0.

(** coords.rs:32-34. *)
Definition angle (v : vec) : R := atan2 (vy v) (vx v).
(** coords.rs:37-42. *)
Definition rotate_90_cw (v : vec) : vec := mk_vec (vy v) (- vx v).
(** coords.rs:45-50. *)
Definition rotate_90_ccw (v : vec) : vec := mk_vec (- vy v) (vx v).
(** coords.rs:58-60. *)
Definition diff_sign (u v : vec) : R := vy u * vx v - vx u * vy v.
(** coords.rs:66-69. *)
Definition angle_cos (u v : vec) : R :=
  (vx u * vx v + vy u * vy v) / sqrt ((vx u * vx u + vy u * vy u) * (vx v * vx v + vy v * vy v)).

(** coords.rs:114-173, the operators. *)
Definition vadd (u v : vec) : vec := mk_vec (vx u + vx v) (vy u + vy v).
Definition vsub (u v : vec) : vec := mk_vec (vx u - vx v) (vy u - vy v).
Definition vscale (v : vec) (s : R) : vec := mk_vec (vx v * s) (vy v * s).
Definition vdiv (v : vec) (s : R) : vec := mk_vec (vx v / s) (vy v / s).
Definition vneg (v : vec) : vec := mk_vec (- vx v) (- vy v).

(** coords.rs:188-195, Transform: the six entries of the SVG matrix. *)
Record transform := mk_tr { m0 : R; m1 : R; m2 : R; m3 : R; m4 : R; m5 : R }.

(** coords.rs:197-206 and 326-333, [matrix_mul]. *)
Definition tmul (a b : transform) : transform :=
  mk_tr (m0 a * m0 b + m2 a * m1 b)
        (m1 a * m0 b + m3 a * m1 b)
        (m0 a * m2 b + m2 a * m3 b)
        (m1 a * m2 b + m3 a * m3 b)
        (m0 a * m4 b + m2 a * m5 b + m4 a)
        (m1 a * m4 b + m3 a * m5 b + m5 a).

(** coords.rs:335-343, applying a transform to a point. *)
Definition tapply (t : transform) (v : vec) : vec :=
  mk_vec (m0 t * vx v + m2 t * vy v + m4 t) (m1 t * vx v + m3 t * vy v + m5 t).

(** coords.rs:211-269, constructors. *)
Definition tidentity : transform := mk_tr 1 0 0 1 0 0.
Definition ttranslate (x y : R) : transform := mk_tr 1 0 0 1 x y.
Definition tscale (s : R) : transform := mk_tr s 0 0 s 0 0.
Definition tscale_xy (sx sy : R) : transform := mk_tr sx 0 0 sy 0 0.
Definition trotate (a : R) : transform := mk_tr (cos a) (sin a) (- sin a) (cos a) 0 0.
Definition trotate_around (a : R) (pivot : vec) : transform :=
  mk_tr (cos a) (sin a) (- sin a) (cos a)
        (vx pivot * (1 - cos a) + vy pivot * sin a)
        (- vx pivot * sin a + vy pivot * (1 - cos a)).
Definition tskew_x (a : R) : transform := mk_tr 1 0 (tan a) 1 0 0.
Definition tskew_y (a : R) : transform := mk_tr 1 (tan a) 0 1 0 0.

(** coords.rs:271-275. *)
Definition no_translation (t : transform) : transform := mk_tr (m0 t) (m1 t) (m2 t) (m3 t) 0 0.

(** coords.rs:208. *)
Definition min_column_length : R := 1 / 1000000.

(** coords.rs:278-309, [decompose]: (translate, scale, rotate, skew_x, skew_y). *)
Definition decompose (t : transform) : vec * vec * R * R * R :=
  let det := m0 t * m3 t - m1 t * m2 t in
  let r2 := m0 t * m0 t + m1 t * m1 t in
  let r := sqrt r2 in
  let '(scale, rot, skx, sky) :=
    if Rle_dec min_column_length r then
      (mk_vec r (det / r), atan2 (m1 t) (m0 t), atan2 (m0 t * m2 t + m1 t * m3 t) r2, 0)
    else
      let s2 := m2 t * m2 t + m3 t * m3 t in
      let s := sqrt s2 in
      if Rle_dec min_column_length s then
        (mk_vec (det / s) s, atan2 (m3 t) (m4 t), 0, atan2 (m0 t * m2 t + m1 t * m3 t) s2)
      else (mk_vec 0 0, 0, 0, 0) in
  (mk_vec (m4 t) (m5 t), scale, rot, skx, sky).
