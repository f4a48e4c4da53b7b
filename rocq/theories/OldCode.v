(** Model of functions in files that are not compiled into the crate: bezier_as_arcs.rs
    (commented out in curves/mod.rs) and main_old.rs.  f64 is modelled by the real numbers,
    i32 by the integers. *)
From Coq Require Import Reals ZArith List.
From Verif Require Import Base Coords Polynomials.
Import ListNotations.
Open Scope R_scope.

(** bezier_as_arcs.rs:3-8 *)
Definition incenter_point (p1 p2 p3 : vec) : vec :=
  let l1 := vlength (vsub p2 p3) in
  let l2 := vlength (vsub p1 p3) in
  let l3 := vlength (vsub p1 p2) in
  vdiv (vadd (vadd (vscale p1 l1) (vscale p2 l2)) (vscale p3 l3)) (l1 + l2 + l3).

(** bezier_as_arcs.rs:11-24 *)
Definition intersection (l1 l2 : vec * vec) : option vec :=
  let d1 := vsub (fst l1) (snd l1) in
  let d2 := vsub (fst l2) (snd l2) in
  let den := cross_mul d1 d2 in
  if Rle_dec den f64_epsilon then None
  else
    let a1 := cross_mul (fst l1) (snd l1) in
    let a2 := cross_mul (fst l2) (snd l2) in
    Some (mk_vec ((a1 * vx d2 - a2 * vx d1) / den) ((a1 * vy d2 - a2 * vy d1) / den)).

(** bezier_as_arcs.rs:26-31 *)
Inductive circle :=
| CLine
| Cw (center : vec) (radius : R)
| Ccw (center : vec) (radius : R).

(** bezier_as_arcs.rs:34-52 *)
Definition fit_circle (p2 p3 : vec) : circle :=
  let d := cross_mul p2 p3 * 2 in
  if Req_EM_T d 0 then CLine
  else
    let d2 := scalar_mul p2 p2 in
    let d3 := scalar_mul p3 p3 in
    let center := mk_vec ((vy p3 * d2 - vy p2 * d3) / d) ((vx p2 * d3 - vx p3 * d2) / d) in
    let radius := vlength (vsub p2 center) in
    if Rlt_dec 0 d then Ccw center radius else Cw center radius.

(** main_old.rs:26-35 eval_acc_seq *)
Open Scope Z_scope.
Fixpoint eval_acc_seq (s v : Z) (acc : list Z) : Z * Z :=
  match acc with
  | [] => (s, v)
  | a :: rest => eval_acc_seq (s + 2 * v + a) (v + a) rest
  end.

(** main_old.rs:38-50 eval_acc_seq2; [k] counts from 0 to [n]. *)
Fixpoint eval_loop2 (n k : Z) (s v : Z) (acc : list Z) : Z * Z :=
  match acc with
  | [] => (s, v)
  | a :: rest => eval_loop2 n (k + 1) (s + (2 * (n - k) - 1) * a) (v + a) rest
  end.
Definition eval_acc_seq2 (s0 v0 : Z) (acc : list Z) : Z * Z :=
  let n := Z.of_nat (length acc) in
  eval_loop2 n 0 (s0 + 2 * n * v0) v0 acc.
Open Scope R_scope.

(** main_old.rs:53-63 eval_acc_time *)
Fixpoint eval_acc_time (s v : R) (acc_time : list (R * R)) : R * R :=
  match acc_time with
  | [] => (s, v)
  | (a, dt) :: rest => eval_acc_time (s + 2 * v * dt + a * dt * dt) (v + a * dt) rest
  end.

(** main_old.rs:81-97 extend_dist *)
Definition extend_dist (s v a vmax : R) : R * R :=
  let dta := - v / a + sqrt (s / (2 * a) + v * v / (a * a)) in
  let vtop := v + a * dta in
  if Rlt_dec vmax vtop then
    let dta := (vmax - v) / a in (dta, (s - 2 * (v + vmax) * dta) / (2 * vmax))
  else if Rlt_dec vtop (- vmax) then
    let dta := (vmax - v) / a in (dta, (s - 2 * (v - vmax) * dta) / (2 * - vmax))
  else (dta, 0).

(** main_old.rs:167-208 build_optimal_path: the first acceleration and the times of the three
    parts; the last acceleration is the opposite.  The i32 arguments do not overflow. *)
Definition build_optimal_path (s0 sn v0 vn vmax amax : Z) : R * (R * R * R) :=
  let a := IZR (if (0 <=? vn - v0)%Z then amax else - amax)%Z in
  let dt0 := IZR (vn - v0) / a in
  let s := IZR s0 + IZR (2 * v0) * dt0 + a * dt0 * dt0 in
  let ds := IZR sn - s in
  if Rlt_dec ds 0 then
    if Rlt_dec 0 a then
      let (dta, dtc) := extend_dist (- ds) (- IZR v0) a (IZR vmax) in (- a, (dta, dtc, dt0 + dta))
    else
      let (dta, dtc) := extend_dist (- ds) (- IZR vn) (- a) (IZR vmax) in (a, (dt0 + dta, dtc, dta))
  else
    if Rlt_dec 0 a then
      let (dta, dtc) := extend_dist ds (IZR vn) a (IZR vmax) in (a, (dt0 + dta, dtc, dta))
    else
      let (dta, dtc) := extend_dist ds (IZR v0) (- a) (IZR vmax) in (- a, (dta, dtc, dt0 + dta)).
