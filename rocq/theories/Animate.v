(** Model of src/animate_curve.rs: plots of the planned speeds for the distances -70 to 69.
    The text around the numbers is left out; the arguments are the parsed ones. *)
From Coq Require Import ZArith List Bool.
From Verif Require Import Base AccVector IntegerCurve.
Import ListNotations.
Open Scope Z_scope.

(** animate_curve.rs:70-78: t is u16, v is i32. *)
Fixpoint plot (t v : Z) (segs : list seg) : res (list (Z * Z)) :=
  match segs with
  | [] => Ok []
  | (i, a) :: rest =>
      let! t := chk_u16 (t + i) in
      let! ai := chk_i32 (a * i) in
      let! v := chk_i32 (v + ai) in
      let! more := plot t v rest in
      Ok ((t, v) :: more)
  end.

(** animate_curve.rs:64-78, one turn of the loop. *)
Definition plot_one (ds v0 vn a vmax : Z) : res (list (Z * Z)) :=
  let! path := shortest_curve ds v0 vn a vmax in
  let! seq := acc_seq path in
  let! more := plot 0 (as_i32 v0) seq in
  Ok ((0, as_i32 v0) :: more).

Fixpoint plot_all (dss : list Z) (v0 vn a vmax : Z) : res (list (list (Z * Z))) :=
  match dss with
  | [] => Ok []
  | ds :: rest =>
      let! c := plot_one ds v0 vn a vmax in
      let! cs := plot_all rest v0 vn a vmax in
      Ok (c :: cs)
  end.

(** animate_curve.rs:53-86 main: the curves and the distances. *)
Definition distances : list Z := map (fun i => Z.of_nat i - 70) (seq 0 140).
Definition animate (v0 vn vmax a : Z) : res (list (list (Z * Z)) * list Z) :=
  let! c := plot_all distances v0 vn a vmax in Ok (c, distances).
