(** Model of the rest of main_old.rs: the functions that build on
    build_optimal_path and extend_dist, and its test [extend].  f64 is modelled
    by the real numbers.

    Left out: build_curve (lines 68-78) and build_distance_path (112-131), which
    compute numbers and drop them, and build_path (133-157), which is not rust:
    the semicolon after its first [let] is missing, so the file does not compile. *)
From Coq Require Import Reals ZArith List.
From Verif Require Import Base OldCode Permutate.
Import ListNotations.
Open Scope R_scope.

(** [x.ceil()], and [as i32], which ends at the limits of i32. *)
Definition ceil (x : R) : Z := (- Int_part (- x))%Z.
Definition end_i32 (z : Z) : Z := Z.max i32_min (Z.min i32_max z).

(** main_old.rs:211-229 build_optimal_int_path.  [vtop] is computed and not used.
    The vector has a capacity, but no elements. *)
Definition build_optimal_int_path (s0 sn v0 vn vmax amax : Z) : res (Z * list Z) :=
  let '(a, (d0, d1, d2)) := build_optimal_path s0 sn v0 vn vmax amax in
  let t0 := end_i32 (ceil d0) in
  let t1 := end_i32 (ceil d1) in
  let t2 := end_i32 (ceil d2) in
  let a := if Rle_dec 0 a then amax else (- amax)%Z in
  let! t01 := chk_i32 (t0 + t1) in
  let! all := chk_i32 (t01 + t2) in
  let! _ := assert (as_u64 all * 4 <=? i64_max)%Z in   (* Vec::with_capacity *)
  let acc := @nil Z in
  let! n := chk_i32 (t0 - 2) in
  let! _ := assert (as_u64 n <=? Z.of_nat (length acc))%Z in   (* the slice 0..n *)
  let acc := repeat a (Z.to_nat (as_u64 n)) ++ skipn (Z.to_nat (as_u64 n)) acc in
  Ok (0%Z, acc).

(** main_old.rs:232-243 check_path: what it prints after the request. *)
Definition check_path (s v : Z * Z) (vmax amax : Z) : (R * (R * R * R)) * (R * R) :=
  let '(s0, sn) := s in
  let '(v0, vn) := v in
  let p := build_optimal_path s0 sn v0 vn vmax amax in
  let '(a, (d0, d1, d2)) := p in
  (p, eval_acc_time (IZR s0) (IZR v0) [(a, d0); (0, d1); (- a, d2)]).

(** main_old.rs:276-281 nearly, for f64 *)
Definition nearly (a b e : R) : bool :=
  let d := a - b in
  if Rle_dec 0 d then (if Rlt_dec d e then true else false)
  else (if Rlt_dec (- d) e then true else false).

(** main_old.rs:284-296 check_extend_dist *)
Definition check_extend_dist (ds v0 a vmax : R) : res unit :=
  let (ds, v0) := if Rlt_dec ds 0 then (- ds, - v0) else (ds, v0) in
  let (dta, dtc) := extend_dist ds v0 a vmax in
  let (ds_e, vn_e) := eval_acc_time 0 v0 [(a, dta); (0, dtc); (- a, dta)] in
  assert (nearly ds_e ds (1 / 1000000) && nearly vn_e v0 (1 / 1000000)).

(** main_old.rs:302-309: the vectors of the test [extend], in the order of the
    arguments, and the calls one after the other. *)
Definition extend_vectors : list (list R) :=
  [[-23; -42 / 10; 0; 2 / 10; 61 / 10; 23];
   [-21; -4; 0; 2; 57 / 10; 125 / 10];
   [1 / 10; 12 / 10; 4];
   [3; 1; 1 / 10]].

Fixpoint each_call (calls : list (list R)) : res unit :=
  match calls with
  | [] => Ok tt
  | [ds; v0; a; vmax] :: r => let! _ := check_extend_dist ds v0 a vmax in each_call r
  | _ :: _ => Panic                                  (* would not compile *)
  end.

Definition extend : res unit :=
  match permutated R extend_vectors with
  | Some calls => each_call calls
  | None => Panic
  end.
