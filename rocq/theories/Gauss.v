(** Model of /repo/src/gauss_quadrature.rs over the real numbers; the printed
    coefficients are taken exactly, those of one rule over a common denominator. *)
From Coq Require Import ZArith QArith Reals Qreals List.
From Verif Require Import Base.
Import ListNotations.
Open Scope R_scope.

(** gauss_quadrature.rs:1 *)
Definition weights_2 : list Q := (
  100000000000 # 100000000000 ::
  100000000000 # 100000000000 :: nil)%Q.
(** gauss_quadrature.rs:2 *)
Definition abscissas_2 : list Q := (
  -57735026920 # 100000000000 ::
  57735026920 # 100000000000 :: nil)%Q.
(** gauss_quadrature.rs:4 *)
Definition weights_3 : list Q := (
  55555555560 # 100000000000 ::
  88888888889 # 100000000000 ::
  55555555560 # 100000000000 :: nil)%Q.
(** gauss_quadrature.rs:5 *)
Definition abscissas_3 : list Q := (
  -77459666920 # 100000000000 ::
  0 # 100000000000 ::
  77459666920 # 100000000000 :: nil)%Q.
(** gauss_quadrature.rs:7-12 *)
Definition weights_4 : list Q := (
  3478548451374538 # 10000000000000000 ::
  6521451548625461 # 10000000000000000 ::
  6521451548625461 # 10000000000000000 ::
  3478548451374538 # 10000000000000000 :: nil)%Q.
(** gauss_quadrature.rs:13-18 *)
Definition abscissas_4 : list Q := (
  -8611363115940526 # 10000000000000000 ::
  -3399810435848563 # 10000000000000000 ::
  3399810435848563 # 10000000000000000 ::
  8611363115940526 # 10000000000000000 :: nil)%Q.
(** gauss_quadrature.rs:20-26 *)
Definition weights_5 : list Q := (
  2369268850561891 # 10000000000000000 ::
  4786286704993665 # 10000000000000000 ::
  5688888888888889 # 10000000000000000 ::
  4786286704993665 # 10000000000000000 ::
  2369268850561891 # 10000000000000000 :: nil)%Q.
(** gauss_quadrature.rs:27-33 *)
Definition abscissas_5 : list Q := (
  -9061798459386640 # 10000000000000000 ::
  -5384693101056831 # 10000000000000000 ::
  0 # 10000000000000000 ::
  5384693101056831 # 10000000000000000 ::
  9061798459386640 # 10000000000000000 :: nil)%Q.
(** gauss_quadrature.rs:35-42 *)
Definition weights_6 : list Q := (
  1713244923791704 # 10000000000000000 ::
  3607615730481386 # 10000000000000000 ::
  4679139345726910 # 10000000000000000 ::
  4679139345726910 # 10000000000000000 ::
  3607615730481386 # 10000000000000000 ::
  1713244923791704 # 10000000000000000 :: nil)%Q.
(** gauss_quadrature.rs:43-50 *)
Definition abscissas_6 : list Q := (
  -9324695142031520 # 10000000000000000 ::
  -6612093864662645 # 10000000000000000 ::
  -2386191860831969 # 10000000000000000 ::
  2386191860831969 # 10000000000000000 ::
  6612093864662645 # 10000000000000000 ::
  9324695142031520 # 10000000000000000 :: nil)%Q.
(** gauss_quadrature.rs:52-60 *)
Definition weights_7 : list Q := (
  1294849661688697 # 10000000000000000 ::
  2797053914892766 # 10000000000000000 ::
  3818300505051189 # 10000000000000000 ::
  4179591836734694 # 10000000000000000 ::
  3818300505051189 # 10000000000000000 ::
  2797053914892766 # 10000000000000000 ::
  1294849661688697 # 10000000000000000 :: nil)%Q.
(** gauss_quadrature.rs:61-69 *)
Definition abscissas_7 : list Q := (
  -9491079123427585 # 10000000000000000 ::
  -7415311855993945 # 10000000000000000 ::
  -4058451513773972 # 10000000000000000 ::
  0 # 10000000000000000 ::
  4058451513773972 # 10000000000000000 ::
  7415311855993945 # 10000000000000000 ::
  9491079123427585 # 10000000000000000 :: nil)%Q.
(** gauss_quadrature.rs:71-80 *)
Definition weights_8 : list Q := (
  1012285362903763 # 10000000000000000 ::
  2223810344533745 # 10000000000000000 ::
  3137066458778873 # 10000000000000000 ::
  3626837833783620 # 10000000000000000 ::
  3626837833783620 # 10000000000000000 ::
  3137066458778873 # 10000000000000000 ::
  2223810344533745 # 10000000000000000 ::
  1012285362903763 # 10000000000000000 :: nil)%Q.
(** gauss_quadrature.rs:81-90 *)
Definition abscissas_8 : list Q := (
  -9602898564975363 # 10000000000000000 ::
  -7966664774136267 # 10000000000000000 ::
  -5255324099163290 # 10000000000000000 ::
  -1834346424956498 # 10000000000000000 ::
  1834346424956498 # 10000000000000000 ::
  5255324099163290 # 10000000000000000 ::
  7966664774136267 # 10000000000000000 ::
  9602898564975363 # 10000000000000000 :: nil)%Q.

(** gauss_quadrature.rs:92-110 *)
Definition weights_n : list (list Q) := [weights_2; weights_3; weights_4; weights_5; weights_6; weights_7; weights_8].
Definition abscissas_n : list (list Q) :=
  [abscissas_2; abscissas_3; abscissas_4; abscissas_5; abscissas_6; abscissas_7; abscissas_8].

(** gauss_quadrature.rs:112-126; [n - 2] underflows and the indexing panics
    for other [n] than 2 to 8. *)
Definition gauss_quad_integrate (a b : R) (n : nat) (f : R -> R) : res R :=
  let! i := (if Nat.ltb n 2 then Panic else Ok (n - 2)%nat) in
  let! weights := unwrap (nth_error weights_n i) in
  let! abscissas := unwrap (nth_error abscissas_n i) in
  let k := (b - a) / 2 in
  let m := (a + b) / 2 in
  let sum := fold_left (fun sum wx => sum + Q2R (fst wx) * f (k * Q2R (snd wx) + m)) (combine weights abscissas) 0 in
  Ok (k * sum).
