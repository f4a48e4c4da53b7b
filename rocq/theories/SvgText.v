(** Model of the text a Bezier segment is printed as (bezier_curve.rs:47-57). *)
From Coq Require Import Reals ZArith List Bool NArith Ascii String.
From Verif Require Import Base Chars Coords Curves.
Import ListNotations.

(** Rust's Display of a finite f64 writes the shortest decimal fraction that reads as the same
    f64, never with an exponent: the sign, the digits before the point and, unless it is whole,
    a point and more digits.  [show_decimal neg m p] is the text of the fraction m/10^p. *)
Definition digit_of (d : Z) : char := (48 + Z.to_N d)%N.
Fixpoint low_digits (p : nat) (m : Z) : list char :=
  match p with
  | O => []
  | S p => low_digits p (m / 10) ++ [digit_of (m mod 10)]
  end.
Fixpoint whole_digits (fuel : nat) (m : Z) : list char :=
  match fuel with
  | O => []
  | S fuel => if (m <? 10)%Z then [digit_of m] else whole_digits fuel (m / 10) ++ [digit_of (m mod 10)]
  end.
Definition show_decimal (neg : bool) (m : Z) (p : nat) : list char :=
  let whole := (m / 10 ^ Z.of_nat p)%Z in
  (if neg then chars "-" else []) ++ whole_digits (Z.to_nat (Z.log2 whole) + 1) whole ++
  match p with O => [] | S _ => ch "." :: low_digits p m end.

(** bezier_curve.rs:47-57 BezierSegment::to_svg_path, for any way to print numbers; f64 is
    modelled by the real numbers. *)
Definition to_svg_path (show : R -> list char) (b : bezier_segment) : list char :=
  chars "c" ++ show (vx (bs_c1 b)) ++ chars "," ++ show (vy (bs_c1 b)) ++ chars " " ++
  show (vx (bs_c2 b) + vx (bs_p2 b))%R ++ chars "," ++ show (vy (bs_c2 b) + vy (bs_p2 b))%R ++ chars " " ++
  show (vx (bs_p2 b)) ++ chars "," ++ show (vy (bs_p2 b)).
