(** IEEE binary64 arithmetic as used by rust's f64, from Flocq (one NaN: the
    payload and sign of a NaN are not observed by the code). *)
From Coq Require Import ZArith Reals Lia Lra Bool.
From Flocq Require Import Core BinarySingleNaN.
From Verif Require Import Base.
Open Scope Z_scope.

Lemma prec_ok : Prec_gt_0 53.
Proof. reflexivity. Qed.
Lemma emax_ok : Prec_lt_emax 53 1024.
Proof. reflexivity. Qed.
#[global] Existing Instance prec_ok.
#[global] Existing Instance emax_ok.

Definition f64 := binary_float 53 1024.

(** [+ - * /] and [sqrt]: correctly rounded to nearest, ties to even. *)
Definition fadd : f64 -> f64 -> f64 := Bplus mode_NE.
Definition fsub : f64 -> f64 -> f64 := Bminus mode_NE.
Definition fmul : f64 -> f64 -> f64 := Bmult mode_NE.
Definition fdiv : f64 -> f64 -> f64 := Bdiv mode_NE.
Definition fsqrt : f64 -> f64 := Bsqrt mode_NE.
Definition fneg : f64 -> f64 := Bopp.

(** [<] and [>]; false on NaN. *)
Definition flt : f64 -> f64 -> bool := Bltb.
Definition fgt (x y : f64) : bool := Bltb y x.
Definition fle : f64 -> f64 -> bool := Bleb.
Definition feq : f64 -> f64 -> bool := Beqb.

(** Integer [as f64]. *)
Definition f_of_Z (z : Z) : f64 := binary_normalize 53 1024 prec_ok emax_ok mode_NE z 0 false.

(** f64::round: to the nearest integer, ties away from zero. *)
Definition fround : f64 -> f64 := Bnearbyint mode_NA.

(** f64 [as] a machine integer: truncates, saturates, NaN gives 0. *)
Definition f_as (lo hi : Z) (x : f64) : Z :=
  match x with
  | B754_nan => 0
  | B754_infinity s => if s then lo else hi
  | _ => Z.max lo (Z.min hi (Btrunc x))
  end.
Definition f_as_i16 := f_as i16_min i16_max.
Definition f_as_i32 := f_as i32_min i32_max.
Definition f_as_i64 := f_as i64_min i64_max.

(** Literals: the quotient of two integers is rounded once, like a decimal
    literal. *)
Definition lit (n d : Z) : f64 := fdiv (f_of_Z n) (f_of_Z d).

Example lit_tenth : B2SF (lit 1 10) = SpecFloat.S754_finite false 7205759403792794 (-56).
Proof. vm_compute. reflexivity. Qed.
Example round_half : f_as_i32 (fround (lit 5 2)) = 3 /\ f_as_i32 (fround (lit (-5) 2)) = -3
  /\ f_as_i16 (f_of_Z 40000) = 32767 /\ f_as_i16 B754_nan = 0.
Proof. vm_compute. auto. Qed.
