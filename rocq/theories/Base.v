(** Shared vocabulary of the model: panics, machine integer ranges, casts. *)
From Coq Require Import ZArith List Bool Lia.
Import ListNotations.
Open Scope Z_scope.

(** Result of a rust computation.  [Panic] stands for every way a rust thread
    can panic: failed assert, unwrap on None/Err, failed conversion, explicit
    panic!, checked arithmetic overflow, index out of bounds.  [OutOfFuel] is a
    modelling artefact: a loop that was given too few iterations; theorems show
    it does not occur. *)
Inductive res (A : Type) : Type :=
| Ok (a : A)
| Panic
| OutOfFuel.
Arguments Ok {A} a.
Arguments Panic {A}.
Arguments OutOfFuel {A}.

Definition bind {A B} (x : res A) (f : A -> res B) : res B :=
  match x with
  | Ok a => f a
  | Panic => Panic
  | OutOfFuel => OutOfFuel
  end.

Notation "'let!' x ':=' e 'in' f" := (bind e (fun x => f))
  (at level 200, x pattern, e at level 200, f at level 200, right associativity).

(** [assert!(b)] *)
Definition assert (b : bool) : res unit := if b then Ok tt else Panic.

(** Option unwrap. *)
Definition unwrap {A} (o : option A) : res A :=
  match o with
  | Some a => Ok a
  | None => Panic
  end.

Definition i16_min := -32768.
Definition i16_max := 32767.
Definition u16_max := 65535.
Definition i32_min := -2147483648.
Definition i32_max := 2147483647.
Definition u32_max := 4294967295.
Definition i64_min := -9223372036854775808.
Definition i64_max := 9223372036854775807.
Definition u64_max := 18446744073709551615.

Definition in_range (lo hi x : Z) : bool := (lo <=? x) && (x <=? hi).

(** A value checked to be inside a machine integer type; outside is a panic
    ([try_from(..).unwrap()], or arithmetic in a build with overflow checks). *)
Definition chk (lo hi x : Z) : res Z := if in_range lo hi x then Ok x else Panic.
Definition chk_u16 := chk 0 u16_max.
Definition chk_i16 := chk i16_min i16_max.
Definition chk_i32 := chk i32_min i32_max.
Definition chk_u32 := chk 0 u32_max.
Definition chk_i64 := chk i64_min i64_max.
Definition chk_u64 := chk 0 u64_max.

(** Integer casts with [as]: reduction modulo 2^n, reinterpreted as signed where
    the target is signed. *)
Definition wrap_u (bits x : Z) : Z := x mod 2 ^ bits.
Definition wrap_s (bits x : Z) : Z :=
  let y := x mod 2 ^ bits in
  if y <? 2 ^ (bits - 1) then y else y - 2 ^ bits.
Definition as_u16 := wrap_u 16.
Definition as_i16 := wrap_s 16.
Definition as_u32 := wrap_u 32.
Definition as_i32 := wrap_s 32.
Definition as_u64 := wrap_u 64.
Definition as_i64 := wrap_s 64.

Lemma bind_Ok : forall A B (x : res A) (f : A -> res B) b,
  bind x f = Ok b <-> exists a, x = Ok a /\ f a = Ok b.
Proof.
  intros A B x f b; destruct x as [a| |]; cbn; split; try discriminate;
    try (intros [a' [H1 H2]]; congruence).
  intro H; exists a; split; auto.
Qed.

Lemma assert_Ok : forall b u, assert b = Ok u <-> b = true.
Proof. intros [] []; cbn; split; congruence. Qed.

Lemma chk_Ok : forall lo hi x y, chk lo hi x = Ok y <-> (x = y /\ lo <= x <= hi).
Proof.
  intros lo hi x y; unfold chk, in_range.
  destruct (Z.leb_spec lo x); destruct (Z.leb_spec x hi); cbn; split;
    intros H'; try discriminate; try (inversion H'; subst; split; auto; lia);
    destruct H' as [E L]; subst; try reflexivity; lia.
Qed.

Lemma chk_in : forall lo hi x, lo <= x <= hi -> chk lo hi x = Ok x.
Proof. intros; apply chk_Ok; auto. Qed.

Lemma wrap_u_id : forall bits x, 0 <= x < 2 ^ bits -> wrap_u bits x = x.
Proof. intros; unfold wrap_u; apply Z.mod_small; auto. Qed.

Lemma wrap_s_id : forall bits x, 1 <= bits ->
  - 2 ^ (bits - 1) <= x < 2 ^ (bits - 1) -> wrap_s bits x = x.
Proof.
  intros bits x Hb Hx; unfold wrap_s.
  assert (E : 2 ^ bits = 2 * 2 ^ (bits - 1)).
  { rewrite <- Z.pow_succ_r by lia. f_equal; lia. }
  rewrite E.
  destruct (Z_lt_le_dec x 0) as [Hneg|Hpos].
  - rewrite <- (Z.mod_add x 1) by lia.
    rewrite Z.mod_small by lia.
    destruct (Z.ltb_spec (x + 1 * (2 * 2 ^ (bits - 1))) (2 ^ (bits - 1))); lia.
  - rewrite Z.mod_small by lia.
    destruct (Z.ltb_spec x (2 ^ (bits - 1))); lia.
Qed.

Ltac inv_bind H :=
  repeat match type of H with
  | bind _ _ = Ok _ =>
      let a := fresh "a" in let E := fresh "E" in
      apply bind_Ok in H; destruct H as [a [E H]]
  end.
