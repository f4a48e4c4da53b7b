(** Property C21: i64 overflow in the curve planner (src/integer_curve.rs and
    src/solve.rs).  [c_...] are the functions of CheckedCurve.v, which panic at
    every operation that leaves i64; the functions without the prefix compute
    with unbounded integers. *)
From Coq Require Import ZArith List Bool Lia ZifyBool.
From Verif Require Import Base MultiRange MultiRangeSpec MultiRangeProofs AccVector Solve IntegerCurve CurveArith CurveAdjust RangeProofs
  AdjustSpec PlanProofs PropsIntegerCurve PropsSpeeds CheckedCurve CheckedProofs CheckedBounds.
Import ListNotations.
Open Scope Z_scope.

(** Whatever the arguments, overflow checks can only turn a result into a
    panic: they never change it. *)
Theorem C21_checked_or_panic :
  (forall ds v0 vn a vmax, 0 < a -> 0 < vmax ->
     c_shortest_curve_length ds v0 vn a vmax = Panic \/
     c_shortest_curve_length ds v0 vn a vmax = shortest_curve_length ds v0 vn a vmax) /\
  (forall ds v0 vn a vmax, 0 < a -> 0 < vmax ->
     c_shortest_curve ds v0 vn a vmax = Panic \/
     c_shortest_curve ds v0 vn a vmax = shortest_curve ds v0 vn a vmax) /\
  (forall p, c_acc_seq p = Panic \/ c_acc_seq p = acc_seq p) /\
  (forall limits, (forall l, In l limits -> 0 < l_a l /\ 0 < l_vmax l) ->
     c_shortest_curve_sequences limits = Panic \/
     c_shortest_curve_sequences limits = shortest_curve_sequences limits).
Proof.
  split; [exact r_shortest_curve_length|]. split; [exact r_shortest_curve|].
  split; [exact r_acc_seq|exact r_shortest_curve_sequences].
Qed.

Lemma request_small : forall ds v0 vn a vmax, any_request ds v0 vn a vmax ->
  small ds v0 vn a /\ 1 <= vmax <= 1048576.
Proof. intros ds v0 vn a vmax H. unfold any_request in H. unfold small. lia. Qed.

(** The durations are computed without overflow for every request, even with speeds beyond the limit. *)
Theorem C21_lengths : forall ds v0 vn a vmax, any_request ds v0 vn a vmax ->
  c_shortest_curve_length ds v0 vn a vmax = shortest_curve_length ds v0 vn a vmax.
Proof.
  intros ds v0 vn a vmax H. apply request_small in H. destruct H as [H1 H2].
  apply lengths_ok; assumption.
Qed.

Example C21_lengths_ex :
  any_request (2 ^ 40) (- 2 ^ 20) (2 ^ 20) 32767 (2 ^ 20) /\
  c_shortest_curve_length (2 ^ 40) (- 2 ^ 20) (2 ^ 20) 32767 (2 ^ 20) = Ok [(524353, i64_max)] /\
  any_request (- 2 ^ 40) 0 (2 ^ 20) 1 1 /\
  c_shortest_curve_length (- 2 ^ 40) 0 (2 ^ 20) 1 1 = Ok [(1099512676353, i64_max)].
Proof. split; [unfold any_request; lia|]. split; [reflexivity|]. split; [unfold any_request; lia|reflexivity]. Qed.

(** A plan of [t] ticks is found without overflow if a * t^2 is at most 2^58,
    and so is its acceleration sequence. *)
Theorem C21_plans : forall ds v0 vn a vmax r t, any_request ds v0 vn a vmax ->
  shortest_curve_length ds v0 vn a vmax = Ok r -> covers r t -> a * t * t <= 2 ^ 58 ->
  exists p, adjust_curve t ds v0 vn a = Ok p /\
    c_adjust_curve t ds v0 vn a = Ok p /\ c_acc_seq p = acc_seq p.
Proof.
  intros ds v0 vn a vmax r t H Er Ct Hs.
  destruct (request_small _ _ _ _ _ H) as [Hsm Hv].
  destruct (length_any _ _ _ _ _ H) as (r' & E & O & N & C & T).
  assert (r' = r) by congruence. subst r'. destruct (C t Ct) as (Ht & Hhi & Hlo).
  destruct (plan_any ds v0 vn a vmax t H ltac:(lia) Hhi Hlo) as (p & Ep & P).
  exists p. split; [exact Ep|].
  assert (Sh : short a t) by (split; [lia|exact Hs]).
  destruct (adjust_curve_ok t ds v0 vn a Hsm Sh p Ep) as [Ec Tm].
  split; [exact Ec|]. apply (acc_seq_ok t p Tm).
  assert (K := short_time a t ltac:(destruct Hsm; lia) Sh). lia.
Qed.

Example C21_plans_ex :
  any_request 100000000 0 0 10 5000 /\
  shortest_curve_length 100000000 0 0 10 5000 = Ok [(10500, i64_max)] /\
  10 * 10500 * 10500 <= 2 ^ 58 /\
  c_adjust_curve 10500 100000000 0 0 10 = Ok (mk_path 0 0 10 5000 10500 0).
Proof. split; [unfold any_request; lia|]. split; [reflexivity|]. split; [lia|reflexivity]. Qed.

Lemma seqs_agree : forall t limits, 1 <= t -> Forall axis_any limits -> Forall (axis_can t) limits ->
  c_seqs_for t limits = seqs_for t limits.
Proof.
  assert (NF : forall s t a, push_conv s t a <> OutOfFuel).
  { intros s t a. unfold push_conv.
    assert (NC : forall lo hi x, chk lo hi x <> OutOfFuel)
      by (intros lo hi x; unfold chk; destruct (in_range lo hi x); discriminate).
    assert (NA : forall v x y, acc_push v x y <> OutOfFuel).
    { induction v as [|[i c] v IH]; intros x y; cbn [acc_push];
        (destruct (x =? 0); [discriminate|]); [discriminate|].
      destruct v as [|s2 v].
      - destruct (c =? y); [|discriminate]. destruct (chk_u16 (i + x)) eqn:E; cbn [bind]; try discriminate.
        exfalso; exact (NC _ _ _ E).
      - specialize (IH x y). destruct (acc_push (s2 :: v) x y); cbn [bind]; congruence. }
    destruct (chk_u16 t) eqn:E1; cbn [bind]; [|discriminate|exfalso; exact (NC _ _ _ E1)].
    destruct (chk_i16 a) eqn:E2; cbn [bind]; [|discriminate|exfalso; exact (NC _ _ _ E2)].
    apply NA. }
  assert (BF : forall A B (x : res A) (f : A -> res B), x <> OutOfFuel -> (forall a, f a <> OutOfFuel) ->
    bind x f <> OutOfFuel).
  { intros A B x f Hx Hf. destruct x; cbn [bind]; [apply Hf|discriminate|congruence]. }
  assert (AF : forall b, assert b <> OutOfFuel) by (intros [|]; discriminate).
  assert (DF : forall x y, div_rem_away x y <> OutOfFuel).
  { intros x y. unfold div_rem_away. apply BF; [apply AF|intros _]. destruct (_ ?= 0); discriminate. }
  assert (SF : forall p, acc_seq p <> OutOfFuel).
  { intro p. unfold acc_seq, acc_seq_step, rem_chk. destruct (_ <=? 1).
    - destruct (_ =? 0); (apply BF; [apply AF|intros _]); [discriminate|apply NF].
    - apply BF; [|intros [[vs ve] ts]].
      { destruct (_ ?= 0); [discriminate| |];
          match goal with |- (if ?b then _ else _) <> _ => destruct b end;
          repeat (first [discriminate | apply AF | apply BF; [|intro]]). }
      repeat (first [ apply BF; [apply DF|intros [? ?]] | apply BF; [apply AF|intros _] ]).
      apply BF; [destruct (_ =? 0); repeat (first [apply NF | apply BF; [apply NF|intro]])|intro].
      apply BF; [apply AF|intros _].
      apply BF; [destruct (_ ?= 0); repeat (first [apply NF | apply BF; [apply NF|intro]])|intro].
      destruct (_ =? 0); repeat (first [apply NF | apply BF; [apply NF|intro]]). }
  intros t limits Ht. induction limits as [|l rest IH]; intros HR HF; [reflexivity|].
  inversion HR as [|l' r' Hl Hrest]; subst. inversion HF as [|l' r' (_ & Hhi & Hlo) HF']; subst.
  destruct (request_small _ _ _ _ _ Hl) as [Hsm Hv].
  destruct (plan_any _ _ _ _ _ t Hl Ht Hhi Hlo) as (p & Ep & P).
  assert (Et : p_t_total p = t) by apply P.
  assert (Ha : 0 < l_a l) by (destruct Hsm; lia).
  cbn [c_seqs_for seqs_for]. rewrite Ep; cbn [bind].
  destruct (acc_seq p) as [s| |] eqn:Es.
  - assert (T := acc_seq_time p s Es). rewrite Et in T.
    assert (Sh : short (l_a l) t) by (apply short_of_time; [destruct Hsm; lia|lia]).
    destruct (adjust_curve_ok t _ _ _ _ Hsm Sh p Ep) as [Ec Tm].
    rewrite Ec; cbn [bind]. rewrite (acc_seq_ok t p Tm) by lia. rewrite Es; cbn [bind].
    rewrite (IH Hrest HF'). reflexivity.
  - cbn [bind]. destruct (r_adjust_curve t (l_ds l) (l_v0 l) (l_vn l) (l_a l) Ha) as [Ec|Ec];
      rewrite Ec; cbn [bind]; [reflexivity|].
    rewrite Ep; cbn [bind]. destruct (r_acc_seq p) as [K|K]; rewrite K; [reflexivity|].
    rewrite Es. reflexivity.
  - exfalso. exact (SF p Es).
Qed.

(** What the program uses, a sequence for each axis, is the same with and
    without overflow checks: wherever an overflow happens the sequence would be
    too long to be stored in any case. *)
Theorem C21_sequences : forall limits, Forall axis_any limits ->
  c_shortest_curve_sequences limits = shortest_curve_sequences limits.
Proof.
  intros limits H.
  assert (L : forall ls r, Forall axis_any ls -> c_and_limits r ls = and_limits r ls).
  { induction ls as [|l ls IH]; intros r Hr; [reflexivity|]. inversion Hr; subst.
    cbn [c_and_limits and_limits]. rewrite C21_lengths by assumption.
    destruct (shortest_curve_length _ _ _ _ _); cbn [bind]; [|reflexivity..]. apply IH; assumption. }
  destruct limits as [|l0 rest]; [reflexivity|].
  destruct (sequences_any (l0 :: rest) ltac:(discriminate) H) as (t & r & h & E & EB & Ht & C1 & C2 & Es & HF).
  rewrite Es. unfold c_shortest_curve_sequences.
  change (mr_or mr_new i64_min i64_max) with (@Ok mrange [(i64_min, i64_max)]). cbn [bind].
  rewrite L by assumption. rewrite E; cbn [bind]. rewrite EB; cbn [unwrap bind].
  apply seqs_agree; assumption.
Qed.

Example C21_sequences_ex :
  Forall axis_any [mk_limits (-100) 30000 (-20000) 70 40000; mk_limits (-1000) 0 0 1 3] /\
  c_shortest_curve_sequences [mk_limits (-100) 30000 (-20000) 70 40000; mk_limits (-1000) 0 0 1 3] =
  Ok [[(777, -70); (1, -5); (21, 0); (1, 1); (9, 0); (1, 54); (62, 70)];
      [(1, -1); (499, 0); (1, 1); (371, 0)]].
Proof. split; [repeat constructor; cbn; lia|reflexivity]. Qed.

(** That no intermediate value of the search leaves i64 for any request is
    false: the bounds of the search ignore the speed limit, so that for a slow
    and long movement the distance at the upper bound overflows. *)
Theorem C21_overflow_refuted :
  request (2 ^ 26) 0 0 32767 1 /\
  shortest_curve (2 ^ 26) 0 0 32767 1 = Ok (mk_path 0 0 32767 1 33554433 0) /\
  c_shortest_curve (2 ^ 26) 0 0 32767 1 = Panic.
Proof. split; [unfold request; lia|]. split; vm_compute; reflexivity. Qed.

Print Assumptions C21_checked_or_panic.
Print Assumptions C21_lengths.
Print Assumptions C21_plans.
Print Assumptions C21_sequences.
Print Assumptions C21_overflow_refuted.
