(** Following a curve: speed limit, duration, success. *)
From Coq Require Import ZArith List Bool Lia.
From Coq Require Import ZifyBool ZifyNat.
From Verif Require Import Base Floats AccVector MotionSpec AccVectorProofs IntegerCurve StepperContext
  MachineSpec MachineProofs ContextProofs ContextOps ContextHist ContextClock ContextGoto MachinePath ApproxCurve.
Import ListNotations.
Open Scope Z_scope.

Lemma f_as_range : forall lo hi x, lo <= 0 <= hi -> lo <= f_as lo hi x <= hi.
Proof. intros lo hi [s|s| |s m e H] Hr; cbn [f_as]; try destruct s; lia. Qed.

Lemma f_as_i16_range : forall x, i16_min <= f_as_i16 x <= i16_max.
Proof. intros x. apply f_as_range. unfold i16_min, i16_max. lia. Qed.

Lemma wanted_range : forall a sum v p w e, i16_min <= snd (wanted a sum v p w e) <= i16_max.
Proof. intros. unfold wanted. cbv zeta. cbn [snd]. apply f_as_i16_range. Qed.

(** Velocity limits for which no cast to i16 wraps. *)
Definition v_limit_ok (m : Z) : Prop := 0 <= m <= 2 ^ 31 - 1 - 32768.

Lemma limit_speed_spec : forall v m acc, v_limit_ok m -> Z.abs v <= m -> i16_min <= acc <= i16_max ->
  exists a, limit_speed v m acc = Ok a /\ Z.abs (v + a) <= m /\ Z.abs a <= Z.abs acc /\
    i16_min <= a <= i16_max.
Proof.
  intros v m acc Hm Hv Ha. unfold v_limit_ok in Hm. unfold i16_min, i16_max in *.
  assert (C : forall z, i32_min <= z <= i32_max -> chk_i32 z = Ok z) by (intros; apply chk_in; auto).
  unfold i32_min, i32_max in C. unfold limit_speed.
  destruct (Z.ltb_spec acc 0).
  - rewrite (C (v + acc)), (C (- m)) by lia. cbn [bind].
    destruct (Z.ltb_spec (v + acc) (- m)).
    + rewrite (C (- m - v)) by lia. cbn [bind]. exists (- m - v).
      unfold as_i16. rewrite wrap_s_id by lia. split; [reflexivity|]. lia.
    + destruct (Z.gtb_spec acc 0); [lia|]. cbn [bind]. exists acc. split; [reflexivity|]. lia.
  - cbn [bind]. destruct (Z.gtb_spec acc 0).
    + rewrite (C (v + acc)) by lia. cbn [bind]. destruct (Z.gtb_spec (v + acc) m).
      * rewrite (C (m - v)) by lia. cbn [bind]. exists (m - v).
        unfold as_i16. rewrite wrap_s_id by lia. split; [reflexivity|]. lia.
      * exists acc. split; [reflexivity|]. lia.
    + cbn [bind]. exists acc. split; [reflexivity|]. lia.
Qed.

(** One tick per pair of accelerations. *)
Definition ticks_ops (accs : list (Z * Z)) : list op := map (fun a => AddAcc (fst a) (snd a) 1) accs.

Lemma approx_one_spec : forall s start v c i pos dir err e a t,
  v_limit_ok (v_max c i) -> Z.abs (c_v (channel c i)) <= v_max c i ->
  approx_one s start v c i pos dir err = Ok (e, a, t) ->
  Z.abs (c_v (channel c i) + a) <= v_max c i /\ i16_min <= a <= i16_max.
Proof.
  intros s start v c i pos dir err e a t Hm Hv H. unfold approx_one in H. cbv zeta in H. inv_bind H.
  destruct (wanted _ _ _ _ _ _) as [e' acc] eqn:W. inv_bind H. injection H as <- <- <-.
  pose proof (wanted_range (f_of_Z (a_max c i)) a1 (c_v (channel c i))
     (fmul (fadd (fidx pos i) (fidx start i)) (step_scale s i))
     (fmul (fmul (fidx dir i) v) (v_scale s i)) err) as R. rewrite W in R. cbn [snd] in R.
  destruct (limit_speed_spec (c_v (channel c i)) (v_max c i) acc Hm Hv R) as (a' & E' & B1 & B2 & B3).
  match goal with K : limit_speed _ _ _ = Ok _ |- _ => rewrite E' in K; injection K as <- end. auto.
Qed.

Lemma approx_loop_ops : forall n t s start curve v step_len c ex ey mx my c' m, clocked c ->
  (forall i, v_limit_ok (v_max c i)) -> (forall i, Z.abs (c_v (channel c i)) <= v_max c i) ->
  approx_loop n t s start curve v step_len c ex ey mx my = Ok (c', m) ->
  exists accs, length accs = n /\ kept within_speed c (ticks_ops accs) c'.
Proof.
  induction n as [|n IH]; intros t s start curve v step_len c ex ey mx my c' m Hc Hm Hv H; cbn [approx_loop] in H.
  - injection H as <- _. exists []. split; [reflexivity|constructor].
  - apply bind_Ok in H. destruct H as ([pos dir] & E0 & H).
    apply bind_Ok in H. destruct H as ([[ex' ax] tx] & E1 & H).
    apply bind_Ok in H. destruct H as ([[ey' ay] ty] & E2 & H).
    apply bind_Ok in H. destruct H as (c1 & E3 & H).
    apply bind_Ok in H. destruct H as (dx & E4 & H). apply bind_Ok in H. destruct H as (dy & E5 & H).
    destruct (approx_one_spec _ _ _ _ _ _ _ _ _ _ _ (Hm AX) (Hv AX) E1) as [Bx Rx].
    destruct (approx_one_spec _ _ _ _ _ _ _ _ _ _ _ (Hm AY) (Hv AY) E2) as [By Ry].
    destruct (add_acc_interval_spec c ax ay 1 c1 Hc ltac:(lia) E3) as (S & _ & _ & T & Sy & _ & St & _).
    assert (M1 : forall i, v_limit_ok (v_max c1 i)).
    { intros i. rewrite (proj1 (config_max c c1 (st_config _ _ S) i)). apply Hm. }
    assert (V1 : forall i, Z.abs (c_v (channel c1 i)) <= v_max c1 i).
    { intros i. rewrite (proj1 (config_max c c1 (st_config _ _ S) i)).
      pose proof (f_equal snd (St i)) as V. cbn [c_state snd] in V. rewrite V. destruct i; lia. }
    destruct (IH _ _ _ _ _ _ c1 _ _ _ _ _ _ (st_clocked _ _ S) M1 V1 H) as (accs & L & K).
    exists ((ax, ay) :: accs). split; [cbn [length]; lia|].
    cbn [ticks_ops map fst snd]. econstructor; [cbn; lia| |exact E3|exact K].
    cbn [within_speed]. rewrite !Z.mul_1_r. split; assumption.
Qed.

(** Without any assumption on the velocities. *)
Lemma approx_loop_history : forall n t s start curve v step_len c ex ey mx my c' m, clocked c ->
  approx_loop n t s start curve v step_len c ex ey mx my = Ok (c', m) ->
  exists accs, length accs = n /\ history shortest_curve_sequences c (ticks_ops accs) c' /\ step c c' /\
    (forall i, ticks_of c' i = ticks_of c i + Z.of_nat n) /\ (n <> 0%nat -> ticks_of c AX = ticks_of c AY) /\
    curve_weight c' = curve_weight c /\
    (forall u w, play_weight (events c') u w = play_weight (events c) u w).
Proof.
  induction n as [|n IH]; intros t s start curve v step_len c ex ey mx my c' m Hc H; cbn [approx_loop] in H.
  - injection H as <- _. exists []. split; [reflexivity|]. split; [constructor|]. split; [apply step_refl, Hc|].
    split; [intros; lia|]. split; [congruence|]. auto.
  - apply bind_Ok in H. destruct H as ([pos dir] & E0 & H).
    apply bind_Ok in H. destruct H as ([[ex' ax] tx] & E1 & H).
    apply bind_Ok in H. destruct H as ([[ey' ay] ty] & E2 & H).
    apply bind_Ok in H. destruct H as (c1 & E3 & H).
    apply bind_Ok in H. destruct H as (dx & E4 & H). apply bind_Ok in H. destruct H as (dy & E5 & H).
    destruct (add_acc_interval_spec c ax ay 1 c1 Hc ltac:(lia) E3) as (S & W & _ & T & Sy & _ & _ & PW).
    destruct (IH _ _ _ _ _ _ c1 _ _ _ _ _ _ (st_clocked _ _ S) H) as (accs & L & K & S2 & T2 & _ & W2 & PW2).
    exists ((ax, ay) :: accs). split; [cbn [length]; lia|].
    split; [cbn [ticks_ops map fst snd]; econstructor; [cbn; lia|exact E3|exact K]|].
    split; [eapply step_trans; eauto|].
    split; [intros i; rewrite T2, T; lia|]. split; [auto|]. split; [congruence|].
    intros u w. rewrite PW2. apply PW.
Qed.

(** ** Success *)

Lemma add_acc_one_ok : forall c i a, clocked c -> event_ticks c <= ticks_of c i -> ticks_of c i + 1 <= u64_max ->
  i16_min <= a <= i16_max -> Z.abs (c_pos (channel c i)) <= 2 ^ 62 -> Z.abs (c_v (channel c i)) < 2 ^ 31 ->
  Z.abs (c_v (channel c i) + a) < 2 ^ 31 -> exists c', add_acc_one c i a 1 = Ok c'.
Proof.
  intros c i a Hc He Ht Ha Hp Hv Hw. unfold i16_min, i16_max in *. pose proof (ck_ticks c Hc i) as Hti.
  unfold add_acc_one. fold (ticks_of c i).
  destruct (push_event_ok c (ticks_of c i) (Acc (axis_index i) a)) as [c1 E1]; auto; try lia.
  rewrite E1. cbn [bind].
  assert (C : forall z, i64_min <= z <= i64_max -> chk_i64 z = Ok z) by (intros; apply chk_in; auto).
  assert (D : forall z, i32_min <= z <= i32_max -> chk_i32 z = Ok z) by (intros; apply chk_in; auto).
  unfold i64_min, i64_max in C. unfold i32_min, i32_max in D.
  rewrite (C (2 * 1)) by lia. cbn [bind]. rewrite (C (2 * 1 * _)) by lia. cbn [bind].
  rewrite (C (1 * 1)) by lia. cbn [bind]. rewrite (C (1 * 1 * a)) by lia. cbn [bind].
  rewrite (C (2 * 1 * _ + _)) by lia. cbn [bind]. rewrite (C (c_pos _ + _)) by lia. cbn [bind].
  change (as_i32 1) with 1. rewrite (D (1 * a)) by lia. cbn [bind]. rewrite (D (c_v _ + _)) by lia. cbn [bind].
  unfold chk_u64. rewrite chk_in by lia. cbn [bind]. eauto.
Qed.

Lemma add_acc_ok : forall c ax ay, clocked c -> ticks_of c AX = ticks_of c AY -> event_ticks c <= ticks_of c AX ->
  ticks_of c AX + 1 <= u64_max ->
  i16_min <= ax <= i16_max -> i16_min <= ay <= i16_max ->
  (forall i, Z.abs (c_pos (channel c i)) <= 2 ^ 62 /\ Z.abs (c_v (channel c i)) < 2 ^ 31) ->
  Z.abs (c_v (channel c AX) + ax) < 2 ^ 31 -> Z.abs (c_v (channel c AY) + ay) < 2 ^ 31 ->
  exists c', add_acc_interval c ax ay 1 = Ok c'.
Proof.
  intros c ax ay Hc Hs He Ht Hx Hy Hb Hvx Hvy. unfold add_acc_interval. cbn [Z.geb Z.compare assert bind].
  change (1 >=? 1) with true. cbn [assert bind].
  destruct (Hb AX) as [PX VX]. destruct (Hb AY) as [PY VY].
  destruct (add_acc_one_ok c AX ax) as [c1 E1]; auto. rewrite E1. cbn [bind].
  destruct (add_acc_one_spec c AX ax 1 c1 Hc ltac:(lia) E1) as (S1 & W1 & T1 & T1' & M1 & M1' & P1 & V1 & _).
  destruct (add_acc_one_clocked c AX ax 1 c1 Hc ltac:(unfold u32_max; lia) E1) as (K1 & ET & _ & _).
  assert (Y : AY <> AX) by discriminate. specialize (T1' _ Y). destruct (M1' _ Y) as [_ SY].
  pose proof (f_equal fst SY) as SP. pose proof (f_equal snd SY) as SV. cbn [c_state fst snd] in SP, SV.
  destruct (add_acc_one_ok c1 AY ay) as [c2 E2]; rewrite ?SP, ?SV, ?T1', ?ET; auto; try lia.
  rewrite E2. cbn [bind].
  destruct (add_acc_one_clocked c1 AY ay 1 c2 K1 ltac:(unfold u32_max; lia) E2) as (K2 & ET2 & U2 & U2').
  rewrite U2, U2', T1, T1' by discriminate.
  replace (ticks_of c AX + 1 =? ticks_of c AY + 1) with true by lia. cbn [assert bind]. eauto.
Qed.

(** The place the curve asks for, in steps, as the code computes it. *)
Definition target (s : scales) (start pos : fvec) (i : axis) : Z :=
  f_as_i64 (fmul (fadd (fidx pos i) (fidx start i)) (step_scale s i)).

Definition tame_curve (s : scales) (start : fvec) (curve : fcurve) (step_len : f64) (t n : Z) : Prop :=
  forall k, t <= k < t + n -> exists pos dir, fc_value curve (fmul (f_of_Z k) step_len) = Ok (pos, dir) /\
    forall i, Z.abs (target s start pos i) <= 2 ^ 62.

Definition roomy (c : ctx) (n : Z) : Prop :=
  forall i, v_limit_ok (v_max c i) /\ Z.abs (c_v (channel c i)) <= v_max c i /\
    Z.abs (c_pos (channel c i)) + 2 * v_max c i * n <= 2 ^ 61.

Lemma approx_one_ok : forall s start v c i pos dir err, v_limit_ok (v_max c i) ->
  Z.abs (c_v (channel c i)) <= v_max c i -> Z.abs (c_pos (channel c i)) <= 2 ^ 61 ->
  exists e a, approx_one s start v c i pos dir err = Ok (e, a, target s start pos i).
Proof.
  intros s start v c i pos dir err Hm Hv Hp. unfold approx_one. cbv zeta.
  assert (C : forall z, i64_min <= z <= i64_max -> chk_i64 z = Ok z) by (intros; apply chk_in; auto).
  unfold i64_min, i64_max in C. assert (2 ^ 31 = 2147483648) by reflexivity.
  unfold v_limit_ok in Hm. rewrite (C (2 * _)) by lia. cbn [bind]. rewrite (C (_ + _)) by lia. cbn [bind].
  destruct (wanted _ _ _ _ _ _) as [e acc] eqn:W.
  match type of W with wanted ?a ?b ?d ?e ?f ?g = _ => pose proof (wanted_range a b d e f g) as R end.
  rewrite W in R. cbn [snd] in R.
  destruct (limit_speed_spec (c_v (channel c i)) (v_max c i) acc Hm Hv R) as (a' & E' & _).
  rewrite E'. cbn [bind]. eauto.
Qed.

Lemma approx_loop_ok : forall n t s start curve v step_len c ex ey mx my, timely c ->
  ticks_of c AX = ticks_of c AY -> ticks_of c AX + Z.of_nat n < u64_max ->
  tame_curve s start curve step_len t (Z.of_nat n) -> roomy c (Z.of_nat n) ->
  exists c' m, approx_loop n t s start curve v step_len c ex ey mx my = Ok (c', m).
Proof.
  induction n as [|n IH]; intros t s start curve v step_len c ex ey mx my [Hc He] Hs Ht Hf Hr; cbn [approx_loop]; [eauto|].
  destruct (Hf t ltac:(lia)) as (pos & dir & E0 & Tg). rewrite E0. cbn [bind].
  assert (R0 : forall i, v_limit_ok (v_max c i) /\ Z.abs (c_v (channel c i)) <= v_max c i /\
     Z.abs (c_pos (channel c i)) + 2 * v_max c i <= 2 ^ 61).
  { intros i. destruct (Hr i) as (A & B & D). split; [exact A|]. split; [exact B|].
    unfold v_limit_ok in A. nia. }
  assert (R1 : forall i, Z.abs (c_pos (channel c i)) <= 2 ^ 61) by (intros i; destruct (R0 i) as (A & B & D); unfold v_limit_ok in A; lia).
  destruct (approx_one_ok s start v c AX pos dir ex) as (ex' & ax & E1); try apply R0; auto. rewrite E1. cbn [bind].
  destruct (approx_one_ok s start v c AY pos dir ey) as (ey' & ay & E2); try apply R0; auto. rewrite E2. cbn [bind].
  destruct (approx_one_spec _ _ _ _ _ _ _ _ _ _ _ (proj1 (R0 AX)) (proj1 (proj2 (R0 AX))) E1) as [Bx Rx].
  destruct (approx_one_spec _ _ _ _ _ _ _ _ _ _ _ (proj1 (R0 AY)) (proj1 (proj2 (R0 AY))) E2) as [By Ry].
  assert (Q : 2 ^ 61 <= 2 ^ 62) by (vm_compute; congruence).
  assert (Q31 : 2 ^ 31 - 1 - 32768 < 2 ^ 31) by (vm_compute; congruence).
  destruct (add_acc_ok c ax ay) as [c1 E3]; auto; try lia.
  { intros i. destruct (R0 i) as (A & B & D). unfold v_limit_ok in A. specialize (R1 i). lia. }
  { destruct (R0 AX) as (A & _). unfold v_limit_ok in A. lia. }
  { destruct (R0 AY) as (A & _). unfold v_limit_ok in A. lia. }
  rewrite E3. cbn [bind].
  destruct (add_acc_interval_spec c ax ay 1 c1 Hc ltac:(lia) E3) as (S & _ & _ & T & Sy & _ & St & _).
  assert (PB : forall i, Z.abs (c_v (channel c1 i)) <= v_max c i /\
    Z.abs (c_pos (channel c1 i)) <= Z.abs (c_pos (channel c i)) + 2 * v_max c i).
  { intros i. pose proof (f_equal snd (St i)) as V. pose proof (f_equal fst (St i)) as P. cbn [c_state fst snd] in V, P.
    destruct (R0 i) as (A & B & D). rewrite V, P. destruct i; lia. }
  assert (CM : forall i, v_max c1 i = v_max c i) by (intros i; apply (config_max c c1 (st_config _ _ S) i)).
  assert (D : forall i, exists d, pos_error c1 i (target s start pos i) = Ok d).
  { intros i. destruct (PB i) as [_ PBi]. destruct (R0 i) as (A & B & D). specialize (Tg i). specialize (R1 i).
    unfold pos_error, chk_i64.
    assert (G : 2 ^ 61 + 2 ^ 62 < i64_max) by (vm_compute; reflexivity).
    assert (G' : i64_min < - i64_max) by (vm_compute; reflexivity).
    rewrite chk_in by lia. cbn [bind]. rewrite chk_in by lia. eauto. }
  destruct (D AX) as [dx Dx]. destruct (D AY) as [dy Dy]. rewrite Dx, Dy. cbn [bind].
  apply IH; auto.
  - apply (now_op_timely shortest_curve_sequences c (AddAcc ax ay 1) c1 planner_typed); [split; auto|cbn; unfold u32_max; lia|exact E3].
  - rewrite !T. lia.
  - rewrite T. lia.
  - intros k Hk. apply Hf. lia.
  - intros i. destruct (Hr i) as (A & B & E). destruct (PB i) as [P1 P2]. rewrite CM.
    split; [exact A|]. split; [lia|]. unfold v_limit_ok in A. nia.
Qed.
