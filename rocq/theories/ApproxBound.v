(** Following a curve: how large the accelerations get, and how long it takes. *)
From Coq Require Import ZArith Reals List Bool Lia Lra.
From Coq Require Import ZifyBool ZifyNat.
From Flocq Require Import Core BinarySingleNaN.
From Verif Require Import Base Floats FloatProofs AccVector MotionSpec AccVectorProofs IntegerCurve StepperContext
  MachineSpec MachineProofs ContextProofs ContextOps ContextHist ContextClock ContextGoto MachinePath ApproxCurve
  ApproxProofs.
Import ListNotations.
Open Scope Z_scope.

Lemma fzero_small : forall k, 0 <= k -> small k fzero.
Proof.
  intros k Hk. right. split; [reflexivity|].
  assert (E : B2R fzero = 0%R) by reflexivity.
  rewrite E, Rabs_R0. unfold sixt. apply IZR_le in Hk. lra.
Qed.

Lemma wanted_bound : forall a sum v p w err n err' acc, 0 <= a <= 32767 -> 0 <= n <= 2 ^ 31 ->
  small (2 * a * n) err -> wanted (f_of_Z a) sum v p w err = (err', acc) ->
  small (2 * a * (n + 1)) err' /\ 16 * Z.abs acc <= a * (16 + (n + 1)) + 8.
Proof.
  intros a sum v p w err n err' acc Ha Hn He H. unfold wanted in H. cbv zeta in H.
  pose proof (f_equal fst H) as H1. pose proof (f_equal snd H) as H2. cbn [fst snd] in H1, H2.
  clear H. subst err' acc.
  assert (B53 : 2 * 32767 * (2 ^ 31 + 100) < 2 ^ 53) by (vm_compute; reflexivity).
  assert (NA : 0 <= a * n <= 32767 * 2 ^ 31) by nia.
  set (ap := flimit _ (fneg (f_of_Z a)) (f_of_Z a)).
  set (av := flimit (fsub w _) (fneg (f_of_Z a)) (f_of_Z a)).
  assert (SP : small (16 * a) ap) by (apply clamp_small; auto).
  assert (SV : small (16 * a) av) by (apply clamp_small; auto).
  clearbody ap av.
  assert (S1 : small (2 * a) (fmul ap tenth)).
  { destruct tenth_bound as (F & B & P). apply fmul_small; auto; [lia| |].
    - intros Fx. destruct SP as [->|[_ Bx]]; [discriminate|]. rewrite Rabs_mult. unfold tenth, sixt in *.
      rewrite !mult_IZR in *. pose proof (Rabs_pos (B2R ap)). 
      assert (0 <= IZR a)%R by (apply IZR_le; lia).
      apply Rle_trans with (16 * IZR a / 16 * / 8)%R; [|lra].
      apply Rmult_le_compat; auto using Rabs_pos.
    - destruct SP as [->|[Fx _]]; auto. }
  set (e1 := fadd err (fmul ap tenth)).
  assert (S2 : small (2 * a * (n + 1)) e1).
  { apply (fadd_small (2 * a * n) (2 * a)); auto; lia. }
  set (e2 := if (fgt e1 fzero && flt ap fzero || flt e1 fzero && fgt ap fzero)%bool then fzero else e1).
  assert (S3 : small (2 * a * (n + 1)) e2).
  { unfold e2. destruct (_ || _)%bool; [apply fzero_small; lia|exact S2]. }
  split; [exact S3|].
  replace (a * (16 + (n + 1))) with (8 * a + (8 * a + a * (n + 1))) by ring.
  apply f_as_small; [unfold i16_min, i16_max; lia| |lia].
  apply (fadd_small (8 * a) (8 * a + a * (n + 1))); try lia.
  - unfold fone, half. rewrite one_minus_half. apply fhalf_small; try lia.
    replace (2 * (8 * a)) with (16 * a) by ring. exact SV.
  - unfold half. apply fhalf_small; try lia.
    apply (fadd_small (16 * a) (2 * a * (n + 1))); auto; lia.
Qed.

Lemma approx_one_bound : forall s start v c i pos dir err n e a t, 0 <= a_max c i <= 32767 -> 0 <= n <= 2 ^ 31 ->
  v_limit_ok (v_max c i) -> Z.abs (c_v (channel c i)) <= v_max c i -> small (2 * a_max c i * n) err ->
  approx_one s start v c i pos dir err = Ok (e, a, t) ->
  small (2 * a_max c i * (n + 1)) e /\ 16 * Z.abs a <= a_max c i * (16 + (n + 1)) + 8.
Proof.
  intros s start v c i pos dir err n e a t Ha Hn Hm Hv He H. unfold approx_one in H. cbv zeta in H. inv_bind H.
  destruct (wanted _ _ _ _ _ _) as [e' acc] eqn:W. inv_bind H. injection H as <- <- <-.
  destruct (wanted_bound _ _ _ _ _ _ n e' acc Ha Hn He W) as [S B].
  match type of W with wanted ?a ?b ?d ?e ?f ?g = _ => pose proof (wanted_range a b d e f g) as R end.
  rewrite W in R. cbn [snd] in R.
  destruct (limit_speed_spec (c_v (channel c i)) (v_max c i) acc Hm Hv R) as (a' & E' & B1 & B2 & B3).
  match goal with K : limit_speed _ _ _ = Ok _ |- _ => rewrite E' in K; injection K as <- end.
  split; [exact S|lia].
Qed.

Definition pick2 (i : axis) (a : Z * Z) : Z := match i with AX => fst a | AY => snd a end.

Lemma approx_loop_accs : forall n t s start curve v step_len c ex ey mx my c' m, clocked c ->
  1 <= t -> t + Z.of_nat n <= 2 ^ 31 -> (forall i, 0 <= a_max c i <= 32767) ->
  (forall i, v_limit_ok (v_max c i)) -> (forall i, Z.abs (c_v (channel c i)) <= v_max c i) ->
  small (2 * a_max c AX * (t - 1)) ex -> small (2 * a_max c AY * (t - 1)) ey ->
  approx_loop n t s start curve v step_len c ex ey mx my = Ok (c', m) ->
  exists accs, length accs = n /\ kept within_speed c (ticks_ops accs) c' /\
    forall k i, (k < n)%nat ->
      16 * Z.abs (pick2 i (nth k accs (0, 0))) <= a_max c i * (16 + (t + Z.of_nat k)) + 8.
Proof.
  induction n as [|n IH]; intros t s start curve v step_len c ex ey mx my c' m Hc Ht Hn Ha Hm Hv Sx Sy H;
    cbn [approx_loop] in H.
  - injection H as <- _. exists []. split; [reflexivity|]. split; [constructor|]. intros; lia.
  - apply bind_Ok in H. destruct H as ([pos dir] & E0 & H).
    apply bind_Ok in H. destruct H as ([[ex' ax] tx] & E1 & H).
    apply bind_Ok in H. destruct H as ([[ey' ay] ty] & E2 & H).
    apply bind_Ok in H. destruct H as (c1 & E3 & H).
    apply bind_Ok in H. destruct H as (dx & E4 & H). apply bind_Ok in H. destruct H as (dy & E5 & H).
    destruct (approx_one_spec _ _ _ _ _ _ _ _ _ _ _ (Hm AX) (Hv AX) E1) as [Bx Rx].
    destruct (approx_one_spec _ _ _ _ _ _ _ _ _ _ _ (Hm AY) (Hv AY) E2) as [By Ry].
    destruct (approx_one_bound _ _ _ _ _ _ _ _ (t - 1) _ _ _ (Ha AX) ltac:(lia) (Hm AX) (Hv AX) Sx E1) as [SX AX'].
    destruct (approx_one_bound _ _ _ _ _ _ _ _ (t - 1) _ _ _ (Ha AY) ltac:(lia) (Hm AY) (Hv AY) Sy E2) as [SY AY'].
    replace (t - 1 + 1) with t in * by lia.
    destruct (add_acc_interval_spec c ax ay 1 c1 Hc ltac:(lia) E3) as (Sp & _ & _ & T & Sy' & _ & St & _).
    assert (CM : forall i, v_max c1 i = v_max c i /\ a_max c1 i = a_max c i) by (apply config_max, Sp).
    assert (Ha1 : forall i, 0 <= a_max c1 i <= 32767) by (intros i; rewrite (proj2 (CM i)); apply Ha).
    assert (Hm1 : forall i, v_limit_ok (v_max c1 i)) by (intros i; rewrite (proj1 (CM i)); apply Hm).
    assert (Hv1 : forall i, Z.abs (c_v (channel c1 i)) <= v_max c1 i).
    { intros i. rewrite (proj1 (CM i)).
      pose proof (f_equal snd (St i)) as V. cbn [c_state snd] in V. rewrite V. destruct i; lia. }
    assert (SX1 : small (2 * a_max c1 AX * (t + 1 - 1)) ex').
    { rewrite (proj2 (CM AX)). replace (t + 1 - 1) with t by lia. exact SX. }
    assert (SY1 : small (2 * a_max c1 AY * (t + 1 - 1)) ey').
    { rewrite (proj2 (CM AY)). replace (t + 1 - 1) with t by lia. exact SY. }
    destruct (IH (t + 1) s start curve v step_len c1 ex' ey' (acc_max mx dx) (acc_max my dy) c' m
      (st_clocked _ _ Sp) ltac:(lia) ltac:(lia) Ha1 Hm1 Hv1 SX1 SY1 H) as (accs & L & K & B).
    exists ((ax, ay) :: accs). split; [cbn [length]; lia|]. split.
    + cbn [ticks_ops map fst snd]. econstructor; [cbn; lia| |exact E3|exact K].
      cbn [within_speed]. rewrite !Z.mul_1_r. split; assumption.
    + intros k i Hk. destruct k as [|k]; cbn [nth].
      * rewrite Z.add_0_r. destruct i; cbn [pick2 fst snd]; assumption.
      * specialize (B k i ltac:(lia)). rewrite (proj2 (CM i)) in B.
        replace (t + Z.of_nat (S k)) with (t + 1 + Z.of_nat k) by lia. exact B.
Qed.
