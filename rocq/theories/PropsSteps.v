(** Property C105: coordinates become steps by rounding, or are refused. *)
From Coq Require Import ZArith Reals List Bool Lia Lra.
From Flocq Require Import Core BinarySingleNaN.
From Verif Require Import Base Floats FloatProofs FloatScale FloatErr AccVector StepperContext MachineSpec ApproxCurve DrawCurves
  FloatPath FloatCurve PropsApprox PropsDraw DrawProofs PropsError DrawPlan.
Import ListNotations.
Open Scope R_scope.

(** [n] is the integer nearest to [r], the one further from zero when there are two. *)
Definition nearest_away (r : R) (n : Z) : Prop :=
  Rabs (IZR n - r) <= / 2 /\ (Rabs (IZR n - r) = / 2 -> Rabs r < Rabs (IZR n)).

Lemma tie_up : forall z, (1 <= z)%Z -> ZnearestA (IZR z - / 2) = z.
Proof.
  intros z Hz. unfold Znearest. assert (F : Zfloor (IZR z - / 2) = (z - 1)%Z) by (apply Zfloor_imp; rewrite plus_IZR, minus_IZR; lra).
  rewrite F. rewrite Rcompare_Eq by (rewrite minus_IZR; lra). replace (0 <=? z - 1)%Z with true by (symmetry; apply Z.leb_le; lia).
  apply Zceil_imp. rewrite minus_IZR. lra.
Qed.

Lemma tie_down : forall z, (z <= -1)%Z -> ZnearestA (IZR z + / 2) = z.
Proof.
  intros z Hz. unfold Znearest. assert (F : Zfloor (IZR z + / 2) = z) by (apply Zfloor_imp; rewrite plus_IZR; lra).
  rewrite F. rewrite Rcompare_Eq by lra. replace (0 <=? z)%Z with false by (symmetry; apply Z.leb_gt; lia). reflexivity.
Qed.

Lemma nearest_is : forall r n, nearest_away r n <-> n = ZnearestA r.
Proof.
  assert (U : forall r n, nearest_away r n -> ZnearestA r = n).
  { intros r n [B T]. destruct (Rlt_or_le (Rabs (IZR n - r)) (/ 2)) as [L|L].
    - apply Znearest_imp. rewrite Rabs_minus_sym. exact L.
    - specialize (T ltac:(lra)). assert (E : Rabs (IZR n - r) = / 2) by lra. clear B L.
      destruct (Z_lt_le_dec n 0) as [N|N]; [|destruct (Z.eq_dec n 0) as [->|N0]].
      + assert (IZR n <= -1) by (apply IZR_le; lia). rewrite (Rabs_left (IZR n)) in T by lra.
        replace r with (IZR n + / 2); [apply tie_down; lia|].
        revert E T. unfold Rabs. destruct (Rcase_abs (IZR n - r)), (Rcase_abs r); lra.
      + rewrite Rabs_R0 in T. pose proof (Rabs_pos r). lra.
      + assert (1 <= IZR n) by (apply IZR_le; lia). rewrite (Rabs_pos_eq (IZR n)) in T by lra.
        replace r with (IZR n - / 2); [apply tie_up; lia|].
        revert E T. unfold Rabs. destruct (Rcase_abs (IZR n - r)), (Rcase_abs r); lra. }
  intros r n. split; [intros H; symmetry; apply U, H|]. intros ->.
  destruct (Rlt_or_le (Rabs (IZR (ZnearestA r) - r)) (/ 2)) as [L|L]; [split; lra|].
  pose proof (Znearest_half (Z.leb 0) r) as H. rewrite Rabs_minus_sym in H. replace (/ 2) with (1 / 2) in * by lra.
  assert (E : Rabs (IZR (ZnearestA r) - r) = / 2) by lra. split; [lra|]. intros _.
  assert (C : exists m, r = IZR m + / 2).
  { revert E. unfold Rabs. destruct (Rcase_abs (IZR (ZnearestA r) - r)); intros E.
    - exists (ZnearestA r). lra.
    - exists (ZnearestA r - 1)%Z. rewrite minus_IZR. lra. }
  destruct C as (m & ->). destruct (Z_lt_le_dec m 0) as [N|N].
  - assert (IZR m <= -1) by (apply IZR_le; lia). rewrite tie_down by lia. rewrite !Rabs_left1 by lra. lra.
  - assert (0 <= IZR m) by (apply IZR_le; lia). replace (IZR m + / 2) with (IZR (m + 1) - / 2) by (rewrite plus_IZR; lra).
    rewrite tie_up by lia. rewrite plus_IZR. rewrite !Rabs_pos_eq by lra. lra.
Qed.

Lemma round_value : forall x, is_finite (fround x) = is_finite x /\ (is_finite x = true -> B2R (fround x) = IZR (ZnearestA (B2R x))).
Proof.
  intros x. pose proof (Bnearbyint_correct 53 1024 emax_ok mode_NA x) as (E & F & _). cbn [round_mode] in E.
  fold (fround x) in E, F. split; [exact F|]. intros _. rewrite E.
  unfold round, F2R, scaled_mantissa, cexp, FIX_exp. cbn [Fnum Fexp bpow Z.opp]. rewrite !Rmult_1_r. reflexivity.
Qed.

(** Comparing with two finite bounds keeps out NaN and the infinities. *)
Lemma between_finite : forall x lo hi, is_finite lo = true -> is_finite hi = true -> flt x hi && fgt x lo = true ->
  is_finite x = true /\ B2R lo < B2R x < B2R hi.
Proof.
  intros x lo hi Fl Fh H. apply andb_true_iff in H. destruct H as [H1 H2].
  assert (F : is_finite x = true).
  { unfold flt, fgt, Bltb in *. destruct x as [s|[]| |s m e B]; try reflexivity;
      destruct lo as [?|?| |[] ? ? ?], hi as [?|?| |[] ? ? ?]; try discriminate. }
  split; [exact F|]. split; apply fgt_spec; assumption.
Qed.

Section Convert.
Variables (lo hi : Z) (l h : f64) (zl zh : Z).
Hypothesis Fl : is_finite l = true.
Hypothesis Fh : is_finite h = true.
Hypothesis Vl : B2R l = IZR zl.
Hypothesis Vh : B2R h = IZR zh.
Hypothesis Rl : (lo <= zl + 1)%Z.
Hypothesis Rh : (zh - 1 <= hi)%Z.

Lemma convert_iff : forall p n,
  (let x := fround p in let! _ := assert (flt x h && fgt x l) in Ok (f_as lo hi x)) = Ok n <->
  is_finite p = true /\ nearest_away (B2R p) n /\ (zl < n < zh)%Z.
Proof.
  intros p n. cbv zeta. destruct (round_value p) as [Fr Vr]. split.
  - intros H. apply bind_Ok in H. destruct H as (u & A & H). unfold assert in A.
    destruct (flt (fround p) h && fgt (fround p) l) eqn:C; [|discriminate A]. injection H as <-.
    destruct (between_finite _ _ _ Fl Fh C) as [F B]. rewrite Fr in F. specialize (Vr F). rewrite Vr, Vl, Vh in B.
    destruct B as [B1 B2]. apply lt_IZR in B1, B2. split; [exact F|].
    rewrite f_as_round by exact F. replace (Z.max lo (Z.min hi (ZnearestA (B2R p)))) with (ZnearestA (B2R p)) by lia.
    split; [apply nearest_is; reflexivity|lia].
  - intros (F & N & B). apply nearest_is in N. subst n. specialize (Vr F).
    replace (flt (fround p) h && fgt (fround p) l) with true.
    + cbn [assert bind]. rewrite f_as_round by exact F. f_equal. lia.
    + symmetry. apply andb_true_iff. rewrite F in Fr. split; apply fgt_spec; try assumption; rewrite Vr, ?Vl, ?Vh; apply IZR_lt; lia.
Qed.
End Convert.

Lemma of_Z_value : forall z sg m e, B2SF (f_of_Z z) = SpecFloat.S754_finite sg m e ->
  is_finite (f_of_Z z) = true /\ B2R (f_of_Z z) = IZR (cond_Zopp sg (Zpos m)) * bpow radix2 e.
Proof.
  intros z sg m e H. split; [rewrite <- is_finite_SF_B2SF, H; reflexivity|]. rewrite <- SF2R_B2SF, H. reflexivity.
Qed.

(** A coordinate is accepted exactly when its product with the scale is finite and rounds
    (to the nearest integer, away from zero when there are two) to a number between the
    limits, which it then becomes. *)
Theorem C105_steps : forall s x i n,
  to_steps s x i = Ok n <->
  let p := fmul x (step_scale s i) in
  is_finite p = true /\ nearest_away (B2R p) n /\ (- 2 ^ 63 < n < 2 ^ 63)%Z.
Proof.
  intros s x i n.
  destruct (of_Z_value i64_min true 4503599627370496 11 ltac:(vm_compute; reflexivity)) as [F1 V1].
  destruct (of_Z_value i64_max false 4503599627370496 11 ltac:(vm_compute; reflexivity)) as [F2 V2].
  apply (convert_iff i64_min i64_max (f_of_Z i64_min) (f_of_Z i64_max) (- 2 ^ 63) (2 ^ 63)); try assumption.
  - rewrite V1. cbn [cond_Zopp bpow]. rewrite <- mult_IZR. apply f_equal. reflexivity.
  - rewrite V2. cbn [cond_Zopp bpow]. rewrite <- mult_IZR. apply f_equal. reflexivity.
  - vm_compute. discriminate.
  - vm_compute. discriminate.
Qed.

(** The same for speeds; the largest i32 is refused. *)
Theorem C105_speeds : forall s v i n,
  to_step_v s v i = Ok n <->
  let p := fmul v (v_scale s i) in
  is_finite p = true /\ nearest_away (B2R p) n /\ (- 2 ^ 31 < n < 2 ^ 31 - 1)%Z.
Proof.
  intros s x i n.
  destruct (f_of_Z_exact i32_min ltac:(vm_compute; discriminate)) as [F1 V1].
  destruct (f_of_Z_exact i32_max ltac:(vm_compute; discriminate)) as [F2 V2].
  apply (convert_iff i32_min i32_max (f_of_Z i32_min) (f_of_Z i32_max) (- 2 ^ 31) (2 ^ 31 - 1)); try assumption.
  - vm_compute. discriminate.
  - vm_compute. discriminate.
Qed.

(** Refusing is a panic. *)
Theorem C105_refused : forall s x i,
  ((exists n, to_steps s x i = Ok n) \/ to_steps s x i = Panic) /\ ((exists n, to_step_v s x i = Ok n) \/ to_step_v s x i = Panic).
Proof.
  intros s x i. unfold to_steps, to_step_v, assert.
  split; (match goal with |- context [if ?b then _ else _] => destruct b end); cbn [bind]; eauto.
Qed.

(** From steps to a coordinate and back. *)
Theorem C105_back : forall s i n, is_finite (step_scale s i) = true -> / 2 ^ 900 <= Rabs (B2R (step_scale s i)) <= 2 ^ 900 ->
  (Z.abs n <= 2 ^ 50)%Z -> to_steps s (coord_from_steps s n i) i = Ok n.
Proof.
  intros s i n Fs Bs Hn. apply C105_steps. cbv zeta. unfold coord_from_steps.
  destruct (f_of_Z_exact n ltac:(lia)) as [Fn Vn]. set (k := step_scale s i) in *.
  assert (PW : forall a, (0 <= a)%Z -> bpow radix2 a = 2 ^ Z.to_nat a).
  { intros a Ha. rewrite bpow_powerRZ. rewrite <- (Z2Nat.id a Ha) at 1. rewrite <- pow_powerRZ. reflexivity. }
  assert (B1 : bpow radix2 (-900) <= Rabs (B2R k) <= bpow radix2 900).
  { change (-900)%Z with (- (900))%Z. rewrite bpow_opp, PW by lia. exact Bs. } clear Bs.
  assert (K0 : 0 < Rabs (B2R k)) by (pose proof (bpow_gt_0 radix2 (-900)); lra).
  assert (KN : B2R k <> 0) by (intros E; rewrite E, Rabs_R0 in K0; lra).
  assert (BN : Rabs (IZR n) <= many) by (rewrite <- abs_IZR; unfold many; apply IZR_le; exact Hn).
  assert (MB : many = bpow radix2 50) by (rewrite PW by lia; unfold many; change (Z.to_nat 50) with 50%nat; cbn [pow]; lra).
  set (q := IZR n / B2R k).
  assert (QK : q * B2R k = IZR n) by (unfold q; field; exact KN).
  assert (BQ : Rabs q <= bpow radix2 950).
  { unfold q, Rdiv. rewrite Rabs_mult, Rabs_inv. change 950%Z with (50 + 900)%Z. rewrite bpow_plus, <- MB.
    apply Rmult_le_compat; [apply Rabs_pos|apply Rlt_le, Rinv_0_lt_compat, K0|exact BN|].
    replace (bpow radix2 900) with (/ bpow radix2 (-900)) by (change (-900)%Z with (- (900))%Z; rewrite bpow_opp, Rinv_inv; reflexivity).
    apply Rinv_le_contravar; [apply bpow_gt_0|apply B1]. }
  destruct (fdiv_rel (f_of_Z n) k Fn Fs KN) as [Fd Ed].
  { rewrite Vn. fold q. eapply Rle_trans; [exact BQ|]. apply bpow_le. lia. }
  rewrite Vn in Ed. fold q in Ed. set (d := fdiv (f_of_Z n) k) in *.
  pose proof tiny_pos as T0. pose proof tiny_u as TU. pose proof u53_pos as [U0 U1]. pose proof many_u as MU.
  assert (DK : Rabs (B2R d * B2R k - IZR n) <= / 8 + u53).
  { rewrite <- QK. rewrite <- Rmult_minus_distr_r, Rabs_mult.
    apply Rle_trans with ((u53 * Rabs q + tiny) * Rabs (B2R k)); [apply Rmult_le_compat_r; [apply Rabs_pos|exact Ed]|].
    rewrite Rmult_plus_distr_r, Rmult_assoc, <- Rabs_mult, QK. apply Rplus_le_compat.
    - rewrite <- MU, (Rmult_comm many). apply Rmult_le_compat_l; [lra|exact BN].
    - apply Rle_trans with (bpow radix2 (-1000) * bpow radix2 900); [apply Rmult_le_compat_l; [apply bpow_ge_0|apply B1]|].
      rewrite <- bpow_plus. apply bpow_le. lia. }
  assert (U8 : u53 <= / 1024) by exact U1.
  assert (DB : Rabs (B2R d * B2R k) <= many + 1).
  { replace (B2R d * B2R k) with ((B2R d * B2R k - IZR n) + IZR n) by ring. eapply Rle_trans; [apply Rabs_triang|]. lra. }
  destruct (fmul_rel d k Fd Fs) as [Fp Ep].
  { eapply Rle_trans; [exact DB|]. rewrite MB. apply Rle_trans with (bpow radix2 51); [|apply bpow_le; lia].
    change 51%Z with (50 + 1)%Z. rewrite bpow_plus, <- MB. change (bpow radix2 1) with 2. unfold many. lra. }
  assert (E : Rabs (IZR n - B2R (fmul d k)) < / 2).
  { replace (IZR n - B2R (fmul d k)) with (- ((B2R d * B2R k - IZR n) + (B2R (fmul d k) - B2R d * B2R k))) by ring.
    rewrite Rabs_Ropp. eapply Rle_lt_trans; [apply Rabs_triang|].
    assert (u53 * Rabs (B2R d * B2R k) <= u53 * (many + 1)) by (apply Rmult_le_compat_l; lra).
    assert (u53 * u53 <= u53 * / 1024) by (apply Rmult_le_compat_l; lra). lra. }
  split; [exact Fp|]. split; [split; [lra|intros; lra]|]. lia.
Qed.

(** So a GoTo to the place where the machine stands is ignored. *)
Theorem C105_stands : forall s c, (forall i, is_finite (step_scale s i) = true /\ / 2 ^ 900 <= Rabs (B2R (step_scale s i)) <= 2 ^ 900) ->
  (forall i, Z.abs (c_pos (channel c i)) <= 2 ^ 50)%Z ->
  forall g v d, d_ctx d = c -> draw_step g s v d (SGoTo (machine_place s c)) = Ok d.
Proof.
  intros s c H N g v d E. cbn [draw_step]. rewrite E. unfold machine_place. cbn [fx fy].
  rewrite (C105_back s AX _ (proj1 (H AX)) (proj2 (H AX)) (N AX)). cbn [bind]. rewrite Z.eqb_refl.
  rewrite (C105_back s AY _ (proj1 (H AY)) (proj2 (H AY)) (N AY)). cbn [bind]. rewrite Z.eqb_refl. reflexivity.
Qed.

(** 2.5 goes to 3 and -2.5 to -3; 2^63 is refused, and so are 2147483647 as a speed, the
    infinities and NaN. *)
Example C105_example :
  to_steps sc1 (lit 5 2) AX = Ok 3%Z /\ to_steps sc1 (lit (-5) 2) AY = Ok (-3)%Z /\ to_steps sc1 (f_of_Z (2 ^ 63)) AX = Panic /\
  to_steps sc1 (B754_infinity false) AX = Panic /\ to_steps sc1 (B754_infinity true) AX = Panic /\ to_steps sc1 B754_nan AX = Panic /\
  to_steps sc1 (f_of_Z (- 2 ^ 63)) AX = Panic /\ to_steps sc1 (f_of_Z (2 ^ 63 - 1024)) AX = Ok (2 ^ 63 - 1024)%Z /\
  (forall i, is_finite (step_scale sc1 i) = true /\ / 2 ^ 900 <= Rabs (B2R (step_scale sc1 i)) <= 2 ^ 900).
Proof.
  do 8 (split; [vm_compute; reflexivity|]). intros i.
  assert (E : step_scale sc1 i = f_of_Z 1) by (destruct i; reflexivity). rewrite E.
  destruct (f_of_Z_exact 1 ltac:(lia)) as [F V]. rewrite V, Rabs_R1. split; [exact F|].
  assert (1 <= 2 ^ 900) by (apply pow_R1_Rle; lra). split; [|assumption].
  rewrite <- Rinv_1. apply Rinv_le_contravar; lra.
Qed.

Print Assumptions C105_steps.
Print Assumptions C105_speeds.
Print Assumptions C105_refused.
Print Assumptions C105_back.
Print Assumptions C105_stands.
