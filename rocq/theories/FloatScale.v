(** Relative error of binary64 products and quotients, and what it does to the
    limits svg_path.rs computes. *)
From Coq Require Import ZArith Reals Lia Lra Bool Psatz.
From Flocq Require Import Core BinarySingleNaN Relative.
From Verif Require Import Base Floats FloatProofs DrawCurves.
Open Scope R_scope.

Definition u53 : R := bpow radix2 (-53).
Definition tiny : R := bpow radix2 (-1000).

(** [y] is [x] up to rounding. *)
Definition near (x y : R) : Prop := exists e h, Rabs e <= u53 /\ Rabs h <= tiny /\ y = x * (1 + e) + h.

Lemma rne_near : forall x, near x (rne x).
Proof.
  intros x. destruct (Rle_or_lt (bpow radix2 (-1022)) (Rabs x)) as [B|S].
  - rewrite bexp_flt.
    destruct (relative_error_N_FLT_ex radix2 (-1074) 53 ltac:(reflexivity) (fun x => negb (Z.even x)) x) as (e & E & R).
    { exact B. }
    exists e, 0. split.
    { replace u53 with (/ 2 * bpow radix2 (-53 + 1)); [exact E|]. unfold u53.
      rewrite bpow_plus. change (bpow radix2 1) with 2. lra. }
    split; [rewrite Rabs_R0; apply bpow_ge_0|]. rewrite Rplus_0_r. exact R.
  - exists 0, (rne x - x). split; [rewrite Rabs_R0; apply bpow_ge_0|]. split; [|ring].
    eapply Rle_trans; [apply error_le_half_ulp; typeclasses eauto|].
    assert (U : ulp radix2 bexp x <= ulp radix2 bexp (bpow radix2 (-1022))).
    { apply ulp_le; try typeclasses eauto. rewrite (Rabs_right (bpow _ _)) by (apply Rle_ge, bpow_ge_0). lra. }
    rewrite ulp_bpow in U. assert (V : bpow radix2 (bexp (-1022 + 1)) <= tiny) by (apply bpow_le; vm_compute; discriminate).
    assert (0 <= ulp radix2 bexp x) by apply ulp_ge_0. lra.
Qed.

Lemma rne_range : forall x, Rabs x <= bpow radix2 1000 -> Rlt_bool (Rabs (rne x)) (bpow radix2 1024) = true.
Proof.
  intros x H. apply Rlt_bool_true. apply Rle_lt_trans with (bpow radix2 1000); [|apply bpow_lt; lia].
  apply abs_round_le_generic; [typeclasses eauto|apply valid_rnd_N| |exact H].
  apply generic_format_bpow. vm_compute. discriminate.
Qed.

Lemma fmul_near : forall x y, is_finite x = true -> is_finite y = true -> Rabs (B2R x * B2R y) <= bpow radix2 1000 ->
  is_finite (fmul x y) = true /\ near (B2R x * B2R y) (B2R (fmul x y)).
Proof.
  intros x y Fx Fy H. pose proof (Bmult_correct 53 1024 prec_ok emax_ok mode_NE x y) as C. cbn [round_mode] in C.
  rewrite rne_range in C by exact H. destruct C as (E & F & _). unfold fmul. rewrite F, Fx, Fy, E.
  split; [reflexivity|apply rne_near].
Qed.

Lemma fdiv_near : forall x y, is_finite x = true -> is_finite y = true -> B2R y <> 0 ->
  Rabs (B2R x / B2R y) <= bpow radix2 1000 ->
  is_finite (fdiv x y) = true /\ near (B2R x / B2R y) (B2R (fdiv x y)).
Proof.
  intros x y Fx Fy Hy H. pose proof (Bdiv_correct 53 1024 prec_ok emax_ok mode_NE x y Hy) as C. cbn [round_mode] in C.
  rewrite rne_range in C by exact H. destruct C as (E & F & _). unfold fdiv. rewrite F, Fx, E.
  split; [reflexivity|apply rne_near].
Qed.

Lemma fabs_value : forall x, is_finite x = true -> is_finite (fabs x) = true /\ B2R (fabs x) = Rabs (B2R x).
Proof. intros x F. unfold fabs. rewrite is_finite_Babs, B2R_Babs. auto. Qed.

Lemma f_as_trunc : forall lo hi x, is_finite x = true -> f_as lo hi x = Z.max lo (Z.min hi (Ztrunc (B2R x))).
Proof.
  intros lo hi x F. pose proof (Btrunc_correct 53 1024 emax_ok x) as T.
  assert (RT : round radix2 (FIX_exp 0) Ztrunc (B2R x) = IZR (Ztrunc (B2R x))).
  { unfold round, F2R, scaled_mantissa, cexp, FIX_exp. cbn [Fnum Fexp bpow Z.opp]. rewrite !Rmult_1_r. reflexivity. }
  rewrite RT in T. apply eq_IZR in T. rewrite <- T. destruct x; try discriminate; reflexivity.
Qed.

(** [y] is [x] up to [k] roundings, with the underflow [eps]. *)
Definition cl (k eps x y : R) : Prop := Rabs (y - x) <= k * (u53 * Rabs x + eps).

Lemma u53_pos : 0 < u53 <= / 1024.
Proof.
  split; [apply bpow_gt_0|]. unfold u53. change (/ 1024) with (bpow radix2 (-10)). apply bpow_le. lia.
Qed.

Lemma cl_refl : forall eps x, cl 0 eps x x.
Proof. intros. unfold cl. rewrite Rminus_eq_0, Rabs_R0. lra. Qed.

Lemma cl_near : forall k eps x y z, 0 <= k <= 100 -> tiny <= eps -> cl k eps x y -> near y z -> cl (k + 2) eps x z.
Proof.
  unfold cl. intros k eps x y z Hk He H (e & h & Ee & Eh & ->). pose proof u53_pos as U.
  assert (T0 : 0 <= tiny) by apply bpow_ge_0. pose proof (Rabs_pos x) as X0.
  replace (y * (1 + e) + h - x) with ((y - x) + (y - x) * e + x * e + h) by ring.
  eapply Rle_trans; [apply Rabs_triang|]. eapply Rle_trans; [apply Rplus_le_compat_r, Rabs_triang|].
  eapply Rle_trans; [apply Rplus_le_compat_r, Rplus_le_compat_r, Rabs_triang|]. rewrite !Rabs_mult.
  set (d := Rabs (y - x)) in *. set (ax := Rabs x) in *. set (ae := Rabs e) in *. set (ah := Rabs h) in *.
  assert (D0 : 0 <= d) by apply Rabs_pos. assert (E0 : 0 <= ae) by apply Rabs_pos.
  assert (A : d * ae <= k * (u53 * ax + eps) * u53) by (apply Rmult_le_compat; auto).
  assert (B : ax * ae <= ax * u53) by (apply Rmult_le_compat_l; auto).
  assert (P : 0 <= u53 * ax + eps) by nra.
  assert (C : k * (u53 * ax + eps) * u53 <= u53 * ax + eps).
  { replace (k * (u53 * ax + eps) * u53) with ((k * u53) * (u53 * ax + eps)) by ring.
    rewrite <- (Rmult_1_l (u53 * ax + eps)) at 2. apply Rmult_le_compat_r; [exact P|]. nra. }
  lra.
Qed.

Lemma cl_mult : forall k eps c x y, 0 <= k -> cl k eps x y -> cl k (eps * Rabs c) (x * c) (y * c).
Proof.
  unfold cl. intros k eps c x y Hk H. rewrite <- Rmult_minus_distr_r, !Rabs_mult.
  replace (k * (u53 * (Rabs x * Rabs c) + eps * Rabs c)) with (k * (u53 * Rabs x + eps) * Rabs c) by ring.
  apply Rmult_le_compat_r; [apply Rabs_pos|exact H].
Qed.

Lemma cl_le : forall k eps eps' x y, 0 <= k -> eps <= eps' -> cl k eps x y -> cl k eps' x y.
Proof.
  unfold cl. intros k eps eps' x y Hk He H. eapply Rle_trans; [exact H|]. apply Rmult_le_compat_l; [exact Hk|]. lra.
Qed.

Lemma cl_abs : forall k eps x y, cl k eps x y -> cl k eps (Rabs x) (Rabs y).
Proof.
  unfold cl. intros k eps x y H. rewrite (Rabs_Rabsolu x). eapply Rle_trans; [apply Rabs_triang_inv2|exact H].
Qed.

(** At most 2^31: the rounding is far below one. *)
Lemma cl_small : forall k eps x y, 0 <= k <= 100 -> eps <= bpow radix2 (-400) -> 0 <= eps -> Rabs x <= 2147483648 ->
  cl k eps x y -> Rabs (y - x) <= / 32768.
Proof.
  unfold cl. intros k eps x y Hk He E0 Hx H. eapply Rle_trans; [exact H|].
  assert (A : eps <= bpow radix2 (-53)) by (eapply Rle_trans; [exact He|apply bpow_le; lia]).
  assert (B : u53 = / 9007199254740992) by reflexivity. fold u53 in A. rewrite B in *.
  assert (C : / 9007199254740992 * Rabs x + eps <= / 4194303) by lra.
  apply Rle_trans with (100 * / 4194303); [|lra]. apply Rmult_le_compat; try lra.
  pose proof (Rabs_pos x). lra.
Qed.

Lemma cl_bound : forall k eps x y, 0 <= k <= 100 -> 0 <= eps -> cl k eps x y -> Rabs y <= 2 * Rabs x + 100 * eps.
Proof.
  unfold cl. intros k eps x y Hk He H. pose proof u53_pos as U. pose proof (Rabs_pos x).
  replace y with ((y - x) + x) by ring. eapply Rle_trans; [apply Rabs_triang|].
  assert (k * (u53 * Rabs x + eps) <= 100 * (u53 * Rabs x + eps)) by (apply Rmult_le_compat_r; nra). nra.
Qed.

Lemma bpow_split : forall a b, bpow radix2 (a + b) = bpow radix2 a * bpow radix2 b.
Proof. intros. apply bpow_plus. Qed.

(** The velocity and acceleration scales of svg_path.rs:106-127. *)
Definition v_scale (spm : f64) (tps : Z) : f64 := fdiv spm (f_of_Z (2 * tps)).
Definition a_scale (spm : f64) (tps : Z) : f64 := fdiv (v_scale spm tps) (f_of_Z tps).

Section Scale.
Variables (spm m : f64) (tps : Z).
Hypotheses (Fs : is_finite spm = true) (Fm : is_finite m = true) (T : (1 <= tps < 2 ^ 31)%Z)
  (Bs : Rabs (B2R spm) <= bpow radix2 400) (Bm : Rabs (B2R m) <= bpow radix2 400).

Lemma v_scale_near : is_finite (v_scale spm tps) = true /\
  cl 2 tiny (B2R spm / (2 * IZR tps)) (B2R (v_scale spm tps)) /\ Rabs (B2R spm / (2 * IZR tps)) <= bpow radix2 400.
Proof.
  destruct (f_of_Z_exact (2 * tps)) as [F E]; [lia|]. rewrite mult_IZR in E.
  assert (P : 1 <= IZR tps) by (apply IZR_le; lia).
  assert (B : Rabs (B2R spm / (2 * IZR tps)) <= bpow radix2 400).
  { unfold Rdiv. rewrite Rabs_mult, (Rabs_right (/ _)) by (apply Rle_ge, Rlt_le, Rinv_0_lt_compat; lra).
    rewrite <- (Rmult_1_r (bpow radix2 400)). apply Rmult_le_compat; auto using Rabs_pos.
    - apply Rlt_le, Rinv_0_lt_compat; lra.
    - rewrite <- Rinv_1. apply Rinv_le; lra. }
  unfold v_scale. destruct (fdiv_near spm (f_of_Z (2 * tps)) Fs F) as [F2 N].
  - rewrite E. lra.
  - rewrite E. eapply Rle_trans; [exact B|]. apply bpow_le. lia.
  - rewrite E in N. split; [exact F2|]. split; [|exact B].
    replace 2 with (0 + 2) at 1 by ring. eapply cl_near; [lra|apply Rle_refl|apply cl_refl|exact N].
Qed.

Lemma scale_small : forall d, 0 <= d <= 400 * tiny -> bpow radix2 400 * 2 + d <= bpow radix2 402.
Proof.
  intros d Hd. assert (tiny <= bpow radix2 (-9)) by (apply bpow_le; lia).
  change (bpow radix2 (-9)) with (/ 512) in *.
  assert (1 <= bpow radix2 400) by (change 1 with (bpow radix2 0); apply bpow_le; lia).
  replace 402%Z with (400 + 2)%Z by lia. rewrite bpow_split. change (bpow radix2 2) with 4. lra.
Qed.

Lemma tiny_mult : 0 <= tiny * Rabs (B2R m) <= bpow radix2 (-600).
Proof.
  split; [apply Rmult_le_pos; [apply bpow_ge_0|apply Rabs_pos]|].
  replace (-600)%Z with (-1000 + 400)%Z by lia. rewrite bpow_split.
  apply Rmult_le_compat_l; [apply bpow_ge_0|exact Bm].
Qed.

(** A product of a scale and the maximum. *)
Lemma product_near : forall k x f, 0 <= k <= 50 -> is_finite f = true -> cl k tiny x (B2R f) ->
  Rabs x <= bpow radix2 400 ->
  is_finite (fmul f m) = true /\ cl (k + 2) (bpow radix2 (-600)) (x * B2R m) (B2R (fmul f m)).
Proof.
  intros k x f Hk Ff C Bx. assert (T0 : 0 <= tiny) by apply bpow_ge_0.
  assert (Hk' : 0 <= k <= 100) by lra.
  assert (Bf : Rabs (B2R f) <= bpow radix2 402).
  { eapply Rle_trans; [apply (cl_bound k tiny x _ Hk' T0 C)|]. eapply Rle_trans; [|apply (scale_small (100 * tiny)); lra]. lra. }
  assert (BP : Rabs (B2R f * B2R m) <= bpow radix2 1000).
  { rewrite Rabs_mult. apply Rle_trans with (bpow radix2 402 * bpow radix2 400).
    - apply Rmult_le_compat; auto using Rabs_pos.
    - rewrite <- bpow_split. apply bpow_le. lia. }
  destruct (fmul_near f m Ff Fm BP) as [F N]. split; [exact F|].
  assert (E1 : tiny <= bpow radix2 (-600)) by (apply bpow_le; lia).
  eapply cl_near; [exact Hk'|exact E1| |exact N].
  eapply cl_le; [lra|apply tiny_mult|]. apply cl_mult; [lra|exact C].
Qed.

Lemma product_near' : forall k x f, 0 <= k <= 50 -> is_finite f = true -> cl k tiny x (B2R f) ->
  Rabs x <= bpow radix2 400 ->
  is_finite (fmul m f) = true /\ cl (k + 2) (bpow radix2 (-600)) (x * B2R m) (B2R (fmul m f)).
Proof.
  intros k x f Hk Ff C Bx. destruct (product_near k x f Hk Ff C Bx) as [F P].
  assert (T0 : 0 <= tiny) by apply bpow_ge_0. assert (Hk' : 0 <= k <= 100) by lra.
  assert (Bf : Rabs (B2R f) <= bpow radix2 402).
  { eapply Rle_trans; [apply (cl_bound k tiny x _ Hk' T0 C)|]. eapply Rle_trans; [|apply (scale_small (100 * tiny)); lra]. lra. }
  assert (BP : Rabs (B2R m * B2R f) <= bpow radix2 1000).
  { rewrite Rabs_mult. apply Rle_trans with (bpow radix2 400 * bpow radix2 402).
    - apply Rmult_le_compat; auto using Rabs_pos.
    - rewrite <- bpow_split. apply bpow_le. lia. }
  destruct (fmul_near m f Fm Ff BP) as [F2 N]. split; [exact F2|]. rewrite Rmult_comm in N.
  assert (E1 : tiny <= bpow radix2 (-600)) by (apply bpow_le; lia).
  eapply cl_near; [exact Hk'|exact E1| |exact N].
  eapply cl_le; [lra|apply tiny_mult|]. apply cl_mult; [lra|exact C].
Qed.

Lemma a_scale_near : is_finite (a_scale spm tps) = true /\
  cl 4 tiny (B2R spm / (2 * IZR tps * IZR tps)) (B2R (a_scale spm tps)) /\
  Rabs (B2R spm / (2 * IZR tps * IZR tps)) <= bpow radix2 400.
Proof.
  destruct v_scale_near as (Fv & C & B). destruct (f_of_Z_exact tps) as [F E]; [lia|].
  assert (P : 1 <= IZR tps) by (apply IZR_le; lia). assert (T0 : 0 <= tiny) by apply bpow_ge_0.
  assert (PI : 0 < / IZR tps <= 1).
  { split; [apply Rinv_0_lt_compat; lra|]. rewrite <- Rinv_1. apply Rinv_le; lra. }
  assert (AI : Rabs (/ IZR tps) <= 1) by (rewrite Rabs_right; lra).
  set (x := B2R spm / (2 * IZR tps)) in *.
  replace (B2R spm / (2 * IZR tps * IZR tps)) with (x * / IZR tps) by (unfold x; field; lra).
  assert (B2 : Rabs (x * / IZR tps) <= bpow radix2 400).
  { rewrite Rabs_mult, <- (Rmult_1_r (bpow radix2 400)). apply Rmult_le_compat; auto using Rabs_pos. }
  pose proof (cl_mult 2 tiny (/ IZR tps) _ _ ltac:(lra) C) as C2.
  apply (cl_le 2 _ tiny) in C2; [|lra|].
  2: { rewrite <- (Rmult_1_r tiny) at 2. apply Rmult_le_compat_l; auto. }
  unfold a_scale. destruct (fdiv_near (v_scale spm tps) (f_of_Z tps) Fv F) as [F2 N].
  - rewrite E. lra.
  - rewrite E. eapply Rle_trans; [apply (cl_bound 2 tiny _ _ ltac:(lra) T0 C2)|].
    apply Rle_trans with (bpow radix2 402); [|apply bpow_le; lia].
    eapply Rle_trans; [|apply (scale_small (100 * tiny)); lra]. lra.
  - rewrite E in N. split; [exact F2|]. split; [|exact B2].
    replace 4 with (2 + 2) by ring. eapply cl_near; [lra|apply Rle_refl|exact C2|exact N].
Qed.

Hypotheses (M0 : 0 <= B2R m).

(** The velocity limit before it is made an integer. *)
Lemma velocity_near : let q := Rabs (B2R spm) * B2R m / (2 * IZR tps) in q <= 2147483646 ->
  is_finite (fmul (fabs (v_scale spm tps)) m) = true /\
  Rabs (B2R (fmul (fabs (v_scale spm tps)) m) - q) <= / 32768 /\ 0 <= q.
Proof.
  intros q Hq. destruct v_scale_near as (Fv & C & B). destruct (fabs_value _ Fv) as [Fa Ea].
  assert (P : 1 <= IZR tps) by (apply IZR_le; lia).
  apply cl_abs in C. rewrite <- Ea in C.
  destruct (product_near 2 _ _ ltac:(lra) Fa C) as [F C2]; [rewrite Rabs_Rabsolu; exact B|].
  assert (EQ : Rabs (B2R spm / (2 * IZR tps)) * B2R m = q).
  { unfold q, Rdiv. rewrite Rabs_mult, (Rabs_right (/ _)) by (apply Rle_ge, Rlt_le, Rinv_0_lt_compat; lra). ring. }
  rewrite EQ in C2.
  assert (Q0 : 0 <= q).
  { rewrite <- EQ. apply Rmult_le_pos; [apply Rabs_pos|exact M0]. }
  split; [exact F|]. split; [|exact Q0].
  apply (cl_small (2 + 2) (bpow radix2 (-600)) q); auto; try lra; [apply bpow_le; lia|apply bpow_ge_0|].
  rewrite Rabs_right; lra.
Qed.

(** The acceleration limit before it is made an integer. *)
Lemma acceleration_near : let q := Rabs (B2R spm) * B2R m / (2 * IZR tps * IZR tps) in q <= 2147483646 ->
  is_finite (fabs (fmul (a_scale spm tps) m)) = true /\
  Rabs (B2R (fabs (fmul (a_scale spm tps) m)) - q) <= / 32768 /\ 0 <= q.
Proof.
  intros q Hq. destruct a_scale_near as (Fv & C & B).
  assert (P : 1 <= IZR tps) by (apply IZR_le; lia).
  destruct (product_near 4 _ _ ltac:(lra) Fv C B) as [F C2].
  destruct (fabs_value _ F) as [Fa Ea]. apply cl_abs in C2. rewrite <- Ea in C2.
  assert (EQ : Rabs (B2R spm / (2 * IZR tps * IZR tps) * B2R m) = q).
  { unfold q, Rdiv. rewrite !Rabs_mult, (Rabs_right (/ _)), (Rabs_right (B2R m)) by
      (try lra; apply Rle_ge, Rlt_le, Rinv_0_lt_compat; nra). ring. }
  rewrite EQ in C2.
  assert (Q0 : 0 <= q) by (rewrite <- EQ; apply Rabs_pos).
  split; [exact Fa|]. split; [|exact Q0].
  apply (cl_small (4 + 2) (bpow radix2 (-600)) q); auto; try lra; [apply bpow_le; lia|apply bpow_ge_0|].
  rewrite Rabs_right; lra.
Qed.
Lemma acceleration_near' : let q := Rabs (B2R spm) * B2R m / (2 * IZR tps * IZR tps) in q <= 2147483646 ->
  is_finite (fabs (fmul m (a_scale spm tps))) = true /\
  Rabs (B2R (fabs (fmul m (a_scale spm tps))) - q) <= / 32768 /\ 0 <= q.
Proof.
  intros q Hq. destruct a_scale_near as (Fv & C & B).
  assert (P : 1 <= IZR tps) by (apply IZR_le; lia).
  destruct (product_near' 4 _ _ ltac:(lra) Fv C B) as [F C2].
  destruct (fabs_value _ F) as [Fa Ea]. apply cl_abs in C2. rewrite <- Ea in C2.
  assert (EQ : Rabs (B2R spm / (2 * IZR tps * IZR tps) * B2R m) = q).
  { unfold q, Rdiv. rewrite !Rabs_mult, (Rabs_right (/ _)), (Rabs_right (B2R m)) by
      (try lra; apply Rle_ge, Rlt_le, Rinv_0_lt_compat; nra). ring. }
  rewrite EQ in C2.
  assert (Q0 : 0 <= q) by (rewrite <- EQ; apply Rabs_pos).
  split; [exact Fa|]. split; [|exact Q0].
  apply (cl_small (4 + 2) (bpow radix2 (-600)) q); auto; try lra; [apply bpow_le; lia|apply bpow_ge_0|].
  rewrite Rabs_right; lra.
Qed.
End Scale.

(** As an integer: rounded, or cut off. *)
Lemma as_rounded : forall x q, is_finite x = true -> Rabs (B2R x - q) <= / 32768 -> 0 <= q <= 2147483646 ->
  Rabs (IZR (f_as_i32 (fround x)) - q) <= / 2 + / 32768.
Proof.
  intros x q F N Hq. unfold f_as_i32. rewrite f_as_round by exact F. set (d := B2R x) in *.
  pose proof (Znearest_half (Z.leb 0) d) as H. change (Znearest (Z.leb 0) d) with (ZnearestA d) in H.
  assert (RG : (-1 <= ZnearestA d <= 2147483647)%Z).
  { assert (-2 < IZR (ZnearestA d) < 2147483648)%R.
    { revert N H. generalize (IZR (ZnearestA d)). intros z N H.
      unfold Rabs in *. revert N H. repeat destruct Rcase_abs; intros; lra. }
    split; [assert (-2 < ZnearestA d)%Z by (apply lt_IZR; lra); lia|
            assert (ZnearestA d < 2147483648)%Z by (apply lt_IZR; lra); lia]. }
  unfold i32_min, i32_max. rewrite Z.min_r, Z.max_r by lia.
  revert N H. generalize (IZR (ZnearestA d)). intros z N H.
  unfold Rabs in *. revert N H. repeat destruct Rcase_abs; intros; lra.
Qed.

Lemma as_cut : forall x q, is_finite x = true -> Rabs (B2R x - q) <= / 32768 -> 0 <= q <= 2147483646 ->
  - / 32768 <= q - IZR (f_as_i32 x) <= 1 + / 32768.
Proof.
  intros x q F N Hq. unfold f_as_i32. rewrite f_as_trunc by exact F. set (d := B2R x) in *.
  apply Rabs_le_inv in N.
  assert (H : (Rabs (IZR (Ztrunc d)) <= Rabs d /\ d - 1 <= IZR (Ztrunc d) <= d + 1) /\ (0 <= d -> IZR (Ztrunc d) <= d) /\ (d < 0 -> d > -1 -> IZR (Ztrunc d) = 0)).
  { destruct (Rle_or_lt 0 d) as [D|D].
    - rewrite Ztrunc_floor by exact D. pose proof (Zfloor_lb d). pose proof (Zfloor_ub d).
      assert (0 <= IZR (Zfloor d)) by (apply IZR_le, Zfloor_lub, D).
      rewrite !Rabs_right by lra. repeat split; lra.
    - rewrite Ztrunc_ceil by lra. pose proof (Zceil_ub d) as U. pose proof (Zceil_lb d) as L.
      assert (IZR (Zceil d) <= 0) by (apply IZR_le, Zceil_glb; lra).
      rewrite !Rabs_left1 by lra. repeat split; try lra. intros _ K.
      assert (-1 < Zceil d)%Z by (apply lt_IZR; lra). assert (Zceil d <= 0)%Z by (apply le_IZR; lra).
      replace (Zceil d) with 0%Z by lia. reflexivity. }
  destruct H as ((_ & H) & H1 & H2).
  assert (RG : (-1 <= Ztrunc d <= 2147483647)%Z).
  { split; [assert (-2 < Ztrunc d)%Z by (apply lt_IZR; lra); lia|assert (Ztrunc d < 2147483648)%Z by (apply lt_IZR; lra); lia]. }
  unfold i32_min, i32_max. rewrite Z.min_r, Z.max_r by lia.
  destruct (Rle_or_lt 0 d) as [D|D]; [specialize (H1 D)|specialize (H2 D ltac:(lra))]; lra.
Qed.
