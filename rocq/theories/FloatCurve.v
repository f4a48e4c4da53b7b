(** Lines and Bezier curves in binary64 (DrawCurves.v, FloatPath.v) against the
    real figures they stand for. *)
From Coq Require Import ZArith Reals List Bool Lia Lra Psatz.
From Flocq Require Import Core Mult_error BinarySingleNaN.
From Verif Require Import Base Floats FloatProofs FloatScale FloatErr ApproxCurve DrawCurves FloatPath
  Coords FloatPathProofs.
Import ListNotations.
Open Scope R_scope.

Lemma abs_between : forall x a, Rabs x <= a -> - a <= x <= a.
Proof. intros x a. unfold Rabs. destruct (Rcase_abs x); lra. Qed.

Lemma one_huge : 1 <= huge.
Proof. unfold huge. change 1 with (bpow radix2 0). apply bpow_le. lia. Qed.

(** ** Results as rounded real numbers *)

Lemma fadd_val : forall x y, is_finite x = true -> is_finite y = true -> Rabs (B2R x + B2R y) <= bpow radix2 1000 ->
  is_finite (fadd x y) = true /\ B2R (fadd x y) = rne (B2R x + B2R y).
Proof.
  intros x y Fx Fy H. pose proof (Bplus_correct 53 1024 prec_ok emax_ok mode_NE x y Fx Fy) as C. cbn [round_mode] in C.
  rewrite rne_range in C by exact H. destruct C as (E & F & _). auto.
Qed.

Lemma fsub_val : forall x y, is_finite x = true -> is_finite y = true -> Rabs (B2R x - B2R y) <= bpow radix2 1000 ->
  is_finite (fsub x y) = true /\ B2R (fsub x y) = rne (B2R x - B2R y).
Proof.
  intros x y Fx Fy H. pose proof (Bminus_correct 53 1024 prec_ok emax_ok mode_NE x y Fx Fy) as C. cbn [round_mode] in C.
  rewrite rne_range in C by exact H. destruct C as (E & F & _). auto.
Qed.

Lemma fmul_val : forall x y, is_finite x = true -> is_finite y = true -> Rabs (B2R x * B2R y) <= bpow radix2 1000 ->
  is_finite (fmul x y) = true /\ B2R (fmul x y) = rne (B2R x * B2R y).
Proof.
  intros x y Fx Fy H. pose proof (Bmult_correct 53 1024 prec_ok emax_ok mode_NE x y) as C. cbn [round_mode] in C.
  rewrite rne_range in C by exact H. destruct C as (E & F & _). rewrite Fx, Fy in F. auto.
Qed.

Lemma fdiv_val : forall x y, is_finite x = true -> B2R y <> 0 -> Rabs (B2R x / B2R y) <= bpow radix2 1000 ->
  is_finite (fdiv x y) = true /\ B2R (fdiv x y) = rne (B2R x / B2R y).
Proof.
  intros x y Fx Hy H. pose proof (Bdiv_correct 53 1024 prec_ok emax_ok mode_NE x y Hy) as C. cbn [round_mode] in C.
  rewrite rne_range in C by exact H. destruct C as (E & F & _). rewrite Fx in F. auto.
Qed.

Lemma rne_mono : forall a b, a <= b -> rne a <= rne b.
Proof. intros a b H. apply round_le; [typeclasses eauto|apply valid_rnd_N|exact H]. Qed.

Lemma rne_0 : rne 0 = 0.
Proof. apply round_0. apply valid_rnd_N. Qed.

Lemma rne_float : forall x : f64, rne (B2R x) = B2R x.
Proof. intros x. apply round_generic; [apply valid_rnd_N|apply generic_format_B2R]. Qed.

Lemma rne_pos : forall a, 0 <= a -> 0 <= rne a.
Proof. intros a H. rewrite <- rne_0. apply rne_mono, H. Qed.

Lemma rne_err : forall a, Rabs (rne a - a) <= u53 * Rabs a + tiny.
Proof.
  intros a. destruct (rne_near a) as (e & h & He & Hh & ->).
  replace (a * (1 + e) + h - a) with (a * e + h) by ring. eapply Rle_trans; [apply Rabs_triang|].
  rewrite Rabs_mult. apply Rplus_le_compat; [|exact Hh]. rewrite (Rmult_comm u53). apply Rmult_le_compat_l; [apply Rabs_pos|exact He].
Qed.

(** ** The positions asked for *)

Lemma f_as_le : forall lo hi x n, (lo <= 0)%Z -> (1 <= n)%Z -> (n <= f_as lo hi x)%Z ->
  x = B754_infinity false \/ (is_finite x = true /\ IZR n <= B2R x).
Proof.
  intros lo hi x n Hlo Hn H. destruct (is_finite x) eqn:F.
  - right. split; [reflexivity|]. rewrite f_as_trunc in H by exact F.
    assert (T : (n <= Ztrunc (B2R x))%Z) by lia. apply IZR_le in T. apply Rle_trans with (1 := T).
    destruct (Rle_or_lt 0 (B2R x)) as [P|N].
    + rewrite Ztrunc_floor by exact P. apply Zfloor_lb.
    + exfalso. rewrite Ztrunc_ceil in T by lra. assert (C : (Zceil (B2R x) <= 0)%Z) by (apply Zceil_glb; cbn; lra).
      apply IZR_le in C. apply IZR_le in Hn. lra.
  - destruct x as [|[]| |]; try discriminate; cbn [f_as] in H; auto; lia.
Qed.

Lemma place_bounds : forall L steps k, is_finite L = true -> 0 <= B2R L <= huge ->
  (1 <= k)%Z -> (k <= f_as_i32 steps)%Z ->
  let p := fmul (f_of_Z k) (fdiv L steps) in
  is_finite p = true /\ 0 <= B2R p <= B2R L + 4 * (u53 * (B2R L + 1)).
Proof.
  intros L steps k FL BL Hk Hn p. pose proof u53_pos as [U0 U1]. pose proof tiny_u as TU. pose proof tiny_pos as TP.
  assert (K31 : (k <= 2 ^ 31 - 1)%Z).
  { unfold f_as_i32, f_as in Hn. destruct steps as [|[]| |]; unfold i32_min, i32_max in Hn; lia. }
  destruct (f_of_Z_exact k ltac:(lia)) as [Fk Ek].
  assert (Hk1 : 1 <= IZR k <= 2147483648).
  { split; [apply (IZR_le 1); exact Hk|]. apply Rle_trans with (IZR (2 ^ 31 - 1)); [apply IZR_le; exact K31|]. apply (IZR_le _ 2147483648). lia. }
  pose proof huge_1000 as HH. pose proof one_huge as H1. pose proof (bpow_ge_0 radix2 1000) as B0.
  destruct (f_as_le i32_min i32_max steps k ltac:(unfold i32_min; lia) Hk Hn) as [->|[Fs Hs]].
  - assert (Z : is_finite (fdiv L (B754_infinity false)) = true /\ B2R (fdiv L (B754_infinity false)) = 0).
    { destruct L; try discriminate; split; reflexivity. }
    destruct Z as [Fz Ez].
    destruct (fmul_val (f_of_Z k) (fdiv L (B754_infinity false)) Fk Fz) as [Fp Ep].
    { rewrite Ez, Rmult_0_r, Rabs_R0. exact B0. }
    fold p in Fp, Ep. rewrite Ez, Rmult_0_r, rne_0 in Ep. split; [exact Fp|]. rewrite Ep. split; [lra|]. nra.
  - assert (Q0 : 0 <= B2R L / B2R steps).
    { apply Rmult_le_pos; [lra|]. left. apply Rinv_0_lt_compat. lra. }
    assert (Q1 : IZR k * (B2R L / B2R steps) <= B2R L).
    { apply Rmult_le_reg_r with (B2R steps); [lra|].
      replace (IZR k * (B2R L / B2R steps) * B2R steps) with (IZR k * B2R L) by (field; lra). nra. }
    assert (Q2 : B2R L / B2R steps <= B2R L) by nra.
    destruct (fdiv_val L steps FL ltac:(lra) ltac:(rewrite Rabs_pos_eq by exact Q0; lra)) as [Fd Ed].
    set (q := B2R L / B2R steps) in *.
    pose proof (rne_err q) as E1. rewrite (Rabs_pos_eq q) in E1 by exact Q0.
    pose proof (rne_pos q Q0) as P1. rewrite <- Ed in E1, P1. set (d := B2R (fdiv L steps)) in *.
    assert (D1 : d <= q + u53 * q + tiny) by (apply abs_between in E1; lra).
    assert (KD0 : 0 <= IZR k * d) by (apply Rmult_le_pos; lra).
    assert (KD : IZR k * d <= B2R L + u53 * B2R L + 2147483648 * tiny).
    { apply Rle_trans with (IZR k * (q + u53 * q + tiny)); [apply Rmult_le_compat_l; lra|].
      replace (IZR k * (q + u53 * q + tiny)) with (IZR k * q + u53 * (IZR k * q) + IZR k * tiny) by ring.
      assert (u53 * (IZR k * q) <= u53 * B2R L) by (apply Rmult_le_compat_l; lra).
      assert (IZR k * tiny <= 2147483648 * tiny) by (apply Rmult_le_compat_r; lra). lra. }
    assert (T1 : 2147483648 * tiny <= u53 / 4).
    { apply Rle_trans with (2147483648 * (u53 * u53)); [lra|]. rewrite u53_val. lra. }
    assert (UL : 0 <= u53 * B2R L <= B2R L / 1024) by (split; [apply Rmult_le_pos; lra|nra]).
    destruct (fmul_val (f_of_Z k) (fdiv L steps) Fk Fd) as [Fp Ep].
    { rewrite Ek. fold d. rewrite Rabs_pos_eq by exact KD0. lra. }
    fold p in Fp, Ep. rewrite Ek in Ep. fold d in Ep. split; [exact Fp|]. rewrite Ep.
    split; [apply rne_pos, KD0|].
    pose proof (rne_err (IZR k * d)) as E2. rewrite (Rabs_pos_eq (IZR k * d)) in E2 by exact KD0.
    apply abs_between in E2.
    assert (u53 * (IZR k * d) <= u53 * (B2R L + u53 * B2R L + 2147483648 * tiny)) by (apply Rmult_le_compat_l; lra).
    assert (u53 * (B2R L + u53 * B2R L + 2147483648 * tiny) <= u53 * (B2R L + B2R L / 1024 + / 4)) by (apply Rmult_le_compat_l; nra).
    assert (TT : tiny <= u53 / 4) by lra. nra.
Qed.

(** ** Lengths *)

Lemma rne_half : forall v, 0 < rne v -> v <= bpow radix2 1000 -> v <= 2 * rne v.
Proof.
  intros v H _. destruct (Rle_or_lt v (2 * rne v)) as [L|G]; [exact L|exfalso].
  assert (F : generic_format radix2 bexp (2 * rne v)).
  { rewrite Rmult_comm. change 2 with (bpow radix2 1). rewrite bexp_flt.
    apply mult_bpow_pos_exact_FLT; [|lia]. rewrite <- bexp_flt. apply generic_format_round; [typeclasses eauto|apply valid_rnd_N]. }
  assert (M : rne (2 * rne v) <= rne v) by (apply rne_mono; lra).
  rewrite (round_generic _ _ _ _ F) in M. lra.
Qed.

Definition least : R := bpow radix2 (-1074).
Lemma least_format : generic_format radix2 bexp least.
Proof. rewrite bexp_flt. apply generic_format_FLT_bpow; [typeclasses eauto|lia]. Qed.

Lemma rne_least : forall v, 0 <= v -> rne v = 0 -> v <= least.
Proof.
  intros v V H. destruct (Rle_or_lt v least) as [L|G]; [exact L|exfalso].
  assert (M : rne least <= rne v) by (apply rne_mono; lra).
  rewrite (round_generic _ _ _ _ least_format), H in M. pose proof (bpow_gt_0 radix2 (-1074)). unfold least in M. lra.
Qed.

Lemma float_least : forall x : f64, 0 < B2R x -> least <= B2R x.
Proof.
  intros x H. apply (generic_format_ge_bpow radix2 bexp); [|exact H|apply generic_format_B2R].
  intros e. rewrite bexp_flt. unfold FLT_exp. lia.
Qed.

Lemma fsqrt_val : forall x, is_finite x = true -> 0 <= B2R x -> is_finite (fsqrt x) = true /\ B2R (fsqrt x) = rne (sqrt (B2R x)).
Proof.
  intros x F P. pose proof (Bsqrt_correct 53 1024 prec_ok emax_ok mode_NE x) as C. cbn [round_mode] in C.
  destruct C as (E & Fi & _). split; [|exact E]. unfold fsqrt. rewrite Fi. destruct x as [s|s| |s m e B]; try discriminate; auto.
  destruct s; [|reflexivity]. exfalso. cbn [B2R] in P. unfold cond_Zopp in P.
  assert (X : F2R (Float radix2 (Z.neg m) e) < 0) by (apply F2R_lt_0; cbn; lia). cbn in X, P. lra.
Qed.

Definition wide : R := bpow radix2 400.

Lemma length_facts : forall e W, is_finite (fx e) = true -> is_finite (fy e) = true -> 1 <= W <= wide ->
  Rabs (B2R (fx e)) <= W -> Rabs (B2R (fy e)) <= W ->
  is_finite (fvlength e) = true /\ 0 <= B2R (fvlength e) <= 3 * W /\
  ((B2R (fvlength e) = 0 /\ Rabs (B2R (fx e)) <= u53 /\ Rabs (B2R (fy e)) <= u53) \/
   (0 < B2R (fvlength e) /\ Rabs (B2R (fx e)) <= 3 * B2R (fvlength e) /\ Rabs (B2R (fy e)) <= 3 * B2R (fvlength e))).
Proof.
  intros [x y] W Fx Fy HW Bx By. unfold fvlength. cbn [fx fy] in *. pose proof u53_pos as [U0 U1].
  pose proof tiny_u as TU. pose proof tiny_pos as TP.
  assert (W2 : W * W <= bpow radix2 800).
  { apply Rle_trans with (wide * wide); [apply Rmult_le_compat; lra|]. unfold wide. rewrite <- bpow_plus. apply bpow_le. lia. }
  assert (H8 : bpow radix2 800 <= bpow radix2 1000 / 1024).
  { change (/ 1024) with (bpow radix2 (-10)). unfold Rdiv. change (/ 1024) with (bpow radix2 (-10)). rewrite <- bpow_plus. apply bpow_le. lia. }
  assert (H81 : 1 <= bpow radix2 800) by (change 1 with (bpow radix2 0); apply bpow_le; lia).
  assert (W1 : 1 <= W * W) by nra.
  assert (SQ : forall z : f64, is_finite z = true -> Rabs (B2R z) <= W ->
    is_finite (fmul z z) = true /\ B2R (fmul z z) = rne (B2R z * B2R z) /\ 0 <= B2R z * B2R z <= W * W /\
    0 <= B2R (fmul z z) <= W * W * (1 + / 1000)).
  { intros z Fz Bz. pose proof (abs_between _ _ Bz) as Bz'.
    assert (Z2 : 0 <= B2R z * B2R z <= W * W) by (split; nra).
    destruct (fmul_val z z Fz Fz ltac:(rewrite Rabs_pos_eq by lra; lra)) as [F E]. split; [exact F|]. split; [exact E|].
    split; [exact Z2|]. rewrite E. split; [apply rne_pos; lra|].
    pose proof (rne_err (B2R z * B2R z)) as X. rewrite (Rabs_pos_eq (B2R z * B2R z)) in X by lra. apply abs_between in X.
    assert (u53 * (B2R z * B2R z) <= / 1024 * (W * W)) by (apply Rmult_le_compat; lra).
    assert (tiny <= / 1024 * / 1024) by (apply Rle_trans with (u53 * u53); [exact TU|apply Rmult_le_compat; lra]). lra. }
  destruct (SQ x Fx Bx) as (F1 & E1 & X1 & P1). destruct (SQ y Fy By) as (F2 & E2 & X2 & P2). clear SQ.
  set (xx := fmul x x) in *. set (yy := fmul y y) in *.
  destruct (fadd_val xx yy F1 F2 ltac:(rewrite Rabs_pos_eq by lra; lra)) as [F3 E3]. set (ss := fadd xx yy) in *.
  assert (S0 : 0 <= B2R ss) by (rewrite E3; apply rne_pos; lra).
  assert (S1 : B2R ss <= 4 * (W * W)).
  { destruct (fadd_rel xx yy F1 F2 ltac:(rewrite Rabs_pos_eq by lra; lra)) as [_ X]. fold ss in X.
    rewrite (Rabs_pos_eq (B2R xx + B2R yy)) in X by lra. apply abs_between in X. nra. }
  destruct (fsqrt_val ss F3 S0) as [F4 E4]. set (l := fsqrt ss) in *.
  assert (SS : 0 <= sqrt (B2R ss)) by apply sqrt_pos.
  assert (SU : sqrt (B2R ss) <= 2 * W).
  { rewrite <- (sqrt_Rsqr (2 * W)) by lra. apply sqrt_le_1_alt. unfold Rsqr. lra. }
  assert (L0 : 0 <= B2R l) by (rewrite E4; apply rne_pos, SS).
  split; [exact F4|]. split.
  { split; [exact L0|]. rewrite E4. pose proof (rne_err (sqrt (B2R ss))) as X. rewrite (Rabs_pos_eq (sqrt (B2R ss))) in X by exact SS.
    apply abs_between in X. assert (tiny <= 1) by nra. nra. }
  assert (LE : least <= u53 * u53 ).
  { unfold least, u53. rewrite <- bpow_plus. apply bpow_le. lia. }
  assert (LP : 0 < least) by apply bpow_gt_0.
  destruct (Req_dec (B2R ss) 0) as [SZ|SN].
  - left. assert (XX : B2R xx = 0 /\ B2R yy = 0).
    { assert (A : B2R xx <= B2R ss) by (rewrite E3, <- (rne_float xx) at 1; apply rne_mono; lra).
      assert (B : B2R yy <= B2R ss) by (rewrite E3, <- (rne_float yy) at 1; apply rne_mono; lra). lra. }
    destruct XX as [XZ YZ]. rewrite E1 in XZ. rewrite E2 in YZ.
    apply rne_least in XZ; [|lra]. apply rne_least in YZ; [|lra].
    split; [rewrite E4, SZ, sqrt_0; apply rne_0|].
    assert (T : forall z, z * z <= least -> Rabs z <= u53).
    { intros z Hz. apply Rsqr_incr_0_var; [|lra]. rewrite <- Rsqr_abs. unfold Rsqr. lra. }
    split; apply T; assumption.
  - right. assert (SP : least <= B2R ss) by (apply float_least; lra).
    assert (LL : 0 < B2R l).
    { rewrite E4. assert (Q : bpow radix2 (-537) <= sqrt (B2R ss)).
      { rewrite <- (sqrt_Rsqr (bpow radix2 (-537))) by apply bpow_ge_0. apply sqrt_le_1_alt. unfold Rsqr.
        rewrite <- bpow_plus. exact SP. }
      apply rne_mono in Q. rewrite (round_generic _ _ _ (bpow radix2 (-537))) in Q.
      - pose proof (bpow_gt_0 radix2 (-537)). lra.
      - rewrite bexp_flt. apply generic_format_FLT_bpow; [typeclasses eauto|lia]. }
    assert (LH : sqrt (B2R ss) <= 2 * B2R l).
    { rewrite E4. apply rne_half; [rewrite <- E4; exact LL|]. apply Rle_trans with (2 * W); [exact SU|]. nra. }
    split; [exact LL|].
    assert (T : forall (z zz : f64), B2R zz = rne (B2R z * B2R z) -> 0 <= B2R z * B2R z <= W * W -> B2R zz <= B2R ss -> Rabs (B2R z) <= 3 * B2R l).
    { intros z zz Ez Hz Hs. assert (ZS : B2R z * B2R z <= 2 * B2R ss).
      { destruct (Req_dec (B2R zz) 0) as [Z0|ZN].
        - rewrite Ez in Z0. apply rne_least in Z0; lra.
        - assert (0 < B2R zz) by (pose proof (rne_pos _ (proj1 Hz)); lra). rewrite Ez in H.
          pose proof (rne_half _ H ltac:(lra)). lra. }
      apply Rsqr_incr_0_var; [|lra]. rewrite <- Rsqr_abs. unfold Rsqr.
      pose proof (sqrt_sqrt (B2R ss) S0) as SR. nra. }
    assert (A : B2R xx <= B2R ss) by (rewrite E3, <- (rne_float xx) at 1; apply rne_mono; lra).
    assert (B : B2R yy <= B2R ss) by (rewrite E3, <- (rne_float yy) at 1; apply rne_mono; lra).
    split; [apply (T x xx)|apply (T y yy)]; auto.
Qed.

(** ** Lines *)

Lemma wide_huge : 16 * (wide * wide) <= huge.
Proof. unfold wide, huge. change 16 with (bpow radix2 4). rewrite <- !bpow_plus. apply bpow_le. lia. Qed.

Lemma unit_coord : forall x l s W sg, is_finite x = true -> is_finite l = true -> is_finite s = true ->
  1 <= W <= wide -> 0 < B2R l <= 3 * W -> Rabs (B2R x) <= 3 * B2R l -> 0 <= sg <= W -> 0 <= B2R s <= B2R l + sg ->
  let lam := Rmin 1 (B2R s / B2R l) in
  is_finite (fmul (fdiv x l) s) = true /\ Rabs (B2R (fmul (fdiv x l) s) - lam * B2R x) <= 32 * (u53 * W) + 4 * sg.
Proof.
  intros x l s W sg Fx Fl Fs HW HL HX HS Bs lam. pose proof u53_pos as [U0 U1]. pose proof tiny_u as TU. pose proof tiny_pos as TP.
  pose proof huge_1000 as HH. pose proof one_huge as H1. pose proof wide_huge as WH. assert (WW : W <= wide * wide) by nra.
  set (q := B2R x / B2R l).
  assert (Q3 : Rabs q <= 3).
  { unfold q, Rdiv. rewrite Rabs_mult, Rabs_inv, (Rabs_pos_eq (B2R l)) by lra.
    apply Rmult_le_reg_r with (B2R l); [lra|]. rewrite Rmult_assoc, Rinv_l by lra. lra. }
  destruct (fdiv_val x l Fx ltac:(lra) ltac:(fold q; lra)) as [Fd Ed]. fold q in Ed. set (d := fdiv x l) in *.
  pose proof (rne_err q) as DE. rewrite <- Ed in DE.
  assert (TS : tiny <= u53 / 1024) by (apply Rle_trans with (u53 * u53); [exact TU|nra]).
  assert (DE2 : Rabs (B2R d - q) <= 4 * u53).
  { eapply Rle_trans; [exact DE|]. assert (u53 * Rabs q <= u53 * 3) by (apply Rmult_le_compat_l; lra). lra. }
  assert (D4 : Rabs (B2R d) <= 4) by (pose proof (abs_near _ _ _ DE2); lra).
  assert (S4 : B2R s <= 4 * W) by lra.
  assert (DS : Rabs (B2R d * B2R s) <= 4 * B2R s).
  { rewrite Rabs_mult, (Rabs_pos_eq (B2R s)) by lra. apply Rmult_le_compat_r; lra. }
  destruct (fmul_rel d s Fd Fs ltac:(lra)) as [Fv Ev]. split; [exact Fv|].
  assert (V1 : Rabs (B2R (fmul d s) - B2R d * B2R s) <= 17 * (u53 * W)).
  { eapply Rle_trans; [exact Ev|]. assert (u53 * Rabs (B2R d * B2R s) <= u53 * (16 * W)) by (apply Rmult_le_compat_l; lra). nra. }
  assert (V2 : Rabs (B2R d * B2R s - q * B2R s) <= 12 * (u53 * W) + 4 * u53 * sg).
  { rewrite <- Rmult_minus_distr_r, Rabs_mult, (Rabs_pos_eq (B2R s)) by lra.
    apply Rle_trans with (4 * u53 * (3 * W + sg)); [apply Rmult_le_compat; try apply Rabs_pos; lra|]. lra. }
  assert (V3 : Rabs (q * B2R s - lam * B2R x) <= 3 * sg).
  { unfold lam, Rmin. destruct (Rle_dec 1 (B2R s / B2R l)) as [G|G].
    - assert (SL : B2R l <= B2R s).
      { apply Rmult_le_reg_r with (/ B2R l); [apply Rinv_0_lt_compat; lra|]. rewrite Rinv_r by lra. exact G. }
      replace (q * B2R s - 1 * B2R x) with (q * (B2R s - B2R l)) by (unfold q; field; lra).
      rewrite Rabs_mult. apply Rmult_le_compat; try apply Rabs_pos; auto. rewrite Rabs_pos_eq; lra.
    - replace (q * B2R s - B2R s / B2R l * B2R x) with 0 by (unfold q; field; lra). rewrite Rabs_R0. lra. }
  replace (B2R (fmul d s) - lam * B2R x) with
    ((B2R (fmul d s) - B2R d * B2R s) + ((B2R d * B2R s - q * B2R s) + (q * B2R s - lam * B2R x))) by ring.
  eapply Rle_trans; [apply Rabs_triang|]. eapply Rle_trans; [apply Rplus_le_compat_l; apply Rabs_triang|].
  assert (4 * u53 * sg <= sg) by nra. nra.
Qed.

Lemma zero_length : forall l : f64, is_finite l = true -> 0 <= B2R l ->
  (feq l fzero = true /\ B2R l = 0) \/ (feq l fzero = false /\ 0 < B2R l).
Proof.
  intros l Fl Pl. unfold feq. rewrite Beqb_correct by auto. change (B2R fzero) with 0.
  destruct (Req_bool_spec (B2R l) 0); [left|right]; split; auto; lra.
Qed.

Lemma fline_value : forall e W s sg, is_finite (fx e) = true -> is_finite (fy e) = true -> 1 <= W <= wide ->
  Rabs (B2R (fx e)) <= W -> Rabs (B2R (fy e)) <= W -> is_finite s = true -> 0 <= sg <= W ->
  0 <= B2R s <= B2R (fc_length (fline e)) + sg ->
  exists p d lam, fc_value (fline e) s = Ok (p, d) /\ 0 <= lam <= 1 /\
    within (32 * (u53 * W) + 4 * sg) p (vscale (rv e) lam).
Proof.
  intros e W s sg Fx Fy HW Bx By Fs HS Hs. pose proof u53_pos as [U0 U1]. pose proof tiny_u as TU. pose proof tiny_pos as TP.
  destruct (length_facts e W Fx Fy HW Bx By) as (Fl & Pl & C). unfold fline in *. cbn [fc_length fc_value] in *.
  set (l := fvlength e) in *. assert (UW : u53 <= u53 * W) by nra.
  destruct (zero_length l Fl (proj1 Pl)) as [[Z Lz]|[Z Lp]]; rewrite Z.
  - eexists. eexists. exists 0. split; [reflexivity|]. split; [lra|].
    assert (F1 : is_finite fone = true /\ B2R fone = 1) by (apply f_of_Z_exact; lia).
    assert (F0 : is_finite fzero = true /\ B2R fzero = 0) by (split; reflexivity).
    destruct F1 as [F1 V1]. destruct F0 as [F0 V0]. rewrite Lz, Rplus_0_l in Hs.
    assert (B10 : 1 <= bpow radix2 1000) by (change 1 with (bpow radix2 0); apply bpow_le; lia).
    assert (BW : W <= bpow radix2 1000) by (apply Rle_trans with wide; [lra|apply bpow_le; lia]).
    destruct (fmul_rel fone s F1 Fs ltac:(rewrite V1, Rmult_1_l, Rabs_pos_eq; lra)) as [G1 E1].
    destruct (fmul_rel fzero s F0 Fs ltac:(rewrite V0, Rmult_0_l, Rabs_R0; lra)) as [G0 E0].
    rewrite V1, Rmult_1_l, (Rabs_pos_eq (B2R s)) in E1 by lra. rewrite V0, Rmult_0_l, Rabs_R0 in E0.
    assert (u53 * B2R s <= u53 * W) by (apply Rmult_le_compat_l; lra).
    assert (tiny <= u53) by nra.
    split; [exact G1|]. split; [exact G0|]. cbn [fvmul fx fy vscale rv vx vy]. rewrite !Rmult_0_r, Rminus_0_r.
    apply abs_between in E1. split; [apply Rabs_le; lra|]. rewrite Rminus_0_r in *. lra.
  - destruct C as [(K & _)|(_ & X3 & Y3)]; [lra|].
    destruct (unit_coord (fx e) l s W sg Fx Fl Fs HW ltac:(lra) X3 HS Hs) as [G1 E1].
    destruct (unit_coord (fy e) l s W sg Fy Fl Fs HW ltac:(lra) Y3 HS Hs) as [G2 E2]. cbv zeta in *.
    set (lam := Rmin 1 (B2R s / B2R l)) in *. eexists. eexists. exists lam. split; [reflexivity|].
    split.
    { split; [|apply Rmin_l]. unfold lam. apply Rmin_glb; [lra|]. apply Rmult_le_pos; [lra|]. left. apply Rinv_0_lt_compat. lra. }
    unfold fvmul, fvunit. fold l. cbn [fx fy]. split; [exact G1|]. split; [exact G2|]. cbn [fx fy vscale rv vx vy].
    rewrite (Rmult_comm (B2R (fx e))), (Rmult_comm (B2R (fy e))). auto.
Qed.

Lemma fline_end : forall e W, is_finite (fx e) = true -> is_finite (fy e) = true -> 1 <= W <= wide ->
  Rabs (B2R (fx e)) <= W -> Rabs (B2R (fy e)) <= W ->
  is_finite (fc_length (fline e)) = true /\ 0 <= B2R (fc_length (fline e)) <= 3 * W /\
  exists p d, fc_value (fline e) (fc_length (fline e)) = Ok (p, d) /\ within (32 * (u53 * W)) p (rv e).
Proof.
  intros e W Fx Fy HW Bx By. pose proof u53_pos as [U0 U1]. pose proof tiny_u as TU. pose proof tiny_pos as TP.
  destruct (length_facts e W Fx Fy HW Bx By) as (Fl & Pl & C). split; [exact Fl|]. split; [exact Pl|].
  unfold fline in *. cbn [fc_length fc_value] in *.
  set (l := fvlength e) in *. assert (UW : u53 <= u53 * W) by nra.
  destruct (zero_length l Fl (proj1 Pl)) as [[Z Lz]|[Z Lp]]; rewrite Z.
  - destruct C as [(_ & X3 & Y3)|(K & _)]; [|lra].
    eexists. eexists. split; [reflexivity|].
    assert (F1 : is_finite fone = true /\ B2R fone = 1) by (apply f_of_Z_exact; lia).
    assert (F0 : is_finite fzero = true /\ B2R fzero = 0) by (split; reflexivity).
    destruct F1 as [F1 V1]. destruct F0 as [F0 V0]. pose proof (bpow_ge_0 radix2 1000) as B0.
    destruct (fmul_val fone l F1 Fl ltac:(rewrite Lz, Rmult_0_r, Rabs_R0; exact B0)) as [G1 E1].
    destruct (fmul_val fzero l F0 Fl ltac:(rewrite Lz, Rmult_0_r, Rabs_R0; exact B0)) as [G0 E0].
    rewrite Lz, Rmult_0_r, rne_0 in E1, E0. split; [exact G1|]. split; [exact G0|].
    cbn [fvmul fx fy rv vx vy]. rewrite E1, E0, !Rminus_0_l, !Rabs_Ropp. lra.
  - destruct C as [(K & _)|(_ & X3 & Y3)]; [lra|].
    destruct (unit_coord (fx e) l l W 0 Fx Fl Fl HW ltac:(lra) X3 ltac:(lra) ltac:(lra)) as [G1 E1].
    destruct (unit_coord (fy e) l l W 0 Fy Fl Fl HW ltac:(lra) Y3 ltac:(lra) ltac:(lra)) as [G2 E2]. cbv zeta in *.
    replace (B2R l / B2R l) with 1 in * by (field; lra). rewrite Rmin_left, Rmult_1_l in E1, E2 by lra.
    eexists. eexists. split; [reflexivity|]. unfold fvmul, fvunit. fold l. cbn [fx fy].
    split; [exact G1|]. split; [exact G2|]. cbn [fx fy rv vx vy]. lra.
Qed.

(** ** Bezier curves *)

Definition lerp (a b t : R) : R := a + (b - a) * t.
Lemma lerp_bound : forall a b t W, Rabs a <= W -> Rabs b <= W -> 0 <= t <= 1 -> Rabs (lerp a b t) <= W.
Proof.
  intros a b t W Ha Hb Ht. apply abs_between in Ha. apply abs_between in Hb. unfold lerp. apply Rabs_le. nra.
Qed.

Lemma nr_lerp : forall x y t a b i j W, 1 <= W -> 2 * W <= huge -> 0 <= i -> 0 <= j -> i + j <= 1000 ->
  Rabs a <= W -> Rabs b <= W -> is_finite t = true -> 0 <= B2R t <= 1 ->
  nr i (2 * W) a x -> nr j (2 * W) b y ->
  nr (2 * i + j + 7) (2 * W) (lerp a b (B2R t)) (fadd x (fmul (fsub y x) t)).
Proof.
  intros x y t a b i j W HW Hh Hi Hj Hij Ha Hb Ft Bt Nx Ny. assert (MM : 3000 <= many - 100) by (unfold many; lra).
  pose proof (lerp_bound a b (B2R t) W Ha Hb Bt) as LB.
  assert (BA : Rabs (b - a) <= 2 * W).
  { apply abs_between in Ha. apply abs_between in Hb. apply Rabs_le. lra. }
  assert (N1 : nr (j + i + 2) (2 * W) (b - a) (fsub y x)) by (apply nr_sub; auto; lra).
  assert (N2 : nr (j + i + 2 + 3) (2 * W) ((b - a) * B2R t) (fmul (fsub y x) t)) by (apply nr_mul_unit; auto; lra).
  assert (N3 : nr (i + (j + i + 2 + 3) + 2) (2 * W) (a + (b - a) * B2R t) (fadd x (fmul (fsub y x) t))).
  { apply nr_add; [lra|lra| |exact Nx|exact N2]. unfold lerp in LB. lra. }
  eapply nr_le; [| |exact N3]; lra.
Qed.

Definition cubic (a b c t : R) : R := 3 * t * ((1 - t) * (1 - t)) * a + 3 * (t * t) * (1 - t) * b + t * t * t * c.

Lemma bezier_coord : forall a b c t W, 1 <= W -> 2 * W <= huge -> is_finite a = true -> is_finite b = true ->
  is_finite c = true -> Rabs (B2R a) <= W -> Rabs (B2R b) <= W -> Rabs (B2R c) <= W -> is_finite t = true -> 0 <= B2R t <= 1 ->
  let p00 := fmul a t in
  let p01 := fadd a (fmul (fsub b a) t) in
  let p02 := fadd b (fmul (fsub c b) t) in
  let p10 := fadd p00 (fmul (fsub p01 p00) t) in
  let p11 := fadd p01 (fmul (fsub p02 p01) t) in
  let p20 := fadd p10 (fmul (fsub p11 p10) t) in
  nr 75 (2 * W) (cubic (B2R a) (B2R b) (B2R c) (B2R t)) p20.
Proof.
  intros a b c t W HW Hh Fa Fb Fc Ba Bb Bc Ft Bt p00 p01 p02 p10 p11 p20.
  assert (MM : 3000 <= many - 100) by (unfold many; lra).
  pose proof (nr_exact (2 * W) a Fa) as Na. pose proof (nr_exact (2 * W) b Fb) as Nb. pose proof (nr_exact (2 * W) c Fc) as Nc.
  assert (W0 : Rabs 0 <= W) by (rewrite Rabs_R0; lra).
  set (r00 := lerp 0 (B2R a) (B2R t)). set (r01 := lerp (B2R a) (B2R b) (B2R t)). set (r02 := lerp (B2R b) (B2R c) (B2R t)).
  assert (B00 : Rabs r00 <= W) by (apply lerp_bound; auto).
  assert (B01 : Rabs r01 <= W) by (apply lerp_bound; auto).
  assert (B02 : Rabs r02 <= W) by (apply lerp_bound; auto).
  assert (N00 : nr (0 + 3) (2 * W) r00 p00).
  { replace r00 with (B2R a * B2R t) by (unfold r00, lerp; ring). apply nr_mul_unit; auto; lra. }
  assert (N01 : nr (2 * 0 + 0 + 7) (2 * W) r01 p01) by (apply nr_lerp; auto; lra).
  assert (N02 : nr (2 * 0 + 0 + 7) (2 * W) r02 p02) by (apply nr_lerp; auto; lra).
  set (r10 := lerp r00 r01 (B2R t)). set (r11 := lerp r01 r02 (B2R t)).
  assert (B10 : Rabs r10 <= W) by (apply lerp_bound; auto).
  assert (B11 : Rabs r11 <= W) by (apply lerp_bound; auto).
  assert (N10 : nr (2 * (0 + 3) + (2 * 0 + 0 + 7) + 7) (2 * W) r10 p10) by (apply nr_lerp; auto; lra).
  assert (N11 : nr (2 * (2 * 0 + 0 + 7) + (2 * 0 + 0 + 7) + 7) (2 * W) r11 p11) by (apply nr_lerp; auto; lra).
  assert (N20 : nr (2 * (2 * (0 + 3) + (2 * 0 + 0 + 7) + 7) + (2 * (2 * 0 + 0 + 7) + (2 * 0 + 0 + 7) + 7) + 7) (2 * W) (lerp r10 r11 (B2R t)) p20)
    by (apply nr_lerp; auto; lra).
  replace (cubic (B2R a) (B2R b) (B2R c) (B2R t)) with (lerp r10 r11 (B2R t))
    by (unfold cubic, r10, r11, r00, r01, r02, lerp; ring).
  eapply nr_le; [| |exact N20]; lra.
Qed.

Definition cubic_at (a b c : vec) (t : R) : vec := mk_vec (cubic (vx a) (vx b) (vx c) t) (cubic (vy a) (vy b) (vy c) t).

Definition fin (v : fvec) : Prop := is_finite (fx v) = true /\ is_finite (fy v) = true.

Lemma bezier_value : forall a b c t W, 1 <= W -> 2 * W <= huge -> fin a -> fin b -> fin c ->
  box W (rv a) -> box W (rv b) -> box W (rv c) -> is_finite t = true -> 0 <= B2R t <= 1 ->
  within (150 * (u53 * W)) (fst (fbezier_value a b c t)) (cubic_at (rv a) (rv b) (rv c) (B2R t)).
Proof.
  intros a b c t W HW Hh [Fa1 Fa2] [Fb1 Fb2] [Fc1 Fc2] [Ba1 Ba2] [Bb1 Bb2] [Bc1 Bc2] Ft Bt.
  pose proof (bezier_coord (fx a) (fx b) (fx c) t W HW Hh Fa1 Fb1 Fc1 Ba1 Bb1 Bc1 Ft Bt) as X.
  pose proof (bezier_coord (fy a) (fy b) (fy c) t W HW Hh Fa2 Fb2 Fc2 Ba2 Bb2 Bc2 Ft Bt) as Y. cbv zeta in *.
  unfold fbezier_value, cubic_at, rv. cbv zeta. cbn [fst vx vy].
  unfold fvadd, fvmul, fvsub. cbn [fx fy].
  replace (150 * (u53 * W)) with (75 * (u53 * (2 * W))) by ring.
  apply nv_within. split; assumption.
Qed.

(** ** The parameter of a Bezier curve *)

Definition mid (low high : f64) : f64 := fmul (fadd high low) (lit 1 2).

Lemma mid_between : forall low high, is_finite low = true -> is_finite high = true -> 0 <= B2R low <= B2R high -> B2R high <= / 8 ->
  is_finite (mid low high) = true /\ B2R low <= B2R (mid low high) <= B2R high /\
  Rabs (B2R (mid low high) - (B2R low + B2R high) / 2) <= u53 / 2.
Proof.
  intros low high Fl Fh Hl Hh. destruct half_value as [F2 E2]. pose proof u53_pos as [U0 U1]. pose proof tiny_u as TU.
  assert (B1 : 1 <= bpow radix2 1000) by (change 1 with (bpow radix2 0); apply bpow_le; lia).
  destruct (fadd_val high low Fh Fl ltac:(rewrite Rabs_pos_eq; lra)) as [Fs Es].
  assert (DF : forall x : f64, generic_format radix2 bexp (2 * B2R x)).
  { intros x. rewrite Rmult_comm. change 2 with (bpow radix2 1). rewrite bexp_flt.
    apply mult_bpow_pos_exact_FLT; [|lia]. rewrite <- bexp_flt. apply generic_format_B2R. }
  assert (S1 : 2 * B2R low <= B2R (fadd high low)).
  { rewrite Es, <- (round_generic radix2 bexp ZnearestE (2 * B2R low) (DF low)) at 1. apply rne_mono. lra. }
  assert (S2 : B2R (fadd high low) <= 2 * B2R high).
  { rewrite Es, <- (round_generic radix2 bexp ZnearestE (2 * B2R high) (DF high)). apply rne_mono. lra. }
  destruct (fmul_val (fadd high low) (lit 1 2) Fs F2 ltac:(rewrite E2, Rabs_pos_eq; lra)) as [Fm Em].
  rewrite E2 in Em. fold (mid low high) in Fm, Em. split; [exact Fm|]. split.
  - rewrite Em. split.
    + rewrite <- (rne_float low) at 1. apply rne_mono. lra.
    + rewrite <- (rne_float high). apply rne_mono. lra.
  - destruct (fadd_rel high low Fh Fl ltac:(rewrite (Rabs_pos_eq (B2R high + B2R low)) by lra; lra)) as [_ X]. rewrite (Rabs_pos_eq (B2R high + B2R low)) in X by lra.
    destruct (fmul_rel (fadd high low) (lit 1 2) Fs F2 ltac:(rewrite E2, Rabs_pos_eq; lra)) as [_ Y].
    rewrite E2, (Rabs_pos_eq (B2R (fadd high low) * / 2)) in Y by lra. fold (mid low high) in Y.
    apply abs_between in X. apply abs_between in Y.
    assert (u53 * (B2R high + B2R low) <= u53 * / 4) by (apply Rmult_le_compat_l; lra).
    assert (u53 * (B2R (fadd high low) * / 2) <= u53 * / 8) by (apply Rmult_le_compat_l; lra).
    assert (tiny <= u53 * / 16) by (apply Rle_trans with (u53 * u53); [exact TU|apply Rmult_le_compat_l; lra]).
    apply Rabs_le. lra.
Qed.

Lemma fgt_spec : forall x y : f64, is_finite x = true -> is_finite y = true -> fgt x y = true <-> B2R y < B2R x.
Proof.
  intros x y Fx Fy. unfold fgt. rewrite Bltb_correct by auto.
  destruct (Rlt_bool_spec (B2R y) (B2R x)); split; intros; auto; try lra; discriminate.
Qed.

Lemma fle_spec : forall x y : f64, is_finite x = true -> is_finite y = true -> fle x y = true <-> B2R x <= B2R y.
Proof.
  intros x y Fx Fy. unfold fle. rewrite Bleb_correct by auto.
  destruct (Rle_bool_spec (B2R x) (B2R y)); split; intros; auto; try lra; discriminate.
Qed.

Lemma bisect_between : forall fuel p l low high r, is_finite low = true -> is_finite high = true ->
  0 <= B2R low <= B2R high -> B2R high <= / 8 -> fbisect fuel p l low high = Ok r ->
  is_finite r = true /\ B2R low <= B2R r <= B2R high.
Proof.
  induction fuel as [|fuel IH]; intros p l low high r Fl Fh Hl Hh H; cbn [fbisect] in H.
  - destruct (fgt _ _); [discriminate|]. injection H as <-. split; [exact Fl|lra].
  - destruct (fgt (fsub high low) _); [|injection H as <-; split; [exact Fl|lra]].
    fold (mid low high) in H. destruct (mid_between low high Fl Fh Hl Hh) as (Fm & Bm & _).
    destruct (fgt (fpolyval p (mid low high)) l); apply IH in H; auto; try lra.
    all: destruct H as [Fr Hr]; split; [exact Fr|lra].
Qed.

Lemma epsilon_value : is_finite fepsilon = true /\ B2R fepsilon = 2 * u53.
Proof.
  split; [vm_compute; reflexivity|].
  assert (V : B2SF fepsilon = SpecFloat.S754_finite false 4503599627370496 (-104)) by (vm_compute; reflexivity).
  rewrite <- SF2R_B2SF, V. cbn [SF2R cond_Zopp]. unfold F2R. cbn [Fnum Fexp].
  change (IZR 4503599627370496) with (bpow radix2 52). rewrite <- bpow_plus. unfold u53.
  change 2 with (bpow radix2 1). rewrite <- bpow_plus. reflexivity.
Qed.

(** The bisection halves the interval, up to rounding, until it is at most 2^-52 long. *)
Lemma bisect_ends : forall fuel p l low high, is_finite low = true -> is_finite high = true ->
  0 <= B2R low <= B2R high -> B2R high <= / 8 -> B2R high - B2R low <= (2 ^ fuel + 1) * u53 ->
  exists r, fbisect fuel p l low high = Ok r.
Proof.
  destruct epsilon_value as [Fe Ee]. pose proof u53_pos as [U0 U1].
  assert (B1 : 1 <= bpow radix2 1000) by (change 1 with (bpow radix2 0); apply bpow_le; lia).
  induction fuel as [|fuel IH]; intros p l low high Fl Fh Hl Hh Hw; cbn [fbisect];
    destruct (fsub_val high low Fh Fl ltac:(rewrite Rabs_pos_eq; lra)) as [Fd Ed].
  - destruct (fgt (fsub high low) fepsilon) eqn:G; [exfalso|eexists; reflexivity].
    apply fgt_spec in G; auto. rewrite Ed, <- (rne_float fepsilon) in G.
    assert (rne (B2R high - B2R low) <= rne (B2R fepsilon)) by (apply rne_mono; cbn [pow] in Hw; lra). lra.
  - destruct (fgt (fsub high low) fepsilon); [|eexists; reflexivity].
    fold (mid low high). destruct (mid_between low high Fl Fh Hl Hh) as (Fm & Bm & Em). apply abs_between in Em.
    cbn [pow] in Hw. destruct (fgt (fpolyval p (mid low high)) l); apply IH; auto; lra.
Qed.

(** What the starts of the twelve pieces give: differences in [0, 1/8] that lead back to at most 1. *)
Definition pair_ok (s0 s1 : f64) : bool :=
  let d := fsub s1 s0 in
  is_finite d && fle fzero d && fle d (lit 1 8) && is_finite (fadd d s0) && fle (fadd d s0) fone.
Fixpoint starts_ok (l : list f64) : bool :=
  match l with
  | [] => true
  | s0 :: r => is_finite s0 && fle fzero s0 && fle s0 fone && match r with s1 :: _ => pair_ok s0 s1 | [] => true end && starts_ok r
  end.

Lemma fstarts_ok : starts_ok fstarts = true.
Proof. vm_compute. reflexivity. Qed.

Lemma starts_nth : forall l, starts_ok l = true -> forall i s, nth_error l i = Some s ->
  is_finite s = true /\ fle fzero s = true /\ fle s fone = true /\
  forall s', nth_error l (S i) = Some s' -> pair_ok s s' = true.
Proof.
  induction l as [|s0 l IH]; intros H i s K; [destruct i; discriminate|].
  cbn [starts_ok] in H. rewrite !andb_true_iff in H. destruct H as ((((A & B) & C) & D) & E).
  destruct i as [|i]; cbn [nth_error] in K |- *.
  - injection K as <-. repeat split; auto. intros s' K. destruct l as [|s1 l]; [discriminate|]. cbn in K. injection K as <-. exact D.
  - apply (IH E i s K).
Qed.

Lemma combine_nth : forall (A B : Type) (a : list A) (b : list B) i x y, nth_error (combine a b) i = Some (x, y) ->
  nth_error a i = Some x /\ nth_error b i = Some y.
Proof.
  intros A B. induction a as [|x0 a IH]; intros [|y0 b] [|i] x y H; cbn in *; try discriminate.
  - injection H as <- <-. auto.
  - apply IH, H.
Qed.

Lemma one_value : is_finite fone = true /\ B2R fone = 1.
Proof. apply f_of_Z_exact. lia. Qed.
Lemma zero_value : is_finite fzero = true /\ B2R fzero = 0.
Proof. split; reflexivity. Qed.
Lemma eighth_value : is_finite (lit 1 8) = true /\ B2R (lit 1 8) = / 8.
Proof.
  assert (V : B2SF (lit 1 8) = SpecFloat.S754_finite false 4503599627370496 (-55)) by (vm_compute; reflexivity).
  split; [vm_compute; reflexivity|]. rewrite <- SF2R_B2SF, V. cbn [SF2R cond_Zopp]. unfold F2R. cbn [Fnum Fexp].
  change (IZR 4503599627370496) with (bpow radix2 52). rewrite <- bpow_plus. reflexivity.
Qed.

Lemma pair_spec : forall s0 s1, is_finite s0 = true -> pair_ok s0 s1 = true ->
  let d := fsub s1 s0 in is_finite d = true /\ 0 <= B2R d <= / 8 /\ is_finite (fadd d s0) = true /\ B2R (fadd d s0) <= 1.
Proof.
  intros s0 s1 F0 H d. unfold pair_ok in H. fold d in H. rewrite !andb_true_iff in H. destruct H as ((((A & B) & C) & D) & E).
  destruct one_value as [F1 V1]. destruct zero_value as [Fz Vz]. destruct eighth_value as [F8 V8].
  apply fle_spec in B; auto. apply fle_spec in C; auto. apply fle_spec in E; auto. rewrite ?V1, ?Vz, ?V8 in *. auto.
Qed.

Definition unit_param (t : f64) : Prop := is_finite t = true /\ 0 <= B2R t <= 1.

Lemma find_param_unit : forall fuel search ints l t, ffind_param fuel search (ftable ints) l = Ok t -> unit_param t.
Proof.
  intros fuel search ints l t H. destruct one_value as [F1 V1]. destruct zero_value as [Fz Vz]. unfold ffind_param in H.
  apply bind_Ok in H. destruct H as (keys & _ & H). apply bind_Ok in H. destruct H as ([found i] & _ & H).
  assert (ST : forall j s p, nth_error (ftable ints) j = Some (s, p) -> unit_param s).
  { intros j s p K. apply combine_nth in K. destruct K as [K _].
    destruct (starts_nth _ fstarts_ok j s K) as (A & B & C & _).
    apply fle_spec in B; auto. apply fle_spec in C; auto. rewrite V1 in C. rewrite Vz in B. split; auto. }
  destruct found.
  - apply bind_Ok in H. destruct H as ([s p] & E & H). injection H as <-. destruct (nth_error (ftable ints) i) as [[s' p']|] eqn:K; [|discriminate].
    injection E as <- <-. eapply ST; eauto.
  - apply bind_Ok in H. destruct H as (_ & _ & H). destruct i as [|k]; [discriminate|].
    apply bind_Ok in H. destruct H as ([s1 p1] & E1 & H). apply bind_Ok in H. destruct H as ([s0 p] & E0 & H).
    apply bind_Ok in H. destruct H as (low & EB & H). injection H as <-.
    destruct (nth_error (ftable ints) (S k)) as [[s1' p1']|] eqn:K1; [|discriminate]. injection E1 as -> ->.
    destruct (nth_error (ftable ints) k) as [[s0' p0']|] eqn:K0; [|discriminate]. injection E0 as -> ->.
    destruct (ST _ _ _ K0) as [Fs0 Bs0].
    apply combine_nth in K1. apply combine_nth in K0. destruct K1 as [K1 _]. destruct K0 as [K0 _].
    destruct (starts_nth _ fstarts_ok k s0 K0) as (A & B & C & D). specialize (D s1 K1).
    destruct (pair_spec s0 s1 A D) as (Fd & Bd & Fs & Bs). cbv zeta in *.
    apply bisect_between in EB; auto; try (rewrite Vz; lra); try lra. destruct EB as [Fl Bl]. rewrite Vz in Bl.
    assert (B1 : 2 <= bpow radix2 1000) by (change 2 with (bpow radix2 1); apply bpow_le; lia).
    destruct (fadd_val low s0 Fl Fs0 ltac:(rewrite Rabs_pos_eq; lra)) as [Ft Et].
    split; [exact Ft|]. rewrite Et. split; [apply rne_pos; lra|].
    destruct (fadd_val (fsub s1 s0) s0 Fd Fs0 ltac:(rewrite Rabs_pos_eq; lra)) as [_ Ed].
    rewrite Ed in Bs. eapply Rle_trans; [|exact Bs]. apply rne_mono. lra.
Qed.

Lemma find_param_ends : forall fuel search ints l, (50 <= fuel)%nat ->
  (forall keys x, search keys x <> OutOfFuel) -> ffind_param fuel search (ftable ints) l <> OutOfFuel.
Proof.
  intros fuel search ints l Hf HS H. destruct zero_value as [Fz Vz]. unfold ffind_param in H.
  assert (HD : forall tab, heads tab <> OutOfFuel).
  { induction tab as [|[s i] tab IH]; cbn [heads]; [discriminate|]. unfold head_of, unwrap.
    destruct (nth_error i 0); cbn [bind]; [|discriminate]. destruct (heads tab); cbn [bind]; [discriminate|discriminate|congruence]. }
  destruct (heads (ftable ints)) as [keys| |] eqn:EK; cbn [bind] in H; [|discriminate|exact (HD _ EK)].
  destruct (search keys l) as [[found i]| |] eqn:ES; cbn [bind] in H; [|discriminate|exact (HS _ _ ES)].
  destruct found.
  - destruct (nth_error (ftable ints) i) as [[s p]|]; discriminate.
  - unfold assert in H. destruct (Nat.ltb i (length (ftable ints))); cbn [bind] in H; [|discriminate].
    destruct i as [|k]; [discriminate|].
    destruct (nth_error (ftable ints) (S k)) as [[s1 p1]|] eqn:K1; cbn [unwrap bind] in H; [|discriminate].
    destruct (nth_error (ftable ints) k) as [[s0 p]|] eqn:K0; cbn [unwrap bind] in H; [|discriminate].
    apply combine_nth in K1. apply combine_nth in K0. destruct K1 as [K1 _]. destruct K0 as [K0 _].
    destruct (starts_nth _ fstarts_ok k s0 K0) as (A & B & C & D). specialize (D s1 K1).
    destruct (pair_spec s0 s1 A D) as (Fd & Bd & Fs & Bs). cbv zeta in *.
    destruct (bisect_ends fuel p l fzero (fsub s1 s0) Fz Fd ltac:(rewrite Vz; lra) ltac:(lra)) as [r E].
    { rewrite Vz, Rminus_0_r. apply Rle_trans with (/ 8); [lra|].
      assert (P : 2 ^ 50 <= 2 ^ fuel) by (apply Rle_pow; [lra|exact Hf]).
      rewrite u53_val. set (x := 2 ^ fuel) in *. lra. }
    rewrite E in H. discriminate.
Qed.

Lemma bezier_curve : forall fuel search ints a b c curve, fbezier fuel search ints a b c = Ok curve ->
  (forall pos p d, fc_value curve pos = Ok (p, d) -> exists t, unit_param t /\ p = fst (fbezier_value a b c t)) /\
  (is_finite (fc_length curve) = true -> 0 < B2R (fc_length curve) ->
   fc_value curve (fc_length curve) = Ok (fbezier_value a b c fone)).
Proof.
  intros fuel search ints a b c curve H. destruct one_value as [F1 V1]. destruct zero_value as [Fz Vz].
  unfold fbezier in H. cbv zeta in H. apply bind_Ok in H. destruct H as (len & EL & H). injection H as <-.
  cbn [fc_value fc_length]. split.
  - intros pos p d H. apply bind_Ok in H. destruct H as (t & ET & H). exists t. injection H as <-.
    split; [|reflexivity]. destruct (fle pos fzero).
    + injection ET as <-. split; [exact Fz|rewrite Vz; lra].
    + rewrite EL in ET. cbn [bind] in ET. destruct (fle len pos).
      * injection ET as <-. split; [exact F1|rewrite V1; lra].
      * eapply find_param_unit, ET.
  - intros FL PL. assert (A : fle len fzero = false).
    { destruct (fle len fzero) eqn:E; [|reflexivity]. apply fle_spec in E; auto. lra. }
    assert (B : fle len len = true) by (apply fle_spec; auto; lra).
    rewrite A, EL. cbn [bind]. rewrite B. reflexivity.
Qed.
