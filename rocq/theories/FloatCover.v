(** The way back from the figure to the places that a run of joined curves asks for (FloatRun.v): every
    point of a line is near one of the places of the ticks. *)
From Coq Require Import ZArith Reals List Bool Lia Lra Psatz.
From Flocq Require Import Core BinarySingleNaN.
From Verif Require Import Base Floats FloatProofs FloatScale FloatErr AccVector IntegerCurve StepperContext
  ApproxCurve DrawCurves FloatPath Coords Curves PathBuild BuildProofs PropsBuild FloatPathProofs FloatCurve PropsSteps
  DrawProofs PropsError DrawPlan FloatRun.
Import ListNotations.
Open Scope R_scope.

(** ** The length of a line *)

Definition norm (x y : R) : R := sqrt (x * x + y * y).


Lemma length_near : forall e W, is_finite (fx e) = true -> is_finite (fy e) = true -> 1 <= W <= wide ->
  Rabs (B2R (fx e)) <= W -> Rabs (B2R (fy e)) <= W ->
  Rabs (B2R (fvlength e) - norm (B2R (fx e)) (B2R (fy e))) <= 16 * (u53 * W).
Proof.
  intros [x y] W Fx Fy HW Bx By. unfold fvlength, norm. cbn [fx fy] in *. pose proof u53_pos as [U0 U1].
  pose proof tiny_u as TU. pose proof tiny_pos as TP.
  assert (W2 : W * W <= bpow radix2 800).
  { apply Rle_trans with (wide * wide); [apply Rmult_le_compat; lra|]. unfold wide. rewrite <- bpow_plus. apply bpow_le. lia. }
  assert (H8 : bpow radix2 800 <= bpow radix2 1000 / 1024).
  { unfold Rdiv. change (/ 1024) with (bpow radix2 (-10)). rewrite <- bpow_plus. apply bpow_le. lia. }
  assert (W1 : 1 <= W * W) by nra.
  assert (SQ : forall z : f64, is_finite z = true -> Rabs (B2R z) <= W ->
    is_finite (fmul z z) = true /\ 0 <= B2R z * B2R z <= W * W /\ 0 <= B2R (fmul z z) /\
    Rabs (B2R (fmul z z) - B2R z * B2R z) <= u53 * (B2R z * B2R z) + tiny).
  { intros z Fz Bz. pose proof (abs_between _ _ Bz) as Bz'.
    assert (Z2 : 0 <= B2R z * B2R z <= W * W) by (split; nra).
    destruct (fmul_val z z Fz Fz ltac:(rewrite Rabs_pos_eq by lra; lra)) as [F E]. split; [exact F|].
    split; [exact Z2|]. rewrite E. split; [apply rne_pos; lra|].
    pose proof (rne_err (B2R z * B2R z)) as X. rewrite (Rabs_pos_eq (B2R z * B2R z)) in X by lra. exact X. }
  destruct (SQ x Fx Bx) as (F1 & X1 & P1 & E1). destruct (SQ y Fy By) as (F2 & X2 & P2 & E2). clear SQ.
  set (xx := fmul x x) in *. set (yy := fmul y y) in *. set (a := B2R x * B2R x) in *. set (b := B2R y * B2R y) in *.
  apply abs_between in E1, E2.
  assert (UA : u53 * a <= a / 1024) by nra. assert (UB : u53 * b <= b / 1024) by nra.
  assert (TS : tiny <= / 1024 * / 1024) by (apply Rle_trans with (u53 * u53); [exact TU|apply Rmult_le_compat; lra]).
  assert (BND : Rabs (B2R xx + B2R yy) <= bpow radix2 1000) by (rewrite Rabs_pos_eq by lra; lra).
  destruct (fadd_val xx yy F1 F2 BND) as [F3 E3].
  destruct (fadd_rel xx yy F1 F2 BND) as [_ E4]. set (ss := fadd xx yy) in *.
  assert (S0 : 0 <= B2R ss) by (rewrite E3; apply rne_pos; lra).
  rewrite (Rabs_pos_eq (B2R xx + B2R yy)) in E4 by lra. apply abs_between in E4.
  destruct (fsqrt_val ss F3 S0) as [F5 E5]. set (l := fsqrt ss) in *.
  set (D := a + b) in *. assert (D0 : 0 <= D) by (unfold D; lra).
  assert (D2 : D <= 2 * (W * W)) by (unfold D; lra).
  assert (SM : u53 * (B2R xx + B2R yy) <= 2 * (u53 * D) + 2 * tiny).
  { assert (u53 * (B2R xx + B2R yy) <= u53 * (D + (u53 * a + u53 * b) + 2 * tiny)) by (apply Rmult_le_compat_l; unfold D; lra).
    assert (u53 * (D + (u53 * a + u53 * b) + 2 * tiny) <= u53 * (2 * D + 2 * tiny)) by (apply Rmult_le_compat_l; unfold D; lra).
    assert (u53 * (2 * tiny) <= 2 * tiny) by nra. lra. }
  assert (NR : Rabs (B2R ss - D) <= 3 * (u53 * D) + 4 * tiny).
  { apply Rabs_le. replace (u53 * a) with (u53 * D - u53 * b) in E1 by (unfold D; ring). unfold D in *. lra. }
  apply abs_between in NR.
  set (r := sqrt D). assert (R0 : 0 <= r) by apply sqrt_pos. assert (RR : r * r = D) by (apply sqrt_sqrt; exact D0).
  assert (RW : r <= 2 * W).
  { unfold r. rewrite <- (sqrt_square (2 * W)) by lra. apply sqrt_le_1_alt. lra. }
  assert (UR : 0 <= u53 * r) by (apply Rmult_le_pos; lra). assert (URR : 0 <= u53 * (r * r)) by (apply Rmult_le_pos; [lra|rewrite RR; exact D0]).
  assert (UU : 0 < u53 * u53) by (apply Rmult_lt_0_compat; lra).
  assert (UP : sqrt (B2R ss) <= r + (2 * (u53 * r) + 2 * u53)).
  { rewrite <- (sqrt_square (r + (2 * (u53 * r) + 2 * u53))) by lra. apply sqrt_le_1_alt.
    apply Rle_trans with (D + (3 * (u53 * D) + 4 * tiny)); [lra|]. rewrite <- RR.
    replace ((r + (2 * (u53 * r) + 2 * u53)) * (r + (2 * (u53 * r) + 2 * u53))) with
      (r * r + 4 * (u53 * (r * r)) + 4 * (u53 * u53) + 4 * (u53 * r) + 4 * (u53 * r * (u53 * r)) + 8 * (u53 * (u53 * r))) by ring.
    assert (0 <= u53 * r * (u53 * r)) by (apply Rmult_le_pos; lra). assert (0 <= u53 * (u53 * r)) by (apply Rmult_le_pos; lra). lra. }
  assert (DN : r <= sqrt (B2R ss) + (4 * (u53 * r) + 4 * u53)).
  { set (q := 4 * (u53 * r) + 4 * u53) in *. assert (Q0 : 0 <= q) by (unfold q; lra).
    destruct (Rle_or_lt r q) as [Z|Z]; [pose proof (sqrt_pos (B2R ss)); lra|].
    assert (r - q <= sqrt (B2R ss)); [|lra].
    rewrite <- (sqrt_square (r - q)) by lra. apply sqrt_le_1_alt.
    assert (RG : 4 * u53 <= r) by (unfold q in Z; lra).
    apply Rle_trans with (D - (3 * (u53 * D) + 4 * tiny)); [|lra]. rewrite <- RR.
    assert (QQ : q * q <= r * q) by (apply Rmult_le_compat_r; lra).
    assert (RQ : r * q = 4 * (u53 * (r * r)) + 4 * (u53 * r)) by (unfold q; ring).
    assert (u53 * (4 * u53) <= u53 * r) by (apply Rmult_le_compat_l; lra).
    replace ((r - q) * (r - q)) with (r * r - 2 * (r * q) + q * q) by ring. lra. }
  assert (LE : Rabs (B2R l - sqrt (B2R ss)) <= u53 * sqrt (B2R ss) + tiny).
  { rewrite E5. pose proof (rne_err (sqrt (B2R ss))) as X. rewrite (Rabs_pos_eq (sqrt (B2R ss))) in X by apply sqrt_pos. exact X. }
  apply abs_between in LE. fold r.
  assert (UW : u53 * r <= 2 * (u53 * W)).
  { replace (2 * (u53 * W)) with (u53 * (2 * W)) by ring. apply Rmult_le_compat_l; lra. }
  assert (UW1 : u53 <= u53 * W) by (rewrite <- (Rmult_1_r u53) at 1; apply Rmult_le_compat_l; lra).
  assert (UWW : u53 * W <= W / 1024) by (unfold Rdiv; rewrite (Rmult_comm W); apply Rmult_le_compat_r; lra).
  assert (S3 : sqrt (B2R ss) <= 3 * W) by lra.
  assert (US : u53 * sqrt (B2R ss) <= 3 * (u53 * W)).
  { replace (3 * (u53 * W)) with (u53 * (3 * W)) by ring. apply Rmult_le_compat_l; lra. }
  assert (T1 : tiny <= u53) by (apply Rle_trans with (u53 * u53); [exact TU|]; rewrite <- (Rmult_1_r u53) at 3; apply Rmult_le_compat_l; lra).
  apply Rabs_le. lra.
Qed.

(** ** The places of the ticks *)

Lemma as_max : forall x : f64, is_finite x = false -> B2SF x = SpecFloat.S754_infinity false -> f_as_i32 (fround x) = i32_max.
Proof. intros [s|s| |s m e H] F E; try discriminate. cbn in E. injection E as ->. reflexivity. Qed.

(** The number of ticks, when it fits. *)
Lemma tick_count : forall L v, is_finite L = true -> 0 <= B2R L -> 0 < B2R v -> 3 / 2 * B2R v <= B2R L ->
  (f_as_i32 (fround (fdiv L v)) < i32_max)%Z ->
  let n := f_as_i32 (fround (fdiv L v)) in
  (1 <= n)%Z /\ is_finite (fround (fdiv L v)) = true /\ B2R (fround (fdiv L v)) = IZR n /\
  B2R L / IZR n <= 3 / 2 * B2R v + 2 * (u53 * B2R L).
Proof.
  intros L v FL L0 V0 LV HN n. pose proof u53_pos as [U0 U1]. pose proof tiny_u as TU. pose proof tiny_pos as TP.
  pose proof (Bdiv_correct 53 1024 prec_ok emax_ok mode_NE L v ltac:(lra)) as C. cbn [round_mode] in C.
  fold (rne (B2R L / B2R v)) in C. fold (fdiv L v) in C.
  set (q := B2R L / B2R v) in *. set (x := fdiv L v) in *.
  assert (Q32 : 3 / 2 <= q).
  { unfold q. apply Rmult_le_reg_r with (B2R v); [exact V0|]. unfold Rdiv at 2. rewrite Rmult_assoc, Rinv_l by lra. lra. }
  destruct (Rlt_bool_spec (Rabs (rne q)) (bpow radix2 1024)) as [LT|GE].
  2: { exfalso. assert (SG : Bsign L = false /\ Bsign v = false).
    { split; [destruct L as [s|s| |s m e H]; try discriminate; cbn [B2R] in *; try lra; destruct s; [|reflexivity];
        exfalso; assert (X : F2R (Float radix2 (Z.neg m) e) < 0) by (apply F2R_lt_0; cbn; lia); cbn in X, L0; lra
      |destruct v as [s|s| |s m e H]; cbn [B2R] in *; try lra; destruct s; [|reflexivity];
        exfalso; assert (X : F2R (Float radix2 (Z.neg m) e) < 0) by (apply F2R_lt_0; cbn; lia); cbn in X, V0; lra]. }
    destruct SG as [S1 S2]. rewrite S1, S2 in C. cbn [xorb] in C.
    unfold n in HN. rewrite as_max in HN; [lia| |].
    - destruct x; try reflexivity; discriminate C.
    - exact C. }
  destruct C as (E & F & _). rewrite FL in F.
  destruct (round_value x) as [FR VR]. specialize (VR F). rewrite F in FR.
  pose proof (f_as_trunc i32_min i32_max (fround x) FR) as T. rewrite VR, Ztrunc_IZR in T.
  fold (f_as_i32 (fround x)) in T. fold n in T, HN. unfold i32_min, i32_max in *.
  assert (X32 : 3 / 2 <= B2R x).
  { rewrite E. assert (R : rne (3 / 2) = 3 / 2).
    { destruct (f_of_Z_exact 3 ltac:(lia)) as [F3 V3]. apply round_generic; [apply valid_rnd_N|].
      replace (3 / 2) with (F2R (Float radix2 3 (-1))) by (unfold F2R; cbn; lra).
      rewrite bexp_flt. apply generic_format_FLT. exists (Float radix2 3 (-1)); [reflexivity|cbn; lia|cbn; lia]. }
    rewrite <- R. apply rne_mono. exact Q32. }
  pose proof (Znearest_half (Z.leb 0) (B2R x)) as HF. fold ZnearestA in HF.
  assert (N1 : (1 <= ZnearestA (B2R x))%Z).
  { apply abs_between in HF. apply le_IZR. assert (0 < IZR (ZnearestA (B2R x))) by lra.
    apply lt_IZR in H. apply IZR_le. lia. }
  assert (EN : n = ZnearestA (B2R x)) by lia.
  split; [lia|]. split; [exact FR|]. split; [rewrite VR, EN; reflexivity|]. rewrite EN.
  set (m := IZR (ZnearestA (B2R x))) in *. assert (M1 : 1 <= m) by (unfold m; apply IZR_le; exact N1).
  pose proof (rne_err q) as QE. rewrite <- E in QE. rewrite (Rabs_pos_eq q) in QE by lra. apply abs_between in QE. apply abs_between in HF.
  assert (QV : q * B2R v = B2R L) by (unfold q; field; lra).
  assert (QB : q <= m + 1 / 2 + (u53 * q + tiny)) by lra.
  assert (T1 : tiny <= u53 * q).
  { apply Rle_trans with (u53 * u53); [exact TU|]. apply Rmult_le_compat_l; lra. }
  apply Rmult_le_reg_r with m; [lra|]. replace (B2R L / m * m) with (B2R L) by (field; lra). rewrite <- QV.
  apply Rle_trans with ((m + 1 / 2 + 2 * (u53 * q)) * B2R v); [apply Rmult_le_compat_r; lra|].
  replace ((3 / 2 * B2R v + 2 * (u53 * (q * B2R v))) * m) with ((3 / 2 * m + 2 * (u53 * q) * m) * B2R v) by ring.
  apply Rmult_le_compat_r; [lra|]. assert (0 <= u53 * q) by (apply Rmult_le_pos; lra).
  assert (2 * (u53 * q) * 1 <= 2 * (u53 * q) * m) by (apply Rmult_le_compat_l; lra). lra.
Qed.

(** The place of a tick, against the even division of the length. *)
Lemma place_near : forall L N k n, is_finite L = true -> 0 <= B2R L <= huge -> is_finite N = true -> B2R N = IZR n ->
  (1 <= k <= n)%Z -> (n < i32_max)%Z ->
  let p := fmul (f_of_Z k) (fdiv L N) in
  is_finite p = true /\ Rabs (B2R p - IZR k * (B2R L / IZR n)) <= 4 * (u53 * (B2R L + 1)).
Proof.
  intros L N k n FL BL FN VN HK HN p. pose proof u53_pos as [U0 U1]. pose proof tiny_u as TU. pose proof tiny_pos as TP.
  unfold i32_max in HN. destruct (f_of_Z_exact k ltac:(lia)) as [Fk Ek].
  assert (Hk1 : 1 <= IZR k <= 2147483648).
  { split; [apply (IZR_le 1); lia|]. apply (IZR_le _ 2147483648). lia. }
  assert (KN : IZR k <= IZR n) by (apply IZR_le; lia).
  pose proof huge_1000 as HH. pose proof one_huge as H1.
  set (q := B2R L / IZR n) in *.
  assert (Q0 : 0 <= q) by (apply Rmult_le_pos; [lra|left; apply Rinv_0_lt_compat; lra]).
  assert (Q1 : IZR k * q <= B2R L).
  { apply Rle_trans with (IZR n * q); [apply Rmult_le_compat_r; assumption|]. unfold q. right. field. lra. }
  assert (Q2 : q <= B2R L) by nra.
  destruct (fdiv_val L N FL) as [Fd Ed]; [rewrite VN; lra|rewrite VN; fold q; rewrite Rabs_pos_eq by exact Q0; lra|].
  rewrite VN in Ed. fold q in Ed. pose proof (rne_err q) as E1. rewrite (Rabs_pos_eq q) in E1 by exact Q0.
  pose proof (rne_pos q Q0) as P1. rewrite <- Ed in E1, P1. set (d := B2R (fdiv L N)) in *. apply abs_between in E1.
  assert (KD0 : 0 <= IZR k * d) by (apply Rmult_le_pos; lra).
  assert (T1 : 2147483648 * tiny <= u53 / 4).
  { apply Rle_trans with (2147483648 * (u53 * u53)); [lra|]. rewrite u53_val. lra. }
  assert (KD : Rabs (IZR k * d - IZR k * q) <= u53 * B2R L + u53 / 4).
  { rewrite <- Rmult_minus_distr_l, Rabs_mult, (Rabs_pos_eq (IZR k)) by lra.
    apply Rle_trans with (IZR k * (u53 * q + tiny)); [apply Rmult_le_compat_l; [lra|apply Rabs_le; lra]|].
    replace (IZR k * (u53 * q + tiny)) with (u53 * (IZR k * q) + IZR k * tiny) by ring.
    assert (u53 * (IZR k * q) <= u53 * B2R L) by (apply Rmult_le_compat_l; lra).
    assert (IZR k * tiny <= 2147483648 * tiny) by (apply Rmult_le_compat_r; lra). lra. }
  apply abs_between in KD.
  assert (UL : 0 <= u53 * B2R L <= B2R L / 1024) by (split; [apply Rmult_le_pos; lra|nra]).
  destruct (fmul_val (f_of_Z k) (fdiv L N) Fk Fd) as [Fp Ep].
  { rewrite Ek. fold d. rewrite Rabs_pos_eq by exact KD0. lra. }
  fold p in Fp, Ep. rewrite Ek in Ep. fold d in Ep. split; [exact Fp|]. rewrite Ep.
  pose proof (rne_err (IZR k * d)) as E2. rewrite (Rabs_pos_eq (IZR k * d)) in E2 by exact KD0. apply abs_between in E2.
  assert (u53 * (IZR k * d) <= u53 * (2 * B2R L + 1)) by (apply Rmult_le_compat_l; lra).
  apply Rabs_le. lra.
Qed.

(** Between two places that are further apart than the ticks there is a tick, as near as that to any place between. *)
Lemma tick_between : forall L v lo hi a G, is_finite L = true -> 0 <= B2R L <= huge -> 0 < B2R v ->
  (f_as_i32 (fround (fdiv L v)) < i32_max)%Z -> 5 * (u53 * (B2R L + 1)) <= G ->
  0 <= lo -> hi <= B2R L -> 3 / 2 * B2R v + 4 * G <= hi - lo -> lo <= a <= hi ->
  exists k, (1 <= k <= f_as_i32 (fround (fdiv L v)))%Z /\
    let p := fmul (f_of_Z k) (fdiv L (fround (fdiv L v))) in
    is_finite p = true /\ lo < B2R p < hi /\ Rabs (B2R p - a) <= 3 / 2 * B2R v + 3 * G.
Proof.
  intros L v lo hi a G FL BL V0 HN HG LO HI W HA. pose proof u53_pos as [U0 U1].
  assert (UL : 0 <= u53 * B2R L) by (apply Rmult_le_pos; lra).
  assert (G0 : 0 < G) by nra.
  destruct (tick_count L v FL (proj1 BL) V0 ltac:(lra) HN) as (N1 & FN & VN & H).
  set (n := f_as_i32 (fround (fdiv L v))) in *. set (h := B2R L / IZR n) in *.
  assert (NR : 1 <= IZR n) by (apply IZR_le; exact N1).
  assert (LP : 0 < B2R L) by lra.
  assert (H0 : 0 < h) by (apply Rmult_lt_0_compat; [exact LP|apply Rinv_0_lt_compat; lra]).
  assert (NH : IZR n * h = B2R L) by (unfold h; field; lra).
  assert (HB : h <= 3 / 2 * B2R v + G) by lra.
  (* the place to look for *)
  set (a' := Rmax (lo + G) (Rmin (hi - G) a)).
  assert (A1 : lo + G <= a' <= hi - G).
  { unfold a'. split; [apply Rmax_l|]. apply Rmax_lub; [lra|apply Rmin_l]. }
  assert (A2 : Rabs (a' - a) <= G).
  { unfold a', Rmax, Rmin. apply Rabs_le. destruct (Rle_dec (hi - G) a); destruct (Rle_dec (lo + G) _); lra. }
  apply abs_between in A2.
  set (k0 := Zceil (a' / h)). pose proof (Zceil_ub (a' / h)) as C1. fold k0 in C1.
  assert (C2 : IZR k0 < a' / h + 1).
  { unfold k0. assert (X : (Zceil (a' / h) - 1 < Zceil (a' / h))%Z) by lia.
    destruct (Rlt_or_le (IZR (Zceil (a' / h))) (a' / h + 1)) as [|K]; [assumption|].
    assert (Y : (Zceil (a' / h) <= Zceil (a' / h) - 1)%Z) by (apply Zceil_glb; rewrite minus_IZR; lra). lia. }
  assert (D1 : a' <= IZR k0 * h).
  { apply Rmult_le_compat_r with (r := h) in C1; [|lra]. unfold Rdiv in C1. rewrite Rmult_assoc, Rinv_l in C1 by lra. lra. }
  assert (D2 : IZR k0 * h < a' + h).
  { apply Rmult_lt_compat_r with (r := h) in C2; [|lra]. replace ((a' / h + 1) * h) with (a' + h) in C2 by (field; lra). exact C2. }
  assert (GO : forall k, lo + G <= IZR k * h <= hi - G -> Rabs (IZR k * h - a') <= h ->
    exists k, (1 <= k <= n)%Z /\ let p := fmul (f_of_Z k) (fdiv L (fround (fdiv L v))) in
    is_finite p = true /\ lo < B2R p < hi /\ Rabs (B2R p - a) <= 3 / 2 * B2R v + 3 * G).
  { intros k K1 K2. assert (KR : (1 <= k <= n)%Z).
    { split.
      - assert (0 < IZR k); [|apply lt_IZR in H1; lia]. apply Rmult_lt_reg_r with h; [exact H0|]. lra.
      - apply le_IZR. apply Rmult_le_reg_r with h; [exact H0|]. lra. }
    exists k. split; [exact KR|]. cbv zeta.
    destruct (place_near L (fround (fdiv L v)) k n FL BL FN VN KR HN) as [FP EP]. fold h in EP.
    split; [exact FP|]. apply abs_between in EP. apply abs_between in K2. split; [lra|]. apply Rabs_le. lra. }
  destruct (Rle_or_lt (IZR k0 * h) (hi - G)) as [K|K].
  - apply (GO k0); [lra|]. apply Rabs_le. lra.
  - apply (GO (k0 - 1)%Z); rewrite minus_IZR; [|apply Rabs_le]; lra.
Qed.

(** ** A place on a line *)

Lemma norm_coords : forall x y, Rabs x <= norm x y /\ Rabs y <= norm x y.
Proof. intros x y. unfold norm. split; rewrite <- sqrt_Rsqr_abs; apply sqrt_le_1_alt; unfold Rsqr; nra. Qed.

Lemma norm_pos : forall x y, 0 <= norm x y.
Proof. intros. apply sqrt_pos. Qed.

Lemma norm_le : forall x y a b, norm (x + a) (y + b) <= norm x y + Rabs a + Rabs b.
Proof.
  intros x y a b. pose proof (norm_coords x y) as [N1 N2]. pose proof (norm_pos x y) as N0.
  pose proof (Rabs_pos a) as A0. pose proof (Rabs_pos b) as B0. set (N := norm x y) in *.
  assert (NN : N * N = x * x + y * y) by (apply sqrt_sqrt; nra).
  unfold norm at 1. rewrite <- (sqrt_square (N + Rabs a + Rabs b)) by lra. apply sqrt_le_1_alt.
  assert (XA : x * a <= N * Rabs a).
  { apply Rle_trans with (Rabs (x * a)); [apply Rle_abs|]. rewrite Rabs_mult. apply Rmult_le_compat_r; lra. }
  assert (YB : y * b <= N * Rabs b).
  { apply Rle_trans with (Rabs (y * b)); [apply Rle_abs|]. rewrite Rabs_mult. apply Rmult_le_compat_r; lra. }
  assert (AA : Rabs a * Rabs a = a * a) by (rewrite <- Rabs_mult; apply Rabs_pos_eq; nra).
  assert (BB : Rabs b * Rabs b = b * b) by (rewrite <- Rabs_mult; apply Rabs_pos_eq; nra).
  assert (0 <= Rabs a * Rabs b) by (apply Rmult_le_pos; assumption).
  replace ((N + Rabs a + Rabs b) * (N + Rabs a + Rabs b)) with
    (N * N + 2 * (N * Rabs a) + 2 * (N * Rabs b) + Rabs a * Rabs a + Rabs b * Rabs b + 2 * (Rabs a * Rabs b)) by ring.
  rewrite NN, AA, BB. lra.
Qed.

Lemma line_at : forall e W s t sg, is_finite (fx e) = true -> is_finite (fy e) = true -> 1 <= W <= wide ->
  Rabs (B2R (fx e)) <= W -> Rabs (B2R (fy e)) <= W -> is_finite s = true -> 0 <= sg <= W -> 0 < B2R (fvlength e) ->
  0 <= B2R s <= B2R (fvlength e) + sg -> 0 <= t <= 1 -> Rabs (B2R s - t * B2R (fvlength e)) <= B2R (fvlength e) ->
  exists lam, 0 <= lam <= 1 /\
    Rabs (lam - t) * norm (B2R (fx e)) (B2R (fy e)) <= Rabs (B2R s - t * B2R (fvlength e)) + 16 * (u53 * W) /\
    forall p d, fc_value (fline e) s = Ok (p, d) -> within (32 * (u53 * W) + 4 * sg) p (vscale (rv e) lam).
Proof.
  intros e W s t sg Fx Fy HW Bx By Fs HS LP Hs HT HD. pose proof u53_pos as [U0 U1].
  destruct (length_facts e W Fx Fy HW Bx By) as (Fl & Pl & C). pose proof (length_near e W Fx Fy HW Bx By) as LN.
  set (l := fvlength e) in *.
  destruct C as [(K & _)|(_ & X3 & Y3)]; [lra|].
  destruct (unit_coord (fx e) l s W sg Fx Fl Fs HW ltac:(lra) X3 HS Hs) as [G1 E1].
  destruct (unit_coord (fy e) l s W sg Fy Fl Fs HW ltac:(lra) Y3 HS Hs) as [G2 E2]. cbv zeta in *.
  set (lam := Rmin 1 (B2R s / B2R l)) in *. exists lam.
  assert (LT : Rabs (lam - t) * B2R l <= Rabs (B2R s - t * B2R l)).
  { assert (ES : B2R s = B2R s / B2R l * B2R l) by (field; lra). rewrite ES at 1.
    rewrite <- Rmult_minus_distr_r, Rabs_mult, (Rabs_pos_eq (B2R l)) by lra. apply Rmult_le_compat_r; [lra|].
    unfold lam, Rmin. destruct (Rle_dec 1 (B2R s / B2R l)); [|lra]. rewrite !Rabs_pos_eq; lra. }
  split.
  { split; [|apply Rmin_l]. unfold lam. apply Rmin_glb; [lra|]. apply Rmult_le_pos; [lra|]. left. apply Rinv_0_lt_compat. lra. }
  apply abs_between in LN. set (D := Rabs (B2R s - t * B2R l)) in *.
  assert (L1 : Rabs (lam - t) <= 1).
  { apply Rmult_le_reg_r with (B2R l); [lra|]. lra. }
  pose proof (Rabs_pos (lam - t)) as L0. assert (UW : 0 <= u53 * W) by (apply Rmult_le_pos; lra). split.
  - apply Rle_trans with (Rabs (lam - t) * (B2R l + 16 * (u53 * W))); [apply Rmult_le_compat_l; lra|].
    rewrite Rmult_plus_distr_l. assert (Rabs (lam - t) * (16 * (u53 * W)) <= 1 * (16 * (u53 * W))) by (apply Rmult_le_compat_r; lra). lra.
  - intros p d V. unfold fline in V. cbn [fc_value] in V. fold l in V.
    destruct (zero_length l Fl (proj1 Pl)) as [[Z Lz]|[Z _]]; [lra|]. rewrite Z in V. apply ok_fst in V. cbn [fst] in V. subst p.
    unfold fvmul, fvunit. fold l. cbn [fx fy]. split; [exact G1|]. split; [exact G2|]. cbn [fx fy vscale rv vx vy].
    rewrite (Rmult_comm (B2R (fx e))), (Rmult_comm (B2R (fy e))). auto.
Qed.

(** ** A line in a run *)

Section Runs.
Variables (g : geometry) (fuel : nat) (search : FloatPath.searcher) (ints : fvec -> fvec -> fvec -> list (list f64)) (Q : R).
Hypothesis bezier_is : g_bezier g = fbezier fuel search ints.
Hypothesis Q_ok : 1 <= Q <= reach.

Let UQ : 0 <= u53 * Q.
Proof. pose proof u53_pos. nra. Qed.

Lemma length_up : forall l j, Forall (sane Q) l -> few Q (length l) -> (j <= length l)%nat ->
  B2R (length_of (firstn j l)) <= B2R (length_of l).
Proof.
  intros l j S N H.
  assert (A : forall m k, (k + m <= length l)%nat -> B2R (length_of (firstn k l)) <= B2R (length_of (firstn (k + m) l))).
  { induction m as [|m IH]; intros k Hk; [rewrite Nat.add_0_r; lra|].
    destruct (nth_error l k) as [c|] eqn:K; [|apply nth_error_None in K; lia].
    destruct (length_next Q Q_ok l k c S N K) as (_ & _ & _ & B & _).
    apply Rle_trans with (1 := proj1 B). specialize (IH (Datatypes.S k) ltac:(lia)).
    replace (k + Datatypes.S m)%nat with (Datatypes.S k + m)%nat by lia. exact IH. }
  specialize (A (length l - j)%nat j ltac:(lia)). replace (j + (length l - j))%nat with (length l) in A by lia.
  rewrite firstn_all in A. exact A.
Qed.

Lemma length_down : forall l k c, Forall (sane Q) l -> few Q (length l) -> nth_error l k = Some c ->
  B2R (fc_length c) + B2R (length_of (firstn k l)) - 65 * (INR (length l) * (u53 * Q)) <= B2R (length_of (firstn (S k) l)).
Proof.
  intros l k c S N K. assert (KL : (k < length l)%nat) by (apply nth_error_Some; congruence).
  assert (LK : length (firstn k l) = k) by (apply firstn_length_le; lia).
  assert (N1 : few Q (length (firstn k l))) by (eapply few_le; [|exact N]; lia).
  destruct (lengths Q Q_ok (firstn k l) (Forall_firstn _ _ _ _ S) N1) as [F B]. rewrite LK in B.
  rewrite (firstn_snoc _ _ _ _ K), length_snoc.
  pose proof (proj1 (Forall_forall _ _) S c (nth_error_In _ _ K)) as [FC BC].
  destruct (length_step Q Q_ok (fc_length c) (length_of (firstn k l)) k FC F BC B ltac:(eapply few_le; [|exact N]; lia)) as (F' & B' & E').
  pose proof (le_INR _ _ KL) as LE. rewrite S_INR in *. pose proof (pos_INR k) as P. apply abs_between in E'.
  assert (M2 : 65 * Q * (INR k + 1) <= 65 * Q * INR (length l)) by (apply Rmult_le_compat_l; lra).
  assert (u53 * (B2R (fc_length c) + B2R (length_of (firstn k l))) <= 65 * (INR (length l) * (u53 * Q))); [|lra].
  replace (65 * (INR (length l) * (u53 * Q))) with (u53 * (65 * Q * INR (length l))) by ring.
  pose proof u53_pos. apply Rmult_le_compat_l; lra.
Qed.

(** The place [P] lies strictly inside piece [k]: that piece is found. *)
Lemma finds_inside : forall l P i k c, finds (g_find g) -> Forall (sane Q) l -> few Q (length l) -> is_finite P = true ->
  nth_error l k = Some c -> B2R (length_of (firstn k l)) < B2R P < B2R (length_of (firstn (S k) l)) ->
  g_find g (map (fun k => length_of (firstn (S k) l)) (seq 0 (length l))) P = Ok i -> i = k.
Proof.
  intros l P i k c FG S N FP K BP G.
  assert (KL : (k < length l)%nat) by (apply nth_error_Some; congruence).
  set (keys := map (fun k => length_of (firstn (Datatypes.S k) l)) (seq 0 (length l))) in *.
  assert (LK : length keys = length l) by (unfold keys; rewrite map_length, seq_length; reflexivity).
  assert (NK : forall j, (j < length l)%nat -> nth_error keys j = Some (length_of (firstn (Datatypes.S j) l))).
  { intros j Hj. unfold keys. apply map_nth_error with (d := j).
    rewrite (nth_error_nth' (seq 0 (length l)) 0%nat) by (rewrite seq_length; exact Hj). rewrite seq_nth by exact Hj. reflexivity. }
  assert (NTH : forall j, (j < length l)%nat -> exists c, nth_error l j = Some c).
  { intros j Hj. destruct (nth_error l j) eqn:E; [eauto|]. apply nth_error_None in E. lia. }
  destruct (FG keys P i) as [I1 I2]; [| |intros j y z Y Z| |].
  - apply Forall_forall. intros y Y. apply In_nth_error in Y. destruct Y as [j Y].
    assert (Hj : (j < length l)%nat) by (rewrite <- LK; apply nth_error_Some; congruence).
    rewrite (NK j Hj) in Y. injection Y as <-. destruct (NTH j Hj) as [c' C]. apply (length_next Q Q_ok l j c' S N C).
  - exact FP.
  - assert (Hj : (Datatypes.S j < length l)%nat) by (rewrite <- LK; apply nth_error_Some; congruence).
    rewrite (NK j ltac:(lia)) in Y. injection Y as <-. rewrite (NK _ Hj) in Z. injection Z as <-.
    destruct (NTH _ Hj) as [c' C]. destruct (length_next Q Q_ok l _ c' S N C) as (_ & _ & _ & A & _). exact (proj1 A).
  - exact G.
  - assert (A1 : (i <= k)%nat).
    { destruct (le_lt_dec i k) as [|LT]; [assumption|]. destruct (I2 k _ (NK k KL)) as [X _]. specialize (X LT). lra. }
    destruct k as [|k']; [lia|].
    destruct (le_lt_dec i k') as [LT|]; [|lia]. destruct (I2 k' _ (NK k' ltac:(lia))) as [_ X]. specialize (X LT). lra.
Qed.

(** The length of a line or an arc. *)
Definition way (p : vec) (s : curve_segment) : option R :=
  match s with
  | LineTo e | CloseTo e => Some (norm (vx e - vx p) (vy e - vy p))
  | Arc r _ a b _ => Some (Rabs (r * (b - a)))
  | _ => None
  end.

(** A place on a line or an arc, by the length from its start. *)
Lemma seg_at : forall seg pos curve next wl, sized g Q seg -> fits Q pos -> seg_info g seg pos = Ok (Some (curve, next)) ->
  way (rv pos) (rs seg) = Some wl -> let len := B2R (fc_length curve) in
  Rabs (len - wl) <= 68 * (u53 * Q) /\
  forall s t sg, 0 < len -> is_finite s = true -> 0 <= sg <= Q -> 0 <= B2R s <= len + sg -> 0 <= t <= 1 -> Rabs (B2R s - t * len) <= len ->
  exists lam z, 0 <= lam <= 1 /\ traced (rv pos) (rs seg) lam = Some z /\ box (2 * Q) z /\
    Rabs (lam - t) * wl <= Rabs (B2R s - t * len) + 68 * (u53 * Q) /\
    forall p d, fc_value curve s = Ok (p, d) -> within (700 * (u53 * Q) + 4 * sg) p (vsub z (rv pos)).
Proof.
  intros seg pos curve next wl SZ Sp SI HW0 len. pose proof u53_pos as [U0 U1].
  pose proof (reach_wide Q Q_ok) as HW. pose proof (reach_huge Q Q_ok) as HH.
  assert (LINE : forall en, fits Q en -> curve = fline (fvsub en pos) -> wl = norm (vx (rv en) - vx (rv pos)) (vy (rv en) - vy (rv pos)) ->
    Rabs (len - wl) <= 68 * (u53 * Q) /\
    forall s t sg, 0 < len -> is_finite s = true -> 0 <= sg <= Q -> 0 <= B2R s <= len + sg -> 0 <= t <= 1 -> Rabs (B2R s - t * len) <= len ->
    exists lam, 0 <= lam <= 1 /\ box (2 * Q) (vadd (rv pos) (vscale (vsub (rv en) (rv pos)) lam)) /\
      Rabs (lam - t) * wl <= Rabs (B2R s - t * len) + 68 * (u53 * Q) /\
      forall p d, fc_value curve s = Ok (p, d) ->
        within (700 * (u53 * Q) + 4 * sg) p (vsub (vadd (rv pos) (vscale (vsub (rv en) (rv pos)) lam)) (rv pos))).
  { intros en FE CU WL. cbn [rv vx vy] in WL.
    destruct (line_parts Q Q_ok en pos FE Sp) as [WD SD].
    destruct (fits_le (5 / 2 * Q) (4 * Q) _ ltac:(lra) SD) as [[F1 F2] [B1 B2]].
    pose proof (length_near (fvsub en pos) (4 * Q) F1 F2 HW B1 B2) as LN.
    set (NF := norm (B2R (fx (fvsub en pos))) (B2R (fy (fvsub en pos)))) in *.
    assert (ND : Rabs (NF - wl) <= 4 * (u53 * Q)).
    { destruct WD as (_ & _ & W1 & W2). cbn [rv vsub vx vy] in W1, W2.
      pose proof (norm_le (B2R (fx en) - B2R (fx pos)) (B2R (fy en) - B2R (fy pos))
        (B2R (fx (fvsub en pos)) - (B2R (fx en) - B2R (fx pos))) (B2R (fy (fvsub en pos)) - (B2R (fy en) - B2R (fy pos)))) as T1.
      replace (B2R (fx en) - B2R (fx pos) + _) with (B2R (fx (fvsub en pos))) in T1 by ring.
      replace (B2R (fy en) - B2R (fy pos) + _) with (B2R (fy (fvsub en pos))) in T1 by ring.
      pose proof (norm_le (B2R (fx (fvsub en pos))) (B2R (fy (fvsub en pos)))
        ((B2R (fx en) - B2R (fx pos)) - B2R (fx (fvsub en pos))) ((B2R (fy en) - B2R (fy pos)) - B2R (fy (fvsub en pos)))) as T.
      replace (B2R (fx (fvsub en pos)) + _) with (B2R (fx en) - B2R (fx pos)) in T by ring.
      replace (B2R (fy (fvsub en pos)) + _) with (B2R (fy en) - B2R (fy pos)) in T by ring.
      rewrite (Rabs_minus_sym (B2R (fx en) - _)), (Rabs_minus_sym (B2R (fy en) - _)) in T.
      fold NF in T, T1. rewrite <- WL in T, T1. apply Rabs_le. lra. }
    assert (LE : len = B2R (fvlength (fvsub en pos))) by (unfold len; rewrite CU; reflexivity).
    rewrite <- LE in LN. split; [apply abs_between in LN, ND; apply Rabs_le; lra|].
    intros s t sg L0 Fs Hsg Hs HT HD. rewrite LE in L0, Hs, HD.
    destruct (line_at (fvsub en pos) (4 * Q) s t sg F1 F2 HW B1 B2 Fs ltac:(lra) L0 Hs HT HD) as (lam & HL1 & HL2 & HL3).
    fold NF in HL2. rewrite <- LE in HL2. exists lam. split; [exact HL1|]. split; [|split].
    - destruct FE as [_ [X1 X2]]. destruct Sp as [_ [P1 P2]].
      pose proof (lerp_bound _ _ lam Q P1 X1 HL1) as Y1. pose proof (lerp_bound _ _ lam Q P2 X2 HL1) as Y2.
      unfold lerp in Y1, Y2. split; cbn [vadd vscale vsub vx vy]; lra.
    - assert (L1 : Rabs (lam - t) <= 1) by (apply Rabs_le; lra). pose proof (Rabs_pos (lam - t)) as L2. apply abs_between in ND.
      apply Rle_trans with (Rabs (lam - t) * (NF + 4 * (u53 * Q))); [apply Rmult_le_compat_l; lra|].
      rewrite Rmult_plus_distr_l.
      assert (Rabs (lam - t) * (4 * (u53 * Q)) <= 1 * (4 * (u53 * Q))) by (apply Rmult_le_compat_r; lra). lra.
    - intros p d V. rewrite CU in V. specialize (HL3 _ _ V).
      apply within_le with (32 * (u53 * (4 * Q)) + 4 * sg + 2 * (u53 * Q)); [lra|].
      destruct WD as (_ & _ & W1 & W2). cbn [rv vx vy vsub] in W1, W2.
      eapply within_move; [exact HL3| |]; cbn [vscale vsub vadd rv vx vy].
      + replace (B2R (fx pos) + (B2R (fx en) - B2R (fx pos)) * lam - B2R (fx pos)) with ((B2R (fx en) - B2R (fx pos)) * lam) by ring.
        apply coord_scale; assumption.
      + replace (B2R (fy pos) + (B2R (fy en) - B2R (fy pos)) * lam - B2R (fy pos)) with ((B2R (fy en) - B2R (fy pos)) * lam) by ring.
        apply coord_scale; assumption. }
  destruct seg as [en|en|en|en c1 c2|rx ry a b ro]; cbn [rs way] in HW0; try discriminate HW0; injection HW0 as <-.
  1-2: cbn [sized] in SZ; cbn [seg_info] in SI; injection SI as EC _; destruct (LINE en SZ (eq_sym EC) eq_refl) as [A B]; split; [exact A|];
    intros s t sg L0 Fs Hsg Hs HT HD; destruct (B s t sg L0 Fs Hsg Hs HT HD) as (lam & B1 & B2 & B3 & B4);
    exists lam; eexists; (split; [exact B1|]); (split; [reflexivity|]); auto.
  clear LINE. destruct (arc_info _ _ _ _ _ _ _ _ _ SI) as (EC & _). destruct (SZ curve EC) as (_ & _ & LN & BX & VA & _). fold len in LN, VA.
  split; [eapply Rle_trans; [exact LN|]; lra|].
  intros s t sg L0 Fs Hsg Hs HT HD. set (lam := Rmin 1 (B2R s / len)).
  assert (HL : 0 <= lam <= 1).
  { split; [|apply Rmin_l]. unfold lam. apply Rmin_glb; [lra|]. apply Rmult_le_pos; [lra|]. left. apply Rinv_0_lt_compat. exact L0. }
  exists lam. eexists. split; [exact HL|]. split; [reflexivity|]. split; [|split].
  - destruct (BX lam HL) as [X1 X2]. destruct Sp as [_ [P1 P2]]. apply abs_between in X1, X2, P1, P2.
    split; cbn [vadd vx vy]; apply Rabs_le; lra.
  - assert (LT : Rabs (lam - t) * len <= Rabs (B2R s - t * len)).
    { assert (ES : B2R s = B2R s / len * len) by (field; lra). rewrite ES at 1.
      rewrite <- Rmult_minus_distr_r, Rabs_mult, (Rabs_pos_eq len) by lra. apply Rmult_le_compat_r; [lra|].
      unfold lam, Rmin. destruct (Rle_dec 1 (B2R s / len)); [|lra]. rewrite !Rabs_pos_eq; lra. }
    assert (L1 : Rabs (lam - t) <= 1) by (apply Rabs_le; lra). pose proof (Rabs_pos (lam - t)) as L2. apply abs_between in LN.
    apply Rle_trans with (Rabs (lam - t) * (len + 4 * (u53 * Q))); [apply Rmult_le_compat_l; lra|].
    rewrite Rmult_plus_distr_l.
    assert (Rabs (lam - t) * (4 * (u53 * Q)) <= 1 * (4 * (u53 * Q))) by (apply Rmult_le_compat_r; lra). lra.
  - intros p d V. destruct (VA s sg p d Fs Hsg Hs V) as (t' & _ & T & W). rewrite (T L0) in W. fold lam in W.
    rewrite vadd_back. eapply within_le; [|exact W]. lra.
Qed.

(** The places of the ticks of a run come near every point of its lines and arcs. *)
Lemma run_line : forall q part l q' y jl v kp pos seg curve wl t, finds (g_find g) -> run_of g no_skip q None part l q' y ->
  pens_fit g Q q part -> Forall (sized g Q) part -> Forall (good Q) l -> few Q (length part) ->
  join_from [] (map snd l) = Ok jl -> nth_error l kp = Some (pos, seg, curve) -> way (rv pos) (rs seg) = Some wl ->
  0 <= t <= 1 -> 0 < B2R v -> let L := length_of (map snd l) in
  (f_as_i32 (fround (fdiv L v)) < i32_max)%Z ->
  3 / 2 * B2R v + 1600 * (INR (length part) * (u53 * Q)) <= wl ->
  exists k lam z, (1 <= k <= f_as_i32 (fround (fdiv L v)))%Z /\ 0 <= lam <= 1 /\
    Rabs (lam - t) * wl <= 3 / 2 * B2R v + 1300 * (INR (length part) * (u53 * Q)) /\
    traced (rv pos) (rs seg) lam = Some z /\ box (2 * Q) z /\
    forall p d, fc_value (fconcat g jl) (fmul (f_of_Z k) (fdiv L (fround (fdiv L v)))) = Ok (p, d) ->
    within ((3120 * INR (length part) + 730) * (u53 * Q) + 4 / 1000000 * INR (closes part)) (fvadd p q) z.
Proof.
  intros q part l q' y jl v kp pos seg curve wl t FG R PF S G N J KP SE HT V0 L HN HL. pose proof u53_pos as [U0 U1].
  destruct (run_sane g fuel search ints Q bezier_is Q_ok _ _ _ _ _ _ R PF S G) as [SA LE].
  assert (NL : few Q (length (map snd l))) by (rewrite map_length; eapply few_le; [exact LE|exact N]).
  assert (KL : (kp < length l)%nat) by (apply nth_error_Some; congruence).
  assert (NE' : map snd l <> []) by (destruct l; [cbn in KL; lia|discriminate]).
  assert (KC : nth_error (map snd l) kp = Some curve) by (apply map_nth_error with (d := (pos, seg, curve)); exact KP).
  destruct (run_nth g _ _ _ _ _ _ R kp pos seg curve KP) as (s1 & s2 & z0 & next & a & b & c & e' & EP & R1 & SI & V00 & VL).
  pose proof (pens_first _ _ _ _ PF) as Fq. rewrite EP in PF. apply pens_app in PF. destruct PF as [PF1 PF2].
  pose proof (pens_first _ _ _ _ PF2) as FPOS.
  rewrite EP in S. apply Forall_app in S. destruct S as [S1 S2]. inversion S2 as [|? ? S3 S4]; subst part.
  pose proof (run_pen g _ _ _ _ _ _ R1) as EPOS. rewrite <- EPOS in FPOS.
  assert (LP : (length s1 + 1 <= length (s1 ++ seg :: s2))%nat) by (rewrite app_length; cbn [length]; lia).
  assert (N1 : few Q (length s1)) by (eapply few_le; [|exact N]; lia).
  set (n := length (s1 ++ seg :: s2)) in *.
  pose proof (few_u Q Q_ok _ N) as UN.
  pose proof (le_INR _ _ LE) as LEN. pose proof (le_INR _ _ LP) as LPN. rewrite plus_INR in LPN. change (INR 1) with 1 in LPN.
  pose proof (pos_INR (length s1)) as PS.
  assert (M1 : INR (length l) * (u53 * Q) <= INR n * (u53 * Q)) by (apply Rmult_le_compat_r; assumption).
  assert (M2 : (INR (length s1) + 1) * (u53 * Q) <= INR n * (u53 * Q)) by (apply Rmult_le_compat_r; assumption).
  assert (M0 : 0 <= INR (length s1) * (u53 * Q)) by (apply Rmult_le_pos; [apply pos_INR|assumption]).
  assert (M3 : 0 <= INR (length l) * (u53 * Q)) by (apply Rmult_le_pos; [apply pos_INR|assumption]).
  set (NU := INR n * (u53 * Q)) in *.
  pose proof (reach_wide Q Q_ok) as HW. pose proof (reach_huge Q Q_ok) as HH.
  destruct (seg_at seg pos curve next wl S3 FPOS SI SE) as [LN SEG]. apply abs_between in LN.
  (* the stretch of the run that belongs to it *)
  destruct (length_next Q Q_ok (map snd l) kp curve SA NL KC) as (FLo & FHi & BLo & BHi & HiUp).
  pose proof (length_down (map snd l) kp curve SA NL KC) as HiDn.
  pose proof (length_up (map snd l) (Datatypes.S kp) SA NL ltac:(rewrite map_length; exact KL)) as HiL. fold L in HiL.
  destruct (lengths Q Q_ok (map snd l) SA NL) as [FL BL]. fold L in FL, BL.
  pose proof (count_huge Q Q_ok _ NL) as BH.
  pose proof (proj1 (Forall_forall _ _) SA curve (nth_error_In _ _ KC)) as [FC BC].
  rewrite map_length in *. change (@length (fvec * segment * fcurve) l) with (@length piece l) in *. set (LO := B2R (length_of (firstn kp (map snd l)))) in *.
  set (HI := B2R (length_of (firstn (Datatypes.S kp) (map snd l)))) in *.
  set (len := B2R (fc_length curve)) in *.
  assert (UL : 5 * (u53 * (B2R L + 1)) <= 330 * NU).
  { assert (u53 * B2R L <= 65 * NU).
    { apply Rle_trans with (u53 * (65 * Q * INR (length l))); [apply Rmult_le_compat_l; lra|].
      replace (u53 * (65 * Q * INR (length l))) with (65 * (INR (length l) * (u53 * Q))) by ring. lra. }
    assert (u53 <= u53 * Q) by (rewrite <- (Rmult_1_r u53) at 1; apply Rmult_le_compat_l; lra).
    assert (u53 * Q <= NU) by lra. lra. }
  set (aa := Rmin (LO + t * len) HI).
  assert (TL : 0 <= t * len <= len) by (split; [apply Rmult_le_pos; lra|rewrite <- (Rmult_1_l len) at 2; apply Rmult_le_compat_r; lra]).
  assert (A1 : LO <= aa <= HI /\ Rabs (aa - (LO + t * len)) <= 65 * NU).
  { unfold aa, Rmin. destruct (Rle_dec (LO + t * len) HI); (split; [lra|apply Rabs_le; lra]). }
  destruct A1 as [A1 A2].
  destruct (tick_between L v LO HI aa (330 * NU) FL ltac:(lra) V0 HN UL ltac:(lra) HiL ltac:(lra) A1)
    as (k & HK & FP & BP & NP). cbv zeta in FP, BP, NP.
  set (P := fmul (f_of_Z k) (fdiv L (fround (fdiv L v)))) in *.
  set (sv := fsub P (length_of (firstn kp (map snd l)))).
  assert (SV : is_finite sv = true /\ 0 <= B2R sv <= len + 600 * NU /\ Rabs (B2R sv - (B2R P - LO)) <= 70 * NU).
  { destruct (fsub_rel P (length_of (firstn kp (map snd l))) FP FLo) as [FS ES].
    { fold LO. rewrite Rabs_pos_eq by lra. pose proof huge_1000. lra. }
    fold LO in ES. fold sv in FS, ES. split; [exact FS|]. rewrite (Rabs_pos_eq (B2R P - LO)) in ES by lra.
    assert (PL : B2R P - LO <= 70 * Q) by lra.
    assert (u53 * (B2R P - LO) <= 70 * NU).
    { apply Rle_trans with (u53 * (70 * Q)); [apply Rmult_le_compat_l; lra|]. lra. }
    assert (u53 * (B2R P - LO) <= B2R P - LO).
    { rewrite <- (Rmult_1_l (B2R P - LO)) at 2. apply Rmult_le_compat_r; lra. }
    split; [|lra]. apply abs_between in ES. lra. }
  destruct SV as (FS & BS & ES). apply abs_between in A2, NP, ES.
  assert (DS : Rabs (B2R sv - t * len) <= 3 / 2 * B2R v + 1125 * NU) by (apply Rabs_le; lra).
  destruct (SEG sv t (600 * NU) ltac:(lra) FS ltac:(lra) BS HT ltac:(lra)) as (lam & z & HL1 & TZ & BZ & HL2 & HL3).
  exists k, lam, z. split; [exact HK|]. split; [exact HL1|]. split; [lra|]. split; [exact TZ|]. split; [exact BZ|].
  intros p d V. apply (C81_joined g (map snd l) jl NE' J) in V. destruct V as (i & curve' & e & q0 & GI & V). cbv zeta in V.
  destruct V as (KC' & EE & VC & ->).
  assert (NL' : few Q (length (map snd l))) by (rewrite map_length; exact NL).
  pose proof (finds_inside (map snd l) P i kp curve FG SA NL' FP KC BP GI) as EI.
  rewrite map_length in *. change (@length (fvec * segment * fcurve) l) with (@length piece l) in *. rewrite EI in *. replace (Nat.min kp (length l - 1)) with kp in * by (clear - KL; lia).
  rewrite KC in KC'. injection KC' as <-. fold sv in VC. specialize (HL3 _ _ VC). rename HL3 into WZ.
  destruct (run_chain g fuel search ints Q bezier_is Q_ok _ _ _ _ _ _ R1 PF1 S1 (Forall_firstn _ _ _ _ G) N1) as (e2 & E2 & WE).
  assert (EQE : e2 = e).
  { rewrite <- firstn_map in E2. exact (ends_unique _ _ EE _ E2). }
  subst e2.
  pose proof (drift_bound Q Q_ok s1 N1) as DB.
  destruct BZ as [BZ1 BZ2]. apply abs_between in BZ1, BZ2. destruct FPOS as [_ [BP1 BP2]]. apply abs_between in BP1, BP2.
  destruct Fq as [[Fq1 Fq2] [BQ1 BQ2]]. assert (BQ : box Q (rv q)) by (split; assumption). apply abs_between in BQ1, BQ2.
  assert (Bz : box (3 * Q) (vsub z (rv pos))) by (split; cbn [vsub vx vy]; apply Rabs_le; lra).
  assert (Bp : box (2 * Q) (vsub (rv pos) (rv q))) by (split; cbn [vsub vx vy]; apply Rabs_le; lra).
  assert (CL : INR (closes s1) <= INR (closes (s1 ++ seg :: s2))) by (apply le_INR; rewrite closes_app; apply Nat.le_add_r).
  set (E1 := 700 * (u53 * Q) + 4 * (600 * NU)) in *.
  assert (BE1 : 0 <= E1 <= Q) by (unfold E1; lra).
  assert (DV : drift Q s1 <= 710 * NU - 710 * (u53 * Q) + 4 / 1000000 * INR (closes (s1 ++ seg :: s2))) by (unfold drift; lra).
  clear HL HL2 SEG DS BS LN UL HK FP BP NP BLo BHi HiUp HiDn HiL BL BH BC TL A1 A2 ES.
  pose proof (within_add E1 (drift Q s1) q0 _ e _ (3 * Q) (2 * Q) WZ WE Bz Bp ltac:(lra) ltac:(lra) ltac:(lra) ltac:(lra) ltac:(lra)) as W1.
  replace (vadd (vsub z (rv pos)) (vsub (rv pos) (rv q))) with (vsub z (rv q)) in W1
    by (unfold vsub, vadd; cbn [vx vy]; f_equal; ring).
  assert (X1 : 0 <= u53 * (3 * Q + E1 + (2 * Q + drift Q s1)) <= 10 * (u53 * Q)).
  { split; [apply Rmult_le_pos; lra|]. replace (10 * (u53 * Q)) with (u53 * (10 * Q)) by ring. apply Rmult_le_compat_l; lra. }
  set (E2' := E1 + drift Q s1 + u53 * (3 * Q + E1 + (2 * Q + drift Q s1))) in *.
  assert (B3 : box (3 * Q) (vsub z (rv q))) by (split; cbn [vsub vx vy]; apply Rabs_le; lra).
  assert (W0 : within 0 q (rv q)) by (repeat split; auto; cbn [rv vx vy]; apply Rabs_le; lra).
  assert (BE2 : 0 <= E2' <= 3 * Q) by (unfold E2'; lra).
  assert (Q3 : 0 <= 3 * Q) by lra. assert (Q1 : 0 <= Q) by lra.
  assert (HE : 3 * Q + E2' + (Q + 0) <= huge) by lra.
  pose proof (within_add E2' 0 (fvadd q0 e) _ q _ (3 * Q) Q W1 W0 B3 BQ (proj1 BE2) (Rle_refl 0) Q3 Q1 HE) as W2.
  rewrite sub_add in W2.
  eapply within_le; [|exact W2].
  assert (X2 : u53 * (3 * Q + E2' + (Q + 0)) <= 10 * (u53 * Q)).
  { replace (10 * (u53 * Q)) with (u53 * (10 * Q)) by ring. apply Rmult_le_compat_l; lra. }
  replace ((3120 * INR n + 730) * (u53 * Q)) with (3120 * NU + 730 * (u53 * Q)) by (unfold NU; ring).
  assert (TE : E2' <= 3120 * NU + 700 * (u53 * Q) + 4 / 1000000 * INR (closes (s1 ++ seg :: s2))).
  { unfold E2'. apply Rle_trans with (E1 + drift Q s1 + 10 * (u53 * Q)); [lra|]. unfold E1. lra. }
  clearbody E2'. lra.
Qed.

(** ** Every line is in a run *)

Lemma run_has : forall q x part l q' y, run_of g no_skip q x part l q' y -> forall s1 seg s2,
  part = s1 ++ seg :: s2 -> (forall p, seg = SCloseTo p -> flt (fvlength (fvsub (fpen g q s1) p)) short = false) ->
  exists k curve, nth_error l k = Some (fpen g q s1, seg, curve).
Proof.
  intros q x part l q' y H. induction H; intros s1 sg s2 E NS.
  - destruct s1; discriminate E.
  - contradiction.
  - destruct s1 as [|a s1]; cbn [app] in E; injection E as E0 E1.
    + subst sg. cbn [fpen fold_left] in NS. rewrite (NS p eq_refl) in H. discriminate H.
    + subst a. exact (IHrun_of s1 sg s2 E1 NS).
  - destruct s1 as [|a s1]; cbn [app] in E; injection E as E0 E1.
    + subst sg. exists 0%nat, curve. reflexivity.
    + subst a. pose proof (seg_info_end _ _ _ _ _ H0) as EN. rewrite EN in IHrun_of.
      destruct (IHrun_of s1 sg s2 E1 NS) as (k & cv & K). exists (S k), cv. exact K.
Qed.

Lemma app_middle : forall (A : Type) (a b s1 s2 : list A) x, a ++ b = s1 ++ x :: s2 ->
  (exists r, a = s1 ++ x :: r) \/ exists r, s1 = a ++ r /\ b = r ++ x :: s2.
Proof.
  induction a as [|y a IH]; intros b s1 s2 x E.
  - right. exists s1. auto.
  - destruct s1 as [|z s1]; cbn [app] in E; injection E as E0 E1.
    + left. exists a. subst y. reflexivity.
    + subst z. destruct (IH _ _ _ _ E1) as [(r & ->)|(r & -> & ->)]; [left|right]; exists r; auto.
Qed.

Lemma parts_has : forall pos segs runs q dir, parts g (fun _ => no_skip) pos segs runs q dir ->
  forall s1 seg s2, segs = s1 ++ seg :: s2 -> (forall p, seg <> SGoTo p) ->
  (forall p, seg = SCloseTo p -> flt (fvlength (fvsub (fpen g pos s1) p)) short = false) ->
  exists start l k curve, In (start, l) runs /\ nth_error l k = Some (fpen g pos s1, seg, curve).
Proof.
  intros pos segs runs q dir H. induction H as [pos|pos segs runs q dir part l q' dir' p H IH R B NS0|pos segs runs q dir part l q' d H IH R B]; intros s1 seg s2 E NG NS.
  - destruct s1; discriminate E.
  - destruct (parts_run g _ _ _ _ _ H) as [EQ _].
    destruct (app_middle _ _ _ _ _ _ E) as [(r & E1)|(r & -> & E1)].
    + destruct (IH s1 seg r E1 NG NS) as (st & l' & k & cv & I & K). exists st, l', k, cv. split; [apply in_or_app; left; exact I|exact K].
    + rewrite pen_app, <- EQ in NS. destruct (app_middle _ _ _ _ _ _ E1) as [(r1 & E2)|(r1 & -> & E2)].
      * destruct (run_has _ _ _ _ _ _ R r seg r1 E2 NS) as (k & cv & K). exists q, l, k, cv.
        rewrite pen_app, <- EQ. split; [|exact K]. apply in_or_app. right. destruct l; [destruct k; discriminate K|left; reflexivity].
      * destruct r1 as [|? [|]]; cbn [app] in E2; [injection E2 as <- _; exfalso; exact (NG _ eq_refl)|injection E2; discriminate|injection E2; discriminate].
  - destruct (parts_run g _ _ _ _ _ H) as [EQ _].
    destruct (app_middle _ _ _ _ _ _ E) as [(r & E1)|(r & -> & E1)].
    + destruct (IH s1 seg r E1 NG NS) as (st & l' & k & cv & I & K). exists st, l', k, cv. split; [apply in_or_app; left; exact I|exact K].
    + rewrite pen_app, <- EQ in NS. destruct (run_has _ _ _ _ _ _ R r seg s2 E1 NS) as (k & cv & K). exists q, l, k, cv.
      rewrite pen_app, <- EQ. split; [|exact K]. apply in_or_app. right. destruct l; [destruct k; discriminate K|left; reflexivity].
Qed.

Lemma plan_has : forall pos segs runs, plan g (fun _ => no_skip) pos segs runs ->
  forall s1 seg s2, segs = s1 ++ seg :: s2 -> (forall p, seg <> SGoTo p) ->
  (forall p, seg = SCloseTo p -> flt (fvlength (fvsub (fpen g pos s1) p)) short = false) ->
  exists start l k curve, In (start, l) runs /\ nth_error l k = Some (fpen g pos s1, seg, curve).
Proof.
  intros pos segs runs (segs0 & runs0 & q & dir & part & l & q' & dir' & -> & -> & P & R & B) s1 seg s2 E NG NS.
  destruct (parts_run g _ _ _ _ _ P) as [EQ _].
  destruct (app_middle _ _ _ _ _ _ E) as [(r & E1)|(r & -> & E1)].
  - destruct (parts_has _ _ _ _ _ P s1 seg r E1 NG NS) as (st & l' & k & cv & I & K).
    exists st, l', k, cv. split; [apply in_or_app; left; exact I|exact K].
  - rewrite pen_app, <- EQ in NS. destruct (run_has _ _ _ _ _ _ R r seg s2 E1 NS) as (k & cv & K). exists q, l, k, cv.
    rewrite pen_app, <- EQ. split; [|exact K]. apply in_or_app. right. destruct l; [destruct k; discriminate K|left; reflexivity].
Qed.

End Runs.
