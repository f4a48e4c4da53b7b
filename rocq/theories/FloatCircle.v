(** Model of src/curves/circle_segment.rs in binary64, and its rounding errors. *)
From Coq Require Import ZArith Reals Lia Lra Bool Psatz.
From Flocq Require Import Core BinarySingleNaN.
From Verif Require Import Base Floats FloatProofs FloatScale FloatErr ApproxCurve DrawCurves FloatPath Coords Curves PathBuild FloatPathProofs
  FloatCurve FloatLex FloatAngles FloatRun.
Open Scope R_scope.

(** circle_segment.rs:14-34 CircleSegment::new, with 74-76 length and 78-93 value; sin_cos is the
    pair of [f_sin] and [f_cos]. *)
Definition fcircle (tg : trig) (radius start_angle end_angle : f64) : res fcurve :=
  let center := mk_fvec (fmul (fneg (f_cos tg start_angle)) radius) (fmul (fneg (f_sin tg start_angle)) radius) in
  let angle_scale := fdiv (if fle start_angle end_angle then f_of_Z 1 else f_of_Z (-1)) radius in
  Ok (mk_fcurve (fmul radius (fabs (fsub end_angle start_angle)))
    (fun pos =>
      let a := fadd (fmul pos angle_scale) start_angle in
      let s := f_sin tg a in
      let c := f_cos tg a in
      Ok (fvadd (mk_fvec (fmul c radius) (fmul s radius)) center,
          if fle start_angle end_angle then mk_fvec (fneg s) c else mk_fvec s (fneg c)))).

Lemma Rabs_le2 : forall x y, Rabs x <= y -> - y <= x <= y.
Proof. intros x y H. unfold Rabs in H. destruct (Rcase_abs x); lra. Qed.

Section Circle.
Variables (tg : trig) (q Q : R) (r a b : f64).
Hypothesis AC : accurate tg q.
Hypothesis RQ : 1 <= Q <= reach.
Hypothesis FR : is_finite r = true.
Hypothesis FA : is_finite a = true.
Hypothesis FB : is_finite b = true.
Hypothesis R0 : 0 < B2R r.
Hypothesis SZ : B2R r * (Rabs (B2R a) + Rabs (B2R b) + q + 2) <= Q.
Hypothesis SR : Q <= 2 ^ 36 * B2R r.

Local Notation U := (u53 * Q).
Let A := Q / B2R r.

Lemma c_U : 0 <= U.
Proof. apply Rmult_le_pos; [pose proof u53_pos; lra|lra]. Qed.
Lemma c_q : 0 <= q.
Proof. eapply accurate_pos; eassumption. Qed.
Lemma c_rA : B2R r * A = Q.
Proof. unfold A. field. lra. Qed.
Lemma c_A : Rabs (B2R a) + Rabs (B2R b) + q + 2 <= A <= 2 ^ 36.
Proof.
  unfold A. split.
  - apply Rmult_le_reg_l with (B2R r); [exact R0|]. fold A. rewrite c_rA. exact SZ.
  - apply Rmult_le_reg_l with (B2R r); [exact R0|]. fold A. rewrite c_rA, Rmult_comm. exact SR.
Qed.
Lemma c_diff : Rabs (B2R b - B2R a) <= Rabs (B2R a) + Rabs (B2R b).
Proof. eapply Rle_trans; [apply Rabs_triang|]. rewrite Rabs_Ropp. lra. Qed.
Lemma c_reach : reach * 100 <= bpow radix2 1000.
Proof.
  apply Rle_trans with (reach * bpow radix2 7); [apply Rmult_le_compat_l; [apply bpow_ge_0|cbn; lra]|].
  unfold reach. rewrite <- bpow_plus. apply bpow_le. lia.
Qed.
Lemma c_tiny : tiny <= / 1000 * U.
Proof.
  pose proof tiny_u as T. pose proof u53_pos as [U0 U1]. apply Rle_trans with (u53 * u53); [exact T|].
  replace (/ 1000 * U) with (u53 * (/ 1000 * Q)) by ring. apply Rmult_le_compat_l; [lra|]. rewrite u53_val. lra.
Qed.

(** The length. *)
Lemma c_length : let len := fmul r (fabs (fsub b a)) in is_finite len = true /\ 0 <= B2R len <= 2 * Q /\
  Rabs (B2R len - B2R r * Rabs (B2R b - B2R a)) <= 5 / 2 * U.
Proof.
  intros len. pose proof c_diff as D. destruct c_A as [A1 A2]. pose proof c_q as Q0. pose proof c_U as U0. pose proof u53_pos as [V0 V1].
  pose proof c_tiny as T. pose proof tiny_pos as T0. pose proof c_reach as RE. pose proof c_rA as RA.
  set (d := Rabs (B2R b - B2R a)) in *.
  assert (BA : d <= A) by lra. assert (D0 : 0 <= d) by apply Rabs_pos.
  assert (P36 : 2 ^ 36 <= bpow radix2 1000).
  { apply Rle_trans with (bpow radix2 36); [right; rewrite bpow_powerRZ; reflexivity|apply bpow_le; lia]. }
  destruct (fsub_rel b a FB FA ltac:(fold d; lra)) as [F1 E1]. fold d in E1.
  destruct (fabs_value _ F1) as [F2 E2].
  assert (DD : Rabs (B2R (fabs (fsub b a)) - d) <= u53 * d).
  { rewrite E2. unfold d. eapply Rle_trans; [apply Rabs_triang_inv2|]. exact E1. }
  set (dd := fabs (fsub b a)) in *. set (rr := B2R r) in *.
  assert (RD : rr * d <= Q) by (rewrite <- RA; apply Rmult_le_compat_l; lra).
  assert (RD0 : 0 <= rr * d) by (apply Rmult_le_pos; lra).
  assert (UD : u53 * (rr * d) <= U) by (apply Rmult_le_compat_l; lra).
  assert (E3 : Rabs (rr * B2R dd - rr * d) <= U).
  { rewrite <- Rmult_minus_distr_l, Rabs_mult, (Rabs_pos_eq rr) by (lra).
    apply Rle_trans with (rr * (u53 * d)); [apply Rmult_le_compat_l; [lra|exact DD]|]. lra. }
  assert (UQ : U <= Q / 1000).
  { replace (Q / 1000) with (/ 1000 * Q) by field. apply Rmult_le_compat_r; [lra|]. rewrite u53_val. lra. }
  assert (P0 : 0 <= rr * B2R dd) by (apply Rmult_le_pos; [lra|]; rewrite E2; apply Rabs_pos).
  apply Rabs_le2 in E3.
  destruct (fmul_rel r dd FR F2) as [F4 E4].
  { fold rr. rewrite Rabs_pos_eq by exact P0. lra. }
  fold len in F4, E4. fold rr in E4. rewrite (Rabs_pos_eq (rr * B2R dd)) in E4 by exact P0.
  assert (UM : u53 * (rr * B2R dd) <= 1001 / 1000 * U).
  { replace (1001 / 1000 * U) with (u53 * (1001 / 1000 * Q)) by ring. apply Rmult_le_compat_l; lra. }
  assert (L0 : 0 <= B2R len).
  { pose proof (Bmult_correct 53 1024 prec_ok emax_ok mode_NE r dd) as C. cbn [round_mode] in C.
    change (B2R (fmul r dd)) with (B2R (Bmult mode_NE r dd)) in *.
    rewrite rne_range in C by (fold rr; rewrite Rabs_pos_eq by exact P0; lra). destruct C as (E & _). unfold len, fmul. rewrite E.
    apply round_ge_generic; [typeclasses eauto|apply valid_rnd_N|apply generic_format_0|exact P0]. }
  apply Rabs_le2 in E4. split; [exact F4|]. split; [lra|]. apply Rabs_le. lra.
Qed.

(** The angle scale. *)
Let sigma : R := if fle a b then 1 else -1.
Lemma c_sigma : B2R b - B2R a = sigma * Rabs (B2R b - B2R a).
Proof.
  unfold sigma. destruct (fle a b) eqn:E.
  - apply fle_spec in E; [|exact FA|exact FB]. rewrite Rabs_pos_eq; lra.
  - destruct (Rle_dec (B2R a) (B2R b)) as [H|H]; [apply fle_spec in H; [congruence|exact FA|exact FB]|]. rewrite Rabs_left; lra.
Qed.
Lemma c_sigma_abs : Rabs sigma = 1.
Proof. unfold sigma. destruct (fle a b); [apply Rabs_R1|rewrite Rabs_left; lra]. Qed.

Lemma c_scale : let sc := fdiv (if fle a b then f_of_Z 1 else f_of_Z (-1)) r in
  is_finite sc = true /\ Rabs (B2R sc - sigma / B2R r) <= u53 * / B2R r + tiny.
Proof.
  intros sc. assert (one : let o := if fle a b then f_of_Z 1 else f_of_Z (-1) in is_finite o = true /\ B2R o = sigma).
  { unfold sigma. destruct (fle a b); cbv zeta; [apply (f_of_Z_exact 1)|apply (f_of_Z_exact (-1))]; lia. }
  destruct one as [F E]. set (o := if fle a b then f_of_Z 1 else f_of_Z (-1)) in *.
  assert (AB : Rabs (B2R o / B2R r) = / B2R r).
  { rewrite E. unfold Rdiv. rewrite Rabs_mult, c_sigma_abs, Rmult_1_l. apply Rabs_pos_eq, Rlt_le, Rinv_0_lt_compat, R0. }
  destruct (fdiv_rel o r F FR ltac:(lra)) as [F1 E1].
  { rewrite AB. apply Rle_trans with A; [unfold A; rewrite <- (Rmult_1_l (/ _)); apply Rmult_le_compat_r; [apply Rlt_le, Rinv_0_lt_compat, R0|lra]|].
    eapply Rle_trans; [apply c_A|]. apply Rle_trans with (bpow radix2 36); [right; rewrite bpow_powerRZ; reflexivity|apply bpow_le; lia]. }
  rewrite AB in E1. rewrite E in E1. split; [exact F1|exact E1].
Qed.

(** A product with a factor that is at most one. *)
Lemma c_prod : forall x z, is_finite x = true -> Rabs z <= 1 -> Rabs (B2R x - z) <= q / 2 ^ 53 ->
  is_finite (fmul x r) = true /\ Rabs (B2R (fmul x r) - B2R r * z) <= B2R r * (q + 21 / 20) * u53 + / 500 * U.
Proof.
  intros x z F Z E. set (rr := B2R r) in *. pose proof u53_pos as [V0 V1]. pose proof c_q as Q0. pose proof c_U as U0. pose proof c_tiny as T. pose proof c_reach as RE.
  unfold Rdiv in E. rewrite <- u53_is' in E.
  assert (RQ1 : rr * q <= Q /\ rr * 2 <= Q).
  { assert (0 <= Rabs (B2R a) + Rabs (B2R b)) by (pose proof (Rabs_pos (B2R a)); pose proof (Rabs_pos (B2R b)); lra).
    assert (0 <= rr * (Rabs (B2R a) + Rabs (B2R b))) by (apply Rmult_le_pos; lra).
    assert (0 <= rr * q) by (apply Rmult_le_pos; lra).
    fold rr in SZ. replace (rr * (Rabs (B2R a) + Rabs (B2R b) + q + 2)) with (rr * (Rabs (B2R a) + Rabs (B2R b)) + rr * q + rr * 2) in SZ by ring. lra. }
  destruct RQ1 as [RQ1 RQ2].
  assert (E1 : Rabs (B2R x * rr - rr * z) <= rr * q * u53).
  { replace (B2R x * rr - rr * z) with (rr * (B2R x - z)) by ring. rewrite Rabs_mult, (Rabs_pos_eq rr) by (lra).
    rewrite Rmult_assoc. apply Rmult_le_compat_l; [lra|exact E]. }
  assert (Z1 : Rabs (rr * z) <= rr).
  { rewrite Rabs_mult, (Rabs_pos_eq rr) by (lra). rewrite <- (Rmult_1_r rr) at 2. apply Rmult_le_compat_l; [lra|exact Z]. }
  pose proof (abs_near _ _ _ E1) as AX.
  assert (UU : rr * q * u53 <= U) by (rewrite Rmult_comm; apply Rmult_le_compat_l; lra).
  assert (UQ : U <= Q / 1000).
  { replace (Q / 1000) with (/ 1000 * Q) by field. apply Rmult_le_compat_r; [lra|]. rewrite u53_val. lra. }
  destruct (fmul_rel x r F FR) as [F2 E2]; [fold rr; lra|]. fold rr in E2. split; [exact F2|].
  assert (E3 : u53 * Rabs (B2R x * rr) <= u53 * rr + / 1000 * U).
  { apply Rle_trans with (u53 * (rr + U)); [apply Rmult_le_compat_l; lra|].
    assert (u53 * U <= / 1000 * U) by (apply Rmult_le_compat_r; [exact U0|rewrite u53_val; lra]). lra. }
  apply Rabs_le2 in E1, E2. assert (0 <= rr * u53) by (apply Rmult_le_pos; lra).
  replace (rr * (q + 21 / 20) * u53) with (rr * q * u53 + 21 / 20 * (rr * u53)) by ring.
  apply Rabs_le. lra.
Qed.

(** A point at a length that is near that of the angle [y]. *)
Lemma c_point : forall s sg y p d curve, fcircle tg r a b = Ok curve -> is_finite s = true -> 0 <= sg <= Q -> 0 <= B2R s <= B2R (fc_length curve) + sg ->
  Rabs (B2R s - B2R r * y) <= 5 / 2 * U + sg -> fc_value curve s = Ok (p, d) ->
  let ang := B2R a + sigma * y in
  within (16 * U + 4 * sg) p (mk_vec (B2R r * (cos ang - cos (B2R a))) (B2R r * (sin ang - sin (B2R a)))) /\
  within ((q + 7 * A) * u53 + 101 / 100 * (sg / B2R r)) d (mk_vec (- (sigma * sin ang)) (sigma * cos ang)).
Proof.
  intros s sg y p d curve G FS SG SL CL V ang. unfold fcircle in G. injection G as <-. cbn [fc_length fc_value] in *.
  set (sc := fdiv _ r) in *. destruct c_length as (FL & L1 & L2). set (len := fmul r (fabs (fsub b a))) in *.
  destruct c_scale as [FSC ESC]. fold sc in FSC, ESC.
  pose proof c_diff as D. destruct c_A as [A1 A2]. pose proof c_q as Q0. pose proof c_U as U0. pose proof u53_pos as [V0 V1].
  pose proof c_tiny as T. pose proof tiny_pos as T0. pose proof c_reach as RE. pose proof c_rA as RA.
  set (ra := B2R a) in *. set (rb := B2R b) in *. set (rr := B2R r) in *. set (rd := Rabs (rb - ra)) in *. set (x := B2R s) in *.
  assert (UQ : U <= Q / 1000).
  { replace (Q / 1000) with (/ 1000 * Q) by field. apply Rmult_le_compat_r; [lra|]. rewrite u53_val. lra. }
  assert (IR : 0 < / rr) by (apply Rinv_0_lt_compat; exact R0).
  assert (RI : rr * / rr = 1) by (apply Rinv_r; lra).
  assert (AP : 2 <= A) by (pose proof (Rabs_pos ra); pose proof (Rabs_pos rb); lra).
  assert (IA : / rr <= A) by (unfold A; rewrite <- (Rmult_1_l (/ _)); apply Rmult_le_compat_r; lra).
  (* lengths as angles *)
  set (xr := x * / rr). assert (XR : x = rr * xr) by (unfold xr; rewrite (Rmult_comm x), <- Rmult_assoc, RI; ring).
  set (S := sg * / rr). assert (SS : sg = rr * S) by (unfold S; rewrite (Rmult_comm sg), <- Rmult_assoc, RI; ring).
  assert (S0 : 0 <= S <= A).
  { unfold S. split; [apply Rmult_le_pos; lra|]. unfold A. apply Rmult_le_compat_r; lra. }
  assert (CA : Rabs (xr - y) <= 5 / 2 * (u53 * A) + S).
  { apply Rmult_le_reg_l with rr; [exact R0|]. rewrite Rmult_plus_distr_l, <- SS.
    replace (rr * (5 / 2 * (u53 * A))) with (5 / 2 * (u53 * (rr * A))) by ring. rewrite RA.
    rewrite <- (Rabs_pos_eq rr) at 1 by (lra). rewrite <- Rabs_mult. replace (rr * (xr - y)) with (x - rr * y) by (rewrite XR; ring). exact CL. }
  assert (X0 : 0 <= xr) by (apply Rmult_le_pos; lra).
  assert (UA : 0 <= u53 * A <= A / 1000).
  { split; [apply Rmult_le_pos; lra|]. replace (A / 1000) with (/ 1000 * A) by field. apply Rmult_le_compat_r; [lra|]. rewrite u53_val. lra. }
  assert (RD0 : 0 <= rd) by apply Rabs_pos. assert (RDA : rd <= A) by lra.
  assert (XB : xr <= 101 / 100 * A + S).
  { apply Rmult_le_reg_l with rr; [exact R0|]. rewrite <- XR. replace (rr * (101 / 100 * A + S)) with (101 / 100 * (rr * A) + rr * S) by ring. rewrite RA, <- SS.
    assert (rr * rd <= rr * A) by (apply Rmult_le_compat_l; lra). apply Rabs_le2 in L2. lra. }
  (* the product *)
  assert (TX : x * tiny <= / 1000 * (u53 * A)).
  { assert (X3 : x <= 3 * Q) by lra. apply Rle_trans with (3 * Q * tiny); [apply Rmult_le_compat_r; lra|].
    apply Rle_trans with (3 * reach * tiny); [apply Rmult_le_compat_r; lra|].
    apply Rle_trans with (bpow radix2 (-600)).
    - unfold reach, tiny. apply Rle_trans with (bpow radix2 2 * bpow radix2 300 * bpow radix2 (-1000)).
      + apply Rmult_le_compat_r; [apply bpow_ge_0|]. apply Rmult_le_compat_r; [apply bpow_ge_0|cbn; lra].
      + rewrite <- !bpow_plus. apply bpow_le. lia.
    - apply Rle_trans with (u53 * u53); [unfold u53; rewrite <- bpow_plus; apply bpow_le; lia|].
      replace (/ 1000 * (u53 * A)) with (u53 * (/ 1000 * A)) by ring. apply Rmult_le_compat_l; [lra|]. rewrite u53_val. lra. }
  assert (E1 : Rabs (x * B2R sc - sigma * xr) <= u53 * xr + / 1000 * (u53 * A)).
  { replace (x * B2R sc - sigma * xr) with (x * (B2R sc - sigma / rr)) by (unfold xr; field; lra).
    rewrite Rabs_mult, (Rabs_pos_eq x) by lra. apply Rle_trans with (x * (u53 * / rr + tiny)); [apply Rmult_le_compat_l; [lra|exact ESC]|].
    replace (x * (u53 * / rr + tiny)) with (u53 * xr + x * tiny) by (unfold xr; ring). lra. }
  assert (SX : Rabs (sigma * xr) = xr) by (rewrite Rabs_mult, c_sigma_abs, Rmult_1_l; apply Rabs_pos_eq, X0).
  assert (UX : 0 <= u53 * xr <= 101 / 100 * (u53 * A) + u53 * S).
  { split; [apply Rmult_le_pos; lra|]. replace (101 / 100 * (u53 * A) + u53 * S) with (u53 * (101 / 100 * A + S)) by ring. apply Rmult_le_compat_l; lra. }
  assert (US : 0 <= u53 * S <= S / 1000).
  { split; [apply Rmult_le_pos; lra|]. replace (S / 1000) with (/ 1000 * S) by field. apply Rmult_le_compat_r; [lra|]. rewrite u53_val. lra. }
  pose proof (abs_near _ _ _ E1) as AX1. rewrite SX in AX1.
  assert (P36 : 2 ^ 36 * 100 <= bpow radix2 1000).
  { apply Rle_trans with (bpow radix2 36 * bpow radix2 7).
    - apply Rmult_le_compat; [apply pow_le; lra|lra|right; rewrite bpow_powerRZ; reflexivity|cbn; lra].
    - rewrite <- bpow_plus. apply bpow_le. lia. }
  destruct (fmul_rel s sc FS FSC) as [F2 E2]; [fold x; lra|]. fold x in E2. set (m := fmul s sc) in *.
  assert (UM : u53 * Rabs (x * B2R sc) <= 103 / 100 * (u53 * A) + 101 / 100 * (u53 * S)).
  { replace (103 / 100 * (u53 * A) + 101 / 100 * (u53 * S)) with (u53 * (103 / 100 * A + 101 / 100 * S)) by ring. apply Rmult_le_compat_l; lra. }
  assert (TA : tiny <= / 1000 * (u53 * A)).
  { apply Rle_trans with (u53 * u53); [apply tiny_u|]. replace (/ 1000 * (u53 * A)) with (u53 * (/ 1000 * A)) by ring. apply Rmult_le_compat_l; [lra|]. rewrite u53_val. lra. }
  assert (E3 : Rabs (B2R m - sigma * xr) <= 21 / 10 * (u53 * A) + 21 / 10 * (u53 * S)).
  { apply Rabs_le2 in E1, E2. apply Rabs_le. lra. }
  (* the angle *)
  assert (E4 : Rabs (B2R m + ra - (ra + sigma * xr)) <= 21 / 10 * (u53 * A) + 21 / 10 * (u53 * S)).
  { replace (B2R m + ra - (ra + sigma * xr)) with (B2R m - sigma * xr) by ring. exact E3. }
  pose proof (abs_near _ _ _ E4) as AX2. pose proof (Rabs_triang ra (sigma * xr)) as AX3. rewrite SX in AX3.
  pose proof (Rabs_pos rb) as RB0. pose proof (Rabs_pos ra) as RA0.
  destruct (fadd_rel m a F2 FA) as [F5 E5]; [fold ra; lra|]. fold ra in E5. set (th := fadd m a) in *.
  assert (UT : u53 * Rabs (B2R m + ra) <= 21 / 10 * (u53 * A) + 101 / 100 * (u53 * S)).
  { replace (21 / 10 * (u53 * A) + 101 / 100 * (u53 * S)) with (u53 * (21 / 10 * A + 101 / 100 * S)) by ring. apply Rmult_le_compat_l; lra. }
  assert (E6 : Rabs (B2R th - ang) <= 7 * (u53 * A) + 101 / 100 * S).
  { unfold ang. assert (E7 : Rabs (sigma * xr - sigma * y) <= 5 / 2 * (u53 * A) + S).
    { rewrite <- Rmult_minus_distr_l, Rabs_mult, c_sigma_abs, Rmult_1_l. exact CA. }
    apply Rabs_le2 in E7, E5, E4. apply Rabs_le. lra. }
  pose proof (abs_near _ _ _ E5) as AX4.
  assert (TB : Rabs (B2R th) <= 2 ^ 40) by (cbn [pow] in A2 |- *; lra).
  assert (AB : Rabs ra <= 2 ^ 40) by (cbn [pow] in A2 |- *; lra).
  assert (RE6 : rr * Rabs (B2R th - ang) <= 7 * U + 101 / 100 * sg).
  { apply Rle_trans with (rr * (7 * (u53 * A) + 101 / 100 * S)); [apply Rmult_le_compat_l; [lra|exact E6]|].
    rewrite SS, <- RA. right. ring. }
  destruct (AC th F5 TB) as ((FS1 & ES1) & (FC1 & EC1) & _). destruct (AC a FA AB) as ((FS2 & ES2) & (FC2 & EC2) & _). fold ra in ES2, EC2.
  injection V as <- EDD.
  assert (SZ' : rr * (q + 2) * u53 <= U).
  { apply Rle_trans with (rr * (Rabs ra + Rabs rb + q + 2) * u53).
    - apply Rmult_le_compat_r; [lra|]. apply Rmult_le_compat_l; lra.
    - rewrite Rmult_comm. apply Rmult_le_compat_l; lra. }
  assert (GO : forall f c1 c2, (forall y z, Rabs (f y - f z) <= Rabs (y - z)) -> (forall y, Rabs (f y) <= 1) ->
    is_finite c1 = true -> Rabs (B2R c1 - f (B2R th)) <= q / 2 ^ 53 -> is_finite c2 = true -> Rabs (B2R c2 - f ra) <= q / 2 ^ 53 ->
    is_finite (fadd (fmul c1 r) (fmul (fneg c2) r)) = true /\
    Rabs (B2R (fadd (fmul c1 r) (fmul (fneg c2) r)) - rr * (f ang - f ra)) <= 16 * U + 4 * sg).
  { intros f c1 c2 LF BF G1 H1 G2 H2. destruct (fneg_value c2 G2) as [G3 N3].
    assert (H3 : Rabs (B2R (fneg c2) - - f ra) <= q / 2 ^ 53).
    { rewrite N3. replace (- B2R c2 - - f ra) with (- (B2R c2 - f ra)) by ring. rewrite Rabs_Ropp. exact H2. }
    destruct (c_prod c1 _ G1 (BF _) H1) as [G4 H4].
    destruct (c_prod (fneg c2) (- f ra) G3 ltac:(rewrite Rabs_Ropp; apply BF) H3) as [G5 H5]. fold rr in H4, H5.
    pose proof (LF (B2R th) ang) as L3.
    assert (L4 : Rabs (rr * f (B2R th) - rr * f ang) <= 7 * U + 101 / 100 * sg).
    { rewrite <- Rmult_minus_distr_l, Rabs_mult, (Rabs_pos_eq rr) by (lra).
      eapply Rle_trans; [apply Rmult_le_compat_l; [lra|exact L3]|exact RE6]. }
    assert (PZ : rr * (q + 21 / 20) * u53 <= U).
    { eapply Rle_trans; [|exact SZ']. apply Rmult_le_compat_r; [lra|]. apply Rmult_le_compat_l; lra. }
    assert (BB : forall y, Rabs (rr * f y) <= Q / 2).
    { intros y0. rewrite Rabs_mult, (Rabs_pos_eq rr) by (lra).
      apply Rle_trans with (rr * 1); [apply Rmult_le_compat_l; [lra|apply BF]|].
      assert (0 <= rr * (Rabs ra + Rabs rb + q)) by (apply Rmult_le_pos; lra).
      replace (rr * (Rabs ra + Rabs rb + q + 2)) with (rr * (Rabs ra + Rabs rb + q) + rr * 2) in SZ by ring. lra. }
    pose proof (BB (B2R th)) as B1. pose proof (BB ra) as B2. apply Rabs_le2 in H4, H5, L4, B1, B2.
    replace (rr * - f ra) with (- (rr * f ra)) in H5 by ring.
    assert (SB : Rabs (B2R (fmul c1 r) + B2R (fmul (fneg c2) r)) <= 101 / 100 * Q) by (apply Rabs_le; lra).
    destruct (fadd_rel _ _ G4 G5) as [G6 H6]; [lra|]. split; [exact G6|].
    assert (u53 * Rabs (B2R (fmul c1 r) + B2R (fmul (fneg c2) r)) <= 101 / 100 * U).
    { replace (101 / 100 * U) with (u53 * (101 / 100 * Q)) by ring. apply Rmult_le_compat_l; lra. }
    apply Rabs_le2 in H6. rewrite Rmult_minus_distr_l. apply Rabs_le. lra. }
  destruct (GO cos _ _ cos_lipschitz ltac:(intros y0; apply Rabs_le, COS_bound) FC1 EC1 FC2 EC2) as [K1 K2].
  destruct (GO sin _ _ sin_lipschitz ltac:(intros y0; apply Rabs_le, SIN_bound) FS1 ES1 FS2 ES2) as [K3 K4].
  split; [unfold within; cbn [fvadd fx fy vx vy]; repeat split; assumption|].
  assert (DI : forall f (c1 : f64), (forall y z, Rabs (f y - f z) <= Rabs (y - z)) -> Rabs (B2R c1 - f (B2R th)) <= q / 2 ^ 53 ->
    Rabs (B2R c1 - f ang) <= (q + 7 * A) * u53 + 101 / 100 * (sg / rr)).
  { intros f c1 LF H1. pose proof (LF (B2R th) ang) as L3. unfold Rdiv in H1. rewrite <- u53_is' in H1. change (sg / rr) with S.
    apply Rabs_le2 in H1, L3. apply Rabs_le. lra. }
  pose proof (DI sin _ sin_lipschitz ES1) as DS. pose proof (DI cos _ cos_lipschitz EC1) as DC.
  destruct (fneg_value _ FS1) as [NF1 NV1]. destruct (fneg_value _ FC1) as [NF2 NV2].
  unfold sigma. destruct (fle a b); subst d; unfold within; cbn [fx fy vx vy]; (split; [assumption|]); (split; [assumption|]).
  - rewrite NV1, !Rmult_1_l. split; [|exact DC]. rewrite Rabs_minus_sym. replace (- sin ang - - B2R (f_sin tg th)) with (B2R (f_sin tg th) - sin ang) by ring. exact DS.
  - rewrite NV2. replace (- (-1 * sin ang)) with (sin ang) by ring. split; [exact DS|].
    rewrite Rabs_minus_sym. replace (-1 * cos ang - - B2R (f_cos tg th)) with (B2R (f_cos tg th) - cos ang) by ring. exact DC.
Qed.

Lemma c_arc : forall s sg t p d curve, fcircle tg r a b = Ok curve -> is_finite s = true -> 0 <= sg <= Q -> 0 <= B2R s <= B2R (fc_length curve) + sg ->
  Rabs (B2R s - B2R r * Rabs (B2R b - B2R a) * t) <= 5 / 2 * U + sg -> fc_value curve s = Ok (p, d) ->
  within (16 * U + 4 * sg) p (arc_at (B2R r) (B2R a) (B2R b) t).
Proof.
  intros s sg t p d curve G FS SG SL CL V. rewrite Rmult_assoc in CL. destruct (c_point s sg _ p d curve G FS SG SL CL V) as [W _].
  unfold arc_at. replace ((B2R b - B2R a) * t) with (sigma * (Rabs (B2R b - B2R a) * t)) by (rewrite c_sigma at 2; ring). exact W.
Qed.

Lemma fcircle_near : forall g, g_circle g r a b = fcircle tg r a b -> circle_near g Q r a b.
Proof.
  intros g EG curve G. rewrite EG in G. cbv zeta. pose proof G as G'. unfold fcircle in G'. injection G' as EC.
  assert (ELN : fc_length curve = fmul r (fabs (fsub b a))) by (rewrite <- EC; reflexivity). clear EC.
  destruct c_length as (FL & L1 & L2). cbv zeta in L1, L2. rewrite <- ELN in FL, L1, L2. pose proof c_U as U0.
  set (len := B2R (fc_length curve)) in *.
  assert (RR : B2R r * Rabs (B2R b - B2R a) = Rabs (B2R r * (B2R b - B2R a))) by (rewrite Rabs_mult, (Rabs_pos_eq (B2R r)); lra).
  split; [exact FL|]. split; [lra|]. split; [rewrite <- RR; lra|].
  assert (BX : forall f t, (forall y, -1 <= f y <= 1) -> Rabs (B2R r * (f (B2R a + (B2R b - B2R a) * t) - f (B2R a))) <= Q).
  { intros f t BF. rewrite Rabs_mult, (Rabs_pos_eq (B2R r)) by lra. pose proof (BF (B2R a + (B2R b - B2R a) * t)). pose proof (BF (B2R a)).
    apply Rle_trans with (B2R r * 2); [apply Rmult_le_compat_l; [lra|apply Rabs_le; lra]|].
    eapply Rle_trans; [|exact SZ]. apply Rmult_le_compat_l; [lra|]. pose proof (Rabs_pos (B2R a)). pose proof (Rabs_pos (B2R b)). pose proof c_q. lra. }
  split; [intros t _; split; cbn [arc_at vx vy]; apply BX; [apply COS_bound|apply SIN_bound]|].
  apply Rabs_le2 in L2 as L3.
  assert (MAIN : forall s sg p d, is_finite s = true -> 0 <= sg <= Q -> 0 <= B2R s <= len + sg -> fc_value curve s = Ok (p, d) ->
    exists t, 0 <= t <= 1 /\ (0 < len -> t = Rmin 1 (B2R s / len)) /\ (len <= 0 -> t = 1) /\ within (16 * U + 4 * sg) p (arc_at (B2R r) (B2R a) (B2R b) t)).
  { intros s sg p d FS SG SL V. set (w := B2R r * Rabs (B2R b - B2R a)) in *.
    destruct (Rlt_dec 0 len) as [LP|LP].
    - exists (Rmin 1 (B2R s / len)).
      assert (T0 : 0 <= B2R s / len) by (apply Rmult_le_pos; [lra|apply Rlt_le, Rinv_0_lt_compat, LP]).
      assert (T1 : 0 <= Rmin 1 (B2R s / len) <= 1) by (split; [apply Rmin_glb; lra|apply Rmin_l]).
      split; [exact T1|]. split; [reflexivity|]. split; [lra|].
      apply (c_arc s sg _ p d curve); try assumption. fold w. set (t := Rmin 1 (B2R s / len)) in *.
      assert (SE : 0 <= B2R s - len * t <= sg).
      { destruct (Rle_dec (B2R s) len) as [H|H].
        - unfold t. rewrite Rmin_right.
          + replace (len * (B2R s / len)) with (B2R s) by (field; lra). lra.
          + apply Rmult_le_reg_r with len; [exact LP|]. unfold Rdiv. rewrite Rmult_assoc, Rinv_l by lra. lra.
        - unfold t. rewrite Rmin_left; [lra|]. apply Rmult_le_reg_r with len; [exact LP|]. unfold Rdiv. rewrite Rmult_assoc, Rinv_l by lra. lra. }
      assert (WT : - (5 / 2 * U) <= (len - w) * t <= 5 / 2 * U) by nra.
      apply Rabs_le. lra.
    - exists 1. split; [lra|]. split; [lra|]. split; [reflexivity|]. apply (c_arc s sg _ p d curve); try assumption. fold w. apply Rabs_le. lra. }
  split.
  - intros s sg p d FS SG SL V. destruct (MAIN s sg p d FS SG SL V) as (t & T1 & T2 & _ & W). exists t. auto.
  - intros p d V. destruct (MAIN (fc_length curve) 0 p d FL ltac:(lra) ltac:(fold len; lra) V) as (t & T1 & T2 & T3 & W).
    assert (t = 1).
    { destruct (Rlt_dec 0 len) as [LP|LP]; [|apply T3; lra]. rewrite T2 by exact LP. fold len. replace (len / len) with 1 by (field; lra). apply Rmin_left. lra. }
    subst t. replace (16 * U) with (16 * U + 4 * 0) by ring. exact W.
Qed.
End Circle.
