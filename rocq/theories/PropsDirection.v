(** Property C110: the direction of a Bezier curve in binary64. *)
From Coq Require Import ZArith Reals List Bool NArith Arith Lia Lra Psatz.
From Flocq Require Import Core BinarySingleNaN.
From Verif Require Import Base Floats FloatProofs FloatScale FloatErr ApproxCurve DrawCurves FloatPath
  Coords CoordsProofs Curves CurvesProofs Polynomials PolyProofs PolynomProofs PathBuild BuildProofs PropsBuild FloatPathProofs PropsFloatPath FloatCurve.
Import ListNotations.
Open Scope R_scope.

(** ** Lengths and unit vectors *)

Lemma tiny_less : tiny <= u53 * / 2 ^ 300.
Proof.
  unfold tiny, u53. replace (/ 2 ^ 300) with (bpow radix2 (-300)).
  - rewrite <- bpow_plus. apply bpow_le. lia.
  - change (-300)%Z with (- (300))%Z. rewrite bpow_opp, bpow_powerRZ. reflexivity.
Qed.

Lemma sqrt_near : forall a b d, 0 < b -> 0 <= a -> Rabs (a - b) <= d * b -> Rabs (sqrt a - sqrt b) <= d * sqrt b.
Proof.
  intros a b d B A H. assert (SB : 0 < sqrt b) by (apply sqrt_lt_R0; exact B). pose proof (sqrt_pos a) as SA.
  assert (E : a - b = (sqrt a - sqrt b) * (sqrt a + sqrt b)).
  { replace ((sqrt a - sqrt b) * (sqrt a + sqrt b)) with (sqrt a * sqrt a - sqrt b * sqrt b) by ring. rewrite !sqrt_sqrt; lra. }
  rewrite E, Rabs_mult, (Rabs_pos_eq (sqrt a + sqrt b)) in H by lra.
  assert (H2 : Rabs (sqrt a - sqrt b) * sqrt b <= d * b).
  { eapply Rle_trans; [|exact H]. apply Rmult_le_compat_l; [apply Rabs_pos|lra]. }
  replace (d * b) with (d * sqrt b * sqrt b) in H2 by (rewrite Rmult_assoc, sqrt_sqrt; lra). apply Rmult_le_reg_r in H2; assumption.
Qed.

Lemma length_near : forall e W, is_finite (fx e) = true -> is_finite (fy e) = true -> 1 <= W <= wide ->
  Rabs (B2R (fx e)) <= W -> Rabs (B2R (fy e)) <= W -> / 2 ^ 60 <= vlength (rv e) ->
  is_finite (fvlength e) = true /\ Rabs (B2R (fvlength e) - vlength (rv e)) <= 4 * u53 * vlength (rv e).
Proof.
  intros e W F1 F2 HW B1 B2 HL. destruct (length_facts e W F1 F2 HW B1 B2) as (FF & _). split; [exact FF|].
  destruct e as [x y]. unfold vlength, rv in *. cbn [fx fy vx vy] in *. unfold fvlength in FF |- *. cbn [fx fy] in *.
  pose proof u53_pos as [U0 U1]. pose proof tiny_pos as TP. pose proof tiny_less as TL.
  set (s := B2R x * B2R x + B2R y * B2R y) in *.
  assert (S0 : / 2 ^ 120 <= s).
  { assert (Q : / 2 ^ 60 * / 2 ^ 60 <= sqrt s * sqrt s) by (apply Rmult_le_compat; try exact HL; apply Rlt_le, Rinv_0_lt_compat, pow_lt; lra).
    rewrite sqrt_sqrt in Q by (unfold s; nra). rewrite <- Rinv_mult, <- pow_add in Q. exact Q. }
  assert (P120 : 0 < / 2 ^ 120) by (apply Rinv_0_lt_compat, pow_lt; lra).
  assert (T300 : / 2 ^ 300 <= / 1024 * / 2 ^ 120).
  { replace 1024 with (2 ^ 10) by (cbn [pow]; lra). rewrite <- Rinv_mult, <- pow_add. apply Rinv_le_contravar; [apply pow_lt; lra|]. apply Rle_pow; [lra|lia]. }
  assert (TS : tiny <= u53 * (/ 1024 * s)).
  { eapply Rle_trans; [exact TL|]. apply Rmult_le_compat_l; [lra|]. eapply Rle_trans; [exact T300|]. apply Rmult_le_compat_l; lra. }
  assert (WW : W * W <= bpow radix2 800).
  { apply Rle_trans with (wide * wide); [apply Rmult_le_compat; lra|]. unfold wide. rewrite <- bpow_plus. apply bpow_le. lia. }
  assert (H8 : 4 * bpow radix2 800 <= bpow radix2 1000).
  { change 4 with (bpow radix2 2). rewrite <- bpow_plus. apply bpow_le. lia. }
  set (h8 := bpow radix2 800) in *. clearbody h8.
  assert (HP : 0 <= bpow radix2 1000) by apply bpow_ge_0.
  assert (SQ : forall z : f64, is_finite z = true -> Rabs (B2R z) <= W ->
    is_finite (fmul z z) = true /\ 0 <= B2R z * B2R z <= h8 /\ Rabs (B2R (fmul z z) - B2R z * B2R z) <= u53 * (B2R z * B2R z) + tiny).
  { intros z Fz Bz. assert (Z2 : 0 <= B2R z * B2R z <= W * W).
    { split; [apply Rle_0_sqr|]. rewrite <- (Rabs_pos_eq (B2R z * B2R z)) by apply Rle_0_sqr. rewrite Rabs_mult. apply Rmult_le_compat; try apply Rabs_pos; exact Bz. }
    destruct (fmul_val z z Fz Fz) as [F E]; [rewrite Rabs_pos_eq by lra; lra|]. split; [exact F|]. split; [lra|]. rewrite E.
    pose proof (rne_err (B2R z * B2R z)) as X. rewrite (Rabs_pos_eq (B2R z * B2R z)) in X by lra. exact X. }
  destruct (SQ x F1 B1) as (G1 & X1 & E1). destruct (SQ y F2 B2) as (G2 & X2 & E2). clear SQ.
  assert (SH : s <= 2 * h8) by (unfold s; lra).
  set (a := fmul x x) in *. set (b := fmul y y) in *.
  assert (US : 0 <= u53 * s) by (apply Rmult_le_pos; lra).
  assert (US1 : u53 * s <= / 1024 * s) by (apply Rmult_le_compat_r; lra).
  assert (AB : Rabs (B2R a + B2R b - s) <= 1.002 * (u53 * s)).
  { replace (B2R a + B2R b - s) with ((B2R a - B2R x * B2R x) + (B2R b - B2R y * B2R y)) by (unfold s; ring).
    eapply Rle_trans; [apply Rabs_triang|]. assert (u53 * s = u53 * (B2R x * B2R x) + u53 * (B2R y * B2R y)) by (unfold s; ring). lra. }
  assert (ABB : Rabs (B2R a + B2R b) <= 1.01 * s).
  { replace (B2R a + B2R b) with ((B2R a + B2R b - s) + s) by ring. eapply Rle_trans; [apply Rabs_triang|]. rewrite (Rabs_pos_eq s) by lra. lra. }
  destruct (fadd_val a b G1 G2) as [G3 E3]; [lra|].
  assert (ES : Rabs (B2R (fadd a b) - s) <= 2.1 * u53 * s).
  { pose proof (rne_err (B2R a + B2R b)) as X. rewrite <- E3 in X. assert (u53 * Rabs (B2R a + B2R b) <= u53 * (1.01 * s)) by (apply Rmult_le_compat_l; lra).
    replace (B2R (fadd a b) - s) with ((B2R (fadd a b) - (B2R a + B2R b)) + (B2R a + B2R b - s)) by ring. eapply Rle_trans; [apply Rabs_triang|]. lra. }
  assert (S2 : 0 <= B2R (fadd a b)) by (apply abs_between in ES; lra).
  assert (SP : 0 < s) by lra.
  pose proof (sqrt_near _ _ _ SP S2 ES) as ER. destruct (fsqrt_val _ G3 S2) as [G4 E4].
  pose proof (rne_err (sqrt (B2R (fadd a b)))) as X. rewrite <- E4, (Rabs_pos_eq (sqrt _)) in X by apply sqrt_pos.
  set (l := sqrt s) in *. set (m := sqrt (B2R (fadd a b))) in *.
  assert (L0 : / 2 ^ 60 <= l) by exact HL. assert (P60 : 0 < / 2 ^ 60) by (apply Rinv_0_lt_compat, pow_lt; lra).
  assert (TL2 : tiny <= u53 * (/ 1024 * l)).
  { eapply Rle_trans; [exact TL|]. apply Rmult_le_compat_l; [lra|]. apply Rle_trans with (/ 1024 * / 2 ^ 60); [|apply Rmult_le_compat_l; lra].
    replace 1024 with (2 ^ 10) by (cbn [pow]; lra). rewrite <- Rinv_mult, <- pow_add. apply Rinv_le_contravar; [apply pow_lt; lra|]. apply Rle_pow; [lra|lia]. }
  assert (UL : 0 <= u53 * l) by (apply Rmult_le_pos; lra). assert (UL1 : u53 * l <= / 1024 * l) by (apply Rmult_le_compat_r; lra).
  assert (ML : m <= 1.01 * l) by (apply abs_between in ER; lra).
  assert (UM : u53 * m <= u53 * (1.01 * l)) by (apply Rmult_le_compat_l; lra).
  replace (B2R (fsqrt (fadd a b)) - l) with ((B2R (fsqrt (fadd a b)) - m) + (m - l)) by ring. eapply Rle_trans; [apply Rabs_triang|]. lra.
Qed.

Lemma unit_near : forall e W, is_finite (fx e) = true -> is_finite (fy e) = true -> 1 <= W <= wide ->
  Rabs (B2R (fx e)) <= W -> Rabs (B2R (fy e)) <= W -> / 2 ^ 60 <= vlength (rv e) ->
  within (6 * u53) (fvunit e) (unit_vec (rv e)).
Proof.
  intros e W F1 F2 HW B1 B2 HL. destruct (length_near e W F1 F2 HW B1 B2 HL) as [FL EL].
  pose proof u53_pos as [U0 U1]. pose proof tiny_pos as TP. pose proof tiny_less as TL.
  assert (P60 : 0 < / 2 ^ 60) by (apply Rinv_0_lt_compat, pow_lt; lra).
  unfold fvunit, unit_vec. set (m := fvlength e) in *. set (l := vlength (rv e)) in *.
  assert (LP : 0 < l) by lra. assert (UL1 : u53 * l <= / 1024 * l) by (apply Rmult_le_compat_r; lra).
  assert (ML : 0.99 * l <= B2R m) by (apply abs_between in EL; lra). assert (M0 : 0 < B2R m) by lra.
  assert (I300 : / 2 ^ 300 <= / 2 ^ 4) by (apply Rinv_le_contravar; [apply pow_lt; lra|apply Rle_pow; [lra|lia]]).
  assert (I4 : / 2 ^ 4 = 0.0625) by (cbn [pow]; lra). rewrite I4 in I300.
  assert (TU : tiny <= u53 * 0.0625) by (eapply Rle_trans; [exact TL|apply Rmult_le_compat_l; lra]).
  assert (ONE : 2 <= bpow radix2 1000) by (change 2 with (bpow radix2 1); apply bpow_le; lia).
  assert (KEY : forall z : f64, is_finite z = true -> Rabs (B2R z) <= l ->
    is_finite (fdiv z m) = true /\ Rabs (B2R (fdiv z m) - B2R z / l) <= 6 * u53).
  { intros z Fz Bz.
    assert (Q1 : Rabs (B2R z / B2R m) <= 1.02).
    { unfold Rdiv. rewrite Rabs_mult, (Rabs_pos_eq (/ B2R m)) by (apply Rlt_le, Rinv_0_lt_compat; lra).
      apply Rmult_le_reg_r with (B2R m); [exact M0|]. rewrite Rmult_assoc, Rinv_l, Rmult_1_r by lra. lra. }
    destruct (fdiv_val z m Fz ltac:(lra) ltac:(lra)) as [F E]. split; [exact F|].
    pose proof (rne_err (B2R z / B2R m)) as X. rewrite <- E in X.
    assert (u53 * Rabs (B2R z / B2R m) <= u53 * 1.02) by (apply Rmult_le_compat_l; lra).
    assert (D : Rabs (B2R z / B2R m - B2R z / l) <= 4.1 * u53).
    { replace (B2R z / B2R m - B2R z / l) with (B2R z / B2R m * ((l - B2R m) / l)) by (field; lra). rewrite Rabs_mult.
      assert (R : Rabs ((l - B2R m) / l) <= 4 * u53).
      { unfold Rdiv. rewrite Rabs_mult, (Rabs_pos_eq (/ l)) by (apply Rlt_le, Rinv_0_lt_compat; lra).
        apply Rmult_le_reg_r with l; [exact LP|]. rewrite Rmult_assoc, Rinv_l, Rmult_1_r by lra. rewrite Rabs_minus_sym. exact EL. }
      apply Rle_trans with (1.02 * (4 * u53)); [apply Rmult_le_compat; try apply Rabs_pos; assumption|lra]. }
    replace (B2R (fdiv z m) - B2R z / l) with ((B2R (fdiv z m) - B2R z / B2R m) + (B2R z / B2R m - B2R z / l)) by ring.
    eapply Rle_trans; [apply Rabs_triang|]. lra. }
  assert (C : Rabs (B2R (fx e)) <= l /\ Rabs (B2R (fy e)) <= l).
  { unfold l, vlength, rv. cbn [vx vy]. split; rewrite <- sqrt_Rsqr_abs; apply sqrt_le_1_alt; unfold Rsqr; nra. }
  destruct (KEY _ F1 (proj1 C)) as [G1 E1]. destruct (KEY _ F2 (proj2 C)) as [G2 E2].
  split; [exact G1|]. split; [exact G2|]. cbn [fx fy vx vy rv]. auto.
Qed.

(** Unit vectors of vectors that are close. *)
Lemma unit_close : forall a b e, 0 < vlength a -> 0 < vlength b -> Rabs (vx a - vx b) <= e -> Rabs (vy a - vy b) <= e ->
  Rabs (vx (unit_vec a) - vx (unit_vec b)) <= 3 * e / vlength b /\ Rabs (vy (unit_vec a) - vy (unit_vec b)) <= 3 * e / vlength b.
Proof.
  intros a b e A B X Y. set (la := vlength a) in *. set (lb := vlength b) in *.
  assert (LA : la * la = vx a * vx a + vy a * vy a) by apply length_sq. assert (LB : lb * lb = vx b * vx b + vy b * vy b) by apply length_sq.
  assert (CA : Rabs (vx a) <= la /\ Rabs (vy a) <= la).
  { unfold la, vlength. split; rewrite <- sqrt_Rsqr_abs; apply sqrt_le_1_alt; unfold Rsqr; nra. }
  assert (CB : Rabs (vx b) <= lb /\ Rabs (vy b) <= lb).
  { unfold lb, vlength. split; rewrite <- sqrt_Rsqr_abs; apply sqrt_le_1_alt; unfold Rsqr; nra. }
  assert (E0 : 0 <= e) by (eapply Rle_trans; [apply Rabs_pos|exact X]).
  assert (LL : Rabs (lb - la) <= 2 * e).
  { assert (M : Rabs ((lb - la) * (lb + la)) <= 2 * e * (lb + la)).
    { replace ((lb - la) * (lb + la)) with (- ((vx a - vx b) * (vx a + vx b) + (vy a - vy b) * (vy a + vy b))) by nra.
      rewrite Rabs_Ropp. eapply Rle_trans; [apply Rabs_triang|]. rewrite !Rabs_mult.
      assert (Rabs (vx a + vx b) <= la + lb) by (eapply Rle_trans; [apply Rabs_triang|lra]).
      assert (Rabs (vy a + vy b) <= la + lb) by (eapply Rle_trans; [apply Rabs_triang|lra]).
      assert (Rabs (vx a - vx b) * Rabs (vx a + vx b) <= e * (la + lb)) by (apply Rmult_le_compat; try apply Rabs_pos; assumption).
      assert (Rabs (vy a - vy b) * Rabs (vy a + vy b) <= e * (la + lb)) by (apply Rmult_le_compat; try apply Rabs_pos; assumption). lra. }
    rewrite Rabs_mult, (Rabs_pos_eq (lb + la)) in M by lra. apply Rmult_le_reg_r in M; [exact M|lra]. }
  assert (KEY : forall p q, Rabs p <= la -> Rabs (p - q) <= e -> Rabs (p / la - q / lb) <= 3 * e / lb).
  { intros p q P PQ. replace (p / la - q / lb) with ((p - q) / lb + p / la * ((lb - la) / lb)) by (field; lra).
    assert (IB : 0 < / lb) by (apply Rinv_0_lt_compat; exact B).
    eapply Rle_trans; [apply Rabs_triang|]. rewrite Rabs_mult. unfold Rdiv. rewrite !Rabs_mult, (Rabs_pos_eq (/ lb)), (Rabs_pos_eq (/ la)) by (apply Rlt_le; auto; apply Rinv_0_lt_compat; auto).
    assert (P1 : Rabs p * / la <= 1) by (apply Rmult_le_reg_r with la; [exact A|]; rewrite Rmult_assoc, Rinv_l, Rmult_1_r, Rmult_1_l by lra; exact P).
    assert (Rabs (p - q) * / lb <= e * / lb) by (apply Rmult_le_compat_r; lra).
    assert (L2 : Rabs (lb - la) * / lb <= 2 * e * / lb) by (apply Rmult_le_compat_r; lra).
    assert (Rabs p * / la * (Rabs (lb - la) * / lb) <= 1 * (2 * e * / lb)).
    { apply Rmult_le_compat; [apply Rmult_le_pos; [apply Rabs_pos|apply Rlt_le, Rinv_0_lt_compat; exact A]|apply Rmult_le_pos; [apply Rabs_pos|lra]|exact P1|exact L2]. }
    lra. }
  unfold unit_vec. cbn [vx vy]. fold la lb. split; apply KEY; tauto.
Qed.

(** ** The differences the direction is taken from *)

Definition slope (a b c t : R) : R := 3 * ((1 - t) * (1 - t) * a + 2 * t * (1 - t) * (b - a) + t * t * (c - b)).

Lemma cubic_slope : forall a b c t, derivable_pt_lim (cubic a b c) t (slope a b c t).
Proof.
  intros a b c t.
  assert (P : forall s, cubic a b c s = polyval [0; 3 * a; 3 * b - 6 * a; c - 3 * b + 3 * a] s) by (intros s; unfold cubic, polyval; cbn; ring).
  apply (derivable_ext (polyval [0; 3 * a; 3 * b - 6 * a; c - 3 * b + 3 * a])); [intros; symmetry; apply P|].
  replace (slope a b c t) with (polyval (der [0; 3 * a; 3 * b - 6 * a; c - 3 * b + 3 * a]) t) by (unfold slope, polyval; cbn; ring).
  apply der_lim.
Qed.

Lemma slope_coord : forall a b c t W, 1 <= W -> 2 * W <= huge -> is_finite a = true -> is_finite b = true ->
  is_finite c = true -> Rabs (B2R a) <= W -> Rabs (B2R b) <= W -> Rabs (B2R c) <= W -> is_finite t = true -> 0 <= B2R t <= 1 ->
  let p00 := fmul a t in
  let p01 := fadd a (fmul (fsub b a) t) in
  let p02 := fadd b (fmul (fsub c b) t) in
  let p10 := fadd p00 (fmul (fsub p01 p00) t) in
  let p11 := fadd p01 (fmul (fsub p02 p01) t) in
  let p20 := fadd p10 (fmul (fsub p11 p10) t) in
  let D := slope (B2R a) (B2R b) (B2R c) (B2R t) / 3 in
  (nr 105 (2 * W) ((1 - B2R t) * D) (fsub p11 p20) /\ Rabs ((1 - B2R t) * D) <= 2 * W) /\
  (nr 105 (2 * W) (B2R t * D) (fsub p20 p10) /\ Rabs (B2R t * D) <= 2 * W).
Proof.
  intros a b c t W HW Hh Fa Fb Fc Ba Bb Bc Ft Bt p00 p01 p02 p10 p11 p20 D.
  assert (MM : 3000 <= many - 100) by (unfold many; lra).
  pose proof (nr_exact (2 * W) a Fa) as Na. pose proof (nr_exact (2 * W) b Fb) as Nb. pose proof (nr_exact (2 * W) c Fc) as Nc.
  assert (W0 : Rabs 0 <= W) by (rewrite Rabs_R0; lra).
  set (r00 := lerp 0 (B2R a) (B2R t)). set (r01 := lerp (B2R a) (B2R b) (B2R t)). set (r02 := lerp (B2R b) (B2R c) (B2R t)).
  assert (B00 : Rabs r00 <= W) by (apply lerp_bound; auto).
  assert (B01 : Rabs r01 <= W) by (apply lerp_bound; auto).
  assert (B02 : Rabs r02 <= W) by (apply lerp_bound; auto).
  assert (N00 : nr (0 + 3) (2 * W) r00 p00).
  { replace r00 with (B2R a * B2R t) by (unfold r00, lerp; ring). apply nr_mul_unit; auto; lra. }
  assert (N01 : nr (2 * 0 + 0 + 7) (2 * W) r01 p01) by (apply nr_lerp; auto; lra).
  assert (N02 : nr (2 * 0 + 0 + 7) (2 * W) r02 p02) by (apply nr_lerp; auto; lra).
  set (r10 := lerp r00 r01 (B2R t)). set (r11 := lerp r01 r02 (B2R t)).
  assert (B10 : Rabs r10 <= W) by (apply lerp_bound; auto).
  assert (B11 : Rabs r11 <= W) by (apply lerp_bound; auto).
  assert (N10 : nr (2 * (0 + 3) + (2 * 0 + 0 + 7) + 7) (2 * W) r10 p10) by (apply nr_lerp; auto; lra).
  assert (N11 : nr (2 * (2 * 0 + 0 + 7) + (2 * 0 + 0 + 7) + 7) (2 * W) r11 p11) by (apply nr_lerp; auto; lra).
  assert (N20 : nr (2 * (2 * (0 + 3) + (2 * 0 + 0 + 7) + 7) + (2 * (2 * 0 + 0 + 7) + (2 * 0 + 0 + 7) + 7) + 7) (2 * W) (lerp r10 r11 (B2R t)) p20)
    by (apply nr_lerp; auto; lra).
  assert (B20 : Rabs (lerp r10 r11 (B2R t)) <= W) by (apply lerp_bound; auto).
  set (r20 := lerp r10 r11 (B2R t)) in *.
  assert (E1 : (1 - B2R t) * D = r11 - r20) by (unfold D, slope, r20, r11, r10, r02, r01, r00, lerp; field).
  assert (E2 : B2R t * D = r20 - r10) by (unfold D, slope, r20, r11, r10, r02, r01, r00, lerp; field).
  apply abs_between in B10. apply abs_between in B11. apply abs_between in B20.
  assert (L1 : Rabs (r11 - r20) <= 2 * W) by (apply Rabs_le; lra). assert (L2 : Rabs (r20 - r10) <= 2 * W) by (apply Rabs_le; lra).
  rewrite E1, E2. split; (split; [|assumption]).
  - eapply nr_le; [| |eapply nr_sub; [| |exact L1|exact N11|exact N20]]; lra.
  - eapply nr_le; [| |eapply nr_sub; [| |exact L2|exact N20|exact N10]]; lra.
Qed.

Lemma billionth : is_finite (lit 1 1000000000) = true /\ 0.9 / 10 ^ 9 <= B2R (lit 1 1000000000) <= 1.1 / 10 ^ 9.
Proof.
  assert (V : B2SF (lit 1 1000000000) = SpecFloat.S754_finite false 4835703278458517 (-82)) by (vm_compute; reflexivity).
  split; [vm_compute; reflexivity|]. rewrite <- SF2R_B2SF, V. cbn [SF2R cond_Zopp]. unfold F2R. cbn [Fnum Fexp].
  replace (bpow radix2 (-82)) with (/ 4835703278458516698824704) by (cbn [bpow Z.pow_pos Pos.iter radix_val radix2 Z.mul Pos.mul]; reflexivity).
  cbn [pow]. lra.
Qed.

Lemma flt_spec : forall x y : f64, is_finite x = true -> is_finite y = true -> flt x y = true <-> B2R x < B2R y.
Proof. intros x y Fx Fy. exact (fgt_spec y x Fy Fx). Qed.

Lemma length_diff : forall a b e, Rabs (vx a - vx b) <= e -> Rabs (vy a - vy b) <= e -> Rabs (vlength a - vlength b) <= 2 * e.
Proof.
  intros a b e X Y. assert (E0 : 0 <= e) by (eapply Rle_trans; [apply Rabs_pos|exact X]).
  set (la := vlength a) in *. set (lb := vlength b) in *. assert (PA : 0 <= la) by apply length_nonneg. assert (PB : 0 <= lb) by apply length_nonneg.
  assert (LA : la * la = vx a * vx a + vy a * vy a) by apply length_sq. assert (LB : lb * lb = vx b * vx b + vy b * vy b) by apply length_sq.
  assert (CA : Rabs (vx a) <= la /\ Rabs (vy a) <= la).
  { unfold la, vlength. split; rewrite <- sqrt_Rsqr_abs; apply sqrt_le_1_alt; unfold Rsqr; nra. }
  assert (CB : Rabs (vx b) <= lb /\ Rabs (vy b) <= lb).
  { unfold lb, vlength. split; rewrite <- sqrt_Rsqr_abs; apply sqrt_le_1_alt; unfold Rsqr; nra. }
  destruct (Req_dec (la + lb) 0) as [Z|NZ]; [replace (la - lb) with 0 by lra; rewrite Rabs_R0; lra|].
  assert (M : Rabs ((la - lb) * (la + lb)) <= 2 * e * (la + lb)).
  { replace ((la - lb) * (la + lb)) with ((vx a - vx b) * (vx a + vx b) + (vy a - vy b) * (vy a + vy b)) by nra.
    eapply Rle_trans; [apply Rabs_triang|]. rewrite !Rabs_mult.
    assert (Rabs (vx a + vx b) <= la + lb) by (eapply Rle_trans; [apply Rabs_triang|lra]).
    assert (Rabs (vy a + vy b) <= la + lb) by (eapply Rle_trans; [apply Rabs_triang|lra]).
    assert (Rabs (vx a - vx b) * Rabs (vx a + vx b) <= e * (la + lb)) by (apply Rmult_le_compat; try apply Rabs_pos; assumption).
    assert (Rabs (vy a - vy b) * Rabs (vy a + vy b) <= e * (la + lb)) by (apply Rmult_le_compat; try apply Rabs_pos; assumption). lra. }
  rewrite Rabs_mult, (Rabs_pos_eq (la + lb)) in M by lra. apply Rmult_le_reg_r in M; [exact M|lra].
Qed.

Lemma length_scaled : forall v s, 0 <= s -> vlength (mk_vec (s * vx v) (s * vy v)) = s * vlength v.
Proof.
  intros v s S. replace (mk_vec (s * vx v) (s * vy v)) with (vscale v s) by (unfold vscale; f_equal; ring).
  rewrite length_scale, Rabs_pos_eq by exact S. ring.
Qed.
Lemma unit_scaled : forall v s, 0 < s -> 0 < vlength v -> unit_vec (mk_vec (s * vx v) (s * vy v)) = unit_vec v.
Proof.
  intros v s S V. unfold unit_vec. rewrite length_scaled by lra. cbn [vx vy]. f_equal; field; lra.
Qed.

(** A difference [d] near [s * V] with [s >= 1/6]: it is not taken as zero, and its direction is that of [V]. *)
Lemma direction_from : forall d V s W, 1 <= W -> 3 * W <= wide -> 1 / 6 <= s ->
  nr 105 (2 * W) (s * vx V) (fx d) -> nr 105 (2 * W) (s * vy V) (fy d) -> Rabs (s * vx V) <= 2 * W -> Rabs (s * vy V) <= 2 * W ->
  / 2 ^ 25 <= vlength V -> W <= vlength V * 2 ^ 35 ->
  flt (fvlength d) (lit 1 1000000000) = false /\ within ((4000 * W / vlength V + 6) * u53) (fvunit d) (unit_vec V).
Proof.
  intros d V s W W1 W3 S [F1 E1] [F2 E2] B1 B2 HL HWL. pose proof u53_pos as [U0 U1].
  set (L := vlength V) in *. replace (105 * (u53 * (2 * W))) with (210 * (u53 * W)) in E1, E2 by ring.
  assert (UW : 0 < u53 * W) by (apply Rmult_lt_0_compat; lra).
  assert (L0 : 0 < L) by (eapply Rlt_le_trans; [|exact HL]; apply Rinv_0_lt_compat, pow_lt; lra).
  assert (P25 : / 2 ^ 25 = / 33554432) by (f_equal; cbn [pow]; lra). rewrite P25 in HL.
  assert (P35 : 2 ^ 35 = 34359738368) by (cbn [pow]; lra). rewrite P35 in HWL.
  assert (UWL : u53 * W <= L * / 262144).
  { apply Rle_trans with (u53 * (L * 34359738368)); [apply Rmult_le_compat_l; lra|]. rewrite u53_val. lra. }
  set (e := 210 * (u53 * W)) in *. set (b := mk_vec (s * vx V) (s * vy V)).
  assert (LB : vlength b = s * L) by (apply length_scaled; lra).
  assert (SL : L / 6 <= s * L) by (unfold Rdiv; rewrite Rmult_comm; apply Rmult_le_compat_r; lra).
  assert (LD : Rabs (vlength (rv d) - vlength b) <= 2 * e) by (apply length_diff; assumption).
  apply abs_between in LD. rewrite LB in LD.
  assert (LL : 0.16 * L <= vlength (rv d)) by (unfold e in LD; lra).
  assert (U3 : u53 * W <= W * / 1024) by (rewrite (Rmult_comm W); apply Rmult_le_compat_r; lra).
  assert (UW' : e <= W) by (unfold e; rewrite u53_val; lra).
  assert (D1 : Rabs (B2R (fx d)) <= 3 * W) by (replace (B2R (fx d)) with ((B2R (fx d) - s * vx V) + s * vx V) by ring; eapply Rle_trans; [apply Rabs_triang|lra]).
  assert (D2 : Rabs (B2R (fy d)) <= 3 * W) by (replace (B2R (fy d)) with ((B2R (fy d) - s * vy V) + s * vy V) by ring; eapply Rle_trans; [apply Rabs_triang|lra]).
  assert (P60 : / 2 ^ 60 <= vlength (rv d)).
  { apply Rle_trans with (/ 2 ^ 30); [apply Rinv_le_contravar; [apply pow_lt; lra|apply Rle_pow; [lra|lia]]|]. replace (/ 2 ^ 30) with (/ 1073741824) by (f_equal; cbn [pow]; lra). lra. }
  assert (WD : 1 <= 3 * W <= wide) by lra.
  destruct (length_near d (3 * W) F1 F2 WD D1 D2 P60) as [FL EL]. destruct (unit_near d (3 * W) F1 F2 WD D1 D2 P60) as (G1 & G2 & E3 & E4). clear P60.
  split.
  - destruct (flt (fvlength d) (lit 1 1000000000)) eqn:Z; [exfalso|reflexivity]. destruct billionth as [FB BB].
    apply flt_spec in Z; [|assumption..]. apply abs_between in EL.
    assert (4 * u53 * vlength (rv d) <= 0.01 * vlength (rv d)) by (apply Rmult_le_compat_r; [lra|]; rewrite u53_val; lra).
    replace (1.1 / 10 ^ 9) with (1.1 / 1000000000) in BB by (cbn [pow]; lra). lra.
  - assert (LR : 0 < vlength (rv d)) by lra.
    assert (LBP : 0 < vlength b) by lra.
    destruct (unit_close (rv d) b e LR LBP E1 E2) as [C1 C2]. assert (UB : unit_vec b = unit_vec V) by (apply unit_scaled; [lra|exact L0]). rewrite UB, LB in C1, C2.
    assert (Q : 3 * e / (s * L) <= 4000 * W / L * u53).
    { unfold e. apply Rle_trans with (3 * (210 * (u53 * W)) / (L / 6)).
      - apply Rmult_le_compat_l; [lra|]. apply Rinv_le_contravar; lra.
      - replace (3 * (210 * (u53 * W)) / (L / 6)) with (3780 * (u53 * W) * / L) by (field; lra). replace (4000 * W / L * u53) with (4000 * (u53 * W) * / L) by (field; lra).
        apply Rmult_le_compat_r; [apply Rlt_le, Rinv_0_lt_compat; exact L0|lra]. }
    split; [exact G1|]. split; [exact G2|]. rewrite Rmult_plus_distr_r.
    split.
    + replace (B2R (fx (fvunit d)) - vx (unit_vec V)) with ((B2R (fx (fvunit d)) - vx (unit_vec (rv d))) + (vx (unit_vec (rv d)) - vx (unit_vec V))) by ring.
      eapply Rle_trans; [apply Rabs_triang|]. lra.
    + replace (B2R (fy (fvunit d)) - vy (unit_vec V)) with ((B2R (fy (fvunit d)) - vy (unit_vec (rv d))) + (vy (unit_vec (rv d)) - vy (unit_vec V))) by ring.
      eapply Rle_trans; [apply Rabs_triang|]. lra.
Qed.

(** A difference [d] near [s * V] with a short [V]: it is taken as zero. *)
Lemma direction_lost : forall d V s W, 1 <= W <= 10 ^ 4 -> 0 <= s <= 1 / 3 ->
  nr 105 (2 * W) (s * vx V) (fx d) -> nr 105 (2 * W) (s * vy V) (fy d) ->
  vlength V <= / 10 ^ 10 -> flt (fvlength d) (lit 1 1000000000) = true.
Proof.
  intros d V s W HW S [F1 E1] [F2 E2] HL. pose proof u53_pos as [U0 U1]. pose proof tiny_pos as TP.
  assert (CV : Rabs (vx V) <= vlength V /\ Rabs (vy V) <= vlength V).
  { unfold vlength. split; rewrite <- sqrt_Rsqr_abs; apply sqrt_le_1_alt; unfold Rsqr; nra. }
  destruct CV as [CX CY]. replace (10 ^ 4) with 10000 in HW by (cbn [pow]; lra).
  assert (P10 : / 10 ^ 10 = / 10000000000) by (f_equal; cbn [pow]; lra). rewrite P10 in HL.
  assert (EW : 105 * (u53 * (2 * W)) <= 2.4 / 10000000000) by (rewrite u53_val; lra).
  assert (A : forall z : f64, forall v, Rabs v <= vlength V -> Rabs (B2R z - s * v) <= 105 * (u53 * (2 * W)) -> Rabs (B2R z) <= 3 / 10000000000).
  { intros z v HV HZ. replace (B2R z) with ((B2R z - s * v) + s * v) by ring. eapply Rle_trans; [apply Rabs_triang|].
    rewrite Rabs_mult, (Rabs_pos_eq s) by lra. assert (s * Rabs v <= 1 / 3 * / 10000000000) by (apply Rmult_le_compat; [lra|apply Rabs_pos|lra|lra]). lra. }
  pose proof (A (fx d) _ CX E1) as AX. pose proof (A (fy d) _ CY E2) as AY. clear A.
  assert (W1 : 1 <= 1 <= wide) by (split; [lra|unfold wide; change 1 with (bpow radix2 0); apply bpow_le; lia]).
  destruct (length_facts d 1 F1 F2 W1 ltac:(lra) ltac:(lra)) as (FL & _). destruct billionth as [FB BB].
  apply flt_spec; [assumption..|]. replace (0.9 / 10 ^ 9) with (0.9 / 1000000000) in BB by (cbn [pow]; lra).
  apply Rle_lt_trans with (0.7 / 1000000000); [|lra].
  unfold fvlength.
  assert (SQ : forall z : f64, is_finite z = true -> Rabs (B2R z) <= 3 / 10000000000 ->
    is_finite (fmul z z) = true /\ 0 <= B2R (fmul z z) <= 10 / 100000000000000000000).
  { intros z Fz Bz. assert (Z2 : 0 <= B2R z * B2R z <= 9 / 100000000000000000000).
    { split; [apply Rle_0_sqr|]. rewrite <- (Rabs_pos_eq (B2R z * B2R z)) by apply Rle_0_sqr. rewrite Rabs_mult.
      apply Rle_trans with (3 / 10000000000 * (3 / 10000000000)); [apply Rmult_le_compat; try apply Rabs_pos; exact Bz|lra]. }
    assert (ONE : 1 <= bpow radix2 1000) by (change 1 with (bpow radix2 0); apply bpow_le; lia).
    destruct (fmul_val z z Fz Fz) as [F E]; [rewrite Rabs_pos_eq by lra; lra|]. split; [exact F|]. rewrite E.
    split; [apply rne_pos; lra|]. pose proof (rne_err (B2R z * B2R z)) as X. rewrite (Rabs_pos_eq (B2R z * B2R z)) in X by lra. apply abs_between in X.
    pose proof tiny_u as TU. assert (u53 * u53 <= / 1000000000000000000000000) by (rewrite u53_val; lra).
    assert (u53 * (B2R z * B2R z) <= / 1024 * (B2R z * B2R z)) by (apply Rmult_le_compat_r; lra). lra. }
  destruct (SQ _ F1 AX) as [G1 Q1]. destruct (SQ _ F2 AY) as [G2 Q2]. clear SQ.
  set (a := fmul (fx d) (fx d)) in *. set (b := fmul (fy d) (fy d)) in *.
  assert (ONE : 1 <= bpow radix2 1000) by (change 1 with (bpow radix2 0); apply bpow_le; lia).
  destruct (fadd_val a b G1 G2) as [G3 E3]; [rewrite Rabs_pos_eq; lra|]. clear ONE.
  assert (S3 : 0 <= B2R (fadd a b) <= 25 / 100000000000000000000).
  { rewrite E3. split; [apply rne_pos; lra|]. pose proof (rne_err (B2R a + B2R b)) as X. rewrite (Rabs_pos_eq (B2R a + B2R b)) in X by lra. apply abs_between in X.
    pose proof tiny_u as TU. assert (u53 * u53 <= / 1000000000000000000000000) by (rewrite u53_val; lra).
    assert (u53 * (B2R a + B2R b) <= / 1024 * (B2R a + B2R b)) by (apply Rmult_le_compat_r; lra). lra. }
  destruct (fsqrt_val _ G3 (proj1 S3)) as [G4 E4]. rewrite E4.
  assert (SS : sqrt (B2R (fadd a b)) <= 5 / 10000000000).
  { rewrite <- (sqrt_Rsqr (5 / 10000000000)) by lra. apply sqrt_le_1_alt. unfold Rsqr. lra. }
  pose proof (sqrt_pos (B2R (fadd a b))) as SP. pose proof (rne_err (sqrt (B2R (fadd a b)))) as X. rewrite (Rabs_pos_eq (sqrt _)) in X by exact SP. apply abs_between in X.
  pose proof tiny_u as TU. assert (u53 * u53 <= / 1000000000000000000000000) by (rewrite u53_val; lra).
  assert (u53 * sqrt (B2R (fadd a b)) <= / 1024 * sqrt (B2R (fadd a b))) by (apply Rmult_le_compat_r; lra).
  lra.
Qed.

(** * C110 *)

Definition norm (v : vec) : R := sqrt (vx v * vx v + vy v * vy v).
Definition towards (v : vec) : vec := mk_vec (vx v / norm v) (vy v / norm v).

(** [V] is the velocity of the curve at [t]. *)
Definition velocity (c1 c2 p2 : vec) (t : R) (V : vec) : Prop :=
  derivable_pt_lim (fun s => vx (bernstein3 vzero c1 c2 p2 s)) t (vx V) /\ derivable_pt_lim (fun s => vy (bernstein3 vzero c1 c2 p2 s)) t (vy V).

Lemma velocity_slope : forall c1 c2 p2 t V, velocity c1 c2 p2 t V ->
  vx V = slope (vx c1) (vx c2) (vx p2) t /\ vy V = slope (vy c1) (vy c2) (vy p2) t.
Proof.
  intros c1 c2 p2 t V [H1 H2]. split.
  - apply (uniqueness_limite (cubic (vx c1) (vx c2) (vx p2)) t); [|apply cubic_slope].
    apply (derivable_ext (fun s => vx (bernstein3 vzero c1 c2 p2 s))); [|exact H1]. intros s. unfold bernstein3, cubic, vadd, vscale, vzero. cbn [vx vy]. ring.
  - apply (uniqueness_limite (cubic (vy c1) (vy c2) (vy p2)) t); [|apply cubic_slope].
    apply (derivable_ext (fun s => vy (bernstein3 vzero c1 c2 p2 s))); [|exact H2]. intros s. unfold bernstein3, cubic, vadd, vscale, vzero. cbn [vx vy]. ring.
Qed.
Lemma slope_velocity : forall c1 c2 p2 t, velocity c1 c2 p2 t (mk_vec (slope (vx c1) (vx c2) (vx p2) t) (slope (vy c1) (vy c2) (vy p2) t)).
Proof.
  intros c1 c2 p2 t. split; cbn [vx vy].
  - apply (derivable_ext (cubic (vx c1) (vx c2) (vx p2))); [|apply cubic_slope]. intros s. unfold bernstein3, cubic, vadd, vscale, vzero. cbn [vx vy]. ring.
  - apply (derivable_ext (cubic (vy c1) (vy c2) (vy p2))); [|apply cubic_slope]. intros s. unfold bernstein3, cubic, vadd, vscale, vzero. cbn [vx vy]. ring.
Qed.

(** Both differences, for both halves. *)
Lemma differences : forall c1 c2 p2 t W V, 1 <= W -> 2 * W <= huge ->
  Forall (fun z : f64 => is_finite z = true /\ Rabs (B2R z) <= W) [fx c1; fy c1; fx c2; fy c2; fx p2; fy p2] ->
  is_finite t = true -> 0 <= B2R t <= 1 -> velocity (rv c1) (rv c2) (rv p2) (B2R t) V ->
  exists d s, (1 / 6 <= s <= 1 / 3) /\
    nr 105 (2 * W) (s * vx V) (fx d) /\ nr 105 (2 * W) (s * vy V) (fy d) /\ Rabs (s * vx V) <= 2 * W /\ Rabs (s * vy V) <= 2 * W /\
    snd (fbezier_value c1 c2 p2 t) = fvunit (if flt (fvlength d) (lit 1 1000000000) then if flt t (lit 1 2) then c2 else fvsub p2 c1 else d) /\
    (flt t (lit 1 2) = true <-> B2R t < 1 / 2).
Proof.
  intros c1 c2 p2 t W V W1 WH B Ft Bt HV. rewrite !Forall_cons_iff in B. destruct B as ([F1 B1] & [F2 B2] & [F3 B3] & [F4 B4] & [F5 B5] & [F6 B6] & _).
  destruct (velocity_slope _ _ _ _ _ HV) as [VX VY]. unfold rv in VX, VY. cbn [vx vy] in VX, VY.
  destruct (slope_coord (fx c1) (fx c2) (fx p2) t W W1 WH F1 F3 F5 B1 B3 B5 Ft Bt) as [[X1 Y1] [X2 Y2]].
  destruct (slope_coord (fy c1) (fy c2) (fy p2) t W W1 WH F2 F4 F6 B2 B4 B6 Ft Bt) as [[X3 Y3] [X4 Y4]].
  rewrite <- VX in *. rewrite <- VY in *. destruct half_value as [FH EH].
  assert (TH : flt t (lit 1 2) = true <-> B2R t < 1 / 2) by (rewrite flt_spec by assumption; rewrite EH; split; lra).
  assert (R1 : forall v, (1 - B2R t) * (v / 3) = (1 - B2R t) / 3 * v) by (intros; field). assert (R2 : forall v, B2R t * (v / 3) = B2R t / 3 * v) by (intros; field).
  rewrite !R1 in *. rewrite !R2 in *.
  destruct (flt t (lit 1 2)) eqn:Z.
  - assert (B2R t < 1 / 2) by (apply TH; reflexivity). eexists (mk_fvec _ _), ((1 - B2R t) / 3). cbn [fx fy].
    split; [lra|]. split; [exact X1|]. split; [exact X3|]. split; [exact Y1|]. split; [exact Y3|]. split; [|exact TH].
    unfold fbezier_value. rewrite Z. reflexivity.
  - assert (1 / 2 <= B2R t) by (destruct (Rle_dec (1 / 2) (B2R t)) as [H|H]; [exact H|]; assert (false = true) by (apply TH; lra); discriminate).
    eexists (mk_fvec _ _), (B2R t / 3). cbn [fx fy].
    split; [lra|]. split; [exact X2|]. split; [exact X4|]. split; [exact Y2|]. split; [exact Y4|]. split; [|exact TH].
    unfold fbezier_value. rewrite Z. reflexivity.
Qed.

Lemma wide_is : wide = 2 ^ 400.
Proof. unfold wide. rewrite bpow_powerRZ. cbn [powerRZ]. replace (Pos.to_nat 400) with 400%nat by reflexivity. reflexivity. Qed.

(** Where the curve moves, the direction returned is that of its velocity. *)
Theorem C110_tangent : forall c1 c2 p2 t W V, 1 <= W <= 2 ^ 390 ->
  Forall (fun z : f64 => is_finite z = true /\ Rabs (B2R z) <= W) [fx c1; fy c1; fx c2; fy c2; fx p2; fy p2] ->
  is_finite t = true -> 0 <= B2R t <= 1 -> velocity (rv c1) (rv c2) (rv p2) (B2R t) V ->
  / 2 ^ 25 <= norm V -> W <= norm V * 2 ^ 35 ->
  within ((4000 * W / norm V + 6) / 2 ^ 53) (snd (fbezier_value c1 c2 p2 t)) (towards V).
Proof.
  intros c1 c2 p2 t W V [W1 W2] B Ft Bt HV HL HW.
  assert (W3 : 3 * W <= wide).
  { rewrite wide_is. apply Rle_trans with (2 ^ 2 * 2 ^ 390); [|rewrite <- pow_add; apply Rle_pow; [lra|lia]].
    apply Rmult_le_compat; [lra|lra|cbn [pow]; lra|exact W2]. }
  assert (WH : 2 * W <= huge) by (clear W2; pose proof wide_huge; assert (2 * W <= 16 * (wide * wide)) by nra; lra).
  clear W2. destruct (differences c1 c2 p2 t W V W1 WH B Ft Bt HV) as (d & s & S & X & Y & BX & BY & -> & _).
  destruct (direction_from d V s W W1 W3 (proj1 S) X Y BX BY HL HW) as [-> G].
  unfold Rdiv at 1. rewrite <- u53_is. exact G.
Qed.

(** Where it stands still, the direction is that of the second control point in the first half and
    that from the first control point to the end in the second: what is right at the two ends. *)
Theorem C110_still : forall c1 c2 p2 t W V, 1 <= W <= 10 ^ 4 ->
  Forall (fun z : f64 => is_finite z = true /\ Rabs (B2R z) <= W) [fx c1; fy c1; fx c2; fy c2; fx p2; fy p2] ->
  is_finite t = true -> 0 <= B2R t <= 1 -> velocity (rv c1) (rv c2) (rv p2) (B2R t) V -> norm V <= / 10 ^ 10 ->
  (B2R t < 1 / 2 -> / 2 ^ 25 <= norm (rv c2) -> within (6 / 2 ^ 53) (snd (fbezier_value c1 c2 p2 t)) (towards (rv c2))) /\
  (1 / 2 <= B2R t -> let D := mk_vec (vx (rv p2) - vx (rv c1)) (vy (rv p2) - vy (rv c1)) in / 2 ^ 25 <= norm D ->
     within ((12 * W / norm D + 6) / 2 ^ 53) (snd (fbezier_value c1 c2 p2 t)) (towards D)).
Proof.
  intros c1 c2 p2 t W V HW B Ft Bt HV HL. assert (W1 : 1 <= W) by lra.
  assert (W4 : W <= 10000) by (replace 10000 with (10 ^ 4) by (cbn [pow]; lra); lra).
  assert (WW : 3 * W <= wide).
  { rewrite wide_is. apply Rle_trans with (2 ^ 20); [cbn [pow]; lra|apply Rle_pow; [lra|lia]]. }
  assert (WH : 2 * W <= huge) by (pose proof wide_huge; assert (2 * W <= 16 * (wide * wide)) by nra; lra).
  destruct (differences c1 c2 p2 t W V W1 WH B Ft Bt HV) as (d & s & S & X & Y & BX & BY & -> & TH).
  rewrite (direction_lost d V s W HW ltac:(lra) X Y HL).
  rewrite !Forall_cons_iff in B. destruct B as ([F1 B1] & [F2 B2] & [F3 B3] & [F4 B4] & [F5 B5] & [F6 B6] & _).
  assert (P25 : / 2 ^ 25 = / 33554432) by (f_equal; cbn [pow]; lra).
  assert (P60 : / 2 ^ 60 <= / 33554432 / 2).
  { apply Rle_trans with (/ 2 ^ 26); [apply Rinv_le_contravar; [apply pow_lt; lra|apply Rle_pow; [lra|lia]]|]. apply Req_le. cbn [pow]. lra. }
  pose proof u53_pos as [U0 U1].
  split.
  - intros T C. rewrite (proj2 TH T). rewrite P25 in C. unfold Rdiv. rewrite <- u53_is. apply unit_near with W; auto; [lra|]. change (vlength (rv c2)) with (norm (rv c2)). lra.
  - intros T D C. assert (TF : flt t (lit 1 2) = false) by (destruct (flt t (lit 1 2)); [assert (B2R t < 1 / 2) by (apply TH; reflexivity); lra|reflexivity]). rewrite TF.
    rewrite P25 in C.
    assert (BD : Rabs (B2R (fx p2) - B2R (fx c1)) <= 2 * W /\ Rabs (B2R (fy p2) - B2R (fy c1)) <= 2 * W).
    { apply abs_between in B1. apply abs_between in B2. apply abs_between in B5. apply abs_between in B6. split; apply Rabs_le; lra. }
    assert (MM : 0 + 0 <= many) by (unfold many; lra).
    destruct (nr_sub (fx p2) (fx c1) _ _ 0 0 (2 * W) ltac:(lra) MM (proj1 BD) (nr_exact _ _ F5) (nr_exact _ _ F1)) as [G1 E1].
    destruct (nr_sub (fy p2) (fy c1) _ _ 0 0 (2 * W) ltac:(lra) MM (proj2 BD) (nr_exact _ _ F6) (nr_exact _ _ F2)) as [G2 E2].
    set (e := 4 * (u53 * W)). replace ((0 + 0 + 2) * (u53 * (2 * W))) with e in E1, E2 by (unfold e; ring).
    assert (EW : e <= / 1000000000) by (unfold e; rewrite u53_val; lra).
    change (fsub (fx p2) (fx c1)) with (fx (fvsub p2 c1)) in *. change (fsub (fy p2) (fy c1)) with (fy (fvsub p2 c1)) in *. set (q := fvsub p2 c1) in *.
    pose proof (length_diff (rv q) D e E1 E2) as LD. apply abs_between in LD. change (vlength D) with (norm D) in LD.
    assert (LQ : / 33554432 / 2 <= vlength (rv q)) by lra.
    assert (D1 : Rabs (B2R (fx q)) <= 3 * W).
    { replace (B2R (fx q)) with ((B2R (fx q) - (B2R (fx p2) - B2R (fx c1))) + (B2R (fx p2) - B2R (fx c1))) by ring. eapply Rle_trans; [apply Rabs_triang|]. destruct BD. lra. }
    assert (D2 : Rabs (B2R (fy q)) <= 3 * W).
    { replace (B2R (fy q)) with ((B2R (fy q) - (B2R (fy p2) - B2R (fy c1))) + (B2R (fy p2) - B2R (fy c1))) by ring. eapply Rle_trans; [apply Rabs_triang|]. destruct BD. lra. }
    destruct (unit_near q (3 * W) G1 G2 ltac:(lra) D1 D2 ltac:(lra)) as (H1 & H2 & E3 & E4).
    assert (LR : 0 < vlength (rv q)) by lra. assert (LDP : 0 < vlength D) by (change (vlength D) with (norm D); lra).
    destruct (unit_close (rv q) D e LR LDP E1 E2) as [C1 C2]. change (vlength D) with (norm D) in C1, C2. change (unit_vec D) with (towards D) in C1, C2.
    replace (3 * e / norm D) with (12 * W / norm D * u53) in C1, C2 by (unfold e; field; lra).
    unfold Rdiv at 1. rewrite <- u53_is, Rmult_plus_distr_r. split; [exact H1|]. split; [exact H2|]. split.
    + replace (B2R (fx (fvunit q)) - vx (towards D)) with ((B2R (fx (fvunit q)) - vx (unit_vec (rv q))) + (vx (unit_vec (rv q)) - vx (towards D))) by ring.
      eapply Rle_trans; [apply Rabs_triang|]. lra.
    + replace (B2R (fy (fvunit q)) - vy (towards D)) with ((B2R (fy (fvunit q)) - vy (unit_vec (rv q))) + (vy (unit_vec (rv q)) - vy (towards D))) by ring.
      eapply Rle_trans; [apply Rabs_triang|]. lra.
Qed.

(** At a cusp inside the curve it is wrong: here the velocity points up and to the right before 3/4
    and down and to the left after it, and at 3/4 the direction is up and to the left. *)
Theorem C110_cusp :
  let c1 := mk_fvec (f_of_Z 9) fzero in let c2 := mk_fvec (f_of_Z 9) (f_of_Z 3) in let p2 := mk_fvec (f_of_Z 8) fone in
  (forall s V, velocity (rv c1) (rv c2) (rv p2) s V -> (0 < s < 3 / 4 -> 0 < vx V /\ 0 < vy V) /\ (3 / 4 < s <= 1 -> vx V < 0 /\ vy V < 0)) /\
  let d := snd (fbezier_value c1 c2 p2 (lit 3 4)) in
  is_finite (fx d) = true /\ is_finite (fy d) = true /\ B2R (fx d) < - (7 / 10) /\ 7 / 10 < B2R (fy d).
Proof.
  intros c1 c2 p2. split.
  - intros s V HV. apply velocity_slope in HV. destruct HV as [X Y]. unfold c1, c2, p2, rv, slope in X, Y. cbn [vx vy fx fy] in X, Y.
    rewrite (proj2 (f_of_Z_exact 9 ltac:(lia))), (proj2 (f_of_Z_exact 8 ltac:(lia))) in X. rewrite (proj2 (f_of_Z_exact 3 ltac:(lia))) in Y. rewrite (proj2 one_value), (proj2 zero_value) in Y.
    replace (vx V) with (3 * ((3 - 4 * s) * (3 - 2 * s))) by (rewrite X; ring). replace (vy V) with (6 * (s * (3 - 4 * s))) by (rewrite Y; ring).
    split; intros H; split.
    + apply Rmult_lt_0_compat; [lra|]. apply Rmult_lt_0_compat; lra.
    + apply Rmult_lt_0_compat; [lra|]. apply Rmult_lt_0_compat; lra.
    + assert (0 < (4 * s - 3) * (3 - 2 * s)) by (apply Rmult_lt_0_compat; lra). lra.
    + assert (0 < s * (4 * s - 3)) by (apply Rmult_lt_0_compat; lra). lra.
  - intros d.
    assert (E1 : B2SF (fx d) = SpecFloat.S754_finite true 6369051672525772 (-53)) by (vm_compute; reflexivity).
    assert (E2 : B2SF (fy d) = SpecFloat.S754_finite false 6369051672525772 (-53)) by (vm_compute; reflexivity).
    assert (G1 : is_finite (fx d) = true) by (destruct (fx d); cbn in E1; try discriminate E1; reflexivity).
    assert (G2 : is_finite (fy d) = true) by (destruct (fy d); cbn in E2; try discriminate E2; reflexivity).
    split; [exact G1|]. split; [exact G2|]. rewrite <- !SF2R_B2SF, E1, E2. unfold SF2R, F2R. cbn [SpecFloat.cond_Zopp Fnum Fexp bpow Z.pow_pos Pos.iter radix_val radix2 Z.mul Pos.mul Z.opp]. lra.
Qed.

(** A curve meeting the hypotheses of the first two: the quarter of a parabola and its degenerate start. *)
Example C110_example :
  let c1 := fvzero in let c2 := mk_fvec (f_of_Z 3) (f_of_Z 4) in let p2 := mk_fvec (f_of_Z 9) (f_of_Z 12) in
  velocity (rv c1) (rv c2) (rv p2) 0 (mk_vec 0 0) /\ within (6 / 2 ^ 53) (snd (fbezier_value c1 c2 p2 fzero)) (mk_vec (3 / 5) (4 / 5)) /\
  velocity (rv c1) (rv c2) (rv p2) 1 (mk_vec 18 24) /\ within (1606 / 2 ^ 53) (snd (fbezier_value c1 c2 p2 fone)) (mk_vec (3 / 5) (4 / 5)).
Proof.
  intros c1 c2 p2. destruct one_value as [F1 V1]. destruct zero_value as [F0 V0].
  assert (VC : rv c1 = mk_vec 0 0 /\ rv c2 = mk_vec 3 4 /\ rv p2 = mk_vec 9 12).
  { unfold c1, c2, p2, fvzero, rv. cbn [fx fy]. rewrite !(fun z H => proj2 (f_of_Z_exact z H)), V0 by lia. auto. }
  destruct VC as (E1 & E2 & E3).
  assert (S0 : velocity (rv c1) (rv c2) (rv p2) 0 (mk_vec 0 0)).
  { replace (mk_vec 0 0) with (mk_vec (slope (vx (rv c1)) (vx (rv c2)) (vx (rv p2)) 0) (slope (vy (rv c1)) (vy (rv c2)) (vy (rv p2)) 0)) at 1; [apply slope_velocity|].
    rewrite E1, E2, E3. unfold slope. cbn [vx vy]. f_equal; ring. }
  assert (S1 : velocity (rv c1) (rv c2) (rv p2) 1 (mk_vec 18 24)).
  { replace (mk_vec 18 24) with (mk_vec (slope (vx (rv c1)) (vx (rv c2)) (vx (rv p2)) 1) (slope (vy (rv c1)) (vy (rv c2)) (vy (rv p2)) 1)) at 1; [apply slope_velocity|].
    rewrite E1, E2, E3. unfold slope. cbn [vx vy]. f_equal; ring. }
  assert (B : Forall (fun z : f64 => is_finite z = true /\ Rabs (B2R z) <= 12) [fx c1; fy c1; fx c2; fy c2; fx p2; fy p2]).
  { assert (X : forall z, (0 <= z <= 12)%Z -> is_finite (f_of_Z z) = true /\ Rabs (B2R (f_of_Z z)) <= 12).
    { intros z Hz. destruct (f_of_Z_exact z ltac:(lia)) as [F E]. split; [exact F|]. rewrite E, <- abs_IZR, Z.abs_eq by lia. apply IZR_le. lia. }
    assert (Z0 : is_finite fzero = true /\ Rabs (B2R fzero) <= 12) by (split; [exact F0|rewrite V0, Rabs_R0; lra]).
    unfold c1, c2, p2, fvzero. cbn [fx fy]. repeat (apply Forall_cons; [first [exact Z0|apply X; lia]|]). constructor. }
  assert (N5 : norm (mk_vec 3 4) = 5) by (unfold norm; cbn [vx vy]; replace (3 * 3 + 4 * 4) with (5 * 5) by ring; apply sqrt_square; lra).
  assert (N30 : norm (mk_vec 18 24) = 30) by (unfold norm; cbn [vx vy]; replace (18 * 18 + 24 * 24) with (30 * 30) by ring; apply sqrt_square; lra).
  assert (N0 : norm (mk_vec 0 0) = 0) by (unfold norm; cbn [vx vy]; replace (0 * 0 + 0 * 0) with 0 by ring; apply sqrt_0).
  assert (P25 : / 2 ^ 25 <= 1) by (replace 1 with (/ 1) by lra; apply Rinv_le_contravar; [lra|apply pow_R1_Rle; lra]).
  split; [exact S0|]. split; [|split; [exact S1|]].
  - destruct (C110_still c1 c2 p2 fzero 12 (mk_vec 0 0)) as [G _]; [split; [lra|cbn [pow]; lra]|exact B|exact F0|rewrite V0; lra|rewrite V0; exact S0|rewrite N0; apply Rlt_le, Rinv_0_lt_compat, pow_lt; lra|].
    rewrite V0 in G. specialize (G ltac:(lra)). rewrite E2, N5 in G. specialize (G ltac:(lra)).
    unfold towards in G. rewrite N5 in G. cbn [vx vy] in G. exact G.
  - assert (G : within ((4000 * 12 / norm (mk_vec 18 24) + 6) / 2 ^ 53) (snd (fbezier_value c1 c2 p2 fone)) (towards (mk_vec 18 24))).
    { apply C110_tangent; [split; [lra|]|exact B|exact F1|rewrite V1; lra|rewrite V1; exact S1|rewrite N30; lra|rewrite N30].
      - apply Rle_trans with (2 ^ 4); [cbn [pow]; lra|apply Rle_pow; [lra|lia]].
      - cbn [pow]. lra. }
    rewrite N30 in G. unfold towards in G. rewrite N30 in G. cbn [vx vy] in G.
    replace (4000 * 12 / 30 + 6) with 1606 in G by field. replace (18 / 30) with (3 / 5) in G by field. replace (24 / 30) with (4 / 5) in G by field. exact G.
Qed.

Print Assumptions C110_tangent.
Print Assumptions C110_still.
Print Assumptions C110_cusp.
Print Assumptions C110_example.
