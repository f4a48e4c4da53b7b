(** Arcs of a path in binary64 (FloatPath.v): circles under a transform that only scales and
    mirrors, and the rounding of their radius and end points. *)
From Coq Require Import Reals Lra ZArith Lia Bool Psatz.
From Flocq Require Import Core BinarySingleNaN.
From Verif Require Import Base Floats FloatProofs FloatScale FloatErr FloatCurve ApproxCurve DrawCurves FloatPath FloatAngles.
Open Scope R_scope.

(** ** Zeros *)

Definition iszero (x : f64) : Prop := exists s, x = B754_zero s.
Definition proper (x : f64) : Prop := is_finite x = true /\ B2R x <> 0.

Lemma iszero_of : forall x : f64, is_finite x = true -> B2R x = 0 -> iszero x.
Proof.
  intros [s|s| |s m e B] F E; try discriminate; [exists s; reflexivity|]. exfalso. cbn [B2R] in E.
  apply eq_0_F2R in E. destruct s; discriminate.
Qed.
Lemma zero_facts : forall x, iszero x -> is_finite x = true /\ B2R x = 0.
Proof. intros x [s ->]. auto. Qed.
Lemma z_mul_r : forall x z, is_finite x = true -> iszero z -> iszero (fmul x z).
Proof. intros x z F [s ->]. destruct x; try discriminate; eexists; reflexivity. Qed.
Lemma z_mul_l : forall x z, is_finite x = true -> iszero z -> iszero (fmul z x).
Proof. intros x z F [s ->]. destruct x; try discriminate; eexists; reflexivity. Qed.
Lemma z_div : forall x z, proper x -> iszero z -> iszero (fdiv z x).
Proof. intros x z [F N] [s ->]. destruct x; try discriminate; [contradiction N; reflexivity|]. eexists; reflexivity. Qed.
Lemma z_neg : forall z, iszero z -> iszero (fneg z).
Proof. intros z [s ->]. eexists; reflexivity. Qed.
Lemma z_add : forall x z, iszero x -> iszero z -> iszero (fadd x z).
Proof. intros x z [s ->] [t ->]. destruct s, t; eexists; reflexivity. Qed.
Lemma z_sub : forall x z, iszero x -> iszero z -> iszero (fsub x z).
Proof. intros x z [s ->] [t ->]. destruct s, t; eexists; reflexivity. Qed.
Lemma add_z : forall x z, proper x -> iszero z -> fadd x z = x.
Proof. intros x z [F N] [s ->]. destruct x; try discriminate; [contradiction N; reflexivity|reflexivity]. Qed.
Lemma add_z_l : forall x z, proper x -> iszero z -> fadd z x = x.
Proof. intros x z [F N] [s ->]. destruct x; try discriminate; [contradiction N; reflexivity|reflexivity]. Qed.
Lemma sub_z : forall x z, proper x -> iszero z -> fsub x z = x.
Proof. intros x z [F N] [s ->]. destruct x; try discriminate; [contradiction N; reflexivity|reflexivity]. Qed.
Lemma sub_self : forall x, is_finite x = true -> fsub x x = B754_zero false.
Proof.
  intros x F. pose proof (Bminus_correct 53 1024 prec_ok emax_ok mode_NE x x F F) as C. cbn [round_mode] in C.
  rewrite Rminus_diag_eq, round_0 in C by (try reflexivity; apply valid_rnd_N). rewrite Rabs_R0 in C.
  rewrite Rlt_bool_true in C by apply bpow_gt_0. destruct C as (E & Fi & S). rewrite Rcompare_Eq in S by reflexivity.
  destruct (iszero_of _ Fi E) as [s Es]. unfold fsub. rewrite Es in *. cbn [Bsign] in S. rewrite S. destruct (Bsign x); reflexivity.
Qed.

(** The functions at zero, as IEEE 754 prescribes. *)
Definition zero_exact (g : trig) : Prop := forall x, feq x fzero = true ->
  f_sin g x = x /\ f_cos g x = fone /\ forall y, is_finite y = true -> Bsign y = false -> f_atan2 g x y = x.

Lemma z_feq : forall x, iszero x -> feq x fzero = true.
Proof. intros x [[|] ->]; reflexivity. Qed.
Lemma feq_z : forall x, feq x fzero = true -> iszero x.
Proof. intros [s|s| |s m e B] H; [exists s; reflexivity|..]; exfalso; [destruct s| |destruct s]; discriminate. Qed.

Lemma one_proper : proper fone.
Proof. destruct one_value as [F E]. split; [exact F|]. rewrite E. lra. Qed.
Lemma proper_eq : forall x y, proper x -> proper y -> B2R x = B2R y -> x = y.
Proof.
  intros x y [Fx Nx] [Fy Ny] E. apply B2R_inj; [| |exact E].
  - destruct x; try discriminate; [contradiction Nx; reflexivity|reflexivity].
  - destruct y; try discriminate; [contradiction Ny; reflexivity|reflexivity].
Qed.
Lemma mul_one : forall x, proper x -> fmul x fone = x.
Proof.
  intros x [F N]. pose proof (Bmult_correct 53 1024 prec_ok emax_ok mode_NE x fone) as C. cbn [round_mode] in C.
  destruct one_value as [F1 E1]. rewrite E1, Rmult_1_r in C.
  rewrite round_generic in C by (try apply valid_rnd_N; apply generic_format_B2R).
  rewrite Rlt_bool_true in C by (apply abs_B2R_lt_emax). destruct C as (E & Fi & _).
  apply proper_eq; [split|split|]; unfold fmul; try assumption; rewrite ?Fi, ?E, ?F, ?F1; auto.
Qed.

(** ** Relative errors *)

Definition w53 : R := 1.01 * u53.
Lemma w53_pos : 0 < w53 < / 1000.
Proof. unfold w53. rewrite u53_val. lra. Qed.

Definition rp (n : nat) (x y : R) : Prop := exists g, / (1 + w53) ^ n <= g <= (1 + w53) ^ n /\ y = x * g.

Lemma pow_w : forall n, 1 <= (1 + w53) ^ n.
Proof. intros n. apply pow_R1_Rle. pose proof w53_pos. lra. Qed.
Lemma rp_exact : forall x, rp 0 x x.
Proof. intros x. exists 1. cbn [pow]. lra. Qed.
Lemma rp_le : forall n m x y, (n <= m)%nat -> rp n x y -> rp m x y.
Proof.
  intros n m x y L (g & G & E). exists g. split; [|exact E].
  assert (P : (1 + w53) ^ n <= (1 + w53) ^ m) by (apply Rle_pow; [pose proof w53_pos; lra|exact L]).
  pose proof (pow_w n). assert (/ (1 + w53) ^ m <= / (1 + w53) ^ n) by (apply Rinv_le_contravar; lra). lra.
Qed.
Lemma rp_mul : forall n m x y a b, rp n x y -> rp m a b -> rp (n + m) (x * a) (y * b).
Proof.
  intros n m x y a b (g & G & ->) (h & H & ->). exists (g * h). rewrite pow_add. pose proof (pow_w n). pose proof (pow_w m).
  assert (0 < / (1 + w53) ^ n) by (apply Rinv_0_lt_compat; lra). assert (0 < / (1 + w53) ^ m) by (apply Rinv_0_lt_compat; lra).
  split; [|ring]. rewrite Rinv_mult. split; apply Rmult_le_compat; lra.
Qed.
Lemma rp_inv : forall n x y, x <> 0 -> rp n x y -> rp n (/ x) (/ y).
Proof.
  intros n x y N (g & G & ->). pose proof (pow_w n). assert (0 < / (1 + w53) ^ n) by (apply Rinv_0_lt_compat; lra).
  exists (/ g). rewrite Rinv_mult. split; [|reflexivity]. split; [apply Rinv_le_contravar; lra|].
  rewrite <- (Rinv_inv ((1 + w53) ^ n)). apply Rinv_le_contravar; lra.
Qed.
Lemma rp_sqrt : forall n x y, 0 <= x -> rp n x y -> rp n (sqrt x) (sqrt y).
Proof.
  intros n x y N (g & G & ->). pose proof (pow_w n) as P. assert (0 < / (1 + w53) ^ n) by (apply Rinv_0_lt_compat; lra).
  assert (I1 : / (1 + w53) ^ n <= / 1) by (apply Rinv_le_contravar; lra). rewrite Rinv_1 in I1.
  exists (sqrt g). rewrite sqrt_mult by lra. split; [|reflexivity]. split.
  - apply Rsqr_incr_0; [|lra|apply sqrt_pos]. rewrite Rsqr_sqrt by lra. unfold Rsqr. nra.
  - apply Rsqr_incr_0; [|apply sqrt_pos|lra]. rewrite Rsqr_sqrt by lra. unfold Rsqr. nra.
Qed.
Lemma rp_abs : forall n x y, rp n x y -> rp n (Rabs x) (Rabs y).
Proof.
  intros n x y (g & G & ->). exists g. split; [exact G|]. rewrite Rabs_mult. f_equal. apply Rabs_pos_eq.
  pose proof (pow_w n). assert (0 < / (1 + w53) ^ n) by (apply Rinv_0_lt_compat; lra). lra.
Qed.

Definition rng (a : Z) (x : R) : Prop := bpow radix2 (- a) <= Rabs x <= bpow radix2 a.
Lemma rng_mul : forall a b x y, rng a x -> rng b y -> rng (a + b) (x * y).
Proof.
  intros a b x y [A B] [C D]. unfold rng. rewrite Rabs_mult, Z.opp_add_distr, !bpow_plus.
  pose proof (bpow_gt_0 radix2 (- a)). pose proof (bpow_gt_0 radix2 (- b)). split; apply Rmult_le_compat; lra.
Qed.
Lemma rng_inv : forall a x, rng a x -> rng a (/ x).
Proof.
  intros a x [A B]. pose proof (bpow_gt_0 radix2 (- a)). assert (N : x <> 0) by (intros ->; rewrite Rabs_R0 in A; lra).
  unfold rng. rewrite Rabs_inv. split.
  - rewrite bpow_opp. apply Rinv_le_contravar; lra.
  - replace (bpow radix2 a) with (/ bpow radix2 (- a)) by (rewrite <- bpow_opp, Z.opp_involutive; reflexivity). apply Rinv_le_contravar; lra.
Qed.
Lemma rng_le : forall a b x, (a <= b)%Z -> rng a x -> rng b x.
Proof.
  intros a b x L [A B]. split; [eapply Rle_trans; [|exact A]|eapply Rle_trans; [exact B|]]; apply bpow_le; lia.
Qed.
Lemma rng_nz : forall a x, rng a x -> x <> 0.
Proof. intros a x [A _] ->. rewrite Rabs_R0 in A. pose proof (bpow_gt_0 radix2 (- a)). lra. Qed.

Lemma rp_two : forall n, (n <= 40)%nat -> (1 + w53) ^ n <= 2.
Proof.
  intros n L. apply Rle_trans with ((1 + w53) ^ 40); [apply Rle_pow; [pose proof w53_pos; lra|exact L]|].
  apply Rle_trans with (exp (40 * w53)).
  - assert (E : 1 + w53 <= exp w53) by (left; apply exp_ineq1; pose proof w53_pos; lra).
    apply Rle_trans with (exp w53 ^ 40); [apply pow_incr; pose proof w53_pos; lra|]. right.
    rewrite <- Rpower_pow by apply exp_pos. unfold Rpower. rewrite ln_exp. f_equal. cbn [INR]. lra.
  - replace 2 with (exp (ln 2)) by (apply exp_ln; lra). left. apply exp_increasing. pose proof w53_pos. pose proof ln_lt_2. lra.
Qed.

(** A value of known size stays in range. *)
Lemma rng_rp : forall a n x y, (n <= 40)%nat -> rng a x -> rp n x y -> rng (a + 1) y.
Proof.
  intros a n x y L [A B] (g & G & ->). pose proof (rp_two n L). pose proof (pow_w n). pose proof (bpow_gt_0 radix2 (- a)).
  assert (/ 2 <= / (1 + w53) ^ n) by (apply Rinv_le_contravar; lra).
  unfold rng. rewrite Rabs_mult, (Rabs_pos_eq g) by lra. rewrite Z.opp_add_distr, !bpow_plus.
  change (bpow radix2 (- (1))) with (/ 2). change (bpow radix2 1) with 2. split; apply Rmult_le_compat; lra.
Qed.

Lemma near_rp : forall x y, bpow radix2 (-900) <= Rabs x -> near x y -> rp 1 x y.
Proof.
  intros x y B (e & h & Ee & Eh & ->). pose proof (bpow_gt_0 radix2 (-900)) as P.
  assert (N : x <> 0) by (intros ->; rewrite Rabs_R0 in B; lra). pose proof w53_pos as W.
  assert (H : Rabs (h / x) <= / 1000 * u53).
  { unfold Rdiv. rewrite Rabs_mult, Rabs_inv. apply Rle_trans with (tiny * / bpow radix2 (-900)).
    - apply Rmult_le_compat; [apply Rabs_pos|left; apply Rinv_0_lt_compat; lra|exact Eh|apply Rinv_le_contravar; lra].
    - rewrite <- bpow_opp. unfold tiny. rewrite <- bpow_plus. apply Rle_trans with (bpow radix2 (-63)); [apply bpow_le; lia|].
      change (-63)%Z with (-10 + -53)%Z. rewrite bpow_plus. fold u53. apply Rmult_le_compat_r; [pose proof u53_pos; lra|].
      change (bpow radix2 (-10)) with (/ 1024). lra. }
  exists (1 + e + h / x). split; [|field; exact N]. cbn [pow]. rewrite Rmult_1_r.
  apply Rabs_le_inv in Ee. apply Rabs_le_inv in H. pose proof u53_pos as [U0 U1].
  assert (0 < / (1 + w53)) by (apply Rinv_0_lt_compat; lra).
  assert (I : / (1 + w53) <= 1 - 1.001 * u53).
  { apply Rmult_le_reg_r with (1 + w53); [lra|]. rewrite Rinv_l by lra. unfold w53 in *. nra. }
  unfold w53 in *. lra.
Qed.

Lemma rng_900 : forall a x, (a <= 900)%Z -> rng a x -> bpow radix2 (-900) <= Rabs x /\ Rabs x <= bpow radix2 1000.
Proof.
  intros a x L [A B]. split; [eapply Rle_trans; [|exact A]|eapply Rle_trans; [exact B|]]; apply bpow_le; lia.
Qed.

Lemma fmul_rp : forall x y X Y n m a b, is_finite x = true -> is_finite y = true -> rp n X (B2R x) -> rp m Y (B2R y) -> rng a X -> rng b Y ->
  (a + b <= 800)%Z -> (n <= 40)%nat -> (m <= 40)%nat ->
  is_finite (fmul x y) = true /\ B2R (fmul x y) = rne (B2R x * B2R y) /\ rp (n + m + 1) (X * Y) (B2R (fmul x y)).
Proof.
  intros x y X Y n m a b Fx Fy RX RY GX GY L N M.
  pose proof (rng_mul _ _ _ _ (rng_rp _ _ _ _ N GX RX) (rng_rp _ _ _ _ M GY RY)) as G.
  destruct (rng_900 (a + 1 + (b + 1)) _ ltac:(lia) G) as [G1 G2]. destruct (fmul_near x y Fx Fy G2) as [F E]. split; [exact F|]. split; [apply fmul_val; assumption|].
  replace (X * Y) with (X * Y * 1) by ring. destruct (near_rp _ _ G1 E) as (g & Gg & Eg). rewrite Eg.
  replace (B2R x * B2R y * g) with ((B2R x * B2R y) * (1 * g)) by ring.
  apply rp_mul; [apply rp_mul; assumption|]. exists g. split; [exact Gg|reflexivity].
Qed.
Lemma fdiv_rp : forall x y X Y n m a b, is_finite x = true -> is_finite y = true -> rp n X (B2R x) -> rp m Y (B2R y) -> rng a X -> rng b Y ->
  (a + b <= 800)%Z -> (n <= 40)%nat -> (m <= 40)%nat ->
  is_finite (fdiv x y) = true /\ B2R (fdiv x y) = rne (B2R x / B2R y) /\ rp (n + m + 1) (X / Y) (B2R (fdiv x y)).
Proof.
  intros x y X Y n m a b Fx Fy RX RY GX GY L N M.
  pose proof (rng_rp _ _ _ _ M GY RY) as GY'.
  pose proof (rng_mul _ _ _ _ (rng_rp _ _ _ _ N GX RX) (rng_inv _ _ GY')) as G.
  destruct (rng_900 (a + 1 + (b + 1)) _ ltac:(lia) G) as [G1 G2]. destruct (fdiv_near x y Fx Fy (rng_nz _ _ GY') G2) as [F E]. split; [exact F|]. split; [apply fdiv_val; [assumption|exact (rng_nz _ _ GY')|exact G2]|].
  replace (X / Y) with (X * / Y * 1) by (unfold Rdiv; ring). destruct (near_rp _ _ G1 E) as (g & Gg & Eg). rewrite Eg.
  replace (B2R x * / B2R y * g) with ((B2R x * / B2R y) * (1 * g)) by ring.
  apply rp_mul; [apply rp_mul; [assumption|apply rp_inv; [exact (rng_nz _ _ GY)|assumption]]|]. exists g. split; [exact Gg|reflexivity].
Qed.

(** ** A circle under a transform that scales both axes alike, mirrored or not *)

Lemma half_z : forall z, iszero z -> iszero (fdiv z (f_of_Z 2)).
Proof.
  intros z Z. apply z_div; [|exact Z]. destruct (f_of_Z_exact 2 ltac:(lia)) as [F E]. split; [exact F|]. rewrite E. lra.
Qed.
Lemma two_finite : is_finite (f_of_Z 2) = true.
Proof. apply f_of_Z_exact. lia. Qed.

Section Upright.
Variables (g : trig) (r rot m0 m1 m2 m3 : f64) (a b : Z).
Hypothesis ZE : zero_exact g.
Hypothesis RZ : iszero rot.
Hypothesis FR : is_finite r = true.
Hypothesis GR : rng a (B2R r).
Hypothesis F0 : is_finite m0 = true.
Hypothesis F3 : is_finite m3 = true.
Hypothesis G0 : rng b (B2R m0).
Hypothesis SAME : Rabs (B2R m3) = Rabs (B2R m0).
Hypothesis Z1 : iszero m1.
Hypothesis Z2 : iszero m2.
Hypothesis SMALL : (0 <= a /\ 0 <= b /\ a + b <= 250)%Z.

Let r2 := fmul r r.
Let A := fdiv fone r2.
Let d := fmul m0 m3.
Let i0 := fdiv m3 d.
Let i3 := fdiv m0 d.

Lemma up_3 : rng b (B2R m3).
Proof. unfold rng. rewrite SAME. exact G0. Qed.
Lemma rp_proper : forall n c X x, is_finite x = true -> rng c X -> (n <= 40)%nat -> rp n X (B2R x) -> proper x.
Proof. intros n c X x F G L P. split; [exact F|]. exact (rng_nz _ _ (rng_rp _ _ _ _ L G P)). Qed.

Lemma up_r2 : is_finite r2 = true /\ B2R r2 = rne (B2R r * B2R r) /\ rp 1 (B2R r * B2R r) (B2R r2).
Proof. exact (fmul_rp r r _ _ 0 0 a a FR FR (rp_exact _) (rp_exact _) GR GR ltac:(clear - SMALL; lia) ltac:(clear - SMALL; lia) ltac:(clear - SMALL; lia)). Qed.
Lemma up_rr : rng (a + a) (B2R r * B2R r).
Proof. apply rng_mul; exact GR. Qed.
Lemma rng_one : rng 0 1.
Proof. unfold rng. rewrite Rabs_R1. cbn [Z.opp bpow]. lra. Qed.
Lemma rng_div : forall c e x y, rng c x -> rng e y -> rng (c + e) (x / y).
Proof. intros. apply rng_mul; [assumption|apply rng_inv; assumption]. Qed.
Lemma up_A : is_finite A = true /\ B2R A = rne (1 / B2R r2) /\ rp 2 (1 / (B2R r * B2R r)) (B2R A).
Proof.
  destruct up_r2 as (F & _ & P). destruct one_value as [F1 E1]. rewrite <- E1 at 1.
  exact (fdiv_rp fone r2 1 _ 0 1 0 (a + a) F1 F ltac:(rewrite E1; apply rp_exact) P rng_one up_rr ltac:(clear - SMALL; lia) ltac:(clear - SMALL; lia) ltac:(clear - SMALL; lia)).
Qed.
Lemma up_d : is_finite d = true /\ B2R d = rne (B2R m0 * B2R m3) /\ rp 1 (B2R m0 * B2R m3) (B2R d).
Proof. exact (fmul_rp m0 m3 _ _ 0 0 b b F0 F3 (rp_exact _) (rp_exact _) G0 up_3 ltac:(clear - SMALL; lia) ltac:(clear - SMALL; lia) ltac:(clear - SMALL; lia)). Qed.
Lemma up_dd : rng (b + b) (B2R m0 * B2R m3).
Proof. apply rng_mul; [exact G0|exact up_3]. Qed.

(** One row of the form: the entry [m] of the matrix over the determinant, twice. *)
Lemma up_row : forall m, is_finite m = true -> Rabs (B2R m) = Rabs (B2R m0) ->
  let i := fdiv m d in let q := fmul (fmul i A) i in
  is_finite i = true /\ proper i /\ proper (fmul i A) /\ proper q /\ is_finite q = true /\
  B2R q = rne (rne (rne (B2R m / B2R d) * B2R A) * rne (B2R m / B2R d)) /\
  rp 8 (/ ((B2R m0 * B2R r) * (B2R m0 * B2R r))) (B2R q) /\ rng (2 * a + 2 * b) (/ ((B2R m0 * B2R r) * (B2R m0 * B2R r))).
Proof.
  intros m F E i q. assert (GM : rng b (B2R m)) by (unfold rng; rewrite E; exact G0).
  destruct up_d as (Fd & _ & Pd). pose proof (rng_nz _ _ GR) as NR. pose proof (rng_nz _ _ G0) as N0. pose proof (rng_nz _ _ up_3) as N3.
  set (M := B2R m / (B2R m0 * B2R m3)).
  assert (MM : M * M = / (B2R m0 * B2R m0)).
  { unfold M. assert (S1 : B2R m * B2R m = B2R m0 * B2R m0) by (apply (Rsqr_eq_asb_1 _ _ E)).
    assert (S3 : B2R m3 * B2R m3 = B2R m0 * B2R m0) by (apply (Rsqr_eq_asb_1 _ _ SAME)).
    transitivity ((B2R m * B2R m) / ((B2R m0 * B2R m0) * (B2R m3 * B2R m3))); [field; auto|]. rewrite S1, S3. field; auto. }
  assert (GI : rng b M).
  { assert (AM : Rabs M = Rabs (/ B2R m0)).
    { apply Rsqr_eq_abs_0. unfold Rsqr. rewrite MM. field. auto. }
    unfold rng. rewrite AM. apply rng_inv. exact G0. }
  destruct (fdiv_rp m d (B2R m) _ 0 1 b (b + b) F Fd (rp_exact _) Pd GM up_dd ltac:(clear - SMALL; lia) ltac:(clear - SMALL; lia) ltac:(clear - SMALL; lia)) as (Fi & Vi & Pi). fold i M in Fi, Vi, Pi.
  destruct up_A as (FA & _ & PA). pose proof (rng_div _ _ _ _ rng_one up_rr) as GA.
  destruct (fmul_rp i A M _ 2 2 b (0 + (a + a)) Fi FA Pi PA GI GA ltac:(clear - SMALL; lia) ltac:(clear - SMALL; lia) ltac:(clear - SMALL; lia)) as (Fp & Vp & Pp).
  pose proof (rng_mul _ _ _ _ GI GA) as Gp.
  destruct (fmul_rp (fmul i A) i _ M 5 2 (b + (0 + (a + a))) b Fp Fi Pp Pi Gp GI ltac:(clear - SMALL; lia) ltac:(clear - SMALL; lia) ltac:(clear - SMALL; lia)) as (Fq & Vq & Pq). fold q in Fq, Vq, Pq.
  pose proof (rng_mul _ _ _ _ Gp GI) as Gq.
  assert (EQ : M * (1 / (B2R r * B2R r)) * M = / ((B2R m0 * B2R r) * (B2R m0 * B2R r))).
  { transitivity (M * M * (1 / (B2R r * B2R r))); [ring|]. rewrite MM. field. auto. }
  rewrite EQ in Pq, Gq. replace (b + (0 + (a + a)) + b)%Z with (2 * a + 2 * b)%Z in Gq by ring.
  split; [exact Fi|]. split; [exact (rp_proper 2 b M i Fi GI ltac:(clear - SMALL; lia) Pi)|]. split; [exact (rp_proper 5 _ _ _ Fp Gp ltac:(clear - SMALL; lia) Pp)|]. split; [exact (rp_proper 8 _ _ _ Fq Gq ltac:(clear - SMALL; lia) Pq)|].
  split; [exact Fq|]. split; [rewrite Vq, Vp, Vi; reflexivity|]. auto.
Qed.

Lemma up_same : let q0 := fmul (fmul i0 A) i0 in let q3 := fmul (fmul i3 A) i3 in q3 = q0.
Proof.
  intros q0 q3. destruct (up_row m3 F3 SAME) as (_ & _ & _ & P0 & _ & V0 & _). destruct (up_row m0 F0 eq_refl) as (_ & _ & _ & P3 & _ & V3 & _).
  fold i0 q0 in P0, V0. fold i3 q3 in P3, V3. apply proper_eq; [exact P3|exact P0|]. rewrite V0, V3.
  destruct (Rabs_eq_Rabs _ _ SAME) as [E|E]; rewrite E; [reflexivity|].
  replace (- B2R m0 / B2R d) with (- (B2R m0 / B2R d)) by (unfold Rdiv; ring). rewrite round_NE_opp, <- Ropp_mult_distr_l, round_NE_opp.
  f_equal. ring.
Qed.

(** What the code makes of the circle: the same circle radius on both axes. *)
Theorem up_ellipse : exists rho z, ftransform_ellipse g r r rot (mk_fmat m0 m2 m1 m3) = Ok (rho, rho, z) /\ iszero z /\
  is_finite rho = true /\ rp 11 (Rabs (B2R m0) * Rabs (B2R r)) (B2R rho) /\ rho = fsqrt (fdiv fone (fmul (fmul i0 A) i0)).
Proof.
  destruct (ZE rot (z_feq _ RZ)) as (SR & CR & _). unfold ftransform_ellipse, fellipse_form. rewrite SR, CR.
  replace (fmul fone fone) with fone by (apply B2SF_inj; vm_compute; reflexivity). fold r2.
  destruct up_r2 as (Fr2 & _ & Pr2). pose proof (rp_proper 1 _ _ _ Fr2 up_rr ltac:(clear - SMALL; lia) Pr2) as Qr2.
  destruct up_A as (FA & _ & PA). pose proof (rp_proper 2 _ _ _ FA (rng_div _ _ _ _ rng_one up_rr) ltac:(clear - SMALL; lia) PA) as QA. fold A.
  assert (ZZ : iszero (fmul rot rot)) by (apply z_mul_r; [apply zero_facts, RZ|exact RZ]).
  rewrite (add_z A) by (first [exact QA | apply z_div; assumption]). rewrite (add_z_l A) by (first [exact QA | apply z_div; assumption]).
  rewrite sub_self by exact FA. set (C := fmul (fmul (B754_zero false) rot) fone).
  assert (ZC : iszero C). { apply z_mul_l; [apply one_value|]. apply z_mul_l; [apply zero_facts, RZ|exists false; reflexivity]. }
  clearbody C. unfold finvert2x2. cbn [fe0 fe1 fe2 fe3]. fold d. destruct up_d as (Fd & _ & Pd).
  pose proof (rp_proper 1 _ _ _ Fd up_dd ltac:(clear - SMALL; lia) Pd) as Qd.
  rewrite sub_z by (first [exact Qd | apply z_mul_r; [apply zero_facts; assumption|assumption]]).
  destruct (feq d fzero) eqn:D0. { exfalso. apply feq_z in D0. destruct Qd as [_ N]. apply N. apply zero_facts. exact D0. }
  cbn [unwrap bind]. unfold ftranspose2x2, fmul2x2. cbn [fe0 fe1 fe2 fe3]. fold i0 i3.
  set (j1 := fdiv (fneg m2) d). set (j2 := fdiv (fneg m1) d).
  assert (J1 : iszero j1) by (apply z_div; [exact Qd|apply z_neg; exact Z2]). assert (J2 : iszero j2) by (apply z_div; [exact Qd|apply z_neg; exact Z1]).
  clearbody j1 j2.
  destruct (up_row m3 F3 SAME) as (Fi0 & Qi0 & Qp0 & Qq0 & Fq0 & _ & Pq0 & Gq). destruct (up_row m0 F0 eq_refl) as (Fi3 & Qi3 & Qp3 & Qq3 & _).
  pose proof up_same as US. cbv zeta in US. fold i0 in Fi0, Qi0, Qp0, Qq0, Fq0, Pq0. fold i3 in Fi3, Qi3, Qp3, Qq3.
  pose proof (proj1 (zero_facts _ J1)) as FJ1. pose proof (proj1 (zero_facts _ J2)) as FJ2. pose proof (proj1 (zero_facts _ ZC)) as FC.
  rewrite (add_z (fmul i0 A)) by (first [exact Qp0 | apply z_mul_r; assumption]).
  assert (ZA : iszero (fadd (fmul i0 C) (fmul j2 A))) by (apply z_add; [apply z_mul_r|apply z_mul_l]; assumption).
  assert (ZB : iszero (fadd (fmul j1 A) (fmul i3 C))) by (apply z_add; [apply z_mul_l|apply z_mul_r]; assumption).
  rewrite (add_z_l (fmul i3 A)) by (first [exact Qp3 | apply z_mul_r; assumption]).
  set (e1 := fadd (fmul i0 C) (fmul j2 A)) in *. set (e2 := fadd (fmul j1 A) (fmul i3 C)) in *. clearbody e1 e2.
  pose proof (proj1 (zero_facts _ ZA)) as Fe1. pose proof (proj1 (zero_facts _ ZB)) as Fe2.
  rewrite (add_z (fmul (fmul i0 A) i0)) by (first [exact Qq0 | apply z_mul_l; assumption]).
  rewrite (add_z_l (fmul (fmul i3 A) i3)) by (first [exact Qq3 | apply z_mul_l; assumption]).
  rewrite US. set (q := fmul (fmul i0 A) i0) in *.
  set (c1 := fadd (fmul (fmul i0 A) j1) (fmul e1 i3)). set (c2 := fadd (fmul e2 i0) (fmul (fmul i3 A) j2)).
  assert (ZC2 : iszero c2) by (apply z_add; [apply z_mul_l|apply z_mul_r]; try assumption; apply Qp3). clearbody c1 c2.
  unfold fellipse_of_form. cbn [fe0 fe1 fe2 fe3]. rewrite sub_self by exact Fq0.
  assert (ZN : iszero (fmul (fneg c2) (f_of_Z 2))) by (apply z_mul_l; [exact two_finite|apply z_neg; exact ZC2]).
  destruct (ZE _ (z_feq _ ZN)) as (_ & _ & AT). rewrite AT by reflexivity.
  set (t := fdiv (fmul (fneg c2) (f_of_Z 2)) (f_of_Z 2)). assert (ZT : iszero t) by (apply half_z; exact ZN). clearbody t.
  destruct (ZE t (z_feq _ ZT)) as (ST & CT & _). rewrite ST, CT.
  replace (fmul fone fone) with fone by (apply B2SF_inj; vm_compute; reflexivity).
  pose proof (proj1 (zero_facts _ ZT)) as FT.
  assert (ZT2 : iszero (fmul t t)) by (apply z_mul_r; assumption). assert (ZT1 : iszero (fmul fone t)) by (apply z_mul_r; [apply one_value|assumption]).
  assert (ZD : iszero (fmul (fmul (f_of_Z 2) c2) (fmul fone t))).
  { apply z_mul_r; [|exact ZT1]. apply zero_facts. apply z_mul_r; [exact two_finite|exact ZC2]. }
  assert (ZQ : iszero (fmul q (fmul t t))) by (apply z_mul_r; assumption).
  rewrite mul_one by exact Qq0. rewrite (add_z q) by assumption. rewrite (add_z q) by assumption.
  rewrite (add_z_l q) by (first [assumption | apply z_sub; assumption]).
  set (X := (B2R m0 * B2R r) * (B2R m0 * B2R r)) in *.
  pose proof (rng_nz _ _ GR) as NR. pose proof (rng_nz _ _ G0) as N0.
  assert (X0 : 0 < X). { unfold X. assert (B2R m0 * B2R r <> 0) by (apply Rmult_integral_contrapositive; auto). apply Rsqr_pos_lt. assumption. }
  assert (Q0 : 0 < B2R q).
  { destruct Pq0 as (h & H & ->). apply Rmult_lt_0_compat; [apply Rinv_0_lt_compat; exact X0|]. pose proof (pow_w 8). eapply Rlt_le_trans; [|apply H]. apply Rinv_0_lt_compat. lra. }
  destruct one_value as [F1 E1].
  assert (LE : fle q fzero = false).
  { unfold fle. rewrite Bleb_correct by (try exact Fq0; reflexivity). destruct zero_value as [_ ZV]. rewrite ZV. apply Rle_bool_false. exact Q0. }
  rewrite LE.
  destruct (fdiv_rp fone q 1 _ 0 8 0 (2 * a + 2 * b) F1 Fq0 ltac:(rewrite E1; apply rp_exact) Pq0 rng_one Gq ltac:(clear - SMALL; lia) ltac:(clear - SMALL; lia) ltac:(clear - SMALL; lia)) as (Fv & _ & Pv).
  replace (1 / / X) with X in Pv by (field; lra). change (0 + 8 + 1)%nat with 9%nat in Pv.
  assert (V0 : 0 < B2R (fdiv fone q)).
  { destruct Pv as (h & H & ->). apply Rmult_lt_0_compat; [exact X0|]. pose proof (pow_w 9). eapply Rlt_le_trans; [|apply H]. apply Rinv_0_lt_compat. lra. }
  destruct (fsqrt_val _ Fv (Rlt_le _ _ V0)) as [Fs Es]. set (rho := fsqrt (fdiv fone q)) in *.
  exists rho, t. split; [reflexivity|]. split; [exact ZT|]. split; [exact Fs|]. split; [|reflexivity].
  assert (SX : sqrt X = Rabs (B2R m0) * Rabs (B2R r)) by (unfold X; rewrite <- Rabs_mult; apply sqrt_Rsqr_abs).
  assert (PS : rp 9 (sqrt X) (sqrt (B2R (fdiv fone q)))) by (apply rp_sqrt; [lra|exact Pv]). rewrite SX in PS.
  assert (GS : rng (a + b) (Rabs (B2R m0) * Rabs (B2R r))).
  { rewrite Z.add_comm. apply rng_mul; unfold rng; rewrite Rabs_Rabsolu; assumption. }
  assert (L40 : (9 <= 40)%nat) by (repeat constructor). pose proof (rng_rp (a + b) 9 _ _ L40 GS PS) as GS'. assert (L9 : (a + b + 1 <= 900)%Z) by (clear - SMALL; lia).
  destruct (rng_900 (a + b + 1) _ L9 GS') as [B1 B2].
  rewrite Es. destruct (near_rp _ _ B1 (rne_near _)) as (h & H & EH). rewrite EH.
  rewrite <- (Rmult_1_r (Rabs (B2R m0) * Rabs (B2R r))). apply (rp_le (9 + 1)); [repeat constructor|]. apply rp_mul; [exact PS|]. exists h. split; [exact H|ring].
Qed.
End Upright.
