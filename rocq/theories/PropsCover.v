(** Property C113: the laser misses no part of a line of the figure. *)
From Coq Require Import ZArith Reals List Bool Lia Lra.
From Flocq Require Import Core BinarySingleNaN.
From Verif Require Import Base Chars Floats FloatProofs FloatScale FloatErr AccVector IntegerCurve StepperContext
  MachineSpec MachineProofs ContextProofs ContextOps ContextHist ContextClock ApproxCurve DrawCurves FloatPath Coords Curves PathBuild BuildProofs PropsBuild FloatPathProofs PropsFloatPath
  FloatCurve PropsFloatCurve PropsApprox PropsDraw DrawProofs PropsError DrawPlan FloatRun FloatCover PropsLaser FloatAngles.
Import ListNotations.
Open Scope R_scope.

(** The ticks at which a run is burned, and where the machine is then. *)
Lemma run_burns : forall g s v at1 e1 e2 t runs times t' start pieces, timeline g v t runs times t' ->
  within_error g s v at1 AX e1 runs times -> within_error g s v at1 AY e2 runs times -> In (start, pieces) runs ->
  exists l t1, join_from [] pieces = Ok l /\ (t <= t1 /\ t1 + Z.max 0 (curve_ticks (fconcat g l) v) <= t')%Z /\
    forall k, (1 <= k <= curve_ticks (fconcat g l) v)%Z -> burning times (t1 + k - 1) = true /\
    (exists z, wanted_at s start (fconcat g l) v k AX z /\ (Z.abs (at1 AX (t1 + k) - z) <= e1)%Z) /\
    (exists z, wanted_at s start (fconcat g l) v k AY z /\ (Z.abs (at1 AY (t1 + k) - z) <= e2)%Z).
Proof.
  intros g s v at1 e1 e2 t runs times t' start pieces T.
  induction T as [|t t1 t2 st pc l runs times t' LE J E2 T IH]; intros H1 H2 I; [destruct I|].
  inversion H1 as [|? ? l1 ? ? ? ? ? J1 W1 K1]; subst. inversion H2 as [|? ? l2 ? ? ? ? ? J2 W2 K2]; subst.
  rewrite J in J1. injection J1 as <-. rewrite J in J2. injection J2 as <-.
  pose proof (timeline_le _ _ _ _ _ _ T) as TT.
  destruct I as [I|I].
  - injection I as -> ->. exists l, t1. split; [exact J|]. split; [lia|]. intros k Hk. split.
    + cbn [burning]. apply orb_true_iff. left. lia.
    + split; [apply W1|apply W2]; lia.
  - destruct (IH K1 K2 I) as (l' & t3 & J' & B & A). exists l', t3. split; [exact J'|]. split; [lia|].
    intros k Hk. destruct (A k Hk) as (A1 & A2). split; [|exact A2]. cbn [burning]. rewrite A1. apply orb_true_r.
Qed.

(** Leaving out the moves without effect keeps every line, nearly where it was. *)
Lemma thin_keeps : forall g s v Q D segs d d' p k, 1 <= Q <= reach -> (forall i, 0 <= D i) -> 0 <= k ->
  draw_loop g s v d segs = Ok d' -> Forall (sized g Q) segs ->
  gotos_near g s v D d segs -> lengths_sane g s v Q d segs -> places_fit g s v Q d segs -> fits Q (d_pos d) ->
  close_to (fun i => D i + k) (rv (d_pos d)) p ->
  exists segs', draw_loop g s v d segs' = Ok d' /\ effect_from g s v d segs' /\ (length segs' <= length segs)%nat /\
    (closes segs' <= closes segs)%nat /\ Forall (sized g Q) segs' /\ lengths_sane g s v Q d segs' /\ places_fit g s v Q d segs' /\
    forall s1 seg s2, segs = s1 ++ seg :: s2 -> (forall m, seg <> SGoTo m) ->
    exists s1' s2', segs' = s1' ++ seg :: s2' /\
      close_to (fun i => D i + k + 20 * (INR (length segs) * (u53 * Q))) (rv (fpen g (d_pos d) s1')) (pen p (map rs s1)).
Proof.
  intros g s v Q D. induction segs as [|x r IH]; intros d d' p k RQ D0 K0 L S GN LS PF FT C.
  { exists []. split; [exact L|]. split; [intros [|? s0] ? ? ? E; discriminate E|]. split; [lia|]. split; [lia|]. split; [constructor|].
    split; [exact LS|]. split; [exact PF|]. intros [|? s1] ? ? E; discriminate E. }
  pose proof L as L0. cbn [draw_loop] in L. apply bind_Ok in L. destruct L as (d1 & E & L). inversion S as [|? ? S1 S2]; subst.
  assert (U0 : 0 <= u53 * Q) by (pose proof u53_pos; apply Rmult_le_pos; lra).
  assert (UN : 0 <= INR (length r) * (u53 * Q)) by (apply Rmult_le_pos; [apply pos_INR|exact U0]).
  assert (GN1 : gotos_near g s v D d1 r).
  { intros s0 q s1 d2 -> L2. apply (GN (x :: s0) q s1 d2); [reflexivity|]. cbn [draw_loop]. rewrite E. exact L2. }
  assert (LS1 : lengths_sane g s v Q d1 r).
  { intros s1 e c1 c2 s2 d2 curve -> L2. apply (LS (x :: s1) e c1 c2 s2 d2); [reflexivity|]. cbn [draw_loop]. rewrite E. exact L2. }
  assert (PF1 : places_fit g s v Q d1 r).
  { intros s1 rx ry a b ro s2 d2 -> L2. apply (PF (x :: s1) rx ry a b ro s2 d2); [reflexivity|]. cbn [app draw_loop]. rewrite E. exact L2. }
  assert (CASE : (exists q, x = SGoTo q /\ stands s (d_ctx d) q) \/ (forall q, x = SGoTo q -> ~ stands s (d_ctx d) q)).
  { destruct x as [q| | | |]; try (right; intros q K; discriminate K).
    destruct (stands_dec s (d_ctx d) q); [left; eauto|right; intros q' K; injection K as <-; assumption]. }
  destruct CASE as [(q & -> & ST)|NS].
  - pose proof (step_stays _ _ _ _ _ _ E ST) as ->.
    assert (C1 : close_to (fun i => D i + k) (rv (d_pos d)) (rv q)).
    { intros i. rewrite Rabs_minus_sym. pose proof (GN [] q r d eq_refl eq_refl ST i). cbv beta. lra. }
    destruct (IH d d' (rv q) k RQ D0 K0 L S2 GN1 LS1 PF1 FT C1) as (segs' & A1 & A2 & A3 & A4 & A5 & A6 & A7 & A8).
    exists segs'. split; [exact A1|]. split; [exact A2|]. split; [cbn [length]; lia|].
    split; [exact A4|]. split; [exact A5|]. split; [exact A6|]. split; [exact A7|].
    intros s1 seg s2 EQ NG. destruct s1 as [|y s1]; cbn [app] in EQ; injection EQ as EQ0 EQ.
    + exfalso. exact (NG q (eq_sym EQ0)).
    + subst y. destruct (A8 s1 seg s2 EQ NG) as (s1' & s2' & ES & CC). exists s1', s2'. split; [exact ES|].
      intros i. eapply Rle_trans; [exact (CC i)|]. cbv beta. cbn [length]. rewrite S_INR. lra.
  - destruct (loop_step _ _ _ _ _ _ _ _ _ _ _ RQ D0 K0 E S1 PF FT NS C) as (EP & FT1 & C1).
    destruct (IH d1 d' _ (k + 20 * (u53 * Q)) RQ D0 ltac:(lra) L S2 GN1 LS1 PF1 FT1 C1) as (segs' & A1 & A2 & A3 & A4 & A5 & A6 & A7 & A8).
    exists (x :: segs'). split; [cbn [draw_loop]; rewrite E; exact A1|]. split; [|split; [|split; [|split; [|split; [|split]]]]].
    + intros s0 q s1 d2 EQ L2. destruct s0 as [|y s0]; cbn [app] in EQ; injection EQ as -> EQ.
      * injection L2 as <-. exact (NS q eq_refl).
      * cbn [draw_loop] in L2. rewrite E in L2. exact (A2 s0 q s1 d2 EQ L2).
    + cbn [length]. lia.
    + unfold closes in *. cbn [filter]. destruct (is_close x); cbn [length]; lia.
    + constructor; assumption.
    + intros s1 e c1 c2 s2 d2 curve EQ L2. destruct s1 as [|y s1]; cbn [app] in EQ; injection EQ as -> EQ.
      * injection L2 as <-. apply (LS [] e c1 c2 r d curve eq_refl eq_refl).
      * cbn [draw_loop] in L2. rewrite E in L2. exact (A6 s1 e c1 c2 s2 d2 curve EQ L2).
    + intros s1 rx ry a b ro s2 d2 EQ L2. destruct s1 as [|y s1]; cbn [app] in EQ; injection EQ as -> EQ.
      * apply (PF [] rx ry a b ro r d2 eq_refl L2).
      * cbn [app draw_loop] in L2. rewrite E in L2. exact (A7 s1 rx ry a b ro s2 d2 EQ L2).
    + intros s1 seg s2 EQ NG. destruct s1 as [|y s1]; cbn [app] in EQ; injection EQ as EQ0 EQ.
      * subst seg. exists [], segs'. split; [reflexivity|]. intros i. eapply Rle_trans; [exact (C i)|]. cbv beta. cbn [length]. rewrite S_INR. lra.
      * subst y. destruct (A8 s1 seg s2 EQ NG) as (s1' & s2' & -> & CC). exists (x :: s1'), s2'. split; [reflexivity|].
        cbn [fpen fold_left]. rewrite <- EP. intros i. eapply Rle_trans; [exact (CC i)|]. cbv beta. cbn [length]. rewrite S_INR. lra.
Qed.

(** The points of a line or an arc are no farther apart than the way between them. *)
Lemma traced_lip : forall p s wl lam t z z', way p s = Some wl -> traced p s lam = Some z -> traced p s t = Some z' ->
  forall i, Rabs (coord z i - coord z' i) <= Rabs (lam - t) * wl.
Proof.
  intros p s wl lam t z z' W H1 H2 i. destruct s as [e|e|e|e a b|r ry a b ro]; cbn [way traced drawn] in *; try discriminate;
    assert (E : wl = wl) by reflexivity; injection W as <-; injection H1 as <-; injection H2 as <-.
  1-2: destruct (norm_coords (vx e - vx p) (vy e - vy p)) as [NX NY]; destruct i; cbn [coord vadd vscale vsub vx vy];
    [replace (_ - _) with ((lam - t) * (vx e - vx p)) by ring|replace (_ - _) with ((lam - t) * (vy e - vy p)) by ring];
    rewrite Rabs_mult; apply Rmult_le_compat_l; try apply Rabs_pos; assumption.
  assert (A : forall f, (forall x y, Rabs (f x - f y) <= Rabs (x - y)) -> forall q,
    Rabs (q + r * (f (a + (b - a) * lam) - f a) - (q + r * (f (a + (b - a) * t) - f a))) <= Rabs (lam - t) * Rabs (r * (b - a))).
  { intros f F q. replace (_ - _) with (r * (f (a + (b - a) * lam) - f (a + (b - a) * t))) by ring. rewrite Rabs_mult.
    eapply Rle_trans; [apply Rmult_le_compat_l; [apply Rabs_pos|apply F]|]. rewrite <- !Rabs_mult. right. f_equal. ring. }
  destruct i; cbn [coord vadd arc_at vx vy]; apply A; [apply cos_lipschitz|apply sin_lipschitz].
Qed.

Lemma way_shift : forall p p' s wl, way p s = Some wl -> exists wl', way p' s = Some wl' /\
  wl <= wl' + Rabs (vx p' - vx p) + Rabs (vy p' - vy p).
Proof.
  intros p p' s wl W. destruct s as [e|e|e|e a b|r ry a b ro]; cbn [way] in *; try discriminate; injection W as <-; eexists; (split; [reflexivity|]).
  1-2: pose proof (norm_le (vx e - vx p') (vy e - vy p') (vx p' - vx p) (vy p' - vy p)) as T;
    replace (vx e - vx p' + (vx p' - vx p)) with (vx e - vx p) in T by ring;
    replace (vy e - vy p' + (vy p' - vy p)) with (vy e - vy p) in T by ring; exact T.
  pose proof (Rabs_pos (vx p' - vx p)). pose proof (Rabs_pos (vy p' - vy p)). lra.
Qed.

Lemma cover_strict : forall ax ay vmx vmy ops c g s segs v d c1 er c' ex ey fuel search ints Q w s1 seg s2 wl t zt,
  history code (new_ctx ax ay vmx vmy) ops c -> draw_loop g s v (begin_drawing s c) segs = Ok d ->
  draw_curve g s (d_ctx d) (d_start d) (d_curves d) v = Ok (c1, er) ->
  add_weight_change c1 (move_weight c1) (ticks_of c1 AX) = Ok c' -> (ex, ey) = acc_max_err (d_err d) er ->
  (forall i, ticks_of c' i < u64_max)%Z ->
  g_bezier g = fbezier fuel search ints -> finds (g_find g) -> lengths_ok g Q (machine_place s c) segs ->
  1 <= Q <= reach -> pens_fit g Q (machine_place s c) segs -> Forall (sized g Q) segs -> few Q (length segs) ->
  (forall i, is_finite (step_scale s i) = true /\ Rabs (B2R (step_scale s i)) * (8 * Q) <= bpow radix2 62) ->
  effect_from g s v (begin_drawing s c) segs ->
  (ticks_of c' AX - ticks_of c AX < i32_max)%Z -> 0 < B2R v ->
  segs = s1 ++ seg :: s2 -> 0 <= t <= 1 -> let p := rv (fpen g (machine_place s c) s1) in
  way p (rs seg) = Some wl -> traced p (rs seg) t = Some zt ->
  3 / 2 * B2R v + 1600 * (INR (length segs) * (u53 * Q)) + 8 / 1000000 <= wl ->
  exists u, (ticks_of c AX <= u < ticks_of c' AX)%Z /\ m_weight (play (events c') u (machine0 w)) = curve_weight c /\
    forall i, Rabs (IZR (s_pos (machine_axis (play (events c') (u + 1) (machine0 w)) i)) -
        B2R (step_scale s i) * coord zt i)
      <= IZR (match i with AX => ex | AY => ey end) + 1 +
         Rabs (B2R (step_scale s i)) * (3 / 2 * B2R v + (4420 * INR (length segs) + 738) * Q / 2 ^ 53 + 4 / 10 ^ 6 * INR (closes segs)).
Proof.
  intros ax ay vmx vmy ops c g s segs v d c0 er c' ex ey fuel search ints Q w s1 seg s2 wl t zt H L0 L1 L2 L3 Hm GB FG LO RQ FM SZ N SC' TE HT32 V0 ES0 HT p SE TZ HL.
  destruct (loop_no_skip _ _ _ _ _ _ _ _ _ L0 L1 L2 TE) as (runs & c1 & P & R & AW). rewrite <- L3 in R. clear L0 L1 L2 L3.
  change (fun (_ : list (fvec * list piece)) (_ : fvec) => False) with (fun _ : list (fvec * list piece) => no_skip) in P.
  pose proof (curves_nonempty _ (plan_nonempty _ _ _ _ _ P)) as NEC.
  destruct (runs_all _ _ _ _ _ _ _ _ _ _ _ _ _ _ H NEC R AW Hm) as (times & TL & WG & ER & _).
  pose proof u53_pos as [U0 U1]. assert (UQ : 0 <= u53 * Q) by (apply Rmult_le_pos; lra).
  assert (N1 : 1 <= INR (length segs)) by (apply (le_INR 1); rewrite ES0, app_length; cbn [length]; lia).
  assert (UQ1 : u53 * Q <= INR (length segs) * (u53 * Q)) by (rewrite <- (Rmult_1_l (u53 * Q)) at 1; apply Rmult_le_compat_r; assumption).
  assert (NG : forall m, seg <> SGoTo m) by (intros m ->; discriminate SE).
  assert (FP : fits Q (fpen g (machine_place s c) s1)) by exact (FM s1 (seg :: s2) ES0).
  assert (NS : forall q, seg = SCloseTo q -> flt (fvlength (fvsub (fpen g (machine_place s c) s1) q)) short = false).
  { intros e ->. cbn [rs way] in SE. injection SE as SE.
    destruct (flt (fvlength (fvsub (fpen g (machine_place s c) s1) e)) short) eqn:SH; [exfalso|reflexivity].
    assert (FE : fits Q e). { rewrite ES0 in SZ. apply Forall_app in SZ. destruct SZ as [_ SZ]. inversion SZ; assumption. }
    destruct (short_step Q RQ _ _ FP FE SH) as [D1 D2].
    pose proof (norm_le 0 0 (B2R (fx e) - vx p) (B2R (fy e) - vy p)) as NL. rewrite !Rplus_0_l in NL.
    replace (norm 0 0) with 0 in NL by (unfold norm; rewrite Rmult_0_r, Rplus_0_r, sqrt_0; reflexivity).
    unfold p in *. cbn [rv vx vy] in *. rewrite Rabs_minus_sym in D1, D2.
    rewrite (Rabs_minus_sym (B2R (fx e))), (Rabs_minus_sym (B2R (fy e))) in NL. lra. }
  destruct (plan_has g _ _ _ P s1 seg s2 ES0 NG NS) as (start & pl & kp & curve & I1 & KP).
  destruct (ER w AX) as [EX _]. destruct (ER w AY) as [EY _]. cbv zeta in EX, EY.
  destruct (run_burns _ _ _ _ _ _ _ _ _ _ start (map snd pl) TL EX EY) as (l & t1 & J & TB & BU).
  { apply in_map_iff. exists (start, pl). split; [reflexivity|exact I1]. }
  destruct (plan_run g _ _ _ P start pl I1) as (s1' & part & s2' & q' & y & ES & EST & RO).
  assert (NEP : pl <> []) by exact (proj1 (Forall_forall _ _) (plan_nonempty _ _ _ _ _ P) _ I1).
  assert (SP : Forall (sized g Q) s1' /\ Forall (sized g Q) part).
  { rewrite ES in SZ. apply Forall_app in SZ. destruct SZ as [A SZ]. apply Forall_app in SZ. split; [exact A|apply SZ]. }
  destruct SP as [SP1 SP2].
  assert (FST : pens_fit g Q start part).
  { rewrite ES in FM. apply pens_app in FM. destruct FM as [_ FM]. rewrite <- EST in FM. apply pens_app in FM. apply FM. }
  assert (GD : Forall (good Q) pl).
  { rewrite EST in RO. eapply run_good; [exact LO|exact ES|exact RO]. }
  assert (LP : (length part <= length segs)%nat) by (rewrite ES, !app_length; lia).
  assert (NP : few Q (length part)) by (eapply few_le; [exact LP|exact N]).
  assert (CP : (closes part <= closes segs)%nat) by (rewrite ES, !closes_app; lia).
  assert (NE2 : map snd pl <> []) by (destruct pl; [congruence|discriminate]).
  destruct (C81_joined g (map snd pl) l NE2 J) as [LL _].
  unfold curve_ticks in TB, BU. rewrite LL in TB, BU.
  pose proof (le_INR _ _ LP) as LPR. pose proof (le_INR _ _ CP) as CPR. pose proof (pos_INR (closes part)) as C0.
  assert (NUL : INR (length part) * (u53 * Q) <= INR (length segs) * (u53 * Q)) by (apply Rmult_le_compat_r; assumption).
  destruct (run_line g fuel search ints Q GB RQ start part pl q' y l v kp (fpen g (machine_place s c) s1) seg curve wl t
    FG RO FST SP2 GD NP J KP SE HT V0) as (k & lam & z & HK & HLM & HD & TL' & BZ & HV).
  { lia. }
  { lra. }
  destruct (BU k HK) as (B & (zx & WX & EZX) & (zy & WY & EZY)).
  exists (t1 + k - 1)%Z. split; [lia|]. split.
  { rewrite WG. destruct (Z.ltb_spec (t1 + k - 1) (ticks_of c AX)) as [LT|_]; [exfalso; lia|]. rewrite B. reflexivity. }
  replace (t1 + k - 1 + 1)%Z with (t1 + k)%Z by lia.
  destruct WX as (px & dx & VX & ->). destruct WY as (py & dy & VY & ->). rewrite VX in VY. injection VY as <- <-.
  rewrite LL in VX. specialize (HV _ _ VX). fold p in TL'.
  set (E := (3120 * INR (length part) + 730) * (u53 * Q) + 4 / 1000000 * INR (closes part)) in *.
  pose proof (few_u Q RQ _ NP) as UN. pose proof (few_u Q RQ _ N) as UN'.
  assert (CQ : INR (closes part) <= 65536 * Q) by (destruct NP as [_ NP]; pose proof (le_INR _ _ (closes_le part)); lra).
  assert (BE : 0 <= E <= 2 * Q).
  { unfold E. replace ((3120 * INR (length part) + 730) * (u53 * Q)) with (3120 * (INR (length part) * (u53 * Q)) + 730 * (u53 * Q)) by ring. lra. }
  set (T := 3 / 2 * B2R v + (4420 * INR (length segs) + 738) * Q / 2 ^ 53 + 4 / 10 ^ 6 * INR (closes segs)).
  assert (EE : E + 8 * (u53 * Q) + (3 / 2 * B2R v + 1300 * (INR (length part) * (u53 * Q))) <= T).
  { unfold T, E. replace ((4420 * INR (length segs) + 738) * Q / 2 ^ 53) with ((4420 * INR (length segs) + 738) * (u53 * Q))
      by (rewrite u53_is; unfold Rdiv; ring).
    replace (10 ^ 6) with 1000000 by (cbn [pow]; ring). lra. }
  destruct HV as (F1 & F2 & X1 & Y1). cbn [fvadd fx fy] in F1, F2, X1, Y1.
  destruct BZ as [BZ1 BZ2].
  assert (NC : forall i, Rabs (coord z i - coord zt i) <= 3 / 2 * B2R v + 1300 * (INR (length part) * (u53 * Q))).
  { intros i. eapply Rle_trans; [|exact HD]. eapply traced_lip; eassumption. }
  assert (GO : forall at1 x i ei r r', is_finite x = true -> Rabs (B2R x - r) <= E -> Rabs r <= 2 * Q ->
    Rabs (r - r') <= 3 / 2 * B2R v + 1300 * (INR (length part) * (u53 * Q)) ->
    (Z.abs (at1 - f_as_i64 (fmul x (step_scale s i))) <= ei)%Z ->
    Rabs (IZR at1 - B2R (step_scale s i) * r') <= IZR ei + 1 + Rabs (B2R (step_scale s i)) * T).
  { intros at1 x i ei r r' Fx Hx Hr Hr' HZ. destruct (SC' i) as [FSC BSC].
    pose proof (steps_near x (step_scale s i) r E Q RQ Fx FSC Hx Hr BE BSC) as SN.
    apply IZR_le in HZ. rewrite abs_IZR, minus_IZR in HZ.
    set (S := Rabs (B2R (step_scale s i))) in *. assert (S0 : 0 <= S) by apply Rabs_pos.
    assert (MV : Rabs (B2R (step_scale s i) * r - B2R (step_scale s i) * r') <= S * (3 / 2 * B2R v + 1300 * (INR (length part) * (u53 * Q)))).
    { rewrite <- Rmult_minus_distr_l, Rabs_mult. apply Rmult_le_compat_l; [exact S0|exact Hr']. }
    assert (M : S * (E + 8 * (u53 * Q)) + S * (3 / 2 * B2R v + 1300 * (INR (length part) * (u53 * Q))) <= S * T).
    { rewrite <- Rmult_plus_distr_l. apply Rmult_le_compat_l; [exact S0|exact EE]. }
    replace (IZR at1 - B2R (step_scale s i) * r') with ((IZR at1 - IZR (f_as_i64 (fmul x (step_scale s i)))) +
      ((IZR (f_as_i64 (fmul x (step_scale s i))) - B2R (step_scale s i) * r) + (B2R (step_scale s i) * r - B2R (step_scale s i) * r'))) by ring.
    eapply Rle_trans; [apply Rabs_triang|]. eapply Rle_trans; [apply Rplus_le_compat_l, Rabs_triang|].
    set (K1 := S * (E + 8 * (u53 * Q))) in *. set (K2 := S * (3 / 2 * B2R v + 1300 * (INR (length part) * (u53 * Q)))) in *.
    set (K := S * T) in *. clearbody K K1 K2. lra. }
  pose proof (NC AX) as NX. pose proof (NC AY) as NY.
  intros []; cbn [coord] in *.
  + eapply GO; [exact F1|exact X1|exact BZ1|exact NX|exact EZX].
  + eapply GO; [exact F2|exact Y1|exact BZ2|exact NY|exact EZY].
Qed.

(** Every point of every line and arc of the figure that is not too short is near a place where the laser burns. *)
Theorem C113_covered : forall ax ay vmx vmy ops c g s segs v c' ex ey fuel search ints Q D w s1 seg s2 wl t z,
  history code (new_ctx ax ay vmx vmy) ops c -> segs <> [] -> draw_curves g s c segs v = Ok (c', (ex, ey)) ->
  (forall i, ticks_of c' i < u64_max)%Z ->
  (* the parts of the program that are parameters of the model *)
  g_bezier g = fbezier fuel search ints -> finds (g_find g) -> lengths_sane g s v Q (begin_drawing s c) segs ->
  (* sizes *)
  1 <= Q <= 2 ^ 300 -> fits Q (machine_place s c) -> Forall (sized g Q) segs -> places_fit g s v Q (begin_drawing s c) segs ->
  INR (length segs) <= 2 ^ 40 -> INR (length segs) <= 65536 * Q ->
  (forall i, is_finite (step_scale s i) = true /\ Rabs (B2R (step_scale s i)) * (8 * Q) <= 2 ^ 62) ->
  (* moves *)
  (forall i, 0 <= D i) -> gotos_near g s v D (begin_drawing s c) segs ->
  (* the drawing takes less than 2^31 - 1 ticks *)
  (ticks_of c' AX - ticks_of c AX < 2 ^ 31 - 1)%Z -> 0 < B2R v ->
  (* a line or an arc of the figure, longer than one and a half ticks, and the point at [t] on it *)
  segs = s1 ++ seg :: s2 -> 0 <= t <= 1 -> let p := pen (rv (machine_place s c)) (map rs s1) in
  way p (rs seg) = Some wl -> traced p (rs seg) t = Some z ->
  3 / 2 * B2R v + D AX + D AY + 1700 * INR (length segs) * Q / 2 ^ 53 + 8 / 10 ^ 6 <= wl ->
  exists u, (ticks_of c AX <= u < ticks_of c' AX)%Z /\ m_weight (play (events c') u (machine0 w)) = curve_weight c /\
    forall i, Rabs (IZR (s_pos (machine_axis (play (events c') (u + 1) (machine0 w)) i)) -
        B2R (step_scale s i) * coord z i)
      <= IZR (match i with AX => ex | AY => ey end) + 1 +
         Rabs (B2R (step_scale s i)) * (3 / 2 * B2R v + D i + (4500 * INR (length segs) + 738) * Q / 2 ^ 53 + 4 / 10 ^ 6 * INR (closes segs)).
Proof.
  intros ax ay vmx vmy ops c g s segs v c' ex ey fuel search ints Q D w s1 seg s2 wl t z H NE DC Hm GB FG LS HQ FM SZ PF N1 N2 SC D0 GN HT32 V0 ES HT p SE TZ HL.
  assert (RQ : 1 <= Q <= reach).
  { unfold reach. rewrite bpow_powerRZ. cbn [powerRZ]. replace (Pos.to_nat 300) with 300%nat by reflexivity. exact HQ. }
  clear HQ.
  assert (N : few Q (length segs)).
  { split; [|exact N2]. rewrite bpow_powerRZ. cbn [powerRZ]. replace (Pos.to_nat 40) with 40%nat by reflexivity. exact N1. }
  clear N1 N2.
  assert (SC' : forall i, is_finite (step_scale s i) = true /\ Rabs (B2R (step_scale s i)) * (8 * Q) <= bpow radix2 62).
  { intros i. rewrite bpow_powerRZ. cbn [powerRZ]. replace (Pos.to_nat 62) with 62%nat by reflexivity. apply SC. }
  clear SC.
  destruct (draw_curves_loop _ _ _ _ _ _ _ NE DC) as (d & c1 & er & L & L1 & L2 & L3).
  assert (C0 : close_to (fun i => D i + 0) (rv (d_pos (begin_drawing s c))) (rv (machine_place s c))).
  { intros i. cbn [begin_drawing d_pos]. rewrite Rminus_diag_eq by reflexivity. rewrite Rabs_R0. pose proof (D0 i). lra. }
  destruct (thin_keeps g s v Q D segs _ d _ 0 RQ D0 (Rle_refl 0) L SZ GN LS PF FM C0) as (segs' & A1 & A2 & A3 & A4 & A5 & A6 & A7 & A8).
  pose proof (lengths_from _ _ _ _ _ _ _ A1 A2 A6) as LO. pose proof (pens_from _ _ _ _ _ _ _ A1 A2 A7 FM A5) as PN.
  assert (NG : forall m, seg <> SGoTo m) by (intros m ->; discriminate SE).
  destruct (A8 s1 seg s2 ES NG) as (s1' & s2' & ES' & CL). fold p in CL. cbn [begin_drawing d_pos] in CL.
  apply le_INR in A3 as A3'. apply le_INR in A4 as A4'.
  pose proof u53_pos as [U0 U1]. assert (UQ : 0 <= u53 * Q) by (apply Rmult_le_pos; lra).
  assert (NU : INR (length segs') * (u53 * Q) <= INR (length segs) * (u53 * Q)) by (apply Rmult_le_compat_r; assumption).
  set (N0 := INR (length segs) * (u53 * Q)) in *.
  assert (NP : 0 <= N0) by (apply Rmult_le_pos; [apply pos_INR|exact UQ]).
  set (p' := rv (fpen g (machine_place s c) s1')) in *.
  destruct (way_shift p p' (rs seg) wl SE) as (wl' & SE' & WL).
  assert (CL' : close_to (fun i => D i + 0 + 20 * N0) p p') by (intros i; rewrite Rabs_minus_sym; exact (CL i)).
  assert (E0 : forall i, 0 <= (fun i => D i + 0 + 20 * N0) i) by (intros i; pose proof (D0 i); cbv beta; lra).
  destruct (traced_close _ _ p' _ t z E0 CL' HT TZ) as (z' & TZ' & CZ).
  assert (HL' : 3 / 2 * B2R v + 1600 * (INR (length segs') * (u53 * Q)) + 8 / 1000000 <= wl').
  { pose proof (CL AX) as CX. pose proof (CL AY) as CY. cbn [coord] in CX, CY.
    replace (10 ^ 6) with 1000000 in HL by (cbn [pow]; ring).
    replace (1700 * INR (length segs) * Q / 2 ^ 53) with (1700 * N0) in HL by (unfold N0; rewrite u53_is; unfold Rdiv; ring).
    lra. }
  destruct (cover_strict _ _ _ _ _ _ _ _ _ _ _ _ _ _ ex ey _ _ _ Q w s1' seg s2' wl' t z' H A1 L1 L2 L3 Hm GB FG LO RQ PN A5
    (few_le _ _ _ A3 N) SC' A2 HT32 V0 ES' HT SE' TZ' HL') as (u & HU & HWT & B).
  exists u. split; [exact HU|]. split; [exact HWT|]. intros i. specialize (B i).
  set (S := Rabs (B2R (step_scale s i))) in *. assert (S0 : 0 <= S) by apply Rabs_pos.
  assert (SD : Rabs (B2R (step_scale s i) * coord z' i - B2R (step_scale s i) * coord z i) <= S * (D i + 0 + 20 * N0)).
  { rewrite <- Rmult_minus_distr_l, Rabs_mult. fold S. apply Rmult_le_compat_l; [exact S0|]. rewrite Rabs_minus_sym. exact (CZ i). }
  assert (M : S * (3 / 2 * B2R v + (4420 * INR (length segs') + 738) * Q / 2 ^ 53 + 4 / 10 ^ 6 * INR (closes segs')) + S * (D i + 0 + 20 * N0) <=
              S * (3 / 2 * B2R v + D i + (4500 * INR (length segs) + 738) * Q / 2 ^ 53 + 4 / 10 ^ 6 * INR (closes segs))).
  { rewrite <- Rmult_plus_distr_l. apply Rmult_le_compat_l; [exact S0|].
    replace ((4420 * INR (length segs') + 738) * Q / 2 ^ 53) with (4420 * (INR (length segs') * (u53 * Q)) + 738 * (u53 * Q))
      by (rewrite u53_is; unfold Rdiv; ring).
    replace ((4500 * INR (length segs) + 738) * Q / 2 ^ 53) with (4500 * N0 + 738 * (u53 * Q))
      by (unfold N0; rewrite u53_is; unfold Rdiv; ring).
    assert (4 / 10 ^ 6 * INR (closes segs') <= 4 / 10 ^ 6 * INR (closes segs)) by (apply Rmult_le_compat_l; [cbn [pow]; lra|exact A4']).
    lra. }
  match type of M with ?a + ?b <= ?c => set (MA := a) in *; set (MC := b) in *; set (MB := c) in * end. clearbody MA MB MC.
  match type of B with Rabs (?p - ?q) <= _ => set (X := p) in *; set (Y := q) in * end.
  match type of SD with Rabs (_ - ?q) <= _ => set (Y' := q) in * end.
  replace (X - Y') with ((X - Y) + (Y - Y')) by ring. eapply Rle_trans; [apply Rabs_triang|]. lra.
Qed.

(** A triangle, closed by its third side. *)
Definition C113_segments : list segment := [SGoTo (pt 0 0); SLineTo (pt 1500 0); SLineTo (pt 1500 800); SCloseTo (pt 0 0)].

Example C113_example : exists c' e,
  draw_curves C103_geometry sc1 laser C113_segments (f_of_Z 40) = Ok (c', e) /\
  (forall i, ticks_of c' i < u64_max)%Z /\
  finds (g_find C103_geometry) /\ lengths_sane C103_geometry sc1 (f_of_Z 40) 4000 (begin_drawing sc1 laser) C113_segments /\
  fits 4000 (machine_place sc1 laser) /\ Forall (sized C103_geometry 4000) C113_segments /\
  places_fit C103_geometry sc1 (f_of_Z 40) 4000 (begin_drawing sc1 laser) C113_segments /\
  gotos_near C103_geometry sc1 (f_of_Z 40) (fun _ => 0) (begin_drawing sc1 laser) C113_segments /\
  (ticks_of c' AX - ticks_of laser AX < 2 ^ 31 - 1)%Z /\
  (exists wl, way (pen (rv (machine_place sc1 laser)) (map rs (firstn 3 C113_segments))) (rs (SCloseTo (pt 0 0))) = Some wl /\
   3 / 2 * 40 + 1700 * 4 * 4000 / 2 ^ 53 + 8 / 10 ^ 6 <= wl) /\
  exists u, (ticks_of laser AX <= u < ticks_of c' AX)%Z /\ m_weight (play (events c') u (machine0 0)) = 100%Z /\
    (Z.abs (s_pos (m_x (play (events c') (u + 1) (machine0 0))) - 750) <= 20)%Z /\
    (Z.abs (s_pos (m_y (play (events c') (u + 1) (machine0 0))) - 400) <= 20)%Z.
Proof.
  eexists. eexists. split; [vm_compute; reflexivity|]. split; [intros []; vm_compute; reflexivity|]. split; [exact first_ge_finds|].
  split; [|split; [|split; [|split; [apply no_arc_places; reflexivity|split; [|split; [|split]]]]]].
  - intros s1 e c1 c2 s2 d curve E L. exfalso. unfold C113_segments in E.
    repeat (destruct s1 as [|? s1]; cbn [app] in E; [discriminate E|injection E as _ E]). destruct s1; discriminate E.
  - assert (E : machine_place sc1 laser = mk_fvec (B754_zero false) (B754_zero false)) by (vm_compute; reflexivity).
    rewrite E. split; [split; reflexivity|]. split; cbn [rv vx vy fx fy B2R]; rewrite Rabs_R0; lra.
  - unfold C113_segments. repeat (apply Forall_cons; [cbn [sized]; apply pt_fits; lia|]). apply Forall_nil.
  - intros s0 p s1 d E L.
    assert (E1 : s0 = [] /\ p = pt 0 0).
    { unfold C113_segments in *. destruct s0 as [|a s0]; cbn [app] in E; [injection E as <- _; auto|]. injection E as _ E.
      repeat (destruct s0 as [|? s0]; cbn [app] in E; [discriminate E|injection E as _ E]). destruct s0; discriminate E. }
    destruct E1 as [-> ->]. intros _ i. injection L as <-. cbn [begin_drawing d_pos].
    assert (EM : machine_place sc1 laser = mk_fvec (B754_zero false) (B754_zero false)) by (vm_compute; reflexivity).
    assert (EZ : pt 0 0 = mk_fvec (B754_zero false) (B754_zero false)) by (vm_compute; reflexivity).
    rewrite EM, EZ. rewrite Rminus_diag_eq by reflexivity. rewrite Rabs_R0. lra.
  - vm_compute; reflexivity.
  - eexists. split; [reflexivity|]. unfold norm. cbn [C113_segments firstn map rs pen fold_left]. unfold pt. cbn [rv vx vy fx fy].
    destruct (f_of_Z_exact 0 ltac:(lia)) as [_ ->]. destruct (f_of_Z_exact 1500 ltac:(lia)) as [_ ->]. destruct (f_of_Z_exact 800 ltac:(lia)) as [_ ->].
    replace ((0 - 1500) * (0 - 1500) + (0 - 800) * (0 - 800)) with (1700 * 1700) by ring. rewrite sqrt_square by lra.
    cbn [pow]. lra.
  - exists 93%Z. vm_compute. repeat split; discriminate.
Qed.

(** What is short is lost: nothing is burned of a line of less than half the way of a tick. *)
Example C113_short : exists (c' : ctx) (e : Z * Z),
  draw_curves C103_geometry sc1 laser [SGoTo (pt 0 0); SLineTo (pt 19 0)] (f_of_Z 40) = Ok (c', e) /\
  forall u, (ticks_of laser AX <= u < ticks_of c' AX)%Z -> m_weight (play (events c') u (machine0 0)) = 0%Z.
Proof.
  eexists. eexists. split; [vm_compute; reflexivity|]. intros u Hu.
  match type of Hu with (?a <= _ < ?b)%Z => assert (A : a = 0%Z) by (vm_compute; reflexivity); assert (B : b = 5%Z) by (vm_compute; reflexivity) end.
  rewrite A, B in Hu. clear A B.
  assert (C : In u [0; 1; 2; 3; 4]%Z) by (cbn [In]; lia). clear Hu.
  cbn [In] in C. destruct C as [<-|[<-|[<-|[<-|[<-|[]]]]]]; vm_compute; reflexivity.
Qed.

Print Assumptions C113_covered.
Print Assumptions C113_example.
Print Assumptions C113_short.
