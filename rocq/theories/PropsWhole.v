(** C132: a document of one polyline, from its text to the burned line, with nothing asked of what the program computes on the way. *)
From Coq Require Import Ascii String ZArith Reals List Bool NArith Lia Lra Psatz.
From Flocq Require Import Core BinarySingleNaN.
From Verif Require Import Base Chars Floats FloatProofs FloatScale FloatErr AccVector IntegerCurve StepperContext
  MachineSpec MachineProofs ContextGoto PropsDuration ApproxCurve DrawCurves FloatPath Coords Curves PathBuild BuildProofs
  PropsBuild PathGrammar FloatPathProofs PropsFloatPath FloatCurve PropsFloatCurve DrawProofs PropsSteps
  DrawPlan FloatRun PropsLaser FloatLex ImageRaster PropsRaster SvgMain PropsSvgMain FloatTransform FloatAngles SvgDocument FloatDocument
  PropsFloatTransform PropsSvg FloatPlace PropsFloatSvg PropsLaserSvg PropsCoverSvg DrawTotal FloatTotal PropsTotal PropsProgramTotal PropsDocTotal.
Import ListNotations.
Open Scope R_scope.

(** A place that rounds to the steps the machine stands at is about half a step from it. *)
Lemma stands_close : forall s x i n, scale_ok s i -> is_finite x = true -> Rabs (B2R x) <= 65536 -> to_steps s x i = Ok n ->
  Rabs (B2R x - B2R (coord_from_steps s n i)) <= 51 / 100 / Rabs (B2R (step_scale s i)).
Proof.
  intros s x i n [Fk Bk] Fx Bx H. apply C105_steps in H. cbv zeta in H. destruct H as (Fp & NA & _). apply nearest_is in NA. unfold coord_from_steps.
  set (k := step_scale s i) in *. set (m := Rabs (B2R k)) in *. assert (K0 : B2R k <> 0) by (intros Z; unfold m in Bk; rewrite Z, Rabs_R0 in Bk; lra).
  pose proof u53_val as UV. assert (TU : 0 < tiny <= u53 * u53) by (split; [apply tiny_pos|apply tiny_u]).
  assert (MP : Rabs (B2R x * B2R k) <= 65536 * 4194304).
  { rewrite Rabs_mult. apply Rmult_le_compat; try apply Rabs_pos; [exact Bx|apply Bk]. }
  destruct (fmul_val x k Fx Fk) as [_ EP].
  { eapply Rle_trans; [exact MP|]. apply Rle_trans with (IZR (2 ^ 40)); [change (IZR (2 ^ 40)) with 1099511627776; lra|apply Z_small; vm_compute; discriminate]. }
  pose proof (rne_err (B2R x * B2R k)) as R1. rewrite <- EP in R1. set (y := B2R (fmul x k)) in *.
  assert (N1 : Rabs (IZR n - y) <= / 2) by (rewrite NA, Rabs_minus_sym; apply Znearest_half).
  assert (U1 : u53 * Rabs (B2R x * B2R k) <= / 32768) by (rewrite UV; lra).
  assert (D1 : Rabs (IZR n - B2R x * B2R k) <= / 2 + / 32768 + tiny).
  { replace (IZR n - B2R x * B2R k) with ((IZR n - y) + (y - B2R x * B2R k)) by ring. eapply Rle_trans; [apply Rabs_triang|]. lra. }
  assert (NB : Rabs (IZR n) <= 274877906946).
  { replace (IZR n) with ((IZR n - B2R x * B2R k) + B2R x * B2R k) by ring. eapply Rle_trans; [apply Rabs_triang|]. rewrite UV in TU. lra. }
  assert (NZ : (Z.abs n <= 2 ^ 53)%Z).
  { apply Z.le_trans with 274877906946%Z; [apply le_IZR; rewrite abs_IZR; exact NB|lia]. }
  destruct (f_of_Z_exact n NZ) as [Fn En].
  assert (QM : Rabs (IZR n / B2R k) * m = Rabs (IZR n)).
  { unfold m. rewrite <- Rabs_mult. f_equal. field. exact K0. }
  destruct (fdiv_val (f_of_Z n) k Fn K0) as [_ ED].
  { rewrite En. apply Rle_trans with (IZR (2 ^ 60)); [|change (IZR (2 ^ 60)) with (bpow radix2 60); apply bpow_le; lia].
    change (IZR (2 ^ 60)) with 1152921504606846976. pose proof (Rabs_pos (IZR n / B2R k)). nra. }
  rewrite En in ED. rewrite ED. pose proof (rne_err (IZR n / B2R k)) as R2. set (q := IZR n / B2R k) in *.
  assert (XQ : Rabs (B2R x - q) * m <= / 2 + / 32768 + tiny).
  { unfold m. rewrite <- Rabs_mult. replace ((B2R x - q) * B2R k) with (- (IZR n - B2R x * B2R k)) by (unfold q; field; exact K0). rewrite Rabs_Ropp. exact D1. }
  apply Rmult_le_reg_r with m; [lra|]. replace (51 / 100 / m * m) with (51 / 100) by (field; lra).
  assert (TR : Rabs (B2R x - rne q) <= Rabs (B2R x - q) + Rabs (rne q - q)).
  { replace (B2R x - rne q) with ((B2R x - q) + - (rne q - q)) by ring. eapply Rle_trans; [apply Rabs_triang|]. rewrite Rabs_Ropp. lra. }
  assert (R3 : Rabs (rne q - q) * m <= (u53 * Rabs q + tiny) * m) by (apply Rmult_le_compat_r; lra).
  assert (R4 : (u53 * Rabs q + tiny) * m = u53 * Rabs (IZR n) + tiny * m) by (rewrite <- QM; ring).
  assert (R5 : tiny * m <= tiny * 4194304) by (apply Rmult_le_compat_l; lra).
  assert (R6 : u53 * Rabs (IZR n) <= / 32767) by (rewrite UV; lra).
  assert (R7 : Rabs (B2R x - rne q) * m <= (Rabs (B2R x - q) + Rabs (rne q - q)) * m) by (apply Rmult_le_compat_r; lra).
  rewrite UV in TU. lra.
Qed.

(** Where a machine within [z] steps stands, as a place. *)
Lemma place_fits : forall s c b, (forall i, scale_ok s i) -> 1 <= b -> (forall i, Z.abs (c_pos (channel c i)) <= 2 ^ 50)%Z ->
  (forall i, IZR (Z.abs (c_pos (channel c i))) <= 2 * b * Rabs (B2R (step_scale s i))) -> fits (3 * b) (machine_place s c).
Proof.
  intros s c b HS Hb HZ HP.
  assert (K : forall i, is_finite (coord_from_steps s (c_pos (channel c i)) i) = true /\ Rabs (B2R (coord_from_steps s (c_pos (channel c i)) i)) <= 3 * b).
  { intros i. destruct (HS i) as [Fk Bk]. specialize (HZ i). specialize (HP i). set (n := c_pos (channel c i)) in *. unfold coord_from_steps. set (k := step_scale s i) in *.
    assert (K0 : B2R k <> 0) by (intros Z; rewrite Z, Rabs_R0 in Bk; lra).
    destruct (f_of_Z_exact n ltac:(lia)) as [Fn En].
    assert (QM : Rabs (IZR n / B2R k) * Rabs (B2R k) = Rabs (IZR n)) by (rewrite <- Rabs_mult; f_equal; field; exact K0).
    assert (QB : Rabs (IZR n / B2R k) <= 2 * b).
    { apply Rmult_le_reg_r with (Rabs (B2R k)); [lra|]. rewrite QM, <- abs_IZR. exact HP. }
    assert (QC : Rabs (IZR n / B2R k) <= IZR (2 ^ 70)).
    { change (2 ^ 70)%Z with (2 ^ 50 * 2 ^ 20)%Z. rewrite mult_IZR. change (IZR (2 ^ 20)) with 1048576. apply IZR_le in HZ. rewrite abs_IZR in HZ.
      pose proof (Rabs_pos (IZR n / B2R k)). nra. }
    destruct (fdiv_val (f_of_Z n) k Fn K0) as [F E].
    { rewrite En. eapply Rle_trans; [exact QC|]. change (IZR (2 ^ 70)) with (bpow radix2 70). apply bpow_le. lia. }
    split; [exact F|]. rewrite E, En. eapply Rle_trans; [apply rne_up|]. pose proof u53_val as UV. pose proof tiny_u as TU. rewrite UV in *. lra. }
  destruct (K AX) as [F1 B1]. destruct (K AY) as [F2 B2]. split; [split; assumption|split; assumption].
Qed.

(** The passes of a program all start from where it can go on. *)
Lemma passes_able : forall g s speed a v P K segs, (0 <= K)%Z ->
  (forall T c, (0 <= T)%Z -> (T + K < u64_max)%Z -> able a v P T c -> exists c' e, draw_curves g s c segs speed = Ok (c', e) /\ able a v P (T + K)%Z c') ->
  forall c i x y e, nth_pass g s speed segs c i x y e -> forall T, (0 <= T)%Z -> (T + Z.of_nat (S i) * K < u64_max)%Z -> able a v P T c ->
  able a v P (T + Z.of_nat i * K)%Z x.
Proof.
  intros g s speed a v P K segs HK PASS c i x y e NP. induction NP as [c c1 e H|c c1 e i x y e' H NP IH]; intros T HT TB HA.
  - eapply able_more; [| |exact HA]; intros; lia.
  - rewrite !Nat2Z.inj_succ in *. destruct (PASS T c HT ltac:(nia) HA) as (c2 & e2 & E & A2). rewrite H in E. injection E as <- <-.
    specialize (IH (T + K)%Z ltac:(lia) ltac:(nia) A2). eapply able_more; [| |exact IH]; [intros; lia|nia].
Qed.

(** A document whose figure is one polyline, and a machine that can draw it.  [Q] bounds the coordinates as in C112, [D] the figure, [D'] is a step
    further out, and [N] ticks are enough for the lines of one pass. *)
Record polyline_job (tg : trig) (q : R) (doc : list node) (layer : option (list char)) (g : geometry) (cf : config_) (v_opt a_opt : option f64) (v_draw : f64)
    (n_repeat : Z) (p : vec) (rsegs : list curve_segment) (K M T P : R) (n : nat) (ax ay vx vy D D' N : Z) : Prop := {
  (* the document, as in C111 and C112 *)
  pj_lib : accurate tg q;
  pj_sizes : 0 <= K <= 2 ^ 20 /\ 1 <= M /\ 0 <= T /\ 1 <= P /\ INR n <= 2 ^ 40;
  pj_cost : forall chain, In chain (all_chains (layer_filter layer) doc) ->
    (exists k M' T', chain_cost q chain k M' T' /\ k <= K /\ M' <= M /\ T' <= T) /\ forall d, path_of chain d -> fine_path P n d;
  (* its exact figure: a move and then lines only, within [D] by the error of reading it *)
  pj_figure : parse_document (document_events doc) tidentity (layer_filter layer) = Ok (Some (GoTo p :: rsegs));
  pj_lines : Forall (line_within (IZR D - (5 * INR n + 16 + K) * (3 * (M * (P + T + 1))) / 2 ^ 53)) (GoTo p :: rsegs);
  pj_one : forall r, ~ In (GoTo r) rsegs;
  pj_len : (Z.of_nat (S (List.length rsegs)) <= 2 ^ 20)%Z /\ (n_repeat * (Z.of_nat (S (List.length rsegs)) + 1) <= 2 ^ 45)%Z /\
    INR (S (List.length rsegs)) <= 65536 * (3 * (M * (P + T + 1)));
  pj_box : 3 * (3 * (M * (P + T + 1))) <= 2 ^ 300;
  (* the parts of the program that are parameters of the model *)
  pj_bezier : exists fuel search ints, g_bezier g = fbezier fuel search ints;
  pj_finds : finds (g_find g);
  pj_search : forall keys x, Forall (fun y : f64 => is_finite y = true) keys -> is_finite x = true -> exists i, g_find g keys x = Ok i;
  (* the machine: it can go a quarter faster than it is told to *)
  pj_limits : svg_limits cf v_opt a_opt = Ok (ax, ay, vx, vy);
  pj_tps : tps cf <> 0%Z;
  pj_acc : (1 <= ax <= 32767 /\ 1 <= ay <= 32767)%Z;
  pj_max : (1 <= vx <= 2 ^ 20 /\ 1 <= vy <= 2 ^ 20)%Z;
  pj_scales : forall i, is_finite (step_scale (scales_of cf) i) = true /\ / 65536 <= Rabs (B2R (step_scale (scales_of cf) i)) <= 4194304;
  pj_speed : is_finite (fdiv v_draw (f_of_Z (tps cf))) = true /\ 0 < B2R (fdiv v_draw (f_of_Z (tps cf)));
  pj_slow : forall i, 5 / 4 * (B2R (fdiv v_draw (f_of_Z (tps cf))) * Rabs (B2R (step_scale (scales_of cf) i))) <= 2 * IZR (match i with AX => vx | AY => vy end);
  (* sizes *)
  pj_D : (1 <= D)%Z /\ (D <= D' <= 2 ^ 16)%Z /\ (D' * Z.of_nat (S (List.length rsegs)) <= 2 ^ 32)%Z;
  pj_step : forall i, IZR D * Rabs (B2R (step_scale (scales_of cf) i)) + 1 <= IZR D' * Rabs (B2R (step_scale (scales_of cf) i));
  pj_time : (0 <= N)%Z /\ IZR (8 * D' * Z.of_nat (S (List.length rsegs))) <= IZR N * B2R (fdiv v_draw (f_of_Z (tps cf)));
  pj_move : forall i, let v := match i with AX => vx | AY => vy end in let a := match i with AX => ax | AY => ay end in
    storable (2 * Zceil (IZR D' * Rabs (B2R (step_scale (scales_of cf) i))) + 1 + 2 * v * N) a v;
  (* how far the machine may go in [N] ticks is within the bound on coordinates *)
  pj_far : forall i, let v := match i with AX => vx | AY => vy end in
    IZR (Zceil (IZR D' * Rabs (B2R (step_scale (scales_of cf) i))) + 1 + 2 * v * N) <= 2 * (3 * (M * (P + T + 1))) * Rabs (B2R (step_scale (scales_of cf) i));
  pj_steps : forall i, Rabs (B2R (step_scale (scales_of cf) i)) * (24 * (3 * (M * (P + T + 1)))) <= 2 ^ 62
}.

(** Half a step, in millimetres. *)
Definition half_step (s : scales) (i : axis) : R := 51 / 100 / Rabs (B2R (step_scale s i)).

Lemma polyline_ready : forall tg q doc layer g cf v_opt a_opt v_draw n_repeat intensity p rsegs K M T P n ax ay vx vy D D' N,
  polyline_job tg q doc layer g cf v_opt a_opt v_draw n_repeat p rsegs K M T P n ax ay vx vy D D' N ->
  let v := fdiv v_draw (f_of_Z (tps cf)) in
  let Q := 3 * (M * (P + T + 1)) in
  exists c' e, svg_program tg g cf v_opt a_opt v_draw n_repeat intensity layer (document_events doc) = Ok (c', e) /\
    (forall i, ticks_of c' i <= Z.of_nat (Z.to_nat n_repeat) * (Z.of_nat (S (S (List.length rsegs))) * (65535 + N)) + 65535)%Z /\
    (forall i, ticks_of c' i < u64_max)%Z /\
    (forall segs ax ay vmx vmy i a b e, fparse_document tg (document_events doc) fidentity (layer_filter layer) = Ok (Some segs) ->
      svg_limits cf v_opt a_opt = Ok (ax, ay, vmx, vmy) -> (Z.of_nat i < n_repeat)%Z ->
      nth_pass g (scales_of cf) v segs (set_weight (new_ctx ax ay vmx vmy) (svg_weight intensity)) i a b e ->
      fits (3 * Q) (machine_place (scales_of cf) a) /\ lengths_sane g (scales_of cf) v (3 * Q) (begin_drawing (scales_of cf) a) segs /\
      gotos_near g (scales_of cf) v (half_step (scales_of cf)) (begin_drawing (scales_of cf) a) segs).
Proof.
  intros tg q doc layer g cf v_opt a_opt v_draw n_repeat intensity p rsegs K M T P n ax ay vx vy D D' N J speed Q.
  destruct J as [AC (KL & M1 & T0 & P1 & NB) CF PD HL ONE (Hn & HR & _) BQ _ _ HG LM TP (Ha1 & Ha2) (Hv1 & Hv2) HS (Fp & Pp) HV (HD & HD' & HDn) HDD (HN & HB) HSt HF _].
  fold Q in HL, BQ, HF. fold speed in Fp, Pp, HV, HB.
  set (av := fun i => match i with AX => ax | AY => ay end). set (vv := fun i => match i with AX => vx | AY => vy end).
  assert (Q6 : 6 <= Q).
  { unfold Q. assert (P + T + 1 <= M * (P + T + 1)) by (rewrite <- (Rmult_1_l (P + T + 1)) at 1; apply Rmult_le_compat_r; lra). lra. }
  assert (B4 : 3 * (M * (P + T + 1)) <= 2 ^ 400).
  { fold Q. apply Rle_trans with (2 ^ 300); [lra|]. apply Rle_pow; [lra|lia]. }
  pose proof (C111_document tg q (layer_filter layer) doc K M T P n AC (proj2 KL) M1 T0 P1 NB B4 CF) as W. rewrite PD in W. fold Q in W.
  unfold svg_program. rewrite LM. cbn [bind].
  destruct (fparse_document _ _ _ _) as [[segs|]| |]; try contradiction. cbn [bind unwrap].
  set (E := (5 * INR n + 16 + K) * Q / 2 ^ 53) in *. clearbody E.
  assert (LN : List.length segs = S (List.length rsegs)) by (change (S (List.length rsegs)) with (List.length (GoTo p :: rsegs)); clear - W; induction W; cbn [List.length]; congruence).
  assert (AM : Forall (line_or_move_any D) segs).
  { clear - W HL. induction W as [|x y l l' W1 W2 IH]; constructor; inversion HL; subst; auto. eapply within_any; eassumption. }
  inversion W as [|x y segs1 l' W1 W2]. subst y l'. destruct x as [p0| | | |]; cbn [segment_within] in W1; try contradiction. subst segs.
  assert (NG : forall r, ~ In (SGoTo r) segs1).
  { clear - W2 ONE. induction W2 as [|x y l l' A B IH]; intros r; [intros []|]. intros [->|I].
    - destruct y; cbn [segment_within] in A; try contradiction. eapply ONE. left. reflexivity.
    - eapply IH; [|exact I]. intros r0 I0. eapply ONE. right. exact I0. }
  destruct (main_drawn g cf v_opt a_opt v_draw n_repeat intensity (SGoTo p0 :: segs1) (5 / 4) ax ay vx vy D D' N) as (c & e & EM & TB & TM & K0 & A0 & PASS);
    rewrite ?LN; auto using bound_wide, line_any_reach.
  - intros []; assumption.
  - intros []; assumption.
  - intros i. assert (L : forall x y : R, x <= y -> x <= y + / 1024) by (intros; lra). apply L, HV.
  - right. eauto.
  - fold av vv in A0, PASS. change (mk_scales (steps_per_mm (stepper_x cf)) (steps_per_mm (stepper_y cf))) with (scales_of cf) in *. fold speed in PASS.
    rewrite LN in TB, TM, K0, PASS. set (KK := (Z.of_nat (S (S (List.length rsegs))) * (65535 + N))%Z) in *.
    exists c, e. split; [exact EM|]. split; [exact TB|]. split; [intros i; specialize (TB i); lia|].
    intros segs ax' ay' vmx vmy i a b e' FP LM' IN NP. injection FP as <-. injection LM' as <- <- <- <-.
    assert (IK : (0 + Z.of_nat (S i) * KK < u64_max)%Z).
    { assert (Z.of_nat (S i) <= Z.of_nat (Z.to_nat n_repeat))%Z by lia. nia. }
    assert (A1 := passes_able _ _ _ _ _ _ _ _ K0 PASS _ _ _ _ _ NP 0 ltac:(lia) IK A0).
    assert (PB := ab_place _ _ _ _ _ A1). cbv beta in PB.
    split; [|split].
    + apply place_fits; [exact HS|lra| |].
      * intros j. eapply Z.le_trans; [apply PB|]. specialize (HSt j). cbv zeta in HSt. unfold storable in HSt.
        set (G := Zceil (IZR D' * Rabs (B2R (step_scale (scales_of cf) j)))) in *.
        assert (G0 : (0 <= G)%Z).
        { apply le_IZR. eapply Rle_trans; [|apply Zceil_ub]. apply Rmult_le_pos; [apply (IZR_le 0); lia|apply Rabs_pos]. }
        assert (LA : (1 <= av j <= 32767 /\ 1 <= vv j <= 2 ^ 20)%Z) by (destruct j; cbn; lia).
        fold (av j) in HSt. fold (vv j) in HSt. change (match j with AX => vx | AY => vy end) with (vv j). clear - HSt G0 LA HN. set (aa := av j) in *. set (w := vv j) in *. clearbody aa w G.
        assert (W0 : (0 <= 2 * w * N)%Z) by nia. rewrite Z.abs_eq in HSt by lia.
        assert (W2 : (0 <= 8 * (w * w))%Z) by nia. assert (X : (2 * G + 1 + 2 * w * N < 2 * w * 65533)%Z).
        { apply (Z.mul_lt_mono_pos_l aa); [lia|]. replace (aa * (2 * w * 65533))%Z with (2 * aa * w * 65533)%Z by ring. lia. }
        lia.
      * intros j. eapply Rle_trans; [apply IZR_le, PB|]. apply HF.
    + intros s1 e0 c1 c2 s2 d curve ES. exfalso. rewrite Forall_forall in AM. assert (I : In (SCurveTo e0 c1 c2) (SGoTo p0 :: segs1)) by (rewrite ES; apply in_or_app; right; left; reflexivity).
      exact (AM _ I).
    + intros s1 r s2 d ES LO [ST1 ST2]. destruct s1 as [|x s1]; cbn [app] in ES; injection ES as <- ES'.
      * cbn [draw_loop] in LO. injection LO as <-. cbn [begin_drawing d_ctx d_pos] in *. inversion AM as [|? ? AP _]; subst. cbn in AP.
        assert (D6 : IZR D <= 65536) by (apply (IZR_le _ 65536); lia).
        intros []; cbn [coord rv Coords.vx Coords.vy machine_place fx fy]; unfold half_step.
        -- destruct (AP AX) as [F1 B1]. apply stands_close; [apply HS|exact F1|cbn [fidx] in B1; lra|exact ST1].
        -- destruct (AP AY) as [F1 B1]. apply stands_close; [apply HS|exact F1|cbn [fidx] in B1; lra|exact ST2].
      * exfalso. apply (NG r). rewrite ES'. apply in_or_app. right. left. reflexivity.
Qed.

Lemma closes_same : forall E segs rsegs, Forall2 (segment_within E) segs rsegs ->
  closes segs = List.length (filter (fun r => match r with CloseTo _ => true | _ => false end) rsegs).
Proof.
  intros E segs rsegs W. unfold closes. induction W as [|x y l l' A B IH]; [reflexivity|].
  destruct x, y; cbn [segment_within] in A; try contradiction; cbn [filter is_close List.length]; rewrite ?IH; reflexivity.
Qed.

(** C132 *)

(** The program comes to its end, and whenever the laser burns, the machine is near a point of the figure. *)
Theorem C132_burned : forall tg q doc layer g cf v_opt a_opt v_draw n_repeat intensity p rsegs K M T P n ax ay vx vy D D' N,
  polyline_job tg q doc layer g cf v_opt a_opt v_draw n_repeat p rsegs K M T P n ax ay vx vy D D' N ->
  let v := fdiv v_draw (f_of_Z (tps cf)) in
  let Q := 3 * (M * (P + T + 1)) in
  let len := INR (S (List.length rsegs)) in
  let corners := INR (List.length (filter (fun r => match r with CloseTo _ => true | _ => false end) rsegs)) in
  exists c' ex ey segs, svg_program tg g cf v_opt a_opt v_draw n_repeat intensity layer (document_events doc) = Ok (c', (ex, ey)) /\
    fparse_document tg (document_events doc) fidentity (layer_filter layer) = Ok (Some segs) /\
    forall w u, (0 <= u)%Z -> m_weight (play (events c') u (machine0 w)) <> 0%Z ->
    exists i a b e z,
      (* in the pass with number [i], with the errors [e] it measures; those of the last pass are what the program reports *)
      nth_pass g (scales_of cf) v segs (set_weight (new_ctx ax ay vx vy) (svg_weight intensity)) i a b e /\
      (Z.of_nat i < n_repeat)%Z /\ (Z.of_nat (S i) = n_repeat -> e = (ex, ey)) /\
      figure (mk_vec 0 0) (GoTo p :: rsegs) z /\
      forall j, Rabs (IZR (s_pos (machine_axis (play (events c') (u + 1) (machine0 w)) j)) - B2R (step_scale (scales_of cf) j) * coord z j)
        <= IZR (match j with AX => fst e | AY => snd e end) + 151 / 100 + Rabs (B2R (step_scale (scales_of cf) j)) *
           ((9600 * len + 15 * INR n + 3 * K + 2262) * Q / 2 ^ 53 + 4 / 10 ^ 6 * corners).
Proof.
  intros tg q doc layer g cf v_opt a_opt v_draw n_repeat intensity p rsegs K M T P n ax ay vx vy D D' N J v Q len corners.
  destruct (polyline_ready _ _ _ _ _ _ _ _ _ _ intensity _ _ _ _ _ _ _ _ _ _ _ _ _ _ J) as (c' & [ex ey] & PR & _ & Hm & PS). fold v Q in PS.
  destruct J as [AC (KL & M1 & T0 & P1 & NB) CF PD HL ONE (Hn & _ & BL2) BQ (fuel & search & ints & GB) FG HG LM _ _ _ HS _ _ _ _ _ _ _ SC].
  fold Q in HL, BQ, BL2, SC. fold len in BL2.
  assert (Q6 : 6 <= Q).
  { unfold Q. assert (P + T + 1 <= M * (P + T + 1)) by (rewrite <- (Rmult_1_l (P + T + 1)) at 1; apply Rmult_le_compat_r; lra). lra. }
  assert (B4 : 3 * (M * (P + T + 1)) <= 2 ^ 400).
  { fold Q. apply Rle_trans with (2 ^ 300); [lra|]. apply Rle_pow; [lra|lia]. }
  assert (L40 : len <= 2 ^ 40).
  { unfold len. rewrite INR_IZR_INZ. apply Rle_trans with (IZR (2 ^ 20)); [apply IZR_le; exact Hn|]. change (IZR (2 ^ 20)) with 1048576. cbn [pow]. lra. }
  pose proof (C111_document tg q (layer_filter layer) doc K M T P n AC (proj2 KL) M1 T0 P1 NB B4 CF) as W. rewrite PD in W.
  destruct (fparse_document tg (document_events doc) fidentity (layer_filter layer)) as [[segs|]| |] eqn:FP; try contradiction.
  assert (CS : closes segs = List.length (filter (fun r => match r with CloseTo _ => true | _ => false end) rsegs)) by (rewrite (closes_same _ _ _ W); reflexivity).
  exists c', ex, ey, segs. split; [exact PR|]. split; [reflexivity|]. intros w u U0 HW. rewrite <- FP in PS.
  assert (H0 : forall i, 0 <= half_step (scales_of cf) i).
  { intros i. unfold half_step. destruct (HS i) as [_ B]. apply Rmult_le_pos; [lra|]. left. apply Rinv_0_lt_compat. lra. }
  destruct (C112_program tg q doc layer g cf v_opt a_opt v_draw n_repeat intensity c' ex ey p rsegs K M T P n fuel search ints (half_step (scales_of cf)) w u
    PR PD AC KL M1 T0 P1 NB CF BQ L40 BL2 Hm GB FG ltac:(intros i; split; [apply HS|apply SC]) H0 PS U0 HW)
    as (ax' & ay' & vmx & vmy & segs' & i & a & b & e & z & LI & FP' & NP & IN & LE & FI & B).
  rewrite LM in LI. injection LI as <- <- <- <-. rewrite FP in FP'. injection FP' as <-.
  exists i, a, b, e, z. split; [exact NP|]. split; [exact IN|]. split; [exact LE|]. split; [exact FI|]. intros j. eapply Rle_trans; [apply B|].
  fold Q len. rewrite CS. fold corners. right. unfold half_step. destruct (HS j) as [_ BB]. field. lra.
Qed.

(** And in every pass, every line of the figure that is longer than about a tick and a half of movement is burned along its whole length. *)
Theorem C132_covered : forall tg q doc layer g cf v_opt a_opt v_draw n_repeat intensity p rsegs K M T P n ax ay vx vy D D' N,
  polyline_job tg q doc layer g cf v_opt a_opt v_draw n_repeat p rsegs K M T P n ax ay vx vy D D' N ->
  let v := fdiv v_draw (f_of_Z (tps cf)) in
  let Q := 3 * (M * (P + T + 1)) in
  let len := INR (S (List.length rsegs)) in
  let corners := INR (List.length (filter (fun r => match r with CloseTo _ => true | _ => false end) rsegs)) in
  (n_repeat * (Z.of_nat (S (S (List.length rsegs))) * (65535 + N)) + 65535 < 2 ^ 31 - 1)%Z ->
  exists c' ex ey segs, svg_program tg g cf v_opt a_opt v_draw n_repeat intensity layer (document_events doc) = Ok (c', (ex, ey)) /\
    fparse_document tg (document_events doc) fidentity (layer_filter layer) = Ok (Some segs) /\
    forall w i s1 seg s2 e t, (Z.of_nat i < n_repeat)%Z -> GoTo p :: rsegs = s1 ++ seg :: s2 -> seg = LineTo e \/ seg = CloseTo e -> 0 <= t <= 1 ->
    let from := pen (mk_vec 0 0) s1 in
    3 / 2 * B2R v + half_step (scales_of cf) AX + half_step (scales_of cf) AY + (5100 * len + 20 * INR n + 4 * K + 64) * Q / 2 ^ 53 + 8 / 10 ^ 6 <=
      sqrt ((Coords.vx e - Coords.vx from) * (Coords.vx e - Coords.vx from) + (Coords.vy e - Coords.vy from) * (Coords.vy e - Coords.vy from)) ->
    exists a b er u, nth_pass g (scales_of cf) v segs (set_weight (new_ctx ax ay vx vy) (svg_weight intensity)) i a b er /\
      (Z.of_nat (S i) = n_repeat -> er = (ex, ey)) /\
      (ticks_of a AX <= u < ticks_of b AX)%Z /\ m_weight (play (events c') u (machine0 w)) = svg_weight intensity /\
      forall j, Rabs (IZR (s_pos (machine_axis (play (events c') (u + 1) (machine0 w)) j)) -
          B2R (step_scale (scales_of cf) j) * coord (vadd from (vscale (vsub e from) t)) j)
        <= IZR (match j with AX => fst er | AY => snd er end) + 151 / 100 + Rabs (B2R (step_scale (scales_of cf) j)) *
           (3 / 2 * B2R v + (13500 * len + 5 * INR n + K + 2230) * Q / 2 ^ 53 + 4 / 10 ^ 6 * corners).
Proof.
  intros tg q doc layer g cf v_opt a_opt v_draw n_repeat intensity p rsegs K M T P n ax ay vx vy D D' N J v Q len corners TT.
  destruct (polyline_ready _ _ _ _ _ _ _ _ _ _ intensity _ _ _ _ _ _ _ _ _ _ _ _ _ _ J) as (c' & [ex ey] & PR & TB & _ & PS). fold v Q in PS.
  destruct J as [AC (KL & M1 & T0 & P1 & NB) CF PD HL ONE (Hn & _ & BL2) BQ (fuel & search & ints & GB) FG HG LM _ _ _ HS (_ & V0) _ _ _ (HN & _) _ _ SC].
  fold Q in HL, BQ, BL2, SC. fold len in BL2. fold v in V0.
  assert (Q6 : 6 <= Q).
  { unfold Q. assert (P + T + 1 <= M * (P + T + 1)) by (rewrite <- (Rmult_1_l (P + T + 1)) at 1; apply Rmult_le_compat_r; lra). lra. }
  assert (B4 : 3 * (M * (P + T + 1)) <= 2 ^ 400).
  { fold Q. apply Rle_trans with (2 ^ 300); [lra|]. apply Rle_pow; [lra|lia]. }
  assert (L40 : len <= 2 ^ 40).
  { unfold len. rewrite INR_IZR_INZ. apply Rle_trans with (IZR (2 ^ 20)); [apply IZR_le; exact Hn|]. change (IZR (2 ^ 20)) with 1048576. cbn [pow]. lra. }
  pose proof (C111_document tg q (layer_filter layer) doc K M T P n AC (proj2 KL) M1 T0 P1 NB B4 CF) as W. rewrite PD in W.
  destruct (fparse_document tg (document_events doc) fidentity (layer_filter layer)) as [[segs|]| |] eqn:FP; try contradiction.
  assert (CS : closes segs = List.length (filter (fun r => match r with CloseTo _ => true | _ => false end) rsegs)) by (rewrite (closes_same _ _ _ W); reflexivity).
  exists c', ex, ey, segs. split; [exact PR|]. split; [reflexivity|]. intros w i s1 seg s2 e t IN ES SE HT from LL. rewrite <- FP in PS.
  assert (H0 : forall i, 0 <= half_step (scales_of cf) i).
  { intros j. unfold half_step. destruct (HS j) as [_ B]. apply Rmult_le_pos; [lra|]. left. apply Rinv_0_lt_compat. lra. }
  assert (TK : forall j, (ticks_of c' j < 2 ^ 31 - 1)%Z).
  { intros j. specialize (TB j). rewrite Z2Nat.id in TB by lia. lia. }
  destruct (C114_program tg q doc layer g cf v_opt a_opt v_draw n_repeat intensity c' ex ey p rsegs K M T P n fuel search ints (half_step (scales_of cf)) w i s1 seg s2 e t
    PR PD AC KL M1 T0 P1 NB CF BQ L40 BL2 (conj (TK AX) (TK AY)) GB FG ltac:(intros j; split; [apply HS|apply SC]) H0 V0 PS IN ES SE HT LL)
    as (ax' & ay' & vmx & vmy & segs' & a & b & er & u & LI & FP' & NP & LE & HU & HW & B).
  rewrite LM in LI. injection LI as <- <- <- <-. rewrite FP in FP'. injection FP' as <-.
  exists a, b, er, u. split; [exact NP|]. split; [exact LE|]. split; [exact HU|]. split; [exact HW|]. intros j. eapply Rle_trans; [apply B|].
  fold Q len v. rewrite CS. fold corners. right. unfold half_step. destruct (HS j) as [_ BB]. field. lra.
Qed.

Lemma fine_more : forall P P' n d, P <= P' -> fine_path P n d -> fine_path P' n d.
Proof.
  intros P P' n d H (m & args & cmds & I & T & A & F & L). exists m, args, cmds. repeat (split; [assumption|]). split; [|exact L].
  eapply Forall_impl; [|exact F]. intros cmd FC. eapply Forall_impl; [|exact FC]. intros x Hx. cbv beta in Hx. lra.
Qed.

(** The document of C112_example, the configuration in the repository and the default options, drawn ten times. *)
Lemma one_line_job : polyline_job good_trig 3 one_line None C103_geometry sample_config None None (f_of_Z 20) 10 (mk_vec 1 1) [LineTo (mk_vec 2 1)]
  0 1 0 60 3 30000 30000 384000 384000 3 4 410.
Proof.
  assert (S1 : forall i, is_finite (step_scale (scales_of sample_config) i) = true /\ B2R (step_scale (scales_of sample_config) i) = 1966080)
    by (intros []; apply (f_of_Z_exact 1966080); lia).
  assert (SP : is_finite (fdiv (f_of_Z 20) (f_of_Z 128)) = true /\ B2R (fdiv (f_of_Z 20) (f_of_Z 128)) = 5 / 32).
  { split; [|exact one_line_speed]. destruct (f_of_Z_exact 20 ltac:(lia)) as [F1 V1]. destruct (f_of_Z_exact 128 ltac:(lia)) as [F2 V2].
    apply (fdiv_val (f_of_Z 20) (f_of_Z 128) F1 ltac:(rewrite V2; lra)).
    rewrite V1, V2, Rabs_pos_eq by lra. apply Rle_trans with 1; [lra|]. apply (Z_small 1). vm_compute. discriminate. }
  assert (QE : 3 * (1 * (60 + 0 + 1)) = 183) by ring.
  constructor; rewrite ?QE; change (tps sample_config) with 128%Z.
  - exact good_accurate.
  - cbn [INR pow]. lra.
  - intros chain I. destruct (one_line_cost chain I) as [C F]. split; [exact C|]. intros d Hd. apply (fine_more 2); [lra|]. apply F, Hd.
  - exact one_line_exact.
  - assert (E : (5 * INR 3 + 16 + 0) * 183 / 2 ^ 53 <= 1) by (unfold Rdiv; rewrite <- u53_is, u53_val; cbn [INR pow]; lra).
    set (b := (5 * INR 3 + 16 + 0) * 183 / 2 ^ 53) in *. clearbody b.
    repeat (apply Forall_cons; [split; cbn [vx vy]; rewrite Rabs_pos_eq; lra|]). apply Forall_nil.
  - intros r [H|[]]. discriminate H.
  - split; [vm_compute; discriminate|]. split; [vm_compute; discriminate|]. cbn [List.length INR]. lra.
  - apply Rle_trans with (2 ^ 10); [cbn [pow]; lra|apply Rle_pow; [lra|lia]].
  - do 3 eexists. reflexivity.
  - exact first_ge_finds.
  - exact first_ge_searches.
  - vm_compute. reflexivity.
  - discriminate.
  - lia.
  - lia.
  - intros i. destruct (S1 i) as [F V]. split; [exact F|]. rewrite V, Rabs_pos_eq; lra.
  - destruct SP as [F V]. split; [exact F|]. rewrite V. lra.
  - intros i. destruct (S1 i) as [_ V]. destruct SP as [_ VP]. rewrite V, VP, Rabs_pos_eq by lra. destruct i; lra.
  - cbn [List.length]. lia.
  - intros i. destruct (S1 i) as [_ V]. rewrite V, Rabs_pos_eq; lra.
  - split; [lia|]. destruct SP as [_ VP]. rewrite VP. cbn [List.length]. change (8 * 4 * Z.of_nat 2)%Z with 64%Z. lra.
  - intros i. destruct (S1 i) as [_ V]. rewrite V, Rabs_pos_eq, <- mult_IZR, Zceil_IZR by lra. destruct i; vm_compute; reflexivity.
  - intros i. destruct (S1 i) as [_ V]. rewrite V, Rabs_pos_eq, <- mult_IZR, Zceil_IZR by lra. destruct i; cbv zeta; (apply Rle_trans with (IZR 322744321); [apply IZR_le; lia|lra]).
  - intros i. destruct (S1 i) as [_ V]. rewrite V, Rabs_pos_eq by lra. cbn [pow]. lra.
Qed.

(** Every point of the line from (1, 1) to (2, 1) is burned in each of the ten passes, and nothing is burned away from the line, up to the errors the passes measure. *)
Example C132_example : exists c' ex ey segs,
  svg_program good_trig C103_geometry sample_config None None (f_of_Z 20) 10 50 None (document_events one_line) = Ok (c', (ex, ey)) /\
  forall i t, (i < 10)%nat -> 0 <= t <= 1 -> exists a b er u,
    nth_pass C103_geometry (scales_of sample_config) (fdiv (f_of_Z 20) (f_of_Z 128)) segs (set_weight (new_ctx 30000 30000 384000 384000) 127) i a b er /\
    (ticks_of a AX <= u < ticks_of b AX)%Z /\ m_weight (play (events c') u (machine0 0)) = 127%Z /\
    Rabs (IZR (MachineSpec.s_pos (m_x (play (events c') (u + 1) (machine0 0)))) - 1966080 * (1 + t)) <= IZR (fst er) + 1966080 / 4.
Proof.
  destruct (C132_covered good_trig 3 one_line None C103_geometry sample_config None None (f_of_Z 20) 10 50 _ _ _ _ _ _ _ _ _ _ _ _ _ _ one_line_job ltac:(vm_compute; reflexivity))
    as (c' & ex & ey & segs & PR & _ & B).
  assert (EV : B2R (fdiv (f_of_Z 20) (f_of_Z (tps sample_config))) = 5 / 32) by exact one_line_speed.
  assert (S1 : forall i, B2R (step_scale (scales_of sample_config) i) = 1966080) by (intros []; apply (f_of_Z_exact 1966080); lia).
  exists c', ex, ey, segs. split; [exact PR|]. intros i t IU HT.
  destruct (B 0%Z i [GoTo (mk_vec 1 1)] (LineTo (mk_vec 2 1)) [] (mk_vec 2 1) t ltac:(lia) eq_refl (or_introl eq_refl) HT) as (a & b & er & u & NP & _ & HU & HW & BB).
  - rewrite EV. unfold half_step. rewrite !S1, Rabs_pos_eq by lra. cbn [pen fold_left vx vy List.length].
    replace ((2 - 1) * (2 - 1) + (1 - 1) * (1 - 1)) with (1 * 1) by ring. rewrite sqrt_square by lra.
    match goal with |- context[?x / 2 ^ 53] => replace (x / 2 ^ 53) with (x * u53) by (rewrite u53_is; reflexivity) end. rewrite u53_val. cbn [INR pow]. lra.
  - exists a, b, er, u. split; [exact NP|]. split; [exact HU|]. split; [exact HW|].
    specialize (BB AX). rewrite S1, EV, (Rabs_pos_eq 1966080) in BB by lra. cbn [coord pen fold_left vadd vsub vscale vx vy machine_axis fst List.length filter] in BB.
    eapply Rle_trans; [|eapply Rle_trans; [exact BB|]].
    + right. do 3 f_equal. ring.
    + match goal with |- context[?x / 2 ^ 53] => replace (x / 2 ^ 53) with (x * u53) by (rewrite u53_is; reflexivity) end. rewrite u53_val. cbn [INR pow]. lra.
Qed.

Print Assumptions C132_burned.
Print Assumptions C132_covered.
