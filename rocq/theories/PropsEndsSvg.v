(** Property C135: svg_path, from its command line on, ends as it should. *)
From Coq Require Import ZArith List Bool NArith Ascii String Reals Lia Lra.
From Flocq Require Import Core BinarySingleNaN.
From Verif Require Import Base Chars Floats FloatProofs FloatScale FloatErr AccVector IntegerCurve StepperContext
  MachineSpec MachineProofs ContextGoto PropsDuration ApproxCurve DrawCurves FloatPath Coords Curves PathBuild BuildProofs
  PropsBuild PathGrammar FloatPathProofs PropsFloatPath FloatCurve PropsFloatCurve DrawProofs PropsSteps
  DrawPlan FloatRun PropsLaser FloatLex ImageRaster PropsRaster SvgMain PropsSvgMain FloatTransform FloatAngles SvgDocument FloatDocument
  PropsFloatTransform PropsSvg FloatPlace PropsFloatSvg PropsLaserSvg PropsCoverSvg DrawTotal FloatTotal PropsTotal PropsProgramTotal PropsDocTotal
  ContextProofs ContextOps ContextHist PropsContext StepperControl ControlSpec ControlProofs PropsControl PathLex Config PropsConfig Programs ControlLive PropsPrograms
  PropsDraw PropsWhole PropsEnds MachineSpec MachineProofs.
Import ListNotations.
Open Scope Z_scope.

(** The stream of a drawing: no event is in the past, and it lasts as long as the planner says. *)
Lemma main_stream : forall g cf v_opt a_opt v_draw n_repeat intensity segs c' e,
  svg_main g cf v_opt a_opt v_draw n_repeat intensity segs = Ok (c', e) -> nonneg (events c') /\ total (events c') = ticks_of c' AX.
Proof.
  intros g cf v_opt a_opt v_draw n_repeat intensity segs c' e M. unfold svg_main in M.
  apply bind_Ok in M. destruct M as ([[[ax ay] vmx] vmy] & L & M). cbv zeta in M.
  set (s := mk_scales _ _) in *. set (v := fdiv _ _) in *. set (c0 := set_weight _ _) in *.
  apply bind_Ok in M. destruct M as ([cn [ex1 ey1]] & R & M).
  apply bind_Ok in M. destruct M as (c1 & G & M). apply bind_Ok in M. destruct M as (t1 & T & M).
  apply bind_Ok in M. destruct M as (_u & _ & M). apply bind_Ok in M. destruct M as (c2 & F & M).
  injection M as -> _.
  assert (H0 : history code (new_ctx ax ay vmx vmy) [SetWeight (svg_weight intensity)] c0).
  { eapply hist_cons; [exact I|reflexivity|apply hist_nil]. }
  destruct (clocked_history _ _ _ _ _ _ H0) as [Hc0 _].
  destruct (repeat_history g s v segs _ _ _ _ _ Hc0 R) as (ops & H1 & R1).
  pose proof (history_app _ _ _ _ H0 _ _ H1) as Hn.
  assert (HG : history code cn [GotoSpeed 0 0 0 0] c1).
  { eapply hist_cons; [exact I|exact G|apply hist_nil]. }
  pose proof (history_app _ _ _ _ Hn _ _ HG) as Hn1.
  destruct (clocked_history _ _ _ _ _ _ Hn1) as [Hc1 _].
  destruct (flush_spec c1 c' Hc1 F) as (S2 & _).
  destruct (C27_flush_stops _ _ _ _ _ _ _ Hn1 F) as (TT & _).
  split; [apply clocked_nonneg, (st_clocked _ _ S2)|exact TT].
Qed.

(** What C131 asks of a document of lines, its figure being [rsegs], and of the machine. *)
Open Scope R_scope.
Record lines_job (tg : trig) (q : R) (doc : list node) (layer : option (list char)) (g : geometry) (cf : config_) (v_opt a_opt : option f64) (v_draw : f64)
    (n_repeat : Z) (rsegs : list curve_segment) (K M T P : R) (n : nat) (ax ay vx vy D D' N : Z) : Prop := {
  (* the document *)
  lj_lib : accurate tg q;
  lj_sizes : K <= 2 ^ 20 /\ 1 <= M /\ 0 <= T /\ 1 <= P /\ INR n <= 2 ^ 40 /\ 3 * (M * (P + T + 1)) <= 2 ^ 400;
  lj_cost : forall chain, In chain (all_chains (layer_filter layer) doc) ->
    (exists k M' T', chain_cost q chain k M' T' /\ k <= K /\ M' <= M /\ T' <= T) /\ forall d, path_of chain d -> fine_path P n d;
  lj_figure : parse_document (document_events doc) tidentity (layer_filter layer) = Ok (Some rsegs);
  lj_starts : rsegs = [] \/ exists p r, rsegs = GoTo p :: r;
  lj_lines : Forall (line_within (IZR D - (5 * INR n + 16 + K) * (3 * (M * (P + T + 1))) / 2 ^ 53)) rsegs;
  lj_len : (Z.of_nat (List.length rsegs) <= 2 ^ 20)%Z /\ (n_repeat * (Z.of_nat (List.length rsegs) + 1) <= 2 ^ 45)%Z;
  lj_search : forall keys x, Forall (fun y : f64 => is_finite y = true) keys -> is_finite x = true -> exists i, g_find g keys x = Ok i;
  (* the machine: it can go a quarter faster than it is told to *)
  lj_limits : svg_limits cf v_opt a_opt = Ok (ax, ay, vx, vy);
  lj_acc : (1 <= ax <= 32767 /\ 1 <= ay <= 32767)%Z;
  lj_max : (1 <= vx <= 2 ^ 20 /\ 1 <= vy <= 2 ^ 20)%Z;
  lj_scales : forall i, is_finite (step_scale (scales_of cf) i) = true /\ / 65536 <= Rabs (B2R (step_scale (scales_of cf) i)) <= 4194304;
  lj_speed : is_finite (fdiv v_draw (f_of_Z (tps cf))) = true /\ 0 < B2R (fdiv v_draw (f_of_Z (tps cf)));
  lj_slow : forall i, 5 / 4 * (B2R (fdiv v_draw (f_of_Z (tps cf))) * Rabs (B2R (step_scale (scales_of cf) i))) <= 2 * IZR (match i with AX => vx | AY => vy end);
  (* sizes *)
  lj_D : (1 <= D)%Z /\ (D <= D' <= 2 ^ 16)%Z /\ (D' * Z.of_nat (List.length rsegs) <= 2 ^ 32)%Z;
  lj_step : forall i, IZR D * Rabs (B2R (step_scale (scales_of cf) i)) + 1 <= IZR D' * Rabs (B2R (step_scale (scales_of cf) i));
  lj_time : (0 <= N)%Z /\ IZR (8 * D' * Z.of_nat (List.length rsegs)) <= IZR N * B2R (fdiv v_draw (f_of_Z (tps cf)));
  lj_move : forall i, let v := match i with AX => vx | AY => vy end in let a := match i with AX => ax | AY => ay end in
    storable (2 * Zceil (IZR D' * Rabs (B2R (step_scale (scales_of cf) i))) + 1 + 2 * v * N) a v
}.

(** C131 with a bound on the duration. *)
Lemma lines_ready : forall tg q doc layer g cf v_opt a_opt v_draw n_repeat intensity rsegs K M T P n ax ay vx vy D D' N, tps cf <> 0%Z ->
  lines_job tg q doc layer g cf v_opt a_opt v_draw n_repeat rsegs K M T P n ax ay vx vy D D' N ->
  exists c' e, svg_program tg g cf v_opt a_opt v_draw n_repeat intensity layer (document_events doc) = Ok (c', e) /\
    forall i, (ticks_of c' i <= Z.of_nat (Z.to_nat n_repeat) * (Z.of_nat (S (List.length rsegs)) * (65535 + N)) + 65535)%Z.
Proof.
  intros tg q doc layer g cf v_opt a_opt v_draw n_repeat intensity rsegs K M T P n ax ay vx vy D D' N TP
    [AC (KL & M1 & T0 & P1 & NB & BZ) CF PD HM HL (Hn & HR) HG LM (Ha1 & Ha2) (Hv1 & Hv2) HS (Fp & Pp) HV (HD & HD' & HDn) HDD (HN & HB) HSt].
  pose proof (C111_document tg q (layer_filter layer) doc K M T P n AC KL M1 T0 P1 NB BZ CF) as W. rewrite PD in W.
  unfold svg_program. rewrite LM. cbn [bind].
  destruct (fparse_document _ _ _ _) as [[segs|]| |]; try contradiction. cbn [bind unwrap].
  assert (LN : List.length segs = List.length rsegs) by (clear - W; induction W; cbn [List.length]; congruence).
  destruct (main_drawn g cf v_opt a_opt v_draw n_repeat intensity segs (5 / 4) ax ay vx vy D D' N) as (c & e & EM & TB & _);
    rewrite ?LN; auto using bound_wide, line_any_reach.
  - intros []; assumption.
  - intros []; assumption.
  - intros i. assert (L : forall x y : R, x <= y -> x <= y + / 1024) by (intros; lra). apply L, HV.
  - destruct HM as [->|(p & r & ->)]; inversion W as [|x y l l' W1 W2]; subst; [left; reflexivity|right].
    destruct x; cbn [segment_within] in W1; try contradiction. eauto.
  - apply line_any_reach. clear - W HL. induction W as [|x y l l' W1 W2 IH]; constructor; inversion HL; subst; auto. eapply within_any; eassumption.
  - exists c, e. split; [exact EM|]. rewrite LN in TB. exact TB.
Qed.
Open Scope Z_scope.

(** The files and the options of a run that draws lines: in every reading of the options it is such
    a job, of at most [B] ticks. *)
Record svg_order (tg : trig) (g : geometry) (w : world) (o : svg_options) (cf : config_) (q : R) (doc : list node) (B : Z) : Prop := {
  so_no_help : so_help o = false;
  so_file : exists file rest, so_free o = file :: rest /\ w_xml w file = Some (document_events doc);
  so_configured : configured w (so_config o) cf;
  so_tps : 1 <= tps cf < 2 ^ 31;
  so_numbers : ~ svg_refused o;
  so_job : forall s, svg_says o s -> exists rsegs K M T P n ax ay vx vy D D' N,
    lines_job tg q doc (so_layer o) g cf (s_v_max s) (s_a_max s) (s_draw s) (s_repeat s) rsegs K M T P n ax ay vx vy D D' N /\
    s_repeat s * (Z.of_nat (S (List.length rsegs)) * (65535 + N)) + 65535 <= B
}.

Lemma svg_goes : forall tg g w o cf q doc B, svg_order tg g w o cf q doc B ->
  exists s c c' e, svg_says o s /\ svg_run tg g cf s (so_layer o) (document_events doc) = Ok (c', e) /\ nonneg (events c') /\ total (events c') <= B /\
    flush c = Ok c' /\
    forall fuel w', w_json w' = w_json w -> w_xml w' = w_xml w ->
      (so_device o = None -> svg_path_main tg g fuel w' o [] = ([], Val Finished)) /\
      (forall name p, so_device o = Some name -> w_device w' name = Some p ->
         svg_path_main tg g fuel w' o [] = send fuel (Some p) (events c') []).
Proof.
  intros tg g w o cf q doc B [HE (file & rest & FR & WX) CF TP NR JOB].
  destruct (configured_of _ _ _ CF) as (n & l & CN & CO).
  pose proof (given_spec (so_v_max o)) as S1. destruct (given parse_f64 (so_v_max o)) as [v_opt|] eqn:E1; [|unfold svg_refused in NR; tauto].
  pose proof (given_spec (so_a_max o)) as S2. destruct (given parse_f64 (so_a_max o)) as [a_opt|] eqn:E2; [|unfold svg_refused in NR; tauto].
  pose proof (given_or_spec (f_of_Z 20) (so_draw_speed o)) as S3. destruct (given_or parse_f64 (f_of_Z 20) (so_draw_speed o)) as [v_draw|] eqn:E3; [|unfold svg_refused in NR; tauto].
  pose proof (count_spec 1 (2 ^ 31 - 1) parse_repeat 1 (so_repeat o) repeat_spec) as S4. destruct (given_or parse_repeat 1 (so_repeat o)) as [r|] eqn:E4; [|unfold svg_refused in NR; tauto].
  pose proof (count_spec 0 100 parse_intensity 5 (so_intensity o) intensity_spec) as S5. destruct (given_or parse_intensity 5 (so_intensity o)) as [k|] eqn:E5; [|unfold svg_refused in NR; tauto].
  set (s := mk_svg_settings v_opt a_opt v_draw r k).
  assert (SA : svg_says o s) by exact (conj (proj1 S1) (conj (proj1 S2) (conj (proj1 S3) (conj (proj1 S4) (proj1 S5))))).
  assert (R0 : 1 <= s_repeat s).
  { destruct SA as (_ & _ & _ & SR & _). unfold says in SR. destruct (so_repeat o); [destruct SR; lia|lia]. }
  destruct (JOB s SA) as (rsegs & K & M & T & P & m & ax & ay & vx & vy & D & D' & N & J & JB).
  assert (TP0 : tps cf <> 0) by (clear - TP; lia).
  destruct (lines_ready _ _ _ _ _ _ _ _ _ _ (s_intensity s) _ _ _ _ _ _ _ _ _ _ _ _ _ TP0 J) as (c' & e & RUN & TB).
  rewrite Z2Nat.id in TB by lia.
  assert (ST : nonneg (events c') /\ total (events c') = ticks_of c' AX).
  { pose proof RUN as RU. unfold svg_program in RU. apply bind_Ok in RU. destruct RU as (lim & _ & RU). apply bind_Ok in RU. destruct RU as (x & _ & RU).
    apply bind_Ok in RU. destruct RU as (segs & _ & RU). exact (main_stream _ _ _ _ _ _ _ _ _ _ RU). }
  destruct ST as [NN TT].
  destruct (proj1 (run_flushed tg g cf s (so_layer o) (document_events doc) c')) as (c & DR & FL). { exists e. exact RUN. }
  exists s, c, c', e. split; [exact SA|]. split; [exact RUN|]. split; [exact NN|]. split; [specialize (TB AX); lia|]. split; [exact FL|].
  intros fuel w' WJ WX'.
  assert (CO' : config_of w' n = Some (cf, l)) by (unfold config_of in *; rewrite WJ; exact CO).
  change (2 ^ 31) with 2147483648 in TP.
  assert (MN : svg_path_main tg g fuel w' o [] = io_bind (device_of w' (so_device o)) (fun dev =>
      io_bind match dev with None => ret c | Some _ => lift (flush c) end (fun c => send fuel dev (events c))) []).
  { unfold svg_path_main. rewrite HE, FR, CN, CO'. unfold io_bind at 1, lift at 1. unfold chk_u32 at 1. rewrite chk_in by (unfold u32_max; lia).
    rewrite E1, E2, E3, E4, E5, WX', WX. unfold io_bind.
    destruct (device_of w' (so_device o) []) as [tr [dev| | |]]; try reflexivity.
    change (svg_drawing tg g cf v_opt a_opt v_draw r k (so_layer o) (document_events doc)) with (svg_drawn_by tg g cf s (so_layer o) (document_events doc)).
    unfold lift at 1. rewrite DR. reflexivity. }
  split.
  - intros DN. rewrite MN, DN. reflexivity.
  - intros name p0 DN DP. rewrite MN, DN. unfold io_bind at 1, device_of. rewrite DP. unfold ret at 1.
    unfold io_bind, lift. rewrite FL. reflexivity.
Qed.

(** C135.  As C134, for svg_path. *)
Theorem C135_no_device : forall tg g fuel w o cf q doc B, svg_order tg g w o cf q doc B -> so_device o = None ->
  svg_path_main tg g fuel w o [] = ([], Val Finished).
Proof.
  intros tg g fuel w o cf q doc B O D. destruct (svg_goes _ _ _ _ _ _ _ _ O) as (s & c & c' & e & _ & _ & _ & _ & _ & G).
  apply (G fuel w eq_refl eq_refl); exact D.
Qed.

Theorem C135_sent : forall tg g w o cf q doc B name, svg_order tg g w o cf q doc B -> so_device o = Some name ->
  exists n s c' e, svg_says o s /\ svg_run tg g cf s (so_layer o) (document_events doc) = Ok (c', e) /\ n = List.length (events c') /\
    forall w' script r0 t0 ns, w_json w' = w_json w -> w_xml w' = w_xml w -> w_device w' name = Some (scripted script) ->
      ~ In RFail script -> bytes script = unlines (r0 :: answers ns) -> ~ In 10 r0 -> parse_i64 r0 = Some t0 ->
      List.length ns = n -> - 2 ^ 63 <= t0 + 128 -> t0 + 128 + B < 2 ^ 63 ->
      exists tr, forall fuel, (List.length script < fuel)%nat ->
        svg_path_main tg g fuel w' o [] = (tr, Val Finished).
Proof.
  intros tg g w o cf q doc B name O D. destruct (svg_goes _ _ _ _ _ _ _ _ O) as (s & c & c' & e & SA & RUN & NN & TB & FL & G).
  exists (List.length (events c')), s, c', e. do 3 (split; [first [assumption|reflexivity]|]).
  intros w' script r0 t0 ns WJ WX WD F Bs R P L T1 T2.
  destruct (stream_sent (events c') NN script r0 t0 ns F Bs R P L) as (tr & PL).
  - unfold i64_min. change (2 ^ 63) with 9223372036854775808 in *. lia.
  - unfold i64_max. change (2 ^ 63) with 9223372036854775808 in *. lia.
  - exists tr. intros fuel Hf. destruct (G fuel w' WJ WX) as [_ S]. rewrite (S name (scripted script) D WD).
    unfold send, io_bind, io_unwrap. rewrite (PL fuel Hf). reflexivity.
Qed.

(** The polylines of C132 are among them. *)
Lemma polyline_lines : forall tg q doc layer g cf v_opt a_opt v_draw n_repeat p rsegs K M T P n ax ay vx vy D D' N,
  polyline_job tg q doc layer g cf v_opt a_opt v_draw n_repeat p rsegs K M T P n ax ay vx vy D D' N ->
  lines_job tg q doc layer g cf v_opt a_opt v_draw n_repeat (GoTo p :: rsegs) K M T P n ax ay vx vy D D' N.
Proof.
  intros tg q doc layer g cf v_opt a_opt v_draw n_repeat p rsegs K M T P n ax ay vx vy D D' N
    [AC (KL & M1 & T0 & P1 & NB) CF PD HL _ (Hn & HR & _) BQ _ _ HG LM _ HA HV HS HP HW HD HDD HN HSt _ _].
  constructor; auto; try (cbn [List.length]; assumption || tauto); [|eauto].
  do 5 (split; [tauto|]). apply Rle_trans with (2 ^ 300)%R; [|apply Rle_pow; [lra|lia]].
  assert (0 <= M * (P + T + 1))%R by (apply Rmult_le_pos; lra). lra.
Qed.

(** The line of a millimetre of C132_example ten times, with the configuration in the repository. *)
Definition ten_times (device : option (list char)) : svg_options :=
  mk_svg_options false [chars "line.svg"] (Some (chars "c.json")) device None None None (Some (chars "10")) None None.

Lemma ten_lines_order : forall script device, svg_order good_trig C103_geometry (a_world script) (ten_times device) sample_config 3%R one_line 2044435.
Proof.
  intros script device. constructor.
  - reflexivity.
  - exists (chars "line.svg"), []. split; reflexivity.
  - exists (chars "c.json"), (write_config sample_config (mk_laser 256 256 5)), (mk_laser 256 256 5).
    split; [reflexivity|]. split; [reflexivity|]. apply C95_read. apply C95_write; [cbn [tps sample_config]; lia|]. cbn [max_intensity pwm_period alignment_intensity]. repeat constructor; lia.
  - cbn [tps sample_config]; lia.
  - unfold svg_refused. intros [H|[H|[H|[H|H]]]]; destruct H as (t & E & X); try discriminate E.
    injection E as <-. apply (X 10). apply repeat_spec. vm_compute. reflexivity.
  - intros s (S1 & S2 & S3 & S4 & S5). unfold says, ten_times in S1, S2, S3, S4, S5. cbn [so_v_max so_a_max so_draw_speed so_repeat so_intensity] in S1, S2, S3, S4, S5.
    apply repeat_spec in S4. replace (parse_repeat (chars "10")) with (Some 10) in S4 by (vm_compute; reflexivity). injection S4 as S4.
    do 13 eexists. rewrite S1, S2, S3, <- S4. split; [exact (polyline_lines _ _ _ _ _ _ _ _ _ _ _ _ _ _ _ _ _ _ _ _ _ _ _ _ one_line_job)|]. vm_compute. discriminate.
Qed.

Example C135_no_device_example : forall fuel, svg_path_main good_trig C103_geometry fuel (a_world []) (ten_times None) [] = ([], Val Finished).
Proof. intros fuel. exact (C135_no_device _ _ _ _ _ _ _ _ _ (ten_lines_order [] None) eq_refl). Qed.

Example C135_sent_example : exists n tr, forall fuel, (List.length (oks n) < fuel)%nat ->
  svg_path_main good_trig C103_geometry fuel (a_world (oks n)) (ten_times (Some (chars "tty"))) [] = (tr, Val Finished).
Proof.
  destruct (C135_sent _ _ _ _ _ _ _ _ (chars "tty") (ten_lines_order [] _) eq_refl) as (n & s & c' & e & _ & _ & _ & G).
  exists n. apply (G (a_world (oks n)) (oks n) [49; 48; 48] 100 (repeat 0%nat n)); try reflexivity.
  - unfold oks. rewrite in_app_iff. intros [H|H]; [cbn in H; intuition discriminate|]. apply in_concat in H. destruct H as (l & L & H).
    apply List.repeat_spec in L. subst l. cbn in H. intuition discriminate.
  - clear. unfold oks. induction n as [|n IH]; [reflexivity|].
    cbn. cbn in IH. injection IH as IH. rewrite IH. reflexivity.
  - cbn. intuition discriminate.
  - apply repeat_length.
  - lia.
Qed.

Print Assumptions C135_no_device.
Print Assumptions C135_sent.
Print Assumptions C135_sent_example.
