(** C131: documents of lines and moves go through the whole svg_path program.  Everything asked for speaks of the text of the
    document and of the machine; nothing is asked of what the program makes of them in binary64. *)
From Coq Require Import Ascii String ZArith Reals List Bool NArith Lia Lra.
From Flocq Require Import Core BinarySingleNaN.
From Verif Require Import Base Chars Floats FloatProofs FloatScale FloatErr AccVector IntegerCurve StepperContext ApproxCurve DrawCurves
  ContextGoto PropsDuration FloatPath Coords Curves PathBuild PathGrammar FloatPathProofs PropsFloatPath FloatCurve PropsFloatCurve PropsLaser
  FloatLex ImageRaster PropsRaster SvgMain PropsSvgMain FloatTransform FloatAngles SvgDocument FloatDocument
  PropsSvg FloatPlace PropsFloatSvg PropsLaserSvg PropsFloatTransform DrawTotal PropsTotal PropsProgramTotal.
Import ListNotations.
Open Scope R_scope.

(** A move or a line of the exact figure, no coordinate beyond [b]. *)
Definition line_within (b : R) (r : curve_segment) : Prop :=
  match r with GoTo p | LineTo p | CloseTo p => Rabs (vx p) <= b /\ Rabs (vy p) <= b | _ => False end.

Lemma within_any : forall E D s r, segment_within E s r -> line_within (IZR D - E) r -> line_or_move_any D s.
Proof.
  intros E D s r W L.
  assert (K : forall p q, within E p q -> Rabs (vx q) <= IZR D - E /\ Rabs (vy q) <= IZR D - E ->
    forall i, is_finite (fidx p i) = true /\ Rabs (B2R (fidx p i)) <= IZR D).
  { intros p q (F1 & F2 & A1 & A2) [B1 B2] []; cbn [fidx]; (split; [assumption|]).
    - replace (B2R (fx p)) with ((B2R (fx p) - vx q) + vx q) by ring. eapply Rle_trans; [apply Rabs_triang|]. lra.
    - replace (B2R (fy p)) with ((B2R (fy p) - vy q) + vy q) by ring. eapply Rle_trans; [apply Rabs_triang|]. lra. }
  destruct s, r; cbn [segment_within line_within line_or_move_any] in *; try contradiction; eapply K; eassumption.
Qed.

(** C131 *)
Theorem C131_document : forall tg q doc layer g cf v_opt a_opt v_draw n_repeat intensity rsegs K M T P n ax ay vx vy D D' N,
  let a := fun i => match i with AX => ax | AY => ay end in
  let v := fun i => match i with AX => vx | AY => vy end in
  let s := mk_scales (steps_per_mm (stepper_x cf)) (steps_per_mm (stepper_y cf)) in
  let speed := fdiv v_draw (f_of_Z (tps cf)) in
  let len := Z.of_nat (List.length rsegs) in
  (* the document: the library is accurate, nothing in the text is excessive (as in C111) *)
  accurate tg q -> K <= 2 ^ 20 -> 1 <= M -> 0 <= T -> 1 <= P -> INR n <= 2 ^ 40 -> 3 * (M * (P + T + 1)) <= 2 ^ 400 ->
  (forall chain, In chain (all_chains (layer_filter layer) doc) ->
    (exists k M' T', chain_cost q chain k M' T' /\ k <= K /\ M' <= M /\ T' <= T) /\ forall d, path_of chain d -> fine_path P n d) ->
  (* its figure, with exact arithmetic: nothing, or a move and then lines and moves that stay [D] from the origin by the error of reading it *)
  parse_document (document_events doc) tidentity (layer_filter layer) = Ok (Some rsegs) ->
  (rsegs = [] \/ exists p r, rsegs = GoTo p :: r) ->
  Forall (line_within (IZR D - (5 * INR n + 16 + K) * (3 * (M * (P + T + 1))) / 2 ^ 53)) rsegs ->
  (len <= 2 ^ 20)%Z -> (n_repeat * (len + 1) <= 2 ^ 45)%Z ->
  (* the search among the ends of the lines comes back *)
  (forall keys x, Forall (fun y : f64 => is_finite y = true) keys -> is_finite x = true -> exists i, g_find g keys x = Ok i) ->
  (* the machine as configured; it can go a quarter faster than it is told to *)
  svg_limits cf v_opt a_opt = Ok (ax, ay, vx, vy) -> tps cf <> 0%Z ->
  (forall i, 1 <= a i <= 32767)%Z -> (forall i, 1 <= v i <= 2 ^ 20)%Z ->
  (forall i, is_finite (step_scale s i) = true /\ / 65536 <= Rabs (B2R (step_scale s i)) <= 4194304) ->
  is_finite speed = true -> 0 < B2R speed -> (forall i, 5 / 4 * (B2R speed * Rabs (B2R (step_scale s i))) <= 2 * IZR (v i)) ->
  (* [D'] is at least a step further out than [D]; [N] ticks are enough for the lines of one pass *)
  (1 <= D)%Z -> (D <= D' <= 2 ^ 16)%Z -> (D' * len <= 2 ^ 32)%Z ->
  (forall i, IZR D * Rabs (B2R (step_scale s i)) + 1 <= IZR D' * Rabs (B2R (step_scale s i))) ->
  (0 <= N)%Z -> IZR (8 * D' * len) <= IZR N * B2R speed ->
  (forall i, storable (2 * Zceil (IZR D' * Rabs (B2R (step_scale s i))) + 1 + 2 * v i * N) (a i) (v i)) ->
  exists c e, svg_program tg g cf v_opt a_opt v_draw n_repeat intensity layer (document_events doc) = Ok (c, e).
Proof.
  intros tg q doc layer g cf v_opt a_opt v_draw n_repeat intensity rsegs K M T P n ax ay vx vy D D' N a v s speed len
    AC KL M1 T0 P1 NB BZ CF PD HM HL Hn HR HG LM TP Ha Hv HS Fp Pp HV HD HD' HDn HDD HN HB HSt.
  pose proof (C111_document tg q (layer_filter layer) doc K M T P n AC KL M1 T0 P1 NB BZ CF) as W. rewrite PD in W.
  unfold svg_program. rewrite LM. cbn [bind].
  destruct (fparse_document _ _ _ _) as [[segs|]| |]; try contradiction. cbn [bind unwrap].
  assert (LN : List.length segs = List.length rsegs) by (clear - W; induction W; cbn [List.length]; congruence).
  apply (C130_any g cf v_opt a_opt v_draw n_repeat intensity segs ax ay vx vy D D' N); auto; unfold len in *; rewrite ?LN; auto.
  - destruct HM as [->|(p & r & ->)]; inversion W as [|x y l l' W1 W2]; subst; [left; reflexivity|right].
    destruct x; cbn [segment_within] in W1; try contradiction. eauto.
  - clear - W HL. induction W as [|x y l l' W1 W2 IH]; constructor; inversion HL; subst; auto. eapply within_any; eassumption.
Qed.

(** The document of C112_example with the configuration in the repository and the default options. *)
Example C131_example : exists c e,
  svg_program good_trig C103_geometry sample_config None None (f_of_Z 20) 10 5 None (document_events one_line) = Ok (c, e).
Proof.
  set (s := mk_scales (steps_per_mm (stepper_x sample_config)) (steps_per_mm (stepper_y sample_config))).
  assert (S1 : forall i, is_finite (step_scale s i) = true /\ B2R (step_scale s i) = 1966080) by (intros []; apply (f_of_Z_exact 1966080); lia).
  assert (SP : is_finite (fdiv (f_of_Z 20) (f_of_Z 128)) = true /\ B2R (fdiv (f_of_Z 20) (f_of_Z 128)) = 5 / 32).
  { destruct (f_of_Z_exact 20 ltac:(lia)) as [F1 V1]. destruct (f_of_Z_exact 128 ltac:(lia)) as [F2 V2].
    destruct (fdiv_val (f_of_Z 20) (f_of_Z 128) F1 ltac:(rewrite V2; lra)) as [F V].
    { rewrite V1, V2, Rabs_pos_eq by lra. apply Rle_trans with 1; [lra|]. apply (FloatTotal.Z_small 1). vm_compute. discriminate. }
    split; [exact F|]. rewrite V, V1, V2. replace (20 / 128) with (5 / 32) by lra. apply round_generic; [typeclasses eauto|]. rewrite bexp_flt.
    apply generic_format_FLT. exists (Float radix2 5 (-5)); [unfold F2R; cbn; lra|cbn; lia|cbn; lia]. }
  destruct SP as [Fp Vp].
  apply (C131_document good_trig 3 one_line None C103_geometry sample_config None None (f_of_Z 20) 10 5 [GoTo (mk_vec 1 1); LineTo (mk_vec 2 1)]
    0 1 0 2 3 30000 30000 384000 384000 3 4 12596).
  - exact good_accurate.
  - cbn [pow]. lra.
  - lra.
  - lra.
  - lra.
  - cbn [INR pow]. lra.
  - apply Rle_trans with (2 ^ 5); [cbn [pow]; lra|apply Rle_pow; [lra|lia]].
  - exact one_line_cost.
  - exact one_line_exact.
  - right. do 2 eexists. reflexivity.
  - assert (E : (5 * INR 3 + 16 + 0) * (3 * (1 * (2 + 0 + 1))) / 2 ^ 53 <= 1) by (unfold Rdiv; rewrite <- u53_is, u53_val; cbn [INR pow]; lra).
    set (b := (5 * INR 3 + 16 + 0) * (3 * (1 * (2 + 0 + 1))) / 2 ^ 53) in *. clearbody b.
    repeat (apply Forall_cons; [split; cbn [vx vy]; rewrite Rabs_pos_eq; lra|]). apply Forall_nil.
  - vm_compute. discriminate.
  - vm_compute. discriminate.
  - exact first_ge_searches.
  - vm_compute. reflexivity.
  - discriminate.
  - intros []; lia.
  - intros []; lia.
  - fold s. intros i. destruct (S1 i) as [F V]. split; [exact F|]. rewrite V, Rabs_pos_eq; lra.
  - exact Fp.
  - change (tps sample_config) with 128%Z. rewrite Vp. lra.
  - fold s. intros i. destruct (S1 i) as [_ V]. change (tps sample_config) with 128%Z. rewrite V, Vp, Rabs_pos_eq by lra. destruct i; lra.
  - lia.
  - lia.
  - vm_compute. discriminate.
  - fold s. intros i. destruct (S1 i) as [_ V]. rewrite V, Rabs_pos_eq; lra.
  - lia.
  - change (tps sample_config) with 128%Z. rewrite Vp. cbn [List.length]. change (8 * 4 * Z.of_nat 2)%Z with 64%Z. lra.
  - fold s. intros i. destruct (S1 i) as [_ V]. rewrite V, Rabs_pos_eq, <- mult_IZR, Zceil_IZR by lra. destruct i; vm_compute; reflexivity.
Qed.

Print Assumptions C131_document.
