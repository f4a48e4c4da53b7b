(** C114: the whole program svg_path misses no part of a line of the document, in any pass. *)
From Coq Require Import Ascii String ZArith Reals List Bool NArith Lia Lra.
From Flocq Require Import Core BinarySingleNaN.
From Verif Require Import Base Chars Floats FloatProofs FloatScale FloatErr AccVector IntegerCurve StepperContext
  MachineSpec MachineProofs ContextProofs ContextOps ContextHist ContextClock ApproxCurve DrawCurves FloatPath Coords Curves PathBuild BuildProofs
  PropsBuild PathGrammar PathLex LexProofs PropsLex FloatPathProofs PropsFloatPath FloatCurve PropsFloatCurve PropsApprox PropsDraw DrawProofs PropsError
  DrawPlan FloatRun FloatCover PropsLaser PropsCover FloatLex FloatLexProofs PropsFloatLex ImageRaster PropsRaster SvgMain PropsSvgMain FloatTransform FloatAngles SvgDocument FloatDocument
  PropsFloatTransform PropsSvg FloatPlace PropsFloatSvg PropsLaserSvg.
Import ListNotations.
Open Scope R_scope.

(** The lines of one drawing of segments that are near a figure. *)
Lemma cover_near : forall k Q segs rsegs p ax ay vmx vmy ops c g s v c' ex ey fuel search ints D w s1 seg s2 e t,
  Forall2 (seg_near k Q) segs rsegs -> 0 <= k <= 2 ^ 50 -> 1 <= Q -> 3 * Q <= 2 ^ 300 -> (exists q r, segs = SGoTo q :: r) ->
  INR (List.length segs) <= 2 ^ 40 -> INR (List.length segs) <= 65536 * Q ->
  history code (new_ctx ax ay vmx vmy) ops c -> draw_curves g s c segs v = Ok (c', (ex, ey)) -> (forall i, ticks_of c' i < u64_max)%Z ->
  g_bezier g = fbezier fuel search ints -> finds (g_find g) -> lengths_sane g s v (3 * Q) (begin_drawing s c) segs ->
  fits (3 * Q) (machine_place s c) ->
  (forall i, is_finite (step_scale s i) = true /\ Rabs (B2R (step_scale s i)) * (24 * Q) <= 2 ^ 62) ->
  (forall i, 0 <= D i) -> gotos_near g s v D (begin_drawing s c) segs ->
  (ticks_of c' AX - ticks_of c AX < 2 ^ 31 - 1)%Z -> 0 < B2R v ->
  rsegs = s1 ++ seg :: s2 -> seg = LineTo e \/ seg = CloseTo e -> 0 <= t <= 1 ->
  let q := pen p s1 in
  3 / 2 * B2R v + D AX + D AY + (5100 * INR (List.length segs) + 4 * k) * Q / 2 ^ 53 + 8 / 10 ^ 6 <=
    sqrt ((vx e - vx q) * (vx e - vx q) + (vy e - vy q) * (vy e - vy q)) ->
  exists u, (ticks_of c AX <= u < ticks_of c' AX)%Z /\ m_weight (play (events c') u (machine0 w)) = curve_weight c /\
    forall i, Rabs (IZR (s_pos (machine_axis (play (events c') (u + 1) (machine0 w)) i)) -
        B2R (step_scale s i) * coord (vadd q (vscale (vsub e q) t)) i)
      <= IZR (match i with AX => ex | AY => ey end) + 1 + Rabs (B2R (step_scale s i)) *
         (3 / 2 * B2R v + D i + (13500 * INR (List.length segs) + k + 2214) * Q / 2 ^ 53 + 4 / 10 ^ 6 * INR (closes segs)).
Proof.
  intros k Q segs rsegs p ax ay vmx vmy ops c g s v c' ex ey fuel search ints D w s1 seg s2 e t G [K0 K1] Q1 BQ (q0 & rest & SG) BL BL2 H DC Hm GB FG LS FM SC D0 GN
    HT32 V0 ES SE HT q HL.
  set (E := k * (u53 * Q)). pose proof u53_pos as [U0 U1].
  assert (KU : k * u53 <= / 4).
  { rewrite u53_is. apply Rle_trans with (2 ^ 50 * / 2 ^ 53); [apply Rmult_le_compat_r; [apply Rlt_le, Rinv_0_lt_compat, pow_lt; lra|exact K1]|].
    cbn [pow]. lra. }
  assert (E1 : 0 <= E <= Q / 4).
  { unfold E. split; [apply Rmult_le_pos; [exact K0|apply Rmult_le_pos; lra]|]. rewrite <- Rmult_assoc.
    apply Rle_trans with (/ 4 * Q); [apply Rmult_le_compat_r; lra|lra]. }
  pose proof (near_sized g k Q segs rsegs G (proj2 E1) Q1) as SZ.
  assert (G2 : Forall2 (segment_within E) segs rsegs).
  { unfold E. clear - G. induction G; constructor; auto. apply seg_near_within. assumption. }
  pose proof (no_arc_places g s v (3 * Q) (begin_drawing s c) segs (near_no_arc _ _ _ G2)) as PF.
  rewrite ES in G2. apply Forall2_app_inv_r in G2. destruct G2 as (a & r & FA & FR & EA).
  inversion FR as [|x x1 b b1 FX FB E2 E3]; subst r x1 b1. clear FR.
  assert (XE : exists f, (x = SLineTo f \/ x = SCloseTo f) /\ within E f e).
  { destruct SE as [-> | ->]; destruct x; cbn [segment_within] in FX; try contradiction; eexists; eauto. }
  destruct XE as (f & XF & (_ & _ & WX & WY)).
  set (q' := pen (rv (machine_place s c)) (map rs a)).
  assert (CL : close_to (fun _ => E) q' q).
  { assert (P0 : q' = pen p (map rs a)).
    { unfold q'. rewrite SG in EA. destruct a as [|y a]; cbn [app] in EA; injection EA as EY EA.
      - subst x. destruct XF as [K|K]; discriminate K.
      - subst y. reflexivity. }
    rewrite P0. apply pen_close; [exact FA|]. intros i. rewrite Rminus_diag_eq by reflexivity. rewrite Rabs_R0. lra. }
  pose proof (CL AX) as CX. pose proof (CL AY) as CY. cbn [coord] in CX, CY.
  destruct (C113_covered ax ay vmx vmy ops c g s segs v c' ex ey fuel search ints (3 * Q) D w a x b (norm (B2R (fx f) - vx q') (B2R (fy f) - vy q')) t (vadd q' (vscale (vsub (rv f) q') t)) H ltac:(rewrite SG; discriminate) DC Hm GB FG LS
    ltac:(lra) FM SZ PF BL ltac:(lra) ltac:(intros i; destruct (SC i) as [A B]; split; [exact A|]; replace (8 * (3 * Q)) with (24 * Q) by ring; exact B)
    D0 GN HT32 V0 EA HT) as (u & HU & HW & B).
  { fold q'. destruct XF as [-> | ->]; reflexivity. }
  { fold q'. destruct XF as [-> | ->]; reflexivity. }
  { fold q'.
    pose proof (norm_le (B2R (fx f) - vx q') (B2R (fy f) - vy q') ((vx e - B2R (fx f)) + (vx q' - vx q)) ((vy e - B2R (fy f)) + (vy q' - vy q))) as T.
    match type of T with norm ?a ?b <= _ => replace a with (vx e - vx q) in T by ring; replace b with (vy e - vy q) in T by ring end.
    pose proof (Rabs_triang (vx e - B2R (fx f)) (vx q' - vx q)) as T1. pose proof (Rabs_triang (vy e - B2R (fy f)) (vy q' - vy q)) as T2.
    rewrite (Rabs_minus_sym (vx e)) in T1. rewrite (Rabs_minus_sym (vy e)) in T2. unfold norm in T |- *.
    replace ((5100 * INR (List.length segs) + 4 * k) * Q / 2 ^ 53) with (1700 * INR (List.length segs) * (3 * Q) / 2 ^ 53 + 4 * E) in HL
      by (unfold E; rewrite u53_is; unfold Rdiv; ring).
    lra. }
  fold q' in B. exists u. split; [exact HU|]. split; [exact HW|]. intros i. specialize (B i). specialize (CL i). cbv beta in CL.
  set (A := Rabs (B2R (step_scale s i))) in *. assert (A0 : 0 <= A) by apply Rabs_pos.
  assert (WF : Rabs (coord (rv f) i - coord e i) <= E) by (destruct i; assumption).
  assert (SD : Rabs (B2R (step_scale s i) * coord (vadd q' (vscale (vsub (rv f) q') t)) i -
                     B2R (step_scale s i) * coord (vadd q (vscale (vsub e q) t)) i) <= A * E).
  { rewrite <- Rmult_minus_distr_l, Rabs_mult. fold A. apply Rmult_le_compat_l; [exact A0|].
    replace (coord (vadd q' (vscale (vsub (rv f) q') t)) i - coord (vadd q (vscale (vsub e q) t)) i)
      with ((coord q' i - coord q i) * (1 - t) + (coord (rv f) i - coord e i) * t) by (destruct i; cbn [coord vadd vscale vsub vx vy]; ring).
    eapply Rle_trans; [apply Rabs_triang|]. rewrite !Rabs_mult, (Rabs_pos_eq (1 - t)), (Rabs_pos_eq t) by lra.
    apply Rle_trans with (E * (1 - t) + E * t); [|right; ring].
    apply Rplus_le_compat; apply Rmult_le_compat_r; lra. }
  replace (A * (3 / 2 * B2R v + D i + (13500 * INR (List.length segs) + k + 2214) * Q / 2 ^ 53 + 4 / 10 ^ 6 * INR (closes segs))) with
    (A * (3 / 2 * B2R v + D i + (4500 * INR (List.length segs) + 738) * (3 * Q) / 2 ^ 53 + 4 / 10 ^ 6 * INR (closes segs)) + A * E)
    by (unfold E; rewrite u53_is; unfold Rdiv; ring).
  match type of B with Rabs (?p - ?q) <= ?b => set (X := p) in *; set (Y := q) in *; set (MB := b) in * end.
  match type of SD with Rabs (_ - ?q) <= _ => set (Y' := q) in * end.
  replace (X - Y') with ((X - Y) + (Y - Y')) by ring. eapply Rle_trans; [apply Rabs_triang|].
  match goal with |- _ <= ?a + ?b + (?c + ?d) => replace (a + b + (c + d)) with (MB + d) by (unfold MB; ring) end. lra.
Qed.

(** Every pass of the program takes place, and what it burns stays. *)
Lemma each_pass : forall ax ay vmx vmy g s v segs, segs <> [] -> forall m n c err c' e ops,
  history code (new_ctx ax ay vmx vmy) ops c -> repeat_draw g s segs v n c err = Ok (c', e) -> (forall i, ticks_of c' i < u64_max)%Z ->
  forall i, (i < n)%nat -> exists a b e' ops1 ops2, nth_pass g s v segs c i a b e' /\ (S i = n -> e' = e) /\
    history code (new_ctx ax ay vmx vmy) ops1 a /\ history code b ops2 c' /\ Forall not_reset ops2 /\
    (ticks_of b AX <= ticks_of c' AX)%Z /\ (ticks_of a AX < ticks_of b AX -> ticks_of b AX = ticks_of b AY)%Z /\ curve_weight a = curve_weight c /\
    forall u, (u < ticks_of b AX)%Z -> m_weight (play (events c') u m) = m_weight (play (events b) u m).
Proof.
  intros ax ay vmx vmy g s v segs NE m. induction n as [|n IH]; intros c err c' e ops H R Hm i IN; [lia|]. cbn [repeat_draw] in R.
  apply bind_Ok in R. destruct R as ([c1 [ex ey]] & D & R).
  destruct (clocked_history _ _ _ _ _ _ H) as [Hc Cf].
  destruct (C74_session _ _ _ _ _ _ _ Hc D) as (ops1 & H1 & _ & R1 & _).
  destruct (history_step _ _ _ _ planner_typed H1 R1 Hc) as [St _].
  destruct (repeat_history g s v segs _ _ _ _ _ (st_clocked _ _ St) R) as (ops2 & H2 & R2).
  destruct (history_step _ _ _ _ planner_typed H2 R2 (st_clocked _ _ St)) as [St2 _].
  assert (Hm1 : forall i, (ticks_of c1 i < u64_max)%Z).
  { intros j. pose proof (st_ticks _ _ St2 j). specialize (Hm j). lia. }
  destruct (drawing_all _ _ _ _ _ _ _ _ _ _ _ _ _ H NE D Hm1) as (l & runs & times & pos' & P & G & TL & Q & ER & KE & CW & SY).
  pose proof (history_app _ _ _ _ H _ _ H1) as HH.
  destruct i as [|i].
  - exists c, c1, (ex, ey), ops, ops2. split; [constructor; exact D|]. split.
    { intros [= <-]. cbn [repeat_draw] in R. congruence. }
    split; [exact H|]. split; [exact H2|]. split; [exact R2|]. split; [exact (st_ticks _ _ St2 AX)|]. split.
    { intros LT. apply SY. intros ->. inversion TL; subst. lia. }
    split; [reflexivity|]. intros u LT.
    destruct (repeat_all ax ay vmx vmy g s v segs NE _ _ _ _ _ _ HH R Hm) as (ps & _ & _ & _ & Q2 & _).
    destruct n as [|n]; [cbn [repeat_draw] in R; congruence|]. rewrite Q2 by discriminate. destruct (Z.ltb_spec u (ticks_of c1 AX)); [reflexivity|lia].
  - destruct (IH _ _ _ _ _ HH R Hm i ltac:(lia)) as (a & b & e' & o1 & o2 & A1 & A2 & A3 & A4 & A5 & A6 & A7 & A8 & A9).
    exists a, b, e', o1, o2. split; [econstructor; eassumption|]. split; [intros [= E]; auto|]. do 5 (split; [assumption|]).
    split; [congruence|exact A9].
Qed.

Lemma pass_of_program : forall g cf v_opt a_opt v_draw n_repeat intensity segs c' ex ey w i,
  svg_main g cf v_opt a_opt v_draw n_repeat intensity segs = Ok (c', (ex, ey)) -> segs <> [] ->
  (forall i, ticks_of c' i < u64_max)%Z -> (Z.of_nat i < n_repeat)%Z ->
  exists ax ay vmx vmy, svg_limits cf v_opt a_opt = Ok (ax, ay, vmx, vmy) /\
  let c0 := set_weight (new_ctx ax ay vmx vmy) (svg_weight intensity) in
  exists a b e ops, nth_pass g (scales_of cf) (fdiv v_draw (f_of_Z (tps cf))) segs c0 i a b e /\
    (Z.of_nat (S i) = n_repeat -> e = (ex, ey)) /\ history code (new_ctx ax ay vmx vmy) ops a /\
    (forall j, ticks_of b j < u64_max)%Z /\ (0 <= ticks_of a AX /\ ticks_of b AX <= ticks_of c' AX)%Z /\ curve_weight a = svg_weight intensity /\
    (forall u, (ticks_of a AX <= u < ticks_of b AX)%Z -> m_weight (play (events c') u (machine0 w)) = m_weight (play (events b) u (machine0 w)) /\
      forall j, s_pos (machine_axis (play (events c') (u + 1) (machine0 w)) j) = s_pos (machine_axis (play (events b) (u + 1) (machine0 w)) j)).
Proof.
  intros g cf v_opt a_opt v_draw n_repeat intensity segs c' ex ey w i M NE Hm IN. unfold svg_main in M.
  apply bind_Ok in M. destruct M as ([[[ax ay] vmx] vmy] & L & M). cbv zeta in M. fold (scales_of cf) in M.
  set (s := scales_of cf) in *. set (v := fdiv _ _) in *. set (c0 := set_weight _ _) in *.
  apply bind_Ok in M. destruct M as ([cn [ex1 ey1]] & R & M).
  apply bind_Ok in M. destruct M as (c1 & G & M). apply bind_Ok in M. destruct M as (t1 & T & M).
  apply bind_Ok in M. destruct M as (_u & _ & M). apply bind_Ok in M. destruct M as (c2 & F & M).
  injection M as -> -> ->. clear t1 T _u.
  assert (H0 : history code (new_ctx ax ay vmx vmy) [SetWeight (svg_weight intensity)] c0).
  { eapply hist_cons; [exact I|reflexivity|apply hist_nil]. }
  destruct (clocked_history _ _ _ _ _ _ H0) as [Hc0 _].
  destruct (repeat_history g s v segs _ _ _ _ _ Hc0 R) as (ops & H1 & R1).
  pose proof (history_app _ _ _ _ H0 _ _ H1) as Hn.
  destruct (clocked_history _ _ _ _ _ _ Hn) as [Hcn Cfn].
  assert (HG : history code cn [GotoSpeed 0 0 0 0] c1).
  { eapply hist_cons; [exact I|exact G|apply hist_nil]. }
  pose proof (history_app _ _ _ _ Hn _ _ HG) as Hn1.
  destruct (clocked_history _ _ _ _ _ _ Hn1) as [Hc1 Cf1].
  assert (HF : history code c1 [Flush] c').
  { eapply hist_cons; [exact I|exact F|apply hist_nil]. }
  destruct (step_goto_speed_spec code cn 0 0 0 0 c1 Hcn planner_typed G)
    as (sx & sy & rest & _ & _ & _ & S1 & _ & Y1 & ST1 & _ & _ & Q1).
  destruct (flush_spec c1 c' Hc1 F) as (S2 & _ & Ch2 & _ & _ & _ & Q2).
  assert (TK : forall i, ticks_of c' i = ticks_of c1 i).
  { intros j. pose proof (Ch2 j) as K. unfold ticks_of. destruct j; cbn [channel] in K; congruence. }
  assert (Hm1 : forall i, (ticks_of c1 i < u64_max)%Z) by (intros j; rewrite <- TK; apply Hm).
  assert (Hmn : forall i, (ticks_of cn i < u64_max)%Z).
  { intros j. pose proof (st_ticks _ _ S1 j). specialize (Hm1 j). lia. }
  assert (WN : forall u, (u < ticks_of cn AX)%Z -> m_weight (play (events c') u (machine0 w)) = m_weight (play (events cn) u (machine0 w))).
  { intros u LT. pose proof (st_ticks _ _ S1 AX). rewrite !play_weight_ok, Q2, Q1.
    destruct (Z.leb_spec (ticks_of c1 AX) u); [lia|]. destruct (Z.leb_spec (ticks_of cn AX) u); [lia|]. reflexivity. }
  destruct (each_pass ax ay vmx vmy g s v segs NE (machine0 w) _ _ _ _ _ _ H0 R Hmn i ltac:(lia))
    as (a & b & e & o1 & o2 & NP & LE & HA & HB & RB & TB & SY & CW & WB).
  exists ax, ay, vmx, vmy. split; [exact L|]. cbv zeta. fold s v c0.
  assert (HGF : history code cn [GotoSpeed 0 0 0 0; Flush] c') by exact (history_app _ _ _ _ HG _ _ HF).
  pose proof (history_app _ _ _ _ HB _ _ HGF) as HBF.
  assert (RF : Forall not_reset (o2 ++ [GotoSpeed 0 0 0 0; Flush])) by (apply Forall_app; split; [exact RB|repeat constructor]).
  assert (HNB : exists o3, history code (new_ctx ax ay vmx vmy) o3 b).
  { clear - NP HA. revert HA. generalize o1. induction NP as [c c1 e D|c c1 e i a b e' D NP IH]; intros o HA.
    - destruct (clocked_history _ _ _ _ _ _ HA) as [Hc Cf]. destruct e as [ex ey].
      destruct (C74_session _ _ _ _ _ _ _ Hc D) as (ops1 & H1 & _). eexists. exact (history_app _ _ _ _ HA _ _ H1).
    - exact (IH _ HA). }
  destruct HNB as (o3 & HNB).
  assert (Sb : ContextOps.sound b) by exact (history_sound _ _ _ b planner_typed HNB (sound_new ax ay vmx vmy)).
  destruct (clocked_history _ _ _ _ _ _ HNB) as [Hcb _]. destruct (clocked_history _ _ _ _ _ _ HA) as [Hca _].
  destruct (history_step _ _ _ _ planner_typed HBF RF Hcb) as [Stb _].
  assert (Hmb : forall j, (ticks_of b j < u64_max)%Z).
  { intros j. pose proof (st_ticks _ _ Stb j). specialize (Hm j). lia. }
  pose proof (ck_ticks a Hca AX) as TA.
  exists a, b, e, o1. split; [exact NP|]. split; [intros K; apply LE; lia|]. split; [exact HA|]. split; [exact Hmb|].
  split; [pose proof (st_ticks _ _ Stb AX); lia|]. split; [exact CW|].
  intros u HU. split; [rewrite WN by lia; apply WB; lia|].
  intros j. rewrite !machine_place_at by (try lia; try apply S2; apply Hcb).
  apply (history_place _ _ _ HBF RF Sb Hm). pose proof (SY ltac:(lia)). destruct j; lia.
Qed.

(** * C114 *)

(** The program of svg_path.rs, from the document on: in every pass, for every point of every line of
    the document's figure that is not too short, there is a tick at which the laser burns near it. *)
Theorem C114_program : forall tg q doc layer g cf v_opt a_opt v_draw n_repeat intensity c' ex ey p rsegs K N T P n fuel search ints D w i s1 seg s2 e t,
  (* the document is read in binary64; its exact figure starts with a move *)
  svg_program tg g cf v_opt a_opt v_draw n_repeat intensity layer (document_events doc) = Ok (c', (ex, ey)) ->
  parse_document (document_events doc) tidentity (layer_filter layer) = Ok (Some (GoTo p :: rsegs)) ->
  accurate tg q -> 0 <= K <= 2 ^ 20 -> 1 <= N -> 0 <= T -> 1 <= P -> INR n <= 2 ^ 40 ->
  (forall chain, In chain (all_chains (layer_filter layer) doc) ->
    (exists k N' T', chain_cost q chain k N' T' /\ k <= K /\ N' <= N /\ T' <= T) /\ forall d, path_of chain d -> fine_path P n d) ->
  let Q := 3 * (N * (P + T + 1)) in
  let len := INR (S (List.length rsegs)) in
  3 * Q <= 2 ^ 300 -> len <= 2 ^ 40 -> len <= 65536 * Q ->
  (* the whole burn takes less than 2^31 - 1 ticks *)
  (ticks_of c' AX < 2 ^ 31 - 1 /\ ticks_of c' AY < 2 ^ 31 - 1)%Z ->
  (* the parts of the program that are parameters of the model, the scales and the passes *)
  g_bezier g = fbezier fuel search ints -> finds (g_find g) ->
  (forall i, is_finite (step_scale (scales_of cf) i) = true /\ Rabs (B2R (step_scale (scales_of cf) i)) * (24 * Q) <= 2 ^ 62) -> (forall i, 0 <= D i) ->
  let v := fdiv v_draw (f_of_Z (tps cf)) in
  0 < B2R v ->
  (forall segs ax ay vmx vmy i a b e, fparse_document tg (document_events doc) fidentity (layer_filter layer) = Ok (Some segs) ->
    svg_limits cf v_opt a_opt = Ok (ax, ay, vmx, vmy) -> (Z.of_nat i < n_repeat)%Z ->
    nth_pass g (scales_of cf) v segs (set_weight (new_ctx ax ay vmx vmy) (svg_weight intensity)) i a b e ->
    fits (3 * Q) (machine_place (scales_of cf) a) /\ lengths_sane g (scales_of cf) v (3 * Q) (begin_drawing (scales_of cf) a) segs /\
    gotos_near g (scales_of cf) v D (begin_drawing (scales_of cf) a) segs) ->
  (* the pass with number [i]; a line of the document's figure and the point at [t] on it *)
  (Z.of_nat i < n_repeat)%Z -> GoTo p :: rsegs = s1 ++ seg :: s2 -> seg = LineTo e \/ seg = CloseTo e -> 0 <= t <= 1 ->
  let from := pen (mk_vec 0 0) s1 in
  3 / 2 * B2R v + D AX + D AY + (5100 * len + 20 * INR n + 4 * K + 64) * Q / 2 ^ 53 + 8 / 10 ^ 6 <=
    sqrt ((vx e - vx from) * (vx e - vx from) + (vy e - vy from) * (vy e - vy from)) ->
  exists ax ay vmx vmy segs a b er u, svg_limits cf v_opt a_opt = Ok (ax, ay, vmx, vmy) /\
    fparse_document tg (document_events doc) fidentity (layer_filter layer) = Ok (Some segs) /\
    nth_pass g (scales_of cf) v segs (set_weight (new_ctx ax ay vmx vmy) (svg_weight intensity)) i a b er /\
    (Z.of_nat (S i) = n_repeat -> er = (ex, ey)) /\
    (* the tick [u] of that pass *)
    (ticks_of a AX <= u < ticks_of b AX)%Z /\ m_weight (play (events c') u (machine0 w)) = svg_weight intensity /\
    forall j, Rabs (IZR (s_pos (machine_axis (play (events c') (u + 1) (machine0 w)) j)) -
        B2R (step_scale (scales_of cf) j) * coord (vadd from (vscale (vsub e from) t)) j)
      <= IZR (match j with AX => fst er | AY => snd er end) + 1 + Rabs (B2R (step_scale (scales_of cf) j)) *
         (3 / 2 * B2R v + D j + (13500 * len + 5 * INR n + K + 2230) * Q / 2 ^ 53 + 4 / 10 ^ 6 * INR (closes segs)).
Proof.
  intros tg q doc layer g cf v_opt a_opt v_draw n_repeat intensity c' ex ey p rsegs K N T P n fuel search ints D w i s1 seg s2 e t
    PR PD AC [K0 KL] N1 T0 P1 NB CF Q len BQ BL BL2 [TX TY] GB FG SC D0 v V0 PS IN ES SE HT from HL.
  assert (Hm : forall i, (ticks_of c' i < u64_max)%Z) by (intros []; unfold u64_max; lia).
  unfold svg_program in PR. apply bind_Ok in PR. destruct PR as (lim & _ & PR). apply bind_Ok in PR. destruct PR as (r & FP & PR).
  apply bind_Ok in PR. destruct PR as (segs & RS & PR). destruct r as [segs'|]; [|discriminate RS]. cbn [unwrap] in RS. injection RS as ->.
  assert (KL' : K <= lots) by (unfold lots; eapply Rle_trans; [exact KL|cbn [pow]; lra]).
  assert (Q9 : 6 <= Q).
  { unfold Q. assert (P + T + 1 <= N * (P + T + 1)) by (rewrite <- (Rmult_1_l (P + T + 1)) at 1; apply Rmult_le_compat_r; lra). lra. }
  assert (Z' : zone N T P <= bpow radix2 400).
  { rewrite big_is. change (zone N T P) with Q. apply Rle_trans with (2 ^ 300); [lra|]. apply Rle_pow; [lra|lia]. }
  pose proof (document_near q tg (layer_filter layer) K N T P n AC KL' N1 T0 P1 Z' NB doc CF) as DN.
  rewrite FP, PD in DN. cbn [along] in DN. unfold near_segs in DN. change (zone N T P) with Q in DN.
  assert (SG : exists q0 r0, segs = SGoTo q0 :: r0).
  { inversion DN as [|s0 ? r0 ? S1 S2]; subst. inversion S1; subst. eauto. }
  assert (LN : len = INR (List.length segs)).
  { unfold len. change (S (List.length rsegs)) with (List.length (GoTo p :: rsegs)). f_equal. clear - DN. induction DN; cbn [List.length]; congruence. }
  destruct (pass_of_program _ _ _ _ _ _ _ _ _ _ _ w i PR ltac:(destruct SG as (? & ? & ->); discriminate) Hm IN)
    as (ax & ay & vmx & vmy & LI & a & b & er & ops & NP & LE & HA & Hmb & [TA TB] & CW & AT).
  destruct (PS segs ax ay vmx vmy i a b er FP LI IN NP) as (FM & LS & GN). fold v in NP.
  assert (DC : exists c1 e1, draw_curves g (scales_of cf) a segs v = Ok (c1, e1) /\ c1 = b /\ e1 = er).
  { clear - NP. induction NP as [c c1 e D|c c1 e i a b e' D NP IH]; [eauto|exact IH]. }
  destruct DC as (c1 & [e1 e2] & DC & -> & <-).
  pose proof (pos_INR n) as N0.
  destruct (cover_near (5 * INR n + 16 + K) Q segs _ (mk_vec 0 0) ax ay vmx vmy ops a g (scales_of cf) v b e1 e2 fuel search ints D w s1 seg s2 e t DN)
    as (u & HU & HW & B); [| |exact BQ|exact SG| | |exact HA|exact DC|exact Hmb|exact GB|exact FG|exact LS|exact FM|exact SC|exact D0|exact GN| |exact V0|exact ES|exact SE|exact HT| |].
  - split; [lra|]. clear - NB KL. cbn [pow] in *. lra.
  - lra.
  - rewrite <- LN. exact BL.
  - rewrite <- LN. exact BL2.
  - lia.
  - fold from. rewrite <- LN.
    replace (5100 * len + 4 * (5 * INR n + 16 + K)) with (5100 * len + 20 * INR n + 4 * K + 64) by ring. exact HL.
  - fold from in B. destruct (AT u HU) as [AW AP].
    exists ax, ay, vmx, vmy, segs, a, b, (e1, e2), u. split; [exact LI|]. split; [exact FP|]. split; [exact NP|]. split; [exact LE|]. split; [exact HU|].
    split; [rewrite AW, HW; exact CW|]. intros j. rewrite AP. specialize (B j). rewrite LN. cbn [fst snd].
    replace (13500 * INR (List.length segs) + 5 * INR n + K + 2230) with (13500 * INR (List.length segs) + (5 * INR n + 16 + K) + 2214) by ring. exact B.
Qed.

(** The line of one millimetre, twice: in both passes, for every point of it there is a tick at which the
    laser burns within a quarter of a millimetre (a tick is a seventh of one here). *)
Lemma one_line_speed : B2R (fdiv (f_of_Z 20) (f_of_Z 128)) = 5 / 32.
Proof.
  rewrite <- SF2R_B2SF. set (x := B2SF _). vm_compute in x. subst x. cbn [SF2R cond_Zopp].
  unfold F2R. cbn [Fnum Fexp bpow]. unfold Z.pow_pos. cbn [Pos.iter radix_val radix2]. 
  match goal with |- ?a * / IZR ?b = _ => let c := eval vm_compute in b in change b with c end. field.
Qed.

Example C114_example : exists c', svg_program good_trig C103_geometry sample_config None None (f_of_Z 20) 2 50 None (document_events one_line) = Ok (c', (19750, 0)%Z) /\
  forall i t, (i < 2)%nat -> 0 <= t <= 1 -> exists u, m_weight (play (events c') u (machine0 0)) = 127%Z /\
    Rabs (IZR (s_pos (m_x (play (events c') (u + 1) (machine0 0)))) - 1966080 * (1 + t)) <= 1966080 / 4 /\
    Rabs (IZR (s_pos (m_y (play (events c') (u + 1) (machine0 0)))) - 1966080) <= 1966080 / 4.
Proof.
  eexists. split; [vm_compute; reflexivity|]. intros i t IU HT. match goal with |- context[events ?x] => set (c' := x) end.
  assert (PR : svg_program good_trig C103_geometry sample_config None None (f_of_Z 20) 2 50 None (document_events one_line) = Ok (c', (19750, 0)%Z)) by (vm_compute; reflexivity).
  assert (TK : (ticks_of c' AX < 2 ^ 31 - 1 /\ ticks_of c' AY < 2 ^ 31 - 1)%Z) by (split; vm_compute; reflexivity).
  clearbody c'.
  destruct (f_of_Z_exact 1966080 ltac:(lia)) as [F V].
  assert (SE : forall i, step_scale (scales_of sample_config) i = f_of_Z 1966080) by (intros []; reflexivity).
  assert (EV : B2R (fdiv (f_of_Z 20) (f_of_Z (tps sample_config))) = 5 / 32) by exact one_line_speed.
  destruct (C114_program good_trig 3 one_line None C103_geometry sample_config None None (f_of_Z 20) 2 50 c' 19750 0 (mk_vec 1 1) [LineTo (mk_vec 2 1)]
    0 1 0 2 3 50 PropsFloatCurve.scan C103_tables (fun _ => 0) 0 i [GoTo (mk_vec 1 1)] (LineTo (mk_vec 2 1)) [] (mk_vec 2 1) t
    PR one_line_exact good_accurate ltac:(cbn [pow]; lra) ltac:(lra) ltac:(lra) ltac:(lra) ltac:(cbn [INR pow]; lra) one_line_cost)
    as (ax & ay & vmx & vmy & segs & a & b & e & u & LI & FP & NP & LE & HU & HW & B).
  - replace (3 * (3 * (1 * (2 + 0 + 1)))) with 27 by ring. apply Rle_trans with (2 ^ 5); [cbn [pow]; lra|apply Rle_pow; [lra|lia]].
  - cbn [List.length INR pow]. lra.
  - cbn [List.length INR]. lra.
  - exact TK.
  - reflexivity.
  - exact first_ge_finds.
  - intros j. rewrite SE, V. split; [exact F|]. rewrite Rabs_pos_eq by lra. cbn [pow]. lra.
  - intros j. lra.
  - rewrite EV. lra.
  - intros segs ax ay vmx vmy j a b e FP LI IN NP. rewrite one_line_read in FP. injection FP as <-.
    destruct (one_line_passes _ _ _ _ _ _ _ _ LI IN NP) as [PL _].
    apply andb_true_iff in PL. destruct PL as [PL P3]. apply andb_true_iff in PL. destruct PL as [P1 P2].
    apply small4_spec in P1, P2. apply negb_true_iff, Z.eqb_neq in P3.
    split; [|split].
    + destruct P1 as [A1 A2]. destruct P2 as [A3 A4]. split; [split; assumption|]. split; cbn [rv vx vy]; lra.
    + intros r1 e0 c1 c2 r2 d curve E. exfalso. unfold one_line_segs in E.
      destruct r1 as [|? [|? [|? r1]]]; discriminate E.
    + intros r1 p0 r2 d E LO [ST _]. exfalso. unfold one_line_segs in E.
      destruct r1 as [|? [|? [|? r1]]]; try discriminate E. injection E as <- <-. cbn [draw_loop] in LO. injection LO as <-.
      assert (TS : to_steps (scales_of sample_config) (fx (pt 1 1)) AX = Ok 1966080%Z) by (vm_compute; reflexivity). rewrite TS in ST.
      cbn [begin_drawing d_ctx] in ST. congruence.
  - lia.
  - reflexivity.
  - left. reflexivity.
  - exact HT.
  - rewrite EV. cbn [pen fold_left vx vy List.length]. replace ((2 - 1) * (2 - 1) + (1 - 1) * (1 - 1)) with (1 * 1) by ring. rewrite sqrt_square by lra.
    unfold Rdiv at 3. rewrite <- u53_is, u53_val. cbn [INR pow]. lra.
  - rewrite one_line_read in FP. injection FP as <-. assert (I2 : (Z.of_nat i < 2)%Z) by lia. destruct (one_line_passes _ _ _ _ _ _ _ _ LI I2 NP) as (_ & E1 & E2).
    apply IZR_le in E1, E2. exists u. split; [exact HW|].
    assert (EB : forall j, Rabs (B2R (step_scale (scales_of sample_config) j)) *
      (3 / 2 * B2R (fdiv (f_of_Z 20) (f_of_Z (tps sample_config))) + 0 + (13500 * INR (S (List.length [LineTo (mk_vec 2 1)])) + 5 * INR 3 + 0 + 2230) * (3 * (1 * (2 + 0 + 1))) / 2 ^ 53 +
       4 / 10 ^ 6 * INR (closes one_line_segs)) <= 460801).
    { intros j. rewrite SE, V, EV. rewrite Rabs_pos_eq by lra. cbn [List.length closes one_line_segs filter is_close INR]. unfold Rdiv at 3. rewrite <- u53_is, u53_val. cbn [pow]. lra. }
    split; [pose proof (B AX) as BX; specialize (EB AX)|pose proof (B AY) as BX; specialize (EB AY)];
      rewrite SE, V in BX at 1; cbn [coord pen fold_left vadd vsub vscale vx vy machine_axis] in BX; (eapply Rle_trans; [|eapply Rle_trans; [exact BX|lra]]).
    + right. do 3 f_equal. ring.
    + right. do 2 f_equal. ring.
Qed.

Print Assumptions C114_program.
Print Assumptions C114_example.
