(** C112: from the document to the burned line, for the whole program svg_path. *)
From Coq Require Import Ascii String ZArith Reals List Bool NArith Lia Lra.
From Flocq Require Import Core BinarySingleNaN.
From Verif Require Import Base Chars Floats FloatProofs FloatScale FloatErr AccVector IntegerCurve StepperContext
  MachineSpec MachineProofs ContextProofs ContextOps ContextHist ContextClock ApproxCurve DrawCurves FloatPath Coords Curves PathBuild BuildProofs
  PropsBuild PathGrammar PathLex LexProofs PropsLex FloatPathProofs PropsFloatPath FloatCurve PropsFloatCurve PropsApprox PropsDraw DrawProofs PropsError
  DrawPlan FloatRun PropsLaser FloatLex FloatLexProofs PropsFloatLex ImageRaster PropsRaster SvgMain PropsSvgMain FloatTransform FloatAngles SvgDocument FloatDocument
  PropsFloatTransform PropsSvg FloatPlace PropsFloatSvg.
Import ListNotations.
Open Scope R_scope.

(** Segments near a figure are not much larger; one drawing of segments that are near a figure. *)
Lemma near_sized : forall g k Q segs rsegs, Forall2 (seg_near k Q) segs rsegs -> k * (u53 * Q) <= Q / 4 -> 1 <= Q -> Forall (sized g (3 * Q)) segs.
Proof.
  intros g k Q segs rsegs G E1 Q1.
  assert (FV : forall a b kk qq, kk * (u53 * qq) + qq <= 3 * Q -> nv kk qq a b -> box qq b -> fits (3 * Q) a).
  { intros a b kk qq LE [[F1 A1] [F2 A2]] [B1 B2]. split; [split; assumption|]. split; cbn [rv vx vy].
    - replace (B2R (fx a)) with ((B2R (fx a) - vx b) + vx b) by ring. eapply Rle_trans; [apply Rabs_triang|]. lra.
    - replace (B2R (fy a)) with ((B2R (fy a) - vy b) + vy b) by ring. eapply Rle_trans; [apply Rabs_triang|]. lra. }
  assert (L1 : k * (u53 * Q) + Q <= 3 * Q) by lra.
  assert (L2 : k * (u53 * (2 * Q)) + 2 * Q <= 3 * Q) by (replace (k * (u53 * (2 * Q))) with (2 * (k * (u53 * Q))) by ring; lra).
  induction G as [|a b la lb N G IH]; constructor; [|exact IH].
  inversion N; subst; cbn [sized]; repeat split; try (eapply FV; [|eassumption|assumption]; assumption).
Qed.

Lemma near_no_arc : forall E segs l, Forall2 (segment_within E) segs l -> forallb (fun x => negb (is_arc x)) segs = true.
Proof.
  intros E segs l H. induction H as [|x y r l W H IH]; [reflexivity|]. cbn [forallb]. rewrite IH, andb_true_r.
  destruct x; try reflexivity. destruct y; contradiction W.
Qed.

Lemma laser_near : forall k Q segs rsegs p ax ay vmx vmy ops c g s v c' ex ey fuel search ints D w u,
  Forall2 (seg_near k Q) segs rsegs -> 0 <= k <= 2 ^ 50 -> 1 <= Q -> 3 * Q <= 2 ^ 300 -> (exists q r, segs = SGoTo q :: r) ->
  INR (List.length segs) <= 2 ^ 40 -> INR (List.length segs) <= 65536 * Q ->
  history code (new_ctx ax ay vmx vmy) ops c -> draw_curves g s c segs v = Ok (c', (ex, ey)) -> (forall i, ticks_of c' i < u64_max)%Z ->
  g_bezier g = fbezier fuel search ints -> finds (g_find g) -> lengths_sane g s v (3 * Q) (begin_drawing s c) segs ->
  fits (3 * Q) (machine_place s c) ->
  (forall i, is_finite (step_scale s i) = true /\ Rabs (B2R (step_scale s i)) * (24 * Q) <= 2 ^ 62) ->
  (forall i, 0 <= D i) -> gotos_near g s v D (begin_drawing s c) segs ->
  (ticks_of c AX <= u)%Z -> m_weight (play (events c') u (machine0 w)) <> 0%Z ->
  exists z, figure p rsegs z /\
    forall i, Rabs (IZR (s_pos (machine_axis (play (events c') (u + 1) (machine0 w)) i)) - B2R (step_scale s i) * coord z i)
      <= IZR (match i with AX => ex | AY => ey end) + 1 + Rabs (B2R (step_scale s i)) *
         (D i + (9600 * INR (List.length segs) + 3 * k + 2214) * Q / 2 ^ 53 + 4 / 10 ^ 6 * INR (closes segs)).
Proof.
  intros k Q segs rsegs p ax ay vmx vmy ops c g s v c' ex ey fuel search ints D w u G [K0 K1] Q1 BQ (q & rest & SG) BL BL2 H DC Hm GB FG LS FM SC D0 GN HU HW.
  set (E := k * (u53 * Q)). pose proof u53_pos as [U0 U1].
  assert (KU : k * u53 <= / 4).
  { rewrite u53_is. apply Rle_trans with (2 ^ 50 * / 2 ^ 53); [apply Rmult_le_compat_r; [apply Rlt_le, Rinv_0_lt_compat, pow_lt; lra|exact K1]|].
    cbn [pow]. lra. }
  assert (E1 : 0 <= E <= Q / 4).
  { unfold E. split; [apply Rmult_le_pos; [exact K0|apply Rmult_le_pos; lra]|]. rewrite <- Rmult_assoc.
    apply Rle_trans with (/ 4 * Q); [apply Rmult_le_compat_r; lra|lra]. }
  pose proof (near_sized g k Q segs rsegs G (proj2 E1) Q1) as SZ.
  assert (G2 : Forall2 (segment_within E) segs rsegs).
  { unfold E. clear - G. induction G; constructor; auto. apply seg_near_within. assumption. }
  destruct (C103_laser ax ay vmx vmy ops c g s segs v c' ex ey fuel search ints (3 * Q) D w u H ltac:(rewrite SG; discriminate) DC Hm GB FG LS
    ltac:(lra) FM SZ (no_arc_places _ _ _ _ _ _ (near_no_arc _ _ _ G2)) BL ltac:(lra) ltac:(intros i; destruct (SC i) as [A B]; split; [exact A|]; replace (8 * (3 * Q)) with (24 * Q) by ring; exact B)
    D0 GN HU HW) as (z & F & B).
  rewrite SG in F. cbn [map rs] in F. apply (figure_goto _ _ _ p) in F.
  change (GoTo (rv q) :: map rs rest) with (map rs (SGoTo q :: rest)) in F. rewrite <- SG in F.
  assert (C0 : close_to (fun _ => E) p p).
  { intros i. rewrite Rminus_diag_eq by reflexivity. rewrite Rabs_R0. lra. }
  destruct (figure_within E _ _ _ _ _ (proj1 E1) G2 C0 F) as (z1 & F1 & C1).
  exists z1. split; [exact F1|]. intros i. specialize (B i). specialize (C1 i). cbv beta in C1.
  set (A := Rabs (B2R (step_scale s i))) in *. assert (A0 : 0 <= A) by apply Rabs_pos.
  assert (SD : Rabs (B2R (step_scale s i) * coord z i - B2R (step_scale s i) * coord z1 i) <= A * (3 * E)).
  { rewrite <- Rmult_minus_distr_l, Rabs_mult. fold A. apply Rmult_le_compat_l; assumption. }
  replace (A * (D i + (9600 * INR (List.length segs) + 3 * k + 2214) * Q / 2 ^ 53 + 4 / 10 ^ 6 * INR (closes segs))) with
    (A * (D i + (3200 * INR (List.length segs) + 738) * (3 * Q) / 2 ^ 53 + 4 / 10 ^ 6 * INR (closes segs)) + A * (3 * E))
    by (unfold E; rewrite u53_is; unfold Rdiv; ring).
  match type of B with Rabs (?p - ?q) <= ?b => set (X := p) in *; set (Y := q) in *; set (MB := b) in * end.
  set (Y' := B2R (step_scale s i) * coord z1 i) in *.
  replace (X - Y') with ((X - Y) + (Y - Y')) by ring. eapply Rle_trans; [apply Rabs_triang|].
  match goal with |- _ <= ?a + ?b + (?c + ?d) => replace (a + b + (c + d)) with (MB + d) by (unfold MB; ring) end. lra.
Qed.

(** ** Passes *)

(** [nth_pass g s v segs c i a b e]: of the drawings that follow each other from the state [c], the one
    with number [i] leads from [a] to [b] with the errors [e]. *)
Inductive nth_pass (g : geometry) (s : scales) (v : f64) (segs : list segment) : ctx -> nat -> ctx -> ctx -> Z * Z -> Prop :=
| pass_first : forall c c1 e, draw_curves g s c segs v = Ok (c1, e) -> nth_pass g s v segs c 0 c c1 e
| pass_later : forall c c1 e i a b e', draw_curves g s c segs v = Ok (c1, e) -> nth_pass g s v segs c1 i a b e' -> nth_pass g s v segs c (S i) a b e'.

Lemma burn_pass : forall ax ay vmx vmy g s v segs, segs <> [] -> forall m n c err c' e ops u,
  history code (new_ctx ax ay vmx vmy) ops c -> repeat_draw g s segs v n c err = Ok (c', e) -> (forall i, ticks_of c' i < u64_max)%Z ->
  (ticks_of c AX <= u < ticks_of c' AX)%Z -> m_weight (play (events c') u m) <> 0%Z ->
  exists i a b e' ops1 ops2, nth_pass g s v segs c i a b e' /\ (i < n)%nat /\ (S i = n -> e' = e) /\
    history code (new_ctx ax ay vmx vmy) ops1 a /\ history code b ops2 c' /\ Forall not_reset ops2 /\ (ticks_of a AX <= u < ticks_of b AX)%Z /\
    m_weight (play (events b) u m) <> 0%Z /\ ticks_of b AX = ticks_of b AY.
Proof.
  intros ax ay vmx vmy g s v segs NE m. induction n as [|n IH]; intros c err c' e ops u H R Hm HU HW; cbn [repeat_draw] in R.
  - injection R as <- <-. lia.
  - apply bind_Ok in R. destruct R as ([c1 [ex ey]] & D & R).
    destruct (clocked_history _ _ _ _ _ _ H) as [Hc Cf].
    destruct (C74_session _ _ _ _ _ _ _ Hc D) as (ops1 & H1 & _ & R1 & _).
    destruct (history_step _ _ _ _ planner_typed H1 R1 Hc) as [St _].
    destruct (repeat_history g s v segs _ _ _ _ _ (st_clocked _ _ St) R) as (ops2 & H2 & R2).
    destruct (history_step _ _ _ _ planner_typed H2 R2 (st_clocked _ _ St)) as [St2 _].
    assert (Hm1 : forall i, (ticks_of c1 i < u64_max)%Z).
    { intros j. pose proof (st_ticks _ _ St2 j). specialize (Hm j). lia. }
    destruct (drawing_all _ _ _ _ _ _ _ _ _ _ _ _ _ H NE D Hm1) as (l & runs & times & pos' & P & G & TL & Q & ER & KE & CW & SY).
    pose proof (history_app _ _ _ _ H _ _ H1) as HH.
    destruct (Z.ltb_spec u (ticks_of c1 AX)) as [LT|GE].
    + exists 0%nat, c, c1, (ex, ey), ops, ops2. split; [constructor; exact D|]. split; [lia|]. split.
      { intros [= <-]. cbn [repeat_draw] in R. congruence. }
      split; [exact H|]. split; [exact H2|]. split; [exact R2|]. split; [lia|].
      assert (FR : m_weight (play (events c1) u m) = m_weight (play (events c') u m)).
      { destruct (repeat_all ax ay vmx vmy g s v segs NE _ _ _ _ _ _ HH R Hm) as (ps & _ & _ & _ & Q2 & _).
        destruct n as [|n]; [cbn [repeat_draw] in R; congruence|]. rewrite Q2 by discriminate. destruct (Z.ltb_spec u (ticks_of c1 AX)); [reflexivity|lia]. }
      assert (W1 : m_weight (play (events c1) u m) <> 0%Z) by (rewrite FR; exact HW).
      split; [exact W1|]. apply SY. intros ->. inversion TL; subst. rewrite Q in W1.
      destruct (Z.ltb_spec u (ticks_of c AX)); [lia|]. cbn [burning] in W1. congruence.
    + destruct (IH _ _ _ _ _ u HH R Hm ltac:(lia) HW) as (i & a & b & e' & o1 & o2 & A1 & A2 & A3 & A4).
      exists (S i), a, b, e', o1, o2. split; [econstructor; eassumption|]. split; [lia|]. split; [intros [= E]; auto|exact A4].
Qed.

Definition scales_of (cf : config_) : scales := mk_scales (steps_per_mm (stepper_x cf)) (steps_per_mm (stepper_y cf)).

(** Whenever the laser burns in the course of the whole program, it is in one of the passes. *)
Lemma burn_program : forall g cf v_opt a_opt v_draw n_repeat intensity segs c' ex ey w u,
  svg_main g cf v_opt a_opt v_draw n_repeat intensity segs = Ok (c', (ex, ey)) -> segs <> [] ->
  (forall i, ticks_of c' i < u64_max)%Z -> (0 <= u)%Z -> m_weight (play (events c') u (machine0 w)) <> 0%Z ->
  exists ax ay vmx vmy, svg_limits cf v_opt a_opt = Ok (ax, ay, vmx, vmy) /\
  let c0 := set_weight (new_ctx ax ay vmx vmy) (svg_weight intensity) in
  exists i a b e ops, nth_pass g (scales_of cf) (fdiv v_draw (f_of_Z (tps cf))) segs c0 i a b e /\
    (Z.of_nat i < n_repeat)%Z /\ (Z.of_nat (S i) = n_repeat -> e = (ex, ey)) /\ history code (new_ctx ax ay vmx vmy) ops a /\
    (forall j, ticks_of b j < u64_max)%Z /\ (ticks_of a AX <= u)%Z /\ m_weight (play (events b) u (machine0 w)) <> 0%Z /\
    (forall j, s_pos (machine_axis (play (events c') (u + 1) (machine0 w)) j) = s_pos (machine_axis (play (events b) (u + 1) (machine0 w)) j)).
Proof.
  intros g cf v_opt a_opt v_draw n_repeat intensity segs c' ex ey w u M NE Hm U0 HW. unfold svg_main in M.
  apply bind_Ok in M. destruct M as ([[[ax ay] vmx] vmy] & L & M). cbv zeta in M. fold (scales_of cf) in M.
  set (s := scales_of cf) in *. set (v := fdiv _ _) in *. set (c0 := set_weight _ _) in *.
  apply bind_Ok in M. destruct M as ([cn [ex1 ey1]] & R & M).
  apply bind_Ok in M. destruct M as (c1 & G & M). apply bind_Ok in M. destruct M as (t1 & T & M).
  apply bind_Ok in M. destruct M as (_u & _ & M). apply bind_Ok in M. destruct M as (c2 & F & M).
  injection M as -> -> ->. clear t1 T _u.
  assert (H0 : history code (new_ctx ax ay vmx vmy) [SetWeight (svg_weight intensity)] c0).
  { eapply hist_cons; [exact I|reflexivity|apply hist_nil]. }
  destruct (clocked_history _ _ _ _ _ _ H0) as [Hc0 _].
  destruct (repeat_history g s v segs _ _ _ _ _ Hc0 R) as (ops & H1 & R1).
  pose proof (history_app _ _ _ _ H0 _ _ H1) as Hn.
  destruct (clocked_history _ _ _ _ _ _ Hn) as [Hcn Cfn].
  assert (HG : history code cn [GotoSpeed 0 0 0 0] c1).
  { eapply hist_cons; [exact I|exact G|apply hist_nil]. }
  pose proof (history_app _ _ _ _ Hn _ _ HG) as Hn1.
  destruct (clocked_history _ _ _ _ _ _ Hn1) as [Hc1 Cf1].
  assert (HF : history code c1 [Flush] c').
  { eapply hist_cons; [exact I|exact F|apply hist_nil]. }
  destruct (step_goto_speed_spec code cn 0 0 0 0 c1 Hcn planner_typed G)
    as (sx & sy & rest & _ & _ & _ & S1 & _ & Y1 & ST1 & _ & _ & Q1).
  destruct (flush_spec c1 c' Hc1 F) as (S2 & _ & Ch2 & _ & _ & _ & Q2).
  assert (TK : forall i, ticks_of c' i = ticks_of c1 i).
  { intros i. pose proof (Ch2 i) as K. unfold ticks_of. destruct i; cbn [channel] in K; congruence. }
  assert (Hm1 : forall i, (ticks_of c1 i < u64_max)%Z) by (intros i; rewrite <- TK; apply Hm).
  assert (Hmn : forall i, (ticks_of cn i < u64_max)%Z).
  { intros i. pose proof (st_ticks _ _ S1 i). specialize (Hm1 i). lia. }
  assert (MW : move_weight cn = 0%Z /\ move_weight c1 = 0%Z) by (unfold config in *; split; congruence).
  destruct MW as [MWn MW1].
  assert (UN : (u < ticks_of cn AX)%Z /\ m_weight (play (events cn) u (machine0 w)) <> 0%Z).
  { pose proof (st_ticks _ _ S1 AX). rewrite play_weight_ok, Q2, Q1 in HW. rewrite play_weight_ok.
    destruct (Z.ltb_spec u (ticks_of cn AX)) as [LT|GE].
    - split; [exact LT|].
      destruct (Z.leb_spec (ticks_of c1 AX) u); [lia|]. destruct (Z.leb_spec (ticks_of cn AX) u); [lia|]. exact HW.
    - exfalso. rewrite MWn, MW1 in HW.
      destruct (Z.leb_spec (ticks_of cn AX) u); [|lia]. destruct (ticks_of c1 AX <=? u)%Z; congruence. }
  destruct UN as [UN WN].
  assert (T0 : ticks_of c0 AX = 0%Z) by reflexivity.
  destruct (burn_pass ax ay vmx vmy g s v segs NE (machine0 w) _ _ _ _ _ _ u H0 R Hmn ltac:(lia) WN)
    as (i & a & b & e & o1 & o2 & NP & IN & LE & HA & HB & RB & UB & WB & SY).
  exists ax, ay, vmx, vmy. split; [exact L|]. cbv zeta. fold s v c0.
  assert (HGF : history code cn [GotoSpeed 0 0 0 0; Flush] c') by exact (history_app _ _ _ _ HG _ _ HF).
  pose proof (history_app _ _ _ _ HB _ _ HGF) as HBF.
  assert (RF : Forall not_reset (o2 ++ [GotoSpeed 0 0 0 0; Flush])) by (apply Forall_app; split; [exact RB|repeat constructor]).
  assert (HNB : exists o3, history code (new_ctx ax ay vmx vmy) o3 b).
  { clear - NP HA. revert HA. generalize o1. induction NP as [c c1 e D|c c1 e i a b e' D NP IH]; intros o HA.
    - destruct (clocked_history _ _ _ _ _ _ HA) as [Hc Cf]. destruct e as [ex ey].
      destruct (C74_session _ _ _ _ _ _ _ Hc D) as (ops1 & H1 & _). eexists. exact (history_app _ _ _ _ HA _ _ H1).
    - exact (IH _ HA). }
  destruct HNB as (o3 & HNB).
  assert (Sb : ContextOps.sound b) by exact (history_sound _ _ _ b planner_typed HNB (sound_new ax ay vmx vmy)).
  destruct (clocked_history _ _ _ _ _ _ HNB) as [Hcb _].
  destruct (history_step _ _ _ _ planner_typed HBF RF Hcb) as [Stb _].
  assert (Hmb : forall j, (ticks_of b j < u64_max)%Z).
  { intros j. pose proof (st_ticks _ _ Stb j). specialize (Hm j). lia. }
  exists i, a, b, e, o1. split; [exact NP|]. split; [lia|]. split; [intros K; apply LE; lia|]. split; [exact HA|]. split; [exact Hmb|].
  split; [lia|]. split; [exact WB|].
  intros j. rewrite !machine_place_at by (try lia; try apply S2; apply Hcb).
  apply (history_place _ _ _ HBF RF Sb Hm). destruct j; lia.
Qed.

(** * C112 *)

(** The program of svg_path.rs, from the document on: whenever the laser burns, the machine is near a
    point of the figure of the document, in the last pass as near as the program says. *)
Theorem C112_program : forall tg q doc layer g cf v_opt a_opt v_draw n_repeat intensity c' ex ey p rsegs K N T P n fuel search ints D w u,
  (* the document is read in binary64; its exact figure starts with a move *)
  svg_program tg g cf v_opt a_opt v_draw n_repeat intensity layer (document_events doc) = Ok (c', (ex, ey)) ->
  parse_document (document_events doc) tidentity (layer_filter layer) = Ok (Some (GoTo p :: rsegs)) ->
  accurate tg q -> 0 <= K <= 2 ^ 20 -> 1 <= N -> 0 <= T -> 1 <= P -> INR n <= 2 ^ 40 ->
  (forall chain, In chain (all_chains (layer_filter layer) doc) ->
    (exists k N' T', chain_cost q chain k N' T' /\ k <= K /\ N' <= N /\ T' <= T) /\ forall d, path_of chain d -> fine_path P n d) ->
  let Q := 3 * (N * (P + T + 1)) in
  let len := INR (S (List.length rsegs)) in
  3 * Q <= 2 ^ 300 -> len <= 2 ^ 40 -> len <= 65536 * Q -> (forall i, ticks_of c' i < u64_max)%Z ->
  (* the parts of the program that are parameters of the model, the scales and the passes *)
  g_bezier g = fbezier fuel search ints -> finds (g_find g) ->
  (forall i, is_finite (step_scale (scales_of cf) i) = true /\ Rabs (B2R (step_scale (scales_of cf) i)) * (24 * Q) <= 2 ^ 62) -> (forall i, 0 <= D i) ->
  let v := fdiv v_draw (f_of_Z (tps cf)) in
  (forall segs ax ay vmx vmy i a b e, fparse_document tg (document_events doc) fidentity (layer_filter layer) = Ok (Some segs) ->
    svg_limits cf v_opt a_opt = Ok (ax, ay, vmx, vmy) -> (Z.of_nat i < n_repeat)%Z ->
    nth_pass g (scales_of cf) v segs (set_weight (new_ctx ax ay vmx vmy) (svg_weight intensity)) i a b e ->
    fits (3 * Q) (machine_place (scales_of cf) a) /\ lengths_sane g (scales_of cf) v (3 * Q) (begin_drawing (scales_of cf) a) segs /\
    gotos_near g (scales_of cf) v D (begin_drawing (scales_of cf) a) segs) ->
  (* the laser burns at tick [u] *)
  (0 <= u)%Z -> m_weight (play (events c') u (machine0 w)) <> 0%Z ->
  exists ax ay vmx vmy segs i a b e z, svg_limits cf v_opt a_opt = Ok (ax, ay, vmx, vmy) /\
    fparse_document tg (document_events doc) fidentity (layer_filter layer) = Ok (Some segs) /\
    nth_pass g (scales_of cf) v segs (set_weight (new_ctx ax ay vmx vmy) (svg_weight intensity)) i a b e /\
    (Z.of_nat i < n_repeat)%Z /\ (Z.of_nat (S i) = n_repeat -> e = (ex, ey)) /\
    figure (mk_vec 0 0) (GoTo p :: rsegs) z /\
    forall j, Rabs (IZR (s_pos (machine_axis (play (events c') (u + 1) (machine0 w)) j)) - B2R (step_scale (scales_of cf) j) * coord z j)
      <= IZR (match j with AX => fst e | AY => snd e end) + 1 + Rabs (B2R (step_scale (scales_of cf) j)) *
         (D j + (9600 * len + 15 * INR n + 3 * K + 2262) * Q / 2 ^ 53 + 4 / 10 ^ 6 * INR (closes segs)).
Proof.
  intros tg q doc layer g cf v_opt a_opt v_draw n_repeat intensity c' ex ey p rsegs K N T P n fuel search ints D w u
    PR PD AC [K0 KL] N1 T0 P1 NB CF Q len BQ BL BL2 Hm GB FG SC D0 v PS U0 HW.
  unfold svg_program in PR. apply bind_Ok in PR. destruct PR as (lim & _ & PR). apply bind_Ok in PR. destruct PR as (r & FP & PR).
  apply bind_Ok in PR. destruct PR as (segs & RS & PR). destruct r as [segs'|]; [|discriminate RS]. cbn [unwrap] in RS. injection RS as ->.
  assert (KL' : K <= lots) by (unfold lots; eapply Rle_trans; [exact KL|cbn [pow]; lra]).
  assert (Q9 : 6 <= Q).
  { unfold Q. assert (P + T + 1 <= N * (P + T + 1)) by (rewrite <- (Rmult_1_l (P + T + 1)) at 1; apply Rmult_le_compat_r; lra). lra. }
  assert (Z' : zone N T P <= bpow radix2 400).
  { rewrite big_is. change (zone N T P) with Q. apply Rle_trans with (2 ^ 300); [lra|]. apply Rle_pow; [lra|lia]. }
  pose proof (document_near q tg (layer_filter layer) K N T P n AC KL' N1 T0 P1 Z' NB doc CF) as DN.
  rewrite FP, PD in DN. cbn [along] in DN. unfold near_segs in DN. change (zone N T P) with Q in DN.
  assert (SG : exists q0 r0, segs = SGoTo q0 :: r0).
  { inversion DN as [|s0 ? r0 ? S1 S2]; subst. inversion S1; subst. eauto. }
  assert (LN : len = INR (List.length segs)).
  { unfold len. change (S (List.length rsegs)) with (List.length (GoTo p :: rsegs)). f_equal. clear - DN. induction DN; cbn [List.length]; congruence. }
  destruct (burn_program _ _ _ _ _ _ _ _ _ _ _ w u PR ltac:(destruct SG as (? & ? & ->); discriminate) Hm U0 HW)
    as (ax & ay & vmx & vmy & LI & i & a & b & e & ops & NP & IN & LE & HA & Hmb & UA & WB & AT).
  destruct (PS segs ax ay vmx vmy i a b e FP LI IN NP) as (FM & LS & GN). fold v in NP.
  assert (DC : exists c1 e1, draw_curves g (scales_of cf) a segs v = Ok (c1, e1) /\ c1 = b /\ e1 = e).
  { clear - NP. induction NP as [c c1 e D|c c1 e i a b e' D NP IH]; [eauto|exact IH]. }
  destruct DC as (c1 & [e1 e2] & DC & -> & <-).
  pose proof (pos_INR n) as N0.
  destruct (laser_near (5 * INR n + 16 + K) Q segs _ (mk_vec 0 0) ax ay vmx vmy ops a g (scales_of cf) v b e1 e2 fuel search ints D w u DN)
    as (z & FI & B); [| |exact BQ|exact SG| | |exact HA|exact DC|exact Hmb|exact GB|exact FG|exact LS|exact FM|exact SC|exact D0|exact GN|exact UA|exact WB|].
  - split; [lra|]. clear - NB KL. cbn [pow] in *. lra.
  - lra.
  - rewrite <- LN. exact BL.
  - rewrite <- LN. exact BL2.
  - exists ax, ay, vmx, vmy, segs, i, a, b, (e1, e2), z. split; [exact LI|]. split; [exact FP|]. split; [exact NP|]. split; [exact IN|]. split; [exact LE|].
    split; [exact FI|]. intros j. rewrite AT. specialize (B j). rewrite LN. cbn [fst snd].
    replace (9600 * INR (List.length segs) + 15 * INR n + 3 * K + 2262) with (9600 * INR (List.length segs) + 3 * (5 * INR n + 16 + K) + 2214) by ring. exact B.
Qed.

(** A line of a millimetre, twice: at tick 12 and at tick 50, in the two passes, the machine is within
    about a hundredth of a millimetre of the line. *)
Definition one_line : list node := [path_node "M1 1H2"].
Definition one_line_segs : list segment := [SGoTo (pt 1 1); SLineTo (pt 2 1)].

Lemma one_line_exact : parse_document (document_events one_line) tidentity (layer_filter None) = Ok (Some [GoTo (mk_vec 1 1); LineTo (mk_vec 2 1)]).
Proof.
  lazy -[IZR Rplus Rmult Rminus Ropp Rinv Rdiv powerRZ]; cbn [powerRZ].
  repeat match goal with
    | |- Ok _ = Ok _ => f_equal
    | |- Some _ = Some _ => f_equal
    | |- _ :: _ = _ :: _ => f_equal
    | |- GoTo _ = GoTo _ => f_equal
    | |- LineTo _ = LineTo _ => f_equal
    | |- mk_vec _ _ = mk_vec _ _ => f_equal
    | |- @eq R _ _ => field
    end.
Qed.

Lemma one_line_read : fparse_document good_trig (document_events one_line) fidentity (layer_filter None) = Ok (Some one_line_segs).
Proof.
  assert (B : match fparse_document good_trig (document_events one_line) fidentity (layer_filter None) with
    | Ok (Some s) => Some (map sf_segment s) | _ => None end = Some (map sf_segment one_line_segs)) by (vm_compute; reflexivity).
  destruct (fparse_document _ _ _ _) as [[s|]| |]; try discriminate B. injection B as B.
  rewrite (sf_segments_inj s one_line_segs); [reflexivity| |exact B].
  unfold one_line_segs. repeat (apply Forall_cons; [reflexivity|]). apply Forall_nil.
Qed.

Lemma one_line_cost : forall chain, In chain (all_chains (layer_filter None) one_line) ->
  (exists k N' T', chain_cost 3 chain k N' T' /\ k <= 0 /\ N' <= 1 /\ T' <= 0) /\ forall d, path_of chain d -> fine_path 2 3 d.
Proof.
  set (e := (svg_name "path", [plain_attr "d" "M1 1H2"])). intros chain I. change (In chain [[e]]) in I. destruct I as [<-|[]]. split.
  - exists (0 + 0), (1 * 1), (0 + 0). split; [|lra]. apply cost_cons; [|constructor]. apply cost_plain; [reflexivity|discriminate|].
    apply cost_other; [discriminate|constructor].
  - intros d (above & e' & E & _ & _ & V). change [e] with ([] ++ [e]) in E. apply app_inj_tail in E. destruct E as [_ <-]. injection V as <-.
    assert (T1 : number_text [ch "1"] 1) by (apply (text_digit (ch "1")); reflexivity).
    assert (T2 : number_text [ch "2"] 2) by (apply (text_digit (ch "2")); reflexivity).
    exists (ch "M"), [1; 1], [(ch "H", [2])]. split; [right; left; reflexivity|]. split.
    + change (path_text ([] ++ (ch "M" :: [] ++ ([ch "1"] ++ chars " " ++ [ch "1"])) ++ [] ++ (ch "H" :: [] ++ [ch "2"]) ++ []) [(ch "M", [1; 1]); (ch "H", [2])]).
      apply path_more; [constructor| |].
      { apply command_args; [apply is_one_of_In; reflexivity|constructor|].
        apply numbers_more; [exact T1|right; split; [discriminate|repeat constructor]|]. apply numbers_one, T1. }
      apply path_more; [constructor| |constructor; constructor].
      apply command_args; [apply is_one_of_In; reflexivity|constructor|]. apply numbers_one, T2.
    + split; [repeat constructor|]. split; [|cbn; lia].
      change (absolute (mk_vec 0 0) (mk_vec 0 0) true [(ch "M", [1; 1]); (ch "H", [2])]) with [(ch "M", [1; 1]); (ch "H", [2])].
      repeat (apply Forall_cons; [cbn [snd]; repeat (apply Forall_cons; [rewrite Rabs_pos_eq; lra|]); apply Forall_nil|]). apply Forall_nil.
Qed.

Definition small4 (x : f64) : bool := is_finite x && fle x (f_of_Z 4) && fle (f_of_Z (-4)) x.
Lemma small4_spec : forall x, small4 x = true -> is_finite x = true /\ Rabs (B2R x) <= 4.
Proof.
  intros x H. apply andb_true_iff in H. destruct H as [H H3]. apply andb_true_iff in H. destruct H as [F H2].
  destruct (f_of_Z_exact 4 ltac:(lia)) as [F4 V4]. destruct (f_of_Z_exact (-4) ltac:(lia)) as [F5 V5].
  apply fle_spec in H2; [|assumption..]. apply fle_spec in H3; [|assumption..]. rewrite V4 in H2. rewrite V5 in H3.
  split; [exact F|]. apply Rabs_le. lra.
Qed.
Definition place4 (c : ctx) : bool :=
  (small4 (fx (machine_place (scales_of sample_config) c)) && small4 (fy (machine_place (scales_of sample_config) c)) &&
   negb (c_pos (channel c AX) =? 1966080)%Z)%bool.

Lemma one_line_passes : forall ax ay vmx vmy i a b e,
  svg_limits sample_config None None = Ok (ax, ay, vmx, vmy) -> (Z.of_nat i < 2)%Z ->
  nth_pass C103_geometry (scales_of sample_config) (fdiv (f_of_Z 20) (f_of_Z 128)) one_line_segs (set_weight (new_ctx ax ay vmx vmy) (svg_weight 50)) i a b e ->
  place4 a = true /\ (fst e <= 19750)%Z /\ (snd e <= 0)%Z.
Proof.
  intros ax ay vmx vmy i a b e L I NP.
  assert (L' : svg_limits sample_config None None = Ok (30000, 30000, 384000, 384000)%Z) by reflexivity. rewrite L' in L. injection L as <- <- <- <-.
  set (c0 := set_weight _ _) in *. set (v := fdiv _ _) in *.
  assert (C : match draw_curves C103_geometry (scales_of sample_config) c0 one_line_segs v with
    | Ok (c1, (e1, e2)) => place4 c0 && (e1 <=? 19750)%Z && (e2 <=? 0)%Z && place4 c1 &&
        match draw_curves C103_geometry (scales_of sample_config) c1 one_line_segs v with Ok (_, (e1, e2)) => (e1 <=? 19750)%Z && (e2 <=? 0)%Z | _ => false end
    | _ => false end = true) by (vm_compute; reflexivity).
  inversion NP as [c c1 e1 D|c c1 e1 i' a' b' e' D NP']; subst; rewrite D in C; [destruct e as [e1 e2]|destruct e1 as [e1 e2]];
    repeat (apply andb_true_iff in C; destruct C as [C ?]); cbn [fst snd] in *.
  { rewrite <- !Z.leb_le. auto. }
  inversion NP' as [c c2 e3 D2|c c2 e3 i2 a2 b2 e4 D2 NP2]; subst; [|lia]. rewrite D2 in *. destruct e as [e3 e4]. cbn [fst snd].
  match goal with K : (_ && _)%bool = true |- _ => apply andb_true_iff in K; destruct K end. rewrite <- !Z.leb_le. auto.
Qed.

Example C112_example : exists c', svg_program good_trig C103_geometry sample_config None None (f_of_Z 20) 2 50 None (document_events one_line) = Ok (c', (19750, 0)%Z) /\
  forall u, In u [12; 50]%Z -> m_weight (play (events c') u (machine0 0)) = 127%Z /\
  exists x, 1 <= x <= 2 /\ Rabs (IZR (s_pos (m_x (play (events c') (u + 1) (machine0 0)))) - 1966080 * x) <= 19752 /\
    Rabs (IZR (s_pos (m_y (play (events c') (u + 1) (machine0 0)))) - 1966080) <= 2.
Proof.
  eexists. split; [vm_compute; reflexivity|]. intros u IU. match goal with |- context[events ?x] => set (c' := x) end.
  assert (PR : svg_program good_trig C103_geometry sample_config None None (f_of_Z 20) 2 50 None (document_events one_line) = Ok (c', (19750, 0)%Z)) by (vm_compute; reflexivity).
  assert (HW : m_weight (play (events c') u (machine0 0)) = 127%Z) by (destruct IU as [<-|[<-|[]]]; vm_compute; reflexivity).
  split; [exact HW|].
  destruct (f_of_Z_exact 1966080 ltac:(lia)) as [F V].
  assert (SE : forall i, step_scale (scales_of sample_config) i = f_of_Z 1966080) by (intros []; reflexivity).
  destruct (C112_program good_trig 3 one_line None C103_geometry sample_config None None (f_of_Z 20) 2 50 c' 19750 0 (mk_vec 1 1) [LineTo (mk_vec 2 1)]
    0 1 0 2 3 50 PropsFloatCurve.scan C103_tables (fun _ => 0) 0 u PR one_line_exact good_accurate ltac:(cbn [pow]; lra) ltac:(lra) ltac:(lra) ltac:(lra) ltac:(cbn [INR pow]; lra) one_line_cost)
    as (ax & ay & vmx & vmy & segs & i & a & b & e & z & LI & FP & NP & IN & LE & (s1 & y & s2 & t & EQ & NG & HT & DR) & B).
  - replace (3 * (3 * (1 * (2 + 0 + 1)))) with 27 by ring. apply Rle_trans with (2 ^ 5); [cbn [pow]; lra|apply Rle_pow; [lra|lia]].
  - cbn [List.length INR pow]. lra.
  - cbn [List.length INR]. lra.
  - intros []; vm_compute; reflexivity.
  - reflexivity.
  - exact first_ge_finds.
  - intros i. rewrite SE, V. split; [exact F|]. rewrite Rabs_pos_eq by lra. cbn [pow]. lra.
  - intros i. lra.
  - intros segs ax ay vmx vmy i a b e FP LI IN NP. rewrite one_line_read in FP. injection FP as <-.
    destruct (one_line_passes _ _ _ _ _ _ _ _ LI IN NP) as [PL _].
    apply andb_true_iff in PL. destruct PL as [PL P3]. apply andb_true_iff in PL. destruct PL as [P1 P2].
    apply small4_spec in P1, P2. apply negb_true_iff, Z.eqb_neq in P3.
    split; [|split].
    + destruct P1 as [A1 A2]. destruct P2 as [A3 A4]. split; [split; assumption|]. split; cbn [rv vx vy]; lra.
    + intros r1 e0 c1 c2 r2 d curve E. exfalso. unfold one_line_segs in E.
      destruct r1 as [|? [|? [|? r1]]]; discriminate E.
    + intros r1 p0 r2 d E LO [ST _]. exfalso. unfold one_line_segs in E.
      destruct r1 as [|? [|? [|? r1]]]; try discriminate E. injection E as <- <-. cbn [draw_loop] in LO. injection LO as <-.
      assert (TS : to_steps (scales_of sample_config) (fx (pt 1 1)) AX = Ok 1966080%Z) by (vm_compute; reflexivity). rewrite TS in ST.
      cbn [begin_drawing d_ctx] in ST. congruence.
  - destruct IU as [<-|[<-|[]]]; lia.
  - rewrite HW. discriminate.
  - rewrite one_line_read in FP. injection FP as <-. destruct (one_line_passes _ _ _ _ _ _ _ _ LI IN NP) as (_ & E1 & E2).
    apply IZR_le in E1, E2.
    assert (Y : z = mk_vec (1 + t) 1).
    { destruct s1 as [|y1 s1]; cbn [app] in EQ; [injection EQ as <- _; exfalso; exact (NG _ eq_refl)|injection EQ as <- EQ].
      destruct s1 as [|y2 s1]; cbn [app] in EQ; [injection EQ as <- _|injection EQ as _ EQ; destruct s1; discriminate EQ].
      cbn [pen fold_left traced drawn] in DR. injection DR as <-. unfold vadd, vsub, vscale. cbn [vx vy]. f_equal; ring. }
    subst z. exists (1 + t). split; [lra|].
    assert (EB : forall j, Rabs (B2R (step_scale (scales_of sample_config) j)) *
      (0 + (9600 * INR (S (List.length [LineTo (mk_vec 2 1)])) + 15 * INR 3 + 3 * 0 + 2262) * (3 * (1 * (2 + 0 + 1))) / 2 ^ 53 + 4 / 10 ^ 6 * INR (closes one_line_segs)) <= 1).
    { intros j. rewrite SE, V. rewrite Rabs_pos_eq by lra. cbn [List.length closes one_line_segs filter is_close INR]. unfold Rdiv. rewrite <- u53_is, u53_val. cbn [pow]. lra. }
    split; [pose proof (B AX) as BX; specialize (EB AX)|pose proof (B AY) as BX; specialize (EB AY)];
      rewrite SE, V in BX at 1; cbn [coord vx vy machine_axis] in BX; (eapply Rle_trans; [|eapply Rle_trans; [exact BX|lra]]).
    + right. reflexivity.
    + right. do 2 f_equal. ring.
Qed.

Print Assumptions C112_program.
Print Assumptions C112_example.
