(** Property C125: from a document whose paths have arcs of circles to the burned line. *)
From Coq Require Import Ascii String ZArith Reals List Bool NArith Lia Lra.
From Flocq Require Import Core BinarySingleNaN.
From Verif Require Import Base Chars Floats FloatProofs FloatScale FloatErr AccVector IntegerCurve StepperContext
  MachineSpec MachineProofs ContextProofs ContextOps ContextHist ContextClock ApproxCurve DrawCurves FloatPath Coords CoordsProofs Curves PathBuild BuildProofs
  PropsBuild PathGrammar PathLex LexProofs PropsLex FloatPathProofs PropsFloatPath FloatCurve PropsFloatCurve PropsApprox PropsDraw DrawProofs PropsError
  DrawPlan FloatRun FloatCover PropsLaser PropsCover FloatLex FloatLexProofs PropsFloatLex PropsLaserText ImageRaster PropsRaster SvgMain PropsSvgMain FloatTransform FloatAngles
  FloatCircle SvgDocument FloatDocument PropsFloatTransform PropsCircle PropsSvg FloatPlace PropsFloatSvg PropsLaserSvg PropsCoverSvg
  PropsTransform FloatArc FloatChord PropsFloatArc PropsFloatArcs PropsLaserArcs FloatParts FloatRound.
Import ListNotations.
Open Scope R_scope.

(** The segments that are read from a document are those of its paths, one after the other: each path
    on its own, under the transform that binary64 computes for the elements above it. *)
Theorem C125_parts : forall tg filter doc segs, fparse_document tg (document_events doc) fidentity filter = Ok (Some segs) ->
  exists parts, segs = List.concat parts /\
    Forall2 (fun chain part =>
      (forall d, path_of chain d -> exists c c', fparse_path tg d c (fplace tg chain) = Ok (Some (c', part))) /\
      ((forall d, ~ path_of chain d) -> part = [])) (all_chains filter doc) parts.
Proof. exact document_parts. Qed.

(** That transform is near the exact product of the transforms. *)
Theorem C125_place : forall tg q chain k N T, accurate tg q -> chain_cost q chain k N T -> k <= 2 ^ 20 -> N * (1 + T) <= 2 ^ 400 ->
  forall p B, 0 <= B -> box B p ->
  apart (k * (N * (B + T + 1)) / 2 ^ 53) (tapply (rtr (fplace tg chain)) p) (tapply (place tidentity chain) p).
Proof.
  intros tg q chain k N T AC C KL BH p B B0 BX. pose proof (accurate_pos _ _ AC) as Q0. destruct (chain_sane _ _ _ _ _ Q0 C) as (K0 & N1 & T0).
  assert (RM : roomy k N T).
  { split; [unfold lots; eapply Rle_trans; [exact KL|cbn [pow]; lra]|]. eapply Rle_trans; [exact BH|]. rewrite pow_bpow. apply bpow_le. lia. }
  destruct (image_near k N T _ _ p B N1 T0 K0 B0 (place_near tg q chain k N T AC C RM) BX) as (D1 & D2 & _).
  replace (k * (N * (B + T + 1)) / 2 ^ 53) with (k * (u53 * (N * (B + T + 1)))) by (rewrite u53_is; unfold Rdiv; ring). split; assumption.
Qed.

(** Moving and scaling evenly, one after the other, is again moving and scaling evenly, also when the
    scales are rounded: both are rounded alike. *)
Theorem C125_even : forall F t, even F -> even t -> ordinary (fmul (fm0 F) (fm0 t)) ->
  even (ftmul F t) /\ B2R (fm0 (ftmul F t)) = B2R (fmul (fm0 F) (fm0 t)).
Proof.
  intros F t (F1 & F2 & F0 & F3 & FE) (T1 & T2 & T0 & T3 & TE) O. apply feq_z in F1, F2, T1, T2.
  assert (OP : forall x, ordinary x -> is_finite x = true /\ B2R x <> 0).
  { intros x [A [B _]]. split; [exact A|]. intros Z. rewrite Z, Rabs_R0 in B. assert (0 < / 2 ^ 99) by (apply Rinv_0_lt_compat, pow_lt; lra). lra. }
  destruct (OP _ F0) as [FF0 NF0]. destruct (OP _ T0) as [FT0 NT0]. pose proof (OP _ O) as PO.
  assert (M0 : fm0 (ftmul F t) = fmul (fm0 F) (fm0 t)).
  { cbn [ftmul fm0]. apply add_z; [exact PO|]. apply z_mul_r; [apply zero_facts, F2|exact T1]. }
  assert (BIG : Rabs (B2R (fm0 F) * B2R (fm0 t)) <= bpow radix2 1000).
  { rewrite Rabs_mult. destruct F0 as (_ & _ & A). destruct T0 as (_ & _ & B). apply Rle_trans with (2 ^ 99 * 2 ^ 99).
    - apply Rmult_le_compat; try apply Rabs_pos; assumption.
    - rewrite <- pow_add, pow_bpow. apply bpow_le. lia. }
  assert (BIG3 : Rabs (B2R (fm3 F) * B2R (fm3 t)) <= bpow radix2 1000) by (rewrite Rabs_mult, FE, TE, <- Rabs_mult; exact BIG).
  assert (V : forall x y : f64, is_finite x = true -> is_finite y = true -> Rabs (B2R x * B2R y) <= bpow radix2 1000 ->
    is_finite (fmul x y) = true /\ B2R (fmul x y) = rne (B2R x * B2R y)).
  { intros x y Fx Fy H. pose proof (Bmult_correct 53 1024 prec_ok emax_ok mode_NE x y) as C. cbn [round_mode] in C. rewrite rne_range in C by exact H.
    destruct C as (E & Fi & _). unfold fmul. rewrite Fi, Fx, Fy. auto. }
  destruct (V _ _ FF0 FT0 BIG) as [_ V0]. destruct (V _ _ F3 T3 BIG3) as [FV3 V3].
  assert (AB : Rabs (B2R (fmul (fm3 F) (fm3 t))) = Rabs (B2R (fmul (fm0 F) (fm0 t)))).
  { rewrite V0, V3. assert (C : B2R (fm3 F) * B2R (fm3 t) = B2R (fm0 F) * B2R (fm0 t) \/ B2R (fm3 F) * B2R (fm3 t) = - (B2R (fm0 F) * B2R (fm0 t))).
    { apply Rabs_eq_Rabs. rewrite !Rabs_mult, FE, TE. reflexivity. }
    destruct C as [-> | ->]; [reflexivity|]. rewrite round_NE_opp. apply Rabs_Ropp. }
  assert (M3 : fm3 (ftmul F t) = fmul (fm3 F) (fm3 t)).
  { cbn [ftmul fm3]. apply add_z_l; [|apply z_mul_r; [apply zero_facts, F1|exact T2]]. split; [exact FV3|].
    intros Z. rewrite Z, Rabs_R0 in AB. exact (Rabs_no_R0 _ (proj2 PO) (eq_sym AB)). }
  split; [|rewrite M0; reflexivity]. split; [|split; [|split; [rewrite M0; exact O|rewrite M0, M3; auto]]].
  - apply z_feq. cbn [ftmul fm1]. apply z_add; [apply z_mul_l; [exact FT0|exact F1]|apply z_mul_r; [exact F3|exact T1]].
  - apply z_feq. cbn [ftmul fm2]. apply z_add; [apply z_mul_r; [exact FF0|exact T2]|apply z_mul_l; [exact T3|exact F2]].
Qed.

(** ** The drawing of a document *)

(** [z] is the point at [t] of one of the segments of a path of the document: the lines are those of the
    exact path under the exact transform, the arcs are arcs between their ends. *)
Definition on_document (eps del : R) (tg : trig) (filter : name -> list attribute -> bool) (doc : list node) (t : R) (z : vec) : Prop :=
  exists chain d cmds fcmds rc lines c c' part j, In chain (all_chains filter doc) /\ path_of chain d /\ path_text d cmds /\
    Forall2 (fun c fc => fst c = fst fc /\ Forall2 rounds_to (snd c) (snd fc)) cmds fcmds /\
    build_commands path_ctx_new (map straight cmds) (place tidentity chain) true = Ok (Some (rc, lines)) /\
    fparse_path tg d c (fplace tg chain) = Ok (Some (c', part)) /\
    on_path eps del (fplace tg chain) (tapply (place tidentity chain) (mk_vec 0 0)) (arcs_of fcmds) part lines j t z.

Lemma in_part : forall (A : Type) (Rl : A -> list segment -> Prop) chains parts, Forall2 Rl chains parts -> forall s1 s s2, List.concat parts = s1 ++ s :: s2 ->
  exists chain before a b, In chain chains /\ Rl chain (a ++ s :: b) /\ s1 = before ++ a.
Proof.
  intros A Rl chains parts H. induction H as [|x p chains parts H1 H IH]; intros s1 s s2 E; cbn [List.concat] in E.
  - destruct s1; discriminate E.
  - destruct (le_lt_dec (List.length p) (List.length s1)) as [LE|LT].
    + assert (E1 : exists r, s1 = p ++ r /\ List.concat parts = r ++ s :: s2).
      { clear - E LE. revert s1 E LE. induction p as [|y p IH]; intros s1 E LE; [exists s1; auto|]. destruct s1 as [|x s1]; [cbn in LE; lia|].
        cbn [app] in E. injection E as <- E. destruct (IH s1 E ltac:(cbn in LE; lia)) as (r & -> & E2). exists r. auto. }
      destruct E1 as (r & -> & E1). destruct (IH _ _ _ E1) as (c & before & a & b & I1 & R1 & ->).
      exists c, (p ++ before), a, b. split; [right; exact I1|]. split; [exact R1|]. apply app_assoc.
    + assert (E1 : exists b, p = s1 ++ s :: b).
      { clear - E LT. revert s1 E LT. induction p as [|y p IH]; intros s1 E LT; [cbn in LT; lia|]. destruct s1 as [|x s1].
        - cbn [app] in E. injection E as -> _. exists p. reflexivity.
        - cbn [app] in E. injection E as <- E. destruct (IH s1 E ltac:(cbn in LT; lia)) as (b & ->). exists b. reflexivity. }
      destruct E1 as (b & ->). exists x, [], s1, b. split; [left; reflexivity|]. auto.
Qed.

Lemma part_in : forall (A : Type) (Rl : A -> list segment -> Prop) chains parts chain, Forall2 Rl chains parts -> In chain chains ->
  exists part before after, Rl chain part /\ List.concat parts = before ++ part ++ after.
Proof.
  intros A Rl chains parts chain H. induction H as [|x p chains parts H1 H IH]; intros I; [contradiction|]. destruct I as [->|I].
  - exists p, [], (List.concat parts). auto.
  - destruct (IH I) as (part & before & after & R1 & E). exists part, (p ++ before), after. split; [exact R1|]. cbn [List.concat]. rewrite E. apply app_assoc.
Qed.

Lemma forall2_in : forall (A B : Type) (R S : A -> B -> Prop) l l', Forall2 R l l' -> (forall x y, In x l -> In y l' -> R x y -> S x y) -> Forall2 S l l'.
Proof.
  intros A B R S l l' H. induction H as [|x y l l' H1 H IH]; intros K; constructor; [apply K; [left|left|]; auto|].
  apply IH. intros u w I J. apply K; right; assumption.
Qed.

Lemma pen_more : forall p a b, pen p (a ++ b) = pen (pen p a) b.
Proof. intros p a b. apply fold_left_app. Qed.

Section Drawing.
Variables (tg : trig) (q q1 : R) (filter : name -> list attribute -> bool) (doc : list node) (K N T P L R W : R) (n : nat) (segs : list segment).
Hypotheses (ZE : zero_exact tg) (AA : angle_accurate tg q) (HQ : 0 <= q <= 2 ^ 40) (AC : accurate tg q1)
  (HK : 0 <= K <= 2 ^ 20) (N1 : 1 <= N) (T0 : 0 <= T) (P1 : 1 <= P) (L0 : 0 < L) (R0 : 0 <= R) (NB : INR n <= 2 ^ 40).
Hypotheses (CF : forall chain, In chain (all_chains filter doc) ->
    (exists k N' T', chain_cost q1 chain k N' T' /\ k <= K /\ N' <= N /\ T' <= T) /\ forall d, path_of chain d -> round_path P L R n (fplace tg chain) d).
Let Q := 3 * (N * (P + T + 1)).
Let E := (5 * INR n + 16 + K) * Q / 2 ^ 53.
Let drift := INR (List.length segs) * ((203 + 2 * q) * R / 2 ^ 53).
Hypotheses (BQ : Q <= 2 ^ 190) (BD : drift <= Q / 2) (QW : 4 * Q <= W) (RW : (29 + 2 * q1) * R <= W) (WL : W <= 2 ^ 34 * L).
Hypotheses (FP : fparse_document tg (document_events doc) fidentity filter = Ok (Some segs)).

(** What is known of the part of a path. *)
Definition good_part (chain : list element) (d : list char) (part : list segment) : Prop :=
  (exists m r, part = SGoTo m :: r) /\ Forall (drawable q1 W) part /\ (forall p0, arcs_end (W / 2) p0 part) /\
  exists cmds fcmds rc lines, path_text d cmds /\ Forall2 (fun c fc => fst c = fst fc /\ Forall2 rounds_to (snd c) (snd fc)) cmds fcmds /\
    build_commands path_ctx_new (map straight cmds) (place tidentity chain) true = Ok (Some (rc, lines)) /\
    forall p0 s1 s s2 t z, part = s1 ++ s :: s2 -> (forall m, s <> SGoTo m) -> 0 <= t <= 1 -> traced (pen p0 (map rs s1)) (rs s) t = Some z ->
    exists z1, on_path (4 * E + drift + (215 + 2 * q) * R / 2 ^ 53) ((60 + 2 * q) / 2 ^ 53) (fplace tg chain) (tapply (place tidentity chain) (mk_vec 0 0)) (arcs_of fcmds) part lines (List.length s1) t z1 /\
      forall i, Rabs (coord z i - coord z1 i) <= 6 * E + 3 * drift + 12 * R / 2 ^ 53.

Lemma draw_sizes : 6 <= Q /\ 0 <= E <= Q / 100 /\ 0 <= (203 + 2 * q) * R / 2 ^ 53 /\ 0 <= drift.
Proof.
  assert (Q9 : 6 <= Q).
  { unfold Q. assert (P + T + 1 <= N * (P + T + 1)) by (rewrite <- (Rmult_1_l (P + T + 1)) at 1; apply Rmult_le_compat_r; lra). lra. }
  pose proof (pos_INR n) as NN. assert (I0 : 0 < / 2 ^ 53) by (apply Rinv_0_lt_compat, pow_lt; lra).
  assert (DR0 : 0 <= (203 + 2 * q) * R / 2 ^ 53) by (apply Rmult_le_pos; [apply Rmult_le_pos; lra|lra]).
  split; [exact Q9|]. split; [|split; [exact DR0|apply Rmult_le_pos; [apply pos_INR|exact DR0]]].
  replace E with (Q * ((5 * INR n + 16 + K) * / 2 ^ 53)) by (unfold E, Rdiv; ring).
  assert (KK : 0 <= (5 * INR n + 16 + K) * / 2 ^ 53 <= / 100).
  { split; [apply Rmult_le_pos; lra|]. clear - NB NN HK. set (x := INR n) in *. clearbody x. cbn [pow] in *. lra. }
  split; [apply Rmult_le_pos; lra|]. unfold Rdiv. apply Rmult_le_compat_l; lra.
Qed.

Lemma part_good : forall chain d c c' part, In chain (all_chains filter doc) -> path_of chain d -> fparse_path tg d c (fplace tg chain) = Ok (Some (c', part)) ->
  (List.length part <= List.length segs)%nat -> good_part chain d part.
Proof.
  intros chain d c c' part IC PO FD LL. destruct (CF chain IC) as [(k & N' & T' & C & KB & NB' & TB) RP]. specialize (RP d PO).
  pose proof (accurate_pos _ _ AC) as Q0. pose proof (chain_sane _ _ _ _ _ Q0 C) as SA.
  destruct draw_sizes as (Q9 & E0 & DR0 & DR1).
  assert (KL : K <= lots) by (unfold lots; eapply Rle_trans; [apply HK|cbn [pow]; lra]).
  assert (BQ4 : zone N T P <= bpow radix2 400) by (change (zone N T P) with Q; eapply Rle_trans; [exact BQ|]; rewrite pow_bpow; apply bpow_le; lia).
  pose proof (within_roomy K N T P KL N1 T0 P1 BQ4 k N' T' SA KB NB' TB) as RM.
  pose proof (tr_near_le _ _ _ K N T _ _ SA KB NB' TB (place_near tg q1 chain k N' T' AC C RM)) as TN.
  destruct (path_part tg q K N T P L R n _ _ d c c' part ZE AA HQ (conj (proj1 HK) KL) N1 T0 P1 L0 R0 NB BQ TN RP FD)
    as (cmds & fcmds & rc & lines & PT & RC & BC & SG & BL & BO & SC & FN & PE).
  change (zone N T P) with Q in BL, BO, FN, PE. fold E in FN, PE.
  set (origin := tapply (place tidentity chain) (mk_vec 0 0)) in *.
  assert (AP : forall i, apart (2 * E + drift) (pen origin (map rs (firstn i part))) (pen origin (firstn i lines))).
  { intros i. pose proof (near_length _ _ _ _ _ _ _ FN) as LN.
    destruct (le_lt_dec i (List.length part)) as [IL|IL].
    - eapply apart_le; [|apply PE]. unfold drift. apply Rplus_le_compat_l. apply Rmult_le_compat_r; [exact DR0|]. apply le_INR. lia.
    - rewrite !firstn_all2 by lia. specialize (PE (List.length part)). rewrite !firstn_all2 in PE by lia. eapply apart_le; [|exact PE].
      unfold drift. apply Rplus_le_compat_l. apply Rmult_le_compat_r; [exact DR0|]. apply le_INR. exact LL. }
  assert (SC2 : Forall (fun a => 0 < scaled (fplace tg chain) a <= R) (arcs_of fcmds)).
  { rewrite Forall_forall in SC |- *. intros a Ha. destruct (SC a Ha). lra. }
  split; [exact SG|]. split.
  { apply (near_drawable q q1 E Q W (fplace tg chain) origin (arcs_of fcmds) part lines); try assumption; try lra.
    rewrite Forall_forall in SC |- *. intros a Ha. destruct (SC a Ha) as [S1 S2]. split; [lra|]. split; [|cbn [pow] in *; lra].
    apply Rle_trans with (2 := RW). apply Rmult_le_compat_l; lra. }
  split.
  { intros p0. destruct SG as (m & r & ->). apply (near_arcs_end (2 * E + drift) Q (W / 2) p0 origin m r lines); try assumption. lra. }
  exists cmds, fcmds, rc, lines. split; [exact PT|]. split; [exact RC|]. split; [exact BC|].
  intros p0 s1 s s2 t z EQS NG Ht TR.
  assert (TR2 : traced (pen origin (map rs s1)) (rs s) t = Some z).
  { destruct SG as (m & r & ->). destruct s1 as [|x s1]; cbn [app] in EQS; injection EQS as <- EQS; [exfalso; exact (NG m eq_refl)|exact TR]. }
  destruct (near_point q E (2 * E + drift) R (fplace tg chain) origin (arcs_of fcmds) part lines ltac:(lra) ltac:(lra) R0 FN SC2 s1 s s2 origin t z AP EQS NG Ht TR2) as (z1 & P2 & C1).
  exists z1. split; [replace (4 * E + drift + (215 + 2 * q) * R / 2 ^ 53) with (2 * E + drift + 2 * E + (215 + 2 * q) * R / 2 ^ 53) by ring; exact P2|].
  apply apart_close in C1. intros i. specialize (C1 i). cbv beta in C1. lra.
Qed.

Definition whole_part (chain : list element) (part : list segment) : Prop :=
  (exists d, path_of chain d /\ (exists c c', fparse_path tg d c (fplace tg chain) = Ok (Some (c', part))) /\ good_part chain d part) \/ part = [].

Lemma path_of_dec : forall chain, (exists d, path_of chain d) \/ (forall d, ~ path_of chain d).
Proof.
  intros chain. destruct chain as [|e0 chain0] eqn:EC.
  - right. intros d (above & e & E1 & _). destruct above; discriminate E1.
  - destruct (exists_last (l := e0 :: chain0) ltac:(discriminate)) as (above & e & ->).
    destruct (in_svg (fst e)) eqn:SV; [|right; intros d PO; apply path_of_last in PO; destruct PO; congruence].
    destruct (text_eqb (local_name (fst e)) (chars "path")) eqn:LP.
    2: { right. intros d PO. apply path_of_last in PO. destruct PO as (_ & PO & _). apply text_eqb_true in PO. congruence. }
    apply text_eqb_true in LP. destruct (last_value "d" (snd e)) as [d|] eqn:LV.
    + left. exists d. apply path_of_last. auto.
    + right. intros d PO. apply path_of_last in PO. destruct PO as (_ & _ & PO). congruence.
Qed.

Lemma whole_parts : exists parts, segs = List.concat parts /\ Forall2 whole_part (all_chains filter doc) parts /\ Forall2 (part_of tg) (all_chains filter doc) parts.
Proof.
  destruct (document_parts tg filter doc segs FP) as (parts & ES & F). exists parts. split; [exact ES|]. split; [|exact F].
  assert (LL : forall part, In part parts -> (List.length part <= List.length segs)%nat).
  { rewrite ES. clear. induction parts as [|p parts IH]; intros part I; [contradiction|]. cbn [List.concat]. rewrite app_length. destruct I as [->|I]; [lia|]. specialize (IH _ I). lia. }
  apply (forall2_in _ _ _ _ _ _ F). intros chain part IC IP [H1 H2]. destruct (path_of_dec chain) as [(d & PO)|NP].
  - destruct (H1 d PO) as (c & c' & FD). left. exists d. split; [exact PO|]. split; [eauto|]. apply (part_good chain d c c' part IC PO FD). apply LL, IP.
  - right. apply H2, NP.
Qed.

Lemma document_good : Forall (drawable q1 W) segs /\ (forall p0, arcs_end (W / 2) p0 segs) /\
  forall p0 s1 s s2 t z, segs = s1 ++ s :: s2 -> (forall m, s <> SGoTo m) -> 0 <= t <= 1 -> traced (pen p0 (map rs s1)) (rs s) t = Some z ->
  exists z1, on_document (4 * E + drift + (215 + 2 * q) * R / 2 ^ 53) ((60 + 2 * q) / 2 ^ 53) tg filter doc t z1 /\
    forall i, Rabs (coord z i - coord z1 i) <= 6 * E + 3 * drift + 12 * R / 2 ^ 53.
Proof.
  destruct whole_parts as (parts & ES & F & _). split; [|split].
  - rewrite ES. clear - F. induction F as [|chain part chains parts H F IH]; cbn [List.concat]; [constructor|]. apply Forall_app. split; [|exact IH].
    destruct H as [(d & _ & _ & _ & DW & _)| -> ]; [exact DW|constructor].
  - intros p0 s1 r ry a b ro s2 EQ. rewrite ES in EQ. destruct (in_part _ _ _ _ F _ _ _ EQ) as (chain & before & x & y & IC & WP & ->).
    destruct WP as [(d & _ & _ & _ & _ & AE & _)|E0]; [|destruct x; discriminate E0].
    rewrite <- app_assoc, map_app, pen_more. exact (AE _ _ _ _ _ _ _ _ eq_refl).
  - intros p0 s1 s s2 t z EQ NG Ht TR. rewrite ES in EQ. destruct (in_part _ _ _ _ F _ _ _ EQ) as (chain & before & x & y & IC & WP & ->).
    destruct WP as [(d & PO & (c & c' & FD) & _ & _ & _ & cmds & fcmds & rc & lines & PT & RC & BC & PP)|E0]; [|destruct x; discriminate E0].
    rewrite map_app, pen_more in TR. destruct (PP _ _ _ _ _ _ eq_refl NG Ht TR) as (z1 & OP & CL).
    exists z1. split; [|exact CL]. exists chain, d, cmds, fcmds, rc, lines, c, c', (x ++ s :: y), (List.length x). auto 10.
Qed.
End Drawing.

(** ** The burned line *)

(** Whenever the laser burns, the machine is near a point of the drawing of the document, whose paths
    are lines and arcs of circles. *)
Theorem C125_program : forall tg q q1 doc layer g cf v_opt a_opt v_draw n_repeat intensity c' ex ey segs K N T P L R W n fuel search ints D w u,
  (* the document is read in binary64 *)
  svg_program tg g cf v_opt a_opt v_draw n_repeat intensity layer (document_events doc) = Ok (c', (ex, ey)) ->
  fparse_document tg (document_events doc) fidentity (layer_filter layer) = Ok (Some segs) -> segs <> [] ->
  (* the functions of the library *)
  zero_exact tg -> angle_accurate tg q -> 0 <= q <= 2 ^ 40 -> accurate tg q1 ->
  (* its transforms are modest; its paths are not far away, and their arcs are circles with radii between [L] and [R] *)
  0 <= K <= 2 ^ 20 -> 1 <= N -> 0 <= T -> 1 <= P -> 0 < L -> 0 <= R -> INR n <= 2 ^ 40 ->
  (forall chain, In chain (all_chains (layer_filter layer) doc) ->
    (exists k N' T', chain_cost q1 chain k N' T' /\ k <= K /\ N' <= N /\ T' <= T) /\ forall d, path_of chain d -> round_path P L R n (fplace tg chain) d) ->
  let Q := 3 * (N * (P + T + 1)) in
  let len := INR (List.length segs) in
  let E := (5 * INR n + 16 + K) * Q / 2 ^ 53 in
  let drift := len * ((203 + 2 * q) * R / 2 ^ 53) in
  Q <= 2 ^ 190 -> drift <= Q / 2 -> 4 * Q <= W -> (29 + 2 * q1) * R <= W -> W <= 2 ^ 34 * L -> W <= 2 ^ 300 ->
  len <= 2 ^ 40 -> len <= 65536 * W -> (forall i, ticks_of c' i < u64_max)%Z ->
  (* the parts of the program that are parameters of the model, the scales and the passes *)
  g_circle g = fcircle tg -> g_bezier g = fbezier fuel search ints -> finds (g_find g) ->
  (forall i, is_finite (step_scale (scales_of cf) i) = true /\ Rabs (B2R (step_scale (scales_of cf) i)) * (8 * W) <= 2 ^ 62) ->
  (forall i, 0 <= D i <= W / 4) ->
  let v := fdiv v_draw (f_of_Z (tps cf)) in
  (forall ax ay vmx vmy i a b e, svg_limits cf v_opt a_opt = Ok (ax, ay, vmx, vmy) -> (Z.of_nat i < n_repeat)%Z ->
    nth_pass g (scales_of cf) v segs (set_weight (new_ctx ax ay vmx vmy) (svg_weight intensity)) i a b e ->
    fits W (machine_place (scales_of cf) a) /\ lengths_sane g (scales_of cf) v W (begin_drawing (scales_of cf) a) segs /\
    gotos_near g (scales_of cf) v D (begin_drawing (scales_of cf) a) segs) ->
  (* the laser burns at tick [u] *)
  (0 <= u)%Z -> m_weight (play (events c') u (machine0 w)) <> 0%Z ->
  exists ax ay vmx vmy i a b e t z, svg_limits cf v_opt a_opt = Ok (ax, ay, vmx, vmy) /\
    nth_pass g (scales_of cf) v segs (set_weight (new_ctx ax ay vmx vmy) (svg_weight intensity)) i a b e /\
    (Z.of_nat i < n_repeat)%Z /\ (Z.of_nat (S i) = n_repeat -> e = (ex, ey)) /\
    0 <= t <= 1 /\ on_document (4 * E + drift + (215 + 2 * q) * R / 2 ^ 53) ((60 + 2 * q) / 2 ^ 53) tg (layer_filter layer) doc t z /\
    forall j, Rabs (IZR (MachineSpec.s_pos (machine_axis (play (events c') (u + 1) (machine0 w)) j)) - B2R (step_scale (scales_of cf) j) * coord z j)
      <= IZR (match j with AX => fst e | AY => snd e end) + 1 + Rabs (B2R (step_scale (scales_of cf) j)) *
         (D j + (3200 * len + 738) * W / 2 ^ 53 + 6 * E + 3 * drift + 12 * R / 2 ^ 53 + 4 / 10 ^ 6 * INR (closes segs)).
Proof.
  intros tg q q1 doc layer g cf v_opt a_opt v_draw n_repeat intensity c' ex ey segs K N T P L R W n fuel search ints D w u
    PR FP NE ZE AA HQ AC HK N1 T0 P1 L0 R0 NB CF Q len E drift BQ BD QW RW WL W300 BL BL2 Hm GC GB FG SC D0 v PS U0 HW.
  unfold svg_program in PR. apply bind_Ok in PR. destruct PR as (lim & _ & PR). apply bind_Ok in PR. destruct PR as (r & FP' & PR).
  rewrite FP in FP'. injection FP' as <-. apply bind_Ok in PR. destruct PR as (segs' & RS & PR). cbn [unwrap] in RS. injection RS as <-.
  destruct (document_good tg q q1 (layer_filter layer) doc K N T P L R W n segs ZE AA HQ AC HK N1 T0 P1 L0 R0 NB CF BQ BD QW RW WL FP) as (DW & AE & PP).
  destruct (draw_sizes q K N T P R n segs HQ HK N1 T0 P1 R0 NB) as (Q9 & _). fold Q in Q9, PP. fold E in PP. fold len in PP. fold drift in PP.
  destruct (burn_program _ _ _ _ _ _ _ _ _ _ _ w u PR NE Hm U0 HW)
    as (ax & ay & vmx & vmy & LI & i & a & b & e & ops & NP & IN & LE & HA & Hmb & UA & WB & AT).
  destruct (PS ax ay vmx vmy i a b e LI IN NP) as (FM & LS & GN). fold v in NP.
  assert (DC : exists c1 e1, draw_curves g (scales_of cf) a segs v = Ok (c1, e1) /\ c1 = b /\ e1 = e).
  { clear - NP. induction NP as [c c1 e D|c c1 e i a b e' D NP IH]; [eauto|exact IH]. }
  destruct DC as (c1 & [e1 e2] & DC & -> & <-).
  destruct (C118_laser tg q1 ax ay vmx vmy ops a g (scales_of cf) segs v b e1 e2 fuel search ints W D w u HA NE DC Hmb AC GC GB FG LS ltac:(lra) FM DW (AE _) BL BL2 SC D0 GN UA WB)
    as (z & (r1 & rseg & r2 & t & EQ & NG & Ht & TR) & B).
  destruct (map_eq_app _ _ _ _ EQ) as (s1 & s2' & -> & E1 & E2). destruct s2' as [|s s2]; [discriminate E2|]. cbn [map] in E2. injection E2 as E2 E3. subst r1 rseg r2.
  destruct (PP _ s1 s s2 t z eq_refl ltac:(intros m ->; exact (NG _ eq_refl)) Ht TR) as (z1 & OD & CL).
  exists ax, ay, vmx, vmy, i, a, b, (e1, e2), t, z1. split; [exact LI|]. split; [exact NP|]. split; [exact IN|]. split; [exact LE|]. split; [exact Ht|]. split; [exact OD|].
  intros j. rewrite AT. cbn [fst snd]. eapply Rle_trans; [exact (shift_point _ _ _ _ _ _ (B j) (CL j))|]. fold len. lra.
Qed.

(** And every point of every segment of every path of the document, longer than one and a half ticks, is
    burned in every pass. *)
Theorem C125_covered : forall tg q q1 doc layer g cf v_opt a_opt v_draw n_repeat intensity c' ex ey segs K N T P L R W n fuel search ints D w i chain d,
  (* the document is read in binary64 *)
  svg_program tg g cf v_opt a_opt v_draw n_repeat intensity layer (document_events doc) = Ok (c', (ex, ey)) ->
  fparse_document tg (document_events doc) fidentity (layer_filter layer) = Ok (Some segs) ->
  (* the functions of the library *)
  zero_exact tg -> angle_accurate tg q -> 0 <= q <= 2 ^ 40 -> accurate tg q1 ->
  (* its transforms are modest; its paths are not far away, and their arcs are circles with radii between [L] and [R] *)
  0 <= K <= 2 ^ 20 -> 1 <= N -> 0 <= T -> 1 <= P -> 0 < L -> 0 <= R -> INR n <= 2 ^ 40 ->
  (forall chain, In chain (all_chains (layer_filter layer) doc) ->
    (exists k N' T', chain_cost q1 chain k N' T' /\ k <= K /\ N' <= N /\ T' <= T) /\ forall d, path_of chain d -> round_path P L R n (fplace tg chain) d) ->
  let Q := 3 * (N * (P + T + 1)) in
  let len := INR (List.length segs) in
  let E := (5 * INR n + 16 + K) * Q / 2 ^ 53 in
  let drift := len * ((203 + 2 * q) * R / 2 ^ 53) in
  Q <= 2 ^ 190 -> drift <= Q / 2 -> 4 * Q <= W -> (29 + 2 * q1) * R <= W -> W <= 2 ^ 34 * L -> W <= 2 ^ 300 ->
  len <= 2 ^ 40 -> len <= 65536 * W ->
  (* the whole burn takes less than 2^31 - 1 ticks *)
  (ticks_of c' AX < 2 ^ 31 - 1 /\ ticks_of c' AY < 2 ^ 31 - 1)%Z ->
  (* the parts of the program that are parameters of the model, the scales and the passes *)
  g_circle g = fcircle tg -> g_bezier g = fbezier fuel search ints -> finds (g_find g) ->
  (forall i, is_finite (step_scale (scales_of cf) i) = true /\ Rabs (B2R (step_scale (scales_of cf) i)) * (8 * W) <= 2 ^ 62) ->
  (forall i, 0 <= D i <= W / 4) ->
  let v := fdiv v_draw (f_of_Z (tps cf)) in
  0 < B2R v ->
  (forall ax ay vmx vmy i a b e, svg_limits cf v_opt a_opt = Ok (ax, ay, vmx, vmy) -> (Z.of_nat i < n_repeat)%Z ->
    nth_pass g (scales_of cf) v segs (set_weight (new_ctx ax ay vmx vmy) (svg_weight intensity)) i a b e ->
    fits W (machine_place (scales_of cf) a) /\ lengths_sane g (scales_of cf) v W (begin_drawing (scales_of cf) a) segs /\
    gotos_near g (scales_of cf) v D (begin_drawing (scales_of cf) a) segs) ->
  (* the pass with number [i] and a path of the document *)
  (Z.of_nat i < n_repeat)%Z -> In chain (all_chains (layer_filter layer) doc) -> path_of chain d ->
  exists cmds fcmds rc lines fc fc' part before after, path_text d cmds /\
    Forall2 (fun c fc => fst c = fst fc /\ Forall2 rounds_to (snd c) (snd fc)) cmds fcmds /\
    build_commands path_ctx_new (map straight cmds) (place tidentity chain) true = Ok (Some (rc, lines)) /\
    fparse_path tg d fc (fplace tg chain) = Ok (Some (fc', part)) /\ segs = before ++ part ++ after /\
    (* a segment of the path and the point at [t] on it *)
    forall s1 seg s2 wl t, part = s1 ++ seg :: s2 -> (forall m, seg <> SGoTo m) -> 0 <= t <= 1 ->
    way (pen (mk_vec 0 0) (map rs s1)) (rs seg) = Some wl ->
    3 / 2 * B2R v + D AX + D AY + 1700 * len * W / 2 ^ 53 + 8 / 10 ^ 6 <= wl ->
    exists ax ay vmx vmy a b er z u, svg_limits cf v_opt a_opt = Ok (ax, ay, vmx, vmy) /\
      nth_pass g (scales_of cf) v segs (set_weight (new_ctx ax ay vmx vmy) (svg_weight intensity)) i a b er /\
      (Z.of_nat (S i) = n_repeat -> er = (ex, ey)) /\
      on_path (4 * E + drift + (215 + 2 * q) * R / 2 ^ 53) ((60 + 2 * q) / 2 ^ 53) (fplace tg chain) (tapply (place tidentity chain) (mk_vec 0 0))
        (arcs_of fcmds) part lines (List.length s1) t z /\
      (* the tick [u] of that pass *)
      (ticks_of a AX <= u < ticks_of b AX)%Z /\ m_weight (play (events c') u (machine0 w)) = svg_weight intensity /\
      forall j, Rabs (IZR (MachineSpec.s_pos (machine_axis (play (events c') (u + 1) (machine0 w)) j)) - B2R (step_scale (scales_of cf) j) * coord z j)
        <= IZR (match j with AX => fst er | AY => snd er end) + 1 + Rabs (B2R (step_scale (scales_of cf) j)) *
           (3 / 2 * B2R v + D j + (4500 * len + 738) * W / 2 ^ 53 + 6 * E + 3 * drift + 12 * R / 2 ^ 53 + 4 / 10 ^ 6 * INR (closes segs)).
Proof.
  intros tg q q1 doc layer g cf v_opt a_opt v_draw n_repeat intensity c' ex ey segs K N T P L R W n fuel search ints D w i chain d
    PR FP ZE AA HQ AC HK N1 T0 P1 L0 R0 NB CF Q len E drift BQ BD QW RW WL W300 BL BL2 [TX TY] GC GB FG SC D0 v V0 PS IN IC PO.
  assert (Hm : forall i, (ticks_of c' i < u64_max)%Z) by (intros []; unfold u64_max; lia).
  unfold svg_program in PR. apply bind_Ok in PR. destruct PR as (lim & _ & PR). apply bind_Ok in PR. destruct PR as (r & FP' & PR).
  rewrite FP in FP'. injection FP' as <-. apply bind_Ok in PR. destruct PR as (segs' & RS & PR). cbn [unwrap] in RS. injection RS as <-.
  destruct (document_good tg q q1 (layer_filter layer) doc K N T P L R W n segs ZE AA HQ AC HK N1 T0 P1 L0 R0 NB CF BQ BD QW RW WL FP) as (DW & AE & _).
  destruct (draw_sizes q K N T P R n segs HQ HK N1 T0 P1 R0 NB) as (Q9 & _). fold Q in Q9.
  destruct (document_parts _ _ _ _ FP) as (parts & ES & F2).
  destruct (part_in _ _ _ _ chain F2 IC) as (part & before & after & [PT1 _] & EP). destruct (PT1 d PO) as (fc & fc' & FD). rewrite <- ES in EP.
  destruct (part_good tg q q1 (layer_filter layer) doc K N T P L R W n segs ZE AA HQ AC HK N1 T0 P1 L0 R0 NB CF BQ BD QW RW WL chain d fc fc' part IC PO FD)
    as ((m0 & r0 & SG) & _ & _ & cmds & fcmds & rc & lines & PT & RC & BC & PP).
  { rewrite EP, !app_length. lia. }
  fold Q in PP. fold E in PP. fold len in PP. fold drift in PP.
  assert (NE : segs <> []) by (rewrite EP, SG; destruct before; discriminate).
  exists cmds, fcmds, rc, lines, fc, fc', part, before, after. split; [exact PT|]. split; [exact RC|]. split; [exact BC|]. split; [exact FD|]. split; [exact EP|].
  intros s1 seg s2 wl t E1 NG Ht WY LW.
  destruct (pass_of_program _ _ _ _ _ _ _ _ _ _ _ w i PR NE Hm IN) as (ax & ay & vmx & vmy & LI & a & b & er & ops & NP & LE & HA & Hmb & [TA TB] & CW & AT).
  destruct (PS ax ay vmx vmy i a b er LI IN NP) as (FM & LS & GN). fold v in NP.
  assert (DC : exists c1 e1, draw_curves g (scales_of cf) a segs v = Ok (c1, e1) /\ c1 = b /\ e1 = er).
  { clear - NP. induction NP as [c c1 e D|c c1 e i a b e' D NP IH]; [eauto|exact IH]. }
  destruct DC as (c1 & [e1 e2] & DC & -> & <-).
  assert (PN : pen (rv (machine_place (scales_of cf) a)) (map rs (before ++ s1)) = pen (mk_vec 0 0) (map rs s1)).
  { rewrite map_app, pen_more. destruct s1 as [|x s1]; [rewrite SG in E1; injection E1 as E1 _; exfalso; exact (NG _ (eq_sym E1))|].
    rewrite SG in E1. injection E1 as <- _. reflexivity. }
  destruct (traced (pen (mk_vec 0 0) (map rs s1)) (rs seg) t) as [z|] eqn:TR; [|destruct seg; discriminate TR].
  destruct (PP _ _ _ _ _ _ E1 NG Ht TR) as (z1 & OP & CL).
  assert (EQ : segs = (before ++ s1) ++ seg :: s2 ++ after) by (rewrite EP, E1, <- !app_assoc; reflexivity).
  rewrite <- PN in WY, TR.
  destruct (C118_covered tg q1 ax ay vmx vmy ops a g (scales_of cf) segs v b e1 e2 fuel search ints W D w (before ++ s1) seg (s2 ++ after) wl t z
    HA NE DC Hmb AC GC GB FG LS ltac:(lra) FM DW (AE _) BL BL2 SC D0 GN ltac:(lia) V0 EQ Ht WY TR LW) as (u & HU & HW & M).
  destruct (AT u HU) as [AW AP].
  exists ax, ay, vmx, vmy, a, b, (e1, e2), z1, u. split; [exact LI|]. split; [exact NP|]. split; [exact LE|]. split; [exact OP|]. split; [exact HU|].
  split; [rewrite AW, HW; exact CW|].
  intros j. rewrite AP. cbn [fst snd]. eapply Rle_trans; [exact (shift_point _ _ _ _ _ _ (M j) (CL j))|]. fold len. lra.
Qed.

(** ** A quarter of a circle in a group, burned twice *)
Definition C125_doc : list node := [Elem (svg_name "g", [plain_attr "transform" "translate(1,2)"]) [path_node "M0 0a32 32 0 0 1 -32 32"]].
Definition C125_segs : list segment := [SGoTo (pt 1 2); SArc (f_of_Z 32) (f_of_Z 32) fzero right_angle (fneg fzero)].
Definition C125_axis : stepper := mk_stepper (f_of_Z 1) (f_of_Z 60) (f_of_Z 20).
Definition C125_config : config_ := mk_config 1 C125_axis C125_axis.
Definition C125_group : element := (svg_name "g", [plain_attr "transform" "translate(1,2)"]).
Definition C125_path : element := (svg_name "path", [plain_attr "d" "M0 0a32 32 0 0 1 -32 32"]).

Lemma C125_read : fparse_document known_trig (document_events C125_doc) fidentity (layer_filter None) = Ok (Some C125_segs).
Proof.
  assert (G : match fparse_document known_trig (document_events C125_doc) fidentity (layer_filter None) with Ok (Some s) => Some (map sf_seg s) | _ => None end = Some (map sf_seg C125_segs))
    by (vm_compute; reflexivity).
  destruct (fparse_document known_trig (document_events C125_doc) fidentity (layer_filter None)) as [[segs|]| |]; try discriminate G.
  assert (G2 : map sf_seg segs = map sf_seg C125_segs) by congruence. rewrite (sf_seg_inj _ _ G2). reflexivity.
Qed.

Lemma C125_costs : forall chain, In chain (all_chains (layer_filter None) C125_doc) ->
  (exists k N' T', chain_cost 3 chain k N' T' /\ k <= 10 /\ N' <= 1 /\ T' <= 2) /\ forall d, path_of chain d -> round_path 32 30 33 4 (fplace known_trig chain) d.
Proof.
  assert (CG : elem_cost 3 C125_group (2 + 8 + 0) (1 * 1) (2 + 0)).
  { apply cost_plain; [reflexivity|discriminate|]. apply (cost_transform _ _ _ (mk_tr 1 0 0 1 1 2)); [reflexivity| |constructor].
    exists [], (chars "translate(1,2)"), []. split; [reflexivity|]. split; [constructor|]. split.
    - apply items_one, (item_translate2 3 _ (chars "1,2")); [|apply (call_short "translate"%string)| |].
      + apply (numbers_more (chars "1") 1 (chars ",") (chars "2") [2]); [apply (text_digit (ch "1")); reflexivity|left; exists [], []; repeat split; constructor|].
        apply numbers_one, (text_digit (ch "2")). reflexivity.
      + rewrite Rabs_pos_eq; lra.
      + rewrite Rabs_pos_eq; lra.
    - intros sp u f r Z SP _. apply separator_nonempty in SP. destruct sp; [congruence|discriminate]. }
  assert (CP : elem_cost 3 C125_path 0 1 0).
  { apply cost_plain; [reflexivity|discriminate|]. apply cost_other; [discriminate|constructor]. }
  intros chain I. change (In chain [[C125_group]; [C125_group; C125_path]]) in I.
  destruct I as [<-|[<-|[]]]; split; try (do 3 eexists; split; [repeat (eapply cost_cons; [first [exact CG|exact CP]|]); apply cost_nil|lra]).
  - intros d PO. apply (path_of_last [] C125_group) in PO. destruct PO as (_ & L & _). discriminate L.
  - intros d PO. apply (path_of_last [C125_group] C125_path) in PO. destruct PO as (_ & _ & V). injection V as <-.
    assert (M0 : B2SF (fm0 (fplace known_trig [C125_group; C125_path])) = B2SF fone /\ B2SF (fm3 (fplace known_trig [C125_group; C125_path])) = B2SF fone /\
      feq (fm1 (fplace known_trig [C125_group; C125_path])) fzero = true /\ feq (fm2 (fplace known_trig [C125_group; C125_path])) fzero = true)
      by (repeat split; vm_compute; reflexivity).
    set (F := fplace known_trig [C125_group; C125_path]) in *. clearbody F. destruct M0 as (M0 & M3 & M1 & M2). apply B2SF_inj in M0, M3. destruct one_value as [F1 V1].
    destruct C122_example as (PT & _ & CI & AB & _).
    exists (ch "M"), [0; 0], [(ch "a", [32; 32; 0; 0; 1; -32; 32])]. split; [right; left; reflexivity|]. split; [exact PT|]. split.
    { right. split; [exact M1|]. split; [exact M2|]. split; [|rewrite M3, M0; split; [exact F1|reflexivity]]. rewrite M0. split; [exact F1|]. rewrite V1, Rabs_R1.
      split; [cbn [pow]; lra|apply pow_R1_Rle; lra]. }
    split; [rewrite M0; exact CI|]. split; [exact AB|]. cbn. lia.
Qed.

(** Where the machine is when a pass starts. *)
Definition near64 (x : f64) : bool := is_finite x && fle x (f_of_Z 64) && fle (f_of_Z (-64)) x.
Lemma near64_spec : forall x, near64 x = true -> is_finite x = true /\ Rabs (B2R x) <= 64.
Proof.
  intros x H. apply andb_true_iff in H. destruct H as [H H3]. apply andb_true_iff in H. destruct H as [F H2].
  destruct (f_of_Z_exact 64 ltac:(lia)) as [F4 V4]. destruct (f_of_Z_exact (-64) ltac:(lia)) as [F5 V5].
  apply fle_spec in H2; [|assumption..]. apply fle_spec in H3; [|assumption..]. rewrite V4 in H2. rewrite V5 in H3.
  split; [exact F|]. apply Rabs_le. lra.
Qed.
Definition C125_starts (c : ctx) : bool :=
  (near64 (fx (machine_place (scales_of C125_config) c)) && near64 (fy (machine_place (scales_of C125_config) c)) && negb (c_pos (channel c AX) =? 1)%Z)%bool.

Lemma C125_passes : forall ax ay vmx vmy i a b e, svg_limits C125_config None None = Ok (ax, ay, vmx, vmy) -> (Z.of_nat i < 2)%Z ->
  nth_pass C118_geometry (scales_of C125_config) (fdiv (f_of_Z 25) (f_of_Z 1)) C125_segs (set_weight (new_ctx ax ay vmx vmy) (svg_weight 50)) i a b e ->
  C125_starts a = true /\ (fst e <= 6)%Z /\ (snd e <= 6)%Z.
Proof.
  intros ax ay vmx vmy i a b e L I NP.
  assert (L' : svg_limits C125_config None None = Ok (10, 10, 30, 30)%Z) by reflexivity. rewrite L' in L. injection L as <- <- <- <-.
  set (c0 := set_weight _ _) in *. set (v := fdiv _ _) in *.
  assert (C : match draw_curves C118_geometry (scales_of C125_config) c0 C125_segs v with
    | Ok (c1, (e1, e2)) => C125_starts c0 && (e1 <=? 6)%Z && (e2 <=? 6)%Z && C125_starts c1 &&
        match draw_curves C118_geometry (scales_of C125_config) c1 C125_segs v with Ok (_, (e1, e2)) => (e1 <=? 6)%Z && (e2 <=? 6)%Z | _ => false end
    | _ => false end = true) by (vm_compute; reflexivity).
  inversion NP as [c c1 e1 D|c c1 e1 i' a' b' e' D NP']; subst; rewrite D in C; [destruct e as [e1 e2]|destruct e1 as [e1 e2]];
    repeat (apply andb_true_iff in C; destruct C as [C ?]); cbn [fst snd] in *.
  { rewrite <- !Z.leb_le. auto. }
  inversion NP' as [c c2 e3 D2|c c2 e3 i2 a2 b2 e4 D2 NP2]; subst; [|lia]. rewrite D2 in *. destruct e as [e3 e4]. cbn [fst snd].
  match goal with K : (_ && _)%bool = true |- _ => apply andb_true_iff in K; destruct K end. rewrite <- !Z.leb_le. auto.
Qed.

Lemma C125_ready : forall ax ay vmx vmy i a b e, svg_limits C125_config None None = Ok (ax, ay, vmx, vmy) -> (Z.of_nat i < 2)%Z ->
  nth_pass C118_geometry (scales_of C125_config) (fdiv (f_of_Z 25) (f_of_Z (tps C125_config))) C125_segs (set_weight (new_ctx ax ay vmx vmy) (svg_weight 50)) i a b e ->
  fits 2048 (machine_place (scales_of C125_config) a) /\
  lengths_sane C118_geometry (scales_of C125_config) (fdiv (f_of_Z 25) (f_of_Z (tps C125_config))) 2048 (begin_drawing (scales_of C125_config) a) C125_segs /\
  gotos_near C118_geometry (scales_of C125_config) (fdiv (f_of_Z 25) (f_of_Z (tps C125_config))) (fun _ => 0) (begin_drawing (scales_of C125_config) a) C125_segs.
Proof.
  intros ax ay vmx vmy i a b e LI IN NP. destruct (C125_passes _ _ _ _ _ _ _ _ LI IN NP) as [PL _].
  apply andb_true_iff in PL. destruct PL as [PL P3]. apply andb_true_iff in PL. destruct PL as [P1 P2].
  apply near64_spec in P1, P2. apply negb_true_iff, Z.eqb_neq in P3. split; [|split].
  - destruct P1 as [A1 A2]. destruct P2 as [A3 A4]. split; [split; assumption|]. split; cbn [rv vx vy]; lra.
  - intros r1 e0 c1 c2 r2 d curve E. exfalso. unfold C125_segs in E. destruct r1 as [|? [|? [|? r1]]]; discriminate E.
  - intros r1 p0 r2 d E LO [ST _]. exfalso. unfold C125_segs in E.
    destruct r1 as [|? [|? [|? r1]]]; try discriminate E. assert (EP : p0 = pt 1 2) by (cbn [app] in E; congruence). subst p0. cbn [draw_loop] in LO. injection LO as <-.
    assert (TS : to_steps (scales_of C125_config) (fx (pt 1 2)) AX = Ok 1%Z) by (vm_compute; reflexivity). rewrite TS in ST.
    cbn [begin_drawing d_ctx] in ST. congruence.
Qed.

Lemma C125_speed : B2R (fdiv (f_of_Z 25) (f_of_Z (tps C125_config))) = 25.
Proof.
  assert (E : B2SF (fdiv (f_of_Z 25) (f_of_Z (tps C125_config))) = B2SF (f_of_Z 25)) by (vm_compute; reflexivity).
  apply B2SF_inj in E. rewrite E. apply f_of_Z_exact. lia.
Qed.

Lemma on_path_le : forall eps eps' del del' tr p arcs segs lines j t z, eps <= eps' -> del <= del' -> on_path eps del tr p arcs segs lines j t z -> on_path eps' del' tr p arcs segs lines j t z.
Proof.
  intros eps eps' del del' tr p arcs segs lines j t z LE LD H.
  induction H as [p s segs l lines arcs t z A B C|p e s segs lines a arcs t z A (c & al & be & EZ & A1 & A2 & A3 & A4)|p e s segs l lines arcs j t z A B C IH|p e s segs lines a arcs j t z A B IH].
  - apply on_line; assumption.
  - apply on_bow; [exact A|]. exists c, al, be. split; [exact EZ|]. split; [eapply apart_le; eassumption|]. split; [eapply apart_le; eassumption|]. split; [exact A3|].
    destruct (farc_large a); lra.
  - eapply past_line; eassumption.
  - apply past_bow; assumption.
Qed.

Lemma C125_part : forall fc, exists fc', fparse_path known_trig (chars "M0 0a32 32 0 0 1 -32 32") fc (fplace known_trig [C125_group; C125_path]) = Ok (Some (fc', C125_segs)).
Proof.
  intros fc. destruct C122_example as (PT & _). destruct (C106_text _ _ PT) as (fcmds & RC & EQ). rewrite EQ.
  assert (G : match fparse_path known_trig C122_quarter fpath_ctx_new (fplace known_trig [C125_group; C125_path]) with Ok (Some (_, s)) => Some (map sf_seg s) | _ => None end = Some (map sf_seg C125_segs))
    by (vm_compute; reflexivity).
  rewrite EQ in G. inversion RC as [|? [m fargs] ? rest [E _] _]; subst. cbn [fst] in E. subst m.
  rewrite (fbuild_independent known_trig 77%N fargs rest fc fpath_ctx_new) by (right; left; reflexivity).
  match type of G with context [fbuild_commands ?a ?b ?c ?d ?e] => destruct (fbuild_commands a b c d e) as [[[pc segs]|]| |] eqn:EG end; try discriminate G.
  assert (G2 : map sf_seg segs = map sf_seg C125_segs) by congruence. exists pc. rewrite <- (sf_seg_inj _ _ G2). first [exact EG|reflexivity].
Qed.

(** Where the laser burns, in either pass, the machine is within eight steps of the drawing; and it
    burns within 46 steps of all of the arc (a tick is 25 steps here). *)
Example C125_example : exists c', svg_program known_trig C118_geometry C125_config None None (f_of_Z 25) 2 50 None (document_events C125_doc) = Ok (c', (6, 2)%Z) /\
  map (fun u => m_weight (play (events c') u (machine0 0))) [3; 4; 5; 6; 10; 11; 12; 13]%Z = [0; 127; 127; 0; 0; 127; 127; 0]%Z /\
  (forall u, (0 <= u)%Z -> m_weight (play (events c') u (machine0 0)) <> 0%Z ->
    exists t z, 0 <= t <= 1 /\ on_document (1 / 10 ^ 9) (1 / 10 ^ 9) known_trig (layer_filter None) C125_doc t z /\
      forall j, Rabs (IZR (MachineSpec.s_pos (machine_axis (play (events c') (u + 1) (machine0 0)) j)) - coord z j) <= 8) /\
  forall i t, (i < 2)%nat -> 0 <= t <= 1 -> exists cmds fcmds rc lines z u, path_text (chars "M0 0a32 32 0 0 1 -32 32") cmds /\
    Forall2 (fun c fc => fst c = fst fc /\ Forall2 rounds_to (snd c) (snd fc)) cmds fcmds /\
    build_commands path_ctx_new (map straight cmds) (place tidentity [C125_group; C125_path]) true = Ok (Some (rc, lines)) /\
    on_path (1 / 10 ^ 9) (1 / 10 ^ 9) (fplace known_trig [C125_group; C125_path]) (tapply (place tidentity [C125_group; C125_path]) (mk_vec 0 0)) (arcs_of fcmds) C125_segs lines 1 t z /\
    m_weight (play (events c') u (machine0 0)) = 127%Z /\
    forall j, Rabs (IZR (MachineSpec.s_pos (machine_axis (play (events c') (u + 1) (machine0 0)) j)) - coord z j) <= 46.
Proof.
  eexists. split; [vm_compute; reflexivity|]. split; [vm_compute; reflexivity|]. match goal with |- context[events ?x] => set (c' := x) end.
  assert (PR : svg_program known_trig C118_geometry C125_config None None (f_of_Z 25) 2 50 None (document_events C125_doc) = Ok (c', (6, 2)%Z)) by (vm_compute; reflexivity).
  assert (TK : (ticks_of c' AX < 2 ^ 31 - 1 /\ ticks_of c' AY < 2 ^ 31 - 1)%Z) by (split; vm_compute; reflexivity).
  assert (Hm : forall i, (ticks_of c' i < u64_max)%Z) by (intros []; unfold u64_max; lia).
  clearbody c'. destruct (f_of_Z_exact 1 ltac:(lia)) as [F1 V1].
  assert (SE : forall i, step_scale (scales_of C125_config) i = f_of_Z 1) by (intros []; reflexivity).
  assert (U53 : / 2 ^ 53 = / 9007199254740992) by (rewrite <- u53_is, u53_val; lra).
  assert (LN : INR (List.length C125_segs) = 2) by reflexivity.
  assert (I4 : INR 4 = 4) by (cbn [INR]; lra).
  assert (SC : forall i, is_finite (step_scale (scales_of C125_config) i) = true /\ Rabs (B2R (step_scale (scales_of C125_config) i)) * (8 * 2048) <= 2 ^ 62).
  { intros i. rewrite SE, V1. split; [exact F1|]. rewrite Rabs_R1. cbn [pow]. lra. }
  assert (P190 : 3 * (1 * (32 + 2 + 1)) <= 2 ^ 190) by (apply Rle_trans with (2 ^ 7); [cbn [pow]; lra|apply Rle_pow; [lra|lia]]).
  assert (P300 : 2048 <= 2 ^ 300) by (apply Rle_trans with (2 ^ 11); [cbn [pow]; lra|apply Rle_pow; [lra|lia]]).
  assert (P40 : 0 <= 4 <= 2 ^ 40) by (cbn [pow]; lra). assert (P20 : 0 <= 10 <= 2 ^ 20) by (cbn [pow]; lra).
  assert (DQ : INR (List.length C125_segs) * ((203 + 2 * 4) * 33 / 2 ^ 53) <= 3 * (1 * (32 + 2 + 1)) / 2).
  { rewrite LN. unfold Rdiv at 1. rewrite U53. lra. }
  assert (EPS : 4 * ((5 * INR 4 + 16 + 10) * (3 * (1 * (32 + 2 + 1))) / 2 ^ 53) + INR (List.length C125_segs) * ((203 + 2 * 4) * 33 / 2 ^ 53) + (215 + 2 * 4) * 33 / 2 ^ 53 <= 1 / 10 ^ 9).
  { rewrite LN, I4. unfold Rdiv. rewrite U53. cbn [pow]. lra. }
  assert (DEL : (60 + 2 * 4) / 2 ^ 53 <= 1 / 10 ^ 9) by (unfold Rdiv; rewrite U53; cbn [pow]; lra).
  assert (CL : closes C125_segs = 0%nat) by reflexivity.
  assert (NE : C125_segs <> []) by discriminate.
  assert (L40 : INR (List.length C125_segs) <= 2 ^ 40) by (rewrite LN; cbn [pow]; lra).
  assert (L65 : INR (List.length C125_segs) <= 65536 * 2048) by (rewrite LN; lra).
  assert (N40 : INR 4 <= 2 ^ 40) by (rewrite I4; cbn [pow]; lra).
  assert (W34 : 2048 <= 2 ^ 34 * 30) by (cbn [pow]; lra).
  split.
  - intros u U0 HW.
    destruct (C125_program known_trig 4 3 C125_doc None C118_geometry C125_config None None (f_of_Z 25) 2 50 c' 6 2 C125_segs 10 1 2 32 30 33 2048 4 50 PropsFloatCurve.scan C103_tables (fun _ => 0) 0 u
      PR C125_read NE known_zero known_angles P40 known_accurate P20 ltac:(lra) ltac:(lra) ltac:(lra) ltac:(lra) ltac:(lra) N40 C125_costs P190 DQ ltac:(lra) ltac:(lra) W34 P300 L40 L65 Hm
      eq_refl eq_refl first_ge_finds SC ltac:(intros; lra) C125_ready U0 HW)
      as (ax & ay & vmx & vmy & i & a & b & e & t & z & LI & NP & IN & LE & Ht & OD & B).
    destruct (C125_passes _ _ _ _ _ _ _ _ LI IN NP) as (_ & E1 & E2). apply IZR_le in E1, E2.
    exists t, z. split; [exact Ht|]. split.
    + destruct OD as (chain & d & cmds & fcmds & rc & lines & fc & fc' & part & j & O1 & O2 & O3 & O4 & O5 & O6 & O7).
      exists chain, d, cmds, fcmds, rc, lines, fc, fc', part, j. repeat (split; [assumption|]). eapply on_path_le; [exact EPS|exact DEL|exact O7].
    + intros j. specialize (B j). rewrite SE, V1, Rabs_R1, !Rmult_1_l, LN, I4, CL in B. cbn [INR] in B. eapply Rle_trans; [exact B|].
      unfold Rdiv. rewrite U53. destruct j; lra.
  - intros i t IL Ht.
    destruct (C125_covered known_trig 4 3 C125_doc None C118_geometry C125_config None None (f_of_Z 25) 2 50 c' 6 2 C125_segs 10 1 2 32 30 33 2048 4 50 PropsFloatCurve.scan C103_tables (fun _ => 0) 0 i
      [C125_group; C125_path] (chars "M0 0a32 32 0 0 1 -32 32")
      PR C125_read known_zero known_angles P40 known_accurate P20 ltac:(lra) ltac:(lra) ltac:(lra) ltac:(lra) ltac:(lra) N40 C125_costs P190 DQ ltac:(lra) ltac:(lra) W34 P300 L40 L65 TK
      eq_refl eq_refl first_ge_finds SC ltac:(intros; lra) ltac:(rewrite C125_speed; lra) C125_ready ltac:(lia) ltac:(right; left; reflexivity)
      (proj2 (path_of_last [C125_group] C125_path _) (conj eq_refl (conj eq_refl eq_refl))))
      as (cmds & fcmds & rc & lines & fc & fc' & part & before & after & PT & RC & BC & FD & _ & CV).
    destruct (C125_part fc) as (fc2 & FD2). rewrite FD2 in FD. assert (EP : part = C125_segs) by congruence. subst part.
    destruct (f_of_Z_exact 32 ltac:(lia)) as [F32 V32]. destruct right_value as [F2 V2].
    destruct (CV [SGoTo (pt 1 2)] (SArc (f_of_Z 32) (f_of_Z 32) fzero right_angle (fneg fzero)) [] (Rabs (32 * (7074237752028440 / 4503599627370496 - 0))) t eq_refl ltac:(discriminate) Ht)
      as (ax & ay & vmx & vmy & a & b & er & z & u & LI & NP & _ & OP & _ & HW & B).
    + cbn [rs way]. rewrite V32, V2. change (B2R fzero) with 0. reflexivity.
    + rewrite C125_speed, LN. rewrite Rabs_pos_eq by lra. unfold Rdiv. rewrite U53. cbn [pow]. lra.
    + destruct (C125_passes ax ay vmx vmy i a b er LI ltac:(lia) NP) as (_ & E1 & E2). apply IZR_le in E1, E2.
      exists cmds, fcmds, rc, lines, z, u. split; [exact PT|]. split; [exact RC|]. split; [exact BC|]. split; [eapply on_path_le; [exact EPS|exact DEL|exact OP]|].
      split; [exact HW|]. intros j. specialize (B j). rewrite SE, V1, Rabs_R1, !Rmult_1_l, LN, I4, CL, C125_speed in B. cbn [INR] in B. eapply Rle_trans; [exact B|].
      unfold Rdiv. rewrite U53. destruct j; lra.
Qed.

Print Assumptions C125_parts.
Print Assumptions C125_place.
Print Assumptions C125_even.
Print Assumptions C125_program.
Print Assumptions C125_covered.
Print Assumptions C125_example.
