(** A path with arcs of circles under a transform that is itself off. *)
From Coq Require Import Ascii String ZArith Reals List Bool NArith Lia Lra.
From Flocq Require Import Core BinarySingleNaN.
From Verif Require Import Base Chars Floats FloatProofs FloatScale FloatErr FloatCurve StepperContext ApproxCurve DrawCurves FloatPath Coords CoordsProofs Curves PathBuild BuildProofs
  PropsBuild PathGrammar PathLex LexProofs PropsLex FloatPathProofs PropsFloatPath PropsApprox PropsDraw
  FloatRun PropsLaser FloatLex FloatLexProofs PropsFloatLex PropsLaserText FloatTransform FloatAngles FloatCircle SvgDocument PropsFloatTransform PropsCircle
  PropsSvg FloatPlace FloatArc FloatChord PropsFloatArc PropsFloatArcs PropsLaserArcs.
Import ListNotations.
Open Scope R_scope.

(** ** Exact lines that are near each other *)

Definition line_apart (e : R) (l l' : curve_segment) : Prop :=
  match l, l' with
  | GoTo p, GoTo p' | LineTo p, LineTo p' | CloseTo p, CloseTo p' => apart e p p'
  | CurveTo p c d, CurveTo p' c' d' => apart e p p' /\ apart (2 * e) c c' /\ apart (2 * e) d d'
  | _, _ => False
  end.

Lemma within_move : forall E e p r r', within E p r -> apart e r r' -> within (E + e) p r'.
Proof.
  intros E e p r r' (A & B & C & D) [X Y]. split; [exact A|]. split; [exact B|]. apply le_abs in C, D, X, Y. split; apply Rabs_le; lra.
Qed.

Lemma segment_move : forall E e s l l', segment_within E s l -> line_apart e l l' -> segment_within (E + e) s l'.
Proof.
  intros E e s l l' W A. destruct s, l; try contradiction W; destruct l'; try contradiction A; cbn [segment_within line_apart] in *; try (eapply within_move; eassumption).
  destruct W as (W1 & W2 & W3), A as (A1 & A2 & A3). replace (2 * (E + e)) with (2 * E + 2 * e) by ring.
  split; [eapply within_move; eassumption|]. split; eapply within_move; eassumption.
Qed.

Lemma line_place : forall e l l' p, line_apart e l l' -> seg_place l = Some p -> exists p', seg_place l' = Some p' /\ apart e p p'.
Proof.
  intros e l l' p A S. destruct l; try discriminate S; destruct l'; try contradiction A; cbn [line_apart seg_place] in *; injection S as <-; eexists; (split; [reflexivity|]); tauto.
Qed.

Lemma figure_move : forall q E e tr p arcs segs lines, figure_near q E tr p arcs segs lines -> forall p' lines',
  apart e p p' -> Forall2 (line_apart e) lines lines' -> figure_near q (E + e) tr p' arcs segs lines'.
Proof.
  intros q E e tr p arcs segs lines H. induction H as [p|p e1 arcs s segs l lines W SP FN IH|p e1 a arcs s segs lines d AO WD FN IH]; intros p' lines' AP FA.
  - inversion FA; subst. constructor.
  - inversion FA as [|? l' ? r' A1 A2]; subst. destruct (line_place _ _ _ _ A1 SP) as (e2 & S2 & A3).
    eapply near_same; [eapply segment_move; eassumption|exact S2|apply IH; assumption].
  - inversion FA as [|? l' ? r' A1 A2]; subst. destruct l'; try contradiction A1. cbn [line_apart] in A1.
    eapply near_arc; [exact AO| |apply IH; assumption].
    destruct WD as (F1 & F2 & W1 & W2). split; [exact F1|]. split; [exact F2|]. cbn [vsub vx vy] in *.
    destruct AP as [P1 P2], A1 as [Q1 Q2]. apply le_abs in W1, W2, P1, P2, Q1, Q2. split; apply Rabs_le; lra.
Qed.

Lemma pen_move : forall e lines lines', Forall2 (line_apart e) lines lines' -> forall p p' k, apart e p p' ->
  apart e (pen p (firstn k lines)) (pen p' (firstn k lines')).
Proof.
  intros e lines lines' H. induction H as [|l l' lines lines' A H IH]; intros p p' k AP; [rewrite !firstn_nil; exact AP|].
  destruct k as [|k]; [exact AP|]. cbn [firstn]. rewrite (pen_cons p), (pen_cons p'). apply IH.
  destruct l, l'; try contradiction A; cbn [line_apart] in A; cbn [pen fold_left]; tauto.
Qed.

(** The lines of a path under the rounded transform of the elements above and under the exact one. *)
Lemma lines_moved : forall cmds fcmds j N T P n F A rc lines, 0 <= j <= lots -> 1 <= N -> 0 <= T -> 1 <= P -> zone N T P <= bpow radix2 400 ->
  INR n <= 2 ^ 40 -> tr_near j N T F A -> no_arcs cmds ->
  Forall2 (fun c fc => fst c = fst fc /\ Forall2 rounds_to (snd c) (snd fc)) cmds fcmds ->
  Forall (fun cmd => Forall (fun a => Rabs a <= P) (snd cmd)) (absolute (mk_vec 0 0) (mk_vec 0 0) true cmds) ->
  (list_sum (map (fun cmd => List.length (snd cmd)) cmds) <= n)%nat ->
  build_commands path_ctx_new cmds (rtr F) true = Ok (Some (rc, lines)) ->
  exists lines', build_commands path_ctx_new cmds A true = Ok (Some (rc, lines')) /\ Forall2 (line_apart (j * (u53 * zone N T P))) lines lines' /\ Forall (boxed (zone N T P)) lines'.
Proof.
  intros rcs fcmds j N T P n F A rc lines J N1 T0 P1 Z NB TN NA RC AB LE BC.
  assert (NP : 1 <= N * P) by (rewrite <- (Rmult_1_r 1); apply Rmult_le_compat; lra). assert (NT : 0 <= N * T) by (apply Rmult_le_pos; lra).
  assert (PNP : P <= N * P) by (rewrite <- (Rmult_1_l P) at 1; apply Rmult_le_compat_r; lra).
  assert (ZV : zone N T P = 3 * (N * P) + 3 * (N * T) + 3 * N) by (unfold zone; ring).
  assert (HB : 8 * bpow radix2 400 <= huge) by (change 8 with (bpow radix2 3); rewrite <- bpow_plus; apply bpow_le; lia).
  pose proof huge_1000 as HH.
  assert (BZ : box P (mk_vec 0 0)) by (split; cbn [vx vy]; rewrite Rabs_R0; lra).
  assert (SM : Forall (fun cmd => Forall (fun a => Rabs a <= 2 * P) (snd cmd)) rcs).
  { apply (numbers_small P rcs (mk_vec 0 0) (mk_vec 0 0) true); auto. lra. }
  assert (CO : cmds_ok 5 P fcmds rcs).
  { assert (P2 : 2 * P <= bpow radix2 1000) by lra. clear - RC SM P1 P2. unfold cmds_ok. induction RC as [|c fc cmds fcmds [L A] RC IH]; constructor.
    - split; [symmetry; exact L|]. inversion SM as [|? ? S1 _]; subst. clear - A S1 P1 P2. unfold args_ok.
      induction A as [|r x rs xs R A IH]; constructor.
      + inversion S1; subst. replace (5 - 2) with 3 by ring. apply rounds_near; assumption.
      + apply IH. inversion S1; assumption.
    - apply IH. inversion SM; assumption. }
  assert (LN : total fcmds <= INR n).
  { unfold total. apply le_INR. eapply Nat.le_trans; [|exact LE]. clear - CO. induction CO as [|c r cs rs [_ A] CO IH]; [apply le_n|].
    cbn [map list_sum fold_right]. rewrite (args_length _ _ _ _ A). unfold list_sum in IH. lia. }
  pose proof (total_pos fcmds) as L0.
  assert (Z0 : B2R fzero = 0) by (apply zero_value).
  assert (NZ : nv 0 P fvzero (mk_vec 0 0)).
  { unfold fvzero. split; cbn [fx fy vx vy]; (split; [reflexivity|]); rewrite Z0, Rminus_0_r, Rabs_R0, Rmult_0_l; lra. }
  assert (CN : ctx_near 0 P fpath_ctx_new path_ctx_new) by (split; [|split; [|split]]; assumption).
  assert (MA : 0 + 5 * total fcmds <= many - 60) by (unfold many; clear - NB LN; cbn [pow] in NB; lra).
  assert (HI : setting 1 0 P fidentity).
  { destruct one_value as [O1 O2]. destruct zero_value as [O3 O4].
    constructor; [|split; lra|unfold Qof; lra].
    split; cbn [fidentity fm0 fm1 fm2 fm3 fm4 fm5]; repeat (apply Forall_cons; [split; [assumption|rewrite ?O2, ?O4, ?Rabs_R1, ?Rabs_R0; lra]|]); apply Forall_nil. }
  (* the library is not used without arcs: any will do *)
  pose proof (commands_near known_trig 5 1 0 P fidentity ltac:(lra) HI fcmds rcs fpath_ctx_new path_ctx_new true 0 CO (Rle_refl 0) MA NA CN AB) as GI. cbv zeta in GI.
  rewrite identity_real in GI. unfold out_near in GI.
  rewrite (C45_transform rcs path_ctx_new (rtr F) true NA) in BC. rewrite (C45_transform rcs path_ctx_new A true NA).
  destruct (build_commands path_ctx_new rcs tidentity true) as [[[rc0 rsegs]|]| |]; try discriminate BC. injection BC as -> <-.
  destruct (fbuild_commands known_trig fpath_ctx_new fcmds fidentity true) as [[[fc0 segs0]|]| |]; try contradiction. destruct GI as [_ GI].
  eexists. split; [reflexivity|].
  assert (FB : Forall (fun r => exists i x, seg_near i (2 * P + 1) x r) rsegs).
  { clear - GI. replace (2 * P + 1) with (Qof 1 0 P) by (unfold Qof; ring). induction GI; constructor; eauto. }
  clear GI. set (B := 2 * P + 1) in *. assert (B0 : 0 <= B) by (unfold B; lra).
  assert (NQ : N * (B + T + 1) <= zone N T P) by (unfold B, zone in *; replace (N * (2 * P + 1 + T + 1)) with (2 * (N * P) + N * T + 2 * N) by ring; replace (3 * (N * (P + T + 1))) with (3 * (N * P) + 3 * (N * T) + 3 * N) by ring; lra).
  assert (NQ2 : N * (2 * B + 0 + 1) <= 2 * zone N T P).
  { replace (N * (2 * B + 0 + 1)) with (2 * (N * (B + T + 1)) - (N * (2 * T + 1))) by ring. assert (0 <= N * (2 * T + 1)) by (apply Rmult_le_pos; lra). lra. }
  set (Q := zone N T P) in *. pose proof u53_pos as [U0 _].
  assert (LEJ : forall D D', D <= D' -> j * (u53 * D) <= j * (u53 * D')) by (intros D D' HD; apply Rmult_le_compat_l; [lra|]; apply Rmult_le_compat_l; lra).
  assert (PT : forall q, box B q -> apart (j * (u53 * Q)) (tapply (rtr F) q) (tapply A q) /\ box Q (tapply A q)).
  { intros q BX. destruct (image_near j N T F A q B N1 T0 (proj1 J) B0 TN BX) as (D1 & D2 & D3). pose proof (LEJ _ _ NQ). split; [split; lra|].
    eapply box_more; eassumption. }
  assert (CT : forall q, box (2 * B) q -> apart (2 * (j * (u53 * Q))) (tapply (no_translation (rtr F)) q) (tapply (no_translation A) q) /\ box (2 * Q) (tapply (no_translation A) q)).
  { intros q BX. rewrite no_translation_image.
    destruct (image_near j N 0 _ _ q (2 * B) N1 (Rle_refl 0) (proj1 J) ltac:(lra) (no_translation_near _ _ _ _ _ (proj1 J) N1 TN) BX) as (D1 & D2 & D3). pose proof (LEJ _ _ NQ2) as K.
    replace (j * (u53 * (2 * Q))) with (2 * (j * (u53 * Q))) in K by ring. split; [split; lra|]. eapply box_more; eassumption. }
  clear - FB PT CT. induction FB as [|r rsegs (i & x & X) FB [IH1 IH2]]; cbn [map]; [split; constructor|].
  inversion X; subst; cbn [segment_transform];
    repeat match goal with H : box B ?q |- _ => destruct (PT _ H); clear H | H : box (2 * B) ?q |- _ => destruct (CT _ H); clear H end;
    split; (constructor; [cbn [line_apart boxed]; auto|assumption]).
Qed.

(** ** A path with circles, from its text *)

(** The text is a path that starts with a move; all its ends, made absolute, are at most [P] and it has
    [n] numbers at most without those of the arcs' shapes; its arcs, if it has any, are circles, with
    radii between [L] and [R] once transformed, and the transform is an even one. *)
Definition round_path (P L R : R) (n : nat) (F : ftransform) (d : list char) : Prop :=
  exists m args cmds, In m (chars "mM") /\ path_text d ((m, args) :: cmds) /\ (no_arcs ((m, args) :: cmds) \/ even F) /\
    Forall (fun cmd => In (fst cmd) (chars "aA") -> circles_in (Rabs (B2R (fm0 F))) R (snd cmd) /\ no_smaller (Rabs (B2R (fm0 F))) L (snd cmd)) ((m, args) :: cmds) /\
    Forall (fun cmd => Forall (fun a => Rabs a <= P) (snd cmd)) (absolute (mk_vec 0 0) (mk_vec 0 0) true (map straight ((m, args) :: cmds))) /\
    (list_sum (map (fun cmd => List.length (snd cmd)) (map straight ((m, args) :: cmds))) <= n)%nat.

Lemma starts_goto : forall tg c m args rest tr c' segs, In m (chars "mM") -> fbuild_commands tg c ((m, args) :: rest) tr true = Ok (Some (c', segs)) -> exists p r, segs = SGoTo p :: r.
Proof.
  intros tg c m args rest tr c' segs M H. cbn [fbuild_commands] in H. apply bind_Ok in H. destruct H as ([[c1 s1]|] & B & H); [|discriminate H].
  unfold fbuild_path in B. rewrite (proj2 (is_one_of_In (chars "mM") m) M) in B. destruct (fwrong_count 2 args) eqn:W; [discriminate B|].
  destruct args as [|x [|y r]]; [discriminate W|discriminate W|]. cbv zeta in B. destruct (fbuild_lines _ _ _ r) as [e ss]. injection B as <- <-.
  apply bind_Ok in H. destruct H as ([[c2 s2]|] & _ & H); [|discriminate H]. injection H as _ <-. eexists. eexists. reflexivity.
Qed.

Lemma no_arcs_straight : forall cmds, no_arcs cmds -> map straight cmds = cmds.
Proof.
  intros cmds H. induction H as [|[c args] cmds H1 H IH]; [reflexivity|]. cbn [map]. rewrite IH. unfold straight. cbn [fst snd] in *. unfold is_arc. rewrite H1. reflexivity.
Qed.
Lemma no_arcs_none : forall cmds fcmds, no_arcs cmds -> Forall2 (fun (c : char * list R) (fc : char * list f64) => fst c = fst fc /\ Forall2 rounds_to (snd c) (snd fc)) cmds fcmds -> arcs_of fcmds = [].
Proof.
  intros cmds fcmds H RC. induction RC as [|c fc cmds fcmds [L _] RC IH]; [reflexivity|]. inversion H; subst. unfold arcs_of in *. cbn [flat_map].
  unfold is_arc. rewrite <- L. replace (is_one_of (chars "aA") (fst c)) with false by (symmetry; assumption). apply IH. assumption.
Qed.

Lemma lines_figure : forall q E tr segs lines, Forall2 (segment_within E) segs lines -> forall p, figure_near q E tr p [] segs lines.
Proof.
  intros q E tr segs lines H. induction H as [|s l segs lines W H IH]; intros p; [constructor|].
  assert (K : exists e, seg_place l = Some e) by (destruct s, l; try contradiction W; eexists; reflexivity). destruct K as [e K]. eapply near_same; eauto.
Qed.

Lemma path_part : forall tg q j N T P L R n F A d c c' segs,
  zero_exact tg -> angle_accurate tg q -> 0 <= q <= 2 ^ 40 -> 0 <= j <= lots -> 1 <= N -> 0 <= T -> 1 <= P -> 0 < L -> 0 <= R -> INR n <= 2 ^ 40 ->
  zone N T P <= 2 ^ 190 -> tr_near j N T F A -> round_path P L R n F d -> fparse_path tg d c F = Ok (Some (c', segs)) ->
  let Q := zone N T P in
  let E := (5 * INR n + 16 + j) * Q / 2 ^ 53 in
  let origin := tapply A (mk_vec 0 0) in
  exists cmds fcmds rc lines, path_text d cmds /\ Forall2 (fun c fc => fst c = fst fc /\ Forall2 rounds_to (snd c) (snd fc)) cmds fcmds /\
    build_commands path_ctx_new (map straight cmds) A true = Ok (Some (rc, lines)) /\
    (exists m r, segs = SGoTo m :: r) /\ Forall (boxed Q) lines /\ box Q origin /\
    Forall (fun a => L <= 2 * scaled F a /\ scaled F a <= R) (arcs_of fcmds) /\ figure_near q E F origin (arcs_of fcmds) segs lines /\
    forall k, apart (2 * E + INR k * ((203 + 2 * q) * R / 2 ^ 53)) (pen origin (map rs (firstn k segs))) (pen origin (firstn k lines)).
Proof.
  intros tg q j N T P L R n F A d c c' segs ZE AA HQ J N1 T0 P1 L0 R0 NB BQ TN (m & args & cmds & M & PT & EV & CI & AB & LE) FP Q E origin.
  assert (NP : 1 <= N * P) by (rewrite <- (Rmult_1_r 1); apply Rmult_le_compat; lra). assert (NT : 0 <= N * T) by (apply Rmult_le_pos; lra).
  assert (PNP : P <= N * P) by (rewrite <- (Rmult_1_l P) at 1; apply Rmult_le_compat_r; lra).
  assert (ZV : zone N T P = 3 * (N * P) + 3 * (N * T) + 3 * N) by (unfold zone; ring).
  assert (BQ4 : zone N T P <= bpow radix2 400) by (eapply Rle_trans; [exact BQ|]; rewrite pow_bpow; apply bpow_le; lia).
  assert (BO : box Q origin).
  { assert (B0 : box 0 (mk_vec 0 0)) by (split; cbn [vx vy]; rewrite Rabs_R0; lra).
    destruct (image_near j N T F A (mk_vec 0 0) 0 N1 T0 (proj1 J) (Rle_refl 0) TN B0) as (_ & _ & D3). eapply box_more; [|exact D3]. unfold Q. rewrite ZV. lra. }
  assert (AO : apart (j * (u53 * Q)) (tapply (rtr F) (mk_vec 0 0)) origin).
  { assert (B0 : box 0 (mk_vec 0 0)) by (split; cbn [vx vy]; rewrite Rabs_R0; lra).
    destruct (image_near j N T F A (mk_vec 0 0) 0 N1 T0 (proj1 J) (Rle_refl 0) TN B0) as (D1 & D2 & _). pose proof u53_pos as [U0 _].
    assert (j * (u53 * (N * (0 + T + 1))) <= j * (u53 * Q)) by (apply Rmult_le_compat_l; [lra|]; apply Rmult_le_compat_l; [lra|]; unfold Q; rewrite ZV; lra).
    split; unfold origin; lra. }
  pose proof (pos_INR n) as NN.
  assert (E0 : 0 <= E).
  { unfold E. apply Rmult_le_pos; [apply Rmult_le_pos; [lra|unfold Q; lra]|apply Rlt_le, Rinv_0_lt_compat, pow_lt; lra]. }
  assert (DR0 : 0 <= (203 + 2 * q) * R / 2 ^ 53) by (apply Rmult_le_pos; [apply Rmult_le_pos; lra|apply Rlt_le, Rinv_0_lt_compat, pow_lt; lra]).
  destruct (C106_text d _ PT) as (fcmds & RC & EQ). 
  assert (IND : fparse_path tg d c F = fbuild_commands tg fpath_ctx_new fcmds F true).
  { rewrite EQ. inversion RC as [|? [m' fargs] ? ? [E1 _] _]; subst. cbn [fst] in E1. subst m'. apply fbuild_independent. exact M. }
  assert (SG : exists p r, segs = SGoTo p :: r).
  { rewrite IND in FP. inversion RC as [|? [m' fargs] ? ? [E1 _] _]; subst. cbn [fst] in E1. subst m'. eapply starts_goto; eassumption. }
  destruct EV as [NA|EV].
  - (* no arcs *)
    assert (FD : fine_path P n d).
    { exists m, args, cmds. rewrite (no_arcs_straight _ NA) in AB, LE. auto. }
    pose proof (path_placed tg j N T P n F A d c path_ctx_new J N1 T0 P1 BQ4 NB TN FD) as PP.
    rewrite FP, (C50_complete _ _ _ _ PT) in PP. destruct (build_commands path_ctx_new ((m, args) :: cmds) A true) as [[[rc lines]|]| |] eqn:BC; try contradiction.
    cbn [along snd] in PP. fold Q in PP. exists ((m, args) :: cmds), fcmds, rc, lines. split; [exact PT|]. split; [exact RC|].
    split; [rewrite (no_arcs_straight _ NA); exact BC|]. split; [exact SG|]. rewrite (no_arcs_none _ _ NA RC).
    assert (EE : (5 * INR n + 16 + j) * (u53 * Q) = E) by (unfold E, Rdiv; rewrite u53_is; ring).
    assert (SW : Forall2 (segment_within E) segs lines).
    { rewrite <- EE. clear - PP. induction PP; constructor; auto. apply seg_near_within. assumption. }
    split; [clear - PP; induction PP as [|s l ss ls S1 PP IH]; constructor; auto; inversion S1; subst; cbn [boxed]; auto|].
    split; [exact BO|]. split; [constructor|]. split; [apply lines_figure; exact SW|].
    intros k. pose proof (lines_pen E segs lines SW origin origin k (apart_refl _ _ E0)) as AP. eapply apart_le; [|exact AP].
    pose proof (pos_INR k). assert (0 <= INR k * ((203 + 2 * q) * R / 2 ^ 53)) by (apply Rmult_le_pos; assumption). lra.
  - (* arcs *)
    set (rcs := (m, args) :: cmds) in *. rewrite IND in FP.
    assert (CC : Forall circle (arcs_of fcmds) /\ Forall (fun a => scaled F a <= R) (arcs_of fcmds) /\ Forall (fun a => L <= 2 * scaled F a) (arcs_of fcmds)).
    { clear - RC CI. clearbody rcs. clear m args cmds. unfold arcs_of. induction RC as [|[c args] [fc fargs] cmds fcmds [LE A] RC IH]; [split; [|split]; constructor|]. cbn [fst snd] in LE, A. subst fc.
      inversion CI as [|? ? C1 C2]; subst. destruct (IH C2) as (I1 & I2 & I3). cbn [flat_map fst snd]. cbn [fst snd] in C1.
      destruct (is_arc c) eqn:K; [|split; [|split]; assumption]. destruct (C1 (proj1 (is_one_of_In _ _) K)) as [C3 C4].
      destruct (circles_rounded F R args fargs A C3) as [J1 J2]. pose proof (over_rounded F L R args fargs A C3 C4) as J3.
      split; [|split]; apply Forall_app; split; assumption. }
    destruct CC as (CC1 & CC2 & CC3).
    destruct (tr_near_ok j N T F A J N1 T0 TN) as [TS TT]. set (S := 101 / 100 * N) in *. set (T' := 101 / 100 * (N * (T + 1))) in *.
    assert (QL : 2 * S * P + T' + 1 <= Q) by (unfold Q; rewrite ZV; unfold S, T'; lra).
    set (n0 := list_sum (map (fun cmd => List.length (snd cmd)) (map straight rcs))) in *.
    assert (NL : INR n0 <= INR n) by (apply le_INR; exact LE).
    assert (P9 : P <= 2 ^ 900) by (apply Rle_trans with (2 ^ 190); [lra|apply Rle_pow; [lra|lia]]).
    destruct (path_figure tg q rcs fcmds F S T' P R c' segs ZE AA HQ EV RC CC1 CC2 R0 P1 AB TS TT FP P9 ltac:(unfold Q in QL; lra) ltac:(fold n0; lra)) as (rc & lines & BC & _ & _ & _ & FN & PE).
    fold n0 in FN, PE. set (E1 := (5 * INR n0 + 16) * (2 * S * P + T' + 1) / 2 ^ 53) in *.
    destruct (lines_moved (map straight rcs) (map straight fcmds) j N T P n F A rc lines J N1 T0 P1 BQ4 NB TN (straight_no_arcs rcs) (straight_rounds _ _ RC) AB LE BC) as (lines' & BC' & LA & BL).
    fold Q in LA, BL. set (e := j * (u53 * Q)) in *.
    assert (EL : E1 + e <= E).
    { unfold E1, e, E, Rdiv. rewrite <- u53_is. pose proof u53_pos as [U0 _]. pose proof (pos_INR n0) as NN0.
      apply Rle_trans with ((5 * INR n + 16) * Q * u53 + j * (u53 * Q)); [|right; ring]. apply Rplus_le_compat_r. apply Rmult_le_compat_r; [lra|].
      apply Rmult_le_compat; [lra| |lra|exact QL]. unfold S, T'. lra. }
    exists rcs, fcmds, rc, lines'. split; [exact PT|]. split; [exact RC|]. split; [exact BC'|]. split; [exact SG|]. split; [exact BL|]. split; [exact BO|].
    split; [rewrite Forall_forall in CC2, CC3 |- *; intros a Ha; split; [exact (CC3 a Ha)|exact (CC2 a Ha)]|].
    assert (EX : exists x, 0 <= x /\ E = E1 + (e + x)) by (exists (E - E1 - e); split; lra). destruct EX as (x & X0 & EX).
    assert (ae : forall p p', apart e p p' -> apart (e + x) p p') by (intros p p'; apply apart_le; lra).
    assert (LA2 : Forall2 (line_apart (e + x)) lines lines').
    { clear - LA X0. assert (A2 : forall p p', apart (2 * e) p p' -> apart (2 * (e + x)) p p') by (intros p p'; apply apart_le; lra).
      assert (A1 : forall p p', apart e p p' -> apart (e + x) p p') by (intros p p'; apply apart_le; lra).
      induction LA as [|l l' ls ls' H LA IH]; constructor; auto. destruct l, l'; cbn [line_apart] in *; try contradiction; auto. destruct H as (? & ? & ?). auto. }
    rewrite EX at 1. split; [apply (figure_move q E1 (e + x) F _ _ _ _ FN); auto|].
    assert (e0 : 0 <= e) by (unfold e; apply Rmult_le_pos; [lra|apply Rmult_le_pos; [pose proof u53_pos; lra|unfold Q; lra]]).
    intros k. assert (KD : 0 <= INR k * ((203 + 2 * q) * R / 2 ^ 53)) by (apply Rmult_le_pos; [apply pos_INR|exact DR0]).
    destruct k as [|k]; [cbn [firstn map pen fold_left]; apply apart_refl; lra|].
    destruct SG as (p0 & r0 & ->). specialize (PE (Datatypes.S k)). cbn [firstn map rs] in PE |- *.
    change (pen origin (GoTo (rv p0) :: map rs (firstn k r0))) with (pen (tapply (rtr F) (mk_vec 0 0)) (GoTo (rv p0) :: map rs (firstn k r0))).
    eapply apart_le; [|eapply apart_trans; [exact PE|apply (pen_move (e + x) lines lines' LA2 _ _ (Datatypes.S k) (ae _ _ AO))]].
    rewrite EX. lra.
Qed.
