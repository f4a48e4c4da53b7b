(** Property C121: whole paths with arcs of circles in binary64. *)
From Coq Require Import ZArith Reals List Bool NArith Arith Lia Lra Psatz Ascii String.
From Flocq Require Import Core BinarySingleNaN Plus_error.
From Verif Require Import Base Chars Floats FloatProofs FloatScale FloatErr FloatCurve ApproxCurve StepperContext DrawCurves FloatPath FloatLex Coords CoordsProofs Curves PathBuild BuildProofs PropsBuild FloatPathProofs
  FloatAngles FloatRun FloatCircle PropsDraw PropsFloatPath PropsFloatTransform PropsLaser PropsCircle FloatArc FloatChord PropsFloatArc PathLex PathGrammar LexProofs FloatLexProofs PropsFloatLex PropsLaserText.
Import ListNotations.
Open Scope R_scope.

(** ** One arc *)

Lemma fadd_comm : forall x y, fadd x y = fadd y x.
Proof.
  intros x y. unfold fadd. destruct x as [sx|sx| |sx mx ex Bx], y as [sy|sy| |sy my ey By]; try reflexivity; cbn [Bplus].
  - destruct sx, sy; reflexivity.
  - destruct sx, sy; reflexivity.
  - cbv zeta. rewrite (Z.min_comm ex ey). f_equal. unfold Fplus_naive. apply Z.add_comm.
Qed.
Lemma fvadd_comm : forall p q, fvadd p q = fvadd q p.
Proof. intros p q. unfold fvadd. rewrite (fadd_comm (fx p)), (fadd_comm (fy p)). reflexivity. Qed.

(** Different numbers have a difference. *)
Lemma fsub_nonzero : forall x y, is_finite x = true -> is_finite y = true -> Rabs (B2R x - B2R y) <= bpow radix2 1000 ->
  (B2R (fsub x y) = 0 <-> B2R x = B2R y).
Proof.
  intros x y Fx Fy B. destruct (fsub_val x y Fx Fy B) as [_ ->]. split.
  - intros E. destruct (Req_dec (B2R x + - B2R y) 0) as [K|K]; [lra|]. exfalso.
    apply (round_plus_neq_0 radix2 (SpecFloat.fexp 53 1024) ZnearestE (B2R x) (- B2R y)); [apply generic_format_B2R|apply generic_format_opp, generic_format_B2R|exact K|exact E].
  - intros ->. rewrite Rminus_eq_0. apply rne_0.
Qed.

Lemma sub_rel : forall x y, is_finite x = true -> is_finite y = true -> Rabs (B2R x) <= 2 ^ 197 -> Rabs (B2R y) <= 2 ^ 197 ->
  is_finite (fsub x y) = true /\ Rabs (B2R (fsub x y)) <= 2 ^ 199 /\ (B2R (fsub x y) = 0 <-> B2R x = B2R y) /\
  Rabs (B2R (fsub x y) - (B2R x - B2R y)) <= u53 * Rabs (B2R x - B2R y) + tiny.
Proof.
  intros x y Fx Fy Bx By. assert (P1 : 1 <= 2 ^ 197) by (apply pow_R1_Rle; lra).
  assert (P2 : 2 ^ 199 = 4 * 2 ^ 197) by (change 199%nat with (2 + 197)%nat; rewrite pow_add; cbn [pow]; ring).
  assert (D : Rabs (B2R x - B2R y) <= 2 * 2 ^ 197) by (eapply Rle_trans; [apply Rabs_triang|]; rewrite Rabs_Ropp; lra).
  assert (D' : Rabs (B2R x - B2R y) <= bpow radix2 1000).
  { eapply Rle_trans; [exact D|]. apply Rle_trans with (2 ^ 199); [lra|]. rewrite pow_bpow. apply bpow_le. lia. }
  destruct (fsub_val x y Fx Fy D') as [F V]. split; [exact F|]. pose proof (rne_err (B2R x - B2R y)) as ER. rewrite <- V in ER.
  split; [|split; [apply fsub_nonzero; assumption|exact ER]].
  pose proof u53_pos as [U0 U1]. pose proof tiny_small. pose proof tiny_pos.
  replace (B2R (fsub x y)) with (B2R (fsub x y) - (B2R x - B2R y) + (B2R x - B2R y)) by ring. eapply Rle_trans; [apply Rabs_triang|].
  assert (u53 * Rabs (B2R x - B2R y) <= / 2 * Rabs (B2R x - B2R y)) by (apply Rmult_le_compat_r; [apply Rabs_pos|lra]). lra.
Qed.

Definition circle (a : farc_args) : Prop := farc_rx a = farc_ry a /\ ordinary (farc_rx a) /\ feq (farc_rot a) fzero = true.
(** The radius after the transform. *)
Definition scaled (tr : ftransform) (a : farc_args) : R := Rabs (B2R (fm0 tr)) * Rabs (B2R (farc_rx a)).

Lemma scaled_size : forall tr a, ordinary (fm0 tr) -> ordinary (farc_rx a) -> 0 < scaled tr a /\ tiny <= u53 * (scaled tr a / 1000).
Proof.
  intros tr a [_ [A _]] [_ [B _]]. unfold scaled. assert (P : 0 < / 2 ^ 99) by (apply Rinv_0_lt_compat, pow_lt; lra).
  assert (L : / 2 ^ 99 * / 2 ^ 99 <= Rabs (B2R (fm0 tr)) * Rabs (B2R (farc_rx a))) by (apply Rmult_le_compat; lra).
  pose proof (Rmult_lt_0_compat _ _ P P). split; [lra|].
  apply Rle_trans with (u53 * (/ 2 ^ 99 * / 2 ^ 99 / 1000)); [|apply Rmult_le_compat_l; [pose proof u53_pos; lra|lra]].
  apply Rle_trans with (u53 * (/ 2 ^ 99 * / 2 ^ 99 * / 2 ^ 10)).
  - rewrite u53_pow, <- !Rinv_mult. rewrite <- !pow_add. unfold tiny. rewrite pow_bpow, <- bpow_opp. apply bpow_le. lia.
  - apply Rmult_le_compat_l; [pose proof u53_pos; lra|]. unfold Rdiv. apply Rmult_le_compat_l; [lra|]. cbn [pow]. lra.
Qed.

Lemma square_error : forall d D S e, 0 <= S -> 0 <= e <= / 1000 -> Rabs (d - D) <= e * Rabs D + e * (S / 1000) ->
  Rabs (d * d - D * D) <= e * (2.02 * (D * D) + 0.01 * (S * S)).
Proof.
  intros d D S e S0 E0 H. replace (d * d - D * D) with ((d - D) * (d + D)) by ring.
  pose proof (Rabs_pos D) as D0.
  assert (P : Rabs (d + D) <= 2.001 * Rabs D + S / 1000000).
  { replace (d + D) with ((d - D) + 2 * D) by ring. eapply Rle_trans; [apply Rabs_triang|]. rewrite (Rabs_mult 2), (Rabs_pos_eq 2) by lra.
    assert (e * Rabs D <= / 1000 * Rabs D) by (apply Rmult_le_compat_r; lra). assert (e * (S / 1000) <= / 1000 * (S / 1000)) by (apply Rmult_le_compat_r; lra). lra. }
  apply Rle_trans with ((e * Rabs D + e * (S / 1000)) * (2.001 * Rabs D + S / 1000000)); [apply mul_abs; assumption|].
  replace (D * D) with (Rabs D * Rabs D) by (rewrite <- Rabs_mult; apply Rabs_pos_eq; nra). set (x := Rabs D) in *.
  replace ((e * x + e * (S / 1000)) * (2.001 * x + S / 1000000)) with (e * ((x + S / 1000) * (2.001 * x + S / 1000000))) by ring.
  apply Rmult_le_compat_l; [lra|]. pose proof (Rle_0_sqr (x - S)) as Q. unfold Rsqr in Q. nra.
Qed.

Theorem C121_arc : forall tg q tr rel pos a, zero_exact tg -> angle_accurate tg q -> 0 <= q <= 2 ^ 40 -> even tr -> circle a ->
  let to := fmoved rel pos (mk_fvec (farc_x a) (farc_y a)) in
  fits (2 ^ 197) (ftapply tr pos) -> fits (2 ^ 197) (ftapply tr to) ->
  let D := vsub (rv (ftapply tr to)) (rv (ftapply tr pos)) in
  let D2 := vx D * vx D + vy D * vy D in
  let S := scaled tr a in
  (D2 = 0 -> fbuild_arc tg rel tr pos a = Ok None) /\
  (D2 <> 0 -> D2 <= 4 * (S * S) * (1 - 60 / 2 ^ 53) -> fbuild_arc tg rel tr pos a <> Ok None) /\
  (4 * (S * S) * (1 + 60 / 2 ^ 53) <= D2 -> fbuild_arc tg rel tr pos a = Ok None) /\
  match fbuild_arc tg rel tr pos a with
  | Ok (Some (e, seg)) => e = to /\ exists d, arc_of q S (farc_large a) (farc_sweep a) d seg /\ within (3 * S / 2 ^ 53) d D
  | Ok None => True
  | _ => False
  end.
Proof.
  intros tg q tr rel pos a ZE AA HQ EV (CE & CO & CR) to [[F1 F2] [B1 B2]] [[F3 F4] [B3 B4]] D D2 S.
  cbn [rv vx vy] in B1, B2, B3, B4.
  destruct (sub_rel _ _ F3 F1 B3 B1) as (Fx & Bx & Zx & Ex). destruct (sub_rel _ _ F4 F2 B4 B2) as (Fy & By & Zy & Ey).
  assert (EB : fbuild_arc tg rel tr pos a = let d := fvsub (ftapply tr to) (ftapply tr pos) in if feq (fx d) fzero && feq (fy d) fzero then Ok None
    else let! seg := farc_segment tg tr a d in match seg with None => Ok None | Some seg => Ok (Some (to, seg)) end).
  { unfold fbuild_arc. replace (if rel then ftapply tr (fvadd (mk_fvec (farc_x a) (farc_y a)) pos) else ftapply tr (mk_fvec (farc_x a) (farc_y a))) with (ftapply tr to); [reflexivity|].
    unfold to, fmoved. destruct rel; [rewrite fvadd_comm|]; reflexivity. }
  rewrite EB. clear EB. cbv zeta. set (d := fvsub (ftapply tr to) (ftapply tr pos)).
  change (fsub (fx (ftapply tr to)) (fx (ftapply tr pos))) with (fx d) in *. change (fsub (fy (ftapply tr to)) (fy (ftapply tr pos))) with (fy d) in *.
  change (B2R (fx (ftapply tr to)) - B2R (fx (ftapply tr pos))) with (vx D) in *. change (B2R (fy (ftapply tr to)) - B2R (fy (ftapply tr pos))) with (vy D) in *.
  assert (ZX : B2R (fx d) = 0 <-> vx D = 0) by (rewrite Zx; cbn [D vsub rv vx]; lra). assert (ZY : B2R (fy d) = 0 <-> vy D = 0) by (rewrite Zy; cbn [D vsub rv vy]; lra).
  clearbody d D. clear Zx Zy. assert (SQ : forall x y, x * x + y * y = 0 <-> x = 0 /\ y = 0).
  { intros x y. split; [|intros [-> ->]; ring]. intros E. pose proof (Rle_0_sqr x). pose proof (Rle_0_sqr y). unfold Rsqr in *. split; apply Rsqr_0_uniq; unfold Rsqr; lra. }
  assert (FQ : forall x, is_finite x = true -> (feq x fzero = true <-> B2R x = 0)).
  { intros x F. split; [intros E; apply feq_z in E; apply zero_facts, E|intros E; apply z_feq, iszero_of; assumption]. }
  destruct EV as (Z1 & Z2 & O0 & F33 & SAME). destruct (scaled_size tr a O0 CO) as [S0 TS]. fold S in S0, TS.
  assert (UU : u53 = / 2 ^ 53) by apply u53_pow. pose proof u53_pos as [U0 _]. assert (U1 : u53 < / 100000) by (rewrite u53_val; lra).
  assert (NQ : Rabs (B2R (fx d) * B2R (fx d) + B2R (fy d) * B2R (fy d) - D2) <= u53 * (2.02 * D2 + 0.02 * (S * S))).
  { pose proof (square_error (B2R (fx d)) (vx D) S u53 ltac:(lra) ltac:(lra) ltac:(lra)) as N1. pose proof (square_error (B2R (fy d)) (vy D) S u53 ltac:(lra) ltac:(lra) ltac:(lra)) as N2.
    unfold D2. apply le_abs in N1, N2. apply Rabs_le. lra. }
  set (d2 := B2R (fx d) * B2R (fx d) + B2R (fy d) * B2R (fy d)) in *. assert (SS : 0 < S * S) by nra.
  assert (D0 : 0 <= D2) by (unfold D2; nra).
  destruct (feq (fx d) fzero && feq (fy d) fzero) eqn:Q.
  - apply andb_true_iff in Q. destruct Q as [Q1 Q2]. apply FQ in Q1, Q2; try assumption. apply ZX in Q1. apply ZY in Q2.
    assert (E : D2 = 0) by (apply SQ; auto). split; [reflexivity|]. split; [intros K; contradiction|]. split; [reflexivity|exact I].
  - assert (N : B2R (fx d) <> 0 \/ B2R (fy d) <> 0).
    { apply andb_false_iff in Q. destruct Q as [Q|Q]; [left|right]; intros K; apply FQ in K; try assumption; rewrite K in Q; discriminate Q. }
    destruct (C119_segment tg q tr a d ZE AA HQ (conj Z1 (conj Z2 (conj O0 (conj F33 SAME)))) CE CO CR Fx Fy N Bx By) as (A1 & A2 & A3).
    cbv zeta in A1, A2, A3. fold (scaled tr a) in A1, A2, A3. fold S in A1, A2, A3. fold d2 in A1, A2.
    unfold Rdiv in A1, A2. rewrite <- UU in A1, A2. unfold Rdiv. rewrite <- UU.
    assert (OUT : 4 * (S * S) * (1 + 60 * u53) <= D2 -> 4 * (S * S) * (1 + 50 * u53) <= d2).
    { intros H. apply le_abs in NQ. assert (d2 >= D2 * (1 - 2.02 * u53) - 0.02 * u53 * (S * S)) by lra.
      assert (4 * (S * S) * (1 + 60 * u53) * (1 - 2.02 * u53) <= D2 * (1 - 2.02 * u53)) by (apply Rmult_le_compat_r; lra).
      assert (0 <= (S * S) * u53) by (apply Rmult_le_pos; lra).
      assert (EX : 4 * (S * S) * (1 + 60 * u53) * (1 - 2.02 * u53) = 4 * (S * S) + 231.92 * ((S * S) * u53) - 484.8 * u53 * ((S * S) * u53)) by lra.
      assert (484.8 * u53 * ((S * S) * u53) <= 1 * ((S * S) * u53)) by (apply Rmult_le_compat_r; lra). lra. }
    split; [|split; [|split]].
    + intros E. exfalso. apply SQ in E. destruct E as [E1 E2]. apply ZX in E1. apply ZY in E2. destruct N; contradiction.
    + intros _ H. assert (IN : d2 <= 4 * (S * S) * (1 - 50 * u53)).
      { apply le_abs in NQ. assert (P0 : 0 <= (S * S) * u53) by (apply Rmult_le_pos; lra).
        assert (DL : D2 <= 4 * (S * S)) by lra. apply (Rmult_le_compat_l u53) in DL; [|lra]. clear - NQ H P0 DL. lra. }
      specialize (A1 IN). destruct (farc_segment tg tr a d) as [[seg|]| |]; cbn [bind]; try discriminate. contradiction A1; reflexivity.
    + intros H. rewrite (A2 (OUT H)). reflexivity.
    + destruct (farc_segment tg tr a d) as [[seg|]| |] eqn:E; cbn [bind]; try contradiction; [|exact I]. split; [reflexivity|]. exists d. split; [exact A3|].
      assert (DB : D2 <= 4.01 * (S * S)).
      { destruct (Rle_or_lt (4 * (S * S) * (1 + 60 * u53)) D2) as [H|H]; [specialize (A2 (OUT H)); discriminate A2|]. assert (S * S * u53 <= S * S * / 100000) by (apply Rmult_le_compat_l; lra). lra. }
      assert (BND : forall x, x * x <= D2 -> Rabs x <= 2.1 * S).
      { intros x H. rewrite <- (Rabs_pos_eq (2.1 * S)) by lra. apply Rsqr_le_abs_0. unfold Rsqr. lra. }
      assert (X1 : Rabs (vx D) <= 2.1 * S) by (apply BND; unfold D2; pose proof (Rle_0_sqr (vy D)) as K; unfold Rsqr in K; lra). assert (X2 : Rabs (vy D) <= 2.1 * S) by (apply BND; unfold D2; pose proof (Rle_0_sqr (vx D)) as K; unfold Rsqr in K; lra).
      split; [exact Fx|]. split; [exact Fy|]. 
      split; (eapply Rle_trans; [eassumption|]); [apply (Rmult_le_compat_l u53) in X1; [|lra]|apply (Rmult_le_compat_l u53) in X2; [|lra]]; assert (0 <= u53 * S) by (apply Rmult_le_pos; lra); lra.
Qed.

(** ** Whole paths *)

(** The path with a line in the place of every arc. *)
Fixpoint ends {A : Type} (args : list A) : list A :=
  match args with
  | _ :: _ :: _ :: _ :: _ :: x :: y :: rest => x :: y :: ends rest
  | _ => []
  end.
Definition is_arc (cmd : char) : bool := is_one_of (chars "aA") cmd.
Definition straight {A : Type} (cmd : char * list A) : char * list A :=
  if is_arc (fst cmd) then (if is_lower (fst cmd) then ch "l" else ch "L", ends (snd cmd)) else cmd.

(** The arguments of the arcs of a command. *)
Fixpoint arcs_in (args : list f64) : list farc_args :=
  match args with
  | rx :: ry :: rot :: large :: sweep :: x :: y :: rest =>
      mk_farc_args rx ry (fradians rot) (negb (feq large fzero)) (negb (feq sweep fzero)) x y :: arcs_in rest
  | _ => []
  end.
Definition arcs_of (cmds : list (char * list f64)) : list farc_args := flat_map (fun cmd => if is_arc (fst cmd) then arcs_in (snd cmd) else []) cmds.

Definition seg_end (s : segment) : option fvec :=
  match s with SGoTo p | SLineTo p | SCloseTo p | SCurveTo p _ _ => Some p | SArc _ _ _ _ _ => None end.

(** The two lists of segments, from a place on to another. *)
Inductive bent (tg : trig) (tr : ftransform) : fvec -> list farc_args -> list segment -> list segment -> fvec -> Prop :=
| bent_nil : forall p, bent tg tr p [] [] [] p
| bent_same : forall p p' e arcs s segs lines, seg_end s = Some e -> bent tg tr e arcs segs lines p' -> bent tg tr p arcs (s :: segs) (s :: lines) p'
| bent_arc : forall rel pos e a arcs s segs lines p', e = fmoved rel pos (mk_fvec (farc_x a) (farc_y a)) -> fbuild_arc tg rel tr pos a = Ok (Some (e, s)) ->
    bent tg tr (ftapply tr e) arcs segs lines p' -> bent tg tr (ftapply tr pos) (a :: arcs) (s :: segs) (SLineTo (ftapply tr e) :: lines) p'.

Lemma bent_app : forall tg tr p e p' a1 s1 l1 a2 s2 l2, bent tg tr p a1 s1 l1 e -> bent tg tr e a2 s2 l2 p' -> bent tg tr p (a1 ++ a2) (s1 ++ s2) (l1 ++ l2) p'.
Proof.
  intros tg tr p e p' a1 s1 l1 a2 s2 l2 H. induction H; intros H2; cbn [app]; [exact H2|eapply bent_same; eauto|eapply bent_arc; eauto].
Qed.

Lemma lines_bent : forall tg tr rel args pos e segs, fbuild_lines rel tr pos args = (e, segs) -> bent tg tr (ftapply tr pos) [] segs segs (ftapply tr e).
Proof.
  intros tg tr rel. fix IH 1. intros [|x [|y rest]] pos e segs E; cbn [fbuild_lines] in E; [injection E as <- <-; constructor..|].
  destruct (fbuild_lines rel tr (fmoved rel pos (mk_fvec x y)) rest) as [e' s'] eqn:L. injection E as <- <-.
  eapply bent_same; [reflexivity|]. eapply IH, L.
Qed.
Lemma vertical_bent : forall tg tr rel args pos e segs, fbuild_vertical rel tr pos args = (e, segs) -> bent tg tr (ftapply tr pos) [] segs segs (ftapply tr e).
Proof.
  intros tg tr rel. induction args as [|y rest IH]; intros pos e segs E; cbn [fbuild_vertical] in E; [injection E as <- <-; constructor|].
  destruct (fbuild_vertical _ _ _ rest) as [e' s'] eqn:L. injection E as <- <-. eapply bent_same; [reflexivity|]. eapply IH, L.
Qed.
Lemma horizontal_bent : forall tg tr rel args pos e segs, fbuild_horizontal rel tr pos args = (e, segs) -> bent tg tr (ftapply tr pos) [] segs segs (ftapply tr e).
Proof.
  intros tg tr rel. induction args as [|y rest IH]; intros pos e segs E; cbn [fbuild_horizontal] in E; [injection E as <- <-; constructor|].
  destruct (fbuild_horizontal _ _ _ rest) as [e' s'] eqn:L. injection E as <- <-. eapply bent_same; [reflexivity|]. eapply IH, L.
Qed.
(** The control point is only handed on. *)
Lemma cubics_bent : forall tg tr rel args pos ctl e ctl' segs, fbuild_cubics rel tr pos ctl args = (e, ctl', segs) ->
  bent tg tr (ftapply tr pos) [] segs segs (ftapply tr e) /\ forall ctl0, exists ctl1, fbuild_cubics rel tr pos ctl0 args = (e, ctl1, segs).
Proof.
  intros tg tr rel. fix IH 1.
  intros [|x1 [|y1 [|x2 [|y2 [|x [|y rest]]]]]] pos ctl e ctl' segs E; cbn [fbuild_cubics] in E;
    [injection E as <- <- <-; split; [constructor|intros ctl0; eexists; reflexivity]..|].
  destruct (fbuild_cubics rel tr _ _ rest) as [[e1 c1] s1] eqn:L. injection E as <- <- <-. split.
  - eapply bent_same; [reflexivity|]. eapply IH, L.
  - intros ctl0. cbn [fbuild_cubics]. rewrite L. eexists. reflexivity.
Qed.
Lemma quadratics_bent : forall tg tr rel args pos ctl e ctl' segs, fbuild_quadratics rel tr pos ctl args = (e, ctl', segs) ->
  bent tg tr (ftapply tr pos) [] segs segs (ftapply tr e) /\ forall ctl0, exists ctl1, fbuild_quadratics rel tr pos ctl0 args = (e, ctl1, segs).
Proof.
  intros tg tr rel. fix IH 1.
  intros [|x1 [|y1 [|x [|y rest]]]] pos ctl e ctl' segs E; cbn [fbuild_quadratics] in E;
    [injection E as <- <- <-; split; [constructor|intros ctl0; eexists; reflexivity]..|].
  destruct (fbuild_quadratics rel tr _ _ rest) as [[e1 c1] s1] eqn:L. injection E as <- <- <-. split.
  - eapply bent_same; [reflexivity|]. eapply IH, L.
  - intros ctl0. cbn [fbuild_quadratics]. rewrite L. eexists. reflexivity.
Qed.
Lemma arcs_bent : forall tg tr rel args pos e segs, fbuild_arcs tg rel tr pos args = Ok (Some (e, segs)) ->
  exists lines, fbuild_lines rel tr pos (ends args) = (e, lines) /\ bent tg tr (ftapply tr pos) (arcs_in args) segs lines (ftapply tr e).
Proof.
  intros tg tr rel. fix IH 1.
  intros [|rx [|ry [|rot [|la [|sw [|x [|y rest]]]]]]] pos e segs E; cbn [fbuild_arcs] in E;
    [injection E as <- <-; eexists; split; [reflexivity|constructor]..|].
  set (a := mk_farc_args rx ry (fradians rot) (negb (feq la fzero)) (negb (feq sw fzero)) x y) in *.
  destruct (fbuild_arc tg rel tr pos a) as [[[e1 s1]|]| |] eqn:A; cbn [bind] in E; try discriminate E.
  destruct (fbuild_arcs tg rel tr e1 rest) as [[[e2 s2]|]| |] eqn:R; cbn [bind] in E; try discriminate E. injection E as <- <-.
  destruct (IH _ _ _ _ R) as (lines & L & B).
  assert (E1 : e1 = fmoved rel pos (mk_fvec x y)).
  { unfold fbuild_arc in A. destruct (feq _ _ && feq _ _); [discriminate A|]. destruct (farc_segment _ _ _ _) as [[seg|]| |]; cbn [bind] in A; try discriminate A. injection A as <- _. reflexivity. }
  cbn [ends fbuild_lines]. rewrite <- E1, L. eexists. split; [reflexivity|]. cbn [arcs_in]. fold a. eapply bent_arc; [exact E1|exact A|exact B].
Qed.

Lemma ends_length : forall (A : Type) k (args : list A), List.length args = (7 * k)%nat -> List.length (ends args) = (2 * k)%nat.
Proof.
  intros A. induction k as [|k IH]; intros args L; [destruct args; [reflexivity|discriminate L]|].
  do 7 (destruct args as [|? args]; [cbn in L; lia|]). cbn [ends List.length]. rewrite (IH args) by (cbn [List.length] in L; lia). lia.
Qed.
Lemma arc_counts : forall args, fwrong_count 7 args = false -> fwrong_count 2 (ends args) = false.
Proof.
  intros args H. unfold fwrong_count in *. apply orb_false_iff in H. destruct H as [H1 H2]. apply Nat.ltb_ge in H1. apply negb_false_iff, Nat.eqb_eq in H2.
  pose proof (Nat.div_mod (List.length args) 7 ltac:(lia)) as DM. rewrite H2, Nat.add_0_r in DM. set (k := (List.length args / 7)%nat) in *.
  rewrite (ends_length _ k args DM). apply orb_false_iff. split; [apply Nat.ltb_ge; lia|]. apply negb_false_iff, Nat.eqb_eq. rewrite Nat.mul_comm. apply Nat.mod_mul. lia.
Qed.

Lemma path_bent : forall tg tr c cmd args f c' segs, fbuild_path tg c cmd args tr f = Ok (Some (c', segs)) ->
  forall ctl, exists ctl' lines,
    fbuild_path tg (mk_fpctx (fp_pos c) (fp_start c) ctl) (fst (straight (cmd, args))) (snd (straight (cmd, args))) tr f = Ok (Some (mk_fpctx (fp_pos c') (fp_start c') ctl', lines)) /\
    bent tg tr (ftapply tr (fp_pos c)) (if is_arc cmd then arcs_in args else []) segs lines (ftapply tr (fp_pos c')).
Proof.
  intros tg tr c cmd args f c' segs E ctl. unfold straight. cbn [fst snd]. destruct (is_arc cmd) eqn:IA.
  - assert (C : cmd = 97%N \/ cmd = 65%N).
    { unfold is_arc, is_one_of in IA. cbn [chars existsb] in IA. rewrite !orb_true_iff, !N.eqb_eq in IA. destruct IA as [IA|[IA|IA]]; [left|right|discriminate]; exact IA. }
    destruct C as [-> | ->]; cbn [fst snd];
      (unfold fbuild_path in E; cbn -[fbuild_arcs fwrong_count] in E; destruct (fwrong_count 7 args) eqn:W; [discriminate E|];
       destruct (fbuild_arcs tg _ tr (fp_pos c) args) as [[[e s]|]| |] eqn:A; cbn [bind] in E; try discriminate E; injection E as <- <-;
       destruct (arcs_bent _ _ _ _ _ _ _ A) as (lines & L & B);
       unfold fbuild_path; cbn -[fbuild_lines fwrong_count]; rewrite (arc_counts _ W), L; cbn [fp_pos fp_start];
       eexists; eexists; split; [reflexivity|exact B]).
  - cbn [fst snd]. unfold fbuild_path in *. cbn [fp_pos fp_start fp_last_control].
    destruct (is_one_of (chars "mM") cmd).
    { destruct (fwrong_count 2 args); [discriminate E|]. destruct args as [|x [|y rest]].
      - injection E as <- <-. eexists. eexists. split; [reflexivity|constructor].
      - injection E as <- <-. eexists. eexists. split; [reflexivity|constructor].
      - destruct (fbuild_lines _ _ _ rest) as [e s] eqn:L. injection E as <- <-. eexists. eexists. split; [reflexivity|]. eapply bent_same; [reflexivity|]. eapply lines_bent, L. }
    destruct (is_one_of (chars "lL") cmd).
    { destruct (fwrong_count 2 args); [discriminate E|]. destruct (fbuild_lines _ _ _ args) as [e s] eqn:L. injection E as <- <-. eexists. eexists. split; [reflexivity|]. eapply lines_bent, L. }
    destruct (is_one_of (chars "vV") cmd).
    { destruct (Nat.eqb _ _); [discriminate E|]. destruct (fbuild_vertical _ _ _ args) as [e s] eqn:L. injection E as <- <-. eexists. eexists. split; [reflexivity|]. eapply vertical_bent, L. }
    destruct (is_one_of (chars "hH") cmd).
    { destruct (Nat.eqb _ _); [discriminate E|]. destruct (fbuild_horizontal _ _ _ args) as [e s] eqn:L. injection E as <- <-. eexists. eexists. split; [reflexivity|]. eapply horizontal_bent, L. }
    destruct (is_one_of (chars "cC") cmd).
    { destruct (fwrong_count 6 args); [discriminate E|]. destruct (fbuild_cubics _ _ _ _ args) as [[e ct] s] eqn:L. injection E as <- <-.
      destruct (cubics_bent tg _ _ _ _ _ _ _ _ L) as [B I]. destruct (I ctl) as [ct1 L1]. rewrite L1. eexists. eexists. split; [reflexivity|exact B]. }
    destruct (is_one_of (chars "qQ") cmd).
    { destruct (fwrong_count 4 args); [discriminate E|]. destruct (fbuild_quadratics _ _ _ _ args) as [[e ct] s] eqn:L. injection E as <- <-.
      destruct (quadratics_bent tg _ _ _ _ _ _ _ _ L) as [B I]. destruct (I ctl) as [ct1 L1]. rewrite L1. eexists. eexists. split; [reflexivity|exact B]. }
    unfold is_arc in IA. rewrite IA in *. destruct (is_one_of (chars "zZ") cmd); [|discriminate E].
    injection E as <- <-. eexists. eexists. split; [reflexivity|]. eapply bent_same; [reflexivity|]. constructor.
Qed.

Lemma commands_bent : forall tg tr cmds c f c' segs, fbuild_commands tg c cmds tr f = Ok (Some (c', segs)) ->
  forall ctl, exists ctl' lines,
    fbuild_commands tg (mk_fpctx (fp_pos c) (fp_start c) ctl) (map straight cmds) tr f = Ok (Some (mk_fpctx (fp_pos c') (fp_start c') ctl', lines)) /\
    bent tg tr (ftapply tr (fp_pos c)) (arcs_of cmds) segs lines (ftapply tr (fp_pos c')).
Proof.
  intros tg tr. induction cmds as [|[cmd args] cmds IH]; intros c f c' segs E ctl; cbn [fbuild_commands] in E.
  - injection E as <- <-. eexists. eexists. split; [reflexivity|constructor].
  - destruct (fbuild_path tg c cmd args tr f) as [[[c1 s1]|]| |] eqn:P; cbn [bind] in E; try discriminate E.
    destruct (fbuild_commands tg c1 cmds tr false) as [[[c2 s2]|]| |] eqn:R; cbn [bind] in E; try discriminate E. injection E as <- <-.
    destruct (path_bent _ _ _ _ _ _ _ _ P ctl) as (ctl1 & l1 & P1 & B1). destruct (IH _ _ _ _ R ctl1) as (ctl2 & l2 & P2 & B2).
    cbn [map fbuild_commands]. destruct (straight (cmd, args)) as [cmd' args'] eqn:ST. cbn [fst snd] in P1. rewrite P1. cbn [bind]. rewrite P2. cbn [bind].
    eexists. eexists. split; [reflexivity|]. unfold arcs_of. cbn [flat_map fst snd]. eapply bent_app; eassumption.
Qed.

Definition apart (e : R) (z z' : vec) : Prop := Rabs (vx z - vx z') <= e /\ Rabs (vy z - vy z') <= e.
Lemma apart_trans : forall a b x y z, apart a x y -> apart b y z -> apart (a + b) x z.
Proof.
  intros a b x y z [H1 H2] [H3 H4]. split; [replace (vx x - vx z) with ((vx x - vx y) + (vx y - vx z)) by ring|replace (vy x - vy z) with ((vy x - vy y) + (vy y - vy z)) by ring];
    (eapply Rle_trans; [apply Rabs_triang|lra]).
Qed.
Lemma apart_le : forall a b x y, a <= b -> apart a x y -> apart b x y.
Proof. intros a b x y L [H1 H2]. split; lra. Qed.
Lemma apart_refl : forall a x, 0 <= a -> apart a x x.
Proof. intros a x H. split; rewrite Rminus_eq_0, Rabs_R0; exact H. Qed.

Lemma seg_end_pen : forall s e z, seg_end s = Some e -> pen z [rs s] = rv e.
Proof. intros [p|p|p|p c d|] e z H; try discriminate H; injection H as <-; reflexivity. Qed.
Lemma pen_cons : forall z s l, pen z (s :: l) = pen (pen z [s]) l.
Proof. reflexivity. Qed.

Definition placed (l : segment) : Prop := forall e, seg_end l = Some e -> fits (2 ^ 197) e.

(** The pen after every segment, against the path with lines. *)
Lemma bent_pen : forall tg q tr R p arcs segs lines p', zero_exact tg -> angle_accurate tg q -> 0 <= q <= 2 ^ 40 -> even tr ->
  bent tg tr p arcs segs lines p' -> Forall circle arcs -> Forall (fun a => scaled tr a <= R) arcs -> 0 <= R -> fits (2 ^ 197) p -> Forall placed lines ->
  forall z e k, 0 <= e -> apart e z (rv p) -> apart (e + INR k * ((203 + 2 * q) * R / 2 ^ 53)) (pen z (map rs (firstn k segs))) (pen (rv p) (map rs (firstn k lines))).
Proof.
  intros tg q tr R p arcs segs lines p' ZE AA HQ EV B. 
  induction B as [p|p p' e1 arcs s segs lines SE B IH|rel pos e1 a arcs s segs lines p' EE FB B IH]; intros CI SC R0 FP PL z e k E0 AP.
  - rewrite !firstn_nil. cbn [map pen fold_left]. eapply apart_le; [|exact AP]. assert (0 <= INR k * ((203 + 2 * q) * R / 2 ^ 53)); [|lra].
    apply Rmult_le_pos; [apply pos_INR|]. apply Rmult_le_pos; [apply Rmult_le_pos; lra|]. apply Rlt_le, Rinv_0_lt_compat, pow_lt. lra.
  - assert (DE : 0 <= (203 + 2 * q) * R / 2 ^ 53) by (apply Rmult_le_pos; [apply Rmult_le_pos; lra|]; apply Rlt_le, Rinv_0_lt_compat, pow_lt; lra).
    destruct k as [|k]; [cbn [firstn map pen fold_left INR]; rewrite Rmult_0_l, Rplus_0_r; exact AP|].
    inversion PL as [|? ? PL1 PL2]; subst. cbn [firstn map]. rewrite (pen_cons z), (pen_cons (rv p)). rewrite !(seg_end_pen _ _ _ SE).
    eapply apart_le; [|apply (IH CI SC R0 (PL1 _ SE) PL2 (rv e1) e k E0); apply apart_refl; exact E0]. rewrite S_INR. lra.
  - assert (DE : 0 <= (203 + 2 * q) * R / 2 ^ 53) by (apply Rmult_le_pos; [apply Rmult_le_pos; lra|]; apply Rlt_le, Rinv_0_lt_compat, pow_lt; lra).
    destruct k as [|k]; [cbn [firstn map pen fold_left INR]; rewrite Rmult_0_l, Rplus_0_r; exact AP|].
    inversion PL as [|? ? PL1 PL2]; subst. inversion CI as [|? ? CI1 CI2]; subst. inversion SC as [|? ? SC1 SC2]; subst. cbn [firstn map]. rewrite (pen_cons z), (pen_cons (rv (ftapply tr pos))).
    set (e1 := fmoved rel pos (mk_fvec (farc_x a) (farc_y a))) in *.
    destruct (C121_arc tg q tr rel pos a ZE AA HQ EV CI1 FP (PL1 _ eq_refl)) as (_ & _ & _ & H). fold e1 in H. rewrite FB in H.
    destruct H as [_ (d & AO & _ & _ & WX & WY)].
    assert (S0 : 0 < scaled tr a) by (destruct EV as (_ & _ & O0 & _); apply scaled_size; [exact O0|apply CI1]).
    destruct (C119_drawn tg q (scaled tr a) _ _ d s (mk_geometry (fun _ _ _ => Panic) (fcircle tg) first_ge) 0 pos z AO S0 (proj1 HQ) eq_refl) as (_ & _ & DX & DY).
    assert (A1 : apart (e + (203 + 2 * q) * R / 2 ^ 53) (pen z [rs s]) (rv (ftapply tr e1))).
    { assert (I0 : 0 < / 2 ^ 53) by (apply Rinv_0_lt_compat, pow_lt; lra). unfold Rdiv in *. set (i := / 2 ^ 53) in *. clearbody i.
      assert (SR : (203 + 2 * q) * scaled tr a * i <= (203 + 2 * q) * R * i) by (apply Rmult_le_compat_r; [lra|]; apply Rmult_le_compat_l; lra).
      destruct AP as [X1 X2]. cbn [vsub vx vy rv] in WX, WY, X1, X2 |- *. apply le_abs in WX, WY, DX, DY, X1, X2. split; apply Rabs_le; cbn [rv vx vy]; lra. }
    replace (pen (rv (ftapply tr pos)) [rs (SLineTo (ftapply tr e1))]) with (rv (ftapply tr e1)) by reflexivity.
    eapply apart_le; [|apply (IH CI2 SC2 R0 (PL1 _ eq_refl) PL2 (pen z [rs s]) (e + (203 + 2 * q) * R / 2 ^ 53) k ltac:(lra) A1)]. rewrite S_INR. lra.
Qed.

(** ** The whole path in the plane *)

Definition seg_place (l : curve_segment) : option vec :=
  match l with GoTo p | LineTo p | CloseTo p | CurveTo p _ _ => Some p | Arc _ _ _ _ _ => None end.

(** The segments against the path with lines, from the place [p] on: lines and curves are within [E] of
    those, and every arc is the circle asked for between the ends of its line. *)
Inductive figure_near (q E : R) (tr : ftransform) : vec -> list farc_args -> list segment -> list curve_segment -> Prop :=
| near_nil : forall p, figure_near q E tr p [] [] []
| near_same : forall p e arcs s segs l lines, segment_within E s l -> seg_place l = Some e -> figure_near q E tr e arcs segs lines ->
    figure_near q E tr p arcs (s :: segs) (l :: lines)
| near_arc : forall p e a arcs s segs lines d, arc_of q (scaled tr a) (farc_large a) (farc_sweep a) d s ->
    within (3 * scaled tr a / 2 ^ 53 + 2 * E) d (vsub e p) -> figure_near q E tr e arcs segs lines ->
    figure_near q E tr p (a :: arcs) (s :: segs) (LineTo e :: lines).

Lemma bent_figure : forall tg q E tr p arcs segs lines p', zero_exact tg -> angle_accurate tg q -> 0 <= q <= 2 ^ 40 -> even tr ->
  bent tg tr p arcs segs lines p' -> Forall circle arcs -> fits (2 ^ 197) p -> Forall placed lines ->
  forall r rlines, within E p r -> Forall2 (segment_within E) lines rlines -> figure_near q E tr r arcs segs rlines.
Proof.
  intros tg q E tr p arcs segs lines p' ZE AA HQ EV B.
  induction B as [p|p p' e1 arcs s segs lines SE B IH|rel pos e1 a arcs s segs lines p' EE FB B IH]; intros CI FP PL r rlines WR SW.
  - inversion SW; subst. constructor.
  - inversion SW as [|? l ? rl W1 W2]; subst. inversion PL as [|? ? PL1 PL2]; subst.
    assert (K : exists e, seg_place l = Some e /\ within E e1 e).
    { destruct s, l; try discriminate SE; try contradiction W1; injection SE as <-; eexists; (split; [reflexivity|]); cbn [segment_within] in W1; tauto. }
    destruct K as (e & K1 & K2). eapply near_same; [exact W1|exact K1|]. apply IH; auto.
  - inversion SW as [|? l ? rl W1 W2]; subst. inversion PL as [|? ? PL1 PL2]; subst. inversion CI as [|? ? CI1 CI2]; subst.
    destruct l; try contradiction W1. cbn [segment_within] in W1.
    set (e1 := fmoved rel pos (mk_fvec (farc_x a) (farc_y a))) in *.
    destruct (C121_arc tg q tr rel pos a ZE AA HQ EV CI1 FP (PL1 _ eq_refl)) as (_ & _ & _ & H). fold e1 in H. rewrite FB in H.
    destruct H as [_ (d & AO & F1 & F2 & WX & WY)].
    eapply near_arc; [exact AO| |apply IH; auto; apply PL1; reflexivity].
    split; [exact F1|]. split; [exact F2|]. destruct WR as (_ & _ & R1 & R2), W1 as (_ & _ & R3 & R4).
    cbn [vsub vx vy rv] in WX, WY |- *. apply le_abs in WX, WY, R1, R2, R3, R4. split; apply Rabs_le; lra.
Qed.

Lemma lines_pen : forall E lines rlines, Forall2 (segment_within E) lines rlines -> forall z r k, apart E z r ->
  apart E (pen z (map rs (firstn k lines))) (pen r (firstn k rlines)).
Proof.
  intros E lines rlines H. induction H as [|s l lines rlines W H IH]; intros z r k A; [rewrite !firstn_nil; exact A|].
  destruct k as [|k]; [exact A|]. cbn [firstn map]. rewrite (pen_cons z), (pen_cons r). apply IH.
  destruct s, l; try contradiction W; cbn [segment_within] in W; cbn [rs pen fold_left seg_place]; unfold within in W; split; cbn [rv vx vy]; tauto.
Qed.

Lemma ends_rounds : forall args fargs, Forall2 rounds_to args fargs -> Forall2 rounds_to (ends args) (ends fargs).
Proof.
  intros args. remember (List.length args) as n eqn:L. assert (B : (List.length args <= n)%nat) by lia. clear L. revert args B.
  induction n as [|n IH]; intros args B fargs H.
  - destruct args; [|cbn in B; lia]. inversion H; subst. constructor.
  - do 7 (destruct H as [|? ? ? ? ? H]; [constructor|]). cbn [ends]. constructor; [assumption|]. constructor; [assumption|]. apply IH; [cbn in B; lia|exact H].
Qed.

Lemma straight_rounds : forall cmds fcmds, Forall2 rounded_command cmds fcmds -> Forall2 rounded_command (map straight cmds) (map straight fcmds).
Proof.
  intros cmds fcmds H. induction H as [|[c args] [fc fargs] cmds fcmds [L A] H IH]; cbn [map]; constructor; [|exact IH]. cbn [fst snd] in L, A. subst fc.
  unfold straight. cbn [fst snd]. destruct (is_arc c); (split; [reflexivity|]); cbn [snd]; [apply ends_rounds; exact A|exact A].
Qed.

Lemma straight_no_arcs : forall cmds : list (char * list R), no_arcs (map straight cmds).
Proof.
  intros cmds. induction cmds as [|[c args] cmds IH]; cbn [map]; constructor; [|exact IH]. unfold straight. cbn [fst snd].
  destruct (is_arc c) eqn:A; cbn [fst]; [destruct (is_lower c); reflexivity|exact A].
Qed.

(** The lines are between [- Q] and [Q]. *)
Definition boxed (Q : R) (l : curve_segment) : Prop :=
  match l with
  | GoTo p | LineTo p | CloseTo p => box Q p
  | CurveTo p c d => box Q p /\ box (2 * Q) c /\ box (2 * Q) d
  | Arc _ _ _ _ _ => False
  end.

Lemma path_figure : forall tg q cmds fcmds tr S T P R pc segs, zero_exact tg -> angle_accurate tg q -> 0 <= q <= 2 ^ 40 -> even tr ->
  Forall2 (fun c fc => fst c = fst fc /\ Forall2 rounds_to (snd c) (snd fc)) cmds fcmds ->
  Forall circle (arcs_of fcmds) -> Forall (fun a => scaled tr a <= R) (arcs_of fcmds) -> 0 <= R -> 1 <= P ->
  Forall (fun cmd => Forall (fun a => Rabs a <= P) (snd cmd)) (absolute (mk_vec 0 0) (mk_vec 0 0) true (map straight cmds)) ->
  Forall (fun m => is_finite m = true /\ Rabs (B2R m) <= S) [fm0 tr; fm1 tr; fm2 tr; fm3 tr] ->
  Forall (fun m => is_finite m = true /\ Rabs (B2R m) <= T) [fm4 tr; fm5 tr] ->
  fbuild_commands tg fpath_ctx_new fcmds tr true = Ok (Some (pc, segs)) ->
  let n := list_sum (map (fun cmd => List.length (snd cmd)) (map straight cmds)) in
  let Q := 2 * S * P + T + 1 in
  P <= 2 ^ 900 -> Q <= 2 ^ 190 -> INR n <= 2 ^ 40 ->
  let E := (5 * INR n + 16) * Q / 2 ^ 53 in
  let origin := tapply (rtr tr) (mk_vec 0 0) in
  exists rc lines, build_commands path_ctx_new (map straight cmds) (rtr tr) true = Ok (Some (rc, lines)) /\ Forall (boxed Q) lines /\ box Q origin /\ E <= Q /\
    figure_near q E tr origin (arcs_of fcmds) segs lines /\
    forall k, apart (2 * E + INR k * ((203 + 2 * q) * R / 2 ^ 53)) (pen origin (map rs (firstn k segs))) (pen origin (firstn k lines)).
Proof.
  intros tg q cmds fcmds tr S T P R pc segs ZE AA HQ EV RC CI SC R0 P1 AB TS TT FB n Q PH BQ BN E origin.
  pose proof (straight_rounds _ _ RC) as RS. pose proof (straight_no_arcs cmds) as NA.
  assert (SM : Forall (fun cmd => Forall (fun a => Rabs a <= 2 * P) (snd cmd)) (map straight cmds)).
  { assert (BZ : box P (mk_vec 0 0)) by (split; cbn [vx vy]; rewrite Rabs_R0; lra).
    apply (numbers_small P (map straight cmds) (mk_vec 0 0) (mk_vec 0 0) true); auto. lra. }
  assert (P2 : 2 * P <= bpow radix2 1000).
  { apply Rle_trans with (bpow radix2 (1 + 900)); [|apply bpow_le; lia]. rewrite bpow_plus. change (bpow radix2 1) with 2.
    apply Rmult_le_compat_l; [lra|]. rewrite <- huge_is in PH. exact PH. }
  set (sc := map straight cmds) in *. set (fsc := map straight fcmds) in *.
  assert (CO : cmds_ok 5 P fsc sc).
  { clearbody sc fsc. clear - RS SM P1 P2. unfold cmds_ok. induction RS as [|c fc cmds fcmds [L A] RC IH]; constructor.
    - split; [symmetry; exact L|]. inversion SM as [|? ? S1 _]; subst. clear - A S1 P1 P2. unfold args_ok.
      induction A as [|r x rs xs R A IH]; constructor.
      + inversion S1; subst. replace (5 - 2) with 3 by ring. apply rounds_near; assumption.
      + apply IH. inversion S1; assumption.
    - apply IH. inversion SM; assumption. }
  assert (LN : total fsc = INR n).
  { unfold total. f_equal. unfold n. clear - CO. induction CO as [|c r cs rs [_ A] CO IH]; [reflexivity|]. cbn [map list_sum fold_right]. rewrite (args_length _ _ _ _ A). f_equal. exact IH. }
  assert (W900 : 2 * Q <= 2 ^ 900).
  { apply Rle_trans with (2 ^ 191); [|apply Rle_pow; [lra|lia]]. replace (2 ^ 191) with (2 * 2 ^ 190); [lra|]. change 191%nat with (1 + 190)%nat. rewrite pow_add. ring. }
  assert (HS : setting S T P tr).
  { constructor; [split; assumption|split; [exact P1|rewrite huge_is; exact PH]|]. rewrite huge_is. exact W900. }
  assert (Z0 : B2R fzero = 0) by (vm_compute; reflexivity).
  assert (NZ : nv 0 P fvzero (mk_vec 0 0)).
  { unfold fvzero. split; cbn [fx fy vx vy]; (split; [reflexivity|]); rewrite Z0, Rminus_0_r, Rabs_R0, Rmult_0_l; lra. }
  assert (BZ : box P (mk_vec 0 0)) by (split; cbn [vx vy]; rewrite Rabs_R0; lra).
  assert (CN : ctx_near 0 P fpath_ctx_new path_ctx_new) by (split; [|split; [|split]]; assumption).
  pose proof (pos_INR n) as N0.
  assert (MM : many = 2 ^ 50) by (unfold many; lra).
  assert (NB : 0 + 5 * total fsc <= many - 60) by (rewrite LN, MM; clear - BN; set (x := INR n) in *; clearbody x; lra).
  pose proof (commands_near tg 5 S T P tr ltac:(lra) HS fsc sc fpath_ctx_new path_ctx_new true 0 CO ltac:(lra) NB NA CN AB) as G. cbv zeta in G.
  destruct (commands_bent tg tr fcmds fpath_ctx_new true pc segs FB (fp_last_control fpath_ctx_new)) as (ctl' & lines & FL & BE).
  fold fsc in FL. change (mk_fpctx (fp_pos fpath_ctx_new) (fp_start fpath_ctx_new) (fp_last_control fpath_ctx_new)) with fpath_ctx_new in FL. rewrite FL in G.
  unfold out_near in G. destruct (build_commands path_ctx_new sc (rtr tr) true) as [[[rc rlines]|]| |]; try contradiction.
  destruct G as [_ G]. exists rc, rlines. split; [reflexivity|].
  set (k := 0 + 5 * total fsc + 16) in *.
  assert (QQ : Qof S T P = Q) by reflexivity. rewrite QQ in G.
  assert (EE : k * (u53 * Q) = E).
  { unfold E, k. rewrite u53_is, LN. unfold Rdiv. ring. }
  assert (Q1 : 1 <= Q).
  { pose proof (setting_Q _ _ _ _ HS). unfold Qof in *. fold Q in H. lra. }
  assert (E0 : 0 <= E <= Q).
  { rewrite <- EE. pose proof u53_pos as [U0 _]. assert (K0 : 0 <= k <= 2 ^ 50) by (unfold k; rewrite LN; clear - BN N0; set (x := INR n) in *; clearbody x; lra).
    split; [apply Rmult_le_pos; [lra|apply Rmult_le_pos; lra]|].
    apply Rle_trans with (2 ^ 50 * (u53 * Q)); [apply Rmult_le_compat_r; [apply Rmult_le_pos; lra|lra]|]. rewrite u53_val. lra. }
  assert (FIT : forall p r, nv k Q p r -> box Q r -> fits (2 ^ 197) p).
  { intros p r [[F1 V1] [F2 V2]] [B1 B2]. rewrite EE in V1, V2.
    assert (QB : 2 * Q <= 2 ^ 197).
    { apply Rle_trans with (2 ^ 191); [|apply Rle_pow; [lra|lia]]. replace (2 ^ 191) with (2 * 2 ^ 190); [lra|]. change 191%nat with (1 + 190)%nat. rewrite pow_add. ring. }
    clear - F1 F2 V1 V2 B1 B2 QB E0. set (w := 2 ^ 197) in *. clearbody w. apply le_abs in V1, V2, B1, B2.
    split; [split; [exact F1|exact F2]|]. split; apply Rabs_le; cbn [rv vx vy]; lra. }
  assert (PL : Forall placed lines).
  { clear - G FIT. induction G as [|s l lines rlines N G IH]; constructor; auto.
    intros e He. destruct N; injection He as <-; eapply FIT; eassumption. }
  assert (SW : Forall2 (segment_within E) lines rlines).
  { rewrite <- EE. clear - G. induction G; constructor; auto. apply seg_near_within. assumption. }
  assert (KB : 0 + 16 <= k).
  { unfold k. rewrite LN. lra. }
  destruct (point_near S T P tr fvzero (mk_vec 0 0) 0 k HS ltac:(rewrite MM; lra) KB NZ BZ) as [NO BO]. rewrite QQ in NO, BO. fold origin in NO, BO.
  change (fp_pos fpath_ctx_new) with fvzero in BE.
  assert (WO : within E (ftapply tr fvzero) origin) by (rewrite <- EE; apply nv_within; exact NO).
  split; [clear - G; induction G as [|s l lines rlines N G IH]; constructor; auto; destruct N; cbn [boxed]; auto|].
  split; [exact BO|]. split; [exact (proj2 E0)|].
  split; [exact (bent_figure tg q E tr _ _ _ _ _ ZE AA HQ EV BE CI (FIT _ _ NO BO) PL _ _ WO SW)|].
  intros i. destruct WO as (_ & _ & W1 & W2).
  assert (AP : apart E origin (rv (ftapply tr fvzero))) by (split; cbn [rv vx vy]; rewrite Rabs_minus_sym; assumption).
  pose proof (bent_pen tg q tr R _ _ _ _ _ ZE AA HQ EV BE CI SC R0 (FIT _ _ NO BO) PL origin E i (proj1 E0) AP) as A1.
  assert (AP2 : apart E (rv (ftapply tr fvzero)) origin) by (split; cbn [rv vx vy]; assumption).
  pose proof (lines_pen E lines rlines SW _ _ i AP2) as A2.
  eapply apart_le; [|eapply apart_trans; [exact A1|exact A2]]. lra.
Qed.

Theorem C121_path : forall tg q cmds fcmds tr S T P R pc segs, zero_exact tg -> angle_accurate tg q -> 0 <= q <= 2 ^ 40 -> even tr ->
  Forall2 (fun c fc => fst c = fst fc /\ Forall2 rounds_to (snd c) (snd fc)) cmds fcmds ->
  Forall circle (arcs_of fcmds) -> Forall (fun a => scaled tr a <= R) (arcs_of fcmds) -> 0 <= R -> 1 <= P ->
  Forall (fun cmd => Forall (fun a => Rabs a <= P) (snd cmd)) (absolute (mk_vec 0 0) (mk_vec 0 0) true (map straight cmds)) ->
  Forall (fun m => is_finite m = true /\ Rabs (B2R m) <= S) [fm0 tr; fm1 tr; fm2 tr; fm3 tr] ->
  Forall (fun m => is_finite m = true /\ Rabs (B2R m) <= T) [fm4 tr; fm5 tr] ->
  fbuild_commands tg fpath_ctx_new fcmds tr true = Ok (Some (pc, segs)) ->
  let n := list_sum (map (fun cmd => List.length (snd cmd)) (map straight cmds)) in
  let Q := 2 * S * P + T + 1 in
  P <= 2 ^ 900 -> Q <= 2 ^ 190 -> INR n <= 2 ^ 40 ->
  let E := (5 * INR n + 16) * Q / 2 ^ 53 in
  let origin := tapply (rtr tr) (mk_vec 0 0) in
  exists rc lines, build_commands path_ctx_new (map straight cmds) (rtr tr) true = Ok (Some (rc, lines)) /\
    figure_near q E tr origin (arcs_of fcmds) segs lines /\
    forall k, apart (2 * E + INR k * ((203 + 2 * q) * R / 2 ^ 53)) (pen origin (map rs (firstn k segs))) (pen origin (firstn k lines)).
Proof.
  intros tg q cmds fcmds tr S T P R pc segs ZE AA HQ EV RC CI SC R0 P1 AB TS TT FB n Q PH BQ BN E origin.
  destruct (path_figure tg q cmds fcmds tr S T P R pc segs ZE AA HQ EV RC CI SC R0 P1 AB TS TT FB PH BQ BN) as (rc & lines & A & _ & _ & _ & B & C).
  exists rc, lines. split; [exact A|]. split; [exact B|exact C].
Qed.

(** *** From the text *)

(** Arcs of circles, at most [R] in radius once scaled by [m] (with one percent to spare). *)
Fixpoint circles_in (m R : R) (args : list Rdefinitions.R) : Prop :=
  match args with
  | rx :: ry :: rot :: _ :: _ :: _ :: _ :: rest =>
      rx = ry /\ / 2 ^ 98 <= Rabs rx <= 2 ^ 98 /\ rot = 0 /\ 1.01 * (m * Rabs rx) <= R /\ circles_in m R rest
  | _ => True
  end.

Lemma rounds_same : forall r x y, r <> 0 -> / 2 ^ 98 <= Rabs r <= 2 ^ 98 -> rounds_to r x -> rounds_to r y ->
  x = y /\ ordinary x /\ Rabs (B2R x) <= 1.01 * Rabs r.
Proof.
  intros r x y N [L U] X Y.
  assert (B : Rabs r <= bpow radix2 1000) by (eapply Rle_trans; [exact U|]; rewrite pow_bpow; apply bpow_le; lia).
  destruct (rounds_val r x B X) as [Fx Vx]. destruct (rounds_val r y B Y) as [Fy _].
  assert (EQ : B2R x = B2R y).
  { unfold rounds_to in X, Y. destruct (Rlt_bool _ _); [destruct X as [_ ->], Y as [_ ->]; reflexivity|rewrite X in Fx; discriminate Fx]. }
  assert (TL : tiny <= / 1000 * Rabs r).
  { apply Rle_trans with (/ 1000 * / 2 ^ 98); [|apply Rmult_le_compat_l; lra]. apply Rle_trans with (/ 2 ^ 10 * / 2 ^ 98).
    - rewrite <- Rinv_mult, <- pow_add, pow_bpow, <- bpow_opp. unfold tiny. apply bpow_le. lia.
    - apply Rmult_le_compat_r; [apply Rlt_le, Rinv_0_lt_compat, pow_lt; lra|cbn [pow]; lra]. }
  assert (UR : u53 * Rabs r <= / 1000 * Rabs r) by (apply Rmult_le_compat_r; [apply Rabs_pos|rewrite u53_val; lra]).
  assert (D : Rabs (B2R x - r) <= / 500 * Rabs r) by lra.
  pose proof (Rabs_triang_inv (B2R x) r) as T1. pose proof (Rabs_triang_inv r (B2R x)) as T2. rewrite (Rabs_minus_sym r) in T2.
  assert (I0 : 0 < / 2 ^ 98) by (apply Rinv_0_lt_compat, pow_lt; lra).
  assert (H99 : / 2 ^ 99 = / 2 * / 2 ^ 98) by (change 99%nat with (1 + 98)%nat; rewrite pow_add, pow_1, Rinv_mult; reflexivity).
  assert (G99 : 2 ^ 99 = 2 * 2 ^ 98) by (change 99%nat with (1 + 98)%nat; rewrite pow_add, pow_1; reflexivity).
  assert (NZ : B2R x <> 0) by (intros K; rewrite K in T2, D; rewrite Rabs_R0 in T2; lra).
  split; [|split; [split; [exact Fx|rewrite H99, G99; split; lra]|lra]].
  apply B2R_inj; [| |exact EQ].
  - destruct x; try reflexivity; try discriminate Fx. contradiction NZ. reflexivity.
  - rewrite EQ in NZ. destruct y; try reflexivity; try discriminate Fy. contradiction NZ. reflexivity.
Qed.

Lemma zero_radians : forall x, rounds_to 0 x -> feq (fradians x) fzero = true.
Proof.
  intros x X. unfold rounds_to in X. rewrite round_0 in X by typeclasses eauto. rewrite Rabs_R0 in X.
  rewrite Rlt_bool_true in X by apply bpow_gt_0. destruct X as [F V]. destruct x as [s|s| |s m e B]; try discriminate F.
  - destruct s; vm_compute; reflexivity.
  - exfalso. cbn [B2R] in V. unfold F2R in V. cbn [Fnum Fexp] in V. pose proof (bpow_gt_0 radix2 e) as P.
    apply Rmult_integral in V. destruct V as [V|V]; [|lra]. destruct s; cbn [SpecFloat.cond_Zopp] in V; apply eq_IZR in V; discriminate V.
Qed.

Lemma circles_rounded : forall tr R args fargs, Forall2 rounds_to args fargs -> circles_in (Rabs (B2R (fm0 tr))) R args ->
  Forall circle (arcs_in fargs) /\ Forall (fun a => scaled tr a <= R) (arcs_in fargs).
Proof.
  intros tr R args. remember (List.length args) as n eqn:L. assert (B : (List.length args <= n)%nat) by lia. clear L. revert args B.
  induction n as [|n IH]; intros args B fargs H C.
  - destruct args; [|cbn in B; lia]. inversion H; subst. split; constructor.
  - destruct H as [|rx frx a1 f1 X1 H]; [split; constructor|]. destruct H as [|ry fry a2 f2 X2 H]; [split; constructor|].
    destruct H as [|rot frot a3 f3 X3 H]; [split; constructor|]. do 4 (destruct H as [|? ? ? ? ? H]; [split; constructor|]).
    cbn [circles_in] in C. destruct C as (E & SZ & Z & RB & C). subst ry rot.
    assert (N : rx <> 0). { intros ->. rewrite Rabs_R0 in SZ. assert (0 < / 2 ^ 98) by (apply Rinv_0_lt_compat, pow_lt; lra). lra. }
    destruct (rounds_same rx frx fry N SZ X1 X2) as (EQ & OR & BR). destruct (fun X => IH _ X _ H C) as [I1 I2]; [cbn in B; lia|].
    cbn [arcs_in]. split; constructor; auto.
    + split; [exact EQ|]. split; [exact OR|]. cbn [farc_rot]. apply zero_radians. exact X3.
    + unfold scaled. cbn [farc_rx]. pose proof (Rabs_pos (B2R (fm0 tr))). apply Rle_trans with (Rabs (B2R (fm0 tr)) * (1.01 * Rabs rx)); [apply Rmult_le_compat_l; lra|lra].
Qed.

Theorem C121_text : forall tg q text cmds tr S T P R pc segs, zero_exact tg -> angle_accurate tg q -> 0 <= q <= 2 ^ 40 -> even tr ->
  (* the text of a path whose arcs are circles *)
  path_text text cmds -> Forall (fun cmd => In (fst cmd) (chars "aA") -> circles_in (Rabs (B2R (fm0 tr))) R (snd cmd)) cmds -> 0 <= R -> 1 <= P ->
  Forall (fun cmd => Forall (fun a => Rabs a <= P) (snd cmd)) (absolute (mk_vec 0 0) (mk_vec 0 0) true (map straight cmds)) ->
  Forall (fun m => is_finite m = true /\ Rabs (B2R m) <= S) [fm0 tr; fm1 tr; fm2 tr; fm3 tr] ->
  Forall (fun m => is_finite m = true /\ Rabs (B2R m) <= T) [fm4 tr; fm5 tr] ->
  fparse_path tg text fpath_ctx_new tr = Ok (Some (pc, segs)) ->
  let n := list_sum (map (fun cmd => List.length (snd cmd)) (map straight cmds)) in
  let Q := 2 * S * P + T + 1 in
  P <= 2 ^ 900 -> Q <= 2 ^ 190 -> INR n <= 2 ^ 40 ->
  let E := (5 * INR n + 16) * Q / 2 ^ 53 in
  let origin := tapply (rtr tr) (mk_vec 0 0) in
  exists fcmds rc lines, Forall2 (fun c fc => fst c = fst fc /\ Forall2 rounds_to (snd c) (snd fc)) cmds fcmds /\
    build_commands path_ctx_new (map straight cmds) (rtr tr) true = Ok (Some (rc, lines)) /\
    figure_near q E tr origin (arcs_of fcmds) segs lines /\
    forall k, apart (2 * E + INR k * ((203 + 2 * q) * R / 2 ^ 53)) (pen origin (map rs (firstn k segs))) (pen origin (firstn k lines)).
Proof.
  intros tg q text cmds tr S T P R pc segs ZE AA HQ EV PT CI R0 P1 AB TS TT FP n Q PH BQ BN E origin.
  destruct (C106_text text cmds PT) as (fcmds & RC & EQ). rewrite EQ in FP.
  assert (CC : Forall circle (arcs_of fcmds) /\ Forall (fun a => scaled tr a <= R) (arcs_of fcmds)).
  { clear - RC CI. unfold arcs_of. induction RC as [|[c args] [fc fargs] cmds fcmds [L A] RC IH]; [split; constructor|]. cbn [fst snd] in L, A. subst fc.
    inversion CI as [|? ? C1 C2]; subst. destruct (IH C2) as [I1 I2]. cbn [flat_map fst snd]. cbn [fst snd] in C1.
    destruct (is_arc c) eqn:K; [|split; assumption]. destruct (circles_rounded tr R args fargs A (C1 (proj1 (is_one_of_In _ _) K))) as [J1 J2].
    split; apply Forall_app; split; assumption. }
  destruct (C121_path tg q cmds fcmds tr S T P R pc segs ZE AA HQ EV RC (proj1 CC) (proj2 CC) R0 P1 AB TS TT FP PH BQ BN) as (rc & lines & A & B & C).
  exists fcmds, rc, lines. split; [exact RC|]. split; [exact A|]. split; [exact B|exact C].
Qed.

(** "M5 0A5 5 0 0 1 0 5", a quarter of a circle. *)
Definition C121_quarter : list char := chars "M5 0A5 5 0 0 1 0 5".
Definition C121_commands : list (char * list R) := [(ch "M", [5; 0]); (ch "A", [5; 5; 0; 0; 1; 0; 5])].
Example C121_example :
  path_text C121_quarter C121_commands /\
  Forall (fun cmd => In (fst cmd) (chars "aA") -> circles_in (Rabs (B2R (fm0 fidentity))) 6 (snd cmd)) C121_commands /\
  Forall (fun cmd => Forall (fun a => Rabs a <= 5) (snd cmd)) (absolute (mk_vec 0 0) (mk_vec 0 0) true (map straight C121_commands)) /\
  (exists pc segs, fparse_path known_trig C121_quarter fpath_ctx_new fidentity = Ok (Some (pc, segs)) /\ List.length segs = 2%nat).
Proof.
  assert (N0 : number_text (chars "0") 0) by (apply (text_digits (chars "0")); split; [discriminate|repeat constructor]).
  assert (N1 : number_text (chars "1") 1) by (apply (text_digits (chars "1")); split; [discriminate|repeat constructor]).
  assert (N5 : number_text (chars "5") 5) by (apply (text_digits (chars "5")); split; [discriminate|repeat constructor]).
  assert (SP : separator (chars " ")) by (right; split; [discriminate|repeat constructor]).
  split.
  { unfold C121_quarter, C121_commands. change (chars "M5 0A5 5 0 0 1 0 5") with
      ([] ++ (ch "M" :: [] ++ (chars "5" ++ chars " " ++ chars "0")) ++
       [] ++ (ch "A" :: [] ++ (chars "5" ++ chars " " ++ chars "5" ++ chars " " ++ chars "0" ++ chars " " ++ chars "0" ++ chars " " ++ chars "1" ++ chars " " ++ chars "0" ++ chars " " ++ chars "5")) ++ []).
    repeat (apply path_more; [constructor|apply command_args; [apply is_one_of_In; reflexivity|constructor|]|]); [..|constructor; constructor];
      repeat (apply numbers_more; [assumption|exact SP|]); apply numbers_one; assumption. }
  assert (A5 : Rabs 5 = 5) by (apply Rabs_pos_eq; lra).
  split.
  { constructor; [intros I; cbn in I; repeat (destruct I as [I|I]; [discriminate I|]); contradiction|]. constructor; [|constructor]. intros _.
    cbn [snd circles_in]. destruct one_value as [_ V1]. change (fm0 fidentity) with fone. rewrite V1, Rabs_R1, A5.
    split; [reflexivity|]. split; [split; cbn [pow]; lra|]. split; [reflexivity|]. split; [lra|exact I]. }
  split.
  { change (absolute _ _ _ _) with [(ch "M", [5; 0]); (ch "L", [0; 5])]. repeat constructor; rewrite ?A5, ?Rabs_R0; lra. }
  assert (G : match fparse_path known_trig C121_quarter fpath_ctx_new fidentity with Ok (Some (_, s)) => Nat.eqb (List.length s) 2 | _ => false end = true) by (vm_compute; reflexivity).
  destruct (fparse_path known_trig C121_quarter fpath_ctx_new fidentity) as [[[pc segs]|]| |]; try discriminate G.
  exists pc, segs. split; [reflexivity|]. apply Nat.eqb_eq. exact G.
Qed.

Print Assumptions C121_arc.
Print Assumptions C121_path.
Print Assumptions C121_text.
