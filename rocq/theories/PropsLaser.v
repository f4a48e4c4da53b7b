(** Properties C103 and C104: wherever the laser burns, the machine is at the figure that was to be drawn. *)
From Coq Require Import Ascii String ZArith Reals List Bool Lia Lra.
From Flocq Require Import Core BinarySingleNaN.
From Verif Require Import Base Chars Floats FloatProofs FloatScale FloatErr AccVector IntegerCurve StepperContext
  MachineSpec MachineProofs ContextProofs ContextOps ContextHist ContextClock ApproxCurve DrawCurves FloatPath Coords Curves PathBuild BuildProofs PropsBuild FloatPathProofs PropsFloatPath
  FloatCurve PropsFloatCurve PropsApprox PropsDraw DrawProofs PropsError DrawPlan FloatRun.
Import ListNotations.
Open Scope R_scope.

(** The place of the pen after some segments of a figure that starts at [p]. *)
Definition pen (p : vec) (l : list curve_segment) : vec :=
  fold_left (fun q s => match s with GoTo e | LineTo e | CloseTo e | CurveTo e _ _ => e | Arc r _ a b _ => vadd q (arc_at r a b 1) end) l p.

(** The points of a figure: those of its lines, curves and arcs. *)
Definition figure (p : vec) (l : list curve_segment) (z : vec) : Prop :=
  exists s1 s s2 t, l = s1 ++ s :: s2 /\ (forall m, s <> GoTo m) /\ 0 <= t <= 1 /\ traced (pen p s1) s t = Some z.

(** The same with the places where the program has the pen. *)
Definition ffigure (g : geometry) (p : fvec) (l : list segment) (z : vec) : Prop :=
  exists s1 s s2 t, l = s1 ++ s :: s2 /\ (forall m, s <> SGoTo m) /\ 0 <= t <= 1 /\ traced (rv (fpen g p s1)) (rs s) t = Some z.

Definition coord (v : vec) (i : axis) : R := match i with AX => vx v | AY => vy v end.

Lemma burning_run : forall g s v at1 e1 e2 t runs times t' u, timeline g v t runs times t' ->
  within_error g s v at1 AX e1 runs times -> within_error g s v at1 AY e2 runs times -> burning times u = true ->
  exists start pieces l k, In (start, pieces) runs /\ join_from [] pieces = Ok l /\
    (1 <= k <= curve_ticks (fconcat g l) v)%Z /\
    (exists z, wanted_at s start (fconcat g l) v k AX z /\ (Z.abs (at1 AX (u + 1) - z) <= e1)%Z) /\
    (exists z, wanted_at s start (fconcat g l) v k AY z /\ (Z.abs (at1 AY (u + 1) - z) <= e2)%Z).
Proof.
  intros g s v at1 e1 e2 t runs times t' u T. induction T as [|t t1 t2 start pieces l runs times t' LE J E2 T IH]; intros H1 H2 B; [discriminate B|].
  inversion H1 as [|? ? l1 ? ? ? ? ? J1 W1 K1]; subst. inversion H2 as [|? ? l2 ? ? ? ? ? J2 W2 K2]; subst.
  rewrite J in J1. injection J1 as <-. rewrite J in J2. injection J2 as <-.
  cbn [burning] in B. apply orb_true_iff in B. destruct B as [B|B].
  - apply andb_true_iff in B. destruct B as [B1 B2]. apply Z.leb_le in B1. apply Z.ltb_lt in B2.
    exists start, pieces, l, (u + 1 - t1)%Z. split; [left; reflexivity|]. split; [exact J|]. split; [lia|].
    destruct (W1 (u + 1 - t1)%Z ltac:(lia)) as (z & Wz & Ez). destruct (W2 (u + 1 - t1)%Z ltac:(lia)) as (z' & Wz' & Ez').
    replace (t1 + (u + 1 - t1))%Z with (u + 1)%Z in * by lia. split; [exists z|exists z']; auto.
  - destruct (IH K1 K2 B) as (a & b & c & k & I1 & K). exists a, b, c, k. split; [right; exact I1|exact K].
Qed.

(** The Bezier curves met by the loop have lengths that make sense. *)
Definition lengths_sane (g : geometry) (s : scales) (v : f64) (Q : R) (d0 : drawing) (segs : list segment) : Prop :=
  forall s1 e c1 c2 s2 d curve, segs = s1 ++ SCurveTo e c1 c2 :: s2 -> draw_loop g s v d0 s1 = Ok d ->
    let rel := fvsub e (d_pos d) in g_bezier g c1 (fvadd rel c2) rel = Ok curve ->
    is_finite (fc_length curve) = true /\ 0 < B2R (fc_length curve) <= 64 * Q.

(** Every GoTo takes effect (the machine stands elsewhere when the loop comes to it) or
    leads nearly to the place where the drawing is anyway. *)
Definition gotos_near (g : geometry) (s : scales) (v : f64) (D : axis -> R) (d0 : drawing) (segs : list segment) : Prop :=
  forall s1 p s2 d, segs = s1 ++ SGoTo p :: s2 -> draw_loop g s v d0 s1 = Ok d -> stands s (d_ctx d) p ->
    forall i, Rabs (coord (rv p) i - coord (rv (d_pos d)) i) <= D i.

(** The arcs met by the loop end within [Q]. *)
Definition places_fit (g : geometry) (s : scales) (v : f64) (Q : R) (d0 : drawing) (segs : list segment) : Prop :=
  forall s1 rx ry a b ro s2 d, segs = s1 ++ SArc rx ry a b ro :: s2 ->
    draw_loop g s v d0 (s1 ++ [SArc rx ry a b ro]) = Ok d -> fits Q (d_pos d).

Definition is_arc (s : segment) : bool := match s with SArc _ _ _ _ _ => true | _ => false end.

Lemma no_arc_places : forall g s v Q d0 segs, forallb (fun x => negb (is_arc x)) segs = true -> places_fit g s v Q d0 segs.
Proof.
  intros g s v Q d0 segs H s1 rx ry a b ro s2 d ->. rewrite forallb_app in H. apply andb_true_iff in H. destruct H as [_ H]. discriminate H.
Qed.

Lemma stands_dec : forall s c p, stands s c p \/ ~ stands s c p.
Proof.
  intros s c p. unfold stands.
  assert (E : forall (a : res Z) b, a = Ok b \/ a <> Ok b).
  { intros [z| |] b; [destruct (Z.eq_dec z b) as [->|]; [left; reflexivity|right; congruence]|right; discriminate|right; discriminate]. }
  destruct (E (to_steps s (fx p) AX) (c_pos (channel c AX))); destruct (E (to_steps s (fy p) AY) (c_pos (channel c AY))); tauto.
Qed.

Lemma step_stays : forall g s v d p d', draw_step g s v d (SGoTo p) = Ok d' -> stands s (d_ctx d) p -> d' = d.
Proof.
  intros g s v d p d' H [X Y]. cbn [draw_step] in H. rewrite X in H. cbn [bind] in H. rewrite Z.eqb_refl, Y in H. cbn [bind] in H.
  rewrite Z.eqb_refl in H. injection H as <-. reflexivity.
Qed.

Lemma step_pos : forall g s v d seg d', draw_step g s v d seg = Ok d' ->
  (forall p, seg = SGoTo p -> ~ stands s (d_ctx d) p) -> d_pos d' = end_of g seg (d_pos d).
Proof.
  intros g s v d seg d' H NS. destruct seg as [p|p|p|e c1 c2|rx ry a b ro].
  { cbn [draw_step] in H. apply bind_Ok in H. destruct H as (ix & E1 & H).
    apply bind_Ok in H. destruct H as (stays & E2 & H). destruct stays.
    - exfalso. destruct (Z.eqb_spec ix (c_pos (channel (d_ctx d) AX))) as [->|]; [|discriminate E2].
      apply bind_Ok in E2. destruct E2 as (iy & E2 & E3). injection E3 as E3. apply Z.eqb_eq in E3. subst iy.
      apply (NS p eq_refl). split; assumption.
    - apply bind_Ok in H. destruct H as ([c e] & E3 & H). injection H as <-. reflexivity. }
  all: unfold draw_step in H.
  2: destruct (flt (fvlength (fvsub (d_pos d) p)) short) eqn:SH; [injection H as <-; reflexivity|].
  all: cbv iota in H.
  all: apply bind_Ok in H; destruct H as (info & EI & H).
  all: apply bind_Ok in H; destruct H as ([curve next] & EU & H).
  all: destruct info as [[curve' next']|]; [|discriminate EU]; cbn [unwrap] in EU; injection EU as -> ->.
  all: pose proof (seg_info_end _ _ _ _ _ EI) as EN.
  all: apply bind_Ok in H; destruct H as ([p0 sd] & ED & H).
  all: apply bind_Ok in H; destruct H as (d1 & E1 & H).
  all: apply bind_Ok in H; destruct H as ([p1 ed] & EE & H).
  all: apply bind_Ok in H; destruct H as (cv & EA & H); injection H as <-; exact EN.
Qed.

Lemma loop_app : forall g s v a b d d', draw_loop g s v d (a ++ b) = Ok d' ->
  exists d1, draw_loop g s v d a = Ok d1 /\ draw_loop g s v d1 b = Ok d'.
Proof.
  intros g s v. induction a as [|x a IH]; intros b d d' H; [exists d; auto|]. cbn [app draw_loop] in *.
  apply bind_Ok in H. destruct H as (d1 & E & H). destruct (IH _ _ _ H) as (d2 & A & B). exists d2. rewrite E. auto.
Qed.

Lemma loop_pos : forall g s v segs d d', draw_loop g s v d segs = Ok d' ->
  effect_from g s v d segs -> d_pos d' = fpen g (d_pos d) segs.
Proof.
  intros g s v. induction segs as [|x r IH]; intros d d' H TE; [injection H as <-; reflexivity|].
  cbn [draw_loop] in H. apply bind_Ok in H. destruct H as (d1 & E & H).
  assert (N : forall p, x = SGoTo p -> ~ stands s (d_ctx d) p).
  { intros p ->. apply (TE [] p r d); reflexivity. }
  assert (TE1 : effect_from g s v d1 r).
  { intros s0 p s1 d2 -> L. apply (TE (x :: s0) p s1 d2); [reflexivity|]. cbn [draw_loop]. rewrite E. exact L. }
  rewrite (IH _ _ H TE1), (step_pos _ _ _ _ _ _ E N). reflexivity.
Qed.

Lemma lengths_from : forall g s v Q d0 segs d, draw_loop g s v d0 segs = Ok d ->
  effect_from g s v d0 segs -> lengths_sane g s v Q d0 segs -> lengths_ok g Q (d_pos d0) segs.
Proof.
  intros g s v Q d0 segs d L TE LS s1 e c1 c2 s2 curve ES rel B. pose proof L as L1. rewrite ES in L1.
  destruct (loop_app _ _ _ _ _ _ _ L1) as (d1 & A & _). apply (LS s1 e c1 c2 s2 d1 curve ES A).
  rewrite (loop_pos g s v s1 d0 d1 A); [exact B|].
  intros s3 p s4 d3 E3 L3. apply (TE s3 p (s4 ++ SCurveTo e c1 c2 :: s2) d3); [|exact L3]. rewrite ES, E3, <- app_assoc. reflexivity.
Qed.

Lemma pens_from : forall g s v Q d0 segs d, draw_loop g s v d0 segs = Ok d -> effect_from g s v d0 segs ->
  places_fit g s v Q d0 segs -> fits Q (d_pos d0) -> Forall (sized g Q) segs -> pens_fit g Q (d_pos d0) segs.
Proof.
  intros g s v Q d0 segs d L TE PF F S s1 s2 ->. destruct s1 as [|x s1 _] using rev_ind; [exact F|].
  destruct (loop_app _ _ _ _ _ _ _ L) as (d1 & A & _).
  assert (TE1 : effect_from g s v d0 (s1 ++ [x])).
  { intros s0 p s3 d2 E. apply (TE s0 p (s3 ++ s2) d2). rewrite E, <- app_assoc. reflexivity. }
  rewrite <- (loop_pos _ _ _ _ _ _ A TE1). apply Forall_app in S. destruct S as [S _]. apply Forall_app in S. destruct S as [_ S].
  inversion S as [|? ? S1 _]; subst. destruct x as [p|p|p|e c1 c2|rx ry a b ro].
  5: { apply (PF s1 rx ry a b ro s2 d1); [rewrite <- app_assoc; reflexivity|exact A]. }
  all: rewrite (loop_pos _ _ _ _ _ _ A TE1); unfold fpen; rewrite fold_left_app; cbn [fold_left end_of]; apply S1.
Qed.

(** Leaving out the moves without effect changes the figure by the distance they miss. *)
Definition close_to (D : axis -> R) (z z' : vec) : Prop := forall i, Rabs (coord z i - coord z' i) <= D i.

Lemma drawn_close : forall D p p' s t z, (forall i, 0 <= D i) -> close_to D p p' -> 0 <= t <= 1 -> drawn p s t = Some z ->
  exists z', drawn p' s t = Some z' /\ close_to D z z'.
Proof.
  intros D p p' s t z D0 C Ht H.
  assert (L : forall i x e, Rabs (coord p i - x) <= D i -> Rabs (coord p i + (e - coord p i) * t - (x + (e - x) * t)) <= D i).
  { intros i x e Hx. replace (_ - _) with ((coord p i - x) * (1 - t)) by ring. rewrite Rabs_mult, (Rabs_pos_eq (1 - t)) by lra.
    pose proof (Rabs_pos (coord p i - x)). nra. }
  assert (B : forall i x a b e, Rabs (coord p i - x) <= D i ->
    Rabs (coord p i * ((1 - t) * (1 - t) * (1 - t)) + (coord p i + a) * (3 * t * ((1 - t) * (1 - t))) +
          (b * (3 * (t * t) * (1 - t)) + e * (t * t * t)) -
          (x * ((1 - t) * (1 - t) * (1 - t)) + (x + a) * (3 * t * ((1 - t) * (1 - t))) +
          (b * (3 * (t * t) * (1 - t)) + e * (t * t * t)))) <= D i).
  { intros i x a b e Hx. replace (_ - _) with ((coord p i - x) * ((1 - t) * (1 - t) * (1 + 2 * t))) by ring.
    assert (W0 : 0 <= (1 - t) * (1 - t) * (1 + 2 * t)) by (apply Rmult_le_pos; nra).
    assert (W1 : (1 - t) * (1 - t) * (1 + 2 * t) <= 1).
    { replace ((1 - t) * (1 - t) * (1 + 2 * t)) with (1 - t * t * (3 - 2 * t)) by ring.
      assert (0 <= t * t * (3 - 2 * t)) by (apply Rmult_le_pos; nra). lra. }
    rewrite Rabs_mult, (Rabs_pos_eq _ W0). set (w := (1 - t) * (1 - t) * (1 + 2 * t)) in *.
    pose proof (Rabs_pos (coord p i - x)). nra. }
  destruct s as [e|e|e|e a b|]; cbn [drawn] in *; [| | | |discriminate H]; injection H as <-; eexists; (split; [reflexivity|]); intros i;
    specialize (C i); destruct i; cbn [coord vadd vscale vsub vx vy bernstein3] in *;
    first [apply (L AX); exact C|apply (L AY); exact C|apply (B AX); exact C|apply (B AY); exact C].
Qed.

Lemma traced_close : forall D p p' s t z, (forall i, 0 <= D i) -> close_to D p p' -> 0 <= t <= 1 -> traced p s t = Some z ->
  exists z', traced p' s t = Some z' /\ close_to D z z'.
Proof.
  intros D p p' s t z D0 C Ht H. destruct s as [e|e|e|e a b|r ry a b ro]; try (eapply drawn_close; eassumption).
  cbn [traced] in *. injection H as <-. eexists. split; [reflexivity|]. intros i. specialize (C i).
  destruct i; cbn [coord vadd vx vy] in *; (replace (_ - _) with (vx p - vx p') by ring) || (replace (_ - _) with (vy p - vy p') by ring); exact C.
Qed.

(** After an arc the program and the figure are a little apart. *)
Lemma arc_step : forall g Q rx ry a b ro pos next curve p E, 1 <= Q <= reach -> circle_near g Q rx a b -> fits Q pos ->
  seg_info g (SArc rx ry a b ro) pos = Ok (Some (curve, next)) -> close_to E (rv pos) p ->
  close_to (fun i => E i + 20 * (u53 * Q)) (rv next) (pen p [rs (SArc rx ry a b ro)]).
Proof.
  intros g Q rx ry a b ro pos next curve p E RQ CN Sp SI C. destruct (arc_info _ _ _ _ _ _ _ _ _ SI) as (EC & e & d & V & ->).
  destruct (CN curve EC) as (_ & _ & _ & BX & _ & VE). pose proof (VE e d V) as (F1 & F2 & W1 & W2). destruct (BX 1 ltac:(lra)) as [X1 X2].
  pose proof u53_pos as [U0 U1]. pose proof (reach_huge Q RQ) as HH.
  assert (SE : fits (2 * Q) e).
  { apply abs_between in X1, X2, W1, W2. assert (16 * (u53 * Q) <= Q) by (replace (16 * (u53 * Q)) with (16 * u53 * Q) by ring; nra).
    split; [split; assumption|]. split; cbn [rv vx vy]; apply Rabs_le; lra. }
  destruct (add_fits pos e Q (2 * Q) Sp SE ltac:(lra) ltac:(lra) ltac:(lra)) as [(_ & _ & A1 & A2) _].
  cbn [rv vadd vx vy] in A1, A2. intros i. specialize (C i).
  assert (GO : forall x x' y z z', Rabs (x - (x' + y)) <= u53 * (Q + 2 * Q) -> Rabs (y - z) <= 16 * (u53 * Q) -> Rabs (x' - z') <= E i ->
    Rabs (x - (z' + z)) <= E i + 20 * (u53 * Q)).
  { intros x x' y z z' HA HB HC. apply abs_between in HA, HB, HC. assert (0 <= u53 * Q) by (apply Rmult_le_pos; lra).
    replace (u53 * (Q + 2 * Q)) with (3 * (u53 * Q)) in HA by ring. apply Rabs_le. lra. }
  destruct i; cbn [pen fold_left rs coord rv vadd vx vy] in *; eapply GO; eassumption.
Qed.

(** One step of the loop that takes effect: where the program and the figure are after it. *)
Lemma loop_step : forall g s v Q D k d x r d1 p, 1 <= Q <= reach -> (forall i, 0 <= D i) -> 0 <= k ->
  draw_step g s v d x = Ok d1 -> sized g Q x -> places_fit g s v Q d (x :: r) -> fits Q (d_pos d) ->
  (forall q, x = SGoTo q -> ~ stands s (d_ctx d) q) -> close_to (fun i => D i + k) (rv (d_pos d)) p ->
  d_pos d1 = end_of g x (d_pos d) /\ fits Q (d_pos d1) /\ close_to (fun i => D i + (k + 20 * (u53 * Q))) (rv (d_pos d1)) (pen p [rs x]).
Proof.
  intros g s v Q D k d x r d1 p RQ D0 K0 E S1 PF FT NS C. pose proof (step_pos _ _ _ _ _ _ E NS) as EP.
  assert (U0 : 0 <= u53 * Q) by (pose proof u53_pos; apply Rmult_le_pos; lra).
  split; [exact EP|]. destruct x as [e|e|e|e c1 c2|rx ry a b ro].
  5: { split; [apply (PF [] rx ry a b ro r d1 eq_refl); cbn [app draw_loop]; rewrite E; reflexivity|].
    unfold draw_step in E. apply bind_Ok in E. destruct E as (info & EI & E). apply bind_Ok in E. destruct E as ([curve next] & EU & E).
    destruct info as [[curve' next']|]; [|discriminate EU]. cbn [unwrap] in EU. injection EU as -> ->.
    pose proof (seg_info_end _ _ _ _ _ EI) as EN. rewrite EP, <- EN.
    pose proof (arc_step g Q rx ry a b ro (d_pos d) next curve p _ RQ S1 FT EI C) as AS.
    intros i. eapply Rle_trans; [exact (AS i)|]. cbv beta. lra. }
  all: rewrite EP; cbn [end_of sized rs pen fold_left] in *; split; [apply S1|].
  all: intros i; rewrite Rminus_diag_eq by reflexivity; rewrite Rabs_R0; pose proof (D0 i); lra.
Qed.

Lemma thin : forall g s v Q D segs d d' p k, 1 <= Q <= reach -> (forall i, 0 <= D i) -> 0 <= k ->
  draw_loop g s v d segs = Ok d' -> Forall (sized g Q) segs ->
  gotos_near g s v D d segs -> lengths_sane g s v Q d segs -> places_fit g s v Q d segs -> fits Q (d_pos d) ->
  close_to (fun i => D i + k) (rv (d_pos d)) p ->
  exists segs', draw_loop g s v d segs' = Ok d' /\ effect_from g s v d segs' /\ (length segs' <= length segs)%nat /\
    (closes segs' <= closes segs)%nat /\ Forall (sized g Q) segs' /\ lengths_sane g s v Q d segs' /\ places_fit g s v Q d segs' /\
    forall z, ffigure g (d_pos d) segs' z -> exists z', figure p (map rs segs) z' /\
      close_to (fun i => D i + k + 20 * (INR (length segs) * (u53 * Q))) z z'.
Proof.
  intros g s v Q D. induction segs as [|x r IH]; intros d d' p k RQ D0 K0 L S GN LS PF FT C.
  { exists []. split; [exact L|]. split; [intros [|? s0] ? ? ? E; discriminate E|]. split; [lia|]. split; [lia|]. split; [constructor|].
    split; [exact LS|]. split; [exact PF|]. intros z ([|? s1] & ? & ? & ? & E & _); discriminate E. }
  pose proof L as L0. cbn [draw_loop] in L. apply bind_Ok in L. destruct L as (d1 & E & L). inversion S as [|? ? S1 S2]; subst.
  assert (U0 : 0 <= u53 * Q) by (pose proof u53_pos; apply Rmult_le_pos; lra).
  assert (UN : 0 <= INR (length r) * (u53 * Q)) by (apply Rmult_le_pos; [apply pos_INR|exact U0]).
  assert (GN1 : gotos_near g s v D d1 r).
  { intros s0 q s1 d2 -> L2. apply (GN (x :: s0) q s1 d2); [reflexivity|]. cbn [draw_loop]. rewrite E. exact L2. }
  assert (LS1 : lengths_sane g s v Q d1 r).
  { intros s1 e c1 c2 s2 d2 curve -> L2. apply (LS (x :: s1) e c1 c2 s2 d2); [reflexivity|]. cbn [draw_loop]. rewrite E. exact L2. }
  assert (PF1 : places_fit g s v Q d1 r).
  { intros s1 rx ry a b ro s2 d2 -> L2. apply (PF (x :: s1) rx ry a b ro s2 d2); [reflexivity|]. cbn [app draw_loop]. rewrite E. exact L2. }
  assert (CASE : (exists q, x = SGoTo q /\ stands s (d_ctx d) q) \/ (forall q, x = SGoTo q -> ~ stands s (d_ctx d) q)).
  { destruct x as [q| | | |]; try (right; intros q K; discriminate K).
    destruct (stands_dec s (d_ctx d) q); [left; eauto|right; intros q' K; injection K as <-; assumption]. }
  destruct CASE as [(q & -> & ST)|NS].
  - pose proof (step_stays _ _ _ _ _ _ E ST) as ->.
    assert (C1 : close_to (fun i => D i + k) (rv (d_pos d)) (rv q)).
    { intros i. rewrite Rabs_minus_sym. pose proof (GN [] q r d eq_refl eq_refl ST i). cbv beta. lra. }
    destruct (IH d d' (rv q) k RQ D0 K0 L S2 GN1 LS1 PF1 FT C1) as (segs' & A1 & A2 & A3 & A4 & A5 & A6 & A7 & A8).
    exists segs'. split; [exact A1|]. split; [exact A2|]. split; [cbn [length]; lia|].
    split; [exact A4|]. split; [exact A5|]. split; [exact A6|]. split; [exact A7|].
    intros z F. destruct (A8 z F) as (z' & (s1 & y & s2 & t & EQ & NG & HT & DR) & CZ). exists z'. split.
    + exists (GoTo (rv q) :: s1), y, s2, t. split; [cbn [map rs app]; rewrite EQ; reflexivity|]. auto.
    + intros i. eapply Rle_trans; [exact (CZ i)|]. cbv beta. cbn [length]. rewrite S_INR. lra.
  - destruct (loop_step _ _ _ _ _ _ _ _ _ _ _ RQ D0 K0 E S1 PF FT NS C) as (EP & FT1 & C1).
    destruct (IH d1 d' _ (k + 20 * (u53 * Q)) RQ D0 ltac:(lra) L S2 GN1 LS1 PF1 FT1 C1) as (segs' & A1 & A2 & A3 & A4 & A5 & A6 & A7 & A8).
    exists (x :: segs'). split; [cbn [draw_loop]; rewrite E; exact A1|]. split; [|split; [|split; [|split; [|split; [|split]]]]].
    + intros s0 q s1 d2 EQ L2. destruct s0 as [|y s0]; cbn [app] in EQ; injection EQ as -> EQ.
      * injection L2 as <-. exact (NS q eq_refl).
      * cbn [draw_loop] in L2. rewrite E in L2. exact (A2 s0 q s1 d2 EQ L2).
    + cbn [length]. lia.
    + unfold closes in *. cbn [filter]. destruct (is_close x); cbn [length]; lia.
    + constructor; assumption.
    + intros s1 e c1 c2 s2 d2 curve EQ L2. destruct s1 as [|y s1]; cbn [app] in EQ; injection EQ as -> EQ.
      * injection L2 as <-. apply (LS [] e c1 c2 r d curve eq_refl eq_refl).
      * cbn [draw_loop] in L2. rewrite E in L2. exact (A6 s1 e c1 c2 s2 d2 curve EQ L2).
    + intros s1 rx ry a b ro s2 d2 EQ L2. destruct s1 as [|y s1]; cbn [app] in EQ; injection EQ as -> EQ.
      * apply (PF [] rx ry a b ro r d2 eq_refl L2).
      * cbn [app draw_loop] in L2. rewrite E in L2. exact (A7 s1 rx ry a b ro s2 d2 EQ L2).
    + intros z (s1 & y & s2 & t & EQ & NG & HT & DR). destruct s1 as [|y1 s1]; cbn [app map] in EQ; injection EQ as <- EQ.
      * cbn [fpen fold_left] in DR.
        destruct (traced_close (fun i => D i + k) _ p _ t z ltac:(intros i; pose proof (D0 i); lra) C HT DR) as (z' & DR' & CZ).
        exists z'. split.
        -- exists [], (rs x), (map rs r), t. split; [reflexivity|]. split; [|auto].
           intros m K. destruct x; cbn [rs] in K; try discriminate K. exact (NG _ eq_refl).
        -- intros i. eapply Rle_trans; [exact (CZ i)|]. cbv beta. cbn [length]. rewrite S_INR. lra.
      * assert (F : ffigure g (d_pos d1) segs' z).
        { exists s1, y, s2, t. split; [exact EQ|]. split; [exact NG|]. split; [exact HT|]. rewrite EP. exact DR. }
        destruct (A8 z F) as (z' & (r1 & y' & r2 & t' & EQ' & NG' & HT' & DR') & CZ). exists z'. split.
        -- exists (rs x :: r1), y', r2, t'. split; [cbn [map app]; rewrite EQ'; reflexivity|]. split; [exact NG'|]. split; [exact HT'|].
           exact DR'.
        -- intros i. eapply Rle_trans; [exact (CZ i)|]. cbv beta. cbn [length]. rewrite S_INR. lra.
Qed.

Lemma laser_strict : forall ax ay vmx vmy ops c g s segs v d c1 er c' ex ey fuel search ints Q w u,
  history code (new_ctx ax ay vmx vmy) ops c -> draw_loop g s v (begin_drawing s c) segs = Ok d ->
  draw_curve g s (d_ctx d) (d_start d) (d_curves d) v = Ok (c1, er) ->
  add_weight_change c1 (move_weight c1) (ticks_of c1 AX) = Ok c' -> (ex, ey) = acc_max_err (d_err d) er ->
  (forall i, ticks_of c' i < u64_max)%Z ->
  g_bezier g = fbezier fuel search ints -> finds (g_find g) -> lengths_ok g Q (machine_place s c) segs ->
  1 <= Q <= reach -> pens_fit g Q (machine_place s c) segs -> Forall (sized g Q) segs -> few Q (length segs) ->
  (forall i, is_finite (step_scale s i) = true /\ Rabs (B2R (step_scale s i)) * (8 * Q) <= bpow radix2 62) ->
  effect_from g s v (begin_drawing s c) segs ->
  (ticks_of c AX <= u)%Z -> m_weight (play (events c') u (machine0 w)) <> 0%Z ->
  exists z, ffigure g (machine_place s c) segs z /\
    forall i, Rabs (IZR (s_pos (machine_axis (play (events c') (u + 1) (machine0 w)) i)) - B2R (step_scale s i) * coord z i)
      <= IZR (match i with AX => ex | AY => ey end) + 1 +
         Rabs (B2R (step_scale s i)) * ((3120 * INR (length segs) + 738) * Q / 2 ^ 53 + 4 / 10 ^ 6 * INR (closes segs)).
Proof.
  intros ax ay vmx vmy ops c g s segs v d c0 er c' ex ey fuel search ints Q w u H L0 L1 L2 L3 Hm GB FG LO RQ FM SZ N SC' TE HU HW.
  destruct (loop_no_skip _ _ _ _ _ _ _ _ _ L0 L1 L2 TE) as (runs & c1 & P & R & AW). rewrite <- L3 in R. clear L0 L1 L2 L3.
  change (fun (_ : list (fvec * list piece)) (_ : fvec) => False) with (fun _ : list (fvec * list piece) => no_skip) in P.
  pose proof (curves_nonempty _ (plan_nonempty _ _ _ _ _ P)) as NEC.
  destruct (runs_all _ _ _ _ _ _ _ _ _ _ _ _ _ _ H NEC R AW Hm) as (times & TL & WG & ER & _).
  rewrite WG in HW. destruct (Z.ltb_spec u (ticks_of c AX)) as [HU'|_]; [lia|].
  destruct (burning times u) eqn:B; [|congruence].
  destruct (ER w AX) as [EX _]. destruct (ER w AY) as [EY _]. cbv zeta in EX, EY.
  destruct (burning_run _ _ _ _ _ _ _ _ _ _ _ TL EX EY B)
    as (start & pieces & l & k & I1 & J & HK & (zx & WX & EZX) & (zy & WY & EZY)).
  apply in_map_iff in I1. destruct I1 as ([start' pl] & EQ & I1). unfold curves_of in EQ. cbn [fst snd] in EQ. injection EQ as -> <-.
  destruct (plan_run g _ _ _ P start pl I1) as (s1 & part & s2 & q' & y & ES & EST & RO).
  assert (NEP : pl <> []) by exact (proj1 (Forall_forall _ _) (plan_nonempty _ _ _ _ _ P) _ I1).
  assert (SP : Forall (sized g Q) s1 /\ Forall (sized g Q) part).
  { rewrite ES in SZ. apply Forall_app in SZ. destruct SZ as [A SZ]. apply Forall_app in SZ. split; [exact A|apply SZ]. }
  destruct SP as [SP1 SP2].
  assert (FST : pens_fit g Q start part).
  { rewrite ES in FM. apply pens_app in FM. destruct FM as [_ FM]. rewrite <- EST in FM. apply pens_app in FM. apply FM. }
  assert (GD : Forall (good Q) pl).
  { rewrite EST in RO. eapply run_good; [exact LO|exact ES|exact RO]. }
  assert (LP : (length part <= length segs)%nat) by (rewrite ES, !app_length; lia).
  assert (NP : few Q (length part)) by (eapply few_le; [exact LP|exact N]).
  assert (CP : (closes part <= closes segs)%nat) by (rewrite ES, !closes_app; lia).
  destruct (run_sane g fuel search ints Q GB RQ _ _ _ _ _ _ RO FST SP2 GD) as [SA LE].
  assert (NM : few Q (length (map snd pl))) by (rewrite map_length; eapply few_le; [exact LE|exact NP]).
  assert (NE2 : map snd pl <> []) by (destruct pl; [congruence|discriminate]).
  destruct (lengths Q RQ (map snd pl) SA NM) as [FL BL].
  destruct (C81_joined g (map snd pl) l NE2 J) as [LL _].
  destruct WX as (px & dx & VX & ->). destruct WY as (py & dy & VY & ->). rewrite VX in VY. injection VY as <- <-.
  unfold curve_ticks in HK. rewrite LL in *.
  assert (BH : B2R (length_of (map snd pl)) <= huge).
  { eapply Rle_trans; [apply BL|]. apply count_huge; assumption. }
  destruct (place_bounds (length_of (map snd pl)) (fround (fdiv (length_of (map snd pl)) v)) k FL (conj (proj1 BL) BH)
    (proj1 HK) (proj2 HK)) as [FP BP].
  destruct (run_value g fuel search ints Q GB RQ start part pl q' y l _ px dx FG RO FST SP2 GD NP NEP J FP BP VX)
    as (r1 & seg & r2 & t & z & EP & NG & HT & DR & BZ & WZ).
  exists z. split.
  - exists (s1 ++ r1), seg, (r2 ++ s2), t. split; [|split; [exact NG|split; [exact HT|]]].
    + rewrite ES, EP, <- !app_assoc. reflexivity.
    + rewrite pen_app, <- EST. exact DR.
  - set (E := (3120 * INR (length part) + 730) * (u53 * Q) + 4 / 1000000 * INR (closes part)) in *.
    pose proof u53_pos as [U0 U1]. pose proof (few_u Q RQ _ NP) as UN.
    pose proof (le_INR _ _ LP) as LPR. pose proof (le_INR _ _ CP) as CPR. pose proof (pos_INR (closes part)) as C0.
    assert (UQ : 0 <= u53 * Q) by (apply Rmult_le_pos; lra).
    assert (N1 : 1 <= INR (length part)) by (apply (le_INR 1); rewrite EP, app_length; cbn [length]; lia).
    assert (UQ1 : u53 * Q <= INR (length part) * (u53 * Q)) by (rewrite <- (Rmult_1_l (u53 * Q)) at 1; apply Rmult_le_compat_r; assumption).
    assert (CQ : INR (closes part) <= 65536 * Q) by (destruct NP as [_ NP]; pose proof (le_INR _ _ (closes_le part)); lra).
    assert (BE : 0 <= E <= 2 * Q).
    { unfold E. replace ((3120 * INR (length part) + 730) * (u53 * Q)) with (3120 * (INR (length part) * (u53 * Q)) + 730 * (u53 * Q)) by ring. lra. }
    assert (EE : E + 8 * (u53 * Q) <= (3120 * INR (length segs) + 738) * Q / 2 ^ 53 + 4 / 10 ^ 6 * INR (closes segs)).
    { unfold E. replace ((3120 * INR (length segs) + 738) * Q / 2 ^ 53) with ((3120 * INR (length segs) + 738) * (u53 * Q))
        by (rewrite u53_is; unfold Rdiv; ring).
      replace (10 ^ 6) with 1000000 by (cbn [pow]; ring).
      assert (INR (length part) * (u53 * Q) <= INR (length segs) * (u53 * Q)) by (apply Rmult_le_compat_r; assumption). lra. }
    destruct WZ as (F1 & F2 & X1 & Y1). destruct BZ as [BZ1 BZ2]. cbn [fvadd fx fy] in F1, F2, X1, Y1.
    assert (GO : forall at1 x i ei r, is_finite x = true -> Rabs (B2R x - r) <= E -> Rabs r <= 2 * Q ->
      (Z.abs (at1 - f_as_i64 (fmul x (step_scale s i))) <= ei)%Z ->
      Rabs (IZR at1 - B2R (step_scale s i) * r) <= IZR ei + 1 + Rabs (B2R (step_scale s i)) *
        ((3120 * INR (length segs) + 738) * Q / 2 ^ 53 + 4 / 10 ^ 6 * INR (closes segs))).
    { intros at1 x i ei r Fx Hx Hr HZ. destruct (SC' i) as [FSC BSC].
      pose proof (steps_near x (step_scale s i) r E Q RQ Fx FSC Hx Hr BE BSC) as SN.
      apply IZR_le in HZ. rewrite abs_IZR, minus_IZR in HZ.
      assert (M : Rabs (B2R (step_scale s i)) * (E + 8 * (u53 * Q)) <= Rabs (B2R (step_scale s i)) *
        ((3120 * INR (length segs) + 738) * Q / 2 ^ 53 + 4 / 10 ^ 6 * INR (closes segs))).
      { apply Rmult_le_compat_l; [apply Rabs_pos|exact EE]. }
      replace (IZR at1 - B2R (step_scale s i) * r) with ((IZR at1 - IZR (f_as_i64 (fmul x (step_scale s i)))) +
        (IZR (f_as_i64 (fmul x (step_scale s i))) - B2R (step_scale s i) * r)) by ring.
      eapply Rle_trans; [apply Rabs_triang|].
      set (K := Rabs (B2R (step_scale s i)) * ((3120 * INR (length segs) + 738) * Q / 2 ^ 53 + 4 / 10 ^ 6 * INR (closes segs))) in *.
      clearbody K. lra. }
    intros []; cbn [coord].
    + eapply GO; [exact F1|exact X1|exact BZ1|exact EZX].
    + eapply GO; [exact F2|exact Y1|exact BZ2|exact EZY].
Qed.

(** Wherever the laser burns, the machine is near a point of the figure. *)
Theorem C103_laser : forall ax ay vmx vmy ops c g s segs v c' ex ey fuel search ints Q D w u,
  history code (new_ctx ax ay vmx vmy) ops c -> segs <> [] -> draw_curves g s c segs v = Ok (c', (ex, ey)) ->
  (forall i, ticks_of c' i < u64_max)%Z ->
  (* the parts of the program that are parameters of the model *)
  g_bezier g = fbezier fuel search ints -> finds (g_find g) -> lengths_sane g s v Q (begin_drawing s c) segs ->
  (* sizes *)
  1 <= Q <= 2 ^ 300 -> fits Q (machine_place s c) -> Forall (sized g Q) segs -> places_fit g s v Q (begin_drawing s c) segs ->
  INR (length segs) <= 2 ^ 40 -> INR (length segs) <= 65536 * Q ->
  (forall i, is_finite (step_scale s i) = true /\ Rabs (B2R (step_scale s i)) * (8 * Q) <= 2 ^ 62) ->
  (* moves *)
  (forall i, 0 <= D i) -> gotos_near g s v D (begin_drawing s c) segs ->
  (* the laser burns at tick [u] of the drawing *)
  (ticks_of c AX <= u)%Z -> m_weight (play (events c') u (machine0 w)) <> 0%Z ->
  exists z, figure (rv (machine_place s c)) (map rs segs) z /\
    forall i, Rabs (IZR (s_pos (machine_axis (play (events c') (u + 1) (machine0 w)) i)) - B2R (step_scale s i) * coord z i)
      <= IZR (match i with AX => ex | AY => ey end) + 1 +
         Rabs (B2R (step_scale s i)) * (D i + (3200 * INR (length segs) + 738) * Q / 2 ^ 53 + 4 / 10 ^ 6 * INR (closes segs)).
Proof.
  intros ax ay vmx vmy ops c g s segs v c' ex ey fuel search ints Q D w u H NE DC Hm GB FG LS HQ FM SZ PF N1 N2 SC D0 GN HU HW.
  assert (RQ : 1 <= Q <= reach).
  { unfold reach. rewrite bpow_powerRZ. cbn [powerRZ]. replace (Pos.to_nat 300) with 300%nat by reflexivity. exact HQ. }
  clear HQ.
  assert (N : few Q (length segs)).
  { split; [|exact N2]. rewrite bpow_powerRZ. cbn [powerRZ]. replace (Pos.to_nat 40) with 40%nat by reflexivity. exact N1. }
  clear N1 N2.
  assert (SC' : forall i, is_finite (step_scale s i) = true /\ Rabs (B2R (step_scale s i)) * (8 * Q) <= bpow radix2 62).
  { intros i. rewrite bpow_powerRZ. cbn [powerRZ]. replace (Pos.to_nat 62) with 62%nat by reflexivity. apply SC. }
  clear SC.
  destruct (draw_curves_loop _ _ _ _ _ _ _ NE DC) as (d & c1 & er & L & L1 & L2 & L3).
  assert (C0 : close_to (fun i => D i + 0) (rv (d_pos (begin_drawing s c))) (rv (machine_place s c))).
  { intros i. cbn [begin_drawing d_pos]. rewrite Rminus_diag_eq by reflexivity. rewrite Rabs_R0. pose proof (D0 i). lra. }
  destruct (thin g s v Q D segs _ d _ 0 RQ D0 (Rle_refl 0) L SZ GN LS PF FM C0) as (segs' & A1 & A2 & A3 & A4 & A5 & A6 & A7 & A8).
  pose proof (lengths_from _ _ _ _ _ _ _ A1 A2 A6) as LO. pose proof (pens_from _ _ _ _ _ _ _ A1 A2 A7 FM A5) as PN.
  destruct (laser_strict _ _ _ _ _ _ _ _ _ _ _ _ _ _ ex ey _ _ _ Q w u H A1 L1 L2 L3 Hm GB FG LO RQ PN A5
    (few_le _ _ _ A3 N) SC' A2 HU HW) as (z & F & B).
  destruct (A8 z F) as (z' & F' & C'). exists z'. split; [exact F'|]. intros i. specialize (B i). specialize (C' i). cbv beta in C'.
  apply le_INR in A3, A4.
  set (S := Rabs (B2R (step_scale s i))) in *. assert (S0 : 0 <= S) by apply Rabs_pos.
  set (NU := INR (length segs) * (u53 * Q)) in *.
  assert (SD : Rabs (B2R (step_scale s i) * coord z i - B2R (step_scale s i) * coord z' i) <= S * (D i + 0 + 20 * NU)).
  { rewrite <- Rmult_minus_distr_l, Rabs_mult. fold S. apply Rmult_le_compat_l; assumption. }
  assert (M : S * ((3120 * INR (length segs') + 738) * Q / 2 ^ 53 + 4 / 10 ^ 6 * INR (closes segs')) + S * (D i + 0 + 20 * NU) <=
              S * (D i + (3200 * INR (length segs) + 738) * Q / 2 ^ 53 + 4 / 10 ^ 6 * INR (closes segs))).
  { rewrite <- Rmult_plus_distr_l. apply Rmult_le_compat_l; [exact S0|].
    assert (U0 : 0 <= u53 * Q) by (pose proof u53_pos; apply Rmult_le_pos; lra).
    replace ((3120 * INR (length segs') + 738) * Q / 2 ^ 53) with (3120 * (INR (length segs') * (u53 * Q)) + 738 * (u53 * Q))
      by (rewrite u53_is; unfold Rdiv; ring).
    replace ((3200 * INR (length segs) + 738) * Q / 2 ^ 53) with (3200 * NU + 738 * (u53 * Q))
      by (unfold NU; rewrite u53_is; unfold Rdiv; ring).
    assert (INR (length segs') * (u53 * Q) <= NU) by (apply Rmult_le_compat_r; assumption).
    assert (4 / 10 ^ 6 * INR (closes segs') <= 4 / 10 ^ 6 * INR (closes segs)) by (apply Rmult_le_compat_l; [cbn [pow]; lra|exact A4]).
    assert (0 <= NU) by (apply Rmult_le_pos; [apply pos_INR|exact U0]). lra. }
  match type of M with ?a + ?b <= ?c => set (MA := a) in *; set (MC := b) in *; set (MB := c) in * end. clearbody MA MB MC.
  match type of B with Rabs (?p - ?q) <= _ => set (X := p) in *; set (Y := q) in * end.
  set (Y' := B2R (step_scale s i) * coord z' i) in *.
  replace (X - Y') with ((X - Y) + (Y - Y')) by ring. eapply Rle_trans; [apply Rabs_triang|]. lra.
Qed.

(** A straight Bezier curve, a bend, and a line elsewhere. *)
Lemma first_ge_finds : finds first_ge.
Proof.
  intros keys x. induction keys as [|y r IH]; intros i F Fx S H; cbn [first_ge] in H.
  - injection H as <-. split; [cbn; lia|]. intros [|j] z K; discriminate K.
  - inversion F as [|? ? Fy Fr]; subst. destruct (flt y x) eqn:E.
    + apply bind_Ok in H. destruct H as (i' & H & E'). injection E' as <-.
      assert (E1 : B2R y < B2R x) by (apply fgt_spec; [assumption..|exact E]).
      destruct (IH i' Fr Fx ltac:(intros j a b A B; exact (S (Datatypes.S j) a b A B)) H) as [L K].
      split; [cbn [length]; lia|]. intros [|j] z Z.
      * cbn in Z. injection Z as <-. split; [lra|lia].
      * destruct (K j z Z) as [K1 K2]. split; intros; [apply K1; lia|apply K2; lia].
    + destruct (fle x y) eqn:E2; [|discriminate H]. injection H as <-. split; [lia|].
      assert (UP : forall j z, nth_error (y :: r) j = Some z -> B2R x <= B2R z).
      { induction j as [|j IHj]; intros z Z.
        - cbn in Z. injection Z as <-. apply fle_spec; assumption.
        - destruct (nth_error (y :: r) j) as [w|] eqn:W.
          + specialize (IHj w eq_refl). specialize (S j w z W Z). lra.
          + apply nth_error_None in W. assert (K : nth_error (y :: r) (Datatypes.S j) <> None) by congruence.
            apply nth_error_Some in K. lia. }
      intros j z Z. split; [lia|]. intros _. exact (UP j z Z).
Qed.

Definition C103_tables (_ _ _ : fvec) : list (list f64) := map (fun s => [fmul (f_of_Z 1500) s; f_of_Z 1500]) fstarts.
Definition C103_geometry : geometry := mk_geometry (fbezier 50 scan C103_tables) (fun _ _ _ => Panic) first_ge.
Definition C103_segments : list segment :=
  [SGoTo (pt 0 0); SCurveTo (pt 1500 0) (pt 500 0) (pt (-500) 0); SLineTo (pt 1500 500); SGoTo (pt 0 3000); SLineTo (pt 0 4000)].

Lemma pt_fits : forall x y, (Z.abs x <= 4000)%Z -> (Z.abs y <= 4000)%Z -> fits 4000 (pt x y).
Proof.
  intros x y Hx Hy. destruct (f_of_Z_exact x ltac:(lia)) as [A B]. destruct (f_of_Z_exact y ltac:(lia)) as [C D].
  split; [split; assumption|]. split; cbn [pt rv vx vy fx fy]; [rewrite B|rewrite D]; rewrite <- abs_IZR; apply IZR_le; assumption.
Qed.

Example C103_example : exists c',
  draw_curves C103_geometry sc1 laser C103_segments (f_of_Z 40) = Ok (c', (2, 3)%Z) /\
  (forall i, ticks_of c' i < u64_max)%Z /\
  finds (g_find C103_geometry) /\ lengths_sane C103_geometry sc1 (f_of_Z 40) 4000 (begin_drawing sc1 laser) C103_segments /\
  fits 4000 (machine_place sc1 laser) /\ Forall (sized C103_geometry 4000) C103_segments /\
  places_fit C103_geometry sc1 (f_of_Z 40) 4000 (begin_drawing sc1 laser) C103_segments /\
  (forall i, is_finite (step_scale sc1 i) = true /\ Rabs (B2R (step_scale sc1 i)) * (8 * 4000) <= 2 ^ 62) /\
  gotos_near C103_geometry sc1 (f_of_Z 40) (fun _ => 0) (begin_drawing sc1 laser) C103_segments /\
  m_weight (play (events c') 49 (machine0 0)) = 100%Z /\
  (s_pos (m_x (play (events c') 50 (machine0 0))), s_pos (m_y (play (events c') 50 (machine0 0)))) = (1500, 79)%Z.
Proof.
  eexists. split; [vm_compute; reflexivity|]. split; [intros []; vm_compute; reflexivity|]. split; [exact first_ge_finds|].
  split; [|split; [|split; [|split; [apply no_arc_places; reflexivity|split; [|split; [|split; vm_compute; reflexivity]]]]]].
  - intros s1 e c1 c2 s2 d curve E L.
    assert (E1 : s1 = [SGoTo (pt 0 0)] /\ e = pt 1500 0 /\ c1 = pt 500 0 /\ c2 = pt (-500) 0).
    { unfold C103_segments in E. destruct s1 as [|a s1]; cbn [app] in E; [discriminate E|injection E as <- E].
      destruct s1 as [|a s1]; cbn [app] in E; [injection E as <- <- <- _; auto|]. injection E as _ E.
      repeat (destruct s1 as [|? s1]; cbn [app] in E; [discriminate E|injection E as _ E]).
      destruct s1; discriminate E. }
    destruct E1 as (-> & -> & -> & ->).
    assert (EP : d_pos d = machine_place sc1 laser).
    { cbn [draw_loop] in L. apply bind_Ok in L. destruct L as (d1 & L & L'). injection L' as <-.
      apply step_stays in L; [subst d1; reflexivity|split; vm_compute; reflexivity]. }
    rewrite EP. cbv zeta. intros B.
    assert (C : match fbezier 50 scan C103_tables (pt 500 0) (fvadd (fvsub (pt 1500 0) (machine_place sc1 laser)) (pt (-500) 0))
        (fvsub (pt 1500 0) (machine_place sc1 laser)) with
      | Ok c => is_finite (fc_length c) && fgt (fc_length c) fzero && fle (fc_length c) (f_of_Z 1500) | _ => false end = true)
      by (vm_compute; reflexivity).
    cbn [C103_geometry g_bezier] in B. rewrite B in C. apply andb_true_iff in C. destruct C as [C C3].
    apply andb_true_iff in C. destruct C as [C1 C2]. destruct zero_value as [Fz Vz]. destruct (f_of_Z_exact 1500 ltac:(lia)) as [F5 V5].
    apply fgt_spec in C2; [|assumption..]. apply fle_spec in C3; [|assumption..]. rewrite Vz in C2. rewrite V5 in C3.
    split; [exact C1|lra].
  - assert (E : machine_place sc1 laser = mk_fvec (B754_zero false) (B754_zero false)) by (vm_compute; reflexivity).
    rewrite E. split; [split; reflexivity|]. split; cbn [rv vx vy fx fy B2R]; rewrite Rabs_R0; lra.
  - unfold C103_segments. repeat (apply Forall_cons;
      [cbn [sized]; first [apply pt_fits; lia | split; [|split]; apply pt_fits; lia]|]). apply Forall_nil.
  - intros i. destruct (f_of_Z_exact 1 ltac:(lia)) as [F V].
    assert (E : step_scale sc1 i = f_of_Z 1) by (destruct i; reflexivity). rewrite E, V.
    split; [exact F|]. rewrite Rabs_R1. cbn [pow]. lra.
  - intros s0 p s1 d E L.
    assert (E1 : s0 = [] /\ p = pt 0 0 \/ s0 = firstn 3 C103_segments /\ p = pt 0 3000).
    { unfold C103_segments in *. destruct s0 as [|a s0]; cbn [app] in E; [injection E as <- _; auto|]. injection E as <- E.
      destruct s0 as [|b s0]; cbn [app] in E; [discriminate E|]. injection E as <- E.
      destruct s0 as [|b s0]; cbn [app] in E; [discriminate E|]. injection E as <- E.
      destruct s0 as [|b s0]; cbn [app] in E; [injection E as <- _; auto|]. injection E as _ E.
      destruct s0 as [|? s0]; cbn [app] in E; [discriminate E|injection E as _ E]. destruct s0; discriminate E. }
    destruct E1 as [[-> ->]|[-> ->]].
    { intros _ i. injection L as <-. cbn [begin_drawing d_pos].
      assert (EM : machine_place sc1 laser = mk_fvec (B754_zero false) (B754_zero false)) by (vm_compute; reflexivity).
      assert (EZ : pt 0 0 = mk_fvec (B754_zero false) (B754_zero false)) by (vm_compute; reflexivity).
      rewrite EM, EZ. rewrite Rminus_diag_eq by reflexivity. rewrite Rabs_R0. lra. }
    assert (C : match draw_loop C103_geometry sc1 (f_of_Z 40) (begin_drawing sc1 laser) (firstn 3 C103_segments) with
      | Ok d => negb (c_pos (channel (d_ctx d) AX) =? 0)%Z | _ => false end = true) by (vm_compute; reflexivity).
    rewrite L in C. intros [K _]. exfalso. assert (T : to_steps sc1 (fx (pt 0 3000)) AX = Ok 0%Z) by (vm_compute; reflexivity).
    rewrite T in K. assert (K0 : c_pos (channel (d_ctx d) AX) = 0%Z) by congruence. rewrite K0 in C. discriminate C.
Qed.

(** ** C104: from the commands of a path to the burned line *)

Lemma drawn_within : forall E p p' s r t z, 0 <= E -> close_to (fun _ => E) p p' -> segment_within E s r -> 0 <= t <= 1 ->
  traced p (rs s) t = Some z -> exists z', traced p' r t = Some z' /\ close_to (fun _ => 3 * E) z z'.
Proof.
  intros E p p' s r t z E0 C W Ht H.
  assert (L : forall x x' e e', Rabs (x - x') <= E -> Rabs (e - e') <= E -> Rabs (x + (e - x) * t - (x' + (e' - x') * t)) <= 3 * E).
  { intros x x' e e' Hx He. replace (_ - _) with ((x - x') * (1 - t) + (e - e') * t) by ring.
    eapply Rle_trans; [apply Rabs_triang|]. rewrite !Rabs_mult, (Rabs_pos_eq (1 - t)), (Rabs_pos_eq t) by lra.
    pose proof (Rabs_pos (x - x')). pose proof (Rabs_pos (e - e')). nra. }
  assert (B : forall x x' a a' b b' e e', Rabs (x - x') <= E -> Rabs (a - a') <= 2 * E -> Rabs (b - b') <= 2 * E -> Rabs (e - e') <= E ->
    Rabs (x * ((1 - t) * (1 - t) * (1 - t)) + (x + a) * (3 * t * ((1 - t) * (1 - t))) +
          ((e + b) * (3 * (t * t) * (1 - t)) + e * (t * t * t)) -
          (x' * ((1 - t) * (1 - t) * (1 - t)) + (x' + a') * (3 * t * ((1 - t) * (1 - t))) +
          ((e' + b') * (3 * (t * t) * (1 - t)) + e' * (t * t * t)))) <= 3 * E).
  { intros x x' a a' b b' e e' Hx Ha Hb He.
    set (w0 := (1 - t) * (1 - t) * (1 - t)). set (w1 := 3 * t * ((1 - t) * (1 - t))). set (w2 := 3 * (t * t) * (1 - t)). set (w3 := t * t * t).
    assert (W0 : 0 <= w0) by (unfold w0; repeat apply Rmult_le_pos; lra).
    assert (W1 : 0 <= w1) by (unfold w1; repeat apply Rmult_le_pos; lra).
    assert (W2 : 0 <= w2) by (unfold w2; repeat apply Rmult_le_pos; lra).
    assert (W3 : 0 <= w3) by (unfold w3; repeat apply Rmult_le_pos; lra).
    assert (WS : w0 + w1 + w2 + w3 = 1) by (unfold w0, w1, w2, w3; ring). clearbody w0 w1 w2 w3.
    replace (_ - _) with ((x - x') * (w0 + w1) + (a - a') * w1 + (b - b') * w2 + (e - e') * (w2 + w3)) by ring.
    assert (M : forall y c w, 0 <= w -> Rabs y <= c -> Rabs (y * w) <= c * w).
    { intros y c w Hw Hy. rewrite Rabs_mult, (Rabs_pos_eq w Hw). apply Rmult_le_compat_r; assumption. }
    pose proof (M _ _ (w0 + w1) ltac:(lra) Hx). pose proof (M _ _ w1 W1 Ha). pose proof (M _ _ w2 W2 Hb). pose proof (M _ _ (w2 + w3) ltac:(lra) He).
    pose proof (Rabs_triang ((x - x') * (w0 + w1) + (a - a') * w1 + (b - b') * w2) ((e - e') * (w2 + w3))).
    pose proof (Rabs_triang ((x - x') * (w0 + w1) + (a - a') * w1) ((b - b') * w2)).
    pose proof (Rabs_triang ((x - x') * (w0 + w1)) ((a - a') * w1)).
    assert (w1 + w2 <= 1) by lra. assert (E * (w1 + w2) <= E * 1) by (apply Rmult_le_compat_l; lra).
    assert (EQ : E * (w0 + w1) + 2 * E * w1 + 2 * E * w2 + E * (w2 + w3) = E * (w0 + w1 + w2 + w3) + 2 * (E * (w1 + w2))) by ring.
    rewrite WS in EQ. lra. }
  pose proof (C AX) as CX. pose proof (C AY) as CY. cbn [coord] in CX, CY.
  destruct s as [q|q|q|q a b|]; destruct r as [q'|q'|q'|q' a' b'|]; cbn [segment_within] in W; try contradiction;
    cbn [rs traced drawn] in *; injection H as <-; eexists; (split; [reflexivity|]); intros i.
  1-3: destruct W as (_ & _ & W1 & W2); destruct i; cbn [coord vadd vscale vsub vx vy rv]; apply L; assumption.
  destruct W as ((_ & _ & W1 & W2) & (_ & _ & A1 & A2) & (_ & _ & B1 & B2)).
  destruct i; cbn [coord vadd vscale vsub vx vy rv bernstein3]; apply B; assumption.
Qed.

Lemma pen_close : forall E segs rsegs, Forall2 (segment_within E) segs rsegs -> forall p p', close_to (fun _ => E) p p' ->
  close_to (fun _ => E) (pen p (map rs segs)) (pen p' rsegs).
Proof.
  intros E segs rsegs H. induction H as [|s r segs rsegs W H IH]; intros p p' C; [exact C|].
  cbn [map pen fold_left]. apply IH.
  destruct s as [q|q|q|q a b|]; destruct r as [q'|q'|q'|q' a' b'|]; cbn [segment_within] in W; try contradiction; cbn [rs].
  1-3: destruct W as (_ & _ & W1 & W2); intros []; cbn [coord rv vx vy]; assumption.
  destruct W as ((_ & _ & W1 & W2) & _); intros []; cbn [coord rv vx vy]; assumption.
Qed.

Lemma figure_within : forall E segs rsegs p p' z, 0 <= E -> Forall2 (segment_within E) segs rsegs -> close_to (fun _ => E) p p' ->
  figure p (map rs segs) z -> exists z', figure p' rsegs z' /\ close_to (fun _ => 3 * E) z z'.
Proof.
  intros E segs rsegs p p' z E0 F C (s1 & y & s2 & t & EQ & NG & HT & DR).
  assert (SP : exists a x b, segs = a ++ x :: b /\ map rs a = s1 /\ rs x = y /\ map rs b = s2).
  { clear - EQ. revert s1 EQ. induction segs as [|x r IH]; intros [|y1 s1] EQ; cbn [map app] in EQ; try discriminate EQ; injection EQ as E1 EQ.
    - exists [], x, r. auto.
    - destruct (IH _ EQ) as (a & x' & b & -> & A & B & C). exists (x :: a), x', b. cbn [map]. rewrite A, E1. auto. }
  destruct SP as (a & x & b & -> & <- & <- & <-).
  apply Forall2_app_inv_l in F. destruct F as (ra & rr & FA & FR & ->). inversion FR as [|? r ? rb FX FB]; subst.
  destruct (drawn_within E _ (pen p' ra) x r t z E0 (pen_close _ _ _ FA _ _ C) FX HT DR) as (z' & DR' & CZ).
  exists z'. split; [|exact CZ]. exists ra, r, rb, t. split; [reflexivity|]. split; [|auto].
  intros m ->. destruct x; cbn [segment_within] in FX; try contradiction. exact (NG _ eq_refl).
Qed.

Lemma figure_goto : forall q l p p' z, figure p (GoTo q :: l) z -> figure p' (GoTo q :: l) z.
Proof.
  intros q l p p' z (s1 & y & s2 & t & EQ & NG & HT & DR). destruct s1 as [|y1 s1]; cbn [app] in EQ; injection EQ as <- EQ.
  - exfalso. exact (NG q eq_refl).
  - exists (GoTo q :: s1), y, s2, t. split; [cbn [app]; rewrite EQ; reflexivity|auto].
Qed.

(** Arcs are carried to arcs of another kind. *)
Definition no_arc (s : curve_segment) : Prop := match s with Arc _ _ _ _ _ => False | _ => True end.

Lemma pen_transform : forall tr l p, Forall no_arc l -> pen (tapply tr p) (map (fun s => segment_transform s tr) l) = tapply tr (pen p l).
Proof.
  intros tr. induction l as [|s r IH]; intros p F; [reflexivity|]. inversion F as [|? ? N F']; subst. cbn [map pen fold_left] in *.
  destruct s; cbn [segment_transform]; try (apply IH; exact F'). contradiction.
Qed.

Lemma traced_drawn : forall s p t, no_arc s -> traced p s t = drawn p s t.
Proof. intros s p t H. destruct s; cbn [no_arc] in H; try contradiction; reflexivity. Qed.

Lemma drawn_transform_inv : forall s tr p t q', no_arc s -> traced (tapply tr p) (segment_transform s tr) t = Some q' ->
  exists q, traced p s t = Some q /\ q' = tapply tr q.
Proof.
  intros s tr p t q' N H. rewrite traced_drawn in H by (destruct s; [exact I..|contradiction]). rewrite traced_drawn by exact N.
  destruct (drawn p s t) as [q|] eqn:E.
  - exists q. split; [reflexivity|]. rewrite (C45_points _ _ _ _ _ E) in H. congruence.
  - destruct s; cbn [segment_transform] in H; try discriminate. contradiction.
Qed.

Lemma figure_transform : forall tr l p z', Forall no_arc l -> figure (tapply tr p) (map (fun s => segment_transform s tr) l) z' ->
  exists z, figure p l z /\ z' = tapply tr z.
Proof.
  intros tr l p z' F (s1 & y & s2 & t & EQ & NG & HT & DR).
  assert (SP : exists a x b, l = a ++ x :: b /\ map (fun s => segment_transform s tr) a = s1 /\ segment_transform x tr = y).
  { clear - EQ. revert s1 EQ. induction l as [|x r IH]; intros [|y1 s1] EQ; cbn [map app] in EQ; try discriminate EQ; injection EQ as E1 EQ.
    - exists [], x, r. auto.
    - destruct (IH _ EQ) as (a & x' & b & -> & A & B). exists (x :: a), x', b. cbn [map]. rewrite A, E1. auto. }
  destruct SP as (a & x & b & -> & <- & <-). apply Forall_app in F. destruct F as [FA FX]. inversion FX as [|? ? NX _]; subst.
  rewrite pen_transform in DR by exact FA.
  destruct (drawn_transform_inv _ _ _ _ _ NX DR) as (z & DZ & ->). exists z. split; [|reflexivity].
  exists a, x, b, t. split; [reflexivity|]. split; [|auto]. intros m ->. exact (NG _ eq_refl).
Qed.

Lemma within_no_arc : forall E tr segs l, Forall2 (segment_within E) segs (map (fun s => segment_transform s tr) l) ->
  forallb (fun x => negb (is_arc x)) segs = true /\ Forall no_arc l.
Proof.
  intros E tr segs. induction segs as [|x r IH]; intros [|y l] H; inversion H as [|? ? ? ? W H']; subst; [split; [reflexivity|constructor]|].
  destruct (IH l H') as [A B]. split.
  - cbn [forallb]. rewrite A, andb_true_r. destruct x; try reflexivity. destruct (segment_transform y tr); contradiction W.
  - constructor; [|exact B]. destruct y; try exact I. cbn [segment_transform] in W. destruct (decompose tr) as [[[[? ?] ?] ?] ?].
    destruct x; contradiction W.
Qed.

(** C104 for arguments that are already off by [w - 2] units. *)
Lemma laser_commands : forall tg w cmds rcs tr S T P pc segs ax ay vmx vmy ops c g s v c' ex ey fuel search ints D wt u, 2 <= w <= 32 ->
  (* the path is built in binary64 under the transform [tr] *)
  Forall (fun m => is_finite m = true /\ Rabs (B2R m) <= S) [fm0 tr; fm1 tr; fm2 tr; fm3 tr] ->
  Forall (fun m => is_finite m = true /\ Rabs (B2R m) <= T) [fm4 tr; fm5 tr] ->
  cmds_ok w P cmds rcs -> no_arcs rcs -> 1 <= P ->
  Forall (fun cmd => Forall (fun a => Rabs a <= P) (snd cmd)) (absolute (mk_vec 0 0) (mk_vec 0 0) true rcs) ->
  fbuild_commands tg fpath_ctx_new cmds tr true = Ok (Some (pc, segs)) -> (exists q r, segs = SGoTo q :: r) ->
  let n := list_sum (map (fun cmd => length (snd cmd)) cmds) in
  let Q := 2 * S * P + T + 1 in
  P <= 2 ^ 900 -> 3 * Q <= 2 ^ 300 -> INR n <= 2 ^ 40 -> INR (length segs) <= 2 ^ 40 -> INR (length segs) <= 65536 * Q ->
  (* and drawn by a machine in a state reached by the program *)
  history code (new_ctx ax ay vmx vmy) ops c -> draw_curves g s c segs v = Ok (c', (ex, ey)) -> (forall i, ticks_of c' i < u64_max)%Z ->
  g_bezier g = fbezier fuel search ints -> finds (g_find g) -> lengths_sane g s v (3 * Q) (begin_drawing s c) segs ->
  fits (3 * Q) (machine_place s c) ->
  (forall i, is_finite (step_scale s i) = true /\ Rabs (B2R (step_scale s i)) * (24 * Q) <= 2 ^ 62) ->
  (forall i, 0 <= D i) -> gotos_near g s v D (begin_drawing s c) segs ->
  (* when the laser burns, the machine is near the image of a point of the path *)
  (ticks_of c AX <= u)%Z -> m_weight (play (events c') u (machine0 wt)) <> 0%Z ->
  exists rc rsegs z, build_commands path_ctx_new rcs tidentity true = Ok (Some (rc, rsegs)) /\ figure (mk_vec 0 0) rsegs z /\
    forall i, Rabs (IZR (s_pos (machine_axis (play (events c') (u + 1) (machine0 wt)) i)) - B2R (step_scale s i) * coord (tapply (rtr tr) z) i)
      <= IZR (match i with AX => ex | AY => ey end) + 1 + Rabs (B2R (step_scale s i)) *
         (D i + (9600 * INR (length segs) + 3 * w * INR n + 2262) * Q / 2 ^ 53 + 4 / 10 ^ 6 * INR (closes segs)).
Proof.
  intros tg w cmds rcs tr S T P pc segs ax ay vmx vmy ops c g s v c' ex ey fuel search ints D wt u Hw H1 H2 H3 H4 H5 H6 FB (q & rest & SG) n Q
    PH BQ BN BL BL2 H DC Hm GB FG LS FM SC D0 GN HU HW.
  assert (S0 : 0 <= S) by (inversion H1 as [|? ? [_ A] _]; subst; eapply Rle_trans; [apply Rabs_pos|exact A]).
  assert (T0 : 0 <= T) by (inversion H2 as [|? ? [_ A] _]; subst; eapply Rle_trans; [apply Rabs_pos|exact A]).
  assert (Q1 : 1 <= Q) by (unfold Q; assert (0 <= S * P) by (apply Rmult_le_pos; lra); lra).
  assert (BP : bpow radix2 300 = 2 ^ 300) by (rewrite bpow_powerRZ; cbn [powerRZ]; replace (Pos.to_nat 300) with 300%nat by reflexivity; reflexivity).
  assert (BH : 3 * Q <= huge).
  { rewrite <- BP in BQ. eapply Rle_trans; [exact BQ|]. apply bpow_le. lia. }
  assert (N0 : 0 <= INR n) by apply pos_INR.
  assert (HS : setting S T P tr).
  { constructor; [split; assumption|split; [exact H5|rewrite huge_is; exact PH]|]. unfold Qof. fold Q. lra. }
  assert (Z0 : B2R fzero = 0) by (vm_compute; reflexivity).
  assert (NZ : nv 0 P fvzero (mk_vec 0 0)).
  { unfold fvzero. split; cbn [fx fy vx vy]; (split; [reflexivity|]); rewrite Z0, Rminus_0_r, Rabs_R0, Rmult_0_l; lra. }
  assert (BZ : box P (mk_vec 0 0)) by (split; cbn [vx vy]; rewrite Rabs_R0; lra).
  assert (CN : ctx_near 0 P fpath_ctx_new path_ctx_new) by (split; [|split; [|split]]; assumption).
  pose proof (commands_near tg w S T P tr ltac:(lra) HS cmds rcs fpath_ctx_new path_ctx_new true 0) as G. cbv zeta in G.
  assert (TN : total cmds = INR n) by reflexivity. rewrite !TN in G.
  assert (WN : 0 <= w * INR n <= 32 * 2 ^ 40) by (split; [apply Rmult_le_pos; lra|apply Rmult_le_compat; lra]).
  specialize (G H3 ltac:(lra) ltac:(unfold many; clear - WN; cbn [pow] in WN; lra) H4 CN H6).
  unfold out_near in G. rewrite FB in G.
  rewrite (C45_transform rcs path_ctx_new (rtr tr) true H4) in G.
  destruct (build_commands path_ctx_new rcs tidentity true) as [[[rc rsegs]|]| |] eqn:RB; try contradiction.
  destruct G as [_ G]. fold Q in G. unfold Qof in G. fold Q in G. set (k := 0 + w * INR n + 16) in *.
  set (E := k * (u53 * Q)). pose proof u53_pos as [U0 U1].
  assert (K0 : 0 <= k) by (unfold k; lra).
  assert (KU : k * u53 <= / 4).
  { assert (KB : k <= 2 ^ 50) by (unfold k; clear - WN; cbn [pow] in *; lra). rewrite u53_is.
    apply Rle_trans with (2 ^ 50 * / 2 ^ 53); [apply Rmult_le_compat_r; [apply Rlt_le, Rinv_0_lt_compat, pow_lt; lra|exact KB]|].
    cbn [pow]. lra. }
  assert (E1 : 0 <= E <= Q / 4).
  { unfold E. split; [apply Rmult_le_pos; [exact K0|apply Rmult_le_pos; lra]|]. rewrite <- Rmult_assoc.
    apply Rle_trans with (/ 4 * Q); [apply Rmult_le_compat_r; lra|lra]. }
  assert (SZ : Forall (sized g (3 * Q)) segs).
  { clear - G E1 Q1. assert (FV : forall a b kk qq, kk * (u53 * qq) + qq <= 3 * Q -> nv kk qq a b -> box qq b -> fits (3 * Q) a).
    { intros a b kk qq LE [[F1 A1] [F2 A2]] [B1 B2]. split; [split; assumption|]. split; cbn [rv vx vy].
      - replace (B2R (fx a)) with ((B2R (fx a) - vx b) + vx b) by ring. eapply Rle_trans; [apply Rabs_triang|]. lra.
      - replace (B2R (fy a)) with ((B2R (fy a) - vy b) + vy b) by ring. eapply Rle_trans; [apply Rabs_triang|]. lra. }
    unfold E in E1. assert (L1 : k * (u53 * Q) + Q <= 3 * Q) by lra.
    assert (L2 : k * (u53 * (2 * Q)) + 2 * Q <= 3 * Q) by (replace (k * (u53 * (2 * Q))) with (2 * (k * (u53 * Q))) by ring; lra).
    induction G as [|a b la lb N G IH]; constructor; [|exact IH].
    inversion N; subst; cbn [sized]; repeat split; try (eapply FV; [|eassumption|assumption]; assumption). }
  assert (G2 : Forall2 (segment_within E) segs (map (fun s0 => segment_transform s0 (rtr tr)) rsegs)).
  { unfold E. clear - G. induction G; constructor; auto. apply seg_near_within. assumption. }
  destruct (within_no_arc _ _ _ _ G2) as [NA1 NA2].
  destruct (C103_laser ax ay vmx vmy ops c g s segs v c' ex ey fuel search ints (3 * Q) D wt u H ltac:(rewrite SG; discriminate) DC Hm GB FG LS
    ltac:(lra) FM SZ (no_arc_places _ _ _ _ _ _ NA1) BL ltac:(lra) ltac:(intros i; destruct (SC i) as [A B]; split; [exact A|]; replace (8 * (3 * Q)) with (24 * Q) by ring; exact B)
    D0 GN HU HW) as (z & F & B).
  rewrite SG in F. cbn [map rs] in F. apply (figure_goto _ _ _ (tapply (rtr tr) (mk_vec 0 0))) in F.
  change (GoTo (rv q) :: map rs rest) with (map rs (SGoTo q :: rest)) in F. rewrite <- SG in F.
  assert (C0 : close_to (fun _ => E) (tapply (rtr tr) (mk_vec 0 0)) (tapply (rtr tr) (mk_vec 0 0))).
  { intros i. rewrite Rminus_diag_eq by reflexivity. rewrite Rabs_R0. lra. }
  destruct (figure_within E _ _ _ _ _ (proj1 E1) G2 C0 F) as (z1 & F1 & C1).
  destruct (figure_transform _ _ _ _ NA2 F1) as (z2 & F2 & ->).
  exists rc, rsegs, z2. split; [reflexivity|]. split; [exact F2|]. intros i. specialize (B i). specialize (C1 i). cbv beta in C1.
  set (A := Rabs (B2R (step_scale s i))) in *. assert (A0 : 0 <= A) by apply Rabs_pos.
  assert (SD : Rabs (B2R (step_scale s i) * coord z i - B2R (step_scale s i) * coord (tapply (rtr tr) z2) i) <= A * (3 * E)).
  { rewrite <- Rmult_minus_distr_l, Rabs_mult. fold A. apply Rmult_le_compat_l; assumption. }
  replace (A * (D i + (9600 * INR (length segs) + 3 * w * INR n + 2262) * Q / 2 ^ 53 + 4 / 10 ^ 6 * INR (closes segs))) with
    (A * (D i + (3200 * INR (length segs) + 738) * (3 * Q) / 2 ^ 53 + 4 / 10 ^ 6 * INR (closes segs)) + A * (3 * E))
    by (unfold E, k; rewrite u53_is; unfold Rdiv; ring).
  match type of B with Rabs (?p - ?q) <= ?b => set (X := p) in *; set (Y := q) in *; set (MB := b) in * end.
  set (Y' := B2R (step_scale s i) * coord (tapply (rtr tr) z2) i) in *.
  replace (X - Y') with ((X - Y) + (Y - Y')) by ring. eapply Rle_trans; [apply Rabs_triang|].
  match goal with |- _ <= ?a + ?b + (?c + ?d) => replace (a + b + (c + d)) with (MB + d) by (unfold MB; ring) end. lra.
Qed.

Theorem C104_path : forall tg cmds tr S T P pc segs ax ay vmx vmy ops c g s v c' ex ey fuel search ints D w u,
  (* the path is built in binary64 under the transform [tr] *)
  Forall (fun m => is_finite m = true /\ Rabs (B2R m) <= S) [fm0 tr; fm1 tr; fm2 tr; fm3 tr] ->
  Forall (fun m => is_finite m = true /\ Rabs (B2R m) <= T) [fm4 tr; fm5 tr] ->
  Forall (fun cmd => Forall (fun a => is_finite a = true) (snd cmd)) cmds -> no_arcs (rcmds cmds) -> 1 <= P ->
  Forall (fun cmd => Forall (fun a => Rabs a <= P) (snd cmd)) (absolute (mk_vec 0 0) (mk_vec 0 0) true (rcmds cmds)) ->
  fbuild_commands tg fpath_ctx_new cmds tr true = Ok (Some (pc, segs)) -> (exists q r, segs = SGoTo q :: r) ->
  let n := list_sum (map (fun cmd => length (snd cmd)) cmds) in
  let Q := 2 * S * P + T + 1 in
  P <= 2 ^ 900 -> 3 * Q <= 2 ^ 300 -> INR n <= 2 ^ 40 -> INR (length segs) <= 2 ^ 40 -> INR (length segs) <= 65536 * Q ->
  (* and drawn by a machine in a state reached by the program *)
  history code (new_ctx ax ay vmx vmy) ops c -> draw_curves g s c segs v = Ok (c', (ex, ey)) -> (forall i, ticks_of c' i < u64_max)%Z ->
  g_bezier g = fbezier fuel search ints -> finds (g_find g) -> lengths_sane g s v (3 * Q) (begin_drawing s c) segs ->
  fits (3 * Q) (machine_place s c) ->
  (forall i, is_finite (step_scale s i) = true /\ Rabs (B2R (step_scale s i)) * (24 * Q) <= 2 ^ 62) ->
  (forall i, 0 <= D i) -> gotos_near g s v D (begin_drawing s c) segs ->
  (* when the laser burns, the machine is near the image of a point of the path *)
  (ticks_of c AX <= u)%Z -> m_weight (play (events c') u (machine0 w)) <> 0%Z ->
  exists rc rsegs z, build_commands path_ctx_new (rcmds cmds) tidentity true = Ok (Some (rc, rsegs)) /\ figure (mk_vec 0 0) rsegs z /\
    forall i, Rabs (IZR (s_pos (machine_axis (play (events c') (u + 1) (machine0 w)) i)) - B2R (step_scale s i) * coord (tapply (rtr tr) z) i)
      <= IZR (match i with AX => ex | AY => ey end) + 1 + Rabs (B2R (step_scale s i)) *
         (D i + (9600 * INR (length segs) + 6 * INR n + 2262) * Q / 2 ^ 53 + 4 / 10 ^ 6 * INR (closes segs)).
Proof.
  intros tg cmds tr S T P pc segs ax ay vmx vmy ops c g s v c' ex ey fuel search ints D w u H1 H2 H3 H4 H5 H6 FB SG n Q
    PH BQ BN BL BL2 H DC Hm GB FG LS FM SC D0 GN HU HW.
  destruct (laser_commands tg 2 cmds (rcmds cmds) tr S T P pc segs ax ay vmx vmy ops c g s v c' ex ey fuel search ints D w u ltac:(lra) H1 H2
    (cmds_exact P cmds H3) H4 H5 H6 FB SG PH BQ BN BL BL2 H DC Hm GB FG LS FM SC D0 GN HU HW) as (rc & rsegs & z & A & B & C).
  exists rc, rsegs, z. split; [exact A|]. split; [exact B|]. intros i. specialize (C i).
  replace (6 * INR n) with (3 * 2 * INR n) by ring. exact C.
Qed.

(** The path of which the segments above are made when it is drawn at double size:
    S = 2, T = 0, P = 2000, 13 numbers. *)
Definition C104_commands : list (char * list f64) :=
  [(ch "M", map f_of_Z [0; 0]%Z); (ch "c", map f_of_Z [250; 0; 500; 0; 750; 0]%Z); (ch "v", [f_of_Z 250]);
   (ch "M", map f_of_Z [0; 1500]%Z); (ch "L", map f_of_Z [0; 2000]%Z)].

Definition sf_vec (p : fvec) := (B2SF (fx p), B2SF (fy p)).
Definition sf_segment (s : segment) :=
  match s with
  | SGoTo p => (0%nat, [sf_vec p])
  | SLineTo p => (1%nat, [sf_vec p])
  | SCloseTo p => (2%nat, [sf_vec p])
  | SCurveTo p c d => (3%nat, [sf_vec p; sf_vec c; sf_vec d])
  | SArc _ _ _ _ _ => (4%nat, [])
  end.

Lemma sf_vec_inj : forall p q, sf_vec p = sf_vec q -> p = q.
Proof.
  intros [x y] [x' y'] H. unfold sf_vec in H. cbn [fx fy] in H. assert (A : B2SF x = B2SF x') by congruence. assert (B : B2SF y = B2SF y') by congruence.
  apply B2SF_inj in A, B. congruence.
Qed.

Lemma sf_segments_inj : forall a b, Forall (fun x => is_arc x = false) b -> map sf_segment a = map sf_segment b -> a = b.
Proof.
  induction a as [|x a IH]; intros [|y b] F H; cbn [map] in H; try discriminate H; [reflexivity|]. inversion F as [|? ? F1 F2]; subst.
  assert (H1 : sf_segment x = sf_segment y) by congruence. assert (H2 : map sf_segment a = map sf_segment b) by congruence.
  rewrite (IH b F2 H2). f_equal. clear - F1 H1.
  destruct x as [p|p|p|p c d|], y as [p'|p'|p'|p' c' d'|]; cbn [sf_segment is_arc] in *; try discriminate H1; try discriminate F1.
  1-3: f_equal; apply sf_vec_inj; congruence.
  f_equal; apply sf_vec_inj; congruence.
Qed.

Lemma C103_sized : Forall (fun x => is_arc x = false) C103_segments.
Proof. unfold C103_segments. repeat (apply Forall_cons; [reflexivity|]). apply Forall_nil. Qed.

Example C104_example :
  (forall tg, exists pc, fbuild_commands tg fpath_ctx_new C104_commands C100_double true = Ok (Some (pc, C103_segments))) /\
  Forall (fun m => is_finite m = true /\ Rabs (B2R m) <= 2) [fm0 C100_double; fm1 C100_double; fm2 C100_double; fm3 C100_double] /\
  Forall (fun m => is_finite m = true /\ Rabs (B2R m) <= 0) [fm4 C100_double; fm5 C100_double] /\
  Forall (fun cmd => Forall (fun a => is_finite a = true) (snd cmd)) C104_commands /\ no_arcs (rcmds C104_commands) /\
  Forall (fun cmd => Forall (fun a => Rabs a <= 2000) (snd cmd)) (absolute (mk_vec 0 0) (mk_vec 0 0) true (rcmds C104_commands)) /\
  fits (3 * (2 * 2 * 2000 + 0 + 1)) (machine_place sc1 laser) /\
  lengths_sane C103_geometry sc1 (f_of_Z 40) (3 * (2 * 2 * 2000 + 0 + 1)) (begin_drawing sc1 laser) C103_segments.
Proof.
  destruct C103_example as (c' & _ & _ & _ & LS & FM & _).
  split; [|split; [|split; [|split; [|split; [|split; [|split]]]]]].
  - intros tg. assert (B : match fbuild_commands tg fpath_ctx_new C104_commands C100_double true with
      | Ok (Some (_, s)) => Some (map sf_segment s) | _ => None end = Some (map sf_segment C103_segments)) by (vm_compute; reflexivity).
    destruct (fbuild_commands tg fpath_ctx_new C104_commands C100_double true) as [[[pc s]|]| |]; try discriminate B.
    injection B as B. exists pc. rewrite (sf_segments_inj s C103_segments C103_sized B). reflexivity.
  - assert (I : forall z, (0 <= z <= 4)%Z -> is_finite (f_of_Z z) = true /\ B2R (f_of_Z z) = IZR z).
    { intros z Hz. destruct (f_of_Z_exact z ltac:(lia)) as [A B]. auto. }
    assert (Z0 : B2R fzero = 0) by (vm_compute; reflexivity).
    assert (Z1 : Rabs 0 <= 2) by (rewrite Rabs_R0; lra). assert (Z2 : Rabs 2 <= 2) by (rewrite Rabs_right; lra).
    cbn [fm0 fm1 fm2 fm3 C100_double].
    constructor; [|constructor; [|constructor; [|constructor; [|constructor]]]]; cbv beta; rewrite ?Z0, ?(proj2 (I 2%Z ltac:(lia)));
      (split; [vm_compute; reflexivity|assumption]).
  - assert (Z0 : B2R fzero = 0) by (vm_compute; reflexivity).
    cbn [fm4 fm5 C100_double]. constructor; [|constructor; [|constructor]]; cbv beta; rewrite Z0, Rabs_R0; (split; [vm_compute; reflexivity|lra]).
  - unfold C104_commands. repeat constructor.
  - unfold C104_commands, no_arcs. repeat constructor.
  - assert (EQ : rcmds C104_commands = [(ch "M", [0; 0]); (ch "c", [250; 0; 500; 0; 750; 0]); (ch "v", [250]); (ch "M", [0; 1500]); (ch "L", [0; 2000])]).
    { unfold rcmds, C104_commands. cbn [map fst snd]. rewrite !(fun z H => proj2 (f_of_Z_exact z H)) by lia. reflexivity. }
    rewrite EQ. cbn. repeat constructor; rewrite Rabs_pos_eq; lra.
  - destruct FM as [A [B1 B2]]. split; [exact A|]. split; lra.
  - intros s1 e c1 c2 s2 d curve ES L rel B. destruct (LS s1 e c1 c2 s2 d curve ES L B) as [A1 A2]. split; [exact A1|]. lra.
Qed.

Print Assumptions C103_laser.
Print Assumptions C104_path.
