(** The places on a run of joined curves (DrawPlan.v) in binary64 against the figure
    they stand for. *)
From Coq Require Import ZArith Reals List Bool Lia Lra Psatz.
From Flocq Require Import Core Mult_error BinarySingleNaN.
From Verif Require Import Base Floats FloatProofs FloatScale FloatErr AccVector IntegerCurve StepperContext
  ApproxCurve DrawCurves FloatPath Coords Curves PathBuild BuildProofs PropsBuild FloatPathProofs FloatCurve
  DrawProofs PropsError DrawPlan PropsDrawPlan.
Import ListNotations.
Open Scope R_scope.

(** ** One piece *)

Definition fits (Q : R) (v : fvec) : Prop := fin v /\ box Q (rv v).

Lemma sub_coord : forall x y A B, is_finite x = true -> is_finite y = true -> Rabs (B2R x) <= A -> Rabs (B2R y) <= B ->
  A + B <= huge -> is_finite (fsub x y) = true /\ Rabs (B2R (fsub x y) - (B2R x - B2R y)) <= u53 * (A + B).
Proof.
  intros x y A B Fx Fy HA HB H. pose proof huge_1000 as HH. pose proof u53_pos as [U0 U1].
  assert (T : Rabs (B2R x - B2R y) <= A + B).
  { unfold Rminus. eapply Rle_trans; [apply Rabs_triang|]. rewrite Rabs_Ropp. lra. }
  pose proof (Rabs_pos (B2R x)) as P1. pose proof (Rabs_pos (B2R y)) as P2.
  destruct (fsub_rel x y Fx Fy ltac:(lra)) as [F E]. split; [exact F|].
  eapply Rle_trans; [exact E|]. apply Rmult_le_compat_l; lra.
Qed.

Lemma add_coord : forall x y A B, is_finite x = true -> is_finite y = true -> Rabs (B2R x) <= A -> Rabs (B2R y) <= B ->
  A + B <= huge -> is_finite (fadd x y) = true /\ Rabs (B2R (fadd x y) - (B2R x + B2R y)) <= u53 * (A + B).
Proof.
  intros x y A B Fx Fy HA HB H. pose proof huge_1000 as HH. pose proof u53_pos as [U0 U1].
  assert (T : Rabs (B2R x + B2R y) <= A + B) by (eapply Rle_trans; [apply Rabs_triang|]; lra).
  pose proof (Rabs_pos (B2R x)) as P1. pose proof (Rabs_pos (B2R y)) as P2.
  destruct (fadd_rel x y Fx Fy ltac:(lra)) as [F E]. split; [exact F|].
  eapply Rle_trans; [exact E|]. apply Rmult_le_compat_l; lra.
Qed.

Lemma sub_fits : forall a b A B, fits A a -> fits B b -> 0 <= A -> 0 <= B -> A + B <= huge ->
  within (u53 * (A + B)) (fvsub a b) (vsub (rv a) (rv b)) /\ fits (A + B + u53 * (A + B)) (fvsub a b).
Proof.
  intros a b A B [[Fa1 Fa2] [Ba1 Ba2]] [[Fb1 Fb2] [Bb1 Bb2]] HA HB H. cbn [rv vx vy] in *.
  destruct (sub_coord _ _ A B Fa1 Fb1 Ba1 Bb1 H) as [F1 E1]. destruct (sub_coord _ _ A B Fa2 Fb2 Ba2 Bb2 H) as [F2 E2].
  split; [repeat split; auto|]. split; [split; auto|].
  apply abs_between in Ba1, Ba2, Bb1, Bb2, E1, E2.
  split; cbn [rv vx vy fvsub fx fy]; apply Rabs_le; lra.
Qed.

Lemma add_fits : forall a b A B, fits A a -> fits B b -> 0 <= A -> 0 <= B -> A + B <= huge ->
  within (u53 * (A + B)) (fvadd a b) (vadd (rv a) (rv b)) /\ fits (A + B + u53 * (A + B)) (fvadd a b).
Proof.
  intros a b A B [[Fa1 Fa2] [Ba1 Ba2]] [[Fb1 Fb2] [Bb1 Bb2]] HA HB H. cbn [rv vx vy] in *.
  destruct (add_coord _ _ A B Fa1 Fb1 Ba1 Bb1 H) as [F1 E1]. destruct (add_coord _ _ A B Fa2 Fb2 Ba2 Bb2 H) as [F2 E2].
  split; [repeat split; auto|]. split; [split; auto|].
  apply abs_between in Ba1, Ba2, Bb1, Bb2, E1, E2.
  split; cbn [rv vx vy fvadd fx fy]; apply Rabs_le; lra.
Qed.

Lemma fits_le : forall A B v, A <= B -> fits A v -> fits B v.
Proof. intros A B v H [F [X Y]]. split; [exact F|]. split; lra. Qed.

Lemma within_move : forall E D p r r', within E p r -> Rabs (vx r - vx r') <= D -> Rabs (vy r - vy r') <= D ->
  within (E + D) p r'.
Proof.
  intros E D p r r' (F1 & F2 & X & Y) DX DY. apply abs_between in X, Y, DX, DY.
  repeat split; auto; apply Rabs_le; lra.
Qed.

Lemma within_add : forall E1 E2 p1 r1 p2 r2 A B, within E1 p1 r1 -> within E2 p2 r2 -> box A r1 -> box B r2 ->
  0 <= E1 -> 0 <= E2 -> 0 <= A -> 0 <= B -> A + E1 + (B + E2) <= huge ->
  within (E1 + E2 + u53 * (A + E1 + (B + E2))) (fvadd p1 p2) (vadd r1 r2).
Proof.
  intros E1 E2 p1 r1 p2 r2 A B (F1 & F2 & X1 & Y1) (F3 & F4 & X2 & Y2) [B1 B2] [B3 B4] P1 P2 P3 P4 H.
  apply abs_between in X1, Y1, X2, Y2, B1, B2, B3, B4.
  destruct (add_coord (fx p1) (fx p2) (A + E1) (B + E2)) as [G1 K1]; auto; try (apply Rabs_le; lra).
  destruct (add_coord (fy p1) (fy p2) (A + E1) (B + E2)) as [G2 K2]; auto; try (apply Rabs_le; lra).
  apply abs_between in K1, K2. repeat split; auto; cbn [fvadd fx fy vadd vx vy]; apply Rabs_le; lra.
Qed.

(** A segment as a segment over the real numbers. *)
Definition rs (s : segment) : curve_segment :=
  match s with
  | SGoTo p => GoTo (rv p)
  | SLineTo p => LineTo (rv p)
  | SCloseTo p => CloseTo (rv p)
  | SCurveTo p c d => CurveTo (rv p) (rv c) (rv d)
  | SArc rx ry a b ro => Arc (B2R rx) (B2R ry) (B2R a) (B2R b) (B2R ro)
  end.

(** The points of an arc of a circle of radius [r] from the angle [a] to the angle [b], seen from its start. *)
Definition arc_at (r a b t : R) : vec :=
  mk_vec (r * (cos (a + (b - a) * t) - cos a)) (r * (sin (a + (b - a) * t) - sin a)).

(** The points of a segment that starts at [p]; an arc is an arc of a circle, of its first radius. *)
Definition traced (p : vec) (s : curve_segment) (t : R) : option vec :=
  match s with Arc r _ a b _ => Some (vadd p (arc_at r a b t)) | _ => drawn p s t end.

(** What is asked of the arcs of the geometry: they are near the arc of the circle, by their length. *)
Definition circle_near (g : geometry) (Q : R) (rx a b : f64) : Prop := forall curve, g_circle g rx a b = Ok curve ->
  let arc := arc_at (B2R rx) (B2R a) (B2R b) in let len := B2R (fc_length curve) in
  is_finite (fc_length curve) = true /\ 0 <= len <= 64 * Q /\
  Rabs (len - Rabs (B2R rx * (B2R b - B2R a))) <= 4 * (u53 * Q) /\
  (forall t, 0 <= t <= 1 -> box Q (arc t)) /\
  (forall s sg p d, is_finite s = true -> 0 <= sg <= Q -> 0 <= B2R s <= len + sg -> fc_value curve s = Ok (p, d) ->
    exists t, 0 <= t <= 1 /\ (0 < len -> t = Rmin 1 (B2R s / len)) /\ within (16 * (u53 * Q) + 4 * sg) p (arc t)) /\
  (forall p d, fc_value curve (fc_length curve) = Ok (p, d) -> within (16 * (u53 * Q)) p (arc 1)).

(** All coordinates are at most [Q]; arcs are as they should be. *)
Definition sized (g : geometry) (Q : R) (s : segment) : Prop :=
  match s with
  | SGoTo p | SLineTo p | SCloseTo p => fits Q p
  | SCurveTo p c d => fits Q p /\ fits Q c /\ fits Q d
  | SArc rx _ a b _ => circle_near g Q rx a b
  end.

Definition end_of (g : geometry) (s : segment) (p : fvec) : fvec :=
  match s with
  | SGoTo q | SLineTo q | SCloseTo q | SCurveTo q _ _ => q
  | SArc rx _ a b _ =>
      match (let! circle := g_circle g rx a b in fc_value circle (fc_length circle)) with Ok (e, _) => fvadd p e | _ => p end
  end.

Lemma arc_info : forall g rx ry a b ro p curve next, seg_info g (SArc rx ry a b ro) p = Ok (Some (curve, next)) ->
  g_circle g rx a b = Ok curve /\ exists e d, fc_value curve (fc_length curve) = Ok (e, d) /\ next = fvadd p e.
Proof.
  intros g rx ry a b ro p curve next H. cbn [seg_info] in H. destruct (fgt (fabs (fsub rx ry)) fepsilon); [discriminate H|].
  apply bind_Ok in H. destruct H as (c & E & H). apply bind_Ok in H. destruct H as ([e d] & V & H).
  assert (c = curve) by congruence. subst c. split; [exact E|]. exists e, d. split; [exact V|]. congruence.
Qed.

Lemma seg_info_end : forall g s p curve next, seg_info g s p = Ok (Some (curve, next)) -> next = end_of g s p.
Proof.
  intros g s p curve next H. destruct s; [cbn [seg_info end_of] in *; try discriminate H..|].
  - injection H as _ <-. reflexivity.
  - injection H as _ <-. reflexivity.
  - apply bind_Ok in H. destruct H as (b & _ & H). injection H as _ <-. reflexivity.
  - apply arc_info in H. destruct H as (E & e & d & V & ->). cbn [end_of]. rewrite E. cbn [bind]. rewrite V. reflexivity.
Qed.

(** A Bezier curve has a length that makes sense. *)
Definition good_length (Q : R) (s : segment) (curve : fcurve) : Prop :=
  match s with
  | SCurveTo _ _ _ => is_finite (fc_length curve) = true /\ 0 < B2R (fc_length curve) <= 64 * Q
  | _ => True
  end.

Definition reach : R := bpow radix2 300.
Lemma reach_wide : forall Q, 1 <= Q <= reach -> 1 <= 4 * Q <= wide.
Proof.
  intros Q [H1 H2]. assert (4 * reach <= wide).
  { unfold reach, wide. change 4 with (bpow radix2 2). rewrite <- bpow_plus. apply bpow_le. lia. }
  lra.
Qed.
Lemma reach_huge : forall Q, 1 <= Q <= reach -> 1000000 * Q <= huge.
Proof.
  intros Q [H1 H2]. assert (bpow radix2 20 * reach <= huge).
  { unfold reach, huge. rewrite <- bpow_plus. apply bpow_le. lia. }
  change (bpow radix2 20) with 1048576 in H. lra.
Qed.

Lemma coord_scale : forall a b t D, Rabs (a - b) <= D -> 0 <= t <= 1 -> Rabs (a * t - b * t) <= D.
Proof.
  intros a b t D H Ht. rewrite <- Rmult_minus_distr_r, Rabs_mult, (Rabs_pos_eq t) by lra.
  pose proof (Rabs_pos (a - b)). nra.
Qed.

Lemma cubic_move : forall a b c b' c' t D, Rabs (b - b') <= D -> Rabs (c - c') <= D -> 0 <= t <= 1 ->
  Rabs (cubic a b c t - cubic a b' c' t) <= D.
Proof.
  intros a b c b' c' t D H1 H2 Ht. apply abs_between in H1, H2. unfold cubic.
  replace (_ - _) with (3 * (t * t) * (1 - t) * (b - b') + t * t * t * (c - c')) by ring.
  assert (P1 : 0 <= 3 * (t * t) * (1 - t)) by (apply Rmult_le_pos; nra).
  assert (P2 : 0 <= t * t * t) by (apply Rmult_le_pos; nra).
  assert (P3 : 3 * (t * t) * (1 - t) + t * t * t <= 1).
  { replace (3 * (t * t) * (1 - t) + t * t * t) with (1 - (1 - t) * (1 - t) * (1 + 2 * t)) by ring.
    assert (0 <= (1 - t) * (1 - t) * (1 + 2 * t)) by (apply Rmult_le_pos; nra). lra. }
  set (x := 3 * (t * t) * (1 - t)) in *. set (y := t * t * t) in *.
  assert (0 <= D) by lra. apply Rabs_le. split; nra.
Qed.

Lemma box_le : forall A B v, A <= B -> box A v -> box B v.
Proof. intros A B v H [X Y]. split; lra. Qed.

Lemma bernstein_cubic_x : forall p a e b t, vx (vsub (bernstein3 p (vadd p a) (vadd e b) e t) p) =
  cubic (vx a) (vx e + vx b - vx p) (vx (vsub e p)) t.
Proof. intros. unfold bernstein3, cubic. cbn [vadd vscale vsub vx vy]. ring. Qed.
Lemma bernstein_cubic_y : forall p a e b t, vy (vsub (bernstein3 p (vadd p a) (vadd e b) e t) p) =
  cubic (vy a) (vy e + vy b - vy p) (vy (vsub e p)) t.
Proof. intros. unfold bernstein3, cubic. cbn [vadd vscale vsub vx vy]. ring. Qed.

Lemma convex4 : forall a b c d t M, Rabs a <= M -> Rabs b <= M -> Rabs c <= M -> Rabs d <= M -> 0 <= t <= 1 ->
  Rabs (a * ((1 - t) * (1 - t) * (1 - t)) + b * (3 * t * ((1 - t) * (1 - t))) +
        (c * (3 * (t * t) * (1 - t)) + d * (t * t * t))) <= M.
Proof.
  intros a b c d t M Ha Hb Hc Hd Ht. apply abs_between in Ha, Hb, Hc, Hd.
  assert (P0 : 0 <= (1 - t) * (1 - t) * (1 - t)) by (apply Rmult_le_pos; nra).
  assert (P1 : 0 <= 3 * t * ((1 - t) * (1 - t))) by (apply Rmult_le_pos; nra).
  assert (P2 : 0 <= 3 * (t * t) * (1 - t)) by (apply Rmult_le_pos; nra).
  assert (P3 : 0 <= t * t * t) by (apply Rmult_le_pos; nra).
  assert (S : (1 - t) * (1 - t) * (1 - t) + 3 * t * ((1 - t) * (1 - t)) + (3 * (t * t) * (1 - t) + t * t * t) = 1) by ring.
  set (w0 := (1 - t) * (1 - t) * (1 - t)) in *. set (w1 := 3 * t * ((1 - t) * (1 - t))) in *.
  set (w2 := 3 * (t * t) * (1 - t)) in *. set (w3 := t * t * t) in *.
  assert (UP : forall x w, - M <= x <= M -> 0 <= w -> - (M * w) <= x * w <= M * w) by (intros x w Hx Hw; split; nra).
  pose proof (UP a w0 Ha P0). pose proof (UP b w1 Hb P1). pose proof (UP c w2 Hc P2). pose proof (UP d w3 Hd P3).
  assert (T : M * w0 + M * w1 + (M * w2 + M * w3) = M) by (rewrite <- !Rmult_plus_distr_l, S; ring).
  apply Rabs_le. lra.
Qed.

Lemma bernstein_box : forall Q pos c1 e c2 t, fits Q pos -> fits Q c1 -> fits Q e -> fits Q c2 -> 0 <= t <= 1 ->
  box (2 * Q) (bernstein3 (rv pos) (vadd (rv pos) (rv c1)) (vadd (rv e) (rv c2)) (rv e) t).
Proof.
  intros Q pos c1 e c2 t [_ [P1 P2]] [_ [A1 A2]] [_ [E1 E2]] [_ [B1 B2]] Ht.
  apply abs_between in P1, P2, A1, A2, E1, E2, B1, B2.
  split; unfold bernstein3; cbn [vadd vscale vx vy]; apply convex4; try exact Ht; apply Rabs_le; lra.
Qed.

Lemma ok_fst : forall (A B : Type) (x : A * B) a b, Ok x = Ok (a, b) -> fst x = a.
Proof. intros A B x a b H. injection H as ->. reflexivity. Qed.

Lemma vadd_back : forall p q, vsub (vadd p q) p = q.
Proof. intros [px py] [qx qy]. unfold vsub, vadd. cbn [vx vy]. f_equal; ring. Qed.

Section Pieces.
Variables (g : geometry) (fuel : nat) (search : FloatPath.searcher) (ints : fvec -> fvec -> fvec -> list (list f64)) (Q : R).
Hypothesis bezier_is : g_bezier g = fbezier fuel search ints.
Hypothesis Q_ok : 1 <= Q <= reach.

Let UQ : 0 <= u53 * Q.
Proof. pose proof u53_pos. nra. Qed.

Lemma line_parts : forall p pos, fits Q p -> fits Q pos ->
  within (2 * (u53 * Q)) (fvsub p pos) (vsub (rv p) (rv pos)) /\ fits (5 / 2 * Q) (fvsub p pos).
Proof.
  intros p pos Sp Sq. pose proof (reach_huge Q Q_ok) as HH. pose proof u53_pos as [U0 U1].
  destruct (sub_fits p pos Q Q Sp Sq ltac:(lra) ltac:(lra) ltac:(lra)) as [W S].
  split; [eapply within_le; [|exact W]; lra|]. eapply fits_le; [|exact S]. nra.
Qed.

Lemma bezier_parts : forall e c2 pos, fits Q e -> fits Q c2 -> fits Q pos ->
  within (2 * (u53 * Q)) (fvsub e pos) (vsub (rv e) (rv pos)) /\ fits (4 * Q) (fvsub e pos) /\
  within (10 * (u53 * Q)) (fvadd (fvsub e pos) c2) (vadd (vsub (rv e) (rv pos)) (rv c2)) /\
  fits (4 * Q) (fvadd (fvsub e pos) c2).
Proof.
  intros e c2 pos Se S2 Sp. pose proof (reach_huge Q Q_ok) as HH. pose proof u53_pos as [U0 U1].
  destruct (line_parts e pos Se Sp) as [W SR].
  destruct (add_fits (fvsub e pos) c2 (5 / 2 * Q) Q SR S2 ltac:(lra) ltac:(lra) ltac:(lra)) as [WA SA].
  split; [exact W|]. split; [eapply fits_le; [|exact SR]; lra|]. split.
  - destruct W as (_ & _ & W1 & W2). apply within_le with (u53 * (5 / 2 * Q + Q) + 2 * (u53 * Q)); [lra|].
    eapply within_move; [exact WA| |]; cbn [rv vadd vsub vx vy] in *.
    + replace (_ - _) with (B2R (fx (fvsub e pos)) - (B2R (fx e) - B2R (fx pos))) by ring. exact W1.
    + replace (_ - _) with (B2R (fy (fvsub e pos)) - (B2R (fy e) - B2R (fy pos))) by ring. exact W2.
  - eapply fits_le; [|exact SA]. nra.
Qed.

Lemma piece_value : forall seg pos curve next s sg p d, sized g Q seg -> fits Q pos ->
  seg_info g seg pos = Ok (Some (curve, next)) -> is_finite s = true -> 0 <= sg <= Q ->
  0 <= B2R s <= B2R (fc_length curve) + sg -> fc_value curve s = Ok (p, d) ->
  exists t q, 0 <= t <= 1 /\ traced (rv pos) (rs seg) t = Some q /\ box (2 * Q) q /\
    within (700 * (u53 * Q) + 4 * sg) p (vsub q (rv pos)).
Proof.
  intros seg pos curve next s sg p d HS Sp HI Fs Hsg Hs HV. pose proof u53_pos as [U0 U1].
  pose proof (reach_wide Q Q_ok) as HW. pose proof (reach_huge Q Q_ok) as HH.
  assert (LINE : forall e, fits Q e -> curve = fline (fvsub e pos) ->
    exists t, 0 <= t <= 1 /\ box (2 * Q) (vadd (rv pos) (vscale (vsub (rv e) (rv pos)) t)) /\
      within (700 * (u53 * Q) + 4 * sg) p (vsub (vadd (rv pos) (vscale (vsub (rv e) (rv pos)) t)) (rv pos))).
  { intros e Se ->. destruct (line_parts e pos Se Sp) as [W SL].
    destruct (fits_le (5 / 2 * Q) (4 * Q) _ ltac:(lra) SL) as [[F1 F2] [B1 B2]].
    destruct (fline_value (fvsub e pos) (4 * Q) s sg F1 F2 HW B1 B2 Fs ltac:(lra) Hs) as (p' & d' & t & V & T & N).
    rewrite V in HV. injection HV as <- <-. exists t. split; [exact T|].
    destruct Se as [_ [E1 E2]]. destruct Sp as [_ [P1 P2]].
    split.
    - pose proof (lerp_bound _ _ t Q P1 E1 T) as L1. pose proof (lerp_bound _ _ t Q P2 E2 T) as L2.
      unfold lerp in L1, L2. split; cbn [vadd vscale vsub vx vy]; lra.
    - destruct W as (_ & _ & W1 & W2). cbn [rv vx vy vsub] in W1, W2.
      apply within_le with (32 * (u53 * (4 * Q)) + 4 * sg + 2 * (u53 * Q)); [lra|].
      eapply within_move; [exact N| |]; cbn [vscale vsub vadd rv vx vy].
      + replace (B2R (fx pos) + (B2R (fx e) - B2R (fx pos)) * t - B2R (fx pos)) with ((B2R (fx e) - B2R (fx pos)) * t) by ring.
        apply coord_scale; assumption.
      + replace (B2R (fy pos) + (B2R (fy e) - B2R (fy pos)) * t - B2R (fy pos)) with ((B2R (fy e) - B2R (fy pos)) * t) by ring.
        apply coord_scale; assumption. }
  destruct seg as [e|e|e|e c1 c2|rx ry a b ro]; [| | | |pose proof (arc_info _ _ _ _ _ _ _ _ _ HI) as AI; clear HI LINE];
    cbn [sized seg_info rs traced drawn] in *; try discriminate.
  - injection HI as <- <-. destruct (LINE e HS eq_refl) as (t & T & B & N). eauto 8.
  - injection HI as <- <-. destruct (LINE e HS eq_refl) as (t & T & B & N). eauto 8.
  - clear LINE. destruct HS as (Se & S1 & S2). apply bind_Ok in HI. destruct HI as (b & EB & HI). injection HI as <- <-.
    rewrite bezier_is in EB. destruct (bezier_parts e c2 pos Se S2 Sp) as (W & SR & WA & SA).
    destruct (bezier_curve _ _ _ _ _ _ _ EB) as [V _]. destruct (V s p d HV) as (t & [Ft Bt] & ->).
    exists (B2R t), (bernstein3 (rv pos) (vadd (rv pos) (rv c1)) (vadd (rv e) (rv c2)) (rv e) (B2R t)).
    split; [exact Bt|]. split; [reflexivity|]. split; [apply bernstein_box; assumption|].
    destruct S1 as [F1 B1]. destruct SA as [FA BA]. destruct SR as [FR BR].
    pose proof (bezier_value c1 (fvadd (fvsub e pos) c2) (fvsub e pos) t (4 * Q) ltac:(lra) ltac:(lra) F1 FA FR
      (box_le Q (4 * Q) _ ltac:(lra) B1) BA BR Ft Bt) as N.
    apply within_le with (150 * (u53 * (4 * Q)) + 10 * (u53 * Q)); [lra|].
    eapply within_move; [exact N| |].
    + rewrite bernstein_cubic_x. destruct W as (_ & _ & W & _). destruct WA as (_ & _ & WA & _). apply cubic_move; [| |exact Bt].
      * cbn [rv vsub vadd vx vy] in *. replace (_ - _) with (B2R (fx (fvadd (fvsub e pos) c2)) - (B2R (fx e) - B2R (fx pos) + B2R (fx c2))) by ring. exact WA.
      * eapply Rle_trans; [exact W|]. lra.
    + rewrite bernstein_cubic_y. destruct W as (_ & _ & _ & W). destruct WA as (_ & _ & _ & WA). apply cubic_move; [| |exact Bt].
      * cbn [rv vsub vadd vx vy] in *. replace (_ - _) with (B2R (fy (fvadd (fvsub e pos) c2)) - (B2R (fy e) - B2R (fy pos) + B2R (fy c2))) by ring. exact WA.
      * eapply Rle_trans; [exact W|]. lra.
  - destruct AI as (EC & _). destruct (HS curve EC) as (_ & _ & _ & BX & VA & _).
    destruct (VA s sg p d Fs Hsg Hs HV) as (t & T & _ & W). specialize (BX t T). exists t.
    set (q := arc_at (B2R rx) (B2R a) (B2R b) t) in *. exists (vadd (rv pos) q). split; [exact T|]. split; [reflexivity|]. split.
    + destruct BX as [X1 X2]. destruct Sp as [_ [P1 P2]]. apply abs_between in X1, X2, P1, P2.
      split; cbn [vadd vx vy]; apply Rabs_le; lra.
    + replace (vsub (vadd (rv pos) q) (rv pos)) with q by (symmetry; apply vadd_back).
      eapply within_le; [|exact W]. lra.
Qed.

Lemma piece_end : forall seg pos curve next p d, sized g Q seg -> fits Q pos ->
  seg_info g seg pos = Ok (Some (curve, next)) -> good_length Q seg curve -> fc_value curve (fc_length curve) = Ok (p, d) ->
  is_finite (fc_length curve) = true /\ 0 <= B2R (fc_length curve) <= 64 * Q /\
  next = end_of g seg pos /\ within (700 * (u53 * Q)) p (vsub (rv next) (rv pos)).
Proof.
  intros seg pos curve next p d HS Sp HI GL HV. pose proof u53_pos as [U0 U1].
  pose proof (reach_wide Q Q_ok) as HW. pose proof (reach_huge Q Q_ok) as HH.
  pose proof (seg_info_end _ _ _ _ _ HI) as EN.
  assert (LINE : forall e, fits Q e -> curve = fline (fvsub e pos) ->
    is_finite (fc_length curve) = true /\ 0 <= B2R (fc_length curve) <= 64 * Q /\
    within (700 * (u53 * Q)) p (vsub (rv e) (rv pos))).
  { intros e Se ->. destruct (line_parts e pos Se Sp) as [W S].
    destruct (fits_le (5 / 2 * Q) (4 * Q) _ ltac:(lra) S) as [[F1 F2] [B1 B2]].
    destruct (fline_end (fvsub e pos) (4 * Q) F1 F2 HW B1 B2) as (FL & BL & p' & d' & V & N).
    rewrite V in HV. injection HV as <- <-. split; [exact FL|]. split; [lra|].
    apply within_le with (32 * (u53 * (4 * Q)) + 2 * (u53 * Q)); [lra|].
    destruct W as (_ & _ & W1 & W2). eapply within_move; [exact N|exact W1|exact W2]. }
  destruct seg as [e|e|e|e c1 c2|rx ry a b ro]; [| | | |pose proof (arc_info _ _ _ _ _ _ _ _ _ HI) as AI; clear HI LINE];
    [cbn [sized seg_info end_of good_length] in *; try discriminate..|].
  - injection HI as <- <-. destruct (LINE e HS eq_refl) as (A & B & N). auto.
  - injection HI as <- <-. destruct (LINE e HS eq_refl) as (A & B & N). auto.
  - clear LINE. subst next. destruct HS as (Se & S1 & S2). apply bind_Ok in HI. destruct HI as (b & EB & HI). injection HI as <-.
    rewrite bezier_is in EB. destruct (bezier_parts e c2 pos Se S2 Sp) as (W & SR & WA & SA).
    destruct GL as [FL BL]. destruct (bezier_curve _ _ _ _ _ _ _ EB) as [_ V]. rewrite (V FL ltac:(lra)) in HV.
    split; [exact FL|]. split; [lra|]. split; [reflexivity|].
    destruct S1 as [F1 B1]. destruct SA as [FA BA]. destruct SR as [FR BR]. destruct one_value as [F11 V11].
    pose proof (bezier_value c1 (fvadd (fvsub e pos) c2) (fvsub e pos) fone (4 * Q) ltac:(lra) ltac:(lra) F1 FA FR
      (box_le Q (4 * Q) _ ltac:(lra) B1) BA BR F11 ltac:(lra)) as N.
    apply ok_fst in HV. rewrite HV, V11 in N. clear HV.
    apply within_le with (150 * (u53 * (4 * Q)) + 2 * (u53 * Q)); [lra|].
    destruct W as (_ & _ & W1 & W2). eapply within_move; [exact N| |].
    + unfold cubic_at, cubic. cbn [vx vy rv]. match goal with |- Rabs (?a - _) <= _ => replace a with (B2R (fx (fvsub e pos))) by ring end. exact W1.
    + unfold cubic_at, cubic. cbn [vx vy rv]. match goal with |- Rabs (?a - _) <= _ => replace a with (B2R (fy (fvsub e pos))) by ring end. exact W2.
  - destruct AI as (EC & e & d' & V & EN'). destruct (HS curve EC) as (FL & BL & _ & BX & _ & VE).
    rewrite V in HV. assert (EP : p = e) by congruence. subst e. pose proof (VE p d' V) as W.
    split; [exact FL|]. split; [exact BL|]. split; [exact EN|]. rewrite EN'. clear EN EN' V VE HV.
    destruct (BX 1 ltac:(lra)) as [X1 X2]. destruct W as (F1 & F2 & W1 & W2).
    assert (SP' : fits (2 * Q) p).
    { apply abs_between in X1, X2, W1, W2. assert (16 * (u53 * Q) <= Q) by (replace (16 * (u53 * Q)) with (16 * u53 * Q) by ring; nra).
      split; [split; assumption|]. split; cbn [rv vx vy]; apply Rabs_le; lra. }
    destruct (add_fits pos p Q (2 * Q) Sp SP' ltac:(lra) ltac:(lra) ltac:(lra)) as [(G1 & G2 & A1 & A2) _].
    cbn [rv vadd vx vy] in A1, A2. apply abs_between in A1, A2.
    repeat split; auto; cbn [rv vsub vx vy]; apply Rabs_le; lra.
Qed.

(** ** Runs *)

Definition no_skip : fvec -> Prop := fun _ => False.

Definition good (p : piece) : Prop := good_length Q (snd (fst p)) (snd p).

(** The place where the drawing stands after some segments. *)
Definition fpen (p : fvec) (segs : list segment) : fvec := fold_left (fun q s => end_of g s q) segs p.

Lemma run_pen : forall q x part l q' y, run_of g no_skip q x part l q' y -> q' = fpen q part.
Proof.
  intros q x part l q' y H. induction H; cbn [fpen fold_left].
  - reflexivity.
  - contradiction.
  - exact IHrun_of.
  - rewrite <- (seg_info_end _ _ _ _ _ H0). exact IHrun_of.
Qed.

(** The drawing stays within [Q]; only arcs could lead it out. *)
Definition pens_fit (q : fvec) (segs : list segment) : Prop := forall s1 s2, segs = s1 ++ s2 -> fits Q (fpen q s1).

Lemma pens_first : forall q segs, pens_fit q segs -> fits Q q.
Proof. intros q segs H. exact (H [] segs eq_refl). Qed.
Lemma pens_last : forall q segs, pens_fit q segs -> fits Q (fpen q segs).
Proof. intros q segs H. apply (H segs []). rewrite app_nil_r. reflexivity. Qed.
Lemma pens_app : forall q a b, pens_fit q (a ++ b) -> pens_fit q a /\ pens_fit (fpen q a) b.
Proof.
  intros q a b H. split.
  - intros s1 s2 ->. apply (H s1 (s2 ++ b)). rewrite <- app_assoc. reflexivity.
  - intros s1 s2 ->. unfold fpen at 1. unfold fpen at 1. rewrite <- fold_left_app. apply (H (a ++ s1) s2). rewrite <- app_assoc. reflexivity.
Qed.
Lemma pens_cons : forall q s r, pens_fit q (s :: r) -> fits Q q /\ pens_fit (end_of g s q) r.
Proof. intros q s r H. split; [exact (pens_first _ _ H)|]. exact (proj2 (pens_app q [s] r H)). Qed.

Lemma run_nth : forall q x part l q' y, run_of g no_skip q x part l q' y -> forall k pos seg curve,
  nth_error l k = Some (pos, seg, curve) -> exists s1 s2 z next p0 sd p1 ed,
    part = s1 ++ seg :: s2 /\ run_of g no_skip q x s1 (firstn k l) pos z /\
    seg_info g seg pos = Ok (Some (curve, next)) /\ fc_value curve fzero = Ok (p0, sd) /\
    fc_value curve (fc_length curve) = Ok (p1, ed).
Proof.
  intros q x part l q' y H. induction H; intros k ps sg cv K.
  - destruct k; discriminate K.
  - contradiction.
  - destruct (IHrun_of _ _ _ _ K) as (s1 & s2 & z & nx & a & b & c & d & -> & R & V).
    exists (SCloseTo p :: s1), s2, z, nx, a, b, c, d. split; [reflexivity|]. split; [eapply ro_short; eassumption|exact V].
  - destruct k as [|k].
    + cbn in K. injection K as <- <- <-. exists [], r, dir, next, p0, sd, p1, ed. split; [reflexivity|]. split; [constructor|]. auto.
    + cbn [nth_error] in K. destruct (IHrun_of _ _ _ _ K) as (s1 & s2 & z & nx & a & b & c & d & -> & R & V).
      exists (seg :: s1), s2, z, nx, a, b, c, d. split; [reflexivity|]. split; [|exact V].
      cbn [firstn]. eapply ro_draw; eassumption.
Qed.

Definition is_close (s : segment) : bool := match s with SCloseTo _ => true | _ => false end.
Definition closes (l : list segment) : nat := length (filter is_close l).

Lemma closes_app : forall a b, closes (a ++ b) = (closes a + closes b)%nat.
Proof.
  intros a b. unfold closes. induction a as [|s a IH]; [reflexivity|]. cbn [app filter]. destruct (is_close s); cbn [length]; lia.
Qed.
Lemma closes_le : forall a, (closes a <= length a)%nat.
Proof. unfold closes. induction a as [|s a IH]; [cbn; lia|]. cbn [filter length]. destruct (is_close s); cbn [length]; lia. Qed.

Definition few (n : nat) : Prop := INR n <= bpow radix2 40 /\ INR n <= 65536 * Q.

Lemma few_le : forall n m, (m <= n)%nat -> few n -> few m.
Proof. intros n m H [A B]. apply le_INR in H. split; lra. Qed.

Lemma few_u : forall n, few n -> 0 <= INR n * (u53 * Q) <= Q / 8192.
Proof.
  intros n [A _]. pose proof (pos_INR n) as P. split; [apply Rmult_le_pos; assumption|].
  assert (U : bpow radix2 40 * u53 = / 8192).
  { unfold u53. rewrite <- bpow_plus. reflexivity. }
  pose proof u53_pos as [U0 U1].
  replace (Q / 8192) with (bpow radix2 40 * (u53 * Q)) by (rewrite <- Rmult_assoc, U; field).
  apply Rmult_le_compat_r; assumption.
Qed.

Definition drift (part : list segment) : R := 710 * (INR (length part) * (u53 * Q)) + 4 / 1000000 * INR (closes part).

Lemma drift_bound : forall part, few (length part) -> 0 <= drift part <= Q / 2.
Proof.
  intros part F. pose proof (few_u _ F) as U. destruct F as [_ F]. pose proof (le_INR _ _ (closes_le part)) as C.
  pose proof (pos_INR (closes part)). unfold drift. lra.
Qed.

Lemma short_facts : is_finite short = true /\ B2R short <= 101 / 100000000.
Proof.
  assert (E : B2SF short = SpecFloat.S754_finite false 4722366482869645 (-72)) by (vm_compute; reflexivity).
  destruct short as [?|?| |sg m e H]; try discriminate E. cbn [B2SF] in E. injection E as -> -> ->.
  split; [reflexivity|]. unfold B2R, F2R. cbn [Fnum Fexp cond_Zopp bpow].
  replace (Z.pow_pos radix2 72) with 4722366482869645213696%Z by reflexivity. lra.
Qed.

Lemma u53_small : u53 <= 1 / 1000000.
Proof.
  unfold u53. cbn [bpow]. match goal with |- / IZR ?z <= _ => let y := eval vm_compute in z in change z with y end. lra.
Qed.

Lemma short_step : forall pos p, fits Q pos -> fits Q p -> flt (fvlength (fvsub pos p)) short = true ->
  Rabs (B2R (fx p) - B2R (fx pos)) <= 4 / 1000000 + 2 * (u53 * Q) /\
  Rabs (B2R (fy p) - B2R (fy pos)) <= 4 / 1000000 + 2 * (u53 * Q).
Proof.
  intros pos p Fp Fq H. destruct (line_parts pos p Fp Fq) as [(_ & _ & W1 & W2) S].
  destruct (fits_le (5 / 2 * Q) (4 * Q) _ ltac:(lra) S) as [[F1 F2] [B1 B2]].
  pose proof (reach_wide Q Q_ok) as HW. destruct short_facts as [FS VS]. pose proof u53_pos as [U0 U1].
  destruct (length_facts (fvsub pos p) (4 * Q) F1 F2 HW B1 B2) as (FL & BL & C).
  change (fgt short (fvlength (fvsub pos p)) = true) in H. apply fgt_spec in H; [|assumption..].
  cbn [rv vsub vx vy] in W1, W2. apply abs_between in W1, W2.
  assert (K : Rabs (B2R (fx (fvsub pos p))) <= 39 / 10000000 /\ Rabs (B2R (fy (fvsub pos p))) <= 39 / 10000000).
  { assert (UU : u53 <= 1 / 1000000) by exact u53_small. destruct C as [(_ & X & Y)|(_ & X & Y)]; split; lra. }
  destruct K as [K1 K2]. apply abs_between in K1, K2. split; apply Rabs_le; lra.
Qed.

Lemma run_chain : forall part q x l q' y, run_of g no_skip q x part l q' y -> pens_fit q part -> Forall (sized g Q) part ->
  Forall good l -> few (length part) ->
  exists e, ends_at (map snd l) e /\ within (drift part) e (vsub (rv q') (rv q)).
Proof.
  induction part as [|seg part IH] using rev_ind; intros q x l q' y R PF S G N.
  - inversion R; subst. exists fvzero. split; [constructor|]. destruct zero_value as [Fz Vz].
    unfold drift, closes. cbn [length filter INR].
    repeat split; cbn [fvzero fx fy vsub vx vy rv]; auto; rewrite Vz; apply Rabs_le; lra.
  - apply run_of_split in R. destruct R as (l1 & l2 & c & z & -> & R1 & R2).
    pose proof (pens_first _ _ PF) as Fq. pose proof (pens_last _ _ PF) as FQ'. apply pens_app in PF. destruct PF as [PF1 PF2].
    rewrite <- (run_pen _ _ _ _ _ _ R1) in PF2. pose proof (pens_first _ _ PF2) as FC.
    apply Forall_app in S. destruct S as [S1 S2]. inversion S2 as [|? ? S3 _]; subst.
    apply Forall_app in G. destruct G as [G1 G2]. rewrite app_length in N. cbn [length] in N.
    assert (N1 : few (length part)) by (eapply few_le; [|exact N]; lia).
    destruct (IH _ _ _ _ _ R1 PF1 S1 G1 N1) as (e & E & W). clear IH.
    pose proof (run_pen _ _ _ _ _ _ (run_of_app _ _ _ _ _ _ _ _ _ _ _ _ R1 R2)) as EQ'. rewrite <- EQ' in FQ'. clear EQ'.
    pose proof (drift_bound part N1) as DB. pose proof (reach_huge Q Q_ok) as HH. pose proof u53_pos as [U0 U1].
    assert (DR : drift (part ++ [seg]) = drift part + 710 * (u53 * Q) + 4 / 1000000 * INR (closes [seg])).
    { unfold drift. rewrite closes_app, app_length, !plus_INR. cbn [length]. change (INR 1) with 1. ring. }
    pose proof (pos_INR (closes [seg])) as PC.
    inversion R2; subst; try contradiction.
    + match goal with K : run_of _ _ _ _ [] _ _ _ |- _ => inversion K; subst end.
      rewrite app_nil_r. exists e. split; [exact E|]. cbn [sized] in S3.
      destruct (short_step c q' FC S3 ltac:(assumption)) as [D1 D2].
      rewrite DR. unfold closes. cbn [filter is_close length]. change (INR 1) with 1.
      apply within_le with (drift part + (4 / 1000000 + 2 * (u53 * Q))); [lra|].
      eapply within_move; [exact W| |]; cbn [rv vsub vx vy].
      * rewrite Rabs_minus_sym. replace (_ - _) with (B2R (fx q') - B2R (fx c)) by ring. exact D1.
      * rewrite Rabs_minus_sym. replace (_ - _) with (B2R (fy q') - B2R (fy c)) by ring. exact D2.
    + match goal with K : run_of _ _ _ _ [] _ _ _ |- _ => inversion K; subst end.
      inversion G2 as [|? ? G3 _]; subst. unfold good in G3. cbn [fst snd] in G3.
      match goal with A : seg_info _ _ _ = Ok _, B : fc_value curve (fc_length curve) = Ok _ |- _ =>
        destruct (piece_end _ _ _ _ _ _ S3 FC A G3 B) as (FL & BL & EN & WP) end.
      rewrite map_app. cbn [map snd]. eexists. split; [econstructor; [exact E|eassumption]|].
      assert (EQ : vsub (rv q') (rv q) = vadd (vsub (rv q') (rv c)) (vsub (rv c) (rv q))).
      { unfold vsub, vadd. cbn [vx vy]. f_equal; ring. }
      rewrite EQ, DR.
      assert (B1 : box (2 * Q) (vsub (rv q') (rv c))).
      { destruct FQ' as [_ [X1 Y1]]. destruct FC as [_ [X2 Y2]]. apply abs_between in X1, Y1, X2, Y2.
        split; cbn [vsub vx vy]; apply Rabs_le; lra. }
      assert (B2 : box (2 * Q) (vsub (rv c) (rv q))).
      { destruct Fq as [_ [X1 Y1]]. destruct FC as [_ [X2 Y2]]. apply abs_between in X1, Y1, X2, Y2.
        split; cbn [vsub vx vy]; apply Rabs_le; lra. }
      assert (UN : 700 * (u53 * Q) <= Q).
      { pose proof (few_u 1 ltac:(eapply few_le; [|exact N]; lia)) as K. change (INR 1) with 1 in K. lra. }
      eapply within_le; [|eapply (within_add (700 * (u53 * Q)) (drift part)); [exact WP|exact W|exact B1|exact B2|lra..]].
      assert (u53 * (2 * Q + 700 * (u53 * Q) + (2 * Q + drift part)) <= 10 * (u53 * Q)); [|lra].
      replace (10 * (u53 * Q)) with (u53 * (10 * Q)) by ring. apply Rmult_le_compat_l; lra.
Qed.

(** The length of the first pieces of a run. *)
Lemma length_snoc : forall l c, length_of (l ++ [c]) = fadd (fc_length c) (length_of l).
Proof. intros l c. unfold length_of. rewrite fold_left_app. reflexivity. Qed.

Definition sane (c : fcurve) : Prop := is_finite (fc_length c) = true /\ 0 <= B2R (fc_length c) <= 64 * Q.

Lemma count_huge : forall n, few n -> 65 * Q * INR n <= huge.
Proof.
  intros n [N _]. pose proof (pos_INR n) as P.
  apply Rle_trans with (65 * (Q * bpow radix2 40)); [assert (Q * INR n <= Q * bpow radix2 40) by (apply Rmult_le_compat_l; lra); lra|].
  apply Rle_trans with (bpow radix2 7 * (reach * bpow radix2 40)).
  - change (bpow radix2 7) with 128. assert (Q * bpow radix2 40 <= reach * bpow radix2 40) by (apply Rmult_le_compat_r; [apply bpow_ge_0|lra]).
    assert (0 <= Q * bpow radix2 40) by (apply Rmult_le_pos; [lra|apply bpow_ge_0]). lra.
  - unfold reach, huge. rewrite <- !bpow_plus. apply bpow_le. lia.
Qed.

Lemma length_step : forall a b n, is_finite a = true -> is_finite b = true -> 0 <= B2R a <= 64 * Q ->
  0 <= B2R b <= 65 * Q * INR n -> few (S n) ->
  is_finite (fadd a b) = true /\ B2R b <= B2R (fadd a b) <= 65 * Q * INR (S n) /\
  Rabs (B2R (fadd a b) - (B2R a + B2R b)) <= u53 * (B2R a + B2R b).
Proof.
  intros a b n Fa Fb Ba Bb N. pose proof u53_pos as [U0 U1]. pose proof (few_u _ N) as U. rewrite S_INR in U.
  destruct N as [N N']. rewrite S_INR in *. pose proof (pos_INR n) as P.
  assert (UB : 65 * Q * (INR n + 1) <= huge) by (rewrite <- S_INR; apply count_huge; split; rewrite S_INR; assumption).
  assert (A1 : Rabs (B2R a) <= 64 * Q) by (rewrite (Rabs_pos_eq (B2R a)) by lra; lra).
  assert (A2 : Rabs (B2R b) <= 65 * Q * INR n) by (rewrite (Rabs_pos_eq (B2R b)) by lra; lra).
  destruct (add_coord a b (B2R a) (B2R b) Fa Fb) as [F E]; [rewrite Rabs_pos_eq; lra|rewrite Rabs_pos_eq; lra|lra|].
  split; [exact F|]. split; [|exact E]. split.
  - pose proof huge_1000 as HH.
    destruct (fadd_val a b Fa Fb) as [_ V]; [rewrite Rabs_pos_eq; lra|]. rewrite V.
    rewrite <- (rne_float b) at 1. apply rne_mono. lra.
  - apply abs_between in E. assert (u53 * (B2R a + B2R b) <= Q); [|lra].
    apply Rle_trans with (u53 * (65 * Q * (INR n + 1))); [apply Rmult_le_compat_l; lra|].
    replace (u53 * (65 * Q * (INR n + 1))) with (65 * ((INR n + 1) * (u53 * Q))) by ring. lra.
Qed.

Lemma lengths : forall l, Forall sane l -> few (length l) ->
  is_finite (length_of l) = true /\ 0 <= B2R (length_of l) <= 65 * Q * INR (length l).
Proof.
  induction l as [|c l IH] using rev_ind; intros S N.
  - destruct zero_value as [Fz Vz]. cbn [length_of fold_left length INR]. rewrite Vz. split; [exact Fz|lra].
  - apply Forall_app in S. destruct S as [S1 S2]. inversion S2 as [|? ? [FC BC] _]; subst.
    rewrite app_length in *. cbn [length] in *. rewrite Nat.add_1_r in *.
    destruct (IH S1 ltac:(eapply few_le; [|exact N]; lia)) as [F B]. rewrite length_snoc.
    destruct (length_step (fc_length c) (length_of l) (length l) FC F BC B N) as (F' & B' & _). split; [exact F'|lra].
Qed.

Lemma firstn_snoc : forall (A : Type) (l : list A) k x, nth_error l k = Some x -> firstn (S k) l = firstn k l ++ [x].
Proof.
  induction l as [|y l IH]; intros [|k] x H; try discriminate H.
  - cbn in H. injection H as ->. reflexivity.
  - cbn [nth_error] in H. cbn [firstn app]. f_equal. exact (IH k x H).
Qed.

Lemma Forall_firstn : forall (A : Type) (P : A -> Prop) l k, Forall P l -> Forall P (firstn k l).
Proof. intros A P l. induction l as [|y l IH]; intros [|k] H; cbn [firstn]; try constructor; inversion H; auto. Qed.

Lemma length_next : forall l k c, Forall sane l -> few (length l) -> nth_error l k = Some c ->
  is_finite (length_of (firstn k l)) = true /\ is_finite (length_of (firstn (S k) l)) = true /\
  0 <= B2R (length_of (firstn k l)) <= 65 * Q * INR (length l) /\
  B2R (length_of (firstn k l)) <= B2R (length_of (firstn (S k) l)) <= 65 * Q * INR (length l) /\
  B2R (length_of (firstn (S k) l)) <= B2R (fc_length c) + B2R (length_of (firstn k l)) + 65 * (INR (length l) * (u53 * Q)).
Proof.
  intros l k c S N K. assert (KL : (k < length l)%nat) by (apply nth_error_Some; congruence).
  assert (LK : length (firstn k l) = k) by (apply firstn_length_le; lia).
  assert (N1 : few (length (firstn k l))) by (eapply few_le; [|exact N]; lia).
  destruct (lengths (firstn k l) (Forall_firstn _ _ _ _ S) N1) as [F B]. rewrite LK in B.
  rewrite (firstn_snoc _ _ _ _ K), length_snoc.
  pose proof (proj1 (Forall_forall _ _) S c (nth_error_In _ _ K)) as [FC BC].
  destruct (length_step (fc_length c) (length_of (firstn k l)) k FC F BC B ltac:(eapply few_le; [|exact N]; lia)) as (F' & B' & E').
  pose proof (le_INR _ _ KL) as LE. rewrite S_INR in *. pose proof (pos_INR k) as P.
  assert (M1 : 65 * Q * INR k <= 65 * Q * INR (length l)) by (apply Rmult_le_compat_l; lra).
  assert (M2 : 65 * Q * (INR k + 1) <= 65 * Q * INR (length l)) by (apply Rmult_le_compat_l; lra).
  split; [exact F|]. split; [exact F'|]. split; [lra|]. split; [lra|]. apply abs_between in E'.
  assert (u53 * (B2R (fc_length c) + B2R (length_of (firstn k l))) <= 65 * (INR (length l) * (u53 * Q))); [|lra].
  replace (65 * (INR (length l) * (u53 * Q))) with (u53 * (65 * Q * INR (length l))) by ring.
  pose proof u53_pos. apply Rmult_le_compat_l; lra.
Qed.

(** What slice::binary_search_by may return for sorted lengths. *)
Definition finds (find : list f64 -> f64 -> res nat) : Prop := forall keys x i,
  Forall (fun y : f64 => is_finite y = true) keys -> is_finite x = true ->
  (forall j y z, nth_error keys j = Some y -> nth_error keys (S j) = Some z -> B2R y <= B2R z) ->
  find keys x = Ok i -> (i <= length keys)%nat /\
  forall j y, nth_error keys j = Some y -> ((j < i)%nat -> B2R y <= B2R x) /\ ((i <= j)%nat -> B2R x <= B2R y).

(** Which piece is found, and where on it. *)
Lemma found_piece : forall l P i curve, finds (g_find g) -> Forall sane l -> few (length l) -> l <> [] ->
  is_finite P = true -> 0 <= B2R P <= B2R (length_of l) + 4 * (u53 * (B2R (length_of l) + 1)) ->
  g_find g (map (fun k => length_of (firstn (S k) l)) (seq 0 (length l))) P = Ok i ->
  let k := Nat.min i (length l - 1) in nth_error l k = Some curve ->
  let s := fsub P (length_of (firstn k l)) in
  is_finite s = true /\ 0 <= B2R s <= B2R (fc_length curve) + 600 * (INR (length l) * (u53 * Q)).
Proof.
  intros l P i curve FG S N NE FP BP G k K s. pose proof u53_pos as [U0 U1].
  assert (LP : (0 < length l)%nat) by (destruct l; [congruence|cbn; lia]).
  set (keys := map (fun k => length_of (firstn (Datatypes.S k) l)) (seq 0 (length l))) in *.
  assert (LK : length keys = length l) by (unfold keys; rewrite map_length, seq_length; reflexivity).
  assert (NK : forall j, (j < length l)%nat -> nth_error keys j = Some (length_of (firstn (Datatypes.S j) l))).
  { intros j Hj. unfold keys. apply map_nth_error with (d := j).
    rewrite (nth_error_nth' (seq 0 (length l)) 0%nat) by (rewrite seq_length; exact Hj). rewrite seq_nth by exact Hj. reflexivity. }
  assert (NTH : forall j, (j < length l)%nat -> exists c, nth_error l j = Some c).
  { intros j Hj. destruct (nth_error l j) eqn:E; [eauto|]. apply nth_error_None in E. lia. }
  destruct (FG keys P i) as [I1 I2]; [| |intros j y z Y Z| |].
  - apply Forall_forall. intros y Y. apply In_nth_error in Y. destruct Y as [j Y].
    assert (Hj : (j < length l)%nat) by (rewrite <- LK; apply nth_error_Some; congruence).
    rewrite (NK j Hj) in Y. injection Y as <-. destruct (NTH j Hj) as [c C]. apply (length_next l j c S N C).
  - exact FP.
  - assert (Hj : (Datatypes.S j < length l)%nat) by (rewrite <- LK; apply nth_error_Some; congruence).
    rewrite (NK j ltac:(lia)) in Y. injection Y as <-. rewrite (NK _ Hj) in Z. injection Z as <-.
    destruct (NTH _ Hj) as [c C]. destruct (length_next l _ c S N C) as (_ & _ & _ & A & _). exact (proj1 A).
  - exact G.
  - rewrite LK in I1. assert (Hk : (k < length l)%nat) by (unfold k; lia).
    destruct (length_next l k curve S N K) as (F1 & F2 & B1 & B2 & B3).
    pose proof (proj1 (Forall_forall _ _) S curve (nth_error_In _ _ K)) as [FC BC].
    assert (LOW : B2R (length_of (firstn k l)) <= B2R P).
    { destruct k as [|k'] eqn:EK.
      - cbn [firstn length_of fold_left]. destruct zero_value as [_ ->]. lra.
      - apply (I2 k'); [apply NK; lia|unfold k in EK; lia]. }
    assert (N1 : 1 <= INR (length l)) by (apply (le_INR 1); lia).
    pose proof (few_u _ N) as UN.
    assert (UQ1 : u53 * Q <= INR (length l) * (u53 * Q)).
    { rewrite <- (Rmult_1_l (u53 * Q)) at 1. apply Rmult_le_compat_r; assumption. }
    assert (UP : u53 <= u53 * Q) by (rewrite <- (Rmult_1_r u53) at 1; apply Rmult_le_compat_l; lra).
    set (NU := INR (length l) * (u53 * Q)) in *.
    assert (HIGH : B2R P <= B2R (length_of (firstn (Datatypes.S k) l)) + 264 * NU).
    { destruct (le_lt_dec (length l) i) as [GE|LT].
      - assert (EK : Datatypes.S k = length l) by (unfold k; lia). rewrite EK, firstn_all in *.
        assert (u53 * (B2R (length_of l) + 1) <= 66 * NU); [|lra].
        apply Rle_trans with (u53 * (65 * Q * INR (length l) + 1)); [apply Rmult_le_compat_l; lra|].
        replace (u53 * (65 * Q * INR (length l) + 1)) with (65 * NU + u53) by (unfold NU; ring). lra.
      - assert (EK : k = i) by (unfold k; lia). rewrite EK in *.
        destruct (I2 i _ (NK i ltac:(lia))) as [_ X]. specialize (X ltac:(lia)). lra. }
    pose proof (reach_huge Q Q_ok) as HH.
    destruct (sub_coord P (length_of (firstn k l)) (B2R P) (B2R (length_of (firstn k l))) FP F1) as [FS _].
    { rewrite Rabs_pos_eq; lra. }
    { rewrite Rabs_pos_eq; lra. }
    { assert (HB : 65 * Q * INR (length l) <= huge / 4).
      { destruct N as [N _]. apply Rle_trans with (65 * (Q * bpow radix2 40)); [assert (Q * INR (length l) <= Q * bpow radix2 40) by (apply Rmult_le_compat_l; lra); lra|].
        apply Rle_trans with (bpow radix2 7 * (reach * bpow radix2 40)).
        - change (bpow radix2 7) with 128. assert (Q * bpow radix2 40 <= reach * bpow radix2 40) by (apply Rmult_le_compat_r; [apply bpow_ge_0|lra]).
          assert (0 <= Q * bpow radix2 40) by (apply Rmult_le_pos; [lra|apply bpow_ge_0]). lra.
        - unfold reach, huge. replace (bpow radix2 900 / 4) with (bpow radix2 898); [rewrite <- !bpow_plus; apply bpow_le; lia|].
          replace (bpow radix2 900) with (bpow radix2 898 * bpow radix2 2) by (rewrite <- bpow_plus; reflexivity).
          change (bpow radix2 2) with 4. field. }
      lra. }
    split; [exact FS|]. unfold s.
    assert (D : 0 <= B2R P - B2R (length_of (firstn k l)) <= B2R (fc_length curve) + 329 * NU) by lra.
    destruct (fsub_rel P (length_of (firstn k l)) FP F1) as [_ E].
    { rewrite Rabs_pos_eq by lra. pose proof huge_1000. lra. }
    rewrite (Rabs_pos_eq (B2R P - B2R (length_of (firstn k l)))) in E by lra. apply abs_between in E.
    assert (u53 * (B2R P - B2R (length_of (firstn k l))) <= 70 * NU).
    { apply Rle_trans with (u53 * (70 * Q)); [apply Rmult_le_compat_l; lra|]. lra. }
    assert (u53 * (B2R P - B2R (length_of (firstn k l))) <= B2R P - B2R (length_of (firstn k l))).
    { rewrite <- (Rmult_1_l (B2R P - _)) at 2. apply Rmult_le_compat_r; lra. }
    lra.
Qed.

Lemma nth_map_inv : forall (A B : Type) (f : A -> B) l k y, nth_error (map f l) k = Some y ->
  exists x, nth_error l k = Some x /\ y = f x.
Proof.
  intros A B f. induction l as [|x l IH]; intros [|k] y H; try discriminate H.
  - cbn in H. injection H as <-. exists x. auto.
  - exact (IH k y H).
Qed.

Lemma ends_unique : forall a b, ends_at a b -> forall b', ends_at a b' -> b' = b.
Proof.
  intros a b H. induction H; intros b' K; inversion K as [X|l1 e1 c1 p1 d1 A B C D].
  - reflexivity.
  - destruct l1; discriminate.
  - destruct l; discriminate.
  - apply app_inj_tail in C. destruct C as [-> ->]. rewrite H0 in B. injection B as <- <-.
    f_equal. apply IHends_at. exact A.
Qed.

Lemma sub_add : forall z q, vadd (vsub z q) q = z.
Proof. intros [x y] [a b]. unfold vsub, vadd. cbn [vx vy]. f_equal; ring. Qed.

Lemma run_sane : forall q x part l q' y, run_of g no_skip q x part l q' y -> pens_fit q part -> Forall (sized g Q) part ->
  Forall good l -> Forall sane (map snd l) /\ (length l <= length part)%nat.
Proof.
  intros q x part l q' y H. induction H; intros F S G.
  - split; [constructor|cbn; lia].
  - contradiction.
  - inversion S as [|? ? S1 S2]; subst. destruct (IHrun_of (proj2 (pens_cons _ _ _ F)) S2 G). split; [assumption|cbn [length]; lia].
  - inversion S as [|? ? S1 S2]; subst. inversion G as [|? ? G1 G2]; subst.
    destruct (piece_end _ _ _ _ _ _ S1 (pens_first _ _ F) H0 G1 H2) as (FL & BL & EN & _).
    apply pens_cons in F. destruct F as [_ F]. rewrite <- EN in F.
    destruct (IHrun_of F S2 G2) as [A B]. split; [|cbn [length]; lia].
    cbn [map snd]. constructor; [split; assumption|exact A].
Qed.

(** A place on a run of curves: near a point of one of its segments. *)
Lemma run_value : forall q part l q' y jl P p d, finds (g_find g) -> run_of g no_skip q None part l q' y ->
  pens_fit q part -> Forall (sized g Q) part -> Forall good l -> few (length part) -> l <> [] ->
  join_from [] (map snd l) = Ok jl -> is_finite P = true ->
  0 <= B2R P <= B2R (length_of (map snd l)) + 4 * (u53 * (B2R (length_of (map snd l)) + 1)) ->
  fc_value (fconcat g jl) P = Ok (p, d) ->
  exists s1 seg s2 t z, part = s1 ++ seg :: s2 /\ (forall m, seg <> SGoTo m) /\ 0 <= t <= 1 /\
    traced (rv (fpen q s1)) (rs seg) t = Some z /\ box (2 * Q) z /\
    within ((3120 * INR (length part) + 730) * (u53 * Q) + 4 / 1000000 * INR (closes part)) (fvadd p q) z.
Proof.
  intros q part l q' y jl P p d FG R PF S G N NE J FP BP V. pose proof u53_pos as [U0 U1].
  destruct (run_sane _ _ _ _ _ _ R PF S G) as [SA LE].
  assert (NL : few (length (map snd l))) by (rewrite map_length; eapply few_le; [exact LE|exact N]).
  assert (NE' : map snd l <> []) by (destruct l; [congruence|discriminate]).
  apply (C81_joined g (map snd l) jl NE' J) in V. destruct V as (i & curve & e & q0 & GI & V). cbv zeta in V.
  destruct V as (KC & EE & VC & ->).
  destruct (found_piece (map snd l) P i curve FG SA NL NE' FP BP GI KC) as [FS BS].
  set (k := Nat.min i (length (map snd l) - 1)) in *.
  apply nth_map_inv in KC. destruct KC as ([[pos seg] curve'] & KP & EC). cbn [snd] in EC. subst curve'.
  destruct (run_nth _ _ _ _ _ _ R k pos seg curve KP) as (s1 & s2 & z0 & next & a & b & c & e' & EP & R1 & SI & V0 & VL).
  pose proof (pens_first _ _ PF) as Fq. rewrite EP in PF. apply pens_app in PF. destruct PF as [PF1 PF2].
  pose proof (pens_first _ _ PF2) as FPOS.
  rewrite EP in S. apply Forall_app in S. destruct S as [S1 S2]. inversion S2 as [|? ? S3 S4]; subst part.
  pose proof (run_pen _ _ _ _ _ _ R1) as EPOS. rewrite <- EPOS in FPOS.
  assert (LP : (length s1 + 1 <= length (s1 ++ seg :: s2))%nat) by (rewrite app_length; cbn [length]; lia).
  assert (N1 : few (length s1)) by (eapply few_le; [|exact N]; lia).
  destruct (run_chain _ _ _ _ _ _ R1 PF1 S1 (Forall_firstn _ _ _ _ G) N1) as (e2 & E2 & WE).
  assert (EQE : e2 = e).
  { rewrite <- firstn_map in E2. exact (ends_unique _ _ EE _ E2). }
  subst e2. set (n := length (s1 ++ seg :: s2)) in *.
  rewrite map_length in BS. pose proof (few_u _ N) as UN.
  pose proof (le_INR _ _ LE) as LEN. pose proof (le_INR _ _ LP) as LPN. rewrite plus_INR in LPN. change (INR 1) with 1 in LPN.
  assert (M1 : INR (length l) * (u53 * Q) <= INR n * (u53 * Q)) by (apply Rmult_le_compat_r; assumption).
  assert (M2 : (INR (length s1) + 1) * (u53 * Q) <= INR n * (u53 * Q)) by (apply Rmult_le_compat_r; assumption).
  assert (M0 : 0 <= INR (length s1) * (u53 * Q)) by (apply Rmult_le_pos; [apply pos_INR|assumption]).
  set (NU := INR n * (u53 * Q)) in *.
  assert (BS' : 0 <= B2R (fsub P (length_of (firstn k (map snd l)))) <= B2R (fc_length curve) + 600 * NU).
  { destruct BS as [BS0 BS1]. split; [exact BS0|]. eapply Rle_trans; [exact BS1|]. apply Rplus_le_compat_l.
    apply Rmult_le_compat_l; [lra|exact M1]. }
  destruct (piece_value seg pos curve next _ (600 * NU) q0 d S3 FPOS SI FS ltac:(lra) BS' VC) as (t & z & T & D & BZ & WZ).
  exists s1, seg, s2, t, z. split; [reflexivity|].
  split; [intros m ->; cbn [seg_info] in SI; discriminate SI|]. split; [exact T|]. rewrite <- EPOS. split; [exact D|]. split; [exact BZ|].
  pose proof (drift_bound s1 N1) as DB. pose proof (reach_huge Q Q_ok) as HH.
  destruct BZ as [BZ1 BZ2]. apply abs_between in BZ1, BZ2. destruct FPOS as [_ [BP1 BP2]]. apply abs_between in BP1, BP2.
  destruct Fq as [[Fq1 Fq2] [BQ1 BQ2]]. assert (BQ : box Q (rv q)) by (split; assumption). apply abs_between in BQ1, BQ2.
  assert (B1 : box (3 * Q) (vsub z (rv pos))) by (split; cbn [vsub vx vy]; apply Rabs_le; lra).
  assert (B2 : box (2 * Q) (vsub (rv pos) (rv q))) by (split; cbn [vsub vx vy]; apply Rabs_le; lra).
  assert (CL : INR (closes s1) <= INR (closes (s1 ++ seg :: s2))) by (apply le_INR; rewrite closes_app; lia).
  set (E1 := 700 * (u53 * Q) + 4 * (600 * NU)) in *.
  assert (BE1 : 0 <= E1 <= Q) by (unfold E1; lra).
  assert (DV : drift s1 <= 710 * NU - 710 * (u53 * Q) + 4 / 1000000 * INR (closes (s1 ++ seg :: s2))) by (unfold drift; lra).
  pose proof (within_add E1 (drift s1) q0 _ e _ (3 * Q) (2 * Q) WZ WE B1 B2 ltac:(lra) ltac:(lra) ltac:(lra) ltac:(lra) ltac:(lra)) as W1.
  replace (vadd (vsub z (rv pos)) (vsub (rv pos) (rv q))) with (vsub z (rv q)) in W1
    by (unfold vsub, vadd; cbn [vx vy]; f_equal; ring).
  assert (X1 : 0 <= u53 * (3 * Q + E1 + (2 * Q + drift s1)) <= 10 * (u53 * Q)).
  { split; [apply Rmult_le_pos; lra|]. replace (10 * (u53 * Q)) with (u53 * (10 * Q)) by ring. apply Rmult_le_compat_l; lra. }
  set (E2' := E1 + drift s1 + u53 * (3 * Q + E1 + (2 * Q + drift s1))) in *.
  assert (B3 : box (3 * Q) (vsub z (rv q))) by (split; cbn [vsub vx vy]; apply Rabs_le; lra).
  assert (W0 : within 0 q (rv q)) by (repeat split; auto; cbn [rv vx vy]; apply Rabs_le; lra).
  assert (BE2 : 0 <= E2' <= 3 * Q) by (unfold E2'; lra).
  assert (Q3 : 0 <= 3 * Q) by lra. assert (Q1 : 0 <= Q) by lra.
  assert (HE : 3 * Q + E2' + (Q + 0) <= huge) by lra.
  pose proof (within_add E2' 0 (fvadd q0 e) _ q _ (3 * Q) Q W1 W0 B3 BQ (proj1 BE2) (Rle_refl 0) Q3 Q1 HE) as W2.
  rewrite sub_add in W2.
  eapply within_le; [|exact W2].
  assert (X2 : u53 * (3 * Q + E2' + (Q + 0)) <= 10 * (u53 * Q)).
  { replace (10 * (u53 * Q)) with (u53 * (10 * Q)) by ring. apply Rmult_le_compat_l; lra. }
  replace ((3120 * INR n + 730) * (u53 * Q)) with (3120 * NU + 730 * (u53 * Q)) by (unfold NU; ring).
  assert (TE : E2' <= 3120 * NU + 700 * (u53 * Q) + 4 / 1000000 * INR (closes (s1 ++ seg :: s2))).
  { unfold E2'. apply Rle_trans with (E1 + drift s1 + 10 * (u53 * Q)); [lra|]. unfold E1. lra. }
  clearbody E2'. lra.
Qed.

(** ** All runs of a drawing in which every GoTo takes effect *)

Lemma pen_app : forall a b p, fpen p (a ++ b) = fpen (fpen p a) b.
Proof. intros a b p. unfold fpen. apply fold_left_app. Qed.

Lemma close_in : forall q l start l', In (start, l') (close_pieces q l) -> start = q /\ l' = l /\ l <> [].
Proof. intros q [|x l] start l' H; [destruct H|]. destruct H as [H|[]]. injection H as <- <-. repeat split. discriminate. Qed.

Lemma parts_run : forall pos segs runs q dir, parts g (fun _ => no_skip) pos segs runs q dir ->
  q = fpen pos segs /\ forall start l, In (start, l) runs -> exists s1 part s2 q' y,
    segs = s1 ++ part ++ s2 /\ start = fpen pos s1 /\ run_of g no_skip start None part l q' y.
Proof.
  intros pos segs runs q dir H. induction H as [pos|pos segs runs q dir part l q' dir' p H IH R B NS|pos segs runs q dir part l q' d H IH R B].
  - split; [reflexivity|]. intros start l [].
  - destruct IH as [EQ A].
    split; [rewrite !pen_app; reflexivity|]. intros start l' I. apply in_app_or in I. destruct I as [I|I].
    + destruct (A start l' I) as (s1 & p1 & s2 & a & y & -> & E & R1).
      exists s1, p1, (s2 ++ part ++ [SGoTo p]), a, y. split; [rewrite <- !app_assoc; reflexivity|auto].
    + apply close_in in I. destruct I as (-> & -> & _). exists segs, part, [SGoTo p], q', dir'. auto.
  - destruct IH as [EQ A].
    split; [rewrite pen_app, <- EQ; eapply run_pen; eassumption|]. intros start l' I. apply in_app_or in I. destruct I as [I|I].
    + destruct (A start l' I) as (s1 & p1 & s2 & a & y & -> & E & R1).
      exists s1, p1, (s2 ++ part), a, y. split; [rewrite <- !app_assoc; reflexivity|auto].
    + apply close_in in I. destruct I as (-> & -> & _). exists segs, part, [], q', (Some d). rewrite app_nil_r. auto.
Qed.

Lemma plan_run : forall pos segs runs, plan g (fun _ => no_skip) pos segs runs ->
  forall start l, In (start, l) runs -> exists s1 part s2 q' y,
    segs = s1 ++ part ++ s2 /\ start = fpen pos s1 /\ run_of g no_skip start None part l q' y.
Proof.
  intros pos segs runs (segs0 & runs0 & q & dir & part & l & q' & dir' & -> & -> & P & R & B) start l' I.
  destruct (parts_run _ _ _ _ _ P) as [EQ A].
  apply in_app_or in I. destruct I as [I|I].
  - destruct (A start l' I) as (s1 & p1 & s2 & a & y & -> & E & R1).
    exists s1, p1, (s2 ++ part), a, y. split; [rewrite <- !app_assoc; reflexivity|auto].
  - apply close_in in I. destruct I as (-> & -> & _). exists segs0, part, [], q', dir'. rewrite app_nil_r. auto.
Qed.

(** The Bezier curves of a list of segments, drawn from [pos], have lengths that make sense. *)
Definition lengths_ok (pos : fvec) (segs : list segment) : Prop := forall s1 e c1 c2 s2 curve,
  segs = s1 ++ SCurveTo e c1 c2 :: s2 -> let rel := fvsub e (fpen pos s1) in
  g_bezier g c1 (fvadd rel c2) rel = Ok curve -> is_finite (fc_length curve) = true /\ 0 < B2R (fc_length curve) <= 64 * Q.

Lemma run_good : forall pos segs s1 part s2 l q' y, lengths_ok pos segs -> segs = s1 ++ part ++ s2 ->
  run_of g no_skip (fpen pos s1) None part l q' y -> Forall good l.
Proof.
  intros pos segs s1 part s2 l q' y L -> R. apply Forall_forall. intros [[ps sg] curve] I.
  apply In_nth_error in I. destruct I as [k K].
  destruct (run_nth _ _ _ _ _ _ R k ps sg curve K) as (a & b & z & next & x1 & x2 & x3 & x4 & -> & R1 & SI & _).
  pose proof (run_pen _ _ _ _ _ _ R1) as EP. rewrite <- pen_app in EP.
  unfold good. cbn [fst snd]. destruct sg as [|?|?|e c1 c2|]; cbn [good_length]; auto.
  cbn [seg_info] in SI. apply bind_Ok in SI. destruct SI as (cv & EB & SI). injection SI as -> <-.
  rewrite EP in EB. eapply (L (s1 ++ a)); [|exact EB]. rewrite <- !app_assoc. reflexivity.
Qed.
End Pieces.

(** ** Steps *)

Lemma steps_near : forall x s r E Q, 1 <= Q <= reach -> is_finite x = true -> is_finite s = true -> Rabs (B2R x - r) <= E ->
  Rabs r <= 2 * Q -> 0 <= E <= 2 * Q -> Rabs (B2R s) * (8 * Q) <= bpow radix2 62 ->
  Rabs (IZR (f_as_i64 (fmul x s)) - B2R s * r) <= 1 + Rabs (B2R s) * (E + 8 * (u53 * Q)).
Proof.
  intros x s r E Q HQ Fx Fs Hx Hr HE HS. pose proof u53_pos as [U0 U1]. pose proof tiny_u as TU. pose proof tiny_pos as TP.
  set (S := Rabs (B2R s)) in *. assert (S0 : 0 <= S) by apply Rabs_pos.
  assert (BX : Rabs (B2R x) <= 4 * Q).
  { apply abs_between in Hx, Hr. apply Rabs_le. lra. }
  set (a := B2R x * B2R s).
  assert (BA : Rabs a <= S * (4 * Q)).
  { unfold a. rewrite Rabs_mult. fold S. rewrite Rmult_comm. apply Rmult_le_compat_l; assumption. }
  assert (B62 : bpow radix2 62 <= bpow radix2 1000) by (apply bpow_le; lia).
  assert (SQ : 0 <= S * Q) by (apply Rmult_le_pos; lra).
  destruct (fmul_val x s Fx Fs) as [FM VM]; [fold a; lra|]. fold a in VM.
  assert (DX : Rabs (a - B2R s * r) <= S * E).
  { unfold a. replace (B2R x * B2R s - B2R s * r) with (B2R s * (B2R x - r)) by ring. rewrite Rabs_mult. fold S.
    apply Rmult_le_compat_l; assumption. }
  pose proof (rne_err a) as RE. rewrite <- VM in RE. set (y := B2R (fmul x s)) in *.
  assert (US : 0 <= u53 * Rabs a <= 4 * (u53 * (S * Q))).
  { pose proof (Rabs_pos a). split; [apply Rmult_le_pos; lra|]. replace (4 * (u53 * (S * Q))) with (u53 * (S * (4 * Q))) by ring.
    apply Rmult_le_compat_l; lra. }
  assert (UQ : u53 * (S * Q) = S * (u53 * Q)) by ring.
  assert (T : IZR (Ztrunc y) - 1 <= y <= IZR (Ztrunc y) + 1).
  { destruct (Rle_lt_dec 0 y).
    - rewrite Ztrunc_floor by assumption. pose proof (Zfloor_lb y). pose proof (Zfloor_ub y). lra.
    - rewrite Ztrunc_ceil by lra. pose proof (Zceil_ub y). pose proof (Zceil_lb y). lra. }
  assert (BY : Rabs y <= bpow radix2 62).
  { apply abs_between in RE, BA. assert (S * (4 * Q) + 4 * (u53 * (S * Q)) + tiny <= bpow radix2 62 + 0).
    { assert (1 <= bpow radix2 62 / 4).
      { change (bpow radix2 62) with 4611686018427387904. lra. }
      assert (4 * (u53 * (S * Q)) <= S * Q).
      { replace (4 * (u53 * (S * Q))) with (4 * u53 * (S * Q)) by ring. rewrite <- (Rmult_1_l (S * Q)) at 2.
        apply Rmult_le_compat_r; lra. }
      assert (u53 * u53 <= 1) by nra. lra. }
    apply Rabs_le. lra. }
  assert (V : f_as_i64 (fmul x s) = Ztrunc y).
  { unfold f_as_i64. rewrite f_as_trunc by exact FM. fold y.
    assert (Z1 : (Z.abs (Ztrunc y) <= 2 ^ 62)%Z).
    { apply le_IZR. rewrite abs_IZR. eapply Rle_trans; [|change (IZR (2 ^ 62)) with (bpow radix2 62); exact BY].
      clear - T. destruct (Rle_lt_dec 0 y).
      - rewrite Ztrunc_floor by assumption. pose proof (Zfloor_lb y).
        assert (0 <= Zfloor y)%Z by (apply Zfloor_lub; cbn; lra). apply IZR_le in H0. rewrite !Rabs_pos_eq; lra.
      - rewrite Ztrunc_ceil by lra. pose proof (Zceil_ub y).
        assert (Zceil y <= 0)%Z by (apply Zceil_glb; cbn; lra). apply IZR_le in H0. rewrite !Rabs_left1; lra. }
    unfold i64_min, i64_max. lia. }
  rewrite V. destruct (Rlt_le_dec (Rabs a) (/ 2)) as [LT|GE].
  - assert (Y0 : Ztrunc y = 0%Z).
    { assert (YH : Rabs y < 1).
      { apply abs_between in RE. assert (- / 2 < a < / 2) by (apply Rabs_lt_inv; exact LT).
        assert (u53 * u53 <= / 1024) by nra. assert (u53 * Rabs a <= / 1024) by nra. apply Rabs_lt. lra. }
      apply Rabs_lt_inv in YH. destruct (Rle_lt_dec 0 y).
      - rewrite Ztrunc_floor by assumption. apply Zfloor_imp. cbn. lra.
      - rewrite Ztrunc_ceil by lra. apply Zceil_imp. cbn. lra. }
    rewrite Y0. apply abs_between in DX. assert (- / 2 < a < / 2) by (apply Rabs_lt_inv; exact LT).
    assert (0 <= S * (u53 * Q)) by (apply Rmult_le_pos; [lra|apply Rmult_le_pos; lra]).
    replace (S * (E + 8 * (u53 * Q))) with (S * E + 8 * (S * (u53 * Q))) by ring. apply Rabs_le. lra.
  - assert (tiny <= u53 * Rabs a).
    { assert (u53 * u53 <= u53 * Rabs a) by (apply Rmult_le_compat_l; lra). lra. }
    apply abs_between in RE, DX.
    replace (S * (E + 8 * (u53 * Q))) with (S * E + 8 * (S * (u53 * Q))) by ring. apply Rabs_le. lra.
Qed.
