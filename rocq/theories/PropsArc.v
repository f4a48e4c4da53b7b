(** Properties of the arcs of a path: C77 (circle arcs), C78 (ellipses under a linear
    map), C79 (where arcs go wrong). *)
From Coq Require Import Reals Lra Psatz Bool.
From Verif Require Import Base Coords CoordsProofs Polynomials Curves TableProofs CurvesProofs PathBuild ArcProofs PropsCurves.
Open Scope R_scope.

(** ** C77: circle arcs *)

(** The circle arc SVG describes: from [p0] to [p1] on a circle of radius [r], to growing
    angles if [sweep], at least half a turn if [large]. *)
Definition svg_arc (r : R) (p0 p1 : vec) (large sweep : bool) (center : vec) (b1 b2 : R) : Prop :=
  p0 = vadd center (vscale (dir b1) r) /\ p1 = vadd center (vscale (dir b2) r) /\ flags large sweep b1 b2.

Definition arc_point (r : R) (center : vec) (b1 b2 u : R) : vec :=
  vadd center (vscale (dir (b1 + u * (b2 - b1))) r).

Lemma chord_cos : forall b1 b2, vlength (vsub (dir b2) (dir b1)) * vlength (vsub (dir b2) (dir b1)) = 2 - 2 * cos (b2 - b1).
Proof.
  intros b1 b2. rewrite length_sq. unfold vsub, dir. cbn [vx vy]. rewrite cos_minus.
  pose proof (cs1 b1). pose proof (cs1 b2). lra.
Qed.

Lemma cos_flags : forall large sweep b1 b2 b1' b2', flags large sweep b1 b2 -> flags large sweep b1' b2' ->
  cos (b2 - b1) = cos (b2' - b1') -> b2 - b1 = b2' - b1'.
Proof.
  intros large sweep b1 b2 b1' b2' [S L] [S' L'] E.
  assert (A : Rabs (b2 - b1) = Rabs (b2' - b1')).
  { assert (E' : cos (Rabs (b2 - b1)) = cos (Rabs (b2' - b1'))).
    { unfold Rabs. destruct (Rcase_abs (b2 - b1)); destruct (Rcase_abs (b2' - b1')); rewrite ?cos_neg; auto. }
    destruct large.
    - destruct (Rtotal_order (Rabs (b2 - b1)) (Rabs (b2' - b1'))) as [T|[T|T]]; auto; exfalso.
      + assert (C := cos_increasing_1 _ _ (proj1 L) ltac:(lra) (proj1 L') ltac:(lra) T). lra.
      + assert (C := cos_increasing_1 _ _ (proj1 L') ltac:(lra) (proj1 L) ltac:(lra) T). lra.
    - destruct (Rtotal_order (Rabs (b2 - b1)) (Rabs (b2' - b1'))) as [T|[T|T]]; auto; exfalso.
      + assert (C := cos_decreasing_1 (Rabs (b2 - b1)) (Rabs (b2' - b1')) ltac:(lra) ltac:(lra) ltac:(lra) ltac:(lra) T). lra.
      + assert (C := cos_decreasing_1 (Rabs (b2' - b1')) (Rabs (b2 - b1)) ltac:(lra) ltac:(lra) ltac:(lra) ltac:(lra) T). lra. }
  destruct sweep.
  - rewrite !Rabs_pos_eq in A by lra. lra.
  - rewrite !Rabs_left in A by lra. lra.
Qed.

(** The end of an arc seen from its start: a product of the start direction with a fixed
    vector; so the start direction can be recovered. *)
Lemma dir_step : forall b w, vsub (dir (b + w)) (dir b) = turn b (mk_vec (cos w - 1) (sin w)).
Proof. intros. unfold vsub, dir, turn. cbn [vx vy]. rewrite cos_plus, sin_plus. f_equal; ring. Qed.

Lemma turn_inj : forall a b v, v <> mk_vec 0 0 -> turn a v = turn b v -> dir a = dir b.
Proof.
  intros a b [x y] N H. unfold turn in H. cbn [vx vy] in H. injection H as A B. unfold dir.
  assert (P : 0 < x * x + y * y).
  { apply sumsq_pos. destruct (Req_dec x 0) as [->|]; [|auto]. right. intros ->. auto. }
  assert (X : (x * x + y * y) * (cos a - cos b) = 0).
  { transitivity (x * ((x * cos a - y * sin a) - (x * cos b - y * sin b))
                  + y * ((x * sin a + y * cos a) - (x * sin b + y * cos b))); [ring|]. rewrite A, B. ring. }
  assert (Y : (x * x + y * y) * (sin a - sin b) = 0).
  { transitivity (x * ((x * sin a + y * cos a) - (x * sin b + y * cos b))
                  - y * ((x * cos a - y * sin a) - (x * cos b - y * sin b))); [ring|]. rewrite A, B. ring. }
  apply Rmult_integral in X. apply Rmult_integral in Y. f_equal; lra.
Qed.

(** A cosine of 1 is a whole number of turns. *)
Lemma flags_cos : forall large sweep b1 b2, flags large sweep b1 b2 -> cos (b2 - b1) < 1.
Proof.
  intros large sweep b1 b2 [S L].
  assert (P : 0 < Rabs (b2 - b1) < 2 * PI) by (pose proof PI_RGT_0; destruct large; lra).
  assert (E : cos (b2 - b1) = cos (Rabs (b2 - b1))).
  { unfold Rabs. destruct (Rcase_abs (b2 - b1)); rewrite ?cos_neg; auto. }
  rewrite E. set (w := Rabs (b2 - b1)) in *.
  assert (W : w = 2 * (w / 2)) by lra. rewrite W, cos_2a_sin.
  assert (0 < sin (w / 2)) by (apply sin_gt_0; lra). nra.
Qed.

(** End points, radius and flags determine it. *)
Theorem C77_determined : forall r p0 p1 large sweep c b1 b2 c' b1' b2' u, 0 < r ->
  svg_arc r p0 p1 large sweep c b1 b2 -> svg_arc r p0 p1 large sweep c' b1' b2' ->
  arc_point r c b1 b2 u = arc_point r c' b1' b2' u.
Proof.
  intros r p0 p1 large sweep c b1 b2 c' b1' b2' u R0 (A1 & A2 & F) (B1 & B2 & F').
  assert (D : vsub (dir b2) (dir b1) = vsub (dir b2') (dir b1')).
  { assert (Q : vscale (vsub (dir b2) (dir b1)) r = vscale (vsub (dir b2') (dir b1')) r).
    { transitivity (vsub p1 p0).
      - rewrite A1, A2. unfold vscale, vsub, vadd. cbn [vx vy]. f_equal; ring.
      - rewrite B1, B2. unfold vscale, vsub, vadd. cbn [vx vy]. f_equal; ring. }
    unfold vscale in Q. injection Q as Q1 Q2. apply Rmult_eq_reg_r in Q1; [|lra]. apply Rmult_eq_reg_r in Q2; [|lra].
    apply vec_eq; auto. }
  assert (W : b2 - b1 = b2' - b1').
  { eapply cos_flags; eauto. pose proof (chord_cos b1 b2). pose proof (chord_cos b1' b2'). rewrite D in *. lra. }
  set (w := b2 - b1) in *.
  assert (E : dir b1 = dir b1').
  { apply (turn_inj b1 b1' (mk_vec (cos w - 1) (sin w))).
    - intro Z. injection Z as Z1 Z2. pose proof (flags_cos _ _ _ _ F) as FC. fold w in FC. lra.
    - rewrite <- !dir_step. replace (b1 + w) with b2 by (unfold w; ring). replace (b1' + w) with b2' by lra. auto. }
  unfold arc_point. rewrite <- W.
  assert (C : c = c').
  { assert (Q : vadd c (vscale (dir b1) r) = vadd c' (vscale (dir b1) r)) by (rewrite E at 2; congruence).
    unfold vadd in Q. injection Q as Q1 Q2. apply vec_eq; lra. }
  rewrite C. do 2 f_equal.
  unfold dir in *. injection E as EC ES. rewrite !cos_plus, !sin_plus, EC, ES. reflexivity.
Qed.

Definition arc_end (rel : bool) (pos : vec) (a : arc_args) : vec := moved rel pos (mk_vec (arc_x a) (arc_y a)).

(** A transform that mirrors the plane turns the arc the other way. *)
Definition orientation (tr : transform) (sweep : bool) : bool :=
  if Rlt_dec 0 (linear_det tr) then sweep else negb sweep.

Lemma build_arc_eq : forall rel tr pos a,
  let p := arc_end rel pos a in
  let d := lin tr (vsub p pos) in
  build_arc rel tr pos a =
    if nonzero (vx d) || nonzero (vy d) then
      let! seg := arc_segment tr a d in
      match seg with None => Ok None | Some seg => Ok (Some (p, seg)) end
    else Ok None.
Proof.
  intros rel tr pos a p d. unfold build_arc.
  replace (vsub (if rel then tapply tr (vadd (mk_vec (arc_x a) (arc_y a)) pos)
                 else tapply tr (mk_vec (arc_x a) (arc_y a))) (tapply tr pos)) with d.
  2:{ unfold d, p, arc_end, moved. rewrite <- lin_diff. destruct rel; [|reflexivity].
      do 2 f_equal. unfold vadd. f_equal; apply Rplus_comm. }
  replace (if rel then mk_vec (vx pos + arc_x a) (vy pos + arc_y a) else mk_vec (arc_x a) (arc_y a)) with p
    by (unfold p, arc_end, moved; destruct rel; reflexivity).
  reflexivity.
Qed.

Lemma nonzero_vec : forall d, nonzero (vx d) || nonzero (vy d) = true <-> d <> mk_vec 0 0.
Proof.
  intros [x y]. unfold nonzero. cbn [vx vy]. destruct (Req_EM_T x 0) as [X|X]; destruct (Req_EM_T y 0) as [Y|Y];
    cbn [orb]; split; intro H; try discriminate; try congruence; subst; exfalso; auto.
Qed.

Lemma lin_zero : forall tr u v, linear_det tr <> 0 -> lin tr (vsub u v) = mk_vec 0 0 <-> u = v.
Proof.
  intros tr u v D. split; intro H.
  - assert (Z : vsub u v = mk_vec 0 0).
    { apply (lin_inj tr); auto. rewrite H. unfold lin. cbn [vx vy]. f_equal; ring. }
    unfold vsub in Z. injection Z as A B. apply vec_eq; lra.
  - subst. unfold lin, vsub. cbn [vx vy]. f_equal; ring.
Qed.

Lemma circle_to_info : forall find fuel r a1 a2 rot cur, 0 < r -> exists c,
  segment_to_info find fuel (Arc r r a1 a2 rot) cur =
    Ok (Some (c, vadd cur (vscale (vsub (dir a2) (dir a1)) r))) /\
  ci_length c = Ok (r * Rabs (a2 - a1)) /\
  forall u, exists d, ci_value c (u * (r * Rabs (a2 - a1))) =
    Ok (vscale (vsub (dir (a1 + u * (a2 - a1))) (dir a1)) r, d).
Proof.
  intros find fuel r a1 a2 rot cur R0.
  assert (V : forall u, exists d, circle_value (circle_new r a1 a2) (u * (r * Rabs (a2 - a1))) =
    (vscale (vsub (dir (a1 + u * (a2 - a1))) (dir a1)) r, d)).
  { intros u. unfold circle_value, circle_new. cbn [c_radius c_start c_end c_center c_scale].
    replace (u * (r * Rabs (a2 - a1)) * angle_scale r a1 a2 + a1) with (a1 + u * (a2 - a1)).
    - eexists. f_equal. unfold vscale, vsub, vadd, dir. cbn [vx vy]. f_equal; ring.
    - pose proof (circle_angle r a1 a2 R0) as C.
      replace (u * (r * Rabs (a2 - a1)) * angle_scale r a1 a2) with (u * (r * Rabs (a2 - a1) * angle_scale r a1 a2)) by ring.
      replace (r * Rabs (a2 - a1) * angle_scale r a1 a2) with (a2 - a1) by lra. ring. }
  exists (circle_info (circle_new r a1 a2)). split; [|split].
  - cbn [segment_to_info]. destruct (Rlt_dec f64_epsilon (Rabs (r - r))) as [C|_].
    + rewrite Rminus_diag_eq, Rabs_R0 in C by reflexivity. pose proof eps_pos. lra.
    + destruct (V 1) as [d E]. rewrite Rmult_1_l in E.
      change (circle_length (circle_new r a1 a2)) with (r * Rabs (a2 - a1)). rewrite E.
      replace (a1 + 1 * (a2 - a1)) with a2 by ring. reflexivity.
  - reflexivity.
  - intros u. destruct (V u) as [d E]. exists d. cbn [circle_info ci_value]. rewrite E. reflexivity.
Qed.

Theorem C77_circle : forall rel tr pos a s, 0 < arc_rx a -> arc_ry a = arc_rx a -> arc_rot a = 0 ->
  0 < s -> similar tr s ->
  let p := arc_end rel pos a in
  (build_arc rel tr pos a = Ok None <-> p = pos \/ 2 * arc_rx a < vlength (vsub p pos)) /\
  forall q seg, build_arc rel tr pos a = Ok (Some (q, seg)) ->
    q = p /\
    exists center b1 b2, svg_arc (arc_rx a) pos p (arc_large a) (orientation tr (arc_sweep a)) center b1 b2 /\
    forall find fuel, exists c len,
      segment_to_info find fuel seg (tapply tr pos) = Ok (Some (c, tapply tr p)) /\
      ci_length c = Ok len /\
      forall u, exists v d, ci_value c (u * len) = Ok (v, d) /\
        vadd (tapply tr pos) v = tapply tr (arc_point (arc_rx a) center b1 b2 u).
Proof.
  intros rel tr pos a s RP RE RZ S SI p.
  assert (DN : linear_det tr <> 0).
  { intro Z. pose proof (similar_det _ _ SI) as D. rewrite Z in D. assert (0 < s * s) by nra. nra. }
  rewrite build_arc_eq. fold p. set (d := lin tr (vsub p pos)).
  destruct (nonzero (vx d) || nonzero (vy d)) eqn:NZ.
  2:{ split; [|discriminate]. split; [intros _|auto]. left. apply (lin_zero tr); auto. fold d.
      destruct (Req_dec (vx d) 0) as [X|X]; destruct (Req_dec (vy d) 0) as [Y|Y]; [apply vec_eq; auto|..];
      exfalso; unfold nonzero in NZ; destruct (Req_EM_T (vx d) 0); destruct (Req_EM_T (vy d) 0); try contradiction; discriminate. }
  apply nonzero_vec in NZ.
  destruct (arc_segment_circle tr a d s NZ RP RE S SI) as [AN AS]. set (r := arc_rx a) in *.
  assert (NE : p <> pos). { intro E. apply NZ. apply lin_zero; auto. }
  split.
  - assert (LL : vlength d = s * vlength (vsub p pos)) by (apply lin_length; auto).
    destruct (arc_segment tr a d) as [[seg|]| |]; cbn [bind].
    + split; intro H; [discriminate|]. destruct H as [H|H]; [contradiction|]. exfalso.
      assert (Z : @Ok (option curve_segment) (Some seg) = Ok None) by (apply AN; rewrite LL; nra). discriminate.
    + split; intro H; [|reflexivity]. right. assert (Z : 2 * (s * r) < vlength d) by (apply AN; auto).
      rewrite LL in Z. nra.
    + split; intro H; [discriminate|]. destruct H as [H|H]; [contradiction|].
      assert (Z : @Panic (option curve_segment) = Ok None) by (apply AN; rewrite LL; nra). discriminate.
    + split; intro H; [discriminate|]. destruct H as [H|H]; [contradiction|].
      assert (Z : @OutOfFuel (option curve_segment) = Ok None) by (apply AN; rewrite LL; nra). discriminate.
  - intros q seg H. destruct (arc_segment tr a d) as [[sg|]| |] eqn:ES; cbn [bind] in H; try discriminate.
    injection H as <- <-. split; [reflexivity|].
    destruct (AS _ eq_refl) as (a1 & a2 & -> & F & T). rewrite RZ in T.
    assert (TT : vscale (vsub (dir a2) (dir a1)) (s * r) = d).
    { rewrite T. unfold turn. rewrite cos_0, sin_0. apply vec_eq; cbn [vx vy]; ring. }
    destruct (similar_angle tr s S SI) as [th AT].
    assert (BB : exists b1 b2, flags (arc_large a) (orientation tr (arc_sweep a)) b1 b2 /\
       forall u, lin tr (vscale (dir (b1 + u * (b2 - b1))) r) = vscale (dir (a1 + u * (a2 - a1))) (s * r)).
    { assert (LS : forall v k, lin tr (vscale v k) = vscale (lin tr v) k).
      { intros. unfold lin, vscale. cbn [vx vy]. f_equal; ring. }
      unfold orientation. destruct AT as [[DP AT]|[DP AT]].
      - destruct (Rlt_dec 0 (linear_det tr)); [|lra]. exists (a1 - th), (a2 - th). split.
        + unfold flags in *. replace (a2 - th - (a1 - th)) with (a2 - a1) by ring.
          destruct (arc_sweep a); (split; [lra|apply F]).
        + intros u. rewrite LS, AT. replace (a1 - th + u * (a2 - th - (a1 - th)) + th) with (a1 + u * (a2 - a1)) by ring.
          unfold vscale. cbn [vx vy]. f_equal; ring.
      - destruct (Rlt_dec 0 (linear_det tr)); [lra|]. exists (th - a1), (th - a2). split.
        + unfold flags in *. replace (th - a2 - (th - a1)) with (- (a2 - a1)) by ring. rewrite Rabs_Ropp.
          destruct (arc_sweep a); cbn [negb]; (split; [lra|apply F]).
        + intros u. rewrite LS, AT. replace (th - (th - a1 + u * (th - a2 - (th - a1)))) with (a1 + u * (a2 - a1)) by ring.
          unfold vscale. cbn [vx vy]. f_equal; ring. }
    destruct BB as (b1 & b2 & FB & BL).
    exists (vsub pos (vscale (dir b1) r)), b1, b2.
    assert (P0 : pos = vadd (vsub pos (vscale (dir b1) r)) (vscale (dir b1) r)).
    { unfold vadd, vsub. apply vec_eq; cbn [vx vy]; ring. }
    split; [split; [exact P0|split; [|exact FB]]|].
    + assert (Q : vsub p pos = vsub (vscale (dir b2) r) (vscale (dir b1) r)).
      { apply (lin_inj tr); auto. fold d. rewrite <- TT.
        assert (L0 := BL 0). assert (L1 := BL 1).
        replace (b1 + 0 * (b2 - b1)) with b1 in L0 by ring. replace (a1 + 0 * (a2 - a1)) with a1 in L0 by ring.
        replace (b1 + 1 * (b2 - b1)) with b2 in L1 by ring. replace (a1 + 1 * (a2 - a1)) with a2 in L1 by ring.
        transitivity (vsub (vscale (dir a2) (s * r)) (vscale (dir a1) (s * r))).
        - unfold vscale, vsub. cbn [vx vy]. f_equal; ring.
        - rewrite <- L0, <- L1. unfold lin, vsub. cbn [vx vy]. f_equal; ring. }
      assert (Q1 := f_equal vx Q). assert (Q2 := f_equal vy Q). unfold vsub, vscale, dir in Q1, Q2. cbn [vx vy] in Q1, Q2.
      apply vec_eq; unfold vadd, vsub, vscale, dir; cbn [vx vy]; lra.
    + intros find fuel. assert (R0 : 0 < s * r) by nra.
      destruct (circle_to_info find fuel (s * r) a1 a2 0 (tapply tr pos) R0) as (c & I1 & I2 & I3).
      exists c, (s * r * Rabs (a2 - a1)). split; [|split; [exact I2|]].
      * rewrite I1. do 3 f_equal. rewrite TT. unfold d. rewrite <- lin_diff. unfold vadd, vsub. apply vec_eq; cbn [vx vy]; ring.
      * intros u. destruct (I3 u) as [dd E]. eexists. exists dd. split; [exact E|].
        assert (L0 := BL 0). assert (LU := BL u).
        replace (b1 + 0 * (b2 - b1)) with b1 in L0 by ring. replace (a1 + 0 * (a2 - a1)) with a1 in L0 by ring.
        transitivity (vadd (tapply tr pos) (lin tr (vsub (arc_point r (vsub pos (vscale (dir b1) r)) b1 b2 u) pos))).
        -- f_equal. transitivity (vsub (vscale (dir (a1 + u * (a2 - a1))) (s * r)) (vscale (dir a1) (s * r))).
           ++ unfold vscale, vsub. cbn [vx vy]. f_equal; ring.
           ++ rewrite <- L0, <- LU. unfold arc_point, lin, vsub, vadd. cbn [vx vy]. f_equal; ring.
        -- rewrite <- lin_diff. unfold vadd, vsub. apply vec_eq; cbn [vx vy]; ring.
Qed.

(** When an arc is built at all: the chord fits. *)
Lemma build_arc_some : forall rel tr pos a rx ry rot,
  transform_ellipse (arc_rx a) (arc_ry a) (arc_rot a) (mk_mat (m0 tr) (m2 tr) (m1 tr) (m3 tr)) = Ok (rx, ry, rot) ->
  0 < rx -> 0 < ry ->
  let d := lin tr (vsub (arc_end rel pos a) pos) in
  let t := turn (arc_rot a) d in
  d <> mk_vec 0 0 -> half_chord rx ry (vx t) (vy t) <= 1 ->
  exists r, build_arc rel tr pos a = Ok (Some r).
Proof.
  intros rel tr pos a rx ry rot T X Y d t NZ L. rewrite build_arc_eq. fold d.
  rewrite (proj2 (nonzero_vec d) NZ).
  destruct (arc_segment_spec tr a d rx ry rot NZ T X Y) as [AN _].
  assert (OK : exists o, arc_segment tr a d = Ok o).
  { unfold arc_segment. rewrite T. cbn [bind].
    destruct (chord _ _ _ _) as [[[[x1 y1] x2] y2]|]; [|eauto]. destruct (arc_angles _ _ _ _ _ _ _ _). eauto. }
  destruct OK as [[seg|] OK]; rewrite OK in *; cbn [bind]; [eauto|].
  exfalso. assert (H : 1 < half_chord rx ry (vx t) (vy t)) by (apply AN; reflexivity). lra.
Qed.

Lemma build_circle_some : forall rel tr pos a s, 0 < arc_rx a -> arc_ry a = arc_rx a ->
  0 < s -> similar tr s -> arc_end rel pos a <> pos ->
  vlength (vsub (arc_end rel pos a) pos) <= 2 * arc_rx a ->
  exists r, build_arc rel tr pos a = Ok (Some r).
Proof.
  intros rel tr pos a s RP RE S SI NE L.
  assert (DN : linear_det tr <> 0).
  { intro Z. pose proof (similar_det _ _ SI) as D. rewrite Z in D. assert (0 < s * s) by nra. nra. }
  assert (R0 : 0 < s * arc_rx a) by nra.
  apply (build_arc_some rel tr pos a (s * arc_rx a) (s * arc_rx a) 0); auto.
  - rewrite RE. apply transform_circle; auto.
  - intro H. apply lin_zero in H; auto.
  - apply Rnot_lt_le. intro H. apply half_chord_circle in H; auto.
    rewrite turn_length, (lin_length tr s) in H by auto. nra.
Qed.

Lemma quarter_length : vlength (mk_vec (-1) 1) <= 2.
Proof.
  unfold vlength. cbn [vx vy]. replace 2 with (sqrt (2 * 2)) by (apply sqrt_square; lra).
  apply sqrt_le_1; lra.
Qed.

(** A quarter circle from (1,0) to (0,1), seen through a transform that doubles and shifts. *)
Example C77_example :
  let tr := mk_tr 2 0 0 2 5 7 in
  let a := mk_arc_args 1 1 0 false true 0 1 in
  similar tr 2 /\ 0 < arc_rx a /\ arc_ry a = arc_rx a /\ arc_rot a = 0 /\
  exists r, build_arc false tr (mk_vec 1 0) a = Ok (Some r).
Proof.
  cbn zeta. assert (SI : similar (mk_tr 2 0 0 2 5 7) 2) by (unfold similar; cbn; repeat split; ring).
  split; [exact SI|]. split; [cbn; lra|]. split; [reflexivity|]. split; [reflexivity|].
  apply (build_circle_some _ _ _ _ 2); auto; cbn [arc_rx arc_ry]; try lra.
  - unfold arc_end, moved. cbn. intro H. injection H. lra.
  - replace (vsub _ _) with (mk_vec (-1) 1) by (unfold vsub, arc_end, moved; cbn; f_equal; ring).
    rewrite Rmult_1_r. apply quarter_length.
Qed.

(** ** C78: the image of an ellipse *)

Definition linear_part (tr : transform) : mat := mk_mat (m0 tr) (m2 tr) (m1 tr) (m3 tr).

(** transform_ellipse yields an ellipse with exactly the points that the transform makes of
    the points of the given one, the longer radius first; it panics only for a transform
    that flattens the plane. *)
Theorem C78_image : forall rx ry rot tr, rx <> 0 -> ry <> 0 ->
  (transform_ellipse rx ry rot (linear_part tr) = Panic <-> linear_det tr = 0) /\
  (linear_det tr <> 0 ->
   exists rx' ry' rot', transform_ellipse rx ry rot (linear_part tr) = Ok (rx', ry', rot') /\
     0 < ry' <= rx' /\ - (PI / 2) < rot' <= PI / 2 /\
     forall w, (exists a, w = ellipse_point rx' ry' rot' a) <-> (exists a, w = lin tr (ellipse_point rx ry rot a))).
Proof.
  intros rx ry rot tr X Y.
  assert (DE : det (linear_part tr) = linear_det tr) by (unfold det, linear_part, linear_det; cbn; ring).
  assert (G : linear_det tr <> 0 ->
   exists rx' ry' rot', transform_ellipse rx ry rot (linear_part tr) = Ok (rx', ry', rot') /\
     0 < ry' <= rx' /\ - (PI / 2) < rot' <= PI / 2 /\
     forall w, (exists a, w = ellipse_point rx' ry' rot' a) <-> (exists a, w = lin tr (ellipse_point rx ry rot a))).
  { intros D. rewrite <- DE in D.
    destruct (transform_ellipse_spec rx ry rot (linear_part tr) X Y D) as (rx' & ry' & rot' & E & O & RR & I).
    exists rx', ry', rot'. split; [exact E|]. split; [exact O|]. split; [exact RR|].
    assert (ML : forall v, mapply (linear_part tr) v = lin tr v) by reflexivity.
    intros w. rewrite <- implicit_point by lra. split.
    - intros H.
      (* the point that the map takes to w *)
      set (v := mk_vec ((m3 tr * vx w - m2 tr * vy w) / linear_det tr) ((m0 tr * vy w - m1 tr * vx w) / linear_det tr)).
      assert (LV : lin tr v = w).
      { unfold v, lin, linear_det. rewrite DE in D. unfold linear_det in D. apply vec_eq; cbn [vx vy]; field; auto. }
      specialize (I v). rewrite ML, LV, H in I. symmetry in I. apply implicit_point in I; auto.
      destruct I as [a Ia]. exists a. rewrite <- Ia, LV. reflexivity.
    - intros [a ->]. rewrite <- ML. rewrite I. apply implicit_point; auto. exists a. reflexivity. }
  split; [|exact G]. split.
  - intros H. destruct (Req_dec (linear_det tr) 0) as [|N]; [auto|]. destruct (G N) as (? & ? & ? & E & _).
    rewrite E in H. discriminate.
  - intros Z. unfold transform_ellipse, invert2x2. fold (det (linear_part tr)). rewrite DE.
    destruct (Req_EM_T (linear_det tr) 0); [reflexivity|contradiction].
Qed.

Example C78_example : let tr := mk_tr (-1) (1/5) (3/10) 2 0 0 in 2 <> 0 /\ 3 <> 0 /\ linear_det tr <> 0.
Proof. cbn zeta. unfold linear_det. cbn. lra. Qed.

(** ** C79: where arcs go wrong *)

Lemma turn_turn : forall a b v, turn a (turn b v) = turn (a + b) v.
Proof. intros a b [x y]. unfold turn. cbn [vx vy]. rewrite cos_plus, sin_plus. f_equal; ring. Qed.

Lemma turn_fix : forall a v, v <> mk_vec 0 0 -> turn a v = v <-> cos a = 1.
Proof.
  intros a v N. split; intro H.
  - assert (E : dir a = dir 0).
    { apply (turn_inj a 0 v); auto. rewrite H. unfold turn. rewrite cos_0, sin_0. apply vec_eq; cbn [vx vy]; ring. }
    unfold dir in E. injection E as E _. rewrite cos_0 in E. exact E.
  - assert (S : sin a = 0). { pose proof (cs1 a) as C. rewrite H in C. nra. }
    unfold turn. rewrite H, S. apply vec_eq; cbn [vx vy]; ring.
Qed.

(** The angles are taken after turning the chord by the rotation of the arc; the ellipse is
    turned by the rotation transform_ellipse found.  So the arc ends in the right place only
    if the two cancel. *)
Theorem C79_displacement : forall rel tr pos a q seg, arc_rx a <> 0 -> arc_ry a <> 0 ->
  build_arc rel tr pos a = Ok (Some (q, seg)) ->
  let d := vsub (tapply tr (arc_end rel pos a)) (tapply tr pos) in
  exists rx ry a1 a2 rot, seg = Arc rx ry a1 a2 rot /\
    transform_ellipse (arc_rx a) (arc_ry a) (arc_rot a) (linear_part tr) = Ok (rx, ry, rot) /\
    vsub (ellipse_point rx ry rot a2) (ellipse_point rx ry rot a1) = turn (rot + arc_rot a) d /\
    (vsub (ellipse_point rx ry rot a2) (ellipse_point rx ry rot a1) = d <-> cos (rot + arc_rot a) = 1).
Proof.
  intros rel tr pos a q seg X Y H d. rewrite build_arc_eq in H.
  assert (DL : d = lin tr (vsub (arc_end rel pos a) pos)) by (apply lin_diff). rewrite <- DL in H.
  destruct (nonzero (vx d) || nonzero (vy d)) eqn:NZ; [|discriminate]. apply nonzero_vec in NZ.
  destruct (arc_segment tr a d) as [[sg|]| |] eqn:ES; cbn [bind] in H; try discriminate. injection H as <- <-.
  destruct (C78_image (arc_rx a) (arc_ry a) (arc_rot a) tr X Y) as [P G].
  destruct (Req_dec (linear_det tr) 0) as [Z|Z].
  { unfold arc_segment in ES. apply P in Z. unfold linear_part in Z. rewrite Z in ES. discriminate. }
  destruct (G Z) as (rx & ry & rot & E & O & _ & _).
  assert (X' : 0 < rx) by lra. assert (Y' : 0 < ry) by lra.
  destruct (arc_segment_spec tr a d rx ry rot NZ E X' Y') as [_ S].
  destruct (S _ ES) as (a1 & a2 & -> & _ & T).
  exists rx, ry, a1, a2, rot. split; [reflexivity|]. split; [exact E|].
  assert (V : vsub (ellipse_point rx ry rot a2) (ellipse_point rx ry rot a1) = turn (rot + arc_rot a) d).
  { rewrite <- turn_turn, <- T. unfold ellipse_point, turn, vsub. cbn [vx vy]. f_equal; ring. }
  split; [exact V|]. rewrite V. apply turn_fix. exact NZ.
Qed.

(** A circle arc with an x-axis-rotation, which has no meaning for a circle, is drawn to the
    wrong place. *)
Theorem C79_circle_rotation : forall rel tr pos a s q seg find fuel,
  0 < arc_rx a -> arc_ry a = arc_rx a -> 0 < s -> similar tr s ->
  build_arc rel tr pos a = Ok (Some (q, seg)) ->
  let p := tapply tr (arc_end rel pos a) in
  exists c e, segment_to_info find fuel seg (tapply tr pos) = Ok (Some (c, e)) /\
    e = vadd (tapply tr pos) (turn (arc_rot a) (vsub p (tapply tr pos))) /\
    (e = p <-> cos (arc_rot a) = 1).
Proof.
  intros rel tr pos a s q seg find fuel RP RE S SI H p. rewrite build_arc_eq in H.
  set (d := lin tr (vsub (arc_end rel pos a) pos)) in H.
  assert (DL : vsub p (tapply tr pos) = d) by apply lin_diff.
  destruct (nonzero (vx d) || nonzero (vy d)) eqn:NZ; [|discriminate]. apply nonzero_vec in NZ.
  destruct (arc_segment tr a d) as [[sg|]| |] eqn:ES; cbn [bind] in H; try discriminate. injection H as <- <-.
  destruct (arc_segment_circle tr a d s NZ RP RE S SI) as [_ AS].
  destruct (AS _ ES) as (a1 & a2 & -> & F & T).
  assert (R0 : 0 < s * arc_rx a) by nra.
  destruct (circle_to_info find fuel (s * arc_rx a) a1 a2 0 (tapply tr pos) R0) as (c & I1 & _).
  exists c. eexists. split; [exact I1|]. rewrite T, DL. split; [reflexivity|].
  rewrite <- (turn_fix (arc_rot a) d NZ). split; intro E.
  - rewrite <- DL at 2. rewrite <- E. unfold vadd, vsub. apply vec_eq; cbn [vx vy]; ring.
  - rewrite E, <- DL. unfold vadd, vsub. apply vec_eq; cbn [vx vy]; ring.
Qed.

(** An upright ellipse, higher than wide, drawn without any transform: the radii are exchanged
    and the arc ends a quarter turn away. *)
Theorem C79_tall : forall rel pos a q seg, 0 < arc_rx a < arc_ry a -> arc_rot a = 0 ->
  build_arc rel tidentity pos a = Ok (Some (q, seg)) ->
  exists a1 a2, seg = Arc (arc_ry a) (arc_rx a) a1 a2 (PI / 2) /\
    let d := vsub (arc_end rel pos a) pos in
    d <> mk_vec 0 0 /\
    vsub (ellipse_point (arc_ry a) (arc_rx a) (PI / 2) a2) (ellipse_point (arc_ry a) (arc_rx a) (PI / 2) a1) =
      rotate_90_ccw d.
Proof.
  intros rel pos a q seg [X XY] Z H.
  assert (TE : transform_ellipse (arc_rx a) (arc_ry a) (arc_rot a) (linear_part tidentity) =
               Ok (arc_ry a, arc_rx a, PI / 2)).
  { rewrite Z. set (x := arc_rx a) in *. set (y := arc_ry a) in *.
    unfold transform_ellipse, linear_part, tidentity, invert2x2. cbn [m0 m1 m2 m3 m4 m5 e0 e1 e2 e3].
    destruct (Req_EM_T (1 * 1 - 0 * 0) 0) as [B|_]; [lra|]. cbn [unwrap bind].
    set (qq := mul2x2 _ _).
    assert (E : e0 qq = / (x * x) /\ e2 qq = 0 /\ e3 qq = / (y * y)).
    { unfold qq, mul2x2, transpose2x2, ellipse_form. cbn [e0 e1 e2 e3]. rewrite sin_0, cos_0.
      repeat split; field; lra. }
    destruct E as (E0 & E2 & E3). unfold ellipse_of_form. rewrite E0, E2, E3.
    assert (L : / (y * y) < / (x * x)) by (apply Rinv_lt_contravar; [apply Rmult_lt_0_compat; nra|nra]).
    replace (atan2 (- 0 * 2) (/ (y * y) - / (x * x))) with PI.
    2:{ unfold atan2. destruct (Rlt_dec 0 _); [lra|]. destruct (Rlt_dec _ 0); [|lra].
        destruct (Rlt_dec _ 0); [lra|]. replace (- 0 * 2) with 0 by ring. unfold Rdiv. rewrite Rmult_0_l, atan_0. ring. }
    rewrite sin_PI2, cos_PI2.
    replace (/ (x * x) * (0 * 0) + 2 * 0 * (0 * 1) + / (y * y) * (1 * 1)) with (/ (y * y)) by ring.
    replace (/ (x * x) * (1 * 1) - 2 * 0 * (0 * 1) + / (y * y) * (0 * 0)) with (/ (x * x)) by ring.
    assert (0 < / (y * y)) by (apply Rinv_0_lt_compat; nra).
    destruct (Rle_dec (/ (y * y)) 0); [lra|]. destruct (Rle_dec (/ (x * x)) 0); [lra|].
    replace (1 / / (y * y)) with (y * y) by (field; lra). replace (1 / / (x * x)) with (x * x) by (field; lra).
    rewrite !sqrt_square by lra. reflexivity. }
  assert (ID : forall v, tapply tidentity v = v) by (intros v; unfold tapply, tidentity; cbn; apply vec_eq; cbn; ring).
  assert (N : vsub (arc_end rel pos a) pos <> mk_vec 0 0).
  { intro E. rewrite build_arc_eq in H. rewrite <- lin_diff, !ID, E in H. cbn [vx vy] in H.
    unfold nonzero in H. destruct (Req_EM_T 0 0); [discriminate|lra]. }
  destruct (C79_displacement rel tidentity pos a q seg ltac:(lra) ltac:(lra) H)
    as (rx & ry & a1 & a2 & rot & E & T & V & _).
  rewrite TE in T. injection T as <- <- <-. exists a1, a2. split; [exact E|]. split; [exact N|].
  rewrite V, !ID, Z, Rplus_0_r. unfold turn, rotate_90_ccw. rewrite cos_PI2, sin_PI2. f_equal; ring.
Qed.

(** On which side of the chord the middle of an arc lies depends on the sweep flag only. *)
Lemma arc_side : forall r p0 p1 large sweep c b1 b2, 0 < r -> svg_arc r p0 p1 large sweep c b1 b2 ->
  let side := cross_mul (vsub p1 p0) (vsub (arc_point r c b1 b2 (1 / 2)) p0) in
  if sweep then side < 0 else 0 < side.
Proof.
  intros r p0 p1 large sweep c b1 b2 R0 (-> & -> & F) side.
  set (h := (b2 - b1) / 2). set (m := b1 + h).
  assert (E : side = - (2 * (r * r) * sin h * (1 - cos h))).
  { unfold side, arc_point. replace (b1 + 1 / 2 * (b2 - b1)) with m by (unfold m, h; lra).
    replace b2 with (m + h) by (unfold m, h; lra). replace b1 with (m - h) by (unfold m, h; lra).
    unfold cross_mul, vsub, vadd, vscale, dir. cbn [vx vy]. rewrite cos_plus, cos_minus, sin_plus, sin_minus.
    transitivity (- (2 * (r * r) * sin h * (1 - cos h)) * (cos m * cos m + sin m * sin m)); [ring|rewrite cs1; ring]. }
  destruct F as [S L].
  assert (P : 0 < Rabs (b2 - b1) < 2 * PI) by (pose proof PI_RGT_0; destruct large; lra).
  assert (C : cos h < 1).
  { assert (CH : cos h = cos (Rabs h)) by (unfold Rabs; destruct (Rcase_abs h); rewrite ?cos_neg; auto).
    assert (AH : 0 < Rabs h < PI).
    { unfold h, Rdiv. rewrite Rabs_mult, (Rabs_pos_eq (/ 2)) by lra. lra. }
    rewrite CH. rewrite <- cos_0. apply cos_decreasing_1; lra. }
  rewrite E. destruct sweep.
  - rewrite Rabs_pos_eq in P by lra. assert (0 < sin h) by (apply sin_gt_0; unfold h; lra).
    assert (0 < 2 * (r * r) * sin h * (1 - cos h)) by (repeat apply Rmult_lt_0_compat; lra). lra.
  - rewrite Rabs_left in P by lra. assert (0 < sin (- h)) by (apply sin_gt_0; unfold h; lra). rewrite sin_neg in *.
    assert (0 < 2 * (r * r) * (- sin h) * (1 - cos h)) by (repeat apply Rmult_lt_0_compat; lra). lra.
Qed.

(** Under a transform that mirrors, a circle arc bulges to the wrong side: its middle is not
    the image of the middle of the arc that SVG describes. *)
Theorem C79_mirrored : forall rel tr pos a s q seg center b1 b2 find fuel,
  0 < arc_rx a -> arc_ry a = arc_rx a -> arc_rot a = 0 -> 0 < s -> similar tr s -> linear_det tr < 0 ->
  build_arc rel tr pos a = Ok (Some (q, seg)) ->
  svg_arc (arc_rx a) pos (arc_end rel pos a) (arc_large a) (arc_sweep a) center b1 b2 ->
  exists c len v d e, segment_to_info find fuel seg (tapply tr pos) = Ok (Some (c, e)) /\
    ci_length c = Ok len /\ ci_value c (1 / 2 * len) = Ok (v, d) /\
    vadd (tapply tr pos) v <> tapply tr (arc_point (arc_rx a) center b1 b2 (1 / 2)).
Proof.
  intros rel tr pos a s q seg center b1 b2 find fuel RP RE RZ S SI DN H A.
  destruct (C77_circle rel tr pos a s RP RE RZ S SI) as [_ C].
  destruct (C q seg H) as (-> & c' & b1' & b2' & A' & I).
  destruct (I find fuel) as (cv & len & I1 & I2 & I3). destruct (I3 (1 / 2)) as (v & d & I4 & I5).
  exists cv, len, v, d. eexists. split; [exact I1|]. split; [exact I2|]. split; [exact I4|].
  rewrite I5. intro E.
  assert (E' : arc_point (arc_rx a) c' b1' b2' (1 / 2) = arc_point (arc_rx a) center b1 b2 (1 / 2)).
  { assert (Z : vsub (arc_point (arc_rx a) c' b1' b2' (1 / 2)) (arc_point (arc_rx a) center b1 b2 (1 / 2)) = mk_vec 0 0).
    { apply (lin_inj tr); [lra|]. rewrite <- lin_diff, E. unfold vsub, lin. cbn [vx vy]. f_equal; ring. }
    assert (Z1 := f_equal vx Z). assert (Z2 := f_equal vy Z). unfold vsub in Z1, Z2. cbn [vx vy] in Z1, Z2.
    apply vec_eq; lra. }
  pose proof (arc_side _ _ _ _ _ _ _ _ RP A) as S1. pose proof (arc_side _ _ _ _ _ _ _ _ RP A') as S2.
  cbn zeta in S1, S2. rewrite E' in S2. unfold orientation in S2.
  destruct (Rlt_dec 0 (linear_det tr)); [lra|]. destruct (arc_sweep a); cbn [negb] in S2; lra.
Qed.

(** Such arcs are built: a quarter circle with a rotation of a right angle, a flat chord in a
    high ellipse, and a quarter circle in a mirror. *)
Example C79_example :
  let quarter := mk_arc_args 1 1 0 false true 0 1 in
  let turned := mk_arc_args 1 1 (PI / 2) false true 0 1 in
  let tall := mk_arc_args 1 2 0 false true 1 0 in
  let mirror := mk_tr 1 0 0 (-1) 0 0 in
  (cos (arc_rot turned) <> 1 /\ exists r, build_arc false tidentity (mk_vec 1 0) turned = Ok (Some r)) /\
  (0 < arc_rx tall < arc_ry tall /\ arc_rot tall = 0 /\
   exists r, build_arc false tidentity (mk_vec 0 0) tall = Ok (Some r)) /\
  (similar mirror 1 /\ linear_det mirror < 0 /\
   (exists r, build_arc false mirror (mk_vec 1 0) quarter = Ok (Some r)) /\
   svg_arc 1 (mk_vec 1 0) (arc_end false (mk_vec 1 0) quarter) false true (mk_vec 0 0) 0 (PI / 2)).
Proof.
  cbn zeta. split; [|split].
  - split; [cbn [arc_rot]; rewrite cos_PI2; lra|].
    apply (build_circle_some _ _ _ _ 1); cbn [arc_rx arc_ry]; try lra.
    + unfold similar, tidentity. cbn. repeat split; ring.
    + unfold arc_end, moved. cbn. intro H. injection H. lra.
    + replace (vsub _ _) with (mk_vec (-1) 1) by (unfold vsub, arc_end, moved; cbn; f_equal; ring).
      rewrite Rmult_1_r. apply quarter_length.
  - split; [cbn; lra|]. split; [reflexivity|].
    assert (I : linear_det tidentity <> 0) by (unfold linear_det, tidentity; cbn; lra).
    destruct (C78_image 1 2 0 tidentity ltac:(lra) ltac:(lra)) as [_ G]. destruct (G I) as (rx & ry & rot & E & O & _ & PT).
    (* the shorter radius is at least 1: no point of the ellipse is nearer *)
    assert (RY : 1 <= ry).
    { assert (K : exists b, ellipse_point rx ry rot (PI / 2) = lin tidentity (ellipse_point 1 2 0 b))
        by (apply PT; eexists; reflexivity).
      destruct K as [b K]. assert (KL := f_equal (fun v => vlength v * vlength v) K). cbn beta in KL.
      rewrite !length_sq in KL. unfold ellipse_point in KL.
      assert (TL : forall w v, vx (turn w v) * vx (turn w v) + vy (turn w v) * vy (turn w v) = vx v * vx v + vy v * vy v).
      { intros. rewrite <- !length_sq, turn_length. reflexivity. }
      rewrite TL in KL. cbn [vx vy] in KL. rewrite cos_PI2, sin_PI2 in KL.
      unfold lin, tidentity in KL. cbn [m0 m1 m2 m3 vx vy] in KL.
      set (u := turn 0 _) in KL.
      replace ((1 * vx u + 0 * vy u) * (1 * vx u + 0 * vy u) + (0 * vx u + 1 * vy u) * (0 * vx u + 1 * vy u))
        with (vx u * vx u + vy u * vy u) in KL by ring.
      unfold u in KL. rewrite TL in KL. cbn [vx vy] in KL. pose proof (cs1 b). pose proof (Rle_0_sqr (sin b)) as SQ.
      unfold Rsqr in SQ. nra. }
    apply (build_arc_some false tidentity (mk_vec 0 0) (mk_arc_args 1 2 0 false true 1 0) rx ry rot E); try lra.
    + unfold lin, vsub, arc_end, moved, tidentity. cbn. intro H. injection H. lra.
    + unfold half_chord, turn, lin, vsub, arc_end, moved, tidentity. cbn. rewrite sin_0, cos_0.
      replace (((1 * (1 - 0) + 0 * (0 - 0)) * 1 - (0 * (1 - 0) + 1 * (0 - 0)) * 0) / (2 * rx)) with (/ (2 * rx)) by (field; lra).
      replace (((1 * (1 - 0) + 0 * (0 - 0)) * 0 + (0 * (1 - 0) + 1 * (0 - 0)) * 1) / (2 * ry)) with 0 by (field; lra).
      assert (0 < / (2 * rx) <= 1 / 2).
      { split; [apply Rinv_0_lt_compat; lra|]. replace (1 / 2) with (/ 2) by lra. apply Rinv_le_contravar; lra. }
      nra.
  - assert (SI : similar (mk_tr 1 0 0 (-1) 0 0) 1) by (unfold similar; cbn; repeat split; ring).
    split; [exact SI|]. split; [unfold linear_det; cbn; lra|]. split.
    + apply (build_circle_some _ _ _ _ 1); auto; cbn [arc_rx arc_ry]; try lra.
      * unfold arc_end, moved. cbn. intro H. injection H. lra.
      * replace (vsub _ _) with (mk_vec (-1) 1) by (unfold vsub, arc_end, moved; cbn; f_equal; ring).
        rewrite Rmult_1_r. apply quarter_length.
    + unfold svg_arc, arc_end, moved, flags, vadd, vscale, dir. cbn [vx vy arc_x arc_y].
      rewrite cos_PI2, sin_PI2, cos_0, sin_0. pose proof PI_RGT_0. rewrite Rabs_pos_eq by lra.
      repeat split; try lra; f_equal; ring.
Qed.

Print Assumptions C77_determined.
Print Assumptions C77_circle.
Print Assumptions C78_image.
Print Assumptions C79_displacement.
Print Assumptions C79_circle_rotation.
Print Assumptions C79_tall.
Print Assumptions C79_mirrored.
