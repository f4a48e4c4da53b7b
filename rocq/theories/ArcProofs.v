(** Lemmas on the arcs of PathBuild.v: the form of an ellipse, the chord, the angles. *)
From Coq Require Import Reals Lra Psatz Bool.
From Verif Require Import Base Coords CoordsProofs Curves CurvesProofs PathBuild.
Open Scope R_scope.

(** The direction at an angle, and a vector turned by an angle. *)
Definition dir (a : R) : vec := mk_vec (cos a) (sin a).
Definition turn (a : R) (v : vec) : vec :=
  mk_vec (vx v * cos a - vy v * sin a) (vx v * sin a + vy v * cos a).

Lemma cs1 : forall t, cos t * cos t + sin t * sin t = 1.
Proof. intros t. pose proof (sin2_cos2 t) as H. unfold Rsqr in H. lra. Qed.

(** ** Forms *)

Definition form (q : mat) (x y : R) : R := e0 q * (x * x) + 2 * e2 q * (x * y) + e3 q * (y * y).

Definition implicit (rx ry rot x y : R) : R :=
  let u := (x * cos rot + y * sin rot) / rx in
  let v := (y * cos rot - x * sin rot) / ry in
  u * u + v * v.

Lemma ellipse_form_spec : forall rx ry rot x y, rx <> 0 -> ry <> 0 ->
  form (ellipse_form rx ry rot) x y = implicit rx ry rot x y.
Proof. intros. unfold form, ellipse_form, implicit. cbn [e0 e1 e2 e3]. field. auto. Qed.

Lemma ellipse_form_sym : forall rx ry rot, e1 (ellipse_form rx ry rot) = e2 (ellipse_form rx ry rot).
Proof. reflexivity. Qed.

Definition det (q : mat) : R := e0 q * e3 q - e1 q * e2 q.

Lemma ellipse_form_det : forall rx ry rot, rx <> 0 -> ry <> 0 ->
  det (ellipse_form rx ry rot) = 1 / (rx * rx * (ry * ry)).
Proof.
  intros rx ry rot X Y. unfold det, ellipse_form. cbn [e0 e1 e2 e3].
  transitivity (((cos rot * cos rot + sin rot * sin rot) * (cos rot * cos rot + sin rot * sin rot)) /
                (rx * rx * (ry * ry))).
  - field. auto.
  - rewrite cs1. field. auto.
Qed.

Lemma ellipse_form_pos : forall rx ry rot, rx <> 0 -> ry <> 0 -> 0 < e0 (ellipse_form rx ry rot).
Proof.
  intros rx ry rot X Y. unfold ellipse_form. cbn [e0].
  assert (P1 : 0 < / (rx * rx)) by (apply Rinv_0_lt_compat; nra).
  assert (P2 : 0 < / (ry * ry)) by (apply Rinv_0_lt_compat; nra).
  unfold Rdiv. pose proof (cs1 rot). pose proof (Rle_0_sqr (cos rot)). pose proof (Rle_0_sqr (sin rot)).
  unfold Rsqr in *. destruct (Rlt_le_dec 0 (cos rot * cos rot)); nra.
Qed.

Lemma atan2_any : forall y x, exists h, 0 <= h /\ x = h * cos (atan2 y x) /\ y = h * sin (atan2 y x).
Proof.
  intros y x. destruct (Req_dec x 0) as [X|X]; [destruct (Req_dec y 0) as [Y|Y]|].
  - exists 0. lra.
  - assert (K : x <> 0 \/ y <> 0) by auto. exists (sqrt (x * x + y * y)).
    destruct (atan2_polar x y K) as [C S]. pose proof (sqrt_lt_R0 _ (sumsq_pos _ _ K)).
    rewrite C, S. repeat split; try lra; field; lra.
  - assert (K : x <> 0 \/ y <> 0) by auto. exists (sqrt (x * x + y * y)).
    destruct (atan2_polar x y K) as [C S]. pose proof (sqrt_lt_R0 _ (sumsq_pos _ _ K)).
    rewrite C, S. repeat split; try lra; field; lra.
Qed.

Lemma ellipse_of_form_spec : forall q, e1 q = e2 q -> 0 < e0 q -> 0 < det q ->
  exists rx ry rot, ellipse_of_form q = Ok (rx, ry, rot) /\
    0 < ry <= rx /\ - (PI / 2) < rot <= PI / 2 /\
    forall x y, implicit rx ry rot x y = form q x y.
Proof.
  intros q S P D. unfold ellipse_of_form.
  set (w := atan2 (- e2 q * 2) (e3 q - e0 q)).
  destruct (atan2_any (- e2 q * 2) (e3 q - e0 q)) as (h & H & HC & HS). fold w in HC, HS.
  pose proof (atan2_range (e3 q - e0 q) (- e2 q * 2)) as WR. fold w in WR.
  set (t := w / 2). assert (W : w = 2 * t) by (unfold t; lra).
  rewrite W, cos_2a in HC. rewrite W, sin_2a in HS.
  set (s := sin t) in *. set (c := cos t) in *.
  assert (CS : c * c + s * s = 1) by apply cs1.
  unfold det in D. rewrite S in D.
  assert (E2 : e2 q = - h * s * c) by lra.
  assert (E3 : e3 q = e0 q + h * (c * c - s * s)) by lra.
  set (l1 := e0 q * (c * c) + 2 * e2 q * (c * s) + e3 q * (s * s)).
  set (l2 := e0 q * (s * s) - 2 * e2 q * (c * s) + e3 q * (c * c)).
  assert (L1 : l1 = e0 q - h * (s * s)).
  { unfold l1. rewrite E2, E3.
    transitivity (e0 q * (c * c + s * s) - h * (s * s) * (c * c + s * s)); [ring|rewrite CS; ring]. }
  assert (L2 : l2 = e0 q + h * (c * c)).
  { unfold l2. rewrite E2, E3.
    transitivity (e0 q * (c * c + s * s) + h * (c * c) * (c * c + s * s)); [ring|rewrite CS; ring]. }
  assert (LL : l1 * l2 = e0 q * e3 q - e2 q * e2 q).
  { rewrite L1, L2, E2, E3. ring. }
  assert (P2 : 0 < l2) by (rewrite L2; nra).
  assert (P1 : 0 < l1) by (destruct (Rlt_le_dec 0 l1); [auto|exfalso; nra]).
  assert (P12 : l1 <= l2) by (rewrite L1, L2; nra).
  destruct (Rle_dec l1 0) as [B|_]; [lra|]. destruct (Rle_dec l2 0) as [B|_]; [lra|].
  exists (sqrt (1 / l1)), (sqrt (1 / l2)), t. split; [reflexivity|].
  assert (I1 : 0 < 1 / l1) by (apply Rdiv_lt_0_compat; lra).
  assert (I2 : 0 < 1 / l2) by (apply Rdiv_lt_0_compat; lra).
  pose proof (sqrt_lt_R0 _ I1) as Q1. pose proof (sqrt_lt_R0 _ I2) as Q2.
  split; [split; [auto|]|split; [unfold t; lra|]].
  - apply sqrt_le_1; try lra. unfold Rdiv. rewrite !Rmult_1_l. apply Rinv_le_contravar; lra.
  - intros x y. unfold implicit, form. fold c s. cbn zeta.
    set (u := x * c + y * s). set (v := y * c - x * s).
    assert (A1 : (u / sqrt (1 / l1)) * (u / sqrt (1 / l1)) = l1 * (u * u)).
    { transitivity (u * u / (sqrt (1 / l1) * sqrt (1 / l1))); [field; lra|].
      rewrite sqrt_sqrt by lra. field. lra. }
    assert (A2 : (v / sqrt (1 / l2)) * (v / sqrt (1 / l2)) = l2 * (v * v)).
    { transitivity (v * v / (sqrt (1 / l2) * sqrt (1 / l2))); [field; lra|].
      rewrite sqrt_sqrt by lra. field. lra. }
    rewrite A1, A2, L1, L2, E3, E2. unfold u, v.
    transitivity (e0 q * (c * c + s * s) * (x * x + y * y)
                  + h * (c * c + s * s) * (c * c * (y * y) - 2 * (x * y) * (s * c) - s * s * (y * y))).
    + ring.
    + rewrite CS. ring.
Qed.

Definition mapply (m : mat) (v : vec) : vec :=
  mk_vec (e0 m * vx v + e1 m * vy v) (e2 m * vx v + e3 m * vy v).

Lemma transform_ellipse_spec : forall rx ry rot m, rx <> 0 -> ry <> 0 -> det m <> 0 ->
  exists rx' ry' rot', transform_ellipse rx ry rot m = Ok (rx', ry', rot') /\
    0 < ry' <= rx' /\ - (PI / 2) < rot' <= PI / 2 /\
    forall v, implicit rx' ry' rot' (vx (mapply m v)) (vy (mapply m v)) = implicit rx ry rot (vx v) (vy v).
Proof.
  intros rx ry rot m X Y D. unfold transform_ellipse, invert2x2. fold (det m).
  destruct (Req_EM_T (det m) 0) as [B|_]; [contradiction|]. cbn [unwrap bind].
  set (inv := mk_mat _ _ _ _). set (q := ellipse_form rx ry rot).
  set (q' := mul2x2 (mul2x2 (transpose2x2 inv) q) inv).
  assert (SY : e1 q = e2 q) by reflexivity.
  assert (QP := ellipse_form_pos rx ry rot X Y). fold q in QP.
  assert (QD := ellipse_form_det rx ry rot X Y). fold q in QD.
  assert (QD' : 0 < det q).
  { rewrite QD. apply Rdiv_lt_0_compat; [lra|]. apply Rmult_lt_0_compat; nra. }
  assert (DI : det inv = 1 / det m).
  { unfold inv, det in *. cbn [e0 e1 e2 e3]. field. auto. }
  assert (DQ : det q' = det q * (1 / det m) * (1 / det m)).
  { rewrite <- DI. unfold q', mul2x2, transpose2x2, det. cbn [e0 e1 e2 e3]. ring. }
  assert (S' : e1 q' = e2 q').
  { unfold q', mul2x2, transpose2x2. cbn [e0 e1 e2 e3]. rewrite SY. ring. }
  assert (F : forall x y, form q' x y = form q (e0 inv * x + e1 inv * y) (e2 inv * x + e3 inv * y)).
  { intros x y. unfold form, q', mul2x2, transpose2x2. cbn [e0 e1 e2 e3]. rewrite SY. ring. }
  assert (PF : forall x y, x <> 0 \/ y <> 0 -> 0 < form q x y).
  { intros x y H. unfold form. unfold det in QD'. rewrite SY in QD'.
    assert (E : e0 q * (e0 q * (x * x) + 2 * e2 q * (x * y) + e3 q * (y * y)) =
      (e0 q * x + e2 q * y) * (e0 q * x + e2 q * y) + (e0 q * e3 q - e2 q * e2 q) * (y * y)) by ring.
    assert (0 < e0 q * (e0 q * (x * x) + 2 * e2 q * (x * y) + e3 q * (y * y))).
    { rewrite E. destruct (Req_dec y 0) as [->|N].
      - assert (x <> 0) by tauto. assert (e0 q * x <> 0) by (apply Rmult_integral_contrapositive; lra).
        assert (Q := Rsqr_pos_lt _ H1). unfold Rsqr in Q. rewrite !Rmult_0_r, !Rplus_0_r. exact Q.
      - pose proof (Rle_0_sqr (e0 q * x + e2 q * y)) as Q. unfold Rsqr in Q. assert (0 < y * y) by nra. nra. }
    nra. }
  assert (P' : 0 < e0 q').
  { replace (e0 q') with (form q' 1 0) by (unfold form; ring). rewrite F. apply PF.
    destruct (Req_dec (e0 inv * 1 + e1 inv * 0) 0) as [Z1|]; [|auto]. right. intro Z2.
    assert (DI0 : det inv <> 0).
    { rewrite DI. unfold Rdiv. rewrite Rmult_1_l. apply Rinv_neq_0_compat. auto. }
    apply DI0. unfold det. replace (e0 inv) with 0 by lra. replace (e2 inv) with 0 by lra. ring. }
  assert (D' : 0 < det q').
  { rewrite DQ. set (k := 1 / det m). assert (k <> 0).
    { unfold k, Rdiv. rewrite Rmult_1_l. apply Rinv_neq_0_compat. auto. }
    rewrite Rmult_assoc. apply Rmult_lt_0_compat; nra. }
  destruct (ellipse_of_form_spec q' S' P' D') as (rx' & ry' & rot' & E & R1 & R2 & I).
  exists rx', ry', rot'. repeat split; auto; try tauto.
  intros v. rewrite I, F. unfold q. rewrite ellipse_form_spec by auto. unfold mapply, inv. cbn [e0 e1 e2 e3 vx vy].
  f_equal; unfold det in *; field; auto.
Qed.

(** ** Points of an ellipse *)

(** The point of an ellipse at a parameter angle, independent of the forms above. *)
Definition ellipse_point (rx ry rot a : R) : vec := turn rot (mk_vec (rx * cos a) (ry * sin a)).

Lemma implicit_point : forall rx ry rot v, rx <> 0 -> ry <> 0 ->
  implicit rx ry rot (vx v) (vy v) = 1 <-> exists a, v = ellipse_point rx ry rot a.
Proof.
  intros rx ry rot [x y] X Y. unfold implicit, ellipse_point, turn. cbn [vx vy].
  pose proof (cs1 rot) as CS. split.
  - intros H. set (u := (x * cos rot + y * sin rot) / rx) in *.
    set (w := (y * cos rot - x * sin rot) / ry) in *.
    assert (K : u <> 0 \/ w <> 0).
    { destruct (Req_dec u 0) as [U|]; [|auto]. right. intro W. rewrite U, W in H. lra. }
    exists (atan2 w u). destruct (atan2_polar u w K) as [C S]. rewrite H, sqrt_1 in C, S.
    rewrite C, S. replace (rx * (u / 1)) with (x * cos rot + y * sin rot) by (unfold u; field; auto).
    replace (ry * (w / 1)) with (y * cos rot - x * sin rot) by (unfold w; field; auto).
    apply vec_eq; cbn [vx vy].
    + transitivity (x * (cos rot * cos rot + sin rot * sin rot)); [rewrite CS; ring|ring].
    + transitivity (y * (cos rot * cos rot + sin rot * sin rot)); [rewrite CS; ring|ring].
  - intros [a E]. injection E as -> ->.
    replace ((rx * cos a * cos rot - ry * sin a * sin rot) * cos rot +
             (rx * cos a * sin rot + ry * sin a * cos rot) * sin rot) with
      (rx * cos a * (cos rot * cos rot + sin rot * sin rot)) by ring.
    replace ((rx * cos a * sin rot + ry * sin a * cos rot) * cos rot -
             (rx * cos a * cos rot - ry * sin a * sin rot) * sin rot) with
      (ry * sin a * (cos rot * cos rot + sin rot * sin rot)) by ring.
    rewrite CS. transitivity (cos a * cos a + sin a * sin a); [field; auto|apply cs1].
Qed.

(** ** The chord *)

Definition on_ellipse (rx ry x y : R) : Prop := (x / rx) * (x / rx) + (y / ry) * (y / ry) = 1.

Definition half_chord (rx ry dx dy : R) : R :=
  (dx / (2 * rx)) * (dx / (2 * rx)) + (dy / (2 * ry)) * (dy / (2 * ry)).

(** The case where the chord is nearer to the first axis; the other is the same with the
    axes exchanged. *)
Lemma chord_solve : forall rx ry dx k, 0 < rx -> 0 < ry -> dx <> 0 ->
  let c := ry * ry / (rx * rx) + k * k in
  let m2 := (c * dx * dx / 4 - ry * ry) / (k * k / c - 1) in
  let m := sqrt m2 in
  let x1 := - k * m / c - dx / 2 in
  let x2 := - k * m / c + dx / 2 in
  (m2 < 0 <-> 1 < half_chord rx ry dx (k * dx)) /\
  (0 <= m2 -> on_ellipse rx ry x1 (k * x1 + m) /\ on_ellipse rx ry x2 (k * x2 + m)).
Proof.
  intros rx ry dx k X Y D c m2 m x1 x2.
  assert (CP : 0 < c).
  { unfold c. assert (0 < ry * ry / (rx * rx)) by (apply Rdiv_lt_0_compat; nra). nra. }
  set (g := ry * ry / (rx * rx)).
  assert (GP : 0 < g) by (unfold g; apply Rdiv_lt_0_compat; nra).
  assert (CE : c = g + k * k) by reflexivity.
  assert (KC : k * k / c - 1 = - (g / c)) by (rewrite CE; field; nra).
  assert (GC : 0 < g / c) by (apply Rdiv_lt_0_compat; lra).
  assert (M2 : m2 = c / g * (ry * ry - c * dx * dx / 4)).
  { unfold m2. rewrite KC. field. lra. }
  assert (CG : 0 < c / g) by (apply Rdiv_lt_0_compat; lra).
  assert (HC : half_chord rx ry dx (k * dx) = c * dx * dx / 4 / (ry * ry)).
  { unfold half_chord, c. field. lra. }
  split.
  - rewrite HC, M2. split; intro H.
    + apply (Rmult_lt_reg_r (ry * ry)); [nra|]. unfold Rdiv at 1. rewrite Rmult_assoc, Rinv_l by nra. nra.
    + apply (Rmult_lt_compat_r (ry * ry)) in H; [|nra]. unfold Rdiv at 1 in H. rewrite Rmult_assoc, Rinv_l in H by nra. nra.
  - intros P. assert (MM : m * m = m2) by (apply sqrt_sqrt; auto).
    assert (RG : rx * rx = ry * ry / g) by (unfold g; field; lra).
    assert (G : forall x, on_ellipse rx ry x (k * x + m) <-> c * x * x + 2 * k * m * x + m2 - ry * ry = 0).
    { intros x. unfold on_ellipse.
      replace (x / rx * (x / rx)) with (x * x * g / (ry * ry)) by (unfold g; field; lra).
      replace ((k * x + m) / ry * ((k * x + m) / ry)) with ((k * k * (x * x) + 2 * k * m * x + m2) / (ry * ry))
        by (rewrite <- MM; field; lra).
      replace (x * x * g / (ry * ry) + (k * k * (x * x) + 2 * k * m * x + m2) / (ry * ry)) with
        (1 + (c * x * x + 2 * k * m * x + m2 - ry * ry) / (ry * ry)) by (rewrite CE; field; lra).
      split; intro H.
      - assert (H' : (c * x * x + 2 * k * m * x + m2 - ry * ry) / (ry * ry) = 0) by lra.
        apply Rmult_integral in H'. destruct H' as [H'|H']; [auto|].
        exfalso. apply (Rinv_neq_0_compat (ry * ry)); [nra|auto].
      - rewrite H. unfold Rdiv. ring. }
    assert (Q : m2 * g / c = ry * ry - c * dx * dx / 4) by (rewrite M2; field; lra).
    assert (Z : forall x, (x + k * m / c) * (x + k * m / c) = dx * dx / 4 ->
      c * x * x + 2 * k * m * x + m2 - ry * ry = 0).
    { intros x H.
      replace (c * x * x + 2 * k * m * x + m2 - ry * ry) with
        (c * ((x + k * m / c) * (x + k * m / c)) - k * k * (m * m) / c + m2 - ry * ry) by (field; lra).
      rewrite H, MM. replace (k * k) with (c - g) by lra.
      replace (c * (dx * dx / 4) - (c - g) * m2 / c + m2 - ry * ry) with
        (c * dx * dx / 4 + m2 * g / c - ry * ry) by (field; lra).
      rewrite Q. ring. }
    split; apply G, Z; unfold x1, x2; field; lra.
Qed.

Lemma chord_spec : forall rx ry dx dy, 0 < rx -> 0 < ry -> dx <> 0 \/ dy <> 0 ->
  (chord rx ry dx dy = None <-> 1 < half_chord rx ry dx dy) /\
  forall x1 y1 x2 y2, chord rx ry dx dy = Some (x1, y1, x2, y2) ->
    x2 - x1 = dx /\ y2 - y1 = dy /\ on_ellipse rx ry x1 y1 /\ on_ellipse rx ry x2 y2.
Proof.
  intros rx ry dx dy X Y N. unfold chord. destruct (Rlt_dec (Rabs dy) (Rabs dx)) as [L|L].
  - assert (D : dx <> 0). { intros ->. rewrite Rabs_R0 in L. pose proof (Rabs_pos dy). lra. }
    destruct (chord_solve rx ry dx (dy / dx) X Y D) as [E1 E2]. cbn zeta in *.
    replace (dy / dx * dx) with dy in E1 by (field; auto).
    destruct (Rlt_dec _ 0) as [B|B].
    + split; [tauto|discriminate].
    + split; [split; [discriminate|tauto]|]. intros x1 y1 x2 y2 H.
      assert (P := Rnot_lt_le _ _ B). destruct (E2 P) as [O1 O2]. clear E1 E2.
      injection H as <- <- <- <-. split; [lra|]. split; [|split; assumption].
      transitivity (dy / dx * dx); [lra|field; auto].
  - assert (D : dy <> 0).
    { intros ->. destruct N as [N|N]; [|lra]. rewrite Rabs_R0 in L. pose proof (Rabs_pos_lt _ N). lra. }
    destruct (chord_solve ry rx dy (dx / dy) Y X D) as [E1 E2]. cbn zeta in *.
    replace (dx / dy * dy) with dx in E1 by (field; auto).
    assert (HC : half_chord ry rx dy dx = half_chord rx ry dx dy) by (unfold half_chord; ring).
    rewrite HC in E1.
    destruct (Rlt_dec _ 0) as [B|B].
    + split; [tauto|discriminate].
    + split; [split; [discriminate|tauto]|]. intros x1 y1 x2 y2 H.
      assert (P := Rnot_lt_le _ _ B). destruct (E2 P) as [O1 O2]. clear E1 E2.
      injection H as <- <- <- <-. unfold on_ellipse in *. split; [|split; [lra|split; lra]].
      transitivity (dx / dy * dy); [lra|field; auto].
Qed.

(** ** The angles *)

Lemma on_ellipse_angle : forall rx ry x y, 0 < rx -> 0 < ry -> on_ellipse rx ry x y ->
  rx * cos (atan2 (y / ry) (x / rx)) = x /\ ry * sin (atan2 (y / ry) (x / rx)) = y.
Proof.
  intros rx ry x y X Y O. unfold on_ellipse in O.
  assert (K : x / rx <> 0 \/ y / ry <> 0).
  { destruct (Req_dec (x / rx) 0) as [U|]; [|auto]. right. intro W. rewrite U, W in O. lra. }
  destruct (atan2_polar _ _ K) as [C S]. rewrite O, sqrt_1 in C, S. rewrite C, S. split; field; lra.
Qed.

Lemma cos_m2PI : forall a, cos (a - 2 * PI) = cos a /\ sin (a - 2 * PI) = sin a.
Proof.
  intros a. pose proof (cos_plus (a - 2 * PI) (2 * PI)) as C. pose proof (sin_plus (a - 2 * PI) (2 * PI)) as S.
  replace (a - 2 * PI + 2 * PI) with a in * by ring. rewrite cos_2PI, sin_2PI in *. lra.
Qed.
Lemma cos_p2PI : forall a, cos (a + 2 * PI) = cos a /\ sin (a + 2 * PI) = sin a.
Proof. intros a. rewrite cos_plus, sin_plus, cos_2PI, sin_2PI. lra. Qed.
Lemma cos_pPI : forall a, cos (a + PI) = - cos a /\ sin (a + PI) = - sin a.
Proof. intros a. rewrite cos_plus, sin_plus, cos_PI, sin_PI. lra. Qed.

(** The size and the direction the flags of an arc ask for. *)
Definition flags (large sweep : bool) (a1 a2 : R) : Prop :=
  (if sweep then a1 < a2 else a2 < a1) /\
  (if large then PI <= Rabs (a2 - a1) < 2 * PI else 0 < Rabs (a2 - a1) <= PI).

Lemma arc_angles_spec : forall rx ry x1 y1 x2 y2 large sweep a1 a2, 0 < rx -> 0 < ry ->
  on_ellipse rx ry x1 y1 -> on_ellipse rx ry x2 y2 -> x1 <> x2 \/ y1 <> y2 ->
  arc_angles rx ry x1 y1 x2 y2 large sweep = (a1, a2) ->
  rx * (cos a2 - cos a1) = x2 - x1 /\ ry * (sin a2 - sin a1) = y2 - y1 /\ flags large sweep a1 a2.
Proof.
  intros rx ry x1 y1 x2 y2 large sweep a1 a2 X Y O1 O2 N E.
  destruct (on_ellipse_angle _ _ _ _ X Y O1) as [C1 S1]. destruct (on_ellipse_angle _ _ _ _ X Y O2) as [C2 S2].
  pose proof (atan2_range (x1 / rx) (y1 / ry)) as R1. pose proof (atan2_range (x2 / rx) (y2 / ry)) as R2.
  unfold arc_angles in E. set (b1 := atan2 (y1 / ry) (x1 / rx)) in *. set (b2 := atan2 (y2 / ry) (x2 / rx)) in *.
  assert (B : b1 <> b2). { intro H. rewrite H in *. destruct N; congruence. }
  clearbody b1 b2.
  set (b2' := if xorb large _ then _ else _) in E.
  assert (P : cos b2' = cos b2 /\ sin b2' = sin b2 /\ b1 <> b2' /\
     if large then PI <= Rabs (b2' - b1) < 2 * PI else 0 < Rabs (b2' - b1) <= PI).
  { pose proof (cos_m2PI b2). pose proof (cos_p2PI b2). unfold b2', gtb.
    destruct (Rlt_dec PI (Rabs (b2 - b1))) as [L|L];
    destruct (Rlt_dec b1 b2) as [G|G];
    (rewrite Rabs_pos_eq in L by lra) || (rewrite Rabs_left in L by lra);
    destruct large; cbn [xorb]; repeat split; try tauto; try lra;
    try (rewrite Rabs_left by lra; lra); try (rewrite Rabs_pos_eq by lra; lra). }
  clearbody b2'. destruct P as (PC & PS & PN & PL).
  pose proof (cos_pPI b1) as [K1 K2]. pose proof (cos_pPI b2') as [K3 K4].
  unfold gtb in E. unfold flags. destruct (Rlt_dec b1 b2') as [G|G]; destruct sweep; cbn [xorb] in E;
    injection E as <- <-; rewrite ?K1, ?K2, ?K3, ?K4, ?PC, ?PS;
    (split; [nra|split; [nra|split; [lra|]]]); auto;
    (replace (b1 + PI - (b2' + PI)) with (- (b2' - b1)) by ring); rewrite Rabs_Ropp; auto.
Qed.

(** ** Similarities of the plane *)

(** The linear part of a transform keeps angles and scales by [s]. *)
Definition similar (tr : transform) (s : R) : Prop :=
  m0 tr * m0 tr + m1 tr * m1 tr = s * s /\ m2 tr * m2 tr + m3 tr * m3 tr = s * s /\
  m0 tr * m2 tr + m1 tr * m3 tr = 0.

Definition linear_det (tr : transform) : R := m0 tr * m3 tr - m1 tr * m2 tr.

Lemma similar_det : forall tr s, similar tr s -> linear_det tr * linear_det tr = s * s * (s * s).
Proof.
  intros tr s (A & B & C). unfold linear_det.
  transitivity ((m0 tr * m0 tr + m1 tr * m1 tr) * (m2 tr * m2 tr + m3 tr * m3 tr)
                - (m0 tr * m2 tr + m1 tr * m3 tr) * (m0 tr * m2 tr + m1 tr * m3 tr)); [ring|].
  rewrite A, B, C. ring.
Qed.

Lemma similar_cases : forall tr s, 0 < s -> similar tr s ->
  (linear_det tr = s * s /\ m2 tr = - m1 tr /\ m3 tr = m0 tr) \/
  (linear_det tr = - (s * s) /\ m2 tr = m1 tr /\ m3 tr = - m0 tr).
Proof.
  intros tr s S H. pose proof (similar_det _ _ H) as D. destruct H as (A & B & C).
  assert (SS : 0 < s * s) by nra.
  assert (K : (linear_det tr - s * s) * (linear_det tr + s * s) = 0) by lra.
  assert (K1 : s * s * m3 tr = linear_det tr * m0 tr).
  { rewrite <- A. unfold linear_det.
    transitivity (m0 tr * m0 tr * m3 tr + m1 tr * (m1 tr * m3 tr)); [ring|].
    replace (m1 tr * m3 tr) with (- (m0 tr * m2 tr)) by lra. ring. }
  assert (K2 : s * s * m2 tr = - (linear_det tr * m1 tr)).
  { rewrite <- A. unfold linear_det.
    transitivity (m0 tr * (m0 tr * m2 tr) + m1 tr * m1 tr * m2 tr); [ring|].
    replace (m0 tr * m2 tr) with (- (m1 tr * m3 tr)) by lra. ring. }
  apply Rmult_integral in K. destruct K as [K|K].
  - left. replace (linear_det tr) with (s * s) in * by lra. repeat split; try lra; nra.
  - right. replace (linear_det tr) with (- (s * s)) in * by lra. repeat split; try lra; nra.
Qed.

(** A circle under a similarity is a circle. *)
Lemma transform_circle : forall r rot tr s, 0 < r -> 0 < s -> similar tr s ->
  transform_ellipse r r rot (mk_mat (m0 tr) (m2 tr) (m1 tr) (m3 tr)) = Ok (s * r, s * r, 0).
Proof.
  intros r rot tr s RP S H. pose proof (similar_det _ _ H) as D. destruct (H) as (A & B & C).
  assert (DN : linear_det tr <> 0). { intro Z. rewrite Z in D. assert (0 < s * s) by nra. nra. }
  unfold transform_ellipse, invert2x2. cbn [e0 e1 e2 e3].
  replace (m0 tr * m3 tr - m2 tr * m1 tr) with (linear_det tr) by (unfold linear_det; ring).
  destruct (Req_EM_T (linear_det tr) 0) as [Z|_]; [contradiction|]. cbn [unwrap bind].
  set (q := mul2x2 _ _).
  assert (E : e0 q = / (s * s * (r * r)) /\ e2 q = 0 /\ e3 q = / (s * s * (r * r))).
  { unfold q, mul2x2, transpose2x2, ellipse_form. cbn [e0 e1 e2 e3].
    pose proof (cs1 rot) as CS. set (sn := sin rot) in *. set (cn := cos rot) in *.
    replace (cn * cn / (r * r) + sn * sn / (r * r)) with (/ (r * r))
      by (rewrite <- Rdiv_plus_distr, CS; field; lra).
    replace (sn * sn / (r * r) + cn * cn / (r * r)) with (/ (r * r))
      by (rewrite <- Rdiv_plus_distr, (Rplus_comm (sn * sn)), CS; field; lra).
    replace ((1 / (r * r) - 1 / (r * r)) * sn * cn) with 0 by ring.
    assert (SS : s * s <> 0) by nra.
    destruct (similar_cases _ _ S H) as [(Dv & M2 & M3)|(Dv & M2 & M3)]; rewrite Dv, M2, M3; split; [|split| |split].
    all: try (transitivity ((m0 tr * m0 tr + m1 tr * m1 tr) / (s * s * (s * s) * (r * r)));
              [field; lra|rewrite A; field; lra]).
    all: field; lra. }
  destruct E as (E0 & E2 & E3). unfold ellipse_of_form. rewrite E0, E2, E3.
  replace (atan2 (- 0 * 2) (/ (s * s * (r * r)) - / (s * s * (r * r))) / 2) with 0.
  2:{ replace (- 0 * 2) with 0 by ring. rewrite Rminus_diag_eq by reflexivity. unfold atan2.
      destruct (Rlt_dec 0 0); [lra|]. lra. }
  rewrite sin_0, cos_0.
  replace (/ (s * s * (r * r)) * (1 * 1) + 2 * 0 * (1 * 0) + / (s * s * (r * r)) * (0 * 0))
    with (/ (s * s * (r * r))) by ring.
  replace (/ (s * s * (r * r)) * (0 * 0) - 2 * 0 * (1 * 0) + / (s * s * (r * r)) * (1 * 1))
    with (/ (s * s * (r * r))) by ring.
  assert (P : 0 < / (s * s * (r * r))) by (apply Rinv_0_lt_compat, Rmult_lt_0_compat; nra).
  destruct (Rle_dec (/ (s * s * (r * r))) 0); [lra|].
  replace (1 / / (s * s * (r * r))) with ((s * r) * (s * r)) by (field; nra).
  rewrite sqrt_square by nra. reflexivity.
Qed.

(** ** The segment *)

Lemma turn_zero : forall rot d, turn rot d = mk_vec 0 0 -> d = mk_vec 0 0.
Proof.
  intros rot [x y] H. unfold turn in H. cbn [vx vy] in H. injection H as A B. pose proof (cs1 rot) as CS.
  apply vec_eq; cbn [vx vy].
  - transitivity (x * (cos rot * cos rot + sin rot * sin rot)); [rewrite CS; ring|].
    transitivity ((x * cos rot - y * sin rot) * cos rot + (x * sin rot + y * cos rot) * sin rot); [ring|].
    rewrite A, B. ring.
  - transitivity (y * (cos rot * cos rot + sin rot * sin rot)); [rewrite CS; ring|].
    transitivity ((x * sin rot + y * cos rot) * cos rot - (x * cos rot - y * sin rot) * sin rot); [ring|].
    rewrite A, B. ring.
Qed.

Lemma arc_segment_spec : forall tr a d rx ry rot, d <> mk_vec 0 0 ->
  transform_ellipse (arc_rx a) (arc_ry a) (arc_rot a) (mk_mat (m0 tr) (m2 tr) (m1 tr) (m3 tr)) = Ok (rx, ry, rot) ->
  0 < rx -> 0 < ry ->
  let t := turn (arc_rot a) d in
  (arc_segment tr a d = Ok None <-> 1 < half_chord rx ry (vx t) (vy t)) /\
  forall seg, arc_segment tr a d = Ok (Some seg) -> exists a1 a2, seg = Arc rx ry a1 a2 rot /\
    flags (arc_large a) (arc_sweep a) a1 a2 /\
    mk_vec (rx * (cos a2 - cos a1)) (ry * (sin a2 - sin a1)) = t.
Proof.
  intros tr a d rx ry rot D T X Y t. unfold arc_segment. rewrite T. cbn [bind].
  change (vx d * cos (arc_rot a) - vy d * sin (arc_rot a)) with (vx t).
  change (vx d * sin (arc_rot a) + vy d * cos (arc_rot a)) with (vy t).
  assert (N : vx t <> 0 \/ vy t <> 0).
  { destruct (Req_dec (vx t) 0) as [U|]; [|auto]. right. intro W. apply D, (turn_zero (arc_rot a)).
    apply vec_eq; auto. }
  destruct (chord_spec rx ry (vx t) (vy t) X Y N) as [CN CS].
  destruct (chord rx ry (vx t) (vy t)) as [[[[x1 y1] x2] y2]|].
  - destruct (CS _ _ _ _ eq_refl) as (DX & DY & O1 & O2).
    destruct (arc_angles rx ry x1 y1 x2 y2 (arc_large a) (arc_sweep a)) as [a1 a2] eqn:EA.
    split; [split; intro H; [discriminate|apply CN in H; discriminate]|].
    intros seg H. injection H as <-. exists a1, a2. split; [reflexivity|].
    assert (N' : x1 <> x2 \/ y1 <> y2) by (destruct N; [left|right]; lra).
    destruct (arc_angles_spec _ _ _ _ _ _ _ _ _ _ X Y O1 O2 N' EA) as (A1 & A2 & F).
    split; [auto|]. apply vec_eq; cbn [vx vy]; lra.
  - split; [tauto|discriminate].
Qed.

Lemma turn_length : forall rot d, vlength (turn rot d) = vlength d.
Proof.
  intros rot [x y]. unfold vlength, turn. cbn [vx vy]. f_equal. pose proof (cs1 rot) as CS.
  transitivity ((x * x + y * y) * (cos rot * cos rot + sin rot * sin rot)); [ring|rewrite CS; ring].
Qed.

Lemma half_chord_circle : forall r v, 0 < r -> 1 < half_chord r r (vx v) (vy v) <-> 2 * r < vlength v.
Proof.
  intros r v P. pose proof (length_sq v) as L. pose proof (sqrt_pos (vx v * vx v + vy v * vy v)) as Q.
  fold (vlength v) in Q.
  assert (E : half_chord r r (vx v) (vy v) = vlength v * vlength v / (4 * (r * r))).
  { rewrite L. unfold half_chord. field. lra. }
  rewrite E. assert (P4 : 0 < 4 * (r * r)) by nra. split; intro H.
  - apply (Rmult_lt_compat_r (4 * (r * r))) in H; [|auto]. unfold Rdiv in H.
    rewrite Rmult_assoc, Rinv_l in H by lra. nra.
  - apply (Rmult_lt_reg_r (4 * (r * r))); [auto|]. unfold Rdiv. rewrite Rmult_assoc, Rinv_l by lra. nra.
Qed.

Lemma arc_segment_circle : forall tr a d s, d <> mk_vec 0 0 -> 0 < arc_rx a -> arc_ry a = arc_rx a ->
  0 < s -> similar tr s ->
  let r := s * arc_rx a in
  (arc_segment tr a d = Ok None <-> 2 * r < vlength d) /\
  forall seg, arc_segment tr a d = Ok (Some seg) -> exists a1 a2, seg = Arc r r a1 a2 0 /\
    flags (arc_large a) (arc_sweep a) a1 a2 /\
    vscale (vsub (dir a2) (dir a1)) r = turn (arc_rot a) d.
Proof.
  intros tr a d s D RP RE S SI r. assert (R0 : 0 < r) by (unfold r; nra).
  destruct (arc_segment_spec tr a d r r 0 D) as [A B]; auto.
  { rewrite RE. apply transform_circle; auto. }
  split.
  - rewrite A, half_chord_circle, turn_length by auto. tauto.
  - intros seg H. destruct (B seg H) as (a1 & a2 & E & F & G). exists a1, a2. repeat split; auto; try apply F.
    rewrite <- G. unfold vscale, vsub, dir. cbn [vx vy]. f_equal; ring.
Qed.

(** ** Similarities act on directions by adding an angle, or subtracting from one *)

Definition lin (tr : transform) (v : vec) : vec :=
  mk_vec (m0 tr * vx v + m2 tr * vy v) (m1 tr * vx v + m3 tr * vy v).

Lemma similar_angle : forall tr s, 0 < s -> similar tr s -> exists th,
  (linear_det tr > 0 /\ forall b, lin tr (dir b) = vscale (dir (b + th)) s) \/
  (linear_det tr < 0 /\ forall b, lin tr (dir b) = vscale (dir (th - b)) s).
Proof.
  intros tr s S H.
  assert (K : m0 tr <> 0 \/ m1 tr <> 0).
  { destruct H as (A & _). destruct (Req_dec (m0 tr) 0) as [Z|]; [|auto]. right. intro W.
    rewrite Z, W in A. nra. }
  destruct (atan2_polar _ _ K) as [C N]. set (th := atan2 (m1 tr) (m0 tr)) in *.
  destruct (H) as (A & _). rewrite A, sqrt_square in C, N by lra.
  assert (C' : m0 tr = s * cos th) by (rewrite C; field; lra).
  assert (N' : m1 tr = s * sin th) by (rewrite N; field; lra).
  exists th. assert (0 < s * s) by nra.
  destruct (similar_cases _ _ S H) as [(D & E2 & E3)|(D & E2 & E3)]; [left|right]; (split; [lra|]);
    intro b; unfold lin, vscale, dir; cbn [vx vy]; rewrite E2, E3, C', N'.
  - rewrite cos_plus, sin_plus. f_equal; ring.
  - rewrite cos_minus, sin_minus. f_equal; ring.
Qed.

Lemma lin_diff : forall tr u v, vsub (tapply tr u) (tapply tr v) = lin tr (vsub u v).
Proof. intros. unfold tapply, lin, vsub. cbn [vx vy]. f_equal; ring. Qed.

Lemma lin_inj : forall tr u v, linear_det tr <> 0 -> lin tr u = lin tr v -> u = v.
Proof.
  intros tr [a b] [c d] D H. unfold lin in H. cbn [vx vy] in H. injection H as A B.
  unfold linear_det in D.
  assert (X : (m0 tr * m3 tr - m1 tr * m2 tr) * (a - c) = 0).
  { transitivity (m3 tr * ((m0 tr * a + m2 tr * b) - (m0 tr * c + m2 tr * d))
                  - m2 tr * ((m1 tr * a + m3 tr * b) - (m1 tr * c + m3 tr * d))); [ring|].
    rewrite A, B. ring. }
  assert (Y : (m0 tr * m3 tr - m1 tr * m2 tr) * (b - d) = 0).
  { transitivity (m0 tr * ((m1 tr * a + m3 tr * b) - (m1 tr * c + m3 tr * d))
                  - m1 tr * ((m0 tr * a + m2 tr * b) - (m0 tr * c + m2 tr * d))); [ring|].
    rewrite A, B. ring. }
  apply Rmult_integral in X. apply Rmult_integral in Y. apply vec_eq; cbn [vx vy]; lra.
Qed.

Lemma lin_length : forall tr s v, 0 < s -> similar tr s -> vlength (lin tr v) = s * vlength v.
Proof.
  intros tr s v S (A & B & C). unfold vlength, lin. cbn [vx vy].
  replace ((m0 tr * vx v + m2 tr * vy v) * (m0 tr * vx v + m2 tr * vy v) +
           (m1 tr * vx v + m3 tr * vy v) * (m1 tr * vx v + m3 tr * vy v)) with
    ((m0 tr * m0 tr + m1 tr * m1 tr) * (vx v * vx v) + (m2 tr * m2 tr + m3 tr * m3 tr) * (vy v * vy v)
     + 2 * (m0 tr * m2 tr + m1 tr * m3 tr) * (vx v * vy v)) by ring.
  rewrite A, B, C.
  replace (s * s * (vx v * vx v) + s * s * (vy v * vy v) + 2 * 0 * (vx v * vy v)) with
    (s * s * (vx v * vx v + vy v * vy v)) by ring.
  rewrite sqrt_mult, sqrt_square by (try apply sumsq_nonneg; nra). reflexivity.
Qed.
