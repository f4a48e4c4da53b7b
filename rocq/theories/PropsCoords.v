(** Properties C55, C56, C57 and C66: vectors and affine transforms over the reals. *)
From Coq Require Import Reals Lra Psatz.
From Verif Require Import Coords CoordsProofs.
Open Scope R_scope.

Ltac vec_ring := intros; apply vec_eq; cbn; try ring.
Ltac tr_ring := intros; apply tr_eq; cbn; try ring.

(** ** C55 *)
Theorem C55_assoc : forall a b c, tmul (tmul a b) c = tmul a (tmul b c).
Proof. tr_ring. Qed.
Theorem C55_identity : forall a, tmul tidentity a = a /\ tmul a tidentity = a.
Proof. intros a; split; apply tr_eq; cbn; ring. Qed.
Theorem C55_action : forall a b v, tapply (tmul a b) v = tapply a (tapply b v).
Proof. vec_ring. Qed.

(** What the constructors do to a point. *)
Theorem C55_named : forall v x y s sx sy a,
  tapply tidentity v = v /\
  tapply (ttranslate x y) v = vadd v (mk_vec x y) /\
  tapply (tscale s) v = vscale v s /\
  tapply (tscale_xy sx sy) v = mk_vec (sx * vx v) (sy * vy v) /\
  tapply (tskew_x a) v = mk_vec (vx v + tan a * vy v) (vy v) /\
  tapply (tskew_y a) v = mk_vec (vx v) (vy v + tan a * vx v) /\
  (forall r b, tapply (trotate a) (mk_vec (r * cos b) (r * sin b)) = mk_vec (r * cos (b + a)) (r * sin (b + a))).
Proof.
  intros. repeat (split; [apply vec_eq; cbn; ring|]).
  intros r b. rewrite cos_plus, sin_plus. apply vec_eq; cbn; ring.
Qed.

(** no_translation keeps differences of images. *)
Theorem C55_no_translation : forall t u v,
  tapply (no_translation t) (vsub u v) = vsub (tapply t u) (tapply t v).
Proof. vec_ring. Qed.

(** Two transforms with the same action are equal. *)
Theorem C55_faithful : forall s t, (forall v, tapply s v = tapply t v) -> s = t.
Proof.
  intros s t H. pose proof (H (mk_vec 0 0)) as H0. pose proof (H (mk_vec 1 0)) as H1. pose proof (H (mk_vec 0 1)) as H2.
  unfold tapply in *. cbn [vx vy] in *.
  apply (f_equal vx) in H0 as A; apply (f_equal vy) in H0 as B;
  apply (f_equal vx) in H1 as C; apply (f_equal vy) in H1 as D;
  apply (f_equal vx) in H2 as E; apply (f_equal vy) in H2 as F. cbn [vx vy] in *.
  apply tr_eq; lra.
Qed.

(** ** C56 *)
Theorem C56_pivot_fixed : forall a p, tapply (trotate_around a p) p = p.
Proof. vec_ring. Qed.

Theorem C56_rigid : forall a p u v,
  vlength (vsub (tapply (trotate_around a p) u) (tapply (trotate_around a p) v)) = vlength (vsub u v).
Proof.
  intros a p u v. unfold vlength. f_equal. cbn. pose proof (sin2_cos2 a) as K. unfold Rsqr in K.
  transitivity ((sin a * sin a + cos a * cos a) * ((vx u - vx v) * (vx u - vx v) + (vy u - vy v) * (vy u - vy v))).
  - ring.
  - rewrite K. ring.
Qed.

Theorem C56_orientation : forall a p u v w,
  cross_mul (vsub (tapply (trotate_around a p) u) (tapply (trotate_around a p) w))
            (vsub (tapply (trotate_around a p) v) (tapply (trotate_around a p) w)) =
  cross_mul (vsub u w) (vsub v w).
Proof.
  intros a p u v w. unfold cross_mul. cbn. pose proof (sin2_cos2 a) as K. unfold Rsqr in K.
  transitivity ((sin a * sin a + cos a * cos a) * ((vx u - vx w) * (vy v - vy w) - (vy u - vy w) * (vx v - vx w))).
  - ring.
  - rewrite K. ring.
Qed.

Theorem C56_composed : forall a p,
  trotate_around a p = tmul (tmul (ttranslate (vx p) (vy p)) (trotate a)) (ttranslate (- vx p) (- vy p)).
Proof. tr_ring. Qed.

(** ** C57 *)

(** The composition described in the comment of [decompose] and used in its test. *)
Definition recompose (d : vec * vec * R * R * R) : transform :=
  let '(tr, sc, rot, skx, sky) := d in
  tmul (tmul (tmul (tmul (ttranslate (vx tr) (vy tr)) (trotate rot)) (tscale_xy (vx sc) (vy sc)))
             (tskew_x skx)) (tskew_y sky).

Theorem C57_recompose : forall t,
  1 / 1000000 <= vlength (mk_vec (m0 t) (m1 t)) -> recompose (decompose t) = t.
Proof.
  intros t H. unfold decompose, vlength in *. cbn [vx vy] in H.
  destruct (Rle_dec min_column_length (sqrt (m0 t * m0 t + m1 t * m1 t))) as [D|D];
    [|unfold min_column_length in D; lra].
  set (r2 := m0 t * m0 t + m1 t * m1 t) in *.
  assert (R : 0 < sqrt r2) by lra.
  assert (R2 : 0 < r2). { destruct (Rle_lt_dec r2 0) as [L|L]; [|exact L]. rewrite sqrt_neg_0 in R by exact L. lra. }
  assert (SS : sqrt r2 * sqrt r2 = r2) by (apply sqrt_sqrt; lra).
  assert (NZ : m0 t <> 0 \/ m1 t <> 0).
  { destruct (Req_dec (m0 t) 0) as [E|]; [|auto]. destruct (Req_dec (m1 t) 0) as [E'|]; [|auto].
    unfold r2 in R2. rewrite E, E' in R2. lra. }
  destruct (atan2_polar _ _ NZ) as [C S]. fold r2 in C, S.
  cbn [recompose]. apply tr_eq; cbn [tmul m0 m1 m2 m3 m4 m5 ttranslate trotate tscale_xy tskew_x tskew_y vx vy];
    rewrite ?C, ?S, ?tan_0, ?(tan_atan2 _ _ R2); clear C S.
  - field. lra.
  - field. lra.
  - transitivity ((m0 t * (m0 t * m2 t + m1 t * m3 t) - m1 t * (m0 t * m3 t - m1 t * m2 t)) / r2).
    + set (q := sqrt r2) in *. rewrite <- SS. field. lra.
    + unfold r2. unfold r2 in R2. field. lra.
  - transitivity ((m1 t * (m0 t * m2 t + m1 t * m3 t) + m0 t * (m0 t * m3 t - m1 t * m2 t)) / r2).
    + set (q := sqrt r2) in *. rewrite <- SS. field. lra.
    + unfold r2. unfold r2 in R2. field. lra.
  - ring.
  - ring.
Qed.

(** When both columns are shorter than the threshold, the result is the zero
    matrix with the right translation, so no entry is off by more than 1e-6. *)
Theorem C57_recompose_tiny : forall t,
  vlength (mk_vec (m0 t) (m1 t)) < 1 / 1000000 -> vlength (mk_vec (m2 t) (m3 t)) < 1 / 1000000 ->
  recompose (decompose t) = mk_tr 0 0 0 0 (m4 t) (m5 t) /\
  Rabs (m0 t) < 1 / 1000000 /\ Rabs (m1 t) < 1 / 1000000 /\
  Rabs (m2 t) < 1 / 1000000 /\ Rabs (m3 t) < 1 / 1000000.
Proof.
  intros t H1 H2. unfold decompose, vlength in *. cbn [vx vy] in *.
  destruct (Rle_dec min_column_length (sqrt (m0 t * m0 t + m1 t * m1 t))) as [D|D];
    [unfold min_column_length in D; lra|].
  destruct (Rle_dec min_column_length (sqrt (m2 t * m2 t + m3 t * m3 t))) as [D'|D'];
    [unfold min_column_length in D'; lra|].
  assert (G : forall a b, sqrt (a * a + b * b) < 1 / 1000000 -> Rabs a < 1 / 1000000 /\ Rabs b < 1 / 1000000).
  { intros a b K. split; (eapply Rle_lt_trans; [|exact K]); rewrite <- sqrt_Rsqr_abs; apply sqrt_le_1_alt; unfold Rsqr; nra. }
  destruct (G _ _ H1). destruct (G _ _ H2). split; [|tauto].
  cbn [recompose]. apply tr_eq; cbn; rewrite ?tan_0; ring.
Qed.

(** In the remaining branch the rotation is computed from [m3] and [m4]: a
    translation entry.  For instance this transform, a flattened reflection, is
    not recomposed. *)
Theorem C57_second_branch_wrong :
  let t := mk_tr 0 0 0 1 1 0 in
  m3 (recompose (decompose t)) <> m3 t /\ recompose (decompose t) <> t.
Proof.
  intros t.
  assert (E : m3 (recompose (decompose t)) < 1).
  { unfold decompose, t. cbn [m0 m1 m2 m3 m4 m5].
    replace (0 * 0 + 0 * 0) with 0 by ring. rewrite sqrt_0.
    destruct (Rle_dec min_column_length 0) as [D|D]; [unfold min_column_length in D; lra|].
    replace (0 * 0 + 1 * 1) with 1 by ring. rewrite sqrt_1.
    destruct (Rle_dec min_column_length 1) as [D'|D']; [|unfold min_column_length in D'; lra].
    cbn [recompose tmul m0 m1 m2 m3 m4 m5 ttranslate trotate tscale_xy tskew_x tskew_y vx vy].
    destruct (atan2_polar 1 1) as [C _]; [lra|]. rewrite C.
    replace (1 * 1 + 1 * 1) with 2 by ring.
    assert (1 < sqrt 2). { rewrite <- sqrt_1 at 1. apply sqrt_lt_1; lra. }
    assert (1 / sqrt 2 < 1). { apply Rmult_lt_reg_r with (sqrt 2); [lra|]. field_simplify; lra. }
    rewrite tan_0. nra. }
  assert (m3 t = 1) by reflexivity.
  split; [lra|]. intros K. rewrite K in E. lra.
Qed.

(** Exactly when the second branch is right, for a vanishing first column: the
    second column must be a positive multiple of (-m3, m4). *)
Theorem C57_second_branch : forall t,
  m0 t = 0 -> m1 t = 0 -> 1 / 1000000 <= vlength (mk_vec (m2 t) (m3 t)) -> m3 t <> 0 \/ m4 t <> 0 ->
  (recompose (decompose t) = t <->
   exists k, 0 < k /\ m2 t = k * - m3 t /\ m3 t = k * m4 t).
Proof.
  intros t E0 E1 Hs NZ. unfold decompose, vlength in *. cbn [vx vy] in Hs. rewrite E0, E1.
  replace (0 * 0 + 0 * 0) with 0 by ring. rewrite sqrt_0.
  destruct (Rle_dec min_column_length 0) as [D|D]; [unfold min_column_length in D; lra|].
  set (s2 := m2 t * m2 t + m3 t * m3 t) in *.
  destruct (Rle_dec min_column_length (sqrt s2)) as [D'|D']; [|unfold min_column_length in D'; lra].
  assert (NZ' : m4 t <> 0 \/ m3 t <> 0) by tauto.
  destruct (atan2_polar _ _ NZ') as [C S]. pose proof (sqrt_lt_R0 _ (sumsq_pos _ _ NZ')) as Q.
  set (q := sqrt (m4 t * m4 t + m3 t * m3 t)) in *.
  assert (SS : sqrt s2 * sqrt s2 = s2) by (apply sqrt_sqrt; unfold s2; nra).
  assert (QQ : q * q = m4 t * m4 t + m3 t * m3 t) by (apply sqrt_sqrt; nra).
  assert (P : 0 < sqrt s2) by lra. assert (P2 : 0 < s2) by (rewrite <- SS; nra).
  set (s := sqrt s2) in *. clearbody s q.
  cbn [recompose].
  set (X := tmul _ _).
  assert (X2 : m2 X = s / q * - m3 t).
  { unfold X. cbn [tmul m0 m1 m2 m3 m4 m5 ttranslate trotate tscale_xy tskew_x tskew_y vx vy].
    rewrite C, S, tan_0. field. lra. }
  assert (X3 : m3 X = s / q * m4 t).
  { unfold X. cbn [tmul m0 m1 m2 m3 m4 m5 ttranslate trotate tscale_xy tskew_x tskew_y vx vy].
    rewrite C, S, tan_0. field. lra. }
  assert (SQ : 0 < s / q) by (apply Rdiv_lt_0_compat; lra).
  split.
  - intros H. exists (s / q). split; [exact SQ|]. rewrite H in X2, X3. auto.
  - intros (k & Kp & K2 & K3). assert (K : k = s / q).
    { assert (s * s = (k * q) * (k * q)).
      { rewrite SS. unfold s2. rewrite K2 at 1 2. replace (k * q * (k * q)) with (k * k * (q * q)) by ring. rewrite QQ.
        replace (m3 t * m3 t) with ((k * m4 t) * m3 t + 0) at 3 by (rewrite <- K3; ring).
        rewrite K3 at 4. nra. }
      assert (s = k * q). { apply Rsqr_inj; unfold Rsqr; nra. }
      subst s. field. lra. }
    subst k. apply tr_eq.
    + unfold X. cbn [tmul m0 m1 m2 m3 m4 m5 ttranslate trotate tscale_xy tskew_x tskew_y vx vy].
      rewrite E0. rewrite tan_atan2 by lra. field. repeat split; lra.
    + unfold X. cbn [tmul m0 m1 m2 m3 m4 m5 ttranslate trotate tscale_xy tskew_x tskew_y vx vy].
      rewrite E1. rewrite tan_atan2 by lra. field. repeat split; lra.
    + lra.
    + lra.
    + unfold X. cbn [tmul m0 m1 m2 m3 m4 m5 ttranslate trotate tscale_xy tskew_x tskew_y vx vy]. ring.
    + unfold X. cbn [tmul m0 m1 m2 m3 m4 m5 ttranslate trotate tscale_xy tskew_x tskew_y vx vy]. ring.
Qed.

(** ** C66 *)

(** [v] points in the direction of [u] turned clockwise by an angle in (0, PI). *)
Definition clockwise_of (u v : vec) : Prop :=
  exists d k, 0 < d < PI /\ 0 < k /\ v = vscale (tapply (trotate (- d)) u) k.

Theorem C66_diff_sign : forall u v, u <> mk_vec 0 0 -> v <> mk_vec 0 0 ->
  (0 < diff_sign u v <-> clockwise_of u v).
Proof.
  intros u v Hu Hv. pose proof (length_pos u Hu) as Lu. pose proof (length_pos v Hv) as Lv.
  pose proof (length_sq u) as Qu. pose proof (length_sq v) as Qv. split.
  - intros H. exists (atan2 (diff_sign u v) (scalar_mul u v)), (vlength v / vlength u).
    split; [apply atan2_pos; exact H|]. split; [apply Rdiv_lt_0_compat; lra|].
    assert (NZ : scalar_mul u v <> 0 \/ diff_sign u v <> 0) by lra.
    destruct (atan2_polar _ _ NZ) as [C S].
    assert (E : sqrt (scalar_mul u v * scalar_mul u v + diff_sign u v * diff_sign u v) = vlength u * vlength v).
    { rewrite Rplus_comm, lagrange, <- Qu, <- Qv.
      replace (vlength u * vlength u * (vlength v * vlength v)) with ((vlength u * vlength v)²) by (unfold Rsqr; ring).
      apply sqrt_Rsqr. nra. }
    rewrite E in C, S. apply vec_eq; cbn; rewrite cos_neg, sin_neg, C, S; unfold scalar_mul, diff_sign.
    + apply Rmult_eq_reg_r with (vlength u * vlength u); [|nra]. field_simplify; [|lra].
      replace (vlength u ^ 2) with (vlength u * vlength u) by ring. rewrite Qu. ring.
    + apply Rmult_eq_reg_r with (vlength u * vlength u); [|nra]. field_simplify; [|lra].
      replace (vlength u ^ 2) with (vlength u * vlength u) by ring. rewrite Qu. ring.
  - intros (d & k & [D1 D2] & K & ->). unfold diff_sign. cbn. rewrite cos_neg, sin_neg.
    pose proof (sin_gt_0 d D1 D2) as S.
    replace (vy u * ((cos d * vx u + - - sin d * vy u + 0) * k) - vx u * ((- sin d * vx u + cos d * vy u + 0) * k))
      with (k * sin d * (vx u * vx u + vy u * vy u)) by ring.
    apply Rmult_lt_0_compat; [nra|]. rewrite <- Qu. nra.
Qed.

(** In terms of any angles of the two vectors. *)
Theorem C66_diff_sign_angles : forall ru a rv b,
  diff_sign (mk_vec (ru * cos a) (ru * sin a)) (mk_vec (rv * cos b) (rv * sin b)) = ru * rv * sin (a - b).
Proof. intros. unfold diff_sign. cbn. rewrite sin_minus. ring. Qed.

(** The documentation says that the sign follows the order of [angle()]; that
    fails across the negative x axis. *)
Theorem C66_doc_comment_wrong :
  let u := mk_vec (-1) (-1) in let v := mk_vec (-1) 1 in
  angle u < angle v /\ 0 < diff_sign u v.
Proof.
  cbn. split; [|unfold diff_sign; cbn; lra].
  unfold angle. cbn. apply Rlt_trans with 0; [|apply atan2_pos; lra].
  pose proof (atan2_range (-1) (-1)) as B. unfold atan2 in *.
  destruct (Rlt_dec 0 (-1)); [lra|]. destruct (Rlt_dec (-1) 0); [|lra].
  pose proof (atan_bound (-1 / -1)). pose proof PI_RGT_0. lra.
Qed.

(** It does follow the order when the angles differ by less than half a turn. *)
Theorem C66_diff_sign_near : forall u v, u <> mk_vec 0 0 -> v <> mk_vec 0 0 ->
  Rabs (angle u - angle v) < PI ->
  (0 < diff_sign u v <-> angle v < angle u) /\ (diff_sign u v < 0 <-> angle u < angle v).
Proof.
  intros u v Hu Hv H. apply Rabs_def2 in H.
  pose proof (length_pos u Hu) as Lu. pose proof (length_pos v Hv) as Lv.
  assert (P : forall w, w <> mk_vec 0 0 -> w = mk_vec (vlength w * cos (angle w)) (vlength w * sin (angle w))).
  { intros w Hw. pose proof (length_pos w Hw) as L. unfold angle.
    destruct (atan2_polar (vx w) (vy w)) as [C S].
    - destruct (Req_dec (vx w) 0) as [E|]; [|auto]. destruct (Req_dec (vy w) 0) as [E'|]; [|auto].
      exfalso. apply Hw. apply vec_eq; assumption.
    - rewrite C, S. fold (vlength w). apply vec_eq; cbn; field; lra. }
  rewrite (P u Hu) at 1 3. rewrite (P v Hv) at 1 3.
  rewrite !C66_diff_sign_angles. set (d := angle u - angle v) in *.
  assert (LL : 0 < vlength u * vlength v) by nra.
  assert (S1 : 0 < d -> 0 < sin d) by (intros; apply sin_gt_0; lra).
  assert (S2 : d < 0 -> sin d < 0) by (intros; apply sin_lt_0_var; lra).
  assert (S3 : d = 0 -> sin d = 0) by (intros ->; apply sin_0).
  destruct (Rtotal_order d 0) as [L|[L|L]];
    [specialize (S2 L)|specialize (S3 L)|specialize (S1 L)]; unfold d in *; split; split; intros; nra.
Qed.

Theorem C66_rotate_90 : forall v,
  rotate_90_ccw (rotate_90_cw v) = v /\ rotate_90_cw (rotate_90_ccw v) = v /\
  scalar_mul v (rotate_90_cw v) = 0 /\ scalar_mul v (rotate_90_ccw v) = 0 /\
  vlength (rotate_90_cw v) = vlength v /\ vlength (rotate_90_ccw v) = vlength v /\
  (v <> mk_vec 0 0 -> 0 < diff_sign v (rotate_90_cw v) /\ diff_sign v (rotate_90_ccw v) < 0).
Proof.
  intros v. repeat split; try (apply vec_eq; cbn; ring); try (unfold scalar_mul; cbn; ring);
    try (unfold vlength; f_equal; cbn; ring);
    pose proof (length_pos v H) as L; pose proof (length_sq v) as Q; unfold diff_sign; cbn; nra.
Qed.

Theorem C66_angle_cos : forall u v, u <> mk_vec 0 0 -> v <> mk_vec 0 0 ->
  angle_cos u v = cos (angle u - angle v) /\ -1 <= angle_cos u v <= 1 /\
  (angle_cos u v = 1 <-> exists k, 0 < k /\ v = vscale u k).
Proof.
  intros u v Hu Hv. pose proof (length_pos u Hu) as Lu. pose proof (length_pos v Hv) as Lv.
  pose proof (length_sq u) as Qu. pose proof (length_sq v) as Qv.
  assert (P : forall w, w <> mk_vec 0 0 -> cos (angle w) = vx w / vlength w /\ sin (angle w) = vy w / vlength w).
  { intros w Hw. apply atan2_polar.
    destruct (Req_dec (vx w) 0) as [E|]; [|auto]. destruct (Req_dec (vy w) 0) as [E'|]; [|auto].
    exfalso. apply Hw. apply vec_eq; assumption. }
  assert (E : angle_cos u v = cos (angle u - angle v)).
  { rewrite cos_minus. destruct (P u Hu) as [-> ->]. destruct (P v Hv) as [-> ->].
    rewrite angle_cos_scalar. unfold scalar_mul. field. lra. }
  split; [exact E|]. split; [rewrite E; apply COS_bound|]. rewrite angle_cos_scalar. split.
  - intros H. assert (S : scalar_mul u v = vlength u * vlength v).
    { replace (scalar_mul u v) with (scalar_mul u v / (vlength u * vlength v) * (vlength u * vlength v)) by (field; lra).
      rewrite H. ring. }
    assert (D : diff_sign u v = 0).
    { pose proof (lagrange u v) as L. rewrite S, <- Qu, <- Qv in L. nra. }
    exists (vlength v / vlength u). split; [apply Rdiv_lt_0_compat; lra|].
    unfold scalar_mul, diff_sign in *.
    assert (X : vlength u * vx v = vlength v * vx u).
    { apply Rmult_eq_reg_l with (vlength u); [|lra].
      replace (vlength u * (vlength u * vx v)) with ((vlength u * vlength u) * vx v) by ring. rewrite Qu.
      replace (vlength u * (vlength v * vx u)) with ((vlength u * vlength v) * vx u) by ring. rewrite <- S. 
      apply Rminus_diag_uniq. transitivity (vy u * (vy u * vx v - vx u * vy v)); [ring|rewrite D; ring]. }
    assert (Y : vlength u * vy v = vlength v * vy u).
    { apply Rmult_eq_reg_l with (vlength u); [|lra].
      replace (vlength u * (vlength u * vy v)) with ((vlength u * vlength u) * vy v) by ring. rewrite Qu.
      replace (vlength u * (vlength v * vy u)) with ((vlength u * vlength v) * vy u) by ring. rewrite <- S. 
      apply Rminus_diag_uniq. transitivity (- vx u * (vy u * vx v - vx u * vy v)); [ring|rewrite D; ring]. }
    apply vec_eq; cbn; apply Rmult_eq_reg_l with (vlength u); try lra; rewrite ?X, ?Y; field; lra.
  - intros (k & K & ->).
    assert (L : vlength (vscale u k) = k * vlength u).
    { unfold vlength. cbn. replace (vx u * k * (vx u * k) + vy u * k * (vy u * k)) with (k² * (vx u * vx u + vy u * vy u)) by (unfold Rsqr; ring).
      rewrite sqrt_mult_alt by apply Rle_0_sqr. rewrite sqrt_Rsqr by lra. reflexivity. }
    rewrite L. unfold scalar_mul. cbn.
    replace (vx u * (vx u * k) + vy u * (vy u * k)) with (k * (vx u * vx u + vy u * vy u)) by ring.
    rewrite <- Qu. field. lra.
Qed.

(** The hypotheses can be met: a shear with translation, and two vectors. *)
Example coords_examples :
  1 / 1000000 <= vlength (mk_vec (m0 (mk_tr 3 4 1 2 7 8)) (m1 (mk_tr 3 4 1 2 7 8))) /\
  clockwise_of (mk_vec 0 1) (mk_vec 2 0) /\
  recompose (decompose (mk_tr 0 0 (-1) 1 1 5)) = mk_tr 0 0 (-1) 1 1 5.
Proof.
  split; [|split].
  - unfold vlength. cbn. replace (3 * 3 + 4 * 4) with (5 * 5) by ring. rewrite sqrt_square; lra.
  - exists (PI / 2), 2. pose proof PI_RGT_0. split; [lra|]. split; [lra|].
    apply vec_eq; cbn; rewrite cos_neg, sin_neg, cos_PI2, sin_PI2; ring.
  - apply C57_second_branch; cbn; try reflexivity; try lra.
    + unfold vlength. cbn. apply Rle_trans with (sqrt 1); [rewrite sqrt_1; lra|]. apply sqrt_le_1_alt. lra.
    + exists 1. lra.
Qed.

Print Assumptions C55_action.
Print Assumptions C56_rigid.
Print Assumptions C57_recompose.
Print Assumptions C57_second_branch.
Print Assumptions C66_diff_sign.
Print Assumptions C66_angle_cos.
