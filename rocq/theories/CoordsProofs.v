(** Lemmas on atan2, rotations and vectors. *)
From Coq Require Import Reals Lra Psatz.
From Verif Require Import Coords.
Open Scope R_scope.

Lemma vec_eq : forall u v : vec, vx u = vx v -> vy u = vy v -> u = v.
Proof. intros [a b] [c d]. cbn. intros -> ->. reflexivity. Qed.

Lemma tr_eq : forall s t : transform, m0 s = m0 t -> m1 s = m1 t -> m2 s = m2 t -> m3 s = m3 t ->
  m4 s = m4 t -> m5 s = m5 t -> s = t.
Proof. intros [] []. cbn. congruence. Qed.

Lemma sumsq_pos : forall x y, x <> 0 \/ y <> 0 -> 0 < x * x + y * y.
Proof. intros x y [H|H]; pose proof (Rsqr_pos_lt _ H) as K; unfold Rsqr in K; nra. Qed.

Lemma sumsq_nonneg : forall x y, 0 <= x * x + y * y.
Proof. intros. nra. Qed.

Lemma sqrt_div_abs : forall x y, x <> 0 -> sqrt (1 + (y / x)²) = sqrt (x * x + y * y) / Rabs x.
Proof.
  intros x y H. replace (1 + (y / x)²) with ((x * x + y * y) / (x * x)).
  - rewrite sqrt_div_alt by nra. f_equal. apply (sqrt_Rsqr_abs x).
  - unfold Rsqr. field. exact H.
Qed.

Lemma atan2_polar : forall x y, x <> 0 \/ y <> 0 ->
  cos (atan2 y x) = x / sqrt (x * x + y * y) /\ sin (atan2 y x) = y / sqrt (x * x + y * y).
Proof.
  intros x y H. pose proof (sumsq_pos _ _ H) as P. pose proof (sqrt_lt_R0 _ P) as Q.
  unfold atan2. destruct (Rlt_dec 0 x) as [X|X].
  - rewrite cos_atan, sin_atan, sqrt_div_abs by lra. rewrite Rabs_pos_eq by lra.
    split; field; lra.
  - destruct (Rlt_dec x 0) as [X'|X'].
    + assert (E : cos (atan (y / x)) = - x / sqrt (x * x + y * y) /\ sin (atan (y / x)) = - y / sqrt (x * x + y * y)).
      { rewrite cos_atan, sin_atan, sqrt_div_abs by lra. rewrite Rabs_left by lra. split; field; lra. }
      destruct E as [E1 E2]. destruct (Rlt_dec y 0).
      * rewrite cos_minus, sin_minus, cos_PI, sin_PI, E1, E2. split; field; lra.
      * rewrite cos_plus, sin_plus, cos_PI, sin_PI, E1, E2. split; field; lra.
    + assert (x = 0) by lra. subst x. destruct H as [H|H]; [lra|].
      replace (0 * 0 + y * y) with (y * y) by ring. rewrite (sqrt_Rsqr_abs y : sqrt (y * y) = Rabs y).
      destruct (Rlt_dec 0 y).
      * rewrite cos_PI2, sin_PI2, Rabs_pos_eq by lra. split; field; lra.
      * destruct (Rlt_dec y 0); [|lra]. rewrite cos_neg, sin_neg, cos_PI2, sin_PI2, Rabs_left by lra.
        split; field; lra.
Qed.

Lemma atan2_range : forall x y, - PI < atan2 y x <= PI.
Proof.
  intros x y. pose proof PI_RGT_0 as P. unfold atan2.
  destruct (Rlt_dec 0 x); [pose proof (atan_bound (y / x)); lra|].
  destruct (Rlt_dec x 0) as [X|X].
  - pose proof (atan_bound (y / x)) as B. destruct (Rlt_dec y 0) as [Y|Y].
    + assert (0 < y / x). { unfold Rdiv. assert (/ x < 0) by (apply Rinv_lt_0_compat; auto). nra. }
      assert (0 < atan (y / x)). { rewrite <- atan_0. apply atan_increasing. auto. }
      lra.
    + assert (y / x <= 0). { unfold Rdiv. assert (/ x < 0) by (apply Rinv_lt_0_compat; auto). nra. }
      assert (atan (y / x) <= 0).
      { rewrite <- atan_0. destruct (Req_dec (y / x) 0) as [->|]; [lra|]. left. apply atan_increasing. lra. }
      lra.
  - destruct (Rlt_dec 0 y); [lra|]. destruct (Rlt_dec y 0); lra.
Qed.

(** The angle of a vector with positive cross part lies in (0, PI). *)
Lemma atan2_pos : forall x y, 0 < y -> 0 < atan2 y x < PI.
Proof.
  intros x y H. pose proof (atan2_range x y) as B.
  assert (K : x <> 0 \/ y <> 0) by lra.
  pose proof (atan2_polar x y K) as [_ S]. pose proof (sqrt_lt_R0 _ (sumsq_pos _ _ K)) as Q.
  assert (0 < sin (atan2 y x)). { rewrite S. apply Rdiv_lt_0_compat; lra. }
  split.
  - destruct (Rle_lt_dec (atan2 y x) 0) as [L|L]; [|lra]. exfalso.
    destruct (Req_dec (atan2 y x) 0) as [E|E]; [rewrite E, sin_0 in *; lra|].
    assert (sin (atan2 y x) < 0). { apply sin_lt_0_var; lra. } lra.
  - destruct (Req_dec (atan2 y x) PI) as [E|E]; [rewrite E, sin_PI in *; lra|lra].
Qed.

Lemma tan_atan2 : forall x y, 0 < x -> tan (atan2 y x) = y / x.
Proof. intros x y H. unfold atan2. destruct (Rlt_dec 0 x); [|lra]. apply atan_right_inv. Qed.

Lemma length_sq : forall v, vlength v * vlength v = vx v * vx v + vy v * vy v.
Proof. intros v. apply sqrt_sqrt, sumsq_nonneg. Qed.

Lemma length_pos : forall v, v <> mk_vec 0 0 -> 0 < vlength v.
Proof.
  intros [x y] H. apply sqrt_lt_R0, sumsq_pos. cbn [vx vy].
  destruct (Req_dec x 0) as [->|]; [|auto]. destruct (Req_dec y 0) as [->|]; [|auto]. congruence.
Qed.

Lemma lagrange : forall u v, diff_sign u v * diff_sign u v + scalar_mul u v * scalar_mul u v =
  (vx u * vx u + vy u * vy u) * (vx v * vx v + vy v * vy v).
Proof. intros u v. unfold diff_sign, scalar_mul. ring. Qed.

Lemma angle_cos_scalar : forall u v, angle_cos u v = scalar_mul u v / (vlength u * vlength v).
Proof.
  intros u v. unfold angle_cos, scalar_mul, vlength. rewrite sqrt_mult by apply sumsq_nonneg. reflexivity.
Qed.
