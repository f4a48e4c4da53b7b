(** Properties C93 (circles and lines of bezier_as_arcs.rs) and C94 (evaluation of accelerations
    in main_old.rs). *)
From Coq Require Import Reals ZArith List Bool Lia Lra Psatz.
From Verif Require Import Base Coords Polynomials MotionSpec OldCode.
Import ListNotations.
Open Scope R_scope.

(** ** C93 *)

(** On the line through the two points. *)
Definition on_line (l : vec * vec) (p : vec) : Prop := cross_mul (vsub p (fst l)) (vsub (fst l) (snd l)) = 0.
Definition turn (l1 l2 : vec * vec) : R := cross_mul (vsub (fst l1) (snd l1)) (vsub (fst l2) (snd l2)).

(** A point that is returned is the only common point of the lines... *)
Theorem C93_intersection : forall l1 l2 p, intersection l1 l2 = Some p ->
  on_line l1 p /\ on_line l2 p /\ forall q, on_line l1 q -> on_line l2 q -> q = p.
Proof.
  intros [[ax ay] [bx by']] [[cx cy] [dx dy]] p H. unfold intersection, on_line, cross_mul, vsub in *. cbn in *.
  destruct (Rle_dec _ _) as [|N]; [discriminate|]. injection H as <-. cbn.
  assert (E : 0 < f64_epsilon) by (unfold f64_epsilon; apply Rinv_0_lt_compat, pow_lt; lra).
  set (den := (ax - bx) * (cy - dy) - (ay - by') * (cx - dx)) in *. assert (D : den <> 0) by lra. clear N E.
  split; [unfold den in *; field; exact D|]. split; [unfold den in *; field; exact D|].
  intros [qx qy] H1 H2. cbn in *.
  assert (X : qx * den = (ax * by' - ay * bx) * (cx - dx) - (cx * dy - cy * dx) * (ax - bx)).
  { unfold den. 
    assert (K1 : (ax - bx) * qy = (ay - by') * qx + (ax - bx) * ay - (ay - by') * ax) by lra.
    assert (K2 : (cx - dx) * qy = (cy - dy) * qx + (cx - dx) * cy - (cy - dy) * cx) by lra.
    assert (K3 : (cx - dx) * ((ax - bx) * qy) = (ax - bx) * ((cx - dx) * qy)) by ring. rewrite K1, K2 in K3. lra. }
  assert (Y : qy * den = (ax * by' - ay * bx) * (cy - dy) - (cx * dy - cy * dx) * (ay - by')).
  { unfold den.
    assert (K1 : (ay - by') * qx = (ax - bx) * qy - ((ax - bx) * ay - (ay - by') * ax)) by lra.
    assert (K2 : (cy - dy) * qx = (cx - dx) * qy - ((cx - dx) * cy - (cy - dy) * cx)) by lra.
    assert (K3 : (cy - dy) * ((ay - by') * qx) = (ay - by') * ((cy - dy) * qx)) by ring. rewrite K1, K2 in K3. lra. }
  f_equal; [rewrite <- X|rewrite <- Y]; field; exact D.
Qed.

(** ... and one is returned exactly if the second line turns counter-clockwise against the first
    by more than epsilon. *)
Theorem C93_intersection_when : forall l1 l2, (exists p, intersection l1 l2 = Some p) <-> f64_epsilon < turn l1 l2.
Proof.
  intros l1 l2. unfold intersection, turn. destruct (Rle_dec _ _) as [L|L]; split; intros H; try lra.
  - destruct H. discriminate.
  - eexists. reflexivity.
Qed.

(** "Return None if they are parallel" is not the whole truth: lines that cross are refused if
    they are given in the other order. *)
Theorem C93_order_refuted : forall l1 l2 p, intersection l1 l2 = Some p -> intersection l2 l1 = None.
Proof.
  intros l1 l2 p H. destruct (intersection l2 l1) as [q|] eqn:E; [exfalso|reflexivity].
  assert (A : f64_epsilon < turn l1 l2) by (apply C93_intersection_when; eauto).
  assert (B : f64_epsilon < turn l2 l1) by (apply C93_intersection_when; eauto).
  assert (P : 0 < f64_epsilon) by (unfold f64_epsilon; apply Rinv_0_lt_compat, pow_lt; lra).
  unfold turn, cross_mul in *. lra.
Qed.

Example C93_order_example : let a := (mk_vec (-3) 3, mk_vec 5 (-5)) in let b := (mk_vec (-3) (-3), mk_vec 7 7) in
  intersection a b = Some (mk_vec 0 0) /\ intersection b a = None.
Proof.
  cbn zeta. assert (P : f64_epsilon < 1).
  { unfold f64_epsilon. rewrite <- Rinv_1. apply Rinv_lt_contravar; [rewrite Rmult_1_l; apply pow_lt; lra|apply Rlt_pow_R1; [lra|lia]]. }
  assert (A : intersection (mk_vec (-3) 3, mk_vec 5 (-5)) (mk_vec (-3) (-3), mk_vec 7 7) = Some (mk_vec 0 0)).
  { unfold intersection, cross_mul, vsub. cbn. destruct (Rle_dec _ _) as [L|_]; [exfalso; lra|]. do 2 f_equal; field. }
  split; [exact A|]. eapply C93_order_refuted. exact A.
Qed.

(** The point of the three sides' bisectors is equally far from the lines through the sides, and
    inside the triangle: it is a mean of the corners with positive weights. *)
Definition line_distance (p a b : vec) : R := Rabs (cross_mul (vsub p a) (vsub b a)) / vlength (vsub b a).

Lemma vlength_sym : forall a b, vlength (vsub a b) = vlength (vsub b a).
Proof. intros. unfold vlength, vsub. cbn. f_equal. ring. Qed.
Lemma vlength_pos : forall a b, a <> b -> 0 < vlength (vsub a b).
Proof.
  intros [ax ay] [bx by'] N. unfold vlength, vsub. cbn. apply sqrt_lt_R0.
  pose proof (Rle_0_sqr (ax - bx)) as A. pose proof (Rle_0_sqr (ay - by')) as B. unfold Rsqr in A, B.
  destruct (Req_dec ax bx) as [X|X].
  - destruct (Req_dec ay by') as [Y|Y]; [exfalso; apply N; congruence|].
    assert (P : 0 < Rsqr (ay - by')) by (apply Rsqr_pos_lt; lra). unfold Rsqr in P. lra.
  - assert (P : 0 < Rsqr (ax - bx)) by (apply Rsqr_pos_lt; lra). unfold Rsqr in P. lra.
Qed.

Theorem C93_incenter : forall p1 p2 p3, cross_mul (vsub p2 p1) (vsub p3 p1) <> 0 ->
  let i := incenter_point p1 p2 p3 in
  let r := Rabs (cross_mul (vsub p2 p1) (vsub p3 p1)) / (vlength (vsub p2 p3) + vlength (vsub p1 p3) + vlength (vsub p1 p2)) in
  line_distance i p1 p2 = r /\ line_distance i p2 p3 = r /\ line_distance i p3 p1 = r /\
  exists a b c, 0 < a /\ 0 < b /\ 0 < c /\ a + b + c = 1 /\ i = vadd (vadd (vscale p1 a) (vscale p2 b)) (vscale p3 c).
Proof.
  intros p1 p2 p3 N. cbn zeta.
  assert (N12 : p1 <> p2) by (intros ->; apply N; unfold cross_mul, vsub; cbn; ring).
  assert (N13 : p1 <> p3) by (intros ->; apply N; unfold cross_mul, vsub; cbn; ring).
  assert (N23 : p2 <> p3) by (intros ->; apply N; unfold cross_mul, vsub; cbn; ring).
  pose proof (vlength_pos _ _ N12) as L3. pose proof (vlength_pos _ _ N13) as L2. pose proof (vlength_pos _ _ N23) as L1.
  unfold line_distance. rewrite (vlength_sym p2 p1), (vlength_sym p3 p2). unfold incenter_point.
  set (l1 := vlength (vsub p2 p3)) in *. set (l2 := vlength (vsub p1 p3)) in *. set (l3 := vlength (vsub p1 p2)) in *.
  set (s := l1 + l2 + l3). assert (S : 0 < s) by (unfold s; lra).
  set (i := vdiv _ s). set (k := cross_mul (vsub p2 p1) (vsub p3 p1)) in *.
  assert (G : forall x l, 0 < l -> x = - (l * k / s) -> Rabs x / l = Rabs k / s).
  { intros x l L ->. unfold Rdiv. rewrite Rabs_Ropp, !Rabs_mult, (Rabs_pos_eq l), (Rabs_pos_eq (/ s)); [field; lra|left; apply Rinv_0_lt_compat; auto|lra]. }
  clearbody l1 l2 l3. destruct p1 as [ax ay], p2 as [bx by'], p3 as [cx cy]. unfold i, k, vdiv, vadd, vscale, cross_mul, vsub in *. cbn in *.
  split; [apply G; [exact L3|unfold s; field; lra]|].
  split; [apply G; [exact L1|unfold s; field; lra]|].
  split; [apply G; [exact L2|unfold s; field; lra]|].
  exists (l1 / s), (l2 / s), (l3 / s).
  split; [apply Rdiv_lt_0_compat; lra|]. split; [apply Rdiv_lt_0_compat; lra|]. split; [apply Rdiv_lt_0_compat; lra|].
  split; [unfold s; field; lra|]. f_equal; field; lra.
Qed.

(** The circle through the origin and two points; counter-clockwise exactly if the second point
    is to the left of the first; none exactly if the three are on a line. *)
Theorem C93_fit_circle : forall p2 p3,
  (cross_mul p2 p3 = 0 -> fit_circle p2 p3 = CLine) /\
  (cross_mul p2 p3 <> 0 -> exists c r,
    fit_circle p2 p3 = (if Rlt_dec 0 (cross_mul p2 p3) then Ccw c r else Cw c r) /\
    0 < r /\ vlength c = r /\ vlength (vsub p2 c) = r /\ vlength (vsub p3 c) = r /\
    forall c' r', vlength c' = r' -> vlength (vsub p2 c') = r' -> vlength (vsub p3 c') = r' -> c' = c).
Proof.
  intros p2 p3. unfold fit_circle. split; intros H.
  - rewrite H. destruct (Req_EM_T (0 * 2) 0) as [|N]; [reflexivity|exfalso; apply N; ring].
  - destruct (Req_EM_T (cross_mul p2 p3 * 2) 0) as [Z|_]; [exfalso; lra|].
    set (c := mk_vec _ _). set (r := vlength (vsub p2 c)).
    assert (D : cross_mul p2 p3 * 2 <> 0) by lra.
    assert (E2 : vx p2 * vx c * 2 + vy p2 * vy c * 2 = scalar_mul p2 p2).
    { unfold c. cbn. unfold cross_mul, scalar_mul in *. field. lra. }
    assert (E3 : vx p3 * vx c * 2 + vy p3 * vy c * 2 = scalar_mul p3 p3).
    { unfold c. cbn. unfold cross_mul, scalar_mul in *. field. lra. }
    assert (S2 : vlength (vsub p2 c) = vlength c).
    { unfold vlength, vsub, scalar_mul in *. cbn [vx vy] in *. f_equal. lra. }
    assert (S3 : vlength (vsub p3 c) = vlength c).
    { unfold vlength, vsub, scalar_mul in *. cbn [vx vy] in *. f_equal. lra. }
    exists c, r. split.
    { destruct (Rlt_dec 0 (cross_mul p2 p3 * 2)), (Rlt_dec 0 (cross_mul p2 p3)); try reflexivity; exfalso; lra. }
    unfold r. rewrite S2. split; [|split; [reflexivity|split; [reflexivity|split; [exact S3|]]]].
    + unfold vlength. apply sqrt_lt_R0.
      destruct (Req_dec (vx c) 0) as [X|X]; [|nra]. destruct (Req_dec (vy c) 0) as [Y|Y]; [|nra]. exfalso.
      rewrite X, Y in E2. unfold scalar_mul in E2. assert (vx p2 = 0 /\ vy p2 = 0) as [A B] by nra.
      apply H. unfold cross_mul. rewrite A, B. ring.
    + clear r. intros c' r' A B C. rewrite <- A in B, C.
      assert (SQ : forall u v, vlength u = vlength v -> vx u * vx u + vy u * vy u = vx v * vx v + vy v * vy v).
      { intros u v X. unfold vlength in X. apply sqrt_inj in X; nra. }
      apply SQ in B, C. unfold vsub in B, C. cbn in B, C. unfold scalar_mul in *.
      destruct c' as [x y]. cbn in B, C. unfold cross_mul in *.
      assert (B' : vx p2 * x * 2 + vy p2 * y * 2 = vx p2 * vx p2 + vy p2 * vy p2) by lra.
      assert (C' : vx p3 * x * 2 + vy p3 * y * 2 = vx p3 * vx p3 + vy p3 * vy p3) by lra.
      set (dx := x - vx c). set (dy := y - vy c).
      assert (K1 : vx p2 * dx + vy p2 * dy = 0) by (unfold dx, dy; lra).
      assert (K2 : vx p3 * dx + vy p3 * dy = 0) by (unfold dx, dy; lra).
      assert (X : dx * (vx p2 * vy p3 - vy p2 * vx p3) = 0).
      { transitivity (vy p3 * (vx p2 * dx + vy p2 * dy) - vy p2 * (vx p3 * dx + vy p3 * dy)); [ring|]. rewrite K1, K2. ring. }
      assert (Y : dy * (vx p2 * vy p3 - vy p2 * vx p3) = 0).
      { transitivity (vx p2 * (vx p3 * dx + vy p3 * dy) - vx p3 * (vx p2 * dx + vy p2 * dy)); [ring|]. rewrite K1, K2. ring. }
      apply Rmult_integral in X, Y. destruct c as [c1 c2] eqn:EC. cbn in *. unfold dx, dy in *.
      f_equal; [destruct X; lra|destruct Y; lra].
Qed.

(** The inputs of the code's own tests. *)
Example C93_example : cross_mul (mk_vec 3 3) (mk_vec 6 0) <> 0 /\
  fit_circle (mk_vec 3 3) (mk_vec 6 0) = Cw (mk_vec 3 0) 3 /\ fit_circle (mk_vec 3 (-3)) (mk_vec 6 0) = Ccw (mk_vec 3 0) 3.
Proof.
  assert (S : sqrt 9 = 3) by (replace 9 with (3 * 3) by ring; apply sqrt_square; lra).
  split; [unfold cross_mul; cbn; lra|]. unfold fit_circle, cross_mul, scalar_mul. cbn. split.
  - destruct (Req_EM_T _ _); [exfalso; lra|]. destruct (Rlt_dec _ _); [exfalso; lra|].
    assert (C : mk_vec ((0 * (3 * 3 + 3 * 3) - 3 * (6 * 6 + 0 * 0)) / ((3 * 0 - 3 * 6) * 2)) ((3 * (6 * 6 + 0 * 0) - 6 * (3 * 3 + 3 * 3)) / ((3 * 0 - 3 * 6) * 2)) = mk_vec 3 0) by (f_equal; field).
    rewrite C. f_equal. unfold vlength, vsub. cbn. transitivity (sqrt 9); [f_equal; ring|exact S].
  - destruct (Req_EM_T _ _); [exfalso; lra|]. destruct (Rlt_dec _ _); [|exfalso; lra].
    assert (C : mk_vec ((0 * (3 * 3 + -3 * -3) - -3 * (6 * 6 + 0 * 0)) / ((3 * 0 - -3 * 6) * 2)) ((3 * (6 * 6 + 0 * 0) - 6 * (3 * 3 + -3 * -3)) / ((3 * 0 - -3 * 6) * 2)) = mk_vec 3 0) by (f_equal; field).
    rewrite C. f_equal. unfold vlength, vsub. cbn. transitivity (sqrt 9); [f_equal; ring|exact S].
Qed.

(** ** C94 *)

(** Both ways to evaluate accelerations give the distance and the speed of the machine. *)
Theorem C94_eval : forall s v acc,
  eval_acc_seq s v acc = (s + travel v acc, final_speed v acc)%Z /\ eval_acc_seq2 s v acc = eval_acc_seq s v acc.
Proof.
  assert (A : forall acc s v, eval_acc_seq s v acc = (s + travel v acc, final_speed v acc)%Z).
  { induction acc as [|a acc IH]; intros s v; cbn [eval_acc_seq travel final_speed].
    - rewrite Z.add_0_r. reflexivity.
    - rewrite IH. f_equal. lia. }
  assert (B : forall acc n k s v, (n - k = Z.of_nat (length acc))%Z ->
    eval_loop2 n k s v acc = (s - 2 * (n - k) * v + travel v acc, final_speed v acc)%Z).
  { induction acc as [|a acc IH]; intros n k s v H; cbn [eval_loop2 travel final_speed length] in *.
    - f_equal. replace (n - k)%Z with 0%Z by (cbn in H; lia). lia.
    - rewrite IH by lia. f_equal. lia. }
  intros s v acc. split; [apply A|]. rewrite A. unfold eval_acc_seq2. rewrite B by lia. f_equal. lia.
Qed.

(** The two accelerations and the constant speed of extend_dist cover the distance and come back
    to the start speed; the constant speed never lasts a negative time, the accelerations do
    exactly if the start speed is above the maximum. *)
Theorem C94_extend : forall s v a vmax, 0 <= s -> 0 < a -> 0 < vmax ->
  let '(dta, dtc) := extend_dist s v a vmax in
  eval_acc_time 0 v [(a, dta); (0, dtc); (- a, dta)] = (s, v) /\ 0 <= dtc /\
  v + a * dta <= vmax /\ (0 < dtc -> v + a * dta = vmax) /\ (dta < 0 <-> vmax < v).
Proof.
  intros s v a vmax S A M. unfold extend_dist. cbv zeta.
  set (q := sqrt (s / (2 * a) + v * v / (a * a))). set (dta := - v / a + q).
  assert (Q0 : 0 <= q) by apply sqrt_pos.
  assert (ARG : 0 <= s / (2 * a) + v * v / (a * a)).
  { apply Rplus_le_le_0_compat; [apply Rmult_le_pos; [lra|left; apply Rinv_0_lt_compat; lra]|].
    apply Rmult_le_pos; [nra|left; apply Rinv_0_lt_compat; nra]. }
  assert (QQ : q * q = s / (2 * a) + v * v / (a * a)) by (apply sqrt_sqrt; exact ARG).
  assert (TOP : v + a * dta = a * q) by (unfold dta; field; lra).
  assert (SQ : 2 * (a * q) * (a * q) = s * a + 2 * (v * v)).
  { replace (2 * (a * q) * (a * q)) with (2 * (a * a) * (q * q)) by ring. rewrite QQ. field. lra. }
  destruct (Rlt_dec vmax (v + a * dta)) as [L|L].
  - set (dt := (vmax - v) / a). assert (DT : a * dt = vmax - v) by (unfold dt; field; lra).
    split; [|split; [|split; [|split]]].
    + cbn [eval_acc_time]. f_equal; [|lra].
      set (w := (s - 2 * (v + vmax) * dt) / (2 * vmax)).
      assert (W : 2 * vmax * w = s - 2 * (v + vmax) * dt) by (unfold w; field; lra).
      replace (0 + 2 * v * dt + a * dt * dt + 2 * (v + a * dt) * w + 0 * w * w + 2 * (v + a * dt + 0 * w) * dt + - a * dt * dt)
        with (2 * (v + (v + a * dt)) * dt + 2 * (v + a * dt) * w) by ring.
      replace (v + a * dt) with vmax by lra. lra.
    + apply Rmult_le_pos; [|left; apply Rinv_0_lt_compat; lra]. rewrite TOP in L.
      assert (2 * (v + vmax) * dt * a = 2 * (v + vmax) * (vmax - v)) by (rewrite <- DT; ring).
      assert (0 <= (s - 2 * (v + vmax) * dt) * a) by nra. apply (Rmult_le_reg_r a); lra.
    + lra.
    + lra.
    + split; intros X; [nra|]. assert (a * dt < 0) by lra. nra.
  - destruct (Rlt_dec (v + a * dta) (- vmax)) as [L2|L2]; [exfalso; rewrite TOP in L2; nra|].
    split; [|split; [|split; [|split]]].
    + cbn [eval_acc_time]. f_equal; [|lra].
      replace (0 + 2 * v * dta + a * dta * dta + 2 * (v + a * dta) * 0 + 0 * 0 * 0 + 2 * (v + a * dta + 0 * 0) * dta + - a * dta * dta)
        with (2 * dta * (v + (v + a * dta))) by ring.
      rewrite TOP. apply (Rmult_eq_reg_l a); [|lra].
      replace (a * (2 * dta * (v + a * q))) with (2 * (v + a * dta - v) * (v + a * q)) by ring. rewrite TOP. lra.
    + lra.
    + lra.
    + lra.
    + rewrite TOP in L. split; intros X.
      * exfalso. assert (B : a * q < v) by nra. assert (0 <= s * a) by nra. assert (0 <= a * q) by nra.
        assert (a * q * (a * q) < v * v) by (apply Rmult_le_0_lt_compat; lra). lra.
      * exfalso. assert (0 <= s * a) by nra. assert (0 <= a * q) by nra.
        assert (a * q * (a * q) < v * v) by (apply Rmult_le_0_lt_compat; lra). lra.
Qed.

(** A move within the maximum speed, and one that starts above it: a negative time. *)
Example C94_example : extend_dist 16 0 2 5 = (2, 0) /\ extend_dist 0 4 2 1 = (- (3 / 2), 15 / 2).
Proof.
  assert (Q : sqrt 4 = 2) by (replace 4 with (2 * 2) by ring; apply sqrt_square; lra).
  unfold extend_dist. cbv zeta. split.
  - replace (16 / (2 * 2) + 0 * 0 / (2 * 2)) with 4 by field. rewrite Q.
    destruct (Rlt_dec 5 _); [exfalso; lra|]. destruct (Rlt_dec (0 + 2 * (- 0 / 2 + 2)) (Ropp 5)); [exfalso; lra|]. f_equal. field.
  - replace (0 / (2 * 2) + 4 * 4 / (2 * 2)) with 4 by field. rewrite Q.
    destruct (Rlt_dec 1 _); [|exfalso; lra]. f_equal; field.
Qed.
Example C94_seq : eval_acc_seq 3 7 [3; 3; 4; 3; 13]%Z = (163, 33)%Z.
Proof. reflexivity. Qed.

Print Assumptions C93_intersection.
Print Assumptions C93_intersection_when.
Print Assumptions C93_order_refuted.
Print Assumptions C93_incenter.
Print Assumptions C93_fit_circle.
Print Assumptions C94_eval.
Print Assumptions C94_extend.
