(** Property theorems about the curves: C58, C59, C60, C61, C62, C71, C72. *)
From Coq Require Import Reals ZArith List Lia Lra.
From Verif Require Import Base Coords CoordsProofs Polynomials PolyProofs TaylorProofs TableProofs
  Curves PropsPoly CurvesProofs.
Import ListNotations.
Open Scope R_scope.

(** ** C58: CurveSegment::transform acts on the drawn curve *)

Theorem C58_line : forall find fuel seg p cur T,
  seg = LineTo p \/ seg = CloseTo p ->
  exists ci ci' len len',
    segment_to_info find fuel seg cur = Ok (Some (ci, p)) /\
    segment_to_info find fuel (segment_transform seg T) (tapply T cur)
      = Ok (Some (ci', tapply T p)) /\
    ci_length ci = Ok len /\ ci_length ci' = Ok len' /\
    forall f, exists q d q' d',
      ci_value ci (f * len) = Ok (q, d) /\ ci_value ci' (f * len') = Ok (q', d') /\
      tapply T (vadd cur q) = vadd (tapply T cur) q'.
Proof.
  intros find fuel seg p cur T S.
  set (l := line_new (vsub p cur)); set (l' := line_new (vsub (tapply T p) (tapply T cur))).
  exists (line_info l), (line_info l'), (l_length l), (l_length l').
  split; [destruct S; subst seg; reflexivity|].
  split; [destruct S; subst seg; reflexivity|].
  split; [reflexivity|]; split; [reflexivity|].
  intro f.
  exists (fst (line_value l (f * l_length l))), (l_dir l).
  exists (fst (line_value l' (f * l_length l'))), (l_dir l').
  split; [reflexivity|]; split; [reflexivity|].
  unfold l, l'; cbn [l_length line_new].
  change (l_length (line_new (vsub p cur))) with (vlength (vsub p cur)).
  change (l_length (line_new (vsub (tapply T p) (tapply T cur))))
    with (vlength (vsub (tapply T p) (tapply T cur))).
  rewrite !line_point.
  unfold tapply, vadd, vscale, vsub; apply vec_eq; cbn [vx vy]; ring.
Qed.

(** Circle arcs follow translations and uniform scaling ... *)
Theorem C58_arc_scaled : forall r start end_ rot s x y,
  0 < r -> min_column_length <= s ->
  segment_transform (Arc r r start end_ rot) (mk_tr s 0 0 s x y) = Arc (s * r) (s * r) start end_ rot /\
  forall f,
    fst (circle_value (circle_new (s * r) start end_) (f * circle_length (circle_new (s * r) start end_)))
    = vscale (fst (circle_value (circle_new r start end_) (f * circle_length (circle_new r start end_)))) s.
Proof.
  intros r start end_ rot s x y R0 S0.
  assert (S1 : 0 < s) by (unfold min_column_length in S0; lra).
  split.
  - cbn [segment_transform]; unfold decompose; cbn [m0 m1 m2 m3 m4 m5].
    replace (s * s + 0 * 0) with (s * s) by ring.
    rewrite sqrt_square by lra.
    destruct (Rle_dec min_column_length s) as [_|C]; [|lra].
    cbn [vx vy].
    replace ((s * s - 0 * 0) / s) with s by (field; lra).
    f_equal; unfold atan2.
    destruct (Rlt_dec 0 s) as [_|C]; [|lra].
    replace (0 / s) with 0 by (field; lra); rewrite atan_0; ring.
  - intro f; unfold circle_value, circle_length, circle_new, vscale, vadd; cbn.
    set (w := Rabs (end_ - start)).
    assert (E : f * (s * r * w) * angle_scale (s * r) start end_
                = f * (r * w) * angle_scale r start end_).
    { unfold angle_scale; destruct (Rle_dec start end_); field; lra. }
    rewrite E; apply vec_eq; cbn [vx vy]; ring.
Qed.

Example C58_example : 0 < 1 /\ min_column_length <= 2 /\ exists p, LineTo vzero = LineTo p.
Proof. unfold min_column_length; split; [lra|]; split; [lra|eauto]. Qed.

(** ... but not rotations: the rotation is stored in the segment and ignored
    when it is drawn. *)
Theorem C58_arc_rotation_ignored :
  exists T seg cur c c' e e' len len',
    T = trotate (PI / 2) /\
    segment_to_info scan 0 seg cur = Ok (Some (c, e)) /\
    segment_to_info scan 0 (segment_transform seg T) (tapply T cur) = Ok (Some (c', e')) /\
    ci_length c = Ok len /\ ci_length c' = Ok len' /\
    exists q d q' d', ci_value c len = Ok (q, d) /\ ci_value c' len' = Ok (q', d') /\
      tapply T (vadd cur q) <> vadd (tapply T cur) q'.
Proof.
  set (T := trotate (PI / 2)).
  set (c := circle_new 1 0 (PI / 2)).
  assert (PP := PI_RGT_0).
  assert (TT : T = mk_tr 0 1 (-1) 0 0 0).
  { unfold T, trotate; rewrite cos_PI2, sin_PI2; f_equal; ring. }
  assert (DT : exists rot, segment_transform (Arc 1 1 0 (PI / 2) 0) T = Arc 1 1 0 (PI / 2) rot).
  { rewrite TT; cbn [segment_transform]; unfold decompose; cbn [m0 m1 m2 m3 m4 m5].
    replace (0 * 0 + 1 * 1) with 1 by ring; rewrite sqrt_1.
    destruct (Rle_dec min_column_length 1) as [_|C]; [|unfold min_column_length in C; lra].
    cbn [vx vy]; eexists; f_equal; field. }
  destruct DT as [rot DT].
  assert (SI : forall rt cur, segment_to_info scan 0 (Arc 1 1 0 (PI / 2) rt) cur
     = Ok (Some (circle_info c, vadd cur (fst (circle_value c (circle_length c)))))).
  { intros rt cur; cbn [segment_to_info].
    destruct (Rlt_dec f64_epsilon (Rabs (1 - 1))) as [C|_].
    - rewrite Rminus_diag_eq, Rabs_R0 in C by reflexivity; assert (E := eps_pos); lra.
    - fold c; destruct (circle_value c (circle_length c)); reflexivity. }
  assert (V : fst (circle_value c (circle_length c)) = mk_vec (-1) 1).
  { unfold circle_value, circle_length, c, circle_new; cbn [c_radius c_start c_end c_center c_scale fst].
    rewrite circle_angle by lra; unfold vadd; cbn [vx vy].
    rewrite cos_PI2, sin_PI2, cos_0, sin_0; apply vec_eq; cbn [vx vy]; ring. }
  exists T, (Arc 1 1 0 (PI / 2) 0), vzero, (circle_info c), (circle_info c).
  do 2 eexists; exists (circle_length c), (circle_length c).
  split; [reflexivity|]; split; [apply SI|]; split; [rewrite DT; apply SI|].
  split; [reflexivity|]; split; [reflexivity|].
  exists (mk_vec (-1) 1), (snd (circle_value c (circle_length c))),
         (mk_vec (-1) 1), (snd (circle_value c (circle_length c))).
  split; [cbn [circle_info ci_value]; rewrite <- V, <- surjective_pairing; reflexivity|].
  split; [cbn [circle_info ci_value]; rewrite <- V, <- surjective_pairing; reflexivity|].
  rewrite TT; unfold tapply, vadd, vzero; cbn; intro H; inversion H; lra.
Qed.

(** ** C59: lines and circle arcs *)

Definition xof (f : R -> vec * vec) (t : R) : R := vx (fst (f t)).
Definition yof (f : R -> vec * vec) (t : R) : R := vy (fst (f t)).

(** Starts at the origin, has the given end and length, and the reported
    direction is the derivative of the position and a unit vector, so that the
    parameter is the distance along the curve. *)
Definition unit_speed (f : R -> vec * vec) (len : R) (end_ : vec) : Prop :=
  fst (f 0) = vzero /\ 0 <= len /\ fst (f len) = end_ /\
  forall t, vlength (snd (f t)) = 1 /\
    derivable_pt_lim (xof f) t (vx (snd (f t))) /\
    derivable_pt_lim (yof f) t (vy (snd (f t))).

Lemma lim_lin : forall k t, derivable_pt_lim (fun u => k * u) t k.
Proof.
  intros k t eps E; exists (mkposreal eps E); intros h h0 _.
  replace ((k * (t + h) - k * t) / h - k) with 0 by (field; exact h0).
  rewrite Rabs_R0; exact E.
Qed.

Theorem C59_line : forall e, unit_speed (line_value (line_new e)) (l_length (line_new e)) e.
Proof.
  intro e; split; [|split; [|split]].
  - cbn; unfold vscale, vzero; apply vec_eq; cbn; ring.
  - apply length_nonneg.
  - change (l_length (line_new e)) with (vlength e).
    rewrite <- (Rmult_1_l (vlength e)), line_point; unfold vscale; apply vec_eq; cbn; ring.
  - intro t; cbn [line_value snd]; set (d := l_dir (line_new e)); split; [|split].
    + unfold d; cbn [line_new l_dir]; destruct (Req_EM_T (vlength e) 0) as [E|E].
      * unfold vlength; cbn [vx vy]; replace (1 * 1 + 0 * 0) with 1 by ring; apply sqrt_1.
      * apply unit_length; intro Z; subst e; apply E; unfold vlength, vzero; cbn [vx vy].
        replace (0 * 0 + 0 * 0) with 0 by ring; apply sqrt_0.
    + apply (lim_lin (vx d) t).
    + apply (lim_lin (vy d) t).
Qed.

(** Common part of the two ways to make a circle arc. *)
Lemma circle_speed : forall r a b ctr, 0 < r ->
  let c := mk_circle r a b ctr (angle_scale r a b) in
  forall t, vlength (snd (circle_value c t)) = 1 /\
    derivable_pt_lim (xof (circle_value c)) t (vx (snd (circle_value c t))) /\
    derivable_pt_lim (yof (circle_value c)) t (vy (snd (circle_value c t))).
Proof.
  intros r a b ctr R0 c t.
  set (w := angle_scale r a b).
  assert (DA : forall t, derivable_pt_lim (fun u => u * w + a) t w).
  { intros u eps E; exists (mkposreal eps E); intros h h0 _.
    replace (((u + h) * w + a - (u * w + a)) / h - w) with 0 by (field; exact h0).
    rewrite Rabs_R0; exact E. }
  assert (DC : forall k u, derivable_pt_lim (fun u => cos (u * w + a) * r + k) u
                 (- sin (u * w + a) * w * r)).
  { intros k u.
    replace (- sin (u * w + a) * w * r)
      with ((- sin (u * w + a) * w) * fct_cte r u + cos (u * w + a) * 0 + 0)
      by (unfold fct_cte; ring).
    apply (derivable_pt_lim_plus (fun u => cos (u * w + a) * r) (fct_cte k));
      [|apply derivable_pt_lim_const].
    apply (derivable_pt_lim_mult (fun u => cos (u * w + a)) (fct_cte r));
      [|apply derivable_pt_lim_const].
    apply (derivable_pt_lim_comp (fun u => u * w + a) cos); [apply DA|apply derivable_pt_lim_cos]. }
  assert (DS : forall k u, derivable_pt_lim (fun u => sin (u * w + a) * r + k) u
                 (cos (u * w + a) * w * r)).
  { intros k u.
    replace (cos (u * w + a) * w * r)
      with ((cos (u * w + a) * w) * fct_cte r u + sin (u * w + a) * 0 + 0)
      by (unfold fct_cte; ring).
    apply (derivable_pt_lim_plus (fun u => sin (u * w + a) * r) (fct_cte k));
      [|apply derivable_pt_lim_const].
    apply (derivable_pt_lim_mult (fun u => sin (u * w + a)) (fct_cte r));
      [|apply derivable_pt_lim_const].
    apply (derivable_pt_lim_comp (fun u => u * w + a) sin); [apply DA|apply derivable_pt_lim_sin]. }
  assert (SC := sin2_cos2 (t * w + a)); unfold Rsqr in SC.
  unfold circle_value, xof, yof, c; cbn [c_radius c_start c_end c_center c_scale fst snd vadd vx vy].
  fold w.
  assert (WC : (a <= b -> w * r = 1) /\ (~ a <= b -> w * r = -1)).
  { unfold w, angle_scale; destruct (Rle_dec a b); split; intro; try lra; field; lra. }
  destruct (Rle_dec a b) as [L|L]; cbn [vx vy].
  - split; [|split].
    + unfold vlength; cbn [vx vy].
      replace (- sin (t * w + a) * - sin (t * w + a) + cos (t * w + a) * cos (t * w + a))
        with 1 by lra; apply sqrt_1.
    + replace (- sin (t * w + a)) with (- sin (t * w + a) * w * r); [apply DC|].
      rewrite Rmult_assoc, (proj1 WC L); ring.
    + replace (cos (t * w + a)) with (cos (t * w + a) * w * r); [apply DS|].
      rewrite Rmult_assoc, (proj1 WC L); ring.
  - split; [|split].
    + unfold vlength; cbn [vx vy].
      replace (sin (t * w + a) * sin (t * w + a) + - cos (t * w + a) * - cos (t * w + a))
        with 1 by lra; apply sqrt_1.
    + replace (sin (t * w + a)) with (- sin (t * w + a) * w * r); [apply DC|].
      rewrite Rmult_assoc, (proj2 WC L); ring.
    + replace (- cos (t * w + a)) with (cos (t * w + a) * w * r); [apply DS|].
      rewrite Rmult_assoc, (proj2 WC L); ring.
Qed.

Theorem C59_circle : forall r a b, 0 < r ->
  unit_speed (circle_value (circle_new r a b)) (circle_length (circle_new r a b))
    (mk_vec (r * (cos b - cos a)) (r * (sin b - sin a))).
Proof.
  intros r a b R0; split; [|split; [|split]].
  - unfold circle_value, circle_new; cbn [c_radius c_start c_end c_center c_scale fst].
    rewrite Rmult_0_l, Rplus_0_l; unfold vadd, vzero; apply vec_eq; cbn [vx vy]; ring.
  - unfold circle_length, circle_new; cbn.
    apply Rmult_le_pos; [lra|apply Rabs_pos].
  - unfold circle_value, circle_length, circle_new; cbn [c_radius c_start c_end c_center c_scale fst].
    rewrite circle_angle by auto; unfold vadd; apply vec_eq; cbn [vx vy]; ring.
  - apply circle_speed; auto.
Qed.

Example C59_example :
  unit_speed (line_value (line_new (mk_vec 3 4))) (l_length (line_new (mk_vec 3 4))) (mk_vec 3 4) /\
  0 < 2.
Proof. split; [apply C59_line|lra]. Qed.

(** ** C72: a circle arc from its start direction *)

Lemma sign_mul : forall b k, 0 < k -> - (b * k) < 0 <-> 0 < b.
Proof. intros b k K; split; intro H; nra. Qed.

Lemma sweep_bound : forall r x m, 0 < r -> 0 < x < m -> 0 < r * x < m * r.
Proof. intros; split; nra. Qed.

(** It starts at the origin in the given direction and ends at the given point
    after less than a full turn, whenever the direction is not along the line
    to the end point. *)
Theorem C72_start_direction : forall e d, cross_mul e d <> 0 ->
  let c := circle_new_start_direction e d in
  unit_speed (circle_value c) (circle_length c) e /\
  snd (circle_value c 0) = unit_vec d /\
  0 < c_radius c /\
  0 < circle_length c < 2 * PI * c_radius c.
Proof.
  intros e d N.
  assert (PP := PI_RGT_0).
  unfold circle_new_start_direction.
  set (p0 := vscale e (1 / 2)); set (p1 := rotate_90_ccw e); set (p2 := rotate_90_ccw d).
  set (b := (vx p1 * vy p0 - vx p0 * vy p1) / (vx p1 * vy p2 - vx p2 * vy p1)).
  set (ctr := vscale p2 b); set (r := vlength ctr).
  set (a0 := angle (vneg ctr)); set (a1 := angle (vsub e ctr)).
  assert (Ne : vx e <> 0 \/ vy e <> 0).
  { destruct (Req_EM_T (vx e) 0) as [A|A]; [|auto]; destruct (Req_EM_T (vy e) 0) as [B|B]; [|auto].
    exfalso; apply N; unfold cross_mul; rewrite A, B; ring. }
  assert (Nd : vx d <> 0 \/ vy d <> 0).
  { destruct (Req_EM_T (vx d) 0) as [A|A]; [|auto]; destruct (Req_EM_T (vy d) 0) as [B|B]; [|auto].
    exfalso; apply N; unfold cross_mul; rewrite A, B; ring. }
  assert (Pe := sumsq_pos _ _ Ne); assert (Pd := sumsq_pos _ _ Nd).
  assert (Db : b = - (vx e * vx e + vy e * vy e) / (2 * (vx e * vy d - vy e * vx d))).
  { unfold b, p0, p1, p2, vscale, rotate_90_ccw; cbn [vx vy].
    unfold cross_mul in N; field; lra. }
  assert (Nb : b <> 0).
  { intro Z; assert (M : b * (2 * (vx e * vy d - vy e * vx d)) = - (vx e * vx e + vy e * vy e))
      by (rewrite Db; unfold cross_mul in N; field; exact N).
    rewrite Z in M; lra. }
  (* the centre is equally far from both ends *)
  assert (Cx : vx ctr = - vy d * b) by reflexivity.
  assert (Cy : vy ctr = vx d * b) by reflexivity.
  assert (EQ : 2 * (vx e * vx ctr + vy e * vy ctr) = vx e * vx e + vy e * vy e).
  { rewrite Cx, Cy, Db; unfold cross_mul in N; field; lra. }
  assert (Nc : vx ctr <> 0 \/ vy ctr <> 0).
  { destruct Nd as [A|A]; [right; rewrite Cy|left; rewrite Cx]; intro Z;
      apply Rmult_integral in Z as [Z|Z]; lra. }
  assert (R0 : 0 < r).
  { apply length_pos; intro Z; rewrite Z in Nc; cbn in Nc; destruct Nc; lra. }
  assert (RR : r * r = vx ctr * vx ctr + vy ctr * vy ctr) by apply length_sq.
  assert (Rd : r = vlength d * Rabs b).
  { unfold r, ctr; rewrite length_scale; f_equal; unfold p2, rotate_90_ccw, vlength; cbn [vx vy].
    f_equal; ring. }
  (* polar forms *)
  assert (P0 : cos a0 * r = - vx ctr /\ sin a0 * r = - vy ctr).
  { destruct (atan2_polar (- vx ctr) (- vy ctr)) as [A B]; [destruct Nc; [left|right]; lra|].
    assert (E : sqrt (- vx ctr * - vx ctr + - vy ctr * - vy ctr) = r)
      by (unfold r, vlength; f_equal; ring).
    unfold a0, angle, vneg; cbn [vx vy]; rewrite A, B, E; split; field; lra. }
  assert (P1 : cos a1 * r = vx e - vx ctr /\ sin a1 * r = vy e - vy ctr).
  { assert (E : sqrt ((vx e - vx ctr) * (vx e - vx ctr) + (vy e - vy ctr) * (vy e - vy ctr)) = r).
    { unfold r, vlength; f_equal; lra. }
    destruct (atan2_polar (vx e - vx ctr) (vy e - vy ctr)) as [A B].
    - destruct (Req_EM_T (vx e - vx ctr) 0) as [Z1|Z1]; [|auto].
      destruct (Req_EM_T (vy e - vy ctr) 0) as [Z2|Z2]; [|auto].
      rewrite Z1, Z2 in E; replace (0 * 0 + 0 * 0) with 0 in E by ring.
      rewrite sqrt_0 in E; lra.
    - unfold a1, angle, vsub; cbn [vx vy]; rewrite A, B, E; split; field; lra. }
  assert (RA0 := atan2_range (- vx ctr) (- vy ctr)).
  assert (RA1 := atan2_range (vx e - vx ctr) (vy e - vy ctr)).
  change (atan2 (- vy ctr) (- vx ctr)) with a0 in RA0.
  change (atan2 (vy e - vy ctr) (vx e - vx ctr)) with a1 in RA1.
  assert (ND : a0 <> a1).
  { intro Z; rewrite <- Z in P1; destruct P0, P1; destruct Ne; lra. }
  assert (DS : diff_sign d ctr = - (b * (vx d * vx d + vy d * vy d)))
    by (unfold diff_sign; rewrite Cx, Cy; ring).
  set (a2 := if Rlt_dec (diff_sign d ctr) 0 then if Rlt_dec a1 a0 then a1 + 2 * PI else a1
             else if Rlt_dec a0 a1 then a1 - 2 * PI else a1).
  assert (A2 : (0 < b -> a0 < a2 < a0 + 2 * PI) /\ (b < 0 -> a0 - 2 * PI < a2 < a0)).
  { unfold a2; rewrite DS.
    destruct (Rlt_dec (- (b * (vx d * vx d + vy d * vy d))) 0) as [C|C].
    - assert (0 < b) by (apply (sign_mul b _ Pd); exact C).
      split; [intros _|lra]; destruct (Rlt_dec a1 a0); lra.
    - assert (~ 0 < b) by (intro B; apply C, (sign_mul b _ Pd); exact B).
      split; [lra|intros _]; destruct (Rlt_dec a0 a1); lra. }
  assert (TA : cos a2 = cos a1 /\ sin a2 = sin a1).
  { unfold a2; destruct (Rlt_dec (diff_sign d ctr) 0).
    - destruct (Rlt_dec a1 a0); [|auto].
      rewrite cos_plus, sin_plus, cos_2PI, sin_2PI; split; ring.
    - destruct (Rlt_dec a0 a1); [|auto].
      rewrite cos_minus, sin_minus, cos_2PI, sin_2PI; split; ring. }
  set (c := mk_circle r a0 a2 ctr (angle_scale r a0 a2)).
  assert (V0 : fst (circle_value c 0) = vzero).
  { unfold circle_value, c; cbn [c_radius c_start c_end c_center c_scale fst].
    rewrite Rmult_0_l, Rplus_0_l; unfold vadd, vzero; apply vec_eq; cbn [vx vy]; lra. }
  assert (LB : 0 < Rabs (a2 - a0) < 2 * PI).
  { destruct (Rtotal_order b 0) as [B|[B|B]]; [|congruence|].
    - rewrite Rabs_left; destruct A2 as [_ A2]; specialize (A2 B); lra.
    - rewrite Rabs_right; destruct A2 as [A2 _]; specialize (A2 B); lra. }
  split; [split; [exact V0|split; [|split]]|split; [|split]].
  - unfold circle_length, c; cbn; apply Rmult_le_pos; [lra|apply Rabs_pos].
  - unfold circle_value, circle_length, c; cbn [c_radius c_start c_end c_center c_scale fst].
    rewrite circle_angle by auto.
    rewrite (proj1 TA), (proj2 TA); unfold vadd; apply vec_eq; cbn [vx vy]; lra.
  - apply circle_speed; auto.
  - unfold circle_value, c; cbn [c_radius c_start c_end c_center c_scale snd].
    rewrite Rmult_0_l, Rplus_0_l.
    assert (Ld : 0 < vlength d) by (apply length_pos; intro Z; rewrite Z in Nd; cbn in Nd; destruct Nd; lra).
    assert (CO : cos a0 = vy d * b / r) by (apply (Rmult_eq_reg_r r); [|lra]; rewrite (proj1 P0), Cx; field; lra).
    assert (SI : sin a0 = - (vx d * b) / r) by (apply (Rmult_eq_reg_r r); [|lra]; rewrite (proj2 P0), Cy; field; lra).
    assert (BR : (0 < b -> b / r = / vlength d) /\ (b < 0 -> b / r = - / vlength d)).
    { rewrite Rd; split; intro B; [rewrite Rabs_right by lra|rewrite Rabs_left by lra]; field; split; lra. }
    unfold unit_vec; destruct (Rle_dec a0 a2) as [L|L].
    + assert (B : 0 < b) by (destruct (Rtotal_order b 0) as [B|[B|B]]; [destruct A2 as [_ A2]; specialize (A2 B); lra|congruence|exact B]).
      apply vec_eq; cbn [vx vy].
      * rewrite SI; replace (- (- (vx d * b) / r)) with (vx d * (b / r)) by (field; lra).
        rewrite (proj1 BR B); reflexivity.
      * rewrite CO; replace (vy d * b / r) with (vy d * (b / r)) by (field; lra).
        rewrite (proj1 BR B); reflexivity.
    + assert (B : b < 0) by (destruct (Rtotal_order b 0) as [B|[B|B]]; [exact B|congruence|destruct A2 as [A2 _]; specialize (A2 B); lra]).
      apply vec_eq; cbn [vx vy].
      * rewrite SI; replace (- (vx d * b) / r) with (vx d * (- (b / r))) by (field; lra).
        rewrite (proj2 BR B); unfold Rdiv; ring.
      * rewrite CO; replace (- (vy d * b / r)) with (vy d * (- (b / r))) by (field; lra).
        rewrite (proj2 BR B); unfold Rdiv; ring.
  - exact R0.
  - unfold circle_length, c; cbn [c_radius c_start c_end].
    apply sweep_bound; auto.
Qed.

Example C72_example : cross_mul (mk_vec 1 1) (mk_vec 1 0) <> 0.
Proof. unfold cross_mul; cbn; lra. Qed.

(** ** C60: split *)

(** One coordinate; [b] is the second control point from the start. *)
Lemma split_coord : forall a b c s t p10 p11 p20,
  p10 = 2 * a * (s - s ^ 2) + b * s ^ 2 ->
  p11 = a * (1 - s) ^ 2 + 2 * b * (s - s ^ 2) + c * s ^ 2 ->
  p20 = 3 * a * s * (1 - s) ^ 2 + 3 * b * (s ^ 2 - s ^ 3) + c * s ^ 3 ->
  a * s * (3 * (1 - t) ^ 2 * t) + (p10 * (3 * (1 - t) * t ^ 2) + p20 * t ^ 3) =
    a * (3 * (1 - s * t) ^ 2 * (s * t)) + (b * (3 * (1 - s * t) * (s * t) ^ 2) + c * (s * t) ^ 3) /\
  p20 + ((p11 - p20) * (3 * (1 - t) ^ 2 * t)
         + ((b + (c - b) * s - p20) * (3 * (1 - t) * t ^ 2) + (c - p20) * t ^ 3)) =
    let u := s + (1 - s) * t in
    a * (3 * (1 - u) ^ 2 * u) + (b * (3 * (1 - u) * u ^ 2) + c * u ^ 3).
Proof. intros; subst; cbv zeta; split; ring. Qed.

Lemma bs_point_coord : forall c1 c2 p2 t, bs_point (mk_bs c1 c2 p2) t =
  mk_vec (vx c1 * (3 * (1 - t) ^ 2 * t) + ((vx p2 + vx c2) * (3 * (1 - t) * t ^ 2) + vx p2 * t ^ 3))
         (vy c1 * (3 * (1 - t) ^ 2 * t) + ((vy p2 + vy c2) * (3 * (1 - t) * t ^ 2) + vy p2 * t ^ 3)).
Proof. intros; unfold bs_point, vadd, vscale; cbn [bs_c1 bs_c2 bs_p2]; apply vec_eq; cbn [vx vy]; ring. Qed.

(** Both halves run along the original curve. *)
Theorem C60_split : forall b s t,
  let '(l, r) := bs_split b s in
  bs_point l t = bs_point b (s * t) /\
  vadd (bs_p2 l) (bs_point r t) = bs_point b (s + (1 - s) * t).
Proof.
  intros [c1 c2 p2] s t; unfold bs_split; cbn [bs_c1 bs_c2 bs_p2].
  set (p01 := vadd c1 (vscale (vsub (vadd p2 c2) c1) s)).
  set (p02 := vadd p2 (vscale c2 (1 - s))).
  set (p00 := vscale c1 s).
  set (p10 := vadd p00 (vscale (vsub p01 p00) s)).
  set (p11 := vadd p01 (vscale (vsub p02 p01) s)).
  set (p20 := vadd p10 (vscale (vsub p11 p10) s)).
  assert (X1 : forall g, g = vx \/ g = vy ->
     g p10 = 2 * g c1 * (s - s ^ 2) + (g p2 + g c2) * s ^ 2 /\
     g p11 = g c1 * (1 - s) ^ 2 + 2 * (g p2 + g c2) * (s - s ^ 2) + g p2 * s ^ 2).
  { intros g [G|G]; subst g; unfold p10, p11, p00, p01, p02, vadd, vsub, vscale; cbn [vx vy];
      split; ring. }
  assert (X2 : forall g, g = vx \/ g = vy ->
     g p20 = 3 * g c1 * s * (1 - s) ^ 2 + 3 * (g p2 + g c2) * (s ^ 2 - s ^ 3) + g p2 * s ^ 3).
  { intros g G; destruct (X1 g G) as [A B].
    assert (E : g p20 = g p10 + (g p11 - g p10) * s) by (destruct G; subst g; reflexivity).
    rewrite E, A, B; ring. }
  assert (X0 : forall g, g = vx \/ g = vy -> g p00 = g c1 * s /\
     g p02 = g p2 + g c2 + (g p2 - (g p2 + g c2)) * s).
  { intros g [G|G]; subst g; unfold p00, p02, vadd, vscale; cbn [vx vy]; split; ring. }
  rewrite !bs_point_coord.
  destruct (X0 vx (or_introl eq_refl)) as [Ax Cx]; destruct (X0 vy (or_intror eq_refl)) as [Ay Cy].
  destruct (X1 vx (or_introl eq_refl)) as [Bx Dx]; destruct (X1 vy (or_intror eq_refl)) as [By Dy].
  assert (Ex := X2 vx (or_introl eq_refl)); assert (Ey := X2 vy (or_intror eq_refl)).
  clear X0 X1 X2.
  destruct (split_coord (vx c1) (vx p2 + vx c2) (vx p2) s t _ _ _ Bx Dx Ex) as [Lx Rx].
  destruct (split_coord (vy c1) (vy p2 + vy c2) (vy p2) s t _ _ _ By Dy Ey) as [Ly Ry].
  cbv zeta in Rx, Ry.
  clear Bx Dx Ex By Dy Ey; clearbody p00 p02 p10 p11 p20.
  split; unfold vadd, vsub; apply vec_eq; cbn [vx vy].
  - rewrite <- Lx, Ax; ring.
  - rewrite <- Ly, Ay; ring.
  - rewrite <- Rx, Cx; ring.
  - rewrite <- Ry, Cy; ring.
Qed.

(** The end points of a segment. *)
Theorem C60_ends : forall b, bs_point b 0 = vzero /\ bs_point b 1 = bs_p2 b.
Proof.
  intro b; unfold bs_point, vadd, vscale, vzero; split; apply vec_eq; cbn [vx vy]; ring.
Qed.

(** BezierSegment and Bezier are the same curve (c2 is relative to the end in
    the one, to the start in the other). *)
Theorem C60_same_curve : forall b t,
  bs_point b t = fst (bezier_value (bs_c1 b) (vadd (bs_p2 b) (bs_c2 b)) (bs_p2 b) t).
Proof.
  intros b t; rewrite bezier_bern; unfold bs_point.
  unfold vadd, vsub, vscale; apply vec_eq; cbn [vx vy]; ring.
Qed.

(** ** C61: Bezier evaluation *)

(** Power basis given by the coefficients. *)
Definition cubic (c : R * R * R) (t : R) : R :=
  let '(c0, c1, c2) := c in c0 * t + c1 * t ^ 2 + c2 * t ^ 3.

Definition bez_x c1 c2 p2 := cubic (coefficients_from_control (vx c1) (vx c2) (vx p2)).
Definition bez_y c1 c2 p2 := cubic (coefficients_from_control (vy c1) (vy c2) (vy p2)).

Theorem C61_value : forall c1 c2 p2 t,
  fst (bezier_value c1 c2 p2 t) = mk_vec (bez_x c1 c2 p2 t) (bez_y c1 c2 p2 t).
Proof.
  intros; rewrite bezier_bern; unfold bez_x, bez_y, cubic, coefficients_from_control.
  unfold vadd, vsub, vscale; apply vec_eq; cbn [vx vy]; ring.
Qed.

(** Bernstein form, independent of the source. *)
Theorem C61_bernstein : forall c1 c2 p2 t,
  fst (bezier_value c1 c2 p2 t) =
    vadd (vscale c1 (3 * (1 - t) ^ 2 * t))
      (vadd (vscale c2 (3 * (1 - t) * t ^ 2)) (vscale p2 (t ^ 3))).
Proof.
  exact bezier_bern.
Qed.

Lemma cubic_deriv : forall c t,
  derivable_pt_lim (cubic c) t (polyval (deriv_from_coefficients c) t).
Proof.
  intros [[c0 c1] c2] t.
  assert (H := der_lim [0; c0; c1; c2] t).
  replace (polyval (deriv_from_coefficients (c0, c1, c2)) t) with (polyval (der [0; c0; c1; c2]) t)
    by (cbn; ring).
  intros eps E; destruct (H eps E) as [dl D]; exists dl; intros h h0 hd.
  replace (cubic (c0, c1, c2) (t + h)) with (polyval [0; c0; c1; c2] (t + h)) by (cbn; ring).
  replace (cubic (c0, c1, c2) t) with (polyval [0; c0; c1; c2] t) by (cbn; ring).
  auto.
Qed.

(** The polynomial from which the arc length is computed is the squared norm of
    the derivative. *)
Theorem C61_speed : forall c1 c2 p2, exists dl2,
  speed_poly c1 c2 p2 = Ok dl2 /\ length dl2 = 5%nat /\
  forall t, exists dx dy,
    derivable_pt_lim (xof (bezier_value c1 c2 p2)) t dx /\
    derivable_pt_lim (yof (bezier_value c1 c2 p2)) t dy /\
    poly_fun dl2 t = dx ^ 2 + dy ^ 2.
Proof.
  intros c1 c2 p2; unfold speed_poly.
  set (cx := coefficients_from_control (vx c1) (vx c2) (vx p2)).
  set (cy := coefficients_from_control (vy c1) (vy c2) (vy p2)).
  assert (LX : forall c, length (deriv_from_coefficients c) = 3%nat) by (intros [[? ?] ?]; reflexivity).
  destruct (polymul_spec (deriv_from_coefficients cx) (deriv_from_coefficients cx))
    as [xx [EX [LXX VX]]]; [rewrite LX; lia|].
  destruct (polymul_spec (deriv_from_coefficients cy) (deriv_from_coefficients cy))
    as [yy [EY [LYY VY]]]; [rewrite LX; lia|].
  rewrite EX; cbn [bind]; rewrite EY; cbn [bind].
  rewrite LX in LXX, LYY.
  eexists; split; [reflexivity|]; split; [rewrite polyadd_length, LXX, LYY; reflexivity|].
  intro t; exists (polyval (deriv_from_coefficients cx) t), (polyval (deriv_from_coefficients cy) t).
  split; [|split].
  - intros eps E; destruct (cubic_deriv cx t eps E) as [dl D]; exists dl; intros h h0 hd.
    unfold xof; rewrite !C61_value; cbn [vx]; apply D; auto.
  - intros eps E; destruct (cubic_deriv cy t eps E) as [dl D]; exists dl; intros h h0 hd.
    unfold yof; rewrite !C61_value; cbn [vy]; apply D; auto.
  - rewrite <- C63_polyval, polyadd_val, VX, VY; ring.
Qed.

(** The reported direction is that of the derivative wherever the curve moves
    at a speed of at least 6e-9 per unit of the parameter. *)
Theorem C61_direction : forall c1 c2 p2 t dx dy, 0 <= t <= 1 ->
  derivable_pt_lim (xof (bezier_value c1 c2 p2)) t dx ->
  derivable_pt_lim (yof (bezier_value c1 c2 p2)) t dy ->
  6 / 10 ^ 9 <= vlength (mk_vec dx dy) ->
  snd (bezier_value c1 c2 p2 t) = unit_vec (mk_vec dx dy).
Proof.
  intros c1 c2 p2 t dx dy T DX DY G.
  set (cx := coefficients_from_control (vx c1) (vx c2) (vx p2)).
  set (cy := coefficients_from_control (vy c1) (vy c2) (vy p2)).
  assert (EX : dx = polyval (deriv_from_coefficients cx) t).
  { apply (uniqueness_limite (xof (bezier_value c1 c2 p2)) t); auto.
    intros eps E; destruct (cubic_deriv cx t eps E) as [dl D]; exists dl; intros h h0 hd.
    unfold xof; rewrite !C61_value; cbn [vx]; apply D; auto. }
  assert (EY : dy = polyval (deriv_from_coefficients cy) t).
  { apply (uniqueness_limite (yof (bezier_value c1 c2 p2)) t); auto.
    intros eps E; destruct (cubic_deriv cy t eps E) as [dl D]; exists dl; intros h h0 hd.
    unfold yof; rewrite !C61_value; cbn [vy]; apply D; auto. }
  unfold bezier_value; cbn [snd].
  set (p00 := vscale c1 t); set (p01 := vadd c1 (vscale (vsub c2 c1) t)).
  set (p02 := vadd c2 (vscale (vsub p2 c2) t)).
  set (p10 := vadd p00 (vscale (vsub p01 p00) t)).
  set (p11 := vadd p01 (vscale (vsub p02 p01) t)).
  set (p20 := vadd p10 (vscale (vsub p11 p10) t)).
  assert (E1 : vsub p11 p20 = vscale (mk_vec dx dy) ((1 - t) / 3)).
  { unfold p20, p11, p10, p02, p01, p00; rewrite EX, EY.
    unfold cx, cy, coefficients_from_control, deriv_from_coefficients, vadd, vsub, vscale.
    apply vec_eq; cbn [vx vy polyval]; field. }
  assert (E2 : vsub p20 p10 = vscale (mk_vec dx dy) (t / 3)).
  { unfold p20, p11, p10, p02, p01, p00; rewrite EX, EY.
    unfold cx, cy, coefficients_from_control, deriv_from_coefficients, vadd, vsub, vscale.
    apply vec_eq; cbn [vx vy polyval]; field. }
  assert (MI : 6 / 10 ^ 9 = 6 * min_gradient) by (unfold min_gradient; lra). rewrite MI in G.
  assert (MG : 0 < min_gradient) by (unfold min_gradient; lra).
  destruct (Rlt_dec t (1 / 2)) as [H|H].
  - rewrite E1, length_scale, Rabs_right by lra.
    destruct (Rlt_dec (vlength (mk_vec dx dy) * ((1 - t) / 3)) min_gradient) as [C|C].
    + exfalso; assert (1 / 6 <= (1 - t) / 3) by lra; nra.
    + apply unit_scale; lra.
  - rewrite E2, length_scale, Rabs_right by lra.
    destruct (Rlt_dec (vlength (mk_vec dx dy) * (t / 3)) min_gradient) as [C|C].
    + exfalso; assert (1 / 6 <= t / 3) by lra; nra.
    + apply unit_scale; lra.
Qed.

Example C61_example :
  let d := 3 in
  derivable_pt_lim (xof (bezier_value (mk_vec 1 0) (mk_vec 2 0) (mk_vec 3 0))) 0 d /\
  6 / 10 ^ 9 <= vlength (mk_vec d 0).
Proof.
  cbv zeta; split.
  - assert (H := cubic_deriv (coefficients_from_control 1 2 3) 0).
    replace (polyval (deriv_from_coefficients (coefficients_from_control 1 2 3)) 0) with 3 in H
      by (cbn; ring).
    intros eps E; destruct (H eps E) as [dl D]; exists dl; intros h h0 hd.
    unfold xof; rewrite !C61_value; cbn [vx bez_x]; apply D; auto.
  - unfold vlength; cbn [vx vy]; replace (3 * 3 + 0 * 0) with (3 * 3) by ring.
    rewrite sqrt_square by lra; lra.
Qed.

(** ** C62: concatenation *)

(** [pre_len k cs] and [pre_pt k cs] are the sums of the lengths and of the end
    points of the first [k] curves. *)
Theorem C62_concat : forall cs, Forall good cs -> cs <> [] ->
  exists segs, add_all [] cs = Ok segs /\
    concat_length segs = pre_len (length cs) cs /\
    forall find, good_search find ->
    forall pos, 0 <= pos <= pre_len (length cs) cs ->
    exists k c,
      nth_error cs k = Some c /\ pre_len k cs <= pos <= pre_len (S k) cs /\
      concat_value find segs pos =
        Ok (vadd (pre_pt k cs) (fst (snd c (pos - pre_len k cs))), snd (snd c (pos - pre_len k cs))) /\
      forall j c', nth_error cs j = Some c' -> pre_len j cs <= pos <= pre_len (S j) cs ->
        vadd (pre_pt j cs) (fst (snd c' (pos - pre_len j cs))) =
        vadd (pre_pt k cs) (fst (snd c (pos - pre_len k cs))).
Proof.
  intros cs F NE.
  exists (spec_segs vzero 0 cs).
  split; [apply (add_all_spec cs [])|].
  split; [apply concat_length_spec|].
  intros find GF pos B.
  set (segs := spec_segs vzero 0 cs).
  assert (N : forall k c, nth_error cs k = Some c ->
     nth_error segs k = Some (mk_cs (pre_pt (S k) cs) (pre_len (S k) cs) (to_info c))).
  { intros k c H; unfold segs; rewrite (spec_segs_nth cs vzero 0 k c H), vadd_0_r, Rplus_0_r; reflexivity. }
  assert (L : length segs = length cs) by apply spec_segs_length.
  assert (L0 : (0 < length cs)%nat) by (destruct cs; [congruence|cbn; lia]).
  assert (S := search_map _ cs_end_len segs pos _ (GF (map cs_end_len segs) pos)).
  set (r := find (map cs_end_len segs) pos) in *.
  set (i := match r with Found i => i | Insert i => i end).
  assert (I : (i < length cs)%nat /\ pre_len i cs <= pos <= pre_len (Datatypes.S i) cs).
  { assert (PREV : forall k, (k < length cs)%nat -> exists c, nth_error cs k = Some c)
      by (intros k H; destruct (nth_error cs k) eqn:E; [eauto|apply nth_error_None in E; lia]).
    assert (END : forall k, (k < length cs)%nat ->
      nth_error (map cs_end_len segs) k = Some (pre_len (Datatypes.S k) cs)).
    { intros k H; destruct (PREV k H) as [c E]; rewrite (map_nth_error cs_end_len k segs (N k c E)); reflexivity. }
    unfold i; destruct r as [q|q]; cbn [search_ok] in S.
    - destruct S as [a [A1 A2]].
      assert (Q : (q < length segs)%nat) by (apply nth_error_Some; congruence).
      rewrite L in Q; destruct (PREV q Q) as [c E]; rewrite (N q c E) in A1.
      assert (A3 : pre_len (Datatypes.S q) cs = cs_end_len a)
        by (apply (f_equal (fun o => match o with Some s => cs_end_len s | None => 0 end)) in A1; exact A1).
      rewrite <- A3 in A2; split; [auto|].
      assert (P := pre_len_step cs q F); lra.
    - destruct S as [Q [A1 A2]]; rewrite L in Q.
      assert (QL : (q < length cs)%nat).
      { destruct (Nat.eq_dec q (length cs)) as [E|E]; [exfalso|lia].
        destruct q as [|q]; [lia|]; destruct (PREV q ltac:(lia)) as [c C].
        assert (H := A1 q _ eq_refl (N q c C)); cbn [cs_end_len] in H; rewrite E in H; lra. }
      split; [auto|].
      destruct (PREV q QL) as [c C]; assert (H := A2 _ (N q c C)); cbn [cs_end_len] in H.
      split; [|lra].
      destruct q as [|q]; [destruct cs; cbn; lra|].
      destruct (PREV q ltac:(lia)) as [c' C'].
      assert (H' := A1 q _ eq_refl (N q c' C')); cbn [cs_end_len] in H'; lra. }
  destruct I as [IL IB].
  destruct (nth_error cs i) as [c|] eqn:C; [|apply nth_error_None in C; lia].
  exists i, c; split; [exact C|]; split; [exact IB|]; split.
  - unfold concat_value; fold r; fold i; rewrite L.
    destruct (length cs) as [|n] eqn:LN; [lia|]; cbn [pred_index bind].
    replace (Nat.min i n) with i by lia.
    unfold get at 1; rewrite (N i c C); cbn [unwrap bind].
    destruct i as [|k] eqn:EI.
    + cbn [bind cs_curve to_info ci_value].
      replace (pre_len 0 cs) with 0 by (destruct cs; reflexivity).
      replace (pre_pt 0 cs) with vzero by (destruct cs; reflexivity).
      destruct (snd c (pos - 0)) as [p d]; cbn [bind fst snd]; rewrite vadd_comm; reflexivity.
    + destruct (nth_error cs k) as [c'|] eqn:C'; [|apply nth_error_None in C'; lia].
      unfold get; rewrite (N k c' C'); cbn [unwrap bind cs_curve to_info ci_value cs_end_coord cs_end_len].
      destruct (snd c (pos - pre_len (Datatypes.S k) cs)) as [p d]; cbn [bind fst snd].
      rewrite vadd_comm; reflexivity.
  - (* all intervals containing pos agree *)
    assert (AG : forall a b ca cb, nth_error cs a = Some ca -> nth_error cs b = Some cb -> (a < b)%nat ->
       pre_len a cs <= pos <= pre_len (Datatypes.S a) cs -> pre_len b cs <= pos <= pre_len (Datatypes.S b) cs ->
       vadd (pre_pt a cs) (fst (snd ca (pos - pre_len a cs))) =
       vadd (pre_pt b cs) (fst (snd cb (pos - pre_len b cs)))).
    { intros a b ca cb Ha Hb AB BA BB.
      assert (LB : (b < length cs)%nat) by (apply nth_error_Some; congruence).
      assert (M := pre_len_mono cs (Datatypes.S a) b F ltac:(lia)).
      assert (EL := pre_len_S cs a ca Ha).
      assert (PE : pos = pre_len (Datatypes.S a) cs) by lra.
      assert (PB : pos = pre_len b cs) by lra.
      replace (pos - pre_len a cs) with (fst ca) by lra.
      replace (pos - pre_len b cs) with 0 by lra.
      assert (Gb := proj1 (Forall_forall _ _) F cb (nth_error_In _ _ Hb)).
      rewrite (proj2 Gb), vadd_0_r.
      change (vadd (pre_pt a cs) (end_point ca) = pre_pt b cs).
      rewrite <- (pre_pt_S cs a ca Ha).
      apply pre_pt_same; auto; try lia; lra. }
    intros j c' J BJ.
    destruct (Nat.lt_trichotomy i j) as [T|[T|T]].
    + symmetry; apply AG; auto.
    + subst j; rewrite C in J; inversion J; subst c'; reflexivity.
    + apply AG; auto.
Qed.

(** An empty concatenation has length 0 and panics when asked for a value. *)
Theorem C62_empty : forall find pos,
  concat_length [] = 0 /\ concat_value find [] pos = Panic.
Proof. intros; split; [reflexivity|]; unfold concat_value; cbn; reflexivity. Qed.

Example C62_example :
  Forall good [(5, line_value (line_new (mk_vec 3 4))); (0, line_value (line_new vzero));
               (2, line_value (line_new (mk_vec 0 2)))] /\ good_search scan.
Proof.
  split; [|exact scan_ok].
  repeat constructor; cbn [fst snd]; try lra; unfold line_value; cbn [fst];
    unfold vscale, vzero; apply vec_eq; cbn [vx vy]; ring.
Qed.

(** ** C71: a Bezier curve as a curve with distance as parameter *)

(** Bezier::new never panics; for every admissible binary search the length is
    the last value of the table, value() never panics, starts at the origin,
    ends at the end point from that length on and is in between the point for a
    parameter whose table value brackets the position within EPSILON.

    (The model of powf is faithful where the speed at the eleven Taylor centres
    is positive.) *)
Theorem C71_bezier_curve : forall c1 c2 p2, exists b len,
  bezier_new c1 c2 p2 = Ok b /\
  b_c1 b = c1 /\ b_c2 b = c2 /\ b_p2 b = p2 /\
  forall find fuel, good_search find -> (52 <= fuel)%nat ->
    bezier_length find b = Ok len /\
    (forall pos, pos <= 0 -> exists d, bezier_at find fuel b pos = Ok (vzero, d)) /\
    (forall pos, 0 < pos -> len <= pos -> exists d, bezier_at find fuel b pos = Ok (p2, d)) /\
    (forall pos, 0 < pos -> pos < len -> exists t t',
       0 <= t <= t' /\ t' <= 1 /\ t' <= t + f64_epsilon /\
       bezier_at find fuel b pos = Ok (bezier_value c1 c2 p2 t) /\
       forall r1 r2, search_ok seg_start (b_segments b) t r1 ->
         search_ok seg_start (b_segments b) t' r2 ->
         exists v1 v2, eval_int r1 (b_segments b) t = Ok v1 /\
           eval_int r2 (b_segments b) t' = Ok v2 /\ v1 <= pos <= v2).
Proof.
  intros c1 c2 p2.
  destruct (C61_speed c1 c2 p2) as [dl2 [ES [LS _]]].
  assert (L2 : (2 <= length dl2)%nat) by lia.
  destruct (C64_table dl2 0 1 9 L2 ltac:(lra)) as [segs [EB [LN [_ [[sl [HL SL]] _]]]]].
  assert (T := built_is_table dl2 0 1 9 segs L2 ltac:(lra) EB).
  exists (mk_bezier segs c1 c2 p2), (poly_fun (seg_int sl) 0).
  split; [rewrite bezier_new_eq, ES; cbn [bind]; rewrite EB; reflexivity|].
  split; [reflexivity|]; split; [reflexivity|]; split; [reflexivity|].
  intros find fuel GF FU.
  cbn [b_segments b_c1 b_c2 b_p2].
  assert (FE : forall s, In s segs -> seg_first s = poly_fun (seg_int s) 0).
  { intros s I; unfold seg_first; rewrite <- C63_polyval.
    destruct (seg_int s) as [|a q]; cbn; ring. }
  assert (LEN : bezier_length find (mk_bezier segs c1 c2 p2) = Ok (poly_fun (seg_int sl) 0)).
  { unfold bezier_length; cbn [b_segments].
    assert (S := search_map _ seg_start segs 1 _ (GF (map seg_start segs) 1)).
    set (r := find (map seg_start segs) 1) in *.
    destruct (C64_covers dl2 0 1 9 segs 1 L2 ltac:(lra) EB ltac:(lra))
      as [k [s1 [s2 [K1 [K2 [KB _]]]]]].
    rewrite (eval_int_between segs s1 s2); auto; [|exists k; auto].
    (* the piece ending at 1 is the last but one *)
    assert (LK : (Datatypes.S k < length segs)%nat) by (apply nth_error_Some; congruence).
    assert (EK : Datatypes.S k = (9 + 2)%nat).
    { destruct (Nat.eq_dec (Datatypes.S k) (9 + 2)) as [E|E]; [exact E|exfalso].
      assert (H := starts_mono segs T (9 + 2) (Datatypes.S k) s2 sl K2 HL ltac:(lia)); lra. }
    rewrite EK in K2; rewrite HL in K2; inversion K2; subst s2.
    destruct (proj2 T s1 sl) as [_ J]; [exists k; rewrite EK; auto|].
    rewrite SL in J; rewrite J, C63_polyval; reflexivity. }
  split; [exact LEN|].
  assert (PE : forall (x : vec * vec) a, fst x = a -> x = (a, snd x))
    by (intros [x y] a H; cbn in *; congruence).
  assert (V0 : fst (bezier_value c1 c2 p2 0) = vzero)
    by (rewrite C61_bernstein; unfold vadd, vscale, vzero; apply vec_eq; cbn [vx vy]; ring).
  assert (V1 : fst (bezier_value c1 c2 p2 1) = p2)
    by (rewrite C61_bernstein; unfold vadd, vscale; apply vec_eq; cbn [vx vy]; ring).
  split; [|split].
  - intros pos P; exists (snd (bezier_value c1 c2 p2 0)); unfold bezier_at.
    destruct (Rle_dec pos 0) as [_|C]; [|lra].
    cbn [bind b_c1 b_c2 b_p2]; f_equal; apply PE, V0.
  - intros pos P0 P1; exists (snd (bezier_value c1 c2 p2 1)); unfold bezier_at.
    destruct (Rle_dec pos 0) as [C|_]; [lra|]; rewrite LEN; cbn [bind].
    destruct (Rle_dec (poly_fun (seg_int sl) 0) pos) as [_|C]; [|lra].
    cbn [bind b_c1 b_c2 b_p2]; f_equal; apply PE, V1.
  - intros pos P0 P1; unfold bezier_at.
    destruct (Rle_dec pos 0) as [C|_]; [lra|]; rewrite LEN; cbn [bind b_segments].
    destruct (Rle_dec (poly_fun (seg_int sl) 0) pos) as [C|_]; [lra|].
    assert (S := GF (map seg_first segs) pos).
    assert (EM : map seg_first segs = map (fun s => poly_fun (seg_int s) 0) segs)
      by (apply map_ext_in; auto).
    rewrite EM in *; apply search_map in S.
    set (r := find (map (fun s => poly_fun (seg_int s) 0) segs) pos) in *.
    destruct (C69_find_param dl2 9 segs pos r fuel L2 EB ltac:(lra)) as [t [ET [TB [t' [A [B D]]]]]]; auto.
    + exists sl; split; [exact HL|lra].
    + exists t, t'; rewrite ET; cbn [bind b_c1 b_c2 b_p2].
      split; [lra|]; split; [lra|]; split; [lra|]; split; [reflexivity|exact D].
Qed.

Example C71_example : good_search scan /\ (52 <= 52)%nat.
Proof. split; [exact scan_ok|lia]. Qed.

(** ** C58 for cubics (after C71, which shows that both curves exist) *)

(** The curve drawn has its control points relative to the current position, and
    every point moves with the transform. *)
Theorem C58_cubic : forall find fuel p2 c1 c2 cur T, exists b b',
  segment_to_info find fuel (CurveTo p2 c1 c2) cur = Ok (Some (bezier_info find fuel b, p2)) /\
  segment_to_info find fuel (segment_transform (CurveTo p2 c1 c2) T) (tapply T cur)
    = Ok (Some (bezier_info find fuel b', tapply T p2)) /\
  forall t, tapply T (vadd cur (fst (bezier_value (b_c1 b) (b_c2 b) (b_p2 b) t)))
    = vadd (tapply T cur) (fst (bezier_value (b_c1 b') (b_c2 b') (b_p2 b') t)).
Proof.
  intros find fuel p2 c1 c2 cur T.
  destruct (C71_bezier_curve c1 (vadd (vsub p2 cur) c2) (vsub p2 cur)) as [b [_ [B1 _]]].
  destruct (C71_bezier_curve (tapply (no_translation T) c1)
    (vadd (vsub (tapply T p2) (tapply T cur)) (tapply (no_translation T) c2))
    (vsub (tapply T p2) (tapply T cur))) as [b' [_ [B2 _]]].
  exists b, b'.
  split; [apply curve_to_info; exact B1|].
  split; [unfold segment_transform; apply curve_to_info; exact B2|].
  apply bezier_new_fields in B1 as [X1 [X2 X3]]; apply bezier_new_fields in B2 as [Y1 [Y2 Y3]].
  rewrite X1, X2, X3, Y1, Y2, Y3; clear X1 X2 X3 Y1 Y2 Y3.
  intro t; rewrite !bezier_bern.
  unfold tapply, no_translation, vadd, vscale, vsub; apply vec_eq; cbn [vx vy m0 m1 m2 m3 m4 m5]; ring.
Qed.

Print Assumptions C58_line.
Print Assumptions C58_cubic.
Print Assumptions C58_arc_scaled.
Print Assumptions C58_arc_rotation_ignored.
Print Assumptions C59_line.
Print Assumptions C59_circle.
Print Assumptions C60_split.
Print Assumptions C60_ends.
Print Assumptions C60_same_curve.
Print Assumptions C61_value.
Print Assumptions C61_bernstein.
Print Assumptions C61_speed.
Print Assumptions C61_direction.
Print Assumptions C62_concat.
Print Assumptions C62_empty.
Print Assumptions C71_bezier_curve.
Print Assumptions C72_start_direction.
