(** Property C118: the circle segments of the program are near the circle, and drawings with arcs are burned where they should be. *)
From Coq Require Import ZArith Reals List Bool Lia Lra.
From Flocq Require Import Core BinarySingleNaN.
From Verif Require Import Base Chars Floats FloatProofs FloatScale FloatErr AccVector IntegerCurve StepperContext
  MachineSpec MachineProofs ContextProofs ContextOps ContextHist ContextClock ApproxCurve DrawCurves FloatPath Coords Curves PathBuild BuildProofs PropsBuild FloatPathProofs PropsFloatPath
  FloatCurve PropsFloatCurve PropsApprox PropsDraw DrawProofs PropsError DrawPlan FloatRun FloatCover PropsLaser PropsCover FloatLex FloatAngles FloatCircle PropsFloatTransform.
Import ListNotations.
Open Scope R_scope.

Lemma reach_is : reach = 2 ^ 300.
Proof. unfold reach. rewrite bpow_powerRZ. cbn [powerRZ]. replace (Pos.to_nat 300) with 300%nat by reflexivity. reflexivity. Qed.

(** A circle segment has the length of the arc, and its point and direction at a length are those of
    the circle that starts at the origin. *)
Theorem C118_circle : forall tg q Q r a b, accurate tg q -> 1 <= Q <= 2 ^ 300 ->
  is_finite r = true -> is_finite a = true -> is_finite b = true -> 0 < B2R r ->
  B2R r * (Rabs (B2R a) + Rabs (B2R b) + q + 2) <= Q -> Q <= 2 ^ 36 * B2R r ->
  exists curve, fcircle tg r a b = Ok curve /\ is_finite (fc_length curve) = true /\
    Rabs (B2R (fc_length curve) - B2R r * Rabs (B2R b - B2R a)) <= 5 / 2 * (Q / 2 ^ 53) /\
    forall s, is_finite s = true -> 0 <= B2R s <= B2R (fc_length curve) ->
    exists p d, fc_value curve s = Ok (p, d) /\
      let turn := if Rle_dec (B2R a) (B2R b) then 1 else -1 in
      let ang := B2R a + turn * (B2R s / B2R r) in
      within (16 * (Q / 2 ^ 53)) p (mk_vec (B2R r * cos ang - B2R r * cos (B2R a)) (B2R r * sin ang - B2R r * sin (B2R a))) /\
      within ((q + 7 * (Q / B2R r)) / 2 ^ 53) d (mk_vec (- turn * sin ang) (turn * cos ang)).
Proof.
  intros tg q Q r a b AC HQ FR FA FB R0 SZ SR. rewrite <- reach_is in HQ.
  destruct (fcircle tg r a b) as [curve| |] eqn:G; try discriminate G. exists curve. split; [reflexivity|].
  assert (EL : fc_length curve = fmul r (fabs (fsub b a))) by (unfold fcircle in G; injection G as <-; reflexivity).
  destruct (c_length tg q Q r a b AC HQ FR FA FB R0 SZ SR) as (FL & L1 & L2). rewrite <- EL in FL, L1, L2.
  assert (UQ : u53 * Q = Q / 2 ^ 53) by (rewrite u53_is; unfold Rdiv; ring).
  split; [exact FL|]. split; [rewrite <- UQ; exact L2|]. intros s FS SB.
  destruct (fc_value curve s) as [[p d]| |] eqn:V; [|unfold fcircle in G; injection G as <-; discriminate V..].
  exists p, d. split; [reflexivity|]. cbv zeta.
  assert (U0 : 0 <= u53 * Q) by (apply Rmult_le_pos; [pose proof u53_pos; lra|lra]).
  destruct (c_point tg q Q r a b AC HQ FR FA FB R0 SZ SR s 0 (B2R s / B2R r) p d curve G FS ltac:(lra) ltac:(lra)) as [W1 W2].
  { replace (B2R r * (B2R s / B2R r)) with (B2R s) by (field; lra). rewrite Rminus_eq_0, Rabs_R0. lra. }
  { exact V. }
  assert (T : (if Rle_dec (B2R a) (B2R b) then 1 else -1) = if fle a b then 1 else -1).
  { destruct (Rle_dec (B2R a) (B2R b)) as [H|H].
    - apply fle_spec in H; [|assumption..]. rewrite H. reflexivity.
    - destruct (fle a b) eqn:E; [|reflexivity]. apply fle_spec in E; [|assumption..]. contradiction. }
  rewrite T. rewrite <- UQ. set (turn := if fle a b then 1 else -1) in *. set (ang := B2R a + turn * (B2R s / B2R r)) in *. split.
  - rewrite <- !Rmult_minus_distr_l. replace (16 * (u53 * Q)) with (16 * (u53 * Q) + 4 * 0) by ring. exact W1.
  - replace ((q + 7 * (Q / B2R r)) / 2 ^ 53) with ((q + 7 * (Q / B2R r)) * u53 + 101 / 100 * (0 / B2R r)) by (rewrite u53_is; unfold Rdiv; ring).
    replace (- turn * sin ang) with (- (turn * sin ang)) by ring. exact W2.
Qed.

(** ** Drawings with arcs *)

(** Coordinates of at most [Q]; arcs whose radius and angles are not too large and whose radius is not tiny. *)
Definition drawable (q Q : R) (s : segment) : Prop :=
  match s with
  | SGoTo p | SLineTo p | SCloseTo p => fits Q p
  | SCurveTo p c d => fits Q p /\ fits Q c /\ fits Q d
  | SArc r _ a b _ => is_finite r = true /\ is_finite a = true /\ is_finite b = true /\ 0 < B2R r /\
      B2R r * (Rabs (B2R a) + Rabs (B2R b) + q + 2) <= Q /\ Q <= 2 ^ 36 * B2R r
  end.

(** The arcs of the figure end within [Q]. *)
Definition arcs_end (Q : R) (p : vec) (segs : list segment) : Prop :=
  forall s1 r ry a b ro s2, segs = s1 ++ SArc r ry a b ro :: s2 -> box Q (pen p (map rs (s1 ++ [SArc r ry a b ro]))).

Lemma drawable_sized : forall tg q Q g segs, accurate tg q -> 1 <= Q <= reach -> g_circle g = fcircle tg ->
  Forall (drawable q Q) segs -> Forall (sized g Q) segs.
Proof.
  intros tg q Q g segs AC HQ EG F. induction F as [|x l D F IH]; constructor; [|exact IH].
  destruct x as [p|p|p|e c1 c2|r ry a b ro]; cbn [drawable sized] in *; try exact D.
  destruct D as (FR & FA & FB & R0 & SZ & SR). eapply fcircle_near; try eassumption. rewrite EG. reflexivity.
Qed.

(** The places of the program after the arcs are near those of the figure. *)
Lemma arc_fits : forall g Q rx ry a b ro pos next curve, 1 <= Q <= reach -> circle_near g Q rx a b -> fits Q pos ->
  seg_info g (SArc rx ry a b ro) pos = Ok (Some (curve, next)) -> fin next.
Proof.
  intros g Q rx ry a b ro pos next curve RQ CN Sp SI. destruct (arc_info _ _ _ _ _ _ _ _ _ SI) as (EC & e & d & V & ->).
  destruct (CN curve EC) as (_ & _ & _ & BX & _ & VE). pose proof (VE e d V) as (F1 & F2 & W1 & W2). destruct (BX 1 ltac:(lra)) as [X1 X2].
  pose proof u53_pos as [U0 U1]. pose proof (reach_huge Q RQ) as HH.
  assert (SE : fits (2 * Q) e).
  { apply abs_between in X1, X2, W1, W2. assert (16 * (u53 * Q) <= Q).
    { replace (16 * (u53 * Q)) with (16 * u53 * Q) by ring. rewrite <- (Rmult_1_l Q) at 2. apply Rmult_le_compat_r; lra. }
    split; [split; assumption|]. split; cbn [rv vx vy]; apply Rabs_le; lra. }
  destruct (add_fits pos e Q (2 * Q) Sp SE ltac:(lra) ltac:(lra) ltac:(lra)) as [_ [F _]]. exact F.
Qed.

Lemma places_near : forall g s v Q D segs d p k, 1 <= Q <= reach -> (forall i, 0 <= D i) -> 0 <= k ->
  Forall (sized g Q) segs -> gotos_near g s v D d segs -> fits Q (d_pos d) -> close_to (fun i => D i + k) (rv (d_pos d)) p ->
  arcs_end (Q / 2) p segs -> (forall i, D i + k + 20 * (INR (length segs) * (u53 * Q)) <= Q / 2) -> places_fit g s v Q d segs.
Proof.
  intros g s v Q D. induction segs as [|x r IH]; intros d p k RQ D0 K0 S GN FT C AE SM; [intros [|? ?] ? ? ? ? ? ? ? E; discriminate E|].
  inversion S as [|? ? S1 S2]; subst.
  assert (U0 : 0 <= u53 * Q) by (pose proof u53_pos; apply Rmult_le_pos; lra).
  assert (UN : 0 <= INR (length r) * (u53 * Q)) by (apply Rmult_le_pos; [apply pos_INR|exact U0]).
  assert (SM1 : forall i, D i + (k + 20 * (u53 * Q)) + 20 * (INR (length r) * (u53 * Q)) <= Q / 2).
  { intros i. specialize (SM i). cbn [length] in SM. rewrite S_INR in SM. lra. }
  assert (FIRST : places_fit g s v Q d [x]).
  { intros s1 rx ry a b ro s2 d2 E L. destruct s1 as [|y s1]; cbn [app] in E; [|destruct s1; discriminate E]. injection E as -> <-.
    cbn [app draw_loop] in L. apply bind_Ok in L. destruct L as (d1 & E & L). injection L as <-.
    pose proof (step_pos _ _ _ _ _ _ E ltac:(intros q K; discriminate K)) as EP.
    unfold draw_step in E. apply bind_Ok in E. destruct E as (info & EI & E). apply bind_Ok in E. destruct E as ([curve next] & EU & E).
    destruct info as [[curve' next']|]; [|discriminate EU]. cbn [unwrap] in EU. injection EU as -> ->.
    rewrite EP, <- (seg_info_end _ _ _ _ _ EI).
    pose proof (arc_step g Q rx ry a b ro (d_pos d) next curve p _ RQ S1 FT EI C) as AS.
    pose proof (arc_fits g Q rx ry a b ro (d_pos d) next curve RQ S1 FT EI) as FN.
    destruct (AE [] rx ry a b ro r eq_refl) as [B1 B2]. cbn [app map] in B1, B2. split; [exact FN|].
    pose proof (AS AX) as X1. pose proof (AS AY) as X2. pose proof (SM1 AX) as M1. pose proof (SM1 AY) as M2. cbv beta in X1, X2. cbn [coord] in X1, X2.
    apply abs_between in B1, B2, X1, X2. split; apply Rabs_le; lra. }
  intros s1 rx ry a b ro s2 d2 E L. destruct s1 as [|y s1]; cbn [app] in E; injection E as -> E.
  - apply (FIRST [] rx ry a b ro [] d2 eq_refl L).
  - cbn [app draw_loop] in L. apply bind_Ok in L. destruct L as (d1 & E1 & L).
    assert (GN1 : gotos_near g s v D d1 r).
    { intros s0 q s3 d3 -> L2. apply (GN (y :: s0) q s3 d3); [reflexivity|]. cbn [draw_loop]. rewrite E1. exact L2. }
    assert (CASE : (exists q, y = SGoTo q /\ stands s (d_ctx d) q) \/ (forall q, y = SGoTo q -> ~ stands s (d_ctx d) q)).
    { destruct y as [q| | | |]; try (right; intros q K; discriminate K).
      destruct (stands_dec s (d_ctx d) q); [left; eauto|right; intros q' K; injection K as <-; assumption]. }
    destruct CASE as [(q & -> & ST)|NS].
    + pose proof (step_stays _ _ _ _ _ _ E1 ST) as ->.
      assert (C1 : close_to (fun i => D i + k) (rv (d_pos d)) (rv q)).
      { intros i. rewrite Rabs_minus_sym. pose proof (GN [] q r d eq_refl eq_refl ST i). cbv beta. lra. }
      refine (IH d (rv q) k RQ D0 K0 S2 GN1 FT C1 _ _ s1 rx ry a b ro s2 d2 E L).
      * intros r1 rx' ry' a' b' ro' r2 ->. exact (AE (SGoTo q :: r1) rx' ry' a' b' ro' r2 eq_refl).
      * intros i. specialize (SM1 i). lra.
    + destruct (loop_step _ _ _ _ _ _ _ _ _ _ _ RQ D0 K0 E1 S1 FIRST FT NS C) as (EP & FT1 & C1).
      refine (IH d1 _ (k + 20 * (u53 * Q)) RQ D0 _ S2 GN1 FT1 C1 _ SM1 s1 rx ry a b ro s2 d2 E L); [lra|].
      intros r1 rx' ry' a' b' ro' r2 ->. exact (AE (y :: r1) rx' ry' a' b' ro' r2 eq_refl).
Qed.

Lemma places_ok : forall tg q g s v Q D c segs, accurate tg q -> 1 <= Q <= 2 ^ 300 -> g_circle g = fcircle tg ->
  fits Q (machine_place s c) -> Forall (drawable q Q) segs -> arcs_end (Q / 2) (rv (machine_place s c)) segs ->
  INR (length segs) <= 2 ^ 40 -> (forall i, 0 <= D i <= Q / 4) -> gotos_near g s v D (begin_drawing s c) segs ->
  Forall (sized g Q) segs /\ places_fit g s v Q (begin_drawing s c) segs.
Proof.
  intros tg q g s v Q D c segs AC HQ EG FM DR AE N D0 GN. rewrite <- reach_is in HQ.
  pose proof (drawable_sized tg q Q g segs AC HQ EG DR) as SZ. split; [exact SZ|].
  pose proof u53_pos as [U0 U1].
  apply (places_near g s v Q D segs (begin_drawing s c) (rv (machine_place s c)) 0); try assumption.
  - intros i. apply D0.
  - lra.
  - intros i. cbn [begin_drawing d_pos]. rewrite Rminus_diag_eq by reflexivity. rewrite Rabs_R0. pose proof (D0 i). lra.
  - intros i. pose proof (D0 i). assert (INR (length segs) * (u53 * Q) <= Q / 100); [|lra].
    rewrite <- Rmult_assoc. replace (Q / 100) with (/ 100 * Q) by field. apply Rmult_le_compat_r; [lra|].
    apply Rle_trans with (2 ^ 40 * u53); [apply Rmult_le_compat_r; lra|]. rewrite u53_val. cbn [pow]. lra.
Qed.

(** C103 with the arcs of the code. *)
Theorem C118_laser : forall tg q ax ay vmx vmy ops c g s segs v c' ex ey fuel search ints Q D w u,
  history code (new_ctx ax ay vmx vmy) ops c -> segs <> [] -> draw_curves g s c segs v = Ok (c', (ex, ey)) ->
  (forall i, ticks_of c' i < u64_max)%Z ->
  (* the curves of the program *)
  accurate tg q -> g_circle g = fcircle tg -> g_bezier g = fbezier fuel search ints -> finds (g_find g) ->
  lengths_sane g s v Q (begin_drawing s c) segs ->
  (* sizes *)
  1 <= Q <= 2 ^ 300 -> fits Q (machine_place s c) -> Forall (drawable q Q) segs -> arcs_end (Q / 2) (rv (machine_place s c)) segs ->
  INR (length segs) <= 2 ^ 40 -> INR (length segs) <= 65536 * Q ->
  (forall i, is_finite (step_scale s i) = true /\ Rabs (B2R (step_scale s i)) * (8 * Q) <= 2 ^ 62) ->
  (* moves *)
  (forall i, 0 <= D i <= Q / 4) -> gotos_near g s v D (begin_drawing s c) segs ->
  (* the laser burns at tick [u] of the drawing *)
  (ticks_of c AX <= u)%Z -> m_weight (play (events c') u (machine0 w)) <> 0%Z ->
  exists z, figure (rv (machine_place s c)) (map rs segs) z /\
    forall i, Rabs (IZR (s_pos (machine_axis (play (events c') (u + 1) (machine0 w)) i)) - B2R (step_scale s i) * coord z i)
      <= IZR (match i with AX => ex | AY => ey end) + 1 +
         Rabs (B2R (step_scale s i)) * (D i + (3200 * INR (length segs) + 738) * Q / 2 ^ 53 + 4 / 10 ^ 6 * INR (closes segs)).
Proof.
  intros tg q ax ay vmx vmy ops c g s segs v c' ex ey fuel search ints Q D w u H NE DC Hm AC EG GB FG LS HQ FM DR AE N1 N2 SC D0 GN HU HW.
  destruct (places_ok tg q g s v Q D c segs AC HQ EG FM DR AE N1 D0 GN) as [SZ PF].
  eapply C103_laser; try eassumption. intros i. apply D0.
Qed.

(** C113 with the arcs of the code. *)
Theorem C118_covered : forall tg q ax ay vmx vmy ops c g s segs v c' ex ey fuel search ints Q D w s1 seg s2 wl t z,
  history code (new_ctx ax ay vmx vmy) ops c -> segs <> [] -> draw_curves g s c segs v = Ok (c', (ex, ey)) ->
  (forall i, ticks_of c' i < u64_max)%Z ->
  (* the curves of the program *)
  accurate tg q -> g_circle g = fcircle tg -> g_bezier g = fbezier fuel search ints -> finds (g_find g) ->
  lengths_sane g s v Q (begin_drawing s c) segs ->
  (* sizes *)
  1 <= Q <= 2 ^ 300 -> fits Q (machine_place s c) -> Forall (drawable q Q) segs -> arcs_end (Q / 2) (rv (machine_place s c)) segs ->
  INR (length segs) <= 2 ^ 40 -> INR (length segs) <= 65536 * Q ->
  (forall i, is_finite (step_scale s i) = true /\ Rabs (B2R (step_scale s i)) * (8 * Q) <= 2 ^ 62) ->
  (* moves *)
  (forall i, 0 <= D i <= Q / 4) -> gotos_near g s v D (begin_drawing s c) segs ->
  (* the drawing takes less than 2^31 - 1 ticks *)
  (ticks_of c' AX - ticks_of c AX < 2 ^ 31 - 1)%Z -> 0 < B2R v ->
  (* a line or an arc of the figure, longer than one and a half ticks, and the point at [t] on it *)
  segs = s1 ++ seg :: s2 -> 0 <= t <= 1 -> let p := pen (rv (machine_place s c)) (map rs s1) in
  way p (rs seg) = Some wl -> traced p (rs seg) t = Some z ->
  3 / 2 * B2R v + D AX + D AY + 1700 * INR (length segs) * Q / 2 ^ 53 + 8 / 10 ^ 6 <= wl ->
  exists u, (ticks_of c AX <= u < ticks_of c' AX)%Z /\ m_weight (play (events c') u (machine0 w)) = curve_weight c /\
    forall i, Rabs (IZR (s_pos (machine_axis (play (events c') (u + 1) (machine0 w)) i)) -
        B2R (step_scale s i) * coord z i)
      <= IZR (match i with AX => ex | AY => ey end) + 1 +
         Rabs (B2R (step_scale s i)) * (3 / 2 * B2R v + D i + (4500 * INR (length segs) + 738) * Q / 2 ^ 53 + 4 / 10 ^ 6 * INR (closes segs)).
Proof.
  intros tg q ax ay vmx vmy ops c g s segs v c' ex ey fuel search ints Q D w s1 seg s2 wl t z H NE DC Hm AC EG GB FG LS HQ FM DR AE N1 N2 SC D0 GN.
  destruct (places_ok tg q g s v Q D c segs AC HQ EG FM DR AE N1 D0 GN) as [SZ PF].
  eapply C113_covered; try eassumption. intros i. apply D0.
Qed.

(** *** An arc that is drawn *)

(** Sine and cosine with the values of three angles written out, so that they can be computed. *)
Definition right_angle : f64 := fmul f_pi (lit 1 2).
Definition half_right : f64 := fmul f_pi (lit 1 4).
Definition root_half : f64 := fsqrt (lit 1 2).
Definition root_below : f64 := fsub root_half (lit 1 (2 ^ 53)).
Definition known_trig : trig :=
  mk_trig (fun x => if feq x fzero then x else if feq x right_angle then fone else if feq x half_right then root_below else f_sin good_trig x)
          (fun x => if feq x fzero then fone else if feq x right_angle then fzero else if feq x half_right then root_half else f_cos good_trig x)
          (f_tan good_trig)
          (fun y x => if feq y fzero && is_finite x && negb (Bsign x) then y
                      else if feq x fzero && flt fzero y then right_angle
                      else f_atan2 good_trig y x).

Lemma right_value : is_finite right_angle = true /\ B2R right_angle = 7074237752028440 / 4503599627370496.
Proof.
  split; [reflexivity|]. rewrite <- SF2R_B2SF. set (x := B2SF _). vm_compute in x. subst x. cbn [SF2R cond_Zopp]. unfold F2R. cbn [Fnum Fexp bpow].
  unfold Z.pow_pos. cbn [Pos.iter radix_val radix2]. match goal with |- ?a * / IZR ?b = _ => let c := eval vm_compute in b in change b with c end. field.
Qed.
Lemma half_right_value : is_finite half_right = true /\ B2R half_right = 7074237752028440 / 9007199254740992.
Proof.
  split; [reflexivity|]. rewrite <- SF2R_B2SF. set (x := B2SF _). vm_compute in x. subst x. cbn [SF2R cond_Zopp]. unfold F2R. cbn [Fnum Fexp bpow].
  unfold Z.pow_pos. cbn [Pos.iter radix_val radix2]. match goal with |- ?a * / IZR ?b = _ => let c := eval vm_compute in b in change b with c end. field.
Qed.
Lemma root_value : is_finite root_half = true /\ B2R root_half = 6369051672525773 / 9007199254740992.
Proof.
  split; [reflexivity|]. rewrite <- SF2R_B2SF. set (x := B2SF _). vm_compute in x. subst x. cbn [SF2R cond_Zopp]. unfold F2R. cbn [Fnum Fexp bpow].
  unfold Z.pow_pos. cbn [Pos.iter radix_val radix2]. match goal with |- ?a * / IZR ?b = _ => let c := eval vm_compute in b in change b with c end. field.
Qed.

Lemma below_value : is_finite root_below = true /\ B2R root_below = 6369051672525772 / 9007199254740992.
Proof.
  split; [reflexivity|]. rewrite <- SF2R_B2SF. set (x := B2SF _). vm_compute in x. subst x. cbn [SF2R cond_Zopp]. unfold F2R. cbn [Fnum Fexp bpow].
  unfold Z.pow_pos. cbn [Pos.iter radix_val radix2]. match goal with |- ?a * / IZR ?b = _ => let c := eval vm_compute in b in change b with c end. field.
Qed.

Lemma pi_value : Rabs (7074237752028440 / 2251799813685248 - PI) <= 2 * u53.
Proof.
  destruct f_pi_value as (_ & E & _). replace (7074237752028440 / 2251799813685248) with (B2R f_pi); [exact E|].
  rewrite <- SF2R_B2SF. set (x := B2SF _). vm_compute in x. subst x. cbn [SF2R cond_Zopp]. unfold F2R. cbn [Fnum Fexp bpow].
  unfold Z.pow_pos. cbn [Pos.iter radix_val radix2]. match goal with |- ?a * / IZR ?b = _ => let c := eval vm_compute in b in change b with c end. field.
Qed.

Lemma root_near : Rabs (6369051672525773 / 9007199254740992 - 1 / sqrt 2) <= u53 /\ Rabs (6369051672525772 / 9007199254740992 - 1 / sqrt 2) <= u53.
Proof.
  assert (H : 1 / sqrt 2 = sqrt (1 / 2)) by (rewrite sqrt_div by lra; rewrite sqrt_1; reflexivity). rewrite H.
  assert (L : sqrt (1 / 2) <= 6369051672525773 / 9007199254740992).
  { rewrite <- (sqrt_square (6369051672525773 / 9007199254740992)) by lra. apply sqrt_le_1_alt. lra. }
  assert (G : 6369051672525772 / 9007199254740992 <= sqrt (1 / 2)).
  { rewrite <- (sqrt_square (6369051672525772 / 9007199254740992)) by lra. apply sqrt_le_1_alt. lra. }
  rewrite u53_val. split; apply Rabs_le; lra.
Qed.

Lemma feq_value : forall x y : f64, is_finite x = true -> is_finite y = true -> feq x y = true -> B2R x = B2R y.
Proof. intros x y Fx Fy E. unfold feq in E. rewrite Beqb_correct in E by assumption. apply Req_bool_true_iff in E || (destruct (Req_bool_spec (B2R x) (B2R y)); [assumption|discriminate E]). Qed.

Lemma known_accurate : accurate known_trig 3.
Proof.
  intros x F B. destruct (good_accurate x F B) as (GS & GC & GT). destruct zero_value as [F0 V0]. destruct one_value as [F1 V1].
  destruct right_value as [F2 V2]. destruct half_right_value as [F4 V4]. destruct root_value as [FR VR]. destruct below_value as [FB VB].
  pose proof pi_value as PV. pose proof root_near as [RN RB]. pose proof u53_pos as [U0 _]. unfold Rdiv at 1 2. rewrite <- u53_is.
  apply abs_between in PV, RN, RB.
  assert (R2 : Rabs (B2R right_angle - PI / 2) <= u53) by (rewrite V2; apply Rabs_le; lra).
  assert (R4 : Rabs (B2R half_right - PI / 4) <= u53) by (rewrite V4; apply Rabs_le; lra).
  split; [|split; [|exact GT]]; cbn [known_trig f_sin f_cos].
  - destruct (feq x fzero) eqn:E0; [|destruct (feq x right_angle) eqn:E2; [|destruct (feq x half_right) eqn:E4]].
    + apply feq_value in E0; [|assumption..]. rewrite E0, V0, sin_0. split; [exact F|]. rewrite Rminus_eq_0, Rabs_R0. lra.
    + apply feq_value in E2; [|assumption..]. rewrite E2. split; [exact F1|]. rewrite V1. pose proof (sin_lipschitz (B2R right_angle) (PI / 2)) as L.
      rewrite sin_PI2 in L. rewrite Rabs_minus_sym. lra.
    + apply feq_value in E4; [|assumption..]. rewrite E4. split; [exact FB|]. rewrite VB. pose proof (sin_lipschitz (B2R half_right) (PI / 4)) as L.
      rewrite sin_PI4 in L. assert (L' : Rabs (sin (B2R half_right) - 1 / sqrt 2) <= u53) by lra. apply abs_between in L'. apply Rabs_le. lra.
    + destruct GS as [A1 A2]. split; [exact A1|]. rewrite u53_is. exact A2.
  - destruct (feq x fzero) eqn:E0; [|destruct (feq x right_angle) eqn:E2; [|destruct (feq x half_right) eqn:E4]].
    + apply feq_value in E0; [|assumption..]. rewrite E0, V0, cos_0, V1. split; [reflexivity|]. rewrite Rminus_eq_0, Rabs_R0. lra.
    + apply feq_value in E2; [|assumption..]. rewrite E2. split; [exact F0|]. rewrite V0. pose proof (cos_lipschitz (B2R right_angle) (PI / 2)) as L.
      rewrite cos_PI2 in L. rewrite Rabs_minus_sym. lra.
    + apply feq_value in E4; [|assumption..]. rewrite E4. split; [exact FR|]. rewrite VR. pose proof (cos_lipschitz (B2R half_right) (PI / 4)) as L.
      rewrite cos_PI4 in L. assert (L' : Rabs (cos (B2R half_right) - 1 / sqrt 2) <= u53) by lra. apply abs_between in L'. apply Rabs_le. lra.
    + destruct GC as [A1 A2]. split; [exact A1|]. rewrite u53_is. exact A2.
Qed.

(** A quarter of a circle, drawn in two ticks. *)
Definition C118_geometry : geometry := mk_geometry (fbezier 50 scan C103_tables) (fcircle known_trig) first_ge.
Definition C118_segments : list segment := [SGoTo (pt 0 0); SArc (f_of_Z 32) (f_of_Z 32) fzero right_angle fzero].

Example C118_example : exists c',
  draw_curves C118_geometry sc1 laser C118_segments (f_of_Z 25) = Ok (c', (5, 2)%Z) /\
  (forall i, ticks_of c' i < u64_max)%Z /\ accurate known_trig 3 /\
  lengths_sane C118_geometry sc1 (f_of_Z 25) 256 (begin_drawing sc1 laser) C118_segments /\
  fits 256 (machine_place sc1 laser) /\ Forall (drawable 3 256) C118_segments /\
  arcs_end (256 / 2) (rv (machine_place sc1 laser)) C118_segments /\
  gotos_near C118_geometry sc1 (f_of_Z 25) (fun _ => 0) (begin_drawing sc1 laser) C118_segments /\
  (exists wl, way (pen (rv (machine_place sc1 laser)) (map rs (firstn 1 C118_segments))) (rs (SArc (f_of_Z 32) (f_of_Z 32) fzero right_angle fzero)) = Some wl /\
    3 / 2 * 25 + 1700 * 2 * 256 / 2 ^ 53 + 8 / 10 ^ 6 <= wl) /\
  map (fun u => let m := play (events c') u (machine0 0) in (m_weight m, s_pos (m_x m), s_pos (m_y m))) [4; 5; 6]%Z =
    [(100, 0, -1); (100, -7, 22); (0, -27, 34)]%Z.
Proof.
  assert (EM : machine_place sc1 laser = mk_fvec (B754_zero false) (B754_zero false)) by (vm_compute; reflexivity).
  assert (EZ : pt 0 0 = mk_fvec (B754_zero false) (B754_zero false)) by (vm_compute; reflexivity).
  destruct (f_of_Z_exact 32 ltac:(lia)) as [F32 V32]. destruct right_value as [F2 V2]. destruct zero_value as [F0 V0].
  eexists. split; [vm_compute; reflexivity|]. split; [intros []; vm_compute; reflexivity|]. split; [exact known_accurate|].
  split; [|split; [|split; [|split; [|split; [|split; [|vm_compute; reflexivity]]]]]].
  - intros s1 e c1 c2 s2 d curve E L. exfalso. unfold C118_segments in E.
    repeat (destruct s1 as [|? s1]; cbn [app] in E; [discriminate E|injection E as _ E]). destruct s1; discriminate E.
  - rewrite EM. split; [split; reflexivity|]. split; cbn [rv vx vy fx fy B2R]; rewrite Rabs_R0; lra.
  - apply Forall_cons; [|apply Forall_cons; [|apply Forall_nil]].
    + cbn [drawable]. rewrite EZ. split; [split; reflexivity|]. split; cbn [rv vx vy fx fy B2R]; rewrite Rabs_R0; lra.
    + cbn [drawable]. rewrite V32, V2, V0, Rabs_R0, Rabs_pos_eq by lra. do 3 (split; [assumption|]). cbn [pow]. lra.
  - intros s1 r ry a b ro s2 E. unfold C118_segments in E. destruct s1 as [|x s1]; cbn [app] in E; [discriminate E|].
    destruct s1 as [|y s1]; cbn [app] in E; [|destruct s1; discriminate E]. assert (r = f_of_Z 32 /\ a = fzero /\ b = right_angle /\ x = SGoTo (pt 0 0)) as (-> & -> & -> & ->) by (repeat split; congruence).
    rewrite EZ. cbn [app map rs pen fold_left rv fx fy B2R]. rewrite V32. change (B2R fzero) with 0.
    assert (BX : forall f z, (forall y, -1 <= f y <= 1) -> Rabs (0 + 32 * (f z - f 0)) <= 128).
    { intros f z BF. pose proof (BF z). pose proof (BF 0). apply Rabs_le. lra. }
    split; cbn [vadd arc_at vx vy]; replace (256 / 2) with 128 by lra; apply BX; [apply COS_bound|apply SIN_bound].
  - intros s0 p s1 d E L.
    assert (E1 : s0 = [] /\ p = pt 0 0).
    { unfold C118_segments in *. destruct s0 as [|a s0]; cbn [app] in E; [assert (p = pt 0 0) by congruence; auto|].
      destruct s0 as [|b s0]; cbn [app] in E; [discriminate E|]. destruct s0; discriminate E. }
    destruct E1 as [-> ->]. intros _ i. injection L as <-. cbn [begin_drawing d_pos].
    rewrite EM, EZ. rewrite Rminus_diag_eq by reflexivity. rewrite Rabs_R0. lra.
  - eexists. split; [reflexivity|]. cbn [rs]. rewrite V32, V2. change (B2R fzero) with 0. rewrite Rabs_pos_eq by lra. cbn [pow]. lra.
Qed.

Print Assumptions C118_circle.
Print Assumptions C118_laser.
Print Assumptions C118_covered.
Print Assumptions C118_example.
