(** Property C97: build_optimal_path of main_old.rs reaches its goal, and no motion within the
    limits is faster, with one exception. *)
From Coq Require Import Reals ZArith List Lra Lia.
From Verif Require Import Base Coords MotionSpec AdjustSpec PropsIntegerCurve OldCode PropsOld.
Import ListNotations.
Open Scope R_scope.

(** A motion on a line in the time [T]: the speed [v] is within [vmax], changes by at most [a] in
    a unit of time, and twice it is the derivative of the position [s] (in one unit of time at
    speed 1 the distance is 2, as everywhere in this program). *)
Record motion (a vmax : R) (s v : R -> R) (T : R) : Prop := {
  m_time : 0 <= T;
  m_pos : forall t, 0 <= t <= T -> derivable_pt_lim s t (2 * v t);
  m_acc : forall t t', 0 <= t <= T -> 0 <= t' <= T -> Rabs (v t - v t') <= a * Rabs (t - t');
  m_speed : forall t, 0 <= t <= T -> Rabs (v t) <= vmax }.

Lemma linear_bound : forall (s v : R -> R) p q b c, p <= q ->
  (forall t, p <= t <= q -> derivable_pt_lim s t (2 * v t)) ->
  (forall t, p <= t <= q -> v t <= b + c * (t - p)) ->
  s q - s p <= 2 * b * (q - p) + c * (q - p) * (q - p).
Proof.
  intros s v p q b c [L|E] D H; [|subst; lra].
  set (f := fun t => s t - (2 * b * (t - p) + c * (t - p) * (t - p))).
  destruct (MVT_cor2 f (fun t => 2 * v t - (2 * b + 2 * c * (t - p))) p q L) as (x & E & X).
  { intros t Ht. apply derivable_pt_lim_minus; [apply D, Ht|].
    replace (2 * b + 2 * c * (t - p)) with (2 * b * (1 - 0) + ((0 * (t - p) + c * (1 - 0)) * (t - p) + c * (t - p) * (1 - 0))) by ring.
    assert (I : derivable_pt_lim (fun t => t - p) t (1 - 0)).
    { apply (derivable_pt_lim_minus (fun t => t) (fun _ => p)); [apply derivable_pt_lim_id|apply derivable_pt_lim_const]. }
    apply (derivable_pt_lim_plus (fun t => 2 * b * (t - p)) (fun t => c * (t - p) * (t - p))).
    - apply (derivable_pt_lim_scal (fun t => t - p)). exact I.
    - apply (derivable_pt_lim_mult (fun t => c * (t - p)) (fun t => t - p)); [|exact I].
      apply (derivable_pt_lim_mult (fun _ => c) (fun t => t - p)); [apply derivable_pt_lim_const|exact I]. }
  unfold f in E. specialize (H x ltac:(lra)).
  assert (K : (2 * v x - (2 * b + 2 * c * (x - p))) * (q - p) <= 0) by nra.
  rewrite E in K || rewrite <- E in K. nra.
Qed.

(** What can be covered without exceeding the speed [w]. *)
Lemma below : forall a vmax s v T w, 0 < a -> motion a vmax s v T ->
  v 0 <= w -> v T <= w -> 2 * w <= v 0 + v T + a * T ->
  (forall t, (w - v 0) / a <= t <= T - (w - v T) / a -> v t <= w) ->
  a * (s T - s 0) <= 2 * w * (a * T) - (w - v 0) * (w - v 0) - (w - v T) * (w - v T).
Proof.
  intros a vmax s v T w A [T0 D L _] H0 Hn H M.
  set (t1 := (w - v 0) / a) in *. set (dt := (w - v T) / a) in *.
  assert (E1 : a * t1 = w - v 0) by (unfold t1; field; lra). assert (E2 : a * dt = w - v T) by (unfold dt; field; lra).
  assert (P1 : 0 <= t1) by nra. assert (P2 : 0 <= dt) by nra. assert (P3 : t1 <= T - dt) by nra.
  assert (B : forall t t', 0 <= t <= t' /\ t' <= T -> v t' <= v t + a * (t' - t) /\ v t <= v t' + a * (t' - t)).
  { intros t t' X. specialize (L t' t ltac:(lra) ltac:(lra)). rewrite (Rabs_pos_eq (t' - t)) in L by lra.
    pose proof (Rle_abs (v t' - v t)). pose proof (Rle_abs (- (v t' - v t))). rewrite Rabs_Ropp in *. lra. }
  assert (I1 : s t1 - s 0 <= 2 * v 0 * (t1 - 0) + a * (t1 - 0) * (t1 - 0)).
  { apply (linear_bound s v); [lra|intros; apply D; lra|]. intros t X. destruct (B 0 t ltac:(lra)). lra. }
  assert (I2 : s (T - dt) - s t1 <= 2 * w * (T - dt - t1) + 0 * (T - dt - t1) * (T - dt - t1)).
  { apply (linear_bound s v); [lra|intros; apply D; lra|]. intros t X. specialize (M t ltac:(lra)). lra. }
  assert (I3 : s T - s (T - dt) <= 2 * w * (T - (T - dt)) + - a * (T - (T - dt)) * (T - (T - dt))).
  { apply (linear_bound s v); [lra|intros; apply D; lra|]. intros t X. destruct (B t T ltac:(lra)) as [_ Y].
    replace (w + - a * (t - (T - dt))) with (w - a * dt + a * (T - t)) by ring. lra. }
  assert (S : s T - s 0 <= 2 * v 0 * t1 + a * t1 * t1 + 2 * w * (T - dt - t1) + 2 * w * dt - a * dt * dt) by lra.
  apply (Rmult_le_compat_l a) in S; [|lra].
  replace (a * (2 * v 0 * t1 + a * t1 * t1 + 2 * w * (T - dt - t1) + 2 * w * dt - a * dt * dt))
    with (2 * v 0 * (a * t1) + (a * t1) * (a * t1) + 2 * w * (a * T) - 2 * w * (a * t1) - (a * dt) * (a * dt)) in S by ring.
  rewrite E1, E2 in S. lra.
Qed.

(** No motion that gets as far up is faster. *)
Lemma best_up : forall a vmax s v T d dta dtc, 0 < a -> 0 < vmax -> motion a vmax s v T ->
  let m := Rmax (v 0) (v T) in let top := m + a * dta in
  0 <= dta -> 0 <= top <= vmax -> 0 <= dtc -> (0 < dtc -> top = vmax) ->
  2 * (m + top) * dta + 2 * top * dtc = d ->
  a * (s T - s 0) = (v 0 + v T) * Rabs (v T - v 0) + a * d ->
  0 < d \/ 0 <= m ->
  Rabs (v T - v 0) + 2 * (a * dta) + a * dtc <= a * T.
Proof.
  intros a vmax s v T d dta dtc A V Mo m top P B Q F Hd Hs Hm. pose proof Mo as [T0 D L S].
  assert (R1 : v 0 <= m) by apply Rmax_l. assert (R2 : v T <= m) by apply Rmax_r.
  assert (AB : Rabs (v T - v 0) = 2 * m - v 0 - v T).
  { unfold m, Rmax. destruct (Rle_dec (v 0) (v T)); [rewrite Rabs_pos_eq by lra|rewrite Rabs_left by lra]; lra. }
  assert (MM : (v 0 + v T) * Rabs (v T - v 0) = 2 * (m * m) - v 0 * v 0 - v T * v T).
  { unfold m, Rmax. destruct (Rle_dec (v 0) (v T)); [rewrite Rabs_pos_eq by lra|rewrite Rabs_left by lra]; lra. }
  assert (AD : a * d = 2 * (top * top) - 2 * (m * m) + 2 * top * (a * dtc)).
  { rewrite <- Hd. replace (a * (2 * (m + top) * dta + 2 * top * dtc)) with (2 * (m + top) * (a * dta) + 2 * top * (a * dtc)) by ring.
    replace (a * dta) with (top - m) by (unfold top; ring). ring. }
  assert (C : 0 <= a * dtc) by nra.
  assert (LT : Rabs (v T - v 0) <= a * T).
  { specialize (L T 0 ltac:(lra) ltac:(lra)). replace (T - 0) with T in L by ring. rewrite (Rabs_pos_eq T) in L by lra. exact L. }
  rewrite AB. replace (2 * m - v 0 - v T + 2 * (a * dta) + a * dtc) with (2 * top - v 0 - v T + a * dtc) by (unfold top; ring).
  destruct (Rle_dec (2 * top - v 0 - v T + a * dtc) (a * T)) as [|N]; [assumption|]. exfalso. apply Rnot_le_lt in N.
  assert (BM : - vmax <= m).
  { specialize (S 0 ltac:(lra)). apply Rabs_def2 in S || idtac. pose proof (Rle_abs (- v 0)). rewrite Rabs_Ropp in *. lra. }
  assert (TM : m <= top) by (unfold top; nra).
  destruct (Rle_dec (2 * vmax) (v 0 + v T + a * T)) as [W|W].
  - assert (Z : 0 < dtc) by nra. specialize (F Z).
    assert (U : a * (s T - s 0) <= 2 * vmax * (a * T) - (vmax - v 0) * (vmax - v 0) - (vmax - v T) * (vmax - v T)).
    { apply (below a vmax s v T vmax); auto; try lra. intros t X. pose proof (Rle_abs (v t)).
      assert (I1 : 0 <= (vmax - v 0) / a) by (apply Rmult_le_pos; [lra|left; apply Rinv_0_lt_compat; lra]).
      assert (I2 : 0 <= (vmax - v T) / a) by (apply Rmult_le_pos; [lra|left; apply Rinv_0_lt_compat; lra]).
      specialize (S t ltac:(lra)). lra. }
    rewrite F in *. assert (2 * vmax * (a * T) < 2 * vmax * (2 * vmax - v 0 - v T + a * dtc)) by (apply Rmult_lt_compat_l; lra). nra.
  - apply Rnot_le_lt in W. set (w := (v 0 + v T + a * T) / 2). assert (WE : 2 * w = v 0 + v T + a * T) by (unfold w; field).
    assert (WM : m <= w) by lra.
    assert (U : a * (s T - s 0) <= 2 * w * (a * T) - (w - v 0) * (w - v 0) - (w - v T) * (w - v T)).
    { apply (below a vmax s v T w); auto; try lra. intros t X.
      assert (E1 : a * ((w - v 0) / a) = w - v 0) by (field; lra). assert (E2 : a * ((w - v T) / a) = w - v T) by (field; lra).
      assert (t = (w - v 0) / a) by nra. subst t. specialize (L ((w - v 0) / a) 0).
      assert (I1 : 0 <= (w - v 0) / a) by nra. assert (I2 : 0 <= (w - v T) / a) by nra.
      specialize (L ltac:(lra) ltac:(lra)). replace ((w - v 0) / a - 0) with ((w - v 0) / a) in L by ring.
      rewrite (Rabs_pos_eq ((w - v 0) / a)), E1 in L by lra. pose proof (Rle_abs (v ((w - v 0) / a) - v 0)). lra. }
    assert (K : top * top + top * (a * dtc) <= w * w) by nra.
    destruct Q as [Q|Q].
    + specialize (F Q). rewrite F in *. assert (0 < vmax * (a * dtc)) by (apply Rmult_lt_0_compat; nra). nra.
    + rewrite <- Q in *. assert (WT : w < top) by lra.
      assert (X : top * top <= w * w) by lra. assert (Y : 0 <= m \/ - top < m).
      { destruct Hm as [Hm|Hm]; [|left; lra]. right. assert (0 < a * d) by nra. nra. }
      destruct Y; nra.
Qed.

Lemma mirror : forall a vmax s v T, motion a vmax s v T -> motion a vmax (fun t => - s t) (fun t => - v t) T.
Proof.
  intros a vmax s v T [T0 D L S]. constructor; [exact T0| | |].
  - intros t Ht. replace (2 * - v t) with (- (2 * v t)) by ring. apply (derivable_pt_lim_opp s), D, Ht.
  - intros t t' H H'. replace (- v t - - v t') with (- (v t - v t')) by ring. rewrite Rabs_Ropp. apply L; assumption.
  - intros t Ht. rewrite Rabs_Ropp. apply S, Ht.
Qed.

Lemma extend_top : forall s v a vmax, 0 < a -> 0 < vmax -> 0 <= v + a * fst (extend_dist s v a vmax).
Proof.
  intros s v a vmax A V. unfold extend_dist. cbv zeta.
  set (q := sqrt (s / (2 * a) + v * v / (a * a))). assert (Q0 : 0 <= q) by apply sqrt_pos.
  assert (TOP : v + a * (- v / a + q) = a * q) by (field; lra).
  destruct (Rlt_dec _ _) as [L|L]; cbn [fst]; [replace (v + a * ((vmax - v) / a)) with vmax by (field; lra); lra|].
  destruct (Rlt_dec _ _) as [L2|L2]; cbn [fst]; rewrite ?TOP in *; nra.
Qed.

(** ** Constant accelerations one after the other are a motion *)

Fixpoint place (s v : R) (ps : list (R * R)) (t : R) : R :=
  match ps with
  | [] => s + 2 * v * t
  | (a, dt) :: ps => if Rle_dec t dt then s + 2 * v * t + a * t * t else place (s + 2 * v * dt + a * dt * dt) (v + a * dt) ps (t - dt)
  end.
Fixpoint speed (v : R) (ps : list (R * R)) (t : R) : R :=
  match ps with
  | [] => v
  | (a, dt) :: ps => if Rle_dec t dt then v + a * t else speed (v + a * dt) ps (t - dt)
  end.
Fixpoint total (ps : list (R * R)) : R := match ps with [] => 0 | (_, dt) :: ps => dt + total ps end.
Fixpoint within (a vmax v : R) (ps : list (R * R)) : Prop :=
  Rabs v <= vmax /\ match ps with [] => True | (b, dt) :: ps => Rabs b <= a /\ 0 <= dt /\ within a vmax (v + b * dt) ps end.

Lemma total_pos : forall a vmax ps v, within a vmax v ps -> 0 <= total ps.
Proof. intros a vmax ps. induction ps as [|[b dt] ps IH]; intros v (_ & H); cbn; [lra|]. destruct H as (_ & H & W). specialize (IH _ W). lra. Qed.

Lemma glue : forall f g h x l, derivable_pt_lim g x l -> derivable_pt_lim h x l ->
  (forall t, t <= x -> f t = g t) -> (forall t, x <= t -> f t = h t) -> derivable_pt_lim f x l.
Proof.
  intros f g h x l G H FG FH e E. destruct (G e E) as [d1 D1]. destruct (H e E) as [d2 D2].
  assert (P : 0 < Rmin d1 d2) by (apply Rmin_pos; apply cond_pos). exists (mkposreal _ P). intros k K Lk. cbn [pos] in Lk.
  pose proof (Rmin_l d1 d2). pose proof (Rmin_r d1 d2).
  destruct (Rle_dec 0 k) as [Q|Q].
  - rewrite (FH (x + k)), (FH x) by lra. apply D2; lra.
  - rewrite (FG (x + k)), (FG x) by lra. apply D1; lra.
Qed.

Lemma quad_lim : forall s v a t, derivable_pt_lim (fun t => s + 2 * v * t + a * t * t) t (2 * (v + a * t)).
Proof.
  intros s v a t. replace (2 * (v + a * t)) with (0 + 2 * v * 1 + ((0 * t + a * 1) * t + a * t * 1)) by ring.
  apply (derivable_pt_lim_plus (fun t => s + 2 * v * t) (fun t => a * t * t)).
  - apply (derivable_pt_lim_plus (fun _ => s) (fun t => 2 * v * t)); [apply derivable_pt_lim_const|].
    apply (derivable_pt_lim_scal (fun t => t)). apply derivable_pt_lim_id.
  - apply (derivable_pt_lim_mult (fun t => a * t) (fun t => t)); [|apply derivable_pt_lim_id].
    apply (derivable_pt_lim_mult (fun _ => a) (fun t => t)); [apply derivable_pt_lim_const|apply derivable_pt_lim_id].
Qed.

Lemma place_0 : forall a vmax ps s v, within a vmax v ps -> place s v ps 0 = s.
Proof.
  intros a vmax ps s v H. destruct ps as [|[b dt] ps]; cbn; [ring|]. destruct H as (_ & _ & H & _).
  destruct (Rle_dec 0 dt); [ring|lra].
Qed.
Lemma speed_0 : forall a vmax ps v, within a vmax v ps -> speed v ps 0 = v.
Proof.
  intros a vmax ps v H. destruct ps as [|[b dt] ps]; cbn; [ring|]. destruct H as (_ & _ & H & _).
  destruct (Rle_dec 0 dt); [ring|lra].
Qed.

(** Left of the start the first part goes on. *)
Lemma place_lim : forall a vmax ps s v t, within a vmax v ps -> 0 <= t -> derivable_pt_lim (place s v ps) t (2 * speed v ps t).
Proof.
  intros a vmax ps. induction ps as [|[b dt] ps IH]; intros s v t H T.
  - cbn [place speed]. replace (2 * v) with (2 * (v + 0 * t)) by ring.
    apply (glue _ _ (fun t => s + 2 * v * t + 0 * t * t) t _ (quad_lim s v 0 t) (quad_lim s v 0 t)); intros; ring.
  - pose proof H as (_ & _ & D & W). cbn [speed]. destruct (Rle_dec t dt) as [[L|E]|L].
    + assert (P : 0 < dt - t) by lra. intros e Ee. destruct (quad_lim s v b t e Ee) as [d Hd].
      assert (M : 0 < Rmin d (dt - t)) by (apply Rmin_pos; [apply cond_pos|exact P]). exists (mkposreal _ M). intros k K Lk. cbn [pos] in Lk.
      pose proof (Rmin_l d (dt - t)). pose proof (Rmin_r d (dt - t)). pose proof (Rle_abs k).
      cbn [place]. destruct (Rle_dec (t + k) dt); [|lra]. destruct (Rle_dec t dt); [|lra]. apply Hd; lra.
    + subst t. apply (glue _ (fun t => s + 2 * v * t + b * t * t) (fun t => place (s + 2 * v * dt + b * dt * dt) (v + b * dt) ps (t - dt))).
      * apply quad_lim.
      * replace (2 * (v + b * dt)) with (2 * speed (v + b * dt) ps (dt - dt) * (1 - 0)).
        { apply (derivable_pt_lim_comp (fun t => t - dt) (place (s + 2 * v * dt + b * dt * dt) (v + b * dt) ps)).
          - apply (derivable_pt_lim_minus (fun t => t) (fun _ => dt)); [apply derivable_pt_lim_id|apply derivable_pt_lim_const].
          - apply IH; [exact W|lra]. }
        replace (dt - dt) with 0 by ring. rewrite (speed_0 a vmax) by exact W. ring.
      * intros t Ht. cbn [place]. destruct (Rle_dec t dt); [reflexivity|lra].
      * intros t Ht. cbn [place]. destruct (Rle_dec t dt); [|reflexivity]. assert (t = dt) by lra. subst t.
        replace (dt - dt) with 0 by ring. rewrite (place_0 a vmax) by exact W. reflexivity.
    + apply Rnot_le_lt in L. assert (P : 0 < t - dt) by lra.
      assert (C : derivable_pt_lim (fun t => place (s + 2 * v * dt + b * dt * dt) (v + b * dt) ps (t - dt)) t (2 * speed (v + b * dt) ps (t - dt) * (1 - 0))).
      { apply (derivable_pt_lim_comp (fun t => t - dt) (place (s + 2 * v * dt + b * dt * dt) (v + b * dt) ps)).
        - apply (derivable_pt_lim_minus (fun t => t) (fun _ => dt)); [apply derivable_pt_lim_id|apply derivable_pt_lim_const].
        - apply IH; [exact W|lra]. }
      replace (2 * speed (v + b * dt) ps (t - dt) * (1 - 0)) with (2 * speed (v + b * dt) ps (t - dt)) in C by ring.
      intros e Ee. destruct (C e Ee) as [d Hd].
      assert (M : 0 < Rmin d (t - dt)) by (apply Rmin_pos; [apply cond_pos|exact P]). exists (mkposreal _ M). intros k K Lk. cbn [pos] in Lk.
      pose proof (Rmin_l d (t - dt)). pose proof (Rmin_r d (t - dt)). pose proof (Rle_abs (- k)). rewrite Rabs_Ropp in *.
      cbn [place]. destruct (Rle_dec (t + k) dt); [lra|]. destruct (Rle_dec t dt); [lra|]. apply Hd; lra.
Qed.

Lemma speed_change : forall a vmax ps v t t', 0 <= a -> within a vmax v ps -> 0 <= t <= t' -> Rabs (speed v ps t' - speed v ps t) <= a * (t' - t).
Proof.
  intros a vmax ps. induction ps as [|[b dt] ps IH]; intros v t t' A H T; cbn [speed].
  - replace (v - v) with 0 by ring. rewrite Rabs_R0. nra.
  - pose proof H as (_ & B & D & W). destruct (Rle_dec t' dt) as [L'|L'], (Rle_dec t dt) as [L|L]; try lra.
    + replace (v + b * t' - (v + b * t)) with (b * (t' - t)) by ring. rewrite Rabs_mult, (Rabs_pos_eq (t' - t)) by lra.
      apply Rmult_le_compat_r; lra.
    + specialize (IH (v + b * dt) 0 (t' - dt) A W ltac:(lra)). rewrite (speed_0 a vmax _ _ W) in IH.
      replace (speed (v + b * dt) ps (t' - dt) - (v + b * t)) with (speed (v + b * dt) ps (t' - dt) - (v + b * dt) + b * (dt - t)) by ring.
      eapply Rle_trans; [apply Rabs_triang|]. rewrite Rabs_mult, (Rabs_pos_eq (dt - t)) by lra.
      assert (Rabs b * (dt - t) <= a * (dt - t)) by (apply Rmult_le_compat_r; lra). lra.
    + specialize (IH (v + b * dt) (t - dt) (t' - dt) A W ltac:(lra)). lra.
Qed.

Lemma between : forall x y b t dt, 0 <= t <= dt -> Rabs x <= y -> Rabs (x + b * dt) <= y -> Rabs (x + b * t) <= y.
Proof.
  intros x y b t dt T H H'.
  assert (U : forall z, Rabs z <= y <-> - y <= z <= y).
  { intros z. unfold Rabs. destruct (Rcase_abs z); lra. }
  rewrite U in *. destruct (Rle_dec 0 b); split; nra.
Qed.

Lemma speed_within : forall a vmax ps v t, within a vmax v ps -> 0 <= t -> Rabs (speed v ps t) <= vmax.
Proof.
  intros a vmax ps. induction ps as [|[b dt] ps IH]; intros v t H T; cbn [speed]; [apply H|].
  pose proof H as (V & B & D & W). destruct (Rle_dec t dt) as [L|L].
  - apply (between v vmax b t dt); [lra|exact V|destruct ps; apply W].
  - apply IH; [exact W|lra].
Qed.

Lemma pieces_end : forall a vmax ps s v, within a vmax v ps -> eval_acc_time s v ps = (place s v ps (total ps), speed v ps (total ps)).
Proof.
  intros a vmax ps. induction ps as [|[b dt] ps IH]; intros s v H; cbn [eval_acc_time place speed total].
  - f_equal; ring.
  - pose proof H as (V & B & D & W). rewrite (IH _ _ W). pose proof (total_pos _ _ _ _ W) as P.
    destruct (Rle_dec (dt + total ps) dt) as [L|L].
    + assert (E : total ps = 0) by lra. rewrite E. rewrite (place_0 a vmax), (speed_0 a vmax) by exact W.
      replace (dt + 0) with dt by ring. reflexivity.
    + replace (dt + total ps - dt) with (total ps) by ring. reflexivity.
Qed.

Lemma pieces_motion : forall a vmax ps s v, 0 <= a -> within a vmax v ps -> motion a vmax (place s v ps) (speed v ps) (total ps).
Proof.
  intros a vmax ps s v A H. constructor.
  - eapply total_pos, H.
  - intros t T. apply (place_lim a vmax); [exact H|lra].
  - intros t t' T T'. destruct (Rle_dec t t') as [L|L].
    + rewrite Rabs_minus_sym, (Rabs_minus_sym t), (Rabs_pos_eq (t' - t)) by lra. apply (speed_change a vmax); [exact A|exact H|lra].
    + rewrite (Rabs_pos_eq (t - t')) by lra. apply (speed_change a vmax); [exact A|exact H|lra].
  - intros t T. apply (speed_within a); [exact H|lra].
Qed.

(** ** The theorems *)

Definition pieces (p : R * (R * R * R)) : list (R * R) :=
  let '(a, (d0, d1, d2)) := p in [(a, d0); (0, d1); (- a, d2)].

(** The cases of build_optimal_path: [u] is the larger of the two speeds or, below, the smaller
    one upside down. *)
Lemma path_cases : forall s0 sn v0 vn vmax amax, (0 < amax)%Z -> (0 < vmax)%Z ->
  (Z.abs v0 <= vmax)%Z -> (Z.abs vn <= vmax)%Z ->
  exists (up : bool) d dta dtc, let sg := if up then 1 else -1 in let m := Rmax (sg * IZR v0) (sg * IZR vn) in
    let first := (m - sg * IZR v0) / IZR amax in let last := (m - sg * IZR vn) / IZR amax in
    build_optimal_path s0 sn v0 vn vmax amax = (sg * IZR amax, (first + dta, dtc, last + dta)) /\
    IZR amax * (sg * (IZR sn - IZR s0) - d) = (sg * IZR v0 + sg * IZR vn) * Rabs (IZR vn - IZR v0) /\
    0 <= d /\ (up = false -> 0 < d) /\
    0 <= dta /\ 0 <= m + IZR amax * dta <= IZR vmax /\ 0 <= dtc /\ (0 < dtc -> m + IZR amax * dta = IZR vmax) /\
    2 * (m + (m + IZR amax * dta)) * dta + 2 * (m + IZR amax * dta) * dtc = d.
Proof.
  intros s0 sn v0 vn vmax amax Ha Hv H0 Hn.
  apply IZR_lt in Ha, Hv. assert (B0 : - IZR vmax <= IZR v0 <= IZR vmax) by (rewrite <- opp_IZR; split; apply IZR_le; lia).
  assert (Bn : - IZR vmax <= IZR vn <= IZR vmax) by (rewrite <- opp_IZR; split; apply IZR_le; lia).
  unfold build_optimal_path. cbv zeta. rewrite minus_IZR, mult_IZR.
  assert (EX : forall d u, 0 <= d -> - IZR vmax <= u <= IZR vmax ->
    exists dta dtc, extend_dist d u (IZR amax) (IZR vmax) = (dta, dtc) /\ 0 <= dta /\ 0 <= u + IZR amax * dta <= IZR vmax /\ 0 <= dtc /\
      (0 < dtc -> u + IZR amax * dta = IZR vmax) /\ 2 * (u + (u + IZR amax * dta)) * dta + 2 * (u + IZR amax * dta) * dtc = d).
  { intros d u Hd Hu. pose proof (C94_extend d u (IZR amax) (IZR vmax) Hd Ha Hv) as C.
    pose proof (extend_top d u (IZR amax) (IZR vmax) Ha Hv) as T. destruct (extend_dist d u (IZR amax) (IZR vmax)) as [dta dtc].
    destruct C as (E & P & M & F & N). cbn [fst] in T. exists dta, dtc. split; [reflexivity|].
    split; [apply Rnot_lt_le; intros X; apply N in X; lra|]. split; [lra|]. split; [exact P|]. split; [exact F|].
    cbn [eval_acc_time] in E. injection E as E _. lra. }
  destruct (Z.leb_spec 0 (vn - v0)) as [L|L].
  - apply IZR_le in L. rewrite minus_IZR in L. destruct (Rlt_dec 0 (IZR amax)) as [_|]; [|lra].
    set (dt0 := (IZR vn - IZR v0) / IZR amax). assert (E0 : IZR amax * dt0 = IZR vn - IZR v0) by (unfold dt0; field; lra).
    set (ds := IZR sn - (IZR s0 + 2 * IZR v0 * dt0 + IZR amax * dt0 * dt0)).
    assert (ED : IZR amax * (IZR sn - IZR s0 - ds) = (IZR v0 + IZR vn) * (IZR vn - IZR v0)).
    { unfold ds. replace (IZR amax * (IZR sn - IZR s0 - (IZR sn - (IZR s0 + 2 * IZR v0 * dt0 + IZR amax * dt0 * dt0))))
        with ((2 * IZR v0 + IZR amax * dt0) * (IZR amax * dt0)) by ring. rewrite E0. ring. }
    rewrite (Rabs_pos_eq (IZR vn - IZR v0)) by lra.
    destruct (Rlt_dec ds 0) as [Q|Q].
    + destruct (EX (- ds) (- IZR v0)) as (dta & dtc & E & C1 & C2 & C3 & C4 & C5); [lra|lra|]. rewrite E.
      exists false, (- ds), dta, dtc. cbv zeta.
      replace (Rmax (-1 * IZR v0) (-1 * IZR vn)) with (- IZR v0) by (unfold Rmax; destruct (Rle_dec _ _); lra).
      split.
      { apply (f_equal2 pair); [ring|]. apply (f_equal2 pair); [apply (f_equal2 pair)|]; [field; lra|reflexivity|unfold dt0; field; lra]. }
      split; [lra|]. split; [lra|]. split; [lra|]. auto.
    + destruct (EX ds (IZR vn)) as (dta & dtc & E & C1 & C2 & C3 & C4 & C5); [lra|lra|]. rewrite E.
      exists true, ds, dta, dtc. cbv zeta.
      replace (Rmax (1 * IZR v0) (1 * IZR vn)) with (IZR vn) by (unfold Rmax; destruct (Rle_dec _ _); lra).
      split.
      { apply (f_equal2 pair); [ring|]. apply (f_equal2 pair); [apply (f_equal2 pair)|]; [unfold dt0; field; lra|reflexivity|field; lra]. }
      split; [lra|]. split; [lra|]. split; [discriminate|]. auto.
  - assert (L2 : IZR vn - IZR v0 < 0) by (rewrite <- minus_IZR; apply IZR_lt; lia). rewrite opp_IZR.
    destruct (Rlt_dec 0 (- IZR amax)) as [|_]; [lra|].
    set (dt0 := (IZR vn - IZR v0) / - IZR amax). assert (E0 : IZR amax * dt0 = IZR v0 - IZR vn) by (unfold dt0; field; lra).
    set (ds := IZR sn - (IZR s0 + 2 * IZR v0 * dt0 + - IZR amax * dt0 * dt0)).
    assert (ED : IZR amax * (IZR sn - IZR s0 - ds) = (IZR v0 + IZR vn) * (IZR v0 - IZR vn)).
    { unfold ds. replace (IZR amax * (IZR sn - IZR s0 - (IZR sn - (IZR s0 + 2 * IZR v0 * dt0 + - IZR amax * dt0 * dt0))))
        with ((2 * IZR v0 - IZR amax * dt0) * (IZR amax * dt0)) by ring. rewrite E0. ring. }
    rewrite (Rabs_left (IZR vn - IZR v0)) by lra. rewrite Ropp_involutive.
    destruct (Rlt_dec ds 0) as [Q|Q].
    + destruct (EX (- ds) (- IZR vn)) as (dta & dtc & E & C1 & C2 & C3 & C4 & C5); [lra|lra|]. rewrite E.
      exists false, (- ds), dta, dtc. cbv zeta.
      replace (Rmax (-1 * IZR v0) (-1 * IZR vn)) with (- IZR vn) by (unfold Rmax; destruct (Rle_dec _ _); lra).
      split.
      { apply (f_equal2 pair); [ring|]. apply (f_equal2 pair); [apply (f_equal2 pair)|]; [unfold dt0; field; lra|reflexivity|field; lra]. }
      split; [lra|]. split; [lra|]. split; [lra|]. auto.
    + destruct (EX ds (IZR v0)) as (dta & dtc & E & C1 & C2 & C3 & C4 & C5); [lra|lra|]. rewrite E.
      exists true, ds, dta, dtc. cbv zeta.
      replace (Rmax (1 * IZR v0) (1 * IZR vn)) with (IZR v0) by (unfold Rmax; destruct (Rle_dec _ _); lra).
      split.
      { apply (f_equal2 pair); [ring|]. apply (f_equal2 pair); [apply (f_equal2 pair)|]; [field; lra|reflexivity|unfold dt0; field; lra]. }
      split; [lra|]. split; [lra|]. split; [discriminate|]. auto.
Qed.

Lemma max_facts : forall x y, let m := Rmax x y in x <= m /\ y <= m /\ Rabs (y - x) = 2 * m - x - y /\ (x + y) * Rabs (y - x) = 2 * (m * m) - x * x - y * y.
Proof.
  intros x y. cbv zeta. unfold Rmax. destruct (Rle_dec x y); [rewrite Rabs_pos_eq by lra|rewrite Rabs_left by lra]; repeat split; lra.
Qed.

Lemma abs_interval : forall x y, Rabs x <= y <-> - y <= x <= y.
Proof. intros x y. unfold Rabs. destruct (Rcase_abs x); lra. Qed.

(** The path reaches its goal within the limits. *)
Theorem C97_reaches : forall s0 sn v0 vn vmax amax, (0 < amax)%Z -> (0 < vmax)%Z ->
  (Z.abs v0 <= vmax)%Z -> (Z.abs vn <= vmax)%Z ->
  let ps := pieces (build_optimal_path s0 sn v0 vn vmax amax) in
  within (IZR amax) (IZR vmax) (IZR v0) ps /\ eval_acc_time (IZR s0) (IZR v0) ps = (IZR sn, IZR vn).
Proof.
  intros s0 sn v0 vn vmax amax Ha Hv H0 Hn. destruct (path_cases s0 sn v0 vn vmax amax Ha Hv H0 Hn) as (up & d & dta & dtc & C).
  cbv zeta in *. set (sg := if up then 1 else -1) in *. assert (SG : sg * sg = 1) by (unfold sg; destruct up; ring).
  assert (S1 : sg = 1 \/ sg = -1) by (unfold sg; destruct up; auto). clearbody sg.
  apply IZR_lt in Ha, Hv. assert (B0 : - IZR vmax <= IZR v0 <= IZR vmax) by (rewrite <- opp_IZR; split; apply IZR_le; lia).
  assert (Bn : - IZR vmax <= IZR vn <= IZR vmax) by (rewrite <- opp_IZR; split; apply IZR_le; lia).
  set (A := IZR amax) in *. set (V := IZR vmax) in *. set (x := IZR v0) in *. set (y := IZR vn) in *. clearbody A V x y.
  destruct (max_facts (sg * x) (sg * y)) as (M1 & M2 & M3 & M4). set (m := Rmax (sg * x) (sg * y)) in *. clearbody m.
  destruct C as (E & ED & Hd & _ & C1 & C2 & C3 & C4 & C5). rewrite E. cbn [pieces].
  assert (AB : Rabs (y - x) = Rabs (sg * y - sg * x)).
  { replace (sg * y - sg * x) with (sg * (y - x)) by ring. rewrite Rabs_mult. destruct S1 as [-> | ->]; rewrite ?Rabs_R1; [ring|].
    rewrite (Rabs_left (-1)) by lra. ring. }
  rewrite AB, M4 in ED.
  set (p := (m - sg * x) / A + dta). set (q := (m - sg * y) / A + dta).
  assert (P : A * p = m + A * dta - sg * x) by (unfold p; field; lra). assert (Q : A * q = m + A * dta - sg * y) by (unfold q; field; lra).
  set (top := m + A * dta) in *.
  assert (T : A * dta = top - m) by (unfold top; ring). clearbody p q top.
  assert (AD : A * d = 2 * (m + top) * (top - m) + 2 * top * (A * dtc)).
  { rewrite <- C5, <- T. ring. }
  assert (MT : 0 <= A * dta) by (apply Rmult_le_pos; lra). assert (P0 : 0 <= p) by (apply (Rmult_le_reg_l A); lra).
  assert (Q0 : 0 <= q) by (apply (Rmult_le_reg_l A); lra).
  assert (W1 : x + sg * A * p = sg * top).
  { replace (x + sg * A * p) with (x + sg * (A * p)) by ring. rewrite P. replace (x + sg * (top - sg * x)) with (x * (1 - sg * sg) + sg * top) by ring. rewrite SG. ring. }
  assert (W2 : sg * top + - (sg * A) * q = y).
  { replace (sg * top + - (sg * A) * q) with (sg * top - sg * (A * q)) by ring. rewrite Q. replace (sg * top - sg * (top - sg * y)) with (y * (sg * sg)) by ring. rewrite SG. ring. }
  split.
  - cbn [within]. rewrite W1. replace (sg * top + 0 * dtc) with (sg * top) by ring. rewrite W2. rewrite Rabs_R0, Rabs_Ropp, !abs_interval.
    destruct S1 as [-> | ->]; repeat split; lra.
  - cbn [eval_acc_time]. rewrite W1. replace (sg * top + 0 * dtc) with (sg * top) by ring. rewrite W2. f_equal.
    apply (Rmult_eq_reg_l A); [|lra].
    replace (A * (IZR s0 + 2 * x * p + sg * A * p * p + 2 * (sg * top) * dtc + 0 * dtc * dtc + 2 * (sg * top) * q + - (sg * A) * q * q))
      with (A * IZR s0 + 2 * x * (A * p) + sg * (A * p) * (A * p) + 2 * sg * top * (A * dtc) + 2 * sg * top * (A * q) - sg * (A * q) * (A * q)) by ring.
    rewrite P, Q. replace (A * IZR sn) with (A * IZR s0 + sg * sg * (A * (IZR sn - IZR s0))) by (rewrite SG; ring).
    replace (sg * sg * (A * (IZR sn - IZR s0))) with (sg * (A * (sg * (IZR sn - IZR s0)))) by ring.
    replace (A * (sg * (IZR sn - IZR s0))) with (2 * (m * m) - sg * x * (sg * x) - sg * y * (sg * y) + A * d) by lra.
    rewrite AD. destruct S1 as [-> | ->]; ring.
Qed.

(** No motion within the limits from the same place and speed to the same place and speed takes
    less time, and this time is taken by one; except if both speeds are negative and the place
    is where the straight change of speed leads. *)
Theorem C97_optimal : forall s0 sn v0 vn vmax amax, (0 < amax)%Z -> (0 < vmax)%Z ->
  (Z.abs v0 <= vmax)%Z -> (Z.abs vn <= vmax)%Z ->
  let time := total (pieces (build_optimal_path s0 sn v0 vn vmax amax)) in
  (exists s v, motion (IZR amax) (IZR vmax) s v time /\ s 0 = IZR s0 /\ v 0 = IZR v0 /\ s time = IZR sn /\ v time = IZR vn) /\
  ((amax * (sn - s0))%Z <> ((v0 + vn) * Z.abs (vn - v0))%Z \/ (0 <= Z.max v0 vn)%Z ->
   forall s v T, motion (IZR amax) (IZR vmax) s v T -> s 0 = IZR s0 -> v 0 = IZR v0 -> s T = IZR sn -> v T = IZR vn -> time <= T).
Proof.
  intros s0 sn v0 vn vmax amax Ha Hv H0 Hn. cbv zeta. split.
  - destruct (C97_reaches s0 sn v0 vn vmax amax Ha Hv H0 Hn) as [W E]. cbv zeta in *. apply IZR_lt in Ha.
    set (ps := pieces (build_optimal_path s0 sn v0 vn vmax amax)) in *. clearbody ps.
    exists (place (IZR s0) (IZR v0) ps), (speed (IZR v0) ps). rewrite (pieces_end _ _ _ _ _ W) in E. injection E as E1 E2.
    split; [apply pieces_motion; [lra|exact W]|]. split; [eapply place_0, W|]. split; [eapply speed_0, W|]. auto.
  - intros HX s v T Mo Hs0 Hv0 HsT HvT. destruct (path_cases s0 sn v0 vn vmax amax Ha Hv H0 Hn) as (up & d & dta & dtc & C).
    cbv zeta in C. destruct C as (E & ED & Hd & Hu & C1 & C2 & C3 & C4 & C5).
    assert (HX' : up = true -> 0 < d \/ 0 <= Rmax (IZR v0) (IZR vn)).
    { intros ->. destruct HX as [HX|HX].
      - left. destruct Hd as [|Hd]; [assumption|]. exfalso. apply HX. apply eq_IZR. rewrite !mult_IZR, minus_IZR, plus_IZR, abs_IZR, minus_IZR.
        rewrite <- Hd in ED. lra.
      - right. apply IZR_le in HX. destruct (Z.max_spec v0 vn) as [[_ K]|[_ K]]; rewrite K in HX;
          [eapply Rle_trans; [exact HX|apply Rmax_r]|eapply Rle_trans; [exact HX|apply Rmax_l]]. }
    apply IZR_lt in Ha, Hv. rewrite E. cbn [pieces total].
    set (A := IZR amax) in *. set (V := IZR vmax) in *.
    assert (G : forall sg m, (sg = 1 \/ sg = -1) -> m = Rmax (sg * IZR v0) (sg * IZR vn) ->
      Rabs (sg * IZR vn - sg * IZR v0) + 2 * (A * dta) + A * dtc <= A * T ->
      (m - sg * IZR v0) / A + dta + (dtc + ((m - sg * IZR vn) / A + dta + 0)) <= T).
    { intros sg m S1 -> K. destruct (max_facts (sg * IZR v0) (sg * IZR vn)) as (M1 & M2 & M3 & M4). rewrite M3 in K.
      set (m := Rmax (sg * IZR v0) (sg * IZR vn)) in *. apply (Rmult_le_reg_l A); [exact Ha|].
      replace (A * ((m - sg * IZR v0) / A + dta + (dtc + ((m - sg * IZR vn) / A + dta + 0))))
        with (2 * m - sg * IZR v0 - sg * IZR vn + 2 * (A * dta) + A * dtc) by (field; lra). exact K. }
    destruct up.
    + apply G; [auto|reflexivity|].
      pose proof (best_up A V s v T d dta dtc Ha Hv Mo) as K. cbv zeta in K. rewrite Hv0, HvT, Hs0, HsT in K.
      rewrite !Rmult_1_l in *. apply K; auto; lra.
    + apply G; [auto|reflexivity|].
      pose proof (best_up A V _ _ T d dta dtc Ha Hv (mirror _ _ _ _ _ Mo)) as K. cbv beta zeta in K. rewrite Hv0, HvT, Hs0, HsT in K.
      replace (-1 * IZR v0) with (- IZR v0) in * by ring. replace (-1 * IZR vn) with (- IZR vn) in * by ring.
      replace (Rabs (- IZR vn - - IZR v0)) with (Rabs (IZR vn - IZR v0)) in *.
      2:{ rewrite <- Rabs_Ropp. f_equal. ring. }
      apply K; auto; lra.
Qed.

(** The exception: staying where one is, at any negative speed, takes 4 v / a instead of 0. *)
Theorem C97_negative_refuted : forall s0 v vmax amax, (0 < amax)%Z -> (0 < v <= vmax)%Z ->
  motion (IZR amax) (IZR vmax) (fun t => IZR s0 + 2 * - IZR v * t) (fun _ => - IZR v) 0 /\
  IZR s0 + 2 * - IZR v * 0 = IZR s0 /\
  total (pieces (build_optimal_path s0 s0 (- v) (- v) vmax amax)) = 4 * IZR v / IZR amax.
Proof.
  intros s0 v vmax amax Ha Hv. split; [|split; [ring|]].
  - assert (B : IZR v <= IZR vmax) by (apply IZR_le; lia). assert (0 < IZR v) by (apply IZR_lt; lia). constructor.
    + lra.
    + intros t _. replace (2 * - IZR v) with (2 * (- IZR v + 0 * t)) by ring.
      apply (glue _ _ (fun t => IZR s0 + 2 * - IZR v * t + 0 * t * t) t _ (quad_lim (IZR s0) (- IZR v) 0 t) (quad_lim (IZR s0) (- IZR v) 0 t)); intros; ring.
    + intros t t' _ _. replace (- IZR v - - IZR v) with 0 by ring. rewrite Rabs_R0. apply IZR_lt in Ha. pose proof (Rabs_pos (t - t')). nra.
    + intros t _. rewrite Rabs_Ropp, Rabs_pos_eq; lra.
  - destruct (path_cases s0 s0 (- v) (- v) vmax amax) as (up & d & dta & dtc & C); try lia. cbv zeta in C.
    destruct C as (E & ED & Hd & Hu & C1 & C2 & C3 & C4 & C5).
    assert (HV : 0 < IZR v) by (apply IZR_lt; lia). assert (HM : IZR v <= IZR vmax) by (apply IZR_le; lia).
    apply IZR_lt in Ha. rewrite opp_IZR in *.
    replace (- IZR v - - IZR v) with 0 in ED by ring. rewrite Rabs_R0 in ED.
    assert (D : d = 0) by (destruct up; nra). destruct up; [|specialize (Hu eq_refl); lra].
    replace (Rmax (1 * - IZR v) (1 * - IZR v)) with (- IZR v) in * by (unfold Rmax; destruct (Rle_dec _ _); lra).
    rewrite E. cbn [pieces total]. rewrite D in C5. rewrite !Rmult_1_l.
    replace ((- IZR v - - IZR v) / IZR amax) with 0 by (field; lra).
    set (A := IZR amax) in *. set (w := IZR v) in *. clearbody A w.
    assert (X : dtc = 0 /\ A * dta = 2 * w).
    { assert (T : 2 * (- w + (- w + A * dta)) * (A * dta) + 2 * (- w + A * dta) * (A * dtc) = 0)
        by (replace (2 * (- w + (- w + A * dta)) * (A * dta) + 2 * (- w + A * dta) * (A * dtc))
              with (A * (2 * (- w + (- w + A * dta)) * dta + 2 * (- w + A * dta) * dtc)) by ring; rewrite C5; ring).
      set (u := A * dta) in *. assert (U : w <= u) by lra. assert (K : 0 <= A * dtc) by nra.
      destruct C3 as [C3|C3].
      - specialize (C4 C3). exfalso. assert (0 < A * dtc) by nra. assert (u = w + IZR vmax) by lra. nra.
      - split; [lra|]. rewrite <- C3 in T. nra. }
    destruct X as [-> X]. replace dta with (2 * w / A); [field; lra|]. apply (Rmult_eq_reg_l A); [|lra]. rewrite X. field. lra.
Qed.

Example C97_example :
  build_optimal_path 0 8 0 0 10 1 = (1, (2, 0, 2)) /\ (1 * (8 - 0))%Z <> ((0 + 0) * Z.abs (0 - 0))%Z.
Proof.
  split; [|discriminate]. destruct (path_cases 0 8 0 0 10 1) as (up & d & dta & dtc & C); try lia. cbv zeta in C.
  destruct C as (E & ED & Hd & Hu & C1 & C2 & C3 & C4 & C5). rewrite E. 
  replace (0 - 0) with 0 in ED by ring. rewrite Rabs_R0 in ED. destruct up; [|specialize (Hu eq_refl); lra].
  replace (Rmax (1 * 0) (1 * 0)) with 0 in * by (unfold Rmax; destruct (Rle_dec _ _); lra).
  assert (D : d = 8) by lra. rewrite D in C5. destruct C3 as [C3|C3].
  - specialize (C4 C3). exfalso. nra.
  - subst dtc. assert (X : dta = 2) by nra. subst dta. replace ((0 - 1 * 0) / 1) with 0 by field.
    apply (f_equal2 pair); [ring|]. apply (f_equal2 pair); [apply (f_equal2 pair)|]; ring.
Qed.

(** Accelerations for one tick each, as the planner of integer_curve.rs gives them, are such a
    motion too: a lower bound for its durations. *)
Lemma ticks_within : forall accs v (a vmax : Z),
  (forall x, In x accs -> (Z.abs x <= a)%Z) -> (forall w, In w (speeds v accs) -> (Z.abs w <= vmax)%Z) ->
  within (IZR a) (IZR vmax) (IZR v) (map (fun x => (IZR x, 1)) accs).
Proof.
  induction accs as [|x accs IH]; intros v a vmax HA HS; cbn [map within].
  - split; [|exact I]. rewrite <- abs_IZR. apply IZR_le, HS. left. reflexivity.
  - cbn [speeds] in HS. split; [rewrite <- abs_IZR; apply IZR_le, HS; left; reflexivity|].
    split; [rewrite <- abs_IZR; apply IZR_le, HA; left; reflexivity|]. split; [lra|].
    rewrite Rmult_1_r, <- plus_IZR. apply IH; [intros; apply HA; right; assumption|intros; apply HS; right; assumption].
Qed.
Lemma ticks_end : forall accs s v,
  eval_acc_time (IZR s) (IZR v) (map (fun x => (IZR x, 1)) accs) = (IZR (s + travel v accs), IZR (final_speed v accs)).
Proof.
  induction accs as [|x accs IH]; intros s v; cbn [map eval_acc_time travel final_speed]; [f_equal; f_equal; lia|].
  replace (IZR s + 2 * IZR v * 1 + IZR x * 1 * 1) with (IZR (s + (2 * v + x))) by (rewrite !plus_IZR, mult_IZR; ring).
  replace (IZR v + IZR x * 1) with (IZR (v + x)) by (rewrite plus_IZR; ring).
  rewrite IH. f_equal. f_equal. lia.
Qed.
Lemma ticks_total : forall accs, total (map (fun x => (IZR x, 1)) accs) = INR (length accs).
Proof. induction accs as [|x accs IH]; cbn [map total length]; [reflexivity|]. rewrite IH, S_INR. ring. Qed.

Theorem C97_ticks : forall v0 vn a vmax accs, (0 < a)%Z -> (0 < vmax)%Z -> (Z.abs v0 <= vmax)%Z -> (Z.abs vn <= vmax)%Z ->
  legal v0 vn a vmax accs ->
  (a * travel v0 accs)%Z <> ((v0 + vn) * Z.abs (vn - v0))%Z \/ (0 <= Z.max v0 vn)%Z ->
  total (pieces (build_optimal_path 0 (travel v0 accs) v0 vn vmax a)) <= INR (length accs).
Proof.
  intros v0 vn a vmax accs Ha Hv H0 Hn (L1 & L2 & L3) HX.
  destruct (C97_optimal 0 (travel v0 accs) v0 vn vmax a Ha Hv H0 Hn) as [_ B]. rewrite Z.sub_0_r in B.
  pose proof (ticks_within accs v0 a vmax L2 L3) as W. pose proof (ticks_end accs 0 v0) as E. rewrite (pieces_end _ _ _ _ _ W) in E.
  injection E as E1 E2. rewrite L1 in E2. rewrite <- ticks_total. apply IZR_lt in Ha.
  apply (B HX (place (IZR 0) (IZR v0) (map (fun x => (IZR x, 1)) accs)) (speed (IZR v0) (map (fun x => (IZR x, 1)) accs)));
    [apply pieces_motion; [lra|exact W]|eapply place_0, W|eapply speed_0, W|exact E1|exact E2].
Qed.

Print Assumptions C97_reaches.
Print Assumptions C97_optimal.
Print Assumptions C97_negative_refuted.
Print Assumptions C97_ticks.
