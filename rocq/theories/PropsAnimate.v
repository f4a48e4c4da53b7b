(** Property C92: the curves plotted by animate_curve are the speeds of the planned movements. *)
From Coq Require Import ZArith List Bool Lia.
From Coq Require Import ZifyBool ZifyNat.
From Verif Require Import Base AccVector MotionSpec IntegerCurve CurveArith AccVectorProofs AccSeqProofs AccSeqSpec AdjustSpec RangeProofs PlanProofs PropsIntegerCurve PropsDuration Animate.
Import ListNotations.
Open Scope Z_scope.

(** The polygon through [pts] from tick [t0] is, at every tick, the speed of a machine that has
    executed the accelerations [accs] so far. *)
Fixpoint graph (t0 v0 : Z) (pts : list (Z * Z)) (accs : list Z) : Prop :=
  match pts with
  | [] => accs = []
  | (t1, v1) :: rest =>
      exists n, t1 = t0 + Z.of_nat n /\ (n <= length accs)%nat /\
        (forall k, (k <= n)%nat ->
           (final_speed v0 (firstn k accs) - v0) * (t1 - t0) = (v1 - v0) * Z.of_nat k) /\
        v1 = final_speed v0 (firstn n accs) /\ graph t1 v1 rest (skipn n accs)
  end.

(** Twice the area between the polygon and the axis of times. *)
Fixpoint double_area (t0 v0 : Z) (pts : list (Z * Z)) : Z :=
  match pts with
  | [] => 0
  | (t1, v1) :: rest => (t1 - t0) * (v0 + v1) + double_area t1 v1 rest
  end.

Lemma final_repeat : forall n a v, final_speed v (repeat a n) = v + a * Z.of_nat n.
Proof. induction n as [|n IH]; intros a v; cbn [repeat final_speed]; [lia|]. rewrite IH. lia. Qed.
Lemma travel_repeat : forall n a v, travel v (repeat a n) = Z.of_nat n * (v + (v + a * Z.of_nat n)).
Proof. induction n as [|n IH]; intros a v; cbn [repeat travel]; [lia|]. rewrite IH. lia. Qed.
Lemma travel_two : forall l l' v, travel v (l ++ l') = travel v l + travel (final_speed v l) l'.
Proof. induction l as [|x l IH]; intros l' v; cbn [app travel final_speed]; [lia|]. rewrite IH. lia. Qed.
Lemma speeds_two : forall l l' v, In (final_speed v l) (speeds v (l ++ l')).
Proof.
  induction l as [|x l IH]; intros l' v; cbn [app final_speed speeds]; [|right; auto].
  destruct l'; cbn [speeds]; left; reflexivity.
Qed.
Lemma speeds_rest : forall l l' v w, In w (speeds (final_speed v l) l') -> In w (speeds v (l ++ l')).
Proof. induction l as [|x l IH]; intros l' v w H; cbn [app final_speed speeds] in *; [exact H|right; auto]. Qed.
Lemma firstn_repeat_app : forall k n (a : Z) l, (k <= n)%nat -> firstn k (repeat a n ++ l) = repeat a k.
Proof.
  induction k as [|k IH]; intros n a l H; [reflexivity|]. destruct n as [|n]; [lia|]. cbn [repeat app firstn]. rewrite IH by lia. reflexivity.
Qed.
Lemma skipn_repeat_app : forall n (a : Z) l, skipn n (repeat a n ++ l) = l.
Proof. induction n as [|n IH]; intros a l; [reflexivity|]. cbn. apply IH. Qed.

Lemma plot_graph : forall segs t v, Forall seg_typed segs -> 0 <= t -> t + Z.of_nat (length (expand segs)) <= u16_max ->
  (forall w, In w (speeds v (expand segs)) -> Z.abs w <= 2 ^ 20) ->
  exists pts, plot t v segs = Ok pts /\ length pts = length segs /\ graph t v pts (expand segs) /\
    double_area t v pts = travel v (expand segs) /\
    last ((t, v) :: pts) (0, 0) = (t + Z.of_nat (length (expand segs)), final_speed v (expand segs)).
Proof.
  induction segs as [|[i a] segs IH]; intros t v F T L S; cbn [plot expand].
  - exists []. cbn. rewrite Z.add_0_r. auto.
  - inversion F as [|? ? [F1 F2] F3]; subst. cbn [fst snd] in *. cbn [expand] in L, S. rewrite app_length, repeat_length in L.
    set (n := Z.to_nat i) in *. assert (N : Z.of_nat n = i) by lia.
    assert (V : final_speed v (repeat a n) = v + a * i) by (rewrite final_repeat; lia).
    assert (B : Z.abs (v + a * i) <= 2 ^ 20) by (rewrite <- V; apply S, speeds_two).
    assert (B0 : Z.abs v <= 2 ^ 20) by (apply S; destruct (repeat a n ++ expand segs); cbn; auto).
    unfold u16_max, i16_min, i16_max in *.
    unfold chk_u16, chk_i32, chk, in_range, u16_max, i32_min, i32_max.
    replace ((0 <=? t + i) && (t + i <=? 65535)) with true by lia. cbn [bind].
    replace ((-2147483648 <=? a * i) && (a * i <=? 2147483647)) with true by lia. cbn [bind].
    replace ((-2147483648 <=? v + a * i) && (v + a * i <=? 2147483647)) with true by lia. cbn [bind].
    destruct (IH (t + i) (v + a * i)) as (pts & E & LE & G & A & LA); auto; try lia.
    { intros w W. apply S. apply speeds_rest. rewrite V. exact W. }
    rewrite E. cbn [bind]. eexists. split; [reflexivity|]. split; [cbn; lia|]. split; [|split].
    + cbn [graph]. exists n. split; [lia|]. split; [rewrite app_length, repeat_length; lia|]. split; [|split].
      * intros k K. rewrite firstn_repeat_app, final_repeat by auto. nia.
      * rewrite firstn_repeat_app by auto. lia.
      * rewrite skipn_repeat_app. exact G.
    + cbn [double_area]. rewrite A, travel_two, travel_repeat, V. lia.
    + rewrite app_length, repeat_length. change (last ((t, v) :: (t + i, v + a * i) :: pts) (0, 0)) with (last ((t + i, v + a * i) :: pts) (0, 0)).
      rewrite LA. f_equal; [lia|]. rewrite <- V. clear. revert v. induction (repeat a n) as [|x l IH]; intros v; cbn; auto.
Qed.

(** One plot: the speeds of a movement that keeps the limits, from the first to the last tick,
    and twice the area below is the distance within one. *)
Theorem C92_plot : forall ds v0 vn a vmax p, request ds v0 vn a vmax ->
  shortest_curve ds v0 vn a vmax = Ok p -> p_t_total p <= 65535 ->
  exists pts accs, plot_one ds v0 vn a vmax = Ok ((0, v0) :: pts) /\
    Z.of_nat (length accs) = p_t_total p /\ legal v0 vn a vmax accs /\ graph 0 v0 pts accs /\
    last ((0, v0) :: pts) (0, 0) = (p_t_total p, vn) /\ Z.abs (double_area 0 v0 pts - ds) <= 1.
Proof.
  intros ds v0 vn a vmax p H Ep T. pose proof H as H'. apply request_supported in H'.
  destruct (shortest_curve_spec _ _ _ _ _ H') as (r & t & h & p' & E & EB & C1 & C2 & Hhi & Hlo & Ht & Es & P).
  assert (p' = p) by congruence. subst p'.
  destruct P as (P1 & P2 & P3 & P4 & d & l & M & Hd & Hp & S1 & S2).
  unfold u16_max in S1. destruct (S1 ltac:(lia)) as [s S]. destruct (S2 s S) as [TY EX]. pose proof (moves_legal _ _ _ _ _ _ _ M) as LG.
  pose proof (mv_len _ _ _ _ _ _ _ _ M) as ML. pose proof (mv_dist _ _ _ _ _ _ _ _ M) as MD. destruct LG as (LG1 & LG2 & LG3).
  unfold request in H.
  assert (V0 : as_i32 v0 = v0).
  { unfold as_i32, wrap_s. change (2 ^ (32 - 1)) with 2147483648. change (2 ^ 32) with 4294967296.
    assert (B : Z.abs v0 <= 1048576) by lia. clear - B. destruct (Z.le_gt_cases 0 v0).
    - rewrite Z.mod_small by lia. destruct (Z.ltb_spec v0 2147483648); lia.
    - replace (v0 mod 4294967296) with (v0 + 4294967296) by (apply (Z.mod_unique _ _ (-1)); lia).
      destruct (Z.ltb_spec (v0 + 4294967296) 2147483648); lia. }
  destruct (plot_graph s 0 v0 TY) as (pts & EP & _ & G & A & LA); try lia.
  { rewrite EX. unfold u16_max. lia. }
  { rewrite EX. intros w W. apply LG3 in W. lia. }
  exists pts, l. split; [|split; [|split; [|split; [|split]]]].
  - unfold plot_one. rewrite Ep. cbn [bind]. rewrite S. cbn [bind]. rewrite V0, EP. reflexivity.
  - lia.
  - split; [exact LG1|]. split; [exact LG2|exact LG3].
  - rewrite <- EX. exact G.
  - rewrite LA, EX. f_equal; [lia|exact LG1].
  - rewrite A, EX, MD. exact Hd.
Qed.

(** The whole animation: one plot for each distance from -70 to 69, in order; no planned move
    is too long if the maximum speed is at most 16374 times the acceleration. *)
Theorem C92_animate : forall v0 vn vmax a,
  1 <= a <= 32767 -> 1 <= vmax <= 2 ^ 20 -> Z.abs v0 <= vmax -> Z.abs vn <= vmax ->
  vmax <= 16374 * a ->
  exists curves ds, animate v0 vn vmax a = Ok (curves, ds) /\ length ds = 140%nat /\
    (forall i, (i < 140)%nat -> nth_error ds i = Some (Z.of_nat i - 70)) /\
    Forall2 (fun d c => exists pts accs, c = (0, v0) :: pts /\ legal v0 vn a vmax accs /\ graph 0 v0 pts accs /\
               Z.abs (double_area 0 v0 pts - d) <= 1) ds curves.
Proof.
  intros v0 vn vmax a A V H0 Hn VA.
  assert (T : forall ds p, -70 <= ds < 70 -> shortest_curve ds v0 vn a vmax = Ok p -> p_t_total p <= 65535).
  { intros ds p Hd E. pose proof (C96_upper ds v0 vn a vmax p ltac:(unfold request; lia) E) as U.
    set (t := p_t_total p) in *. clearbody t. clear - A V VA Hd U.
    assert (8 * (vmax * vmax) <= 8 * (16374 * (a * vmax))) by nia.
    assert (a * Z.abs ds <= 70 * (a * vmax)) by nia. assert (0 < a * vmax) by nia.
    set (w := a * vmax) in *. replace (2 * a * vmax * (t - 3)) with (2 * w * (t - 3)) in U by (unfold w; ring).
    clearbody w. nia. }
  assert (G : forall dss, Forall (fun d => -70 <= d < 70) dss -> exists cs, plot_all dss v0 vn a vmax = Ok cs /\
    Forall2 (fun d c => exists pts accs, c = (0, v0) :: pts /\ legal v0 vn a vmax accs /\ graph 0 v0 pts accs /\
               Z.abs (double_area 0 v0 pts - d) <= 1) dss cs).
  { induction dss as [|d dss IH]; intros F.
    - exists []. split; [reflexivity|constructor].
    - inversion F; subst. destruct (IH ltac:(assumption)) as (cs & E & FA).
      assert (RQ : request d v0 vn a vmax) by (unfold request; lia).
      destruct (C11_planned_path_expands d v0 vn a vmax RQ) as (p & EP & _).
      destruct (C92_plot d v0 vn a vmax p RQ EP (T d p ltac:(assumption) EP)) as (pts & accs & E1 & _ & LG & GR & _ & AR).
      cbn [plot_all]. rewrite E1. cbn [bind]. rewrite E. cbn [bind]. eexists. split; [reflexivity|].
      constructor; [|exact FA]. exists pts, accs. auto. }
  assert (D : Forall (fun d => -70 <= d < 70) distances).
  { apply Forall_map, Forall_forall. intros i I. apply in_seq in I. lia. }
  destruct (G distances D) as (cs & E & FA). exists cs, distances. unfold animate. rewrite E. split; [reflexivity|].
  split; [unfold distances; rewrite map_length, seq_length; reflexivity|]. split; [|exact FA].
  intros i I. unfold distances. rewrite nth_error_map.
  replace (nth_error (seq 0 140) i) with (Some i); [reflexivity|].
  symmetry. rewrite (nth_error_nth' (seq 0 140) 0%nat) by (rewrite seq_length; lia). rewrite seq_nth by lia. reflexivity.
Qed.

Example C92_example : exists curves ds, animate 3 (-2) 7 2 = Ok (curves, ds) /\ length curves = 140%nat.
Proof.
  destruct (C92_animate 3 (-2) 7 2) as (cs & ds & E & L & _ & F); try lia. exists cs, ds. split; [exact E|].
  rewrite <- L. clear - F. induction F; cbn; congruence.
Qed.
Example C92_example_plot : plot_one 30 3 (-2) 2 7 = Ok [(0, 3); (1, 5); (2, 4); (3, 4); (6, -2)].
Proof. vm_compute. reflexivity. Qed.

Print Assumptions C92_plot.
Print Assumptions C92_animate.
