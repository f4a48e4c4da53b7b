(** Properties C10-C17, C19, C20: the curve planner (src/integer_curve.rs). *)
From Coq Require Import ZArith List Bool Lia.
From Coq Require Import ZifyBool ZifyNat.
From Verif Require Import Base MultiRange MultiRangeSpec MultiRangeProofs Solve SolveProofs
  AccVector AccVectorProofs MotionSpec
  IntegerCurve CurveArith AccSeqProofs AccSeqSpec CurveAdjust AdjustSpec RangeProofs PlanProofs.
Import ListNotations.
Open Scope Z_scope.

(** A movement request: distance, velocity at the start and at the end,
    acceleration limit, speed limit.  The magnitudes are those for which the
    durations and every sequence short enough to be stored are computed without
    i64 overflow (C21). *)
Definition request (ds v0 vn a vmax : Z) : Prop :=
  Z.abs ds <= 2 ^ 40 /\ 1 <= a <= 32767 /\ 1 <= vmax <= 2 ^ 20 /\
  Z.abs v0 <= vmax /\ Z.abs vn <= vmax.

(** A list of accelerations, one per tick, that takes a machine from velocity
    [v0] to velocity [vn] within the limits. *)
Definition legal (v0 vn a vmax : Z) (accs : list Z) : Prop :=
  final_speed v0 accs = vn /\
  (forall x, In x accs -> Z.abs x <= a) /\
  (forall v, In v (speeds v0 accs) -> Z.abs v <= vmax).

Lemma request_supported : forall ds v0 vn a vmax,
  request ds v0 vn a vmax -> supported ds v0 vn a vmax.
Proof. intros ds v0 vn a vmax H. unfold request in H. constructor; lia. Qed.

Lemma moves_legal : forall a vmax v0 vn d n l,
  moves a (- vmax) vmax v0 vn d n l -> legal v0 vn a vmax l.
Proof.
  intros a vmax v0 vn d n l [M1 M2 M3 M4 M5]. split; [exact M2|]. split; [exact M4|].
  intros v Hv. apply M5 in Hv. lia.
Qed.

Lemma travel_parity : forall l v, Z.even (travel v l) = Z.even (v + final_speed v l).
Proof.
  induction l as [|x l IH]; intros v; cbn [travel final_speed].
  - rewrite Z.add_diag, Z.even_mul. reflexivity.
  - rewrite Z.even_add, IH, !Z.even_add.
    destruct (Z.even v), (Z.even x), (Z.even (final_speed (v + x) l)); reflexivity.
Qed.

(** C10 *)
Theorem C10_split_acc : forall dv a, 0 < a ->
  exists t adj, split_acc dv a = Ok (t, adj) /\
    0 <= t /\ dv = Z.sgn dv * t * a + adj /\ Z.abs adj <= a /\ Z.sgn adj = Z.sgn dv.
Proof.
  intros dv a Ha. unfold split_acc. destruct (Z.eqb_spec a 0); [lia|]. cbn [negb assert bind].
  destruct (Z.compare_spec dv 0) as [->|H|H].
  - exists 0, 0. cbn. repeat split; lia.
  - eexists _, _. split; [reflexivity|].
    pose proof (Z.quot_rem' (dv + 1) a). pose proof (Z.rem_nonpos (dv + 1) a ltac:(lia) ltac:(lia)).
    pose proof (Z.rem_bound_pos_neg (dv + 1) a ltac:(lia) ltac:(lia)).
    set (q := Z.quot (dv + 1) a) in *. set (m := Z.rem (dv + 1) a) in *. clearbody q m.
    assert (q <= 0) by nia.
    rewrite (Z.sgn_neg dv), (Z.sgn_neg (m - 1)) by lia. nia.
  - eexists _, _. split; [reflexivity|].
    pose proof (Z.quot_rem' (dv - 1) a). pose proof (Z.rem_nonneg (dv - 1) a ltac:(lia) ltac:(lia)).
    pose proof (Z.rem_bound_pos_pos (dv - 1) a ltac:(lia) ltac:(lia)).
    set (q := Z.quot (dv - 1) a) in *. set (m := Z.rem (dv - 1) a) in *. clearbody q m.
    assert (0 <= q) by nia.
    rewrite (Z.sgn_pos dv), (Z.sgn_pos (m + 1)) by lia. nia.
Qed.

Example C10_example :
  split_acc 10 5 = Ok (1, 5) /\ split_acc 11 5 = Ok (2, 1) /\ split_acc (-10) 3 = Ok (3, -1) /\
  split_acc 0 3 = Ok (0, 0).
Proof. repeat split. Qed.

(** C11 *)
Theorem C11_planned_path_expands : forall ds v0 vn a vmax, request ds v0 vn a vmax ->
  exists p, shortest_curve ds v0 vn a vmax = Ok p /\
    (p_t_total p <= 65535 -> exists s, acc_seq p = Ok s).
Proof.
  intros ds v0 vn a vmax H. apply request_supported in H.
  destruct (shortest_curve_spec _ _ _ _ _ H) as (r & t & h & p & E & EB & C1 & C2 & Hhi & Hlo & Ht & Es & P).
  destruct P as (P1 & P2 & P3 & P4 & d & l & M & Hd & Hp & S1 & S2).
  exists p. split; [exact Es|]. rewrite P4. exact S1.
Qed.

Example C11_example : request 100 3 (-2) 7 12 /\
  (let! p := shortest_curve 100 3 (-2) 7 12 in acc_seq p) =
  Ok [(1, 7); (1, 2); (1, 0); (1, -1); (1, -6); (1, -7)].
Proof. split; [unfold request; lia|reflexivity]. Qed.

(** C12 *)
Theorem C12_reaches_target : forall ds v0 vn a vmax p s, request ds v0 vn a vmax ->
  shortest_curve ds v0 vn a vmax = Ok p -> acc_seq p = Ok s ->
  Z.of_nat (length (expand s)) = p_t_total p /\
  final_speed v0 (expand s) = vn /\
  Z.abs (travel v0 (expand s) - ds) <= 1 /\
  (Z.even ds = Z.even (v0 + vn) -> travel v0 (expand s) = ds).
Proof.
  intros ds v0 vn a vmax p s H Ep Eq. apply request_supported in H.
  destruct (shortest_curve_spec _ _ _ _ _ H) as (r & t & h & p' & E & EB & C1 & C2 & Hhi & Hlo & Ht & Es & P).
  assert (p' = p) by congruence. subst p'.
  destruct P as (P1 & P2 & P3 & P4 & d & l & M & Hd & Hp & S1 & S2).
  destruct (S2 s Eq) as [_ ->]. destruct M as [M1 M2 M3 M4 M5].
  split; [lia|]. split; [exact M2|]. rewrite M3. split; [exact Hd|].
  intros Hev. rewrite <- M3 in *. pose proof (travel_parity l v0) as Par. rewrite M2 in Par.
  destruct (Z.eq_dec (travel v0 l) ds) as [|Hne]; [auto|]. exfalso.
  assert (Hod : travel v0 l = ds + 1 \/ travel v0 l = ds - 1) by lia.
  rewrite <- Hev in Par. destruct Hod as [Ho|Ho]; rewrite Ho in Par.
  - rewrite Z.even_add in Par. destruct (Z.even ds); discriminate.
  - rewrite Z.even_sub in Par. destruct (Z.even ds); discriminate.
Qed.


Example C12_example : request 100 3 (-2) 7 12 /\
  (let! p := shortest_curve 100 3 (-2) 7 12 in
   let! s := acc_seq p in Ok (p_t_total p, travel 3 (expand s))) = Ok (6, 101) /\
  (let! p := shortest_curve 101 3 (-2) 7 12 in
   let! s := acc_seq p in Ok (p_t_total p, travel 3 (expand s))) = Ok (6, 101).
Proof. split; [unfold request; lia|]. split; reflexivity. Qed.

(** C13 *)
Theorem C13_acceleration_limit : forall ds v0 vn a vmax p s, request ds v0 vn a vmax ->
  shortest_curve ds v0 vn a vmax = Ok p -> acc_seq p = Ok s ->
  forall x, In x (expand s) -> Z.abs x <= a.
Proof.
  intros ds v0 vn a vmax p s H Ep Eq. apply request_supported in H.
  destruct (shortest_curve_spec _ _ _ _ _ H) as (r & t & h & p' & E & EB & C1 & C2 & Hhi & Hlo & Ht & Es & P).
  assert (p' = p) by congruence. subst p'.
  destruct P as (P1 & P2 & P3 & P4 & d & l & M & Hd & Hp & S1 & S2).
  destruct (S2 s Eq) as [_ ->]. apply (mv_acc _ _ _ _ _ _ _ _ M).
Qed.

(** C14 *)
Theorem C14_speed_limit : forall ds v0 vn a vmax p s, request ds v0 vn a vmax ->
  shortest_curve ds v0 vn a vmax = Ok p -> acc_seq p = Ok s ->
  forall v, In v (speeds v0 (expand s)) -> Z.abs v <= vmax.
Proof.
  intros ds v0 vn a vmax p s H Ep Eq. apply request_supported in H.
  destruct (shortest_curve_spec _ _ _ _ _ H) as (r & t & h & p' & E & EB & C1 & C2 & Hhi & Hlo & Ht & Es & P).
  assert (p' = p) by congruence. subst p'.
  destruct P as (P1 & P2 & P3 & P4 & d & l & M & Hd & Hp & S1 & S2).
  destruct (S2 s Eq) as [_ ->]. apply moves_legal in M. apply M.
Qed.

(** A request against the limits: accelerations at the limit, speeds near it. *)
Example C13_C14_example : request (-80) 5 (-5) 3 9 /\
  (let! p := shortest_curve (-80) 5 (-5) 3 9 in
   let! s := acc_seq p in Ok (expand s, speeds 5 (expand s))) =
  Ok ([-3; -3; -3; -3; -1; 0; 1; 0; 2],
      [5; 2; -1; -4; -7; -8; -8; -7; -7; -5]).
Proof. split; [unfold request; lia|reflexivity]. Qed.

(** C15.  The first part excludes every failure but a duration that does not
    fit the 16 bit tick counts; the second holds for whatever is returned. *)
Definition axis_request (l : path_limits) : Prop :=
  request (l_ds l) (l_v0 l) (l_vn l) (l_a l) (l_vmax l).

Definition axis_arrives (t : Z) (l : path_limits) (s : list seg) : Prop :=
  Z.of_nat (length (expand s)) = t /\
  legal (l_v0 l) (l_vn l) (l_a l) (l_vmax l) (expand s) /\
  Z.abs (travel (l_v0 l) (expand s) - l_ds l) <= 1.

Lemma axes_supported : forall limits, Forall axis_request limits -> Forall lim_supported limits.
Proof. intros limits H. eapply Forall_impl; [|exact H]. intros l Hl. apply request_supported, Hl. Qed.

Theorem C15_axes_arrive_together : forall limits,
  limits <> [] -> Forall axis_request limits ->
  exists t, 1 <= t /\
     (t <= 65535 -> exists ss, shortest_curve_sequences limits = Ok ss) /\
     (forall ss, shortest_curve_sequences limits = Ok ss -> Forall2 (axis_arrives t) limits ss).
Proof.
  intros limits Hne H. apply axes_supported in H.
  destruct (sequences_spec limits Hne H) as (t & r & h & E & EB & Ht & C1 & C2 & Es & HF).
  destruct (seqs_for_spec t limits Ht H HF) as [S1 S2].
  exists t. split; [exact Ht|]. rewrite Es. split; [exact S1|].
  intros ss Hss. apply S2 in Hss. clear - Hss.
  induction Hss as [|l s limits ss (Ty & d & M & Hd)]; constructor; auto.
  split; [apply (mv_len _ _ _ _ _ _ _ _ M)|]. split; [exact (moves_legal _ _ _ _ _ _ _ M)|].
  rewrite (mv_dist _ _ _ _ _ _ _ _ M). exact Hd.
Qed.

(** The common duration is the shortest that every axis offers. *)
Theorem C15_common_duration_least : forall limits ss,
  limits <> [] -> Forall axis_request limits -> shortest_curve_sequences limits = Ok ss ->
  forall s, In s ss ->
  (forall l, In l limits -> exists r,
     shortest_curve_length (l_ds l) (l_v0 l) (l_vn l) (l_a l) (l_vmax l) = Ok r /\
     covers r (Z.of_nat (length (expand s)))) /\
  (forall t, i64_min <= t < i64_max ->
     (forall l, In l limits -> exists r,
        shortest_curve_length (l_ds l) (l_v0 l) (l_vn l) (l_a l) (l_vmax l) = Ok r /\ covers r t) ->
     Z.of_nat (length (expand s)) <= t).
Proof.
  intros limits ss Hne H Hss s Hs. apply axes_supported in H.
  destruct (sequences_spec limits Hne H) as (t & r & h & E & EB & Ht & C1 & C2 & Es & HF).
  destruct (seqs_for_spec t limits Ht H HF) as [S1 S2].
  rewrite Es in Hss. apply S2 in Hss.
  assert (L : Z.of_nat (length (expand s)) = t).
  { clear - Hss Hs. induction Hss as [|l s' limits ss (Ty & d & M & Hd)]; [destruct Hs|].
    destruct Hs as [->|Hs]; [apply (mv_len _ _ _ _ _ _ _ _ M)|auto]. }
  rewrite L.
  destruct (and_limits_spec limits [(i64_min, i64_max)]) as (r' & E' & O & N & _ & C & T); auto.
  { constructor. unfold i64_min, i64_max. lia. }
  { intros l h' [K|[]]. injection K as <- <-. unfold i64_min, i64_max. lia. }
  { intros x Hx. apply covers_one. unfold i64_min. lia. }
  assert (r' = r) by congruence. subst r'.
  apply C in C1. destruct C1 as [_ C1]. rewrite Forall_forall in C1. split.
  - intros l Hl. destruct (C1 l Hl) as (rl & K1 & K2). exists rl. auto.
  - intros x Hx Hall. apply C2. apply C. split; [apply covers_one; exact Hx|].
    rewrite Forall_forall. intros l Hl. exact (Hall l Hl).
Qed.

Example C15_example :
  Forall axis_request [mk_limits 100 3 (-2) 7 12; mk_limits (-1) 0 0 1 3] /\
  shortest_curve_sequences [mk_limits 100 3 (-2) 7 12; mk_limits (-1) 0 0 1 3] =
  Ok [[(1, 7); (1, 2); (1, 0); (1, -1); (1, -6); (1, -7)]; [(1, -1); (1, 1); (4, 0)]].
Proof.
  split; [repeat constructor; cbn; lia|reflexivity].
Qed.

(** C16 *)
Theorem C16_durations_achievable : forall ds v0 vn a vmax r t, request ds v0 vn a vmax ->
  shortest_curve_length ds v0 vn a vmax = Ok r -> covers r t ->
  exists accs, Z.of_nat (length accs) = t /\ legal v0 vn a vmax accs /\
     Z.abs (travel v0 accs - ds) <= 1.
Proof.
  intros ds v0 vn a vmax r t H Er Ct. apply request_supported in H.
  destruct (shortest_curve_length_spec _ _ _ _ _ H) as (r' & E & O & N & C & T).
  assert (r' = r) by congruence. subst r'. destruct (C t Ct) as (Ht & Hhi & Hlo).
  destruct (plan_at ds v0 vn a vmax t H ltac:(lia) Hhi Hlo) as (p & Ep & P).
  destruct P as (P1 & P2 & P3 & P4 & d & l & M & Hd & Hp & S1 & S2).
  exists l. split; [apply (mv_len _ _ _ _ _ _ _ _ M)|]. split; [exact (moves_legal _ _ _ _ _ _ _ M)|].
  rewrite (mv_dist _ _ _ _ _ _ _ _ M). exact Hd.
Qed.

Example C16_example : request 4 2 2 1 2 /\
  shortest_curve_length 4 2 2 1 2 = Ok [(7, i64_max)] /\
  shortest_curve_length 40 20 3 2 20 = Ok [(25, i64_max)].
Proof. split; [unfold request; lia|]. split; reflexivity. Qed.

(** C17.  What the planner returns is never shorter than the change of velocity
    allows, and that is a bound for every competing sequence. *)
Theorem C17_duration_bound : forall ds v0 vn a vmax p, request ds v0 vn a vmax ->
  shortest_curve ds v0 vn a vmax = Ok p ->
  1 <= p_t_total p /\ Z.abs (vn - v0) <= a * p_t_total p.
Proof.
  intros ds v0 vn a vmax p H Ep. apply request_supported in H.
  destruct (shortest_curve_spec _ _ _ _ _ H) as (r & t & h & p' & E & EB & C1 & C2 & Hhi & Hlo & Ht & Es & P).
  assert (p' = p) by congruence. subst p'. destruct H as [Hds Ha Hv H0 Hn].
  destruct P as (P1 & P2 & P3 & P4 & d & l & M & _). rewrite P4. split; [exact Ht|].
  destruct Hhi as (m & Hm0 & Hmn & Hmv & Hmf & _).
  pose proof (feas_diff v0 vn a t m ltac:(lia) ltac:(lia) ltac:(lia) Hmf). lia.
Qed.

Theorem C17_change_bound : forall v0 vn a vmax accs, legal v0 vn a vmax accs ->
  Z.abs (vn - v0) <= a * Z.of_nat (length accs).
Proof.
  intros v0 vn a vmax accs (Hf & Ha & _). rewrite <- Hf. clear Hf. revert v0.
  induction accs as [|x l IH]; intros v0; cbn [final_speed length].
  - rewrite Z.sub_diag. cbn. lia.
  - specialize (IH (fun y Hy => Ha y (or_intror Hy)) (v0 + x)).
    pose proof (Ha x (or_introl eq_refl)). lia.
Qed.

(** Not the shortest, and by no constant factor: moving on at speed [v] for one
    tick is possible in one tick but takes at least 4 * v - 1. *)
Theorem C17_not_shortest_refuted : forall v, 1 <= v <= 2 ^ 20 ->
  request (2 * v) v v 1 v /\ legal v v 1 v [0] /\ travel v [0] = 2 * v /\
  forall p, shortest_curve (2 * v) v v 1 v = Ok p -> 4 * v - 1 <= p_t_total p.
Proof.
  intros v Hv. assert (R : request (2 * v) v v 1 v) by (unfold request; lia).
  split; [exact R|]. split.
  { split; [cbn [travel final_speed]; lia|]. split; [intros x [<-|[]]; cbn; lia|].
    intros x [<-|[<-|[]]]; lia. }
  split; [cbn [travel final_speed]; lia|].
  intros p Ep. apply request_supported in R.
  destruct (shortest_curve_spec _ _ _ _ _ R) as (r & t & h & p' & E & EB & C1 & C2 & Hhi & Hlo & Ht & Es & P).
  assert (p' = p) by congruence. subst p'. destruct P as (P1 & P2 & P3 & P4 & _). rewrite P4.
  rewrite shortest_curve_length_halves in E.
  destruct (half_range_spec _ _ _ _ _ R) as (hp & Ehp & Op & _). rewrite Ehp in E. cbn [bind] in E.
  pose proof (supported_opp _ _ _ _ _ R) as R'.
  destruct (half_range_spec _ _ _ _ _ R') as (hn & Ehn & On & _). rewrite Ehn in E. cbn [bind] in E.
  injection E as <-. apply (mr_and_range_ordered hp hn Op On) in C1. destruct C1 as [_ C1].
  unfold half_range in Ehn.
  destruct (speed_limited_spec _ _ _ _ _ R') as [[Hlt E]|(Hge & _)].
  - rewrite E in Ehn. cbn [bind mr_is_empty] in Ehn.
    destruct (max_acceleration_spec _ _ _ _ _ R') as (r & Er & _ & _ & K & _).
    assert (r = hn) by congruence. subst r. apply K in C1. destruct C1 as (_ & K1 & K2).
    unfold slack in K1, K2. clear - K1 K2 Ht Hv. nia.
  - exfalso. unfold s0_ in Hge. clear - Hge Hv. unfold F in Hge.
    assert (T : tk 1 (v - - v) = 2 * v) by (unfold tk; rewrite Z.div_1_r; lia).
    unfold Lf in Hge. rewrite T in Hge. destruct (Z.leb_spec 0 (v - - v)); [|lia]. nia.
Qed.

Example C17_example :
  (let! p := shortest_curve 4 2 2 1 2 in Ok (p_t_total p)) = Ok 7 /\
  (let! p := shortest_curve 2 1 1 1 1 in Ok (p_t_total p)) = Ok 3.
Proof. split; reflexivity. Qed.

(** C19 *)
Theorem C19_distance : forall ds v0 vn a vmax p s, request ds v0 vn a vmax ->
  shortest_curve ds v0 vn a vmax = Ok p -> acc_seq p = Ok s ->
  path_dist p = Ok (travel v0 (expand s)).
Proof.
  intros ds v0 vn a vmax p s H Ep Eq. apply request_supported in H.
  destruct (shortest_curve_spec _ _ _ _ _ H) as (r & t & h & p' & E & EB & C1 & C2 & Hhi & Hlo & Ht & Es & P).
  assert (p' = p) by congruence. subst p'.
  destruct P as (P1 & P2 & P3 & P4 & d & l & M & Hd & Hp & S1 & S2).
  destruct (S2 s Eq) as [_ ->]. rewrite (mv_dist _ _ _ _ _ _ _ _ M). exact Hp.
Qed.

(** The same for the path of any duration offered, as used for one of several axes. *)
Theorem C19_distance_any_duration : forall ds v0 vn a vmax r t p s, request ds v0 vn a vmax ->
  shortest_curve_length ds v0 vn a vmax = Ok r -> covers r t ->
  adjust_curve t ds v0 vn a = Ok p -> acc_seq p = Ok s ->
  path_dist p = Ok (travel v0 (expand s)).
Proof.
  intros ds v0 vn a vmax r t p s H Er Ct Ep Eq. apply request_supported in H.
  destruct (shortest_curve_length_spec _ _ _ _ _ H) as (r' & E & O & N & C & T).
  assert (r' = r) by congruence. subst r'. destruct (C t Ct) as (Ht & Hhi & Hlo).
  destruct (plan_at ds v0 vn a vmax t H ltac:(lia) Hhi Hlo) as (p' & Ep' & P).
  assert (p' = p) by congruence. subst p'.
  destruct P as (P1 & P2 & P3 & P4 & d & l & M & Hd & Hp & S1 & S2).
  destruct (S2 s Eq) as [_ ->]. rewrite (mv_dist _ _ _ _ _ _ _ _ M). exact Hp.
Qed.

Example C19_example :
  (let! p := shortest_curve 100 3 (-2) 7 12 in path_dist p) = Ok 101 /\
  (let! p := adjust_curve 50 100 3 (-2) 7 in
   let! s := acc_seq p in let! d := path_dist p in Ok (d, travel 3 (expand s))) = Ok (101, 101).
Proof. split; reflexivity. Qed.

(** C20 *)
Theorem C20_mirror_durations : forall ds v0 vn a vmax, request ds v0 vn a vmax ->
  exists r r', shortest_curve_length ds v0 vn a vmax = Ok r /\
     shortest_curve_length (- ds) (- v0) (- vn) a vmax = Ok r' /\
     forall t, covers r t <-> covers r' t.
Proof.
  intros ds v0 vn a vmax H. apply request_supported in H. pose proof (supported_opp _ _ _ _ _ H) as H'.
  rewrite !shortest_curve_length_halves, !Z.opp_involutive.
  destruct (half_range_spec _ _ _ _ _ H) as (hp & -> & Op & _).
  destruct (half_range_spec _ _ _ _ _ H') as (hn & -> & On & _). cbn [bind].
  exists (mr_and_range hp hn), (mr_and_range hn hp).
  split; [reflexivity|]. split; [reflexivity|]. intro t.
  destruct (mr_and_range_ordered hp hn Op On) as [_ C1]. destruct (mr_and_range_ordered hn hp On Op) as [_ C2].
  rewrite C1, C2. tauto.
Qed.

Theorem C20_mirror_time : forall ds v0 vn a vmax, request ds v0 vn a vmax ->
  exists p p', shortest_curve ds v0 vn a vmax = Ok p /\
     shortest_curve (- ds) (- v0) (- vn) a vmax = Ok p' /\ p_t_total p = p_t_total p'.
Proof.
  intros ds v0 vn a vmax H. destruct (C20_mirror_durations _ _ _ _ _ H) as (r & r' & E1 & E2 & C).
  apply request_supported in H. pose proof (supported_opp _ _ _ _ _ H) as H'.
  destruct (shortest_curve_spec _ _ _ _ _ H) as (q & t & h & p & E & EB & K1 & K2 & _ & _ & _ & Es & P).
  destruct (shortest_curve_spec _ _ _ _ _ H') as (q' & t' & h' & p' & E' & EB' & K1' & K2' & _ & _ & _ & Es' & P').
  exists p, p'. split; [exact Es|]. split; [exact Es'|].
  destruct P as (_ & _ & _ & -> & _). destruct P' as (_ & _ & _ & -> & _).
  assert (q = r) by congruence. assert (q' = r') by congruence. subst.
  apply C in K1. apply C in K1'. apply K2' in K1. apply K2 in K1'. lia.
Qed.

Example C20_example :
  (let! p := shortest_curve 100 3 (-2) 7 12 in Ok (p_t_total p)) = Ok 6 /\
  (let! p := shortest_curve (-100) (-3) 2 7 12 in Ok (p_t_total p)) = Ok 6 /\
  (let! p := shortest_curve 101 (-3) 2 7 12 in Ok (p_t_total p)) = Ok 7.
Proof. repeat split. Qed.

Print Assumptions C10_split_acc.
Print Assumptions C11_planned_path_expands.
Print Assumptions C12_reaches_target.
Print Assumptions C13_acceleration_limit.
Print Assumptions C14_speed_limit.
Print Assumptions C15_axes_arrive_together.
Print Assumptions C15_common_duration_least.
Print Assumptions C16_durations_achievable.
Print Assumptions C17_duration_bound.
Print Assumptions C17_change_bound.
Print Assumptions C17_not_shortest_refuted.
Print Assumptions C19_distance.
Print Assumptions C19_distance_any_duration.
Print Assumptions C20_mirror_durations.
Print Assumptions C20_mirror_time.
