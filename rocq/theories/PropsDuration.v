(** Property C96: how long planned moves take, and when they can be stored. *)
From Coq Require Import ZArith List Bool Lia.
From Coq Require Import ZifyBool ZifyNat.
From Verif Require Import Base MultiRange MultiRangeSpec MultiRangeProofs Solve SolveProofs AccVector AccVectorProofs MotionSpec
  IntegerCurve CurveArith AccSeqProofs AccSeqSpec CurveAdjust AdjustSpec RangeProofs PlanProofs PropsIntegerCurve.
Import ListNotations.
Open Scope Z_scope.

(** ** Every duration that is long enough is offered *)

Lemma ramp_loss : forall a u, 0 < a -> 0 <= u -> u * u <= a * Lf a u <= u * u + a * u.
Proof.
  intros a u Ha Hu. destruct (split_pos a u Ha Hu) as (q & s & -> & Hq & Hs). rewrite Lf_at by lia.
  assert (s * s <= a * s) by nia.
  replace ((a * q + s) * (a * q + s)) with (a * (a * q * q + s * (2 * q)) + s * s) by ring.
  replace (a * (a * q * q + s * (2 * q + 1))) with (a * (a * q * q + s * (2 * q)) + a * s) by ring.
  assert (0 <= a * (a * q)) by nia. nia.
Qed.

Lemma ramp_time : forall a u, 0 < a -> 0 <= u -> a * tk a u <= u + a - 1.
Proof. intros a u Ha Hu. unfold tk. rewrite Z.abs_eq by lia. apply Z.mul_div_le. lia. Qed.

(** At full speed and with both ramps, the distance is covered. *)
Definition long (ds a vmax t : Z) : Prop := a * Z.abs ds + 8 * (vmax * vmax) <= 2 * a * vmax * (t - 2).

Lemma long_acc : forall ds a vmax t, 0 < a -> 0 < vmax -> long ds a vmax t -> 4 * vmax <= a * (t - 2).
Proof.
  intros ds a vmax t Ha Hv H. unfold long in H. assert (0 <= a * Z.abs ds) by nia.
  replace (2 * a * vmax * (t - 2)) with (2 * vmax * (a * (t - 2))) in H by ring.
  assert (2 * vmax * (4 * vmax) <= 2 * vmax * (a * (t - 2))) by lia. nia.
Qed.

Lemma long_reaches : forall ds v0 vn a vmax t, supported ds v0 vn a vmax -> long ds a vmax t -> ds <= F v0 vn a t vmax.
Proof.
  intros ds v0 vn a vmax t [Hds Ha Hv H0 Hn] H. unfold F, long in *.
  pose proof (ramp_loss a (vmax - v0) ltac:(lia) ltac:(lia)) as [_ L1]. pose proof (ramp_loss a (vmax - vn) ltac:(lia) ltac:(lia)) as [_ L2].
  set (l1 := Lf a (vmax - v0)) in *. set (l2 := Lf a (vmax - vn)) in *. clearbody l1 l2.
  assert (K : forall u, 0 <= u <= 2 * vmax -> u * u + a * u <= 4 * (vmax * vmax) + 2 * (a * vmax)) by (intros u Hu; clear - Hu Ha Hv; nia).
  pose proof (K (vmax - v0) ltac:(lia)). pose proof (K (vmax - vn) ltac:(lia)).
  assert (A : a * ds <= a * Z.abs ds) by (apply Z.mul_le_mono_nonneg_l; lia).
  assert (G : a * ds <= a * (2 * vmax * t - l1 - l2)).
  { replace (a * (2 * vmax * t - l1 - l2)) with (2 * a * vmax * (t - 2) + 4 * (a * vmax) - a * l1 - a * l2) by ring. lia. }
  clear - G Ha. nia.
Qed.

Lemma long_slack : forall ds v0 vn a vmax t, supported ds v0 vn a vmax -> ds < s0_ v0 vn a vmax -> 4 * vmax <= a * (t - 2) ->
  0 <= slack ds v0 vn a t.
Proof.
  intros ds v0 vn a vmax t [Hds Ha Hv H0 Hn] Hs Ht. unfold slack.
  assert (S0 : a * s0_ v0 vn a vmax <= 2 * (vmax * vmax) - v0 * v0 - vn * vn + 4 * (a * vmax)).
  { unfold s0_, F.
    pose proof (ramp_loss a (vmax - v0) ltac:(lia) ltac:(lia)) as [L1 _]. pose proof (ramp_loss a (vmax - vn) ltac:(lia) ltac:(lia)) as [L2 _].
    pose proof (ramp_time a (vmax - v0) ltac:(lia) ltac:(lia)) as T1. pose proof (ramp_time a (vmax - vn) ltac:(lia) ltac:(lia)) as T2.
    set (l1 := Lf a (vmax - v0)) in *. set (l2 := Lf a (vmax - vn)) in *. set (t1 := tk a (vmax - v0)) in *. set (t2 := tk a (vmax - vn)) in *.
    clearbody l1 l2 t1 t2.
    assert (P1 : 2 * vmax * (a * t1) <= 2 * vmax * (vmax - v0 + a)) by (apply Z.mul_le_mono_nonneg_l; lia).
    assert (P2 : 2 * vmax * (a * t2) <= 2 * vmax * (vmax - vn + a)) by (apply Z.mul_le_mono_nonneg_l; lia).
    replace (a * (2 * vmax * (t1 + t2) - l1 - l2)) with (2 * vmax * (a * t1) + 2 * vmax * (a * t2) - a * l1 - a * l2) by ring. nia. }
  assert (D : a * ds <= a * s0_ v0 vn a vmax) by (apply Z.mul_le_mono_nonneg_l; lia).
  set (s0 := s0_ v0 vn a vmax) in *. clearbody s0.
  (* (a t + v0 + vn)^2 >= (2 vmax + 2 a)^2 *)
  assert (Q : 2 * vmax + 2 * a <= a * t + v0 + vn) by lia.
  set (w := a * t + v0 + vn) in *.
  assert (W : (2 * vmax + 2 * a) * (2 * vmax + 2 * a) <= w * w) by (apply Z.mul_le_mono_nonneg; lia).
  replace (a * a * t * t + 2 * a * (v0 + vn) * t - ((v0 - vn) * (v0 - vn) + a * (a + 2 * ds)))
    with (w * w - 2 * (v0 * v0) - 2 * (vn * vn) - a * a - 2 * (a * ds)) by (unfold w; ring).
  clearbody w. nia.
Qed.

Lemma half_long : forall ds v0 vn a vmax r t, supported ds v0 vn a vmax -> half_range ds v0 vn a vmax = Ok r ->
  long ds a vmax t -> t < i64_max -> covers r t.
Proof.
  intros ds v0 vn a vmax r t Hs E Hl Hi. pose proof Hs as [Hds Ha Hv H0 Hn].
  pose proof (long_acc ds a vmax t ltac:(lia) ltac:(lia) Hl) as Hw. unfold half_range in E.
  destruct (speed_limited_spec ds v0 vn a vmax Hs) as [[Hlt Es]|(Hge & x & Es & Hx & HF)]; rewrite Es in E; cbn [bind mr_is_empty] in E.
  - destruct (max_acceleration_spec ds v0 vn a vmax Hs) as (r' & Er & _ & _ & _ & C & _).
    assert (r' = r) by congruence. subst r'. apply C.
    + split; [|exact Hi]. unfold tmin. destruct (Z.eqb_spec v0 vn); [clear - Ha Hv Hw; nia|].
      apply tk_le_iff; [lia|clear - Ha Hv Hw; nia|]. clear - Ha Hv Hw H0 Hn. nia.
    + eapply long_slack; eauto.
    + rewrite acc_vertex_eq. pose proof (vertex_near a (2 * (v0 + vn)) ltac:(lia)) as K. set (x := vertex _ _) in *. clearbody x.
      clear - K Ha Hv Hw H0 Hn. nia.
  - injection E as <-. apply covers_one. split; [|exact Hi]. apply HF. eapply long_reaches; eauto.
Qed.

Lemma long_opp : forall ds a vmax t, long ds a vmax t -> long (- ds) a vmax t.
Proof. intros ds a vmax t H. unfold long in *. rewrite Z.abs_opp. exact H. Qed.

Lemma length_long : forall ds v0 vn a vmax r t, supported ds v0 vn a vmax -> shortest_curve_length ds v0 vn a vmax = Ok r ->
  long ds a vmax t -> t < i64_max -> covers r t.
Proof.
  intros ds v0 vn a vmax r t Hs E Hl Hi. rewrite shortest_curve_length_halves in E.
  destruct (half_range_spec ds v0 vn a vmax Hs) as (p & Ep & Op & _).
  destruct (half_range_spec _ _ _ _ _ (supported_opp _ _ _ _ _ Hs)) as (q & Eq & Oq & _).
  rewrite Ep, Eq in E. cbn [bind] in E. injection E as <-. apply (mr_and_range_ordered p q Op Oq). split.
  - eapply half_long; eauto.
  - eapply half_long; [apply supported_opp, Hs|exact Eq|apply long_opp, Hl|exact Hi].
Qed.

(** ** One axis *)

(** The planned duration is at most |ds| / (2 vmax) + 4 vmax / a + 3. *)
Theorem C96_upper : forall ds v0 vn a vmax p, request ds v0 vn a vmax -> shortest_curve ds v0 vn a vmax = Ok p ->
  2 * a * vmax * (p_t_total p - 3) <= a * Z.abs ds + 8 * (vmax * vmax).
Proof.
  intros ds v0 vn a vmax p H Ep. apply request_supported in H. pose proof H as [Hds Ha Hv H0 Hn].
  destruct (shortest_curve_spec _ _ _ _ _ H) as (r & t & h & p' & E & EB & C1 & C2 & Hhi & Hlo & Ht & Es & P).
  assert (p' = p) by congruence. subst p'. destruct P as (_ & _ & _ & -> & _).
  assert (N : ~ long ds a vmax (t - 1)).
  { intros L. destruct (shortest_curve_length_spec _ _ _ _ _ H) as (r' & E' & _ & _ & C & _).
    assert (r' = r) by congruence. subst r'. specialize (C t C1).
    assert (K : covers r (t - 1)) by (eapply length_long; eauto; lia). specialize (C2 _ K). lia. }
  unfold long in N. replace (t - 1 - 2) with (t - 3) in N by lia. lia.
Qed.

Lemma far_legal : forall vmax accs v, 0 <= vmax -> (forall w, In w (speeds v accs) -> Z.abs w <= vmax) ->
  Z.abs (travel v accs) <= 2 * vmax * Z.of_nat (length accs).
Proof.
  intros vmax accs. induction accs as [|x l IH]; intros v Hv H; cbn [travel length]; [cbn; lia|].
  cbn [speeds] in H. assert (A : Z.abs v <= vmax) by (apply H; left; reflexivity).
  assert (B : Z.abs (v + x) <= vmax).
  { apply H. right. destruct l; cbn [speeds]; left; reflexivity. }
  specialize (IH (v + x) Hv (fun w Hw => H w (or_intror Hw))). lia.
Qed.

(** No move is planned more than 4 vmax / a + 4 ticks longer than any legal move over the same
    distance takes. *)
Theorem C96_near_best : forall ds v0 vn a vmax p accs, request ds v0 vn a vmax -> shortest_curve ds v0 vn a vmax = Ok p ->
  legal v0 vn a vmax accs -> Z.abs (travel v0 accs - ds) <= 1 ->
  a * (p_t_total p - Z.of_nat (length accs)) <= 4 * vmax + 4 * a.
Proof.
  intros ds v0 vn a vmax p accs R E (_ & _ & S) D. pose proof (C96_upper _ _ _ _ _ _ R E) as U. destruct R as (_ & Ha & Hv & _).
  pose proof (far_legal vmax accs v0 ltac:(lia) S) as T. set (n := Z.of_nat (length accs)) in *. set (t := p_t_total p) in *. clearbody n t.
  assert (A : a * Z.abs ds <= a * (2 * vmax * n + 1)) by (apply Z.mul_le_mono_nonneg_l; lia).
  assert (B : 2 * vmax * (a * (t - n - 3)) <= 2 * vmax * (4 * vmax) + a).
  { replace (2 * vmax * (a * (t - n - 3))) with (2 * a * vmax * (t - 3) - a * (2 * vmax * n)) by ring. lia. }
  assert (G : a * (t - n - 3) <= 4 * vmax + a); [|lia].
  clear - B Ha Hv. nia.
Qed.

(** The bound cannot be improved by much: at full speed all along, the plan for two ticks' distance
    takes 4 vmax - 1 ticks at least and 4 vmax + 4 at most. *)
Theorem C96_tight : forall v p, 1 <= v <= 2 ^ 20 -> shortest_curve (2 * v) v v 1 v = Ok p ->
  legal v v 1 v [0] /\ travel v [0] = 2 * v /\ 4 * v - 1 <= p_t_total p <= 4 * v + 4.
Proof.
  intros v p Hv E. destruct (C17_not_shortest_refuted v Hv) as (R & L & T & B). split; [exact L|]. split; [exact T|].
  split; [apply B, E|]. pose proof (C96_upper _ _ _ _ _ _ R E) as U. rewrite Z.abs_eq in U by lia.
  set (t := p_t_total p) in *. clearbody t. clear - U Hv. nia.
Qed.

(** Any move that is not too far and not too slowly accelerated can be planned and stored. *)
Definition storable (ds a vmax : Z) : Prop := a * Z.abs ds + 8 * (vmax * vmax) < 2 * a * vmax * 65533.

Theorem C96_stored : forall ds v0 vn a vmax, request ds v0 vn a vmax -> storable ds a vmax ->
  exists p s, shortest_curve ds v0 vn a vmax = Ok p /\ p_t_total p <= 65535 /\ acc_seq p = Ok s.
Proof.
  intros ds v0 vn a vmax R S. destruct (C11_planned_path_expands _ _ _ _ _ R) as (p & Ep & X).
  pose proof (C96_upper _ _ _ _ _ _ R Ep) as U.
  assert (T : p_t_total p <= 65535).
  { destruct R as (_ & Ha & Hv & _). unfold storable in S. set (t := p_t_total p) in *. clearbody t.
    assert (K : 2 * a * vmax * (t - 3) < 2 * a * vmax * 65533) by lia.
    assert (0 < 2 * a * vmax) by (clear - Ha Hv; nia). clear - K H. nia. }
  destruct (X T) as [s Es]. exists p, s. auto.
Qed.

(** ** Several axes *)

Lemma common_duration : forall limits r t h, limits <> [] -> Forall lim_supported limits ->
  and_limits [(i64_min, i64_max)] limits = Ok r -> mr_bounds r = Some (t, h) ->
  Forall (fun l => storable (l_ds l) (l_a l) (l_vmax l)) limits -> t <= 65535.
Proof.
  intros limits r t h Hne HS E EB St.
  destruct (and_limits_spec limits [(i64_min, i64_max)]) as (r' & E' & O & N & C & I & T); auto.
  { constructor. unfold i64_min, i64_max. lia. }
  { intros l k [K|[]]. injection K as <- <-. unfold i64_min, i64_max. lia. }
  { intros k Hk. apply covers_one. unfold i64_min. lia. }
  assert (r' = r) by congruence. subst r'.
  pose proof (mr_bounds_spec r O N) as HB. rewrite EB in HB. destruct HB as (_ & _ & B).
  assert (K : covers r 65535); [|apply B in K; lia].
  apply I. split; [apply covers_one; unfold i64_min, i64_max; lia|]. rewrite Forall_forall in *. intros l Hl.
  destruct (shortest_curve_length_spec _ _ _ _ _ (HS l Hl)) as (rl & El & _). exists rl. split; [exact El|].
  eapply length_long; [apply HS, Hl|exact El| |unfold i64_max; lia]. specialize (St l Hl). unfold storable, long in *. lia.
Qed.

(** If every axis alone can be stored, they can be together. *)
Theorem C96_axes : forall limits, limits <> [] -> Forall axis_request limits ->
  Forall (fun l => storable (l_ds l) (l_a l) (l_vmax l)) limits ->
  exists t ss, t <= 65535 /\ shortest_curve_sequences limits = Ok ss /\ Forall2 (axis_arrives t) limits ss.
Proof.
  intros limits Hne H St. pose proof (axes_supported _ H) as HS.
  destruct (sequences_spec limits Hne HS) as (t & r & h & E & EB & Ht & C1 & C2 & Es & HF).
  pose proof (common_duration limits r t h Hne HS E EB St) as B.
  destruct (seqs_for_spec t limits Ht HS HF) as [S1 S2]. destruct (S1 B) as [ss Ess].
  exists t, ss. split; [exact B|]. split; [congruence|].
  specialize (S2 ss Ess). clear - S2. induction S2 as [|l s ls ss (_ & d & M & D) _ IH]; constructor; [|exact IH].
  split; [exact (mv_len _ _ _ _ _ _ _ _ M)|]. split; [exact (moves_legal _ _ _ _ _ _ _ M)|].
  rewrite (mv_dist _ _ _ _ _ _ _ _ M). exact D.
Qed.

Example C96_example : request 100000000 30000 (-20000) 70 40000 /\ storable 100000000 70 40000 /\
  Forall axis_request [mk_limits (-100) 30000 (-20000) 70 40000; mk_limits (-1000) 0 0 1 3] /\
  Forall (fun l => storable (l_ds l) (l_a l) (l_vmax l)) [mk_limits (-100) 30000 (-20000) 70 40000; mk_limits (-1000) 0 0 1 3] /\
  request 12 0 0 1 3 /\ legal 0 0 1 3 [1; 1; 0; -1; -1] /\ travel 0 [1; 1; 0; -1; -1] = 12.
Proof.
  split; [unfold request; lia|]. split; [unfold storable; lia|].
  split; [repeat constructor; cbn; lia|]. split; [repeat constructor; unfold storable; cbn; lia|].
  split; [unfold request; lia|]. split; [|reflexivity].
  split; [reflexivity|]. split.
  - intros x Hx. cbn in Hx. lia.
  - intros x Hx. cbn in Hx. lia.
Qed.

Print Assumptions C96_upper.
Print Assumptions C96_near_best.
Print Assumptions C96_tight.
Print Assumptions C96_stored.
Print Assumptions C96_axes.
