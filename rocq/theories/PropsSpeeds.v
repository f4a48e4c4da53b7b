(** Property C99: the planner for speeds at the ends beyond the speed limit. *)
From Coq Require Import ZArith List Bool Lia.
From Coq Require Import ZifyBool ZifyNat.
From Verif Require Import Base MultiRange MultiRangeSpec MultiRangeProofs Solve SolveProofs
  AccVector AccVectorProofs MotionSpec
  IntegerCurve CurveArith AccSeqProofs AccSeqSpec CurveAdjust AdjustSpec RangeProofs PlanProofs PropsIntegerCurve.
Import ListNotations.
Open Scope Z_scope.

(** As [request], without the condition that the speeds at the ends keep the limit. *)
Definition any_request (ds v0 vn a vmax : Z) : Prop :=
  Z.abs ds <= 2 ^ 40 /\ 1 <= a <= 32767 /\ 1 <= vmax <= 2 ^ 20 /\
  Z.abs v0 <= 2 ^ 20 /\ Z.abs vn <= 2 ^ 20.

(** The highest speed that has to be allowed, and one for both directions. *)
Definition up (v0 vn vmax : Z) : Z := Z.max vmax (Z.max v0 vn).
Definition top (v0 vn vmax : Z) : Z := Z.max vmax (Z.max (Z.abs v0) (Z.abs vn)).

Lemma any_supported : forall ds v0 vn a vmax, any_request ds v0 vn a vmax -> supported ds v0 vn a (top v0 vn vmax).
Proof. intros ds v0 vn a vmax H. unfold any_request in H. unfold top. constructor; lia. Qed.

Lemma any_opp : forall ds v0 vn a vmax, any_request ds v0 vn a vmax -> any_request (- ds) (- v0) (- vn) a vmax.
Proof. unfold any_request. intros. lia. Qed.

(** ** Loss of a ramp *)

Lemma Lf_nonneg : forall a u, 0 < a -> 0 <= u -> 0 <= Lf a u.
Proof. intros a u Ha Hu. destruct (split_pos a u Ha Hu) as (q & s & -> & Hq & Hs). rewrite Lf_at by lia. nia. Qed.

Lemma Lf_square : forall a u, 0 < a -> u * u <= a * Lf a (Z.abs u).
Proof.
  intros a u Ha. rewrite <- (Z.abs_square u). assert (Hu : 0 <= Z.abs u) by lia. set (w := Z.abs u) in *. clearbody w.
  destruct (split_pos a w Ha Hu) as (q & s & -> & Hq & Hs). rewrite Lf_at by lia. nia.
Qed.

(** Ramping further costs less than twice the time for every unit of speed. *)
Lemma Lf_step : forall a y x T, 0 < a -> 0 <= y -> 0 <= x -> y + x <= a * T -> Lf a (y + x) - Lf a y <= x * (2 * T - 1).
Proof.
  intros a y x T Ha Hy Hx. revert T. pattern x. apply natlike_ind; [|clear x Hx|exact Hx].
  - intros T _. rewrite Z.add_0_r. lia.
  - intros x Hx IH T HT. replace (y + Z.succ x) with (y + x + 1) by lia.
    pose proof (Lf_diff_pos a (y + x) Ha ltac:(lia)) as D. specialize (IH T ltac:(lia)).
    assert (fl a (y + x) <= T - 1); [|nia].
    unfold fl. destruct (Z.leb_spec 0 (y + x)); [|lia].
    assert ((y + x) / a < T); [|lia]. apply Z.div_lt_upper_bound; lia.
Qed.

(** ** The speed limited duration *)

(** [t1] and [t4] of speed_limited_curve. *)
Definition tc (a u : Z) : Z := (u + a - 1) / a.

(** Distance at the speed limit, less the losses of both ramps. *)
Definition G (v0 vn a vmax T : Z) : Z := 2 * vmax * T - Lf a (Z.abs (vmax - v0)) - Lf a (Z.abs (vmax - vn)).

Lemma ramp_part : forall a vmax v, 0 < a ->
  (2 * v + tc a (vmax - v) * a) * tc a (vmax - v) + ((vmax - v + a - 1) mod a - (a - 1)) =
  2 * vmax * tc a (vmax - v) - Lf a (Z.abs (vmax - v)).
Proof.
  intros a vmax v Ha. set (u := vmax - v). replace vmax with (v + u) by (unfold u; lia). clearbody u. unfold tc.
  pose proof (Z.div_mod (u + a - 1) a ltac:(lia)) as D. pose proof (Z.mod_pos_bound (u + a - 1) a Ha) as B.
  set (t := (u + a - 1) / a) in *. set (m := (u + a - 1) mod a) in *. clearbody t m.
  destruct (Z_le_gt_dec 0 u) as [P|P].
  - rewrite Z.abs_eq by lia. destruct (Z.eq_dec u 0) as [->|].
    + assert (t = 0) by nia. subst t. unfold Lf. rewrite tk_0 by lia. cbn. lia.
    + replace u with (a * (t - 1) + (m + 1)) by lia. rewrite Lf_at by nia. nia.
  - rewrite Z.abs_neq by lia.
    replace (- u) with (a * (- t) + (a - 1 - m)) by lia. rewrite Lf_at by nia. nia.
Qed.

Lemma G_linear : forall v0 vn a vmax T T', G v0 vn a vmax T = G v0 vn a vmax T' + 2 * vmax * (T - T').
Proof. intros. unfold G. ring. Qed.

Lemma tc_small : forall a u, 1 <= a -> Z.abs u <= 2 ^ 21 -> Z.abs (tc a u) <= 2 ^ 21.
Proof.
  intros a u Ha Hu. unfold tc. pose proof (Z.div_mod (u + a - 1) a ltac:(lia)) as D.
  pose proof (Z.mod_pos_bound (u + a - 1) a ltac:(lia)) as B. set (t := (u + a - 1) / a) in *. nia.
Qed.

Lemma tc_tk : forall a u, 0 < a -> 0 <= u -> tc a u = tk a u.
Proof. intros. unfold tc, tk. rewrite Z.abs_eq by lia. reflexivity. Qed.

Lemma speed_limited_any : forall ds v0 vn a vmax, any_request ds v0 vn a vmax ->
  let t14 := tc a (vmax - v0) + tc a (vmax - vn) in
  let s0 := G v0 vn a vmax t14 in
  (ds < s0 /\ speed_limited_curve ds v0 vn a vmax = Ok []) \/
  (s0 <= ds /\ exists x, speed_limited_curve ds v0 vn a vmax = Ok [(x, i64_max)] /\
     - 2 ^ 50 <= x <= 2 ^ 50 /\ t14 <= x /\ (forall t, x <= t <-> ds <= G v0 vn a vmax t)).
Proof.
  intros ds v0 vn a vmax (Hds & Ha & Hv & H0 & Hn) t14 s0.
  unfold speed_limited_curve.
  destruct (Z.eqb_spec a 0); [lia|]. cbn [negb assert bind].
  pose proof (ramp_part a vmax v0 ltac:(lia)) as R0. pose proof (ramp_part a vmax vn ltac:(lia)) as Rn.
  fold (tc a (vmax - v0)) (tc a (vmax - vn)).
  pose proof (tc_small a (vmax - v0) ltac:(lia) ltac:(lia)) as B0. pose proof (tc_small a (vmax - vn) ltac:(lia) ltac:(lia)) as Bn.
  replace ((2 * v0 + tc a (vmax - v0) * a) * tc a (vmax - v0) + ((vmax - v0 + a - 1) mod a - (a - 1)) +
    (2 * vn + tc a (vmax - vn) * a) * tc a (vmax - vn) + ((vmax - vn + a - 1) mod a - (a - 1))) with s0
    by (unfold s0, G, t14; lia).
  clear R0 Rn. fold t14.
  destruct (Z.geb_spec ds s0) as [Hge|Hlt]; [right|left; split; [lia|reflexivity]].
  split; [lia|]. destruct (Z.eqb_spec vmax 0); [lia|]. cbn [negb assert bind].
  rewrite Z.quot_div_nonneg by lia.
  set (q := (ds - s0 + 2 * vmax - 1) / (2 * vmax)).
  assert (Hq : 2 * vmax * q <= ds - s0 + 2 * vmax - 1 < 2 * vmax * q + 2 * vmax).
  { unfold q. pose proof (Z.div_mod (ds - s0 + 2 * vmax - 1) (2 * vmax)).
    pose proof (Z.mod_pos_bound (ds - s0 + 2 * vmax - 1) (2 * vmax)). lia. }
  assert (Hq0 : 0 <= q) by (apply Z.div_pos; lia). clearbody q.
  assert (Bt : - 2 ^ 22 <= t14 <= 2 ^ 22) by (unfold t14; lia).
  assert (Bs : - 2 ^ 46 <= s0).
  { unfold s0, G.
    pose proof (Lf_bound a (Z.abs (vmax - v0)) ltac:(lia)) as L1. pose proof (Lf_bound a (Z.abs (vmax - vn)) ltac:(lia)) as L2.
    rewrite !Z.abs_involutive in L1, L2.
    assert (Z.abs (vmax - v0) * Z.abs (vmax - v0) <= 2 ^ 21 * 2 ^ 21) by (apply Z.mul_le_mono_nonneg; lia).
    assert (Z.abs (vmax - vn) * Z.abs (vmax - vn) <= 2 ^ 21 * 2 ^ 21) by (apply Z.mul_le_mono_nonneg; lia).
    assert (- (2 ^ 20 * 2 ^ 22) <= vmax * t14).
    { clear - Hv Bt. nia. }
    change (2 ^ 21 * 2 ^ 21) with (2 ^ 42) in *. change (2 ^ 20 * 2 ^ 22) with (2 ^ 42) in *. lia. }
  assert (Bq : q <= 2 ^ 48).
  { assert (q <= 2 * vmax * q) by (apply le_mul_1; lia). lia. }
  assert (Hi : i64_max = 2 ^ 63 - 1) by reflexivity.
  exists (t14 + q). split; [|split; [lia|split; [lia|]]].
  - unfold mr_or. destruct (Z.leb_spec (t14 + q) i64_max); [|lia]. reflexivity.
  - intro t. rewrite (G_linear v0 vn a vmax t t14). fold s0.
    pose proof (ceil_iff vmax q (ds - s0) (t - t14) ltac:(lia) Hq). lia.
Qed.

(** ** One direction *)

Definition half_ok (ds v0 vn a vmax t : Z) : Prop :=
  let t14 := tc a (vmax - v0) + tc a (vmax - vn) in
  (tmin v0 vn a <= t /\ 0 <= slack ds v0 vn a t /\ ds < G v0 vn a vmax t14) \/
  (t14 <= t /\ ds <= G v0 vn a vmax t).

Lemma half_range_any : forall ds v0 vn a vmax, any_request ds v0 vn a vmax ->
  exists r, half_range ds v0 vn a vmax = Ok r /\ ordered r /\ nonempty_ranges r /\
    (forall t, covers r t -> t < i64_max /\ half_ok ds v0 vn a vmax t) /\
    (forall t, 2 ^ 51 <= t < i64_max -> covers r t).
Proof.
  intros ds v0 vn a vmax Hs. assert (Hi : i64_max = 2 ^ 63 - 1) by reflexivity.
  unfold half_range.
  destruct (speed_limited_any ds v0 vn a vmax Hs) as [[Hlt E]|(Hge & x & E & Hx & Hx2 & HF)]; rewrite E; cbn [bind mr_is_empty].
  - destruct (max_acceleration_spec ds v0 vn a _ (any_supported _ _ _ _ _ Hs)) as (r & Er & O & N & C1 & _ & C3).
    exists r. split; [exact Er|]. split; [exact O|]. split; [exact N|]. split.
    + intros t Ht. apply C1 in Ht. destruct Ht as [Ht [Hsl _]]. split; [lia|]. left. auto with zarith.
    + intros t Ht. apply C3. lia.
  - exists [(x, i64_max)]. split; [reflexivity|]. split; [constructor; lia|].
    split; [intros l h [K|[]]; injection K as <- <-; lia|].
    split; intros t Ht; rewrite covers_one in *; [|lia].
    split; [lia|]. right. split; [lia|]. apply HF. lia.
Qed.

(** Both directions together leave time for the change of speed. *)
Lemma both_feasible : forall ds v0 vn a vmax t, any_request ds v0 vn a vmax ->
  half_ok ds v0 vn a vmax t -> half_ok (- ds) (- v0) (- vn) a vmax t -> 1 <= t /\ Z.abs (v0 - vn) <= a * t.
Proof.
  intros ds v0 vn a vmax t (_ & Ha & Hv & _) Hp Hm. assert (Ha0 : 0 < a) by lia.
  assert (L : tmin v0 vn a <= t -> 1 <= t /\ Z.abs (v0 - vn) <= a * t).
  { intros K. split; [pose proof (tmin_pos v0 vn a Ha0); lia|apply tmin_diff; lia]. }
  destruct Hp as [(K & _)|(_ & Hp)]; [auto|].
  destruct Hm as [(K & _)|(_ & Hm)].
  { apply L. unfold tmin in *. replace (- v0 - - vn) with (- (v0 - vn)) in K by lia. rewrite tk_opp in K.
    destruct (Z.eqb_spec v0 vn), (Z.eqb_spec (- v0) (- vn)); lia. }
  unfold G in Hp, Hm.
  pose proof (Lf_square a (vmax - v0) Ha0) as S1. pose proof (Lf_square a (vmax - vn) Ha0) as S2.
  pose proof (Lf_square a (vmax - - v0) Ha0) as S3. pose proof (Lf_square a (vmax - - vn) Ha0) as S4.
  assert (K : Lf a (Z.abs (vmax - v0)) + Lf a (Z.abs (vmax - vn)) + Lf a (Z.abs (vmax - - v0)) + Lf a (Z.abs (vmax - - vn)) <= 4 * (vmax * t)) by lia.
  set (l1 := Lf a (Z.abs (vmax - v0))) in *. set (l2 := Lf a (Z.abs (vmax - vn))) in *.
  set (l3 := Lf a (Z.abs (vmax - - v0))) in *. set (l4 := Lf a (Z.abs (vmax - - vn))) in *. clearbody l1 l2 l3 l4.
  assert (M : 4 * vmax * vmax + 2 * v0 * v0 + 2 * vn * vn <= 4 * vmax * (a * t)).
  { apply (Z.mul_le_mono_nonneg_l _ _ a) in K; [|lia]. clear - K S1 S2 S3 S4. nia. }
  assert (M0 : 2 * vmax * Z.abs v0 <= vmax * vmax + v0 * v0).
  { rewrite <- (Z.abs_square v0). pose proof (Z.square_nonneg (vmax - Z.abs v0)). lia. }
  assert (Mn : 2 * vmax * Z.abs vn <= vmax * vmax + vn * vn).
  { rewrite <- (Z.abs_square vn). pose proof (Z.square_nonneg (vmax - Z.abs vn)). lia. }
  assert (Q : vmax * (Z.abs v0 + Z.abs vn) <= vmax * (a * t)).
  { lia. }
  assert (Q2 : Z.abs v0 + Z.abs vn <= a * t) by (clear - Q Hv; nia).
  split; [|lia].
  assert (vmax * vmax <= vmax * (a * t)) by (clear - M; nia). clear - H Hv Ha. nia.
Qed.

(** The higher of the speeds at the ends, if it is beyond the limit, is fast enough. *)
Lemma above_hi : forall ds vl vh a vmax t, 0 < a -> 1 <= vmax -> vl <= vh -> vmax < vh -> 0 <= t ->
  vh - vl <= a * t ->
  ds < G vh vl a vmax (tc a (vmax - vh) + tc a (vmax - vl)) \/ ds <= G vh vl a vmax t ->
  ds <= 2 * vh * t - Lf a (vh - vl).
Proof.
  intros ds vl vh a vmax t Ha Hv Hlh Hvh Ht Hf H.
  pose proof (Lf_nonneg a (Z.abs (vmax - vh)) Ha ltac:(lia)) as N1.
  pose proof (Lf_nonneg a (Z.abs (vmax - vl)) Ha ltac:(lia)) as N2.
  assert (T1 : tc a (vmax - vh) <= 0).
  { unfold tc. assert ((vmax - vh + a - 1) / a < 1); [|lia]. apply Z.div_lt_upper_bound; lia. }
  destruct (Z_le_gt_dec vl vmax) as [C|C].
  - pose proof (Lf_step a (vmax - vl) (vh - vmax) t Ha ltac:(lia) ltac:(lia) ltac:(lia)) as S.
    replace (vmax - vl + (vh - vmax)) with (vh - vl) in S by lia.
    unfold G in H. rewrite (Z.abs_eq (vmax - vl)) in * by lia.
    assert (E : vh * t = vmax * t + (vh - vmax) * t) by ring.
    destruct H as [H|H]; [|lia].
    assert (T2 : tc a (vmax - vl) <= t) by (rewrite tc_tk by lia; apply tk_le_iff; lia).
    assert (vmax * (tc a (vmax - vh) + tc a (vmax - vl)) <= vmax * t) by nia. lia.
  - assert (S : Lf a (vh - vl) <= (vh - vl) * (2 * t - 1)).
    { pose proof (Lf_step a 0 (vh - vl) t Ha ltac:(lia) ltac:(lia) ltac:(lia)) as S. cbn [Z.add] in S.
      assert (Lf a 0 = 0) by (unfold Lf; rewrite tk_0 by lia; cbn; lia). lia. }
    assert (E : 2 * vl * t + (vh - vl) <= 2 * vh * t - Lf a (vh - vl)) by lia.
    assert (E2 : vmax * t <= vl * t) by nia.
    unfold G in H. destruct H as [H|H]; [|lia].
    assert (T2 : tc a (vmax - vl) <= 0).
    { unfold tc. assert ((vmax - vl + a - 1) / a < 1); [|lia]. apply Z.div_lt_upper_bound; lia. }
    assert (vmax * (tc a (vmax - vh) + tc a (vmax - vl)) <= 0) by nia. nia.
Qed.

Lemma G_swap : forall v0 vn a vmax t, G v0 vn a vmax t = G vn v0 a vmax t.
Proof. intros. unfold G. lia. Qed.

Lemma half_hi : forall ds v0 vn a vmax t, any_request ds v0 vn a vmax -> 1 <= t -> Z.abs (v0 - vn) <= a * t ->
  half_ok ds v0 vn a vmax t -> hi_ok ds v0 vn a (up v0 vn vmax) t.
Proof.
  intros ds v0 vn a vmax t (_ & Ha & Hv & _) Ht Hf H. assert (Ha0 : 0 < a) by lia.
  destruct (Z_le_gt_dec (Z.max v0 vn) vmax) as [C|C].
  - assert (EG : forall T, G v0 vn a vmax T = F v0 vn a T vmax).
    { intros T. unfold G, F. rewrite !Z.abs_eq by lia. reflexivity. }
    unfold half_ok in H. rewrite !EG, !tc_tk in H by lia.
    assert (K : hi_ok ds v0 vn a vmax t).
    { destruct H as [(H1 & H2 & H3)|(H1 & H2)].
      - apply slack_hi_ok; auto; lia.
      - exists vmax. unfold tfree. repeat split; lia. }
    destruct K as (M & K1 & K2 & K3 & K4). exists M. repeat split; auto; unfold up; lia || tauto.
  - assert (H' : ds < G v0 vn a vmax (tc a (vmax - v0) + tc a (vmax - vn)) \/ ds <= G v0 vn a vmax t).
    { destruct H as [(_ & _ & H)|(_ & H)]; auto. }
    clear H. assert (L0 : Lf a 0 = 0) by (unfold Lf; rewrite tk_0 by lia; cbn; lia).
    exists (Z.max v0 vn). split; [lia|]. split; [lia|]. split; [unfold up; lia|].
    assert (Tf : tk a (v0 - vn) <= t) by (apply tk_le_iff; lia).
    destruct (Z_le_gt_dec vn v0) as [D|D].
    + rewrite Z.max_l in * by lia. unfold tfree, F. rewrite Z.sub_diag, tk_0, L0 by lia. split; [lia|].
      pose proof (above_hi ds vn v0 a vmax t Ha0 ltac:(lia) ltac:(lia) ltac:(lia) ltac:(lia) ltac:(lia) H'). lia.
    + rewrite Z.max_r in * by lia. unfold tfree, F. rewrite Z.sub_diag, tk_0, L0 by lia.
      rewrite <- tk_opp in Tf. replace (- (v0 - vn)) with (vn - v0) in Tf by lia. split; [lia|].
      rewrite (G_swap v0 vn), (G_swap v0 vn) in H'. rewrite (Z.add_comm (tc a (vmax - v0))) in H'.
      pose proof (above_hi ds v0 vn a vmax t Ha0 ltac:(lia) ltac:(lia) ltac:(lia) ltac:(lia) ltac:(lia) H'). lia.
Qed.

Lemma length_any : forall ds v0 vn a vmax, any_request ds v0 vn a vmax ->
  exists r, shortest_curve_length ds v0 vn a vmax = Ok r /\ ordered r /\ nonempty_ranges r /\
    (forall t, covers r t -> 1 <= t < i64_max /\ hi_ok ds v0 vn a (up v0 vn vmax) t /\ lo_ok ds v0 vn a (up (- v0) (- vn) vmax) t) /\
    (forall t, 2 ^ 51 <= t < i64_max -> covers r t).
Proof.
  intros ds v0 vn a vmax Hs. pose proof (any_opp _ _ _ _ _ Hs) as Hm.
  rewrite shortest_curve_length_halves.
  destruct (half_range_any ds v0 vn a vmax Hs) as (p & -> & Op & Np & Cp & Tp).
  destruct (half_range_any _ _ _ _ _ Hm) as (q & -> & Oq & Nq & Cq & Tq).
  cbn [bind].
  destruct (mr_and_range_ordered p q Op Oq) as [O C].
  exists (mr_and_range p q). split; [reflexivity|]. split; [exact O|].
  split; [apply mr_and_range_nonempty; auto|]. split.
  - intros t Ht. apply C in Ht. destruct Ht as [H1 H2].
    destruct (Cp t H1) as (B1 & K1). destruct (Cq t H2) as (B2 & K2).
    destruct (both_feasible _ _ _ _ _ _ Hs K1 K2) as [T1 T2].
    split; [lia|]. split; [apply half_hi; auto|].
    apply lo_ok_opp; [unfold any_request in Hs; lia|]. apply half_hi; auto. lia.
  - intros t Ht. apply C. split; [apply Tp|apply Tq]; auto.
Qed.

Lemma plan_any : forall ds v0 vn a vmax t, any_request ds v0 vn a vmax -> 1 <= t ->
  hi_ok ds v0 vn a (up v0 vn vmax) t -> lo_ok ds v0 vn a (up (- v0) (- vn) vmax) t ->
  exists p, adjust_curve t ds v0 vn a = Ok p /\ plan_within ds v0 vn a (up (- v0) (- vn) vmax) (up v0 vn vmax) t p.
Proof.
  intros ds v0 vn a vmax t H Ht Hhi Hlo. unfold any_request in H. apply plan_at_within; auto; unfold up; lia.
Qed.

Lemma curve_any : forall ds v0 vn a vmax, any_request ds v0 vn a vmax ->
  exists r t p, shortest_curve_length ds v0 vn a vmax = Ok r /\
    covers r t /\ (forall x, covers r x -> t <= x) /\ 1 <= t /\
    shortest_curve ds v0 vn a vmax = Ok p /\ plan_within ds v0 vn a (up (- v0) (- vn) vmax) (up v0 vn vmax) t p.
Proof.
  intros ds v0 vn a vmax Hs.
  destruct (length_any ds v0 vn a vmax Hs) as (r & E & O & N & C & T).
  pose proof (mr_bounds_spec r O N) as HB.
  destruct (mr_bounds r) as [[t h]|] eqn:EB.
  2: { exfalso. apply (HB (i64_max - 1)). apply T. apply i64_max_big. }
  destruct HB as (B1 & B2 & B3).
  destruct (C t B1) as (Ht & Hhi & Hlo).
  destruct (plan_any ds v0 vn a _ t Hs ltac:(lia) Hhi Hlo) as (p & Ep & P).
  exists r, t, p. split; [exact E|]. split; [exact B1|].
  split; [intros x Hx; apply B3 in Hx; lia|]. split; [lia|].
  split; [|exact P].
  unfold shortest_curve. rewrite E. cbn [bind]. rewrite EB. cbn [unwrap bind]. exact Ep.
Qed.

(** ** The statements *)

(** Accelerations, one per tick, from [v0] to [vn], that never pass the limit of speed in either
    direction further than [v0] and [vn] themselves do. *)
Definition legal_beyond (v0 vn a vmax : Z) (accs : list Z) : Prop :=
  final_speed v0 accs = vn /\
  (forall x, In x accs -> Z.abs x <= a) /\
  (forall v, In v (speeds v0 accs) -> Z.min (- vmax) (Z.min v0 vn) <= v <= Z.max vmax (Z.max v0 vn)).

Lemma moves_beyond : forall a v0 vn vmax d n l,
  moves a (- up (- v0) (- vn) vmax) (up v0 vn vmax) v0 vn d n l -> legal_beyond v0 vn a vmax l.
Proof.
  intros a v0 vn vmax d n l [M1 M2 M3 M4 M5]. split; [exact M2|]. split; [exact M4|].
  intros v Hv. apply M5 in Hv. unfold up in Hv. lia.
Qed.

(** For speeds within the limit it is [legal]. *)
Lemma beyond_legal : forall v0 vn a vmax accs, Z.abs v0 <= vmax -> Z.abs vn <= vmax ->
  (legal_beyond v0 vn a vmax accs <-> legal v0 vn a vmax accs).
Proof.
  intros v0 vn a vmax accs H0 Hn. unfold legal_beyond, legal. split; intros (E & A & S); split; auto; split; auto;
    intros v Hv; apply S in Hv; lia.
Qed.

(** Whatever the speeds at the ends: a plan is found, and its accelerations, if there are not too
    many to store, lead to the final speed and to within one of the distance. *)
Theorem C99_plan : forall ds v0 vn a vmax, any_request ds v0 vn a vmax ->
  exists p, shortest_curve ds v0 vn a vmax = Ok p /\ 1 <= p_t_total p /\
    (p_t_total p <= 65535 -> exists s, acc_seq p = Ok s) /\
    (forall s, acc_seq p = Ok s ->
       Z.of_nat (length (expand s)) = p_t_total p /\ legal_beyond v0 vn a vmax (expand s) /\
       Z.abs (travel v0 (expand s) - ds) <= 1 /\ path_dist p = Ok (travel v0 (expand s))).
Proof.
  intros ds v0 vn a vmax H.
  destruct (curve_any _ _ _ _ _ H) as (r & t & p & _ & _ & _ & Ht & Es & P).
  destruct P as (P1 & P2 & P3 & P4 & d & l & M & Hd & Hp & S1 & S2).
  exists p. split; [exact Es|]. rewrite P4. split; [exact Ht|]. split; [exact S1|].
  intros s E. destruct (S2 s E) as [_ ->]. split; [exact (mv_len _ _ _ _ _ _ _ _ M)|].
  split; [exact (moves_beyond _ _ _ _ _ _ _ M)|]. rewrite (mv_dist _ _ _ _ _ _ _ _ M). auto.
Qed.

(** Every duration that is offered is possible. *)
Theorem C99_durations : forall ds v0 vn a vmax, any_request ds v0 vn a vmax ->
  exists r, shortest_curve_length ds v0 vn a vmax = Ok r /\
    (forall t, covers r t -> exists accs, Z.of_nat (length accs) = t /\
       legal_beyond v0 vn a vmax accs /\ Z.abs (travel v0 accs - ds) <= 1) /\
    (forall t, 2 ^ 51 <= t < i64_max -> covers r t).
Proof.
  intros ds v0 vn a vmax H. destruct (length_any _ _ _ _ _ H) as (r & E & O & N & C & T).
  exists r. split; [exact E|]. split; [|exact T]. intros t Ct. destruct (C t Ct) as (Ht & Hhi & Hlo).
  destruct (plan_any ds v0 vn a _ t H ltac:(lia) Hhi Hlo) as (p & Ep & P).
  destruct P as (P1 & P2 & P3 & P4 & d & l & M & Hd & Hp & S1 & S2).
  exists l. split; [apply (mv_len _ _ _ _ _ _ _ _ M)|]. split; [exact (moves_beyond _ _ _ _ _ _ _ M)|].
  rewrite (mv_dist _ _ _ _ _ _ _ _ M). exact Hd.
Qed.

(** ** Several axes *)

Definition axis_any (l : path_limits) : Prop :=
  any_request (l_ds l) (l_v0 l) (l_vn l) (l_a l) (l_vmax l).

Definition axis_can (t : Z) (l : path_limits) : Prop :=
  1 <= t /\ hi_ok (l_ds l) (l_v0 l) (l_vn l) (l_a l) (up (l_v0 l) (l_vn l) (l_vmax l)) t /\
  lo_ok (l_ds l) (l_v0 l) (l_vn l) (l_a l) (up (- l_v0 l) (- l_vn l) (l_vmax l)) t.

Lemma and_limits_any : forall limits r, ordered r -> nonempty_ranges r ->
  Forall axis_any limits -> (forall t, 2 ^ 51 <= t < i64_max -> covers r t) ->
  exists r', and_limits r limits = Ok r' /\ ordered r' /\ nonempty_ranges r' /\
    (forall t, covers r' t -> Forall (axis_can t) limits) /\
    (forall t, covers r' t -> covers r t) /\
    (forall t, 2 ^ 51 <= t < i64_max -> covers r' t).
Proof.
  induction limits as [|l rest IH]; intros r O N HF Hbig.
  - exists r. cbn [and_limits]. split; [reflexivity|]. split; [auto|]. split; [auto|]. split; [auto|]. auto.
  - inversion HF as [|l' rest' Hl Hrest]; subst. cbn [and_limits].
    destruct (length_any _ _ _ _ _ Hl) as (rl & E & Ol & Nl & Cl & Tl).
    rewrite E. cbn [bind].
    destruct (mr_and_range_ordered r rl O Ol) as [O2 C2].
    destruct (IH (mr_and_range r rl)) as (r' & E' & O' & N' & C' & I' & T'); auto.
    { apply mr_and_range_nonempty; auto. }
    { intros t Ht. apply C2. auto. }
    exists r'. split; [exact E'|]. split; [exact O'|]. split; [exact N'|]. split; [|split; [|exact T']].
    + intros t Ht. constructor; [|auto]. apply I', C2 in Ht. destruct Ht as [_ Ht].
      destruct (Cl t Ht) as (B & K1 & K2). split; [lia|]. auto.
    + intros t Ht. apply I', C2 in Ht. tauto.
Qed.

Lemma seqs_for_any : forall t limits, 1 <= t -> Forall axis_any limits -> Forall (axis_can t) limits ->
  (t <= u16_max -> exists ss, seqs_for t limits = Ok ss) /\
  (forall ss, seqs_for t limits = Ok ss -> Forall2 (fun l s =>
     exists d, moves (l_a l) (- up (- l_v0 l) (- l_vn l) (l_vmax l)) (up (l_v0 l) (l_vn l) (l_vmax l)) (l_v0 l) (l_vn l) d t (expand s) /\
       Z.abs (d - l_ds l) <= 1) limits ss).
Proof.
  intros t limits Ht. induction limits as [|l rest IH]; intros HS HF.
  - split; [intros _; exists []; reflexivity|]. intros ss E. injection E as <-. constructor.
  - inversion HS as [|l' r' Sl Sr]; subst. inversion HF as [|l' r' (_ & Hhi & Hlo) Hr]; subst.
    destruct (IH Sr Hr) as [I1 I2]. cbn [seqs_for].
    destruct (plan_any _ _ _ _ _ t Sl Ht Hhi Hlo) as (p & Ep & (E1 & E2 & E3 & E4 & d & L & M & Hd & _ & S1 & S2)).
    rewrite Ep. cbn [bind]. split.
    + intros Hu. destruct (S1 Hu) as [s Es]. destruct (I1 Hu) as [ss Ess].
      rewrite Es, Ess. cbn [bind]. eauto.
    + intros ss E. apply bind_Ok in E. destruct E as (s & Es & E).
      apply bind_Ok in E. destruct E as (ss' & Ess & E). injection E as <-.
      destruct (S2 s Es) as [Ty <-]. constructor; [|auto]. eauto.
Qed.

Definition axis_arrives_beyond (t : Z) (l : path_limits) (s : list seg) : Prop :=
  Z.of_nat (length (expand s)) = t /\
  legal_beyond (l_v0 l) (l_vn l) (l_a l) (l_vmax l) (expand s) /\
  Z.abs (travel (l_v0 l) (expand s) - l_ds l) <= 1.

Lemma sequences_any : forall limits, limits <> [] -> Forall axis_any limits ->
  exists t r h, and_limits [(i64_min, i64_max)] limits = Ok r /\ mr_bounds r = Some (t, h) /\
    1 <= t /\ covers r t /\ (forall x, covers r x -> t <= x) /\
    shortest_curve_sequences limits = seqs_for t limits /\ Forall (axis_can t) limits.
Proof.
  intros limits Hne HS.
  destruct (and_limits_any limits [(i64_min, i64_max)]) as (r & E & O & N & C & _ & T); auto.
  { constructor. unfold i64_min, i64_max. lia. }
  { intros l h [K|[]]. injection K as <- <-. unfold i64_min, i64_max. lia. }
  { intros t Ht. apply covers_one. unfold i64_min. lia. }
  pose proof (mr_bounds_spec r O N) as HB.
  destruct (mr_bounds r) as [[t h]|] eqn:EB.
  2: { exfalso. apply (HB (i64_max - 1)). apply T. apply i64_max_big. }
  destruct HB as (B1 & B2 & B3). pose proof (C t B1) as HF.
  assert (Ht : 1 <= t) by (destruct limits; [congruence|]; inversion HF as [|? ? (K & _)]; exact K).
  exists t, r, h. split; [exact E|]. split; [exact EB|]. split; [exact Ht|]. split; [exact B1|].
  split; [intros x Hx; apply B3 in Hx; lia|]. split; [|exact HF].
  unfold shortest_curve_sequences. change (mr_or mr_new i64_min i64_max) with (@Ok mrange [(i64_min, i64_max)]).
  cbn [bind]. rewrite E. cbn [bind]. rewrite EB. reflexivity.
Qed.

Theorem C99_axes : forall limits, limits <> [] -> Forall axis_any limits ->
  exists t, 1 <= t /\
     (t <= 65535 -> exists ss, shortest_curve_sequences limits = Ok ss) /\
     (forall ss, shortest_curve_sequences limits = Ok ss -> Forall2 (axis_arrives_beyond t) limits ss).
Proof.
  intros limits Hne HS. destruct (sequences_any limits Hne HS) as (t & r & h & E & EB & Ht & C1 & C2 & Es & HF).
  destruct (seqs_for_any t limits Ht HS HF) as [S1 S2].
  exists t. split; [exact Ht|]. rewrite Es. split; [exact S1|].
  intros ss Hss. apply S2 in Hss. clear - Hss.
  induction Hss as [|l s limits ss (d & M & Hd)]; constructor; auto.
  split; [apply (mv_len _ _ _ _ _ _ _ _ M)|]. split; [exact (moves_beyond _ _ _ _ _ _ _ M)|].
  rewrite (mv_dist _ _ _ _ _ _ _ _ M). exact Hd.
Qed.

(** ** How long it takes *)

Definition over (v vmax : Z) : Z := Z.max vmax (Z.abs v).

Definition long_any (ds v0 vn a vmax t : Z) : Prop :=
  a * Z.abs ds + (vmax + over v0 vmax) * (vmax + over v0 vmax) + (vmax + over vn vmax) * (vmax + over vn vmax) +
    a * (over v0 vmax + over vn vmax) <= 2 * a * vmax * (t - 1).

Lemma Lf_upper : forall a u, 0 < a -> 0 <= u -> a * Lf a u <= u * u + a * u.
Proof.
  intros a u Ha Hu. destruct (split_pos a u Ha Hu) as (q & s & -> & Hq & Hs). rewrite Lf_at by lia.
  assert (0 <= a * (a * q)) by nia. nia.
Qed.

Lemma long_G : forall ds v0 vn a vmax t, any_request ds v0 vn a vmax -> long_any ds v0 vn a vmax t -> ds <= G v0 vn a vmax t.
Proof.
  intros ds v0 vn a vmax t (_ & Ha & Hv & _) H. unfold G, long_any in *.
  assert (P : forall v, a * Lf a (Z.abs (vmax - v)) <= (vmax + over v vmax) * (vmax + over v vmax) + a * vmax + a * over v vmax).
  { intros v. pose proof (Lf_upper a (Z.abs (vmax - v)) ltac:(lia) ltac:(lia)) as L.
    assert (B : 0 <= Z.abs (vmax - v) <= vmax + over v vmax) by (unfold over; lia).
    set (u := Z.abs (vmax - v)) in *. set (x := over v vmax) in *. clearbody u x.
    assert (u * u <= (vmax + x) * (vmax + x)) by (apply Z.mul_le_mono_nonneg; lia).
    assert (a * u <= a * (vmax + x)) by (apply Z.mul_le_mono_nonneg_l; lia). lia. }
  pose proof (P v0) as L1. pose proof (P vn) as L2. clear P.
  set (l1 := Lf a (Z.abs (vmax - v0))) in *. set (l2 := Lf a (Z.abs (vmax - vn))) in *. clearbody l1 l2.
  assert (A : a * ds <= a * Z.abs ds) by (apply Z.mul_le_mono_nonneg_l; lia).
  assert (K : a * ds <= a * (2 * vmax * t - l1 - l2)).
  { replace (a * (2 * vmax * t - l1 - l2)) with (2 * a * vmax * (t - 1) + 2 * (a * vmax) - a * l1 - a * l2) by ring. lia. }
  clear - K Ha. nia.
Qed.

Lemma long_any_acc : forall ds v0 vn a vmax t, any_request ds v0 vn a vmax -> long_any ds v0 vn a vmax t ->
  2 * vmax + a + Z.abs v0 + Z.abs vn <= a * (t - 1).
Proof.
  intros ds v0 vn a vmax t (_ & Ha & Hv & _) H. unfold long_any in H. assert (D : 0 <= a * Z.abs ds) by nia.
  assert (B0 : vmax <= over v0 vmax /\ Z.abs v0 <= over v0 vmax) by (unfold over; lia).
  assert (Bn : vmax <= over vn vmax /\ Z.abs vn <= over vn vmax) by (unfold over; lia).
  set (x := over v0 vmax) in *. set (y := over vn vmax) in *. clearbody x y.
  assert (Q : forall z, 4 * (vmax * z) <= (vmax + z) * (vmax + z)).
  { intros z. pose proof (Z.square_nonneg (vmax - z)). lia. }
  pose proof (Q x) as Qx. pose proof (Q y) as Qy.
  assert (K : 2 * vmax * (2 * vmax + a + Z.abs v0 + Z.abs vn) <= 2 * vmax * (a * (t - 1))).
  { replace (2 * a * vmax * (t - 1)) with (2 * vmax * (a * (t - 1))) in H by ring.
    assert (2 * vmax * (vmax + Z.abs v0) <= 4 * (vmax * x)) by (clear - B0 Hv; nia).
    assert (2 * vmax * (vmax + Z.abs vn) <= 4 * (vmax * y)) by (clear - Bn Hv; nia).
    assert (2 * vmax * a <= a * (x + y)) by (clear - B0 Bn Hv Ha; nia). lia. }
  clear - K Hv. nia.
Qed.

Lemma long_any_slack : forall ds v0 vn a vmax t, any_request ds v0 vn a vmax ->
  ds < G v0 vn a vmax (tc a (vmax - v0) + tc a (vmax - vn)) -> 2 * vmax + a + Z.abs v0 + Z.abs vn <= a * (t - 1) ->
  0 <= slack ds v0 vn a t.
Proof.
  intros ds v0 vn a vmax t (_ & Ha & Hv & _) Hs Ht. unfold slack.
  assert (S0 : a * G v0 vn a vmax (tc a (vmax - v0) + tc a (vmax - vn)) <= 2 * (vmax * vmax) - v0 * v0 - vn * vn + 4 * (a * vmax)).
  { unfold G.
    assert (P : forall v, 2 * vmax * (a * tc a (vmax - v)) - a * Lf a (Z.abs (vmax - v)) <= vmax * vmax - v * v + 2 * (a * vmax)).
    { intros v. pose proof (Lf_square a (vmax - v) ltac:(lia)) as L.
      assert (T : a * tc a (vmax - v) <= vmax - v + a - 1) by (unfold tc; apply Z.mul_div_le; lia).
      set (l := Lf a (Z.abs (vmax - v))) in *. set (t1 := tc a (vmax - v)) in *. clearbody l t1.
      assert (2 * vmax * (a * t1) <= 2 * vmax * (vmax - v + a)) by (apply Z.mul_le_mono_nonneg_l; lia). lia. }
    pose proof (P v0). pose proof (P vn). clear P.
    set (l1 := Lf a (Z.abs (vmax - v0))) in *. set (l2 := Lf a (Z.abs (vmax - vn))) in *.
    set (t1 := tc a (vmax - v0)) in *. set (t2 := tc a (vmax - vn)) in *. clearbody l1 l2 t1 t2.
    replace (a * (2 * vmax * (t1 + t2) - l1 - l2)) with (2 * vmax * (a * t1) + 2 * vmax * (a * t2) - a * l1 - a * l2) by ring. lia. }
  set (s0 := G v0 vn a vmax _) in *. clearbody s0.
  assert (D : a * ds <= a * s0) by (apply Z.mul_le_mono_nonneg_l; lia).
  assert (Q : 2 * vmax + 2 * a <= a * t + v0 + vn) by lia.
  set (w := a * t + v0 + vn) in *.
  assert (W : (2 * vmax + 2 * a) * (2 * vmax + 2 * a) <= w * w) by (apply Z.mul_le_mono_nonneg; lia).
  replace (a * a * t * t + 2 * a * (v0 + vn) * t - ((v0 - vn) * (v0 - vn) + a * (a + 2 * ds)))
    with (w * w - 2 * (v0 * v0) - 2 * (vn * vn) - a * a - 2 * (a * ds)) by (unfold w; ring).
  clearbody w. nia.
Qed.

Lemma half_long_any : forall ds v0 vn a vmax r t, any_request ds v0 vn a vmax -> half_range ds v0 vn a vmax = Ok r ->
  long_any ds v0 vn a vmax t -> t < i64_max -> covers r t.
Proof.
  intros ds v0 vn a vmax r t Hs E Hl Hi. pose proof Hs as (Hds & Ha & Hv & H0 & Hn).
  pose proof (long_any_acc ds v0 vn a vmax t Hs Hl) as Hw. unfold half_range in E.
  destruct (speed_limited_any ds v0 vn a vmax Hs) as [[Hlt Es]|(Hge & x & Es & Hx & Hx2 & HF)]; rewrite Es in E; cbn [bind mr_is_empty] in E.
  - destruct (max_acceleration_spec ds v0 vn a _ (any_supported _ _ _ _ _ Hs)) as (r' & Er & _ & _ & _ & C & _).
    assert (r' = r) by congruence. subst r'. assert (Ht : 2 <= t) by (clear - Ha Hv Hw; nia). apply C.
    + split; [|exact Hi]. unfold tmin. destruct (Z.eqb_spec v0 vn); [lia|].
      apply tk_le_iff; [lia|lia|]. clear - Ha Hv Hw Ht. nia.
    + eapply long_any_slack; eauto.
    + rewrite acc_vertex_eq. pose proof (vertex_near a (2 * (v0 + vn)) ltac:(lia)) as K. set (x := vertex _ _) in *. clearbody x.
      clear - K Ha Hv Hw. nia.
  - injection E as <-. apply covers_one. split; [|exact Hi]. apply HF. apply long_G; auto.
Qed.

(** The planned duration is about |ds| / (2 vmax), plus the time to get both speeds to the limit and
    to make up for the way covered meanwhile.  (For speeds within the limit this is C96_upper.) *)
Theorem C99_upper : forall ds v0 vn a vmax p, any_request ds v0 vn a vmax -> shortest_curve ds v0 vn a vmax = Ok p ->
  let x := Z.max vmax (Z.abs v0) in let y := Z.max vmax (Z.abs vn) in
  2 * a * vmax * (p_t_total p - 2) <= a * Z.abs ds + (vmax + x) * (vmax + x) + (vmax + y) * (vmax + y) + a * (x + y).
Proof.
  intros ds v0 vn a vmax p H Ep x y. destruct (curve_any _ _ _ _ _ H) as (r & t & p' & E & C1 & C2 & Ht & Es & P).
  assert (p' = p) by congruence. subst p'. destruct P as (_ & _ & _ & -> & _).
  assert (N : ~ long_any ds v0 vn a vmax (t - 1)).
  { intros L. destruct (length_any _ _ _ _ _ H) as (r' & E' & _ & _ & C & _).
    assert (r' = r) by congruence. subst r'. destruct (C t C1) as [B _].
    assert (K : covers r (t - 1)); [|specialize (C2 _ K); lia].
    rewrite shortest_curve_length_halves in E. pose proof (any_opp _ _ _ _ _ H) as Hm.
    destruct (half_range_any ds v0 vn a vmax H) as (p1 & Ep1 & Op & _).
    destruct (half_range_any _ _ _ _ _ Hm) as (q & Eq & Oq & _).
    rewrite Ep1, Eq in E. cbn [bind] in E. injection E as <-. apply (mr_and_range_ordered p1 q Op Oq). split.
    - apply (half_long_any ds v0 vn a vmax p1); [exact H|exact Ep1|exact L|]. clear - B. lia.
    - eapply half_long_any; [exact Hm|exact Eq| |lia]. unfold long_any, over in *. rewrite !Z.abs_opp. exact L. }
  unfold long_any in N. unfold over in N. fold x y in N. replace (t - 1 - 1) with (t - 2) in N by lia. lia.
Qed.

(** Starting four times as fast as allowed: the plan brakes at once, goes back at the limit, and
    arrives. *)
Example C99_example : any_request 20 40 0 10 10 /\
  (let! p := shortest_curve 20 40 0 10 10 in let! s := acc_seq p in
   Ok (expand s, speeds 40 (expand s), travel 40 (expand s))) =
  Ok ([-10; -10; -10; -10; -10; 0; 0; 0; 0; 0; 0; 10],
      [40; 30; 20; 10; 0; -10; -10; -10; -10; -10; -10; -10; 0], 20).
Proof. split; [unfold any_request; lia|]. vm_compute. reflexivity. Qed.

(** The bound at this example, where the plan has 12 ticks, is 20. *)
Example C99_upper_example : forall t, 2 * 10 * 10 * (t - 2) <= 10 * Z.abs 20 +
  (10 + Z.max 10 (Z.abs 40)) * (10 + Z.max 10 (Z.abs 40)) + (10 + Z.max 10 (Z.abs 0)) * (10 + Z.max 10 (Z.abs 0)) +
  10 * (Z.max 10 (Z.abs 40) + Z.max 10 (Z.abs 0)) <-> t <= 20.
Proof. intros t. lia. Qed.

Print Assumptions C99_plan.
Print Assumptions C99_durations.
Print Assumptions C99_axes.
Print Assumptions C99_upper.
