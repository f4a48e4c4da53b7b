(** From the planned durations to executable sequences. *)
From Coq Require Import ZArith List Bool Lia.
From Coq Require Import ZifyBool ZifyNat.
From Verif Require Import Base MultiRange MultiRangeSpec MultiRangeProofs Solve SolveProofs
  AccVector AccVectorProofs MotionSpec
  IntegerCurve CurveArith AccSeqProofs AccSeqSpec CurveAdjust AdjustSpec RangeProofs.
Import ListNotations.
Open Scope Z_scope.

(** One half of shortest_curve_length. *)
Definition half_range (ds v0 vn a vmax : Z) : res mrange :=
  let! pos := speed_limited_curve ds v0 vn a vmax in
  if mr_is_empty pos then max_acceleration_curve ds v0 vn a else Ok pos.

Lemma shortest_curve_length_halves : forall ds v0 vn a vmax,
  shortest_curve_length ds v0 vn a vmax =
  let! pos := half_range ds v0 vn a vmax in
  let! neg := half_range (- ds) (- v0) (- vn) a vmax in
  Ok (mr_and_range pos neg).
Proof.
  intros. unfold shortest_curve_length, half_range.
  destruct (speed_limited_curve ds v0 vn a vmax) as [p| |]; cbn [bind]; auto.
  destruct (if mr_is_empty p then max_acceleration_curve ds v0 vn a else Ok p) as [p'| |]; cbn [bind]; auto.
  destruct (speed_limited_curve (- ds) (- v0) (- vn) a vmax) as [q| |]; cbn [bind]; auto.
Qed.

Lemma covers_one : forall l h x, covers [(l, h)] x <-> l <= x < h.
Proof.
  intros. rewrite (covers_cons (l, h)). cbn [fst snd]. rewrite covers_nil. tauto.
Qed.

Lemma tmin_diff : forall v0 vn a t, 0 < a -> tmin v0 vn a <= t -> Z.abs (v0 - vn) <= a * t.
Proof.
  intros v0 vn a t Ha H. unfold tmin in H. destruct (Z.eqb_spec v0 vn).
  - subst. rewrite Z.sub_diag. cbn [Z.abs]. nia.
  - pose proof (tk_nonneg a (v0 - vn) Ha). apply tk_le_iff; lia.
Qed.

Lemma half_range_spec : forall ds v0 vn a vmax, supported ds v0 vn a vmax ->
  exists r, half_range ds v0 vn a vmax = Ok r /\ ordered r /\ nonempty_ranges r /\
    (forall t, covers r t -> 0 <= t < i64_max /\ hi_ok ds v0 vn a vmax t /\
       (t = 0 -> v0 = vmax /\ vn = vmax)) /\
    (forall t, 2 ^ 51 <= t < i64_max -> covers r t).
Proof.
  intros ds v0 vn a vmax Hs. pose proof Hs as [Hds Ha Hv H0 Hn].
  assert (Ha0 : 0 < a) by lia.
  assert (Hi : i64_max = 2 ^ 63 - 1) by reflexivity.
  unfold half_range.
  pose proof (tk_nonneg a (vmax - v0) Ha0) as T1. pose proof (tk_nonneg a (vmax - vn) Ha0) as T4.
  destruct (speed_limited_spec ds v0 vn a vmax Hs) as [[Hlt E]|(Hge & x & E & Hx & HF)]; rewrite E; cbn [bind mr_is_empty].
  - destruct (max_acceleration_spec ds v0 vn a vmax Hs) as (r & Er & O & N & C1 & _ & C3).
    exists r. split; [exact Er|]. split; [exact O|]. split; [exact N|]. split.
    + intros t Ht. apply C1 in Ht. destruct Ht as [Ht [Hsl _]].
      pose proof (tmin_pos v0 vn a Ha0).
      split; [lia|]. split; [|lia].
      apply slack_hi_ok; auto; try lia. apply tmin_diff; lia.
    + intros t Ht. apply C3. lia.
  - exists [(x, i64_max)]. split; [reflexivity|]. split; [constructor; lia|].
    split; [intros l h [K|[]]; injection K as <- <-; lia|].
    split; intros t Ht; rewrite covers_one in *.
    + split; [lia|]. split.
      * exists vmax. split; [lia|]. split; [lia|]. split; [lia|]. unfold tfree.
        split; [lia|]. apply HF. lia.
      * intros ->. assert (Z1 : tk a (vmax - v0) <= 0) by lia. assert (Z4 : tk a (vmax - vn) <= 0) by lia.
        apply tk_le_iff in Z1; try lia. apply tk_le_iff in Z4; lia.
    + lia.
Qed.

Lemma shortest_curve_length_spec : forall ds v0 vn a vmax, supported ds v0 vn a vmax ->
  exists r, shortest_curve_length ds v0 vn a vmax = Ok r /\ ordered r /\ nonempty_ranges r /\
    (forall t, covers r t -> 1 <= t < i64_max /\ hi_ok ds v0 vn a vmax t /\ lo_ok ds v0 vn a vmax t) /\
    (forall t, 2 ^ 51 <= t < i64_max -> covers r t).
Proof.
  intros ds v0 vn a vmax Hs. pose proof Hs as [Hds Ha Hv H0 Hn].
  rewrite shortest_curve_length_halves.
  destruct (half_range_spec ds v0 vn a vmax Hs) as (p & -> & Op & Np & Cp & Tp).
  destruct (half_range_spec _ _ _ _ _ (supported_opp _ _ _ _ _ Hs)) as (q & -> & Oq & Nq & Cq & Tq).
  cbn [bind].
  destruct (mr_and_range_ordered p q Op Oq) as [O C].
  exists (mr_and_range p q). split; [reflexivity|]. split; [exact O|].
  split; [apply mr_and_range_nonempty; auto|]. split.
  - intros t Ht. apply C in Ht. destruct Ht as [H1 H2].
    destruct (Cp t H1) as (B1 & K1 & Z1). destruct (Cq t H2) as (B2 & K2 & Z2).
    split.
    + destruct (Z.eq_dec t 0) as [->|]; [|lia]. destruct (Z1 eq_refl). destruct (Z2 eq_refl). lia.
    + split; [exact K1|]. apply lo_ok_opp; [lia|exact K2].
  - intros t Ht. apply C. split; [apply Tp|apply Tq]; auto.
Qed.

(** What is known about one axis at duration [t]. *)
Definition plan_within (ds v0 vn a lo hi t : Z) (p : distance_path) : Prop :=
  p_v0 p = v0 /\ p_vn p = vn /\ p_amax p = a /\ p_t_total p = t /\
  exists d l,
    moves a (- lo) hi v0 vn d t l /\ Z.abs (d - ds) <= 1 /\ path_dist p = Ok d /\
    (t <= u16_max -> exists s, acc_seq p = Ok s) /\
    (forall s, acc_seq p = Ok s -> Forall seg_typed s /\ expand s = l).

Definition plan_ok (ds v0 vn a vmax t : Z) (p : distance_path) : Prop := plan_within ds v0 vn a vmax vmax t p.

Lemma plan_at_within : forall ds v0 vn a lo hi t, 1 <= a <= 32767 -> - lo <= v0 <= hi -> - lo <= vn <= hi -> 1 <= t ->
  hi_ok ds v0 vn a hi t -> lo_ok ds v0 vn a lo t ->
  exists p, adjust_curve t ds v0 vn a = Ok p /\ plan_within ds v0 vn a lo hi t p.
Proof.
  intros ds v0 vn a lo hi t Ha H0 Hn Ht Hhi Hlo.
  destruct (Z.eq_dec t 1) as [->|Hne].
  - destruct (adjust_curve_1 ds v0 vn a lo hi) as (E & Ed & Hd); auto; [lia|].
    eexists. split; [exact E|]. unfold plan_within. cbn [p_v0 p_vn p_amax p_t_total].
    split; [auto|]. split; [auto|]. split; [auto|]. split; [auto|].
    exists (v0 + vn), [vn - v0].
    split; [apply moves_one; lia|]. split; [lia|]. split.
    + unfold path_dist. cbn [p_v0 p_vn p_amax p_t_total p_vflat p_t_adjust].
      rewrite path_distance_F by lia. cbn [bind]. f_equal. unfold F.
      assert (L1 : forall u, Z.abs u <= a -> Lf a u = u).
      { intros u Hu. assert (P : forall w, 0 <= w <= a -> Lf a w = w).
        { intros w Hw. pose proof (Lf_at a 0 w ltac:(lia)) as H. replace (a * 0 + w) with w in H by lia.
          rewrite H by lia. lia. }
        destruct (Z_le_gt_dec 0 u); [apply P; lia|].
        replace u with (- - u) by lia. rewrite Lf_opp by lia. rewrite P; lia. }
      rewrite !L1 by lia. lia.
    + assert (Hp : forall s, push_conv [] 1 (vn - v0) = Ok s -> Forall seg_typed s /\ expand s = [vn - v0]).
      { intros s Hp. apply push_conv_inv in Hp; [exact Hp|constructor]. }
      unfold acc_seq. cbn [p_v0 p_vn p_amax p_t_total].
      destruct (Z.leb_spec 1 1); [|lia]. destruct (Z.eqb_spec 1 0); [lia|].
      destruct (Z.leb_spec (v0 - vn) a); [|lia]. cbn [assert bind]. split.
      * intros _. destruct (push_conv_spec [] 1 (vn - v0)) as (s & Es & _); cbn [expand length]; auto;
          unfold u16_max, i16_min, i16_max in *; try lia. eauto.
      * exact Hp.
  - destruct (adjust_curve_within ds v0 vn a lo hi t) as (v & adj & E & (G1 & G2 & G3 & G4 & G5 & _) & Bv); auto; try lia.
    eexists. split; [exact E|]. unfold plan_within. cbn [p_v0 p_vn p_amax p_t_total].
    split; [auto|]. split; [auto|]. split; [auto|]. split; [auto|].
    destruct (acc_seq_spec (mk_path v0 vn a v t adj) (- lo) hi) as (l & M & S1 & S2);
      cbn [p_v0 p_vn p_amax p_t_total p_vflat p_t_adjust] in *; auto; unfold i16_max; try lia.
    exists (F v0 vn a t v + 2 * adj), l.
    split; [exact M|]. split; [lia|]. split; [|auto].
    unfold path_dist. cbn [p_v0 p_vn p_amax p_t_total p_vflat p_t_adjust].
    rewrite path_distance_F by lia. reflexivity.
Qed.

Lemma plan_at : forall ds v0 vn a vmax t, supported ds v0 vn a vmax -> 1 <= t ->
  hi_ok ds v0 vn a vmax t -> lo_ok ds v0 vn a vmax t ->
  exists p, adjust_curve t ds v0 vn a = Ok p /\ plan_ok ds v0 vn a vmax t p.
Proof. intros ds v0 vn a vmax t [Hds Ha Hv H0 Hn] Ht Hhi Hlo. apply plan_at_within; auto; lia. Qed.

Lemma i64_max_big : 2 ^ 51 <= i64_max - 1 < i64_max.
Proof. unfold i64_max. lia. Qed.

Lemma shortest_curve_spec : forall ds v0 vn a vmax, supported ds v0 vn a vmax ->
  exists r t h p, shortest_curve_length ds v0 vn a vmax = Ok r /\ mr_bounds r = Some (t, h) /\
    covers r t /\ (forall x, covers r x -> t <= x) /\
    hi_ok ds v0 vn a vmax t /\ lo_ok ds v0 vn a vmax t /\ 1 <= t /\
    shortest_curve ds v0 vn a vmax = Ok p /\ plan_ok ds v0 vn a vmax t p.
Proof.
  intros ds v0 vn a vmax Hs.
  destruct (shortest_curve_length_spec ds v0 vn a vmax Hs) as (r & E & O & N & C & T).
  pose proof (mr_bounds_spec r O N) as HB.
  destruct (mr_bounds r) as [[t h]|] eqn:EB.
  2: { exfalso. apply (HB (i64_max - 1)). apply T. apply i64_max_big. }
  destruct HB as (B1 & B2 & B3).
  destruct (C t B1) as (Ht & Hhi & Hlo).
  destruct (plan_at ds v0 vn a vmax t Hs ltac:(lia) Hhi Hlo) as (p & Ep & P).
  exists r, t, h, p. split; [exact E|]. split; [exact EB|]. split; [exact B1|].
  split; [intros x Hx; apply B3 in Hx; lia|]. split; [exact Hhi|]. split; [exact Hlo|]. split; [lia|].
  split; [|exact P].
  unfold shortest_curve. rewrite E. cbn [bind]. rewrite EB. cbn [unwrap bind]. exact Ep.
Qed.

(** ** Several axes *)

Definition lim_supported (l : path_limits) : Prop :=
  supported (l_ds l) (l_v0 l) (l_vn l) (l_a l) (l_vmax l).

Lemma and_limits_spec : forall limits r, ordered r -> nonempty_ranges r ->
  Forall lim_supported limits -> (forall t, 2 ^ 51 <= t < i64_max -> covers r t) ->
  exists r', and_limits r limits = Ok r' /\ ordered r' /\ nonempty_ranges r' /\
    (forall t, covers r' t -> covers r t /\ Forall (fun l =>
        1 <= t /\ hi_ok (l_ds l) (l_v0 l) (l_vn l) (l_a l) (l_vmax l) t /\
        lo_ok (l_ds l) (l_v0 l) (l_vn l) (l_a l) (l_vmax l) t) limits) /\
    (forall t, covers r' t <-> covers r t /\ Forall (fun l =>
        exists rl, shortest_curve_length (l_ds l) (l_v0 l) (l_vn l) (l_a l) (l_vmax l) = Ok rl /\ covers rl t) limits) /\
    (forall t, 2 ^ 51 <= t < i64_max -> covers r' t).
Proof.
  induction limits as [|l rest IH]; intros r O N HF Hbig.
  - exists r. cbn [and_limits]. split; [reflexivity|]. split; [auto|]. split; [auto|]. split; [auto|].
    split; [|auto]. intros t. split; [auto|tauto].
  - inversion HF as [|l' rest' Hl Hrest]; subst. cbn [and_limits].
    destruct (shortest_curve_length_spec _ _ _ _ _ Hl) as (rl & E & Ol & Nl & Cl & Tl).
    rewrite E. cbn [bind].
    destruct (mr_and_range_ordered r rl O Ol) as [O2 C2].
    destruct (IH (mr_and_range r rl)) as (r' & E' & O' & N' & C' & I' & T'); auto.
    { apply mr_and_range_nonempty; auto. }
    { intros t Ht. apply C2. auto. }
    exists r'. split; [exact E'|]. split; [exact O'|]. split; [exact N'|]. split; [|split; [|exact T']].
    + intros t Ht. apply C' in Ht. destruct Ht as [Ht HFo]. apply C2 in Ht. destruct Ht as [Hr Hrl].
      split; [exact Hr|]. constructor; [|exact HFo]. destruct (Cl t Hrl) as (B & K1 & K2). auto with zarith.
    + intros t. rewrite I', C2. split.
      * intros ((Hr & Hrl) & HFo). split; [auto|]. constructor; eauto.
      * intros (Hr & HFo). inversion HFo as [|l'' r'' (rl' & E2 & Hc) Hr2]; subst.
        assert (rl' = rl) by congruence. subst. auto.
Qed.

Lemma seqs_for_spec : forall t limits, 1 <= t ->
  Forall lim_supported limits -> Forall (fun l =>
        1 <= t /\ hi_ok (l_ds l) (l_v0 l) (l_vn l) (l_a l) (l_vmax l) t /\
        lo_ok (l_ds l) (l_v0 l) (l_vn l) (l_a l) (l_vmax l) t) limits ->
  (t <= u16_max -> exists ss, seqs_for t limits = Ok ss) /\
  (forall ss, seqs_for t limits = Ok ss -> Forall2 (fun l s =>
     Forall seg_typed s /\ exists d,
     moves (l_a l) (- l_vmax l) (l_vmax l) (l_v0 l) (l_vn l) d t (expand s) /\ Z.abs (d - l_ds l) <= 1)
     limits ss).
Proof.
  intros t limits Ht. induction limits as [|l rest IH]; intros HS HF.
  - split; [intros _; exists []; reflexivity|]. intros ss E. injection E as <-. constructor.
  - inversion HS as [|l' r' Sl Sr]; subst. inversion HF as [|l' r' (_ & Hhi & Hlo) Hr]; subst.
    destruct (IH Sr Hr) as [I1 I2]. cbn [seqs_for].
    destruct (plan_at _ _ _ _ _ t Sl Ht Hhi Hlo) as (p & Ep & (E1 & E2 & E3 & E4 & d & L & M & Hd & _ & S1 & S2)).
    rewrite Ep. cbn [bind]. split.
    + intros Hu. destruct (S1 Hu) as [s Es]. destruct (I1 Hu) as [ss Ess].
      rewrite Es, Ess. cbn [bind]. eauto.
    + intros ss E. apply bind_Ok in E. destruct E as (s & Es & E).
      apply bind_Ok in E. destruct E as (ss' & Ess & E). injection E as <-.
      destruct (S2 s Es) as [Ty <-]. constructor; [|auto]. split; [auto|]. eauto.
Qed.

Lemma sequences_spec : forall limits, limits <> [] -> Forall lim_supported limits ->
  exists t r h, and_limits [(i64_min, i64_max)] limits = Ok r /\ mr_bounds r = Some (t, h) /\
    1 <= t /\ covers r t /\ (forall x, covers r x -> t <= x) /\
    shortest_curve_sequences limits = seqs_for t limits /\
    Forall (fun l =>
        1 <= t /\ hi_ok (l_ds l) (l_v0 l) (l_vn l) (l_a l) (l_vmax l) t /\
        lo_ok (l_ds l) (l_v0 l) (l_vn l) (l_a l) (l_vmax l) t) limits.
Proof.
  intros limits Hne HS.
  destruct (and_limits_spec limits [(i64_min, i64_max)]) as (r & E & O & N & C & _ & T); auto.
  { constructor. unfold i64_min, i64_max. lia. }
  { intros l h [K|[]]. injection K as <- <-. unfold i64_min, i64_max. lia. }
  { intros t Ht. apply covers_one. unfold i64_min. lia. }
  pose proof (mr_bounds_spec r O N) as HB.
  destruct (mr_bounds r) as [[t h]|] eqn:EB.
  2: { exfalso. apply (HB (i64_max - 1)). apply T. apply i64_max_big. }
  destruct HB as (B1 & B2 & B3). destruct (C t B1) as [_ HF].
  exists t, r, h. split; [exact E|]. split; [exact EB|]. split.
  { destruct limits; [congruence|]. inversion HF. tauto. }
  split; [exact B1|]. split; [intros x Hx; apply B3 in Hx; lia|]. split; [|exact HF].
  unfold shortest_curve_sequences. change (mr_or mr_new i64_min i64_max) with (@Ok mrange [(i64_min, i64_max)]).
  cbn [bind]. rewrite E. cbn [bind]. rewrite EB. reflexivity.
Qed.
