(** What shortest_curve_length computes. *)
From Coq Require Import ZArith List Bool Lia.
From Coq Require Import ZifyBool ZifyNat.
From Verif Require Import Base MultiRange MultiRangeSpec MultiRangeProofs Solve SolveProofs
  IntegerCurve CurveArith CurveAdjust.
Import ListNotations.
Open Scope Z_scope.

(** The supported requests. *)
Record supported (ds v0 vn a vmax : Z) : Prop := {
  sup_ds : Z.abs ds <= 2 ^ 40;
  sup_a : 1 <= a <= 32767;
  sup_vmax : 1 <= vmax <= 2 ^ 20;
  sup_v0 : Z.abs v0 <= vmax;
  sup_vn : Z.abs vn <= vmax
}.

Lemma supported_opp : forall ds v0 vn a vmax,
  supported ds v0 vn a vmax -> supported (- ds) (- v0) (- vn) a vmax.
Proof. intros ds v0 vn a vmax [H1 H2 H3 H4 H5]. constructor; lia. Qed.

(** ** Search for the roots *)

Lemma roots_search : forall a b c xm, 0 < a -> - a <= 2 * a * xm + b <= a ->
  sqpoly a b c xm < 0 ->
  exists l x1 x2,
    limit_loop (limit_fuel (sqpoly a b c xm)) a b c xm 16 = Ok l /\
    find_root a b c (xm - (l + 1)) xm = Ok (Some x1) /\
    find_root a b c xm (xm + (l + 1)) = Ok (Some x2) /\
    x1 < xm < x2 /\
    (forall x, x <= x1 -> 0 <= sqpoly a b c x) /\
    (forall x, x2 <= x -> 0 <= sqpoly a b c x) /\
    (forall x, x1 < x < x2 -> sqpoly a b c x < 0).
Proof.
  intros a b c xm Ha Hv Hy.
  destruct (limit_loop_spec (limit_fuel (sqpoly a b c xm)) a b c xm 16) as (l & El & Hl & Hp); auto; try lia.
  { apply limit_fuel_enough; lia. }
  assert (PL : 0 < sqpoly a b c (xm - (l + 1))).
  { replace (xm - (l + 1)) with (xm + (- (l + 1))) by lia. rewrite sqpoly_shift.
    rewrite sqpoly_shift in Hp.
    set (y := sqpoly a b c xm) in *. set (e := 2 * a * xm + b) in *. nia. }
  assert (PR : 0 < sqpoly a b c (xm + (l + 1))).
  { replace (xm + (l + 1)) with (xm + l + 1) by lia. rewrite (sqpoly_shift _ _ _ (xm + l)).
    set (y := sqpoly a b c (xm + l)) in *. nia. }
  pose proof (find_root_spec a b c (xm - (l + 1)) xm ltac:(lia)) as F1.
  pose proof (find_root_spec a b c xm (xm + (l + 1)) ltac:(lia)) as F2.
  cbv zeta in F1, F2.
  destruct (find_root a b c (xm - (l + 1)) xm) as [[x1|]| |] eqn:E1; try contradiction; [|lia].
  destruct (find_root a b c xm (xm + (l + 1))) as [[x2|]| |] eqn:E2; try contradiction; [|lia].
  destruct F1 as [B1 P1]. destruct F2 as [B2 P2].
  assert (N1 : 0 <= sqpoly a b c x1) by lia. assert (N2 : 0 <= sqpoly a b c x2) by lia.
  assert (x1 <> xm) by (intros ->; lia). assert (x2 <> xm) by (intros ->; lia).
  assert (Q1 : sqpoly a b c (x1 + 1) < 0).
  { destruct P1 as [P1|[P1|P1]]; [|lia|lia].
    destruct (Z.eq_dec (x1 + 1) xm) as [E|]; [rewrite E; lia|].
    assert (H3 : (xm - x1) * sqpoly a b c (x1 + 1) =
          (xm - (x1 + 1)) * sqpoly a b c x1 + 1 * sqpoly a b c xm
          - a * (xm - (x1 + 1)) * 1 * (xm - x1)) by (unfold sqpoly; ring).
    rewrite P1 in H3.
    assert (0 < a * (xm - (x1 + 1)) * 1 * (xm - x1)) by (repeat apply Z.mul_pos_pos; lia). nia. }
  assert (Q2 : sqpoly a b c (x2 - 1) < 0).
  { destruct P2 as [P2|[P2|P2]]; [|lia|lia].
    destruct (Z.eq_dec (x2 - 1) xm) as [E|]; [rewrite E; lia|].
    assert (H3 : (x2 - xm) * sqpoly a b c (x2 - 1) =
          (x2 - 1 - xm) * sqpoly a b c x2 + 1 * sqpoly a b c xm
          - a * (x2 - 1 - xm) * 1 * (x2 - xm)) by (unfold sqpoly; ring).
    rewrite P2 in H3.
    assert (0 < a * (x2 - 1 - xm) * 1 * (x2 - xm)) by (repeat apply Z.mul_pos_pos; lia). nia. }
  exists l, x1, x2. split; [auto|]. split; [auto|]. split; [auto|]. split; [lia|]. split; [|split].
  - intros x Hx. apply (sqpoly_left a b c x1 (x1 + 1)); auto; lia.
  - intros x Hx. apply (sqpoly_right a b c x2 (x2 - 1)); auto; lia.
  - intros x Hx. apply (sqpoly_convex_neg a b c (x1 + 1) (x2 - 1)); auto; lia.
Qed.

Lemma acc_vertex_eq : forall v0 vn a, acc_vertex v0 vn a = vertex a (2 * (v0 + vn)).
Proof.
  intros. unfold acc_vertex, vertex.
  destruct (Z.geb_spec (v0 + vn) 0), (Z.geb_spec (2 * (v0 + vn)) 0); try (exfalso; lia); [reflexivity|].
  replace (- 2 * (v0 + vn) + a) with (- (2 * (v0 + vn)) + a) by lia. reflexivity.
Qed.

(** Minimal number of ticks to change the velocity. *)
Definition tmin (v0 vn a : Z) : Z := if v0 =? vn then 1 else tk a (v0 - vn).

(** The slack of a duration: how far the parabola of the peak distance is above
    the request. *)
Definition slack (ds v0 vn a t : Z) : Z :=
  a * a * t * t + 2 * a * (v0 + vn) * t - ((v0 - vn) * (v0 - vn) + a * (a + 2 * ds)).

Lemma tmin_pos : forall v0 vn a, 0 < a -> 1 <= tmin v0 vn a.
Proof.
  intros v0 vn a Ha. unfold tmin. destruct (Z.eqb_spec v0 vn); [lia|].
  pose proof (tk_nonneg a (v0 - vn) Ha).
  destruct (Z.eq_dec (tk a (v0 - vn)) 0) as [E|]; [|lia].
  assert (H1 : tk a (v0 - vn) <= 0) by lia. apply tk_le_iff in H1; lia.
Qed.

Lemma tmin_small : forall v0 vn a vmax, 1 <= a -> 1 <= vmax <= 2 ^ 20 ->
  Z.abs v0 <= vmax -> Z.abs vn <= vmax -> tmin v0 vn a <= 2 ^ 21.
Proof.
  intros v0 vn a vmax Ha Hv H0 Hn. unfold tmin. destruct (Z.eqb_spec v0 vn); [lia|].
  apply tk_le_iff; try lia.
Qed.

Lemma step_min : forall aa d e, 0 < aa -> - aa <= e <= aa -> 0 <= d * e + aa * d * d.
Proof.
  intros aa d e Ha He. destruct (Z.eq_dec d 0) as [->|]; [lia|].
  destruct (Z_lt_le_dec d 0); nia.
Qed.

Lemma ceil_iff : forall v q x n, 0 < v -> 2 * v * q <= x + 2 * v - 1 < 2 * v * q + 2 * v ->
  (q <= n <-> x <= 2 * v * n).
Proof. intros v q x n Hv Hq. split; intros H; nia. Qed.

Lemma le_mul_1 : forall a x, 1 <= a -> 0 <= x -> x <= a * x.
Proof. intros. nia. Qed.

Lemma slack_pos_large : forall ds v0 vn a vmax t, supported ds v0 vn a vmax ->
  2 ^ 30 <= Z.abs t -> 0 < slack ds v0 vn a t.
Proof.
  intros ds v0 vn a vmax t [Hds Ha Hv H0 Hn] Ht. unfold slack.
  assert (A1 : - (2 ^ 22 * Z.abs t) <= 2 * (v0 + vn) * t).
  { assert (Z.abs (2 * (v0 + vn) * t) <= 2 ^ 22 * Z.abs t); [|lia].
    rewrite Z.abs_mul. apply Z.mul_le_mono_nonneg_r; lia. }
  assert (A2 : 2 ^ 30 * Z.abs t <= t * t).
  { rewrite <- (Z.abs_square t).
    apply Z.mul_le_mono_nonneg_r; lia. }
  assert (A3 : (v0 - vn) * (v0 - vn) <= 2 ^ 42).
  { replace (2 ^ 42) with (2 ^ 21 * 2 ^ 21) by reflexivity.
    rewrite <- (Z.abs_square (v0 - vn)).
    apply Z.mul_le_mono_nonneg; lia. }
  replace (a * a * t * t + 2 * a * (v0 + vn) * t - ((v0 - vn) * (v0 - vn) + a * (a + 2 * ds)))
    with (a * (a * (t * t) + 2 * (v0 + vn) * t - a - 2 * ds) - (v0 - vn) * (v0 - vn)) by ring.
  assert (A4 : t * t <= a * (t * t)) by (apply le_mul_1; [lia|apply Z.square_nonneg]).
  assert (2 ^ 58 <= a * (t * t) + 2 * (v0 + vn) * t - a - 2 * ds).
  { assert (2 ^ 30 * Z.abs t - 2 ^ 22 * Z.abs t >= 2 ^ 29 * 2 ^ 30) by nia.
    change (2 ^ 29 * 2 ^ 30) with (2 ^ 59) in *. lia. }
  set (Y := a * (t * t) + 2 * (v0 + vn) * t - a - 2 * ds) in *.
  assert (Y <= a * Y) by (apply le_mul_1; lia). lia.
Qed.

Lemma max_acceleration_spec : forall ds v0 vn a vmax, supported ds v0 vn a vmax ->
  exists r, max_acceleration_curve ds v0 vn a = Ok r /\ ordered r /\ nonempty_ranges r /\
    (forall t, covers r t -> tmin v0 vn a <= t < i64_max /\ 0 <= slack ds v0 vn a t /\
       0 <= slack ds v0 vn a (t + 1)) /\
    (forall t, tmin v0 vn a <= t < i64_max -> 0 <= slack ds v0 vn a t ->
       acc_vertex v0 vn a < t -> covers r t) /\
    (forall t, 2 ^ 31 <= t < i64_max -> covers r t).
Proof.
  intros ds v0 vn a vmax Hs. pose proof Hs as [Hds Ha Hv H0 Hn].
  unfold max_acceleration_curve.
  destruct (Z.eqb_spec a 0); [lia|]. cbn [negb assert bind].
  assert (Et : (if negb (v0 =? vn) then Z.quot (Z.abs (v0 - vn) + a - 1) a else 1) = tmin v0 vn a).
  { unfold tmin. destruct (Z.eqb_spec v0 vn); cbn [negb]; [reflexivity|].
    unfold tk. apply Z.quot_div_nonneg; lia. }
  rewrite Et. clear Et.
  pose proof (tmin_pos v0 vn a ltac:(lia)) as Htm.
  pose proof (tmin_small v0 vn a vmax ltac:(lia) Hv H0 Hn) as Htm2.
  assert (Hi : i64_max = 2 ^ 63 - 1) by reflexivity. assert (Hi2 : i64_min = - 2 ^ 63) by reflexivity.
  assert (Hmm : tmin v0 vn a < i64_max) by lia.
  set (c := (v0 - vn) * (v0 - vn) + a * (a + 2 * ds)).
  set (b := 2 * a * (v0 + vn)).
  assert (Sl : forall t, sqpoly (a * a) b c t = slack ds v0 vn a t) by (intro; reflexivity).
  assert (Simple : (forall t, 0 <= slack ds v0 vn a t) ->
    exists r, Ok (mr_range (tmin v0 vn a) i64_max) = Ok r /\ ordered r /\ nonempty_ranges r /\
    (forall t, covers r t -> tmin v0 vn a <= t < i64_max /\ 0 <= slack ds v0 vn a t /\
       0 <= slack ds v0 vn a (t + 1)) /\
    (forall t, tmin v0 vn a <= t < i64_max -> 0 <= slack ds v0 vn a t ->
       acc_vertex v0 vn a < t -> covers r t) /\
    (forall t, 2 ^ 31 <= t < i64_max -> covers r t)).
  { intros Hall. exists (mr_range (tmin v0 vn a) i64_max). split; [reflexivity|].
    unfold mr_range. split; [constructor; lia|].
    split; [intros l h [E|[]]; injection E as <- <-; auto|].
    assert (C : forall t, covers [(tmin v0 vn a, i64_max)] t <-> tmin v0 vn a <= t < i64_max).
    { intro t. rewrite (covers_cons (tmin v0 vn a, i64_max)). cbn [fst snd].
      rewrite covers_nil. tauto. }
    split; [|split]; intros t Ht; rewrite C in *; auto. lia. }
  destruct (Z.ltb_spec (c + (v0 + vn) * (v0 + vn)) 0) as [Hd|Hd].
  { apply Simple. intro t. unfold slack. fold c.
    pose proof (Z.square_nonneg (a * t + (v0 + vn))) as Hq.
    replace ((a * t + (v0 + vn)) * (a * t + (v0 + vn))) with
      (a * a * t * t + 2 * a * (v0 + vn) * t + (v0 + vn) * (v0 + vn)) in Hq by ring. lia. }
  rewrite acc_vertex_eq in *.
  pose proof (vertex_near a (2 * (v0 + vn)) ltac:(lia)) as Hv1.
  set (xm := vertex a (2 * (v0 + vn))) in *. clearbody xm.
  assert (Hvx : - (a * a) <= 2 * (a * a) * xm + b <= a * a) by (unfold b; nia).
  assert (Hmin : forall t, sqpoly (a * a) b c xm <= sqpoly (a * a) b c t).
  { intro t. replace t with (xm + (t - xm)) by lia. rewrite sqpoly_shift.
    set (d := t - xm). set (e := 2 * (a * a) * xm + b) in *.
    assert (0 <= d * e + a * a * d * d); [|lia].
    apply step_min; [nia|lia]. }
  destruct (Z.geb_spec (sqpoly (a * a) b c xm) 0) as [Hy|Hy].
  { apply Simple. intro t. rewrite <- Sl. specialize (Hmin t). lia. }
  destruct (roots_search (a * a) b c xm) as (l & x1 & x2 & El & E1 & E2 & Bx & P1 & P2 & P3); auto; [nia|].
  rewrite El. cbn [bind]. rewrite E1, E2. cbn [bind].
  assert (Hx2 : x2 <= 2 ^ 30).
  { destruct (Z_le_gt_dec x2 (2 ^ 30)); auto. exfalso.
    pose proof (slack_pos_large ds v0 vn a vmax (x2 - 1) Hs ltac:(lia)). 
    rewrite <- Sl in H. specialize (P3 (x2 - 1)). lia. }
  assert (Hx1 : - 2 ^ 30 <= x1).
  { destruct (Z_le_gt_dec (- 2 ^ 30) x1); auto. exfalso.
    pose proof (slack_pos_large ds v0 vn a vmax (x1 + 1) Hs ltac:(lia)).
    rewrite <- Sl in H. specialize (P3 (x1 + 1)). lia. }
  destruct (mr_or_ordered mr_new i64_min x1 ord_nil ltac:(lia)) as (r1 & Er1 & O1 & C1).
  rewrite Er1. cbn [bind].
  destruct (mr_or_ordered r1 x2 i64_max O1 ltac:(lia)) as (r2 & Er2 & O2 & C2).
  rewrite Er2. cbn [bind].
  assert (N1 : nonempty_ranges r1).
  { apply (mr_or_nonempty mr_new i64_min x1 r1 ord_nil); auto; [intros ? ? []|lia]. }
  assert (N2 : nonempty_ranges r2) by (apply (mr_or_nonempty r1 x2 i64_max r2); auto; lia).
  destruct (mr_and_ordered r2 (tmin v0 vn a) i64_max O2 ltac:(lia)) as [O3 C3].
  exists (mr_and r2 (tmin v0 vn a) i64_max). split; [reflexivity|]. split; [exact O3|].
  split; [apply mr_and_nonempty; auto|].
  assert (C : forall t, covers (mr_and r2 (tmin v0 vn a) i64_max) t <->
     (i64_min <= t < x1 \/ x2 <= t < i64_max) /\ tmin v0 vn a <= t < i64_max).
  { intro t. rewrite C3, C2, C1. unfold mr_new. rewrite covers_nil. tauto. }
  split; [|split]; intros t Ht.
  - rewrite C in Ht. split; [tauto|]. rewrite <- !Sl.
    destruct Ht as [[Ht|Ht] _]; split; [apply P1; lia|apply P1; lia|apply P2; lia|apply P2; lia].
  - intros Hp Hg. apply C. split; [|lia]. rewrite <- Sl in Hp.
    destruct (Z_lt_ge_dec t x2); [|lia]. specialize (P3 t). lia.
  - apply C. lia.
Qed.

(** ** The speed limited duration *)

Definition s0_ (v0 vn a vmax : Z) : Z :=
  F v0 vn a (tk a (vmax - v0) + tk a (vmax - vn)) vmax.

Lemma speed_limited_s0 : forall v0 vn a vmax, 0 < a -> v0 <= vmax -> vn <= vmax ->
  let t1 := (vmax - v0 + a - 1) / a in
  let dv1 := (vmax - v0 + a - 1) mod a in
  let t4 := (vmax - vn + a - 1) / a in
  let dv4 := (vmax - vn + a - 1) mod a in
  t1 = tk a (vmax - v0) /\ t4 = tk a (vmax - vn) /\
  (2 * v0 + t1 * a) * t1 + (dv1 - (a - 1)) + (2 * vn + t4 * a) * t4 + (dv4 - (a - 1)) =
  s0_ v0 vn a vmax.
Proof.
  intros v0 vn a vmax Ha H0 Hn t1 dv1 t4 dv4.
  assert (E1 : t1 = tk a (vmax - v0)) by (unfold tk, t1; rewrite Z.abs_eq by lia; reflexivity).
  assert (E4 : t4 = tk a (vmax - vn)) by (unfold tk, t4; rewrite Z.abs_eq by lia; reflexivity).
  split; [exact E1|]. split; [exact E4|].
  assert (D1 : vmax - v0 + a - 1 = a * t1 + dv1) by (apply Z.div_mod; lia).
  assert (D4 : vmax - vn + a - 1 = a * t4 + dv4) by (apply Z.div_mod; lia).
  unfold s0_, F. rewrite <- E1, <- E4.
  assert (L : forall u t dv, 0 <= u -> t = tk a u -> u + a - 1 = a * t + dv ->
    Lf a u = u * (2 * t - 1) - a * t * (t - 1)).
  { intros u t dv Hu Ht Hd. unfold Lf. destruct (Z.leb_spec 0 u); [|lia]. rewrite <- Ht. reflexivity. }
  rewrite (L (vmax - v0) t1 dv1), (L (vmax - vn) t4 dv4) by (auto; lia).
  assert (dv1 - (a - 1) = vmax - v0 - a * t1) as -> by lia.
  assert (dv4 - (a - 1) = vmax - vn - a * t4) as -> by lia. ring.
Qed.

Lemma F_linear : forall v0 vn a T T' v, F v0 vn a T v = F v0 vn a T' v + 2 * v * (T - T').
Proof. intros; unfold F; ring. Qed.

Lemma tk_small : forall a u, 1 <= a -> tk a u <= Z.abs u.
Proof. intros a u Ha. apply tk_le_iff; try lia. nia. Qed.

Lemma Lf_bound : forall a u, 1 <= a -> Z.abs (Lf a u) <= 2 * Z.abs u * Z.abs u.
Proof.
  intros a u Ha.
  assert (P : forall u, 0 <= u -> 0 <= Lf a u <= 2 * u * u).
  { intros w Hw. destruct (split_pos a w) as (q & s & E & Hq & Hs); try lia.
    rewrite E, Lf_at by lia. assert (q <= a * q) by nia. split; [nia|].
    assert (s <= s * s) by nia. assert (a * q * q <= a * q * (a * q)) by nia.
    assert (s * q <= s * (a * q)) by nia.
    nia. }
  destruct (Z_le_gt_dec 0 u).
  - pose proof (P u). lia.
  - replace u with (- (- u)) by lia. rewrite Lf_opp by lia. rewrite !Z.abs_opp.
    pose proof (P (- u)). lia.
Qed.

Lemma speed_limited_spec : forall ds v0 vn a vmax, supported ds v0 vn a vmax ->
  let t14 := tk a (vmax - v0) + tk a (vmax - vn) in
  let s0 := s0_ v0 vn a vmax in
  (ds < s0 /\ speed_limited_curve ds v0 vn a vmax = Ok []) \/
  (s0 <= ds /\ exists x, speed_limited_curve ds v0 vn a vmax = Ok [(x, i64_max)] /\
     t14 <= x <= 2 ^ 50 /\ (forall t, x <= t <-> ds <= F v0 vn a t vmax)).
Proof.
  intros ds v0 vn a vmax [Hds Ha Hv H0 Hn] t14 s0.
  unfold speed_limited_curve.
  destruct (Z.eqb_spec a 0); [lia|]. cbn [negb assert bind].
  destruct (speed_limited_s0 v0 vn a vmax) as (E1 & E4 & Es); try lia.
  rewrite E1, E4, Es in *. fold s0 in Es |- *.
  pose proof (tk_nonneg a (vmax - v0) ltac:(lia)) as T1. pose proof (tk_nonneg a (vmax - vn) ltac:(lia)) as T4.
  destruct (Z.geb_spec ds s0) as [Hge|Hlt]; [right|left; split; [lia|reflexivity]].
  split; [lia|]. destruct (Z.eqb_spec vmax 0); [lia|]. cbn [negb assert bind].
  rewrite Z.quot_div_nonneg by lia.
  set (q := (ds - s0 + 2 * vmax - 1) / (2 * vmax)).
  assert (Hq : 2 * vmax * q <= ds - s0 + 2 * vmax - 1 < 2 * vmax * q + 2 * vmax).
  { unfold q. pose proof (Z.div_mod (ds - s0 + 2 * vmax - 1) (2 * vmax)).
    pose proof (Z.mod_pos_bound (ds - s0 + 2 * vmax - 1) (2 * vmax)). lia. }
  assert (Hq0 : 0 <= q) by (apply Z.div_pos; lia). clearbody q.
  fold t14.
  assert (Bs : - 2 ^ 46 <= s0).
  { unfold s0, s0_, F.
    pose proof (Lf_bound a (vmax - v0) ltac:(lia)) as L1. pose proof (Lf_bound a (vmax - vn) ltac:(lia)) as L2.
    rewrite (Z.abs_eq (vmax - v0)) in L1 by lia. rewrite (Z.abs_eq (vmax - vn)) in L2 by lia.
    assert ((vmax - v0) * (vmax - v0) <= 2 ^ 21 * 2 ^ 21) by (apply Z.mul_le_mono_nonneg; lia).
    assert ((vmax - vn) * (vmax - vn) <= 2 ^ 21 * 2 ^ 21) by (apply Z.mul_le_mono_nonneg; lia).
    assert (0 <= vmax * (tk a (vmax - v0) + tk a (vmax - vn))) by (apply Z.mul_nonneg_nonneg; lia).
    change (2 ^ 21 * 2 ^ 21) with (2 ^ 42) in *. lia. }
  assert (Bq : q <= 2 ^ 48).
  { assert (q <= 2 * vmax * q) by (apply le_mul_1; lia). lia. }
  assert (Bt : t14 <= 2 ^ 30).
  { pose proof (tk_small a (vmax - v0) ltac:(lia)). pose proof (tk_small a (vmax - vn) ltac:(lia)).
    unfold t14. lia. }
  assert (Hi : i64_max = 2 ^ 63 - 1) by reflexivity.
  exists (t14 + q). split; [|split; [lia|]].
  - unfold mr_or. destruct (Z.leb_spec (t14 + q) i64_max); [|lia]. reflexivity.
  - intro t. rewrite (F_linear v0 vn a t t14). fold (s0_ v0 vn a vmax). unfold t14 at 2. fold t14.
    change (F v0 vn a t14 vmax) with s0.
    pose proof (ceil_iff vmax q (ds - s0) (t - t14) ltac:(lia) Hq). lia.
Qed.

(** ** Peak of the profile that accelerates all the time *)

Lemma peak_dist_aux : forall v0 vn a T tl th, 0 < a -> 0 <= tl -> 0 <= th ->
  2 * a * tl <= T * a - (v0 - vn) < 2 * a * tl + 2 * a ->
  2 * a * th <= T * a - (vn - v0) < 2 * a * th + 2 * a ->
  vn + th * a <= v0 + tl * a ->
  a * a * T * T + 2 * a * (v0 + vn) * T - (v0 - vn) * (v0 - vn) - a * a
    <= 2 * a * F v0 vn a T (v0 + tl * a).
Proof.
  intros v0 vn a T tl th Ha H0l H0h Hl Hh Hc.
  unfold F. replace (v0 + tl * a - v0) with (a * tl + 0) by ring. rewrite Lf_at by lia.
  set (s := v0 + tl * a - vn - a * th).
  replace (v0 + tl * a - vn) with (a * th + s) by (unfold s; ring).
  assert (Hs : 0 <= s) by (unfold s; lia).
  assert (Ev : v0 = vn + s + a * th - a * tl) by (unfold s; ring). clearbody s.
  assert (T = tl + th \/ T = tl + th + 1) as [ET|ET] by nia.
  - subst T. assert (s <= 0) by (subst v0; nia). assert (s = 0) by lia. subst s.
    rewrite Lf_at by lia. subst v0. nia.
  - assert (Hsa : s <= a) by (subst v0 T; nia).
    rewrite Lf_at by lia. subst v0 T.
    assert (0 <= s * s) by nia. nia.
Qed.

Lemma peak_dist : forall v0 vn a T tl th, 0 < a -> 0 <= tl -> 0 <= th ->
  2 * a * tl <= T * a - (v0 - vn) < 2 * a * tl + 2 * a ->
  2 * a * th <= T * a - (vn - v0) < 2 * a * th + 2 * a ->
  a * a * T * T + 2 * a * (v0 + vn) * T - (v0 - vn) * (v0 - vn) - a * a
    <= 2 * a * F v0 vn a T (Z.max (v0 + tl * a) (vn + th * a)).
Proof.
  intros v0 vn a T tl th Ha H0l H0h Hl Hh.
  destruct (Z_le_gt_dec (vn + th * a) (v0 + tl * a)).
  - rewrite Z.max_l by lia. apply (peak_dist_aux v0 vn a T tl th); auto.
  - rewrite Z.max_r by lia. rewrite F_swap.
    pose proof (peak_dist_aux vn v0 a T th tl Ha H0h H0l Hh Hl ltac:(lia)). lia.
Qed.

Lemma slack_hi_ok : forall ds v0 vn a vmax t, 0 < a -> 0 <= t -> v0 <= vmax -> vn <= vmax ->
  Z.abs (v0 - vn) <= a * t -> 0 <= slack ds v0 vn a t -> ds < s0_ v0 vn a vmax -> 0 <= vmax ->
  hi_ok ds v0 vn a vmax t.
Proof.
  intros ds v0 vn a vmax t Ha Ht H0 Hn Hd Hs Hs0 Hv.
  destruct (Z_le_gt_dec (tk a (vmax - v0) + tk a (vmax - vn)) t) as [Hc|Hc].
  - exists vmax. repeat split; auto; try lia.
    + unfold tfree. lia.
    + unfold s0_ in Hs0. rewrite (F_linear v0 vn a t (tk a (vmax - v0) + tk a (vmax - vn))). nia.
  - set (tl := (t * a - (v0 - vn)) / (2 * a)). set (th := (t * a - (vn - v0)) / (2 * a)).
    assert (Hl : 2 * a * tl <= t * a - (v0 - vn) < 2 * a * tl + 2 * a).
    { unfold tl. pose proof (Z.div_mod (t * a - (v0 - vn)) (2 * a)).
      pose proof (Z.mod_pos_bound (t * a - (v0 - vn)) (2 * a)). lia. }
    assert (Hh : 2 * a * th <= t * a - (vn - v0) < 2 * a * th + 2 * a).
    { unfold th. pose proof (Z.div_mod (t * a - (vn - v0)) (2 * a)).
      pose proof (Z.mod_pos_bound (t * a - (vn - v0)) (2 * a)). lia. }
    assert (H0l : 0 <= tl) by (apply Z.div_pos; lia).
    assert (H0h : 0 <= th) by (apply Z.div_pos; lia).
    clearbody tl th.
    destruct (bounds_feasible v0 vn a t tl th) as (B1 & B2 & B3 & B4 & B5); auto.
    pose proof (peak_dist v0 vn a t tl th Ha H0l H0h Hl Hh) as PD.
    set (M := Z.max (v0 + tl * a) (vn + th * a)) in *. clearbody M.
    exists M. repeat split; auto.
    + destruct (Z_le_gt_dec M vmax); auto. exfalso.
      unfold tfree in B3.
      pose proof (tk_mono a (vmax - v0) (M - v0) Ha ltac:(lia)).
      pose proof (tk_mono a (vmax - vn) (M - vn) Ha ltac:(lia)). lia.
    + unfold slack in Hs. nia.
Qed.
