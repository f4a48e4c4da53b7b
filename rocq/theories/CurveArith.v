(** Arithmetic of trapezoid speed profiles: ramp times, ramp losses and the
    distance of a profile as a function of its flat velocity. *)
From Coq Require Import ZArith List Bool Lia.
From Coq Require Import ZifyBool.
From Verif Require Import Base IntegerCurve.
Open Scope Z_scope.

(** Ticks needed to change the velocity by [u]. *)
Definition tk (a u : Z) : Z := (Z.abs u + a - 1) / a.

(** Distance lost by ramping over [u] instead of being at full speed at once. *)
Definition Lf (a u : Z) : Z :=
  if 0 <=? u then u * (2 * tk a u - 1) - a * tk a u * (tk a u - 1)
  else u * (2 * tk a u - 1) + a * tk a u * (tk a u - 1).

(** Distance of the profile with flat velocity [v]. *)
Definition F (v0 vn a T v : Z) : Z := 2 * v * T - Lf a (v - v0) - Lf a (v - vn).

(** Number of whole ramp ticks left unchanged when going from u to u+1. *)
Definition fl (a u : Z) : Z := if 0 <=? u then u / a else (- u - 1) / a.

Lemma div_unique_pos : forall a x q, 0 < a -> a * q <= x < a * (q + 1) -> x / a = q.
Proof. intros a x q Ha H. symmetry. apply (Z.div_unique x a q (x - a * q)); lia. Qed.

Lemma tk_pos : forall a q s, 0 < a -> 0 <= q -> 0 < s <= a -> tk a (a * q + s) = q + 1.
Proof.
  intros a q s Ha Hq Hs. unfold tk. rewrite Z.abs_eq by nia.
  apply div_unique_pos; nia.
Qed.

Lemma tk_0 : forall a, 0 < a -> tk a 0 = 0.
Proof. intros; unfold tk. apply div_unique_pos; cbn [Z.abs]; lia. Qed.

Lemma tk_mul : forall a q, 0 < a -> 0 <= q -> tk a (a * q) = q.
Proof.
  intros a q Ha Hq. unfold tk. rewrite Z.abs_eq by nia. apply div_unique_pos; nia.
Qed.

Lemma tk_opp : forall a u, tk a (- u) = tk a u.
Proof. intros; unfold tk. rewrite Z.abs_opp. reflexivity. Qed.

Lemma tk_nonneg : forall a u, 0 < a -> 0 <= tk a u.
Proof. intros; unfold tk. apply Z.div_pos; lia. Qed.

Lemma Lf_opp : forall a u, 0 < a -> Lf a (- u) = - Lf a u.
Proof.
  intros a u Ha. unfold Lf. rewrite tk_opp.
  destruct (Z.leb_spec 0 u), (Z.leb_spec 0 (- u)); try lia.
  assert (u = 0) by lia. subst. rewrite tk_0 by lia. lia.
Qed.

(** Every u >= 0 is a*q + s with 0 <= s < a. *)
Lemma split_pos : forall a u, 0 < a -> 0 <= u -> exists q s, u = a * q + s /\ 0 <= q /\ 0 <= s < a.
Proof.
  intros a u Ha Hu. exists (u / a), (u mod a).
  pose proof (Z.div_mod u a). pose proof (Z.mod_pos_bound u a). pose proof (Z.div_pos u a). lia.
Qed.

(** Every u > 0 is a*q + s with 0 < s <= a. *)
Lemma split_pos1 : forall a u, 0 < a -> 0 < u -> exists q s, u = a * q + s /\ 0 <= q /\ 0 < s <= a.
Proof.
  intros a u Ha Hu. destruct (split_pos a (u - 1)) as (q & s & E & Hq & Hs); try lia.
  exists q, (s + 1). lia.
Qed.

Lemma Lf_at : forall a q s, 0 < a -> 0 <= q -> 0 <= s <= a ->
  Lf a (a * q + s) = a * q * q + s * (2 * q + 1).
Proof.
  intros a q s Ha Hq Hs. unfold Lf. destruct (Z.leb_spec 0 (a * q + s)); [|nia].
  destruct (Z.eq_dec s 0) as [->|].
  - rewrite Z.add_0_r, tk_mul by lia. ring.
  - rewrite tk_pos by lia. ring.
Qed.

Lemma fl_at : forall a q s, 0 < a -> 0 <= q -> 0 <= s < a -> fl a (a * q + s) = q.
Proof.
  intros a q s Ha Hq Hs. unfold fl. destruct (Z.leb_spec 0 (a * q + s)); [|nia].
  apply div_unique_pos; nia.
Qed.

Lemma fl_neg : forall a u, u < 0 -> fl a u = fl a (- u - 1).
Proof.
  intros a u Hu. unfold fl. destruct (Z.leb_spec 0 u), (Z.leb_spec 0 (- u - 1)); try lia.
Qed.

Lemma fl_nonneg : forall a u, 0 < a -> 0 <= fl a u.
Proof. intros; unfold fl. destruct (Z.leb_spec 0 u); apply Z.div_pos; lia. Qed.

Lemma Lf_diff_pos : forall a u, 0 < a -> 0 <= u -> Lf a (u + 1) - Lf a u = 2 * fl a u + 1.
Proof.
  intros a u Ha Hu. destruct (split_pos a u Ha Hu) as (q & s & -> & Hq & Hs).
  replace (a * q + s + 1) with (a * q + (s + 1)) by lia.
  rewrite !Lf_at, fl_at by lia. ring.
Qed.

Lemma Lf_diff : forall a u, 0 < a -> Lf a (u + 1) - Lf a u = 2 * fl a u + 1.
Proof.
  intros a u Ha. destruct (Z_le_gt_dec 0 u); [apply Lf_diff_pos; lia|].
  rewrite fl_neg by lia. rewrite <- (Lf_diff_pos a (- u - 1)) by lia.
  replace (- u - 1 + 1) with (- u) by lia. replace (- u - 1) with (- (u + 1)) by lia.
  rewrite !Lf_opp by lia. lia.
Qed.

Lemma tk_fl_pos : forall a u, 0 < a -> 0 < u -> tk a u = fl a (u - 1) + 1.
Proof.
  intros a u Ha Hu. destruct (split_pos a (u - 1)) as (q & s & E & Hq & Hs); try lia.
  rewrite E, fl_at by lia. replace u with (a * q + (s + 1)) by lia. apply tk_pos; lia.
Qed.

Lemma tk_fl_neg : forall a u, 0 < a -> u < 0 -> tk a u = fl a u + 1.
Proof.
  intros a u Ha Hu. rewrite <- tk_opp, fl_neg by lia. apply tk_fl_pos; lia.
Qed.

Lemma fl_mono_pos : forall a u w, 0 < a -> 0 <= u <= w -> fl a u <= fl a w.
Proof.
  intros a u w Ha H. unfold fl. destruct (Z.leb_spec 0 u), (Z.leb_spec 0 w); try lia.
  apply Z.div_le_mono; lia.
Qed.

Lemma tk_mono : forall a u w, 0 < a -> Z.abs u <= Z.abs w -> tk a u <= tk a w.
Proof. intros; unfold tk. apply Z.div_le_mono; lia. Qed.

Lemma tk_le_fl : forall a u, 0 < a -> tk a u <= fl a u + 1.
Proof.
  intros a u Ha. destruct (Ztrichotomy_inf u 0) as [[H| ->]|H].
  - rewrite tk_fl_neg; lia.
  - rewrite tk_0 by lia. pose proof (fl_nonneg a 0 Ha). lia.
  - rewrite tk_fl_pos by lia. pose proof (fl_mono_pos a (u - 1) u). lia.
Qed.

Lemma tk_le_fl_pred : forall a u, 0 < a -> tk a u <= fl a (u - 1) + 1.
Proof.
  intros a u Ha. destruct (Z_le_gt_dec u 0).
  - rewrite fl_neg by lia. replace (- (u - 1) - 1) with (- u) by lia.
    rewrite <- tk_opp. apply tk_le_fl; lia.
  - rewrite tk_fl_pos; lia.
Qed.

(** |u| fits in tk ticks and not in fewer. *)
Lemma tk_bounds : forall a u, 0 < a -> a * (tk a u - 1) < Z.abs u + (if u =? 0 then 1 else 0) /\ Z.abs u <= a * tk a u.
Proof.
  intros a u Ha. unfold tk.
  pose proof (Z.div_mod (Z.abs u + a - 1) a). pose proof (Z.mod_pos_bound (Z.abs u + a - 1) a).
  destruct (Z.eqb_spec u 0); lia.
Qed.

Lemma tk_le_iff : forall a u n, 0 < a -> 0 <= n -> (tk a u <= n <-> Z.abs u <= a * n).
Proof.
  intros a u n Ha Hn. pose proof (tk_bounds a u Ha) as [H1 H2]. split; intros H.
  - nia.
  - destruct (Z_le_gt_dec (tk a u) n); auto.
    destruct (Z.eqb_spec u 0) as [->|]; [rewrite tk_0 in *; lia|]. nia.
Qed.

(** ** F *)

Definition Nf (v0 vn a T v : Z) : Z := T - 1 - fl a (v - v0) - fl a (v - vn).

Lemma F_diff : forall v0 vn a T v, 0 < a ->
  F v0 vn a T (v + 1) - F v0 vn a T v = 2 * Nf v0 vn a T v.
Proof.
  intros v0 vn a T v Ha. unfold F, Nf.
  pose proof (Lf_diff a (v - v0) Ha) as H1. pose proof (Lf_diff a (v - vn) Ha) as H2.
  replace (v + 1 - v0) with (v - v0 + 1) by lia. replace (v + 1 - vn) with (v - vn + 1) by lia.
  lia.
Qed.

Lemma F_swap : forall v0 vn a T v, F v0 vn a T v = F vn v0 a T v.
Proof. intros; unfold F; lia. Qed.

Lemma F_opp : forall v0 vn a T v, 0 < a -> F (- v0) (- vn) a T (- v) = - F v0 vn a T v.
Proof.
  intros v0 vn a T v Ha. unfold F.
  replace (- v - - v0) with (- (v - v0)) by lia. replace (- v - - vn) with (- (v - vn)) by lia.
  rewrite !Lf_opp by lia. lia.
Qed.

(** Parity of a profile's distance. *)
Lemma Lf_parity : forall a u, 0 < a -> exists k, Lf a u = u + 2 * k.
Proof.
  intros a u Ha.
  assert (P : forall u, 0 <= u -> exists k, Lf a u = u + 2 * k).
  { intros w Hw. destruct (split_pos a w Ha Hw) as (q & s & -> & Hq & Hs).
    rewrite Lf_at by lia.
    assert (E : exists j, q * q = q + 2 * j).
    { destruct (Z.Even_or_Odd q) as [[j ->]|[j ->]].
      - exists (2 * j * j - j). ring.
      - exists (2 * j * j + j). ring. }
    destruct E as [j E]. exists (a * j + s * q). rewrite <- Z.mul_assoc, E. ring. }
  destruct (Z_le_gt_dec 0 u); [apply P; lia|].
  destruct (P (- u)) as [k Hk]; [lia|]. rewrite Lf_opp in Hk by lia. exists (- k). lia.
Qed.

Lemma F_parity : forall v0 vn a T v, 0 < a -> exists k, F v0 vn a T v = v0 + vn + 2 * k.
Proof.
  intros v0 vn a T v Ha. unfold F.
  destruct (Lf_parity a (v - v0) Ha) as [k1 ->]. destruct (Lf_parity a (v - vn) Ha) as [k2 ->].
  exists (v * T - v - k1 - k2). lia.
Qed.

(** ** Correspondence with the code *)

Lemma div_rem_away_spec : forall u a, 0 < a ->
  exists q dv, div_rem_away u a = Ok (q, dv) /\ u = a * q + dv /\
    Z.abs q = tk a u /\ (0 <= u -> 0 <= q /\ - a < dv <= 0) /\ (u <= 0 -> q <= 0 /\ 0 <= dv < a).
Proof.
  intros u a Ha. unfold div_rem_away.
  assert (E : (a >? 0) = true) by lia. rewrite E. cbn [assert bind].
  destruct (Z_le_gt_dec 0 u).
  - rewrite Z.quot_div_nonneg, Z.rem_mod_nonneg by lia.
    destruct (split_pos a u) as (q & s & -> & Hq & Hs); try lia.
    assert (D : (a * q + s) / a = q) by (apply div_unique_pos; lia).
    assert (M : (a * q + s) mod a = s).
    { symmetry. apply (Z.mod_unique _ _ q); lia. }
    rewrite D, M. destruct (Z.compare_spec s 0) as [->| |].
    + exists q, 0. rewrite Z.add_0_r, tk_mul by lia. repeat split; try lia.
    + lia.
    + exists (q + 1), (s - a). rewrite tk_pos by lia. repeat split; try lia; nia.
  - replace u with (- (- u)) by lia. rewrite Z.quot_opp_l, Z.rem_opp_l by lia.
    rewrite Z.quot_div_nonneg, Z.rem_mod_nonneg by lia. rewrite tk_opp.
    destruct (split_pos a (- u)) as (q & s & E' & Hq & Hs); try lia. rewrite E'.
    assert (D : (a * q + s) / a = q) by (apply div_unique_pos; lia).
    assert (M : (a * q + s) mod a = s).
    { symmetry. apply (Z.mod_unique _ _ q); lia. }
    rewrite D, M. destruct (Z.compare_spec (- s) 0) as [Hz| |].
    + exists (- q), (- s). assert (s = 0) by lia; subst s.
      rewrite Z.add_0_r, tk_mul by lia. repeat split; try lia.
    + exists (- q - 1), (- s + a). rewrite tk_pos by lia. repeat split; try lia; nia.
    + lia.
Qed.

Lemma ramp_loss : forall a u q dv, 0 < a -> u = a * q + dv -> Z.abs q = tk a u ->
  (0 <= u -> 0 <= q /\ - a < dv <= 0) -> (u <= 0 -> q <= 0 /\ 0 <= dv < a) ->
  (u + dv) * Z.abs q - dv = Lf a u.
Proof.
  intros a u q dv Ha E Ht Hp Hn. unfold Lf. rewrite <- Ht.
  destruct (Z.leb_spec 0 u).
  - destruct Hp as [Hq Hd]; auto. rewrite Z.abs_eq by lia.
    assert (dv = u - a * q) by lia. subst dv. ring.
  - destruct Hn as [Hq Hd]; [lia|]. rewrite Z.abs_neq by lia.
    assert (dv = u - a * q) by lia. subst dv. ring.
Qed.

Lemma path_distance_F : forall v0 vn v a T, 0 < a ->
  path_distance v0 vn v a T = Ok (F v0 vn a T v).
Proof.
  intros v0 vn v a T Ha. unfold path_distance.
  destruct (div_rem_away_spec (v - v0) a Ha) as (q1 & d1 & -> & E1 & T1 & P1 & M1).
  destruct (div_rem_away_spec (v - vn) a Ha) as (q4 & d4 & -> & E4 & T4 & P4 & M4).
  cbn [bind]. f_equal. unfold F.
  rewrite <- (ramp_loss a (v - v0) q1 d1) by auto.
  rewrite <- (ramp_loss a (v - vn) q4 d4) by auto. ring.
Qed.
