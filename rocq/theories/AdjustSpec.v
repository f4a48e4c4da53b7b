(** The complete search of adjust_curve. *)
From Coq Require Import ZArith List Bool Lia.
From Coq Require Import ZifyBool ZifyNat.
From Verif Require Import Base Solve SolveProofs IntegerCurve CurveArith CurveAdjust.
Import ListNotations.
Open Scope Z_scope.

Lemma adjust_loop_spec : forall T ds v0 vn a, 0 < a ->
  forall fuel min max, min <= max -> max - min - 1 < 2 ^ Z.of_nat fuel ->
  F v0 vn a T min <= ds <= F v0 vn a T max ->
  exists min' max',
    adjust_loop fuel T ds v0 vn a min (F v0 vn a T min) max (F v0 vn a T max)
      = Ok (min', F v0 vn a T min', max', F v0 vn a T max') /\
    min <= min' <= max' /\ max' <= max /\ max' - min' <= 1 /\
    (min < max -> min' < max') /\
    F v0 vn a T min' <= ds <= F v0 vn a T max'.
Proof.
  intros T ds v0 vn a Ha. induction fuel as [|f IH]; intros min max Hle Hf HF.
  - cbn [adjust_loop]. destruct (Z.leb_spec (max - min) 1); [|cbn in Hf; lia].
    exists min, max. repeat split; lia.
  - cbn [adjust_loop]. destruct (Z.leb_spec (max - min) 1).
    { exists min, max. repeat split; lia. }
    rewrite (Z.add_comm max min).
    destruct (mid_between min max) as (M1 & M2 & M3); [lia|].
    set (mid := Z.quot (min + max) 2) in *. clearbody mid.
    rewrite path_distance_F by lia. cbn [bind].
    rewrite Nat2Z.inj_succ, Z.pow_succ_r in Hf by lia.
    destruct (Z.geb_spec (F v0 vn a T mid) ds).
    + destruct (IH min mid) as (mn & mx & E & B1 & B2 & B3 & B4 & B5); try lia.
      exists mn, mx. rewrite E. repeat split; lia.
    + destruct (IH mid max) as (mn & mx & E & B1 & B2 & B3 & B4 & B5); try lia.
      exists mn, mx. rewrite E. repeat split; lia.
Qed.

Lemma loop_fuel_enough : forall d, 0 <= d -> d - 1 < 2 ^ Z.of_nat (bisect_fuel d).
Proof.
  intros d Hd. unfold bisect_fuel. rewrite Nat2Z.inj_succ, Z.pow_succ_r by lia.
  destruct (Z.eq_dec d 0) as [->|].
  - assert (0 < 2 ^ Z.of_nat (Z.to_nat (Z.log2_up 0))) by (apply Z.pow_pos_nonneg; lia). lia.
  - pose proof (bisect_fuel_enough d ltac:(lia)).
    assert (0 < 2 ^ Z.of_nat (Z.to_nat (Z.log2_up d))) by (apply Z.pow_pos_nonneg; lia). lia.
Qed.

Lemma adjust_bounds_spec : forall T v0 vn a M m, 0 < a -> Z.abs (v0 - vn) <= a * T ->
  v0 <= M -> vn <= M -> 0 <= tfree v0 vn a T M ->
  m <= v0 -> m <= vn -> 0 <= tfree v0 vn a T m ->
  (M = Z.max v0 vn /\ m = Z.min v0 vn) \/
  exists min max, adjust_bounds T v0 vn a = Ok (min, max) /\
    M <= max /\ min <= m /\ 0 <= tfree v0 vn a T max /\ 0 <= tfree v0 vn a T min.
Proof.
  intros T v0 vn a M m Ha Hd HM0 HMn HM Hm0 Hmn Hm.
  unfold adjust_bounds.
  destruct (Z.eqb_spec a 0); [lia|]. cbn [negb assert bind].
  rewrite !Z.quot_div_nonneg by lia.
  set (tl := (T * a - (v0 - vn)) / (2 * a)). set (th := (T * a - (vn - v0)) / (2 * a)).
  assert (Hl : 2 * a * tl <= T * a - (v0 - vn) < 2 * a * tl + 2 * a).
  { unfold tl. pose proof (Z.div_mod (T * a - (v0 - vn)) (2 * a)).
    pose proof (Z.mod_pos_bound (T * a - (v0 - vn)) (2 * a)). lia. }
  assert (Hh : 2 * a * th <= T * a - (vn - v0) < 2 * a * th + 2 * a).
  { unfold th. pose proof (Z.div_mod (T * a - (vn - v0)) (2 * a)).
    pose proof (Z.mod_pos_bound (T * a - (vn - v0)) (2 * a)). lia. }
  assert (H0l : 0 <= tl) by (apply Z.div_pos; lia).
  assert (H0h : 0 <= th) by (apply Z.div_pos; lia).
  clearbody tl th.
  destruct (bounds_feasible v0 vn a T tl th) as (B1 & B2 & B3 & B4 & B5); auto.
  destruct (bounds_feasible (- v0) (- vn) a T th tl) as (C1 & C2 & C3 & C4 & _); auto; try lia.
  set (mx := Z.max (v0 + tl * a) (vn + th * a)) in *.
  set (mn := Z.min (v0 - th * a) (vn - tl * a)).
  assert (Emn : Z.max (- v0 + th * a) (- vn + tl * a) = - mn) by (unfold mn; lia).
  rewrite Emn in *.
  assert (HMx : M <= mx) by (apply B4; auto).
  assert (Hmm : mn <= m).
  { assert (- m <= - mn); [|lia]. apply C4; try lia. rewrite tfree_opp. auto. }
  rewrite tfree_opp in C3.
  destruct (Z.leb_spec (tl + th) T); [|lia]. cbn [assert bind].
  destruct (Z.geb_spec (tl + th) (T - 1)); [|lia]. cbn [assert bind].
  unfold max_i64, min_i64.
  replace (vn + tl * - a) with (vn - tl * a) by ring.
  replace (v0 + th * - a) with (v0 - th * a) by ring.
  assert (Hcases :
    (M = Z.max v0 vn /\ m = Z.min v0 vn) \/
    ((if th =? 0 then v0 + tl * a else if tl =? 0 then vn + th * a
      else if v0 + tl * a >=? vn + th * a then v0 + tl * a else vn + th * a) = mx /\
     (if th =? 0 then vn - tl * a else if tl =? 0 then v0 - th * a
      else if v0 - th * a <=? vn - tl * a then v0 - th * a else vn - tl * a) = mn)).
  { assert (K1 : 0 <= tl * a) by (apply Z.mul_nonneg_nonneg; lia).
    assert (K2 : 0 <= th * a) by (apply Z.mul_nonneg_nonneg; lia).
    destruct (Z.eqb_spec th 0) as [->|].
    - destruct (Z_lt_ge_dec (v0 + tl * a) vn); [left; unfold mx, mn in *; lia|right; unfold mx, mn; lia].
    - destruct (Z.eqb_spec tl 0) as [->|].
      + destruct (Z_lt_ge_dec (vn + th * a) v0); [left; unfold mx, mn in *; lia|right; unfold mx, mn; lia].
      + right. unfold mx, mn.
        destruct (Z.geb_spec (v0 + tl * a) (vn + th * a)), (Z.leb_spec (v0 - th * a) (vn - tl * a)); lia. }
  destruct Hcases as [Hc|[-> ->]]; [left; auto|right].
  exists mn, mx.
  destruct (Z.geb_spec mx mn); [|lia]. cbn [assert bind]. auto.
Qed.

Lemma quot_0_2 : forall x, x = 0 -> Z.quot x 2 = 0.
Proof. intros x ->. reflexivity. Qed.

(** The velocities at rest in the middle are exactly those reachable from
    both ends. *)
Lemma tfree_between_above : forall v0 vn a T v M, 0 < a -> v0 <= v -> vn <= v -> v <= M ->
  0 <= tfree v0 vn a T M -> 0 <= tfree v0 vn a T v.
Proof.
  intros v0 vn a T v M Ha H0 Hn HM Hf. unfold tfree in *.
  pose proof (tk_mono a (v - v0) (M - v0) Ha ltac:(lia)).
  pose proof (tk_mono a (v - vn) (M - vn) Ha ltac:(lia)). lia.
Qed.

Lemma tfree_between_below : forall v0 vn a T v m, 0 < a -> v <= v0 -> v <= vn -> m <= v ->
  0 <= tfree v0 vn a T m -> 0 <= tfree v0 vn a T v.
Proof.
  intros v0 vn a T v M Ha H0 Hn HM Hf. unfold tfree in *.
  pose proof (tk_mono a (v - v0) (M - v0) Ha ltac:(lia)).
  pose proof (tk_mono a (v - vn) (M - vn) Ha ltac:(lia)). lia.
Qed.

Lemma adjust_curve_within : forall ds v0 vn a lo hi T, 0 < a -> 2 <= T ->
  - lo <= v0 <= hi -> - lo <= vn <= hi ->
  hi_ok ds v0 vn a hi T -> lo_ok ds v0 vn a lo T ->
  exists v adj, adjust_curve T ds v0 vn a = Ok (mk_path v0 vn a v T adj) /\
    good_path v0 vn a T ds v adj /\ - lo <= v <= hi.
Proof.
  intros ds v0 vn a lo hi T Ha HT Hv0 Hvn (M & HM0 & HMn & HMv & HMf & HMF) (m & Hm0 & Hmn & Hmv & Hmf & HmF).
  assert (Hd : Z.abs (v0 - vn) <= a * T) by (apply (feas_diff v0 vn a T M); auto; lia).
  unfold adjust_curve. destruct (Z.eqb_spec T 1); [lia|].
  pose proof (adjust_curve_mid_spec T ds v0 vn a Ha ltac:(lia) Hd) as HMID. cbv zeta in HMID.
  set (vl := Z.min v0 vn) in *. set (vh := Z.max v0 vn) in *.
  assert (Hvl : vl <= v0 /\ vl <= vn) by (unfold vl; lia).
  assert (Hvh : v0 <= vh /\ vn <= vh) by (unfold vh; lia).
  assert (Hvlvh : - lo <= vl /\ vl <= vh /\ vh <= hi) by (unfold vl, vh; lia).
  assert (HmVl : m <= vl) by (unfold vl; lia). assert (HMVh : vh <= M) by (unfold vh; lia).
  destruct (adjust_curve_mid T ds v0 vn a) as [[p|]| |]; cbn [bind]; try contradiction.
  - destruct HMID as (v & adj & -> & Hv & Hn & [(K & -> & Ht & E1 & E2)|(K & G & _)]).
    + exists v, 0. split; [reflexivity|]. split; [|lia].
      (* d = a T: no other velocity is reachable *)
      assert (EM : M = vh).
      { unfold tfree in HMf.
        pose proof (proj2 (tk_bounds a (M - v0) Ha)). pose proof (proj2 (tk_bounds a (M - vn) Ha)).
        rewrite Z.abs_eq in * by lia.
        assert (M - v0 + (M - vn) <= a * T) by nia. unfold vh, vl in *. lia. }
      assert (Em : m = vl).
      { unfold tfree in Hmf.
        pose proof (proj2 (tk_bounds a (m - v0) Ha)). pose proof (proj2 (tk_bounds a (m - vn) Ha)).
        rewrite Z.abs_neq in * by lia.
        assert (v0 - m + (vn - m) <= a * T) by nia. unfold vh, vl in *. lia. }
      subst M m. unfold good_path. lia.
    + exists v, adj. split; [reflexivity|]. split; [exact G|lia].
  - destruct HMID as [K HMID].
    destruct (adjust_bounds_spec T v0 vn a M m) as [[E1 E2]|(mn & mx & E & B1 & B2 & B3 & B4)]; auto.
    { fold vh in E1. fold vl in E2. subst M m. exfalso. lia. }
    rewrite E. cbn [bind]. rewrite !path_distance_F by lia. cbn [bind].
    assert (Fabove : forall x y, vh <= x -> x < y -> y <= mx -> F v0 vn a T x < F v0 vn a T y).
    { intros x y Hx Hxy Hy. apply F_lt; [lia|lia|]. intros z Hz.
      apply (Nf_above v0 vn a T z mx); auto; lia. }
    assert (Fbelow : forall x y, mn <= x -> x < y -> y <= vl -> F v0 vn a T x < F v0 vn a T y).
    { intros x y Hx Hxy Hy. apply F_lt; [lia|lia|]. intros z Hz.
      apply (Nf_below v0 vn a T z mn); auto; lia. }
    assert (Fmid : forall x, vl <= x <= vh -> F v0 vn a T vl <= F v0 vn a T x <= F v0 vn a T vh).
    { intros x Hx. split; apply F_le; try lia; intros z Hz; apply Nf_mid; auto; unfold vl, vh in *; lia. }
    assert (FMx : ds <= F v0 vn a T mx).
    { destruct (Z.eq_dec M mx) as [<-|]; [auto|]. pose proof (Fabove M mx). lia. }
    assert (FMn : F v0 vn a T mn <= ds).
    { destruct (Z.eq_dec m mn) as [<-|]; [auto|]. pose proof (Fbelow mn m). lia. }
    destruct (Z.geb_spec (F v0 vn a T mx) ds); [|lia]. cbn [assert bind].
    destruct (Z.leb_spec (F v0 vn a T mn) ds); [|lia]. cbn [assert bind].
    destruct (adjust_loop_spec T ds v0 vn a Ha (bisect_fuel (mx - mn)) mn mx)
      as (x & y & -> & L1 & L2 & L3 & L4 & L5).
    { lia. } { apply loop_fuel_enough; lia. } { lia. }
    cbn [bind].
    assert (Hlt : mn < mx).
    { destruct (Z.eq_dec mn mx) as [Eq|]; [|lia].
      assert (M = m /\ vh = vl /\ M = vl /\ mx = vl) as (-> & E1 & E2 & E3) by lia.
      rewrite E1, E2 in *. lia. }
    specialize (L4 Hlt). assert (Exy : y = x + 1) by lia.
    destruct HMID as [Hlow|Hhigh].
    + (* below both ends *)
      assert (Hx : x < vl).
      { destruct (Z_lt_ge_dec x vl); auto. exfalso.
        destruct (Z_le_gt_dec x vh); [pose proof (Fmid x); lia|].
        pose proof (Fabove vh x). pose proof (Fmid vh). lia. }
      assert (Gx : 0 <= tfree v0 vn a T x) by (apply (tfree_between_below v0 vn a T x mn); auto; lia).
      assert (Gy : 0 <= tfree v0 vn a T y) by (apply (tfree_between_below v0 vn a T y mn); auto; lia).
      destruct (Z.eqb_spec (F v0 vn a T y) ds) as [Ey|Ey].
      { exists y, 0. split; [reflexivity|]. split; [unfold good_path; lia|].
        destruct (Z_lt_ge_dec y m); [pose proof (Fbelow y m); lia|lia]. }
      assert (Hym : m < y).
      { destruct (Z_lt_ge_dec m y); auto. exfalso.
        destruct (Z.eq_dec y m) as [Eq|]; [subst y; rewrite Eq in *; lia|]. pose proof (Fbelow y m). lia. }
      destruct (Z.eqb_spec (F v0 vn a T x) ds) as [Ex|Ex].
      { exists x, 0. split; [reflexivity|]. split; [unfold good_path; lia|lia]. }
      assert (Ec : (v0 >? x) || (vn >? x) = true) by lia. rewrite Ec.
      exists x, (Z.quot (ds - F v0 vn a T x) 2). split; [reflexivity|]. split; [|lia].
      apply good_path_pos; auto; try lia. right. rewrite <- Exy. split; lia.
    + (* above both ends *)
      assert (Hy : vh < y).
      { destruct (Z_lt_ge_dec vh y); auto. exfalso.
        destruct (Z_le_gt_dec vl y); [pose proof (Fmid y); lia|].
        pose proof (Fbelow y vl). pose proof (Fmid vl). lia. }
      assert (Gx : 0 <= tfree v0 vn a T x) by (apply (tfree_between_above v0 vn a T x mx); auto; lia).
      assert (Gy : 0 <= tfree v0 vn a T y) by (apply (tfree_between_above v0 vn a T y mx); auto; lia).
      destruct (Z.eqb_spec (F v0 vn a T y) ds) as [Ey|Ey].
      { exists y, 0. split; [reflexivity|]. split; [unfold good_path; lia|].
        destruct (Z_lt_ge_dec M y); [|lia].
        destruct (Z.eq_dec M x) as [Eq|]; [subst x; pose proof (Fabove M y); lia|].
        pose proof (Fabove M y). lia. }
      destruct (Z.eqb_spec (F v0 vn a T x) ds) as [Ex|Ex].
      { exists x, 0. split; [reflexivity|]. split; [unfold good_path; lia|].
        destruct (Z_lt_ge_dec M x); [pose proof (Fabove M x); lia|lia]. }
      assert (Hxm : x < M).
      { destruct (Z_lt_ge_dec x M); auto. exfalso.
        destruct (Z.eq_dec M x) as [Eq|]; [subst x; lia|]. pose proof (Fabove M x). lia. }
      assert (Ec : (v0 >? x) || (vn >? x) = false) by lia. rewrite Ec.
      exists y, (Z.quot (ds - F v0 vn a T y) 2). split; [reflexivity|]. split; [|lia].
      apply good_path_neg; auto; try lia. right.
      replace (y - 1) with x by lia. split; lia.
Qed.

Lemma adjust_curve_spec : forall ds v0 vn a vmax T, 0 < a -> 2 <= T ->
  Z.abs v0 <= vmax -> Z.abs vn <= vmax ->
  hi_ok ds v0 vn a vmax T -> lo_ok ds v0 vn a vmax T ->
  exists v adj, adjust_curve T ds v0 vn a = Ok (mk_path v0 vn a v T adj) /\
    good_path v0 vn a T ds v adj /\ - vmax <= v <= vmax.
Proof. intros. apply adjust_curve_within; auto; lia. Qed.

(** One tick: only one profile is possible. *)
Lemma adjust_curve_1 : forall ds v0 vn a lo hi, 0 < a ->
  hi_ok ds v0 vn a hi 1 -> lo_ok ds v0 vn a lo 1 ->
  adjust_curve 1 ds v0 vn a = Ok (mk_path v0 vn a v0 1 0) /\ ds = v0 + vn /\ Z.abs (vn - v0) <= a.
Proof.
  intros ds v0 vn a lo hi Ha (M & HM0 & HMn & HMv & HMf & HMF) (m & Hm0 & Hmn & Hmv & Hmf & HmF).
  assert (Hd : Z.abs (v0 - vn) <= a * 1) by (apply (feas_diff v0 vn a 1 M); auto; lia).
  assert (L0 : Lf a 0 = 0).
  { pose proof (Lf_at a 0 0 Ha) as H. replace (a * 0 + 0) with 0 in H by lia. rewrite H; lia. }
  assert (L1 : forall u, Z.abs u <= a -> Lf a u = u).
  { intros u Hu. assert (P : forall w, 0 <= w <= a -> Lf a w = w).
    { intros w Hw. pose proof (Lf_at a 0 w Ha). replace (a * 0 + w) with w in H by lia. rewrite H by lia. lia. }
    destruct (Z_le_gt_dec 0 u); [apply P; lia|].
    replace u with (- - u) by lia. rewrite Lf_opp by lia. rewrite P; lia. }
  assert (one : forall x, x <> v0 -> x <> vn -> (v0 <= x /\ vn <= x \/ x <= v0 /\ x <= vn) ->
     0 <= tfree v0 vn a 1 x -> False).
  { intros x H1 H2 H3 H4. unfold tfree in H4.
    assert (tk a (x - v0) >= 1).
    { pose proof (tk_nonneg a (x - v0) Ha). destruct (Z.eq_dec (tk a (x - v0)) 0) as [E|]; [|lia].
      assert (tk a (x - v0) <= 0) by lia. apply tk_le_iff in H0; lia. }
    assert (tk a (x - vn) >= 1).
    { pose proof (tk_nonneg a (x - vn) Ha). destruct (Z.eq_dec (tk a (x - vn)) 0) as [E|]; [|lia].
      assert (tk a (x - vn) <= 0) by lia. apply tk_le_iff in H5; lia. }
    lia. }
  assert (Fv : forall x, (x = v0 \/ x = vn) -> F v0 vn a 1 x = v0 + vn).
  { intros x [-> | ->]; unfold F; rewrite Z.sub_diag, L0, L1; lia. }
  assert (HF1 : F v0 vn a 1 M = v0 + vn).
  { apply Fv. destruct (Z.eq_dec M v0); auto. destruct (Z.eq_dec M vn); auto. exfalso. eapply (one M); auto. }
  assert (HF2 : F v0 vn a 1 m = v0 + vn).
  { apply Fv. destruct (Z.eq_dec m v0); auto. destruct (Z.eq_dec m vn); auto. exfalso. eapply (one m); auto. }
  assert (ds = v0 + vn) by lia. unfold adjust_curve. cbn [Z.eqb Pos.eqb].
  assert (Ec : (Z.abs (v0 + vn - ds) <=? 1) = true) by lia. rewrite Ec. cbn [assert bind].
  split; [reflexivity|]. lia.
Qed.
