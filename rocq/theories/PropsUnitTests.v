(** C127: what the tests of integer_curve.rs and solve.rs assert holds for all inputs. *)
From Coq Require Import ZArith List Bool Lia.
From Coq Require Import ZifyBool ZifyNat.
From Verif Require Import Base MultiRange MultiRangeSpec MultiRangeProofs PropsMultiRange AccVector AccVectorProofs PropsAccVector MotionSpec Solve SolveProofs PropsSolve
  IntegerCurve CurveArith AccSeqProofs AccSeqSpec CurveAdjust AdjustSpec RangeProofs PlanProofs PropsIntegerCurve PropsDuration UnitTests.
Import ListNotations.
Open Scope Z_scope.

(** ** Loops *)
Lemma span_in : forall lo hi x, In x (span lo hi) -> lo <= x < hi.
Proof.
  intros lo hi x I. unfold span in I. apply in_map_iff in I. destruct I as (i & <- & I). apply in_seq in I. lia.
Qed.
Lemma for_in_all : forall lo hi body, (forall x, lo <= x < hi -> body x = Ok tt) -> for_in lo hi body = Ok tt.
Proof.
  intros lo hi body H. unfold for_in. assert (G : forall x, In x (span lo hi) -> body x = Ok tt) by (intros x I; apply H, span_in, I).
  clear H. induction (span lo hi) as [|x xs IH]; [reflexivity|]. cbn [each]. rewrite (G x) by (left; reflexivity). cbn [bind].
  apply IH. intros y I. apply G. right. exact I.
Qed.
(** A loop without a panic has made every call. *)
Lemma for_in_each : forall lo hi body x, for_in lo hi body = Ok tt -> lo <= x < hi -> body x = Ok tt.
Proof.
  intros lo hi body x E H. unfold for_in in E.
  assert (I : In x (span lo hi)).
  { unfold span. apply in_map_iff. exists (Z.to_nat (x - lo)). split; [lia|]. apply in_seq. lia. }
  induction (span lo hi) as [|y ys IH]; [destruct I|]. cbn [each] in E. destruct (body y) as [[]| |] eqn:B; try discriminate.
  destruct I as [->|I]; [exact B|]. apply IH; assumption.
Qed.

(** ** Divisions *)
Theorem C127_div_rem_away : forall a b, 0 < b -> check_div_rem_away a b = Ok tt.
Proof.
  intros a b H. unfold check_div_rem_away, div_rem_away. destruct (Z.gtb_spec b 0); [|lia]. cbn [assert bind].
  pose proof (Z.quot_rem' a b) as E. set (q := Z.quot a b) in *. set (r := Z.rem a b) in *.
  assert (R : Z.abs r < b) by (pose proof (Z.rem_bound_abs a b); unfold r; lia).
  assert (S : 0 <= a -> 0 <= r) by (intros; apply Z.rem_nonneg; lia).
  assert (S' : a <= 0 -> r <= 0) by (intros; apply Z.rem_nonpos; lia).
  clearbody q r. destruct (Z.compare_spec r 0); cbn [bind].
  - assert (b * q = a) by lia. rewrite H2. destruct (Z.geb_spec (Z.abs a) (Z.abs a)); [|lia]. cbn [assert bind]. destruct (Z.eqb_spec (a + r) a); [reflexivity|lia].
  - assert (a < 0) by lia. replace (b * (q - 1)) with (a - r - b) by lia. destruct (Z.geb_spec (Z.abs (a - r - b)) (Z.abs a)); [|lia]. cbn [assert bind].
    destruct (Z.eqb_spec (a - r - b + (r + b)) a); [reflexivity|lia].
  - assert (0 < a) by lia. replace (b * (q + 1)) with (a - r + b) by lia. destruct (Z.geb_spec (Z.abs (a - r + b)) (Z.abs a)); [|lia]. cbn [assert bind].
    destruct (Z.eqb_spec (a - r + b + (r - b)) a); [reflexivity|lia].
Qed.

Lemma quot_pos : forall x y, 0 <= x -> 0 < y -> exists r, x = y * Z.quot x y + r /\ 0 <= r < y.
Proof.
  intros x y Hx Hy. rewrite Z.quot_div_nonneg by lia. exists (x mod y). pose proof (Z.div_mod x y). pose proof (Z.mod_pos_bound x y). lia.
Qed.

(** The three divisions are the quotient rounded up, down and to the nearest. *)
Theorem C127_idiv : forall n d, d <> 0 ->
  exists c f r, ceil_idiv n d = Ok c /\ floor_idiv n d = Ok f /\ round_idiv n d = Ok r /\
    f = n / d /\ c = - (- n / d) /\ Z.abs (2 * (r * d - n)) <= Z.abs d.
Proof.
  intros n d D.
  assert (U : forall n d q r, n = d * q + r -> (0 <= r < d \/ d < r <= 0) -> n / d = q) by (intros; symmetry; apply (Z.div_unique _ _ _ r); lia).
  unfold ceil_idiv, floor_idiv, round_idiv. destruct (Z.gtb_spec d 0) as [P|P].
  - exists (- (- n / d)), (n / d). destruct (Z.geb_spec n 0).
    + destruct (quot_pos (n + d - 1) d ltac:(lia) P) as (r1 & E1 & B1). destruct (quot_pos n d ltac:(lia) P) as (r2 & E2 & B2).
      destruct (quot_pos d 2 ltac:(lia) ltac:(lia)) as (r3 & E3 & B3). destruct (quot_pos (n + Z.quot d 2) d ltac:(lia) P) as (r4 & E4 & B4).
      rewrite (U n d (Z.quot n d) r2) by lia. rewrite (U (- n) d (- Z.quot (n + d - 1) d) (d - 1 - r1)) by lia.
      exists (Z.quot (n + Z.quot d 2) d). destruct (Z.eqb_spec n 0) as [->|].
      * split; [f_equal; nia|]. split; [f_equal; nia|]. split; [reflexivity|]. split; [reflexivity|]. split; [reflexivity|]. lia.
      * split; [f_equal; lia|]. split; [reflexivity|]. split; [reflexivity|]. split; [reflexivity|]. split; [reflexivity|]. lia.
    + destruct (Z.eqb_spec n 0); [lia|].
      destruct (quot_pos (- n + d - 1) d ltac:(lia) P) as (r1 & E1 & B1). destruct (quot_pos (- n) d ltac:(lia) P) as (r2 & E2 & B2).
      destruct (quot_pos d 2 ltac:(lia) ltac:(lia)) as (r3 & E3 & B3). destruct (quot_pos (- n + Z.quot d 2) d ltac:(lia) P) as (r4 & E4 & B4).
      rewrite (U (- n) d (Z.quot (- n) d) r2) by lia. rewrite (U n d (- Z.quot (- n + d - 1) d) (d - 1 - r1)) by lia.
      eexists. split; [reflexivity|]. split; [reflexivity|]. split; [reflexivity|]. split; [reflexivity|]. split; [reflexivity|]. lia.
  - assert (Q : 0 < - d) by lia. exists (- (- n / d)), (n / d). destruct (Z.eqb_spec (- d) 0); [lia|]. cbn [negb assert bind]. destruct (Z.geb_spec n 0).
    + destruct (quot_pos (n - d - 1) (- d) ltac:(lia) Q) as (r1 & E1 & B1). destruct (quot_pos n (- d) ltac:(lia) Q) as (r2 & E2 & B2).
      destruct (quot_pos (- d) 2 ltac:(lia) ltac:(lia)) as (r3 & E3 & B3). destruct (quot_pos (n + Z.quot (- d) 2) (- d) ltac:(lia) Q) as (r4 & E4 & B4).
      rewrite (U n d (- Z.quot (n - d - 1) (- d)) (r1 + d + 1)) by lia. rewrite (U (- n) d (Z.quot n (- d)) (- r2)) by lia.
      exists (- Z.quot (n + Z.quot (- d) 2) (- d)). destruct (Z.eqb_spec n 0) as [->|].
      * split; [f_equal; nia|]. split; [f_equal; nia|]. split; [reflexivity|]. split; [reflexivity|]. split; [reflexivity|]. lia.
      * split; [reflexivity|]. split; [reflexivity|]. split; [reflexivity|]. split; [reflexivity|]. split; [reflexivity|]. lia.
    + destruct (Z.eqb_spec n 0); [lia|].
      destruct (quot_pos (- n - d - 1) (- d) ltac:(lia) Q) as (r1 & E1 & B1). destruct (quot_pos (- n) (- d) ltac:(lia) Q) as (r2 & E2 & B2).
      destruct (quot_pos (- d) 2 ltac:(lia) ltac:(lia)) as (r3 & E3 & B3). destruct (quot_pos (- n + Z.quot (- d) 2) (- d) ltac:(lia) Q) as (r4 & E4 & B4).
      rewrite (U n d (Z.quot (- n) (- d)) (- r2)) by lia. rewrite (U (- n) d (- Z.quot (- n - d - 1) (- d)) (r1 + d + 1)) by lia.
      eexists. split; [f_equal; lia|]. split; [reflexivity|]. split; [reflexivity|]. split; [reflexivity|]. split; [reflexivity|]. lia.
Qed.

Theorem C127_check_idiv : forall n d, check_idiv n d = Ok tt.
Proof.
  intros n d. unfold check_idiv. destruct (Z.eqb_spec d 0) as [|D]; [reflexivity|].
  destruct (C127_idiv n d D) as (c & f & r & -> & -> & -> & F & C & R). cbn [bind].
  pose proof (Z.div_mod n d D) as E1. pose proof (Z.div_mod (- n) d D) as E2. rewrite <- F in E1. replace (- n / d) with (- c) in E2 by lia. clear F C.
  assert (X : (d > 0 -> f * d <= n <= c * d /\ n < (f + 1) * d /\ (c - 1) * d < n) /\ (d < 0 -> c * d <= n <= f * d /\ (f + 1) * d < n /\ n < (c - 1) * d)).
  { split; intros S; [pose proof (Z.mod_pos_bound n d)|pose proof (Z.mod_neg_bound n d)]; [pose proof (Z.mod_pos_bound (- n) d)|pose proof (Z.mod_neg_bound (- n) d)]; lia. }
  clear E1 E2. destruct X as [X1 X2].
  assert (L : f <= r <= c /\ c - f <= 1).
  { assert (M : forall x y, x < y -> d > 0 -> x * d <= y * d - d) by (intros x y XY S; clear - XY S; nia).
    assert (M' : forall x y, x < y -> d < 0 -> y * d - d <= x * d) by (intros x y XY S; clear - XY S; nia).
    destruct (Z_lt_le_dec 0 d) as [S|S].
    - destruct (X1 ltac:(lia)) as ([] & ? & ?). split; [split|].
      + destruct (Z_lt_le_dec r f) as [Q|Q]; [|exact Q]. specialize (M r f Q ltac:(lia)). lia.
      + destruct (Z_lt_le_dec c r) as [Q|Q]; [|exact Q]. specialize (M c r Q ltac:(lia)). lia.
      + destruct (Z_lt_le_dec (f + 1) c) as [Q|Q]; [|lia]. specialize (M (f + 1) c Q ltac:(lia)). lia.
    - destruct (X2 ltac:(lia)) as ([] & ? & ?). split; [split|].
      + destruct (Z_lt_le_dec r f) as [Q|Q]; [|exact Q]. specialize (M' r f Q ltac:(lia)). lia.
      + destruct (Z_lt_le_dec c r) as [Q|Q]; [|exact Q]. specialize (M' c r Q ltac:(lia)). lia.
      + destruct (Z_lt_le_dec (f + 1) c) as [Q|Q]; [|lia]. specialize (M' (f + 1) c Q ltac:(lia)). lia. }
  destruct L as [[L1 L2] L3].
  destruct (Z.gtb_spec d 0) as [S|S].
  - destruct (X1 ltac:(lia)) as ([] & ? & ?). destruct (Z.geb_spec (c * d) n); [|lia]. destruct (Z.leb_spec (f * d) n); [|lia]. cbn [assert bind].
    destruct (Z.leb_spec (Z.abs (c - f)) 1); [|lia]. destruct (Z.leb_spec r c); [|lia]. destruct (Z.geb_spec r f); [|lia]. cbn [assert bind].
    destruct (Z.leb_spec (Z.abs (2 * (r * d - n))) (Z.abs d)); [reflexivity|lia].
  - destruct (X2 ltac:(lia)) as ([] & ? & ?). destruct (Z.leb_spec (c * d) n); [|lia]. destruct (Z.geb_spec (f * d) n); [|lia]. cbn [assert bind].
    destruct (Z.leb_spec (Z.abs (c - f)) 1); [|lia]. destruct (Z.leb_spec r c); [|lia]. destruct (Z.geb_spec r f); [|lia]. cbn [assert bind].
    destruct (Z.leb_spec (Z.abs (2 * (r * d - n))) (Z.abs d)); [reflexivity|lia].
Qed.

(** ** Roots *)
Lemma round_vertex : forall a b, 0 < a -> exists x, round_idiv (- b) (2 * a) = Ok x /\ - a <= 2 * a * x + b <= a.
Proof.
  intros a b A. destruct (C127_idiv (- b) (2 * a) ltac:(lia)) as (_ & _ & r & _ & _ & E & _ & _ & R). exists r. split; [exact E|]. lia.
Qed.
Lemma near_least : forall a b c x y, 0 < a -> - a <= 2 * a * x + b <= a -> quad a b c x <= quad a b c y.
Proof.
  intros a b c x y A V. assert (E : quad a b c y - quad a b c x = (y - x) * (2 * a * x + b) + a * (y - x) * (y - x)) by (unfold quad; ring).
  assert (0 <= (y - x) * (2 * a * x + b) + a * (y - x) * (y - x)); [|lia].
  set (d := y - x) in *. set (e := 2 * a * x + b) in *. clearbody d e. clear E.
  destruct (Z.eq_dec d 0) as [->|D]; [lia|]. destruct (Z_lt_le_dec 0 d); nia.
Qed.

Lemma find_root_min : forall a b c lo hi, quad a b c lo = 0 -> find_root a b c lo hi = Ok (Some lo).
Proof. intros a b c lo hi Z. unfold find_root. cbv zeta. rewrite !quad_sqpoly, Z. reflexivity. Qed.
Lemma find_root_max : forall a b c lo hi, quad a b c lo <> 0 -> quad a b c hi = 0 -> find_root a b c lo hi = Ok (Some hi).
Proof. intros a b c lo hi N Z. unfold find_root. cbv zeta. rewrite !quad_sqpoly, Z. destruct (Z.eqb_spec (quad a b c lo) 0); [contradiction|reflexivity]. Qed.
(** Between the least value and a zero the quadratic is negative. *)
Lemma below_zero : forall a b c x r, 0 < a -> - a <= 2 * a * x + b <= a -> quad a b c r = 0 -> quad a b c x < 0 ->
  (x < r -> quad a b c (r - 1) < 0) /\ (r < x -> quad a b c (r + 1) < 0).
Proof.
  intros a b c x r A V R X. split; intros O.
  - destruct (Z.eq_dec (r - 1) x) as [->|N]; [exact X|].
    assert (quad a b c r - quad a b c (r - 1) = (2 * a * x + b) + a * (2 * (r - x) - 1)) by (unfold quad; ring).
    assert (a * 3 <= a * (2 * (r - x) - 1)) by (apply Z.mul_le_mono_nonneg_l; lia). lia.
  - destruct (Z.eq_dec (r + 1) x) as [->|N]; [exact X|].
    assert (quad a b c r - quad a b c (r + 1) = - (2 * a * x + b) + a * (2 * (x - r) - 1)) by (unfold quad; ring).
    assert (a * 3 <= a * (2 * (x - r) - 1)) by (apply Z.mul_le_mono_nonneg_l; lia). lia.
Qed.

(** Searched from the nearest integer to the vertex to a limit where the quadratic is
    not negative, on either side.  The limit below must not be the integer next to the
    vertex: both may then be zeros, and the test would not be passed. *)
Theorem C127_find_root : forall a b c lim, 0 < a -> 0 <= quad a b c lim ->
  exists xmin, round_idiv (- b) (2 * a) = Ok xmin /\
    (xmin <= lim -> find_root_check_limits a b c xmin lim = Ok tt) /\
    (lim <= xmin -> lim <> xmin - 1 -> find_root_check_limits a b c lim xmin = Ok tt).
Proof.
  intros a b c lim A L. destruct (round_vertex a b A) as (x & E & V). exists x. split; [exact E|].
  assert (LE : forall y, quad a b c x <= quad a b c y) by (intros; apply near_least; assumption).
  assert (DI : 4 * a * c + b * b < 0 -> 0 < quad a b c x).
  { intros N. assert (E4 : 4 * a * quad a b c x = (2 * a * x + b) * (2 * a * x + b) - (4 * a * c + b * b)) by (unfold quad; ring).
    pose proof (Z.square_nonneg (2 * a * x + b)). assert (P : 0 < 4 * a * quad a b c x) by lia. clear - A P. nia. }
  unfold find_root_check_limits. rewrite E. cbn [bind].
  split; intros O.
  - destruct (Z.eq_dec (quad a b c x) 0) as [ZX|NX].
    { rewrite (find_root_min _ _ _ _ _ ZX). cbn [bind]. rewrite !quad_sqpoly, ZX.
      destruct (Z.ltb_spec (4 * a * c + b * b) 0) as [N|N]; [specialize (DI N); lia|]. cbn.
      destruct (Z.gtb_spec x x); [lia|]. destruct (Z.ltb_spec x x); [lia|reflexivity]. }
    pose proof (C08_find_root a b c x lim O) as F. destruct (find_root a b c x lim) as [[r|]| |]; try contradiction; cbn [bind].
    + destruct F as (B & F). pose proof (LE r) as LR. rewrite !quad_sqpoly.
      destruct (Z.ltb_spec (4 * a * c + b * b) 0) as [N|N]; [specialize (DI N); lia|].
      destruct (Z.geb_spec (quad a b c r) 0); [|lia]. cbn [assert bind].
      destruct (Z.gtb_spec r x); [|destruct (Z.ltb_spec r x); [lia|reflexivity]].
      destruct (Z.ltb_spec (quad a b c (r - 1)) 0) as [|Q]; [reflexivity|]. exfalso.
      destruct F as [F|[F|F]]; try lia.
      destruct (below_zero a b c x r A V F ltac:(lia)) as (K & _). lia.
    + rewrite !quad_sqpoly. destruct (Z.ltb_spec (4 * a * c + b * b) 0) as [N|N]; [reflexivity|]. destruct (Z.geb_spec (quad a b c x) 0); [reflexivity|lia].
  - intros NL. destruct (Z.eq_dec (quad a b c lim) 0) as [ZL|NL0].
    { rewrite (find_root_min _ _ _ _ _ ZL). cbn [bind]. rewrite !quad_sqpoly, ZL.
      destruct (Z.ltb_spec (4 * a * c + b * b) 0) as [N|N]; [specialize (DI N); specialize (LE lim); lia|]. cbn.
      destruct (Z.gtb_spec lim x); [lia|]. destruct (Z.ltb_spec lim x); [|reflexivity].
      destruct (Z.ltb_spec (quad a b c (lim + 1)) 0) as [|Q]; [reflexivity|]. exfalso.
      assert (quad a b c lim - quad a b c (lim + 1) = - (2 * a * x + b) + a * (2 * (x - lim) - 1)) by (unfold quad; ring).
      assert (a * 3 <= a * (2 * (x - lim) - 1)) by (apply Z.mul_le_mono_nonneg_l; lia). lia. }
    destruct (Z.eq_dec (quad a b c x) 0) as [ZX|NX].
    { rewrite (find_root_max _ _ _ _ _ NL0 ZX). cbn [bind]. rewrite !quad_sqpoly, ZX.
      destruct (Z.ltb_spec (4 * a * c + b * b) 0) as [N|N]; [specialize (DI N); lia|]. cbn.
      destruct (Z.gtb_spec x x); [lia|]. destruct (Z.ltb_spec x x); [lia|reflexivity]. }
    pose proof (C08_find_root a b c lim x O) as F. destruct (find_root a b c lim x) as [[r|]| |]; try contradiction; cbn [bind].
    + destruct F as (B & F). pose proof (LE r) as LR. rewrite !quad_sqpoly.
      destruct (Z.ltb_spec (4 * a * c + b * b) 0) as [N|N]; [specialize (DI N); lia|].
      destruct (Z.geb_spec (quad a b c r) 0); [|lia]. cbn [assert bind].
      destruct (Z.gtb_spec r x); [lia|]. destruct (Z.ltb_spec r x); [|reflexivity].
      destruct (Z.ltb_spec (quad a b c (r + 1)) 0) as [|Q]; [reflexivity|]. exfalso.
      destruct F as [F|[F|F]]; try lia.
      destruct (below_zero a b c x r A V F ltac:(lia)) as (_ & K). lia.
    + rewrite !quad_sqpoly. destruct (Z.ltb_spec (4 * a * c + b * b) 0) as [N|N]; [reflexivity|]. destruct (Z.geb_spec (quad a b c x) 0); [reflexivity|lia].
Qed.
Example C127_next_to_vertex : quad 1 (-1) 0 0 = 0 /\ round_idiv 1 2 = Ok 1 /\ find_root_check_limits 1 (-1) 0 0 1 = Panic.
Proof. repeat split; reflexivity. Qed.

(** With the limits the test has. *)
Theorem C127_find_root_check : forall a b c, 0 < a -> Z.abs b <= 2000000 -> Z.abs c <= 1000000000000 ->
  find_root_check a b c = Ok tt.
Proof.
  intros a b c A B C. unfold find_root_check.
  assert (Q1 : 0 <= quad a b c 2642245). { unfold quad. nia. }
  assert (Q2 : 0 <= quad a b c (-2642245)). { unfold quad. nia. }
  destruct (C127_find_root a b c _ A Q1) as (x & E & F1 & _). destruct (C127_find_root a b c _ A Q2) as (x' & E' & _ & F2).
  rewrite E in E'. injection E' as <-. rewrite E. cbn [bind].
  destruct (round_vertex a b A) as (x' & E' & V). rewrite E in E'. injection E' as <-.
  assert (X : Z.abs x <= 2000000). { clear - A B V. nia. }
  rewrite F1 by lia. cbn [bind]. apply F2; lia.
Qed.
Theorem C127_find_root_test : find_root_test = Ok tt.
Proof.
  unfold find_root_test. apply for_in_all; intros a HA. apply for_in_all; intros b HB. apply for_in_all; intros c HC.
  apply C127_find_root_check; lia.
Qed.
Example C127_find_roots_test : find_roots_test = Ok tt.
Proof. reflexivity. Qed.

(** ** Full acceleration *)
Theorem C127_max_acceleration : forall ds v0 vn a vmax, request ds v0 vn a vmax -> check_max_acceleration_curve ds v0 vn a = Ok tt.
Proof.
  intros ds v0 vn a vmax R. pose proof (request_supported _ _ _ _ _ R) as Sp. destruct R as (_ & Ha & _).
  destruct (max_acceleration_spec _ _ _ _ _ Sp) as (r & E & O & N & C & _). unfold check_max_acceleration_curve. rewrite E. cbn [bind].
  pose proof (mr_bounds_spec r O N) as HB. destruct (mr_bounds r) as [[n h]|]; [|reflexivity]. destruct HB as (B1 & _ & _).
  destruct (C n B1) as ((T & _) & SL & _). clear - Ha T SL. unfold slack in SL.
  assert (D : Z.abs (v0 - vn) <= a * n).
  { unfold tmin in T. destruct (Z.eqb_spec v0 vn); [subst; replace (vn - vn) with 0 by lia; nia|].
    pose proof (tk_nonneg a (v0 - vn) ltac:(lia)). apply tk_le_iff; lia. }
  destruct (Z.eqb_spec (2 * a) 0); [lia|]. cbn [negb assert bind].
  destruct (quot_pos (a * n + vn - v0) (2 * a) ltac:(lia) ltac:(lia)) as (r1 & E1 & R1).
  destruct (quot_pos (a * n + v0 - vn) (2 * a) ltac:(lia) ltac:(lia)) as (r2 & E2 & R2).
  pose proof (Z.quot_pos (a * n + vn - v0) (2 * a) ltac:(lia) ltac:(lia)) as P1.
  pose proof (Z.quot_pos (a * n + v0 - vn) (2 * a) ltac:(lia) ltac:(lia)) as P2.
  set (d1 := Z.quot (a * n + vn - v0) (2 * a)) in *. set (d2 := Z.quot (a * n + v0 - vn) (2 * a)) in *. clearbody d1 d2.
  assert (K : exists k, n = d1 + d2 + k) by (exists (n - d1 - d2); lia). destruct K as [k ->].
  assert (RS : r1 + r2 = 2 * a * k) by lia. assert (K : k = 0 \/ k = 1) by nia.
  destruct (Z.geb_spec d1 0); [|lia]. destruct (Z.geb_spec d2 0); [|lia]. cbn [assert bind].
  destruct (Z.geb_spec (d2 + d1) (d1 + d2 + k - 1)); [|lia]. destruct (Z.leb_spec (d2 + d1) (d1 + d2 + k)); [|lia]. cbn [assert bind].
  match goal with |- assert (?x >=? _) = _ => set (s := x); assert (ES : x = s) by reflexivity; clearbody s end.
  destruct (Z.geb_spec s ds); [reflexivity|]. exfalso.
  replace (d1 + d2 + k - d1 - d2) with k in ES by lia.
  assert (V : vn = v0 + 2 * a * d1 + r1 - a * (d1 + d2 + k)) by lia. subst vn.
  assert (I : 2 * a * s = a * a * (d1 + d2 + k) * (d1 + d2 + k) + 2 * a * (v0 + (v0 + 2 * a * d1 + r1 - a * (d1 + d2 + k))) * (d1 + d2 + k)
    - (v0 - (v0 + 2 * a * d1 + r1 - a * (d1 + d2 + k))) * (v0 - (v0 + 2 * a * d1 + r1 - a * (d1 + d2 + k))) - k * r1 * (2 * a - r1)).
  { subst s. destruct K as [-> | ->]; [assert (r1 = 0) by lia; subst r1|]; ring. }
  assert (M : k * r1 * (2 * a - r1) <= a * a). { destruct K as [-> | ->]; [nia|]. pose proof (Z.square_nonneg (a - r1)). lia. }
  assert (Q : 0 <= 2 * a * (s - ds)) by lia. clear - Q Ha H3. nia.
Qed.
Theorem C127_test_max_acceleration : test_max_acceleration_curve = Ok tt.
Proof.
  unfold test_max_acceleration_curve. apply for_in_all; intros ds H1. apply for_in_all; intros v0 H2. apply for_in_all; intros vn H3. apply for_in_all; intros a H4.
  apply (C127_max_acceleration ds v0 vn a 5). unfold request. lia.
Qed.

(** ** Curves between two speeds *)
Lemma F_flat : forall v0 vn a v, 0 < a -> v0 <= v <= vn -> vn - v0 <= a * 0 -> F v0 vn a 0 v = 0.
Proof.
  intros v0 vn a v A V D. assert (v = v0 /\ vn = v0) as [-> ->] by lia. unfold F.
  pose proof (Lf_at a 0 0 A) as H. replace (a * 0 + 0) with 0 in H by lia. replace (v0 - v0) with 0 by lia. rewrite H; lia.
Qed.
Theorem C127_adjust_curve_mid : forall t_total v0 vn a, 0 < a -> 0 <= t_total -> v0 <= vn -> vn - v0 <= a * t_total ->
  check_adjust_all t_total v0 vn a = Ok tt.
Proof.
  intros T v0 vn a A HT V D. unfold check_adjust_all. rewrite !path_distance_F by lia. cbn [bind]. apply for_in_all. intros ds B.
  destruct (Z.eq_dec T 0) as [->|N]. { rewrite !F_flat in B by lia. lia. }
  pose proof (adjust_curve_mid_spec T ds v0 vn a A ltac:(lia) ltac:(lia)) as H. cbv zeta in H.
  replace (Z.min v0 vn) with v0 in H by lia. replace (Z.max v0 vn) with vn in H by lia.
  unfold check_adjust_curve_mid. destruct (adjust_curve_mid T ds v0 vn a) as [[p|]| |]; try contradiction; cbn [bind]; [|lia].
  destruct H as (v & adj & -> & B1 & B2 & [(? & ? & ? & ? & ?)|(? & (_ & _ & _ & _ & G & _) & _)]); [lia|].
  unfold path_dist. cbn [p_v0 p_vn p_amax p_t_total p_vflat p_t_adjust]. rewrite path_distance_F by lia. cbn [bind].
  destruct (Z.leb_spec (Z.abs (F v0 vn a T v + 2 * adj - ds)) 1); [reflexivity|lia].
Qed.
Theorem C127_test_adjust_curve_mid : test_adjust_curve_mid = Ok tt.
Proof.
  unfold test_adjust_curve_mid. cbv zeta. apply for_in_all; intros v0 H1. apply for_in_all; intros vn H2. apply for_in_all; intros t H3.
  destruct (quot_pos (vn - v0 + 3 - 1) 3 ltac:(lia) ltac:(lia)) as (r & E & B). pose proof (Z.quot_pos (vn - v0 + 3 - 1) 3 ltac:(lia) ltac:(lia)).
  apply C127_adjust_curve_mid; lia.
Qed.
Example C127_test_adjust_curve : test_adjust_curve = Ok tt.
Proof. reflexivity. Qed.

(** ** The path of two ramps *)
Theorem C127_path_distance : forall v0 a dv1 dv4, 0 < a -> check_path_distance v0 a dv1 dv4 = Ok tt.
Proof.
  intros v0 a dv1 dv4 A. unfold check_path_distance, path_dist, test_path. cbn [p_v0 p_vn p_amax p_t_total p_vflat p_t_adjust].
  rewrite !path_distance_F by lia. cbn [bind]. match goal with |- assert (?x + 2 * 0 =? ?x) = _ => destruct (Z.eqb_spec (x + 2 * 0) x); [reflexivity|lia] end.
Qed.
Theorem C127_test_path_distance : test_path_distance = Ok tt.
Proof. unfold test_path_distance. apply for_in_all; intros dv1 H1. apply for_in_all; intros dv4 H2. apply C127_path_distance. lia. Qed.

(** Every segment of a sequence lasts at least one tick. *)
Definition lasting (s : list seg) : Prop := Forall (fun x => 1 <= fst x) s.
Lemma acc_push_lasting : forall s t a s', lasting s -> 0 <= t -> acc_push s t a = Ok s' -> lasting s'.
Proof.
  unfold lasting. induction s as [|[n b] r IH]; intros t a s' L T E; cbn in E.
  - destruct (Z.eqb_spec t 0); inversion E; subst; constructor; cbn; [lia|constructor].
  - destruct (Z.eqb_spec t 0); [inversion E; subst; exact L|].
    inversion L as [|? ? L1 L2]; subst. cbn in L1.
    destruct r as [|x r'].
    + destruct (b =? a).
      * apply bind_Ok in E. destruct E as (k & K & E). inversion E; subst.
        unfold chk_u16, chk in K. destruct (in_range _ _ _) in K; [|discriminate]. inversion K; subst. constructor; [cbn; lia|constructor].
      * inversion E; subst. constructor; [cbn; lia|]. constructor; [cbn; lia|constructor].
    + apply bind_Ok in E. destruct E as (k & K & E). inversion E; subst. constructor; [cbn; lia|]. eapply IH; eauto.
Qed.
Lemma push_conv_lasting : forall s t a s', lasting s -> push_conv s t a = Ok s' -> lasting s'.
Proof.
  intros s t a s' L E. unfold push_conv in E. apply bind_Ok in E. destruct E as (t' & T & E). apply bind_Ok in E. destruct E as (a' & _ & E).
  unfold chk_u16, chk in T. destruct (in_range 0 u16_max t) eqn:R; [|discriminate]. inversion T; subst. unfold in_range in R.
  eapply acc_push_lasting; [exact L| |exact E]. lia.
Qed.
Lemma lasting_nil : lasting [].
Proof. constructor. Qed.
Definition all_lasting (e : res (list seg)) : Prop := forall s, e = Ok s -> lasting s.
Lemma push_all : forall s t a, lasting s -> all_lasting (push_conv s t a).
Proof. intros s t a L s' E. eapply push_conv_lasting; eauto. Qed.
Lemma bind_all : forall e f, all_lasting e -> (forall s, lasting s -> all_lasting (f s)) -> all_lasting (bind e f).
Proof. intros e f E F s H. apply bind_Ok in H. destruct H as (x & K & H). exact (F x (E x K) s H). Qed.
Lemma bind_any : forall A (e : res A) f, (forall x, all_lasting (f x)) -> all_lasting (bind e f).
Proof. intros A e f F s H. apply bind_Ok in H. destruct H as (x & _ & H). exact (F x s H). Qed.
Lemma acc_seq_lasting : forall p s, acc_seq p = Ok s -> lasting s.
Proof.
  intros p. change (all_lasting (acc_seq p)). unfold acc_seq. cbv zeta.
  assert (P : forall s t a, lasting s -> all_lasting (push_conv s t a)) by exact push_all.
  destruct (p_t_total p <=? 1).
  { destruct (p_t_total p =? 0); apply bind_any; intros _; [intros s E; inversion E; exact lasting_nil|apply P, lasting_nil]. }
  apply bind_any; intros [[vs ve] ts]. apply bind_any; intros [t1 d1]. apply bind_any; intros [t4 d4]. apply bind_any; intros _.
  apply bind_all.
  { destruct (d1 =? 0); [apply P, lasting_nil|]. apply bind_all; [apply P, lasting_nil|]. intros; apply P; assumption. }
  intros s1 L1. apply bind_any; intros _. apply bind_all.
  { destruct (ts ?= 0); [apply P; assumption| |]; (apply bind_all; [apply P; assumption|]; intros; apply bind_all; [apply P; assumption|]; intros; apply P; assumption). }
  intros s2 L2. destruct (d4 =? 0); [apply P; assumption|]. apply bind_all; [apply P; assumption|]. intros; apply P; assumption.
Qed.
Lemma lasting_length : forall s, lasting s -> (length s <= length (expand s))%nat.
Proof.
  induction 1 as [|[n a] r L _ IH]; [reflexivity|]. cbn [expand length fst] in *. rewrite app_length, repeat_length. lia.
Qed.
Lemma sum_segments_travel : forall segs s v, lasting segs ->
  sum_segments s v segs = Ok (s + travel v (expand segs), final_speed v (expand segs)).
Proof.
  induction segs as [|[n a] r IH]; intros s v L; cbn [sum_segments expand].
  - cbn. rewrite Z.add_0_r. reflexivity.
  - inversion L as [|? ? L1 L2]; subst. cbn in L1. destruct (Z.gtb_spec n 0); [|lia]. cbn [assert bind]. rewrite IH by exact L2.
    rewrite travel_app, final_speed_app, travel_repeat, final_speed_repeat. rewrite Z2Nat.id by lia.
    replace (v + n * a) with (v + a * n) by lia. f_equal. f_equal. lia.
Qed.
Lemma chk_i32_small : forall x, Z.abs x < 2 ^ 30 -> chk_i32 x = Ok x.
Proof. intros x H. unfold chk_i32, chk, in_range. destruct (_ && _) eqn:E; [reflexivity|]. unfold i32_min, i32_max in E. lia. Qed.

(** What [acc_distance] says of a sequence that moves within the limits. *)
Lemma acc_distance_moves : forall a lo hi v0 vn d t l segs, moves a lo hi v0 vn d t l -> t <= 65535 -> - 2 ^ 30 < lo -> hi < 2 ^ 30 ->
  Forall seg_typed segs -> expand segs = l -> lasting segs -> exists v, acc_distance segs v0 = Ok (d, v).
Proof.
  intros a lo hi v0 vn d t l segs M T LO HI S E L. subst l. destruct M as [ML MF MD MA MS].
  destruct (C06_distance_returns segs v0 S) as (s & v & R).
  - pose proof (lasting_length segs L). lia.
  - intros x I. apply MS in I. lia.
  - destruct (C06_distance_is_motion _ _ _ _ S R) as (D & _). exists v. rewrite R. f_equal. f_equal. lia.
Qed.

Theorem C127_acc_sequence : forall v0 a dv1 dv4, 1 <= a <= 32767 -> p_t_total (test_path v0 a dv1 dv4) <= 65535 ->
  Z.abs v0 < 2 ^ 30 -> Z.abs (v0 + dv1) < 2 ^ 30 -> Z.abs (v0 + dv1 + dv4) < 2 ^ 30 -> check_acc_sequence v0 a dv1 dv4 = Ok tt.
Proof.
  intros v0 a dv1 dv4 A T V0 V1 V4. unfold check_acc_sequence. cbv zeta.
  assert (TK : forall u, Z.quot (Z.abs u + a - 1) a = tk a u) by (intros u; unfold tk; apply Z.quot_div_nonneg; lia).
  pose proof (tk_nonneg a dv1 ltac:(lia)) as N1. pose proof (tk_nonneg a dv4 ltac:(lia)) as N4.
  pose proof (acc_seq_spec (test_path v0 a dv1 dv4) (1 - 2 ^ 30) (2 ^ 30 - 1)) as H. cbv zeta in H.
  unfold test_path in H, T. cbv zeta in H, T. rewrite !TK in H, T. cbn [p_v0 p_vn p_amax p_t_total p_vflat p_t_adjust] in H, T.
  replace (v0 + dv1 - v0) with dv1 in H by lia. replace (v0 + dv1 - (v0 + dv1 + dv4)) with (- dv4) in H by lia. rewrite tk_opp in H.
  destruct H as (l & M & S1 & S2); try (unfold i16_max; lia).
  unfold test_path. cbv zeta. rewrite !TK. cbn [p_v0 p_vn p_amax p_t_total p_vflat p_t_adjust].
  destruct S1 as (s & E); [unfold u16_max; lia|]. destruct (S2 s E) as (ST & EX). rewrite E. cbn [bind].
  pose proof (acc_seq_lasting _ _ E) as L. rewrite (sum_segments_travel _ _ _ L). cbn [bind]. rewrite path_distance_F by lia. cbn [bind].
  rewrite EX, (mv_dist _ _ _ _ _ _ _ _ M).
  match goal with |- bind (assert (?x =? ?y)) _ = _ => destruct (Z.eqb_spec x y); [|lia] end. cbn [assert bind].
  rewrite chk_i32_small by lia. cbn [bind].
  destruct (acc_distance_moves _ _ _ _ _ _ _ _ s M ltac:(lia) ltac:(lia) ltac:(lia) ST EX L) as (v & ->). cbn [bind].
  match goal with |- assert (?x =? ?y) = _ => destruct (Z.eqb_spec x y); [reflexivity|lia] end.
Qed.
Theorem C127_test_acc_sequence : test_acc_sequence = Ok tt.
Proof.
  unfold test_acc_sequence. apply for_in_all; intros dv1 H1. apply for_in_all; intros dv4 H2. apply C127_acc_sequence; try lia.
  unfold test_path. cbv zeta. cbn [p_t_total].
  destruct (quot_pos (Z.abs dv1 + 4 - 1) 4 ltac:(lia) ltac:(lia)) as (r & E & B). destruct (quot_pos (Z.abs dv4 + 4 - 1) 4 ltac:(lia) ltac:(lia)) as (r' & E' & B'). lia.
Qed.

(** ** The shortest curve *)
(** The quotient the test takes for the ticks of a ramp, and the tick it reserves
    when that is zero. *)
Lemma ramp_ticks : forall a u, 0 < a -> let t := Z.quot (u + a - 1) a in
  t <= tk a u /\ t + (if t =? 0 then 1 else 0) <= fl a u + 1 /\ t + (if t =? 0 then 1 else 0) <= fl a (u - 1) + 1.
Proof.
  intros a u A t. pose proof (tk_nonneg a u A). pose proof (fl_nonneg a u A). pose proof (fl_nonneg a (u - 1) A).
  pose proof (tk_le_fl a u A). pose proof (tk_le_fl_pred a u A).
  destruct (Z_le_gt_dec u 0) as [U|U].
  - assert (t <= 0).
    { unfold t. destruct (Z_le_gt_dec 0 (u + a - 1)); [rewrite Z.quot_small; lia|].
      replace (u + a - 1) with (- (- (u + a - 1))) by lia. rewrite Z.quot_opp_l by lia. pose proof (Z.quot_pos (- (u + a - 1)) a). lia. }
    destruct (Z.eqb_spec t 0); lia.
  - assert (E : t = tk a u) by (unfold t, tk; rewrite Z.abs_eq, Z.quot_div_nonneg by lia; reflexivity).
    assert (1 <= tk a u). { pose proof (tk_bounds a u A) as [_ B]. nia. }
    destruct (Z.eqb_spec t 0); lia.
Qed.

Theorem C127_shortest : forall ds v0 vn a vmax p, request ds v0 vn a vmax -> shortest_curve ds v0 vn a vmax = Ok p -> p_t_total p <= 65535 ->
  check_shortest_curve ds v0 vn a vmax = Ok tt.
Proof.
  intros ds v0 vn a vmax p R E T. pose proof (request_supported _ _ _ _ _ R) as Sp. destruct R as (_ & Ha & Hv & H0 & Hn).
  destruct (shortest_curve_spec _ _ _ _ _ Sp) as (r & t & h & p' & EL & EB & _ & _ & Hhi & Hlo & Ht & E' & P).
  rewrite E in E'. injection E' as <-. destruct P as (P1 & P2 & P3 & P4 & d & l & M & D & PD & S1 & S2).
  assert (EA : adjust_curve t ds v0 vn a = Ok p).
  { unfold shortest_curve in E. rewrite EL in E. cbn [bind] in E. rewrite EB in E. exact E. }
  unfold check_shortest_curve. rewrite E. cbn [bind]. rewrite PD. cbn [bind].
  destruct (Z.leb_spec (Z.abs (d - ds)) 1); [|lia]. cbn [assert bind].
  assert (X : exists v adj, p = mk_path v0 vn a v t adj /\ Z.abs v <= vmax /\
     Z.abs (v + (if adj =? 0 then 0 else if adj >? 0 then 1 else -1)) <= vmax /\
     let t1 := Z.quot (v - v0 + a - 1) a in let t4 := Z.quot (v - vn + a - 1) a in
     t1 + t4 <= t /\ adj < t /\ adj <= t - (t1 + t4) /\
     (adj <> 0 -> 1 <= t - (t1 + (if t1 =? 0 then 1 else 0)) - (t4 + (if t4 =? 0 then 1 else 0)))).
  { destruct (Z.eq_dec t 1) as [->|Nt].
    - destruct (adjust_curve_1 ds v0 vn a vmax vmax ltac:(lia) Hhi Hlo) as (E1 & _ & D1). rewrite EA in E1. injection E1 as ->.
      exists v0, 0. split; [reflexivity|]. cbn [Z.eqb]. split; [lia|]. split; [lia|]. cbv zeta.
      destruct (ramp_ticks a (v0 - v0) ltac:(lia)) as (K1 & _). destruct (ramp_ticks a (v0 - vn) ltac:(lia)) as (K4 & _).
      replace (v0 - v0) with 0 in * by lia. rewrite tk_0 in K1 by lia.
      assert (tk a (v0 - vn) <= 1) by (apply tk_le_iff; lia). lia.
    - destruct (adjust_curve_spec ds v0 vn a vmax t ltac:(lia) ltac:(lia) H0 Hn Hhi Hlo) as (v & adj & E1 & G & B).
      rewrite EA in E1. injection E1 as ->. exists v, adj. split; [reflexivity|]. split; [lia|].
      destruct G as (G1 & G2 & G3 & G4 & G5 & G6 & G7). unfold tfree, Nf in *.
      destruct (ramp_ticks a (v - v0) ltac:(lia)) as (K1 & K2 & K3). destruct (ramp_ticks a (v - vn) ltac:(lia)) as (L1 & L2 & L3).
      replace (v - 1 - v0) with (v - v0 - 1) in G7 by lia. replace (v - 1 - vn) with (v - vn - 1) in G7 by lia.
      pose proof (fl_nonneg a (v - v0) ltac:(lia)). pose proof (fl_nonneg a (v - vn) ltac:(lia)).
      split; [clear - B G3 G4 H0 Hn; destruct (Z.eqb_spec adj 0); [lia|]; destruct (Z.gtb_spec adj 0); lia|]. cbv zeta.
      set (t1 := Z.quot (v - v0 + a - 1) a) in *. set (t4 := Z.quot (v - vn + a - 1) a) in *.
      set (c1 := if t1 =? 0 then 1 else 0) in *. set (c4 := if t4 =? 0 then 1 else 0) in *. clearbody c1 c4 t1 t4.
      clear - G1 G2 G6 G7 K1 K2 K3 L1 L2 L3 H1 H2 Ht. destruct (Ztrichotomy_inf adj 0) as [[N|N]|N].
      + specialize (G7 N). clear G6. lia.
      + clear G6 G7. lia.
      + specialize (G6 ltac:(lia)). clear G7. lia. }
  destruct X as (v & adj & -> & X1 & X2 & X). cbn [p_v0 p_vn p_amax p_t_total p_vflat p_t_adjust] in *. cbv zeta in X. destruct X as (X3 & X4 & X5 & X6).
  destruct (Z.leb_spec (Z.abs v) vmax); [|lia]. cbn [assert bind].
  match goal with |- bind (assert (Z.abs ?x <=? _)) _ = _ => destruct (Z.leb_spec (Z.abs x) vmax); [|lia] end. cbn [assert bind].
  destruct (Z.eqb_spec a 0); [lia|]. cbn [negb assert bind].
  set (t1 := Z.quot (v - v0 + a - 1) a) in *. set (t4 := Z.quot (v - vn + a - 1) a) in *.
  destruct (Z.leb_spec (t1 + t4) t); [|lia]. cbn [assert bind]. destruct (Z.gtb_spec t adj); [|lia]. cbn [assert bind].
  destruct (Z.geb_spec (t - (t1 + t4)) adj); [|lia]. cbn [assert bind].
  match goal with |- bind ?e _ = _ => assert (EF : e = Ok tt) end.
  { destruct (Z.eqb_spec adj 0); cbn [negb]; [reflexivity|]. specialize (X6 ltac:(assumption)).
    destruct (t1 =? 0), (t4 =? 0); match goal with |- assert (?x >=? 1) = _ => destruct (Z.geb_spec x 1); [reflexivity|lia] end. }
  rewrite EF. cbn [bind]. destruct S1 as (s & ES); [unfold u16_max; lia|]. destruct (S2 s ES) as (ST & EX). rewrite ES. cbn [bind].
  rewrite chk_i32_small by lia. cbn [bind].
  destruct (acc_distance_moves _ _ _ _ _ _ _ _ s M ltac:(lia) ltac:(lia) ltac:(lia) ST EX (acc_seq_lasting _ _ ES)) as (v' & ->). cbn [bind].
  destruct (Z.eqb_spec d d); [reflexivity|lia].
Qed.
Theorem C127_shortest_storable : forall ds v0 vn a vmax, request ds v0 vn a vmax -> storable ds a vmax -> check_shortest_curve ds v0 vn a vmax = Ok tt.
Proof.
  intros ds v0 vn a vmax R S. destruct (C96_stored _ _ _ _ _ R S) as (p & s & E & T & _). eapply C127_shortest; eauto.
Qed.
Theorem C127_test_shortest : test_shortest_curve = Ok tt.
Proof.
  unfold test_shortest_curve. apply for_in_all; intros ds H1. apply for_in_all; intros vmax H2. apply for_in_all; intros v0 H3. apply for_in_all; intros vn H4.
  apply for_in_all; intros a H5. apply C127_shortest_storable; [unfold request; lia|].
  unfold storable. assert (a * Z.abs ds <= 5 * 40) by (apply Z.mul_le_mono_nonneg; lia). assert (vmax * vmax <= 6 * 6) by (apply Z.mul_le_mono_nonneg; lia).
  assert (1 * 1 <= a * vmax) by (apply Z.mul_le_mono_nonneg; lia). lia.
Qed.

(** ** Sets of integers *)
Lemma mr_eqb_refl : forall a, mr_eqb a a = true.
Proof. induction a as [|[l h] a IH]; [reflexivity|]. cbn. rewrite !Z.eqb_refl, IH. reflexivity. Qed.
Lemma ord_from_same : forall a b x y, ord_from x a -> ord_from y b -> nonempty_ranges a -> nonempty_ranges b ->
  (forall z, covers a z <-> covers b z) -> a = b.
Proof.
  induction a as [|[l h] a IH]; intros [|[l' h'] b] x y Oa Ob Na Nb C.
  - reflexivity.
  - exfalso. apply (proj1 (covers_nil l')). apply C. apply covers_cons. left. specialize (Nb l' h' (or_introl eq_refl)). cbn. lia.
  - exfalso. apply (proj1 (covers_nil l)). apply C. apply covers_cons. left. specialize (Na l h (or_introl eq_refl)). cbn. lia.
  - cbn in Oa, Ob. destruct Oa as (_ & A2 & A3). destruct Ob as (_ & B2 & B3).
    pose proof (Na l h (or_introl eq_refl)) as A. pose proof (Nb l' h' (or_introl eq_refl)) as B.
    assert (IA : forall z, covers ((l, h) :: a) z <-> l <= z < h \/ covers a z) by (intros; apply covers_cons).
    assert (IB : forall z, covers ((l', h') :: b) z <-> l' <= z < h' \/ covers b z) by (intros; apply covers_cons).
    assert (TA : forall z, covers a z -> h < z) by (intros; eapply ord_from_covers; eauto).
    assert (TB : forall z, covers b z -> h' < z) by (intros; eapply ord_from_covers; eauto).
    assert (EL : l = l').
    { assert (P : l' <= l). { assert (covers ((l', h') :: b) l) by (apply C, IA; lia). apply IB in H. destruct H as [|H]; [lia|apply TB in H; lia]. }
      assert (Q : l <= l'). { assert (covers ((l, h) :: a) l') by (apply C, IB; lia). apply IA in H. destruct H as [|H]; [lia|apply TA in H; lia]. }
      lia. }
    subst l'. assert (EH : h = h').
    { destruct (Ztrichotomy_inf h h') as [[H|H]|H]; [|exact H|]; exfalso.
      - assert (K : covers ((l, h) :: a) h) by (apply C, IB; lia). apply IA in K. destruct K as [|K]; [lia|apply TA in K; lia].
      - assert (K : covers ((l, h') :: b) h') by (apply C, IA; lia). apply IB in K. destruct K as [|K]; [lia|apply TB in K; lia]. }
    subst h'. f_equal. apply (IH b h h A3 B3); [intros ? ? I; apply Na; right; exact I|intros ? ? I; apply Nb; right; exact I|].
    intros z. split; intros K.
    + pose proof (TA z K). assert (covers ((l, h) :: b) z) by (apply C, IA; right; exact K). apply IB in H0. destruct H0; [lia|assumption].
    + pose proof (TB z K). assert (covers ((l, h) :: a) z) by (apply C, IB; right; exact K). apply IA in H0. destruct H0; [lia|assumption].
Qed.

(** A set of integers is represented in one way only, so comparing representations, as
    the tests do, compares sets. *)
Theorem C127_one_representation : forall a b, ordered a -> ordered b -> nonempty_ranges a -> nonempty_ranges b ->
  ((forall z, covers a z <-> covers b z) <-> mr_eqb a b = true).
Proof.
  intros a b Oa Ob Na Nb. split.
  - intros C. apply ordered_ord in Oa, Ob. destruct (ord_exists_from _ Oa) as (x & X). destruct (ord_exists_from _ Ob) as (y & Y).
    rewrite (ord_from_same a b x y X Y Na Nb C). apply mr_eqb_refl.
  - intros E. enough (a = b) by (subst; tauto). clear - E. revert b E. induction a as [|[l h] a IH]; intros [|[l' h'] b] E; try discriminate; [reflexivity|].
    cbn in E. apply andb_true_iff in E. destruct E as [E1 E2]. rewrite (IH b E2). f_equal. f_equal; lia.
Qed.
Theorem C127_check_and : forall a b, ordered a -> ordered b -> nonempty_ranges a -> nonempty_ranges b ->
  check_and a b (mr_and_range a b) = Ok tt.
Proof.
  intros a b Oa Ob Na Nb. unfold check_and. rewrite mr_eqb_refl. cbn [assert bind].
  pose proof (mr_and_range_nonempty a b Oa Ob Na Nb) as NR. destruct (mr_and_range_ordered a b Oa Ob) as [OR CR].
  assert (X : mr_eqb (mr_and_range b a) (mr_and_range a b) = true).
  { apply C127_one_representation; auto using mr_and_range_nonempty; [apply mr_and_range_ordered; assumption|].
    apply C03_and_range_commutes; assumption. }
  rewrite X. cbn [assert bind].
  assert (Y : forall r l h, ordered r -> nonempty_ranges r -> l < h -> (forall z, covers (mr_and_range a b) z <-> covers r z /\ l <= z < h) ->
    mr_eqb (mr_and r l h) (mr_and_range a b) = true).
  { intros r l h O N L C. destruct (mr_and_ordered r l h O ltac:(lia)) as [O' C']. apply C127_one_representation; auto using mr_and_nonempty.
    intros z. rewrite C', C. tauto. }
  assert (ONE : forall l h z, covers [(l, h)] z <-> l <= z < h).
  { intros. rewrite covers_cons, covers_nil. cbn. tauto. }
  match goal with |- bind ?e _ = _ => assert (P : e = Ok tt) end.
  { destruct a as [|[l h] [|]]; try reflexivity. rewrite Y; auto; [apply Na; left; reflexivity|]. intros z. rewrite CR, ONE. tauto. }
  rewrite P. cbn [bind]. destruct b as [|[l h] [|]]; try reflexivity. rewrite Y; auto; [apply Nb; left; reflexivity|]. intros z. rewrite CR, ONE. tauto.
Qed.
Example C127_or_and_tests : or_test = Ok tt /\ and_test = Ok tt.
Proof. split; reflexivity. Qed.

(** ** Vectors of accelerations: acc_vector.rs:122-169 *)
Example C127_acc_vector :
  let v := [(2, 8); (1, 4); (3, -7)] in
  let from t := let! it := acc_iter v t in acc_collect 10 it in
  acc_collect 10 (mk_iter 1 9 v) = Ok [8; 8; 4; -7; -7; -7] /\
  from 0 = Ok [8; 8; 4; -7; -7; -7] /\ from 2 = Ok [4; -7; -7; -7] /\ from 4 = Ok [-7; -7] /\ from 5 = Ok [-7].
Proof. repeat split; reflexivity. Qed.

(** ** The other whole tests *)
Theorem C127_tests : test_div_rem_away = Ok tt /\ idiv_test = Ok tt.
Proof.
  split.
  - unfold test_div_rem_away. apply for_in_all; intros a H1. apply for_in_all; intros b H2. apply C127_div_rem_away. lia.
  - unfold idiv_test. apply for_in_all; intros a H1. apply for_in_all; intros b H2. apply C127_check_idiv.
Qed.

(** ** The hypotheses can be met *)
Example C127_example :
  request (-100) 3 (-7) 4 20 /\ storable (-100) 4 20 /\ check_shortest_curve (-100) 3 (-7) 4 20 = Ok tt /\
  check_max_acceleration_curve (-100) 3 (-7) 4 = Ok tt /\ check_adjust_all 5 (-3) 7 4 = Ok tt /\
  p_t_total (test_path 3 4 11 (-9)) <= 65535 /\ check_acc_sequence 3 4 11 (-9) = Ok tt /\
  find_root_check 3 (-40) 70 = Ok tt.
Proof. repeat split; try reflexivity; try (unfold request; cbn; lia); cbn; lia. Qed.
(** The checks do not accept everything. *)
Example C127_checks_refuse :
  check_adjust_curve_mid 1 100 (-3) 1 4 = Panic /\ check_and [(1, 3)] [(2, 5)] [(1, 3)] = Panic /\ find_root_check_limits 1 0 9 0 2 = Panic /\
  check_div_rem_away 3 0 = Panic /\ sum_segments 0 0 [(0, 3)] = Panic.
Proof. repeat split; reflexivity. Qed.

Print Assumptions C127_div_rem_away.
Print Assumptions C127_idiv.
Print Assumptions C127_check_idiv.
Print Assumptions C127_find_root.
Print Assumptions C127_find_root_check.
Print Assumptions C127_find_root_test.
Print Assumptions C127_max_acceleration.
Print Assumptions C127_test_max_acceleration.
Print Assumptions C127_adjust_curve_mid.
Print Assumptions C127_test_adjust_curve_mid.
Print Assumptions C127_path_distance.
Print Assumptions C127_test_path_distance.
Print Assumptions C127_acc_sequence.
Print Assumptions C127_test_acc_sequence.
Print Assumptions C127_shortest.
Print Assumptions C127_shortest_storable.
Print Assumptions C127_test_shortest.
Print Assumptions C127_one_representation.
Print Assumptions C127_check_and.
Print Assumptions C127_tests.
