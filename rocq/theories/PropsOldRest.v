(** C124: build_optimal_int_path and the test of extend_dist in main_old.rs. *)
From Coq Require Import Reals ZArith List Lra Lia.
From Verif Require Import Base Coords MotionSpec OldCode PropsOld PropsOldPath Permutate PropsPermutate OldRest.
Import ListNotations.
Open Scope R_scope.

Lemma ceil_spec : forall x, x <= IZR (ceil x) < x + 1.
Proof.
  intros x. unfold ceil. destruct (base_Int_part (- x)) as [A B]. rewrite opp_IZR. lra.
Qed.
Lemma ceil_is : forall x z, ceil x = z <-> IZR z - 1 < x <= IZR z.
Proof.
  intros x z. pose proof (ceil_spec x) as [A B]. split; [intros <-; lra|intros [C D]].
  assert (IZR (ceil x) < IZR (z + 1)) by (rewrite plus_IZR; lra).
  assert (IZR (z - 1) < IZR (ceil x)) by (rewrite minus_IZR; lra).
  apply lt_IZR in H, H0. lia.
Qed.
Lemma ceil_pos : forall x, 0 <= x -> (0 <= ceil x)%Z.
Proof.
  intros x H. pose proof (ceil_spec x) as [A B]. assert (IZR (-1) < IZR (ceil x)) by lra.
  apply lt_IZR in H0. lia.
Qed.

Lemma as_u64_small : forall z, (0 <= z < 2 ^ 64)%Z -> as_u64 z = z.
Proof. intros z H. apply wrap_u_id. exact H. Qed.
Lemma as_u64_zero : forall z, (i32_min <= z <= i32_max)%Z -> (as_u64 z <= 0)%Z -> z = 0%Z.
Proof.
  intros z H L. unfold as_u64, wrap_u, i32_min, i32_max in *.
  pose proof (Z.mod_pos_bound z (2 ^ 64) ltac:(lia)).
  assert (E : (z mod 2 ^ 64 = 0)%Z) by lia. apply Z.mod_divide in E; [|lia]. destruct E as [k E]. lia.
Qed.

(** Whatever it is asked, build_optimal_int_path returns an empty sequence of
    accelerations or panics; a sequence at all only if the first acceleration
    takes more than one tick and at most two. *)
Theorem C124_empty : forall s0 sn v0 vn vmax amax,
  let r := build_optimal_int_path s0 sn v0 vn vmax amax in
  let '(_, (d0, _, _)) := build_optimal_path s0 sn v0 vn vmax amax in
  (r = Ok (0%Z, []) /\ 1 < d0 <= 2) \/ r = Panic.
Proof.
  intros s0 sn v0 vn vmax amax. cbv zeta. unfold build_optimal_int_path.
  destruct (build_optimal_path s0 sn v0 vn vmax amax) as [a [[d0 d1] d2]]. cbv zeta.
  set (t0 := end_i32 (ceil d0)). set (t1 := end_i32 (ceil d1)). set (t2 := end_i32 (ceil d2)).
  unfold chk_i32, chk. destruct (in_range i32_min i32_max (t0 + t1)); [|right; reflexivity]. cbn [Base.bind].
  destruct (in_range i32_min i32_max (t0 + t1 + t2)); [|right; reflexivity]. cbn [Base.bind].
  destruct (as_u64 (t0 + t1 + t2) * 4 <=? i64_max)%Z; [|right; reflexivity]. cbn [Base.bind Base.assert].
  destruct (in_range i32_min i32_max (t0 - 2)) eqn:I; [|right; reflexivity]. cbn [Base.bind].
  destruct (Z.leb_spec (as_u64 (t0 - 2)) (Z.of_nat (length (@nil Z)))) as [L|L]; [|right; reflexivity].
  left. unfold in_range in I. apply andb_prop in I. destruct I as [I1 I2]. apply Z.leb_le in I1, I2.
  assert (E : (t0 - 2 = 0)%Z) by (apply as_u64_zero; [lia|exact L]).
  rewrite E. split; [reflexivity|].
  assert (C : ceil d0 = 2%Z) by (unfold t0, end_i32, i32_min, i32_max in E; lia).
  apply ceil_is in C. lra.
Qed.

(** Within the limits it does return one if the first acceleration takes more
    than one tick and at most two, and the times are not longer than i32 holds. *)
Theorem C124_returns : forall s0 sn v0 vn vmax amax,
  (0 < amax)%Z -> (0 < vmax)%Z -> (Z.abs v0 <= vmax)%Z -> (Z.abs vn <= vmax)%Z ->
  let '(_, (d0, d1, d2)) := build_optimal_path s0 sn v0 vn vmax amax in
  1 < d0 <= 2 -> d1 + d2 <= 2 ^ 31 - 6 ->
  build_optimal_int_path s0 sn v0 vn vmax amax = Ok (0%Z, []).
Proof.
  intros s0 sn v0 vn vmax amax Ha Hv H0 Hn.
  pose proof (proj1 (C97_reaches s0 sn v0 vn vmax amax Ha Hv H0 Hn)) as W.
  unfold build_optimal_int_path.
  destruct (build_optimal_path s0 sn v0 vn vmax amax) as [a [[d0 d1] d2]]. cbv zeta. cbn [pieces] in W.
  intros D0 D12. assert (P : 0 <= d1 /\ 0 <= d2).
  { cbn in W. destruct W as (_ & W). tauto. }
  destruct P as [P1 P2].
  assert (C0 : ceil d0 = 2%Z) by (apply ceil_is; lra).
  pose proof (ceil_pos d1 P1) as Q1. pose proof (ceil_pos d2 P2) as Q2.
  assert (S : (ceil d1 + ceil d2 <= 2147483647 - 3)%Z).
  { pose proof (ceil_spec d1). pose proof (ceil_spec d2).
    assert (L : IZR (ceil d1 + ceil d2) < IZR 2147483645) by (rewrite plus_IZR; lra).
    apply lt_IZR in L. lia. }
  rewrite C0. unfold end_i32, i32_min, i32_max.
  rewrite (Z.min_r _ 2) by lia. rewrite (Z.min_r _ (ceil d1)), (Z.min_r _ (ceil d2)) by lia.
  rewrite !Z.max_r by lia.
  unfold chk_i32. rewrite !chk_in by (unfold i32_min, i32_max; lia). cbn [Base.bind].
  rewrite chk_in by (unfold i32_min, i32_max; lia). cbn [Base.bind].
  rewrite as_u64_small by lia.
  replace (_ <=? i64_max)%Z with true by (symmetry; apply Z.leb_le; unfold i64_max; lia).
  reflexivity.
Qed.

(** So the sequence it returns leads to the goal only if the goal is the start.
    Asked for that it panics, unless the speed is negative and more than half
    of the acceleration and at most the acceleration. *)
Theorem C124_goal : forall s0 sn v0 vn vmax amax x acc,
  build_optimal_int_path s0 sn v0 vn vmax amax = Ok (x, acc) ->
  (eval_acc_seq s0 v0 acc = (sn, vn) <-> s0 = sn /\ v0 = vn).
Proof.
  intros s0 sn v0 vn vmax amax x acc H. pose proof (C124_empty s0 sn v0 vn vmax amax) as E. cbv zeta in E.
  destruct (build_optimal_path s0 sn v0 vn vmax amax) as [a [[d0 d1] d2]].
  rewrite H in E. destruct E as [[E _]|E]; [|discriminate].
  assert (acc = []) as -> by congruence. cbn [eval_acc_seq]. split; [intros F; split; congruence|intros [-> ->]; reflexivity].
Qed.

Theorem C124_stay : forall s v vmax amax,
  (0 < amax)%Z -> (Z.abs v <= vmax)%Z -> (0 < vmax <= i32_max)%Z ->
  build_optimal_int_path s s v v vmax amax =
  (if ((v <? 0)%Z && (amax <? -2 * v)%Z && (- v <=? amax)%Z)%bool then Ok (0%Z, []) else Panic).
Proof.
  intros s v vmax amax Ha Hv Hm.
  assert (A : 0 < IZR amax) by (apply IZR_lt; lia).
  assert (V : 0 < IZR vmax) by (apply IZR_lt; lia).
  assert (E : build_optimal_path s s v v vmax amax =
    (IZR amax, ((Rabs (IZR v) - IZR v) / IZR amax, 0, (Rabs (IZR v) - IZR v) / IZR amax))).
  { unfold build_optimal_path. rewrite Z.sub_diag. cbn [Z.leb Z.compare].
    destruct (Rlt_dec _ 0) as [L|_]; [exfalso; revert L; unfold Rdiv; rewrite mult_IZR; lra|].
    destruct (Rlt_dec 0 (IZR amax)) as [_|L]; [|lra].
    replace (IZR s - (IZR s + IZR (2 * v) * (0 / IZR amax) + IZR amax * (0 / IZR amax) * (0 / IZR amax))) with 0 by (field; lra).
    unfold extend_dist. cbv zeta.
    assert (Q : - IZR v / IZR amax + sqrt (0 / (2 * IZR amax) + IZR v * IZR v / (IZR amax * IZR amax)) = (Rabs (IZR v) - IZR v) / IZR amax).
    { replace (0 / (2 * IZR amax) + IZR v * IZR v / (IZR amax * IZR amax)) with (Rsqr (IZR v / IZR amax)) by (unfold Rsqr; field; lra).
      rewrite sqrt_Rsqr_abs. unfold Rdiv at 2. rewrite Rabs_mult, (Rabs_pos_eq (/ IZR amax)) by (left; apply Rinv_0_lt_compat; lra).
      field; lra. }
    rewrite Q. set (d := (Rabs (IZR v) - IZR v) / IZR amax).
    assert (T : IZR v + IZR amax * d = Rabs (IZR v)) by (unfold d; field; lra).
    rewrite T. assert (B : Rabs (IZR v) <= IZR vmax) by (rewrite <- abs_IZR; apply IZR_le; lia).
    pose proof (Rabs_pos (IZR v)).
    destruct (Rlt_dec (IZR vmax) (Rabs (IZR v))); [lra|].
    destruct (Rlt_dec (Rabs (IZR v)) (- IZR vmax)); [lra|].
    apply f_equal. replace (0 / IZR amax + d) with d by (unfold Rdiv; ring). reflexivity. }
  pose proof (C124_empty s s v v vmax amax) as Em. cbv zeta in Em. rewrite E in Em.
  pose proof (C124_returns s s v v vmax amax Ha ltac:(lia) Hv Hv) as Re. rewrite E in Re.
  set (d := (Rabs (IZR v) - IZR v) / IZR amax) in *.
  assert (D : 1 < d <= 2 <-> (v < 0 /\ amax < -2 * v /\ - v <= amax)%Z).
  { assert (T : d * IZR amax = Rabs (IZR v) - IZR v) by (unfold d; field; lra). clearbody d.
    destruct (Z_lt_le_dec v 0) as [L|L].
    - rewrite Rabs_left in T by (apply IZR_lt; lia).
      split.
      + intros [D1 D2]. split; [lia|].
        assert (IZR amax < IZR (-2 * v)) by (rewrite mult_IZR; nra).
        assert (IZR (- v) <= IZR amax) by (rewrite opp_IZR; nra).
        split; [apply lt_IZR; assumption|apply le_IZR; assumption].
      + intros (_ & D1 & D2). apply IZR_lt in D1. apply IZR_le in D2. rewrite mult_IZR in D1. rewrite opp_IZR in D2.
        split; nra.
    - rewrite Rabs_pos_eq in T by (apply IZR_le; lia). split; [|lia].
      intros [D1 _]. nra. }
  destruct ((v <? 0)%Z && (amax <? -2 * v)%Z && (- v <=? amax)%Z)%bool eqn:B.
  - apply andb_prop in B. destruct B as [B B3]. apply andb_prop in B. destruct B as [B1 B2].
    apply Z.ltb_lt in B1, B2. apply Z.leb_le in B3. apply Re; [apply D; auto|].
    assert (d <= 2) by (apply D; auto). lra.
  - destruct Em as [[_ Em]|Em]; [|exact Em]. exfalso. apply D in Em. destruct Em as (B1 & B2 & B3).
    apply Z.ltb_lt in B1, B2. apply Z.leb_le in B3. rewrite B1, B2, B3 in B. discriminate.
Qed.

(** check_path prints the goal it was asked for, if the speeds are within the limit. *)
Theorem C124_check : forall s0 sn v0 vn vmax amax,
  (0 < amax)%Z -> (0 < vmax)%Z -> (Z.abs v0 <= vmax)%Z -> (Z.abs vn <= vmax)%Z ->
  snd (check_path (s0, sn) (v0, vn) vmax amax) = (IZR sn, IZR vn).
Proof.
  intros s0 sn v0 vn vmax amax Ha Hv H0 Hn.
  pose proof (proj2 (C97_reaches s0 sn v0 vn vmax amax Ha Hv H0 Hn)) as E. unfold check_path.
  destruct (build_optimal_path s0 sn v0 vn vmax amax) as [a [[d0 d1] d2]]. exact E.
Qed.

(** The test of extend_dist passes, in exact arithmetic, for all distances and
    start speeds, also above the maximum, and so do its 324 calls. *)
Lemma nearly_self : forall x, nearly x x (1 / 1000000) = true.
Proof.
  intros x. unfold nearly. cbv zeta. destruct (Rle_dec 0 (x - x)); [|lra]. destruct (Rlt_dec (x - x) _); [reflexivity|lra].
Qed.

Theorem C124_extend : forall ds v0 a vmax, 0 < a -> 0 < vmax -> check_extend_dist ds v0 a vmax = Ok tt.
Proof.
  intros ds v0 a vmax A V. unfold check_extend_dist.
  assert (G : forall s v, 0 <= s -> (let (dta, dtc) := extend_dist s v a vmax in
     let (ds_e, vn_e) := eval_acc_time 0 v [(a, dta); (0, dtc); (- a, dta)] in
     assert (nearly ds_e s (1 / 1000000) && nearly vn_e v (1 / 1000000))) = Ok tt).
  { intros s v S. pose proof (C94_extend s v a vmax S A V) as E.
    destruct (extend_dist s v a vmax) as [dta dtc]. destruct E as [E _]. rewrite E, !nearly_self. reflexivity. }
  destruct (Rlt_dec ds 0); apply G; lra.
Qed.

Theorem C124_test : extend = Ok tt.
Proof.
  destruct (C123_calls R extend_vectors ltac:(discriminate)) as (calls & E & _).
  unfold extend. rewrite E. pose proof (proj1 (C123_all R extend_vectors calls E)) as A.
  assert (H : forall xs, In xs calls -> Forall2 (fun v x => In x v) extend_vectors xs) by (intros; apply A; assumption).
  clear A E. induction calls as [|c calls IH]; [reflexivity|].
  specialize (IH (fun xs I => H xs (or_intror I))). specialize (H c (or_introl eq_refl)). unfold extend_vectors in H.
  inversion H as [|? ds ? l1 _ H1]; subst. inversion H1 as [|? v0 ? l2 _ H2]; subst.
  inversion H2 as [|? a ? l3 Ia H3]; subst. inversion H3 as [|? m ? l4 Im H4]; subst. inversion H4; subst.
  cbn [each_call]. rewrite C124_extend; [exact IH| |].
  - cbn in Ia. decompose [or] Ia; subst; try lra; contradiction.
  - cbn in Im. decompose [or] Im; subst; try lra; contradiction.
Qed.

(** What the test accepts: [nearly] is a distance below [e], and a call with a
    negative distance is the call with distance and speed mirrored, whatever
    extend_dist makes of them. *)
Theorem C124_nearly : forall a b e, nearly a b e = true <-> Rabs (a - b) < e.
Proof.
  intros a b e. unfold nearly. cbv zeta. destruct (Rle_dec 0 (a - b)) as [P|P].
  - rewrite Rabs_pos_eq by lra. destruct (Rlt_dec (a - b) e); split; intros; try lra; try reflexivity; discriminate.
  - rewrite Rabs_left by lra. destruct (Rlt_dec (- (a - b)) e); split; intros; try lra; try reflexivity; discriminate.
Qed.

Theorem C124_mirror : forall ds v0 a vmax, ds <> 0 -> check_extend_dist (- ds) (- v0) a vmax = check_extend_dist ds v0 a vmax.
Proof.
  intros ds v0 a vmax D. unfold check_extend_dist. destruct (Rlt_dec (- ds) 0), (Rlt_dec ds 0); try lra; rewrite ?Ropp_involutive; reflexivity.
Qed.

(** Asked to stay where it is: at rest a panic, at speed -3 with acceleration 4 a
    sequence without accelerations. *)
Example C124_example :
  build_optimal_int_path 5 5 (-3) (-3) 10 4 = Ok (0%Z, []) /\ build_optimal_int_path 5 5 0 0 10 4 = Panic.
Proof. split; rewrite C124_stay by (unfold i32_max; lia); reflexivity. Qed.

(** From rest to rest over 6 steps with acceleration 1: sqrt 3 ticks each way,
    and the sequence that is returned stays where it is. *)
Example C124_move :
  build_optimal_int_path 0 6 0 0 10 1 = Ok (0%Z, []) /\ eval_acc_seq 0 0 [] = (0, 0)%Z.
Proof.
  split; [|reflexivity]. pose proof (C124_returns 0 6 0 0 10 1) as H.
  assert (S : 1 < sqrt 3 <= 2).
  { split; [apply Rsqr_incrst_0|apply Rsqr_incr_0]; rewrite ?Rsqr_sqrt; unfold Rsqr; try lra; apply sqrt_pos. }
  assert (E : build_optimal_path 0 6 0 0 10 1 = (1, (sqrt 3, 0, sqrt 3))).
  { unfold build_optimal_path. cbn [Z.sub Z.opp Z.add Z.leb Z.compare Z.mul].
    replace (6 - (0 + 0 * (0 / 1) + 1 * (0 / 1) * (0 / 1))) with 6 by field.
    destruct (Rlt_dec 6 0); [lra|]. destruct (Rlt_dec 0 1); [|lra].
    unfold extend_dist. cbv zeta. replace (6 / (2 * 1) + 0 * 0 / (1 * 1)) with 3 by field.
    replace (- 0 / 1 + sqrt 3) with (sqrt 3) by field.
    destruct (Rlt_dec 10 (0 + 1 * sqrt 3)); [lra|].
    destruct (Rlt_dec (0 + 1 * sqrt 3) (- (10))); [lra|].
    replace (0 / 1 + sqrt 3) with (sqrt 3) by field. reflexivity. }
  rewrite E in H. apply H; lia || lra.
Qed.

Print Assumptions C124_empty.
Print Assumptions C124_returns.
Print Assumptions C124_goal.
Print Assumptions C124_stay.
Print Assumptions C124_check.
Print Assumptions C124_extend.
Print Assumptions C124_test.
Print Assumptions C124_nearly.
Print Assumptions C124_mirror.
