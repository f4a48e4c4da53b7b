(** Property C98: what the program of main.rs prints. *)
From Coq Require Import ZArith NArith List Bool Lia Ascii String.
From Coq Require Import ZifyBool.
From Verif Require Import Base MultiRange MultiRangeSpec MultiRangeProofs AccVector MotionSpec Solve SolveProofs IntegerCurve CurveArith AccSeqProofs AccSeqSpec CurveAdjust AdjustSpec
  RangeProofs PlanProofs PropsIntegerCurve PropsDuration PropsSpeeds StepperControl ControlProofs CheckedCurve CheckedProofs CheckedBounds PropsChecked MainProg.
Import ListNotations.
Open Scope Z_scope.

(** A plan is no faster between its ramps than allowed or at the ends. *)
Lemma plan_small : forall ds v0 vn a vmax p, any_request ds v0 vn a vmax -> shortest_curve ds v0 vn a vmax = Ok p ->
  Z.min (- vmax) (Z.min v0 vn) <= p_vflat p <= Z.max vmax (Z.max v0 vn) /\ Z.abs (p_t_adjust p) <= p_t_total p.
Proof.
  intros ds v0 vn a vmax p H Ep. pose proof H as (Hds & Ha & Hv & H0 & Hn).
  destruct (curve_any _ _ _ _ _ H) as (r & t & p' & E & C1 & C2 & Ht & Es & P).
  assert (p' = p) by congruence. subst p'. destruct P as (_ & _ & _ & PT & _).
  destruct (length_any _ _ _ _ _ H) as (r' & E' & O & N & C & _). assert (r' = r) by congruence. subst r'.
  destruct (C t C1) as (_ & Hhi & Hlo).
  assert (EA : adjust_curve t ds v0 vn a = Ok p).
  { unfold shortest_curve in Es. rewrite E in Es. cbn [bind] in Es. pose proof (mr_bounds_spec r O N) as HB.
    destruct (mr_bounds r) as [[t' h]|]; [|discriminate]. destruct HB as (B1 & _ & B3).
    assert (t' = t). { apply Z.le_antisymm; [apply B3, C1|apply C2, B1]. } subst t'. exact Es. }
  destruct (Z.eq_dec t 1) as [->|NE].
  - unfold adjust_curve in EA. cbn [Z.eqb Pos.eqb] in EA. destruct (_ <=? 1) in EA; [|discriminate]. injection EA as <-.
    cbn [p_vflat p_t_adjust p_t_total]. lia.
  - destruct (adjust_curve_within ds v0 vn a (up (- v0) (- vn) vmax) (up v0 vn vmax) t) as (v & adj & E2 & (G1 & G2 & G3 & G4 & G5 & _) & Bv);
      auto; try lia; try (unfold up; lia).
    assert (p = mk_path v0 vn a v t adj) by congruence. subst p. cbn [p_vflat p_t_adjust p_t_total]. split; [unfold up in Bv; clear - Bv; lia|].
    assert (N0 : forall u, 0 <= tk a u) by (intros u; unfold tk; apply Z.div_pos; lia).
    pose proof (N0 (v - v0)). pose proof (N0 (v - vn)). unfold tfree in *. lia.
Qed.

(** With overflow checks nothing changes if the plan is not too long. *)
Lemma plan_checked : forall ds v0 vn a vmax p, any_request ds v0 vn a vmax -> shortest_curve ds v0 vn a vmax = Ok p ->
  a * p_t_total p * p_t_total p <= 2 ^ 58 ->
  c_shortest_curve ds v0 vn a vmax = Ok p /\ c_path_dist p = path_dist p /\ c_acc_seq p = acc_seq p.
Proof.
  intros ds v0 vn a vmax p H Ep S.
  destruct (curve_any _ _ _ _ _ H) as (r & t & p' & E & C1 & C2 & Ht & Es & P).
  assert (p' = p) by congruence. subst p'. destruct P as (P1 & P2 & P3 & P4 & d & l & _ & Hd & Hp & _). rewrite P4 in S.
  destruct (length_any _ _ _ _ _ H) as (r' & E' & O & N & _). assert (r' = r) by congruence. subst r'.
  destruct (C21_plans ds v0 vn a vmax r t H E C1 S) as (p' & EA & EC & ES).
  destruct (mr_bounds r) as [[t' h]|] eqn:EB; [|unfold shortest_curve in Es; rewrite E in Es; cbn [bind] in Es; rewrite EB in Es; discriminate].
  assert (t' = t).
  { pose proof (mr_bounds_spec r O N) as HB. rewrite EB in HB. destruct HB as (B1 & _ & B3). apply Z.le_antisymm; [apply B3, C1|apply C2, B1]. }
  subst t'.
  assert (EA' : adjust_curve t ds v0 vn a = Ok p).
  { unfold shortest_curve in Es. rewrite E in Es. cbn [bind] in Es. rewrite EB in Es. exact Es. }
  assert (p' = p) by congruence. subst p'. split; [|split; [|exact ES]].
  - unfold c_shortest_curve. rewrite C21_lengths, E by exact H. cbn [bind]. rewrite EB. exact EC.
  - destruct (plan_small _ _ _ _ _ _ H Ep) as [B1 B2]. rewrite P4 in B2. unfold any_request in H.
    assert (Sh : short a t) by (split; [lia|exact S]). assert (K := short_time a t ltac:(lia) Sh).
    assert (K2 : 0 <= a * t) by (clear - H Ht; nia).
    destruct (path_distance_ok v0 vn (p_vflat p) a t) as [E1 (s & E2 & B)]; try lia; [exact Sh|].
    unfold c_path_dist, path_dist in *. rewrite P1, P2, P3, P4, E1, E2 in *. cbn [bind] in *. assert (Hp' : s + 2 * p_t_adjust p = d) by congruence. clear Hp.
    cbn [run]. unfold chk2, chk_i64, chk, in_range, i64_min, i64_max. cbn [bind].
    replace ((-9223372036854775808 <=? 2 * p_t_adjust p) && (2 * p_t_adjust p <=? 9223372036854775807)) with true by lia. cbn [bind].
    rewrite Hp'. replace ((-9223372036854775808 <=? d) && (d <=? 9223372036854775807)) with true by lia. reflexivity.
Qed.

Lemma next_show : forall n rest, i64_min <= n <= i64_max -> next_i64 (show n :: rest) = Ok (n, rest).
Proof.
  intros n rest H. unfold next_i64, parse_i64. rewrite parse_show.
  replace ((i64_min <=? n) && (n <=? i64_max)) with true by lia. reflexivity.
Qed.

(** For speeds up to 2^15 and distances up to 2^32 the program prints a plan: the flat speed is
    within the limit of 10 or the given speeds, and accelerations within the limit lead in the
    printed time over the printed distance, which is within one of the given one. *)
Theorem C98_main : forall name ds v0 vn rest, Z.abs ds <= 2 ^ 32 -> Z.abs v0 <= 2 ^ 15 -> Z.abs vn <= 2 ^ 15 ->
  exists vflat t adjust s (accs : list Z),
    main (name :: show ds :: show v0 :: show vn :: rest) =
      Ok (bytes "Curve: v= " ++ show v0 ++ bytes " -> " ++ show vn ++ bytes " amax = 5, vflat = " ++ show vflat ++
          bytes ", t_total = " ++ show t ++ bytes ", t_adjust = " ++ show adjust ++ bytes ", s = " ++ show s ++ [10])%list /\
    Z.min (- 10) (Z.min v0 vn) <= vflat <= Z.max 10 (Z.max v0 vn) /\ Z.abs (s - ds) <= 1 /\
    (Z.abs v0 <= 10 -> Z.abs vn <= 10 -> 100 * (t - 3) <= 5 * Z.abs ds + 800) /\
    Z.of_nat (List.length accs) = t /\ legal_beyond v0 vn 5 10 accs /\ travel v0 accs = s.
Proof.
  intros name ds v0 vn rest Hd H0 Hn. assert (R : any_request ds v0 vn 5 10) by (unfold any_request; lia).
  destruct (curve_any _ _ _ _ _ R) as (r & t & p & E & C1 & C2 & Ht & EP & P).
  pose proof (C99_upper _ _ _ _ _ _ R EP) as U. cbv zeta in U. pose proof (plan_small _ _ _ _ _ _ R EP) as [B1 B2].
  destruct P as (P1 & P2 & P3 & P4 & d & l & M & Hdd & Hp & _).
  rewrite P4 in U, B2.
  destruct (plan_checked _ _ _ _ _ _ R EP) as [Q1 [Q2 _]].
  { rewrite P4.
    assert (Sq : forall v, Z.abs v <= 2 ^ 15 -> (10 + Z.max 10 (Z.abs v)) * (10 + Z.max 10 (Z.abs v)) <= 32778 * 32778)
      by (intros v Hv; clear - Hv; apply Z.mul_le_mono_nonneg; lia).
    pose proof (Sq v0 H0). pose proof (Sq vn Hn).
    assert (B : t <= 236239590) by (clear - U H H1 Hd H0 Hn; lia). clear - B Ht. nia. }
  exists (p_vflat p), t, (p_t_adjust p), d, l. split.
  - unfold main. cbn [skipn]. rewrite !next_show by (unfold i64_min, i64_max; lia). cbn [bind]. rewrite !next_show by (unfold i64_min, i64_max; lia).
    cbn [bind]. rewrite !next_show by (unfold i64_min, i64_max; lia). cbn [bind]. rewrite Q1. cbn [bind].
    unfold show_path. rewrite Q2, Hp. cbn [bind]. rewrite P1, P2, P3, P4. f_equal. rewrite <- !app_assoc. reflexivity.
  - split; [exact B1|]. split; [exact Hdd|]. split.
    { intros A0 An. rewrite !Z.max_l in U by lia. lia. }
    split; [exact (mv_len _ _ _ _ _ _ _ _ M)|].
    split; [exact (moves_beyond _ _ _ _ _ _ _ M)|exact (mv_dist _ _ _ _ _ _ _ _ M)].
Qed.

(** Storable moves (C96) are planned, expanded and measured without overflow. *)
Theorem C21_stored : forall ds v0 vn a vmax, request ds v0 vn a vmax -> storable ds a vmax ->
  exists p s, c_shortest_curve ds v0 vn a vmax = Ok p /\ c_acc_seq p = Ok s /\ c_path_dist p = Ok (travel v0 (expand s)) /\
    shortest_curve ds v0 vn a vmax = Ok p /\ acc_seq p = Ok s.
Proof.
  intros ds v0 vn a vmax R St. destruct (C96_stored ds v0 vn a vmax R St) as (p & s & Ep & T & Es).
  exists p, s. destruct (C17_duration_bound _ _ _ _ _ _ R Ep) as [T1 _].
  assert (A : any_request ds v0 vn a vmax) by (unfold any_request, request in *; lia).
  destruct (plan_checked _ _ _ _ _ _ A Ep) as (Q1 & Q2 & Q3).
  { assert (1 <= a <= 32767) by (unfold request in R; lia). set (t := p_t_total p) in *. clearbody t. clear - T T1 H.
    assert (a * t <= 32767 * 65535) by (apply Z.mul_le_mono_nonneg; lia).
    assert (a * t * t <= 32767 * 65535 * 65535) by (apply Z.mul_le_mono_nonneg; nia). lia. }
  rewrite Q1, Q2, Q3. rewrite (C19_distance _ _ _ _ _ _ _ R Ep Es). auto.
Qed.

Example C21_stored_example : request 100000000 0 0 10 5000 /\ storable 100000000 10 5000.
Proof. unfold request, storable. lia. Qed.

(** Without three numbers as the first three arguments it panics. *)
Theorem C98_arguments : forall args text, main args = Ok text -> exists name a b c rest ds v0 vn,
  args = name :: a :: b :: c :: rest /\ parse_i64 a = Some ds /\ parse_i64 b = Some v0 /\ parse_i64 c = Some vn.
Proof.
  intros args text H. destruct args as [|name args]; [discriminate|]. unfold main in H. cbn [skipn] in H.
  destruct args as [|a args]; [discriminate|]. unfold next_i64 at 1 in H. destruct (parse_i64 a) as [ds|] eqn:A; [|discriminate]. cbn [unwrap bind] in H.
  destruct args as [|b args]; [discriminate|]. unfold next_i64 at 1 in H. destruct (parse_i64 b) as [v0|] eqn:B; [|discriminate]. cbn [unwrap bind] in H.
  destruct args as [|c args]; [discriminate|]. unfold next_i64 at 1 in H. destruct (parse_i64 c) as [vn|] eqn:C; [|discriminate].
  exists name, a, b, c, args, ds, v0, vn. auto.
Qed.

Example C98_example : main [bytes "paths"; bytes "100"; bytes "3"; bytes "-2"] =
  Ok (bytes "Curve: v= 3 -> -2 amax = 5, vflat = 8, t_total = 8, t_adjust = -1, s = 101" ++ [10])%list.
Proof. vm_compute. reflexivity. Qed.
Example C98_fast : main [bytes "paths"; bytes "100"; bytes "30"; bytes "-2"] =
  Ok (bytes "Curve: v= 30 -> -2 amax = 5, vflat = -9, t_total = 12, t_adjust = 0, s = 100" ++ [10])%list.
Proof. vm_compute. reflexivity. Qed.
Print Assumptions C98_main.
Print Assumptions C98_arguments.
Print Assumptions C21_stored.
