(** Properties C36-C38: following a curve, in binary64 arithmetic and for any
    function as the curve.

    [kept within_speed] (MachinePath.v): a session of successful calls within the
    speed limits; [play] (MachineSpec.v): the independent machine. *)
From Coq Require Import ZArith List Bool Reals Lia Lra.
From Coq Require Import ZifyBool ZifyNat.
From Flocq Require Import Core BinarySingleNaN.
From Verif Require Import Base Floats FloatProofs AccVector MotionSpec AccVectorProofs IntegerCurve
  StepperContext MachineSpec MachineProofs ContextProofs ContextOps ContextHist ContextClock ContextGoto
  PropsIntegerCurve MachinePath PropsPath ApproxCurve ApproxProofs ApproxBound DrawCurves.
Import ListNotations.
Open Scope Z_scope.

Lemma ticks_ops_kept : forall accs c c', clocked c -> kept within_speed c (ticks_ops accs) c' ->
  clocked c' /\ forall i, follows c c' i (map (pick2 i) accs).
Proof.
  induction accs as [|[ax ay] r IH]; intros c c' Hc H; cbn [ticks_ops map] in H; inversion H; subst.
  - split; [exact Hc|]. intros i. cbn [map]. apply follows_same; auto. apply (ck_ticks _ Hc i).
  - cbn [exec_op fst snd] in *.
    match goal with K : add_acc_interval _ _ _ _ = Ok ?c1 |- _ =>
      destruct (add_acc_interval_spec c ax ay 1 c1 Hc ltac:(lia) K) as (S & _);
      pose proof (add_acc_follows c ax ay 1 c1 Hc ltac:(vm_compute; discriminate) K) as F;
      destruct (IH c1 c' (st_clocked _ _ S)) as [C' G]; auto end.
    split; [exact C'|]. intros i. specialize (F i). specialize (G i).
    pose proof (follows_app _ _ _ i _ _ (proj1 (ck_ticks c Hc i)) F G) as R.
    destruct i; exact R.
Qed.

Lemma ticks_not_reset : forall accs, Forall not_reset (ticks_ops accs).
Proof. induction accs; constructor; auto. exact I. Qed.

Lemma session_speeds : forall ax ay vmx vmy ops c, 0 <= vmx -> 0 <= vmy ->
  kept within_speed (new_ctx ax ay vmx vmy) ops c -> Forall not_reset ops ->
  (forall i, ticks_of c i < u64_max) -> forall i, Z.abs (c_v (channel c i)) <= v_max c i.
Proof.
  intros ax ay vmx vmy ops c Hx Hy H Hr Ht i.
  apply (kept_limited _ ops c H Hr (sound_new ax ay vmx vmy) Ht i).
  - destruct i; cbn; lia.
  - intros u Hu. destruct i; cbn in *; lia.
Qed.

Lemma approx_ticks : forall s c start curve v c' m, clocked c -> approx_curve s c start curve v = Ok (c', m) ->
  step c c' /\ (forall i, ticks_of c' i = ticks_of c i + Z.max 0 (curve_ticks curve v)) /\
  (0 < curve_ticks curve v -> ticks_of c AX = ticks_of c AY).
Proof.
  intros s c start curve v c' m Hc H. unfold approx_curve in H. cbv zeta in H.
  apply approx_loop_history in H; auto. destruct H as (accs & L & _ & S & T & Sy & _).
  fold (curve_ticks curve v) in *. split; [exact S|]. split.
  - intros i. rewrite T. lia.
  - intros K. apply Sy. lia.
Qed.

(** C36.  At every tick of the session and of the curve the machine is within the
    speed limits; the session may go on under C73. *)
Theorem C36_speed_limit : forall ax ay vmx vmy ops c s start curve v c' m,
  0 <= vmx <= 2 ^ 31 - 1 - 32768 -> 0 <= vmy <= 2 ^ 31 - 1 - 32768 ->
  kept within_speed (new_ctx ax ay vmx vmy) ops c -> Forall not_reset ops ->
  approx_curve s c start curve v = Ok (c', m) ->
  (forall i, ticks_of c' i < u64_max) ->
  (forall w i t, 0 <= t <= ticks_of c' i ->
     Z.abs (s_v (machine_axis (play (events c') t (machine0 w)) i)) <= match i with AX => vmx | AY => vmy end) /\
  exists accs, kept within_speed (new_ctx ax ay vmx vmy)
     (ops ++ map (fun a => AddAcc (fst a) (snd a) 1) accs) c' /\
     Z.of_nat (length accs) = Z.max 0 (curve_ticks curve v).
Proof.
  intros ax ay vmx vmy ops c s start curve v c' m Hx Hy H Hr Ha Ht.
  destruct (kept_clocked _ _ _ _ _ _ _ H) as [[Hc _] Cf].
  destruct (approx_ticks _ _ _ _ _ _ _ Hc Ha) as (St & T & _).
  assert (Ht0 : forall i, ticks_of c i < u64_max) by (intros i; specialize (T i); specialize (Ht i); lia).
  pose proof (session_speeds _ _ _ _ _ _ (proj1 Hx) (proj1 Hy) H Hr Ht0) as Hv.
  unfold config in Cf. injection Cf as f1 f2 f3 f4 f5.
  unfold approx_curve in Ha. cbv zeta in Ha.
  assert (HM : forall j, v_limit_ok (v_max c j)).
  { intros []; cbn [v_max]; rewrite ?f3, ?f4; assumption. }
  destruct (approx_loop_ops _ _ _ _ _ _ _ _ _ _ _ _ _ _ Hc HM Hv Ha) as (accs & L & K).
  pose proof (kept_app _ _ _ _ _ _ H K) as HK. split.
  - intros w i t Hti. eapply C73_stream_speed_limit; try exact HK; auto; try lia.
    apply Forall_app. split; auto. apply ticks_not_reset.
  - exists accs. split; [exact HK|]. fold (curve_ticks curve v) in L. lia.
Qed.

(** A line along x of length 1000 at speed 100 with acceleration limit 10. *)
Definition sc1 : scales := mk_scales (f_of_Z 1) (f_of_Z 1).
Definition line1000 : fcurve := fline (mk_fvec (f_of_Z 1000) fzero).

Example C36_example : exists c' m,
  approx_curve sc1 (new_ctx 10 10 30 30) fvzero line1000 (f_of_Z 100) = Ok (c', m) /\ ticks c' = Ok 10 /\
  map (fun t => s_v (m_x (play (events c') t (machine0 0)))) [0; 1; 2; 3; 4; 5; 10] = [0; 11; 22; 30; 30; 30; 30].
Proof. eexists. eexists. split; [vm_compute; reflexivity|]. split; vm_compute; reflexivity. Qed.

(** C37.  The limit is not kept: the first tick of that line accelerates by 11
    although the limit is 10. *)
Theorem C37_exceeds_limit : exists c' m,
  approx_curve sc1 (new_ctx 10 10 30 30) fvzero line1000 (f_of_Z 100) = Ok (c', m) /\
  s_acc (m_x (play (events c') 0 (machine0 0))) = 11.
Proof. eexists. eexists. split; vm_compute; reflexivity. Qed.

(** What holds for every curve: in its tick k (from 0) the acceleration is at most
    the limit times 1 + (k+1)/16, plus 1/2. *)
Theorem C37_bound : forall ax ay vmx vmy ops c s start curve v c' m,
  0 <= ax <= 32767 -> 0 <= ay <= 32767 ->
  0 <= vmx <= 2 ^ 31 - 1 - 32768 -> 0 <= vmy <= 2 ^ 31 - 1 - 32768 ->
  kept within_speed (new_ctx ax ay vmx vmy) ops c -> Forall not_reset ops ->
  approx_curve s c start curve v = Ok (c', m) ->
  (forall i, ticks_of c' i < u64_max) ->
  forall w i k, 0 <= k < ticks_of c' i - ticks_of c i ->
  16 * Z.abs (s_acc (machine_axis (play (events c') (ticks_of c i + k) (machine0 w)) i)) <=
  (match i with AX => ax | AY => ay end) * (16 + (k + 1)) + 8.
Proof.
  intros ax ay vmx vmy ops c s start curve v c' m Hax Hay Hx Hy H Hr Ha Ht w i k Hk.
  destruct (kept_clocked _ _ _ _ _ _ _ H) as [[Hc _] Cf].
  destruct (approx_ticks _ _ _ _ _ _ _ Hc Ha) as (St & T & _).
  assert (Ht0 : forall i, ticks_of c i < u64_max) by (intros j; specialize (T j); specialize (Ht j); lia).
  pose proof (session_speeds _ _ _ _ _ _ (proj1 Hx) (proj1 Hy) H Hr Ht0) as Hv.
  unfold config in Cf. injection Cf as f1 f2 f3 f4 f5.
  unfold approx_curve in Ha. cbv zeta in Ha. fold (curve_ticks curve v) in Ha.
  assert (HM : forall j, v_limit_ok (v_max c j)).
  { intros []; cbn [v_max]; rewrite ?f3, ?f4; assumption. }
  assert (HA : forall j, 0 <= a_max c j <= 32767).
  { intros []; cbn [a_max]; rewrite ?f1, ?f2; assumption. }
  pose proof (f_as_range i32_min i32_max (fround (fdiv (fc_length curve) v)) ltac:(vm_compute; split; discriminate)) as RG.
  fold f_as_i32 in RG. change (f_as i32_min i32_max) with f_as_i32 in RG. fold (curve_ticks curve v) in RG.
  assert (Z1 : forall j, small (2 * a_max c j * (1 - 1)) fzero).
  { intros j. apply fzero_small. lia. }
  unfold i32_min, i32_max in RG.
  destruct (approx_loop_accs (Z.to_nat (curve_ticks curve v)) 1 _ _ _ _ _ c _ _ _ _ c' m Hc ltac:(lia) ltac:(lia) HA HM Hv (Z1 AX) (Z1 AY) Ha)
    as (accs & L & K & B).
  destruct (ticks_ops_kept _ _ _ Hc K) as [Hc' F]. specialize (F i).
  pose proof (ck_ticks _ Hc i) as T0. rewrite T in Hk.
  rewrite play_axis_ok by (try lia; apply clocked_nonneg, Hc').
  assert (Hk' : (Z.to_nat k < length (map (pick2 i) accs))%nat) by (rewrite map_length; lia).
  pose proof (fo_during _ _ _ _ F (Z.to_nat k) (machine_axis (machine0 w) i) Hk') as D. cbv zeta in D.
  rewrite Z2Nat.id in D by lia. rewrite D. cbn [s_acc].
  specialize (B (Z.to_nat k) i ltac:(rewrite map_length in Hk'; lia)). rewrite Z2Nat.id in B by lia.
  assert (N : nth (Z.to_nat k) (map (pick2 i) accs) 0 = pick2 i (nth (Z.to_nat k) accs (0, 0))).
  { rewrite nth_indep with (d' := pick2 i (0, 0)) by exact Hk'. apply map_nth. }
  rewrite N. replace (match i with AX => ax | AY => ay end) with (a_max c i) by (destruct i; cbn [a_max]; auto).
  lia.
Qed.

(** C38.  The time taken. *)
Theorem C38_ticks : forall s c start curve v c' m,
  clocked c -> approx_curve s c start curve v = Ok (c', m) ->
  (forall i, ticks_of c' i = ticks_of c i + Z.max 0 (curve_ticks curve v)) /\
  (ticks_of c AX = ticks_of c AY -> ticks_of c' AX = ticks_of c' AY) /\
  (0 < curve_ticks curve v -> ticks_of c' AX = ticks_of c' AY) /\
  curve_ticks curve v <= 2 ^ 31 - 1.
Proof.
  intros s c start curve v c' m Hc H. destruct (approx_ticks _ _ _ _ _ _ _ Hc H) as (_ & T & Sy).
  split; [exact T|]. split; [intros E; rewrite !T; lia|]. split; [intros E; specialize (Sy E); rewrite !T; lia|].
  pose proof (f_as_range i32_min i32_max (fround (fdiv (fc_length curve) v)) ltac:(vm_compute; split; discriminate)) as RG.
  unfold curve_ticks, f_as_i32. unfold i32_max in *. lia.
Qed.

(** The count is the real quotient to within half a tick and 2^-23. *)
Theorem C38_count : forall curve v, is_finite (fc_length curve) = true -> is_finite v = true ->
  B2R v <> 0%R -> (Rabs (B2R (fc_length curve) / B2R v) <= 2 ^ 31 - 2)%R ->
  (Rabs (IZR (curve_ticks curve v) - B2R (fc_length curve) / B2R v) <= / 2 + / IZR (2 ^ 23))%R.
Proof.
  intros curve v Fl Fv Hv Hq. set (q := (B2R (fc_length curve) / B2R v)%R) in *.
  assert (B31 : bpow radix2 31 = (2 ^ 31)%R) by (cbn; lra).
  destruct (fdiv_error (fc_length curve) v Fl Fv Hv) as [F E]; [fold q; rewrite B31; lra|]. fold q in E.
  unfold curve_ticks, f_as_i32. rewrite f_as_round by exact F.
  set (d := B2R (fdiv (fc_length curve) v)) in *.
  change (bpow radix2 (-23)) with (/ IZR (2 ^ 23))%R in E. change (2 ^ 23) with 8388608 in *.
  pose proof (Znearest_half (Z.leb 0) d) as N. change (Znearest (Z.leb 0) d) with (ZnearestA d) in N.
  assert (RG : -2147483647 <= ZnearestA d <= 2147483647).
  { clear Hv. assert (-2147483647 <= IZR (ZnearestA d) <= 2147483647)%R.
    { revert Hq E N. generalize (IZR (ZnearestA d)). intros z Hq E N. 
      unfold Rabs in *. revert Hq E N. repeat destruct Rcase_abs; intros; lra. }
    split; apply le_IZR; lra. }
  unfold i32_min, i32_max. rewrite Z.min_r, Z.max_r by lia.
  revert E N. generalize (IZR (ZnearestA d)). intros z E N.
  unfold Rabs in *. revert E N. repeat destruct Rcase_abs; intros; lra.
Qed.

(** Other lengths and speeds. *)
Theorem C38_count_special : forall curve v,
  (fdiv (fc_length curve) v = B754_nan -> curve_ticks curve v = 0) /\
  (fdiv (fc_length curve) v = B754_infinity false -> curve_ticks curve v = 2 ^ 31 - 1) /\
  (fdiv (fc_length curve) v = B754_infinity true -> curve_ticks curve v < 0).
Proof. intros curve v. unfold curve_ticks. split; [|split]; intros ->; reflexivity. Qed.

(** With room left on the axes and a curve that stays in the range of i64 at the
    places where it is evaluated the call does succeed, for any curve, scale and speed. *)
Theorem C38_succeeds : forall ax ay vmx vmy ops c s start curve v,
  now_history shortest_curve_sequences (new_ctx ax ay vmx vmy) ops c -> Forall not_speed ops ->
  0 <= vmx <= 2 ^ 31 - 1 - 32768 -> 0 <= vmy <= 2 ^ 31 - 1 - 32768 ->
  (forall i, Z.abs (c_v (channel c i)) <= v_max c i) ->
  (forall i, Z.abs (c_pos (channel c i)) + 2 * v_max c i * Z.max 0 (curve_ticks curve v) <= 2 ^ 61) ->
  ticks_of c AX + Z.max 0 (curve_ticks curve v) < u64_max ->
  (forall k, 1 <= k <= curve_ticks curve v -> exists pos dir,
     fc_value curve (fmul (f_of_Z k) (fdiv (fc_length curve) (fround (fdiv (fc_length curve) v)))) = Ok (pos, dir) /\
     forall i, Z.abs (f_as_i64 (fmul (fadd (fidx pos i) (fidx start i)) (step_scale s i))) <= 2 ^ 62) ->
  exists c' m, approx_curve s c start curve v = Ok (c', m).
Proof.
  intros ax ay vmx vmy ops c s start curve v H Hs Hx Hy Hv Hp Ht Hf.
  assert (TM : timely c) by (eapply now_history_timely; [apply planner_typed|exact H|apply timely_new]).
  assert (SY : ticks_of c AX = ticks_of c AY).
  { eapply sync_history; eauto. }
  assert (Cf : config c = (ax, ay, vmx, vmy, 0)).
  { change (ax, ay, vmx, vmy, 0) with (config (new_ctx ax ay vmx vmy)).
    apply (exec_config shortest_curve_sequences ops). clear - H.
    induction H; cbn [exec]; [reflexivity|]. rewrite H0. exact IHnow_history. }
  unfold config in Cf. injection Cf as f1 f2 f3 f4 f5.
  unfold approx_curve. cbv zeta. fold (curve_ticks curve v).
  apply approx_loop_ok; auto; try lia.
  { intros k Hk. apply Hf. lia. }
  intros i. split; [destruct i; cbn [v_max]; rewrite ?f3, ?f4; assumption|]. split; [apply Hv|].
  specialize (Hp i). lia.
Qed.

Example C37_C38_example :
  kept within_speed (new_ctx 10 10 30 30) [] (new_ctx 10 10 30 30) /\
  curve_ticks line1000 (f_of_Z 100) = 10 /\
  forall k, 1 <= k <= 10 -> exists pos dir,
     fc_value line1000 (fmul (f_of_Z k) (fdiv (fc_length line1000)
       (fround (fdiv (fc_length line1000) (f_of_Z 100))))) = Ok (pos, dir) /\
     forall i, Z.abs (f_as_i64 (fmul (fadd (fidx pos i) (fidx fvzero i)) (step_scale sc1 i))) <= 2 ^ 62.
Proof.
  split; [apply kept_nil|]. split; [vm_compute; reflexivity|]. intros k Hk.
  assert (D : k = 1 \/ k = 2 \/ k = 3 \/ k = 4 \/ k = 5 \/ k = 6 \/ k = 7 \/ k = 8 \/ k = 9 \/ k = 10) by lia.
  repeat (destruct D as [->|D]; [eexists; eexists; split;
    [reflexivity|intros []; vm_compute; discriminate]|]). subst k.
  eexists. eexists. split; [reflexivity|]. intros []; vm_compute; discriminate.
Qed.
Example C38_count_example : is_finite (fc_length line1000) = true /\ B2R (f_of_Z 100) <> 0%R.
Proof.
  split; [vm_compute; reflexivity|]. rewrite (proj2 (f_of_Z_exact 100 ltac:(vm_compute; discriminate))). lra.
Qed.

(** A curve with coordinates beyond the range of i64 can overflow the error
    computation and panic. *)
Theorem C38_far_curve_panics : exists c,
  add_acc_interval (new_ctx 10 10 30 30) 10 0 3 = Ok c /\
  approx_curve sc1 c fvzero
    (mk_fcurve (f_of_Z 10) (fun _ => Ok (mk_fvec (f_of_Z (- 10 ^ 20)) fzero, mk_fvec fone fzero)))
    (f_of_Z 1) = Panic.
Proof. eexists. split; [vm_compute; reflexivity|]. vm_compute. reflexivity. Qed.

Print Assumptions C36_speed_limit.
Print Assumptions C37_exceeds_limit.
Print Assumptions C37_bound.
Print Assumptions C38_ticks.
Print Assumptions C38_count.
Print Assumptions C38_count_special.
Print Assumptions C38_succeeds.
