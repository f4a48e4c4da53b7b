(** Properties C22-C30: the motion context.

    [machine], [play] (MachineSpec.v) are an independent tick by tick controller;
    [op_ok]/[history] (ContextHist.v) are sequences of successful calls with
    arguments in the range where no cast wraps; [now_op]/[now_history]
    (ContextClock.v) are sequences of successful calls with arguments of the right
    type and weight changes placed at the current time. *)
From Coq Require Import ZArith List Bool Lia.
From Coq Require Import ZifyBool ZifyNat.
From Verif Require Import Base AccVector MotionSpec AccVectorProofs IntegerCurve StepperContext MachineSpec
  MachineProofs ContextProofs ContextOps ContextHist ContextClock ContextGoto PropsIntegerCurve PropsDuration.
Import ListNotations.
Open Scope Z_scope.

Notation code := shortest_curve_sequences.

(** C22 *)
Theorem C22_stream_reproduces_state : forall ax ay vx vy ops c w,
  history code (new_ctx ax ay vx vy) ops c ->
  (forall i, ticks_of c i < u64_max) ->
  forall i, let s := machine_axis (play (events c) (ticks_of c i) (machine0 w)) i in
    s_pos s = c_pos (channel c i) /\ s_v s = c_v (channel c i).
Proof.
  intros ax ay vx vy ops c w H Ht i s.
  destruct (history_sound code _ ops c planner_typed H (sound_new ax ay vx vy)) as [Hc Hm].
  specialize (Hm Ht i). subst s. rewrite play_axis_ok.
  2: apply (ck_ticks c Hc i). 2: apply clocked_nonneg, Hc.
  assert (E : machine_axis (machine0 w) i = mk_axis 0 0 0) by (destruct i; reflexivity). rewrite E.
  unfold c_move, motion, c_state in Hm. cbv zeta in Hm.
  split; [exact (f_equal fst Hm)|exact (f_equal snd Hm)].
Qed.

(** With both channels at the same time: the whole machine is at position() and
    velocity() at time ticks(). *)
Theorem C22_stream_reproduces_position : forall ax ay vx vy ops c w t,
  history code (new_ctx ax ay vx vy) ops c -> ticks c = Ok t -> t < u64_max ->
  let m := play (events c) t (machine0 w) in
  (s_pos (m_x m), s_pos (m_y m)) = position c /\ (s_v (m_x m), s_v (m_y m)) = velocity c.
Proof.
  intros ax ay vx vy ops c w t H Et Ht m. unfold ticks in Et. inv_bind Et. injection Et as <-.
  apply assert_Ok in E. assert (Hi : forall i, ticks_of c i < u64_max) by (intros []; lia).
  pose proof (C22_stream_reproduces_state _ _ _ _ _ _ w H Hi AX) as [X1 X2].
  pose proof (C22_stream_reproduces_state _ _ _ _ _ _ w H Hi AY) as [Y1 Y2].
  assert (EQ : ticks_of c AY = ticks_of c AX) by lia. rewrite EQ in Y1, Y2.
  fold m in X1, X2, Y1, Y2. unfold position, velocity. cbn [machine_axis channel] in *.
  rewrite X1, X2, Y1, Y2. auto.
Qed.

Ltac run_history := repeat (eapply hist_cons; [vm_compute; try exact I; repeat split; congruence
  |vm_compute; reflexivity|]); apply hist_nil.
Ltac run_now := repeat (eapply now_cons; [vm_compute; try exact I; repeat split; congruence
  |vm_compute; reflexivity|]); apply now_nil.

Definition sample_ops : list op :=
  [GotoSpeed 100 (-37) 3 (-2); AddAcc (-1) 1 3; AddWeight 200 9; GotoSpeed 0 0 0 0; Flush].

Example C22_example : exists c, history code (new_ctx 5 4 30 20) sample_ops c /\
  position c = (0, 0) /\ velocity c = (0, 0) /\ length (events c) = 27%nat /\ ticks c = Ok 16.
Proof. eexists. split; [run_history|]. repeat split; reflexivity. Qed.

(** The range condition matters: an interval of 2^31 ticks is cast to a negative
    number for the velocity, but not for the position or the clock. *)
Example C22_long_interval : exists c,
  add_acc_interval (new_ctx 1 1 10 10) 1 0 (2 ^ 31) = Ok c /\
  velocity c = (- 2 ^ 31, 0) /\ ticks c = Ok (2 ^ 31).
Proof. eexists. split; [vm_compute; reflexivity|]. repeat split; reflexivity. Qed.

(** C23 *)
Theorem C23_deltas : forall ax ay vx vy ops c,
  now_history code (new_ctx ax ay vx vy) ops c ->
  Forall (fun e => 0 <= e_ticks e <= u32_max) (events c) /\
  total (events c) = event_ticks c /\
  event_ticks c <= Z.max (ticks_of c AX) (ticks_of c AY).
Proof.
  intros ax ay vx vy ops c H.
  destruct (now_history_timely code _ ops c planner_typed H (timely_new ax ay vx vy)) as [[H1 H2 H3] H4].
  auto.
Qed.

Example C23_C24_example : exists c, now_history code (new_ctx 5 4 30 20) sample_ops c /\
  Forall not_speed sample_ops /\ ticks c = Ok 16 /\ event_ticks c = 16.
Proof. eexists. split; [run_now|]. split; [repeat constructor|]. split; reflexivity. Qed.

(** A weight change far ahead is truncated. *)
Example C23_far_weight : exists c,
  add_weight_change (new_ctx 1 1 10 10) 7 (2 ^ 32 + 5) = Ok c /\
  total (events c) = 5 /\ event_ticks c = 2 ^ 32 + 5.
Proof. eexists. split; [vm_compute; reflexivity|]. repeat split; reflexivity. Qed.

(** C24 *)
Theorem C24_synchronised : forall ax ay vx vy ops c,
  now_history code (new_ctx ax ay vx vy) ops c -> Forall not_speed ops ->
  ticks c = Ok (ticks_of c AX) /\ ticks_of c AX = ticks_of c AY /\
  (ticks_of c AX <= u64_max -> exists c', flush c = Ok c').
Proof.
  intros ax ay vx vy ops c H Hs.
  destruct (now_history_timely code _ ops c planner_typed H (timely_new ax ay vx vy)) as [Hc He].
  pose proof (sync_history code _ ops c H Hs eq_refl) as S.
  split; [unfold ticks; rewrite S, Z.eqb_refl; reflexivity|]. split; [exact S|].
  intros Hm. apply flush_ok; auto. lia.
Qed.

(** C25 *)
Lemma parity_close : forall p t x, Z.abs (t - (x - p)) <= 1 -> Z.even (x - p) = Z.even t -> p + t = x.
Proof.
  intros p t x Hd Ev. assert (Hc : t = x - p \/ t = (x - p) + 1 \/ t = (x - p) - 1) by lia.
  destruct Hc as [->|[->| ->]]; [lia| |].
  - rewrite Z.even_add in Ev. destruct (Z.even (x - p)); discriminate.
  - rewrite (Z.even_sub (x - p) 1) in Ev. destruct (Z.even (x - p)); discriminate.
Qed.

Theorem C25_goto_arrives : forall ax ay vmx vmy ops c x y vx vy,
  now_history code (new_ctx ax ay vmx vmy) ops c -> Forall not_speed ops ->
  ticks_of c AX + 65535 < u64_max ->
  request (x - c_pos (channel c AX)) (c_v (channel c AX)) vx ax vmx ->
  request (y - c_pos (channel c AY)) (c_v (channel c AY)) vy ay vmy ->
  (forall i, Z.abs (c_pos (channel c i)) <= 2 ^ 62) ->
  exists t, 1 <= t /\
    (t <= 65535 -> exists c', step_goto_speed c x y vx vy = Ok c') /\
    (storable (x - c_pos (channel c AX)) ax vmx -> storable (y - c_pos (channel c AY)) ay vmy -> t <= 65535) /\
    forall c', step_goto_speed c x y vx vy = Ok c' ->
      velocity c' = (vx, vy) /\
      Z.abs (fst (position c') - x) <= 1 /\ Z.abs (snd (position c') - y) <= 1 /\
      (Z.even (x - c_pos (channel c AX)) = Z.even (c_v (channel c AX) + vx) -> fst (position c') = x) /\
      (Z.even (y - c_pos (channel c AY)) = Z.even (c_v (channel c AY) + vy) -> snd (position c') = y).
Proof.
  intros ax ay vmx vmy ops c x y vx vy H Hs Hm Rx Ry Hp.
  destruct (now_history_timely code _ ops c planner_typed H (timely_new _ _ _ _)) as [Hc He].
  pose proof (sync_history code _ ops c H Hs eq_refl) as S.
  assert (Cf : config c = (ax, ay, vmx, vmy, 0)).
  { change (ax, ay, vmx, vmy, 0) with (config (new_ctx ax ay vmx vmy)).
    apply (exec_config code ops). clear - H. induction H; cbn [exec]; [reflexivity|]. rewrite H0. exact IHnow_history. }
  unfold config in Cf. injection Cf as f1 f2 f3 f4 f5.
  destruct (goto_spec c x y vx vy Hc S ltac:(lia) Hm) as (t & (Ht & r & h & EA & EB) & Hok & Hr).
  { unfold request in Rx. specialize (Hp AX). unfold goto_axis, a_max, v_max. rewrite f1, f3. tauto. }
  { unfold request in Ry. specialize (Hp AY). unfold goto_axis, a_max, v_max. rewrite f2, f4. tauto. }
  exists t. split; [exact Ht|]. split; [exact Hok|]. split.
  { intros Sx Sy. apply (common_duration (goto_limits c x y vx vy) r t h); auto; [discriminate| |].
    - apply axes_supported. unfold goto_limits, a_max, v_max. rewrite f1, f2, f3, f4.
      constructor; [exact Rx|constructor; [exact Ry|constructor]].
    - unfold goto_limits, a_max, v_max. rewrite f1, f2, f3, f4.
      constructor; [exact Sx|constructor; [exact Sy|constructor]]. }
  intros c' Hg. destruct (Hr c' Hg) as (sx & sy & Lx & Ly & St & ST & FS & Dx & Dy & _).
  pose proof (ST AX) as SX. pose proof (ST AY) as SY. unfold c_state in SX, SY. cbn [pick] in SX, SY.
  pose proof (f_equal fst SX) as PX. pose proof (f_equal snd SX) as VX.
  pose proof (f_equal fst SY) as PY. pose proof (f_equal snd SY) as VY. cbn [fst snd] in PX, VX, PY, VY.
  unfold velocity, position. cbn [channel fst snd] in *. split; [congruence|].
  split; [lia|]. split; [lia|].
  pose proof (travel_parity (expand sx) (c_v (chan_x c))) as Qx. pose proof (travel_parity (expand sy) (c_v (chan_y c))) as Qy.
  pose proof (FS AX) as FX. pose proof (FS AY) as FY. cbn [pick channel] in FX, FY. rewrite FX in Qx. rewrite FY in Qy.
  rewrite PX, PY. clear - Dx Dy Qx Qy. 
  set (tx := travel (c_v (chan_x c)) (expand sx)) in *. set (ty := travel (c_v (chan_y c)) (expand sy)) in *.
  clearbody tx ty. split; intros Ev; [rewrite <- Qx in Ev|rewrite <- Qy in Ev]; apply parity_close; auto.
Qed.

Example C25_example : exists c c',
  now_history code (new_ctx 5 4 30 20) [GotoSpeed 100 (-37) 3 (-2)] c /\
  request (-50 - c_pos (channel c AX)) (c_v (channel c AX)) 0 5 30 /\
  request (13 - c_pos (channel c AY)) (c_v (channel c AY)) 0 4 20 /\
  storable (-50 - c_pos (channel c AX)) 5 30 /\ storable (13 - c_pos (channel c AY)) 4 20 /\
  step_goto_speed c (-50) 13 0 0 = Ok c' /\
  velocity c' = (0, 0) /\ position c' = (-50, 14).
Proof.
  eexists. eexists. split; [run_now|]. split; [vm_compute; repeat split; congruence|].
  split; [vm_compute; repeat split; congruence|]. split; [reflexivity|]. split; [reflexivity|].
  split; [vm_compute; reflexivity|]. split; reflexivity.
Qed.

(** C26 *)
Theorem C26_laser_off_during_goto : forall ax ay vmx vmy before c x y vx vy c1 after c2,
  history code (new_ctx ax ay vmx vmy) before c ->
  step_goto_speed c x y vx vy = Ok c1 ->
  history code c1 after c2 -> Forall not_reset after ->
  forall t m, ticks_of c AX <= t < ticks_of c1 AX -> m_weight (play (events c2) t m) = 0.
Proof.
  intros ax ay vmx vmy before c x y vx vy c1 after c2 H Hg Ha Hr t m Ht.
  destruct (history_sound code _ before c planner_typed H (sound_new _ _ _ _)) as [Hc _].
  assert (W0 : move_weight c = 0).
  { pose proof (exec_config code before _ _ (history_exec _ _ _ _ H)) as Cf. unfold config in Cf.
    injection Cf as f1 f2 f3 f4 f5. exact f5. }
  destruct (step_goto_speed_spec code c x y vx vy c1 Hc planner_typed Hg)
    as (sx & sy & rest & _ & _ & _ & St & _ & _ & _ & _ & _ & Q).
  destruct (history_step code c1 after c2 planner_typed Ha Hr (st_clocked _ _ St)) as [_ K].
  rewrite play_weight_ok, K, Q by lia. destruct (Z.leb_spec (ticks_of c AX) t); [exact W0|lia].
Qed.

Example C26_example : exists c c1 c2,
  history code (new_ctx 5 4 30 20) [AddAcc 1 1 3; AddWeight 200 3] c /\
  step_goto_speed c 100 100 0 0 = Ok c1 /\
  history code c1 [AddWeight 77 10; AddAcc 1 1 2; GotoSpeed 0 0 0 0] c2 /\
  ticks c = Ok 3 /\ ticks c1 = Ok 10 /\
  map (fun t => m_weight (play (events c2) t (machine0 99))) [2; 3; 9; 10] = [99; 0; 0; 77].
Proof.
  do 3 eexists. split; [run_history|]. split; [vm_compute; reflexivity|]. split; [run_history|].
  repeat split; reflexivity.
Qed.

(** C27 *)
Fixpoint flush_times (n : nat) (c : ctx) : res ctx :=
  match n with O => Ok c | S n' => let! c := flush c in flush_times n' c end.

Theorem C27_flush_stops : forall ax ay vmx vmy ops c c',
  history code (new_ctx ax ay vmx vmy) ops c -> flush c = Ok c' ->
  total (events c') = ticks_of c' AX /\ ticks_of c' AX = ticks_of c AX /\
  position c' = position c /\ velocity c' = velocity c /\
  (forall t m, ticks_of c AX <= t ->
     m_weight (play (events c') t m) = 0 /\
     forall i, s_acc (machine_axis (play (events c') t m) i) = 0) /\
  (forall t m, 0 <= t < ticks_of c AX -> play (events c') t m = play (events c) t m).
Proof.
  intros ax ay vmx vmy ops c c' H Hf.
  destruct (history_sound code _ ops c planner_typed H (sound_new _ _ _ _)) as [Hc _].
  assert (W0 : move_weight c = 0).
  { pose proof (exec_config code ops _ _ (history_exec _ _ _ _ H)) as Cf. unfold config in Cf.
    injection Cf as f1 f2 f3 f4 f5. exact f5. }
  destruct (flush_spec c c' Hc Hf) as (St & _ & Ch & _ & S & Et & Q).
  pose proof (ck_ticks c Hc AX) as Htk.
  assert (Hn' : nonneg (events c')) by apply clocked_nonneg, St.
  pose proof (clocked_nonneg c Hc) as Hn.
  assert (T : ticks_of c' AX = ticks_of c AX) by (unfold ticks_of; rewrite Ch; reflexivity).
  split; [rewrite (ck_total _ (st_clocked _ _ St)), T; exact Et|]. split; [exact T|].
  pose proof (Ch AX) as CX. pose proof (Ch AY) as CY. cbn [channel] in CX, CY.
  split; [unfold position; rewrite CX, CY; reflexivity|]. split; [unfold velocity; rewrite CX, CY; reflexivity|].
  split.
  - intros t m Ht. split.
    + rewrite play_weight_ok, Q. destruct (Z.leb_spec (ticks_of c AX) t); [exact W0|lia].
    + intros i. rewrite play_axis_ok, (flush_play_axis c c' Hc Hf) by (auto; lia). cbv zeta.
      destruct (Z.leb_spec (ticks_of c AX) t); [reflexivity|lia].
  - intros t m Ht. apply machine_eq.
    + intros i. rewrite !play_axis_ok, (flush_play_axis c c' Hc Hf) by (auto; lia). cbv zeta.
      destruct (Z.leb_spec (ticks_of c AX) t); [lia|reflexivity].
    + rewrite !play_weight_ok, Q. destruct (Z.leb_spec (ticks_of c AX) t); [lia|reflexivity].
Qed.

Lemma flush_times_spec : forall n c c', clocked c -> flush c = Ok c' -> ticks_of c AX <= u64_max ->
  exists c'', flush_times n c' = Ok c'' /\
  (forall i, channel c'' i = channel c' i) /\
  forall t m, 0 <= t -> play (events c'') t m = play (events c') t m.
Proof.
  induction n as [|n IH]; intros c c' Hc Hf Hm; cbn [flush_times].
  - exists c'. auto.
  - destruct (flush_spec c c' Hc Hf) as (St & _ & Ch & _ & S & Et & Q).
    assert (T : forall i, ticks_of c' i = ticks_of c i) by (intros i; unfold ticks_of; rewrite Ch; reflexivity).
    destruct (flush_ok c' (st_clocked _ _ St)) as [c1 E1]; [rewrite !T; exact S|rewrite Et, T; lia|].
    rewrite E1. cbn [bind].
    destruct (IH c' c1 (st_clocked _ _ St) E1) as (c'' & E2 & Ch2 & P2); [rewrite T; exact Hm|].
    destruct (flush_spec c' c1 (st_clocked _ _ St) E1) as (St1 & _ & Ch1 & _ & _ & _ & Q1).
    exists c''. split; [exact E2|]. split; [intros i; rewrite Ch2, Ch1; reflexivity|].
    intros t m Ht. rewrite P2 by auto.
    assert (MW : move_weight c' = move_weight c).
    { pose proof (st_config _ _ St) as Cf. unfold config in Cf. injection Cf as f1 f2 f3 f4 f5. exact f5. }
    apply machine_eq.
    + intros i. rewrite !play_axis_ok; auto; try apply clocked_nonneg; try apply St; try apply St1.
      apply (flush_again_axis c); auto.
    + rewrite !play_weight_ok, Q1, Q, T, MW. destruct (ticks_of c AX <=? t); reflexivity.
Qed.

Theorem C27_flush_again_changes_nothing : forall ax ay vmx vmy ops c c' n,
  history code (new_ctx ax ay vmx vmy) ops c -> flush c = Ok c' -> ticks_of c AX <= u64_max ->
  exists c'', flush_times n c' = Ok c'' /\ position c'' = position c' /\ velocity c'' = velocity c' /\
  forall t m, 0 <= t -> play (events c'') t m = play (events c') t m.
Proof.
  intros ax ay vmx vmy ops c c' n H Hf Hm.
  destruct (history_sound code _ ops c planner_typed H (sound_new _ _ _ _)) as [Hc _].
  destruct (flush_times_spec n c c' Hc Hf Hm) as (c'' & E & Ch & P).
  exists c''. split; [exact E|].
  pose proof (Ch AX) as CX. pose proof (Ch AY) as CY. cbn [channel] in CX, CY.
  unfold position, velocity. rewrite CX, CY. auto.
Qed.

(** At rest, a flushed machine stays where it is. *)
Theorem C27_flushed_at_rest : forall ax ay vmx vmy ops c c' t w,
  history code (new_ctx ax ay vmx vmy) ops c -> flush c = Ok c' -> ticks_of c AX < u64_max ->
  velocity c = (0, 0) -> ticks_of c AX <= t ->
  let m := play (events c') t (machine0 w) in
  (s_pos (m_x m), s_pos (m_y m)) = position c /\ (s_v (m_x m), s_v (m_y m)) = (0, 0).
Proof.
  intros ax ay vmx vmy ops c c' t w H Hf Hm Hv Ht m.
  destruct (history_sound code _ ops c planner_typed H (sound_new _ _ _ _)) as [Hc Hmv].
  destruct (flush_spec c c' Hc Hf) as (St & _ & Ch & _ & S & Et & Q).
  assert (Hi : forall i, ticks_of c i < u64_max) by (intros []; lia). specialize (Hmv Hi).
  pose proof (ck_ticks c Hc AX) as Htk.
  assert (K : forall i, machine_axis m i = mk_axis (c_pos (channel c i)) 0 0).
  { intros i. unfold m. rewrite play_axis_ok, (flush_play_axis c c' Hc Hf); try lia.
    2: apply clocked_nonneg, St. cbv zeta. destruct (Z.leb_spec (ticks_of c AX) t); [|lia].
    specialize (Hmv i). unfold c_move, motion, c_state in Hmv. cbv zeta in Hmv.
    assert (E : machine_axis (machine0 w) i = mk_axis 0 0 0) by (destruct i; reflexivity). rewrite E.
    assert (Ti : ticks_of c i = ticks_of c AX) by (destruct i; auto). rewrite Ti in Hmv.
    pose proof (f_equal fst Hmv) as P1. pose proof (f_equal snd Hmv) as P2. cbn [fst snd] in P1, P2.
    rewrite P1, P2. unfold velocity in Hv.
    assert (V0 : c_v (channel c i) = 0).
    { pose proof (f_equal fst Hv). pose proof (f_equal snd Hv). destruct i; cbn [channel fst snd] in *; auto. }
    rewrite V0. unfold adv. cbn [s_pos s_v s_acc]. f_equal; lia. }
  pose proof (K AX) as KX. pose proof (K AY) as KY. cbn [machine_axis] in KX, KY. rewrite KX, KY.
  split; reflexivity.
Qed.

Example C27_example : exists c c1, history code (new_ctx 5 4 30 20) [GotoSpeed 100 100 0 0] c /\
  flush c = Ok c1 /\ ticks c1 = Ok 8 /\
  map e_ticks (skipn (length (events c)) (events c1)) = [1; 0; 0] /\
  exists c2, flush_times 3 c1 = Ok c2 /\ map e_ticks (skipn (length (events c1)) (events c2)) = repeat 0 9.
Proof.
  do 2 eexists. split; [run_history|]. split; [vm_compute; reflexivity|]. split; [reflexivity|].
  split; [reflexivity|]. eexists. split; vm_compute; reflexivity.
Qed.

(** C28 *)
Theorem C28_reset_forgets : forall ax ay vmx vmy ops c,
  exec code (new_ctx ax ay vmx vmy) ops = Ok c ->
  forall further,
  exec code (reset c) further = exec code (set_weight (new_ctx ax ay vmx vmy) (curve_weight c)) further.
Proof.
  intros ax ay vmx vmy ops c H further. f_equal.
  apply exec_config in H. unfold config in H. injection H as f1 f2 f3 f4 f5.
  unfold reset, set_weight, new_ctx. cbn. rewrite f1, f2, f3, f4, f5. reflexivity.
Qed.

Example C28_example : exists c, exec code (new_ctx 5 4 30 20) (SetWeight 9 :: sample_ops) = Ok c /\
  events c <> [] /\ reset c = set_weight (new_ctx 5 4 30 20) 9.
Proof. eexists. split; [vm_compute; reflexivity|]. split; [discriminate|reflexivity]. Qed.

(** C29 *)
Theorem C29_speed_reaches_velocity : forall ax ay vmx vmy ops c vx vy c',
  history code (new_ctx ax ay vmx vmy) ops c ->
  op_ok c (Speed vx vy) -> step_speed c vx vy = Ok c' ->
  velocity c' = (vx, vy) /\
  exists accs_x accs_y,
    (forall a, In a accs_x -> Z.abs a <= ax) /\ (forall a, In a accs_y -> Z.abs a <= ay) /\
    final_speed (fst (velocity c)) accs_x = vx /\ final_speed (snd (velocity c)) accs_y = vy /\
    fst (position c') = fst (position c) + travel (fst (velocity c)) accs_x /\
    snd (position c') = snd (position c) + travel (snd (velocity c)) accs_y /\
    ((forall i, ticks_of c' i < u64_max) ->
      ticks_of c' AX = ticks_of c AX + Z.of_nat (length accs_x) /\
      ticks_of c' AY = ticks_of c AY + Z.of_nat (length accs_y) /\
      forall w i, let s := machine_axis (play (events c') (ticks_of c' i) (machine0 w)) i in
        s_pos s = c_pos (channel c' i) /\ s_v s = c_v (channel c' i)).
Proof.
  intros ax ay vmx vmy ops c vx vy c' H Ho Hs.
  destruct (history_sound code _ ops c planner_typed H (sound_new _ _ _ _)) as [Hc _].
  assert (Cf : config c = (ax, ay, vmx, vmy, 0)).
  { change (ax, ay, vmx, vmy, 0) with (config (new_ctx ax ay vmx vmy)).
    apply (exec_config code ops), history_exec, H. }
  unfold config in Cf. injection Cf as f1 f2 f3 f4 f5.
  assert (H' : history code (new_ctx ax ay vmx vmy) (ops ++ [Speed vx vy]) c').
  { eapply history_app; [exact H|]. eapply hist_cons; [exact Ho|exact Hs|apply hist_nil]. }
  cbn [op_ok] in Ho.
  destruct (step_speed_spec c vx vy c' Hc) as (sx & sy & _ & _ & St & _ & ST & B & FS & M & _); try tauto.
  1, 2: intros []; apply Ho.
  pose proof (ST AX) as SX. pose proof (ST AY) as SY. unfold c_state in SX, SY. cbn [pick] in SX, SY.
  pose proof (f_equal fst SX) as PX. pose proof (f_equal snd SX) as VX.
  pose proof (f_equal fst SY) as PY. pose proof (f_equal snd SY) as VY.
  unfold velocity, position. cbn [channel fst snd] in *. split; [congruence|].
  exists (expand sx), (expand sy).
  split; [intros a Ha; rewrite <- f1; apply (B AX); exact Ha|].
  split; [intros a Ha; rewrite <- f2; apply (B AY); exact Ha|].
  split; [apply (FS AX)|]. split; [apply (FS AY)|]. split; [exact PX|]. split; [exact PY|].
  intros Ht. split; [apply (M Ht AX)|]. split; [apply (M Ht AY)|].
  intros w i. eapply C22_stream_reproduces_state; eauto.
Qed.

(** The channels need different times, and then ticks() and events() panic. *)
Theorem C29_speed_desynchronises : exists c,
  step_speed (new_ctx 1 1 10 10) 3 5 = Ok c /\ velocity c = (3, 5) /\
  ticks_of c AX = 3 /\ ticks_of c AY = 5 /\ ticks c = Panic /\ flush c = Panic.
Proof. eexists. split; [vm_compute; reflexivity|]. repeat split; reflexivity. Qed.

(** A change of 65536 times the acceleration limit is emitted as no change at all. *)
Lemma play_x_v : forall evs t w v, 0 <= t -> nonneg evs ->
  s_v (play_axis AX evs t (mk_axis 0 0 0)) = v -> s_v (m_x (play evs t (machine0 w))) = v.
Proof.
  intros evs t w v Ht Hn H. change (m_x (play evs t (machine0 w))) with (machine_axis (play evs t (machine0 w)) AX).
  rewrite play_axis_ok by auto. exact H.
Qed.

Theorem C29_long_ramp_lost : exists c c',
  step_speed (new_ctx 1 1 40000 40000) (-32768) (-32768) = Ok c /\
  step_speed c 32768 32768 = Ok c' /\
  velocity c' = (32768, 32768) /\ ticks_of c' AX = ticks_of c AX /\
  s_v (m_x (play (events c') (ticks_of c' AX) (machine0 0))) = -32768.
Proof.
  eexists. eexists. split; [vm_compute; reflexivity|]. split; [vm_compute; reflexivity|].
  split; [reflexivity|]. split; [reflexivity|]. apply play_x_v.
  - vm_compute. discriminate.
  - repeat (apply Forall_cons; [vm_compute; discriminate|]). apply Forall_nil.
  - vm_compute. reflexivity.
Qed.

(** C30 *)
Theorem C30_above_maximum_rejected : forall c x y vx vy,
  v_max c AX < vx \/ v_max c AY < vy -> step_goto_speed c x y vx vy = Panic.
Proof.
  intros c x y vx vy H. unfold step_goto_speed, step_goto_speed_with.
  destruct (Z.geb_spec (v_max c AX) vx); [|reflexivity]. cbn [assert bind].
  destruct (Z.geb_spec (v_max c AY) vy); [lia|reflexivity].
Qed.

Theorem C30_below_minimum_accepted : exists c,
  step_goto_speed (new_ctx 2 2 10 10) 100 0 (-12) 0 = Ok c /\
  velocity c = (-12, 0) /\ position c = (100, 0) /\ ticks c = Ok 20 /\
  s_v (m_x (play (events c) 20 (machine0 0))) = -12.
Proof. eexists. split; [vm_compute; reflexivity|]. repeat split; reflexivity. Qed.

Print Assumptions C22_stream_reproduces_position.
Print Assumptions C23_deltas.
Print Assumptions C24_synchronised.
Print Assumptions C25_goto_arrives.
Print Assumptions C26_laser_off_during_goto.
Print Assumptions C27_flush_stops.
Print Assumptions C27_flush_again_changes_nothing.
Print Assumptions C27_flushed_at_rest.
Print Assumptions C28_reset_forgets.
Print Assumptions C29_speed_reaches_velocity.
Print Assumptions C29_long_ramp_lost.
Print Assumptions C30_above_maximum_rejected.
