(** Property C73: the limits along the whole event stream.

    [kept P c ops c'] (MachinePath.v): the calls [ops] succeed one after the other
    from [c] to [c'], with arguments in the range where no cast wraps, and each
    satisfies [P] in the state where it is made.  [within_speed] asks that a goto
    satisfies the documented conditions ([goto_axis], ContextGoto.v), that a speed
    request is within the limits and that an acceleration interval ends within
    them; [within_acc] that accelerations are within the limit. *)
From Coq Require Import ZArith List Bool Lia.
From Verif Require Import Base AccVector MotionSpec IntegerCurve StepperContext MachineSpec
  MachineProofs ContextProofs ContextOps ContextHist ContextClock ContextGoto PropsIntegerCurve MachinePath.
Import ListNotations.
Open Scope Z_scope.

Lemma kept_clocked : forall P ax ay vx vy ops c, kept P (new_ctx ax ay vx vy) ops c ->
  sound c /\ config c = (ax, ay, vx, vy, 0).
Proof.
  intros P ax ay vx vy ops c H. pose proof (kept_history _ _ _ _ H) as K. split.
  - exact (history_sound _ _ ops c planner_typed K (sound_new ax ay vx vy)).
  - change (ax, ay, vx, vy, 0) with (config (new_ctx ax ay vx vy)).
    apply (exec_config shortest_curve_sequences ops), history_exec, K.
Qed.

(** From power-up the machine is never faster than the limit, at any tick. *)
Theorem C73_stream_speed_limit : forall ax ay vmx vmy ops c,
  0 <= vmx -> 0 <= vmy ->
  kept within_speed (new_ctx ax ay vmx vmy) ops c -> Forall not_reset ops ->
  (forall i, ticks_of c i < u64_max) ->
  forall w i t, 0 <= t <= ticks_of c i ->
  Z.abs (s_v (machine_axis (play (events c) t (machine0 w)) i)) <= match i with AX => vmx | AY => vmy end.
Proof.
  intros ax ay vmx vmy ops c Hx Hy H Hr Ht w i t Hti.
  destruct (kept_clocked _ _ _ _ _ _ _ H) as [[Hc _] Cf].
  destruct (kept_limited _ ops c H Hr (sound_new ax ay vmx vmy) Ht i) as [L _].
  { destruct i; cbn; lia. }
  { intros u Hu. destruct i; cbn in *; lia. }
  specialize (L t Hti). rewrite play_axis_ok by (try lia; apply clocked_nonneg, Hc).
  assert (E : machine_axis (machine0 w) i = s0) by (destruct i; reflexivity). rewrite E.
  unfold config in Cf. injection Cf as f1 f2 f3 f4 f5.
  destruct i; cbn [v_max] in L; rewrite ?f3, ?f4 in L; exact L.
Qed.

(** Nor is it ever accelerated beyond the limit. *)
Theorem C73_stream_acc_limit : forall ax ay vmx vmy ops c,
  0 <= ax -> 0 <= ay ->
  kept within_acc (new_ctx ax ay vmx vmy) ops c -> Forall not_reset ops ->
  (forall i, ticks_of c i < u64_max) ->
  forall w i t, 0 <= t < ticks_of c i ->
  Z.abs (s_acc (machine_axis (play (events c) t (machine0 w)) i)) <= match i with AX => ax | AY => ay end.
Proof.
  intros ax ay vmx vmy ops c Hx Hy H Hr Ht w i t Hti.
  destruct (kept_clocked _ _ _ _ _ _ _ H) as [[Hc _] Cf].
  pose proof (kept_acc_limited _ ops c H Hr (sound_new ax ay vmx vmy) Ht i) as L.
  assert (L0 : acc_limited i (events (new_ctx ax ay vmx vmy)) (ticks_of (new_ctx ax ay vmx vmy) i)
     (a_max (new_ctx ax ay vmx vmy) i)).
  { intros u Hu. destruct i; cbn in *; lia. }
  specialize (L L0 t Hti). rewrite play_axis_ok by (try lia; apply clocked_nonneg, Hc).
  assert (E : machine_axis (machine0 w) i = s0) by (destruct i; reflexivity). rewrite E.
  unfold config in Cf. injection Cf as f1 f2 f3 f4 f5.
  destruct i; cbn [a_max] in L; rewrite ?f1, ?f2 in L; exact L.
Qed.

Ltac run_kept := repeat (eapply kept_cons; [vm_compute; try exact I; repeat split; congruence
  |vm_compute; try exact I; repeat split; congruence|vm_compute; reflexivity|]); apply kept_nil.

Definition path_ops : list op :=
  [GotoSpeed 100 (-37) 3 (-2); AddAcc (-1) 1 3; AddWeight 200 9; GotoSpeed 0 0 0 0; Flush].

Example C73_example : exists c, kept within_speed (new_ctx 5 4 30 20) path_ops c /\ ticks c = Ok 16.
Proof. eexists. split; [run_kept|reflexivity]. Qed.
Example C73_acc_example : exists c, kept within_acc (new_ctx 5 4 30 20) path_ops c /\ ticks c = Ok 16.
Proof. eexists. split; [run_kept|reflexivity]. Qed.

(** The conditions are needed: a call outside them leaves the limits. *)
Theorem C73_condition_needed : exists c,
  history shortest_curve_sequences (new_ctx 2 2 10 10) [GotoSpeed 100 0 (-12) 0] c /\
  ticks_of c AX = 20 /\ s_v (m_x (play (events c) 20 (machine0 0))) = -12.
Proof.
  eexists. split.
  { eapply hist_cons; [vm_compute; repeat split; congruence|vm_compute; reflexivity|apply hist_nil]. }
  split; reflexivity.
Qed.

Print Assumptions C73_stream_speed_limit.
Print Assumptions C73_stream_acc_limit.
