(** Properties C39-C41 and C74: drawing a list of curve segments.

    [geometry] (DrawCurves.v) leaves open what Bezier curves, circle segments and
    the binary search compute; the theorems are for all of them.  [play]
    (MachineSpec.v) is the independent machine.  [pieces], [grouped], [smooth],
    [draw_runs], [timeline] and [burning] are in DrawProofs.v. *)
From Coq Require Import ZArith List Bool Lia.
From Coq Require Import ZifyBool ZifyNat.
From Verif Require Import Base Floats AccVector MotionSpec IntegerCurve StepperContext MachineSpec
  MachineProofs ContextProofs ContextOps ContextHist ContextClock ContextGoto PropsIntegerCurve MachinePath
  PropsPath ApproxCurve ApproxProofs ApproxBound DrawCurves PropsApprox DrawProofs.
Import ListNotations.
Open Scope Z_scope.

Lemma clocked_history : forall ax ay vx vy ops c, history code (new_ctx ax ay vx vy) ops c ->
  clocked c /\ config c = (ax, ay, vx, vy, 0).
Proof.
  intros ax ay vx vy ops c H. split.
  - apply (history_sound _ _ ops c planner_typed H (sound_new ax ay vx vy)).
  - change (ax, ay, vx, vy, 0) with (config (new_ctx ax ay vx vy)).
    apply (exec_config code ops), history_exec, H.
Qed.

(** C39.  The weight at every tick: as before until the call; then the curve
    weight while a run is followed; the move weight, 0, on the way to a run and
    after the last.  Each time triple of [times] is: start of the way to a run,
    start of the run, end of the run. *)
Theorem C39_laser : forall ax ay vmx vmy ops c g s segs v c' e,
  history code (new_ctx ax ay vmx vmy) ops c -> segs <> [] ->
  draw_curves g s c segs v = Ok (c', e) ->
  exists l runs times pos', pieces g (stands g s v c runs) (machine_place s c) segs l pos' /\ grouped l runs /\
    timeline g v (ticks_of c AX) runs times (ticks_of c' AX) /\
    forall t m, 0 <= t ->
    m_weight (play (events c') t m) =
      if t <? ticks_of c AX then m_weight (play (events c) t m)
      else if burning times t then curve_weight c else 0.
Proof.
  intros ax ay vmx vmy ops c g s segs v c' e H Hs D.
  destruct (clocked_history _ _ _ _ _ _ H) as [Hc Cf].
  destruct (draw_curves_runs _ _ _ _ _ _ _ Hs D) as (l & runs & pos' & c1 & P & G & _ & R & W).
  destruct (draw_runs_spec g s v runs c c1 Hc (grouped_nonempty _ _ G) R)
    as (ops1 & times & _ & _ & _ & _ & S1 & W1 & _ & TL & Q).
  pose proof (ck_ticks c1 (st_clocked _ _ S1) AX) as T0.
  destruct (add_weight_spec c1 _ _ c' (st_clocked _ _ S1) (proj2 T0) W) as (S2 & W2 & C2 & T2 & M2 & V2 & B2 & Q2).
  exists l, runs, times, pos'. split; [exact P|]. split; [exact G|]. rewrite T2. split; [exact TL|].
  assert (MW : move_weight c1 = 0 /\ move_weight c = 0).
  { pose proof (st_config _ _ S1) as K. unfold config in *. split; congruence. }
  intros t m Ht. rewrite !play_weight_ok, Q2. destruct MW as [-> MW].
  pose proof (st_ticks _ _ S1 AX) as LE.
  destruct (Z.leb_spec (ticks_of c1 AX) t).
  - destruct (Z.ltb_spec t (ticks_of c AX)); [lia|].
    assert (BF : burning times t = false).
    { clear - TL H0. induction TL; cbn [burning]; [reflexivity|]. pose proof (timeline_le _ _ _ _ _ _ TL).
      rewrite IHTL by lia. lia. }
    rewrite BF. reflexivity.
  - rewrite Q by lia. rewrite MW. reflexivity.
Qed.

(** C41.  The drawn curves, in order, are those of the segments, each once; a run
    starts where its first curve starts, and a run is not continued over a bend. *)
Theorem C41_all_drawn : forall g s c segs v c' e, segs <> [] -> draw_curves g s c segs v = Ok (c', e) ->
  exists l runs pos' c1, pieces g (stands g s v c runs) (machine_place s c) segs l pos' /\ grouped l runs /\
    concat (map snd runs) = map snd l /\ Forall (fun r => snd r <> [] /\ smooth (snd r)) runs /\
    draw_runs g s v c runs = Ok c1 /\ add_weight_change c1 (move_weight c1) (ticks_of c1 AX) = Ok c'.
Proof.
  intros g s c segs v c' e Hs D.
  destruct (draw_curves_runs _ _ _ _ _ _ _ Hs D) as (l & runs & pos' & c1 & P & G & SM & R & W).
  exists l, runs, pos', c1. split; [exact P|]. split; [exact G|]. split; [|split; [|auto]].
  - clear - G. induction G; [reflexivity|]. cbn [map concat snd]. rewrite IHG, map_app. reflexivity.
  - pose proof (grouped_nonempty _ _ G) as NE. rewrite Forall_forall in *. intros r Hr. auto.
Qed.

(** The pieces in number: one for each segment that is not a GoTo or a closing line. *)
Theorem C41_counts : forall g skip a segs l b, pieces g skip a segs l b ->
  (length (filter (fun sg => match sg with SLineTo _ | SCurveTo _ _ _ | SArc _ _ _ _ _ => true | _ => false end) segs)
     <= length l <=
   length (filter (fun sg => match sg with SGoTo _ => false | _ => true end) segs))%nat.
Proof.
  intros g skip a segs l b H. induction H; cbn [filter length]; try lia.
  destruct seg; cbn [length]; try lia. discriminate.
Qed.

(** Moves alone are not carried out: nothing is emitted but the weight of a move, and no
    error is reported; for no segments at all nothing is emitted. *)
Theorem C41_moves_only : forall g s c segs v c' e, Forall (fun sg => exists p, sg = SGoTo p) segs ->
  draw_curves g s c segs v = Ok (c', e) ->
  e = (0, 0) /\ (segs = [] -> c' = c) /\ (segs <> [] -> add_weight_change c (move_weight c) (ticks_of c AX) = Ok c').
Proof.
  intros g s c segs v c' e F D.
  assert (L : forall l d d', Forall (fun sg => exists p, sg = SGoTo p) l -> d_curves d = [] -> d_err d = (0, 0) ->
    draw_loop g s v d l = Ok d' -> d_ctx d' = d_ctx d /\ d_curves d' = [] /\ d_err d' = (0, 0)).
  { clear. induction l as [|x l IH]; intros d d' F C E H; [injection H as <-; auto|].
    inversion F as [|? ? [p ->] F']; subst. cbn [draw_loop draw_step] in H. apply bind_Ok in H. destruct H as (d1 & H1 & H).
    assert (K : d_ctx d1 = d_ctx d /\ d_curves d1 = [] /\ d_err d1 = (0, 0)).
    { apply bind_Ok in H1. destruct H1 as (ix & _ & H1). apply bind_Ok in H1. destruct H1 as (st & _ & H1).
      destruct st; [injection H1 as <-; auto|]. rewrite C in H1. cbn [draw_curve bind] in H1. injection H1 as <-.
      cbn [d_ctx d_curves d_err]. rewrite E. auto. }
    destruct K as (K1 & K2 & K3). rewrite <- K1. exact (IH d1 d' F' K2 K3 H). }
  destruct segs as [|x r].
  - injection D as <- <-. split; [reflexivity|]. split; [reflexivity|congruence].
  - unfold draw_curves in D. cbv zeta in D. apply bind_Ok in D. destruct D as (d & D1 & D).
    apply L in D1; [|exact F|reflexivity|reflexivity]. destruct D1 as (K1 & K2 & K3). cbn [d_ctx] in K1.
    rewrite K1, K2 in D. cbn [draw_curve bind] in D. apply bind_Ok in D. destruct D as (c1 & D1 & D). injection D as <- <-.
    rewrite K3. split; [reflexivity|]. split; [discriminate|]. intros _. exact D1.
Qed.

(** An arc of an ellipse is never drawn: the call panics. *)
Theorem C41_no_ellipse : forall g s c segs v c' e, draw_curves g s c segs v = Ok (c', e) ->
  forall rx ry st en ro, In (SArc rx ry st en ro) segs -> fgt (fabs (fsub rx ry)) fepsilon = false.
Proof.
  intros g s c segs v c' e D rx ry st en ro Hin.
  assert (Hs : segs <> []) by (intros ->; exact Hin).
  destruct (draw_curves_runs _ _ _ _ _ _ _ Hs D) as (l & runs & pos' & c1 & P & _).
  clear D Hs. induction P; cbn [In] in Hin; try contradiction;
    try (destruct Hin as [K|Hin]; [discriminate K|auto]).
  destruct Hin as [->|Hin]; [|auto]. cbn [seg_info] in H0.
  destruct (fgt (fabs (fsub rx ry)) fepsilon); [discriminate H0|reflexivity].
Qed.

Definition pt (x y : Z) : fvec := mk_fvec (f_of_Z x) (f_of_Z y).
Definition laser : ctx := set_weight (new_ctx 10 10 30 30) 100.

Example C41_moves_only_example : exists c', draw_curves lines_only sc1 laser [SGoTo (pt 3 4)] (f_of_Z 40) = Ok (c', (0, 0)) /\
  c_pos (channel c' AX) = 0.
Proof. eexists. split; vm_compute; reflexivity. Qed.
Lemma laser_history : history code (new_ctx 10 10 30 30) [SetWeight 100] laser.
Proof. eapply hist_cons; [exact I|reflexivity|apply hist_nil]. Qed.

Example C39_C41_example : exists c' e,
  draw_curves lines_only sc1 laser [SLineTo (pt 100 0); SLineTo (pt 100 50); SCloseTo (pt 100 50)] (f_of_Z 10) = Ok (c', e) /\
  ticks c' = Ok 19 /\
  map (fun t => m_weight (play (events c') t (machine0 0))) [0; 1; 2; 3; 11; 12; 13; 14; 18; 19] =
  [0; 0; 100; 100; 100; 0; 0; 100; 100; 0].
Proof. eexists. eexists. split; [vm_compute; reflexivity|]. split; vm_compute; reflexivity. Qed.

(** C40.  Some GoTos have no effect.  After GoTo (1000,0), GoTo (0,0), LineTo (0,1000)
    from the origin the line should be burnt from (0,0); it is burnt from (1000,0). *)
Theorem C40_goto_dropped : exists c' e,
  draw_curves lines_only sc1 laser [SGoTo (pt 1000 0); SGoTo (pt 0 0); SLineTo (pt 0 1000)] (f_of_Z 10) = Ok (c', e) /\
  let m := play (events c') 21 (machine0 0) in
  m_weight m = 100 /\ s_pos (m_x m) = 1000 /\ s_pos (m_y m) = 0.
Proof. eexists. eexists. split; [vm_compute; reflexivity|]. vm_compute. repeat split. Qed.

(** The same with an undrawn line before the GoTo: back to the origin, where the
    machine still stands because the line has not been drawn. *)
Theorem C40_goto_dropped_pending : exists c' e,
  draw_curves lines_only sc1 laser [SLineTo (pt 1000 0); SGoTo (pt 0 0); SLineTo (pt 0 1000)] (f_of_Z 10) = Ok (c', e) /\
  let m := play (events c') 170 (machine0 0) in
  m_weight m = 100 /\ 500 <= s_pos (m_x m) /\ 0 < s_pos (m_y m).
Proof. eexists. eexists. split; [vm_compute; reflexivity|]. vm_compute. repeat split; congruence. Qed.

(** What holds: a GoTo takes effect unless it goes to a place where the machine
    stands, to the step, before the drawing or after one of its runs. *)
Theorem C40_goto_followed : forall g s c segs v c' e, segs <> [] -> draw_curves g s c segs v = Ok (c', e) ->
  exists l runs pos' c1, pieces g (stands g s v c runs) (machine_place s c) segs l pos' /\ grouped l runs /\
    draw_runs g s v c runs = Ok c1 /\
    ((forall p, In (SGoTo p) segs -> ~ stands g s v c runs p) ->
     pieces g (fun _ => False) (machine_place s c) segs l pos').
Proof.
  intros g s c segs v c' e Hs D.
  destruct (draw_curves_runs _ _ _ _ _ _ _ Hs D) as (l & runs & pos' & c1 & P & G & SM & R & W).
  exists l, runs, pos', c1. split; [exact P|]. split; [exact G|]. split; [exact R|].
  intros K. revert P. apply pieces_mono. intros p Hp Sp. exact (K p Hp Sp).
Qed.

(** In the first of the two lists the drawn piece is the wrong one. *)
Example C40_example : forall l pos', 
  pieces lines_only (fun _ => False) (machine_place sc1 laser) [SGoTo (pt 1000 0); SGoTo (pt 0 0); SLineTo (pt 0 1000)] l pos' ->
  map fst l = [pt 0 0].
Proof.
  intros l pos' H. repeat match goal with
    | K : pieces _ _ _ (_ :: _) _ _ |- _ => inversion K; subst; clear K; try contradiction
    | K : pieces _ _ _ [] _ _ |- _ => inversion K; subst; clear K
    | K : seg_info _ (SGoTo _) _ = _ |- _ => discriminate K
    end. reflexivity.
Qed.

(** C74.  A drawing is a session of add_weight_change, goto_speed and one-tick
    accelerations at the current time, so what is proved of sessions (C22-C29) holds
    of drawings. *)
Theorem C74_session : forall g s c segs v c' e, clocked c -> draw_curves g s c segs v = Ok (c', e) ->
  exists ops, history code c ops c' /\ now_history code c ops c' /\ Forall not_reset ops /\ Forall not_speed ops.
Proof.
  intros g s c segs v c' e Hc D. destruct segs as [|sg r].
  { cbn in D. injection D as <- _. exists []. repeat split; constructor. }
  destruct (draw_curves_runs _ _ _ (sg :: r) _ _ _ ltac:(discriminate) D) as (l & runs & pos' & c1 & P & G & _ & R & W).
  destruct (draw_runs_spec g s v runs c c1 Hc (grouped_nonempty _ _ G) R)
    as (ops1 & times & H1 & N1 & NR & NS & S1 & _).
  pose proof (ck_ticks c1 (st_clocked _ _ S1) AX) as T0.
  exists (ops1 ++ [AddWeight (move_weight c1) (ticks_of c1 AX)]).
  split; [eapply history_app; [exact H1|]; eapply hist_cons; [|exact W|apply hist_nil];
          cbn [op_ok]; unfold u32_max in T0; lia|].
  split; [eapply now_history_app; [exact N1|]; eapply now_cons; [reflexivity|exact W|apply now_nil]|].
  split; apply Forall_app; split; auto; repeat constructor.
Qed.

(** Runs whose first place and speed satisfy the documented conditions of goto. *)
Inductive runs_within (g : geometry) (s : scales) (v : f64) : ctx -> list run -> Prop :=
| rw_nil : forall c, runs_within g s v c []
| rw_cons : forall c start pieces l p d ix iy ivx ivy r,
    join_from [] pieces = Ok l -> fconcat_value g l fzero = Ok (p, d) ->
    to_steps s (fx start) AX = Ok ix -> to_steps s (fy start) AY = Ok iy ->
    to_step_v s (fmul (fx d) v) AX = Ok ivx -> to_step_v s (fmul (fy d) v) AY = Ok ivy ->
    goto_axis c AX ix ivx -> goto_axis c AY iy ivy ->
    (forall c1 e, draw_curve g s c start l v = Ok (c1, e) -> runs_within g s v c1 r) ->
    runs_within g s v c ((start, pieces) :: r).

Lemma draw_run_kept : forall ax ay vmx vmy ops0 g s c start curves v c' e p d ix iy ivx ivy,
  0 <= vmx <= 2 ^ 31 - 1 - 32768 -> 0 <= vmy <= 2 ^ 31 - 1 - 32768 ->
  kept within_speed (new_ctx ax ay vmx vmy) ops0 c -> Forall not_reset ops0 -> curves <> [] ->
  draw_curve g s c start curves v = Ok (c', e) ->
  fconcat_value g curves fzero = Ok (p, d) ->
  to_steps s (fx start) AX = Ok ix -> to_steps s (fy start) AY = Ok iy ->
  to_step_v s (fmul (fx d) v) AX = Ok ivx -> to_step_v s (fmul (fy d) v) AY = Ok ivy ->
  goto_axis c AX ix ivx -> goto_axis c AY iy ivy ->
  (forall i, ticks_of c' i < u64_max) ->
  exists ops, kept within_speed (new_ctx ax ay vmx vmy) (ops0 ++ ops) c' /\ Forall not_reset ops.
Proof.
  intros ax ay vmx vmy ops0 g s c start curves v c' e p d ix iy ivx ivy Hx Hy H Hr Hne D E0 X1 X2 X3 X4 GX GY Ht.
  destruct (kept_clocked _ _ _ _ _ _ _ H) as [[Hc _] Cf].
  destruct curves as [|f r]; [congruence|]. clear Hne.
  cbn [draw_curve] in D. remember (f :: r) as curves eqn:EC. clear EC f r.
  rewrite E0 in D. cbn [bind] in D. cbv zeta in D.
  apply bind_Ok in D. destruct D as (c1 & E1 & D). apply bind_Ok in D. destruct D as (c2 & E2 & D).
  apply bind_Ok in D. destruct D as (c3 & E3 & D).
  unfold goto_speed in E2. cbn [fvmul fx fy] in E2. rewrite X1 in E2. cbn [bind] in E2.
  rewrite X2 in E2. cbn [bind] in E2. rewrite X3 in E2. cbn [bind] in E2. rewrite X4 in E2. cbn [bind] in E2.
  pose proof (ck_ticks c Hc AX) as T0.
  destruct (add_weight_spec c _ _ c1 Hc (proj2 T0) E1) as (S1 & W1 & C1 & T1 & M1 & V1 & B1 & Q1).
  assert (O1 : op_ok c (AddWeight (move_weight c) (ticks_of c AX))) by (cbn [op_ok]; unfold u32_max in T0; lia).
  assert (G1 : within_speed c1 (GotoSpeed ix iy ivx ivy)).
  { pose proof (st_config _ _ S1) as K. unfold config in K. injection K as k1 k2 k3 k4 k5.
    cbn [within_speed]. unfold goto_axis in *. rewrite !C1. cbn [a_max v_max] in *. rewrite k1, k2, k3, k4. tauto. }
  assert (K1 : kept within_speed c [AddWeight (move_weight c) (ticks_of c AX); GotoSpeed ix iy ivx ivy] c2).
  { eapply kept_cons; [exact O1|exact I|exact E1|]. eapply kept_cons; [exact I|exact G1|exact E2|apply kept_nil]. }
  pose proof (kept_app _ _ _ _ _ _ H K1) as K2.
  destruct (kept_clocked _ _ _ _ _ _ _ K2) as [[Hc2 _] Cf2].
  pose proof (ck_ticks c2 Hc2 AX) as T2.
  destruct (add_weight_spec c2 _ _ c3 Hc2 (proj2 T2) E3) as (S3 & W3 & C3 & T3 & M3 & V3 & B3 & Q3).
  assert (O3 : op_ok c2 (AddWeight (curve_weight c2) (ticks_of c2 AX))) by (cbn [op_ok]; unfold u32_max in T2; lia).
  assert (K3 : kept within_speed c2 [AddWeight (curve_weight c2) (ticks_of c2 AX)] c3).
  { eapply kept_cons; [exact O3|exact I|exact E3|apply kept_nil]. }
  pose proof (kept_app _ _ _ _ _ _ K2 K3) as K4.
  assert (R4 : Forall not_reset ((ops0 ++ [AddWeight (move_weight c) (ticks_of c AX); GotoSpeed ix iy ivx ivy]) ++
     [AddWeight (curve_weight c2) (ticks_of c2 AX)])).
  { apply Forall_app. split; [apply Forall_app; split; [exact Hr|]|]; repeat constructor. }
  destruct (C36_speed_limit ax ay vmx vmy _ c3 s start _ v c' e Hx Hy K4 R4 D Ht) as (_ & accs & K5 & _).
  eexists. rewrite <- !app_assoc in K5. split; [exact K5|].
  cbn [app]. do 3 (constructor; [exact I|]). apply ticks_not_reset.
Qed.

Lemma draw_runs_kept : forall ax ay vmx vmy g s v runs c, runs_within g s v c runs ->
  0 <= vmx <= 2 ^ 31 - 1 - 32768 -> 0 <= vmy <= 2 ^ 31 - 1 - 32768 -> forall ops c1,
  kept within_speed (new_ctx ax ay vmx vmy) ops c -> Forall not_reset ops ->
  draw_runs g s v c runs = Ok c1 -> Forall (fun r => snd r <> []) runs -> (forall i, ticks_of c1 i < u64_max) ->
  exists ops1, kept within_speed (new_ctx ax ay vmx vmy) (ops ++ ops1) c1 /\ Forall not_reset ops1.
Proof.
  intros ax ay vmx vmy g s v runs c RW Hx Hy. induction RW; intros ops c9 Hk Hr R NE Ht1.
  - cbn [draw_runs] in R. injection R as <-. exists []. rewrite app_nil_r. auto.
  - cbn [draw_runs] in R. rewrite H in R. cbn [bind] in R. apply bind_Ok in R. destruct R as ([c2 e2] & E & R).
    inversion NE; subst. cbn [snd] in *.
    assert (LN : l <> []) by (eapply join_nonempty; eauto).
    assert (Hc : clocked c) by (apply (kept_clocked _ _ _ _ _ _ _ Hk)).
    destruct (draw_curve_spec g s c start l v c2 e2 Hc LN E) as
      (? & ? & ? & ? & ? & ? & ? & ? & _ & _ & _ & _ & _ & _ & _ & S1 & _).
    destruct (draw_runs_spec g s v r c2 c9 (st_clocked _ _ S1) ltac:(assumption) R) as (o & t & _ & _ & _ & _ & S2 & _).
    assert (Ht2 : forall i, ticks_of c2 i < u64_max).
    { intros i. pose proof (st_ticks _ _ S2 i). specialize (Ht1 i). lia. }
    destruct (draw_run_kept ax ay vmx vmy ops g s c start l v c2 e2 p d ix iy ivx ivy) as (o1 & K1 & R1); auto.
    destruct (H8 c2 e2 E (ops ++ o1) c9) as (o2 & K2 & R2); auto.
    { apply Forall_app. auto. }
    exists (o1 ++ o2). rewrite app_assoc. split; [exact K2|]. apply Forall_app. auto.
Qed.

Lemma weight_kept : forall (P : ctx -> op -> Prop) c c', sound c -> add_weight_change c (move_weight c) (ticks_of c AX) = Ok c' ->
  (forall c w t, P c (AddWeight w t)) -> kept P c [AddWeight (move_weight c) (ticks_of c AX)] c' /\
  forall i, ticks_of c' i = ticks_of c i.
Proof.
  intros P c c' [Hc _] W HP. pose proof (ck_ticks c Hc AX) as T0.
  destruct (add_weight_spec c _ _ c' Hc (proj2 T0) W) as (_ & _ & _ & T2 & _). split; [|exact T2].
  eapply kept_cons; [cbn [op_ok]; unfold u32_max in T0; lia|apply HP|exact W|apply kept_nil].
Qed.

(** Under these conditions the machine keeps the speed limits through the drawing. *)
Theorem C74_speed_limit : forall ax ay vmx vmy ops c g s segs v c' e,
  0 <= vmx <= 2 ^ 31 - 1 - 32768 -> 0 <= vmy <= 2 ^ 31 - 1 - 32768 ->
  kept within_speed (new_ctx ax ay vmx vmy) ops c -> Forall not_reset ops -> segs <> [] ->
  draw_curves g s c segs v = Ok (c', e) ->
  (forall i, ticks_of c' i < u64_max) ->
  exists l runs pos', pieces g (stands g s v c runs) (machine_place s c) segs l pos' /\ grouped l runs /\
    (runs_within g s v c runs -> forall w i t, 0 <= t <= ticks_of c' i ->
     Z.abs (s_v (machine_axis (play (events c') t (machine0 w)) i)) <= match i with AX => vmx | AY => vmy end).
Proof.
  intros ax ay vmx vmy ops c g s segs v c' e Hx Hy H Hr Hs D Ht.
  destruct (draw_curves_runs _ _ _ _ _ _ _ Hs D) as (l & runs & pos' & c1 & P & G & _ & R & W).
  exists l, runs, pos'. split; [exact P|]. split; [exact G|]. intros RW.
  destruct (kept_clocked _ _ _ _ _ _ _ H) as [Hs0 _].
  destruct (draw_runs_spec g s v runs c c1 (proj1 Hs0) (grouped_nonempty _ _ G) R) as (o & t & Ho & _ & _ & _ & S1 & _).
  pose proof (history_sound _ _ _ c1 planner_typed Ho Hs0) as Hs1.
  destruct (weight_kept within_speed c1 c' Hs1 W ltac:(intros; exact I)) as [KW T2].
  destruct (draw_runs_kept ax ay vmx vmy g s v runs c RW Hx Hy ops c1) as (ops1 & K & R1); auto.
  { apply (grouped_nonempty _ _ G). }
  { intros i. rewrite <- T2. apply Ht. }
  eapply C73_stream_speed_limit; try exact (kept_app _ _ _ _ _ _ K KW); auto; try lia.
  apply Forall_app. split; [apply Forall_app; auto|repeat constructor].
Qed.

(** The condition on the speed is not checked by the code for the negative
    direction: a line to the left at speed 100 (50 per tick) is drawn at -50
    although the limit is 30; to the right the call panics. *)
Theorem C74_exceeds_limit : exists c' e,
  draw_curves lines_only sc1 laser [SLineTo (pt (-1000) 0)] (f_of_Z 100) = Ok (c', e) /\
  s_v (m_x (play (events c') 15 (machine0 0))) = -50 /\
  draw_curves lines_only sc1 laser [SLineTo (pt 1000 0)] (f_of_Z 100) = Panic.
Proof. eexists. eexists. split; [vm_compute; reflexivity|]. split; vm_compute; reflexivity. Qed.

Lemma join_line : forall w, join_from [] [fline w] =
  let dir := if feq (fvlength w) fzero then mk_fvec fone fzero else fvunit w in
  Ok [mk_fseg (fvadd (fvmul dir (fvlength w)) fvzero) (fadd (fvlength w) fzero) (fline w)].
Proof. reflexivity. Qed.

Lemma value_line : forall w n, first_ge [fadd (fvlength w) fzero] fzero = Ok n ->
  let dir := if feq (fvlength w) fzero then mk_fvec fone fzero else fvunit w in
  fconcat_value lines_only [mk_fseg (fvadd (fvmul dir (fvlength w)) fvzero) (fadd (fvlength w) fzero) (fline w)] fzero =
  Ok (fvadd (fvmul dir (fsub fzero fzero)) fvzero, dir).
Proof.
  intros w n H dir. unfold fconcat_value. cbn [map fs_len lines_only g_find]. rewrite H. cbn [bind length Nat.sub].
  rewrite Nat.min_0_r. reflexivity.
Qed.

Example C74_example : exists c' e l,
  draw_curves lines_only sc1 laser [SLineTo (pt 100 0)] (f_of_Z 10) = Ok (c', e) /\
  seg_info lines_only (SLineTo (pt 100 0)) (machine_place sc1 laser) = Ok (Some (l, pt 100 0)) /\
  runs_within lines_only sc1 (f_of_Z 10) laser [(machine_place sc1 laser, [l])].
Proof.
  eexists. eexists. exists (fline (fvsub (pt 100 0) (machine_place sc1 laser))).
  split; [vm_compute; reflexivity|]. split; [reflexivity|].
  eapply rw_cons.
  { apply join_line. }
  { eapply value_line. vm_compute. reflexivity. }
  { vm_compute. reflexivity. }
  { vm_compute. reflexivity. }
  { vm_compute. reflexivity. }
  { vm_compute. reflexivity. }
  { vm_compute; repeat split; congruence. }
  { vm_compute; repeat split; congruence. }
  intros c1 e _. apply rw_nil.
Qed.

Print Assumptions C39_laser.
Print Assumptions C40_goto_dropped.
Print Assumptions C40_goto_dropped_pending.
Print Assumptions C40_goto_followed.
Print Assumptions C41_all_drawn.
Print Assumptions C41_counts.
Print Assumptions C41_moves_only.
Print Assumptions C41_no_ellipse.
Print Assumptions C74_session.
Print Assumptions C74_speed_limit.
Print Assumptions C74_exceeds_limit.
