(** When a move succeeds; what flushing leaves behind; what no operation changes. *)
From Coq Require Import ZArith List Bool Lia.
From Coq Require Import ZifyBool ZifyNat.
From Verif Require Import Base MultiRange AccVector MotionSpec AccVectorProofs IntegerCurve AccSeqProofs
  AccSeqSpec CurveAdjust RangeProofs PlanProofs StepperContext MachineSpec MachineProofs ContextProofs
  ContextOps ContextHist ContextClock.
Import ListNotations.
Open Scope Z_scope.

(** ** Moves succeed *)

Lemma seqs_for_acc_ok : forall t limits ss, seqs_for t limits = Ok ss -> Forall acc_ok ss.
Proof.
  intros t. induction limits as [|l r IH]; intros ss H; cbn [seqs_for] in H.
  - injection H as <-. constructor.
  - inv_bind H. injection H as <-. constructor; [eapply acc_seq_acc_ok; eauto|auto].
Qed.

Lemma goto_one_ok : forall c i s v_end, Forall seg_typed s -> acc_ok s ->
  Z.of_nat (length (expand s)) <= 65535 ->
  (forall x, In x (speeds (c_v (channel c i)) (expand s)) -> Z.abs x <= 2 ^ 20) ->
  final_speed (c_v (channel c i)) (expand s) = v_end ->
  Z.abs (c_pos (channel c i)) <= 2 ^ 62 ->
  Z.abs (travel (c_v (channel c i)) (expand s)) <= 2 ^ 41 ->
  exists c', goto_one c i s v_end = Ok c'.
Proof.
  intros c i s v_end Ty Ao Hl Hs Hf Hp Hd. pose proof (acc_ok_length s Ao) as L.
  destruct (acc_distance_loop_ok s 0 (c_v (channel c i)) Ty) as [r Er].
  { intros x Hx. apply Hs in Hx. lia. }
  { unfold i64_max. lia. }
  unfold goto_one, acc_distance. rewrite Er. cbn [bind].
  apply acc_distance_loop_spec in Er.
  2: { intros x Hx. rewrite Forall_forall in Ty. apply Ty in Hx. unfold seg_typed in Hx. lia. }
  subst r. unfold chk_i64. rewrite chk_in by (unfold i64_min, i64_max; lia). cbn [bind].
  rewrite Hf, Z.eqb_refl. cbn [assert bind]. eauto.
Qed.

Lemma segs_loop_bound : forall fuel c px py c', clocked c ->
  Forall seg_typed px -> Forall seg_typed py -> segs_loop fuel c px py = Ok c' ->
  forall i, ticks_of c' i <= ticks_of c i + Z.of_nat (length (expand (pick i px py))).
Proof.
  induction fuel as [|fuel IH]; intros c px py c' Hc Tx Ty H j; cbn [segs_loop] in H;
    destruct (next_channel c px py) as [i|] eqn:En; try discriminate; try (injection H as <-; lia).
  destruct (next_channel_some c px py i En) as [Hp _].
  destruct i; cbn [pick] in Hp.
  - destruct px as [|s px']; [congruence|]. inversion Tx; subst.
    apply bind_Ok in H. destruct H as (c1 & E1 & H).
    destruct (emit_seg_spec c AX s c1) as (S1 & _ & T1 & T2 & _); auto.
    pose proof (IH c1 px' py c' ltac:(apply S1) ltac:(auto) ltac:(auto) H j) as B.
    assert (0 <= fst s) by (match goal with K : seg_typed s |- _ => destruct K; lia end).
    destruct j; cbn [pick] in *; [rewrite seg_len, app_length, repeat_length|rewrite T2 in B by discriminate]; lia.
  - destruct py as [|s py']; [congruence|]. inversion Ty; subst.
    assert (H' : (let! c0 := emit_seg c AY s in segs_loop fuel c0 px py') = Ok c') by (destruct px; exact H).
    clear H. rename H' into H.
    apply bind_Ok in H. destruct H as (c1 & E1 & H).
    destruct (emit_seg_spec c AY s c1) as (S1 & _ & T1 & T2 & _); auto.
    pose proof (IH c1 px py' c' ltac:(apply S1) ltac:(auto) ltac:(auto) H j) as B.
    assert (0 <= fst s) by (match goal with K : seg_typed s |- _ => destruct K; lia end).
    destruct j; cbn [pick] in *; [rewrite T2 in B by discriminate|rewrite seg_len, app_length, repeat_length]; lia.
Qed.

(** Velocities and targets in the range the planner supports. *)
Definition goto_axis (c : ctx) (i : axis) (x v : Z) : Prop :=
  Z.abs (x - c_pos (channel c i)) <= 2 ^ 40 /\ 1 <= a_max c i <= 32767 /\ 1 <= v_max c i <= 2 ^ 20 /\
  Z.abs (c_v (channel c i)) <= v_max c i /\ Z.abs v <= v_max c i /\ Z.abs (c_pos (channel c i)) <= 2 ^ 62.

Definition goto_limits (c : ctx) (x y vx vy : Z) : list path_limits :=
  [mk_limits (x - c_pos (channel c AX)) (c_v (channel c AX)) vx (a_max c AX) (v_max c AX);
   mk_limits (y - c_pos (channel c AY)) (c_v (channel c AY)) vy (a_max c AY) (v_max c AY)].

Lemma goto_spec : forall c x y vx vy, clocked c ->
  ticks_of c AX = ticks_of c AY -> event_ticks c <= ticks_of c AX -> ticks_of c AX + 65535 < u64_max ->
  goto_axis c AX x vx -> goto_axis c AY y vy ->
  exists t, (1 <= t /\ exists r h, and_limits [(i64_min, i64_max)] (goto_limits c x y vx vy) = Ok r /\ mr_bounds r = Some (t, h)) /\
    (t <= 65535 -> exists c', step_goto_speed c x y vx vy = Ok c') /\
    (forall c', step_goto_speed c x y vx vy = Ok c' -> exists sx sy,
       Z.of_nat (length (expand sx)) = t /\ Z.of_nat (length (expand sy)) = t /\
       step c c' /\
       (forall i, c_state c' i = (c_pos (channel c i) + travel (c_v (channel c i)) (expand (pick i sx sy)),
                             match i with AX => vx | AY => vy end)) /\
       (forall i, final_speed (c_v (channel c i)) (expand (pick i sx sy)) = match i with AX => vx | AY => vy end) /\
       Z.abs (travel (c_v (channel c AX)) (expand sx) - (x - c_pos (channel c AX))) <= 1 /\
       Z.abs (travel (c_v (channel c AY)) (expand sy) - (y - c_pos (channel c AY))) <= 1 /\
       (forall i z, In z (speeds (c_v (channel c i)) (expand (pick i sx sy))) -> Z.abs z <= v_max c i) /\
       (forall i z, In z (expand (pick i sx sy)) -> Z.abs z <= a_max c i)).
Proof.
  intros c x y vx vy Hc Hsy He Hm (X1 & X2 & X3 & X4 & X5 & X6) (Y1 & Y2 & Y3 & Y4 & Y5 & Y6).
  set (limits := [mk_limits (x - c_pos (channel c AX)) (c_v (channel c AX)) vx (a_max c AX) (v_max c AX);
        mk_limits (y - c_pos (channel c AY)) (c_v (channel c AY)) vy (a_max c AY) (v_max c AY)]).
  assert (HS : Forall lim_supported limits).
  { repeat constructor; cbn [l_ds l_v0 l_vn l_a l_vmax]; lia. }
  destruct (sequences_spec limits ltac:(discriminate) HS) as (t & r & h & E & EB & Ht & C1 & C2 & Es & HF).
  destruct (seqs_for_spec t limits Ht HS HF) as [S1 S2].
  assert (HP : forall ss, shortest_curve_sequences limits = Ok ss -> exists sx sy, ss = [sx; sy] /\
     Forall seg_typed sx /\ Forall seg_typed sy /\ acc_ok sx /\ acc_ok sy /\ exists dx dy,
     moves (a_max c AX) (- v_max c AX) (v_max c AX) (c_v (channel c AX)) vx dx t (expand sx) /\
     Z.abs (dx - (x - c_pos (channel c AX))) <= 1 /\
     moves (a_max c AY) (- v_max c AY) (v_max c AY) (c_v (channel c AY)) vy dy t (expand sy) /\
     Z.abs (dy - (y - c_pos (channel c AY))) <= 1).
  { intros ss Hss. rewrite Es in Hss. pose proof (seqs_for_acc_ok _ _ _ Hss) as HA.
    apply S2 in Hss. inversion Hss as [|l1 sx r1 r2 Hx Hr]; subst.
    inversion Hr as [|l2 sy r3 r4 Hy Hr']; subst. inversion Hr'; subst.
    inversion HA as [|? ? A1 A2]; subst. inversion A2 as [|? ? A3 _]; subst.
    destruct Hx as (Tx & dx & Mx & Dx). destruct Hy as (Ty & dy & My & Dy).
    exists sx, sy. split; [reflexivity|]. repeat (split; [assumption|]). exists dx, dy. auto. }
  exists t. split; [split; [exact Ht|]; exists r, h; auto|]. split.
  - intros Hle. destruct (S1 ltac:(unfold u16_max; lia)) as [ss Hss]. rewrite <- Es in Hss.
    destruct (HP ss Hss) as (sx & sy & -> & Tx & Ty & Ax & Ay & dx & dy & Mx & Dx & My & Dy).
    destruct Mx as [Lx Fx Dsx Bx Vx]. destruct My as [Ly Fy Dsy By Vy].
    unfold step_goto_speed, step_goto_speed_with.
    destruct (Z.geb_spec (v_max c AX) vx); [|lia]. destruct (Z.geb_spec (v_max c AY) vy); [|lia].
    cbn [assert bind]. pose proof (ck_ticks c Hc AX) as Htk.
    destruct (push_event_ok c (ticks_of c AX) (Weight (move_weight c))) as [c1 E1]; auto; [lia|].
    rewrite E1. cbn [bind].
    destruct (push_weight_spec c (ticks_of c AX) (move_weight c) c1) as (T1 & W1 & Ch1 & Tk1 & M1 & V1 & Q1); auto; [lia|].
    assert (AM : forall i, a_max c1 i = a_max c i /\ v_max c1 i = v_max c i).
    { pose proof (st_config _ _ T1) as Cf. unfold config in Cf. injection Cf as f1 f2 f3 f4 f5. intros []; cbn; auto. }
    rewrite !Ch1. destruct (AM AX) as [-> ->]. destruct (AM AY) as [-> ->].
    unfold chk_i64. rewrite chk_in by (unfold i64_min, i64_max; lia). cbn [bind].
    rewrite chk_in by (unfold i64_min, i64_max; lia). cbn [bind].
    fold limits. rewrite Hss. cbn [bind].
    destruct (goto_one_ok c1 AX sx vx Tx Ax) as [c2 G1]; rewrite ?Ch1.
    { rewrite Lx. exact Hle. }
    { intros z Hz. apply Vx in Hz. clear - Hz X3. lia. }
    { exact Fx. }
    { exact X6. }
    { rewrite Dsx. clear - X1 Dx. lia. }
    rewrite G1. cbn [bind].
    destruct (goto_one_spec c1 AX sx vx c2 Tx G1) as (F1 & Cw1 & Ev1 & Et1 & N1 & Tg1 & Vv1 & Pp1 & Ff1).
    assert (EY : channel c2 AY = channel c AY) by (rewrite N1 by discriminate; apply Ch1).
    destruct (goto_one_ok c2 AY sy vy Ty Ay) as [c3 G2]; rewrite ?EY.
    { rewrite Ly. exact Hle. }
    { intros z Hz. apply Vy in Hz. clear - Hz Y3. lia. }
    { exact Fy. }
    { exact Y6. }
    { rewrite Dsy. clear - Y1 Dy. lia. }
    rewrite G2. cbn [bind].
    destruct (goto_one_spec c2 AY sy vy c3 Ty G2) as (F2 & Cw2 & Ev2 & Et2 & N2 & Tg2 & Vv2 & Pp2 & Ff2).
    set (c4 := set_v (set_v c3 AX vx) AY vy).
    assert (TT : forall i, ticks_of c4 i = ticks_of c i).
    { intros i. rewrite <- Tk1, <- Tg1, <- Tg2. destruct i; reflexivity. }
    assert (ET : event_ticks c4 = ticks_of c AX).
    { change (event_ticks c4) with (event_ticks c3). congruence. }
    assert (K4 : clocked c4).
    { apply (clocked_eq c1); [apply T1|change (events c3 = events c1); congruence|rewrite ET; congruence|].
      intros i. rewrite TT, Tk1. reflexivity. }
    destruct (segs_loop_ok (length sx + length sy) c4 sx sy K4 Tx Ty) as [c5 G5]; auto.
    { intros i _. rewrite ET, TT. destruct i; lia. }
    { intros i. rewrite TT. destruct i; cbn [pick]; lia. }
    unfold acc_segs_to_events. rewrite G5. cbn [bind].
    destruct (segs_loop_spec _ c4 sx sy c5 K4 Tx Ty G5) as (S5 & W5 & P5 & Q5 & M5).
    assert (TB : forall i, ticks_of c5 i < u64_max).
    { intros i. pose proof (segs_loop_bound _ c4 sx sy c5 K4 Tx Ty G5 i) as B. rewrite TT in B.
      destruct i; cbn [pick] in B; lia. }
    destruct (M5 TB AX) as [MX _]. destruct (M5 TB AY) as [MY _]. cbn [pick] in MX, MY.
    rewrite TT in MX, MY. rewrite MX, MY, Lx, Ly, Hsy, Z.eqb_refl. cbn [assert bind]. eauto.
  - intros c' Hg.
    destruct (step_goto_speed_spec shortest_curve_sequences c x y vx vy c' Hc planner_typed Hg)
      as (sx & sy & rest & Ep & _ & _ & St & _ & _ & ST & FS & _ & _).
    fold limits in Ep. destruct (HP _ Ep) as (sx' & sy' & Eq & Tx & Ty & Ax & Ay & dx & dy & Mx & Dx & My & Dy).
    injection Eq as <- <- ->. destruct Mx as [Lx Fx Dsx Bx Vx]. destruct My as [Ly Fy Dsy By Vy].
    exists sx, sy. split; [exact Lx|]. split; [exact Ly|].
    split; [exact St|]. split; [exact ST|]. split; [exact FS|]. split; [lia|]. split; [lia|].
    split; intros [] z Hz; cbn [pick] in Hz; auto; [apply Vx in Hz|apply Vy in Hz]; lia.
Qed.

(** ** Flushing *)

Lemma push_play_axis : forall c t cmd c1, clocked c -> t - event_ticks c <= u32_max ->
  push_event c t cmd = Ok c1 -> forall i u s, 0 <= u ->
  play_axis i (events c1) u s =
  if t <=? u then adv (u - t) (apply_axis i cmd (play_axis i (events c) t s)) else play_axis i (events c) u s.
Proof.
  intros c t cmd c1 Hc Ht H i u s Hu. apply push_event_inv in H; auto. destruct H as [Hle ->].
  cbn [set_events events]. rewrite play_axis_snoc; cbn [e_ticks e_cmd]; auto; [|apply clocked_nonneg; auto|lia].
  cbv zeta. rewrite (ck_total c Hc). replace (event_ticks c + (t - event_ticks c)) with t by lia. reflexivity.
Qed.

Lemma flush_play_axis : forall c c', clocked c -> flush c = Ok c' -> forall i u s, 0 <= u ->
  play_axis i (events c') u s =
  let T := ticks_of c AX in
  if T <=? u
  then let p := play_axis i (events c) T s in adv (u - T) (mk_axis (s_pos p) (s_v p) 0)
  else play_axis i (events c) u s.
Proof.
  intros c c' Hc H i u s Hu. unfold flush in H. inv_bind H. apply assert_Ok in E.
  pose proof (ck_ticks c Hc AX) as Ht.
  destruct (push_weight_spec c (ticks_of c AX) (move_weight c) a0) as (S1 & W1 & C1 & T1 & M1 & V1 & Q1); auto; [lia|].
  destruct (push_acc_spec a0 AX a1) as (S2 & W2 & C2 & T2 & M2 & V2 & Q2); [apply S1|exact E1|].
  pose proof (push_play_axis c (ticks_of c AX) _ _ Hc ltac:(lia) E0 i) as P1.
  pose proof (push_play_axis a0 (ticks_of a0 AX) _ _ (st_clocked _ _ S1) ltac:(rewrite V1, T1; unfold u32_max; lia) E1 i) as P2.
  pose proof (push_play_axis a1 (ticks_of a1 AY) _ _ (st_clocked _ _ S2) ltac:(rewrite V2, T2, !T1; unfold u32_max; lia) H i) as P3.
  assert (EQ : ticks_of c AY = ticks_of c AX) by lia.
  rewrite T1 in P2. rewrite T2, T1, EQ in P3. cbv zeta.
  set (T := ticks_of c AX) in *.
  rewrite P3 by auto. destruct (Z.leb_spec T u).
  - rewrite P2 by lia. destruct (Z.leb_spec T T); [|lia]. rewrite P1 by lia.
    destruct (Z.leb_spec T T); [|lia]. rewrite Z.sub_diag, !adv_0. cbn [apply_axis].
    destruct i; reflexivity.
  - rewrite P2 by lia. destruct (Z.leb_spec T u); [lia|]. rewrite P1 by lia.
    destruct (Z.leb_spec T u); [lia|]. reflexivity.
Qed.

Lemma flush_again_axis : forall c c' c'', clocked c -> flush c = Ok c' -> flush c' = Ok c'' ->
  forall i u s, 0 <= u -> play_axis i (events c'') u s = play_axis i (events c') u s.
Proof.
  intros c c' c'' Hc H H' i u s Hu.
  destruct (flush_spec c c' Hc H) as (S1 & _ & C1 & _).
  assert (T : ticks_of c' AX = ticks_of c AX) by (unfold ticks_of; rewrite C1; reflexivity).
  pose proof (ck_ticks c Hc AX) as Ht.
  rewrite (flush_play_axis c' c'' (st_clocked _ _ S1) H' i u s Hu). rewrite T.
  cbv zeta. destruct (Z.leb_spec (ticks_of c AX) u) as [L|L]; [|reflexivity].
  rewrite (flush_play_axis c c' Hc H i (ticks_of c AX)) by lia.
  rewrite (flush_play_axis c c' Hc H i u) by lia. cbv zeta.
  destruct (Z.leb_spec (ticks_of c AX) u); [|lia]. destruct (Z.leb_spec (ticks_of c AX) (ticks_of c AX)); [|lia]. rewrite Z.sub_diag, adv_0.
  cbn [s_pos s_v]. reflexivity.
Qed.

(** ** What no operation changes *)

Lemma emit_seg_config : forall c i s c', emit_seg c i s = Ok c' ->
  config c' = config c /\ curve_weight c' = curve_weight c.
Proof.
  intros c i s c' H. unfold emit_seg in H. inv_bind H. injection H as <-.
  apply push_event_frame in E0. rewrite set_channel_config, set_channel_cw. tauto.
Qed.

Lemma segs_loop_config : forall fuel c px py c', segs_loop fuel c px py = Ok c' ->
  config c' = config c /\ curve_weight c' = curve_weight c.
Proof.
  induction fuel as [|fuel IH]; intros c px py c' H; cbn [segs_loop] in H;
    destruct (next_channel c px py) as [i|]; try discriminate; try (injection H as <-; auto).
  destruct i, px as [|s px], py as [|s' py]; try (injection H as <-; auto);
    apply bind_Ok in H; destruct H as (c1 & E & H); apply IH in H; apply emit_seg_config in E;
    destruct H as [-> ->]; exact E.
Qed.

Lemma add_acc_one_config : forall c i a n c', add_acc_one c i a n = Ok c' ->
  config c' = config c /\ curve_weight c' = curve_weight c.
Proof.
  intros c i a n c' H. unfold add_acc_one in H. inv_bind H. injection H as <-.
  apply push_event_frame in E. rewrite set_channel_config, set_channel_cw. tauto.
Qed.

Lemma goto_one_config : forall c i s v c', goto_one c i s v = Ok c' ->
  config c' = config c /\ curve_weight c' = curve_weight c.
Proof.
  intros c i s v c' H. unfold goto_one in H. apply bind_Ok in H. destruct H as ([d w] & _ & H).
  inv_bind H. injection H as <-. rewrite set_channel_config, set_channel_cw. auto.
Qed.

Lemma op_config : forall plan c o c', exec_op plan c o = Ok c' -> config c' = config c.
Proof.
  intros plan c o c' H. destruct o; cbn [exec_op] in H.
  - unfold add_acc_interval in H. inv_bind H. injection H as <-.
    apply add_acc_one_config in E0, E1. destruct E1 as [-> _]. apply E0.
  - unfold add_weight_change in H. inv_bind H. apply push_event_frame in H. apply H.
  - unfold step_goto_speed_with in H. inv_bind H.
    match type of H with context [match ?l with [] => _ | _ => _ end] => destruct l as [|sx [|sy rest]]; try discriminate end.
    inv_bind H. injection H as <-.
    repeat match goal with K : goto_one _ _ _ _ = Ok _ |- _ => apply goto_one_config in K; destruct K as [K _]
      | K : acc_segs_to_events _ _ _ = Ok _ |- _ => apply segs_loop_config in K; destruct K as [K _]
      | K : push_event _ _ _ = Ok _ |- _ => apply push_event_frame in K; destruct K as (_ & K & _) end.
    unfold set_v in *. rewrite !set_channel_config in *. congruence.
  - unfold step_speed in H. apply bind_Ok in H. destruct H as ([c1 sx] & G1 & H).
    apply bind_Ok in H. destruct H as ([c2 sy] & G2 & H).
    apply speed_one_frame in G1, G2. apply segs_loop_config in H.
    destruct H as [-> _]. destruct G2 as (_ & -> & _). apply G1.
  - injection H as <-. reflexivity.
  - unfold flush in H. inv_bind H.
    repeat match goal with K : push_event _ _ _ = Ok _ |- _ => apply push_event_frame in K; destruct K as (_ & K & _) end.
    congruence.
  - injection H as <-. reflexivity.
Qed.

Lemma exec_config : forall plan ops c c', exec plan c ops = Ok c' -> config c' = config c.
Proof.
  intros plan. induction ops as [|o r IH]; intros c c' H; cbn [exec] in H; [injection H as <-; reflexivity|].
  apply bind_Ok in H. destruct H as (c1 & E & H). rewrite (IH _ _ H). eapply op_config; eauto.
Qed.
