(** The operations of the motion context keep the event stream and the reported
    state together. *)
From Coq Require Import ZArith List Bool Lia.
From Coq Require Import ZifyBool ZifyNat.
From Verif Require Import Base AccVector MotionSpec AccVectorProofs IntegerCurve StepperContext
  MachineSpec MachineProofs ContextProofs.
Import ListNotations.
Open Scope Z_scope.

Definition sound (c : ctx) : Prop :=
  clocked c /\ ((forall i, ticks_of c i < u64_max) -> forall i, c_move c i = c_state c i).

(** Weight facts: no weight is changed before the time both channels have reached. *)
Definition keeps_weight (c c' : ctx) : Prop :=
  forall t w, t < ticks_of c AX -> play_weight (events c') t w = play_weight (events c) t w.

Lemma add_acc_one_gen : forall c i a n c', clocked c -> 0 <= n <= u32_max -> as_i32 n * a = n * a ->
  add_acc_one c i a n = Ok c' ->
  step c c' /\ curve_weight c' = curve_weight c /\
  ticks_of c' i = ticks_of c i + n /\
  (forall j, j <> i -> ticks_of c' j = ticks_of c j) /\
  (c_move c i = c_state c i -> c_move c' i = c_state c' i) /\
  (forall j, j <> i -> c_move c' j = c_move c j /\ c_state c' j = c_state c j) /\
  c_state c' i = (c_pos (channel c i) + 2 * n * c_v (channel c i) + n * n * a, c_v (channel c i) + n * a) /\
  event_ticks c' = ticks_of c i /\
  (forall t w, play_weight (events c') t w = play_weight (events c) t w).
Proof.
  intros c i a n c' Hc Hn Hw H. unfold add_acc_one in H. rewrite Hw in H. inv_bind H. injection H as <-.
  repeat match goal with E : chk_i32 _ = Ok _ |- _ => apply chk_Ok in E; destruct E as [<- E]
                       | E : chk_u64 _ = Ok _ |- _ => apply chk_Ok in E; destruct E as [<- E]
                       | E : chk_i64 _ = Ok _ |- _ => apply chk_Ok in E; destruct E as [<- E] end.
  match goal with E : push_event _ _ _ = Ok ?x |- _ => rename x into c1; rename E into Ep end.
  pose proof (ck_ticks c Hc i) as Ht. fold (ticks_of c i) in *.
  apply (push_acc c i a c1) in Ep; [|auto].
  destruct Ep as (K1 & K2 & K3 & K4 & K5 & K6 & K7 & K8 & K9).
  set (ch' := mk_chan _ _ _).
  assert (T1 : ticks_of (set_channel c1 i ch') i = ticks_of c i + n).
  { unfold ticks_of at 1. rewrite channel_set_eq. reflexivity. }
  assert (T2 : forall j, j <> i -> ticks_of (set_channel c1 i ch') j = ticks_of c j).
  { intros j Hj. unfold ticks_of. rewrite channel_set_neq, K2 by auto. reflexivity. }
  split; [constructor|].
  - apply clocked_set; auto; subst ch'; cbn [c_ticks]; [lia|]. unfold u32_max in *. lia.
  - rewrite set_channel_config. exact K3.
  - rewrite set_channel_et. exact K5.
  - intros j. destruct (axis_dec j i) as [->|Hne]; [rewrite T1; lia|rewrite T2 by auto; lia].
  - split; [rewrite set_channel_cw; exact K4|].
    split; [exact T1|]. split; [exact T2|]. split; [|split; [|split; [|split]]].
    + intros HM. unfold c_move at 1. rewrite T1, set_channel_events, K8 by lia. rewrite HM.
      unfold c_state. rewrite channel_set_eq. subst ch'. cbn [c_pos c_v fst snd]. f_equal; ring.
    + intros j Hj. unfold c_move, c_state. rewrite T2, set_channel_events, channel_set_neq, K2 by auto.
      split; [|reflexivity]. apply K7; auto. apply (ck_ticks c Hc j).
    + unfold c_state. rewrite channel_set_eq. subst ch'. cbn [c_pos c_v]. f_equal; ring.
    + rewrite set_channel_et. exact K6.
    + intros t w. rewrite set_channel_events. apply K9.
Qed.

Lemma add_acc_one_spec : forall c i a n c', clocked c -> 0 <= n < 2 ^ 31 ->
  add_acc_one c i a n = Ok c' ->
  step c c' /\ curve_weight c' = curve_weight c /\
  ticks_of c' i = ticks_of c i + n /\
  (forall j, j <> i -> ticks_of c' j = ticks_of c j) /\
  (c_move c i = c_state c i -> c_move c' i = c_state c' i) /\
  (forall j, j <> i -> c_move c' j = c_move c j /\ c_state c' j = c_state c j) /\
  c_state c' i = (c_pos (channel c i) + 2 * n * c_v (channel c i) + n * n * a, c_v (channel c i) + n * a) /\
  event_ticks c' = ticks_of c i /\
  (forall t w, play_weight (events c') t w = play_weight (events c) t w).
Proof.
  intros c i a n c' Hc Hn H. apply add_acc_one_gen; auto; [unfold u32_max; lia|].
  unfold as_i32; rewrite wrap_s_id; lia.
Qed.

Lemma add_acc_interval_gen : forall c ax ay n c', clocked c -> 0 <= n <= u32_max ->
  as_i32 n * ax = n * ax -> as_i32 n * ay = n * ay ->
  add_acc_interval c ax ay n = Ok c' ->
  step c c' /\ curve_weight c' = curve_weight c /\ 1 <= n /\
  (forall i, ticks_of c' i = ticks_of c i + n) /\ ticks_of c AX = ticks_of c AY /\
  (forall i, c_move c i = c_state c i -> c_move c' i = c_state c' i) /\
  (forall i, c_state c' i = (c_pos (channel c i) + 2 * n * c_v (channel c i) + n * n * (match i with AX => ax | AY => ay end),
     c_v (channel c i) + n * (match i with AX => ax | AY => ay end))) /\
  (forall t w, play_weight (events c') t w = play_weight (events c) t w).
Proof.
  intros c ax ay n c' Hc Hn Hx Hy H. unfold add_acc_interval in H. inv_bind H. injection H as <-.
  apply assert_Ok in E. apply assert_Ok in E2.
  destruct (add_acc_one_gen c AX ax n a0) as (S1 & W1 & T1 & T1' & M1 & M1' & P1 & V1 & Q1); auto.
  destruct (add_acc_one_gen a0 AY ay n a1) as (S2 & W2 & T2 & T2' & M2 & M2' & P2 & V2 & Q2); auto; [apply S1|].
  assert (X : AX <> AY) by discriminate. assert (Y : AY <> AX) by discriminate.
  specialize (T1' _ Y). specialize (T2' _ X). specialize (M1' _ Y). specialize (M2' _ X).
  split; [eapply step_trans; eauto|]. split; [congruence|]. split; [lia|].
  split; [intros []; lia|]. split; [lia|]. split; [|split].
  - intros [] HM.
    + destruct M2' as [-> ->]. auto.
    + apply M2. destruct M1' as [-> ->]. exact HM.
  - intros [].
    + destruct M2' as [_ ->]. exact P1.
    + rewrite P2. destruct M1' as [_ M1']. pose proof (f_equal fst M1') as Q3. pose proof (f_equal snd M1') as Q4.
      unfold c_state in Q3, Q4. cbn [fst snd] in Q3, Q4. rewrite Q3, Q4. reflexivity.
  - intros t w. rewrite Q2, Q1. reflexivity.
Qed.

Lemma add_acc_interval_spec : forall c ax ay n c', clocked c -> 0 <= n < 2 ^ 31 ->
  add_acc_interval c ax ay n = Ok c' ->
  step c c' /\ curve_weight c' = curve_weight c /\ 1 <= n /\
  (forall i, ticks_of c' i = ticks_of c i + n) /\ ticks_of c AX = ticks_of c AY /\
  (forall i, c_move c i = c_state c i -> c_move c' i = c_state c' i) /\
  (forall i, c_state c' i = (c_pos (channel c i) + 2 * n * c_v (channel c i) + n * n * (match i with AX => ax | AY => ay end),
     c_v (channel c i) + n * (match i with AX => ax | AY => ay end))) /\
  (forall t w, play_weight (events c') t w = play_weight (events c) t w).
Proof.
  intros c ax ay n c' Hc Hn H. apply add_acc_interval_gen; auto; [unfold u32_max; lia| |];
    unfold as_i32; rewrite wrap_s_id; lia.
Qed.

Lemma channel_state : forall c c' i, channel c' i = channel c i ->
  c_state c' i = c_state c i /\ ticks_of c' i = ticks_of c i.
Proof. intros c c' i H. unfold c_state, ticks_of. rewrite H. auto. Qed.

Lemma push_weight_spec : forall c t w c1, clocked c -> t - event_ticks c <= u32_max ->
  push_event c t (Weight w) = Ok c1 ->
  step c c1 /\ curve_weight c1 = curve_weight c /\
  (forall j, channel c1 j = channel c j) /\
  (forall j, ticks_of c1 j = ticks_of c j) /\
  (forall j, c_state c1 j = c_state c j /\ c_move c1 j = c_move c j) /\
  event_ticks c1 = t /\
  (forall u w0, play_weight (events c1) u w0 = if t <=? u then w else play_weight (events c) u w0).
Proof.
  intros c t w c1 Hc Ht H. destruct (push_weight c t w c1) as (K1 & K2 & K3 & K4 & K5 & K6 & K7 & K8); auto.
  assert (T : forall j, ticks_of c1 j = ticks_of c j) by (intros; apply channel_state; auto).
  split; [constructor; auto; [lia|intros j; rewrite T; lia]|]. split; [auto|]. split; [auto|].
  split; [auto|]. split; [|auto]. intros j. split; [apply channel_state; auto|].
  unfold c_move. rewrite T. apply K7. apply (ck_ticks c Hc j).
Qed.

Lemma push_acc_spec : forall c i c1, clocked c ->
  push_event c (ticks_of c i) (Acc (axis_index i) 0) = Ok c1 ->
  step c c1 /\ curve_weight c1 = curve_weight c /\
  (forall j, channel c1 j = channel c j) /\
  (forall j, ticks_of c1 j = ticks_of c j) /\
  (forall j, c_state c1 j = c_state c j /\ c_move c1 j = c_move c j) /\
  event_ticks c1 = ticks_of c i /\
  (forall u w0, play_weight (events c1) u w0 = play_weight (events c) u w0).
Proof.
  intros c i c1 Hc H. destruct (push_acc c i 0 c1) as (K1 & K2 & K3 & K4 & K5 & K6 & K7 & K8 & K9); auto.
  assert (T : forall j, ticks_of c1 j = ticks_of c j) by (intros; apply channel_state; auto).
  split; [constructor; auto; intros j; rewrite T; lia|]. split; [auto|]. split; [auto|].
  split; [auto|]. split; [|auto]. intros j. split; [apply channel_state; auto|].
  unfold c_move at 1. rewrite T. destruct (axis_dec j i) as [->|Hne].
  - specialize (K8 0 ltac:(lia)). rewrite Z.add_0_r in K8. rewrite K8.
    rewrite !Z.mul_0_r, !Z.add_0_r. symmetry. apply surjective_pairing.
  - apply K7; auto. apply (ck_ticks c Hc j).
Qed.

Lemma flush_spec : forall c c', clocked c -> flush c = Ok c' ->
  step c c' /\ curve_weight c' = curve_weight c /\
  (forall j, channel c' j = channel c j) /\
  (forall j, c_state c' j = c_state c j /\ c_move c' j = c_move c j) /\
  ticks_of c AX = ticks_of c AY /\ event_ticks c' = ticks_of c AX /\
  (forall u w0, play_weight (events c') u w0 =
     if ticks_of c AX <=? u then move_weight c else play_weight (events c) u w0).
Proof.
  intros c c' Hc H. unfold flush in H. inv_bind H. apply assert_Ok in E.
  pose proof (ck_ticks c Hc AX) as Ht.
  destruct (push_weight_spec c (ticks_of c AX) (move_weight c) a0) as (S1 & W1 & C1 & T1 & M1 & V1 & Q1); auto; [lia|].
  destruct (push_acc_spec a0 AX a1) as (S2 & W2 & C2 & T2 & M2 & V2 & Q2); [apply S1|exact E1|].
  destruct (push_acc_spec a1 AY c') as (S3 & W3 & C3 & T3 & M3 & V3 & Q3); [apply S2|exact H|].
  split; [eapply step_trans; [exact S1|]; eapply step_trans; eauto|]. split; [congruence|].
  split; [intros; rewrite C3, C2, C1; reflexivity|]. split.
  { intros j. destruct (M3 j) as [-> ->]. destruct (M2 j) as [-> ->]. apply M1. }
  split; [lia|]. split; [rewrite V3, T2, T1; lia|].
  intros u w0. rewrite Q3, Q2, Q1. reflexivity.
Qed.

Lemma add_weight_spec : forall c w t c', clocked c -> t - event_ticks c <= u32_max ->
  add_weight_change c w t = Ok c' ->
  step c c' /\ curve_weight c' = curve_weight c /\
  (forall j, channel c' j = channel c j) /\
  (forall j, ticks_of c' j = ticks_of c j) /\
  (forall j, c_state c' j = c_state c j /\ c_move c' j = c_move c j) /\
  event_ticks c' = t /\ (forall i, ticks_of c i <= t) /\
  (forall u w0, play_weight (events c') u w0 = if t <=? u then w else play_weight (events c) u w0).
Proof.
  intros c w t c' Hc Ht H. unfold add_weight_change in H. inv_bind H.
  apply assert_Ok in E, E0.
  destruct (push_weight_spec c t w c') as (S1 & W1 & C1 & T1 & M1 & V1 & Q1); auto.
  repeat (split; auto). intros []; lia.
Qed.

(** ** Moves *)

Lemma goto_one_spec : forall c i s v_end c', Forall seg_typed s -> goto_one c i s v_end = Ok c' ->
  config c' = config c /\ curve_weight c' = curve_weight c /\ events c' = events c /\
  event_ticks c' = event_ticks c /\
  (forall j, j <> i -> channel c' j = channel c j) /\
  (forall j, ticks_of c' j = ticks_of c j) /\
  c_v (channel c' i) = c_v (channel c i) /\
  c_pos (channel c' i) = c_pos (channel c i) + travel (c_v (channel c i)) (expand s) /\
  v_end = final_speed (c_v (channel c i)) (expand s).
Proof.
  intros c i s v_end c' Hs H. unfold goto_one in H.
  apply bind_Ok in H. destruct H as ([d v] & Ed & H). inv_bind H.
  apply chk_Ok in E. destruct E as [<- E]. apply assert_Ok in E0. injection H as <-.
  apply acc_distance_loop_spec in Ed.
  2: { intros x Hx. rewrite Forall_forall in Hs. apply Hs in Hx. unfold seg_typed in Hx. lia. }
  injection Ed as -> ->.
  split; [apply set_channel_config|]. split; [apply set_channel_cw|]. split; [apply set_channel_events|].
  split; [apply set_channel_et|]. split; [intros; apply channel_set_neq; auto|].
  split.
  { intros j. unfold ticks_of. destruct (axis_dec j i) as [->|Hne];
      [rewrite channel_set_eq|rewrite channel_set_neq by auto]; reflexivity. }
  rewrite channel_set_eq. cbn [c_v c_pos]. split; [reflexivity|]. split; lia.
Qed.

Lemma clocked_eq : forall c c', clocked c -> events c' = events c -> event_ticks c' = event_ticks c ->
  (forall i, ticks_of c' i = ticks_of c i) -> clocked c'.
Proof.
  intros c c' [H1 H2 H3] E1 E2 E3. constructor.
  - rewrite E1, E2. exact H1.
  - rewrite E1. exact H2.
  - intros i. rewrite E2, E3. apply H3.
Qed.

Lemma step_goto_speed_spec : forall plan c x y vx vy c', clocked c ->
  (forall l ss, plan l = Ok ss -> Forall (Forall seg_typed) ss) ->
  step_goto_speed_with plan c x y vx vy = Ok c' ->
  exists sx sy rest,
  plan [mk_limits (x - c_pos (channel c AX)) (c_v (channel c AX)) vx (a_max c AX) (v_max c AX);
        mk_limits (y - c_pos (channel c AY)) (c_v (channel c AY)) vy (a_max c AY) (v_max c AY)]
    = Ok (sx :: sy :: rest) /\
  vx <= v_max c AX /\ vy <= v_max c AY /\
  step c c' /\ curve_weight c' = curve_weight c /\
  ticks_of c' AX = ticks_of c' AY /\
  (forall i, c_state c' i = (c_pos (channel c i) + travel (c_v (channel c i)) (expand (pick i sx sy)),
                             match i with AX => vx | AY => vy end)) /\
  (forall i, final_speed (c_v (channel c i)) (expand (pick i sx sy)) = match i with AX => vx | AY => vy end) /\
  ((forall i, ticks_of c' i < u64_max) -> forall i,
     ticks_of c' i = ticks_of c i + Z.of_nat (length (expand (pick i sx sy))) /\
     (c_move c i = c_state c i -> c_move c' i = c_state c' i)) /\
  (forall u w0, play_weight (events c') u w0 =
     if ticks_of c AX <=? u then move_weight c else play_weight (events c) u w0).
Proof.
  intros plan c x y vx vy c' Hc Hplan H. unfold step_goto_speed_with in H.
  apply bind_Ok in H. destruct H as (u1 & A1 & H). apply bind_Ok in H. destruct H as (u2 & A2 & H).
  apply bind_Ok in H. destruct H as (c1 & A3 & H). apply bind_Ok in H. destruct H as (dx & A4 & H).
  apply bind_Ok in H. destruct H as (dy & A5 & H). apply bind_Ok in H. destruct H as (ss & A6 & H).
  apply assert_Ok in A1, A2. apply chk_Ok in A4, A5. destruct A4 as [<- A4]. destruct A5 as [<- A5].
  pose proof (ck_ticks c Hc AX) as Ht.
  destruct (push_weight_spec c (ticks_of c AX) (move_weight c) c1) as (S1 & W1 & C1 & T1 & M1 & V1 & Q1); auto; [lia|].
  destruct ss as [|sx [|sy rest]]; try discriminate.
  pose proof (Hplan _ _ A6) as HT. inversion HT as [|? ? Tx HT2]; subst. inversion HT2 as [|? ? Ty _]; subst.
  apply bind_Ok in H. destruct H as (c2 & G1 & H). apply bind_Ok in H. destruct H as (c3 & G2 & H).
  apply bind_Ok in H. destruct H as (c5 & G3 & H). apply bind_Ok in H. destruct H as (u3 & A7 & H).
  injection H as <-. apply assert_Ok in A7.
  destruct (goto_one_spec c1 AX sx vx c2 Tx G1) as (F1 & Cw1 & E1 & Et1 & N1 & Tk1 & Vv1 & Pp1 & Ff1).
  destruct (goto_one_spec c2 AY sy vy c3 Ty G2) as (F2 & Cw2 & E2 & Et2 & N2 & Tk2 & Vv2 & Pp2 & Ff2).
  assert (X : AX <> AY) by discriminate. assert (Y : AY <> AX) by discriminate.
  specialize (N1 _ Y). specialize (N2 _ X).
  set (c4 := set_v (set_v c3 AX vx) AY vy) in *.
  assert (D1 : events c4 = events c3) by reflexivity.
  assert (D2 : event_ticks c4 = event_ticks c3) by reflexivity.
  assert (D3 : forall i, ticks_of c4 i = ticks_of c3 i) by (intros []; reflexivity).
  assert (D4 : config c4 = config c3) by reflexivity.
  assert (D5 : curve_weight c4 = curve_weight c3) by reflexivity.
  assert (K4 : clocked c4).
  { apply (clocked_eq c1); [apply S1|congruence|congruence|]. intros i. rewrite D3, Tk2, Tk1. reflexivity. }
  unfold acc_segs_to_events in G3.
  destruct (segs_loop_spec _ c4 sx sy c5 K4 Tx Ty G3) as (S5 & W5 & P5 & Q5 & M5).
  exists sx, sy, rest.
  assert (Cf : config c1 = config c) by apply S1.
  assert (EX : channel c1 AX = channel c AX /\ channel c1 AY = channel c AY) by (split; apply C1).
  destruct EX as [EX EY]. rewrite EX, EY in A6.
  assert (AM : forall i, a_max c1 i = a_max c i /\ v_max c1 i = v_max c i).
  { unfold config in Cf. injection Cf as f1 f2 f3 f4 f5. intros []; cbn; auto. }
  destruct (AM AX) as [-> ->] in A6. destruct (AM AY) as [-> ->] in A6.
  split; [exact A6|]. split; [lia|]. split; [lia|].
  assert (TT : forall i, ticks_of c4 i = ticks_of c i) by (intros i; rewrite D3, Tk2, Tk1, T1; reflexivity).
  split.
  { constructor.
    - apply S5.
    - rewrite (st_config _ _ S5), D4, F2, F1. exact Cf.
    - pose proof (st_et _ _ S5). pose proof (st_et _ _ S1). lia.
    - intros i. pose proof (st_ticks _ _ S5 i). rewrite TT in *. lia. }
  split; [congruence|]. split; [lia|].
  assert (ST4 : forall i, c_state c4 i = (c_pos (channel c i) + travel (c_v (channel c i)) (expand (pick i sx sy)),
                             match i with AX => vx | AY => vy end)).
  { intros []; unfold c_state.
    - change (channel c4 AX) with (mk_chan (c_pos (channel c3 AX)) vx (c_ticks (channel c3 AX))).
      cbn [c_pos c_v pick]. f_equal. rewrite N2, Pp1, EX. reflexivity.
    - change (channel c4 AY) with (mk_chan (c_pos (channel c3 AY)) vy (c_ticks (channel c3 AY))).
      cbn [c_pos c_v pick]. f_equal. rewrite Pp2, N1, EY. reflexivity. }
  assert (FS : forall i, final_speed (c_v (channel c i)) (expand (pick i sx sy)) = match i with AX => vx | AY => vy end).
  { intros []; cbn [pick]; [rewrite Ff1, EX; reflexivity|rewrite Ff2, N1, EY; reflexivity]. }
  split; [intros i; rewrite P5; apply ST4|]. split; [exact FS|]. split.
  - intros Hmax i. destruct (M5 Hmax i) as [MA MB]. rewrite MA, TT. split; [reflexivity|].
    intros HM. rewrite MB, P5, ST4.
    assert (CM : c_move c4 i = c_move c i).
    { destruct (M1 i) as [_ <-]. unfold c_move. rewrite TT, D1, E2, E1, T1. reflexivity. }
    rewrite CM, HM. unfold c_state at 1 2 3. cbn [fst snd]. f_equal. apply FS.
  - intros u w0. rewrite Q5, D1, E2, E1. apply Q1.
Qed.
