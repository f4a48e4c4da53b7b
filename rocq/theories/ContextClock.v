(** Clocks of the motion context: event times, synchronised channels, success of
    moves, flushing, resetting. *)
From Coq Require Import ZArith List Bool Lia.
From Coq Require Import ZifyBool ZifyNat.
From Verif Require Import Base MultiRange AccVector MotionSpec AccVectorProofs IntegerCurve AccSeqProofs
  RangeProofs PlanProofs StepperContext MachineSpec MachineProofs ContextProofs ContextOps ContextHist.
Import ListNotations.
Open Scope Z_scope.

(** The last event is not later than both channels. *)
Definition timely (c : ctx) : Prop :=
  clocked c /\ event_ticks c <= Z.max (ticks_of c AX) (ticks_of c AY).

Lemma emit_seg_timely : forall c i s c', clocked c -> seg_typed s -> emit_seg c i s = Ok c' -> timely c'.
Proof.
  intros c i s c' Hc Ts H. destruct (emit_seg_spec c i s c' Hc Ts H) as (S & _ & T & _ & _ & _ & _ & E & _).
  split; [apply S|]. destruct Ts. destruct i; lia.
Qed.

Lemma segs_loop_timely : forall fuel c px py c', timely c ->
  Forall seg_typed px -> Forall seg_typed py -> segs_loop fuel c px py = Ok c' -> timely c'.
Proof.
  induction fuel as [|fuel IH]; intros c px py c' Hc Tx Ty H; cbn [segs_loop] in H;
    destruct (next_channel c px py) as [i|]; try discriminate; try (injection H as <-; exact Hc).
  destruct i, px as [|s px], py as [|s' py]; try (injection H as <-; exact Hc);
    apply bind_Ok in H; destruct H as (c1 & E & H);
    repeat match goal with K : Forall seg_typed (_ :: _) |- _ =>
      let P := fresh "P" in pose proof (Forall_inv K) as P; apply Forall_inv_tail in K as ? ; revert K end; intros;
    (eapply IH; [|  | |exact H]; auto; eapply emit_seg_timely; [apply Hc| |exact E]; auto).
Qed.

Lemma add_acc_one_clocked : forall c i a n c', clocked c -> 0 <= n <= u32_max ->
  add_acc_one c i a n = Ok c' ->
  clocked c' /\ event_ticks c' = ticks_of c i /\ ticks_of c' i = ticks_of c i + n /\
  (forall j, j <> i -> ticks_of c' j = ticks_of c j).
Proof.
  intros c i a n c' Hc Hn H. unfold add_acc_one in H. inv_bind H. injection H as <-.
  match goal with E : push_event _ _ _ = Ok ?x |- _ => rename x into c1; rename E into Ep end.
  match goal with E : chk_u64 _ = Ok _ |- _ => apply chk_Ok in E; destruct E as [<- E] end.
  apply (push_acc c i a c1) in Ep; [|auto].
  destruct Ep as (K1 & K2 & K3 & K4 & K5 & K6 & K7 & K8 & K9).
  pose proof (ck_ticks c Hc i) as Ht. fold (ticks_of c i) in *.
  split; [apply clocked_set; auto; cbn [c_ticks]; lia|].
  split; [rewrite set_channel_et; exact K6|]. split.
  - unfold ticks_of at 1. rewrite channel_set_eq. reflexivity.
  - intros j Hj. unfold ticks_of. rewrite channel_set_neq, K2 by auto. reflexivity.
Qed.

Lemma speed_one_frame : forall c i v c' s, speed_one c i v = Ok (c', s) ->
  Forall seg_typed s /\ config c' = config c /\ curve_weight c' = curve_weight c /\
  events c' = events c /\ event_ticks c' = event_ticks c /\
  (forall j, ticks_of c' j = ticks_of c j).
Proof.
  intros c i v c' s H. unfold speed_one in H.
  apply bind_Ok in H. destruct H as (dv & _ & H). apply bind_Ok in H. destruct H as ([t r] & _ & H).
  apply bind_Ok in H. destruct H as (a & _ & H). inv_bind H.
  assert (U : forall x, 0 <= as_u16 x <= u16_max).
  { intros x. unfold as_u16, wrap_u, u16_max. pose proof (Z.mod_pos_bound x (2 ^ 16) ltac:(lia)). lia. }
  assert (I : forall x, i16_min <= as_i16 x <= i16_max).
  { intros x. unfold as_i16, wrap_s, i16_min, i16_max. pose proof (Z.mod_pos_bound x (2 ^ 16) ltac:(lia)).
    cbv zeta. destruct (Z.ltb_spec (x mod 2 ^ 16) (2 ^ (16 - 1))); lia. }
  assert (T : forall ch, c_ticks ch = c_ticks (channel c i) -> forall j, ticks_of (set_channel c i ch) j = ticks_of c j).
  { intros ch Ech j. unfold ticks_of. destruct (axis_dec j i) as [->|Hne];
      [rewrite channel_set_eq; auto|rewrite channel_set_neq by auto; reflexivity]. }
  destruct (negb (r =? 0)).
  - inv_bind H. apply Ok_pair in H. destruct H as [<- <-].
    split; [repeat constructor; cbn [fst snd]; unfold u16_max; try apply U; try apply I; lia|].
    rewrite set_channel_config, set_channel_cw, set_channel_events, set_channel_et. auto 10.
  - apply Ok_pair in H. destruct H as [<- <-].
    split; [repeat constructor; cbn [fst snd]; try apply U; apply I|].
    rewrite set_channel_config, set_channel_cw, set_channel_events, set_channel_et. auto 10.
Qed.

(** Calls with arguments of the right type, weight changes at the current time. *)
Definition now_op (c : ctx) (o : op) : Prop :=
  match o with
  | AddAcc _ _ n => 0 <= n <= u32_max
  | AddWeight _ t => t = ticks_of c AX
  | _ => True
  end.

Lemma now_op_timely : forall plan c o c', typed_plan plan -> timely c -> now_op c o ->
  exec_op plan c o = Ok c' -> timely c'.
Proof.
  intros plan c o c' Hp Hc Ho H. destruct o; cbn [exec_op now_op] in *.
  - unfold add_acc_interval in H. inv_bind H. injection H as <-. apply assert_Ok in E2.
    destruct (add_acc_one_clocked c AX acc_x interval a0) as (K1 & V1 & T1 & U1); auto; [apply Hc|].
    destruct (add_acc_one_clocked a0 AY acc_y interval a1) as (K2 & V2 & T2 & U2); auto.
    split; [auto|]. lia.
  - subst when. pose proof (ck_ticks c (proj1 Hc) AX) as Ht.
    destruct (add_weight_spec c w (ticks_of c AX) c') as (S & _ & _ & T & _ & V & _); auto; [apply Hc|lia|].
    split; [apply S|]. rewrite V, !T. lia.
  - unfold step_goto_speed_with in H.
    apply bind_Ok in H. destruct H as (u1 & A1 & H). apply bind_Ok in H. destruct H as (u2 & A2 & H).
    apply bind_Ok in H. destruct H as (c1 & A3 & H). apply bind_Ok in H. destruct H as (dx & A4 & H).
    apply bind_Ok in H. destruct H as (dy & A5 & H). apply bind_Ok in H. destruct H as (ss & A6 & H).
    pose proof (ck_ticks c (proj1 Hc) AX) as Ht.
    destruct (push_weight_spec c (ticks_of c AX) (move_weight c) c1) as (S1 & W1 & C1 & T1 & M1 & V1 & Q1); auto; [apply Hc|lia|].
    destruct ss as [|sx [|sy rest]]; try discriminate.
    pose proof (Hp _ _ A6) as HT. inversion HT as [|? ? Tx HT2]; subst. inversion HT2 as [|? ? Ty _]; subst.
    apply bind_Ok in H. destruct H as (c2 & G1 & H). apply bind_Ok in H. destruct H as (c3 & G2 & H).
    apply bind_Ok in H. destruct H as (c5 & G3 & H). apply bind_Ok in H. destruct H as (u3 & A7 & H).
    injection H as <-.
    destruct (goto_one_spec c1 AX sx vx c2 Tx G1) as (F1 & Cw1 & E1 & Et1 & N1 & Tk1 & _).
    destruct (goto_one_spec c2 AY sy vy c3 Ty G2) as (F2 & Cw2 & E2 & Et2 & N2 & Tk2 & _).
    refine (segs_loop_timely _ _ _ _ _ _ Tx Ty G3).
    assert (TT : forall i, ticks_of (set_v (set_v c3 AX vx) AY vy) i = ticks_of c1 i).
    { intros i. rewrite <- Tk1, <- Tk2. destruct i; reflexivity. }
    split.
    + apply (clocked_eq c1); auto; [apply S1|change (events c3 = events c1); congruence|
        change (event_ticks c3 = event_ticks c1); congruence].
    + rewrite !TT. change (event_ticks c3 <= Z.max (ticks_of c1 AX) (ticks_of c1 AY)).
      rewrite Et2, Et1, V1, T1. lia.
  - unfold step_speed in H.
    apply bind_Ok in H. destruct H as ([c1 sx] & G1 & H). apply bind_Ok in H. destruct H as ([c2 sy] & G2 & H).
    destruct (speed_one_frame _ _ _ _ _ G1) as (Tx & F1 & Cw1 & E1 & Et1 & Tk1).
    destruct (speed_one_frame _ _ _ _ _ G2) as (Ty & F2 & Cw2 & E2 & Et2 & Tk2).
    refine (segs_loop_timely _ _ _ _ _ _ Tx Ty H).
    assert (TT : forall i, ticks_of c2 i = ticks_of c i) by (intros i; rewrite Tk2, Tk1; reflexivity).
    destruct Hc as [Hc Hd]. split.
    + apply (clocked_eq c); auto; congruence.
    + rewrite !TT, Et2, Et1. exact Hd.
  - injection H as <-. destruct Hc as [Hc Hd]. split; [|exact Hd].
    apply (clocked_eq c); auto; intros []; reflexivity.
  - destruct (flush_spec c c') as (S & _ & C & _ & _ & V & _); auto; [apply Hc|].
    split; [apply S|]. rewrite V. unfold ticks_of. rewrite !C. lia.
  - injection H as <-. split; [|cbn; lia].
    constructor; [reflexivity|constructor|]. intros []; cbn; unfold u32_max; lia.
Qed.

Inductive now_history (plan : list path_limits -> res (list (list seg))) : ctx -> list op -> ctx -> Prop :=
| now_nil : forall c, now_history plan c [] c
| now_cons : forall c o c1 ops c2, now_op c o -> exec_op plan c o = Ok c1 ->
    now_history plan c1 ops c2 -> now_history plan c (o :: ops) c2.

Lemma timely_new : forall ax ay vx vy, timely (new_ctx ax ay vx vy).
Proof. intros. split; [apply clocked_new|]. cbn. lia. Qed.

Lemma now_history_timely : forall plan c ops c', typed_plan plan -> now_history plan c ops c' ->
  timely c -> timely c'.
Proof.
  intros plan c ops c' Hp H. induction H; auto. intros Hs. apply IHnow_history. eapply now_op_timely; eauto.
Qed.

(** ** Synchronised channels *)

Definition not_speed (o : op) : Prop := match o with Speed _ _ => False | _ => True end.

Lemma push_event_frame : forall c t cmd c', push_event c t cmd = Ok c' ->
  (forall i, channel c' i = channel c i) /\ config c' = config c /\ curve_weight c' = curve_weight c.
Proof.
  intros c t cmd c' H. unfold push_event in H. inv_bind H. injection H as <-.
  split; [intros []; reflexivity|]. split; reflexivity.
Qed.

Lemma op_sync : forall plan c o c', not_speed o -> exec_op plan c o = Ok c' ->
  ticks_of c AX = ticks_of c AY -> ticks_of c' AX = ticks_of c' AY.
Proof.
  intros plan c o c' Hs H E. destruct o; cbn [exec_op not_speed] in *; try contradiction.
  - unfold add_acc_interval in H. inv_bind H. injection H as <-. apply assert_Ok in E3. lia.
  - unfold add_weight_change, push_event in H. inv_bind H. injection H as <-. exact E.
  - unfold step_goto_speed_with in H. inv_bind H.
    repeat match type of H with context [match ?l with [] => _ | _ => _ end] => destruct l; try discriminate end.
    inv_bind H. injection H as <-.
    repeat match goal with K : assert _ = Ok _ |- _ => apply assert_Ok in K end. lia.
  - injection H as <-. exact E.
  - unfold flush in H. inv_bind H.
    repeat match goal with K : push_event _ _ _ = Ok _ |- _ => apply push_event_frame in K end.
    destruct H as [Hx _], E1 as [Ex _], E2 as [Ey _]. unfold ticks_of in *. rewrite Hx, Ey, Ex, Hx, Ey, Ex. exact E.
  - injection H as <-. reflexivity.
Qed.

Lemma sync_history : forall plan c ops c', now_history plan c ops c' -> Forall not_speed ops ->
  ticks_of c AX = ticks_of c AY -> ticks_of c' AX = ticks_of c' AY.
Proof.
  intros plan c ops c' H. induction H; auto. intros Hf E. inversion Hf; subst.
  apply IHnow_history; auto. eapply op_sync; eauto.
Qed.

Lemma push_event_ok : forall c t cmd, clocked c -> event_ticks c <= t <= u64_max ->
  exists c', push_event c t cmd = Ok c'.
Proof.
  intros c t cmd Hc Ht. unfold push_event, chk_u64. pose proof (clocked_et c Hc).
  rewrite chk_in by lia. cbn [bind]. eauto.
Qed.

Lemma flush_ok : forall c, clocked c -> ticks_of c AX = ticks_of c AY ->
  event_ticks c <= ticks_of c AX <= u64_max -> exists c', flush c = Ok c'.
Proof.
  intros c Hc Hs He. unfold flush. rewrite <- Hs, Z.eqb_refl. cbn [assert bind].
  pose proof (ck_ticks c Hc AX) as Ht.
  destruct (push_event_ok c (ticks_of c AX) (Weight (move_weight c))) as [c1 E1]; auto.
  rewrite E1. cbn [bind].
  destruct (push_weight_spec c (ticks_of c AX) (move_weight c) c1) as (S1 & _ & _ & T1 & _ & V1 & _); auto; [lia|].
  destruct (push_event_ok c1 (ticks_of c1 AX) (Acc 0 0)) as [c2 E2]; [apply S1|rewrite T1, V1; lia|].
  rewrite E2. cbn [bind].
  destruct (push_acc_spec c1 AX c2) as (S2 & _ & _ & T2 & _ & V2 & _); [apply S1|exact E2|].
  apply push_event_ok; [apply S2|]. rewrite V2, T2, !T1. lia.
Qed.

(** ** Success of segment emission *)

Lemma seg_len : forall s l, expand (s :: l) = repeat (snd s) (Z.to_nat (fst s)) ++ expand l.
Proof. intros [n a] l. reflexivity. Qed.

Lemma emit_seg_ok : forall c i s, clocked c -> seg_typed s -> event_ticks c <= ticks_of c i ->
  ticks_of c i + fst s <= u64_max -> exists c', emit_seg c i s = Ok c'.
Proof.
  intros c i s Hc Ts He Hm. unfold emit_seg. fold (ticks_of c i).
  destruct (Z.geb_spec (ticks_of c i) (event_ticks c)); [|lia]. cbn [assert bind].
  destruct Ts. destruct (push_event_ok c (ticks_of c i) (Acc (axis_index i) (snd s))) as [c1 ->]; auto; [lia|].
  cbn [bind]. pose proof (ck_ticks c Hc i). unfold chk_u64. rewrite chk_in by lia. cbn [bind]. eauto.
Qed.

Lemma segs_loop_ok : forall fuel c px py, clocked c ->
  Forall seg_typed px -> Forall seg_typed py -> (length px + length py <= fuel)%nat ->
  (forall i, pick i px py <> [] -> event_ticks c <= ticks_of c i) ->
  (forall i, ticks_of c i + Z.of_nat (length (expand (pick i px py))) < u64_max) ->
  exists c', segs_loop fuel c px py = Ok c'.
Proof.
  induction fuel as [|fuel IH]; intros c px py Hc Tx Ty Hf He Hm; cbn [segs_loop];
    destruct (next_channel c px py) as [i|] eqn:En; eauto.
  - destruct (next_channel_some c px py i En) as [Hp _].
    destruct px; [|cbn [length] in Hf; lia]. destruct py; [|cbn [length] in Hf; lia]. destruct i; contradiction Hp; reflexivity.
  - destruct (next_channel_some c px py i En) as [Hp Hmin].
    assert (HmX := Hm AX). assert (HmY := Hm AY). cbn [pick] in HmX, HmY.
    destruct i; cbn [pick] in Hp.
    + destruct px as [|s px']; [congruence|]. inversion Tx as [|? ? Ts Tx']; subst.
      rewrite seg_len, app_length, repeat_length in HmX. destruct Ts as [Ts1 Ts2] eqn:ET.
      destruct (emit_seg_ok c AX s Hc (conj Ts1 Ts2)) as [c1 E1]; [apply He; cbn; discriminate|lia|].
      rewrite E1. cbn [bind].
      destruct (emit_seg_spec c AX s c1 Hc (conj Ts1 Ts2) E1) as (S1 & _ & T1 & T2 & _ & _ & _ & V1 & _).
      apply IH; auto; [apply S1|cbn [length] in Hf; lia| |].
      * intros j Hj. rewrite V1. destruct j; [rewrite T1; lia|].
        rewrite T2 by discriminate. apply Hmin; [exact Hj|]. specialize (Hm AY). lia.
      * intros []; cbn [pick]; [rewrite T1; lia|rewrite T2 by discriminate; lia].
    + destruct py as [|s py']; [congruence|]. inversion Ty as [|? ? Ts Ty']; subst.
      rewrite seg_len, app_length, repeat_length in HmY. destruct Ts as [Ts1 Ts2] eqn:ET.
      destruct (emit_seg_ok c AY s Hc (conj Ts1 Ts2)) as [c1 E1]; [apply He; cbn; discriminate|lia|].
      assert (G : exists c', (let! c0 := emit_seg c AY s in segs_loop fuel c0 px py') = Ok c').
      { rewrite E1. cbn [bind].
        destruct (emit_seg_spec c AY s c1 Hc (conj Ts1 Ts2) E1) as (S1 & _ & T1 & T2 & _ & _ & _ & V1 & _).
        apply IH; auto; [apply S1|cbn [length] in Hf; lia| |].
        * intros j Hj. rewrite V1. destruct j; [|rewrite T1; lia].
          rewrite T2 by discriminate. apply Hmin; [exact Hj|]. specialize (Hm AX). lia.
        * intros []; cbn [pick]; [rewrite T2 by discriminate; lia|rewrite T1; lia]. }
      destruct px; exact G.
Qed.

(** ** Success of moves *)

Lemma push_conv_acc_ok : forall s t x s', push_conv s t x = Ok s' -> acc_ok s -> acc_ok s'.
Proof.
  intros s t x s' H Hs. unfold push_conv in H. inv_bind H.
  apply chk_Ok in E. destruct E as [<- Ht]. eapply acc_push_ok; [|exact Hs|exact H]. lia.
Qed.

Lemma acc_seq_acc_ok : forall p s, acc_seq p = Ok s -> acc_ok s.
Proof.
  intros p s H. unfold acc_seq in H. destruct (p_t_total p <=? 1).
  - destruct (p_t_total p =? 0); inv_bind H.
    + injection H as <-. apply acc_ok_nil.
    + eapply push_conv_acc_ok; eauto using acc_ok_nil.
  - apply bind_Ok in H. destruct H as ([[vs ve] ts] & _ & H).
    apply bind_Ok in H. destruct H as ([t1 d1] & _ & H).
    apply bind_Ok in H. destruct H as ([t4 d4] & _ & H).
    apply bind_Ok in H. destruct H as (u & _ & H).
    apply bind_Ok in H. destruct H as (s1 & H1 & H).
    apply bind_Ok in H. destruct H as (u2 & _ & H).
    apply bind_Ok in H. destruct H as (s2 & H2 & H).
    assert (T1 : acc_ok s1).
    { destruct (d1 =? 0); [eapply push_conv_acc_ok; eauto using acc_ok_nil|]. inv_bind H1.
      eapply push_conv_acc_ok; [exact H1|]. eapply push_conv_acc_ok; eauto using acc_ok_nil. }
    assert (T2 : acc_ok s2).
    { destruct (ts ?= 0); inv_bind H2; repeat (eapply push_conv_acc_ok; [eassumption|]); auto. }
    destruct (d4 =? 0); inv_bind H; repeat (eapply push_conv_acc_ok; [eassumption|]); auto.
Qed.

Lemma acc_ok_length : forall s, acc_ok s -> (length s <= length (expand s))%nat.
Proof.
  intros s [H _]. induction s as [|[n a] l IH]; [cbn; lia|].
  rewrite seg_len, app_length, repeat_length. cbn [length fst].
  specialize (H (n, a) (or_introl eq_refl)) as Hn. cbn [fst] in Hn.
  assert (length l <= length (expand l))%nat by (apply IH; intros x Hx; apply H; right; auto). lia.
Qed.
