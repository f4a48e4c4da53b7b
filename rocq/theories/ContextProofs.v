(** Invariants of the motion context. *)
From Coq Require Import ZArith List Bool Lia.
From Coq Require Import ZifyBool ZifyNat.
From Verif Require Import Base AccVector MotionSpec AccVectorProofs IntegerCurve StepperContext
  MachineSpec MachineProofs.
Import ListNotations.
Open Scope Z_scope.

Definition config (c : ctx) := (a_max_x c, a_max_y c, v_max_x c, v_max_y c, move_weight c).

Definition c_move (c : ctx) (i : axis) : Z * Z := motion i (events c) (ticks_of c i).
Definition c_state (c : ctx) (i : axis) : Z * Z := (c_pos (channel c i), c_v (channel c i)).

Record clocked (c : ctx) : Prop := {
  ck_total : total (events c) = event_ticks c;
  ck_deltas : Forall (fun e => 0 <= e_ticks e <= u32_max) (events c);
  ck_ticks : forall i, 0 <= ticks_of c i /\ ticks_of c i - event_ticks c <= u32_max
}.

Lemma clocked_nonneg : forall c, clocked c -> nonneg (events c).
Proof. intros c H. eapply Forall_impl; [|apply (ck_deltas c H)]. cbv beta. intros; lia. Qed.

Lemma clocked_et : forall c, clocked c -> 0 <= event_ticks c.
Proof. intros c H. rewrite <- (ck_total c H). apply total_nonneg, clocked_nonneg, H. Qed.

Lemma channel_set : forall c i j ch, channel (set_channel c i ch) j =
  match i, j with AX, AX | AY, AY => ch | _, _ => channel c j end.
Proof. intros c [] [] ch; reflexivity. Qed.

Lemma set_channel_events : forall c i ch, events (set_channel c i ch) = events c.
Proof. intros c [] ch; reflexivity. Qed.
Lemma set_channel_et : forall c i ch, event_ticks (set_channel c i ch) = event_ticks c.
Proof. intros c [] ch; reflexivity. Qed.
Lemma set_channel_config : forall c i ch, config (set_channel c i ch) = config c.
Proof. intros c [] ch; reflexivity. Qed.
Lemma set_channel_cw : forall c i ch, curve_weight (set_channel c i ch) = curve_weight c.
Proof. intros c [] ch; reflexivity. Qed.
Lemma channel_set_eq : forall c i ch, channel (set_channel c i ch) i = ch.
Proof. intros c [] ch; reflexivity. Qed.
Lemma channel_set_neq : forall c i j ch, j <> i -> channel (set_channel c i ch) j = channel c j.
Proof. intros c [] [] ch H; congruence || reflexivity. Qed.

Lemma axis_dec : forall i j : axis, {i = j} + {i <> j}.
Proof. decide equality. Qed.

Lemma clocked_set : forall c i ch, clocked c -> 0 <= c_ticks ch ->
  c_ticks ch - event_ticks c <= u32_max -> clocked (set_channel c i ch).
Proof.
  intros c i ch [H1 H2 H3] Hc Hd. constructor.
  - rewrite set_channel_events, set_channel_et. exact H1.
  - rewrite set_channel_events. exact H2.
  - intros j. unfold ticks_of. rewrite set_channel_et. destruct (axis_dec j i) as [->|Hne].
    + rewrite channel_set_eq. auto.
    + rewrite channel_set_neq by auto. apply H3.
Qed.

(** ** Emission *)

Lemma push_event_inv : forall c t cmd c', clocked c -> t - event_ticks c <= u32_max ->
  push_event c t cmd = Ok c' ->
  event_ticks c <= t /\ c' = set_events c (events c ++ [mk_event (t - event_ticks c) cmd]) t.
Proof.
  intros c t cmd c' Hc Ht H. unfold push_event in H. apply bind_Ok in H. destruct H as (d & E & H).
  apply chk_Ok in E. destruct E as [<- E]. injection H as <-. split; [lia|].
  unfold as_u32. rewrite wrap_u_id; [reflexivity|]. unfold u32_max in Ht. lia.
Qed.

Lemma push_event_clocked : forall c t cmd, clocked c -> t - event_ticks c <= u32_max ->
  event_ticks c <= t ->
  clocked (set_events c (events c ++ [mk_event (t - event_ticks c) cmd]) t).
Proof.
  intros c t cmd [H1 H2 H3] Ht Hle. constructor.
  - cbn [set_events events event_ticks]. rewrite total_app. cbn [total e_ticks]. lia.
  - cbn [set_events events]. apply Forall_app. split; [exact H2|]. constructor; [cbn [e_ticks]; lia|constructor].
  - intros i. specialize (H3 i). unfold ticks_of in *. destruct i; cbn in *; lia.
Qed.

Lemma push_acc : forall c i a c1, clocked c ->
  push_event c (ticks_of c i) (Acc (axis_index i) a) = Ok c1 ->
  clocked c1 /\ (forall j, channel c1 j = channel c j) /\ config c1 = config c /\
  curve_weight c1 = curve_weight c /\
  event_ticks c <= event_ticks c1 /\ event_ticks c1 = ticks_of c i /\
  (forall j t, j <> i -> 0 <= t -> motion j (events c1) t = motion j (events c) t) /\
  (forall n, 0 <= n -> motion i (events c1) (ticks_of c i + n) =
     (fst (c_move c i) + 2 * snd (c_move c i) * n + a * n * n, snd (c_move c i) + a * n)) /\
  (forall t w, play_weight (events c1) t w = play_weight (events c) t w).
Proof.
  intros c i a c1 Hc H. pose proof (ck_ticks c Hc i) as Ht.
  pose proof (clocked_nonneg c Hc) as Hn. pose proof (clocked_et c Hc) as He.
  apply push_event_inv in H; [|auto|lia]. destruct H as [Hle ->].
  split; [apply push_event_clocked; auto; lia|].
  split; [intros []; reflexivity|]. split; [reflexivity|]. split; [reflexivity|].
  cbn [set_events events event_ticks].
  split; [exact Hle|]. split; [reflexivity|]. split; [|split].
  - intros j t Hj Hp. apply motion_other; cbn [e_ticks e_cmd]; auto; [lia|].
    intros s. cbn [apply_axis]. destruct i, j; cbn; congruence || reflexivity.
  - intros n Hp. unfold c_move.
    pose proof (motion_acc i (events c) (mk_event (ticks_of c i - event_ticks c) (Acc (axis_index i) a)) a n Hn
      ltac:(cbn [e_ticks]; lia) Hp eq_refl) as M. cbv zeta in M. cbn [e_ticks] in M.
    rewrite (ck_total c Hc) in M. replace (event_ticks c + (ticks_of c i - event_ticks c)) with (ticks_of c i) in M by lia.
    exact M.
  - intros t w. rewrite play_weight_snoc by (cbn [e_ticks]; auto; lia). cbn [e_cmd].
    destruct (total (events c) + _ <=? t); reflexivity.
Qed.

Lemma push_weight : forall c t w c1, clocked c -> t - event_ticks c <= u32_max ->
  push_event c t (Weight w) = Ok c1 ->
  clocked c1 /\ (forall j, channel c1 j = channel c j) /\ config c1 = config c /\
  curve_weight c1 = curve_weight c /\
  event_ticks c <= t /\ event_ticks c1 = t /\
  (forall j u, 0 <= u -> motion j (events c1) u = motion j (events c) u) /\
  (forall u w0, play_weight (events c1) u w0 = if t <=? u then w else play_weight (events c) u w0).
Proof.
  intros c t w c1 Hc Ht H.
  pose proof (clocked_nonneg c Hc) as Hn. pose proof (clocked_et c Hc) as He.
  apply push_event_inv in H; [|auto|lia]. destruct H as [Hle ->].
  split; [apply push_event_clocked; auto; lia|].
  split; [intros []; reflexivity|]. split; [reflexivity|]. split; [reflexivity|].
  cbn [set_events events event_ticks].
  split; [exact Hle|]. split; [reflexivity|]. split.
  - intros j u Hu. apply motion_other; cbn [e_ticks e_cmd]; auto; lia.
  - intros u w0. rewrite play_weight_snoc by (cbn [e_ticks]; auto; lia). cbn [e_cmd e_ticks].
    rewrite (ck_total c Hc). replace (event_ticks c + (t - event_ticks c)) with t by lia. reflexivity.
Qed.

(** ** Single channel steps *)

(** What an operation may change. *)
Record step (c c' : ctx) : Prop := {
  st_clocked : clocked c';
  st_config : config c' = config c;
  st_et : event_ticks c <= event_ticks c';
  st_ticks : forall i, ticks_of c i <= ticks_of c' i
}.

Lemma step_trans : forall a b c, step a b -> step b c -> step a c.
Proof.
  intros a b c [A1 A2 A3 A4] [B1 B2 B3 B4]. constructor; auto.
  - congruence.
  - lia.
  - intros i. specialize (A4 i). specialize (B4 i). lia.
Qed.

Lemma step_refl : forall c, clocked c -> step c c.
Proof. intros c H. constructor; auto; intros; lia. Qed.

(** A channel gets [accs] appended to its motion, without its reported state. *)
Lemma emit_seg_spec : forall c i s c', clocked c -> seg_typed s -> emit_seg c i s = Ok c' ->
  step c c' /\ curve_weight c' = curve_weight c /\
  ticks_of c' i = ticks_of c i + fst s /\
  (forall j, j <> i -> ticks_of c' j = ticks_of c j) /\
  (forall j, c_state c' j = c_state c j) /\
  (forall j, j <> i -> c_move c' j = c_move c j) /\
  c_move c' i = (fst (c_move c i) + travel (snd (c_move c i)) (repeat (snd s) (Z.to_nat (fst s))),
                 final_speed (snd (c_move c i)) (repeat (snd s) (Z.to_nat (fst s)))) /\
  event_ticks c' = ticks_of c i /\
  (forall t w, play_weight (events c') t w = play_weight (events c) t w).
Proof.
  intros c i [n a] c' Hc [Hn Ha] H. cbn [fst snd] in *. unfold emit_seg in H. cbn [fst snd] in H.
  apply bind_Ok in H. destruct H as (u & Ea & H). apply bind_Ok in H. destruct H as (c1 & Ep & H).
  apply bind_Ok in H. destruct H as (t & Et & H). injection H as <-.
  apply assert_Ok in Ea. apply chk_Ok in Et. destruct Et as [<- Et].
  pose proof (ck_ticks c Hc i) as Ht.
  apply (push_acc c i a c1) in Ep; [|auto].
  destruct Ep as (K1 & K2 & K3 & K4 & K5 & K6 & K7 & K8 & K9).
  fold (ticks_of c i) in *.
  split; [constructor|].
  - apply clocked_set; auto; cbn [c_ticks]; [lia|]. unfold u16_max, u32_max in *. lia.
  - rewrite set_channel_config. exact K3.
  - rewrite set_channel_et. exact K5.
  - intros j. unfold ticks_of. destruct (axis_dec j i) as [->|Hne].
    + rewrite channel_set_eq. cbn [c_ticks]. unfold ticks_of. lia.
    + rewrite channel_set_neq by auto. rewrite K2. lia.
  - split; [rewrite set_channel_cw; exact K4|].
    assert (T1 : ticks_of (set_channel c1 i (mk_chan (c_pos (channel c i)) (c_v (channel c i)) (ticks_of c i + n))) i
      = ticks_of c i + n).
    { unfold ticks_of at 1. rewrite channel_set_eq. reflexivity. }
    assert (T2 : forall j, j <> i -> ticks_of (set_channel c1 i (mk_chan (c_pos (channel c i)) (c_v (channel c i)) (ticks_of c i + n))) j
      = ticks_of c j).
    { intros j Hj. unfold ticks_of. rewrite channel_set_neq, K2 by auto. reflexivity. }
    split; [exact T1|]. split; [exact T2|]. split; [|split; [|split; [|split]]].
    + intros j. unfold c_state. destruct (axis_dec j i) as [->|Hne].
      * rewrite channel_set_eq. reflexivity.
      * rewrite channel_set_neq, K2 by auto. reflexivity.
    + intros j Hj. unfold c_move. rewrite T2, set_channel_events by auto. apply K7; auto. apply (ck_ticks c Hc j).
    + unfold c_move at 1. rewrite T1, set_channel_events, K8 by lia.
      rewrite travel_repeat, final_speed_repeat, Z2Nat.id by lia. f_equal; ring.
    + rewrite set_channel_et. exact K6.
    + intros t w. rewrite set_channel_events. apply K9.
Qed.

Definition pick (i : axis) (px py : list seg) : list seg := match i with AX => px | AY => py end.

Lemma next_channel_none : forall c px py, next_channel c px py = None ->
  (forall i, ticks_of c i < u64_max) -> px = [] /\ py = [].
Proof.
  intros c px py H Ht. pose proof (Ht AX). pose proof (Ht AY). unfold next_channel in H.
  destruct (Z.ltb_spec (ticks_of c AX) u64_max); [|lia]. 
  destruct px as [|s px]; cbn [andb] in H.
  - destruct (Z.ltb_spec (ticks_of c AY) u64_max); [|lia].
    destruct py; [auto|discriminate].
  - destruct (ticks_of c AY <? ticks_of c AX); destruct py; cbn in H; discriminate.
Qed.

Lemma next_channel_some : forall c px py i, next_channel c px py = Some i ->
  pick i px py <> [] /\ forall j, pick j px py <> [] -> ticks_of c j < u64_max -> ticks_of c i <= ticks_of c j.
Proof.
  intros c px py i H. unfold next_channel in H.
  destruct (Z.ltb_spec (ticks_of c AX) u64_max), px as [|s px], py as [|s' py]; cbn [andb] in H;
    repeat match type of H with context [?a <? ?b] => destruct (Z.ltb_spec a b) end; cbn in H;
    try discriminate; injection H as <-; (split; [cbn; discriminate|]);
    intros [] Hj Hl; cbn in Hj; try congruence; lia.
Qed.

Lemma segs_loop_spec : forall fuel c px py c', clocked c ->
  Forall seg_typed px -> Forall seg_typed py -> segs_loop fuel c px py = Ok c' ->
  step c c' /\ curve_weight c' = curve_weight c /\
  (forall i, c_state c' i = c_state c i) /\
  (forall t w, play_weight (events c') t w = play_weight (events c) t w) /\
  ((forall i, ticks_of c' i < u64_max) -> forall i,
     ticks_of c' i = ticks_of c i + Z.of_nat (length (expand (pick i px py))) /\
     c_move c' i = (fst (c_move c i) + travel (snd (c_move c i)) (expand (pick i px py)),
                    final_speed (snd (c_move c i)) (expand (pick i px py)))).
Proof.
  induction fuel as [|fuel IH]; intros c px py c' Hc Tx Ty H; cbn [segs_loop] in H;
    destruct (next_channel c px py) as [i|] eqn:En; try discriminate.
  1, 3: injection H as <-; split; [apply step_refl; auto|]; split; [reflexivity|]; split; [reflexivity|];
    split; [reflexivity|]; intros Ht i; destruct (next_channel_none c px py En Ht) as [-> ->];
    destruct i; cbn [pick expand length travel final_speed]; (split; [lia|]);
    rewrite Z.add_0_r; apply surjective_pairing.
  destruct (next_channel_some c px py i En) as [Hp _].
  destruct i; cbn [pick] in Hp.
  - destruct px as [|s px']; [congruence|]. inversion Tx; subst.
    apply bind_Ok in H. destruct H as (c1 & E1 & H).
    destruct (emit_seg_spec c AX s c1) as (S1 & W1 & T1 & T2 & P1 & M2 & M1 & ET & PW); auto.
    destruct (IH c1 px' py c') as (S2 & W2 & P2 & PW2 & M); auto; [apply S1|].
    split; [eapply step_trans; eauto|]. split; [congruence|]. split; [intros; rewrite P2; auto|].
    split; [intros; rewrite PW2; auto|].
    intros Ht i. destruct (M Ht i) as [MA MB]. destruct i; cbn [pick] in *.
    + destruct s as [n a]. cbn [fst snd expand] in *. rewrite MA, T1, MB, M1. cbn [fst snd].
      rewrite travel_app, final_speed_app, app_length, repeat_length.
      assert (0 <= n) by (match goal with K : seg_typed (n, a) |- _ => destruct K; cbn [fst] in *; lia end).
      split; [lia|]. f_equal. lia.
    + rewrite MA, MB, T2, M2 by discriminate. auto.
  - destruct py as [|s py']; [congruence|]. inversion Ty; subst.
    assert (H' : (let! c0 := emit_seg c AY s in segs_loop fuel c0 px py') = Ok c') by (destruct px; exact H).
    clear H. rename H' into H.
    apply bind_Ok in H. destruct H as (c1 & E1 & H).
    destruct (emit_seg_spec c AY s c1) as (S1 & W1 & T1 & T2 & P1 & M2 & M1 & ET & PW); auto.
    destruct (IH c1 px py' c') as (S2 & W2 & P2 & PW2 & M); auto; [apply S1|].
    split; [eapply step_trans; eauto|]. split; [congruence|]. split; [intros; rewrite P2; auto|].
    split; [intros; rewrite PW2; auto|].
    intros Ht i. destruct (M Ht i) as [MA MB]. destruct i; cbn [pick] in *.
    + rewrite MA, MB, T2, M2 by discriminate. auto.
    + destruct s as [n a]. cbn [fst snd expand] in *. rewrite MA, T1, MB, M1. cbn [fst snd].
      rewrite travel_app, final_speed_app, app_length, repeat_length.
      assert (0 <= n) by (match goal with K : seg_typed (n, a) |- _ => destruct K; cbn [fst] in *; lia end).
      split; [lia|]. f_equal. lia.
Qed.
