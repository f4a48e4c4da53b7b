(** speed(), whole histories, and when operations succeed. *)
From Coq Require Import ZArith List Bool Lia.
From Coq Require Import ZifyBool ZifyNat.
From Verif Require Import Base AccVector MotionSpec AccVectorProofs IntegerCurve AccSeqProofs
  StepperContext MachineSpec MachineProofs ContextProofs ContextOps.
Import ListNotations.
Open Scope Z_scope.

Lemma Ok_pair : forall A B (a a' : A) (b b' : B), Ok (a, b) = Ok (a', b') -> a = a' /\ b = b'.
Proof. intros A B a a' b b' H. injection H. auto. Qed.

(** ** speed *)

Lemma speed_arith : forall A d, 1 <= A -> Z.abs d <= 65535 * A + (A - 1) ->
  let t := Z.quot d A in let r := Z.rem d A in
  d = A * t + r /\ Z.abs t <= 65535 /\ Z.abs r < A /\
  (0 <= d -> 0 <= t /\ 0 <= r) /\ (d < 0 -> t <= 0 /\ r <= 0).
Proof.
  intros A d HA Hd t r. pose proof (Z.quot_rem' d A) as E. fold t r in E.
  assert (R : Z.abs r < A) by (pose proof (Z.rem_bound_abs d A ltac:(lia)) as B; fold r in B; lia).
  assert (S1 : 0 <= d -> 0 <= r) by (intros; apply Z.rem_nonneg; lia).
  assert (S2 : d < 0 -> r <= 0) by (intros; apply Z.rem_nonpos; lia).
  clearbody t r. split; [exact E|].
  assert (T1 : 0 <= d -> 0 <= t).
  { intros Hp. specialize (S1 Hp). destruct (Z_le_gt_dec 0 t); auto. exfalso. nia. }
  assert (T2 : d < 0 -> t <= 0).
  { intros Hp. specialize (S2 Hp). destruct (Z_le_gt_dec t 0); auto. exfalso. nia. }
  split; [|split; [exact R|split; auto]].
  destruct (Z_le_gt_dec 0 d) as [Hp|Hp].
  - specialize (S1 Hp). specialize (T1 Hp). destruct (Z_le_gt_dec (Z.abs t) 65535); auto. exfalso. nia.
  - specialize (S2 ltac:(lia)). specialize (T2 ltac:(lia)).
    destruct (Z_le_gt_dec (Z.abs t) 65535); auto. exfalso. nia.
Qed.

Lemma speed_one_spec : forall c i v c' s,
  1 <= a_max c i <= 32767 -> Z.abs (v - c_v (channel c i)) < 65536 * a_max c i ->
  speed_one c i v = Ok (c', s) ->
  Forall seg_typed s /\
  config c' = config c /\ curve_weight c' = curve_weight c /\ events c' = events c /\
  event_ticks c' = event_ticks c /\
  (forall j, j <> i -> channel c' j = channel c j) /\
  (forall j, ticks_of c' j = ticks_of c j) /\
  c_v (channel c' i) = v /\
  c_pos (channel c' i) = c_pos (channel c i) + travel (c_v (channel c i)) (expand s) /\
  final_speed (c_v (channel c i)) (expand s) = v /\
  (forall x, In x (expand s) -> Z.abs x <= a_max c i) /\
  (forall x, In x (expand s) -> (c_v (channel c i) <= v -> 0 <= x) /\ (v <= c_v (channel c i) -> x <= 0)).
Proof.
  intros c i v c' s HA Hd H. unfold speed_one in H.
  apply bind_Ok in H. destruct H as (dv & E1 & H). apply chk_Ok in E1. destruct E1 as [<- E1].
  set (cv := c_v (channel c i)) in *. set (A := a_max c i) in *.
  unfold div_rem_i32 in H. apply bind_Ok in H. destruct H as ([t r] & E2 & H).
  apply bind_Ok in E2. destruct E2 as (u & E2 & E3). apply bind_Ok in E3. destruct E3 as (q & E3 & E4).
  injection E4 as -> <-. apply chk_Ok in E3. destruct E3 as [<- E3].
  apply bind_Ok in H. destruct H as (a & E5 & H).
  destruct (speed_arith A (v - cv) ltac:(lia) ltac:(lia)) as (D & Ht & Hr & Sp & Sn).
  set (t := Z.quot (v - cv) A) in *. set (r := Z.rem (v - cv) A) in *. clearbody t r.
  assert (Ea : a = if v >=? cv then A else - A).
  { destruct (v >=? cv); [congruence|]. apply chk_Ok in E5. destruct E5; auto. }
  assert (Au : as_u16 (Z.abs t) = Z.abs t) by (apply wrap_u_id; lia).
  assert (Aa : as_i16 a = a) by (apply wrap_s_id; [lia|]; rewrite Ea; destruct (v >=? cv); lia).
  assert (Ar : as_i16 r = r) by (apply wrap_s_id; lia).
  rewrite Au, Aa, Ar in H. clear Au Aa Ar E5.
  inv_bind H.
  repeat match goal with E : chk_i32 _ = Ok _ |- _ => apply chk_Ok in E; destruct E as [<- E]
                       | E : chk_i64 _ = Ok _ |- _ => apply chk_Ok in E; destruct E as [<- E] end.
  assert (AT : A * t = a * Z.abs t).
  { rewrite Ea. destruct (Z.geb_spec v cv); [destruct Sp; [lia|]|destruct Sn; [lia|]]; nia. }
  assert (P1 : (2 * cv + A * t) * Z.abs t = travel cv (repeat a (Z.to_nat (Z.abs t)))).
  { rewrite travel_repeat, Z2Nat.id, AT by lia. ring. }
  assert (F1 : cv + A * t = final_speed cv (repeat a (Z.to_nat (Z.abs t)))).
  { rewrite final_speed_repeat, Z2Nat.id by lia. lia. }
  assert (Bd : forall x, In x (repeat a (Z.to_nat (Z.abs t))) -> Z.abs x <= A).
  { intros x Hx. apply repeat_spec in Hx. subst x. rewrite Ea. destruct (v >=? cv); lia. }
  assert (Sg : forall x, In x (repeat a (Z.to_nat (Z.abs t))) -> (cv <= v -> 0 <= x) /\ (v <= cv -> x <= 0)).
  { intros x Hx. assert (t <> 0) by (intros ->; destruct Hx). apply repeat_spec in Hx. subst x.
    rewrite Ea. destruct (Z.geb_spec v cv); [|split; lia]. split; [lia|].
    intros Hle. exfalso. assert (v = cv) by lia. subst v. rewrite Z.sub_diag in *. nia. }
  assert (Ty : seg_typed (Z.abs t, a)).
  { split; cbn [fst snd]; unfold u16_max, i16_min, i16_max; [lia|]. rewrite Ea. destruct (v >=? cv); lia. }
  destruct (Z.eqb_spec r 0) as [Z0|Hr0]; cbn [negb] in H.
  - injection H as <- <-.
    split; [constructor; auto|].
    split; [apply set_channel_config|]. split; [apply set_channel_cw|]. split; [apply set_channel_events|].
    split; [apply set_channel_et|]. split; [intros; apply channel_set_neq; auto|].
    split.
    { intros j. unfold ticks_of. destruct (axis_dec j i) as [->|Hne];
        [rewrite channel_set_eq|rewrite channel_set_neq by auto]; reflexivity. }
    rewrite channel_set_eq. cbn [c_v c_pos expand]. rewrite app_nil_r.
    split; [reflexivity|]. split; [rewrite <- P1; reflexivity|]. split; [rewrite <- F1; clear - D Z0; lia|]. split; [exact Bd|exact Sg].
  - inv_bind H.
    repeat match goal with E : chk_i32 _ = Ok _ |- _ => apply chk_Ok in E; destruct E as [<- E]
                         | E : chk_i64 _ = Ok _ |- _ => apply chk_Ok in E; destruct E as [<- E] end.
    apply Ok_pair in H. destruct H as [<- <-].
    split; [constructor; [auto|constructor; [|constructor]]|].
    { split; cbn [fst snd]; unfold u16_max, i16_min, i16_max; lia. }
    split; [apply set_channel_config|]. split; [apply set_channel_cw|]. split; [apply set_channel_events|].
    split; [apply set_channel_et|]. split; [intros; apply channel_set_neq; auto|].
    split.
    { intros j. unfold ticks_of. destruct (axis_dec j i) as [->|Hne];
        [rewrite channel_set_eq|rewrite channel_set_neq by auto]; reflexivity. }
    rewrite channel_set_eq. cbn [c_v c_pos expand repeat app].
    change (Z.to_nat 1) with 1%nat. cbn [repeat app].
    rewrite travel_app, final_speed_app, <- F1. cbn [travel final_speed].
    split; [reflexivity|]. split; [rewrite <- P1; clear - D; lia|]. split; [clear - D; lia|]. split.
    + intros x Hx. apply in_app_or in Hx. destruct Hx as [Hx|[<-|[]]]; [auto|lia].
    + intros x Hx. apply in_app_or in Hx. destruct Hx as [Hx|[<-|[]]]; [auto|].
      split; intros; [destruct Sp; lia|]. destruct (Z.eqb_spec v cv); [|destruct Sn; lia].
      subst v. rewrite Z.sub_diag in *. destruct Sp; [lia|]. nia.
Qed.

Lemma step_speed_spec : forall c vx vy c', clocked c ->
  (forall i, 1 <= a_max c i <= 32767) ->
  (forall i, Z.abs ((match i with AX => vx | AY => vy end) - c_v (channel c i)) < 65536 * a_max c i) ->
  step_speed c vx vy = Ok c' ->
  exists sx sy,
  Forall seg_typed sx /\ Forall seg_typed sy /\
  step c c' /\ curve_weight c' = curve_weight c /\
  (forall i, c_state c' i = (c_pos (channel c i) + travel (c_v (channel c i)) (expand (pick i sx sy)),
                             match i with AX => vx | AY => vy end)) /\
  (forall i x, In x (expand (pick i sx sy)) -> Z.abs x <= a_max c i) /\
  (forall i, final_speed (c_v (channel c i)) (expand (pick i sx sy)) = match i with AX => vx | AY => vy end) /\
  ((forall i, ticks_of c' i < u64_max) -> forall i,
     ticks_of c' i = ticks_of c i + Z.of_nat (length (expand (pick i sx sy))) /\
     (c_move c i = c_state c i -> c_move c' i = c_state c' i)) /\
  (forall u w0, play_weight (events c') u w0 = play_weight (events c) u w0).
Proof.
  intros c vx vy c' Hc HA Hv H. unfold step_speed in H.
  apply bind_Ok in H. destruct H as ([c1 sx] & G1 & H). apply bind_Ok in H. destruct H as ([c2 sy] & G2 & H).
  destruct (speed_one_spec c AX vx c1 sx (HA AX) (Hv AX) G1) as (Tx & F1 & Cw1 & E1 & Et1 & N1 & Tk1 & V1 & P1 & Fs1 & B1 & _).
  assert (X : AX <> AY) by discriminate. assert (Y : AY <> AX) by discriminate.
  specialize (N1 _ Y).
  assert (AM : a_max c1 AY = a_max c AY).
  { unfold config in F1. injection F1 as f1 f2 f3 f4 f5. cbn; auto. }
  destruct (speed_one_spec c1 AY vy c2 sy) as (Ty & F2 & Cw2 & E2 & Et2 & N2 & Tk2 & V2 & P2 & Fs2 & B2 & _); auto.
  { rewrite AM. apply (HA AY). }
  { rewrite AM, N1. apply (Hv AY). }
  specialize (N2 _ X).
  assert (K2 : clocked c2).
  { apply (clocked_eq c); congruence || (intros i; rewrite Tk2, Tk1; reflexivity). }
  assert (TT : forall i, ticks_of c2 i = ticks_of c i) by (intros i; rewrite Tk2, Tk1; reflexivity).
  unfold acc_segs_to_events in H.
  destruct (segs_loop_spec _ c2 sx sy c' K2 Tx Ty H) as (S5 & W5 & P5 & Q5 & M5).
  exists sx, sy. split; [exact Tx|]. split; [exact Ty|]. split.
  { constructor.
    - apply S5.
    - rewrite (st_config _ _ S5), F2. exact F1.
    - pose proof (st_et _ _ S5). lia.
    - intros i. pose proof (st_ticks _ _ S5 i). rewrite TT in *. lia. }
  split; [congruence|].
  assert (FS : forall i, final_speed (c_v (channel c i)) (expand (pick i sx sy)) = match i with AX => vx | AY => vy end).
  { intros []; cbn [pick]; [exact Fs1|rewrite <- Fs2, N1; reflexivity]. }
  assert (ST : forall i, c_state c2 i = (c_pos (channel c i) + travel (c_v (channel c i)) (expand (pick i sx sy)),
                             match i with AX => vx | AY => vy end)).
  { intros []; unfold c_state; cbn [pick].
    - rewrite N2, V1, P1. reflexivity.
    - rewrite V2, P2, N1. reflexivity. }
  split; [intros i; rewrite P5; apply ST|]. split.
  { intros [] x Hx; cbn [pick] in Hx; [auto|]. rewrite <- AM. auto. }
  split; [exact FS|]. split.
  - intros Hmax i. destruct (M5 Hmax i) as [MA MB]. rewrite MA, TT. split; [reflexivity|].
    intros HM. rewrite MB, P5, ST.
    assert (CM : c_move c2 i = c_move c i).
    { unfold c_move. rewrite TT, E2, E1. reflexivity. }
    rewrite CM, HM. unfold c_state at 1 2 3. cbn [fst snd]. f_equal. apply FS.
  - intros u w0. rewrite Q5, E2, E1. reflexivity.
Qed.

(** ** Histories *)

(** Calls whose arguments are in the range where nothing wraps. *)
Definition op_ok (c : ctx) (o : op) : Prop :=
  match o with
  | AddAcc _ _ n => 0 <= n < 2 ^ 31
  | AddWeight _ t => t < event_ticks c + 2 ^ 32
  | Speed vx vy =>
      1 <= a_max_x c <= 32767 /\ 1 <= a_max_y c <= 32767 /\
      Z.abs (vx - c_v (chan_x c)) < 65536 * a_max_x c /\
      Z.abs (vy - c_v (chan_y c)) < 65536 * a_max_y c
  | _ => True
  end.

Definition typed_plan (plan : list path_limits -> res (list (list seg))) : Prop :=
  forall l ss, plan l = Ok ss -> Forall (Forall seg_typed) ss.

Inductive history (plan : list path_limits -> res (list (list seg))) : ctx -> list op -> ctx -> Prop :=
| hist_nil : forall c, history plan c [] c
| hist_cons : forall c o c1 ops c2, op_ok c o -> exec_op plan c o = Ok c1 ->
    history plan c1 ops c2 -> history plan c (o :: ops) c2.

Lemma history_exec : forall plan ops c c', history plan c ops c' -> exec plan c ops = Ok c'.
Proof.
  induction 1; cbn [exec]; [reflexivity|]. rewrite H0. cbn [bind]. exact IHhistory.
Qed.

Lemma history_app : forall plan ops1 c c1, history plan c ops1 c1 -> forall ops2 c2,
  history plan c1 ops2 c2 -> history plan c (ops1 ++ ops2) c2.
Proof. induction 1; intros ops2 c2' H2; cbn [app]; auto. econstructor; eauto. Qed.

Lemma clocked_new : forall ax ay vx vy, clocked (new_ctx ax ay vx vy).
Proof.
  intros. constructor; [reflexivity|constructor|]. intros []; cbn; unfold u32_max; lia.
Qed.

Lemma sound_new : forall ax ay vx vy, sound (new_ctx ax ay vx vy).
Proof. intros. split; [apply clocked_new|]. intros _ []; reflexivity. Qed.

Definition not_reset (o : op) : Prop := match o with Reset => False | _ => True end.

Lemma op_step : forall plan c o c', typed_plan plan -> clocked c -> op_ok c o -> not_reset o ->
  exec_op plan c o = Ok c' ->
  step c c' /\
  ((forall i, ticks_of c' i < u64_max) -> forall i, c_move c i = c_state c i -> c_move c' i = c_state c' i) /\
  keeps_weight c c'.
Proof.
  intros plan c o c' Hp Hc Ho Hr H. destruct o; cbn [exec_op op_ok not_reset] in *; try contradiction.
  - destruct (add_acc_interval_spec c acc_x acc_y interval c') as (S & _ & _ & _ & _ & M & _ & Q); auto.
    split; [auto|]. split; [intros _; auto|]. intros t w _. apply Q.
  - destruct (add_weight_spec c w when c') as (S & _ & _ & _ & M & _ & T & Q); auto; [unfold u32_max; lia|].
    split; [auto|]. split; [intros _ i; destruct (M i) as [-> ->]; auto|].
    intros t w0 Ht. rewrite Q. specialize (T AX). destruct (Z.leb_spec when t); [lia|reflexivity].
  - destruct (step_goto_speed_spec plan c x y vx vy c') as (sx & sy & rest & _ & _ & _ & S & _ & _ & _ & _ & M & Q); auto.
    split; [auto|]. split; [intros Hm i; apply (M Hm i)|].
    intros t w0 Ht. rewrite Q. destruct (Z.leb_spec (ticks_of c AX) t); [lia|reflexivity].
  - destruct (step_speed_spec c vx vy c') as (sx & sy & _ & _ & S & _ & _ & _ & _ & M & Q); auto.
    { intros []; cbn; tauto. }
    { intros []; cbn; tauto. }
    split; [auto|]. split; [intros Hm i; apply (M Hm i)|].
    intros t w0 Ht. apply Q.
  - injection H as <-.
    assert (K : clocked (set_weight c w)).
    { apply (clocked_eq c); auto; intros []; reflexivity. }
    split; [constructor; auto; [apply Z.le_refl|intros []; apply Z.le_refl]|].
    split; [intros _ [] E; exact E|]. intros t w0 _. reflexivity.
  - destruct (flush_spec c c') as (S & _ & _ & M & _ & _ & Q); auto.
    split; [auto|]. split; [intros _ i; destruct (M i) as [-> ->]; auto|].
    intros t w0 Ht. rewrite Q. destruct (Z.leb_spec (ticks_of c AX) t); [lia|reflexivity].
Qed.

Lemma op_sound : forall plan c o c', typed_plan plan -> sound c -> op_ok c o ->
  exec_op plan c o = Ok c' -> sound c'.
Proof.
  intros plan c o c' Hp [Hc Hm] Ho H.
  assert (D : not_reset o \/ o = Reset) by (destruct o; cbn; auto).
  destruct D as [D| ->].
  - destruct (op_step plan c o c') as (S & M & _); auto. split; [apply S|].
    intros Hl i. apply M; auto. apply Hm. intros j. pose proof (st_ticks _ _ S j). specialize (Hl j). lia.
  - cbn [exec_op] in H. injection H as <-. split.
    + constructor; [reflexivity|constructor|]. intros []; cbn; unfold u32_max; lia.
    + intros _ []; reflexivity.
Qed.

Lemma history_sound : forall plan c ops c', typed_plan plan -> history plan c ops c' ->
  sound c -> sound c'.
Proof. intros plan c ops c' Hp H. induction H; auto. intros Hs. apply IHhistory. eapply op_sound; eauto. Qed.

Lemma history_step : forall plan c ops c', typed_plan plan -> history plan c ops c' ->
  Forall not_reset ops -> clocked c -> step c c' /\ keeps_weight c c'.
Proof.
  intros plan c ops c' Hp H. induction H as [c|c o c1 ops c2 Ho He H IH]; intros Hr Hc.
  - split; [apply step_refl; auto|]. intros t w _. reflexivity.
  - inversion Hr; subst. destruct (op_step plan c o c1) as (S & _ & W); auto.
    destruct IH as [S2 W2]; auto; [apply S|]. split; [eapply step_trans; eauto|].
    intros t w Ht. rewrite W2, W; auto. pose proof (st_ticks _ _ S AX). lia.
Qed.

(** The planner of the code only returns segments that fit their types. *)
Lemma push_conv_typed : forall s t x s', push_conv s t x = Ok s' -> Forall seg_typed s -> Forall seg_typed s'.
Proof. intros s t x s' H Hs. apply push_conv_inv in H; tauto. Qed.

Lemma acc_seq_typed : forall p s, acc_seq p = Ok s -> Forall seg_typed s.
Proof.
  intros p s H. unfold acc_seq in H. destruct (p_t_total p <=? 1).
  - destruct (p_t_total p =? 0); inv_bind H.
    + injection H as <-. constructor.
    + eapply push_conv_typed; eauto.
  - apply bind_Ok in H. destruct H as ([[vs ve] ts] & _ & H).
    apply bind_Ok in H. destruct H as ([t1 d1] & _ & H).
    apply bind_Ok in H. destruct H as ([t4 d4] & _ & H).
    apply bind_Ok in H. destruct H as (u & _ & H).
    apply bind_Ok in H. destruct H as (s1 & H1 & H).
    apply bind_Ok in H. destruct H as (u2 & _ & H).
    apply bind_Ok in H. destruct H as (s2 & H2 & H).
    assert (T1 : Forall seg_typed s1).
    { destruct (d1 =? 0); [eapply push_conv_typed; eauto|]. inv_bind H1.
      eapply push_conv_typed; [exact H1|]. eapply push_conv_typed; eauto. }
    assert (T2 : Forall seg_typed s2).
    { destruct (ts ?= 0); inv_bind H2; repeat (eapply push_conv_typed; [eassumption|]); auto. }
    destruct (d4 =? 0); inv_bind H; repeat (eapply push_conv_typed; [eassumption|]); auto.
Qed.

Lemma seqs_for_typed : forall t limits ss, seqs_for t limits = Ok ss -> Forall (Forall seg_typed) ss.
Proof.
  intros t. induction limits as [|l r IH]; intros ss H; cbn [seqs_for] in H.
  - injection H as <-. constructor.
  - inv_bind H. injection H as <-. constructor; [eapply acc_seq_typed; eauto|auto].
Qed.

Lemma planner_typed : typed_plan shortest_curve_sequences.
Proof.
  intros l ss H. unfold shortest_curve_sequences in H.
  apply bind_Ok in H. destruct H as (r & _ & H). apply bind_Ok in H. destruct H as (r2 & _ & H).
  apply bind_Ok in H. destruct H as ([t h] & _ & H). eapply seqs_for_typed; eauto.
Qed.
