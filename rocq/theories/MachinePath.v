(** What the emitted stream makes a channel do at every tick, not only at the
    end of an operation. *)
From Coq Require Import ZArith List Bool Lia.
From Coq Require Import ZifyBool ZifyNat.
From Verif Require Import Base AccVector MotionSpec AccVectorProofs IntegerCurve StepperContext
  MachineSpec MachineProofs AccSeqProofs PlanProofs ContextProofs ContextOps ContextHist ContextGoto.
Import ListNotations.
Open Scope Z_scope.

Lemma push_other : forall c t cmd c1 i, clocked c -> t - event_ticks c <= u32_max ->
  (forall s, apply_axis i cmd s = s) ->
  push_event c t cmd = Ok c1 -> forall u s, 0 <= u ->
  play_axis i (events c1) u s = play_axis i (events c) u s.
Proof.
  intros c t cmd c1 i Hc Ht Ha H u s Hu.
  pose proof (push_event_inv c t cmd c1 Hc Ht H) as [Hle _].
  rewrite (push_play_axis c t cmd c1 Hc Ht H) by auto.
  destruct (Z.leb_spec t u); [|reflexivity].
  rewrite Ha, <- play_axis_late.
  - f_equal. lia.
  - apply clocked_nonneg; auto.
  - rewrite (ck_total c Hc). lia.
  - lia.
Qed.

Definition same_move (a b : axis_state) : Prop := s_pos a = s_pos b /\ s_v a = s_v b.

(** Channel [i] of [c'] does what [c] does and then one tick of each of [accs]. *)
Record follows (c c' : ctx) (i : axis) (accs : list Z) : Prop := {
  fo_ticks : ticks_of c' i = ticks_of c i + Z.of_nat (length accs);
  fo_before : forall t s, 0 <= t < ticks_of c i -> play_axis i (events c') t s = play_axis i (events c) t s;
  fo_during : forall k s, (k < length accs)%nat ->
    let p := play_axis i (events c) (ticks_of c i) s in
    play_axis i (events c') (ticks_of c i + Z.of_nat k) s =
    mk_axis (s_pos p + travel (s_v p) (firstn k accs)) (final_speed (s_v p) (firstn k accs)) (nth k accs 0);
  fo_end : forall s,
    let p := play_axis i (events c) (ticks_of c i) s in
    let q := play_axis i (events c') (ticks_of c' i) s in
    s_pos q = s_pos p + travel (s_v p) accs /\ s_v q = final_speed (s_v p) accs
}.

Lemma follows_same : forall c c' i, ticks_of c' i = ticks_of c i ->
  (forall u s, 0 <= u -> play_axis i (events c') u s = play_axis i (events c) u s) ->
  0 <= ticks_of c i -> follows c c' i [].
Proof.
  intros c c' i Ht Hp H0. constructor.
  - cbn [length]. lia.
  - intros t s Hr. apply Hp. lia.
  - intros k s Hk. cbn [length] in Hk. lia.
  - intros s p q. cbn [travel final_speed]. subst p q. rewrite Ht, Hp by lia. lia.
Qed.

Lemma follows_app : forall c c1 c2 i a b, 0 <= ticks_of c i ->
  follows c c1 i a -> follows c1 c2 i b -> follows c c2 i (a ++ b).
Proof.
  intros c c1 c2 i a b H0 [A1 A2 A3 A4] [B1 B2 B3 B4]. cbv zeta in *. constructor.
  - rewrite app_length, B1, A1. lia.
  - intros t s Ht. rewrite B2 by lia. apply A2. lia.
  - intros k s Hk. cbv zeta. rewrite app_length in Hk.
    destruct (Nat.ltb_spec k (length a)).
    + rewrite B2 by lia. rewrite A3 by lia.
      rewrite firstn_app, app_nth1 by lia. replace (k - length a)%nat with 0%nat by lia.
      cbn [firstn]. rewrite app_nil_r. reflexivity.
    + specialize (B3 (k - length a)%nat s ltac:(lia)).
      replace (ticks_of c1 i + Z.of_nat (k - length a)) with (ticks_of c i + Z.of_nat k) in B3 by lia.
      rewrite B3. destruct (A4 s) as [-> ->].
      rewrite firstn_app, (firstn_all2 a) by lia. rewrite travel_app, final_speed_app, app_nth2 by lia.
      f_equal. lia.
  - intros s. cbv zeta. destruct (B4 s) as [-> ->]. destruct (A4 s) as [-> ->].
    rewrite travel_app, final_speed_app. lia.
Qed.

Lemma firstn_repeat : forall {A} (x : A) k n, (k <= n)%nat -> firstn k (repeat x n) = repeat x k.
Proof.
  intros A x. induction k as [|k IH]; intros n Hk; [reflexivity|].
  destruct n as [|n]; [lia|]. cbn [repeat firstn]. rewrite IH by lia. reflexivity.
Qed.

Lemma nth_repeat_lt : forall (x : Z) k n d, (k < n)%nat -> nth k (repeat x n) d = x.
Proof.
  intros x. induction k as [|k IH]; intros [|n] d Hk; try lia; cbn [repeat nth]; [reflexivity|]. apply IH. lia.
Qed.

Lemma follows_push : forall c c1 c' i a n, clocked c -> 0 <= n ->
  push_event c (ticks_of c i) (Acc (axis_index i) a) = Ok c1 ->
  events c' = events c1 -> ticks_of c' i = ticks_of c i + n ->
  follows c c' i (repeat a (Z.to_nat n)).
Proof.
  intros c c1 c' i a n Hc Hn H He Ht. pose proof (ck_ticks c Hc i) as Hti.
  assert (P : forall k s, 0 <= k -> play_axis i (events c') (ticks_of c i + k) s =
     adv k (mk_axis (s_pos (play_axis i (events c) (ticks_of c i) s)) (s_v (play_axis i (events c) (ticks_of c i) s)) a)).
  { intros k s Hk. rewrite He, (push_play_axis c (ticks_of c i) _ c1 Hc ltac:(lia) H) by lia.
    destruct (Z.leb_spec (ticks_of c i) (ticks_of c i + k)); [|lia].
    cbn [apply_axis]. rewrite Z.eqb_refl. f_equal. lia. }
  constructor.
  - rewrite repeat_length. lia.
  - intros t s Hr. rewrite He, (push_play_axis c (ticks_of c i) _ c1 Hc ltac:(lia) H) by lia.
    destruct (Z.leb_spec (ticks_of c i) t); [lia|reflexivity].
  - intros k s Hk p. rewrite repeat_length in Hk. rewrite P by lia. fold p.
    rewrite firstn_repeat, nth_repeat_lt, travel_repeat, final_speed_repeat by lia.
    apply axis_eq; cbn [adv s_pos s_v s_acc]; ring.
  - intros s p q. subst q. rewrite Ht, P by lia. fold p.
    rewrite travel_repeat, final_speed_repeat, Z2Nat.id by lia. cbn [adv s_pos s_v s_acc]. split; ring.
Qed.

Lemma acc_other : forall i j a s, j <> i -> apply_axis j (Acc (axis_index i) a) s = s.
Proof. intros i j a s H. cbn [apply_axis]. destruct i, j; cbn; congruence || reflexivity. Qed.

Lemma emit_seg_follows : forall c i s c', clocked c -> seg_typed s -> emit_seg c i s = Ok c' ->
  forall j, follows c c' j (match axis_dec j i with
                            | left _ => repeat (snd s) (Z.to_nat (fst s)) | right _ => [] end).
Proof.
  intros c i s c' Hc Hs H j. pose proof (ck_ticks c Hc i) as Hti. pose proof (ck_ticks c Hc j) as Htj.
  destruct (emit_seg_spec c i s c' Hc Hs H) as (S1 & W1 & T1 & T2 & _).
  unfold emit_seg in H. inv_bind H. injection H as <-.
  destruct (axis_dec j i) as [->|Hne].
  - apply (follows_push c a0); auto; [apply Hs|apply set_channel_events].
  - apply follows_same; [auto| |lia]. intros u st Hu. rewrite set_channel_events.
    apply (push_other c (ticks_of c i) (Acc (axis_index i) (snd s)) a0 j); auto; [lia|].
    intros st'. apply acc_other, Hne.
Qed.

Lemma segs_loop_follows : forall fuel c px py c', clocked c ->
  Forall seg_typed px -> Forall seg_typed py -> segs_loop fuel c px py = Ok c' ->
  (forall i, ticks_of c' i < u64_max) -> forall i, follows c c' i (expand (pick i px py)).
Proof.
  induction fuel as [|fuel IH]; intros c px py c' Hc Tx Ty H Ht i; cbn [segs_loop] in H;
    destruct (next_channel c px py) as [j|] eqn:En; try discriminate.
  1, 3: injection H as <-; destruct (next_channel_none c px py En Ht) as [-> ->];
    destruct i; cbn [pick expand]; (apply follows_same; [reflexivity|reflexivity|apply (ck_ticks c Hc)]).
  destruct (next_channel_some c px py j En) as [Hp _].
  assert (X : exists s qx qy c1, emit_seg c j s = Ok c1 /\ segs_loop fuel c1 qx qy = Ok c' /\
    pick j px py = s :: pick j qx qy /\ (forall k, k <> j -> pick k px py = pick k qx qy) /\
    seg_typed s /\ Forall seg_typed qx /\ Forall seg_typed qy).
  { destruct j; cbn [pick] in *.
    - destruct px as [|s px']; [congruence|]. inv_bind H. inversion Tx; subst.
      exists s, px', py, a. repeat (split; [assumption||reflexivity|]).
      split; [intros []; congruence || reflexivity|auto].
    - destruct py as [|s py']; [congruence|]. inversion Ty; subst.
      destruct px as [|s' px']; inv_bind H.
      + exists s, [], py', a. repeat (split; [assumption||reflexivity|]).
        split; [intros []; congruence || reflexivity|auto].
      + exists s, (s' :: px'), py', a. repeat (split; [assumption||reflexivity|]).
        split; [intros []; congruence || reflexivity|auto]. }
  destruct X as (s & qx & qy & c1 & E1 & E2 & P1 & P2 & Ts & Qx & Qy).
  pose proof (emit_seg_follows c j s c1 Hc Ts E1 i) as F1.
  destruct (emit_seg_spec c j s c1 Hc Ts E1) as (S1 & _).
  pose proof (IH c1 qx qy c' (st_clocked _ _ S1) Qx Qy E2 Ht i) as F2.
  pose proof (follows_app c c1 c' i _ _ (proj1 (ck_ticks c Hc i)) F1 F2) as F.
  destruct (axis_dec i j) as [->|Hne].
  - rewrite P1. destruct s as [n a]. exact F.
  - rewrite P2 by auto. exact F.
Qed.

(** ** The operations *)

Lemma push_weight_follows : forall c t w c1, clocked c -> t - event_ticks c <= u32_max ->
  push_event c t (Weight w) = Ok c1 -> forall i, follows c c1 i [].
Proof.
  intros c t w c1 Hc Ht H i. pose proof (push_event_inv c t _ c1 Hc Ht H) as [_ E].
  apply follows_same; [rewrite E; destruct i; reflexivity| |apply (ck_ticks c Hc)].
  intros u s Hu. apply (push_other c t (Weight w) c1 i Hc Ht); auto.
Qed.

Lemma add_weight_follows : forall c w t c', clocked c -> t - event_ticks c <= u32_max ->
  add_weight_change c w t = Ok c' -> forall i, follows c c' i [].
Proof.
  intros c w t c' Hc Ht H i. unfold add_weight_change in H. inv_bind H.
  eapply push_weight_follows; eauto.
Qed.

Lemma add_acc_one_follows : forall c i a n c', clocked c -> 1 <= n <= u32_max ->
  add_acc_one c i a n = Ok c' ->
  clocked c' /\ forall j, follows c c' j (match axis_dec j i with
                            | left _ => repeat a (Z.to_nat n) | right _ => [] end).
Proof.
  intros c i a n c' Hc Hn H. unfold add_acc_one in H. inv_bind H. injection H as <-.
  pose proof (ck_ticks c Hc i) as Hti. fold (ticks_of c i) in *.
  destruct (push_acc c i a a0 Hc E) as (K1 & K2 & K3 & K4 & K5 & K6 & _).
  repeat match goal with K : chk_u64 _ = Ok _ |- _ => apply chk_Ok in K; destruct K as [<- K] end.
  split; [apply clocked_set; auto; cbn [c_ticks]; lia|].
  intros j. destruct (axis_dec j i) as [->|Hne].
  - apply (follows_push c a0); auto; [lia|apply set_channel_events|].
    unfold ticks_of at 1. rewrite channel_set_eq. reflexivity.
  - apply follows_same; [| |apply (ck_ticks c Hc)].
    + unfold ticks_of. rewrite channel_set_neq, K2 by auto. reflexivity.
    + intros u s Hu. rewrite set_channel_events.
      apply (push_other c (ticks_of c i) (Acc (axis_index i) a) a0 j); auto; [lia|].
      intros s'. apply acc_other, Hne.
Qed.

Lemma add_acc_follows : forall c ax ay n c', clocked c -> n <= u32_max ->
  add_acc_interval c ax ay n = Ok c' ->
  forall i, follows c c' i (repeat (match i with AX => ax | AY => ay end) (Z.to_nat n)).
Proof.
  intros c ax ay n c' Hc Hn H i. unfold add_acc_interval in H. inv_bind H. injection H as <-.
  match goal with K : assert (n >=? 1) = Ok _ |- _ => apply assert_Ok in K end.
  match goal with K : add_acc_one c AX _ _ = Ok ?c1, K2 : add_acc_one ?c1 AY _ _ = Ok ?c2 |- _ =>
    destruct (add_acc_one_follows c AX ax n c1 Hc ltac:(lia) K) as [C1 F1];
    destruct (add_acc_one_follows c1 AY ay n c2 C1 ltac:(lia) K2) as [C2 F2] end.
  specialize (F1 i). specialize (F2 i).
  pose proof (follows_app _ _ _ i _ _ (proj1 (ck_ticks c Hc i)) F1 F2) as F.
  destruct i; cbn [axis_dec axis_rec axis_rect] in F.
  - destruct (axis_dec AX AX); [|congruence]. destruct (axis_dec AX AY); [congruence|].
    rewrite app_nil_r in F. exact F.
  - destruct (axis_dec AY AX); [congruence|]. destruct (axis_dec AY AY); [|congruence]. exact F.
Qed.

Lemma goto_follows : forall plan c x y vx vy c', clocked c -> typed_plan plan ->
  step_goto_speed_with plan c x y vx vy = Ok c' -> (forall i, ticks_of c' i < u64_max) ->
  exists sx sy rest,
  plan [mk_limits (x - c_pos (channel c AX)) (c_v (channel c AX)) vx (a_max c AX) (v_max c AX);
        mk_limits (y - c_pos (channel c AY)) (c_v (channel c AY)) vy (a_max c AY) (v_max c AY)]
    = Ok (sx :: sy :: rest) /\
  forall i, follows c c' i (expand (pick i sx sy)).
Proof.
  intros plan c x y vx vy c' Hc Hp H Hm.
  destruct (step_goto_speed_spec plan c x y vx vy c' Hc Hp H)
    as (sx & sy & rest & Pl & _ & _ & _ & _ & _ & _ & _ & M & _).
  exists sx, sy, rest. split; [exact Pl|]. intros i.
  unfold step_goto_speed_with in H.
  apply bind_Ok in H. destruct H as (u1 & A1 & H). apply bind_Ok in H. destruct H as (u2 & A2 & H).
  apply bind_Ok in H. destruct H as (c1 & A3 & H). apply bind_Ok in H. destruct H as (dx & A4 & H).
  apply bind_Ok in H. destruct H as (dy & A5 & H). apply bind_Ok in H. destruct H as (ss & A6 & H).
  apply chk_Ok in A4, A5. destruct A4 as [<- A4]. destruct A5 as [<- A5].
  pose proof (ck_ticks c Hc AX) as Ht.
  destruct (push_weight_spec c (ticks_of c AX) (move_weight c) c1) as (S1 & W1 & C1 & T1 & M1 & V1 & Q1); auto; [lia|].
  pose proof (push_weight_follows c (ticks_of c AX) _ c1 Hc ltac:(lia) A3 i) as F0.
  assert (Cf : config c1 = config c) by apply S1.
  assert (AM : forall i, a_max c1 i = a_max c i /\ v_max c1 i = v_max c i).
  { unfold config in Cf. injection Cf as f1 f2 f3 f4 f5. intros []; cbn; auto. }
  rewrite !C1, !(proj1 (AM _)), !(proj2 (AM _)), Pl in A6. injection A6 as <-.
  apply bind_Ok in H. destruct H as (c2 & G1 & H). apply bind_Ok in H. destruct H as (c3 & G2 & H).
  apply bind_Ok in H. destruct H as (c5 & G3 & H). apply bind_Ok in H. destruct H as (u3 & A7 & H).
  injection H as <-.
  pose proof (Hp _ _ Pl) as HT. inversion HT as [|? ? Tx HT2]; subst. inversion HT2 as [|? ? Ty _]; subst.
  destruct (goto_one_spec c1 AX sx vx c2 Tx G1) as (_ & _ & E1 & Et1 & _ & Tk1 & _).
  destruct (goto_one_spec c2 AY sy vy c3 Ty G2) as (_ & _ & E2 & Et2 & _ & Tk2 & _).
  set (c4 := set_v (set_v c3 AX vx) AY vy) in *.
  assert (TT : forall i, ticks_of c4 i = ticks_of c1 i).
  { intros k. rewrite <- Tk1, <- Tk2. destruct k; reflexivity. }
  assert (EE : events c4 = events c1) by (change (events c3 = events c1); congruence).
  assert (K4 : clocked c4).
  { apply (clocked_eq c1); auto; [apply S1|change (event_ticks c3 = event_ticks c1); congruence]. }
  pose proof (segs_loop_follows _ c4 sx sy c5 K4 Tx Ty G3 Hm i) as F5.
  assert (F4 : follows c1 c4 i []).
  { apply follows_same; [apply TT|intros; rewrite EE; reflexivity|apply (ck_ticks c1 (st_clocked _ _ S1))]. }
  assert (P0 : 0 <= ticks_of c i) by apply (ck_ticks c Hc i).
  exact (follows_app c c4 c5 i [] _ P0 (follows_app c c1 c4 i [] [] P0 F0 F4) F5).
Qed.

Lemma speed_follows : forall c vx vy c', clocked c ->
  (forall i, 1 <= a_max c i <= 32767) ->
  (forall i, Z.abs (match i with AX => vx | AY => vy end - c_v (channel c i)) < 65536 * a_max c i) ->
  step_speed c vx vy = Ok c' -> (forall i, ticks_of c' i < u64_max) ->
  exists sx sy, forall i, follows c c' i (expand (pick i sx sy)) /\
    final_speed (c_v (channel c i)) (expand (pick i sx sy)) = match i with AX => vx | AY => vy end /\
    (forall a, In a (expand (pick i sx sy)) -> Z.abs a <= a_max c i) /\
    ((forall a, In a (expand (pick i sx sy)) -> 0 <= a) \/ (forall a, In a (expand (pick i sx sy)) -> a <= 0)).
Proof.
  intros c vx vy c' Hc Ha Hd H Hm. unfold step_speed in H.
  apply bind_Ok in H. destruct H as ([c1 sx] & G1 & H). apply bind_Ok in H. destruct H as ([c2 sy] & G2 & H).
  destruct (speed_one_spec c AX vx c1 sx (Ha AX) (Hd AX) G1) as (Tx & F1 & W1 & E1 & Et1 & N1 & Tk1 & V1 & P1 & Fs1 & A1 & Sg1).
  assert (CY : channel c1 AY = channel c AY) by (apply N1; discriminate).
  assert (AY1 : a_max c1 AY = a_max c AY).
  { unfold config in F1. injection F1 as f1 f2 f3 f4 f5. cbn. auto. }
  destruct (speed_one_spec c1 AY vy c2 sy) as (Ty & F2 & W2 & E2 & Et2 & N2 & Tk2 & V2 & P2 & Fs2 & A2 & Sg2); auto.
  { rewrite AY1. apply (Ha AY). }
  { rewrite AY1, CY. apply (Hd AY). }
  rewrite CY in Fs2, Sg2. rewrite AY1 in A2.
  exists sx, sy. intros i.
  assert (K2 : clocked c2).
  { apply (clocked_eq c); congruence. }
  pose proof (segs_loop_follows _ c2 sx sy c' K2 Tx Ty H Hm i) as F.
  assert (P0 : 0 <= ticks_of c i) by apply (ck_ticks c Hc i).
  assert (F0 : follows c c2 i []).
  { apply follows_same; auto; [rewrite Tk2; apply Tk1|]. intros. rewrite E2, E1. reflexivity. }
  split; [exact (follows_app c c2 c' i [] _ P0 F0 F)|].
  destruct i; cbn [pick]; (split; [assumption|split; [assumption|]]).
  - destruct (Z.le_ge_cases (c_v (channel c AX)) vx); [left|right]; intros z Hz; apply Sg1; auto.
  - destruct (Z.le_ge_cases (c_v (channel c AY)) vy); [left|right]; intros z Hz; apply Sg2; auto.
Qed.

Lemma flush_follows : forall c c', clocked c -> flush c = Ok c' -> forall i, follows c c' i [].
Proof.
  intros c c' Hc H i.
  destruct (flush_spec c c' Hc H) as (S1 & _ & C1 & _).
  assert (T : forall j, ticks_of c' j = ticks_of c j) by (intros; unfold ticks_of; rewrite C1; reflexivity).
  assert (EQ : ticks_of c i = ticks_of c AX).
  { unfold flush in H. inv_bind H. apply assert_Ok in E. destruct i; lia. }
  pose proof (ck_ticks c Hc AX) as Ht.
  constructor.
  - rewrite T. cbn [length]. lia.
  - intros t s Hr. rewrite (flush_play_axis c c' Hc H) by lia. cbv zeta.
    destruct (Z.leb_spec (ticks_of c AX) t); [lia|reflexivity].
  - intros k s Hk. cbn [length] in Hk. lia.
  - intros s. cbv zeta. rewrite T, EQ, (flush_play_axis c c' Hc H) by lia. cbv zeta.
    destruct (Z.leb_spec (ticks_of c AX) (ticks_of c AX)); [|lia].
    rewrite Z.sub_diag, adv_0. cbn [s_pos s_v travel final_speed]. lia.
Qed.

(** ** Limits kept at every tick *)

Definition s0 : axis_state := mk_axis 0 0 0.

Definition limited (i : axis) (evs : list event) (T V : Z) : Prop :=
  forall t, 0 <= t <= T -> Z.abs (s_v (play_axis i evs t s0)) <= V.
Definition acc_limited (i : axis) (evs : list event) (T A : Z) : Prop :=
  forall t, 0 <= t < T -> Z.abs (s_acc (play_axis i evs t s0)) <= A.

Lemma firstn_speeds : forall accs v k, In (final_speed v (firstn k accs)) (speeds v accs).
Proof.
  induction accs as [|a r IH]; intros v k; destruct k as [|k]; cbn [firstn final_speed speeds]; try (left; reflexivity).
  right. apply IH.
Qed.

Lemma final_in_speeds : forall accs v, In (final_speed v accs) (speeds v accs).
Proof. intros accs v. pose proof (firstn_speeds accs v (length accs)) as H. rewrite firstn_all in H. exact H. Qed.

Lemma follows_limited : forall c c' i accs V, 0 <= ticks_of c i -> follows c c' i accs ->
  (forall z, In z (speeds (snd (c_move c i)) accs) -> Z.abs z <= V) ->
  limited i (events c) (ticks_of c i) V -> limited i (events c') (ticks_of c' i) V.
Proof.
  intros c c' i accs V H0 [A1 A2 A3 A4] Hv HL t Ht. unfold c_move, motion in Hv. cbv zeta in *. cbn [snd] in Hv.
  fold s0 in Hv. destruct (Z.ltb_spec t (ticks_of c i)); [rewrite A2 by lia; apply HL; lia|].
  destruct (Z.ltb_spec t (ticks_of c' i)).
  - pose proof (A3 (Z.to_nat (t - ticks_of c i)) s0 ltac:(lia)) as K.
    rewrite Z2Nat.id in K by lia. replace (ticks_of c i + (t - ticks_of c i)) with t in K by lia.
    rewrite K. cbn [s_v]. apply Hv, firstn_speeds.
  - replace t with (ticks_of c' i) by lia. rewrite (proj2 (A4 s0)). apply Hv, final_in_speeds.
Qed.

Lemma follows_acc_limited : forall c c' i accs A, 0 <= ticks_of c i -> follows c c' i accs ->
  (forall z, In z accs -> Z.abs z <= A) ->
  acc_limited i (events c) (ticks_of c i) A -> acc_limited i (events c') (ticks_of c' i) A.
Proof.
  intros c c' i accs A H0 [A1 A2 A3 A4] Ha HL t Ht.
  destruct (Z.ltb_spec t (ticks_of c i)); [rewrite A2 by lia; apply HL; lia|].
  pose proof (A3 (Z.to_nat (t - ticks_of c i)) s0 ltac:(lia)) as K. cbv zeta in K.
  rewrite Z2Nat.id in K by lia. replace (ticks_of c i + (t - ticks_of c i)) with t in K by lia.
  rewrite K. cbn [s_acc]. apply Ha, nth_In. lia.
Qed.

Lemma speeds_repeat : forall n a v z, In z (speeds v (repeat a n)) ->
  Z.min v (v + a * Z.of_nat n) <= z <= Z.max v (v + a * Z.of_nat n).
Proof.
  induction n as [|n IH]; intros a v z H; cbn [repeat speeds] in H.
  - destruct H as [<-|[]]. lia.
  - assert (P : 0 <= a -> 0 <= a * Z.of_nat n) by nia. assert (N : a <= 0 -> a * Z.of_nat n <= 0) by nia.
    replace (a * Z.of_nat (S n)) with (a + a * Z.of_nat n) by lia.
    destruct H as [<-|H]; [lia|]. apply IH in H. lia.
Qed.

Lemma goto_plan : forall c x y vx vy sx sy rest, goto_axis c AX x vx -> goto_axis c AY y vy ->
  shortest_curve_sequences
    [mk_limits (x - c_pos (channel c AX)) (c_v (channel c AX)) vx (a_max c AX) (v_max c AX);
     mk_limits (y - c_pos (channel c AY)) (c_v (channel c AY)) vy (a_max c AY) (v_max c AY)]
    = Ok (sx :: sy :: rest) ->
  forall i, (forall z, In z (speeds (c_v (channel c i)) (expand (pick i sx sy))) -> Z.abs z <= v_max c i) /\
            (forall z, In z (expand (pick i sx sy)) -> Z.abs z <= a_max c i).
Proof.
  intros c x y vx vy sx sy rest (X1 & X2 & X3 & X4 & X5 & X6) (Y1 & Y2 & Y3 & Y4 & Y5 & Y6) H i.
  set (limits := [_; _]) in H.
  assert (HS : Forall lim_supported limits).
  { repeat constructor; cbn [l_ds l_v0 l_vn l_a l_vmax]; lia. }
  destruct (sequences_spec limits ltac:(discriminate) HS) as (t & r & h & _ & _ & Ht & _ & _ & Es & HF).
  destruct (seqs_for_spec t limits Ht HS HF) as [_ S2].
  rewrite Es in H. apply S2 in H. inversion H as [|l1 q1 r1 r2 Hx Hr]; subst.
  inversion Hr as [|l2 q2 r3 r4 Hy Hr']; subst.
  destruct Hx as (_ & dx & Mx & _). destruct Hy as (_ & dy & My & _).
  cbn [l_a l_vmax l_v0 l_vn] in Mx, My.
  destruct i; cbn [pick v_max a_max]; split; intros z Hz.
  - pose proof (mv_speed _ _ _ _ _ _ _ _ Mx z Hz). lia.
  - exact (mv_acc _ _ _ _ _ _ _ _ Mx z Hz).
  - pose proof (mv_speed _ _ _ _ _ _ _ _ My z Hz). lia.
  - exact (mv_acc _ _ _ _ _ _ _ _ My z Hz).
Qed.

Lemma monotone_speeds : forall accs v z, In z (speeds v accs) ->
  ((forall a, In a accs -> 0 <= a) -> v <= z <= final_speed v accs) /\
  ((forall a, In a accs -> a <= 0) -> final_speed v accs <= z <= v).
Proof.
  induction accs as [|a r IH]; intros v z H; cbn [speeds final_speed] in *.
  - destruct H as [<-|[]]. lia.
  - assert (F : (forall x, In x r -> 0 <= x) -> v + a <= final_speed (v + a) r).
    { intros K. destruct (IH (v + a) (v + a)) as [I _]; [destruct r; left; reflexivity|]. specialize (I K). lia. }
    assert (G : (forall x, In x r -> x <= 0) -> final_speed (v + a) r <= v + a).
    { intros K. destruct (IH (v + a) (v + a)) as [_ I]; [destruct r; left; reflexivity|]. specialize (I K). lia. }
    destruct H as [<-|H].
    + split; intros K; pose proof (K a (or_introl eq_refl)).
      * specialize (F (fun x Hx => K x (or_intror Hx))). lia.
      * specialize (G (fun x Hx => K x (or_intror Hx))). lia.
    + apply IH in H. destruct H as [H1 H2].
      split; intros K; pose proof (K a (or_introl eq_refl)).
      * specialize (H1 (fun x Hx => K x (or_intror Hx))). lia.
      * specialize (H2 (fun x Hx => K x (or_intror Hx))). lia.
Qed.

(** A call that itself stays within the speed limits of the context: targets and
    velocities it asks for, and the velocity an interval ends with. *)
Definition within_speed (c : ctx) (o : op) : Prop :=
  match o with
  | AddAcc ax ay n => Z.abs (c_v (chan_x c) + ax * n) <= v_max_x c /\ Z.abs (c_v (chan_y c) + ay * n) <= v_max_y c
  | GotoSpeed x y vx vy => goto_axis c AX x vx /\ goto_axis c AY y vy
  | Speed vx vy => Z.abs vx <= v_max_x c /\ Z.abs vy <= v_max_y c
  | _ => True
  end.
Definition within_acc (c : ctx) (o : op) : Prop :=
  match o with
  | AddAcc ax ay _ => Z.abs ax <= a_max_x c /\ Z.abs ay <= a_max_y c
  | GotoSpeed x y vx vy => goto_axis c AX x vx /\ goto_axis c AY y vy
  | _ => True
  end.

(** Every call extends the motion of each channel. *)
Lemma op_follows : forall c o c', clocked c -> op_ok c o -> not_reset o ->
  exec_op shortest_curve_sequences c o = Ok c' -> (forall i, ticks_of c' i < u64_max) ->
  (forall i, c_move c i = c_state c i) ->
  exists accs, forall i, follows c c' i (accs i) /\
    (within_speed c o -> Z.abs (c_v (channel c i)) <= v_max c i ->
       forall z, In z (speeds (c_v (channel c i)) (accs i)) -> Z.abs z <= v_max c i) /\
    (within_acc c o -> forall z, In z (accs i) -> Z.abs z <= a_max c i).
Proof.
  intros c o c' Hc Ho Hr H Hm HM.
  assert (NIL : forall i, (within_speed c o -> Z.abs (c_v (channel c i)) <= v_max c i ->
       forall z, In z (speeds (c_v (channel c i)) []) -> Z.abs z <= v_max c i) /\
    (within_acc c o -> forall z, In z [] -> Z.abs z <= a_max c i)).
  { intros i. split; [intros _ Hv z [<-|[]]; exact Hv|intros _ z []]. }
  destruct o; cbn [exec_op op_ok not_reset] in *; try contradiction.
  - exists (fun i => repeat (match i with AX => acc_x | AY => acc_y end) (Z.to_nat interval)).
    intros i. split; [apply add_acc_follows; auto; unfold u32_max; lia|].
    cbn [within_speed within_acc]. split.
    + intros [Wx Wy] Hv z Hz. apply speeds_repeat in Hz. rewrite Z2Nat.id in Hz by lia.
      destruct i; cbn [channel v_max] in *; lia.
    + intros [Wx Wy] z Hz. apply repeat_spec in Hz. subst z. destruct i; cbn [a_max]; lia.
  - exists (fun _ => []). intros i. split; [|apply NIL].
    eapply add_weight_follows; eauto. unfold u32_max. lia.
  - destruct (goto_follows _ c x y vx vy c' Hc planner_typed H Hm) as (sx & sy & rest & Pl & F).
    exists (fun i => expand (pick i sx sy)). intros i. split; [apply F|].
    cbn [within_speed within_acc]. split.
    + intros [Gx Gy] _. apply (goto_plan c x y vx vy sx sy rest Gx Gy Pl i).
    + intros [Gx Gy]. apply (goto_plan c x y vx vy sx sy rest Gx Gy Pl i).
  - destruct (speed_follows c vx vy c' Hc) as (sx & sy & F); auto.
    { intros []; cbn; tauto. }
    { intros []; cbn; tauto. }
    exists (fun i => expand (pick i sx sy)). intros i. destruct (F i) as (F1 & F2 & F3 & F4).
    split; [exact F1|]. cbn [within_speed within_acc]. split; [|auto].
    intros [Wx Wy] Hv z Hz. apply monotone_speeds in Hz. rewrite F2 in Hz. destruct Hz as [Z1 Z2].
    destruct F4 as [F4|F4]; [specialize (Z1 F4)|specialize (Z2 F4)]; destruct i; cbn [channel v_max] in *; lia.
  - injection H as <-. exists (fun _ => []). intros i. split; [|apply NIL].
    apply follows_same; [destruct i; reflexivity|reflexivity|apply (ck_ticks c Hc)].
  - exists (fun _ => []). intros i. split; [|apply NIL]. apply flush_follows; auto.
Qed.

(** Histories whose calls all satisfy [P]. *)
Inductive kept (P : ctx -> op -> Prop) : ctx -> list op -> ctx -> Prop :=
| kept_nil : forall c, kept P c [] c
| kept_cons : forall c o c1 ops c2, op_ok c o -> P c o -> exec_op shortest_curve_sequences c o = Ok c1 ->
    kept P c1 ops c2 -> kept P c (o :: ops) c2.

Lemma kept_history : forall P c ops c', kept P c ops c' -> history shortest_curve_sequences c ops c'.
Proof. induction 1; econstructor; eauto. Qed.

Lemma kept_app : forall P c ops1 c1 ops2 c2, kept P c ops1 c1 -> kept P c1 ops2 c2 -> kept P c (ops1 ++ ops2) c2.
Proof. induction 1; intros; cbn [app]; auto. econstructor; eauto. Qed.

Lemma op_sync_mono : forall c o c', sound c -> op_ok c o -> not_reset o ->
  exec_op shortest_curve_sequences c o = Ok c' -> (forall i, ticks_of c' i < u64_max) ->
  (forall i, ticks_of c i < u64_max).
Proof.
  intros c o c' Hs Ho Hr H Ht i. destruct (op_step _ c o c' planner_typed (proj1 Hs) Ho Hr H) as (S & _).
  pose proof (st_ticks _ _ S i). specialize (Ht i). lia.
Qed.

Lemma config_max : forall c c', config c' = config c -> forall i, v_max c' i = v_max c i /\ a_max c' i = a_max c i.
Proof. intros c c' H. unfold config in H. injection H as f1 f2 f3 f4 f5. intros []; cbn; auto. Qed.

Lemma op_limited : forall c o c', sound c -> op_ok c o -> not_reset o ->
  exec_op shortest_curve_sequences c o = Ok c' -> (forall i, ticks_of c' i < u64_max) -> forall i,
  (within_speed c o -> Z.abs (c_v (channel c i)) <= v_max c i ->
     limited i (events c) (ticks_of c i) (v_max c i) -> limited i (events c') (ticks_of c' i) (v_max c' i) /\
     Z.abs (c_v (channel c' i)) <= v_max c' i) /\
  (within_acc c o -> acc_limited i (events c) (ticks_of c i) (a_max c i) ->
     acc_limited i (events c') (ticks_of c' i) (a_max c' i)).
Proof.
  intros c o c' Hs Ho Hr H Ht i.
  pose proof (op_sync_mono c o c' Hs Ho Hr H Ht) as Ht0.
  pose proof (op_sound _ c o c' planner_typed Hs Ho H) as [_ HM'].
  destruct Hs as [Hc HM]. specialize (HM Ht0). specialize (HM' Ht).
  destruct (op_step _ c o c' planner_typed Hc Ho Hr H) as (S & _).
  destruct (config_max c c' (st_config _ _ S) i) as [-> ->].
  destruct (op_follows c o c' Hc Ho Hr H Ht HM) as (accs & F). destruct (F i) as (F1 & F2 & F3).
  pose proof (proj1 (ck_ticks c Hc i)) as P0.
  split.
  - intros W Hv HL.
    assert (L : limited i (events c') (ticks_of c' i) (v_max c i)).
    { eapply follows_limited; eauto. rewrite HM. apply (F2 W Hv). }
    split; [exact L|].
    assert (E : c_v (channel c' i) = s_v (play_axis i (events c') (ticks_of c' i) s0)).
    { specialize (HM' i). unfold c_move, motion, c_state in HM'. injection HM' as _ <-. reflexivity. }
    rewrite E. apply L. destruct F1 as [F1 _ _ _]. lia.
  - intros W. eapply follows_acc_limited; eauto.
Qed.

Lemma kept_mono : forall P c ops c', kept P c ops c' -> Forall not_reset ops -> sound c ->
  (forall i, ticks_of c' i < u64_max) -> forall i, ticks_of c i < u64_max.
Proof.
  intros P c ops c' H Hr Hs Ht i.
  destruct (history_step _ c ops c' planner_typed (kept_history _ _ _ _ H) Hr (proj1 Hs)) as [S _].
  pose proof (st_ticks _ _ S i). specialize (Ht i). lia.
Qed.

Lemma kept_limited : forall c ops c', kept within_speed c ops c' -> Forall not_reset ops -> sound c ->
  (forall i, ticks_of c' i < u64_max) -> forall i, Z.abs (c_v (channel c i)) <= v_max c i ->
  limited i (events c) (ticks_of c i) (v_max c i) ->
  limited i (events c') (ticks_of c' i) (v_max c' i) /\ Z.abs (c_v (channel c' i)) <= v_max c' i.
Proof.
  intros c ops c' H. induction H as [c|c o c1 ops c2 Ho Hp He H IH]; intros Hr Hs Ht i Hv HL; [auto|].
  inversion Hr; subst.
  pose proof (op_sound _ c o c1 planner_typed Hs Ho He) as Hs1.
  pose proof (kept_mono _ _ _ _ H ltac:(auto) Hs1 Ht) as Ht1.
  destruct (op_limited c o c1 Hs Ho ltac:(auto) He Ht1 i) as [L _].
  destruct (L Hp Hv HL) as [L1 L2]. apply IH; auto.
Qed.

Lemma kept_acc_limited : forall c ops c', kept within_acc c ops c' -> Forall not_reset ops -> sound c ->
  (forall i, ticks_of c' i < u64_max) -> forall i,
  acc_limited i (events c) (ticks_of c i) (a_max c i) ->
  acc_limited i (events c') (ticks_of c' i) (a_max c' i).
Proof.
  intros c ops c' H. induction H as [c|c o c1 ops c2 Ho Hp He H IH]; intros Hr Hs Ht i HL; [auto|].
  inversion Hr; subst.
  pose proof (op_sound _ c o c1 planner_typed Hs Ho He) as Hs1.
  pose proof (kept_mono _ _ _ _ H ltac:(auto) Hs1 Ht) as Ht1.
  destruct (op_limited c o c1 Hs Ho ltac:(auto) He Ht1 i) as [_ L].
  apply IH; auto.
Qed.
