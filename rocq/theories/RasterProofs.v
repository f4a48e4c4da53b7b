(** Facts about the rastering of an image. *)
From Coq Require Import ZArith List Bool Lia.
From Coq Require Import ZifyBool ZifyNat.
From Verif Require Import Base Floats AccVector AccVectorProofs MotionSpec IntegerCurve AccSeqProofs PlanProofs StepperContext MachineSpec
  MachineProofs ContextProofs ContextOps ContextHist ContextClock ContextGoto PropsIntegerCurve MachinePath
  ApproxCurve DrawCurves ImageRaster.
Import ListNotations.
Open Scope Z_scope.

Notation code := shortest_curve_sequences.

(** ** The dark span of a row *)

Lemma scan_up_spec : forall A (f : A -> bool) row fuel x, (length row - x <= fuel)%nat -> (x <= length row)%nat ->
  exists y, scan_up f row fuel x = Ok y /\ (x <= y <= length row)%nat /\
    (forall i p, (x <= i < y)%nat -> nth_error row i = Some p -> f p = false) /\
    ((y < length row)%nat -> exists p, nth_error row y = Some p /\ f p = true).
Proof.
  intros A f row. induction fuel as [|fuel IH]; intros x Hf Hx; cbn [scan_up].
  - destruct (Nat.ltb_spec x (length row)); [lia|]. exists x. split; [reflexivity|]. split; [lia|].
    split; [intros; lia|intros; lia].
  - destruct (Nat.ltb_spec x (length row)) as [L|L].
    + destruct (nth_error row x) as [p|] eqn:E; [|apply nth_error_None in E; lia]. cbn [unwrap bind].
      destruct (f p) eqn:Fp.
      * exists x. split; [reflexivity|]. split; [lia|]. split; [intros; lia|]. intros _. eauto.
      * destruct (IH (S x)) as (y & R & B & N & M); [lia|lia|]. exists y. split; [exact R|]. split; [lia|].
        split; [|exact M]. intros i q Hi Hq. destruct (Nat.eq_dec i x) as [->|]; [congruence|]. apply (N i q); auto. lia.
    + exists x. split; [reflexivity|]. split; [lia|]. split; [intros; lia|intros; lia].
Qed.

Lemma scan_down_spec : forall A (f : A -> bool) row start fuel x, (x - start <= fuel)%nat ->
  (start <= x < length row)%nat ->
  exists y, scan_down f row start fuel x = Ok y /\ (start <= y <= x)%nat /\
    (forall i p, (y < i <= x)%nat -> nth_error row i = Some p -> f p = false) /\
    ((start < y)%nat -> exists p, nth_error row y = Some p /\ f p = true).
Proof.
  intros A f row start. induction fuel as [|fuel IH]; intros x Hf Hx; cbn [scan_down].
  - destruct (Nat.ltb_spec start x); [lia|]. exists x. split; [reflexivity|]. split; [lia|].
    split; [intros; lia|intros; lia].
  - destruct (Nat.ltb_spec start x) as [L|L].
    + destruct (nth_error row x) as [p|] eqn:E; [|apply nth_error_None in E; lia]. cbn [unwrap bind].
      destruct (f p) eqn:Fp.
      * exists x. split; [reflexivity|]. split; [lia|]. split; [intros; lia|]. intros _. eauto.
      * destruct (IH (x - 1)%nat) as (y & R & B & N & M); [lia|lia|]. exists y. split; [exact R|]. split; [lia|].
        split; [|exact M]. intros i q Hi Hq. destruct (Nat.eq_dec i x) as [->|]; [congruence|]. apply (N i q); auto. lia.
    + exists x. split; [reflexivity|]. split; [lia|]. split; [intros; lia|intros; lia].
Qed.

Lemma find_row_interval_spec : forall A (row : list A) (f : A -> bool),
  exists start len, find_row_interval row f = Ok (start, len) /\ (start + len <= length row)%nat /\
    (forall i p, nth_error row i = Some p -> f p = true -> (start <= i < start + len)%nat) /\
    ((0 < len)%nat -> (exists p, nth_error row start = Some p /\ f p = true) /\
                      (exists p, nth_error row (start + len - 1) = Some p /\ f p = true)) /\
    (len = 0%nat -> start = 0%nat).
Proof.
  intros A row f. unfold find_row_interval.
  destruct (scan_up_spec A f row (length row) 0) as (x & -> & Bx & Nx & Mx); [lia|lia|]. cbn [bind].
  destruct (Nat.eqb_spec x (length row)) as [E|E].
  - exists 0%nat, 0%nat. split; [reflexivity|]. split; [lia|]. split; [|split; [intros; lia|auto]].
    intros i p Hi Hp. assert (i < length row)%nat by (apply nth_error_Some; congruence).
    specialize (Nx i p ltac:(lia) Hi). congruence.
  - destruct (scan_down_spec A f row x (length row) (length row - 1)) as (y & -> & By & Ny & My); [lia|lia|].
    cbn [bind]. exists x, (y + 1 - x)%nat. split; [reflexivity|]. split; [lia|].
    destruct (Mx ltac:(lia)) as (px & Hpx & Fpx).
    split; [|split; [|intros; lia]].
    + intros i p Hi Hp. assert (i < length row)%nat by (apply nth_error_Some; congruence).
      destruct (Nat.lt_ge_cases i x); [specialize (Nx i p ltac:(lia) Hi); congruence|].
      destruct (Nat.lt_ge_cases y i); [specialize (Ny i p ltac:(lia) Hi); congruence|]. lia.
    + intros _. split; [eauto|]. replace (x + (y + 1 - x) - 1)%nat with y by lia.
      destruct (Nat.eq_dec y x) as [->|]; [eauto|]. apply My. lia.
Qed.

(** ** A line *)

Lemma zero_interval : forall c n c', clocked c -> n <= u32_max -> add_acc_interval c 0 0 n = Ok c' ->
  step c c' /\ curve_weight c' = curve_weight c /\ 1 <= n /\
  (forall i, ticks_of c' i = ticks_of c i + n) /\ ticks_of c AX = ticks_of c AY /\
  (forall i, c_state c' i = (c_pos (channel c i) + 2 * n * c_v (channel c i), c_v (channel c i))) /\
  (forall i, follows c c' i (repeat 0 (Z.to_nat n))) /\
  (forall u w0, play_weight (events c') u w0 = play_weight (events c) u w0).
Proof.
  intros c n c' Hc Hn H.
  assert (N1 : 1 <= n).
  { unfold add_acc_interval in H. inv_bind H. apply assert_Ok in E. lia. }
  destruct (add_acc_interval_gen c 0 0 n c' Hc ltac:(lia) ltac:(lia) ltac:(lia) H) as (S & W & _ & T & Sy & _ & St & Q).
  split; [exact S|]. split; [exact W|]. split; [exact N1|]. split; [exact T|]. split; [exact Sy|].
  split; [intros i; rewrite St; destruct i; f_equal; lia|]. split; [|exact Q].
  intros i. pose proof (add_acc_follows c 0 0 n c' Hc Hn H i) as F. destruct i; exact F.
Qed.

Lemma follows_refl : forall c i, clocked c -> follows c c i [].
Proof. intros c i Hc. apply follows_same; auto. apply (ck_ticks c Hc i). Qed.

Lemma repeat_zero_app : forall a b, 0 <= a -> 0 <= b ->
  repeat 0 (Z.to_nat a) ++ repeat 0 (Z.to_nat b) = repeat 0 (Z.to_nat (a + b)).
Proof. intros a b Ha Hb. rewrite Z2Nat.inj_add by lia. symmetry. apply repeat_app. Qed.

(** Coasting: [n] ticks without acceleration. *)
Record coasts (c c' : ctx) (n : Z) : Prop := {
  co_n : 0 <= n;
  co_step : step c c';
  co_cw : curve_weight c' = curve_weight c;
  co_ticks : forall i, ticks_of c' i = ticks_of c i + n;
  co_state : forall i, c_state c' i = (c_pos (channel c i) + 2 * n * c_v (channel c i), c_v (channel c i));
  co_follows : forall i, follows c c' i (repeat 0 (Z.to_nat n))
}.

Lemma coasts_refl : forall c, clocked c -> coasts c c 0.
Proof.
  intros c Hc. constructor.
  - lia.
  - apply step_refl. exact Hc.
  - reflexivity.
  - intros i. lia.
  - intros i. unfold c_state. f_equal. lia.
  - intros i. apply follows_refl, Hc.
Qed.

Lemma coasts_trans : forall c c1 c2 a b, clocked c -> coasts c c1 a -> coasts c1 c2 b -> coasts c c2 (a + b).
Proof.
  intros c c1 c2 a b Hc [A0 A1 A2 A3 A4 A5] [B0 B1 B2 B3 B4 B5]. constructor; [lia| |congruence| | |].
  - eapply step_trans; eauto.
  - intros i. rewrite B3, A3. lia.
  - intros i. rewrite B4. specialize (A4 i). unfold c_state in A4. pose proof (f_equal fst A4) as P1.
    pose proof (f_equal snd A4) as P2. cbn [fst snd] in P1, P2. rewrite P1, P2.
    apply f_equal2; [ring|reflexivity].
  - intros i. rewrite <- repeat_zero_app by lia. eapply follows_app; eauto. apply (ck_ticks c Hc i).
Qed.

Lemma coasts_zero : forall c n c', clocked c -> n <= u32_max -> add_acc_interval c 0 0 n = Ok c' -> coasts c c' n.
Proof.
  intros c n c' Hc Hn H. destruct (zero_interval c n c' Hc Hn H) as (S & W & N & T & Sy & St & F & Q).
  constructor; auto. lia.
Qed.

Lemma coasts_weight : forall c w t c', clocked c -> t - event_ticks c <= u32_max ->
  add_weight_change c w t = Ok c' -> coasts c c' 0.
Proof.
  intros c w t c' Hc Ht H. destruct (add_weight_spec c w t c' Hc Ht H) as (S & W & C & T & _).
  constructor; [lia|exact S|exact W| | |].
  - intros i. rewrite T. lia.
  - intros i. unfold c_state. rewrite C. f_equal. lia.
  - intros i. eapply add_weight_follows; eauto.
Qed.

(** Calls that only let the machine coast. *)
Definition calm (o : op) : Prop :=
  match o with AddAcc ax ay n => ax = 0 /\ ay = 0 /\ 0 <= n <= u32_max | AddWeight _ _ => True | _ => False end.

Lemma calm_ok : forall ops, Forall calm ops -> Forall not_reset ops /\ Forall not_speed ops.
Proof.
  induction 1 as [|o ops H _ [I1 I2]]; [split; constructor|].
  split; constructor; auto; destruct o; cbn in *; tauto.
Qed.

(** The calls of a scan as a session, also within speed limits when short. *)
Record session (c c' : ctx) (bound : Z) : Prop := {
  se_ops : exists ops, now_history code c ops c' /\ Forall calm ops /\
    (bound < 2 ^ 31 -> (forall i, Z.abs (c_v (channel c i)) <= v_max c i) -> kept within_speed c ops c')
}.

Lemma now_history_app : forall c o1 c1 o2 c2, now_history code c o1 c1 -> now_history code c1 o2 c2 ->
  now_history code c (o1 ++ o2) c2.
Proof. intros c o1 c1 o2 c2 H K. induction H; cbn [app]; auto. econstructor; eauto. Qed.

Lemma session_trans : forall c c1 c2 n b1 b2 b, session c c1 b1 -> coasts c c1 n -> session c1 c2 b2 ->
  b1 <= b -> b2 <= b -> session c c2 b.
Proof.
  intros c c1 c2 n b1 b2 b [(o1 & N1 & F1 & K1)] C [(o2 & N2 & F2 & K2)] H1 H2. constructor.
  exists (o1 ++ o2). split; [eapply now_history_app; eauto|]. split; [apply Forall_app; auto|].
  intros Hb Hv. eapply kept_app; [apply K1; auto; lia|]. apply K2; [lia|].
  intros i. pose proof (co_state _ _ _ C i) as E. unfold c_state in E. apply (f_equal snd) in E. cbn [snd] in E.
  rewrite E. pose proof (st_config _ _ (co_step _ _ _ C)) as Cf. unfold config in Cf. injection Cf as k1 k2 k3 k4 k5.
  specialize (Hv i). destruct i; cbn [v_max] in *; rewrite ?k3, ?k4; exact Hv.
Qed.

Lemma session_refl : forall c b, session c c b.
Proof. intros c b. constructor. exists []. split; [constructor|]. split; [constructor|]. intros. constructor. Qed.

Lemma session_zero : forall c n c', clocked c -> n <= u32_max -> add_acc_interval c 0 0 n = Ok c' -> session c c' n.
Proof.
  intros c n c' Hc Hn H. destruct (zero_interval c n c' Hc Hn H) as (S & W & N & T & Sy & St & F & Q).
  constructor. exists [AddAcc 0 0 n].
  split; [eapply now_cons; [cbn; lia|exact H|apply now_nil]|].
  split; [constructor; [cbn; lia|constructor]|].
  intros Hb Hv. eapply kept_cons; [cbn [op_ok]; lia| |exact H|apply kept_nil].
  pose proof (Hv AX). pose proof (Hv AY). cbn [within_speed channel v_max] in *. lia.
Qed.

Lemma session_weight : forall c w c' b, clocked c -> add_weight_change c w (ticks_of c AX) = Ok c' -> session c c' b.
Proof.
  intros c w c' b Hc H. pose proof (ck_ticks c Hc AX) as T.
  constructor. exists [AddWeight w (ticks_of c AX)].
  split; [eapply now_cons; [reflexivity|exact H|apply now_nil]|]. split; [constructor; [exact I|constructor]|].
  intros _ _. eapply kept_cons; [cbn [op_ok]; unfold u32_max in T; lia|exact I|exact H|apply kept_nil].
Qed.

(** The weight of the pixel under step [xn]. *)
Definition weight_at (sc : scan) (row : list Z) (ltr : bool) (start_x length_x xn w : Z) : Prop :=
  exists x p, bitmap_x ltr start_x length_x xn = Ok x /\ nth_error row (Z.to_nat x) = Some p /\
    pixel_weight p (black sc) = Ok w.

Lemma pixel_loop_spec : forall sc row ltr start_x length_x start n xn c prev c',
  clocked c -> ticks_of c AX = ticks_of c AY -> 0 <= xn -> 0 <= res_x sc ->
  start <= ticks_of c AX <= start + xn * res_x sc ->
  (forall u w0, start + xn * res_x sc <= u -> play_weight (events c) u w0 = prev) ->
  pixel_loop sc row ltr start_x length_x start n xn c prev = Ok c' ->
  exists m, coasts c c' m /\ session c c' ((xn + Z.of_nat n) * res_x sc) /\
    ticks_of c' AX <= start + (xn + Z.of_nat n) * res_x sc /\
    (forall u w0, u < start + xn * res_x sc -> play_weight (events c') u w0 = play_weight (events c) u w0) /\
    (forall k u w0, 0 <= k < Z.of_nat n ->
       start + (xn + k) * res_x sc <= u < start + (xn + k + 1) * res_x sc ->
       exists w, weight_at sc row ltr start_x length_x (xn + k) w /\ play_weight (events c') u w0 = w).
Proof.
  intros sc row ltr start_x length_x start. induction n as [|n IH]; intros xn c prev c' Hc Sy Hx Hr HT Hw H;
    cbn [pixel_loop] in H.
  - injection H as <-. exists 0. split; [apply coasts_refl, Hc|]. split; [apply session_refl|].
    split; [lia|]. split; [reflexivity|]. intros. lia.
  - apply bind_Ok in H. destruct H as (x & Ex & H). apply bind_Ok in H. destruct H as (p & Ep & H).
    apply bind_Ok in H. destruct H as (w & Ew & H).
    assert (WA : weight_at sc row ltr start_x length_x xn w).
    { exists x, p. split; [exact Ex|]. split; [|exact Ew]. destruct (nth_error row (Z.to_nat x)); [|discriminate].
      injection Ep as ->. reflexivity. }
    destruct (Z.eqb_spec w prev) as [->|NE].
    + destruct (IH (xn + 1) c prev c') as (m & C & Se & T & Q1 & Q2); auto; try lia; try nia.
      { intros u w0 Hu. apply Hw. lia. }
      exists m. split; [exact C|]. split; [replace (xn + Z.of_nat (S n)) with (xn + 1 + Z.of_nat n) by lia; exact Se|].
      split; [replace (xn + Z.of_nat (S n)) with (xn + 1 + Z.of_nat n) by lia; exact T|].
      split; [intros u w0 Hu; apply Q1; lia|].
      intros k u w0 Hk Hu. destruct (Z.eq_dec k 0) as [->|].
      * exists prev. rewrite Z.add_0_r in *. split; [exact WA|]. rewrite Q1 by lia. apply Hw. lia.
      * replace (xn + k) with (xn + 1 + (k - 1)) in * by lia. apply (Q2 (k - 1)); lia.
    + apply bind_Ok in H. destruct H as (o & Eo & H). apply chk_Ok in Eo. destruct Eo as [<- Eo].
      apply bind_Ok in H. destruct H as (when & E1 & H). apply chk_Ok in E1. destruct E1 as [<- E1].
      apply bind_Ok in H. destruct H as (t & E2 & H).
      apply bind_Ok in H. destruct H as (d & E3 & H). apply chk_Ok in E3. destruct E3 as [<- E3].
      apply bind_Ok in H. destruct H as (ivl & E4 & H). apply chk_Ok in E4. destruct E4 as [<- E4].
      apply bind_Ok in H. destruct H as (c1 & E5 & H). apply bind_Ok in H. destruct H as (c2 & E6 & H).
      unfold ticks in E2. rewrite <- Sy, Z.eqb_refl in E2. cbn [assert bind] in E2. injection E2 as <-.
      set (when := start + xn * res_x sc) in *. set (ivl := when - ticks_of c AX) in *.
      assert (C1 : coasts c c1 ivl /\ session c c1 ivl /\
         (forall u w0, play_weight (events c1) u w0 = play_weight (events c) u w0)).
      { destruct (Z.eqb_spec ivl 0) as [Z0|Z0].
        - injection E5 as <-. rewrite Z0. split; [apply coasts_refl, Hc|]. split; [apply session_refl|reflexivity].
        - split; [apply coasts_zero; auto; lia|]. split; [apply session_zero; auto; lia|].
          destruct (zero_interval c ivl c1 Hc ltac:(lia) E5) as (_ & _ & _ & _ & _ & _ & _ & Q). exact Q. }
      destruct C1 as (C1 & Se1 & Q1).
      pose proof (st_clocked _ _ (co_step _ _ _ C1)) as Hc1.
      pose proof (co_ticks _ _ _ C1 AX) as TX. pose proof (co_ticks _ _ _ C1 AY) as TY.
      assert (TW : ticks_of c1 AX = when) by (subst ivl; lia). rewrite <- TW in E6.
      pose proof (proj2 (ck_ticks c1 Hc1 AX)) as TT.
      pose proof (coasts_weight c1 w _ c2 Hc1 TT E6) as C2.
      destruct (add_weight_spec c1 w _ c2 Hc1 TT E6) as (S2 & W2 & CC2 & T2 & _ & _ & _ & Q2).
      destruct (IH (xn + 1) c2 w c') as (m & C & Se & T & Q3 & Q4); auto; try lia.
      { apply S2. } { rewrite !T2. lia. } { rewrite T2, TW. subst when. subst ivl. nia. }
      { intros u w0 Hu. rewrite Q2. destruct (Z.leb_spec (ticks_of c1 AX) u); [reflexivity|]. subst when. nia. }
      exists (ivl + 0 + m). split; [eapply coasts_trans; [exact Hc|eapply coasts_trans; eauto|exact C]|].
      split.
      { replace (xn + Z.of_nat (S n)) with (xn + 1 + Z.of_nat n) by lia.
        eapply session_trans; [exact Se1|exact C1| |subst ivl when; nia|reflexivity].
        eapply session_trans; [eapply (session_weight c1 w c2 0); eauto|exact C2|exact Se|nia|lia]. }
      split; [replace (xn + Z.of_nat (S n)) with (xn + 1 + Z.of_nat n) by lia; exact T|].
      split.
      { intros u w0 Hu. rewrite Q3 by (subst when; lia). rewrite Q2.
        destruct (Z.leb_spec (ticks_of c1 AX) u); [lia|]. apply Q1. }
      intros k u w0 Hk Hu. destruct (Z.eq_dec k 0) as [->|].
      * exists w. rewrite Z.add_0_r in *. split; [exact WA|]. rewrite Q3 by lia. rewrite Q2.
        destruct (Z.leb_spec (ticks_of c1 AX) u); [reflexivity|]. fold when in Hu. lia.
      * replace (xn + k) with (xn + 1 + (k - 1)) in * by lia. apply (Q4 (k - 1)); lia.
Qed.

(** A line: the goto, [length_x] pixels of [res_x] ticks, then weight 0. *)
Record line_drawn (sc : scan) (row : list Z) (x y : Z) (ltr : bool) (start_x length_x : Z) (c c1 c' : ctx) : Prop := {
  ld_range : 0 <= x <= u32_max;
  ld_goto : step_goto_speed c x y (if ltr then v_x sc else - v_x sc) 0 = Ok c1;
  ld_step : step c c1;
  ld_cw : curve_weight c1 = curve_weight c;
  ld_sync : ticks_of c1 AX = ticks_of c1 AY;
  ld_v : c_v (channel c1 AX) = (if ltr then v_x sc else - v_x sc) /\ c_v (channel c1 AY) = 0;
  ld_coasts : coasts c1 c' (length_x * res_x sc);
  ld_session : session c1 c' (length_x * res_x sc);
  ld_before : forall u w0, u < ticks_of c AX -> play_weight (events c') u w0 = play_weight (events c) u w0;
  ld_way : forall u w0, ticks_of c AX <= u < ticks_of c1 AX -> play_weight (events c') u w0 = 0;
  ld_pixels : forall k u w0, 0 <= k < length_x ->
    ticks_of c1 AX + k * res_x sc <= u < ticks_of c1 AX + (k + 1) * res_x sc ->
    exists w, weight_at sc row ltr start_x length_x k w /\ play_weight (events c') u w0 = w;
  ld_after : forall u w0, ticks_of c' AX <= u -> play_weight (events c') u w0 = 0
}.

Lemma raster_line_spec : forall sc row yn repeat_y ltr start_x length_x c c',
  clocked c -> move_weight c = 0 -> 0 <= res_x sc -> 0 <= length_x ->
  raster_line sc row yn repeat_y ltr start_x length_x c = Ok c' ->
  exists c1, line_drawn sc row
    (res_x sc * 2 * as_u32 (v_x sc) * (if ltr then start_x else start_x + length_x))
    ((yn * res_y sc + repeat_y) * step_y sc) ltr start_x length_x c c1 c'.
Proof.
  intros sc row yn repeat_y ltr start_x length_x c c' Hc MW Hr Hl H. unfold raster_line in H.
  apply bind_Ok in H. destruct H as (line_start & E1 & H). apply bind_Ok in H. destruct H as (line_v & E2 & H).
  apply bind_Ok in H. destruct H as (x1 & E3 & H). apply bind_Ok in H. destruct H as (x2 & E4 & H).
  apply bind_Ok in H. destruct H as (x & E5 & H). apply bind_Ok in H. destruct H as (y1 & E6 & H).
  apply bind_Ok in H. destruct H as (y2 & E7 & H). apply bind_Ok in H. destruct H as (y & E8 & H).
  apply bind_Ok in H. destruct H as (c1 & E9 & H). apply bind_Ok in H. destruct H as (start & E10 & H).
  apply bind_Ok in H. destruct H as (c2 & E11 & H). apply bind_Ok in H. destruct H as (o & E12 & H).
  apply bind_Ok in H. destruct H as (when & E13 & H). apply bind_Ok in H. destruct H as (t & E14 & H).
  apply bind_Ok in H. destruct H as (d & E15 & H). apply bind_Ok in H. destruct H as (ivl & E16 & H).
  apply bind_Ok in H. destruct H as (c3 & E17 & H).
  assert (line_start = if ltr then start_x else start_x + length_x) as ->.
  { destruct ltr; [injection E1 as <-; reflexivity|apply chk_Ok in E1; lia]. }
  assert (line_v = if ltr then v_x sc else - v_x sc) as ->.
  { destruct ltr; [injection E2 as <-; reflexivity|apply chk_Ok in E2; lia]. }
  clear E1 E2.
  apply chk_Ok in E3. destruct E3 as [<- _]. apply chk_Ok in E4. destruct E4 as [<- _].
  apply chk_Ok in E5. destruct E5 as [<- E5]. apply chk_Ok in E6. destruct E6 as [<- _].
  apply chk_Ok in E7. destruct E7 as [<- _]. apply chk_Ok in E8. destruct E8 as [<- _].
  apply chk_Ok in E12. destruct E12 as [<- E12]. apply chk_Ok in E13. destruct E13 as [<- E13].
  apply chk_Ok in E15. destruct E15 as [<- E15]. apply chk_Ok in E16. destruct E16 as [<- E16].
  exists c1.
  destruct (step_goto_speed_spec code c _ _ _ _ c1 Hc planner_typed E9)
    as (sx & sy & rest & _ & _ & _ & S1 & W1 & Y1 & St1 & _ & _ & Q1).
  pose proof (st_clocked _ _ S1) as Hc1.
  unfold ticks in E10. rewrite <- Y1, Z.eqb_refl in E10. cbn [assert bind] in E10. injection E10 as <-.
  assert (T01 : ticks_of c AX <= ticks_of c1 AX) by apply S1.
  destruct (pixel_loop_spec sc row ltr start_x length_x (ticks_of c1 AX) (Z.to_nat length_x) 0 c1 0 c2)
    as (m & C2 & Se2 & T2 & Q2 & Q3); auto; try lia.
  { intros u w0 Hu. rewrite Q1. destruct (Z.leb_spec (ticks_of c AX) u); [exact MW|lia]. }
  rewrite Z.add_0_l, Z2Nat.id in * by lia.
  pose proof (st_clocked _ _ (co_step _ _ _ C2)) as Hc2.
  assert (Y2 : ticks_of c2 AX = ticks_of c2 AY) by (rewrite !(co_ticks _ _ _ C2); lia).
  unfold ticks in E14. rewrite <- Y2, Z.eqb_refl in E14. cbn [assert bind] in E14. injection E14 as <-.
  set (when := ticks_of c1 AX + length_x * res_x sc) in *.
  pose proof (coasts_zero c2 _ c3 Hc2 (proj2 E16) E17) as C3.
  pose proof (session_zero c2 _ c3 Hc2 (proj2 E16) E17) as Se3.
  destruct (zero_interval c2 _ c3 Hc2 (proj2 E16) E17) as (_ & _ & _ & _ & _ & _ & _ & Q4).
  pose proof (st_clocked _ _ (co_step _ _ _ C3)) as Hc3.
  assert (T3 : ticks_of c3 AX = when) by (rewrite (co_ticks _ _ _ C3); lia).
  rewrite <- T3 in H. pose proof (proj2 (ck_ticks c3 Hc3 AX)) as TT.
  pose proof (coasts_weight c3 0 _ c' Hc3 TT H) as C4.
  pose proof (session_weight c3 0 c' 0 Hc3 H) as Se4.
  destruct (add_weight_spec c3 0 _ c' Hc3 TT H) as (_ & _ & _ & T4 & _ & _ & _ & Q5).
  assert (Em : m + (when - ticks_of c2 AX) + 0 = length_x * res_x sc).
  { rewrite (co_ticks _ _ _ C2). subst when. lia. }
  assert (Q6 : forall u w0, u < when -> play_weight (events c') u w0 = play_weight (events c2) u w0).
  { intros u w0 Hu. rewrite Q5, T3. destruct (Z.leb_spec when u); [lia|]. apply Q4. }
  constructor; auto.
  - split; [pose proof (f_equal snd (St1 AX)) as K|pose proof (f_equal snd (St1 AY)) as K]; exact K.
  - rewrite <- Em. eapply coasts_trans; [exact Hc1|eapply coasts_trans; eauto|exact C4].
  - eapply session_trans; [exact Se2|exact C2| |lia|reflexivity].
    eapply session_trans; [exact Se3|exact C3|exact Se4|subst when; pose proof (co_n _ _ _ C2);
      pose proof (co_ticks _ _ _ C2 AX); lia|nia].
  - intros u w0 Hu. rewrite Q6, Q2, Q1 by (subst when; nia). destruct (Z.leb_spec (ticks_of c AX) u); [lia|reflexivity].
  - intros u w0 Hu. rewrite Q6, Q2, Q1 by (subst when; nia). destruct (Z.leb_spec (ticks_of c AX) u); [exact MW|lia].
  - intros k u w0 Hk Hu. rewrite Q6 by (subst when; nia). apply Q3; lia.
  - intros u w0 Hu. rewrite Q5. rewrite T4 in Hu. destruct (Z.leb_spec (ticks_of c3 AX) u); [reflexivity|lia].
Qed.

(** ** The whole image *)

(** A line of the image: row number, row, repeat, direction, dark span. *)
Record line := mk_line { l_y : Z; l_row : list Z; l_rep : Z; l_ltr : bool; l_start : Z; l_len : Z }.

Definition line_x (sc : scan) (l : line) : Z :=
  res_x sc * 2 * as_u32 (v_x sc) * (if l_ltr l then l_start l else l_start l + l_len l).
Definition line_y (sc : scan) (l : line) : Z := (l_y l * res_y sc + l_rep l) * step_y sc.

(** The lines of one row from repeat [r] on, and of all rows: in alternating
    directions, [res_y] for each row with a dark pixel. *)
Fixpoint row_lines (yn : Z) (row : list Z) (start len : Z) (n : nat) (r : Z) (ltr : bool) : list line :=
  match n with
  | O => []
  | S n => mk_line yn row r ltr start len :: row_lines yn row start len n (r + 1) (negb ltr)
  end.

Inductive image_lines (res_y : Z) : Z -> bool -> list (list Z) -> list line -> Prop :=
| il_nil : forall yn ltr, image_lines res_y yn ltr [] []
| il_white : forall yn ltr row rest l, (forall p, In p row -> 255 <= p) ->
    image_lines res_y (yn + 1) ltr rest l -> image_lines res_y yn ltr (row :: rest) l
| il_dark : forall yn ltr row rest l start len, (0 < len)%nat -> (start + len <= length row)%nat ->
    (forall i p, nth_error row i = Some p -> p < 255 -> (start <= i < start + len)%nat) ->
    (exists p, nth_error row start = Some p /\ p < 255) ->
    (exists p, nth_error row (start + len - 1) = Some p /\ p < 255) ->
    image_lines res_y (yn + 1) (xorb ltr (Z.odd (Z.max 0 res_y))) rest l ->
    image_lines res_y yn ltr (row :: rest)
      (row_lines yn row (Z.of_nat start) (Z.of_nat len) (Z.to_nat res_y) 0 ltr ++ l).

(** Lines drawn one after the other; [ts] are the ticks when they start. *)
Inductive lines_drawn (sc : scan) : ctx -> list line -> list Z -> ctx -> Prop :=
| lsd_nil : forall c, lines_drawn sc c [] [] c
| lsd_cons : forall c c1 c2 l r ts c',
    line_drawn sc (l_row l) (line_x sc l) (line_y sc l) (l_ltr l) (l_start l) (l_len l) c c1 c2 ->
    lines_drawn sc c2 r ts c' -> lines_drawn sc c (l :: r) (ticks_of c1 AX :: ts) c'.

Lemma lines_drawn_app : forall sc c l1 t1 c1 l2 t2 c2, lines_drawn sc c l1 t1 c1 -> lines_drawn sc c1 l2 t2 c2 ->
  lines_drawn sc c (l1 ++ l2) (t1 ++ t2) c2.
Proof. intros sc c l1 t1 c1 l2 t2 c2 H K. induction H; cbn [app]; auto. econstructor; eauto. Qed.

Lemma line_step : forall sc row x y ltr st ln c c1 c', line_drawn sc row x y ltr st ln c c1 c' -> step c c'.
Proof.
  intros sc row x y ltr st ln c c1 c' H. eapply step_trans; [apply (ld_step _ _ _ _ _ _ _ _ _ _ H)|].
  apply (ld_coasts _ _ _ _ _ _ _ _ _ _ H).
Qed.

Lemma step_move : forall c c', step c c' -> move_weight c' = move_weight c.
Proof. intros c c' S. pose proof (st_config _ _ S) as K. unfold config in K. congruence. Qed.

Lemma lines_step : forall sc c l ts c', clocked c -> lines_drawn sc c l ts c' -> step c c'.
Proof.
  intros sc c l ts c' Hc H. induction H; [apply step_refl; auto|].
  pose proof (line_step _ _ _ _ _ _ _ _ _ _ H) as S. eapply step_trans; [exact S|]. apply IHlines_drawn. apply S.
Qed.

Lemma repeat_loop_spec : forall sc row yn st len n r ltr c ltr' c', clocked c -> move_weight c = 0 ->
  0 <= res_x sc -> 0 <= len ->
  repeat_loop sc row yn st len n r ltr c = Ok (ltr', c') ->
  (exists ts, lines_drawn sc c (row_lines yn row st len n r ltr) ts c') /\ ltr' = xorb ltr (Nat.odd n).
Proof.
  intros sc row yn st len. induction n as [|n IH]; intros r ltr c ltr' c' Hc MW Hr Hl H; cbn [repeat_loop row_lines] in *.
  - injection H as <- <-. split; [eexists; constructor|]. rewrite xorb_false_r. reflexivity.
  - apply bind_Ok in H. destruct H as (c2 & E & H).
    destruct (raster_line_spec sc row yn r ltr st len c c2 Hc MW Hr Hl E) as (c1 & LD).
    pose proof (line_step _ _ _ _ _ _ _ _ _ _ LD) as S.
    destruct (IH (r + 1) (negb ltr) c2 ltr' c') as [[ts K1] K2]; auto; [apply S|rewrite (step_move _ _ S); exact MW|].
    split.
    + eexists. eapply lsd_cons; [|exact K1]. exact LD.
    + rewrite K2, Nat.odd_succ, <- Nat.negb_odd. destruct ltr, (Nat.odd n); reflexivity.
Qed.

Lemma rows_loop_spec : forall sc rows yn ltr c c', clocked c -> move_weight c = 0 -> 0 <= res_x sc ->
  rows_loop sc rows yn ltr c = Ok c' ->
  exists l ts, image_lines (res_y sc) yn ltr rows l /\ lines_drawn sc c l ts c'.
Proof.
  intros sc. induction rows as [|row rest IH]; intros yn ltr c c' Hc MW Hr H; cbn [rows_loop] in H.
  - injection H as <-. exists [], []. split; constructor.
  - destruct (find_row_interval_spec Z row (fun p => p <? 255)) as (st & len & E & B & In_ & Ends & Z0).
    rewrite E in H. cbn [bind] in H.
    apply bind_Ok in H. destruct H as ([ltr1 c1] & E1 & H).
    destruct (Nat.ltb_spec 0 len) as [L|L].
    + destruct (repeat_loop_spec sc row yn _ _ _ 0 ltr c ltr1 c1 Hc MW Hr (Nat2Z.is_nonneg len) E1) as [[ts0 D] ->].
      pose proof (lines_step _ _ _ _ _ Hc D) as S.
      destruct (IH (yn + 1) (xorb ltr (Nat.odd (Z.to_nat (res_y sc)))) c1 c') as (l & ts & IL & LD); auto;
        [apply S|rewrite (step_move _ _ S); exact MW|].
      eexists. eexists. split; [|eapply lines_drawn_app; [exact D|exact LD]].
      destruct (Ends L) as [(p & P1 & P2) (q & Q1 & Q2)].
      apply il_dark; auto.
      * intros i p' Hi Hp. apply (In_ i p'); auto. lia.
      * exists p. split; [exact P1|lia].
      * exists q. split; [exact Q1|lia].
      * replace (Z.odd (Z.max 0 (res_y sc))) with (Nat.odd (Z.to_nat (res_y sc))); [exact IL|].
        rewrite <- Z2Nat.id with (n := Z.max 0 (res_y sc)) by lia.
        replace (Z.to_nat (Z.max 0 (res_y sc))) with (Z.to_nat (res_y sc)) by lia.
        generalize (Z.to_nat (res_y sc)). clear. intros n.
        induction n as [|n IHn]; [reflexivity|]. rewrite Nat2Z.inj_succ, Z.odd_succ, <- Z.negb_odd, <- IHn.
        rewrite Nat.odd_succ, <- Nat.negb_odd. reflexivity.
    + injection E1 as <- <-. destruct (IH (yn + 1) ltr c c') as (l & ts & IL & LD); auto.
      exists l, ts. split; [|exact LD]. apply il_white; [|exact IL].
      intros p Hp. destruct (In_nth_error _ _ Hp) as (i & Hi).
      destruct (Z.lt_ge_cases p 255); [|lia]. specialize (In_ i p Hi ltac:(lia)). lia.
Qed.

(** *** The laser *)

(** The pixel under step [k] of a line, its weight, and the weight at tick [t] of
    lines that start at [ts]. *)
Definition pixel_of (l : line) (k : Z) : Z := if l_ltr l then l_start l + k else l_start l + l_len l - 1 - k.
Definition line_weight (black : Z) (l : line) (k : Z) : Z :=
  Z.quot ((255 - nth (Z.to_nat (pixel_of l k)) (l_row l) 255) * black) 256.

Fixpoint exposure (sc : scan) (ls : list line) (ts : list Z) (t : Z) : Z :=
  match ls, ts with
  | l :: ls, t0 :: ts =>
      if (t0 <=? t) && (t <? t0 + l_len l * res_x sc) then line_weight (black sc) l ((t - t0) / res_x sc)
      else exposure sc ls ts t
  | _, _ => 0
  end.

Lemma weight_at_line : forall sc l k w, weight_at sc (l_row l) (l_ltr l) (l_start l) (l_len l) k w ->
  w = line_weight (black sc) l k.
Proof.
  intros sc l k w (x & p & B & N & P). unfold line_weight, pixel_of, bitmap_x in *.
  assert (x = if l_ltr l then l_start l + k else l_start l + l_len l - 1 - k) as <-.
  { destruct (l_ltr l); [apply chk_Ok in B; lia|]. inv_bind B. apply chk_Ok in E, E0, B. lia. }
  rewrite (nth_error_nth _ _ _ N). unfold pixel_weight in P. inv_bind P. apply chk_Ok in E, E0.
  injection P as <-. destruct E as [<- _]. destruct E0 as [<- _]. reflexivity.
Qed.

Lemma lines_ticks : forall sc c l ts c', clocked c -> lines_drawn sc c l ts c' -> Forall (fun t => ticks_of c AX <= t) ts.
Proof.
  intros sc c l ts c' Hc H. induction H; constructor.
  - apply (ld_step _ _ _ _ _ _ _ _ _ _ H).
  - pose proof (line_step _ _ _ _ _ _ _ _ _ _ H) as S. specialize (IHlines_drawn (st_clocked _ _ S)).
    eapply Forall_impl; [|exact IHlines_drawn]. cbv beta. intros t Ht. pose proof (st_ticks _ _ S AX). lia.
Qed.

Lemma exposure_early : forall sc ls ts t, Forall (fun t0 => t < t0) ts -> exposure sc ls ts t = 0.
Proof.
  intros sc ls ts t H. revert ls. induction H as [|t0 ts H0 H IH]; intros [|l ls]; cbn [exposure]; auto.
  destruct (Z.leb_spec t0 t); [lia|]. apply IH.
Qed.

Lemma lines_weight : forall sc c l ts c', clocked c -> 1 <= res_x sc -> lines_drawn sc c l ts c' ->
  forall u w0, u < ticks_of c' AX -> play_weight (events c') u w0 =
    if u <? ticks_of c AX then play_weight (events c) u w0 else exposure sc l ts u.
Proof.
  intros sc c l ts c' Hc Hr H. induction H as [c|c c1 c2 l r ts c' LD H IH]; intros u w0 Hu.
  - destruct (Z.ltb_spec u (ticks_of c AX)); [reflexivity|lia].
  - pose proof (line_step _ _ _ _ _ _ _ _ _ _ LD) as S.
    rewrite (IH (st_clocked _ _ S) u w0 Hu).
    destruct LD as [RG G S1 W1 Y1 V1 C1 Se1 B1 P1 X1 A1].
    pose proof (co_ticks _ _ _ C1 AX) as T. pose proof (st_ticks _ _ S1 AX) as T1. pose proof (co_n _ _ _ C1) as N0.
    destruct (Z.ltb_spec u (ticks_of c2 AX)) as [L2|L2].
    + destruct (Z.ltb_spec u (ticks_of c AX)) as [L|L]; [apply B1; exact L|].
      cbn [exposure]. destruct (Z.leb_spec (ticks_of c1 AX) u) as [L1|L1].
      * destruct (Z.ltb_spec u (ticks_of c1 AX + l_len l * res_x sc)); [|lia]. cbn [andb].
        set (k := (u - ticks_of c1 AX) / res_x sc).
        pose proof (Z.div_mod (u - ticks_of c1 AX) (res_x sc) ltac:(lia)) as D.
        pose proof (Z.mod_pos_bound (u - ticks_of c1 AX) (res_x sc) ltac:(lia)) as M. fold k in D.
        destruct (X1 k u w0) as (w & WA & ->); [|nia|apply weight_at_line; exact WA].
        split; [apply Z.div_pos; lia|]. apply Z.div_lt_upper_bound; lia.
      * cbn [andb]. rewrite P1 by lia. symmetry. apply exposure_early.
        eapply Forall_impl; [|apply (lines_ticks _ _ _ _ _ (st_clocked _ _ S) H)]. cbv beta. intros; lia.
    + destruct (Z.ltb_spec u (ticks_of c AX)) as [L|L]; [lia|]. cbn [exposure].
      destruct (Z.ltb_spec u (ticks_of c1 AX + l_len l * res_x sc)); [lia|].
      rewrite andb_false_r. reflexivity.
Qed.

(** *** The head *)

Record fits (c : ctx) (sc : scan) (width height : Z) : Prop := {
  fi_a : forall i, 1 <= a_max c i <= 32767;
  fi_v : forall i, 1 <= v_max c i <= 2 ^ 20;
  fi_res : 1 <= res_x sc /\ 0 <= res_y sc;
  fi_short : width * res_x sc < 2 ^ 31;
  fi_vx : 0 <= v_x sc <= v_max c AX;
  fi_w : 2 * v_x sc * res_x sc * width <= 2 ^ 38;
  fi_h : height * res_y sc * Z.abs (step_y sc) <= 2 ^ 38
}.

Record ready (c : ctx) : Prop := {
  re_pos : forall i, Z.abs (c_pos (channel c i)) <= 2 ^ 39;
  re_v : forall i, Z.abs (c_v (channel c i)) <= v_max c i
}.

Record line_in (sc : scan) (width height : Z) (l : line) : Prop := {
  li_start : 0 <= l_start l;
  li_len : 0 < l_len l;
  li_end : l_start l + l_len l <= width;
  li_y : 0 <= l_y l < height;
  li_rep : 0 <= l_rep l < res_y sc
}.

Lemma fits_step : forall c c' sc w h, step c c' -> fits c sc w h -> fits c' sc w h.
Proof.
  intros c c' sc w h S [A V R SH X W H]. pose proof (config_max _ _ (st_config _ _ S)) as K.
  constructor; [| |exact R|exact SH| |exact W|exact H].
  - intros i. destruct (K i) as [_ ->]. apply A.
  - intros i. destruct (K i) as [-> _]. apply V.
  - destruct (K AX) as [-> _]. exact X.
Qed.

Lemma goto_place : forall c x y vx vy c', clocked c -> step_goto_speed c x y vx vy = Ok c' ->
  goto_axis c AX x vx -> goto_axis c AY y vy ->
  Z.abs (c_pos (channel c' AX) - x) <= 1 /\ Z.abs (c_pos (channel c' AY) - y) <= 1.
Proof.
  intros c x y vx vy c' Hc G (X1 & X2 & X3 & X4 & X5 & X6) (Y1 & Y2 & Y3 & Y4 & Y5 & Y6).
  destruct (step_goto_speed_spec code c x y vx vy c' Hc planner_typed G)
    as (sx & sy & rest & Ep & _ & _ & _ & _ & _ & ST & _).
  set (limits := [_; _]) in Ep.
  assert (HS : Forall lim_supported limits).
  { repeat constructor; cbn [l_ds l_v0 l_vn l_a l_vmax]; lia. }
  destruct (sequences_spec limits ltac:(discriminate) HS) as (t & r & h & _ & _ & Ht & _ & _ & Es & HF).
  destruct (seqs_for_spec t limits Ht HS HF) as [_ S2].
  rewrite Es in Ep. apply S2 in Ep. inversion Ep as [|l1 q1 r1 r2 Hx Hr]; subst.
  inversion Hr as [|l2 q2 r3 r4 Hy Hr']; subst.
  destruct Hx as (_ & dx & Mx & Dx). destruct Hy as (_ & dy & My & Dy).
  pose proof (mv_dist _ _ _ _ _ _ _ _ Mx) as Ex. pose proof (mv_dist _ _ _ _ _ _ _ _ My) as Ey.
  cbn [l_ds l_v0 l_vn l_a l_vmax] in *.
  pose proof (f_equal fst (ST AX)) as PX. pose proof (f_equal fst (ST AY)) as PY.
  unfold c_state in PX, PY. cbn [fst pick channel] in *. lia.
Qed.

Lemma line_goto_ok : forall c sc w h l, fits c sc w h -> ready c -> line_in sc w h l ->
  goto_axis c AX (line_x sc l) (if l_ltr l then v_x sc else - v_x sc) /\ goto_axis c AY (line_y sc l) 0 /\
  line_x sc l = 2 * v_x sc * res_x sc * (if l_ltr l then l_start l else l_start l + l_len l).
Proof.
  intros c sc w h l [A V [R1 R2] SH X W H] [RP RV] [LS LL LE LY LR].
  assert (EX : line_x sc l = 2 * v_x sc * res_x sc * (if l_ltr l then l_start l else l_start l + l_len l)).
  { unfold line_x. pose proof (V AX). unfold as_u32. rewrite wrap_u_id by lia. lia. }
  assert (P0 : 0 <= 2 * v_x sc * res_x sc) by nia.
  assert (BX : 0 <= line_x sc l <= 2 ^ 38).
  { rewrite EX. split; [destruct (l_ltr l); nia|]. etransitivity; [|exact W]. apply Z.mul_le_mono_nonneg_l; [exact P0|].
    destruct (l_ltr l); lia. }
  assert (BY : Z.abs (line_y sc l) <= 2 ^ 38).
  { unfold line_y. rewrite Z.abs_mul. etransitivity; [|exact H]. apply Z.mul_le_mono_nonneg_r; [lia|].
    rewrite Z.abs_eq by nia. nia. }
  pose proof (RP AX). pose proof (RP AY). pose proof (RV AX). pose proof (RV AY).
  pose proof (A AX). pose proof (A AY). pose proof (V AX). pose proof (V AY).
  unfold goto_axis. split; [|split; [|exact EX]].
  - repeat split; try lia. destruct (l_ltr l); lia.
  - repeat split; lia.
Qed.

Lemma coast_place : forall c c' n i, clocked c -> coasts c c' n -> c_move c i = c_state c i ->
  (forall k, 0 <= k < n -> let s := play_axis i (events c') (ticks_of c i + k) (mk_axis 0 0 0) in
     s_pos s = c_pos (channel c i) + 2 * c_v (channel c i) * k /\ s_v s = c_v (channel c i)) /\
  c_move c' i = c_state c' i.
Proof.
  intros c c' n i Hc C M.
  assert (TR : forall v m, travel v (repeat 0 m) = 2 * v * Z.of_nat m /\ final_speed v (repeat 0 m) = v).
  { clear. intros v m. revert v. induction m as [|m IH]; intros v; cbn [repeat travel final_speed]; [lia|].
    rewrite Z.add_0_r. destruct (IH v) as [-> ->]. lia. }
  destruct (co_follows _ _ _ C i) as [F1 F2 F3 F4].
  unfold c_move, motion in *. cbv zeta in *. unfold c_state in *.
  pose proof (f_equal fst M) as M1. pose proof (f_equal snd M) as M2. cbn [fst snd] in M1, M2.
  split.
  - intros k Hk. specialize (F3 (Z.to_nat k) (mk_axis 0 0 0)).
    rewrite repeat_length, Z2Nat.id in F3 by lia. rewrite F3 by lia. rewrite firstn_repeat by lia.
    destruct (TR (s_v (play_axis i (events c) (ticks_of c i) (mk_axis 0 0 0))) (Z.to_nat k)) as [-> ->].
    cbn [s_pos s_v]. unfold s0 in *. rewrite M1, M2. rewrite Z2Nat.id by lia. auto.
  - destruct (F4 (mk_axis 0 0 0)) as [P1 P2]. pose proof (co_state _ _ _ C i) as E. unfold c_state in E.
    destruct (TR (s_v (play_axis i (events c) (ticks_of c i) (mk_axis 0 0 0))) (Z.to_nat n)) as [T1 T2].
    rewrite T1 in P1. rewrite T2 in P2. unfold s0 in *. pose proof (co_n _ _ _ C).
    pose proof (f_equal fst E) as E1. pose proof (f_equal snd E) as E2. cbn [fst snd] in E1, E2.
    rewrite Z2Nat.id in P1 by lia. apply f_equal2; [rewrite P1, E1, M1, M2; ring|rewrite P2, E2; exact M2].
Qed.

(** The head at tick [t] of a line that starts at [t0]. *)
Definition on_line (sc : scan) (l : line) (t0 : Z) (ax ay : axis_state) (t : Z) : Prop :=
  let v := if l_ltr l then v_x sc else - v_x sc in
  Z.abs (s_pos ax - (2 * v_x sc * res_x sc * (if l_ltr l then l_start l else l_start l + l_len l) + 2 * v * (t - t0))) <= 1 /\
  Z.abs (s_pos ay - line_y sc l) <= 1 /\ s_v ax = v /\ s_v ay = 0.

Lemma lines_place : forall sc c l ts c' w h, clocked c -> ticks_of c AX = ticks_of c AY ->
  lines_drawn sc c l ts c' ->
  fits c sc w h -> ready c -> Forall (line_in sc w h) l -> (forall i, c_move c i = c_state c i) ->
  (forall i, ticks_of c' i < u64_max) ->
  (exists ops, kept within_speed c ops c' /\ now_history code c ops c' /\ Forall not_reset ops /\ Forall not_speed ops) /\
  ready c' /\ (forall i, c_move c' i = c_state c' i) /\ ticks_of c' AX = ticks_of c' AY /\
  (forall i t s, 0 <= t < ticks_of c i -> play_axis i (events c') t s = play_axis i (events c) t s) /\
  (forall x t0, In (x, t0) (combine l ts) -> forall t, t0 <= t < t0 + l_len x * res_x sc ->
     t < ticks_of c' AX /\
     on_line sc x t0 (play_axis AX (events c') t (mk_axis 0 0 0)) (play_axis AY (events c') t (mk_axis 0 0 0)) t).
Proof.
  intros sc c l ts c' w h Hc Sy H. induction H as [c|c c1 c2 l r ts c' LD H IH]; intros Fi Re In_ M Ht.
  - split; [exists []; repeat split; constructor|]. split; [exact Re|]. split; [exact M|]. split; [exact Sy|].
    split; [reflexivity|]. intros x t0 [].
  - inversion In_ as [|? ? L1 Lr]; subst.
    destruct (line_goto_ok c sc w h l Fi Re L1) as (GX & GY & EX).
    pose proof (line_step _ _ _ _ _ _ _ _ _ _ LD) as S.
    pose proof (lines_step _ _ _ _ _ (st_clocked _ _ S) H) as S'.
    destruct LD as [RG G S1 W1 Y1 [VX VY] C1 Se1 B1 P1 X1 A1].
    pose proof (st_clocked _ _ S1) as Hc1. pose proof (st_clocked _ _ S) as Hc2.
    assert (T2 : forall i, ticks_of c2 i < u64_max) by (intros i; pose proof (st_ticks _ _ S' i); specialize (Ht i); lia).
    assert (T1 : forall i, ticks_of c1 i < u64_max)
      by (intros i; pose proof (st_ticks _ _ (co_step _ _ _ C1) i); specialize (T2 i); lia).
    destruct (goto_place c _ _ _ _ c1 Hc G GX GY) as [PX PY].
    destruct (step_goto_speed_spec code c _ _ _ _ c1 Hc planner_typed G)
      as (sx & sy & rest & _ & _ & _ & _ & _ & _ & _ & _ & Mv & _).
    assert (M1 : forall i, c_move c1 i = c_state c1 i) by (intros i; apply (Mv T1 i), M).
    assert (M2 : forall i, c_move c2 i = c_state c2 i) by (intros i; apply (coast_place c1 c2 _ i Hc1 C1 (M1 i))).
    assert (Y2 : ticks_of c2 AX = ticks_of c2 AY) by (rewrite !(co_ticks _ _ _ C1); lia).
    pose proof (config_max _ _ (st_config _ _ S1)) as K1. pose proof (config_max _ _ (st_config _ _ S)) as K2.
    assert (ST : forall i, c_pos (channel c2 i) = c_pos (channel c1 i) + 2 * (l_len l * res_x sc) * c_v (channel c1 i) /\
        c_v (channel c2 i) = c_v (channel c1 i)).
    { intros i. pose proof (co_state _ _ _ C1 i) as E. unfold c_state in E.
      split; [exact (f_equal fst E)|exact (f_equal snd E)]. }
    destruct Fi as [FA FV [FR FR2] FSH FX FW FH]. destruct L1 as [LS LL LE LY LR].
    assert (P0 : 0 <= 2 * v_x sc * res_x sc) by nia.
    assert (V1 : forall i, Z.abs (c_v (channel c1 i)) <= v_max c1 i).
    { intros i. destruct (K1 i) as [-> _]. destruct i; [rewrite VX|rewrite VY].
      - destruct (l_ltr l); lia. - pose proof (FV AY). lia. }
    assert (Re2 : ready c2).
    { constructor.
      - intros i. destruct (ST i) as [-> _]. destruct i; [rewrite VX|rewrite VY].
        + rewrite EX in PX.
          replace (2 * v_x sc * res_x sc * (if l_ltr l then l_start l else l_start l + l_len l)) with
            (2 * v_x sc * res_x sc * l_start l + (if l_ltr l then 0 else 2 * v_x sc * res_x sc * l_len l)) in PX
            by (destruct (l_ltr l); ring).
          assert (B : 0 <= 2 * v_x sc * res_x sc * (l_start l + l_len l) <= 2 ^ 38).
          { split; [nia|]. etransitivity; [|exact FW]. apply Z.mul_le_mono_nonneg_l; [exact P0|lia]. }
          assert (B0 : 0 <= 2 * v_x sc * res_x sc * l_start l) by nia.
          assert (BL : 0 <= 2 * v_x sc * res_x sc * l_len l) by nia.
          replace (2 * (l_len l * res_x sc) * (if l_ltr l then v_x sc else - v_x sc))
            with ((if l_ltr l then 1 else -1) * (2 * v_x sc * res_x sc * l_len l)) by (destruct (l_ltr l); ring).
          rewrite Z.mul_add_distr_l in B.
          generalize dependent (2 * v_x sc * res_x sc * l_start l). intros a B2 PX B0.
          generalize dependent (2 * v_x sc * res_x sc * l_len l). intros b B2 PX BL.
          clear - B2 PX B0 BL. destruct (l_ltr l); lia.
        + assert (BY : Z.abs (line_y sc l) <= 2 ^ 38).
          { unfold line_y. rewrite Z.abs_mul. etransitivity; [|exact FH]. apply Z.mul_le_mono_nonneg_r; [lia|].
            rewrite Z.abs_eq by nia. nia. }
          lia.
      - intros i. destruct (ST i) as [_ ->]. destruct (K1 i) as [E1 _]. destruct (K2 i) as [E2 _].
        rewrite E2, <- E1. apply V1. }
    assert (SH1 : l_len l * res_x sc < 2 ^ 31) by nia.
    destruct (IH Hc2 Y2) as ((ops & O1 & O2 & O3 & O4) & I2 & I3 & I4 & I5 & I6); auto.
    { eapply fits_step; [exact S|]. constructor; auto. }
    destruct (se_ops _ _ _ Se1) as (os & N1 & Ca & Ke). specialize (Ke SH1 V1).
    destruct (calm_ok os Ca) as [Ca1 Ca2].
    destruct (goto_follows code c _ _ _ _ c1 Hc planner_typed G T1) as (qx & qy & qr & _ & Fo).
    assert (BF : forall i t s, 0 <= t < ticks_of c i -> play_axis i (events c2) t s = play_axis i (events c) t s).
    { intros i t s Hti. rewrite (fo_before _ _ _ _ (co_follows _ _ _ C1 i)), (fo_before _ _ _ _ (Fo i)); auto.
      pose proof (st_ticks _ _ S1 i). lia. }
    split.
    { exists (GotoSpeed (line_x sc l) (line_y sc l) (if l_ltr l then v_x sc else - v_x sc) 0 :: os ++ ops).
      split; [eapply kept_cons; [exact I|exact (conj GX GY)|exact G|eapply kept_app; eauto]|].
      split; [eapply now_cons; [exact I|exact G|eapply now_history_app; eauto]|].
      split; constructor; try exact I; apply Forall_app; auto. }
    split; [exact I2|]. split; [exact I3|]. split; [exact I4|]. split.
    { intros i t s Hti. rewrite I5, BF; auto. pose proof (st_ticks _ _ S i). lia. }
    cbn [combine]. intros x t0 [E|Hin]; [|exact (I6 x t0 Hin)].
    injection E as <- <-. intros t Htt. pose proof (ck_ticks c1 Hc1 AX) as T0.
    pose proof (co_ticks _ _ _ C1 AX) as TX. pose proof (co_ticks _ _ _ C1 AY) as TY.
    pose proof (st_ticks _ _ S' AX) as TX'.
    split; [lia|]. rewrite !I5 by lia.
    destruct (coast_place c1 c2 _ AX Hc1 C1 (M1 AX)) as [CX _].
    destruct (coast_place c1 c2 _ AY Hc1 C1 (M1 AY)) as [CY _].
    specialize (CX (t - ticks_of c1 AX) ltac:(lia)). specialize (CY (t - ticks_of c1 AX) ltac:(lia)).
    cbv zeta in CX, CY. rewrite <- Y1 in CY. rewrite Zplus_minus in CX, CY.
    destruct CX as [X2 X3]. destruct CY as [Y3 Y4]. rewrite VX in X2, X3. rewrite VY in Y3, Y4.
    unfold on_line. cbv zeta. rewrite <- EX. repeat split; lia.
Qed.

Lemma image_lines_in : forall sc w h yn ltr rows l, image_lines (res_y sc) yn ltr rows l -> 0 <= yn ->
  yn + Z.of_nat (length rows) <= h -> (forall row, In row rows -> Z.of_nat (length row) <= w) ->
  Forall (line_in sc w h) l.
Proof.
  intros sc w h yn ltr rows l H. induction H; intros Hyn HH HW.
  - constructor.
  - cbn [length] in HH. apply IHimage_lines; try lia. intros r0 Hr. apply HW. right. exact Hr.
  - cbn [length] in HH. apply Forall_app. split.
    + specialize (HW row (or_introl eq_refl)).
      assert (B : forall n r d, 0 <= r -> r + Z.of_nat n <= Z.max 0 (res_y sc) ->
        Forall (line_in sc w h) (row_lines yn row (Z.of_nat start) (Z.of_nat len) n r d)).
      { induction n as [|n IHn]; intros r d Hr Hn; cbn [row_lines]; constructor.
        - constructor; cbn [l_start l_len l_y l_rep]; lia.
        - apply IHn; lia. }
      apply B; lia.
    + apply IHimage_lines; try lia. intros r0 Hr. apply HW. right. exact Hr.
Qed.

Lemma raster_lines : forall sc rows c c', clocked c -> move_weight c = 0 -> 0 <= res_x sc ->
  raster sc rows c = Ok c' -> exists l ts c1,
  image_lines (res_y sc) 0 true rows l /\ lines_drawn sc c l ts c1 /\ step_goto_speed c1 0 0 0 0 = Ok c'.
Proof.
  intros sc rows c c' Hc MW Hr H. unfold raster in H. apply bind_Ok in H. destruct H as (c1 & E & G).
  destruct (rows_loop_spec sc rows 0 true c c1 Hc MW Hr E) as (l & ts & IL & LD).
  exists l, ts, c1. auto.
Qed.

Lemma exposure_at : forall sc c l ts c', clocked c -> lines_drawn sc c l ts c' ->
  forall x t0 t, In (x, t0) (combine l ts) -> t0 <= t < t0 + l_len x * res_x sc ->
  exposure sc l ts t = line_weight (black sc) x ((t - t0) / res_x sc).
Proof.
  intros sc c l ts c' Hc H. induction H as [c|c c1 c2 l r ts c' LD H IH]; intros x t0 t Hin Ht; [destruct Hin|].
  pose proof (line_step _ _ _ _ _ _ _ _ _ _ LD) as S. pose proof (st_clocked _ _ S) as Hc2.
  cbn [combine] in Hin. cbn [exposure]. destruct Hin as [E|Hin].
  - injection E as <- <-. destruct (Z.leb_spec (ticks_of c1 AX) t); [|lia].
    destruct (Z.ltb_spec t (ticks_of c1 AX + l_len l * res_x sc)); [|lia]. reflexivity.
  - pose proof (lines_ticks _ _ _ _ _ Hc2 H) as F. rewrite Forall_forall in F.
    specialize (F t0 (in_combine_r _ _ _ _ Hin)).
    pose proof (co_ticks _ _ _ (ld_coasts _ _ _ _ _ _ _ _ _ _ LD) AX) as T.
    destruct (Z.ltb_spec t (ticks_of c1 AX + l_len l * res_x sc)); [lia|]. rewrite andb_false_r.
    apply IH; auto.
Qed.

Lemma exposure_in : forall sc l ts t, exposure sc l ts t <> 0 -> exists x t0, In (x, t0) (combine l ts) /\
  t0 <= t < t0 + l_len x * res_x sc /\ exposure sc l ts t = line_weight (black sc) x ((t - t0) / res_x sc).
Proof.
  intros sc. induction l as [|x l IH]; intros [|t0 ts] t H; cbn [exposure] in *; try congruence.
  destruct ((t0 <=? t) && (t <? t0 + l_len x * res_x sc)) eqn:E.
  - exists x, t0. split; [left; reflexivity|]. split; [lia|reflexivity].
  - destruct (IH ts t H) as (y & t1 & I & R & W). exists y, t1. split; [right; exact I|]. auto.
Qed.

(** Each dark pixel lies on a line of its row for each repeat. *)
Lemma row_lines_in : forall yn row st len n r0 ltr r, r0 <= r < r0 + Z.of_nat n ->
  exists d, In (mk_line yn row r d st len) (row_lines yn row st len n r0 ltr).
Proof.
  intros yn row st len. induction n as [|n IH]; intros r0 ltr r Hr; [lia|]. cbn [row_lines].
  destruct (Z.eq_dec r r0) as [->|]; [exists ltr; left; reflexivity|].
  destruct (IH (r0 + 1) (negb ltr) r) as (d & Hd); [lia|]. exists d. right. exact Hd.
Qed.

Lemma dark_pixel_line : forall res_y yn ltr rows l, image_lines res_y yn ltr rows l ->
  forall y row x p r, nth_error rows y = Some row -> nth_error row x = Some p -> p < 255 -> 0 <= r < res_y ->
  exists d st len, In (mk_line (yn + Z.of_nat y) row r d st len) l /\ st <= Z.of_nat x < st + len.
Proof.
  intros ry yn ltr rows l H. induction H; intros y row0 x p r Hy Hx Hp Hr.
  - destruct y; discriminate.
  - destruct y as [|y]; cbn [nth_error] in Hy.
    + injection Hy as ->. apply nth_error_In in Hx. specialize (H p Hx). lia.
    + destruct (IHimage_lines y row0 x p r Hy Hx Hp Hr) as (d & st & len & I & B).
      exists d, st, len. split; [|exact B]. replace (yn + Z.of_nat (S y)) with (yn + 1 + Z.of_nat y) by lia. exact I.
  - destruct y as [|y]; cbn [nth_error] in Hy.
    + injection Hy as ->. specialize (H1 x p Hx Hp).
      destruct (row_lines_in yn row0 (Z.of_nat start) (Z.of_nat len) (Z.to_nat ry) 0 ltr r) as (d & Hd); [lia|].
      exists d, (Z.of_nat start), (Z.of_nat len). split; [|lia]. apply in_or_app. left.
      replace (yn + Z.of_nat 0) with yn by lia. exact Hd.
    + destruct (IHimage_lines y row0 x p r Hy Hx Hp Hr) as (d & st & ln & I & B).
      exists d, st, ln. split; [|exact B]. replace (yn + Z.of_nat (S y)) with (yn + 1 + Z.of_nat y) by lia.
      apply in_or_app. right. exact I.
Qed.

(** Conversely every line is of a row of the image. *)
Lemma row_lines_of : forall yn row st len n r0 ltr x, In x (row_lines yn row st len n r0 ltr) ->
  l_y x = yn /\ l_row x = row /\ l_start x = st /\ l_len x = len /\ r0 <= l_rep x < r0 + Z.of_nat n.
Proof.
  intros yn row st len. induction n as [|n IH]; intros r0 ltr x H; [destruct H|]. cbn [row_lines] in H.
  destruct H as [<-|H]; [cbn; repeat split; lia|]. destruct (IH _ _ _ H) as (A & B & C & D & E). repeat split; auto; lia.
Qed.

Lemma line_of_image : forall res_y yn ltr rows l, image_lines res_y yn ltr rows l -> forall x, In x l ->
  exists y, nth_error rows y = Some (l_row x) /\ l_y x = yn + Z.of_nat y /\ 0 <= l_rep x < res_y /\
    0 <= l_start x /\ 0 < l_len x /\ l_start x + l_len x <= Z.of_nat (length (l_row x)).
Proof.
  intros ry yn ltr rows l H. induction H; intros x Hx.
  - destruct Hx.
  - destruct (IHimage_lines x Hx) as (y & A & B & R). exists (S y). split; [exact A|]. split; [lia|exact R].
  - apply in_app_or in Hx. destruct Hx as [Hx|Hx].
    + destruct (row_lines_of _ _ _ _ _ _ _ _ Hx) as (A & B & C & D & E). exists 0%nat. cbn [nth_error].
      rewrite B, A, C, D. split; [reflexivity|]. repeat split; lia.
    + destruct (IHimage_lines x Hx) as (y & A & B & R). exists (S y). split; [exact A|]. split; [lia|exact R].
Qed.

Lemma lines_length : forall sc c l ts c', lines_drawn sc c l ts c' -> length l = length ts.
Proof. intros sc c l ts c' H. induction H; cbn [length]; congruence. Qed.

Lemma combine_in : forall {A B} (l : list A) (m : list B) x, length l = length m -> In x l ->
  exists y, In (x, y) (combine l m).
Proof.
  intros A B. induction l as [|a l IH]; intros [|b m] x E H; cbn [length] in E; try discriminate; [destruct H|].
  cbn [combine]. destruct H as [->|H]; [exists b; left; reflexivity|].
  destruct (IH m x ltac:(lia) H) as (y & Hy). exists y. right. exact Hy.
Qed.

(** On its line the head is over the pixel of the tick. *)
Lemma over_pixel : forall sc l t0 ax ay t, 1 <= res_x sc -> 0 <= v_x sc -> t0 <= t < t0 + l_len l * res_x sc ->
  on_line sc l t0 ax ay t ->
  let px := pixel_of l ((t - t0) / res_x sc) in
  l_start l <= px < l_start l + l_len l /\
  2 * v_x sc * res_x sc * px - 1 <= s_pos ax <= 2 * v_x sc * res_x sc * (px + 1) + 1.
Proof.
  intros sc l t0 ax ay t Hr Hv Ht [P _] px. subst px. unfold pixel_of.
  pose proof (Z.div_mod (t - t0) (res_x sc) ltac:(lia)) as D.
  pose proof (Z.mod_pos_bound (t - t0) (res_x sc) ltac:(lia)) as M.
  assert (K : 0 <= (t - t0) / res_x sc < l_len l) by (split; [apply Z.div_pos; lia|apply Z.div_lt_upper_bound; lia]).
  set (k := (t - t0) / res_x sc) in *. set (m := (t - t0) mod res_x sc) in *. rewrite D in P.
  assert (B : 0 <= 2 * v_x sc * m <= 2 * v_x sc * res_x sc) by nia.
  destruct (l_ltr l); split; lia.
Qed.

(** The first line goes to the right. *)
Lemma image_first : forall res_y yn ltr rows x r, image_lines res_y yn ltr rows (x :: r) -> l_ltr x = ltr.
Proof.
  intros ry yn ltr rows x r H. remember (x :: r) as l eqn:E. revert E. induction H; intros E.
  - discriminate.
  - auto.
  - destruct (Z.to_nat ry) as [|n] eqn:N.
    + cbn [row_lines app] in E. rewrite (IHimage_lines E). replace (Z.max 0 ry) with 0 by lia.
      rewrite xorb_false_r. reflexivity.
    + cbn [row_lines app] in E. injection E as <- _. reflexivity.
Qed.
