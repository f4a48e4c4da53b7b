(** When a drawing succeeds: the contexts in which a run of curves can be drawn, and the
    context that is left by it. *)
From Coq Require Import ZArith List Bool Lia.
From Coq Require Import ZifyBool ZifyNat.
From Verif Require Import Base Floats AccVector MotionSpec AccVectorProofs IntegerCurve StepperContext
  MachineSpec MachineProofs ContextProofs ContextOps ContextHist ContextClock ContextGoto MachinePath ApproxCurve
  ApproxProofs PropsIntegerCurve PropsDuration PropsContext PropsApprox DrawCurves
  DrawProofs DrawPlan.
Import ListNotations.
Open Scope Z_scope.

(** ** The duration of a goto *)

Lemma segs_loop_ticks : forall fuel c px py c', clocked c -> Forall seg_typed px -> Forall seg_typed py ->
  segs_loop fuel c px py = Ok c' -> forall i, ticks_of c' i <= ticks_of c i + Z.of_nat (length (expand (pick i px py))).
Proof.
  induction fuel as [|fuel IH]; intros c px py c' Hc Tx Ty H i; cbn [segs_loop] in H;
    destruct (next_channel c px py) as [j|]; try discriminate; try (injection H as <-; lia).
  destruct j, px as [|s px], py as [|s' py]; try (injection H as <-; lia);
    apply bind_Ok in H; destruct H as (c1 & E & H).
  1,2: pose proof (Forall_inv Tx) as P; pose proof (Forall_inv_tail Tx) as Tx'.
  3,4: pose proof (Forall_inv Ty) as P; pose proof (Forall_inv_tail Ty) as Ty'.
  all: destruct (emit_seg_spec _ _ _ _ Hc P E) as (S & _ & T & T' & _).
  all: match type of H with segs_loop _ _ ?a ?b = _ =>
         assert (K : ticks_of c' i <= ticks_of c1 i + Z.of_nat (length (expand (pick i a b))))
           by (apply (IH c1 a b c'); auto; apply S) end.
  all: destruct P as [P _]; destruct i; cbn [pick] in *.
  all: first [rewrite T in K | rewrite T' in K by discriminate].
  all: try lia.
  all: cbn [expand]; match goal with |- context [expand ((?a) :: _)] => destruct a as [n a] | _ => idtac end.
  all: try (destruct s as [n a]); try (destruct s' as [n' a']); cbn [expand fst] in *; rewrite ?app_length, ?repeat_length in *; lia.
Qed.

(** ** Contexts that are ready

    Both channels at the same time, no event in the future, within the speed limits, not
    further than [P] from the origin and not later than [T]. *)
Record able (a v P : axis -> Z) (T : Z) (c : ctx) : Prop := {
  ab_timely : timely c;
  ab_sync : ticks_of c AX = ticks_of c AY;
  ab_acc : forall i, a_max c i = a i;
  ab_max : forall i, v_max c i = v i;
  ab_speed : forall i, Z.abs (c_v (channel c i)) <= v i;
  ab_place : forall i, Z.abs (c_pos (channel c i)) <= P i;
  ab_ticks : ticks_of c AX <= T
}.

Lemma able_more : forall a v P P' T T' c, (forall i, P i <= P' i) -> T <= T' -> able a v P T c -> able a v P' T' c.
Proof.
  intros a v P P' T T' c HP HT [A1 A2 A3 A4 A5 A6 A7]. constructor; auto; [|lia].
  intros i. specialize (A6 i). specialize (HP i). lia.
Qed.

Lemma config_same : forall c c' a v, config c' = config c -> (forall i, a_max c i = a i) -> (forall i, v_max c i = v i) ->
  (forall i, a_max c' i = a i) /\ (forall i, v_max c' i = v i).
Proof.
  intros c c' a v C A V. split; intros i; destruct (config_max c c' C i) as [E1 E2]; [rewrite E2|rewrite E1]; auto.
Qed.

Lemma weight_able : forall a v P T c w, able a v P T c -> T <= u64_max ->
  exists c', add_weight_change c w (ticks_of c AX) = Ok c' /\ able a v P T c' /\ config c' = config c /\
    curve_weight c' = curve_weight c.
Proof.
  intros a v P T c w [[Hc He] A2 A3 A4 A5 A6 A7] HT.
  assert (E : exists c', add_weight_change c w (ticks_of c AX) = Ok c').
  { unfold add_weight_change. rewrite <- A2, Z.geb_leb, Z.leb_refl. cbn [assert bind]. apply push_event_ok; [exact Hc|lia]. }
  destruct E as [c' E]. exists c'. split; [exact E|].
  pose proof (ck_ticks c Hc AX) as Ht.
  destruct (add_weight_spec c w (ticks_of c AX) c' Hc ltac:(lia) E) as (S & W & C & Tk & _ & V & _).
  split; [|split; [apply S|exact W]].
  destruct (config_same c c' a v (st_config _ _ S) A3 A4) as [B1 B2].
  constructor; auto.
  - split; [apply S|]. rewrite V, !Tk. lia.
  - rewrite !Tk. exact A2.
  - intros i. rewrite C. apply A5.
  - intros i. rewrite C. apply A6.
  - rewrite Tk. exact A7.
Qed.

(** Acceleration and speed limits for which the planner is good. *)
Definition limits_ok (a v : axis -> Z) : Prop := forall i, 1 <= a i <= 32767 /\ 1 <= v i <= 2 ^ 20.

Lemma storable_less : forall d d' a v, 1 <= a -> Z.abs d <= d' -> storable d' a v -> storable d a v.
Proof. intros d d' a v Ha Hd H. unfold storable in *. pose proof (Z.abs_nonneg d). rewrite (Z.abs_eq d') in H by lia. nia. Qed.

Lemma storable_short : forall d a v, 1 <= a <= 32767 -> 1 <= v <= 2 ^ 20 -> 0 <= d -> storable d a v -> d <= 2 ^ 40.
Proof.
  intros d a v Ha Hv Hd H. unfold storable in H. rewrite Z.abs_eq in H by lia.
  assert (a * d < a * (2 * v * 65533)) by nia. assert (d < 2 * v * 65533) by nia.
  change (2 ^ 20) with 1048576 in *. change (2 ^ 40) with 1099511627776. nia.
Qed.

(** A move over a distance that can be stored, between places within [P] and [G]. *)
Lemma goto_able_at : forall a v P G T c x y vx vy, limits_ok a v -> able a v P T c ->
  (forall i, P i + G i <= 2 ^ 40) -> storable (x - c_pos (channel c AX)) (a AX) (v AX) -> storable (y - c_pos (channel c AY)) (a AY) (v AY) ->
  T + 65535 < u64_max -> (forall i, 0 <= G i) ->
  Z.abs x <= G AX -> Z.abs y <= G AY -> Z.abs vx <= v AX -> Z.abs vy <= v AY ->
  exists c', step_goto_speed c x y vx vy = Ok c' /\ able a v (fun i => G i + 1) (T + 65535) c' /\
    config c' = config c /\ curve_weight c' = curve_weight c.
Proof.
  intros a v P G T c x y vx vy HL HA PG SX SY HT HG Hx Hy Hvx Hvy. pose proof HA as [Tm A2 A3 A4 A5 A6 A7]. destruct Tm as [Hc He].
  assert (P0 : forall i, 0 <= P i) by (intros i; specialize (A6 i); lia).
  change (2 ^ 40) with 1099511627776 in PG.
  assert (RX : axis_request (mk_limits (x - c_pos (channel c AX)) (c_v (channel c AX)) vx (a AX) (v AX))).
  { unfold axis_request, request. cbn [l_ds l_v0 l_vn l_a l_vmax]. destruct (HL AX) as [L1 L2]. specialize (A5 AX). specialize (A6 AX). specialize (PG AX). change (2 ^ 40) with 1099511627776. lia. }
  assert (RY : axis_request (mk_limits (y - c_pos (channel c AY)) (c_v (channel c AY)) vy (a AY) (v AY))).
  { unfold axis_request, request. cbn [l_ds l_v0 l_vn l_a l_vmax]. destruct (HL AY) as [L1 L2]. specialize (A5 AY). specialize (A6 AY). specialize (PG AY). change (2 ^ 40) with 1099511627776. lia. }
  set (lims := [mk_limits (x - c_pos (channel c AX)) (c_v (channel c AX)) vx (a AX) (v AX);
                mk_limits (y - c_pos (channel c AY)) (c_v (channel c AY)) vy (a AY) (v AY)]).
  assert (FR : Forall axis_request lims) by (constructor; [exact RX|constructor; [exact RY|constructor]]).
  assert (FS : Forall (fun l => storable (l_ds l) (l_a l) (l_vmax l)) lims) by (constructor; [exact SX|constructor; [exact SY|constructor]]).
  destruct (C96_axes lims ltac:(discriminate) FR FS) as (t & ss & Ht & Es & F2).
  assert (GX : goto_axis c AX x vx).
  { unfold goto_axis. rewrite A3, A4. destruct RX as (R1 & R2 & R3 & R4 & R5). cbn [l_ds l_v0 l_vn l_a l_vmax] in *.
    specialize (A6 AX). specialize (PG AX). specialize (HG AX). change (2 ^ 62) with 4611686018427387904. lia. }
  assert (GY : goto_axis c AY y vy).
  { unfold goto_axis. rewrite A3, A4. destruct RY as (R1 & R2 & R3 & R4 & R5). cbn [l_ds l_v0 l_vn l_a l_vmax] in *.
    specialize (A6 AY). specialize (PG AY). specialize (HG AY). change (2 ^ 62) with 4611686018427387904. lia. }
  destruct (goto_spec c x y vx vy Hc A2 ltac:(lia) ltac:(lia) GX GY) as (t' & (Ht' & r & h & EA & EB) & Hok & Hr).
  assert (B : t' <= 65535).
  { apply (common_duration (goto_limits c x y vx vy) r t' h); auto; [discriminate| |]; unfold goto_limits; rewrite !A3, !A4;
      [apply axes_supported; exact FR|exact FS]. }
  destruct (Hok B) as [c' E]. exists c'. split; [exact E|].
  destruct (Hr c' E) as (_ & _ & _ & _ & St & _ & _ & _ & _ & _).
  destruct (step_goto_speed_spec shortest_curve_sequences c x y vx vy c' Hc planner_typed E)
    as (sx & sy & rest & EP & _ & _ & _ & CW & SYN & CS & _ & _ & _).
  assert (TM : timely c') by (apply (now_op_timely shortest_curve_sequences c (GotoSpeed x y vx vy) c' planner_typed (conj Hc He) I E)).
  assert (LX : Z.of_nat (length (expand sx)) = t).
  { rewrite !A3, !A4 in EP. fold lims in EP. rewrite Es in EP. injection EP as ->. inversion F2 as [|? ? ? ? Q1 Q2]; subst. apply Q1. }
  assert (TK : ticks_of c' AX <= ticks_of c AX + 65535).
  { clear Hr Hok. pose proof E as E'. unfold step_goto_speed, step_goto_speed_with in E'.
    apply bind_Ok in E'. destruct E' as (u1 & _ & E'). apply bind_Ok in E'. destruct E' as (u2 & _ & E').
    apply bind_Ok in E'. destruct E' as (c1 & A & E'). apply bind_Ok in E'. destruct E' as (dx & D1 & E').
    apply bind_Ok in E'. destruct E' as (dy & D2 & E'). apply bind_Ok in E'. destruct E' as (ss' & PL & E').
    pose proof (ck_ticks c Hc AX) as Ht0.
    destruct (push_weight_spec c (ticks_of c AX) (move_weight c) c1) as (S1 & W1 & C1 & T1 & M1 & V1 & Q1); auto; try lia.
    apply chk_Ok in D1, D2. destruct D1 as [<- _]. destruct D2 as [<- _].
    destruct (config_same c c1 a v (st_config _ _ S1) A3 A4) as [B1 B2].
    rewrite !C1, !B1, !B2 in PL. fold lims in PL. rewrite !A3, !A4 in EP. fold lims in EP. rewrite EP in PL. injection PL as <-.
    pose proof (planner_typed _ _ EP) as HT2. inversion HT2 as [|? ? Tx HT3]; subst. inversion HT3 as [|? ? Ty _]; subst.
    apply bind_Ok in E'. destruct E' as (c2 & G1 & E'). apply bind_Ok in E'. destruct E' as (c3 & G2 & E').
    apply bind_Ok in E'. destruct E' as (c5 & G3 & E'). apply bind_Ok in E'. destruct E' as (u3 & _ & E').
    injection E' as <-.
    destruct (goto_one_spec c1 AX sx vx c2 Tx G1) as (F1 & Cw1 & E1 & Et1 & N1 & Tk1 & _).
    destruct (goto_one_spec c2 AY sy vy c3 Ty G2) as (F3 & Cw2 & E2 & Et2 & N2 & Tk2 & _).
    assert (TT : forall i, ticks_of (set_v (set_v c3 AX vx) AY vy) i = ticks_of c1 i).
    { intros i. rewrite <- Tk1, <- Tk2. destruct i; reflexivity. }
    assert (K : clocked (set_v (set_v c3 AX vx) AY vy)).
    { apply (clocked_eq c1); auto; [apply S1|change (events c3 = events c1); congruence|
        change (event_ticks c3 = event_ticks c1); congruence]. }
    pose proof (segs_loop_ticks _ _ _ _ _ K Tx Ty G3 AX) as R. rewrite TT, T1 in R. cbn [pick] in R. lia. }
  split; [|split; [apply St|exact CW]].
  destruct (config_same c c' a v (st_config _ _ St) A3 A4) as [B1 B2].
  constructor; auto.
  - intros i. pose proof (f_equal snd (CS i)) as V. cbn [c_state snd] in V. rewrite V. destruct i; assumption.
  - destruct (Hr c' E) as (sx' & sy' & _ & _ & _ & CS' & _ & Dx & Dy & _).
    intros i. pose proof (f_equal fst (CS' i)) as V. cbn [c_state fst] in V. rewrite V. destruct i; cbn [pick]; lia.
  - lia.
Qed.

Lemma goto_able : forall a v P G T c x y vx vy, limits_ok a v -> able a v P T c ->
  (forall i, storable (P i + G i) (a i) (v i)) -> T + 65535 < u64_max -> (forall i, 0 <= G i) ->
  Z.abs x <= G AX -> Z.abs y <= G AY -> Z.abs vx <= v AX -> Z.abs vy <= v AY ->
  exists c', step_goto_speed c x y vx vy = Ok c' /\ able a v (fun i => G i + 1) (T + 65535) c' /\
    config c' = config c /\ curve_weight c' = curve_weight c.
Proof.
  intros a v P G T c x y vx vy HL HA HS HT HG Hx Hy Hvx Hvy. pose proof (ab_place _ _ _ _ _ HA) as A6.
  apply (goto_able_at a v P G); auto.
  - intros i. destruct (HL i) as [L1 L2]. apply (storable_short _ (a i) (v i)); auto. specialize (A6 i). specialize (HG i). lia.
  - apply (storable_less _ (P AX + G AX)); [destruct (HL AX); lia| |apply HS]. specialize (A6 AX). lia.
  - apply (storable_less _ (P AY + G AY)); [destruct (HL AY); lia| |apply HS]. specialize (A6 AY). lia.
Qed.

(** ** Following a curve *)

Lemma approx_loop_room : forall n t s start curve v step_len c ex ey mx my c' m, clocked c ->
  (forall i, v_limit_ok (v_max c i)) -> (forall i, Z.abs (c_v (channel c i)) <= v_max c i) ->
  approx_loop n t s start curve v step_len c ex ey mx my = Ok (c', m) ->
  forall i, Z.abs (c_v (channel c' i)) <= v_max c i /\
    Z.abs (c_pos (channel c' i)) <= Z.abs (c_pos (channel c i)) + 2 * v_max c i * Z.of_nat n.
Proof.
  induction n as [|n IH]; intros t s start curve v step_len c ex ey mx my c' m Hc Hm Hv H i; cbn [approx_loop] in H.
  - injection H as <- _. split; [apply Hv|lia].
  - apply bind_Ok in H. destruct H as ([pos dir] & E0 & H).
    apply bind_Ok in H. destruct H as ([[ex' ax] tx] & E1 & H).
    apply bind_Ok in H. destruct H as ([[ey' ay] ty] & E2 & H).
    apply bind_Ok in H. destruct H as (c1 & E3 & H).
    apply bind_Ok in H. destruct H as (dx & E4 & H). apply bind_Ok in H. destruct H as (dy & E5 & H).
    destruct (approx_one_spec _ _ _ _ _ _ _ _ _ _ _ (Hm AX) (Hv AX) E1) as [Bx Rx].
    destruct (approx_one_spec _ _ _ _ _ _ _ _ _ _ _ (Hm AY) (Hv AY) E2) as [By Ry].
    destruct (add_acc_interval_spec c ax ay 1 c1 Hc ltac:(lia) E3) as (S & _ & _ & T & Sy & _ & St & _).
    assert (CM : forall j, v_max c1 j = v_max c j) by (intros j; apply (config_max c c1 (st_config _ _ S) j)).
    assert (PB : forall j, Z.abs (c_v (channel c1 j)) <= v_max c j /\
      Z.abs (c_pos (channel c1 j)) <= Z.abs (c_pos (channel c j)) + 2 * v_max c j).
    { intros j. pose proof (f_equal snd (St j)) as V. pose proof (f_equal fst (St j)) as P. cbn [c_state fst snd] in V, P.
      specialize (Hv j). rewrite V, P. destruct j; lia. }
    assert (M1 : forall j, v_limit_ok (v_max c1 j)) by (intros j; rewrite CM; apply Hm).
    assert (V1 : forall j, Z.abs (c_v (channel c1 j)) <= v_max c1 j) by (intros j; rewrite CM; apply PB).
    destruct (IH _ _ _ _ _ _ c1 _ _ _ _ _ _ (st_clocked _ _ S) M1 V1 H i) as [K1 K2]. rewrite CM in K1, K2.
    split; [exact K1|]. destruct (PB i) as [_ PBi]. lia.
Qed.

Lemma approx_able : forall a v P T N s c start curve speed, limits_ok a v -> able a v P T c ->
  curve_ticks curve speed <= N -> 0 <= N <= 2 ^ 31 -> T + N < u64_max -> (forall i, P i <= 2 ^ 60) ->
  (forall k, 1 <= k <= curve_ticks curve speed -> exists pos dir,
     fc_value curve (fmul (f_of_Z k) (fdiv (fc_length curve) (fround (fdiv (fc_length curve) speed)))) = Ok (pos, dir) /\
     forall i, Z.abs (target s start pos i) <= 2 ^ 62) ->
  exists c' m, approx_curve s c start curve speed = Ok (c', m) /\
    able a v (fun i => P i + 2 * v i * N) (T + N) c' /\ config c' = config c /\ curve_weight c' = curve_weight c.
Proof.
  intros a v P T N s c start curve speed HL [[Hc He] A2 A3 A4 A5 A6 A7] HK HN HT HP Hf.
  assert (VL : forall i, v_limit_ok (v_max c i)).
  { intros i. destruct (HL i) as [_ L2]. unfold v_limit_ok. rewrite A4. change (2 ^ 20) with 1048576 in L2. change (2 ^ 31) with 2147483648. lia. }
  assert (VS : forall i, Z.abs (c_v (channel c i)) <= v_max c i) by (intros i; rewrite A4; apply A5).
  set (n := Z.max 0 (curve_ticks curve speed)). assert (Hn : 0 <= n <= N) by lia.
  assert (Q60 : 2 ^ 60 + 2 * 2 ^ 20 * 2 ^ 31 <= 2 ^ 61) by (vm_compute; discriminate).
  assert (E : exists c' m, approx_curve s c start curve speed = Ok (c', m)).
  { unfold approx_curve. cbv zeta. fold (curve_ticks curve speed). apply approx_loop_ok; auto; try lia.
    - split; assumption.
    - intros k Hk. apply Hf. lia.
    - intros i. split; [apply VL|]. split; [apply VS|]. rewrite A4. specialize (A6 i). specialize (HP i). destruct (HL i) as [_ L2].
      assert (2 * v i * Z.of_nat (Z.to_nat (curve_ticks curve speed)) <= 2 * 2 ^ 20 * 2 ^ 31); [|lia].
      apply Z.mul_le_mono_nonneg; lia. }
  destruct E as (c' & m & E). exists c', m. split; [exact E|].
  unfold approx_curve in E. cbv zeta in E. fold (curve_ticks curve speed) in E.
  destruct (approx_loop_history _ _ _ _ _ _ _ c _ _ _ _ c' m Hc E) as (accs & Ln & Hi & St & Tk & _ & CW & _).
  pose proof (approx_loop_room _ _ _ _ _ _ _ c _ _ _ _ c' m Hc VL VS E) as RM.
  split; [|split; [apply St|exact CW]].
  destruct (config_same c c' a v (st_config _ _ St) A3 A4) as [B1 B2].
  assert (Tm : timely c').
  { apply (now_history_timely shortest_curve_sequences c (ticks_ops accs) c' planner_typed); [|split; assumption].
    clear - Hi. revert Hi. generalize c. induction accs as [|x l IH]; intros c0 H; inversion H; subst; [constructor|].
    econstructor; [cbn; unfold u32_max; lia|eassumption|]. apply IH. assumption. }
  constructor; auto.
  - rewrite !Tk. lia.
  - intros i. rewrite <- A4. apply RM.
  - intros i. destruct (RM i) as [_ R]. rewrite A4 in R. specialize (A6 i). destruct (HL i) as [_ L2].
    assert (2 * v i * Z.of_nat (Z.to_nat (curve_ticks curve speed)) <= 2 * v i * N) by (apply Z.mul_le_mono_nonneg_l; lia). lia.
  - rewrite Tk. lia.
Qed.

(** ** A run *)

(** A run that can be drawn: its start can be reached, its speed at the start is within the limits,
    it has no more than [N] ticks and its places are within the range of the steps. *)
Record run_ok (g : geometry) (s : scales) (speed : f64) (v G : axis -> Z) (N : Z) (start : fvec) (curves : list fseg) : Prop := {
  ro_start : forall i, exists n, to_steps s (fidx start i) i = Ok n /\ Z.abs n <= G i;
  ro_dir : exists p dir, fconcat_value g curves fzero = Ok (p, dir) /\
    forall i, exists n, to_step_v s (fidx (fvmul dir speed) i) i = Ok n /\ Z.abs n <= v i;
  ro_ticks : curve_ticks (fconcat g curves) speed <= N;
  ro_places : forall k, 1 <= k <= curve_ticks (fconcat g curves) speed -> exists pos dir,
     fconcat_value g curves (fmul (f_of_Z k) (fdiv (fconcat_length curves) (fround (fdiv (fconcat_length curves) speed)))) = Ok (pos, dir) /\
     forall i, Z.abs (target s start pos i) <= 2 ^ 62
}.

Lemma draw_able : forall g s speed a v G N T c start curves, limits_ok a v -> 0 <= N ->
  able a v (fun i => G i + 1 + 2 * v i * N) T c -> (forall i, 0 <= G i) ->
  (forall i, storable (2 * G i + 1 + 2 * v i * N) (a i) (v i)) -> T + 65535 + N < u64_max ->
  run_ok g s speed v G N start curves -> curves <> [] ->
  exists c' e, draw_curve g s c start curves speed = Ok (c', e) /\
    able a v (fun i => G i + 1 + 2 * v i * N) (T + 65535 + N) c' /\ config c' = config c /\ curve_weight c' = curve_weight c.
Proof.
  intros g s speed a v G N T c start curves HL HN HA HG HS HT [R1 (p & dir & R2 & R3) R4 R5] NE.
  assert (BND : forall i, 2 * G i + 1 + 2 * v i * N <= 2 ^ 40).
  { intros i. destruct (HL i) as [L1 L2]. apply (storable_short _ (a i) (v i)); auto. specialize (HG i). nia. }
  assert (Q : 2 ^ 40 <= 2 ^ 60) by (vm_compute; discriminate).
  assert (N40 : N <= 2 ^ 31).
  { specialize (HS AX). destruct (HL AX) as [L1 L2]. unfold storable in HS. specialize (HG AX).
    assert (a AX * (2 * v AX * N) <= a AX * Z.abs (2 * G AX + 1 + 2 * v AX * N)) by (apply Z.mul_le_mono_nonneg_l; nia).
    assert (2 * a AX * v AX * N < 2 * a AX * v AX * 65533) by nia. assert (N < 65533) by nia. change (2 ^ 31) with 2147483648. lia. }
  unfold draw_curve. destruct curves as [|x l]; [congruence|]. clear NE. set (curves := x :: l) in *.
  rewrite R2. cbn [bind].
  destruct (weight_able a v _ T c (move_weight c) HA ltac:(lia)) as (c1 & E1 & A1 & C1 & W1). rewrite E1. cbn [bind].
  destruct (R1 AX) as (ix & EX & BX). destruct (R1 AY) as (iy & EY & BY).
  destruct (R3 AX) as (jx & EVX & BVX). destruct (R3 AY) as (jy & EVY & BVY). cbn [fidx] in *.
  unfold goto_speed. rewrite EX. cbn [bind]. rewrite EY. cbn [bind]. rewrite EVX. cbn [bind]. rewrite EVY. cbn [bind].
  destruct (goto_able a v _ G T c1 ix iy jx jy HL A1) as (c2 & E2 & A2 & C2 & W2); auto; try lia.
  { intros i. replace (G i + 1 + 2 * v i * N + G i) with (2 * G i + 1 + 2 * v i * N) by ring. apply HS. }
  rewrite E2. cbn [bind].
  destruct (weight_able a v _ (T + 65535) c2 (curve_weight c2) A2 ltac:(lia)) as (c3 & E3 & A3 & C3 & W3). rewrite E3. cbn [bind].
  destruct (approx_able a v (fun i => G i + 1) (T + 65535) N s c3 start (fconcat g curves) speed HL A3 R4) as (c4 & m & E4 & A4 & C4 & W4); auto; try lia.
  { intros i. specialize (BND i). specialize (HG i). destruct (HL i) as [_ L2]. assert (0 <= 2 * v i * N) by nia. lia. }
  exists c4, m. split; [exact E4|]. split; [exact A4|]. split; congruence.
Qed.

(** ** A drawing of lines *)

Definition straight (seg : segment) : Prop :=
  match seg with SGoTo _ | SLineTo _ | SCloseTo _ => True | _ => False end.

(** The places a drawing from [pos] names. *)
Inductive names (pos : fvec) (segs : list segment) : fvec -> Prop :=
| nm_first : names pos segs pos
| nm_goto : forall p, In (SGoTo p) segs -> names pos segs p
| nm_line : forall p, In (SLineTo p) segs -> names pos segs p
| nm_close : forall p, In (SCloseTo p) segs -> names pos segs p.

(** Every run that may come up, whether or not its GoTo segments are passed over. *)
Definition runs_ok (g : geometry) (s : scales) (speed : f64) (v G : axis -> Z) (N : Z) (pos : fvec) (segs : list segment) : Prop :=
  forall q s1 part s2 l q' y jl, names pos segs q -> segs = s1 ++ part ++ s2 ->
    run_of g (fun _ => True) q None part l q' y -> join_from [] (map snd l) = Ok jl -> l <> [] ->
    run_ok g s speed v G N q jl.

Record going (g : geometry) (a v G : axis -> Z) (N T : Z) (pos0 : fvec) (segs past : list segment) (d : drawing) : Prop := {
  go_able : able a v (fun i => G i + 1 + 2 * v i * N) (T + Z.of_nat (length past) * (65535 + N)) (d_ctx d);
  go_run : exists s1 part l, past = s1 ++ part /\ run_of g (fun _ => True) (d_start d) None part l (d_pos d) (d_prev d) /\
     join_from [] (map snd l) = Ok (d_curves d);
  go_start : names pos0 segs (d_start d);
  go_pos : names pos0 segs (d_pos d)
}.

Lemma draw_open : forall g s speed a v G N T pos0 segs past rest d, limits_ok a v -> 0 <= N -> (forall i, 0 <= G i) ->
  (forall i, storable (2 * G i + 1 + 2 * v i * N) (a i) (v i)) ->
  T + Z.of_nat (S (length segs)) * (65535 + N) < u64_max -> runs_ok g s speed v G N pos0 segs -> segs = past ++ rest ->
  going g a v G N T pos0 segs past d ->
  exists c e, draw_curve g s (d_ctx d) (d_start d) (d_curves d) speed = Ok (c, e) /\
    able a v (fun i => G i + 1 + 2 * v i * N) (T + Z.of_nat (S (length past)) * (65535 + N)) c.
Proof.
  intros g s speed a v G N T pos0 segs past rest d HL HN HG HS HT RK SG [A (s1 & part & l & EP & R & J) N1 N2].
  assert (LN : (length past <= length segs)%nat) by (rewrite SG, app_length; lia).
  destruct l as [|pc l].
  - cbn [map join_from] in J. injection J as J. rewrite <- J. exists (d_ctx d), (0, 0). split; [reflexivity|].
    eapply able_more; [| |exact A]; [intros; cbv beta; lia|rewrite Nat2Z.inj_succ; nia].
  - assert (NE : d_curves d <> []) by (eapply join_nonempty; [exact J|left; discriminate]).
    assert (K : run_ok g s speed v G N (d_start d) (d_curves d)).
    { apply (RK (d_start d) s1 part rest (pc :: l) (d_pos d) (d_prev d)); auto; [|discriminate].
      rewrite SG, EP, <- app_assoc. reflexivity. }
    destruct (draw_able g s speed a v G N _ (d_ctx d) (d_start d) (d_curves d) HL HN A HG HS) as (c & e & E & A' & _); auto.
    { rewrite Nat2Z.inj_succ in HT. assert (Z.of_nat (length past) <= Z.of_nat (length segs)) by lia. nia. }
    exists c, e. split; [exact E|]. eapply able_more; [| |exact A']; [intros; cbv beta; lia|rewrite Nat2Z.inj_succ; nia].
Qed.

Lemma step_going : forall g s speed a v G N T pos0 segs past seg rest d, limits_ok a v -> 0 <= N -> (forall i, 0 <= G i) ->
  (forall i, storable (2 * G i + 1 + 2 * v i * N) (a i) (v i)) ->
  T + Z.of_nat (S (length segs)) * (65535 + N) < u64_max -> runs_ok g s speed v G N pos0 segs ->
  (forall p i, In (SGoTo p) segs -> exists n, to_steps s (fidx p i) i = Ok n) ->
  segs = past ++ seg :: rest -> straight seg -> going g a v G N T pos0 segs past d ->
  exists d', draw_step g s speed d seg = Ok d' /\ going g a v G N T pos0 segs (past ++ [seg]) d'.
Proof.
  intros g s speed a v G N T pos0 segs past seg rest d HL HN HG HS HT RK GT SG ST GO. pose proof GO as [A (s1 & part & l & EP & R & J) N1 N2].
  destruct (draw_open g s speed a v G N T pos0 segs past (seg :: rest) d HL HN HG HS HT RK SG GO) as (c & e & E & A').
  assert (LP : length (past ++ [seg]) = S (length past)) by (rewrite app_length; cbn; lia).
  assert (AM : able a v (fun i => G i + 1 + 2 * v i * N) (T + Z.of_nat (length (past ++ [seg])) * (65535 + N)) (d_ctx d)).
  { eapply able_more; [| |exact A]; [intros; cbv beta; lia|rewrite LP, Nat2Z.inj_succ; nia]. }
  assert (IN : In seg segs) by (rewrite SG; apply in_or_app; right; left; reflexivity).
  assert (LINE : forall p2, seg = SLineTo p2 \/ (seg = SCloseTo p2 /\ flt (fvlength (fvsub (d_pos d) p2)) short = false) ->
    exists d', draw_step g s speed d seg = Ok d' /\ going g a v G N T pos0 segs (past ++ [seg]) d').
  { intros p2 CS. set (crv := fline (fvsub p2 (d_pos d))).
    assert (NP : names pos0 segs p2) by (destruct CS as [->|[-> _]]; [apply nm_line|apply nm_close]; exact IN).
    assert (SI : seg_info g seg (d_pos d) = Ok (Some (crv, p2))) by (destruct CS as [->|[-> _]]; reflexivity).
    assert (NS : forall p, seg = SCloseTo p -> flt (fvlength (fvsub (d_pos d) p)) short = false).
    { intros p K. destruct CS as [->|[-> C]]; [discriminate K|injection K as <-; exact C]. }
    assert (EQ : draw_step g s speed d seg =
        let! info := seg_info g seg (d_pos d) in
        let! (curve, next_pos) := unwrap info in
        let! (_, start_dir) := fc_value curve fzero in
        let! d := (match d_prev d with
                   | Some prev =>
                       if flt (fdot start_dir prev) min_cos_connect then
                         let! (c, err) := draw_curve g s (d_ctx d) (d_start d) (d_curves d) speed in
                         Ok (mk_drawing c (d_pos d) (d_pos d) (d_prev d) [] (acc_max_err (d_err d) err))
                       else Ok d
                   | None => Ok d
                   end) in
        let! (_, end_dir) := fc_value curve (fc_length curve) in
        let! curves := fconcat_add (d_curves d) curve in
        Ok (mk_drawing (d_ctx d) next_pos (d_start d) (Some end_dir) curves (d_err d))).
    { destruct CS as [->|[-> C]]; unfold draw_step; [reflexivity|]. rewrite C. reflexivity. }
    rewrite EQ, SI. cbn [bind unwrap].
    assert (VL : exists dr, forall x, fc_value crv x = Ok (fvmul dr x, dr)) by (eexists; intros x; reflexivity).
    destruct VL as [dr VL]. rewrite VL. cbn [bind].
    assert (AD : forall m, exists m', fconcat_add m crv = Ok m').
    { intros m. unfold fconcat_add. rewrite VL. cbn [bind]. eauto. }
    assert (EXT : (forall pv, d_prev d = Some pv -> flt (fdot dr pv) min_cos_connect = false) -> exists d',
      (let! (_, end_dir) := fc_value crv (fc_length crv) in
       let! curves := fconcat_add (d_curves d) crv in
       Ok (mk_drawing (d_ctx d) p2 (d_start d) (Some end_dir) curves (d_err d))) = Ok d' /\
      going g a v G N T pos0 segs (past ++ [seg]) d').
    { intros SM. rewrite VL. cbn [bind]. destruct (AD (d_curves d)) as [m' EA]. rewrite EA. cbn [bind].
      eexists. split; [reflexivity|]. constructor; cbn [d_ctx d_pos d_start d_prev d_curves]; auto.
      exists s1, (part ++ [seg]), (l ++ [(d_pos d, seg, crv)]). split; [rewrite EP, app_assoc; reflexivity|].
      split; [|rewrite map_app; cbn [map snd]; eapply join_from_snoc; eauto].
      eapply run_of_app; [exact R|]. eapply ro_draw; [exact NS|exact SI|apply VL|apply VL|exact SM|constructor]. }
    destruct (d_prev d) as [prev|] eqn:EPV.
    - destruct (flt (fdot dr prev) min_cos_connect) eqn:FB.
      + rewrite E. cbn [bind d_curves d_ctx d_start d_err]. rewrite VL. cbn [bind]. destruct (AD []) as [m' EA]. rewrite EA. cbn [bind].
        eexists. split; [reflexivity|]. constructor; cbn [d_ctx d_pos d_start d_prev d_curves]; auto; [rewrite LP; exact A'|].
        exists past, [seg], [(d_pos d, seg, crv)]. split; [reflexivity|].
        split; [|cbn [map snd join_from]; rewrite EA; reflexivity].
        eapply ro_draw; [exact NS|exact SI|apply VL|apply VL|intros d0 K; discriminate K|constructor].
      + cbn [bind]. apply EXT. intros pv K. injection K as <-. exact FB.
    - cbn [bind]. apply EXT. intros pv K. discriminate K. }
  destruct seg as [p|p|p|p2 k1 k2|rx ry st en ro]; try contradiction.
  - cbn [draw_step]. destruct (GT p AX IN) as [ix EX]. destruct (GT p AY IN) as [iy EY]. cbn [fidx] in EX, EY. rewrite EX. cbn [bind].
    assert (SB : exists b, (if ix =? c_pos (channel (d_ctx d) AX)
                     then let! iy := to_steps s (fy p) AY in Ok (iy =? c_pos (channel (d_ctx d) AY))
                     else Ok false) = Ok b).
    { destruct (ix =? c_pos (channel (d_ctx d) AX)); [rewrite EY; cbn [bind]|]; eauto. }
    destruct SB as [b SB]. rewrite SB. cbn [bind]. destruct b.
    + exists d. split; [reflexivity|]. constructor; auto.
      exists s1, (part ++ [SGoTo p]), l. split; [rewrite EP, app_assoc; reflexivity|]. split; [|exact J].
      rewrite <- (app_nil_r l). eapply run_of_app; [exact R|]. apply ro_skip; [exact I|constructor].
    + rewrite E. cbn [bind]. eexists. split; [reflexivity|].
      constructor; cbn [d_ctx d_pos d_start d_prev d_curves]; try (apply nm_goto; exact IN); [rewrite LP; exact A'|].
      exists (past ++ [SGoTo p]), [], []. split; [rewrite app_nil_r; reflexivity|]. split; [constructor|reflexivity].
  - apply (LINE p). left. reflexivity.
  - destruct (flt (fvlength (fvsub (d_pos d) p)) short) eqn:SH; [|apply (LINE p); right; auto].
    unfold draw_step. rewrite SH. eexists. split; [reflexivity|].
    constructor; cbn [d_ctx d_pos d_start d_prev d_curves]; auto; [|apply nm_close; exact IN].
    exists s1, (part ++ [SCloseTo p]), l. split; [rewrite EP, app_assoc; reflexivity|]. split; [|exact J].
    rewrite <- (app_nil_r l). eapply run_of_app; [exact R|]. eapply ro_short; [exact SH|constructor].
Qed.

Lemma loop_going : forall g s speed a v G N T pos0 segs, limits_ok a v -> 0 <= N -> (forall i, 0 <= G i) ->
  (forall i, storable (2 * G i + 1 + 2 * v i * N) (a i) (v i)) ->
  T + Z.of_nat (S (length segs)) * (65535 + N) < u64_max -> runs_ok g s speed v G N pos0 segs ->
  (forall p i, In (SGoTo p) segs -> exists n, to_steps s (fidx p i) i = Ok n) ->
  forall rest past d, segs = past ++ rest -> Forall straight rest -> going g a v G N T pos0 segs past d ->
  exists d', draw_loop g s speed d rest = Ok d' /\ going g a v G N T pos0 segs segs d'.
Proof.
  intros g s speed a v G N T pos0 segs HL HN HG HS HT RK GT.
  induction rest as [|seg rest IH]; intros past d SG ST GO; cbn [draw_loop].
  - exists d. split; [reflexivity|]. rewrite app_nil_r in SG. rewrite SG at 2. exact GO.
  - inversion ST as [|? ? S1 S2]; subst x l.
    destruct (step_going g s speed a v G N T pos0 segs past seg rest d HL HN HG HS HT RK GT SG S1 GO) as (d1 & E & G1).
    rewrite E. cbn [bind]. apply (IH (past ++ [seg])); auto. rewrite SG, <- app_assoc. reflexivity.
Qed.

Lemma lines_drawn : forall g s speed a v G N T c segs, limits_ok a v -> 0 <= N -> (forall i, 0 <= G i) ->
  (forall i, storable (2 * G i + 1 + 2 * v i * N) (a i) (v i)) ->
  T + Z.of_nat (S (length segs)) * (65535 + N) < u64_max ->
  able a v (fun i => G i + 1 + 2 * v i * N) T c -> Forall straight segs ->
  runs_ok g s speed v G N (machine_place s c) segs ->
  (forall p i, In (SGoTo p) segs -> exists n, to_steps s (fidx p i) i = Ok n) ->
  exists c' e, draw_curves g s c segs speed = Ok (c', e) /\
    able a v (fun i => G i + 1 + 2 * v i * N) (T + Z.of_nat (S (length segs)) * (65535 + N)) c'.
Proof.
  intros g s speed a v G N T c segs HL HN HG HS HT HA ST RK GT.
  destruct segs as [|x r].
  { exists c, (0, 0). split; [reflexivity|]. eapply able_more; [| |exact HA]; [intros; cbv beta; lia|lia]. }
  set (segs := x :: r) in *. unfold draw_curves. change (match segs with [] => _ | _ => ?b end) with b. cbv zeta.
  change (mk_fvec (coord_from_steps s (c_pos (channel c AX)) AX) (coord_from_steps s (c_pos (channel c AY)) AY)) with (machine_place s c).
  set (pos := machine_place s c) in *.
  assert (G0 : going g a v G N T pos segs [] (mk_drawing c pos pos None [] (0, 0))).
  { constructor; cbn [d_ctx d_pos d_start d_prev d_curves length]; try apply nm_first.
    - eapply able_more; [| |exact HA]; [intros; cbv beta; lia|lia].
    - exists [], [], []. split; [reflexivity|]. split; [constructor|reflexivity]. }
  destruct (loop_going g s speed a v G N T pos segs HL HN HG HS HT RK GT segs [] _ eq_refl ST G0) as (d & E & GD).
  rewrite E. cbn [bind].
  destruct (draw_open g s speed a v G N T pos segs segs [] d HL HN HG HS HT RK) as (c1 & e & E1 & A1); [rewrite app_nil_r; reflexivity|exact GD|].
  rewrite E1. cbn [bind].
  destruct (weight_able a v _ _ c1 (move_weight c1) A1 ltac:(lia)) as (c2 & E2 & A2 & _). rewrite E2. cbn [bind].
  eexists. eexists. split; [reflexivity|]. exact A2.
Qed.
