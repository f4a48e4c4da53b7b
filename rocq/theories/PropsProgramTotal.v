(** C130: which drawings of lines the svg_path program carries through, passes and way home included. *)
From Coq Require Import ZArith Reals List Bool Lia Lra Psatz.
From Flocq Require Import Core BinarySingleNaN.
From Verif Require Import Base Floats FloatProofs FloatScale FloatErr AccVector IntegerCurve StepperContext ApproxCurve DrawCurves
  ContextProofs ContextHist ContextGoto ContextClock DrawProofs DrawPlan FloatCurve ApproxProofs PropsApprox PropsDraw PropsSteps PropsDuration
  DrawTotal FloatTotal PropsTotal ImageRaster SvgMain PropsRaster PropsSvgMain SvgDocument FloatLex FloatDocument.
Import ListNotations.

(** A drawing that starts with a move may start from outside of what it names. *)
Section Moves.
Local Open Scope Z_scope.
Lemma moved_drawn : forall g s speed a v G N T c p r, limits_ok a v -> 0 <= N -> (forall i, 0 <= G i) ->
  (forall i, storable (2 * G i + 1 + 2 * v i * N) (a i) (v i)) ->
  let segs := SGoTo p :: r in
  T + Z.of_nat (S (length segs)) * (65535 + N) < u64_max ->
  able a v (fun i => G i + 1 + 2 * v i * N) T c -> Forall straight segs ->
  runs_ok g s speed v G N p segs ->
  ((forall i, to_steps s (fidx p i) i = Ok (c_pos (channel c i))) -> runs_ok g s speed v G N (machine_place s c) segs) ->
  (forall p i, In (SGoTo p) segs -> exists n, to_steps s (fidx p i) i = Ok n) ->
  exists c' e, draw_curves g s c segs speed = Ok (c', e) /\
    able a v (fun i => G i + 1 + 2 * v i * N) (T + Z.of_nat (S (length segs)) * (65535 + N)) c'.
Proof.
  intros g s speed a v G N T c p r HL HN HG HS segs HT HA ST RK RS GT.
  destruct (GT p AX (or_introl eq_refl)) as [ix EX]. destruct (GT p AY (or_introl eq_refl)) as [iy EY]. cbn [fidx] in EX, EY.
  destruct ((ix =? c_pos (channel c AX)) && (iy =? c_pos (channel c AY))) eqn:SK.
  - apply andb_prop in SK. destruct SK as [K1 K2]. apply Z.eqb_eq in K1. apply Z.eqb_eq in K2.
    apply lines_drawn; auto. apply RS. intros []; cbn [fidx]; congruence.
  - unfold draw_curves. unfold segs at 1. cbv zeta. fold segs.
    change (mk_fvec (coord_from_steps s (c_pos (channel c AX)) AX) (coord_from_steps s (c_pos (channel c AY)) AY)) with (machine_place s c).
    set (pos := machine_place s c) in *.
    set (d1 := mk_drawing c p p None [] (acc_max_err (0, 0) (0, 0))).
    assert (E1 : draw_step g s speed (mk_drawing c pos pos None [] (0, 0)) (SGoTo p) = Ok d1).
    { cbn [draw_step d_ctx d_start d_curves d_err draw_curve]. rewrite EX. cbn [bind].
      destruct (ix =? c_pos (channel c AX)); [rewrite EY; cbn [bind andb] in *; rewrite SK|]; reflexivity. }
    assert (G1 : going g a v G N T p segs [SGoTo p] d1).
    { constructor; cbn [d1 d_ctx d_pos d_start d_prev d_curves length]; try apply nm_first.
      - eapply able_more; [| |exact HA]; [intros; cbv beta; lia|lia].
      - exists [SGoTo p], [], []. split; [reflexivity|]. split; [constructor|reflexivity]. }
    assert (ST' : Forall straight r) by (inversion ST; assumption).
    destruct (loop_going g s speed a v G N T p segs HL HN HG HS HT RK GT r [SGoTo p] d1 eq_refl ST' G1) as (d & E & GD).
    unfold segs at 1. cbn [draw_loop]. rewrite E1. cbn [bind]. rewrite E. cbn [bind].
    destruct (draw_open g s speed a v G N T p segs segs [] d HL HN HG HS HT RK) as (c1 & e & E2 & A1); [rewrite app_nil_r; reflexivity|exact GD|].
    rewrite E2. cbn [bind].
    destruct (weight_able a v _ _ c1 (move_weight c1) A1 ltac:(lia)) as (c2 & E3 & A2 & _). rewrite E3. cbn [bind].
    eexists. eexists. split; [reflexivity|]. exact A2.
Qed.

(** Passes. *)
Lemma passes_drawn : forall g s speed a v (G : axis -> Z) K segs, 0 <= K ->
  (forall T c, 0 <= T -> T + K < u64_max -> able a v G T c -> exists c' e, draw_curves g s c segs speed = Ok (c', e) /\ able a v G (T + K) c') ->
  forall n T c err, 0 <= T -> T + Z.of_nat n * K < u64_max -> able a v G T c ->
  exists c' e, repeat_draw g s segs speed n c err = Ok (c', e) /\ able a v G (T + Z.of_nat n * K) c'.
Proof.
  intros g s speed a v G K segs HK H. induction n as [|n IH]; intros T c err HT HN HA; cbn [repeat_draw].
  - exists c, err. split; [reflexivity|]. eapply able_more; [| |exact HA]; intros; lia.
  - rewrite Nat2Z.inj_succ in *. destruct (H T c HT ltac:(nia) HA) as (c1 & e1 & E1 & A1). rewrite E1. cbn [bind].
    destruct (IH (T + K) c1 e1 ltac:(lia) ltac:(nia) A1) as (c2 & e2 & E2 & A2). exists c2, e2. split; [exact E2|].
    eapply able_more; [| |exact A2]; [intros; lia|nia].
Qed.

Lemma flush_able : forall a v P T c, able a v P T c -> T < u64_max -> exists c2, flush c = Ok c2 /\ forall i, ticks_of c2 i = ticks_of c AX.
Proof.
  intros a v P T c' [[Hc He] A2 _ _ _ _ A7] TB.
  pose proof (ck_ticks c' Hc AX) as Hx. pose proof (clocked_et c' Hc) as He0. rewrite <- A2, Z.max_id in He.
  unfold flush. rewrite A2, Z.eqb_refl. cbn [assert bind].
  unfold push_event, chk_u64. rewrite <- A2. rewrite chk_in by lia. cbn [bind].
  set (c1 := set_events _ _ _). assert (E1 : event_ticks c1 = ticks_of c' AX) by reflexivity.
  assert (T1 : forall i, ticks_of c1 i = ticks_of c' AX) by (intros []; [reflexivity|symmetry; exact A2]).
  rewrite !T1, E1, Z.sub_diag. rewrite chk_in by (unfold u64_max; lia). cbn [bind].
  set (c2 := set_events _ _ _). assert (E2 : event_ticks c2 = ticks_of c' AX) by reflexivity.
  assert (T2 : forall i, ticks_of c2 i = ticks_of c' AX) by (intros i; rewrite <- (T1 i); reflexivity).
  rewrite !T2, E2, Z.sub_diag. rewrite chk_in by (unfold u64_max; lia). cbn [bind].
  eexists. split; [reflexivity|]. intros i. rewrite <- (T2 i). destruct i; reflexivity.
Qed.
End Moves.

Open Scope R_scope.

Lemma reach_more : forall w D D' p, (D <= D')%Z -> in_reach w D p -> in_reach w D' p.
Proof. intros w D D' p H R i. destruct (R i) as [B A]. split; [eapply bnd_le; eassumption|exact A]. Qed.

(** One pass, from wherever the pass before ended. *)
Lemma pass_drawn : forall g s speed w a v G D D' N segs,
  bound_ok w -> searches g -> limits_ok a v -> (1 <= D)%Z -> (D <= D' <= 2 ^ 16)%Z -> (Z.of_nat (length segs) <= 2 ^ 20)%Z -> (D' * Z.of_nat (length segs) <= 2 ^ 32)%Z ->
  (forall i, scale_ok s i) -> (forall i, IZR D * Rabs (B2R (step_scale s i)) + 1 <= IZR D' * Rabs (B2R (step_scale s i))) ->
  (forall i, IZR D' * Rabs (B2R (step_scale s i)) <= IZR (G i)) ->
  is_finite speed = true -> 0 < B2R speed -> (forall i, w * (B2R speed * Rabs (B2R (step_scale s i))) <= 2 * IZR (v i) + / 1024) ->
  (0 <= N)%Z -> IZR (8 * D' * Z.of_nat (length segs)) <= IZR N * B2R speed ->
  (forall i, storable (2 * G i + 1 + 2 * v i * N) (a i) (v i)) ->
  Forall (line_reach w D) segs -> (segs = [] \/ exists p r, segs = SGoTo p :: r) ->
  (N < 65533)%Z /\ (forall i, 0 <= G i)%Z /\
  forall T c, (0 <= T)%Z -> (T + Z.of_nat (S (length segs)) * (65535 + N) < u64_max)%Z -> able a v (fun i => G i + 1 + 2 * v i * N)%Z T c ->
  exists c' e, draw_curves g s c segs speed = Ok (c', e) /\ able a v (fun i => G i + 1 + 2 * v i * N)%Z (T + Z.of_nat (S (length segs)) * (65535 + N))%Z c'.
Proof.
  intros g s speed w a v G D D' N segs HW HG HL HD HD' Hn HDn HS HDD HDG Fp Pp HV HN HB HSt HF HM.
  assert (G0 : forall i, (0 <= G i)%Z).
  { intros i. apply le_IZR. eapply Rle_trans; [|apply HDG]. apply Rmult_le_pos; [apply (IZR_le 0); lia|apply Rabs_pos]. }
  assert (N16 : (N < 65533)%Z).
  { specialize (HSt AX). specialize (G0 AX). destruct (HL AX) as [A1 A2]. unfold storable in HSt. rewrite Z.abs_eq in HSt by nia.
    clear - HSt G0 A1 A2 HN. set (aa := a AX) in *. set (vv := v AX) in *. set (gg := G AX) in *. clearbody aa vv gg.
    assert (1 <= aa * vv)%Z by nia. assert (aa * vv * N < aa * vv * 65533)%Z by nia. nia. }
  assert (G50 : forall i, (0 <= G i <= 2 ^ 52)%Z).
  { intros i. specialize (G0 i). split; [exact G0|]. specialize (HSt i). destruct (HL i) as [A1 A2]. unfold storable in HSt.
    rewrite Z.abs_eq in HSt by nia. clear - HSt G0 A1 A2 HN. set (aa := a i) in *. set (vv := v i) in *. set (gg := G i) in *. clearbody aa vv gg.
    assert (0 <= aa * vv * N)%Z by nia. assert (aa * (2 * gg) < aa * (2 * vv * 65533))%Z by nia. assert (2 * gg < 2 * vv * 65533)%Z by nia. lia. }
  split; [exact N16|]. split; [exact G0|]. intros T c HT TB HA.
  assert (DB : (1 <= D' <= 2 ^ 16)%Z) by lia.
  assert (PR : forall p, (In (SGoTo p) segs \/ In (SLineTo p) segs \/ In (SCloseTo p) segs) -> in_reach w D p).
  { rewrite Forall_forall in HF. intros p [I|[I|I]]; apply (HF _ I). }
  assert (ST := line_straight w D segs HF).
  assert (RO : forall pos, in_reach w D' pos -> runs_ok g s speed v G N pos segs).
  { intros pos HP. assert (NR : forall p, names pos segs p -> in_reach w D' p).
    { intros p H. inversion H as [|? I|? I|? I]; subst; [exact HP| | |]; (apply (reach_more w D D'); [lia|]; apply PR; auto). }
    apply (lines_ok g s speed w v G N D'); auto.
    - intros i. apply HL.
    - intros i. rewrite (Rabs_pos_eq (B2R speed)) by lra. apply HV.
    - intros q s1 part s2 l q' y jl Hq Es Hr Hj Hl.
      assert (IN : forall x, In x part -> In x segs) by (intros x Hx; rewrite Es; apply in_or_app; right; apply in_or_app; left; exact Hx).
      destruct (run_flat g w _ D' q None part l q' y HW DB Hr) as [FL LL]; auto.
      { rewrite Forall_forall in *. intros x Hx. apply ST, IN, Hx. }
      { intros p [Hp|Hp]; apply NR; [apply nm_line|apply nm_close]; apply IN, Hp. }
      assert (LP : (length part <= length segs)%nat) by (rewrite Es, !app_length; clear; lia).
      set (n := Z.of_nat (length (map snd l))) in *.
      assert (Bn : (0 <= n <= Z.of_nat (length segs))%Z) by (unfold n; rewrite map_length; clear - LL LP; unfold piece in *; lia).
      assert (FJ : Forall (flat_seg w D' n) jl).
      { replace n with (0 + n)%Z by (clear; lia). apply (join_flat w D' (map snd l) 0 []); auto; try (clear; lia). fold n. clear - Bn Hn. lia. }
      apply (ticks_bound g w D' n); auto; [clear - Bn Hn; lia|clear - HN N16; lia|].
      eapply Rle_trans; [|exact HB]. apply IZR_le. clear - Bn DB. nia. }
  assert (SM : forall p i, In (SGoTo p) segs -> exists n, to_steps s (fidx p i) i = Ok n /\ IZR (Z.abs n) <= IZR D' * Rabs (B2R (step_scale s i))).
  { intros p i Hp. destruct (PR p (or_introl Hp) i) as [[Fq Bq] _]. destruct (HS i) as [Fs Bs].
    set (b := IZR D * Rabs (B2R (step_scale s i))). specialize (HDD i). fold b in HDD.
    assert (B0 : 0 <= b) by (apply Rmult_le_pos; [apply (IZR_le 0); lia|apply Rabs_pos]).
    assert (BZ : (0 <= Zceil b)%Z) by (apply le_IZR; eapply Rle_trans; [exact B0|apply Zceil_ub]).
    assert (BC : IZR (Zceil b) < b + 1) by (unfold Zceil; rewrite opp_IZR; pose proof (Zfloor_ub (- b)); lra).
    destruct (steps_small s (fidx p i) i (Zceil b) Fq Fs) as (n & En & Bz).
    - split; [exact BZ|]. apply Z.le_trans with (G i); [|apply G50]. apply le_IZR. specialize (HDG i). lra.
    - eapply Rle_trans; [|apply Zceil_ub]. unfold b. rewrite Rabs_mult. apply Rmult_le_compat_r; [apply Rabs_pos|exact Bq].
    - exists n. split; [exact En|]. apply IZR_le in Bz. lra. }
  destruct HM as [->|(p & r & ->)].
  - exists c, (0, 0)%Z. split; [reflexivity|]. eapply able_more; [| |exact HA]; [intros; lia|lia].
  - apply moved_drawn; auto.
    + apply RO. apply (reach_more w D D'); [lia|]. apply PR. left. left. reflexivity.
    + intros E. apply RO. apply stands_in_reach; auto. intros i. destruct (SM p i (or_introl eq_refl)) as (n & En & B). rewrite E in En.
      injection En as ->. exact B.
    + intros q i Hq. destruct (SM q i Hq) as (n & En & _). exists n. exact En.
Qed.

Lemma main_drawn : forall g cf v_opt a_opt v_draw n_repeat intensity segs w ax ay vx vy D D' N,
  let a := fun i => match i with AX => ax | AY => ay end in
  let v := fun i => match i with AX => vx | AY => vy end in
  let s := mk_scales (steps_per_mm (stepper_x cf)) (steps_per_mm (stepper_y cf)) in
  let speed := fdiv v_draw (f_of_Z (tps cf)) in
  bound_ok w ->
  (forall keys x, Forall (fun y : f64 => is_finite y = true) keys -> is_finite x = true -> exists i, g_find g keys x = Ok i) ->
  (* the machine as configured *)
  svg_limits cf v_opt a_opt = Ok (ax, ay, vx, vy) -> tps cf <> 0%Z ->
  (forall i, 1 <= a i <= 32767)%Z -> (forall i, 1 <= v i <= 2 ^ 20)%Z ->
  (forall i, is_finite (step_scale s i) = true /\ / 65536 <= Rabs (B2R (step_scale s i)) <= 4194304) ->
  is_finite speed = true -> 0 < B2R speed -> (forall i, w * (B2R speed * Rabs (B2R (step_scale s i))) <= 2 * IZR (v i) + / 1024) ->
  (* the drawing: nothing, or a move and then lines and moves within [D] of the origin *)
  (segs = [] \/ exists p r, segs = SGoTo p :: r) -> Forall (line_reach w D) segs -> (Z.of_nat (length segs) <= 2 ^ 20)%Z ->
  (n_repeat * (Z.of_nat (length segs) + 1) <= 2 ^ 45)%Z ->
  (* [D'] is at least a step further out; [N] ticks are enough for the lines of one pass *)
  (1 <= D)%Z -> (D <= D' <= 2 ^ 16)%Z -> (D' * Z.of_nat (length segs) <= 2 ^ 32)%Z ->
  (forall i, IZR D * Rabs (B2R (step_scale s i)) + 1 <= IZR D' * Rabs (B2R (step_scale s i))) ->
  (0 <= N)%Z -> IZR (8 * D' * Z.of_nat (length segs)) <= IZR N * B2R speed ->
  (forall i, storable (2 * Zceil (IZR D' * Rabs (B2R (step_scale s i))) + 1 + 2 * v i * N) (a i) (v i)) ->
  let P := fun i => (Zceil (IZR D' * Rabs (B2R (step_scale s i))) + 1 + 2 * v i * N)%Z in
  let K := (Z.of_nat (S (length segs)) * (65535 + N))%Z in
  exists c e, svg_main g cf v_opt a_opt v_draw n_repeat intensity segs = Ok (c, e) /\
    (forall i, ticks_of c i <= Z.of_nat (Z.to_nat n_repeat) * K + 65535)%Z /\ (Z.of_nat (Z.to_nat n_repeat) * K + 65535 < u64_max)%Z /\ (0 <= K)%Z /\
    able a v P 0 (set_weight (new_ctx ax ay vx vy) (svg_weight intensity)) /\
    (forall T c, (0 <= T)%Z -> (T + K < u64_max)%Z -> able a v P T c -> exists c' e, draw_curves g s c segs speed = Ok (c', e) /\ able a v P (T + K)%Z c').
Proof.
  intros g cf v_opt a_opt v_draw n_repeat intensity segs w ax ay vx vy D D' N a v s speed HW HG LM TP Ha Hv HS Fp Pp HV HM HF Hn HR HD HD' HDn HDD HN HB HSt P K.
  set (G := fun i => Zceil (IZR D' * Rabs (B2R (step_scale s i)))).
  assert (HL : limits_ok a v) by (intros i; split; [apply Ha|apply Hv]).
  destruct (pass_drawn g s speed w a v G D D' N segs HW HG HL HD HD' Hn HDn HS HDD ltac:(intros; apply Zceil_ub) Fp Pp HV HN HB HSt HF HM) as (N16 & G0 & PASS).
  unfold svg_main. rewrite LM. cbn [bind]. cbv zeta. fold s. fold speed.
  set (c0 := set_weight (new_ctx ax ay vx vy) (svg_weight intensity)).
  change (fun i => (G i + 1 + 2 * v i * N)%Z) with P in *. fold K in PASS.
  assert (P0 : forall i, (0 <= P i)%Z).
  { intros i. unfold P. fold (G i). specialize (G0 i). specialize (Hv i). assert (0 <= 2 * v i * N)%Z by nia. lia. }
  assert (A0 : able a v P 0 c0).
  { destruct (timely_new ax ay vx vy) as [[C1 C2 C3] C4].
    constructor; try (intros []; reflexivity).
    - split; [constructor; [exact C1|exact C2|]|exact C4]. intros []; [apply (C3 AX)|apply (C3 AY)].
    - reflexivity.
    - intros i. replace (c_v (channel c0 i)) with 0%Z by (destruct i; reflexivity). specialize (Hv i). clear - Hv. lia.
    - intros i. replace (c_pos (channel c0 i)) with 0%Z by (destruct i; reflexivity). apply P0.
    - cbn. lia. }
  assert (K0 : (0 <= K)%Z) by (unfold K; lia).
  assert (RB : (Z.of_nat (Z.to_nat n_repeat) * K <= 2 ^ 63)%Z).
  { destruct (Z.le_gt_cases n_repeat 0) as [L|L]; [replace (Z.to_nat n_repeat) with O by lia; cbn; lia|]. rewrite Z2Nat.id by lia.
    unfold K. rewrite Nat2Z.inj_succ. replace (n_repeat * (Z.succ (Z.of_nat (length segs)) * (65535 + N)))%Z
      with (n_repeat * (Z.of_nat (length segs) + 1) * (65535 + N))%Z by ring. 
    apply Z.le_trans with (2 ^ 45 * (65535 + N))%Z; [apply Z.mul_le_mono_nonneg_r; lia|lia]. }
  destruct (passes_drawn g s speed a v P K segs K0 PASS (Z.to_nat n_repeat) 0 c0 (0, 0)%Z ltac:(lia) ltac:(unfold u64_max; lia) A0) as (c1 & e1 & E1 & A1).
  rewrite E1. cbn [bind].
  destruct (goto_able a v P G _ c1 0 0 0 0 HL A1) as (c2 & E2 & A2 & _).
  { intros i. unfold P. fold (G i). replace (G i + 1 + 2 * v i * N + G i)%Z with (2 * G i + 1 + 2 * v i * N)%Z by ring. apply HSt. }
  { unfold u64_max. lia. }
  { exact G0. }
  { apply (G0 AX). } { apply (G0 AY). } { specialize (Hv AX). clear - Hv. lia. } { specialize (Hv AY). clear - Hv. lia. }
  unfold step_goto. rewrite E2. cbn [bind]. unfold ticks. rewrite (ab_sync _ _ _ _ _ A2), Z.eqb_refl. cbn [assert bind].
  apply Z.eqb_neq in TP. rewrite TP. cbn [negb assert bind].
  destruct (flush_able _ _ _ _ c2 A2) as (c3 & E3 & T3); [unfold u64_max; lia|]. rewrite E3. cbn [bind].
  exists c3, e1. split; [reflexivity|]. split; [intros i; rewrite T3; apply (ab_ticks _ _ _ _ _ A2)|]. split; [unfold u64_max; lia|]. auto.
Qed.

(** C130 *)

(** The part of the program after the document is read: limits, passes, the way home and the end of the stream. *)
Theorem C130_main : forall g cf v_opt a_opt v_draw n_repeat intensity segs ax ay vx vy D D' N,
  let a := fun i => match i with AX => ax | AY => ay end in
  let v := fun i => match i with AX => vx | AY => vy end in
  let s := mk_scales (steps_per_mm (stepper_x cf)) (steps_per_mm (stepper_y cf)) in
  let speed := fdiv v_draw (f_of_Z (tps cf)) in
  (forall keys x, Forall (fun y : f64 => is_finite y = true) keys -> is_finite x = true -> exists i, g_find g keys x = Ok i) ->
  (* the machine as configured *)
  svg_limits cf v_opt a_opt = Ok (ax, ay, vx, vy) -> tps cf <> 0%Z ->
  (forall i, 1 <= a i <= 32767)%Z -> (forall i, 1 <= v i <= 2 ^ 20)%Z ->
  (forall i, is_finite (step_scale s i) = true /\ / 65536 <= Rabs (B2R (step_scale s i)) <= 4194304) ->
  is_finite speed = true -> 0 < B2R speed -> (forall i, B2R speed * Rabs (B2R (step_scale s i)) <= 2 * IZR (v i)) ->
  (* the drawing: nothing, or a move and then lines and moves within [D] of the origin *)
  (segs = [] \/ exists p r, segs = SGoTo p :: r) -> Forall (line_or_move D) segs -> (Z.of_nat (length segs) <= 2 ^ 20)%Z ->
  (n_repeat * (Z.of_nat (length segs) + 1) <= 2 ^ 45)%Z ->
  (* [D'] is at least a step further out; [N] ticks are enough for the lines of one pass *)
  (1 <= D)%Z -> (D <= D' <= 2 ^ 16)%Z -> (D' * Z.of_nat (length segs) <= 2 ^ 32)%Z ->
  (forall i, IZR D * Rabs (B2R (step_scale s i)) + 1 <= IZR D' * Rabs (B2R (step_scale s i))) ->
  (0 <= N)%Z -> IZR (8 * D' * Z.of_nat (length segs)) <= IZR N * B2R speed ->
  (forall i, storable (2 * Zceil (IZR D' * Rabs (B2R (step_scale s i))) + 1 + 2 * v i * N) (a i) (v i)) ->
  exists c e, svg_main g cf v_opt a_opt v_draw n_repeat intensity segs = Ok (c, e).
Proof.
  intros g cf v_opt a_opt v_draw n_repeat intensity segs ax ay vx vy D D' N a v s speed HG LM TP Ha Hv HS Fp Pp HV HM HF Hn HR HD HD' HDn HDD HN HB HSt.
  destruct (main_drawn g cf v_opt a_opt v_draw n_repeat intensity segs (1 + 16 * u53) ax ay vx vy D D' N) as (c & e & E & _); eauto using bound_one, line_reachable.
  intros i. apply speed_one; [apply Hv|]. split; [|apply HV]. apply Rmult_le_pos; [unfold speed in Pp; lra|apply Rabs_pos].
Qed.

(** With no condition on how close to 0 coordinates are, at four fifths of the speed. *)
Theorem C130_any : forall g cf v_opt a_opt v_draw n_repeat intensity segs ax ay vx vy D D' N,
  let a := fun i => match i with AX => ax | AY => ay end in
  let v := fun i => match i with AX => vx | AY => vy end in
  let s := mk_scales (steps_per_mm (stepper_x cf)) (steps_per_mm (stepper_y cf)) in
  let speed := fdiv v_draw (f_of_Z (tps cf)) in
  (forall keys x, Forall (fun y : f64 => is_finite y = true) keys -> is_finite x = true -> exists i, g_find g keys x = Ok i) ->
  (* the machine as configured *)
  svg_limits cf v_opt a_opt = Ok (ax, ay, vx, vy) -> tps cf <> 0%Z ->
  (forall i, 1 <= a i <= 32767)%Z -> (forall i, 1 <= v i <= 2 ^ 20)%Z ->
  (forall i, is_finite (step_scale s i) = true /\ / 65536 <= Rabs (B2R (step_scale s i)) <= 4194304) ->
  is_finite speed = true -> 0 < B2R speed -> (forall i, 5 / 4 * (B2R speed * Rabs (B2R (step_scale s i))) <= 2 * IZR (v i)) ->
  (* the drawing: nothing, or a move and then lines and moves within [D] of the origin *)
  (segs = [] \/ exists p r, segs = SGoTo p :: r) -> Forall (line_or_move_any D) segs -> (Z.of_nat (length segs) <= 2 ^ 20)%Z ->
  (n_repeat * (Z.of_nat (length segs) + 1) <= 2 ^ 45)%Z ->
  (* [D'] is at least a step further out; [N] ticks are enough for the lines of one pass *)
  (1 <= D)%Z -> (D <= D' <= 2 ^ 16)%Z -> (D' * Z.of_nat (length segs) <= 2 ^ 32)%Z ->
  (forall i, IZR D * Rabs (B2R (step_scale s i)) + 1 <= IZR D' * Rabs (B2R (step_scale s i))) ->
  (0 <= N)%Z -> IZR (8 * D' * Z.of_nat (length segs)) <= IZR N * B2R speed ->
  (forall i, storable (2 * Zceil (IZR D' * Rabs (B2R (step_scale s i))) + 1 + 2 * v i * N) (a i) (v i)) ->
  exists c e, svg_main g cf v_opt a_opt v_draw n_repeat intensity segs = Ok (c, e).
Proof.
  intros g cf v_opt a_opt v_draw n_repeat intensity segs ax ay vx vy D D' N a v s speed HG LM TP Ha Hv HS Fp Pp HV HM HF Hn HR HD HD' HDn HDD HN HB HSt.
  destruct (main_drawn g cf v_opt a_opt v_draw n_repeat intensity segs (5 / 4) ax ay vx vy D D' N) as (c & e & E & _); eauto using bound_wide, line_any_reach.
  intros i. assert (L : forall x y : R, x <= y -> x <= y + / 1024) by (intros; lra). apply L, HV.
Qed.

(** The program, from the events of the XML reader. *)
Theorem C130_program : forall tg doc layer g cf v_opt a_opt v_draw n_repeat intensity segs ax ay vx vy D D' N,
  let a := fun i => match i with AX => ax | AY => ay end in
  let v := fun i => match i with AX => vx | AY => vy end in
  let s := mk_scales (steps_per_mm (stepper_x cf)) (steps_per_mm (stepper_y cf)) in
  let speed := fdiv v_draw (f_of_Z (tps cf)) in
  (forall keys x, Forall (fun y : f64 => is_finite y = true) keys -> is_finite x = true -> exists i, g_find g keys x = Ok i) ->
  (* the machine as configured *)
  svg_limits cf v_opt a_opt = Ok (ax, ay, vx, vy) -> tps cf <> 0%Z ->
  (forall i, 1 <= a i <= 32767)%Z -> (forall i, 1 <= v i <= 2 ^ 20)%Z ->
  (forall i, is_finite (step_scale s i) = true /\ / 65536 <= Rabs (B2R (step_scale s i)) <= 4194304) ->
  is_finite speed = true -> 0 < B2R speed -> (forall i, B2R speed * Rabs (B2R (step_scale s i)) <= 2 * IZR (v i)) ->
  fparse_document tg doc fidentity (layer_filter layer) = Ok (Some segs) ->
  (* the drawing: nothing, or a move and then lines and moves within [D] of the origin *)
  (segs = [] \/ exists p r, segs = SGoTo p :: r) -> Forall (line_or_move D) segs -> (Z.of_nat (length segs) <= 2 ^ 20)%Z ->
  (n_repeat * (Z.of_nat (length segs) + 1) <= 2 ^ 45)%Z ->
  (* [D'] is at least a step further out; [N] ticks are enough for the lines of one pass *)
  (1 <= D)%Z -> (D <= D' <= 2 ^ 16)%Z -> (D' * Z.of_nat (length segs) <= 2 ^ 32)%Z ->
  (forall i, IZR D * Rabs (B2R (step_scale s i)) + 1 <= IZR D' * Rabs (B2R (step_scale s i))) ->
  (0 <= N)%Z -> IZR (8 * D' * Z.of_nat (length segs)) <= IZR N * B2R speed ->
  (forall i, storable (2 * Zceil (IZR D' * Rabs (B2R (step_scale s i))) + 1 + 2 * v i * N) (a i) (v i)) ->
  exists c e, svg_program tg g cf v_opt a_opt v_draw n_repeat intensity layer doc = Ok (c, e).
Proof.
  intros tg doc layer g cf v_opt a_opt v_draw n_repeat intensity segs ax ay vx vy D D' N a v s speed HG LM TP Ha Hv HS Fp Pp HV HP HM HF Hn HR HD HD' HDn HDD HN HB HSt.
  unfold svg_program. rewrite LM. cbn [bind]. rewrite HP. cbn [bind unwrap].
  eapply (C130_main g cf v_opt a_opt v_draw n_repeat intensity segs ax ay vx vy D D' N); assumption.
Qed.

Definition C130_segments : list segment := [SGoTo (pt 10 10); SLineTo (pt 20 10); SLineTo (pt 20 35); SCloseTo (pt 10 10); SGoTo (pt 30 0); SLineTo (pt 40 1)].

(** The configuration in the repository, the options as they are by default, and ten passes over a triangle and a line;
    with a maximum velocity below the speed of drawing, the program panics. *)
Example C130_example :
  (exists c e, svg_main lines_only sample_config None None (f_of_Z 20) 10 5 C130_segments = Ok (c, e)) /\
  svg_main lines_only sample_config (Some (f_of_Z 19)) None (f_of_Z 20) 10 5 C130_segments = Panic.
Proof.
  split; [|vm_compute; reflexivity].
  set (s := mk_scales (steps_per_mm (stepper_x sample_config)) (steps_per_mm (stepper_y sample_config))).
  assert (S1 : forall i, is_finite (step_scale s i) = true /\ B2R (step_scale s i) = 1966080) by (intros []; apply (f_of_Z_exact 1966080); lia).
  assert (SP : is_finite (fdiv (f_of_Z 20) (f_of_Z 128)) = true /\ B2R (fdiv (f_of_Z 20) (f_of_Z 128)) = 5 / 32).
  { destruct (f_of_Z_exact 20 ltac:(lia)) as [F1 V1]. destruct (f_of_Z_exact 128 ltac:(lia)) as [F2 V2].
    destruct (fdiv_val (f_of_Z 20) (f_of_Z 128) F1 ltac:(rewrite V2; lra)) as [F V].
    { rewrite V1, V2, Rabs_pos_eq by lra. apply Rle_trans with 1; [lra|]. apply (Z_small 1). vm_compute. discriminate. }
    split; [exact F|]. rewrite V, V1, V2. replace (20 / 128) with (5 / 32) by lra. apply round_generic; [typeclasses eauto|]. rewrite bexp_flt.
    apply generic_format_FLT. exists (Float radix2 5 (-5)); [unfold F2R; cbn; lra|cbn; lia|cbn; lia]. }
  destruct SP as [Fp Vp].
  apply (C130_main lines_only sample_config None None (f_of_Z 20) 10 5 C130_segments 30000 30000 384000 384000 40 41 12596).
  - exact first_ge_searches.
  - vm_compute. reflexivity.
  - discriminate.
  - intros []; lia.
  - intros []; lia.
  - fold s. intros i. destruct (S1 i) as [F V]. split; [exact F|]. rewrite V, Rabs_pos_eq; lra.
  - exact Fp.
  - change (tps sample_config) with 128%Z. rewrite Vp. lra.
  - fold s. intros i. destruct (S1 i) as [_ V]. change (tps sample_config) with 128%Z. rewrite V, Vp, Rabs_pos_eq by lra. destruct i; lra.
  - right. do 2 eexists. reflexivity.
  - assert (R : forall x y, (Z.abs x <= 40)%Z -> (Z.abs y <= 40)%Z -> reachable 40 (pt x y)).
    { assert (R0 : forall x, (Z.abs x <= 40)%Z -> is_finite (f_of_Z x) = true /\ Rabs (B2R (f_of_Z x)) <= 40 /\
        (B2R (f_of_Z x) = 0 \/ / 2 ^ 400 <= Rabs (B2R (f_of_Z x)))).
      { intros x Hx. destruct (f_of_Z_exact x ltac:(lia)) as [F V]. split; [exact F|]. rewrite V, <- abs_IZR. split; [apply (IZR_le _ 40); exact Hx|].
        destruct (Z.eq_dec x 0) as [->|NZ]; [left; reflexivity|right]. apply Rle_trans with 1; [|apply (IZR_le 1); lia].
        rewrite <- Rinv_1. apply Rinv_le; [lra|]. apply pow_R1_Rle. lra. }
      intros x y Hx Hy []; cbn [pt fidx fx fy]; apply R0; assumption. }
    unfold C130_segments. repeat (constructor; [apply R; lia|]). constructor.
  - vm_compute. discriminate.
  - vm_compute. discriminate.
  - lia.
  - lia.
  - vm_compute. discriminate.
  - fold s. intros i. destruct (S1 i) as [_ V]. rewrite V, Rabs_pos_eq; lra.
  - lia.
  - change (tps sample_config) with 128%Z. rewrite Vp. change (8 * 41 * Z.of_nat (length C130_segments))%Z with 1968%Z. lra.
  - fold s. intros i. destruct (S1 i) as [_ V]. rewrite V, Rabs_pos_eq, <- mult_IZR, Zceil_IZR by lra. destruct i; vm_compute; reflexivity.
Qed.

Print Assumptions C130_main.
Print Assumptions C130_any.
Print Assumptions C130_program.
