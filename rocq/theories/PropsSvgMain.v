(** Property C82: the svg_path program from its options and the curve segments of
    the document to the event stream.

    [play] (MachineSpec.v) is the independent machine; [pieces], [grouped],
    [timeline] and [burning] are in DrawProofs.v, [runs_within] in PropsDraw.v,
    [within_error] and [reaches_error] in PropsError.v. *)
From Coq Require Import ZArith List Bool Lia Reals Lra.
From Flocq Require Import Core BinarySingleNaN.
From Coq Require Import ZifyBool ZifyNat.
From Verif Require Import Base Floats AccVector MotionSpec IntegerCurve StepperContext MachineSpec
  MachineProofs ContextProofs ContextOps ContextHist ContextClock ContextGoto PropsIntegerCurve PropsContext
  MachinePath PropsPath ApproxCurve ApproxProofs ApproxBound DrawCurves PropsApprox DrawProofs PropsDraw PropsError
  ImageRaster RasterProofs PropsRaster FloatProofs FloatScale SvgMain.
Import ListNotations.
Open Scope Z_scope.

(** A pass: the runs drawn and their times. *)
Definition pass : Type := (list run * list (Z * Z * Z))%type.

Inductive passes (g : geometry) (s : scales) (v : f64) (segs : list segment) : ctx -> list pass -> ctx -> Prop :=
| ps_nil : forall c, passes g s v segs c [] c
| ps_cons : forall c c1 c2 e l runs times pos' ps, draw_curves g s c segs v = Ok (c1, e) ->
    pieces g (stands g s v c runs) (machine_place s c) segs l pos' -> grouped l runs ->
    timeline g v (ticks_of c AX) runs times (ticks_of c1 AX) ->
    passes g s v segs c1 ps c2 -> passes g s v segs c ((runs, times) :: ps) c2.

(** Passes all of whose runs satisfy the documented conditions of goto. *)
Inductive passes_within (g : geometry) (s : scales) (v : f64) (segs : list segment) : ctx -> list pass -> Prop :=
| pw_nil : forall c, passes_within g s v segs c []
| pw_cons : forall c p ps, runs_within g s v c (fst p) ->
    (forall c1 e, draw_curves g s c segs v = Ok (c1, e) -> passes_within g s v segs c1 ps) ->
    passes_within g s v segs c (p :: ps).

Lemma passes_ticks : forall g s v segs c ps c', passes g s v segs c ps c' ->
  ticks_of c AX <= ticks_of c' AX /\
  forall t, (t < ticks_of c AX \/ ticks_of c' AX <= t) -> existsb (fun p => burning (snd p) t) ps = false.
Proof.
  intros g s v segs c ps c' H. induction H; [split; [lia|reflexivity]|]. destruct IHpasses as [L B].
  pose proof (timeline_le _ _ _ _ _ _ H2). split; [lia|]. intros t Ht. cbn [existsb snd].
  rewrite B by lia. rewrite orb_false_r. clear - H2 Ht L.
  induction H2; cbn [burning]; [reflexivity|]. pose proof (timeline_le _ _ _ _ _ _ H2). rewrite IHtimeline; [|lia..].
  lia.
Qed.

Section Repeat.
Variables (ax ay vmx vmy : Z) (g : geometry) (s : scales) (v : f64) (segs : list segment).
Hypothesis (NE : segs <> []).
Let new := new_ctx ax ay vmx vmy.

Definition errors_of (c' : ctx) (e : Z * Z) (p : pass) : Prop :=
  forall w i, let at_tick j t := s_pos (machine_axis (play (events c') t (machine0 w)) j) in
  within_error g s v at_tick i (pick2 i e) (fst p) (snd p) /\
  (pick2 i e = 0 \/ reaches_error g s v at_tick i (pick2 i e) (fst p) (snd p)).

Lemma repeat_history : forall n c err c' e, clocked c -> repeat_draw g s segs v n c err = Ok (c', e) ->
  exists ops, history code c ops c' /\ Forall not_reset ops.
Proof.
  induction n as [|n IH]; intros c err c' e Hc H; cbn [repeat_draw] in H.
  - injection H as <- _. exists []. split; constructor.
  - apply bind_Ok in H. destruct H as ([c1 e1] & D & H).
    destruct (C74_session _ _ _ _ _ _ _ Hc D) as (ops & H1 & _ & R1 & _).
    destruct (history_step _ _ _ _ planner_typed H1 R1 Hc) as [St _].
    destruct (IH _ _ _ _ (st_clocked _ _ St) H) as (ops2 & H2 & R2). exists (ops ++ ops2).
    split; [eapply history_app; eauto|]. apply Forall_app. auto.
Qed.

Lemma repeat_all : forall n c err c' e ops, history code new ops c ->
  repeat_draw g s segs v n c err = Ok (c', e) -> (forall i, ticks_of c' i < u64_max) ->
  exists ps, passes g s v segs c ps c' /\ length ps = n /\ curve_weight c' = curve_weight c /\
  (n <> O -> forall t m, m_weight (play (events c') t m) = if t <? ticks_of c AX then m_weight (play (events c) t m)
     else if existsb (fun p => burning (snd p) t) ps then curve_weight c else 0) /\
  (n <> O -> errors_of c' e (last ps ([], [])) /\ exists t, 0 <= t /\
     timeline g v t (fst (last ps ([], []))) (snd (last ps ([], []))) (ticks_of c' AX) /\
     (fst (last ps ([], [])) <> [] -> ticks_of c' AX = ticks_of c' AY)) /\
  (forall ops0, 0 <= vmx <= 2 ^ 31 - 1 - 32768 -> 0 <= vmy <= 2 ^ 31 - 1 - 32768 ->
   kept within_speed new ops0 c -> Forall not_reset ops0 -> passes_within g s v segs c ps ->
   exists ops1, kept within_speed new (ops0 ++ ops1) c' /\ Forall not_reset ops1).
Proof.
  induction n as [|n IH]; intros c err c' e ops H R Hm; cbn [repeat_draw] in R.
  - injection R as <- <-. exists []. split; [constructor|]. split; [reflexivity|]. split; [reflexivity|].
    split; [congruence|]. split; [congruence|]. intros ops0 _ _ K F _. exists []. rewrite app_nil_r. auto.
  - apply bind_Ok in R. destruct R as ([c1 [ex ey]] & D & R).
    destruct (clocked_history _ _ _ _ _ _ H) as [Hc Cf].
    destruct (C74_session _ _ _ _ _ _ _ Hc D) as (ops1 & H1 & _ & R1 & _).
    destruct (history_step _ _ _ _ planner_typed H1 R1 Hc) as [St _].
    destruct (repeat_history _ _ _ _ _ (st_clocked _ _ St) R) as (ops2 & H2 & R2).
    destruct (history_step _ _ _ _ planner_typed H2 R2 (st_clocked _ _ St)) as [St2 _].
    assert (Hm1 : forall i, ticks_of c1 i < u64_max).
    { intros j. pose proof (st_ticks _ _ St2 j). specialize (Hm j). lia. }
    destruct (drawing_all _ _ _ _ _ _ _ _ _ _ _ _ _ H NE D Hm1)
      as (l & runs & times & pos' & P & G & TL & Q & ER & KE & CW & SY).
    pose proof (history_app _ _ _ _ H _ _ H1) as HH.
    destruct (IH _ _ _ _ _ HH R Hm) as (ps & PS & L & CW2 & Q2 & ER2 & KE2).
    exists ((runs, times) :: ps). split; [econstructor; eauto|]. split; [cbn [length]; congruence|].
    split; [congruence|]. split; [|split].
    + intros _ t m. cbn [existsb snd]. pose proof (timeline_le _ _ _ _ _ _ TL) as LE.
      destruct (passes_ticks _ _ _ _ _ _ _ PS) as [LE2 PB].
      destruct n as [|n].
      { destruct ps; [|discriminate L]. inversion PS; subst. cbn [existsb]. rewrite orb_false_r. apply Q. }
      rewrite Q2 by discriminate. rewrite Q, CW.
      destruct (Z.ltb_spec t (ticks_of c1 AX)).
      * rewrite PB by lia. rewrite orb_false_r. reflexivity.
      * destruct (Z.ltb_spec t (ticks_of c AX)); [lia|].
        assert (BF : burning times t = false).
        { clear - TL H0. induction TL; cbn [burning]; [reflexivity|]. pose proof (timeline_le _ _ _ _ _ _ TL).
          rewrite IHTL by lia. lia. }
        rewrite BF. reflexivity.
    + intros _. destruct n as [|n].
      * destruct ps; [|discriminate L]. cbn [repeat_draw] in R. injection R as <- <-.
        cbn [last]. split.
        2: { exists (ticks_of c AX). split; [apply (ck_ticks c Hc AX)|]. auto. }
        intros w i. specialize (ER w i). cbv zeta in *. cbn [fst snd].
        replace (pick2 i (ex, ey)) with (match i with AX => ex | AY => ey end) by (destruct i; reflexivity). exact ER.
      * destruct ps as [|p ps]; [discriminate L|]. change (last ((runs, times) :: p :: ps) ([], [])) with (last (p :: ps) ([], []) : pass).
        apply ER2. discriminate.
    + intros ops0 Hx Hy K F PW. inversion PW as [|? ? ? RW PW']; subst. cbn [fst] in RW.
      destruct (KE ops0 Hx Hy K F RW) as (o1 & K1 & F1).
      destruct (KE2 (ops0 ++ o1) Hx Hy K1 ltac:(apply Forall_app; auto) (PW' _ _ D)) as (o2 & K2 & F2).
      exists (o1 ++ o2). rewrite app_assoc. split; [exact K2|]. apply Forall_app. auto.
Qed.
End Repeat.

(** One division into passes and runs, for which all of this holds:
    - the passes are [n_repeat] and start with the limits and the weight of the options;
    - the laser burns, with the weight asked for, exactly while a run is followed;
    - the printed errors are those of the last pass on the machine;
    - if the machine may go back from where it ends it does, and stays, at rest,
      within a step of the origin;
    - if in addition the runs satisfy the conditions of goto, the speed limits are
      kept at every time. *)
Theorem C82_program : forall g cf v_opt a_opt v_draw n_repeat intensity segs c' ex ey,
  svg_main g cf v_opt a_opt v_draw n_repeat intensity segs = Ok (c', (ex, ey)) -> segs <> [] -> 1 <= n_repeat ->
  (forall i, ticks_of c' i < u64_max) ->
  exists ax ay vmx vmy cn ps, svg_limits cf v_opt a_opt = Ok (ax, ay, vmx, vmy) /\
  let s := mk_scales (steps_per_mm (stepper_x cf)) (steps_per_mm (stepper_y cf)) in
  let v := fdiv v_draw (f_of_Z (tps cf)) in
  let c0 := set_weight (new_ctx ax ay vmx vmy) (svg_weight intensity) in
  passes g s v segs c0 ps cn /\ Z.of_nat (length ps) = n_repeat /\
  (forall t m, 0 <= t -> m_weight (play (events c') t m) =
     if existsb (fun p => burning (snd p) t) ps then svg_weight intensity else 0) /\
  (let '(runs, times) := last ps ([], []) in
   forall w i, let e := match i with AX => ex | AY => ey end in
   let at_tick j t := s_pos (machine_axis (play (events c') t (machine0 w)) j) in
   within_error g s v at_tick i e runs times /\ (e = 0 \/ reaches_error g s v at_tick i e runs times)) /\
  (goto_axis cn AX 0 0 -> goto_axis cn AY 0 0 ->
   (forall t w i, ticks_of c' AX <= t -> let a := machine_axis (play (events c') t (machine0 w)) i in
      Z.abs (s_pos a) <= 1 /\ s_v a = 0 /\ s_acc a = 0) /\
   (0 <= vmx <= 2 ^ 31 - 1 - 32768 -> 0 <= vmy <= 2 ^ 31 - 1 - 32768 -> passes_within g s v segs c0 ps ->
    forall t w i, 0 <= t ->
    Z.abs (s_v (machine_axis (play (events c') t (machine0 w)) i)) <= match i with AX => vmx | AY => vmy end)).
Proof.
  intros g cf v_opt a_opt v_draw n_repeat intensity segs c' ex ey M NE N Hm. unfold svg_main in M.
  apply bind_Ok in M. destruct M as ([[[ax ay] vmx] vmy] & L & M). cbv zeta in M.
  set (s := mk_scales _ _) in *. set (v := fdiv _ _) in *.
  set (c0 := set_weight _ _) in *.
  apply bind_Ok in M. destruct M as ([cn [ex1 ey1]] & R & M).
  apply bind_Ok in M. destruct M as (c1 & G & M). apply bind_Ok in M. destruct M as (t1 & T & M).
  apply bind_Ok in M. destruct M as (_u & _ & M). apply bind_Ok in M. destruct M as (c2 & F & M).
  injection M as -> -> ->. clear t1 T _u.
  assert (H0 : history code (new_ctx ax ay vmx vmy) [SetWeight (svg_weight intensity)] c0).
  { eapply hist_cons; [exact I|reflexivity|apply hist_nil]. }
  destruct (clocked_history _ _ _ _ _ _ H0) as [Hc0 _].
  destruct (repeat_history g s v segs _ _ _ _ _ Hc0 R) as (ops & H1 & R1).
  pose proof (history_app _ _ _ _ H0 _ _ H1) as Hn.
  destruct (clocked_history _ _ _ _ _ _ Hn) as [Hcn Cfn].
  assert (HG : history code cn [GotoSpeed 0 0 0 0] c1).
  { eapply hist_cons; [exact I|exact G|apply hist_nil]. }
  pose proof (history_app _ _ _ _ Hn _ _ HG) as Hn1.
  destruct (clocked_history _ _ _ _ _ _ Hn1) as [Hc1 Cf1].
  assert (HF : history code c1 [Flush] c').
  { eapply hist_cons; [exact I|exact F|apply hist_nil]. }
  destruct (step_goto_speed_spec code cn 0 0 0 0 c1 Hcn planner_typed G)
    as (sx & sy & rest & _ & _ & _ & S1 & _ & Y1 & ST1 & _ & _ & Q1).
  destruct (flush_spec c1 c' Hc1 F) as (S2 & _ & Ch2 & _ & _ & _ & Q2).
  destruct (C27_flush_stops _ _ _ _ _ _ _ Hn1 F) as (_ & TT & PP & VV & W2 & B2).
  assert (TK : forall i, ticks_of c' i = ticks_of c1 i).
  { intros i. pose proof (Ch2 i) as K. unfold ticks_of. destruct i; cbn [channel] in K; congruence. }
  assert (Hm1 : forall i, ticks_of c1 i < u64_max) by (intros i; rewrite <- TK; apply Hm).
  assert (Hmn : forall i, ticks_of cn i < u64_max).
  { intros i. pose proof (st_ticks _ _ S1 i). specialize (Hm1 i). lia. }
  destruct (repeat_all ax ay vmx vmy g s v segs NE _ _ _ _ _ _ H0 R Hmn) as (ps & PS & LN & _ & QW & ER & KE).
  exists ax, ay, vmx, vmy, cn, ps. split; [exact L|]. cbv zeta. fold s v c0.
  split; [exact PS|]. split; [lia|].
  pose proof (ck_ticks cn Hcn AX) as TCn.
  assert (MW : move_weight cn = 0 /\ move_weight c1 = 0).
  { unfold config in *. split; congruence. }
  destruct MW as [MWn MW1].
  destruct (passes_ticks _ _ _ _ _ _ _ PS) as [LE PB].
  split; [|split].
  - intros t m Ht. rewrite play_weight_ok, Q2, Q1, MWn, MW1.
    destruct (Z.leb_spec (ticks_of cn AX) t).
    + rewrite PB by lia. destruct (ticks_of c1 AX <=? t); reflexivity.
    + pose proof (st_ticks _ _ S1 AX). destruct (Z.leb_spec (ticks_of c1 AX) t); [lia|].
      rewrite <- play_weight_ok, QW by lia. destruct (Z.ltb_spec t (ticks_of c0 AX)) as [X|_]; [|reflexivity].
      change (ticks_of c0 AX) with 0 in X. lia.
  - destruct (ER ltac:(lia)) as (ER' & t0 & T0 & TLS & SY). clear ER. destruct (last ps ([], [])) as [runs times] eqn:EL.
    intros w i. pose proof (ER' w i) as ER. cbv zeta in ER. cbn [fst snd] in ER, TLS, SY. cbv zeta.
    replace (pick2 i (ex, ey)) with (match i with AX => ex | AY => ey end) in ER by (destruct i; reflexivity).
    assert (HGF : history code cn [GotoSpeed 0 0 0 0; Flush] c').
    { exact (history_app _ _ _ _ HG _ _ HF). }
    assert (Sn : sound cn) by exact (history_sound _ _ _ cn planner_typed Hn (sound_new ax ay vmx vmy)).
    assert (AT : runs <> [] -> forall t, 0 <= t <= ticks_of cn AX ->
      s_pos (machine_axis (play (events c') t (machine0 w)) i) = s_pos (machine_axis (play (events cn) t (machine0 w)) i)).
    { intros K t Ht. rewrite !machine_place_at by (try lia; try apply S2; apply Hcn).
      apply (history_place _ _ _ HGF ltac:(repeat constructor) Sn Hm). specialize (SY K). destruct i; lia. }
    destruct runs as [|r0 runs].
    { destruct ER as [WE RE]. inversion WE; subst. split; [constructor|]. destruct RE as [RE|RE]; auto. inversion RE. }
    specialize (AT ltac:(discriminate)). destruct ER as [WE RE]. split.
    + eapply within_ext; [exact TLS|exact T0| |exact WE]. exact AT.
    + destruct RE as [RE|RE]; auto. right. eapply reaches_ext; [exact TLS|exact T0| |exact RE]. exact AT.
  - intros GX GY.
    destruct (goto_place cn 0 0 0 0 c1 Hcn G GX GY) as [PX PY].
    assert (V0 : velocity c1 = (0, 0)).
    { pose proof (f_equal snd (ST1 AX)) as K1. pose proof (f_equal snd (ST1 AY)) as K2.
      unfold c_state in *. cbn [snd channel] in K1, K2. unfold velocity. congruence. }
    assert (HOME : forall t w i, ticks_of c' AX <= t -> let a := machine_axis (play (events c') t (machine0 w)) i in
      Z.abs (s_pos a) <= 1 /\ s_v a = 0 /\ s_acc a = 0).
    { intros t w i Ht a. rewrite TK in Ht.
      pose proof (C27_flushed_at_rest _ _ _ _ _ _ _ t w Hn1 F (Hm1 AX) V0 Ht) as K. cbv zeta in K.
      destruct K as [KP KV]. unfold position in KP. injection KP as KP1 KP2. injection KV as KV1 KV2.
      cbn [channel] in PX, PY.
      split; [|split; [|apply (W2 t (machine0 w) Ht)]]; unfold a; destruct i; cbn [machine_axis]; lia. }
    split; [exact HOME|]. intros Hx Hy PW t w i Ht.
    destruct (Z.leb_spec (ticks_of c' AX) t) as [T|T].
    { pose proof (HOME t w i T) as K. cbv zeta in K. destruct K as (_ & -> & _). destruct i; cbn [Z.abs]; lia. }
    assert (K0 : kept within_speed (new_ctx ax ay vmx vmy) [SetWeight (svg_weight intensity)] c0).
    { eapply kept_cons; [exact I|exact I|reflexivity|apply kept_nil]. }
    destruct (KE _ Hx Hy K0 ltac:(repeat constructor) PW) as (ops1 & K1 & F1).
    assert (K2 : kept within_speed cn [GotoSpeed 0 0 0 0; Flush] c').
    { eapply kept_cons; [exact I|split; [exact GX|exact GY]|exact G|].
      eapply kept_cons; [exact I|exact I|exact F|apply kept_nil]. }
    eapply C73_stream_speed_limit; [lia|lia|exact (kept_app _ _ _ _ _ _ K1 K2)| |exact Hm|].
    { cbn [app]. constructor; [exact I|]. apply Forall_app. split; [exact F1|repeat constructor]. }
    destruct i; [lia|]. rewrite !TK in *. lia.
Qed.

(** The weight: of the 254 the percentage asked for, less than one off. *)
Theorem C82_weight : forall intensity, 0 <= intensity <= 100 ->
  0 <= svg_weight intensity <= 254 /\ 0 <= 254 * intensity - 100 * svg_weight intensity < 100.
Proof.
  intros p Hp. unfold svg_weight. rewrite Z.quot_div_nonneg by lia.
  pose proof (Z.div_mod (p * 254) 100 ltac:(lia)). pose proof (Z.mod_pos_bound (p * 254) 100 ltac:(lia)).
  split; [split; [apply Z.div_pos; lia|apply Z.div_le_upper_bound; lia]|lia].
Qed.

(** The limits of an axis in steps per tick: a velocity is in half steps per
    tick (C04), so velocities are divided by 2 * tps, accelerations by 2 * tps^2.
    Those of the configuration are rounded, those of the options cut off. *)
Definition ordinary (x : f64) : Prop := is_finite x = true /\ (Rabs (B2R x) <= bpow radix2 400)%R.
Definition wanted_v (st : stepper) (tps : Z) (v : f64) : R := (Rabs (B2R (steps_per_mm st)) * B2R v / (2 * IZR tps))%R.
Definition wanted_a (st : stepper) (tps : Z) (a : f64) : R :=
  (Rabs (B2R (steps_per_mm st)) * B2R a / (2 * IZR tps * IZR tps))%R.
Definition representable (x : R) : Prop := (x <= 2147483646)%R.

Definition rounded (x : R) (z : Z) : Prop := (Rabs (IZR z - x) <= / 2 + / 32768)%R.
Definition cut (x : R) (z : Z) : Prop := (- / 32768 <= x - IZR z <= 1 + / 32768)%R.

Theorem C82_limits : forall cf v_opt a_opt ax ay vmx vmy,
  1 <= tps cf < 2 ^ 31 -> ordinary (steps_per_mm (stepper_x cf)) -> ordinary (steps_per_mm (stepper_y cf)) ->
  svg_limits cf v_opt a_opt = Ok (ax, ay, vmx, vmy) ->
  forall i, let st := match i with AX => stepper_x cf | AY => stepper_y cf end in
  let v := match v_opt with Some v => v | None => max_velocity st end in
  let a := match a_opt with Some a => a | None => max_acc st end in
  let vm := match i with AX => vmx | AY => vmy end in
  let am := match i with AX => ax | AY => ay end in
  (ordinary v -> (0 <= B2R v)%R -> representable (wanted_v st (tps cf) v) ->
   match v_opt with None => rounded | Some _ => cut end (wanted_v st (tps cf) v) vm) /\
  (ordinary a -> (0 <= B2R a)%R -> representable (wanted_a st (tps cf) a) ->
   match a_opt with None => rounded | Some _ => cut end (wanted_a st (tps cf) a) am).
Proof.
  intros cf v_opt a_opt ax ay vmx vmy T [Fx Bx] [Fy By] L i st v a vm am.
  unfold svg_limits in L. apply bind_Ok in L. destruct L as (two & E & L). apply chk_Ok in E. destruct E as [<- _].
  cbv zeta in L.
  fold (v_scale (steps_per_mm (stepper_x cf)) (tps cf)) in L. fold (v_scale (steps_per_mm (stepper_y cf)) (tps cf)) in L.
  fold (a_scale (steps_per_mm (stepper_x cf)) (tps cf)) in L. fold (a_scale (steps_per_mm (stepper_y cf)) (tps cf)) in L.
  assert (FS : is_finite (steps_per_mm st) = true) by (unfold st; destruct i; assumption).
  assert (BS : (Rabs (B2R (steps_per_mm st)) <= bpow radix2 400)%R) by (unfold st; destruct i; assumption).
  assert (VN : ordinary v -> (0 <= B2R v)%R -> representable (wanted_v st (tps cf) v) ->
    is_finite (fmul (fabs (v_scale (steps_per_mm st) (tps cf))) v) = true /\
    (Rabs (B2R (fmul (fabs (v_scale (steps_per_mm st) (tps cf))) v) - wanted_v st (tps cf) v) <= / 32768)%R /\
    (0 <= wanted_v st (tps cf) v <= 2147483646)%R).
  { intros [Fv Bv] V0 R. destruct (velocity_near (steps_per_mm st) v (tps cf) FS Fv T BS Bv V0 R) as (A & B & C). auto. }
  assert (AN : ordinary a -> (0 <= B2R a)%R -> representable (wanted_a st (tps cf) a) ->
    (is_finite (fabs (fmul (a_scale (steps_per_mm st) (tps cf)) a)) = true /\
    (Rabs (B2R (fabs (fmul (a_scale (steps_per_mm st) (tps cf)) a)) - wanted_a st (tps cf) a) <= / 32768)%R) /\
    (is_finite (fabs (fmul a (a_scale (steps_per_mm st) (tps cf)))) = true /\
    (Rabs (B2R (fabs (fmul a (a_scale (steps_per_mm st) (tps cf)))) - wanted_a st (tps cf) a) <= / 32768)%R) /\
    (0 <= wanted_a st (tps cf) a <= 2147483646)%R).
  { intros [Fa Ba] A0 R. destruct (acceleration_near (steps_per_mm st) a (tps cf) FS Fa T BS Ba A0 R) as (A & B & C).
    destruct (acceleration_near' (steps_per_mm st) a (tps cf) FS Fa T BS Ba A0 R) as (A' & B' & C'). auto. }
  assert (VM : vm = match v_opt with
    | None => f_as_i32 (fround (fmul (fabs (v_scale (steps_per_mm st) (tps cf))) v))
    | Some _ => f_as_i32 (fmul (fabs (v_scale (steps_per_mm st) (tps cf))) v) end).
  { unfold vm, v, st. destruct v_opt, a_opt, i; injection L as <- <- <- <-; reflexivity. }
  assert (AM : am = match a_opt with
    | None => f_as_i32 (fround (fabs (fmul (a_scale (steps_per_mm st) (tps cf)) a)))
    | Some _ => f_as_i32 (fabs (fmul a (a_scale (steps_per_mm st) (tps cf)))) end).
  { unfold am, a, st. destruct v_opt, a_opt, i; injection L as <- <- <- <-; reflexivity. }
  clearbody vm am v a. clear L. split; intros O P R.
  - destruct (VN O P R) as (F & N & Q). rewrite VM. destruct v_opt.
    + exact (as_cut _ _ F N Q).
    + exact (as_rounded _ _ F N Q).
  - destruct (AN O P R) as ((F & N) & (F' & N') & Q). rewrite AM. destruct a_opt.
    + exact (as_cut _ _ F' N' Q).
    + exact (as_rounded _ _ F N Q).
Qed.

Definition mm10 (x y : Z) : fvec := mk_fvec (lit x 10) (lit y 10).

(** Two passes over a millimetre, at half intensity: burning twice, ending at home;
    the machine may go back from where the passes end. *)
Example C82_example : exists c',
  svg_main lines_only sample_config None None (f_of_Z 20) 2 50 [SGoTo (mm10 10 10); SLineTo (mm10 20 10)] =
    Ok (c', (19750, 0)) /\ (forall i, ticks_of c' i < u64_max) /\ ticks_of c' AX = 75 /\ position c' = (0, 0) /\
  map (fun t => m_weight (play (events c') t (machine0 7))) [0; 11; 12; 17; 18; 44; 45; 50; 51; 75; 1000] =
    [0; 0; 127; 127; 0; 0; 127; 127; 0; 0; 0] /\
  exists cn e, repeat_draw lines_only (mk_scales (f_of_Z 1966080) (f_of_Z 1966080))
    [SGoTo (mm10 10 10); SLineTo (mm10 20 10)] (fdiv (f_of_Z 20) (f_of_Z 128)) 2
    (set_weight (new_ctx 30000 30000 384000 384000) 127) (0, 0) = Ok (cn, e) /\
    goto_axis cn AX 0 0 /\ goto_axis cn AY 0 0.
Proof.
  eexists. split; [vm_compute; reflexivity|]. split; [intros []; vm_compute; reflexivity|].
  split; [vm_compute; reflexivity|]. split; [vm_compute; reflexivity|]. split; [vm_compute; reflexivity|].
  do 2 eexists. split; [vm_compute; reflexivity|]. split; vm_compute; repeat split; discriminate.
Qed.

(** The error of the first pass is not reported. *)
Theorem C82_last_error_only : exists c1 c2,
  svg_main lines_only sample_config None None (f_of_Z 20) 1 50 [SLineTo (mm10 20 10)] = Ok (c1, (5883, 2941)) /\
  svg_main lines_only sample_config None None (f_of_Z 20) 2 50 [SLineTo (mm10 20 10)] = Ok (c2, (0, 0)).
Proof. do 2 eexists. split; vm_compute; reflexivity. Qed.

(** A drawing speed above the maximum: a line to the right panics, one to the left
    is drawn at twice the maximum (--v-max 10 is 76800 half steps per tick). *)
Theorem C82_speed_unchecked :
  svg_limits sample_config (Some (f_of_Z 10)) None = Ok (30000, 30000, 76800, 76800) /\
  svg_main lines_only sample_config (Some (f_of_Z 10)) None (f_of_Z 20) 1 50
    [SGoTo (mm10 10 10); SLineTo (mm10 20 10)] = Panic /\
  exists c' e, svg_main lines_only sample_config (Some (f_of_Z 10)) None (f_of_Z 20) 1 50
    [SGoTo (mm10 10 10); SLineTo (mm10 0 10)] = Ok (c', e) /\ s_v (m_x (play (events c') 26 (machine0 0))) = -153600.
Proof. split; [reflexivity|]. split; [vm_compute; reflexivity|]. do 2 eexists. split; vm_compute; reflexivity. Qed.

(** Options that leave no acceleration or a negative velocity are accepted: the
    program panics when it first moves. *)
Theorem C82_bad_limits :
  svg_limits sample_config None (Some (lit 1 100)) = Ok (0, 0, 384000, 384000) /\
  svg_limits sample_config (Some (f_of_Z (-10))) None = Ok (30000, 30000, -76800, -76800) /\
  svg_main lines_only sample_config None (Some (lit 1 100)) (f_of_Z 20) 1 50
    [SGoTo (mm10 10 10); SLineTo (mm10 20 10)] = Panic /\
  svg_main lines_only sample_config (Some (f_of_Z (-10))) None (f_of_Z 20) 1 50
    [SGoTo (mm10 10 10); SLineTo (mm10 20 10)] = Panic.
Proof. repeat split; vm_compute; reflexivity. Qed.

Theorem C82_zero_ticks_per_second : forall g cf v_opt a_opt v_draw n_repeat intensity segs c' e, tps cf = 0 ->
  svg_main g cf v_opt a_opt v_draw n_repeat intensity segs <> Ok (c', e).
Proof.
  intros g cf v_opt a_opt v_draw n_repeat intensity segs c' e T M. unfold svg_main in M.
  apply bind_Ok in M. destruct M as ([[[ax ay] vmx] vmy] & L & M). cbv zeta in M.
  apply bind_Ok in M. destruct M as ([cn [ex1 ey1]] & R & M).
  apply bind_Ok in M. destruct M as (c1 & G & M). apply bind_Ok in M. destruct M as (t1 & _ & M).
  rewrite T in M. discriminate M.
Qed.

Print Assumptions C82_program.
Print Assumptions C82_weight.
Print Assumptions C82_limits.
