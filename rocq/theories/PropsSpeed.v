(** Property C117: the drawing speed is not checked.  What svg_path does with a speed that is not
    positive or not a number. *)
From Coq Require Import String.
From Coq Require Import ZArith List Bool Lia Reals Lra.
From Coq Require Import ZifyBool ZifyNat.
From Flocq Require Import Core BinarySingleNaN.
From Verif Require Import Base Floats FloatProofs AccVector MotionSpec IntegerCurve StepperContext MachineSpec
  MachineProofs ContextProofs ContextOps ContextHist ContextClock PropsIntegerCurve MachinePath
  ApproxCurve ApproxProofs DrawCurves DrawProofs ImageRaster SvgMain PropsApprox PropsDraw PropsError PropsRaster PropsSvgMain StepperControl Programs PropsLaser PropsLaserSvg FloatAngles FloatTransform PropsFloatTransform ControlSpec PropsControl PropsPrograms.
Import ListNotations.
Open Scope Z_scope.

(** Not below zero; NaN counts as such. *)
Definition not_below (x : f64) : Prop :=
  match x with B754_finite s _ _ _ => s = false | B754_infinity s => s = false | _ => True end.
Definition not_above (x : f64) : Prop :=
  match x with B754_finite s _ _ _ => s = true | B754_infinity s => s = true | _ => True end.
(** A speed with a minus sign, or NaN. *)
Definition backwards (v : f64) : Prop := is_nan v = true \/ Bsign v = true.

Lemma not_below_R : forall x, is_finite x = true -> (0 <= B2R x)%R -> not_below x.
Proof.
  intros [s|s| |s m e B] F H; try discriminate; cbn; auto. destruct s; [|reflexivity]. exfalso. cbn in H.
  apply (Rlt_not_le _ _ (F2R_lt_0 radix2 (Float radix2 (Z.neg m) e) eq_refl) H).
Qed.
Lemma not_below_ge : forall x, not_below x -> (0 <= B2R x)%R.
Proof.
  intros [s|s| |s m e B] H; cbn in *; try lra. subst s. apply F2R_ge_0. cbn. lia.
Qed.

Lemma fadd_not_below : forall x y, not_below x -> not_below y -> not_below (fadd x y).
Proof.
  intros x y X Y. destruct (is_finite x) eqn:FX, (is_finite y) eqn:FY.
  - pose proof (Bplus_correct 53 1024 prec_ok emax_ok mode_NE x y FX FY) as C. fold (fadd x y) in C.
    pose proof (not_below_ge _ X). pose proof (not_below_ge _ Y).
    destruct (Rlt_bool _ _).
    + destruct C as (E & F & _). apply not_below_R; [exact F|]. rewrite E. apply round_ge_generic; try typeclasses eauto.
      * apply generic_format_0.
      * lra.
    + destruct C as [C SG]. destruct x as [sx|sx| |sx mx ex Bx], y as [sy|sy| |sy my ey By]; try discriminate; cbn in X, Y; subst; auto.
      * unfold fadd, Bplus. destruct (Bool.eqb sx sy); exact I.
      * cbn [Bsign] in C. unfold not_below. destruct (fadd _ _); cbn in C; try discriminate; auto. injection C as ->. reflexivity.
  - destruct x, y; try discriminate; cbn in *; subst; auto.
  - destruct x, y; try discriminate; cbn in *; subst; auto.
  - destruct x, y; try discriminate; cbn in *; subst; auto.
Qed.

Lemma fsqrt_not_below : forall x, not_below (fsqrt x).
Proof.
  intros x. pose proof (Bsqrt_correct 53 1024 prec_ok emax_ok mode_NE x) as (E & F & S). fold (fsqrt x) in E, F, S.
  destruct x as [s|s| |s m e B]; try (cbn; auto; destruct s; reflexivity).
  destruct s; [cbn; auto|]. apply not_below_R; [exact F|]. rewrite E. apply round_ge_generic; try typeclasses eauto.
  - apply generic_format_0.
  - apply sqrt_pos.
Qed.

Lemma fdiv_not_above : forall x v, not_below x -> backwards v -> not_above (fdiv x v).
Proof.
  intros x v X V.
  destruct v as [sv|sv| |sv mv ev Bv].
  4: destruct x as [sx|sx| |sx mx ex Bx].
  7: {
    set (x := B754_finite sx mx ex Bx). set (v := B754_finite sv mv ev Bv).
    assert (V0 : B2R v <> 0%R).
    { unfold v. destruct V as [V|V]; [discriminate|]. cbn in V. subst sv. cbn. apply Rlt_not_eq, F2R_lt_0. reflexivity. }
    pose proof (Bdiv_correct 53 1024 prec_ok emax_ok mode_NE x v V0) as C. fold (fdiv x v) in C.
    destruct V as [V|V]; [discriminate|]. cbn in X, V. subst sx sv. unfold not_above. destruct (Rlt_bool _ _).
    - destruct C as (_ & _ & S). destruct (fdiv x v); auto; cbn in S; auto.
    - destruct (fdiv x v); cbn in C; try discriminate; auto. injection C as ->. reflexivity. }
  all: try destruct x as [sx|sx| |sx mx ex Bx]; cbn in X; destruct V as [V|V]; try discriminate; cbn in V; subst; try reflexivity; exact I.
Qed.

Lemma not_above_int : forall x, not_above x -> f_as_i32 (fround x) <= 0.
Proof.
  intros x H. destruct (is_finite x) eqn:F.
  - unfold f_as_i32. rewrite f_as_round by exact F. unfold i32_min, i32_max.
    assert (ZnearestA (B2R x) <= 0).
    { assert (B2R x <= 0)%R.
      { destruct x as [s|s| |s m e B]; cbn in *; try lra. subst s. apply F2R_le_0. cbn. lia. }
      pose proof (valid_rnd_N (Z.leb 0)) as [M K]. pose proof (M _ _ H0) as Q. rewrite K in Q. exact Q. }
    lia.
  - destruct x as [s|s| |s m e B]; try discriminate. cbn in H; subst s. vm_compute. discriminate.
Qed.

(** No curve that is drawn has a negative length.  Lines never have one. *)
Definition lengths_not_below (g : geometry) : Prop :=
  (forall c1 c2 p2 f, g_bezier g c1 c2 p2 = Ok f -> not_below (fc_length f)) /\
  (forall r a b f, g_circle g r a b = Ok f -> not_below (fc_length f)).

Lemma line_not_below : forall p, not_below (fc_length (fline p)).
Proof. intros p. apply fsqrt_not_below. Qed.

Lemma join_not_below : forall pieces l l', join_from l pieces = Ok l' -> Forall (fun f => not_below (fc_length f)) pieces ->
  not_below (fconcat_length l) -> not_below (fconcat_length l').
Proof.
  induction pieces as [|p r IH]; intros l l' H F N; cbn [join_from] in H; [congruence|].
  inversion F; subst. apply bind_Ok in H. destruct H as (l1 & E & H). eapply IH; [exact H|assumption|].
  unfold fconcat_add in E. apply bind_Ok in E. destruct E as ([e d] & _ & E). injection E as <-.
  unfold fconcat_length at 1. assert (L : forall x, last_fseg (l ++ [x]) = Some x).
  { clear. intros x. induction l as [|a [|b l] IH]; cbn [last_fseg app] in *; auto. }
  rewrite L. cbn [fs_len]. apply fadd_not_below; assumption.
Qed.

Lemma pieces_not_below : forall g skip pos segs l pos', lengths_not_below g -> pieces g skip pos segs l pos' ->
  Forall (fun p => not_below (fc_length (snd p))) l.
Proof.
  intros g skip pos segs l pos' [LB LC] H. induction H; auto. constructor; [|exact IHpieces]. cbn [snd].
  destruct seg; cbn [seg_info] in H0; try discriminate.
  - injection H0 as <- _. apply line_not_below.
  - injection H0 as <- _. apply line_not_below.
  - inv_bind H0. injection H0 as <- _. eapply LB; eassumption.
  - destruct (fgt _ _); [discriminate|]. apply bind_Ok in H0. destruct H0 as (c & E & H0).
    apply bind_Ok in H0. destruct H0 as ([e d] & _ & H0). injection H0 as <- _. eapply LC; eassumption.
Qed.

Lemma curve_ticks_backwards : forall g pieces l v, join_from [] pieces = Ok l ->
  Forall (fun f => not_below (fc_length f)) pieces -> backwards v -> curve_ticks (fconcat g l) v <= 0.
Proof.
  intros g pieces l v H F V. unfold curve_ticks. apply not_above_int, fdiv_not_above; [|exact V].
  cbn [fconcat fc_length]. eapply join_not_below; [exact H|exact F|exact I].
Qed.

Lemma grouped_not_below : forall l runs, grouped l runs -> Forall (fun p => not_below (fc_length (snd p))) l ->
  Forall (fun r : run => Forall (fun f => not_below (fc_length f)) (snd r)) runs.
Proof.
  intros l runs H. induction H; intros F; constructor.
  - inversion F as [|? ? F1 F2]; subst. apply Forall_app in F2. destruct F2 as [F2 _]. constructor; [exact F1|].
    clear - F2. induction F2; constructor; assumption.
  - apply IHgrouped. inversion F as [|? ? F1 F2]; subst. apply Forall_app in F2. apply F2.
Qed.

Lemma timeline_backwards : forall g v t runs times t', timeline g v t runs times t' -> backwards v ->
  Forall (fun r : run => Forall (fun f => not_below (fc_length f)) (snd r)) runs ->
  Forall (fun x => let '(_, t1, t2) := x in t2 = t1) times.
Proof.
  intros g v t runs times t' H V. induction H; intros F; constructor; inversion F; subst.
  - pose proof (curve_ticks_backwards g _ _ _ H0 H5 V). lia.
  - apply IHtimeline. assumption.
Qed.

Lemma passes_backwards : forall g s v segs c ps c', lengths_not_below g -> backwards v -> passes g s v segs c ps c' ->
  Forall (fun p : pass => Forall (fun x => let '(_, t1, t2) := x in t2 = t1) (snd p)) ps.
Proof.
  intros g s v segs c ps c' L V H. induction H; constructor; [|assumption]. cbn [snd].
  eapply timeline_backwards; [eassumption|exact V|]. eapply grouped_not_below; [eassumption|]. eapply pieces_not_below; eassumption.
Qed.

Lemma not_burning : forall times t, Forall (fun x : Z * Z * Z => let '(_, t1, t2) := x in t2 = t1) times -> burning times t = false.
Proof. intros times t H. induction H as [|[[a b] c] l E H IH]; cbn [burning]; [reflexivity|]. rewrite IH. lia. Qed.

Lemma fdiv_backwards : forall v n, backwards v -> 0 <= n <= 2 ^ 53 -> backwards (fdiv v (f_of_Z n)).
Proof.
  intros v n V N. destruct (Z.eq_dec n 0) as [->|NZ].
  { change (f_of_Z 0) with (B754_zero false : f64). destruct V as [V|V]; destruct v as [sv|sv| |sv mv ev Bv]; try discriminate; cbn in *; subst; cbv; auto. }
  destruct (f_of_Z_exact n ltac:(lia)) as [F E].
  assert (NB : not_below (f_of_Z n)) by (apply not_below_R; [exact F|]; rewrite E; apply IZR_le; lia).
  assert (R0 : B2R (f_of_Z n) <> 0%R) by (rewrite E; apply not_0_IZR; exact NZ).
  pose proof (Bdiv_correct 53 1024 prec_ok emax_ok mode_NE v (f_of_Z n) R0) as C. fold (fdiv v (f_of_Z n)) in C.
  destruct (f_of_Z n) as [sn|sn| |sn mn en Bn]; try discriminate; [elim R0; reflexivity|]. cbn in NB. subst sn.
  destruct V as [V|V]. { left. destruct v; try discriminate. reflexivity. }
  destruct (Rlt_bool _ _).
  - destruct C as (_ & _ & C). unfold backwards. destruct (is_nan (fdiv _ _)); [auto|]. right. rewrite C by reflexivity. rewrite V. reflexivity.
  - right. rewrite V in C. destruct (fdiv _ _); cbn in C; try discriminate. injection C as ->. reflexivity.
Qed.

(** With a negative drawing speed (or NaN or -0) the program runs through all its passes, goes
    to the start of each run and home again, burns nothing, and reports that the error was zero. *)
Theorem C117_negative : forall g cf v_opt a_opt v_draw n_repeat intensity segs c' ex ey,
  lengths_not_below g -> backwards v_draw -> 0 <= tps cf <= 2 ^ 53 ->
  svg_main g cf v_opt a_opt v_draw n_repeat intensity segs = Ok (c', (ex, ey)) -> segs <> [] -> 1 <= n_repeat ->
  (forall i, ticks_of c' i < u64_max) ->
  ex = 0 /\ ey = 0 /\ forall t m, 0 <= t -> m_weight (play (events c') t m) = 0.
Proof.
  intros g cf v_opt a_opt v_draw n_repeat intensity segs c' ex ey L V T M NE N Hm.
  destruct (C82_program _ _ _ _ _ _ _ _ _ _ _ M NE N Hm) as (ax & ay & vmx & vmy & cn & ps & _ & PS & LN & W & E & _).
  pose proof (passes_backwards _ _ _ _ _ _ _ L (fdiv_backwards _ _ V T) PS) as B.
  assert (R : forall s v at_ i e runs times, Forall (fun x : Z * Z * Z => let '(_, t1, t2) := x in t2 = t1) times ->
    ~ reaches_error g s v at_ i e runs times).
  { intros s v at_ i e runs times F RE. induction RE; inversion F; subst; [lia|]. apply IHRE. assumption. }
  destruct (last ps ([], [])) as [runs times] eqn:EL.
  assert (FL : Forall (fun x : Z * Z * Z => let '(_, t1, t2) := x in t2 = t1) times).
  { assert (PN : ps <> []) by (intros ->; cbn in LN; lia).
    pose proof (exists_last PN) as (ps' & p & ->). rewrite last_last in EL. subst p. apply Forall_app in B. destruct B as [_ B]. inversion B; assumption. }
  split; [|split].
  - destruct (E 0 AX) as [_ [X|X]]; [exact X|destruct (R _ _ _ _ _ _ _ FL X)].
  - destruct (E 0 AY) as [_ [X|X]]; [exact X|destruct (R _ _ _ _ _ _ _ FL X)].
  - intros t m Ht. rewrite (W t m Ht). replace (existsb _ ps) with false; [reflexivity|]. symmetry.
    clear - B. induction B; cbn [existsb]; [reflexivity|]. rewrite IHB, not_burning by assumption. reflexivity.
Qed.

(** The program on a drawing with -20 mm/s goes there twice and back. *)
Example C117_negative_example : lengths_not_below lines_only /\ backwards (f_of_Z (-20)) /\ exists c',
  svg_main lines_only sample_config None None (f_of_Z (-20)) 2 50 [SGoTo (mm10 10 10); SLineTo (mm10 20 10)] = Ok (c', (0, 0)) /\
  (forall i, ticks_of c' i < u64_max) /\ map (fun t => s_pos (m_y (play (events c') t (machine0 0)))) [0; 12; 40; 80] = [0; 1271490; 1966080; 0].
Proof.
  split; [split; intros; discriminate|]. split; [right; vm_compute; reflexivity|].
  eexists. split; [vm_compute; reflexivity|]. split; [intros []; vm_compute; reflexivity|]. vm_compute. reflexivity.
Qed.

(** ** Speed zero *)

Definition stop : f64 := B754_zero false.

Lemma zero_ticks : forall curve, is_finite (fc_length curve) = true -> (0 < B2R (fc_length curve))%R ->
  curve_ticks curve stop = 2 ^ 31 - 1 /\ fdiv (fc_length curve) (fround (fdiv (fc_length curve) stop)) = stop.
Proof.
  intros curve F P. unfold curve_ticks. destruct (fc_length curve) as [s|s| |s m e B]; try discriminate; [cbn in P; lra|].
  assert (s = false) as ->.
  { destruct s; [|reflexivity]. exfalso. apply (Rlt_asym _ _ P). cbn. apply F2R_lt_0. reflexivity. }
  split; reflexivity.
Qed.

Lemma times_zero : forall k, 1 <= k <= 2 ^ 53 -> fmul (f_of_Z k) stop = fzero.
Proof.
  intros k K. destruct (f_of_Z_exact k ltac:(lia)) as [F E].
  assert (P : (0 < B2R (f_of_Z k))%R) by (rewrite E; apply IZR_lt; lia).
  destruct (f_of_Z k) as [s|s| |s m e B]; try discriminate; [cbn in P; lra|].
  assert (s = false) as ->.
  { destruct s; [|reflexivity]. exfalso. apply (Rlt_asym _ _ P). cbn. apply F2R_lt_0. reflexivity. }
  reflexivity.
Qed.

(** With the drawing speed 0 the laser burns for 2^31 - 1 ticks at the start of every run that has a
    length, and the drawing never gets any further. *)
Theorem C117_zero : forall ax ay vmx vmy ops c g s segs c' ex ey,
  history code (new_ctx ax ay vmx vmy) ops c -> segs <> [] ->
  draw_curves g s c segs stop = Ok (c', (ex, ey)) -> (forall i, ticks_of c' i < u64_max) ->
  exists l runs times pos', pieces g (stands g s stop c runs) (machine_place s c) segs l pos' /\ grouped l runs /\
    timeline g stop (ticks_of c AX) runs times (ticks_of c' AX) /\
    (forall t m, m_weight (play (events c') t m) = if t <? ticks_of c AX then m_weight (play (events c) t m)
       else if burning times t then curve_weight c else 0) /\
    Forall2 (fun (r : run) x => let '(_, t1, t2) := x in exists l, join_from [] (snd r) = Ok l /\
      (is_finite (fconcat_length l) = true -> (0 < B2R (fconcat_length l))%R -> t2 - t1 = 2 ^ 31 - 1 /\
       exists p d, fconcat_value g l fzero = Ok (p, d) /\
       forall w i k, 1 <= k <= t2 - t1 ->
         Z.abs (s_pos (machine_axis (play (events c') (t1 + k) (machine0 w)) i) -
                f_as_i64 (fmul (fadd (fidx p i) (fidx (fst r) i)) (step_scale s i))) <= match i with AX => ex | AY => ey end)) runs times.
Proof.
  intros ax ay vmx vmy ops c g s segs c' ex ey H NE D Hm.
  destruct (drawing_all _ _ _ _ _ _ _ _ _ _ _ _ _ H NE D Hm) as (l & runs & times & pos' & P & G & TL & W & ER & _).
  exists l, runs, times, pos'. do 4 (split; [assumption|]).
  assert (WE : forall w i, within_error g s stop (fun j t => s_pos (machine_axis (play (events c') t (machine0 w)) j)) i
    (match i with AX => ex | AY => ey end) runs times) by (intros w i; apply (ER w i)).
  clear - TL WE. induction TL; [constructor|]. constructor.
  - exists l. split; [assumption|]. intros F Pos.
    destruct (zero_ticks (fconcat g l) F Pos) as [T S]. split; [lia|].
    assert (K0 : 1 <= 1 <= t2 - t1) by lia.
    pose proof (WE 0 AX) as X. inversion X as [|st' pc' l' rs' a' b' c2' tm' J X1 X2]; subst.
    assert (l' = l) as -> by congruence.
    destruct (X1 1 K0) as (z & (p & d & V & _) & _). cbn [fconcat fc_length fc_value] in V, S. rewrite S, times_zero in V by lia.
    exists p, d. split; [exact V|]. intros w i k K.
    pose proof (WE w i) as Y. inversion Y as [|st2 pc2 l2 rs2 a2 b2 c2 tm2 J2 Y1 Y2]; subst.
    assert (l2 = l) as -> by congruence.
    destruct (Y1 k K) as (z2 & (p2 & d2 & V2 & Z2) & E2). cbn [fconcat fc_length fc_value] in V2. rewrite S, times_zero in V2 by lia.
    rewrite V in V2. injection V2 as <- <-. cbn [fst]. rewrite <- Z2. exact E2.
  - apply IHTL. intros w i. pose proof (WE w i) as X. inversion X; subst. assumption.
Qed.

(** ** Infinite speeds and NaN *)

Lemma fmul_not_finite : forall x v, is_finite v = false -> is_finite (fmul x v) = false.
Proof. intros [s|s| |s m e B] [s'|s'| |s' m' e' B'] F; try discriminate; reflexivity. Qed.
Lemma fmul_not_finite_l : forall x v, is_finite x = false -> is_finite (fmul x v) = false.
Proof. intros [s|s| |s m e B] [s'|s'| |s' m' e' B'] F; try discriminate; reflexivity. Qed.

Lemma to_step_v_not_finite : forall s v i z, is_finite v = false -> to_step_v s v i <> Ok z.
Proof.
  intros s v i z F H. unfold to_step_v in H. apply (fmul_not_finite_l _ (v_scale s i)) in F.
  destruct (fmul v (v_scale s i)) as [b|b| |b m e B]; try discriminate. destruct b; discriminate.
Qed.

Lemma draw_curve_not_finite : forall g s c start curves v r, is_finite v = false -> curves <> [] -> draw_curve g s c start curves v <> Ok r.
Proof.
  intros g s c start curves v r F N H. unfold draw_curve in H. destruct curves as [|x l]; [contradiction|].
  apply bind_Ok in H. destruct H as ([p d] & _ & H). cbv zeta in H. apply bind_Ok in H. destruct H as (c1 & _ & H).
  apply bind_Ok in H. destruct H as (c2 & G & _). unfold goto_speed in G. inv_bind G.
  eapply (to_step_v_not_finite s _ AX); [|eassumption]. cbn [fvmul fx]. apply fmul_not_finite, F.
Qed.

Lemma draw_curves_not_finite : forall g s c segs v r, is_finite v = false ->
  existsb (fun sg => match sg with SLineTo _ | SCurveTo _ _ _ | SArc _ _ _ _ _ => true | _ => false end) segs = true ->
  draw_curves g s c segs v <> Ok r.
Proof.
  intros g s c segs v [c' e] F EX H. assert (NE : segs <> []) by (intros ->; discriminate).
  destruct (C41_all_drawn _ _ _ _ _ _ _ NE H) as (l & runs & pos' & c1 & P & G & _ & SM & R & _).
  apply C41_counts in P. destruct runs as [|[start pcs] runs].
  - inversion G; subst. cbn [length] in P. apply existsb_exists in EX. destruct EX as (x & I & X).
    assert (In x (filter (fun sg => match sg with SLineTo _ | SCurveTo _ _ _ | SArc _ _ _ _ _ => true | _ => false end) segs)) as I2
      by (apply filter_In; auto).
    destruct (filter _ _); [destruct I2|cbn [length] in P; lia].
  - cbn [draw_runs] in R. apply bind_Ok in R. destruct R as (l' & J & R). apply bind_Ok in R. destruct R as ([c2 e2] & D & _).
    inversion SM as [|? ? [S1 _] _]; subst. eapply draw_curve_not_finite; [exact F| |exact D].
    eapply join_nonempty; [exact J|]. left. exact S1.
Qed.

Lemma fdiv_not_finite : forall v n, is_finite v = false -> 0 <= n <= 2 ^ 53 -> is_finite (fdiv v (f_of_Z n)) = false.
Proof.
  intros v n F N. destruct (f_of_Z_exact n ltac:(lia)) as [G _].
  destruct v, (f_of_Z n); try discriminate; reflexivity.
Qed.

(** With a speed that is infinite or not a number no drawing with a line, curve or arc in it is finished:
    the program panics before it has sent anything (C115_sent). *)
Theorem C117_not_finite : forall g cf v_opt a_opt v_draw n_repeat intensity segs r,
  is_finite v_draw = false -> 0 <= tps cf <= 2 ^ 53 -> 1 <= n_repeat ->
  existsb (fun sg => match sg with SLineTo _ | SCurveTo _ _ _ | SArc _ _ _ _ _ => true | _ => false end) segs = true ->
  svg_main g cf v_opt a_opt v_draw n_repeat intensity segs <> Ok r.
Proof.
  intros g cf v_opt a_opt v_draw n_repeat intensity segs r F T N EX H. unfold svg_main in H.
  apply bind_Ok in H. destruct H as ([[[ax ay] vmx] vmy] & _ & H). cbv zeta in H.
  apply bind_Ok in H. destruct H as ([cn e] & R & _).
  destruct (Z.to_nat n_repeat) as [|n] eqn:NN; [lia|]. cbn [repeat_draw] in R. apply bind_Ok in R. destruct R as ([c1 e1] & D & _).
  eapply draw_curves_not_finite; [apply fdiv_not_finite; [exact F|exact T]|exact EX|exact D].
Qed.

Example C117_not_finite_example : is_finite (B754_infinity true : f64) = false /\
  svg_main lines_only sample_config None None (B754_infinity true) 1 50 [SGoTo (mm10 10 10)] <> Panic /\
  svg_main lines_only sample_config None None (B754_infinity true) 1 50 [SLineTo (mm10 10 10)] = Panic /\
  svg_main lines_only sample_config None None B754_nan 1 50 [SLineTo (mm10 10 10)] = Panic.
Proof. split; [reflexivity|]. split; [vm_compute; discriminate|]. split; vm_compute; reflexivity. Qed.

Lemma at_origin : let dir := if feq (fvlength (pt 1000 0)) fzero then mk_fvec fone fzero else fvunit (pt 1000 0) in
  let pos := mk_fvec (coord_from_steps sc1 0 AX) (coord_from_steps sc1 0 AY) in
  exists c0 c1, add_weight_change laser (move_weight laser) (ticks_of laser AX) = Ok c0 /\
    goto_speed sc1 c0 (fx pos) (fy pos) (fx (fvmul dir stop)) (fy (fvmul dir stop)) = Ok c1 /\
    step_goto_speed_with code c0 0 0 0 0 = Ok c1 /\ c_v (channel c1 AX) = 0 /\ c_v (channel c1 AY) = 0 /\
    c_pos (channel c1 AX) = 0 /\ c_pos (channel c1 AY) = 0 /\ ticks_of c1 AX = 1 /\ v_max_x c1 = 30 /\ v_max_y c1 = 30 /\ 0 <= event_ticks c1 /\
    exists c2, add_weight_change c1 (curve_weight c1) (ticks_of c1 AX) = Ok c2 /\ c2 = set_events c1 (events c2) (event_ticks c2).
Proof.
  cbv zeta. eexists. eexists. split; [vm_compute; reflexivity|]. split; [vm_compute; reflexivity|]. split; [vm_compute; reflexivity|].
  vm_compute. repeat (split; [reflexivity|]). split; [discriminate|]. eexists. split; reflexivity.
Qed.

(** A drawing of a line of 1000 steps with speed 0 does end. *)
Example C117_zero_example : exists c' ex ey,
  draw_curves lines_only sc1 laser [SLineTo (pt 1000 0)] stop = Ok (c', (ex, ey)) /\ (forall i, ticks_of c' i < u64_max) /\
  exists l, join_from [] [line1000] = Ok l /\ is_finite (fconcat_length l) = true /\ (0 < B2R (fconcat_length l))%R.
Proof.
  set (dir := if feq (fvlength (pt 1000 0)) fzero then mk_fvec fone fzero else fvunit (pt 1000 0)).
  set (e1 := fvadd (fvmul dir (fc_length line1000)) fvzero).
  set (l := [mk_fseg e1 (fadd (fc_length line1000) fzero) line1000]).
  assert (FV : forall x, fc_value line1000 x = Ok (fvmul dir x, dir)) by reflexivity.
  assert (FA : fconcat_add [] line1000 = Ok l) by reflexivity.
  assert (J : join_from [] [line1000] = Ok l).
  { cbn [join_from]. rewrite FA. reflexivity. }
  set (pos := mk_fvec (coord_from_steps sc1 0 AX) (coord_from_steps sc1 0 AY)).
  assert (PP : fvsub (pt 1000 0) pos = pt 1000 0).
  { unfold fvsub. cbn [pt fx fy]. unfold pt. f_equal; apply B2SF_inj; vm_compute; reflexivity. }
  assert (LP : draw_loop lines_only sc1 stop (mk_drawing laser pos pos None [] (0, 0)) [SLineTo (pt 1000 0)] =
    Ok (mk_drawing laser (pt 1000 0) pos (Some dir) l (0, 0))).
  { cbn [draw_loop draw_step seg_info d_pos d_ctx d_start d_prev d_curves d_err bind].
    rewrite PP. change (fline (pt 1000 0)) with line1000. cbn [unwrap bind]. rewrite !FV. cbn [bind]. rewrite FA. reflexivity. }
  assert (LF : is_finite (fc_length (fconcat lines_only l)) = true) by (vm_compute; reflexivity).
  assert (LR : B2R (fconcat_length l) = 1000%R).
  { rewrite <- SF2R_B2SF. set (x := B2SF _). vm_compute in x. unfold x. cbn. unfold F2R. cbn. lra. }
  assert (LC : (0 < B2R (fc_length (fconcat lines_only l)))%R) by (cbn [fconcat fc_length]; rewrite LR; lra).
  destruct (zero_ticks _ LF LC) as [T S].
  destruct at_origin as (c0 & c1 & A0 & A1 & A2 & VX & VY & PX & PY & TX & MX & MY & ET & c2 & A3 & A4).
  assert (NH : now_history code (new_ctx 10 10 30 30) [SetWeight 100; AddWeight (move_weight laser) (ticks_of laser AX); GotoSpeed 0 0 0 0; AddWeight (curve_weight c1) (ticks_of c1 AX)] c2).
  { eapply now_cons; [exact I|reflexivity|]. eapply now_cons; [reflexivity|exact A0|].
    eapply now_cons; [exact I|exact A2|]. eapply now_cons; [reflexivity|exact A3|]. apply now_nil. }
  assert (CH : forall i, channel c2 i = channel c1 i /\ v_max c2 i = 30).
  { intros i. rewrite A4. destruct i; cbn; auto. }
  assert (FC : fconcat_value lines_only l fzero = Ok (fvadd (fvmul dir fzero) fvzero, dir)) by reflexivity.
  assert (AP : exists c3 m, approx_curve sc1 c2 pos (fconcat lines_only l) stop = Ok (c3, m)).
  { eapply C38_succeeds; [exact NH|repeat constructor|lia|lia| | | |].
    - intros i. destruct (CH i) as [-> ->]. destruct i; rewrite ?VX, ?VY; lia.
    - intros i. destruct (CH i) as [-> ->]. rewrite T. destruct i; rewrite ?PX, ?PY; lia.
    - rewrite T. unfold ticks_of. destruct (CH AX) as [-> _]. change (c_ticks (channel c1 AX)) with (ticks_of c1 AX). rewrite TX. vm_compute. reflexivity.
    - intros k K. rewrite T in K. rewrite S, times_zero by lia. eexists. eexists. split; [exact FC|].
      intros []; vm_compute; discriminate. }
  destruct AP as (c3 & [mx my] & AP).
  assert (HI : history code (new_ctx 10 10 30 30) [SetWeight 100; AddWeight (move_weight laser) (ticks_of laser AX); GotoSpeed 0 0 0 0; AddWeight (curve_weight c1) (ticks_of c1 AX)] c2).
  { eapply hist_cons; [exact I|reflexivity|]. eapply hist_cons; [vm_compute; split; discriminate|exact A0|].
    eapply hist_cons; [exact I|exact A2|]. eapply hist_cons; [cbn [op_ok]; lia|exact A3|]. apply hist_nil. }
  destruct (clocked_history _ _ _ _ _ _ HI) as [K2 _].
  destruct (approx_ticks _ _ _ _ _ _ _ K2 AP) as (St & TK & SY).
  rewrite T in TK, SY. specialize (SY ltac:(lia)). pose proof SY as SY2.
  assert (T2 : ticks_of c2 AX = 1) by (unfold ticks_of; destruct (CH AX) as [-> _]; exact TX).
  change (goto_speed sc1 c0 (fx pos) (fy pos) (fx (fvmul dir stop)) (fy (fvmul dir stop)) = Ok c1) in A1.
  assert (DC : draw_curve lines_only sc1 laser pos l stop = Ok (c3, (mx, my))).
  { unfold draw_curve. unfold l at 1. fold l. rewrite FC. cbn [bind]. cbv zeta.
    rewrite A0. cbn [bind]. rewrite A1. cbn [bind]. rewrite A3. cbn [bind]. exact AP. }
  assert (LN : l <> []) by (unfold l; discriminate). clear PP. clearbody l e1 dir.
  assert (TM : timely c3).
  { destruct (clocked_history _ _ _ _ _ _ laser_history) as [KL _].
    destruct (draw_curve_spec _ _ _ _ _ _ _ _ KL LN DC) as (p' & d' & i1 & i2 & i3 & i4 & t1 & accs & _ & _ & _ & _ & _ & D).
    cbv zeta in D. destruct D as (_ & NH2 & _). eapply now_history_timely; [apply planner_typed|exact NH2|].
    split; [exact KL|]. vm_compute. discriminate. }
  assert (W3 : exists c4, add_weight_change c3 (move_weight c3) (ticks_of c3 AX) = Ok c4).
  { unfold add_weight_change. rewrite (TK AX), (TK AY), <- SY, T2.
    rewrite !(proj2 (Z.geb_le _ _)) by lia. cbn [assert bind]. apply push_event_ok; [apply St|].
    pose proof (proj2 TM) as CE. rewrite (TK AX), (TK AY), <- SY2, T2 in CE. unfold u64_max. lia. }
  destruct W3 as (c4 & W4). exists c4.
  unfold draw_curves.
  change (c_pos (channel laser AX)) with 0. change (c_pos (channel laser AY)) with 0. cbv zeta. fold pos.
  exists (fst (acc_max_err (0, 0) (mx, my))), (snd (acc_max_err (0, 0) (mx, my))). split.
  { rewrite LP. cbn [bind d_ctx d_start d_curves d_err]. rewrite DC. cbn [bind]. rewrite W4. reflexivity. }
  split.
  { intros i. destruct (add_weight_spec c3 _ _ c4 (st_clocked _ _ St) (proj2 (ck_ticks _ (st_clocked _ _ St) AX)) W4) as (_ & _ & _ & T4 & _).
    rewrite T4, TK. unfold ticks_of. destruct (CH i) as [-> _].
    assert (c_ticks (channel c1 i) = 1) as ->.
    { destruct i; [exact TX|]. change (ticks_of c1 AY = 1). pose proof (TK AX). pose proof (TK AY). unfold ticks_of in *. rewrite (proj1 (CH AY)) in *.
      rewrite (proj1 (CH AX)) in *. lia. }
    vm_compute. reflexivity. }
  exists l. split; [exact J|]. split; [exact LF|]. rewrite LR. lra.
Qed.

(** From the command line: with "--draw-speed=-20" svg_path ends as usual.  The weight asked for is
    sent, and at the same tick taken back. *)
Definition timed_weights (tr : list io_event) : list (Z * Z) :=
  flat_map (fun x => match x with Some (t, Weight v) => [(t, v)] | _ => [] end) (map decode_line (accepted tr)).
Example C117_order : exists tr, svg_path_main good_trig C103_geometry 200 (a_world (oks 100)) (an_order "-20"%string "50"%string) [] = (tr, Val Finished) /\
  timed_weights tr = [(228, 0); (228, 0); (247, 127); (247, 0); (247, 0); (259, 0)].
Proof.
  destruct (svg_path_main good_trig C103_geometry 200 (a_world (oks 100)) (an_order "-20"%string "50"%string) []) as [tr out] eqn:E. exists tr.
  assert (X : let (tr, out) := svg_path_main good_trig C103_geometry 200 (a_world (oks 100)) (an_order "-20"%string "50"%string) [] in
    out = Val Finished /\ timed_weights tr = [(228, 0); (228, 0); (247, 127); (247, 0); (247, 0); (259, 0)]).
  { vm_compute. auto. }
  rewrite E in X. destruct X as (-> & A). split; [reflexivity|exact A].
Qed.

Print Assumptions C117_negative.
Print Assumptions C117_zero.
Print Assumptions C117_not_finite.
Print Assumptions C117_negative_example.
Print Assumptions C117_zero_example.
Print Assumptions C117_not_finite_example.
Print Assumptions C117_order.
