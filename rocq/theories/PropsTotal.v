(** C129: which drawings of lines the whole machinery carries through.  Everything else proved about
    [draw_curves] speaks of drawings that come out; here it is shown that they do. *)
From Coq Require Import ZArith Reals List Bool Lia Lra Psatz.
From Flocq Require Import Core BinarySingleNaN.
From Verif Require Import Base Floats FloatProofs FloatScale FloatErr AccVector IntegerCurve StepperContext ApproxCurve DrawCurves
  ContextProofs ContextHist ContextGoto ContextClock DrawProofs DrawPlan FloatCurve ApproxProofs PropsApprox PropsDraw PropsSteps PropsDuration DrawTotal FloatTotal.
Import ListNotations.
Open Scope R_scope.

(** A place whose coordinates are numbers of at most [D], none of them closer to 0 than 2^-400 without being 0. *)
Definition reachable (D : Z) (p : fvec) : Prop := forall i, is_finite (fidx p i) = true /\ Rabs (B2R (fidx p i)) <= IZR D /\
  (B2R (fidx p i) = 0 \/ / 2 ^ 400 <= Rabs (B2R (fidx p i))).

Lemma reachable_in : forall w D p, reachable D p -> in_reach w D p.
Proof.
  intros w D p H i. destruct (H i) as (F & B & A). split; [split; assumption|]. right. unfold apart. destruct A as [A|A]; [left; exact A|right].
  change (-400)%Z with (- (400))%Z. rewrite bpow_opp. rewrite bpow_powerRZ. change 400%Z with (Z.of_nat 400). rewrite <- pow_powerRZ. exact A.
Qed.

(** The lines and moves of a drawing, and where they lead. *)
Definition line_or_move (D : Z) (seg : segment) : Prop :=
  match seg with SGoTo p | SLineTo p | SCloseTo p => reachable D p | _ => False end.

Definition line_reach (w : R) (D : Z) (seg : segment) : Prop :=
  match seg with SGoTo p | SLineTo p | SCloseTo p => in_reach w D p | _ => False end.

Lemma line_reachable : forall w D segs, Forall (line_or_move D) segs -> Forall (line_reach w D) segs.
Proof. intros w D segs H. eapply Forall_impl; [|exact H]. intros []; cbn; auto using reachable_in. Qed.

(** Likewise, with no condition on how close to 0 the coordinates are. *)
Definition line_or_move_any (D : Z) (seg : segment) : Prop :=
  match seg with
  | SGoTo p | SLineTo p | SCloseTo p => forall i, is_finite (fidx p i) = true /\ Rabs (B2R (fidx p i)) <= IZR D
  | _ => False
  end.

Lemma line_any_reach : forall D segs, Forall (line_or_move_any D) segs -> Forall (line_reach (5 / 4) D) segs.
Proof.
  intros D segs H. eapply Forall_impl; [|exact H].
  assert (K : forall p, (forall i, is_finite (fidx p i) = true /\ Rabs (B2R (fidx p i)) <= IZR D) -> in_reach (5 / 4) D p).
  { intros p HP i. split; [exact (HP i)|left; lra]. }
  intros []; cbn; auto.
Qed.

Lemma bound_one : bound_ok (1 + 16 * u53).
Proof. pose proof u53_val as UV. unfold bound_ok. rewrite UV. lra. Qed.

Lemma bound_wide : bound_ok (5 / 4).
Proof. pose proof u53_val as UV. unfold bound_ok. rewrite UV. lra. Qed.

(** The speed, with the bound on directions: a speed the machine can just go leaves room for the rounding. *)
Lemma speed_one : forall x z, (z <= 2 ^ 20)%Z -> 0 <= x <= 2 * IZR z -> (1 + 16 * u53) * x <= 2 * IZR z + / 1024.
Proof. intros x z Hz Hx. pose proof u53_val as UV. rewrite UV. assert (IZR z <= 1048576) by (apply (IZR_le _ 1048576); lia). lra. Qed.

Lemma line_straight : forall w D segs, Forall (line_reach w D) segs -> Forall straight segs.
Proof. intros w D segs H. eapply Forall_impl; [|exact H]. intros []; cbn; auto. Qed.

Lemma names_reach : forall w D pos segs p, in_reach w D pos -> Forall (line_reach w D) segs -> names pos segs p -> in_reach w D p.
Proof.
  intros w D pos segs p HP H N. rewrite Forall_forall in H. inversion N as [|? I|? I|? I]; subst; auto; apply (H _ I).
Qed.

(** How long any stretch of the drawing takes, from the lengths. *)
Lemma ticks_bound : forall g w D n N speed jl, (1 <= D <= 2 ^ 16)%Z -> (0 <= n <= 2 ^ 20)%Z -> (0 <= N <= 2 ^ 30)%Z -> Forall (flat_seg w D n) jl ->
  is_finite speed = true -> 0 < B2R speed -> IZR (8 * D * n) <= IZR N * B2R speed -> (curve_ticks (fconcat g jl) speed <= N)%Z.
Proof.
  intros g w D n N speed jl HD Hn HN HJ Fp Pp HB. unfold curve_ticks, fconcat. cbn [fc_length].
  destruct (length_flat w D n jl ltac:(lia) (proj1 Hn) HJ) as [[FL BL] PL]. set (L := fconcat_length jl) in *.
  rewrite Rabs_pos_eq in BL by exact PL. replace (n * (8 * D))%Z with (8 * D * n)%Z in BL by ring.
  assert (Q : 0 <= B2R L / B2R speed <= IZR N).
  { split; [apply Rmult_le_pos; [exact PL|left; apply Rinv_0_lt_compat; exact Pp]|].
    apply Rmult_le_reg_r with (B2R speed); [exact Pp|]. unfold Rdiv. rewrite Rmult_assoc, Rinv_l by lra. lra. }
  destruct (fdiv_val L speed FL ltac:(lra)) as [F E].
  { rewrite Rabs_pos_eq by lra. eapply Rle_trans; [apply Q|apply Z_small; lia]. }
  unfold f_as_i32. rewrite f_as_round by exact F.
  assert (S : (Z.abs (ZnearestA (B2R (fdiv L speed))) <= N)%Z).
  { apply nearest_small. rewrite E. apply Rle_lt_trans with (IZR N); [|lra]. apply rne_le_Z; [lia|]. rewrite Rabs_pos_eq by lra. apply Q. }
  unfold i32_min. lia.
Qed.

Lemma drawn_from : forall g s speed w a v G D N T c segs,
  bound_ok w -> searches g -> limits_ok a v -> (1 <= D <= 2 ^ 16)%Z -> (Z.of_nat (length segs) <= 2 ^ 20)%Z -> (D * Z.of_nat (length segs) <= 2 ^ 32)%Z ->
  (forall i, scale_ok s i) -> (forall i, IZR D * Rabs (B2R (step_scale s i)) <= IZR (G i)) ->
  is_finite speed = true -> 0 < B2R speed -> (forall i, w * (B2R speed * Rabs (B2R (step_scale s i))) <= 2 * IZR (v i) + / 1024) ->
  (0 <= N)%Z -> IZR (8 * D * Z.of_nat (length segs)) <= IZR N * B2R speed ->
  (forall i, storable (2 * G i + 1 + 2 * v i * N) (a i) (v i)) -> (0 <= T <= 2 ^ 62)%Z ->
  able a v (fun i => G i) T c -> in_reach w D (machine_place s c) -> Forall (line_reach w D) segs ->
  exists c' e c2, draw_curves g s c segs speed = Ok (c', e) /\ flush c' = Ok c2.
Proof.
  intros g s speed w a v G D N T c segs HW HG HL HD Hn HDn HS HDG Fp Pp HV HN HB HSt HT HA HM HF.
  assert (G0 : forall i, (0 <= G i)%Z).
  { intros i. apply le_IZR. eapply Rle_trans; [|apply HDG]. apply Rmult_le_pos; [apply (IZR_le 0); lia|apply Rabs_pos]. }
  assert (N16 : (N < 65533)%Z).
  { specialize (HSt AX). specialize (G0 AX). destruct (HL AX) as [A1 A2]. unfold storable in HSt. rewrite Z.abs_eq in HSt by nia.
    clear - HSt G0 A1 A2 HN. set (aa := a AX) in *. set (vv := v AX) in *. set (gg := G AX) in *. clearbody aa vv gg.
    assert (1 <= aa * vv)%Z by nia. assert (aa * vv * N < aa * vv * 65533)%Z by nia. nia. }
  assert (G50 : forall i, (0 <= G i <= 2 ^ 52)%Z).
  { intros i. specialize (G0 i). split; [exact G0|]. specialize (HSt i). destruct (HL i) as [A1 A2]. unfold storable in HSt.
    rewrite Z.abs_eq in HSt by nia. clear - HSt G0 A1 A2 HN. set (aa := a i) in *. set (vv := v i) in *. set (gg := G i) in *. clearbody aa vv gg.
    assert (0 <= aa * vv * N)%Z by nia. assert (aa * (2 * gg) < aa * (2 * vv * 65533))%Z by nia. assert (2 * gg < 2 * vv * 65533)%Z by nia. lia. }
  assert (NR := fun p H => names_reach w D (machine_place s c) segs p HM HF H).
  assert (ST := line_straight w D segs HF).
  assert (RO : runs_ok g s speed v G N (machine_place s c) segs).
  { apply (lines_ok g s speed w v G N D); auto.
    - intros i. apply HL.
    - intros i. rewrite (Rabs_pos_eq (B2R speed)) by lra. apply HV.
    - intros q s1 part s2 l q' y jl Hq Es Hr Hj Hl.
      assert (IN : forall x, In x part -> In x segs) by (intros x Hx; rewrite Es; apply in_or_app; right; apply in_or_app; left; exact Hx).
      destruct (run_flat g w _ D q None part l q' y HW HD Hr) as [FL LL]; auto.
      { rewrite Forall_forall in *. intros x Hx. apply ST, IN, Hx. }
      { intros p [Hp|Hp]; apply NR; [apply nm_line|apply nm_close]; apply IN, Hp. }
      assert (LP : (length part <= length segs)%nat) by (rewrite Es, !app_length; clear; lia).
      set (n := Z.of_nat (length (map snd l))) in *.
      assert (Bn : (0 <= n <= Z.of_nat (length segs))%Z) by (unfold n; rewrite map_length; clear - LL LP; unfold piece in *; lia).
      assert (FJ : Forall (flat_seg w D n) jl).
      { replace n with (0 + n)%Z by (clear; lia). apply (join_flat w D (map snd l) 0 []); auto; try (clear; lia). fold n. clear - Bn Hn. lia. }
      apply (ticks_bound g w D n); auto; [clear - Bn Hn; lia|clear - HN N16; lia|].
      eapply Rle_trans; [|exact HB]. apply IZR_le. clear - Bn HD. nia. }
  assert (TB : (T + Z.of_nat (S (length segs)) * (65535 + N) < u64_max)%Z) by (unfold u64_max; clear - HT HN N16 Hn; nia).
  assert (AP : able a v (fun i => G i + 1 + 2 * v i * N)%Z T c).
  { eapply able_more; [| |exact HA]; [|clear; lia]. intros i. cbv beta. destruct (HL i) as [_ V1]. assert (0 <= 2 * v i * N)%Z by nia. clear - H. lia. }
  destruct (lines_drawn g s speed a v G N T c segs HL HN G0 HSt TB AP ST RO) as (c' & e & E & A').
  { intros p i Hp. destruct (NR p (nm_goto _ _ p Hp) i) as [[Fq Bq] _]. destruct (HS i) as [Fs Bs].
    destruct (steps_small s (fidx p i) i (G i) Fq Fs (G50 i)) as (n & En & _); [|exists n; exact En].
    eapply Rle_trans; [|apply HDG]. rewrite Rabs_mult. apply Rmult_le_compat_r; [apply Rabs_pos|exact Bq]. }
  exists c', e. destruct A' as [[Hc He] A2 _ _ _ _ A7].
  assert (FO : exists c2, flush c' = Ok c2); [|destruct FO as [c2 F2]; exists c2; auto].
  pose proof (ck_ticks c' Hc AX) as Hx. pose proof (clocked_et c' Hc) as He0. rewrite <- A2, Z.max_id in He.
  unfold flush. rewrite A2, Z.eqb_refl. cbn [assert bind].
  unfold push_event, chk_u64. rewrite <- A2. rewrite chk_in by (clear - He Hx A7 TB He0; lia). cbn [bind].
  set (c1 := set_events _ _ _). assert (E1 : event_ticks c1 = ticks_of c' AX) by reflexivity.
  assert (T1 : forall i, ticks_of c1 i = ticks_of c' AX) by (intros []; [reflexivity|symmetry; exact A2]).
  rewrite !T1, E1, Z.sub_diag. rewrite chk_in by (unfold u64_max; clear; lia). cbn [bind].
  set (c2 := set_events _ _ _). assert (E2 : event_ticks c2 = ticks_of c' AX) by reflexivity.
  assert (T2 : forall i, ticks_of c2 i = ticks_of c' AX) by (intros i; rewrite <- (T1 i); reflexivity).
  rewrite !T2, E2, Z.sub_diag. rewrite chk_in by (unfold u64_max; clear; lia). cbn [bind]. eauto.
Qed.

(** Where the machine stands, as a place. *)
Lemma stands_in_reach : forall w s c D, (1 <= D <= 2 ^ 16)%Z -> (forall i, scale_ok s i) ->
  (forall i, IZR (Z.abs (c_pos (channel c i))) <= IZR D * Rabs (B2R (step_scale s i))) -> in_reach w D (machine_place s c).
Proof.
  intros w s c D HD HS HP i. assert (E : fidx (machine_place s c) i = coord_from_steps s (c_pos (channel c i)) i) by (destruct i; reflexivity).
  rewrite E. clear E. specialize (HS i). specialize (HP i). destruct HS as [Fs Bs]. set (n := c_pos (channel c i)) in *. unfold coord_from_steps.
  set (k := step_scale s i) in *. assert (K0 : 0 < Rabs (B2R k)) by lra. assert (KN : B2R k <> 0) by (intros Z; rewrite Z, Rabs_R0 in K0; lra).
  assert (Hn : (Z.abs n <= 2 ^ 38)%Z).
  { apply le_IZR. apply Rle_trans with (IZR (2 ^ 16) * IZR 4194304); [|rewrite <- mult_IZR; apply IZR_le; lia].
    eapply Rle_trans; [exact HP|]. apply Rmult_le_compat; [apply (IZR_le 0); lia|lra|apply IZR_le; lia|lra]. }
  destruct (f_of_Z_exact n ltac:(lia)) as [Fn En].
  assert (Q : Rabs (IZR n / B2R k) <= IZR D).
  { unfold Rdiv. rewrite Rabs_mult, Rabs_inv, <- abs_IZR. apply Rmult_le_reg_r with (Rabs (B2R k)); [exact K0|].
    rewrite Rmult_assoc, Rinv_l by lra. lra. }
  destruct (fdiv_val (f_of_Z n) k Fn KN) as [F E]; [rewrite En; eapply Rle_trans; [exact Q|apply Z_small; lia]|]. rewrite En in E.
  split; [split; [exact F|rewrite E; apply rne_le_Z; [lia|exact Q]]|].
  right. unfold apart. rewrite E. destruct (Z.eq_dec n 0) as [Z0|NZ]; [left; rewrite Z0; unfold Rdiv; rewrite Rmult_0_l; apply rne_0|right].
  apply abs_round_ge_generic; [typeclasses eauto|typeclasses eauto|apply pow_format; lia|].
  unfold Rdiv. rewrite Rabs_mult, Rabs_inv, <- abs_IZR. apply Rle_trans with (bpow radix2 (-22)); [apply bpow_le; lia|].
  apply Rle_trans with (1 * / Rabs (B2R k)).
  - rewrite Rmult_1_l. change (-22)%Z with (- (22))%Z. rewrite bpow_opp. apply Rinv_le; [exact K0|]. change (bpow radix2 22) with 4194304. lra.
  - apply Rmult_le_compat_r; [left; apply Rinv_0_lt_compat; exact K0|]. apply (IZR_le 1). lia.
Qed.

Lemma drawn_within : forall g s speed w ax ay vx vy ops c D N segs,
  let a := fun i => match i with AX => ax | AY => ay end in
  let v := fun i => match i with AX => vx | AY => vy end in
  bound_ok w ->
  (* the search among the ends of the lines comes back *)
  (forall keys x, Forall (fun y : f64 => is_finite y = true) keys -> is_finite x = true -> exists i, g_find g keys x = Ok i) ->
  (* the machine *)
  (forall i, 1 <= a i <= 32767)%Z -> (forall i, 1 <= v i <= 2 ^ 20)%Z ->
  (forall i, is_finite (step_scale s i) = true /\ / 65536 <= Rabs (B2R (step_scale s i)) <= 4194304) ->
  (* the speed is not more than the machine can go *)
  is_finite speed = true -> 0 < B2R speed -> (forall i, w * (B2R speed * Rabs (B2R (step_scale s i))) <= 2 * IZR (v i) + / 1024) ->
  (* where it stands *)
  now_history shortest_curve_sequences (new_ctx ax ay vx vy) ops c -> ticks_of c AX = ticks_of c AY -> (ticks_of c AX <= 2 ^ 62)%Z ->
  (forall i, Z.abs (c_v (channel c i)) <= v i)%Z -> (forall i, IZR (Z.abs (c_pos (channel c i))) <= IZR D * Rabs (B2R (step_scale s i))) ->
  (* the drawing: within [D] of the origin, and [N] ticks are enough for it *)
  (1 <= D <= 2 ^ 16)%Z -> Forall (line_reach w D) segs -> (Z.of_nat (length segs) <= 2 ^ 20)%Z -> (D * Z.of_nat (length segs) <= 2 ^ 32)%Z ->
  (0 <= N)%Z -> IZR (8 * D * Z.of_nat (length segs)) <= IZR N * B2R speed ->
  (* a move across it can be planned *)
  (forall i, storable (2 * Zceil (IZR D * Rabs (B2R (step_scale s i))) + 1 + 2 * v i * N) (a i) (v i)) ->
  exists c' e c2, draw_curves g s c segs speed = Ok (c', e) /\ flush c' = Ok c2.
Proof.
  intros g s speed w ax ay vx vy ops c D N segs a v HW HG Ha Hv HS Fp Pp HV HH Hs HT Hcv Hcp HD HF Hn HDn HN HB HSt.
  set (G := fun i => Zceil (IZR D * Rabs (B2R (step_scale s i)))).
  assert (TM := now_history_timely _ _ _ _ planner_typed HH (timely_new ax ay vx vy)).
  assert (CF : config c = config (new_ctx ax ay vx vy)).
  { clear - HH. induction HH; [reflexivity|]. rewrite IHHH. eapply op_config; eassumption. }
  unfold config in CF. injection CF as C1 C2 C3 C4 _. cbn in C1, C2, C3, C4.
  apply (drawn_from g s speed w a v G D N (ticks_of c AX) c segs); auto.
  - intros i. split; [apply Ha|apply Hv].
  - intros i. apply Zceil_ub.
  - destruct TM as [Hc _]. destruct (ck_ticks c Hc AX). lia.
  - constructor; auto.
    + intros []; assumption.
    + intros []; assumption.
    + intros i. unfold G. apply le_IZR. eapply Rle_trans; [apply Hcp|]. apply Zceil_ub.
    + lia.
  - apply stands_in_reach; auto.
Qed.

(** C129 *)

(** From wherever the machine stands: a drawing of lines and moves between places in reach is carried through,
    and so is the flush at its end, whatever the lines are and however they follow one another. *)
Theorem C129_drawn : forall g s speed ax ay vx vy ops c D N segs,
  let a := fun i => match i with AX => ax | AY => ay end in
  let v := fun i => match i with AX => vx | AY => vy end in
  (* the search among the ends of the lines comes back *)
  (forall keys x, Forall (fun y : f64 => is_finite y = true) keys -> is_finite x = true -> exists i, g_find g keys x = Ok i) ->
  (* the machine *)
  (forall i, 1 <= a i <= 32767)%Z -> (forall i, 1 <= v i <= 2 ^ 20)%Z ->
  (forall i, is_finite (step_scale s i) = true /\ / 65536 <= Rabs (B2R (step_scale s i)) <= 4194304) ->
  (* the speed is not more than the machine can go *)
  is_finite speed = true -> 0 < B2R speed -> (forall i, B2R speed * Rabs (B2R (step_scale s i)) <= 2 * IZR (v i)) ->
  (* where it stands *)
  now_history shortest_curve_sequences (new_ctx ax ay vx vy) ops c -> ticks_of c AX = ticks_of c AY -> (ticks_of c AX <= 2 ^ 62)%Z ->
  (forall i, Z.abs (c_v (channel c i)) <= v i)%Z -> (forall i, IZR (Z.abs (c_pos (channel c i))) <= IZR D * Rabs (B2R (step_scale s i))) ->
  (* the drawing: within [D] of the origin, and [N] ticks are enough for it *)
  (1 <= D <= 2 ^ 16)%Z -> Forall (line_or_move D) segs -> (Z.of_nat (length segs) <= 2 ^ 20)%Z -> (D * Z.of_nat (length segs) <= 2 ^ 32)%Z ->
  (0 <= N)%Z -> IZR (8 * D * Z.of_nat (length segs)) <= IZR N * B2R speed ->
  (* a move across it can be planned *)
  (forall i, storable (2 * Zceil (IZR D * Rabs (B2R (step_scale s i))) + 1 + 2 * v i * N) (a i) (v i)) ->
  exists c' e c2, draw_curves g s c segs speed = Ok (c', e) /\ flush c' = Ok c2.
Proof.
  intros g s speed ax ay vx vy ops c D N segs a v HG Ha Hv HS Fp Pp HV HH Hs HT Hcv Hcp HD HF Hn HDn HN HB HSt.
  apply (drawn_within g s speed (1 + 16 * u53) ax ay vx vy ops c D N segs); auto using bound_one, line_reachable.
  intros i. apply speed_one; [apply Hv|]. split; [|apply HV]. apply Rmult_le_pos; [lra|apply Rabs_pos].
Qed.

(** Nor do lines get in the way that are so short that their squares vanish: no coordinate is too close to 0, if the machine can go
    a quarter faster than it is told to. *)
Theorem C129_any : forall g s speed ax ay vx vy ops c D N segs,
  let a := fun i => match i with AX => ax | AY => ay end in
  let v := fun i => match i with AX => vx | AY => vy end in
  (* the search among the ends of the lines comes back *)
  (forall keys x, Forall (fun y : f64 => is_finite y = true) keys -> is_finite x = true -> exists i, g_find g keys x = Ok i) ->
  (* the machine *)
  (forall i, 1 <= a i <= 32767)%Z -> (forall i, 1 <= v i <= 2 ^ 20)%Z ->
  (forall i, is_finite (step_scale s i) = true /\ / 65536 <= Rabs (B2R (step_scale s i)) <= 4194304) ->
  (* the speed is not more than four fifths of what the machine can go *)
  is_finite speed = true -> 0 < B2R speed -> (forall i, 5 / 4 * (B2R speed * Rabs (B2R (step_scale s i))) <= 2 * IZR (v i)) ->
  (* where it stands *)
  now_history shortest_curve_sequences (new_ctx ax ay vx vy) ops c -> ticks_of c AX = ticks_of c AY -> (ticks_of c AX <= 2 ^ 62)%Z ->
  (forall i, Z.abs (c_v (channel c i)) <= v i)%Z -> (forall i, IZR (Z.abs (c_pos (channel c i))) <= IZR D * Rabs (B2R (step_scale s i))) ->
  (* the drawing: within [D] of the origin, and [N] ticks are enough for it *)
  (1 <= D <= 2 ^ 16)%Z -> Forall (line_or_move_any D) segs -> (Z.of_nat (length segs) <= 2 ^ 20)%Z -> (D * Z.of_nat (length segs) <= 2 ^ 32)%Z ->
  (0 <= N)%Z -> IZR (8 * D * Z.of_nat (length segs)) <= IZR N * B2R speed ->
  (* a move across it can be planned *)
  (forall i, storable (2 * Zceil (IZR D * Rabs (B2R (step_scale s i))) + 1 + 2 * v i * N) (a i) (v i)) ->
  exists c' e c2, draw_curves g s c segs speed = Ok (c', e) /\ flush c' = Ok c2.
Proof.
  intros g s speed ax ay vx vy ops c D N segs a v HG Ha Hv HS Fp Pp HV HH Hs HT Hcv Hcp HD HF Hn HDn HN HB HSt.
  apply (drawn_within g s speed (5 / 4) ax ay vx vy ops c D N segs); auto using bound_wide, line_any_reach.
  intros i. assert (L : forall x y : R, x <= y -> x <= y + / 1024) by (intros; lra). apply L, HV.
Qed.

(** From the start of the program. *)
Theorem C129_fresh : forall g s speed ax ay vx vy D N segs,
  let a := fun i => match i with AX => ax | AY => ay end in
  let v := fun i => match i with AX => vx | AY => vy end in
  (forall keys x, Forall (fun y : f64 => is_finite y = true) keys -> is_finite x = true -> exists i, g_find g keys x = Ok i) ->
  (forall i, 1 <= a i <= 32767)%Z -> (forall i, 1 <= v i <= 2 ^ 20)%Z ->
  (forall i, is_finite (step_scale s i) = true /\ / 65536 <= Rabs (B2R (step_scale s i)) <= 4194304) ->
  is_finite speed = true -> 0 < B2R speed -> (forall i, B2R speed * Rabs (B2R (step_scale s i)) <= 2 * IZR (v i)) ->
  (1 <= D <= 2 ^ 16)%Z -> Forall (line_or_move D) segs -> (Z.of_nat (length segs) <= 2 ^ 20)%Z -> (D * Z.of_nat (length segs) <= 2 ^ 32)%Z ->
  (0 <= N)%Z -> IZR (8 * D * Z.of_nat (length segs)) <= IZR N * B2R speed ->
  (forall i, storable (2 * Zceil (IZR D * Rabs (B2R (step_scale s i))) + 1 + 2 * v i * N) (a i) (v i)) ->
  exists c' e c2, draw_curves g s (new_ctx ax ay vx vy) segs speed = Ok (c', e) /\ flush c' = Ok c2.
Proof.
  intros g s speed ax ay vx vy D N segs a v HG Ha Hv HS Fp Pp HV HD HF Hn HDn HN HB HSt.
  apply (C129_drawn g s speed ax ay vx vy [] (new_ctx ax ay vx vy) D N segs); auto.
  - constructor.
  - vm_compute. discriminate.
  - intros i. specialize (Hv i). replace (c_v (channel (new_ctx ax ay vx vy) i)) with 0%Z by (destruct i; reflexivity). unfold v in Hv. lia.
  - intros i. replace (Z.abs (c_pos (channel (new_ctx ax ay vx vy) i))) with 0%Z by (destruct i; reflexivity).
    apply Rmult_le_pos; [apply (IZR_le 0); lia|apply Rabs_pos].
Qed.

(** The search the examples use comes back. *)
Lemma first_ge_searches : searches lines_only.
Proof.
  intros keys x F Fx. cbn [lines_only g_find]. induction F as [|y r Fy _ IH]; cbn [first_ge]; [eauto|].
  destruct (flt y x) eqn:E; [destruct IH as [i ->]; cbn [bind]; eauto|].
  assert (L : fle x y = true); [|rewrite L; eauto].
  unfold fle. rewrite Bleb_correct by assumption. apply Rle_bool_true.
  unfold flt in E. rewrite Bltb_correct in E by assumption. destruct (Rlt_bool_spec (B2R y) (B2R x)); [discriminate|assumption].
Qed.

Definition C129_segments : list segment := [SGoTo (pt 100 200); SLineTo (pt (-700) 300); SLineTo (pt (-700) 300); SLineTo (pt 0 (-1000)); SCloseTo (pt 100 200)].

(** A machine of at most 1000 half steps a tick, told to draw at exactly that speed; one of the lines has no length. *)
Example C129_example :
  (exists c' e c2, draw_curves lines_only sc1 (new_ctx 100 100 1000 1000) C129_segments (f_of_Z 2000) = Ok (c', e) /\ flush c' = Ok c2) /\
  (* one half step a tick more than the machine can go *)
  draw_curves lines_only sc1 (new_ctx 100 100 1000 1000) C129_segments (f_of_Z 2002) = Panic /\
  (* not a number *)
  draw_curves lines_only sc1 (new_ctx 100 100 1000 1000) [SLineTo (mk_fvec B754_nan fzero)] (f_of_Z 2000) = Panic /\
  (* too far for a machine as slow as this *)
  draw_curves lines_only sc1 (new_ctx 1 1 1 1) [SGoTo (pt 1000000 0); SLineTo (pt 1000000 10)] (f_of_Z 2) = Panic.
Proof.
  split; [|repeat split; vm_compute; reflexivity].
  assert (S1 : forall i, is_finite (step_scale sc1 i) = true /\ B2R (step_scale sc1 i) = 1) by (intros []; apply (f_of_Z_exact 1); lia).
  destruct (f_of_Z_exact 2000 ltac:(lia)) as [Fp Vp].
  apply (C129_fresh lines_only sc1 (f_of_Z 2000) 100 100 1000 1000 1000 20 C129_segments).
  - exact first_ge_searches.
  - intros []; lia.
  - intros []; lia.
  - intros i. destruct (S1 i) as [F V]. split; [exact F|]. rewrite V, Rabs_R1. lra.
  - exact Fp.
  - rewrite Vp. lra.
  - intros i. destruct (S1 i) as [_ V]. rewrite V, Rabs_R1, Vp. destruct i; lra.
  - lia.
  - assert (R : forall x y, (Z.abs x <= 1000)%Z -> (Z.abs y <= 1000)%Z -> reachable 1000 (pt x y)).
    { assert (R0 : forall x, (Z.abs x <= 1000)%Z -> is_finite (f_of_Z x) = true /\ Rabs (B2R (f_of_Z x)) <= 1000 /\
        (B2R (f_of_Z x) = 0 \/ / 2 ^ 400 <= Rabs (B2R (f_of_Z x)))).
      { intros x Hx. destruct (f_of_Z_exact x ltac:(lia)) as [F V]. split; [exact F|]. rewrite V, <- abs_IZR. split; [apply (IZR_le _ 1000); exact Hx|].
        destruct (Z.eq_dec x 0) as [->|NZ]; [left; reflexivity|right]. apply Rle_trans with 1; [|apply (IZR_le 1); lia].
        rewrite <- Rinv_1. apply Rinv_le; [lra|]. apply pow_R1_Rle. lra. }
      intros x y Hx Hy []; cbn [pt fidx fx fy]; apply R0; assumption. }
    unfold C129_segments. repeat (constructor; [apply R; lia|]). constructor.
  - vm_compute. discriminate.
  - vm_compute. discriminate.
  - lia.
  - rewrite Vp, <- mult_IZR. apply IZR_le. vm_compute. discriminate.
  - intros i. destruct (S1 i) as [_ V]. rewrite V, Rabs_R1, Rmult_1_r, Zceil_IZR. destruct i; vm_compute; reflexivity.
Qed.

(** 6/5 of 2^-537: its square is rounded down by a third, so that the length of the line from 0 comes out as 2^-537 and its direction as 6/5. *)
Fixpoint halve (n : nat) (x : f64) : f64 := match n with O => x | S m => halve m (fdiv x (f_of_Z 2)) end.
Definition short_number : f64 := halve 537 (fdiv (f_of_Z 6) (f_of_Z 5)).
Definition short_segments : list segment := [SGoTo (pt 0 0); SLineTo (mk_fvec short_number fzero)].

(** At the speed the machine can just go, a line too short for anyone to see stops the program; at four fifths of it, none does. *)
Example C129_any_example :
  (exists c' e c2, draw_curves lines_only sc1 (new_ctx 100 100 1000 1000) short_segments (f_of_Z 1600) = Ok (c', e) /\ flush c' = Ok c2) /\
  draw_curves lines_only sc1 (new_ctx 100 100 1000 1000) short_segments (f_of_Z 2000) = Panic.
Proof.
  split; [|vm_compute; reflexivity].
  assert (S1 : forall i, is_finite (step_scale sc1 i) = true /\ B2R (step_scale sc1 i) = 1) by (intros []; apply (f_of_Z_exact 1); lia).
  destruct (f_of_Z_exact 1600 ltac:(lia)) as [Fp Vp].
  apply (C129_any lines_only sc1 (f_of_Z 1600) 100 100 1000 1000 [] (new_ctx 100 100 1000 1000) 1 1 short_segments).
  - exact first_ge_searches.
  - intros []; lia.
  - intros []; lia.
  - intros i. destruct (S1 i) as [F V]. split; [exact F|]. rewrite V, Rabs_R1. lra.
  - exact Fp.
  - rewrite Vp. lra.
  - intros i. destruct (S1 i) as [_ V]. rewrite V, Rabs_R1, Vp. destruct i; lra.
  - constructor.
  - reflexivity.
  - vm_compute. discriminate.
  - intros []; vm_compute; discriminate.
  - intros i. destruct (S1 i) as [_ V]. rewrite V, Rabs_R1. replace (c_pos (channel (new_ctx 100 100 1000 1000) i)) with 0%Z by (destruct i; reflexivity). cbn [Z.abs]. lra.
  - lia.
  - assert (Z0 : is_finite fzero = true /\ Rabs (B2R fzero) <= 1) by (split; [reflexivity|change (B2R fzero) with 0; rewrite Rabs_R0; lra]).
    assert (SN : is_finite short_number = true /\ Rabs (B2R short_number) <= 1).
    { assert (F : is_finite short_number = true) by (vm_compute; reflexivity). split; [exact F|].
      assert (L1 : fle fzero short_number = true) by (vm_compute; reflexivity).
      assert (L2 : fle short_number (f_of_Z 1) = true) by (vm_compute; reflexivity).
      destruct (f_of_Z_exact 1 ltac:(lia)) as [F1 V1]. generalize dependent short_number. intros x F L1 L2.
      assert (A := proj1 (fle_spec fzero x eq_refl F) L1). assert (B := proj1 (fle_spec x (f_of_Z 1) F F1) L2). rewrite V1 in B. change (B2R fzero) with 0 in A.
      rewrite Rabs_pos_eq by exact A. exact B. }
    unfold short_segments, pt. change (f_of_Z 0) with fzero.
    constructor; [intros []; exact Z0|]. constructor; [intros []; [exact SN|exact Z0]|]. constructor.
  - vm_compute. discriminate.
  - vm_compute. discriminate.
  - lia.
  - rewrite Vp, <- mult_IZR. apply IZR_le. vm_compute. discriminate.
  - intros i. destruct (S1 i) as [_ V]. rewrite V, Rabs_R1, Rmult_1_r, Zceil_IZR. destruct i; vm_compute; reflexivity.
Qed.

Print Assumptions C129_drawn.
Print Assumptions C129_any.
Print Assumptions C129_fresh.
