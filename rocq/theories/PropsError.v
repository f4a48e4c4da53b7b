(** Property C81: the errors reported by approx_curve and draw_curves.

    [wanted_at]: the place, in steps, that tick [k] of a curve is meant to reach.
    The reported error of an axis is the largest distance of the machine, playing
    the emitted stream, from these places. *)
From Coq Require Import ZArith List Bool Lia.
From Coq Require Import ZifyBool ZifyNat.
From Verif Require Import Base Floats AccVector MotionSpec IntegerCurve StepperContext MachineSpec
  MachineProofs ContextProofs ContextOps ContextHist ContextClock ContextGoto PropsIntegerCurve MachinePath
  PropsPath ApproxCurve ApproxProofs ApproxBound DrawCurves PropsApprox DrawProofs PropsDraw.
Import ListNotations.
Open Scope Z_scope.

Definition wanted_at (s : scales) (start : fvec) (curve : fcurve) (v : f64) (k : Z) (i : axis) (z : Z) : Prop :=
  let step_len := fdiv (fc_length curve) (fround (fdiv (fc_length curve) v)) in
  exists pos dir, fc_value curve (fmul (f_of_Z k) step_len) = Ok (pos, dir) /\
    z = f_as_i64 (fmul (fadd (fidx pos i) (fidx start i)) (step_scale s i)).

Definition place (i : axis) (evs : list event) (t : Z) : Z := s_pos (play_axis i evs t s0).

Lemma machine_place_at : forall c i t w, clocked c -> 0 <= t ->
  s_pos (machine_axis (play (events c) t (machine0 w)) i) = place i (events c) t.
Proof.
  intros c i t w Hc Ht. rewrite play_axis_ok by (try lia; apply clocked_nonneg, Hc).
  unfold place. destruct i; reflexivity.
Qed.

Lemma follows_place : forall c c' i accs t, follows c c' i accs -> 0 <= t <= ticks_of c i ->
  place i (events c') t = place i (events c) t.
Proof.
  intros c c' i accs t [A B D E] Ht. unfold place. destruct (Z.eq_dec t (ticks_of c i)) as [->|].
  2: { rewrite B by lia. reflexivity. }
  destruct accs as [|a r].
  - specialize (E s0). cbn [length travel final_speed] in *. rewrite Z.add_0_r in A. rewrite A in E. lia.
  - specialize (D 0%nat s0 ltac:(cbn [length]; lia)). cbv zeta in D. rewrite Z.add_0_r in D. rewrite D.
    cbn [firstn travel s_pos]. lia.
Qed.

Lemma history_place : forall c ops c', history code c ops c' -> Forall not_reset ops -> sound c ->
  (forall i, ticks_of c' i < u64_max) -> forall i t, 0 <= t <= ticks_of c i ->
  place i (events c') t = place i (events c) t.
Proof.
  intros c ops c' H. induction H as [c|c o c1 ops c2 Ho He H IH]; intros Hr Hs Hm i t Ht; [reflexivity|].
  inversion Hr; subst.
  destruct (op_step _ c o c1 planner_typed (proj1 Hs) Ho ltac:(auto) He) as (S1 & _).
  destruct (history_step _ c1 ops c2 planner_typed H ltac:(auto) (st_clocked _ _ S1)) as [S2 _].
  assert (Hm1 : forall i, ticks_of c1 i < u64_max).
  { intros j. pose proof (st_ticks _ _ S2 j). specialize (Hm j). lia. }
  assert (Hm0 : forall i, ticks_of c i < u64_max).
  { intros j. pose proof (st_ticks _ _ S1 j). specialize (Hm1 j). lia. }
  pose proof (st_ticks _ _ S1 i) as Le.
  rewrite IH; auto; try lia; [|apply (op_sound _ c o c1 planner_typed Hs Ho He)].
  destruct (op_follows c o c1 (proj1 Hs) Ho ltac:(auto) He Hm1 (proj2 Hs Hm0)) as (accs & F).
  eapply follows_place; [apply F|]. lia.
Qed.

Lemma history_end : forall c ops c', history code c ops c' -> Forall not_reset ops -> sound c ->
  sound c' /\ step c c'.
Proof.
  intros c ops c' H Hr Hs. split.
  - exact (history_sound _ _ ops c' planner_typed H Hs).
  - apply (history_step _ c ops c' planner_typed H Hr (proj1 Hs)).
Qed.

Lemma approx_one_target : forall s start v c i pos dir err e a t,
  approx_one s start v c i pos dir err = Ok (e, a, t) ->
  t = f_as_i64 (fmul (fadd (fidx pos i) (fidx start i)) (step_scale s i)).
Proof.
  intros s start v c i pos dir err e a t H. unfold approx_one in H. cbv zeta in H. inv_bind H.
  destruct (wanted _ _ _ _ _ _) as [e' acc]. inv_bind H. injection H as _ _ <-. reflexivity.
Qed.

Lemma pos_error_is : forall c i t d, pos_error c i t = Ok d -> d = Z.abs (c_pos (channel c i) - t).
Proof.
  intros c i t d H. unfold pos_error in H. inv_bind H. apply chk_Ok in E. destruct E as [<- _].
  apply chk_Ok in H. destruct H as [<- _]. reflexivity.
Qed.

Lemma sound_place : forall c i, sound c -> (forall i, ticks_of c i < u64_max) ->
  place i (events c) (ticks_of c i) = c_pos (channel c i).
Proof.
  intros c i [_ H] Ht. specialize (H Ht i). unfold c_move, motion, c_state in H. cbv zeta in H.
  exact (f_equal fst H).
Qed.

Lemma approx_loop_errors : forall n t s start curve v step_len c ex ey mx my c' m, sound c ->
  (forall i, ticks_of c' i < u64_max) ->
  approx_loop n t s start curve v step_len c ex ey mx my = Ok (c', m) ->
  forall i,
  (match i with AX => mx | AY => my end <= pick2 i m) /\
  (forall k, 1 <= k <= Z.of_nat n -> exists pos dir,
     fc_value curve (fmul (f_of_Z (t + k - 1)) step_len) = Ok (pos, dir) /\
     Z.abs (place i (events c') (ticks_of c i + k) -
            f_as_i64 (fmul (fadd (fidx pos i) (fidx start i)) (step_scale s i))) <= pick2 i m) /\
  (pick2 i m = match i with AX => mx | AY => my end \/
   exists k pos dir, 1 <= k <= Z.of_nat n /\
     fc_value curve (fmul (f_of_Z (t + k - 1)) step_len) = Ok (pos, dir) /\
     Z.abs (place i (events c') (ticks_of c i + k) -
            f_as_i64 (fmul (fadd (fidx pos i) (fidx start i)) (step_scale s i))) = pick2 i m).
Proof.
  induction n as [|n IH]; intros t s start curve v step_len c ex ey mx my c' m Hs Hm H i; cbn [approx_loop] in H.
  - injection H as <- <-. split; [destruct i; cbn; lia|]. split; [intros k Hk; lia|]. left. destruct i; reflexivity.
  - apply bind_Ok in H. destruct H as ([pos dir] & E0 & H).
    apply bind_Ok in H. destruct H as ([[ex' ax] tx] & E1 & H).
    apply bind_Ok in H. destruct H as ([[ey' ay] ty] & E2 & H).
    apply bind_Ok in H. destruct H as (c1 & E3 & H).
    apply bind_Ok in H. destruct H as (dx & E4 & H). apply bind_Ok in H. destruct H as (dy & E5 & H).
    pose proof (op_sound code c (AddAcc ax ay 1) c1 planner_typed Hs ltac:(cbn; lia) E3) as Hs1.
    destruct (add_acc_interval_spec c ax ay 1 c1 (proj1 Hs) ltac:(lia) E3) as (S1 & _ & _ & T & _).
    destruct (approx_loop_history _ _ _ _ _ _ _ _ _ _ _ _ _ _ (proj1 Hs1) H) as (accs & L & K & S2 & T2 & _).
    assert (Hm1 : forall i, ticks_of c1 i < u64_max).
    { intros j. pose proof (st_ticks _ _ S2 j). specialize (Hm j). lia. }
    apply approx_one_target in E1, E2. apply pos_error_is in E4, E5.
    destruct (IH _ _ _ _ _ _ _ _ _ _ _ _ _ Hs1 Hm H i) as (M & B & A). clear IH.
    assert (D : Z.abs (place i (events c') (ticks_of c i + 1) -
            f_as_i64 (fmul (fadd (fidx pos i) (fidx start i)) (step_scale s i))) = match i with AX => dx | AY => dy end).
    { pose proof (T i) as Ti. rewrite <- Ti.
      rewrite (history_place _ _ _ K (ticks_not_reset accs) Hs1 Hm i (ticks_of c1 i)).
      2: pose proof (ck_ticks c1 (proj1 Hs1) i); lia.
      rewrite sound_place by auto. destruct i; congruence. }
    rewrite !acc_max_is in M, A.
    split; [destruct i; lia|]. split.
    + intros k Hk. destruct (Z.eq_dec k 1) as [->|].
      * exists pos, dir. replace (t + 1 - 1) with t by lia. split; [exact E0|]. rewrite D. destruct i; lia.
      * destruct (B (k - 1) ltac:(lia)) as (p & d & F & G). exists p, d.
        replace (t + 1 + (k - 1) - 1) with (t + k - 1) in F by lia. split; [exact F|].
        rewrite T in G. replace (ticks_of c i + 1 + (k - 1)) with (ticks_of c i + k) in G by lia. exact G.
    + destruct A as [A|(k & p & d & Hk & F & G)].
      * assert (X : pick2 i m = match i with AX => mx | AY => my end \/ pick2 i m = match i with AX => dx | AY => dy end)
          by (destruct i; lia).
        destruct X as [X|X]; [left; exact X|right]. exists 1, pos, dir.
        replace (t + 1 - 1) with t by lia. split; [lia|]. split; [exact E0|]. rewrite D. symmetry. exact X.
      * right. exists (k + 1), p, d. replace (t + (k + 1) - 1) with (t + 1 + k - 1) by lia.
        split; [lia|]. split; [exact F|]. rewrite <- G, T.
        replace (ticks_of c i + 1 + k) with (ticks_of c i + (k + 1)) by lia. reflexivity.
Qed.

(** The errors are those of the machine: at no tick of the curve is an axis
    further from the wanted place than reported, and at some tick it is as far. *)
Lemma approx_errors : forall c s start curve v c' m, sound c -> (forall i, ticks_of c' i < u64_max) ->
  approx_curve s c start curve v = Ok (c', m) ->
  forall i, 0 <= pick2 i m /\
  (forall k, 1 <= k <= curve_ticks curve v -> exists z, wanted_at s start curve v k i z /\
     Z.abs (place i (events c') (ticks_of c i + k) - z) <= pick2 i m) /\
  (pick2 i m = 0 \/ exists k z, 1 <= k <= curve_ticks curve v /\ wanted_at s start curve v k i z /\
     Z.abs (place i (events c') (ticks_of c i + k) - z) = pick2 i m).
Proof.
  intros c s start curve v c' m Hs Hm H i. unfold approx_curve in H. cbv zeta in H.
  fold (curve_ticks curve v) in H.
  destruct (approx_loop_errors _ _ _ _ _ _ _ _ _ _ _ _ _ _ Hs Hm H i) as (M & B & A).
  split; [destruct i; lia|]. split.
  - intros k Hk. destruct (B k ltac:(lia)) as (p & d & F & G). replace (1 + k - 1) with k in F by lia.
    eexists. split; [exists p, d; split; [exact F|reflexivity]|exact G].
  - destruct A as [A|(k & p & d & Hk & F & G)]; [left; destruct i; exact A|right].
    replace (1 + k - 1) with k in F by lia.
    exists k. eexists. split; [lia|]. split; [exists p, d; split; [exact F|reflexivity]|exact G].
Qed.

Theorem C81_curve : forall ax ay vmx vmy ops c s start curve v c' ex ey,
  history code (new_ctx ax ay vmx vmy) ops c -> approx_curve s c start curve v = Ok (c', (ex, ey)) ->
  (forall i, ticks_of c' i < u64_max) ->
  forall w i, let e := match i with AX => ex | AY => ey end in
  let at_tick k := s_pos (machine_axis (play (events c') (ticks_of c i + k) (machine0 w)) i) in
  (forall k, 1 <= k <= curve_ticks curve v ->
     exists z, wanted_at s start curve v k i z /\ Z.abs (at_tick k - z) <= e) /\
  (e = 0 \/ exists k z, 1 <= k <= curve_ticks curve v /\ wanted_at s start curve v k i z /\ Z.abs (at_tick k - z) = e).
Proof.
  intros ax ay vmx vmy ops c s start curve v c' ex ey H A Hm w i e at_tick.
  pose proof (history_sound _ _ ops c planner_typed H (sound_new ax ay vmx vmy)) as Hs.
  destruct (approx_ticks _ _ _ _ _ _ _ (proj1 Hs) A) as (St & _).
  pose proof (ck_ticks c (proj1 Hs) i) as T0.
  destruct (approx_errors _ _ _ _ _ _ _ Hs Hm A i) as (_ & B & D).
  assert (P : pick2 i (ex, ey) = e) by (destruct i; reflexivity). rewrite P in B, D. split.
  - intros k Hk. destruct (B k Hk) as (z & W & G). exists z. split; [exact W|]. unfold at_tick.
    rewrite machine_place_at by (try lia; apply St). exact G.
  - destruct D as [D|(k & z & Hk & W & G)]; [left; exact D|right]. exists k, z. split; [exact Hk|].
    split; [exact W|]. unfold at_tick. rewrite machine_place_at by (try lia; apply St). exact G.
Qed.

(** ** Drawings *)

Lemma draw_curve_errors : forall g s c start curves v c' m, sound c -> curves <> [] ->
  (forall i, ticks_of c' i < u64_max) ->
  draw_curve g s c start curves v = Ok (c', m) ->
  forall i, let n := Z.max 0 (curve_ticks (fconcat g curves) v) in let t1 := ticks_of c' AX - n in
  0 <= pick2 i m /\
  (forall k, 1 <= k <= n -> exists z, wanted_at s start (fconcat g curves) v k i z /\
     Z.abs (place i (events c') (t1 + k) - z) <= pick2 i m) /\
  (pick2 i m = 0 \/ exists k z, 1 <= k <= n /\ wanted_at s start (fconcat g curves) v k i z /\
     Z.abs (place i (events c') (t1 + k) - z) = pick2 i m).
Proof.
  intros g s c start curves v c' m Hs Hne Hm H i n t1. destruct curves as [|f r]; [congruence|]. clear Hne.
  cbn [draw_curve] in H. remember (f :: r) as curves eqn:EC. clear EC f r.
  apply bind_Ok in H. destruct H as ([p d] & E0 & H). cbv zeta in H.
  apply bind_Ok in H. destruct H as (c1 & E1 & H). apply bind_Ok in H. destruct H as (c2 & E2 & H).
  apply bind_Ok in H. destruct H as (c3 & E3 & H).
  unfold goto_speed in E2. inv_bind E2.
  pose proof (ck_ticks c (proj1 Hs) AX) as T0.
  assert (O1 : op_ok c (AddWeight (move_weight c) (ticks_of c AX))) by (cbn [op_ok]; unfold u32_max in T0; lia).
  pose proof (op_sound code _ _ _ planner_typed Hs O1 E1) as Hs1.
  pose proof (op_sound code c1 (GotoSpeed a a0 a1 a2) c2 planner_typed Hs1 I E2) as Hs2.
  pose proof (ck_ticks c2 (proj1 Hs2) AX) as T2.
  assert (O3 : op_ok c2 (AddWeight (curve_weight c2) (ticks_of c2 AX))) by (cbn [op_ok]; unfold u32_max in T2; lia).
  pose proof (op_sound code _ _ _ planner_typed Hs2 O3 E3) as Hs3.
  destruct (approx_ticks _ _ _ _ _ _ _ (proj1 Hs3) H) as (St & T & Sy).
  destruct (approx_errors _ _ _ _ _ _ _ Hs3 Hm H i) as (M & B & A).
  assert (TT : 1 <= n -> t1 = ticks_of c3 i).
  { intros K. unfold t1. rewrite T. fold n. specialize (Sy ltac:(lia)). destruct i; lia. }
  split; [exact M|]. split.
  - intros k Hk. destruct (B k ltac:(lia)) as (z & W & G). exists z. rewrite TT by lia. auto.
  - destruct A as [A|(k & z & Hk & W & G)]; [left; exact A|right]. exists k, z. rewrite TT by lia.
    split; [lia|]. auto.
Qed.

(** [at_ i t]: place of axis [i] at tick [t].  In the time triples the second is
    the start of a run, the third its end. *)
Inductive within_error (g : geometry) (s : scales) (v : f64) (at_ : axis -> Z -> Z) (i : axis) (e : Z)
  : list run -> list (Z * Z * Z) -> Prop :=
| we_nil : within_error g s v at_ i e [] []
| we_cons : forall start pieces l runs t0 t1 t2 times, join_from [] pieces = Ok l ->
    (forall k, 1 <= k <= t2 - t1 -> exists z, wanted_at s start (fconcat g l) v k i z /\ Z.abs (at_ i (t1 + k) - z) <= e) ->
    within_error g s v at_ i e runs times ->
    within_error g s v at_ i e ((start, pieces) :: runs) ((t0, t1, t2) :: times).

Inductive reaches_error (g : geometry) (s : scales) (v : f64) (at_ : axis -> Z -> Z) (i : axis) (e : Z)
  : list run -> list (Z * Z * Z) -> Prop :=
| re_here : forall start pieces l runs t0 t1 t2 times k z, join_from [] pieces = Ok l -> 1 <= k <= t2 - t1 ->
    wanted_at s start (fconcat g l) v k i z -> Z.abs (at_ i (t1 + k) - z) = e ->
    reaches_error g s v at_ i e ((start, pieces) :: runs) ((t0, t1, t2) :: times)
| re_later : forall r t runs times, reaches_error g s v at_ i e runs times ->
    reaches_error g s v at_ i e (r :: runs) (t :: times).

Lemma within_mono : forall g s v at_ i e e' runs times, e <= e' ->
  within_error g s v at_ i e runs times -> within_error g s v at_ i e' runs times.
Proof.
  intros g s v at_ i e e' runs times He H. induction H; econstructor; eauto.
  intros k Hk. destruct (H0 k Hk) as (z & W & G). exists z. split; [exact W|lia].
Qed.

Lemma within_ext : forall g s v at1 at2 i e runs times t T, timeline g v t runs times T -> 0 <= t ->
  (forall u, 0 <= u <= T -> at2 i u = at1 i u) ->
  within_error g s v at1 i e runs times -> within_error g s v at2 i e runs times.
Proof.
  intros g s v at1 at2 i e runs times t T TL. induction TL; intros HT0 EQ HW; inversion HW; subst; [constructor|].
  pose proof (timeline_le _ _ _ _ _ _ TL).
  econstructor; [eassumption| |apply IHTL; auto; lia].
  intros k Hk. match goal with K : forall k, _ -> exists z, _ |- _ => destruct (K k Hk) as (z & W & G) end.
  exists z. split; [exact W|]. rewrite EQ by lia. exact G.
Qed.

Lemma reaches_ext : forall g s v at1 at2 i e runs times t T, timeline g v t runs times T -> 0 <= t ->
  (forall u, 0 <= u <= T -> at2 i u = at1 i u) ->
  reaches_error g s v at1 i e runs times -> reaches_error g s v at2 i e runs times.
Proof.
  intros g s v at1 at2 i e runs times t T TL. induction TL; intros H2 EQ H3; inversion H3; subst;
    pose proof (timeline_le _ _ _ _ _ _ TL).
  - eapply re_here; eauto. rewrite EQ by lia. reflexivity.
  - apply re_later. apply IHTL; auto. lia.
Qed.

Lemma draw_runs_errors : forall g s v runs c a c' e, sound c -> Forall (fun r => snd r <> []) runs ->
  (forall i, ticks_of c' i < u64_max) ->
  draw_runs_err g s v c a runs = Ok (c', e) ->
  exists times, timeline g v (ticks_of c AX) runs times (ticks_of c' AX) /\
    (forall u w0, u < ticks_of c' AX -> play_weight (events c') u w0 =
       if u <? ticks_of c AX then play_weight (events c) u w0
       else if burning times u then curve_weight c else move_weight c) /\
    forall i, pick2 i a <= pick2 i e /\
      within_error g s v (fun i => place i (events c')) i (pick2 i e) runs times /\
      (pick2 i e = pick2 i a \/ pick2 i e = 0 \/
       reaches_error g s v (fun i => place i (events c')) i (pick2 i e) runs times).
Proof.
  intros g s v. induction runs as [|[start pieces] runs IH]; intros c a c' e Hs Hf Hm H; cbn [draw_runs_err] in H.
  - injection H as <- <-. exists []. split; [constructor|]. split.
    + intros u w0 Hu. destruct (Z.ltb_spec u (ticks_of c AX)); [reflexivity|lia].
    + intros i. split; [lia|]. split; [constructor|]. left. reflexivity.
  - inversion Hf as [|? ? Hn Hf']; subst. cbn [snd] in Hn.
    apply bind_Ok in H. destruct H as (l & E & H). apply bind_Ok in H. destruct H as ([c1 e1] & E1 & H).
    assert (NE : l <> []) by (eapply join_nonempty; eauto).
    destruct (draw_curve_spec g s c start l v c1 e1 (proj1 Hs) NE E1) as
      (p & d & ix & iy & ivx & ivy & t1 & accs & _ & _ & _ & _ & _ & H1 & N1 & S1 & W1 & B1 & T1 & _ & Y1 & Q1).
    pose proof (history_sound _ _ _ c1 planner_typed H1 Hs) as Hs1.
    pose proof (draw_runs_err_runs _ _ _ _ _ _ _ _ H) as R.
    destruct (draw_runs_spec g s v runs c1 c' (proj1 Hs1) Hf' R) as (ops & times' & H2 & _ & R2 & _ & S2 & _).
    assert (Hm1 : forall i, ticks_of c1 i < u64_max).
    { intros j. pose proof (st_ticks _ _ S2 j). specialize (Hm j). lia. }
    destruct (IH _ _ _ _ Hs1 Hf' Hm H) as (times & TL & Q & ER). clear IH times'.
    assert (MW : move_weight c1 = move_weight c).
    { pose proof (st_config _ _ S1) as Cf. unfold config in Cf. congruence. }
    exists ((ticks_of c AX, t1, ticks_of c1 AX) :: times).
    split; [econstructor; eauto|]. split.
    { intros u w0 Hu. rewrite Q by exact Hu. cbn [burning]. rewrite W1, MW.
      pose proof (timeline_before _ _ _ _ _ _ TL u) as TB.
      destruct (Z.ltb_spec u (ticks_of c1 AX)).
      + rewrite Q1, TB by lia. rewrite orb_false_r, andb_true_r.
        destruct (Z.leb_spec t1 u); [|destruct (Z.leb_spec (ticks_of c AX) u)];
          destruct (Z.ltb_spec u (ticks_of c AX)); try lia; reflexivity.
      + rewrite andb_false_r. cbn [orb].
        destruct (Z.ltb_spec u (ticks_of c AX)); [lia|reflexivity]. }
    intros i. destruct (ER i) as (M & WE & AE).
    destruct (draw_curve_errors g s c start l v c1 e1 Hs NE Hm1 E1 i) as (M1 & B & A).
    assert (PK : pick2 i (acc_max_err a e1) = Z.max (pick2 i a) (pick2 i e1)).
    { unfold acc_max_err. rewrite !acc_max_is. destruct i; reflexivity. }
    rewrite PK in M, AE.
    pose proof (ck_ticks c (proj1 Hs) AX) as T0.
    set (n := Z.max 0 (curve_ticks (fconcat g l) v)) in *.
    assert (PL : forall k, 1 <= k <= n -> place i (events c') (t1 + k) = place i (events c1) (t1 + k)).
    { intros k Hk. apply (history_place _ _ _ H2 R2 Hs1 Hm). destruct i; lia. }
    replace (ticks_of c1 AX - n) with t1 in * by lia.
    split; [lia|]. split.
    + econstructor; [exact E| |exact WE]. intros k Hk.
      destruct (B k ltac:(lia)) as (z & W & G). exists z. split; [exact W|]. rewrite PL by lia. lia.
    + destruct AE as [AE|[AE|AE]].
      * assert (X : pick2 i e = pick2 i a \/ pick2 i e = pick2 i e1) by lia. destruct X as [X|X]; [left; exact X|].
        destruct A as [A|(k & z & Hk & W & G)]; [right; left; lia|].
        right. right. eapply re_here; [exact E| |exact W|]; [lia|]. rewrite PL by lia. lia.
      * right. left. exact AE.
      * right. right. apply re_later. exact AE.
Qed.

(** All that is known of runs that are drawn one after the other. *)
Lemma runs_all : forall ax ay vmx vmy ops c g s v c' ex ey runs c1,
  history code (new_ctx ax ay vmx vmy) ops c -> Forall (fun r => snd r <> []) runs ->
  draw_runs_err g s v c (0, 0) runs = Ok (c1, (ex, ey)) ->
  add_weight_change c1 (move_weight c1) (ticks_of c1 AX) = Ok c' -> (forall i, ticks_of c' i < u64_max) ->
  exists times,
    timeline g v (ticks_of c AX) runs times (ticks_of c' AX) /\
    (forall t m, m_weight (play (events c') t m) = if t <? ticks_of c AX then m_weight (play (events c) t m)
       else if burning times t then curve_weight c else 0) /\
    (forall w i, let e := match i with AX => ex | AY => ey end in
     let at_tick j t := s_pos (machine_axis (play (events c') t (machine0 w)) j) in
     within_error g s v at_tick i e runs times /\ (e = 0 \/ reaches_error g s v at_tick i e runs times)) /\
    (forall ops0, 0 <= vmx <= 2 ^ 31 - 1 - 32768 -> 0 <= vmy <= 2 ^ 31 - 1 - 32768 ->
     kept within_speed (new_ctx ax ay vmx vmy) ops0 c -> Forall not_reset ops0 -> runs_within g s v c runs ->
     exists ops1, kept within_speed (new_ctx ax ay vmx vmy) (ops0 ++ ops1) c' /\ Forall not_reset ops1) /\
    curve_weight c' = curve_weight c /\ (runs <> [] -> ticks_of c' AX = ticks_of c' AY).
Proof.
  intros ax ay vmx vmy ops c g s v c' ex ey runs c1 H NE R W Hm.
  pose proof (history_sound _ _ ops c planner_typed H (sound_new ax ay vmx vmy)) as Hs.
  destruct (clocked_history _ _ _ _ _ _ H) as [Hc Cf].
  destruct (draw_runs_spec g s v runs c c1 Hc NE (draw_runs_err_runs _ _ _ _ _ _ _ _ R))
    as (ops1 & times0 & H1 & _ & R1 & _ & S1 & W1 & _). clear times0.
  pose proof (history_sound _ _ _ c1 planner_typed H1 Hs) as Hs1.
  pose proof (ck_ticks c1 (st_clocked _ _ S1) AX) as T0.
  destruct (add_weight_spec c1 _ _ c' (st_clocked _ _ S1) (proj2 T0) W) as (S2 & W2 & C2 & T2 & M2 & V2 & B2 & Q2).
  assert (Hm1 : forall i, ticks_of c1 i < u64_max).
  { intros j. rewrite <- T2. apply Hm. }
  destruct (draw_runs_errors g s v runs c (0, 0) c1 (ex, ey) Hs NE Hm1 R) as (times & TL & Q & ER).
  exists times. rewrite T2. split; [exact TL|].
  assert (MW : move_weight c1 = 0 /\ move_weight c = 0).
  { pose proof (st_config _ _ S1) as K. unfold config in *. split; congruence. }
  split.
  { intros t m. pose proof (ck_ticks c Hc AX). rewrite !play_weight_ok, Q2. destruct MW as [-> MW].
    pose proof (st_ticks _ _ S1 AX) as LE.
    destruct (Z.leb_spec (ticks_of c1 AX) t).
    - destruct (Z.ltb_spec t (ticks_of c AX)); [lia|].
      assert (BF : burning times t = false).
      { clear - TL H2. induction TL; cbn [burning]; [reflexivity|]. pose proof (timeline_le _ _ _ _ _ _ TL).
        rewrite IHTL by lia. lia. }
      rewrite BF. reflexivity.
    - rewrite Q by lia. rewrite MW. reflexivity. }
  split.
  2: { split; [|split; [congruence|intros K; rewrite !T2;
         destruct (draw_runs_spec g s v runs c c1 Hc NE (draw_runs_err_runs _ _ _ _ _ _ _ _ R))
           as (? & ? & _ & _ & _ & _ & _ & _ & Y & _); auto]].
       intros ops0 Hx Hy K R0 RW.
    destruct (weight_kept within_speed c1 c' Hs1 W ltac:(intros; exact I)) as [KW _].
    destruct (draw_runs_kept ax ay vmx vmy g s v runs c RW Hx Hy ops0 c1) as (ops2 & K2 & R2); auto.
    { apply (draw_runs_err_runs _ _ _ _ _ _ _ _ R). }
    exists (ops2 ++ [AddWeight (move_weight c1) (ticks_of c1 AX)]). rewrite app_assoc.
    split; [exact (kept_app _ _ _ _ _ _ K2 KW)|]. apply Forall_app. split; [exact R2|repeat constructor]. }
  assert (OW : history code c1 [AddWeight (move_weight c1) (ticks_of c1 AX)] c').
  { eapply hist_cons; [cbn [op_ok]; unfold u32_max in T0; lia|exact W|apply hist_nil]. }
  assert (SYNC : runs <> [] -> ticks_of c1 AX = ticks_of c1 AY).
  { intros K. destruct (draw_runs_spec g s v runs c c1 Hc NE (draw_runs_err_runs _ _ _ _ _ _ _ _ R))
      as (? & ? & _ & _ & _ & _ & _ & _ & Y & _). auto. }
  intros w i. cbv zeta. destruct (ER i) as (M & WE & AE).
  assert (AT : forall j t, 0 <= t <= ticks_of c1 j ->
    s_pos (machine_axis (play (events c') t (machine0 w)) j) = place j (events c1) t).
  { intros j t Ht. rewrite machine_place_at by (try lia; apply S2).
    apply (history_place _ _ _ OW ltac:(repeat constructor) Hs1 Hm). exact Ht. }
  assert (E0 : pick2 i (ex, ey) = match i with AX => ex | AY => ey end) by (destruct i; reflexivity).
  assert (Z0 : pick2 i (0, 0) = 0) by (destruct i; reflexivity).
  rewrite E0 in WE, AE. rewrite Z0 in AE.
  set (e := match i with AX => ex | AY => ey end) in *.
  assert (TK : runs <> [] -> ticks_of c1 i = ticks_of c1 AX) by (intros K; destruct i; [reflexivity|symmetry; auto]).
  assert (TC : 0 <= ticks_of c AX) by apply (ck_ticks c Hc AX).
  assert (AT' : runs <> [] -> forall t, 0 <= t <= ticks_of c1 AX ->
    s_pos (machine_axis (play (events c') t (machine0 w)) i) = place i (events c1) t).
  { intros K t Ht. apply AT. rewrite TK by exact K. lia. }
  destruct runs as [|r0 runs].
  { inversion WE; subst. split; [constructor|]. destruct AE as [AE|[AE|AE]]; auto. inversion AE. }
  specialize (AT' ltac:(discriminate)). split.
  - eapply within_ext; [exact TL|exact TC| |exact WE]. exact AT'.
  - destruct AE as [AE|[AE|AE]]; auto. right. eapply reaches_ext; [exact TL|exact TC| |exact AE]. exact AT'.
Qed.

(** All that is known of one drawing, for one division into runs. *)
Lemma drawing_all : forall ax ay vmx vmy ops c g s segs v c' ex ey,
  history code (new_ctx ax ay vmx vmy) ops c -> segs <> [] ->
  draw_curves g s c segs v = Ok (c', (ex, ey)) -> (forall i, ticks_of c' i < u64_max) ->
  exists l runs times pos', pieces g (stands g s v c runs) (machine_place s c) segs l pos' /\ grouped l runs /\
    timeline g v (ticks_of c AX) runs times (ticks_of c' AX) /\
    (forall t m, m_weight (play (events c') t m) = if t <? ticks_of c AX then m_weight (play (events c) t m)
       else if burning times t then curve_weight c else 0) /\
    (forall w i, let e := match i with AX => ex | AY => ey end in
     let at_tick j t := s_pos (machine_axis (play (events c') t (machine0 w)) j) in
     within_error g s v at_tick i e runs times /\ (e = 0 \/ reaches_error g s v at_tick i e runs times)) /\
    (forall ops0, 0 <= vmx <= 2 ^ 31 - 1 - 32768 -> 0 <= vmy <= 2 ^ 31 - 1 - 32768 ->
     kept within_speed (new_ctx ax ay vmx vmy) ops0 c -> Forall not_reset ops0 -> runs_within g s v c runs ->
     exists ops1, kept within_speed (new_ctx ax ay vmx vmy) (ops0 ++ ops1) c' /\ Forall not_reset ops1) /\
    curve_weight c' = curve_weight c /\ (runs <> [] -> ticks_of c' AX = ticks_of c' AY).
Proof.
  intros ax ay vmx vmy ops c g s segs v c' ex ey H Hsg D Hm.
  destruct (draw_curves_runs_err _ _ _ _ _ _ _ Hsg D) as (l & runs & pos' & c1 & P & G & _ & R & W).
  destruct (runs_all _ _ _ _ _ _ _ _ _ _ _ _ _ _ H (grouped_nonempty _ _ G) R W Hm) as (times & A).
  exists l, runs, times, pos'. auto.
Qed.

(** For a whole drawing, with the times at which the laser burns (C39): while a
    run is drawn each axis is never further from the wanted place than reported,
    and somewhere as far (unless 0 is reported). *)
Theorem C81_drawing : forall ax ay vmx vmy ops c g s segs v c' ex ey,
  history code (new_ctx ax ay vmx vmy) ops c -> segs <> [] ->
  draw_curves g s c segs v = Ok (c', (ex, ey)) -> (forall i, ticks_of c' i < u64_max) ->
  exists l runs times pos', pieces g (stands g s v c runs) (machine_place s c) segs l pos' /\ grouped l runs /\
    timeline g v (ticks_of c AX) runs times (ticks_of c' AX) /\
    (forall t m, ticks_of c AX <= t -> m_weight (play (events c') t m) = if burning times t then curve_weight c else 0) /\
    forall w i, let e := match i with AX => ex | AY => ey end in
    let at_tick j t := s_pos (machine_axis (play (events c') t (machine0 w)) j) in
    within_error g s v at_tick i e runs times /\ (e = 0 \/ reaches_error g s v at_tick i e runs times).
Proof.
  intros ax ay vmx vmy ops c g s segs v c' ex ey H Hsg D Hm.
  destruct (drawing_all _ _ _ _ _ _ _ _ _ _ _ _ _ H Hsg D Hm) as (l & runs & times & pos' & P & G & TL & Q & ER & _).
  exists l, runs, times, pos'. split; [exact P|]. split; [exact G|]. split; [exact TL|]. split; [|exact ER].
  intros t m Ht. rewrite Q. destruct (Z.ltb_spec t (ticks_of c AX)); [lia|reflexivity].
Qed.

(** ** The places on a run of joined curves

    The length of the first curves of a run and the place where they end, summed
    in binary64 in the order of the run. *)
Definition length_of (l : list fcurve) : f64 := fold_left (fun a c => fadd (fc_length c) a) l fzero.
Inductive ends_at : list fcurve -> fvec -> Prop :=
| ea_nil : ends_at [] fvzero
| ea_snoc : forall l e c p d, ends_at l e -> fc_value c (fc_length c) = Ok (p, d) -> ends_at (l ++ [c]) (fvadd p e).

Lemma last_fseg_app : forall l x, last_fseg (l ++ [x]) = Some x.
Proof.
  induction l as [|y l IH]; intros x; [reflexivity|]. cbn [app last_fseg]. rewrite IH.
  destruct l; reflexivity.
Qed.

Definition joined (l : list fseg) (pieces : list fcurve) : Prop :=
  map fs_curve l = pieces /\
  fconcat_length l = length_of pieces /\
  ends_at pieces (match last_fseg l with None => fvzero | Some s => fs_end s end) /\
  forall k seg, nth_error l k = Some seg ->
    fs_len seg = length_of (firstn (S k) pieces) /\ ends_at (firstn (S k) pieces) (fs_end seg).

Lemma joined_add : forall l pieces c l', joined l pieces -> fconcat_add l c = Ok l' -> joined l' (pieces ++ [c]).
Proof.
  intros l pieces c l' (M & L & E & N) H. unfold fconcat_add in H. cbv zeta in H.
  apply bind_Ok in H. destruct H as ([p d] & V & H). injection H as <-.
  assert (LL : length l = length pieces) by (rewrite <- M, map_length; reflexivity).
  unfold joined. rewrite map_app, M, last_fseg_app. cbn [map fs_curve fs_end].
  assert (LN : fadd (fc_length c) (fconcat_length l) = length_of (pieces ++ [c])).
  { unfold length_of. rewrite fold_left_app. cbn [fold_left]. unfold length_of in L. rewrite <- L. reflexivity. }
  assert (EN : ends_at (pieces ++ [c]) (fvadd p match last_fseg l with None => fvzero | Some s => fs_end s end)).
  { econstructor; eauto. }
  split; [reflexivity|]. split; [unfold fconcat_length at 1; rewrite last_fseg_app; cbn [fs_len]; exact LN|].
  split; [exact EN|]. intros k seg K. destruct (Nat.ltb_spec k (length l)).
  - rewrite nth_error_app1 in K by lia. destruct (N k seg K) as [N1 N2].
    rewrite firstn_app. replace (S k - length pieces)%nat with 0%nat by lia. cbn [firstn]. rewrite app_nil_r. auto.
  - rewrite nth_error_app2 in K by lia. destruct (k - length l)%nat as [|j] eqn:J; [|destruct j; discriminate K].
    cbn in K. injection K as <-. rewrite firstn_all2 by (rewrite app_length; cbn [length]; lia).
    cbn [fs_len fs_end]. auto.
Qed.

Lemma join_joined : forall pieces l l1 before, joined l before -> join_from l pieces = Ok l1 -> joined l1 (before ++ pieces).
Proof.
  induction pieces as [|c r IH]; intros l l1 before J H; cbn [join_from] in H.
  - injection H as <-. rewrite app_nil_r. exact J.
  - apply bind_Ok in H. destruct H as (l2 & E & H).
    replace (before ++ c :: r) with ((before ++ [c]) ++ r) by (rewrite <- app_assoc; reflexivity).
    eapply IH; [|exact H]. eapply joined_add; eauto.
Qed.

(** A place on the run is a place on one of its curves: the one found by the
    search in the lengths up to the end of each curve, taken at the position less
    the length before it, and moved to the end of the curves before it. *)
Theorem C81_joined : forall g pieces l, pieces <> [] -> join_from [] pieces = Ok l ->
  fc_length (fconcat g l) = length_of pieces /\
  forall pos p d, fc_value (fconcat g l) pos = Ok (p, d) <->
    exists i curve e q,
      g_find g (map (fun k => length_of (firstn (S k) pieces)) (seq 0 (length pieces))) pos = Ok i /\
      let k := Nat.min i (length pieces - 1) in
      nth_error pieces k = Some curve /\ ends_at (firstn k pieces) e /\
      fc_value curve (fsub pos (length_of (firstn k pieces))) = Ok (q, d) /\ p = fvadd q e.
Proof.
  intros g pieces l Hne H.
  assert (J0 : joined [] []).
  { split; [reflexivity|]. split; [reflexivity|]. split; [constructor|]. intros [|k] seg K; discriminate K. }
  destruct (join_joined pieces [] l [] J0 H) as (M & L & E & N). cbn [app] in *.
  assert (LL : length l = length pieces) by (rewrite <- M, map_length; reflexivity).
  assert (LP : (0 < length pieces)%nat) by (destruct pieces; [congruence|cbn; lia]).
  cbn [fconcat fc_length]. split; [exact L|]. intros pos p d. cbn [fconcat fc_value].
  assert (LS : map fs_len l = map (fun k => length_of (firstn (S k) pieces)) (seq 0 (length pieces))).
  { clear - N LL. rewrite <- LL.
    assert (X : forall n m, (m + n = length l)%nat ->
      map fs_len (skipn m l) = map (fun k => length_of (firstn (S k) pieces)) (seq m n)).
    { induction n as [|n IH]; intros m Hm.
      - rewrite skipn_all2 by lia. reflexivity.
      - destruct (nth_error l m) as [seg|] eqn:K; [|apply nth_error_None in K; lia].
        assert (SK : skipn m l = seg :: skipn (S m) l).
        { clear - K. revert l K. induction m as [|m IH]; intros [|x l] K; try discriminate K; cbn in *.
          - injection K as ->. reflexivity.
          - apply IH, K. }
        rewrite SK. cbn [map seq]. rewrite (proj1 (N m seg K)). f_equal. apply IH. lia. }
    exact (X (length l) 0%nat ltac:(lia)). }
  rewrite <- LS. unfold fconcat_value. rewrite LL.
  assert (NC : forall k seg, nth_error l k = Some seg -> nth_error pieces k = Some (fs_curve seg)).
  { intros k seg K. rewrite <- M, nth_error_map, K. reflexivity. }
  assert (UNIQ : forall a b, ends_at a b -> forall b', ends_at a b' -> b' = b).
  { clear. intros a b H. induction H; intros b' K; inversion K as [X|l1 e1 c1 p1 d1 A B C D].
    - reflexivity.
    - destruct l1; discriminate.
    - destruct l; discriminate.
    - apply app_inj_tail in C. destruct C as [-> ->]. rewrite H0 in B. injection B as <- <-.
      f_equal. apply IHends_at. exact A. }
  split.
  - intros V. apply bind_Ok in V. destruct V as (i & F & V). cbv zeta in V.
    set (k := Nat.min i (length pieces - 1)) in *.
    destruct (nth_error l k) as [seg|] eqn:K; [|discriminate V]. cbn [unwrap bind] in V.
    exists i, (fs_curve seg). 
    assert (PRE : exists e, match k with O => Ok (fvzero, fzero)
      | S j => let! prev := unwrap (nth_error l j) in Ok (fs_end prev, fs_len prev) end = Ok (e, length_of (firstn k pieces)) /\
      ends_at (firstn k pieces) e).
    { destruct k as [|j] eqn:EK; [exists fvzero; split; [reflexivity|constructor]|].
      destruct (nth_error l j) as [prev|] eqn:KJ; [|discriminate V]. destruct (N j prev KJ) as [N1 N2].
      exists (fs_end prev). cbn [unwrap bind]. rewrite N1. auto. }
    destruct PRE as (e & PE & EA). rewrite PE in V. cbn [bind] in V.
    apply bind_Ok in V. destruct V as ([q d'] & FV & V). injection V as <- <-.
    exists e, q. split; [exact F|]. cbv zeta. fold k. split; [apply NC, K|]. split; [exact EA|]. split; [exact FV|reflexivity].
  - intros (i & curve & e & q & F & KC & EA & FV & ->). cbv zeta in *. rewrite F. cbn [bind].
    set (k := Nat.min i (length pieces - 1)) in *.
    destruct (nth_error l k) as [seg|] eqn:K.
    2: { apply nth_error_None in K. lia. }
    rewrite (NC k seg K) in KC. injection KC as <-. cbn [unwrap bind].
    assert (PRE : match k with O => Ok (fvzero, fzero)
      | S j => let! prev := unwrap (nth_error l j) in Ok (fs_end prev, fs_len prev) end = Ok (e, length_of (firstn k pieces))).
    { destruct k as [|j] eqn:EK.
      - cbn [firstn] in *. rewrite (UNIQ _ _ ea_nil _ EA). reflexivity.
      - destruct (nth_error l j) as [prev|] eqn:KJ.
        2: { apply nth_error_None in KJ. lia. }
        destruct (N j prev KJ) as [N1 N2]. cbn [unwrap bind]. rewrite N1, (UNIQ _ _ N2 _ EA). reflexivity. }
    rewrite PRE. cbn [bind]. rewrite FV. reflexivity.
Qed.

(** Two lines in one run, off by up to two steps, and a third one without error. *)
Example C81_example : exists c',
  draw_curves lines_only sc1 laser
    [SLineTo (pt 1000 0); SLineTo (pt 2000 70); SGoTo (pt 0 3000); SLineTo (pt 0 4000)] (f_of_Z 40) = Ok (c', (2, 1)) /\
  (exists c2, draw_curves lines_only sc1 laser [SLineTo (pt 0 1000)] (f_of_Z 40) = Ok (c2, (0, 0))) /\
  forall i, ticks_of c' i < u64_max.
Proof.
  eexists. split; [vm_compute; reflexivity|]. split; [eexists; vm_compute; reflexivity|].
  intros []; vm_compute; reflexivity.
Qed.

Print Assumptions C81_curve.
Print Assumptions C81_drawing.
Print Assumptions C81_joined.
