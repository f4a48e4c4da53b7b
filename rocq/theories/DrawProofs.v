(** Facts about the drawing loop. *)
From Coq Require Import ZArith List Bool Lia.
From Coq Require Import ZifyBool ZifyNat.
From Verif Require Import Base Floats AccVector MotionSpec IntegerCurve StepperContext MachineSpec
  MachineProofs ContextProofs ContextOps ContextHist ContextClock PropsIntegerCurve MachinePath
  ApproxCurve ApproxProofs DrawCurves.
Import ListNotations.
Open Scope Z_scope.

Notation code := shortest_curve_sequences.

(** A list of curves put into a ConcatCurve one after the other. *)
Fixpoint join_from (l : list fseg) (pieces : list fcurve) : res (list fseg) :=
  match pieces with
  | [] => Ok l
  | p :: r => let! l := fconcat_add l p in join_from l r
  end.

Lemma join_from_snoc : forall pieces l l1 p l2, join_from l pieces = Ok l1 -> fconcat_add l1 p = Ok l2 ->
  join_from l (pieces ++ [p]) = Ok l2.
Proof.
  induction pieces as [|q r IH]; intros l l1 p l2 H K; cbn [join_from app] in *.
  - injection H as ->. rewrite K. reflexivity.
  - apply bind_Ok in H. destruct H as (l' & E & H). rewrite E. cbn [bind]. eapply IH; eauto.
Qed.

Lemma fconcat_add_nonempty : forall l p l', fconcat_add l p = Ok l' -> l' <> [].
Proof.
  intros l p l' H. unfold fconcat_add in H. apply bind_Ok in H. destruct H as ([e d] & E & H). injection H as <-.
  destruct l; discriminate.
Qed.

Lemma join_nonempty : forall pieces l l', join_from l pieces = Ok l' -> pieces <> [] \/ l <> [] -> l' <> [].
Proof.
  induction pieces as [|q r IH]; intros l l' H K; cbn [join_from] in H.
  - injection H as <-. destruct K; congruence.
  - apply bind_Ok in H. destruct H as (l1 & E & H). eapply IH; [exact H|]. right. eapply fconcat_add_nonempty; eauto.
Qed.

Lemma history_now : forall accs c c', history code c (ticks_ops accs) c' -> now_history code c (ticks_ops accs) c'.
Proof.
  induction accs as [|a r IH]; intros c c' H; cbn [ticks_ops map] in *; inversion H; subst; [constructor|].
  econstructor; eauto. cbn. unfold u32_max. lia.
Qed.

Lemma now_history_app : forall c o1 c1 o2 c2, now_history code c o1 c1 -> now_history code c1 o2 c2 ->
  now_history code c (o1 ++ o2) c2.
Proof. intros c o1 c1 o2 c2 H K. induction H; cbn [app]; auto. econstructor; eauto. Qed.

Lemma draw_curve_spec : forall g s c start curves v c' e, clocked c -> curves <> [] ->
  draw_curve g s c start curves v = Ok (c', e) ->
  exists p d ix iy ivx ivy t1 accs,
    fconcat_value g curves fzero = Ok (p, d) /\
    to_steps s (fx start) AX = Ok ix /\ to_steps s (fy start) AY = Ok iy /\
    to_step_v s (fmul (fx d) v) AX = Ok ivx /\ to_step_v s (fmul (fy d) v) AY = Ok ivy /\
    let ops := AddWeight (move_weight c) (ticks_of c AX) :: GotoSpeed ix iy ivx ivy ::
               AddWeight (curve_weight c) t1 :: ticks_ops accs in
    history code c ops c' /\ now_history code c ops c' /\ step c c' /\
    curve_weight c' = curve_weight c /\
    ticks_of c AX <= t1 /\ ticks_of c' AX = t1 + Z.max 0 (curve_ticks (fconcat g curves) v) /\
    Z.of_nat (length accs) = Z.max 0 (curve_ticks (fconcat g curves) v) /\
    ticks_of c' AX = ticks_of c' AY /\
    (forall u w0, play_weight (events c') u w0 =
       if t1 <=? u then curve_weight c
       else if ticks_of c AX <=? u then move_weight c else play_weight (events c) u w0).
Proof.
  intros g s c start curves v c' e Hc Hne H. destruct curves as [|f r]; [congruence|]. clear Hne.
  cbn [draw_curve] in H. remember (f :: r) as curves eqn:EC. clear EC f r.
  apply bind_Ok in H. destruct H as ([p d] & E0 & H). cbv zeta in H.
  apply bind_Ok in H. destruct H as (c1 & E1 & H). apply bind_Ok in H. destruct H as (c2 & E2 & H).
  apply bind_Ok in H. destruct H as (c3 & E3 & H).
  unfold goto_speed in E2. cbn [fvmul fx fy] in E2. inv_bind E2.
  rename a into ix, a0 into iy, a1 into ivx, a2 into ivy.
  pose proof (ck_ticks c Hc AX) as T0.
  destruct (add_weight_spec c _ _ c1 Hc (proj2 T0) E1) as (S1 & W1 & C1 & T1 & M1 & V1 & B1 & Q1).
  destruct (step_goto_speed_spec code c1 ix iy ivx ivy c2 (st_clocked _ _ S1) planner_typed E2)
    as (sx & sy & rest & _ & _ & _ & S2 & W2 & Y2 & _ & _ & _ & Q2).
  pose proof (ck_ticks c2 (st_clocked _ _ S2) AX) as T2.
  destruct (add_weight_spec c2 _ _ c3 (st_clocked _ _ S2) (proj2 T2) E3) as (S3 & W3 & C3 & T3 & M3 & V3 & B3 & Q3).
  unfold approx_curve in H. cbv zeta in H.
  destruct (approx_loop_history _ _ _ _ _ _ _ _ _ _ _ _ _ _ (st_clocked _ _ S3) H)
    as (accs & L & K & S4 & T4 & _ & W4 & Q4).
  fold (curve_ticks (fconcat g curves) v) in L, T4.
  assert (MW : move_weight c1 = move_weight c).
  { pose proof (st_config _ _ S1) as Cf. unfold config in Cf. congruence. }
  exists p, d, ix, iy, ivx, ivy, (ticks_of c2 AX), accs.
  split; [exact E0|]. split; [exact E|]. split; [exact E4|]. split; [exact E5|]. split; [exact E6|]. cbv zeta.
  rewrite W1 in W2. rewrite W2 in E3. 
  assert (O1 : ticks_of c AX < event_ticks c + 2 ^ 32) by (unfold u32_max in T0; lia).
  assert (O3 : ticks_of c2 AX < event_ticks c2 + 2 ^ 32) by (unfold u32_max in T2; lia).
  split; [|split].
  - eapply hist_cons; [exact O1|exact E1|]. eapply hist_cons; [exact I|exact E2|].
    eapply hist_cons; [exact O3|exact E3|exact K].
  - eapply now_cons; [reflexivity|exact E1|]. eapply now_cons; [exact I|exact E2|].
    eapply now_cons; [reflexivity|exact E3|apply history_now, K].
  - split; [eapply step_trans; [exact S1|]; eapply step_trans; [exact S2|]; eapply step_trans; eauto|].
    split; [congruence|]. pose proof (st_ticks _ _ S2 AX) as G. rewrite T1 in G. split; [exact G|].
    split; [rewrite T4, T3; lia|]. split; [lia|]. split; [rewrite !T4, !T3; lia|].
    intros u w0. rewrite Q4, Q3, Q2, Q1, T1, MW. rewrite W2.
    destruct (Z.leb_spec (ticks_of c2 AX) u); [reflexivity|].
    destruct (Z.leb_spec (ticks_of c AX) u); reflexivity.
Qed.

(** ** All the runs of a drawing: a start place and the curves joined there. *)
Definition run := (fvec * list fcurve)%type.

Fixpoint draw_runs (g : geometry) (s : scales) (v : f64) (c : ctx) (runs : list run) : res ctx :=
  match runs with
  | [] => Ok c
  | (start, pieces) :: r =>
      let! l := join_from [] pieces in
      let! (c, _) := draw_curve g s c start l v in
      draw_runs g s v c r
  end.

Lemma draw_runs_app : forall g s v r1 c c1 r2 c2, draw_runs g s v c r1 = Ok c1 -> draw_runs g s v c1 r2 = Ok c2 ->
  draw_runs g s v c (r1 ++ r2) = Ok c2.
Proof.
  induction r1 as [|[st ps] r1 IH]; intros c c1 r2 c2 H K; cbn [draw_runs app] in *.
  - injection H as ->. exact K.
  - apply bind_Ok in H. destruct H as (l & E & H). apply bind_Ok in H. destruct H as ([c0 e] & E2 & H).
    rewrite E. cbn [bind]. rewrite E2. cbn [bind]. eapply IH; eauto.
Qed.

(** The same with the error reported so far. *)
Fixpoint draw_runs_err (g : geometry) (s : scales) (v : f64) (c : ctx) (acc : Z * Z) (runs : list run) : res (ctx * (Z * Z)) :=
  match runs with
  | [] => Ok (c, acc)
  | (start, pieces) :: r =>
      let! l := join_from [] pieces in
      let! (c, e) := draw_curve g s c start l v in
      draw_runs_err g s v c (acc_max_err acc e) r
  end.

Lemma draw_runs_err_app : forall g s v r1 c a c1 a1 r2 x, draw_runs_err g s v c a r1 = Ok (c1, a1) ->
  draw_runs_err g s v c1 a1 r2 = Ok x -> draw_runs_err g s v c a (r1 ++ r2) = Ok x.
Proof.
  induction r1 as [|[st ps] r1 IH]; intros c a c1 a1 r2 x H K; cbn [draw_runs_err app] in *.
  - injection H as -> ->. exact K.
  - apply bind_Ok in H. destruct H as (l & E & H). apply bind_Ok in H. destruct H as ([c0 e] & E2 & H).
    rewrite E. cbn [bind]. rewrite E2. cbn [bind]. eapply IH; eauto.
Qed.

Lemma draw_runs_err_runs : forall g s v runs c a c1 a1, draw_runs_err g s v c a runs = Ok (c1, a1) ->
  draw_runs g s v c runs = Ok c1.
Proof.
  induction runs as [|[st ps] r IH]; intros c a c1 a1 H; cbn [draw_runs_err draw_runs] in *.
  - injection H as -> _. reflexivity.
  - apply bind_Ok in H. destruct H as (l & E & H). apply bind_Ok in H. destruct H as ([c0 e] & E2 & H).
    rewrite E. cbn [bind]. rewrite E2. cbn [bind]. eapply IH; eauto.
Qed.

Definition no_less (a : Z * Z) : Prop := 0 <= fst a /\ 0 <= snd a.
Lemma acc_max_is : forall a b, acc_max a b = Z.max a b.
Proof. intros a b. unfold acc_max. destruct (Z.ltb_spec a b); lia. Qed.
Lemma acc_max_err_no_less : forall a e, no_less a -> no_less (acc_max_err a e).
Proof. intros a e [H K]. unfold no_less, acc_max_err. cbn [fst snd]. rewrite !acc_max_is. lia. Qed.
Lemma acc_max_err_zero : forall a, no_less a -> acc_max_err a (0, 0) = a.
Proof. intros [a b] [H K]. cbn [fst snd] in *. unfold acc_max_err. cbn [fst snd]. rewrite !acc_max_is. f_equal; lia. Qed.

(** The laser over a list of runs: for each, a time to go there and a time to draw. *)
Fixpoint burning (l : list (Z * Z * Z)) (u : Z) : bool :=
  match l with
  | [] => false
  | (_, t1, t2) :: r => ((t1 <=? u) && (u <? t2)) || burning r u
  end.

Inductive timeline (g : geometry) (v : f64) : Z -> list run -> list (Z * Z * Z) -> Z -> Prop :=
| tl_nil : forall t, timeline g v t [] [] t
| tl_cons : forall t t1 t2 start pieces l runs times t', t <= t1 ->
    join_from [] pieces = Ok l -> t2 = t1 + Z.max 0 (curve_ticks (fconcat g l) v) ->
    timeline g v t2 runs times t' ->
    timeline g v t ((start, pieces) :: runs) ((t, t1, t2) :: times) t'.

Lemma timeline_le : forall g v t runs times t', timeline g v t runs times t' -> t <= t'.
Proof. intros g v t runs times t' H. induction H; lia. Qed.

Lemma timeline_before : forall g v t runs times t', timeline g v t runs times t' ->
  forall u, u < t -> burning times u = false.
Proof.
  intros g v t runs times t' H. induction H; intros u Hu; cbn [burning]; [reflexivity|].
  rewrite IHtimeline by lia. lia.
Qed.

Lemma draw_runs_spec : forall g s v runs c c', clocked c -> Forall (fun r => snd r <> []) runs ->
  draw_runs g s v c runs = Ok c' ->
  exists ops times, history code c ops c' /\ now_history code c ops c' /\ Forall not_reset ops /\ Forall not_speed ops /\
    step c c' /\ curve_weight c' = curve_weight c /\ (runs <> [] -> ticks_of c' AX = ticks_of c' AY) /\
    timeline g v (ticks_of c AX) runs times (ticks_of c' AX) /\
    (forall u w0, u < ticks_of c' AX -> play_weight (events c') u w0 =
       if u <? ticks_of c AX then play_weight (events c) u w0
       else if burning times u then curve_weight c else move_weight c).
Proof.
  intros g s v. induction runs as [|[start pieces] runs IH]; intros c c' Hc Hf H; cbn [draw_runs] in H.
  - injection H as <-. exists [], []. split; [constructor|]. split; [constructor|]. split; [constructor|].
    split; [constructor|].
    split; [apply step_refl; auto|]. split; [reflexivity|]. split; [congruence|]. split; [constructor|].
    intros u w0 Hu. destruct (Z.ltb_spec u (ticks_of c AX)); [reflexivity|lia].
  - inversion Hf; subst. cbn [snd] in *.
    apply bind_Ok in H. destruct H as (l & E & H). apply bind_Ok in H. destruct H as ([c1 e] & E1 & H).
    assert (NE : l <> []) by (eapply join_nonempty; eauto).
    destruct (draw_curve_spec g s c start l v c1 e Hc NE E1) as
      (p & d & ix & iy & ivx & ivy & t1 & accs & _ & _ & _ & _ & _ & H1 & N1 & S1 & W1 & B1 & T1 & _ & Y1 & Q1).
    destruct (IH c1 c' (st_clocked _ _ S1) ltac:(auto) H) as (ops & times & H2' & N2 & R2 & SP2 & S2 & W2 & Y2 & L2 & Q2).
    assert (MW : move_weight c1 = move_weight c).
    { pose proof (st_config _ _ S1) as Cf. unfold config in Cf. congruence. }
    eexists. exists ((ticks_of c AX, t1, ticks_of c1 AX) :: times).
    split; [eapply history_app; eauto|]. split; [eapply now_history_app; eauto|].
    split; [apply Forall_app; split; [|exact R2]; repeat (constructor; [exact I|]);
            clear; induction accs; constructor; auto; exact I|].
    split; [apply Forall_app; split; [|exact SP2]; repeat (constructor; [exact I|]);
            clear; induction accs; constructor; auto; exact I|].
    split; [eapply step_trans; eauto|]. split; [congruence|].
    split; [intros _; destruct runs; [cbn [draw_runs] in H; injection H as <-; exact Y1|apply Y2; congruence]|].
    split; [econstructor; eauto|].
    intros u w0 Hu. rewrite Q2 by exact Hu. cbn [burning]. rewrite W1, MW.
    pose proof (timeline_before _ _ _ _ _ _ L2 u) as TB.
    destruct (Z.ltb_spec u (ticks_of c1 AX)).
    + rewrite Q1, TB by lia. rewrite orb_false_r, andb_true_r.
      destruct (Z.leb_spec t1 u); [|destruct (Z.leb_spec (ticks_of c AX) u)];
        destruct (Z.ltb_spec u (ticks_of c AX)); try lia; reflexivity.
    + rewrite andb_false_r. cbn [orb].
      destruct (Z.ltb_spec u (ticks_of c AX)); [lia|reflexivity].
Qed.

(** ** The loop produces runs. *)

(** The pieces of a segment list from a current place, each with the place where
    it begins.  A GoTo to a place in [skip] may be passed over; a closing line
    shorter than 1e-6 only moves the current place. *)
Inductive pieces (g : geometry) (skip : fvec -> Prop) : fvec -> list segment -> list (fvec * fcurve) -> fvec -> Prop :=
| pc_nil : forall pos, pieces g skip pos [] [] pos
| pc_goto : forall pos p r l pos', pieces g skip p r l pos' -> pieces g skip pos (SGoTo p :: r) l pos'
| pc_goto_skipped : forall pos p r l pos', skip p -> pieces g skip pos r l pos' ->
    pieces g skip pos (SGoTo p :: r) l pos'
| pc_short : forall pos p r l pos', flt (fvlength (fvsub pos p)) short = true ->
    pieces g skip p r l pos' -> pieces g skip pos (SCloseTo p :: r) l pos'
| pc_draw : forall pos seg curve next r l pos',
    (forall p, seg = SCloseTo p -> flt (fvlength (fvsub pos p)) short = false) ->
    seg_info g seg pos = Ok (Some (curve, next)) ->
    pieces g skip next r l pos' -> pieces g skip pos (seg :: r) ((pos, curve) :: l) pos'.

Lemma pieces_app : forall g skip a s1 l1 b s2 l2 c, pieces g skip a s1 l1 b -> pieces g skip b s2 l2 c ->
  pieces g skip a (s1 ++ s2) (l1 ++ l2) c.
Proof.
  intros g skip a s1 l1 b s2 l2 c H K. induction H; cbn [app]; auto.
  - apply pc_goto. auto.
  - apply pc_goto_skipped; auto.
  - apply pc_short; auto.
  - eapply pc_draw; eauto.
Qed.

Lemma pieces_mono : forall g (skip skip' : fvec -> Prop) a segs l b, (forall p, In (SGoTo p) segs -> skip p -> skip' p) ->
  pieces g skip a segs l b -> pieces g skip' a segs l b.
Proof.
  intros g skip skip' a segs l b Hs H. induction H.
  - constructor.
  - apply pc_goto. apply IHpieces. intros q Hq. apply Hs. right. exact Hq.
  - apply pc_goto_skipped; [apply Hs; [left; reflexivity|assumption]|].
    apply IHpieces. intros q Hq. apply Hs. right. exact Hq.
  - apply pc_short; auto. apply IHpieces. intros q Hq. apply Hs. right. exact Hq.
  - eapply pc_draw; eauto. apply IHpieces. intros q Hq. apply Hs. right. exact Hq.
Qed.

(** The place is where the machine stands, to the step, after some of the runs. *)
Definition stands (g : geometry) (s : scales) (v : f64) (c : ctx) (runs : list run) (p : fvec) : Prop :=
  exists r1 r2 c1, runs = r1 ++ r2 /\ draw_runs g s v c r1 = Ok c1 /\
    to_steps s (fx p) AX = Ok (c_pos (channel c1 AX)) /\ to_steps s (fy p) AY = Ok (c_pos (channel c1 AY)).

Lemma stands_more : forall g s v c r1 r2 p, stands g s v c r1 p -> stands g s v c (r1 ++ r2) p.
Proof.
  intros g s v c r1 r2 p (a & b & c1 & -> & H). exists a, (b ++ r2), c1. rewrite app_assoc. auto.
Qed.

(** Places joined by closing lines shorter than 1e-6. *)
Inductive near : fvec -> fvec -> Prop :=
| near_refl : forall p, near p p
| near_step : forall p q r, near p q -> flt (fvlength (fvsub q r)) short = true -> near p r.

(** Grouping of pieces into runs: the curves in order, each run starting where
    its first piece starts. *)
Inductive grouped : list (fvec * fcurve) -> list run -> Prop :=
| gr_nil : grouped [] []
| gr_cons : forall start pos curve ps l runs, near start pos -> grouped l runs ->
    grouped ((pos, curve) :: ps ++ l) ((start, curve :: map snd ps) :: runs).

Lemma grouped_app : forall l1 r1 l2 r2, grouped l1 r1 -> grouped l2 r2 -> grouped (l1 ++ l2) (r1 ++ r2).
Proof.
  intros l1 r1 l2 r2 H K. induction H; cbn [app]; auto. rewrite <- app_assoc. constructor; auto.
Qed.

(** In a run each piece continues the direction of the one before. *)
Definition smooth_joint (a b : fcurve) : Prop :=
  exists pa da pb db, fc_value a (fc_length a) = Ok (pa, da) /\ fc_value b fzero = Ok (pb, db) /\
    flt (fdot db da) min_cos_connect = false.
Inductive smooth : list fcurve -> Prop :=
| sm_nil : smooth []
| sm_one : forall a, smooth [a]
| sm_cons : forall a b r, smooth_joint a b -> smooth (b :: r) -> smooth (a :: b :: r).

Lemma smooth_snoc : forall l a b, smooth (l ++ [a]) -> smooth_joint a b -> smooth (l ++ [a; b]).
Proof.
  induction l as [|x l IH]; intros a b H K; cbn [app] in *.
  - constructor; [exact K|constructor].
  - destruct l as [|y l]; cbn [app] in *; inversion H; subst; constructor; auto.
Qed.

(** State of the loop after [segs]: [done_] runs drawn, [open_] pieces pending. *)
Record drawn_so_far (g : geometry) (s : scales) (v : f64) (c0 : ctx) (pos0 : fvec) (segs : list segment)
    (d : drawing) (l : list (fvec * fcurve)) (done_ : list run) (open_ : list (fvec * fcurve)) : Prop := {
  ds_pieces : exists closed, l = closed ++ open_ /\ pieces g (stands g s v c0 done_) pos0 segs l (d_pos d) /\ grouped closed done_;
  ds_runs : draw_runs g s v c0 done_ = Ok (d_ctx d);
  ds_open : join_from [] (map snd open_) = Ok (d_curves d);
  ds_start : match open_ with [] => near (d_start d) (d_pos d) | (p, _) :: _ => near (d_start d) p end;
  ds_prev : match d_prev d with
            | None => open_ = []
            | Some prev => exists r q c p, open_ = r ++ [(q, c)] /\ fc_value c (fc_length c) = Ok (p, prev)
            end;
  ds_smooth : Forall (fun r => smooth (snd r)) done_ /\ smooth (map snd open_);
  ds_err : draw_runs_err g s v c0 (0, 0) done_ = Ok (d_ctx d, d_err d) /\ no_less (d_err d)
}.

Definition close_run (start : fvec) (open_ : list (fvec * fcurve)) : list run :=
  match open_ with [] => [] | _ => [(start, map snd open_)] end.

Lemma close_grouped : forall start open_, match open_ with [] => True | (p, _) :: _ => near start p end ->
  grouped open_ (close_run start open_).
Proof.
  intros start [|[p c] r] H; cbn [close_run]; [constructor|].
  cbn [map snd]. rewrite <- (app_nil_r r) at 1. constructor; [exact H|constructor].
Qed.

Lemma close_draw : forall g s v c start open_ l c' e, join_from [] (map snd open_) = Ok l ->
  draw_curve g s c start l v = Ok (c', e) -> draw_runs g s v c (close_run start open_) = Ok c'.
Proof.
  intros g s v c start [|[p k] r] l c' e J D; cbn [close_run].
  - cbn in J. injection J as <-. cbn in D. injection D as <- _. reflexivity.
  - cbn [draw_runs]. rewrite J. cbn [bind]. rewrite D. reflexivity.
Qed.

Lemma close_err : forall g s v c start open_ l c' a e, join_from [] (map snd open_) = Ok l ->
  draw_curve g s c start l v = Ok (c', e) -> no_less a ->
  draw_runs_err g s v c a (close_run start open_) = Ok (c', acc_max_err a e).
Proof.
  intros g s v c start [|[p k] r] l c' a e J D N; cbn [close_run].
  - cbn in J. injection J as <-. cbn in D. injection D as <- <-. rewrite acc_max_err_zero by exact N. reflexivity.
  - cbn [draw_runs_err]. rewrite J. cbn [bind]. rewrite D. reflexivity.
Qed.

Lemma close_smooth : forall start open_, smooth (map snd open_) ->
  Forall (fun r : run => smooth (snd r)) (close_run start open_).
Proof. intros start [|[p k] r] H; cbn [close_run]; repeat constructor. exact H. Qed.

Lemma draw_step_so_far : forall g s v c0 pos0 segs d l dn op seg d',
  drawn_so_far g s v c0 pos0 segs d l dn op -> draw_step g s v d seg = Ok d' ->
  exists l' dn' op', drawn_so_far g s v c0 pos0 (segs ++ [seg]) d' l' dn' op'.
Proof.
  intros g s v c0 pos0 segs d l dn op seg d' [(closed & EL & P & G) R J S PV SM [ER NL]] H.
  assert (CL : match op with [] => True | (p, _) :: _ => near (d_start d) p end) by (destruct op as [|[]]; auto).
  assert (MONO : forall more, pieces g (stands g s v c0 dn) pos0 segs l (d_pos d) ->
      pieces g (stands g s v c0 (dn ++ more)) pos0 segs l (d_pos d)).
  { intros more. apply pieces_mono. intros q _. apply stands_more. }
  destruct seg as [p|p|p|p2 k1 k2|rx ry st en ro].
  { (* GoTo *)
    cbn [draw_step] in H. apply bind_Ok in H. destruct H as (ix & E1 & H).
    apply bind_Ok in H. destruct H as (stays & E2 & H). destruct stays.
    - injection H as <-. exists l, dn, op. constructor; auto. exists closed. split; [auto|]. split; [|auto].
      rewrite <- (app_nil_r l). eapply pieces_app; [exact P|]. apply pc_goto_skipped; [|constructor].
      destruct (Z.eqb_spec ix (c_pos (channel (d_ctx d) AX))) as [->|]; [|discriminate E2].
      apply bind_Ok in E2. destruct E2 as (iy & E2 & E3). injection E3 as E3.
      apply Z.eqb_eq in E3. subst iy. exists dn, [], (d_ctx d). rewrite app_nil_r. auto.
    - apply bind_Ok in H. destruct H as ([c e] & E3 & H). injection H as <-.
      exists l, (dn ++ close_run (d_start d) op), []. constructor; cbn [d_pos d_ctx d_curves d_start d_prev].
      + exists l. split; [rewrite app_nil_r; reflexivity|]. split.
        * rewrite <- (app_nil_r l). eapply pieces_app; [exact (MONO _ P)|]. apply pc_goto. constructor.
        * rewrite EL. apply grouped_app; auto. apply close_grouped. exact CL.
      + eapply draw_runs_app; [exact R|]. eapply close_draw; eauto.
      + reflexivity.
      + constructor.
      + reflexivity.
      + split; [|constructor]. apply Forall_app. split; [apply SM|]. apply close_smooth, SM.
      + cbn [d_err]. split; [|apply acc_max_err_no_less, NL].
        eapply draw_runs_err_app; [exact ER|]. eapply close_err; eauto. }
  all: unfold draw_step in H.
  2: destruct (flt (fvlength (fvsub (d_pos d) p)) short) eqn:SH.
  2: { (* short closing line *)
    injection H as <-. exists l, dn, op. constructor; cbn [d_pos d_ctx d_curves d_start d_prev]; auto.
    - exists closed. split; [auto|]. split; [|auto].
      rewrite <- (app_nil_r l). eapply pieces_app; [exact P|]. eapply pc_short; [exact SH|constructor].
    - destruct op as [|[q k] r]; [|exact S]. eapply near_step; eauto. }
  all: cbv iota in H.
  all: apply bind_Ok in H; destruct H as (info & EI & H).
  all: apply bind_Ok in H; destruct H as ([curve next] & EU & H).
  all: destruct info as [[curve' next']|]; [|discriminate EU]; cbn [unwrap] in EU; injection EU as -> ->.
  all: apply bind_Ok in H; destruct H as ([p0 sd] & ED & H).
  all: apply bind_Ok in H; destruct H as (d1 & E1 & H).
  all: apply bind_Ok in H; destruct H as ([p1 ed] & EE & H).
  all: apply bind_Ok in H; destruct H as (cv & EA & H); injection H as <-.
  all: assert (PP : forall more seg, (forall p, seg = SCloseTo p -> flt (fvlength (fvsub (d_pos d) p)) short = false) ->
         seg_info g seg (d_pos d) = Ok (Some (curve, next)) ->
         pieces g (stands g s v c0 (dn ++ more)) pos0 (segs ++ [seg]) (l ++ [(d_pos d, curve)]) next)
       by (intros more seg Hs1 Hs2; eapply pieces_app; [exact (MONO _ P)|]; eapply pc_draw; [exact Hs1|exact Hs2|constructor]).
  all: match type of EI with seg_info _ ?sg _ = _ =>
         assert (PX : forall more, pieces g (stands g s v c0 (dn ++ more)) pos0 (segs ++ [sg]) (l ++ [(d_pos d, curve)]) next)
         by (intros more; apply PP; [intros ? K; first [discriminate K|injection K as <-; exact SH]|exact EI]) end; clear PP.
  all: assert (JOIN : forall x, d_curves d1 = d_curves d -> join_from [] (map snd (op ++ [(x, curve)])) = Ok cv)
       by (intros x K; rewrite map_app; cbn [map snd]; rewrite K in EA; eapply join_from_snoc; eauto).
  all: assert (CASE : (d1 = d /\ (op = [] \/ exists q k r, op = r ++ [(q, k)] /\ smooth_joint k curve)) \/
         (exists c e, draw_curve g s (d_ctx d) (d_start d) (d_curves d) v = Ok (c, e) /\
            d1 = mk_drawing c (d_pos d) (d_pos d) (d_prev d) [] (acc_max_err (d_err d) e))).
  1, 3, 5, 7: destruct (d_prev d) as [prev|] eqn:EP;
    [destruct PV as (r & q & k & pk & PV1 & PV2); destruct (flt (fdot sd prev) min_cos_connect) eqn:EF;
      [right; apply bind_Ok in E1; destruct E1 as ([c e] & E1 & E1'); injection E1' as <-; exists c, e; auto
      |left; injection E1 as <-; split; [reflexivity|]; right; exists q, k, r; split; [exact PV1|];
       exists pk, prev, p0, sd; auto]
    |left; injection E1 as <-; split; [reflexivity|]; left; exact PV].
  all: clear E1 EI; destruct CASE as [[-> SJ]|(c & e & E1 & ->)].
  1, 3, 5, 7: exists (l ++ [(d_pos d, curve)]), dn, (op ++ [(d_pos d, curve)]);
    constructor; cbn [d_pos d_ctx d_curves d_start d_prev];
    [exists closed; split; [rewrite EL, app_assoc; reflexivity|]; split; [specialize (PX []); rewrite app_nil_r in PX; exact PX|exact G]
    |exact R|apply JOIN; reflexivity
    |destruct op as [|[q k] r]; [exact S|exact S]
    |exists op, (d_pos d), curve, p1; auto
    |split; [apply SM|]; destruct SJ as [->|(q & k & r & -> & SJ)]; [constructor|];
     rewrite !map_app in *; cbn [map snd] in *; rewrite <- app_assoc; cbn [app]; apply smooth_snoc; [apply SM|exact SJ]
    |cbn [d_err]; split; assumption].
  all: cbn [d_pos d_ctx d_curves d_start d_prev d_err] in *.
  all: exists (l ++ [(d_pos d, curve)]), (dn ++ close_run (d_start d) op), [(d_pos d, curve)];
    constructor; cbn [d_pos d_ctx d_curves d_start d_prev];
    [exists l; split; [reflexivity|]; split; [apply PX|]; rewrite EL; apply grouped_app; auto; apply close_grouped; exact CL
    |eapply draw_runs_app; [exact R|]; eapply close_draw; eauto
    |cbn [map snd join_from]; rewrite EA; reflexivity
    |constructor
    |exists [], (d_pos d), curve, p1; auto
    |split; [|constructor]; apply Forall_app; split; [apply SM|];
     apply close_smooth, SM
    |cbn [d_err]; split; [eapply draw_runs_err_app; [exact ER|]; eapply close_err; eauto|apply acc_max_err_no_less, NL]].
Qed.

Lemma draw_loop_so_far : forall g s v c0 pos0 segs2 segs d l dn op d',
  drawn_so_far g s v c0 pos0 segs d l dn op -> draw_loop g s v d segs2 = Ok d' ->
  exists l' dn' op', drawn_so_far g s v c0 pos0 (segs ++ segs2) d' l' dn' op'.
Proof.
  intros g s v c0 pos0. induction segs2 as [|seg r IH]; intros segs d l dn op d' D H; cbn [draw_loop] in H.
  - injection H as <-. rewrite app_nil_r. eauto.
  - apply bind_Ok in H. destruct H as (d1 & E & H).
    destruct (draw_step_so_far _ _ _ _ _ _ _ _ _ _ _ _ D E) as (l1 & dn1 & op1 & D1).
    destruct (IH _ _ _ _ _ _ D1 H) as (l2 & dn2 & op2 & D2). exists l2, dn2, op2.
    rewrite <- app_assoc in D2. exact D2.
Qed.

Definition machine_place (s : scales) (c : ctx) : fvec :=
  mk_fvec (coord_from_steps s (c_pos (channel c AX)) AX) (coord_from_steps s (c_pos (channel c AY)) AY).

Lemma grouped_nonempty : forall l runs, grouped l runs -> Forall (fun r => snd r <> []) runs.
Proof. intros l runs H. induction H; constructor; auto. discriminate. Qed.

Lemma draw_curves_runs_err : forall g s c segs v c' e, segs <> [] -> draw_curves g s c segs v = Ok (c', e) ->
  exists l runs pos' c1, pieces g (stands g s v c runs) (machine_place s c) segs l pos' /\ grouped l runs /\
    Forall (fun r => smooth (snd r)) runs /\
    draw_runs_err g s v c (0, 0) runs = Ok (c1, e) /\ add_weight_change c1 (move_weight c1) (ticks_of c1 AX) = Ok c'.
Proof.
  intros g s c segs v c' e Hne H. destruct segs as [|sg r]; [congruence|]. clear Hne.
  unfold draw_curves in H. remember (sg :: r) as segs eqn:ES. clear ES sg r.
  cbv zeta in H. fold (machine_place s c) in H.
  apply bind_Ok in H. destruct H as (d & E & H). apply bind_Ok in H. destruct H as ([c1 er] & E1 & H).
  apply bind_Ok in H. destruct H as (c2 & E2 & H). injection H as <- <-.
  destruct (draw_loop_so_far g s v c (machine_place s c) segs []
    (mk_drawing c (machine_place s c) (machine_place s c) None [] (0, 0)) [] [] [] d) as (l & dn & op & D); auto.
  { constructor; cbn [d_pos d_ctx d_curves d_start d_prev]; auto.
    - exists []. split; [reflexivity|]. split; constructor.
    - constructor.
    - split; constructor.
    - split; [reflexivity|]. cbn [d_err]. unfold no_less. cbn [fst snd]. lia. }
  cbn [app] in D. destruct D as [(closed & EL & P & G) R J S PV [SM1 SM2] [ER NL]].
  exists l, (dn ++ close_run (d_start d) op), (d_pos d), c1.
  split; [revert P; apply pieces_mono; intros q _; apply stands_more|].
  split; [rewrite EL; apply grouped_app; auto; apply close_grouped; destruct op as [|[]]; auto|].
  split; [apply Forall_app; split; [exact SM1|]; apply close_smooth, SM2|].
  split; [eapply draw_runs_err_app; [exact ER|]; eapply close_err; eauto|exact E2].
Qed.

Lemma draw_curves_runs : forall g s c segs v c' e, segs <> [] -> draw_curves g s c segs v = Ok (c', e) ->
  exists l runs pos' c1, pieces g (stands g s v c runs) (machine_place s c) segs l pos' /\ grouped l runs /\
    Forall (fun r => smooth (snd r)) runs /\
    draw_runs g s v c runs = Ok c1 /\ add_weight_change c1 (move_weight c1) (ticks_of c1 AX) = Ok c'.
Proof.
  intros g s c segs v c' e Hne H.
  destruct (draw_curves_runs_err _ _ _ _ _ _ _ Hne H) as (l & runs & pos' & c1 & P & G & SM & R & W).
  exists l, runs, pos', c1. apply draw_runs_err_runs in R. auto.
Qed.
