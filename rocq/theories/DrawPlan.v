(** How draw_curves divides a list of segments into runs, keeping the segments:
    a refinement of [pieces] and [grouped] (DrawProofs.v) in which no run passes a
    GoTo that takes effect. *)
From Coq Require Import ZArith List Bool Lia.
From Verif Require Import Base Floats AccVector IntegerCurve StepperContext ApproxCurve DrawCurves DrawProofs.
Import ListNotations.
Open Scope Z_scope.

(** A piece: where it starts, its segment and its curve. *)
Definition piece := (fvec * segment * fcurve)%type.
Definition plain (p : piece) : fvec * fcurve := (fst (fst p), snd p).

(** The pieces of segments drawn in one go, from a place to a place; the options are the
    directions in which the drawing arrives, if any piece has been drawn. A GoTo is
    passed over only if its place is in [skip], and every piece goes on in the
    direction of the one before, up to the angle of [min_cos_connect]. *)
Inductive run_of (g : geometry) (skip : fvec -> Prop)
  : fvec -> option fvec -> list segment -> list piece -> fvec -> option fvec -> Prop :=
| ro_nil : forall pos dir, run_of g skip pos dir [] [] pos dir
| ro_skip : forall pos dir p r l pos' dir', skip p -> run_of g skip pos dir r l pos' dir' ->
    run_of g skip pos dir (SGoTo p :: r) l pos' dir'
| ro_short : forall pos dir p r l pos' dir', flt (fvlength (fvsub pos p)) short = true ->
    run_of g skip p dir r l pos' dir' -> run_of g skip pos dir (SCloseTo p :: r) l pos' dir'
| ro_draw : forall pos dir seg curve next p0 sd p1 ed r l pos' dir',
    (forall p, seg = SCloseTo p -> flt (fvlength (fvsub pos p)) short = false) ->
    seg_info g seg pos = Ok (Some (curve, next)) ->
    fc_value curve fzero = Ok (p0, sd) -> fc_value curve (fc_length curve) = Ok (p1, ed) ->
    (forall d, dir = Some d -> flt (fdot sd d) min_cos_connect = false) ->
    run_of g skip next (Some ed) r l pos' dir' ->
    run_of g skip pos dir (seg :: r) ((pos, seg, curve) :: l) pos' dir'.

Lemma run_of_app : forall g skip a x s1 l1 b y s2 l2 c z, run_of g skip a x s1 l1 b y -> run_of g skip b y s2 l2 c z ->
  run_of g skip a x (s1 ++ s2) (l1 ++ l2) c z.
Proof. intros g skip a x s1 l1 b y s2 l2 c z H K. induction H; cbn [app]; auto; econstructor; eauto. Qed.

Lemma run_of_mono : forall g (k1 k2 : fvec -> Prop) a x segs l b y, (forall p, In (SGoTo p) segs -> k1 p -> k2 p) ->
  run_of g k1 a x segs l b y -> run_of g k2 a x segs l b y.
Proof.
  intros g k1 k2 a x segs l b y M H. induction H.
  - constructor.
  - apply ro_skip; [apply M; [left; reflexivity|assumption]|apply IHrun_of; intros; apply M; [right|]; assumption].
  - eapply ro_short; [eassumption|apply IHrun_of; intros; apply M; [right|]; assumption].
  - eapply ro_draw; try eassumption. apply IHrun_of; intros; apply M; [right|]; assumption.
Qed.

Lemma run_of_dir : forall g skip a x segs l b y, run_of g skip a x segs l b y -> l = [] -> y = x.
Proof. intros g skip a x segs l b y H. induction H; auto. discriminate. Qed.

(** The first segment is drawn, from [q], and turns away from a direction. *)
Definition bends (g : geometry) (q : fvec) (dir : option fvec) (part : list segment) (l : list piece) : Prop :=
  forall d, dir = Some d -> exists seg curve next part' l' p0 sd, part = seg :: part' /\ l = (q, seg, curve) :: l' /\
    (forall p, seg = SCloseTo p -> flt (fvlength (fvsub q p)) short = false) /\
    seg_info g seg q = Ok (Some (curve, next)) /\
    fc_value curve fzero = Ok (p0, sd) /\ flt (fdot sd d) min_cos_connect = true.

Definition close_pieces (q : fvec) (l : list piece) : list (fvec * list piece) :=
  match l with [] => [] | _ => [(q, l)] end.

(** Segments divided into finished runs: a run ends at a GoTo or where the drawing bends.
    [skip runs] are the places to which a GoTo has no effect when [runs] are drawn. *)
Inductive parts (g : geometry) (skip : list (fvec * list piece) -> fvec -> Prop)
  : fvec -> list segment -> list (fvec * list piece) -> fvec -> option fvec -> Prop :=
| pa_nil : forall pos, parts g skip pos [] [] pos None
| pa_goto : forall pos segs runs q dir part l q' dir' p, parts g skip pos segs runs q dir ->
    run_of g (skip runs) q None part l q' dir' -> bends g q dir part l -> ~ skip runs p ->
    parts g skip pos (segs ++ part ++ [SGoTo p]) (runs ++ close_pieces q l) p None
| pa_bend : forall pos segs runs q dir part l q' d, parts g skip pos segs runs q dir ->
    run_of g (skip runs) q None part l q' (Some d) -> bends g q dir part l ->
    parts g skip pos (segs ++ part) (runs ++ close_pieces q l) q' (Some d).

(** All segments: finished runs and one more. *)
Definition plan (g : geometry) (skip : list (fvec * list piece) -> fvec -> Prop) (pos : fvec) (segs : list segment)
    (runs : list (fvec * list piece)) : Prop :=
  exists segs0 runs0 q dir part l q' dir', segs = segs0 ++ part /\ runs = runs0 ++ close_pieces q l /\
    parts g skip pos segs0 runs0 q dir /\ run_of g (skip runs0) q None part l q' dir' /\ bends g q dir part l.

Definition curves_of (r : fvec * list piece) : run := (fst r, map snd (snd r)).

(** The machine stands, to the step, at a place. *)
Definition stands (s : scales) (c : ctx) (p : fvec) : Prop :=
  to_steps s (fx p) AX = Ok (c_pos (channel c AX)) /\ to_steps s (fy p) AY = Ok (c_pos (channel c AY)).

(** It does when these runs have been drawn. *)
Definition at_machine (g : geometry) (s : scales) (v : f64) (c : ctx) (runs : list (fvec * list piece)) (p : fvec) : Prop :=
  exists c1, draw_runs g s v c (map curves_of runs) = Ok c1 /\
    to_steps s (fx p) AX = Ok (c_pos (channel c1 AX)) /\ to_steps s (fy p) AY = Ok (c_pos (channel c1 AY)).

Lemma stands_machine : forall g s v c runs c1 p, draw_runs g s v c (map curves_of runs) = Ok c1 ->
  stands s c1 p <-> at_machine g s v c runs p.
Proof.
  intros g s v c runs c1 p R. split.
  - intros [X Y]. exists c1. auto.
  - intros (c2 & R2 & X & Y). rewrite R in R2. injection R2 as <-. split; assumption.
Qed.

Lemma close_curves : forall start (op : list piece),
  map curves_of (close_pieces start op) = close_run start (map plain op).
Proof.
  intros start [|p r]; [reflexivity|]. cbn [map close_run close_pieces]. unfold curves_of, plain. cbn [fst snd]. f_equal. f_equal.
  cbn [map snd]. f_equal. rewrite map_map. reflexivity.
Qed.

Lemma plain_snd : forall op : list piece, map snd (map plain op) = map snd op.
Proof. intros op. rewrite map_map. reflexivity. Qed.

Record planned (g : geometry) (s : scales) (v : f64) (skip : list (fvec * list piece) -> fvec -> Prop)
    (c0 : ctx) (pos0 : fvec) (segs : list segment)
    (d : drawing) (dn : list (fvec * list piece)) (op : list piece) : Prop := {
  pn_plan : exists segs0 part dir, segs = segs0 ++ part /\ parts g skip pos0 segs0 dn (d_start d) dir /\
      run_of g (skip dn) (d_start d) None part op (d_pos d) (d_prev d) /\ bends g (d_start d) dir part op;
  pn_runs : draw_runs g s v c0 (map curves_of dn) = Ok (d_ctx d);
  pn_open : join_from [] (map snd op) = Ok (d_curves d);
  pn_err : draw_runs_err g s v c0 (0, 0) (map curves_of dn) = Ok (d_ctx d, d_err d) /\ no_less (d_err d)
}.

(** A run ends. *)
Lemma close_planned : forall g s v skip c0 pos0 segs d dn op c e, planned g s v skip c0 pos0 segs d dn op ->
  draw_curve g s (d_ctx d) (d_start d) (d_curves d) v = Ok (c, e) ->
  let dn' := dn ++ close_pieces (d_start d) op in
  draw_runs g s v c0 (map curves_of dn') = Ok c /\
  draw_runs_err g s v c0 (0, 0) (map curves_of dn') = Ok (c, acc_max_err (d_err d) e) /\
  no_less (acc_max_err (d_err d) e).
Proof.
  intros g s v skip c0 pos0 segs d dn op c e [P R J [ER NL]] D dn'.
  assert (MC : map curves_of dn' = map curves_of dn ++ close_run (d_start d) (map plain op)).
  { unfold dn'. rewrite map_app, close_curves. reflexivity. }
  rewrite MC. split; [|split].
  - eapply draw_runs_app; [exact R|]. eapply close_draw; [rewrite plain_snd; exact J|exact D].
  - eapply draw_runs_err_app; [exact ER|]. eapply close_err; [rewrite plain_snd; exact J|exact D|exact NL].
  - apply acc_max_err_no_less, NL.
Qed.

Lemma bends_more : forall g q dir part l seg more, bends g q dir part l -> bends g q dir (part ++ [seg]) (l ++ more).
Proof.
  intros g q dir part l seg more B d K.
  destruct (B d K) as (sg & curve & next & part' & l' & p0 & sd & -> & -> & V).
  cbn [app]. exists sg, curve, next, (part' ++ [seg]), (l' ++ more), p0, sd. auto.
Qed.

Lemma draw_step_planned : forall g s v skip c0 pos0 segs d dn op seg d',
  planned g s v skip c0 pos0 segs d dn op ->
  (forall p, seg = SGoTo p -> stands s (d_ctx d) p <-> skip dn p) -> draw_step g s v d seg = Ok d' ->
  exists dn' op', planned g s v skip c0 pos0 (segs ++ [seg]) d' dn' op'.
Proof.
  intros g s v skip c0 pos0 segs d dn op seg d' D SK H. pose proof D as [P R J [ER NL]].
  destruct seg as [p|p|p|p2 k1 k2|rx ry st en ro].
  { cbn [draw_step] in H. apply bind_Ok in H. destruct H as (ix & E1 & H).
    apply bind_Ok in H. destruct H as (stays & E2 & H). destruct stays.
    - injection H as <-. exists dn, op. constructor; auto. destruct P as (segs0 & part & dir & -> & P & Q & BE).
      exists segs0, (part ++ [SGoTo p]), dir. split; [rewrite app_assoc; reflexivity|]. split; [exact P|].
      rewrite <- (app_nil_r op). split; [|apply bends_more, BE]. eapply run_of_app; [exact Q|]. apply ro_skip; [|constructor].
      destruct (Z.eqb_spec ix (c_pos (channel (d_ctx d) AX))) as [->|]; [|discriminate E2].
      apply bind_Ok in E2. destruct E2 as (iy & E2 & E3). injection E3 as E3.
      apply Z.eqb_eq in E3. subst iy. apply (SK p eq_refl). split; assumption.
    - apply bind_Ok in H. destruct H as ([c e] & E3 & H). injection H as <-.
      destruct (close_planned _ _ _ _ _ _ _ _ _ _ _ _ D E3) as (B & C & N).
      exists (dn ++ close_pieces (d_start d) op), [].
      constructor; cbn [d_pos d_ctx d_curves d_start d_prev d_err]; auto.
      destruct P as (segs0 & part & dir & -> & P & Q & BE).
      exists ((segs0 ++ part) ++ [SGoTo p]), [], None. split; [rewrite app_nil_r; reflexivity|].
      split; [|split; [constructor|intros d0 K; discriminate K]].
      rewrite <- app_assoc. eapply pa_goto; [exact P|exact Q|exact BE|].
      intros K. apply (SK p eq_refl) in K. destruct K as [KX KY]. rewrite E1 in KX. injection KX as ->.
      rewrite Z.eqb_refl, KY in E2. cbn [bind] in E2. rewrite Z.eqb_refl in E2. discriminate E2. }
  all: unfold draw_step in H.
  2: destruct (flt (fvlength (fvsub (d_pos d) p)) short) eqn:SH.
  2: { injection H as <-. exists dn, op. constructor; cbn [d_pos d_ctx d_curves d_start d_prev d_err]; auto.
    destruct P as (segs0 & part & dir & -> & P & Q & BE).
    exists segs0, (part ++ [SCloseTo p]), dir. split; [rewrite app_assoc; reflexivity|]. split; [exact P|].
    rewrite <- (app_nil_r op). split; [|apply bends_more, BE]. eapply run_of_app; [exact Q|]. eapply ro_short; [exact SH|constructor]. }
  all: cbv iota in H.
  all: apply bind_Ok in H; destruct H as (info & EI & H).
  all: apply bind_Ok in H; destruct H as ([curve next] & EU & H).
  all: destruct info as [[curve' next']|]; [|discriminate EU]; cbn [unwrap] in EU; injection EU as -> ->.
  all: apply bind_Ok in H; destruct H as ([p0 sd] & ED & H).
  all: apply bind_Ok in H; destruct H as (d1 & E1 & H).
  all: apply bind_Ok in H; destruct H as ([p1 ed] & EE & H).
  all: apply bind_Ok in H; destruct H as (cv & EA & H); injection H as <-.
  all: assert (CASE : (d1 = d /\ forall pv, d_prev d = Some pv -> flt (fdot sd pv) min_cos_connect = false) \/
         (exists c e pv, draw_curve g s (d_ctx d) (d_start d) (d_curves d) v = Ok (c, e) /\
            d_prev d = Some pv /\ flt (fdot sd pv) min_cos_connect = true /\
            d1 = mk_drawing c (d_pos d) (d_pos d) (d_prev d) [] (acc_max_err (d_err d) e)))
    by (destruct (d_prev d) as [prev|];
        [destruct (flt (fdot sd prev) min_cos_connect) eqn:FB;
          [right; apply bind_Ok in E1; destruct E1 as ([c e] & E1 & E1'); injection E1' as <-; exists c, e, prev; auto
          |left; injection E1 as <-; split; [reflexivity|intros pv K; injection K as <-; exact FB]]
        |left; injection E1 as <-; split; [reflexivity|intros pv K; discriminate K]]).
  all: clear E1.
  all: match type of EI with seg_info _ ?sg _ = _ => remember sg as seg eqn:ESG end.
  all: assert (NS : forall p, seg = SCloseTo p -> flt (fvlength (fvsub (d_pos d) p)) short = false)
    by (intros pc KC; rewrite ESG in KC; first [discriminate KC | injection KC as <-; exact SH]).
  all: assert (GOAL : exists dn' op', planned g s v skip c0 pos0 (segs ++ [seg])
         (mk_drawing (d_ctx d1) next (d_start d1) (Some ed) cv (d_err d1)) dn' op'); [|exact GOAL].
  all: clear ESG; destruct CASE as [[-> SM]|(c & e & pv & E1 & EP & FB & ->)].
  1, 3, 5, 7: exists dn, (op ++ [(d_pos d, seg, curve)]); constructor; cbn [d_pos d_ctx d_curves d_start d_prev d_err]; auto;
    [destruct P as (segs0 & part & dir & -> & P & Q & BE);
     exists segs0, (part ++ [seg]), dir; split; [rewrite app_assoc; reflexivity|]; split; [exact P|]; split;
     [eapply run_of_app; [exact Q|]; eapply ro_draw; [exact NS|exact EI|exact ED|exact EE|exact SM|constructor]
     |apply bends_more, BE]
    |rewrite map_app; cbn [map snd]; eapply join_from_snoc; eauto].
  all: cbn [d_pos d_ctx d_curves d_start d_prev d_err] in *.
  all: destruct (close_planned _ _ _ _ _ _ _ _ _ _ _ _ D E1) as (B & C & N);
    exists (dn ++ close_pieces (d_start d) op), [(d_pos d, seg, curve)];
    constructor; cbn [d_pos d_ctx d_curves d_start d_prev d_err]; auto;
    [exists segs, [seg], (d_prev d); split; [reflexivity|]; split;
     [destruct P as (segs0 & part & dir & -> & P & Q & BE); rewrite EP in *; eapply pa_bend; [exact P|exact Q|exact BE]|]; split;
     [eapply ro_draw; [exact NS|exact EI|exact ED|exact EE|intros d0 K; discriminate K|constructor]
     |intros d0 K; rewrite EP in K; injection K as <-; exists seg, curve, next, [], [], p0, sd; repeat (split; [first [reflexivity|exact NS|exact EI|exact ED]|]); exact FB]
    |cbn [map snd join_from]; rewrite EA; reflexivity].
Qed.

Lemma draw_loop_planned : forall g s v skip c0 pos0 segs2 segs d dn op d',
  planned g s v skip c0 pos0 segs d dn op ->
  (forall segs3 p segs4 d3 dn3, segs2 = segs3 ++ SGoTo p :: segs4 -> draw_loop g s v d segs3 = Ok d3 ->
     draw_runs g s v c0 (map curves_of dn3) = Ok (d_ctx d3) -> stands s (d_ctx d3) p <-> skip dn3 p) ->
  draw_loop g s v d segs2 = Ok d' ->
  exists dn' op', planned g s v skip c0 pos0 (segs ++ segs2) d' dn' op'.
Proof.
  intros g s v skip c0 pos0. induction segs2 as [|seg r IH]; intros segs d dn op d' D SK H; cbn [draw_loop] in H.
  - injection H as <-. rewrite app_nil_r. eauto.
  - apply bind_Ok in H. destruct H as (d1 & E & H).
    assert (SK0 : forall p, seg = SGoTo p -> stands s (d_ctx d) p <-> skip dn p).
    { intros p ->. apply (SK [] p r d dn); [reflexivity|reflexivity|apply (pn_runs _ _ _ _ _ _ _ _ _ _ D)]. }
    destruct (draw_step_planned _ _ _ _ _ _ _ _ _ _ _ _ D SK0 E) as (dn1 & op1 & D1).
    assert (SK1 : forall segs3 p segs4 d3 dn3, r = segs3 ++ SGoTo p :: segs4 -> draw_loop g s v d1 segs3 = Ok d3 ->
      draw_runs g s v c0 (map curves_of dn3) = Ok (d_ctx d3) -> stands s (d_ctx d3) p <-> skip dn3 p).
    { intros segs3 p segs4 d3 dn3 -> E3 R3. apply (SK (seg :: segs3) p segs4 d3 dn3); [reflexivity| |exact R3].
      cbn [draw_loop]. rewrite E. exact E3. }
    destruct (IH _ _ _ _ _ D1 SK1 H) as (dn2 & op2 & D2). exists dn2, op2.
    rewrite <- app_assoc in D2. exact D2.
Qed.

(** The loop of draw_curves at its start. *)
Definition begin_drawing (s : scales) (c : ctx) : drawing :=
  mk_drawing c (machine_place s c) (machine_place s c) None [] (0, 0).

(** What draw_curves does with segments, in two parts: the loop and the end. *)
Lemma draw_curves_loop : forall g s c segs v c' e, segs <> [] -> draw_curves g s c segs v = Ok (c', e) ->
  exists d c1 er, draw_loop g s v (begin_drawing s c) segs = Ok d /\
    draw_curve g s (d_ctx d) (d_start d) (d_curves d) v = Ok (c1, er) /\
    add_weight_change c1 (move_weight c1) (ticks_of c1 AX) = Ok c' /\ e = acc_max_err (d_err d) er.
Proof.
  intros g s c segs v c' e Hne H. destruct segs as [|sg r]; [congruence|]. clear Hne.
  unfold draw_curves in H. remember (sg :: r) as segs eqn:ES. clear ES sg r.
  cbv zeta in H. fold (machine_place s c) in H. fold (begin_drawing s c) in H.
  apply bind_Ok in H. destruct H as (d & E & H). apply bind_Ok in H. destruct H as ([c1 er] & E1 & H).
  apply bind_Ok in H. destruct H as (c2 & E2 & H). injection H as <- <-. exists d, c1, er. auto.
Qed.

Lemma loop_planned : forall g s skip c segs v d c1 er c', draw_loop g s v (begin_drawing s c) segs = Ok d ->
  draw_curve g s (d_ctx d) (d_start d) (d_curves d) v = Ok (c1, er) ->
  add_weight_change c1 (move_weight c1) (ticks_of c1 AX) = Ok c' ->
  (forall segs3 p segs4 d3 dn3, segs = segs3 ++ SGoTo p :: segs4 -> draw_loop g s v (begin_drawing s c) segs3 = Ok d3 ->
     draw_runs g s v c (map curves_of dn3) = Ok (d_ctx d3) -> stands s (d_ctx d3) p <-> skip dn3 p) ->
  exists runs c1, plan g skip (machine_place s c) segs runs /\
    draw_runs_err g s v c (0, 0) (map curves_of runs) = Ok (c1, acc_max_err (d_err d) er) /\
    add_weight_change c1 (move_weight c1) (ticks_of c1 AX) = Ok c'.
Proof.
  intros g s skip c segs v d c1 er c' E E1 E2 SK.
  destruct (draw_loop_planned g s v skip c (machine_place s c) segs [] (begin_drawing s c) [] [] d) as (dn & op & D); auto.
  { unfold begin_drawing. constructor; cbn [d_pos d_ctx d_curves d_start d_prev d_err]; auto.
    - exists [], [], None. split; [reflexivity|]. split; [constructor|]. split; [constructor|intros d0 K; discriminate K].
    - split; [reflexivity|]. unfold no_less. cbn [fst snd]. lia. }
  cbn [app] in D. destruct (close_planned _ _ _ _ _ _ _ _ _ _ _ _ D E1) as (B & C & N).
  exists (dn ++ close_pieces (d_start d) op), c1. split; [|auto].
  destruct D as [P _ _ _]. destruct P as (segs0 & part & dir & -> & P & Q & BE).
  exists segs0, dn, (d_start d), dir, part, op, (d_pos d), (d_prev d). auto.
Qed.

Lemma draw_curves_planned : forall g s c segs v c' e, segs <> [] -> draw_curves g s c segs v = Ok (c', e) ->
  exists runs c1, plan g (at_machine g s v c) (machine_place s c) segs runs /\
    draw_runs_err g s v c (0, 0) (map curves_of runs) = Ok (c1, e) /\
    add_weight_change c1 (move_weight c1) (ticks_of c1 AX) = Ok c'.
Proof.
  intros g s c segs v c' e Hne H. destruct (draw_curves_loop _ _ _ _ _ _ _ Hne H) as (d & c1 & er & E & E1 & E2 & ->).
  eapply loop_planned; try eassumption. intros segs3 p segs4 d3 dn3 _ _ R. apply stands_machine, R.
Qed.

(** From some state of the loop, every GoTo takes effect: the machine stands elsewhere
    when the loop comes to it. *)
Definition effect_from (g : geometry) (s : scales) (v : f64) (d0 : drawing) (segs : list segment) : Prop :=
  forall segs0 p segs1 d, segs = segs0 ++ SGoTo p :: segs1 ->
    draw_loop g s v d0 segs0 = Ok d -> ~ stands s (d_ctx d) p.

Lemma loop_no_skip : forall g s c segs v d c1 er c', draw_loop g s v (begin_drawing s c) segs = Ok d ->
  draw_curve g s (d_ctx d) (d_start d) (d_curves d) v = Ok (c1, er) ->
  add_weight_change c1 (move_weight c1) (ticks_of c1 AX) = Ok c' ->
  effect_from g s v (begin_drawing s c) segs ->
  exists runs c1, plan g (fun _ _ => False) (machine_place s c) segs runs /\
    draw_runs_err g s v c (0, 0) (map curves_of runs) = Ok (c1, acc_max_err (d_err d) er) /\
    add_weight_change c1 (move_weight c1) (ticks_of c1 AX) = Ok c'.
Proof.
  intros g s c segs v d c1 er c' E E1 E2 TE. eapply loop_planned; try eassumption.
  intros segs3 p segs4 d3 dn3 ES E3 _. split; [|contradiction]. intros K. exact (TE segs3 p segs4 d3 ES E3 K).
Qed.

Lemma close_nonempty : forall q l, Forall (fun r : fvec * list piece => snd r <> []) (close_pieces q l).
Proof. intros q [|p l]; repeat constructor. cbn. discriminate. Qed.

Lemma plan_nonempty : forall g skip a segs runs, plan g skip a segs runs -> Forall (fun r => snd r <> []) runs.
Proof.
  intros g skip a segs runs (segs0 & runs0 & q & dir & part & l & q' & dir' & -> & -> & P & _).
  apply Forall_app. split; [|apply close_nonempty].
  induction P; [constructor| |]; apply Forall_app; split; auto; apply close_nonempty.
Qed.

Lemma curves_nonempty : forall runs, Forall (fun r : fvec * list piece => snd r <> []) runs ->
  Forall (fun r : run => snd r <> []) (map curves_of runs).
Proof.
  intros runs H. induction H as [|[q l] r H _ IH]; constructor; auto. cbn [curves_of snd] in *.
  destruct l; [congruence|discriminate].
Qed.
