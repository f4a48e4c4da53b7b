(** Property C102: how draw_curves divides segments into runs. *)
From Coq Require Import ZArith List Bool Lia.
From Verif Require Import Base Floats AccVector IntegerCurve StepperContext MachineSpec ContextHist ApproxCurve DrawCurves
  ApproxProofs PropsApprox DrawProofs PropsDraw DrawPlan.
Import ListNotations.
Open Scope Z_scope.

(** ** C102: runs end at moves and at bends, and nowhere else *)

(** The segments are divided as [plan] (DrawPlan.v) says, and the runs are drawn one
    after the other. *)
Theorem C102_plan : forall g s c segs v c' e, segs <> [] -> draw_curves g s c segs v = Ok (c', e) ->
  exists runs c1, plan g (at_machine g s v c) (machine_place s c) segs runs /\
    draw_runs_err g s v c (0, 0) (map curves_of runs) = Ok (c1, e) /\
    add_weight_change c1 (move_weight c1) (ticks_of c1 AX) = Ok c'.
Proof. exact draw_curves_planned. Qed.

(** There is no other way to divide them. *)
Definition at_state (g : geometry) (skip : list (fvec * list piece) -> fvec -> Prop) (pos : fvec) (segs : list segment)
    (runs : list (fvec * list piece)) (q : fvec) (l : list piece) (cur : fvec) (prev : option fvec) : Prop :=
  exists segs0 part dir, segs = segs0 ++ part /\ parts g skip pos segs0 runs q dir /\
    run_of g (skip runs) q None part l cur prev /\ bends g q dir part l.

Lemma run_of_split : forall g skip s1 a x s2 l b y, run_of g skip a x (s1 ++ s2) l b y ->
  exists l1 l2 c z, l = l1 ++ l2 /\ run_of g skip a x s1 l1 c z /\ run_of g skip c z s2 l2 b y.
Proof.
  intros g skip. induction s1 as [|sg s1 IH]; intros a x s2 l b y H; cbn [app] in H.
  - exists [], l, a, x. split; [reflexivity|]. split; [constructor|exact H].
  - inversion H; subst; clear H.
    1,2: match goal with K : run_of _ _ _ _ _ _ _ _ |- _ => apply IH in K; destruct K as (l1 & l2 & c & z & -> & A & B) end;
      exists l1, l2, c, z; split; [reflexivity|]; split; [constructor; assumption|exact B].
    match goal with K : run_of _ _ _ _ _ _ _ _ |- _ => apply IH in K; destruct K as (l1 & l2 & c & z & -> & A & B) end.
    eexists (_ :: l1). exists l2, c, z. split; [|split; [eapply ro_draw; eassumption|exact B]]. reflexivity.
Qed.

(** What one more segment does. *)
Inductive next_state (g : geometry) (skip : list (fvec * list piece) -> fvec -> Prop) (x : segment)
  : list (fvec * list piece) * fvec * list piece * fvec * option fvec ->
    list (fvec * list piece) * fvec * list piece * fvec * option fvec -> Prop :=
| ns_moved : forall runs q l cur prev p, x = SGoTo p -> ~ skip runs p ->
    next_state g skip x (runs, q, l, cur, prev) (runs ++ close_pieces q l, p, [], p, None)
| ns_skip : forall runs q l cur prev p, x = SGoTo p -> skip runs p ->
    next_state g skip x (runs, q, l, cur, prev) (runs, q, l, cur, prev)
| ns_short : forall runs q l cur prev p, x = SCloseTo p -> flt (fvlength (fvsub cur p)) short = true ->
    next_state g skip x (runs, q, l, cur, prev) (runs, q, l, p, prev)
| ns_draw : forall runs q l cur prev curve next p0 sd p1 ed,
    (forall p, x = SCloseTo p -> flt (fvlength (fvsub cur p)) short = false) ->
    seg_info g x cur = Ok (Some (curve, next)) ->
    fc_value curve fzero = Ok (p0, sd) -> fc_value curve (fc_length curve) = Ok (p1, ed) ->
    (forall d, prev = Some d -> flt (fdot sd d) min_cos_connect = false) ->
    next_state g skip x (runs, q, l, cur, prev) (runs, q, l ++ [(cur, x, curve)], next, Some ed)
| ns_bend : forall runs q l cur d curve next p0 sd p1 ed,
    (forall p, x = SCloseTo p -> flt (fvlength (fvsub cur p)) short = false) ->
    seg_info g x cur = Ok (Some (curve, next)) ->
    fc_value curve fzero = Ok (p0, sd) -> fc_value curve (fc_length curve) = Ok (p1, ed) ->
    flt (fdot sd d) min_cos_connect = true ->
    next_state g skip x (runs, q, l, cur, Some d) (runs ++ close_pieces q l, cur, [(cur, x, curve)], next, Some ed).

Lemma next_state_unique : forall g skip x a b b', next_state g skip x a b -> next_state g skip x a b' -> b = b'.
Proof.
  intros g skip x a b b' H K. destruct H; inversion K; subst; try congruence;
    repeat match goal with E : SGoTo _ = SGoTo _ |- _ => injection E as -> | E : SCloseTo _ = SCloseTo _ |- _ => injection E as ->
    | E : Some _ = Some _ |- _ => injection E as <- end;
    try match goal with E : seg_info _ (SGoTo _) _ = _ |- _ => discriminate E end;
    try congruence;
    try match goal with A : forall p, ?y = SCloseTo p -> _, E : ?y = SCloseTo _ |- _ => rewrite (A _ E) in *; discriminate end;
    try match goal with A : forall q, SCloseTo ?p = SCloseTo q -> _ |- _ => specialize (A p eq_refl); congruence end;
    repeat match goal with A : seg_info _ _ _ = Ok (Some (_, _)), B : seg_info _ _ _ = Ok (Some (_, _)) |- _ => rewrite A in B; injection B as <- <- end;
    repeat match goal with A : fc_value ?c ?z = Ok (_, _), B : fc_value ?c ?z = Ok (_, _) |- _ => rewrite A in B; injection B as <- <- end;
    try match goal with A : forall d, Some ?e = Some d -> _ |- _ => specialize (A e eq_refl); congruence end.
  all: reflexivity.
Qed.

Lemma at_state_back : forall g skip pos segs x runs q l cur prev, at_state g skip pos (segs ++ [x]) runs q l cur prev ->
  exists runs' q' l' cur' prev', at_state g skip pos segs runs' q' l' cur' prev' /\
    next_state g skip x (runs', q', l', cur', prev') (runs, q, l, cur, prev).
Proof.
  intros g skip pos segs x runs q l cur prev (segs0 & part & dir & E & P & R & B).
  destruct part as [|y0 part0].
  - rewrite app_nil_r in E. inversion R; subst. 
    assert (D : dir = None).
    { destruct dir as [d|]; [|reflexivity]. destruct (B d eq_refl) as (? & ? & ? & ? & ? & ? & ? & K & _). discriminate K. }
    subst dir. inversion P as [|pos1 segs1 runs1 q1 dir1 part1 l1 q1' dir1' p P1 R1 B1 NS EP ES ER EQ ED|]; subst.
    { destruct segs; discriminate. }
    rewrite app_assoc in ES. apply app_inj_tail in ES. destruct ES as [<- <-].
    exists runs1, q1, l1, q1', dir1'. split; [exists segs1, part1, dir1; auto|]. econstructor; eauto.
  - destruct (@exists_last _ (y0 :: part0) ltac:(discriminate)) as (part' & y & EP). rewrite EP in *. clear EP y0 part0.
    rewrite app_assoc in E. apply app_inj_tail in E. destruct E as [-> <-].
    apply run_of_split in R. destruct R as (l1 & l2 & c & z & -> & R1 & R2).
    assert (CASE : (bends g q dir part' l1) \/ (part' = [] /\ l1 = [] /\ exists d, dir = Some d)).
    { destruct dir as [d|]; [|left; intros d K; discriminate K].
      destruct part' as [|sg part'']; [right; inversion R1; eauto|]. left.
      intros d' K. injection K as <-. destruct (B d eq_refl) as (sg' & curve & next & p' & l' & p0 & sd & E1 & E2 & NS & EI & V & F).
      cbn [app] in E1. injection E1 as <- <-. inversion R1; subst.
      - discriminate EI.
      - specialize (NS _ eq_refl). congruence.
      - cbn [app] in E2. injection E2 as <- <-.
        do 7 eexists. split; [reflexivity|]. split; [reflexivity|]. split; [exact NS|]. split; [exact EI|]. split; [exact V|exact F]. }
    destruct CASE as [BE|(-> & -> & d & ->)].
    + exists runs, q, l1, c, z. split; [exists segs0, part', dir; auto|].
      inversion R2 as [|? ? ? ? ? ? ? SK R3|? ? ? ? ? ? ? SH R3|? ? ? ? ? ? ? ? ? ? ? ? ? NS EI V0 V1 SM R3]; subst;
        inversion R3; subst; rewrite ?app_nil_r.
      * eapply ns_skip; eauto.
      * eapply ns_short; eauto.
      * eapply ns_draw; eauto.
    + inversion R1; subst. rewrite app_nil_r. cbn [app] in *.
      inversion P as [| |pos1 segs1 runs1 q1 dir1 part1 l1 q1' d1 P1 Q1 B1]; subst.
      exists runs1, q1, l1, c, (Some d). split; [exists segs1, part1, dir1; auto|].
      destruct (B d eq_refl) as (sg' & curve & next & p' & l' & p0 & sd & E1 & E2 & NS & EI & V & F).
      injection E1 as <- <-.
      inversion R2 as [|? ? ? ? ? ? ? SK R3|? ? ? ? ? ? ? SH R3|? ? ? ? ? ? ? ? ? ? ? ? ? NS' EI' V0 V1 SM R3]; subst.
      * discriminate EI.
      * specialize (NS _ eq_refl). congruence.
      * inversion R3; subst. rewrite EI in EI'. injection EI' as <- <-. injection H3 as <-. rewrite V in V0. injection V0 as <- <-.
        eapply ns_bend; eauto.
Qed.

Lemma at_state_unique : forall g skip pos segs runs q l cur prev runs' q' l' cur' prev',
  at_state g skip pos segs runs q l cur prev -> at_state g skip pos segs runs' q' l' cur' prev' ->
  (runs, q, l, cur, prev) = (runs', q', l', cur', prev').
Proof.
  intros g skip pos. induction segs as [|x segs IH] using rev_ind; intros runs q l cur prev runs' q' l' cur' prev' H K.
  - assert (X : forall runs q l cur prev, at_state g skip pos [] runs q l cur prev ->
      (runs, q, l, cur, prev) = ([], pos, [], pos, None)).
    { clear. intros runs q l cur prev (segs0 & part & dir & E & P & R & B). symmetry in E. apply app_eq_nil in E.
      destruct E as [-> ->]. inversion R; subst.
      assert (D : dir = None).
      { destruct dir as [d|]; [|reflexivity]. destruct (B d eq_refl) as (? & ? & ? & ? & ? & ? & ? & K & _). discriminate K. }
      subst dir. inversion P as [|? ? ? ? ? part1 ? ? ? p ? ? ? ? EP ES|]; subst; [reflexivity|].
      destruct segs; [destruct part1; discriminate|discriminate]. }
    rewrite (X _ _ _ _ _ H), (X _ _ _ _ _ K). reflexivity.
  - apply at_state_back in H, K. destruct H as (r1 & q1 & l1 & c1 & p1 & H & HN). destruct K as (r2 & q2 & l2 & c2 & p2 & K & KN).
    pose proof (IH _ _ _ _ _ _ _ _ _ _ H K) as E. rewrite <- E in KN. eapply next_state_unique; eauto.
Qed.

Theorem C102_unique : forall g skip pos segs runs runs', plan g skip pos segs runs -> plan g skip pos segs runs' -> runs = runs'.
Proof.
  intros g skip pos segs runs runs' (s0 & r0 & q & d & p & l & c & z & -> & -> & P & R & B)
    (s1 & r1 & q1 & d1 & p1 & l1 & c1 & z1 & E & -> & P1 & R1 & B1).
  assert (X : (r0, q, l, c, z) = (r1, q1, l1, c1, z1)).
  { apply (at_state_unique g skip pos (s0 ++ p)); [exists s0, p, d; auto|exists s1, p1, d1; auto]. }
  injection X as -> -> -> _ _. reflexivity.
Qed.

(** A line, a move ahead in the same direction and another line: two runs. *)
Example C102_example : exists c' e,
  draw_curves lines_only sc1 laser [SLineTo (pt 100 0); SGoTo (pt 200 0); SLineTo (pt 300 0)] (f_of_Z 10) = Ok (c', e) /\
  forall skip runs, (forall r p, skip r p <-> False) ->
    plan lines_only skip (pt 0 0) [SLineTo (pt 100 0); SGoTo (pt 200 0); SLineTo (pt 300 0)] runs ->
    map (fun r => (fst r, length (snd r))) runs = [(pt 0 0, 1%nat); (pt 200 0, 1%nat)].
Proof.
  eexists. eexists. split; [vm_compute; reflexivity|]. intros skip runs NS P.
  assert (R : forall sk a b, exists d, run_of lines_only sk a None [SLineTo b] [(a, SLineTo b, fline (fvsub b a))] b d).
  { intros sk a b. eexists. eapply ro_draw; try reflexivity; try discriminate. constructor. }
  destruct (R (skip []) (pt 0 0) (pt 100 0)) as (d1 & R1).
  set (r1 := close_pieces (pt 0 0) [(pt 0 0, SLineTo (pt 100 0), fline (fvsub (pt 100 0) (pt 0 0)))]).
  destruct (R (skip r1) (pt 200 0) (pt 300 0)) as (d2 & R2).
  assert (NB : forall q part l, bends lines_only q None part l) by (intros q part l d K; discriminate K).
  assert (P' : plan lines_only skip (pt 0 0) ([SLineTo (pt 100 0); SGoTo (pt 200 0)] ++ [SLineTo (pt 300 0)])
    (r1 ++ close_pieces (pt 200 0) [(pt 200 0, SLineTo (pt 300 0), fline (fvsub (pt 300 0) (pt 200 0)))])).
  { do 8 eexists. split; [reflexivity|]. split; [reflexivity|]. split; [|split; [exact R2|apply NB]].
    apply (pa_goto lines_only skip (pt 0 0) [] [] (pt 0 0) None _ _ _ _ (pt 200 0) (pa_nil _ _ _) R1 (NB _ _ _)).
    intros K. apply NS in K. exact K. }
  rewrite (C102_unique _ _ _ _ _ _ P P'). reflexivity.
Qed.

Print Assumptions C102_plan.
Print Assumptions C102_unique.
