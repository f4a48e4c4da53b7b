(** Properties C01-C04: MultiRange (src/multi_range.rs). *)
From Coq Require Import ZArith List Lia.
From Verif Require Import Base MultiRange MultiRangeSpec MultiRangeProofs.
Import ListNotations.
Open Scope Z_scope.

(** A caller's history of [or] / [or_slice] calls. *)
Inductive mr_call := COr (l h : Z) | COrSlice (rs : list (Z * Z)).

Definition mr_call_step (r : mrange) (c : mr_call) : res mrange :=
  match c with
  | COr l h => mr_or r l h
  | COrSlice a => mr_or_slice r a
  end.

Fixpoint mr_calls (r : mrange) (cs : list mr_call) : res mrange :=
  match cs with
  | [] => Ok r
  | c :: t => let! r' := mr_call_step r c in mr_calls r' t
  end.

(** Everything the caller asked for. *)
Definition added (c : mr_call) : list (Z * Z) :=
  match c with COr l h => [(l, h)] | COrSlice a => a end.

Lemma mr_calls_spec : forall cs r, ordered r ->
  (forall c l h, In c cs -> In (l, h) (added c) -> l <= h) ->
  exists r', mr_calls r cs = Ok r' /\ ordered r' /\
    forall x, covers r' x <-> covers r x \/ covers (flat_map added cs) x.
Proof.
  induction cs as [|c t IH]; intros r Ho H.
  - exists r. cbn. repeat split; auto. intros [Hc|Hc]; auto. apply covers_nil in Hc; tauto.
  - assert (Hstep : exists r', mr_call_step r c = Ok r' /\ ordered r' /\
              forall x, covers r' x <-> covers r x \/ covers (added c) x).
    { destruct c as [l h|a]; cbn [mr_call_step added].
      - destruct (mr_or_ordered r l h Ho) as (r' & E & O & C).
        + apply (H (COr l h)); left; auto.
        + exists r'. repeat split; auto; rewrite C; intros Hx.
          * destruct Hx as [Hx|Hx]; auto. right. exists l, h. split; [left|]; auto.
          * destruct Hx as [Hx|(l' & h' & [E'|[]] & Hx)]; auto. inversion E'; subst; auto.
      - destruct (mr_or_slice_spec a r Ho) as (r' & E & O & C).
        + intros l h Hin. apply (H (COrSlice a) l h); [left|]; auto.
        + exists r'. auto. }
    destruct Hstep as (r1 & E1 & O1 & C1).
    destruct (IH r1 O1) as (r' & E & O & C).
    { intros c' l h Hin; apply H; right; auto. }
    exists r'. cbn [mr_calls flat_map]. rewrite E1. cbn [bind]. repeat split; auto.
    + rewrite C, C1, covers_app. tauto.
    + rewrite C, C1, covers_app. tauto.
Qed.

(** C01 *)
Theorem C01_or_is_union : forall cs,
  (forall c l h, In c cs -> In (l, h) (added c) -> l <= h) ->
  exists r, mr_calls mr_new cs = Ok r /\ ordered r /\
    forall x, covers r x <->
      exists c l h, In c cs /\ In (l, h) (added c) /\ l <= x < h.
Proof.
  intros cs H. destruct (mr_calls_spec cs mr_new (ord_nil)) as (r & E & O & C); auto.
  exists r. repeat split; auto; rewrite C.
  - intros [Hx|(l & h & Hin & Hx)]; [apply covers_nil in Hx; tauto|].
    apply in_flat_map in Hin. destruct Hin as (c & Hc & Hin). eauto 8.
  - intros (c & l & h & Hc & Hin & Hx). right. exists l, h. split; auto.
    apply in_flat_map. eauto.
Qed.

(** Inverted bounds are rejected loudly. *)
Theorem C01_or_rejects_inverted : forall r l h, h < l -> mr_or r l h = Panic.
Proof. exact mr_or_panics. Qed.

Example C01_example :
  mr_calls mr_new [COr 5 7; COrSlice [(1, 3); (20, 30)]; COr 3 4; COr 6 20; COr 40 41]
  = Ok [(1, 4); (5, 30); (40, 41)].
Proof. reflexivity. Qed.

(** C02 *)
Theorem C02_and_is_intersection : forall r l h, ordered r -> l <= h ->
  ordered (mr_and r l h) /\
  (forall x, covers (mr_and r l h) x <-> covers r x /\ l <= x < h).
Proof. exact mr_and_ordered. Qed.

Theorem C02_and_keeps_nonempty : forall r l h, ordered r -> nonempty_ranges r -> l < h ->
  nonempty_ranges (mr_and r l h).
Proof. exact mr_and_nonempty. Qed.

Example C02_example :
  ordered [(1, 4); (5, 30); (40, 41)] /\
  mr_and [(1, 4); (5, 30); (40, 41)] 3 8 = [(3, 4); (5, 8)].
Proof. split; [repeat constructor; lia|reflexivity]. Qed.

(** C03 *)
Theorem C03_and_range_is_intersection : forall a b, ordered a -> ordered b ->
  ordered (mr_and_range a b) /\
  (forall x, covers (mr_and_range a b) x <-> covers a x /\ covers b x).
Proof. exact mr_and_range_ordered. Qed.

Theorem C03_and_range_commutes : forall a b, ordered a -> ordered b ->
  forall x, covers (mr_and_range a b) x <-> covers (mr_and_range b a) x.
Proof.
  intros a b Ha Hb x.
  destruct (mr_and_range_ordered a b Ha Hb) as [_ H1].
  destruct (mr_and_range_ordered b a Hb Ha) as [_ H2].
  rewrite H1, H2. tauto.
Qed.

Theorem C03_and_range_keeps_nonempty : forall a b, ordered a -> ordered b ->
  nonempty_ranges a -> nonempty_ranges b -> nonempty_ranges (mr_and_range a b).
Proof. exact mr_and_range_nonempty. Qed.

Example C03_example :
  mr_and_range [(1, 10); (12, 20); (25, 26)] [(0, 2); (4, 5); (8, 15); (18, 40)]
  = [(1, 2); (4, 5); (8, 10); (12, 15); (18, 20); (25, 26)].
Proof. reflexivity. Qed.

(** C04 *)
Theorem C04_bounds_is_hull : forall r, ordered r -> nonempty_ranges r ->
  match mr_bounds r with
  | None => forall x, ~ covers r x
  | Some (l, h) =>
      covers r l /\ covers r (h - 1) /\ (forall x, covers r x -> l <= x < h)
  end.
Proof. exact mr_bounds_spec. Qed.

Theorem C04_is_empty : forall r, ordered r -> nonempty_ranges r ->
  (mr_is_empty r = true <-> forall x, ~ covers r x).
Proof. exact mr_is_empty_spec. Qed.

Example C04_example : mr_bounds [(1, 4); (5, 30); (40, 41)] = Some (1, 41).
Proof. reflexivity. Qed.

Print Assumptions C01_or_is_union.
Print Assumptions C01_or_rejects_inverted.
Print Assumptions C02_and_is_intersection.
Print Assumptions C02_and_keeps_nonempty.
Print Assumptions C03_and_range_is_intersection.
Print Assumptions C03_and_range_commutes.
Print Assumptions C03_and_range_keeps_nonempty.
Print Assumptions C04_bounds_is_hull.
Print Assumptions C04_is_empty.
