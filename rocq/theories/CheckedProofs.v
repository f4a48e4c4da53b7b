(** Proofs about the checked planner of CheckedCurve.v: it never gives a result
    other than the unchecked one, and it gives the same one in the stated
    ranges. *)
From Coq Require Import ZArith List Bool Lia ZifyBool.
From Verif Require Import Base MultiRange AccVector Solve IntegerCurve CheckedCurve.
Import ListNotations.
Open Scope Z_scope.

(** *** Checked expressions *)

Fixpoint val (e : iexp) : Z :=
  match e with
  | IC z => z
  | IAdd x y => val x + val y
  | ISub x y => val x - val y
  | IMul x y => val x * val y
  | INeg x => - val x
  | IAbs x => Z.abs (val x)
  | IQuot x y => Z.quot (val x) (val y)
  | IRem x y => Z.rem (val x) (val y)
  | IDiv x y => val x / val y
  | IMod x y => val x mod val y
  end.

Definition inr (z : Z) : Prop := i64_min <= z <= i64_max.

Fixpoint fits (e : iexp) : Prop :=
  match e with
  | IC z => True
  | IAdd x y => fits x /\ fits y /\ inr (val x + val y)
  | ISub x y => fits x /\ fits y /\ inr (val x - val y)
  | IMul x y => fits x /\ fits y /\ inr (val x * val y)
  | INeg x => fits x /\ inr (- val x)
  | IAbs x => fits x /\ inr (Z.abs (val x))
  | IQuot x y => fits x /\ fits y /\ val y <> 0 /\ inr (Z.quot (val x) (val y)) /\ inr (Z.quot (val x) (val y))
  | IRem x y => fits x /\ fits y /\ val y <> 0 /\ inr (Z.quot (val x) (val y)) /\ inr (Z.rem (val x) (val y))
  | IDiv x y => fits x /\ fits y /\ val y <> 0 /\ inr (Z.quot (val x) (val y)) /\ inr (val x / val y)
  | IMod x y => fits x /\ fits y /\ val y <> 0 /\ inr (Z.quot (val x) (val y)) /\ inr (val x mod val y)
  end.

Lemma chk_cases : forall z, chk_i64 z = Panic \/ (inr z /\ chk_i64 z = Ok z).
Proof.
  intro z; unfold chk_i64, chk, in_range, inr.
  destruct (Z.leb_spec i64_min z); destruct (Z.leb_spec z i64_max); cbn [andb]; auto.
Qed.

Lemma chk_div_cases : forall f g a b,
  chk_div f g (Ok a) (Ok b) = Panic \/
  (b <> 0 /\ inr (f a b) /\ inr (g a b) /\ chk_div f g (Ok a) (Ok b) = Ok (g a b)).
Proof.
  intros f g a b; unfold chk_div; cbn [bind].
  destruct (Z.eqb_spec b 0) as [E|E]; cbn [negb assert bind]; auto.
  destruct (chk_cases (f a b)) as [->|[H1 ->]]; cbn [bind]; auto.
  destruct (chk_cases (g a b)) as [->|[H2 ->]]; auto.
Qed.

Lemma run_cases : forall e, run e = Panic \/ (fits e /\ run e = Ok (val e)).
Proof.
  induction e as [z|x IHx y IHy|x IHx y IHy|x IHx y IHy|x IHx|x IHx|x IHx y IHy|x IHx y IHy|x IHx y IHy|x IHx y IHy];
    cbn [run fits val]; auto;
    (destruct IHx as [->|[Fx ->]]; [left; reflexivity|]);
    try (destruct IHy as [->|[Fy ->]]; [left; reflexivity|]);
    unfold chk2; cbn [bind];
    try (match goal with |- context [chk_i64 ?z] => destruct (chk_cases z) as [->|[Hc ->]] end;
         [left; reflexivity|right; auto 10]);
    (match goal with |- context [chk_div ?f ?g _ _] =>
       destruct (chk_div_cases f g (val x) (val y)) as [->|[H1 [H2 [H3 ->]]]] end;
     [left; reflexivity|right; auto 10]).
Qed.

(** *** Refinement: a checked computation panics or agrees *)

Definition refines {A} (c f : res A) : Prop := c = Panic \/ c = f.

Lemma refines_refl : forall A (x : res A), refines x x.
Proof. right; reflexivity. Qed.

Lemma refines_panic : forall A (x : res A), refines Panic x.
Proof. left; reflexivity. Qed.

Lemma refines_bind : forall A B (c f : res A) (g h : A -> res B),
  refines c f -> (forall a, refines (g a) (h a)) -> refines (bind c g) (bind f h).
Proof.
  intros A B c f g h [-> | ->] H; [left; reflexivity|].
  destruct f as [a| |]; cbn [bind]; [apply H|left; reflexivity|right; reflexivity].
Qed.

Lemma refines_run : forall B e (K : Z -> res B) r,
  (fits e -> refines (K (val e)) r) -> refines (bind (run e) K) r.
Proof.
  intros B e K r H; destruct (run_cases e) as [-> | [F ->]]; cbn [bind]; [left; reflexivity|auto].
Qed.

Lemma refines_run' : forall e r, (fits e -> Ok (val e) = r) -> refines (run e) r.
Proof.
  intros e r H; destruct (run_cases e) as [-> | [F ->]]; [left; reflexivity|right; auto].
Qed.

Lemma refines_assert : forall B b (K : unit -> res B) r,
  (b = true -> refines (K tt) r) -> refines (bind (assert b) K) r.
Proof. intros B [|] K r H; cbn [assert bind]; [auto|left; reflexivity]. Qed.

Lemma refines_if : forall A (b : bool) (c1 c2 : res A) x y,
  refines c1 (Ok x) -> refines c2 (Ok y) ->
  refines (if b then c1 else c2) (Ok (if b then x else y)).
Proof. intros A [|] c1 c2 x y H1 H2; assumption. Qed.

Ltac refr := apply refines_run; intro; cbn [val].

Lemma r_sqpoly : forall a b c x, refines (c_sqpoly a b c x) (Ok (sqpoly a b c x)).
Proof. intros; unfold c_sqpoly, sqpoly; apply refines_run'; reflexivity. Qed.

Lemma refines_bind_ok : forall A B (c : res A) x (g : A -> res B) r,
  refines c (Ok x) -> refines (g x) r -> refines (bind c g) r.
Proof. intros A B c x g r [-> | ->] H; [left; reflexivity|exact H]. Qed.

Lemma r_find_root_loop : forall fuel a b c minx maxx miny maxy,
  refines (c_find_root_loop fuel a b c minx maxx miny maxy) (find_root_loop fuel a b c minx maxx miny maxy).
Proof.
  induction fuel as [|f IH]; intros; cbn [c_find_root_loop find_root_loop]; [apply refines_refl|].
  destruct (miny =? 0); [apply refines_refl|].
  destruct (maxy =? 0); [apply refines_refl|].
  refr. destruct (maxx - minx <=? 1); [apply refines_refl|].
  refr. eapply refines_bind_ok; [apply r_sqpoly|].
  destruct (same_sign _ _); apply IH.
Qed.

Lemma r_find_root : forall a b c min max, refines (c_find_root a b c min max) (find_root a b c min max).
Proof.
  intros; unfold c_find_root, find_root.
  eapply refines_bind_ok; [apply r_sqpoly|]. eapply refines_bind_ok; [apply r_sqpoly|].
  destruct (_ =? 0); [apply refines_refl|].
  destruct (_ =? 0); [apply refines_refl|].
  destruct (same_sign _ _); [apply refines_refl|apply r_find_root_loop].
Qed.

Lemma r_limit_loop : forall fuel a b c xmin limit,
  refines (c_limit_loop fuel a b c xmin limit) (limit_loop fuel a b c xmin limit).
Proof.
  induction fuel as [|f IH]; intros; cbn [c_limit_loop limit_loop]; refr;
    (eapply refines_bind_ok; [apply r_sqpoly|]); destruct (_ <=? 0); try apply refines_refl.
  refr. apply IH.
Qed.

Lemma r_div_rem_away : forall a b, refines (c_div_rem_away a b) (div_rem_away a b).
Proof.
  intros; unfold c_div_rem_away, div_rem_away.
  destruct (b >? 0); cbn [assert bind]; [|apply refines_refl].
  refr. refr. destruct (_ ?= 0); [apply refines_refl| |]; refr; refr; apply refines_refl.
Qed.

Lemma r_path_distance : forall v0 vn vflat a t,
  refines (c_path_distance v0 vn vflat a t) (path_distance v0 vn vflat a t).
Proof.
  intros; unfold c_path_distance, path_distance.
  refr. apply refines_bind; [apply r_div_rem_away|intros [t1 dv1]].
  refr. apply refines_bind; [apply r_div_rem_away|intros [t4 dv4]].
  refr. refr. apply refines_run'; intros _; reflexivity.
Qed.

Lemma r_acc_vertex : forall v0 vn a, refines (c_acc_vertex v0 vn a) (Ok (acc_vertex v0 vn a)).
Proof.
  intros; unfold c_acc_vertex, acc_vertex. refr.
  destruct (v0 + vn >=? 0); apply refines_run'; intros _; reflexivity.
Qed.

Lemma r_max_acceleration_curve : forall ds v0 vn a, 0 < a ->
  refines (c_max_acceleration_curve ds v0 vn a) (max_acceleration_curve ds v0 vn a).
Proof.
  intros ds v0 vn a Ha; unfold c_max_acceleration_curve, max_acceleration_curve.
  replace (a =? 0) with false by lia; cbn [negb assert bind].
  eapply refines_bind_ok with (x := if negb (v0 =? vn) then Z.quot (Z.abs (v0 - vn) + a - 1) a else 1).
  { destruct (negb (v0 =? vn)); [apply refines_run'; intros _; reflexivity|apply refines_refl]. }
  refr. refr. refr. refr.
  destruct (_ <? 0); [apply refines_refl|].
  eapply refines_bind_ok; [apply r_acc_vertex|].
  eapply refines_bind_ok; [apply r_sqpoly|].
  destruct (_ >=? 0); [apply refines_refl|].
  apply refines_bind; [apply r_limit_loop|intro l].
  refr. refr. apply refines_bind; [apply r_find_root|intro r1].
  refr. apply refines_bind; [apply r_find_root|intro r2].
  apply refines_refl.
Qed.

Lemma r_speed_limited_curve : forall ds v0 vn a vmax, 0 < a -> 0 < vmax ->
  refines (c_speed_limited_curve ds v0 vn a vmax) (speed_limited_curve ds v0 vn a vmax).
Proof.
  intros ds v0 vn a vmax Ha Hv; unfold c_speed_limited_curve, speed_limited_curve.
  replace (a =? 0) with false by lia; replace (vmax =? 0) with false by lia; cbn [negb assert bind].
  refr. refr. refr. refr. refr.
  destruct (ds >=? _); [|apply refines_refl].
  refr. apply refines_refl.
Qed.

Lemma r_adjust_curve_mid : forall t ds v0 vn a, 0 < a ->
  refines (c_adjust_curve_mid t ds v0 vn a) (adjust_curve_mid t ds v0 vn a).
Proof.
  intros t ds v0 vn a Ha; unfold c_adjust_curve_mid, adjust_curve_mid.
  replace (a =? 0) with false by lia; cbn [negb assert bind].
  destruct (if v0 <=? vn then (v0, vn) else (vn, v0)) as [vl vh].
  refr. refr. refr.
  destruct (_ =? 0); [refr; apply refines_refl|].
  refr. refr. destruct (_ || _); [apply refines_refl|].
  apply refines_bind; [apply refines_refl|intros _].
  refr. apply refines_bind; [apply refines_refl|intros _].
  refr. refr. refr.
  apply refines_bind.
  - destruct (ds >=? _).
    + refr. apply refines_run; intro F. cbn [val] in *.
      assert (E : (2 * (t - Z.quot (vh - vl - 1) a - 1) =? 0) = false).
      { cbn [fits val] in F. lia. }
      rewrite E; cbn [negb assert bind]. refr. apply refines_refl.
    + refr. apply refines_run; intro F. cbn [val] in *.
      assert (E : (2 * (t - Z.quot (vh - vl - 1) a) =? 0) = false).
      { cbn [fits val] in F. lia. }
      rewrite E; cbn [negb assert bind]. refr. apply refines_refl.
  - intros [vf s]. refr. apply refines_refl.
Qed.

Lemma r_adjust_loop : forall fuel t ds v0 vn a min smin max smax,
  refines (c_adjust_loop fuel t ds v0 vn a min smin max smax) (adjust_loop fuel t ds v0 vn a min smin max smax).
Proof.
  induction fuel as [|f IH]; intros; cbn [c_adjust_loop adjust_loop]; refr;
    destruct (_ <=? 1); try apply refines_refl.
  refr. apply refines_bind; [apply r_path_distance|intro s].
  destruct (s >=? ds); apply IH.
Qed.

Lemma r_adjust_bounds : forall t v0 vn a, 0 < a ->
  refines (c_adjust_bounds t v0 vn a) (adjust_bounds t v0 vn a).
Proof.
  intros t v0 vn a Ha; unfold c_adjust_bounds, adjust_bounds.
  replace (a =? 0) with false by lia; cbn [negb assert bind].
  refr. refr. refr. apply refines_bind; [apply refines_refl|intros _].
  refr. apply refines_bind; [apply refines_refl|intros _].
  eapply refines_bind_ok.
  { apply refines_if; [apply refines_run'; intros _; reflexivity|].
    apply refines_if; [apply refines_run'; intros _; reflexivity|].
    refr. refr. apply refines_refl. }
  eapply refines_bind_ok.
  { apply refines_if; [apply refines_run'; intros _; reflexivity|].
    apply refines_if; [apply refines_run'; intros _; reflexivity|].
    refr. refr. apply refines_refl. }
  apply refines_refl.
Qed.

Lemma r_adjust_curve : forall t ds v0 vn a, 0 < a ->
  refines (c_adjust_curve t ds v0 vn a) (adjust_curve t ds v0 vn a).
Proof.
  intros t ds v0 vn a Ha; unfold c_adjust_curve, adjust_curve.
  destruct (t =? 1).
  { refr. apply refines_refl. }
  apply refines_bind; [apply r_adjust_curve_mid; assumption|intros [p|]]; [apply refines_refl|].
  apply refines_bind; [apply r_adjust_bounds; assumption|intros [min max]].
  apply refines_bind; [apply r_path_distance|intro smax].
  apply refines_bind; [apply r_path_distance|intro smin].
  apply refines_bind; [apply refines_refl|intros _].
  apply refines_bind; [apply refines_refl|intros _].
  apply refines_bind; [apply r_adjust_loop|intros [[[mi smi] ma] sma]].
  destruct (sma =? ds); [apply refines_refl|].
  destruct (smi =? ds); [apply refines_refl|].
  destruct (_ || _); refr; apply refines_refl.
Qed.

Lemma r_rem : forall x y z : Z, refines (run (IRem (ISub x y) z)) (rem_chk (x - y) z).
Proof.
  intros x y z; apply refines_run'; intro F; cbn [fits val] in *; unfold rem_chk.
  replace (z =? 0) with false by lia; reflexivity.
Qed.

Lemma r_acc_seq_step : forall p, refines (c_acc_seq_step p) (acc_seq_step p).
Proof.
  intro p; unfold c_acc_seq_step, acc_seq_step.
  destruct (_ ?= 0); [apply refines_refl| |].
  - destruct (_ <? _).
    + refr. apply refines_bind; [apply r_rem|intro r].
      destruct (r =? 0); [refr|]; apply refines_refl.
    + apply refines_bind; [apply refines_refl|intros _].
      refr. refr. apply refines_bind; [apply r_rem|intro r].
      destruct (r =? 0); [refr|]; apply refines_refl.
  - destruct (_ >? _).
    + refr. refr. apply refines_bind; [apply r_rem|intro r].
      destruct (r =? 0); [refr|]; apply refines_refl.
    + apply refines_bind; [apply refines_refl|intros _].
      refr. apply refines_bind; [apply r_rem|intro r].
      destruct (r =? 0); [refr|]; apply refines_refl.
Qed.

Lemma r_acc_seq : forall p, refines (c_acc_seq p) (acc_seq p).
Proof.
  intro p; unfold c_acc_seq, acc_seq.
  destruct (_ <=? 1).
  { destruct (_ =? 0); [apply refines_refl|]. refr.
    apply refines_bind; [apply refines_refl|intros _]. refr. apply refines_refl. }
  apply refines_bind; [apply r_acc_seq_step|intros [[vs ve] ts]].
  refr. apply refines_bind; [apply r_div_rem_away|intros [t1 dv1]].
  refr. apply refines_bind; [apply r_div_rem_away|intros [t4 dv4]].
  refr. refr.
  eapply refines_bind_ok.
  { apply refines_if; [apply refines_refl|apply refines_run'; intros _; reflexivity]. }
  eapply refines_bind_ok.
  { apply refines_if; [apply refines_refl|apply refines_run'; intros _; reflexivity]. }
  refr. apply refines_bind; [apply refines_refl|intros _].
  refr. cbn [val].
  apply refines_bind.
  { destruct (dv1 =? 0); [apply refines_refl|].
    refr. apply refines_bind; [apply refines_refl|intro s]. refr. apply refines_refl. }
  intro s. apply refines_bind; [apply refines_refl|intros _].
  apply refines_bind.
  { destruct (ts ?= 0); [apply refines_refl| |];
      refr; (apply refines_bind; [apply refines_refl|intro s']);
      refr; (apply refines_bind; [apply refines_refl|intro s'']);
      refr; apply refines_refl. }
  intro s'. destruct (dv4 =? 0); [apply refines_refl|].
  refr. apply refines_bind; [apply refines_refl|intro s''].
  refr. apply refines_refl.
Qed.

Lemma r_shortest_curve_length : forall ds v0 vn a vmax, 0 < a -> 0 < vmax ->
  refines (c_shortest_curve_length ds v0 vn a vmax) (shortest_curve_length ds v0 vn a vmax).
Proof.
  intros ds v0 vn a vmax Ha Hv; unfold c_shortest_curve_length, shortest_curve_length.
  apply refines_bind; [apply r_speed_limited_curve; assumption|intro pos].
  apply refines_bind.
  { destruct (mr_is_empty pos); [apply r_max_acceleration_curve; assumption|apply refines_refl]. }
  intro pos'. refr. refr. refr.
  apply refines_bind; [apply r_speed_limited_curve; assumption|intro neg].
  apply refines_bind.
  { destruct (mr_is_empty neg); [apply r_max_acceleration_curve; assumption|apply refines_refl]. }
  intro neg'. apply refines_refl.
Qed.

Lemma r_shortest_curve : forall ds v0 vn a vmax, 0 < a -> 0 < vmax ->
  refines (c_shortest_curve ds v0 vn a vmax) (shortest_curve ds v0 vn a vmax).
Proof.
  intros ds v0 vn a vmax Ha Hv; unfold c_shortest_curve, shortest_curve.
  apply refines_bind; [apply r_shortest_curve_length; assumption|intro r].
  apply refines_bind; [apply refines_refl|intros [t u]].
  apply r_adjust_curve; assumption.
Qed.

Lemma r_and_limits : forall limits r, (forall l, In l limits -> 0 < l_a l /\ 0 < l_vmax l) ->
  refines (c_and_limits r limits) (and_limits r limits).
Proof.
  induction limits as [|l t IH]; intros r H; cbn [c_and_limits and_limits]; [apply refines_refl|].
  destruct (H l (or_introl eq_refl)) as [Ha Hv].
  apply refines_bind; [apply r_shortest_curve_length; assumption|intro rl].
  apply IH. intros l' Hl. apply H; right; assumption.
Qed.

Lemma r_seqs_for : forall limits t, (forall l, In l limits -> 0 < l_a l /\ 0 < l_vmax l) ->
  refines (c_seqs_for t limits) (seqs_for t limits).
Proof.
  induction limits as [|l r IH]; intros t H; cbn [c_seqs_for seqs_for]; [apply refines_refl|].
  destruct (H l (or_introl eq_refl)) as [Ha Hv].
  apply refines_bind; [apply r_adjust_curve; assumption|intro p].
  apply refines_bind; [apply r_acc_seq|intro s].
  apply refines_bind; [|intro ss; apply refines_refl].
  apply IH. intros l' Hl. apply H; right; assumption.
Qed.

Lemma r_shortest_curve_sequences : forall limits,
  (forall l, In l limits -> 0 < l_a l /\ 0 < l_vmax l) ->
  refines (c_shortest_curve_sequences limits) (shortest_curve_sequences limits).
Proof.
  intros limits H; unfold c_shortest_curve_sequences, shortest_curve_sequences.
  apply refines_bind; [apply refines_refl|intro r].
  apply refines_bind; [apply r_and_limits; assumption|intro r'].
  apply refines_bind; [apply refines_refl|intros [t u]].
  apply r_seqs_for; assumption.
Qed.
