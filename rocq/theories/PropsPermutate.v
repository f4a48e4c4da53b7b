(** C123: what the macro [permutate!] of permutate.rs calls. *)
From Coq Require Import ZArith List Lia PeanoNat FinFun.
From Verif Require Import Permutate.
Import ListNotations.
Local Open Scope nat_scope.

(** The digits of [k] in the mixed radix given by the lengths, last fastest. *)
Fixpoint volume (ls : list nat) : nat :=
  match ls with [] => 1 | l :: r => l * volume r end.

Fixpoint digits (ls : list nat) (k : nat) : list nat :=
  match ls with
  | [] => []
  | _ :: r => k / volume r :: digits r (k mod volume r)
  end.

Section Calls.
Variable A : Type.

(** [xs] takes from each vector the element with the index in [ds]. *)
Inductive picked : list (list A) -> list nat -> list A -> Prop :=
| picked_nil : picked [] [] []
| picked_cons v vs d ds x xs :
    nth_error v d = Some x -> picked vs ds xs -> picked (v :: vs) (d :: ds) (x :: xs).

(** All combinations, the first vector slowest. *)
Fixpoint combos (vs : list (list A)) : list (list A) :=
  match vs with
  | [] => [[]]
  | v :: r => flat_map (fun x => map (cons x) (combos r)) v
  end.

Lemma values_app e a b xs ys :
  values A e a = Some xs -> values A e b = Some ys -> values A e (a ++ b) = Some (xs ++ ys).
Proof.
  revert xs; induction a as [|k a IH]; intros xs H1 H2; cbn in *.
  - injection H1 as <-; exact H2.
  - destruct (e k); [|discriminate]. destruct (values A e a) as [zs|]; [|discriminate].
    injection H1 as <-. rewrite (IH zs eq_refl H2). reflexivity.
Qed.

Lemma values_bind e a q x :
  (forall k, In k a -> k < q) -> values A (bind A e q x) a = values A e a.
Proof.
  induction a as [|k a IH]; intros H; [reflexivity|]. cbn.
  rewrite IH by (intros; apply H; right; assumption).
  unfold bind. destruct (Nat.eqb_spec k q) as [->|_]; [|reflexivity].
  specialize (H q (or_introl eq_refl)); lia.
Qed.

Lemma run_for e q v b (f : A -> list (list A)) :
  (forall x, run A (bind A e q x) b = Some (f x)) ->
  run A e (For A q v b) = Some (flat_map f v).
Proof.
  intros H. induction v as [|x v IH]; [reflexivity|].
  cbn in IH |- *. rewrite H. rewrite IH. reflexivity.
Qed.

Lemma expands : forall vs q a,
  vs <> [] -> (forall k, In k a -> k < q) ->
  exists c, permutate A q vs a = Some c /\
    forall e xs, values A e a = Some xs ->
      run A e c = Some (map (app xs) (combos vs)).
Proof.
  induction vs as [|v vs IH]; intros q a N L; [congruence|].
  assert (B : forall e xs x, values A e a = Some xs ->
      values A (bind A e q x) (a ++ [q]) = Some (xs ++ [x])).
  { intros e xs x V. apply values_app.
    - rewrite values_bind by exact L. exact V.
    - cbn. unfold bind. rewrite Nat.eqb_refl. reflexivity. }
  assert (R : forall b,
     (forall e xs, values A e (a ++ [q]) = Some xs -> run A e b = Some (map (app xs) (combos vs))) ->
     forall e xs, values A e a = Some xs ->
       run A e (For A q v b) = Some (map (app xs) (combos (v :: vs)))).
  { intros b Hb e xs V.
    rewrite (run_for e q v b (fun x => map (app (xs ++ [x])) (combos vs))).
    - f_equal. cbn [combos]. clear. induction v as [|x v IH]; [reflexivity|].
      cbn [flat_map]. rewrite map_app, IH, map_map. f_equal.
      apply map_ext. intros l. rewrite <- app_assoc. reflexivity.
    - intros x. apply Hb, B, V. }
  destruct vs as [|w vs].
  - exists (For A q v (Call A (a ++ [q]))). split.
    + destruct a; reflexivity.
    + apply R. intros e xs V. cbn [run combos map]. rewrite V, app_nil_r. reflexivity.
  - destruct (IH (S q) (a ++ [q])) as (c & Hc & Rc).
    + discriminate.
    + intros k [I|[<-|[]]]%in_app_or; [specialize (L k I); lia|lia].
    + exists (For A q v c). split; [|exact (R c Rc)].
      destruct a as [|a0 a]; cbn [permutate app] in *; cbn [permutate] in Hc |- *;
        rewrite Hc; reflexivity.
Qed.

Lemma combos_length vs : length (combos vs) = volume (map (@length A) vs).
Proof.
  induction vs as [|v vs IH]; [reflexivity|]. cbn [combos map volume].
  rewrite <- IH. induction v as [|x v IHv]; [reflexivity|].
  cbn [flat_map length]. rewrite app_length, map_length, IHv. lia.
Qed.

Lemma nth_flat vs : forall v k x,
  nth_error v (k / length (combos vs)) = Some x -> length (combos vs) <> 0 ->
  nth_error (flat_map (fun x => map (cons x) (combos vs)) v) k =
  option_map (cons x) (nth_error (combos vs) (k mod length (combos vs))).
Proof.
  set (n := length (combos vs)). induction v as [|y v IH]; intros k x H N.
  - destruct (k / n); discriminate.
  - cbn [flat_map]. destruct (Nat.lt_ge_cases k n) as [K|K].
    + rewrite Nat.div_small in H by exact K. injection H as ->.
      rewrite nth_error_app1 by (rewrite map_length; exact K).
      rewrite Nat.mod_small by exact K. rewrite nth_error_map. reflexivity.
    + rewrite nth_error_app2 by (rewrite map_length; exact K).
      rewrite map_length. fold n.
      replace k with (k - n + 1 * n) in H by lia.
      rewrite Nat.div_add, Nat.add_1_r in H by exact N. cbn in H.
      rewrite (IH _ _ H N). f_equal.
      replace k with (k - n + 1 * n) at 2 by lia.
      rewrite Nat.mod_add by exact N. reflexivity.
Qed.

Lemma combos_nth : forall vs k, k < length (combos vs) ->
  exists xs, nth_error (combos vs) k = Some xs /\ picked vs (digits (map (@length A) vs) k) xs.
Proof.
  induction vs as [|v vs IH]; intros k K.
  - cbn in K. replace k with 0 by lia. exists []. split; constructor.
  - pose proof (combos_length (v :: vs)) as E. cbn [map volume] in E.
    rewrite <- (combos_length vs) in E.
    assert (N : length (combos vs) <> 0) by (intros Z; rewrite Z in E; lia).
    assert (D : k / length (combos vs) < length v)
      by (apply Nat.div_lt_upper_bound; [exact N|rewrite Nat.mul_comm; lia]).
    destruct (nth_error v (k / length (combos vs))) as [x|] eqn:Ex.
    2: { apply nth_error_None in Ex. lia. }
    destruct (IH (k mod length (combos vs))) as (xs & Hx & P); [apply Nat.mod_upper_bound; exact N|].
    exists (x :: xs). cbn [combos]. rewrite (nth_flat vs v k x Ex N), Hx. split; [reflexivity|].
    cbn [map digits]. rewrite <- combos_length. constructor; assumption.
Qed.

(** For any vectors, at least one, [permutate!] is accepted and makes as many
    calls as the product of their lengths.  Call number k takes from each
    vector the element whose index is the digit of k in the mixed radix of the
    lengths, the last vector changing fastest, and passes them in the order
    of the vectors. *)
Theorem C123_calls vs :
  vs <> [] ->
  exists calls, permutated A vs = Some calls /\
    length calls = volume (map (@length A) vs) /\
    forall k, k < length calls ->
      exists xs, nth_error calls k = Some xs /\ picked vs (digits (map (@length A) vs) k) xs.
Proof.
  intros N. destruct (expands vs 0 [] N) as (c & Hc & R); [intros k []|].
  exists (combos vs). unfold permutated. rewrite Hc. rewrite (R _ [] eq_refl).
  split; [|split; [apply combos_length|apply combos_nth]].
  f_equal. transitivity (map (fun l => l) (combos vs)); [reflexivity|apply map_id].
Qed.

Lemma in_combos : forall vs xs, In xs (combos vs) <-> Forall2 (fun v x => In x v) vs xs.
Proof.
  induction vs as [|v vs IH]; intros xs; cbn [combos].
  - split; [intros [<-|[]]; constructor|intros H; inversion H; left; reflexivity].
  - rewrite in_flat_map. split.
    + intros (x & I & J). apply in_map_iff in J. destruct J as (l & <- & J).
      constructor; [exact I|apply IH, J].
    + intros H. inversion H as [|? x ? l I J]; subst.
      exists x. split; [exact I|]. apply in_map, IH, J.
Qed.

Lemma nodup_combos vs : Forall (@NoDup A) vs -> NoDup (combos vs).
Proof.
  induction 1 as [|v vs H _ IH]; cbn [combos]; [constructor; [intros []|constructor]|].
  induction H as [|x v N _ IHv]; cbn [flat_map]; [constructor|].
  assert (D : NoDup (map (cons x) (combos vs))).
  { apply FinFun.Injective_map_NoDup; [intros a b E; congruence|exact IH]. }
  revert D. generalize (eq_refl (map (cons x) (combos vs))).
  generalize (map (cons x) (combos vs)) at 2 3 4. intros l El D.
  assert (O : forall y, In y l -> ~ In y (flat_map (fun x => map (cons x) (combos vs)) v)).
  { subst l. intros y Iy J. apply in_map_iff in Iy. destruct Iy as (l & <- & _).
    apply in_flat_map in J. destruct J as (z & Iz & J). apply in_map_iff in J.
    destruct J as (l' & E & _). injection E as -> _. exact (N Iz). }
  clear El. induction D as [|y l Ny D IHd]; cbn [app]; [exact IHv|].
  constructor.
  - intros [J|J]%in_app_or; [exact (Ny J)|exact (O y (or_introl eq_refl) J)].
  - apply IHd. intros z Iz. apply O. right; exact Iz.
Qed.

(** The calls are with all combinations of elements and no others; if no
    vector has an element twice, no call is made twice. *)
Theorem C123_all vs calls :
  permutated A vs = Some calls ->
  (forall xs, In xs calls <-> Forall2 (fun v x => In x v) vs xs) /\
  (Forall (@NoDup A) vs -> NoDup calls).
Proof.
  intros H. assert (N : vs <> []) by (intros ->; discriminate).
  destruct (expands vs 0 [] N) as (c & Hc & R); [intros k []|].
  unfold permutated in H. rewrite Hc, (R _ [] eq_refl) in H.
  assert (E : calls = combos vs).
  { assert (map (app []) (combos vs) = calls) as <- by congruence.
    transitivity (map (fun l => l) (combos vs)); [reflexivity|apply map_id]. }
  subst calls. split; [apply in_combos|apply nodup_combos].
Qed.
End Calls.

(** The program: 216 calls; the first, the second and the last. *)
Example C123_main :
  exists calls, permutated value main_vectors = Some calls /\ length calls = 216 /\
    nth_error calls 0 = Some [Tenths (-230); Tenths (-210); Str 0; Int (-2)] /\
    nth_error calls 1 = Some [Tenths (-230); Tenths (-210); Str 0; Int 0] /\
    nth_error calls 215 = Some [Tenths 230; Tenths 125; Str 1; Int 2].
Proof. eexists. split; [reflexivity|]. repeat split. Qed.

Example C123_digits : digits [6; 6; 2; 3] 100 = [2; 4; 1; 1].
Proof. reflexivity. Qed.

(** No vectors: no rule of the macro matches. *)
Example C123_none : permutated nat [] = None.
Proof. reflexivity. Qed.

(** An empty vector: no calls. *)
Example C123_empty : permutated nat [[1; 2]; []; [3]] = Some [].
Proof. reflexivity. Qed.

Print Assumptions C123_calls.
Print Assumptions C123_all.
