(** Properties C05-C07: acceleration vectors (src/acc_vector.rs). *)
From Coq Require Import ZArith List Lia.
From Verif Require Import Base AccVector MotionSpec AccVectorProofs.
Import ListNotations.
Open Scope Z_scope.

(** A caller's history of pushes; the arguments are u16 and i16 values. *)
Fixpoint acc_pushes (v : list seg) (ps : list (Z * Z)) : res (list seg) :=
  match ps with
  | [] => Ok v
  | (t, a) :: r => let! v' := acc_push v t a in acc_pushes v' r
  end.

Lemma typed_nonneg : forall v, Forall seg_typed v -> forall s, In s v -> 0 <= fst s.
Proof. intros v H s Hin. rewrite Forall_forall in H. apply H in Hin. unfold seg_typed in Hin. lia. Qed.

Lemma acc_pushes_spec : forall ps v v', Forall seg_typed ps -> Forall seg_typed v -> acc_ok v ->
  acc_pushes v ps = Ok v' ->
  expand v' = expand v ++ expand ps /\ acc_ok v' /\ Forall seg_typed v'.
Proof.
  induction ps as [|[t a] r IH]; intros v v' Hp Hv Ho H; cbn [acc_pushes] in H.
  - inversion H; subst. cbn [expand]. rewrite app_nil_r. auto.
  - apply bind_Ok in H. destruct H as (v1 & E & H).
    inversion Hp as [|? ? [H1 H2] Hr]; subst. cbn [fst snd] in H1, H2.
    assert (X : expand v1 = expand v ++ repeat a (Z.to_nat t)).
    { apply acc_push_expand; auto; [lia|apply typed_nonneg; auto]. }
    destruct (IH v1 v' Hr) as (A & B & C); auto.
    + apply (acc_push_typed v t a); auto.
    + apply (acc_push_ok v t a); auto. lia.
    + split; auto. rewrite A, X. cbn [expand]. rewrite <- app_assoc. reflexivity.
Qed.

(** C05: one push, any vector. *)
Theorem C05_push_appends : forall v t a,
  Forall seg_typed v -> 0 <= t <= u16_max -> i16_min <= a <= i16_max ->
  match acc_push v t a with
  | Ok v' => expand v' = expand v ++ repeat a (Z.to_nat t)
  | Panic => exists w i, v = w ++ [(i, a)] /\ i + t > u16_max
  | OutOfFuel => False
  end.
Proof.
  intros v t a Hv Ht Ha.
  destruct (acc_push_fails v t a) as [[v' E]|[E H]]; try lia; [apply typed_nonneg; auto| |].
  - rewrite E. eapply acc_push_expand; eauto; [lia|apply typed_nonneg; auto].
  - rewrite E. exact H.
Qed.

(** C05: whole histories starting from the empty vector. *)
Theorem C05_push_history : forall ps v, Forall seg_typed ps ->
  acc_pushes [] ps = Ok v ->
  expand v = expand ps /\
  (forall s, In s v -> 1 <= fst s <= u16_max /\ i16_min <= snd s <= i16_max) /\
  (forall a s s' b, v = a ++ s :: s' :: b -> snd s <> snd s').
Proof.
  intros ps v Hp H. apply acc_pushes_spec in H; auto using acc_ok_nil.
  destruct H as (A & [B1 B2] & C). split; [exact A|split; [|exact B2]].
  intros s Hs. specialize (B1 s Hs). rewrite Forall_forall in C. apply C in Hs.
  unfold seg_typed in Hs. lia.
Qed.

Example C05_example :
  acc_pushes [] [(3, 2); (0, 9); (4, 2); (1, -1)] = Ok [(7, 2); (1, -1)] /\
  acc_push [(65000, 2)] 1000 2 = Panic.
Proof. split; reflexivity. Qed.

(** C06: whatever acc_distance returns is the tick by tick motion, and it does
    return as long as the velocities stay below 2^30. *)
Theorem C06_distance_is_motion : forall segs v0 s v,
  Forall seg_typed segs ->
  acc_distance segs v0 = Ok (s, v) ->
  s = travel v0 (expand segs) /\ v = final_speed v0 (expand segs).
Proof.
  intros segs v0 s v Ht H. apply acc_distance_loop_spec in H; [|apply typed_nonneg; auto].
  inversion H; subst. split; [lia|auto].
Qed.

Theorem C06_distance_returns : forall segs v0,
  Forall seg_typed segs -> Z.of_nat (length segs) <= 65535 ->
  (forall x, In x (speeds v0 (expand segs)) -> Z.abs x < 2 ^ 30) ->
  exists s v, acc_distance segs v0 = Ok (s, v).
Proof.
  intros segs v0 Ht Hl Hs.
  destruct (acc_distance_loop_ok segs 0 v0) as [[s v] E]; eauto.
  - intros x Hx. apply Hs in Hx. lia.
  - unfold i64_max. cbn [Z.abs]. lia.
Qed.

Example C06_example : acc_distance [(3, 2); (0, 9); (4, -5)] 1 = Ok (3 * 8 + 4 * (-6), -13) /\
  travel 1 (expand [(3, 2); (0, 9); (4, -5)]) = 0.
Proof. split; reflexivity. Qed.

(** C07 *)
Theorem C07_iter_enumerates : forall segs t,
  (forall s, In s segs -> 1 <= fst s) ->
  Z.of_nat (length (expand segs)) <= u16_max ->
  0 <= t < Z.of_nat (length (expand segs)) ->
  ~ (t = 0 /\ exists a, segs = [(u16_max, a)]) ->
  exists it, acc_iter segs t = Ok it /\
    forall fuel, (length (skipn (Z.to_nat t) (expand segs)) < fuel)%nat ->
      acc_collect fuel it = Ok (skipn (Z.to_nat t) (expand segs)).
Proof.
  intros segs t H1 Hl Ht Hx.
  assert (H0 : forall s, In s segs -> 0 <= fst s) by (intros s Hs; specialize (H1 s Hs); lia).
  assert (E := total_length segs H0).
  destruct (acc_iter_loop_inside segs 0 t) as (it & I & C); auto; try lia.
  exists it. split; [exact I|]. intros fuel Hf.
  rewrite Z.sub_0_r in C. eapply acc_collect_more; [exact C|].
  rewrite skipn_length in Hf. lia.
Qed.

Theorem C07_iter_outside_panics : forall segs t,
  (forall s, In s segs -> 0 <= fst s) ->
  Z.of_nat (length (expand segs)) <= t ->
  acc_iter segs t = Panic.
Proof.
  intros segs t H0 Ht. apply acc_iter_loop_outside; auto. rewrite total_length; auto.
Qed.

(** The one corner that C07 excludes really does panic (u16 overflow of
    [end - t + 1]). *)
Theorem C07_iter_corner : forall a, acc_iter [(u16_max, a)] 0 = Panic.
Proof. reflexivity. Qed.

Example C07_example :
  (let! it := acc_iter [(2, 8); (1, 4); (3, -7)] 1 in acc_collect 10 it)
  = Ok [8; 4; -7; -7; -7].
Proof. reflexivity. Qed.

Print Assumptions C05_push_appends.
Print Assumptions C05_push_history.
Print Assumptions C06_distance_is_motion.
Print Assumptions C06_distance_returns.
Print Assumptions C07_iter_enumerates.
Print Assumptions C07_iter_outside_panics.
Print Assumptions C07_iter_corner.
