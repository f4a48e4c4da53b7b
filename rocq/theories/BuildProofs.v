(** Lemmas on the path commands of PathBuild.v. *)
From Coq Require Import Reals Lra List Bool NArith Arith Lia Ascii String.
From Verif Require Import Base Chars Coords CoordsProofs Curves PathBuild.
Import ListNotations.
Open Scope R_scope.

Lemma is_one_of_In : forall l c, is_one_of l c = true <-> In c l.
Proof.
  intros l c. unfold is_one_of. rewrite existsb_exists. split.
  - intros (x & H & E). apply N.eqb_eq in E. subst. exact H.
  - intros H. exists c. split; [exact H|apply N.eqb_refl].
Qed.

Lemma wrong_count_false : forall n args, n <> O ->
  wrong_count n args = false <-> exists k, (0 < k)%nat /\ List.length args = (n * k)%nat.
Proof.
  intros n args N. unfold wrong_count. rewrite orb_false_iff, Nat.ltb_ge, negb_false_iff, Nat.eqb_eq.
  rewrite Nat.mod_divide by auto. split.
  - intros (A & k & K). exists k. split; [|lia]. destruct k; [cbn in K; lia|lia].
  - intros (k & K & L). split; [rewrite L; nia|]. exists k. lia.
Qed.
