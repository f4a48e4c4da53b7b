(** Properties C08, C09: the integer quadratic solver (src/solve.rs). *)
From Coq Require Import ZArith List Lia ZifyBool.
From Verif Require Import Base Solve SolveProofs.
Open Scope Z_scope.

(** The inequality that the callers solve. *)
Definition quad (a b c x : Z) : Z := a * (x * x) + b * x - c.

Lemma quad_sqpoly : forall a b c x, sqpoly a b c x = quad a b c x.
Proof. intros; unfold quad, sqpoly; ring. Qed.

(** C08.  Holds for every quadratic, convex or not. *)
Theorem C08_find_root : forall a b c min max, min <= max ->
  match find_root a b c min max with
  | Ok (Some x) =>
      min <= x <= max /\
      (quad a b c x = 0 \/
       (quad a b c min < 0 < quad a b c max /\
        0 < quad a b c x /\ min <= x - 1 /\ quad a b c (x - 1) < 0) \/
       (quad a b c max < 0 < quad a b c min /\
        0 < quad a b c x /\ x + 1 <= max /\ quad a b c (x + 1) < 0))
  | Ok None =>
      (quad a b c min < 0 /\ quad a b c max < 0) \/
      (0 < quad a b c min /\ 0 < quad a b c max)
  | Panic => False
  | OutOfFuel => False
  end.
Proof.
  intros a b c min max H. pose proof (find_root_spec a b c min max H) as S. cbv zeta in S.
  destruct (find_root a b c min max) as [[x|]| |]; auto.
  - unfold root_ok in S. rewrite !quad_sqpoly in S. exact S.
  - rewrite !quad_sqpoly in S. exact S.
Qed.

Example C08_example :
  find_root 1 0 17 (-100) 3 = Ok (Some (-5)) /\
  find_root 1 0 17 3 100 = Ok (Some 5) /\
  find_root (-1) 0 (-17) (-1000001) 3 = Ok (Some (-4)) /\
  find_root 1 0 17 5 100 = Ok None.
Proof. repeat split. Qed.

(** C09 *)
Theorem C09_find_roots : forall a b c, 0 < a ->
  match find_roots a b c with
  | Ok None => b * b + 4 * a * c < 0
  | Ok (Some (x1, x2)) =>
      0 <= b * b + 4 * a * c /\
      x1 <= x2 /\
      (forall x, x <= x1 -> 0 <= quad a b c x) /\
      (forall x, x2 <= x -> 0 <= quad a b c x) /\
      (forall x, x1 < x < x2 -> quad a b c x < 0)
  | Panic => False
  | OutOfFuel => False
  end.
Proof.
  intros a b c H. pose proof (find_roots_spec a b c H) as S.
  destruct (find_roots a b c) as [[[x1 x2]|]| |]; auto.
  destruct S as [S1 (S2 & S3 & S4 & S5)].
  split; [exact S1|]. split; [exact S2|].
  repeat split; intros x Hx; rewrite <- quad_sqpoly; auto.
Qed.

(** The pair is the tightest one: x1 is the floor of the lower real root and x2
    the ceiling of the upper one.  The roots are (- b -+ sqrt s) / (2 a) with
    s = b^2 + 4 a c, so "x <= lower root" is 2 a x + b <= 0 and s <= (2 a x + b)^2. *)
Definition below_lower (a b c x : Z) : Prop :=
  2 * a * x + b <= 0 /\ b * b + 4 * a * c <= (2 * a * x + b) * (2 * a * x + b).
Definition above_upper (a b c x : Z) : Prop :=
  0 <= 2 * a * x + b /\ b * b + 4 * a * c <= (2 * a * x + b) * (2 * a * x + b).

Lemma quad_square : forall a b c x,
  (2 * a * x + b) * (2 * a * x + b) = 4 * a * quad a b c x + (b * b + 4 * a * c).
Proof. intros; unfold quad; ring. Qed.

Theorem C09_roots_floor_ceil : forall a b c x1 x2, 0 < a ->
  find_roots a b c = Ok (Some (x1, x2)) ->
  below_lower a b c x1 /\ ~ below_lower a b c (x1 + 1) /\
  above_upper a b c x2 /\ ~ above_upper a b c (x2 - 1).
Proof.
  intros a b c x1 x2 Ha E. pose proof (C09_find_roots a b c Ha) as S. rewrite E in S.
  destruct S as (S1 & S2 & S3 & S4 & S5).
  assert (Q1 : 0 <= quad a b c x1) by (apply S3; lia).
  assert (Q2 : 0 <= quad a b c x2) by (apply S4; lia).
  pose proof (vertex_near a b Ha) as Hv.
  unfold below_lower, above_upper. rewrite !(quad_square a b c).
  assert (M : forall x, 0 <= quad a b c x -> 0 <= 4 * a * quad a b c x) by (intros; nia).
  destruct (Z.ltb_spec (x1 + 1) x2) as [W|W].
  - assert (N1 : quad a b c (x1 + 1) < 0) by (apply S5; lia).
    assert (N2 : quad a b c (x2 - 1) < 0) by (apply S5; lia).
    assert (D1 : quad a b c (x1 + 1) - quad a b c x1 = 2 * a * x1 + b + a) by (unfold quad; ring).
    assert (D2 : quad a b c x2 - quad a b c (x2 - 1) = 2 * a * x2 + b - a) by (unfold quad; ring).
    pose proof (M x1 Q1). pose proof (M x2 Q2). repeat split; try lia; nia.
  - pose proof (M x1 Q1). pose proof (M x2 Q2).
    unfold find_roots in E. destruct (Z.ltb_spec (b * b + 4 * a * c) 0); [discriminate|].
    set (xm := vertex a b) in *. clearbody xm.
    destruct ((b * b + 4 * a * c =? 0) && (sqpoly a b c xm =? 0))%bool eqn:E0.
    { injection E as <- <-. rewrite quad_sqpoly in E0. apply andb_prop in E0.
      rewrite !Z.eqb_eq in E0. destruct E0 as [E0 E1]. pose proof (quad_square a b c xm) as K.
      assert (2 * a * xm + b = 0) by nia. repeat split; try lia; nia. }
    destruct (Z.geb_spec (sqpoly a b c xm) 0) as [Hy|Hy].
    { rewrite quad_sqpoly in Hy, E0. pose proof (M xm Hy).
      assert (2 * a * xm + b <> 0).
      { intros Z0. pose proof (quad_square a b c xm) as K. rewrite Z0 in K.
        assert (b * b + 4 * a * c = 0) by lia. assert (quad a b c xm = 0) by nia. lia. }
      destruct (Z.ltb_spec (- b) (2 * a * xm)); injection E as <- <-; repeat split; lia. }
    rewrite quad_sqpoly in Hy.
    destruct (Z.leb_spec xm x1); [specialize (S3 xm ltac:(lia)); lia|].
    specialize (S4 xm). lia.
Qed.

Example C09_example :
  find_roots 3 7 1000000 = Ok (Some (-579, 577)) /\
  find_roots 4 4 (-1) = Ok (Some (-1, 0)) /\
  find_roots 1 0 (-1) = Ok None.
Proof. repeat split. Qed.

Print Assumptions C08_find_root.
Print Assumptions C09_find_roots.
Print Assumptions C09_roots_floor_ceil.
