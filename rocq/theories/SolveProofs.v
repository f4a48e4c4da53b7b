(** Proofs about the quadratic solver. *)
From Coq Require Import ZArith List Bool Lia.
From Coq Require Import ZifyBool.
From Verif Require Import Base Solve.
Open Scope Z_scope.

(** What find_root promises about the point it returns. *)
Definition root_ok (p : Z -> Z) (min max x : Z) : Prop :=
  min <= x <= max /\
  (p x = 0 \/
   (p min < 0 < p max /\ 0 < p x /\ min <= x - 1 /\ p (x - 1) < 0) \/
   (p max < 0 < p min /\ 0 < p x /\ x + 1 <= max /\ p (x + 1) < 0)).

Lemma mid_between : forall lo hi, 2 <= hi - lo ->
  lo < Z.quot (lo + hi) 2 < hi /\
  2 * (Z.quot (lo + hi) 2 - lo) <= hi - lo + 1 /\
  2 * (hi - Z.quot (lo + hi) 2) <= hi - lo + 1.
Proof.
  intros lo hi H.
  destruct (Z_le_gt_dec 0 (lo + hi)).
  - rewrite Z.quot_div_nonneg by lia.
    pose proof (Z.div_mod (lo + hi) 2). pose proof (Z.mod_pos_bound (lo + hi) 2). lia.
  - replace (lo + hi) with (- (- (lo + hi))) by lia.
    rewrite Z.quot_opp_l by lia. rewrite Z.quot_div_nonneg by lia.
    pose proof (Z.div_mod (- (lo + hi)) 2). pose proof (Z.mod_pos_bound (- (lo + hi)) 2). lia.
Qed.

Lemma find_root_loop_spec : forall k a b c min max,
  let p := sqpoly a b c in
  (p min < 0 /\ 0 <= p max \/ p max < 0 /\ 0 <= p min) ->
  min < max -> max - min <= 2 ^ Z.of_nat k ->
  exists x, find_root_loop (S k) a b c min max (p min) (p max) = Ok (Some x) /\
    min <= x <= max /\
    (p x = 0 \/
     (p min < 0 /\ 0 < p x /\ min <= x - 1 /\ p (x - 1) < 0) \/
     (p max < 0 /\ 0 < p x /\ x + 1 <= max /\ p (x + 1) < 0)).
Proof.
  intros k a b c min max p. revert min max.
  induction k as [|k IH]; intros min max Hs Hlt Hk.
  - change (2 ^ Z.of_nat 0) with 1 in Hk. cbn [find_root_loop]. fold p.
    destruct (Z.eqb_spec (p min) 0). { exists min. repeat split; auto; lia. }
    destruct (Z.eqb_spec (p max) 0). { exists max. repeat split; auto; lia. }
    destruct (Z.leb_spec (max - min) 1); [|lia].
    destruct (Z.geb_spec (p max) 0).
    + exists max. split; auto. split; [lia|]. right; left.
      replace (max - 1) with min by lia. lia.
    + exists min. split; auto. split; [lia|]. right; right.
      replace (min + 1) with max by lia. lia.
  - rewrite Nat2Z.inj_succ, Z.pow_succ_r in Hk by lia.
    change (find_root_loop (S (S k)) a b c min max (p min) (p max)) with
      (if p min =? 0 then Ok (Some min)
      else if p max =? 0 then Ok (Some max)
      else if max - min <=? 1 then
        Ok (if p max >=? 0 then Some max else Some min)
      else
        if same_sign (p max) (p (Z.quot (min + max) 2))
        then find_root_loop (S k) a b c min (Z.quot (min + max) 2) (p min) (p (Z.quot (min + max) 2))
        else find_root_loop (S k) a b c (Z.quot (min + max) 2) max (p (Z.quot (min + max) 2)) (p max)).
    destruct (Z.eqb_spec (p min) 0). { exists min. repeat split; auto; lia. }
    destruct (Z.eqb_spec (p max) 0). { exists max. repeat split; auto; lia. }
    destruct (Z.leb_spec (max - min) 1).
    { destruct (Z.geb_spec (p max) 0).
      + exists max. split; auto. split; [lia|]. right; left.
        replace (max - 1) with min by lia. lia.
      + exists min. split; auto. split; [lia|]. right; right.
        replace (min + 1) with max by lia. lia. }
    destruct (mid_between min max) as (M1 & M2 & M3); [lia|].
    set (mid := Z.quot (min + max) 2) in *. clearbody mid.
    unfold same_sign. destruct (Z.geb_spec (p max) 0).
    + destruct (Z.geb_spec (p mid) 0).
      * destruct (IH min mid) as (x & E & Hx & Hp); [lia|lia|lia|].
        exists x. split; auto. split; [lia|]. lia.
      * destruct (IH mid max) as (x & E & Hx & Hp); [lia|lia|lia|].
        exists x. split; auto. split; [lia|]. lia.
    + destruct (Z.ltb_spec (p mid) 0).
      * destruct (IH min mid) as (x & E & Hx & Hp); [lia|lia|lia|].
        exists x. split; auto. split; [lia|]. lia.
      * destruct (IH mid max) as (x & E & Hx & Hp); [lia|lia|lia|].
        exists x. split; auto. split; [lia|]. lia.
Qed.

Lemma bisect_fuel_enough : forall d, 1 <= d -> d <= 2 ^ Z.of_nat (Z.to_nat (Z.log2_up d)).
Proof.
  intros d Hd. rewrite Z2Nat.id by apply Z.log2_up_nonneg.
  destruct (Z.eq_dec d 1) as [->|Hn]; [cbn; lia|].
  apply Z.log2_up_spec; lia.
Qed.

Lemma find_root_spec : forall a b c min max, min <= max ->
  let p := sqpoly a b c in
  match find_root a b c min max with
  | Ok (Some x) => root_ok p min max x
  | Ok None => (p min < 0 /\ p max < 0) \/ (0 < p min /\ 0 < p max)
  | _ => False
  end.
Proof.
  intros a b c min max Hle p. unfold find_root. fold (p min). fold (p max).
  change (sqpoly a b c) with p.
  destruct (Z.eqb_spec (p min) 0). { split; [lia|auto]. }
  destruct (Z.eqb_spec (p max) 0). { split; [lia|auto]. }
  unfold same_sign. destruct (Z.geb_spec (p min) 0).
  - destruct (Z.geb_spec (p max) 0); [lia|].
    assert (min < max) by (destruct (Z.eq_dec min max); [subst; lia|lia]).
    destruct (find_root_loop_spec (Z.to_nat (Z.log2_up (max - min))) a b c min max) as (x & E & Hx & Hp);
      auto; try (fold p; lia).
    { apply bisect_fuel_enough; lia. }
    fold p in E, Hp. change (bisect_fuel (max - min)) with (S (Z.to_nat (Z.log2_up (max - min)))).
    rewrite E. split; auto. lia.
  - destruct (Z.ltb_spec (p max) 0); [lia|].
    assert (min < max) by (destruct (Z.eq_dec min max); [subst; lia|lia]).
    destruct (find_root_loop_spec (Z.to_nat (Z.log2_up (max - min))) a b c min max) as (x & E & Hx & Hp);
      auto; try (fold p; lia).
    { apply bisect_fuel_enough; lia. }
    fold p in E, Hp. change (bisect_fuel (max - min)) with (S (Z.to_nat (Z.log2_up (max - min)))).
    rewrite E. split; auto. lia.
Qed.

(** ** The vertex *)

Lemma vertex_near : forall a b, 0 < a -> - a <= 2 * a * vertex a b + b <= a.
Proof.
  intros a b Ha. unfold vertex. destruct (Z.geb_spec b 0).
  - rewrite Z.quot_div_nonneg by lia.
    pose proof (Z.div_mod (b + a) (2 * a)). pose proof (Z.mod_pos_bound (b + a) (2 * a)). lia.
  - rewrite Z.quot_div_nonneg by lia.
    pose proof (Z.div_mod (- b + a) (2 * a)). pose proof (Z.mod_pos_bound (- b + a) (2 * a)). lia.
Qed.

(** Shifting the polynomial. *)
Lemma sqpoly_shift : forall a b c x d,
  sqpoly a b c (x + d) = sqpoly a b c x + d * (2 * a * x + b) + a * d * d.
Proof. intros; unfold sqpoly; ring. Qed.

Lemma limit_loop_spec : forall fuel a b c xmin limit, 0 < a -> 1 <= limit ->
  - a <= 2 * a * xmin + b <= a ->
  - sqpoly a b c xmin < (limit * 2 ^ Z.of_nat fuel) ->
  16 <= limit ->
  exists l, limit_loop fuel a b c xmin limit = Ok l /\ 16 <= l /\ 0 < sqpoly a b c (xmin + l).
Proof.
  induction fuel as [|f IH]; intros a b c xmin limit Ha Hl Hv Hy H16; cbn [limit_loop].
  - change (2 ^ Z.of_nat 0) with 1 in Hy.
    assert (0 < sqpoly a b c (xmin + limit)).
    { rewrite sqpoly_shift. set (y := sqpoly a b c xmin) in *. set (d := 2 * a * xmin + b) in *.
      assert (- a * limit <= limit * d) by nia. nia. }
    destruct (Z.leb_spec (sqpoly a b c (xmin + limit)) 0); [lia|]. eauto.
  - destruct (Z.leb_spec (sqpoly a b c (xmin + limit)) 0); [|eauto].
    apply IH; auto; try lia. rewrite Nat2Z.inj_succ, Z.pow_succ_r in Hy by lia. lia.
Qed.

Lemma limit_fuel_enough : forall y, y < 0 -> - y < 16 * 2 ^ Z.of_nat (limit_fuel y).
Proof.
  intros y Hy. unfold limit_fuel. rewrite Z2Nat.id by apply Z.log2_nonneg.
  pose proof (Z.log2_spec (- y)). rewrite Z.pow_succ_r in H by apply Z.log2_nonneg. lia.
Qed.

(** Convexity: between two points where it is negative the quadratic is negative. *)
Lemma sqpoly_convex_neg : forall a b c l r x, 0 < a -> l <= x <= r ->
  sqpoly a b c l < 0 -> sqpoly a b c r < 0 -> sqpoly a b c x < 0.
Proof.
  intros a b c l r x Ha Hx Hl Hr.
  destruct (Z.eq_dec x l) as [->|]; auto. destruct (Z.eq_dec x r) as [->|]; auto.
  assert ((r - l) * sqpoly a b c x =
          (r - x) * sqpoly a b c l + (x - l) * sqpoly a b c r - a * (r - x) * (x - l) * (r - l))
    by (unfold sqpoly; ring).
  assert (0 < a * (r - x) * (x - l) * (r - l)) by (repeat apply Z.mul_pos_pos; lia).
  nia.
Qed.

(** If the value is >= 0 at [x] and < 0 (or <= 0 further) to its right then it is
    >= 0 everywhere to the left. *)
Lemma sqpoly_left : forall a b c x m y, 0 < a -> y <= x -> x < m ->
  0 <= sqpoly a b c x -> sqpoly a b c m < 0 -> 0 <= sqpoly a b c y.
Proof.
  intros a b c x m y Ha Hy Hxm Hx Hm.
  destruct (Z_lt_le_dec (sqpoly a b c y) 0); auto.
  assert (sqpoly a b c x < 0); [|lia]. apply (sqpoly_convex_neg a b c y m); auto; lia.
Qed.

Lemma sqpoly_right : forall a b c x m y, 0 < a -> x <= y -> m < x ->
  0 <= sqpoly a b c x -> sqpoly a b c m < 0 -> 0 <= sqpoly a b c y.
Proof.
  intros a b c x m y Ha Hy Hxm Hx Hm.
  destruct (Z_lt_le_dec (sqpoly a b c y) 0); auto.
  assert (sqpoly a b c x < 0); [|lia]. apply (sqpoly_convex_neg a b c m y); auto; lia.
Qed.

Definition roots_ok (p : Z -> Z) (x1 x2 : Z) : Prop :=
  x1 <= x2 /\
  (forall x, x <= x1 -> 0 <= p x) /\
  (forall x, x2 <= x -> 0 <= p x) /\
  (forall x, x1 < x < x2 -> p x < 0).

Lemma vertex_min : forall a b c x, 0 < a -> sqpoly a b c (vertex a b) <= sqpoly a b c x.
Proof.
  intros a b c x Ha. pose proof (vertex_near a b Ha) as Hv.
  replace x with (vertex a b + (x - vertex a b)) by lia. rewrite sqpoly_shift.
  set (d := x - vertex a b). set (e := 2 * a * vertex a b + b) in *.
  assert (0 <= d * e + a * d * d); [|lia].
  destruct (Z.eq_dec d 0) as [->|]; [lia|].
  destruct (Z_lt_le_dec d 0); nia.
Qed.

Lemma find_roots_spec : forall a b c, 0 < a ->
  match find_roots a b c with
  | Ok None => b * b + 4 * a * c < 0
  | Ok (Some (x1, x2)) => 0 <= b * b + 4 * a * c /\ roots_ok (sqpoly a b c) x1 x2
  | _ => False
  end.
Proof.
  intros a b c Ha. unfold find_roots.
  destruct (Z.ltb_spec (b * b + 4 * a * c) 0); [auto|].
  pose proof (vertex_near a b Ha) as Hv. pose proof (vertex_min a b c) as Hm.
  set (xm := vertex a b) in *. clearbody xm. set (s := b * b + 4 * a * c) in *.
  destruct ((s =? 0) && (sqpoly a b c xm =? 0)) eqn:E0.
  { split; auto. assert (sqpoly a b c xm = 0) by lia.
    repeat split; try lia; intros x Hx; specialize (Hm x Ha); lia. }
  destruct (Z.geb_spec (sqpoly a b c xm) 0) as [Hy|Hy].
  { destruct (Z.ltb_spec (- b) (2 * a * xm)); split; auto;
      repeat split; try lia; intros x Hx; specialize (Hm x Ha); lia. }
  destruct (limit_loop_spec (limit_fuel (sqpoly a b c xm)) a b c xm 16) as (l & El & Hl & Hp); auto; try lia.
  { apply limit_fuel_enough; lia. }
  rewrite El. cbn [bind].
  assert (PL : 0 < sqpoly a b c (xm - (l + 1))).
  { replace (xm - (l + 1)) with (xm + (- (l + 1))) by lia. rewrite sqpoly_shift.
    rewrite sqpoly_shift in Hp.
    set (y := sqpoly a b c xm) in *. set (e := 2 * a * xm + b) in *. nia. }
  assert (PR : 0 < sqpoly a b c (xm + (l + 1))).
  { replace (xm + (l + 1)) with (xm + l + 1) by lia. rewrite (sqpoly_shift _ _ _ (xm + l)).
    set (y := sqpoly a b c (xm + l)) in *. nia. }
  pose proof (find_root_spec a b c (xm - (l + 1)) xm ltac:(lia)) as F1.
  pose proof (find_root_spec a b c xm (xm + (l + 1)) ltac:(lia)) as F2.
  cbv zeta in F1, F2.
  destruct (find_root a b c (xm - (l + 1)) xm) as [[x1|]| |]; try contradiction; [|lia].
  cbn [bind].
  destruct (find_root a b c xm (xm + (l + 1))) as [[x2|]| |]; try contradiction; [|lia].
  cbn [bind]. split; [lia|].
  destruct F1 as [B1 P1]. destruct F2 as [B2 P2].
  assert (N1 : 0 <= sqpoly a b c x1) by lia. assert (N2 : 0 <= sqpoly a b c x2) by lia.
  assert (x1 <> xm) by (intros ->; lia). assert (x2 <> xm) by (intros ->; lia).
  assert (Q1 : sqpoly a b c (x1 + 1) < 0).
  { destruct P1 as [P1|[P1|P1]]; [|lia|lia].
    (* a zero at x1: the next point is negative because xm is *)
    destruct (Z.eq_dec (x1 + 1) xm) as [E|]; [rewrite E; lia|].
    assert (H3 : (xm - x1) * sqpoly a b c (x1 + 1) =
          (xm - (x1 + 1)) * sqpoly a b c x1 + 1 * sqpoly a b c xm
          - a * (xm - (x1 + 1)) * 1 * (xm - x1)) by (unfold sqpoly; ring).
    rewrite P1 in H3.
    assert (0 < a * (xm - (x1 + 1)) * 1 * (xm - x1)) by (repeat apply Z.mul_pos_pos; lia). nia. }
  assert (Q2 : sqpoly a b c (x2 - 1) < 0).
  { destruct P2 as [P2|[P2|P2]]; [|lia|lia].
    destruct (Z.eq_dec (x2 - 1) xm) as [E|]; [rewrite E; lia|].
    assert (H3 : (x2 - xm) * sqpoly a b c (x2 - 1) =
          (x2 - 1 - xm) * sqpoly a b c x2 + 1 * sqpoly a b c xm
          - a * (x2 - 1 - xm) * 1 * (x2 - xm)) by (unfold sqpoly; ring).
    rewrite P2 in H3.
    assert (0 < a * (x2 - 1 - xm) * 1 * (x2 - xm)) by (repeat apply Z.mul_pos_pos; lia). nia. }
  split; [lia|]. split; [|split].
  - intros x Hx. apply (sqpoly_left a b c x1 (x1 + 1)); auto; lia.
  - intros x Hx. apply (sqpoly_right a b c x2 (x2 - 1)); auto; lia.
  - intros x Hx. apply (sqpoly_convex_neg a b c (x1 + 1) (x2 - 1)); auto; lia.
Qed.
