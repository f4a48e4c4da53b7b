(** In the stated ranges no operation of the checked planner overflows. *)
From Coq Require Import ZArith List Bool Lia ZifyBool.
From Verif Require Import Base MultiRange AccVector Solve IntegerCurve CheckedCurve CheckedProofs.
Import ListNotations.
Open Scope Z_scope.

(** *** Bounds of expressions *)

Definition bnd (e : iexp) (B : Z) : Prop := fits e /\ Z.abs (val e) <= B.

Lemma inr_abs : forall z B, Z.abs z <= B -> B <= i64_max -> inr z.
Proof. unfold inr, i64_min, i64_max; lia. Qed.

Lemma quot_abs_le : forall x y, y <> 0 -> Z.abs (Z.quot x y) <= Z.abs x.
Proof.
  intros x y Hy. rewrite <- Z.quot_abs by assumption.
  destruct (Z.eq_dec (Z.abs x) 0) as [E|E]; [rewrite E, Z.quot_0_l; lia|].
  apply Z.quot_le_upper_bound; nia.
Qed.

Lemma bnd_c : forall z B, Z.abs z <= B -> bnd (IC z) B.
Proof. intros; split; cbn [fits val]; auto. Qed.

Lemma bnd_le : forall e A B, bnd e A -> A <= B -> bnd e B.
Proof. intros e A B [F H] L; split; [assumption|lia]. Qed.

Lemma bnd_add : forall x y A B, bnd x A -> bnd y B -> A + B <= i64_max -> bnd (IAdd x y) (A + B).
Proof.
  intros x y A B [Fx Hx] [Fy Hy] L; split; cbn [fits val]; [|lia].
  split; [assumption|split; [assumption|]]. apply (inr_abs _ (A + B)); lia.
Qed.

Lemma bnd_sub : forall x y A B, bnd x A -> bnd y B -> A + B <= i64_max -> bnd (ISub x y) (A + B).
Proof.
  intros x y A B [Fx Hx] [Fy Hy] L; split; cbn [fits val]; [|lia].
  split; [assumption|split; [assumption|]]. apply (inr_abs _ (A + B)); lia.
Qed.

Lemma mul_abs_le : forall x y A B, Z.abs x <= A -> Z.abs y <= B -> Z.abs (x * y) <= A * B.
Proof. intros x y A B HA HB. rewrite Z.abs_mul. apply Z.mul_le_mono_nonneg; lia. Qed.

Lemma bnd_mul : forall x y A B, bnd x A -> bnd y B -> A * B <= i64_max -> bnd (IMul x y) (A * B).
Proof.
  intros x y A B [Fx Hx] [Fy Hy] L; assert (M := mul_abs_le _ _ _ _ Hx Hy).
  split; cbn [fits val]; [|exact M].
  split; [assumption|split; [assumption|]]. apply (inr_abs _ (A * B)); assumption.
Qed.

(** A product whose value is known to be smaller than its factors suggest. *)
Lemma bnd_mul_known : forall x y A B C, bnd x A -> bnd y B ->
  Z.abs (val x * val y) <= C -> C <= i64_max -> bnd (IMul x y) C.
Proof.
  intros x y A B C [Fx Hx] [Fy Hy] M L. split; cbn [fits val]; [|exact M].
  split; [assumption|split; [assumption|]]. apply (inr_abs _ C); assumption.
Qed.

Lemma bnd_neg : forall x A, bnd x A -> A <= i64_max -> bnd (INeg x) A.
Proof.
  intros x A [Fx Hx] L; split; cbn [fits val]; [|lia].
  split; [assumption|]. apply (inr_abs _ A); lia.
Qed.

Lemma bnd_abs : forall x A, bnd x A -> A <= i64_max -> bnd (IAbs x) A.
Proof.
  intros x A [Fx Hx] L; split; cbn [fits val]; [|lia].
  split; [assumption|]. apply (inr_abs _ A); lia.
Qed.

Lemma bnd_quot : forall x y A B, bnd x A -> bnd y B -> val y <> 0 -> A <= i64_max ->
  bnd (IQuot x y) A.
Proof.
  intros x y A B [Fx Hx] [Fy Hy] N L.
  assert (Q := quot_abs_le (val x) (val y) N).
  split; cbn [fits val]; [|lia].
  assert (I : inr (Z.quot (val x) (val y))) by (apply (inr_abs _ A); lia).
  auto 10.
Qed.

Lemma rem_abs_le : forall x y, y <> 0 -> Z.abs (Z.rem x y) <= Z.abs x.
Proof.
  intros x y Hy. rewrite <- Z.rem_abs by assumption.
  apply Z.rem_le; lia.
Qed.

Lemma bnd_rem : forall x y A B, bnd x A -> bnd y B -> val y <> 0 -> A <= i64_max ->
  bnd (IRem x y) A.
Proof.
  intros x y A B [Fx Hx] [Fy Hy] N L.
  assert (Q := quot_abs_le (val x) (val y) N). assert (R := rem_abs_le (val x) (val y) N).
  split; cbn [fits val]; [|lia].
  assert (I : inr (Z.quot (val x) (val y))) by (apply (inr_abs _ A); lia).
  assert (I' : inr (Z.rem (val x) (val y))) by (apply (inr_abs _ A); lia).
  auto 10.
Qed.

Lemma div_abs_le : forall x y, 0 < y -> Z.abs (x / y) <= Z.abs x.
Proof.
  intros x y Hy. assert (D := Z.div_mod x y ltac:(lia)).
  assert (M := Z.mod_pos_bound x y Hy). nia.
Qed.

Lemma bnd_div : forall x y A B, bnd x A -> bnd y B -> 0 < val y -> A <= i64_max ->
  bnd (IDiv x y) A.
Proof.
  intros x y A B [Fx Hx] [Fy Hy] N L.
  assert (Q := quot_abs_le (val x) (val y) ltac:(lia)).
  assert (R := div_abs_le (val x) (val y) N).
  split; cbn [fits val]; [|lia].
  assert (I : inr (Z.quot (val x) (val y))) by (apply (inr_abs _ A); lia).
  assert (I' : inr (val x / val y)) by (apply (inr_abs _ A); lia).
  assert (N' : val y <> 0) by lia.
  auto 10.
Qed.

Lemma bnd_mod : forall x y A B, bnd x A -> bnd y B -> 0 < val y -> A <= i64_max -> B <= i64_max ->
  bnd (IMod x y) B.
Proof.
  intros x y A B [Fx Hx] [Fy Hy] N L L'.
  assert (Q := quot_abs_le (val x) (val y) ltac:(lia)).
  assert (R := Z.mod_pos_bound (val x) (val y) N).
  split; cbn [fits val]; [|lia].
  assert (I : inr (Z.quot (val x) (val y))) by (apply (inr_abs _ A); lia).
  assert (I' : inr (val x mod val y)) by (apply (inr_abs _ B); lia).
  assert (N' : val y <> 0) by lia.
  auto 10.
Qed.

Lemma fits_run : forall e, fits e -> run e = Ok (val e).
Proof.
  assert (C : forall z, inr z -> chk_i64 z = Ok z) by (intros z H; apply chk_in; exact H).
  assert (D : forall f g a b, b <> 0 -> inr (f a b) -> inr (g a b) ->
    chk_div f g (Ok a) (Ok b) = Ok (g a b)).
  { intros f g a b H1 H2 H3; unfold chk_div; cbn [bind].
    replace (b =? 0) with false by lia; cbn [negb assert bind].
    rewrite (C _ H2); cbn [bind]. apply C; assumption. }
  induction e; cbn [fits run val]; intro F; [reflexivity|..];
    repeat match goal with H : _ /\ _ |- _ => destruct H end;
    repeat match goal with IH : fits ?x -> _, H : fits ?x |- _ => rewrite (IH H); clear IH end;
    unfold chk2; cbn [bind]; auto.
Qed.

Lemma run_bnd : forall e B, bnd e B -> run e = Ok (val e).
Proof. intros e B [F _]; apply fits_run; assumption. Qed.

(** Bounds an expression from bounds of its constants found in the context. *)
Ltac ground := vm_compute; discriminate.
Ltac nonzero := cbn [val]; first [assumption | lia].
Ltac bnds :=
  lazymatch goal with
  | H : Z.abs ?z <= _ |- bnd (IC ?z) _ => apply bnd_c; exact H
  | |- bnd (IC Z0) _ => apply bnd_c; apply Z.le_refl
  | |- bnd (IC (Zpos _)) _ => apply bnd_c; apply Z.le_refl
  | |- bnd (IC (Zneg _)) _ => apply bnd_c; apply Z.le_refl
  | |- bnd (IAdd _ _) _ => eapply bnd_add; [bnds|bnds|ground]
  | |- bnd (ISub _ _) _ => eapply bnd_sub; [bnds|bnds|ground]
  | |- bnd (IMul _ _) _ =>
      first [ eapply bnd_mul_known;
                [bnds|bnds
                |cbn [val]; lazymatch goal with H : Z.abs ?z <= _ |- Z.abs ?z <= _ => exact H end
                |ground]
            | eapply bnd_mul; [bnds|bnds|ground] ]
  | |- bnd (INeg _) _ => eapply bnd_neg; [bnds|ground]
  | |- bnd (IAbs _) _ => eapply bnd_abs; [bnds|ground]
  | |- bnd (IQuot _ _) _ => eapply bnd_quot; [bnds|bnds|nonzero|ground]
  | |- bnd (IRem _ _) _ => eapply bnd_rem; [bnds|bnds|nonzero|ground]
  | |- bnd (IDiv _ _) _ => eapply bnd_div; [bnds|bnds|nonzero|ground]
  | |- bnd (IMod _ _) _ => eapply bnd_mod; [bnds|bnds|nonzero|ground|ground]
  end.

(** Evaluates the first checked operation of the goal. *)
Ltac goh H :=
  lazymatch goal with
  | |- context [run ?e] =>
      eassert (H : bnd e _) by bnds;
      rewrite (run_bnd e _ H); cbn [val bind];
      destruct H as [_ H]; cbn [val] in H;
      match type of H with _ <= ?B => let B' := eval vm_compute in B in
        change B with B' in H end
  end.
Ltac go := let H := fresh "Hb" in goh H; clear H.
(** As [go], naming the value [x] and keeping its bound [H]. *)
Ltac gon x H :=
  goh H; match type of H with Z.abs ?v <= _ => set (x := v) in * end.

Lemma abs_factor : forall a x B, 1 <= a -> Z.abs (a * x) <= B -> Z.abs x <= B.
Proof. intros a x B Ha H. rewrite Z.abs_mul in H. nia. Qed.

Lemma le_abs : forall x, x <= Z.abs x.
Proof. lia. Qed.

Lemma near_abs : forall a x s, a <= 32767 -> Z.abs (2 * (a * x + s)) <= a -> Z.abs s <= 2097152 ->
  Z.abs (a * x) <= 2113536.
Proof. lia. Qed.

(** *** The durations *)

Definition small (ds v0 vn a : Z) : Prop :=
  Z.abs ds <= 1099511627776 /\ 1 <= a <= 32767 /\ Z.abs v0 <= 1048576 /\ Z.abs vn <= 1048576.

Lemma speed_limited_ok : forall ds v0 vn a vmax, small ds v0 vn a -> 1 <= vmax <= 1048576 ->
  c_speed_limited_curve ds v0 vn a vmax = speed_limited_curve ds v0 vn a vmax.
Proof.
  intros ds v0 vn a vmax (Hds & Ha & Hv0 & Hvn) Hvm.
  assert (Ha' : Z.abs a <= 32767) by lia. assert (Hm : Z.abs vmax <= 1048576) by lia.
  unfold c_speed_limited_curve, speed_limited_curve.
  replace (a =? 0) with false by lia; replace (vmax =? 0) with false by lia; cbn [negb assert bind].
  gon t1 B1. gon dv1 B2. gon t4 B3. gon dv4 B4. gon s0 B5.
  destruct (ds >=? s0); [|reflexivity].
  go. reflexivity.
Qed.

(** The arguments at which the polynomial is evaluated have a * |x| below this. *)
Notation XB := 1090519040 (only parsing).

Lemma sqpoly_ok : forall a s c x, 1 <= a <= 32767 -> Z.abs s <= 2097152 ->
  Z.abs c <= 288230376151711744 -> Z.abs (a * x) <= XB ->
  c_sqpoly (a * a) (2 * a * s) c x = Ok (sqpoly (a * a) (2 * a * s) c x).
Proof.
  intros a s c x Ha Hs Hc Hx.
  assert (Hx1 : Z.abs x <= XB) by (apply (abs_factor a); [apply Ha|assumption]).
  assert (Ha2 : Z.abs (a * a) <= 1073676289) by nia.
  assert (Has : Z.abs (2 * a * s) <= 137434759168).
  { replace (2 * a * s) with ((2 * a) * s) by ring. apply (mul_abs_le (2 * a) s 65534 2097152); lia. }
  unfold c_sqpoly, sqpoly.
  assert (B1 : bnd (IMul (a * a) x) (32767 * XB)).
  { eapply bnd_mul_known; [bnds|bnds| |ground].
    cbn [val]. replace (a * a * x) with (a * (a * x)) by ring. apply mul_abs_le; lia. }
  assert (B2 : bnd (IMul (IMul (a * a) x) x) (XB * XB)).
  { eapply bnd_mul_known; [exact B1|bnds| |ground].
    cbn [val]. replace (a * a * x * x) with ((a * x) * (a * x)) by ring. apply mul_abs_le; lia. }
  assert (B3 : bnd (IMul (2 * a * s) x) (4194304 * XB)).
  { eapply bnd_mul_known; [bnds|bnds| |ground].
    cbn [val]. replace (2 * a * s * x) with ((2 * s) * (a * x)) by ring. apply mul_abs_le; lia. }
  eassert (B : bnd (ISub (IAdd (IMul (IMul (a * a) x) x) (IMul (2 * a * s) x)) c) _).
  { eapply bnd_sub; [eapply bnd_add; [exact B2|exact B3|ground]|bnds|ground]. }
  rewrite (run_bnd _ _ B). reflexivity.
Qed.

Lemma find_root_loop_ok : forall a s c, 1 <= a <= 32767 -> Z.abs s <= 2097152 ->
  Z.abs c <= 288230376151711744 -> forall fuel minx maxx miny maxy,
  - XB <= a * minx -> minx <= maxx -> a * maxx <= XB ->
  c_find_root_loop fuel (a * a) (2 * a * s) c minx maxx miny maxy =
  find_root_loop fuel (a * a) (2 * a * s) c minx maxx miny maxy.
Proof.
  intros a s c Ha Hs Hc; induction fuel as [|f IH]; intros minx maxx miny maxy H1 H2 H3;
    cbn [c_find_root_loop find_root_loop]; [reflexivity|].
  destruct (miny =? 0); [reflexivity|]. destruct (maxy =? 0); [reflexivity|].
  assert (Hmin : Z.abs minx <= XB) by nia. assert (Hmax : Z.abs maxx <= XB) by nia.
  go. destruct (Z.leb_spec (maxx - minx) 1) as [L|L]; [reflexivity|].
  go.
  assert (M : minx <= Z.quot (minx + maxx) 2 <= maxx) by (Z.to_euclidean_division_equations; lia).
  set (mid := Z.quot (minx + maxx) 2) in *.
  assert (M1 : a * minx <= a * mid) by (apply Z.mul_le_mono_nonneg_l; lia).
  assert (M2 : a * mid <= a * maxx) by (apply Z.mul_le_mono_nonneg_l; lia).
  rewrite sqpoly_ok by (try assumption; lia). cbn [bind].
  destruct (same_sign _ _); apply IH; lia.
Qed.

Lemma find_root_ok : forall a s c min max, 1 <= a <= 32767 -> Z.abs s <= 2097152 ->
  Z.abs c <= 288230376151711744 ->
  - XB <= a * min -> min <= max -> a * max <= XB ->
  c_find_root (a * a) (2 * a * s) c min max = find_root (a * a) (2 * a * s) c min max.
Proof.
  intros a s c min max Ha Hs Hc H1 H2 H3; unfold c_find_root, find_root.
  assert (M : a * min <= a * max) by (apply Z.mul_le_mono_nonneg_l; lia).
  rewrite sqpoly_ok by (try assumption; lia). cbn [bind].
  rewrite sqpoly_ok by (try assumption; lia). cbn [bind].
  destruct (_ =? 0); [reflexivity|]. destruct (_ =? 0); [reflexivity|].
  destruct (same_sign _ _); [reflexivity|].
  apply find_root_loop_ok; assumption.
Qed.

Lemma acc_vertex_near : forall v0 vn a, 1 <= a ->
  Z.abs (2 * (a * acc_vertex v0 vn a + (v0 + vn))) <= a.
Proof.
  intros v0 vn a Ha; unfold acc_vertex.
  destruct (Z.geb_spec (v0 + vn) 0) as [G|G]; Z.to_euclidean_division_equations; nia.
Qed.

(** The polynomial near its least point: it is positive beyond the bound. *)
Lemma limit_small : forall a s c x l, 1 <= a <= 32767 ->
  Z.abs (2 * (a * x + s)) <= a -> 16 <= l -> c + s * s <= 144115188075855872 ->
  sqpoly (a * a) (2 * a * s) c (x + l) <= 0 -> a * l <= 400000000.
Proof.
  intros a s c x l Ha Hx Hl Hc Hp.
  destruct (Z_le_gt_dec (a * l) 400000000) as [L|G]; [assumption|exfalso].
  assert (E : sqpoly (a * a) (2 * a * s) c (x + l)
              = (a * l + (a * x + s)) * (a * l + (a * x + s)) - (c + s * s))
    by (unfold sqpoly; ring).
  rewrite E in Hp.
  assert (K : 399983616 <= a * l + (a * x + s)) by lia.
  assert (Q : 399983616 * 399983616 <= (a * l + (a * x + s)) * (a * l + (a * x + s)))
    by (apply Z.mul_le_mono_nonneg; lia).
  lia.
Qed.

Lemma limit_loop_ok : forall a s c x, 1 <= a <= 32767 -> Z.abs s <= 2097152 ->
  Z.abs c <= 144115188075855872 -> c + s * s <= 144115188075855872 ->
  Z.abs (2 * (a * x + s)) <= a ->
  forall fuel l, 16 <= l -> a * l <= 1000000000 ->
  c_limit_loop fuel (a * a) (2 * a * s) c x l = limit_loop fuel (a * a) (2 * a * s) c x l /\
  forall l', limit_loop fuel (a * a) (2 * a * s) c x l = Ok l' -> 16 <= l' /\ a * l' <= 1000000000.
Proof.
  intros a s c x Ha Hs Hc Hcs Hx.
  assert (Hax : Z.abs (a * x) <= 2113536) by lia.
  assert (Hx1 : Z.abs x <= 2113536) by (apply (abs_factor a); [apply Ha|assumption]).
  induction fuel as [|f IH]; intros l Hl Hal; cbn [c_limit_loop limit_loop].
  - assert (Hl1 : Z.abs l <= 1000000000) by nia.
    go. rewrite sqpoly_ok by (try assumption; lia). cbn [bind].
    destruct (Z.leb_spec (sqpoly (a * a) (2 * a * s) c (x + l)) 0) as [L|L]; split;
      try reflexivity; intros l' E; inversion E; subst; auto.
  - assert (Hl1 : Z.abs l <= 1000000000) by nia.
    go. rewrite sqpoly_ok by (try assumption; lia). cbn [bind].
    destruct (Z.leb_spec (sqpoly (a * a) (2 * a * s) c (x + l)) 0) as [L|L].
    + go. apply limit_small in L; [|assumption..].
      apply IH; lia.
    + split; [reflexivity|]. intros l' E; inversion E; subst; auto.
Qed.

Lemma max_acceleration_core : forall v c a x tmin, 1 <= a <= 32767 -> Z.abs v <= 2097152 ->
  Z.abs c <= 144115188075855872 -> c + v * v <= 144115188075855872 ->
  Z.abs (2 * (a * x + v)) <= a ->
  (let! ymin := c_sqpoly (a * a) (2 * a * v) c x in
   if ymin >=? 0 then Ok (mr_range tmin i64_max)
   else
     let! limit0 := c_limit_loop (limit_fuel ymin) (a * a) (2 * a * v) c x 16 in
     let! limit := i64 (limit0 + 1) in
     let! xl := i64 (x - limit) in
     let! r1 := c_find_root (a * a) (2 * a * v) c xl x in
     let! xh := i64 (x + limit) in
     let! r2 := c_find_root (a * a) (2 * a * v) c x xh in
     match r1, r2 with
     | Some min, Some max =>
         let! r := mr_or mr_new i64_min min in
         let! r := mr_or r max i64_max in
         Ok (mr_and r tmin i64_max)
     | _, _ => Panic
     end) =
  (if sqpoly (a * a) (2 * a * v) c x >=? 0 then Ok (mr_range tmin i64_max)
   else
     let! limit0 := limit_loop (limit_fuel (sqpoly (a * a) (2 * a * v) c x)) (a * a) (2 * a * v) c x 16 in
     let! r1 := find_root (a * a) (2 * a * v) c (x - (limit0 + 1)) x in
     let! r2 := find_root (a * a) (2 * a * v) c x (x + (limit0 + 1)) in
     match r1, r2 with
     | Some min, Some max =>
         let! r := mr_or mr_new i64_min min in
         let! r := mr_or r max i64_max in
         Ok (mr_and r tmin i64_max)
     | _, _ => Panic
     end).
Proof.
  intros v c a x tmin Ha S2 C1 C2 X.
  assert (Hax : Z.abs (a * x) <= 2113536) by (apply (near_abs a x v); [apply Ha|assumption..]).
  assert (Hx1 : Z.abs x <= 2113536) by (apply (abs_factor a); [apply Ha|assumption]).
  rewrite sqpoly_ok by (try assumption; lia). cbn [bind].
  destruct (_ >=? 0); [reflexivity|].
  destruct (limit_loop_ok a v c x Ha S2 C1 C2 X
    (limit_fuel (sqpoly (a * a) (2 * a * v) c x)) 16 ltac:(lia) ltac:(lia)) as [E L].
  rewrite E; clear E.
  destruct (limit_loop _ _ _ _ _ _) as [l| |]; [|reflexivity..]. cbn [bind].
  destruct (L l eq_refl) as [L1 L2]; clear L.
  assert (Hl1 : Z.abs l <= 1000000000) by (apply (abs_factor a); [apply Ha|]; rewrite Z.abs_eq; nia).
  assert (Hl2 : Z.abs (l + 1) <= 1000000001) by lia.
  assert (A2 : a * (x - (l + 1)) = a * x - (a * l + a)) by ring.
  assert (A3 : a * (x + (l + 1)) = a * x + (a * l + a)) by ring.
  go. go.
  rewrite find_root_ok; [|assumption|assumption|lia..].
  destruct (find_root _ _ _ _ _) as [r1| |]; [|reflexivity..]. cbn [bind].
  go.
  rewrite find_root_ok; [|assumption|assumption|lia..].
  reflexivity.
Qed.

Lemma max_acceleration_ok : forall ds v0 vn a, small ds v0 vn a ->
  c_max_acceleration_curve ds v0 vn a = max_acceleration_curve ds v0 vn a.
Proof.
  intros ds v0 vn a (Hds & Ha & Hv0 & Hvn).
  assert (Ha' : Z.abs a <= 32767) by lia.
  unfold c_max_acceleration_curve, max_acceleration_curve.
  replace (a =? 0) with false by lia; cbn [negb assert bind].
  assert (T : (if negb (v0 =? vn) then run (IQuot (ISub (IAdd (IAbs (ISub v0 vn)) a) 1) a) else Ok 1)
    = Ok (if negb (v0 =? vn) then Z.quot (Z.abs (v0 - vn) + a - 1) a else 1)).
  { destruct (negb (v0 =? vn)); [go|]; reflexivity. }
  rewrite T; clear T; cbn [bind].
  go. go. gon c Bc. gon s Bs.
  destruct (s <? 0); [reflexivity|].
  assert (V : c_acc_vertex v0 vn a = Ok (acc_vertex v0 vn a)).
  { clear Bc Bs c s. unfold c_acc_vertex, acc_vertex. go. destruct (v0 + vn >=? 0); go; reflexivity. }
  rewrite V; clear V; cbn [bind].
  assert (X := acc_vertex_near v0 vn a (proj1 Ha)).
  set (x := acc_vertex v0 vn a) in *.
  assert (S2 : Z.abs (v0 + vn) <= 2097152) by (clear - Hv0 Hvn; lia).
  assert (C1 : Z.abs c <= 144115188075855872)
    by (eapply Z.le_trans; [exact Bc|vm_compute; discriminate]).
  assert (C2 : c + (v0 + vn) * (v0 + vn) <= 144115188075855872)
    by (eapply Z.le_trans; [apply le_abs|]; eapply Z.le_trans; [exact Bs|vm_compute; discriminate]).
  clear Bc Bs. clearbody s c x. clear s.
  apply max_acceleration_core; assumption.
Qed.

Lemma small_opp : forall ds v0 vn a, small ds v0 vn a -> small (- ds) (- v0) (- vn) a.
Proof. unfold small; intros; lia. Qed.

Lemma lengths_ok : forall ds v0 vn a vmax, small ds v0 vn a -> 1 <= vmax <= 1048576 ->
  c_shortest_curve_length ds v0 vn a vmax = shortest_curve_length ds v0 vn a vmax.
Proof.
  intros ds v0 vn a vmax H Hv. unfold c_shortest_curve_length, shortest_curve_length.
  assert (H' := small_opp _ _ _ _ H).
  rewrite speed_limited_ok by assumption.
  destruct (speed_limited_curve ds v0 vn a vmax) as [pos| |]; [|reflexivity..]. cbn [bind].
  rewrite max_acceleration_ok by assumption.
  destruct (if mr_is_empty pos then _ else _) as [pos'| |]; [|reflexivity..]. cbn [bind].
  assert (K := H). destruct K as (Hds & Ha & Hv0 & Hvn).
  go. go. go.
  rewrite speed_limited_ok by assumption.
  destruct (speed_limited_curve (- ds) (- v0) (- vn) a vmax) as [neg| |]; [|reflexivity..]. cbn [bind].
  rewrite max_acceleration_ok by assumption. reflexivity.
Qed.

(** *** The plan for a duration *)

(** Durations for which the search for a plan cannot overflow. *)
Definition short (a t : Z) : Prop := 1 <= t /\ a * t * t <= 288230376151711744.

Lemma short_time : forall a t, 1 <= a -> short a t -> t <= 536870912.
Proof.
  intros a t Ha [H1 H2]. destruct (Z_le_gt_dec t 536870912) as [L|G]; [assumption|exfalso].
  assert (t * t <= a * t * t) by nia.
  assert (536870913 * 536870913 <= t * t) by (apply Z.mul_le_mono_nonneg; lia).
  lia.
Qed.

Lemma short_speed : forall a t, 1 <= a <= 32767 -> short a t -> 1 <= a * t <= 137438953472.
Proof.
  intros a t Ha [H1 H2]. split; [nia|].
  destruct (Z_le_gt_dec (a * t) 137438953472) as [L|G]; [assumption|exfalso].
  assert ((a * t) * (a * t) <= 32767 * 288230376151711744).
  { replace ((a * t) * (a * t)) with (a * (a * t * t)) by ring.
    apply Z.mul_le_mono_nonneg; nia. }
  assert (137438953473 * 137438953473 <= (a * t) * (a * t)) by (apply Z.mul_le_mono_nonneg; lia).
  lia.
Qed.

Lemma div_rem_away_ok : forall d a, 1 <= a <= 32767 -> Z.abs d <= 4611686018427387904 ->
  c_div_rem_away d a = div_rem_away d a.
Proof.
  intros d a Ha Hd. assert (Ha' : Z.abs a <= 32767) by lia.
  unfold c_div_rem_away, div_rem_away. replace (a >? 0) with true by lia. cbn [assert bind].
  gon q Bq. gon r Br. destruct (r ?= 0); [reflexivity|go; go; reflexivity..].
Qed.

Lemma div_rem_away_val : forall d a, 1 <= a ->
  exists q r, div_rem_away d a = Ok (q, r) /\ a * q + r = d /\ Z.abs r < a /\
    Z.abs q * a <= Z.abs d + a - 1 /\ (r <> 0 -> 1 <= Z.abs q).
Proof.
  intros d a Ha. unfold div_rem_away. replace (a >? 0) with true by lia. cbn [assert bind].
  assert (E := Z.quot_rem' d a). assert (R := Z.rem_bound_abs d a ltac:(lia)).
  assert (S : (0 <= d -> 0 <= Z.quot d a /\ 0 <= Z.rem d a) /\ (d <= 0 -> Z.quot d a <= 0 /\ Z.rem d a <= 0)).
  { split; intro H.
    - split; [apply Z.quot_pos; lia|apply Z.rem_nonneg; lia].
    - split; [|apply Z.rem_nonpos; lia].
      assert (P := Z.quot_pos (- d) a ltac:(lia) ltac:(lia)). rewrite Z.quot_opp_l in P by lia. lia. }
  destruct S as [S1 S2]. revert E R S1 S2. generalize (Z.quot d a) (Z.rem d a). intros q r E R S1 S2.
  destruct (r ?= 0) eqn:C.
  - apply Z.compare_eq in C. subst r. exists q, 0. split; [reflexivity|].
    destruct (Z_le_gt_dec 0 d) as [G|G];
      [destruct (S1 G)|destruct (S2 ltac:(lia))];
      [rewrite (Z.abs_eq q) by lia|rewrite (Z.abs_neq q) by lia]; lia.
  - change (r < 0) in C. exists (q - 1), (r + a). split; [reflexivity|].
    assert (G : d <= 0) by lia. destruct (S2 G) as [G1 G2].
    rewrite (Z.abs_neq (q - 1)) by lia. lia.
  - apply Z.compare_gt_iff in C. exists (q + 1), (r - a). split; [reflexivity|].
    assert (G : 0 <= d) by lia. destruct (S1 G) as [G1 G2].
    rewrite (Z.abs_eq (q + 1)) by lia. lia.
Qed.

Lemma quot_times : forall n d, d <> 0 -> Z.abs (Z.quot n d * d) <= Z.abs n.
Proof.
  intros n d Hd. rewrite Z.abs_mul, <- Z.quot_abs by assumption.
  rewrite Z.quot_div_nonneg by lia. rewrite Z.mul_comm.
  apply Z.mul_div_le. lia.
Qed.

Lemma away_count : forall q a d t K, 1 <= a -> 0 <= t -> 0 <= K ->
  Z.abs q * a <= Z.abs d + a - 1 -> Z.abs d <= a * t + K -> Z.abs q <= t + K + 1.
Proof. intros. nia. Qed.

Notation PB := 6341068275337723904 (only parsing).

Lemma path_distance_ok : forall v0 vn vf a t, 1 <= a <= 32767 -> short a t ->
  Z.abs v0 <= 1048576 -> Z.abs vn <= 1048576 -> Z.abs vf <= a * t + 2097152 ->
  c_path_distance v0 vn vf a t = path_distance v0 vn vf a t /\
  exists s, path_distance v0 vn vf a t = Ok s /\ Z.abs s <= PB.
Proof.
  intros v0 vn vf a t Ha Hs Hv0 Hvn Hvf.
  assert (T1 := short_time a t (proj1 Ha) Hs).
  assert (T2 := short_speed a t Ha Hs).
  destruct Hs as [T0 T3].
  assert (Ht : Z.abs t <= 536870912) by lia.
  assert (Hvf' : Z.abs vf <= 137441050624) by lia.
  unfold c_path_distance, path_distance.
  go. rewrite div_rem_away_ok by lia.
  destruct (div_rem_away_val (vf - v0) a (proj1 Ha)) as (q1 & r1 & E1 & F1 & R1 & Q1 & _).
  rewrite E1; cbn [bind].
  go. rewrite div_rem_away_ok by lia.
  destruct (div_rem_away_val (vf - vn) a (proj1 Ha)) as (q4 & r4 & E4 & F4 & R4 & Q4 & _).
  rewrite E4; cbn [bind].
  assert (N1 : Z.abs q1 <= t + 3145728 + 1) by (apply (away_count q1 a (vf - v0)); clear - Ha T0 Q1 Hvf Hv0; lia).
  assert (N4 : Z.abs q4 <= t + 3145728 + 1) by (apply (away_count q4 a (vf - vn)); clear - Ha T0 Q4 Hvf Hvn; lia).
  clear E1 F1 Q1 E4 F4 Q4.
  assert (M1 : Z.abs q1 <= 540016641) by lia. assert (M4 : Z.abs q4 <= 540016641) by lia.
  go. go.
  assert (K1 : Z.abs (Z.abs q1) <= 540016641) by (clear - M1; lia).
  assert (K4 : Z.abs (Z.abs q4) <= 540016641) by (clear - M4; lia).
  assert (R1' : Z.abs r1 <= 32767) by (clear - Ha R1; lia).
  assert (R4' : Z.abs r4 <= 32767) by (clear - Ha R4; lia).
  assert (P1 : Z.abs ((vf - r1 + v0) * Z.abs q1) <= 1152921504606846976).
  { eapply Z.le_trans; [apply (mul_abs_le _ _ (a * t + 4194304) (t + 3145729)); clear - Hvf R1' Hv0 N1; lia|].
    clear - T1 T2 T3; lia. }
  assert (P4 : Z.abs ((vf - r4 + vn) * Z.abs q4) <= 1152921504606846976).
  { eapply Z.le_trans; [apply (mul_abs_le _ _ (a * t + 4194304) (t + 3145729)); clear - Hvf R4' Hvn N4; lia|].
    clear - T1 T2 T3; lia. }
  assert (P2 : Z.abs (2 * vf * (t - Z.abs q1 - Z.abs q4)) <= 4035225266123964416).
  { eapply Z.le_trans; [apply (mul_abs_le _ _ (2 * (a * t) + 4194304) (3 * t + 6291458)); clear - T0 Hvf N1 N4; lia|].
    clear - T1 T2 T3; lia. }
  goh B. split; [reflexivity|]. eexists; split; [reflexivity|].
  eapply Z.le_trans; [exact B|]. vm_compute; discriminate.
Qed.

Lemma adjust_loop_ok : forall t ds v0 vn a, 1 <= a <= 32767 -> short a t ->
  Z.abs v0 <= 1048576 -> Z.abs vn <= 1048576 ->
  forall fuel min smin max smax,
  Z.abs min <= a * t + 2097152 -> Z.abs max <= a * t + 2097152 ->
  Z.abs smin <= PB -> Z.abs smax <= PB ->
  c_adjust_loop fuel t ds v0 vn a min smin max smax = adjust_loop fuel t ds v0 vn a min smin max smax /\
  forall m1 s1 m2 s2, adjust_loop fuel t ds v0 vn a min smin max smax = Ok (m1, s1, m2, s2) ->
    Z.abs m1 <= a * t + 2097152 /\ Z.abs s1 <= PB /\ Z.abs m2 <= a * t + 2097152 /\ Z.abs s2 <= PB.
Proof.
  intros t ds v0 vn a Ha Hs Hv0 Hvn.
  assert (T2 := short_speed a t Ha Hs).
  induction fuel as [|f IH]; intros min smin max smax H1 H2 H3 H4; cbn [c_adjust_loop adjust_loop];
    assert (H1' : Z.abs min <= 137441050624) by lia; assert (H2' : Z.abs max <= 137441050624) by lia.
  - go. destruct (max - min <=? 1); (split; [reflexivity|]); intros m1 s1 m2 s2 E; inversion E; subst; auto.
  - go. destruct (max - min <=? 1).
    + split; [reflexivity|]. intros m1 s1 m2 s2 E; inversion E; subst; auto.
    + go.
      assert (M : Z.abs (Z.quot (max + min) 2) <= a * t + 2097152).
      { clear - H1 H2. Z.to_euclidean_division_equations; lia. }
      destruct (path_distance_ok v0 vn _ a t Ha Hs Hv0 Hvn M) as [E1 (s & E2 & B)].
      rewrite E1, E2; cbn [bind].
      destruct (s >=? ds); apply IH; assumption.
Qed.

Lemma half_times : forall n a, 1 <= a -> 2 * Z.abs (Z.quot n (2 * a) * a) <= Z.abs n.
Proof.
  intros n a Ha. assert (H := quot_times n (2 * a) ltac:(lia)).
  replace (Z.quot n (2 * a) * (2 * a)) with (2 * (Z.quot n (2 * a) * a)) in H by ring.
  lia.
Qed.

Lemma adjust_bounds_ok : forall t v0 vn a, 1 <= a <= 32767 -> short a t ->
  Z.abs v0 <= 1048576 -> Z.abs vn <= 1048576 ->
  c_adjust_bounds t v0 vn a = adjust_bounds t v0 vn a /\
  forall min max, adjust_bounds t v0 vn a = Ok (min, max) ->
    Z.abs min <= a * t + 2097152 /\ Z.abs max <= a * t + 2097152.
Proof.
  intros t v0 vn a Ha Hs Hv0 Hvn.
  assert (T1 := short_time a t (proj1 Ha) Hs).
  assert (T2 := short_speed a t Ha Hs).
  destruct Hs as [T0 T3].
  assert (Ht : Z.abs t <= 536870912) by lia.
  assert (Ha' : Z.abs a <= 32767) by lia.
  unfold c_adjust_bounds, adjust_bounds.
  replace (a =? 0) with false by lia; cbn [negb assert bind].
  assert (NZ : 2 * a <> 0) by lia.
  gon lo B1. gon hi B2. go.
  destruct (lo + hi <=? t); cbn [assert bind]; [|split; [reflexivity|discriminate]].
  go. destruct (lo + hi >=? t - 1); cbn [assert bind]; [|split; [reflexivity|discriminate]].
  assert (L1 : 2 * Z.abs (lo * a) <= Z.abs (t * a - (v0 - vn))) by apply half_times, Ha.
  assert (L2 : 2 * Z.abs (hi * a) <= Z.abs (t * a - (vn - v0))) by apply half_times, Ha.
  clearbody lo hi.
  assert (X1 : Z.abs (v0 + lo * a) <= a * t + 2097152) by (clear - L1 Hv0 Hvn T2; lia).
  assert (X2 : Z.abs (vn + hi * a) <= a * t + 2097152) by (clear - L2 Hv0 Hvn T2; lia).
  assert (Y1 : Z.abs (vn + lo * - a) <= a * t + 2097152) by (clear - L1 Hv0 Hvn T2; lia).
  assert (Y2 : Z.abs (v0 + hi * - a) <= a * t + 2097152) by (clear - L2 Hv0 Hvn T2; lia).
  clear L1 L2.
  assert (MX : (if hi =? 0 then i64 (v0 + lo * a)
     else if lo =? 0 then i64 (vn + hi * a)
     else
       let! x := i64 (v0 + lo * a) in
       let! y := i64 (vn + hi * a) in
       Ok (max_i64 x y)) =
     Ok (if hi =? 0 then v0 + lo * a
         else if lo =? 0 then vn + hi * a
         else max_i64 (v0 + lo * a) (vn + hi * a))).
  { destruct (hi =? 0); [go; reflexivity|]. destruct (lo =? 0); [go; reflexivity|].
    go. go. reflexivity. }
  rewrite MX; clear MX; cbn [bind].
  assert (MN : (if hi =? 0 then i64 (vn + lo * - a)
     else if lo =? 0 then i64 (v0 + hi * - a)
     else
       let! x := i64 (v0 + hi * - a) in
       let! y := i64 (vn + lo * - a) in
       Ok (min_i64 x y)) =
     Ok (if hi =? 0 then vn + lo * - a
         else if lo =? 0 then v0 + hi * - a
         else min_i64 (v0 + hi * - a) (vn + lo * - a))).
  { destruct (hi =? 0); [go; reflexivity|]. destruct (lo =? 0); [go; reflexivity|].
    go. go. reflexivity. }
  rewrite MN; clear MN; cbn [bind].
  split; [reflexivity|]. intros min max E.
  apply bind_Ok in E. destruct E as (u & _ & E). inversion E; clear E.
  unfold min_i64, max_i64.
  repeat match goal with |- context [if ?b then _ else _] => destruct b end; auto.
Qed.

(** Bounds of a plan that are enough for its expansion. *)
Definition tame (t : Z) (p : distance_path) : Prop :=
  Z.abs (p_v0 p) <= 1048576 /\ Z.abs (p_vn p) <= 1048576 /\ 1 <= p_amax p <= 32767 /\
  p_t_total p = t /\ Z.abs (p_vflat p) <= 2305843009213693952 /\
  Z.abs (p_t_adjust p) <= 3574148109275758592.

Lemma mid_time : forall x k t_acc ds m, 0 < k -> 0 <= x -> x = ds - m + k -> ds <= k * t_acc + m ->
  0 <= Z.quot x k <= t_acc + 1.
Proof.
  intros x k t_acc ds m Hk Hx E H. split; [apply Z.quot_pos; lia|].
  rewrite Z.quot_div_nonneg by lia.
  assert (x / k < t_acc + 2); [|lia].
  apply Z.div_lt_upper_bound; nia.
Qed.

Lemma quot2_abs : forall x B, Z.abs x <= B -> Z.abs (Z.quot x 2) <= Z.quot B 2.
Proof. intros x B H. Z.to_euclidean_division_equations; lia. Qed.

Lemma bnd_half : forall x A, bnd x A -> A <= i64_max -> bnd (IQuot x 2) (Z.quot A 2).
Proof.
  intros x A Hx L. assert (Q : bnd (IQuot x 2) A).
  { eapply (bnd_quot x 2 A 2); [assumption|apply bnd_c; lia|cbn [val]; lia|assumption]. }
  split; [apply Q|]. cbn [val]. apply quot2_abs, Hx.
Qed.

Lemma adjust_mid_ok : forall t ds v0 vn a, small ds v0 vn a -> short a t ->
  forall o, adjust_curve_mid t ds v0 vn a = Ok o ->
  c_adjust_curve_mid t ds v0 vn a = Ok o /\ forall p, o = Some p -> tame t p.
Proof.
  intros t ds v0 vn a (Hds & Ha & Hv0 & Hvn) Hs o.
  assert (T1 := short_time a t (proj1 Ha) Hs).
  assert (T2 := short_speed a t Ha Hs).
  destruct Hs as [T0 T3].
  assert (Ht : Z.abs t <= 536870912) by lia.
  assert (Ha' : Z.abs a <= 32767) by lia.
  assert (Hat : Z.abs (a * t) <= 137438953472) by lia.
  clear T1 T2 T3.
  unfold c_adjust_curve_mid, adjust_curve_mid.
  replace (a =? 0) with false by lia; cbn [negb assert bind].
  assert (Vs : exists vl vh, (if v0 <=? vn then (v0, vn) else (vn, v0)) = (vl, vh) /\
    Z.abs vl <= 1048576 /\ Z.abs vh <= 1048576 /\ vl <= vh).
  { destruct (Z.leb_spec v0 vn); eexists _, _; (split; [reflexivity|]); lia. }
  destruct Vs as (vl & vh & -> & Hvl & Hvh & Hlh).
  assert (NZ : a <> 0) by lia.
  gon ta Bta.
  assert (Kta : Z.abs (ta * a) <= 2097153).
  { eapply Z.le_trans; [apply quot_times; assumption|]. lia. }
  assert (Kta' : Z.abs (a * ta) <= 2097153) by (rewrite Z.mul_comm; assumption).
  gon k Bk. gon m Bm.
  destruct (Z.eqb_spec k 0) as [K0|K0].
  { intro E; inversion E; subst o; clear E. gon vf Bvf. split; [reflexivity|].
    intros p E; inversion E; subst p; clear E.
    unfold tame; cbn [p_v0 p_vn p_amax p_t_total p_vflat p_t_adjust].
    split; [assumption|split; [assumption|split; [assumption|split; [reflexivity|]]]].
    split; [eapply Z.le_trans; [exact Bvf|]; vm_compute; discriminate|vm_compute; discriminate]. }
  gon smax Bsmax. gon smin Bsmin.
  destruct (Z.ltb_spec smax ds) as [C1|C1]; cbn [orb].
  { intro E; inversion E; subst o; clear E. split; [reflexivity|discriminate]. }
  destruct (smin >? ds).
  { intro E; inversion E; subst o; clear E. split; [reflexivity|discriminate]. }
  destruct (Z.gtb_spec k 0) as [Kp|Kp]; cbn [assert bind]; [|discriminate].
  gon x Bx.
  destruct (Z.geb_spec x 0) as [Xp|Xp]; cbn [assert bind]; [|discriminate].
  go. fold x. set (t' := Z.quot x k) in *.
  assert (Q : 0 <= t' <= ta + 1).
  { apply (mid_time x k ta ds m); [lia|lia|reflexivity|exact C1]. }
  assert (Bt' : Z.abs t' <= 2097154) by (clear - Q Bta; clearbody ta t'; lia).
  assert (Kt : Z.abs (k * t') <= Z.abs x) by (rewrite Z.mul_comm; apply quot_times; assumption).
  match type of Bx with _ <= ?B => assert (Kt' : Z.abs (k * t') <= B) by (eapply Z.le_trans; [exact Kt|exact Bx]) end.
  clear Kt.
  assert (Kat : Z.abs (a * t') <= 2129920).
  { clear - Q Kta' Ha. clearbody ta t'. nia. }
  assert (Kat' : Z.abs (t' * a) <= 2129920) by (rewrite Z.mul_comm; exact Kat).
  gon sh Bsh. gon sp Bsp.
  clearbody t' sh sp x smax smin m ta k.
  destruct (ds >=? sp).
  - gon vm Bvm.
    destruct (Z.eqb_spec (2 * (t - ta - 1)) 0) as [D0|D0]; cbn [negb assert bind]; [discriminate|].
    gon vf Bvf.
    assert (Kq : Z.abs (2 * (vm - vf) * (t - ta - 1)) <= Z.abs (sh - ds)).
    { replace (2 * (vm - vf) * (t - ta - 1)) with (Z.quot (sh - ds) (2 * (t - ta - 1)) * (2 * (t - ta - 1)))
        by (unfold vf; ring).
      apply quot_times; assumption. }
    assert (Kq' : Z.abs (2 * (vm - vf) * (t - ta - 1)) <= 1152921504606846976)
      by (clear - Kq Bsh Hds; lia).
    gon s Bs.
    eassert (Bj : bnd (IQuot (ISub ds s) 2) _) by (eapply bnd_half; [bnds|ground]).
    rewrite (run_bnd _ _ Bj); cbn [val bind]. destruct Bj as [_ Bj]; cbn [val] in Bj.
    intro E; inversion E; subst o; clear E. split; [reflexivity|].
    intros p E; inversion E; subst p; clear E.
    unfold tame; cbn [p_v0 p_vn p_amax p_t_total p_vflat p_t_adjust].
    split; [assumption|split; [assumption|split; [assumption|split; [reflexivity|]]]].
    split; [eapply Z.le_trans; [exact Bvf|]|eapply Z.le_trans; [exact Bj|]]; vm_compute; discriminate.
  - gon vm Bvm.
    destruct (Z.eqb_spec (2 * (t - ta)) 0) as [D0|D0]; cbn [negb assert bind]; [discriminate|].
    gon vf Bvf.
    assert (Kq : Z.abs (2 * (vm - vf) * (t - ta)) <= Z.abs (sp - ds)).
    { replace (2 * (vm - vf) * (t - ta)) with (Z.quot (sp - ds) (2 * (t - ta)) * (2 * (t - ta)))
        by (unfold vf; ring).
      apply quot_times; assumption. }
    assert (Kq' : Z.abs (2 * (vm - vf) * (t - ta)) <= 2305843009213693952)
      by (clear - Kq Bsp Hds; lia).
    gon s Bs.
    eassert (Bj : bnd (IQuot (ISub ds s) 2) _) by (eapply bnd_half; [bnds|ground]).
    rewrite (run_bnd _ _ Bj); cbn [val bind]. destruct Bj as [_ Bj]; cbn [val] in Bj.
    intro E; inversion E; subst o; clear E. split; [reflexivity|].
    intros p E; inversion E; subst p; clear E.
    unfold tame; cbn [p_v0 p_vn p_amax p_t_total p_vflat p_t_adjust].
    split; [assumption|split; [assumption|split; [assumption|split; [reflexivity|]]]].
    split; [eapply Z.le_trans; [exact Bvf|]|eapply Z.le_trans; [exact Bj|]]; vm_compute; discriminate.
Qed.

Lemma adjust_curve_ok : forall t ds v0 vn a, small ds v0 vn a -> short a t ->
  forall p, adjust_curve t ds v0 vn a = Ok p ->
  c_adjust_curve t ds v0 vn a = Ok p /\ tame t p.
Proof.
  intros t ds v0 vn a Hsm Hs p.
  assert (K := Hsm). destruct K as (Hds & Ha & Hv0 & Hvn).
  unfold c_adjust_curve, adjust_curve.
  destruct (Z.eqb_spec t 1) as [T|T].
  { go. destruct (_ <=? 1); cbn [assert bind]; [|discriminate].
    intro E; inversion E; subst p; clear E. split; [reflexivity|].
    unfold tame; cbn [p_v0 p_vn p_amax p_t_total p_vflat p_t_adjust]. cbn [Z.abs]. lia. }
  destruct (adjust_curve_mid t ds v0 vn a) as [o| |] eqn:Em; cbn [bind]; [|discriminate..].
  destruct (adjust_mid_ok t ds v0 vn a Hsm Hs o Em) as [-> Tm]; cbn [bind].
  destruct o as [p'|].
  { intro E; inversion E; subst p'; clear E. auto. }
  clear Tm Em.
  destruct (adjust_bounds_ok t v0 vn a Ha Hs Hv0 Hvn) as [-> Bb].
  destruct (adjust_bounds t v0 vn a) as [[mn mx]| |]; cbn [bind]; [|discriminate..].
  destruct (Bb mn mx eq_refl) as [B1 B2]; clear Bb.
  destruct (path_distance_ok v0 vn mx a t Ha Hs Hv0 Hvn B2) as [E1 (smx & E2 & S2)].
  rewrite E1, E2; clear E1 E2; cbn [bind].
  destruct (path_distance_ok v0 vn mn a t Ha Hs Hv0 Hvn B1) as [E1 (smn & E2 & S1)].
  rewrite E1, E2; clear E1 E2; cbn [bind].
  destruct (smx >=? ds); cbn [assert bind]; [|discriminate].
  destruct (smn <=? ds); cbn [assert bind]; [|discriminate].
  destruct (adjust_loop_ok t ds v0 vn a Ha Hs Hv0 Hvn (bisect_fuel (mx - mn)) mn smn mx smx B1 B2 S1 S2)
    as [-> Bl].
  destruct (adjust_loop _ _ _ _ _ _ _ _ _ _) as [[[[m1 s1] m2] s2]| |]; cbn [bind]; [|discriminate..].
  destruct (Bl m1 s1 m2 s2 eq_refl) as (C1 & C2 & C3 & C4); clear Bl.
  assert (T2 := short_speed a t Ha Hs).
  assert (D1 : Z.abs m1 <= 137441050624) by (clear - C1 T2; lia).
  assert (D2 : Z.abs m2 <= 137441050624) by (clear - C3 T2; lia).
  assert (TM : forall vf adj, Z.abs vf <= 137441050624 -> Z.abs adj <= 3574148109275758592 ->
    tame t (mk_path v0 vn a vf t adj)).
  { intros vf adj G1 G2. unfold tame; cbn [p_v0 p_vn p_amax p_t_total p_vflat p_t_adjust].
    split; [assumption|split; [assumption|split; [assumption|split; [reflexivity|split]]]]; [|exact G2].
    eapply Z.le_trans; [exact G1|vm_compute; discriminate]. }
  assert (Z0 : Z.abs 0 <= 3574148109275758592) by (vm_compute; discriminate).
  destruct (s2 =? ds).
  { intro E; inversion E; subst p; clear E. split; [reflexivity|]. apply TM; assumption. }
  destruct (s1 =? ds).
  { intro E; inversion E; subst p; clear E. split; [reflexivity|]. apply TM; assumption. }
  destruct (_ || _).
  - eassert (Bj : bnd (IQuot (ISub ds s1) 2) _) by (eapply bnd_half; [bnds|ground]).
    rewrite (run_bnd _ _ Bj); cbn [val bind]. destruct Bj as [_ Bj]; cbn [val] in Bj.
    intro E; inversion E; subst p; clear E. split; [reflexivity|].
    apply TM; [assumption|]. eapply Z.le_trans; [exact Bj|vm_compute; discriminate].
  - eassert (Bj : bnd (IQuot (ISub ds s2) 2) _) by (eapply bnd_half; [bnds|ground]).
    rewrite (run_bnd _ _ Bj); cbn [val bind]. destruct Bj as [_ Bj]; cbn [val] in Bj.
    intro E; inversion E; subst p; clear E. split; [reflexivity|].
    apply TM; [assumption|]. eapply Z.le_trans; [exact Bj|vm_compute; discriminate].
Qed.

(** *** The expansion of a plan *)

Lemma step_ok : forall p, Z.abs (p_v0 p) <= 1048576 -> Z.abs (p_vn p) <= 1048576 -> 1 <= p_amax p <= 32767 ->
  Z.abs (p_vflat p) <= 2305843009213693952 -> Z.abs (p_t_adjust p) <= 3574148109275758592 ->
  c_acc_seq_step p = acc_seq_step p /\
  forall vs ve ts, acc_seq_step p = Ok (vs, ve, ts) ->
    Z.abs vs <= 2305843009213693953 /\ Z.abs ve <= 2305843009213693953 /\ Z.abs ts <= 3574148109275758593.
Proof.
  intros [v0 vn a vf t adj]; cbn [p_v0 p_vn p_amax p_t_total p_vflat p_t_adjust].
  intros Hv0 Hvn Ha Hvf Hadj. assert (Ha' : Z.abs a <= 32767) by lia. assert (NZ : a <> 0) by lia.
  unfold c_acc_seq_step, acc_seq_step, rem_chk; cbn [p_v0 p_vn p_amax p_t_total p_vflat p_t_adjust].
  replace (a =? 0) with false by lia; cbn [negb assert bind].
  destruct (adj ?= 0).
  - split; [reflexivity|]. intros vs ve ts E; inversion E; subst; lia.
  - destruct (vn <? vf).
    + goh B1. go. destruct (_ =? 0); [go|]; (split; [reflexivity|]); intros vs ve ts E; inversion E; subst; lia.
    + destruct (v0 <? vf); cbn [assert bind]; [|split; [reflexivity|discriminate]].
      goh B1. goh B2. go. destruct (_ =? 0); [go|]; (split; [reflexivity|]); intros vs ve ts E; inversion E; subst; lia.
  - destruct (vn >? vf).
    + goh B1. goh B2. go. destruct (_ =? 0); [go|]; (split; [reflexivity|]); intros vs ve ts E; inversion E; subst; lia.
    + destruct (v0 >? vf); cbn [assert bind]; [|split; [reflexivity|discriminate]].
      goh B1. go. destruct (_ =? 0); [go|]; (split; [reflexivity|]); intros vs ve ts E; inversion E; subst; lia.
Qed.

Lemma ramp_product : forall q a a1 d, 1 <= a -> Z.abs a1 = a -> Z.abs q * a <= Z.abs d + a - 1 ->
  Z.abs (a1 * (Z.abs q - 1)) <= Z.abs d + 2 * a.
Proof.
  intros q a a1 d Ha H1 H. rewrite Z.abs_mul, H1.
  destruct (Z_le_gt_dec 1 (Z.abs q)) as [G|G].
  - rewrite (Z.abs_eq (Z.abs q - 1)) by lia. lia.
  - replace (Z.abs q) with 0 by lia. cbn [Z.sub Z.opp Z.add Z.abs]. lia.
Qed.

Lemma away_abs : forall q a d, 1 <= a -> Z.abs q * a <= Z.abs d + a - 1 -> Z.abs q <= Z.abs d.
Proof. intros. nia. Qed.

Lemma acc_seq_ok : forall t p, tame t p -> Z.abs t <= 536870912 -> c_acc_seq p = acc_seq p.
Proof.
  intros t p (Hv0 & Hvn & Ha & Et & Hvf & Hadj) Ht.
  unfold c_acc_seq, acc_seq.
  destruct (step_ok p Hv0 Hvn Ha Hvf Hadj) as [Es Bs].
  rewrite <- Et in Ht. clear Et.
  destruct (p_t_total p <=? 1).
  { destruct (_ =? 0); [reflexivity|].
    go. destruct (_ <=? _); cbn [assert bind]; [|reflexivity]. go. reflexivity. }
  rewrite Es; clear Es.
  destruct (acc_seq_step p) as [[[vs ve] ts]| |]; cbn [bind]; [|reflexivity..].
  destruct (Bs vs ve ts eq_refl) as (B1 & B2 & B3); clear Bs Hvf.
  destruct p as [v0 vn a vf tt adj]; cbn [p_v0 p_vn p_amax p_t_total p_vflat p_t_adjust] in *.
  assert (Ha' : Z.abs a <= 32767) by lia.
  go. rewrite div_rem_away_ok by lia.
  destruct (div_rem_away_val (vs - v0) a (proj1 Ha)) as (q1 & r1 & E1 & F1 & R1 & Q1 & _).
  rewrite E1; cbn [bind].
  go. rewrite div_rem_away_ok by (clear - Ha B2 Hvn; lia).
  destruct (div_rem_away_val (ve - vn) a (proj1 Ha)) as (q4 & r4 & E4 & F4 & R4 & Q4 & _).
  rewrite E4; cbn [bind].
  assert (M1 : Z.abs q1 <= 2305843009214742529).
  { eapply Z.le_trans; [apply (away_abs q1 a (vs - v0)); [apply Ha|assumption]|]. clear - B1 Hv0; lia. }
  assert (M4 : Z.abs q4 <= 2305843009214742529).
  { eapply Z.le_trans; [apply (away_abs q4 a (ve - vn)); [apply Ha|assumption]|]. clear - B2 Hvn; lia. }
  go. go.
  assert (A1 : exists a1, (if vs >=? v0 then a else - a) = a1 /\ Z.abs a1 = a /\
    (if vs >=? v0 then Ok a else i64 (- a)) = Ok a1).
  { destruct (vs >=? v0).
    - exists a; split; [reflexivity|split; [clear - Ha; lia|reflexivity]].
    - exists (- a); split; [reflexivity|split; [clear - Ha; lia|go; reflexivity]]. }
  destruct A1 as (a1 & -> & Ea1 & ->); cbn [bind].
  assert (A4 : exists a4, (if ve <=? vn then a else - a) = a4 /\ Z.abs a4 = a /\
    (if ve <=? vn then Ok a else i64 (- a)) = Ok a4).
  { destruct (ve <=? vn).
    - exists a; split; [reflexivity|split; [clear - Ha; lia|reflexivity]].
    - exists (- a); split; [reflexivity|split; [clear - Ha; lia|go; reflexivity]]. }
  destruct A4 as (a4 & -> & Ea4 & ->); cbn [bind].
  assert (P1 : Z.abs (a1 * (Z.abs q1 - 1)) <= 2305843009214808064).
  { eapply Z.le_trans; [apply (ramp_product q1 a a1 (vs - v0)); [apply Ha|assumption|assumption]|].
    clear - B1 Hv0 Ha; lia. }
  assert (P4 : Z.abs (a4 * (Z.abs q4 - 1)) <= 2305843009214808064).
  { eapply Z.le_trans; [apply (ramp_product q4 a a4 (ve - vn)); [apply Ha|assumption|assumption]|].
    clear - B2 Hvn Ha; lia. }
  assert (K1 : Z.abs (Z.abs q1) <= 2305843009214742529) by (clear - M1; lia).
  assert (K4 : Z.abs (Z.abs q4) <= 2305843009214742529) by (clear - M4; lia).
  assert (G1 : Z.abs a1 <= 32767) by (clear - Ea1 Ha; lia).
  assert (G4 : Z.abs a4 <= 32767) by (clear - Ea4 Ha; lia).
  clear E1 F1 Q1 E4 F4 Q4.
  go. destruct (_ >=? _); cbn [assert bind]; [|reflexivity].
  gon tf Btf.
  assert (S1 : (if r1 =? 0 then push_conv [] (Z.abs q1) a1
       else
         let! t := i64 (Z.abs q1 - 1) in
         let! s := push_conv [] t a1 in
         let! x := i64 (vs - (a1 * (Z.abs q1 - 1) + v0)) in
         push_conv s 1 x) =
       (if r1 =? 0 then push_conv [] (Z.abs q1) a1
       else
         let! s := push_conv [] (Z.abs q1 - 1) a1 in
         push_conv s 1 (vs - (a1 * (Z.abs q1 - 1) + v0)))).
  { destruct (r1 =? 0); [reflexivity|]. go.
    destruct (push_conv [] (Z.abs q1 - 1) a1); cbn [bind]; [|reflexivity..]. go. reflexivity. }
  rewrite S1; clear S1.
  destruct (if r1 =? 0 then _ else _) as [s1| |]; cbn [bind]; [|reflexivity..].
  destruct (adj <=? tf); cbn [assert bind]; [|reflexivity].
  assert (S2 : (match ts ?= 0 with
       | Gt =>
           let! t := i64 (ts - 1) in
           let! s := push_conv s1 t 0 in
           let! x := i64 (ve - vs) in
           let! s := push_conv s 1 x in
           let! t := i64 (tf - ts) in
           push_conv s t 0
       | Lt =>
           let! t := i64 (tf + ts) in
           let! s := push_conv s1 t 0 in
           let! x := i64 (ve - vs) in
           let! s := push_conv s 1 x in
           let! t := i64 (- ts - 1) in
           push_conv s t 0
       | Eq => push_conv s1 tf 0
       end) =
      (match ts ?= 0 with
       | Gt =>
           let! s := push_conv s1 (ts - 1) 0 in
           let! s := push_conv s 1 (ve - vs) in
           push_conv s (tf - ts) 0
       | Lt =>
           let! s := push_conv s1 (tf + ts) 0 in
           let! s := push_conv s 1 (ve - vs) in
           push_conv s (- ts - 1) 0
       | Eq => push_conv s1 tf 0
       end)).
  { destruct (ts ?= 0); [reflexivity| |]; go;
      (destruct (push_conv s1 _ 0) as [s2| |]; cbn [bind]; [|reflexivity..]); go;
      (destruct (push_conv s2 1 _) as [s3| |]; cbn [bind]; [|reflexivity..]); go; reflexivity. }
  rewrite S2; clear S2.
  destruct (match ts ?= 0 with Eq => _ | Lt => _ | Gt => _ end) as [s2| |]; cbn [bind]; [|reflexivity..].
  destruct (r4 =? 0); [reflexivity|].
  go. destruct (push_conv s2 1 _) as [s3| |]; cbn [bind]; [|reflexivity..].
  go. reflexivity.
Qed.

Lemma push_conv_small : forall s t a s', push_conv s t a = Ok s' -> 0 <= t <= 65535.
Proof.
  intros s t a s' H. unfold push_conv in H. apply bind_Ok in H. destruct H as (x & H & _).
  apply chk_Ok in H. unfold u16_max in H. lia.
Qed.

Lemma acc_seq_time : forall p s, acc_seq p = Ok s -> p_t_total p <= 327677.
Proof.
  intros [v0 vn a vf t adj] s. unfold acc_seq; cbn [p_v0 p_vn p_amax p_t_total p_vflat p_t_adjust].
  destruct (Z.leb_spec t 1) as [L|L]; [intros _; lia|].
  destruct (acc_seq_step _) as [[[vs ve] ts]| |]; cbn [bind]; [|discriminate..].
  destruct (div_rem_away (vs - v0) a) as [[q1 r1]| |]; cbn [bind]; [|discriminate..].
  destruct (div_rem_away (ve - vn) a) as [[q4 r4]| |]; cbn [bind]; [|discriminate..].
  destruct (_ >=? _); cbn [assert bind]; [|discriminate].
  set (t1 := Z.abs q1). set (t4 := Z.abs q4). clearbody t1 t4.
  generalize (if vs >=? v0 then a else - a) (if ve <=? vn then a else - a). intros a1 a4.
  intro H. apply bind_Ok in H. destruct H as (s1 & H1 & H).
  assert (T1 : t1 <= 65536).
  { destruct (r1 =? 0); [apply push_conv_small in H1; lia|].
    apply bind_Ok in H1. destruct H1 as (s' & H1 & _). apply push_conv_small in H1; lia. }
  apply bind_Ok in H. destruct H as (u & _ & H).
  apply bind_Ok in H. destruct H as (s2 & H2 & H).
  assert (T2 : t - t1 - t4 <= 131071).
  { destruct (ts ?= 0); [apply push_conv_small in H2; lia| |];
      apply bind_Ok in H2; destruct H2 as (s' & H2 & H3); apply push_conv_small in H2;
      apply bind_Ok in H3; destruct H3 as (s'' & H3 & H4); apply push_conv_small in H4; lia. }
  assert (T4 : t4 <= 65536).
  { destruct (r4 =? 0); [apply push_conv_small in H; lia|].
    apply bind_Ok in H. destruct H as (s' & _ & H). apply push_conv_small in H; lia. }
  lia.
Qed.

Lemma short_of_time : forall a t, 1 <= a <= 32767 -> 1 <= t <= 327677 -> short a t.
Proof.
  intros a t Ha Ht; split; [lia|].
  assert (a * t <= 32767 * 327677) by (apply Z.mul_le_mono_nonneg; lia).
  assert (a * t * t <= 32767 * 327677 * 327677) by (apply Z.mul_le_mono_nonneg; lia).
  lia.
Qed.

Lemma tame_total : forall t p, tame t p -> p_t_total p = t.
Proof. intros t p H; apply H. Qed.
