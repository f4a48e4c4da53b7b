(** Properties of polynom.rs: C87 (values and derivatives), C88 (what real_roots reports), C89
    (when it reports all roots), C90 (when it does not, and when it does not end). *)
From Coq Require Import Reals ZArith List Bool Lia Lra Psatz Sorted Classical_Pred_Type.
From Flocq Require Import IEEE754.BinarySingleNaN.
From Verif Require Import Base Polynomials PolyProofs PropsPoly Floats Polynom PolynomProofs.
Import ListNotations.
Open Scope R_scope.

(** ** C87: values and derivatives *)

(** The first [n] coefficients are used; there is no value for [n] = 0 or beyond the array. *)
Theorem C87_value : forall c n t,
  ((1 <= n <= length c)%nat -> value R_coef c n t = Ok (poly_fun (firstn n c) t)) /\
  (~ (1 <= n <= length c)%nat -> value R_coef c n t = Panic).
Proof.
  intros c n t. split; intro H.
  - rewrite value_Ok by auto. rewrite C63_polyval. reflexivity.
  - destruct c as [|a c]; [reflexivity|]. destruct n as [|n]; [reflexivity|]. cbn [value].
    destruct (Nat.ltb_spec (length c) n); [reflexivity|]. cbn [length] in H. lia.
Qed.

Theorem C87_polynom_value : forall c t, c <> [] -> polynom_value R_coef c t = Ok (poly_fun c t).
Proof.
  intros c t H. unfold polynom_value. rewrite (proj1 (C87_value c (length c) t)).
  - rewrite firstn_all. reflexivity.
  - destruct c; [congruence|cbn; lia].
Qed.

(** Up to 128 coefficients, deriv gives the derivative. *)
Theorem C87_deriv : forall c, (1 <= length c <= 128)%nat -> exists d, deriv R_coef c = Ok d /\ length d = length c /\
  forall t, derivable_pt_lim (poly_fun c) t (poly_fun d t).
Proof.
  intros c L. exists (der c ++ [0]). split; [apply deriv_Ok; auto|]. split.
  - rewrite app_length, der_length. cbn. lia.
  - intros t. apply (derivable_ext (polyval c)); [intros; apply C63_polyval|].
    rewrite <- C63_polyval.
    replace (polyval (der c ++ [0]) t) with (polyval (der c) t); [apply der_lim|].
    generalize (der c) as l. induction l as [|a l IH]; cbn; [ring|]. rewrite IH. reflexivity.
Qed.

Lemma polyval_snoc : forall l t a, polyval (l ++ [a]) t = polyval l t + t ^ length l * a.
Proof. induction l as [|b l IH]; intros t a; cbn [app polyval length pow]; [ring|]. rewrite IH. ring. Qed.

(** ... but the factor of the 129th is cast to 8 bits and becomes negative. *)
Theorem C87_deriv_refuted : exists c d, length c = 129%nat /\ deriv R_coef c = Ok d /\
  ~ derivable_pt_lim (poly_fun c) 1 (poly_fun d 1).
Proof.
  exists (0 :: repeat 0 127 ++ [1]). eexists. split; [rewrite <- (repeat_length (A:=R) 0 127) at 2; cbn [length]; rewrite app_length, !repeat_length; reflexivity|].
  split; [reflexivity|]. intros D.
  assert (D2 := der_lim (0 :: repeat 0 127 ++ [1]) 1).
  apply (derivable_ext _ (poly_fun (0 :: repeat 0 127 ++ [1]))) in D2; [|intros; apply C63_polyval].
  assert (E := uniqueness_limite _ _ _ _ D D2). clear D D2. rewrite <- C63_polyval in E.
  cbn [der k_mul k_of R_coef] in E. unfold dfrom in E.
  assert (A : forall (f : nat -> R -> R) l x k, mapi_from f k (l ++ [x]) = mapi_from f k l ++ [f (k + length l)%nat x]).
  { intros f. induction l as [|y l IH]; intros x k; cbn [app mapi_from length].
    - rewrite Nat.add_0_r. reflexivity.
    - rewrite IH. replace (S k + length l)%nat with (k + S (length l))%nat by lia. reflexivity. }
  rewrite !A in E. rewrite !polyval_snoc, !pow1 in E. rewrite !repeat_length in E.
  assert (Z : forall (f : nat -> R -> R) n k t, (forall i, f i 0 = 0) -> polyval (mapi_from f k (repeat 0 n)) t = 0).
  { intros f. induction n as [|n IH]; intros k t H; cbn [repeat mapi_from polyval]; [reflexivity|]. rewrite IH, H by auto. ring. }
  rewrite !Z in E by (intros; ring).
  rewrite INR_IZR_INZ in E. change (as_i8 (Z.of_nat (0 + 127) + 1)) with (-128)%Z in E.
  change (Z.of_nat (0 + 127 + 1)) with 128%Z in E. lra.
Qed.

Example C87_example : (1 <= length [3; 0; 2]%R <= 128)%nat.
Proof. cbn. lia. Qed.

(** The code's closeness, ten times f64::EPSILON. *)
Lemma tolerance_is : 10 / 2 ^ 52 = tolerance.
Proof. reflexivity. Qed.

(** ** C88: what real_roots reports *)

(** A polynomial that is not 0 everywhere, at most 128 coefficients: with as many halvings as
    bring the range down to the tolerance the search ends without a panic, and the roots it
    reports are ascending, more than the tolerance apart, fewer than the coefficients, in the
    range and within the tolerance of a root in the range. *)
Theorem C88_sound : forall fuel c lo hi, (length c <= 128)%nat -> lo <= hi ->
  hi - lo <= 10 / 2 ^ 52 * 2 ^ fuel -> (exists t, poly_fun c t <> 0) ->
  exists rs zs, real_roots R_coef fuel c lo hi = Ok (rs ++ zs, length rs) /\
    length (rs ++ zs) = length c /\ (length rs < length c)%nat /\
    StronglySorted (fun a b => a + 10 / 2 ^ 52 < b) rs /\
    Forall (fun r => lo <= r <= hi /\ exists x, lo <= x <= hi /\ poly_fun c x = 0 /\ Rabs (x - r) <= 10 / 2 ^ 52) rs.
Proof.
  rewrite tolerance_is.
  intros fuel c lo hi L LH W [t0 NZ]. unfold real_roots.
  destruct (trim_cases fuel c lo hi (length c) (Nat.le_refl _)) as [[F _]|(m & a & M & TA & A0 & E & V)].
  - exfalso. apply NZ. rewrite <- C63_polyval. rewrite firstn_all in F. clear - F.
    induction F as [|a c -> F IH]; cbn; [reflexivity|]. rewrite IH. ring.
  - rewrite E. destruct (find_roots_sound fuel m c lo hi a ltac:(lia) LH W TA A0) as (rs & zs & R1 & R2 & R3 & R4 & R5).
    exists rs, zs. split; [exact R1|]. split; [exact R2|]. split; [lia|]. split; [exact R4|].
    eapply Forall_impl; [|exact R5]. cbn. intros r (I & x & XI & ZX & XR). split; [exact I|]. exists x. split; [exact XI|].
    split; [|exact XR]. rewrite <- C63_polyval, <- (firstn_all c), V. exact ZX.
Qed.

(** The polynomial 0 has the single root 0, inside the range or not. *)
Theorem C88_zero : forall fuel c lo hi, c <> [] -> (forall t, poly_fun c t = 0) ->
  real_roots R_coef fuel c lo hi = Ok (repeat 0 (length c), 1%nat).
Proof.
  intros fuel c lo hi NE Z. unfold real_roots.
  destruct (trim_cases fuel c lo hi (length c) (Nat.le_refl _)) as [[F E]|(m & a & M & TA & A0 & E & V)].
  - rewrite E. destruct c as [|a c]; [congruence|]. cbn [find_roots map store bind k_of R_coef length repeat]. do 3 f_equal.
    clear. induction c; cbn; f_equal; auto.
  - exfalso. apply (polyval_not_zero _ _ _ TA A0). intros t. rewrite <- V, firstn_all, C63_polyval. apply Z.
Qed.

Lemma enough_fuel : 16 <= tolerance * 2 ^ 60.
Proof. unfold tolerance, f64_epsilon. replace (2 ^ 60) with (2 ^ 52 * 2 ^ 8) by (rewrite <- pow_add; reflexivity).
  rewrite <- Rmult_assoc, (Rmult_assoc 10), Rinv_l by (apply pow_nonzero; lra). cbn. lra. Qed.

Example C88_example : (length [-1; 0; 1]%R <= 128)%nat /\ -3 <= 3 /\ 3 - -3 <= tolerance * 2 ^ 60 /\
  exists t, poly_fun [-1; 0; 1] t <> 0.
Proof.
  pose proof enough_fuel. repeat split; try lra; [cbn; lia|]. exists 0. rewrite <- C63_polyval. cbn. lra.
Qed.

(** ** C89: when all roots are reported *)

(** If in the range no root of the polynomial or of one of its derivatives is within two
    tolerances of an end or of a root of the next derivative, every root is reported, once,
    within the tolerance, and nothing else. *)
Theorem C89_complete : forall fuel c lo hi F, (length c <= 128)%nat -> lo < hi ->
  hi - lo <= 10 / 2 ^ 52 * 2 ^ fuel -> (exists t, poly_fun c t <> 0) ->
  (forall t, F 0%nat t = poly_fun c t) -> (forall k x, derivable_pt_lim (F k) x (F (S k) x)) ->
  (forall k x, (exists y, F k y <> 0) -> lo <= x <= hi -> F k x = 0 ->
    lo + 2 * (10 / 2 ^ 52) < x < hi - 2 * (10 / 2 ^ 52) /\
    forall y, lo <= y <= hi -> F (S k) y = 0 -> 2 * (10 / 2 ^ 52) < Rabs (x - y)) ->
  exists rs zs xs, real_roots R_coef fuel c lo hi = Ok (rs ++ zs, length rs) /\
    StronglySorted Rlt xs /\ (forall x, In x xs <-> lo <= x <= hi /\ poly_fun c x = 0) /\
    Forall2 (fun x r => Rabs (x - r) <= 10 / 2 ^ 52) xs rs.
Proof.
  rewrite tolerance_is.
  intros fuel c lo hi F L LH W [t0 NZ] F0 DF AP. unfold real_roots.
  destruct (trim_cases fuel c lo hi (length c) (Nat.le_refl _)) as [[FZ _]|(m & a & M & TA & A0 & E & V)].
  - exfalso. apply NZ. rewrite <- C63_polyval. rewrite firstn_all in FZ. clear - FZ.
    induction FZ as [|a c -> F IH]; cbn; [reflexivity|]. rewrite IH. ring.
  - rewrite E.
    assert (PV : forall t, poly_fun c t = polyval (firstn (S m) c) t)
      by (intros; rewrite <- C63_polyval, <- V, firstn_all; reflexivity).
    destruct (find_roots_complete fuel m c lo hi a F ltac:(lia) LH W TA A0 DF) as (rs & zs & xs & R1 & _ & _ & _ & _ & R6 & R7 & R8).
    + intros t. rewrite F0. apply PV.
    + exact AP.
    + exists rs, zs, xs. split; [exact R1|]. split; [exact R7|]. split; [|exact R6]. intros x. rewrite PV. apply R8.
Qed.

Definition example_tower (k : nat) (t : R) : R :=
  match k with O => poly_fun [-1; 0; 1] t | 1%nat => 2 * t | 2%nat => 2 | _ => 0 end.

Lemma tolerance_small : tolerance < / 1000.
Proof.
  unfold tolerance, f64_epsilon. replace (2 ^ 52) with (2 ^ 14 * 2 ^ 38) by (rewrite <- pow_add; reflexivity).
  assert (P : 1 <= 2 ^ 38) by (apply pow_R1_Rle; lra). assert (Q : 2 ^ 14 = 16384) by (cbn; lra). rewrite Q.
  apply (Rmult_lt_reg_r (16384 * 2 ^ 38)); [lra|]. rewrite Rmult_assoc, Rinv_l by lra. lra.
Qed.

Example C89_example : let c := [-1; 0; 1] in let F := example_tower in
  (exists t, poly_fun c t <> 0) /\
  (forall t, F 0%nat t = poly_fun c t) /\ (forall k x, derivable_pt_lim (F k) x (F (S k) x)) /\
  (forall k x, (exists y, F k y <> 0) -> -3 <= x <= 3 -> F k x = 0 ->
    -3 + 2 * tolerance < x < 3 - 2 * tolerance /\
    forall y, -3 <= y <= 3 -> F (S k) y = 0 -> 2 * tolerance < Rabs (x - y)).
Proof.
  cbn zeta. pose proof tolerance_small as TS. pose proof tolerance_pos as TP.
  assert (PV : forall t, poly_fun [-1; 0; 1] t = t * t - 1) by (intros; rewrite <- C63_polyval; cbn; ring).
  split; [exists 0; rewrite PV; lra|]. split; [reflexivity|]. split.
  - intros k x. destruct k as [|[|[|k]]].
    + change (example_tower 0) with (poly_fun [-1; 0; 1]). change (example_tower 1 x) with (2 * x).
      apply (derivable_ext (polyval [-1; 0; 1])); [intros; apply C63_polyval|].
      replace (2 * x) with (polyval (der [-1; 0; 1]) x) by (cbn; ring). apply der_lim.
    + change (example_tower 2 x) with 2. apply (derivable_ext (polyval [0; 2])); [intros; cbn; ring|].
      assert (D := der_lim [0; 2] x). replace (polyval (der [0; 2]) x) with 2 in D by (cbn; ring). exact D.
    + apply (derivable_pt_lim_const 2).
    + apply (derivable_pt_lim_const 0).
  - intros k x [y0 NZ] I Z. destruct k as [|[|[|k]]].
    + change (example_tower 0 x) with (poly_fun [-1; 0; 1] x) in Z. rewrite PV in Z.
      assert (X : x = 1 \/ x = -1).
      { assert (P : (x - 1) * (x + 1) = 0) by lra. apply Rmult_integral in P. lra. }
      split; [destruct X; subst; lra|]. intros y _ ZY. change (example_tower 1 y) with (2 * y) in ZY.
      assert (y = 0) by lra. subst. unfold Rabs. destruct X; subst; destruct (Rcase_abs _); lra.
    + change (example_tower 1 x) with (2 * x) in Z. split; [lra|]. intros y _ ZY. change (example_tower 2 y) with 2 in ZY. lra.
    + change (example_tower 2 x) with 2 in Z. lra.
    + exfalso. apply NZ. reflexivity.
Qed.

(** ** C90: when roots are missed *)

(** A root at an end of the range is missed if the polynomial is linear. *)
Theorem C90_linear_end_refuted : forall fuel, real_roots R_coef fuel [0; 1] 0 1 = Ok ([0; 0], 0%nat) /\
  poly_fun [0; 1] 0 = 0.
Proof.
  intros fuel. split; [|rewrite <- C63_polyval; cbn; ring].
  cbn [real_roots length find_roots nth_error unwrap bind k_eqb k_of k_add k_mul k_ltb R_coef].
  destruct (R_eqb 1 0) eqn:E; [apply R_eqb_true in E; lra|].
  destruct (R_ltb ((0 + 1 * 0) * (0 + 1 * 1)) 0) eqn:E2; [apply R_ltb_true in E2; lra|]. reflexivity.
Qed.

(** Double roots are missed unless the place of the extreme value is met exactly: even with
    exact arithmetic (x^2 - 2)^2 has no roots. *)
Definition rational (x : R) : Prop := exists p q : Z, q <> 0%Z /\ x = IZR p / IZR q.

Lemma rational_Z : forall z, rational (IZR z).
Proof. intros z. exists z, 1%Z. split; [lia|]. field. Qed.
Lemma rational_add : forall x y, rational x -> rational y -> rational (x + y).
Proof.
  intros x y (p & q & Q & ->) (r & s & S & ->). exists (p * s + r * q)%Z, (q * s)%Z. split; [lia|].
  rewrite plus_IZR, !mult_IZR. field. split; apply not_0_IZR; auto.
Qed.
Lemma rational_mul : forall x y, rational x -> rational y -> rational (x * y).
Proof.
  intros x y (p & q & Q & ->) (r & s & S & ->). exists (p * r)%Z, (q * s)%Z. split; [lia|].
  rewrite !mult_IZR. field. split; apply not_0_IZR; auto.
Qed.
Lemma rational_neg : forall x, rational x -> rational (- x).
Proof. intros x (p & q & Q & ->). exists (- p)%Z, q. split; auto. rewrite opp_IZR. field. apply not_0_IZR; auto. Qed.
Lemma rational_inv : forall x, rational x -> rational (/ x).
Proof.
  intros x (p & q & Q & ->). destruct (Z.eq_dec p 0) as [->|P].
  - unfold Rdiv. rewrite Rmult_0_l. exists (0)%Z, 1%Z. split; [lia|]. rewrite Rinv_0. field.
  - exists q, p. split; auto. field. split; apply not_0_IZR; auto.
Qed.
Lemma rational_div : forall x y, rational x -> rational y -> rational (x / y).
Proof. intros. apply rational_mul; auto. apply rational_inv; auto. Qed.

Lemma store_forall : forall A (P : A -> Prop) l i v l', store l i v = Ok l' -> Forall P l -> P v -> Forall P l'.
Proof.
  induction l as [|a l IH]; intros [|i] v l' H F V; try discriminate; cbn in H; inversion F; subst.
  - injection H as <-. constructor; auto.
  - destruct (store l i v) as [r| |] eqn:E; try discriminate. cbn in H. injection H as <-. constructor; eauto.
Qed.

Lemma loop_rational : forall fuel poly n low high r, rational low -> rational high ->
  single_loop R_coef fuel poly n low high = Ok r -> rational r.
Proof.
  induction fuel as [|fuel IH]; intros poly n low high r L H E; cbn [single_loop k_close k_add k_neg k_div k_of k_ltb R_coef] in E.
  - destruct (R_close _); [injection E as <-; auto|discriminate].
  - destruct (R_close _); [injection E as <-; auto|].
    destruct (value R_coef poly n _) as [v| |]; try discriminate. cbn [bind] in E.
    assert (M : rational ((high + low) / 2)) by (apply rational_div; [apply rational_add; auto|apply rational_Z]).
    destruct (R_ltb v 0); apply IH in E; auto.
Qed.

Lemma single_rational : forall fuel poly n low high r, rational low -> rational high ->
  find_single_root R_coef fuel poly n low high = Ok (Some r) -> rational r.
Proof.
  intros fuel poly n low high r L H E. unfold find_single_root in E.
  destruct (value R_coef poly n low) as [v1| |]; try discriminate.
  destruct (value R_coef poly n high) as [v2| |]; try discriminate. cbn [bind k_ltb k_of k_mul R_coef] in E.
  destruct (R_ltb 0 _); try discriminate.
  destruct (R_ltb v2 v1).
  - destruct (single_loop R_coef fuel poly n high low) as [x| |] eqn:S; try discriminate.
    cbn in E. injection E as <-. eapply loop_rational; [| |exact S]; auto.
  - destruct (single_loop R_coef fuel poly n low high) as [x| |] eqn:S; try discriminate.
    cbn in E. injection E as <-. eapply loop_rational; [| |exact S]; auto.
Qed.

Lemma pieces_rational : forall fuel poly n last highs low roots k roots' k', rational low -> Forall rational highs ->
  Forall rational roots -> pieces R_coef fuel poly n last low highs roots k = Ok (roots', k') -> Forall rational roots'.
Proof.
  intros fuel poly n last. induction highs as [|high rest IH]; intros low roots k roots' k' L F R E; cbn [pieces] in E.
  - injection E as <- <-. exact R.
  - inversion F; subst. cbn [k_ltb R_coef] in E. destruct (R_ltb last high); [injection E as <- <-; exact R|].
    destruct (R_ltb low high).
    + destruct (find_single_root R_coef fuel poly n low high) as [[r|]| |] eqn:S; try discriminate; cbn [bind] in E.
      * assert (RR : rational r) by (eapply single_rational; [| |exact S]; auto).
        match type of E with bind (bind ?f _) _ = _ => destruct f as [fresh| |]; try discriminate end. cbn [bind] in E.
        destruct fresh.
        -- destruct (store roots k r) as [roots1| |] eqn:ST; try discriminate. cbn [bind] in E.
           apply IH in E; auto. eapply store_forall; eauto.
        -- cbn [bind] in E. apply IH in E; auto.
      * apply IH in E; auto.
    + cbn [bind] in E. apply IH in E; auto.
Qed.

Lemma insert_rational : forall a l, rational a -> Forall rational l -> Forall rational (insert R_coef a l).
Proof.
  intros a l A F. induction F as [|b l B F IH]; cbn [insert]; [constructor; auto|].
  cbn [k_ltb R_coef]. destruct (R_ltb b a); constructor; auto.
Qed.

Lemma forall_firstn : forall (P : R -> Prop) n l, Forall P l -> Forall P (firstn n l).
Proof. intros P n l F. rewrite <- (firstn_skipn n l) in F. apply Forall_app in F. apply F. Qed.
Lemma forall_skipn : forall (P : R -> Prop) n l, Forall P l -> Forall P (skipn n l).
Proof. intros P n l F. rewrite <- (firstn_skipn n l) in F. apply Forall_app in F. apply F. Qed.

Lemma roots_rational : forall fuel n poly lo hi roots k, Forall rational poly -> rational lo -> rational hi ->
  find_roots R_coef fuel n poly lo hi = Ok (roots, k) -> Forall rational roots.
Proof.
  intros fuel. induction n as [|m IH]; intros poly lo hi roots k F L H E; cbn [find_roots] in E.
  - destruct (store _ _ _) as [r| |] eqn:S; try discriminate. cbn in E. injection E as <- <-.
    eapply store_forall; [exact S| |apply rational_Z]. apply Forall_map, Forall_forall. intros. apply rational_Z.
  - destruct (nth_error poly m) as [a|] eqn:TA; try discriminate. cbn [unwrap bind k_eqb k_of R_coef] in E.
    destruct (R_eqb a 0); [exact (IH _ _ _ _ _ F L H E)|].
    assert (Z : Forall rational (map (fun _ => 0) poly)) by (apply Forall_map, Forall_forall; intros; apply rational_Z).
    destruct m as [|[|m]].
    + injection E as <- <-. exact Z.
    + destruct poly as [|c0 [|c1 rest]]; try discriminate. cbn [nth_error unwrap bind k_ltb k_mul k_add k_neg k_div R_coef] in E.
      destruct (R_ltb _ 0).
      * destruct (store _ _ _) as [r| |] eqn:S; try discriminate. cbn in E. injection E as <- <-.
        inversion F as [|? ? F0 F1]; subst. inversion F1; subst.
        eapply store_forall; [exact S|exact Z|]. apply rational_neg, rational_div; auto.
      * injection E as <- <-. exact Z.
    + destruct (deriv R_coef poly) as [d| |] eqn:D; try discriminate. cbn [bind] in E.
      assert (DR : Forall rational d).
      { destruct poly as [|c0 rest]; try discriminate. cbn [deriv k_mul k_of R_coef] in D. injection D as <-.
        inversion F as [|? ? _ FR]; subst. apply Forall_app. split; [|constructor; [apply rational_Z|constructor]].
        clear - FR. generalize 0%nat. induction FR as [|x l X FR IH]; intros i; cbn; constructor; auto.
        apply rational_mul; auto. apply rational_Z. }
      destruct (find_roots R_coef fuel (S (S m)) d lo hi) as [[ex ne]| |] eqn:R; try discriminate. cbn [bind] in E.
      apply IH in R; auto. unfold sort_values in E. rewrite R_comparable in E. cbn [bind] in E.
      destruct (store _ ne hi) as [ex2| |] eqn:S; try discriminate. cbn [bind] in E.
      eapply pieces_rational; [exact L| |exact Z|exact E]. apply forall_firstn. eapply store_forall; [exact S| |exact H].
      apply Forall_app. split; [|apply forall_skipn; exact R].
      assert (FN : Forall rational (firstn ne ex)) by (apply forall_firstn; exact R).
      clear - FN. induction FN as [|x l X FN IH]; cbn [fold_right]; [constructor|]. apply insert_rational; auto.
Qed.

Lemma sqrt2_descent : forall n p q, (Z.abs q < Z.of_nat n)%Z -> (p * p = 2 * (q * q))%Z -> q = 0%Z.
Proof.
  induction n as [|n IH]; intros p q L E; [lia|].
  destruct (Z.eq_dec q 0) as [|Q]; [auto|exfalso].
  assert (EV : Z.even p = true).
  { assert (X : Z.even (p * p) = true) by (rewrite E, Z.even_mul; reflexivity). rewrite Z.even_mul in X. destruct (Z.even p); auto. }
  apply Z.even_spec in EV. destruct EV as [r ->].
  assert (E2 : (q * q = 2 * (r * r))%Z) by lia.
  assert (R0 : r = 0%Z) by (apply (IH q r); [|exact E2]; nia). subst r. nia.
Qed.

Lemma square_not_two : forall x, rational x -> x * x <> 2.
Proof.
  intros x (p & q & Q & ->) E. apply Q. apply (sqrt2_descent (S (Z.to_nat (Z.abs q))) p q); [lia|].
  apply eq_IZR. rewrite !mult_IZR. assert (N : IZR q <> 0) by (apply not_0_IZR; auto).
  replace (IZR p * IZR p) with (IZR p / IZR q * (IZR p / IZR q) * (IZR q * IZR q)) by (field; auto). rewrite E. reflexivity.
Qed.

Lemma scan_positive : forall g highs low rs', (forall x, rational x -> 0 < g x) -> rational low -> Forall rational highs ->
  scan g low highs [] rs' -> rs' = [].
Proof.
  intros g highs low rs' P. remember [] as rs eqn:E. intros L F S. revert E L F.
  induction S as [low rs|low high rest rs rs' H S IH|low high rest rs rs' H Q S IH
      |low high rest rs p r x rs' H Q GX XR RI XI D S IH|low high rest rs r x rs' H Q GX XR RI XI D S IH]; intros E L F; auto;
    inversion F; subst; auto; exfalso; assert (0 < g high * g low) by (apply Rmult_lt_0_compat; auto); lra.
Qed.

Theorem C90_double_refuted : forall fuel, 4 <= 10 / 2 ^ 52 * 2 ^ fuel ->
  (exists zs, real_roots R_coef fuel [4; 0; -4; 0; 1] (-2) 2 = Ok (zs, 0%nat)) /\
  poly_fun [4; 0; -4; 0; 1] (sqrt 2) = 0 /\ -2 <= sqrt 2 <= 2.
Proof.
  rewrite tolerance_is.
  intros fuel W. assert (S2 : sqrt 2 * sqrt 2 = 2) by (apply sqrt_sqrt; lra). split; [|split].
  - unfold real_roots. cbn [length].
    assert (FR : Forall rational [4; 0; -4; 0; 1]) by (repeat (constructor; [apply rational_Z|]); constructor).
    set (c := [4; 0; -4; 0; 1]) in *.
    destruct (find_roots_sound fuel 3 (der c ++ [0]) (-2) 2 (1 * INR (3 + 1))) as (E & zs & R1 & R2 & R3 & R4 & R5); try lra.
    + cbn. lia.
    + apply der_nth. reflexivity.
    + cbn. lra.
    + destruct (find_roots_step fuel 2 c (-2) 2 1 E zs) as (rs & zs' & Q1 & Q2 & Q3 & Q4); auto; try lra.
      * cbn. lia.
      * apply spread_sorted. exact R4.
      * eapply Forall_impl; [|exact R5]. cbn. intros e G. apply G.
      * assert (DR : Forall rational (der c ++ [0])).
        { destruct (deriv_Ok c) as []; [cbn; lia|]. apply Forall_app. split; [|constructor; [apply rational_Z|constructor]].
          cbn [der c]. unfold dfrom, c. cbn [mapi_from]. inversion FR as [|? ? _ FR']; subst.
          repeat (constructor; [apply rational_mul; [apply rational_Z|rewrite INR_IZR_INZ; apply rational_Z]|]). constructor. }
        assert (ER : Forall rational (E ++ [2])).
        { apply (roots_rational _ _ _ _ _ _ _ DR (rational_Z (-2)) (rational_Z 2)) in R1.
          apply Forall_app in R1. apply Forall_app. split; [apply R1|]. constructor; [apply rational_Z|constructor]. }
        apply scan_positive in Q4; auto; [|intros x X|apply (rational_Z (-2))].
        -- subst rs. exists zs'. exact Q1.
        -- replace (polyval (firstn 5 c) x) with ((x * x - 2) * (x * x - 2)) by (cbn; ring).
           pose proof (square_not_two x X) as N. assert (x * x - 2 <> 0) by lra. nra.
  - rewrite <- C63_polyval. cbn. replace (((((0 * sqrt 2 + 1) * sqrt 2 + 0) * sqrt 2 + -4) * sqrt 2 + 0) * sqrt 2 + 4)
      with ((sqrt 2 * sqrt 2 - 2) * (sqrt 2 * sqrt 2 - 2)) by ring. rewrite S2. ring.
  - assert (0 <= sqrt 2) by apply sqrt_pos. nra.
Qed.

Example C90_example : 4 <= tolerance * 2 ^ 60.
Proof. pose proof enough_fuel. lra. Qed.

(** In binary64 the search may not end: next to roots above 16 the distance of neighbouring
    numbers is greater than the tolerance. *)
Definition halve (poly : list f64) (n : nat) (s : f64 * f64) : f64 * f64 :=
  let '(low, high) := s in
  let mid := fdiv (fadd high low) (f_of_Z 2) in
  match value F_coef poly n mid with
  | Ok v => if flt v (f_of_Z 0) then (mid, high) else (low, mid)
  | _ => s
  end.
Definition open_yet (s : f64 * f64) : bool := negb (f_close (fadd (snd s) (fneg (fst s)))).

Fixpoint halvings (j : nat) (poly : list f64) (n : nat) (s : f64 * f64) : f64 * f64 :=
  match j with O => s | S j => halvings j poly n (halve poly n s) end.
Fixpoint stays_open (j : nat) (poly : list f64) (n : nat) (s : f64 * f64) : bool :=
  open_yet s && match j with O => true | S j => stays_open j poly n (halve poly n s) end.

Lemma loop_step : forall fuel poly n low high v, open_yet (low, high) = true ->
  value F_coef poly n (fdiv (fadd high low) (f_of_Z 2)) = Ok v ->
  single_loop F_coef (S fuel) poly n low high =
  let '(l, h) := halve poly n (low, high) in single_loop F_coef fuel poly n l h.
Proof.
  intros fuel poly n low high v O V. cbn [single_loop k_close k_add k_neg k_div k_of k_ltb F_coef].
  unfold open_yet in O. cbn [fst snd] in O. apply negb_true_iff in O. rewrite O. unfold halve. rewrite V. cbn [bind].
  destruct (flt v (f_of_Z 0)); reflexivity.
Qed.

Lemma loop_open : forall poly n low high, open_yet (low, high) = true -> single_loop F_coef 0 poly n low high = OutOfFuel.
Proof.
  intros poly n low high O. cbn [single_loop k_close k_add k_neg F_coef].
  unfold open_yet in O. cbn [fst snd] in O. apply negb_true_iff in O. rewrite O. reflexivity.
Qed.

(** If after some halvings the ends no longer change while still apart, the loop never ends. *)
Lemma loop_endless : forall poly n, (forall t, exists v, value F_coef poly n t = Ok v) ->
  forall j fuel low high, stays_open j poly n (low, high) = true ->
  halve poly n (halvings j poly n (low, high)) = halvings j poly n (low, high) ->
  single_loop F_coef fuel poly n low high = OutOfFuel.
Proof.
  intros poly n V. induction j as [|j IH]; intros fuel low high O X; cbn [stays_open halvings] in *;
    apply andb_true_iff in O; destruct O as [O1 O2].
  - clear O2. induction fuel as [|fuel IH]; [apply loop_open; auto; exact O1|].
    destruct (V (fdiv (fadd high low) (f_of_Z 2))) as [v E]. rewrite (loop_step _ _ _ _ _ v) by auto. rewrite X. exact IH.
  - destruct fuel as [|fuel]; [apply loop_open; auto; exact O1|].
    destruct (V (fdiv (fadd high low) (f_of_Z 2))) as [v E]. rewrite (loop_step _ _ _ _ _ v) by auto.
    destruct (halve poly n (low, high)) as [l h]. apply IH; auto.
Qed.

Definition endless_poly : list f64 := [f_of_Z (-300); f_of_Z 0; f_of_Z 1].

Lemma pair_SF : forall s t : f64 * f64, (B2SF (fst s), B2SF (snd s)) = (B2SF (fst t), B2SF (snd t)) -> s = t.
Proof. intros [a b] [c d] H. cbn [fst snd] in H. injection H as H1 H2. f_equal; apply B2SF_inj; auto. Qed.

Theorem C90_endless_refuted : forall fuel, real_roots F_coef fuel endless_poly (f_of_Z 0) (f_of_Z 100) = OutOfFuel.
Proof.
  intros fuel.
  assert (L : single_loop F_coef fuel endless_poly 3 (f_of_Z 0) (f_of_Z 100) = OutOfFuel).
  { apply (loop_endless endless_poly 3) with (j := 70%nat).
    - intros t. eexists. reflexivity.
    - vm_compute. reflexivity.
    - apply pair_SF. vm_compute. reflexivity. }
  unfold real_roots, endless_poly in *. cbn [length].
  remember (f_of_Z 0) as z eqn:Ez. remember (f_of_Z 100) as h eqn:Eh. remember (f_of_Z 1) as u eqn:Eu. remember (f_of_Z (-300)) as m eqn:Em.
  cbn [find_roots nth_error unwrap bind deriv mapi_from app k_eqb k_of k_mul F_coef].
  replace (feq u (f_of_Z 0)) with false by (subst; vm_compute; reflexivity).
  match goal with |- context [feq (fmul ?a u) (f_of_Z 0)] => replace (feq (fmul a u) (f_of_Z 0)) with false by (subst; vm_compute; reflexivity) end.
  cbn [k_add k_mul k_ltb F_coef].
  match goal with |- context [flt (fmul ?a ?b) (f_of_Z 0)] => replace (flt (fmul a b) (f_of_Z 0)) with false by (subst; vm_compute; reflexivity) end.
  cbn [bind map firstn sort_values all_comparable fold_right app skipn store pieces k_ltb F_coef].
  replace (flt h h) with false by (subst; vm_compute; reflexivity).
  replace (flt z h) with true by (subst; vm_compute; reflexivity).
  unfold find_single_root. cbn [value length Nat.ltb Nat.leb firstn fold_left fst bind k_add k_mul k_ltb k_of F_coef].
  match goal with |- context [flt (f_of_Z 0) ?a] => replace (flt (f_of_Z 0) a) with false by (subst; vm_compute; reflexivity) end.
  match goal with |- context [flt ?a ?b] => replace (flt a b) with false by (subst; vm_compute; reflexivity) end.
  rewrite L. reflexivity.
Qed.

(** The model with the inputs of the code's own tests (polynom.rs:170-203), counted and rounded
    to thousandths. *)
Definition milli (r : res (list f64 * nat)) : res (list Z * nat) :=
  let! (l, k) := r in Ok (map (fun x => f_as_i32 (fround (fmul x (f_of_Z 1000)))) l, k).
Example C90_tests :
  milli (find_roots F_coef 60 2 [lit 0 1; lit 0 1] (lit 0 1) (lit 1 1)) = Ok ([0; 0]%Z, 1%nat) /\
  milli (find_roots F_coef 60 2 [lit 1 10; lit 0 1] (lit 0 1) (lit 1 1)) = Ok ([0; 0]%Z, 0%nat) /\
  milli (find_roots F_coef 60 2 [lit 1 1; lit (-4) 1] (lit 0 1) (lit 1 1)) = Ok ([250; 0]%Z, 1%nat) /\
  milli (find_roots F_coef 60 3 [lit (-10) 1; lit 2 1; lit 7 2] (lit (-10) 1) (lit 10 1)) = Ok ([-2000; 1429; 0]%Z, 2%nat) /\
  milli (find_roots F_coef 60 3 [lit 0 1; lit 0 1; lit 1 10] (lit (-10) 1) (lit 10 1)) = Ok ([0; 0; 0]%Z, 1%nat) /\
  milli (find_roots F_coef 60 3 [lit 10 1; lit 2 1; lit 1 10] (lit (-11) 1) (lit 10 1)) = Ok ([-10000; 0; 0]%Z, 1%nat) /\
  milli (find_roots F_coef 60 4 [lit 0 1; lit (-50) 1; lit 1 10; lit 2 1] (lit (-11) 1) (lit 10 1)) = Ok ([-5025; 0; 4975; 0]%Z, 3%nat).
Proof. vm_compute. repeat split. Qed.

Print Assumptions C87_value.
Print Assumptions C87_polynom_value.
Print Assumptions C87_deriv.
Print Assumptions C87_deriv_refuted.
Print Assumptions C88_sound.
Print Assumptions C88_zero.
Print Assumptions C89_complete.
Print Assumptions C90_linear_end_refuted.
Print Assumptions C90_double_refuted.
Print Assumptions C90_endless_refuted.
