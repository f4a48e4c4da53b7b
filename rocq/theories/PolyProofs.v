(** Lemmas about the polynomial model. *)
From Coq Require Import Reals ZArith List Lia Lra Ranalysis5.
From Verif Require Import Base Polynomials.
Import ListNotations.
Open Scope R_scope.

(** ** Evaluation of an indexed family *)

Definition val (f : nat -> R) (n : nat) (t : R) : R := polyval (map f (seq 0 n)) t.

Lemma val_0 : forall f t, val f 0 t = 0.
Proof. reflexivity. Qed.

Lemma val_S : forall f n t, val f (S n) t = val (fun i => f (S i)) n t * t + f 0%nat.
Proof.
  intros f n t; unfold val; cbn [seq map polyval].
  rewrite <- seq_shift, map_map; reflexivity.
Qed.

Lemma val_ext : forall n f g t, (forall i, (i < n)%nat -> f i = g i) -> val f n t = val g n t.
Proof.
  induction n; intros f g t H; [reflexivity|].
  rewrite !val_S, (IHn (fun i => f (S i)) (fun i => g (S i))), (H 0%nat) by (intros; try apply H; lia).
  reflexivity.
Qed.

Lemma val_lin : forall n c f g t,
  val (fun i => c * f i + g i) n t = c * val f n t + val g n t.
Proof.
  induction n; intros c f g t; [rewrite !val_0; ring|].
  rewrite !val_S, (IHn c (fun i => f (S i)) (fun i => g (S i))); ring.
Qed.

Lemma val_nth : forall p n t, (length p <= n)%nat -> val (fun i => nth i p 0) n t = polyval p t.
Proof.
  induction p as [|a p IH]; intros n t L.
  - induction n; [reflexivity|].
    rewrite val_S, (val_ext n _ (fun i => nth i [] 0)) by (intros [|i]; reflexivity).
    rewrite IHn by (cbn; lia); cbn; ring.
  - destruct n as [|n]; [cbn in L; lia|].
    rewrite val_S; cbn [nth polyval]; rewrite IH by (cbn in L; lia); ring.
Qed.

(** ** Product *)

Definition sumf (g : nat -> R) (l : list nat) : R := fold_left (fun s j => s + g j) l 0.

Lemma fold_sum : forall g l s, fold_left (fun s j => s + g j) l s = s + sumf g l.
Proof.
  unfold sumf; intros g l; induction l as [|a l IH]; intro s; cbn; [ring|].
  rewrite IH, (IH (0 + g a)); ring.
Qed.

Lemma sumf_cons : forall g a l, sumf g (a :: l) = g a + sumf g l.
Proof. intros; unfold sumf; cbn; rewrite fold_sum; unfold sumf; ring. Qed.

Lemma sumf_app : forall g l l', sumf g (l ++ l') = sumf g l + sumf g l'.
Proof.
  intros g l l'; induction l as [|a l IH]; cbn [app]; [unfold sumf at 2; cbn; ring|].
  rewrite !sumf_cons, IH; ring.
Qed.

Lemma sumf_ext : forall g h l, (forall j, In j l -> g j = h j) -> sumf g l = sumf h l.
Proof.
  intros g h l; induction l as [|a l IH]; intro H; [reflexivity|].
  rewrite !sumf_cons, IH, (H a); auto using in_eq, in_cons.
Qed.

Lemma sumf_zero : forall g l, (forall j, In j l -> g j = 0) -> sumf g l = 0.
Proof.
  intros g l; induction l as [|a l IH]; intro H; [reflexivity|].
  rewrite sumf_cons, (H a), IH by auto using in_eq, in_cons; ring.
Qed.

Lemma sumf_map : forall g f l, sumf g (map f l) = sumf (fun j => g (f j)) l.
Proof.
  intros g f l; induction l as [|a l IH]; [reflexivity|].
  cbn [map]; rewrite !sumf_cons, IH; reflexivity.
Qed.

Definition conv (a b : list R) (i : nat) : R :=
  sumf (fun j => nth (i - j) a 0 * nth j b 0) (seq 0 (S i)).

Lemma mul_coeff_conv : forall a b i, (1 <= length b)%nat -> mul_coeff a b i = conv a b i.
Proof.
  intros a b i Lb; unfold mul_coeff, conv.
  set (g := fun j => nth (i - j) a 0 * nth j b 0).
  set (low := if Nat.leb (length a) i then (i - length a + 1)%nat else 0%nat).
  set (high := (Nat.min i (length b - 1) + 1)%nat).
  change (sumf g (seq low (high - low)) = sumf g (seq 0 (S i))).
  assert (Lw : low = (i + 1 - length a)%nat)
    by (unfold low; destruct (Nat.leb_spec (length a) i); lia).
  assert (Hh : (high <= S i)%nat) by (unfold high; lia).
  assert (ZA : forall j, (j < low)%nat -> (j <= i)%nat -> g j = 0)
    by (intros j J1 J2; unfold g; rewrite (nth_overflow a) by lia; ring).
  assert (ZB : forall j, (high <= j)%nat -> (j <= i)%nat -> g j = 0)
    by (intros j J1 J2; unfold g; rewrite (nth_overflow b) by (unfold high in J1; lia); ring).
  destruct (Nat.le_gt_cases low high) as [LH|LH].
  - replace (S i) with (low + ((high - low) + (S i - high)))%nat by lia.
    rewrite seq_app, seq_app, !sumf_app.
    rewrite (sumf_zero g (seq 0 low)), (sumf_zero g (seq (0 + low + (high - low)) _)).
    + rewrite Nat.add_0_l; ring.
    + intros j J; apply in_seq in J; apply ZB; lia.
    + intros j J; apply in_seq in J; apply ZA; lia.
  - replace (high - low)%nat with 0%nat by lia.
    change (0 = sumf g (seq 0 (S i))).
    symmetry; apply sumf_zero; intros j J; apply in_seq in J.
    destruct (Nat.le_gt_cases high j); [apply ZB|apply ZA]; lia.
Qed.

Lemma conv_cons_0 : forall a b0 b, conv a (b0 :: b) 0 = b0 * nth 0 a 0.
Proof. intros; unfold conv; cbn; ring. Qed.

Lemma conv_cons_S : forall a b0 b i,
  conv a (b0 :: b) (S i) = b0 * nth (S i) a 0 + conv a b i.
Proof.
  intros a b0 b i; unfold conv.
  change (seq 0 (S (S i))) with (0%nat :: seq 1 (S i)).
  rewrite sumf_cons, <- seq_shift, sumf_map.
  cbn [nth]; rewrite Nat.sub_0_r, Rmult_comm; f_equal.
Qed.

Lemma conv_val : forall a t b n, (length a + length b <= S n)%nat ->
  val (conv a b) n t = polyval a t * polyval b t.
Proof.
  intros a t b; induction b as [|b0 b IH]; intros n L.
  - cbn [polyval]; rewrite Rmult_0_r.
    rewrite (val_ext n _ (fun i => nth i [] 0)); [apply (val_nth [] n t); cbn; lia|].
    intros i _; unfold conv; rewrite sumf_zero; [destruct i; reflexivity|].
    intros [|j] _; cbn; ring.
  - cbn [length] in L; destruct n as [|n].
    + destruct a; [cbn; ring|cbn in L; lia].
    + rewrite val_S.
      rewrite (val_ext n _ (fun i => b0 * nth (S i) a 0 + conv a b i))
        by (intros; apply conv_cons_S).
      rewrite val_lin, conv_cons_0, (IH n) by lia.
      assert (E := val_nth a (S n) t ltac:(lia)); rewrite val_S in E; cbv beta in E.
      cbn [polyval]; rewrite <- E; ring.
Qed.

Lemma polymul_spec : forall a b, (1 <= length b)%nat ->
  exists m, polymul a b = Ok m /\ length m = (length a + length b - 1)%nat /\
    forall t, polyval m t = polyval a t * polyval b t.
Proof.
  intros a b L.
  exists (map (mul_coeff a b) (seq 0 (length a + length b - 1))); repeat split.
  - unfold polymul; destruct b as [|b0 b]; [cbn in L; lia|].
    destruct a as [|? [|? ?]]; reflexivity.
  - rewrite map_length, seq_length; reflexivity.
  - intro t; rewrite (map_ext _ (conv a b)) by (intro; apply mul_coeff_conv; auto).
    apply (conv_val a t b); lia.
Qed.

(** ** Sum *)

Lemma add_prefix_length : forall a b, length (add_prefix a b) = length a.
Proof. induction a as [|x a IH]; intros [|y b]; cbn; auto. Qed.

Lemma add_prefix_val : forall a b t, (length b <= length a)%nat ->
  polyval (add_prefix a b) t = polyval a t + polyval b t.
Proof.
  induction a as [|x a IH]; intros [|y b] t L; cbn in *; try lia; try ring.
  rewrite IH by lia; ring.
Qed.

Lemma polyadd_val : forall a b t, polyval (polyadd a b) t = polyval a t + polyval b t.
Proof.
  intros a b t; unfold polyadd; destruct (Nat.ltb_spec (length b) (length a));
    rewrite add_prefix_val by lia; ring.
Qed.

Lemma polyadd_length : forall a b, length (polyadd a b) = Nat.max (length a) (length b).
Proof.
  intros a b; unfold polyadd; destruct (Nat.ltb_spec (length b) (length a));
    rewrite add_prefix_length; lia.
Qed.

(** ** Derivative and integral *)

Definition dfrom (k : nat) (r : list R) : list R := mapi_from (fun i a => a * INR (i + 1)) k r.

Lemma dfrom_shift : forall r k t,
  polyval (dfrom k r) t = INR k * polyval r t + polyval (dfrom 0 r) t.
Proof.
  induction r as [|a r IH]; intros k t; cbn; [ring|].
  unfold dfrom in IH; rewrite (IH (S k)), (IH 1%nat), S_INR, Nat.add_1_r, S_INR; cbn; ring.
Qed.

Definition der (p : list R) : list R :=
  match p with [] => [] | _ :: r => dfrom 0 r end.

Lemma dfrom_der : forall r t, polyval (dfrom 0 r) t = polyval (der r) t * t + polyval r t.
Proof.
  intros [|b r] t; [cbn; ring|].
  unfold dfrom, der; cbn [mapi_from polyval].
  assert (E := dfrom_shift r 1 t); unfold dfrom in E; rewrite E; unfold dfrom; cbn; ring.
Qed.

Lemma der_lim : forall p t, derivable_pt_lim (polyval p) t (polyval (der p) t).
Proof.
  induction p as [|a r IH]; intro t.
  - cbn; apply derivable_pt_lim_const.
  - cbn [der]; rewrite dfrom_der.
    change (polyval (a :: r)) with ((polyval r * id) + fct_cte a)%F.
    replace (polyval (der r) t * t + polyval r t)
      with (polyval (der r) t * id t + polyval r t * 1 + 0) by (unfold id; ring).
    apply derivable_pt_lim_plus; [|apply derivable_pt_lim_const].
    apply derivable_pt_lim_mult; [apply IH|apply derivable_pt_lim_id].
Qed.

Lemma polyder_Ok : forall p, p <> [] -> polyder p = Ok (der p).
Proof. intros [|a r] H; [congruence|reflexivity]. Qed.

Lemma mapi_length : forall A B (f : nat -> A -> B) l k, length (mapi_from f k l) = length l.
Proof. induction l; intros; cbn; auto. Qed.

Lemma der_length : forall p, length (der p) = (length p - 1)%nat.
Proof. intros [|a r]; cbn; [reflexivity|]; unfold dfrom; rewrite mapi_length; lia. Qed.

Lemma mapi_mapi : forall A B C (f : nat -> A -> B) (g : nat -> B -> C) l k,
  mapi_from g k (mapi_from f k l) = mapi_from (fun i a => g i (f i a)) k l.
Proof. induction l; intros; cbn; f_equal; auto. Qed.

Lemma der_polyint : forall p, der (polyint p) = p.
Proof.
  intros p; unfold der, polyint, dfrom; rewrite mapi_mapi.
  assert (H : forall k, mapi_from (fun i a => a / INR (i + 1) * INR (i + 1)) k p = p).
  { induction p as [|a p IH]; intro k; cbn; [reflexivity|].
    rewrite IH; f_equal; field; apply not_0_INR; lia. }
  apply H.
Qed.

Lemma polyint_0 : forall p, polyval (polyint p) 0 = 0.
Proof. intro p; unfold polyint; cbn [polyval]; ring. Qed.

Lemma polyint_lim : forall p t, derivable_pt_lim (polyval (polyint p)) t (polyval p t).
Proof. intros p t; rewrite <- (der_polyint p) at 2; apply der_lim. Qed.

Lemma polyval_cons_0 : forall a r, polyval (a :: r) 0 = a.
Proof. intros; cbn; ring. Qed.

(** ** Change of parameter *)

(** Homogeneous value of a row of binomials. *)
Fixpoint hv (row : list Z) (o t : R) : R :=
  match row with
  | [] => 0
  | b :: r => IZR b * t ^ (length r) + o * hv r o t
  end.

(** The sums of neighbours of [row ++ [0]]. *)
Fixpoint pairs (x : Z) (r : list Z) : list Z :=
  match r with
  | [] => [x]
  | y :: r' => (x + y)%Z :: pairs y r'
  end.

Lemma pairs_length : forall r x, length (pairs x r) = S (length r).
Proof. induction r; intros; cbn; auto. Qed.

Lemma hv_pairs : forall r x o t,
  IZR x * t ^ (S (length r)) + o * hv (pairs x r) o t = (t + o) * hv (x :: r) o t.
Proof.
  induction r as [|y r IH]; intros x o t.
  - cbn; ring.
  - cbn [pairs hv]; rewrite pairs_length.
    assert (E := IH y o t); cbn [hv] in E.
    rewrite plus_IZR; cbn [length] in *.
    transitivity (IZR x * t ^ (S (length r)) * (t + o)
      + o * (IZR y * t ^ (S (length r)) + o * hv (pairs y r) o t)).
    + cbn [pow]; ring.
    + rewrite E; cbn [pow]; ring.
Qed.

(** A row of Pascal's triangle: it ends with 1, or is empty. *)
Lemma bin_loop_pairs : forall r x prev out,
  last (x :: r) 0%Z = 1%Z ->
  bin_loop prev ((x :: r) ++ [0%Z]) = Ok out -> out = prev :: pairs x r.
Proof.
  induction r as [|y r IH]; intros x prev out L H.
  - cbn in L; subst x; cbn in H.
    inversion H; reflexivity.
  - change ((x :: y :: r) ++ [0%Z]) with (x :: (y :: r ++ [0%Z])) in H.
    cbn [bin_loop] in H; apply bind_Ok in H as [p [H1 H]].
    apply chk_Ok in H1 as [H1 _]; subst p.
    apply bind_Ok in H as [o [H2 H]]; inversion H; subst out; clear H.
    rewrite (IH y (x + y)%Z o); auto.
Qed.

Definition row_ok (i : nat) (row : list Z) : Prop :=
  length row = i /\
  match row with
  | [] => True
  | x :: _ => x = 1%Z /\ last row 0%Z = 1%Z
  end /\
  ((1 <= i)%nat -> forall o t, hv row o t = (t + o) ^ (i - 1)).

Lemma pairs_last : forall r x, last (pairs x r) 0%Z = last (x :: r) 0%Z.
Proof.
  induction r as [|y r IH]; intro x; [reflexivity|].
  change (last (pairs x (y :: r)) 0%Z) with (last ((x + y)%Z :: pairs y r) 0%Z).
  assert (N : pairs y r <> []) by (intro E; apply (f_equal (@length Z)) in E;
    rewrite pairs_length in E; discriminate).
  destruct (pairs y r) as [|z q] eqn:E; [congruence|].
  change (last (z :: q) 0%Z = last (y :: r) 0%Z); rewrite <- E; apply IH.
Qed.

Lemma step_row_ok : forall i row out,
  row_ok i row -> binomial_step (row ++ [0%Z]) = Ok out -> row_ok (S i) out.
Proof.
  intros i row out [L [E V]] H; destruct row as [|x r].
  - cbn in H; inversion H; subst out; cbn in L; subst i.
    split; [reflexivity|]; split; [split; reflexivity|].
    intros _ o t; cbn; ring.
  - destruct E as [E1 E2]; subst x.
    cbn [binomial_step app] in H.
    apply (bin_loop_pairs r 1%Z 1%Z) in H; [|exact E2]; subst out.
    split; [cbn; rewrite pairs_length; cbn in L; lia|]; split.
    + split; [reflexivity|].
      destruct (pairs 1 r) as [|z q] eqn:E.
      * apply (f_equal (@length Z)) in E; rewrite pairs_length in E; discriminate.
      * change (last (z :: q) 0%Z = 1%Z); rewrite <- E, pairs_last; exact E2.
    + intros _ o t.
      cbn [hv]; rewrite pairs_length, hv_pairs.
      rewrite V by (cbn in L; lia).
      replace (S i - 1)%nat with (S (i - 1)) by (cbn in L; lia); reflexivity.
Qed.

(** polyval of a reversed list is Horner's rule from the left. *)
Lemma polyval_app : forall p q t, polyval (p ++ q) t = polyval p t + t ^ (length p) * polyval q t.
Proof.
  induction p as [|a p IH]; intros q t; cbn; [ring|]; rewrite IH; ring.
Qed.

Lemma offset_row_val : forall bin pi f o t,
  polyval (rev (offset_row pi bin f o)) t = pi * f * hv bin o t.
Proof.
  induction bin as [|b r IH]; intros pi f o t; cbn [offset_row rev hv].
  - cbn; ring.
  - rewrite polyval_app, IH, rev_length.
    assert (L : forall r f, length (offset_row pi r f o) = length r)
      by (clear; intros r; induction r; intros; cbn; auto).
    rewrite L; cbn; ring.
Qed.

Lemma offset_row_length : forall bin pi f o, length (offset_row pi bin f o) = length bin.
Proof. induction bin; intros; cbn; auto. Qed.

Lemma offset_loop_spec : forall p bin o out q i,
  row_ok i bin -> (i + length p <= length out)%nat ->
  offset_loop p bin o out = Ok q ->
  length q = length out /\
  forall t, polyval q t = polyval out t + (t + o) ^ i * polyval p (t + o).
Proof.
  induction p as [|pi p IH]; intros bin o out q i W L H; cbn [offset_loop] in H.
  - inversion H; subst; split; [reflexivity|]; intro t; cbn; ring.
  - apply bind_Ok in H as [bin' [H1 H]].
    assert (W' := step_row_ok i bin bin' W H1).
    cbn [length] in L.
    set (out' := add_prefix out (rev (offset_row pi bin' 1 o))) in *.
    assert (LO : (S i + length p <= length out')%nat)
      by (unfold out'; rewrite add_prefix_length; lia).
    destruct (IH bin' o out' q (S i) W' LO H) as [L' V']; subst out'.
    rewrite add_prefix_length in L'; split; [exact L'|].
    intro t; rewrite V', add_prefix_val, offset_row_val.
    + destruct W' as [_ [_ W']]; rewrite W' by lia.
      replace (S i - 1)%nat with i by lia; cbn [polyval pow]; ring.
    + rewrite rev_length, offset_row_length.
      destruct W' as [W' _]; lia.
Qed.

Lemma polyval_zeros : forall n t, polyval (repeat 0 n) t = 0.
Proof. induction n; intro t; cbn; [reflexivity|]; rewrite IHn; ring. Qed.

Lemma polyoffset_spec : forall p o q, polyoffset p o = Ok q ->
  length q = length p /\ forall t, polyval q t = polyval p (t + o).
Proof.
  intros p o q H; unfold polyoffset in H.
  destruct (offset_loop_spec p [] o (repeat 0 (length p)) q 0%nat) as [L V]; auto.
  - split; [reflexivity|]; split; [exact I|]; lia.
  - rewrite repeat_length; lia.
  - rewrite repeat_length in L; split; auto.
    intro t; rewrite V, polyval_zeros; cbn; ring.
Qed.

(** The rows do not depend on the polynomial. *)
Fixpoint rows_fit (n : nat) (bin : list Z) : res unit :=
  match n with
  | O => Ok tt
  | S n' => let! b := binomial_step (bin ++ [0%Z]) in rows_fit n' b
  end.

Lemma offset_loop_fit : forall p bin o out,
  rows_fit (length p) bin = Ok tt -> exists q, offset_loop p bin o out = Ok q.
Proof.
  induction p as [|pi p IH]; intros bin o out H; cbn [offset_loop]; [eauto|].
  cbn [length rows_fit] in H; apply bind_Ok in H as [b [H1 H]].
  rewrite H1; cbn [bind]; apply IH; auto.
Qed.

Lemma offset_loop_unfit : forall p bin o out,
  rows_fit (length p) bin = Panic -> offset_loop p bin o out = Panic.
Proof.
  induction p as [|pi p IH]; intros bin o out H; cbn [offset_loop]; [discriminate|].
  cbn [length rows_fit] in H.
  destruct (binomial_step (bin ++ [0%Z])); cbn [bind] in *; auto; discriminate.
Qed.

Lemma rows_fit_19 : forall n, (n <= 19)%nat -> rows_fit n [] = Ok tt.
Proof.
  intros n H.
  do 20 (destruct n as [|n]; [vm_compute; reflexivity|]); lia.
Qed.

Lemma rows_fit_more : forall k n bin, rows_fit n bin = Panic -> rows_fit (n + k) bin = Panic.
Proof.
  intros k; induction n; intros bin H; cbn [rows_fit plus] in *; [discriminate|].
  destruct (binomial_step (bin ++ [0%Z])); cbn [bind] in *; auto.
Qed.

Lemma rows_unfit_20 : forall n, (20 <= n)%nat -> rows_fit n [] = Panic.
Proof.
  intros n H; replace n with (20 + (n - 20))%nat by lia.
  apply rows_fit_more; vm_compute; reflexivity.
Qed.

(** ** Interpolation *)

Lemma polyweight_spec : forall a ta b tb, a <> [] -> b <> [] -> ta <> tb ->
  exists w, polyweight a ta b tb = Ok w /\ w <> [] /\
  length w = S (Nat.max (length a) (length b)) /\
  forall t, polyval w t =
    (t - tb) / (ta - tb) * polyval a t + (t - ta) / (tb - ta) * polyval b t.
Proof.
  intros a ta b tb Na Nb D; unfold polyweight.
  assert (La : (1 <= length a)%nat) by (destruct a; [congruence|cbn; lia]).
  assert (Lb : (1 <= length b)%nat) by (destruct b; [congruence|cbn; lia]).
  destruct (polymul_spec [- tb / (ta - tb); 1 / (ta - tb)] a La) as [wa [Ea [LA Va]]].
  destruct (polymul_spec [- ta / (tb - ta); 1 / (tb - ta)] b Lb) as [wb [Eb [LB Vb]]].
  rewrite Ea; cbn [bind]; rewrite Eb; cbn [bind].
  cbn [length] in LA, LB.
  assert (LL : length (polyadd wa wb) = S (Nat.max (length a) (length b)))
    by (rewrite polyadd_length; lia).
  eexists; split; [reflexivity|]; split; [|split; [exact LL|]].
  - intro E; rewrite E in LL; discriminate.
  - intro t; rewrite polyadd_val, Va, Vb; cbn [polyval]; field; split; lra.
Qed.
