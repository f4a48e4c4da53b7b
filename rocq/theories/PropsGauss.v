(** C65: the Gauss quadrature of gauss_quadrature.rs. *)
From Coq Require Import ZArith QArith Reals Qreals List Lra Lia Psatz.
From Verif Require Import Base Gauss.
Import ListNotations.
Open Scope R_scope.

(** * What is claimed, in terms of polynomials and antiderivatives only. *)

(** The polynomial with the given coefficients, constant first. *)
Fixpoint poly (p : list R) (x : R) : R :=
  match p with
  | [] => 0
  | c :: q => c + x * poly q x
  end.

(** The sum of the absolute values of the coefficients. *)
Fixpoint size (p : list R) : R :=
  match p with
  | [] => 0
  | c :: q => Rabs c + size q
  end.

(** What the printed coefficients are off by: ten decimals for two and three
    points, sixteen for the others. *)
Definition printed_error (n : nat) : R :=
  match n with
  | 2%nat | 3%nat => 1 / 10 ^ 10
  | _ => 3 / 10 ^ 16
  end.

Definition between (a b x : R) : Prop := Rmin a b <= x <= Rmax a b.
Definition strictly_between (a b x : R) : Prop := Rmin a b < x < Rmax a b.

(** * Proofs *)

Lemma size_nonneg p : 0 <= size p.
Proof. induction p as [|c p IH]; cbn [size]; [lra|]. pose proof (Rabs_pos c). lra. Qed.

(** ** Substituting an affine map. *)
Fixpoint padd (p q : list R) : list R :=
  match p, q with
  | [], _ => q
  | _, [] => p
  | x :: p', y :: q' => (x + y) :: padd p' q'
  end.

Lemma poly_padd p q x : poly (padd p q) x = poly p x + poly q x.
Proof.
  revert q; induction p as [|c p IH]; intros [|d q]; cbn [padd poly]; try lra.
  rewrite IH; lra.
Qed.

Lemma padd_length p q : length (padd p q) = Nat.max (length p) (length q).
Proof.
  revert q; induction p as [|c p IH]; intros [|d q]; cbn [padd length]; try lia.
  rewrite IH; lia.
Qed.

Definition pscale (s : R) (p : list R) : list R := map (Rmult s) p.

Lemma poly_pscale s p x : poly (pscale s p) x = s * poly p x.
Proof. induction p as [|c p IH]; cbn [pscale map poly]; [lra|]. fold (pscale s p). rewrite IH; lra. Qed.

Fixpoint paffine (p : list R) (k m : R) : list R :=
  match p with
  | [] => []
  | c :: q =>
      let r := paffine q k m in
      padd [c] (padd (pscale m r) (match r with [] => [] | _ => 0 :: pscale k r end))
  end.

Lemma poly_paffine p k m t : poly (paffine p k m) t = poly p (k * t + m).
Proof.
  induction p as [|c p IH]; cbn [paffine poly]; [reflexivity|].
  rewrite !poly_padd, poly_pscale, IH, <- IH.
  destruct (paffine p k m) as [|d r] eqn:E; cbn [poly]; [ring|].
  change (poly (pscale k (d :: r)) t) with (poly (pscale k (d :: r)) t).
  rewrite poly_pscale. cbn [poly]. ring.
Qed.

Lemma paffine_length p k m : length (paffine p k m) = length p.
Proof.
  induction p as [|c p IH]; [reflexivity|].
  cbn [paffine]. rewrite !padd_length.
  unfold pscale. destruct (paffine p k m) as [|d r]; cbn [length map] in *; [lia|].
  rewrite !map_length. lia.
Qed.

(** ** Integrating over [-1, 1]. *)

(** [primitive j c t] = Σ c_i t^(i+j+1)/(i+j+1). *)
Fixpoint primitive (j : nat) (c : list R) (t : R) : R :=
  match c with
  | [] => 0
  | x :: q => x * (t ^ (S j) / INR (S j)) + primitive (S j) q t
  end.

Lemma primitive_derive c : forall j t, derivable_pt_lim (primitive j c) t (t ^ j * poly c t).
Proof.
  induction c as [|x c IH]; intros j t; cbn [primitive poly].
  - rewrite Rmult_0_r. apply derivable_pt_lim_const.
  - replace (t ^ j * (x + t * poly c t)) with (x * t ^ j + t ^ S j * poly c t) by (cbn [pow]; ring).
    apply (derivable_pt_lim_plus (fun t => x * (t ^ S j / INR (S j))) (primitive (S j) c)).
    + apply (derivable_pt_lim_scal (fun t => t ^ S j / INR (S j)) x t (t ^ j)).
      assert (H : derivable_pt_lim (mult_real_fct (/ INR (S j)) (fun t => t ^ S j)) t (/ INR (S j) * (INR (S j) * t ^ pred (S j)))).
      { apply derivable_pt_lim_scal. apply derivable_pt_lim_pow. }
      assert (INR (S j) <> 0) by (apply not_0_INR; lia).
      replace (/ INR (S j) * (INR (S j) * t ^ pred (S j))) with (t ^ j) in H by (cbn [pred]; field; assumption).
      intros eps He. destruct (H eps He) as [d Hd]. exists d. intros h Hh1 Hh2.
      specialize (Hd h Hh1 Hh2). unfold mult_real_fct in Hd.
      replace ((t + h) ^ S j / INR (S j) - t ^ S j / INR (S j)) with (/ INR (S j) * (t + h) ^ S j - / INR (S j) * t ^ S j)
        by (field; assumption).
      exact Hd.
    + apply IH.
Qed.

(** The exact moments of the interval [-1, 1]. *)
Definition moment (j : nat) : Q := if Nat.even j then 2 # Pos.of_nat (S j) else 0.

Lemma even_pow j : (-1) ^ j = if Nat.even j then 1 else -1.
Proof.
  induction j as [|j IH]; [reflexivity|].
  cbn [pow]. rewrite IH. rewrite Nat.even_succ, <- Nat.negb_even.
  destruct (Nat.even j); cbn [negb]; lra.
Qed.

Lemma INR_Q j : Q2R (2 # Pos.of_nat (S j)) = 2 / INR (S j).
Proof.
  unfold Q2R. cbn [Qnum Qden]. rewrite INR_IZR_INZ.
  rewrite <- (Nat2Pos.id (S j)) at 2 by lia. rewrite positive_nat_Z. reflexivity.
Qed.

Lemma Q2R_zero : Q2R 0 = 0.
Proof. unfold Q2R. cbn. lra. Qed.

Fixpoint against (j : nat) (c : list R) (M : nat -> R) : R :=
  match c with
  | [] => 0
  | x :: q => x * M j + against (S j) q M
  end.

Lemma primitive_moments c : forall j,
  primitive j c 1 - primitive j c (-1) = against j c (fun j => Q2R (moment j)).
Proof.
  induction c as [|x c IH]; intros j; cbn [primitive against]; [lra|].
  rewrite <- IH. unfold moment.
  assert (INR (S j) <> 0) by (apply not_0_INR; lia).
  rewrite pow1, even_pow, Nat.even_succ, <- Nat.negb_even.
  destruct (Nat.even j); cbn [negb].
  - rewrite INR_Q. field; assumption.
  - rewrite Q2R_zero. field; assumption.
Qed.

Lemma against_close c : forall j M N e,
  (forall i, (j <= i < j + length c)%nat -> Rabs (M i - N i) <= e) ->
  Rabs (against j c M - against j c N) <= e * size c.
Proof.
  induction c as [|x c IH]; intros j M N e H; cbn [against size].
  - rewrite Rminus_0_r, Rabs_R0; lra.
  - replace (x * M j + against (S j) c M - (x * N j + against (S j) c N))
      with (x * (M j - N j) + (against (S j) c M - against (S j) c N)) by ring.
    eapply Rle_trans; [apply Rabs_triang|].
    rewrite Rabs_mult.
    assert (Rabs (M j - N j) <= e) by (apply H; cbn [length]; lia).
    assert (Rabs (against (S j) c M - against (S j) c N) <= e * size c)
      by (apply IH; intros i Hi; apply H; cbn [length]; lia).
    pose proof (Rabs_pos x). nra.
Qed.

(** ** The rule as a sum over the table. *)
Definition table := list (Q * Q).

Fixpoint rule (tab : table) (f : R -> R) : R :=
  match tab with
  | [] => 0
  | (w, x) :: r => Q2R w * f (Q2R x) + rule r f
  end.

Lemma fold_rule tab f s :
  fold_left (fun sum wx => sum + Q2R (fst wx) * f (Q2R (snd wx))) tab s = s + rule tab f.
Proof.
  revert s; induction tab as [|[w x] r IH]; intros s; cbn [fold_left rule fst snd]; [lra|].
  rewrite IH; lra.
Qed.

Lemma rule_ext tab f g : (forall x, In x (map snd tab) -> f (Q2R x) = g (Q2R x)) -> rule tab f = rule tab g.
Proof.
  induction tab as [|[w x] r IH]; intros H; cbn [rule]; [reflexivity|].
  rewrite (H x) by (left; reflexivity). rewrite IH; [reflexivity|].
  intros y Hy. apply H. right; exact Hy.
Qed.

Lemma rule_plus tab f g : rule tab (fun x => f x + g x) = rule tab f + rule tab g.
Proof. induction tab as [|[w x] r IH]; cbn [rule]; [lra|]. rewrite IH; lra. Qed.

Lemma rule_scal tab s f : rule tab (fun x => s * f x) = s * rule tab f.
Proof. induction tab as [|[w x] r IH]; cbn [rule]; [lra|]. rewrite IH; lra. Qed.

Lemma rule_moments tab c : forall j,
  rule tab (fun x => x ^ j * poly c x) = against j c (fun j => rule tab (fun x => x ^ j)).
Proof.
  induction c as [|a c IH]; intros j; cbn [poly against].
  - induction tab as [|[w x] r IH]; cbn [rule]; [reflexivity|]. rewrite IH; lra.
  - rewrite <- IH, <- rule_scal, <- rule_plus. apply rule_ext. intros x _. cbn [pow]. ring.
Qed.

(** The same in rational numbers, so that the tables can be evaluated. *)
Fixpoint qpow (x : Q) (j : nat) : Q := match j with O => 1 | S i => x * qpow x i end.
Definition qadd (a b : Q) : Q := if Pos.eqb (Qden a) (Qden b) then Qnum a + Qnum b # Qden a else a + b.
Fixpoint qmoment (tab : table) (j : nat) : Q :=
  match tab with [] => 0 | [(w, x)] => w * qpow x j | (w, x) :: r => qadd (w * qpow x j) (qmoment r j) end.

Lemma Q2R_qpow x j : Q2R (qpow x j) = Q2R x ^ j.
Proof.
  induction j as [|j IH]; cbn [qpow pow]; [unfold Q2R; cbn; lra|].
  rewrite Q2R_mult, IH; reflexivity.
Qed.

Lemma Q2R_qadd a b : Q2R (qadd a b) = Q2R a + Q2R b.
Proof.
  unfold qadd. destruct (Pos.eqb_spec (Qden a) (Qden b)) as [E|E]; [|apply Q2R_plus].
  unfold Q2R. cbn [Qnum Qden]. rewrite plus_IZR, <- E. ring.
Qed.

Lemma Q2R_qmoment tab j : Q2R (qmoment tab j) = rule tab (fun x => x ^ j).
Proof.
  induction tab as [|[w x] [|y r] IH]; [apply Q2R_zero| |].
  - cbn [qmoment rule]. rewrite Q2R_mult, Q2R_qpow; lra.
  - change (qmoment ((w, x) :: y :: r) j) with (qadd (w * qpow x j) (qmoment (y :: r) j)).
    change (rule ((w, x) :: y :: r) (fun x => x ^ j)) with (Q2R w * Q2R x ^ j + rule (y :: r) (fun x => x ^ j)).
    rewrite Q2R_qadd, Q2R_mult, Q2R_qpow, IH; reflexivity.
Qed.

Definition moments_within (tab : table) (e : Q) (d : nat) : bool :=
  forallb (fun j => Qle_bool (qmoment tab j - moment j) e && Qle_bool (moment j - qmoment tab j) e) (seq 0 d).

Lemma moments_within_spec tab e d :
  moments_within tab e d = true ->
  forall j, (j < d)%nat -> Rabs (rule tab (fun x => x ^ j) - Q2R (moment j)) <= Q2R e.
Proof.
  intros H j Hj. unfold moments_within in H. rewrite forallb_forall in H.
  specialize (H j). rewrite in_seq in H. specialize (H ltac:(lia)).
  apply andb_prop in H as [H1 H2].
  apply Qle_bool_iff, Qle_Rle in H1. apply Qle_bool_iff, Qle_Rle in H2.
  rewrite Q2R_minus, Q2R_qmoment in H1. rewrite Q2R_minus, Q2R_qmoment in H2.
  apply Rabs_le; lra.
Qed.

(** Weights positive, nodes strictly inside (-1, 1). *)
Definition table_ok (tab : table) : bool :=
  forallb (fun wx => negb (Qle_bool (fst wx) 0) && (negb (Qle_bool 1 (snd wx)) && negb (Qle_bool (snd wx) (-1)))) tab.

Lemma Qle_bool_false a b : Qle_bool a b = false -> (b < a)%Q.
Proof.
  intros H. apply Qnot_le_lt. intros C. apply Qle_bool_iff in C. congruence.
Qed.

Lemma table_ok_spec tab : table_ok tab = true ->
  forall w x, In (w, x) tab -> 0 < Q2R w /\ -1 < Q2R x < 1.
Proof.
  intros H w x Hin. unfold table_ok in H. rewrite forallb_forall in H.
  specialize (H _ Hin). cbn [fst snd] in H.
  apply andb_prop in H as [H1 H]. apply andb_prop in H as [H2 H3].
  apply Bool.negb_true_iff, Qle_bool_false, Qlt_Rlt in H1.
  apply Bool.negb_true_iff, Qle_bool_false, Qlt_Rlt in H2.
  apply Bool.negb_true_iff, Qle_bool_false, Qlt_Rlt in H3.
  rewrite Q2R_zero in H1.
  assert (Q2R 1 = 1) by (unfold Q2R; cbn; lra).
  assert (Q2R (-1) = -1) by (unfold Q2R; cbn; lra).
  lra.
Qed.

Lemma rule_le tab f g :
  (forall w x, In (w, x) tab -> 0 < Q2R w /\ -1 < Q2R x < 1) ->
  (forall x, -1 < x < 1 -> f x <= g x) -> rule tab f <= rule tab g.
Proof.
  intros T H. induction tab as [|[w x] r IH]; cbn [rule]; [lra|].
  destruct (T w x (or_introl eq_refl)) as [Hw Hx].
  specialize (H _ Hx) as Hf.
  assert (rule r f <= rule r g) by (apply IH; intros; apply T; right; assumption).
  nra.
Qed.

Definition eps_q (n : nat) : Q := match n with 2%nat | 3%nat => 1 # 10000000000 | _ => 3 # 10000000000000000 end.

Lemma eps_q_spec n : Q2R (eps_q n) = printed_error n.
Proof.
  unfold eps_q, printed_error.
  destruct n as [|[|[|[|n]]]]; unfold Q2R; cbn [Qnum Qden]; lra.
Qed.

(** Every table used passes. *)
Lemma tables n : (2 <= n <= 8)%nat ->
  exists tab,
    (forall a b f, gauss_quad_integrate a b n f = Ok ((b - a) / 2 * rule tab (fun t => f ((b - a) / 2 * t + (a + b) / 2))))
    /\ moments_within tab (eps_q n) (2 * n) = true
    /\ table_ok tab = true
    /\ Qle_bool (moment (2 * n) - qmoment tab (2 * n)) (1 # 25000) = false
    /\ rev (map (fun wx => (fst wx, Qopp (snd wx))) tab) = tab.
Proof.
  intros H.
  assert (C : (n = 2 \/ n = 3 \/ n = 4 \/ n = 5 \/ n = 6 \/ n = 7 \/ n = 8)%nat) by lia.
  exists (combine (nth (n - 2) weights_n []) (nth (n - 2) abscissas_n [])).
  split; [|destruct C as [-> | [-> | [-> | [-> | [-> | [-> | ->]]]]]];
           (split; [vm_compute; reflexivity|split; [vm_compute; reflexivity|split; vm_compute; reflexivity]])].
  intros a b f.
  assert (E : gauss_quad_integrate a b n f =
              Ok ((b - a) / 2 * fold_left (fun sum wx => sum + Q2R (fst wx) * f ((b - a) / 2 * Q2R (snd wx) + (a + b) / 2))
                    (combine (nth (n - 2) weights_n []) (nth (n - 2) abscissas_n [])) 0)).
  { destruct C as [-> | [-> | [-> | [-> | [-> | [-> | ->]]]]]]; reflexivity. }
  rewrite E. f_equal. f_equal.
  rewrite (fold_rule _ (fun t => f ((b - a) / 2 * t + (a + b) / 2))). lra.
Qed.

Lemma affine_between a b t : -1 <= t <= 1 -> between a b ((b - a) / 2 * t + (a + b) / 2).
Proof.
  intros H. unfold between, Rmin, Rmax. destruct (Rle_dec a b); nra.
Qed.

Lemma affine_strictly a b t : a <> b -> -1 < t < 1 -> strictly_between a b ((b - a) / 2 * t + (a + b) / 2).
Proof.
  intros N H. unfold strictly_between, Rmin, Rmax. destruct (Rle_dec a b) as [L|L].
  - assert (a < b) by lra. nra.
  - nra.
Qed.

Lemma derivable_affine F a b t (D : R) :
  derivable_pt_lim F ((b - a) / 2 * t + (a + b) / 2) D ->
  derivable_pt_lim (fun t => F ((b - a) / 2 * t + (a + b) / 2)) t (D * ((b - a) / 2)).
Proof.
  intros H.
  apply (derivable_pt_lim_comp (fun t => (b - a) / 2 * t + (a + b) / 2) F); [|exact H].
  assert (E : (b - a) / 2 = (b - a) / 2 * 1 + 0) by ring.
  pattern ((b - a) / 2) at 2. rewrite E.
  apply (derivable_pt_lim_plus (fun t => (b - a) / 2 * t) (fun _ => (a + b) / 2) t ((b - a) / 2 * 1) 0).
  - apply (derivable_pt_lim_scal id ((b - a) / 2) t 1). apply derivable_pt_lim_id.
  - apply derivable_pt_lim_const.
Qed.

(** * The theorems *)

(** A function within [delta] of a polynomial of degree below [2n] is integrated
    with an error of at most [2 delta] times the length of the interval (a little
    more, for the printing of the weights), plus what the printed coefficients
    cost.  With [delta = 0] the function is the polynomial. *)
Theorem C65_quadrature : forall n a b p f F delta,
  (2 <= n <= 8)%nat -> (length p <= 2 * n)%nat ->
  (forall x, between a b x -> Rabs (f x - poly p x) <= delta) ->
  (forall x, between a b x -> derivable_pt_lim F x (f x)) ->
  exists v c,
    gauss_quad_integrate a b n f = Ok v
    /\ length c = length p
    /\ (forall t, poly c t = poly p ((b - a) / 2 * t + (a + b) / 2))
    /\ Rabs (v - (F b - F a))
       <= Rabs (b - a) / 2 * (printed_error n * size c + (4 + printed_error n) * delta).
Proof.
  intros n a b p f F delta Hn Hp Hf HF.
  destruct (tables n Hn) as (tab & E & M & T & _).
  set (k := (b - a) / 2) in *. set (m := (a + b) / 2) in *.
  pose (c := paffine p k m).
  exists (k * rule tab (fun t => f (k * t + m))), c.
  split; [apply E|].
  split; [unfold c; apply paffine_length|].
  split; [intros t; unfold c; apply poly_paffine|].
  assert (Hd : 0 <= delta).
  { eapply Rle_trans; [apply Rabs_pos|apply (Hf a)]. unfold between, Rmin, Rmax. destruct (Rle_dec a b); lra. }
  assert (Hm := moments_within_spec _ _ _ M). rewrite eps_q_spec in Hm.
  assert (HT := table_ok_spec _ T).
  (* the rule against the polynomial *)
  assert (H1 : Rabs (rule tab (poly c) - (primitive 0 c 1 - primitive 0 c (-1))) <= printed_error n * size c).
  { rewrite primitive_moments.
    replace (rule tab (poly c)) with (rule tab (fun x => x ^ 0 * poly c x)) by (apply rule_ext; intros; cbn [pow]; ring).
    rewrite rule_moments. apply against_close. intros i Hi. apply Hm.
    unfold c in Hi. rewrite paffine_length in Hi. lia. }
  (* the rule against the function *)
  assert (W : rule tab (fun x => x ^ 0) <= 2 + printed_error n).
  { specialize (Hm 0%nat ltac:(lia)).
    assert (Q2R (moment 0) = 2) by (unfold moment; cbn [Nat.even]; unfold Q2R; cbn; lra).
    pose proof (Rle_abs (rule tab (fun x => x ^ 0) - Q2R (moment 0))). lra. }
  assert (H2 : Rabs (rule tab (fun t => f (k * t + m)) - rule tab (poly c)) <= (2 + printed_error n) * delta).
  { assert (B : forall t, -1 < t < 1 -> Rabs (f (k * t + m) - poly c t) <= delta).
    { intros t Ht. unfold c. rewrite poly_paffine. apply Hf. apply affine_between. lra. }
    assert (S : forall s, Rabs s = 1 -> s * (rule tab (fun t => f (k * t + m)) - rule tab (poly c)) <= delta * rule tab (fun x => x ^ 0)).
    { intros s Hs.
      replace (s * (rule tab (fun t => f (k * t + m)) - rule tab (poly c)))
        with (s * rule tab (fun t => f (k * t + m)) + (- s) * rule tab (poly c)) by ring.
      rewrite <- !rule_scal, <- rule_plus. apply rule_le; [exact HT|].
      intros t Ht. specialize (B t Ht). cbn [pow].
      replace (s * f (k * t + m) + - s * poly c t) with (s * (f (k * t + m) - poly c t)) by ring.
      eapply Rle_trans; [apply Rle_abs|]. rewrite Rabs_mult, Hs. lra. }
    assert (S1 := S 1 ltac:(apply Rabs_R1)).
    assert (S2 := S (-1) ltac:(rewrite Rabs_left; lra)).
    apply Rabs_le. nra. }
  (* the two integrals *)
  assert (H3 : Rabs ((F b - F a) - k * (primitive 0 c 1 - primitive 0 c (-1))) <= Rabs k * (2 * delta)).
  { destruct (MVT_cor2 (fun t => F (k * t + m) - k * primitive 0 c t)
                (fun t => f (k * t + m) * k - k * (t ^ 0 * poly c t)) (-1) 1 ltac:(lra)) as (xi & Hxi & Bxi).
    { intros t Ht. apply (derivable_pt_lim_minus (fun t => F (k * t + m)) (fun t => k * primitive 0 c t)).
      - apply derivable_affine. apply HF. apply affine_between. lra.
      - apply (derivable_pt_lim_scal (primitive 0 c) k t). apply primitive_derive. }
    replace (F b - F a - k * (primitive 0 c 1 - primitive 0 c (-1)))
      with (F (k * 1 + m) - k * primitive 0 c 1 - (F (k * (-1) + m) - k * primitive 0 c (-1))).
    2:{ replace (k * 1 + m) with b by (unfold k, m; field). replace (k * (-1) + m) with a by (unfold k, m; field). ring. }
    rewrite Hxi. cbn [pow].
    replace ((f (k * xi + m) * k - k * (1 * poly c xi)) * (1 - -1)) with (k * (2 * (f (k * xi + m) - poly c xi))) by ring.
    rewrite !Rabs_mult. rewrite (Rabs_pos_eq 2) by lra.
    apply Rmult_le_compat_l; [apply Rabs_pos|].
    apply Rmult_le_compat_l; [lra|].
    unfold c. rewrite poly_paffine. apply Hf. apply affine_between. lra. }
  assert (Ek : Rabs (b - a) / 2 = Rabs k).
  { unfold k, Rdiv. rewrite Rabs_mult, (Rabs_pos_eq (/ 2)) by lra. reflexivity. }
  rewrite Ek.
  set (A := rule tab (fun t => f (k * t + m))) in *. set (B := rule tab (poly c)) in *.
  set (P := primitive 0 c 1 - primitive 0 c (-1)) in *.
  replace (k * A - (F b - F a)) with (k * (A - B) + k * (B - P) - ((F b - F a) - k * P)) by ring.
  pose proof (Rabs_pos k).
  eapply Rle_trans; [apply Rabs_triang|]. rewrite Rabs_Ropp.
  eapply Rle_trans; [apply Rplus_le_compat_r; apply Rabs_triang|].
  rewrite !Rabs_mult. nra.
Qed.

(** The hypotheses are met: x^3 + x^2 + x + 1 over [-3, 4] with two points, the
    project's own test. *)
Example C65_quadrature_ex :
  (length [1; 1; 1; 1] <= 2 * 2)%nat
  /\ (forall x, between (-3) 4 x ->
        derivable_pt_lim (primitive 0 [1; 1; 1; 1]) x (poly [1; 1; 1; 1] x))
  /\ primitive 0 [1; 1; 1; 1] 4 - primitive 0 [1; 1; 1; 1] (-3)
     = (64 + 64 / 3 + 8 + 4) - (81 / 4 - 27 / 3 + 9 / 2 - 3).
Proof.
  split; [cbn; lia|]. split.
  - intros x _. rewrite <- (Rmult_1_l (poly _ x)). change 1 with (x ^ 0) at 1. apply primitive_derive.
  - cbn [primitive INR]. field.
Qed.

(** Only values strictly inside the interval count, and with positive weights: a
    larger function has a larger result, whatever the function. *)
Theorem C65_inside : forall n a b f g,
  (2 <= n <= 8)%nat -> a < b ->
  (forall x, a < x < b -> f x <= g x) ->
  exists v w, gauss_quad_integrate a b n f = Ok v /\ gauss_quad_integrate a b n g = Ok w /\ v <= w.
Proof.
  intros n a b f g Hn L H.
  destruct (tables n Hn) as (tab & E & _ & T & _).
  do 2 eexists. split; [apply E|]. split; [apply E|].
  apply Rmult_le_compat_l; [lra|].
  apply rule_le; [apply table_ok_spec; exact T|].
  intros t Ht. apply H.
  destruct (affine_strictly a b t ltac:(lra) Ht) as [H1 H2].
  rewrite Rmin_left in H1 by lra. rewrite Rmax_right in H2 by lra. lra.
Qed.

Example C65_inside_ex : exists v w,
  gauss_quad_integrate 0 1 2 (fun x => x) = Ok v /\ gauss_quad_integrate 0 1 2 (fun x => x + 1) = Ok w /\ v <= w.
Proof. apply C65_inside; [lia|lra|]. intros; lra. Qed.

Lemma rule_rev tab f : rule (rev tab) f = rule tab f.
Proof.
  assert (A : forall u v, rule (u ++ v) f = rule u f + rule v f).
  { induction u as [|[w x] u IH]; intros v; cbn [app rule]; [lra|]. rewrite IH; lra. }
  induction tab as [|[w x] r IH]; [reflexivity|].
  cbn [rev]. rewrite A. cbn [rule]. lra.
Qed.

Lemma rule_opp tab f : rule (map (fun wx => (fst wx, Qopp (snd wx))) tab) f = rule tab (fun x => f (- x)).
Proof.
  induction tab as [|[w x] r IH]; cbn [map rule fst snd]; [reflexivity|].
  rewrite IH, Q2R_opp; reflexivity.
Qed.

(** Exchanging the ends of the interval changes the sign of the result. *)
Theorem C65_swapped : forall n a b f v,
  gauss_quad_integrate a b n f = Ok v -> gauss_quad_integrate b a n f = Ok (- v).
Proof.
  intros n a b f v H.
  assert (Hn : (2 <= n <= 8)%nat).
  { unfold gauss_quad_integrate in H.
    destruct n as [|[|n]]; try discriminate.
    destruct (Nat.le_gt_cases (S (S n)) 8) as [L|L]; [lia|].
    cbn [Nat.ltb Nat.leb bind] in H.
    destruct n as [|[|[|[|[|[|[|n]]]]]]]; try lia.
    replace (S (S (S (S (S (S (S (S (S n)))))))) - 2)%nat with (7 + n)%nat in H by lia.
    destruct n; discriminate H. }
  destruct (tables n Hn) as (tab & E & _ & _ & _ & S).
  rewrite E in H. injection H as H. rewrite E. f_equal. rewrite <- H.
  rewrite <- S at 1. rewrite rule_rev, rule_opp.
  rewrite (rule_ext tab (fun x => f ((a - b) / 2 * - x + (b + a) / 2)) (fun t => f ((b - a) / 2 * t + (a + b) / 2))).
  - field.
  - intros x _. f_equal. field.
Qed.

Example C65_swapped_ex : exists v, gauss_quad_integrate 0 1 3 (fun x => x) = Ok v.
Proof. destruct (C65_inside 3 0 1 (fun x => x) (fun x => x) ltac:(lia) ltac:(lra) ltac:(intros; lra)) as (v & w & H & _). exists v; exact H. Qed.

(** The degree is sharp: [t^(2n)] over [-1, 1] comes out at least 1/25000 short. *)
Theorem C65_degree_sharp : forall n,
  (2 <= n <= 8)%nat ->
  exists v, gauss_quad_integrate (-1) 1 n (fun x => x ^ (2 * n)) = Ok v
            /\ v < 2 / INR (2 * n + 1) - 1 / 25000.
Proof.
  intros n Hn. destruct (tables n Hn) as (tab & E & _ & _ & D & _).
  eexists. split; [apply E|].
  replace ((1 - -1) / 2) with 1 by field. rewrite Rmult_1_l.
  rewrite (rule_ext tab _ (fun x => x ^ (2 * n))).
  2:{ intros x _. f_equal. field. }
  rewrite <- Q2R_qmoment.
  apply Qle_bool_false, Qlt_Rlt in D. rewrite Q2R_minus in D.
  unfold moment in D. rewrite Nat.even_mul in D. cbn [Nat.even orb] in D.
  rewrite INR_Q in D.
  replace (2 * n + 1)%nat with (S (2 * n)) by lia.
  assert (Q2R (1 # 25000) = 1 / 25000) by (unfold Q2R; cbn [Qnum Qden]; lra).
  lra.
Qed.

(** The number of points must be 2 to 8; anything else panics. *)
Theorem C65_orders : forall n a b f,
  gauss_quad_integrate a b n f = Panic <-> (n < 2 \/ 8 < n)%nat.
Proof.
  intros n a b f. split.
  - intros H. destruct (Nat.lt_ge_cases n 2); [lia|]. destruct (Nat.lt_ge_cases 8 n); [lia|].
    destruct (tables n ltac:(lia)) as (tab & E & _). rewrite E in H. discriminate.
  - intros H. unfold gauss_quad_integrate.
    destruct n as [|[|n]]; [reflexivity|reflexivity|].
    destruct n as [|[|[|[|[|[|[|n]]]]]]]; try lia.
    cbn [Nat.ltb Nat.leb bind].
    replace (S (S (S (S (S (S (S (S (S n)))))))) - 2)%nat with (7 + n)%nat by lia.
    destruct n; reflexivity.
Qed.

Print Assumptions C65_quadrature.
Print Assumptions C65_inside.
Print Assumptions C65_swapped.
Print Assumptions C65_degree_sharp.
Print Assumptions C65_orders.
