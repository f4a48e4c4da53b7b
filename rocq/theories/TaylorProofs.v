(** The Taylor sequences of the model are those of the square root. *)
From Coq Require Import Reals ZArith List Lia Lra Ranalysis5.
From Verif Require Import Base Polynomials PolyProofs.
Import ListNotations.
Open Scope R_scope.

(** Value of a term at any parameter. *)
Definition term_at (base : list R) (sp : sqrt_poly) (u : R) : R :=
  Rpower (polyval base u) (IZR (sp_e sp) / 2) * sp_c sp * polyval (sp_poly sp) u.

Definition terms_at (base : list R) (l : list sqrt_poly) (u : R) : R :=
  fold_right (fun sp s => term_at base sp u + s) 0 l.

Lemma terms_app : forall base l l' u,
  terms_at base (l ++ l') u = terms_at base l u + terms_at base l' u.
Proof.
  intros base l l' u; unfold terms_at; induction l as [|a l IH]; cbn; [ring|].
  rewrite IH; ring.
Qed.

Lemma dsp_eval_at : forall base t sp, dsp_eval (dsp_new base t) sp = term_at base sp t.
Proof. reflexivity. Qed.

(** Derivative of one term. *)
Lemma term_lim : forall base sp m dp u c',
  0 < polyval base u ->
  (forall t, polyval m t = polyval (sp_poly sp) t * polyval (der base) t) ->
  (forall t, polyval dp t = polyval (der (sp_poly sp)) t) ->
  c' = sp_c sp * (1 / 2) * IZR (sp_e sp) ->
  derivable_pt_lim (term_at base sp) u
    (term_at base (mk_sp c' (sp_e sp - 2)%Z m) u + term_at base (mk_sp (sp_c sp) (sp_e sp) dp) u).
Proof.
  intros base sp m dp u c' P Hm Hd Hc.
  unfold term_at; cbn [sp_c sp_e sp_poly]; rewrite Hm, Hd, Hc.
  set (k := IZR (sp_e sp) / 2).
  set (f := fun x => Rpower (polyval base x) k).
  assert (Df : derivable_pt_lim f u (k * Rpower (polyval base u) (k - 1) * polyval (der base) u)).
  { apply (derivable_pt_lim_comp (polyval base) (fun x => Rpower x k)).
    - apply der_lim.
    - apply derivable_pt_lim_power; exact P. }
  assert (E1 : IZR (sp_e sp - 2) / 2 = k - 1) by (rewrite minus_IZR; unfold k; field).
  rewrite E1.
  replace (Rpower (polyval base u) (k - 1) * (sp_c sp * (1 / 2) * IZR (sp_e sp)) *
     (polyval (sp_poly sp) u * polyval (der base) u) +
     Rpower (polyval base u) k * sp_c sp * polyval (der (sp_poly sp)) u)
    with ((k * Rpower (polyval base u) (k - 1) * polyval (der base) u * fct_cte (sp_c sp) u
            + f u * 0) * polyval (sp_poly sp) u
          + (f u * fct_cte (sp_c sp) u) * polyval (der (sp_poly sp)) u)
    by (unfold f, fct_cte, k; field).
  apply (derivable_pt_lim_mult (f * fct_cte (sp_c sp))%F (polyval (sp_poly sp))).
  - apply derivable_pt_lim_mult; [exact Df|apply derivable_pt_lim_const].
  - apply der_lim.
Qed.

Definition all_full (l : list sqrt_poly) : Prop := Forall (fun sp => sp_poly sp <> []) l.

Lemma diff_loop_spec : forall base t spa out sum,
  (2 <= length base)%nat -> all_full spa ->
  exists ex, diff_loop (dsp_new base t) spa out sum
               = Ok (out ++ ex, sum + terms_at base ex t) /\
    all_full ex /\
    (spa <> [] -> ex <> []) /\
    forall u, 0 < polyval base u -> derivable_pt_lim (terms_at base spa) u (terms_at base ex u).
Proof.
  intros base t spa; induction spa as [|sp spa IH]; intros out sum L W; cbn [diff_loop].
  - exists []; repeat split.
    + rewrite app_nil_r; cbn; f_equal; f_equal; ring.
    + constructor.
    + congruence.
    + intros u _; cbn; apply derivable_pt_lim_const.
  - assert (W1 := Forall_inv W); assert (W2 := Forall_inv_tail W); cbv beta in W1.
    assert (NB : base <> []) by (intro E; subst; cbn in L; lia).
    assert (LB : (1 <= length (der base))%nat) by (rewrite der_length; lia).
    destruct (polymul_spec (sp_poly sp) (der base) LB) as [m [Em [Lm Vm]]].
    assert (ES : diff_single_sqrt_poly (dsp_new base t) sp =
      Ok (mk_sp (sp_c sp * (1 / 2) * IZR (sp_e sp)) (sp_e sp - 2) m,
          mk_sp (sp_c sp) (sp_e sp) (der (sp_poly sp)))).
    { unfold diff_single_sqrt_poly; cbn [d_base dsp_new].
      rewrite (polyder_Ok base NB); cbn [bind]; rewrite Em; cbn [bind].
      rewrite (polyder_Ok _ W1); reflexivity. }
    rewrite ES; cbn [bind]; clear ES.
    set (d1 := mk_sp (sp_c sp * (1 / 2) * IZR (sp_e sp)) (sp_e sp - 2) m).
    set (d2 := mk_sp (sp_c sp) (sp_e sp) (der (sp_poly sp))).
    assert (T : forall u, 0 < polyval base u ->
      derivable_pt_lim (term_at base sp) u (term_at base d1 u + term_at base d2 u))
      by (intros u P; apply term_lim; auto).
    assert (F1 : sp_poly d1 <> []).
    { cbn; intro E; rewrite E in Lm; cbn in Lm.
      assert (length (sp_poly sp) <> 0)%nat by (destruct (sp_poly sp); cbn; congruence); lia. }
    rewrite !dsp_eval_at.
    destruct (sp_poly d2) as [|z q] eqn:ED.
    + destruct (IH (out ++ [d1]) (sum + term_at base d1 t) L W2) as [ex [E [F [_ D]]]].
      exists (d1 :: ex); split; [|split; [|split]].
      * rewrite E, <- app_assoc; cbn [app terms_at fold_right].
        f_equal; f_equal; unfold terms_at; ring.
      * constructor; auto.
      * congruence.
      * intros u P; cbn [terms_at fold_right].
        change (derivable_pt_lim (term_at base sp + terms_at base spa)%F u
                  (term_at base d1 u + terms_at base ex u)).
        apply derivable_pt_lim_plus; [|apply D; auto].
        replace (term_at base d1 u) with (term_at base d1 u + term_at base d2 u); [apply T; auto|].
        unfold term_at at 2; rewrite ED; cbn; ring.
    + destruct (IH ((out ++ [d1]) ++ [d2]) (sum + term_at base d1 t + term_at base d2 t) L W2)
        as [ex [E [F [_ D]]]].
      exists (d1 :: d2 :: ex); split; [|split; [|split]].
      * rewrite E, <- !app_assoc; cbn [app terms_at fold_right].
        f_equal; f_equal; unfold terms_at; ring.
      * repeat constructor; auto; rewrite ED; congruence.
      * congruence.
      * intros u P; cbn [terms_at fold_right].
        change (derivable_pt_lim (term_at base sp + terms_at base spa)%F u
                  (term_at base d1 u + (term_at base d2 u + terms_at base ex u))).
        rewrite <- Rplus_assoc.
        apply derivable_pt_lim_plus; [apply T|apply D]; auto.
Qed.

(** The k-th list of terms. *)
Fixpoint terms_iter (d : diff_sp) (k : nat) : list sqrt_poly :=
  match k with
  | O => [new_sqrt_poly]
  | S k' => match diff_sqrt_poly d (terms_iter d k') with
            | Ok (l, _) => l
            | _ => []
            end
  end.

Lemma terms_iter_spec : forall base t k, (2 <= length base)%nat ->
  let d := dsp_new base t in
  all_full (terms_iter d k) /\
  diff_sqrt_poly d (terms_iter d k)
    = Ok (terms_iter d (S k), terms_at base (terms_iter d (S k)) t) /\
  forall u, 0 < polyval base u ->
    derivable_pt_lim (terms_at base (terms_iter d k)) u (terms_at base (terms_iter d (S k)) u).
Proof.
  intros base t k L d.
  assert (S : forall l, all_full l -> exists ex,
     diff_sqrt_poly d l = Ok (ex, terms_at base ex t) /\ all_full ex /\
     forall u, 0 < polyval base u -> derivable_pt_lim (terms_at base l) u (terms_at base ex u)).
  { intros l F; destruct (diff_loop_spec base t l [] 0 L F) as [ex [E [F' [_ D]]]].
    exists ex; split; [|split; auto].
    unfold diff_sqrt_poly, d; rewrite E; cbn [app]; f_equal; f_equal; ring. }
  assert (F : all_full (terms_iter d k)).
  { induction k as [|k IH]; [repeat constructor; cbn; congruence|].
    cbn [terms_iter]; destruct (S _ IH) as [ex [E [F _]]]; rewrite E; exact F. }
  destruct (S _ F) as [ex [E [_ D]]].
  assert (EI : terms_iter d (Datatypes.S k) = ex) by (cbn [terms_iter]; rewrite E; reflexivity).
  rewrite EI; auto.
Qed.

Lemma terms_iter_0 : forall base t u, 0 < polyval base u ->
  terms_at base (terms_iter (dsp_new base t) 0) u = sqrt (polyval base u).
Proof.
  intros base t u P; cbn [terms_iter terms_at fold_right].
  unfold term_at; cbn [new_sqrt_poly sp_e sp_c sp_poly polyval].
  replace (IZR 1 / 2) with (/ 2) by field.
  rewrite Rpower_sqrt by auto; ring.
Qed.

Lemma taylor_loop_spec : forall base t k i j, (2 <= length base)%nat -> i = S j ->
  let d := dsp_new base t in
  taylor_loop d k i (terms_iter d j) (INR (fact j))
    = Ok (map (fun n => terms_at base (terms_iter d n) t / INR (fact n)) (seq i k)).
Proof.
  intros base t k; induction k as [|k IH]; intros i j L E d; cbn [taylor_loop seq map]; [reflexivity|].
  destruct (terms_iter_spec base t j L) as [_ [E1 _]]; fold d in E1.
  rewrite E1; cbn [bind].
  assert (EF : INR (fact j) * INR i = INR (fact i))
    by (subst i; rewrite <- mult_INR; f_equal; rewrite fact_simpl; lia).
  rewrite EF; subst i.
  assert (E2 := IH (S (S j)) (S j) L eq_refl); cbv zeta in E2; fold d in E2.
  rewrite E2; cbn [bind]; reflexivity.
Qed.

Lemma taylor_spec : forall base t n, (2 <= length base)%nat -> (1 <= n)%nat ->
  0 < polyval base t ->
  let d := dsp_new base t in
  taylor_sequence base t n
    = Ok (map (fun k => terms_at base (terms_iter d k) t / INR (fact k)) (seq 0 n)).
Proof.
  intros base t n L N P d; unfold taylor_sequence; fold d.
  assert (E := taylor_loop_spec base t (n - 1) 1 0 L eq_refl); cbv zeta in E; fold d in E.
  change (INR (fact 0)) with 1 in E; cbn [terms_iter] in E; rewrite E; cbn [bind].
  replace n with (S (n - 1)) at 2 by lia; cbn [seq map].
  f_equal; f_equal.
  assert (E0 := terms_iter_0 base t t P); unfold d; rewrite E0.
  cbn; field.
Qed.

Lemma taylor_total : forall base t n, (2 <= length base)%nat ->
  exists l, taylor_sequence base t n = Ok (sqrt (polyval base t) :: l) /\ length l = (n - 1)%nat.
Proof.
  intros base t n L; unfold taylor_sequence.
  assert (E := taylor_loop_spec base t (n - 1) 1 0 L eq_refl); cbv zeta in E.
  change (INR (fact 0)) with 1 in E; cbn [terms_iter] in E; rewrite E; cbn [bind].
  eexists; split; [reflexivity|]; rewrite map_length, seq_length; reflexivity.
Qed.

(** ** Polynomials are their own Taylor polynomials *)

Fixpoint der_n (k : nat) (p : list R) : list R :=
  match k with O => p | S k' => der (der_n k' p) end.

Lemma der_unique : forall p f u, (forall t, polyval p t = f t) ->
  forall l, derivable_pt_lim f u l -> polyval (der p) u = l.
Proof.
  intros p f u E l H; apply (uniqueness_limite (polyval p) u); [apply der_lim|].
  intros eps Heps; destruct (H eps Heps) as [delta Hd]; exists delta; intros h h0 hd.
  rewrite !E; auto.
Qed.

Lemma der_n_cons : forall a r k t,
  polyval (der_n (S k) (a :: r)) t
    = t * polyval (der_n (S k) r) t + INR (S k) * polyval (der_n k r) t.
Proof.
  intros a r k; induction k as [|k IH]; intro t.
  - cbn [der_n der]; rewrite dfrom_der; cbn [INR]; ring.
  - change (der_n (S (S k)) (a :: r)) with (der (der_n (S k) (a :: r))).
    apply (der_unique _ (fun t => t * polyval (der_n (S k) r) t + INR (S k) * polyval (der_n k r) t) t).
    + exact IH.
    + change (fun t0 => t0 * polyval (der_n (S k) r) t0 + INR (S k) * polyval (der_n k r) t0)
        with ((id * polyval (der_n (S k) r)) + (mult_real_fct (INR (S k)) (polyval (der_n k r))))%F.
      replace (t * polyval (der_n (S (S k)) r) t + INR (S (S k)) * polyval (der_n (S k) r) t)
        with ((1 * polyval (der_n (S k) r) t + id t * polyval (der (der_n (S k) r)) t)
              + INR (S k) * polyval (der (der_n k r)) t)
        by (rewrite (S_INR (S k)); unfold id; cbn [der_n]; ring).
      apply derivable_pt_lim_plus.
      * apply derivable_pt_lim_mult; [apply derivable_pt_lim_id|apply der_lim].
      * apply derivable_pt_lim_scal; apply der_lim.
Qed.

Lemma der_n_length : forall k p, length (der_n k p) = (length p - k)%nat.
Proof. induction k; intro p; cbn [der_n]; [lia|]; rewrite der_length, IHk; lia. Qed.

Lemma poly_taylor : forall p t n h, (length p <= n)%nat ->
  val (fun k => polyval (der_n k p) t / INR (fact k)) n h = polyval p (t + h).
Proof.
  induction p as [|a r IH]; intros t n h L.
  - rewrite (val_ext n _ (fun i => nth i [] 0)); [apply (val_nth [] n h); cbn; lia|].
    intros k _.
    assert (E : der_n k [] = [])
      by (apply length_zero_iff_nil; rewrite der_n_length; reflexivity).
    rewrite E; cbn [polyval]; destruct k; cbn [nth]; unfold Rdiv; ring.
  - cbn [length] in L; destruct n as [|n]; [lia|].
    rewrite val_S.
    rewrite (val_ext n _ (fun k => t * (polyval (der_n (S k) r) t / INR (fact (S k)))
                                   + polyval (der_n k r) t / INR (fact k))).
    + rewrite (val_lin n t (fun k => polyval (der_n (S k) r) t / INR (fact (S k)))).
      rewrite IH by lia.
      assert (E := IH t (S n) h ltac:(lia)); rewrite val_S in E; cbv beta in E.
      set (W := val (fun k => polyval (der_n (S k) r) t / INR (fact (S k))) n h) in *.
      change (der_n 0 r) with r in E; change (der_n 0 (a :: r)) with (a :: r).
      change (INR (fact 0)) with 1 in *; cbn [polyval].
      assert (E2 : W * h = polyval r (t + h) - polyval r t) by lra.
      replace ((t * W + polyval r (t + h)) * h) with (t * (W * h) + polyval r (t + h) * h) by ring.
      rewrite E2; field.
    + intros k _; rewrite der_n_cons.
      assert (F : INR (fact (S k)) = INR (S k) * INR (fact k))
        by (rewrite <- mult_INR, fact_simpl; reflexivity).
      rewrite F; field; split; [apply INR_fact_neq_0|apply not_0_INR; lia].
Qed.

(** If the base is the square of a polynomial that is positive at the centre,
    the Taylor sequence is that polynomial. *)
Lemma pos_near : forall q t, 0 < polyval q t ->
  exists a b, a < t < b /\ forall z, a < z < b -> 0 < polyval q z.
Proof.
  intros q t P.
  assert (C : continuity_pt (polyval q) t)
    by (apply derivable_continuous_pt; exists (polyval (der q) t); apply der_lim).
  destruct (C (polyval q t / 2)) as [d [D1 D2]]; [lra|].
  exists (t - d), (t + d); split; [lra|]; intros z Z.
  destruct (Req_dec z t) as [->|N]; [auto|].
  assert (H : R_dist (polyval q z) (polyval q t) < polyval q t / 2).
  { apply D2; split; [split; [exact I|congruence]|].
    cbn; unfold R_dist; apply Rabs_def1; lra. }
  unfold R_dist in H; apply Rabs_def2 in H; lra.
Qed.

Lemma terms_of_square : forall base q t, (2 <= length base)%nat ->
  (forall u, polyval base u = polyval q u * polyval q u) ->
  forall k u, 0 < polyval q u ->
  terms_at base (terms_iter (dsp_new base t) k) u = polyval (der_n k q) u.
Proof.
  intros base q t L E k.
  assert (B : forall u, 0 < polyval q u -> 0 < polyval base u)
    by (intros u P; rewrite E; apply Rmult_lt_0_compat; auto).
  induction k as [|k IH]; intros u P.
  - rewrite terms_iter_0 by auto; cbn [der_n]; rewrite E.
    apply sqrt_square; lra.
  - destruct (terms_iter_spec base t k L) as [_ [_ D]].
    destruct (pos_near q u P) as [a [b [AB Z]]].
    cbn [der_n].
    apply (uniqueness_limite (polyval (der_n k q)) u); [|apply der_lim].
    apply (derivable_pt_lim_locally_ext (terms_at base (terms_iter (dsp_new base t) k)) _ u a b);
      auto.
Qed.

Lemma taylor_of_square : forall base q t n l, (2 <= length base)%nat -> (1 <= n)%nat ->
  (length q <= n)%nat ->
  (forall u, polyval base u = polyval q u * polyval q u) -> 0 < polyval q t ->
  taylor_sequence base t n = Ok l -> forall h, polyval l h = polyval q (t + h).
Proof.
  intros base q t n l L N LQ E P H h.
  assert (PB : 0 < polyval base t) by (rewrite E; apply Rmult_lt_0_compat; auto).
  rewrite taylor_spec in H by auto; inversion H; subst l; clear H.
  rewrite <- (poly_taylor q t n h LQ).
  apply (val_ext n); intros k _; rewrite (terms_of_square base q t L E); auto.
Qed.
