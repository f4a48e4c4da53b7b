(** Lemmas about the model of polynom.rs over the reals. *)
From Coq Require Import Reals ZArith List Bool Lia Lra Psatz Sorted Classical_Pred_Type.
From Verif Require Import Base Polynomials PolyProofs Polynom.
Import ListNotations.
Open Scope R_scope.

Lemma tolerance_pos : 0 < tolerance.
Proof. unfold tolerance, f64_epsilon. apply Rmult_lt_0_compat; [lra|]. apply Rinv_0_lt_compat, pow_lt. lra. Qed.

Lemma R_ltb_true : forall a b, R_ltb a b = true <-> a < b.
Proof. intros a b. unfold R_ltb. destruct (Rlt_dec a b); split; intro; auto; discriminate. Qed.
Lemma R_ltb_false : forall a b, R_ltb a b = false <-> b <= a.
Proof. intros a b. unfold R_ltb. destruct (Rlt_dec a b); split; intro; auto; try discriminate; lra. Qed.
Lemma R_eqb_true : forall a b, R_eqb a b = true <-> a = b.
Proof. intros a b. unfold R_eqb. destruct (Req_EM_T a b); split; intro; auto; discriminate. Qed.
Lemma R_close_true : forall a, R_close a = true <-> Rabs a <= tolerance.
Proof.
  intros a. unfold R_close. pose proof tolerance_pos as P.
  destruct (Rle_dec (- tolerance) a) as [L|L]; [destruct (Rle_dec a tolerance) as [M|M]|];
    split; intro H; try discriminate; auto.
  - apply Rabs_le; lra.
  - exfalso. apply M. revert H. unfold Rabs. destruct (Rcase_abs a); lra.
  - exfalso. apply L. revert H. unfold Rabs. destruct (Rcase_abs a); lra.
Qed.
Lemma R_close_false : forall a, R_close a = false <-> tolerance < Rabs a.
Proof.
  intros a. destruct (R_close a) eqn:E.
  - apply R_close_true in E. split; [discriminate|lra].
  - split; auto. intros _. apply Rnot_le_lt. intro H. apply R_close_true in H. congruence.
Qed.

(** ** Values and derivatives *)

Lemma value_fold : forall t l s f,
  fst (fold_left (fun '(sum, f) p => (sum + f * p, f * t)) l (s, f)) = s + f * polyval l t.
Proof.
  intros t. induction l as [|a l IH]; intros s f; cbn [fold_left fst polyval]; [ring|]. rewrite IH. ring.
Qed.

Lemma value_Ok : forall poly n t, (1 <= n <= length poly)%nat ->
  value R_coef poly n t = Ok (polyval (firstn n poly) t).
Proof.
  intros [|p0 rest] [|m] t H; cbn [length] in H; try lia. cbn [value].
  destruct (Nat.ltb_spec (length rest) m); [lia|]. cbn [k_add k_mul R_coef]. rewrite value_fold.
  cbn [firstn polyval]. f_equal. ring.
Qed.

Lemma as_i8_small : forall i, (i < 127)%nat -> as_i8 (Z.of_nat i + 1) = (Z.of_nat i + 1)%Z.
Proof.
  intros i H. unfold as_i8, wrap_s. rewrite Z.mod_small by lia.
  destruct (Z.ltb_spec (Z.of_nat i + 1) (2 ^ (8 - 1))); lia.
Qed.

Lemma deriv_from : forall rest k, (k + length rest <= 127)%nat ->
  mapi_from (fun i p => IZR (as_i8 (Z.of_nat i + 1)) * p) k rest = dfrom k rest.
Proof.
  induction rest as [|a rest IH]; intros k H; [reflexivity|]. cbn [mapi_from dfrom length] in *. unfold dfrom in *.
  cbn [mapi_from]. rewrite IH by lia. f_equal. rewrite as_i8_small by lia. rewrite INR_IZR_INZ.
  replace (Z.of_nat (k + 1)) with (Z.of_nat k + 1)%Z by lia. ring.
Qed.

Lemma deriv_Ok : forall poly, (1 <= length poly <= 128)%nat -> deriv R_coef poly = Ok (der poly ++ [0]).
Proof.
  intros [|p0 rest] H; cbn [length] in H; [lia|]. cbn [deriv k_mul k_of R_coef der].
  rewrite deriv_from by lia. reflexivity.
Qed.

Lemma mapi_firstn : forall A B (f : nat -> A -> B) l k n, firstn n (mapi_from f k l) = mapi_from f k (firstn n l).
Proof.
  induction l as [|a l IH]; intros k [|n]; cbn [mapi_from firstn]; auto. rewrite IH. reflexivity.
Qed.

Lemma der_firstn : forall poly m, (S m <= length poly)%nat ->
  firstn m (der poly ++ [0]) = der (firstn (S m) poly).
Proof.
  intros [|p0 rest] m H; cbn [length] in H; [lia|]. cbn [der firstn].
  rewrite firstn_app. unfold dfrom at 1. rewrite mapi_firstn. unfold dfrom at 1. rewrite mapi_length.
  replace (m - length rest)%nat with 0%nat by lia. cbn [firstn]. rewrite app_nil_r. reflexivity.
Qed.

Lemma der_nth : forall poly m a, nth_error poly (S m) = Some a -> nth_error (der poly ++ [0]) m = Some (a * INR (m + 1)).
Proof.
  intros [|p0 rest] m a H; [discriminate|]. cbn [nth_error] in H. cbn [der].
  rewrite nth_error_app1 by (unfold dfrom; rewrite mapi_length; apply nth_error_Some; congruence).
  assert (G : forall l k m a, nth_error l m = Some a -> nth_error (dfrom k l) m = Some (a * INR (k + m + 1))).
  { clear. unfold dfrom. induction l as [|b l IH]; intros k [|m] a H; try discriminate; cbn [mapi_from nth_error] in *.
    - injection H as ->. do 2 f_equal. f_equal. lia.
    - rewrite (IH (S k) m a H). do 2 f_equal. f_equal. lia. }
  rewrite (G rest 0%nat m a H). reflexivity.
Qed.

Lemma polyval_continuity : forall p, continuity (polyval p).
Proof.
  intros p x. apply derivable_continuous_pt. exists (polyval (der p) x). apply der_lim.
Qed.

Lemma polyval_top_zero : forall poly m, nth_error poly m = Some 0 ->
  forall t, polyval (firstn (S m) poly) t = polyval (firstn m poly) t.
Proof.
  induction poly as [|a poly IH]; intros [|m] H t; try discriminate.
  - cbn in H. injection H as ->. cbn. ring.
  - cbn [nth_error] in H. change (firstn (S (S m)) (a :: poly)) with (a :: firstn (S m) poly).
    change (firstn (S m) (a :: poly)) with (a :: firstn m poly). cbn [polyval]. rewrite (IH m H). reflexivity.
Qed.

(** ** Bisection *)

Lemma single_loop_spec : forall fuel poly n low high, (1 <= n <= length poly)%nat ->
  let g := polyval (firstn n poly) in
  Rabs (high - low) <= tolerance * 2 ^ fuel -> g low <= 0 -> 0 <= g high ->
  exists r x, single_loop R_coef fuel poly n low high = Ok r /\ g x = 0 /\ Rabs (x - r) <= tolerance /\
    Rmin low high <= r <= Rmax low high /\ Rmin low high <= x <= Rmax low high.
Proof.
  intros fuel poly n low high N g. revert low high.
  assert (DONE : forall low high, Rabs (high - low) <= tolerance -> g low <= 0 -> 0 <= g high ->
    exists r x, Ok low = Ok r /\ g x = 0 /\ Rabs (x - r) <= tolerance /\
      Rmin low high <= r <= Rmax low high /\ Rmin low high <= x <= Rmax low high).
  { intros low high C L H. exists low.
    assert (S : g (Rmin low high) * g (Rmax low high) <= 0).
    { unfold Rmin, Rmax. destruct (Rle_dec low high); nra. }
    destruct (IVT_cor g (Rmin low high) (Rmax low high) (polyval_continuity _)) as (x & X & Z); auto.
    { unfold Rmin, Rmax. destruct (Rle_dec low high); lra. }
    exists x. split; [reflexivity|]. split; [exact Z|]. split.
    - revert C. clear - X. unfold Rmin, Rmax in X. unfold Rabs. destruct (Rle_dec low high);
        destruct (Rcase_abs (high - low)); destruct (Rcase_abs (x - low)); lra.
    - split; [|exact X]. unfold Rmin, Rmax. destruct (Rle_dec low high); lra. }
  induction fuel as [|fuel IH]; intros low high W L H; cbn [single_loop k_close k_add k_neg k_div k_of k_ltb R_coef].
  - destruct (R_close (high + - low)) eqn:C.
    + apply R_close_true in C. apply DONE; auto.
    + exfalso. apply R_close_false in C. cbn [pow] in W. unfold Rminus in W. lra.
  - destruct (R_close (high + - low)) eqn:C.
    + apply R_close_true in C. apply DONE; auto.
    + rewrite value_Ok by auto. cbn [bind]. fold g. set (mid := (high + low) / 2).
      assert (P2 : 0 < 2 ^ fuel) by (apply pow_lt; lra). pose proof tolerance_pos as TP. cbn [pow] in W.
      destruct (R_ltb (g mid) 0) eqn:E.
      * apply R_ltb_true in E. destruct (IH mid high) as (r & x & A & B & D & F & G); auto; [|lra|].
        { replace (high - mid) with ((high - low) * / 2) by (unfold mid; field).
          rewrite Rabs_mult, (Rabs_pos_eq (/ 2)) by lra. lra. }
        exists r, x. split; [exact A|]. split; [exact B|]. split; [exact D|]. revert F G. clear. unfold mid, Rmin, Rmax.
        destruct (Rle_dec ((high + low) / 2) high); destruct (Rle_dec low high); lra.
      * apply R_ltb_false in E. destruct (IH low mid) as (r & x & A & B & D & F & G); auto; try lra.
        { replace (mid - low) with ((high - low) * / 2) by (unfold mid; field).
          rewrite Rabs_mult, (Rabs_pos_eq (/ 2)) by lra. lra. }
        exists r, x. split; [exact A|]. split; [exact B|]. split; [exact D|]. revert F G. clear. unfold mid, Rmin, Rmax.
        destruct (Rle_dec low ((high + low) / 2)); destruct (Rle_dec low high); lra.
Qed.

Lemma single_spec : forall fuel poly n low high, (1 <= n <= length poly)%nat -> low <= high ->
  let g := polyval (firstn n poly) in
  high - low <= tolerance * 2 ^ fuel ->
  (0 < g high * g low -> find_single_root R_coef fuel poly n low high = Ok None) /\
  (g high * g low <= 0 -> exists r x, find_single_root R_coef fuel poly n low high = Ok (Some r) /\
     g x = 0 /\ Rabs (x - r) <= tolerance /\ low <= r <= high /\ low <= x <= high).
Proof.
  intros fuel poly n low high N O g W. unfold find_single_root. rewrite !value_Ok by auto. cbn [bind]. fold g.
  cbn [k_ltb k_of k_mul R_coef]. split; intro H.
  - rewrite (proj2 (R_ltb_true _ _) H). reflexivity.
  - rewrite (proj2 (R_ltb_false _ _) H).
    destruct (R_ltb (g high) (g low)) eqn:E.
    + apply R_ltb_true in E.
      destruct (single_loop_spec fuel poly n high low N) as (r & x & A & B & C & D & F); fold g.
      * rewrite Rabs_minus_sym, Rabs_pos_eq by lra. exact W.
      * nra.
      * nra.
      * exists r, x. rewrite A. cbn [bind]. rewrite Rmin_right, Rmax_left in D, F by lra. repeat split; auto; lra.
    + apply R_ltb_false in E.
      destruct (single_loop_spec fuel poly n low high N) as (r & x & A & B & C & D & F); fold g.
      * rewrite Rabs_pos_eq by lra. exact W.
      * nra.
      * nra.
      * exists r, x. rewrite A. cbn [bind]. rewrite Rmin_left, Rmax_right in D, F by lra. repeat split; auto; lra.
Qed.

(** ** Sorting *)

Lemma R_comparable : forall l, all_comparable R_coef l = true.
Proof.
  induction l as [|a l IH]; [reflexivity|]. cbn [all_comparable]. rewrite IH, andb_true_r.
  apply forallb_forall. intros b _. unfold comparable. cbn [k_ltb k_eqb R_coef].
  destruct (Rtotal_order a b) as [H|[H|H]].
  - rewrite (proj2 (R_ltb_true _ _) H). reflexivity.
  - rewrite (proj2 (R_eqb_true _ _) H), orb_true_r. reflexivity.
  - rewrite (proj2 (R_ltb_true _ _) H), orb_true_r. reflexivity.
Qed.

Lemma sort_sorted : forall l, StronglySorted Rle l -> sort_values R_coef l = Ok l.
Proof.
  intros l S. unfold sort_values. rewrite R_comparable. f_equal. induction S as [|a l S IH F]; [reflexivity|].
  cbn [fold_right]. rewrite IH. destruct l as [|b l]; [reflexivity|]. cbn [insert k_ltb R_coef].
  inversion F; subst. rewrite (proj2 (R_ltb_false b a)) by lra. reflexivity.
Qed.

(** ** The pieces *)

(** What the loop over the pieces does: [low] the start of the next piece, the ends of the
    pieces, the roots before and after. *)
Inductive scan (g : R -> R) : R -> list R -> list R -> list R -> Prop :=
| scan_nil : forall low rs, scan g low [] rs rs
| scan_skip : forall low high rest rs rs', high <= low -> scan g high rest rs rs' -> scan g low (high :: rest) rs rs'
| scan_none : forall low high rest rs rs', low < high -> 0 < g high * g low ->
    scan g high rest rs rs' -> scan g low (high :: rest) rs rs'
| scan_dup : forall low high rest rs p r x rs', low < high -> g high * g low <= 0 ->
    g x = 0 -> Rabs (x - r) <= tolerance -> low <= r <= high -> low <= x <= high ->
    Rabs (p - r) <= tolerance -> scan g high rest (rs ++ [p]) rs' -> scan g low (high :: rest) (rs ++ [p]) rs'
| scan_new : forall low high rest rs r x rs', low < high -> g high * g low <= 0 ->
    g x = 0 -> Rabs (x - r) <= tolerance -> low <= r <= high -> low <= x <= high ->
    (forall rs0 p, rs = rs0 ++ [p] -> tolerance < Rabs (p - r)) ->
    scan g high rest (rs ++ [r]) rs' -> scan g low (high :: rest) rs rs'.

Lemma store_app : forall A (a : list A) z zs v, store (a ++ z :: zs) (length a) v = Ok (a ++ v :: zs).
Proof. induction a as [|x a IH]; intros z zs v; [reflexivity|]. cbn [app length store]. rewrite IH. reflexivity. Qed.

Lemma pieces_scan : forall fuel poly n lo hi, (1 <= n <= length poly)%nat -> hi - lo <= tolerance * 2 ^ fuel ->
  forall highs low rs zs, lo <= low <= hi -> Forall (fun h => lo <= h <= hi) highs -> (length highs <= length zs)%nat ->
  exists rs' zs', pieces R_coef fuel poly n hi low highs (rs ++ zs) (length rs) = Ok (rs' ++ zs', length rs') /\
    length (rs' ++ zs') = length (rs ++ zs) /\ (length rs' <= length rs + length highs)%nat /\
    scan (polyval (firstn n poly)) low highs rs rs'.
Proof.
  intros fuel poly n lo hi N W. set (g := polyval (firstn n poly)).
  induction highs as [|high rest IH]; intros low rs zs LO F L; cbn [pieces].
  - exists rs, zs. repeat split; auto; [lia|constructor].
  - inversion F as [|? ? HH F']; subst. cbn [length] in L. cbn [k_ltb R_coef].
    rewrite (proj2 (R_ltb_false hi high)) by lra.
    destruct (R_ltb low high) eqn:E.
    + apply R_ltb_true in E.
      destruct (single_spec fuel poly n low high N) as [S1 S2]; [lra|lra|]. fold g in S1, S2.
      destruct (Rlt_dec 0 (g high * g low)) as [C|C].
      * rewrite (S1 C). cbn [bind]. destruct (IH high rs zs ltac:(lra) F' ltac:(lia)) as (rs' & zs' & A & B & D & X).
        exists rs', zs'. repeat split; auto; [cbn [length]; lia|]. apply scan_none; auto.
      * destruct (S2 ltac:(lra)) as (r & x & A & GX & XR & RI & XI). rewrite A. cbn [bind].
        destruct zs as [|z zs]; [cbn in L; lia|]. cbn [length] in L.
        assert (NEW : (forall rs0 p, rs = rs0 ++ [p] -> tolerance < Rabs (p - r)) ->
          exists rs' zs',
            (let! (roots, n_roots) :=
               let! roots := store (rs ++ z :: zs) (length rs) r in Ok (roots, S (length rs)) in
             pieces R_coef fuel poly n hi high rest roots n_roots) = Ok (rs' ++ zs', length rs') /\
            length (rs' ++ zs') = length (rs ++ z :: zs) /\ (length rs' <= length rs + length (high :: rest))%nat /\
            scan g low (high :: rest) rs rs').
        { intros FR. rewrite store_app. cbn [bind].
          replace (rs ++ r :: zs) with ((rs ++ [r]) ++ zs) by (rewrite <- app_assoc; reflexivity).
          replace (S (length rs)) with (length (rs ++ [r])) by (rewrite app_length; cbn; lia).
          destruct (IH high (rs ++ [r]) zs ltac:(lra) F' ltac:(lia)) as (rs' & zs' & A' & B & D & X).
          exists rs', zs'. split; [exact A'|]. split; [rewrite B, <- app_assoc, !app_length; cbn; lia|].
          split; [rewrite app_length in D; cbn in *; lia|].
          apply (scan_new _ _ _ _ _ r x); auto; lra. }
        destruct rs as [|r0 rs0] eqn:ER using rev_ind.
        -- apply NEW. intros rs1 p H. destruct rs1; discriminate.
        -- clear IHrs0. replace (length (rs0 ++ [r0])) with (S (length rs0)) in * by (rewrite app_length; cbn; lia).
           rewrite <- app_assoc. cbn [app]. rewrite nth_error_app2 by lia. rewrite Nat.sub_diag.
           cbn [nth_error unwrap bind k_close k_add k_neg R_coef].
           destruct (R_close (r0 + - r)) eqn:C2; cbn [negb].
           ++ apply R_close_true in C2. cbn [bind].
              destruct (IH high (rs0 ++ [r0]) (z :: zs) ltac:(lra) F' ltac:(cbn; lia)) as (rs' & zs' & A' & B & D & X).
              rewrite <- app_assoc in A'. cbn [app] in A'.
              replace (length (rs0 ++ [r0])) with (S (length rs0)) in * by (rewrite app_length; cbn; lia).
              exists rs', zs'. split; [exact A'|]. split; [rewrite B, <- app_assoc; reflexivity|].
              split; [cbn [length] in *; lia|]. apply (scan_dup _ _ _ _ _ _ r x); auto; lra.
           ++ apply R_close_false in C2. rewrite <- app_assoc in NEW. cbn [app] in NEW. apply NEW.
              intros rs1 p H. apply app_inj_tail in H. destruct H as [_ <-]. exact C2.
    + apply R_ltb_false in E. cbn [bind]. destruct (IH high rs zs ltac:(lra) F' ltac:(lia)) as (rs' & zs' & A & B & D & X).
      exists rs', zs'. repeat split; auto; [cbn [length]; lia|]. apply scan_skip; auto.
Qed.

Definition spread : list R -> Prop := StronglySorted (fun a b => a + tolerance < b).

Lemma spread_snoc : forall rs r, spread rs -> Forall (fun a => a + tolerance < r) rs -> spread (rs ++ [r]).
Proof.
  induction rs as [|a rs IH]; intros r S F; cbn [app].
  - constructor; constructor.
  - inversion S; subst. inversion F; subst. constructor; [apply IH; auto|]. apply Forall_app. split; auto.
Qed.

Lemma spread_last : forall rs p, spread (rs ++ [p]) -> Forall (fun a => a + tolerance < p) rs.
Proof.
  induction rs as [|a rs IH]; intros p S; [constructor|]. cbn [app] in S. inversion S as [|? ? S' F]; subst.
  constructor; [|apply IH; auto]. apply Forall_app in F. destruct F as [_ F]. inversion F; subst; auto.
Qed.

Lemma spread_sorted : forall rs, spread rs -> StronglySorted Rle rs.
Proof.
  intros rs S. pose proof tolerance_pos. induction S as [|a rs S IH F]; constructor; auto.
  eapply Forall_impl; [|exact F]. cbn. intros. lra.
Qed.

(** A reported root lies in the range, within the tolerance of a root in the range. *)
Definition genuine (g : R -> R) (lo hi r : R) : Prop :=
  lo <= r <= hi /\ exists x, lo <= x <= hi /\ g x = 0 /\ Rabs (x - r) <= tolerance.

Lemma scan_sound : forall g lo hi low highs rs rs', scan g low highs rs rs' ->
  lo <= low <= hi -> Forall (fun h => lo <= h <= hi) highs -> StronglySorted Rle (low :: highs) ->
  spread rs -> Forall (genuine g lo hi) rs -> Forall (fun a => a <= low) rs ->
  spread rs' /\ Forall (genuine g lo hi) rs'.
Proof.
  intros g lo hi low highs rs rs' S. pose proof tolerance_pos as TP.
  assert (UP : forall a b (l : list R), a <= b -> Forall (fun x => x <= a) l -> Forall (fun x => x <= b) l).
  { intros a b l H F. eapply Forall_impl; [|exact F]. cbn. intros. lra. }
  induction S as [low rs|low high rest rs rs' H S IH|low high rest rs rs' H P S IH
      |low high rest rs p r x rs' H P GX XR RI XI D S IH|low high rest rs r x rs' H P GX XR RI XI D S IH];
    intros LO F SS SP G B; auto.
  - inversion F; inversion SS as [|? ? SS' FF]; subst. inversion FF; subst. apply IH; auto. apply (UP low); auto.
  - inversion F; inversion SS as [|? ? SS' FF]; subst. apply IH; auto. apply (UP low); auto; lra.
  - inversion F; inversion SS as [|? ? SS' FF]; subst. apply IH; auto. apply (UP low); auto; lra.
  - inversion F; inversion SS as [|? ? SS' FF]; subst. apply IH; auto.
    + apply spread_snoc; auto. destruct rs as [|p rs0 _] using rev_ind; [constructor|].
      specialize (D rs0 p eq_refl). apply Forall_app in B. destruct B as [_ B]. inversion B as [|? ? BP _]; subst.
      assert (PR : p + tolerance < r) by (revert D; unfold Rabs; destruct (Rcase_abs (p - r)); lra).
      apply Forall_app. split; [|constructor; auto].
      eapply Forall_impl; [|apply (spread_last _ _ SP)]. cbn. intros. lra.
    + apply Forall_app. split; auto. constructor; [|constructor]. split; [lra|]. exists x. repeat split; auto; lra.
    + apply Forall_app. split; [apply (UP low); auto; lra|]. constructor; [lra|constructor].
Qed.

(** ** One step of the recursion *)

Lemma firstn_exact : forall A (a b : list A), firstn (length a) (a ++ b) = a.
Proof. intros. rewrite firstn_app, Nat.sub_diag, firstn_all. cbn. apply app_nil_r. Qed.
Lemma skipn_exact : forall A (a b : list A), skipn (length a) (a ++ b) = b.
Proof. intros. rewrite skipn_app, Nat.sub_diag, skipn_all. reflexivity. Qed.

Lemma find_roots_step : forall fuel k poly lo hi a E zs, (S (S (S k)) <= length poly <= 128)%nat -> lo <= hi ->
  hi - lo <= tolerance * 2 ^ fuel ->
  nth_error poly (S (S k)) = Some a -> a <> 0 ->
  find_roots R_coef fuel (S (S k)) (der poly ++ [0]) lo hi = Ok (E ++ zs, length E) ->
  length (E ++ zs) = length poly -> (length E <= S k)%nat ->
  StronglySorted Rle E -> Forall (fun e => lo <= e <= hi) E ->
  exists rs zs', find_roots R_coef fuel (S (S (S k))) poly lo hi = Ok (rs ++ zs', length rs) /\
    length (rs ++ zs') = length poly /\ (length rs <= S (S k))%nat /\
    scan (polyval (firstn (S (S (S k))) poly)) lo (E ++ [hi]) [] rs.
Proof.
  intros fuel k poly lo hi a E zs N LH W TA A0 REC LEN LE SS FE.
  remember (S (S k)) as m eqn:Em. cbn [find_roots]. rewrite TA. cbn [unwrap bind k_eqb k_of R_coef].
  destruct (R_eqb a 0) eqn:Z; [apply R_eqb_true in Z; contradiction|]. subst m. cbv iota.
  rewrite deriv_Ok by lia. cbn [bind]. rewrite REC. cbn [bind].
  rewrite firstn_exact, sort_sorted by auto. cbn [bind]. rewrite skipn_exact.
  rewrite app_length in LEN. destruct zs as [|z zs]; [cbn in LEN; lia|].
  rewrite store_app. cbn [bind].
  replace (firstn (S (length E)) (E ++ hi :: zs)) with (E ++ [hi]).
  2:{ replace (E ++ hi :: zs) with ((E ++ [hi]) ++ zs) by (rewrite <- app_assoc; reflexivity).
      replace (S (length E)) with (length (E ++ [hi])) by (rewrite app_length; cbn; lia).
      rewrite firstn_exact. reflexivity. }
  destruct (pieces_scan fuel poly (S (S (S k))) lo hi ltac:(lia) W (E ++ [hi]) lo [] (map (fun _ => 0) poly))
    as (rs & zs' & P1 & P2 & P3 & P4).
  - lra.
  - apply Forall_app. split; auto. constructor; [lra|constructor].
  - rewrite app_length, map_length. cbn. lia.
  - exists rs, zs'. cbn [app length] in P1. rewrite P1. split; [reflexivity|].
    rewrite P2. cbn [app]. rewrite map_length. split; [reflexivity|]. split; [|exact P4].
    rewrite app_length in P3. cbn in P3. lia.
Qed.

Lemma sorted_ends : forall lo hi E, StronglySorted Rle E -> Forall (fun e => lo <= e <= hi) E -> lo <= hi ->
  StronglySorted Rle (lo :: E ++ [hi]).
Proof.
  intros lo hi E S F L. constructor.
  - induction S as [|e E S IH FE]; cbn [app]; [constructor; constructor|]. inversion F; subst. constructor; auto.
    apply Forall_app. split; auto. constructor; [lra|constructor].
  - apply Forall_app. split; [|constructor; auto]. eapply Forall_impl; [|exact F]. cbn. intros. lra.
Qed.

(** The result for a polynomial whose coefficient number [m] is the highest that is not 0. *)
Lemma find_roots_sound : forall fuel m poly lo hi a, (S m <= length poly <= 128)%nat -> lo <= hi ->
  hi - lo <= tolerance * 2 ^ fuel -> nth_error poly m = Some a -> a <> 0 ->
  exists rs zs, find_roots R_coef fuel (S m) poly lo hi = Ok (rs ++ zs, length rs) /\
    length (rs ++ zs) = length poly /\ (length rs <= m)%nat /\
    spread rs /\ Forall (genuine (polyval (firstn (S m) poly)) lo hi) rs.
Proof.
  intros fuel. induction m as [|m IH]; intros poly lo hi a N LH W TA A0.
  - cbn [find_roots]. rewrite TA. cbn [unwrap bind k_eqb k_of R_coef].
    destruct (R_eqb a 0) eqn:Z; [apply R_eqb_true in Z; contradiction|].
    exists [], (map (fun _ => 0) poly). cbn [app length]. rewrite map_length. repeat split; auto; constructor.
  - destruct m as [|k].
    + destruct poly as [|c0 [|c1 rest]]; try (cbn in N; lia). cbn in TA. injection TA as ->.
      cbn [find_roots nth_error unwrap bind k_eqb k_of k_add k_mul k_ltb k_neg k_div R_coef].
      destruct (R_eqb a 0) eqn:Z; [apply R_eqb_true in Z; contradiction|].
      destruct (R_ltb ((c0 + a * lo) * (c0 + a * hi)) 0) eqn:E.
      * apply R_ltb_true in E. cbn [map store bind].
        exists [- (c0 / a)], (0 :: map (fun _ => 0) rest). cbn [app length]. rewrite map_length.
        split; [reflexivity|]. split; [reflexivity|]. split; [lia|]. split; [constructor; constructor|].
        constructor; [|constructor].
        assert (I : lo <= - (c0 / a) <= hi).
        { set (x := - (c0 / a)). assert (X : c0 = - a * x) by (unfold x; field; auto). rewrite X in E.
          assert (E' : a * a * ((lo - x) * (hi - x)) < 0) by nra. assert (0 < a * a) by nra.
          assert ((lo - x) * (hi - x) < 0) by nra. nra. }
        split; [exact I|]. exists (- (c0 / a)). split; [exact I|]. split; [cbn; field; auto|].
        rewrite Rminus_diag_eq, Rabs_R0 by reflexivity. pose proof tolerance_pos. lra.
      * exists [], (map (fun _ => 0) (c0 :: a :: rest)). cbn [app length map]. rewrite map_length.
        repeat split; auto; constructor.
    + destruct (IH (der poly ++ [0]) lo hi (a * INR (S k + 1))) as (E & zs & R1 & R2 & R3 & R4 & R5); auto.
      * rewrite app_length, der_length. cbn. lia.
      * apply der_nth. exact TA.
      * apply Rmult_integral_contrapositive_currified; auto. apply not_0_INR. lia.
      * assert (IN : Forall (fun e => lo <= e <= hi) E)
          by (eapply Forall_impl; [|exact R5]; cbn; intros e G; apply G).
        pose proof (spread_sorted _ R4) as SS.
        destruct (find_roots_step fuel k poly lo hi a E zs) as (rs & zs' & Q1 & Q2 & Q3 & Q4); auto; try lia.
        { rewrite R2, app_length, der_length. cbn. lia. }
        exists rs, zs'. split; [exact Q1|]. split; [exact Q2|]. split; [exact Q3|].
        apply (scan_sound _ _ _ _ _ _ _ Q4); try constructor; try lra.
        -- apply Forall_app. split; auto. constructor; [lra|constructor].
        -- pose proof (sorted_ends lo hi E SS IN LH) as H. inversion H; auto.
        -- pose proof (sorted_ends lo hi E SS IN LH) as H. inversion H; auto.
Qed.

(** Leading zeros are skipped. *)
Lemma find_roots_trim : forall fuel m poly lo hi, nth_error poly m = Some 0 ->
  find_roots R_coef fuel (S m) poly lo hi = find_roots R_coef fuel m poly lo hi.
Proof.
  intros fuel m poly lo hi H. cbn [find_roots]. rewrite H. cbn [unwrap bind k_eqb k_of R_coef].
  rewrite (proj2 (R_eqb_true 0 0) eq_refl). reflexivity.
Qed.

Lemma trim_cases : forall fuel poly lo hi n, (n <= length poly)%nat ->
  (Forall (fun c => c = 0) (firstn n poly) /\ find_roots R_coef fuel n poly lo hi = find_roots R_coef fuel 0 poly lo hi) \/
  exists m a, (S m <= n)%nat /\ nth_error poly m = Some a /\ a <> 0 /\
    find_roots R_coef fuel n poly lo hi = find_roots R_coef fuel (S m) poly lo hi /\
    forall t, polyval (firstn n poly) t = polyval (firstn (S m) poly) t.
Proof.
  intros fuel poly lo hi. induction n as [|n IH]; intros L.
  - left. split; [constructor|reflexivity].
  - destruct (nth_error poly n) as [a|] eqn:E; [|apply nth_error_None in E; lia].
    destruct (Req_dec a 0) as [->|A].
    + destruct (IH ltac:(lia)) as [[F H]|(m & b & M & TB & B & H & V)].
      * left. split; [|rewrite find_roots_trim by auto; exact H].
        assert (X : firstn (S n) poly = firstn n poly ++ [0]).
        { clear - E. revert n E. induction poly as [|c poly IH]; intros [|n] E; try discriminate; cbn in E |- *.
          - injection E as ->. reflexivity.
          - f_equal. apply IH. exact E. }
        rewrite X. apply Forall_app. split; auto.
      * right. exists m, b. split; [lia|]. split; [exact TB|]. split; [exact B|].
        split; [rewrite find_roots_trim by auto; exact H|]. intros t. rewrite polyval_top_zero by auto. apply V.
    + right. exists n, a. repeat split; auto.
Qed.

(** ** All roots are found if they are well apart *)

(** A differentiable function with a derivative that is continuous. *)
Definition smooth (g g' : R -> R) : Prop := continuity g' /\ forall x, derivable_pt_lim g x (g' x).

Lemma smooth_continuity : forall g g', smooth g g' -> continuity g.
Proof. intros g g' [_ D] x. apply derivable_continuous_pt. exists (g' x). apply D. Qed.

Lemma mean_value : forall g g' a b, smooth g g' -> a < b -> exists c, a < c < b /\ g b - g a = g' c * (b - a).
Proof.
  intros g g' a b [_ D] AB.
  assert (P : derivable g) by (intro x; exists (g' x); apply D).
  destruct (MVT_cor1 g a b P AB) as (c & E & I). exists c. split; [exact I|]. rewrite E. f_equal.
  unfold derive, derive_pt. destruct (P c) as [l L]. cbn. apply (uniqueness_limite g c); auto.
Qed.

Lemma no_root_same_sign : forall g a b, continuity g -> (forall x, Rmin a b <= x <= Rmax a b -> g x <> 0) -> 0 < g a * g b.
Proof.
  intros g a b C N. apply Rnot_le_lt. intro H.
  destruct (IVT_cor g (Rmin a b) (Rmax a b) C) as (x & X & Z).
  - unfold Rmin, Rmax. destruct (Rle_dec a b); lra.
  - unfold Rmin, Rmax. destruct (Rle_dec a b); lra.
  - apply (N x); auto.
Qed.

(** No root of [g] in the range is within two tolerances of [v]. *)
Definition far (g : R -> R) (lo hi v : R) : Prop := forall x, lo <= x <= hi -> g x = 0 -> 2 * tolerance < Rabs (x - v).

Lemma piece : forall g g' lo hi t u b h, smooth g g' ->
  lo <= t -> t < u -> u <= hi -> lo <= b <= hi -> lo <= h <= hi -> b < h ->
  Rabs (b - t) <= tolerance -> Rabs (h - u) <= tolerance -> far g lo hi t -> far g lo hi u ->
  (forall y, t < y < u -> g' y <> 0) ->
  (0 < g h * g b -> forall x, t <= x <= u -> g x <> 0) /\
  (g h * g b <= 0 -> exists x, t < x < u /\ g x = 0 /\ (forall y, t <= y <= u -> g y = 0 -> y = x) /\
     (forall y, b <= y <= h -> g y = 0 -> y = x)).
Proof.
  intros g g' lo hi t u b h SM LT TU UH B H BH BT HU FT FU NZ.
  pose proof tolerance_pos as TP. pose proof (smooth_continuity _ _ SM) as CG. pose proof (proj1 SM) as CG'.
  assert (BTb : - tolerance <= b - t <= tolerance) by (revert BT; unfold Rabs; destruct (Rcase_abs (b - t)); lra).
  assert (HUb : - tolerance <= h - u <= tolerance) by (revert HU; unfold Rabs; destruct (Rcase_abs (h - u)); lra).
  assert (SB : 0 < g b * g t).
  { apply no_root_same_sign; auto. intros x X Z.
    assert (I : lo <= x <= hi) by (revert X; unfold Rmin, Rmax; destruct (Rle_dec b t); lra).
    specialize (FT x I Z). revert X FT. unfold Rmin, Rmax, Rabs. destruct (Rle_dec b t); destruct (Rcase_abs (x - t)); lra. }
  assert (SH : 0 < g h * g u).
  { apply no_root_same_sign; auto. intros x X Z.
    assert (I : lo <= x <= hi) by (revert X; unfold Rmin, Rmax; destruct (Rle_dec h u); lra).
    specialize (FU x I Z). revert X FU. unfold Rmin, Rmax, Rabs. destruct (Rle_dec h u); destruct (Rcase_abs (x - u)); lra. }
  assert (GT : g t <> 0) by (intro Z; rewrite Z in SB; lra).
  assert (GU : g u <> 0) by (intro Z; rewrite Z in SH; lra).
  assert (UNIQUE : forall x y, t <= x <= u -> t <= y <= u -> g x = 0 -> g y = 0 -> x < y -> False).
  { intros x y X Y ZX ZY XY. destruct (mean_value g g' x y SM XY) as (c & C & E).
    rewrite ZX, ZY in E. assert (G0 : g' c = 0) by (assert (P : g' c * (y - x) = 0) by lra; apply Rmult_integral in P; lra).
    apply (NZ c); auto. lra. }
  assert (INSIDE : forall x, lo <= x <= hi -> g x = 0 -> b <= x <= h -> t <= x <= u).
  { intros x I Z X. pose proof (FT x I Z) as F1. pose proof (FU x I Z) as F2. revert F1 F2.
    unfold Rabs. destruct (Rcase_abs (x - t)); destruct (Rcase_abs (x - u)); lra. }
  split.
  - intros P x X Z.
    assert (S : 0 < g t * g u).
    { assert (Q : 0 < (g h * g b) * ((g b * g t) * (g h * g u))) by (apply Rmult_lt_0_compat; [exact P|apply Rmult_lt_0_compat; assumption]).
      assert (Q2 : 0 < (g h * g b) * (g h * g b) * (g t * g u)).
      { replace ((g h * g b) * (g h * g b) * (g t * g u)) with ((g h * g b) * ((g b * g t) * (g h * g u))) by ring. exact Q. }
      assert (Q3 : 0 < (g h * g b) * (g h * g b)) by (apply Rmult_lt_0_compat; auto). nra. }
    assert (TX : t < x). { destruct (Req_dec t x) as [<-|]; [contradiction|lra]. }
    assert (XU : x < u). { destruct (Req_dec x u) as [->|]; [contradiction|lra]. }
    destruct (mean_value g g' t x SM TX) as (c1 & C1 & E1). destruct (mean_value g g' x u SM XU) as (c2 & C2 & E2).
    rewrite Z in E1, E2.
    assert (C12 : g' c1 * g' c2 <= 0).
    { apply Rnot_lt_le. intro N.
      assert (M : (- g t) * g u = g' c1 * g' c2 * ((x - t) * (u - x))).
      { replace (- g t) with (g' c1 * (x - t)) by lra. replace (g u) with (g' c2 * (u - x)) by lra. ring. }
      assert (0 < (x - t) * (u - x)) by (apply Rmult_lt_0_compat; lra). nra. }
    destruct (IVT_cor g' c1 c2 CG') as (y & Y & ZY); [lra|exact C12|]. apply (NZ y); auto. lra.
  - intros P.
    assert (S : g t * g u <= 0).
    { apply Rnot_lt_le. intro Q.
      assert (Q1 : 0 < (g b * g t) * (g h * g u)) by (apply Rmult_lt_0_compat; auto).
      assert (Q2 : (g b * g t) * (g h * g u) = (g h * g b) * (g t * g u)) by ring. nra. }
    destruct (IVT_cor g t u CG) as (x & X & Z); [lra|exact S|].
    assert (TX : t < x). { destruct (Req_dec t x) as [<-|]; [contradiction|lra]. }
    assert (XU : x < u). { destruct (Req_dec x u) as [->|]; [contradiction|lra]. }
    assert (U : forall y, t <= y <= u -> g y = 0 -> y = x).
    { intros y Y ZY. destruct (Rtotal_order x y) as [L|[L|L]]; auto; exfalso.
      - apply (UNIQUE x y); auto.
      - apply (UNIQUE y x); auto. }
    exists x. split; [lra|]. split; [exact Z|]. split; [exact U|].
    intros y Y ZY. apply U; auto. apply INSIDE; auto. lra.
Qed.

Definition near (x r : R) : Prop := Rabs (x - r) <= tolerance.

(** [xs] are all roots of [g] between [lo] and [hi], ascending. *)
Definition all_roots (g : R -> R) (lo hi : R) (xs : list R) : Prop :=
  StronglySorted Rlt xs /\ forall x, In x xs <-> lo <= x <= hi /\ g x = 0.

Lemma sorted_snoc : forall xs x, StronglySorted Rlt xs -> Forall (fun a => a < x) xs -> StronglySorted Rlt (xs ++ [x]).
Proof.
  induction xs as [|a xs IH]; intros x S F; cbn [app]; [constructor; constructor|].
  inversion S; subst. inversion F; subst. constructor; [apply IH; auto|]. apply Forall_app. split; auto.
Qed.

(** The scan over the remaining pieces, from the place [t] that [low] stands for; [es] are the
    places the other ends stand for. *)
Lemma scan_complete : forall g g' lo hi, smooth g g' ->
  far g lo hi hi ->
  (forall e, lo <= e <= hi -> g' e = 0 -> far g lo hi e) ->
  forall es E t low rs rs' xs,
  scan g low (E ++ [hi]) rs rs' ->
  lo <= t -> t < hi -> Rabs (low - t) <= tolerance -> far g lo hi t ->
  Forall2 near es E -> StronglySorted Rlt (low :: E ++ [hi]) -> lo <= low ->
  StronglySorted Rlt es -> (forall y, In y es <-> t < y < hi /\ g' y = 0) ->
  Forall2 near xs rs -> all_roots g lo t xs ->
  exists xs', Forall2 near xs' rs' /\ all_roots g lo hi xs'.
Proof.
  intros g g' lo hi SM FH FE. pose proof tolerance_pos as TP.
  assert (STEP : forall t u low h rs xs, lo <= t -> t < u -> u <= hi -> lo <= low -> low < h -> h <= hi ->
    Rabs (low - t) <= tolerance -> Rabs (h - u) <= tolerance -> far g lo hi t -> far g lo hi u ->
    (forall y, t < y < u -> g' y <> 0) -> Forall2 near xs rs -> all_roots g lo t xs ->
    (0 < g h * g low -> all_roots g lo u xs) /\
    (g h * g low <= 0 -> forall r x, g x = 0 -> Rabs (x - r) <= tolerance -> low <= x <= h ->
       (forall rs0 p, rs = rs0 ++ [p] -> tolerance < Rabs (p - r)) /\ all_roots g lo u (xs ++ [x]))).
  { intros t u low h rs xs LT TU UH LL LH HH LT' HU FT FU NZ NR [AS AR].
    destruct (piece g g' lo hi t u low h SM LT TU UH ltac:(lra) ltac:(lra) LH LT' HU FT FU NZ) as [P1 P2].
    split.
    - intros P. split; [exact AS|]. intros x. rewrite AR. split; intros [I Z]; (split; [|exact Z]).
      + lra.
      + destruct (Rle_dec x t); [lra|]. exfalso. apply (P1 P x); auto. lra.
    - intros P r x ZX XR XI. destruct (P2 P) as (x0 & X0 & Z0 & U1 & U2).
      assert (EX : x = x0) by (apply U2; auto). subst x0. clear P1 P2.
      assert (BELOW : Forall (fun a => a < t - 2 * tolerance) xs).
      { apply Forall_forall. intros a A. apply AR in A. destruct A as [A ZA].
        specialize (FT a ltac:(lra) ZA). revert FT. unfold Rabs. destruct (Rcase_abs (a - t)); lra. }
      assert (XT : t + 2 * tolerance < x).
      { specialize (FT x ltac:(lra) ZX). revert FT. unfold Rabs. destruct (Rcase_abs (x - t)); lra. }
      split.
      + intros rs0 p ->. apply Forall2_app_inv_r in NR. destruct NR as (xa & xb & NA & NB & ->).
        inversion NB as [|xp ? ? ? NP NB']; subst. inversion NB'; subst.
        apply Forall_app in BELOW. destruct BELOW as [_ BL]. inversion BL; subst. unfold near in NP.
        revert NP XR. unfold Rabs. destruct (Rcase_abs (xp - p)); destruct (Rcase_abs (x - r)); destruct (Rcase_abs (p - r)); lra.
      + split.
        * apply sorted_snoc; auto. eapply Forall_impl; [|exact BELOW]. cbn. intros. lra.
        * intros y. rewrite in_app_iff, AR. cbn [In]. split.
          -- intros [[I Z]|[<-|[]]]; split; auto; lra.
          -- intros [I Z]. destruct (Rle_dec y t); [left; split; auto; lra|]. right. left. symmetry. apply U1; auto. lra. }
  assert (GO : forall t u low h rest rs rs' xs, lo <= t -> t < u -> u <= hi -> lo <= low -> low < h -> h <= hi ->
    Rabs (low - t) <= tolerance -> Rabs (h - u) <= tolerance -> far g lo hi t -> far g lo hi u ->
    (forall y, t < y < u -> g' y <> 0) -> Forall2 near xs rs -> all_roots g lo t xs ->
    scan g low (h :: rest) rs rs' ->
    exists rs1 xs1, scan g h rest rs1 rs' /\ Forall2 near xs1 rs1 /\ all_roots g lo u xs1).
  { intros t u low h rest rs rs' xs LT TU UH LL LH HH LT' HU FT FU NZ NR AR SC.
    destruct (STEP t u low h rs xs LT TU UH LL LH HH LT' HU FT FU NZ NR AR) as [S1 S2].
    inversion SC as [|? ? ? ? ? H S|? ? ? ? ? H P S|? ? ? ? p r x ? H P GX XR RI XI D S|? ? ? ? r x ? H P GX XR RI XI D S]; subst.
    - lra.
    - exists rs, xs. auto.
    - exfalso. destruct (S2 P r x GX XR XI) as [F _]. specialize (F _ _ eq_refl). lra.
    - destruct (S2 P r x GX XR XI) as [_ A]. exists (rs ++ [r]), (xs ++ [x]). split; [exact S|]. split; [|exact A].
      apply Forall2_app; auto. }
  induction es as [|e es IH]; intros E t low rs rs' xs SC LT TH LT' FT NE SS LL SE AE NX AX.
  - inversion NE; subst. cbn [app] in SC.
    assert (LH : low < hi) by (inversion SS as [|? ? ? F]; subst; inversion F; auto).
    destruct (GO t hi low hi [] rs rs' xs) as (rs1 & xs1 & S1 & N1 & A1); auto; try lra.
    { rewrite Rminus_diag_eq, Rabs_R0 by reflexivity. lra. }
    { intros y Y Z. apply (AE y). auto. }
    inversion S1; subst. exists xs1. auto.
  - inversion NE as [|? r ? E' NR NE']; subst. cbn [app] in SC.
    inversion SS as [|? ? SS' F]; subst. inversion F as [|? ? LR F']; subst.
    assert (EI : t < e < hi /\ g' e = 0) by (apply AE; left; reflexivity).
    assert (RH : r < hi).
    { inversion SS' as [|? ? ? F2]; subst. rewrite Forall_forall in F2. apply F2. apply in_app_iff. right. left. reflexivity. }
    inversion SE as [|? ? SE' FE']; subst. rewrite Forall_forall in FE'.
    destruct (GO t e low r (E' ++ [hi]) rs rs' xs) as (rs1 & xs1 & S1 & N1 & A1); auto; try lra.
    { rewrite Rabs_minus_sym. exact NR. }
    { apply FE; [lra|apply EI]. }
    { intros y Y Z. assert (IY : In y (e :: es)) by (apply AE; split; [lra|exact Z]). destruct IY as [<-|IY]; [lra|].
      specialize (FE' y IY). lra. }
    apply (IH E' e r rs1 rs' xs1); auto; try lra.
    + rewrite Rabs_minus_sym. exact NR.
    + apply FE; [lra|apply EI].
    + intros y. split.
      * intros IY. specialize (FE' y IY). assert (Q : In y (e :: es)) by (right; exact IY). apply AE in Q. split; [lra|apply Q].
      * intros [Y Z]. assert (Q : In y (e :: es)) by (apply AE; split; [lra|exact Z]). destruct Q as [<-|Q]; [lra|exact Q].
Qed.

(** A polynomial with a coefficient that is not 0 is not 0 everywhere. *)
Lemma polyval_not_zero : forall m poly a, nth_error poly m = Some a -> a <> 0 ->
  ~ (forall t, polyval (firstn (S m) poly) t = 0).
Proof.
  induction m as [|m IH]; intros poly a TA A0 Z.
  - destruct poly as [|c poly]; [discriminate|]. injection TA as ->. specialize (Z 0). cbn in Z. lra.
  - assert (L : (S (S m) <= length poly)%nat) by (apply nth_error_Some; congruence).
    apply (IH (der poly ++ [0]) (a * INR (m + 1))).
    + apply der_nth; auto.
    + apply Rmult_integral_contrapositive_currified; auto. apply not_0_INR. lia.
    + intros t. rewrite der_firstn by auto.
      apply (uniqueness_limite (polyval (firstn (S (S m)) poly)) t); [apply der_lim|].
      assert (C : derivable_pt_lim (fct_cte 0) t 0) by apply derivable_pt_lim_const.
      intros eps EP. destruct (C eps EP) as [d D]. exists d. intros h H0 HD. rewrite !Z. apply (D h H0 HD).
Qed.

(** [F k] is the derivative number [k]. *)
Definition derivatives (F : nat -> R -> R) : Prop := forall k x, derivable_pt_lim (F k) x (F (S k) x).

(** In the range, every root of a derivative (also number 0) that is not 0 everywhere is more
    than two tolerances away from the ends and from every root of the next derivative. *)
Definition apart (F : nat -> R -> R) (lo hi : R) : Prop :=
  forall k x, (exists y, F k y <> 0) -> lo <= x <= hi -> F k x = 0 ->
    lo + 2 * tolerance < x < hi - 2 * tolerance /\
    forall y, lo <= y <= hi -> F (S k) y = 0 -> 2 * tolerance < Rabs (x - y).

Lemma derivable_ext : forall f g x l, (forall t, f t = g t) -> derivable_pt_lim f x l -> derivable_pt_lim g x l.
Proof. intros f g x l E D eps EP. destruct (D eps EP) as [d H]. exists d. intros h H0 HD. rewrite <- !E. auto. Qed.

Lemma app_same_length : forall A (a b c d : list A), a ++ b = c ++ d -> length a = length c -> a = c.
Proof.
  induction a as [|x a IH]; intros b [|y c] d E L; try discriminate; auto. cbn in *. injection E as -> E. f_equal.
  eapply IH; eauto.
Qed.

Lemma find_roots_complete : forall fuel m poly lo hi a F, (S m <= length poly <= 128)%nat -> lo < hi ->
  hi - lo <= tolerance * 2 ^ fuel -> nth_error poly m = Some a -> a <> 0 ->
  derivatives F -> (forall t, F 0%nat t = polyval (firstn (S m) poly) t) -> apart F lo hi ->
  exists rs zs xs, find_roots R_coef fuel (S m) poly lo hi = Ok (rs ++ zs, length rs) /\
    length (rs ++ zs) = length poly /\ (length rs <= m)%nat /\ spread rs /\ Forall (fun r => lo <= r <= hi) rs /\
    Forall2 near xs rs /\ all_roots (polyval (firstn (S m) poly)) lo hi xs.
Proof.
  intros fuel. pose proof tolerance_pos as TP.
  induction m as [|m IH]; intros poly lo hi a F N LH W TA A0 DF F0 AP.
  - destruct (find_roots_sound fuel 0 poly lo hi a N ltac:(lra) W TA A0) as (rs & zs & R1 & R2 & R3 & R4 & R5).
    destruct rs as [|r rs]; [|cbn in R3; lia]. exists [], zs, []. repeat split; auto; try constructor.
    + destruct H.
    + destruct H.
    + destruct H.
    + destruct poly as [|c poly]; [discriminate|]. injection TA as ->. cbn. intros [_ Z]. lra.
  - destruct m as [|k].
    + destruct (find_roots_sound fuel 1 poly lo hi a N ltac:(lra) W TA A0) as (rs & zs & R1 & R2 & R3 & R4 & R5).
      assert (IN : Forall (fun r => lo <= r <= hi) rs) by (eapply Forall_impl; [|exact R5]; cbn; intros e G; apply G).
      destruct poly as [|c0 [|c1 rest]]; try (cbn in N; lia). cbn in TA. injection TA as ->.
      assert (PV : forall t, polyval (firstn 2 (c0 :: a :: rest)) t = c0 + a * t) by (intros; cbn; ring).
      set (x := - (c0 / a)).
      assert (RX : forall t, polyval (firstn 2 (c0 :: a :: rest)) t = 0 <-> t = x).
      { intros t. rewrite PV. unfold x. split; intro H; [|subst; field; auto].
        apply (Rmult_eq_reg_l a); auto. replace (a * - (c0 / a)) with (- c0) by (field; auto). lra. }
      pose proof R1 as R1'.
      cbn [find_roots nth_error unwrap bind k_eqb k_of k_add k_mul k_ltb k_neg k_div R_coef] in R1'.
      destruct (R_eqb a 0) eqn:Z; [apply R_eqb_true in Z; contradiction|].
      destruct (R_ltb ((c0 + a * lo) * (c0 + a * hi)) 0) eqn:E.
      * apply R_ltb_true in E. cbn [map store bind] in R1'. injection R1' as E1 E2.
        destruct rs as [|r [|r2 rs]]; try discriminate. cbn [app] in E1. injection E1 as E1 _. fold x in E1.
        exists [r], zs, [x]. split; [exact R1|]. split; [exact R2|]. split; [exact R3|]. split; [exact R4|]. split; [exact IN|].
        split; [constructor; [|constructor]; unfold near; rewrite E1, Rminus_diag_eq, Rabs_R0 by reflexivity; lra|].
        split; [constructor; constructor|]. inversion IN; subst.
        intros t. rewrite RX. cbn [In]. split; [intros [<-|[]]; split; auto; lra|intros [_ ->]; auto].
      * apply R_ltb_false in E. injection R1' as E1 E2. destruct rs as [|r rs]; [|discriminate].
        exists [], zs, []. split; [exact R1|]. split; [exact R2|]. split; [exact R3|]. split; [exact R4|]. split; [exact IN|].
        split; [constructor|]. split; [constructor|].
        intros t. rewrite RX. split; [intros []|]. intros [I ->]. exfalso.
        destruct (AP 0%nat x) as [B _]; auto.
        -- exists (x + 1). rewrite F0, PV. intro H. assert (Q : c0 + a * x = 0) by (rewrite <- PV; apply RX; reflexivity). nra.
        -- rewrite F0. apply RX. reflexivity.
        -- assert (X : c0 = - a * x) by (unfold x; field; auto). rewrite X in E.
           assert (E' : 0 <= a * a * ((lo - x) * (hi - x))) by nra. assert (0 < a * a) by nra.
           assert (0 < (x - lo) * (hi - x)) by (apply Rmult_lt_0_compat; lra). nra.
    + assert (A1 : a * INR (S k + 1) <> 0) by (apply Rmult_integral_contrapositive_currified; auto; apply not_0_INR; lia).
      set (g := polyval (firstn (S (S (S k))) poly)). set (g' := polyval (firstn (S (S k)) (der poly ++ [0]))).
      assert (DG : forall t, derivable_pt_lim g t (g' t)).
      { intros t. unfold g'. rewrite der_firstn by lia. apply der_lim. }
      assert (F1 : forall t, F 1%nat t = g' t).
      { intros t. apply (uniqueness_limite g t); [|apply DG]. apply (derivable_ext (F 0%nat)); auto. }
      destruct (IH (der poly ++ [0]) lo hi (a * INR (S k + 1)) (fun n => F (S n))) as (E & zs & es & R1 & R2 & R3 & R4 & R5 & R6 & R7); auto.
      * rewrite app_length, der_length. cbn. lia.
      * apply der_nth. exact TA.
      * intros n x. apply DF.
      * intros n x. apply AP.
      * assert (SS : StronglySorted Rle E) by (apply spread_sorted; auto).
        destruct (find_roots_step fuel k poly lo hi a E zs) as (rs & zs' & Q1 & Q2 & Q3 & Q4); auto; try lia; try lra.
        { rewrite R2, app_length, der_length. cbn. lia. }
        destruct (find_roots_sound fuel (S (S k)) poly lo hi a N ltac:(lra) W TA A0) as (rs2 & zs2 & T1 & T2 & T3 & T4 & T5).
        rewrite Q1 in T1. injection T1 as T1 T1'. apply app_same_length in T1; auto. subst rs2.
        assert (NZ0 : exists y, F 0%nat y <> 0).
        { apply Classical_Pred_Type.not_all_ex_not. intro H. apply (polyval_not_zero _ _ _ TA A0). intros t. rewrite <- F0. apply H. }
        assert (NZ1 : exists y, F 1%nat y <> 0).
        { apply Classical_Pred_Type.not_all_ex_not. intro H.
          apply (polyval_not_zero _ _ _ (der_nth _ _ _ TA) A1). intros t. fold g'. rewrite <- F1. apply H. }
        assert (SM : smooth g g') by (split; [apply polyval_continuity|exact DG]).
        assert (ES : forall y, In y es -> lo + 2 * tolerance < y < hi - 2 * tolerance /\ g' y = 0).
        { intros y I. apply R7 in I. destruct I as [I Z]. fold g' in Z. split; [|exact Z]. apply (AP 1%nat y); auto. rewrite F1. exact Z. }
        assert (EI : Forall (fun e => lo < e < hi) E).
        { clear - R6 ES TP. induction R6 as [|e r es E NR R6 IH]; constructor.
          - destruct (ES e ltac:(left; reflexivity)) as [I _]. revert NR. unfold near, Rabs. destruct (Rcase_abs (e - r)); lra.
          - apply IH. intros y I. apply ES. right. exact I. }
        destruct (scan_complete g g' lo hi SM) with (es := es) (E := E) (t := lo) (low := lo) (rs := @nil R) (rs' := rs) (xs := @nil R)
          as (xs & X1 & X2); auto; try lra.
        -- intros x I Z. destruct (AP 0%nat x NZ0 I) as [B _]; [rewrite F0; exact Z|].
           unfold Rabs. destruct (Rcase_abs (x - hi)); lra.
        -- intros e I Z x IX ZX. destruct (AP 0%nat x NZ0 IX) as [_ B]; [rewrite F0; exact ZX|]. apply B; auto. rewrite F1. exact Z.
        -- rewrite Rminus_diag_eq, Rabs_R0 by reflexivity. lra.
        -- intros x I Z. destruct (AP 0%nat x NZ0 I) as [B _]; [rewrite F0; exact Z|].
           unfold Rabs. destruct (Rcase_abs (x - lo)); lra.
        -- constructor.
           ++ clear - R4 EI TP. induction R4 as [|e E S IH FS]; cbn [app]; [constructor; constructor|].
              inversion EI; subst. constructor; auto. apply Forall_app. split; [|constructor; [lra|constructor]].
              eapply Forall_impl; [|exact FS]. cbn. intros. lra.
           ++ apply Forall_app. split; [|constructor; [lra|constructor]]. eapply Forall_impl; [|exact EI]. cbn. intros. lra.
        -- apply R7.
        -- intros y. split.
           ++ intros I. destruct (ES y I) as [B Z]. split; [lra|exact Z].
           ++ intros [I Z]. apply R7. split; [lra|exact Z].
        -- split; [constructor|]. intros x. split; [intros []|]. intros [I Z]. exfalso.
           destruct (AP 0%nat x NZ0 ltac:(lra)) as [B _]; [rewrite F0; exact Z|]. lra.
        -- exists rs, zs', xs. split; [exact Q1|]. split; [exact Q2|]. split; [exact Q3|]. split; [exact T4|].
           split; [eapply Forall_impl; [|exact T5]; cbn; intros e G; apply G|]. split; [exact X1|exact X2].
Qed.
