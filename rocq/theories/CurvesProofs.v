(** Lemmas about the curve model. *)
From Coq Require Import Reals ZArith List Lia Lra.
From Verif Require Import Base Coords CoordsProofs Polynomials PolyProofs TaylorProofs TableProofs
  Curves PropsPoly.
Import ListNotations.
Open Scope R_scope.

Lemma length_zero : forall v, vlength v = 0 -> v = vzero.
Proof.
  intros v H; destruct (Req_EM_T (vx v) 0) as [A|A]; destruct (Req_EM_T (vy v) 0) as [B|B].
  - apply vec_eq; auto.
  - exfalso; assert (0 < vlength v) by (apply length_pos; intro E; rewrite E in B; auto); lra.
  - exfalso; assert (0 < vlength v) by (apply length_pos; intro E; rewrite E in A; auto); lra.
  - exfalso; assert (0 < vlength v) by (apply length_pos; intro E; rewrite E in A; auto); lra.
Qed.

Lemma length_nonneg : forall v, 0 <= vlength v.
Proof. intro v; apply sqrt_pos. Qed.

Lemma length_scale : forall v s, vlength (vscale v s) = vlength v * Rabs s.
Proof.
  intros v s; unfold vlength, vscale; cbn [vx vy].
  replace (vx v * s * (vx v * s) + vy v * s * (vy v * s))
    with ((vx v * vx v + vy v * vy v) * (s * s)) by ring.
  rewrite sqrt_mult; [|apply sumsq_nonneg|apply Rle_0_sqr].
  f_equal; apply (sqrt_Rsqr_abs s).
Qed.

Lemma unit_scale : forall v s, 0 < s -> unit_vec (vscale v s) = unit_vec v.
Proof.
  intros v s S; destruct (Req_EM_T (vlength v) 0) as [E|E].
  - apply length_zero in E; subst v; unfold unit_vec, vscale, vzero; cbn [vx vy].
    apply vec_eq; cbn [vx vy]; unfold Rdiv; ring.
  - unfold unit_vec; rewrite length_scale, Rabs_right by lra.
    unfold vscale; cbn [vx vy]; apply vec_eq; cbn [vx vy]; field; split; lra.
Qed.

Lemma unit_length : forall v, v <> vzero -> vlength (unit_vec v) = 1.
Proof.
  intros v N; assert (P := length_pos v N).
  replace (unit_vec v) with (vscale v (/ vlength v))
    by (unfold unit_vec, vscale; apply vec_eq; cbn; reflexivity).
  rewrite length_scale, Rabs_right; [field; lra|].
  apply Rle_ge; left; apply Rinv_0_lt_compat; lra.
Qed.

Lemma line_point : forall e f, fst (line_value (line_new e) (f * vlength e)) = vscale e f.
Proof.
  intros e f; unfold line_new, line_value; cbn [fst l_dir].
  destruct (Req_EM_T (vlength e) 0) as [E|E].
  - rewrite E; apply length_zero in E; subst e; unfold vscale, vzero; apply vec_eq; cbn; ring.
  - unfold vscale, unit_vec; apply vec_eq; cbn [vx vy]; field; exact E.
Qed.

(** ** Circles *)

Lemma circle_angle : forall r a b, 0 < r ->
  r * Rabs (b - a) * angle_scale r a b + a = b.
Proof.
  intros r a b R0; unfold angle_scale; destruct (Rle_dec a b) as [L|L].
  - rewrite Rabs_right by lra; field; lra.
  - rewrite Rabs_left by lra; field; lra.
Qed.

(** ** The concatenation *)

Definition simple := (R * (R -> vec * vec))%type.
Definition to_info (c : simple) : curve_info :=
  mk_curve (Ok (fst c)) (fun x => Ok (snd c x)).

Definition end_point (c : simple) : vec := fst (snd c (fst c)).

Fixpoint add_all (l : list concat_seg) (cs : list simple) : res (list concat_seg) :=
  match cs with
  | [] => Ok l
  | c :: r => let! l' := concat_add l (to_info c) in add_all l' r
  end.

Fixpoint spec_segs (off : vec) (len : R) (cs : list simple) : list concat_seg :=
  match cs with
  | [] => []
  | c :: r =>
      let off' := vadd (end_point c) off in
      let len' := fst c + len in
      mk_cs off' len' (to_info c) :: spec_segs off' len' r
  end.

Definition last_off (l : list concat_seg) : vec :=
  match last_seg l with None => vzero | Some s => cs_end_coord s end.

Lemma last_seg_app : forall l s, last_seg (l ++ [s]) = Some s.
Proof.
  induction l as [|a l IH]; intro s; [reflexivity|].
  cbn [app last_seg]; rewrite IH; destruct l; reflexivity.
Qed.

Lemma add_all_spec : forall cs l,
  add_all l cs = Ok (l ++ spec_segs (last_off l) (concat_length l) cs).
Proof.
  induction cs as [|c cs IH]; intro l; cbn [add_all spec_segs]; [rewrite app_nil_r; reflexivity|].
  unfold concat_add; cbn [to_info ci_length ci_value bind].
  destruct (snd c (fst c)) as [p d] eqn:E; cbn [bind]; rewrite IH.
  unfold last_off, concat_length; rewrite !last_seg_app; cbn [cs_end_coord cs_end_len].
  unfold end_point; rewrite E; cbn [fst].
  rewrite <- app_assoc; reflexivity.
Qed.

(** Prefix sums. *)
Fixpoint pre_len (k : nat) (cs : list simple) : R :=
  match k, cs with
  | S k', c :: r => fst c + pre_len k' r
  | _, _ => 0
  end.

Fixpoint pre_pt (k : nat) (cs : list simple) : vec :=
  match k, cs with
  | S k', c :: r => vadd (end_point c) (pre_pt k' r)
  | _, _ => vzero
  end.

Lemma vadd_0_r : forall v, vadd v vzero = v.
Proof. intros [x y]; unfold vadd, vzero; cbn; f_equal; ring. Qed.
Lemma vadd_0_l : forall v, vadd vzero v = v.
Proof. intros [x y]; unfold vadd, vzero; cbn; f_equal; ring. Qed.
Lemma vadd_assoc : forall u v w, vadd u (vadd v w) = vadd (vadd u v) w.
Proof. intros; unfold vadd; cbn; f_equal; ring. Qed.
Lemma vadd_comm : forall u v, vadd u v = vadd v u.
Proof. intros; unfold vadd; cbn; f_equal; ring. Qed.

Lemma spec_segs_nth : forall cs off len k c, nth_error cs k = Some c ->
  nth_error (spec_segs off len cs) k =
    Some (mk_cs (vadd (pre_pt (S k) cs) off) (pre_len (S k) cs + len) (to_info c)).
Proof.
  induction cs as [|d cs IH]; intros off len k c H; [destruct k; discriminate|].
  destruct k as [|k]; cbn in H.
  - inversion H; subst d; cbn [spec_segs nth_error pre_pt pre_len].
    rewrite vadd_0_r, Rplus_0_r; reflexivity.
  - change (pre_pt (S (S k)) (d :: cs)) with (vadd (end_point d) (pre_pt (S k) cs)).
    change (pre_len (S (S k)) (d :: cs)) with (fst d + pre_len (S k) cs).
    cbn [spec_segs nth_error]; rewrite (IH _ _ k c H); f_equal; f_equal.
    + rewrite vadd_assoc, (vadd_comm (pre_pt (S k) cs)); reflexivity.
    + ring.
Qed.

Lemma spec_segs_length : forall cs off len, length (spec_segs off len cs) = length cs.
Proof. induction cs; intros; cbn; auto. Qed.

Lemma pre_len_S : forall cs k c, nth_error cs k = Some c -> pre_len (S k) cs = pre_len k cs + fst c.
Proof.
  induction cs as [|d cs IH]; intros k c H; [destruct k; discriminate|].
  destruct k as [|k]; cbn in H; [inversion H; subst; cbn; destruct cs; ring|].
  change (pre_len (S (S k)) (d :: cs)) with (fst d + pre_len (S k) cs).
  rewrite (IH k c H); cbn [pre_len]; ring.
Qed.

Lemma pre_pt_S : forall cs k c, nth_error cs k = Some c ->
  pre_pt (S k) cs = vadd (pre_pt k cs) (end_point c).
Proof.
  induction cs as [|d cs IH]; intros k c H; [destruct k; discriminate|].
  destruct k as [|k]; cbn in H.
  - inversion H; subst; cbn [pre_pt]; rewrite vadd_0_r, vadd_0_l; reflexivity.
  - change (pre_pt (S (S k)) (d :: cs)) with (vadd (end_point d) (pre_pt (S k) cs)).
    rewrite (IH k c H); cbn [pre_pt]; rewrite vadd_assoc; reflexivity.
Qed.

Definition good (c : simple) : Prop := 0 <= fst c /\ fst (snd c 0) = vzero.

Lemma pre_len_step : forall cs k, Forall good cs -> pre_len k cs <= pre_len (S k) cs.
Proof.
  intros cs k F; destruct (nth_error cs k) as [c|] eqn:E.
  - rewrite (pre_len_S cs k c E).
    rewrite Forall_forall in F; destruct (F c (nth_error_In _ _ E)); lra.
  - assert (H : forall cs k, nth_error cs k = None -> pre_len (S k) cs = pre_len k cs).
    { clear; induction cs as [|d cs IH]; intros k H; [destruct k; reflexivity|].
      destruct k; [discriminate|]; cbn in H.
      change (pre_len (S (S k)) (d :: cs)) with (fst d + pre_len (S k) cs).
      rewrite (IH k H); reflexivity. }
    rewrite (H cs k E); lra.
Qed.

Lemma pre_len_mono : forall cs j k, Forall good cs -> (j <= k)%nat -> pre_len j cs <= pre_len k cs.
Proof.
  intros cs j k F L; induction L as [|k L IH]; [lra|].
  assert (H := pre_len_step cs k F); lra.
Qed.

(** Where the length does not grow the point does not move. *)
Lemma pre_pt_same : forall cs j k, Forall good cs -> (j <= k)%nat -> (k <= length cs)%nat ->
  pre_len j cs = pre_len k cs -> pre_pt j cs = pre_pt k cs.
Proof.
  intros cs j k F L; induction L as [|k L IH]; intros LK E; [reflexivity|].
  destruct (nth_error cs k) as [c|] eqn:N; [|apply nth_error_None in N; lia].
  assert (A := pre_len_mono cs j k F L); assert (B := pre_len_step cs k F).
  rewrite IH by (lia || lra).
  rewrite (pre_pt_S cs k c N).
  assert (G := proj1 (Forall_forall _ _) F c (nth_error_In _ _ N)).
  assert (Z : fst c = 0) by (rewrite (pre_len_S cs k c N) in *; lra).
  unfold end_point; rewrite Z, (proj2 G), vadd_0_r; reflexivity.
Qed.

Lemma concat_length_spec : forall cs, concat_length (spec_segs vzero 0 cs) = pre_len (length cs) cs.
Proof.
  intro cs; unfold concat_length.
  assert (H : forall cs off len, match last_seg (spec_segs off len cs) with
     | Some s => cs_end_len s = pre_len (length cs) cs + len
     | None => cs = [] end).
  { clear; induction cs as [|c cs IH]; intros off len; [reflexivity|].
    cbn [spec_segs]; assert (I := IH (vadd (end_point c) off) (fst c + len)).
    destruct cs as [|d cs]; [cbn; ring|].
    cbn [spec_segs] in *.
    match goal with |- match last_seg (?a :: ?b :: ?r) with _ => _ end =>
      change (last_seg (a :: b :: r)) with (last_seg (b :: r)) end.
    match goal with |- match ?x with _ => _ end => destruct x; [|discriminate] end.
    rewrite I; cbn [length pre_len]; ring. }
  assert (I := H cs vzero 0); destruct (last_seg (spec_segs vzero 0 cs)); [lra|].
  subst cs; reflexivity.
Qed.

(** A binary search with an admissible answer exists: a linear scan. *)
Fixpoint scan (l : list R) (x : R) : search_result :=
  match l with
  | [] => Insert 0
  | a :: r =>
      if Rlt_dec a x then
        match scan r x with Found i => Found (S i) | Insert i => Insert (S i) end
      else if Req_EM_T a x then Found 0 else Insert 0
  end.

Lemma scan_ok : forall l x, search_ok (fun y => y) l x (scan l x).
Proof.
  induction l as [|a l IH]; intro x; cbn [scan].
  - cbn; repeat split; [lia|intros k b E; discriminate|discriminate].
  - destruct (Rlt_dec a x) as [L|L].
    + assert (I := IH x); destruct (scan l x) as [i|i]; cbn [search_ok] in *.
      * exact I.
      * destruct I as [A [B C]]; cbn [length]; repeat split; [lia| |exact C].
        intros k b E N; inversion E; subst k; clear E.
        destruct i as [|i]; cbn in N; [inversion N; subst; auto|].
        apply (B i b eq_refl N).
    + destruct (Req_EM_T a x) as [E|E]; cbn [search_ok].
      * exists a; split; auto.
      * repeat split; [lia|intros k b K; discriminate|].
        intros b N; inversion N; subst; lra.
Qed.

Definition good_search (find : searcher) : Prop :=
  forall l x, search_ok (fun y => y) l x (find l x).

Lemma search_map : forall A (key : A -> R) l x r,
  search_ok (fun y => y) (map key l) x r -> search_ok key l x r.
Proof.
  intros A key l x [i|i]; cbn [search_ok].
  - intros [y [H E]].
    destruct (nth_error l i) as [a|] eqn:N.
    + exists a; split; auto; rewrite (map_nth_error key i l N) in H; inversion H; congruence.
    + apply nth_error_None in N.
      assert (i < length (map key l))%nat by (apply nth_error_Some; congruence).
      rewrite map_length in *; lia.
  - rewrite map_length; intros [L [B C]]; split; [auto|split].
    + intros k a E N; apply (B k (key a) E (map_nth_error key k l N)).
    + intros a N; apply (C (key a) (map_nth_error key i l N)).
Qed.

(** ** De Casteljau's scheme on one coordinate *)

Definition lerp (a b t : R) : R := a + (b - a) * t.

Lemma casteljau : forall a b c t,
  lerp (lerp (a * t) (lerp a b t) t) (lerp (lerp a b t) (lerp b c t) t) t
  = a * (3 * (1 - t) ^ 2 * t) + (b * (3 * (1 - t) * t ^ 2) + c * t ^ 3).
Proof. intros; unfold lerp; ring. Qed.

Lemma bezier_bern : forall c1 c2 p2 t,
  fst (bezier_value c1 c2 p2 t) =
    vadd (vscale c1 (3 * (1 - t) ^ 2 * t))
      (vadd (vscale c2 (3 * (1 - t) * t ^ 2)) (vscale p2 (t ^ 3))).
Proof.
  intros; apply vec_eq; [apply casteljau|apply casteljau].
Qed.

(** ** The fields of a Bezier *)

(** [bezier_new] behind an equation, so that no conversion unfolds the table. *)
Lemma bezier_new_eq : forall c1 c2 p2, bezier_new c1 c2 p2 =
  bind (speed_poly c1 c2 p2) (fun dl2 => bind (build_segments dl2 0 1 9)
    (fun segments => Ok (mk_bezier segments c1 c2 p2))).
Proof. intros; reflexivity. Qed.

Lemma bezier_new_fields : forall c1 c2 p2 b, bezier_new c1 c2 p2 = Ok b ->
  b_c1 b = c1 /\ b_c2 b = c2 /\ b_p2 b = p2.
Proof.
  intros c1 c2 p2 b H; rewrite bezier_new_eq in H.
  apply bind_Ok in H as [d [_ H]]; apply bind_Ok in H as [s [_ H]].
  inversion H; subst b; auto.
Qed.

Lemma curve_to_info : forall find fuel p2 c1 c2 cur b,
  bezier_new c1 (vadd (vsub p2 cur) c2) (vsub p2 cur) = Ok b ->
  segment_to_info find fuel (CurveTo p2 c1 c2) cur = Ok (Some (bezier_info find fuel b, p2)).
Proof.
  intros find fuel p2 c1 c2 cur b H; unfold segment_to_info; rewrite H; reflexivity.
Qed.
