(** C65: the printed tables of gauss_quadrature.rs are those of Gauss. *)
From Coq Require Import ZArith QArith Reals Qreals List Sorted Lra Lia Psatz.
From Verif Require Import Base Gauss PropsGauss.
Import ListNotations.
Open Scope R_scope.

(** The Legendre polynomials: [(k + 1) P(k + 1) = (2 k + 1) x P(k) - k P(k - 1)]; a pair of
    neighbours. *)
Fixpoint legendre2 (n : nat) (x : R) : R * R :=
  match n with
  | O => (1, x)
  | S k => let (a, b) := legendre2 k x in (b, ((2 * INR (S k) + 1) * x * b - INR (S k) * a) / (INR (S k) + 1))
  end.
Definition legendre (n : nat) (x : R) : R := fst (legendre2 n x).

(** The digits: ten for two and three points, sixteen for the others. *)
Definition digits_error (n : nat) : R := match n with 2%nat | 3%nat => 5 / 10 ^ 11 | _ => 7 / 10 ^ 17 end.

(** ** Polynomials with rational coefficients *)
Fixpoint qpoly (p : list Q) (x : Q) : Q := match p with [] => 0%Q | c :: r => (c + x * qpoly r x)%Q end.
Definition rpoly (p : list Q) (x : R) : R := poly (map Q2R p) x.

Fixpoint qp_add (p q : list Q) : list Q :=
  match p, q with [], _ => q | _, [] => p | x :: p', y :: q' => Qred (x + y)%Q :: qp_add p' q' end.
Definition qp_scale (c : Q) (p : list Q) : list Q := map (fun x => Qred (c * x)%Q) p.
Definition qp_shift (p : list Q) : list Q := 0%Q :: p.
Fixpoint qp_mul (p q : list Q) : list Q := match p with [] => [] | c :: r => qp_add (qp_scale c q) (qp_shift (qp_mul r q)) end.
Fixpoint qp_der_from (k : Q) (p : list Q) : list Q := match p with [] => [] | c :: r => Qred (k * c)%Q :: qp_der_from (k + 1)%Q r end.
Definition qp_der (p : list Q) : list Q := match p with [] => [] | _ :: r => qp_der_from 1%Q r end.
Fixpoint qabs_sum (p : list Q) : Q := match p with [] => 0%Q | c :: r => Qred (Qabs.Qabs c + qabs_sum r)%Q end.
Fixpoint qlip (p : list Q) : Q := match p with [] => 0%Q | c :: r => Qred (qabs_sum r + qlip r)%Q end.

Lemma Q2R_red : forall q, Q2R (Qred q) = Q2R q.
Proof. intros q. apply Qeq_eqR, Qred_correct. Qed.

Lemma Q2R_0 : Q2R 0 = 0. Proof. unfold Q2R. cbn. lra. Qed.
Lemma Q2R_1 : Q2R 1 = 1. Proof. unfold Q2R. cbn. lra. Qed.

Lemma Q2R_abs : forall q, Q2R (Qabs.Qabs q) = Rabs (Q2R q).
Proof.
  intros q. destruct (Qlt_le_dec q 0) as [L|L].
  - rewrite Qeq_eqR with (1 := Qabs.Qabs_neg q (Qlt_le_weak _ _ L)), Q2R_opp. apply Qlt_Rlt in L. rewrite Q2R_0 in L. rewrite Rabs_left; lra.
  - rewrite Qeq_eqR with (1 := Qabs.Qabs_pos q L). apply Qle_Rle in L. rewrite Q2R_0 in L. rewrite Rabs_pos_eq; lra.
Qed.

Lemma qpoly_R : forall p x, Q2R (qpoly p x) = rpoly p (Q2R x).
Proof.
  unfold rpoly. induction p as [|c r IH]; intros x; cbn [qpoly map poly]; [apply Q2R_0|]. rewrite Q2R_plus, Q2R_mult, IH. reflexivity.
Qed.

Lemma rp_add : forall p q x, rpoly (qp_add p q) x = rpoly p x + rpoly q x.
Proof.
  unfold rpoly. induction p as [|c p IH]; intros [|d q] x; cbn [qp_add map poly]; try lra. rewrite Q2R_red, Q2R_plus, IH. ring.
Qed.

Lemma rp_scale : forall c p x, rpoly (qp_scale c p) x = Q2R c * rpoly p x.
Proof.
  unfold rpoly, qp_scale. intros c. induction p as [|d p IH]; intros x; cbn [map poly]; [lra|]. rewrite Q2R_red, Q2R_mult, IH. ring.
Qed.

Lemma rp_shift : forall p x, rpoly (qp_shift p) x = x * rpoly p x.
Proof. intros p x. unfold rpoly, qp_shift. cbn [map poly]. rewrite Q2R_0. ring. Qed.

Lemma rp_mul : forall p q x, rpoly (qp_mul p q) x = rpoly p x * rpoly q x.
Proof.
  induction p as [|c p IH]; intros q x; cbn [qp_mul]; [unfold rpoly; cbn; ring|]. rewrite rp_add, rp_scale, rp_shift, IH.
  unfold rpoly. cbn [map poly]. ring.
Qed.

Lemma rp_der : forall p x, derivable_pt_lim (rpoly p) x (rpoly (qp_der p) x).
Proof.
  (* the derivative from the exponent [k]: that of [t^k p], without the factor [t^(k-1)] *)
  assert (G : forall p x, exists d, derivable_pt_lim (rpoly p) x d /\ forall k, rpoly (qp_der_from k p) x = Q2R k * rpoly p x + x * d).
  { intros p x. induction p as [|c p (d & D & K)].
    - exists 0. split; [apply (derivable_pt_lim_const 0)|]. intros k. unfold rpoly. cbn. ring.
    - exists (0 + (1 * rpoly p x + x * d)). split.
      + change (rpoly (c :: p)) with (plus_fct (fct_cte (Q2R c)) (mult_fct id (rpoly p))).
        apply derivable_pt_lim_plus; [apply derivable_pt_lim_const|]. apply (derivable_pt_lim_mult id (rpoly p)); [apply derivable_pt_lim_id|exact D].
      + intros k. cbn [qp_der_from]. change (rpoly (?a :: ?b) x) with (Q2R a + x * rpoly b x).
        unfold rpoly at 1 2. cbn [map poly]. fold (rpoly (qp_der_from (k + 1) p) x). fold (rpoly p x).
        rewrite Q2R_red, Q2R_mult, K, Q2R_plus, Q2R_1. ring. }
  intros [|c p] x.
  - apply (derivable_pt_lim_const 0).
  - destruct (G p x) as (d & D & K). cbn [qp_der]. rewrite K, Q2R_1.
    change (rpoly (c :: p)) with (plus_fct (fct_cte (Q2R c)) (mult_fct id (rpoly p))).
    replace (1 * rpoly p x + x * d) with (0 + (1 * rpoly p x + x * d)) by ring.
    apply derivable_pt_lim_plus; [apply derivable_pt_lim_const|]. apply (derivable_pt_lim_mult id (rpoly p)); [apply derivable_pt_lim_id|exact D].
Qed.

Lemma rp_bound : forall p x, Rabs x <= 1 -> Rabs (rpoly p x) <= Q2R (qabs_sum p).
Proof.
  unfold rpoly. intros p x Hx. induction p as [|c p IH]; cbn [map poly qabs_sum]; [rewrite Rabs_R0, Q2R_0; lra|].
  rewrite Q2R_red, Q2R_plus, Q2R_abs. eapply Rle_trans; [apply Rabs_triang|]. apply Rplus_le_compat_l. rewrite Rabs_mult.
  pose proof (Rabs_pos (poly (map Q2R p) x)). pose proof (Rabs_pos x). nra.
Qed.

Lemma qabs_sum_pos : forall p, 0 <= Q2R (qabs_sum p).
Proof. intros p. eapply Rle_trans; [apply Rabs_pos|apply (rp_bound p 0)]. rewrite Rabs_R0. lra. Qed.

Lemma rp_lip : forall p x y, Rabs x <= 1 -> Rabs y <= 1 -> Rabs (rpoly p x - rpoly p y) <= Q2R (qlip p) * Rabs (x - y).
Proof.
  intros p x y Hx Hy. induction p as [|c p IH].
  - unfold rpoly. cbn [map poly qlip]. rewrite Q2R_0, Rminus_0_r, Rabs_R0. lra.
  - change (rpoly (c :: p) x) with (Q2R c + x * rpoly p x). change (rpoly (c :: p) y) with (Q2R c + y * rpoly p y). cbn [qlip].
    rewrite Q2R_red, Q2R_plus. replace (Q2R c + x * rpoly p x - (Q2R c + y * rpoly p y)) with
      (rpoly p x * (x - y) + y * (rpoly p x - rpoly p y)) by ring.
    eapply Rle_trans; [apply Rabs_triang|]. rewrite !Rabs_mult, Rmult_plus_distr_r. apply Rplus_le_compat.
    + apply Rmult_le_compat_r; [apply Rabs_pos|apply rp_bound; exact Hx].
    + pose proof (Rabs_pos (rpoly p x - rpoly p y)). pose proof (Rabs_pos y). nra.
Qed.

(** ** The Legendre polynomials in coefficients *)
Fixpoint qleg2 (n : nat) : list Q * list Q :=
  match n with
  | O => ([1%Q], [0%Q; 1%Q])
  | S k => let (a, b) := qleg2 k in
      let m := inject_Z (Z.of_nat (S k)) in
      (b, qp_scale (/ (m + 1))%Q (qp_add (qp_scale (2 * m + 1)%Q (qp_shift b)) (qp_scale (- m)%Q a)))
  end.
Definition qleg (n : nat) : list Q := fst (qleg2 n).

Lemma Q2R_nat : forall k, Q2R (inject_Z (Z.of_nat k)) = INR k.
Proof. intros k. unfold Q2R, inject_Z. cbn [Qnum Qden]. rewrite INR_IZR_INZ, Rinv_1. ring. Qed.

Lemma qleg_R : forall n x, legendre2 n x = (rpoly (fst (qleg2 n)) x, rpoly (snd (qleg2 n)) x).
Proof.
  induction n as [|k IH]; intros x; cbn [legendre2 qleg2].
  - unfold rpoly. cbn [fst snd map poly]. rewrite Q2R_0, Q2R_1. f_equal; ring.
  - rewrite IH. destruct (qleg2 k) as [a b]. cbn [fst snd]. f_equal.
    rewrite rp_scale, rp_add, !rp_scale, rp_shift.
    assert (P : 0 < INR (S k) + 1) by (pose proof (pos_INR (S k)); lra).
    assert (NZ : ~ (inject_Z (Z.of_nat (S k)) + 1 == 0)%Q).
    { intros E. apply Qeq_eqR in E. rewrite Q2R_plus, Q2R_nat, Q2R_1, Q2R_0 in E. lra. }
    rewrite Q2R_inv by exact NZ. rewrite !Q2R_plus, Q2R_mult, Q2R_opp, Q2R_nat, Q2R_1.
    replace (Q2R 2) with 2 by (unfold Q2R; cbn; lra). field. lra.
Qed.

Lemma legendre_R : forall n x, legendre n x = rpoly (qleg n) x.
Proof. intros n x. unfold legendre, qleg. rewrite qleg_R. reflexivity. Qed.

(** ** Checking a table *)
(** The roots are given as multiples of [1 / den]. *)
Definition half_width (den : positive) : Q := 1 # den.

(** [p]: the polynomial; [d]: (1 - x^2) p'^2; [e]: by how much [d] can change along [half_width]. *)
Definition node_ok (den : positive) (p d : list Q) (e delta w x q : Q) : bool :=
  let a := (q - half_width den)%Q in
  let b := (q + half_width den)%Q in
  let dq := qpoly d q in
  negb (Qle_bool a (-(1))) && negb (Qle_bool 1 b) && Qle_bool (qpoly p a * qpoly p b) 0 &&
  Qle_bool (b - x) delta && Qle_bool (x - a) delta &&
  negb (Qle_bool (dq - e) 0) && Qle_bool ((w - delta) * (dq + e)) 2 && Qle_bool 2 ((w + delta) * (dq - e)) && negb (Qle_bool (w - delta) 0).

Definition weight_poly (p : list Q) : list Q := qp_mul [1; 0; -(1)]%Q (qp_mul (qp_der p) (qp_der p)).
Definition weight_change (den : positive) (d : list Q) : Q := (qlip d * half_width den)%Q.

Lemma lt_of_bool : forall a b, negb (Qle_bool b a) = true -> Q2R a < Q2R b.
Proof. intros a b H. apply Bool.negb_true_iff, Qle_bool_false, Qlt_Rlt in H. exact H. Qed.
Lemma le_of_bool : forall a b, Qle_bool a b = true -> Q2R a <= Q2R b.
Proof. intros a b H. apply Qle_bool_iff, Qle_Rle in H. exact H. Qed.

Definition is_node (n : nat) (delta : R) (w x r : R) : Prop :=
  -1 < r < 1 /\ legendre n r = 0 /\ Rabs (x - r) <= delta /\
  exists d, derivable_pt_lim (legendre n) r d /\ Rabs (w - 2 / ((1 - r * r) * (d * d))) <= delta.

Lemma node_sound : forall den n delta w x q,
  node_ok den (qleg n) (weight_poly (qleg n)) (weight_change den (weight_poly (qleg n))) delta w x q = true ->
  exists r, is_node n (Q2R delta) (Q2R w) (Q2R x) r /\ Rabs (r - Q2R q) <= Q2R (half_width den).
Proof.
  intros den n delta w x q H. unfold node_ok, weight_change, weight_poly in H. cbv zeta in H.
  repeat match type of H with (_ && _)%bool = true => apply andb_prop in H; let H' := fresh "B" in destruct H as [H H'] end.
  apply lt_of_bool in H, B6, B2, B. apply le_of_bool in B5, B4, B3, B1, B0.
  set (d := qp_mul [1; 0; -(1)]%Q (qp_mul (qp_der (qleg n)) (qp_der (qleg n)))) in *.
  rewrite ?Q2R_minus, ?Q2R_plus, ?Q2R_mult, ?Q2R_minus, ?Q2R_plus, ?qpoly_R, ?Q2R_minus, ?Q2R_plus, ?Q2R_mult, ?Q2R_0, ?Q2R_1, ?Q2R_opp, ?Q2R_1 in *.
  set (h := Q2R (half_width den)) in *. set (a := Q2R q - h) in *. set (b := Q2R q + h) in *.
  assert (HP : 0 < h).
  { unfold h, half_width, Q2R. cbn [Qnum Qden]. rewrite Rmult_1_l. apply Rinv_0_lt_compat. apply IZR_lt. reflexivity. }
  assert (CONT : continuity (rpoly (qleg n))).
  { intros t. apply derivable_continuous_pt. exists (rpoly (qp_der (qleg n)) t). apply rp_der. }
  destruct (IVT_cor (rpoly (qleg n)) a b CONT ltac:(unfold a, b; lra) B5) as (r & [R1 R2] & RZ).
  exists r. assert (RQ : Rabs (r - Q2R q) <= h) by (apply Rabs_le; unfold a, b in *; lra).
  split; [|exact RQ]. split; [lra|]. split; [rewrite legendre_R; exact RZ|]. split; [apply Rabs_le; lra|].
  exists (rpoly (qp_der (qleg n)) r). split.
  { intros eps E. destruct (rp_der (qleg n) r eps E) as (dl & D). exists dl. intros k K0 KD. rewrite !legendre_R. apply D; assumption. }
  set (dr := rpoly (qp_der (qleg n)) r).
  assert (DR : (1 - r * r) * (dr * dr) = rpoly d r).
  { unfold d. rewrite !rp_mul. fold dr. f_equal. unfold rpoly. cbn [map poly]. rewrite Q2R_opp, Q2R_1, Q2R_0. ring. }
  assert (L : Rabs (rpoly d r - rpoly d (Q2R q)) <= Q2R (qlip d) * h).
  { eapply Rle_trans; [apply rp_lip; apply Rabs_le; unfold a, b in *; lra|]. apply Rmult_le_compat_l; [|exact RQ].
    clear. generalize d. intros p. destruct p as [|c p]; cbn [qlip]; [rewrite Q2R_0; lra|]. rewrite Q2R_red, Q2R_plus.
    assert (G : forall p, 0 <= Q2R (qlip p)).
    { induction p0 as [|c0 p0 IH]; cbn [qlip]; [rewrite Q2R_0; lra|]. rewrite Q2R_red, Q2R_plus. pose proof (qabs_sum_pos p0). lra. }
    pose proof (qabs_sum_pos p). pose proof (G p). lra. }
  rewrite DR. set (v := rpoly d r) in *. set (e := Q2R (qlip d) * h) in *. set (vq := rpoly d (Q2R q)) in *.
  assert (L' : vq - e <= v <= vq + e) by (revert L; unfold Rabs; destruct (Rcase_abs (v - vq)); lra).
  assert (V0 : 0 < v) by lra. replace (Q2R 2) with 2 in * by (unfold Q2R; cbn; lra).
  assert (D0 : 0 <= Q2R delta) by (unfold a, b in *; lra).
  assert (U1 : (Q2R w - Q2R delta) * v <= 2).
  { eapply Rle_trans; [|exact B1]. apply Rmult_le_compat_l; lra. }
  assert (U2 : 2 <= (Q2R w + Q2R delta) * v).
  { eapply Rle_trans; [exact B0|]. apply Rmult_le_compat_l; lra. }
  assert (W : 2 / v * v = 2) by (field; lra). set (g := 2 / v) in *.
  apply Rabs_le. split; apply Rnot_lt_le; intros C.
  - assert ((Q2R w + Q2R delta) * v < g * v) by (apply Rmult_lt_compat_r; lra). lra.
  - assert (g * v < (Q2R w - Q2R delta) * v) by (apply Rmult_lt_compat_r; lra). lra.
Qed.

(** The roots as multiples of 2^-100. *)
Definition roots_100 : list (list Z) :=
  [[-731878415280158920546589930072; 731878415280158920546589930072];
   [-981917932698753682011848902297; 0; 981917932698753682011848902297];
   [-1091619962270524328416370041653; -430977173966562865088454443229; 430977173966562865088454443229; 1091619962270524328416370041653];
   [-1148719425618871857555263390794; -682590944159949762131801328078; 0; 682590944159949762131801328078; 1148719425618871857555263390794];
   [-1182045539374151149087987729175; -838182475630499513038779271810; -302485754464336125168999167003; 302485754464336125168999167003; 838182475630499513038779271810; 1182045539374151149087987729175];
   [-1203137214762659580060512295746; -940002452513022940010582633915; -514469849743274141066662030151; 0; 514469849743274141066662030151; 940002452513022940010582633915; 1203137214762659580060512295746];
   [-1217312012982182081827192647124; -1009894738275093097951875955467; -666191474869822336051572253435; -232531034662261151291953770540; 232531034662261151291953770540; 666191474869822336051572253435; 1009894738275093097951875955467; 1217312012982182081827192647124]]%Z.

Definition digits_q (n : nat) : Q := match n with 2%nat | 3%nat => 5 # 10 ^ 11 | _ => 7 # 10 ^ 17 end.

Lemma digits_q_R : forall n, Q2R (digits_q n) = digits_error n.
Proof. intros [|[|[|[|n]]]]; unfold digits_q, digits_error, Q2R; cbn [Qnum Qden]; rewrite pow_IZR; reflexivity. Qed.

Fixpoint nodes_ok (den : positive) (p d : list Q) (e delta : Q) (ws xs : list Q) (qs : list Z) : bool :=
  match ws, xs, qs with
  | [], [], [] => true
  | w :: ws, x :: xs, q :: qs => node_ok den p d e delta w x (q # den) && nodes_ok den p d e delta ws xs qs
  | _, _, _ => false
  end.
Definition table_ok (den : positive) (n : nat) (delta : Q) (ws xs : list Q) (qs : list Z) : bool :=
  nodes_ok den (qleg n) (weight_poly (qleg n)) (weight_change den (weight_poly (qleg n))) delta ws xs qs.

Fixpoint ascending (qs : list Z) : bool :=
  match qs with p :: (q :: _) as r => (p + 2 <? q)%Z && ascending r | _ => true end.

Lemma nodes_sound : forall den n delta ws xs qs, table_ok den n delta ws xs qs = true -> ascending qs = true ->
  exists rs, StronglySorted Rlt rs /\ length ws = length rs /\ length xs = length rs /\
    forall k w x r, nth_error ws k = Some w -> nth_error xs k = Some x -> nth_error rs k = Some r -> is_node n (Q2R delta) (Q2R w) (Q2R x) r.
Proof.
  intros den n delta ws xs qs H A. unfold table_ok in H.
  assert (G : exists rs, Forall2 (fun r q => Rabs (r - Q2R (q # den)) <= Q2R (half_width den)) rs qs /\ length ws = length rs /\ length xs = length rs /\
    forall k w x r, nth_error ws k = Some w -> nth_error xs k = Some x -> nth_error rs k = Some r -> is_node n (Q2R delta) (Q2R w) (Q2R x) r).
  { clear A. revert ws xs H. induction qs as [|q qs IH]; intros [|w ws] [|x xs] H; try discriminate H.
    - exists []. split; [constructor|]. split; [reflexivity|]. split; [reflexivity|]. intros [|k] ? ? ? E; discriminate E.
    - cbn [nodes_ok] in H. apply andb_prop in H. destruct H as [H1 H2]. destruct (IH _ _ H2) as (rs & F & L1 & L2 & K).
      destruct (node_sound _ _ _ _ _ _ H1) as (r & N & Q). exists (r :: rs). split; [constructor; assumption|].
      split; [cbn; lia|]. split; [cbn; lia|]. intros [|k] w' x' r' E1 E2 E3; cbn in E1, E2, E3.
      + injection E1 as <-. injection E2 as <-. injection E3 as <-. exact N.
      + exact (K k w' x' r' E1 E2 E3). }
  destruct G as (rs & F & L1 & L2 & K). exists rs. split; [|auto]. clear - F A.
  assert (S : Sorted Rlt rs).
  { induction F as [|r q rs qs N F IH]; constructor.
    - apply IH. cbn [ascending] in A. destruct qs; [reflexivity|]. apply andb_prop in A. apply A.
    - destruct F as [|r' q' rs qs N' F]; constructor. cbn [ascending] in A. apply andb_prop in A. destruct A as [A _]. apply Z.ltb_lt in A.
      unfold half_width, Q2R in N, N'. cbn [Qnum Qden] in N, N'. rewrite Rmult_1_l in *.
      assert (P : 0 < / IZR (Z.pos den)) by (apply Rinv_0_lt_compat, IZR_lt; reflexivity).
      set (u := / IZR (Z.pos den)) in *. clearbody u. assert (A' : IZR q + 2 + 1 <= IZR q') by (rewrite <- !plus_IZR; apply IZR_le; lia).
      assert (IZR q * u + 3 * u <= IZR q' * u) by (rewrite <- Rmult_plus_distr_r; apply Rmult_le_compat_r; lra).
      revert N N'. unfold Rabs. destruct (Rcase_abs (r - IZR q * u)), (Rcase_abs (r' - IZR q' * u)); lra. }
  apply Sorted_StronglySorted; [|exact S]. intros x y z. lra.
Qed.

(** The [n] abscissas and weights printed in the program are, in order and to the precision
    given, [n] different roots of the Legendre polynomial (hence all of them) and the weights
    that belong to them. *)
Theorem C65_nodes : forall n ws xs, (2 <= n)%nat -> nth_error weights_n (n - 2) = Some ws -> nth_error abscissas_n (n - 2) = Some xs ->
  exists rs, StronglySorted Rlt rs /\ length rs = n /\ length ws = n /\ length xs = n /\
    forall k w x r, nth_error ws k = Some w -> nth_error xs k = Some x -> nth_error rs k = Some r ->
      -1 < r < 1 /\ legendre n r = 0 /\ Rabs (Q2R x - r) <= digits_error n /\
      exists d, derivable_pt_lim (legendre n) r d /\ Rabs (Q2R w - 2 / ((1 - r * r) * (d * d))) <= digits_error n.
Proof.
  intros n ws xs Hn HW HX.
  assert (B : exists qs, table_ok (2 ^ 100) n (digits_q n) ws xs qs = true /\ ascending qs = true /\ length qs = n).
  { destruct n as [|[|n]]; [lia|lia|]. cbn [Nat.sub] in HW, HX. rewrite Nat.sub_0_r in HW, HX.
    exists (nth n roots_100 []).
    do 7 (destruct n as [|n]; [cbn in HW, HX; injection HW as <-; injection HX as <-; split; [vm_compute; reflexivity|split; reflexivity]|]).
    destruct n; discriminate HW. }
  destruct B as (qs & B1 & B2 & B3). destruct (nodes_sound _ _ _ _ _ _ B1 B2) as (rs & S & L1 & L2 & K).
  assert (L : length ws = length qs).
  { clear - B1. revert B1. unfold table_ok. generalize (2 ^ 100)%positive. intros den. generalize (weight_change den (weight_poly (qleg n))), (weight_poly (qleg n)), (qleg n).
    intros e d p B1. revert ws xs B1. induction qs as [|q qs IH]; intros [|w ws] [|x xs] B1; try discriminate B1; [reflexivity|].
    cbn [nodes_ok] in B1. apply andb_prop in B1. cbn [length]. rewrite (IH ws xs); [reflexivity|apply B1]. }
  exists rs. split; [exact S|]. split; [lia|]. split; [lia|]. split; [lia|].
  intros k w x r E1 E2 E3. specialize (K k w x r E1 E2 E3). rewrite digits_q_R in K. exact K.
Qed.

Example C65_nodes_example : nth_error weights_n (5 - 2) = Some weights_5 /\ nth_error abscissas_n (5 - 2) = Some abscissas_5.
Proof. split; reflexivity. Qed.

Print Assumptions C65_nodes.
