(** Property theorems about src/curves/sqrt_poly.rs: C63, C64, C68, C69, C70. *)
From Coq Require Import Reals ZArith List Lia Lra.
From Verif Require Import Base Polynomials PolyProofs TaylorProofs TableProofs.
Import ListNotations.
Open Scope R_scope.

(** The value of a coefficient list, independently of Horner's rule. *)
Definition poly_fun (p : list R) (t : R) : R :=
  fold_right Rplus 0 (mapi_from (fun i a => a * t ^ i) 0 p).

Lemma poly_fun_from : forall p k t,
  fold_right Rplus 0 (mapi_from (fun i a => a * t ^ i) k p) = t ^ k * polyval p t.
Proof.
  induction p as [|a p IH]; intros k t; cbn [mapi_from fold_right polyval]; [ring|].
  rewrite IH; cbn [pow]; ring.
Qed.

(** C63: polyval evaluates the polynomial. *)
Theorem C63_polyval : forall p t, polyval p t = poly_fun p t.
Proof. intros p t; unfold poly_fun; rewrite poly_fun_from; cbn; ring. Qed.

Theorem C63_polymul : forall a b, a <> [] -> b <> [] ->
  exists m, polymul a b = Ok m /\ length m = (length a + length b - 1)%nat /\
    forall t, poly_fun m t = poly_fun a t * poly_fun b t.
Proof.
  intros a b Na Nb.
  destruct (polymul_spec a b) as [m [E [L V]]]; [destruct b; [congruence|cbn; lia]|].
  exists m; split; [exact E|]; split; [exact L|].
  intro t; rewrite <- !C63_polyval; auto.
Qed.

Theorem C63_polyadd : forall a b t, poly_fun (polyadd a b) t = poly_fun a t + poly_fun b t.
Proof. intros; rewrite <- !C63_polyval; apply polyadd_val. Qed.

(** The binomials are 16 bit: exactly the lists of at most 19 coefficients are
    accepted. *)
Theorem C63_polyoffset : forall p c,
  ((length p <= 19)%nat ->
   exists q, polyoffset p c = Ok q /\ length q = length p /\
     forall t, poly_fun q t = poly_fun p (t + c)) /\
  ((19 < length p)%nat -> polyoffset p c = Panic).
Proof.
  intros p c; split; intro H.
  - destruct (offset_loop_fit p [] c (repeat 0 (length p))) as [q E];
      [apply rows_fit_19; auto|].
    exists q; destruct (polyoffset_spec p c q E) as [L V].
    split; [exact E|]; split; [exact L|]; intro t; rewrite <- !C63_polyval; auto.
  - apply offset_loop_unfit, rows_unfit_20; lia.
Qed.

Theorem C63_polyder : forall p, p <> [] ->
  exists d, polyder p = Ok d /\ S (length d) = length p /\
    forall t, derivable_pt_lim (poly_fun p) t (poly_fun d t).
Proof.
  intros p N; exists (der p); split; [apply polyder_Ok; auto|]; split.
  - rewrite der_length; destruct p; [congruence|cbn; lia].
  - intro t; rewrite <- C63_polyval.
    intros eps E; destruct (der_lim p t eps E) as [d D]; exists d; intros h h0 hd.
    rewrite <- !C63_polyval; auto.
Qed.

Theorem C63_polyint : forall p, poly_fun (polyint p) 0 = 0 /\
  forall t, derivable_pt_lim (poly_fun (polyint p)) t (poly_fun p t).
Proof.
  intros p; split; [rewrite <- C63_polyval; apply polyint_0|].
  intro t; rewrite <- C63_polyval.
  intros eps E; destruct (polyint_lim p t eps E) as [d D]; exists d; intros h h0 hd.
  rewrite <- !C63_polyval; auto.
Qed.

(** polyweight passes from its first argument at [ta] to its second at [tb]. *)
Theorem C63_polyweight : forall a ta b tb, a <> [] -> b <> [] -> ta <> tb ->
  exists w, polyweight a ta b tb = Ok w /\
    poly_fun w ta = poly_fun a ta /\ poly_fun w tb = poly_fun b tb /\
    forall l, poly_fun w (ta + l * (tb - ta)) =
      (1 - l) * poly_fun a (ta + l * (tb - ta)) + l * poly_fun b (ta + l * (tb - ta)).
Proof.
  intros a ta b tb Na Nb D.
  destruct (polyweight_spec a ta b tb Na Nb D) as [w [E [_ [_ V]]]].
  exists w; split; [exact E|]; rewrite <- !C63_polyval; split; [|split].
  - rewrite V; field; lra.
  - rewrite V; field; lra.
  - intro l; rewrite <- !C63_polyval, V; field; lra.
Qed.

Example C63_example :
  polyoffset [1; 2; 3] 1 = Ok [0 + 1 * 1 * 1 + 2 * 1 * (1 * 1) + 3 * 1 * (1 * 1 * 1);
                               0 + 2 * 1 * 1 + 3 * 2 * (1 * 1); 0 + 3 * 1 * 1] /\
  polymul [1; 2] [3; 4] = Ok [0 + 1 * 3; 0 + 2 * 3 + 1 * 4; 0 + 2 * 4].
Proof. split; cbn; reflexivity. Qed.

(** ** C68: taylor_sequence gives the Taylor coefficients of the square root *)

(** [G] is the square root and its derivatives of every order wherever the
    polynomial is positive; coefficient [k] is the [k]-th derivative at [t0]
    over [k!]. *)
Theorem C68_taylor_coefficients : forall p t0 n,
  (2 <= length p)%nat -> (1 <= n)%nat -> 0 < poly_fun p t0 ->
  exists (G : nat -> R -> R) l,
    (forall u, 0 < poly_fun p u -> G 0%nat u = sqrt (poly_fun p u)) /\
    (forall k u, 0 < poly_fun p u -> derivable_pt_lim (G k) u (G (S k) u)) /\
    taylor_sequence p t0 n = Ok l /\ length l = n /\
    forall k, (k < n)%nat -> nth_error l k = Some (G k t0 / INR (fact k)).
Proof.
  intros p t0 n L N P; rewrite <- C63_polyval in P.
  set (d := dsp_new p t0).
  exists (fun k u => terms_at p (terms_iter d k) u).
  exists (map (fun k => terms_at p (terms_iter d k) t0 / INR (fact k)) (seq 0 n)).
  split; [|split; [|split; [|split]]].
  - intros u Hu; rewrite <- C63_polyval in *; apply terms_iter_0; auto.
  - intros k u Hu; rewrite <- C63_polyval in *.
    destruct (terms_iter_spec p t0 k L) as [_ [_ D]]; apply D; auto.
  - apply taylor_spec; auto.
  - rewrite map_length, seq_length; reflexivity.
  - intros k Hk.
    rewrite (map_nth_error _ k (seq 0 n) (d := k)); [reflexivity|].
    rewrite (nth_error_nth' _ 0%nat) by (rewrite seq_length; lia).
    rewrite seq_nth by lia; reflexivity.
Qed.

(** A constant given as a single coefficient makes it panic. *)
Theorem C68_constant_panics : forall c t0 n, (3 <= n)%nat -> taylor_sequence [c] t0 n = Panic.
Proof.
  intros c t0 n N; destruct n as [|[|[|n]]]; try lia; reflexivity.
Qed.

Example C68_example : (2 <= length [1; 0; 3])%nat /\ 0 < poly_fun [1; 0; 3] (1 / 2).
Proof. split; [cbn; lia|rewrite <- C63_polyval; cbn; lra]. Qed.

(** ** C64: arc length tables are continuous *)

(** Number of pieces, end points, start value; at every knot both neighbours
    agree in value and slope.  For [low = 0] (the only use) the slope at every
    inner knot is the exact speed. *)
Theorem C64_table : forall p low high n,
  (2 <= length p)%nat -> low < high ->
  exists segs, build_segments p low high n = Ok segs /\
    length segs = (n + 3)%nat /\
    (exists s, nth_error segs 0 = Some s /\ seg_start s = low /\ poly_fun (seg_int s) 0 = 0) /\
    (exists s, nth_error segs (n + 2) = Some s /\ seg_start s = high) /\
    forall k s1 s2, nth_error segs k = Some s1 -> nth_error segs (S k) = Some s2 ->
      seg_start s1 < seg_start s2 /\
      poly_fun (seg_int s1) (seg_start s2 - seg_start s1) = poly_fun (seg_int s2) 0 /\
      exists d, derivable_pt_lim (polyval (seg_int s1)) (seg_start s2 - seg_start s1) d /\
        derivable_pt_lim (polyval (seg_int s2)) 0 d /\
        (low = 0 -> seg_start s2 < high -> d = sqrt (poly_fun p (seg_start s2))).
Proof.
  intros p low high n L LH.
  destruct (build_segments_spec p low high n L LH)
    as [segs [s0 [mid [sl [E [ES [LM [S0 [SL [_ [V0 K]]]]]]]]]]].
  exists segs; split; [exact E|]; split; [|split; [|split]].
  - subst segs; cbn; rewrite app_length; cbn; lia.
  - exists s0; subst segs; split; [reflexivity|]; split; [auto|].
    rewrite <- C63_polyval; auto.
  - exists sl; subst segs; split; auto.
    replace (n + 2)%nat with (S (length mid)) by lia; cbn [nth_error].
    apply nth_last_split.
  - intros k s1 s2 H1 H2.
    destruct (K s1 s2) as [A [B [d [D1 [D2 D3]]]]]; [exists k; auto|].
    rewrite <- !C63_polyval.
    split; [auto|]; split; [auto|]; exists d; split; [auto|]; split; [auto|].
    intros Z1 Z2; apply D3; auto.
Qed.

(** eval_int: whatever admissible search result is used, the value between two
    knots is that of the polynomial of this piece (so at a knot both pieces
    give it), 0 at the start. *)
Lemma built_is_table : forall p low high n segs,
  (2 <= length p)%nat -> low < high -> build_segments p low high n = Ok segs ->
  is_table segs.
Proof.
  intros p low high n segs L LH E.
  destruct (build_segments_spec p low high n L LH)
    as [segs' [s0 [mid [sl [E' [ES [LM [S0 [SL [NL [V0 K]]]]]]]]]]].
  assert (ESS : segs' = segs) by congruence; subst segs'; clear E'.
  rewrite ESS in K.
  split.
  - intros s I.
    destruct (In_nth_error _ _ I) as [k Hk].
    destruct (nth_error segs (S k)) as [s2|] eqn:H2.
    + intro Z.
      (* a piece of the table is never empty: the construction sets int[0] *)
      clear - E Z I L LH.
      unfold build_segments in E.
      set (step := (high - low) / INR (n + 1)) in *.
      assert (SP : 0 < step) by (apply step_pos; auto).
      apply bind_Ok in E as [pv [E1 E]]; apply bind_Ok in E as [of [E2 E]].
      apply bind_Ok in E as [i1 [E3 E]]; apply bind_Ok in E as [[[sg sm] ls] [E4 E]].
      apply bind_Ok in E as [i2 [E5 E]]; apply bind_Ok in E as [o3 [E6 E]].
      apply bind_Ok in E as [i3 [E7 E]].
      destruct (taylor_length p _ pv L E1) as [LP _].
      destruct (build_loop_walk p low step n 1 pv (0 + polyval (polyint of) (step / 2)) L SP LP
        ltac:(lia)) as [sg' [sm' [ls' [E8 [_ [_ [_ [_ W]]]]]]]].
      rewrite E4 in E8; inversion E8; subst sg' sm' ls'.
      inversion E as [H].
      rewrite <- H in I; cbn [In] in I.
      destruct I as [I|I]; [subst s; cbn in Z, E3; destruct i1; inversion E3; congruence|].
      apply in_app_or in I as [I|[I|[I|[]]]].
      * eapply walk_full in W; eauto.
      * subst s; cbn in Z, E5; destruct i2; inversion E5; congruence.
      * subst s; cbn in Z, E7; destruct i3; inversion E7; congruence.
    + apply nth_error_None in H2.
      assert (k < length segs)%nat by (apply nth_error_Some; congruence).
      assert (EK : k = S (length mid)) by (subst segs; cbn in *; rewrite app_length in *; cbn in *; lia).
      subst k; subst segs; cbn [nth_error] in Hk.
      rewrite nth_last_split in Hk; inversion Hk; subst; exact NL.
  - intros s1 s2 N; destruct (K s1 s2 N) as [A [B _]]; split; auto.
Qed.

Theorem C64_eval_int : forall p low high n segs k s1 s2 t r,
  (2 <= length p)%nat -> low < high -> build_segments p low high n = Ok segs ->
  nth_error segs k = Some s1 -> nth_error segs (S k) = Some s2 ->
  seg_start s1 <= t <= seg_start s2 ->
  search_ok seg_start segs t r ->
  eval_int r segs t = Ok (poly_fun (seg_int s1) (t - seg_start s1)).
Proof.
  intros p low high n segs k s1 s2 t r L LH E H1 H2 B S; rewrite <- C63_polyval.
  apply (eval_int_between segs s1 s2); auto.
  - eapply built_is_table; eauto.
  - exists k; auto.
Qed.

(** Every parameter of the interval lies in a piece and a search result
    exists, so the previous theorem is not vacuous. *)
Lemma table_covers : forall segs k s0 t, is_table segs ->
  nth_error segs k = Some s0 ->
  seg_start s0 <= t -> (exists sl, nth_error segs (length segs - 1) = Some sl /\ t <= seg_start sl) ->
  (2 <= length segs)%nat ->
  exists j s1 s2, nth_error segs j = Some s1 /\ nth_error segs (S j) = Some s2 /\
    seg_start s1 <= t <= seg_start s2.
Proof.
  intros segs k s0 t T H0 B0 [sl [HL BL]] L2.
  assert (LK : (k < length segs)%nat) by (apply nth_error_Some; congruence).
  remember (length segs - 1 - k)%nat as m eqn:Em; revert k s0 H0 B0 LK Em.
  induction m as [|m IH]; intros k s0 H0 B0 LK Em.
  - assert (k = length segs - 1)%nat by lia; subst k.
    rewrite HL in H0; inversion H0; subst s0.
    destruct (nth_error segs (length segs - 2)) as [a|] eqn:Ha;
      [|apply nth_error_None in Ha; lia].
    exists (length segs - 2)%nat, a, sl.
    replace (S (length segs - 2)) with (length segs - 1)%nat by lia.
    assert (seg_start a < seg_start sl)
      by (apply (starts_mono segs T (length segs - 1) (length segs - 2)); auto; lia).
    repeat split; auto; lra.
  - destruct (nth_error segs (S k)) as [b|] eqn:Hb; [|apply nth_error_None in Hb; lia].
    destruct (Rle_lt_dec t (seg_start b)) as [C|C].
    + exists k, s0, b; repeat split; auto; lra.
    + apply (IH (S k) b); auto; try lra; lia.
Qed.

Theorem C64_covers : forall p low high n segs t,
  (2 <= length p)%nat -> low < high -> build_segments p low high n = Ok segs ->
  low <= t <= high ->
  exists k s1 s2, nth_error segs k = Some s1 /\ nth_error segs (S k) = Some s2 /\
    seg_start s1 <= t <= seg_start s2 /\
    exists r, search_ok seg_start segs t r.
Proof.
  intros p low high n segs t L LH E B.
  assert (T := built_is_table p low high n segs L LH E).
  destruct (C64_table p low high n L LH)
    as [segs' [E' [LS [[s0 [H0 [S0 _]]] [[sl [HL SL]] _]]]]].
  assert (ESS : segs' = segs) by congruence; subst segs'; clear E'.
  destruct (table_covers segs 0 s0 t T H0) as [j [s1 [s2 [J1 [J2 J3]]]]]; try lra.
  - exists sl; replace (length segs - 1)%nat with (n + 2)%nat by lia; split; auto; lra.
  - lia.
  - exists j, s1, s2; repeat split; auto; try lra.
    destruct (Req_dec t (seg_start s1)) as [E1|N1];
      [exists (Found j), s1; split; auto|].
    destruct (Req_dec t (seg_start s2)) as [E2|N2];
      [exists (Found (S j)), s2; split; auto|].
    exists (Insert (S j)); cbn; repeat split.
    + assert (S j < length segs)%nat by (apply nth_error_Some; congruence); lia.
    + intros k a Ek Ha; inversion Ek; subst k; rewrite J1 in Ha; inversion Ha; subst; lra.
    + intros a Ha; cbn in J2; rewrite J2 in Ha; inversion Ha; subst; lra.
Qed.

Example C64_example : (2 <= length [1; 0; 3; 0; 5])%nat /\ 0 < 1.
Proof. split; [cbn; lia|lra]. Qed.

(** ** C69: find_param inverts the table *)

(** For a length between 0 and the last table value, the parameter found is
    either a knot with exactly this value or the table passes the wanted value
    within EPSILON after it; the bisection ends in at most 52 rounds on the
    unit interval. *)
Theorem C69_find_param : forall p n segs l r fuel,
  (2 <= length p)%nat -> build_segments p 0 1 n = Ok segs ->
  0 <= l -> (exists s, nth_error segs (n + 2) = Some s /\ l <= poly_fun (seg_int s) 0) ->
  search_ok (fun s => poly_fun (seg_int s) 0) segs l r ->
  (52 <= fuel)%nat ->
  exists t, find_param fuel r segs l = Ok t /\ 0 <= t <= 1 /\
    exists t', t <= t' <= t + f64_epsilon /\ t' <= 1 /\
    forall r1 r2, search_ok seg_start segs t r1 -> search_ok seg_start segs t' r2 ->
      exists v1 v2, eval_int r1 segs t = Ok v1 /\ eval_int r2 segs t' = Ok v2 /\
        v1 <= l <= v2.
Proof.
  intros p n segs l r fuel L E L0 [sl [HL FL]] S FU.
  assert (T := built_is_table p 0 1 n segs L ltac:(lra) E).
  destruct (C64_table p 0 1 n L ltac:(lra))
    as [segs' [E' [LS [[s0 [H0 [S0 V0]]] [[sl' [HL' SL]] _]]]]].
  assert (ESS : segs' = segs) by congruence; subst segs'; clear E'.
  rewrite HL in HL'; inversion HL'; subst sl'; clear HL'.
  assert (M := starts_mono segs T).
  assert (B : forall k s, nth_error segs k = Some s -> 0 <= seg_start s <= 1).
  { intros k s H; split.
    - destruct k as [|k]; [rewrite H0 in H; inversion H; subst; lra|].
      assert (Q := M (Datatypes.S k) 0%nat s0 s H0 H ltac:(lia)); lra.
    - assert (k < length segs)%nat by (apply nth_error_Some; congruence).
      destruct (Nat.eq_dec k (n + 2)) as [->|Nk]; [rewrite HL in H; inversion H; subst; lra|].
      assert (Q := M (n + 2)%nat k s sl H HL ltac:(lia)); lra. }
  assert (FUEL : 1 <= 2 ^ fuel * f64_epsilon).
  { unfold f64_epsilon.
    replace fuel with (52 + (fuel - 52))%nat by lia.
    rewrite pow_add, Rmult_comm, <- Rmult_assoc, Rinv_l, Rmult_1_l.
    - apply pow_R1_Rle; lra.
    - apply pow_nonzero; lra. }
  assert (EPS := eps_pos).
  destruct (find_param_spec segs l r fuel T) as [t [ET C]].
  - destruct r; cbn [search_ok] in *; unfold first_of; [|split; [|split]].
    + destruct S as [a [A1 A2]]; exists a; rewrite C63_polyval; auto.
    + apply S.
    + intros k a H1 H2; rewrite C63_polyval; apply (proj1 (proj2 S) k); auto.
    + intros a H1; rewrite C63_polyval; apply (proj2 (proj2 S)); auto.
  - intros s H; rewrite H0 in H; inversion H; subst s; unfold first_of.
    rewrite C63_polyval, V0; lra.
  - exists sl; replace (length segs - 1)%nat with (n + 2)%nat by lia.
    unfold first_of; rewrite C63_polyval; auto.
  - intros s1 s2 [k [K1 K2]]; assert (B1 := B _ _ K1); assert (B2 := B _ _ K2); lra.
  - exists t; split; [exact ET|].
    destruct C as [[s [I [Et Fs]]]|[s1 [s2 [t' [N [C1 [C2 [C3 [C4 [C5 C6]]]]]]]]]].
    + destruct (In_nth_error _ _ I) as [k Hk].
      assert (Bk := B k s Hk); subst t; split; [lra|].
      exists (seg_start s); split; [lra|]; split; [lra|].
      assert (V : forall r0, search_ok seg_start segs (seg_start s) r0 ->
                  eval_int r0 segs (seg_start s) = Ok l).
      { intros r0 S1.
        destruct (table_covers segs 0 s0 (seg_start s) T H0) as [j [a [b [J1 [J2 J3]]]]].
        - lra.
        - exists sl; replace (length segs - 1)%nat with (n + 2)%nat by lia; split; [auto|lra].
        - lia.
        - rewrite (eval_int_between segs a b); auto; [|exists j; auto].
          destruct (Nat.lt_trichotomy k j) as [Q|[Q|Q]].
          + assert (X := M j k s a Hk J1 Q); lra.
          + subst j; rewrite Hk in J1; inversion J1; subst a.
            f_equal; rewrite <- Fs; unfold first_of; f_equal; lra.
          + destruct (Nat.eq_dec k (Datatypes.S j)) as [->|Q2].
            * rewrite Hk in J2; inversion J2; subst b.
              destruct (proj2 T a s) as [_ J]; [exists j; auto|].
              rewrite J; f_equal; exact Fs.
            * assert (X := M k (Datatypes.S j) b s J2 Hk ltac:(lia)); lra. }
      intros r1 r2 S1 S2; exists l, l; split; [apply V; auto|]; split; [apply V; auto|lra].
    + assert (B1 : 0 <= seg_start s1) by (destruct N as [k [K1 K2]]; apply (B _ _ K1)).
      assert (B2 : seg_start s2 <= 1) by (destruct N as [k [K1 K2]]; apply (B _ _ K2)).
      split; [lra|].
      exists t'; split; [lra|]; split; [lra|].
      intros r1 r2 S1 S2.
      exists (polyval (seg_int s1) (t - seg_start s1)), (polyval (seg_int s1) (t' - seg_start s1)).
      rewrite (eval_int_between segs s1 s2 t r1), (eval_int_between segs s1 s2 t' r2); auto; try lra.
      repeat split; auto; lra.
Qed.

(** ** C70: tables are exact when the speed is a polynomial *)

(** If the squared speed is the square of a polynomial [q] of degree at most 6
    that is positive on the interval (a straight line drawn forwards, or any
    curve with Pythagorean hodograph), the table is the exact length. *)
Theorem C70_exact_table : forall p q high n segs,
  (2 <= length p)%nat -> (length q <= 7)%nat -> 0 < high ->
  (forall u, poly_fun p u = poly_fun q u ^ 2) ->
  (forall u, 0 <= u <= high -> 0 < poly_fun q u) ->
  build_segments p 0 high n = Ok segs ->
  forall len, (forall u, derivable_pt_lim len u (poly_fun q u)) -> len 0 = 0 ->
  forall t r, 0 <= t <= high -> search_ok seg_start segs t r ->
    eval_int r segs t = Ok (len t).
Proof.
  intros p q high n segs L Lq H0 SQ PQ E len DL L0 t r Bt S.
  assert (EL : forall x, len x = polyval (polyint q) x).
  { intro x.
    assert (C := poly_const (fun y => len y - polyval (polyint q) y)); cbv beta in C.
    assert (Z : len x - polyval (polyint q) x = len 0 - polyval (polyint q) 0).
    { apply C; intro y.
      replace 0 with (poly_fun q y - polyval q y) by (rewrite C63_polyval; ring).
      apply derivable_pt_lim_minus; [apply DL|apply polyint_lim]. }
    rewrite L0, polyint_0 in Z; lra. }
  assert (SQ' : forall u, polyval p u = polyval q u * polyval q u)
    by (intro u; rewrite !C63_polyval, SQ; ring).
  assert (PQ' : forall u, 0 <= u <= high -> 0 < polyval q u)
    by (intros u B; rewrite C63_polyval; auto).
  assert (F := build_segments_exact p q high L Lq SQ' PQ' n segs H0 E).
  destruct (C64_covers p 0 high n segs t L H0 E Bt) as [k [s1 [s2 [K1 [K2 [K3 _]]]]]].
  rewrite (eval_int_between segs s1 s2); auto.
  - rewrite Forall_forall in F; rewrite (F s1 (nth_error_In _ _ K1)), EL.
    f_equal; f_equal; ring.
  - eapply built_is_table; eauto.
  - exists k; auto.
Qed.

(** A forward line from 0 to (4, 2) with control points at thirds. *)
Example C70_example :
  let p := [20; 0; 0; 0; 0] in let q := [sqrt 20] in
  (forall u, poly_fun p u = poly_fun q u ^ 2) /\ (forall u, 0 <= u <= 1 -> 0 < poly_fun q u).
Proof.
  cbv zeta; split; intros u; rewrite <- !C63_polyval; cbn [polyval].
  - replace ((0 * u + sqrt 20) ^ 2) with (sqrt 20 * sqrt 20) by ring.
    rewrite sqrt_sqrt by lra; ring.
  - intros _; assert (0 < sqrt 20) by (apply sqrt_lt_R0; lra); lra.
Qed.

Print Assumptions C63_polyval.
Print Assumptions C63_polymul.
Print Assumptions C63_polyadd.
Print Assumptions C63_polyoffset.
Print Assumptions C63_polyder.
Print Assumptions C63_polyint.
Print Assumptions C63_polyweight.
Print Assumptions C68_taylor_coefficients.
Print Assumptions C68_constant_panics.
Print Assumptions C64_table.
Print Assumptions C64_eval_int.
Print Assumptions C64_covers.
Print Assumptions C69_find_param.
Print Assumptions C70_exact_table.
