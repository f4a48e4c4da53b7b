(** Rounding errors of binary64 arithmetic, counted in units of 2^-53 times a scale. *)
From Coq Require Import ZArith Reals Lia Lra Bool Psatz.
From Flocq Require Import Core BinarySingleNaN Plus_error Relative.
From Verif Require Import Base Floats FloatProofs FloatScale DrawCurves.
Open Scope R_scope.

Definition huge : R := bpow radix2 900.

Lemma huge_1000 : 4 * huge <= bpow radix2 1000.
Proof.
  unfold huge. change 4 with (bpow radix2 2). rewrite <- bpow_plus. apply bpow_le. lia.
Qed.

Lemma u53_val : u53 = / 9007199254740992.
Proof. reflexivity. Qed.

Lemma tiny_u : tiny <= u53 * u53.
Proof. unfold tiny, u53. rewrite <- bpow_plus. apply bpow_le. lia. Qed.

Lemma tiny_pos : 0 < tiny.
Proof. apply bpow_gt_0. Qed.

(** [x] is finite and at most [k] units at the scale [Q] from [r]. *)
Definition nr (k Q r : R) (x : f64) : Prop := is_finite x = true /\ Rabs (B2R x - r) <= k * (u53 * Q).

Lemma nr_exact : forall Q x, is_finite x = true -> nr 0 Q (B2R x) x.
Proof. intros Q x F. split; [exact F|]. rewrite Rminus_eq_0, Rabs_R0. lra. Qed.

Lemma nr_le : forall k k' Q r x, 0 <= Q -> k <= k' -> nr k Q r x -> nr k' Q r x.
Proof.
  intros k k' Q r x HQ H [F E]. split; [exact F|]. eapply Rle_trans; [exact E|].
  apply Rmult_le_compat_r; [|exact H]. pose proof u53_pos. nra.
Qed.

Lemma nr_scale_le : forall k Q Q' r x, 0 <= k -> Q <= Q' -> nr k Q r x -> nr k Q' r x.
Proof.
  intros k Q Q' r x Hk H [F E]. split; [exact F|]. eapply Rle_trans; [exact E|].
  apply Rmult_le_compat_l; [exact Hk|]. apply Rmult_le_compat_l; [pose proof u53_pos; lra|exact H].
Qed.

(** A sum is rounded relative to its value, also when it is tiny. *)
Lemma fadd_rel : forall x y, is_finite x = true -> is_finite y = true -> Rabs (B2R x + B2R y) <= bpow radix2 1000 ->
  is_finite (fadd x y) = true /\ Rabs (B2R (fadd x y) - (B2R x + B2R y)) <= u53 * Rabs (B2R x + B2R y).
Proof.
  intros x y Fx Fy H. pose proof (Bplus_correct 53 1024 prec_ok emax_ok mode_NE x y Fx Fy) as C. cbn [round_mode] in C.
  rewrite rne_range in C by exact H. destruct C as (E & F & _). split; [exact F|]. unfold fadd. rewrite E.
  destruct (FLT_plus_error_N_ex radix2 (-1074) 53 (fun x => negb (Z.even x)) (B2R x) (B2R y)) as (e & Ee & Er).
  - rewrite <- bexp_flt. apply generic_format_B2R.
  - rewrite <- bexp_flt. apply generic_format_B2R.
  - rewrite <- bexp_flt in Er. rewrite Er. replace ((B2R x + B2R y) * (1 + e) - (B2R x + B2R y)) with ((B2R x + B2R y) * e) by ring.
    rewrite Rabs_mult, Rmult_comm. apply Rmult_le_compat_r; [apply Rabs_pos|]. eapply Rle_trans; [exact Ee|].
    assert (U : u_ro radix2 53 = u53).
    { unfold u_ro. assert (B : bpow radix2 (- (53) + 1) = 2 * u53).
      { unfold u53. change (- (53) + 1)%Z with (1 + -53)%Z. rewrite bpow_plus. reflexivity. }
      rewrite B. lra. }
    rewrite U. pose proof u53_pos as [U0 U1]. apply Rmult_le_reg_r with (1 + u53); [lra|].
    unfold Rdiv. rewrite Rmult_assoc, Rinv_l by lra. nra.
Qed.

Lemma fsub_fadd : forall x y, is_finite x = true -> is_finite y = true ->
  fsub x y = fadd x (fneg y).
Proof.
  intros x y Fx Fy. unfold fsub, fadd, fneg. destruct x, y; try discriminate; try reflexivity.
Qed.

Lemma fneg_value : forall x, is_finite x = true -> is_finite (fneg x) = true /\ B2R (fneg x) = - B2R x.
Proof. intros x F. unfold fneg. rewrite is_finite_Bopp, B2R_Bopp. auto. Qed.

Lemma fsub_rel : forall x y, is_finite x = true -> is_finite y = true -> Rabs (B2R x - B2R y) <= bpow radix2 1000 ->
  is_finite (fsub x y) = true /\ Rabs (B2R (fsub x y) - (B2R x - B2R y)) <= u53 * Rabs (B2R x - B2R y).
Proof.
  intros x y Fx Fy H. rewrite fsub_fadd by auto. destruct (fneg_value y Fy) as [F E].
  pose proof (fadd_rel x (fneg y) Fx F) as A. rewrite E in A. apply A. exact H.
Qed.

Lemma fmul_rel : forall x y, is_finite x = true -> is_finite y = true -> Rabs (B2R x * B2R y) <= bpow radix2 1000 ->
  is_finite (fmul x y) = true /\ Rabs (B2R (fmul x y) - B2R x * B2R y) <= u53 * Rabs (B2R x * B2R y) + tiny.
Proof.
  intros x y Fx Fy H. destruct (fmul_near x y Fx Fy H) as [F (e & h & Ee & Eh & E)]. split; [exact F|]. rewrite E.
  replace (B2R x * B2R y * (1 + e) + h - B2R x * B2R y) with (B2R x * B2R y * e + h) by ring.
  eapply Rle_trans; [apply Rabs_triang|]. apply Rplus_le_compat; [|exact Eh].
  rewrite Rabs_mult, Rmult_comm. apply Rmult_le_compat_r; [apply Rabs_pos|exact Ee].
Qed.

Lemma fdiv_rel : forall x y, is_finite x = true -> is_finite y = true -> B2R y <> 0 ->
  Rabs (B2R x / B2R y) <= bpow radix2 1000 ->
  is_finite (fdiv x y) = true /\ Rabs (B2R (fdiv x y) - B2R x / B2R y) <= u53 * Rabs (B2R x / B2R y) + tiny.
Proof.
  intros x y Fx Fy Hy H. destruct (fdiv_near x y Fx Fy Hy H) as [F (e & h & Ee & Eh & E)]. split; [exact F|]. rewrite E.
  replace (B2R x / B2R y * (1 + e) + h - B2R x / B2R y) with (B2R x / B2R y * e + h) by ring.
  eapply Rle_trans; [apply Rabs_triang|]. apply Rplus_le_compat; [|exact Eh].
  rewrite Rabs_mult, Rmult_comm. apply Rmult_le_compat_r; [apply Rabs_pos|exact Ee].
Qed.

(** Error counts stay below this. *)
Definition many : R := 1125899906842624. (* 2^50 *)

Lemma many_u : many * u53 = / 8.
Proof. rewrite u53_val. unfold many. lra. Qed.

Lemma small_count : forall a Q, 0 <= Q -> a <= many -> a * (u53 * Q) <= Q / 8.
Proof.
  intros a Q HQ Ha. pose proof many_u as M. pose proof u53_pos as U.
  apply Rle_trans with (many * (u53 * Q)); [apply Rmult_le_compat_r; [nra|exact Ha]|].
  rewrite <- Rmult_assoc, M. lra.
Qed.

Lemma abs_near : forall x r d, Rabs (x - r) <= d -> Rabs x <= Rabs r + d.
Proof. intros x r d H. replace x with ((x - r) + r) by ring. eapply Rle_trans; [apply Rabs_triang|]. lra. Qed.

Lemma rounded_near : forall z x r a Q, 1 <= Q -> a <= many -> Rabs r <= Q -> Rabs (x - r) <= a * (u53 * Q) ->
  Rabs (z - x) <= u53 * Rabs x -> Rabs (z - r) <= (a + 2) * (u53 * Q).
Proof.
  intros z x r a Q HQ Ha Hr Hx Hz. pose proof u53_pos as [U0 U1].
  pose proof (small_count a Q ltac:(lra) Ha) as S. pose proof (abs_near _ _ _ Hx) as AX.
  replace (z - r) with ((z - x) + (x - r)) by ring. eapply Rle_trans; [apply Rabs_triang|].
  assert (B : u53 * Rabs x <= u53 * (2 * Q)) by (apply Rmult_le_compat_l; lra). lra.
Qed.

(** A sum or difference at the scale [Q]. *)
Lemma nr_add_raw : forall x y r a Q, is_finite x = true -> is_finite y = true -> 1 <= Q <= huge -> a <= many ->
  Rabs r <= Q -> Rabs (B2R x + B2R y - r) <= a * (u53 * Q) -> nr (a + 2) Q r (fadd x y).
Proof.
  intros x y r a Q Fx Fy HQ Ha Hr H. pose proof huge_1000 as HH.
  pose proof (small_count a Q ltac:(lra) Ha) as S. pose proof (abs_near _ _ _ H) as AX.
  destruct (fadd_rel x y Fx Fy ltac:(lra)) as [F E]. split; [exact F|].
  eapply rounded_near; eauto. lra.
Qed.

Lemma nr_sub_raw : forall x y r a Q, is_finite x = true -> is_finite y = true -> 1 <= Q <= huge -> a <= many ->
  Rabs r <= Q -> Rabs (B2R x - B2R y - r) <= a * (u53 * Q) -> nr (a + 2) Q r (fsub x y).
Proof.
  intros x y r a Q Fx Fy HQ Ha Hr H. pose proof huge_1000 as HH.
  pose proof (small_count a Q ltac:(lra) Ha) as S. pose proof (abs_near _ _ _ H) as AX.
  destruct (fsub_rel x y Fx Fy ltac:(lra)) as [F E]. split; [exact F|].
  eapply rounded_near; eauto. lra.
Qed.

Lemma nr_add : forall x y r1 r2 a b Q, 1 <= Q <= huge -> a + b <= many -> Rabs (r1 + r2) <= Q ->
  nr a Q r1 x -> nr b Q r2 y -> nr (a + b + 2) Q (r1 + r2) (fadd x y).
Proof.
  intros x y r1 r2 a b Q HQ Ha Hr [Fx Ex] [Fy Ey]. apply nr_add_raw; auto.
  replace (B2R x + B2R y - (r1 + r2)) with ((B2R x - r1) + (B2R y - r2)) by ring.
  eapply Rle_trans; [apply Rabs_triang|]. lra.
Qed.

Lemma nr_sub : forall x y r1 r2 a b Q, 1 <= Q <= huge -> a + b <= many -> Rabs (r1 - r2) <= Q ->
  nr a Q r1 x -> nr b Q r2 y -> nr (a + b + 2) Q (r1 - r2) (fsub x y).
Proof.
  intros x y r1 r2 a b Q HQ Ha Hr [Fx Ex] [Fy Ey]. apply nr_sub_raw; auto.
  replace (B2R x - B2R y - (r1 - r2)) with ((B2R x - r1) + - (B2R y - r2)) by ring.
  eapply Rle_trans; [apply Rabs_triang|]. rewrite Rabs_Ropp. lra.
Qed.

(** A product, where the exact product of the rounded factors is known. *)
Lemma nr_mul_raw : forall x y r a Q, is_finite x = true -> is_finite y = true -> 1 <= Q <= huge -> a <= many ->
  Rabs r <= Q -> Rabs (B2R x * B2R y - r) <= a * (u53 * Q) -> nr (a + 3) Q r (fmul x y).
Proof.
  intros x y r a Q Fx Fy HQ Ha Hr H. pose proof huge_1000 as HH.
  pose proof (small_count a Q ltac:(lra) Ha) as S. pose proof (abs_near _ _ _ H) as AX.
  destruct (fmul_rel x y Fx Fy ltac:(lra)) as [F E]. split; [exact F|].
  pose proof tiny_u as TU. pose proof u53_pos as [U0 U1].
  replace (B2R (fmul x y) - r) with ((B2R (fmul x y) - B2R x * B2R y) + (B2R x * B2R y - r)) by ring.
  eapply Rle_trans; [apply Rabs_triang|].
  assert (B : u53 * Rabs (B2R x * B2R y) <= u53 * (9 / 8 * Q)) by (apply Rmult_le_compat_l; lra).
  assert (T : u53 * u53 <= u53 * (/ 8 * Q)) by (apply Rmult_le_compat_l; lra).
  assert (0 <= u53 * Q) by (apply Rmult_le_pos; lra). lra.
Qed.

(** Times a known number of at most [1]. *)
Lemma nr_mul_unit : forall x t r a Q, 1 <= Q <= huge -> 0 <= a <= many -> Rabs r <= Q -> is_finite t = true ->
  0 <= B2R t <= 1 -> nr a Q r x -> nr (a + 3) Q (r * B2R t) (fmul x t).
Proof.
  intros x t r a Q HQ Ha Hr Ft Bt [Fx Ex]. apply nr_mul_raw; auto; try lra.
  - rewrite Rabs_mult, (Rabs_right (B2R t)) by lra. pose proof (Rabs_pos r). nra.
  - rewrite <- Rmult_minus_distr_r, Rabs_mult, (Rabs_right (B2R t)) by lra. pose proof (Rabs_pos (B2R x - r)). nra.
Qed.
