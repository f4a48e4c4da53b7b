(** Sizes of the numbers that come up in drawing lines, in binary64. *)
From Coq Require Import ZArith Reals List Bool Lia Lra Psatz.
From Flocq Require Import Core Relative BinarySingleNaN.
From Verif Require Import Base Floats FloatProofs FloatScale FloatErr AccVector StepperContext ApproxCurve DrawCurves
  DrawProofs DrawPlan FloatCurve ApproxProofs PropsSteps PropsDuration DrawTotal.
Import ListNotations.
Open Scope R_scope.

(** Finite and at most [z] in size. *)
Definition bnd (z : Z) (x : f64) : Prop := is_finite x = true /\ Rabs (B2R x) <= IZR z.

Lemma rne_le_Z : forall a z, (Z.abs z <= 2 ^ 53)%Z -> Rabs a <= IZR z -> Rabs (rne a) <= IZR z.
Proof. intros a z Hz H. apply abs_round_le_generic; [typeclasses eauto|typeclasses eauto|apply Z_format, Hz|exact H]. Qed.

Lemma Z_small : forall z, (Z.abs z <= 2 ^ 53)%Z -> IZR z <= bpow radix2 1000.
Proof.
  intros z Hz. apply Rle_trans with (bpow radix2 53); [|apply bpow_le; lia]. change (bpow radix2 53) with (IZR (2 ^ 53)).
  apply IZR_le. lia.
Qed.

Lemma bnd_le : forall a b x, (a <= b)%Z -> bnd a x -> bnd b x.
Proof. intros a b x H [F B]. split; [exact F|]. apply IZR_le in H. lra. Qed.

Lemma bnd_add : forall a b x y, (0 <= a)%Z -> (0 <= b)%Z -> (a + b <= 2 ^ 53)%Z -> bnd a x -> bnd b y -> bnd (a + b) (fadd x y).
Proof.
  intros a b x y Ha Hb H [Fx Bx] [Fy By].
  assert (S : Rabs (B2R x + B2R y) <= IZR (a + b)) by (rewrite plus_IZR; eapply Rle_trans; [apply Rabs_triang|lra]).
  destruct (fadd_val x y Fx Fy) as [F E]; [eapply Rle_trans; [exact S|apply Z_small; lia]|].
  split; [exact F|]. rewrite E. apply rne_le_Z; [lia|exact S].
Qed.

Lemma bnd_sub : forall a b x y, (0 <= a)%Z -> (0 <= b)%Z -> (a + b <= 2 ^ 53)%Z -> bnd a x -> bnd b y -> bnd (a + b) (fsub x y).
Proof.
  intros a b x y Ha Hb H [Fx Bx] [Fy By].
  assert (S : Rabs (B2R x - B2R y) <= IZR (a + b)).
  { rewrite plus_IZR. unfold Rminus. eapply Rle_trans; [apply Rabs_triang|]. rewrite Rabs_Ropp. lra. }
  destruct (fsub_val x y Fx Fy) as [F E]; [eapply Rle_trans; [exact S|apply Z_small; lia]|].
  split; [exact F|]. rewrite E. apply rne_le_Z; [lia|exact S].
Qed.

Lemma bnd_mul : forall a b x y, (0 <= a)%Z -> (0 <= b)%Z -> (a * b <= 2 ^ 53)%Z -> bnd a x -> bnd b y -> bnd (a * b) (fmul x y).
Proof.
  intros a b x y Ha Hb H [Fx Bx] [Fy By].
  assert (S : Rabs (B2R x * B2R y) <= IZR (a * b)).
  { rewrite mult_IZR, Rabs_mult. apply Rmult_le_compat; try apply Rabs_pos; assumption. }
  destruct (fmul_val x y Fx Fy) as [F E]; [eapply Rle_trans; [exact S|apply Z_small; nia]|].
  split; [exact F|]. rewrite E. apply rne_le_Z; [nia|exact S].
Qed.

(** ** Numbers that are zero or not too small *)

Definition apart (x : f64) : Prop := B2R x = 0 \/ bpow radix2 (-400) <= Rabs (B2R x).

Lemma apart_grid : forall x : f64, apart x -> exists m, B2R x = IZR m * bpow radix2 (-452).
Proof.
  intros x [Z|H]; [exists 0%Z; rewrite Z; ring|].
  pose proof (generic_format_B2R 53 1024 x) as F. unfold generic_format in F.
  set (e := cexp radix2 bexp (B2R x)) in *. set (m := Ztrunc (scaled_mantissa radix2 bexp (B2R x))) in *.
  assert (E : (-452 <= e)%Z).
  { unfold e, cexp. rewrite bexp_flt. unfold FLT_exp.
    assert (M : (-399 <= mag radix2 (B2R x))%Z) by (apply mag_ge_bpow; exact H). lia. }
  exists (m * 2 ^ (e + 452))%Z. rewrite F. unfold F2R. cbn [Fnum Fexp]. rewrite mult_IZR, Rmult_assoc. f_equal.
  change 2%Z with (radix_val radix2). rewrite IZR_Zpower by lia. rewrite <- bpow_plus. f_equal. lia.
Qed.

Lemma pow_format : forall k, (-1074 <= k)%Z -> (k <= 1000)%Z -> generic_format radix2 bexp (bpow radix2 k).
Proof. intros k H _. rewrite bexp_flt. apply generic_format_FLT_bpow; [typeclasses eauto|exact H]. Qed.

Lemma apart_sub : forall x y a b, (0 <= a)%Z -> (0 <= b)%Z -> (a + b <= 2 ^ 53)%Z -> bnd a x -> bnd b y -> apart x -> apart y ->
  B2R (fsub x y) = 0 \/ bpow radix2 (-452) <= Rabs (B2R (fsub x y)).
Proof.
  intros x y a b Ha Hb H [Fx Bx] [Fy By] Ax Ay.
  assert (S : Rabs (B2R x - B2R y) <= IZR (a + b)).
  { rewrite plus_IZR. unfold Rminus. eapply Rle_trans; [apply Rabs_triang|]. rewrite Rabs_Ropp. lra. }
  destruct (fsub_val x y Fx Fy) as [F E]; [eapply Rle_trans; [exact S|apply Z_small; lia]|].
  rewrite E. destruct (apart_grid x Ax) as [m Em]. destruct (apart_grid y Ay) as [n En].
  replace (B2R x - B2R y) with (IZR (m - n) * bpow radix2 (-452)) by (rewrite Em, En, minus_IZR; ring).
  destruct (Z.eq_dec (m - n) 0) as [Z|NZ]; [left; rewrite Z, Rmult_0_l; apply rne_0|right].
  apply abs_round_ge_generic; [typeclasses eauto|typeclasses eauto|apply pow_format; lia|].
  rewrite Rabs_mult, (Rabs_pos_eq (bpow radix2 (-452))) by apply bpow_ge_0. rewrite <- abs_IZR.
  rewrite <- (Rmult_1_l (bpow radix2 (-452))) at 1. apply Rmult_le_compat_r; [apply bpow_ge_0|]. apply (IZR_le 1). lia.
Qed.

(** ** Directions *)

(** Neither coordinate of the direction of a line is more than 1 in size, up to rounding. *)
Lemma unit_size : forall e, bnd (2 ^ 17) (fx e) -> bnd (2 ^ 17) (fy e) ->
  (forall i, B2R (fidx e i) = 0 \/ bpow radix2 (-452) <= Rabs (B2R (fidx e i))) -> 0 < B2R (fvlength e) ->
  forall i, is_finite (fdiv (fidx e i) (fvlength e)) = true /\ Rabs (B2R (fdiv (fidx e i) (fvlength e))) <= 1 + 16 * u53.
Proof.
  intros [x y] [Fx Bx] [Fy By] AP. unfold fvlength. cbn [fx fy] in *. intros LP i.
  assert (SM : forall z : f64, is_finite z = true -> Rabs (B2R z) <= IZR (2 ^ 17) ->
    is_finite (fmul z z) = true /\ B2R (fmul z z) = rne (B2R z * B2R z) /\ 0 <= B2R (fmul z z) <= IZR (2 ^ 34)).
  { intros z Fz Bz. assert (M := bnd_mul (2 ^ 17) (2 ^ 17) z z ltac:(lia) ltac:(lia) ltac:(vm_compute; discriminate) (conj Fz Bz) (conj Fz Bz)).
    change (2 ^ 17 * 2 ^ 17)%Z with (2 ^ 34)%Z in M. destruct M as [F B]. split; [exact F|].
    assert (Q : 0 <= B2R z * B2R z <= IZR (2 ^ 34)).
    { split; [nra|]. change (2 ^ 34)%Z with (2 ^ 17 * 2 ^ 17)%Z. rewrite mult_IZR. apply abs_between in Bz. nra. }
    destruct (fmul_val z z Fz Fz) as [_ E]; [rewrite Rabs_pos_eq by lra; eapply Rle_trans; [apply Q|apply Z_small; vm_compute; discriminate]|].
    split; [exact E|]. apply abs_between in B. split; [rewrite E; apply rne_pos; lra|lra]. }
  destruct (SM x Fx Bx) as (F1 & E1 & P1). destruct (SM y Fy By) as (F2 & E2 & P2). clear SM.
  set (xx := fmul x x) in *. set (yy := fmul y y) in *.
  destruct (fadd_val xx yy F1 F2) as [F3 E3].
  { rewrite Rabs_pos_eq by lra. apply Rle_trans with (IZR (2 ^ 34 + 2 ^ 34)); [rewrite plus_IZR; lra|apply Z_small; vm_compute; discriminate]. }
  set (ss := fadd xx yy) in *.
  assert (S0 : 0 <= B2R ss) by (rewrite E3; apply rne_pos; lra).
  assert (SX : B2R xx <= B2R ss) by (rewrite E3, <- (rne_float xx) at 1; apply rne_mono; lra).
  assert (SY : B2R yy <= B2R ss) by (rewrite E3, <- (rne_float yy) at 1; apply rne_mono; lra).
  destruct (fsqrt_val ss F3 S0) as [F4 E4]. set (l := fsqrt ss) in *.
  pose proof u53_pos as [U0 _]. pose proof u53_val as UV.
  assert (KEY : forall z zz : f64, is_finite z = true -> Rabs (B2R z) <= IZR (2 ^ 17) -> B2R zz = rne (B2R z * B2R z) -> B2R zz <= B2R ss ->
    (B2R z = 0 \/ bpow radix2 (-452) <= Rabs (B2R z)) ->
    is_finite (fdiv z l) = true /\ Rabs (B2R (fdiv z l)) <= 1 + 16 * u53).
  { intros z zz Fz Bz Ez Sz Az. set (a := Rabs (B2R z)) in *. assert (A0 : 0 <= a) by apply Rabs_pos.
    assert (Q : a <= B2R l * (1 + 8 * u53)).
    { destruct Az as [Z0|Ha]; [unfold a; rewrite Z0, Rabs_R0; nra|].
      assert (AA : B2R z * B2R z = a * a) by (unfold a; rewrite <- Rabs_mult; symmetry; apply Rabs_pos_eq; nra).
      assert (TA : tiny <= u53 * (a * a)).
      { apply Rle_trans with (u53 * (bpow radix2 (-452) * bpow radix2 (-452))).
        - unfold tiny, u53. rewrite <- !bpow_plus. apply bpow_le. lia.
        - apply Rmult_le_compat_l; [lra|]. pose proof (bpow_ge_0 radix2 (-452)). apply Rmult_le_compat; lra. }
      pose proof (rne_err (B2R z * B2R z)) as R1. rewrite <- Ez, AA, (Rabs_pos_eq (a * a)) in R1 by nra. apply abs_between in R1.
      assert (G1 : a * a * (1 - 2 * u53) <= B2R ss) by lra.
      assert (G2 : a * (1 - 2 * u53) <= sqrt (B2R ss)).
      { rewrite <- (sqrt_Rsqr (a * (1 - 2 * u53))) by (rewrite UV; nra). apply sqrt_le_1_alt. unfold Rsqr.
        apply Rle_trans with (a * a * (1 - 2 * u53)); [|exact G1].
        replace (a * (1 - 2 * u53) * (a * (1 - 2 * u53))) with (a * a * ((1 - 2 * u53) * (1 - 2 * u53))) by ring.
        apply Rmult_le_compat_l; [nra|]. rewrite UV. lra. }
      pose proof (rne_err (sqrt (B2R ss))) as R2. rewrite <- E4, (Rabs_pos_eq (sqrt _)) in R2 by apply sqrt_pos. apply abs_between in R2.
      assert (TB : tiny <= u53 * a).
      { apply Rle_trans with (u53 * bpow radix2 (-452)); [unfold tiny, u53; rewrite <- !bpow_plus; apply bpow_le; lia|].
        apply Rmult_le_compat_l; lra. }
      assert (G3 : a * (1 - 2 * u53) * (1 - u53) - u53 * a <= B2R l).
      { assert (a * (1 - 2 * u53) * (1 - u53) <= sqrt (B2R ss) * (1 - u53)) by (apply Rmult_le_compat_r; [rewrite UV; lra|exact G2]). lra. }
      apply Rle_trans with ((a * (1 - 2 * u53) * (1 - u53) - u53 * a) * (1 + 8 * u53)); [|apply Rmult_le_compat_r; lra].
      replace ((a * (1 - 2 * u53) * (1 - u53) - u53 * a) * (1 + 8 * u53)) with (a * (((1 - 2 * u53) * (1 - u53) - u53) * (1 + 8 * u53))) by ring.
      rewrite <- (Rmult_1_r a) at 1. apply Rmult_le_compat_l; [exact A0|]. rewrite UV. lra. }
    assert (QQ : Rabs (B2R z / B2R l) <= 1 + 8 * u53).
    { unfold Rdiv. rewrite Rabs_mult, Rabs_inv, (Rabs_pos_eq (B2R l)) by lra. fold a.
      apply Rmult_le_reg_r with (B2R l); [exact LP|]. rewrite Rmult_assoc, Rinv_l by lra. lra. }
    destruct (fdiv_val z l Fz ltac:(lra)) as [Fd Ed].
    { eapply Rle_trans; [exact QQ|]. apply Rle_trans with (IZR 2); [rewrite UV; lra|apply Z_small; vm_compute; discriminate]. }
    split; [exact Fd|]. rewrite Ed.
    pose proof (rne_err (B2R z / B2R l)) as R3. assert (T3 : tiny <= u53).
    { pose proof tiny_u. rewrite UV in *. lra. }
    set (q := B2R z / B2R l) in *.
    apply Rle_trans with (Rabs (rne q - q) + Rabs q); [replace (rne q) with ((rne q - q) + q) at 1 by ring; apply Rabs_triang|].
    assert (u53 * Rabs q <= u53 * (1 + 8 * u53)) by (apply Rmult_le_compat_l; lra). rewrite UV in *. lra. }
  destruct i; cbn [fidx fx fy] in *.
  - apply (KEY x xx); auto. apply (AP AX).
  - apply (KEY y yy); auto. apply (AP AY).
Qed.

(** With no condition on the coordinates: squares may vanish or be rounded up, by half of the least number there is. *)
Lemma unit_any : forall e, bnd (2 ^ 17) (fx e) -> bnd (2 ^ 17) (fy e) -> 0 < B2R (fvlength e) ->
  forall i, is_finite (fdiv (fidx e i) (fvlength e)) = true /\ Rabs (B2R (fdiv (fidx e i) (fvlength e))) <= 5 / 4.
Proof.
  intros [x y] [Fx Bx] [Fy By]. unfold fvlength. cbn [fx fy] in *. intros LP i.
  assert (SM : forall z : f64, is_finite z = true -> Rabs (B2R z) <= IZR (2 ^ 17) ->
    is_finite (fmul z z) = true /\ B2R (fmul z z) = rne (B2R z * B2R z) /\ 0 <= B2R (fmul z z) <= IZR (2 ^ 34)).
  { intros z Fz Bz. assert (M := bnd_mul (2 ^ 17) (2 ^ 17) z z ltac:(lia) ltac:(lia) ltac:(vm_compute; discriminate) (conj Fz Bz) (conj Fz Bz)).
    change (2 ^ 17 * 2 ^ 17)%Z with (2 ^ 34)%Z in M. destruct M as [F B]. split; [exact F|].
    assert (Q : 0 <= B2R z * B2R z <= IZR (2 ^ 34)).
    { split; [nra|]. change (2 ^ 34)%Z with (2 ^ 17 * 2 ^ 17)%Z. rewrite mult_IZR. apply abs_between in Bz. nra. }
    destruct (fmul_val z z Fz Fz) as [_ E]; [rewrite Rabs_pos_eq by lra; eapply Rle_trans; [apply Q|apply Z_small; vm_compute; discriminate]|].
    split; [exact E|]. apply abs_between in B. split; [rewrite E; apply rne_pos; lra|lra]. }
  destruct (SM x Fx Bx) as (F1 & E1 & P1). destruct (SM y Fy By) as (F2 & E2 & P2). clear SM.
  set (xx := fmul x x) in *. set (yy := fmul y y) in *.
  destruct (fadd_val xx yy F1 F2) as [F3 E3].
  { rewrite Rabs_pos_eq by lra. apply Rle_trans with (IZR (2 ^ 34 + 2 ^ 34)); [rewrite plus_IZR; lra|apply Z_small; vm_compute; discriminate]. }
  set (ss := fadd xx yy) in *.
  assert (S0 : 0 <= B2R ss) by (rewrite E3; apply rne_pos; lra).
  assert (SX : B2R xx <= B2R ss) by (rewrite E3, <- (rne_float xx) at 1; apply rne_mono; lra).
  assert (SY : B2R yy <= B2R ss) by (rewrite E3, <- (rne_float yy) at 1; apply rne_mono; lra).
  destruct (fsqrt_val ss F3 S0) as [F4 E4]. set (l := fsqrt ss) in *.
  pose proof u53_pos as [U0 _]. pose proof u53_val as UV.
  assert (SP : 0 < B2R ss).
  { destruct S0 as [S0|S0]; [exact S0|]. exfalso. rewrite <- S0, sqrt_0, rne_0 in E4. lra. }
  assert (SS : bpow radix2 (-1074) <= B2R ss).
  { pose proof (generic_format_B2R 53 1024 ss) as GF. change (SpecFloat.fexp 53 1024) with bexp in GF. rewrite bexp_flt in GF.
    apply (generic_format_ge_bpow radix2 (FLT_exp (-1074) 53)); [intros z; unfold FLT_exp; lia|exact SP|exact GF]. }
  assert (ST : bpow radix2 (-537) <= sqrt (B2R ss)).
  { rewrite <- (sqrt_Rsqr (bpow radix2 (-537))) by apply bpow_ge_0. apply sqrt_le_1_alt. unfold Rsqr. rewrite <- bpow_plus. exact SS. }
  assert (SL : sqrt (B2R ss) * (1 - 2 * u53) <= B2R l).
  { pose proof (rne_err (sqrt (B2R ss))) as R2. rewrite <- E4, (Rabs_pos_eq (sqrt _)) in R2 by apply sqrt_pos. apply abs_between in R2.
    assert (tiny <= u53 * sqrt (B2R ss)).
    { apply Rle_trans with (u53 * bpow radix2 (-537)); [unfold tiny, u53; rewrite <- !bpow_plus; apply bpow_le; lia|].
      apply Rmult_le_compat_l; lra. }
    lra. }
  assert (KEY : forall z zz : f64, is_finite z = true -> Rabs (B2R z) <= IZR (2 ^ 17) -> B2R zz = rne (B2R z * B2R z) -> B2R zz <= B2R ss ->
    is_finite (fdiv z l) = true /\ Rabs (B2R (fdiv z l)) <= 5 / 4).
  { intros z zz Fz Bz Ez Sz. set (a := Rabs (B2R z)) in *. assert (A0 : 0 <= a) by apply Rabs_pos.
    assert (AA : B2R z * B2R z = a * a) by (unfold a; rewrite <- Rabs_mult; symmetry; apply Rabs_pos_eq; nra).
    rewrite AA in Ez.
    assert (Q : a <= B2R l * (124 / 100)).
    { rewrite bexp_flt in Ez.
      destruct (error_N_FLT radix2 (-1074) 53 ltac:(reflexivity) (fun x => negb (Z.even x)) (a * a)) as (e & h & He & Hh & _ & Er).
      rewrite Er in Ez.
      assert (HU : Rabs e <= u53).
      { replace u53 with (/ 2 * bpow radix2 (-53 + 1)); [exact He|]. unfold u53. rewrite bpow_plus. change (bpow radix2 1) with 2. lra. }
      apply abs_between in HU. apply abs_between in Hh.
      assert (G1 : a * a * (1 - u53) <= 3 / 2 * B2R ss).
      { assert (a * a * (1 - u53) <= a * a * (1 + e)) by (apply Rmult_le_compat_l; [nra|lra]). lra. }
      assert (G2 : a <= 123 / 100 * sqrt (B2R ss)).
      { rewrite <- (sqrt_Rsqr a) by exact A0. rewrite <- (sqrt_Rsqr (123 / 100)) by lra. rewrite <- sqrt_mult by (unfold Rsqr; lra).
        apply sqrt_le_1_alt. unfold Rsqr. rewrite UV in G1. lra. }
      assert (sqrt (B2R ss) * (123 / 100) <= B2R l * (124 / 100)).
      { apply Rle_trans with (sqrt (B2R ss) * (1 - 2 * u53) * (124 / 100)); [|apply Rmult_le_compat_r; lra].
        rewrite Rmult_assoc. apply Rmult_le_compat_l; [apply sqrt_pos|]. rewrite UV. lra. }
      lra. }
    assert (QQ : Rabs (B2R z / B2R l) <= 124 / 100).
    { unfold Rdiv. rewrite Rabs_mult, Rabs_inv, (Rabs_pos_eq (B2R l)) by lra. fold a.
      apply Rmult_le_reg_r with (B2R l); [exact LP|]. rewrite Rmult_assoc, Rinv_l by lra. lra. }
    destruct (fdiv_val z l Fz ltac:(lra)) as [Fd Ed].
    { eapply Rle_trans; [exact QQ|]. apply Rle_trans with (IZR 2); [lra|apply Z_small; vm_compute; discriminate]. }
    split; [exact Fd|]. rewrite Ed. pose proof (rne_err (B2R z / B2R l)) as R3. set (q := B2R z / B2R l) in *.
    assert (T3 : tiny <= u53) by (pose proof tiny_u; rewrite UV in *; lra).
    apply Rle_trans with (Rabs (rne q - q) + Rabs q); [replace (rne q) with ((rne q - q) + q) at 1 by ring; apply Rabs_triang|].
    assert (u53 * Rabs q <= u53 * (124 / 100)) by (apply Rmult_le_compat_l; lra). rewrite UV in *. lra. }
  destruct i; cbn [fidx fx fy] in *.
  - apply (KEY x xx); auto.
  - apply (KEY y yy); auto.
Qed.

(** At most [w] in size. *)
Definition unitary (w : R) (x : f64) : Prop := is_finite x = true /\ Rabs (B2R x) <= w.

Lemma unitary_bnd : forall w x, w <= 2 -> unitary w x -> bnd 2 x.
Proof. intros w x Hw [F B]. split; [exact F|]. lra. Qed.

(** The bound on directions to work with: 1 up to rounding, or 5/4 if there may be lines so short that their squares vanish. *)
Definition bound_ok (w : R) : Prop := 1 + 16 * u53 <= w <= 2.
Definition clear_of_zero (w : R) (x : f64) : Prop := 5 / 4 <= w \/ apart x.

(** ** Lines *)

Record flat (w : R) (D : Z) (c : fcurve) : Prop := {
  fl_dir : exists d, (forall p, fc_value c p = Ok (fvmul d p, d)) /\ forall i, unitary w (fidx d i);
  fl_len : bnd (8 * D) (fc_length c);
  fl_pos : 0 <= B2R (fc_length c)
}.

Lemma bnd_idx : forall z v i, (forall i, bnd z (fidx v i)) -> bnd z (fidx v i).
Proof. auto. Qed.

Lemma line_flat : forall w D a b, bound_ok w -> (1 <= D <= 2 ^ 16)%Z -> (forall i, bnd D (fidx a i) /\ clear_of_zero w (fidx a i)) ->
  (forall i, bnd D (fidx b i) /\ clear_of_zero w (fidx b i)) -> flat w D (fline (fvsub b a)).
Proof.
  intros w D a b HW HD Ha Hb. set (e := fvsub b a).
  assert (IE : forall i, fidx e i = fsub (fidx b i) (fidx a i)) by (intros []; reflexivity).
  assert (Be : forall i, bnd (2 * D) (fidx e i)).
  { intros i. rewrite IE. replace (2 * D)%Z with (D + D)%Z by lia. apply bnd_sub; try lia; [apply Hb|apply Ha]. }
  assert (Ae : 5 / 4 <= w \/ forall i, B2R (fidx e i) = 0 \/ bpow radix2 (-452) <= Rabs (B2R (fidx e i))).
  { destruct (Rle_or_lt (5 / 4) w) as [L|L]; [left; exact L|right].
    intros i. rewrite IE. destruct (Ha i) as [A1 [A2|A2]]; [lra|]. destruct (Hb i) as [B1 [B2|B2]]; [lra|]. apply (apart_sub _ _ D D); auto; lia. }
  clearbody e.
  assert (WD : 1 <= IZR (2 * D) <= wide).
  { split; [apply (IZR_le 1); lia|]. unfold wide. apply Rle_trans with (bpow radix2 17); [|apply bpow_le; lia].
    change (bpow radix2 17) with (IZR (2 ^ 17)). apply IZR_le. lia. }
  destruct (length_facts e (IZR (2 * D)) (proj1 (Be AX)) (proj1 (Be AY)) WD (proj2 (Be AX)) (proj2 (Be AY))) as (Fl & Pl & _).
  constructor.
  - unfold fline. cbn [fc_value]. destruct (zero_length (fvlength e) Fl ltac:(lra)) as [[Ez _]|[Ez LP]]; rewrite Ez; eexists; split; try (intros; reflexivity).
    + pose proof u53_pos as [U _]. destruct one_value as [F1 V1]. intros []; cbn [fidx fx fy].
      * split; [exact F1|]. rewrite V1, Rabs_R1. destruct HW. lra.
      * split; [reflexivity|]. change (B2R fzero) with 0. rewrite Rabs_R0. destruct HW. lra.
    + assert (B1 := bnd_le (2 * D) (2 ^ 17) _ ltac:(lia) (Be AX)). assert (B2 := bnd_le (2 * D) (2 ^ 17) _ ltac:(lia) (Be AY)).
      assert (U : forall i, is_finite (fdiv (fidx e i) (fvlength e)) = true /\ Rabs (B2R (fdiv (fidx e i) (fvlength e))) <= w).
      { intros i. destruct Ae as [L|Ae].
        - destruct (unit_any e B1 B2 LP i) as [F B]. split; [exact F|lra].
        - destruct (unit_size e B1 B2 Ae LP i) as [F B]. split; [exact F|]. destruct HW. lra. }
      intros i. specialize (U i). unfold fvunit, unitary. destruct i; exact U.
  - unfold fline. cbn [fc_length]. split; [exact Fl|]. rewrite Rabs_pos_eq by lra.
    apply Rle_trans with (3 * IZR (2 * D)); [lra|]. rewrite <- mult_IZR. apply IZR_le. lia.
  - unfold fline. cbn [fc_length]. lra.
Qed.

(** ** Curves put together of lines *)

Record flat_seg (w : R) (D n : Z) (s : fseg) : Prop := {
  fs_flat : flat w D (fs_curve s);
  fs_lenb : bnd (n * (8 * D)) (fs_len s);
  fs_lenp : 0 <= B2R (fs_len s);
  fs_endb : forall i, bnd (n * (16 * D)) (fidx (fs_end s) i)
}.

Lemma last_in : forall l s, last_fseg l = Some s -> In s l.
Proof.
  induction l as [|x [|y r] IH]; intros s H; [discriminate|injection H as <-; left; reflexivity|right; apply IH; exact H].
Qed.

Lemma fidx_add : forall a b i, fidx (fvadd a b) i = fadd (fidx a i) (fidx b i).
Proof. intros a b []; reflexivity. Qed.
Lemma fidx_mul : forall a k i, fidx (fvmul a k) i = fmul (fidx a i) k.
Proof. intros a k []; reflexivity. Qed.

Lemma zero_bnd : forall z, (0 <= z)%Z -> bnd z fzero.
Proof. intros z H. split; [reflexivity|]. change (B2R fzero) with 0. rewrite Rabs_R0. apply (IZR_le 0). exact H. Qed.

Lemma flat_seg_more : forall w D n m s, (0 <= D)%Z -> (n <= m)%Z -> flat_seg w D n s -> flat_seg w D m s.
Proof.
  intros w D n m s HD H [A B C E]. constructor; auto; [eapply bnd_le; [|exact B]; nia|].
  intros i. eapply bnd_le; [|apply E]. nia.
Qed.

Lemma length_flat : forall w D n l, (1 <= D)%Z -> (0 <= n)%Z -> Forall (flat_seg w D n) l ->
  bnd (n * (8 * D)) (fconcat_length l) /\ 0 <= B2R (fconcat_length l).
Proof.
  intros w D n l HD Hn H. unfold fconcat_length. destruct (last_fseg l) as [s|] eqn:E.
  - apply last_in in E. rewrite Forall_forall in H. destruct (H s E). split; assumption.
  - split; [apply zero_bnd; nia|]. change (B2R fzero) with 0. lra.
Qed.

Lemma add_flat : forall w D n l c l', bound_ok w -> (1 <= D <= 2 ^ 16)%Z -> (0 <= n)%Z -> (n + 1 <= 2 ^ 20)%Z -> Forall (flat_seg w D n) l -> flat w D c ->
  fconcat_add l c = Ok l' -> Forall (flat_seg w D (n + 1)) l'.
Proof.
  intros w D n l c l' HW HD Hn Hm Hl Hc H. unfold fconcat_add in H. apply bind_Ok in H. destruct H as ([p d] & E & H). injection H as <-.
  destruct (length_flat w D n l ltac:(lia) Hn Hl) as [BL PL].
  destruct (fl_dir w D c Hc) as (d0 & V & U). rewrite V in E. injection E as <- <-.
  pose proof (fl_len w D c Hc) as BC. pose proof (fl_pos w D c Hc) as PC.
  apply Forall_app. split; [eapply Forall_impl; [|exact Hl]; intros s; apply flat_seg_more; lia|]. constructor; [|constructor].
  constructor; cbn [fs_curve fs_len fs_end].
  - exact Hc.
  - replace ((n + 1) * (8 * D))%Z with (8 * D + n * (8 * D))%Z by ring. apply bnd_add; try nia; assumption.
  - destruct BC as [FC _]. destruct BL as [FL BL]. destruct (fl_len w D c Hc) as [_ BC].
    destruct (fadd_val (fc_length c) (fconcat_length l) FC FL) as [_ V2].
    { eapply Rle_trans; [apply Rabs_triang|]. apply Rle_trans with (IZR (8 * D + n * (8 * D))); [rewrite plus_IZR; lra|].
      apply Z_small. nia. }
    rewrite V2. apply rne_pos. lra.
  - intros i. rewrite fidx_add, fidx_mul. replace ((n + 1) * (16 * D))%Z with (2 * (8 * D) + n * (16 * D))%Z by ring.
    apply bnd_add; try nia.
    + apply bnd_mul; try nia; [apply (unitary_bnd w); [apply HW|apply U]|exact BC].
    + destruct (last_fseg l) as [s|] eqn:E.
      * apply last_in in E. rewrite Forall_forall in Hl. apply (Hl s E).
      * destruct i; apply zero_bnd; nia.
Qed.

Lemma join_flat : forall w D pieces n l l', bound_ok w -> (1 <= D <= 2 ^ 16)%Z -> (0 <= n)%Z -> (n + Z.of_nat (length pieces) <= 2 ^ 20)%Z ->
  Forall (flat_seg w D n) l -> Forall (flat w D) pieces -> join_from l pieces = Ok l' ->
  Forall (flat_seg w D (n + Z.of_nat (length pieces))) l'.
Proof.
  intros w D pieces. induction pieces as [|c r IH]; intros n l l' HW HD Hn Hm Hl Hp H; cbn [join_from length] in *.
  - injection H as <-. replace (n + Z.of_nat 0)%Z with n by lia. exact Hl.
  - apply bind_Ok in H. destruct H as (l1 & E & H). inversion Hp; subst. rewrite Nat2Z.inj_succ in *.
    replace (n + Z.succ (Z.of_nat (length r)))%Z with ((n + 1) + Z.of_nat (length r))%Z by lia.
    eapply IH; try eassumption; try lia. eapply add_flat; try eassumption. lia.
Qed.

(** The search finds something among finite keys. *)
Definition searches (g : geometry) : Prop := forall keys x, Forall (fun y : f64 => is_finite y = true) keys -> is_finite x = true ->
  exists i, g_find g keys x = Ok i.

Lemma value_flat : forall g w D n l P, bound_ok w -> searches g -> (1 <= D <= 2 ^ 16)%Z -> (0 <= n <= 2 ^ 20)%Z -> (D * n <= 2 ^ 32)%Z -> Forall (flat_seg w D n) l -> l <> [] ->
  bnd (2 ^ 36) P -> exists pos dir, fconcat_value g l P = Ok (pos, dir) /\ forall i, unitary w (fidx dir i) /\ bnd (2 ^ 38) (fidx pos i).
Proof.
  intros g w D n l P HW HG HD Hn HDn Hl Hne HP. unfold fconcat_value.
  destruct (HG (map fs_len l) P) as [i Ei].
  { rewrite Forall_map. eapply Forall_impl; [|exact Hl]. intros s [_ [F _] _ _]. exact F. }
  { apply HP. }
  rewrite Ei. cbn [bind]. cbv zeta. set (j := Nat.min i (length l - 1)).
  assert (Hj : (j < length l)%nat) by (destruct l; [congruence|unfold j; cbn [length]; lia]).
  destruct (nth_error l j) as [seg|] eqn:Es; [|apply nth_error_None in Es; lia]. cbn [unwrap bind].
  assert (START : exists c0 l0, (match j with O => Ok (fvzero, fzero) | S k => let! prev := unwrap (nth_error l k) in Ok (fs_end prev, fs_len prev) end) = Ok (c0, l0)
     /\ (forall i, bnd (n * (16 * D)) (fidx c0 i)) /\ bnd (n * (8 * D)) l0).
  { destruct j as [|k].
    - exists fvzero, fzero. split; [reflexivity|]. split; [|apply zero_bnd; nia]. intros []; apply zero_bnd; nia.
    - destruct (nth_error l k) as [prev|] eqn:Ep; [|apply nth_error_None in Ep; lia]. cbn [unwrap bind].
      apply nth_error_In in Ep. rewrite Forall_forall in Hl. destruct (Hl prev Ep) as [_ B _ C].
      exists (fs_end prev), (fs_len prev). auto. }
  destruct START as (c0 & l0 & E0 & B0 & B1). rewrite E0. cbn [bind].
  apply nth_error_In in Es. rewrite Forall_forall in Hl. destruct (Hl seg Es) as [[(d & V & U) _ _] _ _ _].
  rewrite V. cbn [bind]. eexists. eexists. split; [reflexivity|]. intros k. split; [apply U|].
  rewrite fidx_add, fidx_mul.
  apply bnd_le with (2 * (2 ^ 36 + n * (8 * D)) + n * (16 * D))%Z; [nia|].
  apply bnd_add; try nia; [|apply B0]. apply bnd_mul; try nia; [apply (unitary_bnd w); [apply HW|apply U]|].
  apply bnd_sub; try nia; assumption.
Qed.

(** ** To steps *)

Lemma nearest_small : forall r z, Rabs r < IZR z + / 2 -> (Z.abs (ZnearestA r) <= z)%Z.
Proof.
  intros r z H. destruct (proj2 (nearest_is r (ZnearestA r)) eq_refl) as [B _]. apply abs_between in B.
  assert (K : (Z.abs (ZnearestA r) < z + 1)%Z); [|lia].
  apply lt_IZR. rewrite abs_IZR, plus_IZR. unfold Rabs in *. destruct (Rcase_abs r), (Rcase_abs (IZR (ZnearestA r))); lra.
Qed.

Lemma steps_small : forall s x i z, is_finite x = true -> is_finite (step_scale s i) = true -> (0 <= z <= 2 ^ 52)%Z ->
  Rabs (B2R x * B2R (step_scale s i)) <= IZR z -> exists n, to_steps s x i = Ok n /\ (Z.abs n <= z)%Z.
Proof.
  intros s x i z Fx Fs Hz B. destruct (fmul_val x (step_scale s i) Fx Fs) as [F E]; [eapply Rle_trans; [exact B|apply Z_small; lia]|].
  assert (S : (Z.abs (ZnearestA (B2R (fmul x (step_scale s i)))) <= z)%Z).
  { apply nearest_small. rewrite E. apply Rle_lt_trans with (IZR z); [apply rne_le_Z; [lia|exact B]|lra]. }
  exists (ZnearestA (B2R (fmul x (step_scale s i)))). split; [|exact S].
  apply C105_steps. cbv zeta. split; [exact F|]. split; [apply nearest_is; reflexivity|lia].
Qed.

Lemma rne_up : forall a, Rabs (rne a) <= Rabs a * (1 + u53) + tiny.
Proof.
  intros a. pose proof (rne_err a) as R1. replace (rne a) with ((rne a - a) + a) by ring.
  eapply Rle_trans; [apply Rabs_triang|]. lra.
Qed.

Definition scale_ok (s : scales) (i : axis) : Prop := is_finite (step_scale s i) = true /\ / 65536 <= Rabs (B2R (step_scale s i)) <= 4194304.

Lemma scale_half : forall s i, scale_ok s i -> is_finite (v_scale s i) = true /\ Rabs (B2R (v_scale s i)) <= Rabs (B2R (step_scale s i)) / 2 * (1 + u53) + tiny.
Proof.
  intros s i [F B]. unfold v_scale. destruct (f_of_Z_exact 2 ltac:(lia)) as [F2 E2].
  destruct (fdiv_val (step_scale s i) (f_of_Z 2) F ltac:(rewrite E2; lra)) as [FD ED].
  { rewrite E2. unfold Rdiv. rewrite Rabs_mult, (Rabs_pos_eq (/ 2)) by lra.
    apply Rle_trans with (IZR 4194304); [lra|apply Z_small; vm_compute; discriminate]. }
  split; [exact FD|]. rewrite ED, E2. eapply Rle_trans; [apply rne_up|].
  unfold Rdiv. rewrite Rabs_mult, (Rabs_pos_eq (/ 2)) by lra. lra.
Qed.

Lemma speed_small : forall w s d speed i z, bound_ok w -> unitary w d -> is_finite speed = true -> scale_ok s i -> (1 <= z <= 2 ^ 20)%Z ->
  w * (Rabs (B2R speed) * Rabs (B2R (step_scale s i))) <= 2 * IZR z + / 1024 -> exists n, to_step_v s (fmul d speed) i = Ok n /\ (Z.abs n <= z)%Z.
Proof.
  intros w s d speed i z [W1 W2] [Fd Bd] Fp HS Hz HB. destruct (scale_half s i HS) as [Fv Bv]. destruct HS as [Fs Bs].
  set (p := Rabs (B2R speed)) in *. set (k := Rabs (B2R (step_scale s i))) in *. set (h := v_scale s i) in *.
  pose proof u53_val as UV. assert (P0 : 0 <= p) by apply Rabs_pos.
  assert (TT : 0 < tiny <= u53 * u53) by (split; [apply tiny_pos|apply tiny_u]). rewrite UV in *.
  assert (Z1 : 1 <= IZR z <= 1048576) by (split; [apply (IZR_le 1)|apply (IZR_le _ 1048576)]; lia).
  assert (PK0 : 0 <= p * k) by (apply Rmult_le_pos; lra).
  assert (PK : p * k <= 2 * IZR z + / 1024).
  { apply Rle_trans with (w * (p * k)); [|exact HB]. rewrite <- (Rmult_1_l (p * k)) at 1. apply Rmult_le_compat_r; lra. }
  assert (P1 : p <= 3 * IZR z * 65536) by nra.
  assert (WP : 0 <= w * p <= 6 * IZR z * 65536) by nra.
  assert (M1 : Rabs (B2R d * B2R speed) <= w * p).
  { rewrite Rabs_mult. fold p. apply Rmult_le_compat_r; assumption. }
  destruct (fmul_val d speed Fd Fp) as [F1 E1].
  { eapply Rle_trans; [exact M1|]. apply Rle_trans with (IZR (2 ^ 40)); [|apply Z_small; vm_compute; discriminate].
    change (IZR (2 ^ 40)) with 1099511627776. nra. }
  assert (M2 : Rabs (B2R (fmul d speed)) <= w * p * (1 + / 9007199254740992) + tiny).
  { rewrite E1. eapply Rle_trans; [apply rne_up|]. rewrite UV. nra. }
  set (x := fmul d speed) in *.
  assert (M3 : Rabs (B2R x * B2R h) <= IZR z + / 1024).
  { rewrite Rabs_mult. apply Rle_trans with ((w * p * (1 + / 9007199254740992) + tiny) * (k / 2 * (1 + / 9007199254740992) + tiny)).
    - apply Rmult_le_compat; try apply Rabs_pos; assumption.
    - assert (T0 : tiny <= / 1073741824 * / 1099511627776) by lra.
      assert (A1 : w * (p * k) * (/ 2 * ((1 + / 9007199254740992) * (1 + / 9007199254740992))) <= (IZR z + / 2048) * (1 + 4 * / 9007199254740992)).
      { apply Rle_trans with ((2 * IZR z + / 1024) * (/ 2 * ((1 + / 9007199254740992) * (1 + / 9007199254740992)))); [apply Rmult_le_compat_r; lra|].
        replace ((2 * IZR z + / 1024) * (/ 2 * ((1 + / 9007199254740992) * (1 + / 9007199254740992)))) with ((IZR z + / 2048) * ((1 + / 9007199254740992) * (1 + / 9007199254740992))) by field.
        apply Rmult_le_compat_l; lra. }
      assert (A2 : w * p * (1 + / 9007199254740992) * tiny <= 1099511627776 * (/ 1073741824 * / 1099511627776)).
      { apply Rmult_le_compat; try lra. }
      assert (A3 : tiny * (k / 2 * (1 + / 9007199254740992) + tiny) <= (/ 1073741824 * / 1099511627776) * 4194304).
      { apply Rmult_le_compat; lra. }
      replace ((w * p * (1 + / 9007199254740992) + tiny) * (k / 2 * (1 + / 9007199254740992) + tiny))
        with (w * (p * k) * (/ 2 * ((1 + / 9007199254740992) * (1 + / 9007199254740992))) + w * p * (1 + / 9007199254740992) * tiny
              + tiny * (k / 2 * (1 + / 9007199254740992) + tiny)) by field.
      lra. }
  destruct (fmul_val x h F1 Fv) as [F2 E2].
  { eapply Rle_trans; [exact M3|]. apply Rle_trans with (IZR (2 ^ 30)); [|apply Z_small; vm_compute; discriminate].
    change (IZR (2 ^ 30)) with 1073741824. lra. }
  assert (S : (Z.abs (ZnearestA (B2R (fmul x h))) <= z)%Z).
  { apply nearest_small. rewrite E2. eapply Rle_lt_trans; [apply rne_up|]. rewrite UV.
    assert (Rabs (B2R x * B2R h) * (1 + / 9007199254740992) <= (IZR z + / 1024) * (1 + / 9007199254740992)) by (apply Rmult_le_compat_r; lra).
    lra. }
  exists (ZnearestA (B2R (fmul x h))). split; [|exact S].
  apply C105_speeds. cbv zeta. fold h. split; [exact F2|]. split; [apply nearest_is; reflexivity|lia].
Qed.

Lemma trunc_small : forall r z, (0 <= z)%Z -> Rabs r <= IZR z -> (Z.abs (Ztrunc r) <= z)%Z.
Proof.
  intros r z Hz H. apply abs_between in H. destruct H as [H1 H2]. replace (IZR z) with (- IZR (- z)) in H1 by (rewrite opp_IZR; ring).
  assert (A : (Ztrunc (IZR (- z)) <= Ztrunc r)%Z) by (apply Ztrunc_le; lra).
  assert (B : (Ztrunc r <= Ztrunc (IZR z))%Z) by (apply Ztrunc_le; lra). rewrite !Ztrunc_IZR in *. lia.
Qed.

Lemma target_small : forall s start pos i, scale_ok s i -> bnd (2 ^ 38) (fidx pos i) -> bnd (2 ^ 38) (fidx start i) ->
  (Z.abs (target s start pos i) <= 2 ^ 62)%Z.
Proof.
  intros s start pos i [Fs Bs] Bp Bt. unfold target.
  assert (B := bnd_add (2 ^ 38) (2 ^ 38) _ _ ltac:(lia) ltac:(lia) ltac:(vm_compute; discriminate) Bp Bt).
  set (x := fadd (fidx pos i) (fidx start i)) in *. change (2 ^ 38 + 2 ^ 38)%Z with (2 ^ 39)%Z in B. destruct B as [Fx B].
  assert (M : Rabs (B2R x * B2R (step_scale s i)) <= bpow radix2 61).
  { rewrite Rabs_mult. change (bpow radix2 61) with (IZR (2 ^ 39 * 4194304)). rewrite mult_IZR.
    apply Rmult_le_compat; try apply Rabs_pos; lra. }
  destruct (fmul_val x (step_scale s i) Fx Fs) as [F E]; [eapply Rle_trans; [exact M|apply bpow_le; lia]|].
  unfold f_as_i64. rewrite f_as_trunc by exact F.
  assert (S : (Z.abs (Ztrunc (B2R (fmul x (step_scale s i)))) <= 2 ^ 61)%Z).
  { apply trunc_small; [lia|]. rewrite E. change (IZR (2 ^ 61)) with (bpow radix2 61).
    apply abs_round_le_generic; [typeclasses eauto|typeclasses eauto|apply pow_format; lia|exact M]. }
  assert (-2 ^ 61 <= i64_min \/ i64_min <= - 2 ^ 61)%Z by lia. unfold i64_min, i64_max in *. lia.
Qed.

(** ** Runs of lines *)

(** A place that can be drawn to: in reach, and no coordinate too close to zero without being zero. *)
Definition in_reach (w : R) (D : Z) (p : fvec) : Prop := forall i, bnd D (fidx p i) /\ clear_of_zero w (fidx p i).

Lemma run_flat : forall g w k D q x part l q' y, bound_ok w -> (1 <= D <= 2 ^ 16)%Z -> run_of g k q x part l q' y -> Forall straight part ->
  in_reach w D q -> (forall p, In (SLineTo p) part \/ In (SCloseTo p) part -> in_reach w D p) ->
  Forall (flat w D) (map snd l) /\ (length l <= length part)%nat.
Proof.
  intros g w k D q x part l q' y HW HD H. induction H; intros HS HQ HP.
  - split; [constructor|]. auto.
  - inversion HS; subst. destruct IHrun_of as [A B]; auto; [intros u [U|U]; apply HP; [left|right]; right; exact U|].
    split; [exact A|]. cbn [length]. lia.
  - inversion HS; subst. destruct IHrun_of as [A B]; auto; [apply HP; right; left; reflexivity|intros u [U|U]; apply HP; [left|right]; right; exact U|].
    split; [exact A|]. cbn [length]. lia.
  - inversion HS as [|? ? S1 S2]; subst.
    assert (J : curve = fline (fvsub next pos) /\ in_reach w D next).
    { destruct seg; try contradiction; cbn [seg_info] in H0; try discriminate; injection H0 as <- <-; (split; [reflexivity|]); apply HP; [left|right]; left; reflexivity. }
    destruct J as [-> RN]. destruct IHrun_of as [A B]; auto; [intros u [U|U]; apply HP; [left|right]; right; exact U|].
    cbn [map snd length]. split; [|lia]. constructor; [|exact A]. apply line_flat; assumption.
Qed.

Lemma lines_ok : forall g s speed w v G N D pos segs, bound_ok w -> searches g -> (1 <= D <= 2 ^ 16)%Z -> (Z.of_nat (length segs) <= 2 ^ 20)%Z ->
  (D * Z.of_nat (length segs) <= 2 ^ 32)%Z -> (forall i, scale_ok s i) -> (forall i, IZR D * Rabs (B2R (step_scale s i)) <= IZR (G i)) -> (forall i, 0 <= G i <= 2 ^ 52)%Z ->
  (forall i, 1 <= v i <= 2 ^ 20)%Z -> is_finite speed = true ->
  (forall i, w * (Rabs (B2R speed) * Rabs (B2R (step_scale s i))) <= 2 * IZR (v i) + / 1024) ->
  (forall p, names pos segs p -> in_reach w D p) -> Forall straight segs ->
  (forall q s1 part s2 l q' y jl, names pos segs q -> segs = s1 ++ part ++ s2 ->
     run_of g (fun _ => True) q None part l q' y -> join_from [] (map snd l) = Ok jl -> l <> [] ->
     (curve_ticks (fconcat g jl) speed <= N)%Z) ->
  runs_ok g s speed v G N pos segs.
Proof.
  intros g s speed w v G N D pos segs HW HG HD Hn HDn HS HDG HGb Hv Fp HV HR HF HT q s1 part s2 l q' y jl Hq Es Hr Hj Hl.
  assert (RQ := HR q Hq).
  assert (IN : forall x, In x part -> In x segs) by (intros x Hx; rewrite Es; apply in_or_app; right; apply in_or_app; left; exact Hx).
  destruct (run_flat g w _ D q None part l q' y HW HD Hr) as [FL LL]; auto.
  { rewrite Forall_forall in *. intros x Hx. apply HF, IN, Hx. }
  { intros p [Hp|Hp]; apply HR; [apply nm_line|apply nm_close]; apply IN, Hp. }
  assert (LP : (length part <= length segs)%nat) by (rewrite Es, !app_length; clear; lia).
  set (n := Z.of_nat (length (map snd l))) in *.
  assert (Bn : (0 <= n <= 2 ^ 20)%Z) by (unfold n; rewrite map_length; clear - Hn LL LP; unfold piece in *; lia).
  assert (Bd : (D * n <= 2 ^ 32)%Z).
  { apply Z.le_trans with (D * Z.of_nat (length segs))%Z; [|exact HDn]. apply Z.mul_le_mono_nonneg_l; [clear - HD; lia|].
    unfold n. rewrite map_length. clear - LL LP. unfold piece in *. lia. }
  assert (FJ : Forall (flat_seg w D n) jl).
  { replace n with (0 + n)%Z by (clear; lia). apply (join_flat w D (map snd l) 0 []); auto; try (clear; lia). fold n. clear - Bn. lia. }
  assert (NE : jl <> []) by (apply (join_nonempty _ _ _ Hj); left; destruct l; [congruence|discriminate]).
  destruct (length_flat w D n jl ltac:(clear - HD; lia) (proj1 Bn) FJ) as [[FLn BL] PL].
  constructor.
  - intros i. destruct (RQ i) as [[Fq Bq] _]. destruct (HS i) as [Fs Bs]. apply steps_small; auto.
    eapply Rle_trans; [|apply HDG]. rewrite Rabs_mult. apply Rmult_le_compat_r; [apply Rabs_pos|exact Bq].
  - destruct (value_flat g w D n jl fzero HW HG HD Bn Bd FJ NE) as (p & d & E & U); [apply zero_bnd; clear; lia|].
    exists p, d. split; [exact E|]. intros i. rewrite fidx_mul. apply (speed_small w); auto. apply U.
  - apply (HT q s1 part s2 l q' y jl); assumption.
  - intros k Hk. set (L := fconcat_length jl) in *.
    assert (L39 : B2R L <= IZR (2 ^ 35)).
    { rewrite Rabs_pos_eq in BL by exact PL. eapply Rle_trans; [exact BL|]. apply IZR_le. clear - Bd. lia. }
    assert (LH : 0 <= B2R L <= huge).
    { split; [exact PL|]. eapply Rle_trans; [exact L39|]. unfold huge. change (IZR (2 ^ 35)) with (bpow radix2 35). apply bpow_le. clear. lia. }
    destruct (place_bounds L (fround (fdiv L speed)) k FLn LH (proj1 Hk) (proj2 Hk)) as [FP BP].
    destruct (value_flat g w D n jl (fmul (f_of_Z k) (fdiv L (fround (fdiv L speed)))) HW HG HD Bn Bd FJ NE) as (p & d & E & U).
    { split; [exact FP|]. rewrite Rabs_pos_eq by apply BP. pose proof u53_val as UV. rewrite UV in BP.
      change (IZR (2 ^ 35)) with 34359738368 in L39. change (IZR (2 ^ 36)) with 68719476736. lra. }
    exists p, d. split; [exact E|]. intros i. apply target_small; [apply HS|apply U|].
    eapply bnd_le; [|apply RQ]. clear - HD. lia.
Qed.
