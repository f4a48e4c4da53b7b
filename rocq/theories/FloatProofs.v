(** Bounds on binary64 computations. *)
From Coq Require Import ZArith Reals Lia Lra Bool Psatz.
From Flocq Require Import Core BinarySingleNaN.
From Verif Require Import Base Floats.
Open Scope R_scope.

Notation bexp := (SpecFloat.fexp 53 1024).
Notation rne := (round radix2 bexp ZnearestE).

Lemma bexp_flt : bexp = FLT_exp (-1074) 53.
Proof. reflexivity. Qed.

#[global] Instance bexp_valid : Valid_exp bexp.
Proof. rewrite bexp_flt. apply FLT_exp_valid. reflexivity. Qed.

(** Sixteenths up to 2^49. *)
Definition sixt (k : Z) : R := IZR k / 16.

Lemma sixt_format : forall k, (0 <= k < 2 ^ 53)%Z -> generic_format radix2 bexp (sixt k).
Proof.
  intros k Hk. rewrite bexp_flt. apply generic_format_FLT.
  exists (Float radix2 k (-4)).
  - unfold F2R, sixt. cbn [Fnum Fexp]. change (bpow radix2 (-4)) with (/ 16). reflexivity.
  - cbn [Fnum]. change (radix2 ^ 53)%Z with (2 ^ 53)%Z. lia.
  - cbn [Fexp]. lia.
Qed.

Lemma sixt_lt_emax : forall k, (0 <= k < 2 ^ 53)%Z -> sixt k < bpow radix2 1024.
Proof.
  intros k Hk. apply Rle_lt_trans with (IZR k).
  - unfold sixt. assert (0 <= IZR k) by (apply IZR_le; lia). lra.
  - apply Rlt_trans with (IZR (2 ^ 53)); [apply IZR_lt; lia|].
    change (IZR (2 ^ 53)) with (bpow radix2 53). apply bpow_lt. lia.
Qed.

(** NaN, or a number of magnitude at most k/16. *)
Definition small (k : Z) (x : f64) : Prop := x = B754_nan \/ (is_finite x = true /\ Rabs (B2R x) <= sixt k).

Lemma small_le : forall k k' x, (k <= k')%Z -> small k x -> small k' x.
Proof.
  intros k k' x H [S|[F B]]; [left; auto|right]. split; auto.
  unfold sixt in *. apply IZR_le in H. lra.
Qed.

Lemma round_sixt : forall k r, (0 <= k < 2 ^ 53)%Z -> Rabs r <= sixt k ->
  Rabs (rne r) <= sixt k /\ Rlt_bool (Rabs (rne r)) (bpow radix2 1024) = true.
Proof.
  intros k r Hk Hr.
  assert (B : Rabs (rne r) <= sixt k) by (apply abs_round_le_generic; auto; [typeclasses eauto|apply valid_rnd_N|apply sixt_format; auto]).
  split; auto. apply Rlt_bool_true. eapply Rle_lt_trans; [exact B|]. apply sixt_lt_emax; auto.
Qed.

Lemma fadd_small : forall a b k x y, (0 <= a)%Z -> (0 <= b)%Z -> (a + b <= k)%Z -> (k < 2 ^ 53)%Z ->
  small a x -> small b y -> small k (fadd x y).
Proof.
  intros a b k x y Ha Hb Hk H53 [->|[Fx Bx]] Sy.
  { left. destruct y; reflexivity. }
  destruct Sy as [->|[Fy By]].
  { left. destruct x; reflexivity. }
  right. pose proof (Bplus_correct 53 1024 prec_ok emax_ok mode_NE x y Fx Fy) as C.
  assert (Hr : Rabs (B2R x + B2R y) <= sixt k).
  { eapply Rle_trans; [apply Rabs_triang|]. unfold sixt in *. apply IZR_le in Hk. rewrite plus_IZR in Hk. lra. }
  destruct (round_sixt k _ ltac:(lia) Hr) as [B L]. cbn [round_mode] in C. rewrite L in C.
  destruct C as (E & F & _). split; [exact F|]. unfold fadd. rewrite E. exact B.
Qed.

Lemma fmul_small : forall k x y, (0 <= k < 2 ^ 53)%Z -> is_finite y = true ->
  (is_finite x = true -> Rabs (B2R x * B2R y) <= sixt k) ->
  x = B754_nan \/ is_finite x = true -> small k (fmul x y).
Proof.
  intros k x y Hk Fy Hm [->|Fx].
  { left. destruct y; reflexivity. }
  specialize (Hm Fx). right. pose proof (Bmult_correct 53 1024 prec_ok emax_ok mode_NE x y) as C.
  destruct (round_sixt k _ Hk Hm) as [B L]. cbn [round_mode] in C. rewrite L in C.
  destruct C as (E & F & _). unfold fmul. rewrite F, Fx, Fy, E. auto.
Qed.

(** Integers of magnitude below 2^53 are exact. *)
Lemma Z_format : forall z, (Z.abs z <= 2 ^ 53)%Z -> generic_format radix2 bexp (IZR z).
Proof.
  intros z Hz. rewrite bexp_flt.
  destruct (Z.eq_dec (Z.abs z) (2 ^ 53)) as [E|E].
  - assert (D : z = (2 ^ 53)%Z \/ z = (- 2 ^ 53)%Z) by lia.
    assert (G : generic_format radix2 (FLT_exp (-1074) 53) (IZR (2 ^ 53))).
    { change (IZR (2 ^ 53)) with (bpow radix2 53). apply generic_format_bpow. cbn. lia. }
    destruct D as [->| ->]; [exact G|]. rewrite opp_IZR. apply generic_format_opp, G.
  - apply generic_format_FLT. exists (Float radix2 z 0).
    + unfold F2R. cbn [Fnum Fexp]. cbn [bpow]. ring.
    + cbn [Fnum]. change (radix2 ^ 53)%Z with (2 ^ 53)%Z. lia.
    + cbn [Fexp]. lia.
Qed.

Lemma f_of_Z_exact : forall z, (Z.abs z <= 2 ^ 53)%Z -> is_finite (f_of_Z z) = true /\ B2R (f_of_Z z) = IZR z.
Proof.
  intros z Hz. pose proof (binary_normalize_correct 53 1024 prec_ok emax_ok mode_NE z 0 false) as C.
  cbv zeta in C. assert (E : F2R (Float radix2 z 0) = IZR z).
  { unfold F2R. cbn [Fnum Fexp bpow]. ring. }
  rewrite E in C. rewrite round_generic in C; [|apply valid_rnd_N|apply Z_format; auto].
  rewrite Rlt_bool_true in C.
  - destruct C as (C1 & C2 & _). unfold f_of_Z. auto.
  - rewrite <- abs_IZR. apply Rle_lt_trans with (bpow radix2 53); [|apply bpow_lt; lia].
    change (bpow radix2 53) with (IZR (2 ^ 53)). apply IZR_le. lia.
Qed.

Lemma tenth_bound : is_finite (lit 1 10) = true /\ Rabs (B2R (lit 1 10)) <= / 8 /\ 0 < B2R (lit 1 10).
Proof.
  split; [vm_compute; reflexivity|]. rewrite <- SF2R_B2SF, lit_tenth. cbn [SF2R cond_Zopp]. unfold F2R. cbn [Fnum Fexp].
  change (bpow radix2 (-56)) with (/ IZR (2 ^ 56)). change (2 ^ 56)%Z with 72057594037927936%Z.
  rewrite Rabs_right; lra.
Qed.

Lemma half_value : is_finite (lit 1 2) = true /\ B2R (lit 1 2) = / 2.
Proof.
  assert (V : B2SF (lit 1 2) = SpecFloat.S754_finite false 4503599627370496 (-53)) by (vm_compute; reflexivity).
  split; [vm_compute; reflexivity|]. rewrite <- SF2R_B2SF, V. cbn [SF2R cond_Zopp]. unfold F2R. cbn [Fnum Fexp].
  change (bpow radix2 (-53)) with (/ IZR (2 ^ 53)). change (2 ^ 53)%Z with 9007199254740992%Z. lra.
Qed.

Lemma one_minus_half : fsub (f_of_Z 1) (lit 1 2) = lit 1 2.
Proof. apply B2SF_inj. vm_compute. reflexivity. Qed.

(** Halving loses nothing here. *)
Lemma fhalf_small : forall k x, (0 <= k)%Z -> (8 * k < 2 ^ 53)%Z -> small (2 * k) x -> small k (fmul x (lit 1 2)).
Proof.
  intros k x Hk H53 S. destruct half_value as [F E]. apply fmul_small; auto; [lia| |].
  - intros Fx. rewrite E, Rabs_mult, (Rabs_right (/ 2)) by lra. destruct S as [->|[_ B]]; [discriminate|].
    unfold sixt in *. rewrite mult_IZR in B. lra.
  - destruct S as [->|[Fx _]]; auto.
Qed.

(** Rounding to an integer type. *)
Lemma f_as_round : forall lo hi x, is_finite x = true ->
  f_as lo hi (fround x) = Z.max lo (Z.min hi (ZnearestA (B2R x))).
Proof.
  intros lo hi x Fx.
  pose proof (Bnearbyint_correct 53 1024 emax_ok mode_NA x) as (E & F & _). cbn [round_mode] in E.
  rewrite Fx in F. fold (fround x) in E, F.
  pose proof (Btrunc_correct 53 1024 emax_ok (fround x)) as T. rewrite E in T.
  assert (RI : forall r, round radix2 (FIX_exp 0) ZnearestA r = IZR (ZnearestA r)).
  { intros r. unfold round, F2R, scaled_mantissa, cexp, FIX_exp. cbn [Fnum Fexp bpow Z.opp].
    rewrite !Rmult_1_r. reflexivity. }
  assert (RT : forall z, round radix2 (FIX_exp 0) Ztrunc (IZR z) = IZR z).
  { intros z. unfold round, F2R, scaled_mantissa, cexp, FIX_exp. cbn [Fnum Fexp bpow Z.opp].
    rewrite !Rmult_1_r. rewrite Ztrunc_IZR. reflexivity. }
  rewrite RI, RT in T. apply eq_IZR in T. rewrite <- T.
  destruct (fround x) as [s|s| |s m e H] eqn:EQ; try discriminate; reflexivity.
Qed.

(** A quotient below 2^31 is off by at most 2^-23. *)
Lemma fdiv_error : forall x y, is_finite x = true -> is_finite y = true -> B2R y <> 0 ->
  Rabs (B2R x / B2R y) < bpow radix2 31 ->
  is_finite (fdiv x y) = true /\ Rabs (B2R (fdiv x y) - B2R x / B2R y) <= bpow radix2 (-23).
Proof.
  intros x y Fx Fy Hy Hq. set (q := B2R x / B2R y) in *.
  assert (U : Rabs (rne q - q) <= bpow radix2 (-23)).
  { eapply Rle_trans; [apply error_le_half_ulp; typeclasses eauto|].
    destruct (Req_dec q 0) as [Z|NZ].
    - rewrite Z.
      assert (V : ulp radix2 bexp 0 <= bpow radix2 (-22)).
      { apply Rle_trans with (ulp radix2 bexp (bpow radix2 30)).
        - apply ulp_le; try typeclasses eauto. rewrite Rabs_R0. apply Rabs_pos.
        - rewrite ulp_bpow. apply bpow_le. vm_compute. discriminate. }
      change (bpow radix2 (-22)) with (/ IZR (2 ^ 22)) in V. change (bpow radix2 (-23)) with (/ IZR (2 ^ 23)).
      change (2 ^ 22)%Z with 4194304%Z in V. change (2 ^ 23)%Z with 8388608%Z. lra.
    - rewrite ulp_neq_0 by auto. assert (M : (mag radix2 q <= 31)%Z) by (apply mag_le_bpow; auto).
      assert (V : bpow radix2 (cexp radix2 bexp q) <= bpow radix2 (-22)).
      { apply bpow_le. unfold cexp. rewrite bexp_flt. unfold FLT_exp. lia. }
      change (bpow radix2 (-22)) with (/ IZR (2 ^ 22)) in V. change (bpow radix2 (-23)) with (/ IZR (2 ^ 23)).
      change (2 ^ 22)%Z with 4194304%Z in V. change (2 ^ 23)%Z with 8388608%Z. lra. }
  pose proof (Bdiv_correct 53 1024 prec_ok emax_ok mode_NE x y Hy) as C. cbn [round_mode] in C. fold q in C.
  rewrite Rlt_bool_true in C.
  - destruct C as (E & F & _). unfold fdiv. rewrite F, Fx, E. split; [reflexivity|]. exact U.
  - apply Rle_lt_trans with (bpow radix2 31); [|apply bpow_lt; lia].
    apply abs_round_le_generic; [typeclasses eauto|apply valid_rnd_N| |lra].
    apply generic_format_bpow. vm_compute. discriminate.
Qed.

Lemma f_as_small : forall lo hi k x, (lo <= 0 <= hi)%Z -> small k x -> (0 <= k)%Z ->
  (16 * Z.abs (f_as lo hi (fround x)) <= k + 8)%Z.
Proof.
  intros lo hi k x Hr [->|[Fx B]] Hk.
  { cbn. lia. }
  pose proof (Bnearbyint_correct 53 1024 emax_ok mode_NA x) as (E & F & _). cbn [round_mode] in E.
  rewrite Fx in F. fold (fround x) in E, F.
  pose proof (Btrunc_correct 53 1024 emax_ok (fround x)) as T. rewrite E in T.
  assert (RI : forall r, round radix2 (FIX_exp 0) ZnearestA r = IZR (ZnearestA r)).
  { intros r. unfold round, F2R, scaled_mantissa, cexp, FIX_exp. cbn [Fnum Fexp bpow Z.opp].
    rewrite !Rmult_1_r. reflexivity. }
  assert (RT : forall z, round radix2 (FIX_exp 0) Ztrunc (IZR z) = IZR z).
  { intros z. unfold round, F2R, scaled_mantissa, cexp, FIX_exp. cbn [Fnum Fexp bpow Z.opp].
    rewrite !Rmult_1_r. rewrite Ztrunc_IZR. reflexivity. }
  rewrite RI, RT in T. apply eq_IZR in T.
  pose proof (Znearest_half (Z.leb 0) (B2R x)) as N. change (Znearest (Z.leb 0) (B2R x)) with (ZnearestA (B2R x)) in N.
  assert (K : (16 * Z.abs (Btrunc (fround x)) <= k + 8)%Z).
  { rewrite T. apply le_IZR. rewrite mult_IZR, plus_IZR, abs_IZR.
    unfold sixt in B. revert B N. generalize (IZR (ZnearestA (B2R x))). intros z B N.
    revert B N. unfold Rabs. repeat destruct Rcase_abs; intros; lra. }
  destruct (fround x) as [s|s| |s m e H] eqn:EQ; try discriminate; unfold f_as; lia.
Qed.

(** Clamping to [-a, a]. *)
Lemma clamp_small : forall a x, (0 <= a <= 32767)%Z ->
  let y := (if fgt x (f_of_Z a) then f_of_Z a
            else if flt x (fneg (f_of_Z a)) then fneg (f_of_Z a) else x) in
  small (16 * a) y.
Proof.
  intros a x Ha. assert (A53 : (32767 < 2 ^ 53)%Z) by reflexivity.
  destruct (f_of_Z_exact a ltac:(lia)) as [F E]. cbv zeta.
  assert (P : 0 <= IZR a) by (apply IZR_le; lia).
  assert (SA : small (16 * a) (f_of_Z a)).
  { right. split; auto. rewrite E. unfold sixt. rewrite mult_IZR, Rabs_right; lra. }
  assert (SN : small (16 * a) (fneg (f_of_Z a))).
  { right. unfold fneg. rewrite is_finite_Bopp, B2R_Bopp. split; auto. rewrite E. unfold sixt.
    rewrite mult_IZR, Rabs_Ropp, Rabs_right; lra. }
  unfold fgt, flt. destruct (Bltb (f_of_Z a) x) eqn:L1; [exact SA|].
  destruct (Bltb x (fneg (f_of_Z a))) eqn:L2; [exact SN|].
  destruct (is_finite x) eqn:Fx.
  - right. split; auto. rewrite Bltb_correct in L1 by auto.
    rewrite Bltb_correct in L2; [|auto|unfold fneg; rewrite is_finite_Bopp; auto].
    unfold fneg in L2. rewrite B2R_Bopp in L2. rewrite E in L1, L2.
    destruct (Rlt_bool_spec (IZR a) (B2R x)); [discriminate|].
    destruct (Rlt_bool_spec (B2R x) (- IZR a)); [discriminate|].
    unfold sixt. rewrite mult_IZR. apply Rabs_le. lra.
  - destruct x as [s|s| |s m e H]; try discriminate; [|left; reflexivity].
    exfalso. unfold fneg in *. destruct (f_of_Z a) as [s'|s'| |s' m' e' H']; try discriminate;
      destruct s; cbn in L1, L2; discriminate.
Qed.
