(** Property C128: ellipses, and circles that become ellipses, in binary64. *)
From Coq Require Import ZArith Reals List Bool NArith Arith Lia Lra Psatz Ascii String.
From Flocq Require Import Core BinarySingleNaN.
From Verif Require Import Base Chars Floats FloatProofs FloatScale FloatErr FloatCurve ApproxCurve StepperContext DrawCurves SvgDocument FloatPath FloatLex FloatDocument
  FloatAngles PropsCircle FloatArc FloatChord FloatEllipse PropsFloatArc.
Import ListNotations.
Open Scope R_scope.

(** The matrix scales x by [fm0] and y by [fm3], whatever they are. *)
Definition stretching (tr : ftransform) : Prop := feq (fm1 tr) fzero = true /\ feq (fm2 tr) fzero = true /\ ordinary (fm0 tr) /\ ordinary (fm3 tr).

(** The radii of the ellipse of an arc after the transform. *)
Definition radius_x (tr : ftransform) (a : farc_args) : R := Rabs (B2R (fm0 tr)) * Rabs (B2R (farc_rx a)).
Definition radius_y (tr : ftransform) (a : farc_args) : R := Rabs (B2R (fm3 tr)) * Rabs (B2R (farc_ry a)).

(** atan2 of zero and a negative number is half a turn, one way or the other, and the sine and cosine of
    a quarter turn are 1 and next to nothing. *)
Definition right_angles (tg : trig) : Prop :=
  (forall x y, feq x fzero = true -> is_finite y = true -> Bsign y = true -> f_atan2 tg x y = f_pi \/ f_atan2 tg x y = fneg f_pi) /\
  forall t, t = fdiv f_pi (f_of_Z 2) \/ t = fdiv (fneg f_pi) (f_of_Z 2) ->
    (f_sin tg t = fone \/ f_sin tg t = fneg fone) /\ is_finite (f_cos tg t) = true /\ Rabs (B2R (f_cos tg t)) <= / 2 ^ 53.

Definition close (S : R) (x : f64) : Prop := is_finite x = true /\ Rabs (B2R x - S) <= 13 * S / 2 ^ 53.

Lemma rp_close : forall S x, 0 < S -> is_finite x = true -> rp 12 S (B2R x) -> close S x.
Proof.
  intros S x P F (g & G & E). split; [exact F|]. pose proof u53_pos as [U0 U1]. pose proof w53_pos as W.
  assert (UP : (1 + w53) ^ 12 <= 1 + 12.5 * u53) by (unfold w53; rewrite u53_val; cbn [pow]; lra).
  pose proof (pow_w 12) as PW.
  assert (LO : 1 - 12.5 * u53 <= / (1 + w53) ^ 12).
  { apply Rle_trans with (/ (1 + 12.5 * u53)); [|apply Rinv_le_contravar; lra].
    apply Rmult_le_reg_r with (1 + 12.5 * u53); [lra|]. rewrite Rinv_l by lra. nra. }
  rewrite E. replace (S * g - S) with ((g - 1) * S) by ring. unfold Rdiv. rewrite <- u53_pow. rewrite Rabs_mult, (Rabs_pos_eq S) by lra.
  replace (13 * S * u53) with (13 * u53 * S) by ring. apply Rmult_le_compat_r; [lra|]. apply Rabs_le. lra.
Qed.

Lemma radii_pos : forall tr a, stretching tr -> ordinary (farc_rx a) -> ordinary (farc_ry a) -> 0 < radius_x tr a /\ 0 < radius_y tr a.
Proof.
  intros tr a (_ & _ & O0 & O3) OX OY. destruct (ordinary_rng _ O0) as [_ G0]. destruct (ordinary_rng _ O3) as [_ G3]. destruct (ordinary_rng _ OX) as [_ GX]. destruct (ordinary_rng _ OY) as [_ GY].
  split; apply Rmult_lt_0_compat; apply Rabs_pos_lt; eapply rng_nz; eassumption.
Qed.

Lemma wide_radii : forall tg tr a, zero_exact tg -> stretching tr -> ordinary (farc_rx a) -> ordinary (farc_ry a) -> feq (farc_rot a) fzero = true ->
  radius_y tr a * (1 + 20 / 2 ^ 53) <= radius_x tr a ->
  exists x y z, ftransform_ellipse tg (farc_rx a) (farc_ry a) (farc_rot a) (mk_fmat (fm0 tr) (fm2 tr) (fm1 tr) (fm3 tr)) = Ok (x, y, z) /\
    close (radius_x tr a) x /\ close (radius_y tr a) y /\ feq z fzero = true.
Proof.
  intros tg tr a ZE ST OX OY ROT W. destruct (radii_pos tr a ST OX OY) as [PX PY]. destruct ST as (Z1 & Z2 & O0 & O3).
  destruct (ordinary_rng _ O0) as [F0 G0]. destruct (ordinary_rng _ O3) as [F3 G3]. destruct (ordinary_rng _ OX) as [FX GX]. destruct (ordinary_rng _ OY) as [FY GY].
  unfold Rdiv in W. rewrite <- u53_pow in W.
  destruct (wide_ellipse tg _ _ _ _ _ _ _ ZE (feq_z _ ROT) FX FY GX GY F0 F3 G0 G3 (feq_z _ Z1) (feq_z _ Z2) W) as (x & y & z & E & Z & Fx & Fy & Px & Py).
  exists x, y, z. split; [exact E|]. split; [apply rp_close; assumption|]. split; [apply rp_close; assumption|]. apply z_feq, Z.
Qed.

Lemma tall_radii : forall tg tr a, zero_exact tg -> right_angles tg -> stretching tr -> ordinary (farc_rx a) -> ordinary (farc_ry a) -> feq (farc_rot a) fzero = true ->
  radius_x tr a * (1 + 20 / 2 ^ 53) <= radius_y tr a -> radius_y tr a <= 2 ^ 20 * radius_x tr a ->
  exists x y z, ftransform_ellipse tg (farc_rx a) (farc_ry a) (farc_rot a) (mk_fmat (fm0 tr) (fm2 tr) (fm1 tr) (fm3 tr)) = Ok (x, y, z) /\
    close (radius_y tr a) x /\ close (radius_x tr a) y /\ (z = fdiv f_pi (f_of_Z 2) \/ z = fdiv (fneg f_pi) (f_of_Z 2)).
Proof.
  intros tg tr a ZE RA ST OX OY ROT W L. destruct (radii_pos tr a ST OX OY) as [PX PY]. destruct ST as (Z1 & Z2 & O0 & O3).
  destruct (ordinary_rng _ O0) as [F0 G0]. destruct (ordinary_rng _ O3) as [F3 G3]. destruct (ordinary_rng _ OX) as [FX GX]. destruct (ordinary_rng _ OY) as [FY GY].
  unfold Rdiv in W. rewrite <- u53_pow in W. assert (QE : quarter_exact tg) by (unfold quarter_exact; rewrite u53_pow; exact RA).
  destruct (tall_ellipse tg _ _ _ _ _ _ _ ZE (feq_z _ ROT) FX FY GX GY F0 F3 G0 G3 (feq_z _ Z1) (feq_z _ Z2) QE W L) as (x & y & z & E & Z & Fx & Fy & Px & Py).
  exists x, y, z. split; [exact E|]. split; [apply rp_close; assumption|]. split; [apply rp_close; assumption|exact Z].
Qed.

(** An ellipse that comes out wider than tall keeps its axes, and its radii are scaled with an error in the last places. *)
Theorem C128_wide : forall tg tr a d, zero_exact tg -> stretching tr -> ordinary (farc_rx a) -> ordinary (farc_ry a) -> feq (farc_rot a) fzero = true ->
  radius_y tr a * (1 + 20 / 2 ^ 53) <= radius_x tr a ->
  match farc_segment tg tr a d with
  | Ok (Some (SArc x y _ _ z)) => close (radius_x tr a) x /\ close (radius_y tr a) y /\ feq z fzero = true
  | Ok None => True
  | _ => False
  end.
Proof.
  intros tg tr a d ZE ST OX OY ROT W. destruct (wide_radii tg tr a ZE ST OX OY ROT W) as (x & y & z & E & H).
  unfold farc_segment. rewrite E. cbn [bind]. destruct (fchord x y _ _) as [[[[x1 y1] x2] y2]|]; [|exact I]. destruct (farc_angles _ _ _ _ _ _ _ _ _) as [a1 a2]. exact H.
Qed.

(** One that comes out taller than wide gets its radii the other way round and its axes turned by a right angle. *)
Theorem C128_tall : forall tg tr a d, zero_exact tg -> right_angles tg -> stretching tr -> ordinary (farc_rx a) -> ordinary (farc_ry a) -> feq (farc_rot a) fzero = true ->
  radius_x tr a * (1 + 20 / 2 ^ 53) <= radius_y tr a -> radius_y tr a <= 2 ^ 20 * radius_x tr a ->
  match farc_segment tg tr a d with
  | Ok (Some (SArc x y _ _ z)) => close (radius_y tr a) x /\ close (radius_x tr a) y /\ (z = fdiv f_pi (f_of_Z 2) \/ z = fdiv (fneg f_pi) (f_of_Z 2))
  | Ok None => True
  | _ => False
  end.
Proof.
  intros tg tr a d ZE RA ST OX OY ROT W L. destruct (tall_radii tg tr a ZE RA ST OX OY ROT W L) as (x & y & z & E & H).
  unfold farc_segment. rewrite E. cbn [bind]. destruct (fchord x y _ _) as [[[[x1 y1] x2] y2]|]; [|exact I]. destruct (farc_angles _ _ _ _ _ _ _ _ _) as [a1 a2]. exact H.
Qed.

Lemma epsilon_value : is_finite fepsilon = true /\ B2R fepsilon = / 2 ^ 52.
Proof.
  split; [reflexivity|]. rewrite <- SF2R_B2SF. set (x := B2SF _). vm_compute in x. subst x. cbn [SF2R cond_Zopp]. unfold F2R. cbn [Fnum Fexp bpow].
  unfold Z.pow_pos. cbn [Pos.iter radix_val radix2]. match goal with |- ?a * / IZR ?b = _ => let c := eval vm_compute in b in change b with c end. cbn [pow]. lra.
Qed.

Lemma apart_reals : forall N A B x y, 0 < B -> A <= N -> B * (1 + / 2 ^ 40) <= A -> / 2 ^ 51 <= A - B -> Rabs (x - A) <= 13 * A / 2 ^ 53 -> Rabs (y - B) <= 13 * B / 2 ^ 53 ->
  1.5 * / 2 ^ 52 <= x - y <= 2 * N.
Proof.
  intros N A B x y PB BIG R D HX HY. unfold Rdiv in HX, HY. apply Rabs_le_inv in HX, HY.
  assert (E51 : / 2 ^ 51 = 2 * / 2 ^ 52) by (cbn [pow]; lra). assert (P52 : 0 < / 2 ^ 52) by (cbn [pow]; lra).
  assert (AB : A <= (2 ^ 40 + 1) * (A - B)).
  { assert (M : 2 ^ 40 * (B * (1 + / 2 ^ 40)) <= 2 ^ 40 * A) by (apply Rmult_le_compat_l; [apply pow_le; lra|exact R]).
    replace (2 ^ 40 * (B * (1 + / 2 ^ 40))) with (2 ^ 40 * B + B) in M by (cbn [pow]; lra). lra. }
  assert (S1 : 13 * A * / 2 ^ 53 + 13 * B * / 2 ^ 53 <= 0.01 * (A - B)).
  { apply Rle_trans with (26 * / 2 ^ 53 * A); [assert (0 < / 2 ^ 53) by (cbn [pow]; lra); nra|].
    apply Rle_trans with (26 * / 2 ^ 53 * ((2 ^ 40 + 1) * (A - B))); [apply Rmult_le_compat_l; [cbn [pow]; lra|exact AB]|].
    rewrite <- Rmult_assoc. apply Rmult_le_compat_r; [lra|]. cbn [pow]. lra. }
  split; lra.
Qed.

Lemma apart : forall A B x y, 0 < B -> A <= 2 ^ 198 -> B * (1 + / 2 ^ 40) <= A -> / 2 ^ 51 <= A - B -> close A x -> close B y ->
  fgt (fabs (fsub x y)) fepsilon = true /\ fgt (fabs (fsub y x)) fepsilon = true.
Proof.
  intros A B x y PB BIG R D [Fx Hx] [Fy Hy]. destruct (apart_reals _ A B _ _ PB BIG R D Hx Hy) as [L U]. clear - L U Fx Fy.
  destruct epsilon_value as [FE VE]. set (e52 := / 2 ^ 52) in *. assert (E0 : / 1000000 ^ 3 < e52) by (unfold e52; cbn [pow]; lra). set (v := B2R x - B2R y) in *.
  assert (BB : Rabs v <= bpow radix2 1000).
  { rewrite Rabs_pos_eq by (assert (0 < / 1000000 ^ 3) by (apply Rinv_0_lt_compat; apply pow_lt; lra); lra). eapply Rle_trans; [exact U|].
    change (2 * 2 ^ 198) with (2 ^ 199). rewrite pow_bpow. apply bpow_le. lia. }
  assert (V : e52 < rne v).
  { destruct (rne_near v) as (e & h & He & Hh & ->). apply Rabs_le_inv in He, Hh. pose proof tiny_u as T. assert (U1 : u53 < / 1000000000000) by (rewrite u53_val; lra). pose proof u53_pos as [U0 _].
    assert (E1 : u53 = e52 / 2) by (unfold e52; rewrite u53_pow; cbn [pow]; lra).
    assert (0 < e52) by lra. assert (u53 * u53 <= 0.1 * e52) by (rewrite E1; nra). assert (v * (1 + e) >= 1.5 * e52 * 0.9) by (apply Rle_ge, Rmult_le_compat; lra). lra. }
  split.
  - destruct (fsub_val x y Fx Fy BB) as [F E]. destruct (fabs_value _ F) as [FA EA]. apply fgt_spec; [exact FA|exact FE|]. rewrite EA, VE, E.
    eapply Rlt_le_trans; [exact V|apply RRle_abs].
  - assert (BB' : Rabs (B2R y - B2R x) <= bpow radix2 1000) by (rewrite Rabs_minus_sym; exact BB).
    destruct (fsub_val y x Fy Fx BB') as [F E]. destruct (fabs_value _ F) as [FA EA]. apply fgt_spec; [exact FA|exact FE|]. rewrite EA, VE, E.
    replace (B2R y - B2R x) with (- v) by (unfold v; ring). rewrite round_NE_opp, Rabs_Ropp. eapply Rlt_le_trans; [exact V|apply RRle_abs].
Qed.

Lemma radii_bounded : forall tr a, stretching tr -> ordinary (farc_rx a) -> ordinary (farc_ry a) -> radius_x tr a <= 2 ^ 198 /\ radius_y tr a <= 2 ^ 198.
Proof.
  intros tr a (_ & _ & (_ & _ & B0) & (_ & _ & B3)) (_ & _ & BX) (_ & _ & BY). change 198%nat with (99 + 99)%nat. rewrite pow_add.
  split; apply Rmult_le_compat; try apply Rabs_pos; assumption.
Qed.

(** If the radii differ, nothing that contains the arc can be drawn. *)
Theorem C128_undrawable : forall tg tr a d seg, zero_exact tg -> right_angles tg -> stretching tr -> ordinary (farc_rx a) -> ordinary (farc_ry a) -> feq (farc_rot a) fzero = true ->
  let X := radius_x tr a in let Y := radius_y tr a in
  Y * (1 + / 2 ^ 40) <= X \/ X * (1 + / 2 ^ 40) <= Y <= 2 ^ 20 * X ->
  / 2 ^ 51 <= Rabs (X - Y) ->
  farc_segment tg tr a d = Ok (Some seg) -> undrawable seg.
Proof.
  intros tg tr a d seg ZE RA ST OX OY ROT X Y W D E. destruct (radii_pos tr a ST OX OY) as [PX PY]. destruct (radii_bounded tr a ST OX OY) as [BX BY]. fold X in PX, BX. fold Y in PY, BY.
  assert (K : forall S, 0 < S -> S * (1 + 20 / 2 ^ 53) <= S * (1 + / 2 ^ 40)) by (intros S H; apply Rmult_le_compat_l; [lra|cbn [pow]; lra]).
  assert (P40 : 0 < / 2 ^ 40) by (cbn [pow]; lra).
  destruct W as [W|[W L]].
  - destruct (wide_radii tg tr a ZE ST OX OY ROT (Rle_trans _ _ _ (K _ PY) W)) as (x & y & z & TE & CX & CY & _). fold X in CX. fold Y in CY.
    rewrite Rabs_pos_eq in D by nra. destruct (apart X Y x y PY BX W D CX CY) as [G _]. exact (uneven_undrawable tg tr a d seg x y z TE G E).
  - destruct (tall_radii tg tr a ZE RA ST OX OY ROT (Rle_trans _ _ _ (K _ PX) W) L) as (x & y & z & TE & CX & CY & _). fold Y in CX. fold X in CY.
    rewrite Rabs_minus_sym, Rabs_pos_eq in D by nra. destruct (apart Y X x y PX BY W D CX CY) as [G _]. exact (uneven_undrawable tg tr a d seg x y z TE G E).
Qed.

(** Functions like the ones assumed. *)
Definition turning_trig : trig :=
  mk_trig (fun x => if feq x right_angle then fone else if feq x (fneg right_angle) then fneg fone else f_sin known_trig x)
          (fun x => if feq x right_angle || feq x (fneg right_angle) then lit 1 (2 ^ 54) else f_cos known_trig x)
          (f_tan known_trig)
          (fun y x => if feq y fzero && is_finite x && Bsign x then if Bsign y then fneg f_pi else f_pi else f_atan2 known_trig y x).
Lemma turning_zero : zero_exact turning_trig.
Proof.
  intros x ZX. pose proof (known_zero x ZX) as (S & C & A). pose proof (feq_z _ ZX) as [b E].
  assert (R1 : feq x right_angle = false) by (rewrite E; destruct b; vm_compute; reflexivity).
  assert (R2 : feq x (fneg right_angle) = false) by (rewrite E; destruct b; vm_compute; reflexivity).
  unfold turning_trig. cbn [f_sin f_cos f_atan2]. rewrite R1, R2. cbn [orb]. split; [exact S|]. split; [exact C|].
  intros y F B. rewrite B, andb_false_r. apply A; assumption.
Qed.
Lemma turning_right : right_angles turning_trig.
Proof.
  split.
  - intros x y Z F B. unfold turning_trig. cbn [f_atan2]. rewrite Z, F, B. cbn [andb]. destruct (Bsign x); auto.
  - intros t H. assert (V : is_finite (lit 1 (2 ^ 54)) = true /\ Rabs (B2R (lit 1 (2 ^ 54))) <= / 2 ^ 53).
    { split; [reflexivity|]. rewrite <- SF2R_B2SF. set (x := B2SF _). vm_compute in x. subst x. cbn [SF2R cond_Zopp]. unfold F2R. cbn [Fnum Fexp bpow].
      unfold Z.pow_pos. cbn [Pos.iter radix_val radix2]. match goal with |- Rabs (?a * / IZR ?b) <= _ => let c := eval vm_compute in b in change b with c end. rewrite Rabs_pos_eq by lra. cbn [pow]. lra. }
    unfold turning_trig. cbn [f_sin f_cos]. destruct H as [->| ->].
    + assert (E : feq (fdiv f_pi (f_of_Z 2)) right_angle = true) by (vm_compute; reflexivity). rewrite E. cbn [orb]. auto.
    + assert (E1 : feq (fdiv (fneg f_pi) (f_of_Z 2)) right_angle = false) by (vm_compute; reflexivity).
      assert (E2 : feq (fdiv (fneg f_pi) (f_of_Z 2)) (fneg right_angle) = true) by (vm_compute; reflexivity). rewrite E1, E2. cbn [orb]. auto.
Qed.

(** Ellipses of 4 by 2 and of 2 by 4, to a place they reach. *)
Definition ellipse_args (rx ry : Z) : farc_args := mk_farc_args (f_of_Z rx) (f_of_Z ry) fzero false true (f_of_Z 2) fone.
Lemma whole_ordinary : forall n, (1 <= n <= 1000)%Z -> ordinary (f_of_Z n).
Proof.
  intros n H. destruct (f_of_Z_exact n ltac:(lia)) as [F E]. split; [exact F|]. rewrite E. assert (1 <= IZR n <= 1000) by (split; apply IZR_le; lia).
  rewrite Rabs_pos_eq by lra. assert (1000 <= 2 ^ 99) by (apply Rle_trans with (2 ^ 10); [cbn [pow]; lra|apply Rle_pow; [lra|lia]]).
  split; [|lra]. apply Rle_trans with 1; [|lra]. rewrite <- Rinv_1. apply Rinv_le_contravar; lra.
Qed.
Lemma identity_stretching : stretching fidentity.
Proof. repeat split; try reflexivity; change (fm0 fidentity) with (f_of_Z 1); change (fm3 fidentity) with (f_of_Z 1); apply whole_ordinary; lia. Qed.
Lemma identity_radii : forall rx ry, (1 <= rx <= 1000)%Z -> (1 <= ry <= 1000)%Z -> radius_x fidentity (ellipse_args rx ry) = IZR rx /\ radius_y fidentity (ellipse_args rx ry) = IZR ry.
Proof.
  intros rx ry HX HY. unfold radius_x, radius_y, ellipse_args. cbn [farc_rx farc_ry].
  change (B2R (fm0 fidentity)) with (B2R (f_of_Z 1)). change (B2R (fm3 fidentity)) with (B2R (f_of_Z 1)).
  rewrite (proj2 (f_of_Z_exact 1 ltac:(lia))), (proj2 (f_of_Z_exact rx ltac:(lia))), (proj2 (f_of_Z_exact ry ltac:(lia))).
  rewrite Rabs_R1, !Rabs_pos_eq by (apply IZR_le; lia). split; ring.
Qed.
Example C128_example : forall rx ry, (rx = 4 /\ ry = 2)%Z \/ (rx = 2 /\ ry = 4)%Z ->
  exists seg, farc_segment turning_trig fidentity (ellipse_args rx ry) (mk_fvec (f_of_Z 2) fone) = Ok (Some seg) /\ undrawable seg.
Proof.
  intros rx ry H.
  assert (T : match ftransform_ellipse turning_trig (f_of_Z rx) (f_of_Z ry) fzero (mk_fmat (fm0 fidentity) (fm2 fidentity) (fm1 fidentity) (fm3 fidentity)) with
    | Ok (x, y, _) => given (fchord x y (fsub (fmul (f_of_Z 2) fone) (fmul fone fzero)) (fadd (fmul (f_of_Z 2) fzero) (fmul fone fone)))
    | _ => false end = true) by (destruct H as [[-> ->]|[-> ->]]; vm_compute; reflexivity).
  assert (A : exists seg, farc_segment turning_trig fidentity (ellipse_args rx ry) (mk_fvec (f_of_Z 2) fone) = Ok (Some seg)).
  { unfold farc_segment, ellipse_args. cbn [farc_rx farc_ry farc_rot farc_large farc_sweep fx fy].
    destruct (ftransform_ellipse _ _ _ _ _) as [[[x y] z]| |]; try discriminate T. cbn [bind]. destruct (turning_zero fzero eq_refl) as (SR & CR & _). rewrite SR, CR.
    apply given_some in T. destruct (fchord x y _ _) as [[[[x1 y1] x2] y2]|]; [|contradiction]. destruct (farc_angles _ _ _ _ _ _ _ _ _) as [a1 a2]. eexists. reflexivity. }
  destruct A as [seg E]. exists seg. split; [exact E|].
  destruct (identity_radii rx ry ltac:(lia) ltac:(lia)) as [RX RY].
  apply (C128_undrawable turning_trig fidentity (ellipse_args rx ry) (mk_fvec (f_of_Z 2) fone) seg turning_zero turning_right identity_stretching); try (apply whole_ordinary; lia); try reflexivity; try exact E.
  - rewrite RX, RY. destruct H as [[-> ->]|[-> ->]]; [left|right]; cbn [pow]; lra.
  - rewrite RX, RY. destruct H as [[-> ->]|[-> ->]]; [rewrite Rabs_pos_eq by lra|rewrite Rabs_left by lra]; cbn [pow]; lra.
Qed.

Print Assumptions C128_wide.
Print Assumptions C128_tall.
Print Assumptions C128_undrawable.
