(** Ellipses of a path in binary64 (FloatPath.v) under a transform that scales the two axes by any two
    factors: the rounding of the two radii. *)
From Coq Require Import Reals Lra ZArith Lia Bool Psatz.
From Flocq Require Import Core BinarySingleNaN.
From Verif Require Import Base Floats FloatProofs FloatScale FloatErr FloatCurve ApproxCurve DrawCurves FloatPath FloatAngles FloatArc.
Open Scope R_scope.

Lemma sum_bounded : forall e x y, (e < 1000)%Z -> Rabs x <= bpow radix2 e -> Rabs y <= bpow radix2 e -> Rabs (x - y) <= bpow radix2 1000.
Proof.
  intros e x y L X Y. apply Rle_trans with (bpow radix2 (1 + e)); [|apply bpow_le; lia]. rewrite bpow_plus. change (bpow radix2 1) with 2.
  eapply Rle_trans; [apply Rabs_triang|]. rewrite Rabs_Ropp. lra.
Qed.

Section Wide.
Variables (g : trig) (rx ry rot m0 m1 m2 m3 : f64).
Hypothesis ZE : zero_exact g.
Hypothesis RZ : iszero rot.
Hypothesis FX : is_finite rx = true.
Hypothesis FY : is_finite ry = true.
Hypothesis GX : rng 99 (B2R rx).
Hypothesis GY : rng 99 (B2R ry).
Hypothesis F0 : is_finite m0 = true.
Hypothesis F3 : is_finite m3 = true.
Hypothesis G0 : rng 99 (B2R m0).
Hypothesis G3 : rng 99 (B2R m3).
Hypothesis Z1 : iszero m1.
Hypothesis Z2 : iszero m2.

Let d := fmul m0 m3.
Lemma wide_d : is_finite d = true /\ rp 1 (B2R m0 * B2R m3) (B2R d).
Proof. destruct (fmul_rp m0 m3 _ _ 0 0 99 99 F0 F3 (rp_exact _) (rp_exact _) G0 G3 ltac:(clear; lia) ltac:(clear; lia) ltac:(clear; lia)) as (F & _ & P). auto. Qed.
Lemma wide_dd : rng 198 (B2R m0 * B2R m3).
Proof. exact (rng_mul 99 99 _ _ G0 G3). Qed.

Lemma wide_sq : forall r : f64, is_finite r = true -> rng 99 (B2R r) -> let r2 := fmul r r in let A := fdiv fone r2 in
  proper r2 /\ proper A /\ is_finite A = true /\ rp 2 (1 / (B2R r * B2R r)) (B2R A) /\ rng 198 (1 / (B2R r * B2R r)).
Proof.
  intros r F G r2 A. destruct (fmul_rp r r _ _ 0 0 99 99 F F (rp_exact _) (rp_exact _) G G ltac:(clear; lia) ltac:(clear; lia) ltac:(clear; lia)) as (F2 & _ & P2). fold r2 in F2, P2.
  pose proof (rng_mul 99 99 _ _ G G) as G2. change (99 + 99)%Z with 198%Z in G2. destruct one_value as [F1 E1].
  destruct (fdiv_rp fone r2 1 _ 0 1 0 198 F1 F2 ltac:(rewrite E1; apply rp_exact) P2 rng_one G2 ltac:(clear; lia) ltac:(clear; lia) ltac:(clear; lia)) as (FA & _ & PA). fold A in FA, PA.
  pose proof (rng_div 0 198 _ _ rng_one G2) as GA. change (0 + 198)%Z with 198%Z in GA.
  split; [exact (rp_proper 1 _ _ _ F2 G2 ltac:(clear; lia) P2)|]. split; [exact (rp_proper 2 _ _ _ FA GA ltac:(clear; lia) PA)|]. auto.
Qed.

(** An entry of the form: [n] over the determinant is the inverse of [m]. *)
Lemma wide_row : forall r (A m n : f64), is_finite n = true -> rng 99 (B2R m) -> rng 99 (B2R n) -> B2R n * B2R m = B2R m0 * B2R m3 -> is_finite A = true -> rng 99 r ->
  rp 2 (1 / (r * r)) (B2R A) -> rng 198 (1 / (r * r)) ->
  let i := fdiv n d in let q := fmul (fmul i A) i in
  is_finite i = true /\ proper i /\ proper (fmul i A) /\ proper q /\ is_finite q = true /\ rp 8 (/ ((B2R m * r) * (B2R m * r))) (B2R q) /\ rng 396 (/ ((B2R m * r) * (B2R m * r))).
Proof.
  intros r A m n Fn Gm Gn E FA Gr PA GA i q. destruct wide_d as [Fd Pd]. pose proof wide_dd as Gd.
  pose proof (rng_nz _ _ Gr) as NR. pose proof (rng_nz _ _ Gm) as NM. pose proof (rng_nz _ _ Gn) as NN.
  destruct (fdiv_rp n d (B2R n) _ 0 1 99 198 Fn Fd (rp_exact _) Pd Gn Gd ltac:(clear; lia) ltac:(clear; lia) ltac:(clear; lia)) as (Fi & _ & Pi). fold i in Fi, Pi. change (0 + 1 + 1)%nat with 2%nat in Pi.
  assert (EM : B2R n / (B2R m0 * B2R m3) = / B2R m) by (rewrite <- E; field; auto). rewrite EM in Pi. pose proof (rng_inv _ _ Gm) as GI.
  destruct (fmul_rp i A _ _ 2 2 99 198 Fi FA Pi PA GI GA ltac:(clear; lia) ltac:(clear; lia) ltac:(clear; lia)) as (Fp & _ & Pp). change (2 + 2 + 1)%nat with 5%nat in Pp.
  pose proof (rng_mul _ _ _ _ GI GA) as Gp. change (99 + 198)%Z with 297%Z in Gp.
  destruct (fmul_rp (fmul i A) i _ _ 5 2 297 99 Fp Fi Pp Pi Gp GI ltac:(clear; lia) ltac:(clear; lia) ltac:(clear; lia)) as (Fq & _ & Pq). fold q in Fq, Pq. change (5 + 2 + 1)%nat with 8%nat in Pq.
  pose proof (rng_mul _ _ _ _ Gp GI) as Gq. change (297 + 99)%Z with 396%Z in Gq.
  replace (/ B2R m * (1 / (r * r)) * / B2R m) with (/ ((B2R m * r) * (B2R m * r))) in Pq, Gq by (field; auto).
  split; [exact Fi|]. split; [exact (rp_proper 2 99 _ i Fi GI ltac:(clear; lia) Pi)|]. split; [exact (rp_proper 5 _ _ _ Fp Gp ltac:(clear; lia) Pp)|].
  split; [exact (rp_proper 8 _ _ _ Fq Gq ltac:(clear; lia) Pq)|]. auto.
Qed.

(** From an entry of the form to the radius. *)
Lemma radius_of : forall n X (q : f64), (n <= 30)%nat -> 0 < X -> rng 396 (/ (X * X)) -> rng 198 X -> is_finite q = true -> rp n (/ (X * X)) (B2R q) ->
  fle q fzero = false /\ is_finite (fsqrt (fdiv fone q)) = true /\ rp (n + 2) X (B2R (fsqrt (fdiv fone q))).
Proof.
  intros n X q LN X0 Gq GX' Fq Pq. assert (XX : 0 < X * X) by nra.
  assert (Q0 : 0 < B2R q).
  { destruct Pq as (h & H & ->). apply Rmult_lt_0_compat; [apply Rinv_0_lt_compat; exact XX|]. pose proof (pow_w n). eapply Rlt_le_trans; [|apply H]. apply Rinv_0_lt_compat. lra. }
  destruct one_value as [F1 E1]. split.
  { unfold fle. rewrite Bleb_correct by (try exact Fq; reflexivity). destruct zero_value as [_ ZV]. rewrite ZV. apply Rle_bool_false. exact Q0. }
  destruct (fdiv_rp fone q 1 _ 0 n 0 396 F1 Fq ltac:(rewrite E1; apply rp_exact) Pq rng_one Gq ltac:(clear; lia) ltac:(clear; lia) ltac:(clear - LN; lia)) as (Fv & _ & Pv).
  replace (1 / / (X * X)) with (X * X) in Pv by (field; lra). change (0 + n + 1)%nat with (n + 1)%nat in Pv.
  assert (V0 : 0 < B2R (fdiv fone q)).
  { destruct Pv as (h & H & ->). apply Rmult_lt_0_compat; [exact XX|]. pose proof (pow_w (n + 1)). eapply Rlt_le_trans; [|apply H]. apply Rinv_0_lt_compat. lra. }
  destruct (fsqrt_val _ Fv (Rlt_le _ _ V0)) as [Fs Es]. split; [exact Fs|].
  assert (PS : rp (n + 1) (sqrt (X * X)) (sqrt (B2R (fdiv fone q)))) by (apply rp_sqrt; [lra|exact Pv]). rewrite sqrt_square in PS by lra.
  pose proof (rng_rp 198 (n + 1) _ _ ltac:(clear - LN; lia) GX' PS) as GS. destruct (rng_900 199 _ ltac:(clear; lia) GS) as [B1 _].
  rewrite Es. destruct (near_rp _ _ B1 (rne_near _)) as (h & H & EH). rewrite EH.
  rewrite <- (Rmult_1_r X). apply (rp_le (n + 1 + 1)); [clear; lia|]. apply rp_mul; [exact PS|]. exists h. split; [exact H|ring].
Qed.

(** Adding next to nothing. *)
Lemma small_add : forall n Q (x e : f64), (n <= 30)%nat -> rng 396 Q -> is_finite x = true -> is_finite e = true -> rp n Q (B2R x) -> 0 < B2R x ->
  0 <= B2R e <= B2R x * u53 ->
  is_finite (fadd x e) = true /\ rp (n + 2) Q (B2R (fadd x e)) /\ is_finite (fadd e x) = true /\ rp (n + 2) Q (B2R (fadd e x)).
Proof.
  intros n Q x e LN GQ Fx Fe P X0 [E0 E1]. pose proof w53_pos as W. pose proof u53_pos as [U0 U1]. assert (WU : u53 <= w53) by (unfold w53; lra).
  assert (PE : rp (n + 1) Q (B2R x + B2R e)).
  { set (k := 1 + B2R e / B2R x). assert (K : B2R x + B2R e = B2R x * k) by (unfold k; field; lra). rewrite K. rewrite <- (Rmult_1_r Q). apply rp_mul; [exact P|].
    exists k. cbn [pow]. rewrite Rmult_1_r. split; [|ring].
    assert (D0 : 0 <= B2R e / B2R x) by (apply Rmult_le_pos; [lra|left; apply Rinv_0_lt_compat; lra]).
    assert (D1 : B2R e / B2R x <= u53). { apply Rmult_le_reg_r with (B2R x); [lra|]. unfold Rdiv. rewrite Rmult_assoc, Rinv_l, Rmult_1_r by lra. lra. }
    assert (I : / (1 + w53) <= 1) by (rewrite <- Rinv_1; apply Rinv_le_contravar; lra). unfold k. lra. }
  pose proof (rng_rp 396 (n + 1) _ _ ltac:(clear - LN; lia) GQ PE) as G. destruct (rng_900 397 _ ltac:(clear; lia) G) as [B1 B2].
  destruct (fadd_val x e Fx Fe B2) as [F V]. rewrite Rplus_comm in B2. destruct (fadd_val e x Fe Fx B2) as [F' V']. rewrite Rplus_comm in V'.
  destruct (near_rp _ _ B1 (rne_near _)) as (h & H & EH).
  assert (R : rp (n + 2) Q (rne (B2R x + B2R e))).
  { rewrite EH. rewrite <- (Rmult_1_r Q). apply (rp_le (n + 1 + 1)); [clear; lia|]. apply rp_mul; [exact PE|]. exists h. split; [exact H|ring]. }
  rewrite V, V'. auto.
Qed.

Lemma fsub_sign : forall x y : f64, is_finite x = true -> is_finite y = true -> B2R y < B2R x -> Rabs (B2R x - B2R y) <= bpow radix2 1000 ->
  is_finite (fsub x y) = true /\ Bsign (fsub x y) = false.
Proof.
  intros x y Fx Fy L B. pose proof (Bminus_correct 53 1024 prec_ok emax_ok mode_NE x y Fx Fy) as C. cbn [round_mode] in C.
  assert (NO : Rabs (rne (B2R x - B2R y)) < bpow radix2 1024).
  { apply Rle_lt_trans with (bpow radix2 1000); [|apply bpow_lt; lia].
    apply abs_round_le_generic; [apply fexp_correct; exact prec_ok|apply valid_rnd_N|apply generic_format_bpow; vm_compute; discriminate|exact B]. }
  rewrite Rlt_bool_true in C by exact NO. destruct C as (_ & Fi & S). rewrite Rcompare_Gt in S by lra. split; assumption.
Qed.
Lemma fsub_sign_neg : forall x y : f64, is_finite x = true -> is_finite y = true -> B2R x < B2R y -> Rabs (B2R x - B2R y) <= bpow radix2 1000 ->
  is_finite (fsub x y) = true /\ Bsign (fsub x y) = true.
Proof.
  intros x y Fx Fy L B. pose proof (Bminus_correct 53 1024 prec_ok emax_ok mode_NE x y Fx Fy) as C. cbn [round_mode] in C.
  assert (NO : Rabs (rne (B2R x - B2R y)) < bpow radix2 1024).
  { apply Rle_lt_trans with (bpow radix2 1000); [|apply bpow_lt; lia].
    apply abs_round_le_generic; [apply fexp_correct; exact prec_ok|apply valid_rnd_N|apply generic_format_bpow; vm_compute; discriminate|exact B]. }
  rewrite Rlt_bool_true in C by exact NO. destruct C as (_ & Fi & S). rewrite Rcompare_Lt in S by lra. split; assumption.
Qed.

(** The form after the transform: the inverses of the squares of the radii, and zero. *)
Lemma scaled_form : let X := Rabs (B2R m0) * Rabs (B2R rx) in let Y := Rabs (B2R m3) * Rabs (B2R ry) in
  exists q0 c1 c2 q3, ftransform_ellipse g rx ry rot (mk_fmat m0 m2 m1 m3) = fellipse_of_form g (mk_fmat q0 c1 c2 q3) /\ iszero c2 /\
    proper q0 /\ proper q3 /\ 0 < X /\ 0 < Y /\ rng 198 X /\ rng 198 Y /\
    rp 8 (/ (X * X)) (B2R q0) /\ rp 8 (/ (Y * Y)) (B2R q3) /\ rng 396 (/ (X * X)) /\ rng 396 (/ (Y * Y)).
Proof.
  intros X Y. destruct (ZE rot (z_feq _ RZ)) as (SR & CR & _). unfold ftransform_ellipse, fellipse_form. rewrite SR, CR.
  replace (fmul fone fone) with fone by (apply B2SF_inj; vm_compute; reflexivity).
  destruct (wide_sq rx FX GX) as (QX2 & QA & FA & PA & GA). destruct (wide_sq ry FY GY) as (QY2 & QB & FB & PB & GB).
  set (A := fdiv fone (fmul rx rx)) in *. set (B := fdiv fone (fmul ry ry)) in *.
  assert (ZZ : iszero (fmul rot rot)) by (apply z_mul_r; [apply zero_facts, RZ|exact RZ]).
  rewrite (add_z A) by (first [exact QA | apply z_div; assumption]). rewrite (add_z_l B) by (first [exact QB | apply z_div; assumption]).
  assert (FAB : is_finite (fsub A B) = true).
  { assert (BND : Rabs (B2R A - B2R B) <= bpow radix2 1000).
    { destruct (rng_rp 198 2 _ _ ltac:(clear; lia) GA PA) as [_ U1]. destruct (rng_rp 198 2 _ _ ltac:(clear; lia) GB PB) as [_ U2].
      exact (sum_bounded 199 _ _ ltac:(clear; lia) U1 U2). }
    destruct (fsub_val A B FA FB BND) as [F _]. exact F. }
  set (C := fmul (fmul (fsub A B) rot) fone).
  assert (ZC : iszero C). { apply z_mul_l; [apply one_value|]. apply z_mul_r; [exact FAB|exact RZ]. }
  clearbody C. unfold finvert2x2. cbn [fe0 fe1 fe2 fe3]. fold d. destruct wide_d as [Fd Pd].
  pose proof (rp_proper 1 _ _ _ Fd wide_dd ltac:(clear; lia) Pd) as Qd.
  rewrite sub_z by (first [exact Qd | apply z_mul_r; [apply zero_facts; assumption|assumption]]).
  destruct (feq d fzero) eqn:D0. { exfalso. apply feq_z in D0. destruct Qd as [_ N]. apply N. apply zero_facts. exact D0. }
  cbn [unwrap bind]. unfold ftranspose2x2, fmul2x2. cbn [fe0 fe1 fe2 fe3].
  set (j1 := fdiv (fneg m2) d). set (j2 := fdiv (fneg m1) d).
  assert (J1 : iszero j1) by (apply z_div; [exact Qd|apply z_neg; exact Z2]). assert (J2 : iszero j2) by (apply z_div; [exact Qd|apply z_neg; exact Z1]).
  clearbody j1 j2.
  destruct (wide_row (B2R rx) A m0 m3 F3 G0 G3 ltac:(ring) FA GX PA GA) as (Fi0 & Qi0 & Qp0 & Qq0 & Fq0 & Pq0 & Gq0).
  destruct (wide_row (B2R ry) B m3 m0 F0 G3 G0 ltac:(ring) FB GY PB GB) as (Fi3 & Qi3 & Qp3 & Qq3 & Fq3 & Pq3 & Gq3).
  set (i0 := fdiv m3 d) in *. set (i3 := fdiv m0 d) in *. clearbody i0 i3.
  pose proof (proj1 (zero_facts _ J1)) as FJ1. pose proof (proj1 (zero_facts _ J2)) as FJ2. pose proof (proj1 (zero_facts _ ZC)) as FC.
  rewrite (add_z (fmul i0 A)) by (first [exact Qp0 | apply z_mul_r; assumption]).
  assert (ZA : iszero (fadd (fmul i0 C) (fmul j2 B))) by (apply z_add; [apply z_mul_r|apply z_mul_l]; assumption).
  assert (ZB : iszero (fadd (fmul j1 A) (fmul i3 C))) by (apply z_add; [apply z_mul_l|apply z_mul_r]; assumption).
  rewrite (add_z_l (fmul i3 B)) by (first [exact Qp3 | apply z_mul_r; assumption]).
  set (e1 := fadd (fmul i0 C) (fmul j2 B)) in *. set (e2 := fadd (fmul j1 A) (fmul i3 C)) in *. clearbody e1 e2.
  pose proof (proj1 (zero_facts _ ZA)) as Fe1. pose proof (proj1 (zero_facts _ ZB)) as Fe2.
  rewrite (add_z (fmul (fmul i0 A) i0)) by (first [exact Qq0 | apply z_mul_l; assumption]).
  rewrite (add_z_l (fmul (fmul i3 B) i3)) by (first [exact Qq3 | apply z_mul_l; assumption]).
  set (q0 := fmul (fmul i0 A) i0) in *. set (q3 := fmul (fmul i3 B) i3) in *.
  set (c1 := fadd (fmul (fmul i0 A) j1) (fmul e1 i3)). set (c2 := fadd (fmul e2 i0) (fmul (fmul i3 B) j2)).
  assert (ZC2 : iszero c2) by (apply z_add; [apply z_mul_l|apply z_mul_r]; try assumption; apply Qp3). clearbody c1 c2.
  (* the radii as absolute values *)
  assert (X0 : 0 < X) by (unfold X; apply Rmult_lt_0_compat; apply Rabs_pos_lt; [exact (rng_nz _ _ G0)|exact (rng_nz _ _ GX)]).
  assert (Y0 : 0 < Y) by (unfold Y; apply Rmult_lt_0_compat; apply Rabs_pos_lt; [exact (rng_nz _ _ G3)|exact (rng_nz _ _ GY)]).
  assert (AB : forall s t, s * t * (s * t) = (Rabs s * Rabs t) * (Rabs s * Rabs t)).
  { intros s t. rewrite <- Rabs_mult. exact (Rsqr_abs (s * t)). }
  rewrite AB in Pq0, Gq0, Pq3, Gq3. fold X in Pq0, Gq0. fold Y in Pq3, Gq3.
  assert (GXX : rng 198 X) by (apply (rng_mul 99 99); unfold rng; rewrite Rabs_Rabsolu; assumption).
  assert (GYY : rng 198 Y) by (apply (rng_mul 99 99); unfold rng; rewrite Rabs_Rabsolu; assumption).
  exists q0, c1, c2, q3. split; [reflexivity|]. auto 15.
Qed.

Lemma form_order : forall X Y q0 q3, 0 < X -> 0 < Y -> rp 8 (/ (X * X)) q0 -> rp 8 (/ (Y * Y)) q3 -> Y * (1 + 20 * u53) <= X -> q0 < q3.
Proof.
  intros X Y q0 q3 X0 Y0 Pq0 Pq3 WIDE.
  destruct Pq0 as (g0 & [_ G0u] & ->). destruct Pq3 as (g3 & [G3l _] & ->).
  assert (P8 : (1 + w53) ^ 8 <= 1 + 8.1 * u53) by (unfold w53; rewrite u53_val; cbn [pow]; lra). pose proof (pow_w 8) as W8. pose proof u53_pos as [U0 U1].
  assert (U2 : u53 < / 10000) by (rewrite u53_val; lra).
  assert (I8 : 1 - 8.1 * u53 <= / (1 + w53) ^ 8).
  { apply Rle_trans with (/ (1 + 8.1 * u53)); [|apply Rinv_le_contravar; lra]. apply Rmult_le_reg_r with (1 + 8.1 * u53); [lra|]. rewrite Rinv_l by lra. nra. }
  assert (XY : Y * Y * (1 + 40 * u53) <= X * X).
  { apply Rle_trans with ((Y * (1 + 20 * u53)) * (Y * (1 + 20 * u53))); [|apply Rmult_le_compat; nra].
    assert (0 < Y * Y) by nra. assert (0 <= Y * Y * (400 * u53 * u53)) by (apply Rmult_le_pos; nra). nra. }
  assert (XX : 0 < X * X) by nra. assert (YY : 0 < Y * Y) by nra.
  apply Rmult_lt_reg_r with (X * X * (Y * Y)); [apply Rmult_lt_0_compat; assumption|].
  replace (/ (X * X) * g0 * (X * X * (Y * Y))) with (g0 * (Y * Y)) by (field; lra).
  replace (/ (Y * Y) * g3 * (X * X * (Y * Y))) with (g3 * (X * X)) by (field; lra).
  apply Rle_lt_trans with ((1 + 8.1 * u53) * (Y * Y)); [apply Rmult_le_compat_r; lra|].
  apply Rlt_le_trans with ((1 - 8.1 * u53) * (Y * Y * (1 + 40 * u53))); [|apply Rmult_le_compat; try lra; apply Rmult_le_pos; lra].
  replace ((1 - 8.1 * u53) * (Y * Y * (1 + 40 * u53))) with ((Y * Y) * ((1 - 8.1 * u53) * (1 + 40 * u53))) by ring.
  rewrite (Rmult_comm (1 + 8.1 * u53)). apply Rmult_lt_compat_l; [exact YY|]. nra.
Qed.

(** What the code makes of an ellipse that comes out wider than tall. *)
Theorem wide_ellipse : let X := Rabs (B2R m0) * Rabs (B2R rx) in let Y := Rabs (B2R m3) * Rabs (B2R ry) in
  Y * (1 + 20 * u53) <= X ->
  exists x y z, ftransform_ellipse g rx ry rot (mk_fmat m0 m2 m1 m3) = Ok (x, y, z) /\ iszero z /\
    is_finite x = true /\ is_finite y = true /\ rp 12 X (B2R x) /\ rp 12 Y (B2R y).
Proof.
  intros X Y WIDE. destruct scaled_form as (q0 & c1 & c2 & q3 & E & ZC2 & Qq0 & Qq3 & X0 & Y0 & GXX & GYY & Pq0 & Pq3 & Gq0 & Gq3). rewrite E. clear E.
  fold X in X0, GXX, Pq0, Gq0. fold Y in Y0, GYY, Pq3, Gq3. destruct Qq0 as [Fq0 Nq0]. destruct Qq3 as [Fq3 Nq3].
  assert (Qq0 : proper q0) by (split; assumption). assert (Qq3 : proper q3) by (split; assumption).
  destruct (radius_of 8 X q0 ltac:(clear; lia) X0 Gq0 GXX Fq0 Pq0) as (LX & FRX & PRX). destruct (radius_of 8 Y q3 ltac:(clear; lia) Y0 Gq3 GYY Fq3 Pq3) as (LY & FRY & PRY).
  pose proof (form_order X Y _ _ X0 Y0 Pq0 Pq3 WIDE) as LT.
  assert (SG : is_finite (fsub q3 q0) = true /\ Bsign (fsub q3 q0) = false).
  { apply fsub_sign; [exact Fq3|exact Fq0|exact LT|].
    destruct (rng_rp 396 8 _ _ ltac:(clear; lia) Gq0 Pq0) as [_ U1]. destruct (rng_rp 396 8 _ _ ltac:(clear; lia) Gq3 Pq3) as [_ U2].
    exact (sum_bounded 397 _ _ ltac:(clear; lia) U2 U1). }
  destruct SG as [SF SN].
  unfold fellipse_of_form. cbn [fe0 fe1 fe2 fe3].
  assert (ZN : iszero (fmul (fneg c2) (f_of_Z 2))) by (apply z_mul_l; [exact two_finite|apply z_neg; exact ZC2]).
  destruct (ZE _ (z_feq _ ZN)) as (_ & _ & AT). rewrite AT by assumption.
  set (t := fdiv (fmul (fneg c2) (f_of_Z 2)) (f_of_Z 2)). assert (ZT : iszero t) by (apply half_z; exact ZN). clearbody t.
  destruct (ZE t (z_feq _ ZT)) as (ST & CT & _). rewrite ST, CT.
  replace (fmul fone fone) with fone by (apply B2SF_inj; vm_compute; reflexivity).
  pose proof (proj1 (zero_facts _ ZT)) as FT.
  assert (ZT2 : iszero (fmul t t)) by (apply z_mul_r; assumption). assert (ZT1 : iszero (fmul fone t)) by (apply z_mul_r; [apply one_value|assumption]).
  assert (ZD : iszero (fmul (fmul (f_of_Z 2) c2) (fmul fone t))).
  { apply z_mul_r; [|exact ZT1]. apply zero_facts. apply z_mul_r; [exact two_finite|exact ZC2]. }
  assert (ZQ0 : iszero (fmul q0 (fmul t t))) by (apply z_mul_r; assumption). assert (ZQ3 : iszero (fmul q3 (fmul t t))) by (apply z_mul_r; assumption).
  rewrite !mul_one by assumption. rewrite (add_z q0) by assumption. rewrite (add_z q0) by assumption.
  rewrite (add_z_l q3) by (first [assumption | apply z_sub; assumption]).
  rewrite LX, LY. eexists _, _, t. split; [reflexivity|]. do 3 (split; [assumption|]). split; apply (rp_le (8 + 2)); try assumption; clear; lia.
Qed.

(** The functions at a straight and at a right angle. *)
Definition quarter_exact : Prop :=
  (forall x y, feq x fzero = true -> is_finite y = true -> Bsign y = true -> f_atan2 g x y = f_pi \/ f_atan2 g x y = fneg f_pi) /\
  forall t, t = fdiv f_pi (f_of_Z 2) \/ t = fdiv (fneg f_pi) (f_of_Z 2) ->
    (f_sin g t = fone \/ f_sin g t = fneg fone) /\ is_finite (f_cos g t) = true /\ Rabs (B2R (f_cos g t)) <= u53.

(** What the code makes of an ellipse that comes out taller than wide: the radii change places and the
    axes are turned by a right angle. *)
Theorem tall_ellipse : quarter_exact -> let X := Rabs (B2R m0) * Rabs (B2R rx) in let Y := Rabs (B2R m3) * Rabs (B2R ry) in
  X * (1 + 20 * u53) <= Y -> Y <= 2 ^ 20 * X ->
  exists x y z, ftransform_ellipse g rx ry rot (mk_fmat m0 m2 m1 m3) = Ok (x, y, z) /\ (z = fdiv f_pi (f_of_Z 2) \/ z = fdiv (fneg f_pi) (f_of_Z 2)) /\
    is_finite x = true /\ is_finite y = true /\ rp 12 Y (B2R x) /\ rp 12 X (B2R y).
Proof.
  intros [QA QT] X Y TALL RATIO. destruct scaled_form as (q0 & c1 & c2 & q3 & E & ZC2 & Qq0 & Qq3 & X0 & Y0 & GXX & GYY & Pq0 & Pq3 & Gq0 & Gq3). rewrite E. clear E.
  fold X in X0, GXX, Pq0, Gq0. fold Y in Y0, GYY, Pq3, Gq3. destruct Qq0 as [Fq0 Nq0]. destruct Qq3 as [Fq3 Nq3].
  assert (Qq0 : proper q0) by (split; assumption). assert (Qq3 : proper q3) by (split; assumption).
  pose proof (form_order Y X _ _ Y0 X0 Pq3 Pq0 TALL) as LT.
  destruct (rng_rp 396 8 _ _ ltac:(clear; lia) Gq0 Pq0) as [_ U0]. destruct (rng_rp 396 8 _ _ ltac:(clear; lia) Gq3 Pq3) as [L3 U3]. change (396 + 1)%Z with 397%Z in U0, U3, L3.
  assert (P3 : 0 < B2R q3).
  { destruct Pq3 as (h & H & ->). apply Rmult_lt_0_compat; [apply Rinv_0_lt_compat; nra|]. pose proof (pow_w 8). eapply Rlt_le_trans; [|apply H]. apply Rinv_0_lt_compat. lra. }
  assert (RQ : B2R q0 <= 2 ^ 43 * B2R q3).
  { destruct Pq0 as (g0 & [L0 H0] & ->). destruct Pq3 as (g3 & [H3 _] & ->). pose proof (rp_two 8 ltac:(clear; lia)) as T8. pose proof (pow_w 8) as W8.
    assert (I8 : / 2 <= / (1 + w53) ^ 8) by (apply Rinv_le_contravar; lra).
    assert (XX : 0 < X * X) by nra. assert (YY : 0 < Y * Y) by nra.
    assert (YX : Y * Y <= 2 ^ 40 * (X * X)).
    { apply Rle_trans with ((2 ^ 20 * X) * (2 ^ 20 * X)); [apply Rmult_le_compat; lra|right; ring]. }
    apply Rmult_le_reg_r with (X * X * (Y * Y)); [apply Rmult_lt_0_compat; assumption|].
    replace (/ (X * X) * g0 * (X * X * (Y * Y))) with (g0 * (Y * Y)) by (field; lra).
    replace (2 ^ 43 * (/ (Y * Y) * g3) * (X * X * (Y * Y))) with (2 ^ 43 * g3 * (X * X)) by (field; lra).
    apply Rle_trans with (2 * (2 ^ 40 * (X * X))); [apply Rmult_le_compat; lra|].
    replace (2 * (2 ^ 40 * (X * X))) with (2 ^ 43 * / 4 * (X * X)) by (cbn [pow]; lra). apply Rmult_le_compat_r; [lra|]. apply Rmult_le_compat_l; [apply pow_le; lra|lra]. }
  assert (TI : tiny <= B2R q3 * u53 * / 4).
  { rewrite Rabs_pos_eq in L3 by lra. apply Rle_trans with (bpow radix2 (-397) * u53 * / 4); [|pose proof u53_pos; apply Rmult_le_compat_r; [lra|]; apply Rmult_le_compat_r; [lra|exact L3]].
    unfold tiny, u53. change (/ 4) with (bpow radix2 (-2)). rewrite <- !bpow_plus. apply bpow_le. clear. lia. }
  assert (SG : is_finite (fsub q3 q0) = true /\ Bsign (fsub q3 q0) = true).
  { apply fsub_sign_neg; [exact Fq3|exact Fq0|exact LT|]. exact (sum_bounded 397 _ _ ltac:(clear; lia) U3 U0). }
  destruct SG as [SF SN].
  unfold fellipse_of_form. cbn [fe0 fe1 fe2 fe3].
  assert (ZN : iszero (fmul (fneg c2) (f_of_Z 2))) by (apply z_mul_l; [exact two_finite|apply z_neg; exact ZC2]).
  set (t := fdiv (f_atan2 g (fmul (fneg c2) (f_of_Z 2)) (fsub q3 q0)) (f_of_Z 2)).
  assert (HT : t = fdiv f_pi (f_of_Z 2) \/ t = fdiv (fneg f_pi) (f_of_Z 2)).
  { unfold t. destruct (QA _ _ (z_feq _ ZN) SF SN) as [->| ->]; auto. }
  clearbody t. destruct (QT t HT) as (ST & FC & BC). set (c := f_cos g t) in *. clearbody c.
  set (sn := f_sin g t) in *. clearbody sn.
  assert (S2 : fmul sn sn = fone) by (destruct ST as [->| ->]; apply B2SF_inj; vm_compute; reflexivity). rewrite S2. rewrite !mul_one by assumption.
  pose proof (proj1 u53_pos) as U0'. assert (U1' : u53 < / 10000) by (rewrite u53_val; lra).
  (* the square of the cosine *)
  assert (CC : B2R c * B2R c <= u53 * u53) by (apply Rabs_le_inv in BC; nra).
  assert (CC0 : 0 <= B2R c * B2R c) by nra.
  assert (K : forall q, 0 < q -> q <= 2 ^ 43 * B2R q3 -> q * (u53 * u53 * 2) <= B2R q3 * u53 * / 4).
  { intros q _ H. apply Rle_trans with (2 ^ 43 * B2R q3 * (u53 * u53 * 2)); [apply Rmult_le_compat_r; nra|].
    replace (2 ^ 43 * B2R q3 * (u53 * u53 * 2)) with (B2R q3 * u53 * (2 ^ 43 * u53 * 2)) by ring. apply Rmult_le_compat_l; [apply Rmult_le_pos; lra|]. rewrite u53_val. cbn [pow]. lra. }
  destruct (fmul_near c c FC FC) as [F2 N2].
  { rewrite Rabs_pos_eq by lra. apply Rle_trans with (bpow radix2 0); [cbn [bpow]; nra|apply bpow_le; clear; lia]. }
  set (cc := fmul c c) in *.
  assert (V2 : 0 <= B2R cc <= u53 * u53 * 1.5).
  { split.
    - unfold cc. destruct (fmul_val c c FC FC) as [_ ->]; [rewrite Rabs_pos_eq by lra; apply Rle_trans with (bpow radix2 0); [cbn [bpow]; nra|apply bpow_le; clear; lia]|].
      rewrite <- rne_0. apply rne_mono. exact CC0.
    - destruct N2 as (e & h & He & Hh & EV). rewrite EV. apply Rabs_le_inv in He, Hh. pose proof tiny_u as TU.
      assert (T4 : tiny <= u53 * u53 * 0.25). { unfold tiny. apply Rle_trans with (bpow radix2 (-108)); [apply bpow_le; clear; lia|]. rewrite u53_val. cbn [bpow]. unfold Z.pow_pos. cbn [Pos.iter]. cbn. lra. }
      assert (B2R c * B2R c * (1 + e) <= u53 * u53 * 1.1) by (apply Rmult_le_compat; lra). lra. }
  clearbody cc. clear N2.
  assert (SM : forall q, is_finite q = true -> 0 < B2R q -> B2R q <= 2 ^ 43 * B2R q3 -> Rabs (B2R q) <= bpow radix2 397 ->
    is_finite (fmul q cc) = true /\ 0 <= B2R (fmul q cc) <= B2R q3 * u53).
  { intros q F P H U.
    assert (B : Rabs (B2R q * B2R cc) <= bpow radix2 1000).
    { rewrite Rabs_mult. apply Rle_trans with (bpow radix2 397 * 1); [apply Rmult_le_compat; try apply Rabs_pos; [exact U|]; rewrite Rabs_pos_eq by lra; nra|]. rewrite Rmult_1_r. apply bpow_le. clear. lia. }
    destruct (fmul_val q cc F F2 B) as [Fm Vm]. split; [exact Fm|]. rewrite Vm. split; [rewrite <- rne_0; apply rne_mono; apply Rmult_le_pos; lra|].
    destruct (rne_near (B2R q * B2R cc)) as (e & h & He & Hh & EV). rewrite EV. apply Rabs_le_inv in He, Hh. pose proof (K (B2R q) P H) as K1.
    assert (A1 : B2R q * B2R cc * (1 + e) <= B2R q * (u53 * u53 * 1.5) * (4 / 3)).
    { apply Rmult_le_compat; [apply Rmult_le_pos; lra|lra|apply Rmult_le_compat_l; lra|lra]. }
    replace (B2R q * (u53 * u53 * 1.5) * (4 / 3)) with (B2R q * (u53 * u53 * 2)) in A1 by lra. assert (0 < B2R q3 * u53) by (apply Rmult_lt_0_compat; lra). lra. }
  assert (P0 : 0 < B2R q0) by lra.
  destruct (SM q0 Fq0 P0 RQ U0) as [Fe0 Ve0]. destruct (SM q3 Fq3 P3 ltac:(cbn [pow]; lra) U3) as [Fe3 Ve3].
  set (w0 := fmul q0 cc) in *. set (w3 := fmul q3 cc) in *. clearbody w0 w3.
  assert (ZD : iszero (fmul (fmul (f_of_Z 2) c2) (fmul c sn))).
  { apply z_mul_l; [|apply z_mul_r; [exact two_finite|exact ZC2]]. destruct ST as [->| ->].
    - destruct one_value as [F1 E1]. apply fmul_val; [exact FC|exact F1|]. rewrite E1, Rmult_1_r. apply Rle_trans with (bpow radix2 0); [cbn [bpow]; lra|apply bpow_le; clear; lia].
    - assert (F1 : is_finite (fneg fone) = true) by reflexivity. assert (E1 : B2R (fneg fone) = -1) by (unfold fneg; rewrite B2R_Bopp; rewrite (proj2 one_value); lra).
      apply fmul_val; [exact FC|exact F1|]. rewrite E1. rewrite Rabs_mult. rewrite (Rabs_left (-1)) by lra. apply Rle_trans with (bpow radix2 0); [cbn [bpow]; lra|apply bpow_le; clear; lia]. }
  set (zd := fmul (fmul (f_of_Z 2) c2) (fmul c sn)) in *. clearbody zd.
  rewrite (sub_z q0) by assumption.
  assert (W0 : is_finite (fadd w0 zd) = true /\ B2R (fadd w0 zd) = B2R w0).
  { destruct (Req_dec (B2R w0) 0) as [E|N].
    - pose proof (iszero_of _ Fe0 E) as Z. rewrite E. apply zero_facts. apply z_add; assumption.
    - rewrite add_z; [auto|split; assumption|exact ZD]. }
  destruct W0 as [FW0 VW0]. rewrite <- VW0 in Ve0. set (w1 := fadd w0 zd) in *. clearbody w1.
  assert (Ve3' : 0 <= B2R w3 <= B2R q0 * u53) by (split; [lra|]; apply Rle_trans with (B2R q3 * u53); [lra|apply Rmult_le_compat_r; lra]).
  destruct (small_add 8 _ q3 w1 ltac:(clear; lia) Gq3 Fq3 FW0 Pq3 P3 Ve0) as (_ & _ & FD1 & PD1).
  destruct (small_add 8 _ q0 w3 ltac:(clear; lia) Gq0 Fq0 Fe3 Pq0 P0 Ve3') as (FD2 & PD2 & _).
  destruct (radius_of 10 Y _ ltac:(clear; lia) Y0 Gq3 GYY FD1 PD1) as (L1 & FR1 & PR1).
  destruct (radius_of 10 X _ ltac:(clear; lia) X0 Gq0 GXX FD2 PD2) as (L2 & FR2 & PR2).
  rewrite L1, L2. eexists _, _, t. split; [reflexivity|]. auto.
Qed.
End Wide.
