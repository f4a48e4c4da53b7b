(** Rounding errors of products of transforms in binary64. *)
From Coq Require Import Reals Lra ZArith List Bool Lia.
From Flocq Require Import Core BinarySingleNaN.
From Verif Require Import Base Floats FloatProofs FloatScale FloatErr FloatCurve ApproxCurve DrawCurves Coords FloatPath.
Import ListNotations.
Open Scope R_scope.

(** ** One row of a product *)

Lemma dot2 : forall a b c d M, is_finite a = true -> is_finite b = true -> is_finite c = true -> is_finite d = true ->
  Rabs (B2R a) * Rabs (B2R b) + Rabs (B2R c) * Rabs (B2R d) <= M -> M <= 2 * huge ->
  let s := fadd (fmul a b) (fmul c d) in
  is_finite s = true /\ Rabs (B2R s - (B2R a * B2R b + B2R c * B2R d)) <= 3 * (u53 * M) + 4 * tiny.
Proof.
  intros a b c d M Fa Fb Fc Fd HM HH s. pose proof huge_1000 as H1. pose proof u53_pos as [U0 U1]. pose proof tiny_pos as T0.
  pose proof one_huge as H0. assert (TU : tiny <= 1 / 1024) by (pose proof tiny_u; assert (u53 * u53 <= / 1024 * 1) by (apply Rmult_le_compat; lra); lra).
  set (p := B2R a * B2R b). set (q := B2R c * B2R d).
  assert (AP : Rabs p = Rabs (B2R a) * Rabs (B2R b)) by apply Rabs_mult. assert (AQ : Rabs q = Rabs (B2R c) * Rabs (B2R d)) by apply Rabs_mult.
  pose proof (Rabs_pos p) as P0. pose proof (Rabs_pos q) as Q0.
  destruct (fmul_val a b Fa Fb) as [F1 E1]; [fold p; lra|]. destruct (fmul_val c d Fc Fd) as [F2 E2]; [fold q; lra|]. fold p in E1. fold q in E2.
  pose proof (rne_err p) as R1. pose proof (rne_err q) as R2. rewrite <- E1 in R1. rewrite <- E2 in R2.
  set (x := B2R (fmul a b)) in *. set (y := B2R (fmul c d)) in *.
  assert (X : Rabs (x + y - (p + q)) <= u53 * M + 2 * tiny).
  { replace (x + y - (p + q)) with ((x - p) + (y - q)) by ring. eapply Rle_trans; [apply Rabs_triang|].
    assert (u53 * (Rabs p + Rabs q) <= u53 * M) by (apply Rmult_le_compat_l; lra). lra. }
  assert (UM : u53 * M <= / 1024 * M) by (apply Rmult_le_compat_r; lra).
  assert (PQ : Rabs (p + q) <= M) by (eapply Rle_trans; [apply Rabs_triang|lra]).
  assert (Y : Rabs (x + y) <= M + (u53 * M + 2 * tiny)).
  { replace (x + y) with ((x + y - (p + q)) + (p + q)) by ring. eapply Rle_trans; [apply Rabs_triang|]. lra. }
  destruct (fadd_val _ _ F1 F2) as [F3 E3]; [fold x y; lra|]. fold x y in E3.
  pose proof (rne_err (x + y)) as R3. rewrite <- E3 in R3. fold s in F3, R3. split; [exact F3|].
  replace (B2R s - (p + q)) with ((B2R s - (x + y)) + (x + y - (p + q))) by ring. eapply Rle_trans; [apply Rabs_triang|].
  assert (u53 * Rabs (x + y) <= u53 * (M + (u53 * M + 2 * tiny))) by (apply Rmult_le_compat_l; lra).
  assert (u53 * (u53 * M + 2 * tiny) <= 1 * (u53 * M + 2 * tiny)) by (apply Rmult_le_compat_r; [|lra]; assert (0 <= u53 * M) by (apply Rmult_le_pos; lra); lra).
  assert (u53 * tiny <= / 1024 * tiny) by (apply Rmult_le_compat_r; lra).
  assert (0 <= u53 * M) by (apply Rmult_le_pos; lra).
  assert (u53 * (u53 * M) <= / 1024 * (u53 * M)) by (apply Rmult_le_compat_r; lra). lra.
Qed.

Lemma dot3 : forall a b c d e M, is_finite a = true -> is_finite b = true -> is_finite c = true -> is_finite d = true -> is_finite e = true ->
  Rabs (B2R a) * Rabs (B2R b) + Rabs (B2R c) * Rabs (B2R d) + Rabs (B2R e) <= M -> M <= 2 * huge ->
  let s := fadd (fadd (fmul a b) (fmul c d)) e in
  is_finite s = true /\ Rabs (B2R s - (B2R a * B2R b + B2R c * B2R d + B2R e)) <= 5 * (u53 * M) + 6 * tiny.
Proof.
  intros a b c d e M Fa Fb Fc Fd Fe HM HH s. pose proof huge_1000 as H1. pose proof u53_pos as [U0 U1]. pose proof tiny_pos as T0.
  pose proof one_huge as H0. assert (TU : tiny <= 1 / 1024) by (pose proof tiny_u; assert (u53 * u53 <= / 1024 * 1) by (apply Rmult_le_compat; lra); lra).
  pose proof (Rabs_pos (B2R e)) as E0.
  destruct (dot2 a b c d M Fa Fb Fc Fd ltac:(lra) HH) as [F1 X]. set (r := B2R a * B2R b + B2R c * B2R d) in *. set (x := fadd (fmul a b) (fmul c d)) in *.
  assert (RM : Rabs (r + B2R e) <= M).
  { eapply Rle_trans; [apply Rabs_triang|]. unfold r. assert (Rabs (B2R a * B2R b + B2R c * B2R d) <= Rabs (B2R a) * Rabs (B2R b) + Rabs (B2R c) * Rabs (B2R d)); [|lra].
    eapply Rle_trans; [apply Rabs_triang|]. rewrite !Rabs_mult. lra. }
  assert (M0 : 0 <= M) by (eapply Rle_trans; [apply Rabs_pos|exact RM]).
  assert (UM : u53 * M <= / 1024 * M) by (apply Rmult_le_compat_r; lra).
  assert (Y : Rabs (B2R x + B2R e) <= M + (3 * (u53 * M) + 4 * tiny)).
  { replace (B2R x + B2R e) with ((B2R x - r) + (r + B2R e)) by ring. eapply Rle_trans; [apply Rabs_triang|]. lra. }
  destruct (fadd_val _ _ F1 Fe) as [F3 E3]; [lra|]. pose proof (rne_err (B2R x + B2R e)) as R3. rewrite <- E3 in R3. fold s in F3, R3. split; [exact F3|].
  replace (B2R s - (r + B2R e)) with ((B2R s - (B2R x + B2R e)) + (B2R x - r)) by ring. eapply Rle_trans; [apply Rabs_triang|].
  assert (u53 * Rabs (B2R x + B2R e) <= u53 * (M + (3 * (u53 * M) + 4 * tiny))) by (apply Rmult_le_compat_l; lra).
  assert (u53 * tiny <= / 1024 * tiny) by (apply Rmult_le_compat_r; lra).
  assert (0 <= u53 * M) by (apply Rmult_le_pos; lra).
  assert (u53 * (u53 * M) <= / 1024 * (u53 * M)) by (apply Rmult_le_compat_r; lra). lra.
Qed.

(** A row [(f, g, h)] of a transform beside the exact one: the linear part of the exact one is at
    most [N], the translation at most [N] times [T], and they are off by [k] units of these. *)
Record row_near (k N T : R) (f g h : f64) (a b c : R) : Prop := {
  rn_fin : is_finite f = true /\ is_finite g = true /\ is_finite h = true;
  rn_lin : Rabs a + Rabs b <= N; rn_tra : Rabs c <= N * T;
  rn_elin : Rabs (B2R f - a) + Rabs (B2R g - b) <= k * (u53 * N);
  rn_etra : Rabs (B2R h - c) <= k * (u53 * (N * (1 + T))) }.

Definition tr_near (k N T : R) (F : ftransform) (A : transform) : Prop :=
  row_near k N T (fm0 F) (fm2 F) (fm4 F) (m0 A) (m2 A) (m4 A) /\ row_near k N T (fm1 F) (fm3 F) (fm5 F) (m1 A) (m3 A) (m5 A).

Definition lots : R := 1048576.

Lemma prod_le : forall a b c d, 0 <= a <= b -> 0 <= c <= d -> a * c <= b * d.
Proof. intros. apply Rmult_le_compat; lra. Qed.

Lemma row_mul : forall k1 N1 T1 k2 N2 T2 f g h a b c G B,
  1 <= N1 -> 1 <= N2 -> 0 <= T1 -> 0 <= T2 -> 0 <= k1 -> 0 <= k2 -> k1 + k2 <= lots -> N1 * N2 * (1 + (T1 + T2)) <= huge ->
  row_near k1 N1 T1 f g h a b c -> tr_near k2 N2 T2 G B ->
  row_near (k1 + k2 + 8) (N1 * N2) (T1 + T2)
    (fadd (fmul f (fm0 G)) (fmul g (fm1 G))) (fadd (fmul f (fm2 G)) (fmul g (fm3 G))) (fadd (fadd (fmul f (fm4 G)) (fmul g (fm5 G))) h)
    (a * m0 B + b * m1 B) (a * m2 B + b * m3 B) (a * m4 B + b * m5 B + c).
Proof.
  intros k1 N1 T1 k2 N2 T2 f g h a b c G B HN1 HN2 HT1 HT2 K1 K2 KL HB [(Ff & Fg & Fh) L1 TR1 EL1 ET1]
    [[(F0 & F2 & F4) L2 TR2 EL2 ET2] [(F1 & F3 & F5) L3 TR3 EL3 ET3]].
  pose proof u53_pos as [U0 _]. pose proof tiny_pos as TI. pose proof tiny_u as TU. pose proof one_huge as H0.
  set (d1 := k1 * u53). set (d2 := k2 * u53).
  assert (D1 : 0 <= d1 <= / 8589934592) by (unfold d1; split; [apply Rmult_le_pos; lra|]; rewrite u53_val; unfold lots in KL; lra).
  assert (D2 : 0 <= d2 <= / 8589934592) by (unfold d2; split; [apply Rmult_le_pos; lra|]; rewrite u53_val; unfold lots in KL; lra).
  assert (D12 : d1 * k2 <= / 8192) by (unfold lots in KL; apply Rle_trans with (/ 8589934592 * 1048576); [apply prod_le; lra|lra]).
  set (N := N1 * N2) in *. assert (NN : 1 <= N) by (unfold N; replace 1 with (1 * 1) by ring; apply prod_le; lra).
  assert (N21 : N2 <= N) by (unfold N; rewrite <- (Rmult_1_l N2) at 1; apply Rmult_le_compat_r; lra).
  assert (N12 : N1 <= N) by (unfold N; rewrite <- (Rmult_1_r N1) at 1; apply Rmult_le_compat_l; lra).
  set (S := 1 + (T1 + T2)) in *. assert (S1 : 1 <= S) by (unfold S; lra).
  assert (NS : N <= N * S) by (rewrite <- (Rmult_1_r N) at 1; apply Rmult_le_compat_l; lra).
  set (W := u53 * N). assert (W0 : 0 < W) by (unfold W; apply Rmult_lt_0_compat; lra).
  assert (WT : 14 * tiny <= W / 4).
  { assert (u53 * u53 <= u53 * / 1024) by (apply Rmult_le_compat_l; [lra|]; rewrite u53_val; lra).
    assert (u53 * u53 <= u53 * (N * / 1024)) by (eapply Rle_trans; [eassumption|]; apply Rmult_le_compat_l; lra). unfold W. lra. }
  (* sums of absolute values of the rounded row and matrix *)
  set (xf := B2R f) in *. set (xg := B2R g) in *. set (xh := B2R h) in *.
  set (g0 := B2R (fm0 G)) in *. set (g1 := B2R (fm1 G)) in *. set (g2 := B2R (fm2 G)) in *. set (g3 := B2R (fm3 G)) in *.
  set (g4 := B2R (fm4 G)) in *. set (g5 := B2R (fm5 G)) in *.
  set (b0 := m0 B) in *. set (b1 := m1 B) in *. set (b2 := m2 B) in *. set (b3 := m3 B) in *. set (b4 := m4 B) in *. set (b5 := m5 B) in *.
  assert (AX : forall x y, Rabs x <= Rabs y + Rabs (x - y)).
  { intros x y. replace x with (y + (x - y)) at 1 by ring. apply Rabs_triang. }
  replace (k1 * (u53 * N1)) with (d1 * N1) in EL1 by (unfold d1; ring). replace (k1 * (u53 * (N1 * (1 + T1)))) with (d1 * (N1 * (1 + T1))) in ET1 by (unfold d1; ring).
  replace (k2 * (u53 * N2)) with (d2 * N2) in EL2, EL3 by (unfold d2; ring). replace (k2 * (u53 * (N2 * (1 + T2)))) with (d2 * (N2 * (1 + T2))) in ET2, ET3 by (unfold d2; ring).
  assert (RS : Rabs xf + Rabs xg <= N1 * (1 + d1)) by (pose proof (AX xf a); pose proof (AX xg b); lra).
  assert (R0 : Rabs g0 + Rabs g2 <= N2 * (1 + d2)) by (pose proof (AX g0 b0); pose proof (AX g2 b2); lra).
  assert (R1 : Rabs g1 + Rabs g3 <= N2 * (1 + d2)) by (pose proof (AX g1 b1); pose proof (AX g3 b3); lra).
  pose proof (Rabs_pos xf) as PF. pose proof (Rabs_pos xg) as PG.
  assert (C1 : N1 * (1 + d1) * (N2 * (1 + d2)) <= 101 / 100 * N).
  { replace (N1 * (1 + d1) * (N2 * (1 + d2))) with (N * ((1 + d1) * (1 + d2))) by (unfold N; ring). rewrite (Rmult_comm (101 / 100)). apply Rmult_le_compat_l; [lra|].
    apply Rle_trans with ((1 + / 8589934592) * (1 + / 8589934592)); [apply prod_le; lra|lra]. }
  assert (MM : Rabs xf * Rabs g0 + Rabs xg * Rabs g1 + (Rabs xf * Rabs g2 + Rabs xg * Rabs g3) <= 101 / 100 * N).
  { eapply Rle_trans; [|exact C1]. apply Rle_trans with ((Rabs xf + Rabs xg) * (N2 * (1 + d2))).
    - replace (Rabs xf * Rabs g0 + Rabs xg * Rabs g1 + (Rabs xf * Rabs g2 + Rabs xg * Rabs g3)) with (Rabs xf * (Rabs g0 + Rabs g2) + Rabs xg * (Rabs g1 + Rabs g3)) by ring.
      rewrite Rmult_plus_distr_r. apply Rplus_le_compat; apply Rmult_le_compat_l; assumption.
    - apply Rmult_le_compat_r; [apply Rmult_le_pos; lra|exact RS]. }
  assert (Q0 : 0 <= Rabs xf * Rabs g0 + Rabs xg * Rabs g1) by (apply Rplus_le_le_0_compat; apply Rmult_le_pos; apply Rabs_pos).
  assert (Q2 : 0 <= Rabs xf * Rabs g2 + Rabs xg * Rabs g3) by (apply Rplus_le_le_0_compat; apply Rmult_le_pos; apply Rabs_pos).
  set (M0 := Rabs xf * Rabs g0 + Rabs xg * Rabs g1) in *. set (M2 := Rabs xf * Rabs g2 + Rabs xg * Rabs g3) in *.
  (* translation *)
  assert (G4 : Rabs g4 <= N2 * (T2 + d2 * (1 + T2))) by (pose proof (AX g4 b4); lra).
  assert (G5 : Rabs g5 <= N2 * (T2 + d2 * (1 + T2))) by (pose proof (AX g5 b5); lra).
  assert (XH : Rabs xh <= N1 * (T1 + d1 * (1 + T1))) by (pose proof (AX xh c); lra).
  set (M4 := Rabs xf * Rabs g4 + Rabs xg * Rabs g5 + Rabs xh).
  assert (V2 : T2 + d2 * (1 + T2) <= T2 + / 8589934592 * (1 + T2)) by (apply Rplus_le_compat_l, Rmult_le_compat_r; lra).
  assert (V1 : T1 + d1 * (1 + T1) <= T1 + / 8589934592 * (1 + T1)) by (apply Rplus_le_compat_l, Rmult_le_compat_r; lra).
  assert (D2T : 0 <= d2 * (1 + T2)) by (apply Rmult_le_pos; lra). assert (D1T : 0 <= d1 * (1 + T1)) by (apply Rmult_le_pos; lra).
  assert (MB4 : M4 <= 101 / 100 * (N * S)).
  { unfold M4. apply Rle_trans with (N1 * (1 + d1) * (N2 * (T2 + / 8589934592 * (1 + T2))) + N * (T1 + / 8589934592 * (1 + T1))).
    - apply Rplus_le_compat.
      + apply Rle_trans with ((Rabs xf + Rabs xg) * (N2 * (T2 + d2 * (1 + T2)))).
        * rewrite Rmult_plus_distr_r. apply Rplus_le_compat; apply Rmult_le_compat_l; assumption.
        * apply prod_le; [split; [lra|exact RS]|]. split; [apply Rmult_le_pos; lra|apply Rmult_le_compat_l; lra].
      + eapply Rle_trans; [exact XH|]. apply prod_le; lra.
    - replace (N1 * (1 + d1) * (N2 * (T2 + / 8589934592 * (1 + T2)))) with (N * ((1 + d1) * (T2 + / 8589934592 * (1 + T2)))) by (unfold N; ring).
      rewrite <- Rmult_plus_distr_l. replace (101 / 100 * (N * S)) with (N * (101 / 100 * S)) by ring. apply Rmult_le_compat_l; [lra|].
      assert ((1 + d1) * (T2 + / 8589934592 * (1 + T2)) <= (1 + / 8589934592) * (T2 + / 8589934592 * (1 + T2))) by (apply Rmult_le_compat_r; lra).
      unfold S. lra. }
  assert (P4 : 0 <= M4) by (unfold M4; pose proof (Rabs_pos xh); assert (0 <= Rabs xf * Rabs g4) by (apply Rmult_le_pos; apply Rabs_pos);
    assert (0 <= Rabs xg * Rabs g5) by (apply Rmult_le_pos; apply Rabs_pos); lra).
  destruct (dot2 f (fm0 G) g (fm1 G) M0 Ff F0 Fg F1 (Rle_refl _)) as [FA EA]; [lra|].
  destruct (dot2 f (fm2 G) g (fm3 G) M2 Ff F2 Fg F3 (Rle_refl _)) as [FB EB]; [lra|].
  destruct (dot3 f (fm4 G) g (fm5 G) h M4 Ff F4 Fg F5 Fh (Rle_refl _)) as [FC EC]; [lra|].
  fold xf xg g0 g1 in EA. fold xf xg g2 g3 in EB. fold xf xg xh g4 g5 in EC.
  (* errors of the factors *)
  assert (PE : forall x y p q, Rabs (x * y - p * q) <= Rabs x * Rabs (y - q) + Rabs (x - p) * Rabs q).
  { intros x y p q. replace (x * y - p * q) with (x * (y - q) + (x - p) * q) by ring. eapply Rle_trans; [apply Rabs_triang|]. rewrite !Rabs_mult. lra. }
  pose proof (Rabs_pos (xf - a)) as Pa. pose proof (Rabs_pos (xg - b)) as Pb.
  constructor.
  - auto.
  - assert (X : forall p q r s, Rabs (p * q + r * s) <= Rabs p * Rabs q + Rabs r * Rabs s) by (intros; eapply Rle_trans; [apply Rabs_triang|]; rewrite !Rabs_mult; lra).
    pose proof (X a b0 b b1) as X0. pose proof (X a b2 b b3) as X2.
    apply Rle_trans with ((Rabs a + Rabs b) * N2); [|unfold N; apply Rmult_le_compat_r; lra].
    assert (Rabs a * (Rabs b0 + Rabs b2) <= Rabs a * N2) by (apply Rmult_le_compat_l; [apply Rabs_pos|assumption]).
    assert (Rabs b * (Rabs b1 + Rabs b3) <= Rabs b * N2) by (apply Rmult_le_compat_l; [apply Rabs_pos|assumption]). lra.
  - assert (X : Rabs (a * b4 + b * b5 + c) <= Rabs a * Rabs b4 + Rabs b * Rabs b5 + Rabs c).
    { eapply Rle_trans; [apply Rabs_triang|]. apply Rplus_le_compat_r. eapply Rle_trans; [apply Rabs_triang|]. rewrite !Rabs_mult. lra. }
    assert (Rabs a * Rabs b4 <= Rabs a * (N2 * T2)) by (apply Rmult_le_compat_l; [apply Rabs_pos|assumption]).
    assert (Rabs b * Rabs b5 <= Rabs b * (N2 * T2)) by (apply Rmult_le_compat_l; [apply Rabs_pos|assumption]).
    assert ((Rabs a + Rabs b) * (N2 * T2) <= N1 * (N2 * T2)) by (apply Rmult_le_compat_r; [apply Rmult_le_pos; lra|assumption]).
    assert (N1 * T1 <= N * T1) by (apply Rmult_le_compat_r; lra).
    replace (N * (T1 + T2)) with (N * T1 + N1 * (N2 * T2)) by (unfold N; ring). lra.
  - pose proof (PE xf g0 a b0) as A0. pose proof (PE xg g1 b b1) as A1. pose proof (PE xf g2 a b2) as A2. pose proof (PE xg g3 b b3) as A3.
    assert (S0 : Rabs xf * (Rabs (g0 - b0) + Rabs (g2 - b2)) + Rabs xg * (Rabs (g1 - b1) + Rabs (g3 - b3)) <= N1 * (1 + d1) * (d2 * N2)).
    { apply Rle_trans with ((Rabs xf + Rabs xg) * (d2 * N2)); [|apply Rmult_le_compat_r; [apply Rmult_le_pos; lra|exact RS]].
      rewrite Rmult_plus_distr_r. apply Rplus_le_compat; apply Rmult_le_compat_l; assumption. }
    assert (S2 : Rabs (xf - a) * (Rabs b0 + Rabs b2) + Rabs (xg - b) * (Rabs b1 + Rabs b3) <= d1 * N1 * N2).
    { apply Rle_trans with ((Rabs (xf - a) + Rabs (xg - b)) * N2); [|apply Rmult_le_compat_r; lra].
      rewrite Rmult_plus_distr_r. apply Rplus_le_compat; apply Rmult_le_compat_l; assumption. }
    set (s0 := B2R (fadd (fmul f (fm0 G)) (fmul g (fm1 G)))) in *. set (s2 := B2R (fadd (fmul f (fm2 G)) (fmul g (fm3 G)))) in *.
    assert (Y0 : Rabs (s0 - (a * b0 + b * b1)) <= Rabs (s0 - (xf * g0 + xg * g1)) + Rabs (xf * g0 - a * b0) + Rabs (xg * g1 - b * b1)).
    { replace (s0 - (a * b0 + b * b1)) with ((s0 - (xf * g0 + xg * g1)) + (xf * g0 - a * b0) + (xg * g1 - b * b1)) by ring.
      eapply Rle_trans; [apply Rabs_triang|]. apply Rplus_le_compat_r, Rabs_triang. }
    assert (Y2 : Rabs (s2 - (a * b2 + b * b3)) <= Rabs (s2 - (xf * g2 + xg * g3)) + Rabs (xf * g2 - a * b2) + Rabs (xg * g3 - b * b3)).
    { replace (s2 - (a * b2 + b * b3)) with ((s2 - (xf * g2 + xg * g3)) + (xf * g2 - a * b2) + (xg * g3 - b * b3)) by ring.
      eapply Rle_trans; [apply Rabs_triang|]. apply Rplus_le_compat_r, Rabs_triang. }
    assert (MU : u53 * (M0 + M2) <= u53 * (101 / 100 * N)) by (apply Rmult_le_compat_l; lra).
    replace (N1 * (1 + d1) * (d2 * N2)) with (W * k2 + W * (d1 * k2)) in S0 by (unfold W, d2, N; ring).
    replace (d1 * N1 * N2) with (W * k1) in S2 by (unfold W, d1, N; ring).
    assert (WD : W * (d1 * k2) <= W * / 8192) by (apply Rmult_le_compat_l; lra).
    replace ((k1 + k2 + 8) * (u53 * N)) with (W * k1 + W * k2 + 8 * W) by (unfold W; ring).
    replace (u53 * (101 / 100 * N)) with (101 / 100 * W) in MU by (unfold W; ring). lra.
  - pose proof (PE xf g4 a b4) as A4. pose proof (PE xg g5 b b5) as A5.
    set (s4 := B2R (fadd (fadd (fmul f (fm4 G)) (fmul g (fm5 G))) h)) in *.
    assert (Y4 : Rabs (s4 - (a * b4 + b * b5 + c)) <= Rabs (s4 - (xf * g4 + xg * g5 + xh)) + Rabs (xf * g4 - a * b4) + Rabs (xg * g5 - b * b5) + Rabs (xh - c)).
    { replace (s4 - (a * b4 + b * b5 + c)) with ((s4 - (xf * g4 + xg * g5 + xh)) + (xf * g4 - a * b4) + (xg * g5 - b * b5) + (xh - c)) by ring.
      eapply Rle_trans; [apply Rabs_triang|]. apply Rplus_le_compat_r. eapply Rle_trans; [apply Rabs_triang|]. apply Rplus_le_compat_r, Rabs_triang. }
    assert (S0 : Rabs xf * Rabs (g4 - b4) + Rabs xg * Rabs (g5 - b5) <= N1 * (1 + d1) * (d2 * (N2 * (1 + T2)))).
    { apply Rle_trans with ((Rabs xf + Rabs xg) * (d2 * (N2 * (1 + T2)))); [|apply Rmult_le_compat_r; [apply Rmult_le_pos; [lra|apply Rmult_le_pos; lra]|exact RS]].
      rewrite Rmult_plus_distr_r. apply Rplus_le_compat; apply Rmult_le_compat_l; assumption. }
    assert (S2 : Rabs (xf - a) * Rabs b4 + Rabs (xg - b) * Rabs b5 <= d1 * N1 * (N2 * T2)).
    { apply Rle_trans with ((Rabs (xf - a) + Rabs (xg - b)) * (N2 * T2)); [|apply Rmult_le_compat_r; [apply Rmult_le_pos; lra|lra]].
      rewrite Rmult_plus_distr_r. apply Rplus_le_compat; apply Rmult_le_compat_l; assumption. }
    assert (S3 : d1 * (N1 * (1 + T1)) <= d1 * (N * (1 + T1))) by (apply Rmult_le_compat_l; [lra|apply Rmult_le_compat_r; lra]).
    assert (MU : u53 * M4 <= u53 * (101 / 100 * (N * S))) by (apply Rmult_le_compat_l; lra).
    replace (N1 * (1 + d1) * (d2 * (N2 * (1 + T2)))) with (W * (k2 * (1 + T2)) + W * (1 + T2) * (d1 * k2)) in S0 by (unfold W, d2, N; ring).
    replace (d1 * N1 * (N2 * T2)) with (W * (k1 * T2)) in S2 by (unfold W, d1, N; ring).
    replace (d1 * (N * (1 + T1))) with (W * (k1 * (1 + T1))) in S3 by (unfold W, d1; ring).
    assert (WD : W * (1 + T2) * (d1 * k2) <= W * (1 + T2) * / 8192) by (apply Rmult_le_compat_l; [apply Rmult_le_pos; lra|lra]).
    assert (WS : W * (1 + T2) <= W * S) by (apply Rmult_le_compat_l; unfold S; lra).
    assert (WK : W * (k2 * (1 + T2)) <= W * (k2 * S)) by (apply Rmult_le_compat_l; [lra|apply Rmult_le_compat_l; unfold S; lra]).
    assert (W1 : W <= W * S) by (rewrite <- (Rmult_1_r W) at 1; apply Rmult_le_compat_l; lra).
    fold S. replace ((k1 + k2 + 8) * (u53 * (N * S))) with (W * (k1 * T2) + W * (k1 * (1 + T1)) + W * (k2 * S) + 8 * (W * S)) by (unfold W, S; ring).
    replace (u53 * (101 / 100 * (N * S))) with (101 / 100 * (W * S)) in MU by (unfold W; ring). lra.
Qed.

Lemma tr_near_mul : forall k1 N1 T1 k2 N2 T2 F A G B,
  1 <= N1 -> 1 <= N2 -> 0 <= T1 -> 0 <= T2 -> 0 <= k1 -> 0 <= k2 -> k1 + k2 <= lots -> N1 * N2 * (1 + (T1 + T2)) <= huge ->
  tr_near k1 N1 T1 F A -> tr_near k2 N2 T2 G B -> tr_near (k1 + k2 + 8) (N1 * N2) (T1 + T2) (ftmul F G) (tmul A B).
Proof.
  intros k1 N1 T1 k2 N2 T2 F A G B HN1 HN2 HT1 HT2 K1 K2 KL HB [H1 H2] HG.
  split; (eapply row_mul; eassumption).
Qed.
