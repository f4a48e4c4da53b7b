(** The chord of a circle in binary64 (svg_path_parser.rs:737-788): rounding errors of the two points
    and of their angles. *)
From Coq Require Import Reals Lra ZArith Lia Bool Psatz.
From Flocq Require Import Core BinarySingleNaN.
From Verif Require Import Base Floats FloatProofs FloatScale FloatErr FloatCurve ApproxCurve DrawCurves FloatPath FloatAngles.
Open Scope R_scope.

(** ** Rounding, relative to a size *)

Definition w : R := 1.001 * u53.
Lemma w_val : w = 1.001 / 9007199254740992.
Proof. unfold w. rewrite u53_val. lra. Qed.
Lemma w_pos : 0 < w < / 10 ^ 15.
Proof. rewrite w_val. cbn [pow]. lra. Qed.

Definition size (S : R) : Prop := bpow radix2 (-420) <= S <= bpow radix2 420.
Lemma size_pos : forall S, size S -> 0 < S.
Proof. intros S [A _]. pose proof (bpow_gt_0 radix2 (-420)). lra. Qed.
Lemma size_tiny : forall S, size S -> tiny <= / 8000 * u53 * S.
Proof.
  intros S [A _]. apply Rle_trans with (bpow radix2 (-13) * u53 * bpow radix2 (-420)).
  - unfold tiny, u53. rewrite <- !bpow_plus. apply bpow_le. lia.
  - pose proof u53_pos as [U _]. pose proof (bpow_gt_0 radix2 (-420)). apply Rmult_le_compat; [|lra| |exact A].
    + apply Rmult_le_pos; [apply bpow_ge_0|lra].
    + apply Rmult_le_compat_r; [lra|]. change (bpow radix2 (-13)) with (/ 8192). lra.
Qed.
Lemma size_1 : size 1.
Proof. split; [change 1 with (bpow radix2 0); apply bpow_le; lia|change 1 with (bpow radix2 0) at 1; apply bpow_le; lia]. Qed.

Lemma rnd : forall S B x, size S -> / 8 <= B -> Rabs (x / S) <= B -> Rabs (rne x / S - x / S) <= w * B.
Proof.
  intros S B x SS HB HX. pose proof (size_pos S SS) as P. pose proof (size_tiny S SS) as T. pose proof (rne_err x) as E. pose proof u53_pos as [U _].
  assert (AX : Rabs x <= B * S).
  { replace x with (x / S * S) by (field; repeat split; apply Rgt_not_eq; lra). rewrite Rabs_mult, (Rabs_pos_eq S) by lra. apply Rmult_le_compat_r; lra. }
  replace (rne x / S - x / S) with ((rne x - x) * / S) by (field; repeat split; apply Rgt_not_eq; lra). rewrite Rabs_mult, (Rabs_pos_eq (/ S)) by (left; apply Rinv_0_lt_compat; exact P).
  apply Rmult_le_reg_r with S; [exact P|]. rewrite Rmult_assoc, Rinv_l, Rmult_1_r by lra.
  assert (U1 : u53 * Rabs x <= u53 * (B * S)) by (apply Rmult_le_compat_l; lra).
  assert (US : 0 <= u53 * S) by (apply Rmult_le_pos; lra). assert (UB : / 8 * (u53 * S) <= B * (u53 * S)) by (apply Rmult_le_compat_r; lra).
  unfold w. lra.
Qed.
Lemma in_range : forall S B x, size S -> B <= 2 ^ 300 -> Rabs (x / S) <= B -> Rabs x <= bpow radix2 1000.
Proof.
  intros S B x SS HB HX. pose proof (size_pos S SS) as P. replace x with (x / S * S) by (field; repeat split; apply Rgt_not_eq; lra). rewrite Rabs_mult, (Rabs_pos_eq S) by lra.
  apply Rle_trans with (bpow radix2 300 * bpow radix2 420).
  - apply Rmult_le_compat; [apply Rabs_pos|lra| |apply SS]. eapply Rle_trans; [exact HX|]. eapply Rle_trans; [exact HB|].
    right. rewrite bpow_powerRZ. cbn [powerRZ]. replace (Pos.to_nat 300) with 300%nat by reflexivity. reflexivity.
  - rewrite <- bpow_plus. apply bpow_le. lia.
Qed.

Lemma nadd : forall S B x y, size S -> / 8 <= B <= 2 ^ 300 -> is_finite x = true -> is_finite y = true -> Rabs ((B2R x + B2R y) / S) <= B ->
  is_finite (fadd x y) = true /\ Rabs (B2R (fadd x y) / S - (B2R x + B2R y) / S) <= w * B.
Proof.
  intros S B x y SS [B1 B2] Fx Fy H. destruct (fadd_val x y Fx Fy (in_range S B _ SS B2 H)) as [F E]. split; [exact F|]. rewrite E. apply rnd; assumption.
Qed.
Lemma nsub : forall S B x y, size S -> / 8 <= B <= 2 ^ 300 -> is_finite x = true -> is_finite y = true -> Rabs ((B2R x - B2R y) / S) <= B ->
  is_finite (fsub x y) = true /\ Rabs (B2R (fsub x y) / S - (B2R x - B2R y) / S) <= w * B.
Proof.
  intros S B x y SS [B1 B2] Fx Fy H. destruct (fsub_val x y Fx Fy (in_range S B _ SS B2 H)) as [F E]. split; [exact F|]. rewrite E. apply rnd; assumption.
Qed.
Lemma nmul : forall S B x y, size S -> / 8 <= B <= 2 ^ 300 -> is_finite x = true -> is_finite y = true -> Rabs ((B2R x * B2R y) / S) <= B ->
  is_finite (fmul x y) = true /\ Rabs (B2R (fmul x y) / S - (B2R x * B2R y) / S) <= w * B.
Proof.
  intros S B x y SS [B1 B2] Fx Fy H. destruct (fmul_val x y Fx Fy (in_range S B _ SS B2 H)) as [F E]. split; [exact F|]. rewrite E. apply rnd; assumption.
Qed.
Lemma ndiv : forall S B x y, size S -> / 8 <= B <= 2 ^ 300 -> is_finite x = true -> B2R y <> 0 -> Rabs ((B2R x / B2R y) / S) <= B ->
  is_finite (fdiv x y) = true /\ Rabs (B2R (fdiv x y) / S - (B2R x / B2R y) / S) <= w * B.
Proof.
  intros S B x y SS [B1 B2] Fx Fy H. destruct (fdiv_val x y Fx Fy (in_range S B _ SS B2 H)) as [F E]. split; [exact F|]. rewrite E. apply rnd; assumption.
Qed.

(** ** The chord, in units of the radius *)

Section Real.
Variables K kk c E F t3 r2 num kc v m2 m p mp h x1 x2 kx1 kx2 y1 y2 : R.
Hypothesis HK : Rabs K <= 1.
Hypothesis HKF : Rabs (K * E - F) <= 2.02 * w.
Hypothesis HE : Rabs E <= 2.001.
Hypothesis Hkk : Rabs (kk - K * K) <= w.
Hypothesis Hc : Rabs (c - (1 + kk)) <= w * 2.
Hypothesis Bc : 1 <= c <= 2.
Hypothesis Ht3 : Rabs (t3 - c * E * E / 4) <= 6.3 * w.
Hypothesis Bt3 : 0 <= t3 <= r2.
Hypothesis Hr2 : Rabs (r2 - 1) <= w * 1.
Hypothesis Hnum : Rabs (num - (t3 - r2)) <= w * 1.001.
Hypothesis Hkc : Rabs (kc - kk / c) <= w * 1.
Hypothesis Hv : Rabs (v - (kc - 1)) <= w * 1.
Hypothesis Hm2 : Rabs (m2 - num / v) <= w * 2.1.
Hypothesis P2 : 0 <= m2.
Hypothesis Hm : Rabs (m - sqrt m2) <= w * 1.45.
Hypothesis Hp : Rabs (p - - K * m) <= w * 1.46.
Hypothesis Hmp : Rabs (mp - p / c) <= w * 1.47.
Hypothesis Hh : Rabs (h - E / 2) <= w * 1.01.
Hypothesis Hx1 : Rabs (x1 - (mp - h)) <= w * 1.75.
Hypothesis Hx2 : Rabs (x2 - (mp + h)) <= w * 1.75.
Hypothesis Hkx1 : Rabs (kx1 - K * x1) <= w * 1.76.
Hypothesis Hkx2 : Rabs (kx2 - K * x2) <= w * 1.76.
Hypothesis Hy1 : Rabs (y1 - (kx1 + m)) <= w * 3.3.
Hypothesis Hy2 : Rabs (y2 - (kx2 + m)) <= w * 3.3.

Let C := 1 + K * K.

Lemma le_abs : forall a b : R, Rabs a <= b -> - b <= a <= b.
Proof. intros a b. apply Rabs_le_inv. Qed.
Lemma mul_abs : forall a b A B : R, Rabs a <= A -> Rabs b <= B -> Rabs (a * b) <= A * B.
Proof. intros a b A B HA HB. rewrite Rabs_mult. apply Rmult_le_compat; try apply Rabs_pos; assumption. Qed.

Lemma K2 : 0 <= K * K <= 1.
Proof. apply le_abs in HK. split; nra. Qed.
Lemma C_b : 1 <= C <= 2.
Proof. pose proof K2. unfold C. lra. Qed.
Lemma cC : Rabs (c - C) <= 3 * w.
Proof. apply le_abs in Hkk, Hc. unfold C. apply Rabs_le. lra. Qed.

Lemma inv_b : forall x, 1 <= x -> 0 < / x <= 1.
Proof. intros x H. split; [apply Rinv_0_lt_compat; lra|]. rewrite <- Rinv_1. apply Rinv_le_contravar; lra. Qed.

Lemma kc_C : Rabs (kc - K * K / C) <= 5 * w.
Proof.
  pose proof C_b as CB. pose proof K2 as KB. pose proof cC as D. pose proof (inv_b c (proj1 Bc)) as Ic. pose proof (inv_b C (proj1 CB)) as IC.
  assert (A1 : Rabs ((kk - K * K) * / c) <= w * 1) by (apply mul_abs; [exact Hkk|rewrite Rabs_pos_eq; lra]).
  assert (A2 : Rabs ((C - c) * (K * K * (/ c * / C))) <= 3 * w * 1).
  { apply mul_abs; [rewrite Rabs_minus_sym; exact D|]. rewrite Rabs_pos_eq by (apply Rmult_le_pos; [lra|apply Rmult_le_pos; lra]).
    assert (/ c * / C <= 1 * 1) by (apply Rmult_le_compat; lra). assert (0 <= / c * / C) by (apply Rmult_le_pos; lra).
    apply Rle_trans with (1 * 1); [apply Rmult_le_compat; lra|lra]. }
  replace (kc - K * K / C) with ((kc - kk / c) + (kk - K * K) * / c + (C - c) * (K * K * (/ c * / C))) by (field; repeat split; apply Rgt_not_eq; lra).
  apply le_abs in A1, A2, Hkc. apply Rabs_le. lra.
Qed.
Lemma v_C : Rabs (v - - / C) <= 6 * w.
Proof.
  pose proof kc_C as D. pose proof C_b as CB. apply le_abs in D, Hv. replace (K * K / C) with (1 - / C) in D by (unfold C; field; unfold C in CB; lra).
  apply Rabs_le. lra.
Qed.
Lemma v_b : -1.001 <= v <= -0.499.
Proof.
  pose proof v_C as D. pose proof C_b as CB. pose proof w_pos as W. apply le_abs in D.
  assert (/ 2 <= / C) by (apply Rinv_le_contravar; lra). pose proof (inv_b C (proj1 CB)). cbn [pow] in W. lra.
Qed.
Lemma t3_C : Rabs (t3 - C * E * E / 4) <= 9.4 * w.
Proof.
  pose proof cC as D. assert (A : Rabs ((c - C) * (E * E / 4)) <= 3 * w * 1.002).
  { apply mul_abs; [exact D|]. apply le_abs in HE. rewrite Rabs_pos_eq; nra. }
  apply le_abs in A, Ht3. pose proof w_pos. apply Rabs_le. lra.
Qed.

Lemma num_C : Rabs (num - - (1 - C * E * E / 4)) <= 11.5 * w.
Proof. pose proof t3_C as D. pose proof w_pos. apply le_abs in D, Hnum, Hr2. apply Rabs_le. lra. Qed.
Lemma num_b : Rabs num <= 1.002.
Proof. pose proof w_pos as W. cbn [pow] in W. apply le_abs in Hnum, Hr2. apply Rabs_le. lra. Qed.

Let M2 := C * (1 - C * E * E / 4).
Lemma m2_M : Rabs (m2 - M2) <= 50 * w.
Proof.
  pose proof C_b as CB. pose proof v_b as VB. pose proof v_C as VC. pose proof num_C as NC. pose proof num_b as NB. pose proof w_pos as W. cbn [pow] in W.
  assert (IV : Rabs (/ v) <= 2.005).
  { rewrite Rabs_inv. assert (A : 0.499 <= Rabs v) by (rewrite Rabs_left; lra). apply Rle_trans with (/ 0.499); [apply Rinv_le_contravar; lra|lra]. }
  set (N := - (1 - C * E * E / 4)) in *.
  assert (BN : Rabs N <= 1.003) by (apply le_abs in NC, NB; apply Rabs_le; lra).
  assert (A1 : Rabs ((num - N) * / v) <= 11.5 * w * 2.005) by (apply mul_abs; assumption).
  assert (A2 : Rabs (N * ((v - - / C) * (C * / v))) <= 1.003 * (6 * w * (2 * 2.005))).
  { apply mul_abs; [exact BN|]. apply mul_abs; [exact VC|]. apply mul_abs; [rewrite Rabs_pos_eq; lra|exact IV]. }
  replace (m2 - M2) with ((m2 - num / v) + (num - N) * / v + N * ((v - - / C) * (C * / v))) by (unfold M2, N; field; lra).
  apply le_abs in A1, A2, Hm2. apply Rabs_le. lra.
Qed.
Lemma m2_b : m2 <= 2.05.
Proof.
  pose proof m2_M as D. pose proof w_pos as W. pose proof C_b as CB. cbn [pow] in W. apply le_abs in D. unfold M2 in D.
  assert (0 <= E * E) by (apply Rle_0_sqr). nra.
Qed.
Lemma root_b : 0 <= sqrt m2 <= 1.44.
Proof.
  split; [apply sqrt_pos|]. apply Rsqr_incr_0; [|apply sqrt_pos|lra]. rewrite Rsqr_sqrt by exact P2. pose proof m2_b. unfold Rsqr. lra.
Qed.
Lemma m_b : Rabs m <= 1.45.
Proof. pose proof root_b as B. pose proof w_pos as W. cbn [pow] in W. apply le_abs in Hm. apply Rabs_le. lra. Qed.
Lemma mm_M : Rabs (m * m - M2) <= 55 * w.
Proof.
  pose proof m2_M as D. pose proof root_b as RB. pose proof m_b as MB. pose proof w_pos as W.
  assert (A : Rabs ((m - sqrt m2) * (m + sqrt m2)) <= w * 1.45 * 2.9).
  { apply mul_abs; [exact Hm|]. apply le_abs in MB. apply Rabs_le. lra. }
  assert (S : sqrt m2 * sqrt m2 = m2) by (apply sqrt_sqrt; exact P2).
  replace (m * m - M2) with ((m - sqrt m2) * (m + sqrt m2) + (m2 - M2)) by lra.
  apply le_abs in A, D. apply Rabs_le. lra.
Qed.

Lemma half_max : Rabs (K * / C) <= / 2.
Proof.
  pose proof C_b as CB. rewrite Rabs_mult, (Rabs_pos_eq (/ C)) by (left; apply Rinv_0_lt_compat; lra).
  apply Rmult_le_reg_r with C; [lra|]. rewrite Rmult_assoc, Rinv_l, Rmult_1_r by lra. unfold C.
  assert (KA : K * K = Rabs K * Rabs K) by (rewrite <- Rabs_mult, Rabs_pos_eq by apply Rle_0_sqr; reflexivity). rewrite KA.
  assert (0 <= (Rabs K - 1) * (Rabs K - 1)) by apply Rle_0_sqr. lra.
Qed.
Lemma mp_C : Rabs (mp - - (K * / C) * m) <= 7.4 * w.
Proof.
  pose proof C_b as CB. pose proof cC as D. pose proof m_b as MB. pose proof (inv_b c (proj1 Bc)) as Ic. pose proof (inv_b C (proj1 CB)) as IC.
  assert (A1 : Rabs ((p - - K * m) * / c) <= w * 1.46 * 1) by (apply mul_abs; [exact Hp|rewrite Rabs_pos_eq; lra]).
  assert (A2 : Rabs ((C - c) * (K * (m * (/ c * / C)))) <= 3 * w * (1 * (1.45 * (1 * 1)))).
  { apply mul_abs; [rewrite Rabs_minus_sym; exact D|]. apply mul_abs; [exact HK|]. apply mul_abs; [exact MB|].
    apply mul_abs; rewrite Rabs_pos_eq; lra. }
  replace (mp - - (K * / C) * m) with ((mp - p / c) + (p - - K * m) * / c - (C - c) * (K * (m * (/ c * / C)))) by (field; repeat split; apply Rgt_not_eq; lra).
  pose proof w_pos. apply le_abs in A1, A2, Hmp. apply Rabs_le. lra.
Qed.
Lemma mp_b : Rabs mp <= 0.73.
Proof.
  pose proof mp_C as D. pose proof (mul_abs _ _ _ _ half_max m_b) as A. pose proof w_pos as W. cbn [pow] in W.
  apply le_abs in D, A. apply Rabs_le. lra.
Qed.
Lemma h_b : Rabs h <= 1.001.
Proof. pose proof w_pos as W. cbn [pow] in W. apply le_abs in Hh, HE. apply Rabs_le. lra. Qed.

(** The exact points of the chord that the computed [m] gives. *)
Let X1 := - (K * / C) * m - E / 2.
Let X2 := - (K * / C) * m + E / 2.
Let Y1 := K * X1 + m.
Let Y2 := K * X2 + m.

Lemma x1_X : Rabs (x1 - X1) <= 10.2 * w.
Proof. pose proof mp_C as D. pose proof w_pos. apply le_abs in D, Hh, Hx1. unfold X1. apply Rabs_le. lra. Qed.
Lemma x2_X : Rabs (x2 - X2) <= 10.2 * w.
Proof. pose proof mp_C as D. pose proof w_pos. apply le_abs in D, Hh, Hx2. unfold X2. apply Rabs_le. lra. Qed.
Lemma dx_E : Rabs (x2 - x1 - E) <= 5.6 * w.
Proof. pose proof w_pos. apply le_abs in Hh, Hx1, Hx2. apply Rabs_le. lra. Qed.
Lemma y_K : forall x kx y, Rabs (kx - K * x) <= w * 1.76 -> Rabs (y - (kx + m)) <= w * 3.3 -> Rabs (y - (K * x + m)) <= 5.1 * w.
Proof. intros x kx y A B. pose proof w_pos. apply le_abs in A, B. apply Rabs_le. lra. Qed.
Lemma dy_F : Rabs (y2 - y1 - F) <= 18 * w.
Proof.
  pose proof (y_K _ _ _ Hkx1 Hy1) as A. pose proof (y_K _ _ _ Hkx2 Hy2) as B. pose proof (mul_abs _ _ _ _ HK dx_E) as D. pose proof w_pos.
  apply le_abs in A, B, D, HKF. apply Rabs_le. lra.
Qed.

Lemma on_circle : forall X Y e, e * e = E * E / 4 -> X = - (K * / C) * m + e -> Y = K * X + m -> Rabs (X * X + Y * Y - 1) <= 55 * w.
Proof.
  intros X Y e EE -> ->. pose proof C_b as CB. pose proof mm_M as D. pose proof (inv_b C (proj1 CB)) as IC.
  assert (I : (- (K * / C) * m + e) * (- (K * / C) * m + e) + (K * (- (K * / C) * m + e) + m) * (K * (- (K * / C) * m + e) + m) - 1
    = (m * m - M2) * / C).
  { transitivity (m * m * / C + C * (e * e) - 1).
    - unfold C in *. field. lra.
    - rewrite EE. unfold M2. field. lra. }
  rewrite I. replace (55 * w) with (55 * w * 1) by ring. apply mul_abs; [exact D|]. rewrite Rabs_pos_eq; lra.
Qed.

Lemma near_circle : forall X Y x y kx e, e * e = E * E / 4 -> X = - (K * / C) * m + e -> Y = K * X + m -> Rabs (x - X) <= 10.2 * w ->
  Rabs (kx - K * x) <= w * 1.76 -> Rabs (y - (kx + m)) <= w * 3.3 -> Rabs (x * x + y * y - 1) <= 107 * w.
Proof.
  intros X Y x y kx e EE EX EY D1 A B. pose proof (on_circle X Y e EE EX EY) as O. pose proof (y_K _ _ _ A B) as D2. pose proof w_pos as W. cbn [pow] in W.
  assert (D3 : Rabs (y - Y) <= 15.3 * w).
  { pose proof (mul_abs _ _ _ _ HK D1) as D3. rewrite EY. apply le_abs in D2, D3. apply Rabs_le. lra. }
  apply le_abs in O. assert (XX : X * X <= 1.001) by (pose proof (Rle_0_sqr Y); unfold Rsqr in *; lra).
  assert (YY : Y * Y <= 1.001) by (pose proof (Rle_0_sqr X); unfold Rsqr in *; lra).
  assert (BX : Rabs X <= 1.001) by (apply Rabs_le; nra). assert (BY : Rabs Y <= 1.001) by (apply Rabs_le; nra).
  assert (A1 : Rabs ((x - X) * (x + X)) <= 10.2 * w * 2.003).
  { apply mul_abs; [exact D1|]. apply le_abs in D1, BX. apply Rabs_le. lra. }
  assert (A2 : Rabs ((y - Y) * (y + Y)) <= 15.3 * w * 2.003).
  { apply mul_abs; [exact D3|]. apply le_abs in D3, BY. apply Rabs_le. lra. }
  replace (x * x + y * y - 1) with ((X * X + Y * Y - 1) + (x - X) * (x + X) + (y - Y) * (y + Y)) by ring.
  apply le_abs in A1, A2. apply Rabs_le. lra.
Qed.

Theorem chord_real : Rabs (x2 - x1 - E) <= 5.6 * w /\ Rabs (y2 - y1 - F) <= 18 * w /\
  Rabs (x1 * x1 + y1 * y1 - 1) <= 107 * w /\ Rabs (x2 * x2 + y2 * y2 - 1) <= 107 * w.
Proof.
  split; [exact dx_E|]. split; [exact dy_F|]. split.
  - apply (near_circle X1 Y1 x1 y1 kx1 (- (E / 2))); try assumption; try reflexivity; [field|exact x1_X].
  - apply (near_circle X2 Y2 x2 y2 kx2 (E / 2)); try assumption; try reflexivity; [field|exact x2_X].
Qed.
End Real.

(** ** The chord, in binary64 *)

(** svg_path_parser.rs:737-769 for equal radii: [e] is the larger of the two distances. *)
Definition halfchord (rho e f : f64) : option (f64 * f64 * f64 * f64) :=
  let k := fdiv f e in
  let r2 := fmul rho rho in
  let c := fadd (fdiv r2 r2) (fmul k k) in
  let m2 := fdiv (fsub (fdiv (fmul (fmul c e) e) (f_of_Z 4)) r2) (fsub (fdiv (fmul k k) c) fone) in
  if flt m2 fzero then None
  else
    let m := fsqrt m2 in
    let mp := fdiv (fmul (fneg k) m) c in
    let x1 := fsub mp (fdiv e (f_of_Z 2)) in
    let x2 := fadd mp (fdiv e (f_of_Z 2)) in
    Some (x1, fadd (fmul k x1) m, x2, fadd (fmul k x2) m).

Lemma fchord_half : forall rho dx dy, fchord rho rho dx dy =
  if flt (fabs dy) (fabs dx) then halfchord rho dx dy
  else match halfchord rho dy dx with Some (y1, x1, y2, x2) => Some (x1, y1, x2, y2) | None => None end.
Proof.
  intros rho dx dy. unfold fchord, halfchord. destruct (flt (fabs dy) (fabs dx)); [reflexivity|]. cbv zeta.
  destruct (flt _ fzero); reflexivity.
Qed.

Lemma four_value : is_finite (f_of_Z 4) = true /\ B2R (f_of_Z 4) = 4.
Proof. apply f_of_Z_exact. lia. Qed.
Lemma two_value : is_finite (f_of_Z 2) = true /\ B2R (f_of_Z 2) = 2.
Proof. apply f_of_Z_exact. lia. Qed.
Lemma flt_is : forall x y : f64, is_finite x = true -> is_finite y = true -> flt x y = true <-> B2R x < B2R y.
Proof.
  intros x y Fx Fy. unfold flt. rewrite Bltb_correct by assumption. destruct (Rlt_bool_spec (B2R x) (B2R y)); split; intros; try reflexivity; try discriminate; lra.
Qed.

Lemma b300 : forall B, / 8 <= B <= 8 -> / 8 <= B <= 2 ^ 300.
Proof. intros B [L H]. split; [exact L|]. eapply Rle_trans; [exact H|]. replace 8 with (2 ^ 3) by (cbn [pow]; lra). apply Rle_pow; [lra|lia]. Qed.

Section Chord.
Variables rho e f : f64.
Let s := B2R rho.
Hypothesis FR : is_finite rho = true.
Hypothesis FE : is_finite e = true.
Hypothesis FF : is_finite f = true.
Hypothesis SR : bpow radix2 (-200) <= s <= bpow radix2 200.
Hypothesis E0 : B2R e <> 0.
Hypothesis FLE : Rabs (B2R f) <= Rabs (B2R e).
Hypothesis EB : Rabs (B2R e) <= bpow radix2 200.

Lemma s_pos : 0 < s.
Proof. pose proof (bpow_gt_0 radix2 (-200)). lra. Qed.
Lemma s_size : size s.
Proof. split; [eapply Rle_trans; [|apply SR]|eapply Rle_trans; [apply SR|]]; apply bpow_le; lia. Qed.
Lemma ss_size : size (s * s).
Proof.
  pose proof s_pos. pose proof (bpow_gt_0 radix2 (-200)). split.
  - apply Rle_trans with (bpow radix2 (-200) * bpow radix2 (-200)); [rewrite <- bpow_plus; apply bpow_le; lia|apply Rmult_le_compat; lra].
  - apply Rle_trans with (bpow radix2 200 * bpow radix2 200); [apply Rmult_le_compat; lra|rewrite <- bpow_plus; apply bpow_le; lia].
Qed.

Let k := fdiv f e.
Let K := B2R k.
Let kk := fmul k k.
Let r2 := fmul rho rho.
Let c := fadd (fdiv r2 r2) kk.
Let C := 1 + K * K.

Lemma quot_b : Rabs (B2R f / B2R e) <= 1.
Proof.
  unfold Rdiv. rewrite Rabs_mult, Rabs_inv. assert (P : 0 < Rabs (B2R e)) by (apply Rabs_pos_lt; exact E0).
  apply Rmult_le_reg_r with (Rabs (B2R e)); [exact P|]. rewrite Rmult_assoc, Rinv_l, Rmult_1_r, Rmult_1_l by lra. exact FLE.
Qed.
Lemma one_round : rne 1 = 1.
Proof. destruct one_value as [_ V]. rewrite <- V at 1. rewrite rne_float. exact V. Qed.
Lemma rne_one : forall x, Rabs x <= 1 -> Rabs (rne x) <= 1.
Proof.
  intros x H. apply Rabs_le_inv in H. pose proof (rne_mono x 1 ltac:(lra)) as A. pose proof (rne_mono (-1) x ltac:(lra)) as B.
  rewrite one_round in A. assert (N : rne (-1) = -1) by (replace (-1) with (- (1)) by lra; rewrite round_NE_opp; f_equal; exact one_round). rewrite N in B. apply Rabs_le. lra.
Qed.
Lemma k_val : is_finite k = true /\ K = rne (B2R f / B2R e) /\ Rabs K <= 1.
Proof.
  destruct (fdiv_val f e FF E0) as [F E]; [eapply Rle_trans; [apply quot_b|]; change 1 with (bpow radix2 0); apply bpow_le; lia|].
  fold k in F, E. fold K in E. split; [exact F|]. split; [exact E|]. rewrite E. apply rne_one, quot_b.
Qed.
Lemma kk_val : is_finite kk = true /\ Rabs (B2R kk - K * K) <= w /\ 0 <= B2R kk <= 1.
Proof.
  destruct k_val as (F & _ & B). assert (KB : 0 <= K * K <= 1) by (apply Rabs_le_inv in B; split; nra).
  assert (AB : Rabs (K * K) <= 1) by (rewrite Rabs_pos_eq; lra).
  destruct (nmul 1 1 k k size_1 ltac:(apply b300; lra) F F) as [F2 E2]; [fold K; unfold Rdiv; rewrite Rinv_1, Rmult_1_r; exact AB|].
  fold kk K in E2. fold kk in F2. unfold Rdiv in E2. rewrite Rinv_1, !Rmult_1_r in E2. split; [exact F2|]. split; [exact E2|].
  destruct (fmul_val k k F F) as [_ V]; [fold K; eapply Rle_trans; [exact AB|]; change 1 with (bpow radix2 0); apply bpow_le; lia|]. fold kk K in V.
  rewrite V. split; [apply rne_pos; lra|]. rewrite <- one_round. apply rne_mono. lra.
Qed.
Lemma r2_val : is_finite r2 = true /\ Rabs (B2R r2 / (s * s) - 1) <= w * 1 /\ 0 < B2R r2.
Proof.
  pose proof s_pos as P. assert (PP : 0 < s * s) by nra.
  destruct (nmul (s * s) 1 rho rho ss_size ltac:(apply b300; lra) FR FR) as [F E].
  { fold s. unfold Rdiv. rewrite Rinv_r, Rabs_R1 by lra. lra. }
  fold r2 s in E. fold r2 in F. replace (s * s / (s * s)) with 1 in E by (field; lra). split; [exact F|]. split; [exact E|].
  apply Rabs_le_inv in E. pose proof w_pos as W. cbn [pow] in W. replace (B2R r2) with (B2R r2 / (s * s) * (s * s)) by (field; lra). apply Rmult_lt_0_compat; lra.
Qed.
Lemma q1_val : is_finite (fdiv r2 r2) = true /\ B2R (fdiv r2 r2) = 1.
Proof.
  destruct r2_val as (F & _ & P). assert (Q : B2R r2 / B2R r2 = 1) by (field; lra).
  destruct (fdiv_val r2 r2 F ltac:(lra)) as [F2 E]; [rewrite Q, Rabs_R1; change 1 with (bpow radix2 0); apply bpow_le; lia|].
  split; [exact F2|]. rewrite E, Q. exact one_round.
Qed.
Lemma c_val : is_finite c = true /\ Rabs (B2R c - (1 + B2R kk)) <= w * 2 /\ 1 <= B2R c <= 2.
Proof.
  destruct kk_val as (F & E & B). destruct q1_val as [F1 E1].
  assert (AB : Rabs (1 + B2R kk) <= 2) by (rewrite Rabs_pos_eq; lra).
  destruct (nadd 1 2 (fdiv r2 r2) kk size_1 ltac:(apply b300; lra) F1 F) as [F2 E2]; [rewrite E1; unfold Rdiv; rewrite Rinv_1, Rmult_1_r; exact AB|].
  fold c in F2, E2. rewrite E1 in E2. unfold Rdiv in E2. rewrite Rinv_1, !Rmult_1_r in E2. split; [exact F2|]. split; [exact E2|].
  destruct (fadd_val (fdiv r2 r2) kk F1 F) as [_ V]; [rewrite E1; eapply Rle_trans; [exact AB|]; change 2 with (bpow radix2 1); apply bpow_le; lia|]. fold c in V. rewrite E1 in V.
  rewrite V. destruct two_value as [_ V2]. split.
  - rewrite <- one_round at 1. apply rne_mono. lra.
  - rewrite <- V2, <- (rne_float (f_of_Z 2)). apply rne_mono. rewrite V2. lra.
Qed.

(** The larger of the chord and the radius. *)
Let Z := Rmax (Rabs (B2R e)) s.
Let t3 := fdiv (fmul (fmul c e) e) (f_of_Z 4).
Lemma Z_b : 0 < Z /\ Rabs (B2R e) <= Z /\ s <= Z /\ size Z /\ size (Z * Z).
Proof.
  pose proof s_pos. assert (A : s <= Z) by apply Rmax_r. assert (B : Rabs (B2R e) <= Z) by apply Rmax_l.
  assert (Z <= bpow radix2 200) by (apply Rmax_lub; [exact EB|apply SR]). assert (bpow radix2 (-200) <= Z) by lra. pose proof (bpow_gt_0 radix2 (-200)).
  repeat split; try assumption; try lra.
  - eapply Rle_trans; [|eassumption]. apply bpow_le. lia.
  - eapply Rle_trans; [eassumption|]. apply bpow_le. lia.
  - apply Rle_trans with (bpow radix2 (-200) * bpow radix2 (-200)); [rewrite <- bpow_plus; apply bpow_le; lia|apply Rmult_le_compat; lra].
  - apply Rle_trans with (bpow radix2 200 * bpow radix2 200); [apply Rmult_le_compat; lra|rewrite <- bpow_plus; apply bpow_le; lia].
Qed.
Lemma t3_val : is_finite t3 = true /\ 0 <= B2R t3 /\ Rabs (B2R t3 / (Z * Z) - B2R c * B2R e * B2R e / 4 / (Z * Z)) <= 1.55 * w.
Proof.
  destruct c_val as (Fc & _ & Bc). destruct Z_b as (Z0 & ZE & _ & Z1 & Z2). pose proof w_pos as W. cbn [pow] in W. destruct four_value as [F4 V4].
  set (x := B2R e / Z). assert (BX : Rabs x <= 1).
  { unfold x, Rdiv. rewrite Rabs_mult, (Rabs_pos_eq (/ Z)) by (left; apply Rinv_0_lt_compat; exact Z0). apply Rmult_le_reg_r with Z; [exact Z0|]. rewrite Rmult_assoc, Rinv_l, Rmult_1_r by lra. lra. }
  assert (EX : B2R e = x * Z) by (unfold x; field; lra).
  assert (AC : Rabs (B2R c) <= 2) by (rewrite Rabs_pos_eq; lra).
  destruct (nmul Z 2 c e Z1 ltac:(apply b300; lra) Fc FE) as [F1 E1].
  { replace (B2R c * B2R e / Z) with (B2R c * x) by (rewrite EX; field; lra). replace 2 with (2 * 1) by ring. apply mul_abs; assumption. }
  set (t1 := fmul c e) in *. set (T1 := B2R t1 / Z) in *. replace (B2R c * B2R e / Z) with (B2R c * x) in E1 by (rewrite EX; field; lra).
  pose proof (mul_abs _ _ _ _ AC BX) as A1. assert (BT1 : Rabs T1 <= 2.001) by (apply le_abs in E1, A1; apply Rabs_le; lra).
  destruct (nmul (Z * Z) 2.001 t1 e Z2 ltac:(apply b300; lra) F1 FE) as [F2 E2].
  { replace (B2R t1 * B2R e / (Z * Z)) with (T1 * x) by (unfold T1; rewrite EX; field; lra). replace 2.001 with (2.001 * 1) by ring. apply mul_abs; assumption. }
  set (t2 := fmul t1 e) in *. set (T2 := B2R t2 / (Z * Z)) in *. replace (B2R t1 * B2R e / (Z * Z)) with (T1 * x) in E2 by (unfold T1; rewrite EX; field; lra).
  pose proof (mul_abs _ _ _ _ BT1 BX) as A2. assert (BT2 : Rabs T2 <= 2.002) by (apply le_abs in E2, A2; apply Rabs_le; lra).
  destruct (ndiv (Z * Z) 0.501 t2 (f_of_Z 4) Z2 ltac:(apply b300; lra) F2 ltac:(rewrite V4; lra)) as [F3 E3].
  { rewrite V4. replace (B2R t2 / 4 / (Z * Z)) with (T2 / 4) by (unfold T2; field; lra). apply le_abs in BT2. apply Rabs_le. lra. }
  fold t3 in F3, E3. rewrite V4 in E3. replace (B2R t2 / 4 / (Z * Z)) with (T2 / 4) in E3 by (unfold T2; field; lra).
  split; [exact F3|]. split.
  - assert (V1 : B2R t1 = rne (B2R c * B2R e)).
    { apply fmul_val; [exact Fc|exact FE|]. apply (in_range Z 2); [exact Z1|apply (b300 2); lra|].
      replace (B2R c * B2R e / Z) with (B2R c * x) by (rewrite EX; field; lra). replace 2 with (2 * 1) by ring. apply mul_abs; assumption. }
    assert (V2 : B2R t2 = rne (B2R t1 * B2R e)).
    { apply fmul_val; [exact F1|exact FE|]. apply (in_range (Z * Z) 2.001); [exact Z2|apply (b300 2.001); lra|].
      replace (B2R t1 * B2R e / (Z * Z)) with (T1 * x) by (unfold T1; rewrite EX; field; lra). replace 2.001 with (2.001 * 1) by ring. apply mul_abs; assumption. }
    assert (V3 : B2R t3 = rne (B2R t2 / 4)).
    { rewrite <- V4. apply fdiv_val; [exact F2|rewrite V4; lra|]. rewrite V4. apply (in_range (Z * Z) 0.501); [exact Z2|apply (b300 0.501); lra|].
      replace (B2R t2 / 4 / (Z * Z)) with (T2 / 4) by (unfold T2; field; lra). apply le_abs in BT2. apply Rabs_le. lra. }
    rewrite V3. apply rne_pos. apply Rmult_le_pos; [|lra]. rewrite V2. apply rne_pos. rewrite V1.
    destruct (Rle_or_lt 0 (B2R e)) as [L|L].
    + apply Rmult_le_pos; [apply rne_pos; apply Rmult_le_pos; lra|exact L].
    + assert (N : rne (B2R c * B2R e) <= 0).
      { rewrite <- rne_0. apply rne_mono. assert (0 <= B2R c * (- B2R e)) by (apply Rmult_le_pos; lra). lra. }
      assert (0 <= (- rne (B2R c * B2R e)) * (- B2R e)) by (apply Rmult_le_pos; lra). lra.
  - replace (B2R c * B2R e * B2R e / 4 / (Z * Z)) with (B2R c * x * x / 4) by (rewrite EX; field; lra).
    assert (A3 : Rabs ((T1 - B2R c * x) * x) <= w * 2 * 1) by (apply mul_abs; assumption).
    apply le_abs in A3, E2, E3. apply Rabs_le. lra.
Qed.

Let num := fsub t3 r2.
Let kc := fdiv kk c.
Let v := fsub kc fone.
Let m2 := fdiv num v.

Lemma v_val : is_finite kc = true /\ is_finite v = true /\ Rabs (B2R kc - B2R kk / B2R c) <= w * 1 /\ Rabs (B2R v - (B2R kc - 1)) <= w * 1 /\
  -1 <= B2R v <= -0.499.
Proof.
  destruct k_val as (_ & _ & KB). destruct kk_val as (Fk & Ek & Bk). destruct c_val as (Fc & Ec & Bc). destruct one_value as [F1 V1].
  pose proof (inv_b _ (proj1 Bc)) as IC.
  assert (B1 : Rabs (B2R kk / B2R c) <= 1).
  { unfold Rdiv. rewrite Rabs_pos_eq by (apply Rmult_le_pos; lra). replace 1 with (1 * 1) by ring. apply Rmult_le_compat; lra. }
  destruct (ndiv 1 1 kk c size_1 ltac:(apply b300; lra) Fk ltac:(lra)) as [F2 E2]; [unfold Rdiv at 1; rewrite Rinv_1, Rmult_1_r; exact B1|].
  fold kc in F2, E2. unfold Rdiv at 1 2 in E2. rewrite Rinv_1, !Rmult_1_r in E2.
  assert (V2 : B2R kc = rne (B2R kk / B2R c)).
  { apply fdiv_val; [exact Fk|lra|]. eapply Rle_trans; [exact B1|]. change 1 with (bpow radix2 0). apply bpow_le. lia. }
  assert (P2 : 0 <= B2R kc <= 1).
  { split; [rewrite V2; apply rne_pos; apply Rmult_le_pos; lra|]. pose proof (rne_one _ B1) as O. rewrite <- V2 in O. apply le_abs in O. lra. }
  assert (B3 : Rabs (B2R kc - B2R fone) <= 1) by (rewrite V1; apply Rabs_le; lra).
  destruct (nsub 1 1 kc fone size_1 ltac:(apply b300; lra) F2 F1) as [F3 E3]; [unfold Rdiv; rewrite Rinv_1, Rmult_1_r; exact B3|].
  fold v in F3, E3. unfold Rdiv in E3. rewrite V1, Rinv_1, !Rmult_1_r in E3. rewrite <- (Rmult_1_r w) in E2, E3.
  assert (V3 : B2R v = rne (B2R kc - B2R fone)).
  { apply fsub_val; [exact F2|exact F1|]. eapply Rle_trans; [exact B3|]. change 1 with (bpow radix2 0). apply bpow_le. lia. }
  split; [exact F2|]. split; [exact F3|]. split; [exact E2|]. split; [exact E3|].
  pose proof (v_b K (B2R kk) (B2R c) (B2R kc) (B2R v) KB Ek Ec Bc E2 E3). pose proof (rne_one _ B3) as O. rewrite <- V3 in O. apply le_abs in O. lra.
Qed.

Lemma units : forall x, x / (s * s) = x / (Z * Z) * ((Z / s) * (Z / s)).
Proof. intros x. pose proof s_pos. destruct Z_b as (Z0 & _). field. lra. Qed.
Lemma r2_Z : 0 < B2R r2 / (Z * Z) <= 1.001.
Proof.
  destruct Z_b as (Z0 & _ & SZ & _). destruct r2_val as (_ & E & P). pose proof s_pos as S0. pose proof w_pos as W. cbn [pow] in W. apply le_abs in E.
  assert (I : 0 < / (Z * Z)) by (apply Rinv_0_lt_compat; nra). assert (0 < s * s) by nra. assert (s * s <= Z * Z) by nra.
  split; [apply Rmult_lt_0_compat; assumption|].
  replace (B2R r2 / (Z * Z)) with (B2R r2 / (s * s) * (s * s / (Z * Z))) by (field; split; lra).
  assert (Q : 0 <= s * s / (Z * Z) <= 1).
  { split; [apply Rmult_le_pos; lra|]. apply Rmult_le_reg_r with (Z * Z); [lra|]. unfold Rdiv. rewrite Rmult_assoc, Rinv_l, Rmult_1_r by lra. lra. }
  replace 1.001 with (1.001 * 1) by ring. apply Rmult_le_compat; lra.
Qed.
Lemma t3_Z : 0 <= B2R t3 / (Z * Z) <= 0.501.
Proof.
  destruct Z_b as (Z0 & ZE & _). destruct t3_val as (_ & P & E). pose proof w_pos as W. cbn [pow] in W. destruct c_val as (_ & _ & Bc).
  assert (I : 0 < / (Z * Z)) by (apply Rinv_0_lt_compat; nra). split; [apply Rmult_le_pos; lra|]. apply le_abs in E.
  assert (B2R c * B2R e * B2R e / 4 / (Z * Z) <= 0.5); [|lra].
  assert (EE : B2R e * B2R e <= Z * Z).
  { replace (B2R e * B2R e) with (Rabs (B2R e) * Rabs (B2R e)) by (rewrite <- Rabs_mult; apply Rabs_pos_eq, Rle_0_sqr). apply Rmult_le_compat; try apply Rabs_pos; exact ZE. }
  apply Rmult_le_reg_r with (Z * Z); [nra|]. unfold Rdiv at 1. rewrite Rmult_assoc, Rinv_l, Rmult_1_r by nra. assert (0 <= B2R e * B2R e) by apply Rle_0_sqr. nra.
Qed.
Lemma num_val : is_finite num = true /\ B2R num = rne (B2R t3 - B2R r2) /\ Rabs (B2R num / (Z * Z)) <= 1.01.
Proof.
  destruct t3_val as (F3 & _). destruct r2_val as (F2 & _). destruct Z_b as (Z0 & _ & _ & _ & Z2). pose proof r2_Z as A. pose proof t3_Z as B. pose proof w_pos as W. cbn [pow] in W.
  assert (D : Rabs ((B2R t3 - B2R r2) / (Z * Z)) <= 1.001) by (unfold Rdiv in *; apply Rabs_le; lra).
  destruct (nsub (Z * Z) 1.001 t3 r2 Z2 ltac:(apply b300; lra) F3 F2 D) as [F E]. fold num in F, E.
  split; [exact F|]. split; [apply fsub_val; [exact F3|exact F2|]; apply (in_range (Z * Z) 1.001); [exact Z2|apply (b300 1.001); lra|exact D]|].
  apply le_abs in E, D. apply Rabs_le. lra.
Qed.
Lemma m2_val : is_finite m2 = true /\ B2R m2 = rne (B2R num / B2R v).
Proof.
  destruct num_val as (Fn & _ & Bn). destruct v_val as (_ & _ & _ & _ & Bv). destruct Z_b as (Z0 & _ & _ & _ & Z2).
  apply fdiv_val; [exact Fn|lra|]. apply (in_range (Z * Z) 3); [exact Z2|apply (b300 3); lra|].
  replace (B2R num / B2R v / (Z * Z)) with (B2R num / (Z * Z) * / B2R v) by (field; split; lra).
  replace 3 with (1.01 * (3 / 1.01)) by lra. apply mul_abs; [exact Bn|]. rewrite Rabs_inv, Rabs_left by lra.
  apply Rle_trans with (/ 0.499); [apply Rinv_le_contravar; lra|lra].
Qed.

(** The test of the code is exact: the circle is too small if the computed quarter of the square of
    the chord exceeds the computed square of the radius. *)
Lemma sign_exact : flt m2 fzero = true <-> B2R r2 < B2R t3.
Proof.
  destruct m2_val as [Fm Vm]. destruct zero_value as [F0 V0]. rewrite flt_is by assumption. rewrite V0, Vm. destruct num_val as (Fn & Vn & _).
  destruct v_val as (_ & _ & _ & _ & Bv). assert (IV : / B2R v <= -1).
  { assert (A : / 1 <= / - B2R v) by (apply Rinv_le_contravar; lra). rewrite Rinv_1 in A. replace (/ B2R v) with (- / - B2R v) by (field; lra). lra. }
  split; intros H.
  - destruct (Rlt_or_le (B2R r2) (B2R t3)) as [L|L]; [exact L|exfalso]. assert (N : B2R num <= 0) by (rewrite Vn, <- rne_0; apply rne_mono; lra).
    assert (0 <= B2R num / B2R v).
    { unfold Rdiv. assert (0 <= (- B2R num) * (- / B2R v)) by (apply Rmult_le_pos; lra). lra. }
    pose proof (rne_pos _ H0). lra.
  - assert (N : 0 < B2R num).
    { rewrite Vn. assert (P : 0 <= rne (B2R t3 - B2R r2)) by (apply rne_pos; lra).
      assert (Q : rne (B2R t3 + - B2R r2) <> 0).
      { apply (Plus_error.round_plus_neq_0 radix2 bexp ZnearestE); [apply generic_format_B2R|apply generic_format_opp, generic_format_B2R|lra]. }
      unfold Rminus in *. destruct (Req_dec (rne (B2R t3 + - B2R r2)) 0); [contradiction|lra]. }
    assert (L : B2R num / B2R v <= - B2R num) by (unfold Rdiv; nra). pose proof (rne_mono _ _ L) as M. rewrite round_NE_opp, rne_float in M. lra.
Qed.

Let E := B2R e / s.
Let F := B2R f / s.

(** A chord that is accepted is at most the diameter, but for rounding. *)
Lemma e_bound : B2R t3 <= B2R r2 -> Rabs E <= 2.0003.
Proof.
  intros L. pose proof s_pos as S0. pose proof w_pos as W. cbn [pow] in W. destruct (Rle_or_lt (Rabs (B2R e)) s) as [A|A].
  - unfold E, Rdiv. rewrite Rabs_mult, (Rabs_pos_eq (/ s)) by (left; apply Rinv_0_lt_compat; lra). apply Rmult_le_reg_r with s; [lra|].
    rewrite Rmult_assoc, Rinv_l, Rmult_1_r by lra. lra.
  - assert (ZE : Z = Rabs (B2R e)) by (unfold Z; apply Rmax_left; lra). destruct t3_val as (_ & _ & D). destruct c_val as (_ & _ & Bc). destruct r2_val as (_ & R2 & _).
    rewrite ZE in D. rewrite <- Rabs_mult, (Rabs_pos_eq (B2R e * B2R e)) in D by apply Rle_0_sqr.
    replace (B2R c * B2R e * B2R e / 4 / (B2R e * B2R e)) with (B2R c / 4) in D by (field; exact E0).
    apply le_abs in D, R2. assert (EP : 0 < B2R e * B2R e) by nra. assert (SP : 0 < s * s) by nra.
    assert (T : 0.24999 * (B2R e * B2R e) <= B2R t3).
    { replace (B2R t3) with (B2R t3 / (B2R e * B2R e) * (B2R e * B2R e)) by (field; exact E0). apply Rmult_le_compat_r; lra. }
    assert (R : B2R r2 <= 1.00001 * (s * s)).
    { replace (B2R r2) with (B2R r2 / (s * s) * (s * s)) by (field; lra). apply Rmult_le_compat_r; lra. }
    assert (Q : E * E <= 4.0003).
    { unfold E. replace (B2R e / s * (B2R e / s)) with (B2R e * B2R e / (s * s)) by (field; lra). apply Rmult_le_reg_r with (s * s); [exact SP|].
      unfold Rdiv. rewrite Rmult_assoc, Rinv_l, Rmult_1_r by lra. lra. }
    apply Rabs_le. nra.
Qed.

Lemma kf : Rabs E <= 2.0003 -> Rabs (K * E - F) <= 2.02 * w.
Proof.
  intros B. pose proof s_pos as S0. destruct k_val as (_ & EK & _). pose proof (rne_err (B2R f / B2R e)) as R. rewrite <- EK in R.
  pose proof quot_b as Q. pose proof (size_tiny 1 size_1) as T. pose proof u53_pos as [U _].
  assert (R' : Rabs (K - B2R f / B2R e) <= w).
  { eapply Rle_trans; [exact R|]. assert (u53 * Rabs (B2R f / B2R e) <= u53 * 1) by (apply Rmult_le_compat_l; lra). unfold w. lra. }
  replace (K * E - F) with ((K - B2R f / B2R e) * E) by (unfold E, F; field; lra).
  pose proof (mul_abs _ _ _ _ R' B). pose proof w_pos. lra.
Qed.

Theorem chord_ok : forall x1 y1 x2 y2, halfchord rho e f = Some (x1, y1, x2, y2) ->
  is_finite x1 = true /\ is_finite y1 = true /\ is_finite x2 = true /\ is_finite y2 = true /\
  Rabs (B2R x2 / s - B2R x1 / s - E) <= 5.6 * w /\ Rabs (B2R y2 / s - B2R y1 / s - F) <= 18 * w /\
  Rabs (B2R x1 / s * (B2R x1 / s) + B2R y1 / s * (B2R y1 / s) - 1) <= 107 * w /\
  Rabs (B2R x2 / s * (B2R x2 / s) + B2R y2 / s * (B2R y2 / s) - 1) <= 107 * w.
Proof.
  intros X1 Y1 X2 Y2 H. unfold halfchord in H. fold k in H. fold kk in H. fold r2 in H. fold c in H. fold t3 in H. fold num in H. fold kc in H. fold v in H. fold m2 in H.
  destruct (flt m2 fzero) eqn:SG; [discriminate H|]. assert (L : B2R t3 <= B2R r2).
  { destruct (Rlt_or_le (B2R r2) (B2R t3)) as [A|A]; [|exact A]. apply sign_exact in A. congruence. }
  pose proof s_pos as S0. pose proof s_size as SS. pose proof ss_size as SSS. assert (SP : 0 < s * s) by nra. pose proof w_pos as W. cbn [pow] in W.
  pose proof (e_bound L) as EB'. pose proof (kf EB') as HKF. assert (HE : Rabs E <= 2.001) by lra.
  destruct k_val as (Fk & _ & HK). destruct kk_val as (Fkk & Hkk & _). destruct c_val as (Fc & Hc & Bc). destruct r2_val as (Fr & Hr2 & _).
  destruct v_val as (Fkc & Fv & Hkc & Hv & Bv). destruct t3_val as (Ft & P3 & Dt). destruct num_val as (Fn & _ & _). destruct m2_val as (Fm2 & Vm2).
  destruct Z_b as (Z0 & _ & SZ & _). destruct two_value as [F2 V2].
  assert (ISS : 0 < / (s * s)) by (apply Rinv_0_lt_compat; exact SP).
  assert (QZ : 1 <= Z / s <= 2.0003).
  { split.
    - apply Rmult_le_reg_r with s; [exact S0|]. unfold Rdiv. rewrite Rmult_assoc, Rinv_l, Rmult_1_r by lra. lra.
    - unfold Z. apply Rmult_le_reg_r with s; [exact S0|]. unfold Rdiv. rewrite Rmult_assoc, Rinv_l, Rmult_1_r by lra. apply Rmax_lub; [|lra].
      assert (EE : Rabs (B2R e) = Rabs E * s). { unfold E, Rdiv. rewrite Rabs_mult, (Rabs_pos_eq (/ s)) by (left; apply Rinv_0_lt_compat; lra). field. lra. }
      rewrite EE. apply Rmult_le_compat_r; lra. }
  set (T3 := B2R t3 / (s * s)). set (R2 := B2R r2 / (s * s)) in *.
  assert (Ht3 : Rabs (T3 - B2R c * E * E / 4) <= 6.3 * w).
  { replace (T3 - B2R c * E * E / 4) with ((B2R t3 / (Z * Z) - B2R c * B2R e * B2R e / 4 / (Z * Z)) * (Z / s * (Z / s))) by (unfold T3, E; field; lra).
    assert (QQ : Rabs (Z / s * (Z / s)) <= 2.0003 * 2.0003) by (apply mul_abs; rewrite Rabs_pos_eq; lra).
    pose proof (mul_abs _ _ _ _ Dt QQ). lra. }
  assert (Bt3 : 0 <= T3 <= R2) by (unfold T3, R2; split; [apply Rmult_le_pos; lra|apply Rmult_le_compat_r; lra]).
  assert (AR : Rabs (T3 - R2) <= 1.001) by (apply le_abs in Hr2; apply Rabs_le; lra).
  destruct (nsub (s * s) 1.001 t3 r2 SSS ltac:(apply b300; lra) Ft Fr) as [_ Hnum].
  { replace ((B2R t3 - B2R r2) / (s * s)) with (T3 - R2) by (unfold T3, R2; field; lra). exact AR. }
  fold num in Hnum. replace ((B2R t3 - B2R r2) / (s * s)) with (T3 - R2) in Hnum by (unfold T3, R2; field; lra).
  set (N := B2R num / (s * s)) in *. pose proof (num_b T3 R2 N Bt3 Hr2 Hnum) as BN.
  assert (IV : Rabs (/ B2R v) <= 2.005) by (rewrite Rabs_inv, Rabs_left by lra; apply Rle_trans with (/ 0.499); [apply Rinv_le_contravar; lra|lra]).
  destruct (ndiv (s * s) 2.1 num v SSS ltac:(apply b300; lra) Fn ltac:(lra)) as [_ Hm2].
  { replace (B2R num / B2R v / (s * s)) with (N * / B2R v) by (unfold N; field; lra). pose proof (mul_abs _ _ _ _ BN IV). lra. }
  fold m2 in Hm2. replace (B2R num / B2R v / (s * s)) with (N / B2R v) in Hm2 by (unfold N; field; lra). set (M2 := B2R m2 / (s * s)) in *.
  assert (PM : 0 <= B2R m2). { destruct (Rle_or_lt 0 (B2R m2)) as [A|A]; [exact A|]. destruct zero_value as [FZ VZ]. rewrite <- VZ in A. apply flt_is in A; [congruence|assumption..]. }
  assert (P2 : 0 <= M2) by (apply Rmult_le_pos; lra).
  pose proof (root_b K _ _ E T3 R2 N _ _ M2 HK HE Hkk Hc Bc Ht3 Bt3 Hr2 Hnum Hkc Hv Hm2 P2) as RB.
  set (m := fsqrt m2) in *. destruct (fsqrt_val m2 Fm2 PM) as [Fm Vm]. fold m in Fm, Vm.
  assert (SQ : sqrt (B2R m2) / s = sqrt M2). { unfold M2. unfold Rdiv at 2. rewrite sqrt_mult_alt, sqrt_inv, sqrt_square by lra. reflexivity. }
  assert (Hm : Rabs (B2R m / s - sqrt M2) <= w * 1.45).
  { rewrite Vm, <- SQ. apply rnd; [exact SS|lra|]. rewrite SQ, Rabs_pos_eq; lra. }
  set (M := B2R m / s) in *. pose proof (m_b K _ _ E T3 R2 N _ _ M2 M HK HE Hkk Hc Bc Ht3 Bt3 Hr2 Hnum Hkc Hv Hm2 P2 Hm) as MB.
  destruct (fneg_value k Fk) as [Fnk Vnk]. fold K in Vnk. assert (HnK : Rabs (- K) <= 1) by (rewrite Rabs_Ropp; exact HK).
  destruct (nmul s 1.46 (fneg k) m SS ltac:(apply b300; lra) Fnk Fm) as [Fp Hp].
  { rewrite Vnk. replace (- K * B2R m / s) with (- K * M) by (unfold M; field; lra). pose proof (mul_abs _ _ _ _ HnK MB). lra. }
  rewrite Vnk in Hp. replace (- K * B2R m / s) with (- K * M) in Hp by (unfold M; field; lra). set (p := fmul (fneg k) m) in *. set (P := B2R p / s) in *.
  pose proof (mul_abs _ _ _ _ HnK MB) as KM. assert (BP : Rabs P <= 1.46) by (apply le_abs in KM, Hp; apply Rabs_le; lra).
  pose proof (inv_b _ (proj1 Bc)) as IC. assert (AIC : Rabs (/ B2R c) <= 1) by (rewrite Rabs_pos_eq; lra).
  destruct (ndiv s 1.47 p c SS ltac:(apply b300; lra) Fp ltac:(lra)) as [Fmp Hmp].
  { replace (B2R p / B2R c / s) with (P * / B2R c) by (unfold P; field; lra). pose proof (mul_abs _ _ _ _ BP AIC). lra. }
  replace (B2R p / B2R c / s) with (P / B2R c) in Hmp by (unfold P; field; lra). set (mp := fdiv p c) in *. set (MP := B2R mp / s) in *.
  pose proof (mp_b K _ _ E T3 R2 N _ _ M2 M P MP HK HE Hkk Hc Bc Ht3 Bt3 Hr2 Hnum Hkc Hv Hm2 P2 Hm Hp Hmp) as BMP.
  destruct (ndiv s 1.01 e (f_of_Z 2) SS ltac:(apply b300; lra) FE ltac:(lra)) as [Fh Hh].
  { rewrite V2. replace (B2R e / 2 / s) with (E / 2) by (unfold E; field; lra). apply le_abs in HE. apply Rabs_le. lra. }
  rewrite V2 in Hh. replace (B2R e / 2 / s) with (E / 2) in Hh by (unfold E; field; lra). set (h := fdiv e (f_of_Z 2)) in *. set (HH := B2R h / s) in *.
  pose proof (h_b E HH HE Hh) as BH.
  destruct (nsub s 1.75 mp h SS ltac:(apply b300; lra) Fmp Fh) as [Fx1 Hx1].
  { replace ((B2R mp - B2R h) / s) with (MP - HH) by (unfold MP, HH; field; lra). apply le_abs in BMP, BH. apply Rabs_le. lra. }
  replace ((B2R mp - B2R h) / s) with (MP - HH) in Hx1 by (unfold MP, HH; field; lra). set (x1 := fsub mp h) in *. set (x1' := B2R x1 / s) in *.
  destruct (nadd s 1.75 mp h SS ltac:(apply b300; lra) Fmp Fh) as [Fx2 Hx2].
  { replace ((B2R mp + B2R h) / s) with (MP + HH) by (unfold MP, HH; field; lra). apply le_abs in BMP, BH. apply Rabs_le. lra. }
  replace ((B2R mp + B2R h) / s) with (MP + HH) in Hx2 by (unfold MP, HH; field; lra). set (x2 := fadd mp h) in *. set (x2' := B2R x2 / s) in *.
  assert (Y : forall x : f64, is_finite x = true -> Rabs (B2R x / s) <= 1.76 ->
    is_finite (fadd (fmul k x) m) = true /\ exists kx, Rabs (kx - K * (B2R x / s)) <= w * 1.76 /\ Rabs (B2R (fadd (fmul k x) m) / s - (kx + M)) <= w * 3.3).
  { intros x Fx Bx. pose proof (mul_abs _ _ _ _ HK Bx) as KX.
    destruct (nmul s 1.76 k x SS ltac:(apply b300; lra) Fk Fx) as [F1 H1].
    { fold K. replace (K * B2R x / s) with (K * (B2R x / s)) by (field; lra). lra. }
    fold K in H1. replace (K * B2R x / s) with (K * (B2R x / s)) in H1 by (field; lra). set (kx := B2R (fmul k x) / s) in *.
    destruct (nadd s 3.3 (fmul k x) m SS ltac:(apply b300; lra) F1 Fm) as [F3 H3].
    { replace ((B2R (fmul k x) + B2R m) / s) with (kx + M) by (unfold kx, M; field; lra). apply le_abs in KX, H1, MB. apply Rabs_le. lra. }
    replace ((B2R (fmul k x) + B2R m) / s) with (kx + M) in H3 by (unfold kx, M; field; lra). split; [exact F3|]. exists kx. split; [exact H1|exact H3]. }
  assert (BX1 : Rabs x1' <= 1.76) by (apply le_abs in Hx1, BMP, BH; apply Rabs_le; lra).
  assert (BX2 : Rabs x2' <= 1.76) by (apply le_abs in Hx2, BMP, BH; apply Rabs_le; lra).
  destruct (Y x1 Fx1 BX1) as (Fy1 & kx1 & Hkx1 & Hy1). destruct (Y x2 Fx2 BX2) as (Fy2 & kx2 & Hkx2 & Hy2).
  assert (RES := chord_real K _ _ E F T3 R2 N _ _ M2 M P MP HH x1' x2' kx1 kx2 _ _ HK HKF HE Hkk Hc Bc Ht3 Bt3 Hr2 Hnum Hkc Hv Hm2 P2 Hm Hp Hmp Hh Hx1 Hx2 Hkx1 Hkx2 Hy1 Hy2).
  injection H as <- <- <- <-. auto.
Qed.

(** A chord that is clearly shorter than the diameter is accepted, and one that is clearly longer is not. *)
Let D2 := B2R e * B2R e + B2R f * B2R f.
Lemma t3_D : Rabs (B2R t3 - D2 / 4) <= 4 * w * (Z * Z).
Proof.
  pose proof s_pos as S0. destruct Z_b as (Z0 & ZE & _). destruct t3_val as (_ & _ & Dt). destruct c_val as (_ & Hc & _). destruct kk_val as (_ & Hkk & _).
  destruct k_val as (_ & EK & BK). pose proof (rne_err (B2R f / B2R e)) as R. rewrite <- EK in R. pose proof quot_b as Q. pose proof (size_tiny 1 size_1) as T. pose proof u53_pos as [U _].
  assert (R' : Rabs (K - B2R f / B2R e) <= w).
  { eapply Rle_trans; [exact R|]. assert (u53 * Rabs (B2R f / B2R e) <= u53 * 1) by (apply Rmult_le_compat_l; lra). unfold w. lra. }
  assert (KQ : Rabs (K * K - (B2R f / B2R e) * (B2R f / B2R e)) <= w * 2).
  { replace (K * K - (B2R f / B2R e) * (B2R f / B2R e)) with ((K - B2R f / B2R e) * (K + B2R f / B2R e)) by ring. apply mul_abs; [exact R'|].
    apply le_abs in BK, Q. apply Rabs_le. lra. }
  assert (CQ : Rabs (B2R c - (1 + (B2R f / B2R e) * (B2R f / B2R e))) <= 5 * w) by (apply le_abs in KQ, Hkk, Hc; apply Rabs_le; lra).
  set (x := B2R e / Z). assert (BX : Rabs (x * x) <= 1 * 1).
  { assert (Rabs x <= 1).
    { unfold x, Rdiv. rewrite Rabs_mult, (Rabs_pos_eq (/ Z)) by (left; apply Rinv_0_lt_compat; exact Z0). apply Rmult_le_reg_r with Z; [exact Z0|]. rewrite Rmult_assoc, Rinv_l, Rmult_1_r by lra. lra. }
    apply mul_abs; assumption. }
  pose proof (mul_abs _ _ _ _ CQ BX) as A.
  assert (I : B2R t3 - D2 / 4 = ((B2R t3 / (Z * Z) - B2R c * B2R e * B2R e / 4 / (Z * Z)) + (B2R c - (1 + (B2R f / B2R e) * (B2R f / B2R e))) * (x * x) / 4) * (Z * Z)).
  { unfold D2, x. field. lra. }
  rewrite I. apply mul_abs; [|rewrite Rabs_pos_eq; [lra|nra]]. pose proof w_pos. apply le_abs in A, Dt. apply Rabs_le. lra.
Qed.

Lemma e_D : B2R e * B2R e <= D2 <= 2 * (B2R e * B2R e).
Proof.
  unfold D2. assert (0 <= B2R f * B2R f) by apply Rle_0_sqr. split; [lra|].
  assert (B2R f * B2R f <= B2R e * B2R e); [|lra]. apply Rsqr_le_abs_1. exact FLE.
Qed.
Theorem chord_accepted : D2 <= 4 * (s * s) * (1 - 20 * w) -> halfchord rho e f <> None.
Proof.
  intros H. pose proof s_pos as S0. assert (SP : 0 < s * s) by nra. pose proof w_pos as W. cbn [pow] in W. pose proof e_D as ED.
  assert (L : B2R t3 <= B2R r2).
  { pose proof t3_D as T. apply le_abs in T. destruct r2_val as (_ & R & _). apply le_abs in R.
    assert (R' : (1 - w) * (s * s) <= B2R r2). { replace (B2R r2) with (B2R r2 / (s * s) * (s * s)) by (field; lra). apply Rmult_le_compat_r; lra. }
    assert (ZZ : Z * Z <= 4 * (s * s)).
    { assert (EZ : Rabs (B2R e) <= 2 * s).
      { apply Rsqr_incr_0; [|apply Rabs_pos|lra]. rewrite <- Rsqr_abs. unfold Rsqr. nra. }
      assert (Z <= 2 * s) by (unfold Z; apply Rmax_lub; lra). destruct Z_b as (Z0 & _). nra. }
    assert (w * (Z * Z) <= w * (4 * (s * s))) by (apply Rmult_le_compat_l; lra). lra. }
  unfold halfchord. fold k. fold kk. fold r2. fold c. fold t3. fold num. fold kc. fold v. fold m2.
  destruct (flt m2 fzero) eqn:SG; [apply sign_exact in SG; lra|]. discriminate.
Qed.
Theorem chord_refused : 4 * (s * s) * (1 + 20 * w) <= D2 -> halfchord rho e f = None.
Proof.
  intros H. pose proof s_pos as S0. assert (SP : 0 < s * s) by nra. pose proof w_pos as W. cbn [pow] in W. pose proof e_D as ED.
  assert (L : B2R r2 < B2R t3).
  { pose proof t3_D as T. apply le_abs in T. destruct r2_val as (_ & R & _). apply le_abs in R.
    assert (R' : B2R r2 <= (1 + w) * (s * s)). { replace (B2R r2) with (B2R r2 / (s * s) * (s * s)) by (field; lra). apply Rmult_le_compat_r; lra. }
    assert (WS : 0 < w * (s * s)) by (apply Rmult_lt_0_compat; lra). assert (EZ : s * s <= B2R e * B2R e) by lra.
    assert (ZE : Z = Rabs (B2R e)).
    { unfold Z. apply Rmax_left. apply Rsqr_incr_0; [|lra|apply Rabs_pos]. rewrite <- Rsqr_abs. exact EZ. }
    assert (ZZ : Z * Z = B2R e * B2R e) by (rewrite ZE, <- Rabs_mult; apply Rabs_pos_eq, Rle_0_sqr). rewrite ZZ in T.
    assert (D : 4 * w * (B2R e * B2R e) <= 4 * w * D2) by (apply Rmult_le_compat_l; lra).
    assert (D' : 4 * (s * s) * (1 + 20 * w) * (1 / 4 - 4 * w) <= D2 * (1 / 4 - 4 * w)) by (apply Rmult_le_compat_r; lra).
    assert (D3 : (1 + 3 * w) <= 4 * (1 + 20 * w) * (1 / 4 - 4 * w)) by nra.
    assert (D4 : (1 + 3 * w) * (s * s) <= 4 * (1 + 20 * w) * (1 / 4 - 4 * w) * (s * s)) by (apply Rmult_le_compat_r; lra).
    lra. }
  unfold halfchord. fold k. fold kk. fold r2. fold c. fold t3. fold num. fold kc. fold v. fold m2.
  assert (SG : flt m2 fzero = true) by (apply sign_exact; exact L). rewrite SG. reflexivity.
Qed.
End Chord.

(** ** Angles *)

(** The quality of the library's atan2: the angle of the point, to within [q] of half a unit in the last
    place of 1.  The code leaves the choice between pi and -pi to the sign of a zero. *)
Definition angle_accurate (tg : trig) (q : R) : Prop := forall x y, is_finite x = true -> is_finite y = true -> Rabs (B2R x) <= 2 -> Rabs (B2R y) <= 2 ->
  is_finite (f_atan2 tg y x) = true /\
  exists al, Rabs al <= PI /\ B2R x = sqrt (B2R x * B2R x + B2R y * B2R y) * cos al /\ B2R y = sqrt (B2R x * B2R x + B2R y * B2R y) * sin al /\
    Rabs (B2R (f_atan2 tg y x) - al) <= q / 2 ^ 53.

Lemma u53_pow : u53 = / 2 ^ 53.
Proof. rewrite u53_val. cbn [pow]. lra. Qed.

Section Angles.
Variables (tg : trig) (q : R) (rho : f64).
Let s := B2R rho.
Hypothesis AC : angle_accurate tg q.
Hypothesis Q0 : 0 <= q <= 2 ^ 40.
Hypothesis FR : is_finite rho = true.
Hypothesis SR : bpow radix2 (-200) <= s <= bpow radix2 200.

Lemma qu_small : 0 <= q * u53 <= / 8000.
Proof.
  destruct Q0 as [A B]. pose proof u53_pos as [U _]. split; [apply Rmult_le_pos; lra|]. apply Rle_trans with (2 ^ 40 * u53); [apply Rmult_le_compat_r; lra|].
  rewrite u53_val. cbn [pow]. lra.
Qed.

Lemma point_angle : forall x y : f64, is_finite x = true -> is_finite y = true -> Rabs (B2R x / s * (B2R x / s) + B2R y / s * (B2R y / s) - 1) <= 107 * w ->
  let a := f_atan2 tg (fdiv y rho) (fdiv x rho) in
  is_finite a = true /\ Rabs (B2R a) <= PI + q * u53 /\ Rabs (cos (B2R a) - B2R x / s) <= 57.5 * w + q * u53 /\ Rabs (sin (B2R a) - B2R y / s) <= 57.5 * w + q * u53.
Proof.
  intros x y Fx Fy H a. pose proof (bpow_gt_0 radix2 (-200)) as BP. assert (S0 : 0 < s) by lra. assert (S1 : size 1) by exact size_1. pose proof w_pos as W. cbn [pow] in W.
  set (X := B2R x / s) in *. set (Y := B2R y / s) in *. apply le_abs in H. assert (XX : 0 <= X * X) by apply Rle_0_sqr. assert (YY : 0 <= Y * Y) by apply Rle_0_sqr.
  assert (BX : Rabs X <= 1.001) by (apply Rabs_le; nra). assert (BY : Rabs Y <= 1.001) by (apply Rabs_le; nra).
  destruct (ndiv 1 1.001 x rho S1 ltac:(apply b300; lra) Fx ltac:(fold s; lra)) as [F1 E1]; [fold s X; unfold Rdiv; rewrite Rinv_1, Rmult_1_r; exact BX|].
  destruct (ndiv 1 1.001 y rho S1 ltac:(apply b300; lra) Fy ltac:(fold s; lra)) as [F2 E2]; [fold s Y; unfold Rdiv; rewrite Rinv_1, Rmult_1_r; exact BY|].
  fold s X in E1. fold s Y in E2. set (x' := fdiv x rho) in *. set (y' := fdiv y rho) in *. unfold Rdiv in E1, E2. rewrite Rinv_1, !Rmult_1_r in E1, E2.
  set (qx := B2R x') in *. set (qy := B2R y') in *.
  assert (A1 : Rabs ((qx - X) * (qx + X)) <= w * 1.001 * 2.01) by (apply mul_abs; [exact E1|]; apply le_abs in E1, BX; apply Rabs_le; lra).
  assert (A2 : Rabs ((qy - Y) * (qy + Y)) <= w * 1.001 * 2.01) by (apply mul_abs; [exact E2|]; apply le_abs in E2, BY; apply Rabs_le; lra).
  assert (HH : Rabs (qx * qx + qy * qy - 1) <= 111.1 * w).
  { replace (qx * qx + qy * qy - 1) with ((X * X + Y * Y - 1) + (qx - X) * (qx + X) + (qy - Y) * (qy + Y)) by ring. apply le_abs in A1, A2. apply Rabs_le. lra. }
  destruct (AC x' y' F1 F2) as (Fa & al & AP & EX & EY & EA); [fold qx; apply le_abs in E1, BX; apply Rabs_le; lra|fold qy; apply le_abs in E2, BY; apply Rabs_le; lra|].
  fold a in Fa, EA. fold qx qy in EX, EY. set (h := sqrt (qx * qx + qy * qy)) in *. unfold Rdiv in EA. rewrite <- u53_pow in EA.
  assert (H0 : 0 <= h) by apply sqrt_pos. assert (H2 : h * h = qx * qx + qy * qy) by (apply sqrt_sqrt; nra).
  rewrite <- H2 in HH. assert (H1 : Rabs (h - 1) <= 56 * w).
  { apply le_abs in HH. assert (0.99 <= h) by nra. apply Rabs_le. nra. }
  split; [exact Fa|]. split; [apply le_abs in EA, AP; apply Rabs_le; lra|].
  pose proof (COS_bound al) as CB. pose proof (SIN_bound al) as SB.
  assert (C1 : Rabs ((h - 1) * cos al) <= 56 * w * 1) by (apply mul_abs; [exact H1|apply Rabs_le; lra]).
  assert (C2 : Rabs ((h - 1) * sin al) <= 56 * w * 1) by (apply mul_abs; [exact H1|apply Rabs_le; lra]).
  pose proof (cos_lipschitz (B2R a) al) as LC. pose proof (sin_lipschitz (B2R a) al) as LS.
  split.
  - assert (LC' : Rabs (cos (B2R a) - cos al) <= q * u53) by (eapply Rle_trans; [exact LC|exact EA]). apply le_abs in LC', C1, E1. apply Rabs_le. lra.
  - assert (LS' : Rabs (sin (B2R a) - sin al) <= q * u53) by (eapply Rle_trans; [exact LS|exact EA]). apply le_abs in LS', C2, E2. apply Rabs_le. lra.
Qed.

Let pi2 := fmul (f_of_Z 2) f_pi.
Lemma pi2_value : is_finite pi2 = true /\ Rabs (B2R pi2 - 2 * PI) <= 4 * u53.
Proof.
  destruct f_pi_value as (FP & EP & BP). destruct two_value as [F2 V2].
  assert (E : B2SF pi2 = SpecFloat.S754_finite false 7074237752028440 (-50)) by (vm_compute; reflexivity).
  assert (E1 : B2SF f_pi = SpecFloat.S754_finite false 7074237752028440 (-51)) by (vm_compute; reflexivity).
  assert (V : B2R pi2 = 2 * B2R f_pi).
  { rewrite <- !SF2R_B2SF, E, E1. unfold SF2R, F2R. cbn [SpecFloat.cond_Zopp Fnum Fexp bpow Z.pow_pos Pos.iter radix_val radix2 Z.mul Pos.mul]. lra. }
  split; [destruct pi2; cbn in E; try discriminate E; reflexivity|]. rewrite V. apply le_abs in EP. apply Rabs_le. lra.
Qed.

(** An angle that has been moved by [t]. *)
Definition moved (x : f64) (y t B : R) : Prop := is_finite x = true /\ Rabs (B2R x - (y + t)) <= B.

Lemma minus_turn : forall a : f64, is_finite a = true -> Rabs (B2R a) <= 3.2 -> moved (fsub a pi2) (B2R a) (- (2 * PI)) (13.7 * w).
Proof.
  intros a F B. destruct pi2_value as [FP EP]. pose proof PI_RGT_0. pose proof pi_near as PN. pose proof w_pos as W. cbn [pow] in W. pose proof u53_pos as [U _]. assert (UW : u53 <= w) by (unfold w; lra).
  assert (BP : Rabs ((B2R a - B2R pi2) / 1) <= 9.6) by (unfold Rdiv; rewrite Rinv_1, Rmult_1_r; apply le_abs in B, EP; apply Rabs_le; lra).
  destruct (nsub 1 9.6 a pi2 size_1) as [F1 E1]; [split; [lra|eapply Rle_trans; [|apply (Rle_pow 2 4 300); [lra|lia]]; cbn [pow]; lra]|exact F|exact FP|exact BP|].
  unfold Rdiv in E1. rewrite Rinv_1, !Rmult_1_r in E1. split; [exact F1|]. apply le_abs in E1, EP. apply Rabs_le. lra.
Qed.
Lemma plus_turn : forall a : f64, is_finite a = true -> Rabs (B2R a) <= 3.2 -> moved (fadd a pi2) (B2R a) (2 * PI) (13.7 * w).
Proof.
  intros a F B. destruct pi2_value as [FP EP]. pose proof PI_RGT_0. pose proof pi_near as PN. pose proof w_pos as W. cbn [pow] in W. pose proof u53_pos as [U _]. assert (UW : u53 <= w) by (unfold w; lra).
  assert (BP : Rabs ((B2R a + B2R pi2) / 1) <= 9.6) by (unfold Rdiv; rewrite Rinv_1, Rmult_1_r; apply le_abs in B, EP; apply Rabs_le; lra).
  destruct (nadd 1 9.6 a pi2 size_1) as [F1 E1]; [split; [lra|eapply Rle_trans; [|apply (Rle_pow 2 4 300); [lra|lia]]; cbn [pow]; lra]|exact F|exact FP|exact BP|].
  unfold Rdiv in E1. rewrite Rinv_1, !Rmult_1_r in E1. split; [exact F1|]. apply le_abs in E1, EP. apply Rabs_le. lra.
Qed.
Lemma plus_half : forall a : f64, is_finite a = true -> Rabs (B2R a) <= 9.7 -> moved (fadd a f_pi) (B2R a) PI (15 * w).
Proof.
  intros a F B. destruct f_pi_value as (FP & EP & _). pose proof pi_near as PN. pose proof w_pos as W. cbn [pow] in W. pose proof u53_pos as [U _]. assert (UW : u53 <= w) by (unfold w; lra).
  assert (BP : Rabs ((B2R a + B2R f_pi) / 1) <= 12.9) by (unfold Rdiv; rewrite Rinv_1, Rmult_1_r; apply le_abs in B, EP; apply Rabs_le; lra).
  destruct (nadd 1 12.9 a f_pi size_1) as [F1 E1]; [split; [lra|eapply Rle_trans; [|apply (Rle_pow 2 4 300); [lra|lia]]; cbn [pow]; lra]|exact F|exact FP|exact BP|].
  unfold Rdiv in E1. rewrite Rinv_1, !Rmult_1_r in E1. split; [exact F1|]. apply le_abs in E1, EP. apply Rabs_le. lra.
Qed.
Lemma fadd_mono : forall a b c : f64, is_finite a = true -> is_finite b = true -> is_finite c = true ->
  Rabs (B2R a) <= 20 -> Rabs (B2R b) <= 20 -> Rabs (B2R c) <= 20 -> B2R a <= B2R b -> B2R (fadd a c) <= B2R (fadd b c).
Proof.
  intros a b c Fa Fb Fc Ba Bb Bc L. assert (X : forall r, Rabs r <= 40 -> Rabs r <= bpow radix2 1000).
  { intros r H. apply big_enough. eapply Rle_trans; [exact H|]. eapply Rle_trans; [|apply (Rle_pow 2 6 60); [lra|lia]]. cbn [pow]. lra. }
  destruct (fadd_val a c Fa Fc) as [_ E1]; [apply X; apply le_abs in Ba, Bc; apply Rabs_le; lra|].
  destruct (fadd_val b c Fb Fc) as [_ E2]; [apply X; apply le_abs in Bb, Bc; apply Rabs_le; lra|]. rewrite E1, E2. apply rne_mono. lra.
Qed.

Lemma cos_moved : forall x y t B, moved x y t B -> Rabs (cos (B2R x) - cos (y + t)) <= B /\ Rabs (sin (B2R x) - sin (y + t)) <= B.
Proof. intros x y t B [_ H]. split; eapply Rle_trans; [apply cos_lipschitz|exact H|apply sin_lipschitz|exact H]. Qed.
Lemma cos_turns : forall x, cos (x + 2 * PI) = cos x /\ sin (x + 2 * PI) = sin x /\ cos (x + - (2 * PI)) = cos x /\ sin (x + - (2 * PI)) = sin x.
Proof.
  intros x. assert (A : cos (x + 2 * PI) = cos x) by (rewrite cos_plus, cos_2PI, sin_2PI; ring). assert (B : sin (x + 2 * PI) = sin x) by (rewrite sin_plus, cos_2PI, sin_2PI; ring).
  split; [exact A|]. split; [exact B|]. split; [rewrite cos_plus, cos_neg, sin_neg, cos_2PI, sin_2PI; ring|rewrite sin_plus, cos_neg, sin_neg, cos_2PI, sin_2PI; ring].
Qed.

Theorem angles_ok : forall (x1 y1 x2 y2 : f64) DX DY large sweep a1 a2,
  is_finite x1 = true -> is_finite y1 = true -> is_finite x2 = true -> is_finite y2 = true ->
  Rabs (B2R x1 / s * (B2R x1 / s) + B2R y1 / s * (B2R y1 / s) - 1) <= 107 * w -> Rabs (B2R x2 / s * (B2R x2 / s) + B2R y2 / s * (B2R y2 / s) - 1) <= 107 * w ->
  Rabs (B2R x2 / s - B2R x1 / s - DX) <= 18 * w -> Rabs (B2R y2 / s - B2R y1 / s - DY) <= 18 * w ->
  farc_angles tg rho rho x1 y1 x2 y2 large sweep = (a1, a2) ->
  is_finite a1 = true /\ is_finite a2 = true /\ Rabs (B2R a1) <= 13 /\ Rabs (B2R a2) <= 13 /\
  Rabs (cos (B2R a2) - cos (B2R a1) - DX) <= (180 + 2 * q) * u53 /\ Rabs (sin (B2R a2) - sin (B2R a1) - DY) <= (180 + 2 * q) * u53 /\
  (if sweep then B2R a1 <= B2R a2 else B2R a2 <= B2R a1) /\
  (if large then PI - (60 + 2 * q) * u53 <= Rabs (B2R a2 - B2R a1) <= 2 * PI + (60 + 2 * q) * u53 else Rabs (B2R a2 - B2R a1) <= PI + (60 + 2 * q) * u53).
Proof.
  intros x1 y1 x2 y2 DX DY large sweep r1 r2 Fx1 Fy1 Fx2 Fy2 N1 N2 HX HY HA.
  destruct (point_angle x1 y1 Fx1 Fy1 N1) as (F1 & B1 & C1 & S1). destruct (point_angle x2 y2 Fx2 Fy2 N2) as (F2 & B2 & C2 & S2).
  unfold farc_angles in HA. cbv zeta in HA. fold pi2 in HA. set (a1 := f_atan2 tg (fdiv y1 rho) (fdiv x1 rho)) in *. set (a2 := f_atan2 tg (fdiv y2 rho) (fdiv x2 rho)) in *.
  pose proof qu_small as QS. pose proof pi_near as PN. pose proof w_pos as W. cbn [pow] in W. pose proof u53_pos as [U _]. assert (UW : w = 1.001 * u53) by reflexivity.
  assert (B1' : Rabs (B2R a1) <= 3.2) by lra. assert (B2' : Rabs (B2R a2) <= 3.2) by lra.
  destruct f_pi_value as (FP & EP & BP).
  (* the difference *)
  destruct (nsub 1 6.5 a2 a1 size_1 ltac:(apply b300; lra) F2 F1) as [Fd Ed].
  { unfold Rdiv. rewrite Rinv_1, Rmult_1_r. apply le_abs in B1', B2'. apply Rabs_le. lra. }
  unfold Rdiv in Ed. rewrite Rinv_1, !Rmult_1_r in Ed. destruct (fabs_value _ Fd) as [Fad Vad].
  set (big := fgt (fabs (fsub a2 a1)) f_pi) in *.
  assert (BIG : if big then PI - 9 * w <= Rabs (B2R a2 - B2R a1) else Rabs (B2R a2 - B2R a1) <= PI + 9 * w).
  { pose proof (Rabs_triang_inv2 (B2R (fsub a2 a1)) (B2R a2 - B2R a1)) as T. pose proof (fgt_spec _ _ Fad FP) as G. fold big in G. rewrite Vad in G.
    apply le_abs in EP. pose proof (Rle_trans _ _ _ T Ed) as TE. apply le_abs in TE. destruct big.
    - destruct G as [G _]. specialize (G eq_refl). lra.
    - destruct (Rlt_or_le (B2R f_pi) (Rabs (B2R (fsub a2 a1)))) as [L|L]; [apply G in L; discriminate L|lra]. }
  clearbody big.
  (* the second angle after the turn *)
  set (b2 := if xorb large big then if flt a1 a2 then fsub a2 pi2 else fadd a2 pi2 else a2) in HA.
  assert (ST : is_finite b2 = true /\ Rabs (B2R b2) <= 9.7 /\ Rabs (cos (B2R b2) - cos (B2R a2)) <= 13.7 * w /\ Rabs (sin (B2R b2) - sin (B2R a2)) <= 13.7 * w /\
    (if large then PI - 25 * w <= Rabs (B2R b2 - B2R a1) <= 2 * PI + 14 * w + 2 * (q * u53) else Rabs (B2R b2 - B2R a1) <= PI + 25 * w + 2 * (q * u53))).
  { assert (AB : forall a b : R, Rabs a <= b -> - b <= a <= b) by apply le_abs. pose proof (AB _ _ B1) as B1a. pose proof (AB _ _ B2) as B2a.
    destruct (cos_turns (B2R a2)) as (T1 & T2 & T3 & T4).
    assert (OFF : forall (b : f64) t, moved b (B2R a2) t (13.7 * w) -> (t = 2 * PI \/ t = - (2 * PI)) ->
      is_finite b = true /\ Rabs (B2R b) <= 9.7 /\ Rabs (cos (B2R b) - cos (B2R a2)) <= 13.7 * w /\ Rabs (sin (B2R b) - sin (B2R a2)) <= 13.7 * w).
    { intros b t M T. destruct (cos_moved _ _ _ _ M) as [MC MS]. destruct M as [Fb Eb]. split; [exact Fb|]. apply AB in Eb.
      destruct T as [-> | ->]; [rewrite T1 in MC; rewrite T2 in MS|rewrite T3 in MC; rewrite T4 in MS]; (split; [apply Rabs_le; lra|auto]). }
    pose proof (flt_is a1 a2 F1 F2) as LT.
    unfold b2. destruct (xorb large big) eqn:X.
    - destruct (flt a1 a2) eqn:L.
      + pose proof (minus_turn a2 F2 B2') as M. destruct (OFF _ _ M (or_intror eq_refl)) as (O1 & O2 & O3 & O4). split; [exact O1|]. split; [exact O2|]. split; [exact O3|]. split; [exact O4|].
        destruct M as [_ M]. apply AB in M. apply proj1 in LT. specialize (LT eq_refl). rewrite Rabs_pos_eq in BIG by lra.
        destruct large, big; try discriminate X; [rewrite Rabs_left by lra; lra|apply Rabs_le; lra].
      + pose proof (plus_turn a2 F2 B2') as M. destruct (OFF _ _ M (or_introl eq_refl)) as (O1 & O2 & O3 & O4). split; [exact O1|]. split; [exact O2|]. split; [exact O3|]. split; [exact O4|].
        destruct M as [_ M]. apply AB in M. assert (L' : B2R a2 <= B2R a1) by (destruct (Rle_or_lt (B2R a2) (B2R a1)) as [Y|Y]; [exact Y|apply LT in Y; discriminate Y]).
        rewrite Rabs_left1 in BIG by lra. destruct large, big; try discriminate X; [rewrite Rabs_pos_eq by lra; lra|apply Rabs_le; lra].
    - split; [exact F2|]. split; [lra|]. rewrite !Rminus_eq_0, Rabs_R0. split; [lra|]. split; [lra|].
      destruct large, big; try discriminate X; [split; [lra|apply Rabs_le; lra]|lra]. }
  clearbody b2. destruct ST as (Fb & Bb & CB & SB & EXT).
  assert (BA : Rabs (B2R a1) <= 9.7) by lra.
  assert (GT := fgt_spec b2 a1 Fb F1). destruct (xorb sweep (fgt b2 a1)) eqn:X.
  - injection HA as <- <-. destruct (plus_half b2 Fb Bb) as [G1 M1]. destruct (plus_half a1 F1 BA) as [G2 M2].
    destruct (cos_moved _ _ _ _ (conj G1 M1)) as [MC1 MS1]. destruct (cos_moved _ _ _ _ (conj G2 M2)) as [MC2 MS2].
    rewrite neg_cos in MC1, MC2. rewrite neg_sin in MS1, MS2. split; [exact G1|]. split; [exact G2|].
    assert (MO1 : B2R b2 <= B2R a1 -> B2R (fadd b2 f_pi) <= B2R (fadd a1 f_pi)).
    { apply fadd_mono; try assumption; try lra. rewrite Rabs_pos_eq; lra. }
    assert (MO2 : B2R a1 <= B2R b2 -> B2R (fadd a1 f_pi) <= B2R (fadd b2 f_pi)).
    { apply fadd_mono; try assumption; try lra. rewrite Rabs_pos_eq; lra. }
    apply le_abs in M1, M2, Bb, BA. split; [apply Rabs_le; lra|]. split; [apply Rabs_le; lra|].
    apply le_abs in MC1, MC2, MS1, MS2, CB, SB, C1, C2, S1, S2, HX, HY.
    split; [apply Rabs_le; lra|]. split; [apply Rabs_le; lra|]. split.
    + destruct sweep, (fgt b2 a1) eqn:G; try discriminate X.
      * apply MO1. destruct (Rle_or_lt (B2R b2) (B2R a1)) as [Y|Y]; [exact Y|]. apply GT in Y. discriminate Y.
      * apply MO2. apply proj1 in GT. specialize (GT eq_refl). lra.
    + pose proof (Rabs_triang_inv2 (B2R (fadd a1 f_pi) - B2R (fadd b2 f_pi)) (- (B2R b2 - B2R a1))) as T. rewrite Rabs_Ropp in T.
      assert (T' : Rabs (B2R (fadd a1 f_pi) - B2R (fadd b2 f_pi) - - (B2R b2 - B2R a1)) <= 30 * w) by (apply Rabs_le; lra).
      pose proof (Rle_trans _ _ _ T T') as TT. apply le_abs in TT. destruct large; lra.
  - injection HA as <- <-. split; [exact F1|]. split; [exact Fb|]. split; [lra|]. split; [lra|].
    apply le_abs in CB, SB, C1, C2, S1, S2, HX, HY. split; [apply Rabs_le; lra|]. split; [apply Rabs_le; lra|]. split.
    + destruct sweep, (fgt b2 a1) eqn:G; try discriminate X.
      * apply proj1 in GT. specialize (GT eq_refl). lra.
      * destruct (Rle_or_lt (B2R b2) (B2R a1)) as [Y|Y]; [exact Y|]. apply GT in Y. discriminate Y.
    + destruct large; lra.
Qed.
End Angles.
