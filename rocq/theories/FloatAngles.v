(** Angles in binary64, and the rounding errors of the transforms of an attribute. *)
From Coq Require Import Reals Lra ZArith List Bool NArith Lia Ratan Ascii String.
From Flocq Require Import Core BinarySingleNaN.
From Verif Require Import Base Chars Floats FloatProofs FloatScale FloatErr FloatCurve ApproxCurve DrawCurves Coords PathBuild PathGrammar PathLex
  BuildProofs LexProofs PropsLex PropsTransform FloatPath FloatPathProofs FloatLex FloatLexProofs FloatTransform.
Import ListNotations.
Open Scope R_scope.

(** ** Angles *)

Lemma tg_val : forall n, tg_alt PI_2_3_7_tg n = (-1) ^ n * ((2 * / 3 ^ (2 * n + 1) + / 7 ^ (2 * n + 1)) / INR (2 * n + 1)).
Proof. intros n. unfold tg_alt, PI_2_3_7_tg, Ratan_seq. rewrite <- !pow_inv. unfold Rdiv. ring. Qed.

Lemma pi_near : 314159265358979323 / 10 ^ 17 < PI < 314159265358979324 / 10 ^ 17.
Proof.
  pose proof (PI_2_3_7_ineq 9) as [L U]. split.
  - clear U. cbn [sum_f_R0 Nat.mul Nat.add] in L. rewrite !tg_val in L. cbn [Nat.mul Nat.add] in L. rewrite !INR_IZR_INZ in L. cbn [Z.of_nat Pos.of_succ_nat Pos.succ] in L. lra.
  - clear L. cbn [sum_f_R0 Nat.mul Nat.add] in U. rewrite !tg_val in U. cbn [Nat.mul Nat.add] in U. rewrite !INR_IZR_INZ in U. cbn [Z.of_nat Pos.of_succ_nat Pos.succ] in U. lra.
Qed.

Lemma f_pi_value : is_finite f_pi = true /\ Rabs (B2R f_pi - PI) <= 2 * u53 /\ 3 <= B2R f_pi <= 3.15.
Proof.
  assert (E : B2SF f_pi = SpecFloat.S754_finite false 7074237752028440 (-51)) by (vm_compute; reflexivity).
  assert (F : is_finite f_pi = true) by (destruct f_pi; cbn in E; try discriminate E; reflexivity).
  assert (V : B2R f_pi = 7074237752028440 / 2251799813685248).
  { rewrite <- SF2R_B2SF, E. unfold SF2R, F2R. cbn [SpecFloat.cond_Zopp Fnum Fexp bpow Z.pow_pos Pos.iter radix_val radix2 Z.mul Pos.mul]. lra. }
  split; [exact F|]. rewrite V. pose proof pi_near. rewrite u53_val. split; [apply Rabs_le; lra|lra].
Qed.

Lemma rounds_val : forall r x, Rabs r <= bpow radix2 1000 -> rounds_to r x -> is_finite x = true /\ Rabs (B2R x - r) <= u53 * Rabs r + tiny.
Proof.
  intros r x B X. unfold rounds_to in X. rewrite <- bexp_flt in X. change (round radix2 bexp ZnearestE r) with (rne r) in X.
  rewrite rne_range in X by exact B. destruct X as [F E]. split; [exact F|]. rewrite E. apply rne_err.
Qed.

Lemma tiny_small : tiny <= u53 / 1024.
Proof. pose proof tiny_u. pose proof u53_pos as [U0 U1]. assert (u53 * u53 <= u53 * / 1024) by (apply Rmult_le_compat_l; lra). lra. Qed.

Lemma big_enough : forall x, x <= 2 ^ 60 -> x <= bpow radix2 1000.
Proof.
  intros x H. eapply Rle_trans; [exact H|]. replace (2 ^ 60) with (bpow radix2 60); [apply bpow_le; lia|].
  rewrite bpow_powerRZ. cbn [powerRZ]. replace (Pos.to_nat 60) with 60%nat by reflexivity. reflexivity.
Qed.

Lemma f180 : is_finite (f_of_Z 180) = true /\ B2R (f_of_Z 180) = 180.
Proof. apply f_of_Z_exact. lia. Qed.

Lemma radians_near : forall a fa, Rabs a <= 2 ^ 40 -> rounds_to a fa ->
  is_finite (fradians fa) = true /\ Rabs (B2R (fradians fa) - degrees a) <= (5 * Rabs (degrees a) + 1) * u53.
Proof.
  intros a fa B R. pose proof u53_pos as [U0 U1]. pose proof tiny_pos as T0. pose proof tiny_small as T1.
  pose proof pi_near as PN. destruct f_pi_value as (FP & EP & BP). destruct f180 as [F180 V180].
  assert (PW : 2 ^ 40 = 1099511627776) by (cbn [pow]; lra).
  set (A := Rabs a) in *. assert (A0 : 0 <= A) by apply Rabs_pos.
  destruct (rounds_val a fa) as [FF EF]; [fold A; apply big_enough; cbn [pow]; lra|exact R|]. fold A in EF.
  assert (UA : 0 <= u53 * A) by (apply Rmult_le_pos; lra). assert (UA1 : u53 * A <= / 1024 * A) by (apply Rmult_le_compat_r; lra).
  set (x := B2R fa) in *. set (p := B2R f_pi) in *.
  assert (XA : Rabs x <= A + (u53 * A + tiny)).
  { replace x with (a + (x - a)) by ring. eapply Rle_trans; [apply Rabs_triang|]. fold A. lra. }
  pose proof (Rabs_pos x) as X0.
  assert (PA : Rabs p = p) by (apply Rabs_pos_eq; lra).
  assert (XP : Rabs (x * p) <= 3.15 * Rabs x) by (rewrite Rabs_mult, PA, Rmult_comm; apply Rmult_le_compat_r; lra).
  assert (BP1 : Rabs (x * p) <= 2 ^ 60) by (replace (2 ^ 60) with 1152921504606846976 by (cbn [pow]; lra); lra).
  destruct (fmul_val fa f_pi FF FP) as [F1 E1]; [apply big_enough; exact BP1|]. fold x p in E1.
  pose proof (rne_err (x * p)) as R1. rewrite <- E1 in R1. set (y := B2R (fmul fa f_pi)) in *.
  assert (UX : u53 * Rabs (x * p) <= u53 * (3.15 * (A + (u53 * A + tiny)))) by (apply Rmult_le_compat_l; lra).
  assert (UU : u53 * (u53 * A) <= / 1024 * (u53 * A)) by (apply Rmult_le_compat_r; lra).
  assert (UT : u53 * tiny <= / 1024 * tiny) by (apply Rmult_le_compat_r; lra).
  assert (E2 : Rabs (x * p - a * PI) <= (A + (u53 * A + tiny)) * (2 * u53) + (u53 * A + tiny) * PI).
  { replace (x * p - a * PI) with (x * (p - PI) + (x - a) * PI) by ring. eapply Rle_trans; [apply Rabs_triang|]. rewrite !Rabs_mult.
    rewrite (Rabs_pos_eq PI) by lra. apply Rplus_le_compat; [apply Rmult_le_compat; try apply Rabs_pos; assumption|apply Rmult_le_compat_r; lra]. }
  assert (UP : (u53 * A + tiny) * PI <= (u53 * A + tiny) * 3.15) by (apply Rmult_le_compat_l; lra).
  assert (E3 : Rabs (y - a * PI) <= 84 / 10 * (u53 * A) + 6 * tiny).
  { replace (y - a * PI) with ((y - x * p) + (x * p - a * PI)) by ring. eapply Rle_trans; [apply Rabs_triang|]. lra. }
  assert (API : Rabs (a * PI) = A * PI) by (rewrite Rabs_mult, (Rabs_pos_eq PI) by lra; reflexivity).
  assert (APB : A * PI <= A * 3.15) by (apply Rmult_le_compat_l; lra). assert (APL : A * 3.14 <= A * PI) by (apply Rmult_le_compat_l; lra).
  assert (Y : Rabs y <= 3.2 * A + 6 * tiny).
  { replace y with ((y - a * PI) + a * PI) by ring. eapply Rle_trans; [apply Rabs_triang|]. rewrite API. lra. }
  assert (YD : Rabs (y / 180) <= (3.2 * A + 6 * tiny) / 180).
  { unfold Rdiv. rewrite Rabs_mult, (Rabs_pos_eq (/ 180)) by lra. lra. }
  destruct (fdiv_val (fmul fa f_pi) (f_of_Z 180) F1) as [F2 E4].
  { rewrite V180. lra. }
  { rewrite V180. fold y. apply big_enough. eapply Rle_trans; [exact YD|]. cbn [pow]. lra. }
  rewrite V180 in E4. fold y in E4. pose proof (rne_err (y / 180)) as R2. rewrite <- E4 in R2.
  unfold fradians. set (z := B2R (fdiv (fmul fa f_pi) (f_of_Z 180))) in *. split; [exact F2|].
  assert (DE : Rabs (degrees a) = A * PI / 180).
  { unfold degrees, Rdiv. rewrite Rabs_mult, API, (Rabs_pos_eq (/ 180)) by lra. reflexivity. }
  rewrite DE. replace (z - degrees a) with ((z - y / 180) + (y - a * PI) / 180) by (unfold degrees; field).
  eapply Rle_trans; [apply Rabs_triang|]. unfold Rdiv at 2. rewrite (Rabs_mult (y - a * PI)), (Rabs_pos_eq (/ 180)) by lra.
  assert (u53 * Rabs (y / 180) <= u53 * ((3.2 * A + 6 * tiny) / 180)) by (apply Rmult_le_compat_l; lra).
  assert (u53 * (A * 3.14) <= u53 * (A * PI)) by (apply Rmult_le_compat_l; lra). lra.
Qed.

Lemma sin_lipschitz : forall x y, Rabs (sin x - sin y) <= Rabs (x - y).
Proof.
  assert (G : forall x y, x < y -> Rabs (sin y - sin x) <= y - x).
  { intros x y H. destruct (MVT_cor2 sin cos x y H) as (c & E & _); [intros; apply derivable_pt_lim_sin|].
    rewrite E, Rabs_mult, (Rabs_pos_eq (y - x)) by lra. rewrite <- (Rmult_1_l (y - x)) at 2. apply Rmult_le_compat_r; [lra|]. apply Rabs_le, COS_bound. }
  intros x y. destruct (Rtotal_order x y) as [H|[->|H]].
  - rewrite Rabs_minus_sym, (Rabs_minus_sym x), (Rabs_pos_eq (y - x)) by lra. apply G, H.
  - rewrite !Rminus_eq_0, !Rabs_R0. lra.
  - rewrite (Rabs_pos_eq (x - y)) by lra. apply G, H.
Qed.
Lemma cos_lipschitz : forall x y, Rabs (cos x - cos y) <= Rabs (x - y).
Proof.
  intros x y. rewrite <- !sin_shift. eapply Rle_trans; [apply sin_lipschitz|]. replace (PI / 2 - x - (PI / 2 - y)) with (- (x - y)) by ring. rewrite Rabs_Ropp. lra.
Qed.

(** ** Single transforms *)

Lemma u53_is' : u53 = / 2 ^ 53.
Proof. rewrite u53_val. f_equal. cbn [pow]. lra. Qed.

(** The functions are off by at most [q] times 2^-53; the tangent only where it is not steep. *)
Definition accurate (g : trig) (q : R) : Prop := forall x, is_finite x = true -> Rabs (B2R x) <= 2 ^ 40 ->
  (is_finite (f_sin g x) = true /\ Rabs (B2R (f_sin g x) - sin (B2R x)) <= q / 2 ^ 53) /\
  (is_finite (f_cos g x) = true /\ Rabs (B2R (f_cos g x) - cos (B2R x)) <= q / 2 ^ 53) /\
  (Rabs (B2R x) <= 1.01 -> is_finite (f_tan g x) = true /\ Rabs (B2R (f_tan g x) - tan (B2R x)) <= q / 2 ^ 53).

(** The text of a transform, its matrix, and three numbers: how many roundings it may be off, the
    size of the linear part and that of the translation. *)
Inductive item (q : R) : list char -> transform -> R -> R -> R -> Prop :=
| item_matrix : forall t args a b c d e f N T, numbers_text args [a; b; c; d; e; f] -> call_text "matrix" args t ->
    1 <= N -> Rabs a + Rabs c <= N -> Rabs b + Rabs d <= N -> Rabs e <= T -> Rabs f <= T ->
    item q t (mk_tr a b c d e f) 2 N T
| item_translate1 : forall t args x T, numbers_text args [x] -> call_text "translate" args t -> Rabs x <= T ->
    item q t (mk_tr 1 0 0 1 x 0) 2 1 T
| item_translate2 : forall t args x y T, numbers_text args [x; y] -> call_text "translate" args t -> Rabs x <= T -> Rabs y <= T ->
    item q t (mk_tr 1 0 0 1 x y) 2 1 T
| item_scale1 : forall t args x N, numbers_text args [x] -> call_text "scale" args t -> 1 <= N -> Rabs x <= N ->
    item q t (mk_tr x 0 0 x 0 0) 2 N 0
| item_scale2 : forall t args x y N, numbers_text args [x; y] -> call_text "scale" args t -> 1 <= N -> Rabs x <= N -> Rabs y <= N ->
    item q t (mk_tr x 0 0 y 0 0) 2 N 0
| item_rotate1 : forall t args a, numbers_text args [a] -> call_text "rotate" args t ->
    item q t (mk_tr (cos (degrees a)) (sin (degrees a)) (- sin (degrees a)) (cos (degrees a)) 0 0) (q + 5 * Rabs (degrees a) + 8) 2 0
| item_rotate3 : forall t args a x y, numbers_text args [a; x; y] -> call_text "rotate" args t ->
    item q t (mk_tr (cos (degrees a)) (sin (degrees a)) (- sin (degrees a)) (cos (degrees a))
                    (x - (cos (degrees a) * x - sin (degrees a) * y)) (y - (sin (degrees a) * x + cos (degrees a) * y)))
      (q + 5 * Rabs (degrees a) + 8) 2 (Rabs x + Rabs y)
| item_skewx : forall t args a, numbers_text args [a] -> call_text "skewX" args t -> Rabs (degrees a) <= 1 ->
    item q t (mk_tr 1 0 (tan (degrees a)) 1 0 0) (q + 11) 3 0
| item_skewy : forall t args a, numbers_text args [a] -> call_text "skewY" args t -> Rabs (degrees a) <= 1 ->
    item q t (mk_tr 1 (tan (degrees a)) 0 1 0 0) (q + 11) 3 0.

Definition rounded (r : R) (x : f64) : Prop := is_finite x = true /\ Rabs (B2R x - r) <= u53 * Rabs r + tiny.

Lemma rounded_exact : forall x, is_finite x = true -> rounded (B2R x) x.
Proof.
  intros x F. split; [exact F|]. rewrite Rminus_eq_0, Rabs_R0. pose proof u53_pos. pose proof tiny_pos.
  assert (0 <= u53 * Rabs (B2R x)) by (apply Rmult_le_pos; [lra|apply Rabs_pos]). lra.
Qed.
Lemma rounded_one : rounded 1 fone.
Proof. destruct one_value as [F E]. rewrite <- E. apply rounded_exact, F. Qed.
Lemma rounded_zero : rounded 0 fzero.
Proof. destruct zero_value as [F E]. rewrite <- E. apply rounded_exact, F. Qed.

Lemma row_rounded : forall N T f g h a b c, rounded a f -> rounded b g -> rounded c h -> 1 <= N -> 0 <= T ->
  Rabs a + Rabs b <= N -> Rabs c <= T -> row_near 2 N T f g h a b c.
Proof.
  intros N T f g h a b c [F1 E1] [F2 E2] [F3 E3] HN HT L C. pose proof u53_pos as [U0 _]. pose proof tiny_pos. pose proof tiny_small.
  assert (NT : T <= N * T) by (rewrite <- (Rmult_1_l T) at 1; apply Rmult_le_compat_r; lra).
  assert (UN : u53 * 1 <= u53 * N) by (apply Rmult_le_compat_l; lra).
  constructor; [auto|exact L|lra| |].
  - assert (u53 * (Rabs a + Rabs b) <= u53 * N) by (apply Rmult_le_compat_l; lra). lra.
  - assert (u53 * Rabs c <= u53 * (N * T)) by (apply Rmult_le_compat_l; lra).
    assert (0 <= u53 * (N * T)) by (apply Rmult_le_pos; [lra|apply Rmult_le_pos; lra]).
    rewrite (Rmult_plus_distr_l N), Rmult_1_r, (Rmult_plus_distr_l u53). lra.
Qed.

(** The rotation and its rounded sine and cosine. *)
Section Angle.
Variables (g : trig) (q a : R) (fa : f64).
Hypotheses (AC : accurate g q) (BA : Rabs a <= 2 ^ 40) (RA : rounds_to a fa).
Let r := degrees a.
Let x := fradians fa.
Let k := q + 5 * Rabs r + 1.

Lemma radians_small : Rabs r <= Rabs a / 50.
Proof.
  unfold r, degrees, Rdiv. rewrite !Rabs_mult, (Rabs_pos_eq (/ 180)) by lra. pose proof pi_near. rewrite (Rabs_pos_eq PI) by lra.
  assert (Rabs a * PI <= Rabs a * 3.15) by (apply Rmult_le_compat_l; [apply Rabs_pos|lra]). pose proof (Rabs_pos a). lra.
Qed.
Lemma angle_near : is_finite x = true /\ Rabs (B2R x - r) <= (5 * Rabs r + 1) * u53 /\ Rabs (B2R x) <= 2 ^ 40.
Proof.
  destruct (radians_near a fa BA RA) as [F E]. fold x r in F, E. split; [exact F|]. split; [exact E|].
  pose proof radians_small. pose proof (Rabs_pos a). pose proof (Rabs_pos r). pose proof u53_pos as [U0 U1].
  assert ((5 * Rabs r + 1) * u53 <= (5 * Rabs r + 1) * / 1024) by (apply Rmult_le_compat_l; lra).
  replace (B2R x) with ((B2R x - r) + r) by ring. eapply Rle_trans; [apply Rabs_triang|].
  replace (2 ^ 40) with 1099511627776 in * by (cbn [pow]; lra). lra.
Qed.
Lemma sin_near : is_finite (f_sin g x) = true /\ Rabs (B2R (f_sin g x) - sin r) <= k * u53.
Proof.
  destruct angle_near as (F & E & B). destruct (AC x F B) as ([F1 E1] & _). split; [exact F1|].
  replace (B2R (f_sin g x) - sin r) with ((B2R (f_sin g x) - sin (B2R x)) + (sin (B2R x) - sin r)) by ring.
  eapply Rle_trans; [apply Rabs_triang|]. pose proof (sin_lipschitz (B2R x) r). unfold k. unfold Rdiv in E1; rewrite <- u53_is' in E1. lra.
Qed.
Lemma cos_near : is_finite (f_cos g x) = true /\ Rabs (B2R (f_cos g x) - cos r) <= k * u53.
Proof.
  destruct angle_near as (F & E & B). destruct (AC x F B) as (_ & [F1 E1] & _). split; [exact F1|].
  replace (B2R (f_cos g x) - cos r) with ((B2R (f_cos g x) - cos (B2R x)) + (cos (B2R x) - cos r)) by ring.
  eapply Rle_trans; [apply Rabs_triang|]. pose proof (cos_lipschitz (B2R x) r). unfold k. unfold Rdiv in E1; rewrite <- u53_is' in E1. lra.
Qed.
End Angle.

Lemma degrees_large : forall a, Rabs a <= 60 * Rabs (degrees a).
Proof.
  intros a. unfold degrees, Rdiv. rewrite !Rabs_mult, (Rabs_pos_eq (/ 180)) by lra. pose proof pi_near. rewrite (Rabs_pos_eq PI) by lra.
  assert (Rabs a * 3 <= Rabs a * PI) by (apply Rmult_le_compat_l; [apply Rabs_pos|lra]). lra.
Qed.

Lemma accurate_pos : forall g q, accurate g q -> 0 <= q.
Proof.
  intros g q A. destruct zero_value as [F E]. destruct (A fzero F) as ([_ B] & _); [rewrite E, Rabs_R0; cbn [pow]; lra|].
  pose proof (Rabs_pos (B2R (f_sin g fzero) - sin (B2R fzero))). destruct (Rle_dec 0 q) as [H1|H1]; [exact H1|]. exfalso.
  assert (q / 2 ^ 53 < 0) by (apply Ropp_lt_cancel; rewrite Ropp_0; cbn [pow]; lra). lra.
Qed.

Lemma sin_le_abs : forall x, Rabs (sin x) <= Rabs x.
Proof. intros x. pose proof (sin_lipschitz x 0) as H. rewrite sin_0, !Rminus_0_r in H. exact H. Qed.
Lemma cos_lower : forall x, 1 - x * x / 2 <= cos x.
Proof.
  intros x. replace x with (2 * (x / 2)) at 3 by lra. rewrite cos_2a_sin. pose proof (sin_le_abs (x / 2)) as H.
  assert (S : sin (x / 2) * sin (x / 2) <= x / 2 * (x / 2)).
  { rewrite <- (Rabs_pos_eq (sin (x / 2) * sin (x / 2))) by apply Rle_0_sqr. rewrite <- (Rabs_pos_eq (x / 2 * (x / 2))) by apply Rle_0_sqr. rewrite !Rabs_mult.
    apply Rmult_le_compat; try apply Rabs_pos; exact H. }
  lra.
Qed.
Lemma cos_half : forall x, Rabs x <= 1.01 -> 48 / 100 <= cos x.
Proof.
  intros x H. eapply Rle_trans; [|apply cos_lower]. assert (Rabs x * Rabs x <= 1.01 * 1.01) by (apply Rmult_le_compat; try apply Rabs_pos; exact H).
  rewrite <- Rabs_mult, Rabs_pos_eq in H0 by apply Rle_0_sqr. lra.
Qed.
Lemma tan_lipschitz : forall x y, Rabs x <= 1.01 -> Rabs y <= 1.01 -> Rabs (tan x - tan y) <= 5 * Rabs (x - y).
Proof.
  intros x y X Y. pose proof (cos_half x X) as CX. pose proof (cos_half y Y) as CY.
  assert (P : 2 / 10 <= cos x * cos y) by (assert (48 / 100 * (48 / 100) <= cos x * cos y) by (apply Rmult_le_compat; lra); lra).
  replace (tan x - tan y) with (sin (x - y) * / (cos x * cos y)) by (rewrite sin_minus; unfold tan; field; lra).
  rewrite Rabs_mult, (Rabs_pos_eq (/ _)) by (apply Rlt_le, Rinv_0_lt_compat; lra). rewrite Rmult_comm.
  apply Rmult_le_compat; [apply Rlt_le, Rinv_0_lt_compat; lra|apply Rabs_pos| |apply sin_le_abs].
  replace 5 with (/ (2 / 10)) by lra. apply Rinv_le_contravar; lra.
Qed.
Lemma tan_small : forall x, Rabs x <= 1 -> Rabs (tan x) <= 2.
Proof.
  intros x H. pose proof (cos_lower x) as C. assert (Rabs x * Rabs x <= 1 * 1) by (apply Rmult_le_compat; try apply Rabs_pos; exact H).
  rewrite <- Rabs_mult, Rabs_pos_eq in H0 by apply Rle_0_sqr. assert (D : / 2 <= cos x) by lra.
  unfold tan, Rdiv. rewrite Rabs_mult, (Rabs_pos_eq (/ _)) by (apply Rlt_le, Rinv_0_lt_compat; lra).
  replace 2 with (1 * / (/ 2)) by lra. apply Rmult_le_compat; [apply Rabs_pos|apply Rlt_le, Rinv_0_lt_compat; lra| |apply Rinv_le_contravar; lra].
  apply Rabs_le. pose proof (SIN_bound x). lra.
Qed.

Lemma tan_near : forall g q a fa, accurate g q -> Rabs (degrees a) <= 1 -> rounds_to a fa ->
  is_finite (f_tan g (fradians fa)) = true /\ Rabs (B2R (f_tan g (fradians fa)) - tan (degrees a)) <= (q + 30) * u53.
Proof.
  intros g q a fa AC BD RA. assert (BA : Rabs a <= 2 ^ 40) by (pose proof (degrees_large a); cbn [pow]; lra).
  destruct (angle_near a fa BA RA) as (F & E & B). pose proof u53_pos as [U0 U1].
  assert (E6 : Rabs (B2R (fradians fa) - degrees a) <= 6 * u53) by (eapply Rle_trans; [exact E|apply Rmult_le_compat_r; lra]).
  assert (X : Rabs (B2R (fradians fa)) <= 1.01).
  { replace (B2R (fradians fa)) with ((B2R (fradians fa) - degrees a) + degrees a) by ring. eapply Rle_trans; [apply Rabs_triang|]. lra. }
  destruct (AC _ F B) as (_ & _ & H). destruct (H X) as [F1 E1]. split; [exact F1|]. unfold Rdiv in E1. rewrite <- u53_is' in E1.
  pose proof (tan_lipschitz _ _ X (Rle_trans _ 1 1.01 BD ltac:(lra))) as L.
  replace (B2R (f_tan g (fradians fa)) - tan (degrees a)) with ((B2R (f_tan g (fradians fa)) - tan (B2R (fradians fa))) + (tan (B2R (fradians fa)) - tan (degrees a))) by ring.
  eapply Rle_trans; [apply Rabs_triang|]. lra.
Qed.

(** A row of a matrix from the errors of its entries. *)
Lemma row_entries : forall k N T f g h a b c e, is_finite f = true -> is_finite g = true -> is_finite h = true ->
  0 <= k -> 1 <= N -> 0 <= T -> Rabs a + Rabs b <= N -> Rabs c <= N * T ->
  Rabs (B2R f - a) <= e * u53 -> Rabs (B2R g - b) <= e * u53 -> 2 * e <= k * N -> Rabs (B2R h - c) <= k * N * (1 + T) * u53 ->
  row_near k N T f g h a b c.
Proof.
  intros k N T f g h a b c e F1 F2 F3 K HN HT L C E1 E2 E3 E4. pose proof u53_pos as [U0 _].
  constructor; [auto|exact L|exact C| |].
  - apply Rle_trans with (2 * e * u53); [lra|]. rewrite (Rmult_comm u53), <- Rmult_assoc. apply Rmult_le_compat_r; lra.
  - replace (k * (u53 * (N * (1 + T)))) with (k * N * (1 + T) * u53) by ring. exact E4.
Qed.

Lemma linear_rotation : forall r, Rabs (cos r) + Rabs (sin r) <= 2.
Proof. intros r. pose proof (COS_bound r). pose proof (SIN_bound r). assert (Rabs (cos r) <= 1) by (apply Rabs_le; lra). assert (Rabs (sin r) <= 1) by (apply Rabs_le; lra). lra. Qed.

Section Rotation.
Variables (g : trig) (q a : R) (fa : f64).
Hypotheses (AC : accurate g q) (RA : rounds_to a fa) (BK : q + 5 * Rabs (degrees a) + 8 <= lots).
Let r := degrees a.
Let x := fradians fa.
Let k := q + 5 * Rabs (degrees a) + 8.

Lemma rotation_bound : Rabs a <= 2 ^ 40.
Proof. pose proof (degrees_large a). pose proof (accurate_pos _ _ AC). unfold lots in BK. cbn [pow]. lra. Qed.

Lemma rotate_near : tr_near k 2 0 (frotate g x) (mk_tr (cos r) (sin r) (- sin r) (cos r) 0 0).
Proof.
  destruct (sin_near g q a fa AC rotation_bound RA) as [FS ES]. destruct (cos_near g q a fa AC rotation_bound RA) as [FC EC].
  pose proof (accurate_pos _ _ AC) as Q0. pose proof (Rabs_pos (degrees a)) as R0. destruct zero_value as [FZ EZ]. pose proof u53_pos as [U0 _].
  destruct (fneg_value _ FS) as [FN EN].
  assert (K0 : 0 <= k) by (unfold k; lra). assert (KU : 0 <= k * 2 * (1 + 0) * u53) by (apply Rmult_le_pos; lra).
  split; cbn [frotate fm0 fm1 fm2 fm3 fm4 fm5 m0 m1 m2 m3 m4 m5]; apply row_entries with (q + 5 * Rabs (degrees a) + 1); fold x in FS, FC, FN, ES, EC, EN |- *; auto; try lra.
  - rewrite Rabs_Ropp. apply linear_rotation.
  - rewrite Rabs_R0. lra.
  - rewrite EN. replace (- B2R (f_sin g x) - - sin r) with (- (B2R (f_sin g x) - sin r)) by ring. rewrite Rabs_Ropp. exact ES.
  - unfold k. lra.
  - rewrite EZ, Rminus_0_r, Rabs_R0. exact KU.
  - rewrite Rplus_comm. apply linear_rotation.
  - rewrite Rabs_R0. lra.
  - unfold k. lra.
  - rewrite EZ, Rminus_0_r, Rabs_R0. exact KU.
Qed.

Variables (px py : R) (fpx fpy : f64).
Hypotheses (RX : rounds_to px fpx) (RY : rounds_to py fpy) (BP : 2 * (1 + (Rabs px + Rabs py)) <= huge).

(** The sum of two products of rounded numbers. *)
Lemma pivot_part : forall (d s : f64) (u v : R) (fu fv : f64) (D S : R), is_finite d = true -> is_finite s = true ->
  rounded u fu -> rounded v fv -> Rabs D <= 2 -> Rabs S <= 2 -> Rabs u + Rabs v <= Rabs px + Rabs py ->
  Rabs (B2R d - D) <= (k - 4) * u53 -> Rabs (B2R s - S) <= (k - 4) * u53 ->
  is_finite (fadd (fmul fu d) (fmul fv s)) = true /\
  Rabs (B2R (fadd (fmul fu d) (fmul fv s)) - (u * D + v * S)) <= k * 2 * (1 + (Rabs px + Rabs py)) * u53.
Proof.
  intros d s u v fu fv D S Fd Fs [Fu Eu] [Fv Ev] BD BS UV Ed Es.
  pose proof (accurate_pos _ _ AC) as Q0. pose proof (Rabs_pos (degrees a)) as R0. pose proof u53_pos as [U0 U1]. pose proof tiny_pos. pose proof tiny_small.
  assert (K8 : 8 <= k) by (unfold k; lra). assert (KL : k <= lots) by exact BK.
  assert (KU : k * u53 <= / 1024).
  { apply Rle_trans with (lots * u53); [apply Rmult_le_compat_r; lra|]. unfold lots. rewrite u53_val. lra. }
  assert (KU0 : 0 <= k * u53) by (apply Rmult_le_pos; lra).
  set (A := Rabs u) in *. set (B := Rabs v) in *. assert (A0 : 0 <= A) by apply Rabs_pos. assert (B0 : 0 <= B) by apply Rabs_pos.
  assert (UA : 0 <= u53 * A) by (apply Rmult_le_pos; lra). assert (UB : 0 <= u53 * B) by (apply Rmult_le_pos; lra).
  assert (UA' : u53 * A <= A / 1024) by (unfold Rdiv; rewrite Rmult_comm; apply Rmult_le_compat_l; lra).
  assert (UB' : u53 * B <= B / 1024) by (unfold Rdiv; rewrite Rmult_comm; apply Rmult_le_compat_l; lra).
  assert (MU : Rabs (B2R fu) <= 1.01 * A + tiny) by (replace (B2R fu) with ((B2R fu - u) + u) by ring; eapply Rle_trans; [apply Rabs_triang|fold A; lra]).
  assert (MV : Rabs (B2R fv) <= 1.01 * B + tiny) by (replace (B2R fv) with ((B2R fv - v) + v) by ring; eapply Rle_trans; [apply Rabs_triang|fold B; lra]).
  assert (MD : Rabs (B2R d) <= 2.01) by (replace (B2R d) with ((B2R d - D) + D) by ring; eapply Rle_trans; [apply Rabs_triang|lra]).
  assert (MS : Rabs (B2R s) <= 2.01) by (replace (B2R s) with ((B2R s - S) + S) by ring; eapply Rle_trans; [apply Rabs_triang|lra]).
  assert (M1 : Rabs (B2R fu) * Rabs (B2R d) <= (1.01 * A + tiny) * 2.01) by (apply Rmult_le_compat; try apply Rabs_pos; assumption).
  assert (M2 : Rabs (B2R fv) * Rabs (B2R s) <= (1.01 * B + tiny) * 2.01) by (apply Rmult_le_compat; try apply Rabs_pos; assumption).
  destruct (dot2 fu d fv s (2.1 * (A + B) + 5 * tiny) Fu Fd Fv Fs) as [FF EE]; [lra| |].
  { pose proof one_huge. lra. }
  split; [exact FF|].
  set (X := fadd (fmul fu d) (fmul fv s)) in *.
  assert (P1 : Rabs (B2R fu * B2R d - u * D) <= A * ((k - 4) * u53) + (u53 * A + tiny) * 2.01).
  { replace (B2R fu * B2R d - u * D) with (u * (B2R d - D) + (B2R fu - u) * B2R d) by ring. eapply Rle_trans; [apply Rabs_triang|]. rewrite !Rabs_mult.
    apply Rplus_le_compat; apply Rmult_le_compat; try apply Rabs_pos; try assumption. apply Rle_refl. }
  assert (P2 : Rabs (B2R fv * B2R s - v * S) <= B * ((k - 4) * u53) + (u53 * B + tiny) * 2.01).
  { replace (B2R fv * B2R s - v * S) with (v * (B2R s - S) + (B2R fv - v) * B2R s) by ring. eapply Rle_trans; [apply Rabs_triang|]. rewrite !Rabs_mult.
    apply Rplus_le_compat; apply Rmult_le_compat; try apply Rabs_pos; try assumption. apply Rle_refl. }
  replace (B2R X - (u * D + v * S)) with ((B2R X - (B2R fu * B2R d + B2R fv * B2R s)) + ((B2R fu * B2R d - u * D) + (B2R fv * B2R s - v * S))) by ring.
  eapply Rle_trans; [apply Rabs_triang|]. eapply Rle_trans; [apply Rplus_le_compat; [exact EE|apply Rabs_triang]|].
  set (Y := Rabs px + Rabs py) in *. assert (Y0 : 0 <= Y) by lra.
  assert (AB : (A + B) * (k * u53) <= Y * (k * u53)) by (apply Rmult_le_compat_r; lra).
  assert (UY : u53 * (A + B) <= u53 * Y) by (apply Rmult_le_compat_l; lra).
  assert (K8U : 8 * u53 <= k * u53) by (apply Rmult_le_compat_r; lra).
  assert (K8Y : Y * (8 * u53) <= Y * (k * u53)) by (apply Rmult_le_compat_l; lra).
  assert (UT : u53 * tiny <= tiny) by (rewrite <- (Rmult_1_l tiny) at 2; apply Rmult_le_compat_r; lra).
  replace (k * 2 * (1 + Y) * u53) with (2 * (k * u53) + 2 * (Y * (k * u53))) by ring.
  replace (A * ((k - 4) * u53)) with (A * (k * u53) - 4 * (u53 * A)) by ring. replace (B * ((k - 4) * u53)) with (B * (k * u53) - 4 * (u53 * B)) by ring.
  rewrite Rmult_plus_distr_r in AB. rewrite Rmult_plus_distr_l in UY. replace (Y * (8 * u53)) with (8 * (u53 * Y)) in K8Y by ring.
  replace (3 * (u53 * (2.1 * (A + B) + 5 * tiny))) with (6.3 * (u53 * A) + 6.3 * (u53 * B) + 15 * (u53 * tiny)) by lra.
  lra.
Qed.

Lemma pivot_near : tr_near k 2 (Rabs px + Rabs py) (frotate_around g x (mk_fvec fpx fpy))
  (mk_tr (cos r) (sin r) (- sin r) (cos r) (px - (cos r * px - sin r * py)) (py - (sin r * px + cos r * py))).
Proof.
  destruct (sin_near g q a fa AC rotation_bound RA) as [FS ES]. destruct (cos_near g q a fa AC rotation_bound RA) as [FC EC].
  pose proof (accurate_pos _ _ AC) as Q0. pose proof (Rabs_pos (degrees a)) as R0. pose proof u53_pos as [U0 U1].
  destruct (fneg_value _ FS) as [FN EN]. destruct one_value as [F1 E1]. fold x in FS, FC, FN, ES, EC, EN. fold r in ES, EC.
  set (s := f_sin g x) in *. set (c := f_cos g x) in *. set (k1 := q + 5 * Rabs r + 1) in *.
  assert (K0 : 0 <= k) by (unfold k; lra).
  pose proof (COS_bound r) as CB. pose proof (SIN_bound r) as SB. pose proof (Rabs_pos px). pose proof (Rabs_pos py).
  assert (KU : k * u53 <= / 1024).
  { apply Rle_trans with (lots * u53); [apply Rmult_le_compat_r; [lra|exact BK]|]. unfold lots. rewrite u53_val. lra. }
  assert (K1 : k1 * u53 <= k * u53) by (apply Rmult_le_compat_r; [lra|unfold k1, k, r; lra]).
  assert (CC : Rabs (1 - B2R c) <= 2.01).
  { replace (1 - B2R c) with ((1 - cos r) - (B2R c - cos r)) by ring. eapply Rle_trans; [apply Rabs_triang|]. rewrite Rabs_Ropp.
    assert (Rabs (1 - cos r) <= 2) by (apply Rabs_le; lra). lra. }
  destruct (fsub_val fone c F1 FC) as [FD ED]; [rewrite E1; pose proof one_huge; pose proof huge_1000; lra|]. rewrite E1 in ED.
  assert (EDD : Rabs (B2R (fsub fone c) - (1 - cos r)) <= (k - 4) * u53).
  { pose proof (rne_err (1 - B2R c)) as H1. rewrite <- ED in H1. pose proof tiny_pos. pose proof tiny_small.
    replace (B2R (fsub fone c) - (1 - cos r)) with ((B2R (fsub fone c) - (1 - B2R c)) - (B2R c - cos r)) by ring.
    eapply Rle_trans; [apply Rabs_triang|]. rewrite Rabs_Ropp. assert (u53 * Rabs (1 - B2R c) <= u53 * 2.01) by (apply Rmult_le_compat_l; lra).
    replace ((k - 4) * u53) with (k1 * u53 + 3 * u53) by (unfold k, k1, r; ring). lra. }
  assert (ESS : Rabs (B2R s - sin r) <= (k - 4) * u53) by (eapply Rle_trans; [exact ES|apply Rmult_le_compat_r; [lra|unfold k, k1, r; lra]]).
  assert (SA : Rabs (sin r) <= 2) by (apply Rabs_le; lra). assert (CA : Rabs (1 - cos r) <= 2) by (apply Rabs_le; lra).
  assert (HB : forall z, Rabs z <= Rabs px + Rabs py -> Rabs z <= bpow radix2 1000).
  { intros z Z. pose proof huge_1000. lra. }
  assert (GX : rounded px fpx) by (apply rounds_val; [apply HB; lra|exact RX]).
  assert (GY : rounded py fpy) by (apply rounds_val; [apply HB; lra|exact RY]).
  assert (NX : rounded (- px) (fneg fpx)).
  { destruct GX as [FX EX]. destruct (fneg_value _ FX) as [FX' EX']. split; [exact FX'|]. rewrite EX', Rabs_Ropp.
    replace (- B2R fpx - - px) with (- (B2R fpx - px)) by ring. rewrite Rabs_Ropp. exact EX. }
  destruct (pivot_part (fsub fone c) s px py fpx fpy (1 - cos r) (sin r) FD FS GX GY CA SA (Rle_refl _) EDD ESS) as [FA EA].
  destruct (pivot_part s (fsub fone c) (- px) py (fneg fpx) fpy (sin r) (1 - cos r) FS FD NX GY SA CA) as [FB EB]; [rewrite Rabs_Ropp; apply Rle_refl|exact ESS|exact EDD|].
  split; cbn [frotate_around fm0 fm1 fm2 fm3 fm4 fm5 m0 m1 m2 m3 m4 m5 fx fy]; fold c s; apply row_entries with k1; auto; try lra.
  - rewrite Rabs_Ropp. apply linear_rotation.
  - replace (px - (cos r * px - sin r * py)) with (px * (1 - cos r) + py * sin r) by ring. eapply Rle_trans; [apply Rabs_triang|]. rewrite !Rabs_mult.
    assert (Rabs px * Rabs (1 - cos r) <= Rabs px * 2) by (apply Rmult_le_compat_l; lra). assert (Rabs py * Rabs (sin r) <= Rabs py * 2) by (apply Rmult_le_compat_l; lra). lra.
  - rewrite EN. replace (- B2R s - - sin r) with (- (B2R s - sin r)) by ring. rewrite Rabs_Ropp. exact ES.
  - unfold k, k1, r. lra.
  - replace (px - (cos r * px - sin r * py)) with (px * (1 - cos r) + py * sin r) by ring. exact EA.
  - rewrite Rplus_comm. apply linear_rotation.
  - replace (py - (sin r * px + cos r * py)) with (- px * sin r + py * (1 - cos r)) by ring. eapply Rle_trans; [apply Rabs_triang|]. rewrite !Rabs_mult, Rabs_Ropp.
    assert (Rabs py * Rabs (1 - cos r) <= Rabs py * 2) by (apply Rmult_le_compat_l; lra). assert (Rabs px * Rabs (sin r) <= Rabs px * 2) by (apply Rmult_le_compat_l; lra). lra.
  - unfold k, k1, r. lra.
  - replace (py - (sin r * px + cos r * py)) with (- px * sin r + py * (1 - cos r)) by ring. exact EB.
Qed.
End Rotation.

Lemma skewx_near : forall g q a fa, accurate g q -> Rabs (degrees a) <= 1 -> rounds_to a fa ->
  tr_near (q + 11) 3 0 (fskew_x g (fradians fa)) (mk_tr 1 0 (tan (degrees a)) 1 0 0).
Proof.
  intros g q a fa AC B RA. destruct (tan_near g q a fa AC B RA) as [FT ET]. destruct one_value as [F1 E1]. destruct zero_value as [F0 E0].
  pose proof (accurate_pos _ _ AC) as Q0. pose proof (tan_small _ B) as TS. pose proof u53_pos as [U0 _].
  assert (KU : 0 <= (q + 30) * u53) by (apply Rmult_le_pos; lra). assert (KV : 0 <= (q + 11) * 3 * (1 + 0) * u53) by (apply Rmult_le_pos; lra).
  assert (QU : 0 <= q * u53) by (apply Rmult_le_pos; lra).
  pose proof Rabs_R0 as A0. pose proof Rabs_R1 as A1.
  assert (Z1 : Rabs (B2R fone - 1) = 0) by (rewrite E1, Rminus_eq_0; exact A0). assert (Z0 : Rabs (B2R fzero - 0) = 0) by (rewrite E0, Rminus_eq_0; exact A0).
  split; cbn [fskew_x fm0 fm1 fm2 fm3 fm4 fm5 m0 m1 m2 m3 m4 m5].
  - constructor; auto; rewrite ?Z1, ?Z0, ?A0, ?A1; lra.
  - constructor; auto; rewrite ?Z1, ?Z0, ?A0, ?A1; lra.
Qed.
Lemma skewy_near : forall g q a fa, accurate g q -> Rabs (degrees a) <= 1 -> rounds_to a fa ->
  tr_near (q + 11) 3 0 (fskew_y g (fradians fa)) (mk_tr 1 (tan (degrees a)) 0 1 0 0).
Proof.
  intros g q a fa AC B RA. destruct (tan_near g q a fa AC B RA) as [FT ET]. destruct one_value as [F1 E1]. destruct zero_value as [F0 E0].
  pose proof (accurate_pos _ _ AC) as Q0. pose proof (tan_small _ B) as TS. pose proof u53_pos as [U0 _].
  assert (KU : 0 <= (q + 30) * u53) by (apply Rmult_le_pos; lra). assert (KV : 0 <= (q + 11) * 3 * (1 + 0) * u53) by (apply Rmult_le_pos; lra).
  assert (QU : 0 <= q * u53) by (apply Rmult_le_pos; lra).
  pose proof Rabs_R0 as A0. pose proof Rabs_R1 as A1.
  assert (Z1 : Rabs (B2R fone - 1) = 0) by (rewrite E1, Rminus_eq_0; exact A0). assert (Z0 : Rabs (B2R fzero - 0) = 0) by (rewrite E0, Rminus_eq_0; exact A0).
  split; cbn [fskew_y fm0 fm1 fm2 fm3 fm4 fm5 m0 m1 m2 m3 m4 m5].
  - constructor; auto; rewrite ?Z1, ?Z0, ?A0, ?A1; lra.
  - constructor; auto; rewrite ?Z1, ?Z0, ?A0, ?A1; lra.
Qed.
