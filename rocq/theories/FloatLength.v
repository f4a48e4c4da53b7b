(** Relative rounding errors of lengths and of the scale of an svg element. *)
From Coq Require Import Reals Lra ZArith List Bool NArith Lia Ascii String.
From Flocq Require Import Core BinarySingleNaN.
From Verif Require Import Base Chars Floats FloatProofs FloatScale FloatErr FloatCurve ApproxCurve DrawCurves Coords PathBuild PathGrammar PathLex
  LexProofs FloatPath FloatLex FloatLexProofs FloatTransform FloatAngles SvgDocument FloatDocument FloatDocProofs.
Import ListNotations.
Open Scope R_scope.

(** [x] is [r] up to [j] units of the last place of [r], more or less. *)
Definition rel (j r : R) (x : f64) : Prop := is_finite x = true /\ Rabs (B2R x - r) <= j * u53 * Rabs r.

(** Neither close to underflow nor to overflow. *)
Definition between (e : Z) (r : R) : Prop := bpow radix2 (- e) <= Rabs r <= bpow radix2 e.

Lemma between_le : forall e e' r, (e <= e')%Z -> between e r -> between e' r.
Proof.
  intros e e' r H [A B]. split; (eapply Rle_trans; [|eassumption] || (eapply Rle_trans; [eassumption|])); apply bpow_le; lia.
Qed.
Lemma between_mul : forall e f r s, between e r -> between f s -> between (e + f) (r * s).
Proof.
  intros e f r s [A B] [C D]. unfold between. rewrite Rabs_mult. replace (- (e + f))%Z with (- e + - f)%Z by lia. rewrite !bpow_plus.
  pose proof (bpow_ge_0 radix2 (- e)). pose proof (bpow_ge_0 radix2 (- f)). pose proof (Rabs_pos r). pose proof (Rabs_pos s).
  split; apply Rmult_le_compat; assumption.
Qed.
Lemma between_nonzero : forall e r, between e r -> r <> 0.
Proof. intros e r [A _] ->. rewrite Rabs_R0 in A. pose proof (bpow_gt_0 radix2 (- e)). lra. Qed.
Lemma between_inv : forall e r, between e r -> between e (/ r).
Proof.
  intros e r [A B]. pose proof (bpow_gt_0 radix2 (- e)) as P. assert (R0 : r <> 0) by (intros ->; rewrite Rabs_R0 in A; lra).
  unfold between. rewrite Rabs_inv. split.
  - rewrite bpow_opp. apply Rinv_le_contravar; [apply Rabs_pos_lt; exact R0|exact B].
  - replace e with (- - e)%Z by lia. rewrite bpow_opp. apply Rinv_le_contravar; [exact P|exact A].
Qed.
Lemma between_div : forall e f r s, between e r -> between f s -> between (e + f) (r / s).
Proof. intros e f r s A B. apply between_mul; [exact A|apply between_inv, B]. Qed.

Lemma rne_rel : forall r, between 900 r -> Rabs (rne r - r) <= 2 * u53 * Rabs r.
Proof.
  intros r [A _]. pose proof (rne_err r) as E. pose proof u53_pos as [U0 _].
  assert (T : tiny <= u53 * Rabs r).
  { apply Rle_trans with (u53 * bpow radix2 (-900)); [unfold tiny, u53; rewrite <- bpow_plus; apply bpow_le; lia|].
    apply Rmult_le_compat_l; [lra|exact A]. }
  lra.
Qed.

Lemma rel_le : forall j j' r x, j <= j' -> rel j r x -> rel j' r x.
Proof.
  intros j j' r x H [F E]. split; [exact F|]. eapply Rle_trans; [exact E|]. pose proof u53_pos as [U0 _].
  apply Rmult_le_compat_r; [apply Rabs_pos|]. apply Rmult_le_compat_r; lra.
Qed.
Lemma rel_exact : forall x, is_finite x = true -> rel 0 (B2R x) x.
Proof. intros x F. split; [exact F|]. rewrite Rminus_eq_0, Rabs_R0, !Rmult_0_l. lra. Qed.
Lemma rel_rounds : forall r x, between 900 r -> rounds_to r x -> rel 2 r x.
Proof.
  intros r x B X. unfold rounds_to in X. rewrite <- bexp_flt in X. change (round radix2 bexp ZnearestE r) with (rne r) in X.
  rewrite rne_range in X by (destruct B as [_ B]; eapply Rle_trans; [exact B|apply bpow_le; lia]). destruct X as [F E]. split; [exact F|].
  rewrite E. apply rne_rel, B.
Qed.

(** The size of a perturbed number. *)
Lemma rel_size : forall j r x, 0 <= j <= 64 -> rel j r x -> Rabs r / 2 <= Rabs (B2R x) <= 2 * Rabs r.
Proof.
  intros j r x J [_ E]. pose proof u53_val as UV. pose proof (Rabs_pos r) as P.
  assert (D : Rabs (B2R x - r) <= Rabs r / 2).
  { eapply Rle_trans; [exact E|]. assert (j * u53 * Rabs r <= / 2 * Rabs r); [|lra]. apply Rmult_le_compat_r; [exact P|]. rewrite UV. lra. }
  split.
  - assert (Rabs r <= Rabs (B2R x) + Rabs (B2R x - r)); [|lra]. replace r with (B2R x - (B2R x - r)) at 1 by ring.
    eapply Rle_trans; [apply Rabs_triang|]. rewrite Rabs_Ropp. lra.
  - assert (Rabs (B2R x) <= Rabs r + Rabs (B2R x - r)); [|lra]. replace (B2R x) with (r + (B2R x - r)) at 1 by ring. apply Rabs_triang.
Qed.
Lemma rel_between : forall j e r x, 0 <= j <= 64 -> between e r -> rel j r x -> between (e + 1) (B2R x).
Proof.
  intros j e r x J [A B] R. destruct (rel_size j r x J R) as [C D]. unfold between.
  replace (- (e + 1))%Z with (- e + -1)%Z by lia. rewrite !bpow_plus. change (bpow radix2 (-1)) with (/ 2). change (bpow radix2 1) with 2. lra.
Qed.

Lemma rel_mul : forall j1 j2 e f r s x y, 0 <= j1 <= 64 -> 0 <= j2 <= 64 -> between e r -> between f s -> (e + f <= 890)%Z ->
  rel j1 r x -> rel j2 s y -> rel (j1 + j2 + 3) (r * s) (fmul x y).
Proof.
  intros j1 j2 e f r s x y J1 J2 B1 B2 EF R1 R2.
  assert (B : between 900 (B2R x * B2R y)).
  { apply (between_le ((e + 1) + (f + 1))); [lia|]. apply between_mul; [apply (rel_between j1 e r)|apply (rel_between j2 f s)]; assumption. }
  destruct R1 as [F1 E1], R2 as [F2 E2].
  destruct (fmul_val x y F1 F2) as [F E]; [destruct B as [_ B]; eapply Rle_trans; [exact B|apply bpow_le; lia]|].
  split; [exact F|]. pose proof (rne_rel _ B) as RE. rewrite <- E in RE. set (z := B2R (fmul x y)) in *. clearbody z. clear E F B EF.
  set (a := B2R x) in *. set (b := B2R y) in *. clearbody a b. pose proof u53_val as UV. pose proof u53_pos as [U0 _].
  set (P := Rabs (r * s)). assert (P0 : 0 <= P) by apply Rabs_pos. assert (PE : P = Rabs r * Rabs s) by apply Rabs_mult.
  pose proof (Rabs_pos r) as PR. pose proof (Rabs_pos s) as PS.
  assert (D1 : Rabs ((a - r) * s) <= j1 * u53 * P).
  { rewrite Rabs_mult. replace (j1 * u53 * P) with (j1 * u53 * Rabs r * Rabs s) by (rewrite PE; ring). apply Rmult_le_compat_r; assumption. }
  assert (D2 : Rabs (r * (b - s)) <= j2 * u53 * P).
  { rewrite Rabs_mult. replace (j2 * u53 * P) with (Rabs r * (j2 * u53 * Rabs s)) by (rewrite PE; ring). apply Rmult_le_compat_l; assumption. }
  assert (D3 : Rabs ((a - r) * (b - s)) <= 4096 * u53 * (u53 * P)).
  { rewrite Rabs_mult. replace (4096 * u53 * (u53 * P)) with ((64 * u53 * Rabs r) * (64 * u53 * Rabs s)) by (rewrite PE; ring).
    assert (0 <= u53 * Rabs r) by (apply Rmult_le_pos; lra). assert (0 <= u53 * Rabs s) by (apply Rmult_le_pos; lra).
    apply Rmult_le_compat; try apply Rabs_pos.
    - eapply Rle_trans; [exact E1|]. rewrite !Rmult_assoc. apply Rmult_le_compat_r; lra.
    - eapply Rle_trans; [exact E2|]. rewrite !Rmult_assoc. apply Rmult_le_compat_r; lra. }
  assert (UP : 0 <= u53 * P) by (apply Rmult_le_pos; lra).
  assert (D3' : Rabs ((a - r) * (b - s)) <= / 8 * (u53 * P)).
  { eapply Rle_trans; [exact D3|]. apply Rmult_le_compat_r; [exact UP|]. rewrite UV. lra. }
  assert (D : Rabs (a * b - r * s) <= (j1 + j2 + / 8) * (u53 * P)).
  { replace (a * b - r * s) with ((a - r) * s + r * (b - s) + (a - r) * (b - s)) by ring.
    eapply Rle_trans; [apply Rabs_triang|]. eapply Rle_trans; [apply Rplus_le_compat_r, Rabs_triang|]. lra. }
  assert (DA : Rabs (a * b) <= P + (j1 + j2 + / 8) * (u53 * P)).
  { replace (a * b) with (r * s + (a * b - r * s)) by ring. eapply Rle_trans; [apply Rabs_triang|]. fold P. lra. }
  assert (DB : (j1 + j2 + / 8) * (u53 * P) <= / 8 * P).
  { rewrite <- Rmult_assoc. apply Rmult_le_compat_r; [exact P0|]. rewrite UV. lra. }
  replace (z - r * s) with ((z - a * b) + (a * b - r * s)) by ring. eapply Rle_trans; [apply Rabs_triang|].
  assert (2 * u53 * Rabs (a * b) <= 2 * u53 * (P + / 8 * P)) by (apply Rmult_le_compat_l; lra). lra.
Qed.

Lemma rel_div : forall j1 j2 e f r s x y, 0 <= j1 <= 64 -> 0 <= j2 <= 64 -> between e r -> between f s -> (e + f <= 890)%Z ->
  rel j1 r x -> rel j2 s y -> rel (j1 + j2 + 3) (r / s) (fdiv x y).
Proof.
  intros j1 j2 e f r s x y J1 J2 B1 B2 EF R1 R2.
  assert (BX := rel_between _ _ _ _ J1 B1 R1). assert (BY := rel_between _ _ _ _ J2 B2 R2).
  assert (B : between 900 (B2R x / B2R y)) by (apply (between_le ((e + 1) + (f + 1))); [lia|]; apply between_div; assumption).
  assert (Y0 : B2R y <> 0) by exact (between_nonzero _ _ BY).
  assert (S0 : s <> 0) by exact (between_nonzero _ _ B2).
  destruct (rel_size _ _ _ J2 R2) as [YS _].
  destruct R1 as [F1 E1], R2 as [F2 E2].
  destruct (fdiv_val x y F1 Y0) as [F E]; [destruct B as [_ B]; eapply Rle_trans; [exact B|apply bpow_le; lia]|].
  split; [exact F|]. pose proof (rne_rel _ B) as RE. rewrite <- E in RE. set (z := B2R (fdiv x y)) in *. clearbody z. clear E F B EF BX BY B1 B2.
  set (a := B2R x) in *. set (b := B2R y) in *. clearbody a b. pose proof u53_val as UV. pose proof u53_pos as [U0 _].
  set (P := Rabs (r / s)). assert (P0 : 0 <= P) by apply Rabs_pos. assert (PE : P * Rabs s = Rabs r) by (unfold P; rewrite <- Rabs_mult; f_equal; field; exact S0).
  pose proof (Rabs_pos_lt _ S0) as PS. pose proof (Rabs_pos_lt _ Y0) as PB.
  (* (a/b - r/s) * b = (a - r) - (r/s) * (b - s) *)
  assert (UP : 0 <= u53 * P) by (apply Rmult_le_pos; lra).
  assert (BS : Rabs s <= (1 + / 1024 / 1024) * Rabs b).
  { assert (Rabs s <= Rabs b + Rabs (b - s)) by (replace s with (b - (b - s)) at 1 by ring; eapply Rle_trans; [apply Rabs_triang|]; rewrite Rabs_Ropp; lra).
    assert (j2 * u53 * Rabs s <= / 1024 / 1024 / 2 * Rabs s) by (apply Rmult_le_compat_r; [lra|]; rewrite UV; lra). lra. }
  assert (D : Rabs (a / b - r / s) <= (j1 + j2 + / 8) * (u53 * P)).
  { apply Rmult_le_reg_r with (Rabs b); [exact PB|]. rewrite <- Rabs_mult.
    replace ((a / b - r / s) * b) with ((a - r) - (r / s) * (b - s)) by (field; auto).
    unfold Rminus at 1. eapply Rle_trans; [apply Rabs_triang|]. rewrite Rabs_Ropp, Rabs_mult. fold P.
    assert (T1 : Rabs (a - r) <= j1 * (u53 * P) * Rabs s) by (eapply Rle_trans; [exact E1|]; rewrite <- PE; right; ring).
    assert (T2 : P * Rabs (b - s) <= j2 * (u53 * P) * Rabs s).
    { replace (j2 * (u53 * P) * Rabs s) with (P * (j2 * u53 * Rabs s)) by ring. apply Rmult_le_compat_l; assumption. }
    apply Rle_trans with ((j1 + j2) * (u53 * P) * Rabs s); [lra|].
    apply Rle_trans with ((j1 + j2) * (u53 * P) * ((1 + / 1024 / 1024) * Rabs b)).
    - apply Rmult_le_compat_l; [apply Rmult_le_pos; lra|exact BS].
    - rewrite <- Rmult_assoc. apply Rmult_le_compat_r; [lra|].
      replace ((j1 + j2) * (u53 * P) * (1 + / 1024 / 1024)) with ((j1 + j2) * (1 + / 1024 / 1024) * (u53 * P)) by ring.
      apply Rmult_le_compat_r; [exact UP|]. lra. }
  assert (DA : Rabs (a / b) <= P + (j1 + j2 + / 8) * (u53 * P)).
  { replace (a / b) with (r / s + (a / b - r / s)) by ring. eapply Rle_trans; [apply Rabs_triang|]. fold P. lra. }
  assert (DB : (j1 + j2 + / 8) * (u53 * P) <= / 8 * P).
  { rewrite <- Rmult_assoc. apply Rmult_le_compat_r; [exact P0|]. rewrite UV. lra. }
  replace (z - r / s) with ((z - a / b) + (a / b - r / s)) by ring. eapply Rle_trans; [apply Rabs_triang|].
  assert (2 * u53 * Rabs (a / b) <= 2 * u53 * (P + / 8 * P)) by (apply Rmult_le_compat_l; lra). lra.
Qed.

(** ** Lengths *)

Definition unit_near (r : R) (x : f64) : Prop := between 5 r /\ rel 8 r x.

Lemma between_5 : forall r, / 32 <= r <= 32 -> between 5 r.
Proof.
  intros r H. unfold between. rewrite Rabs_pos_eq by lra. change (bpow radix2 5) with 32. change (bpow radix2 (- 5)) with (/ 32). exact H.
Qed.
Lemma lit_rel : rel 2 25.4 (lit 254 10).
Proof.
  destruct (f_of_Z_exact 254) as [F1 E1]; [lia|]. destruct (f_of_Z_exact 10) as [F2 E2]; [lia|].
  assert (Q : B2R (f_of_Z 254) / B2R (f_of_Z 10) = 25.4) by (rewrite E1, E2; lra).
  unfold lit. destruct (fdiv_val (f_of_Z 254) (f_of_Z 10)) as [F E]; [exact F1|rewrite E2; lra| |].
  - rewrite Q, Rabs_pos_eq by lra. apply Rle_trans with (bpow radix2 5); [change (bpow radix2 5) with 32; lra|apply bpow_le; lia].
  - split; [exact F|]. rewrite E, Q. apply rne_rel. apply (between_le 5); [lia|]. apply between_5. lra.
Qed.
Lemma length_unit_near : alike unit_near length_unit flength_unit.
Proof.
  assert (Z : forall z, (Z.abs z <= 100)%Z -> rel 0 (IZR z) (f_of_Z z)).
  { intros z Hz. destruct (f_of_Z_exact z) as [F E]; [lia|]. rewrite <- E. apply rel_exact. exact F. }
  assert (O : rel 8 1 fone) by (destruct one_value as [F E]; rewrite <- E; apply (rel_le 0); [lra|apply rel_exact, F]).
  pose proof lit_rel as IN. change (lit 254 10) with f_INCH in IN.
  assert (PT : rel 5 (25.4 / 72) f_PT).
  { unfold f_PT. replace 5 with (2 + 0 + 3) by ring. apply (rel_div 2 0 5 7); try lra; try lia; [apply between_5; lra| |exact IN|apply (Z 72%Z); lia].
    unfold between. rewrite Rabs_pos_eq by lra. change (/ 128 <= 72 <= 128). lra. }
  assert (PC : rel 8 (25.4 / 72 * 12) (fmul f_PT (f_of_Z 12))).
  { replace 8 with (5 + 0 + 3) by ring. apply (rel_mul 5 0 5 5); try lra; try lia; [apply between_5; lra|apply between_5; lra|exact PT|apply (Z 12%Z); lia]. }
  unfold length_unit, flength_unit, INCH, PX, PathLex.PT, INCH.
  repeat (apply alike_alt); apply alike_pvalue; (split; [apply between_5; lra|]); try exact O; try exact PC; try (eapply rel_le; [|eassumption]; lra).
  eapply rel_le; [|apply (Z 10%Z)]; [lra|lia].
Qed.

Definition length_rounds (r : R) (x : f64) : Prop := between 300 r -> rel 13 r x.

Lemma physical_length_near : alike length_rounds physical_length fphysical_length.
Proof.
  unfold physical_length, fphysical_length.
  apply (alike_pmap _ _ _ _ (both eq (both rounds_to (both eq (maybe unit_near))))).
  - apply alike_pair; [apply alike_refl|]. apply alike_pair; [apply fnumber_alike|]. apply alike_pair; [apply alike_refl|].
    apply alike_opt, alike_terminated, length_unit_near.
  - intros (z & v & w & u) (z' & fv & w' & fu) (_ & R & _ & U). cbn [fst snd] in *. unfold length_rounds.
    destruct u as [u|], fu as [fu|]; cbn [maybe] in U; try contradiction.
    + destruct U as [BU U]. intros B. assert (U0 : u <> 0) by exact (between_nonzero _ _ BU).
      assert (BV : between 305 v).
      { replace v with (v * u / u) by (field; exact U0). apply (between_div 300 5); assumption. }
      replace 13 with (2 + 8 + 3) by ring. apply (rel_mul 2 8 305 5); try lra; try lia; auto. apply rel_rounds; [|exact R]. apply (between_le 305); [lia|exact BV].
    + intros B. apply (rel_le 2); [lra|]. apply rel_rounds; [|exact R]. apply (between_le 300); [lia|exact B].
Qed.

Lemma length_near : forall s w, parse_length s = Some w -> between 300 w -> exists x, fparse_length s = Some x /\ rel 13 w x.
Proof.
  intros s w E B. unfold parse_length, fparse_length in *. pose proof (physical_length_near s) as A.
  destruct (physical_length s) as [[r v]|]; [|discriminate]. injection E as ->. destruct (fphysical_length s) as [[r' x]|]; [|contradiction].
  destruct A as [_ A]. exists x. auto.
Qed.

(** ** The scale of an svg element *)

Definition boxes_near (b : R * R * R * R) (f : f64 * f64 * f64 * f64) : Prop := both (both (both rounds_to rounds_to) rounds_to) rounds_to b f.

Lemma scale_near : forall w h bw bh fw fh fbw fbh M, between 300 w -> between 300 h -> between 300 bw -> between 300 bh ->
  rel 13 w fw -> rel 13 h fh -> rounds_to bw fbw -> rounds_to bh fbh -> 1 <= M -> Rabs (w / bw) <= M -> Rabs (h / bh) <= M ->
  tr_near 18 M 0 (fscale_xy (fdiv fw fbw) (fdiv fh fbh)) (tscale_xy (w / bw) (h / bh)).
Proof.
  intros w h bw bh fw fh fbw fbh M BW BH BBW BBH RW RH RBW RBH M1 MW MH.
  assert (A : rel 18 (w / bw) (fdiv fw fbw)).
  { replace 18 with (13 + 2 + 3) by ring. apply (rel_div 13 2 300 300); try lra; try lia; auto. apply rel_rounds; [|exact RBW]. apply (between_le 300); [lia|assumption]. }
  assert (B : rel 18 (h / bh) (fdiv fh fbh)).
  { replace 18 with (13 + 2 + 3) by ring. apply (rel_div 13 2 300 300); try lra; try lia; auto. apply rel_rounds; [|exact RBH]. apply (between_le 300); [lia|assumption]. }
  destruct A as [FA EA], B as [FB EB]. destruct zero_value as [Z1 Z2]. pose proof u53_pos as [U0 _].
  assert (18 * u53 * Rabs (w / bw) <= 18 * u53 * M) by (apply Rmult_le_compat_l; lra).
  assert (18 * u53 * Rabs (h / bh) <= 18 * u53 * M) by (apply Rmult_le_compat_l; lra).
  assert (0 <= u53 * M) by (apply Rmult_le_pos; lra).
  split; constructor; cbn [fscale_xy tscale_xy fm0 fm1 fm2 fm3 fm4 fm5 m0 m1 m2 m3 m4 m5]; auto; rewrite ?Z2, ?Rminus_0_r, ?Rabs_R0; lra.
Qed.

(** Without a view box the scale is 1 in both. *)
Lemma scale_one : forall w h fw fh, between 300 w -> between 300 h -> rel 13 w fw -> rel 13 h fh ->
  tr_near 18 1 0 (fscale_xy (fdiv fw fw) (fdiv fh fh)) (tscale_xy (w / w) (h / h)).
Proof.
  assert (O : forall w fw, between 300 w -> rel 13 w fw -> w / w = 1 /\ is_finite (fdiv fw fw) = true /\ B2R (fdiv fw fw) = 1).
  { intros w fw B R. assert (BX := rel_between 13 _ _ _ ltac:(lra) B R). destruct R as [F _].
    assert (W0 : w <> 0) by exact (between_nonzero _ _ B).
    assert (X0 : B2R fw <> 0) by exact (between_nonzero _ _ BX).
    split; [field; exact W0|]. assert (Q : B2R fw / B2R fw = 1) by (field; exact X0).
    destruct (fdiv_val fw fw F X0) as [F1 E1].
    - rewrite Q, Rabs_R1. change 1 with (bpow radix2 0). apply bpow_le. lia.
    - split; [exact F1|]. rewrite E1, Q. destruct one_value as [_ <-]. unfold rne. apply round_generic; [typeclasses eauto|]. rewrite bexp_flt. apply generic_format_B2R. }
  intros w h fw fh BW BH RW RH. destruct (O w fw BW RW) as (-> & F1 & E1). destruct (O h fh BH RH) as (-> & F2 & E2).
  destruct zero_value as [Z1 Z2]. pose proof u53_pos as [U0 _].
  split; constructor; cbn [fscale_xy tscale_xy fm0 fm1 fm2 fm3 fm4 fm5 m0 m1 m2 m3 m4 m5]; auto;
    rewrite ?E1, ?E2, ?Z2, ?Rminus_0_r, ?Rminus_eq_0, ?Rabs_R0, ?Rabs_R1; lra.
Qed.
