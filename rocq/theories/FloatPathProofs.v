(** Rounding errors of transforms and of path building: the binary64 model of
    FloatPath.v against the real model of PathBuild.v. *)
From Coq Require Import ZArith Reals List Bool NArith Arith Lia Lra Psatz Ascii String.
From Flocq Require Import Core BinarySingleNaN.
From Verif Require Import Base Chars Floats FloatProofs FloatScale FloatErr ApproxCurve DrawCurves FloatPath
  Coords Curves PathBuild BuildProofs PropsBuild.
Import ListNotations.
Open Scope R_scope.

(** The real number and the real objects a binary64 object stands for. *)
Definition rv (v : fvec) : vec := mk_vec (B2R (fx v)) (B2R (fy v)).
Definition rtr (t : ftransform) : transform :=
  mk_tr (B2R (fm0 t)) (B2R (fm1 t)) (B2R (fm2 t)) (B2R (fm3 t)) (B2R (fm4 t)) (B2R (fm5 t)).
Definition rcmds (cmds : list (char * list f64)) : list (char * list R) :=
  map (fun c => (fst c, map B2R (snd c))) cmds.

Definition box (P : R) (r : vec) : Prop := Rabs (vx r) <= P /\ Rabs (vy r) <= P.
Definition nv (k Q : R) (p : fvec) (r : vec) : Prop := nr k Q (vx r) (fx p) /\ nr k Q (vy r) (fy p).

(** A transform with finite entries, the first four at most [S], the translation at most [T]. *)
Definition tr_ok (S T : R) (t : ftransform) : Prop :=
  Forall (fun m => is_finite m = true /\ Rabs (B2R m) <= S) [fm0 t; fm1 t; fm2 t; fm3 t] /\
  Forall (fun m => is_finite m = true /\ Rabs (B2R m) <= T) [fm4 t; fm5 t].

(** [p] is finite and no coordinate is further than [E] from that of [r]. *)
Definition within (E : R) (p : fvec) (r : vec) : Prop :=
  is_finite (fx p) = true /\ is_finite (fy p) = true /\
  Rabs (B2R (fx p) - vx r) <= E /\ Rabs (B2R (fy p) - vy r) <= E.

Lemma nv_within : forall k Q p r, nv k Q p r -> within (k * (u53 * Q)) p r.
Proof. intros k Q p r [[F1 A1] [F2 A2]]. repeat split; auto. Qed.

Lemma within_le : forall E E' p r, E <= E' -> within E p r -> within E' p r.
Proof. intros E E' p r H (A & B & C & D). repeat split; auto; lra. Qed.

Lemma nv_le : forall k k' Q p r, 0 <= Q -> k <= k' -> nv k Q p r -> nv k' Q p r.
Proof. intros k k' Q p r HQ H [A B]. split; eapply nr_le; eauto. Qed.

Lemma nv_exact : forall Q p, is_finite (fx p) = true -> is_finite (fy p) = true -> nv 0 Q p (rv p).
Proof. intros Q p A B. split; apply nr_exact; auto. Qed.

Lemma mul_const : forall m x r k P S, is_finite m = true -> Rabs (B2R m) <= S -> 0 <= k <= many -> 0 <= P ->
  Rabs r <= P -> S * P <= huge -> nr k P r x ->
  is_finite (fmul m x) = true /\ Rabs (B2R (fmul m x) - B2R m * r) <= (k + 2) * (u53 * (S * P)) + tiny.
Proof.
  intros m x r k P S Fm Bm Hk HP Hr Hh [Fx Ex]. pose proof huge_1000 as HH.
  pose proof (small_count k P HP ltac:(lra)) as SC. pose proof (abs_near _ _ _ Ex) as AX.
  assert (S0 : 0 <= S) by (pose proof (Rabs_pos (B2R m)); lra).
  assert (SP : 0 <= S * P) by (apply Rmult_le_pos; lra).
  assert (PR : Rabs (B2R m * B2R x) <= 9 / 8 * (S * P)).
  { rewrite Rabs_mult. apply Rle_trans with (S * (9 / 8 * P)); [|lra]. apply Rmult_le_compat; try apply Rabs_pos; lra. }
  destruct (fmul_rel m x Fm Fx ltac:(lra)) as [F E]. split; [exact F|].
  replace (B2R (fmul m x) - B2R m * r) with ((B2R (fmul m x) - B2R m * B2R x) + B2R m * (B2R x - r)) by ring.
  eapply Rle_trans; [apply Rabs_triang|].
  assert (D : Rabs (B2R m * (B2R x - r)) <= k * (u53 * (S * P))).
  { rewrite Rabs_mult. apply Rle_trans with (S * (k * (u53 * P))); [|lra]. apply Rmult_le_compat; try apply Rabs_pos; lra. }
  pose proof u53_pos as [U0 U1].
  assert (B : u53 * Rabs (B2R m * B2R x) <= u53 * (9 / 8 * (S * P))) by (apply Rmult_le_compat_l; lra).
  assert (0 <= u53 * (S * P)) by (apply Rmult_le_pos; lra). lra.
Qed.

Lemma apply_coord : forall m m' c x y r1 r2 k P S T, 0 <= k <= many - 20 -> 1 <= P ->
  is_finite m = true -> is_finite m' = true -> is_finite c = true ->
  Rabs (B2R m) <= S -> Rabs (B2R m') <= S -> Rabs (B2R c) <= T -> 2 * S * P + T + 1 <= huge ->
  Rabs r1 <= P -> Rabs r2 <= P -> nr k P r1 x -> nr k P r2 y ->
  nr (k + 7) (2 * S * P + T + 1) (B2R m * r1 + B2R m' * r2 + B2R c) (fadd (fadd (fmul m x) (fmul m' y)) c) /\
  Rabs (B2R m * r1 + B2R m' * r2 + B2R c) <= 2 * S * P + T + 1.
Proof.
  intros m m' c x y r1 r2 k P S T Hk HP F1 F2 F3 B1 B2 B3 Hh R1 R2 N1 N2.
  set (Q := 2 * S * P + T + 1) in *.
  assert (S0 : 0 <= S) by (pose proof (Rabs_pos (B2R m)); lra).
  assert (T0 : 0 <= T) by (pose proof (Rabs_pos (B2R c)); lra).
  assert (SP : 0 <= S * P) by (apply Rmult_le_pos; lra).
  assert (SQ : 2 * (S * P) + T + 1 = Q) by (unfold Q; ring).
  pose proof u53_pos as [U0 U1]. pose proof tiny_u as TU.
  destruct (mul_const m x r1 k P S F1 B1 ltac:(lra) ltac:(lra) R1 ltac:(lra) N1) as [A1 E1].
  destruct (mul_const m' y r2 k P S F2 B2 ltac:(lra) ltac:(lra) R2 ltac:(lra) N2) as [A2 E2].
  assert (M1 : Rabs (B2R m * r1) <= S * P) by (rewrite Rabs_mult; apply Rmult_le_compat; auto using Rabs_pos).
  assert (M2 : Rabs (B2R m' * r2) <= S * P) by (rewrite Rabs_mult; apply Rmult_le_compat; auto using Rabs_pos).
  assert (M12 : Rabs (B2R m * r1 + B2R m' * r2) <= 2 * (S * P)) by (eapply Rle_trans; [apply Rabs_triang|lra]).
  assert (X : nr (k + 3 + 2) Q (B2R m * r1 + B2R m' * r2) (fadd (fmul m x) (fmul m' y))).
  { apply nr_add_raw; auto; try lra.
    replace (B2R (fmul m x) + B2R (fmul m' y) - (B2R m * r1 + B2R m' * r2))
      with ((B2R (fmul m x) - B2R m * r1) + (B2R (fmul m' y) - B2R m' * r2)) by ring.
    eapply Rle_trans; [apply Rabs_triang|].
    assert (Y : (k + 2) * (u53 * (2 * (S * P))) <= (k + 2) * (u53 * Q)).
    { apply Rmult_le_compat_l; [lra|]. apply Rmult_le_compat_l; lra. }
    assert (Z : u53 * (2 * u53) <= u53 * Q) by (apply Rmult_le_compat_l; lra). lra. }
  assert (W : Rabs (B2R m * r1 + B2R m' * r2 + B2R c) <= Q).
  { eapply Rle_trans; [apply Rabs_triang|]. lra. }
  split; [|exact W].
  pose proof (nr_add _ c _ _ (k + 3 + 2) 0 Q ltac:(lra) ltac:(lra) W X (nr_exact Q c F3)) as Y.
  eapply nr_le; [| |exact Y]; lra.
Qed.

Definition Qof (S T P : R) : R := 2 * S * P + T + 1.

Lemma ftapply_nv : forall tr p r k P S T, tr_ok S T tr -> 0 <= k <= many - 20 -> 1 <= P -> Qof S T P <= huge ->
  nv k P p r -> box P r ->
  nv (k + 7) (Qof S T P) (ftapply tr p) (tapply (rtr tr) r) /\ box (Qof S T P) (tapply (rtr tr) r).
Proof.
  intros tr p r k P S T [A B] Hk HP Hh [N1 N2] [B1 B2].
  inversion A as [|? ? [Fa0 Ba0] A0]; subst. inversion A0 as [|? ? [Fa1 Ba1] A1]; subst.
  inversion A1 as [|? ? [Fa2 Ba2] A2]; subst. inversion A2 as [|? ? [Fa3 Ba3] _]; subst.
  inversion B as [|? ? [Fa4 Ba4] B0]; subst. inversion B0 as [|? ? [Fa5 Ba5] _]; subst.
  unfold nv, box, ftapply, tapply, rtr. cbn [fx fy vx vy m0 m1 m2 m3 m4 m5].
  destruct (apply_coord (fm0 tr) (fm2 tr) (fm4 tr) (fx p) (fy p) (vx r) (vy r) k P S T) as [C1 C2]; auto.
  destruct (apply_coord (fm1 tr) (fm3 tr) (fm5 tr) (fx p) (fy p) (vx r) (vy r) k P S T) as [C3 C4]; auto.
Qed.

Inductive seg_near (k Q : R) : segment -> curve_segment -> Prop :=
| sn_goto : forall p r, nv k Q p r -> box Q r -> seg_near k Q (SGoTo p) (GoTo r)
| sn_line : forall p r, nv k Q p r -> box Q r -> seg_near k Q (SLineTo p) (LineTo r)
| sn_close : forall p r, nv k Q p r -> box Q r -> seg_near k Q (SCloseTo p) (CloseTo r)
| sn_curve : forall p c1 c2 r r1 r2, nv k Q p r -> box Q r -> nv k (2 * Q) c1 r1 -> box (2 * Q) r1 ->
    nv k (2 * Q) c2 r2 -> box (2 * Q) r2 -> seg_near k Q (SCurveTo p c1 c2) (CurveTo r r1 r2).

Lemma seg_near_le : forall k k' Q s r, 0 <= Q -> k <= k' -> seg_near k Q s r -> seg_near k' Q s r.
Proof. intros k k' Q s r HQ H N. inversion N; subst; constructor; auto; eapply nv_le; eauto; lra. Qed.

Lemma segs_near_le : forall k k' Q s r, 0 <= Q -> k <= k' -> Forall2 (seg_near k Q) s r -> Forall2 (seg_near k' Q) s r.
Proof. intros k k' Q s r HQ H N. induction N; constructor; auto. eapply seg_near_le; eauto. Qed.

Lemma nv_add : forall p q r1 r2 a b P, 1 <= P <= huge -> a + b <= many -> box P (vadd r1 r2) ->
  nv a P p r1 -> nv b P q r2 -> nv (a + b + 2) P (fvadd p q) (vadd r1 r2).
Proof.
  intros p q r1 r2 a b P HP Ha [B1 B2] [A1 A2] [C1 C2]. cbn [vadd vx vy] in *.
  split; apply nr_add; auto.
Qed.

Lemma nv_sub2 : forall p q r1 r2 a Q, 1 <= Q -> 2 * Q <= huge -> a <= many -> box Q r1 -> box Q r2 ->
  nv a Q p r1 -> nv a Q q r2 -> nv (a + 2) (2 * Q) (fvsub p q) (vsub r1 r2) /\ box (2 * Q) (vsub r1 r2).
Proof.
  intros p q r1 r2 a Q HQ Hh Ha [B1 B2] [B3 B4] [[F1 A1] [F2 A2]] [[F3 A3] [F4 A4]].
  assert (X : box (2 * Q) (vsub r1 r2)).
  { split; cbn [vsub vx vy]; unfold Rminus; (eapply Rle_trans; [apply Rabs_triang|]); rewrite Rabs_Ropp; lra. }
  split; [|exact X]. destruct X as [X1 X2]. cbn [vsub vx vy] in *. split; cbn [vsub fvsub vx vy fx fy].
  - apply nr_sub_raw; auto; try lra.
    replace (B2R (fx p) - B2R (fx q) - (vx r1 - vx r2)) with ((B2R (fx p) - vx r1) + - (B2R (fx q) - vx r2)) by ring.
    eapply Rle_trans; [apply Rabs_triang|]. rewrite Rabs_Ropp. lra.
  - apply nr_sub_raw; auto; try lra.
    replace (B2R (fy p) - B2R (fy q) - (vy r1 - vy r2)) with ((B2R (fy p) - vy r1) + - (B2R (fy q) - vy r2)) by ring.
    eapply Rle_trans; [apply Rabs_triang|]. rewrite Rabs_Ropp. lra.
Qed.

Lemma two_thirds_value : is_finite two_thirds = true /\ 0 <= B2R two_thirds <= 1 /\ Rabs (B2R two_thirds - 2 / 3) <= u53.
Proof.
  split; [vm_compute; reflexivity|].
  assert (V : B2SF two_thirds = SpecFloat.S754_finite false 6004799503160661 (-53)) by (vm_compute; reflexivity).
  rewrite <- SF2R_B2SF, V. cbn [SF2R cond_Zopp]. unfold F2R. cbn [Fnum Fexp].
  change (bpow radix2 (-53)) with (/ IZR (2 ^ 53)). change (2 ^ 53)%Z with 9007199254740992%Z. rewrite u53_val.
  split; [lra|]. apply Rabs_le. lra.
Qed.

Lemma nr_two_thirds : forall x r a Q, 1 <= Q <= huge -> 0 <= a <= many - 20 -> Rabs r <= Q -> nr a Q r x ->
  nr (a + 4) Q (r * (2 / 3)) (fmul x two_thirds).
Proof.
  intros x r a Q HQ Ha Hr [F E]. destruct two_thirds_value as (F2 & B2 & E2).
  eapply nr_le; [| |apply (nr_mul_raw x two_thirds (r * (2 / 3)) (a + 1) Q)]; auto; try lra.
  - rewrite Rabs_mult, (Rabs_right (2 / 3)) by lra. lra.
  - replace (B2R x * B2R two_thirds - r * (2 / 3)) with ((B2R x - r) * B2R two_thirds + r * (B2R two_thirds - 2 / 3)) by ring.
    eapply Rle_trans; [apply Rabs_triang|]. rewrite !Rabs_mult, (Rabs_right (B2R two_thirds)) by lra.
    assert (A : Rabs (B2R x - r) * B2R two_thirds <= a * (u53 * Q) * 1).
    { apply Rmult_le_compat; try lra. apply Rabs_pos. }
    assert (B : Rabs r * Rabs (B2R two_thirds - 2 / 3) <= Q * u53) by (apply Rmult_le_compat; auto using Rabs_pos).
    lra.
Qed.

Lemma nv_two_thirds : forall p r a Q, 1 <= Q <= huge -> 0 <= a <= many - 20 -> box Q r -> nv a Q p r ->
  nv (a + 4) Q (fvmul p two_thirds) (vscale r (2 / 3)) /\ box Q (vscale r (2 / 3)).
Proof.
  intros p r a Q HQ Ha [B1 B2] [N1 N2]. split.
  - split; cbn [fvmul vscale fx fy vx vy]; apply nr_two_thirds; auto.
  - split; cbn [vscale vx vy]; rewrite Rabs_mult, (Rabs_right (2 / 3)) by lra; lra.
Qed.

(** What every step of path building needs. *)
Record setting (S T P : R) (tr : ftransform) : Prop := {
  se_tr : tr_ok S T tr; se_P : 1 <= P <= huge; se_Q : 2 * Qof S T P <= huge }.

Lemma setting_Q : forall S T P tr, setting S T P tr -> 1 <= Qof S T P.
Proof.
  intros S T P tr [[A B] HP _]. unfold Qof.
  inversion A as [|? ? [_ Ba0] A0]; subst. inversion B as [|? ? [_ Ba4] B0]; subst.
  pose proof (Rabs_pos (B2R (fm0 tr))). pose proof (Rabs_pos (B2R (fm4 tr))).
  assert (0 <= S * P) by (apply Rmult_le_pos; lra). lra.
Qed.

(** The arguments are those of the real model up to [w - 2] units: each costs [w]. *)
Definition args_ok (w P : R) (args : list f64) (rargs : list R) : Prop := Forall2 (fun a r => nr (w - 2) P r a) args rargs.

Lemma args_exact : forall P args, Forall (fun a => is_finite a = true) args -> args_ok 2 P args (map B2R args).
Proof.
  intros P args H. unfold args_ok. induction H as [|a args F H IH]; cbn [map]; constructor; [|exact IH].
  replace (2 - 2) with 0 by ring. apply nr_exact, F.
Qed.
Definition bounded (P : R) (l : list R) : Prop := Forall (fun a => Rabs a <= P) l.
Definition count (args : list f64) : R := INR (List.length args).

Lemma args_length : forall w P args rargs, args_ok w P args rargs -> List.length args = List.length rargs.
Proof. intros w P args rargs H. induction H; cbn [List.length]; congruence. Qed.

Lemma count_cons : forall a args, count (a :: args) = count args + 1.
Proof. intros. unfold count. cbn [List.length]. apply S_INR. Qed.
Lemma count_pos : forall args, 0 <= count args.
Proof. intros. apply pos_INR. Qed.

Lemma nv_moved : forall w rel pos r x y rx ry k P, 1 <= P <= huge -> 2 <= w -> 0 <= k -> k + w <= many - 20 -> nr (w - 2) P rx x -> nr (w - 2) P ry y ->
  nv k P pos r -> box P (moved rel r (mk_vec rx ry)) ->
  nv (k + w) P (fmoved rel pos (mk_fvec x y)) (moved rel r (mk_vec rx ry)).
Proof.
  intros w rel pos r x y rx ry k P HP Hw Hk Hm Fx Fy N B. assert (XY : nv (w - 2) P (mk_fvec x y) (mk_vec rx ry)) by (split; assumption).
  destruct rel; cbn [moved fmoved] in *.
  - eapply nv_le; [| |apply (nv_add pos (mk_fvec x y) r (mk_vec rx ry) k (w - 2) P)]; auto; lra.
  - eapply nv_le; [| |exact XY]; lra.
Qed.

Lemma point_near : forall S T P tr p r k k', setting S T P tr -> 0 <= k <= many - 20 -> k + 16 <= k' ->
  nv k P p r -> box P r ->
  nv k' (Qof S T P) (ftapply tr p) (tapply (rtr tr) r) /\ box (Qof S T P) (tapply (rtr tr) r).
Proof.
  intros S T P tr p r k k' HS Hk Hk' N B. pose proof (setting_Q _ _ _ _ HS). destruct HS as [H1 H2 H3].
  destruct (ftapply_nv tr p r k P S T H1 Hk ltac:(lra) ltac:(lra) N B) as [A C]. split; [|exact C].
  eapply nv_le; [| |exact A]; lra.
Qed.

Lemma pair_ind_f : forall (Pr : list f64 -> Prop), Pr [] -> (forall x, Pr [x]) ->
  (forall x y l, Pr l -> Pr (x :: y :: l)) -> forall l, Pr l.
Proof.
  intros Pr H0 H1 H2. assert (G : forall l, Pr l /\ forall x, Pr (x :: l)).
  { induction l as [|y l [A B]]; split; auto. }
  intros l. apply G.
Qed.

Lemma lines_near : forall w S T P tr (rel : bool), 2 <= w -> setting S T P tr -> forall args rargs pos r k,
  args_ok w P args rargs -> 0 <= k -> k + w * count args <= many - 40 -> nv k P pos r -> box P r ->
  bounded P (if rel then abs_pairs 0 0 r rargs else rargs) ->
  let k' := k + w * count args in
  let f := fbuild_lines rel tr pos args in let g := build_lines rel (rtr tr) r rargs in
  nv k' P (fst f) (fst g) /\ box P (fst g) /\ Forall2 (seg_near (k' + 16) (Qof S T P)) (snd f) (snd g).
Proof.
  intros w S T P tr rel Hw HS. pose proof (setting_Q _ _ _ _ HS) as HQ. pose proof (se_P _ _ _ _ HS) as HP.
  induction args as [|x|x y args IH] using pair_ind_f; intros rargs pos r k HA Hk Hm HN HB HBd k'; cbv zeta.
  - repeat match goal with K : args_ok _ _ _ _ |- _ => inversion K; clear K; subst | K : Forall2 _ [] _ |- _ => inversion K; clear K; subst end.
    cbn [fbuild_lines build_lines fst snd]. split; [|split; [exact HB|constructor]].
    eapply nv_le; [| |exact HN]; unfold k', count; cbn; lra.
  - repeat match goal with K : args_ok _ _ _ _ |- _ => inversion K; clear K; subst | K : Forall2 _ [] _ |- _ => inversion K; clear K; subst end.
    cbn [fbuild_lines build_lines fst snd]. split; [|split; [exact HB|constructor]].
    eapply nv_le; [| |exact HN]; unfold k', count; cbn; lra.
  - inversion HA as [|? rx ? rargs1 Fx HA1]; subst. inversion HA1 as [|? ry ? rargs2 Fy HA2]; subst. clear HA HA1. rename rargs2 into rargs.
    pose proof (count_pos args) as C0. pose proof (Rmult_le_pos w _ ltac:(lra) C0) as WC. unfold k' in *. rewrite !count_cons in *.
    assert (X : box P (moved rel r (mk_vec rx ry)) /\
      bounded P (if rel then abs_pairs 0 0 (moved rel r (mk_vec rx ry)) rargs else rargs)).
    { destruct rel; cbn [abs_pairs] in HBd; inversion HBd as [|? ? Bx HBd1]; subst; inversion HBd1 as [|? ? By HBd2]; subst;
        split; auto; split; auto. }
    destruct X as [X1 X2].
    pose proof (nv_moved w rel pos r x y rx ry k P HP Hw Hk ltac:(lra) Fx Fy HN X1) as N1.
    specialize (IH rargs _ _ (k + w) HA2 ltac:(lra) ltac:(lra) N1 X1 X2). cbv zeta in IH.
    cbn [fbuild_lines build_lines map].
    destruct (fbuild_lines rel tr (fmoved rel pos (mk_fvec x y)) args) as [e segs].
    destruct (build_lines rel (rtr tr) (moved rel r (mk_vec rx ry)) rargs) as [re rsegs].
    cbn [fst snd] in *. destruct IH as (I1 & I2 & I3).
    split; [eapply nv_le; [| |exact I1]; lra|]. split; [exact I2|]. constructor.
    + destruct (point_near S T P tr _ _ (k + w) (k + w * (count args + 1 + 1) + 16) HS ltac:(lra) ltac:(lra) N1 X1) as [A B].
      constructor; auto.
    + eapply segs_near_le; [| |exact I3]; lra.
Qed.

Lemma vertical_near : forall w S T P tr (rel : bool), 2 <= w -> setting S T P tr -> forall args rargs pos r k,
  args_ok w P args rargs -> 0 <= k -> k + w * count args <= many - 40 -> nv k P pos r -> box P r ->
  bounded P (if rel then abs_sums (vy r) rargs else rargs) ->
  let k' := k + w * count args in
  let f := fbuild_vertical rel tr pos args in let g := build_vertical rel (rtr tr) r rargs in
  nv k' P (fst f) (fst g) /\ box P (fst g) /\ Forall2 (seg_near (k' + 16) (Qof S T P)) (snd f) (snd g).
Proof.
  intros w S T P tr rel Hw HS. pose proof (setting_Q _ _ _ _ HS) as HQ. pose proof (se_P _ _ _ _ HS) as HP.
  induction args as [|y args IH]; intros rargs pos r k HA Hk Hm HN HB HBd k'; cbv zeta.
  - repeat match goal with K : args_ok _ _ _ _ |- _ => inversion K; clear K; subst | K : Forall2 _ [] _ |- _ => inversion K; clear K; subst end.
    cbn [fbuild_vertical build_vertical fst snd]. split; [|split; [exact HB|constructor]].
    eapply nv_le; [| |exact HN]; unfold k', count; cbn; lra.
  - inversion HA as [|? ry ? rargs1 Fy HA2]; subst. clear HA. rename rargs1 into rargs.
    pose proof (count_pos args) as C0. pose proof (Rmult_le_pos w _ ltac:(lra) C0) as WC. unfold k' in *. rewrite !count_cons in *.
    set (r' := mk_vec (vx r) (if rel then vy r + ry else ry)).
    set (p' := mk_fvec (fx pos) (if rel then fadd (fy pos) y else y)).
    assert (X : box P r' /\ bounded P (if rel then abs_sums (vy r') rargs else rargs)).
    { destruct HB as [HB1 HB2]. unfold r'. destruct rel; cbn [abs_sums] in HBd; inversion HBd as [|? ? By HBd2]; subst; split; auto; split; auto. }
    destruct X as [X1 X2].
    assert (N1 : nv (k + w) P p' r').
    { destruct HN as [N1 N2]. split; unfold p', r'; cbn [fx fy vx vy].
      - eapply nr_le; [| |exact N1]; lra.
      - destruct rel.
        + eapply nr_le; [| |apply (nr_add (fy pos) y (vy r) ry k (w - 2) P)]; auto; try lra; apply X1.
        + eapply nr_le; [| |exact Fy]; lra. }
    specialize (IH rargs _ _ (k + w) HA2 ltac:(lra) ltac:(lra) N1 X1 X2). cbv zeta in IH.
    cbn [fbuild_vertical build_vertical map]. fold p'. fold r'.
    destruct (fbuild_vertical rel tr p' args) as [e segs].
    destruct (build_vertical rel (rtr tr) r' rargs) as [re rsegs].
    cbn [fst snd] in *. destruct IH as (I1 & I2 & I3).
    split; [eapply nv_le; [| |exact I1]; lra|]. split; [exact I2|]. constructor.
    + destruct (point_near S T P tr _ _ (k + w) (k + w * (count args + 1) + 16) HS ltac:(lra) ltac:(lra) N1 X1) as [A B].
      constructor; auto.
    + eapply segs_near_le; [| |exact I3]; lra.
Qed.

Lemma horizontal_near : forall w S T P tr (rel : bool), 2 <= w -> setting S T P tr -> forall args rargs pos r k,
  args_ok w P args rargs -> 0 <= k -> k + w * count args <= many - 40 -> nv k P pos r -> box P r ->
  bounded P (if rel then abs_sums (vx r) rargs else rargs) ->
  let k' := k + w * count args in
  let f := fbuild_horizontal rel tr pos args in let g := build_horizontal rel (rtr tr) r rargs in
  nv k' P (fst f) (fst g) /\ box P (fst g) /\ Forall2 (seg_near (k' + 16) (Qof S T P)) (snd f) (snd g).
Proof.
  intros w S T P tr rel Hw HS. pose proof (setting_Q _ _ _ _ HS) as HQ. pose proof (se_P _ _ _ _ HS) as HP.
  induction args as [|x args IH]; intros rargs pos r k HA Hk Hm HN HB HBd k'; cbv zeta.
  - repeat match goal with K : args_ok _ _ _ _ |- _ => inversion K; clear K; subst | K : Forall2 _ [] _ |- _ => inversion K; clear K; subst end.
    cbn [fbuild_horizontal build_horizontal fst snd]. split; [|split; [exact HB|constructor]].
    eapply nv_le; [| |exact HN]; unfold k', count; cbn; lra.
  - inversion HA as [|? rx ? rargs1 Fx HA2]; subst. clear HA. rename rargs1 into rargs.
    pose proof (count_pos args) as C0. pose proof (Rmult_le_pos w _ ltac:(lra) C0) as WC. unfold k' in *. rewrite !count_cons in *.
    set (r' := mk_vec (if rel then vx r + rx else rx) (vy r)).
    set (p' := mk_fvec (if rel then fadd (fx pos) x else x) (fy pos)).
    assert (X : box P r' /\ bounded P (if rel then abs_sums (vx r') rargs else rargs)).
    { destruct HB as [HB1 HB2]. unfold r'. destruct rel; cbn [abs_sums] in HBd; inversion HBd as [|? ? By HBd2]; subst; split; auto; split; auto. }
    destruct X as [X1 X2].
    assert (N1 : nv (k + w) P p' r').
    { destruct HN as [N1 N2]. split; unfold p', r'; cbn [fx fy vx vy].
      - destruct rel.
        + eapply nr_le; [| |apply (nr_add (fx pos) x (vx r) rx k (w - 2) P)]; auto; try lra; apply X1.
        + eapply nr_le; [| |exact Fx]; lra.
      - eapply nr_le; [| |exact N2]; lra. }
    specialize (IH rargs _ _ (k + w) HA2 ltac:(lra) ltac:(lra) N1 X1 X2). cbv zeta in IH.
    cbn [fbuild_horizontal build_horizontal map]. fold p'. fold r'.
    destruct (fbuild_horizontal rel tr p' args) as [e segs].
    destruct (build_horizontal rel (rtr tr) r' rargs) as [re rsegs].
    cbn [fst snd] in *. destruct IH as (I1 & I2 & I3).
    split; [eapply nv_le; [| |exact I1]; lra|]. split; [exact I2|]. constructor.
    + destruct (point_near S T P tr _ _ (k + w) (k + w * (count args + 1) + 16) HS ltac:(lra) ltac:(lra) N1 X1) as [A B].
      constructor; auto.
    + eapply segs_near_le; [| |exact I3]; lra.
Qed.

(** A point of a curve command: an argument pair from the current point or from the origin. *)
Lemma nv_offset : forall w rel pos r x y rx ry k P, 1 <= P <= huge -> 2 <= w -> 0 <= k -> k + w <= many - 20 -> nr (w - 2) P rx x -> nr (w - 2) P ry y ->
  nv k P pos r -> box P (vadd (mk_vec rx ry) (offset rel r)) ->
  nv (k + w) P (fvadd (mk_fvec x y) (foffset rel pos)) (vadd (mk_vec rx ry) (offset rel r)).
Proof.
  intros w rel pos r x y rx ry k P HP Hw Hk Hm Fx Fy N B.
  assert (O : nv k P (foffset rel pos) (offset rel r)).
  { destruct rel; cbn [foffset offset]; [exact N|]. unfold fvzero.
    assert (Z0 : B2R fzero = 0) by (vm_compute; reflexivity).
    split; cbn [fx fy vx vy]; (split; [reflexivity|]); rewrite Z0, Rminus_0_r, Rabs_R0;
      (apply Rmult_le_pos; [lra|apply Rmult_le_pos; [pose proof u53_pos; lra|lra]]). }
  eapply nv_le; [| |apply (nv_add (mk_fvec x y) _ (mk_vec rx ry) _ (w - 2) k P)]; auto; try lra.
  split; assumption.
Qed.

Lemma box_pair : forall (rel : bool) r x y P, Rabs (if rel then vx r + x else x) <= P -> Rabs (if rel then vy r + y else y) <= P ->
  box P (vadd (mk_vec x y) (offset rel r)).
Proof.
  intros rel r x y P A B. destruct rel; cbn [offset]; split; cbn [vadd vx vy]; rewrite ?Rplus_0_r, 1?Rplus_comm; auto.
Qed.

Lemma six_ind_f : forall (Pr : list f64 -> Prop), (forall l, (List.length l < 6)%nat -> Pr l) ->
  (forall x1 y1 x2 y2 x y l, Pr l -> Pr (x1 :: y1 :: x2 :: y2 :: x :: y :: l)) -> forall l, Pr l.
Proof.
  intros Pr H0 H1. assert (G : forall n l, (List.length l <= n)%nat -> Pr l).
  { induction n as [|n IH]; intros l L; [apply H0; lia|].
    destruct l as [|x1 [|y1 [|x2 [|y2 [|x [|y l]]]]]]; try (apply H0; cbn; lia). apply H1, IH. cbn in L. lia. }
  intros l. apply (G _ _ (le_n _)).
Qed.

Lemma four_ind_f : forall (Pr : list f64 -> Prop), (forall l, (List.length l < 4)%nat -> Pr l) ->
  (forall x1 y1 x y l, Pr l -> Pr (x1 :: y1 :: x :: y :: l)) -> forall l, Pr l.
Proof.
  intros Pr H0 H1. assert (G : forall n l, (List.length l <= n)%nat -> Pr l).
  { induction n as [|n IH]; intros l L; [apply H0; lia|].
    destruct l as [|x1 [|y1 [|x [|y l]]]]; try (apply H0; cbn; lia). apply H1, IH. cbn in L. lia. }
  intros l. apply (G _ _ (le_n _)).
Qed.

Lemma cubics_near : forall w S T P tr (rel : bool), 2 <= w -> setting S T P tr -> forall args rargs pos r ctl rctl k,
  args_ok w P args rargs -> 0 <= k -> k + w * count args <= many - 40 -> nv k P pos r -> box P r ->
  bounded P (if rel then abs_pairs 2 2 r rargs else rargs) ->
  let k' := k + w * count args in
  let f := fbuild_cubics rel tr pos ctl args in let g := build_cubics rel (rtr tr) r rctl rargs in
  nv k' P (fst (fst f)) (fst (fst g)) /\ box P (fst (fst g)) /\ Forall2 (seg_near (k' + 16) (Qof S T P)) (snd f) (snd g).
Proof.
  intros w S T P tr rel Hw HS. pose proof (setting_Q _ _ _ _ HS) as HQ. pose proof (se_P _ _ _ _ HS) as HP.
  pose proof (se_Q _ _ _ _ HS) as HH.
  induction args as [args L|x1 y1 x2 y2 x y args IH] using six_ind_f; intros rargs pos r ctl rctl k HA Hk Hm HN HB HBd k'; cbv zeta.
  - assert (E : fbuild_cubics rel tr pos ctl args = (pos, ctl, []) /\ build_cubics rel (rtr tr) r rctl rargs = (r, rctl, [])).
    { pose proof (args_length _ _ _ _ HA) as HL. destruct args as [|a [|b [|c [|d [|e [|g args]]]]]]; destruct rargs as [|a' [|b' [|c' [|d' [|e' [|g' rargs]]]]]];
        cbn in L, HL; try lia; split; reflexivity. }
    destruct E as [-> ->]. cbn [fst snd]. split; [|split; [exact HB|constructor]].
    pose proof (count_pos args) as C0. pose proof (Rmult_le_pos w _ ltac:(lra) C0) as WC. eapply nv_le; [| |exact HN]; unfold k'; lra.
  - inversion HA as [|? rx1 ? ra1 F1 HA1]; subst. inversion HA1 as [|? ry1 ? ra2 F2 HA2]; subst. inversion HA2 as [|? rx2 ? ra3 F3 HA3]; subst.
    inversion HA3 as [|? ry2 ? ra4 F4 HA4]; subst. inversion HA4 as [|? rx ? ra5 F5 HA5]; subst. inversion HA5 as [|? ry ? rargs F6 HA6]; subst.
    pose proof (count_pos args) as C0. pose proof (Rmult_le_pos w _ ltac:(lra) C0) as WC. unfold k' in *. rewrite !count_cons in *.
    set (off := foffset rel pos). set (roff := offset rel r).
    set (p2 := fvadd (mk_fvec x y) off). set (c1 := fvadd (mk_fvec x1 y1) off). set (c2 := fvadd (mk_fvec x2 y2) off).
    set (rp2 := vadd (mk_vec rx ry) roff). set (rc1 := vadd (mk_vec rx1 ry1) roff).
    set (rc2 := vadd (mk_vec rx2 ry2) roff).
    assert (X : box P rp2 /\ box P rc1 /\ box P rc2 /\
      bounded P (if rel then abs_pairs 2 2 rp2 rargs else rargs)).
    { destruct rel; cbn [abs_pairs] in HBd;
        repeat match goal with K : bounded P (_ :: _) |- _ => inversion K; clear K; subst
                             | K : Forall _ (_ :: _) |- _ => inversion K; clear K; subst end; cbn [vx vy] in *;
        repeat split; unfold rp2, rc1, rc2, roff; cbn [offset vadd vx vy]; rewrite ?Rplus_0_r; auto;
        try (rewrite (Rplus_comm _ (vx r)); assumption); try (rewrite (Rplus_comm _ (vy r)); assumption).
      replace (vadd (mk_vec rx ry) r) with (mk_vec (vx r + rx) (vy r + ry)); [assumption|].
      unfold vadd. cbn [vx vy]. f_equal; ring. }
    destruct X as (X1 & X2 & X3 & X4).
    pose proof (nv_offset w rel pos r x y rx ry k P HP Hw Hk ltac:(lra) F5 F6 HN X1) as N2. fold off roff p2 rp2 in N2.
    pose proof (nv_offset w rel pos r x1 y1 rx1 ry1 k P HP Hw Hk ltac:(lra) F1 F2 HN X2) as N3. fold off roff c1 rc1 in N3.
    pose proof (nv_offset w rel pos r x2 y2 rx2 ry2 k P HP Hw Hk ltac:(lra) F3 F4 HN X3) as N4. fold off roff c2 rc2 in N4.
    specialize (IH rargs p2 rp2 (Some c2) (Some rc2) (k + w) HA6 ltac:(lra) ltac:(lra) N2 X1 X4). cbv zeta in IH.
    cbn [fbuild_cubics build_cubics map]. fold off roff. fold p2 c1 c2 rp2 rc1 rc2.
    destruct (fbuild_cubics rel tr p2 (Some c2) args) as [[e ct] segs].
    destruct (build_cubics rel (rtr tr) rp2 (Some rc2) rargs) as [[re rct] rsegs].
    cbn [fst snd] in *. destruct IH as (I1 & I2 & I3).
    set (kk := k + w * (count args + 1 + 1 + 1 + 1 + 1 + 1)).
    split; [eapply nv_le; [| |exact I1]; unfold kk; lra|]. split; [exact I2|].
    destruct (point_near S T P tr p2 rp2 (k + w) (k + w + 16) HS ltac:(lra) ltac:(lra) N2 X1) as [A1 B1].
    destruct (point_near S T P tr c1 rc1 (k + w) (k + w + 16) HS ltac:(lra) ltac:(lra) N3 X2) as [A2 B2].
    destruct (point_near S T P tr c2 rc2 (k + w) (k + w + 16) HS ltac:(lra) ltac:(lra) N4 X3) as [A3 B3].
    destruct (point_near S T P tr pos r k (k + w + 16) HS ltac:(lra) ltac:(lra) HN HB) as [A4 B4].
    destruct (nv_sub2 _ _ _ _ (k + w + 16) _ HQ HH ltac:(lra) B2 B4 A2 A4) as [D1 D2].
    destruct (nv_sub2 _ _ _ _ (k + w + 16) _ HQ HH ltac:(lra) B3 B1 A3 A1) as [D3 D4].
    constructor.
    + constructor; auto; (eapply nv_le; [| |eassumption]); unfold kk; lra.
    + eapply segs_near_le; [| |exact I3]; unfold kk; lra.
Qed.

Lemma quadratics_near : forall w S T P tr (rel : bool), 2 <= w -> setting S T P tr -> forall args rargs pos r ctl rctl k,
  args_ok w P args rargs -> 0 <= k -> k + w * count args <= many - 60 -> nv k P pos r -> box P r ->
  bounded P (if rel then abs_pairs 1 1 r rargs else rargs) ->
  let k' := k + w * count args in
  let f := fbuild_quadratics rel tr pos ctl args in let g := build_quadratics rel (rtr tr) r rctl rargs in
  nv k' P (fst (fst f)) (fst (fst g)) /\ box P (fst (fst g)) /\ Forall2 (seg_near (k' + 16) (Qof S T P)) (snd f) (snd g).
Proof.
  intros w S T P tr rel Hw HS. pose proof (setting_Q _ _ _ _ HS) as HQ. pose proof (se_P _ _ _ _ HS) as HP.
  pose proof (se_Q _ _ _ _ HS) as HH.
  induction args as [args L|x1 y1 x y args IH] using four_ind_f; intros rargs pos r ctl rctl k HA Hk Hm HN HB HBd k'; cbv zeta.
  - assert (E : fbuild_quadratics rel tr pos ctl args = (pos, ctl, []) /\ build_quadratics rel (rtr tr) r rctl rargs = (r, rctl, [])).
    { pose proof (args_length _ _ _ _ HA) as HL. destruct args as [|a [|b [|c [|d args]]]]; destruct rargs as [|a' [|b' [|c' [|d' rargs]]]];
        cbn in L, HL; try lia; split; reflexivity. }
    destruct E as [-> ->]. cbn [fst snd]. split; [|split; [exact HB|constructor]].
    pose proof (count_pos args) as C0. pose proof (Rmult_le_pos w _ ltac:(lra) C0) as WC. eapply nv_le; [| |exact HN]; unfold k'; lra.
  - inversion HA as [|? rx1 ? ra1 F1 HA1]; subst. inversion HA1 as [|? ry1 ? ra2 F2 HA2]; subst. inversion HA2 as [|? rx ? ra3 F5 HA5]; subst.
    inversion HA5 as [|? ry ? rargs F6 HA6]; subst.
    pose proof (count_pos args) as C0. pose proof (Rmult_le_pos w _ ltac:(lra) C0) as WC. unfold k' in *. rewrite !count_cons in *.
    set (off := foffset rel pos). set (roff := offset rel r).
    set (p2 := fvadd (mk_fvec x y) off). set (c1 := fvadd (mk_fvec x1 y1) off).
    set (rp2 := vadd (mk_vec rx ry) roff). set (rc1 := vadd (mk_vec rx1 ry1) roff).
    assert (X : box P rp2 /\ box P rc1 /\
      bounded P (if rel then abs_pairs 1 1 rp2 rargs else rargs)).
    { destruct rel; cbn [abs_pairs] in HBd;
        repeat match goal with K : bounded P (_ :: _) |- _ => inversion K; clear K; subst
                             | K : Forall _ (_ :: _) |- _ => inversion K; clear K; subst end; cbn [vx vy] in *;
        repeat split; unfold rp2, rc1, roff; cbn [offset vadd vx vy]; rewrite ?Rplus_0_r; auto;
        try (rewrite (Rplus_comm _ (vx r)); assumption); try (rewrite (Rplus_comm _ (vy r)); assumption).
      replace (vadd (mk_vec rx ry) r) with (mk_vec (vx r + rx) (vy r + ry)); [assumption|].
      unfold vadd. cbn [vx vy]. f_equal; ring. }
    destruct X as (X1 & X2 & X4).
    pose proof (nv_offset w rel pos r x y rx ry k P HP Hw Hk ltac:(lra) F5 F6 HN X1) as N2. fold off roff p2 rp2 in N2.
    pose proof (nv_offset w rel pos r x1 y1 rx1 ry1 k P HP Hw Hk ltac:(lra) F1 F2 HN X2) as N3. fold off roff c1 rc1 in N3.
    set (last := fvadd (fvmul (fvsub c1 p2) two_thirds) p2). set (rlast := vadd (vscale (vsub rc1 rp2) (2 / 3)) rp2).
    specialize (IH rargs p2 rp2 (Some last) (Some rlast) (k + w) HA6 ltac:(lra) ltac:(lra) N2 X1 X4). cbv zeta in IH.
    cbn [fbuild_quadratics build_quadratics map]. fold off roff. fold p2 c1 rp2 rc1. fold last rlast.
    destruct (fbuild_quadratics rel tr p2 (Some last) args) as [[e ct] segs].
    destruct (build_quadratics rel (rtr tr) rp2 (Some rlast) rargs) as [[re rct] rsegs].
    cbn [fst snd] in *. destruct IH as (I1 & I2 & I3).
    set (kk := k + w * (count args + 1 + 1 + 1 + 1)).
    split; [eapply nv_le; [| |exact I1]; unfold kk; lra|]. split; [exact I2|].
    destruct (ftapply_nv tr p2 rp2 (k + w) P S T (se_tr _ _ _ _ HS) ltac:(lra) ltac:(lra) ltac:(lra) N2 X1) as [A1 B1].
    destruct (ftapply_nv tr c1 rc1 (k + w) P S T (se_tr _ _ _ _ HS) ltac:(lra) ltac:(lra) ltac:(lra) N3 X2) as [A2 B2].
    assert (HN' : nv (k + w) P pos r) by (eapply nv_le; [| |exact HN]; lra).
    destruct (ftapply_nv tr pos r (k + w) P S T (se_tr _ _ _ _ HS) ltac:(lra) ltac:(lra) ltac:(lra) HN' HB) as [A4 B4].
    destruct (nv_sub2 _ _ _ _ (k + w + 7) _ HQ HH ltac:(lra) B2 B4 A2 A4) as [D1 D2].
    destruct (nv_sub2 _ _ _ _ (k + w + 7) _ HQ HH ltac:(lra) B2 B1 A2 A1) as [D3 D4].
    destruct (nv_two_thirds _ _ (k + w + 7 + 2) (2 * Qof S T P) ltac:(lra) ltac:(lra) D2 D1) as [G1 G2].
    destruct (nv_two_thirds _ _ (k + w + 7 + 2) (2 * Qof S T P) ltac:(lra) ltac:(lra) D4 D3) as [G3 G4].
    constructor.
    + constructor; auto; (eapply nv_le; [| |eassumption]); unfold kk; lra.
    + eapply segs_near_le; [| |exact I3]; unfold kk; lra.
Qed.

(** ** Commands *)

Definition ctx_near (k P : R) (c : fpath_ctx) (rc : path_ctx) : Prop :=
  nv k P (fp_pos c) (p_pos rc) /\ box P (p_pos rc) /\ nv k P (fp_start c) (p_start rc) /\ box P (p_start rc).

Definition out_near (k k' P Q : R) (f : res (option (fpath_ctx * list segment)))
  (g : res (option (path_ctx * list curve_segment))) : Prop :=
  match f, g with
  | Ok (Some (c, s)), Ok (Some (rc, rs)) => ctx_near k P c rc /\ Forall2 (seg_near k' Q) s rs
  | Ok None, Ok None => True
  | _, _ => False
  end.

Lemma fwrong_count_args : forall n (args : list f64) (rargs : list R), List.length args = List.length rargs -> wrong_count n rargs = fwrong_count n args.
Proof. intros n args rargs H. unfold wrong_count, fwrong_count. rewrite H. reflexivity. Qed.

Lemma path_near : forall tg w S T P tr c rc cmd args rargs f k, 2 <= w -> setting S T P tr -> args_ok w P args rargs -> 0 <= k ->
  k + w * count args <= many - 60 -> is_one_of (chars "aA") cmd = false -> ctx_near k P c rc ->
  bounded P (abs_args (p_pos rc) f cmd rargs) ->
  let k' := k + w * count args in
  out_near k' (k' + 16) P (Qof S T P) (fbuild_path tg c cmd args tr f) (build_path rc cmd rargs (rtr tr) f).
Proof.
  intros tg w S T P tr c rc cmd args rargs f k Hw HS HA Hk Hm NA (N1 & B1 & N2 & B2) HB k'.
  pose proof (se_P _ _ _ _ HS) as HP. pose proof (setting_Q _ _ _ _ HS) as HQ. pose proof (count_pos args) as C0.
  pose proof (Rmult_le_pos w _ ltac:(lra) C0) as WC. pose proof (args_length _ _ _ _ HA) as HL.
  assert (N2' : nv k' P (fp_start c) (p_start rc)) by (eapply nv_le; [| |exact N2]; unfold k'; lra).
  unfold fbuild_path, build_path. rewrite !(fwrong_count_args _ args rargs HL), NA.
  destruct (is_one_of (chars "mM") cmd) eqn:M.
  { destruct (fwrong_count 2 args); [exact I|].
    destruct args as [|x [|y rest]]; destruct rargs as [|rx [|ry rrest]]; try discriminate HL.
    1,2: (split; [|constructor]; split; [eapply nv_le; [| |exact N1]; unfold k'; lra|split; [exact B1|split; [exact N2'|exact B2]]]).
    inversion HA as [|? ? ? ? Fx HA1]; subst. inversion HA1 as [|? ? ? ? Fy HA2]; subst.
    unfold k' in *. rewrite !count_cons in *. pose proof (count_pos rest) as C1. pose proof (Rmult_le_pos w _ ltac:(lra) C1) as WC1.
    set (rel := is_lower cmd). set (r' := moved (rel && negb f) (p_pos rc) (mk_vec rx ry)).
    set (p' := fmoved (rel && negb f) (fp_pos c) (mk_fvec x y)).
    assert (X : box P r' /\ bounded P (if rel then abs_pairs 0 0 r' rrest else rrest)).
    { pick M.
      - change (bounded P (if f then rx :: ry :: abs_pairs 0 0 (mk_vec rx ry) rrest
                           else abs_pairs 0 0 (p_pos rc) (rx :: ry :: rrest))) in HB.
        unfold r', rel. change (is_lower (ch "m")) with true. destruct f; cbn [andb negb moved].
        + inversion HB as [|? ? U1 HB1]; subst. inversion HB1 as [|? ? U2 HB2]; subst. split; [split; assumption|assumption].
        + cbn [abs_pairs] in HB. inversion HB as [|? ? U1 HB1]; subst. inversion HB1 as [|? ? U2 HB2]; subst.
          split; [split; assumption|assumption].
      - change (bounded P (rx :: ry :: rrest)) in HB.
        inversion HB as [|? ? U1 HB1]; subst. inversion HB1 as [|? ? U2 HB2]; subst. split; [split; assumption|assumption]. }
    destruct X as [X1 X2].
    pose proof (nv_moved w (rel && negb f) (fp_pos c) (p_pos rc) x y rx ry k P HP Hw Hk ltac:(lra) Fx Fy N1 X1) as N3. fold p' r' in N3.
    pose proof (lines_near w S T P tr rel Hw HS rest rrest p' r' (k + w) HA2 ltac:(lra) ltac:(lra) N3 X1 X2) as LN. cbv zeta in LN.
    destruct (fbuild_lines rel tr p' rest) as [e s]. destruct (build_lines rel (rtr tr) r' rrest) as [re rs].
    cbn [fst snd] in LN. destruct LN as (L1 & L2 & L3).
    destruct (point_near S T P tr p' r' (k + w) (k + w + 16) HS ltac:(lra) ltac:(lra) N3 X1) as [A B].
    split; [split; [|split; [|split]]|]; cbn [fp_pos p_pos fp_start p_start]; auto.
    - eapply nv_le; [| |exact L1]; lra.
    - eapply nv_le; [| |exact N3]; lra.
    - constructor.
      + constructor; auto. eapply nv_le; [| |exact A]; lra.
      + eapply segs_near_le; [| |exact L3]; lra. }
  destruct (is_one_of (chars "lL") cmd) eqn:L.
  { destruct (fwrong_count 2 args); [exact I|].
    assert (X : bounded P (if is_lower cmd then abs_pairs 0 0 (p_pos rc) rargs else rargs)) by (pick L; exact HB).
    pose proof (lines_near w S T P tr (is_lower cmd) Hw HS args rargs _ _ k HA Hk ltac:(lra) N1 B1 X) as LN. cbv zeta in LN.
    destruct (fbuild_lines _ tr _ args) as [e s]. destruct (build_lines _ (rtr tr) _ rargs) as [re rs].
    destruct LN as (L1 & L2 & L3). split; [split; [exact L1|split; [exact L2|split; [exact N2'|exact B2]]]|exact L3]. }
  destruct (is_one_of (chars "vV") cmd) eqn:V.
  { rewrite <- HL.
    destruct (Nat.eqb (List.length args) 0); [exact I|].
    assert (X : bounded P (if is_lower cmd then abs_sums (vy (p_pos rc)) rargs else rargs)) by (pick V; exact HB).
    pose proof (vertical_near w S T P tr (is_lower cmd) Hw HS args rargs _ _ k HA Hk ltac:(lra) N1 B1 X) as LN. cbv zeta in LN.
    destruct (fbuild_vertical _ tr _ args) as [e s]. destruct (build_vertical _ (rtr tr) _ rargs) as [re rs].
    destruct LN as (L1 & L2 & L3). split; [split; [exact L1|split; [exact L2|split; [exact N2'|exact B2]]]|exact L3]. }
  destruct (is_one_of (chars "hH") cmd) eqn:H.
  { rewrite <- HL.
    destruct (Nat.eqb (List.length args) 0); [exact I|].
    assert (X : bounded P (if is_lower cmd then abs_sums (vx (p_pos rc)) rargs else rargs)) by (pick H; exact HB).
    pose proof (horizontal_near w S T P tr (is_lower cmd) Hw HS args rargs _ _ k HA Hk ltac:(lra) N1 B1 X) as LN. cbv zeta in LN.
    destruct (fbuild_horizontal _ tr _ args) as [e s]. destruct (build_horizontal _ (rtr tr) _ rargs) as [re rs].
    destruct LN as (L1 & L2 & L3). split; [split; [exact L1|split; [exact L2|split; [exact N2'|exact B2]]]|exact L3]. }
  destruct (is_one_of (chars "cC") cmd) eqn:C.
  { destruct (fwrong_count 6 args); [exact I|].
    assert (X : bounded P (if is_lower cmd then abs_pairs 2 2 (p_pos rc) rargs else rargs)) by (pick C; exact HB).
    pose proof (cubics_near w S T P tr (is_lower cmd) Hw HS args rargs _ _ (fp_last_control c) (p_last_control rc) k HA Hk ltac:(lra) N1 B1 X) as LN. cbv zeta in LN.
    destruct (fbuild_cubics _ tr _ _ args) as [[e ct] s]. destruct (build_cubics _ (rtr tr) _ _ rargs) as [[re rct] rs].
    destruct LN as (L1 & L2 & L3). split; [split; [exact L1|split; [exact L2|split; [exact N2'|exact B2]]]|exact L3]. }
  destruct (is_one_of (chars "qQ") cmd) eqn:Q.
  { destruct (fwrong_count 4 args); [exact I|].
    assert (X : bounded P (if is_lower cmd then abs_pairs 1 1 (p_pos rc) rargs else rargs)) by (pick Q; exact HB).
    pose proof (quadratics_near w S T P tr (is_lower cmd) Hw HS args rargs _ _ (fp_last_control c) (p_last_control rc) k HA Hk Hm N1 B1 X) as LN. cbv zeta in LN.
    destruct (fbuild_quadratics _ tr _ _ args) as [[e ct] s]. destruct (build_quadratics _ (rtr tr) _ _ rargs) as [[re rct] rs].
    destruct LN as (L1 & L2 & L3). split; [split; [exact L1|split; [exact L2|split; [exact N2'|exact B2]]]|exact L3]. }
  destruct (is_one_of (chars "zZ") cmd) eqn:Z; [|exact I].
  destruct (point_near S T P tr _ _ k (k + 16) HS ltac:(lra) ltac:(lra) N2 B2) as [A B].
  split; [split; [exact N2'|split; [exact B2|split; [exact N2'|exact B2]]]|].
  constructor; [|constructor]. constructor; auto. eapply nv_le; [| |exact A]; unfold k'; lra.
Qed.

Definition total (cmds : list (char * list f64)) : R := INR (list_sum (map (fun c => List.length (snd c)) cmds)).

Lemma total_cons : forall cmd args cmds, total ((cmd, args) :: cmds) = count args + total cmds.
Proof. intros. unfold total, count. cbn [map list_sum fold_right snd]. apply plus_INR. Qed.

Lemma total_pos : forall cmds, 0 <= total cmds.
Proof. intros. apply pos_INR. Qed.

(** The commands of the two models, letter by letter and argument by argument. *)
Definition cmds_ok (w P : R) (cmds : list (char * list f64)) (rcs : list (char * list R)) : Prop :=
  Forall2 (fun c r => fst c = fst r /\ args_ok w P (snd c) (snd r)) cmds rcs.

Lemma cmds_exact : forall P cmds, Forall (fun cmd => Forall (fun a => is_finite a = true) (snd cmd)) cmds -> cmds_ok 2 P cmds (rcmds cmds).
Proof.
  intros P cmds H. unfold cmds_ok, rcmds. induction H as [|c cmds F H IH]; cbn [map]; constructor; [|exact IH].
  split; [reflexivity|]. apply args_exact, F.
Qed.

Lemma commands_near : forall tg w S T P tr, 2 <= w -> setting S T P tr -> forall cmds rcs c rc f k,
  cmds_ok w P cmds rcs -> 0 <= k -> k + w * total cmds <= many - 60 ->
  no_arcs rcs -> ctx_near k P c rc ->
  Forall (fun cmd => bounded P (snd cmd)) (absolute (p_pos rc) (p_start rc) f rcs) ->
  let k' := k + w * total cmds in
  out_near k' (k' + 16) P (Qof S T P) (fbuild_commands tg c cmds tr f) (build_commands rc rcs (rtr tr) f).
Proof.
  intros tg w S T P tr Hw HS. pose proof (se_P _ _ _ _ HS) as HP. pose proof (setting_Q _ _ _ _ HS) as HQ.
  induction cmds as [|[cmd args] cmds IH]; intros rcs c rc f k HA Hk Hm NA CN HB k'.
  - inversion HA; subst. cbn [fbuild_commands build_commands]. split; [|constructor].
    unfold k', total in *; cbn in *. destruct CN as (A & B & C & D). split; [|split; [|split]]; auto; (eapply nv_le; [| |eassumption]; lra).
  - inversion HA as [|? [rcmd rargs] ? rrest [HC HA1] HA2]; subst. cbn [fst snd] in HC, HA1. subst rcmd. inversion NA as [|? ? NA1 NA2]; subst. cbn [fst snd] in *.
    pose proof (total_pos cmds) as T0. pose proof (count_pos args) as C0.
    pose proof (Rmult_le_pos w _ ltac:(lra) T0) as WT. pose proof (Rmult_le_pos w _ ltac:(lra) C0) as WC.
    unfold k' in *. rewrite !total_cons in *.
    cbn [absolute fst snd] in HB. inversion HB as [|? ? HB1 HB2]; subst. cbn [snd] in HB1.
    pose proof (path_near tg w S T P tr c rc cmd args rargs f k Hw HS HA1 Hk ltac:(lra) NA1 CN HB1) as PN. cbv zeta in PN.
    cbn [fbuild_commands build_commands fst snd].
    destruct (fbuild_path tg c cmd args tr f) as [[[c1 s1]|]| |]; cbn [bind out_near] in PN |- *; try contradiction;
      destruct (build_path rc cmd rargs (rtr tr) f) as [[[rc1 rs1]|]| |] eqn:E; cbn [bind]; try contradiction; [|exact I].
    destruct PN as [CN1 SN].
    rewrite build_path_abs in E. apply build_path_cursor in E; [|apply upper_lower]. destruct E as [E1 E2].
    rewrite <- E1, <- E2 in HB2.
    specialize (IH rrest c1 rc1 false (k + w * count args) HA2 ltac:(lra) ltac:(lra) NA2 CN1 HB2). cbv zeta in IH.
    replace (k + w * (count args + total cmds)) with (k + w * count args + w * total cmds) by ring.
    destruct (fbuild_commands tg c1 cmds tr false) as [[[c2 s2]|]| |]; cbn [bind out_near] in IH |- *; try contradiction;
      destruct (build_commands rc1 rrest (rtr tr) false) as [[[rc2 rs2]|]| |]; cbn [bind]; try contradiction; [|exact I].
    destruct IH as [CN2 SN2]. split; [exact CN2|]. apply Forall2_app; [|exact SN2].
    eapply segs_near_le; [| |exact SN]; lra.
Qed.
