(** Properties C119 and C120: the arcs of a path in binary64. *)
From Coq Require Import ZArith Reals List Bool NArith Arith Lia Lra Psatz Ascii String.
From Flocq Require Import Core BinarySingleNaN.
From Verif Require Import Base Chars Floats FloatProofs FloatScale FloatErr FloatCurve ApproxCurve StepperContext DrawCurves SvgDocument FloatPath FloatLex FloatDocument Coords CoordsProofs Curves PathBuild
  FloatAngles FloatRun FloatCircle PropsSvg PropsDraw PropsFloatPath PropsFloatTransform PropsLaser PropsCircle FloatArc FloatChord.
Import ListNotations.
Open Scope R_scope.

(** ** C119: arcs of circles under a transform that scales both axes alike *)

(** The arc that was asked for: a segment of radius about [S] on both axes, whose end points differ by
    about [d], which turns the way [sweep] says and more or less than half a turn as [large] says. *)
Definition arc_of (q S : R) (large sweep : bool) (d : fvec) (seg : segment) : Prop :=
  match seg with
  | SArc rx ry a b _ => rx = ry /\ is_finite rx = true /\ is_finite a = true /\ is_finite b = true /\
      Rabs (B2R rx - S) <= 12 * S / 2 ^ 53 /\ Rabs (B2R a) <= 13 /\ Rabs (B2R b) <= 13 /\
      Rabs (B2R rx * (cos (B2R b) - cos (B2R a)) - B2R (fx d)) <= (200 + 2 * q) * S / 2 ^ 53 /\
      Rabs (B2R rx * (sin (B2R b) - sin (B2R a)) - B2R (fy d)) <= (200 + 2 * q) * S / 2 ^ 53 /\
      (if sweep then B2R a <= B2R b else B2R b <= B2R a) /\
      (if large then PI - (60 + 2 * q) / 2 ^ 53 <= Rabs (B2R b - B2R a) <= 2 * PI + (60 + 2 * q) / 2 ^ 53
       else Rabs (B2R b - B2R a) <= PI + (60 + 2 * q) / 2 ^ 53)
  | _ => False
  end.

(** Sizes between 2^-99 and 2^99. *)
Definition ordinary (x : f64) : Prop := is_finite x = true /\ / 2 ^ 99 <= Rabs (B2R x) <= 2 ^ 99.

(** The matrix scales x by [fm0] and y by [fm3], of the same absolute value. *)
Definition even (tr : ftransform) : Prop :=
  feq (fm1 tr) fzero = true /\ feq (fm2 tr) fzero = true /\ ordinary (fm0 tr) /\ is_finite (fm3 tr) = true /\ Rabs (B2R (fm3 tr)) = Rabs (B2R (fm0 tr)).

Lemma pow_bpow : forall n, 2 ^ n = bpow radix2 (Z.of_nat n).
Proof. intros n. rewrite bpow_powerRZ, <- pow_powerRZ. reflexivity. Qed.
Lemma ordinary_rng : forall x, ordinary x -> is_finite x = true /\ rng 99 (B2R x).
Proof. intros x [F [A B]]. split; [exact F|]. unfold rng. rewrite bpow_opp. rewrite pow_bpow in A, B. split; assumption. Qed.

Lemma rp_11 : forall S r, 0 < S -> rp 11 S r -> Rabs (r - S) <= 11.5 * u53 * S.
Proof.
  intros S r P (g & G & ->). pose proof u53_pos as [U0 U1]. pose proof w53_pos as W.
  assert (UP : (1 + w53) ^ 11 <= 1 + 11.2 * u53) by (unfold w53; rewrite u53_val; cbn [pow]; lra).
  pose proof (pow_w 11) as PW.
  assert (LO : 1 - 11.2 * u53 <= / (1 + w53) ^ 11).
  { apply Rle_trans with (/ (1 + 11.2 * u53)); [|apply Rinv_le_contravar; lra].
    apply Rmult_le_reg_r with (1 + 11.2 * u53); [lra|]. rewrite Rinv_l by lra. nra. }
  replace (S * g - S) with ((g - 1) * S) by ring. rewrite Rabs_mult, (Rabs_pos_eq S) by lra. apply Rmult_le_compat_r; [lra|].
  apply Rabs_le. lra.
Qed.

Lemma same_x : forall x z : f64, is_finite x = true -> iszero z -> fadd x z = x \/ (iszero x /\ iszero (fadd x z)).
Proof.
  intros x z F Z. destruct x as [b|b| |b m e B]; try discriminate; [right; split; [exists b; reflexivity|apply z_add; [exists b; reflexivity|exact Z]]|].
  left. destruct Z as [t ->]. reflexivity.
Qed.
Lemma turned_x : forall x y z : f64, is_finite x = true -> is_finite y = true -> iszero z ->
  is_finite (fsub (fmul x fone) (fmul y z)) = true /\ B2R (fsub (fmul x fone) (fmul y z)) = B2R x /\
  is_finite (fadd (fmul y z) (fmul x fone)) = true /\ B2R (fadd (fmul y z) (fmul x fone)) = B2R x.
Proof.
  intros x y z Fx Fy Z. pose proof (z_mul_r y z Fy Z) as YZ. destruct (Req_dec (B2R x) 0) as [E|N].
  - destruct (iszero_of x Fx E) as [b ->]. assert (XZ : iszero (fmul (B754_zero b) fone)) by (apply z_mul_l; [apply one_value|exists b; reflexivity]).
    destruct (zero_facts _ (z_sub _ _ XZ YZ)) as [F1 E1]. destruct (zero_facts _ (z_add _ _ YZ XZ)) as [F2 E2]. rewrite E1, E2. auto.
  - assert (P : proper x) by (split; assumption). rewrite mul_one by exact P. rewrite sub_z by assumption. rewrite add_z_l by assumption. auto.
Qed.

Theorem C119_segment : forall tg q tr a d, zero_exact tg -> angle_accurate tg q -> 0 <= q <= 2 ^ 40 -> even tr ->
  (* a circle *)
  farc_rx a = farc_ry a -> ordinary (farc_rx a) -> feq (farc_rot a) fzero = true ->
  (* to another place *)
  is_finite (fx d) = true -> is_finite (fy d) = true -> (B2R (fx d) <> 0 \/ B2R (fy d) <> 0) -> Rabs (B2R (fx d)) <= 2 ^ 199 -> Rabs (B2R (fy d)) <= 2 ^ 199 ->
  let S := Rabs (B2R (fm0 tr)) * Rabs (B2R (farc_rx a)) in
  let D2 := B2R (fx d) * B2R (fx d) + B2R (fy d) * B2R (fy d) in
  (D2 <= 4 * (S * S) * (1 - 50 / 2 ^ 53) -> farc_segment tg tr a d <> Ok None) /\
  (4 * (S * S) * (1 + 50 / 2 ^ 53) <= D2 -> farc_segment tg tr a d = Ok None) /\
  match farc_segment tg tr a d with
  | Ok (Some seg) => arc_of q S (farc_large a) (farc_sweep a) d seg
  | Ok None => True
  | _ => False
  end.
Proof.
  intros tg q tr a d ZE AA HQ (Z1 & Z2 & O0 & F3 & SAME) EQ OR ROT Fdx Fdy DN BX BY S D2.
  destruct (ordinary_rng _ O0) as [F0 G0]. destruct (ordinary_rng _ OR) as [Fr Gr]. apply feq_z in Z1, Z2. pose proof (feq_z _ ROT) as RZ.
  destruct (up_ellipse tg (farc_rx a) (farc_rot a) (fm0 tr) (fm1 tr) (fm2 tr) (fm3 tr) 99 99 ZE RZ Fr Gr F0 F3 G0 SAME Z1 Z2 ltac:(lia)) as (rho & z & TE & Zz & Frho & RP & _).
  fold S in RP. assert (S0 : 0 < S).
  { unfold S. pose proof (Rabs_pos_lt _ (rng_nz _ _ G0)). pose proof (Rabs_pos_lt _ (rng_nz _ _ Gr)). apply Rmult_lt_0_compat; assumption. }
  pose proof (rp_11 S _ S0 RP) as RD. pose proof u53_pos as [U0 _]. assert (U1 : u53 < / 10000) by (rewrite u53_val; lra). set (s := B2R rho) in *.
  assert (GS : bpow radix2 (-200) <= s <= bpow radix2 200).
  { assert (GS : rng (99 + 99) S) by (apply rng_mul; unfold rng; rewrite Rabs_Rabsolu; assumption).
    pose proof (rng_rp _ 11 _ _ ltac:(lia) GS RP) as G. change (99 + 99 + 1)%Z with 199%Z in G. destruct G as [G1 G2].
    assert (0 < s). { apply le_abs in RD. assert (11.5 * u53 * S < S) by nra. lra. }
    fold s in G1, G2. rewrite Rabs_pos_eq in G1, G2 by lra. split; [eapply Rle_trans; [|exact G1]|eapply Rle_trans; [exact G2|]]; apply bpow_le; lia. }
  assert (s0 : 0 < s) by (pose proof (bpow_gt_0 radix2 (-200)); lra).
  assert (B200 : forall x, Rabs x <= 2 ^ 199 -> Rabs x <= bpow radix2 200).
  { intros x H. eapply Rle_trans; [exact H|]. rewrite pow_bpow. apply bpow_le. lia. }
  destruct (ZE _ ROT) as (SR & CR & _).
  assert (FS : farc_segment tg tr a d = match fchord rho rho (fsub (fmul (fx d) fone) (fmul (fy d) (farc_rot a))) (fadd (fmul (fx d) (farc_rot a)) (fmul (fy d) fone)) with
    | None => Ok None
    | Some (x1, y1, x2, y2) => let '(a1, a2) := farc_angles tg rho rho x1 y1 x2 y2 (farc_large a) (farc_sweep a) in Ok (Some (SArc rho rho a1 a2 z))
    end).
  { unfold farc_segment. rewrite <- EQ, TE. cbn [bind]. rewrite SR, CR. reflexivity. }
  rewrite FS. clear FS.
  destruct (turned_x (fx d) (fy d) (farc_rot a) Fdx Fdy RZ) as (FX & VX & _). destruct (turned_x (fy d) (fx d) (farc_rot a) Fdy Fdx RZ) as (_ & _ & FY & VY).
  set (dx := fsub (fmul (fx d) fone) (fmul (fy d) (farc_rot a))) in *. set (dy := fadd (fmul (fx d) (farc_rot a)) (fmul (fy d) fone)) in *.
  clearbody dx dy. assert (SS : 0 < S * S) by nra.
  assert (SQ : Rabs (s * s - S * S) <= 24 * u53 * (S * S)).
  { replace (s * s - S * S) with ((s - S) * (s + S)) by ring. replace (24 * u53 * (S * S)) with (11.5 * u53 * S * (48 / 23 * S)) by lra.
    apply mul_abs; [exact RD|]. apply le_abs in RD. assert (11.5 * u53 * S <= 0.01 * S) by (apply Rmult_le_compat_r; lra). apply Rabs_le. lra. }
  assert (WU : w = 1.001 * u53) by reflexivity.
  assert (UU : u53 = / 2 ^ 53) by apply u53_pow.
  assert (IN : D2 <= 4 * (S * S) * (1 - 50 / 2 ^ 53) -> D2 <= 4 * (s * s) * (1 - 20 * w)).
  { intros H. unfold Rdiv in H. rewrite <- UU in H. apply le_abs in SQ. rewrite WU. assert (s * s >= (S * S) * (1 - 24 * u53)) by lra. nra. }
  assert (OUT : 4 * (S * S) * (1 + 50 / 2 ^ 53) <= D2 -> 4 * (s * s) * (1 + 20 * w) <= D2).
  { intros H. unfold Rdiv in H. rewrite <- UU in H. apply le_abs in SQ. rewrite WU. assert (s * s <= (S * S) * (1 + 24 * u53)) by lra. nra. }
  (* from the chord to the arc *)
  assert (ARC : forall x1 y1 x2 y2, fchord rho rho dx dy = Some (x1, y1, x2, y2) ->
    is_finite x1 = true -> is_finite y1 = true -> is_finite x2 = true -> is_finite y2 = true ->
    Rabs (B2R x1 / s * (B2R x1 / s) + B2R y1 / s * (B2R y1 / s) - 1) <= 107 * w -> Rabs (B2R x2 / s * (B2R x2 / s) + B2R y2 / s * (B2R y2 / s) - 1) <= 107 * w ->
    Rabs (B2R x2 / s - B2R x1 / s - B2R dx / s) <= 18 * w -> Rabs (B2R y2 / s - B2R y1 / s - B2R dy / s) <= 18 * w ->
    (D2 <= 4 * (S * S) * (1 - 50 / 2 ^ 53) ->
      (let '(a1, a2) := farc_angles tg rho rho x1 y1 x2 y2 (farc_large a) (farc_sweep a) in Ok (Some (SArc rho rho a1 a2 z))) <> Ok None) /\
    match (let '(a1, a2) := farc_angles tg rho rho x1 y1 x2 y2 (farc_large a) (farc_sweep a) in Ok (Some (SArc rho rho a1 a2 z))) with
    | Ok (Some seg) => arc_of q S (farc_large a) (farc_sweep a) d seg
    | Ok None => True
    | _ => False
    end).
  { intros x1 y1 x2 y2 _ Fx1 Fy1 Fx2 Fy2 N1 N2 HX HY. destruct (farc_angles tg rho rho x1 y1 x2 y2 (farc_large a) (farc_sweep a)) as [a1 a2] eqn:FA.
    destruct (angles_ok tg q rho AA HQ Frho GS x1 y1 x2 y2 (B2R dx / s) (B2R dy / s) _ _ a1 a2 Fx1 Fy1 Fx2 Fy2 N1 N2 HX HY FA) as (Fa1 & Fa2 & Ba1 & Ba2 & DX & DY & SW & LA).
    split; [discriminate|]. cbn [arc_of]. unfold Rdiv. rewrite <- UU. fold s. split; [reflexivity|]. split; [exact Frho|]. split; [exact Fa1|]. split; [exact Fa2|].
    split; [eapply Rle_trans; [exact RD|]; nra|]. split; [exact Ba1|]. split; [exact Ba2|].
    assert (SB : s <= 1.01 * S).
    { apply le_abs in RD. assert (11.5 * u53 * S <= 0.01 * S) by (apply Rmult_le_compat_r; lra). lra. }
    assert (MV : forall t v, Rabs (t - v / s) <= (180 + 2 * q) * u53 -> Rabs (s * t - v) <= (200 + 2 * q) * S * u53).
    { intros t v H. replace (s * t - v) with ((t - v / s) * s) by (field; lra).
      rewrite Rabs_mult, (Rabs_pos_eq s) by lra. apply Rle_trans with ((180 + 2 * q) * u53 * s); [apply Rmult_le_compat_r; lra|].
      assert (s <= S + 12 * u53 * S) by (apply le_abs in RD; lra). assert (QQ : (180 + 2 * q) * (12 * u53) <= 20).
      { pose proof (qu_small q HQ). lra. }
      assert (0 <= u53 * S) by (apply Rmult_le_pos; lra).
      apply Rle_trans with ((180 + 2 * q) * u53 * (S + 12 * u53 * S)); [apply Rmult_le_compat_l; [apply Rmult_le_pos; lra|lra]|].
      replace ((180 + 2 * q) * u53 * (S + 12 * u53 * S)) with ((180 + 2 * q) * (u53 * S) + (180 + 2 * q) * (12 * u53) * (u53 * S)) by ring.
      assert ((180 + 2 * q) * (12 * u53) * (u53 * S) <= 20 * (u53 * S)) by (apply Rmult_le_compat_r; lra). lra. }
    rewrite <- VX, <- VY. split; [apply MV; exact DX|]. split; [apply MV; exact DY|]. split; [exact SW|exact LA]. }
  rewrite fchord_half in *. destruct (fabs_value _ FX) as [FAX VAX]. destruct (fabs_value _ FY) as [FAY VAY].
  pose proof (flt_is (fabs dy) (fabs dx) FAY FAX) as LT. rewrite VAX, VAY in LT.
  destruct (flt (fabs dy) (fabs dx)) eqn:L.
  - apply proj1 in LT. specialize (LT eq_refl). assert (NX : B2R dx <> 0) by (intros E; rewrite E, Rabs_R0 in LT; pose proof (Rabs_pos (B2R dy)); lra).
    assert (LE : Rabs (B2R dy) <= Rabs (B2R dx)) by lra. assert (BE : Rabs (B2R dx) <= bpow radix2 200) by (rewrite VX; apply B200, BX).
    pose proof (chord_accepted rho dx dy Frho FX FY GS NX LE BE) as CA. pose proof (chord_refused rho dx dy Frho FX FY GS NX LE BE) as CR'.
    pose proof (chord_ok rho dx dy Frho FX FY GS NX LE BE) as CO. fold s in CA, CR', CO. rewrite VX, VY in CA, CR'. fold D2 in CA, CR'.
    destruct (halfchord rho dx dy) as [[[[x1 y1] x2] y2]|].
    + destruct (CO x1 y1 x2 y2 eq_refl) as (A1 & A2 & A3 & A4 & A5 & A6 & A7 & A8).
      destruct (ARC x1 y1 x2 y2 eq_refl A1 A2 A3 A4 A7 A8) as [R1 R2]; [pose proof w_pos; lra|exact A6|].
      split; [exact R1|]. split; [|exact R2]. intros H. apply OUT, CR' in H. discriminate H.
    + split; [intros H; apply IN, CA in H; contradiction H; reflexivity|]. split; [reflexivity|exact I].
  - assert (LE : Rabs (B2R dx) <= Rabs (B2R dy)) by (destruct (Rle_or_lt (Rabs (B2R dx)) (Rabs (B2R dy))) as [H|H]; [exact H|apply LT in H; discriminate H]).
    assert (NY : B2R dy <> 0).
    { intros E. rewrite E, Rabs_R0 in LE. pose proof (Rabs_pos (B2R dx)). assert (E' : Rabs (B2R dx) = 0) by lra. rewrite <- VX, <- VY in DN.
      destruct DN as [N|N]; [apply N; destruct (Req_dec (B2R dx) 0) as [K|K]; [exact K|apply Rabs_no_R0 in K; contradiction]|contradiction]. }
    assert (BE : Rabs (B2R dy) <= bpow radix2 200) by (rewrite VY; apply B200, BY).
    pose proof (chord_accepted rho dy dx Frho FY FX GS NY LE BE) as CA. pose proof (chord_refused rho dy dx Frho FY FX GS NY LE BE) as CR'.
    pose proof (chord_ok rho dy dx Frho FY FX GS NY LE BE) as CO. fold s in CA, CR', CO. rewrite VX, VY in CA, CR'.
    rewrite (Rplus_comm (B2R (fy d) * B2R (fy d))) in CA, CR'. fold D2 in CA, CR'.
    destruct (halfchord rho dy dx) as [[[[y1 x1] y2] x2]|].
    + destruct (CO y1 x1 y2 x2 eq_refl) as (A1 & A2 & A3 & A4 & A5 & A6 & A7 & A8). rewrite Rplus_comm in A7, A8.
      rewrite (Rplus_comm (B2R y1 / s * _)) in A7 || idtac.
      destruct (ARC x1 y1 x2 y2 eq_refl A2 A1 A4 A3) as [R1 R2]; [apply le_abs in A7; apply Rabs_le; lra|apply le_abs in A8; apply Rabs_le; lra|exact A6|pose proof w_pos; lra|].
      split; [exact R1|]. split; [|exact R2]. intros H. apply OUT, CR' in H. discriminate H.
    + split; [intros H; apply IN, CA in H; contradiction H; reflexivity|]. split; [reflexivity|exact I].
Qed.

(** Such a segment is drawn, as an arc that ends where it should. *)
Theorem C119_drawn : forall tg q S large sweep d seg g Q pos p, arc_of q S large sweep d seg -> 0 < S -> 0 <= q -> g_circle g = fcircle tg ->
  (exists curve next, seg_info g seg pos = Ok (Some (curve, next))) /\
  (S * (2 * q + 30) <= Q <= 2 ^ 35 * S -> drawable q Q seg) /\
  Rabs (vx (pen p [rs seg]) - (vx p + B2R (fx d))) <= (200 + 2 * q) * S / 2 ^ 53 /\
  Rabs (vy (pen p [rs seg]) - (vy p + B2R (fy d))) <= (200 + 2 * q) * S / 2 ^ 53.
Proof.
  intros tg q S large sweep d seg g Q pos p A S0 Q0 EG. destruct seg as [| | | |rx ry a b ro]; try contradiction.
  destruct A as (<- & F & FA & FB & R & BA & BB & DX & DY & _). split; [|split; [|split]].
  - cbn [seg_info]. rewrite sub_self by exact F. rewrite EG. eexists. eexists. reflexivity.
  - intros [L U]. cbn [drawable]. split; [exact F|]. split; [exact FA|]. split; [exact FB|].
    assert (RS : 0.99 * S <= B2R rx <= 1.01 * S).
    { assert (12 * S / 2 ^ 53 <= 0.01 * S) by (unfold Rdiv; rewrite <- u53_pow, u53_val; lra). apply le_abs in R. lra. }
    split; [lra|]. split.
    + eapply Rle_trans; [|exact L]. apply Rle_trans with (1.01 * S * (28 + q)); [|nra].
      apply Rmult_le_compat; [lra| |lra|lra]. pose proof (Rabs_pos (B2R a)). pose proof (Rabs_pos (B2R b)). lra.
    + eapply Rle_trans; [exact U|]. replace (2 ^ 36) with (2 ^ 35 * 2) by (cbn [pow]; lra). assert (0 < 2 ^ 35) by (apply pow_lt; lra). nra.
  - cbn [rs pen fold_left vadd arc_at vx vy]. rewrite Rmult_1_r. replace (B2R a + (B2R b - B2R a)) with (B2R b) by ring.
    replace (vx p + B2R rx * (cos (B2R b) - cos (B2R a)) - (vx p + B2R (fx d))) with (B2R rx * (cos (B2R b) - cos (B2R a)) - B2R (fx d)) by ring. exact DX.
  - cbn [rs pen fold_left vadd arc_at vx vy]. rewrite Rmult_1_r. replace (B2R a + (B2R b - B2R a)) with (B2R b) by ring.
    replace (vy p + B2R rx * (sin (B2R b) - sin (B2R a)) - (vy p + B2R (fy d))) with (B2R rx * (sin (B2R b) - sin (B2R a)) - B2R (fy d)) by ring. exact DY.
Qed.

(** Functions as good as C119 asks for. *)
Lemma known_zero : zero_exact known_trig.
Proof.
  intros x E. cbn [known_trig f_sin f_cos f_atan2]. rewrite E. split; [reflexivity|]. split; [reflexivity|].
  intros y F S. rewrite F, S. reflexivity.
Qed.

Lemma good_angle : forall x y, exists al, Rabs al <= PI /\ x = sqrt (x * x + y * y) * cos al /\ y = sqrt (x * x + y * y) * sin al /\
  is_finite (near_real (atan2 y x)) = true /\ Rabs (B2R (near_real (atan2 y x)) - al) <= 4 / 2 ^ 53.
Proof.
  intros x y. exists (atan2 y x). pose proof (atan2_range x y) as RA. pose proof PI_4 as P4. pose proof PI_RGT_0 as P0.
  assert (B : Rabs (atan2 y x) <= PI) by (apply Rabs_le; lra). split; [exact B|].
  assert (POL : x = sqrt (x * x + y * y) * cos (atan2 y x) /\ y = sqrt (x * x + y * y) * sin (atan2 y x)).
  { destruct (Req_dec x 0) as [X|X]; [destruct (Req_dec y 0) as [Y|Y]|].
    - rewrite X, Y. replace (0 * 0 + 0 * 0) with 0 by ring. rewrite sqrt_0. lra.
    - assert (K : x <> 0 \/ y <> 0) by auto. destruct (atan2_polar x y K) as [C S]. pose proof (sqrt_lt_R0 _ (sumsq_pos _ _ K)). rewrite C, S. split; field; lra.
    - assert (K : x <> 0 \/ y <> 0) by auto. destruct (atan2_polar x y K) as [C S]. pose proof (sqrt_lt_R0 _ (sumsq_pos _ _ K)). rewrite C, S. split; field; lra. }
  destruct POL as [PX PY]. split; [exact PX|]. split; [exact PY|]. pose proof pi_near as PN.
  destruct (near_real_size (atan2 y x)) as [F E]; [lra|]. split; [exact F|]. eapply Rle_trans; [exact E|].
  unfold Rdiv. rewrite <- u53_pow, Rmult_comm. apply Rmult_le_compat_r; [pose proof u53_pos; lra|]. lra.
Qed.

Lemma known_angles : angle_accurate known_trig 4.
Proof.
  intros x y Fx Fy _ _. cbn [known_trig f_atan2]. destruct zero_value as [F0 V0].
  pose proof PI_RGT_0 as P0. pose proof u53_pos as [U0 _].
  assert (U4 : 4 / 2 ^ 53 = 4 * u53) by (unfold Rdiv; rewrite <- u53_pow; reflexivity). rewrite U4.
  destruct (feq y fzero && is_finite x && negb (Bsign x)) eqn:C1; [|destruct (feq x fzero && flt fzero y) eqn:C2].
  - apply andb_true_iff in C1. destruct C1 as [C1 SG]. apply andb_true_iff in C1. destruct C1 as [Y _]. apply feq_z in Y. destruct (zero_facts _ Y) as [_ VY].
    split; [exact Fy|]. exists 0. rewrite Rabs_R0, cos_0, sin_0, VY. split; [lra|].
    assert (X : 0 <= B2R x).
    { apply negb_true_iff in SG. destruct x as [s|s| |s m e B]; try discriminate; cbn [Bsign B2R] in *; [lra|]. subst s. apply F2R_ge_0. cbn. lia. }
    replace (B2R x * B2R x + 0 * 0) with (B2R x * B2R x) by ring. rewrite sqrt_square by exact X. split; [lra|]. split; [lra|]. rewrite Rminus_eq_0, Rabs_R0. lra.
  - apply andb_true_iff in C2. destruct C2 as [X Y]. apply feq_z in X. destruct (zero_facts _ X) as [_ VX].
    unfold flt in Y. rewrite Bltb_correct in Y by assumption. rewrite V0 in Y. apply Rlt_bool_true_iff in Y || (destruct (Rlt_bool_spec 0 (B2R y)) as [Y'|Y']; [|discriminate Y]; clear Y; rename Y' into Y).
    destruct right_value as [FR VR]. split; [exact FR|]. exists (PI / 2). rewrite cos_PI2, sin_PI2, VX. split; [rewrite Rabs_pos_eq; lra|].
    replace (0 * 0 + B2R y * B2R y) with (B2R y * B2R y) by ring. rewrite sqrt_square by lra. split; [lra|]. split; [lra|].
    pose proof pi_near as PN. rewrite VR. apply Rabs_le. rewrite u53_val. lra.
  - destruct (good_angle (B2R x) (B2R y)) as (al & A1 & A2 & A3 & A4 & A5). rewrite U4 in A5. split; [exact A4|]. exists al. auto.
Qed.

(** "M5 0A5 5 0 0 1 0 5": a quarter of a circle. *)
Example C119_example : forall large, let a := mk_farc_args (f_of_Z 5) (f_of_Z 5) fzero large true (f_of_Z 0) (f_of_Z 5) in
  let d := mk_fvec (f_of_Z (-5)) (f_of_Z 5) in
  zero_exact known_trig /\ angle_accurate known_trig 4 /\ even fidentity /\ ordinary (farc_rx a) /\ feq (farc_rot a) fzero = true /\
  B2R (fx d) * B2R (fx d) + B2R (fy d) * B2R (fy d) <= 4 * (Rabs (B2R (fm0 fidentity)) * Rabs (B2R (farc_rx a)) * (Rabs (B2R (fm0 fidentity)) * Rabs (B2R (farc_rx a)))) * (1 - 50 / 2 ^ 53) /\
  exists seg, farc_segment known_trig fidentity a d = Ok (Some seg) /\ arc_of 4 5 large true d seg.
Proof.
  intros large a d. split; [exact known_zero|]. split; [exact known_angles|].
  assert (V5 : B2R (f_of_Z 5) = 5) by (apply f_of_Z_exact; lia). assert (Vm : B2R (f_of_Z (-5)) = -5) by (apply f_of_Z_exact; lia).
  assert (F5 : is_finite (f_of_Z 5) = true) by reflexivity.
  destruct one_value as [F1 V1]. assert (E1 : B2R (fm0 fidentity) = 1) by (rewrite <- V1; reflexivity).
  assert (O1 : ordinary (fm0 fidentity)).
  { split; [reflexivity|]. rewrite E1, Rabs_R1. split; [cbn [pow]; lra|apply pow_R1_Rle; lra]. }
  assert (O5 : ordinary (farc_rx a)).
  { split; [reflexivity|]. cbn [a farc_rx]. rewrite V5, Rabs_pos_eq by lra. split; cbn [pow]; lra. }
  assert (EV : even fidentity). { split; [reflexivity|]. split; [reflexivity|]. split; [exact O1|]. split; [reflexivity|reflexivity]. }
  split; [exact EV|]. split; [exact O5|]. split; [reflexivity|].
  pose proof (C119_segment known_trig 4 fidentity a d known_zero known_angles ltac:(cbn [pow]; lra) EV eq_refl O5 eq_refl eq_refl eq_refl) as H. cbv zeta in H.
  cbn [a d fx fy farc_rx farc_large farc_sweep] in H. rewrite E1, V5, Vm, Rabs_R1, (Rabs_pos_eq 5), Rmult_1_l, (Rabs_left (-5)) in H by lra.
  cbn [a d fx fy farc_rx farc_large farc_sweep]. rewrite E1, V5, Vm, Rabs_R1, (Rabs_pos_eq 5), Rmult_1_l by lra.
  assert (IN : -5 * -5 + 5 * 5 <= 4 * (5 * 5) * (1 - 50 / 2 ^ 53)) by (unfold Rdiv; rewrite <- u53_pow, u53_val; lra).
  split; [exact IN|]. destruct H as (H1 & _ & H3); [lra|cbn [pow]; lra|cbn [pow]; lra|].
  destruct (farc_segment _ _ _ _) as [[seg|]| |] eqn:E; try contradiction; [|contradiction (H1 IN); reflexivity].
  exists seg. split; [reflexivity|exact H3].
Qed.

Example C119_text : option_map (fun r => map (fun s => match s with SArc rx ry a b ro => map B2SF [rx; ry; a; b; ro] | _ => [] end) (snd r))
    (match fparse_path known_trig (chars "M5 0A5 5 0 0 1 0 5") fpath_ctx_new fidentity with Ok r => r | _ => None end) =
  Some [[]; map B2SF [f_of_Z 5; f_of_Z 5; fzero; right_angle; fneg fzero]].
Proof. vm_compute. reflexivity. Qed.

(** ** C120: what rounding does to arcs of circles *)

(** The half circle "M0 0A31 31 0 0 1 62 0" is refused as too small. *)
Theorem C120_half_circle : forall tg rot large sweep x y, zero_exact tg -> feq rot fzero = true ->
  farc_segment tg fidentity (mk_farc_args (f_of_Z 31) (f_of_Z 31) rot large sweep x y) (mk_fvec (f_of_Z 62) fzero) = Ok None.
Proof.
  intros tg rot large sweep x y ZE ROT. destruct one_value as [F1 V1].
  assert (V31 : B2R (f_of_Z 31) = 31) by (apply f_of_Z_exact; lia).
  assert (G0 : rng 99 (B2R (fm0 fidentity))) by (change (fm0 fidentity) with fone; rewrite V1; unfold rng; rewrite Rabs_R1; split; [change 1 with (bpow radix2 0)|change 1 with (bpow radix2 0)]; apply bpow_le; lia).
  assert (GR : rng 99 (B2R (f_of_Z 31))).
  { rewrite V31. unfold rng. rewrite Rabs_pos_eq by lra. split.
    - apply Rle_trans with (bpow radix2 0); [apply bpow_le; lia|cbn; lra].
    - apply Rle_trans with (bpow radix2 5); [cbn; lra|apply bpow_le; lia]. }
  destruct (up_ellipse tg (f_of_Z 31) rot (fm0 fidentity) (fm1 fidentity) (fm2 fidentity) (fm3 fidentity) 99 99 ZE (feq_z _ ROT) eq_refl GR eq_refl eq_refl G0 eq_refl) as (rho & z & TE & _ & _ & _ & ER);
    [exists false; reflexivity|exists false; reflexivity|lia|].
  unfold farc_segment. cbn [farc_rx farc_ry farc_rot farc_large farc_sweep]. rewrite TE. cbn [bind]. destruct (ZE _ ROT) as (SR & CR & _). rewrite SR, CR, ER.
  destruct (feq_z _ ROT) as [b ->]. 
  match goal with |- match ?c with _ => _ end = _ => assert (E : c = None) by (destruct b; vm_compute; reflexivity); rewrite E end. reflexivity.
Qed.
Example C120_half_circle_text : fparse_path known_trig (chars "M0 0A31 31 0 0 1 62 0") fpath_ctx_new fidentity = Ok None.
Proof. vm_compute. reflexivity. Qed.

(** A segment whose radii differ cannot be drawn. *)
Definition undrawable (seg : segment) : Prop := forall g s c segs v r, In seg segs -> draw_curves g s c segs v <> Ok r.

Lemma uneven_undrawable : forall tg tr a d seg rx ry rot, ftransform_ellipse tg (farc_rx a) (farc_ry a) (farc_rot a) (mk_fmat (fm0 tr) (fm2 tr) (fm1 tr) (fm3 tr)) = Ok (rx, ry, rot) ->
  fgt (fabs (fsub rx ry)) fepsilon = true -> farc_segment tg tr a d = Ok (Some seg) -> undrawable seg.
Proof.
  intros tg tr a d seg rx ry rot TE NE E. unfold farc_segment in E. rewrite TE in E. cbn [bind] in E.
  destruct (fchord rx ry _ _) as [[[[x1 y1] x2] y2]|]; [|discriminate E]. destruct (farc_angles _ _ _ _ _ _ _ _ _) as [a1 a2]. injection E as <-.
  intros g s c segs v [c' e] I D. rewrite (C41_no_ellipse g s c segs v c' e D _ _ _ _ _ I) in NE. discriminate NE.
Qed.

Definition given {A : Type} (o : option A) : bool := match o with Some _ => true | None => false end.
Lemma given_some : forall A (o : option A), given o = true -> o <> None.
Proof. intros A [x|] H; [discriminate|discriminate H]. Qed.

(** Turned by the matrix (3/5, 4/5; -4/5, 3/5), a circle of radius 7 becomes an ellipse, which cannot be drawn. *)
Definition turned : ftransform := mk_ftr (lit 3 5) (lit 4 5) (fneg (lit 4 5)) (lit 3 5) fzero fzero.
Theorem C120_rotated : forall a d, farc_rx a = f_of_Z 7 -> farc_ry a = f_of_Z 7 -> farc_rot a = fzero ->
  (forall seg, farc_segment known_trig turned a d = Ok (Some seg) -> undrawable seg) /\
  (d = mk_fvec (f_of_Z 7) fzero -> exists seg, farc_segment known_trig turned a d = Ok (Some seg)).
Proof.
  intros a d RX RY ROT.
  assert (T : match ftransform_ellipse known_trig (f_of_Z 7) (f_of_Z 7) fzero (mk_fmat (fm0 turned) (fm2 turned) (fm1 turned) (fm3 turned)) with
    | Ok (rx, ry, rot) => fgt (fabs (fsub rx ry)) fepsilon = true /\ fchord rx ry (fsub (fmul (f_of_Z 7) fone) (fmul fzero fzero)) (fadd (fmul (f_of_Z 7) fzero) (fmul fzero fone)) <> None
    | _ => False end).
  { match goal with |- ?G => assert (T : match ftransform_ellipse known_trig (f_of_Z 7) (f_of_Z 7) fzero (mk_fmat (fm0 turned) (fm2 turned) (fm1 turned) (fm3 turned)) with
      | Ok (rx, ry, rot) => fgt (fabs (fsub rx ry)) fepsilon && given (fchord rx ry (fsub (fmul (f_of_Z 7) fone) (fmul fzero fzero)) (fadd (fmul (f_of_Z 7) fzero) (fmul fzero fone)))
      | _ => false end = true) by (vm_compute; reflexivity) end.
    destruct (ftransform_ellipse _ _ _ _ _) as [[[rx ry] rot]| |]; try discriminate T. apply andb_true_iff in T. destruct T as [T1 T2]. split; [exact T1|apply given_some, T2]. }
  destruct (ftransform_ellipse known_trig (f_of_Z 7) (f_of_Z 7) fzero _) as [[[rx ry] rot]| |] eqn:TE; try contradiction. destruct T as [NE CH]. split.
  - intros seg. apply uneven_undrawable with (rx := rx) (ry := ry) (rot := rot); [rewrite RX, RY, ROT; exact TE|exact NE].
  - intros ->. unfold farc_segment. rewrite RX, RY, ROT, TE. cbn [bind]. destruct (known_zero fzero eq_refl) as (SR & CR & _). rewrite SR, CR. cbn [fx fy].
    destruct (fchord rx ry _ _) as [[[[x1 y1] x2] y2]|]; [|contradiction]. destruct (farc_angles _ _ _ _ _ _ _ _ _) as [a1 a2]. eexists. reflexivity.
Qed.

(** With no angles, the functions are only used at zero. *)
Definition upright_form (q : fmat) : bool := feq (fe2 q) fzero && is_finite (fsub (fe3 q) (fe0 q)) && negb (Bsign (fsub (fe3 q) (fe0 q))).
Lemma same_ellipse : forall tg tg' rx ry rot m, zero_exact tg -> zero_exact tg' -> feq rot fzero = true ->
  match finvert2x2 m with Some im => upright_form (fmul2x2 (fmul2x2 (ftranspose2x2 im) (fellipse_form tg' rx ry rot)) im) | None => true end = true ->
  ftransform_ellipse tg rx ry rot m = ftransform_ellipse tg' rx ry rot m.
Proof.
  intros tg tg' rx ry rot m ZE ZE' ROT U. unfold ftransform_ellipse. destruct (ZE _ ROT) as (S1 & C1 & _). destruct (ZE' _ ROT) as (S2 & C2 & _).
  assert (EF : fellipse_form tg rx ry rot = fellipse_form tg' rx ry rot) by (unfold fellipse_form; rewrite S1, C1, S2, C2; reflexivity). rewrite EF.
  destruct (finvert2x2 m) as [im|]; [|reflexivity]. cbn [unwrap bind]. set (q := fmul2x2 _ im) in *. clearbody q.
  unfold upright_form in U. apply andb_true_iff in U. destruct U as [U U3]. apply andb_true_iff in U. destruct U as [U1 U2]. apply negb_true_iff in U3.
  unfold fellipse_of_form. apply feq_z in U1.
  assert (ZN : iszero (fmul (fneg (fe2 q)) (f_of_Z 2))) by (apply z_mul_l; [exact two_finite|apply z_neg; exact U1]).
  destruct (ZE _ (z_feq _ ZN)) as (_ & _ & A1). destruct (ZE' _ (z_feq _ ZN)) as (_ & _ & A2). rewrite A1, A2 by assumption.
  pose proof (half_z _ ZN) as ZT. destruct (ZE _ (z_feq _ ZT)) as (T1 & T2 & _). destruct (ZE' _ (z_feq _ ZT)) as (T3 & T4 & _). rewrite T1, T2, T3, T4. reflexivity.
Qed.

(** A drawing of 8 by 12 inches, with one unit for an inch, is scaled by different numbers in the two
    directions, so a circle with a radius of 3 inches cannot be drawn. *)
Definition inches : list attribute := [plain_attr "width" "8in"; plain_attr "height" "12in"; plain_attr "viewBox" "0 0 8 12"].
Theorem C120_inches : forall tg, zero_exact tg ->
  exists st, fstart_svg tg (mk_fdoc [] fidentity [] fpath_ctx_new 0) (svg_name "svg") inches = Ok (Some st) /\
    forall a d, farc_rx a = f_of_Z 3 -> farc_ry a = f_of_Z 3 -> feq (farc_rot a) fzero = true ->
      (forall seg, farc_segment tg (fcur_transform st) a d = Ok (Some seg) -> undrawable seg) /\
      (d = mk_fvec (f_of_Z 25) (f_of_Z 25) -> exists seg, farc_segment tg (fcur_transform st) a d = Ok (Some seg)).
Proof.
  intros tg ZE.
  assert (T : match fstart_svg tg (mk_fdoc [] fidentity [] fpath_ctx_new 0) (svg_name "svg") inches with
    | Ok (Some st) => let tr := fcur_transform st in (B2SF (fm0 tr), B2SF (fm1 tr), B2SF (fm2 tr), B2SF (fm3 tr)) = (B2SF (lit 254 10), B2SF fzero, B2SF fzero, B2SF (fsub (lit 254 10) (lit 1 (2 ^ 48))))
    | _ => False end) by (vm_compute; reflexivity).
  destruct (fstart_svg _ _ _ _) as [[st|]| |]; try contradiction. exists st. split; [reflexivity|].
  cbv zeta in T. assert (T0 : fm0 (fcur_transform st) = lit 254 10) by (apply B2SF_inj; congruence).
  assert (T1 : fm1 (fcur_transform st) = fzero) by (apply B2SF_inj; congruence).
  assert (T2 : fm2 (fcur_transform st) = fzero) by (apply B2SF_inj; congruence).
  assert (T3 : fm3 (fcur_transform st) = fsub (lit 254 10) (lit 1 (2 ^ 48))) by (apply B2SF_inj; congruence).
  clear T. intros a d RX RY ROT. destruct (ZE _ ROT) as (SR & CR & _).
  assert (TE : exists rx ry rot, ftransform_ellipse tg (farc_rx a) (farc_ry a) (farc_rot a) (mk_fmat (fm0 (fcur_transform st)) (fm2 (fcur_transform st)) (fm1 (fcur_transform st)) (fm3 (fcur_transform st))) = Ok (rx, ry, rot) /\
    fgt (fabs (fsub rx ry)) fepsilon = true /\
    fchord rx ry (fsub (fmul (f_of_Z 25) fone) (fmul (f_of_Z 25) (farc_rot a))) (fadd (fmul (f_of_Z 25) (farc_rot a)) (fmul (f_of_Z 25) fone)) <> None).
  { rewrite RX, RY, T0, T1, T2, T3. apply feq_z in ROT. destruct ROT as [b ->].
    rewrite (same_ellipse tg known_trig) by (first [exact ZE | exact known_zero | destruct b; vm_compute; reflexivity]).
    assert (T : match ftransform_ellipse known_trig (f_of_Z 3) (f_of_Z 3) (B754_zero b) (mk_fmat (lit 254 10) fzero fzero (fsub (lit 254 10) (lit 1 (2 ^ 48)))) with
      | Ok (rx, ry, rot) => fgt (fabs (fsub rx ry)) fepsilon && given (fchord rx ry (fsub (fmul (f_of_Z 25) fone) (fmul (f_of_Z 25) (B754_zero b))) (fadd (fmul (f_of_Z 25) (B754_zero b)) (fmul (f_of_Z 25) fone)))
      | _ => false end = true) by (destruct b; vm_compute; reflexivity).
    destruct (ftransform_ellipse _ _ _ _ _) as [[[rx ry] rot]| |]; try discriminate T. apply andb_true_iff in T. destruct T as [T4 T5].
    exists rx, ry, rot. split; [reflexivity|]. split; [exact T4|apply given_some, T5]. }
  destruct TE as (rx & ry & rot & TE & NE & CH). split.
  - intros seg. apply uneven_undrawable with (rx := rx) (ry := ry) (rot := rot); [exact TE|exact NE].
  - intros ->. unfold farc_segment. rewrite TE. cbn [bind]. rewrite SR, CR. cbn [fx fy].
    destruct (fchord rx ry _ _) as [[[[x1 y1] x2] y2]|]; [|contradiction]. destruct (farc_angles _ _ _ _ _ _ _ _ _) as [a1 a2]. eexists. reflexivity.
Qed.

Print Assumptions C119_segment.
Print Assumptions C119_drawn.
Print Assumptions C120_half_circle.
Print Assumptions C120_rotated.
Print Assumptions C120_inches.
