(** C126: paths and documents whose arcs keep clear of what they may not be are read. *)
From Coq Require Import Ascii String ZArith Reals List Bool NArith Lia Lra.
From Flocq Require Import Core BinarySingleNaN.
From Verif Require Import Base Chars Floats FloatProofs FloatScale FloatErr FloatCurve StepperContext ApproxCurve DrawCurves FloatPath Coords CoordsProofs Curves PathBuild BuildProofs
  PropsBuild PathGrammar PathLex LexProofs PropsLex FloatPathProofs PropsFloatPath PropsApprox PropsDraw
  FloatRun PropsLaser FloatLex FloatLexProofs PropsFloatLex PropsLaserText FloatTransform FloatAngles FloatCircle SvgDocument PropsFloatTransform PropsCircle
  PropsSvg FloatPlace FloatArc FloatChord PropsFloatArc PropsFloatArcs PropsLaserArcs FloatRound
  PropsTransform FloatLength FloatDocument FloatDocProofs PropsCoords PropsFloatSvg FloatParts PropsLaserSvg PropsRoundSvg.
Import ListNotations.
Open Scope R_scope.

(** ** The chords of a path *)

(** The radius of every arc of a command and where its end is, seen from its start. *)
Fixpoint arc_chords (rel : bool) (cur : vec) (args : list R) : list (R * vec) :=
  match args with
  | rx :: _ :: _ :: _ :: _ :: x :: y :: rest =>
      let e := if rel then mk_vec (vx cur + x) (vy cur + y) else mk_vec x y in
      (rx, mk_vec (vx e - vx cur) (vy e - vy cur)) :: arc_chords rel e rest
  | _ => []
  end.

(** Those of a path, with the pen at [cur] and the start of the subpath at [start]. *)
Fixpoint chords (cur start : vec) (first_elem : bool) (cmds : list (char * list R)) : list (R * vec) :=
  match cmds with
  | [] => []
  | cmd :: rest =>
      let l := straight cmd in
      let c' := upper (fst l) in let args' := abs_args cur first_elem (fst l) (snd l) in
      (if is_arc (fst cmd) then arc_chords (is_lower (fst cmd)) cur (snd cmd) else []) ++ chords (cursor cur start c' args') (new_start start c' args') false rest
  end.

(** An arc whose ends are told apart, and nearer than its circle is wide, scaled by [m] and by ten times [E]. *)
Definition keeps_clear (m E : R) (chord : R * vec) : Prop :=
  let d := m * sqrt (vx (snd chord) * vx (snd chord) + vy (snd chord) * vy (snd chord)) in
  10 * E <= d /\ d + 10 * E <= 2 * (m * Rabs (fst chord)) * (1 - / 2 ^ 40).

(** An arc whose ends are further apart than its circle is wide. *)
Definition too_wide (m E : R) (chord : R * vec) : Prop :=
  let d := m * sqrt (vx (snd chord) * vx (snd chord) + vy (snd chord) * vy (snd chord)) in
  2 * (m * Rabs (fst chord)) * (1 + / 2 ^ 40) + 10 * E <= d.

(** Every command has as many numbers as it needs, once or more. *)
Definition times (n : nat) (args : list R) : Prop := exists k, List.length args = (n * Datatypes.S k)%nat.
Definition counted (cmd : char * list R) : Prop :=
  In (fst cmd) (chars "mMlL") /\ times 2 (snd cmd) \/ In (fst cmd) (chars "vVhH") /\ times 1 (snd cmd) \/
  In (fst cmd) (chars "cC") /\ times 6 (snd cmd) \/ In (fst cmd) (chars "qQ") /\ times 4 (snd cmd) \/
  In (fst cmd) (chars "aA") /\ times 7 (snd cmd) \/ In (fst cmd) (chars "zZ").

Lemma times_count : forall n args, (0 < n)%nat -> times n args -> wrong_count n args = false.
Proof.
  intros n args N [k L]. unfold wrong_count. rewrite L. apply orb_false_iff. split; [apply Nat.ltb_ge; nia|].
  apply negb_false_iff, Nat.eqb_eq. rewrite Nat.mul_comm. apply Nat.mod_mul. lia.
Qed.

Lemma counted_built : forall cmd args c tr f, counted (cmd, args) -> is_arc cmd = false -> exists c' segs, build_path c cmd args tr f = Ok (Some (c', segs)).
Proof.
  intros cmd args c tr f C NA. unfold counted in C. cbn [fst snd] in C. unfold is_arc in NA. unfold build_path. rewrite NA.
  destruct C as [[I T]|[[I T]|[[I T]|[[I T]|[[I T]|I]]]]].
  5: { apply is_one_of_In in I. congruence. }
  all: cbn in I; repeat (destruct I as [I|I]; [subst cmd; cbn -[wrong_count build_lines build_vertical build_horizontal build_cubics build_quadratics is_lower]|]); try contradiction I.
  all: try match goal with T : times ?n _ |- _ => rewrite (times_count n _ ltac:(lia) T) end.
  all: try (destruct args as [|x [|y r]]; [eexists; eexists; reflexivity..|]; match goal with |- context [build_lines ?a ?b ?c ?d] => destruct (build_lines a b c d) end; eexists; eexists; reflexivity).
  all: try (destruct (build_lines _ _ _ _); eauto; fail).
  all: try (destruct (build_cubics _ _ _ _ _) as [[? ?] ?]; eauto; fail).
  all: try (destruct (build_quadratics _ _ _ _ _) as [[? ?] ?]; eauto; fail).
  all: try (eauto; fail).
  all: (destruct args; [destruct T as [k T]; cbn in T; lia|]; cbn [List.length Nat.eqb]; first [destruct (build_vertical _ _ _ _)|destruct (build_horizontal _ _ _ _)]; eauto).
Qed.

(** ** An arc that keeps clear is built *)

Lemma even_image : forall tr p r, even tr ->
  let m := Rabs (B2R (fm0 tr)) in
  exists a b, Rabs a = m /\ Rabs b = m /\
    vx (tapply (rtr tr) p) - vx (tapply (rtr tr) r) = a * (vx p - vx r) /\ vy (tapply (rtr tr) p) - vy (tapply (rtr tr) r) = b * (vy p - vy r).
Proof.
  intros tr p r (Z1 & Z2 & [F0 _] & F3 & M). exists (B2R (fm0 tr)), (B2R (fm3 tr)). split; [reflexivity|]. split; [exact M|].
  assert (ZV : forall x, feq x fzero = true -> B2R x = 0).
  { intros x Z. destruct x as [s|s| |s m e B]; try reflexivity; try (destruct s; discriminate Z). }
  unfold tapply, rtr. cbn [vx vy m0 m1 m2 m3 m4 m5]. rewrite (ZV _ Z1), (ZV _ Z2). split; ring.
Qed.

Lemma chord_image : forall m E d a b D, 0 <= m -> 0 < E -> Rabs a = m -> Rabs b = m ->
  Rabs (vx D - a * vx d) <= 2 * E -> Rabs (vy D - b * vy d) <= 2 * E ->
  let D2 := vx D * vx D + vy D * vy D in
  let l := m * sqrt (vx d * vx d + vy d * vy d) in
  0 <= l /\ l * l - 8 * (l * E) <= D2 <= (l + 4 * E) * (l + 4 * E).
Proof.
  intros m E d a b D M0 E0 A B X Y D2 l0.
  set (c := sqrt (vx d * vx d + vy d * vy d)) in *.
  assert (CC : c * c = vx d * vx d + vy d * vy d).
  { apply sqrt_def. pose proof (Rle_0_sqr (vx d)) as K1. pose proof (Rle_0_sqr (vy d)) as K2. unfold Rsqr in *. lra. }
  assert (c0 : 0 <= c) by apply sqrt_pos.
  set (p := a * vx d) in *. set (q := b * vy d) in *.
  assert (PQ : l0 * l0 = p * p + q * q).
  { unfold l0. replace ((m * c) * (m * c)) with (m * m * (c * c)) by ring. rewrite CC. unfold p, q.
    assert (AA : a * a = m * m) by (rewrite <- A, <- Rabs_mult; symmetry; apply Rabs_pos_eq; pose proof (Rle_0_sqr a); unfold Rsqr in *; lra).
    assert (BB : b * b = m * m) by (rewrite <- B, <- Rabs_mult; symmetry; apply Rabs_pos_eq; pose proof (Rle_0_sqr b); unfold Rsqr in *; lra).
    replace (a * vx d * (a * vx d)) with (a * a * (vx d * vx d)) by ring. replace (b * vy d * (b * vy d)) with (b * b * (vy d * vy d)) by ring. rewrite AA, BB. ring. }
  assert (L0 : 0 <= l0) by (apply Rmult_le_pos; assumption). set (l := l0) in *. clearbody l. clear l0.
  assert (Pl : Rabs p <= l). { apply Rsqr_incr_0_var; [|exact L0]. rewrite <- Rsqr_abs. unfold Rsqr. pose proof (Rle_0_sqr q). unfold Rsqr in *. lra. }
  assert (Ql : Rabs q <= l). { apply Rsqr_incr_0_var; [|exact L0]. rewrite <- Rsqr_abs. unfold Rsqr. pose proof (Rle_0_sqr p). unfold Rsqr in *. lra. }
  set (x := vx D - p) in *. set (y := vy D - q) in *.
  assert (D2E : D2 = l * l + 2 * (p * x + q * y) + (x * x + y * y)) by (unfold D2, x, y in *; rewrite PQ; ring).
  assert (PX : Rabs (p * x) <= l * (2 * E)) by (rewrite Rabs_mult; apply Rmult_le_compat; auto using Rabs_pos).
  assert (QY : Rabs (q * y) <= l * (2 * E)) by (rewrite Rabs_mult; apply Rmult_le_compat; auto using Rabs_pos).
  assert (XX : 0 <= x * x <= 4 * (E * E)).
  { split; [apply Rle_0_sqr|]. replace (x * x) with (Rabs x * Rabs x) by (rewrite <- Rabs_mult; apply Rabs_pos_eq, Rle_0_sqr).
    replace (4 * (E * E)) with ((2 * E) * (2 * E)) by ring. apply Rmult_le_compat; auto using Rabs_pos. }
  assert (YY : 0 <= y * y <= 4 * (E * E)).
  { split; [apply Rle_0_sqr|]. replace (y * y) with (Rabs y * Rabs y) by (rewrite <- Rabs_mult; apply Rabs_pos_eq, Rle_0_sqr).
    replace (4 * (E * E)) with ((2 * E) * (2 * E)) by ring. apply Rmult_le_compat; auto using Rabs_pos. }
  apply le_abs in PX, QY. split; [exact L0|]. replace ((l + 4 * E) * (l + 4 * E)) with (l * l + 8 * (l * E) + 16 * (E * E)) by ring.
  replace (l * (2 * E)) with (2 * (l * E)) in PX, QY by ring. split; lra.
Qed.

Lemma clear_sizes : forall m E rx d a b D S, 0 <= m -> 0 < E -> keeps_clear m E (rx, d) -> Rabs a = m -> Rabs b = m ->
  Rabs (vx D - a * vx d) <= 2 * E -> Rabs (vy D - b * vy d) <= 2 * E -> m * Rabs rx * (1 - 2 / 2 ^ 53) <= S ->
  let D2 := vx D * vx D + vy D * vy D in
  D2 <> 0 /\ D2 <= 4 * (S * S) * (1 - 60 / 2 ^ 53).
Proof.
  intros m E rx d a b D S M0 E0 [C1 C2] A B X Y HS D2. cbn [fst snd] in C1, C2.
  destruct (chord_image m E d a b D M0 E0 A B X Y) as (l0 & DL & DU). fold D2 in DL, DU. set (l := m * sqrt _) in *. clearbody l D2.
  split.
  - assert (0 < l * (l - 8 * E)) by (apply Rmult_lt_0_compat; lra). replace (l * (l - 8 * E)) with (l * l - 8 * (l * E)) in H by ring. lra.
  - set (X0 := m * Rabs rx) in *.
    assert (LS : l + 4 * E <= 2 * (S * (1 - 60 / 2 ^ 53))).
    { assert (X1 : 0 <= X0) by (apply Rmult_le_pos; [exact M0|apply Rabs_pos]).
      apply Rle_trans with (2 * (X0 * (1 - 2 / 2 ^ 53) * (1 - 60 / 2 ^ 53))).
      - apply Rle_trans with (2 * X0 * (1 - / 2 ^ 40)); [lra|]. replace (2 * (X0 * (1 - 2 / 2 ^ 53) * (1 - 60 / 2 ^ 53))) with (2 * X0 * ((1 - 2 / 2 ^ 53) * (1 - 60 / 2 ^ 53))) by ring.
        apply Rmult_le_compat_l; [lra|]. cbn [pow]. lra.
      - apply Rmult_le_compat_l; [lra|]. apply Rmult_le_compat_r; [cbn [pow]; lra|exact HS]. }
    eapply Rle_trans; [exact DU|]. set (g := 1 - 60 / 2 ^ 53) in *. assert (G : 0 < g <= 1) by (unfold g; cbn [pow]; lra). clearbody g.
    apply Rle_trans with ((2 * (S * g)) * (2 * (S * g))); [apply Rmult_le_compat; lra|].
    replace (2 * (S * g) * (2 * (S * g))) with (4 * (S * S) * (g * g)) by ring. apply Rmult_le_compat_l; [pose proof (Rle_0_sqr S); unfold Rsqr in *; lra|].
    rewrite <- (Rmult_1_r g) at 3. apply Rmult_le_compat_l; lra.
Qed.

Lemma wide_sizes : forall m E rx d a b D S, 0 <= m -> 0 < E -> too_wide m E (rx, d) -> Rabs a = m -> Rabs b = m ->
  Rabs (vx D - a * vx d) <= 2 * E -> Rabs (vy D - b * vy d) <= 2 * E -> 0 <= S <= m * Rabs rx * (1 + 2 / 2 ^ 53) ->
  4 * (S * S) * (1 + 60 / 2 ^ 53) <= vx D * vx D + vy D * vy D.
Proof.
  intros m E rx d a b D S M0 E0 C1 A B X Y [S0 HS]. unfold too_wide in C1. cbn [fst snd] in C1.
  destruct (chord_image m E d a b D M0 E0 A B X Y) as (l0 & DL & DU). set (l := m * sqrt _) in *. clearbody l. eapply Rle_trans; [|exact DL].
  set (X0 := m * Rabs rx) in *. assert (X1 : 0 <= X0) by (apply Rmult_le_pos; [exact M0|apply Rabs_pos]).
  apply Rle_trans with ((l - 10 * E) * (l - 10 * E)).
  2: { replace ((l - 10 * E) * (l - 10 * E)) with (l * l - 20 * (l * E) + 100 * (E * E)) by ring.
       assert (10 * (E * E) <= l * E) by (rewrite <- Rmult_assoc; apply Rmult_le_compat_r; [lra|]; pose proof (Rmult_le_pos _ (1 + / 2 ^ 40) (Rmult_le_pos 2 X0 ltac:(lra) X1) ltac:(cbn [pow]; lra)); lra). pose proof (Rmult_le_pos l E l0 ltac:(lra)). lra. }
  apply Rle_trans with ((2 * X0 * (1 + / 2 ^ 40)) * (2 * X0 * (1 + / 2 ^ 40))).
  - apply Rle_trans with (4 * ((X0 * (1 + 2 / 2 ^ 53)) * (X0 * (1 + 2 / 2 ^ 53))) * (1 + 60 / 2 ^ 53)).
    + apply Rmult_le_compat_r; [cbn [pow]; lra|]. apply Rmult_le_compat_l; [lra|]. apply Rmult_le_compat; assumption.
    + replace (4 * (X0 * (1 + 2 / 2 ^ 53) * (X0 * (1 + 2 / 2 ^ 53))) * (1 + 60 / 2 ^ 53)) with (4 * (X0 * X0) * ((1 + 2 / 2 ^ 53) * (1 + 2 / 2 ^ 53) * (1 + 60 / 2 ^ 53))) by ring.
      replace (2 * X0 * (1 + / 2 ^ 40) * (2 * X0 * (1 + / 2 ^ 40))) with (4 * (X0 * X0) * ((1 + / 2 ^ 40) * (1 + / 2 ^ 40))) by ring.
      apply Rmult_le_compat_l; [apply Rmult_le_pos; [lra|apply Rmult_le_pos; assumption]|]. cbn [pow]. lra.
  - assert (0 <= 2 * X0 * (1 + / 2 ^ 40)) by (apply Rmult_le_pos; [lra|cbn [pow]; lra]). apply Rmult_le_compat; lra.
Qed.

Lemma radius_kept : forall tr rx frx m, / 2 ^ 98 <= Rabs rx <= 2 ^ 98 -> rounds_to rx frx -> m = Rabs (B2R (fm0 tr)) ->
  m * Rabs rx * (1 - 2 / 2 ^ 53) <= m * Rabs (B2R frx) <= m * Rabs rx * (1 + 2 / 2 ^ 53).
Proof.
  intros tr rx frx m [L U] X ->. pose proof (Rabs_pos (B2R (fm0 tr))) as M.
  assert (B : Rabs rx <= bpow radix2 1000) by (eapply Rle_trans; [exact U|]; rewrite pow_bpow; apply bpow_le; lia).
  destruct (rounds_val rx frx B X) as [_ V]. 
  assert (TL : tiny <= u53 * Rabs rx).
  { apply Rle_trans with (u53 * / 2 ^ 98); [|apply Rmult_le_compat_l; [pose proof u53_pos; lra|exact L]].
    rewrite u53_is, <- Rinv_mult, <- pow_add, pow_bpow, <- bpow_opp. unfold tiny. apply bpow_le. lia. }
  pose proof (Rabs_triang_inv rx (B2R frx)) as T2. pose proof (Rabs_triang_inv (B2R frx) rx) as T1. rewrite (Rabs_minus_sym rx) in T2. rewrite u53_is in *.
  rewrite !Rmult_assoc. split; (apply Rmult_le_compat_l; [exact M|unfold Rdiv; lra]).
Qed.

Section Reading.
Variables (tg : trig) (q S T P K : R) (tr : ftransform).
Hypothesis ZE : zero_exact tg.
Hypothesis AA : angle_accurate tg q.
Hypothesis HQ : 0 <= q <= 2 ^ 40.
Hypothesis EV : even tr.
Hypothesis HS : setting S T P tr.
Hypothesis HK : K <= many - 60.
Hypothesis BQ : Qof S T P <= 2 ^ 190.
Let Q := Qof S T P.
Let E := (K + 16) * (u53 * Q).
Let m := Rabs (B2R (fm0 tr)).

Lemma place_fits : forall p r k, 0 <= k <= K -> nv k P p r -> box P r ->
  fits (2 ^ 197) (ftapply tr p) /\ within E (ftapply tr p) (tapply (rtr tr) r).
Proof.
  intros p r k HK0 N B.
  destruct (point_near S T P tr p r k (K + 16) HS ltac:(lra) ltac:(lra) N B) as [N' B']. fold Q in N', B'.
  pose proof (nv_within _ _ _ _ N') as W. fold E in W. split; [|exact W].
  destruct W as (F1 & F2 & V1 & V2). destruct B' as [B1 B2].
  assert (EQ : E <= Q).
  { unfold E. pose proof u53_pos as [U0 _]. pose proof (setting_Q _ _ _ _ HS) as Q1. fold Q in Q1.
    apply Rle_trans with (many * (u53 * Q)); [apply Rmult_le_compat_r; [apply Rmult_le_pos; lra|lra]|].
    assert (MM : many = 2 ^ 50) by (unfold many; lra). rewrite MM, u53_val. lra. }
  assert (QB : 2 * Q <= 2 ^ 197).
  { apply Rle_trans with (2 ^ 191); [|apply Rle_pow; [lra|lia]]. replace (2 ^ 191) with (2 * 2 ^ 190); [fold Q in BQ; lra|]. change 191%nat with (1 + 190)%nat. rewrite pow_add. ring. }
  clear - F1 F2 V1 V2 B1 B2 QB EQ. set (w := 2 ^ 197) in *. clearbody w. apply le_abs in V1, V2, B1, B2.
  split; [split; [exact F1|exact F2]|]. split; apply Rabs_le; cbn [rv vx vy]; lra.
Qed.

Lemma arcs_read : forall (rel : bool) (R : Rdefinitions.R) args fargs pos r k, Forall2 rounds_to args fargs -> args_ok 5 P (ends fargs) (ends args) -> 0 <= k -> k + 5 * count (ends fargs) <= K ->
  nv k P pos r -> box P r -> bounded P (if rel then abs_pairs 0 0 r (ends args) else ends args) -> circles_in m R args ->
  fbuild_arcs tg rel tr pos fargs = Ok None /\ ~ Forall (keeps_clear m E) (arc_chords rel r args) \/
  exists e segs, fbuild_arcs tg rel tr pos fargs = Ok (Some (e, segs)) /\ Forall (fun ch => ~ too_wide m E ch) (arc_chords rel r args).
Proof.
  intros rel R args. remember (List.length args) as n eqn:L. assert (B : (List.length args <= n)%nat) by lia. clear L. revert args B.
  induction n as [|n IH]; intros args B fargs pos r k H AO K0 KB N BX BD CI.
  - destruct args; [|cbn in B; lia]. inversion H; subst. right. eexists. eexists. split; [reflexivity|constructor].
  - destruct H as [|rx frx a1 f1 X1 H]; [right; eexists; eexists; split; [reflexivity|constructor]|]. destruct H as [|ry fry a2 f2 X2 H]; [right; eexists; eexists; split; [reflexivity|constructor]|].
    destruct H as [|rot frot a3 f3 X3 H]; [right; eexists; eexists; split; [reflexivity|constructor]|]. destruct H as [|la fla a4 f4 X4 H]; [right; eexists; eexists; split; [reflexivity|constructor]|].
    destruct H as [|sw fsw a5 f5 X5 H]; [right; eexists; eexists; split; [reflexivity|constructor]|]. destruct H as [|x fx0 a6 f6 X6 H]; [right; eexists; eexists; split; [reflexivity|constructor]|].
    destruct H as [|y fy0 args fargs X7 H]; [right; eexists; eexists; split; [reflexivity|constructor]|].
    cbn [ends] in AO, KB, BD. cbn [arc_chords].
    pose proof CI as CI0. cbn [circles_in] in CI. destruct CI as (_ & SZ & _ & _ & CI).
    inversion AO as [|? ? ? ? Fx AO1]; subst. inversion AO1 as [|? ? ? ? Fy AO2]; subst. clear AO AO1.
    rewrite !count_cons in KB. pose proof (count_pos (ends fargs)) as C0. pose proof (se_P _ _ _ _ HS) as HP.
    assert (X : box P (PathBuild.moved rel r (mk_vec x y)) /\ bounded P (if rel then abs_pairs 0 0 (PathBuild.moved rel r (mk_vec x y)) (ends args) else ends args)).
    { destruct rel; cbn [abs_pairs] in BD; inversion BD as [|? ? Bx HBd1]; subst; inversion HBd1 as [|? ? By HBd2]; subst; split; auto; split; auto. }
    destruct X as [XB XD].
    pose proof (nv_moved 5 rel pos r fx0 fy0 x y k P HP ltac:(lra) K0 ltac:(lra) Fx Fy N XB) as N1.
    set (e1 := fmoved rel pos (mk_fvec fx0 fy0)) in *. set (re := PathBuild.moved rel r (mk_vec x y)) in *.
    assert (RE : re = if rel then mk_vec (vx r + x) (vy r + y) else mk_vec x y) by (unfold re, PathBuild.moved; destruct rel; reflexivity). rewrite <- RE.
    destruct (place_fits pos r k ltac:(lra) N BX) as [FP WP]. destruct (place_fits e1 re (k + 5) ltac:(lra) N1 XB) as [FE WE].
    cbn [fbuild_arcs]. set (a := mk_farc_args frx fry (fradians frot) (negb (feq fla fzero)) (negb (feq fsw fzero)) fx0 fy0) in *.
    assert (CA : circle a).
    { destruct (circles_rounded tr R (rx :: ry :: rot :: la :: sw :: x :: y :: args) (frx :: fry :: frot :: fla :: fsw :: fx0 :: fy0 :: fargs)) as [J _]; [repeat (constructor; [assumption|]); exact H|exact CI0|].
      cbn [arcs_in] in J. inversion J; assumption. }
    destruct (C121_arc tg q tr rel pos a ZE AA HQ EV CA FP FE) as (_ & OKA & NOA & SH). change (fmoved rel pos (mk_fvec (farc_x a) (farc_y a))) with e1 in OKA, NOA, SH.
    destruct (even_image tr re r EV) as (ax & by0 & AX & BY & IX & IY). fold m in AX, BY.
    assert (M0 : 0 <= m) by apply Rabs_pos.
    assert (E0 : 0 < E).
    { unfold E. pose proof u53_pos as [U0 _]. pose proof (setting_Q _ _ _ _ HS) as Q1. fold Q in Q1. apply Rmult_lt_0_compat; [lra|apply Rmult_lt_0_compat; lra]. }
    set (D := vsub (rv (ftapply tr e1)) (rv (ftapply tr pos))) in *. set (d := mk_vec (vx re - vx r) (vy re - vy r)) in *.
    assert (VX : Rabs (vx D - ax * vx d) <= 2 * E).
    { destruct WP as (_ & _ & V1 & _), WE as (_ & _ & V2 & _). unfold D, d. cbn [vx vy vsub rv] in *. rewrite <- IX. apply le_abs in V1, V2. apply Rabs_le. lra. }
    assert (VY : Rabs (vy D - by0 * vy d) <= 2 * E).
    { destruct WP as (_ & _ & _ & V1), WE as (_ & _ & _ & V2). unfold D, d. cbn [vx vy vsub rv] in *. rewrite <- IY. apply le_abs in V1, V2. apply Rabs_le. lra. }
    destruct (radius_kept tr rx frx m SZ X1 eq_refl) as [R1 R2]. change (m * Rabs (B2R frx)) with (scaled tr a) in R1, R2.
    assert (S0 : 0 <= scaled tr a) by (apply Rmult_le_pos; apply Rabs_pos).
    assert (CLA : keeps_clear m E (rx, d) -> fbuild_arc tg rel tr pos a <> Ok None).
    { intros C. destruct (clear_sizes m E rx d ax by0 D (scaled tr a) M0 E0 C AX BY VX VY R1) as [D1 D2]. exact (OKA D1 D2). }
    assert (WIA : too_wide m E (rx, d) -> fbuild_arc tg rel tr pos a = Ok None).
    { intros C. apply NOA. apply (wide_sizes m E rx d ax by0 D (scaled tr a) M0 E0 C AX BY VX VY (conj S0 R2)). }
    destruct (fbuild_arc tg rel tr pos a) as [[[e s]|]| |]; try contradiction; cbn [Base.bind].
    + destruct SH as [-> _]. assert (NW : ~ too_wide m E (rx, d)) by (intros W; discriminate (WIA W)).
      destruct (IH args ltac:(cbn [List.length] in B; lia) fargs e1 re (k + 5) H AO2 ltac:(lra) ltac:(lra) N1 XB XD CI) as [[-> NC]|(e2 & s2 & -> & NW2)]; cbn [Base.bind].
      * left. split; [reflexivity|]. intros C. inversion C; subst. contradiction.
      * right. eexists. eexists. split; [reflexivity|]. constructor; assumption.
    + left. split; [reflexivity|]. intros C. inversion C; subst. apply CLA; [assumption|reflexivity].
Qed.

Lemma commands_read : forall (R : Rdefinitions.R) cmds fcmds c rc f k,
  Forall2 (fun c fc => fst c = fst fc /\ Forall2 rounds_to (snd c) (snd fc)) cmds fcmds -> cmds_ok 5 P (map straight fcmds) (map straight cmds) ->
  0 <= k -> k + 5 * total (map straight fcmds) <= K -> ctx_near k P c rc ->
  Forall (fun cmd => bounded P (snd cmd)) (absolute (p_pos rc) (p_start rc) f (map straight cmds)) ->
  Forall (fun cmd => In (fst cmd) (chars "aA") -> circles_in m R (snd cmd)) cmds ->
  fbuild_commands tg c fcmds tr f = Ok None /\ ~ (Forall counted cmds /\ Forall (keeps_clear m E) (chords (p_pos rc) (p_start rc) f cmds)) \/
  exists c' segs, fbuild_commands tg c fcmds tr f = Ok (Some (c', segs)) /\ Forall (fun ch => ~ too_wide m E ch) (chords (p_pos rc) (p_start rc) f cmds).
Proof.
  intros R cmds. induction cmds as [|[cmd args] cmds IH]; intros fcmds c rc f k RC CO K0 KB CN AB CI.
  - inversion RC; subst. right. eexists. eexists. split; [reflexivity|constructor].
  - inversion RC as [|? [fcmd fargs] ? frest [HC HA] RC2]; subst. cbn [fst snd] in HC, HA. subst fcmd.
    inversion CI as [|? ? CI1 CI2]; subst. cbn [fst snd] in CI1. cbn [chords]. cbv zeta. cbn [fst snd].
    pose proof (straight_no_arcs [(cmd, args)]) as NA. cbn [map] in NA. inversion NA as [|? ? NA1 _]; subst.
    cbn [map] in CO, KB, AB.
    destruct (straight (cmd, args)) as [scmd sargs] eqn:ST. destruct (straight (cmd, fargs)) as [fscmd fsargs] eqn:SF.
    cbn [fst snd] in *. inversion CO as [|? ? ? ? [HC1 HA1] CO2]; subst. cbn [fst snd] in HC1, HA1. subst fscmd.
    rewrite total_cons in KB. cbn [snd] in KB. pose proof (total_pos (map straight frest)) as T0. pose proof (count_pos fsargs) as C0.
    cbn [absolute] in AB. inversion AB as [|? ? AB1 AB2]; subst. cbn [snd] in AB1.
    (* the command with lines instead *)
    pose proof (path_near tg 5 S T P tr c rc scmd fsargs sargs f k ltac:(lra) HS HA1 K0 ltac:(lra) NA1 CN AB1) as PN. cbv zeta in PN.
    (* the command itself *)
    assert (OUT : fbuild_path tg c cmd fargs tr f = Ok None /\ ~ (counted (cmd, args) /\ Forall (keeps_clear m E) (if is_arc cmd then arc_chords (is_lower cmd) (p_pos rc) args else [])) \/
      exists c1 s1, fbuild_path tg c cmd fargs tr f = Ok (Some (c1, s1)) /\ Forall (fun ch => ~ too_wide m E ch) (if is_arc cmd then arc_chords (is_lower cmd) (p_pos rc) args else [])).
    { unfold straight in ST, SF. cbn [fst snd] in ST, SF. destruct (is_arc cmd) eqn:IA.
      - injection ST as <- <-. assert (EF : fsargs = ends fargs) by congruence. subst fsargs. clear SF.
        assert (I : In cmd (chars "aA")) by (apply is_one_of_In; exact IA). specialize (CI1 I).
        assert (W : counted (cmd, args) -> fwrong_count 7 fargs = false).
        { intros CT1. assert (T7 : times 7 args).
          { unfold counted in CT1. cbn [fst snd] in CT1. cbn in I. clear - CT1 I.
            destruct I as [<- |[<- |[]]]; destruct CT1 as [[I T]|[[I T]|[[I T]|[[I T]|[[I T]|I]]]]]; auto; cbn in I; repeat (destruct I as [I|I]; [discriminate I|]); contradiction I. }
          rewrite <- (times_count 7 args ltac:(lia) T7). unfold wrong_count, fwrong_count. replace (List.length fargs) with (List.length args) by (clear - HA; induction HA; cbn [List.length]; congruence). reflexivity. }
        assert (FBP : fbuild_path tg c cmd fargs tr f = if fwrong_count 7 fargs then Ok None else let! r := fbuild_arcs tg (is_lower cmd) tr (fp_pos c) fargs in
          match r with None => Ok None | Some (e, segs) => Ok (Some (mk_fpctx e (fp_start c) (fp_last_control c), segs)) end).
        { clear - I. cbn in I. destruct I as [<- |[<- |[]]]; reflexivity. }
        rewrite FBP. destruct (fwrong_count 7 fargs); [left; split; [reflexivity|]; intros [CT1 _]; discriminate (W CT1)|].
        destruct CN as (N1 & B1 & _).
        assert (BD : bounded P (if is_lower cmd then abs_pairs 0 0 (p_pos rc) (ends args) else ends args)).
        { clear - AB1 I. cbn in I. destruct I as [<- |[<- |[]]]; exact AB1. }
        destruct (arcs_read (is_lower cmd) R args fargs (fp_pos c) (p_pos rc) k HA HA1 K0 ltac:(lra) N1 B1 BD CI1) as [[-> NC]|(e & s & -> & NW)]; cbn [Base.bind].
        + left. split; [reflexivity|]. tauto.
        + right. eauto.
      - injection ST as <- <-. assert (EF : fsargs = fargs) by congruence. subst fsargs.
        destruct (fbuild_path tg c cmd fargs tr f) as [[[c1 s1]|]| |]; try contradiction; [right; eauto|].
        left. split; [reflexivity|]. intros [CT1 _]. destruct (counted_built cmd args rc (rtr tr) f CT1 IA) as (rc1 & rs1 & EB). rewrite EB in PN. exact PN. }
    cbn [fbuild_commands]. destruct OUT as [[-> NC]|(c1 & s1 & FB & NW)].
    { left. split; [reflexivity|]. intros [C1 C2]. apply Forall_app in C2. inversion C1; subst. tauto. }
    rewrite FB. cbn [Base.bind].
    destruct (path_bent tg tr c cmd fargs f c1 s1 FB (fp_last_control c)) as (ctl & lines & FS & _). rewrite SF in FS. cbn [fst snd] in FS.
    replace (mk_fpctx (fp_pos c) (fp_start c) (fp_last_control c)) with c in FS by (destruct c; reflexivity). rewrite FS in PN.
    destruct (build_path rc scmd sargs (rtr tr) f) as [[[rc1 rs1]|]| |] eqn:EB; cbn [out_near] in PN; try contradiction. destruct PN as [CN1 _].
    rewrite build_path_abs in EB. apply build_path_cursor in EB; [|apply upper_lower]. destruct EB as [E1 E2]. rewrite <- E1, <- E2 in *.
    assert (CN2 : ctx_near (k + 5 * count fsargs) P c1 rc1) by exact CN1.
    destruct (IH frest c1 rc1 false (k + 5 * count fsargs) RC2 CO2 ltac:(lra) ltac:(lra) CN2 AB2 CI2) as [[-> NC]|(c2 & s2 & -> & NW2)]; cbn [Base.bind].
    + left. split; [reflexivity|]. intros [C1 C2]. apply Forall_app in C2. inversion C1; subst. tauto.
    + right. eexists. eexists. split; [reflexivity|]. apply Forall_app. split; assumption.
Qed.
End Reading.

(** ** Paths *)

Section Texts.
Variables (tg : trig) (q S T P R : R) (tr : ftransform).
Hypothesis ZE : zero_exact tg.
Hypothesis AA : angle_accurate tg q.
Hypothesis HQ : 0 <= q <= 2 ^ 40.
Hypothesis EV : even tr.
Hypothesis TS : Forall (fun m => is_finite m = true /\ Rabs (B2R m) <= S) [fm0 tr; fm1 tr; fm2 tr; fm3 tr].
Hypothesis TT : Forall (fun m => is_finite m = true /\ Rabs (B2R m) <= T) [fm4 tr; fm5 tr].
Hypothesis P1 : 1 <= P.
Hypothesis PH : P <= 2 ^ 900.
Let m := Rabs (B2R (fm0 tr)).
Let Q := 2 * S * P + T + 1.
Hypothesis BQ : Q <= 2 ^ 190.

Lemma built_outcome : forall cmds fcmds n, Forall2 (fun c fc => fst c = fst fc /\ Forall2 rounds_to (snd c) (snd fc)) cmds fcmds ->
  Forall (fun cmd => In (fst cmd) (chars "aA") -> circles_in m R (snd cmd)) cmds ->
  Forall (fun cmd => Forall (fun a => Rabs a <= P) (snd cmd)) (absolute (mk_vec 0 0) (mk_vec 0 0) true (map straight cmds)) ->
  (list_sum (map (fun cmd => List.length (snd cmd)) (map straight cmds)) <= n)%nat -> INR n <= 2 ^ 40 ->
  let E := (5 * INR n + 16) * Q / 2 ^ 53 in
  fbuild_commands tg fpath_ctx_new fcmds tr true = Ok None /\ ~ (Forall counted cmds /\ Forall (keeps_clear m E) (chords (mk_vec 0 0) (mk_vec 0 0) true cmds)) \/
  exists pc segs, fbuild_commands tg fpath_ctx_new fcmds tr true = Ok (Some (pc, segs)) /\ Forall (fun ch => ~ too_wide m E ch) (chords (mk_vec 0 0) (mk_vec 0 0) true cmds).
Proof.
  intros cmds fcmds n RC CI AB LE BN E.
  pose proof (straight_rounds _ _ RC) as RS. pose proof (straight_no_arcs cmds) as NA.
  assert (SM : Forall (fun cmd => Forall (fun a => Rabs a <= 2 * P) (snd cmd)) (map straight cmds)).
  { assert (BZ : box P (mk_vec 0 0)) by (split; cbn [vx vy]; rewrite Rabs_R0; lra).
    apply (numbers_small P (map straight cmds) (mk_vec 0 0) (mk_vec 0 0) true); auto. lra. }
  assert (P2 : 2 * P <= bpow radix2 1000).
  { apply Rle_trans with (bpow radix2 (1 + 900)); [|apply bpow_le; lia]. rewrite bpow_plus. change (bpow radix2 1) with 2.
    apply Rmult_le_compat_l; [lra|]. rewrite <- huge_is in PH. exact PH. }
  assert (CO : cmds_ok 5 P (map straight fcmds) (map straight cmds)).
  { clear - RS SM P1 P2. unfold cmds_ok. revert SM. induction RS as [|c fc cmds' fcmds' [L A] RC IH]; intros SM; constructor.
    - split; [symmetry; exact L|]. inversion SM as [|? ? S1 _]; subst. clear - A S1 P1 P2. unfold args_ok.
      induction A as [|r x rs xs R A IH]; constructor.
      + inversion S1; subst. replace (5 - 2) with 3 by ring. apply rounds_near; assumption.
      + apply IH. inversion S1; assumption.
    - apply IH. inversion SM; assumption. }
  assert (LN : total (map straight fcmds) <= INR n).
  { unfold total. apply le_INR. eapply Nat.le_trans; [|exact LE]. clear - CO. induction CO as [|c r cs rs [_ A] CO IH]; [apply le_n|].
    cbn [map list_sum fold_right]. rewrite (args_length _ _ _ _ A). unfold list_sum in IH. lia. }
  assert (W900 : 2 * Q <= 2 ^ 900).
  { apply Rle_trans with (2 ^ 191); [|apply Rle_pow; [lra|lia]]. replace (2 ^ 191) with (2 * 2 ^ 190); [lra|]. change 191%nat with (1 + 190)%nat. rewrite pow_add. ring. }
  assert (HS : setting S T P tr).
  { constructor; [split; assumption|split; [exact P1|rewrite huge_is; exact PH]|]. rewrite huge_is. exact W900. }
  assert (Z0 : B2R fzero = 0) by (apply zero_value).
  assert (NZ : nv 0 P fvzero (mk_vec 0 0)).
  { unfold fvzero. split; cbn [fx fy vx vy]; (split; [reflexivity|]); rewrite Z0, Rminus_0_r, Rabs_R0, Rmult_0_l; lra. }
  assert (BZ : box P (mk_vec 0 0)) by (split; cbn [vx vy]; rewrite Rabs_R0; lra).
  assert (CN : ctx_near 0 P fpath_ctx_new path_ctx_new) by (split; [|split; [|split]]; assumption).
  assert (MM : many = 2 ^ 50) by (unfold many; lra).
  assert (HK : 5 * INR n <= many - 60) by (rewrite MM; clear - BN; set (x := INR n) in *; clearbody x; lra).
  assert (EE : (5 * INR n + 16) * (u53 * Qof S T P) = E) by (unfold E, Rdiv; rewrite u53_is; change (Qof S T P) with Q; ring).
  pose proof (commands_read tg q S T P (5 * INR n) tr ZE AA HQ EV HS HK BQ R cmds fcmds fpath_ctx_new path_ctx_new true 0 RC CO (Rle_refl 0) ltac:(lra) CN AB CI) as G.
  cbv zeta in G. rewrite EE in G. exact G.
Qed.
End Texts.

(** The text of a path whose arcs are circles is never a panic. It is read if every command has the
    numbers it needs and all arcs keep clear; and if one of its arcs is too wide it is refused. *)
Theorem C126_text : forall tg q text cmds tr S T P R, zero_exact tg -> angle_accurate tg q -> 0 <= q <= 2 ^ 40 -> even tr ->
  path_text text cmds -> Forall (fun cmd => In (fst cmd) (chars "aA") -> circles_in (Rabs (B2R (fm0 tr))) R (snd cmd)) cmds -> 1 <= P ->
  Forall (fun cmd => Forall (fun a => Rabs a <= P) (snd cmd)) (absolute (mk_vec 0 0) (mk_vec 0 0) true (map straight cmds)) ->
  Forall (fun m => is_finite m = true /\ Rabs (B2R m) <= S) [fm0 tr; fm1 tr; fm2 tr; fm3 tr] ->
  Forall (fun m => is_finite m = true /\ Rabs (B2R m) <= T) [fm4 tr; fm5 tr] ->
  let n := list_sum (map (fun cmd => List.length (snd cmd)) (map straight cmds)) in
  let Q := 2 * S * P + T + 1 in
  P <= 2 ^ 900 -> Q <= 2 ^ 190 -> INR n <= 2 ^ 40 ->
  let E := (5 * INR n + 16) * Q / 2 ^ 53 in
  let m := Rabs (B2R (fm0 tr)) in
  let arcs := chords (mk_vec 0 0) (mk_vec 0 0) true cmds in
  (exists r, fparse_path tg text fpath_ctx_new tr = Ok r) /\
  (Forall counted cmds -> Forall (keeps_clear m E) arcs -> exists pc segs, fparse_path tg text fpath_ctx_new tr = Ok (Some (pc, segs))) /\
  (Exists (too_wide m E) arcs -> fparse_path tg text fpath_ctx_new tr = Ok None).
Proof.
  intros tg q text cmds tr S T P R ZE AA HQ EV PT CI P1 AB TS TT n Q PH BQ BN E m arcs.
  destruct (C106_text text cmds PT) as (fcmds & RC & ->).
  destruct (built_outcome tg q S T P R tr ZE AA HQ EV TS TT P1 PH BQ cmds fcmds n RC CI AB (le_n _) BN) as [[-> NC]|(pc & segs & -> & NW)].
  - fold m E arcs in NC. split; [eauto|]. split; [intros C1 C2; exfalso; apply NC; split; assumption|reflexivity].
  - fold m E arcs in NW. split; [eauto|]. split; [eauto|]. intros EX. exfalso. apply Exists_exists in EX. destruct EX as (ch & I & W). rewrite Forall_forall in NW. exact (NW ch I W).
Qed.

(** ** Documents *)

(** A path that starts with a move, with the numbers its commands need; its arcs, if it has any, are
    circles that keep clear, under the even transform [F]. *)
Definition clear_path (P R E : R) (n : nat) (F : ftransform) (d : list char) : Prop :=
  exists m args cmds, In m (chars "mM") /\ path_text d ((m, args) :: cmds) /\ Forall counted ((m, args) :: cmds) /\ (no_arcs ((m, args) :: cmds) \/ even F) /\
    Forall (fun cmd => In (fst cmd) (chars "aA") -> circles_in (Rabs (B2R (fm0 F))) R (snd cmd)) ((m, args) :: cmds) /\
    Forall (fun cmd => Forall (fun a => Rabs a <= P) (snd cmd)) (absolute (mk_vec 0 0) (mk_vec 0 0) true (map straight ((m, args) :: cmds))) /\
    (list_sum (map (fun cmd => List.length (snd cmd)) (map straight ((m, args) :: cmds))) <= n)%nat /\
    Forall (keeps_clear (Rabs (B2R (fm0 F))) E) (chords (mk_vec 0 0) (mk_vec 0 0) true ((m, args) :: cmds)).

Lemma clear_less : forall m E E' ch, E' <= E -> keeps_clear m E ch -> keeps_clear m E' ch.
Proof. intros m E E' ch L [A B]. split; lra. Qed.

Lemma commands_counted : forall cmds c tr f, Forall counted cmds -> no_arcs cmds -> exists c' segs, build_commands c cmds tr f = Ok (Some (c', segs)).
Proof.
  induction cmds as [|[cmd args] cmds IH]; intros c tr f CT NA; [eexists; eexists; reflexivity|]. inversion CT; subst. inversion NA; subst.
  destruct (counted_built cmd args c tr f) as (c1 & s1 & E1); [assumption..|]. destruct (IH c1 tr false) as (c2 & s2 & E2); [assumption..|].
  cbn [build_commands]. rewrite E1. cbn [Base.bind]. rewrite E2. cbn [Base.bind]. eauto.
Qed.

Lemma path_read : forall tg q j N T P R n F A d c,
  zero_exact tg -> angle_accurate tg q -> 0 <= q <= 2 ^ 40 -> 0 <= j <= lots -> 1 <= N -> 0 <= T -> 1 <= P -> INR n <= 2 ^ 40 ->
  zone N T P <= 2 ^ 190 -> tr_near j N T F A -> clear_path P R ((5 * INR n + 16) * zone N T P / 2 ^ 53) n F d ->
  exists c' segs, fparse_path tg d c F = Ok (Some (c', segs)).
Proof.
  intros tg q j N T P R n F A d c ZE AA HQ J N1 T0 P1 NB BQ TN (m & args & cmds & M & PT & CT & EV & CI & AB & LE & CL).
  assert (NP : 1 <= N * P) by (rewrite <- (Rmult_1_r 1); apply Rmult_le_compat; lra). assert (NT : 0 <= N * T) by (apply Rmult_le_pos; lra).
  assert (PNP : P <= N * P) by (rewrite <- (Rmult_1_l P) at 1; apply Rmult_le_compat_r; lra).
  assert (ZV : zone N T P = 3 * (N * P) + 3 * (N * T) + 3 * N) by (unfold zone; ring).
  assert (BQ4 : zone N T P <= bpow radix2 400) by (eapply Rle_trans; [exact BQ|]; rewrite pow_bpow; apply bpow_le; lia).
  destruct EV as [NA|EV].
  - assert (FD : fine_path P n d).
    { exists m, args, cmds. rewrite (no_arcs_straight _ NA) in AB, LE. auto. }
    pose proof (path_placed tg j N T P n F A d c path_ctx_new J N1 T0 P1 BQ4 NB TN FD) as PP. rewrite (C50_complete _ _ _ _ PT) in PP.
    destruct (commands_counted ((m, args) :: cmds) path_ctx_new A true CT NA) as (c' & s & EB). rewrite EB in PP.
    destruct (fparse_path tg d c F) as [[[c1 s1]|]| |]; try contradiction. eauto.
  - destruct (C106_text d _ PT) as (fcmds & RC & EQ).
    assert (IND : fparse_path tg d c F = fbuild_commands tg fpath_ctx_new fcmds F true).
    { rewrite EQ. inversion RC as [|? [m' fargs] ? ? [E1 _] _]; subst. cbn [fst] in E1. subst m'. apply fbuild_independent. exact M. }
    rewrite IND. destruct (tr_near_ok j N T F A J N1 T0 TN) as [TS TT]. set (S := 101 / 100 * N) in *. set (T' := 101 / 100 * (N * (T + 1))) in *.
    assert (QL : 2 * S * P + T' + 1 <= zone N T P) by (rewrite ZV; unfold S, T'; lra).
    assert (P9 : P <= 2 ^ 900) by (apply Rle_trans with (2 ^ 190); [lra|apply Rle_pow; [lra|lia]]).
    assert (CL' : Forall (keeps_clear (Rabs (B2R (fm0 F))) ((5 * INR n + 16) * (2 * S * P + T' + 1) / 2 ^ 53)) (chords (mk_vec 0 0) (mk_vec 0 0) true ((m, args) :: cmds))).
    { eapply Forall_impl; [|exact CL]. intros ch. apply clear_less. pose proof (pos_INR n). apply Rmult_le_compat_r; [apply Rlt_le, Rinv_0_lt_compat, pow_lt; lra|]. apply Rmult_le_compat_l; lra. }
    destruct (built_outcome tg q S T' P R F ZE AA HQ EV TS TT P1 P9 ltac:(lra) _ fcmds n RC CI AB LE NB) as [[_ NC]|(pc & segs & -> & _)]; [|eauto].
    exfalso. apply NC. split; assumption.
Qed.

(** What it takes for the last element of a chain to be read. *)
Definition readable (tg : trig) (chain : list element) : Prop :=
  forall above e, chain = above ++ [e] -> in_svg (fst e) = true ->
    (exists ts, all_some (map (fparse_transform tg) (values "transform" (snd e))) = Some ts) /\
    (exists boxes, all_some (map fparse_view_box (values "viewBox" (snd e))) = Some boxes /\ (local_name (fst e) = chars "svg" -> exists sc, fsvg_scale (snd e) boxes = Some sc)) /\
    (local_name (fst e) = chars "path" -> exists d, last_value "d" (snd e) = Some d /\ forall c, exists c' s, fparse_path tg d c (fplace tg chain) = Ok (Some (c', s))).

Lemma start_read : forall tg above e stack path c k, in_svg (fst e) = true -> readable tg (above ++ [e]) ->
  exists path' c', fstart_svg tg (mk_fdoc stack (fplace tg above) path c k) (fst e) (snd e) = Ok (Some (mk_fdoc (fplace tg above :: stack) (fplace tg (above ++ [e])) path' c' k)).
Proof.
  intros tg above [n attrs] stack path c k SV RD. destruct (RD above (n, attrs) eq_refl SV) as ((ts & HT) & (boxes & HB & HSC) & HP). clear RD. cbn [fst snd] in *.
  rewrite fplace_app in *. unfold fturn in *. cbn [fst snd] in *. rewrite SV, HT, HB in *.
  unfold fstart_svg. rewrite fread_attrs_spec, HT, HB.
  cbn [fcur_transform ftrans_stack fdoc_path fdoc_ctx fignore_nest fat_transform fat_d fat_view_box fat_width fat_height].
  change (last_or (values "d" attrs) None) with (last_value "d" attrs).
  change (last_or (values "width" attrs) None) with (last_value "width" attrs).
  change (last_or (values "height" attrs) None) with (last_value "height" attrs).
  destruct (text_eqb (local_name n) (chars "path")) eqn:E1.
  - apply text_eqb_true in E1. rewrite E1 in *. change (text_eqb (chars "path") (chars "svg")) with false in *. cbv iota in *.
    destruct (HP eq_refl) as (d & -> & PR). destruct (PR c) as (c' & s & ->). cbn [Base.bind]. eauto.
  - destruct (text_eqb (local_name n) (chars "svg")) eqn:E2; [|eauto]. apply text_eqb_true in E2. destruct (HSC E2) as (sc & ES). rewrite ES.
    unfold fsvg_scale in ES.
    destruct (last_value "width" attrs) as [w|]; [|discriminate ES]. destruct (last_value "height" attrs) as [h|]; [|discriminate ES].
    destruct (fparse_length w) as [lw|]; [|discriminate ES]. destruct (fparse_length h) as [lh|]; [|discriminate ES].
    unfold last_or. destruct (rev boxes) as [|[[[a b] bw] bh] l]; injection ES as <-; eauto.
Qed.

Lemma tree_read : forall tg filter t above stack path c evs, (forall chain, In chain (chains filter above t) -> readable tg chain) ->
  exists path' c', fevents_loop tg filter (mk_fdoc stack (fplace tg above) path c 0) (doc_events t ++ evs) = fevents_loop tg filter (mk_fdoc stack (fplace tg above) path' c' 0) evs.
Proof.
  intros tg filter t. induction t as [e ch IH|] using node_deep; intros above stack path c evs RD; [|exists path, c; reflexivity].
  assert (L : forall above stack path c evs, (forall chain, In chain (flat_map (chains filter above) ch) -> readable tg chain) ->
    exists path' c', fevents_loop tg filter (mk_fdoc stack (fplace tg above) path c 0) (flat_map doc_events ch ++ evs) = fevents_loop tg filter (mk_fdoc stack (fplace tg above) path' c' 0) evs).
  { clear above stack path c evs RD. induction IH as [|t ch H _ IH]; intros above stack path c evs RD; [exists path, c; reflexivity|].
    cbn [flat_map] in *. rewrite <- app_assoc. destruct (H above stack path c (flat_map doc_events ch ++ evs)) as (p1 & c1 & ->); [intros chain I; apply RD, in_app_iff; left; exact I|].
    apply IH. intros chain I. apply RD, in_app_iff. right. exact I. }
  cbn [chains] in RD. cbn [doc_events app fevents_loop fignore_nest Nat.ltb Nat.leb orb ftrans_stack fcur_transform fdoc_path fdoc_ctx].
  destruct (filter (fst e) (snd e)) eqn:FI; cbn [negb].
  2: { rewrite <- app_assoc, all_ignored. exists path, c. reflexivity. }
  rewrite <- app_assoc. cbn [app]. destruct (in_svg (fst e)) eqn:SV.
  - destruct (start_read tg above e stack path c 0 SV (RD _ (or_introl eq_refl))) as (p1 & c1 & ->). cbn [Base.bind].
    destruct (L (above ++ [e]) (fplace tg above :: stack) p1 c1 (EndElement (fst e) :: evs)) as (p2 & c2 & E2); [intros chain I; apply RD; right; exact I|].
    exists p2, c2. etransitivity; [exact E2|]. cbn [fevents_loop fignore_nest Nat.ltb Nat.leb ftrans_stack fdoc_path fdoc_ctx]. rewrite SV. reflexivity.
  - assert (EP : fplace tg (above ++ [e]) = fplace tg above) by (rewrite fplace_app; unfold fturn; rewrite SV; reflexivity).
    rewrite <- EP. destruct (L (above ++ [e]) stack path c (EndElement (fst e) :: evs)) as (p2 & c2 & E2); [intros chain I; apply RD; right; exact I|].
    exists p2, c2. etransitivity; [exact E2|]. cbn [fevents_loop fignore_nest Nat.ltb Nat.leb ftrans_stack fdoc_path fdoc_ctx]. rewrite SV. reflexivity.
Qed.

Lemma document_read : forall tg filter doc, (forall chain, In chain (all_chains filter doc) -> readable tg chain) ->
  exists segs, fparse_document tg (document_events doc) fidentity filter = Ok (Some segs).
Proof.
  intros tg filter doc RD. unfold fparse_document, document_events, all_chains in *.
  assert (L : forall path c, exists f, fevents_loop tg filter (mk_fdoc [] fidentity path c 0) (flat_map doc_events doc) = Ok (Some f)).
  { induction doc as [|t doc IH]; intros path c; [eexists; reflexivity|]. cbn [flat_map] in *.
    destruct (tree_read tg filter t [] [] path c (flat_map doc_events doc)) as (p1 & c1 & E1); [intros chain I; apply RD, in_app_iff; left; exact I|].
    change (fplace tg []) with fidentity in E1. rewrite E1. apply IH. intros chain I. apply RD, in_app_iff. right. exact I. }
  destruct (L [] fpath_ctx_new) as (f & ->). cbn [Base.bind]. eauto.
Qed.

Lemma transforms_read : forall tg q attrs k N T, accurate tg q -> attrs_cost q attrs k N T -> roomy k N T ->
  exists ts, all_some (map (fparse_transform tg) (values "transform" attrs)) = Some ts.
Proof.
  intros tg q attrs k N T AC C. pose proof (accurate_pos _ _ AC) as Q0.
  induction C as [|x l k N T E C IH|x l A k N T k' N' T' E V C IH]; intros RM; [eexists; reflexivity|rewrite values_cons..].
  - destruct (text_eqb (local_name (a_name x)) (chars "transform")) eqn:ET; [apply text_eqb_true in ET; contradiction|]. exact (IH RM).
  - rewrite (proj2 (text_eqb_true _ _) E). cbn [map].
    assert (SV : sane k N T).
    { destruct V as (w & t & rest & _ & _ & I & _). destruct (items_sizes _ _ _ _ _ _ Q0 I) as (? & ? & ?). split; [lra|split; lra]. }
    assert (S8 : sane (k + 8) N T) by (destruct SV as (? & ? & ?); split; [lra|split; lra]).
    pose proof (attrs_sane _ _ _ _ _ Q0 C) as SL. pose proof (roomy_left _ _ _ _ _ _ S8 SL RM) as [R2 R3]. pose proof (roomy_right _ _ _ _ _ _ S8 SL RM) as RR.
    assert (RV : roomy k N T) by (split; [lra|exact R3]).
    destruct (value_read q tg (a_value x) A k N T AC V RV) as (F & -> & _ & _). cbn [all_some]. destruct (IH RR) as (ts & ->). eauto.
Qed.

Lemma boxes_read : forall vs, (forall v, In v vs -> parse_view_box v <> None) -> exists boxes, all_some (map fparse_view_box vs) = Some boxes.
Proof.
  induction vs as [|v vs IH]; intros H; [eexists; reflexivity|]. destruct IH as (bs & EB); [intros u I; apply H; right; exact I|].
  pose proof (view_box_near v) as B. pose proof (H v (or_introl eq_refl)) as HV. cbn [map].
  destruct (parse_view_box v) as [b|]; [|contradiction]. destruct (fparse_view_box v) as [f|]; [|contradiction B]. cbn [all_some]. rewrite EB. eauto.
Qed.

(** A document is read if its transforms are modest, its svg elements have sizes, its view boxes are
    four numbers, all its paths have data, and these are clear. *)
Theorem C126_document : forall tg q q1 filter doc K N T P R n, zero_exact tg -> angle_accurate tg q -> 0 <= q <= 2 ^ 40 -> accurate tg q1 ->
  0 <= K <= 2 ^ 20 -> 1 <= N -> 0 <= T -> 1 <= P -> INR n <= 2 ^ 40 ->
  let Q := 3 * (N * (P + T + 1)) in
  Q <= 2 ^ 190 ->
  (forall chain, In chain (all_chains filter doc) ->
    (exists k N' T', chain_cost q1 chain k N' T' /\ k <= K /\ N' <= N /\ T' <= T) /\
    (forall e v, In e chain -> In v (values "viewBox" (snd e)) -> parse_view_box v <> None) /\
    (forall e, In e chain -> local_name (fst e) = chars "path" -> last_value "d" (snd e) <> None) /\
    forall d, path_of chain d -> clear_path P R ((5 * INR n + 16) * Q / 2 ^ 53) n (fplace tg chain) d) ->
  exists segs, fparse_document tg (document_events doc) fidentity filter = Ok (Some segs).
Proof.
  intros tg q q1 filter doc K N T P R n ZE AA HQ AC HK N1 T0 P1 NB Q BQ CF.
  apply document_read. intros chain IC above e EC SV. destruct (CF chain IC) as ((k & N' & T' & CC & KK & NN & TT) & VB & HD & CP).
  assert (IE : In e chain) by (rewrite EC; apply in_app_iff; right; left; reflexivity).
  pose proof (accurate_pos _ _ AC) as Q0. pose proof (chain_sane _ _ _ _ _ Q0 CC) as SC.
  assert (KL : K <= lots) by (unfold lots; destruct HK as [_ HK]; eapply Rle_trans; [exact HK|cbn [pow]; lra]).
  assert (BQ4 : zone N T P <= bpow radix2 400) by (change (zone N T P) with Q; eapply Rle_trans; [exact BQ|]; rewrite pow_bpow; apply bpow_le; lia).
  assert (RM : roomy k N' T') by (exact (within_roomy K N T P KL N1 T0 P1 BQ4 k N' T' SC KK NN TT)).
  assert (LOCAL : exists k2 N2 T2, elem_cost q1 e k2 N2 T2 /\ roomy k2 N2 T2).
  { rewrite EC in CC. destruct (chain_last _ _ _ _ _ _ CC) as (k1 & M1 & T1 & k2 & N2 & T2 & C1 & C2 & -> & -> & ->).
    exists k2, N2, T2. split; [exact C2|]. exact (roomy_right _ _ _ _ _ _ (chain_sane _ _ _ _ _ Q0 C1) (elem_sane _ _ _ _ _ Q0 C2) RM). }
  destruct LOCAL as (k2 & N2 & T2 & C2 & R2).
  destruct (boxes_read (values "viewBox" (snd e))) as (boxes & HB); [intros v I; exact (VB e v IE I)|].
  split; [|split].
  - destruct C2 as [SV'|k2 N2 T2 _ NS AT|k2 N2 T2 M _ IS AT SZ]; [congruence|exact (transforms_read tg q1 _ _ _ _ AC AT R2)|].
    pose proof (attrs_sane _ _ _ _ _ Q0 AT) as S3. pose proof (sizes_one _ _ SZ) as M1. assert (S26 : sane 26 M 0) by (split; [lra|split; lra]).
    replace T2 with (T2 + 0) in R2 by ring. exact (transforms_read tg q1 _ _ _ _ AC AT (roomy_left _ _ _ _ _ _ S3 S26 R2)).
  - exists boxes. split; [exact HB|]. intros IS. destruct C2 as [SV'|k2 N2 T2 _ NS AT|k2 N2 T2 M _ _ AT SZ]; [congruence|contradiction|].
    destruct SZ as (wt & ht & w & h & rb & HW & HH & LW & LH & BW & BH & _ & _). unfold fsvg_scale. rewrite HW, HH.
    destruct (FloatLength.length_near wt w LW BW) as (fw & -> & _). destruct (FloatLength.length_near ht h LH BH) as (fh & -> & _). eauto.
  - intros IP. pose proof (HD e IE IP) as HV. destruct (last_value "d" (snd e)) as [d|] eqn:LV; [|contradiction]. exists d. split; [reflexivity|]. intros c.
    assert (PO : path_of chain d) by (rewrite EC; apply path_of_last; auto).
    assert (TN : tr_near K N T (fplace tg chain) (place tidentity chain)).
    { apply (tr_near_le k N' T'); auto. exact (place_near tg q1 chain k N' T' AC CC RM). }
    exact (path_read tg q K N T P R n _ _ d c ZE AA HQ (conj (proj1 HK) KL) N1 T0 P1 NB BQ TN (CP d PO)).
Qed.

(** A quarter of a circle of radius 5 is read, and an arc of that circle between ends 11 apart is refused. *)
Definition C126_far : list char := chars "M5 0A5 5 0 0 1 -6 0".
Definition C126_commands : list (char * list R) := [(ch "M", [5; 0]); (ch "A", [5; 5; 0; 0; 1; -6; 0])].
Lemma even_identity : even fidentity.
Proof.
  destruct one_value as [F1 V1]. split; [reflexivity|]. split; [reflexivity|]. change (fm0 fidentity) with fone. change (fm3 fidentity) with fone.
  split; [|split; [exact F1|reflexivity]]. split; [exact F1|]. rewrite V1, Rabs_R1. split; [cbn [pow]; lra|apply pow_R1_Rle; lra].
Qed.
Example C126_example :
  Forall counted C121_commands /\ Forall counted C126_commands /\ path_text C126_far C126_commands /\
  let E := (5 * INR 4 + 16) * (2 * 1 * 6 + 0 + 1) / 2 ^ 53 in
  Forall (keeps_clear 1 E) (chords (mk_vec 0 0) (mk_vec 0 0) true C121_commands) /\ Exists (too_wide 1 E) (chords (mk_vec 0 0) (mk_vec 0 0) true C126_commands) /\
  (exists pc segs, fparse_path known_trig C121_quarter fpath_ctx_new fidentity = Ok (Some (pc, segs))) /\
  fparse_path known_trig C126_far fpath_ctx_new fidentity = Ok None.
Proof.
  assert (C1 : Forall counted C121_commands).
  { constructor; [left; split; [right; left; reflexivity|exists 0%nat; reflexivity]|]. constructor; [|constructor].
    do 4 right. left. split; [right; left; reflexivity|exists 0%nat; reflexivity]. }
  assert (C2 : Forall counted C126_commands).
  { constructor; [left; split; [right; left; reflexivity|exists 0%nat; reflexivity]|]. constructor; [|constructor].
    do 4 right. left. split; [right; left; reflexivity|exists 0%nat; reflexivity]. }
  assert (PT : path_text C126_far C126_commands).
  { assert (N0 : number_text (chars "0") 0) by (apply (text_digits (chars "0")); split; [discriminate|repeat constructor]).
    assert (N1 : number_text (chars "1") 1) by (apply (text_digits (chars "1")); split; [discriminate|repeat constructor]).
    assert (N5 : number_text (chars "5") 5) by (apply (text_digits (chars "5")); split; [discriminate|repeat constructor]).
    assert (N6 : number_text (chars "-6") (-6)).
  { replace (-6) with (IZR (-1) * IZR (digits_value (chars "6")) * powerRZ 10 (0 + 0)) by (cbn [powerRZ Z.add]; change (digits_value (chars "6")) with 6%Z; ring).
    change (chars "-6") with (chars "-" ++ chars "6" ++ @nil char). constructor; [constructor|constructor; split; [discriminate|repeat constructor]|constructor]. }
    assert (SP : separator (chars " ")) by (right; split; [discriminate|repeat constructor]).
    unfold C126_far, C126_commands. change (chars "M5 0A5 5 0 0 1 -6 0") with
      ([] ++ (ch "M" :: [] ++ (chars "5" ++ chars " " ++ chars "0")) ++
       [] ++ (ch "A" :: [] ++ (chars "5" ++ chars " " ++ chars "5" ++ chars " " ++ chars "0" ++ chars " " ++ chars "0" ++ chars " " ++ chars "1" ++ chars " " ++ chars "-6" ++ chars " " ++ chars "0")) ++ []).
    repeat (apply path_more; [constructor|apply command_args; [apply is_one_of_In; reflexivity|constructor|]|]); [..|constructor; constructor];
      repeat (apply numbers_more; [assumption|exact SP|]); apply numbers_one; assumption. }
  split; [exact C1|]. split; [exact C2|]. split; [exact PT|]. intros E.
  assert (U53 : / 2 ^ 53 = / 9007199254740992) by (rewrite <- u53_is, u53_val; lra).
  assert (E0 : 0 <= E <= / 1000000). { unfold E, Rdiv. rewrite U53. cbn [INR]. lra. }
  assert (A5 : Rabs 5 = 5) by (apply Rabs_pos_eq; lra).
  assert (CL : Forall (keeps_clear 1 E) (chords (mk_vec 0 0) (mk_vec 0 0) true C121_commands)).
  { change (chords (mk_vec 0 0) (mk_vec 0 0) true C121_commands) with [(5, mk_vec (0 - 5) (5 - 0))]. constructor; [|constructor].
    unfold keeps_clear. cbn [fst snd vx vy]. rewrite A5. replace ((0 - 5) * (0 - 5) + (5 - 0) * (5 - 0)) with 50 by ring.
    assert (7 <= sqrt 50) by (rewrite <- (sqrt_square 7) by lra; apply sqrt_le_1_alt; lra).
    assert (sqrt 50 <= 8) by (rewrite <- (sqrt_square 8) by lra; apply sqrt_le_1_alt; lra). cbn [pow]. split; lra. }
  assert (WI : Exists (too_wide 1 E) (chords (mk_vec 0 0) (mk_vec 0 0) true C126_commands)).
  { change (chords (mk_vec 0 0) (mk_vec 0 0) true C126_commands) with [(5, mk_vec (-6 - 5) (0 - 0))]. constructor.
    unfold too_wide. cbn [fst snd vx vy]. rewrite A5. replace ((-6 - 5) * (-6 - 5) + (0 - 0) * (0 - 0)) with (11 * 11) by ring. rewrite sqrt_square by lra. cbn [pow]. lra. }
  split; [exact CL|]. split; [exact WI|].
  destruct one_value as [F1 V1]. destruct zero_value as [F0 V0].
  assert (TS : Forall (fun m => is_finite m = true /\ Rabs (B2R m) <= 1) [fm0 fidentity; fm1 fidentity; fm2 fidentity; fm3 fidentity]).
  { cbn [fidentity fm0 fm1 fm2 fm3]. repeat (apply Forall_cons; [split; [assumption|rewrite ?V1, ?V0, ?Rabs_R1, ?Rabs_R0; lra]|]); apply Forall_nil. }
  assert (TT : Forall (fun m => is_finite m = true /\ Rabs (B2R m) <= 0) [fm4 fidentity; fm5 fidentity]).
  { cbn [fidentity fm4 fm5]. repeat (apply Forall_cons; [split; [assumption|rewrite ?V1, ?V0, ?Rabs_R1, ?Rabs_R0; lra]|]); apply Forall_nil. }
  assert (P9 : 6 <= 2 ^ 900) by (apply Rle_trans with (2 ^ 3); [cbn [pow]; lra|apply Rle_pow; [lra|lia]]).
  assert (PQ : 2 * 1 * 6 + 0 + 1 <= 2 ^ 190) by (apply Rle_trans with (2 ^ 4); [cbn [pow]; lra|apply Rle_pow; [lra|lia]]).
  assert (PN : INR 4 <= 2 ^ 40) by (cbn [INR pow]; lra). assert (P4 : 0 <= 4 <= 2 ^ 40) by (cbn [pow]; lra).
  destruct C121_example as (PT1 & CI1 & _).
  assert (AB1 : Forall (fun cmd => Forall (fun a => Rabs a <= 6) (snd cmd)) (absolute (mk_vec 0 0) (mk_vec 0 0) true (map straight C121_commands))).
  { change (absolute _ _ _ _) with [(ch "M", [5; 0]); (ch "L", [0; 5])]. repeat constructor; cbn [snd]; rewrite ?A5, ?Rabs_R0; lra. }
  assert (AB2 : Forall (fun cmd => Forall (fun a => Rabs a <= 6) (snd cmd)) (absolute (mk_vec 0 0) (mk_vec 0 0) true (map straight C126_commands))).
  { change (absolute _ _ _ _) with [(ch "M", [5; 0]); (ch "L", [-6; 0])]. assert (A6 : Rabs (-6) <= 6) by (apply Rabs_le; lra).
    repeat (apply Forall_cons || apply Forall_nil); cbn [snd]; repeat (apply Forall_cons || apply Forall_nil); rewrite ?A5, ?Rabs_R0; lra. }
  assert (CI2 : Forall (fun cmd => In (fst cmd) (chars "aA") -> circles_in (Rabs (B2R (fm0 fidentity))) 6 (snd cmd)) C126_commands).
  { inversion CI1 as [|? ? I1 I2]; subst. inversion I2 as [|? ? I3 _]; subst. constructor; [exact I1|]. constructor; [exact I3|constructor]. }
  assert (M1 : Rabs (B2R (fm0 fidentity)) = 1) by (change (fm0 fidentity) with fone; rewrite V1; apply Rabs_R1).
  pose proof (C126_text known_trig 4 C121_quarter C121_commands fidentity 1 0 6 6 known_zero known_angles P4 even_identity PT1 CI1 ltac:(lra) AB1 TS TT P9 PQ PN) as (_ & T1 & _).
  pose proof (C126_text known_trig 4 C126_far C126_commands fidentity 1 0 6 6 known_zero known_angles P4 even_identity PT CI2 ltac:(lra) AB2 TS TT P9 PQ PN) as (_ & _ & T2).
  rewrite M1 in T1, T2. split; [exact (T1 C1 CL)|exact (T2 WI)].
Qed.

(** The document of C125 is read. *)
Example C126_document_example : exists segs, fparse_document known_trig (document_events C125_doc) fidentity (layer_filter None) = Ok (Some segs).
Proof.
  assert (P190 : 3 * (1 * (32 + 2 + 1)) <= 2 ^ 190) by (apply Rle_trans with (2 ^ 7); [cbn [pow]; lra|apply Rle_pow; [lra|lia]]).
  assert (P40 : 0 <= 4 <= 2 ^ 40) by (cbn [pow]; lra). assert (P20 : 0 <= 10 <= 2 ^ 20) by (cbn [pow]; lra).
  assert (N40 : INR 4 <= 2 ^ 40) by (cbn [INR pow]; lra).
  apply (C126_document known_trig 4 3 (layer_filter None) C125_doc 10 1 2 32 33 4); auto using known_zero, known_angles, known_accurate; try lra.
  intros chain I. destruct (C125_costs chain I) as [CC RP]. split; [exact CC|].
  change (In chain [[C125_group]; [C125_group; C125_path]]) in I.
  assert (NB : forall e, In e chain -> values "viewBox" (snd e) = []).
  { intros e Ie. destruct I as [<-|[<-|[]]]; cbn [In] in Ie; repeat (destruct Ie as [<-|Ie]; [reflexivity|]); contradiction Ie. }
  split; [intros e v Ie Iv; rewrite (NB e Ie) in Iv; contradiction Iv|]. split.
  { intros e Ie L. destruct I as [<-|[<-|[]]]; cbn [In] in Ie; repeat (destruct Ie as [<-|Ie]; [first [discriminate L|discriminate]|]); contradiction Ie. }
  intros d PO. destruct I as [<-|[<-|[]]]; [apply (path_of_last [] C125_group) in PO; destruct PO as (_ & L & _); discriminate L|].
  apply (path_of_last [C125_group] C125_path) in PO. destruct PO as (_ & _ & V). injection V as <-.
  assert (M0 : B2SF (fm0 (fplace known_trig [C125_group; C125_path])) = B2SF fone /\ B2SF (fm3 (fplace known_trig [C125_group; C125_path])) = B2SF fone /\
    feq (fm1 (fplace known_trig [C125_group; C125_path])) fzero = true /\ feq (fm2 (fplace known_trig [C125_group; C125_path])) fzero = true)
    by (repeat split; vm_compute; reflexivity).
  clear RP CC. set (F := fplace known_trig [C125_group; C125_path]) in *. clearbody F. destruct M0 as (M0 & M3 & M1 & M2). apply B2SF_inj in M0, M3. destruct one_value as [F1 V1].
  destruct C122_example as (PT & _ & CI & AB & _).
  exists (ch "M"), [0; 0], [(ch "a", [32; 32; 0; 0; 1; -32; 32])]. split; [right; left; reflexivity|]. split; [exact PT|]. split.
  { constructor; [left; split; [right; left; reflexivity|exists 0%nat; reflexivity]|]. constructor; [|constructor].
    do 4 right. left. split; [left; reflexivity|exists 0%nat; reflexivity]. }
  split.
  { right. split; [exact M1|]. split; [exact M2|]. split; [|rewrite M3, M0; split; [exact F1|reflexivity]]. rewrite M0. split; [exact F1|]. rewrite V1, Rabs_R1.
    split; [cbn [pow]; lra|apply pow_R1_Rle; lra]. }
  split; [rewrite M0; eapply Forall_impl; [|exact CI]; intros cmd H IA; exact (proj1 (H IA))|]. split; [exact AB|]. split; [cbn; lia|].
  rewrite M0, V1, Rabs_R1. change (chords _ _ _ _) with [(32, mk_vec (0 + -32 - 0) (0 + 32 - 0))]. constructor; [|constructor].
  unfold keeps_clear. cbn [fst snd vx vy]. rewrite (Rabs_pos_eq 32) by lra. replace ((0 + -32 - 0) * (0 + -32 - 0) + (0 + 32 - 0) * (0 + 32 - 0)) with 2048 by ring.
  assert (45 <= sqrt 2048) by (rewrite <- (sqrt_square 45) by lra; apply sqrt_le_1_alt; lra).
  assert (sqrt 2048 <= 46) by (rewrite <- (sqrt_square 46) by lra; apply sqrt_le_1_alt; lra).
  assert (U53 : / 2 ^ 53 = / 9007199254740992) by (rewrite <- u53_is, u53_val; lra).
  unfold Rdiv. rewrite U53. cbn [INR pow]. split; lra.
Qed.

Print Assumptions C126_text.
Print Assumptions C126_example.
Print Assumptions C126_document.
Print Assumptions C126_document_example.
