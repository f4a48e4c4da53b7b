(** Property C122: from the text of a path with arcs of circles to the burned line. *)
From Coq Require Import Ascii String ZArith Reals List Bool NArith Lia Lra.
From Flocq Require Import Core BinarySingleNaN.
From Verif Require Import Base Chars Floats FloatProofs FloatScale FloatErr AccVector IntegerCurve StepperContext
  MachineSpec MachineProofs ContextProofs ContextOps ContextHist ContextClock ApproxCurve DrawCurves FloatPath Coords CoordsProofs Curves PathBuild BuildProofs
  PropsBuild PathGrammar PathLex LexProofs PropsLex FloatPathProofs PropsFloatPath FloatCurve PropsFloatCurve PropsApprox PropsDraw DrawProofs PropsError
  DrawPlan FloatRun FloatCover PropsLaser PropsCover FloatLex FloatLexProofs PropsFloatLex PropsLaserText FloatAngles FloatCircle PropsFloatTransform PropsCircle
  FloatArc FloatChord PropsFloatArc PropsFloatArcs.
Import ListNotations.
Open Scope R_scope.

(** ** The points of a path with arcs *)

Definition on_circle (c : vec) (S t : R) : vec := mk_vec (vx c + S * cos t) (vy c + S * sin t).

(** [z] is the point at [t] (of 0 to 1) of an arc of radius [S] from [p] to [e], both up to [eps], that
    turns as [sweep] says and spans as much as [large] says, up to [del]. *)
Definition on_arc (eps del S : R) (large sweep : bool) (p e : vec) (t : R) (z : vec) : Prop :=
  exists c al be, z = on_circle c S (al + (be - al) * t) /\
    apart eps (on_circle c S al) p /\ apart eps (on_circle c S be) e /\
    (if sweep then al <= be else be <= al) /\
    (if large then PI - del <= Rabs (be - al) <= 2 * PI + del else Rabs (be - al) <= PI + del).

(** [z] is the point at [t] of segment [j] of the path that is given by lines, where the arcs of [segs]
    are arcs between the ends of their lines. *)
Inductive on_path (eps del : R) (tr : ftransform) : vec -> list farc_args -> list segment -> list curve_segment -> nat -> R -> vec -> Prop :=
| on_line : forall p s segs l lines arcs t z, PropsLaser.is_arc s = false -> (forall m, l <> GoTo m) -> traced p l t = Some z ->
    on_path eps del tr p arcs (s :: segs) (l :: lines) 0 t z
| on_bow : forall p e s segs lines a arcs t z, PropsLaser.is_arc s = true -> on_arc eps del (scaled tr a) (farc_large a) (farc_sweep a) p e t z ->
    on_path eps del tr p (a :: arcs) (s :: segs) (LineTo e :: lines) 0 t z
| past_line : forall p e s segs l lines arcs j t z, PropsLaser.is_arc s = false -> seg_place l = Some e -> on_path eps del tr e arcs segs lines j t z ->
    on_path eps del tr p arcs (s :: segs) (l :: lines) (S j) t z
| past_bow : forall p e s segs lines a arcs j t z, PropsLaser.is_arc s = true -> on_path eps del tr e arcs segs lines j t z ->
    on_path eps del tr p (a :: arcs) (s :: segs) (LineTo e :: lines) (S j) t z.

Lemma within_le : forall E E' p r, E <= E' -> within E p r -> within E' p r.
Proof. intros E E' p r L (A & B & C & D). repeat split; auto; lra. Qed.
Lemma segment_within_le : forall E E' s l, E <= E' -> segment_within E s l -> segment_within E' s l.
Proof.
  intros E E' s l L W. destruct s, l; cbn [segment_within] in *; try contradiction; try (eapply within_le; [exact L|exact W]).
  destruct W as (A & B & C). split; [eapply within_le; eassumption|]. split; (eapply within_le; [|eassumption]; lra).
Qed.

Lemma within_line : forall E s l, segment_within E s l -> PropsLaser.is_arc s = false.
Proof. intros E s l H. destruct s; try reflexivity. destruct l; contradiction H. Qed.

Lemma apart_close : forall e z z', apart e z z' <-> close_to (fun _ => e) z z'.
Proof. intros e z z'. split; [intros [A B] []; assumption|intros H; split; [exact (H AX)|exact (H AY)]]. Qed.

(** An arc that was asked for, drawn from a place near where it should start. *)
Lemma bow_point : forall q A E S R large sweep d s z0 p e t z, 0 <= q -> 0 < S <= R -> 0 <= t <= 1 ->
  arc_of q S large sweep d s -> within (3 * S / 2 ^ 53 + 2 * E) d (vsub e p) -> apart A z0 p -> traced z0 (rs s) t = Some z ->
  exists z1, on_arc (A + 2 * E + (215 + 2 * q) * R / 2 ^ 53) ((60 + 2 * q) / 2 ^ 53) S large sweep p e t z1 /\ apart (12 * R / 2 ^ 53) z z1.
Proof.
  intros q A E S R large sweep d s z0 p e t z q0 [S0 SR] Ht AO (_ & _ & W1 & W2) [A1 A2] TR.
  destruct s as [| | | |rx ry a b ro]; try contradiction AO. cbn [rs traced] in TR. injection TR as <-.
  destruct AO as (_ & _ & _ & _ & RX & _ & _ & DX & DY & SW & LG).
  set (r := B2R rx) in *. set (al := B2R a) in *. set (be := B2R b) in *. set (th := al + (be - al) * t).
  assert (I0 : 0 < / 2 ^ 53) by (apply Rinv_0_lt_compat, pow_lt; lra). unfold Rdiv in *. set (i := / 2 ^ 53) in *.
  assert (QR : q * S <= q * R) by (apply Rmult_le_compat_l; lra).
  assert (SI : S * i <= R * i) by (apply Rmult_le_compat_r; lra).
  assert (QI : q * S * i <= q * R * i) by (apply Rmult_le_compat_r; lra).
  assert (CB : forall f, -1 <= f <= 1 -> Rabs ((S - r) * f) <= 12 * S * i).
  { intros f Hf. rewrite Rabs_mult. rewrite Rabs_minus_sym in RX. pose proof (Rabs_pos (S - r)). assert (Rabs f <= 1) by (apply Rabs_le; lra). 
    apply Rle_trans with (Rabs (S - r) * 1); [apply Rmult_le_compat_l; assumption|lra]. }
  set (c := mk_vec (vx z0 - r * cos al) (vy z0 - r * sin al)).
  exists (on_circle c S th). split.
  - exists c, al, be. split; [reflexivity|].
    pose proof (CB _ (COS_bound al)) as C1. pose proof (CB _ (SIN_bound al)) as C2. pose proof (CB _ (COS_bound be)) as C3. pose proof (CB _ (SIN_bound be)) as C4.
    cbn [vsub vx vy] in W1, W2. apply le_abs in C1, C2, C3, C4, A1, A2, W1, W2, DX, DY. clearbody r al be i.
    split; [|split; [|split; [exact SW|exact LG]]].
    + split; unfold on_circle, c; cbn [vx vy]; apply Rabs_le; pose proof (Rabs_pos 0) as Z; clear Z.
      * assert (0 <= q * R * i) by (apply Rmult_le_pos; [apply Rmult_le_pos; lra|lra]). assert (0 <= R * i) by (apply Rmult_le_pos; lra).
        assert (E2 : 0 <= 3 * S * i + 2 * E) by lra. assert (0 <= S * i) by (apply Rmult_le_pos; lra). lra.
      * assert (0 <= q * R * i) by (apply Rmult_le_pos; [apply Rmult_le_pos; lra|lra]). assert (0 <= R * i) by (apply Rmult_le_pos; lra).
        assert (E2 : 0 <= 3 * S * i + 2 * E) by lra. assert (0 <= S * i) by (apply Rmult_le_pos; lra). lra.
    + split; unfold on_circle, c; cbn [vx vy]; apply Rabs_le; lra.
  - pose proof (CB _ (COS_bound th)) as C1. pose proof (CB _ (SIN_bound th)) as C2. apply le_abs in C1, C2.
    split; unfold on_circle, c, arc_at; cbn [vx vy vadd]; fold th; apply Rabs_le; lra.
Qed.

Lemma near_point : forall q E A R tr p arcs segs lines, 0 <= q -> 0 <= E <= A -> 0 <= R ->
  figure_near q E tr p arcs segs lines -> Forall (fun a => 0 < scaled tr a <= R) arcs -> forall s1 s s2 z0 t z,
  (forall k, apart A (pen z0 (map rs (firstn k segs))) (pen p (firstn k lines))) ->
  segs = s1 ++ s :: s2 -> (forall m, s <> SGoTo m) -> 0 <= t <= 1 -> traced (pen z0 (map rs s1)) (rs s) t = Some z ->
  exists z1, on_path (A + 2 * E + (215 + 2 * q) * R / 2 ^ 53) ((60 + 2 * q) / 2 ^ 53) tr p arcs segs lines (length s1) t z1 /\ apart (3 * A + 12 * R / 2 ^ 53) z z1.
Proof.
  intros q E A R tr p arcs segs lines q0 EA R0 FN. 
  assert (RI : 0 <= R / 2 ^ 53) by (apply Rmult_le_pos; [exact R0|apply Rlt_le, Rinv_0_lt_compat, pow_lt; lra]).
  induction FN as [p|p e arcs s segs l lines W SP FN IH|p e a arcs s segs lines d AO WD FN IH]; intros SC s1 y s2 z0 t z AP EQ NG Ht TR.
  - destruct s1; discriminate EQ.
  - pose proof (AP 0%nat) as A0. cbn [firstn map pen fold_left] in A0. destruct s1 as [|x s1]; cbn [app] in EQ; injection EQ as <- EQ.
    + apply apart_close in A0. cbn [map pen fold_left] in TR.
      destruct (drawn_within A z0 p s l t z ltac:(lra) A0 (segment_within_le _ _ _ _ (proj2 EA) W) Ht TR) as (z1 & T1 & C1).
      exists z1. split.
      * apply on_line; [exact (within_line _ _ _ W)| |exact T1]. intros m ->. destruct s; cbn [segment_within] in W; try contradiction. exact (NG _ eq_refl).
      * apply apart_le with (3 * A); [lra|]. apply apart_close. exact C1.
    + cbn [map] in TR. rewrite (pen_cons z0) in TR. destruct (IH SC s1 y s2 (pen z0 [rs s]) t z) as (z1 & P1 & C1); try assumption.
      * intros k. pose proof (AP (Datatypes.S k)) as Ak. cbn [firstn map] in Ak. rewrite (pen_cons z0), (pen_cons p) in Ak.
        replace (pen p [l]) with e in Ak; [exact Ak|]. destruct l; try discriminate SP; injection SP as <-; reflexivity.
      * exists z1. split; [|exact C1]. cbn [length]. eapply past_line; [exact (within_line _ _ _ W)|exact SP|exact P1].
  - inversion SC as [|? ? [S0 SC1] SC2]; subst.
    assert (IS : PropsLaser.is_arc s = true) by (destruct s; try contradiction AO; reflexivity).
    pose proof (AP 0%nat) as A0. cbn [firstn map pen fold_left] in A0. destruct s1 as [|x s1]; cbn [app] in EQ; injection EQ as <- EQ.
    + cbn [map pen fold_left] in TR.
      destruct (bow_point q A E (scaled tr a) R _ _ d s z0 p e t z q0 (conj S0 SC1) Ht AO WD A0 TR) as (z1 & P1 & C1).
      exists z1. split; [apply on_bow; assumption|]. eapply apart_le; [|exact C1]. unfold Rdiv in *. lra.
    + cbn [map] in TR. rewrite (pen_cons z0) in TR. destruct (IH SC2 s1 y s2 (pen z0 [rs s]) t z) as (z1 & P1 & C1); try assumption.
      * intros k. pose proof (AP (Datatypes.S k)) as Ak. cbn [firstn map] in Ak. rewrite (pen_cons z0), (pen_cons p) in Ak. exact Ak.
      * exists z1. split; [|exact C1]. cbn [length]. apply past_bow; assumption.
Qed.

(** ** Sizes *)

Lemma near_length : forall q E tr p arcs segs lines, figure_near q E tr p arcs segs lines -> length segs = length lines.
Proof. intros q E tr p arcs segs lines H. induction H; cbn [length]; congruence. Qed.

Lemma boxed_pen : forall Q lines p k, Forall (boxed Q) lines -> box Q p -> box Q (pen p (firstn k lines)).
Proof.
  intros Q lines. induction lines as [|l lines IH]; intros p k F B; [rewrite firstn_nil; exact B|]. destruct k as [|k]; [exact B|].
  inversion F as [|? ? F1 F2]; subst. cbn [firstn]. rewrite pen_cons. apply IH; [exact F2|]. destruct l; cbn [boxed] in F1; try contradiction F1; cbn [pen fold_left]; tauto.
Qed.

Lemma near_fits : forall E Q W p r, within E p r -> box Q r -> Q + E <= W -> fits W p.
Proof.
  intros E Q W p r (F1 & F2 & V1 & V2) [B1 B2] L. apply le_abs in V1, V2, B1, B2. split; [split; assumption|]. split; cbn [rv vx vy]; apply Rabs_le; lra.
Qed.

Lemma near_drawable : forall q q1 E Q W tr p arcs segs lines, figure_near q E tr p arcs segs lines -> 0 <= q1 -> Forall (boxed Q) lines -> E <= Q -> 0 <= Q -> 4 * Q <= W ->
  Forall (fun a => 0 < scaled tr a /\ (29 + 2 * q1) * scaled tr a <= W /\ W <= 2 ^ 35 * scaled tr a) arcs -> Forall (drawable q1 W) segs.
Proof.
  intros q q1 E Q W tr p arcs segs lines H q0 BL EQ Q0 QW AR.
  induction H as [p|p e arcs s segs l lines WI SP FN IH|p e a arcs s segs lines d AO WD FN IH]; [constructor|..].
  - inversion BL as [|? ? B1 B2]; subst. constructor; [|apply IH; assumption].
    destruct s, l; cbn [segment_within boxed drawable] in *; try contradiction; try (eapply near_fits; [exact WI|exact B1|lra]).
    destruct WI as (W1 & W2 & W3), B1 as (C1 & C2 & C3). split; [eapply near_fits; [exact W1|exact C1|lra]|].
    split; [eapply near_fits; [exact W2|exact C2|lra]|eapply near_fits; [exact W3|exact C3|lra]].
  - inversion BL as [|? ? B1 B2]; subst. inversion AR as [|? ? (S0 & A1 & A2) A3]; subst. constructor; [|apply IH; assumption].
    destruct s as [| | | |rx ry al be ro]; try contradiction AO. cbn [drawable arc_of] in *. destruct AO as (_ & F1 & F2 & F3 & RX & BA & BB & _).
    set (S := scaled tr a) in *. clearbody S. set (r := B2R rx) in *. clearbody r.
    assert (RR : 0.99 * S <= r <= 1.01 * S).
    { unfold Rdiv in RX. rewrite <- u53_is, u53_val in RX. apply le_abs in RX. split; lra. }
    split; [exact F1|]. split; [exact F2|]. split; [exact F3|]. split; [lra|]. split; [|cbn [pow] in *; lra].
    apply Rle_trans with (1.01 * S * (28 + q1)).
    + apply Rmult_le_compat; [lra| |lra|lra]. pose proof (Rabs_pos (B2R al)). pose proof (Rabs_pos (B2R be)). lra.
    + assert (0 <= S * q1) by (apply Rmult_le_pos; lra). lra.
Qed.

Lemma near_arcs_end : forall A Q W p0 origin qq rest lines, let segs := SGoTo qq :: rest in
  (forall k, apart A (pen origin (map rs (firstn k segs))) (pen origin (firstn k lines))) ->
  Forall (boxed Q) lines -> box Q origin -> A + Q <= W -> arcs_end W p0 segs.
Proof.
  intros A Q W p0 origin qq rest lines segs AP BL BO AQ s1 r ry a b ro s2 EQ.
  destruct s1 as [|y s1]; [discriminate EQ|].
  assert (K : map rs ((y :: s1) ++ [SArc r ry a b ro]) = map rs (firstn (length ((y :: s1) ++ [SArc r ry a b ro])) segs)).
  { f_equal. rewrite EQ. replace ((y :: s1) ++ SArc r ry a b ro :: s2) with (((y :: s1) ++ [SArc r ry a b ro]) ++ s2) by (rewrite <- app_assoc; reflexivity).
    rewrite firstn_app, firstn_all, Nat.sub_diag, firstn_O, app_nil_r. reflexivity. }
  rewrite K. set (k := length _). assert (ST : forall z, pen z (map rs (firstn k segs)) = pen origin (map rs (firstn k segs))) by reflexivity.
  rewrite ST. destruct (AP k) as [A1 A2]. destruct (boxed_pen Q lines origin k BL BO) as [B1 B2]. apply le_abs in A1, A2, B1, B2. split; apply Rabs_le; lra.
Qed.

(** Radii of at least [L] once scaled by [m]. *)
Fixpoint no_smaller (m L : R) (args : list R) : Prop :=
  match args with
  | rx :: _ :: _ :: _ :: _ :: _ :: _ :: rest => L <= m * Rabs rx /\ no_smaller m L rest
  | _ => True
  end.

Lemma rounds_over : forall r x, / 2 ^ 98 <= Rabs r <= 2 ^ 98 -> rounds_to r x -> Rabs r <= 2 * Rabs (B2R x).
Proof.
  intros r x [L U] X.
  assert (B : Rabs r <= bpow radix2 1000) by (eapply Rle_trans; [exact U|]; rewrite pow_bpow; apply bpow_le; lia).
  destruct (rounds_val r x B X) as [Fx Vx].
  assert (TL : tiny <= / 100 * Rabs r).
  { apply Rle_trans with (/ 100 * / 2 ^ 98); [|apply Rmult_le_compat_l; lra]. apply Rle_trans with (/ 2 ^ 7 * / 2 ^ 98).
    - rewrite <- Rinv_mult, <- pow_add, pow_bpow, <- bpow_opp. unfold tiny. apply bpow_le. lia.
    - apply Rmult_le_compat_r; [apply Rlt_le, Rinv_0_lt_compat, pow_lt; lra|cbn [pow]; lra]. }
  assert (UR : u53 * Rabs r <= / 100 * Rabs r) by (apply Rmult_le_compat_r; [apply Rabs_pos|rewrite u53_val; lra]).
  pose proof (Rabs_triang_inv r (B2R x)) as T2. rewrite (Rabs_minus_sym r) in T2. lra.
Qed.

Lemma over_rounded : forall tr L R args fargs, Forall2 rounds_to args fargs -> circles_in (Rabs (B2R (fm0 tr))) R args -> no_smaller (Rabs (B2R (fm0 tr))) L args ->
  Forall (fun a => L <= 2 * scaled tr a) (arcs_in fargs).
Proof.
  intros tr L R args. remember (List.length args) as n eqn:LN. assert (B : (List.length args <= n)%nat) by lia. clear LN. revert args B.
  induction n as [|n IH]; intros args B fargs H C N.
  - destruct args; [|cbn in B; lia]. inversion H; subst. constructor.
  - destruct H as [|rx frx a1 f1 X1 H]; [constructor|]. do 6 (destruct H as [|? ? ? ? ? H]; [constructor|]).
    cbn [circles_in] in C. destruct C as (_ & SZ & _ & _ & C). cbn [no_smaller] in N. destruct N as [N1 N2].
    cbn [arcs_in]. constructor; [|apply (fun X => IH _ X _ H C N2); cbn in B; lia].
    unfold scaled. cbn [farc_rx]. pose proof (rounds_over rx frx SZ X1) as O. pose proof (Rabs_pos (B2R (fm0 tr))) as M0.
    apply Rle_trans with (1 := N1). apply Rle_trans with (Rabs (B2R (fm0 tr)) * (2 * Rabs (B2R frx))); [apply Rmult_le_compat_l; assumption|lra].
Qed.

(** ** C107 with arcs of circles *)

Lemma arcs_built : forall tg q q1 text cmds tr S T P L R W pc segs,
  (* the functions of the library *)
  zero_exact tg -> angle_accurate tg q -> 0 <= q <= 2 ^ 40 -> accurate tg q1 -> 0 <= q1 ->
  (* the text of a path whose arcs are circles, with radii between [L] and [R] once transformed *)
  path_text text cmds -> even tr ->
  Forall (fun cmd => In (fst cmd) (chars "aA") -> circles_in (Rabs (B2R (fm0 tr))) R (snd cmd) /\ no_smaller (Rabs (B2R (fm0 tr))) L (snd cmd)) cmds ->
  0 < L -> 0 <= R -> 1 <= P ->
  Forall (fun cmd => Forall (fun a => Rabs a <= P) (snd cmd)) (absolute (mk_vec 0 0) (mk_vec 0 0) true (map straight cmds)) ->
  Forall (fun m => is_finite m = true /\ Rabs (B2R m) <= S) [fm0 tr; fm1 tr; fm2 tr; fm3 tr] ->
  Forall (fun m => is_finite m = true /\ Rabs (B2R m) <= T) [fm4 tr; fm5 tr] ->
  (* it is read and built in binary64 under the transform [tr] *)
  fparse_path tg text fpath_ctx_new tr = Ok (Some (pc, segs)) -> (exists m r, segs = SGoTo m :: r) ->
  let n := list_sum (map (fun cmd => List.length (snd cmd)) (map straight cmds)) in
  let Q := 2 * S * P + T + 1 in
  let E := (5 * INR n + 16) * Q / 2 ^ 53 in
  let drift := INR (length segs) * ((203 + 2 * q) * R / 2 ^ 53) in
  P <= 2 ^ 900 -> Q <= 2 ^ 190 -> INR n <= 2 ^ 40 -> drift <= Q / 2 ->
  4 * Q <= W -> (29 + 2 * q1) * R <= W -> W <= 2 ^ 34 * L ->
  exists fcmds rc lines, Forall2 (fun c fc => fst c = fst fc /\ Forall2 rounds_to (snd c) (snd fc)) cmds fcmds /\
    build_commands path_ctx_new (map straight cmds) (rtr tr) true = Ok (Some (rc, lines)) /\
    1 <= W /\ Forall (drawable q1 W) segs /\ (forall p0, arcs_end (W / 2) p0 segs) /\
    forall p0 s1 s s2 t z, segs = s1 ++ s :: s2 -> (forall m, s <> SGoTo m) -> 0 <= t <= 1 -> traced (pen p0 (map rs s1)) (rs s) t = Some z ->
      exists z1, on_path (4 * E + drift + (215 + 2 * q) * R / 2 ^ 53) ((60 + 2 * q) / 2 ^ 53) tr (tapply (rtr tr) (mk_vec 0 0)) (arcs_of fcmds) segs lines (length s1) t z1 /\
        forall i, Rabs (coord z i - coord z1 i) <= 6 * E + 3 * drift + 12 * R / 2 ^ 53.
Proof.
  intros tg q q1 text cmds tr S T P L R W pc segs ZE AA HQ AC q0 PT EV CI L0 R0 P1 AB TS TT FP (m & rest & SG)
    n Q E drift PH BQ BN BD QW RW WL.
  assert (S0 : 0 <= S) by (inversion TS as [|? ? [_ A] _]; subst; eapply Rle_trans; [apply Rabs_pos|exact A]).
  assert (T0 : 0 <= T) by (inversion TT as [|? ? [_ A] _]; subst; eapply Rle_trans; [apply Rabs_pos|exact A]).
  assert (Q1 : 1 <= Q) by (unfold Q; assert (0 <= S * P) by (apply Rmult_le_pos; lra); lra).
  destruct (C106_text text cmds PT) as (fcmds & RC & EQ). rewrite EQ in FP.
  assert (CC : Forall circle (arcs_of fcmds) /\ Forall (fun a => scaled tr a <= R) (arcs_of fcmds) /\ Forall (fun a => L <= 2 * scaled tr a) (arcs_of fcmds)).
  { clear - RC CI. unfold arcs_of. induction RC as [|[c args] [fc fargs] cmds fcmds [LE A] RC IH]; [split; [|split]; constructor|]. cbn [fst snd] in LE, A. subst fc.
    inversion CI as [|? ? C1 C2]; subst. destruct (IH C2) as (I1 & I2 & I3). cbn [flat_map fst snd]. cbn [fst snd] in C1.
    destruct (is_arc c) eqn:K; [|split; [|split]; assumption]. destruct (C1 (proj1 (is_one_of_In _ _) K)) as [C3 C4].
    destruct (circles_rounded tr R args fargs A C3) as [J1 J2]. pose proof (over_rounded tr L R args fargs A C3 C4) as J3.
    split; [|split]; apply Forall_app; split; assumption. }
  destruct CC as (CC1 & CC2 & CC3).
  destruct (path_figure tg q cmds fcmds tr S T P R pc segs ZE AA HQ EV RC CC1 CC2 R0 P1 AB TS TT FP PH BQ BN) as (rc & lines & A & BL & BO & _ & B & C).
  set (origin := tapply (rtr tr) (mk_vec 0 0)) in *. fold n Q in B, C, BL, BO. fold E in B, C.
  pose proof (pos_INR n) as NN. pose proof (pos_INR (length segs)) as NS.
  assert (I0 : 0 < / 2 ^ 53) by (apply Rinv_0_lt_compat, pow_lt; lra).
  assert (E0 : 0 <= E <= Q / 100).
  { replace E with (Q * ((5 * INR n + 16) * / 2 ^ 53)) by (unfold E, Rdiv; ring).
    assert (K : 0 <= (5 * INR n + 16) * / 2 ^ 53 <= / 100).
    { split; [apply Rmult_le_pos; lra|]. clear - BN NN. set (x := INR n) in *. clearbody x. lra. }
    split; [apply Rmult_le_pos; lra|]. unfold Rdiv. apply Rmult_le_compat_l; lra. }
  assert (DR0 : 0 <= (203 + 2 * q) * R / 2 ^ 53) by (apply Rmult_le_pos; [apply Rmult_le_pos; lra|lra]).
  assert (DR1 : 0 <= drift) by (apply Rmult_le_pos; lra).
  assert (AP : forall k, apart (2 * E + drift) (pen origin (map rs (firstn k segs))) (pen origin (firstn k lines))).
  { intros k. pose proof (near_length _ _ _ _ _ _ _ B) as LL.
    destruct (le_lt_dec k (length segs)) as [KL|KL].
    - eapply apart_le; [|apply C]. unfold drift. apply Rplus_le_compat_l. apply Rmult_le_compat_r; [exact DR0|]. apply le_INR. exact KL.
    - rewrite !firstn_all2 by lia. specialize (C (length segs)). rewrite !firstn_all2 in C by lia. exact C. }
  assert (CC4 : Forall (fun a => 0 < scaled tr a <= R) (arcs_of fcmds)).
  { rewrite Forall_forall in CC2, CC3 |- *. intros a Ha. specialize (CC2 a Ha). specialize (CC3 a Ha). cbv beta in CC2, CC3. lra. }
  assert (DW : Forall (drawable q1 W) segs).
  { apply (near_drawable q q1 E Q W tr origin (arcs_of fcmds) segs lines); try assumption; try lra.
    rewrite Forall_forall in CC1, CC2, CC3 |- *. intros a Ha. specialize (CC1 a Ha). specialize (CC2 a Ha). specialize (CC3 a Ha). cbv beta in CC2, CC3.
    split; [lra|]. split; [|cbn [pow] in *; lra]. apply Rle_trans with (2 := RW). apply Rmult_le_compat_l; lra. }
  exists fcmds, rc, lines. split; [exact RC|]. split; [exact A|]. split; [lra|]. split; [exact DW|]. split.
  { intros p0. rewrite SG in *. apply (near_arcs_end (2 * E + drift) Q (W / 2) p0 origin m rest lines); try assumption. lra. }
  intros p0 s1 s s2 t z EQS NG Ht TR.
  assert (TR2 : traced (pen origin (map rs s1)) (rs s) t = Some z).
  { rewrite SG in EQS. destruct s1 as [|x s1]; cbn [app] in EQS; injection EQS as <- EQS; [exfalso; exact (NG m eq_refl)|exact TR]. }
  destruct (near_point q E (2 * E + drift) R tr origin (arcs_of fcmds) segs lines ltac:(lra) ltac:(lra) R0 B CC4 s1 s s2 origin t z AP EQS NG Ht TR2) as (z1 & P2 & C1).
  exists z1. split; [replace (4 * E + drift + (215 + 2 * q) * R / 2 ^ 53) with (2 * E + drift + 2 * E + (215 + 2 * q) * R / 2 ^ 53) by ring; exact P2|].
  apply apart_close in C1. intros i. specialize (C1 i). cbv beta in C1. lra.
Qed.

Lemma shift_point : forall X k a b B e, Rabs (X - k * a) <= B -> Rabs (a - b) <= e -> Rabs (X - k * b) <= B + Rabs k * e.
Proof.
  intros X k a b B e H1 H2. replace (X - k * b) with ((X - k * a) + k * (a - b)) by ring. eapply Rle_trans; [apply Rabs_triang|]. rewrite (Rabs_mult k).
  assert (Rabs k * Rabs (a - b) <= Rabs k * e) by (apply Rmult_le_compat_l; [apply Rabs_pos|exact H2]). lra.
Qed.

Theorem C122_text : forall tg q q1 text cmds tr S T P L R W pc segs ax ay vmx vmy ops c g s v c' ex ey fuel search ints D w u,
  (* the functions of the library *)
  zero_exact tg -> angle_accurate tg q -> 0 <= q <= 2 ^ 40 -> accurate tg q1 -> 0 <= q1 ->
  (* the text of a path whose arcs are circles, with radii between [L] and [R] once transformed *)
  path_text text cmds -> even tr ->
  Forall (fun cmd => In (fst cmd) (chars "aA") -> circles_in (Rabs (B2R (fm0 tr))) R (snd cmd) /\ no_smaller (Rabs (B2R (fm0 tr))) L (snd cmd)) cmds ->
  0 < L -> 0 <= R -> 1 <= P ->
  Forall (fun cmd => Forall (fun a => Rabs a <= P) (snd cmd)) (absolute (mk_vec 0 0) (mk_vec 0 0) true (map straight cmds)) ->
  Forall (fun m => is_finite m = true /\ Rabs (B2R m) <= S) [fm0 tr; fm1 tr; fm2 tr; fm3 tr] ->
  Forall (fun m => is_finite m = true /\ Rabs (B2R m) <= T) [fm4 tr; fm5 tr] ->
  (* it is read and built in binary64 under the transform [tr] *)
  fparse_path tg text fpath_ctx_new tr = Ok (Some (pc, segs)) -> (exists m r, segs = SGoTo m :: r) ->
  let n := list_sum (map (fun cmd => List.length (snd cmd)) (map straight cmds)) in
  let Q := 2 * S * P + T + 1 in
  let E := (5 * INR n + 16) * Q / 2 ^ 53 in
  let drift := INR (length segs) * ((203 + 2 * q) * R / 2 ^ 53) in
  P <= 2 ^ 900 -> Q <= 2 ^ 190 -> INR n <= 2 ^ 40 -> drift <= Q / 2 ->
  4 * Q <= W -> (29 + 2 * q1) * R <= W -> W <= 2 ^ 34 * L -> W <= 2 ^ 300 -> INR (length segs) <= 2 ^ 40 -> INR (length segs) <= 65536 * W ->
  (* and drawn by a machine in a state reached by the program *)
  history code (new_ctx ax ay vmx vmy) ops c -> draw_curves g s c segs v = Ok (c', (ex, ey)) -> (forall i, ticks_of c' i < u64_max)%Z ->
  g_circle g = fcircle tg -> g_bezier g = fbezier fuel search ints -> finds (g_find g) -> lengths_sane g s v W (begin_drawing s c) segs ->
  fits W (machine_place s c) ->
  (forall i, is_finite (step_scale s i) = true /\ Rabs (B2R (step_scale s i)) * (8 * W) <= 2 ^ 62) ->
  (forall i, 0 <= D i <= W / 4) -> gotos_near g s v D (begin_drawing s c) segs ->
  (* when the laser burns, the machine is near a point of the path *)
  (ticks_of c AX <= u)%Z -> m_weight (play (events c') u (machine0 w)) <> 0%Z ->
  exists fcmds rc lines j t z, Forall2 (fun c fc => fst c = fst fc /\ Forall2 rounds_to (snd c) (snd fc)) cmds fcmds /\
    build_commands path_ctx_new (map straight cmds) (rtr tr) true = Ok (Some (rc, lines)) /\ 0 <= t <= 1 /\
    on_path (4 * E + drift + (215 + 2 * q) * R / 2 ^ 53) ((60 + 2 * q) / 2 ^ 53) tr (tapply (rtr tr) (mk_vec 0 0)) (arcs_of fcmds) segs lines j t z /\
    forall i, Rabs (IZR (MachineSpec.s_pos (machine_axis (play (events c') (u + 1) (machine0 w)) i)) - B2R (step_scale s i) * coord z i)
      <= IZR (match i with AX => ex | AY => ey end) + 1 + Rabs (B2R (step_scale s i)) *
         (D i + (3200 * INR (length segs) + 738) * W / 2 ^ 53 + 6 * E + 3 * drift + 12 * R / 2 ^ 53 + 4 / 10 ^ 6 * INR (closes segs)).
Proof.
  intros tg q q1 text cmds tr S T P L R W pc segs ax ay vmx vmy ops c g s v c' ex ey fuel search ints D w u ZE AA HQ AC q0 PT EV CI L0 R0 P1 AB TS TT FP SG
    n Q E drift PH BQ BN BD QW RW WL W300 N1 N2 H DC Hm GC GB FG LS FM SC D0 GN HU HW.
  destruct (arcs_built tg q q1 text cmds tr S T P L R W pc segs ZE AA HQ AC q0 PT EV CI L0 R0 P1 AB TS TT FP SG PH BQ BN BD QW RW WL) as (fcmds & rc & lines & RC & A & W1 & DW & AE & PP).
  fold n Q in PP. fold E drift in PP.
  assert (NE : segs <> []) by (destruct SG as (m & r & ->); discriminate).
  destruct (C118_laser tg q1 ax ay vmx vmy ops c g s segs v c' ex ey fuel search ints W D w u H NE DC Hm AC GC GB FG LS (conj W1 W300) FM DW (AE _) N1 N2 SC D0 GN HU HW)
    as (z & (s1 & y & s2 & t & EQS & NG & Ht & TR) & M).
  assert (SP : exists a x b, segs = a ++ x :: b /\ map rs a = s1 /\ rs x = y).
  { clear - EQS. revert s1 EQS. induction segs as [|x r IH]; intros [|y1 s1] EQ; cbn [map app] in EQ; try discriminate EQ; injection EQ as E1 EQ.
    - exists [], x, r. auto.
    - destruct (IH _ EQ) as (a & x' & b & -> & A & B). exists (x :: a), x', b. cbn [map]. rewrite A, E1. auto. }
  destruct SP as (a & x & b & ES & <- & <-).
  destruct (PP (rv (machine_place s c)) a x b t z ES) as (z1 & P2 & C1); [intros m ->; exact (NG _ eq_refl)|exact Ht|exact TR|].
  exists fcmds, rc, lines, (length a), t, z1. split; [exact RC|]. split; [exact A|]. split; [exact Ht|]. split; [exact P2|].
  intros i. eapply Rle_trans; [exact (shift_point _ _ _ _ _ _ (M i) (C1 i))|]. lra.
Qed.

(** And the other way round: the lines and arcs of the path are burned. *)
Theorem C122_covered : forall tg q q1 text cmds tr S T P L R W pc segs ax ay vmx vmy ops c g s v c' ex ey fuel search ints D w,
  (* the functions of the library *)
  zero_exact tg -> angle_accurate tg q -> 0 <= q <= 2 ^ 40 -> accurate tg q1 -> 0 <= q1 ->
  (* the text of a path whose arcs are circles, with radii between [L] and [R] once transformed *)
  path_text text cmds -> even tr ->
  Forall (fun cmd => In (fst cmd) (chars "aA") -> circles_in (Rabs (B2R (fm0 tr))) R (snd cmd) /\ no_smaller (Rabs (B2R (fm0 tr))) L (snd cmd)) cmds ->
  0 < L -> 0 <= R -> 1 <= P ->
  Forall (fun cmd => Forall (fun a => Rabs a <= P) (snd cmd)) (absolute (mk_vec 0 0) (mk_vec 0 0) true (map straight cmds)) ->
  Forall (fun m => is_finite m = true /\ Rabs (B2R m) <= S) [fm0 tr; fm1 tr; fm2 tr; fm3 tr] ->
  Forall (fun m => is_finite m = true /\ Rabs (B2R m) <= T) [fm4 tr; fm5 tr] ->
  (* it is read and built in binary64 under the transform [tr] *)
  fparse_path tg text fpath_ctx_new tr = Ok (Some (pc, segs)) -> (exists m r, segs = SGoTo m :: r) ->
  let n := list_sum (map (fun cmd => List.length (snd cmd)) (map straight cmds)) in
  let Q := 2 * S * P + T + 1 in
  let E := (5 * INR n + 16) * Q / 2 ^ 53 in
  let drift := INR (length segs) * ((203 + 2 * q) * R / 2 ^ 53) in
  P <= 2 ^ 900 -> Q <= 2 ^ 190 -> INR n <= 2 ^ 40 -> drift <= Q / 2 ->
  4 * Q <= W -> (29 + 2 * q1) * R <= W -> W <= 2 ^ 34 * L -> W <= 2 ^ 300 -> INR (length segs) <= 2 ^ 40 -> INR (length segs) <= 65536 * W ->
  (* and drawn by a machine in a state reached by the program *)
  history code (new_ctx ax ay vmx vmy) ops c -> draw_curves g s c segs v = Ok (c', (ex, ey)) -> (forall i, ticks_of c' i < u64_max)%Z ->
  g_circle g = fcircle tg -> g_bezier g = fbezier fuel search ints -> finds (g_find g) -> lengths_sane g s v W (begin_drawing s c) segs ->
  fits W (machine_place s c) ->
  (forall i, is_finite (step_scale s i) = true /\ Rabs (B2R (step_scale s i)) * (8 * W) <= 2 ^ 62) ->
  (forall i, 0 <= D i <= W / 4) -> gotos_near g s v D (begin_drawing s c) segs ->
  (* the drawing takes less than 2^31 - 1 ticks *)
  (ticks_of c' AX - ticks_of c AX < 2 ^ 31 - 1)%Z -> 0 < B2R v ->
  exists fcmds rc lines, Forall2 (fun c fc => fst c = fst fc /\ Forall2 rounds_to (snd c) (snd fc)) cmds fcmds /\
    build_commands path_ctx_new (map straight cmds) (rtr tr) true = Ok (Some (rc, lines)) /\
    (* a segment longer than one and a half ticks, and the point at [t] on it *)
    forall s1 seg s2 wl t, segs = s1 ++ seg :: s2 -> (forall m, seg <> SGoTo m) -> 0 <= t <= 1 ->
    way (pen (rv (machine_place s c)) (map rs s1)) (rs seg) = Some wl ->
    3 / 2 * B2R v + D AX + D AY + 1700 * INR (length segs) * W / 2 ^ 53 + 8 / 10 ^ 6 <= wl ->
    exists z u, on_path (4 * E + drift + (215 + 2 * q) * R / 2 ^ 53) ((60 + 2 * q) / 2 ^ 53) tr (tapply (rtr tr) (mk_vec 0 0)) (arcs_of fcmds) segs lines (length s1) t z /\
      (ticks_of c AX <= u < ticks_of c' AX)%Z /\ m_weight (play (events c') u (machine0 w)) = curve_weight c /\
      forall i, Rabs (IZR (MachineSpec.s_pos (machine_axis (play (events c') (u + 1) (machine0 w)) i)) - B2R (step_scale s i) * coord z i)
        <= IZR (match i with AX => ex | AY => ey end) + 1 + Rabs (B2R (step_scale s i)) *
           (3 / 2 * B2R v + D i + (4500 * INR (length segs) + 738) * W / 2 ^ 53 + 6 * E + 3 * drift + 12 * R / 2 ^ 53 + 4 / 10 ^ 6 * INR (closes segs)).
Proof.
  intros tg q q1 text cmds tr S T P L R W pc segs ax ay vmx vmy ops c g s v c' ex ey fuel search ints D w ZE AA HQ AC q0 PT EV CI L0 R0 P1 AB TS TT FP SG
    n Q E drift PH BQ BN BD QW RW WL W300 N1 N2 H DC Hm GC GB FG LS FM SC D0 GN TK V0.
  destruct (arcs_built tg q q1 text cmds tr S T P L R W pc segs ZE AA HQ AC q0 PT EV CI L0 R0 P1 AB TS TT FP SG PH BQ BN BD QW RW WL) as (fcmds & rc & lines & RC & A & W1 & DW & AE & PP).
  fold n Q in PP. fold E drift in PP.
  assert (NE : segs <> []) by (destruct SG as (m & r & ->); discriminate).
  exists fcmds, rc, lines. split; [exact RC|]. split; [exact A|]. intros s1 seg s2 wl t ES NG Ht WY LW.
  destruct (traced (pen (rv (machine_place s c)) (map rs s1)) (rs seg) t) as [z|] eqn:TR; [|destruct seg; discriminate TR].
  destruct (PP _ s1 seg s2 t z ES NG Ht TR) as (z1 & P2 & C1).
  destruct (C118_covered tg q1 ax ay vmx vmy ops c g s segs v c' ex ey fuel search ints W D w s1 seg s2 wl t z H NE DC Hm AC GC GB FG LS (conj W1 W300) FM DW (AE _) N1 N2 SC D0 GN
    TK V0 ES Ht WY TR LW) as (u & HU & HW & M).
  exists z1, u. split; [exact P2|]. split; [exact HU|]. split; [exact HW|].
  intros i. eapply Rle_trans; [exact (shift_point _ _ _ _ _ _ (M i) (C1 i))|]. lra.
Qed.

(** The segments are known when their floats are. *)
Definition sf_seg (s : segment) : nat * list SpecFloat.spec_float :=
  match s with
  | SGoTo p => (0%nat, map B2SF [fx p; fy p])
  | SLineTo p => (1%nat, map B2SF [fx p; fy p])
  | SCloseTo p => (2%nat, map B2SF [fx p; fy p])
  | SCurveTo p c d => (3%nat, map B2SF [fx p; fy p; fx c; fy c; fx d; fy d])
  | SArc rx ry a b ro => (4%nat, map B2SF [rx; ry; a; b; ro])
  end.
Lemma sf_seg_inj : forall a b, map sf_seg a = map sf_seg b -> a = b.
Proof.
  assert (K : forall s s', sf_seg s = sf_seg s' -> s = s').
  { assert (FV : forall p p', B2SF (fx p) = B2SF (fx p') -> B2SF (fy p) = B2SF (fy p') -> p = p').
    { intros [x y] [x' y'] A B. cbn [fx fy] in A, B. apply B2SF_inj in A, B. congruence. }
    intros [p|p|p|p c d|rx ry a b ro] [p'|p'|p'|p' c' d'|rx' ry' a' b' ro'] H; try discriminate H; cbn [sf_seg map] in H; injection H; intros; f_equal; first [apply FV; assumption|apply B2SF_inj; assumption]. }
  induction a as [|x a IH]; intros [|y b] H; try discriminate H; [reflexivity|]. cbn [map] in H. injection H as H1 H2. f_equal; [apply K; congruence|apply IH; exact H2].
Qed.

(** A quarter of a circle, from its text to its dots. *)
Definition C122_quarter : list char := chars "M0 0a32 32 0 0 1 -32 32".
Definition C122_commands : list (char * list R) := [(ch "M", [0; 0]); (ch "a", [32; 32; 0; 0; 1; -32; 32])].
Definition C122_segments : list segment := [SGoTo fvzero; SArc (f_of_Z 32) (f_of_Z 32) fzero right_angle (fneg fzero)].

Example C122_example :
  path_text C122_quarter C122_commands /\ even fidentity /\
  Forall (fun cmd => In (fst cmd) (chars "aA") -> circles_in (Rabs (B2R (fm0 fidentity))) 33 (snd cmd) /\ no_smaller (Rabs (B2R (fm0 fidentity))) 30 (snd cmd)) C122_commands /\
  Forall (fun cmd => Forall (fun a => Rabs a <= 32) (snd cmd)) (absolute (mk_vec 0 0) (mk_vec 0 0) true (map straight C122_commands)) /\
  (exists pc, fparse_path known_trig C122_quarter fpath_ctx_new fidentity = Ok (Some (pc, C122_segments))) /\
  2 * ((203 + 2 * 4) * 33 / 2 ^ 53) <= (2 * 1 * 32 + 0 + 1) / 2 /\ 4 * (2 * 1 * 32 + 0 + 1) <= 2048 /\ (29 + 2 * 3) * 33 <= 2048 /\ 2048 <= 2 ^ 34 * 30 /\
  exists c', draw_curves C118_geometry sc1 laser C122_segments (f_of_Z 25) = Ok (c', (5, 2)%Z) /\
    (forall i, ticks_of c' i < u64_max)%Z /\
    lengths_sane C118_geometry sc1 (f_of_Z 25) 2048 (begin_drawing sc1 laser) C122_segments /\
    fits 2048 (machine_place sc1 laser) /\
    (forall i, is_finite (step_scale sc1 i) = true /\ Rabs (B2R (step_scale sc1 i)) * (8 * 2048) <= 2 ^ 62) /\
    gotos_near C118_geometry sc1 (f_of_Z 25) (fun _ => 0) (begin_drawing sc1 laser) C122_segments /\
    (ticks_of c' AX - ticks_of laser AX < 2 ^ 31 - 1)%Z /\
    (exists wl, way (pen (rv (machine_place sc1 laser)) (map rs (firstn 1 C122_segments))) (rs (SArc (f_of_Z 32) (f_of_Z 32) fzero right_angle (fneg fzero))) = Some wl /\
      3 / 2 * 25 + 1700 * 2 * 2048 / 2 ^ 53 + 8 / 10 ^ 6 <= wl) /\
    map (fun u => let m := play (events c') u (machine0 0) in (m_weight m, MachineSpec.s_pos (m_x m), MachineSpec.s_pos (m_y m))) [4; 5; 6]%Z =
      [(100, 0, -1); (100, -7, 22); (0, -27, 34)]%Z.
Proof.
  assert (N0 : number_text (chars "0") 0) by (apply (text_digits (chars "0")); split; [discriminate|repeat constructor]).
  assert (N1 : number_text (chars "1") 1) by (apply (text_digits (chars "1")); split; [discriminate|repeat constructor]).
  assert (N32 : number_text (chars "32") 32) by (apply (text_digits (chars "32")); split; [discriminate|repeat constructor]).
  assert (NM : number_text (chars "-32") (-32)).
  { replace (-32) with (IZR (-1) * IZR (digits_value (chars "32")) * powerRZ 10 (0 + 0)) by (cbn [powerRZ Z.add]; change (digits_value (chars "32")) with 32%Z; ring).
    change (chars "-32") with (chars "-" ++ chars "32" ++ @nil char). constructor; [constructor|constructor; split; [discriminate|repeat constructor]|constructor]. }
  assert (SP : separator (chars " ")) by (right; split; [discriminate|repeat constructor]).
  assert (A32 : Rabs 32 = 32) by (apply Rabs_pos_eq; lra). destruct one_value as [F1 V1].
  assert (E1 : B2R (fm0 fidentity) = 1) by (rewrite <- V1; reflexivity).
  split.
  { unfold C122_quarter, C122_commands. change (chars "M0 0a32 32 0 0 1 -32 32") with
      ([] ++ (ch "M" :: [] ++ (chars "0" ++ chars " " ++ chars "0")) ++
       [] ++ (ch "a" :: [] ++ (chars "32" ++ chars " " ++ chars "32" ++ chars " " ++ chars "0" ++ chars " " ++ chars "0" ++ chars " " ++ chars "1" ++ chars " " ++ chars "-32" ++ chars " " ++ chars "32")) ++ []).
    repeat (apply path_more; [constructor|apply command_args; [apply is_one_of_In; reflexivity|constructor|]|]); [..|constructor; constructor];
      repeat (apply numbers_more; [assumption|exact SP|]); apply numbers_one; assumption. }
  split.
  { split; [reflexivity|]. split; [reflexivity|]. split; [|split; reflexivity]. split; [reflexivity|]. rewrite E1, Rabs_R1. split; [cbn [pow]; lra|apply pow_R1_Rle; lra]. }
  split.
  { constructor; [intros I; cbn in I; repeat (destruct I as [I|I]; [discriminate I|]); contradiction|]. constructor; [|constructor]. intros _.
    cbn [snd circles_in no_smaller]. rewrite E1, Rabs_R1, A32. split; [|split; [lra|exact I]].
    split; [reflexivity|]. split; [split; cbn [pow]; lra|]. split; [reflexivity|]. split; [lra|exact I]. }
  split.
  { change (absolute _ _ _ _) with [(ch "M", [0; 0]); (ch "L", [0 + -32; 0 + 32])]. rewrite !Rplus_0_l. repeat constructor; cbn [snd]; rewrite ?A32, ?Rabs_R0, ?(Rabs_left (-32)) by lra; lra. }
  split.
  { assert (G : match fparse_path known_trig C122_quarter fpath_ctx_new fidentity with Ok (Some (_, s)) => Some (map sf_seg s) | _ => None end = Some (map sf_seg C122_segments)) by (vm_compute; reflexivity).
    destruct (fparse_path known_trig C122_quarter fpath_ctx_new fidentity) as [[[pc segs]|]| |]; try discriminate G.
    assert (G2 : map sf_seg segs = map sf_seg C122_segments) by congruence. exists pc. rewrite (sf_seg_inj _ _ G2). reflexivity. }
  split; [unfold Rdiv; rewrite <- u53_is, u53_val; lra|]. split; [lra|]. split; [lra|]. split; [cbn [pow]; lra|].
  assert (EM : machine_place sc1 laser = mk_fvec (B754_zero false) (B754_zero false)) by (vm_compute; reflexivity).
  eexists. split; [vm_compute; reflexivity|]. split; [intros []; vm_compute; reflexivity|].
  split; [|split; [|split; [|split; [|split; [vm_compute; reflexivity|split; [|vm_compute; reflexivity]]]]]].
  - intros s1 e c1 c2 s2 d curve E L. exfalso. unfold C122_segments in E.
    repeat (destruct s1 as [|? s1]; cbn [app] in E; [discriminate E|injection E as _ E]). destruct s1; discriminate E.
  - rewrite EM. split; [split; reflexivity|]. split; cbn [rv vx vy fx fy B2R]; rewrite Rabs_R0; lra.
  - intros i. assert (ES : step_scale sc1 i = f_of_Z 1) by (destruct i; reflexivity). rewrite ES. destruct (f_of_Z_exact 1 ltac:(lia)) as [A B]. split; [exact A|].
    rewrite B, Rabs_R1. cbn [pow]. lra.
  - intros s0 p s1 d E L.
    assert (E2 : s0 = [] /\ p = fvzero).
    { unfold C122_segments in *. destruct s0 as [|a s0]; cbn [app] in E; [assert (p = fvzero) by congruence; auto|].
      destruct s0 as [|b s0]; cbn [app] in E; [discriminate E|]. destruct s0; discriminate E. }
    destruct E2 as [-> ->]. intros _ i. injection L as <-. cbn [begin_drawing d_pos].
    rewrite EM. change fvzero with (mk_fvec (B754_zero false) (B754_zero false)). rewrite Rminus_diag_eq by reflexivity. rewrite Rabs_R0. lra.
  - destruct (f_of_Z_exact 32 ltac:(lia)) as [F32 V32]. destruct right_value as [F2 V2].
    eexists. split; [reflexivity|]. cbn [rs]. rewrite V32, V2. change (B2R fzero) with 0. rewrite Rabs_pos_eq by lra. cbn [pow]. lra.
Qed.

Print Assumptions C122_text.
Print Assumptions C122_covered.
Print Assumptions C122_example.
