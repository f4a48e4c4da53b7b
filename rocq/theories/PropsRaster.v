(** Properties C42, C43, C75 and C76: rastering an image.

    [play] (MachineSpec.v) is the independent machine.  [exposure], [image_lines],
    [fits], [ready] and [over_pixel] are in RasterProofs.v. *)
From Coq Require Import ZArith List Bool Lia.
From Coq Require Import ZifyBool ZifyNat.
From Verif Require Import Base Floats AccVector MotionSpec IntegerCurve StepperContext MachineSpec
  MachineProofs ContextProofs ContextOps ContextHist ContextClock ContextGoto PropsIntegerCurve MachinePath
  PropsPath ApproxCurve ApproxProofs DrawCurves PropsDraw ImageRaster RasterProofs.
Import ListNotations.
Open Scope Z_scope.

(** C42.  The dark span. *)
Theorem C42_dark_span : forall A (row : list A) (f : A -> bool),
  exists start len, find_row_interval row f = Ok (start, len) /\ (start + len <= length row)%nat /\
    (forall i p, nth_error row i = Some p -> f p = true -> (start <= i < start + len)%nat) /\
    ((0 < len)%nat -> (exists p, nth_error row start = Some p /\ f p = true) /\
                      (exists p, nth_error row (start + len - 1) = Some p /\ f p = true)) /\
    (len = 0%nat <-> forall p, In p row -> f p = false).
Proof.
  intros A row f. destruct (find_row_interval_spec A row f) as (st & len & E & B & I & N & Z0).
  exists st, len. repeat (split; [assumption|]). split.
  - intros -> p Hp. destruct (f p) eqn:F; [|reflexivity]. destruct (In_nth_error _ _ Hp) as (i & Hi).
    specialize (I i p Hi F). lia.
  - intros K. destruct len as [|len]; [reflexivity|]. destruct (N ltac:(lia)) as [(p & Hp & F) _].
    apply nth_error_In in Hp. rewrite (K p Hp) in F. discriminate.
Qed.

Example C42_example : find_row_interval [255; 255; 0; 255; 7; 255] (fun p => p <? 255) = Ok (2, 3)%nat /\
  find_row_interval [255; 255] (fun p => p <? 255) = Ok (0, 0)%nat /\
  find_row_interval [3] (fun p => p <? 255) = Ok (0, 1)%nat.
Proof. repeat split. Qed.

Lemma line_lines : forall sc row yn r ltr st len c c', clocked c -> move_weight c = 0 -> 0 <= res_x sc -> 0 <= len ->
  raster_line sc row yn r ltr st len c = Ok c' ->
  exists t0, lines_drawn sc c [mk_line yn row r ltr st len] [t0] c' /\ ticks_of c' AX = t0 + len * res_x sc /\
    (forall t w, ticks_of c' AX <= t -> play_weight (events c') t w = 0).
Proof.
  intros sc row yn r ltr st len c c' Hc MW Hr Hl H.
  destruct (raster_line_spec sc row yn r ltr st len c c' Hc MW Hr Hl H) as (c1 & LD).
  exists (ticks_of c1 AX). split; [eapply lsd_cons; [exact LD|apply lsd_nil]|].
  split; [apply (co_ticks _ _ _ (ld_coasts _ _ _ _ _ _ _ _ _ _ LD))|].
  intros t w Ht. apply (ld_after _ _ _ _ _ _ _ _ _ _ LD). exact Ht.
Qed.

(** C43.  A line that starts at tick [t0]: the weight at every tick of step [k] of
    the scan is that of the pixel under step [k]; on the way to the line and after it
    the weight is 0. *)
Theorem C43_exposure : forall ax ay vmx vmy ops c sc row yn r (ltr : bool) start len c',
  history code (new_ctx ax ay vmx vmy) ops c -> 1 <= res_x sc -> 0 <= len ->
  raster_line sc row yn r ltr start len c = Ok c' ->
  exists t0, ticks_of c AX <= t0 /\ ticks_of c' AX = t0 + len * res_x sc /\
    forall t m, m_weight (play (events c') t m) =
      if t <? ticks_of c AX then m_weight (play (events c) t m)
      else if (t0 <=? t) && (t <? t0 + len * res_x sc) then
        let k := (t - t0) / res_x sc in
        Z.quot ((255 - nth (Z.to_nat (if ltr then start + k else start + len - 1 - k)) row 255) * black sc) 256
      else 0.
Proof.
  intros ax ay vmx vmy ops c sc row yn r ltr start len c' H Hr Hl D.
  destruct (clocked_history _ _ _ _ _ _ H) as [Hc Cf].
  destruct (line_lines sc row yn r ltr start len c c' Hc) as (t0 & LD & T & A); auto; try lia.
  { unfold config in Cf. congruence. }
  exists t0. pose proof (lines_ticks _ _ _ _ _ Hc LD) as F. inversion F; subst.
  pose proof (lines_step _ _ _ _ _ Hc LD) as S. pose proof (st_ticks _ _ S AX).
  split; [assumption|]. split; [exact T|]. intros t m. rewrite !play_weight_ok.
  destruct (Z.lt_ge_cases t (ticks_of c' AX)) as [L|L].
  - rewrite (lines_weight sc c _ _ c' Hc Hr LD) by exact L.
    destruct (Z.ltb_spec t (ticks_of c AX)); [reflexivity|]. cbn [exposure l_len].
    destruct (Z.leb_spec t0 t); [|reflexivity].
    destruct (Z.ltb_spec t (t0 + len * res_x sc)); [|reflexivity]. reflexivity.
  - rewrite A by exact L. destruct (Z.ltb_spec t (ticks_of c AX)); [lia|].
    destruct (Z.ltb_spec t (t0 + len * res_x sc)); [lia|]. rewrite andb_false_r. reflexivity.
Qed.

(** During step [k] the head is over the pixel under step [k] (its borders are
    [2 * v_x * res_x] apart), but for the positioning error of one step. *)
Theorem C43_place : forall ax ay vmx vmy ops c sc w h row yn r (ltr : bool) start len c',
  history code (new_ctx ax ay vmx vmy) ops c -> ticks_of c AX = ticks_of c AY ->
  fits c sc w h -> ready c ->
  0 <= start -> 0 < len -> start + len <= w -> 0 <= yn < h -> 0 <= r < res_y sc ->
  raster_line sc row yn r ltr start len c = Ok c' -> (forall i, ticks_of c' i < u64_max) ->
  exists t0, ticks_of c AX <= t0 /\ ticks_of c' AX = t0 + len * res_x sc /\
    forall t m, t0 <= t < t0 + len * res_x sc ->
      let k := (t - t0) / res_x sc in
      let px := if ltr then start + k else start + len - 1 - k in
      let p := play (events c') t (machine0 m) in
      m_weight p = Z.quot ((255 - nth (Z.to_nat px) row 255) * black sc) 256 /\
      start <= px < start + len /\
      2 * v_x sc * res_x sc * px - 1 <= s_pos (m_x p) <= 2 * v_x sc * res_x sc * (px + 1) + 1 /\
      Z.abs (s_pos (m_y p) - (yn * res_y sc + r) * step_y sc) <= 1 /\
      s_v (m_x p) = (if ltr then v_x sc else - v_x sc) /\ s_v (m_y p) = 0.
Proof.
  intros ax ay vmx vmy ops c sc w h row yn r ltr start len c' H Sy Fi Re H1 H2 H3 H4 H5 D Ht.
  destruct (clocked_history _ _ _ _ _ _ H) as [Hc Cf]. pose proof (fi_res _ _ _ _ Fi) as [Hr _].
  destruct (history_sound code _ ops c planner_typed H (sound_new ax ay vmx vmy)) as [_ Hm].
  destruct (line_lines sc row yn r ltr start len c c' Hc) as (t0 & LD & T & A); auto; try lia.
  { unfold config in Cf. congruence. }
  exists t0. pose proof (lines_ticks _ _ _ _ _ Hc LD) as F. inversion F; subst.
  pose proof (lines_step _ _ _ _ _ Hc LD) as S.
  destruct (lines_place sc c _ _ c' w h Hc Sy LD Fi Re) as (_ & _ & _ & _ & _ & P); auto.
  { constructor; [|constructor]. constructor; cbn; lia. }
  { apply Hm. intros i. pose proof (st_ticks _ _ S i). specialize (Ht i). lia. }
  split; [assumption|]. split; [exact T|]. intros t m Htt. cbv zeta.
  destruct (P _ t0 (or_introl eq_refl) t Htt) as [L OL].
  pose proof (over_pixel sc (mk_line yn row r ltr start len) t0 _ _ t Hr (proj1 (fi_vx _ _ _ _ Fi)) Htt OL) as OP.
  destruct OL as (_ & Y & V1 & V2). pose proof (ck_ticks c Hc AX) as T0.
  split.
  { rewrite play_weight_ok, (lines_weight sc c _ _ c' Hc Hr LD) by lia.
    destruct (Z.ltb_spec t (ticks_of c AX)); [lia|]. cbn [exposure l_len].
    destruct (Z.leb_spec t0 t); [|lia]. destruct (Z.ltb_spec t (t0 + len * res_x sc)); [reflexivity|lia]. }
  change (m_x (play (events c') t (machine0 m))) with (machine_axis (play (events c') t (machine0 m)) AX).
  change (m_y (play (events c') t (machine0 m))) with (machine_axis (play (events c') t (machine0 m)) AY).
  rewrite !play_axis_ok by (try lia; apply clocked_nonneg, S).
  unfold pixel_of in OP. cbn [l_ltr l_start l_len] in *. split; [apply OP|]. split; [apply OP|].
  split; [exact Y|]. split; [exact V1|exact V2].
Qed.

(** C75.  The whole image.  [image_lines]: the dark spans of the rows that have a
    dark pixel, in order, [res_y] times each, alternately to the right and to the
    left.  The weight at every tick, then and for ever after. *)
Theorem C75_laser : forall ax ay vmx vmy ops c sc rows c',
  history code (new_ctx ax ay vmx vmy) ops c -> 1 <= res_x sc ->
  raster sc rows c = Ok c' ->
  exists l ts, image_lines (res_y sc) 0 true rows l /\ length l = length ts /\
    forall t m, m_weight (play (events c') t m) =
      if t <? ticks_of c AX then m_weight (play (events c) t m) else exposure sc l ts t.
Proof.
  intros ax ay vmx vmy ops c sc rows c' H Hr D.
  destruct (clocked_history _ _ _ _ _ _ H) as [Hc Cf].
  destruct (raster_lines sc rows c c' Hc) as (l & ts & c1 & IL & LD & G); auto; try lia.
  { unfold config in Cf. congruence. }
  exists l, ts. split; [exact IL|]. split; [eapply lines_length; eauto|]. intros t m. rewrite !play_weight_ok.
  pose proof (lines_step _ _ _ _ _ Hc LD) as S.
  destruct (step_goto_speed_spec code c1 _ _ _ _ c' (st_clocked _ _ S) planner_typed G)
    as (_ & _ & _ & _ & _ & _ & _ & _ & _ & _ & _ & _ & Q).
  rewrite Q. pose proof (st_ticks _ _ S AX).
  destruct (Z.leb_spec (ticks_of c1 AX) t) as [L|L].
  - destruct (Z.ltb_spec t (ticks_of c AX)); [lia|]. rewrite (step_move _ _ S).
    assert (MW : move_weight c = 0) by (unfold config in Cf; congruence). rewrite MW. symmetry.
    clear - L LD. induction LD as [|c c1 c2 x r ts c' LD H IH]; [reflexivity|]. cbn [exposure].
    assert (B : ticks_of c1 AX + l_len x * res_x sc <= ticks_of c' AX).
    { pose proof (line_step _ _ _ _ _ _ _ _ _ _ LD) as S.
      pose proof (st_ticks _ _ (lines_step _ _ _ _ _ (st_clocked _ _ S) H) AX).
      pose proof (co_ticks _ _ _ (ld_coasts _ _ _ _ _ _ _ _ _ _ LD) AX). lia. }
    destruct (Z.ltb_spec t (ticks_of c1 AX + l_len x * res_x sc)); [lia|]. rewrite andb_false_r. apply IH, L.
  - apply (lines_weight sc c l ts c1 Hc Hr LD). exact L.
Qed.

Section Image.
(** An image of [h] rows at most [w] wide, rastered from a state at rest or within
    the limits ([ready]), with numbers in range ([fits]). *)
Variables (ax ay vmx vmy : Z) (ops : list op) (c : ctx) (sc : scan) (w h : Z) (rows : list (list Z)) (c' : ctx).
Hypothesis (H : kept within_speed (new_ctx ax ay vmx vmy) ops c) (NR : Forall not_reset ops)
  (Sy : ticks_of c AX = ticks_of c AY) (Fi : fits c sc w h) (Re : ready c)
  (HW : forall row, In row rows -> Z.of_nat (length row) <= w) (HH : Z.of_nat (length rows) <= h)
  (D : raster sc rows c = Ok c') (Ht : forall i, ticks_of c' i < u64_max).

Lemma image_drawn : exists l ts c1,
  image_lines (res_y sc) 0 true rows l /\ lines_drawn sc c l ts c1 /\ step_goto_speed c1 0 0 0 0 = Ok c' /\
  clocked c /\ clocked c1 /\ clocked c' /\ ticks_of c AX <= ticks_of c1 AX /\
  goto_axis c1 AX 0 0 /\ goto_axis c1 AY 0 0 /\ (forall i, ticks_of c1 i < u64_max) /\
  (forall i, c_move c1 i = c_state c1 i) /\
  (exists ops1, kept within_speed c ops1 c1 /\ Forall not_reset ops1) /\
  (forall t m, ticks_of c AX <= t -> m_weight (play (events c') t m) = exposure sc l ts t) /\
  (forall x t0, In (x, t0) (combine l ts) -> forall t m, t0 <= t < t0 + l_len x * res_x sc ->
     t < ticks_of c1 AX /\ 0 <= t /\ ticks_of c AX <= t /\
     on_line sc x t0 (m_x (play (events c') t (machine0 m))) (m_y (play (events c') t (machine0 m))) t).
Proof.
  destruct (kept_clocked _ _ _ _ _ _ _ H) as [[Hc Hm] Cf].
  pose proof (fi_res _ _ _ _ Fi) as [Hr Hr2].
  assert (MW : move_weight c = 0) by (unfold config in Cf; congruence).
  destruct (raster_lines sc rows c c' Hc) as (l & ts & c1 & IL & LD & G); auto; try lia.
  pose proof (lines_step _ _ _ _ _ Hc LD) as S.
  destruct (step_goto_speed_spec code c1 _ _ _ _ c' (st_clocked _ _ S) planner_typed G)
    as (sx & sy & rest & _ & _ & _ & S1 & _ & _ & _ & _ & _ & Q).
  assert (Ht1 : forall i, ticks_of c1 i < u64_max) by (intros i; pose proof (st_ticks _ _ S1 i); specialize (Ht i); lia).
  assert (Ht0 : forall i, ticks_of c i < u64_max) by (intros i; pose proof (st_ticks _ _ S i); specialize (Ht1 i); lia).
  destruct (lines_place sc c l ts c1 w h Hc Sy LD Fi Re) as ((o1 & K1 & _ & N1 & _) & [RP RV] & M1 & Y1 & BF & P); auto.
  { eapply image_lines_in; eauto; lia. }
  pose proof (fits_step _ _ _ _ _ S Fi) as [FA FV _ _ _ _ _].
  assert (GA : forall i, goto_axis c1 i 0 0).
  { intros i. pose proof (RP i). pose proof (RV i). pose proof (FA i). pose proof (FV i). unfold goto_axis. repeat split; lia. }
  destruct (goto_follows code c1 _ _ _ _ c' (st_clocked _ _ S) planner_typed G Ht) as (qx & qy & qr & _ & Fo).
  pose proof (st_ticks _ _ S AX) as TL. pose proof (ck_ticks c Hc AX) as T0.
  exists l, ts, c1. split; [exact IL|]. split; [exact LD|]. split; [exact G|]. split; [exact Hc|].
  split; [apply S|]. split; [apply S1|]. split; [exact TL|]. split; [apply GA|]. split; [apply GA|].
  split; [exact Ht1|]. split; [exact M1|]. split; [exists o1; auto|]. split.
  - intros t m Htt. rewrite play_weight_ok, Q.
    destruct (Z.leb_spec (ticks_of c1 AX) t) as [L|L].
    + rewrite (step_move _ _ S), MW. symmetry.
      clear - L LD. induction LD as [|c c1 c2 x r ts c' LD H IH]; [reflexivity|]. cbn [exposure].
      assert (B : ticks_of c1 AX + l_len x * res_x sc <= ticks_of c' AX).
      { pose proof (line_step _ _ _ _ _ _ _ _ _ _ LD) as S.
        pose proof (st_ticks _ _ (lines_step _ _ _ _ _ (st_clocked _ _ S) H) AX).
        pose proof (co_ticks _ _ _ (ld_coasts _ _ _ _ _ _ _ _ _ _ LD) AX). lia. }
      destruct (Z.ltb_spec t (ticks_of c1 AX + l_len x * res_x sc)); [lia|]. rewrite andb_false_r. apply IH, L.
    + rewrite (lines_weight sc c l ts c1 Hc Hr LD) by exact L. destruct (Z.ltb_spec t (ticks_of c AX)); [lia|reflexivity].
  - intros x t0 Hin t m Htt. destruct (P x t0 Hin t Htt) as [L OL].
    pose proof (lines_ticks _ _ _ _ _ Hc LD) as F. rewrite Forall_forall in F.
    specialize (F t0 (in_combine_r _ _ _ _ Hin)).
    split; [exact L|]. split; [lia|]. split; [lia|].
    change (m_x (play (events c') t (machine0 m))) with (machine_axis (play (events c') t (machine0 m)) AX).
    change (m_y (play (events c') t (machine0 m))) with (machine_axis (play (events c') t (machine0 m)) AY).
    rewrite !play_axis_ok by (try lia; apply clocked_nonneg, S1).
    rewrite (fo_before _ _ _ _ (Fo AX)) by lia. rewrite (fo_before _ _ _ _ (Fo AY)) by lia. exact OL.
Qed.

(** Whenever the laser is on, the head is over a pixel of the image that has that weight. *)
Theorem C75_marks : forall t m, ticks_of c AX <= t ->
  let p := play (events c') t (machine0 m) in
  m_weight p <> 0 ->
  exists y x row g r, nth_error rows y = Some row /\ nth_error row x = Some g /\ 0 <= r < res_y sc /\
    m_weight p = Z.quot ((255 - g) * black sc) 256 /\
    2 * v_x sc * res_x sc * Z.of_nat x - 1 <= s_pos (m_x p) <= 2 * v_x sc * res_x sc * (Z.of_nat x + 1) + 1 /\
    Z.abs (s_pos (m_y p) - (Z.of_nat y * res_y sc + r) * step_y sc) <= 1.
Proof.
  intros t m Htt p Hp. subst p.
  destruct image_drawn as (l & ts & c1 & IL & LD & G & Hc & Hc1 & Hc' & TL & GX & GY & Ht1 & M1 & _ & W & P).
  pose proof (fi_res _ _ _ _ Fi) as [Hr Hr2].
  rewrite W in * by lia. destruct (exposure_in _ _ _ _ Hp) as (x & t0 & Hin & Hx & E).
  destruct (P x t0 Hin t m Hx) as (L & L0 & _ & OL).
  pose proof (over_pixel sc x t0 _ _ t Hr (proj1 (fi_vx _ _ _ _ Fi)) Hx OL) as OP.
  destruct OL as (_ & Y & _).
  destruct (line_of_image _ _ _ _ _ IL x (in_combine_l _ _ _ _ Hin)) as (y & Ey & Ly & Lr & LS & LL & LE).
  cbv zeta in OP. set (px := pixel_of x ((t - t0) / res_x sc)) in *.
  destruct (nth_error (l_row x) (Z.to_nat px)) as [g|] eqn:Eg.
  2: { apply nth_error_None in Eg. lia. }
  exists y, (Z.to_nat px), (l_row x), g, (l_rep x). split; [exact Ey|]. split; [exact Eg|]. split; [exact Lr|].
  split; [rewrite E; unfold line_weight; fold px; rewrite (nth_error_nth _ _ _ Eg); reflexivity|].
  rewrite Z2Nat.id by lia. split; [apply OP|]. unfold line_y in Y. rewrite Ly in Y. exact Y.
Qed.

(** Every pixel that is not white is exposed for [res_x] ticks on each of [res_y] lines. *)
Theorem C75_complete : forall y x row g r, nth_error rows y = Some row -> nth_error row x = Some g -> g < 255 ->
  0 <= r < res_y sc ->
  exists t0, ticks_of c AX <= t0 /\ t0 + res_x sc <= ticks_of c' AX /\
    forall t m, t0 <= t < t0 + res_x sc ->
      let p := play (events c') t (machine0 m) in
      m_weight p = Z.quot ((255 - g) * black sc) 256 /\
      2 * v_x sc * res_x sc * Z.of_nat x - 1 <= s_pos (m_x p) <= 2 * v_x sc * res_x sc * (Z.of_nat x + 1) + 1 /\
      Z.abs (s_pos (m_y p) - (Z.of_nat y * res_y sc + r) * step_y sc) <= 1.
Proof.
  intros y x row g r Ey Ex Hg Hr'.
  destruct image_drawn as (l & ts & c1 & IL & LD & G & Hc & Hc1 & Hc' & TL & GX & GY & Ht1 & M1 & _ & W & P).
  pose proof (fi_res _ _ _ _ Fi) as [Hr Hr2].
  destruct (dark_pixel_line _ _ _ _ _ IL y row x g r Ey Ex Hg Hr') as (d & st & len & I & B). rewrite Z.add_0_l in I.
  set (ln := mk_line (Z.of_nat y) row r d st len) in *.
  destruct (combine_in l ts ln (lines_length _ _ _ _ _ LD) I) as (tl & Hin).
  set (k := if d then Z.of_nat x - st else st + len - 1 - Z.of_nat x).
  assert (Hk : 0 <= k < len) by (subst k; destruct d; lia).
  assert (Kx : pixel_of ln k = Z.of_nat x) by (unfold pixel_of; subst ln k; cbn; destruct d; lia).
  assert (R : forall t, tl + k * res_x sc <= t < tl + k * res_x sc + res_x sc ->
     tl <= t < tl + l_len ln * res_x sc /\ (t - tl) / res_x sc = k).
  { intros t Htt. subst ln. cbn [l_len]. split; [nia|]. symmetry. apply (Z.div_unique _ _ _ (t - tl - k * res_x sc)); lia. }
  destruct (R (tl + k * res_x sc) ltac:(lia)) as [RA _].
  destruct (R (tl + k * res_x sc + res_x sc - 1) ltac:(lia)) as [RB _].
  destruct (P ln tl Hin _ 0 RA) as (_ & _ & L1 & _). destruct (P ln tl Hin _ 0 RB) as (L2 & _).
  exists (tl + k * res_x sc). split; [exact L1|]. split.
  { destruct (step_goto_speed_spec code c1 _ _ _ _ c' Hc1 planner_typed G)
      as (_ & _ & _ & _ & _ & _ & S1 & _). pose proof (st_ticks _ _ S1 AX). lia. }
  intros t m Htt. cbv zeta. destruct (R t Htt) as [RT Ek].
  destruct (P ln tl Hin t m RT) as (_ & _ & _ & OL).
  pose proof (over_pixel sc ln tl _ _ t Hr (proj1 (fi_vx _ _ _ _ Fi)) RT OL) as OP.
  cbv zeta in OP. rewrite Ek, Kx in OP. destruct OL as (_ & Y & _).
  split; [|split; [apply OP|exact Y]].
  rewrite W by lia. rewrite (exposure_at sc c l ts c1 Hc LD ln tl t Hin RT), Ek.
  unfold line_weight. rewrite Kx, Nat2Z.id. subst ln. cbn [l_row]. rewrite (nth_error_nth _ _ _ Ex). reflexivity.
Qed.

(** At the end the head is back at the origin, but for one step, at rest, and the
    laser is off; on the way the speed limits are kept. *)
Theorem C75_home : forall m, let p := play (events c') (ticks_of c' AX) (machine0 m) in
  Z.abs (s_pos (m_x p)) <= 1 /\ Z.abs (s_pos (m_y p)) <= 1 /\ s_v (m_x p) = 0 /\ s_v (m_y p) = 0 /\
  forall t, ticks_of c' AX <= t -> m_weight (play (events c') t (machine0 m)) = 0.
Proof.
  intros m p.
  destruct image_drawn as (l & ts & c1 & IL & LD & G & Hc & Hc1 & Hc' & TL & GX & GY & Ht1 & M1 & _ & W & P).
  destruct (goto_place c1 _ _ _ _ c' Hc1 G GX GY) as [PX PY].
  destruct (step_goto_speed_spec code c1 _ _ _ _ c' Hc1 planner_typed G)
    as (sx & sy & rest & _ & _ & _ & S1 & _ & Y & ST & _ & Mv & Q).
  assert (ME : forall i, let s := machine_axis (play (events c') (ticks_of c' i) (machine0 m)) i in
     s_pos s = c_pos (channel c' i) /\ s_v s = c_v (channel c' i)).
  { intros i. destruct (Mv Ht i) as [_ K]. specialize (K (M1 i)). cbv zeta.
    rewrite play_axis_ok by (try apply clocked_nonneg, S1; apply (ck_ticks c' Hc' i)).
    assert (E : machine_axis (machine0 m) i = mk_axis 0 0 0) by (destruct i; reflexivity). rewrite E.
    unfold c_move, motion, c_state in K. cbv zeta in K.
    split; [exact (f_equal fst K)|exact (f_equal snd K)]. }
  destruct (ME AX) as [X1 X2]. destruct (ME AY) as [Y1 Y2]. rewrite <- Y in Y1, Y2.
  pose proof (f_equal snd (ST AX)) as V1. pose proof (f_equal snd (ST AY)) as V2. unfold c_state in V1, V2.
  cbn [snd machine_axis] in *. fold p in X1, X2, Y1, Y2. split; [lia|]. split; [lia|]. split; [congruence|].
  split; [congruence|]. intros t Htt. rewrite play_weight_ok, Q. pose proof (st_ticks _ _ S1 AX).
  destruct (Z.leb_spec (ticks_of c1 AX) t); [|lia].
  rewrite (step_move _ _ (lines_step _ _ _ _ _ Hc LD)).
  destruct (kept_clocked _ _ _ _ _ _ _ H) as [_ Cf]. unfold config in Cf. congruence.
Qed.

Theorem C75_speed_limit : 0 <= vmx -> 0 <= vmy -> forall m i t, 0 <= t <= ticks_of c' i ->
  Z.abs (s_v (machine_axis (play (events c') t (machine0 m)) i)) <= match i with AX => vmx | AY => vmy end.
Proof.
  intros Hx Hy.
  destruct image_drawn as (l & ts & c1 & IL & LD & G & Hc & Hc1 & Hc' & TL & GX & GY & Ht1 & M1 & (o1 & K1 & N1) & _).
  apply (C73_stream_speed_limit ax ay vmx vmy (ops ++ o1 ++ [GotoSpeed 0 0 0 0])); auto.
  - eapply kept_app; [exact H|]. eapply kept_app; [exact K1|].
    eapply kept_cons; [exact I|exact (conj GX GY)|exact G|apply kept_nil].
  - apply Forall_app. split; [exact NR|]. apply Forall_app. split; [exact N1|]. repeat constructor.
Qed.
End Image.

Definition small_scan : scan := mk_scan 2 5 2 100 254.
Definition small_image : list (list Z) := [[255; 0; 128; 255]; [255; 255; 255; 255]; [10; 255; 254; 255]].
Definition black_laser : ctx := set_weight (new_ctx 10 10 30 30) 254.

Example C43_example : exists c', raster_line small_scan [255; 0; 128; 255] 0 1 false 1 2 black_laser = Ok c' /\
  ticks c' = Ok 9 /\
  map (fun t => (s_pos (m_x (play (events c') t (machine0 0))), m_weight (play (events c') t (machine0 0))))
    [0; 4; 5; 6; 7; 8; 9] = [(0, 0); (61, 0); (61, 126); (51, 126); (41, 253); (31, 253); (21, 0)].
Proof. eexists. split; [vm_compute; reflexivity|]. split; vm_compute; reflexivity. Qed.

Example C75_example : exists c', kept within_speed (new_ctx 10 10 30 30) [SetWeight 254] black_laser /\
  fits black_laser small_scan 4 3 /\ ready black_laser /\
  raster small_scan small_image black_laser = Ok c'.
Proof.
  eexists. split; [eapply kept_cons; [exact I|exact I|reflexivity|apply kept_nil]|].
  split; [constructor; [intros []; cbn; lia|intros []; cbn; lia|cbn; lia..]|].
  split; [constructor; intros []; cbn; lia|]. vm_compute. reflexivity.
Qed.

(** C76.  The set-up.  The numbers of a scan that was computed at all. *)
Theorem C76_scan : forall cf xp yp wmm hmm v_draw spot b sc, 0 <= xp -> 0 <= yp ->
  scan_of cf xp yp wmm hmm v_draw spot b = Ok sc ->
  1 <= res_x sc /\ 0 <= res_y sc /\ 0 <= v_x sc /\ black sc = b /\
  xp * res_x sc < 2 ^ 31 /\ 2 * v_x sc * res_x sc * xp < 2 ^ 32 /\ res_y sc * yp < 2 ^ 32.
Proof.
  intros cf xp yp wmm hmm v_draw spot b sc Hx Hy H. unfold scan_of in H. cbv zeta in H.
  set (rx := Z.max 1 _) in H.
  apply bind_Ok in H. destruct H as (ivl & E & H). apply bind_Ok in H. destruct H as (two & E0 & H).
  set (v := f_as_i32 _) in H. set (ry := f_as_u32 _) in H.
  apply bind_Ok in H. destruct H as (ryp & E1 & H). set (sy := f_as_i64 _) in H.
  apply bind_Ok in H. destruct H as (w1 & E2 & H). apply bind_Ok in H. destruct H as (w2 & E3 & H).
  apply bind_Ok in H. destruct H as (h1 & _ & H). apply bind_Ok in H. destruct H as (h2 & _ & H).
  injection H as <-. cbn [res_x res_y v_x black]. apply chk_Ok in E, E0, E1, E2, E3.
  assert (R1 : 1 <= rx) by (subst rx; lia).
  assert (R2 : 0 <= ry <= u32_max) by (apply f_as_range; unfold u32_max; lia).
  assert (R3 : i32_min <= v <= i32_max) by (apply f_as_range; unfold i32_min, i32_max; lia).
  assert (V0 : 0 <= v).
  { destruct (Z.lt_ge_cases v 0) as [L|L]; [|lia]. exfalso. unfold as_u32, wrap_u in E2.
    assert (K : v mod 2 ^ 32 = v + 2 ^ 32).
    { symmetry. apply (Z.mod_unique _ _ (-1)); unfold i32_min in R3; lia. }
    rewrite K in E2. unfold u32_max, i32_min in *. lia. }
  assert (EV : as_u32 v = v) by (unfold as_u32; apply wrap_u_id; unfold i32_max in R3; lia).
  unfold u32_max in *. rewrite EV in *. repeat split; lia.
Qed.

(** An image is drawn only if the scan speed is within the limit. *)
Theorem C76_too_fast : forall ax ay vmx vmy ops c sc rows c' y row g,
  history code (new_ctx ax ay vmx vmy) ops c -> 1 <= res_x sc -> raster sc rows c = Ok c' ->
  nth_error rows y = Some row -> In g row -> g < 255 -> 1 <= res_y sc -> v_x sc <= vmx.
Proof.
  intros ax ay vmx vmy ops c sc rows c' y row g H Hr D Ey Hg Lg Hry.
  destruct (clocked_history _ _ _ _ _ _ H) as [Hc Cf]. unfold config in Cf. injection Cf as f1 f2 f3 f4 f5.
  destruct (raster_lines sc rows c c' Hc) as (l & ts & c1 & IL & LD & _); auto; [lia|].
  destruct (In_nth_error _ _ Hg) as (x & Ex).
  destruct (dark_pixel_line _ _ _ _ _ IL y row x g 0 Ey Ex Lg ltac:(lia)) as (d & st & len & Hin & _).
  destruct LD as [|c0 c2 c3 x0 r ts c4 LD _]; [destruct Hin|].
  assert (LT : l_ltr x0 = true) by (eapply image_first; exact IL).
  pose proof (ld_goto _ _ _ _ _ _ _ _ _ _ LD) as G. rewrite LT in G.
  destruct (step_goto_speed_spec code c0 _ _ _ _ c2 Hc planner_typed G) as (sx & sy & rest & _ & K & _).
  cbn [v_max] in K. lia.
Qed.

(** So the properties C75 of an image need only these conditions: accelerations and
    velocities of the configuration in the planner's range and a bounded height. *)
Theorem C76_main : forall cf v_opt a_opt v_draw intensity w h spot xp yp rows c' ax ay vx vy,
  0 <= xp -> 0 <= yp ->
  image_main cf v_opt a_opt v_draw intensity w h spot xp yp rows = Ok c' ->
  limits cf v_opt a_opt = Ok (ax, ay, vx, vy) ->
  let c := set_weight (new_ctx ax ay vx vy) (black_weight intensity) in
  exists sc, raster sc rows c = Ok c' /\ kept within_speed (new_ctx ax ay vx vy) [SetWeight (black_weight intensity)] c /\
    ticks_of c AX = ticks_of c AY /\ black sc = black_weight intensity /\
    (1 <= ax <= 32767 -> 1 <= ay <= 32767 -> 1 <= vx <= 2 ^ 20 -> 1 <= vy <= 2 ^ 20 ->
     (v_x sc <= vx \/ exists y row g, nth_error rows y = Some row /\ In g row /\ g < 255 /\ res_y sc <> 0) ->
     yp * res_y sc * Z.abs (step_y sc) <= 2 ^ 38 -> ready c /\ fits c sc xp yp).
Proof.
  intros cf v_opt a_opt v_draw intensity w h spot xp yp rows c' ax ay vx vy Hx Hy D L c.
  unfold image_main in D. rewrite L in D. cbn [bind] in D. cbv zeta in D.
  destruct (size_mm xp yp w h) as [wmm hmm]. fold c in D.
  apply bind_Ok in D. destruct D as (sc & E & D).
  destruct (C76_scan _ _ _ _ _ _ _ _ _ Hx Hy E) as (R1 & R2 & V0 & B & SH & W & RY).
  assert (K : kept within_speed (new_ctx ax ay vx vy) [SetWeight (black_weight intensity)] c)
    by (eapply kept_cons; [exact I|exact I|reflexivity|apply kept_nil]).
  exists sc. split; [exact D|]. split; [exact K|]. split; [reflexivity|]. split; [exact B|]. intros A1 A2 V1 V2 HV HH.
  split; [constructor; intros []; cbn; lia|].
  assert (HV' : v_x sc <= vx).
  { destruct HV as [HV|(y & row & g & Ey & Hg & Lg & Hr)]; [exact HV|].
    apply (C76_too_fast ax ay vx vy [SetWeight (black_weight intensity)] c sc rows c' y row g); auto; try lia.
    eapply kept_history, K. }
  constructor; [intros []; cbn; lia|intros []; cbn; lia|lia|lia|cbn; lia|lia|lia].
Qed.

(** A scan to the left of the axis, that is a negative number of steps per
    millimetre, always panics (overflow of the size in steps, computed for printing). *)
Theorem C76_negative_axis : forall cf xp yp wmm hmm v_draw spot b two,
  chk_u32 (xp * Z.max 1 (f_as_u32 (fround (fdiv (fmul (fmul wmm (steps_per_mm (stepper_x cf))) (f_of_Z (tps cf)))
     (fmul (f_of_Z xp) (fmul v_draw (steps_per_mm (stepper_x cf)))))))) = Ok two ->
  f_as_i32 (fround (fdiv (fmul wmm (steps_per_mm (stepper_x cf))) (f_of_Z (2 * two)))) < 0 ->
  forall sc, scan_of cf xp yp wmm hmm v_draw spot b <> Ok sc.
Proof.
  intros cf xp yp wmm hmm v_draw spot b two E0 V sc H. unfold scan_of in H. cbv zeta in H. rewrite E0 in H.
  cbn [bind] in H. apply bind_Ok in H. destruct H as (t2 & E & H). apply chk_Ok in E. destruct E as [<- _].
  set (v := f_as_i32 _) in *.
  apply bind_Ok in H. destruct H as (r & _ & H). apply bind_Ok in H. destruct H as (w & E2 & _).
  apply chk_Ok in E2. assert (R : i32_min <= v <= i32_max) by (apply f_as_range; unfold i32_min, i32_max; lia).
  unfold as_u32, wrap_u in E2. assert (K : v mod 2 ^ 32 = v + 2 ^ 32).
  { symmetry. apply (Z.mod_unique _ _ (-1)); unfold i32_min in R; lia. }
  rewrite K in E2. unfold u32_max, i32_min in *. lia.
Qed.

(** With no line per row nothing is drawn, whatever the image. *)
Theorem C76_no_lines : forall sc rows c, res_y sc = 0 -> raster sc rows c = step_goto c 0 0.
Proof.
  intros sc rows c H. unfold raster.
  assert (E : forall rs yn, rows_loop sc rs yn true c = Ok c).
  { induction rs as [|row rs IH]; intros yn; [reflexivity|]. cbn [rows_loop].
    destruct (find_row_interval_spec Z row (fun p => p <? 255)) as (st & len & -> & _). cbn [bind].
    rewrite H. destruct (0 <? len)%nat; cbn [Z.to_nat repeat_loop bind]; apply IH. }
  rewrite E. reflexivity.
Qed.

(** That happens: the configuration in the repository, an image of 300 by 300
    pixels and no options.  The image is 20 mm wide and a pixel less than half a
    spot, and whatever is in it nothing is burnt. *)
Definition sample_axis : stepper := mk_stepper (f_of_Z 1966080) (f_of_Z 50) (f_of_Z 500).
Definition sample_config : config_ := mk_config 128 sample_axis sample_axis.
Definition default_spot : f64 := fdiv (f_of_Z 2) (f_of_Z 10).

Lemma sample_limits : limits sample_config None None = Ok (30000, 30000, 384000, 384000).
Proof. vm_compute. reflexivity. Qed.

Lemma sample_scan_300 : let '(wmm, hmm) := size_mm 300 300 None None in
  scan_of sample_config 300 300 wmm hmm (f_of_Z 20) default_spot 12 = Ok (mk_scan 1 65536 0 9223372036854775807 12).
Proof. vm_compute. reflexivity. Qed.

Theorem C76_blank : forall rows, exists c',
  image_main sample_config None None (f_of_Z 20) 5 None None default_spot 300 300 rows = Ok c' /\
  forall t, 0 <= t -> m_weight (play (events c') t (machine0 0)) = 0.
Proof.
  intros rows. pose proof sample_scan_300 as S. unfold image_main. rewrite sample_limits. cbn [bind].
  change (black_weight 5) with 12. destruct (size_mm 300 300 None None) as [wmm hmm]. rewrite S. cbn [bind].
  rewrite C76_no_lines by reflexivity. unfold step_goto, step_goto_speed.
  set (c := set_weight _ _). assert (G : exists c', step_goto_speed_with code c 0 0 0 0 = Ok c') by (eexists; vm_compute; reflexivity).
  destruct G as (c' & G). exists c'. split; [exact G|]. intros t Ht. rewrite play_weight_ok.
  assert (Hh : history code (new_ctx 30000 30000 384000 384000) [SetWeight 12] c)
    by (eapply hist_cons; [exact I|reflexivity|apply hist_nil]).
  destruct (step_goto_speed_spec code c 0 0 0 0 c' (proj1 (clocked_history _ _ _ _ _ _ Hh)) planner_typed G)
    as (_ & _ & _ & _ & _ & _ & _ & _ & _ & _ & _ & _ & Q).
  rewrite Q. change (ticks_of c AX) with 0. destruct (Z.leb_spec 0 t); [reflexivity|lia].
Qed.

(** A machine with fewer steps than the image has ticks draws on one spot: all
    that is burnt is burnt within one step of the origin in x. *)
Theorem C76_collapsed : forall ax ay vmx vmy ops c sc w h rows c',
  kept within_speed (new_ctx ax ay vmx vmy) ops c -> Forall not_reset ops ->
  ticks_of c AX = ticks_of c AY -> fits c sc w h -> ready c ->
  (forall row, In row rows -> Z.of_nat (length row) <= w) -> Z.of_nat (length rows) <= h ->
  raster sc rows c = Ok c' -> (forall i, ticks_of c' i < u64_max) ->
  v_x sc = 0 -> forall t m, ticks_of c AX <= t -> m_weight (play (events c') t (machine0 m)) <> 0 ->
  -1 <= s_pos (m_x (play (events c') t (machine0 m))) <= 1.
Proof.
  intros ax ay vmx vmy ops c sc w h rows c' H NR Sy Fi Re HW HH D Ht V t m Htt Hw.
  destruct (C75_marks ax ay vmx vmy ops c sc w h rows c' H Sy Fi Re HW HH D Ht t m Htt Hw)
    as (y & x & row & g & r & _ & _ & _ & _ & B & _). rewrite V in B. lia.
Qed.

Definition coarse_axis : stepper := mk_stepper (f_of_Z 10) (f_of_Z 50) (f_of_Z 500).
Example C76_collapsed_example : let '(wmm, hmm) := size_mm 100 100 None None in
  scan_of (mk_config 1000 coarse_axis coarse_axis) 100 100 wmm hmm (f_of_Z 20) default_spot 12 = Ok (mk_scan 10 0 1 2 12).
Proof. vm_compute. reflexivity. Qed.

(** The acceleration limit of the y axis is computed with the steps per millimetre of
    the x axis: those of the y axis have no effect on it. *)
Theorem C76_y_acceleration : forall cf s v_opt a_opt ax ay vx vy,
  limits cf v_opt a_opt = Ok (ax, ay, vx, vy) ->
  exists vy', limits (mk_config (tps cf) (stepper_x cf)
    (mk_stepper s (max_velocity (stepper_y cf)) (max_acc (stepper_y cf)))) v_opt a_opt = Ok (ax, ay, vx, vy').
Proof.
  intros cf s v_opt a_opt ax ay vx vy H. unfold limits in *. cbn [tps stepper_x stepper_y steps_per_mm max_velocity max_acc].
  apply bind_Ok in H. destruct H as (two & -> & H). cbn [bind].
  destruct v_opt as [v|], a_opt as [a|]; injection H as <- <- <- <-; eexists; reflexivity.
Qed.

(** Half as many steps per millimetre on the y axis: the limit stays 30000 where
    500 mm/s^2 are 15000. *)
Example C76_y_acceleration_example :
  limits (mk_config 128 sample_axis (mk_stepper (f_of_Z 983040) (f_of_Z 50) (f_of_Z 500))) None None =
    Ok (30000, 30000, 384000, 192000) /\
  limits (mk_config 128 (mk_stepper (f_of_Z 983040) (f_of_Z 50) (f_of_Z 500)) sample_axis) None None =
    Ok (15000, 15000, 192000, 384000).
Proof. split; vm_compute; reflexivity. Qed.

(** Weights: from 0 for white to at most 253, and darker is never weaker. *)
Theorem C76_weight : forall i p q, 0 <= i <= 100 -> 0 <= p -> p <= q -> q <= 255 ->
  exists wp wq, pixel_weight p (black_weight i) = Ok wp /\ pixel_weight q (black_weight i) = Ok wq /\
    0 <= wq <= wp /\ wp <= 253 /\ (q = 255 -> wq = 0).
Proof.
  intros i p q Hi Hp Hpq Hq. assert (B : 0 <= black_weight i <= 254).
  { unfold black_weight. rewrite Z.quot_div_nonneg by lia. split; [apply Z.div_pos; lia|].
    apply Z.div_le_upper_bound; lia. }
  set (b := black_weight i) in *.
  assert (K : forall x, 0 <= x <= 255 -> pixel_weight x b = Ok (((255 - x) * b) / 256)).
  { intros x Hx. unfold pixel_weight. rewrite chk_in by lia. cbn [bind]. unfold chk_i32.
    rewrite chk_in by (unfold i32_min, i32_max; nia). cbn [bind]. rewrite Z.quot_div_nonneg by nia. reflexivity. }
  eexists. eexists. split; [apply K; lia|]. split; [apply K; lia|].
  split; [split; [apply Z.div_pos; nia|apply Z.div_le_mono; nia]|]. split.
  - enough (((255 - p) * b) / 256 < 254) by lia. apply Z.div_lt_upper_bound; nia.
  - intros ->. rewrite Z.sub_diag, Z.mul_0_l. reflexivity.
Qed.

Example C76_weight_example : pixel_weight 0 (black_weight 100) = Ok 253 /\ pixel_weight 0 (black_weight 5) = Ok 11 /\
  pixel_weight 234 (black_weight 5) = Ok 0.
Proof. repeat split. Qed.

Print Assumptions C42_dark_span.
Print Assumptions C43_exposure.
Print Assumptions C43_place.
Print Assumptions C75_laser.
Print Assumptions C75_marks.
Print Assumptions C75_complete.
Print Assumptions C75_home.
Print Assumptions C75_speed_limit.
Print Assumptions C76_scan.
Print Assumptions C76_main.
Print Assumptions C76_negative_axis.
Print Assumptions C76_too_fast.
Print Assumptions C76_no_lines.
Print Assumptions C76_blank.
Print Assumptions C76_collapsed.
Print Assumptions C76_y_acceleration.
Print Assumptions C76_weight.
