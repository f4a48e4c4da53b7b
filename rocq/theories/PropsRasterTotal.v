(** Property C133: images are rastered to the end.

    [drawable] and [able] (RasterTotal.v, DrawTotal.v) collect the conditions; the theorems
    write them out.  [storable] (PropsDuration.v) is the distance that a planned move can
    cover in 65535 ticks. *)
From Coq Require Import ZArith List Bool Lia.
From Coq Require Import ZifyBool ZifyNat.
From Verif Require Import Base Floats AccVector MotionSpec AccVectorProofs IntegerCurve StepperContext
  MachineSpec MachineProofs ContextProofs ContextOps ContextHist ContextClock ContextGoto MachinePath ApproxCurve
  ApproxProofs PropsIntegerCurve PropsDuration PropsContext PropsPath PropsApprox DrawCurves PropsDraw
  DrawProofs DrawPlan DrawTotal ImageRaster RasterProofs RasterTotal PropsRaster PropsProgramTotal.
Import ListNotations.
Open Scope Z_scope.

(** The time of a line at most. *)
Definition line_time (sc : scan) (w : Z) : Z := 65535 + w * res_x sc.

Lemma lines_able : forall a v sc w h row yn s len, drawable a v sc w h ->
  Forall (fun p => 0 <= p <= 255) row -> Z.of_nat (length row) <= w -> 0 <= s -> 1 <= len -> s + len <= Z.of_nat (length row) ->
  0 <= yn < h -> forall n r (ltr : bool) T c, 0 <= r -> r + Z.of_nat n <= res_y sc ->
  able a v (fun i => size sc w h i + 1) T c -> inside sc w h c -> T + Z.of_nat n * line_time sc w < u64_max ->
  exists b c', repeat_loop sc row yn s len n r ltr c = Ok (b, c') /\
    able a v (fun i => size sc w h i + 1) (T + Z.of_nat n * line_time sc w) c' /\ inside sc w h c'.
Proof.
  intros a v sc w h row yn s len D Hpix Hw Hs Hl Hsl Hy. induction n as [|n IH]; intros r ltr T c Hr Hn HA HI HT.
  - cbn [repeat_loop]. exists ltr, c. split; [reflexivity|]. split; [|exact HI]. eapply able_more; [| |exact HA]; [intros; apply Z.le_refl|cbn; lia].
  - cbn [repeat_loop].
    assert (L0 : 0 <= line_time sc w).
    { unfold line_time. pose proof (dr_res _ _ _ _ _ D) as [R1 _]. assert (0 <= w * res_x sc) by (apply Z.mul_nonneg_nonneg; lia). lia. }
    assert (N0 : 0 <= Z.of_nat n * line_time sc w) by (apply Z.mul_nonneg_nonneg; lia).
    rewrite Nat2Z.inj_succ, Z.mul_succ_l in *. unfold line_time at 2 in HT.
    destruct (line_able a v sc w h T c row yn r ltr s len D HA HI) as (c1 & -> & A1 & I1); auto; try lia. cbn [bind].
    change (65535 + w * res_x sc) with (line_time sc w) in A1, HT.
    destruct (IH (r + 1) (negb ltr) _ c1 ltac:(lia) ltac:(lia) A1 I1 ltac:(lia)) as (b & c2 & E & A2 & I2).
    exists b, c2. split; [exact E|]. split; [|exact I2]. eapply able_more; [| |exact A2]; [intros; apply Z.le_refl|lia].
Qed.

Lemma rows_able : forall a v sc w h, drawable a v sc w h -> forall rows yn (ltr : bool) T c, 0 <= yn -> yn + Z.of_nat (length rows) <= h ->
  Forall (fun row => Z.of_nat (length row) <= w /\ Forall (fun p => 0 <= p <= 255) row) rows ->
  able a v (fun i => size sc w h i + 1) T c -> inside sc w h c -> T + Z.of_nat (length rows) * (res_y sc * line_time sc w) < u64_max ->
  0 <= line_time sc w ->
  exists c', rows_loop sc rows yn ltr c = Ok c' /\
    able a v (fun i => size sc w h i + 1) (T + Z.of_nat (length rows) * (res_y sc * line_time sc w)) c' /\ inside sc w h c'.
Proof.
  intros a v sc w h D. pose proof (dr_res _ _ _ _ _ D) as [R1 R2].
  induction rows as [|row rows IH]; intros yn ltr T c Hy Hh HF HA HI HT L0.
  - cbn [rows_loop]. exists c. split; [reflexivity|]. split; [|exact HI]. eapply able_more; [| |exact HA]; [intros; apply Z.le_refl|cbn; lia].
  - cbn [rows_loop length] in *. inversion HF as [|? ? [W1 P1] HF']; subst. rewrite Nat2Z.inj_succ, Z.mul_succ_l in *.
    assert (M0 : 0 <= res_y sc * line_time sc w) by (apply Z.mul_nonneg_nonneg; lia).
    assert (N0 : 0 <= Z.of_nat (length rows) * (res_y sc * line_time sc w)) by (apply Z.mul_nonneg_nonneg; lia).
    destruct (find_row_interval_spec Z row (fun p => p <? 255)) as (st & len & -> & B & _). cbn [bind].
    assert (K : exists b c1, (if (0 <? len)%nat
         then repeat_loop sc row yn (Z.of_nat st) (Z.of_nat len) (Z.to_nat (res_y sc)) 0 ltr c
         else Ok (ltr, c)) = Ok (b, c1) /\ able a v (fun i => size sc w h i + 1) (T + res_y sc * line_time sc w) c1 /\ inside sc w h c1).
    { destruct (Nat.ltb_spec 0 len) as [L|L].
      - destruct (lines_able a v sc w h row yn (Z.of_nat st) (Z.of_nat len) D P1 W1 ltac:(lia) ltac:(lia) ltac:(lia) ltac:(lia)
          (Z.to_nat (res_y sc)) 0 ltr T c ltac:(lia) ltac:(lia) HA HI) as (b & c1 & E & A1 & I1); [rewrite Z2Nat.id by lia; lia|].
        rewrite Z2Nat.id in A1 by lia. eauto.
      - exists ltr, c. split; [reflexivity|]. split; [|exact HI]. eapply able_more; [| |exact HA]; [intros; apply Z.le_refl|lia]. }
    destruct K as (b & c1 & -> & A1 & I1). cbn [bind].
    destruct (IH (yn + 1) b _ c1 ltac:(lia) ltac:(lia) HF' A1 I1 ltac:(lia) L0) as (c2 & E & A2 & I2).
    exists c2. split; [exact E|]. split; [|exact I2]. eapply able_more; [| |exact A2]; [intros; apply Z.le_refl|lia].
Qed.

Lemma raster_able : forall a v sc w h T c rows, drawable a v sc w h -> 0 <= w -> Z.of_nat (length rows) <= h ->
  Forall (fun row => Z.of_nat (length row) <= w /\ Forall (fun p => 0 <= p <= 255) row) rows ->
  able a v (fun i => size sc w h i + 1) T c -> inside sc w h c -> T + h * res_y sc * line_time sc w + 65535 < u64_max ->
  exists c', raster sc rows c = Ok c' /\ able a v (fun _ => 1) (T + h * res_y sc * line_time sc w + 65535) c'.
Proof.
  intros a v sc w h T c rows D Hw Hh HF HA HI HT. pose proof D as [HL [R1 R2] SH [V0 V1] HB HW HH SX SY].
  assert (L0 : 0 <= line_time sc w) by (unfold line_time; nia).
  assert (Q : Z.of_nat (length rows) * (res_y sc * line_time sc w) <= h * res_y sc * line_time sc w).
  { rewrite <- Z.mul_assoc. apply Z.mul_le_mono_nonneg_r; [apply Z.mul_nonneg_nonneg; lia|exact Hh]. }
  destruct (rows_able a v sc w h D rows 0 true T c ltac:(lia) ltac:(lia) HF HA HI ltac:(lia) L0) as (c1 & E & A1 & I1).
  unfold raster. rewrite E. cbn [bind]. unfold step_goto.
  assert (S0 : forall i, 0 <= size sc w h i).
  { intros []; cbn [size]; repeat (apply Z.mul_nonneg_nonneg; try lia). }
  assert (H0 : 0 <= h * res_y sc) by (apply Z.mul_nonneg_nonneg; lia).
  pose proof (S0 AX) as SX0. pose proof (S0 AY) as SY0. cbn [size] in SX0, SY0. destruct (HL AX) as [LA1 LV1]. destruct (HL AY) as [LA2 LV2].
  destruct (low_high sc w h AY H0 SX0) as [LH1 LH2]. cbn [size] in LH2.
  destruct (goto_able_at a v _ (fun _ => 0) _ c1 0 0 0 0 HL A1) as (c2 & E2 & A2 & _ & _).
  - pose proof (storable_bound (2 * v_x sc * res_x sc * w + 1) _ _ LA1 LV1 ltac:(lia) SX).
    pose proof (storable_bound (h * res_y sc * Z.abs (step_y sc) + 1) _ _ LA2 LV2 ltac:(lia) SY).
    change (2 ^ 38) with 274877906944 in *. change (2 ^ 40) with 1099511627776. intros []; cbn [size]; lia.
  - eapply storable_less; [lia| |exact SX]. pose proof (I1 AX) as B. cbn [low high] in B. lia.
  - eapply storable_less; [lia| |exact SY]. pose proof (I1 AY) as B. lia.
  - lia.
  - intros; lia.
  - cbn; lia.
  - cbn; lia.
  - destruct (HL AX); cbn; lia.
  - destruct (HL AY); cbn; lia.
  - exists c2. split; [exact E2|]. eapply able_more; [| |exact A2]; [intros; apply Z.le_refl|lia].
Qed.

(** C133.  With limits in the planner's range, a scan speed within the limit, and an image
    whose width and height can be crossed in 65535 ticks, the whole image is rastered, and the
    head is home within a bounded time. *)
Theorem C133_raster : forall ax ay vx vy k sc w h rows,
  (* the machine *)
  1 <= ax <= 32767 -> 1 <= ay <= 32767 -> 1 <= vx <= 2 ^ 20 -> 1 <= vy <= 2 ^ 20 ->
  (* the scan *)
  1 <= res_x sc -> 0 <= res_y sc -> 0 <= v_x sc <= vx -> 0 <= black sc <= 2 ^ 23 ->
  w * res_x sc < 2 ^ 31 -> 2 * v_x sc * res_x sc * w < 2 ^ 32 -> h * res_y sc < 2 ^ 32 ->
  ax * (2 * v_x sc * res_x sc * w + 1) + 8 * (vx * vx) < 2 * ax * vx * 65533 ->
  ay * (h * res_y sc * Z.abs (step_y sc) + 1) + 8 * (vy * vy) < 2 * ay * vy * 65533 ->
  (* the image *)
  0 <= w -> Z.of_nat (length rows) <= h ->
  (forall row, In row rows -> Z.of_nat (length row) <= w /\ forall p, In p row -> 0 <= p <= 255) ->
  exists c, raster sc rows (set_weight (new_ctx ax ay vx vy) k) = Ok c /\
    (forall i, ticks_of c i <= h * res_y sc * (65535 + w * res_x sc) + 65535) /\ h * res_y sc * (65535 + w * res_x sc) + 65535 < u64_max /\
    (forall i, Z.abs (c_pos (channel c i)) <= 1) /\
    exists c', flush c = Ok c' /\ nonneg (events c') /\ total (events c') = ticks_of c AX /\
      forall t m, 0 <= t < ticks_of c AX -> play (events c') t m = play (events c) t m.
Proof.
  intros ax ay vx vy k sc w h rows A1 A2 V1 V2 R1 R2 VX B SH W H SX SY Hw Hh HF.
  set (a := fun i => match i with AX => ax | AY => ay end). set (v := fun i => match i with AX => vx | AY => vy end).
  assert (H0 : 0 <= h * res_y sc) by (apply Z.mul_nonneg_nonneg; lia).
  assert (W0 : 0 <= 2 * v_x sc * res_x sc * w) by (repeat (apply Z.mul_nonneg_nonneg; try lia)).
  assert (Y0 : 0 <= h * res_y sc * Z.abs (step_y sc)) by (apply Z.mul_nonneg_nonneg; lia).
  assert (D : drawable a v sc w h).
  { constructor; auto.
    - intros []; cbn; lia.
    - unfold storable. rewrite Z.abs_eq by lia. exact SX.
    - unfold storable. rewrite Z.abs_eq by lia. exact SY. }
  assert (HT : h * res_y sc * line_time sc w + 65535 < u64_max).
  { assert (L : 0 <= line_time sc w < 2147549183) by (unfold line_time; change (2 ^ 31) with 2147483648 in SH; assert (0 <= w * res_x sc) by (apply Z.mul_nonneg_nonneg; lia); lia).
    change (2 ^ 32) with 4294967296 in H.
    assert (h * res_y sc * line_time sc w <= 4294967296 * 2147549183) by (apply Z.mul_le_mono_nonneg; lia). unfold u64_max. lia. }
  set (c0 := set_weight (new_ctx ax ay vx vy) k).
  assert (HA : able a v (fun i => size sc w h i + 1) 0 c0).
  { constructor.
    - apply (now_op_timely shortest_curve_sequences (new_ctx ax ay vx vy) (SetWeight k) c0 planner_typed (timely_new _ _ _ _) I eq_refl).
    - reflexivity.
    - intros []; reflexivity.
    - intros []; reflexivity.
    - intros []; cbn; lia.
    - intros i. replace (c_pos (channel c0 i)) with 0 by (destruct i; reflexivity). destruct i; cbn [size Z.abs]; lia.
    - apply Z.le_refl. }
  assert (HI : inside sc w h c0).
  { intros i. replace (c_pos (channel c0 i)) with 0 by (destruct i; reflexivity). destruct (low_high sc w h i H0 W0). lia. }
  destruct (raster_able a v sc w h 0 c0 rows D Hw Hh) as (c & E & A); auto.
  { rewrite Forall_forall. intros row I. destruct (HF row I) as [L P]. split; [exact L|]. rewrite Forall_forall. exact P. }
  rewrite Z.add_0_l in A. exists c. split; [exact E|].
  fold (line_time sc w). split.
  { intros i. pose proof (ab_ticks _ _ _ _ _ A). pose proof (ab_sync _ _ _ _ _ A). destruct i; lia. }
  split; [exact HT|]. split; [exact (ab_place _ _ _ _ _ A)|].
  destruct (flush_able _ _ _ _ _ A HT) as (c2 & F & T2). exists c2. split; [exact F|].
  destruct (now_op_timely shortest_curve_sequences c Flush c2 planner_typed (ab_timely _ _ _ _ _ A) I F) as [K _].
  split; [apply clocked_nonneg, K|]. split.
  2: { pose proof (proj1 (ab_timely _ _ _ _ _ A)) as Hc. destruct (flush_spec c c2 Hc F) as (_ & _ & _ & _ & _ & _ & Q). intros t m Ht. apply machine_eq.
    - intros i. rewrite !play_axis_ok, (flush_play_axis c c2 Hc F) by (try apply clocked_nonneg; auto; lia). cbv zeta.
      destruct (Z.leb_spec (ticks_of c AX) t); [lia|reflexivity].
    - rewrite !play_weight_ok, Q. destruct (Z.leb_spec (ticks_of c AX) t); [lia|reflexivity]. }
  rewrite (ck_total c2 K).
  unfold flush in F. apply bind_Ok in F. destruct F as (u & _ & F). apply bind_Ok in F. destruct F as (d1 & _ & F).
  apply bind_Ok in F. destruct F as (d2 & P2 & F). rewrite <- (T2 AY).
  unfold push_event in F. apply bind_Ok in F. destruct F as (d3 & _ & F). injection F as <-. reflexivity.
Qed.

(** The program: the limits [limits] and the numbers [scan_of] of a configuration, options and a size.
    The image is drawn to the end, every pixel that is not white is exposed in each of its lines,
    over its place and with its weight, and the head goes home with the laser off. *)
Theorem C133_image : forall cf v_opt a_opt v_draw intensity w h spot xp yp rows ax ay vx vy sc,
  0 <= xp -> 0 <= yp -> 0 <= intensity <= 100 ->
  limits cf v_opt a_opt = Ok (ax, ay, vx, vy) ->
  scan_of cf xp yp (fst (size_mm xp yp w h)) (snd (size_mm xp yp w h)) v_draw spot (black_weight intensity) = Ok sc ->
  1 <= ax <= 32767 -> 1 <= ay <= 32767 -> 1 <= vx <= 2 ^ 20 -> 1 <= vy <= 2 ^ 20 -> v_x sc <= vx ->
  ax * (2 * v_x sc * res_x sc * xp + 1) + 8 * (vx * vx) < 2 * ax * vx * 65533 ->
  ay * (yp * res_y sc * Z.abs (step_y sc) + 1) + 8 * (vy * vy) < 2 * ay * vy * 65533 ->
  Z.of_nat (length rows) <= yp ->
  (forall row, In row rows -> Z.of_nat (length row) <= xp /\ forall p, In p row -> 0 <= p <= 255) ->
  exists c, image_main cf v_opt a_opt v_draw intensity w h spot xp yp rows = Ok c /\
    (exists c', flush c = Ok c' /\ nonneg (events c') /\ total (events c') = ticks_of c AX /\
      forall t m, 0 <= t < ticks_of c AX -> play (events c') t m = play (events c) t m) /\
    (forall i, ticks_of c i <= yp * res_y sc * (65535 + xp * res_x sc) + 65535) /\
    (forall y x row g r, nth_error rows y = Some row -> nth_error row x = Some g -> g < 255 -> 0 <= r < res_y sc ->
      exists t0, 0 <= t0 /\ t0 + res_x sc <= ticks_of c AX /\
        forall t m, t0 <= t < t0 + res_x sc ->
          let p := play (events c) t (machine0 m) in
          m_weight p = Z.quot ((255 - g) * black_weight intensity) 256 /\
          2 * v_x sc * res_x sc * Z.of_nat x - 1 <= s_pos (m_x p) <= 2 * v_x sc * res_x sc * (Z.of_nat x + 1) + 1 /\
          Z.abs (s_pos (m_y p) - (Z.of_nat y * res_y sc + r) * step_y sc) <= 1) /\
    (forall m, let p := play (events c) (ticks_of c AX) (machine0 m) in
       Z.abs (s_pos (m_x p)) <= 1 /\ Z.abs (s_pos (m_y p)) <= 1 /\ s_v (m_x p) = 0 /\ s_v (m_y p) = 0 /\
       forall t, ticks_of c AX <= t -> m_weight (play (events c) t (machine0 m)) = 0).
Proof.
  intros cf v_opt a_opt v_draw intensity w h spot xp yp rows ax ay vx vy sc Hx Hy Hi EL ES A1 A2 V1 V2 VX SX SY Hh HF.
  destruct (C76_scan _ _ _ _ _ _ _ _ _ Hx Hy ES) as (R1 & R2 & V0 & EB & SH & W & RY).
  assert (B : 0 <= black_weight intensity <= 254).
  { unfold black_weight. rewrite Z.quot_div_nonneg by lia. split; [apply Z.div_pos; lia|]. apply Z.div_le_upper_bound; lia. }
  set (c0 := set_weight (new_ctx ax ay vx vy) (black_weight intensity)).
  assert (RY' : yp * res_y sc < 2 ^ 32) by (rewrite Z.mul_comm; exact RY).
  destruct (C133_raster ax ay vx vy (black_weight intensity) sc xp yp rows) as (c & E & T & TB & _ & F); auto; try lia.
  fold c0 in E. exists c. split.
  { unfold image_main. rewrite EL. cbn [bind]. cbv zeta. destruct (size_mm xp yp w h) as [wmm hmm]. cbn [fst snd] in ES.
    rewrite ES. cbn [bind]. exact E. }
  split; [exact F|]. split; [exact T|].
  assert (K : kept within_speed (new_ctx ax ay vx vy) [SetWeight (black_weight intensity)] c0)
    by (eapply kept_cons; [exact I|exact I|reflexivity|apply kept_nil]).
  assert (Y38 : yp * res_y sc * Z.abs (step_y sc) <= 2 ^ 38).
  { assert (0 <= yp * res_y sc * Z.abs (step_y sc)) by (repeat (apply Z.mul_nonneg_nonneg; try lia)).
    generalize dependent (yp * res_y sc * Z.abs (step_y sc)). intros Y SY Y0. clear - SY Y0 A2 V2.
    change (2 ^ 20) with 1048576 in V2. change (2 ^ 38) with 274877906944.
    assert (ay * (Y + 1) < ay * (2 * vy * 65533)) by nia. nia. }
  assert (Fi : fits c0 sc xp yp).
  { constructor; [intros []; cbn; lia|intros []; cbn; lia|lia|exact SH|cbn; lia|lia|exact Y38]. }
  assert (Re : ready c0) by (constructor; intros []; cbn; lia).
  assert (Ht : forall i, ticks_of c i < u64_max) by (intros i; specialize (T i); lia).
  assert (HW : forall row, In row rows -> Z.of_nat (length row) <= xp) by (intros row I; apply (HF row I)).
  split.
  - intros y x row g r Ey Ex Hg Hr.
    destruct (C75_complete ax ay vx vy _ c0 sc xp yp rows c K eq_refl Fi Re HW Hh E Ht y x row g r Ey Ex Hg Hr) as (t0 & L0 & L1 & P).
    exists t0. split; [exact L0|]. split; [exact L1|]. rewrite EB in P. exact P.
  - intros m. exact (C75_home ax ay vx vy _ c0 sc xp yp rows c K eq_refl Fi Re HW Hh E Ht m).
Qed.

(** The configuration in the repository and no options: every image of 100 by 100 pixels is
    rastered to the end. *)
Lemma sample_scan_100 : scan_of sample_config 100 100 (fst (size_mm 100 100 None None)) (snd (size_mm 100 100 None None)) (f_of_Z 20) default_spot 12 =
  Ok (mk_scan 1 196608 1 393216 12).
Proof. vm_compute. reflexivity. Qed.

Example C133_example : forall rows, Z.of_nat (length rows) <= 100 ->
  (forall row, In row rows -> Z.of_nat (length row) <= 100 /\ forall p, In p row -> 0 <= p <= 255) ->
  exists c, image_main sample_config None None (f_of_Z 20) 5 None None default_spot 100 100 rows = Ok c /\
    (exists c', flush c = Ok c' /\ nonneg (events c') /\ total (events c') = ticks_of c AX /\
      forall t m, 0 <= t < ticks_of c AX -> play (events c') t m = play (events c) t m) /\ ticks_of c AX <= 100 * 65635 + 65535.
Proof.
  intros rows Hh HF.
  destruct (C133_image sample_config None None (f_of_Z 20) 5 None None default_spot 100 100 rows _ _ _ _ _
    ltac:(lia) ltac:(lia) ltac:(lia) sample_limits sample_scan_100) as (c & E & F & T & _); auto; cbn [v_x res_x res_y step_y]; try lia.
  exists c. split; [exact E|]. split; [exact F|]. exact (T AX).
Qed.

(** Where the conditions end: a scan faster than the limit, and rows further apart than a move can
    lead, end the program; without a dark pixel neither matters. *)
Example C133_limits :
  raster (mk_scan 2 31 1 100 254) [[0]] (set_weight (new_ctx 10 10 30 30) 254) = Panic /\
  raster (mk_scan 2 5 1 4000000 254) [[255]; [0]] (set_weight (new_ctx 10 10 30 30) 254) = Panic /\
  (exists c, raster (mk_scan 2 5 1 3900000 254) [[255]; [0]] (set_weight (new_ctx 10 10 30 30) 254) = Ok c) /\
  (exists c, raster (mk_scan 2 31 1 4000000 254) [[255]; [255]] (set_weight (new_ctx 10 10 30 30) 254) = Ok c).
Proof.
  split; [vm_compute; reflexivity|]. split; [vm_compute; reflexivity|].
  split; eexists; vm_compute; reflexivity.
Qed.

Print Assumptions C133_raster.
Print Assumptions C133_image.
Print Assumptions C133_example.
Print Assumptions C133_limits.
