(** When the rastering of an image succeeds. *)
From Coq Require Import ZArith List Bool Lia.
From Coq Require Import ZifyBool ZifyNat.
From Verif Require Import Base Floats AccVector MotionSpec AccVectorProofs IntegerCurve StepperContext
  MachineSpec MachineProofs ContextProofs ContextOps ContextHist ContextClock ContextGoto MachinePath ApproxCurve
  ApproxProofs PropsIntegerCurve PropsDuration PropsContext PropsApprox DrawCurves
  DrawProofs DrawPlan DrawTotal ImageRaster RasterProofs.
Import ListNotations.
Open Scope Z_scope.

(** ** Coasting *)

Lemma zero_one_ok : forall c i n, clocked c -> event_ticks c <= ticks_of c i -> ticks_of c i + n <= u64_max ->
  1 <= n < 2 ^ 31 -> Z.abs (c_v (channel c i)) <= 2 ^ 20 -> Z.abs (c_pos (channel c i)) <= 2 ^ 41 ->
  exists c', add_acc_one c i 0 n = Ok c'.
Proof.
  intros c i n Hc He Ht Hn Hv Hp. unfold add_acc_one. cbv zeta.
  change (c_ticks (channel c i)) with (ticks_of c i) in *.
  destruct (push_event_ok c (ticks_of c i) (Acc (axis_index i) 0) Hc ltac:(lia)) as [c1 E]. rewrite E. cbn [bind].
  pose proof (ck_ticks c Hc i) as T0.
  unfold chk_i64, chk_i32, chk_u64, i64_min, i64_max, i32_min, i32_max, u64_max in *.
  change (2 ^ 31) with 2147483648 in *. change (2 ^ 20) with 1048576 in *. change (2 ^ 41) with 2199023255552 in *.
  rewrite (chk_in _ _ (2 * n)) by lia. cbn [bind].
  assert (B : Z.abs (2 * n * c_v (channel c i)) <= 2 * 2147483648 * 1048576).
  { rewrite Z.abs_mul. apply Z.mul_le_mono_nonneg; lia. }
  rewrite chk_in by lia. cbn [bind].
  assert (B2 : 0 <= n * n <= 2147483648 * 2147483648) by nia.
  rewrite (chk_in _ _ (n * n)) by lia. cbn [bind]. rewrite !Z.mul_0_r. rewrite (chk_in _ _ 0) by lia. cbn [bind].
  rewrite Z.add_0_r. rewrite chk_in by lia. cbn [bind]. rewrite chk_in by lia. cbn [bind].
  rewrite (chk_in _ _ 0) by lia. cbn [bind]. rewrite Z.add_0_r. rewrite chk_in by lia. cbn [bind].
  rewrite chk_in by lia. cbn [bind]. eauto.
Qed.

(** Letting the machine coast for [n] ticks. *)
Lemma coast_ok : forall c n, timely c -> ticks_of c AX = ticks_of c AY -> ticks_of c AX + n <= u64_max ->
  1 <= n < 2 ^ 31 -> (forall i, Z.abs (c_v (channel c i)) <= 2 ^ 20) -> (forall i, Z.abs (c_pos (channel c i)) <= 2 ^ 41) ->
  exists c', add_acc_interval c 0 0 n = Ok c' /\ coasts c c' n /\ timely c'.
Proof.
  intros c n [Hc He] Sy Ht Hn Hv Hp. rewrite <- Sy, Z.max_id in He.
  assert (E : exists c', add_acc_interval c 0 0 n = Ok c').
  { unfold add_acc_interval. replace (n >=? 1) with true by lia. cbn [assert bind].
    destruct (zero_one_ok c AX n Hc) as [c1 E1]; auto; try lia. rewrite E1. cbn [bind].
    destruct (add_acc_one_spec c AX 0 n c1 Hc ltac:(lia) E1) as (S & _ & T1 & T2 & _ & M & _).
    specialize (T2 AY ltac:(discriminate)). destruct (M AY ltac:(discriminate)) as [_ SY]. unfold c_state in SY.
    pose proof (f_equal fst SY) as P1. pose proof (f_equal snd SY) as P2. cbn [fst snd] in P1, P2.
    assert (ET : event_ticks c1 = ticks_of c AX).
    { unfold add_acc_one in E1. apply bind_Ok in E1. destruct E1 as (d & PE & E1).
      repeat (apply bind_Ok in E1; destruct E1 as (? & _ & E1)). injection E1 as <-.
      unfold push_event in PE. apply bind_Ok in PE. destruct PE as (d0 & _ & PE). injection PE as <-. reflexivity. }
    destruct (zero_one_ok c1 AY n (st_clocked _ _ S)) as [c2 E2]; try lia.
    { rewrite P2. apply Hv. }
    { rewrite P1. apply Hp. }
    rewrite E2. cbn [bind].
    destruct (add_acc_one_spec c1 AY 0 n c2 (st_clocked _ _ S) ltac:(lia) E2) as (_ & _ & T3 & T4 & _).
    specialize (T4 AX ltac:(discriminate)). replace (ticks_of c2 AX =? ticks_of c2 AY) with true by lia. cbn [assert bind]. eauto. }
  destruct E as [c' E]. exists c'. split; [exact E|]. split.
  - apply coasts_zero; auto. unfold u32_max. lia.
  - apply (now_op_timely shortest_curve_sequences c (AddAcc 0 0 n) c' planner_typed); [split; [exact Hc|rewrite <- Sy, Z.max_id; exact He]|cbn; unfold u32_max; lia|exact E].
Qed.

(** A change of the weight now. *)
Lemma weight_ok : forall c w, timely c -> ticks_of c AX = ticks_of c AY -> ticks_of c AX <= u64_max ->
  exists c', add_weight_change c w (ticks_of c AX) = Ok c' /\ coasts c c' 0 /\ timely c'.
Proof.
  intros c w [Hc He] Sy Ht.
  assert (E : exists c', add_weight_change c w (ticks_of c AX) = Ok c').
  { unfold add_weight_change. rewrite <- Sy, Z.geb_leb, Z.leb_refl. cbn [assert bind]. apply push_event_ok; [exact Hc|lia]. }
  destruct E as [c' E]. exists c'. split; [exact E|].
  split; [|apply (now_op_timely shortest_curve_sequences c (AddWeight w (ticks_of c AX)) c' planner_typed (conj Hc He) eq_refl E)].
  pose proof (ck_ticks c Hc AX) as [_ R]. exact (coasts_weight c w (ticks_of c AX) c' Hc R E).
Qed.

(** ** The pixels of a line *)

Lemma bitmap_ok : forall (ltr : bool) s len xn, 0 <= s -> s + len <= u32_max -> 0 <= xn < len ->
  bitmap_x ltr s len xn = Ok (if ltr then s + xn else s + len - 1 - xn).
Proof.
  intros ltr s len xn Hs Hl Hx. unfold bitmap_x, chk_u32. destruct ltr; [apply chk_in; lia|].
  rewrite chk_in by lia. cbn [bind]. rewrite chk_in by lia. cbn [bind]. apply chk_in. lia.
Qed.

Lemma weight_of_ok : forall p b, 0 <= p <= 255 -> 0 <= b <= 2 ^ 23 -> exists w, pixel_weight p b = Ok w.
Proof.
  intros p b Hp Hb. unfold pixel_weight, chk_i32, i32_min, i32_max. change (2 ^ 23) with 8388608 in Hb.
  rewrite chk_in by lia. cbn [bind]. rewrite chk_in by nia. cbn [bind]. eauto.
Qed.

(** The context while a line is drawn that began in [c0]. *)
Record under_way (c0 c : ctx) (n : Z) : Prop := {
  uw_timely : timely c;
  uw_coasts : coasts c0 c n
}.

Lemma under_way_state : forall c0 c n i, under_way c0 c n -> ticks_of c i = ticks_of c0 i + n /\
  c_pos (channel c i) = c_pos (channel c0 i) + 2 * n * c_v (channel c0 i) /\ c_v (channel c i) = c_v (channel c0 i).
Proof.
  intros c0 c n i [_ C]. split; [apply (co_ticks _ _ _ C)|]. pose proof (co_state _ _ _ C i) as E. unfold c_state in E.
  split; [exact (f_equal fst E)|exact (f_equal snd E)].
Qed.

Lemma coast_more : forall c0 c m n, clocked c0 -> under_way c0 c m -> ticks_of c0 AX = ticks_of c0 AY ->
  ticks_of c0 AX + (m + n) <= u64_max -> 1 <= n -> m + n < 2 ^ 31 -> (forall i, Z.abs (c_v (channel c0 i)) <= 2 ^ 20) ->
  (forall i, Z.abs (c_pos (channel c0 i)) + 2 * m * Z.abs (c_v (channel c0 i)) <= 2 ^ 41) ->
  exists c', add_acc_interval c 0 0 n = Ok c' /\ under_way c0 c' (m + n).
Proof.
  intros c0 c m n H0 U Sy Ht Hn Hm Hv Hp. pose proof (co_n _ _ _ (uw_coasts _ _ _ U)) as M0.
  pose proof (under_way_state _ _ _ AX U) as (TX & _ & _). pose proof (under_way_state _ _ _ AY U) as (TY & _ & _).
  destruct (coast_ok c n (uw_timely _ _ _ U)) as (c' & E & C & T); try lia.
  { intros i. destruct (under_way_state _ _ _ i U) as (_ & _ & ->). apply Hv. }
  { intros i. destruct (under_way_state _ _ _ i U) as (_ & -> & _). specialize (Hp i).
    pose proof (Z.abs_triangle (c_pos (channel c0 i)) (2 * m * c_v (channel c0 i))) as B. rewrite (Z.abs_mul (2 * m)) in B.
    rewrite (Z.abs_eq (2 * m)) in B by lia. lia. }
  exists c'. split; [exact E|]. constructor; [exact T|]. exact (coasts_trans _ _ _ _ _ H0 (uw_coasts _ _ _ U) C).
Qed.

Lemma weigh : forall c0 c m w, clocked c0 -> under_way c0 c m -> ticks_of c0 AX = ticks_of c0 AY -> ticks_of c0 AX + m <= u64_max ->
  exists c', add_weight_change c w (ticks_of c0 AX + m) = Ok c' /\ under_way c0 c' m.
Proof.
  intros c0 c m w H0 U Sy Ht.
  pose proof (under_way_state _ _ _ AX U) as (TX & _ & _). pose proof (under_way_state _ _ _ AY U) as (TY & _ & _).
  destruct (weight_ok c w (uw_timely _ _ _ U)) as (c' & E & C & T); try lia. rewrite TX in E.
  exists c'. split; [exact E|]. constructor; [exact T|].
  replace m with (m + 0) by lia. exact (coasts_trans _ _ _ _ _ H0 (uw_coasts _ _ _ U) C).
Qed.

Section Line.
Variables (sc : scan) (row : list Z) (ltr : bool) (s len : Z) (c0 : ctx).
Hypotheses (Hc0 : clocked c0) (Sy : ticks_of c0 AX = ticks_of c0 AY) (Hr : 1 <= res_x sc) (Hs : 0 <= s) (Hl : 1 <= len)
  (Hw : s + len <= Z.of_nat (length row)) (HR : (s + len) * res_x sc < 2 ^ 31)
  (Hpix : Forall (fun p => 0 <= p <= 255) row) (Hb : 0 <= black sc <= 2 ^ 23)
  (Ht : ticks_of c0 AX + len * res_x sc <= u64_max)
  (Hv : forall i, Z.abs (c_v (channel c0 i)) <= 2 ^ 20)
  (Hp : forall i, Z.abs (c_pos (channel c0 i)) + 2 * (len * res_x sc) * Z.abs (c_v (channel c0 i)) <= 2 ^ 41).

Lemma place_before : forall m i, m <= len * res_x sc -> Z.abs (c_pos (channel c0 i)) + 2 * m * Z.abs (c_v (channel c0 i)) <= 2 ^ 41.
Proof.
  clear - Hp. intros m i H. specialize (Hp i).
  assert (2 * m * Z.abs (c_v (channel c0 i)) <= 2 * (len * res_x sc) * Z.abs (c_v (channel c0 i))) by (apply Z.mul_le_mono_nonneg_r; lia).
  lia.
Qed.

Lemma pixels_ok : forall n xn c m prev, under_way c0 c m -> 0 <= xn -> xn + Z.of_nat n = len -> m <= xn * res_x sc ->
  (m < len * res_x sc) ->
  exists c' m', pixel_loop sc row ltr s len (ticks_of c0 AX) n xn c prev = Ok c' /\ under_way c0 c' m' /\ m' < len * res_x sc.
Proof.
  induction n as [|n IH]; intros xn c m prev U Hx Hn Hm Hm2.
  - cbn [pixel_loop]. exists c, m. auto.
  - cbn [pixel_loop]. change (2 ^ 31) with 2147483648 in HR.
    assert (L1 : s + len <= u32_max) by (unfold u32_max; nia).
    rewrite bitmap_ok by lia. cbn [bind].
    set (x := if ltr then s + xn else s + len - 1 - xn). assert (Bx : 0 <= x < Z.of_nat (length row)) by (subst x; destruct ltr; lia).
    destruct (nth_error row (Z.to_nat x)) as [p|] eqn:EN; [|apply nth_error_None in EN; lia]. cbn [unwrap bind].
    assert (Bp : 0 <= p <= 255) by (rewrite Forall_forall in Hpix; apply Hpix; eapply nth_error_In; exact EN).
    destruct (weight_of_ok p (black sc) Bp Hb) as [w ->]. cbn [bind].
    assert (Bxr : xn * res_x sc < len * res_x sc) by (apply Z.mul_lt_mono_pos_r; lia).
    assert (Bxr0 : 0 <= xn * res_x sc) by nia.
    assert (Bsr : 0 <= s * res_x sc) by nia.
    assert (Bx1 : xn * res_x sc <= (xn + 1) * res_x sc) by nia.
    pose proof (co_n _ _ _ (uw_coasts _ _ _ U)) as M0.
    destruct (w =? prev).
    + apply (IH (xn + 1) c m prev U); lia.
    + unfold chk_u32 at 1. rewrite chk_in by (unfold u32_max; lia). cbn [bind].
      pose proof (ck_ticks c0 Hc0 AX) as T0. unfold chk_u64 at 1. rewrite chk_in by lia. cbn [bind].
      pose proof (under_way_state _ _ _ AX U) as (TX & _ & _). pose proof (under_way_state _ _ _ AY U) as (TY & _ & _).
      unfold ticks. replace (ticks_of c AX =? ticks_of c AY) with true by lia. cbn [assert bind]. rewrite TX.
      replace (ticks_of c0 AX + xn * res_x sc - (ticks_of c0 AX + m)) with (xn * res_x sc - m) by ring.
      unfold chk_u64, chk_u32. rewrite chk_in by (unfold u64_max; lia). cbn [bind]. rewrite chk_in by (unfold u32_max; lia). cbn [bind].
      assert (K : exists c1, (if xn * res_x sc - m =? 0 then Ok c else add_acc_interval c 0 0 (xn * res_x sc - m)) = Ok c1 /\
                  under_way c0 c1 (xn * res_x sc)).
      { destruct (Z.eqb_spec (xn * res_x sc - m) 0) as [E|E].
        - exists c. split; [reflexivity|]. replace (xn * res_x sc) with m by lia. exact U.
        - destruct (coast_more c0 c m (xn * res_x sc - m) Hc0 U Sy) as (c1 & E1 & U1); try lia.
          + exact Hv.
          + intros i. apply place_before. lia.
          + exists c1. split; [exact E1|]. replace (xn * res_x sc) with (m + (xn * res_x sc - m)) by ring. exact U1. }
      destruct K as (c1 & -> & U1). cbn [bind].
      destruct (weigh c0 c1 (xn * res_x sc) w Hc0 U1 Sy ltac:(lia)) as (c2 & -> & U2). cbn [bind].
      apply (IH (xn + 1) c2 (xn * res_x sc) w U2); lia.
Qed.
End Line.

(** ** A line *)

(** The figures of a scan of [w] by [h] pixels that lets every line be drawn. *)
Record drawable (a v : axis -> Z) (sc : scan) (w h : Z) : Prop := {
  dr_limits : limits_ok a v;
  dr_res : 1 <= res_x sc /\ 0 <= res_y sc;
  dr_short : w * res_x sc < 2 ^ 31;
  dr_vx : 0 <= v_x sc <= v AX;
  dr_black : 0 <= black sc <= 2 ^ 23;
  dr_w : 2 * v_x sc * res_x sc * w < 2 ^ 32;
  dr_h : h * res_y sc < 2 ^ 32;
  dr_sx : storable (2 * v_x sc * res_x sc * w + 1) (a AX) (v AX);
  dr_sy : storable (h * res_y sc * Z.abs (step_y sc) + 1) (a AY) (v AY)
}.

Definition size (sc : scan) (w h : Z) (i : axis) : Z :=
  match i with AX => 2 * v_x sc * res_x sc * w | AY => h * res_y sc * Z.abs (step_y sc) end.

(** The head is over the image, or a step beside it. *)
Definition low (sc : scan) (h : Z) (i : axis) : Z := match i with AX => 0 | AY => Z.min 0 (h * res_y sc * step_y sc) end.
Definition high (sc : scan) (w h : Z) (i : axis) : Z :=
  match i with AX => 2 * v_x sc * res_x sc * w | AY => Z.max 0 (h * res_y sc * step_y sc) end.
Definition inside (sc : scan) (w h : Z) (c : ctx) : Prop :=
  forall i, low sc h i - 1 <= c_pos (channel c i) <= high sc w h i + 1.

Lemma low_high : forall sc w h i, 0 <= h * res_y sc -> 0 <= 2 * v_x sc * res_x sc * w ->
  low sc h i <= 0 <= high sc w h i /\ high sc w h i - low sc h i = size sc w h i.
Proof.
  intros sc w h [] H W; cbn [low high size]; [lia|]. split; [lia|].
  rewrite <- (Z.abs_eq (h * res_y sc)) at 3 by exact H. rewrite <- Z.abs_mul. lia.
Qed.

Lemma storable_bound : forall d a v, 1 <= a <= 32767 -> 1 <= v <= 2 ^ 20 -> 0 <= d -> storable d a v -> d <= 2 ^ 38.
Proof.
  intros d a v Ha Hv Hd H. unfold storable in H. rewrite Z.abs_eq in H by lia.
  assert (a * d < a * (2 * v * 65533)) by nia. assert (d < 2 * v * 65533) by nia.
  change (2 ^ 20) with 1048576 in *. change (2 ^ 38) with 274877906944. nia.
Qed.

Lemma line_able : forall a v sc w h T c row yn r (ltr : bool) s len, drawable a v sc w h ->
  able a v (fun i => size sc w h i + 1) T c -> inside sc w h c -> T + 65535 + w * res_x sc < u64_max ->
  Forall (fun p => 0 <= p <= 255) row -> Z.of_nat (length row) <= w -> 0 <= s -> 1 <= len -> s + len <= Z.of_nat (length row) ->
  0 <= yn < h -> 0 <= r < res_y sc ->
  exists c', raster_line sc row yn r ltr s len c = Ok c' /\ able a v (fun i => size sc w h i + 1) (T + (65535 + w * res_x sc)) c' /\
    inside sc w h c'.
Proof.
  intros a v sc w h T c row yn r ltr s len [HL [R1 R2] SH [V0 V1] HB HW HH SX SY] HA HI HT Hpix Hw Hs Hl Hsl Hy Hr.
  destruct (HL AX) as [LA1 LV1]. destruct (HL AY) as [LA2 LV2].
  change (2 ^ 31) with 2147483648 in *. change (2 ^ 32) with 4294967296 in *. change (2 ^ 20) with 1048576 in *.
  set (step := 2 * v_x sc * res_x sc) in *. assert (P0 : 0 <= step) by (subst step; nia).
  assert (W1 : 1 <= w) by lia.
  assert (ST : step * 1 <= step * w) by (apply Z.mul_le_mono_nonneg_l; lia).
  assert (RW : 1 * res_x sc <= w * res_x sc) by (apply Z.mul_le_mono_nonneg_r; lia).
  assert (WR : w * 1 <= w * res_x sc) by (apply Z.mul_le_mono_nonneg_l; lia).
  assert (YR : 0 <= yn * res_y sc) by nia.
  assert (YB : yn * res_y sc + r < h * res_y sc).
  { assert ((yn + 1) * res_y sc <= h * res_y sc) by (apply Z.mul_le_mono_nonneg_r; lia). lia. }
  unfold raster_line, chk_u32, chk_i32, chk_i64, u32_max.
  assert (E1 : (if ltr then Ok s else chk 0 4294967295 (s + len)) = Ok (if ltr then s else s + len)) by (destruct ltr; [reflexivity|apply chk_in; lia]).
  rewrite E1. cbn [bind]. clear E1.
  assert (E1 : (if ltr then Ok (v_x sc) else chk i32_min i32_max (- v_x sc)) = Ok (if ltr then v_x sc else - v_x sc))
    by (destruct ltr; [reflexivity|apply chk_in; unfold i32_min, i32_max; lia]).
  rewrite E1. cbn [bind]. clear E1.
  rewrite chk_in by lia. cbn [bind].
  replace (as_u32 (v_x sc)) with (v_x sc) by (unfold as_u32; rewrite wrap_u_id by lia; reflexivity).
  replace (res_x sc * 2 * v_x sc) with step by (subst step; ring).
  rewrite chk_in by lia. cbn [bind].
  set (ls := if ltr then s else s + len). assert (LB : 0 <= ls <= w) by (subst ls; destruct ltr; lia).
  assert (LS : 0 <= step * ls <= step * w) by (split; [apply Z.mul_nonneg_nonneg; lia|apply Z.mul_le_mono_nonneg_l; lia]).
  rewrite chk_in by lia. cbn [bind].
  rewrite chk_in by lia. cbn [bind]. rewrite chk_in by lia. cbn [bind].
  assert (Hh : 0 <= h * res_y sc) by lia.
  assert (Y0 : 0 <= h * res_y sc * Z.abs (step_y sc)) by (apply Z.mul_nonneg_nonneg; lia).
  assert (H40 : h * res_y sc * Z.abs (step_y sc) + 1 <= 2 ^ 38) by (apply (storable_bound _ (a AY) (v AY)); auto; lia).
  assert (W40 : step * w + 1 <= 2 ^ 38) by (apply (storable_bound _ (a AX) (v AX)); auto; lia).
  change (2 ^ 38) with 274877906944 in *.
  assert (YA : Z.abs ((yn * res_y sc + r) * step_y sc) <= h * res_y sc * Z.abs (step_y sc)).
  { rewrite Z.abs_mul. apply Z.mul_le_mono_nonneg_r; lia. }
  rewrite chk_in by (unfold i64_min, i64_max; lia). cbn [bind].
  destruct (low_high sc w h AY Hh ltac:(fold step; lia)) as [LH1 LH2].
  assert (YI : low sc h AY <= (yn * res_y sc + r) * step_y sc <= high sc w h AY).
  { assert (K : 0 <= yn * res_y sc + r <= h * res_y sc) by lia. cbn [low high].
    clear - K. generalize dependent (yn * res_y sc + r). generalize (h * res_y sc). intros n k K.
    destruct (Z.le_ge_cases 0 (step_y sc)) as [S|S].
    - assert (0 <= k * step_y sc <= n * step_y sc) by (split; [apply Z.mul_nonneg_nonneg; lia|apply Z.mul_le_mono_nonneg_r; lia]). lia.
    - assert (n * step_y sc <= k * step_y sc <= 0) by (split; [apply Z.mul_le_mono_nonpos_r; lia|apply Z.mul_nonneg_nonpos; lia]). lia. }
  destruct (goto_able_at a v _ (size sc w h) T c (step * ls) ((yn * res_y sc + r) * step_y sc) (if ltr then v_x sc else - v_x sc) 0 HL HA)
    as (c1 & E & A1 & C1 & CW1).
  { change (2 ^ 40) with 1099511627776. intros []; cbv beta; cbn [size]; fold step; lia. }
  { apply (storable_less _ (step * w + 1)); [lia| |exact SX]. pose proof (HI AX) as B. cbn [low high] in B. fold step in B. lia. }
  { apply (storable_less _ (h * res_y sc * Z.abs (step_y sc) + 1)); [lia| |exact SY]. pose proof (HI AY) as B. cbn [size] in LH2. lia. }
  { lia. }
  { intros []; cbn [size]; fold step; [lia|]. apply Z.mul_nonneg_nonneg; lia. }
  { cbn [size]. fold step. lia. }
  { cbn [size]. exact YA. }
  { destruct ltr; lia. }
  { cbn. lia. }
  rewrite E. cbn [bind].
  assert (NX : Z.abs (c_pos (channel c1 AX) - step * ls) <= 1 /\ Z.abs (c_pos (channel c1 AY) - (yn * res_y sc + r) * step_y sc) <= 1).
  { destruct HA as [[Hc _] _ B3 B4 B5 B6 _].
    apply (goto_place c _ _ _ _ c1 Hc E); unfold goto_axis; rewrite B3, B4; [pose proof (B5 AX); pose proof (B6 AX) as B|pose proof (B5 AY); pose proof (B6 AY) as B];
      cbn [size] in B; try fold step in B; change (2 ^ 62) with 4611686018427387904; change (2 ^ 40) with 1099511627776; change (2 ^ 20) with 1048576;
      (split; [lia|]); (split; [lia|]); (split; [lia|]); (split; [lia|]); (split; [|lia]); [destruct ltr; lia|lia]. }
  destruct NX as [NX NY].
  pose proof A1 as [Tm Sy A3 A4 A5 A6 A7]. pose proof (proj1 Tm) as Hc1.
  destruct (step_goto_speed_spec shortest_curve_sequences c _ _ _ _ c1 (proj1 (ab_timely _ _ _ _ _ HA)) planner_typed E)
    as (sx & sy & rest & _ & _ & _ & _ & _ & _ & CS & _).
  assert (VX : c_v (channel c1 AX) = if ltr then v_x sc else - v_x sc) by exact (f_equal snd (CS AX)).
  assert (VY : c_v (channel c1 AY) = 0) by exact (f_equal snd (CS AY)).
  unfold ticks at 1. rewrite Sy, Z.eqb_refl. cbn [assert bind]. rewrite <- Sy.
  assert (LR : 1 * res_x sc <= len * res_x sc) by (apply Z.mul_le_mono_nonneg_r; lia).
  assert (LW : (s + len) * res_x sc <= w * res_x sc) by (apply Z.mul_le_mono_nonneg_r; lia).
  assert (SR : 0 <= s * res_x sc) by nia.
  pose proof (ck_ticks c1 Hc1 AX) as T0.
  assert (PB : forall i, Z.abs (c_pos (channel c1 i)) + 2 * (len * res_x sc) * Z.abs (c_v (channel c1 i)) <= 2 ^ 41).
  { change (2 ^ 41) with 2199023255552. intros []; [rewrite VX|rewrite VY].
    - pose proof (A6 AX) as B. cbn [size] in B. fold step in B.
      replace (2 * (len * res_x sc) * Z.abs (if ltr then v_x sc else - v_x sc)) with (step * len) by (subst step; destruct ltr; rewrite ?Z.abs_opp, Z.abs_eq by lia; ring).
      assert (step * len <= step * w) by (apply Z.mul_le_mono_nonneg_l; lia). lia.
    - pose proof (A6 AY) as B. cbn [size] in B. cbn [Z.abs]. lia. }
  assert (VB : forall i, Z.abs (c_v (channel c1 i)) <= 2 ^ 20).
  { intros i. specialize (A5 i). destruct (HL i) as [_ [_ B]]. lia. }
  assert (U0 : under_way c1 c1 0) by (constructor; [exact Tm|apply coasts_refl, Hc1]).
  destruct (pixels_ok sc row ltr s len c1 Hc1 Sy R1 Hs Hl Hsl ltac:(change (2 ^ 31) with 2147483648; lia) Hpix HB ltac:(lia) VB PB
              (Z.to_nat len) 0 c1 0 0 U0 ltac:(lia) ltac:(lia) ltac:(lia) ltac:(lia)) as (c2 & m & E2 & U2 & M2).
  rewrite E2. cbn [bind]. rewrite chk_in by lia. cbn [bind].
  unfold chk_u64. rewrite chk_in by lia. cbn [bind].
  pose proof (under_way_state _ _ _ AX U2) as (TX & _ & _). pose proof (under_way_state _ _ _ AY U2) as (TY & _ & _).
  pose proof (co_n _ _ _ (uw_coasts _ _ _ U2)) as M0.
  unfold ticks. replace (ticks_of c2 AX =? ticks_of c2 AY) with true by lia. cbn [assert bind]. rewrite TX.
  replace (ticks_of c1 AX + len * res_x sc - (ticks_of c1 AX + m)) with (len * res_x sc - m) by ring.
  rewrite chk_in by (unfold u64_max; lia). cbn [bind]. rewrite chk_in by lia. cbn [bind].
  destruct (coast_more c1 c2 m (len * res_x sc - m) Hc1 U2 Sy) as (c3 & E3 & U3); try lia.
  { exact VB. }
  { intros i. apply (place_before sc len c1 PB). lia. }
  rewrite E3. cbn [bind]. replace (m + (len * res_x sc - m)) with (len * res_x sc) in U3 by ring.
  destruct (weigh c1 c3 (len * res_x sc) 0 Hc1 U3 Sy ltac:(lia)) as (c4 & E4 & U4).
  exists c4. split; [exact E4|].
  destruct (config_same c1 c4 a v (st_config _ _ (co_step _ _ _ (uw_coasts _ _ _ U4))) A3 A4) as [B1 B2].
  pose proof (under_way_state _ _ _ AX U4) as (TX4 & PX4 & VX4). pose proof (under_way_state _ _ _ AY U4) as (TY4 & PY4 & VY4).
  assert (IX : -1 <= c_pos (channel c4 AX) <= step * w + 1).
  { rewrite PX4, VX.
    assert (step * s <= step * w) by (apply Z.mul_le_mono_nonneg_l; lia).
    assert (step * (s + len) <= step * w) by (apply Z.mul_le_mono_nonneg_l; lia).
    assert (0 <= step * s) by (apply Z.mul_nonneg_nonneg; lia).
    assert (0 <= step * len) by (apply Z.mul_nonneg_nonneg; lia).
    replace (2 * (len * res_x sc) * (if ltr then v_x sc else - v_x sc)) with (if ltr then step * len else - (step * len)) by (subst step; destruct ltr; ring).
    rewrite Z.mul_add_distr_l in *. subst ls. destruct ltr; rewrite ?Z.mul_add_distr_l in *; lia. }
  assert (PY : c_pos (channel c4 AY) = c_pos (channel c1 AY)) by (rewrite PY4, VY; lia).
  split.
  - constructor; auto.
    + apply (uw_timely _ _ _ U4).
    + lia.
    + intros []; [rewrite VX4; apply A5|rewrite VY4; apply A5].
    + intros []; cbn [size]; fold step; [lia|]. rewrite PY. pose proof (A6 AY) as B. cbn [size] in B. lia.
    + lia.
  - intros []; [cbn [low high]; fold step; lia|]. rewrite PY. lia.
Qed.
