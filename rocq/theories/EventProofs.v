(** What commands the programs put in the stream at all: the channels, the range of the
    accelerations and the weights. *)
From Coq Require Import ZArith List Bool Lia.
From Verif Require Import Base Floats FloatProofs AccVector IntegerCurve StepperContext ContextHist ApproxCurve ApproxProofs DrawCurves ImageRaster
  RasterProofs SvgMain.
Import ListNotations.
Open Scope Z_scope.

(** A command of the protocol: channel 0 or 1, a 16 bit acceleration, a weight among [W]; and a 32
    bit delay before it. *)
Definition command_ok (W : Z -> Prop) (cmd : command) : Prop :=
  match cmd with
  | Acc ch a => (ch = 0 \/ ch = 1) /\ - 2 ^ 15 <= a < 2 ^ 15
  | Weight x => W x
  end.
Definition event_ok (W : Z -> Prop) (e : event) : Prop := 0 <= e_ticks e < 2 ^ 32 /\ command_ok W (e_cmd e).

(** The events so far are in order, and the weights the context may still use. *)
Definition proper (W : Z -> Prop) (c : ctx) : Prop := Forall (event_ok W) (events c) /\ W (move_weight c) /\ W (curve_weight c).

Section Proper.
Variable W : Z -> Prop.
Notation ok := (proper W).

Lemma proper_set : forall c i ch, ok c -> ok (set_channel c i ch).
Proof. intros c [] ch H; exact H. Qed.
Lemma index_ok : forall i, axis_index i = 0 \/ axis_index i = 1.
Proof. intros []; cbn; auto. Qed.

Lemma proper_push : forall c t cmd c', push_event c t cmd = Ok c' -> command_ok W cmd -> ok c -> ok c'.
Proof.
  intros c t cmd c' H K (E & M & U). unfold push_event in H. inv_bind H. injection H as <-.
  split; [|split; assumption]. cbn [events set_events]. apply Forall_app. split; [exact E|]. constructor; [|constructor].
  split; [|exact K]. cbn [e_ticks]. unfold as_u32. apply Z.mod_pos_bound. lia.
Qed.

Lemma proper_acc_one : forall c i a n c', add_acc_one c i a n = Ok c' -> - 2 ^ 15 <= a < 2 ^ 15 -> ok c -> ok c'.
Proof.
  intros c i a n c' H A K. unfold add_acc_one in H. inv_bind H. injection H as <-. apply proper_set.
  eapply proper_push; [eassumption| |exact K]. split; [apply index_ok|exact A].
Qed.
Lemma proper_acc : forall c ax ay n c', add_acc_interval c ax ay n = Ok c' -> - 2 ^ 15 <= ax < 2 ^ 15 -> - 2 ^ 15 <= ay < 2 ^ 15 ->
  ok c -> ok c'.
Proof.
  intros c ax ay n c' H A B K. unfold add_acc_interval in H. inv_bind H. injection H as <-.
  eapply proper_acc_one; [eassumption|exact B|]. eapply proper_acc_one; eassumption.
Qed.
Lemma proper_weight : forall c x t c', add_weight_change c x t = Ok c' -> W x -> ok c -> ok c'.
Proof. intros c x t c' H A K. unfold add_weight_change in H. inv_bind H. eapply proper_push; eassumption. Qed.

Lemma proper_emit : forall c i s c', emit_seg c i s = Ok c' -> - 2 ^ 15 <= snd s < 2 ^ 15 -> ok c -> ok c'.
Proof.
  intros c i s c' H A K. unfold emit_seg in H. inv_bind H. injection H as <-. apply proper_set.
  eapply proper_push; [eassumption| |exact K]. split; [apply index_ok|exact A].
Qed.
Lemma proper_segs : forall fuel c px py c', segs_loop fuel c px py = Ok c' ->
  Forall (fun s : seg => - 2 ^ 15 <= snd s < 2 ^ 15) px -> Forall (fun s : seg => - 2 ^ 15 <= snd s < 2 ^ 15) py -> ok c -> ok c'.
Proof.
  induction fuel as [|f IH]; intros c px py c' H A B K; cbn [segs_loop] in H; destruct (next_channel c px py) as [i|]; try discriminate;
    try (injection H as <-; exact K).
  destruct i, px as [|s px], py as [|s' py]; try (injection H as <-; exact K); inv_bind H.
  - inversion A; subst. eapply IH; eauto. eapply proper_emit; eassumption.
  - inversion A; subst. eapply IH; eauto. eapply proper_emit; eassumption.
  - inversion B; subst. eapply IH; eauto. eapply proper_emit; eassumption.
  - inversion B; subst. eapply IH; eauto. eapply proper_emit; eassumption.
Qed.

Lemma goto_one_events : forall c i s v c', goto_one c i s v = Ok c' -> ok c -> ok c'.
Proof.
  intros c i s v c' H K. unfold goto_one in H. apply bind_Ok in H. destruct H as ([d v'] & _ & H). inv_bind H. injection H as <-.
  apply proper_set, K.
Qed.
Lemma proper_goto : forall c x y vx vy c', step_goto_speed c x y vx vy = Ok c' -> ok c -> ok c'.
Proof.
  intros c x y vx vy c' H K. unfold step_goto_speed, step_goto_speed_with in H. inv_bind H.
  pose proof (planner_typed _ _ E4) as T. destruct a4 as [|sx [|sy rest]]; try discriminate. inv_bind H. injection H as <-.
  inversion T as [|? ? T1 T2]; subst. inversion T2 as [|? ? T3 _]; subst.
  assert (IN : forall s, Forall seg_typed s -> Forall (fun s : seg => - 2 ^ 15 <= snd s < 2 ^ 15) s).
  { intros s F. eapply Forall_impl; [|exact F]. intros sg [_ B]. unfold i16_min, i16_max in B. lia. }
  eapply proper_segs; [eassumption|apply IN, T1|apply IN, T3|]. do 2 apply proper_set.
  eapply goto_one_events; [eassumption|]. eapply goto_one_events; [eassumption|].
  eapply proper_push; [eassumption| |exact K]. apply K.
Qed.

Lemma proper_flush : forall c c', flush c = Ok c' -> ok c -> ok c'.
Proof.
  intros c c' H K. unfold flush in H. inv_bind H. eapply proper_push; [exact H|split; [right; reflexivity|lia]|].
  eapply proper_push; [eassumption|split; [left; reflexivity|lia]|]. eapply proper_push; [eassumption|apply K|exact K].
Qed.

(** Curves *)
Lemma limit_16 : forall v vm a r, - 2 ^ 15 <= a < 2 ^ 15 -> limit_speed v vm a = Ok r -> - 2 ^ 15 <= r < 2 ^ 15.
Proof.
  intros v vm a r A H. unfold limit_speed in H. assert (I : forall z, - 2 ^ 15 <= as_i16 z < 2 ^ 15).
  { intros z. unfold as_i16, wrap_s. pose proof (Z.mod_pos_bound z (2 ^ 16) ltac:(lia)). change (16 - 1) with 15.
    destruct (Z.ltb_spec (z mod 2 ^ 16) (2 ^ 15)); lia. }
  apply bind_Ok in H. destruct H as (low & _ & H). destruct low.
  - inv_bind H. injection H as <-. apply I.
  - apply bind_Ok in H. destruct H as (high & _ & H). destruct high.
    + inv_bind H. injection H as <-. apply I.
    + injection H as <-. exact A.
Qed.
Lemma approx_one_16 : forall s start v c i pos dir err e a t, approx_one s start v c i pos dir err = Ok (e, a, t) -> - 2 ^ 15 <= a < 2 ^ 15.
Proof.
  intros s start v c i pos dir err e a t H. unfold approx_one in H. inv_bind H. unfold wanted in H.
  apply bind_Ok in H. destruct H as (acc & L & H). injection H as _ <- _. eapply limit_16; [|exact L].
  match goal with |- _ <= f_as_i16 ?x < _ => pose proof (f_as_i16_range x) as B end. unfold i16_min, i16_max in B. lia.
Qed.
Lemma proper_loop : forall n t s start curve v len c ex ey mx my c' e, approx_loop n t s start curve v len c ex ey mx my = Ok (c', e) ->
  ok c -> ok c'.
Proof.
  induction n as [|n IH]; intros t s start curve v len c ex ey mx my c' e H K; cbn [approx_loop] in H.
  - injection H as <- _. exact K.
  - apply bind_Ok in H. destruct H as ([pos dir] & _ & H). apply bind_Ok in H. destruct H as ([[e1 a1] t1] & E1 & H).
    apply bind_Ok in H. destruct H as ([[e2 a2] t2] & E2 & H). inv_bind H. eapply IH; [exact H|].
    eapply proper_acc; [eassumption| | |exact K]; eapply approx_one_16; eassumption.
Qed.
Lemma proper_goto_speed : forall s c x y vx vy c', goto_speed s c x y vx vy = Ok c' -> ok c -> ok c'.
Proof. intros s c x y vx vy c' H K. unfold goto_speed in H. inv_bind H. eapply proper_goto; eassumption. Qed.
Lemma proper_curve : forall g s c start curves v c' e, draw_curve g s c start curves v = Ok (c', e) -> ok c -> ok c'.
Proof.
  intros g s c start curves v c' e H K. unfold draw_curve in H. destruct curves as [|x r]; [injection H as <- _; exact K|].
  apply bind_Ok in H. destruct H as ([p d] & _ & H). inv_bind H. unfold approx_curve in H. eapply proper_loop; [exact H|].
  assert (K1 : ok a) by (eapply proper_weight; [eassumption|apply K|exact K]).
  assert (K2 : ok a0) by (eapply proper_goto_speed; eassumption).
  eapply proper_weight; [eassumption|apply K2|exact K2].
Qed.
Lemma proper_step : forall g s v d sg d', draw_step g s v d sg = Ok d' -> ok (d_ctx d) -> ok (d_ctx d').
Proof.
  intros g s v d sg d' H K. unfold draw_step in H.
  assert (REST : forall info : res (option (fcurve * fvec)),
    (let! info := info in
     let! (curve, next_pos) := unwrap info in
     let! (_, start_dir) := fc_value curve fzero in
     let! d := (match d_prev d with
                | Some prev =>
                    if flt (fdot start_dir prev) min_cos_connect then
                      let! (c, err) := draw_curve g s (d_ctx d) (d_start d) (d_curves d) v in
                      Ok (mk_drawing c (d_pos d) (d_pos d) (d_prev d) [] (acc_max_err (d_err d) err))
                    else Ok d
                | None => Ok d
                end) in
     let! (_, end_dir) := fc_value curve (fc_length curve) in
     let! curves := fconcat_add (d_curves d) curve in
     Ok (mk_drawing (d_ctx d) next_pos (d_start d) (Some end_dir) curves (d_err d))) = Ok d' -> ok (d_ctx d')).
  { intros info R. apply bind_Ok in R. destruct R as (i & _ & R). apply bind_Ok in R. destruct R as ([cv np] & _ & R).
    apply bind_Ok in R. destruct R as ([p0 sd] & _ & R). apply bind_Ok in R. destruct R as (d1 & D1 & R).
    apply bind_Ok in R. destruct R as ([p1 ed] & _ & R). inv_bind R. injection R as <-. cbn [d_ctx].
    destruct (d_prev d) as [prev|]; [|injection D1 as <-; exact K].
    destruct (flt _ _); [|injection D1 as <-; exact K].
    apply bind_Ok in D1. destruct D1 as ([c1 e1] & DC & D1). injection D1 as <-. cbn [d_ctx]. eapply proper_curve; eassumption. }
  destruct sg as [p|p|p|p2 c1 c2|rx ry st en ro]; try (apply (REST _ H)).
  - inv_bind H. destruct a0; [injection H as <-; exact K|]. apply bind_Ok in H. destruct H as ([c1 e1] & DC & H). injection H as <-.
    cbn [d_ctx]. eapply proper_curve; eassumption.
  - destruct (flt _ _); [injection H as <-; exact K|apply (REST _ H)].
Qed.
Lemma proper_drawing : forall g s v segs d d', draw_loop g s v d segs = Ok d' -> ok (d_ctx d) -> ok (d_ctx d').
Proof.
  induction segs as [|sg segs IH]; intros d d' H K; cbn [draw_loop] in H; [injection H as <-; exact K|].
  inv_bind H. eapply IH; [exact H|]. eapply proper_step; eassumption.
Qed.
Lemma proper_curves : forall g s c segs v c' e, draw_curves g s c segs v = Ok (c', e) -> ok c -> ok c'.
Proof.
  intros g s c segs v c' e H K. unfold draw_curves in H. destruct segs as [|x r]; [injection H as <- _; exact K|].
  apply bind_Ok in H. destruct H as (d & DL & H). apply bind_Ok in H. destruct H as ([c1 e1] & DC & H). inv_bind H. injection H as <- _.
  assert (K1 : ok (d_ctx d)) by (eapply proper_drawing; [eassumption|exact K]).
  assert (K2 : ok c1) by (eapply proper_curve; eassumption).
  eapply proper_weight; [eassumption|apply K2|exact K2].
Qed.
Lemma proper_repeat : forall g s segs v n c e c' e', repeat_draw g s segs v n c e = Ok (c', e') -> ok c -> ok c'.
Proof.
  induction n as [|n IH]; intros c e c' e' H K; cbn [repeat_draw] in H; [injection H as <- _; exact K|].
  apply bind_Ok in H. destruct H as ([c1 e1] & DC & H). eapply IH; [exact H|]. eapply proper_curves; eassumption.
Qed.
Lemma proper_new : forall ax ay vx vy w, W 0 -> W w -> ok (set_weight (new_ctx ax ay vx vy) w).
Proof. intros ax ay vx vy w A B. split; [constructor|split; assumption]. Qed.

Lemma proper_svg : forall g cf v_opt a_opt v_draw n intensity segs c' e, W 0 -> W (svg_weight intensity) ->
  svg_main g cf v_opt a_opt v_draw n intensity segs = Ok (c', e) -> Forall (event_ok W) (events c').
Proof.
  intros g cf v_opt a_opt v_draw n intensity segs c' e A B H. unfold svg_main in H.
  apply bind_Ok in H. destruct H as ([[[ax ay] vmx] vmy] & L & H). cbv zeta in H.
  apply bind_Ok in H. destruct H as ([cn [ex1 ey1]] & R & H). inv_bind H. injection H as <- _.
  assert (K : ok cn) by (eapply proper_repeat; [exact R|apply proper_new; assumption]).
  eapply proper_flush; [eassumption|]. eapply proper_goto; eassumption.
Qed.

(** Images *)
Lemma proper_pixels : forall sc row ltr sx lx start n xn c prev c', pixel_loop sc row ltr sx lx start n xn c prev = Ok c' ->
  (forall p w, pixel_weight p (black sc) = Ok w -> W w) -> ok c -> ok c'.
Proof.
  induction n as [|n IH]; intros xn c prev c' H PW K; cbn [pixel_loop] in H; [injection H as <-; exact K|].
  apply bind_Ok in H. destruct H as (x & _ & H). apply bind_Ok in H. destruct H as (p & _ & H).
  apply bind_Ok in H. destruct H as (w & EW & H). destruct (w =? prev); [eapply IH; eassumption|].
  inv_bind H. eapply IH; [exact H|exact PW|]. eapply proper_weight; [eassumption|exact (PW _ _ EW)|].
  destruct (_ =? 0); [injection E4 as <-; exact K|]. eapply proper_acc; [eassumption|lia|lia|exact K].
Qed.
Lemma proper_line : forall sc row yn r ltr sx lx c c', raster_line sc row yn r ltr sx lx c = Ok c' ->
  (forall p w, pixel_weight p (black sc) = Ok w -> W w) -> W 0 -> ok c -> ok c'.
Proof.
  intros sc row yn r ltr sx lx c c' H PW Z0 K. unfold raster_line in H. inv_bind H.
  eapply proper_weight; [exact H|exact Z0|]. eapply proper_acc; [eassumption|lia|lia|].
  eapply proper_pixels; [eassumption|exact PW|]. eapply proper_goto; eassumption.
Qed.
Lemma proper_lines : forall sc row yn sx lx n r ltr c ltr' c', repeat_loop sc row yn sx lx n r ltr c = Ok (ltr', c') ->
  (forall p w, pixel_weight p (black sc) = Ok w -> W w) -> W 0 -> ok c -> ok c'.
Proof.
  induction n as [|n IH]; intros r ltr c ltr' c' H PW Z0 K; cbn [repeat_loop] in H; [injection H as _ <-; exact K|].
  inv_bind H. eapply IH; [exact H|exact PW|exact Z0|]. eapply proper_line; eassumption.
Qed.
Lemma proper_rows : forall sc rows yn ltr c c', rows_loop sc rows yn ltr c = Ok c' ->
  (forall p w, pixel_weight p (black sc) = Ok w -> W w) -> W 0 -> ok c -> ok c'.
Proof.
  induction rows as [|row rows IH]; intros yn ltr c c' H PW Z0 K; cbn [rows_loop] in H; [injection H as <-; exact K|].
  apply bind_Ok in H. destruct H as ([sx lx] & _ & H). apply bind_Ok in H. destruct H as ([l1 c1] & R & H).
  eapply IH; [exact H|exact PW|exact Z0|]. destruct (0 <? lx)%nat; [eapply proper_lines; eassumption|]. injection R as _ <-. exact K.
Qed.
Lemma proper_image : forall cf v_opt a_opt v_draw intensity w h spot xp yp rows c', W 0 -> W (black_weight intensity) ->
  (forall p x, pixel_weight p (black_weight intensity) = Ok x -> W x) ->
  image_main cf v_opt a_opt v_draw intensity w h spot xp yp rows = Ok c' -> ok c'.
Proof.
  intros cf v_opt a_opt v_draw intensity w h spot xp yp rows c' Z0 B PW H. unfold image_main in H.
  apply bind_Ok in H. destruct H as ([[[ax ay] vmx] vmy] & L & H). cbv zeta in H.
  destruct (size_mm xp yp w h) as [wm hm]. apply bind_Ok in H. destruct H as (sc & S & H).
  unfold raster in H. inv_bind H. unfold step_goto in H. eapply proper_goto; [exact H|].
  assert (BS : black sc = black_weight intensity).
  { unfold scan_of in S. cbv zeta in S. inv_bind S. injection S as <-. reflexivity. }
  eapply proper_rows; [eassumption|rewrite BS; exact PW|exact Z0|]. apply proper_new; assumption.
Qed.
End Proper.
