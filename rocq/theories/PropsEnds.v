(** Property C134: image_raster, from its command line on, ends as it should. *)
From Coq Require Import ZArith List Bool NArith Ascii String Reals Lia.
From Verif Require Import Base Chars Floats StepperContext MachineSpec MachineProofs StepperControl ControlSpec ControlProofs PropsControl
  ApproxCurve DrawCurves PathLex FloatPath ImageRaster Config PropsConfig Programs PropsRaster ControlLive PropsPrograms PropsRasterTotal.
Import ListNotations.
Open Scope Z_scope.

(** A controller that answers each of the events of a stream, sooner or later, with OK. *)
Lemma stream_sent : forall evs, nonneg evs -> forall script r0 t0 ns,
  ~ In RFail script -> bytes script = unlines (r0 :: answers ns) -> ~ In 10 r0 -> parse_i64 r0 = Some t0 ->
  List.length ns = List.length evs -> i64_min <= t0 + 128 -> t0 + 128 + total evs <= i64_max ->
  exists tr, forall fuel, (List.length script < fuel)%nat -> play_events fuel (scripted script) evs [] = (tr, Val tt).
Proof.
  intros evs N script r0 t0 ns F B R P L T1 T2. pose proof (total_nonneg evs N) as T0.
  apply (C67_ends_with_ok script evs r0 t0 ns); auto; [lia|].
  clear F B R P L. generalize dependent (t0 + 128). induction N as [|e evs E N IH]; intros t T1 T2; cbn [at_times total] in *; [constructor|].
  pose proof (total_nonneg evs N). constructor; [cbn [fst]; lia|]. apply IH; lia.
Qed.

(** What image_raster can raster to the end in [B] ticks (C133). *)
Definition image_job (cf : config_) (s : image_settings) (xp yp : Z) (B : Z) : Prop :=
  exists ax ay vx vy sc,
    limits cf (i_v_max s) (i_a_max s) = Ok (ax, ay, vx, vy) /\
    scan_of cf xp yp (fst (size_mm xp yp (i_width s) (i_height s))) (snd (size_mm xp yp (i_width s) (i_height s)))
      (i_draw s) (i_spot s) (black_weight (i_intensity s)) = Ok sc /\
    1 <= ax <= 32767 /\ 1 <= ay <= 32767 /\ 1 <= vx <= 2 ^ 20 /\ 1 <= vy <= 2 ^ 20 /\ v_x sc <= vx /\
    ax * (2 * v_x sc * res_x sc * xp + 1) + 8 * (vx * vx) < 2 * ax * vx * 65533 /\
    ay * (yp * res_y sc * Z.abs (step_y sc) + 1) + 8 * (vy * vy) < 2 * ay * vy * 65533 /\
    yp * res_y sc * (65535 + xp * res_x sc) + 65535 <= B.

(** The files and the options of a run that draws. *)
Record image_order (w : world) (o : image_options) (cf : config_) (xp yp : Z) (rows : list (list Z)) (B : Z) : Prop := {
  or_help : io_help o = false;
  or_file : exists file rest, io_free o = file :: rest /\ w_image w file = Some (xp, yp, rows);
  or_config : configured w (io_config o) cf;
  or_tps : 1 <= tps cf < 2 ^ 31;
  or_options : ~ image_refused o;
  or_size : 0 <= xp /\ 0 <= yp /\ Z.of_nat (List.length rows) <= yp;
  or_pixels : forall row, In row rows -> Z.of_nat (List.length row) <= xp /\ forall p, In p row -> 0 <= p <= 255;
  or_job : forall s, image_says o s -> image_job cf s xp yp B
}.

Lemma configured_of : forall w o cf, configured w o cf -> exists n l, o = Some n /\ config_of w n = Some (cf, l).
Proof.
  intros w o cf C. pose proof (config_spec w o) as S. destruct o as [n|].
  - destruct (config_of w n) as [[cf' l]|] eqn:E; [|destruct (S cf C)]. destruct S as [_ S]. rewrite (S cf C). eauto.
  - destruct (S cf C).
Qed.

(** The run of such an order, whatever is at the other end of the line. *)
Lemma image_goes : forall w o cf xp yp rows B, image_order w o cf xp yp rows B ->
  exists s c c', image_says o s /\ image_run cf s xp yp rows = Ok c /\ flush c = Ok c' /\ nonneg (events c') /\ total (events c') <= B /\
    forall fuel w', w_json w' = w_json w -> w_image w' = w_image w ->
      (io_device o = None -> image_raster_main fuel w' o [] = ([], Val Finished)) /\
      (forall name p, io_device o = Some name -> w_device w' name = Some p ->
         image_raster_main fuel w' o [] = send fuel (Some p) (events c') []).
Proof.
  intros w o cf xp yp rows B [HE (file & rest & FR & WI) CF TP NR (X0 & Y0 & RL) PX JOB].
  destruct (configured_of _ _ _ CF) as (n & l & CN & CO).
  pose proof (given_spec (io_v_max o)) as S1. destruct (given parse_f64 (io_v_max o)) as [v_opt|] eqn:E1; [|unfold image_refused in NR; tauto].
  pose proof (given_spec (io_a_max o)) as S2. destruct (given parse_f64 (io_a_max o)) as [a_opt|] eqn:E2; [|unfold image_refused in NR; tauto].
  pose proof (given_or_spec (f_of_Z 20) (io_draw_speed o)) as S3. destruct (given_or parse_f64 (f_of_Z 20) (io_draw_speed o)) as [v_draw|] eqn:E3; [|unfold image_refused in NR; tauto].
  pose proof (count_spec 0 100 parse_intensity 5 (io_intensity o) intensity_spec) as S5. destruct (given_or parse_intensity 5 (io_intensity o)) as [k|] eqn:E5; [|unfold image_refused in NR; tauto].
  pose proof (given_spec (io_width o)) as S6. destruct (given parse_f64 (io_width o)) as [wi|] eqn:E6; [|unfold image_refused in NR; tauto].
  pose proof (given_spec (io_height o)) as S7. destruct (given parse_f64 (io_height o)) as [he|] eqn:E7; [|unfold image_refused in NR; tauto].
  pose proof (given_or_spec (lit 2 10) (io_spot_diam o)) as S8. destruct (given_or parse_f64 (lit 2 10) (io_spot_diam o)) as [sp|] eqn:E8; [|unfold image_refused in NR; tauto].
  set (s := mk_image_settings v_opt a_opt v_draw k wi he sp).
  assert (SA : image_says o s) by exact (conj (proj1 S1) (conj (proj1 S2) (conj (proj1 S3) (conj (proj1 S5) (conj (proj1 S6) (conj (proj1 S7) (proj1 S8))))))).
  assert (K0 : 0 <= i_intensity s <= 100).
  { destruct SA as (_ & _ & _ & SI & _). unfold says in SI. destruct (io_intensity o); [destruct SI; assumption|lia]. }
  destruct (JOB s SA) as (ax & ay & vx & vy & sc & JL & JS & A1 & A2 & V1 & V2 & VX & SX & SY & JB).
  destruct (C133_image cf (i_v_max s) (i_a_max s) (i_draw s) (i_intensity s) (i_width s) (i_height s) (i_spot s) xp yp rows ax ay vx vy sc
    X0 Y0 K0 JL JS A1 A2 V1 V2 VX SX SY RL PX) as (c & RUN & (c' & FL & NN & TT & _) & TB & _).
  assert (TK : exists t, ticks c = Ok t).
  { unfold flush in FL. apply bind_Ok in FL. destruct FL as (u & AS & _). unfold ticks. rewrite AS. eexists. reflexivity. }
  destruct TK as (t & TK).
  exists s, c, c'. split; [exact SA|]. split; [exact RUN|]. split; [exact FL|]. split; [exact NN|].
  split; [specialize (TB AX); lia|]. intros fuel w' WJ WI'.
  assert (CO' : config_of w' n = Some (cf, l)) by (unfold config_of in *; rewrite WJ; exact CO).
  change (2 ^ 31) with 2147483648 in TP.
  assert (M : image_raster_main fuel w' o [] = io_bind (device_of w' (io_device o)) (fun dev =>
      match dev with None => ret Finished | Some _ => io_bind (lift (flush c)) (fun c => send fuel dev (events c)) end) []).
  { unfold image_raster_main. rewrite HE, FR, CN, CO'. unfold io_bind at 1, lift at 1. unfold chk_u32 at 1. rewrite chk_in by (unfold u32_max; lia).
    rewrite E1, E2, E3, E5, E6, E7, E8, WI', WI. unfold io_bind.
    destruct (device_of w' (io_device o) []) as [tr [dev| | |]]; try reflexivity.
    change (image_main cf v_opt a_opt v_draw k wi he sp xp yp rows) with (image_run cf s xp yp rows).
    unfold image_run. unfold lift at 1. rewrite RUN. unfold lift at 1. rewrite TK.
    replace (tps cf =? 0) with false by lia. reflexivity. }
  split.
  - intros DN. rewrite M, DN. reflexivity.
  - intros name p DN DP. rewrite M, DN. unfold io_bind at 1, device_of. rewrite DP. unfold ret at 1.
    unfold io_bind, lift. rewrite FL. reflexivity.
Qed.

(** C134.  Without a device the program ends successfully. *)
Theorem C134_no_device : forall fuel w o cf xp yp rows B, image_order w o cf xp yp rows B -> io_device o = None ->
  image_raster_main fuel w o [] = ([], Val Finished).
Proof.
  intros fuel w o cf xp yp rows B O D. destruct (image_goes _ _ _ _ _ _ _ O) as (s & c & c' & _ & _ & _ & _ & _ & G).
  apply (G fuel w eq_refl eq_refl); exact D.
Qed.

(** With one there is a number [n], the same for all controllers, such that the program ends
    successfully with every controller that tells its time and then answers [n] commands with OK,
    each after any number of refusals because its queue is full, however the answers are split and
    delayed.  By C116 such a controller then does, tick for tick, what the stream says: the
    exposure of every dark pixel of C133. *)
Theorem C134_sent : forall w o cf xp yp rows B name, image_order w o cf xp yp rows B -> io_device o = Some name ->
  exists n s c c', image_says o s /\ image_run cf s xp yp rows = Ok c /\ flush c = Ok c' /\ n = List.length (events c') /\
    forall w' script r0 t0 ns, w_json w' = w_json w -> w_image w' = w_image w -> w_device w' name = Some (scripted script) ->
      ~ In RFail script -> bytes script = unlines (r0 :: answers ns) -> ~ In 10 r0 -> parse_i64 r0 = Some t0 ->
      List.length ns = n -> - 2 ^ 63 <= t0 + 128 -> t0 + 128 + B < 2 ^ 63 ->
      exists tr, forall fuel, (List.length script < fuel)%nat ->
        image_raster_main fuel w' o [] = (tr, Val Finished).
Proof.
  intros w o cf xp yp rows B name O D. destruct (image_goes _ _ _ _ _ _ _ O) as (s & c & c' & SA & RUN & FL & NN & TB & G).
  exists (List.length (events c')), s, c, c'. do 4 (split; [first [assumption|reflexivity]|]).
  intros w' script r0 t0 ns WJ WI WD F Bs R P L T1 T2.
  destruct (stream_sent (events c') NN script r0 t0 ns F Bs R P L) as (tr & PL).
  - unfold i64_min. change (2 ^ 63) with 9223372036854775808 in *. lia.
  - unfold i64_max. change (2 ^ 63) with 9223372036854775808 in *. lia.
  - exists tr. intros fuel Hf. destruct (G fuel w' WJ WI) as [_ S]. rewrite (S name (scripted script) D WD).
    unfold send, io_bind, io_unwrap. rewrite (PL fuel Hf). reflexivity.
Qed.

(** And what the controller then does: each pixel that is not white is exposed in each of its lines
    over its place and with its weight. *)
Theorem C134_exposed : forall fuel w o cf xp yp rows B name tr, image_order w o cf xp yp rows B -> io_device o = Some name ->
  image_raster_main fuel w o [] = (tr, Val Finished) ->
  exists s sc cmds r0 replies now, image_says o s /\
    scan_of cf xp yp (fst (size_mm xp yp (i_width s) (i_height s))) (snd (size_mm xp yp (i_width s) (i_height s)))
      (i_draw s) (i_spot s) (black_weight (i_intensity s)) = Ok sc /\
    commands tr cmds /\ lines (received tr) = r0 :: replies /\ parse_i64 r0 = Some now /\
    forall y x row g r, nth_error rows y = Some row -> nth_error row x = Some g -> g < 255 -> 0 <= r < res_y sc ->
      exists t0, 0 <= t0 /\ t0 + res_x sc <= B /\
        forall t m, t0 <= t < t0 + res_x sc ->
          let p := carried_out (now + 128) cmds (now + 128 + t) (machine0 m) in
          m_weight p = Z.quot ((255 - g) * black_weight (i_intensity s)) 256 /\
          2 * v_x sc * res_x sc * Z.of_nat x - 1 <= s_pos (m_x p) <= 2 * v_x sc * res_x sc * (Z.of_nat x + 1) + 1 /\
          Z.abs (s_pos (m_y p) - (Z.of_nat y * res_y sc + r) * step_y sc) <= 1.
Proof.
  intros fuel w o cf xp yp rows B name tr O D H.
  assert (NE : tr <> []).
  { destruct (image_courses _ _ _ _ _ H) as [_ X _|? ? ? _ [X|X]|cf' file rest dev xp' yp' rows' s c c' _ _ _ _ _ _ DV _ FL S]; try discriminate.
    rewrite D in DV. destruct DV as (p & _ & ->). destruct S as (r & S1 & S2). destruct r as [[]| | |]; try discriminate.
    destruct (accepted_commands _ _ _ _ _ S1) as (t0 & k & _ & FU). destruct (FU eq_refl) as (_ & r0 & replies & L & _).
    intros ->. discriminate L. }
  destruct (C116_burned _ _ _ _ _ H NE) as (file & rest & cf' & s & n & p & xp' & yp' & rows' & c & c' & cmds & k & _ & FR & CF & SA & _ & _ & WI & RUN & FL & CM & _ & _ & _ & _ & FIN).
  destruct (FIN eq_refl) as (r0 & replies & now & LR & PN & CO). clear FIN.
  destruct O as [_ (file0 & rest0 & FR0 & WI0) CF0 _ _ (X0 & Y0 & RL) PX JOB].
  rewrite FR0 in FR. injection FR as <- <-. rewrite WI0 in WI. injection WI as <- <- <-.
  assert (cf' = cf).
  { destruct (configured_of _ _ _ CF) as (n1 & l1 & N1 & C1). destruct (configured_of _ _ _ CF0) as (n2 & l2 & N2 & C2). congruence. }
  subst cf'.
  assert (K0 : 0 <= i_intensity s <= 100).
  { destruct SA as (_ & _ & _ & SI & _). unfold says in SI. destruct (io_intensity o); [destruct SI; assumption|lia]. }
  destruct (JOB s SA) as (ax & ay & vx & vy & sc & JL & JS & A1 & A2 & V1 & V2 & VX & SX & SY & JB).
  destruct (C133_image cf (i_v_max s) (i_a_max s) (i_draw s) (i_intensity s) (i_width s) (i_height s) (i_spot s) xp yp rows ax ay vx vy sc
    X0 Y0 K0 JL JS A1 A2 V1 V2 VX SX SY RL PX) as (c1 & RUN1 & (c2 & FL1 & _ & _ & PL) & TB & EX & _).
  assert (c1 = c) by (unfold image_run in RUN; congruence). subst c1. assert (c2 = c') by congruence. subst c2.
  exists s, sc, cmds, r0, replies, now. do 5 (split; [assumption|]).
  intros y x row g r Ey Ex Hg Hr. destruct (EX y x row g r Ey Ex Hg Hr) as (t0 & T0 & T1 & P). exists t0.
  split; [exact T0|]. split; [specialize (TB AX); lia|]. intros t m Ht. cbv zeta. rewrite CO, PL by lia. exact (P t m Ht).
Qed.

(** The configuration in the repository, no options but the file and the device: every image of
    100 by 100 pixels is such an order. *)
Definition image_world (rows : list (list Z)) (script : list read_res) : world :=
  mk_world (w_json (a_world [])) (fun _ => None) (fun _ => Some (100, 100, rows)) (fun _ => Some (scripted script)).
Definition plain_order (device : option (list char)) : image_options :=
  mk_image_options false [chars "image.png"] (Some (chars "c.json")) device None None None None None None None.

Lemma plain_image_order : forall rows script device, Z.of_nat (List.length rows) <= 100 ->
  (forall row, In row rows -> Z.of_nat (List.length row) <= 100 /\ forall p, In p row -> 0 <= p <= 255) ->
  image_order (image_world rows script) (plain_order device) sample_config 100 100 rows (100 * 65635 + 65535).
Proof.
  intros rows script device Hh HF. constructor.
  - reflexivity.
  - exists (chars "image.png"), []. split; reflexivity.
  - exists (chars "c.json"), (write_config sample_config (mk_laser 256 256 5)), (mk_laser 256 256 5).
    split; [reflexivity|]. split; [reflexivity|]. apply C95_read. apply C95_write; [cbn [tps sample_config]; lia|]. cbn [max_intensity pwm_period alignment_intensity]. repeat constructor; lia.
  - cbn [tps sample_config]; lia.
  - unfold image_refused. intros [H|[H|[H|[H|[H|[H|H]]]]]]; destruct H as (t & E & _); discriminate E.
  - lia.
  - exact HF.
  - intros s (S1 & S2 & S3 & S4 & S5 & S6 & S7). unfold says, plain_order in S1, S2, S3, S4, S5, S6, S7. cbn [io_v_max io_a_max io_draw_speed io_intensity io_width io_height io_spot_diam] in S1, S2, S3, S4, S5, S6, S7.
    exists 30000, 30000, 384000, 384000, (mk_scan 1 196608 1 393216 12).
    rewrite S1, S2, S3, S4, S5, S6, S7. split; [exact sample_limits|]. split; [exact sample_scan_100|].
    cbn [v_x res_x res_y step_y]. lia.
Qed.

Example C134_no_device_example : forall fuel rows script, Z.of_nat (List.length rows) <= 100 ->
  (forall row, In row rows -> Z.of_nat (List.length row) <= 100 /\ forall p, In p row -> 0 <= p <= 255) ->
  image_raster_main fuel (image_world rows script) (plain_order None) [] = ([], Val Finished).
Proof.
  intros fuel rows script Hh HF. destruct (image_goes _ _ _ _ _ _ _ (plain_image_order rows script None Hh HF)) as (s & c & c' & _ & _ & _ & _ & _ & G).
  apply (G fuel (image_world rows script) eq_refl eq_refl). reflexivity.
Qed.

(** And each of them is sent to a controller that says that it is the time 100 and then OK to
    everything. *)
Example C134_sent_example : forall rows, Z.of_nat (List.length rows) <= 100 ->
  (forall row, In row rows -> Z.of_nat (List.length row) <= 100 /\ forall p, In p row -> 0 <= p <= 255) ->
  exists n tr, forall fuel, (List.length (oks n) < fuel)%nat ->
    image_raster_main fuel (image_world rows (oks n)) (plain_order (Some (chars "tty"))) [] = (tr, Val Finished).
Proof.
  intros rows Hh HF. destruct (C134_sent _ _ _ _ _ _ _ (chars "tty") (plain_image_order rows [] _ Hh HF) eq_refl) as (n & s & c & c' & _ & _ & _ & _ & G).
  exists n. apply (G (image_world rows (oks n)) (oks n) [49; 48; 48] 100 (repeat 0%nat n)); try reflexivity.
  - unfold oks. rewrite in_app_iff. intros [H|H]; [cbn in H; intuition discriminate|]. apply in_concat in H. destruct H as (l & L & H).
    apply List.repeat_spec in L. subst l. cbn in H. intuition discriminate.
  - clear. unfold oks. induction n as [|n IH]; [reflexivity|].
    cbn. cbn in IH. injection IH as IH. rewrite IH. reflexivity.
  - cbn. intuition discriminate.
  - apply repeat_length.
  - lia.
Qed.

(** Then each pixel that is not white gets its weight, 12 of 256 parts of its darkness. *)
Example C134_exposed_example : forall rows y x row g, Z.of_nat (List.length rows) <= 100 ->
  (forall row, In row rows -> Z.of_nat (List.length row) <= 100 /\ forall p, In p row -> 0 <= p <= 255) ->
  nth_error rows y = Some row -> nth_error row x = Some g -> g < 255 ->
  exists n tr fuel cmds now t, image_raster_main fuel (image_world rows (oks n)) (plain_order (Some (chars "tty"))) [] = (tr, Val Finished) /\
    commands tr cmds /\ forall m, m_weight (carried_out (now + 128) cmds (now + 128 + t) (machine0 m)) = Z.quot ((255 - g) * 12) 256.
Proof.
  intros rows y x row g Hh HF Ey Ex Hg. destruct (C134_sent_example rows Hh HF) as (n & tr & R).
  specialize (R (S (List.length (oks n))) (Nat.lt_succ_diag_r _)).
  destruct (C134_exposed _ _ _ _ _ _ _ _ _ _ (plain_image_order rows (oks n) _ Hh HF) eq_refl R) as (s & sc & cmds & r0 & replies & now & SA & SC & CM & _ & _ & EX).
  destruct SA as (S1 & S2 & S3 & S4 & S5 & S6 & S7). unfold says, plain_order in S1, S2, S3, S4, S5, S6, S7. cbn [io_v_max io_a_max io_draw_speed io_intensity io_width io_height io_spot_diam] in S1, S2, S3, S4, S5, S6, S7.
  rewrite S3, S4, S5, S6, S7 in SC. pose proof sample_scan_100 as SS. unfold default_spot in SS. fold (lit 2 10) in SS.
  change (black_weight 5) with 12 in SC. rewrite SS in SC. injection SC as <-.
  destruct (EX y x row g 0 Ey Ex Hg) as (t0 & T0 & _ & P); [cbn [res_y]; lia|]. cbn [res_x] in P.
  exists n, tr, (S (List.length (oks n))), cmds, now, t0. split; [exact R|]. split; [exact CM|].
  intros m. destruct (P t0 m ltac:(lia)) as [W _]. rewrite S4 in W. exact W.
Qed.

Print Assumptions C134_no_device.
Print Assumptions C134_sent.
Print Assumptions C134_exposed.
Print Assumptions C134_no_device_example.
Print Assumptions C134_sent_example.
Print Assumptions C134_exposed_example.
