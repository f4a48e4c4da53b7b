(** Properties C31-C35 and C67: the conversation with the controller.

    [written], [received], [lines], [cmd_exchange], [accepted], [at_times],
    [cmd_line], [decode_line] (ControlSpec.v) describe what is on the wire, from
    the history of the port alone.  The port is arbitrary in C31-C33. *)
From Coq Require Import ZArith List Bool Lia.
From Coq Require Import ZifyBool ZifyNat.
From Verif Require Import Base StepperContext StepperControl ControlSpec ControlProofs ControlLive.
Import ListNotations.
Open Scope Z_scope.

Lemma combine_log : forall (log : list (list Z * list Z)) a b,
  combine (map fst log ++ a) (map snd log ++ b) = log ++ combine a b.
Proof. induction log as [|[x y] log IH]; intros a b; cbn [map fst snd app combine]; [reflexivity|]. rewrite IH. reflexivity. Qed.

Lemma map_firstn : forall A B (f : A -> B) n l, map f (firstn n l) = firstn n (map f l).
Proof. intros A B f. induction n as [|n IH]; intros [|x l]; cbn; auto. rewrite IH. reflexivity. Qed.

(** The accepted commands are the first [k] events, at their absolute times. *)
Theorem C31_exactly_once_in_order : forall fuel p evs tr o,
  play_events fuel p evs [] = (tr, o) ->
  (accepted tr = [] /\ o <> Val tt) \/
  exists r0 t0 replies k, lines (received tr) = r0 :: replies /\ parse_i64 r0 = Some t0 /\
    (k <= length evs)%nat /\
    map decode_line (accepted tr) = map Some (firstn k (at_times (t0 + 128) evs)) /\
    (o = Val tt -> k = length evs).
Proof.
  intros fuel p evs tr o H. apply play_events_spec in H. destruct H as [H|H].
  - destruct H as (r0 & t0 & Ep & N & _ & H).
    destruct (run_lines _ _ _ _ (lines_ok _ _) N H) as (log & rem & ew & er & C & F & W & R & E).
    right. set (ls := map cmd_line (at_times (t0 + 128) evs)) in *.
    set (acc := map fst (filter (fun x => text_eqb (snd x) ok_text) log)).
    exists r0, t0, (map snd log ++ er), (length acc).
    pose proof (cf_accepted _ _ _ F) as FA. fold acc in FA.
    assert (Len : length ls = length evs).
    { unfold ls. rewrite map_length. generalize (t0 + 128). clear. induction evs; intros t; cbn; auto. }
    assert (AC : accepted tr = acc).
    { unfold accepted, cmd_exchange, exchange. rewrite W, R. cbn [combine tl]. rewrite combine_log, filter_app, map_app.
      fold acc. rewrite <- (app_nil_r acc) at 2. f_equal. clear - E.
      destruct E as [o _ _|l rest o Hr Ho|l rest r Hr H1 H2|l rest r Hr H1 H2]; cbn [combine filter snd]; try reflexivity;
        destruct (text_eqb_spec r ok_text); try congruence; reflexivity. }
    split; [exact R|]. split; [exact Ep|]. split.
    + rewrite <- Len, FA, app_length. lia.
    + split.
      * rewrite AC. assert (Q : acc = firstn (length acc) ls).
        { rewrite FA. rewrite firstn_app, Nat.sub_diag. cbn [firstn]. rewrite app_nil_r, firstn_all. reflexivity. }
        rewrite Q at 1. unfold ls. rewrite <- map_firstn, map_map. apply map_ext. apply decode_cmd_line.
      * intros ->. inversion E as [? Hd _| | |]; subst.
        -- rewrite (Hd eq_refl) in FA. rewrite app_nil_r in FA. rewrite <- Len, FA. reflexivity.
        -- match goal with K : _ \/ _ |- _ => destruct K; discriminate end.
  - left. destruct H as (Ho & Hw & Hr). split; [|destruct Ho as [-> | ->]; discriminate].
    unfold accepted, cmd_exchange, exchange.
    assert (K : (length (combine (lines (written tr)) (lines (received tr))) <= 1)%nat).
    { rewrite combine_length. lia. }
    destruct (combine _ _) as [|x [|y c]]; [reflexivity|reflexivity|cbn [length] in K; lia].
Qed.

(** The [i]-th command line sent, counted from 0, is the line of the event whose
    index is the number of OK replies among the first [i]; it was sent after those
    [i] replies.  The only other line ever sent is the reset, last. *)
Theorem C32_retry_same_line : forall fuel p evs tr o i l,
  play_events fuel p evs [] = (tr, o) ->
  nth_error (tl (lines (written tr))) i = Some l ->
  let replies := tl (lines (received tr)) in
  (i <= length replies)%nat /\
  (exists r0 t0, hd_error (lines (received tr)) = Some r0 /\ parse_i64 r0 = Some t0 /\
     nth_error (map cmd_line (at_times (t0 + 128) evs)) (count_ok (firstn i replies)) = Some l) \/
  (l = [82] /\ i = length replies /\ S i = length (tl (lines (written tr)))).
Proof.
  intros fuel p evs tr o i l H Hl replies. apply play_events_spec in H. destruct H as [H|H].
  - destruct H as (r0 & t0 & Ep & N & _ & H).
    destruct (run_lines _ _ _ _ (lines_ok _ _) N H) as (log & rem & ew & er & C & F & W & R & E).
    set (ls := map cmd_line (at_times (t0 + 128) evs)) in *.
    unfold replies. rewrite W in Hl |- *. rewrite R. cbn [tl hd_error] in *.
    assert (RM : forall l' rest, rem = l' :: rest -> nth_error ls (count_ok (map snd log)) = Some l').
    { intros l' rest Hr. pose proof (cf_rem _ _ _ F) as K. rewrite Hr in K. symmetry in K. apply skipn_cons in K. apply K. }
    destruct (lt_dec i (length log)) as [L|L].
    + left. rewrite nth_error_app1 in Hl by (rewrite map_length; lia). split; [rewrite app_length, map_length; lia|].
      exists r0, t0. split; [reflexivity|]. split; [exact Ep|].
      rewrite firstn_app, map_length. replace (i - length log)%nat with O by lia. cbn [firstn]. rewrite app_nil_r.
      apply (cf_sent _ _ _ F). exact Hl.
    + rewrite nth_error_app2 in Hl by (rewrite map_length; lia). rewrite map_length in Hl.
      assert (FN : firstn i (map snd log ++ er) = map snd log ++ firstn (i - length log) er).
      { rewrite firstn_app, map_length. f_equal. apply firstn_all2. rewrite map_length. lia. }
      destruct (i - length log)%nat as [|n] eqn:D.
      * left. split; [rewrite app_length, map_length; lia|]. exists r0, t0. split; [reflexivity|]. split; [exact Ep|].
        rewrite FN. cbn [firstn]. rewrite app_nil_r.
        destruct E as [o' _ _|l' rest o' Hr Ho|l' rest r Hr H1 H2|l' rest r Hr H1 H2]; cbn [nth_error] in Hl;
          try discriminate; injection Hl as <-; eauto.
      * right. destruct E as [o' _ _|l' rest o' Hr Ho|l' rest r Hr H1 H2|l' rest r Hr H1 H2]; cbn [nth_error] in Hl;
          try (destruct n; discriminate).
        destruct n as [|n]; cbn [nth_error] in Hl; [|destruct n; discriminate]. injection Hl as <-.
        split; [reflexivity|]. rewrite !app_length, !map_length. cbn [length]. lia.
  - exfalso. destruct H as (_ & [Hw|Hw] & _); rewrite Hw in Hl; vm_compute in Hl; destruct i; discriminate.
Qed.

(** An answer other than OK and queue-full is the last one read; the run returns
    it as an error, and the reset is the last line sent (unless sending it failed,
    which panics). *)
Theorem C33_error_aborts : forall fuel p evs tr o r,
  play_events fuel p evs [] = (tr, o) ->
  In r (tl (lines (received tr))) -> r <> ok_text -> r <> full_text ->
  (exists before, tl (lines (received tr)) = before ++ [r] /\
     Forall (fun x => x = ok_text \/ x = full_text) before) /\
  ((o = IoErr r /\ exists sent l, tl (lines (written tr)) = sent ++ [l; [82]] /\
      length (sent ++ [l]) = length (tl (lines (received tr)))) \/
   (o = Panics /\ length (tl (lines (written tr))) = length (tl (lines (received tr))))).
Proof.
  intros fuel p evs tr o r H Hr Hno Hnf. apply play_events_spec in H. destruct H as [H|H].
  - destruct H as (r0 & t0 & Ep & N & _ & H).
    destruct (run_lines _ _ _ _ (lines_ok _ _) N H) as (log & rem & ew & er & C & F & W & R & E).
    rewrite W, R in *. cbn [tl] in *. pose proof (cf_replies _ _ _ F) as FR.
    assert (Her : In r er).
    { apply in_app_or in Hr. destruct Hr as [Hr|Hr]; [|exact Hr]. rewrite Forall_forall in FR.
      apply FR in Hr. tauto. }
    destruct E as [o' _ _|l' rest o' Hrm Ho|l' rest r' Hrm H1 H2|l' rest r' Hrm H1 H2]; try contradiction;
      destruct Her as [->|[]]; (split; [eauto|]).
    + left. split; [reflexivity|]. exists (map fst log), l'. split; [reflexivity|].
      rewrite !app_length, !map_length. reflexivity.
    + right. split; [reflexivity|]. rewrite !app_length, !map_length. reflexivity.
  - exfalso. destruct H as (_ & _ & Hl). destruct (lines (received tr)) as [|a [|b c]]; cbn [tl length In] in *; auto; lia.
Qed.

(** C34: the wire format is decodable, hence injective. *)
Definition wire (cmds : list (Z * command)) : list Z := flat_map (fun x => format_cmd (fst x) (snd x)) cmds.

Theorem C34_wire_decodes : forall cmds, map decode_line (lines (wire cmds)) = map Some cmds.
Proof.
  intros cmds.
  assert (E : wire cmds = unlines (map cmd_line cmds)).
  { unfold wire, unlines. induction cmds as [|[t c] r IH]; cbn [flat_map map fst snd]; [reflexivity|].
    rewrite IH, format_is_line. reflexivity. }
  rewrite E, <- (app_nil_r (unlines _)), lines_unlines.
  - unfold lines at 1. cbn [lines_from]. rewrite app_nil_r, map_map. apply map_ext. apply decode_cmd_line.
  - apply Forall_map, Forall_forall. intros x _. apply line_no_nl.
Qed.

Theorem C34_wire_injective : forall a b, wire a = wire b -> a = b.
Proof.
  intros a b H. pose proof (C34_wire_decodes a) as Ea. rewrite H, C34_wire_decodes in Ea. clear H.
  revert b Ea. induction a as [|x a IH]; intros [|y b] E; cbn [map] in E; try discriminate; [reflexivity|].
  injection E as -> E. f_equal. apply IH. exact E.
Qed.

(** What send_cmds writes is the wire format of the events at their times. *)
Theorem C34_send_cmds_writes_wire : forall evs t s, cmds_text t evs = Ok s -> s = wire (at_times t evs).
Proof.
  induction evs as [|e r IH]; intros t s H; cbn [cmds_text] in H.
  - injection H as <-. reflexivity.
  - inv_bind H. apply chk_Ok in E. destruct E as [<- _]. injection H as <-. rewrite (IH _ _ E0). reflexivity.
Qed.

(** A decimal number: digits, at least one, after at most one sign. *)
Definition number_text (s : list Z) (n : Z) : Prop :=
  exists sign ds, s = sign ++ map (Z.add 48) ds /\ ds <> [] /\ Forall (fun d => 0 <= d <= 9) ds /\
    let v := fold_left (fun a d => 10 * a + d) ds 0 in
    ((sign = [] \/ sign = [43]) /\ n = v) \/ (sign = [45] /\ n = - v).

Lemma parse_digits_iff : forall s acc n, parse_digits acc s = Some n <->
  exists ds, s = map (Z.add 48) ds /\ Forall (fun d => 0 <= d <= 9) ds /\ n = fold_left (fun a d => 10 * a + d) ds acc.
Proof.
  induction s as [|c r IH]; intros acc n; cbn [parse_digits].
  - split; [intros H; injection H as <-; exists []; auto|]. intros ([|d ds] & E & _ & ->); [reflexivity|discriminate E].
  - unfold is_digit. split.
    + destruct (Z.leb_spec 48 c), (Z.leb_spec c 57); cbn [andb]; try discriminate. intros H1. apply IH in H1.
      destruct H1 as (ds & -> & F & ->). exists (c - 48 :: ds). split; [cbn [map]; f_equal; lia|]. split; [constructor; [lia|exact F]|reflexivity].
    + intros ([|d ds] & E & F & ->); [discriminate E|]. cbn [map] in E. inversion F as [|? ? Fd F']; subst.
      assert (EC : c = 48 + d) by congruence. assert (ER : r = map (Z.add 48) ds) by congruence. subst r. clear E.
      destruct (Z.leb_spec 48 c), (Z.leb_spec c 57); try lia. cbn [andb fold_left]. apply IH.
      exists ds. split; [reflexivity|]. split; [exact F'|]. do 2 f_equal. lia.
Qed.

Lemma parse_nat_iff : forall s n, parse_nat s = Some n <->
  exists ds, s = map (Z.add 48) ds /\ ds <> [] /\ Forall (fun d => 0 <= d <= 9) ds /\ n = fold_left (fun a d => 10 * a + d) ds 0.
Proof.
  intros s n. unfold parse_nat. destruct s as [|c r].
  - split; [discriminate|]. intros ([|d ds] & E & N & _); [congruence|discriminate E].
  - rewrite parse_digits_iff. split; intros (ds & A).
    + exists ds. destruct A as (A & B). split; [exact A|]. split; [intros ->; discriminate A|exact B].
    + exists ds. destruct A as (A & _ & B). auto.
Qed.

(** The numbers read from the controller and the command line: an integer text is
    accepted exactly when it is a decimal number in the range of i64. *)
Theorem C34_numbers : forall s n, parse_i64 s = Some n <-> number_text s n /\ - 2 ^ 63 <= n <= 2 ^ 63 - 1.
Proof.
  assert (P : forall s n, parse_int s = Some n <-> number_text s n).
  { intros s n. unfold number_text. split.
    - assert (PLAIN : forall s, parse_nat s = Some n -> number_text s n).
      { intros s0 H. apply parse_nat_iff in H. destruct H as (ds & -> & N & F & ->). exists [], ds. cbn zeta. auto 10. }
      intros H. destruct s as [|c r]; [discriminate H|].
      destruct (Z.eq_dec c 45) as [->|N45].
      + cbn [parse_int] in H. destruct (parse_nat r) as [m|] eqn:E; [|discriminate H]. injection H as <-.
        apply parse_nat_iff in E. destruct E as (ds & -> & N & F & ->). exists [45], ds. cbn zeta. auto 10.
      + destruct (Z.eq_dec c 43) as [->|N43].
        * cbn [parse_int] in H. apply parse_nat_iff in H. destruct H as (ds & -> & N & F & ->). exists [43], ds. cbn zeta. auto 10.
        * apply PLAIN. assert (E : parse_int (c :: r) = parse_nat (c :: r)); [|congruence].
          unfold parse_int. repeat (match goal with |- match ?x with _ => _ end = _ => destruct x end; try reflexivity; try congruence).
    - intros (sign & ds & -> & N & F & [[[-> | ->] ->]|[-> ->]]).
      + assert (E : parse_int ([] ++ map (Z.add 48) ds) = parse_nat (map (Z.add 48) ds)).
        { destruct ds as [|d ds]; [congruence|]. cbn [map app]. inversion F as [|? ? Fd _]; subst.
          assert (C : forall c, 48 <= c -> parse_int (c :: map (Z.add 48) ds) = parse_nat (c :: map (Z.add 48) ds)); [|apply C; lia].
          intros c Hc. unfold parse_int.
          repeat (match goal with |- match ?x with _ => _ end = _ => destruct x end; try reflexivity; try lia). }
        rewrite E. apply parse_nat_iff. eauto.
      + cbn [app parse_int]. apply parse_nat_iff. eauto.
      + cbn [app parse_int]. assert (E : parse_nat (map (Z.add 48) ds) = Some (fold_left (fun a d => 10 * a + d) ds 0)) by (apply parse_nat_iff; eauto).
        rewrite E. reflexivity. }
  intros s n. unfold parse_i64. rewrite <- P. split.
  - destruct (parse_int s) as [m|]; [|discriminate]. change i64_min with (- 2 ^ 63). change i64_max with (2 ^ 63 - 1).
    destruct (Z.leb_spec (- 2 ^ 63) m), (Z.leb_spec m (2 ^ 63 - 1)); cbn [andb]; try discriminate.
    intros E. injection E as <-. auto.
  - intros [-> [L H]]. change i64_min with (- 2 ^ 63). change i64_max with (2 ^ 63 - 1).
    destruct (Z.leb_spec (- 2 ^ 63) n), (Z.leb_spec n (2 ^ 63 - 1)); try lia. reflexivity.
Qed.

Example C34_example :
  wire (at_times 1000 [mk_event 5 (Acc 0 (-12)); mk_event 0 (Weight 255)]) =
  (* "A0,1005,-12\nL1005,255\n" *)
  [65; 48; 44; 49; 48; 48; 53; 44; 45; 49; 50; 10; 76; 49; 48; 48; 53; 44; 50; 53; 53; 10] /\
  parse_int [45; 49; 50] = Some (-12) /\ parse_i64 [43; 55] = Some 7 /\ parse_i64 [45] = None /\ parse_i64 [43; 45; 55] = None.
Proof. repeat split; reflexivity. Qed.

(** C35: any reply returned is the bytes up to the first newline; nothing more has
    been read; timeouts and empty reads are ignored; only a read error gives Err. *)
Theorem C35_reply_framing : forall fuel p tr tr' o,
  read_reply fuel p [] tr = (tr', o) ->
  exists gs, tr' = tr ++ gs /\ written gs = [] /\
  match o with
  | Val r => received gs = r ++ [10] /\ ~ In 10 r
  | IoErr _ => ~ In 10 (received gs) /\ exists gs', gs = gs' ++ [Got RFail]
  | Panics => False
  | Stuck => ~ In 10 (received gs) /\ length gs = fuel
  end.
Proof.
  assert (G : forall fuel p acc tr tr' o, read_reply fuel p acc tr = (tr', o) ->
    exists gs, tr' = tr ++ gs /\ (forall m, o = IoErr m -> exists gs', gs = gs' ++ [Got RFail]) /\
      (o = Stuck -> length gs = fuel)).
  { induction fuel as [|f IH]; intros p acc tr tr' o H; cbn [read_reply] in H.
    - injection H as <- <-. exists []. rewrite app_nil_r. split; [reflexivity|]. split; [discriminate|reflexivity].
    - assert (K : forall g acc', read_reply f p acc' (tr ++ [Got g]) = (tr', o) ->
        exists gs, tr' = tr ++ gs /\ (forall m, o = IoErr m -> exists gs', gs = gs' ++ [Got RFail]) /\
          (o = Stuck -> length gs = S f)).
      { intros g acc' Hr. apply IH in Hr. destruct Hr as (gs & -> & K1 & K2). exists (Got g :: gs).
        split; [rewrite <- app_assoc; reflexivity|]. split.
        - intros m Hm. destruct (K1 m Hm) as [gs' ->]. exists (Got g :: gs'). reflexivity.
        - intros Hs. cbn [length]. rewrite K2 by auto. reflexivity. }
      destruct (on_read p tr) as [b| | |]; eauto.
      + destruct (b =? 10); [|eauto]. injection H as <- <-. exists [Got (RByte b)]. repeat split; discriminate.
      + injection H as <- <-. exists [Got RFail]. split; [reflexivity|]. split; [|discriminate].
        intros m _. exists []. reflexivity. }
  intros fuel p tr tr' o H. pose proof (G _ _ _ _ _ _ H) as (gs1 & E1 & K1 & K2).
  apply read_reply_spec in H. destruct H as (gs & E & Ro & K).
  assert (gs1 = gs) by (apply (app_inv_head tr); congruence). subst gs1.
  exists gs. split; [exact E|]. split; [apply reads_written, Ro|].
  destruct o as [r|m| |].
  - destruct K as (l & -> & N & Eq). cbn [app]. split; [exact Eq|apply no_nl_in, N].
  - destruct K as [_ K]. split; [apply no_nl_in, K|eauto].
  - exact K.
  - split; [apply no_nl_in, K|auto].
Qed.

(** Every schedule that contains a newline before any read error yields the line,
    and leaves the rest of the schedule. *)
Theorem C35_reply_found : forall pre post fuel,
  ~ In RFail pre -> ~ In (RByte 10) pre -> (length pre < fuel)%nat ->
  let p := scripted (pre ++ RByte 10 :: post) in
  exists tr, read_reply fuel p [] [] = (tr, Val (bytes pre)) /\ reads_done tr = S (length pre).
Proof.
  assert (G : forall pre done post fuel tr acc, ~ In RFail pre -> ~ In (RByte 10) pre -> (length pre < fuel)%nat ->
    reads_done tr = length done ->
    exists tr', read_reply fuel (scripted (done ++ pre ++ RByte 10 :: post)) acc tr = (tr', Val (acc ++ bytes pre)) /\
      reads_done tr' = (length done + S (length pre))%nat).
  { induction pre as [|x pre IH]; intros done post fuel tr acc Hf Hn Hl Hd; (destruct fuel as [|fuel]; [lia|]);
      cbn [read_reply scripted on_read]; rewrite Hd, app_nth2, Nat.sub_diag by lia; cbn [app nth length] in *.
    - rewrite Z.eqb_refl. cbn [bytes]. rewrite app_nil_r. eexists. split; [reflexivity|].
      rewrite reads_done_app, Hd. reflexivity.
    - assert (IH' : forall g acc', exists tr', read_reply fuel (scripted (done ++ x :: pre ++ RByte 10 :: post)) acc' (tr ++ [Got g])
         = (tr', Val (acc' ++ bytes pre)) /\ reads_done tr' = (length done + S (S (length pre)))%nat).
      { intros g acc'. destruct (IH (done ++ [x]) post fuel (tr ++ [Got g]) acc') as (tr' & E & L); auto.
        - intros K; apply Hf; right; auto.
        - intros K; apply Hn; right; auto.
        - lia.
        - rewrite reads_done_app, Hd, app_length. reflexivity.
        - rewrite <- app_assoc in E. cbn [app] in E. exists tr'. split; [exact E|].
          rewrite L, app_length. cbn [length]. lia. }
      destruct x as [b| | |].
      + destruct (Z.eqb_spec b 10) as [->|]; [exfalso; apply Hn; left; reflexivity|].
        destruct (IH' (RByte b) (acc ++ [b])) as (tr' & E & L). exists tr'. split; [|exact L].
        rewrite E. cbn [bytes]. rewrite <- app_assoc. reflexivity.
      + exact (IH' REmpty acc).
      + exact (IH' RTimeout acc).
      + exfalso. apply Hf. left. reflexivity. }
  intros pre post fuel Hf Hn Hl p. destruct (G pre [] post fuel [] [] Hf Hn Hl eq_refl) as (tr & E & L).
  exists tr. split; [exact E|exact L].
Qed.

(** A port that never delivers a newline and never fails keeps it waiting. *)
Theorem C35_never_returns : forall p fuel tr,
  (forall tr, on_read p tr <> RByte 10 /\ on_read p tr <> RFail) ->
  exists tr', read_reply fuel p [] tr = (tr', Stuck).
Proof.
  intros p fuel tr H. generalize (@nil Z). revert tr.
  induction fuel as [|f IH]; intros tr acc; cbn [read_reply]; [eauto|].
  destruct (H tr) as [H1 H2]. destruct (on_read p tr) as [b| | |]; auto; [|congruence].
  destruct (Z.eqb_spec b 10) as [->|]; [congruence|]. apply IH.
Qed.

(** C67: with a controller that answers every command after finitely many
    queue-full replies, play_events returns Ok, however the replies are split and
    delayed; and giving it more fuel changes nothing. *)
Theorem C67_ends_with_ok : forall script evs r0 t0 ns,
  ~ In RFail script ->
  bytes script = unlines (r0 :: answers ns) -> ~ In 10 r0 ->
  parse_i64 r0 = Some t0 -> length ns = length evs ->
  i64_min <= t0 + 128 <= i64_max ->
  Forall (fun x => i64_min <= fst x <= i64_max) (at_times (t0 + 128) evs) ->
  exists tr, forall fuel, (length script < fuel)%nat ->
    play_events fuel (scripted script) evs [] = (tr, Val tt).
Proof.
  intros script evs r0 t0 ns Hf Hb Hr Hp Hn Ht Hts.
  set (fuel := S (length script)).
  assert (G : exists tr, play_events fuel (scripted script) evs [] = (tr, Val tt)).
  { unfold play_events, request_time. unfold io_bind at 1. unfold io_unwrap at 1. unfold io_bind at 1.
    unfold io_unwrap at 1, write_all at 1. cbn [scripted on_write app].
    unfold io_bind at 1.
    destruct (read_scripted script script r0 (unlines (answers ns)) [] [Wrote [84; 10]] fuel)
      as (gs & s' & E & R & K1 & K2 & K3 & K4); auto.
    - rewrite Hb. cbn [unlines flat_map]. rewrite <- app_assoc. reflexivity.
    - apply not_in_nl, Hr.
    - unfold fuel. lia.
    - unfold scripted in E |- *. rewrite E. cbn [app]. rewrite Hp. unfold ret at 1.
      unfold io_bind at 1, lift, chk_i64. rewrite chk_in by exact Ht.
      eapply (play_scripted script s' fuel (t0 + 128) [] evs ns); auto; unfold fuel; lia. }
  destruct G as [tr E]. exists tr. intros f Hfu.
  apply (play_events_more fuel f); auto; discriminate.
Qed.

Theorem C67_fuel_irrelevant : forall f f' p evs tr o, (f <= f')%nat ->
  play_events f p evs [] = (tr, o) -> o <> Stuck -> play_events f' p evs [] = (tr, o).
Proof. intros f f' p evs tr o Hf H Ho. exact (play_events_more f f' p evs Hf [] tr o H Ho). Qed.

(** Two events; the first is refused once; one timeout in the middle of a reply. *)
Definition sample_events := [mk_event 3 (Acc 0 7); mk_event 2 (Weight 9)].
Definition sample_script : list read_res :=
  map RByte [49; 48; 48; 10] ++ map RByte [69; 82] ++ [RTimeout; REmpty] ++ map RByte [82; 32; 49; 10] ++
  map RByte [79; 75; 10; 79; 75; 10].

Example control_example :
  bytes sample_script = unlines ([49; 48; 48] :: answers [1; 0]%nat) /\
  parse_i64 [49; 48; 48] = Some 100 /\
  exists tr, play_events 100 (scripted sample_script) sample_events [] = (tr, Val tt) /\
    map decode_line (accepted tr) = [Some (231, Acc 0 7); Some (233, Weight 9)] /\
    length (lines (written tr)) = 4%nat.
Proof. split; [reflexivity|]. split; [reflexivity|]. eexists. split; [vm_compute; reflexivity|]. split; reflexivity. Qed.

(** An error reply to the second command. *)
Example control_error_example :
  exists tr, play_events 100 (scripted (map RByte [49; 10; 79; 75; 10; 66; 65; 68; 10])) sample_events []
    = (tr, IoErr [66; 65; 68]) /\
    map decode_line (accepted tr) = [Some (132, Acc 0 7)] /\
    last (lines (written tr)) [] = [82].
Proof. eexists. split; [vm_compute; reflexivity|]. split; reflexivity. Qed.

Print Assumptions C31_exactly_once_in_order.
Print Assumptions C32_retry_same_line.
Print Assumptions C33_error_aborts.
Print Assumptions C34_wire_injective.
Print Assumptions C34_numbers.
Print Assumptions C35_reply_framing.
Print Assumptions C35_reply_found.
Print Assumptions C35_never_returns.
Print Assumptions C67_ends_with_ok.
