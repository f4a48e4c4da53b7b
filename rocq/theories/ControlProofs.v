(** Proofs about the conversation with the controller. *)
From Coq Require Import ZArith List Bool Lia.
From Coq Require Import ZifyBool ZifyNat.
From Verif Require Import Base StepperContext StepperControl ControlSpec.
Import ListNotations.
Open Scope Z_scope.

(** ** Decimal text *)

Lemma parse_digits_app : forall a b acc, parse_digits acc (a ++ b) =
  match parse_digits acc a with Some x => parse_digits x b | None => None end.
Proof.
  induction a as [|c a IH]; intros b acc; cbn [app parse_digits]; [reflexivity|].
  destruct (is_digit c); auto.
Qed.

Lemma digits_spec : forall fuel n, 0 <= n < 2 ^ Z.of_nat fuel -> (0 < fuel)%nat ->
  digits fuel n <> [] /\ Forall (fun c => 48 <= c <= 57) (digits fuel n) /\
  parse_digits 0 (digits fuel n) = Some n.
Proof.
  induction fuel as [|f IH]; intros n Hn Hf; [lia|]. cbn [digits].
  destruct (Z.ltb_spec n 10).
  - split; [discriminate|]. split; [repeat constructor; lia|].
    cbn [parse_digits]. unfold is_digit. destruct (Z.leb_spec 48 (48 + n)), (Z.leb_spec (48 + n) 57); try lia.
    cbn [andb]. f_equal. lia.
  - assert (P : 2 ^ Z.of_nat (S f) = 2 * 2 ^ Z.of_nat f).
    { rewrite Nat2Z.inj_succ, Z.pow_succ_r by lia. reflexivity. }
    pose proof (Z.div_mod n 10 ltac:(lia)) as D. pose proof (Z.mod_pos_bound n 10 ltac:(lia)) as B.
    set (q := n / 10) in *. set (r := n mod 10) in *. clearbody q r.
    assert (Hf0 : (0 < f)%nat).
    { destruct f; [|lia]. change (2 ^ Z.of_nat 0) with 1 in P. lia. }
    destruct (IH q ltac:(lia) Hf0) as (N & F & E).
    split; [intros K; apply app_eq_nil in K; destruct K; discriminate|].
    split; [apply Forall_app; split; [exact F|repeat constructor; lia]|].
    rewrite parse_digits_app, E. cbn [parse_digits]. unfold is_digit.
    destruct (Z.leb_spec 48 (48 + r)), (Z.leb_spec (48 + r) 57); try lia. cbn [andb]. f_equal. lia.
Qed.

Lemma show_nat_spec : forall n, 0 <= n ->
  show_nat n <> [] /\ Forall (fun c => 48 <= c <= 57) (show_nat n) /\ parse_nat (show_nat n) = Some n.
Proof.
  intros n Hn. unfold show_nat.
  assert (B : n < 2 ^ Z.of_nat (Z.to_nat (Z.log2 n) + 1)).
  { pose proof (Z.log2_nonneg n). rewrite Nat2Z.inj_add, Z2Nat.id by lia. cbn [Z.of_nat].
    destruct (Z.eq_dec n 0) as [->|]; [reflexivity|]. change (Z.of_nat 1) with 1.
    rewrite Z.add_1_r. apply Z.log2_spec. lia. }
  destruct (digits_spec (Z.to_nat (Z.log2 n) + 1) n ltac:(lia) ltac:(lia)) as (N & F & E).
  split; [exact N|]. split; [exact F|]. unfold parse_nat. destruct (digits _ n); [congruence|exact E].
Qed.

(** Characters of a printed number: digits and a minus sign. *)
Definition num_char (c : Z) : Prop := c = 45 \/ 48 <= c <= 57.

Lemma show_chars : forall n, Forall num_char (show n).
Proof.
  intros n. unfold show. destruct (Z.ltb_spec n 0).
  - destruct (show_nat_spec (- n) ltac:(lia)) as (_ & F & _). constructor; [left; reflexivity|].
    eapply Forall_impl; [|exact F]. intros c Hc. right. exact Hc.
  - destruct (show_nat_spec n ltac:(lia)) as (_ & F & _).
    eapply Forall_impl; [|exact F]. intros c Hc. right. exact Hc.
Qed.

Lemma parse_show : forall n, parse_int (show n) = Some n.
Proof.
  intros n. unfold show. destruct (Z.ltb_spec n 0).
  - destruct (show_nat_spec (- n) ltac:(lia)) as (_ & _ & E). cbn [parse_int]. rewrite E. cbn [option_map].
    f_equal. lia.
  - destruct (show_nat_spec n ltac:(lia)) as (N & F & E).
    destruct (show_nat n) as [|c r] eqn:S; [congruence|]. inversion F as [|? ? Hc _]; subst.
    unfold parse_int. rewrite <- E.
    destruct c as [|c|c]; try reflexivity. 
    repeat (destruct c as [c|c|]; try reflexivity; try lia).
Qed.

Lemma split_comma_app : forall a cur b, Forall num_char a ->
  split_comma cur (a ++ 44 :: b) = (cur ++ a) :: split_comma [] b.
Proof.
  induction a as [|c a IH]; intros cur b Ha; cbn [app split_comma].
  - cbn. rewrite app_nil_r. reflexivity.
  - inversion Ha as [|? ? Hc Ha']; subst. destruct (Z.eqb_spec c 44) as [->|Hne].
    + destruct Hc; lia.
    + rewrite IH by auto. rewrite <- app_assoc. reflexivity.
Qed.

Lemma split_comma_end : forall a cur, Forall num_char a -> split_comma cur a = [cur ++ a].
Proof.
  induction a as [|c a IH]; intros cur Ha; cbn [split_comma].
  - rewrite app_nil_r. reflexivity.
  - inversion Ha as [|? ? Hc Ha']; subst. destruct (Z.eqb_spec c 44) as [->|Hne].
    + destruct Hc; lia.
    + rewrite IH by auto. rewrite <- app_assoc. reflexivity.
Qed.

Lemma decode_cmd_line : forall x, decode_line (cmd_line x) = Some x.
Proof.
  intros [t [ch a|w]]; cbn [cmd_line snd fst decode_line join flat_map].
  - rewrite app_nil_r.
    change (show ch ++ (44 :: show t) ++ 44 :: show a) with (show ch ++ 44 :: (show t ++ 44 :: show a)).
    rewrite split_comma_app, split_comma_app, split_comma_end by apply show_chars. cbn [app].
    rewrite !parse_show. reflexivity.
  - rewrite app_nil_r.
    rewrite split_comma_app, split_comma_end by apply show_chars. cbn [app].
    rewrite !parse_show. reflexivity.
Qed.

Lemma format_is_line : forall t c, format_cmd t c = cmd_line (t, c) ++ [10].
Proof.
  intros t [ch a|w]; cbn [format_cmd cmd_line snd fst join flat_map app].
  - rewrite app_nil_r. f_equal. rewrite <- !app_assoc. cbn [app]. rewrite <- !app_assoc. reflexivity.
  - rewrite app_nil_r. f_equal. rewrite <- !app_assoc. reflexivity.
Qed.

Definition no_nl (s : list Z) : Prop := Forall (fun c => c <> 10) s.

Lemma num_no_nl : forall s, Forall num_char s -> no_nl s.
Proof. intros s H. eapply Forall_impl; [|exact H]. intros c [->|Hc]; lia. Qed.

Lemma line_no_nl : forall x, no_nl (cmd_line x).
Proof.
  intros [t [ch a|w]]; cbn [cmd_line snd fst join flat_map]; rewrite app_nil_r;
    repeat first [apply Forall_cons; [lia|]|apply Forall_app; split|apply num_no_nl, show_chars].
Qed.

(** ** Lines *)

Definition unlines (ls : list (list Z)) : list Z := flat_map (fun l => l ++ [10]) ls.

Lemma lines_from_line : forall l cur s, no_nl l -> lines_from cur (l ++ 10 :: s) = (cur ++ l) :: lines_from [] s.
Proof.
  induction l as [|c l IH]; intros cur s H; cbn [app lines_from].
  - rewrite Z.eqb_refl, app_nil_r. reflexivity.
  - inversion H; subst. destruct (Z.eqb_spec c 10); [congruence|]. rewrite IH by auto.
    rewrite <- app_assoc. reflexivity.
Qed.

Lemma lines_from_none : forall s cur, no_nl s -> lines_from cur s = [].
Proof.
  induction s as [|c s IH]; intros cur H; cbn [lines_from]; [reflexivity|].
  inversion H; subst. destruct (Z.eqb_spec c 10); [congruence|]. apply IH. auto.
Qed.

Lemma lines_unlines : forall ls s, Forall no_nl ls -> lines (unlines ls ++ s) = ls ++ lines s.
Proof.
  induction ls as [|l ls IH]; intros s H; [reflexivity|]. inversion H; subst.
  unfold unlines in *. cbn [flat_map]. unfold lines. rewrite <- !app_assoc. cbn [app].
  rewrite lines_from_line by auto. cbn [app]. f_equal. apply IH. auto.
Qed.

Lemma unlines_app : forall a b, unlines (a ++ b) = unlines a ++ unlines b.
Proof. intros. apply flat_map_app. Qed.

Lemma written_app : forall a b, written (a ++ b) = written a ++ written b.
Proof.
  induction a as [|[s|r] a IH]; intros b; cbn [app written]; auto. rewrite IH, app_assoc. reflexivity.
Qed.

Lemma received_app : forall a b, received (a ++ b) = received a ++ received b.
Proof.
  induction a as [|[s|[x| | |]] a IH]; intros b; cbn [app received]; auto. rewrite IH. reflexivity.
Qed.

(** ** read_reply *)

Definition reads_only (gs : list io_event) : Prop := Forall (fun e => match e with Got _ => True | _ => False end) gs.

Lemma reads_written : forall gs, reads_only gs -> written gs = [].
Proof. induction 1 as [|[s|r] gs H H' IH]; cbn [written]; auto. contradiction. Qed.

Lemma read_reply_spec : forall fuel p acc tr tr' o, read_reply fuel p acc tr = (tr', o) ->
  exists gs, tr' = tr ++ gs /\ reads_only gs /\
  match o with
  | Val r => exists l, r = acc ++ l /\ no_nl l /\ received gs = l ++ [10]
  | IoErr m => m = [] /\ no_nl (received gs)
  | Panics => False
  | Stuck => no_nl (received gs)
  end.
Proof.
  induction fuel as [|f IH]; intros p acc tr tr' o H; cbn [read_reply] in H.
  - injection H as <- <-. exists []. rewrite app_nil_r. repeat split; constructor.
  - destruct (on_read p tr) as [b| | |] eqn:Er.
    + destruct (Z.eqb_spec b 10) as [->|Hb].
      * injection H as <- <-. exists [Got (RByte 10)]. split; [reflexivity|]. split; [repeat constructor|].
        exists []. rewrite app_nil_r. repeat split. constructor.
      * apply IH in H. destruct H as (gs & -> & R & K). exists (Got (RByte b) :: gs).
        split; [rewrite <- app_assoc; reflexivity|]. split; [constructor; auto; exact I|].
        cbn [received]. destruct o as [r|m| |].
        -- destruct K as (l & -> & N & E). exists (b :: l). rewrite <- app_assoc, E.
           repeat split. constructor; auto.
        -- destruct K. split; auto. constructor; auto.
        -- contradiction.
        -- constructor; auto.
    + apply IH in H. destruct H as (gs & -> & R & K). exists (Got REmpty :: gs).
      split; [rewrite <- app_assoc; reflexivity|]. split; [constructor; auto; exact I|exact K].
    + apply IH in H. destruct H as (gs & -> & R & K). exists (Got RTimeout :: gs).
      split; [rewrite <- app_assoc; reflexivity|]. split; [constructor; auto; exact I|exact K].
    + injection H as <- <-. exists [Got RFail]. split; [reflexivity|]. split; [repeat constructor|split; constructor].
Qed.

Lemma text_eqb_spec : forall a b, reflect (a = b) (text_eqb a b).
Proof. intros a b. unfold text_eqb. destruct (list_eq_dec Z.eq_dec a b); constructor; auto. Qed.

(** ** play_events *)

Lemma no_nl_in : forall s, no_nl s -> ~ In 10 s.
Proof. intros s H K. unfold no_nl in H. rewrite Forall_forall in H. exact (H 10 K eq_refl). Qed.

Record talk (ls : list (list Z)) (r0 : list Z) (tr : list io_event) (log : list (list Z * list Z))
    (rem : list (list Z)) : Prop := {
  tk_conv : conversation ls log rem;
  tk_written : written tr = unlines ([84] :: map fst log);
  tk_received : received tr = unlines (r0 :: map snd log)
}.

Definition run_ends (ls : list (list Z)) (r0 : list Z) (tr' : list io_event) (o : outcome unit) : Prop :=
  exists log rem ew er, conversation ls log rem /\
    written tr' = unlines ([84] :: map fst log) ++ ew /\
    received tr' = unlines (r0 :: map snd log) ++ er /\
    ending rem o ew er.

Lemma refill_some : forall pending rest, (length pending <= 1)%nat ->
  match refill pending rest with
  | ([], r) => pending ++ rest = [] /\ r = []
  | ([e], r) => pending ++ rest = e :: r
  | _ => False
  end.
Proof.
  intros [|e [|e' p]] [|f r] H; cbn [refill length app] in *; auto; lia.
Qed.

Lemma play_loop_spec : forall ls r0 fuel p t pending rest tr tr' o log,
  (length pending <= 1)%nat ->
  talk ls r0 tr log (map cmd_line (at_times t (pending ++ rest))) ->
  play_loop fuel p t pending rest tr = (tr', o) -> run_ends ls r0 tr' o.
Proof.
  intros ls r0. induction fuel as [|f IH]; intros p t pending rest tr tr' o log Hl Htk H.
  { cbn [play_loop] in H. injection H as <- <-. destruct Htk as [C W R].
    exists log, (map cmd_line (at_times t (pending ++ rest))), [], []. rewrite !app_nil_r.
    repeat split; auto. apply end_stuck. }
  cbn [play_loop] in H. pose proof (refill_some pending rest Hl) as Hr.
  destruct (refill pending rest) as [[|e [|]] r]; [| |contradiction].
  { destruct Hr as [E ->]. unfold ret in H. injection H as <- <-. destruct Htk as [C W R]. rewrite E in C.
    exists log, [], [], []. rewrite !app_nil_r. repeat split; auto. apply end_done. reflexivity. }
  rewrite Hr in Htk. clear Hr. cbn [at_times map] in Htk. destruct Htk as [C W R].
  set (l := cmd_line (t + e_ticks e, e_cmd e)) in *.
  set (rem := map cmd_line (at_times (t + e_ticks e) r)) in *.
  unfold io_bind at 1 in H. unfold send_cmds, io_bind at 1, lift in H. cbn [cmds_text] in H.
  destruct (chk_i64 (t + e_ticks e)) as [t1| |] eqn:Et; cbn [bind] in H.
  2: { injection H as <- <-. exists log, (l :: rem), [], []. rewrite !app_nil_r. repeat split; auto. apply end_panic. }
  2: { unfold chk_i64, chk in Et. destruct (in_range _ _ _); discriminate. }
  apply chk_Ok in Et. destruct Et as [<- Et]. rewrite app_nil_r in H.
  unfold io_unwrap at 1, write_all at 1 in H. rewrite format_is_line in H. fold l in H.
  destruct (on_write p tr (l ++ [10])) eqn:Ew.
  2: { injection H as <- <-. exists log, (l :: rem), [], []. rewrite !app_nil_r. repeat split; auto. apply end_panic. }
  set (tr1 := tr ++ [Wrote (l ++ [10])]) in *.
  assert (W1 : written tr1 = unlines ([84] :: map fst log) ++ l ++ [10]).
  { unfold tr1. rewrite written_app, W. cbn [written]. rewrite app_nil_r. reflexivity. }
  assert (R1 : received tr1 = unlines (r0 :: map snd log)).
  { unfold tr1. rewrite received_app, R. cbn [received]. apply app_nil_r. }
  unfold io_bind at 1 in H. cbn [replies] in H. unfold io_bind at 1 in H.
  destruct (read_reply (S f) p [] tr1) as [tr2 o2] eqn:Er.
  apply read_reply_spec in Er. destruct Er as (gs & -> & Ro & K).
  assert (W2 : written (tr1 ++ gs) = unlines ([84] :: map fst log) ++ l ++ [10]).
  { rewrite written_app, (reads_written gs Ro), app_nil_r. exact W1. }
  assert (R2 : received (tr1 ++ gs) = unlines (r0 :: map snd log) ++ received gs).
  { rewrite received_app, R1. reflexivity. }
  set (tr2 := tr1 ++ gs) in *.
  destruct o2 as [rp|m| |].
  2: { injection H as <- <-. exists log, (l :: rem), (l ++ [10]), (received gs).
       destruct K as [-> K]. repeat split; auto. eapply end_read_error; [reflexivity|apply no_nl_in; exact K]. }
  2: contradiction.
  2: { injection H as <- <-. exists log, (l :: rem), (l ++ [10]), (received gs).
       repeat split; auto. eapply end_waiting; [reflexivity|apply no_nl_in; exact K]. }
  destruct K as (l' & -> & N & Eg). cbn [app] in *. rewrite Eg in R2.
  destruct (text_eqb_spec l' ok_text) as [->|Hno].
  - unfold io_bind at 1, ret at 1 in H. cbn [Z.eqb] in H. change (-1 =? -1) with true in H. cbv iota in H.
    unfold io_bind at 1, lift at 1 in H. unfold chk_i64 at 1 in H. rewrite chk_in in H by exact Et.
    unfold ret at 1 in H. change (-1 =? -1) with true in H. cbv iota in H.
    eapply IH; [| |exact H]; [cbn; lia|]. cbn [app]. fold rem.
    instantiate (1 := log ++ [(l, ok_text)]). split.
    + eapply conv_ok. exact C.
    + rewrite map_app. cbn [map fst]. rewrite app_comm_cons, unlines_app, W2. cbn [unlines flat_map].
      rewrite app_nil_r. reflexivity.
    + rewrite map_app. cbn [map snd]. rewrite app_comm_cons, unlines_app, R2. cbn [unlines flat_map].
      rewrite app_nil_r. reflexivity.
  - destruct (text_eqb_spec l' full_text) as [->|Hnf].
    + unfold io_bind at 1, ret at 1 in H. change (-1 <? 0) with true in H. cbv iota in H.
      change (as_i32 0) with 0 in H. change (0 =? -1) with false in H. cbv iota in H.
      unfold io_bind at 1, ret at 1 in H. unfold ret at 1 in H. change (0 =? -1) with false in H. cbv iota in H.
      change (skipn (Z.to_nat 0) [e]) with [e] in H.
      eapply IH; [| |exact H]; [cbn; lia|]. cbn [app at_times map]. fold l rem.
      instantiate (1 := log ++ [(l, full_text)]). split.
      * apply conv_full. exact C.
      * rewrite map_app. cbn [map fst]. rewrite app_comm_cons, unlines_app, W2. cbn [unlines flat_map].
        rewrite app_nil_r. reflexivity.
      * rewrite map_app. cbn [map snd]. rewrite app_comm_cons, unlines_app, R2. cbn [unlines flat_map].
        rewrite app_nil_r. reflexivity.
    + unfold io_bind at 1 in H. unfold io_bind at 1 in H. unfold io_unwrap, write_all in H.
      destruct (on_write p tr2 reset_text).
      * unfold fail in H. injection H as <- <-.
        exists log, (l :: rem), (l ++ [10] ++ reset_text), (l' ++ [10]). split; [exact C|]. split.
        { rewrite written_app, W2. cbn [written]. rewrite app_nil_r, <- !app_assoc. reflexivity. }
        split; [rewrite received_app, R2; cbn [received]; rewrite app_nil_r; reflexivity|].
        eapply end_error; eauto. apply no_nl_in, N.
      * injection H as <- <-. exists log, (l :: rem), (l ++ [10]), (l' ++ [10]).
        repeat split; auto. eapply end_error_unsent; eauto. apply no_nl_in, N.
Qed.

Definition started (evs : list event) (tr : list io_event) (o : outcome unit) : Prop :=
  exists r0 t0, parse_i64 r0 = Some t0 /\ no_nl r0 /\ i64_min <= t0 + 128 <= i64_max /\
    run_ends (map cmd_line (at_times (t0 + 128) evs)) r0 tr o.

(** No command was sent: no usable answer to the time request. *)
Definition not_started (tr : list io_event) (o : outcome unit) : Prop :=
  (o = Panics \/ o = Stuck) /\ (written tr = [] \/ written tr = [84; 10]) /\
  (length (lines (received tr)) <= 1)%nat.

Lemma play_events_spec : forall fuel p evs tr o, play_events fuel p evs [] = (tr, o) ->
  started evs tr o \/ not_started tr o.
Proof.
  intros fuel p evs tr o H. unfold play_events, request_time in H.
  unfold io_bind at 1 in H. unfold io_unwrap at 1 in H. unfold io_bind at 1 in H.
  unfold io_unwrap at 1, write_all at 1 in H.
  destruct (on_write p [] [84; 10]).
  2: { injection H as <- <-. right. split; [auto|]. split; [auto|]. cbn. lia. }
  cbn [app] in H. unfold io_bind at 1 in H.
  destruct (read_reply fuel p [] [Wrote [84; 10]]) as [tr1 o1] eqn:Er.
  apply read_reply_spec in Er. destruct Er as (gs & -> & Ro & K).
  assert (W : written ([Wrote [84; 10]] ++ gs) = [84; 10]).
  { rewrite written_app, (reads_written gs Ro). reflexivity. }
  assert (R : received ([Wrote [84; 10]] ++ gs) = received gs) by reflexivity.
  set (tr1 := [Wrote [84; 10]] ++ gs) in *. clearbody tr1.
  destruct o1 as [r0|m| |].
  2: { injection H as <- <-. right. split; [auto|]. split; [auto|]. rewrite R. unfold lines.
       rewrite lines_from_none by apply K. cbn. lia. }
  2: contradiction.
  2: { injection H as <- <-. right. split; [auto|]. split; [auto|]. rewrite R. unfold lines.
       rewrite lines_from_none by apply K. cbn. lia. }
  destruct K as (l & -> & N & E). cbn [app] in *.
  assert (L1 : lines (received tr1) = [l]).
  { rewrite R, E. unfold lines. rewrite lines_from_line by auto. reflexivity. }
  destruct (parse_i64 l) as [t0|] eqn:Ep.
  2: { unfold fail in H. injection H as <- <-. right. split; [auto|]. split; [auto|]. rewrite L1. cbn. lia. }
  unfold ret at 1 in H. unfold io_bind at 1, lift in H.
  destruct (chk_i64 (t0 + 128)) as [t1| |] eqn:Et.
  2: { injection H as <- <-. right. split; [auto|]. split; [auto|]. rewrite L1. cbn. lia. }
  2: { unfold chk_i64, chk in Et. destruct (in_range _ _ _); discriminate. }
  apply chk_Ok in Et. destruct Et as [<- Et]. left. exists l, t0.
  split; [exact Ep|]. split; [exact N|]. split; [exact Et|].
  eapply play_loop_spec with (log := []); [| |exact H]; [cbn; lia|]. cbn [app]. split.
  - constructor.
  - rewrite W. reflexivity.
  - rewrite R, E. cbn [map unlines flat_map]. rewrite app_nil_r. reflexivity.
Qed.

(** ** Conversations *)

Lemma count_ok_app : forall a b, count_ok (a ++ b) = (count_ok a + count_ok b)%nat.
Proof. intros. unfold count_ok. rewrite filter_app, app_length. reflexivity. Qed.

Lemma skipn_cons : forall A (l : list A) n x r, skipn n l = x :: r ->
  nth_error l n = Some x /\ skipn (S n) l = r.
Proof.
  intros A. induction l as [|y l IH]; intros [|n] x r H; cbn [skipn nth_error] in *; try discriminate.
  - injection H as -> ->. auto.
  - apply IH in H. exact H.
Qed.

Record conv_facts (ls : list (list Z)) (log : list (list Z * list Z)) (rem : list (list Z)) : Prop := {
  cf_rem : rem = skipn (count_ok (map snd log)) ls;
  cf_sent : forall i l, nth_error (map fst log) i = Some l ->
    nth_error ls (count_ok (firstn i (map snd log))) = Some l;
  cf_replies : Forall (fun r => r = ok_text \/ r = full_text) (map snd log);
  cf_accepted : ls = map fst (filter (fun x => text_eqb (snd x) ok_text) log) ++ rem;
  cf_from : Forall (fun l => In l ls) (map fst log)
}.

Lemma conv_step_sent : forall ls log l r rest,
  conv_facts ls log (l :: rest) ->
  forall i k, nth_error (map fst (log ++ [(l, r)])) i = Some k ->
    nth_error ls (count_ok (firstn i (map snd (log ++ [(l, r)])))) = Some k.
Proof.
  intros ls log l r rest [F1 F2 F3 F4 F5] i k H. rewrite !map_app in *. cbn [map fst snd] in *.
  destruct (lt_dec i (length log)) as [L|L].
  - rewrite nth_error_app1 in H by (rewrite map_length; lia).
    rewrite firstn_app, map_length. replace (i - length log)%nat with O by lia.
    cbn [firstn]. rewrite app_nil_r. apply F2, H.
  - rewrite nth_error_app2 in H by (rewrite map_length; lia). rewrite map_length in H.
    destruct (i - length log)%nat as [|n] eqn:D; cbn [nth_error] in H; [|destruct n; discriminate].
    injection H as <-. rewrite firstn_app, map_length, D. cbn [firstn]. rewrite app_nil_r.
    rewrite firstn_all2 by (rewrite map_length; lia). symmetry in F1. apply skipn_cons in F1. apply F1.
Qed.

Lemma ok_not_full : text_eqb full_text ok_text = false.
Proof. reflexivity. Qed.

Lemma conversation_facts : forall ls log rem, conversation ls log rem -> conv_facts ls log rem.
Proof.
  induction 1 as [ls|ls log l rest H IH|ls log l rest H IH].
  - constructor; cbn; auto. intros [|i] l K; discriminate.
  - pose proof (conv_step_sent _ _ _ full_text _ IH) as S. destruct IH as [F1 F2 F3 F4 F5]. constructor.
    + rewrite map_app, count_ok_app. cbn [map snd]. unfold count_ok at 2. cbn [filter].
      rewrite ok_not_full. cbn [length]. rewrite Nat.add_0_r. exact F1.
    + exact S.
    + rewrite map_app. apply Forall_app. split; [exact F3|]. cbn. auto.
    + rewrite filter_app. cbn [filter snd]. rewrite ok_not_full, app_nil_r. exact F4.
    + rewrite map_app. apply Forall_app. split; [exact F5|]. cbn. constructor; [|constructor].
      rewrite F4. apply in_or_app. right. left. reflexivity.
  - pose proof (conv_step_sent _ _ _ ok_text _ IH) as S. destruct IH as [F1 F2 F3 F4 F5]. constructor.
    + rewrite map_app, count_ok_app. cbn [map snd]. change (count_ok [ok_text]) with 1%nat.
      rewrite Nat.add_1_r. symmetry in F1. apply skipn_cons in F1. symmetry. apply F1.
    + exact S.
    + rewrite map_app. apply Forall_app. split; [exact F3|]. cbn. auto.
    + rewrite filter_app. cbn [filter snd]. change (text_eqb ok_text ok_text) with true. cbv iota.
      rewrite map_app. cbn [map fst]. rewrite <- app_assoc. exact F4.
    + rewrite map_app. apply Forall_app. split; [exact F5|]. cbn. constructor; [|constructor].
      rewrite F4. apply in_or_app. right. left. reflexivity.
Qed.

(** The lines seen on the wire at the end of a run. *)
Inductive wire_end (rem : list (list Z)) : outcome unit -> list (list Z) -> list (list Z) -> Prop :=
| we_none : forall o, (o = Val tt -> rem = []) -> (forall m, o <> IoErr m) -> wire_end rem o [] []
| we_wait : forall l rest o, rem = l :: rest -> o = Stuck \/ o = IoErr [] -> wire_end rem o [l] []
| we_error : forall l rest r, rem = l :: rest -> r <> ok_text -> r <> full_text ->
    wire_end rem (IoErr r) [l; [82]] [r]
| we_unsent : forall l rest r, rem = l :: rest -> r <> ok_text -> r <> full_text ->
    wire_end rem Panics [l] [r].

Lemma lines_line : forall l, no_nl l -> lines (l ++ [10]) = [l].
Proof. intros l H. unfold lines. rewrite lines_from_line by auto. reflexivity. Qed.

Lemma not_in_nl : forall s, ~ In 10 s -> no_nl s.
Proof. intros s H. apply Forall_forall. intros c Hc ->. auto. Qed.

Lemma ok_no_nl : no_nl ok_text /\ no_nl full_text.
Proof. split; repeat constructor; discriminate. Qed.

Lemma run_lines : forall ls r0 tr o, Forall no_nl ls -> no_nl r0 -> run_ends ls r0 tr o ->
  exists log rem ew er, conversation ls log rem /\ conv_facts ls log rem /\
    lines (written tr) = [84] :: map fst log ++ ew /\
    lines (received tr) = r0 :: map snd log ++ er /\
    wire_end rem o ew er.
Proof.
  intros ls r0 tr o Hls Hr0 (log & rem & ew & er & C & W & R & E).
  pose proof (conversation_facts _ _ _ C) as F.
  assert (NW : Forall no_nl ([84] :: map fst log)).
  { constructor; [repeat constructor; discriminate|]. rewrite Forall_forall in *. intros l Hl.
    pose proof (cf_from _ _ _ F) as K. rewrite Forall_forall in K. auto. }
  assert (NR : Forall no_nl (r0 :: map snd log)).
  { constructor; [exact Hr0|]. eapply Forall_impl; [|apply (cf_replies _ _ _ F)].
    intros r [->| ->]; apply ok_no_nl. }
  assert (NL : forall l rest, rem = l :: rest -> no_nl l).
  { intros l rest ->. rewrite Forall_forall in Hls. apply Hls. rewrite (cf_accepted _ _ _ F).
    apply in_or_app. right. left. reflexivity. }
  exists log, rem. rewrite W, R, !lines_unlines by auto.
  assert (G : wire_end rem o (lines ew) (lines er)).
  { clear W R. destruct E as [Hrem| | |l rest er Hrem Ner|l rest er Hrem Ner|l rest r Hrem N1 N2 N3|l rest r Hrem N1 N2 N3].
    - apply we_none; [auto|discriminate].
    - apply we_none; discriminate.
    - apply we_none; discriminate.
    - rewrite lines_line by eauto. unfold lines. rewrite lines_from_none by (apply not_in_nl; auto).
      eapply we_wait; eauto.
    - rewrite lines_line by eauto. unfold lines. rewrite lines_from_none by (apply not_in_nl; auto).
      eapply we_wait; eauto.
    - rewrite lines_line by (apply not_in_nl; auto).
      assert (X : lines (l ++ [10] ++ reset_text) = [l; [82]]).
      { unfold lines. cbn [app]. rewrite lines_from_line by eauto. reflexivity. }
      rewrite X. eapply we_error; eauto.
    - rewrite !lines_line by (eauto; apply not_in_nl; auto). eapply we_unsent; eauto. }
  exists (lines ew), (lines er). split; [exact C|]. split; [exact F|]. split; [reflexivity|].
  split; [reflexivity|exact G].
Qed.

Lemma lines_ok : forall t evs, Forall no_nl (map cmd_line (at_times t evs)).
Proof. intros t evs. apply Forall_map, Forall_forall. intros x _. apply line_no_nl. Qed.
