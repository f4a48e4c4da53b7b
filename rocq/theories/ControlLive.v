(** Fuel does not matter once a run ends, and runs against a controller that
    answers do end. *)
From Coq Require Import ZArith List Bool Lia.
From Coq Require Import ZifyBool ZifyNat.
From Verif Require Import Base StepperContext StepperControl ControlSpec ControlProofs.
Import ListNotations.
Open Scope Z_scope.

(** ** Fuel *)

(** [m'] agrees with [m] wherever [m] is not stuck. *)
Definition extends {A} (m m' : io A) : Prop :=
  forall tr tr' o, m tr = (tr', o) -> o <> Stuck -> m' tr = (tr', o).

Lemma extends_refl : forall A (m : io A), extends m m.
Proof. intros A m tr tr' o H _. exact H. Qed.

Lemma extends_bind : forall A B (m m' : io A) (f f' : A -> io B),
  extends m m' -> (forall a, extends (f a) (f' a)) -> extends (io_bind m f) (io_bind m' f').
Proof.
  intros A B m m' f f' Hm Hf tr tr' o H Ho. unfold io_bind in *.
  destruct (m tr) as [tr1 o1] eqn:E.
  destruct o1 as [a|e| |]; [rewrite (Hm _ _ _ E) by discriminate; eapply Hf; eauto
    |rewrite (Hm _ _ _ E) by discriminate; exact H|rewrite (Hm _ _ _ E) by discriminate; exact H|].
  injection H as <- <-. congruence.
Qed.

Lemma extends_unwrap : forall A (m m' : io A), extends m m' -> extends (io_unwrap m) (io_unwrap m').
Proof.
  intros A m m' Hm tr tr' o H Ho. unfold io_unwrap in *. destruct (m tr) as [tr1 o1] eqn:E.
  rewrite (Hm _ _ _ E); [exact H|]. intros ->. injection H as <- <-. congruence.
Qed.

Lemma read_reply_more : forall f f' p acc, (f <= f')%nat -> extends (read_reply f p acc) (read_reply f' p acc).
Proof.
  induction f as [|f IH]; intros f' p acc Hf tr tr' o H Ho; cbn [read_reply] in H.
  - injection H as <- <-. congruence.
  - destruct f' as [|f']; [lia|]. cbn [read_reply].
    destruct (on_read p tr) as [b| | |]; try (eapply IH; eauto; lia); try exact H.
    destruct (b =? 10); [exact H|]. eapply IH; eauto; lia.
Qed.

Lemma replies_more : forall f f' p pending i ff t, (f <= f')%nat ->
  extends (replies f p i pending ff t) (replies f' p i pending ff t).
Proof.
  induction pending as [|e r IH]; intros i ff t Hf; cbn [replies]; [apply extends_refl|].
  apply extends_bind; [apply read_reply_more; auto|]. intros rp.
  apply extends_bind; [apply extends_refl|]. intros ff'.
  apply extends_bind; [apply extends_refl|]. intros t'. apply IH. exact Hf.
Qed.

Lemma play_loop_more : forall f f' p t pending rest, (f <= f')%nat ->
  extends (play_loop f p t pending rest) (play_loop f' p t pending rest).
Proof.
  induction f as [|f IH]; intros f' p t pending rest Hf.
  - intros tr tr' o H Ho. cbn [play_loop] in H. injection H as <- <-. congruence.
  - destruct f' as [|f']; [lia|]. cbn [play_loop]. destruct (refill pending rest) as [[|e pd] r]; [apply extends_refl|].
    apply extends_bind; [apply extends_refl|]. intros _.
    apply extends_bind; [apply replies_more; lia|]. intros [ff t'].
    destruct (ff =? -1); apply IH; lia.
Qed.

Lemma play_events_more : forall f f' p evs, (f <= f')%nat ->
  extends (play_events f p evs) (play_events f' p evs).
Proof.
  intros f f' p evs Hf. unfold play_events. apply extends_bind.
  - apply extends_unwrap. unfold request_time. apply extends_bind; [apply extends_refl|]. intros _.
    apply extends_bind; [apply read_reply_more; auto|]. intros r. apply extends_refl.
  - intros t. apply extends_bind; [apply extends_refl|]. intros t'. apply play_loop_more. exact Hf.
Qed.

(** ** A port that plays a script of reads *)

Fixpoint reads_done (tr : list io_event) : nat :=
  match tr with
  | [] => O
  | Got _ :: r => S (reads_done r)
  | Wrote _ :: r => reads_done r
  end.

(** Every write succeeds; reads deliver the script and time out after its end. *)
Definition scripted (script : list read_res) : port :=
  mk_port (fun tr => nth (reads_done tr) script RTimeout) (fun _ _ => true).

Fixpoint bytes (script : list read_res) : list Z :=
  match script with
  | [] => []
  | RByte b :: r => b :: bytes r
  | _ :: r => bytes r
  end.

Lemma reads_done_app : forall a b, reads_done (a ++ b) = (reads_done a + reads_done b)%nat.
Proof. induction a as [|[s|r] a IH]; intros b; cbn [app reads_done]; auto. rewrite IH. reflexivity. Qed.

Lemma skipn_nth : forall A (l : list A) n x r d, skipn n l = x :: r -> nth n l d = x.
Proof.
  intros A. induction l as [|y l IH]; intros [|n] x r d H; cbn [skipn nth] in *; try discriminate.
  - congruence.
  - eapply IH; eauto.
Qed.

Lemma read_scripted : forall s script l more acc tr fuel,
  skipn (reads_done tr) script = s -> bytes s = l ++ 10 :: more -> no_nl l ->
  ~ In RFail s -> (length s <= fuel)%nat ->
  exists gs s', read_reply fuel (scripted script) acc tr = (tr ++ gs, Val (acc ++ l)) /\
    reads_only gs /\
    skipn (reads_done (tr ++ gs)) script = s' /\ bytes s' = more /\ ~ In RFail s' /\
    (length s' < length s)%nat.
Proof.
  induction s as [|x s IH]; intros script l more acc tr fuel Hs Hb Hl Hf Hn.
  - destruct l; discriminate.
  - destruct fuel as [|fuel]; [cbn [length] in Hn; lia|]. cbn [read_reply scripted on_read].
    rewrite (skipn_nth _ _ _ _ _ RTimeout Hs).
    assert (Hs' : forall g, skipn (reads_done (tr ++ [Got g])) script = s).
    { intros g. rewrite reads_done_app. cbn [reads_done]. rewrite Nat.add_1_r.
      apply skipn_cons in Hs. apply Hs. }
    assert (Hf' : ~ In RFail s) by (intros K; apply Hf; right; exact K).
    cbn [length] in Hn.
    destruct x as [b| | |].
    + cbn [bytes] in Hb. destruct l as [|c l]; cbn [app] in Hb; injection Hb as Hb1 Hb2.
      * subst b. rewrite Z.eqb_refl. exists [Got (RByte 10)], s. rewrite app_nil_r. split; [reflexivity|].
        split; [repeat constructor|]. split; [apply Hs'|]. split; [exact Hb2|]. split; [exact Hf'|]. cbn [length]. lia.
      * subst c. inversion Hl as [|? ? H1 H2]; subst. destruct (Z.eqb_spec b 10); [congruence|].
        destruct (IH script l more (acc ++ [b]) (tr ++ [Got (RByte b)]) fuel) as (gs & s' & E & R & K1 & K2 & K3 & K4);
          auto; [lia|].
        rewrite E. exists (Got (RByte b) :: gs), s'.
        rewrite <- !app_assoc in *. cbn [app] in *.
        split; [reflexivity|]. split; [constructor; [exact I|exact R]|]. repeat split; auto. cbn [length]. lia.
    + destruct (IH script l more acc (tr ++ [Got REmpty]) fuel) as (gs & s' & E & R & K1 & K2 & K3 & K4); auto; [lia|].
      rewrite E. exists (Got REmpty :: gs), s'. rewrite <- !app_assoc in *. cbn [app] in *.
      split; [reflexivity|]. split; [constructor; [exact I|exact R]|]. repeat split; auto. cbn [length]. lia.
    + destruct (IH script l more acc (tr ++ [Got RTimeout]) fuel) as (gs & s' & E & R & K1 & K2 & K3 & K4); auto; [lia|].
      rewrite E. exists (Got RTimeout :: gs), s'. rewrite <- !app_assoc in *. cbn [app] in *.
      split; [reflexivity|]. split; [constructor; [exact I|exact R]|]. repeat split; auto. cbn [length]. lia.
    + exfalso. apply Hf. left. reflexivity.
Qed.

(** Replies for one command: "ERR 1" (queue full) some number of times, then "OK". *)
Definition answers (ns : list nat) : list (list Z) :=
  flat_map (fun n => repeat [69; 82; 82; 32; 49] n ++ [[79; 75]]) ns.

Lemma play_scripted : forall script s fuel t pending rest ns tr,
  (length pending <= 1)%nat -> length ns = length (pending ++ rest) ->
  skipn (reads_done tr) script = s -> bytes s = unlines (answers ns) -> ~ In RFail s ->
  (length s < fuel)%nat ->
  Forall (fun x => i64_min <= fst x <= i64_max) (at_times t (pending ++ rest)) ->
  exists tr', play_loop fuel (scripted script) t pending rest tr = (tr', Val tt).
Proof.
  intros script s. remember (length s) as n eqn:En. revert s En.
  induction n as [n IH] using lt_wf_ind.
  intros s -> fuel t pending rest ns tr Hp Hns Hs Hb Hf Hfu Ht.
  destruct fuel as [|fuel]; [lia|]. cbn [play_loop].
  pose proof (refill_some pending rest Hp) as Hr.
  destruct (refill pending rest) as [[|e [|]] r]; [| |contradiction].
  { exists tr. reflexivity. }
  rewrite Hr in *. clear Hr pending rest Hp. cbn [at_times] in Ht. pose proof (Forall_inv Ht) as T1; pose proof (Forall_inv_tail Ht) as T2.
  cbn [fst] in T1.
  unfold io_bind at 1. unfold send_cmds, io_bind at 1, lift. cbn [cmds_text].
  unfold chk_i64. rewrite chk_in by exact T1. cbn [bind].
  unfold io_unwrap at 1, write_all at 1. cbn [scripted on_write].
  set (tr1 := tr ++ [Wrote _]).
  assert (Hs1 : skipn (reads_done tr1) script = s).
  { unfold tr1. rewrite reads_done_app. cbn [reads_done]. rewrite Nat.add_0_r. exact Hs. }
  clearbody tr1.
  destruct ns as [|k ns]; [discriminate|]. cbn [length] in Hns.
  unfold io_bind at 1. cbn [replies]. unfold io_bind at 1.
  destruct k as [|k].
  - cbn [answers flat_map repeat app] in Hb. change (flat_map _ ns) with (answers ns) in Hb.
    assert (Hb' : bytes s = ok_text ++ 10 :: unlines (answers ns)).
    { rewrite Hb. reflexivity. }
    destruct (read_scripted s script ok_text (unlines (answers ns)) [] tr1 (S fuel) Hs1 Hb' (proj1 ok_no_nl) Hf)
      as (gs & s' & E & R & K1 & K2 & K3 & K4); [lia|].
    rewrite E. cbn [app]. change (text_eqb ok_text ok_text) with true. cbv iota.
    unfold io_bind at 1, ret at 1. change (-1 =? -1) with true. cbv iota.
    unfold io_bind at 1, lift at 1. unfold chk_i64 at 1. rewrite chk_in by exact T1.
    unfold ret at 1. change (-1 =? -1) with true. cbv iota.
    destruct (IH (length s') K4 s' eq_refl fuel (t + e_ticks e) [] r ns (tr1 ++ gs)) as [tr' E']; auto; try lia.
    exists tr'. exact E'.
  - assert (Hb' : bytes s = full_text ++ 10 :: unlines (answers (k :: ns))).
    { rewrite Hb. reflexivity. }
    destruct (read_scripted s script full_text (unlines (answers (k :: ns))) [] tr1 (S fuel) Hs1 Hb' (proj2 ok_no_nl) Hf)
      as (gs & s' & E & R & K1 & K2 & K3 & K4); [lia|].
    rewrite E. cbn [app]. change (text_eqb full_text ok_text) with false.
    change (text_eqb full_text full_text) with true. cbv iota.
    unfold io_bind at 1, ret at 1. change (-1 <? 0) with true. cbv iota.
    change (as_i32 0) with 0. change (0 =? -1) with false. cbv iota.
    unfold io_bind at 1, ret at 1. unfold ret at 1. change (0 =? -1) with false. cbv iota.
    change (skipn (Z.to_nat 0) [e]) with [e].
    destruct (IH (length s') K4 s' eq_refl fuel t [e] r (k :: ns) (tr1 ++ gs)) as [tr' E']; auto; try lia.
    exists tr'. exact E'.
Qed.
