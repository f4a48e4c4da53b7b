(** Lemmas on executing event streams. *)
From Coq Require Import ZArith List Bool Lia.
From Coq Require Import ZifyBool ZifyNat.
From Verif Require Import Base AccVector MotionSpec AccVectorProofs StepperContext MachineSpec.
Import ListNotations.
Open Scope Z_scope.

Definition nonneg (evs : list event) : Prop := Forall (fun e => 0 <= e_ticks e) evs.

Definition adv (n : Z) (s : axis_state) : axis_state :=
  mk_axis (s_pos s + 2 * s_v s * n + s_acc s * n * n) (s_v s + s_acc s * n) (s_acc s).

Lemma axis_eq : forall s t, s_pos s = s_pos t -> s_v s = s_v t -> s_acc s = s_acc t -> s = t.
Proof. intros [] []; cbn; intros; subst; reflexivity. Qed.

Lemma adv_0 : forall s, adv 0 s = s.
Proof. intros s. apply axis_eq; cbn [adv s_pos s_v s_acc]; lia. Qed.

Lemma adv_add : forall n m s, adv n (adv m s) = adv (m + n) s.
Proof. intros n m s. apply axis_eq; unfold adv; cbn [s_pos s_v s_acc]; ring. Qed.

Lemma adv_tick : forall s, axis_tick s = adv 1 s.
Proof. intros s. apply axis_eq; unfold adv, axis_tick; cbn [s_pos s_v s_acc]; lia. Qed.

Lemma machine_eq : forall m m', (forall i, machine_axis m i = machine_axis m' i) ->
  m_weight m = m_weight m' -> m = m'.
Proof.
  intros [x y w] [x' y' w'] H E. pose proof (H AX) as Hx. pose proof (H AY) as Hy.
  cbn in *. subst. reflexivity.
Qed.

Lemma wait_axis : forall n m i, machine_axis (wait n m) i = adv (Z.of_nat n) (machine_axis m i).
Proof.
  induction n as [|n IH]; intros m i; cbn [wait].
  - rewrite adv_0. reflexivity.
  - rewrite IH. assert (E : machine_axis (machine_tick m) i = adv 1 (machine_axis m i)).
    { destruct i; cbn [machine_axis machine_tick m_x m_y]; apply adv_tick. }
    rewrite E, adv_add. f_equal. lia.
Qed.

Lemma wait_weight : forall n m, m_weight (wait n m) = m_weight m.
Proof. induction n as [|n IH]; intros m; cbn [wait]; [reflexivity|]. rewrite IH. reflexivity. Qed.

(** One channel on its own. *)
Definition apply_axis (i : axis) (cmd : command) (s : axis_state) : axis_state :=
  match cmd with
  | Acc ch a => if ch =? axis_index i then mk_axis (s_pos s) (s_v s) a else s
  | Weight _ => s
  end.

Fixpoint play_axis (i : axis) (evs : list event) (t : Z) (s : axis_state) : axis_state :=
  match evs with
  | [] => adv t s
  | e :: rest =>
      if e_ticks e <=? t
      then play_axis i rest (t - e_ticks e) (apply_axis i (e_cmd e) (adv (e_ticks e) s))
      else adv t s
  end.

Lemma apply_cmd_axis : forall cmd m i,
  machine_axis (apply_cmd cmd m) i = apply_axis i cmd (machine_axis m i).
Proof.
  intros [ch a|w] m i; cbn [apply_cmd apply_axis].
  - destruct (Z.eqb_spec ch 0); [subst|destruct (Z.eqb_spec ch 1); [subst|]];
      destruct i; cbn [axis_index]; try reflexivity.
    + destruct (Z.eqb_spec ch 0); [lia|reflexivity].
    + destruct (Z.eqb_spec ch 1); [lia|reflexivity].
  - destruct i; reflexivity.
Qed.

Lemma play_axis_ok : forall evs t m i, 0 <= t -> nonneg evs ->
  machine_axis (play evs t m) i = play_axis i evs t (machine_axis m i).
Proof.
  induction evs as [|e rest IH]; intros t m i Ht Hn; cbn [play play_axis].
  - rewrite wait_axis. f_equal. lia.
  - inversion Hn; subst. destruct (Z.leb_spec (e_ticks e) t).
    + rewrite IH by (auto; lia). rewrite apply_cmd_axis, wait_axis. do 3 f_equal. lia.
    + rewrite wait_axis. f_equal. lia.
Qed.

(** The laser on its own. *)
Fixpoint play_weight (evs : list event) (t : Z) (w : Z) : Z :=
  match evs with
  | [] => w
  | e :: rest =>
      if e_ticks e <=? t
      then play_weight rest (t - e_ticks e) (match e_cmd e with Weight w' => w' | Acc _ _ => w end)
      else w
  end.

Lemma play_weight_ok : forall evs t m, m_weight (play evs t m) = play_weight evs t (m_weight m).
Proof.
  induction evs as [|e rest IH]; intros t m; cbn [play play_weight].
  - apply wait_weight.
  - destruct (Z.leb_spec (e_ticks e) t).
    + rewrite IH. f_equal. destruct (e_cmd e) as [ch a|w]; cbn [apply_cmd m_weight]; [|reflexivity].
      destruct (ch =? 0), (ch =? 1); cbn [m_weight]; apply wait_weight.
    + apply wait_weight.
Qed.

Lemma total_app : forall a b, total (a ++ b) = total a + total b.
Proof. induction a as [|e r IH]; intros b; cbn [app total]; [lia|rewrite IH; lia]. Qed.

Lemma total_nonneg : forall evs, nonneg evs -> 0 <= total evs.
Proof. induction 1; cbn [total]; lia. Qed.

(** Appending one event. *)
Lemma play_axis_snoc : forall i evs e t s, nonneg evs -> 0 <= e_ticks e -> 0 <= t ->
  play_axis i (evs ++ [e]) t s =
  let T := total evs + e_ticks e in
  if T <=? t then adv (t - T) (apply_axis i (e_cmd e) (play_axis i evs T s))
  else play_axis i evs t s.
Proof.
  intros i evs e. induction evs as [|f rest IH]; intros t s Hn He Ht; cbn [app play_axis total]; cbv zeta.
  - rewrite Z.add_0_l. reflexivity.
  - inversion Hn; subst. pose proof (total_nonneg rest ltac:(auto)).
    destruct (Z.leb_spec (e_ticks f) t) as [L|L].
    + rewrite IH by (auto; lia). cbv zeta.
      destruct (Z.leb_spec (total rest + e_ticks e) (t - e_ticks f)),
               (Z.leb_spec (e_ticks f + total rest + e_ticks e) t); try lia; [|reflexivity].
      destruct (Z.leb_spec (e_ticks f) (e_ticks f + total rest + e_ticks e)); [|lia].
      replace (e_ticks f + total rest + e_ticks e - e_ticks f) with (total rest + e_ticks e) by lia.
      f_equal. lia.
    + destruct (Z.leb_spec (e_ticks f + total rest + e_ticks e) t); [lia|reflexivity].
Qed.

Lemma play_axis_late : forall i evs t u s, nonneg evs -> total evs <= t -> 0 <= u ->
  play_axis i evs (t + u) s = adv u (play_axis i evs t s).
Proof.
  intros i. induction evs as [|f rest IH]; intros t u s Hn Ht Hu; cbn [play_axis total] in *.
  - rewrite adv_add. reflexivity.
  - inversion Hn; subst. pose proof (total_nonneg rest ltac:(auto)).
    destruct (Z.leb_spec (e_ticks f) (t + u)); [|lia]. destruct (Z.leb_spec (e_ticks f) t); [|lia].
    rewrite <- IH by (auto; lia). f_equal. lia.
Qed.

Lemma play_weight_snoc : forall evs e t w, nonneg evs -> 0 <= e_ticks e ->
  play_weight (evs ++ [e]) t w =
  if total evs + e_ticks e <=? t
  then match e_cmd e with Weight w' => w' | Acc _ _ => play_weight evs t w end
  else play_weight evs t w.
Proof.
  intros evs e. induction evs as [|f rest IH]; intros t w Hn He; cbn [app play_weight total].
  - rewrite Z.add_0_l. reflexivity.
  - inversion Hn; subst. pose proof (total_nonneg rest ltac:(auto)).
    destruct (Z.leb_spec (e_ticks f) t) as [L|L].
    + rewrite IH by auto.
      destruct (Z.leb_spec (total rest + e_ticks e) (t - e_ticks f)),
               (Z.leb_spec (e_ticks f + total rest + e_ticks e) t); try lia; reflexivity.
    + destruct (Z.leb_spec (e_ticks f + total rest + e_ticks e) t); [lia|reflexivity].
Qed.

(** Motion of one channel only: position and velocity at a time. *)
Definition motion (i : axis) (evs : list event) (t : Z) : Z * Z :=
  let s := play_axis i evs t (mk_axis 0 0 0) in (s_pos s, s_v s).

Lemma motion_other : forall i evs e t, nonneg evs -> 0 <= e_ticks e -> 0 <= t ->
  (forall s, apply_axis i (e_cmd e) s = s) ->
  motion i (evs ++ [e]) t = motion i evs t.
Proof.
  intros i evs e t Hn He Ht Hc. unfold motion. rewrite play_axis_snoc by auto. cbv zeta.
  destruct (Z.leb_spec (total evs + e_ticks e) t); [|reflexivity].
  rewrite Hc, <- play_axis_late by (auto; lia).
  replace (total evs + e_ticks e + (t - (total evs + e_ticks e))) with t by lia. reflexivity.
Qed.

Lemma motion_acc : forall i evs e a n, nonneg evs -> 0 <= e_ticks e -> 0 <= n ->
  e_cmd e = Acc (axis_index i) a ->
  let T := total evs + e_ticks e in
  motion i (evs ++ [e]) (T + n) =
  (fst (motion i evs T) + 2 * snd (motion i evs T) * n + a * n * n, snd (motion i evs T) + a * n).
Proof.
  intros i evs e a n Hn He Hp Hc T. unfold motion. pose proof (total_nonneg evs Hn).
  rewrite play_axis_snoc by (auto; lia). cbv zeta. fold T.
  destruct (Z.leb_spec T (T + n)); [|lia]. replace (T + n - T) with n by lia.
  rewrite Hc. cbn [apply_axis]. rewrite Z.eqb_refl. cbn [adv s_pos s_v s_acc fst snd]. reflexivity.
Qed.
