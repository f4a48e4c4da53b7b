(** Proofs about acceleration vectors. *)
From Coq Require Import ZArith List Bool Lia.
From Coq Require Import ZifyBool ZifyNat.
From Verif Require Import Base AccVector MotionSpec.
Import ListNotations.
Open Scope Z_scope.

(** ** Motion lemmas *)

Lemma expand_app : forall a b, expand (a ++ b) = expand a ++ expand b.
Proof.
  induction a as [|[n x] a IH]; intros b; cbn [expand app]; auto.
  rewrite IH, app_assoc. reflexivity.
Qed.

Lemma travel_app : forall a b v,
  travel v (a ++ b) = travel v a + travel (final_speed v a) b.
Proof.
  induction a as [|x a IH]; intros b v; cbn [travel app final_speed]; [lia|].
  rewrite IH; lia.
Qed.

Lemma final_speed_app : forall a b v, final_speed v (a ++ b) = final_speed (final_speed v a) b.
Proof. induction a as [|x a IH]; intros b v; cbn [app final_speed]; auto. Qed.

Lemma speeds_hd : forall a v, exists t, speeds v a = v :: t.
Proof. destruct a; cbn; eauto. Qed.

Lemma In_speeds_app : forall a b v x,
  In x (speeds v (a ++ b)) <-> In x (speeds v a) \/ In x (speeds (final_speed v a) b).
Proof.
  induction a as [|y a IH]; intros b v x; cbn [speeds app final_speed].
  - destruct (speeds_hd b v) as [t ->]. cbn. intuition.
  - cbn [In]. rewrite IH. tauto.
Qed.

Lemma final_speed_In : forall a v, In (final_speed v a) (speeds v a).
Proof. induction a as [|y a IH]; intros v; cbn [speeds final_speed]; [left|right]; auto. Qed.

Lemma final_speed_repeat : forall n a v, final_speed v (repeat a n) = v + a * Z.of_nat n.
Proof. induction n; intros a v; cbn [repeat final_speed]; [lia|]. rewrite IHn; lia. Qed.

Lemma travel_repeat : forall n a v,
  travel v (repeat a n) = (v + (v + a * Z.of_nat n)) * Z.of_nat n.
Proof. induction n; intros a v; cbn [repeat travel]; [lia|]. rewrite IHn; lia. Qed.

Lemma speeds_repeat : forall n a v x, In x (speeds v (repeat a n)) <->
  exists k, (k <= n)%nat /\ x = v + a * Z.of_nat k.
Proof.
  induction n; intros a v x; cbn [repeat speeds].
  - split.
    + intros [<-|[]]. exists 0%nat; lia.
    + intros (k & Hk & ->). left. assert (k = 0%nat) by lia; subst; lia.
  - cbn [In]. rewrite IHn. split.
    + intros [<-|(k & Hk & ->)]; [exists 0%nat; lia|exists (S k); lia].
    + intros ([|k] & Hk & ->); [left; lia|right; exists k; lia].
Qed.

Lemma repeat_add : forall (A : Type) (a : A) n m, repeat a (n + m) = repeat a n ++ repeat a m.
Proof. intros; apply repeat_app. Qed.

Lemma zrepeat_add : forall (A : Type) (a : A) n m, 0 <= n -> 0 <= m ->
  repeat a (Z.to_nat (n + m)) = repeat a (Z.to_nat n) ++ repeat a (Z.to_nat m).
Proof. intros. rewrite Z2Nat.inj_add by lia. apply repeat_app. Qed.

(** ** acc_push *)

Lemma acc_push_nil : forall t a, acc_push [] t a = if t =? 0 then Ok [] else Ok [(t, a)].
Proof. reflexivity. Qed.

Lemma acc_push_zero : forall v a, acc_push v 0 a = Ok v.
Proof. destruct v; reflexivity. Qed.

Lemma acc_push_snoc : forall v i c t a, t <> 0 ->
  acc_push (v ++ [(i, c)]) t a =
    if c =? a then let! n := chk_u16 (i + t) in Ok (v ++ [(n, c)])
    else Ok (v ++ [(i, c); (t, a)]).
Proof.
  intros v i c t a Ht. assert (E : (t =? 0) = false) by lia.
  induction v as [|[i0 c0] v IH]; cbn [app acc_push]; rewrite E.
  - reflexivity.
  - destruct (v ++ [(i, c)]) as [|s0 w0] eqn:Ev; [destruct v; discriminate|].
    rewrite IH. destruct (c =? a); [destruct (chk_u16 (i + t))|]; reflexivity.
Qed.

Lemma snoc_case : forall (A : Type) (v : list A), v = [] \/ exists w s, v = w ++ [s].
Proof.
  intros A [|x v]; [left; reflexivity|right].
  destruct (exists_last (l := x :: v)) as [w [s E]]; [discriminate|eauto].
Qed.

Lemma acc_push_expand : forall v t a v', 0 <= t ->
  (forall s, In s v -> 0 <= fst s) ->
  acc_push v t a = Ok v' ->
  expand v' = expand v ++ repeat a (Z.to_nat t).
Proof.
  intros v t a v' Ht Hv H.
  destruct (Z.eq_dec t 0) as [->|Hn].
  { rewrite acc_push_zero in H. inversion H; subst. cbn [Z.to_nat repeat]. rewrite app_nil_r; auto. }
  destruct (snoc_case _ v) as [->|(w & [i c] & ->)].
  - rewrite acc_push_nil in H. destruct (Z.eqb_spec t 0); [lia|]. inversion H; subst.
    cbn [expand app]. rewrite app_nil_r; auto.
  - rewrite acc_push_snoc in H by auto. destruct (Z.eqb_spec c a) as [Eca|Hc]; [subst c|].
    + apply bind_Ok in H. destruct H as (n & E & H). apply chk_Ok in E. destruct E as [<- E].
      inversion H; subst. rewrite !expand_app. cbn [expand]. rewrite !app_nil_r.
      rewrite zrepeat_add, app_assoc; auto. apply (Hv (i, a)). apply in_or_app; right; left; auto.
    + inversion H; subst. rewrite !expand_app. cbn [expand]. rewrite !app_nil_r.
      rewrite <- app_assoc; auto.
Qed.

Definition acc_ok (v : list seg) : Prop :=
  (forall s, In s v -> 1 <= fst s) /\
  (forall a s s' b, v = a ++ s :: s' :: b -> snd s <> snd s').

Lemma acc_ok_nil : acc_ok [].
Proof. split; [intros s []|]. intros [|] ? ? ?; discriminate. Qed.

Lemma acc_ok_prefix : forall v w, acc_ok (v ++ w) -> acc_ok v.
Proof.
  intros v w [H1 H2]. split.
  - intros s Hs; apply H1, in_or_app; auto.
  - intros a s s' b ->. apply (H2 a s s' (b ++ w)). rewrite <- app_assoc. reflexivity.
Qed.

Lemma acc_ok_snoc1 : forall v i c n, acc_ok (v ++ [(i, c)]) -> 1 <= n -> acc_ok (v ++ [(n, c)]).
Proof.
  intros v i c n [H1 H2] Hn. split.
  - intros s Hs. apply in_app_or in Hs. destruct Hs as [Hs|[<-|[]]]; [|exact Hn].
    apply H1, in_or_app; auto.
  - intros a s s' b E.
    destruct (snoc_case _ b) as [->|(b' & z & ->)].
    + change (a ++ [s; s']) with (a ++ [s] ++ [s']) in E. rewrite app_assoc in E.
      apply app_inj_tail in E. destruct E as [E <-]. cbn [snd].
      apply (H2 a s (i, c) []). rewrite E, <- app_assoc. reflexivity.
    + replace (a ++ s :: s' :: b' ++ [z]) with ((a ++ s :: s' :: b') ++ [z]) in E
        by (rewrite <- app_assoc; reflexivity).
      apply app_inj_tail in E. destruct E as [E _].
      apply (H2 a s s' (b' ++ [(i, c)])). rewrite E, <- app_assoc. reflexivity.
Qed.

Lemma acc_ok_snoc2 : forall v i c n d, acc_ok (v ++ [(i, c)]) -> 1 <= n -> c <> d ->
  acc_ok (v ++ [(i, c); (n, d)]).
Proof.
  intros v i c n d [H1 H2] Hn Hd. split.
  - intros s Hs. apply in_app_or in Hs. destruct Hs as [Hs|[<-|[<-|[]]]]; [| |exact Hn];
      apply H1, in_or_app; cbn; auto.
  - intros a s s' b E.
    replace (v ++ [(i, c); (n, d)]) with ((v ++ [(i, c)]) ++ [(n, d)]) in E
      by (rewrite <- app_assoc; reflexivity).
    destruct (snoc_case _ b) as [->|(b' & z & ->)].
    + change (a ++ [s; s']) with (a ++ [s] ++ [s']) in E. rewrite app_assoc in E.
      apply app_inj_tail in E. destruct E as [E <-].
      apply app_inj_tail in E. destruct E as [_ <-]. exact Hd.
    + replace (a ++ s :: s' :: b' ++ [z]) with ((a ++ s :: s' :: b') ++ [z]) in E
        by (rewrite <- app_assoc; reflexivity).
      apply app_inj_tail in E. destruct E as [E _].
      apply (H2 a s s' b' E).
Qed.

Lemma acc_push_ok : forall v t a v', 0 <= t -> acc_ok v -> acc_push v t a = Ok v' -> acc_ok v'.
Proof.
  intros v t a v' Ht Hv H.
  destruct (Z.eq_dec t 0) as [->|Hn].
  { rewrite acc_push_zero in H. inversion H; subst; auto. }
  destruct (snoc_case _ v) as [->|(w & [i c] & ->)].
  - rewrite acc_push_nil in H. destruct (Z.eqb_spec t 0); [lia|]. inversion H; subst.
    split; [intros s [<-|[]]; cbn [fst]; lia|].
    intros [|x [|y r]] s s' b E; discriminate.
  - rewrite acc_push_snoc in H by auto. destruct (Z.eqb_spec c a) as [Eca|Hc]; [subst c|].
    + apply bind_Ok in H. destruct H as (n & E & H). apply chk_Ok in E. destruct E as [<- E].
      inversion H; subst. apply (acc_ok_snoc1 w i); auto.
      assert (1 <= i); [|lia]. apply (proj1 Hv (i, a)). apply in_or_app; right; left; auto.
    + inversion H; subst. apply acc_ok_snoc2; auto; lia.
Qed.

Lemma acc_push_typed : forall v t a v', 0 <= t <= u16_max -> i16_min <= a <= i16_max ->
  Forall seg_typed v -> acc_push v t a = Ok v' -> Forall seg_typed v'.
Proof.
  intros v t a v' Ht Ha Hv H.
  destruct (Z.eq_dec t 0) as [->|Hn].
  { rewrite acc_push_zero in H. inversion H; subst; auto. }
  destruct (snoc_case _ v) as [->|(w & [i c] & ->)].
  - rewrite acc_push_nil in H. destruct (Z.eqb_spec t 0); [lia|]. inversion H; subst.
    repeat constructor; cbn; lia.
  - rewrite acc_push_snoc in H by auto.
    apply Forall_app in Hv. destruct Hv as [Hw Hl]. inversion Hl as [|x y Hx _]; subst.
    destruct Hx as [Hx1 Hx2]. cbn [fst snd] in Hx1, Hx2.
    destruct (Z.eqb_spec c a) as [Eca|Hc]; [subst c|].
    + apply bind_Ok in H. destruct H as (n & E & H). apply chk_Ok in E. destruct E as [<- E].
      inversion H; subst. apply Forall_app; split; auto. repeat constructor; cbn [fst snd]; lia.
    + inversion H; subst. apply Forall_app; split; auto.
      repeat constructor; cbn [fst snd]; lia.
Qed.

Lemma acc_push_fails : forall v t a, 0 <= t ->
  (forall s, In s v -> 0 <= fst s) ->
  (exists v', acc_push v t a = Ok v') \/
  (acc_push v t a = Panic /\ exists w i, v = w ++ [(i, a)] /\ i + t > u16_max).
Proof.
  intros v t a Ht Hv.
  destruct (Z.eq_dec t 0) as [->|Hn].
  { left. exists v. apply acc_push_zero. }
  destruct (snoc_case _ v) as [->|(w & [i c] & ->)].
  - left. rewrite acc_push_nil. destruct (t =? 0); eauto.
  - rewrite acc_push_snoc by auto. destruct (Z.eqb_spec c a) as [Eca|Hc]; [subst c|]; [|eauto].
    assert (0 <= i) by (apply (Hv (i, a)), in_or_app; right; left; auto).
    unfold chk_u16, chk, in_range.
    destruct (Z.leb_spec 0 (i + t)); [|lia]. destruct (Z.leb_spec (i + t) u16_max); cbn.
    + eauto.
    + right. split; auto. exists w, i. split; auto. lia.
Qed.

(** ** acc_distance *)

Lemma acc_distance_loop_spec : forall segs s v r,
  (forall x, In x segs -> 0 <= fst x) ->
  acc_distance_loop s v segs = Ok r ->
  r = (s + travel v (expand segs), final_speed v (expand segs)).
Proof.
  induction segs as [|[i a] t IH]; intros s v r Hp H; cbn [acc_distance_loop] in H.
  - inversion H; subst. cbn [expand travel final_speed]. f_equal; lia.
  - inv_bind H.
    repeat match goal with E : chk_i32 _ = Ok _ |- _ => apply chk_Ok in E; destruct E as [<- E]
                         | E : chk_i64 _ = Ok _ |- _ => apply chk_Ok in E; destruct E as [<- E] end.
    apply IH in H; [|intros; apply Hp; right; auto]. rewrite H.
    assert (Hi : 0 <= i) by (apply (Hp (i, a)); left; auto).
    cbn [expand]. rewrite travel_app, final_speed_app, final_speed_repeat, travel_repeat.
    rewrite Z2Nat.id by auto. f_equal; lia.
Qed.

Lemma speed_bound_repeat : forall i a v B, 0 <= i ->
  (forall x, In x (speeds v (repeat a (Z.to_nat i))) -> Z.abs x <= B) ->
  Z.abs v <= B /\ Z.abs (v + a * i) <= B.
Proof.
  intros i a v B Hi H. split; apply H, speeds_repeat.
  - exists 0%nat; split; lia.
  - exists (Z.to_nat i); split; [lia|]. rewrite Z2Nat.id; lia.
Qed.

Lemma acc_distance_loop_ok : forall segs s v,
  Forall seg_typed segs ->
  (forall x, In x (speeds v (expand segs)) -> Z.abs x <= 2 ^ 30 - 1) ->
  Z.abs s + Z.of_nat (length segs) * (2 ^ 31 * 2 ^ 16) <= i64_max ->
  exists r, acc_distance_loop s v segs = Ok r.
Proof.
  induction segs as [|[i a] t IH]; intros s v Ht Hs Hb; cbn [acc_distance_loop]; [eauto|].
  inversion Ht as [|? ? [H1 H2] Ht']; subst. cbn [fst snd] in H1, H2.
  cbn [expand] in Hs.
  assert (B : Z.abs v <= 2 ^ 30 - 1 /\ Z.abs (v + a * i) <= 2 ^ 30 - 1).
  { apply speed_bound_repeat; [lia|]. intros x Hx; apply Hs, In_speeds_app; auto. }
  destruct B as [B1 B2].
  assert (Ea : -2147450880 <= a * i <= 2147385345) by (unfold u16_max, i16_min, i16_max in *; nia).
  unfold chk_i32, chk_i64.
  rewrite (chk_in _ _ (a * i)) by (unfold i32_min, i32_max; lia). cbn [bind].
  rewrite (chk_in _ _ (v + a * i)) by (unfold i32_min, i32_max; lia). cbn [bind].
  rewrite (chk_in _ _ (v + (v + a * i))) by (unfold i32_min, i32_max; lia). cbn [bind].
  set (w := v + (v + a * i)) in *.
  assert (Hw : Z.abs w <= 2 ^ 31 - 2) by lia.
  assert (E : Z.abs (w * i) <= 2 ^ 31 * 2 ^ 16).
  { rewrite Z.abs_mul. unfold u16_max in *. apply Z.mul_le_mono_nonneg; lia. }
  cbn [length] in Hb.
  rewrite (chk_in _ _ (w * i)) by (unfold i64_min, i64_max in *; lia). cbn [bind].
  rewrite (chk_in _ _ (s + w * i)) by (unfold i64_min, i64_max in *; lia). cbn [bind].
  apply IH; auto.
  - intros x Hx. apply Hs, In_speeds_app. right.
    rewrite final_speed_repeat, Z2Nat.id by lia. exact Hx.
  - lia.
Qed.

(** ** acc_iter *)

Lemma acc_collect_S : forall f it, acc_collect (S f) it =
  let! (o, it') := acc_next it in
  match o with
  | None => Ok []
  | Some a => let! r := acc_collect f it' in Ok (a :: r)
  end.
Proof. reflexivity. Qed.

Lemma acc_collect_count : forall n c a segs, Z.of_nat n = c - 1 -> c <= u16_max ->
  (forall s, In s segs -> 1 <= fst s <= u16_max) ->
  acc_collect (S (n + length (expand segs))) (mk_iter c a segs)
  = Ok (repeat a n ++ expand segs).
Proof.
  intros n c a segs. revert n c a.
  induction segs as [|[i b] t IH]; intros n; induction n as [|n IHn]; intros c a Hc Hm Hs.
  - rewrite acc_collect_S. unfold acc_next. cbn [it_count it_seg it_acc].
    replace (c - 1) with 0 by lia. reflexivity.
  - rewrite acc_collect_S. unfold acc_next. cbn [it_count it_seg it_acc].
    unfold chk_u16 at 1. rewrite chk_in by lia. cbn [bind].
    destruct (Z.eqb_spec (c - 1) 0); [lia|]. cbn [bind].
    cbn [Nat.add]. rewrite IHn by (auto; lia). reflexivity.
  - destruct (Hs (i, b)) as [Hi1 Hi2]; [left; auto|]. cbn [fst] in Hi1, Hi2.
    rewrite acc_collect_S. unfold acc_next. cbn [it_count it_seg it_acc].
    replace (c - 1) with 0 by lia. change (chk_u16 0) with (Ok 0). cbn [bind]. change (0 =? 0) with true. cbn [bind].
    cbn [expand]. rewrite app_length, repeat_length.
    replace (0 + (Z.to_nat i + length (expand t)))%nat
      with (S (Z.to_nat (i - 1) + length (expand t))) by lia.
    rewrite IH; [|lia|lia|intros; apply Hs; right; auto].
    cbn [bind repeat app]. replace (Z.to_nat i) with (S (Z.to_nat (i - 1))) by lia. reflexivity.
  - rewrite acc_collect_S. unfold acc_next. cbn [it_count it_seg it_acc].
    unfold chk_u16 at 1. rewrite chk_in by lia. cbn [bind].
    destruct (Z.eqb_spec (c - 1) 0); [lia|]. cbn [bind].
    cbn [Nat.add]. rewrite IHn by (auto; lia). reflexivity.
Qed.

Fixpoint total (segs : list seg) : Z :=
  match segs with [] => 0 | (n, _) :: t => n + total t end.

Lemma total_length : forall segs, (forall s, In s segs -> 0 <= fst s) ->
  total segs = Z.of_nat (length (expand segs)).
Proof.
  induction segs as [|[n a] t IH]; intros H; cbn [total expand]; [reflexivity|].
  rewrite app_length, repeat_length, Nat2Z.inj_add, Z2Nat.id.
  - rewrite IH; auto. intros; apply H; right; auto.
  - apply (H (n, a)); left; auto.
Qed.

Lemma total_nonneg : forall segs, (forall s, In s segs -> 0 <= fst s) -> 0 <= total segs.
Proof. intros; rewrite total_length; auto; lia. Qed.

Lemma skipn_repeat_local : forall (A : Type) (a : A) n k, skipn k (repeat a n) = repeat a (n - k).
Proof.
  intros A a n. induction n; intros [|k]; cbn [repeat skipn Nat.sub]; auto.
Qed.

Lemma acc_collect_more : forall k it l k', acc_collect k it = Ok l -> (k <= k')%nat ->
  acc_collect k' it = Ok l.
Proof.
  induction k as [|k IH]; intros it l k' H Hk; [discriminate|].
  destruct k' as [|k']; [lia|]. cbn [acc_collect] in *.
  destruct (acc_next it) as [[[a|] it']| |]; cbn [bind] in *; try discriminate; auto.
  apply bind_Ok in H. destruct H as (r & E & H).
  rewrite (IH it' r k') by (auto; lia). exact H.
Qed.

Lemma acc_iter_loop_inside : forall segs start t,
  (forall s, In s segs -> 1 <= fst s) ->
  0 <= start -> start + total segs <= u16_max ->
  start <= t < start + total segs ->
  ~ (t = 0 /\ exists a, segs = [(u16_max, a)]) ->
  exists it, acc_iter_loop start t segs = Ok it /\
    acc_collect (S (Z.to_nat (start + total segs - t))) it
        = Ok (skipn (Z.to_nat (t - start)) (expand segs)).
Proof.
  induction segs as [|[i a] rest IH]; intros start t Hs H0 Hm Ht Hx; cbn [total] in *; [lia|].
  assert (Hi : 1 <= i) by (apply (Hs (i, a)); left; auto).
  assert (Hr : forall s, In s rest -> 1 <= fst s) by (intros; apply Hs; right; auto).
  assert (Hr0 : forall s, In s rest -> 0 <= fst s) by (intros s Hin; specialize (Hr s Hin); lia).
  assert (Hn : 0 <= total rest) by (apply total_nonneg; auto).
  assert (Hl := total_length rest Hr0).
  cbn [acc_iter_loop]. unfold chk_u16 at 1. rewrite chk_in by lia. cbn [bind].
  destruct (Z.leb_spec start t); [|lia]. destruct (Z.ltb_spec t (start + i)) as [Hlt|Hge]; cbn [andb].
  - unfold chk_u16 at 1. rewrite chk_in by (unfold u16_max in *; lia). cbn [bind].
    assert (Hc : start + i - t + 1 <= u16_max).
    { destruct (Z_le_gt_dec (start + i - t + 1) u16_max); auto. exfalso. apply Hx.
      assert (start = 0 /\ t = 0 /\ i = u16_max /\ total rest = 0) as (-> & -> & -> & Hz) by lia.
      split; auto. exists a. destruct rest as [|[n b] r]; auto.
      cbn [total] in Hz. assert (1 <= n) by (apply (Hr (n, b)); left; auto).
      assert (0 <= total r); [|lia]. apply total_nonneg. intros; apply Hr0; right; auto. }
    unfold chk_u16. rewrite chk_in by lia. cbn [bind]. eexists; split; [reflexivity|].
    replace (S (Z.to_nat (start + (i + total rest) - t)))
      with (S (Z.to_nat (start + i - t) + length (expand rest))) by lia.
    rewrite acc_collect_count; [|lia|lia|].
    + cbn [expand]. rewrite skipn_app, repeat_length, skipn_repeat_local.
      replace (Z.to_nat (t - start) - Z.to_nat i)%nat with 0%nat by lia.
      replace (Z.to_nat i - Z.to_nat (t - start))%nat with (Z.to_nat (start + i - t)) by lia.
      reflexivity.
    + intros s Hin. split; auto.
      assert (fst s <= total rest); [|lia].
      clear - Hin Hr0. revert Hin. induction rest as [|[n b] r IH]; intros Hin; [destruct Hin|].
      cbn [total]. assert (Hr1 : forall x, In x r -> 0 <= fst x) by (intros; apply Hr0; right; auto).
      assert (0 <= total r) by (apply total_nonneg; auto).
      assert (0 <= n) by (apply (Hr0 (n, b)); left; auto).
      destruct Hin as [<-|Hin]; [cbn [fst]; lia|]. specialize (IH Hr1 Hin). lia.
  - destruct (IH (start + i) t) as (it & E & C); auto; try lia.
    exists it. split; auto.
    replace (start + (i + total rest) - t) with (start + i + total rest - t) by lia.
    rewrite C. cbn [expand]. rewrite skipn_app, repeat_length, skipn_repeat_local.
    replace (Z.to_nat i - Z.to_nat (t - start))%nat with 0%nat by lia. cbn [repeat app].
    f_equal. f_equal. lia.
Qed.

Lemma acc_iter_loop_outside : forall segs start t,
  (forall s, In s segs -> 0 <= fst s) -> start + total segs <= t ->
  acc_iter_loop start t segs = Panic.
Proof.
  induction segs as [|[i a] rest IH]; intros start t Hs Ht; cbn [total acc_iter_loop] in *; auto.
  assert (Hi : 0 <= i) by (apply (Hs (i, a)); left; auto).
  assert (Hr : forall s, In s rest -> 0 <= fst s) by (intros; apply Hs; right; auto).
  assert (Hn := total_nonneg rest Hr).
  unfold chk_u16, chk. destruct (in_range 0 u16_max (start + i)); cbn [bind]; auto.
  destruct (Z.ltb_spec t (start + i)); [lia|]. rewrite andb_false_r. apply IH; auto. lia.
Qed.
