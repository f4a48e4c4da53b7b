(** Proofs about the MultiRange model. *)
From Coq Require Import ZArith List Bool Lia.
From Coq Require Import ZifyBool ZifyNat.
From Verif Require Import Base MultiRange MultiRangeSpec.
Import ListNotations.
Open Scope Z_scope.

(** Sorted strictly above a bound. *)
Fixpoint ord_from (b : Z) (rs : mrange) : Prop :=
  match rs with
  | [] => True
  | r :: t => b < fst r /\ fst r <= snd r /\ ord_from (snd r) t
  end.

Definition ord (rs : mrange) : Prop :=
  match rs with
  | [] => True
  | r :: t => fst r <= snd r /\ ord_from (snd r) t
  end.

Lemma ordered_ord : forall rs, ordered rs <-> ord rs.
Proof.
  induction rs as [|[l h] t IH]; split; intro H.
  - exact I.
  - constructor.
  - inversion H as [|a b Hab|a b l' h' t' Hab Hgap Ht]; subst; cbn; auto.
    apply IH in Ht; cbn in Ht; destruct Ht; auto with zarith.
  - destruct t as [|[l' h'] t']; cbn in H.
    + constructor; tauto.
    + constructor; try tauto. apply IH; cbn; tauto.
Qed.

Lemma ord_from_weaken : forall rs b b', b' <= b -> ord_from b rs -> ord_from b' rs.
Proof. intros [|r t] b b' Hb H; cbn in *; auto; intuition lia. Qed.

Lemma ord_from_ord : forall rs b, ord_from b rs -> ord rs.
Proof. intros [|r t] b H; cbn in *; tauto. Qed.

Lemma ord_exists_from : forall rs, ord rs -> exists b, ord_from b rs.
Proof.
  intros [|r t] H; cbn in *.
  - exists 0; exact I.
  - exists (fst r - 1); intuition lia.
Qed.

Lemma ord_from_In : forall rs b r, ord_from b rs -> In r rs ->
  b < fst r /\ fst r <= snd r.
Proof.
  induction rs as [|r0 t IH]; intros b r H Hin; [contradiction|].
  cbn in H; destruct H as [H1 [H2 H3]]; destruct Hin as [->|Hin]; auto.
  destruct (IH _ _ H3 Hin); lia.
Qed.

Lemma covers_nil : forall x, covers [] x <-> False.
Proof. intros x; split; [intros (l & h & H & _); contradiction|tauto]. Qed.

Lemma covers_cons : forall r rs x,
  covers (r :: rs) x <-> (fst r <= x < snd r) \/ covers rs x.
Proof.
  intros [l h] rs x; unfold covers; cbn; split.
  - intros (l' & h' & [E|Hin] & Hx); [inversion E; subst; auto|right; eauto].
  - intros [Hx|(l' & h' & Hin & Hx)]; [exists l, h|exists l', h']; auto.
Qed.

Lemma covers_app : forall a b x, covers (a ++ b) x <-> covers a x \/ covers b x.
Proof.
  induction a as [|r t IH]; intros b x; cbn [app].
  - rewrite covers_nil; tauto.
  - rewrite !covers_cons, IH; tauto.
Qed.

Lemma ord_from_covers : forall rs b x, ord_from b rs -> covers rs x -> b < x.
Proof.
  intros rs b x H (l & h & Hin & Hx).
  apply (ord_from_In _ _ _ H) in Hin; cbn in Hin; lia.
Qed.

(** ** or *)

(** Recursive description of [mr_or] used only in proofs. *)
Fixpoint merge_run (l h : Z) (rs : mrange) : mrange :=
  match rs with
  | [] => [(l, h)]
  | r :: t => if h <? fst r then (l, h) :: r :: t
              else merge_run (Z.min l (fst r)) (Z.max h (snd r)) t
  end.

Lemma rmin_min : forall a b, rmin a b = Z.min a b.
Proof. intros; unfold rmin; destruct (Z.ltb_spec a b); lia. Qed.
Lemma rmax_max : forall a b, rmax a b = Z.max a b.
Proof. intros; unfold rmax; destruct (Z.gtb_spec a b); lia. Qed.

Lemma or_count_le : forall h rs, (or_count h rs <= length rs)%nat.
Proof.
  induction rs as [|r t IH]; cbn; auto.
  destruct (low r >? h); cbn; lia.
Qed.

Lemma or_first_le : forall l rs, (or_first l rs <= length rs)%nat.
Proof.
  induction rs as [|r t IH]; cbn; auto.
  destruct (l <=? high r); cbn; lia.
Qed.

(** The run of ranges touched by a new one. *)
Lemma or_run : forall h rs b, ord_from b rs ->
  let n := or_count h rs in
  Forall (fun r => fst r <= h) (firstn n rs) /\
  ord_from (Z.max b h) (skipn n rs).
Proof.
  induction rs as [|r t IH]; intros b H n; subst n; cbn; auto.
  cbn in H; destruct H as [H1 [H2 H3]].
  unfold low; destruct (Z.gtb_spec (fst r) h) as [Hg|Hg]; cbn.
  - repeat split; auto; try lia.
  - destruct (IH _ H3) as [I1 I2]; split.
    + constructor; auto.
    + eapply ord_from_weaken; [|exact I2]; lia.
Qed.

Lemma nth_error_firstn_last : forall (A : Type) (l : list A) n d, (0 < n)%nat -> (n <= length l)%nat ->
  nth_error l (n - 1) = Some (last (firstn n l) d).
Proof.
  intros A; induction l as [|a l IH]; intros n d Hn Hl; cbn in Hl; [lia|].
  destruct n as [|n]; [lia|].
  replace (S n - 1)%nat with n by lia.
  destruct n as [|n]; [reflexivity|].
  assert (E : last (firstn (S (S n)) (a :: l)) d = last (firstn (S n) l) d).
  { destruct l as [|b l]; [cbn in Hl; lia|reflexivity]. }
  rewrite E, <- (IH (S n) d) by lia.
  replace (S n - 1)%nat with n by lia. reflexivity.
Qed.

Lemma ord_from_last : forall rs b, ord_from b rs ->
  forall d r, In r rs -> snd r <= snd (last rs d).
Proof.
  induction rs as [|r0 t IH]; intros b H d r Hin; [contradiction|].
  cbn in H; destruct H as [H1 [H2 H3]].
  destruct t as [|r1 t'].
  - destruct Hin as [->|[]]; cbn; lia.
  - change (last (r0 :: r1 :: t') d) with (last (r1 :: t') d).
    destruct Hin as [->|Hin].
    + specialize (IH _ H3 d r1 (or_introl eq_refl)).
      cbn in H3; lia.
    + eapply IH; eauto.
Qed.

Lemma last_In : forall (A : Type) (l : list A) d, l <> [] -> In (last l d) l.
Proof.
  intros A; induction l as [|a l IH]; intros d H; [congruence|].
  destruct l as [|b l]; [left; reflexivity|].
  right. apply IH; discriminate.
Qed.

Lemma ord_from_firstn : forall n rs b, ord_from b rs -> ord_from b (firstn n rs).
Proof.
  induction n as [|n IH]; intros rs b H; [exact I|].
  destruct rs as [|r t]; cbn in *; auto. intuition.
Qed.

Lemma ord_from_app_lt : forall A B b r b0,
  ord_from b (A ++ b0 :: B) -> In r A -> snd r < fst b0.
Proof.
  induction A as [|a A IH]; intros B b r b0 H Hin; [contradiction|].
  cbn in H. destruct H as [P1 [P2 P3]]. destruct Hin as [->|Hin].
  - apply (ord_from_In _ _ b0 P3). apply in_or_app; right; left; reflexivity.
  - eapply IH; eauto.
Qed.

Lemma mr_or_spec : forall rs l h b, ord_from b rs -> b < l -> l <= h ->
  exists rs', mr_or rs l h = Ok rs' /\ ord_from b rs' /\
    (forall x, covers rs' x <-> covers rs x \/ l <= x < h).
Proof.
  intros rs l h b Hord Hb Hlh.
  unfold mr_or.
  destruct (Z.leb_spec l h) as [_|]; [cbn [assert bind]|lia].
  revert b Hord Hb.
  assert (Gen : forall rs b, ord_from b rs -> b < l ->
    let first := or_first l rs in
    let n := or_count h (skipn first rs) in
    exists rs',
      (if Nat.eqb first (first + n) then
         Ok (firstn first rs ++ (l, h) :: skipn first rs)
       else
         let! rf := unwrap (nth_error rs first) in
         let! rl := unwrap (nth_error rs (first + n - 1)) in
         Ok (firstn first rs ++
             (rmin (low rf) l, rmax (high rl) h) :: skipn (first + n) rs)) = Ok rs' /\
      ord_from b rs' /\
      (forall x, covers rs' x <-> covers rs x \/ l <= x < h)).
  { clear rs. induction rs as [|r t IH]; intros b Hord Hb; cbn zeta.
    - cbn. eexists; split; [reflexivity|]. cbn. split; [lia|].
      intros x; rewrite covers_cons, covers_nil; cbn; tauto.
    - cbn in Hord; destruct Hord as [H1 [H2 H3]].
      cbn [or_first]. destruct (Z.leb_spec l (high r)) as [Hle|Hgt].
      + (* first = 0 *)
        cbn [skipn firstn app Nat.add].
        unfold high in Hle.
        assert (Hrt : ord_from b (r :: t)) by (cbn; auto).
        destruct (or_run h (r :: t) b Hrt) as [Hall Hrest].
        pose proof (or_count_le h (r :: t)) as Hlen.
        set (n := or_count h (r :: t)) in *.
        destruct n as [|n'] eqn:En.
        * cbn [Nat.eqb]. eexists; split; [reflexivity|].
          cbn [or_count] in En. subst n. cbn [skipn] in Hrest.
          split.
          { cbn [ord_from fst snd]. repeat split; try lia.
            - cbn [ord_from] in Hrest; intuition lia.
            - exact H3. }
          intros x; rewrite !covers_cons; cbn; tauto.
        * cbn [Nat.eqb].
          assert (Hln : (S n' <= length (r :: t))%nat) by exact Hlen.
          assert (Hl : nth_error (r :: t) (S n' - 1) = Some (last (firstn (S n') (r :: t)) r)).
          { apply nth_error_firstn_last; lia. }
          rewrite Hl. cbn [nth_error unwrap bind].
          set (rl := last (firstn (S n') (r :: t)) r) in *.
          assert (Hrlin : In rl (firstn (S n') (r :: t))).
          { unfold rl. apply last_In. cbn; discriminate. }
          assert (Hfo : ord_from b (firstn (S n') (r :: t))) by (apply ord_from_firstn; exact Hrt).
          assert (Hrl : fst rl <= h).
          { rewrite Forall_forall in Hall. apply Hall; exact Hrlin. }
          assert (Hmax : forall r', In r' (firstn (S n') (r :: t)) -> snd r' <= snd rl).
          { intros r' Hr'. unfold rl. eapply ord_from_last; eauto. }
          assert (Hrin : In r (firstn (S n') (r :: t))) by (cbn; auto).
          assert (Hmin : forall r', In r' (firstn (S n') (r :: t)) -> fst r <= fst r').
          { intros r' Hr'. cbn [firstn] in Hr'. destruct Hr' as [->|Hr']; [lia|].
            assert (H3' : ord_from (snd r) (firstn n' t)) by (apply ord_from_firstn; exact H3).
            destruct (ord_from_In _ _ _ H3' Hr'); lia. }
          assert (Hord_rl : fst rl <= snd rl) by (apply (ord_from_In _ _ _ Hfo Hrlin)).
          assert (Hsplit : r :: t = firstn (S n') (r :: t) ++ skipn (S n') (r :: t))
            by (symmetry; apply firstn_skipn).
          eexists; split; [reflexivity|]. rewrite rmin_min, rmax_max. unfold low, high.
          split.
          { cbn [ord_from fst snd]. repeat split; try lia.
            (* the tail is above both bounds *)
            assert (Htail : ord_from (Z.max (snd rl) h) (skipn (S n') (r :: t))).
            { rewrite Hsplit in Hrt.
              destruct (skipn (S n') (r :: t)) as [|b0 B]; [exact I|].
              pose proof (ord_from_app_lt _ _ _ rl b0 Hrt Hrlin) as Hlt.
              cbn [ord_from] in Hrest |- *. destruct Hrest as [R1 [R2 R3]]. repeat split; auto; lia. }
            eapply ord_from_weaken; [|exact Htail]; lia. }
          { intros x. rewrite covers_cons. cbn [fst snd].
            rewrite Hsplit at 2. rewrite covers_app.
            split.
            - intros [Hx|Hx]; [|tauto].
              destruct (Z_lt_le_dec x l) as [Hxl|Hxl].
              + left; left. exists (fst r), (snd r). split; [destruct r; cbn in *; auto|lia].
              + destruct (Z_lt_le_dec x h) as [Hxh|Hxh]; [right; lia|].
                left; left. exists (fst rl), (snd rl).
                split; [rewrite <- surjective_pairing; exact Hrlin|lia].
            - intros [[Hx|Hx]|Hx]; [|tauto|left; lia].
              destruct Hx as (l' & h' & Hin & Hx). left.
              pose proof (Hmax _ Hin) as Q1; pose proof (Hmin _ Hin) as Q2; cbn [fst snd] in Q1, Q2; lia. }
      + (* skip r *)
        unfold high in Hgt.
        destruct (IH (snd r) H3 Hgt) as (rs' & E & Ho & Hc).
        cbn zeta in E.
        cbn [skipn firstn app Nat.add].
        set (f := or_first l t) in *. set (n := or_count h (skipn f t)) in *.
        exists (r :: rs'). split; [|split].
        * cbn [Nat.eqb].
          destruct (Nat.eqb f (f + n)) eqn:Efn.
          { injection E as E. rewrite E. reflexivity. }
          { cbn [nth_error]. replace (S (f + n) - 1)%nat with (S (f + n - 1)).
            - cbn [nth_error]. apply bind_Ok in E. destruct E as (rf & E1 & E).
              apply bind_Ok in E. destruct E as (rl & E2 & E).
              injection E as E.
              rewrite E1; cbn [bind]. rewrite E2; cbn [bind]. rewrite E. reflexivity.
            - apply Nat.eqb_neq in Efn. lia. }
        * cbn. auto.
        * intros x. rewrite !covers_cons, Hc. tauto. }
  intros b Hord Hb. apply Gen; auto.
Qed.

Lemma mr_or_ordered : forall rs l h, ordered rs -> l <= h ->
  exists rs', mr_or rs l h = Ok rs' /\ ordered rs' /\
    (forall x, covers rs' x <-> covers rs x \/ l <= x < h).
Proof.
  intros rs l h Ho Hlh. apply ordered_ord in Ho.
  destruct (ord_exists_from _ Ho) as [b Hb].
  assert (Hb' : ord_from (Z.min b (l - 1)) rs) by (eapply ord_from_weaken; [|exact Hb]; lia).
  destruct (mr_or_spec rs l h _ Hb') as (rs' & E & O & C); [lia|lia|].
  exists rs'. repeat split; auto; try (apply C).
  apply ordered_ord. eapply ord_from_ord; eauto.
Qed.

Lemma mr_or_panics : forall rs l h, h < l -> mr_or rs l h = Panic.
Proof. intros rs l h H. unfold mr_or. destruct (Z.leb_spec l h); [lia|reflexivity]. Qed.

Lemma mr_or_slice_spec : forall a rs, ordered rs ->
  (forall l h, In (l, h) a -> l <= h) ->
  exists rs', mr_or_slice rs a = Ok rs' /\ ordered rs' /\
    (forall x, covers rs' x <-> covers rs x \/ covers a x).
Proof.
  induction a as [|[l h] t IH]; intros rs Ho Ha; cbn [mr_or_slice].
  - exists rs. repeat split; auto; rewrite covers_nil; tauto.
  - destruct (mr_or_ordered rs l h Ho) as (rs1 & E1 & O1 & C1); [apply Ha; left; reflexivity|].
    rewrite E1; cbn [bind].
    destruct (IH rs1 O1) as (rs2 & E2 & O2 & C2); [intros; apply Ha; right; auto|].
    exists rs2. repeat split; auto; intros; rewrite C2, C1, covers_cons in *; cbn in *; tauto.
Qed.

(** Non-emptiness of ranges is preserved by [or] with a non-empty range. *)
Lemma firstn_In_local : forall (A : Type) n (l : list A) x, In x (firstn n l) -> In x l.
Proof. intros A n l x H. rewrite <- (firstn_skipn n l). apply in_or_app; auto. Qed.
Lemma skipn_In_local : forall (A : Type) n (l : list A) x, In x (skipn n l) -> In x l.
Proof. intros A n l x H. rewrite <- (firstn_skipn n l). apply in_or_app; auto. Qed.

Lemma mr_or_nonempty : forall rs l h rs', ordered rs -> nonempty_ranges rs -> l < h ->
  mr_or rs l h = Ok rs' -> nonempty_ranges rs'.
Proof.
  intros rs l h rs' Ho Hne Hlh E.
  unfold mr_or in E. destruct (Z.leb_spec l h); [|lia]. cbn [assert bind] in E.
  destruct (Nat.eqb _ _) eqn:En.
  - injection E as <-. intros a b Hin. apply in_app_or in Hin. cbn in Hin.
    destruct Hin as [Hin|[Hin|Hin]].
    + apply Hne. eapply firstn_In_local; eauto.
    + inversion Hin; subst; auto.
    + apply Hne. eapply skipn_In_local; eauto.
  - apply bind_Ok in E. destruct E as (rf & E1 & E).
    apply bind_Ok in E. destruct E as (rl & E2 & E). injection E as <-.
    rewrite rmin_min, rmax_max.
    intros a b Hin. apply in_app_or in Hin. cbn in Hin.
    destruct Hin as [Hin|[Hin|Hin]].
    + apply Hne. eapply firstn_In_local; eauto.
    + inversion Hin; subst. lia.
    + apply Hne. eapply skipn_In_local; eauto.
Qed.

(** ** and *)

Lemma and_take_spec : forall rs l h b, ord_from b rs ->
  Forall (fun r => l < snd r) rs -> l <= h ->
  ord_from b (and_take l h rs) /\
  (forall x, covers (and_take l h rs) x <-> covers rs x /\ l <= x < h).
Proof.
  induction rs as [|r t IH]; intros l h b Ho Hf Hlh; cbn [and_take].
  - split; [exact I|]. intros; rewrite covers_nil; tauto.
  - inversion Hf as [|r' t' Hr Ht]; subst.
    cbn [ord_from] in Ho. destruct Ho as [H1 [H2 H3]].
    unfold low, high. destruct (Z.ltb_spec (fst r) h) as [Hlt|Hge].
    + rewrite rmax_max, rmin_min.
      destruct (IH l h (snd r) H3 Ht Hlh) as [I1 I2].
      split.
      * cbn [ord_from fst snd]. repeat split; try lia.
        eapply ord_from_weaken; [|exact I1]; lia.
      * intros x. rewrite !covers_cons, I2; cbn [fst snd]. split.
        -- intros [Hx|Hx]; [split; [left|]; lia|tauto].
        -- intros [[Hx|Hx] Hx2]; [left; lia|tauto].
    + split; [exact I|]. intros x. rewrite covers_nil, covers_cons. split; [tauto|].
      intros [[Hx|Hx] Hx2]; [lia|].
      pose proof (ord_from_covers _ _ _ H3 Hx). lia.
Qed.

Lemma ord_from_all_high : forall rs b, ord_from b rs -> Forall (fun r => b < snd r) rs.
Proof.
  intros rs b H. apply Forall_forall. intros r Hin.
  destruct (ord_from_In _ _ _ H Hin); lia.
Qed.

Lemma mr_and_spec : forall rs l h b, ord_from b rs -> l <= h ->
  ord_from b (mr_and rs l h) /\
  (forall x, covers (mr_and rs l h) x <-> covers rs x /\ l <= x < h).
Proof.
  induction rs as [|r t IH]; intros l h b Ho Hlh; cbn [mr_and].
  - split; [exact I|]. intros; rewrite covers_nil; tauto.
  - pose proof Ho as Ho'. cbn [ord_from] in Ho. destruct Ho as [H1 [H2 H3]].
    unfold high. destruct (Z.gtb_spec (snd r) l) as [Hgt|Hle].
    + apply and_take_spec; auto. constructor; auto.
      eapply Forall_impl; [|apply (ord_from_all_high _ _ H3)].
      cbn; intros; lia.
    + destruct (IH l h (snd r) H3 Hlh) as [I1 I2]. split.
      * eapply ord_from_weaken; [|exact I1]; lia.
      * intros x. rewrite I2, covers_cons. intuition lia.
Qed.

Lemma mr_and_ordered : forall rs l h, ordered rs -> l <= h ->
  ordered (mr_and rs l h) /\
  (forall x, covers (mr_and rs l h) x <-> covers rs x /\ l <= x < h).
Proof.
  intros rs l h Ho Hlh. apply ordered_ord in Ho.
  destruct (ord_exists_from _ Ho) as [b Hb].
  destruct (mr_and_spec rs l h b Hb Hlh) as [O C].
  split; auto. apply ordered_ord. eapply ord_from_ord; eauto.
Qed.

Lemma and_take_nonempty : forall rs l h b, ord_from b rs -> nonempty_ranges rs ->
  Forall (fun r => l < snd r) rs -> l < h -> nonempty_ranges (and_take l h rs).
Proof.
  induction rs as [|r t IH]; intros l h b Ho Hne Hf Hlh; cbn [and_take].
  - intros a c [].
  - inversion Hf as [|r' t' Hr Ht]; subst.
    cbn [ord_from] in Ho. destruct Ho as [H1 [H2 H3]].
    unfold low, high. destruct (Z.ltb_spec (fst r) h) as [Hlt|Hge]; [|intros a c []].
    rewrite rmax_max, rmin_min. intros a c [E|Hin].
    + inversion E; subst.
      assert (fst r < snd r) by (apply Hne; left; destruct r; reflexivity). lia.
    + apply (IH l h (snd r) H3); auto. intros a' c' Hin'; apply Hne; right; auto.
Qed.

Lemma mr_and_nonempty : forall rs l h, ordered rs -> nonempty_ranges rs -> l < h ->
  nonempty_ranges (mr_and rs l h).
Proof.
  intros rs l h Ho. apply ordered_ord in Ho.
  destruct (ord_exists_from _ Ho) as [b Hb]. clear Ho. revert b Hb.
  induction rs as [|r t IH]; intros b Hb Hne Hlh; cbn [mr_and].
  - intros a c [].
  - pose proof Hb as Hb'. cbn [ord_from] in Hb. destruct Hb as [H1 [H2 H3]].
    unfold high. destruct (Z.gtb_spec (snd r) l) as [Hgt|Hle].
    + eapply and_take_nonempty; eauto. constructor; auto.
      eapply Forall_impl; [|apply (ord_from_all_high _ _ H3)].
      cbn; intros; lia.
    + apply (IH (snd r) H3); auto. intros a c Hin; apply Hne; right; auto.
Qed.

(** ** and_range *)

Lemma skip2_spec : forall rest r2 l c, ord_from c (r2 :: rest) ->
  match skip2 l r2 rest with
  | None => forall x, covers (r2 :: rest) x -> x < l
  | Some (r2', rest') =>
      ord_from c (r2' :: rest') /\ l < snd r2' /\
      (forall r, In r (r2' :: rest') -> In r (r2 :: rest)) /\
      (forall x, l <= x -> (covers (r2 :: rest) x <-> covers (r2' :: rest') x))
  end.
Proof.
  induction rest as [|r t IH]; intros r2 l c Ho; cbn [skip2]; unfold high.
  - destruct (Z.leb_spec (snd r2) l) as [Hle|Hgt].
    + intros x; rewrite covers_cons, covers_nil; lia.
    + repeat split; auto; apply Ho.
  - destruct (Z.leb_spec (snd r2) l) as [Hle|Hgt].
    + cbn [ord_from] in Ho. destruct Ho as [H1 [H2 H3]].
      specialize (IH r l (snd r2) H3).
      destruct (skip2 l r t) as [[r2' rest']|].
      * destruct IH as [I1 [I2 [I3 I4]]]. repeat split; auto; try lia.
        -- cbn [ord_from] in *. lia.
        -- apply I1.
        -- apply I1.
        -- intros r' Hin; right; auto.
        -- intros Hc. rewrite covers_cons in Hc. apply I4; auto. destruct Hc; [lia|auto].
        -- intros Hc. rewrite covers_cons. right. apply I4; auto.
      * intros x Hx. rewrite covers_cons in Hx. destruct Hx as [Hx|Hx]; [lia|auto].
    + repeat split; auto; apply Ho.
Qed.

Lemma take2_spec : forall rest r1 r2 c p r2' rest', ord_from c (r2 :: rest) ->
  fst r1 <= snd r1 -> fst r1 < snd r2 ->
  take2 r1 r2 rest = (p, (r2', rest')) ->
  ord_from (snd r2) p /\
  (forall r, In r p -> snd r <= snd r1) /\
  (forall x, covers p x <-> covers rest x /\ fst r1 <= x < snd r1) /\
  ord_from c (r2' :: rest') /\
  (forall r, In r (r2' :: rest') -> In r (r2 :: rest)) /\
  (forall x, snd r1 <= x -> (covers (r2 :: rest) x <-> covers (r2' :: rest') x)).
Proof.
  induction rest as [|rn t IH]; intros r1 r2 c p r2' rest' Ho Hr1 Hov E; cbn [take2] in E.
  - injection E as <- <- <-. repeat split; auto; try apply Ho; try tauto;
      try (rewrite covers_nil in *; tauto).
    intros r [].
  - unfold low, high in E. pose proof Ho as Ho'. cbn [ord_from] in Ho. destruct Ho as [H1 [H2 [H3 [H4 H5]]]].
    destruct (Z.geb_spec (fst rn) (snd r1)) as [Hge|Hlt].
    + injection E as <- <- <-.
      split; [exact I|]. split; [intros r []|]. split; [|split; [exact Ho'|split; [auto|tauto]]].
      intros x; rewrite covers_nil. split; [tauto|]. intros [Hc Hx].
      assert (snd r1 - 1 < x); [|lia].
      apply (ord_from_covers (rn :: t)); auto. cbn; repeat split; auto; lia.
    + destruct (take2 r1 rn t) as [p' [r3 rest3]] eqn:E'. injection E as <- <- <-.
      destruct (IH r1 rn (snd r2) p' r3 rest3) as (I1 & I2 & I3 & I4 & I5 & I6); auto; try lia.
      { cbn; auto. }
      rewrite rmax_max, rmin_min.
      split; [|split; [|split; [|split; [|split]]]].
      * cbn [ord_from fst snd]. repeat split; try lia.
        eapply ord_from_weaken; [|exact I1]; lia.
      * intros r [<-|Hin]; [cbn [snd]; lia|auto].
      * intros x. rewrite !covers_cons, I3. cbn [fst snd]. split.
        -- intros [Hx|Hx]; [split; [left|]; lia|tauto].
        -- intros [[Hx|Hx] Hx2]; [left; lia|tauto].
      * cbn [ord_from] in *. intuition lia.
      * intros r Hin. right. auto.
      * intros x Hx. rewrite <- (I6 x Hx). rewrite (covers_cons r2). split; [|tauto].
        intros [Hc|Hc]; [lia|auto].
Qed.

Lemma ord_from_app : forall A B b m, ord_from b A ->
  (forall r, In r A -> snd r <= m) -> b <= m -> ord_from m B -> ord_from b (A ++ B).
Proof.
  induction A as [|r t IH]; intros B b m HA Hm Hb HB; cbn [app].
  - eapply ord_from_weaken; eauto.
  - cbn [ord_from] in *. destruct HA as [H1 [H2 H3]]. repeat split; auto.
    apply (IH B (snd r) m); auto.
    + intros; apply Hm; right; auto.
    + apply Hm; left; auto.
Qed.

Lemma and_range_loop_spec : forall r1s r2 rest b c,
  ord_from b r1s -> ord_from c (r2 :: rest) ->
  ord_from b (and_range_loop r1s r2 rest) /\
  (forall x, covers (and_range_loop r1s r2 rest) x <->
             covers r1s x /\ covers (r2 :: rest) x).
Proof.
  induction r1s as [|r1 t IH]; intros r2 rest b c Ho Ho2; cbn [and_range_loop].
  - split; [exact I|]. intros; rewrite covers_nil; tauto.
  - cbn [ord_from] in Ho. destruct Ho as [H1 [H2 H3]].
    pose proof (skip2_spec rest r2 (low r1) c Ho2) as Hs.
    destruct (skip2 (low r1) r2 rest) as [[r2' rest']|].
    + destruct Hs as (S1 & S2 & S3 & S4). unfold low in S2, S4.
      destruct (take2 r1 r2' rest') as [p [r3 rest3]] eqn:E.
      destruct (take2_spec rest' r1 r2' c p r3 rest3 S1 H2 S2 E) as (T1 & T2 & T3 & T4 & T5 & T6).
      destruct (IH r3 rest3 (snd r1) c H3 T4) as [L1 L2].
      unfold low, high. rewrite rmax_max, rmin_min.
      set (p0 := if fst r2' <? snd r1
                 then [(Z.max (fst r1) (fst r2'), Z.min (snd r1) (snd r2'))] else []).
      assert (P0 : ord_from b (p0 ++ p) /\ (forall r, In r (p0 ++ p) -> snd r <= snd r1) /\
                   (forall x, covers (p0 ++ p) x <-> covers (r2' :: rest') x /\ fst r1 <= x < snd r1)).
      { cbn [ord_from] in S1. destruct S1 as [Q1 [Q2 Q3]].
        unfold p0. destruct (Z.ltb_spec (fst r2') (snd r1)) as [Hlt|Hge]; cbn [app].
        - split; [|split].
          + cbn [ord_from fst snd]. repeat split; try lia.
            eapply ord_from_weaken; [|exact T1]; lia.
          + intros r [<-|Hin]; [cbn [snd]; lia|auto].
          + intros x. rewrite !covers_cons, T3. cbn [fst snd]. split.
            * intros [Hx|Hx]; [split; [left|]; lia|tauto].
            * intros [[Hx|Hx] Hx2]; [left; lia|tauto].
        - split; [|split].
          + eapply ord_from_weaken; [|exact T1]; lia.
          + exact T2.
          + intros x. rewrite T3, covers_cons. split; [tauto|].
            intros [[Hx|Hx] Hx2]; [lia|tauto]. }
      destruct P0 as (P1 & P2 & P3).
      rewrite app_assoc. split.
      * apply (ord_from_app _ _ b (snd r1)); auto. lia.
      * intros x. rewrite covers_app, P3, L2, (covers_cons r1).
        split.
        -- intros [[Hc Hx]|[Ht Hc]].
           ++ split; [left; auto|]. apply S4; [lia|auto].
           ++ assert (snd r1 < x) by (apply (ord_from_covers _ _ _ H3 Ht)).
              split; [right; auto|]. apply S4; [lia|]. apply T6; [lia|auto].
        -- intros [[Hx|Ht] Hc].
           ++ left; split; auto. apply S4; [lia|auto].
           ++ assert (snd r1 < x) by (apply (ord_from_covers _ _ _ H3 Ht)).
              right; split; auto. apply T6; [lia|]. apply S4; [lia|auto].
    + split; [exact I|]. intros x. rewrite covers_nil, (covers_cons r1). split; [tauto|].
      intros [Hx Hc]. apply Hs in Hc. unfold low in Hc. destruct Hx as [Hx|Hx]; [lia|].
      pose proof (ord_from_covers _ _ _ H3 Hx). lia.
Qed.

Lemma mr_and_range_ordered : forall a b, ordered a -> ordered b ->
  ordered (mr_and_range a b) /\
  (forall x, covers (mr_and_range a b) x <-> covers a x /\ covers b x).
Proof.
  intros a b Ha Hb. apply ordered_ord in Ha, Hb.
  destruct (ord_exists_from _ Ha) as [ba Ha']. destruct (ord_exists_from _ Hb) as [bb Hb'].
  unfold mr_and_range. destruct b as [|r2 rest].
  - split; [constructor|]. intros x. split; [intros H|intros [_ H]]; apply covers_nil in H; contradiction.
  - destruct (and_range_loop_spec a r2 rest ba bb Ha' Hb') as [O C].
    split; auto. apply ordered_ord. eapply ord_from_ord; eauto.
Qed.

Lemma take2_nonempty : forall rest r1 r2 c p st, ord_from c (r2 :: rest) ->
  nonempty_ranges (r1 :: r2 :: rest) -> fst r1 < snd r2 ->
  take2 r1 r2 rest = (p, st) -> nonempty_ranges p.
Proof.
  induction rest as [|rn t IH]; intros r1 r2 c p st Ho Hne Hov E; cbn [take2] in E.
  - injection E as <- <-. intros a b [].
  - unfold low, high in E. cbn [ord_from] in Ho. destruct Ho as [H1 [H2 [H3 [H4 H5]]]].
    destruct (Z.geb_spec (fst rn) (snd r1)) as [Hge|Hlt].
    + injection E as <- <-. intros a b [].
    + destruct (take2 r1 rn t) as [p' st'] eqn:E'. injection E as <- <-.
      rewrite rmax_max, rmin_min.
      assert (N1 : fst r1 < snd r1) by (apply Hne; left; destruct r1; reflexivity).
      assert (N2 : fst rn < snd rn) by (apply Hne; right; right; left; destruct rn; reflexivity).
      intros a b [Eq|Hin].
      * inversion Eq; subst; lia.
      * eapply (IH r1 rn (snd r2) p' st'); eauto; try lia.
        -- cbn; auto.
        -- intros a' b' [Hi|[Hi|Hi]]; apply Hne; cbn; auto.
Qed.

Lemma and_range_loop_nonempty : forall r1s r2 rest b c,
  ord_from b r1s -> ord_from c (r2 :: rest) ->
  nonempty_ranges r1s -> nonempty_ranges (r2 :: rest) ->
  nonempty_ranges (and_range_loop r1s r2 rest).
Proof.
  induction r1s as [|r1 t IH]; intros r2 rest b c Ho Ho2 N1 N2; cbn [and_range_loop].
  - intros x y [].
  - cbn [ord_from] in Ho. destruct Ho as [H1 [H2 H3]].
    pose proof (skip2_spec rest r2 (low r1) c Ho2) as Hs.
    destruct (skip2 (low r1) r2 rest) as [[r2' rest']|]; [|intros x y []].
    destruct Hs as (S1 & S2 & S3 & S4). unfold low in S2.
    destruct (take2 r1 r2' rest') as [p [r3 rest3]] eqn:E.
    destruct (take2_spec rest' r1 r2' c p r3 rest3 S1 H2 S2 E) as (T1 & T2 & T3 & T4 & T5 & T6).
    assert (Nr1 : fst r1 < snd r1) by (apply N1; left; destruct r1; reflexivity).
    assert (Nr2 : fst r2' < snd r2') by (apply N2; apply S3; left; destruct r2'; reflexivity).
    intros x y Hin. apply in_app_or in Hin. destruct Hin as [Hin|Hin].
    + unfold low, high in Hin. destruct (Z.ltb_spec (fst r2') (snd r1)); [|contradiction].
      destruct Hin as [Eq|[]]. rewrite rmax_max, rmin_min in Eq. inversion Eq; subst; lia.
    + apply in_app_or in Hin. destruct Hin as [Hin|Hin].
      * eapply (take2_nonempty rest' r1 r2' c p (r3, rest3)); eauto.
        intros a' b' [Hi|Hi]; [apply N1; left; auto|apply N2, S3; auto].
      * eapply (IH r3 rest3); eauto.
        -- intros a' b' Hi; apply N1; right; auto.
        -- intros a' b' Hi; apply N2, S3, T5; auto.
Qed.

Lemma mr_and_range_nonempty : forall a b, ordered a -> ordered b ->
  nonempty_ranges a -> nonempty_ranges b -> nonempty_ranges (mr_and_range a b).
Proof.
  intros a b Ha Hb Na Nb. apply ordered_ord in Ha, Hb.
  destruct (ord_exists_from _ Ha) as [ba Ha']. destruct (ord_exists_from _ Hb) as [bb Hb'].
  unfold mr_and_range. destruct b as [|r2 rest]; [intros x y []|].
  eapply and_range_loop_nonempty; eauto.
Qed.

(** ** bounds *)

Lemma mr_bounds_spec : forall rs, ordered rs -> nonempty_ranges rs ->
  match mr_bounds rs with
  | None => forall x, ~ covers rs x
  | Some (l, h) => covers rs l /\ covers rs (h - 1) /\ (forall x, covers rs x -> l <= x < h)
  end.
Proof.
  intros rs Ho Hne. apply ordered_ord in Ho. destruct rs as [|r t]; cbn [mr_bounds].
  - intros x; rewrite covers_nil; tauto.
  - assert (Hf : ord_from (fst r - 1) (r :: t)) by (destruct Ho as [Ho1 Ho2]; cbn [ord_from]; split; [lia|split; [exact Ho1|exact Ho2]]).
    set (rl := last (r :: t) r).
    assert (Hin : In rl (r :: t)) by (apply last_In; discriminate).
    assert (Hl : forall r', In r' (r :: t) -> snd r' <= snd rl)
      by (intros; eapply ord_from_last; eauto).
    assert (Nr : fst r < snd r) by (apply Hne; left; destruct r; reflexivity).
    assert (Nl : fst rl < snd rl) by (apply Hne; rewrite <- surjective_pairing; exact Hin).
    change (covers (r :: t) (fst r) /\ covers (r :: t) (snd rl - 1) /\
            (forall x, covers (r :: t) x -> fst r <= x < snd rl)).
    clearbody rl. split; [|split].
    + apply covers_cons; left; lia.
    + exists (fst rl), (snd rl). rewrite <- surjective_pairing; split; auto. lia.
    + intros x Hx. split.
      * pose proof (ord_from_covers _ _ _ Hf Hx); lia.
      * destruct Hx as (l' & h' & Hi & Hx). apply Hl in Hi. cbn [snd] in Hi. lia.
Qed.

Lemma mr_is_empty_spec : forall rs, ordered rs -> nonempty_ranges rs ->
  (mr_is_empty rs = true <-> forall x, ~ covers rs x).
Proof.
  intros [|r t] Ho Hne; cbn [mr_is_empty].
  - split; auto. intros _ x; rewrite covers_nil; tauto.
  - split; [discriminate|]. intros H. exfalso.
    apply (H (fst r)). apply covers_cons; left.
    assert (fst r < snd r) by (apply Hne; left; destruct r; reflexivity). lia.
Qed.
