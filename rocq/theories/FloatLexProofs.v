(** The binary64 parsers of FloatLex.v beside the real ones of PathLex.v: they read the same
    texts, and every number is the rounded one. *)
From Coq Require Import Reals Lra ZArith List Bool NArith Lia Ascii String.
From Flocq Require Import Core BinarySingleNaN.
From Verif Require Import Base Chars Floats ApproxCurve DrawCurves FloatProofs FloatScale FloatErr Coords PathBuild PathGrammar
  PathLex BuildProofs LexProofs FloatPath FloatPathProofs FloatLex.
Import ListNotations.
Open Scope R_scope.

(** [x] is the binary64 number nearest to [r], ties to even; beyond the range, infinity. *)
Definition rounds_to (r : R) (x : f64) : Prop :=
  let v := round radix2 (FLT_exp (-1074) 53) ZnearestE r in
  if Rlt_bool (Rabs v) (bpow radix2 1024) then is_finite x = true /\ B2R x = v else x = B754_infinity (Rlt_bool r 0).

Lemma F2R0 : forall n, F2R (Float radix2 n 0) = IZR n.
Proof. intros n. unfold F2R. cbn [Fnum Fexp bpow]. apply Rmult_1_r. Qed.

Definition signed (neg : bool) (r : R) : R := if neg then - r else r.

Lemma fratio_rounds : forall neg n d, rounds_to (signed neg (IZR (Zpos n) / IZR (Zpos d))) (fratio neg n d).
Proof.
  intros neg n d. unfold rounds_to, fratio.
  generalize (Bdiv_correct_aux 53 1024 prec_ok emax_ok mode_NE neg n 0 false d 0). cbv zeta.
  set (z := let '(mz, ez, lz) := SpecFloat.SFdiv_core_binary 53 1024 (Zpos n) 0 (Zpos d) 0 in
            binary_round_aux 53 1024 mode_NE (xorb neg false) mz ez lz).
  intros C. generalize (proj1 C). destruct C as [_ C]. intros V. rewrite is_finite_SF2B, B2R_SF2B.
  assert (Q : F2R (Float radix2 (SpecFloat.cond_Zopp neg (Zpos n)) 0) / F2R (Float radix2 (SpecFloat.cond_Zopp false (Zpos d)) 0)
              = signed neg (IZR (Zpos n) / IZR (Zpos d))).
  { rewrite !F2R0. destruct neg; cbn [SpecFloat.cond_Zopp signed]; [rewrite opp_IZR; unfold Rdiv; ring|reflexivity]. }
  rewrite Q in C. cbn [round_mode] in C. change (SpecFloat.fexp 53 1024) with bexp in C. rewrite bexp_flt in C.
  destruct (Rlt_bool (Rabs _) _).
  - destruct C as (C1 & C2 & _). auto.
  - rewrite xorb_false_r in C. apply B2SF_inj. rewrite B2SF_SF2B, C.
    assert (0 < IZR (Zpos n) / IZR (Zpos d)) by (apply Rdiv_lt_0_compat; apply IZR_lt; reflexivity).
    destruct neg; cbn [signed]; [rewrite Rlt_bool_true by lra|rewrite Rlt_bool_false by lra]; reflexivity.
Qed.

Lemma pow10_pos : forall e, IZR (Zpos (10 ^ e)) = powerRZ 10 (Zpos e).
Proof. intros e. rewrite Pos2Z.inj_pow. cbn [powerRZ]. rewrite pow_IZR, positive_nat_Z. reflexivity. Qed.

Lemma rounds_zero : forall neg, rounds_to 0 (B754_zero neg).
Proof.
  intros neg. unfold rounds_to. rewrite round_0 by apply valid_rnd_N. rewrite Rabs_R0, Rlt_bool_true by apply bpow_gt_0. auto.
Qed.

Lemma fdecimal_rounds : forall neg m e, (0 <= m)%Z -> rounds_to (signed neg (IZR m * powerRZ 10 e)) (fdecimal neg m e).
Proof.
  intros neg m e M. destruct m as [|p|p]; [|clear M|lia]; cbn [fdecimal].
  - replace (signed neg (0 * powerRZ 10 e)) with 0 by (destruct neg; cbn [signed]; ring). apply rounds_zero.
  - destruct e as [|e|e].
    + replace (IZR (Zpos p) * powerRZ 10 0) with (IZR (Zpos p) / IZR 1) by (cbn [powerRZ]; field). apply fratio_rounds.
    + rewrite <- pow10_pos, <- mult_IZR. replace (IZR (Zpos p * Zpos (10 ^ e))) with (IZR (Zpos (p * 10 ^ e)) / IZR 1)
        by (rewrite <- Pos2Z.inj_mul; field). apply fratio_rounds.
    + replace (powerRZ 10 (Zneg e)) with (/ IZR (Zpos (10 ^ e))) by (rewrite pow10_pos; reflexivity). apply fratio_rounds.
Qed.

Lemma dec_nonneg : forall t, all is_digit t -> (0 <= dec t)%Z.
Proof.
  intros t A. unfold dec. assert (G : forall t a, all is_digit t -> (0 <= a)%Z -> (0 <= fold_left (fun a c => 10 * a + (Z.of_N c - 48)) t a)%Z).
  { clear. induction t as [|c t IH]; intros a A H; cbn [fold_left]; [exact H|]. inversion A as [|? ? D A']; subst. apply IH; [exact A'|].
    unfold is_digit in D. apply andb_prop in D. destruct D as [D _]. apply N.leb_le in D. change (ch "0") with 48%N in D. lia. }
  apply G; [exact A|lia].
Qed.

(** ** Parsers that read the same texts *)

Definition alike {A B} (E : A -> B -> Prop) (p : parser A) (q : parser B) : Prop := forall s,
  match p s, q s with
  | Some (r, a), Some (r', b) => r = r' /\ E a b
  | None, None => True
  | _, _ => False
  end.

Definition both {A A' B B'} (E : A -> B -> Prop) (F : A' -> B' -> Prop) (x : A * A') (y : B * B') : Prop :=
  E (fst x) (fst y) /\ F (snd x) (snd y).
Definition maybe {A B} (E : A -> B -> Prop) (x : option A) (y : option B) : Prop :=
  match x, y with Some a, Some b => E a b | None, None => True | _, _ => False end.

Lemma alike_refl : forall A (p : parser A), alike eq p p.
Proof. intros A p s. destruct (p s) as [[r a]|]; auto. Qed.
Lemma alike_weaken : forall A B (E F : A -> B -> Prop) p q, (forall a b, E a b -> F a b) -> alike E p q -> alike F p q.
Proof. intros A B E F p q H L s. specialize (L s). destruct (p s) as [[r a]|], (q s) as [[r' b]|]; auto. destruct L. auto. Qed.
Lemma alike_pmap : forall A B A' B' (E : A -> B -> Prop) (F : A' -> B' -> Prop) p q f g,
  alike E p q -> (forall a b, E a b -> F (f a) (g b)) -> alike F (pmap p f) (pmap q g).
Proof.
  intros A B A' B' E F p q f g L H s. unfold pmap. specialize (L s).
  destruct (p s) as [[r a]|], (q s) as [[r' b]|]; try contradiction; auto. destruct L. auto.
Qed.
Lemma alike_map_res : forall A B A' B' (E : A -> B -> Prop) (F : A' -> B' -> Prop) p q f g,
  alike E p q -> (forall a b, E a b -> maybe F (f a) (g b)) -> alike F (map_res p f) (map_res q g).
Proof.
  intros A B A' B' E F p q f g L H s. unfold map_res. specialize (L s).
  destruct (p s) as [[r a]|], (q s) as [[r' b]|]; try contradiction; auto. destruct L as [<- L]. specialize (H a b L).
  destruct (f a), (g b); cbn [maybe] in H; auto.
Qed.
Lemma alike_opt : forall A B (E : A -> B -> Prop) p q, alike E p q -> alike (maybe E) (opt p) (opt q).
Proof.
  intros A B E p q L s. unfold opt. specialize (L s). destruct (p s) as [[r a]|], (q s) as [[r' b]|]; try contradiction; cbn [maybe]; auto.
Qed.
Lemma alike_alt : forall A B (E : A -> B -> Prop) p q p' q', alike E p q -> alike E p' q' -> alike E (alt p p') (alt q q').
Proof.
  intros A B E p q p' q' L L' s. unfold alt. specialize (L s). specialize (L' s).
  destruct (p s) as [[r a]|], (q s) as [[r' b]|]; try contradiction; auto.
Qed.
Lemma alike_pair : forall A B A' B' (E : A -> B -> Prop) (F : A' -> B' -> Prop) p q p' q',
  alike E p q -> alike F p' q' -> alike (both E F) (pair p p') (pair q q').
Proof.
  intros A B A' B' E F p q p' q' L L' s. unfold pair. specialize (L s).
  destruct (p s) as [[r a]|], (q s) as [[r' b]|]; try contradiction; auto. destruct L as [<- L]. specialize (L' r).
  destruct (p' r) as [[r1 a1]|], (q' r) as [[r2 b2]|]; try contradiction; auto. destruct L' as [<- L']. split; [reflexivity|split; assumption].
Qed.
Lemma alike_preceded : forall A A' B' (F : A' -> B' -> Prop) (p : parser A) p' q', alike F p' q' -> alike F (preceded p p') (preceded p q').
Proof.
  intros A A' B' F p p' q' L. unfold preceded. eapply alike_pmap; [apply alike_pair; [apply alike_refl|exact L]|]. intros a b [_ H]. exact H.
Qed.
Lemma alike_terminated : forall A B C (E : A -> B -> Prop) p q (r : parser C), alike E p q -> alike E (terminated p r) (terminated q r).
Proof.
  intros A B C E p q r L. unfold terminated. eapply alike_pmap; [apply alike_pair; [exact L|apply alike_refl]|]. intros a b [H _]. exact H.
Qed.
Lemma alike_call : forall A B (E : A -> B -> Prop) name p q, alike E p q -> alike E (call name p) (call name q).
Proof. intros A B E name p q L. unfold call, delimited. apply alike_preceded, alike_terminated, L. Qed.

Lemma alike_separated : forall A C D (E : C -> D -> Prop) (sep : parser A) (p : parser C) (q : parser D), alike E p q ->
  alike (Forall2 E) (separated_list0 sep p) (separated_list0 sep q).
Proof.
  intros A C D E sep p q L.
  assert (G : forall n, alike (Forall2 E) (separated_loop sep p n) (separated_loop sep q n)).
  { induction n as [|n IH]; intros s; cbn [separated_loop]; (destruct (sep s) as [[s1 v]|]; [|split; [reflexivity|constructor]]);
      (destruct (Nat.eqb _ _); [exact I|]); specialize (L s1);
      destruct (p s1) as [[r a]|], (q s1) as [[r' b]|]; try contradiction; try (split; [reflexivity|constructor]); [exact I|].
    destruct L as [<- L]. specialize (IH r). destruct (separated_loop sep p n r) as [[r1 l1]|], (separated_loop sep q n r) as [[r2 l2]|];
      try contradiction; auto. destruct IH as [<- IH]. split; [reflexivity|constructor; assumption]. }
  intros s. unfold separated_list0. pose proof (L s) as Ls. destruct (p s) as [[r a]|], (q s) as [[r' b]|]; try contradiction.
  - destruct Ls as [<- Ls]. specialize (G (List.length s) r).
    destruct (separated_loop sep p (List.length s) r) as [[r1 l1]|], (separated_loop sep q (List.length s) r) as [[r2 l2]|]; try contradiction; auto.
    destruct G as [<- G]. split; [reflexivity|constructor; assumption].
  - split; [reflexivity|constructor].
Qed.

(** ** Numbers, commands *)

Lemma ffrom_str_alike : forall s, maybe rounds_to (from_str s) (ffrom_str s).
Proof.
  intros s. unfold from_str, ffrom_str.
  assert (SG : exists neg r, ffrom_sign s = (neg, r) /\ from_sign s = (if neg then -1 else 1, r)).
  { unfold ffrom_sign, from_sign. destruct s as [|c r]; [exists false, []; auto|]. destruct (N.eqb c (ch "-")); [eauto|].
    destruct (N.eqb c (ch "+")); eauto. }
  destruct SG as (neg & r & -> & ->). destruct (while0 is_digit r) as [s1 i] eqn:W. apply while0_spec in W. destruct W as (_ & DI & _).
  match goal with |- context [let '(_, _) := ?x in _] => destruct x as [s2 f] eqn:W2 end.
  assert (DF : all is_digit f).
  { destruct s1 as [|c s1]; [injection W2 as _ <-; constructor|]. destruct (N.eqb c (ch ".")); [|injection W2 as _ <-; constructor].
    apply while0_spec in W2. destruct W2 as (_ & D & _). exact D. }
  assert (DM : (0 <= dec (i ++ f))%Z) by (apply dec_nonneg, all_app; assumption).
  destruct (i ++ f) as [|d m]; [exact I|]. destruct (from_exp s2) as [x|]; [|exact I]. cbn [maybe].
  pose proof (fdecimal_rounds neg (dec (d :: m)) (x - Z.of_nat (List.length f)) DM) as R.
  replace ((if neg then -1 else 1) * IZR (dec (d :: m)) * powerRZ 10 (x - Z.of_nat (List.length f)))
    with (signed neg (IZR (dec (d :: m)) * powerRZ 10 (x - Z.of_nat (List.length f)))) by (destruct neg; cbn [signed]; ring).
  exact R.
Qed.

Lemma fnumber_alike : alike rounds_to number fnumber.
Proof.
  unfold number, fnumber, floating_point_signed, ffloating_point_signed, integer, finteger.
  apply alike_alt; (eapply alike_map_res; [apply alike_refl|]); intros a b <-; apply ffrom_str_alike.
Qed.

Definition rounded_command (c : char * list R) (fc : char * list f64) : Prop := fst c = fst fc /\ Forall2 rounds_to (snd c) (snd fc).

Lemma fpath_command_alike : alike rounded_command path_command fpath_command.
Proof.
  unfold path_command, fpath_command. apply alike_pair; [apply alike_refl|]. apply alike_preceded, alike_separated, fnumber_alike.
Qed.

(** ** How far the rounded number is off *)

Lemma rounds_near : forall P r x, 1 <= P -> Rabs r <= 2 * P -> 2 * P <= bpow radix2 1000 -> rounds_to r x -> nr 3 P r x.
Proof.
  intros P r x P1 B H X. unfold rounds_to in X. rewrite <- bexp_flt in X. change (round radix2 bexp ZnearestE r) with (rne r) in X.
  rewrite rne_range in X by lra. destruct X as [F E]. split; [exact F|]. rewrite E.
  destruct (rne_near r) as (e & h & He & Hh & ->). pose proof u53_pos as [U0 _].
  replace (r * (1 + e) + h - r) with (r * e + h) by ring. eapply Rle_trans; [apply Rabs_triang|]. rewrite Rabs_mult.
  assert (TU : tiny <= u53) by (apply bpow_le; lia).
  assert (UP : u53 * 1 <= u53 * P) by (apply Rmult_le_compat_l; lra).
  assert (Rabs r * Rabs e <= 2 * P * u53) by (apply Rmult_le_compat; try apply Rabs_pos; assumption). lra.
Qed.
