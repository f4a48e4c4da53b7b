(** The parsers of PathLex.v against the grammars of PathGrammar.v. *)
From Coq Require Import Reals Lra ZArith List Bool NArith Arith Lia ZifyBool Ascii String.
From Verif Require Import Base Chars Coords PathBuild PathGrammar PathLex BuildProofs.
Import ListNotations.

(** ** Parsers that consume a text of a language *)

Definition sound {A} (p : parser A) (P : list char -> A -> Prop) : Prop :=
  forall s rest v, p s = Some (rest, v) -> exists t, s = t ++ rest /\ P t v.

Lemma sound_weaken : forall A (p : parser A) (P Q : list char -> A -> Prop),
  sound p P -> (forall t v, P t v -> Q t v) -> sound p Q.
Proof. intros A p P Q S H s rest v E. destruct (S _ _ _ E) as (t & T & Pt). eauto. Qed.

Lemma pmap_sound : forall A B (p : parser A) P (f : A -> B), sound p P ->
  sound (pmap p f) (fun t w => exists v, P t v /\ w = f v).
Proof.
  intros A B p P f S s rest w E. unfold pmap in E. destruct (p s) as [[r v]|] eqn:D; [|discriminate].
  injection E as <- <-. destruct (S _ _ _ D) as (t & T & Pt). eauto.
Qed.
Lemma map_res_sound : forall A B (p : parser A) P (f : A -> option B), sound p P ->
  sound (map_res p f) (fun t w => exists v, P t v /\ f v = Some w).
Proof.
  intros A B p P f S s rest w E. unfold map_res in E. destruct (p s) as [[r v]|] eqn:D; [|discriminate].
  destruct (f v) as [u|] eqn:F; [|discriminate].
  injection E as <- <-. destruct (S _ _ _ D) as (t & T & Pt). eauto.
Qed.
Lemma opt_sound : forall A (p : parser A) P, sound p P ->
  sound (opt p) (fun t o => match o with Some v => P t v | None => t = [] end).
Proof.
  intros A p P S s rest w E. unfold opt in E. destruct (p s) as [[r v]|] eqn:D.
  - injection E as <- <-. destruct (S _ _ _ D) as (t & T & Pt). eauto.
  - injection E as <- <-. exists []. auto.
Qed.
Lemma alt_sound : forall A (p q : parser A) P Q, sound p P -> sound q Q ->
  sound (alt p q) (fun t v => P t v \/ Q t v).
Proof.
  intros A p q P Q SP SQ s rest v E. unfold alt in E. destruct (p s) as [[r w]|] eqn:D.
  - injection E as <- <-. destruct (SP _ _ _ D) as (t & T & Pt). eauto.
  - destruct (SQ _ _ _ E) as (t & T & Pt). eauto.
Qed.
Lemma pair_sound : forall A B (p : parser A) (q : parser B) P Q, sound p P -> sound q Q ->
  sound (pair p q) (fun t v => exists t1 t2, t = t1 ++ t2 /\ P t1 (fst v) /\ Q t2 (snd v)).
Proof.
  intros A B p q P Q SP SQ s rest v E. unfold pair in E. destruct (p s) as [[r a]|] eqn:D; [|discriminate].
  destruct (q r) as [[r' b]|] eqn:F; [|discriminate]. injection E as <- <-.
  destruct (SP _ _ _ D) as (t1 & -> & P1). destruct (SQ _ _ _ F) as (t2 & -> & P2).
  exists (t1 ++ t2). rewrite app_assoc. split; [reflexivity|]. exists t1, t2. auto.
Qed.
Lemma recognize_sound : forall A (p : parser A) P, sound p P ->
  sound (recognize p) (fun t w => w = t /\ exists v, P t v).
Proof.
  intros A p P S s rest w E. unfold recognize in E. destruct (p s) as [[r v]|] eqn:D; [|discriminate].
  injection E as <- <-. destruct (S _ _ _ D) as (t & -> & Pt). exists t. split; [reflexivity|]. split; [|eauto].
  rewrite app_length. replace (_ + _ - _)%nat with (List.length t) by lia. rewrite firstn_app, Nat.sub_diag, firstn_all, firstn_O, app_nil_r.
  reflexivity.
Qed.
Lemma preceded_sound : forall A B (p : parser A) (q : parser B) P Q, sound p P -> sound q Q ->
  sound (preceded p q) (fun t v => exists t1 t2 a, t = t1 ++ t2 /\ P t1 a /\ Q t2 v).
Proof.
  intros A B p q P Q SP SQ. eapply sound_weaken; [apply pmap_sound, pair_sound; eauto|].
  intros t v ([a b] & (t1 & t2 & H) & ->). exists t1, t2, a. exact H.
Qed.
Lemma terminated_sound : forall A B (p : parser A) (q : parser B) P Q, sound p P -> sound q Q ->
  sound (terminated p q) (fun t v => exists t1 t2 b, t = t1 ++ t2 /\ P t1 v /\ Q t2 b).
Proof.
  intros A B p q P Q SP SQ. eapply sound_weaken; [apply pmap_sound, pair_sound; eauto|].
  intros t v ([a b] & (t1 & t2 & H) & ->). exists t1, t2, b. exact H.
Qed.
Lemma one_of_sound : forall set, sound (one_of set) (fun t c => t = [c] /\ In c set).
Proof.
  intros set s rest v E. destruct s as [|c r]; [discriminate|]. cbn [one_of] in E.
  destruct (is_one_of set c) eqn:D; [|discriminate]. injection E as <- <-. exists [c].
  rewrite is_one_of_In in D. auto.
Qed.

Lemma while0_spec : forall f s rest t, while0 f s = (rest, t) ->
  s = t ++ rest /\ all f t /\ match rest with c :: _ => f c = false | [] => True end.
Proof.
  intros f. induction s as [|c s IH]; intros rest t E; cbn [while0] in E.
  - injection E as <- <-. repeat split. constructor.
  - destruct (f c) eqn:F.
    + destruct (while0 f s) as [r u] eqn:W. injection E as <- <-. destruct (IH _ _ eq_refl) as (-> & A & B).
      repeat split; auto. constructor; auto.
    + injection E as <- <-. repeat split; auto. constructor.
Qed.

(** [s] does not start with a character of [f]. *)
Definition stops (f : char -> bool) (s : list char) : Prop := match s with c :: _ => f c = false | [] => True end.

Lemma while0_app : forall f t rest, all f t -> stops f rest -> while0 f (t ++ rest) = (rest, t).
Proof.
  intros f t rest A S. induction A as [|c t F A IH]; cbn [app while0].
  - destruct rest as [|c r]; [reflexivity|]. cbn in S. cbn [while0]. rewrite S. reflexivity.
  - rewrite F, IH. reflexivity.
Qed.
Lemma while0_stop : forall f s, stops f s -> while0 f s = (s, []).
Proof. intros f s S. apply (while0_app f [] s); [constructor|auto]. Qed.

(** More of the same in front. *)
Lemma while0_more : forall f t s, all f t ->
  while0 f (t ++ s) = (fst (while0 f s), t ++ snd (while0 f s)).
Proof.
  intros f t s A. induction A as [|c t F A IH]; cbn [app while0].
  - destruct (while0 f s). reflexivity.
  - rewrite F, IH. reflexivity.
Qed.

Lemma take0_sound : forall f, sound (take0 f) (fun t v => v = t /\ all f t).
Proof.
  intros f s rest v E. injection E as E. apply while0_spec in E. destruct E as (-> & A & _). eauto.
Qed.
Lemma take1_sound : forall f, sound (take1 f) (fun t v => v = t /\ t <> [] /\ all f t).
Proof.
  intros f s rest v E. unfold take1 in E. destruct (while0 f s) as [r t] eqn:W. destruct t as [|c t]; [discriminate|].
  injection E as <- <-. apply while0_spec in W. destruct W as (-> & A & _). exists (c :: t). repeat split; auto. discriminate.
Qed.
Lemma take1_app : forall f t rest, t <> [] -> all f t -> stops f rest -> take1 f (t ++ rest) = Some (rest, t).
Proof.
  intros f t rest N A S. unfold take1. rewrite while0_app by auto. destruct t; [congruence|reflexivity].
Qed.
Lemma take1_stop : forall f s, stops f s -> take1 f s = None.
Proof. intros f s S. unfold take1. rewrite while0_stop by auto. reflexivity. Qed.
Lemma take1_more : forall f t s, t <> [] -> all f t ->
  take1 f (t ++ s) = Some (fst (while0 f s), t ++ snd (while0 f s)).
Proof. intros f t s N A. unfold take1. rewrite while0_more by auto. destruct t; [congruence|reflexivity]. Qed.

Lemma while0_le : forall f s, (List.length (fst (while0 f s)) <= List.length s)%nat.
Proof.
  intros f s. destruct (while0 f s) as [r t] eqn:W. apply while0_spec in W. destruct W as (-> & _). rewrite app_length. cbn. lia.
Qed.

Lemma sound_le : forall A (p : parser A) P, sound p P -> forall s rest v, p s = Some (rest, v) ->
  (List.length rest <= List.length s)%nat.
Proof. intros A p P S s rest v E. destruct (S _ _ _ E) as (t & -> & _). rewrite app_length. lia. Qed.

Lemma recognize_eq : forall A (p : parser A) P, sound p P -> forall t rest v,
  p (t ++ rest) = Some (rest, v) -> recognize p (t ++ rest) = Some (rest, t).
Proof.
  intros A p P S t rest v E. unfold recognize. rewrite E. rewrite app_length.
  replace (_ + _ - _)%nat with (List.length t) by lia. rewrite firstn_app, Nat.sub_diag, firstn_all, firstn_O, app_nil_r.
  reflexivity.
Qed.

(** ** Numbers *)

Lemma dec_value : forall t a, fold_left (fun a c => (10 * a + (Z.of_N c - 48))%Z) t a =
  (a * 10 ^ Z.of_nat (List.length t) + digits_value t)%Z.
Proof.
  induction t as [|c t IH]; intros a; cbn [fold_left digits_value List.length].
  - cbn. lia.
  - unfold char in *. rewrite IH, Nat2Z.inj_succ, Z.pow_succ_r by lia. ring.
Qed.
Lemma dec_digits : forall t, dec t = digits_value t.
Proof. intros t. unfold dec. rewrite dec_value. lia. Qed.

Lemma sign_sound : sound sign_opt (fun t v => exists sg, sign_text t sg /\ v = IZR sg).
Proof.
  eapply sound_weaken; [apply pmap_sound, opt_sound, one_of_sound|].
  intros t v ([c|] & P & ->).
  - destruct P as (-> & [<-|[<-|[]]]); eexists; split; [apply sign_plus|reflexivity|apply sign_minus|reflexivity].
  - subst t. exists 1%Z. split; [constructor|reflexivity].
Qed.
Lemma opt_sign_sound : sound (opt (one_of (chars "+-"))) (fun t v => exists sg, sign_text t sg).
Proof.
  eapply sound_weaken; [apply opt_sound, one_of_sound|].
  intros t [c|] P.
  - destruct P as (-> & [<-|[<-|[]]]); eexists; [apply sign_plus|apply sign_minus].
  - subst t. exists 1%Z. constructor.
Qed.

Lemma digit1_sound : sound digit1 (fun t v => v = t /\ digits t).
Proof. apply take1_sound. Qed.

Lemma exponent_sound : sound exponent (fun t v => v = t /\ exists e, exponent_text t e /\ t <> []).
Proof.
  eapply sound_weaken; [apply recognize_sound, pair_sound; [apply one_of_sound|apply pair_sound; [apply sign_sound|apply digit1_sound]]|].
  cbn beta. intros t v (-> & (c & sg & d) & t1 & t2 & -> & (-> & I) & s & ds & -> & (z & S & _) & (_ & D)).
  cbn [fst snd] in *. split; [reflexivity|]. eexists. split; [exact (exp_some c s z ds I S D)|discriminate].
Qed.

Lemma fractional_sound : sound fractional_constant
  (fun t v => v = t /\ exists m p, mantissa t m p /\ In (ch ".") t).
Proof.
  eapply sound_weaken.
  { apply alt_sound; apply recognize_sound.
    - apply pair_sound; [apply take0_sound|apply preceded_sound; [apply one_of_sound|apply digit1_sound]].
    - apply terminated_sound; [apply digit1_sound|apply one_of_sound]. }
  cbn beta. intros t v [(-> & [a b] & i & r & -> & (_ & D) & t1 & f & c & -> & (-> & [<-|[]]) & (_ & F))|
                        (-> & w & i & r & c & -> & (_ & D) & (-> & [<-|[]]))]; split; auto; do 2 eexists.
  - split; [apply mant_frac; auto|apply in_or_app; right; left; reflexivity].
  - split; [apply mant_dot; auto|apply in_or_app; right; left; reflexivity].
Qed.

Lemma floating_sound : sound floating_point_constant
  (fun t v => v = t /\ exists m x man p e, t = m ++ x /\ mantissa m man p /\ exponent_text x e).
Proof.
  eapply sound_weaken.
  { apply alt_sound; apply recognize_sound.
    - apply pair_sound; [apply fractional_sound|apply opt_sound, exponent_sound].
    - apply pair_sound; [apply digit1_sound|apply exponent_sound]. }
  cbn beta. intros t v [(-> & [a o] & m & x & -> & (_ & man & p & M & _) & X)|
                        (-> & [a o] & m & x & -> & (_ & M) & (_ & e & X & _))]; split; auto.
  - exists m, x, man, p. cbn [snd] in X. destruct o as [w|].
    + destruct X as (_ & e & X & _). exists e. auto.
    + subst x. exists 0%Z. repeat split; auto. constructor.
  - exists m, x, (digits_value m), 0%Z, e. repeat split; auto. constructor. auto.
Qed.

(** What from_str makes of a number. *)
Lemma digit_not : forall c, is_digit c = true ->
  N.eqb c (ch ".") = false /\ N.eqb c (ch "-") = false /\ N.eqb c (ch "+") = false /\ is_one_of (chars "eE") c = false.
Proof.
  intros c D. unfold is_digit in D. change (ch ".") with 46%N. change (ch "-") with 45%N. change (ch "+") with 43%N.
  unfold is_one_of. change (chars "eE") with [101; 69]%N. cbn [existsb]. lia.
Qed.

Lemma from_exp_text : forall x e, exponent_text x e -> from_exp x = Some e.
Proof.
  intros x e X. destruct X as [|e s sg d I S [N D]]; [reflexivity|]. cbn [from_exp].
  apply is_one_of_In in I. rewrite I.
  destruct d as [|c d]; [congruence|].
  assert (W : while0 is_digit (c :: d) = ([], c :: d)) by (pose proof (while0_app is_digit (c :: d) [] D Logic.I) as W; rewrite app_nil_r in W; exact W).
  assert (DC : is_digit c = true) by (inversion D; auto).
  destruct (digit_not c DC) as (_ & M & P & _).
  destruct S; cbn [app].
  - rewrite M, P. rewrite W, dec_digits. f_equal; lia.
  - change (match while0 is_digit (c :: d) with ([], d0 :: ds) => Some (dec (d0 :: ds)) | _ => None end =
            Some (1 * digits_value (c :: d))%Z).
    rewrite W, dec_digits. f_equal; lia.
  - change (match while0 is_digit (c :: d) with ([], d0 :: ds) => Some (- dec (d0 :: ds))%Z | _ => None end =
            Some (-1 * digits_value (c :: d))%Z).
    rewrite W, dec_digits. f_equal; lia.
Qed.

Lemma exp_stops : forall x e rest, exponent_text x e -> stops is_digit rest -> stops is_digit (x ++ rest).
Proof.
  intros x e rest X S. destruct X as [|c s sg d I]; [exact S|]. cbn. destruct I as [<-|[<-|[]]]; reflexivity.
Qed.
Lemma exp_not_dot : forall x e, exponent_text x e -> match x with c :: _ => N.eqb c (ch ".") = false | [] => True end.
Proof. intros x e X. destruct X as [|c s sg d I]; [exact Logic.I|]. destruct I as [<-|[<-|[]]]; reflexivity. Qed.

Lemma mantissa_head : forall m v p, mantissa m v p ->
  exists c r, m = c :: r /\ (is_digit c = true \/ c = ch ".").
Proof.
  intros m v p [i [N D]|i f D [N F]|i [N D]].
  - destruct D; [congruence|eauto].
  - destruct D as [|c r C D]; cbn [app]; eauto.
  - destruct D; [congruence|]. cbn [app]. eauto.
Qed.

Lemma from_sign_text : forall s sg m v p r, sign_text s sg -> mantissa m v p -> from_sign (s ++ m ++ r) = (IZR sg, m ++ r).
Proof.
  intros s sg m v p r S M. destruct (mantissa_head m v p M) as (c & m' & -> & C).
  destruct S; cbn [app]; try reflexivity.
  unfold from_sign. destruct C as [C| ->].
  - destruct (digit_not c C) as (_ & -> & -> & _). reflexivity.
  - reflexivity.
Qed.

Lemma from_str_text : forall t v, number_text t v -> from_str t = Some v.
Proof.
  intros t v [s sg m man p x e S M X]. unfold from_str. rewrite (from_sign_text s sg m man p x S M). clear S.
  pose proof (exp_stops x e [] X Logic.I) as ST. rewrite app_nil_r in ST.
  pose proof (from_exp_text x e X) as FX. pose proof (exp_not_dot x e X) as ND.
  destruct M as [i [N D]|i f D [N F]|i [N D]].
  - rewrite while0_app by auto. destruct x as [|c x].
    + rewrite app_nil_r. destruct i as [|c i]; [congruence|]. cbn [from_exp]. rewrite dec_digits.
      injection FX as <-. reflexivity.
    + rewrite ND, app_nil_r. destruct i as [|c' i]; [congruence|]. rewrite FX, dec_digits.
      do 3 f_equal. cbn [List.length]. lia.
  - rewrite <- app_assoc. cbn [app].
    rewrite while0_app by (auto; reflexivity). rewrite N.eqb_refl, while0_app by auto.
    assert (NE : i ++ f <> []) by (destruct i; [exact N|discriminate]).
    destruct (i ++ f) as [|c m] eqn:E; [congruence|]. rewrite FX, dec_digits. do 3 f_equal. lia.
  - rewrite <- app_assoc. cbn [app].
    rewrite while0_app by (auto; reflexivity). rewrite N.eqb_refl, while0_stop by auto. rewrite app_nil_r.
    destruct i as [|c i]; [congruence|]. rewrite FX, dec_digits. do 3 f_equal. cbn [List.length]. lia.
Qed.

Lemma number_sound : sound number number_text.
Proof.
  assert (NS : sound number (fun t v => exists v', number_text t v' /\ from_str t = Some v)).
  { eapply sound_weaken.
    { apply alt_sound; apply map_res_sound, recognize_sound.
      - apply pair_sound; [apply sign_sound|apply floating_sound].
      - apply pair_sound; [apply opt_sign_sound|apply digit1_sound]. }
    cbn beta. intros t v [(w & (-> & [a b] & s & r & -> & (sg & S & _) & (_ & m & x & man & p & e & -> & M & X)) & F)|
                          (w & (-> & [a b] & s & r & -> & (sg & S) & (_ & D)) & F)].
    - eexists. split; [constructor; eauto|exact F].
    - exists (IZR sg * IZR (digits_value r) * powerRZ 10 (0 + 0))%R. split; [|exact F].
      rewrite <- (app_nil_r r) at 1. constructor; [exact S|constructor; exact D|constructor]. }
  eapply sound_weaken; [exact NS|]. intros t v (v' & T & F). rewrite (from_str_text t v' T) in F. congruence.
Qed.

(** ** Every number is found, and a longer one if there is one *)

(** [p] succeeds on [s] and leaves at most [n] characters. *)
Definition leaves {A} (p : parser A) (s : list char) (n : nat) : Prop :=
  exists rest v, p s = Some (rest, v) /\ (List.length rest <= n)%nat.

Lemma sign_step : forall s sg m v p r, sign_text s sg -> mantissa m v p ->
  sign_opt (s ++ m ++ r) = Some (m ++ r, IZR sg) /\
  exists o, opt (one_of (chars "+-")) (s ++ m ++ r) = Some (m ++ r, o).
Proof.
  intros s sg m v p r S M. destruct (mantissa_head m v p M) as (c & m' & -> & C).
  destruct S; cbn [app]; [|split; [reflexivity|eexists; reflexivity]..].
  assert (O : opt (one_of (chars "+-")) (c :: m' ++ r) = Some (c :: m' ++ r, None)).
  { unfold opt, one_of. destruct C as [C| ->]; [|reflexivity].
    destruct (digit_not c C) as (_ & MI & PL & _). unfold is_one_of. change (chars "+-") with [ch "+"; ch "-"]. cbn [existsb].
    rewrite MI, PL. reflexivity. }
  split; [|eauto]. unfold sign_opt, pmap. rewrite O. reflexivity.
Qed.

Lemma recognize_leaves : forall A (p : parser A) s n, leaves p s n -> leaves (recognize p) s n.
Proof. intros A p s n (rest & v & E & L). unfold leaves, recognize. rewrite E. eauto. Qed.
Lemma pair_leaves : forall A B (p : parser A) (q : parser B) s rest a n,
  p s = Some (rest, a) -> leaves q rest n -> leaves (pair p q) s n.
Proof. intros A B p q s rest a n E (r & b & F & L). unfold leaves, pair. rewrite E, F. eauto. Qed.

(** An exponent is found. *)
Lemma exponent_leaves : forall x e rest, exponent_text x e -> x <> [] -> leaves exponent (x ++ rest) (List.length rest).
Proof.
  intros x e rest X N. destruct X as [|c s sg d I S [ND D]]; [congruence|]. apply recognize_leaves.
  cbn [app]. rewrite <- app_assoc.
  eapply pair_leaves; [cbn [one_of]; apply is_one_of_In in I; rewrite I; reflexivity|].
  assert (M : mantissa d (digits_value d) 0) by (constructor; split; auto).
  destruct (sign_step s sg d _ _ rest S M) as [E _]. eapply pair_leaves; [exact E|].
  exists (fst (while0 is_digit rest)), (d ++ snd (while0 is_digit rest)). split; [|apply while0_le].
  apply take1_more; auto.
Qed.

Lemma opt_exponent_leaves : forall x e rest, exponent_text x e -> leaves (opt exponent) (x ++ rest) (List.length rest).
Proof.
  intros x e rest X. destruct (list_eq_dec N.eq_dec x []) as [->|N].
  - unfold leaves, opt. cbn [app]. destruct (exponent rest) as [[r v]|] eqn:E; [|eauto].
    exists r, (Some v). split; [reflexivity|]. eapply sound_le; [apply exponent_sound|exact E].
  - destruct (exponent_leaves x e rest X N) as (r & v & E & L). unfold leaves, opt. rewrite E. eauto.
Qed.

(** With a point. *)
Lemma point_leaves : forall m man p x e rest, mantissa m man p -> In (ch ".") m -> exponent_text x e ->
  leaves floating_point_constant (m ++ x ++ rest) (List.length rest).
Proof.
  intros m man p x e rest M I X.
  assert (G : exists s' v, fractional_constant (m ++ x ++ rest) = Some (s', v) /\
                leaves (opt exponent) s' (List.length rest)).
  { destruct M as [i [N D]|i f D [N F]|i [N D]].
    - exfalso. apply (proj1 (Forall_forall _ _) D) in I. discriminate.
    - rewrite <- app_assoc. cbn [app].
      assert (E : separated_pair digit0 (pchar (ch ".")) digit1 (i ++ ch "." :: f ++ x ++ rest) =
                  Some (fst (while0 is_digit (x ++ rest)), (i, f ++ snd (while0 is_digit (x ++ rest))))).
      { unfold separated_pair, pair, digit0, take0. rewrite while0_app by (auto; reflexivity).
        unfold preceded, pmap, pair, pchar, one_of. change (is_one_of [ch "."] (ch ".")) with true. cbv iota.
        unfold digit1. rewrite take1_more by auto. reflexivity. }
      unfold fractional_constant, alt, recognize. rewrite E. eexists _, _. split; [reflexivity|].
      destruct (list_eq_dec N.eq_dec x []) as [->|NX].
      + cbn [app]. unfold leaves, opt. destruct (exponent (fst (while0 is_digit rest))) as [[r v]|] eqn:EX.
        * eexists _, _. split; [reflexivity|]. apply (sound_le _ _ _ exponent_sound) in EX. pose proof (while0_le is_digit rest). lia.
        * eexists _, _. split; [reflexivity|]. apply while0_le.
      + rewrite while0_stop.
        * cbn [fst]. eapply opt_exponent_leaves. eauto.
        * destruct X as [|c s sg d J]; [exfalso; apply NX; reflexivity|]. cbn. destruct J as [<-|[<-|[]]]; reflexivity.
    - rewrite <- app_assoc. cbn [app].
      assert (S1 : separated_pair digit0 (pchar (ch ".")) digit1 (i ++ ch "." :: x ++ rest) =
                   match digit1 (x ++ rest) with Some (r, v) => Some (r, (i, v)) | None => None end).
      { unfold separated_pair, pair, digit0, take0. rewrite while0_app by (auto; reflexivity).
        unfold preceded, pmap, pair, pchar, one_of. change (is_one_of [ch "."] (ch ".")) with true. cbv iota.
        destruct (digit1 (x ++ rest)) as [[r v]|]; reflexivity. }
      assert (S2 : terminated digit1 (pchar (ch ".")) (i ++ ch "." :: x ++ rest) = Some (x ++ rest, i)).
      { unfold terminated, pmap, pair, digit1. rewrite take1_app by (auto; reflexivity). reflexivity. }
      unfold fractional_constant, alt, recognize. rewrite S1, S2.
      destruct (digit1 (x ++ rest)) as [[r v]|] eqn:E1.
      + eexists _, _. split; [reflexivity|].
        assert (x = []).
        { destruct X as [|c s sg d J]; [reflexivity|]. exfalso. cbn [app] in E1. unfold digit1 in E1.
          rewrite take1_stop in E1; [discriminate|]. cbn. destruct J as [<-|[<-|[]]]; reflexivity. }
        subst x. cbn [app] in E1. apply (sound_le _ _ _ digit1_sound) in E1.
        unfold leaves, opt. destruct (exponent r) as [[r' v']|] eqn:EX; [|eauto].
        eexists _, _. split; [reflexivity|]. apply (sound_le _ _ _ exponent_sound) in EX. lia.
      + eexists _, _. split; [reflexivity|]. eapply opt_exponent_leaves. eauto. }
  destruct G as (s' & v & F & L).
  unfold floating_point_constant, leaves, alt.
  destruct (recognize_leaves _ _ _ _ (pair_leaves _ _ fractional_constant (opt exponent) _ _ _ _ F L)) as (r & w & E & LE).
  rewrite E. eauto.
Qed.

(** Without a point, with an exponent. *)
Lemma plain_leaves : forall m x e rest, digits m -> exponent_text x e -> x <> [] ->
  leaves floating_point_constant (m ++ x ++ rest) (List.length rest).
Proof.
  intros m x e rest [N D] X NX.
  assert (ST : stops is_digit (x ++ rest)).
  { destruct X as [|c s sg d J]; [congruence|]. cbn. destruct J as [<-|[<-|[]]]; reflexivity. }
  assert (FR : fractional_constant (m ++ x ++ rest) = None).
  { unfold fractional_constant, alt, recognize, separated_pair, terminated, pmap, pair, digit0, take0, digit1.
    rewrite while0_app, take1_app by auto. unfold preceded, pmap, pair, pchar, one_of.
    destruct X as [|c s sg d J]; [congruence|]. cbn [app]. destruct J as [<-|[<-|[]]]; reflexivity. }
  unfold floating_point_constant, leaves, alt.
  replace (recognize (pair fractional_constant (opt exponent)) (m ++ x ++ rest)) with (@None (list char * list char))
    by (unfold recognize, pair; rewrite FR; reflexivity).
  apply recognize_leaves. eapply pair_leaves; [apply take1_app; auto|]. eapply exponent_leaves; eauto.
Qed.

(** If the floating point parser finds anything after digits it takes all of them. *)
Lemma floating_takes_digits : forall m rest r v, digits m ->
  floating_point_constant (m ++ rest) = Some (r, v) -> (List.length r <= List.length rest)%nat.
Proof.
  intros m rest r v [N D] E. unfold floating_point_constant, alt in E.
  destruct (recognize (pair fractional_constant (opt exponent)) (m ++ rest)) as [[r' v']|] eqn:A.
  - injection E as <- <-. unfold recognize in A.
    destruct (pair fractional_constant (opt exponent) (m ++ rest)) as [[r2 v2]|] eqn:B; [|discriminate]. injection A as <- _.
    unfold pair in B. destruct (fractional_constant (m ++ rest)) as [[r3 v3]|] eqn:C; [|discriminate].
    destruct (opt exponent r3) as [[r4 v4]|] eqn:O; [|discriminate]. injection B as <- _.
    apply (sound_le _ _ _ (opt_sound _ _ _ exponent_sound)) in O.
    unfold fractional_constant, alt, recognize in C.
    pose proof (while0_le is_digit rest) as WL.
    destruct (separated_pair digit0 (pchar (ch ".")) digit1 (m ++ rest)) as [[r5 v5]|] eqn:S5.
    + injection C as <- _. unfold separated_pair, pair, digit0, take0 in S5. rewrite while0_more in S5 by auto.
      destruct (preceded (pchar (ch ".")) digit1 (fst (while0 is_digit rest))) as [[r6 v6]|] eqn:S6; [|discriminate].
      injection S5 as <- _. apply (sound_le _ _ _ (preceded_sound _ _ _ _ _ _ (one_of_sound _) digit1_sound)) in S6. lia.
    + destruct (terminated digit1 (pchar (ch ".")) (m ++ rest)) as [[r5 v5]|] eqn:S6; [|discriminate]. injection C as <- _.
      unfold terminated, pmap, pair, digit1 in S6. rewrite take1_more in S6 by auto.
      destruct (pchar (ch ".") (fst (while0 is_digit rest))) as [[r6 v6]|] eqn:S7; [|discriminate].
      injection S6 as <- _. apply (sound_le _ _ _ (one_of_sound _)) in S7. lia.
  - unfold recognize in E. destruct (pair digit1 exponent (m ++ rest)) as [[r2 v2]|] eqn:B; [|discriminate]. injection E as <- _.
    unfold pair, digit1 in B. rewrite take1_more in B by auto.
    destruct (exponent (fst (while0 is_digit rest))) as [[r3 v3]|] eqn:X; [|discriminate]. injection B as <- _.
    apply (sound_le _ _ _ exponent_sound) in X. pose proof (while0_le is_digit rest). lia.
Qed.

Lemma leaves_map_res : forall A B (p : parser A) (f : A -> option B) s n,
  leaves p s n -> (forall rest v, p s = Some (rest, v) -> f v <> None) -> leaves (map_res p f) s n.
Proof.
  intros A B p f s n (rest & v & E & L) H. specialize (H _ _ E). unfold leaves, map_res. rewrite E.
  destruct (f v); [eauto|congruence].
Qed.

Lemma lexeme_float : forall s rest v, recognize (pair sign_opt floating_point_constant) s = Some (rest, v) -> from_str v <> None.
Proof.
  intros s rest v E.
  assert (SO : sound (recognize (pair sign_opt floating_point_constant)) (fun t w => w = t /\ exists v, number_text t v)).
  { eapply sound_weaken; [apply recognize_sound, pair_sound; [apply sign_sound|apply floating_sound]|].
    cbn beta. intros t w (-> & [a b] & sg & r & -> & (z & S & _) & (_ & m & x & man & p & e & -> & M & X)).
    split; [reflexivity|]. eexists. constructor; eauto. }
  apply SO in E. destruct E as (t & _ & -> & w & T). rewrite (from_str_text _ _ T). discriminate.
Qed.
Lemma lexeme_int : forall s rest v, recognize (pair (opt (one_of (chars "+-"))) digit1) s = Some (rest, v) -> from_str v <> None.
Proof.
  intros s rest v E.
  assert (SO : sound (recognize (pair (opt (one_of (chars "+-"))) digit1)) (fun t w => w = t /\ exists v, number_text t v)).
  { eapply sound_weaken; [apply recognize_sound, pair_sound; [apply opt_sign_sound|apply digit1_sound]|].
    cbn beta. intros t w (-> & [a b] & sg & r & -> & (z & S) & (_ & D)).
    split; [reflexivity|]. exists (IZR z * IZR (digits_value r) * powerRZ 10 (0 + 0))%R.
    rewrite <- (app_nil_r r) at 1. constructor; [exact S|constructor; exact D|constructor]. }
  apply SO in E. destruct E as (t & _ & -> & w & T). rewrite (from_str_text _ _ T). discriminate.
Qed.

Lemma number_leaves : forall t v rest, number_text t v -> leaves number (t ++ rest) (List.length rest).
Proof.
  intros t v rest [s sg m man p x e S M X]. rewrite <- !app_assoc.
  destruct (sign_step s sg m man p (x ++ rest) S M) as [SG [o SG']].
  assert (FL : leaves floating_point_constant (m ++ x ++ rest) (List.length rest) -> leaves number (s ++ m ++ x ++ rest) (List.length rest)).
  { intros L. unfold number, floating_point_signed.
    destruct (leaves_map_res _ _ (recognize (pair sign_opt floating_point_constant)) from_str (s ++ m ++ x ++ rest) (List.length rest))
      as (r & w & E & LE).
    - apply recognize_leaves. eapply pair_leaves; eauto.
    - apply lexeme_float.
    - unfold leaves, alt. rewrite E. eauto. }
  destruct (in_dec N.eq_dec (ch ".") m) as [IN|NI].
  { apply FL. eapply point_leaves; eauto. }
  destruct M as [i D|i f D F|i D]; try (exfalso; apply NI, in_or_app; right; left; reflexivity).
  destruct (list_eq_dec N.eq_dec x []) as [->|NX].
  2: { apply FL. eapply plain_leaves; eauto. }
  cbn [app]. unfold number, alt, leaves.
  destruct (floating_point_signed (s ++ i ++ rest)) as [[r w]|] eqn:E.
  - eexists _, _. split; [reflexivity|]. unfold floating_point_signed, map_res, recognize in E.
    destruct (pair sign_opt floating_point_constant (s ++ i ++ rest)) as [[r1 v1]|] eqn:E1; [|discriminate].
    destruct (from_str _); [|discriminate]. injection E as <- <-. unfold pair in E1. cbn [app] in SG. rewrite SG in E1.
    destruct (floating_point_constant (i ++ rest)) as [[r2 v2]|] eqn:E2; [|discriminate]. injection E1 as <- _.
    eapply floating_takes_digits; eauto.
  - apply leaves_map_res; [|intros; eapply lexeme_int; eauto].
    apply recognize_leaves. eapply pair_leaves; [exact SG'|]. destruct D as [N D].
    eexists _, _. split; [apply take1_more; auto|apply while0_le].
Qed.

(** ** Where numbers end *)

Definition num_char (c : char) : bool := is_digit c || is_one_of (chars ".eE+-") c.

Lemma num_char_digits : forall t, all is_digit t -> all num_char t.
Proof. intros t A. eapply Forall_impl; [|exact A]. intros c D. unfold num_char. rewrite D. reflexivity. Qed.
Lemma all_app : forall f a b, all f a -> all f b -> all f (a ++ b).
Proof. intros f a b A B. apply Forall_app. auto. Qed.
Lemma num_char_sign : forall s sg, sign_text s sg -> all num_char s.
Proof. intros s sg [| |]; repeat constructor. Qed.

Lemma number_chars : forall t v, number_text t v -> all num_char t.
Proof.
  intros t v [s sg m man p x e S M X]. apply all_app; [eapply num_char_sign; eauto|apply all_app].
  - destruct M as [i [N D]|i f D [N F]|i [N D]]; try apply all_app; try (apply num_char_digits; assumption).
    + constructor; [reflexivity|apply num_char_digits; assumption].
    + repeat constructor.
  - destruct X as [|c z sz d I S' [N D]]; [constructor|]. constructor; [destruct I as [<-|[<-|[]]]; reflexivity|].
    apply all_app; [eapply num_char_sign; eauto|apply num_char_digits; assumption].
Qed.
Lemma number_nonempty : forall t v, number_text t v -> t <> [].
Proof.
  intros t v [s sg m man p x e S M X] E. destruct (mantissa_head _ _ _ M) as (c & m' & -> & _).
  destruct s; discriminate.
Qed.

Lemma number_value_unique : forall t v w, number_text t v -> number_text t w -> v = w.
Proof. intros t v w A B. apply from_str_text in A, B. congruence. Qed.

Lemma number_exact : forall t v rest, number_text t v -> stops num_char rest -> number (t ++ rest) = Some (rest, v).
Proof.
  intros t v rest T ST. destruct (number_leaves t v rest T) as (r & w & E & L). rewrite E.
  destruct (number_sound _ _ _ E) as (t' & Q & T').
  apply app_eq_app in Q. destruct Q as [l [[-> ->]|[-> ->]]].
  - rewrite app_length in L. destruct l; [|cbn in L; lia]. rewrite app_nil_r in *.
    cbn. f_equal. f_equal. eapply number_value_unique; eauto.
  - destruct l as [|c l].
    + rewrite app_nil_r in T'. cbn. f_equal. f_equal. eapply number_value_unique; eauto.
    + exfalso. apply number_chars in T'. apply Forall_app in T'. destruct T' as [_ T']. inversion T'; subst.
      cbn in ST. congruence.
Qed.

Lemma number_none : forall s, stops num_char s -> number s = None.
Proof.
  intros s S. destruct (number s) as [[r v]|] eqn:E; [|reflexivity]. exfalso.
  destruct (number_sound _ _ _ E) as (t & -> & T). pose proof (number_nonempty _ _ T).
  apply number_chars in T. destruct T as [|c t C T]; [congruence|]. cbn in S. congruence.
Qed.

(** ** Separators *)

Lemma separator_sound : sound comma_wsp (fun t v => separator t).
Proof.
  eapply sound_weaken.
  { apply alt_sound; [|apply take1_sound]. apply recognize_sound, preceded_sound; [apply take0_sound|].
    apply terminated_sound; [apply one_of_sound|apply take0_sound]. }
  cbn beta. intros t v [(-> & c & a & r & u & -> & (_ & A) & c' & b & w & -> & (-> & [<-|[]]) & (_ & B))|(-> & N & A)].
  - left. exists a, b. auto.
  - right. auto.
Qed.

Lemma is_space_comma : is_space (ch ",") = false.
Proof. reflexivity. Qed.

Lemma comma_alt : forall a rest, all is_space a -> stops is_space rest ->
  recognize (delimited wsp_opt (pchar (ch ",")) wsp_opt) (a ++ rest) =
  match rest with
  | c :: r => if (c =? ch ",")%N then Some (fst (while0 is_space r), a ++ ch "," :: snd (while0 is_space r)) else None
  | [] => None
  end.
Proof.
  intros a rest A S. unfold recognize, delimited, preceded, terminated, pmap, pair, wsp_opt, multispace0, take0.
  rewrite while0_app by auto. unfold pchar, one_of, is_one_of. destruct rest as [|c r]; [reflexivity|]. cbn [existsb].
  rewrite orb_false_r. destruct (c =? ch ",")%N eqn:C; [|reflexivity]. apply N.eqb_eq in C. subst c.
  destruct (while0 is_space r) as [r' b] eqn:W. cbn [fst snd]. apply while0_spec in W. destruct W as (-> & B & _).
  f_equal. f_equal.
  replace (a ++ ch "," :: b ++ r') with ((a ++ ch "," :: b) ++ r') by (rewrite <- app_assoc; reflexivity).
  rewrite app_length. replace (_ + _ - _)%nat with (List.length (a ++ ch "," :: b)) by lia.
  rewrite firstn_app, Nat.sub_diag, firstn_all, firstn_O, app_nil_r. reflexivity.
Qed.

(** A whole separator is taken if nothing that could belong to it follows. *)
Lemma separator_exact : forall sp rest, separator sp -> stops is_space rest -> stops (N.eqb (ch ",")) rest ->
  comma_wsp (sp ++ rest) = Some (rest, sp).
Proof.
  intros sp rest [(a & b & -> & A & B)|[N A]] S C.
  - rewrite <- app_assoc. cbn [app]. unfold comma_wsp, alt. rewrite comma_alt by (auto; reflexivity).
    rewrite N.eqb_refl, while0_app by auto. reflexivity.
  - unfold comma_wsp, alt. rewrite comma_alt by auto.
    assert (M : multispace1 (sp ++ rest) = Some (rest, sp)) by (apply take1_app; auto).
    destruct rest as [|c r]; [exact M|]. unfold stops in C. rewrite N.eqb_sym in C. rewrite C. exact M.
Qed.

Lemma separator_nonempty : forall sp, separator sp -> sp <> [].
Proof. intros sp [(a & b & -> & _)|[N _]]; [destruct a; discriminate|exact N]. Qed.

Lemma num_char_not : forall c, num_char c = true -> is_space c = false /\ (ch "," =? c)%N = false /\ is_white c = false.
Proof.
  intros c H. unfold num_char, is_digit, is_one_of in H. unfold is_space, is_white. change (ch ",") with 44%N.
  change (chars ".eE+-") with [46; 101; 69; 43; 45]%N in H. cbn [existsb] in H. lia.
Qed.

(** ** Lists of numbers *)

(** [rest] does not go on with a number, or with the list. *)
Definition number_ends (rest : list char) : Prop :=
  forall t v, number_text t v -> number (t ++ rest) = Some (rest, v).
Lemma stops_ends : forall rest, stops num_char rest -> number_ends rest.
Proof. intros rest S t v T. apply number_exact; auto. Qed.
Definition list_ends (rest : list char) : Prop :=
  number_ends rest /\ forall s1 v, comma_wsp rest = Some (s1, v) -> number s1 = None.

Lemma loop_ends : forall fuel rest, list_ends rest -> separated_loop comma_wsp number fuel rest = Some (rest, []).
Proof.
  intros fuel rest [_ E]. destruct fuel; cbn [separated_loop];
    (destruct (comma_wsp rest) as [[s1 v]|] eqn:C; [|reflexivity]);
    (destruct (separator_sound _ _ _ C) as (t & -> & T); apply separator_nonempty in T;
     destruct (Nat.eqb_spec (List.length s1) (List.length (t ++ s1))) as [Q|_];
       [rewrite app_length in Q; destruct t; [congruence|cbn in Q; lia]|]);
    rewrite (E _ _ eq_refl); reflexivity.
Qed.

Lemma numbers_head : forall t vs, numbers_text t vs -> exists c r, t = c :: r /\ num_char c = true.
Proof.
  intros t vs H. destruct H as [t v T|t v sp r vs T S R];
    pose proof (number_nonempty _ _ T); apply number_chars in T; (destruct T as [|c t C T]; [congruence|]); cbn [app]; eauto.
Qed.

Lemma separator_stops : forall sp rest, separator sp -> stops num_char (sp ++ rest).
Proof.
  assert (G : forall c, is_space c = true -> num_char c = false).
  { intros c C. destruct (num_char c) eqn:E; [|reflexivity]. apply num_char_not in E. destruct E as [E _]. congruence. }
  intros sp rest [(a & b & -> & A & B)|[N A]].
  - destruct A as [|c a C A]; [reflexivity|]. cbn. auto.
  - destruct A as [|c a C A]; [congruence|]. cbn. auto.
Qed.

Lemma loop_exact : forall t vs, numbers_text t vs -> forall fuel sp rest, separator sp -> list_ends rest ->
  (List.length t <= fuel)%nat ->
  separated_loop comma_wsp number fuel (sp ++ t ++ rest) = Some (rest, vs).
Proof.
  assert (STEP : forall sp x t v fuel, separator sp -> number_text t v -> number_ends x ->
    separated_loop comma_wsp number (S fuel) (sp ++ t ++ x) =
    match separated_loop comma_wsp number fuel x with None => None | Some (r, l) => Some (r, v :: l) end).
  { intros sp x t v fuel SP T ST. cbn [separated_loop].
    pose proof (number_nonempty _ _ T) as NE. pose proof (number_chars _ _ T) as CH.
    rewrite separator_exact; [|auto|..].
    - destruct (Nat.eqb_spec (List.length (t ++ x)) (List.length (sp ++ t ++ x))) as [Q|_].
      { rewrite (app_length sp) in Q. apply separator_nonempty in SP. destruct sp; [congruence|cbn in Q; lia]. }
      rewrite (ST t v T). reflexivity.
    - destruct CH as [|c t C CH]; [congruence|]. cbn. apply num_char_not in C. tauto.
    - destruct CH as [|c t C CH]; [congruence|]. cbn. apply num_char_not in C. tauto. }
  intros t vs H. induction H as [t v T|t v sp' r vs T S R IH]; intros fuel sp rest SP LE F.
  - pose proof (number_nonempty _ _ T). destruct fuel as [|fuel]; [destruct t; [congruence|cbn in F; lia]|].
    rewrite (STEP sp rest t v fuel SP T (proj1 LE)), loop_ends by exact LE. reflexivity.
  - pose proof (number_nonempty _ _ T). rewrite !app_length in F.
    destruct fuel as [|fuel]; [destruct t; [congruence|cbn in F; lia]|].
    replace ((t ++ sp' ++ r) ++ rest) with (t ++ sp' ++ r ++ rest) by (rewrite <- !app_assoc; reflexivity).
    rewrite (STEP sp (sp' ++ r ++ rest) t v fuel SP T (stops_ends _ (separator_stops _ _ S))).
    rewrite IH; auto. destruct t; [congruence|]. cbn in F. lia.
Qed.

Lemma list_exact : forall t vs rest, numbers_text t vs -> list_ends rest ->
  separated_list0 comma_wsp number (t ++ rest) = Some (rest, vs).
Proof.
  intros t vs rest H LE. unfold separated_list0. destruct H as [t v T|t v sp r vs T S R].
  - rewrite (proj1 LE t v T), loop_ends by exact LE. reflexivity.
  - replace ((t ++ sp ++ r) ++ rest) with (t ++ sp ++ r ++ rest) by (rewrite <- !app_assoc; reflexivity).
    rewrite (number_exact t v _ T (separator_stops _ _ S)).
    rewrite (loop_exact r vs R); auto. rewrite !app_length. lia.
Qed.
Lemma list_none : forall rest, stops num_char rest -> separated_list0 comma_wsp number rest = Some (rest, []).
Proof. intros rest S. unfold separated_list0. rewrite number_none by auto. reflexivity. Qed.

Lemma loop_sound : forall fuel s rest vs, separated_loop comma_wsp number fuel s = Some (rest, vs) ->
  (s = rest /\ vs = []) \/ exists sp t, s = sp ++ t ++ rest /\ separator sp /\ numbers_text t vs.
Proof.
  induction fuel as [|fuel IH]; intros s rest vs E; cbn [separated_loop] in E;
    (destruct (comma_wsp s) as [[s1 v]|] eqn:C; [|left; injection E as <- <-; auto]);
    (destruct (Nat.eqb _ _); [discriminate|]); (destruct (number s1) as [[s2 n]|] eqn:N; [|left; injection E as <- <-; auto]).
  - discriminate.
  - destruct (separated_loop comma_wsp number fuel s2) as [[r l]|] eqn:L; [|discriminate]. injection E as <- <-.
    destruct (separator_sound _ _ _ C) as (sp & -> & SP). destruct (number_sound _ _ _ N) as (t & -> & T).
    right. apply IH in L. destruct L as [[-> ->]|(sp2 & t2 & -> & S2 & T2)].
    + exists sp, t. split; [reflexivity|]. split; [auto|]. constructor. auto.
    + exists sp, (t ++ sp2 ++ t2). split; [rewrite <- !app_assoc; reflexivity|]. split; [auto|]. constructor; auto.
Qed.
Lemma list_sound : sound (separated_list0 comma_wsp number) (fun t vs => (t = [] /\ vs = []) \/ numbers_text t vs).
Proof.
  intros s rest vs E. unfold separated_list0 in E. destruct (number s) as [[s1 v]|] eqn:N.
  - destruct (separated_loop _ _ _ _) as [[r l]|] eqn:L; [|discriminate]. injection E as <- <-.
    destruct (number_sound _ _ _ N) as (t & -> & T). apply loop_sound in L.
    destruct L as [[-> ->]|(sp & t2 & -> & SP & T2)].
    + exists t. split; [reflexivity|]. right. constructor. auto.
    + exists (t ++ sp ++ t2). split; [rewrite <- !app_assoc; reflexivity|]. right. constructor; auto.
  - injection E as <- <-. exists []. auto.
Qed.

(** ** Path commands *)

Lemma letter_not : forall c, In c letters -> is_white c = false /\ is_space c = false /\ num_char c = false /\ (ch "," =? c)%N = false.
Proof.
  intros c I.
  assert (F : forallb (fun c => negb (is_white c) && negb (is_space c) && negb (num_char c) && negb (ch "," =? c)%N) letters = true)
    by reflexivity.
  rewrite forallb_forall in F. specialize (F c I). rewrite !andb_true_iff, !negb_true_iff in F. tauto.
Qed.
Lemma space_white : forall c, is_space c = true -> is_white c = true.
Proof. intros c. unfold is_space, is_white. lia. Qed.
Lemma white_not : forall c, is_white c = true -> num_char c = false /\ (ch "," =? c)%N = false.
Proof.
  intros c W. split.
  - destruct (num_char c) eqn:E; [|reflexivity]. apply num_char_not in E. destruct E as (_ & _ & E). congruence.
  - destruct (ch "," =? c)%N eqn:E; [|reflexivity]. apply N.eqb_eq in E. subst c. discriminate.
Qed.

Lemma path_command_sound : sound path_command
  (fun t v => exists sp t', t = sp ++ t' /\ all is_space sp /\ command_text t' v).
Proof.
  eapply sound_weaken.
  { apply pair_sound; apply preceded_sound; [apply take0_sound|apply one_of_sound|apply take0_sound|apply list_sound]. }
  cbn beta. intros t [c vs] (t1 & t2 & -> & (sp & c1 & w & -> & (_ & A) & (-> & I)) & (sp2 & l & w2 & -> & (_ & A2) & L)).
  exists sp, (c :: sp2 ++ l). split; [rewrite <- app_assoc; reflexivity|]. split; [exact A|].
  cbn [fst snd] in *. destruct L as [[-> ->]|L].
  - rewrite app_nil_r. constructor; auto.
  - constructor; auto.
Qed.

Lemma command_head : forall t c, command_text t c -> exists l r, t = l :: r /\ In l letters.
Proof. intros t c [l sp I _|l sp t' vs I _ _]; eauto. Qed.

(** A path starts with white space, a letter or nothing. *)
Lemma path_head : forall s cs, path_text s cs ->
  match s with [] => True | c :: _ => is_white c = true \/ In c letters end.
Proof.
  intros s cs [w W|w t c r cs' W C R].
  - destruct W; auto.
  - destruct W as [|x w X W]; cbn [app]; auto. destruct (command_head _ _ C) as (l & r' & -> & I). cbn. auto.
Qed.
Lemma path_stops : forall s cs, path_text s cs -> stops num_char s.
Proof.
  intros s cs P. apply path_head in P. destruct s as [|c s]; [exact I|]. cbn. destruct P as [P|P].
  - apply white_not in P. tauto.
  - apply letter_not in P. tauto.
Qed.
Lemma path_drop : forall s cs, path_text s cs -> path_text (fst (while0 is_space s)) cs.
Proof.
  intros s cs P. destruct P as [w W|w t c r cs' W C R].
  - destruct (while0 is_space w) as [r t] eqn:E. apply while0_spec in E. destruct E as (-> & _ & _). cbn.
    apply Forall_app in W. constructor. tauto.
  - destruct (command_head _ _ C) as (l & t' & -> & L).
    assert (G : exists w', fst (while0 is_space (w ++ (l :: t') ++ r)) = w' ++ (l :: t') ++ r /\ all is_white w').
    { induction W as [|x w X W IH].
      - exists []. cbn [app]. rewrite while0_stop; [split; [reflexivity|constructor]|]. cbn. apply letter_not. auto.
      - cbn [app while0]. destruct (is_space x).
        + cbn [app] in IH. destruct (while0 is_space (w ++ l :: t' ++ r)) as [r0 t0] eqn:E. cbn [fst] in *. exact IH.
        + exists (x :: w). split; [reflexivity|constructor; auto]. }
    destruct G as (w' & -> & W'). constructor; auto.
Qed.
Lemma path_ends : forall s cs, path_text s cs -> list_ends s.
Proof.
  intros s cs P. split; [eapply stops_ends, path_stops; eauto|]. intros s1 v C.
  (* the separator found can only be the white space in front *)
  assert (S1 : s1 = fst (while0 is_space s)).
  { unfold comma_wsp, alt in C. destruct (while0 is_space s) as [r t] eqn:W. apply while0_spec in W. destruct W as (-> & A & S).
    rewrite comma_alt in C by auto.
    assert (PD := path_drop _ _ P). rewrite while0_app in PD by auto. cbn [fst] in *. apply path_head in PD.
    assert (N : match r with c :: _ => (c =? ch ",")%N = false | [] => True end).
    { destruct r as [|c r]; [exact I|]. rewrite N.eqb_sym. destruct PD as [PD|PD]; [apply white_not in PD|apply letter_not in PD]; tauto. }
    unfold multispace1, take1 in C. rewrite while0_app in C by auto.
    destruct r as [|c r]; [|rewrite N in C]; (destruct t; [discriminate|]); congruence. }
  subst s1. apply number_none. eapply path_stops. apply path_drop. eauto.
Qed.

Lemma path_command_exact : forall t c r cs, command_text t c -> path_text r cs ->
  exists r', path_command (t ++ r) = Some (r', c) /\ path_text r' cs /\ (List.length r' <= List.length r)%nat.
Proof.
  intros t c r cs C R. unfold path_command.
  destruct C as [l sp L SP|l sp t vs L SP T].
  - exists (fst (while0 is_space r)). split; [|split; [apply path_drop; auto|apply while0_le]].
    cbn [app]. unfold pair, preceded, pmap, pair, wsp_opt, multispace0, take0.
    rewrite while0_stop by (cbn; apply letter_not; auto). unfold one_of.
    apply is_one_of_In in L. change (chars "mMzZlLhHvVcCsSqQtTaA") with letters. rewrite L.
    rewrite while0_more by auto. rewrite list_none; [reflexivity|]. eapply path_stops, path_drop; eauto.
  - exists r. split; [|split; auto].
    cbn [app]. unfold pair, preceded, pmap, pair, wsp_opt, multispace0, take0.
    rewrite while0_stop by (cbn; apply letter_not; auto). unfold one_of.
    apply is_one_of_In in L. change (chars "mMzZlLhHvVcCsSqQtTaA") with letters. rewrite L.
    rewrite <- app_assoc. rewrite while0_app; auto.
    + rewrite (list_exact t vs r T (path_ends _ _ R)). reflexivity.
    + destruct (numbers_head _ _ T) as (x & t' & -> & X). cbn. apply num_char_not in X. tauto.
Qed.
