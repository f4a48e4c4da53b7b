(** Properties C115 and C116: the programs svg_path and image_raster from the options to the serial
    line. *)
From Coq Require Import ZArith List Bool NArith Ascii String Reals Lia Lra.
From Flocq Require Import Core BinarySingleNaN.
From Verif Require Import Base Chars Floats StepperContext MachineSpec StepperControl ControlSpec ControlProofs PropsControl ApproxCurve DrawCurves Coords PathGrammar
  PathLex LexProofs FloatPath FloatLex FloatLexProofs SvgDocument ImageRaster SvgMain PropsSvgMain Config PropsConfig FloatDocument
  EventProofs Programs PropsRaster ControlLive PropsLaser FloatTransform FloatAngles PropsFloatTransform PropsSvg PropsLaserSvg.
Import ListNotations.
Open Scope Z_scope.

(** ** What the texts mean *)

(** A word, in upper or lower case letters. *)
Definition spells (w : string) (t : list char) : Prop := Forall2 (fun c d => c = d \/ (c + 32 = d)%N) t (chars w).

(** A number as rust writes it: a decimal, rounded; infinity; not a number. *)
Inductive float_text : list char -> f64 -> Prop :=
| text_decimal : forall t v x, PathGrammar.number_text t v -> rounds_to v x -> float_text t x
| text_infinity : forall s sg t, sign_text s sg -> spells "inf" t \/ spells "infinity" t -> float_text (s ++ t) (B754_infinity (sg <? 0))
| text_nan : forall s sg t, sign_text s sg -> spells "nan" t -> float_text (s ++ t) B754_nan.

(** An integer: digits, perhaps after a sign. *)
Inductive int_text : list char -> Z -> Prop :=
| text_int : forall s sg d, sign_text s sg -> PathGrammar.digits d -> int_text (s ++ d) (sg * digits_value d).

(** ** Proofs about them *)

Lemma from_sign_inv : forall s r t, from_sign s = (r, t) -> exists a sg, s = a ++ t /\ sign_text a sg /\ r = IZR sg.
Proof.
  intros s r t H. unfold from_sign in H. destruct s as [|c s].
  - injection H as <- <-. exists [], 1. split; [reflexivity|]. split; [constructor|reflexivity].
  - destruct (N.eqb_spec c (ch "-")) as [->|N1].
    + injection H as <- <-. exists (chars "-"), (-1). split; [reflexivity|]. split; [constructor|reflexivity].
    + destruct (N.eqb_spec c (ch "+")) as [->|N2]; injection H as <- <-.
      * exists (chars "+"), 1. split; [reflexivity|]. split; [constructor|reflexivity].
      * exists [], 1. split; [reflexivity|]. split; [constructor|reflexivity].
Qed.
Lemma from_exp_inv : forall s x, from_exp s = Some x -> exponent_text s x.
Proof.
  intros s x H. unfold from_exp in H. destruct s as [|c s]; [injection H as <-; constructor|].
  destruct (is_one_of (chars "eE") c) eqn:IE; [|discriminate].
  assert (E : In c (chars "eE")).
  { apply existsb_exists in IE. destruct IE as (d & I & E). apply N.eqb_eq in E. rewrite E. exact I. }
  assert (G : forall (neg : bool) s1 a sg, sign_text a sg -> s = a ++ s1 -> sg = (if neg then -1 else 1) ->
    match while0 Chars.is_digit s1 with ([], d :: ds) => let x := dec (d :: ds) in Some (if neg then - x else x) | _ => None end = Some x ->
    exponent_text (c :: s) x).
  { intros neg s1 a sg S -> -> R. destruct (while0 Chars.is_digit s1) as [r ds] eqn:WH. destruct r; [|discriminate]. destruct ds as [|d ds]; [discriminate|].
    apply while0_spec in WH. destruct WH as (-> & A & _). rewrite app_nil_r. rewrite dec_digits in R. cbv zeta in R.
    assert (EX : x = (if neg then -1 else 1) * digits_value (d :: ds)) by (destruct neg; [replace x with (- digits_value (d :: ds)) by congruence|replace x with (digits_value (d :: ds)) by congruence]; ring).
    rewrite EX. constructor; [exact E|exact S|split; [discriminate|exact A]]. }
  destruct s as [|d s]; [discriminate|].
  destruct (N.eqb_spec d (ch "-")) as [->|N1].
  - eapply (G true s (chars "-") (-1)); [constructor|reflexivity|reflexivity|exact H].
  - destruct (N.eqb_spec d (ch "+")) as [->|N2].
    + eapply (G false s (chars "+") 1); [constructor|reflexivity|reflexivity|exact H].
    + eapply (G false (d :: s) [] 1); [constructor|reflexivity|reflexivity|exact H].
Qed.
Lemma from_str_inv : forall s v, from_str s = Some v -> PathGrammar.number_text s v.
Proof.
  intros s v H. unfold from_str in H. destruct (from_sign s) as [r t] eqn:S. apply from_sign_inv in S. destruct S as (a & sg & -> & S & ->).
  destruct (while0 Chars.is_digit t) as [u i] eqn:WH. apply while0_spec in WH. destruct WH as (-> & A & _).
  assert (INT : forall x, i <> [] -> from_exp u = Some x ->
    (IZR sg * IZR (dec i) * powerRZ 10 x)%R = v -> PathGrammar.number_text (a ++ i ++ u) v).
  { intros x N F <-. rewrite dec_digits. replace x with (0 + x) by lia. constructor; [exact S|apply mant_int; split; assumption|].
    apply from_exp_inv, F. }
  destruct u as [|c u].
  - rewrite app_nil_r in H. destruct i as [|d i]; [discriminate|]. cbn [from_exp] in H. injection H as H.
    apply (INT 0); [discriminate|reflexivity|]. rewrite <- H. do 2 f_equal.
  - destruct (N.eqb_spec c (ch ".")) as [->|NP].
    + destruct (while0 Chars.is_digit u) as [u' f] eqn:WF. apply while0_spec in WF. destruct WF as (-> & B & _).
      destruct (i ++ f) as [|d m] eqn:IF; [discriminate|]. destruct (from_exp u') as [x|] eqn:F; [|discriminate]. injection H as <-.
      rewrite <- IF, dec_digits. change (ch "." :: f ++ u') with ((ch "." :: f) ++ u'). rewrite (app_assoc i).
      destruct f as [|e f].
      * rewrite app_nil_r in IF |- *. cbn [List.length Z.of_nat].
        replace (x - 0) with (0 + x) by lia. constructor; [exact S|apply mant_dot; split; [congruence|exact A]|apply from_exp_inv, F].
      * replace (x - Z.of_nat (List.length (e :: f))) with (- Z.of_nat (List.length (e :: f)) + x) by lia.
        constructor; [exact S|apply mant_frac; [exact A|split; [discriminate|exact B]]|apply from_exp_inv, F].
    + rewrite app_nil_r in H. destruct i as [|d i]; [discriminate|]. destruct (from_exp (c :: u)) as [x|] eqn:F; [|discriminate]. injection H as H.
      apply (INT x); [discriminate|reflexivity|]. rewrite <- H. do 2 f_equal. cbn [List.length Z.of_nat]. lia.
Qed.

Lemma lower_spells : forall w t, Forall (fun d => (97 <= d <= 122)%N) (chars w) -> map lower t = chars w <-> spells w t.
Proof.
  unfold spells. intros w. generalize (chars w) as l. induction l as [|d l IH]; intros t F; split; intros H.
  - destruct t; [constructor|discriminate].
  - inversion H. reflexivity.
  - destruct t as [|c t]; [discriminate|]. cbn [map] in H. injection H as H1 H2. inversion_clear F as [|? ? F1 F2]. constructor; [|apply IH; assumption].
    unfold lower in H1. destruct (N.leb_spec 65 c), (N.leb_spec c 90); cbn [andb] in *; auto.
  - inversion H as [|c ? t' ? E R]; subst. inversion_clear F as [|? ? F1 F2]. cbn [map]. f_equal; [|apply IH; assumption].
    unfold lower. destruct (N.leb_spec 65 c), (N.leb_spec c 90); cbn [andb]; lia.
Qed.
Lemma word_spec : forall t b, word t = Some b <-> (b = true /\ (spells "inf" t \/ spells "infinity" t)) \/ (b = false /\ spells "nan" t).
Proof.
  intros t b. rewrite <- !lower_spells by (vm_compute; repeat constructor; discriminate). unfold word.
  set (m := map lower t).
  destruct (list_eq_dec N.eq_dec m (chars "inf")) as [E|N1].
  { split; [intros [= <-]; auto|]. intros [[-> _]|[-> X]]; [reflexivity|]. rewrite X in E. discriminate. }
  destruct (list_eq_dec N.eq_dec m (chars "infinity")) as [E|N2].
  { split; [intros [= <-]; auto|]. intros [[-> _]|[-> X]]; [reflexivity|]. rewrite X in E. discriminate. }
  destruct (list_eq_dec N.eq_dec m (chars "nan")) as [E|N3].
  { split; [intros [= <-]; auto|]. intros [[-> [X|X]]|[-> _]]; [contradiction|contradiction|reflexivity]. }
  split; [discriminate|]. intros [[_ [X|X]]|[_ X]]; contradiction.
Qed.
Lemma ffrom_sign_inv : forall s neg t, ffrom_sign s = (neg, t) -> exists a sg, s = a ++ t /\ sign_text a sg /\ neg = (sg <? 0).
Proof.
  intros s r t H. unfold ffrom_sign in H. destruct s as [|c s].
  - injection H as <- <-. exists [], 1. split; [reflexivity|]. split; [constructor|reflexivity].
  - destruct (N.eqb_spec c (ch "-")) as [->|N1].
    + injection H as <- <-. exists (chars "-"), (-1). split; [reflexivity|]. split; [constructor|reflexivity].
    + destruct (N.eqb_spec c (ch "+")) as [->|N2]; injection H as <- <-.
      * exists (chars "+"), 1. split; [reflexivity|]. split; [constructor|reflexivity].
      * exists [], 1. split; [reflexivity|]. split; [constructor|reflexivity].
Qed.
Lemma ffrom_sign_app : forall a sg t, sign_text a sg -> (forall c r, t = c :: r -> c <> ch "-" /\ c <> ch "+") ->
  ffrom_sign (a ++ t) = (sg <? 0, t).
Proof.
  intros a sg t S N. destruct S; [|reflexivity|reflexivity]. cbn [app]. destruct t as [|c r]; [reflexivity|].
  destruct (N c r eq_refl) as [A B]. unfold ffrom_sign. apply N.eqb_neq in A, B. rewrite A, B. reflexivity.
Qed.

(** Numbers that differ at most in the sign of zero. *)
Definition same_number (x y : f64) : Prop := x = y \/ (is_finite x = true /\ is_finite y = true /\ B2R x = 0%R /\ B2R y = 0%R).

Lemma rounds_same : forall v x y, rounds_to v x -> rounds_to v y -> same_number x y.
Proof.
  intros v x y. unfold rounds_to. cbv zeta. destruct (Rlt_bool _ _); [|intros -> ->; left; reflexivity].
  intros [Fx Bx] [Fy By]. destruct (Req_dec (B2R x) 0) as [Z|NZ].
  - right. rewrite By, <- Bx. auto.
  - left. apply B2R_inj; try congruence.
    + destruct x; try discriminate; [|reflexivity]. exfalso. apply NZ. reflexivity.
    + destruct y; try discriminate; [|reflexivity]. exfalso. apply NZ. rewrite Bx, <- By. reflexivity.
Qed.

Lemma spells_start : forall w c r, Forall (fun d => (97 <= d)%N) (chars w) -> spells w (c :: r) -> (65 <= c)%N.
Proof.
  intros w c r F SP. unfold spells in SP. destruct (chars w) as [|d l]; inversion SP; inversion F; subst. lia.
Qed.
Lemma number_starts : forall t v, PathGrammar.number_text t v -> word (snd (ffrom_sign t)) = None.
Proof.
  intros t v H. destruct (word (snd (ffrom_sign t))) as [b|] eqn:WD; [|reflexivity]. exfalso.
  apply word_spec in WD. destruct H as [s sg m man p x e S M X].
  assert (HD : exists c r, m ++ x = c :: r /\ (Chars.is_digit c = true \/ c = ch ".")).
  { destruct M as [i [N D]|i f D [N F]|i [N D]].
    - destruct i as [|c i]; [congruence|]. inversion D; subst. exists c, (i ++ x). auto.
    - destruct i as [|c i]; [exists (ch "."), (f ++ x); auto|]. inversion D; subst. exists c, ((i ++ ch "." :: f) ++ x). auto.
    - destruct i as [|c i]; [congruence|]. inversion D; subst. exists c, ((i ++ [ch "."]) ++ x). auto. }
  destruct HD as (c & r & E & C). rewrite E in *.
  assert (NC : c <> ch "-" /\ c <> ch "+" /\ (c < 65)%N).
  { destruct C as [C| ->]; [|vm_compute; repeat split; discriminate]. unfold Chars.is_digit in C. apply andb_prop in C. destruct C as [A B].
    apply N.leb_le in A, B. change (ch "-") with 45%N. change (ch "+") with 43%N. lia. }
  rewrite (ffrom_sign_app s sg (c :: r) S) in WD by (intros c0 r0 [= <- <-]; tauto). cbn [snd] in WD.
  assert (NO : forall w, Forall (fun d => (97 <= d)%N) (chars w) -> spells w (c :: r) -> False).
  { intros w F SP. pose proof (spells_start w c r F SP). lia. }
  assert (F : forall w, In w ["inf"; "infinity"; "nan"]%string -> Forall (fun d => (97 <= d)%N) (chars w)).
  { intros w [<-|[<-|[<-|[]]]]; vm_compute; repeat constructor; discriminate. }
  destruct WD as [[_ [Q|Q]]|[_ Q]]; eapply NO; try exact Q; apply F; cbn; auto.
Qed.

Lemma word_starts : forall t b c r, word t = Some b -> t = c :: r -> c <> ch "-" /\ c <> ch "+".
Proof.
  intros t b c r H ->. apply word_spec in H.
  assert (F : forall w, In w ["inf"; "infinity"; "nan"]%string -> Forall (fun d => (97 <= d)%N) (chars w)).
  { intros w [<-|[<-|[<-|[]]]]; vm_compute; repeat constructor; discriminate. }
  assert (C : (65 <= c)%N) by (destruct H as [[_ [Q|Q]]|[_ Q]]; eapply spells_start; try exact Q; apply F; cbn; auto).
  change (ch "-") with 45%N. change (ch "+") with 43%N. lia.
Qed.

Theorem C115_speeds : (forall t x, parse_f64 t = Some x -> float_text t x) /\
  (forall t x, float_text t x -> exists y, parse_f64 t = Some y /\ same_number x y).
Proof.
  split.
  - intros t x H. unfold parse_f64 in H. destruct (ffrom_sign t) as [neg u] eqn:S. destruct (word u) as [b|] eqn:WD.
    + apply ffrom_sign_inv in S. destruct S as (a & sg & -> & S & ->). apply word_spec in WD.
      destruct WD as [[-> WD]|[-> WD]]; injection H as <-; econstructor; eassumption.
    + pose proof (ffrom_str_alike t) as A. rewrite H in A. destruct (from_str t) as [v|] eqn:F; [|destruct A].
      eapply text_decimal; [apply from_str_inv, F|exact A].
  - intros t x H. destruct H as [t v x NT R|s sg t S SP|s sg t S SP].
    + exists (match ffrom_str t with Some y => y | None => fzero end).
      unfold parse_f64. pose proof (number_starts t v NT) as NW. destruct (ffrom_sign t) as [neg u]. cbn [snd] in NW. rewrite NW.
      pose proof (ffrom_str_alike t) as A. rewrite (from_str_text t v NT) in A. destruct (ffrom_str t) as [y|]; [|destruct A].
      split; [reflexivity|]. eapply rounds_same; eassumption.
    + assert (WD : word t = Some true) by (apply word_spec; auto).
      exists (B754_infinity (sg <? 0)). split; [|left; reflexivity].
      unfold parse_f64. rewrite (ffrom_sign_app s sg t S) by (intros; eapply word_starts; eassumption). rewrite WD. reflexivity.
    + assert (WD : word t = Some false) by (apply word_spec; auto).
      exists B754_nan. split; [|left; reflexivity].
      unfold parse_f64. rewrite (ffrom_sign_app s sg t S) by (intros; eapply word_starts; eassumption). rewrite WD. reflexivity.
Qed.

Lemma parse_digits_chars : forall d acc n, parse_digits acc (map Z.of_N d) = Some n <->
  all Chars.is_digit d /\ n = acc * 10 ^ Z.of_nat (List.length d) + digits_value d.
Proof.
  induction d as [|c d IH]; intros acc n; cbn [map parse_digits].
  - cbn. split; [intros [= <-]; split; [constructor|lia]|intros [_ ->]; f_equal; lia].
  - assert (E : StepperControl.is_digit (Z.of_N c) = Chars.is_digit c).
    { unfold StepperControl.is_digit, Chars.is_digit. destruct (N.leb_spec 48 c), (N.leb_spec c 57), (Z.leb_spec 48 (Z.of_N c)), (Z.leb_spec (Z.of_N c) 57); cbn; lia. }
    rewrite E. destruct (Chars.is_digit c) eqn:D.
    + rewrite IH. cbn [List.length digits_value]. rewrite Nat2Z.inj_succ, Z.pow_succ_r by lia. split.
      * intros [A ->]. split; [constructor; assumption|]. change char with N. ring.
      * intros [A ->]. inversion A; subst. split; [assumption|]. change char with N. ring.
    + split; [discriminate|]. intros [A _]. inversion A; subst. congruence.
Qed.
Lemma parse_nat_chars : forall d n, parse_nat (map Z.of_N d) = Some n <-> PathGrammar.digits d /\ n = digits_value d.
Proof.
  intros d n. unfold parse_nat. destruct d as [|c d].
  - cbn. split; [discriminate|]. intros [[N _] _]. exfalso; apply N; reflexivity.
  - cbn [map]. change (Z.of_N c :: map Z.of_N d) with (map Z.of_N (c :: d)). rewrite parse_digits_chars. unfold PathGrammar.digits.
    split; intros [A ->]; split; try lia; [split; [discriminate|exact A]|apply A].
Qed.
Lemma parse_int_chars : forall t n, parse_int (map Z.of_N t) = Some n <-> int_text t n.
Proof.
  intros t n. split.
  - intros H. assert (PLAIN : parse_nat (map Z.of_N t) = Some n -> int_text t n).
    { intros P. apply parse_nat_chars in P. destruct P as [D ->]. replace (digits_value t) with (1 * digits_value t) by lia.
      change t with ([] ++ t) at 1. constructor; [constructor|exact D]. }
    destruct t as [|c t]; [apply PLAIN; exact H|].
    destruct (N.eq_dec c (ch "-")) as [->|N1].
    { cbn in H. destruct (parse_nat (map Z.of_N t)) as [m|] eqn:P; [|discriminate]. injection H as <-. apply parse_nat_chars in P.
      destruct P as [D ->]. replace (- digits_value t) with (-1 * digits_value t) by lia.
      change (ch "-" :: t) with (chars "-" ++ t). constructor; [constructor|exact D]. }
    destruct (N.eq_dec c (ch "+")) as [->|N2].
    { cbn in H. apply parse_nat_chars in H. destruct H as [D ->]. replace (digits_value t) with (1 * digits_value t) by lia.
      change (ch "+" :: t) with (chars "+" ++ t). constructor; [constructor|exact D]. }
    apply PLAIN. cbn [map] in *. unfold parse_int in H.
    assert (E1 : Z.of_N c <> 45) by (intros E; apply N1; change (ch "-") with 45%N; lia).
    assert (E2 : Z.of_N c <> 43) by (intros E; apply N2; change (ch "+") with 43%N; lia).
    revert H. generalize (Z.of_N c) E1 E2. intros z E3 E4 H. destruct z as [|p|p]; try exact H.
    do 6 (try (destruct p as [p|p|]; try exact H; try congruence)).
  - intros [s sg d S D].
    assert (P : parse_nat (map Z.of_N d) = Some (digits_value d)) by (apply parse_nat_chars; auto).
    destruct S; cbn [app chars map].
    + replace (1 * digits_value d) with (digits_value d) by lia. destruct d as [|c d]; [destruct D as [N _]; congruence|].
      assert (E : (48 <= c)%N).
      { destruct D as [_ D]. inversion D; subst. unfold Chars.is_digit in H1. apply andb_prop in H1. destruct H1 as [A _]. apply N.leb_le in A. exact A. }
      cbn [map] in *. unfold parse_int. assert (E1 : 48 <= Z.of_N c) by lia. revert P. generalize (Z.of_N c) E1. intros z E3 P.
      destruct z as [|p|p]; try exact P. do 6 (try (destruct p as [p|p|]; try exact P; try lia)).
    + replace (1 * digits_value d) with (digits_value d) by lia. exact P.
    + replace (-1 * digits_value d) with (- digits_value d) by lia. change (option_map Z.opp (parse_nat (map Z.of_N d)) = Some (- digits_value d)). rewrite P. reflexivity.
Qed.

Theorem C115_integers : forall t n, parse_i32 t = Some n <-> int_text t n /\ - 2 ^ 31 <= n < 2 ^ 31.
Proof.
  intros t n. unfold parse_i32. destruct (parse_int (map Z.of_N t)) as [m|] eqn:P.
  - apply parse_int_chars in P. unfold i32_min, i32_max. destruct (Z.leb_spec (-2147483648) m), (Z.leb_spec m 2147483647); cbn [andb].
    + split; [intros [= <-]; split; [exact P|lia]|]. intros [T _]. apply parse_int_chars in P, T. congruence.
    + split; [discriminate|]. intros [T R]. apply parse_int_chars in P, T. assert (m = n) by congruence. lia.
    + split; [discriminate|]. intros [T R]. apply parse_int_chars in P, T. assert (m = n) by congruence. lia.
    + split; [discriminate|]. intros [T R]. apply parse_int_chars in P, T. assert (m = n) by congruence. lia.
  - split; [discriminate|]. intros [T _]. apply parse_int_chars in T. congruence.
Qed.

(** ** The options *)

(** The value of an option; without a text, the default. *)
Definition says {A} (means : list char -> A -> Prop) (default : A) (o : option (list char)) (x : A) : Prop :=
  match o with None => x = default | Some t => means t x end.
Definition some_speed (t : list char) (x : option f64) : Prop := exists y, x = Some y /\ float_text t y.
Definition count_text (lo hi : Z) (t : list char) (n : Z) : Prop := int_text t n /\ lo <= n <= hi.
(** A text that means nothing. *)
Definition refused {A} (means : list char -> A -> Prop) (o : option (list char)) : Prop :=
  exists t, o = Some t /\ forall x, ~ means t x.

(** The configuration a file of that name gives. *)
Definition configured (w : world) (name : option (list char)) (cf : config_) : Prop :=
  exists n v l, name = Some n /\ w_json w n = Some v /\ says_config v cf l.

Lemma given_spec : forall o, match given parse_f64 o with
  | Some x => says some_speed None o x /\ ~ refused float_text o
  | None => refused float_text o
  end.
Proof.
  intros [t|]; cbn [given].
  - destruct (parse_f64 t) as [x|] eqn:P.
    + apply (proj1 C115_speeds) in P. split; [exists x; auto|]. intros (u & [= <-] & N). exact (N x P).
    + exists t. split; [reflexivity|]. intros x X. apply (proj2 C115_speeds) in X. destruct X as (y & Y & _). congruence.
  - split; [reflexivity|]. intros (u & N & _). discriminate.
Qed.
Lemma given_or_spec : forall d o, match given_or parse_f64 d o with
  | Some x => says float_text d o x /\ ~ refused float_text o
  | None => refused float_text o
  end.
Proof.
  intros d [t|]; cbn [given_or].
  - destruct (parse_f64 t) as [x|] eqn:P.
    + apply (proj1 C115_speeds) in P. split; [exact P|]. intros (u & [= <-] & N). exact (N x P).
    + exists t. split; [reflexivity|]. intros x X. apply (proj2 C115_speeds) in X. destruct X as (y & Y & _). congruence.
  - split; [reflexivity|]. intros (u & N & _). discriminate.
Qed.
Lemma count_spec : forall lo hi parse d o, (forall t n, parse t = Some n <-> count_text lo hi t n) ->
  match given_or parse d o with
  | Some x => says (count_text lo hi) d o x /\ ~ refused (count_text lo hi) o
  | None => refused (count_text lo hi) o
  end.
Proof.
  intros lo hi parse d [t|] H; cbn [given_or].
  - destruct (parse t) as [x|] eqn:P.
    + apply H in P. split; [exact P|]. intros (u & [= <-] & N). exact (N x P).
    + exists t. split; [reflexivity|]. intros x X. apply H in X. congruence.
  - split; [reflexivity|]. intros (u & N & _). discriminate.
Qed.
Lemma repeat_spec : forall t n, parse_repeat t = Some n <-> count_text 1 (2 ^ 31 - 1) t n.
Proof.
  intros t n. unfold parse_repeat, count_text. destruct (parse_i32 t) as [m|] eqn:P.
  - apply C115_integers in P. destruct P as [T R]. destruct (Z.leb_spec 1 m); split.
    + intros [= <-]. split; [exact T|lia].
    + intros [X _]. apply parse_int_chars in T, X. congruence.
    + discriminate.
    + intros [X Y]. apply parse_int_chars in T, X. assert (m = n) by congruence. lia.
  - split; [discriminate|]. intros [X Y]. assert (Q : parse_i32 t = Some n) by (apply C115_integers; split; [exact X|lia]). congruence.
Qed.
Lemma intensity_spec : forall t n, parse_intensity t = Some n <-> count_text 0 100 t n.
Proof.
  intros t n. unfold parse_intensity, count_text. destruct (parse_i32 t) as [m|] eqn:P.
  - apply C115_integers in P. destruct P as [T R]. destruct (Z.leb_spec 0 m), (Z.leb_spec m 100); cbn [andb]; split; try discriminate.
    + intros [= <-]. split; [exact T|lia].
    + intros [X _]. apply parse_int_chars in T, X. congruence.
    + intros [X Y]. apply parse_int_chars in T, X. assert (m = n) by congruence. lia.
    + intros [X Y]. apply parse_int_chars in T, X. assert (m = n) by congruence. lia.
    + intros [X Y]. apply parse_int_chars in T, X. assert (m = n) by congruence. lia.
  - split; [discriminate|]. intros [X Y]. assert (Q : parse_i32 t = Some n) by (apply C115_integers; split; [exact X|lia]). congruence.
Qed.
Lemma config_spec : forall w o, match match o with Some n => config_of w n | None => None end with
  | Some (cf, _) => configured w o cf /\ forall cf', configured w o cf' -> cf' = cf
  | None => forall cf, ~ configured w o cf
  end.
Proof.
  intros w o. destruct o as [n|].
  - unfold config_of. destruct (w_json w n) as [v|] eqn:V.
    + destruct (read_config v) as [[cf l]|] eqn:R.
      * split; [exists n, v, l; rewrite <- C95_read; auto|]. intros cf' (n' & v' & l' & [= <-] & V' & S). apply C95_read in S. congruence.
      * intros cf (n' & v' & l' & [= <-] & V' & S). apply C95_read in S. congruence.
    + intros cf (n' & v' & l' & [= <-] & V' & S). congruence.
  - intros cf (n' & v' & l' & N & _). discriminate.
Qed.

(** *** svg_path *)

(** What the options of svg_path say. *)
Record svg_settings := mk_svg_settings { s_v_max : option f64; s_a_max : option f64; s_draw : f64; s_repeat : Z; s_intensity : Z }.
Definition svg_says (o : svg_options) (s : svg_settings) : Prop :=
  says some_speed None (so_v_max o) (s_v_max s) /\ says some_speed None (so_a_max o) (s_a_max s) /\
  says float_text (f_of_Z 20) (so_draw_speed o) (s_draw s) /\
  says (count_text 1 (2 ^ 31 - 1)) 1 (so_repeat o) (s_repeat s) /\ says (count_text 0 100) 5 (so_intensity o) (s_intensity s).
Definition svg_refused (o : svg_options) : Prop :=
  refused float_text (so_v_max o) \/ refused float_text (so_a_max o) \/ refused float_text (so_draw_speed o) \/
  refused (count_text 1 (2 ^ 31 - 1)) (so_repeat o) \/ refused (count_text 0 100) (so_intensity o).
Definition svg_drawn_by (tg : trig) (g : geometry) (cf : config_) (s : svg_settings) (layer : option (list char)) (doc : list xml_event) :=
  svg_drawing tg g cf (s_v_max s) (s_a_max s) (s_draw s) (s_repeat s) (s_intensity s) layer doc.
Definition svg_run (tg : trig) (g : geometry) (cf : config_) (s : svg_settings) (layer : option (list char)) (doc : list xml_event) :=
  svg_program tg g cf (s_v_max s) (s_a_max s) (s_draw s) (s_repeat s) (s_intensity s) layer doc.

(** svg_program draws and flushes. *)
Lemma run_flushed : forall tg g cf s layer doc c', (exists e, svg_run tg g cf s layer doc = Ok (c', e)) <->
  exists c, svg_drawn_by tg g cf s layer doc = Ok c /\ flush c = Ok c'.
Proof.
  intros tg g cf s layer doc c'. unfold svg_run, svg_drawn_by, svg_program, svg_main, svg_drawing.
  destruct (svg_limits cf (s_v_max s) (s_a_max s)) as [[[[ax ay] vx] vy]| |]; cbn [bind].
  2, 3: split; [intros (e & H)|intros (c & H & _)]; discriminate.
  destruct (fparse_document tg doc fidentity (layer_filter layer)) as [r| |]; cbn [bind].
  2, 3: split; [intros (e & H)|intros (c & H & _)]; discriminate.
  destruct (unwrap r) as [segs| |]; cbn [bind].
  2, 3: split; [intros (e & H)|intros (c & H & _)]; discriminate.
  destruct (repeat_draw _ _ _ _ _ _ _) as [[c err]| |]; cbn [bind].
  2, 3: split; [intros (e & H)|intros (c & H & _)]; discriminate.
  destruct (step_goto c 0 0) as [c1| |]; cbn [bind].
  2, 3: split; [intros (e & H)|intros (c0 & H & _)]; discriminate.
  destruct (ticks c1) as [t| |]; cbn [bind].
  2, 3: split; [intros (e & H)|intros (c0 & H & _)]; discriminate.
  destruct (assert (negb (tps cf =? 0))) as [[]| |]; cbn [bind].
  2, 3: split; [intros (e & H)|intros (c0 & H & _)]; discriminate.
  destruct (flush c1) as [c2| |] eqn:F; cbn [bind]; (split; [intros (e & H); try discriminate|intros (c0 & [= <-] & H); rewrite F in H; try discriminate]).
  - injection H as <- _. exists c1. auto.
  - injection H as <-. exists err. reflexivity.
Qed.

(** The end of a run that has got so far. *)
Definition sent (fuel : nat) (dev : option port) (evs : list event) (tr : list io_event) (out : outcome finish) : Prop :=
  match dev with
  | None => tr = [] /\ out = Val Finished
  | Some p => exists r, play_events fuel p evs [] = (tr, r) /\
      out = match r with Val _ => Val Finished | IoErr _ => Panics | Panics => Panics | Stuck => Stuck end
  end.
Lemma send_spec : forall fuel dev evs tr out, send fuel dev evs [] = (tr, out) -> sent fuel dev evs tr out.
Proof.
  intros fuel [p|] evs tr out H; cbn [send sent] in *.
  - unfold io_bind, io_unwrap in H. destruct (play_events fuel p evs []) as [tr' r] eqn:P. exists r.
    destruct r; injection H as <- <-; auto.
  - injection H as <- <-. auto.
Qed.

(** All that can happen. *)
Inductive svg_course (tg : trig) (g : geometry) (fuel : nat) (w : world) (o : svg_options) (tr : list io_event) (out : outcome finish) : Prop :=
| svg_message : tr = [] -> out = Val Message ->
    so_help o = true \/ so_free o = [] \/ (forall cf, ~ configured w (so_config o) cf) \/
      (exists cf, configured w (so_config o) cf /\ 2 * tps cf < 2 ^ 32 /\ svg_refused o) -> svg_course tg g fuel w o tr out
| svg_panic : forall cf, tr = [] -> out = Panics \/ out = Stuck -> so_help o = false -> so_free o <> [] -> configured w (so_config o) cf ->
    (2 * tps cf < 2 ^ 32 -> ~ svg_refused o) -> svg_course tg g fuel w o tr out
| svg_drawn : forall cf file rest dev doc s c c', so_help o = false -> so_free o = file :: rest -> configured w (so_config o) cf ->
    svg_says o s -> ~ svg_refused o -> w_xml w file = Some doc ->
    match so_device o with None => dev = None | Some n => exists p, w_device w n = Some p /\ dev = Some p end ->
    svg_drawn_by tg g cf s (so_layer o) doc = Ok c -> (dev <> None -> flush c = Ok c') -> sent fuel dev (events c') tr out -> svg_course tg g fuel w o tr out.

Lemma svg_courses : forall tg g fuel w o tr out, svg_path_main tg g fuel w o [] = (tr, out) -> svg_course tg g fuel w o tr out.
Proof.
  intros tg g fuel w o tr out H. unfold svg_path_main in H.
  destruct (so_help o) eqn:HE. { injection H as <- <-. apply svg_message; auto. }
  destruct (so_free o) as [|file rest] eqn:FR. { injection H as <- <-. apply svg_message; auto. }
  pose proof (config_spec w (so_config o)) as CS. destruct (so_config o) as [n|] eqn:CN.
  2: { injection H as <- <-. apply svg_message; auto. rewrite CN. auto. }
  destruct (config_of w n) as [[cf l]|]. 2: { injection H as <- <-. apply svg_message; auto. rewrite CN. auto. }
  destruct CS as [CF _]. rewrite <- CN in CF.
  unfold io_bind at 1, lift at 1 in H. destruct (chk_u32 (2 * tps cf)) as [two| |] eqn:TW.
  2: { injection H as <- <-. apply svg_panic with cf; auto; [congruence|]. intros L. exfalso.
       assert (0 <= tps cf).
       { destruct CF as (n' & v & l' & _ & _ & S). apply C95_read in S. unfold read_config in S.
         destruct (fields config_names v) as [[|t0 [|x [|y [|z [|]]]]]|]; try discriminate.
         destruct (read_u32 t0) eqn:R; [|discriminate]. destruct (read_stepper x); [|discriminate]. destruct (read_stepper y); [|discriminate].
         destruct (read_laser z); [|discriminate]. injection S as <- _. cbn [tps]. apply read_u32_spec in R. destruct R as [_ R]. lia. }
       unfold chk_u32, chk, in_range, u32_max in TW. destruct (Z.leb_spec 0 (2 * tps cf)), (Z.leb_spec (2 * tps cf) 4294967295); cbn in TW; try discriminate; lia. }
  2: { unfold chk_u32, chk in TW. destruct (in_range _ _ _); discriminate. }
  apply chk_Ok in TW. destruct TW as [_ TW]. unfold u32_max in TW.
  assert (MSG : svg_refused o -> svg_course tg g fuel w o [] (Val Message)).
  { intros R. apply svg_message; auto. right. right. right. exists cf. split; [exact CF|]. split; [lia|exact R]. }
  pose proof (given_spec (so_v_max o)) as S1. destruct (given parse_f64 (so_v_max o)) as [v_opt|].
  2: { injection H as <- <-. apply MSG. left. exact S1. }
  pose proof (given_spec (so_a_max o)) as S2. destruct (given parse_f64 (so_a_max o)) as [a_opt|].
  2: { injection H as <- <-. apply MSG. right. left. exact S2. }
  pose proof (given_or_spec (f_of_Z 20) (so_draw_speed o)) as S3. destruct (given_or parse_f64 (f_of_Z 20) (so_draw_speed o)) as [v_draw|].
  2: { injection H as <- <-. apply MSG. right. right. left. exact S3. }
  pose proof (count_spec 1 (2 ^ 31 - 1) parse_repeat 1 (so_repeat o) repeat_spec) as S4. destruct (given_or parse_repeat 1 (so_repeat o)) as [nr|].
  2: { injection H as <- <-. apply MSG. right. right. right. left. exact S4. }
  pose proof (count_spec 0 100 parse_intensity 5 (so_intensity o) intensity_spec) as S5. destruct (given_or parse_intensity 5 (so_intensity o)) as [k|].
  2: { injection H as <- <-. apply MSG. right. right. right. right. exact S5. }
  assert (NR : ~ svg_refused o) by (unfold svg_refused; tauto).
  assert (PAN : forall t o', t = [] -> o' = Panics \/ o' = Stuck -> svg_course tg g fuel w o t o').
  { intros t o' -> O. apply svg_panic with cf; auto. congruence. }
  unfold io_bind at 1 in H.
  assert (D : exists d, device_of w (so_device o) [] = ([], d) /\
    match d with
    | Val dev => match so_device o with None => dev = None | Some n => exists p, w_device w n = Some p /\ dev = Some p end
    | Panics => True | _ => False end).
  { unfold device_of. destruct (so_device o) as [dn|]; [|eexists; split; [reflexivity|reflexivity]].
    destruct (w_device w dn) as [p|]; eexists; (split; [reflexivity|]); [exists p; auto|exact I]. }
  destruct D as (d & D1 & D2). rewrite D1 in H. destruct d as [dev| | |]; try contradiction.
  2: { injection H as <- <-. apply PAN; auto. }
  destruct (w_xml w file) as [doc|] eqn:WX. 2: { injection H as <- <-. apply PAN; auto. }
  unfold io_bind at 1, lift at 1 in H. set (s := mk_svg_settings v_opt a_opt v_draw nr k).
  change (svg_drawing tg g cf v_opt a_opt v_draw nr k (so_layer o) doc) with (svg_drawn_by tg g cf s (so_layer o) doc) in H.
  destruct (svg_drawn_by tg g cf s (so_layer o) doc) as [c| |] eqn:RUN.
  2, 3: injection H as <- <-; apply PAN; auto.
  assert (SA : svg_says o s) by (unfold svg_says, s; cbn; tauto).
  unfold io_bind at 1 in H. destruct dev as [p|].
  - unfold lift at 1 in H. destruct (flush c) as [c'| |] eqn:FL.
    2, 3: injection H as <- <-; apply PAN; auto.
    apply send_spec in H. eapply svg_drawn; try eassumption. intros _. exact FL.
  - unfold ret at 1 in H. apply send_spec in H. eapply svg_drawn with (c' := c); try eassumption. intros N. contradiction N. reflexivity.
Qed.

(** The program ends with a message, and then has sent nothing, exactly if a file name, a usable
    configuration or a meaningful value is missing. *)
Theorem C115_refused : forall tg g fuel w o,
  (exists tr, svg_path_main tg g fuel w o [] = (tr, Val Message)) <->
  so_help o = true \/ so_free o = [] \/ (forall cf, ~ configured w (so_config o) cf) \/
    exists cf, configured w (so_config o) cf /\ 2 * tps cf < 2 ^ 32 /\ svg_refused o.
Proof.
  intros tg g fuel w o. split.
  - intros (tr & H). apply svg_courses in H. destruct H as [_ _ H|cf _ [H|H]|cf file rest dev doc s c c' _ _ _ _ _ _ _ _ _ S]; try exact H; try discriminate.
    exfalso. destruct dev as [p|]; [destruct S as ([] & _ & S); discriminate|destruct S as [_ S]; discriminate].
  - intros R. destruct (svg_path_main tg g fuel w o []) as [tr out] eqn:M. exists tr. f_equal. apply svg_courses in M.
    destruct M as [_ M _|cf _ _ H F C N|cf file rest dev doc s c c' H F C _ N _ _ _ _ _]; [exact M| |].
    + exfalso. destruct R as [R|[R|[R|(cf' & C' & T & R)]]]; [congruence|congruence|exact (R _ C)|].
      assert (cf' = cf); [|subst; tauto]. pose proof (config_spec w (so_config o)) as Q.
      destruct (so_config o) as [n|]; [|destruct (Q _ C)]. destruct (config_of w n) as [[q l]|]; [|destruct (Q _ C)].
      destruct Q as [_ Q]. rewrite (Q _ C), (Q _ C'). reflexivity.
    + exfalso. destruct R as [R|[R|[R|(cf' & _ & _ & R)]]]; [congruence|congruence|exact (R _ C)|tauto].
Qed.

(** Anything on the serial line is the program's drawing: the values are those the options say, and
    the traffic is that of play_events with the events of the drawing. *)
Theorem C115_sent : forall tg g fuel w o tr out, svg_path_main tg g fuel w o [] = (tr, out) -> tr <> [] ->
  exists file rest cf s name p doc c' e r, so_help o = false /\ so_free o = file :: rest /\ configured w (so_config o) cf /\ svg_says o s /\
    so_device o = Some name /\ w_device w name = Some p /\ w_xml w file = Some doc /\
    svg_run tg g cf s (so_layer o) doc = Ok (c', e) /\ play_events fuel p (events c') [] = (tr, r) /\
    out = match r with Val _ => Val Finished | IoErr _ => Panics | Panics => Panics | Stuck => Stuck end.
Proof.
  intros tg g fuel w o tr out H N. apply svg_courses in H.
  destruct H as [H|cf H|cf file rest dev doc s c c' A B C D _ E F G FL S]; try contradiction.
  destruct (so_device o) as [n|] eqn:DN.
  - destruct F as (p & P & ->). destruct (proj2 (run_flushed tg g cf s (so_layer o) doc c')) as (e & RUN); [exists c; split; [exact G|apply FL; discriminate]|]. destruct S as (r & S1 & S2). exists file, rest, cf, s, n, p, doc, c', e, r. auto 12.
  - subst dev. destruct S as [S _]. contradiction.
Qed.

(** Without a device nothing is sent, and if the program ends in order it could draw what it was asked to;
    the drawing need not have been flushed. *)
Theorem C115_no_device : forall tg g fuel w o tr out, svg_path_main tg g fuel w o [] = (tr, out) -> so_device o = None ->
  tr = [] /\
  (out = Val Finished -> exists file rest cf s doc c, so_help o = false /\ so_free o = file :: rest /\ configured w (so_config o) cf /\ 2 * tps cf < 2 ^ 32 /\
    svg_says o s /\ ~ svg_refused o /\ w_xml w file = Some doc /\ svg_drawn_by tg g cf s (so_layer o) doc = Ok c).
Proof.
  intros tg g fuel w o tr out H N. split.
  - apply svg_courses in H. destruct H as [H|cf H|cf file rest dev doc s c c' A B C D _ E F G FL S]; try assumption.
    rewrite N in F. subst dev. exact (proj1 S).
  - intros ->. pose proof H as H'. apply svg_courses in H. destruct H as [_ H|cf _ [H|H]|cf file rest dev doc s c c' A B C D R E F G FL S]; try discriminate.
    exists file, rest, cf, s, doc, c. do 3 (split; [assumption|]). split; [|auto].
    destruct (Z_lt_ge_dec (2 * tps cf) (2 ^ 32)) as [L|L]; [exact L|exfalso]. unfold svg_path_main in H'. rewrite A, B in H'.
    pose proof (config_spec w (so_config o)) as CS. destruct (so_config o) as [n|]; [|destruct (CS _ C)]. destruct (config_of w n) as [[q l]|]; [|destruct (CS _ C)].
    destruct CS as [_ CS]. rewrite <- (CS _ C) in H'. unfold io_bind at 1, lift at 1 in H'. unfold chk_u32, chk, in_range, u32_max in H'.
    replace (2 * tps cf <=? 4294967295) with false in H' by (symmetry; apply Z.leb_gt; lia). rewrite andb_false_r in H'. discriminate.
Qed.

(** ** What the controller does *)

(** The machine at time [t], when it was in state [m] at time [now] and carries out the commands at
    their times. *)
Fixpoint carried_out (now : Z) (cmds : list (Z * command)) (t : Z) (m : machine) : machine :=
  match cmds with
  | [] => wait (Z.to_nat (t - now)) m
  | (at_, cmd) :: rest =>
      if at_ <=? t then carried_out at_ rest t (apply_cmd cmd (wait (Z.to_nat (at_ - now)) m))
      else wait (Z.to_nat (t - now)) m
  end.

Lemma carried_out_play : forall evs now t m, carried_out now (at_times now evs) (now + t) m = play evs t m.
Proof.
  induction evs as [|e evs IH]; intros now t m; cbn [at_times carried_out play].
  - do 2 f_equal. lia.
  - destruct (Z.leb_spec (now + e_ticks e) (now + t)), (Z.leb_spec (e_ticks e) t); try lia.
    + replace (now + t) with (now + e_ticks e + (t - e_ticks e)) by lia. rewrite IH. do 4 f_equal. lia.
    + do 2 f_equal. lia.
Qed.

(** The commands the controller accepted, as it reads them. *)
Definition commands (tr : list io_event) (cmds : list (Z * command)) : Prop := map decode_line (accepted tr) = map Some cmds.

Lemma map_Some_inj : forall (A : Type) (a b : list A), map Some a = map Some b -> a = b.
Proof. intros A. induction a as [|x a IH]; intros [|y b] E; cbn in E; try discriminate; [reflexivity|]. injection E as -> E. f_equal. apply IH, E. Qed.
Lemma at_times_in : forall W evs t x, Forall (event_ok W) evs -> In x (at_times t evs) -> command_ok W (snd x) /\ t <= fst x.
Proof.
  intros W. induction evs as [|e evs IH]; intros t x F I; cbn [at_times] in I; [destruct I|]. inversion F as [|? ? [E1 E2] F2]; subst.
  destruct I as [<-|I]; [split; [exact E2|cbn [fst]; lia]|]. destruct (IH _ _ F2 I) as [A B]. split; [exact A|lia].
Qed.
Lemma firstn_in : forall (A : Type) n (l : list A) x, In x (firstn n l) -> In x l.
Proof. induction n as [|n IH]; intros [|y l] x H; cbn in *; try tauto. destruct H; auto. Qed.

Lemma accepted_commands : forall fuel p evs tr r, play_events fuel p evs [] = (tr, r) ->
  exists t0 k, commands tr (firstn k (at_times t0 evs)) /\
    (r = Val tt -> firstn k (at_times t0 evs) = at_times t0 evs /\
      exists r0 replies, lines (received tr) = r0 :: replies /\ parse_i64 r0 = Some (t0 - 128)).
Proof.
  intros fuel p evs tr r H. apply C31_exactly_once_in_order in H. destruct H as [[A B]|(r0 & t0 & replies & k & L & P & K & D & E)].
  - exists 0, 0%nat. unfold commands. rewrite A. split; [reflexivity|]. intros Q. contradiction.
  - exists (t0 + 128), k. split; [exact D|]. intros Q. specialize (E Q). split.
    + apply firstn_all2. rewrite E. clear. generalize (t0 + 128). induction evs as [|e evs IH]; intros t; cbn; [lia|]. specialize (IH (t + e_ticks e)). lia.
    + exists r0, replies. split; [exact L|]. rewrite P. f_equal. lia.
Qed.

(** However the run goes: every command the controller accepted is for channel 0 or 1 with a 16 bit
    acceleration, or sets a weight that is 0 or the percentage of 254 the option says. *)
Theorem C115_commands : forall tg g fuel w o tr out, svg_path_main tg g fuel w o [] = (tr, out) ->
  exists cmds, commands tr cmds /\ (cmds = [] \/
    exists k, says (count_text 0 100) 5 (so_intensity o) k /\ 0 <= svg_weight k <= 254 /\
      forall t cmd, In (t, cmd) cmds ->
      match cmd with
      | Acc ch a => (ch = 0 \/ ch = 1) /\ - 2 ^ 15 <= a < 2 ^ 15
      | Weight x => x = 0 \/ x = svg_weight k
      end).
Proof.
  intros tg g fuel w o tr out H. destruct tr as [|x tr']; [exists []; split; [reflexivity|auto]|]. set (tr := x :: tr') in *.
  destruct (C115_sent tg g fuel w o tr out H ltac:(discriminate)) as (file & rest & cf & s & name & p & doc & c' & e & r & _ & _ & _ & SA & _ & _ & _ & RUN & PL & _).
  destruct (accepted_commands _ _ _ _ _ PL) as (t0 & k & C & _). exists (firstn k (at_times t0 (events c'))). split; [exact C|]. right.
  exists (s_intensity s). destruct SA as (_ & _ & _ & _ & SI). split; [exact SI|]. split.
  { apply C82_weight. unfold says in SI. destruct (so_intensity o); [destruct SI; assumption|lia]. }
  intros t cmd I. apply firstn_in in I.
  assert (F : Forall (event_ok (fun x => x = 0 \/ x = svg_weight (s_intensity s))) (events c')).
  { unfold svg_run, svg_program in RUN. inv_bind RUN. eapply proper_svg; [| |exact RUN]; auto. }
  destruct (at_times_in _ _ _ _ F I) as [K _]. cbn [snd] in K. destruct cmd; exact K.
Qed.

Lemma wait_weight : forall n m, m_weight (wait n m) = m_weight m.
Proof. induction n as [|n IH]; intros m; cbn [wait]; [reflexivity|]. rewrite IH. reflexivity. Qed.
Lemma carried_weight : forall (W : Z -> Prop) cmds now t m, (forall s x, In (s, Weight x) cmds -> W x) -> W (m_weight m) ->
  W (m_weight (carried_out now cmds t m)).
Proof.
  intros W. induction cmds as [|[s c] cmds IH]; intros now t m H K; cbn [carried_out].
  - rewrite wait_weight. exact K.
  - destruct (s <=? t); [|rewrite wait_weight; exact K]. apply IH; [intros; apply (H s0); right; assumption|].
    destruct c as [ch a|x]; cbn [apply_cmd].
    + destruct (ch =? 0); [cbn; rewrite wait_weight; exact K|]. destruct (ch =? 1); cbn; rewrite wait_weight; exact K.
    + cbn. apply (H s). left. reflexivity.
Qed.

(** So whatever happens the laser has, at every time, its weight from before, 0 or the one asked for;
    and if the program ends, what the controller does is, tick for tick from 128 ticks after the time it
    told, the drawing of the document with the values the options say (C82, C112, C114). *)
Theorem C115_burned : forall tg g fuel w o tr out, svg_path_main tg g fuel w o [] = (tr, out) ->
  exists cmds, commands tr cmds /\
  (forall now t m, m_weight (carried_out now cmds t m) = m_weight m \/ m_weight (carried_out now cmds t m) = 0 \/
    exists k, says (count_text 0 100) 5 (so_intensity o) k /\ m_weight (carried_out now cmds t m) = svg_weight k) /\
  (out = Val Finished -> forall name, so_device o = Some name ->
    exists file rest cf s doc c' e r0 replies t0, so_free o = file :: rest /\ configured w (so_config o) cf /\ svg_says o s /\ w_xml w file = Some doc /\
      svg_run tg g cf s (so_layer o) doc = Ok (c', e) /\
      lines (received tr) = r0 :: replies /\ parse_i64 r0 = Some t0 /\
      forall t m, carried_out (t0 + 128) cmds (t0 + 128 + t) m = play (events c') t m).
Proof.
  intros tg g fuel w o tr out H. destruct (C115_commands _ _ _ _ _ _ _ H) as (cmds & C & K). exists cmds. split; [exact C|]. split.
  - intros now t m. destruct K as [->|(k & S & _ & K)]; [left; apply wait_weight|].
    apply (carried_weight (fun x => x = m_weight m \/ x = 0 \/ exists k, says (count_text 0 100) 5 (so_intensity o) k /\ x = svg_weight k)); [|auto].
    intros s x I. destruct (K _ _ I) as [->| ->]; eauto.
  - intros -> name N. destruct (svg_courses _ _ _ _ _ _ _ H) as [_ X _|cf _ [X|X]|cf file rest dev doc s c c' A B CO D _ E F G FL S]; try discriminate.
    rewrite N in F. destruct F as (p & P & ->). destruct (proj2 (run_flushed tg g cf s (so_layer o) doc c')) as (e & RUN); [exists c; split; [exact G|apply FL; discriminate]|]. destruct S as (r & S1 & S2). destruct r as [[]| | |]; try discriminate.
    destruct (accepted_commands _ _ _ _ _ S1) as (t0 & k & C' & FU). destruct (FU eq_refl) as (E1 & r0 & replies & L & P0).
    exists file, rest, cf, s, doc, c', e, r0, replies, (t0 - 128). repeat (split; [assumption|]).
    intros t m. replace (t0 - 128 + 128) with t0 by lia. rewrite E1 in C'.
    assert (EC : cmds = at_times t0 (events c')) by (apply map_Some_inj; unfold commands in *; congruence).
    rewrite EC. apply carried_out_play.
Qed.

(** ** Examples *)

(** The configuration of 128 ticks per second in "c.json"; a line of a millimetre in "line.svg"; a
    white and a black point in "dot.png"; a controller at "tty". *)
Definition a_world (script : list read_res) : world :=
  mk_world (fun n => if list_eq_dec N.eq_dec n (chars "c.json") then Some (write_config sample_config (mk_laser 256 256 5)) else None)
    (fun n => if list_eq_dec N.eq_dec n (chars "line.svg") then Some (document_events one_line) else None)
    (fun n => if list_eq_dec N.eq_dec n (chars "dot.png") then Some (2, 1, [[255; 0]]) else None)
    (fun n => if list_eq_dec N.eq_dec n (chars "tty") then Some (scripted script) else None).
Definition an_order (speed intensity : string) : svg_options :=
  mk_svg_options false [chars "line.svg"] (Some (chars "c.json")) (Some (chars "tty")) None None (Some (chars speed)) None (Some (chars intensity)) None.
(** The time 100, and OK [n] times. *)
Definition oks (n : nat) : list read_res := map RByte [49; 48; 48; 10] ++ List.concat (repeat (map RByte [79; 75; 10]) n).

(** It ends after the 43 events have been accepted; without a number, or with an intensity above 100,
    it ends with a message; with an infinite speed it panics. *)
Example C115_example :
  (exists tr, svg_path_main good_trig C103_geometry 200 (a_world (oks 43)) (an_order "+2.0E1" "50") [] = (tr, Val Finished) /\
    List.length (accepted tr) = 43%nat) /\
  svg_path_main good_trig C103_geometry 200 (a_world (oks 43)) (an_order "20mm" "50") [] = ([], Val Message) /\
  svg_path_main good_trig C103_geometry 200 (a_world (oks 43)) (an_order "20" "101") [] = ([], Val Message) /\
  svg_path_main good_trig C103_geometry 200 (a_world (oks 43)) (an_order "-Inf" "50") [] = ([], Panics).
Proof.
  split; [eexists; split; vm_compute; reflexivity|]. split; [vm_compute; reflexivity|]. split; vm_compute; reflexivity.
Qed.

Example C115_no_device_example :
  svg_path_main good_trig C103_geometry 200 (a_world []) (mk_svg_options false [chars "line.svg"] (Some (chars "c.json")) None None None None None None None) [] = ([], Val Finished).
Proof. vm_compute. reflexivity. Qed.

(** The weight after the last command. *)
Lemma last_weight : forall cmds now t m, Forall (fun x => fst x <= t) cmds ->
  m_weight (carried_out now cmds t m) = fold_left (fun w x => match snd x with Weight v => v | Acc _ _ => w end) cmds (m_weight m).
Proof.
  induction cmds as [|[s c] cmds IH]; intros now t m F; cbn [carried_out fold_left].
  - apply wait_weight.
  - inversion F as [|? ? F1 F2]; subst. cbn [fst] in F1. destruct (Z.leb_spec s t); [|lia]. rewrite (IH _ _ _ F2). f_equal. cbn [snd].
    destruct c as [ch a|x]; cbn [apply_cmd]; [|reflexivity].
    destruct (ch =? 0); [cbn; apply wait_weight|]. destruct (ch =? 1); cbn; apply wait_weight.
Qed.

(** Expected but false: that the laser is off when the program has ended.  When a reply cannot be read
    after the 14th event the program panics; the controller is not told to stop, and the laser stays
    on. *)
Theorem C115_left_on : exists tr cmds, svg_path_main good_trig C103_geometry 200 (a_world (oks 14 ++ [RFail])) (an_order "20" "50") [] = (tr, Panics) /\
  commands tr cmds /\ ~ In [82] (lines (written tr)) /\
  forall now t w, 300 <= t -> m_weight (carried_out now cmds t (machine0 w)) = 127.
Proof.
  eexists. eexists. split; [vm_compute; reflexivity|]. split.
  { unfold commands. match goal with |- map decode_line ?a = _ => let b := eval vm_compute in (map decode_line a) in change (map decode_line a) with b end.
    match goal with |- ?a = _ => let r := constr:(map (fun o : option (Z * command) => match o with Some x => x | None => (0, Weight 0) end) a) in
      let r := eval vm_compute in r in instantiate (1 := r) end. reflexivity. }
  split.
  { vm_compute. intros H. repeat (destruct H as [H|H]; [discriminate|]). exact H. }
  intros now t w T. rewrite last_weight; [reflexivity|]. repeat (constructor; [cbn [fst]; lia|]). constructor.
Qed.

(** *** image_raster *)

Record image_settings := mk_image_settings {
  i_v_max : option f64; i_a_max : option f64; i_draw : f64; i_intensity : Z; i_width : option f64; i_height : option f64; i_spot : f64 }.
Definition image_says (o : image_options) (s : image_settings) : Prop :=
  says some_speed None (io_v_max o) (i_v_max s) /\ says some_speed None (io_a_max o) (i_a_max s) /\
  says float_text (f_of_Z 20) (io_draw_speed o) (i_draw s) /\ says (count_text 0 100) 5 (io_intensity o) (i_intensity s) /\
  says some_speed None (io_width o) (i_width s) /\ says some_speed None (io_height o) (i_height s) /\
  says float_text (lit 2 10) (io_spot_diam o) (i_spot s).
Definition image_refused (o : image_options) : Prop :=
  refused float_text (io_v_max o) \/ refused float_text (io_a_max o) \/ refused float_text (io_draw_speed o) \/
  refused (count_text 0 100) (io_intensity o) \/ refused float_text (io_width o) \/ refused float_text (io_height o) \/
  refused float_text (io_spot_diam o).
Definition image_run (cf : config_) (s : image_settings) (xp yp : Z) (rows : list (list Z)) : res ctx :=
  image_main cf (i_v_max s) (i_a_max s) (i_draw s) (i_intensity s) (i_width s) (i_height s) (i_spot s) xp yp rows.

Inductive image_course (fuel : nat) (w : world) (o : image_options) (tr : list io_event) (out : outcome finish) : Prop :=
| image_message : tr = [] -> out = Val Message ->
    io_help o = true \/ io_free o = [] \/ (forall cf, ~ configured w (io_config o) cf) \/
      (exists cf file rest, configured w (io_config o) cf /\ io_free o = file :: rest /\ 2 * tps cf < 2 ^ 32 /\
         (image_refused o \/ w_image w file = None)) -> image_course fuel w o tr out
| image_panic : forall cf file rest, tr = [] -> out = Panics \/ out = Stuck -> io_help o = false -> io_free o = file :: rest -> configured w (io_config o) cf ->
    (2 * tps cf < 2 ^ 32 -> ~ image_refused o /\ w_image w file <> None) -> image_course fuel w o tr out
| image_drawn : forall cf file rest dev xp yp rows s c c', io_help o = false -> io_free o = file :: rest -> configured w (io_config o) cf ->
    image_says o s -> ~ image_refused o -> w_image w file = Some (xp, yp, rows) ->
    match io_device o with None => dev = None | Some n => exists p, w_device w n = Some p /\ dev = Some p end ->
    image_run cf s xp yp rows = Ok c -> (dev <> None -> flush c = Ok c') -> sent fuel dev (events c') tr out -> image_course fuel w o tr out.

Lemma tps_nonneg : forall w o cf, configured w o cf -> 0 <= tps cf.
Proof.
  intros w o cf (n' & v & l' & _ & _ & S). apply C95_read in S. unfold read_config in S.
  destruct (fields config_names v) as [[|t0 [|x [|y [|z [|]]]]]|]; try discriminate.
  destruct (read_u32 t0) eqn:R; [|discriminate]. destruct (read_stepper x); [|discriminate]. destruct (read_stepper y); [|discriminate].
  destruct (read_laser z); [|discriminate]. injection S as <- _. cbn [tps]. apply read_u32_spec in R. destruct R as [_ R]. lia.
Qed.

Lemma image_courses : forall fuel w o tr out, image_raster_main fuel w o [] = (tr, out) -> image_course fuel w o tr out.
Proof.
  intros fuel w o tr out H. unfold image_raster_main in H.
  destruct (io_help o) eqn:HE. { injection H as <- <-. apply image_message; auto. }
  destruct (io_free o) as [|file rest] eqn:FR. { injection H as <- <-. apply image_message; auto. }
  pose proof (config_spec w (io_config o)) as CS. destruct (io_config o) as [n|] eqn:CN.
  2: { injection H as <- <-. apply image_message; auto. rewrite CN. auto. }
  destruct (config_of w n) as [[cf l]|]. 2: { injection H as <- <-. apply image_message; auto. rewrite CN. auto. }
  destruct CS as [CF _]. rewrite <- CN in CF.
  unfold io_bind at 1, lift at 1 in H. destruct (chk_u32 (2 * tps cf)) as [two| |] eqn:TW.
  2: { injection H as <- <-. apply image_panic with cf file rest; auto. intros L. exfalso.
       pose proof (tps_nonneg _ _ _ CF).
       unfold chk_u32, chk, in_range, u32_max in TW. destruct (Z.leb_spec 0 (2 * tps cf)), (Z.leb_spec (2 * tps cf) 4294967295); cbn in TW; try discriminate; lia. }
  2: { unfold chk_u32, chk in TW. destruct (in_range _ _ _); discriminate. }
  apply chk_Ok in TW. destruct TW as [_ TW]. unfold u32_max in TW.
  assert (MSG : image_refused o \/ w_image w file = None -> image_course fuel w o [] (Val Message)).
  { intros R. apply image_message; auto. right. right. right. exists cf, file, rest. split; [exact CF|]. split; [exact FR|]. split; [lia|exact R]. }
  pose proof (given_spec (io_v_max o)) as S1. destruct (given parse_f64 (io_v_max o)) as [v_opt|].
  2: { injection H as <- <-. apply MSG. left. unfold image_refused. tauto. }
  pose proof (given_spec (io_a_max o)) as S2. destruct (given parse_f64 (io_a_max o)) as [a_opt|].
  2: { injection H as <- <-. apply MSG. left. unfold image_refused. tauto. }
  pose proof (given_or_spec (f_of_Z 20) (io_draw_speed o)) as S3. destruct (given_or parse_f64 (f_of_Z 20) (io_draw_speed o)) as [v_draw|].
  2: { injection H as <- <-. apply MSG. left. unfold image_refused. tauto. }
  pose proof (count_spec 0 100 parse_intensity 5 (io_intensity o) intensity_spec) as S5. destruct (given_or parse_intensity 5 (io_intensity o)) as [k|].
  2: { injection H as <- <-. apply MSG. left. unfold image_refused. tauto. }
  pose proof (given_spec (io_width o)) as S6. destruct (given parse_f64 (io_width o)) as [wi|].
  2: { injection H as <- <-. apply MSG. left. unfold image_refused. tauto. }
  pose proof (given_spec (io_height o)) as S7. destruct (given parse_f64 (io_height o)) as [he|].
  2: { injection H as <- <-. apply MSG. left. unfold image_refused. tauto. }
  pose proof (given_or_spec (lit 2 10) (io_spot_diam o)) as S8. destruct (given_or parse_f64 (lit 2 10) (io_spot_diam o)) as [sp|].
  2: { injection H as <- <-. apply MSG. left. unfold image_refused. tauto. }
  destruct (w_image w file) as [[[xp yp] rows]|] eqn:WI. 2: { injection H as <- <-. apply MSG. right. reflexivity. }
  assert (NR : ~ image_refused o) by (unfold image_refused; tauto).
  assert (PAN : forall t o', t = [] -> o' = Panics \/ o' = Stuck -> image_course fuel w o t o').
  { intros t o' -> O. apply image_panic with cf file rest; auto. intros _. split; [exact NR|congruence]. }
  unfold io_bind at 1 in H.
  assert (D : exists d, device_of w (io_device o) [] = ([], d) /\
    match d with
    | Val dev => match io_device o with None => dev = None | Some n => exists p, w_device w n = Some p /\ dev = Some p end
    | Panics => True | _ => False end).
  { unfold device_of. destruct (io_device o) as [dn|]; [|eexists; split; [reflexivity|reflexivity]].
    destruct (w_device w dn) as [p|]; eexists; (split; [reflexivity|]); [exists p; auto|exact I]. }
  destruct D as (d & D1 & D2). rewrite D1 in H. destruct d as [dev| | |]; try contradiction.
  2: { injection H as <- <-. apply PAN; auto. }
  set (s := mk_image_settings v_opt a_opt v_draw k wi he sp).
  change (image_main cf v_opt a_opt v_draw k wi he sp xp yp rows) with (image_run cf s xp yp rows) in H.
  unfold io_bind at 1, lift at 1 in H. destruct (image_run cf s xp yp rows) as [c| |] eqn:RUN;
    [|injection H as <- <-; apply PAN; auto|injection H as <- <-; apply PAN; auto].
  unfold io_bind at 1, lift at 1 in H. destruct (ticks c) as [t| |];
    [|injection H as <- <-; apply PAN; auto|injection H as <- <-; apply PAN; auto].
  unfold io_bind at 1, lift at 1 in H. destruct (assert (negb (tps cf =? 0))) as [[]| |];
    [|injection H as <- <-; apply PAN; auto|injection H as <- <-; apply PAN; auto].
  assert (SA : image_says o s) by exact (conj (proj1 S1) (conj (proj1 S2) (conj (proj1 S3) (conj (proj1 S5) (conj (proj1 S6) (conj (proj1 S7) (proj1 S8))))))).
  destruct dev as [p|].
  - unfold io_bind at 1, lift at 1 in H. destruct (flush c) as [c'| |] eqn:FL;
      [|injection H as <- <-; apply PAN; auto|injection H as <- <-; apply PAN; auto].
    apply send_spec in H. eapply image_drawn; try eassumption. intros _. exact FL.
  - injection H as <- <-. eapply image_drawn with (c' := c); try eassumption; [intros N; congruence|]. split; reflexivity.
Qed.

Theorem C116_refused : forall fuel w o,
  (exists tr, image_raster_main fuel w o [] = (tr, Val Message)) <->
  io_help o = true \/ io_free o = [] \/ (forall cf, ~ configured w (io_config o) cf) \/
    exists cf file rest, configured w (io_config o) cf /\ io_free o = file :: rest /\ 2 * tps cf < 2 ^ 32 /\
      (image_refused o \/ w_image w file = None).
Proof.
  intros fuel w o. split.
  - intros (tr & H). apply image_courses in H.
    destruct H as [_ _ H|cf file rest _ [H|H]|cf file rest dev xp yp rows s c c' _ _ _ _ _ _ _ _ _ S]; try exact H; try discriminate.
    exfalso. destruct dev as [p|]; [destruct S as ([] & _ & S); discriminate|destruct S as [_ S]; discriminate].
  - intros R. destruct (image_raster_main fuel w o []) as [tr out] eqn:M. exists tr. f_equal. apply image_courses in M.
    assert (U : forall cf cf', configured w (io_config o) cf -> configured w (io_config o) cf' -> cf' = cf).
    { intros cf cf' C C'. pose proof (config_spec w (io_config o)) as Q.
      destruct (io_config o) as [n|]; [|destruct (Q _ C)]. destruct (config_of w n) as [[q l]|]; [|destruct (Q _ C)].
      destruct Q as [_ Q]. rewrite (Q _ C), (Q _ C'). reflexivity. }
    destruct M as [_ M _|cf file rest _ _ H F C N|cf file rest dev xp yp rows s c c' H F C _ N WI _ _ _ _]; [exact M| |].
    + exfalso. destruct R as [R|[R|[R|(cf' & file' & rest' & C' & F' & T & R)]]]; [congruence|congruence|exact (R _ C)|].
      pose proof (U _ _ C C'). subst cf'. specialize (N T). assert (file' = file) by congruence. subst. tauto.
    + exfalso. destruct R as [R|[R|[R|(cf' & file' & rest' & C' & F' & T & [R|R])]]]; [congruence|congruence|exact (R _ C)|tauto|congruence].
Qed.

Lemma pixel_range : forall p b w, 0 <= b -> pixel_weight p b = Ok w -> 0 <= w <= b.
Proof.
  intros p b w B H. unfold pixel_weight in H. apply bind_Ok in H. destruct H as (k & K & H). apply chk_Ok in K. destruct K as [K0 K].
  apply bind_Ok in H. destruct H as (m & M & H). apply chk_Ok in M. destruct M as [M _]. assert (w = Z.quot m 256) as -> by congruence. subst m. clear H.
  assert (0 <= k * b <= 256 * b) by (split; [apply Z.mul_nonneg_nonneg; lia|apply Z.mul_le_mono_nonneg_r; lia]).
  rewrite Z.quot_div_nonneg by lia. split; [apply Z.div_pos; lia|apply Z.div_le_upper_bound; lia].
Qed.

(** Anything on the serial line of image_raster is the image's raster, with the values the options
    say; every accepted command is well-formed and no weight is above the one asked for; and if the
    program ends the controller does, tick for tick, what the stream says (C75, C76). *)
Theorem C116_burned : forall fuel w o tr out, image_raster_main fuel w o [] = (tr, out) -> tr <> [] ->
  exists file rest cf s name p xp yp rows c c' cmds k, io_help o = false /\ io_free o = file :: rest /\ configured w (io_config o) cf /\
    image_says o s /\ io_device o = Some name /\ w_device w name = Some p /\ w_image w file = Some (xp, yp, rows) /\
    image_run cf s xp yp rows = Ok c /\ flush c = Ok c' /\ commands tr cmds /\
    says (count_text 0 100) 5 (io_intensity o) k /\ 0 <= black_weight k <= 254 /\
    (forall t cmd, In (t, cmd) cmds ->
      match cmd with
      | Acc ch a => (ch = 0 \/ ch = 1) /\ - 2 ^ 15 <= a < 2 ^ 15
      | Weight x => 0 <= x <= black_weight k
      end) /\
    (forall now t m, m_weight (carried_out now cmds t m) = m_weight m \/ 0 <= m_weight (carried_out now cmds t m) <= black_weight k) /\
    (out = Val Finished -> exists r0 replies t0, lines (received tr) = r0 :: replies /\ parse_i64 r0 = Some t0 /\
      forall t m, carried_out (t0 + 128) cmds (t0 + 128 + t) m = play (events c') t m).
Proof.
  intros fuel w o tr out H N. apply image_courses in H.
  destruct H as [H|cf file rest H|cf file rest dev xp yp rows s c c' A B C D _ E F G FL S]; try contradiction.
  destruct (io_device o) as [n|] eqn:DN; [|subst dev; destruct S as [S _]; contradiction].
  destruct F as (p & P & ->). specialize (FL ltac:(discriminate)). destruct S as (r & S1 & S2).
  destruct (accepted_commands _ _ _ _ _ S1) as (t0 & k & C' & FU).
  assert (SI : says (count_text 0 100) 5 (io_intensity o) (i_intensity s)) by apply D.
  assert (KB : 0 <= black_weight (i_intensity s) <= 254).
  { apply C82_weight. unfold says in SI. destruct (io_intensity o); [destruct SI; assumption|lia]. }
  assert (OK : forall t cmd, In (t, cmd) (firstn k (at_times t0 (events c'))) -> command_ok (fun x => 0 <= x <= black_weight (i_intensity s)) cmd).
  { intros t cmd I. apply firstn_in in I.
    assert (PR : Forall (event_ok (fun x => 0 <= x <= black_weight (i_intensity s))) (events c')).
    { eapply proper_flush; [exact FL|]. unfold image_run in G. eapply proper_image; [| | |exact G]; try lia.
      intros q x Q. eapply pixel_range; [|exact Q]. lia. }
    destruct (at_times_in _ _ _ _ PR I) as [K _]. exact K. }
  exists file, rest, cf, s, n, p, xp, yp, rows, c, c', (firstn k (at_times t0 (events c'))), (i_intensity s).
  do 12 (split; [first [assumption | reflexivity]|]). split; [|split].
  - intros t cmd I. specialize (OK t cmd I). destruct cmd; exact OK.
  - intros now t m. apply (carried_weight (fun x => x = m_weight m \/ 0 <= x <= black_weight (i_intensity s))); [|auto].
    intros q x I. right. exact (OK _ _ I).
  - intros ->. destruct r as [[]| | |]; try discriminate. destruct (FU eq_refl) as (E1 & r0 & replies & L & P0).
    exists r0, replies, (t0 - 128). split; [exact L|]. split; [exact P0|]. intros t m. replace (t0 - 128 + 128) with t0 by lia.
    rewrite E1. apply carried_out_play.
Qed.

Definition an_image (width intensity : string) : image_options :=
  mk_image_options false [chars "dot.png"] (Some (chars "c.json")) (Some (chars "tty")) None None None (Some (chars intensity)) (Some (chars width)) None None.

(** The weights of the accepted commands. *)
Definition sent_weights (tr : list io_event) : list Z :=
  flat_map (fun x => match x with Some (_, Weight v) => [v] | _ => [] end) (map decode_line (accepted tr)).

(** An image of a white and a black point, 3 mm wide at half intensity, is burned in eight lines; a
    width without a number or a missing image gives a message. *)
Example C116_example :
  (exists tr, image_raster_main 400 (a_world (oks 103)) (an_image "3" "50") [] = (tr, Val Finished) /\ tr <> [] /\
    List.length (accepted tr) = 103%nat /\ List.length (filter (Z.eqb 126) (sent_weights tr)) = 8%nat /\ black_weight 50 = 127) /\
  image_raster_main 400 (a_world (oks 103)) (an_image "3 mm" "50") [] = ([], Val Message) /\
  image_raster_main 400 (mk_world (w_json (a_world [])) (w_xml (a_world [])) (fun _ => None) (w_device (a_world []))) (an_image "3" "50") [] = ([], Val Message).
Proof.
  split; [|split; vm_compute; reflexivity].
  destruct (image_raster_main 400 (a_world (oks 103)) (an_image "3" "50") []) as [tr out] eqn:E. exists tr.
  assert (X : let (tr, out) := image_raster_main 400 (a_world (oks 103)) (an_image "3" "50") [] in
    out = Val Finished /\ List.length (accepted tr) = 103%nat /\ List.length (filter (Z.eqb 126) (sent_weights tr)) = 8%nat) by (vm_compute; auto).
  rewrite E in X. destruct X as (-> & A & B). split; [reflexivity|]. split; [|repeat split; assumption || reflexivity].
  intros ->. discriminate A.
Qed.

Print Assumptions C115_speeds.
Print Assumptions C115_integers.
Print Assumptions C115_refused.
Print Assumptions C115_sent.
Print Assumptions C115_no_device.
Print Assumptions C115_commands.
Print Assumptions C115_burned.
Print Assumptions C115_example.
Print Assumptions C115_left_on.
Print Assumptions C116_refused.
Print Assumptions C116_burned.
Print Assumptions C116_example.
