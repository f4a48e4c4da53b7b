(** Properties of the text parsers: C48 (numbers), C49 (compact lists), C50 (whole paths). *)
From Coq Require Import Reals Lra ZArith List Bool NArith Arith Lia ZifyBool Ascii String.
From Verif Require Import Base Chars Coords Curves PathBuild PathGrammar PathLex BuildProofs LexProofs.
Import ListNotations.

(** ** C48: numbers *)

(** The number parser takes the longest prefix of the text that is a number, with its value... *)
Theorem C48_longest : forall s rest v,
  number s = Some (rest, v) <->
  exists t, s = t ++ rest /\ number_text t v /\
    forall t' w rest', s = t' ++ rest' -> number_text t' w -> (List.length t' <= List.length t)%nat.
Proof.
  intros s rest v. split.
  - intros E. destruct (number_sound _ _ _ E) as (t & -> & T). exists t. split; [reflexivity|]. split; [exact T|].
    intros t' w rest' Q T'. destruct (number_leaves t' w rest' T') as (r & u & E' & L). rewrite <- Q, E in E'.
    injection E' as <- <-. apply (f_equal (@List.length char)) in Q. rewrite !app_length in Q. lia.
  - intros (t & -> & T & LG). destruct (number_leaves t v rest T) as (r & u & E & L). rewrite E.
    destruct (number_sound _ _ _ E) as (t' & Q & T'). assert (LE := LG _ _ _ Q T').
    assert (LL := f_equal (@List.length char) Q). rewrite !app_length in LL.
    assert (S : t = t' /\ rest = r).
    { apply app_eq_app in Q. destruct Q as [l [[-> ->]|[-> ->]]]; rewrite !app_length in *;
        (destruct l; [rewrite ?app_nil_r; auto|cbn in *; lia]). }
    destruct S as [<- <-]. rewrite (number_value_unique _ _ _ T T'). reflexivity.
Qed.

(** ... and fails exactly if no prefix is a number. *)
Theorem C48_none : forall s, number s = None <-> forall t v rest, s = t ++ rest -> ~ number_text t v.
Proof.
  intros s. split.
  - intros E t v rest -> T. destruct (number_leaves t v rest T) as (r & u & E' & L). congruence.
  - intros H. destruct (number s) as [[r v]|] eqn:E; [|reflexivity]. exfalso.
    destruct (number_sound _ _ _ E) as (t & Q & T). exact (H t v r Q T).
Qed.

(** f64::from_str is only called on numbers, which it reads: InvalidNumber does not occur. *)
Theorem C48_valid : forall t v, number_text t v -> from_str t = Some v /\ number t = Some ([], v).
Proof.
  intros t v T. split; [apply from_str_text; auto|]. pose proof (number_exact t v [] T I) as E.
  rewrite app_nil_r in E. exact E.
Qed.

Example C48_example : number (chars "-38.5e1,7") = Some (chars ",7", -385)%R /\ number (chars "e5") = None /\
  number_text (chars "-38.5e1") (-385)%R.
Proof.
  assert (T : number_text (chars "-38.5e1") (-385)%R).
  { replace (-385)%R with (IZR (-1) * IZR (digits_value (chars "38" ++ chars "5")) *
      powerRZ 10 (- Z.of_nat (List.length (chars "5")) + 1 * digits_value (chars "1")))%R.
    - change (chars "-38.5e1") with (chars "-" ++ (chars "38" ++ ch "." :: chars "5") ++ (ch "e" :: [] ++ chars "1")).
      constructor; [constructor| |].
      + constructor; [repeat constructor|split; [discriminate|repeat constructor]].
      + constructor; [left; reflexivity|constructor|split; [discriminate|repeat constructor]].
    - change (digits_value (chars "38" ++ chars "5")) with 385%Z. 
      change (- Z.of_nat (List.length (chars "5")) + 1 * digits_value (chars "1"))%Z with 0%Z. cbn [powerRZ]. lra. }
  split; [|split; [|exact T]].
  - change (chars "-38.5e1,7") with (chars "-38.5e1" ++ chars ",7"). apply number_exact; [exact T|reflexivity].
  - reflexivity.
Qed.

(** ** C50: whole paths *)

Lemma trim_path : forall w s, all is_white w -> stops is_white s -> trim_start (w ++ s) = s.
Proof. intros w s W S. unfold trim_start. rewrite while0_app by auto. reflexivity. Qed.

(** A text that is a sequence of commands and white space builds these commands in order... *)
Theorem C50_complete : forall s cmds c tr, path_text s cmds -> parse_path s c tr = build_commands c cmds tr true.
Proof.
  assert (G : forall n s cmds, (List.length s <= n)%nat -> path_text s cmds ->
            forall c tr f, parse_loop n c tr f s = build_commands c cmds tr f).
  2: { intros s cmds c tr P. apply G; auto. }
  induction n as [|n IH]; intros s cmds L P c tr f; destruct P as [w W|w t cm r cs W C R].
  - destruct w; [reflexivity|cbn in L; lia].
  - exfalso. destruct (command_head _ _ C) as (l & t' & -> & _). rewrite !app_length in L. cbn in L. lia.
  - cbn [parse_loop]. pose proof (trim_path w [] W I) as T. rewrite app_nil_r in T. rewrite T. reflexivity.
  - destruct (command_head _ _ C) as (l & t' & -> & LL). destruct (letter_not _ LL) as (NW & _).
    cbn [parse_loop]. rewrite trim_path by auto. cbn [app].
    destruct (path_command_exact _ _ _ _ C R) as (r' & E & R' & LR). cbn [app] in E. rewrite E. destruct cm as [cmd args].
    cbn [build_commands]. destruct (build_path c cmd args tr f) as [[[c' s']|]| |]; cbn [bind]; try reflexivity.
    rewrite (IH r' cs); auto. rewrite !app_length in L. cbn in L. lia.
Qed.

(** ... and nothing else succeeds: on success the whole text was such a sequence. *)
Theorem C50_consumed : forall s c tr r, parse_path s c tr = Ok (Some r) ->
  exists cmds, path_text s cmds /\ build_commands c cmds tr true = Ok (Some r).
Proof.
  assert (G : forall n s c tr f r, parse_loop n c tr f s = Ok (Some r) ->
            exists cmds, path_text s cmds /\ build_commands c cmds tr f = Ok (Some r)).
  2: { intros s c tr r. apply G. }
  induction n as [|n IH]; intros s c tr f r E; cbn [parse_loop] in E; unfold trim_start in E;
    (destruct (while0 is_white s) as [s1 w] eqn:W; apply while0_spec in W; destruct W as (-> & W & ST); cbn [fst] in E);
    destruct s1 as [|x s1].
  - rewrite app_nil_r. injection E as <-. exists []. split; [constructor; auto|reflexivity].
  - discriminate.
  - rewrite app_nil_r. injection E as <-. exists []. split; [constructor; auto|reflexivity].
  - destruct (path_command (x :: s1)) as [[rest [cmd args]]|] eqn:PC; [|discriminate].
    destruct (path_command_sound _ _ _ PC) as (t & Q & sp & t' & -> & SP & CT). rewrite Q.
    destruct (build_path c cmd args tr f) as [[[c' s']|]| |] eqn:B; cbn [bind] in E; try discriminate.
    destruct (parse_loop n c' tr false rest) as [[[c2 s2]|]| |] eqn:P; cbn [bind] in E; try discriminate.
    apply IH in P. destruct P as (cmds & PT & BC). injection E as <-.
    exists ((cmd, args) :: cmds). split.
    + replace (w ++ (sp ++ t') ++ rest) with ((w ++ sp) ++ t' ++ rest) by (rewrite <- !app_assoc; reflexivity).
      constructor; auto. apply all_app; auto. eapply Forall_impl; [|exact SP]. apply space_white.
    + cbn [build_commands]. rewrite B. cbn [bind]. rewrite BC. reflexivity.
Qed.

(** parse_path ends on every text (its loop never needs more turns than there are characters);
    a text that is not such a sequence is an error or a panic. *)
Theorem C50_total : forall s c tr,
  parse_path s c tr <> OutOfFuel /\
  ((forall cmds, ~ path_text s cmds) -> parse_path s c tr = Ok None \/ parse_path s c tr = Panic).
Proof.
  assert (BA : forall rel tr args fuel pos, (List.length args <= fuel)%nat -> build_arcs fuel rel tr pos args <> OutOfFuel).
  { intros rel tr args fuel. revert args. induction fuel as [|fuel IH]; intros args pos L.
    - destruct args; [discriminate|cbn in L; lia].
    - cbn [build_arcs]. destruct (get_arc_args args) as [[a rest]|] eqn:GA; [|discriminate].
      assert (LR : (List.length rest <= fuel)%nat).
      { destruct args as [|x1 [|x2 [|x3 [|x4 [|x5 [|x6 [|x7 r]]]]]]]; try discriminate. injection GA as _ <-. cbn in L. lia. }
      destruct (build_arc rel tr pos a) as [[[e sg]|]| |] eqn:B; cbn [bind]; try discriminate.
      + specialize (IH rest e LR). destruct (build_arcs fuel rel tr e rest) as [[[e2 s2]|]| |]; cbn [bind]; congruence || discriminate.
      + exfalso. unfold build_arc in B. destruct (nonzero _ || nonzero _); [|discriminate].
        unfold arc_segment in B. destruct (transform_ellipse _ _ _ _) as [[[rx ry] rot]| |] eqn:TE; cbn [bind] in B; try discriminate.
        * destruct (chord _ _ _ _) as [[[[x1 y1] x2] y2]|]; [|discriminate]. destruct (arc_angles _ _ _ _ _ _ _ _); discriminate.
        * unfold transform_ellipse in TE. destruct (invert2x2 _); cbn [unwrap bind] in TE; [|discriminate].
          unfold ellipse_of_form in TE. destruct (Rle_dec _ _); [discriminate|]. destruct (Rle_dec _ _); discriminate. }
  assert (BP : forall c cmd args tr f, build_path c cmd args tr f <> OutOfFuel).
  { intros c cmd args tr f. unfold build_path.
    repeat match goal with
      | |- (if ?b then _ else _) <> _ => destruct b
      | |- (let (_, _) := ?x in _) <> _ => destruct x
      | |- Ok _ <> _ => discriminate
      end.
    - destruct args as [|x [|y rest]]; try discriminate. destruct (build_lines _ _ _ _). discriminate.
    - pose proof (BA (is_lower cmd) tr args (List.length args) (p_pos c) (le_n _)) as B.
      destruct (build_arcs _ _ _ _ _) as [[[e s]|]| |]; cbn [bind]; congruence || discriminate. }
  assert (G : forall n s c tr f, (List.length s <= n)%nat -> parse_loop n c tr f s <> OutOfFuel).
  { induction n as [|n IH]; intros s c tr f L; cbn [parse_loop]; unfold trim_start;
      (destruct (while0 is_white s) as [s1 w] eqn:W; apply while0_spec in W; destruct W as (-> & W & ST); cbn [fst]);
      destruct s1 as [|x s1]; try discriminate.
    - rewrite app_length in L. cbn in L. lia.
    - destruct (path_command (x :: s1)) as [[rest [cmd args]]|] eqn:PC; [|discriminate].
      specialize (BP c cmd args tr f).
      destruct (build_path c cmd args tr f) as [[[c' s']|]| |]; cbn [bind]; try discriminate; [|congruence].
      destruct (path_command_sound _ _ _ PC) as (t & Q & sp & t' & -> & SP & CT). destruct (command_head _ _ CT) as (l & r & -> & _).
      assert (LR : (List.length rest <= n)%nat).
      { apply (f_equal (@List.length char)) in Q. rewrite app_length in L. rewrite !app_length in Q. cbn in Q, L. lia. }
      specialize (IH rest c' tr false LR). destruct (parse_loop n c' tr false rest) as [[[c2 s2]|]| |]; cbn [bind]; congruence || discriminate. }
  intros s c tr. split; [apply G; auto|]. intros N. pose proof (C50_consumed s c tr) as C. pose proof (G (List.length s) s c tr true (le_n _)) as F.
  change (parse_path s c tr <> OutOfFuel) in F. destruct (parse_path s c tr) as [[r|]| |]; auto.
  - destruct (C r eq_refl) as (cmds & P & _). exfalso. exact (N cmds P).
  - congruence.
Qed.

(** The commands of a text are determined by it. *)
Theorem C50_unambiguous : forall s cmds cmds', path_text s cmds -> path_text s cmds' -> cmds = cmds'.
Proof.
  assert (H : forall n s cmds cmds', (List.length s <= n)%nat -> path_text s cmds -> path_text s cmds' -> cmds = cmds').
  { induction n as [|n IH]; intros s cmds cmds' L P P'.
    - destruct s; [|cbn in L; lia].
      assert (K : forall cs s, path_text s cs -> s = [] -> cs = []).
      { intros cs s Q Z. destruct Q as [|w t c r cs W C R]; [reflexivity|]. exfalso.
        destruct (command_head _ _ C) as (l & t' & -> & _). destruct w; discriminate. }
      rewrite (K _ _ P eq_refl), (K _ _ P' eq_refl). reflexivity.
    - assert (K : forall cs, path_text s cs ->
                match trim_start s with
                | [] => cs = []
                | s1 => exists r' c cs', cs = c :: cs' /\ path_command s1 = Some (r', c) /\ path_text r' cs' /\ (List.length r' < List.length s)%nat
                end).
      { intros cs Q. destruct Q as [w W|w t c r cs W C R].
        - pose proof (trim_path w [] W I) as T. rewrite app_nil_r in T. rewrite T. reflexivity.
        - destruct (command_head _ _ C) as (l & t' & -> & LL). destruct (letter_not _ LL) as (NW & _).
          rewrite trim_path by auto. cbn [app]. destruct (path_command_exact _ _ _ _ C R) as (r' & E & R' & LR).
          exists r', c, cs. cbn [app] in E. repeat split; auto. rewrite !app_length. cbn. rewrite app_length. lia. }
      pose proof (K _ P) as K1. pose proof (K _ P') as K2. destruct (trim_start s) as [|x s1].
      + congruence.
      + destruct K1 as (r1 & c1 & cs1 & -> & E1 & R1 & L1). destruct K2 as (r2 & c2 & cs2 & -> & E2 & R2 & L2).
        rewrite E1 in E2. injection E2 as <- <-. f_equal. apply (IH r1); auto. lia. }
  intros s cmds cmds'. apply (H (List.length s)). auto.
Qed.

Lemma text_digit : forall c, is_digit c = true -> number_text [c] (IZR (Z.of_N c - 48)).
Proof.
  intros c D. replace (IZR (Z.of_N c - 48)) with (IZR 1 * IZR (digits_value [c]) * powerRZ 10 (0 + 0))%R.
  - change [c] with ([] ++ [c] ++ @nil char) at 1. constructor; [constructor|constructor; split; [discriminate|repeat constructor; auto]|constructor].
  - cbn [digits_value List.length]. change (10 ^ Z.of_nat 0)%Z with 1%Z. rewrite Z.mul_1_r, Z.add_0_r. cbn [powerRZ Z.add]. lra.
Qed.

(** "M 1,2 L3 4Z" *)
Example C50_example :
  path_text (chars " M 1,2 L3 4Z ") [(ch "M", [1; 2]%R); (ch "L", [3; 4]%R); (ch "Z", [])] /\
  forall tr c, exists r, parse_path (chars " M 1,2 L3 4Z ") c tr = Ok (Some r).
Proof.
  assert (P : path_text (chars " M 1,2 L3 4Z ") [(ch "M", [1; 2]%R); (ch "L", [3; 4]%R); (ch "Z", [])]).
  { change (chars " M 1,2 L3 4Z ") with
      (chars " " ++ (ch "M" :: chars " " ++ ([ch "1"] ++ chars "," ++ [ch "2"])) ++
       chars " " ++ (ch "L" :: [] ++ ([ch "3"] ++ chars " " ++ [ch "4"])) ++
       [] ++ (ch "Z" :: chars " ") ++ []).
    assert (SC : separator (chars ",")) by (left; exists [], []; repeat split; constructor).
    assert (SB : separator (chars " ")) by (right; split; [discriminate|repeat constructor]).
    constructor; [repeat constructor| |constructor; [repeat constructor| |constructor; [constructor| |constructor; constructor]]].
    - constructor; [right; left; reflexivity|repeat constructor|].
      constructor; [apply (text_digit (ch "1")); reflexivity|exact SC|constructor; apply (text_digit (ch "2")); reflexivity].
    - constructor; [apply is_one_of_In; reflexivity|constructor|].
      constructor; [apply (text_digit (ch "3")); reflexivity|exact SB|constructor; apply (text_digit (ch "4")); reflexivity].
    - constructor; [apply is_one_of_In; reflexivity|repeat constructor]. }
  split; [exact P|]. intros tr c. rewrite (C50_complete _ _ c tr P). eexists. reflexivity.
Qed.

(** ** C49: compact lists *)

(** Texts SVG allows that leave out the separator between two numbers: a sign right after a digit
    or a point, or a second point in a run of digits. *)
Definition compact (s : list char) : Prop :=
  (exists a x y b, s = a ++ x :: y :: b /\ (is_digit x = true \/ x = ch ".") /\ In y (chars "+-")) \/
  (exists a d b, s = a ++ ch "." :: d ++ ch "." :: b /\ all is_digit d).

(** What was read last: anything else, digits, or digits with a point. *)
Inductive last_read := LOther | LDigit | LPoint.
Definition read (st : last_read) (c : char) : option last_read :=
  if is_digit c then Some (match st with LPoint => LPoint | _ => LDigit end)
  else if (c =? ch ".")%N then match st with LPoint => None | _ => Some LPoint end
  else if is_one_of (chars "+-") c then match st with LOther => Some LOther | _ => None end
  else Some LOther.
Fixpoint reads (st : last_read) (s : list char) : option last_read :=
  match s with
  | [] => Some st
  | c :: s => match read st c with None => None | Some st => reads st s end
  end.

Lemma reads_app : forall a b st, reads st (a ++ b) = match reads st a with None => None | Some st => reads st b end.
Proof. induction a as [|c a IH]; intros b st; cbn [app reads]; [reflexivity|]. destruct (read st c); auto. Qed.

Lemma reads_digits : forall t st, all is_digit t -> exists st', reads st t = Some st' /\
  (st = LPoint -> st' = LPoint) /\ (st <> LPoint -> t <> [] -> st' = LDigit) /\ (st <> LPoint -> st' <> LPoint).
Proof.
  intros t st A. revert st. induction A as [|c t D A IH]; intros st; cbn [reads].
  - exists st. repeat split; auto. congruence.
  - unfold read. rewrite D. destruct (IH (match st with LPoint => LPoint | _ => LDigit end)) as (st' & E & P1 & P2 & P3).
    rewrite E. exists st'. repeat split.
    + intros ->. auto.
    + intros N _. destruct st; try congruence; (destruct A as [|c' t' D' A']; [cbn in E; congruence|apply P2; discriminate]).
    + intros N. destruct st; try congruence; apply P3; discriminate.
Qed.

Lemma compact_reads : forall s st, compact s -> reads st s = None.
Proof.
  intros s st [(a & x & y & b & -> & X & Y)|(a & d & b & -> & D)]; rewrite reads_app; destruct (reads st a) as [st1|]; auto.
  - cbn [reads].
    assert (YN : is_digit y = false /\ (y =? ch ".")%N = false /\ is_one_of (chars "+-") y = true)
      by (destruct Y as [<-|[<-|[]]]; repeat split; reflexivity).
    destruct YN as (Y1 & Y2 & Y3).
    destruct (read st1 x) as [st2|] eqn:R; [|reflexivity].
    unfold read at 1. rewrite Y1, Y2, Y3. destruct st2; [|reflexivity..]. exfalso. unfold read in R.
    destruct X as [X| ->].
    + rewrite X in R. destruct st1; discriminate.
    + change (is_digit (ch ".")) with false in R. rewrite N.eqb_refl in R. destruct st1; discriminate.
  - cbn [reads]. unfold read. change (is_digit (ch ".")) with false. rewrite N.eqb_refl.
    destruct st1; auto; (destruct (reads_digits d LPoint D) as (st' & E & P1 & _); rewrite reads_app, E, (P1 eq_refl); reflexivity).
Qed.

(** Separators and letters forget; numbers are read from there. *)
Lemma reads_other : forall c st, num_char c = false -> read st c = Some LOther.
Proof.
  intros c st N. unfold num_char in N. apply orb_false_iff in N. destruct N as [D N]. unfold read. rewrite D.
  unfold is_one_of in *. change (chars ".eE+-") with [ch "."; ch "e"; ch "E"; ch "+"; ch "-"] in N.
  change (chars "+-") with [ch "+"; ch "-"]. cbn [existsb] in *. rewrite !orb_false_iff in N. destruct N as (-> & _ & _ & -> & -> & _).
  reflexivity.
Qed.
Lemma reads_others : forall t st, Forall (fun c => num_char c = false) t -> t <> [] -> reads st t = Some LOther.
Proof.
  intros t st A. revert st. induction A as [|c t C A IH]; intros st N; [congruence|]. cbn [reads]. rewrite reads_other by auto.
  destruct t as [|c' t]; [reflexivity|]. apply IH. discriminate.
Qed.

Lemma reads_sign : forall s sg, sign_text s sg -> reads LOther s = Some LOther.
Proof. intros s sg [| |]; reflexivity. Qed.
Lemma reads_mantissa : forall m v p, mantissa m v p -> exists st, reads LOther m = Some st.
Proof.
  intros m v p [i [N D]|i f D [N F]|i [N D]].
  - destruct (reads_digits i LOther D) as (st & E & _). eauto.
  - rewrite reads_app. destruct (reads_digits i LOther D) as (st & E & _ & _ & P3). rewrite E. cbn [reads].
    unfold read. change (is_digit (ch ".")) with false. rewrite N.eqb_refl.
    destruct (reads_digits f LPoint F) as (st' & E' & _). destruct st; [eauto..|]. exfalso. apply P3; congruence.
  - rewrite reads_app. destruct (reads_digits i LOther D) as (st & E & _ & _ & P3). rewrite E. cbn [reads].
    unfold read. change (is_digit (ch ".")) with false. rewrite N.eqb_refl.
    destruct st; [eauto..|]. exfalso. apply P3; congruence.
Qed.
Lemma reads_exponent : forall x e st, exponent_text x e -> exists st', reads st x = Some st'.
Proof.
  intros x e st [|c s sg d I S [N D]]; [cbn; eauto|]. cbn [reads].
  assert (R : read st c = Some LOther) by (destruct I as [<-|[<-|[]]]; reflexivity).
  rewrite R, reads_app, (reads_sign _ _ S). destruct (reads_digits d LOther D) as (st' & E & _). eauto.
Qed.
Lemma reads_number : forall t v, number_text t v -> exists st, reads LOther t = Some st.
Proof.
  intros t v [s sg m man p x e S M X]. rewrite reads_app, (reads_sign _ _ S), reads_app.
  destruct (reads_mantissa _ _ _ M) as (st & ->). eapply reads_exponent; eauto.
Qed.

Lemma separator_others : forall sp, separator sp -> Forall (fun c => num_char c = false) sp /\ sp <> [].
Proof.
  assert (G : forall t, all is_space t -> Forall (fun c => num_char c = false) t).
  { intros t A. eapply Forall_impl; [|exact A]. intros c C. apply space_white, white_not in C. tauto. }
  intros sp S. split; [|apply separator_nonempty; auto]. destruct S as [(a & b & -> & A & B)|[_ A]]; auto.
  apply Forall_app. split; auto.
Qed.

Lemma reads_numbers : forall t vs, numbers_text t vs -> exists st, reads LOther t = Some st.
Proof.
  intros t vs H. induction H as [t v T|t v sp r vs T S R IH].
  - eapply reads_number; eauto.
  - rewrite reads_app. destruct (reads_number _ _ T) as (st & ->).
    destruct (separator_others _ S) as [A N]. rewrite reads_app, (reads_others sp st A N). exact IH.
Qed.

Lemma reads_whites : forall w st, all is_white w -> reads st w = Some (match w with [] => st | _ => LOther end).
Proof.
  intros w st A. destruct w as [|c w]; [reflexivity|]. apply reads_others; [|discriminate].
  eapply Forall_impl; [|exact A]. intros x X. apply white_not in X. tauto.
Qed.

Lemma reads_path : forall s cmds, path_text s cmds -> forall st, exists st', reads st s = Some st'.
Proof.
  intros s cmds H. induction H as [w W|w t c r cs W C R IH]; intros st.
  - rewrite reads_whites by auto. eauto.
  - rewrite reads_app, reads_whites by auto.
    assert (RC : forall st, exists st', reads st t = Some st').
    { clear st. intros st. destruct C as [l sp L SP|l sp t vs L SP T]; cbn [reads]; destruct (letter_not _ L) as (_ & _ & NC & _);
        rewrite (reads_other _ _ NC).
      - rewrite reads_whites by (eapply Forall_impl; [|exact SP]; apply space_white). eauto.
      - rewrite reads_app, reads_whites by (eapply Forall_impl; [|exact SP]; apply space_white).
        replace (match sp with [] => LOther | _ => LOther end) with LOther by (destruct sp; reflexivity).
        eapply reads_numbers; eauto. }
    rewrite reads_app. match goal with |- context [reads ?x t] => destruct (RC x) as (st' & ->) end. apply IH.
Qed.

(** A path with a compact list is never drawn: it ends in an error or a panic. *)
Theorem C49_compact : forall s c tr, compact s -> parse_path s c tr = Ok None \/ parse_path s c tr = Panic.
Proof.
  intros s c tr K. apply C50_total. intros cmds P. destruct (reads_path _ _ P LOther) as (st & E).
  rewrite (compact_reads s LOther K) in E. discriminate.
Qed.

(** A number ends in a digit or a point, so a sign after it ends it... *)
Lemma number_last : forall t v, number_text t v -> exists a x, t = a ++ [x] /\ (is_digit x = true \/ x = ch ".").
Proof.
  assert (DL : forall d, digits d -> exists a x, d = a ++ [x] /\ is_digit x = true).
  { intros d [N D]. destruct (exists_last N) as (a & x & ->). exists a, x. split; [reflexivity|].
    apply Forall_app in D. destruct D as [_ D]. inversion D. assumption. }
  intros t v [s sg m man p x e S M X]. destruct X as [|c z sz d I S' D].
  - rewrite app_nil_r. destruct M as [i D|i f _ D|i D].
    + destruct (DL _ D) as (a & x & -> & DX). exists (s ++ a), x. rewrite app_assoc. auto.
    + destruct (DL _ D) as (a & x & -> & DX). exists (s ++ i ++ ch "." :: a), x. split; [|auto].
      rewrite <- !app_assoc. reflexivity.
    + exists (s ++ i), (ch "."). rewrite app_assoc. auto.
  - destruct (DL _ D) as (a & x & -> & DX). exists (s ++ m ++ c :: z ++ a), x. split; [|auto].
    rewrite <- !app_assoc. cbn. rewrite <- !app_assoc. reflexivity.
Qed.

Lemma sign_ends : forall y b, In y (chars "+-") -> list_ends (y :: b).
Proof.
  intros y b Y. split.
  - intros t v T. apply C48_longest. exists t. split; [reflexivity|]. split; [exact T|].
    intros t' w rest' Q T'. apply app_eq_app in Q. destruct Q as [l [[-> Q]|[-> Q]]]; [rewrite app_length; lia|].
    destruct l as [|y' l]; [rewrite app_nil_r; lia|]. injection Q as <- _. exfalso.
    destruct (reads_number _ _ T') as (st & E). rewrite compact_reads in E; [discriminate|].
    destruct (number_last _ _ T) as (a & x & -> & X). left. exists a, x, y, l. rewrite <- app_assoc. auto.
  - intros s1 v C. exfalso. destruct (separator_sound _ _ _ C) as (t & Q & S).
    destruct (separator_others _ S) as [A N]. destruct A as [|z t Z A]; [congruence|]. injection Q as <- _.
    destruct Y as [<-|[<-|[]]]; discriminate.
Qed.

(** ... and with it the list of arguments; the rest is left for the next command. *)
Theorem C49_list : forall cmd sp t vs y b, In cmd letters -> all is_space sp -> numbers_text t vs -> In y (chars "+-") ->
  path_command (cmd :: sp ++ t ++ y :: b) = Some (y :: b, (cmd, vs)) /\ path_command (y :: b) = None.
Proof.
  intros cmd sp t vs y b L SP T Y. split.
  - unfold path_command, preceded, pair, pmap. destruct (letter_not _ L) as (_ & NS & _).
    unfold wsp_opt, multispace0, take0. cbn [while0]. rewrite NS. unfold one_of.
    change (chars "mMzZlLhHvVcCsSqQtTaA") with letters. rewrite (proj2 (is_one_of_In letters cmd) L).
    rewrite while0_app; [|auto|].
    + rewrite (list_exact t vs (y :: b) T (sign_ends y b Y)). reflexivity.
    + destruct (numbers_head _ _ T) as (c & r & -> & C). cbn. apply num_char_not in C. tauto.
  - destruct Y as [<-|[<-|[]]]; reflexivity.
Qed.

(** So a compact list is an error if the number of arguments before the sign is wrong for the
    command, and a panic if it is right. *)
Theorem C49_outcome : forall cmd sp t vs y b c tr, In cmd letters -> all is_space sp -> numbers_text t vs -> In y (chars "+-") ->
  (build_path c cmd vs tr true = Ok None -> parse_path (cmd :: sp ++ t ++ y :: b) c tr = Ok None) /\
  (forall r, build_path c cmd vs tr true = Ok (Some r) -> parse_path (cmd :: sp ++ t ++ y :: b) c tr = Panic).
Proof.
  intros cmd sp t vs y b c tr L SP T Y. destruct (C49_list cmd sp t vs y b L SP T Y) as [E1 E2].
  destruct (letter_not _ L) as (NW & _). unfold parse_path. cbn [List.length parse_loop].
  change (trim_start (cmd :: sp ++ t ++ y :: b)) with (trim_start ([] ++ cmd :: sp ++ t ++ y :: b)).
  rewrite trim_path by (auto; constructor). rewrite E1. split.
  - intros ->. reflexivity.
  - intros [c' s] ->. cbn [bind].
    assert (F : exists n, List.length (sp ++ t ++ y :: b) = S n).
    { rewrite !app_length. cbn. exists (List.length sp + (List.length t + List.length b))%nat. lia. }
    destruct F as [n ->]. cbn [parse_loop].
    change (trim_start (y :: b)) with (trim_start ([] ++ y :: b)). rewrite trim_path; [|constructor|destruct Y as [<-|[<-|[]]]; reflexivity].
    rewrite E2. reflexivity.
Qed.

(** SVG writes the point (10, -5) and two points like this. *)
Example C49_example : forall c tr,
  compact (chars "M10-5") /\ compact (chars "M1 2-3 4") /\ compact (chars "M1.5.5") /\
  parse_path (chars "M10-5") c tr = Ok None /\ parse_path (chars "M1 2-3 4") c tr = Panic.
Proof.
  intros c tr.
  assert (L : In (ch "M") letters) by (apply is_one_of_In; reflexivity).
  assert (M : In (ch "-") (chars "+-")) by (apply is_one_of_In; reflexivity).
  assert (SB : separator (chars " ")) by (right; split; [discriminate|repeat constructor]).
  split; [left; exists (chars "M1"), (ch "0"), (ch "-"), (chars "5"); auto|].
  split; [left; exists (chars "M1 "), (ch "2"), (ch "-"), (chars "3 4"); auto|].
  split; [right; exists (chars "M1"), (chars "5"), (chars "5"); split; [reflexivity|repeat constructor]|].
  split.
  - apply (C49_outcome (ch "M") [] (chars "10") [10%R] (ch "-") (chars "5")); [auto|constructor| |auto|reflexivity].
    constructor. replace 10%R with (IZR 1 * IZR (digits_value (chars "10")) * powerRZ 10 (0 + 0))%R.
    + change (chars "10") with ([] ++ chars "10" ++ @nil char) at 1.
      constructor; [constructor|constructor; split; [discriminate|repeat constructor]|constructor].
    + change (digits_value (chars "10")) with 10%Z. cbn [powerRZ Z.add]. lra.
  - destruct (C49_outcome (ch "M") [] (chars "1 2") [1; 2]%R (ch "-") (chars "3 4") c tr) as [_ P]; [auto|constructor| |auto|].
    + change (chars "1 2") with ([ch "1"] ++ chars " " ++ [ch "2"]).
      constructor; [apply (text_digit (ch "1")); reflexivity|exact SB|constructor; apply (text_digit (ch "2")); reflexivity].
    + eapply P. reflexivity.
Qed.

Print Assumptions C48_longest.
Print Assumptions C48_none.
Print Assumptions C48_valid.
Print Assumptions C49_compact.
Print Assumptions C49_list.
Print Assumptions C49_outcome.
Print Assumptions C50_complete.
Print Assumptions C50_consumed.
Print Assumptions C50_total.
Print Assumptions C50_unambiguous.
