(** Property C106 of the binary64 parsers: every number of a text is rounded once. *)
From Coq Require Import Reals Lra ZArith List Bool NArith Lia Ascii String.
From Flocq Require Import Core BinarySingleNaN.
From Verif Require Import Base Chars Floats ApproxCurve DrawCurves FloatProofs FloatScale FloatErr Coords PathBuild PathGrammar
  PathLex BuildProofs LexProofs PropsLex FloatPath FloatPathProofs FloatLex FloatLexProofs.
Import ListNotations.
Open Scope R_scope.

(** The longest prefix of a text that is a number becomes the binary64 number nearest to its
    value... *)
Theorem C106_number : forall s rest x, fnumber s = Some (rest, x) ->
  exists t v, s = t ++ rest /\ number_text t v /\ rounds_to v x /\
    forall t' w rest', s = t' ++ rest' -> number_text t' w -> (List.length t' <= List.length t)%nat.
Proof.
  intros s rest x E. pose proof (fnumber_alike s) as A. rewrite E in A. destruct (number s) as [[r v]|] eqn:N; [|contradiction].
  destruct A as [-> A]. apply C48_longest in N. destruct N as (t & Q & T & L). exists t, v. auto.
Qed.

(** ... and the parser fails exactly if no prefix is a number. *)
Theorem C106_none : forall s, fnumber s = None <-> forall t v rest, s = t ++ rest -> ~ number_text t v.
Proof.
  intros s. rewrite <- C48_none. pose proof (fnumber_alike s) as A.
  destruct (number s) as [[r v]|], (fnumber s) as [[r' x]|]; try contradiction; split; congruence.
Qed.

(** A text that is a sequence of commands builds these commands in order, with every number
    rounded... *)
Theorem C106_text : forall s cmds, path_text s cmds ->
  exists fcmds, Forall2 (fun c fc => fst c = fst fc /\ Forall2 rounds_to (snd c) (snd fc)) cmds fcmds /\
    forall tg c tr, fparse_path tg s c tr = fbuild_commands tg c fcmds tr true.
Proof.
  assert (G : forall n s cmds, (List.length s <= n)%nat -> path_text s cmds ->
            exists fcmds, Forall2 rounded_command cmds fcmds /\ forall tg c tr f, fparse_loop tg n c tr f s = fbuild_commands tg c fcmds tr f).
  2: { intros s cmds P. destruct (G (List.length s) s cmds (le_n _) P) as (fcmds & F & E). exists fcmds. split; [exact F|]. intros tg c tr. apply E. }
  induction n as [|n IH]; intros s cmds L P; destruct P as [w W|w t cm r cs W C R].
  - exists []. split; [constructor|]. destruct w; [reflexivity|cbn in L; lia].
  - exfalso. destruct (command_head _ _ C) as (l & t' & -> & _). rewrite !app_length in L. cbn in L. lia.
  - exists []. split; [constructor|]. intros tg c tr f.
    cbn [fparse_loop]. pose proof (trim_path w [] W I) as T. rewrite app_nil_r in T. rewrite T. reflexivity.
  - destruct (command_head _ _ C) as (l & t' & -> & LL). destruct (letter_not _ LL) as (NW & _).
    destruct (path_command_exact _ _ _ _ C R) as (r' & E & R' & LR). cbn [app] in E.
    pose proof (fpath_command_alike (l :: t' ++ r)) as A. rewrite E in A.
    destruct (fpath_command (l :: t' ++ r)) as [[r2 [cmd args]]|] eqn:FE; [|contradiction]. destruct A as [<- A].
    destruct (IH r' cs) as (fcmds & F & EQ); [rewrite !app_length in L; cbn in L; lia|exact R'|].
    exists ((cmd, args) :: fcmds). split; [constructor; assumption|]. intros tg c tr f.
    cbn [fparse_loop]. rewrite trim_path by auto. cbn [app]. rewrite FE.
    cbn [fbuild_commands]. destruct (fbuild_path tg c cmd args tr f) as [[[c' s']|]| |]; cbn [bind]; try reflexivity.
    rewrite EQ. reflexivity.
Qed.

(** ... and nothing else succeeds. *)
Theorem C106_consumed : forall tg s c tr r, fparse_path tg s c tr = Ok (Some r) -> exists cmds, path_text s cmds.
Proof.
  intros tg. assert (G : forall n s c tr f r, fparse_loop tg n c tr f s = Ok (Some r) -> exists cmds, path_text s cmds).
  2: { intros s c tr r. apply G. }
  induction n as [|n IH]; intros s c tr f r E; cbn [fparse_loop] in E; unfold trim_start in E;
    (destruct (while0 is_white s) as [s1 w] eqn:W; apply while0_spec in W; destruct W as (-> & W & ST); cbn [fst] in E);
    destruct s1 as [|x s1].
  - rewrite app_nil_r. exists []. constructor; auto.
  - discriminate.
  - rewrite app_nil_r. exists []. constructor; auto.
  - pose proof (fpath_command_alike (x :: s1)) as A.
    destruct (fpath_command (x :: s1)) as [[rest [cmd args]]|] eqn:FE; [|discriminate].
    destruct (path_command (x :: s1)) as [[r2 [cmd2 rargs]]|] eqn:PC; [|contradiction]. destruct A as [-> _].
    destruct (path_command_sound _ _ _ PC) as (t & Q & sp & t' & -> & SP & CT). rewrite Q.
    destruct (fbuild_path tg c cmd args tr f) as [[[c' s']|]| |] eqn:B; cbn [bind] in E; try discriminate.
    destruct (fparse_loop tg n c' tr false rest) as [[[c2 s2]|]| |] eqn:P; cbn [bind] in E; try discriminate.
    apply IH in P. destruct P as (cmds & PT). exists ((cmd2, rargs) :: cmds).
    replace (w ++ (sp ++ t') ++ rest) with ((w ++ sp) ++ t' ++ rest) by (rewrite <- !app_assoc; reflexivity).
    constructor; auto. apply all_app; auto. eapply Forall_impl; [|exact SP]. apply space_white.
Qed.

(** The text of a number, and what the nearest binary64 numbers of 0.1 and of 1e400 are. *)
Example C106_example :
  number_text (chars "0.1") (1 * 1 * powerRZ 10 (- 1)) /\ path_text (chars "h1") [(ch "h", [1])] /\
  (exists x, fnumber (chars "0.1") = Some ([], x) /\ B2R x = 3602879701896397 / 2 ^ 55) /\
  fnumber (chars "1e400") = Some ([], B754_infinity false) /\ fnumber (chars "-1e400") = Some ([], B754_infinity true) /\
  fnumber (chars ".") = None.
Proof.
  assert (T : number_text (chars "0.1") (1 * 1 * powerRZ 10 (- 1))).
  { change (chars "0.1") with ([] ++ (chars "0" ++ ch "." :: chars "1") ++ []).
    change (1 * 1 * powerRZ 10 (-1)) with (IZR 1 * IZR (digits_value (chars "0" ++ chars "1")) * powerRZ 10 (- Z.of_nat (List.length (chars "1")) + 0)).
    constructor; [constructor| |constructor]. constructor; [repeat constructor|split; [discriminate|repeat constructor]]. }
  split; [exact T|]. split.
  { change (chars "h1") with ([] ++ (ch "h" :: [] ++ chars "1") ++ []). constructor; [constructor| |constructor; constructor].
    apply command_args; [cbn; tauto|constructor|]. constructor. replace 1 with (IZR (Z.of_N (ch "1") - 48)) by (cbn; reflexivity).
    apply text_digit. reflexivity. }
  split.
  { exists (lit 1 10). split.
    - assert (B : match fnumber (chars "0.1") with Some (r, x) => Some (r, B2SF x) | None => None end = Some ([], B2SF (lit 1 10))) by (vm_compute; reflexivity).
      destruct (fnumber (chars "0.1")) as [[r x]|]; [|discriminate B]. assert (r = []) by congruence. subst r. do 2 f_equal. apply B2SF_inj. congruence.
    - rewrite <- SF2R_B2SF. replace (B2SF (lit 1 10)) with (SpecFloat.S754_finite false 7205759403792794 (-56)) by (vm_compute; reflexivity).
      cbn [SF2R]. unfold F2R. cbn [Fnum Fexp SpecFloat.cond_Zopp]. change (bpow radix2 (-56)) with (/ IZR (Zpower_pos 2 56)).
      replace (Zpower_pos 2 56) with (72057594037927936)%Z by reflexivity. cbn [pow]. lra. }
  split; [|split]; vm_compute; reflexivity.
Qed.

Print Assumptions C106_number.
Print Assumptions C106_none.
Print Assumptions C106_text.
Print Assumptions C106_consumed.
Print Assumptions C106_example.
