(** Property C91: the text a Bezier segment is printed as is a path that draws the segment. *)
From Coq Require Import Reals ZArith List Bool NArith Ascii String Lia Lra.
From Verif Require Import Base Chars Coords Curves PathBuild PathLex PathGrammar LexProofs PropsCurves PropsBuild PropsLex SvgText.
Import ListNotations.
Open Scope R_scope.

(** ** What is printed is a number *)

Lemma digit_of_digit : forall d, (0 <= d < 10)%Z -> is_digit (digit_of d) = true /\ (Z.of_N (digit_of d) - 48 = d)%Z.
Proof.
  intros d H. unfold digit_of, is_digit. split; [|lia].
  apply andb_true_iff. split; apply N.leb_le; lia.
Qed.

Lemma digits_value_snoc : forall t c, digits_value (t ++ [c]) = (10 * digits_value t + (Z.of_N c - 48))%Z.
Proof.
  intros t c. induction t as [|d t IH]; cbn [app digits_value List.length]; [cbn; lia|].
  rewrite IH, app_length. cbn [List.length]. rewrite Nat2Z.inj_add, Z.pow_add_r by lia. cbn [Z.of_nat]. lia.
Qed.

Lemma digits_value_app : forall a b, digits_value (a ++ b) = (digits_value a * 10 ^ Z.of_nat (List.length b) + digits_value b)%Z.
Proof.
  induction a as [|c a IH]; intros b; cbn [app digits_value]; [lia|].
  rewrite IH, app_length, Nat2Z.inj_add, Z.pow_add_r by lia. lia.
Qed.

Lemma low_digits_spec : forall p m, (0 <= m)%Z ->
  all is_digit (low_digits p m) /\ List.length (low_digits p m) = p /\
  digits_value (low_digits p m) = (m mod 10 ^ Z.of_nat p)%Z.
Proof.
  induction p as [|p IH]; intros m M; cbn [low_digits].
  - split; [constructor|]. split; [reflexivity|]. cbn. rewrite Z.mod_1_r. reflexivity.
  - destruct (IH (m / 10)%Z ltac:(apply Z.div_pos; lia)) as (A & L & V).
    destruct (digit_of_digit (m mod 10) ltac:(apply Z.mod_pos_bound; lia)) as [D E].
    split; [apply Forall_app; split; [exact A|repeat constructor; exact D]|].
    split; [rewrite app_length, L; cbn; lia|].
    rewrite digits_value_snoc, V, E. rewrite Nat2Z.inj_succ, Z.pow_succ_r by lia.
    rewrite Z.rem_mul_r by (try apply Z.pow_nonzero; lia). lia.
Qed.

Lemma whole_digits_spec : forall fuel m, (0 <= m < 2 ^ Z.of_nat fuel)%Z -> (0 < fuel)%nat ->
  digits (whole_digits fuel m) /\ digits_value (whole_digits fuel m) = m.
Proof.
  induction fuel as [|fuel IH]; intros m M F; [lia|]. cbn [whole_digits]. destruct (Z.ltb_spec m 10).
  - destruct (digit_of_digit m ltac:(lia)) as [D E]. split.
    + split; [discriminate|]. repeat constructor. exact D.
    + cbn [digits_value List.length]. rewrite E. cbn. lia.
  - assert (P : (2 ^ Z.of_nat (S fuel) = 2 * 2 ^ Z.of_nat fuel)%Z) by (rewrite Nat2Z.inj_succ, Z.pow_succ_r by lia; reflexivity).
    assert (Q : (m / 10 < 2 ^ Z.of_nat fuel)%Z) by (apply Z.div_lt_upper_bound; lia).
    assert (FF : (0 < fuel)%nat) by (destruct fuel; [cbn in P; lia|lia]).
    destruct (IH (m / 10)%Z ltac:(split; [apply Z.div_pos; lia|exact Q]) FF) as ([N A] & V).
    destruct (digit_of_digit (m mod 10) ltac:(apply Z.mod_pos_bound; lia)) as [D E].
    split.
    + split; [intros X; apply app_eq_nil in X; destruct X; discriminate|].
      apply Forall_app. split; [exact A|repeat constructor; exact D].
    + rewrite digits_value_snoc, V, E. rewrite (Z.div_mod m 10) at 3 by lia. lia.
Qed.

(** The text of a decimal fraction is a number with its value. *)
Theorem C91_display : forall neg m p, (0 <= m)%Z ->
  number_text (show_decimal neg m p) ((if neg : bool then -1 else 1) * (IZR m / 10 ^ p)).
Proof.
  intros neg m p M. unfold show_decimal. set (whole := (m / 10 ^ Z.of_nat p)%Z).
  assert (TP : (0 < 10 ^ Z.of_nat p)%Z) by (apply Z.pow_pos_nonneg; lia).
  assert (W : (0 <= whole)%Z) by (apply Z.div_pos; lia).
  destruct (whole_digits_spec (Z.to_nat (Z.log2 whole) + 1) whole) as [D V]; [|lia|].
  { split; [exact W|]. destruct (Z.eq_dec whole 0) as [->|]; [cbn; lia|].
    pose proof (Z.log2_spec whole ltac:(lia)). pose proof (Z.log2_nonneg whole).
    replace (Z.of_nat (Z.to_nat (Z.log2 whole) + 1)) with (Z.succ (Z.log2 whole)) by lia. lia. }
  set (wd := whole_digits _ whole) in *.
  set (sg := if neg then (-1)%Z else 1%Z).
  assert (SG : sign_text (if neg then chars "-" else []) sg) by (unfold sg; destruct neg; constructor).
  replace (if neg then -1 else 1) with (IZR sg) by (unfold sg; destruct neg; reflexivity).
  destruct p as [|p].
  - replace (IZR sg * (IZR m / 10 ^ 0)) with (IZR sg * IZR (digits_value wd) * powerRZ 10 (0 + 0)).
    + apply number_intro; [exact SG|constructor; exact D|constructor].
    + rewrite V. unfold whole. cbn [Z.of_nat]. rewrite Z.pow_0_r, Z.div_1_r. cbn. field.
  - destruct (low_digits_spec (S p) m M) as (LA & LL & LV). set (ld := low_digits (S p) m) in *.
    replace (wd ++ ch "." :: ld) with ((wd ++ ch "." :: ld) ++ []) by apply app_nil_r.
    replace (IZR sg * (IZR m / 10 ^ S p)) with (IZR sg * IZR (digits_value (wd ++ ld)) * powerRZ 10 (- Z.of_nat (List.length ld) + 0)).
    + apply number_intro; [exact SG| |constructor]. constructor; [apply D|]. split; [|exact LA].
      intros X. rewrite X in LL. discriminate.
    + rewrite digits_value_app, V, LV, LL, Z.add_0_r. unfold whole.
      rewrite (Z.mul_comm (m / _)), <- Z.div_mod by lia.
      rewrite powerRZ_neg', <- pow_powerRZ. unfold Rdiv. ring.
Qed.

(** ** The printed path *)

(** Every number of the segment is printed as a text with its value. *)
Definition printable (show : R -> list char) (b : bezier_segment) : Prop :=
  forall x, In x [vx (bs_c1 b); vy (bs_c1 b); vx (bs_c2 b) + vx (bs_p2 b); vy (bs_c2 b) + vy (bs_p2 b); vx (bs_p2 b); vy (bs_p2 b)] ->
    number_text (show x) x.

Definition args_of (b : bezier_segment) : list R :=
  [vx (bs_c1 b); vy (bs_c1 b); vx (bs_c2 b) + vx (bs_p2 b); vy (bs_c2 b) + vy (bs_p2 b); vx (bs_p2 b); vy (bs_p2 b)].

Lemma svg_command : forall show b, printable show b -> command_text (to_svg_path show b) (ch "c", args_of b).
Proof.
  intros show b P.
  assert (N : forall x, In x (args_of b) -> number_text (show x) x) by exact P.
  change (to_svg_path show b) with (ch "c" :: [] ++
    (show (vx (bs_c1 b)) ++ chars "," ++ show (vy (bs_c1 b)) ++ chars " " ++
     show (vx (bs_c2 b) + vx (bs_p2 b)) ++ chars "," ++ show (vy (bs_c2 b) + vy (bs_p2 b)) ++ chars " " ++
     show (vx (bs_p2 b)) ++ chars "," ++ show (vy (bs_p2 b)))).
  assert (C : separator (chars ",")) by (left; exists [], []; split; [reflexivity|split; constructor]).
  assert (B : separator (chars " ")) by (right; split; [discriminate|repeat constructor]).
  apply command_args; [right|constructor|].
  - cbn. tauto.
  - unfold args_of. repeat (apply numbers_more; [apply N; cbn; tauto|assumption|]).
    apply numbers_one. apply N. cbn. tauto.
Qed.

Lemma path_one : forall t c, command_text t c -> path_text t [c].
Proof.
  intros t c C. replace t with ([] ++ t ++ []) by apply app_nil_r. apply path_more; [constructor|exact C|].
  constructor. constructor.
Qed.
Lemma path_two : forall t c t' c', command_text t c -> command_text t' c' -> path_text (t ++ t') [c; c'].
Proof.
  intros t c t' c' C C'. change (t ++ t') with ([] ++ t ++ t'). apply path_more; [constructor|exact C|]. apply path_one; exact C'.
Qed.

Lemma build_segment : forall b c tr f, exists s ctl,
  build_path c (ch "c") (args_of b) tr f = Ok (Some (mk_pctx (vadd (p_pos c) (bs_p2 b)) (p_start c) ctl, [s])) /\
  s = CurveTo (tapply tr (vadd (p_pos c) (bs_p2 b))) (vsub (tapply tr (vadd (p_pos c) (bs_c1 b))) (tapply tr (p_pos c)))
        (vsub (tapply tr (vadd (p_pos c) (vadd (bs_c2 b) (bs_p2 b)))) (tapply tr (vadd (p_pos c) (bs_p2 b)))) /\
  follows tr (p_pos c) (vadd (p_pos c) (bs_p2 b)) (fun t => vadd (p_pos c) (bs_point b t)) s.
Proof.
  intros b c tr f. destruct c as [pos start last]. destruct b as [c1 c2 p2]. destruct pos as [px py], c1 as [c1x c1y], c2 as [c2x c2y], p2 as [p2x p2y].
  exists (CurveTo (tapply tr (vadd (mk_vec px py) (mk_vec p2x p2y))) (vsub (tapply tr (vadd (mk_vec px py) (mk_vec c1x c1y))) (tapply tr (mk_vec px py)))
         (vsub (tapply tr (vadd (mk_vec px py) (mk_vec (c2x + p2x) (c2y + p2y)))) (tapply tr (vadd (mk_vec px py) (mk_vec p2x p2y))))).
  exists (Some (vadd (mk_vec (c2x + p2x) (c2y + p2y)) (mk_vec px py))). split; [|split].
  - transitivity (Ok (Some (mk_pctx (vadd (mk_vec p2x p2y) (mk_vec px py)) start (Some (vadd (mk_vec (c2x + p2x) (c2y + p2y)) (mk_vec px py))),
      [CurveTo (tapply tr (vadd (mk_vec p2x p2y) (mk_vec px py))) (vsub (tapply tr (vadd (mk_vec c1x c1y) (mk_vec px py))) (tapply tr (mk_vec px py)))
         (vsub (tapply tr (vadd (mk_vec (c2x + p2x) (c2y + p2y)) (mk_vec px py))) (tapply tr (vadd (mk_vec p2x p2y) (mk_vec px py))))]))); [reflexivity|].
    assert (X : forall ax ay bx by', vadd (mk_vec ax ay) (mk_vec bx by') = vadd (mk_vec bx by') (mk_vec ax ay))
      by (intros; unfold vadd; cbn; f_equal; ring).
    cbn [p_pos p_start bs_p2]. rewrite (X p2x p2y), (X c1x c1y), (X (c2x + p2x) (c2y + p2y) px py). reflexivity.
  - reflexivity.
  - apply follows_intro. intros t. unfold bernstein3, bs_point, tapply, vadd, vsub, vscale. cbn. f_equal; ring.
Qed.

(** Reading the text of a segment draws the segment from the current point, under any
    transform. *)
Theorem C91_drawn : forall show b c tr, printable show b -> exists s ctl,
  parse_path (to_svg_path show b) c tr = Ok (Some (mk_pctx (vadd (p_pos c) (bs_p2 b)) (p_start c) ctl, [s])) /\
  follows tr (p_pos c) (vadd (p_pos c) (bs_p2 b)) (fun t => vadd (p_pos c) (bs_point b t)) s.
Proof.
  intros show b c tr P. destruct (build_segment b c tr true) as (s & ctl & E & _ & F). exists s, ctl. split; [|exact F].
  rewrite (C50_complete _ _ c tr (path_one _ _ (svg_command _ _ P))). cbn [build_commands]. rewrite E. reflexivity.
Qed.

(** From the origin and without transform the fields of the segment come back. *)
Theorem C91_fields : forall show b start ctl, printable show b -> exists ctl',
  parse_path (to_svg_path show b) (mk_pctx vzero start ctl) tidentity =
  Ok (Some (mk_pctx (bs_p2 b) start ctl', [CurveTo (bs_p2 b) (bs_c1 b) (bs_c2 b)])).
Proof.
  intros show b start ctl P. destruct (build_segment b (mk_pctx vzero start ctl) tidentity true) as (s & ctl' & E & S & _).
  exists ctl'. rewrite (C50_complete _ _ _ tidentity (path_one _ _ (svg_command _ _ P))). cbn [build_commands]. rewrite E.
  cbn [bind app]. rewrite S. destruct b as [[c1x c1y] [c2x c2y] [p2x p2y]].
  assert (V : forall x y x' y', x = x' -> y = y' -> mk_vec x y = mk_vec x' y') by congruence.
  assert (R : forall p q r p' q' r', p = p' -> q = q' -> r = r' -> Ok (Some (mk_pctx p start ctl', [CurveTo p q r])) = Ok (Some (mk_pctx p' start ctl', [CurveTo p' q' r']))) by congruence.
  replace (vadd (p_pos (mk_pctx vzero start ctl)) (bs_p2 (mk_bs (mk_vec c1x c1y) (mk_vec c2x c2y) (mk_vec p2x p2y))))
    with (tapply tidentity (mk_vec p2x p2y)) by (unfold tapply, tidentity, vadd, vzero; cbn; apply V; ring).
  replace (tapply tidentity (tapply tidentity (mk_vec p2x p2y))) with (tapply tidentity (mk_vec p2x p2y)) by (unfold tapply, tidentity; cbn; apply V; ring).
  cbn [bs_c1 bs_c2 bs_p2 p_pos p_start]. apply R; unfold tapply, tidentity, vadd, vsub, vzero; cbn; apply V; ring.
Qed.

(** The texts of the two halves of a split segment, one after the other, draw the segment. *)
Theorem C91_split : forall show b u c tr, let '(l, r) := bs_split b u in
  printable show l -> printable show r -> exists s1 s2 m ctl,
  parse_path (to_svg_path show l ++ to_svg_path show r) c tr =
    Ok (Some (mk_pctx (vadd (p_pos c) (bs_p2 b)) (p_start c) ctl, [s1; s2])) /\
  m = vadd (p_pos c) (bs_point b u) /\
  follows tr (p_pos c) m (fun t => vadd (p_pos c) (bs_point b (u * t))) s1 /\
  follows tr m (vadd (p_pos c) (bs_p2 b)) (fun t => vadd (p_pos c) (bs_point b (u + (1 - u) * t))) s2.
Proof.
  intros show b u c tr.
  assert (C0 := fun t => C60_split b u t). destruct (bs_split b u) as [l r]. intros PL PR.
  destruct (build_segment l c tr true) as (s1 & ctl1 & E1 & _ & F1).
  set (c1 := mk_pctx (vadd (p_pos c) (bs_p2 l)) (p_start c) ctl1) in *.
  destruct (build_segment r c1 tr false) as (s2 & ctl2 & E2 & _ & F2).
  assert (PL2 : bs_p2 l = bs_point b u).
  { rewrite <- (proj2 (C60_ends l)). rewrite (proj1 (C0 1)). f_equal. ring. }
  assert (PR2 : vadd (bs_p2 l) (bs_p2 r) = bs_p2 b).
  { rewrite <- (proj2 (C60_ends r)). rewrite (proj2 (C0 1)). replace (u + (1 - u) * 1) with 1 by ring. apply C60_ends. }
  assert (EQ : vadd (p_pos c1) (bs_p2 r) = vadd (p_pos c) (bs_p2 b)).
  { rewrite <- PR2. unfold c1. cbn [p_pos]. unfold vadd. cbn. f_equal; ring. }
  exists s1, s2, (p_pos c1), ctl2. split; [|split; [|split]].
  - rewrite (C50_complete _ _ c tr (path_two _ _ _ _ (svg_command _ _ PL) (svg_command _ _ PR))). cbn [build_commands].
    rewrite E1. cbn [bind]. rewrite E2. cbn [bind app]. rewrite EQ. reflexivity.
  - unfold c1. cbn [p_pos]. rewrite PL2. reflexivity.
  - destruct F1 as (a1 & a2 & A & B). exists a1, a2. split; [exact A|]. intros t. rewrite <- (proj1 (C0 t)). apply B.
  - rewrite EQ in F2. destruct F2 as (a1 & a2 & A & B). exists a1, a2. split; [exact A|]. intros t. rewrite <- (proj2 (C0 t)).
    specialize (B t). unfold c1 in *. cbn [p_pos] in *.
    replace (vadd (p_pos c) (vadd (bs_p2 l) (bs_point r t))) with (vadd (vadd (p_pos c) (bs_p2 l)) (bs_point r t)); [exact B|].
    unfold vadd. cbn. f_equal; ring.
Qed.

(** A printer for the numbers of an example. *)
Definition example_show (x : R) : list char :=
  if Req_EM_T x 1.5 then show_decimal false 15 1 else if Req_EM_T x (-2) then show_decimal true 2 0 else show_decimal false 0 0.
Example C91_example : printable example_show (mk_bs (mk_vec 1.5 (-2)) (mk_vec 2 1.5) (mk_vec (-2) 0)) /\
  show_decimal false 15 1 = chars "1.5" /\ show_decimal true 20 0 = chars "-20" /\ show_decimal true 1025 3 = chars "-1.025" /\
  show_decimal false 5 2 = chars "0.05".
Proof.
  split; [|repeat split].
  intros x X. cbn in X.
  assert (V : x = 1.5 \/ x = -2 \/ x = 0) by (decompose [or] X; clear X; try tauto; subst; lra || (left; lra) || (right; left; lra) || (right; right; lra)).
  unfold example_show. destruct V as [V|[V|V]]; rewrite V; clear V.
  - destruct (Req_EM_T 1.5 1.5); [|lra]. pose proof (C91_display false 15 1 ltac:(lia)) as D. cbv iota in D. replace (1 * (15 / 10 ^ 1)) with 1.5 in D by lra. exact D.
  - destruct (Req_EM_T (-2) 1.5); [lra|]. destruct (Req_EM_T (-2) (-2)); [|lra].
    pose proof (C91_display true 2 0 ltac:(lia)) as D. cbv iota in D. replace (-1 * (2 / 10 ^ 0)) with (-2) in D by (cbn; lra). exact D.
  - destruct (Req_EM_T 0 1.5); [lra|]. destruct (Req_EM_T 0 (-2)); [lra|].
    pose proof (C91_display false 0 0 ltac:(lia)) as D. cbv iota in D. replace (1 * (0 / 10 ^ 0)) with 0 in D by (cbn; lra). exact D.
Qed.

Print Assumptions C91_display.
Print Assumptions C91_drawn.
Print Assumptions C91_fields.
Print Assumptions C91_split.
