(** The binary64 model of documents beside the real one: they go the same way. *)
From Coq Require Import Reals Lra ZArith List Bool NArith Lia Ascii String.
From Flocq Require Import Core BinarySingleNaN.
From Verif Require Import Base Chars Floats ApproxCurve DrawCurves Coords Curves PathBuild PathGrammar PathLex BuildProofs LexProofs PropsBuild
  SvgDocument FloatPath FloatLex FloatLexProofs FloatDocument.
Import ListNotations.

(** ** Segments of the same kind *)

Definition same_kind (s : segment) (r : curve_segment) : Prop :=
  match s, r with
  | SGoTo _, GoTo _ | SLineTo _, LineTo _ | SCloseTo _, CloseTo _ | SCurveTo _ _ _, CurveTo _ _ _ => True
  | _, _ => False
  end.

(** Both succeed, with related results, or both fail the same way. *)
Definition agree {A B} (E : A -> B -> Prop) (x : res (option A)) (y : res (option B)) : Prop :=
  match x, y with
  | Ok (Some a), Ok (Some b) => E a b
  | Ok None, Ok None => True
  | Panic, Panic => True
  | OutOfFuel, OutOfFuel => True
  | _, _ => False
  end.

Lemma agree_bind : forall A B A' B' (E : A -> B -> Prop) (F : A' -> B' -> Prop) x y f g,
  agree E x y -> (forall a b, E a b -> agree F (f (Some a)) (g (Some b))) -> agree F (f None) (g None) ->
  agree F (bind x f) (bind y g).
Proof.
  intros A B A' B' E F x y f g H S N. destruct x as [[a|]| |], y as [[b|]| |]; cbn [agree bind] in *; try contradiction; auto.
Qed.

Definition any {A B} (_ : A) (_ : B) : Prop := True.
Definition same_path (a : fpath_ctx * list segment) (b : path_ctx * list curve_segment) : Prop := Forall2 same_kind (snd a) (snd b).

(** Leaves the case in which both lists are long enough. *)
Local Ltac shorter L E :=
  first [ discriminate E | exfalso; clear - E; cbn in E; lia | exfalso; clear - L; cbn in L; lia ].

Lemma lines_shape : forall n args fargs rel ftr tr fpos pos, (List.length args <= n)%nat -> List.length fargs = List.length args ->
  Forall2 same_kind (snd (fbuild_lines rel ftr fpos fargs)) (snd (build_lines rel tr pos args)).
Proof.
  induction n as [|n IH]; intros [|x [|y args]] [|fx_ [|fy_ fargs]] rel ftr tr fpos pos L E; try (shorter L E); [constructor..|].
  cbn [fbuild_lines build_lines]. specialize (IH args fargs rel ftr tr (fmoved rel fpos (mk_fvec fx_ fy_)) (moved rel pos (mk_vec x y))).
  destruct (fbuild_lines rel ftr _ fargs), (build_lines rel tr _ args). cbn [snd] in *. constructor; [exact I|]. apply IH; cbn in *; lia.
Qed.
Lemma vertical_shape : forall args fargs rel ftr tr fpos pos, List.length fargs = List.length args ->
  Forall2 same_kind (snd (fbuild_vertical rel ftr fpos fargs)) (snd (build_vertical rel tr pos args)).
Proof.
  induction args as [|y args IH]; intros [|fy_ fargs] rel ftr tr fpos pos E; [constructor|discriminate E|discriminate E|].
  cbn [fbuild_vertical build_vertical]. 
  match goal with |- context [fbuild_vertical rel ftr ?fp fargs] => match goal with |- context [build_vertical rel tr ?p args] =>
    specialize (IH fargs rel ftr tr fp p); destruct (fbuild_vertical rel ftr fp fargs), (build_vertical rel tr p args) end end.
  cbn [snd] in *. constructor; [exact I|]. apply IH. cbn in E. lia.
Qed.
Lemma horizontal_shape : forall args fargs rel ftr tr fpos pos, List.length fargs = List.length args ->
  Forall2 same_kind (snd (fbuild_horizontal rel ftr fpos fargs)) (snd (build_horizontal rel tr pos args)).
Proof.
  induction args as [|y args IH]; intros [|fy_ fargs] rel ftr tr fpos pos E; [constructor|discriminate E|discriminate E|].
  cbn [fbuild_horizontal build_horizontal]. 
  match goal with |- context [fbuild_horizontal rel ftr ?fp fargs] => match goal with |- context [build_horizontal rel tr ?p args] =>
    specialize (IH fargs rel ftr tr fp p); destruct (fbuild_horizontal rel ftr fp fargs), (build_horizontal rel tr p args) end end.
  cbn [snd] in *. constructor; [exact I|]. apply IH. cbn in E. lia.
Qed.
Lemma cubics_shape : forall n args fargs rel ftr tr fpos pos fctl ctl, (List.length args <= n)%nat -> List.length fargs = List.length args ->
  Forall2 same_kind (snd (fbuild_cubics rel ftr fpos fctl fargs)) (snd (build_cubics rel tr pos ctl args)).
Proof.
  induction n as [|n IH]; intros [|x1 [|y1 [|x2 [|y2 [|x [|y args]]]]]] [|fx1 [|fy1 [|fx2 [|fy2 [|fx_ [|fy_ fargs]]]]]] rel ftr tr fpos pos fctl ctl L E;
    try (shorter L E); [constructor..|].
  cbn [fbuild_cubics build_cubics].
  match goal with |- context [fbuild_cubics rel ftr ?fp ?fc fargs] => match goal with |- context [build_cubics rel tr ?p ?c args] =>
    specialize (IH args fargs rel ftr tr fp p fc c); destruct (fbuild_cubics rel ftr fp fc fargs) as [[? ?] ?], (build_cubics rel tr p c args) as [[? ?] ?] end end.
  cbn [snd] in *. constructor; [exact I|]. apply IH; cbn in *; lia.
Qed.
Lemma quadratics_shape : forall n args fargs rel ftr tr fpos pos fctl ctl, (List.length args <= n)%nat -> List.length fargs = List.length args ->
  Forall2 same_kind (snd (fbuild_quadratics rel ftr fpos fctl fargs)) (snd (build_quadratics rel tr pos ctl args)).
Proof.
  induction n as [|n IH]; intros [|x1 [|y1 [|x [|y args]]]] [|fx1 [|fy1 [|fx_ [|fy_ fargs]]]] rel ftr tr fpos pos fctl ctl L E;
    try (shorter L E); [constructor..|].
  cbn [fbuild_quadratics build_quadratics].
  match goal with |- context [fbuild_quadratics rel ftr ?fp ?fc fargs] => match goal with |- context [build_quadratics rel tr ?p ?c args] =>
    specialize (IH args fargs rel ftr tr fp p fc c); destruct (fbuild_quadratics rel ftr fp fc fargs) as [[? ?] ?], (build_quadratics rel tr p c args) as [[? ?] ?] end end.
  cbn [snd] in *. constructor; [exact I|]. apply IH; cbn in *; lia.
Qed.

Lemma build_shape : forall tg fc c cmd fargs args ftr tr f, List.length fargs = List.length args -> is_one_of (chars "aA") cmd = false ->
  agree same_path (fbuild_path tg fc cmd fargs ftr f) (build_path c cmd args tr f).
Proof.
  intros tg fc c cmd fargs args ftr tr f L NA. unfold fbuild_path, build_path. rewrite NA.
  assert (W : forall n, fwrong_count n fargs = wrong_count n args) by (intros n; unfold fwrong_count, wrong_count; rewrite L; reflexivity).
  rewrite !W, L.
  destruct (is_one_of (chars "mM") cmd).
  { destruct (wrong_count 2 args); [exact I|]. destruct args as [|x [|y args]], fargs as [|fx_ [|fy_ fargs]]; try (shorter L L); [constructor|constructor|].
    match goal with |- context [fbuild_lines ?r ?t ?fp fargs] => match goal with |- context [build_lines r ?t' ?p args] =>
      pose proof (lines_shape (List.length args) args fargs r t t' fp p (le_n _)) as S; destruct (fbuild_lines r t fp fargs), (build_lines r t' p args) end end.
    constructor; [exact I|]. apply S. cbn in L. lia. }
  destruct (is_one_of (chars "lL") cmd).
  { destruct (wrong_count 2 args); [exact I|].
    match goal with |- context [fbuild_lines ?r ?t ?fp fargs] => match goal with |- context [build_lines r ?t' ?p args] =>
      pose proof (lines_shape (List.length args) args fargs r t t' fp p (le_n _) L) as S; destruct (fbuild_lines r t fp fargs), (build_lines r t' p args) end end. exact S. }
  destruct (is_one_of (chars "vV") cmd).
  { destruct (Nat.eqb _ 0); [exact I|].
    match goal with |- context [fbuild_vertical ?r ?t ?fp fargs] => match goal with |- context [build_vertical r ?t' ?p args] =>
      pose proof (vertical_shape args fargs r t t' fp p L) as S; destruct (fbuild_vertical r t fp fargs), (build_vertical r t' p args) end end. exact S. }
  destruct (is_one_of (chars "hH") cmd).
  { destruct (Nat.eqb _ 0); [exact I|].
    match goal with |- context [fbuild_horizontal ?r ?t ?fp fargs] => match goal with |- context [build_horizontal r ?t' ?p args] =>
      pose proof (horizontal_shape args fargs r t t' fp p L) as S; destruct (fbuild_horizontal r t fp fargs), (build_horizontal r t' p args) end end. exact S. }
  destruct (is_one_of (chars "cC") cmd).
  { destruct (wrong_count 6 args); [exact I|].
    match goal with |- context [fbuild_cubics ?r ?t ?fp ?fc fargs] => match goal with |- context [build_cubics r ?t' ?p ?c args] =>
      pose proof (cubics_shape (List.length args) args fargs r t t' fp p fc c (le_n _) L) as S;
      destruct (fbuild_cubics r t fp fc fargs) as [[? ?] ?], (build_cubics r t' p c args) as [[? ?] ?] end end. exact S. }
  destruct (is_one_of (chars "qQ") cmd).
  { destruct (wrong_count 4 args); [exact I|].
    match goal with |- context [fbuild_quadratics ?r ?t ?fp ?fc fargs] => match goal with |- context [build_quadratics r ?t' ?p ?c args] =>
      pose proof (quadratics_shape (List.length args) args fargs r t t' fp p fc c (le_n _) L) as S;
      destruct (fbuild_quadratics r t fp fc fargs) as [[? ?] ?], (build_quadratics r t' p c args) as [[? ?] ?] end end. exact S. }
  destruct (is_one_of (chars "zZ") cmd); [|exact I]. constructor; constructor.
Qed.

(** ** Paths without the letter of an arc *)

Definition arcless (d : list char) : Prop := ~ In (ch "a") d /\ ~ In (ch "A") d.

Lemma path_shape : forall tg n d fc c ftr tr f, arcless d -> agree same_path (fparse_loop tg n fc ftr f d) (parse_loop n c tr f d).
Proof.
  intros tg. induction n as [|n IH]; intros d fc c ftr tr f AL; cbn [fparse_loop parse_loop]; destruct (trim_start d) as [|x s] eqn:T; try constructor.
  pose proof (fpath_command_alike (x :: s)) as A.
  destruct (path_command (x :: s)) as [[rest [cmd args]]|] eqn:PC, (fpath_command (x :: s)) as [[rest' [cmd' fargs]]|] eqn:FC; try contradiction; try constructor.
  destruct A as [<- [E A]]. cbn [fst snd] in E, A. subst cmd'.
  assert (LN : List.length fargs = List.length args) by (clear - A; induction A; cbn [List.length]; congruence).
  destruct (path_command_sound _ _ _ PC) as (t & Q & sp & t' & -> & SP & CT). destruct (command_head _ _ CT) as (l & r & -> & _).
  assert (CL : cmd = l) by (inversion CT; reflexivity). subst l.
  assert (IN : forall y, In y (x :: s) -> In y d).
  { intros y Y. unfold trim_start in T. destruct (while0 is_white d) as [s1 w] eqn:W. apply while0_spec in W. destruct W as (-> & _ & _).
    cbn [fst] in T. subst s1. apply in_app_iff. right. exact Y. }
  assert (NA : is_one_of (chars "aA") cmd = false).
  { destruct (is_one_of (chars "aA") cmd) eqn:O; [|reflexivity]. exfalso. apply is_one_of_In in O. destruct AL as [A1 A2].
    assert (In cmd d) by (apply IN; rewrite Q; apply in_app_iff; left; apply in_app_iff; right; left; reflexivity).
    cbn in O. destruct O as [<-|[<-|[]]]; contradiction. }
  apply (agree_bind _ _ _ _ same_path); [apply build_shape; assumption| |exact I].
  intros [fc' fs] [c' s'] S. assert (AR : arcless rest).
  { destruct AL as [A1 A2]. split; intros Y; [apply A1|apply A2]; apply IN; rewrite Q; apply in_app_iff; right; exact Y. }
  apply (agree_bind _ _ _ _ same_path); [apply IH; exact AR| |exact I].
  intros [fc2 fs2] [c2 s2] S2. cbn [agree]. unfold same_path in *. cbn [snd] in *. apply Forall2_app; assumption.
Qed.

(** ** Attributes *)

Lemma alike_separated_pair : forall A B C A' B' (E : A -> B -> Prop) (F : A' -> B' -> Prop) p q (sep : parser C) p' q',
  alike E p q -> alike F p' q' -> alike (both E F) (separated_pair p sep p') (separated_pair q sep q').
Proof. intros. unfold separated_pair. apply alike_pair; [assumption|]. apply alike_preceded. assumption. Qed.

Lemma alike_any : forall A B (E : A -> B -> Prop) p q, alike E p q -> alike any p q.
Proof. intros A B E p q L. eapply alike_weaken; [|exact L]. intros; exact I. Qed.

Local Ltac likes := repeat first [apply alike_pair | apply alike_opt | apply alike_preceded | apply fnumber_alike | apply alike_refl].

Lemma one_transform_shape : forall tg, alike any one_transform (fone_transform tg).
Proof.
  intros tg. unfold one_transform, fone_transform, matrix, fmatrix, translate, ftranslate_text, scale, fscale_text, rotate, frotate_text,
    skewx, fskewx_text, skewy, fskewy_text.
  repeat apply alike_alt; apply alike_call; (eapply alike_pmap; [likes|intros; exact I]).
Qed.

Lemma transforms_shape : forall tg n, alike any (transforms n) (ftransforms tg n).
Proof.
  intros tg. induction n as [|n IH]; [intros s; exact I|]. cbn [transforms ftransforms]. apply alike_alt; [|apply one_transform_shape].
  eapply alike_pmap; [apply alike_separated_pair; [apply one_transform_shape|exact IH]|]. intros; exact I.
Qed.

Lemma parse_transform_shape : forall tg s, maybe any (parse_transform s) (fparse_transform tg s).
Proof.
  intros tg s. unfold parse_transform, fparse_transform, transform_list, ftransform_list.
  pose proof (alike_preceded _ _ _ any multispace0 _ _ (transforms_shape tg (S (List.length s))) s) as A.
  destruct (preceded _ (transforms _) s) as [[? ?]|], (preceded _ (ftransforms _ _) s) as [[? ?]|]; try contradiction; exact I.
Qed.

Lemma view_box_alike : alike (both (both (both rounds_to rounds_to) rounds_to) rounds_to) view_box_args fview_box_args.
Proof.
  unfold view_box_args, fview_box_args. eapply alike_pmap; [likes|].
  intros (x0 & a & x1 & b & x2 & c & x3 & d & x4) (y0 & a' & y1 & b' & y2 & c' & y3 & d' & y4). unfold both. cbn [fst snd]. tauto.
Qed.

Lemma parse_view_box_shape : forall s, maybe any (parse_view_box s) (fparse_view_box s).
Proof.
  intros s. unfold parse_view_box, fparse_view_box. pose proof (view_box_alike s) as A.
  destruct (view_box_args s) as [[? ?]|], (fview_box_args s) as [[? ?]|]; try contradiction; exact I.
Qed.

Lemma alike_pvalue : forall A B C (E : B -> C -> Prop) v w (p : parser A), E v w -> alike E (pvalue v p) (pvalue w p).
Proof. intros A B C E v w p H. unfold pvalue. eapply alike_pmap; [apply alike_refl|]. intros; exact H. Qed.

Lemma length_unit_shape : alike any length_unit flength_unit.
Proof. unfold length_unit, flength_unit. repeat apply alike_alt; apply alike_pvalue; exact I. Qed.

Lemma parse_length_shape : forall s, maybe any (parse_length s) (fparse_length s).
Proof.
  intros s. unfold parse_length, fparse_length.
  assert (A : alike any physical_length fphysical_length).
  { unfold physical_length, fphysical_length. eapply alike_pmap;
      [apply alike_pair; [apply alike_refl|apply alike_pair; [apply fnumber_alike|apply alike_pair; [apply alike_refl|apply alike_opt, alike_terminated, length_unit_shape]]]|].
    intros; exact I. }
  specialize (A s). destruct (physical_length s) as [[? ?]|], (fphysical_length s) as [[? ?]|]; try contradiction; exact I.
Qed.

(** ** Documents *)

Definition same_attrs (fa : fattr_state) (a : attr_state) : Prop :=
  fat_d fa = at_d a /\ maybe any (fat_view_box fa) (at_view_box a) /\ fat_width fa = at_width a /\ fat_height fa = at_height a.

Definition d_arcless (attrs : list attribute) : Prop :=
  Forall (fun a => local_name (a_name a) = chars "d" -> arcless (a_value a)) attrs.

Lemma maybe_swap : forall A B (x : option A) (y : option B), maybe any x y -> maybe any y x.
Proof. intros A B [x|] [y|]; auto. Qed.

Lemma read_attrs_shape : forall tg attrs fa a, d_arcless attrs -> same_attrs fa a -> (forall d, at_d a = Some d -> arcless d) ->
  match fread_attrs tg fa attrs, read_attrs a attrs with
  | Some fa', Some a' => same_attrs fa' a' /\ (forall d, at_d a' = Some d -> arcless d)
  | None, None => True
  | _, _ => False
  end.
Proof.
  intros tg attrs. induction attrs as [|x attrs IH]; intros fa a DA (S1 & S2 & S3 & S4) AR; [split; [split; auto|exact AR]|].
  inversion DA as [|? ? D1 DA']; subst. cbn [fread_attrs read_attrs]. unfold fread_attr, read_attr.
  destruct (text_eqb (local_name (a_name x)) (chars "transform")).
  { pose proof (parse_transform_shape tg (a_value x)) as P. destruct (parse_transform (a_value x)), (fparse_transform tg (a_value x)); try contradiction; [|exact I].
    apply IH; [exact DA'|split; auto|exact AR]. }
  destruct (text_eqb (local_name (a_name x)) (chars "d")) eqn:ED.
  { apply IH; [exact DA'|split; auto|]. cbn [at_d]. intros d [= <-]. apply D1. unfold text_eqb in ED. destruct (list_eq_dec _ _ _); [assumption|discriminate]. }
  destruct (text_eqb (local_name (a_name x)) (chars "viewBox")).
  { pose proof (parse_view_box_shape (a_value x)) as P. destruct (parse_view_box (a_value x)), (fparse_view_box (a_value x)); try contradiction; [|exact I].
    apply IH; [exact DA'|split; cbn; auto|exact AR]. }
  destruct (text_eqb (local_name (a_name x)) (chars "height")); [apply IH; [exact DA'|split; auto|exact AR]|].
  destruct (text_eqb (local_name (a_name x)) (chars "width")); [apply IH; [exact DA'|split; auto|exact AR]|].
  apply IH; [exact DA'|split; auto|exact AR].
Qed.

Definition same_state (f : fdoc_state) (s : doc_state) : Prop :=
  List.length (ftrans_stack f) = List.length (trans_stack s) /\ Forall2 same_kind (fdoc_path f) (doc_path s) /\ fignore_nest f = ignore_nest s.

Lemma start_shape : forall tg fst_ st n attrs, d_arcless attrs -> same_state fst_ st ->
  agree same_state (fstart_svg tg fst_ n attrs) (start_svg st n attrs).
Proof.
  intros tg f s n attrs DA (L & P & IG). unfold fstart_svg, start_svg.
  pose proof (read_attrs_shape tg attrs (mk_fattrs (fcur_transform f) None None None None) (mk_attrs (cur_transform s) None None None None) DA) as R.
  destruct (fread_attrs tg _ attrs) as [fa|], (read_attrs _ attrs) as [a|].
  2, 3: (exfalso; apply R; [split; cbn; auto|intros d; discriminate]).
  2: exact I.
  destruct R as [(S1 & S2 & S3 & S4) AR]; [split; cbn; auto|intros d; discriminate|]. rewrite S1, S3, S4.
  destruct (text_eqb (local_name n) (chars "path")).
  { destruct (at_d a) as [d|]; [|exact I]. apply (agree_bind _ _ _ _ same_path); [apply path_shape, AR; reflexivity| |exact I].
    intros [fc fs] [c ss] S. cbn [agree]. repeat split; cbn [ftrans_stack trans_stack fdoc_path doc_path fignore_nest ignore_nest List.length]; auto.
    apply Forall2_app; assumption. }
  destruct (text_eqb (local_name n) (chars "svg")).
  { destruct (at_width a) as [w|]; [|exact I]. destruct (at_height a) as [h|]; [|exact I].
    pose proof (parse_length_shape w) as PW. pose proof (parse_length_shape h) as PH.
    destruct (parse_length w), (fparse_length w); try contradiction; [|exact I].
    destruct (parse_length h), (fparse_length h); try contradiction; [|exact I].
    destruct (at_view_box a) as [[[[? ?] ?] ?]|], (fat_view_box fa) as [[[[? ?] ?] ?]|]; try contradiction;
      cbn [agree]; repeat split; cbn [ftrans_stack trans_stack fdoc_path doc_path fignore_nest ignore_nest List.length]; auto. }
  cbn [agree]; repeat split; cbn [ftrans_stack trans_stack fdoc_path doc_path fignore_nest ignore_nest List.length]; auto.
Qed.

Lemma events_shape : forall tg filter evs f s,
  (forall n attrs, In (StartElement n attrs) evs -> d_arcless attrs) -> same_state f s ->
  agree same_state (fevents_loop tg filter f evs) (events_loop filter s evs).
Proof.
  intros tg filter. induction evs as [|e evs IH]; intros f s DA S; [exact S|].
  assert (DA' : forall n attrs, In (StartElement n attrs) evs -> d_arcless attrs) by (intros n attrs I; apply (DA n attrs); right; exact I).
  pose proof S as (L & P & IG). destruct e as [n attrs|n| |]; cbn [fevents_loop events_loop].
  - rewrite IG. destruct (Nat.ltb 0 (ignore_nest s) || negb (filter n attrs))%bool; [apply IH; [exact DA'|repeat split; auto]|].
    destruct (in_svg n); [|apply IH; assumption].
    apply (agree_bind _ _ _ _ same_state); [apply start_shape; [apply (DA n); left; reflexivity|exact S]| |exact I].
    intros f' s' S'. apply IH; assumption.
  - rewrite IG. destruct (Nat.ltb 0 (ignore_nest s)); [apply IH; [exact DA'|repeat split; auto]|].
    destruct (in_svg n); [|apply IH; assumption].
    destruct (ftrans_stack f) as [|ft fs], (trans_stack s) as [|t ss]; try discriminate L; [exact I|].
    apply IH; [exact DA'|]. repeat split; auto.
  - apply IH; assumption.
  - exact S.
Qed.
