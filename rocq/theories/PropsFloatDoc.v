(** Property C108 of the binary64 model of documents: rounding does not change which segments
    there are. *)
From Coq Require Import Reals Lra ZArith List Bool NArith Lia Ascii String.
From Flocq Require Import Core BinarySingleNaN.
From Verif Require Import Base Chars Floats ApproxCurve DrawCurves Coords Curves PathBuild PathGrammar PathLex BuildProofs LexProofs PropsBuild PropsLex
  SvgDocument FloatPath FloatLex FloatLexProofs FloatDocument FloatDocProofs PropsSvg.
Import ListNotations.

(** The loop over the events ends. *)
Lemma loop_ends : forall filter evs st, events_loop filter st evs <> OutOfFuel.
Proof.
  intros filter. induction evs as [|e evs IH]; intros st; [discriminate|]. destruct e as [n attrs|n| |]; cbn [events_loop]; [| |apply IH|discriminate].
  - destruct (_ || _); [apply IH|]. destruct (in_svg n); [|apply IH].
    destruct st as [stack tr path c k]. pose proof (start_svg_spec (n, attrs) stack tr path c k) as S. cbn [fst snd] in S. rewrite S.
    destruct (own (n, attrs)) as [m|]; [|discriminate]. destruct (text_eqb _ _); [|apply IH].
    destruct (last_value "d" attrs) as [d|]; [|discriminate]. pose proof (proj1 (C50_total d c (tmul tr m))) as T.
    destruct (parse_path d c (tmul tr m)) as [[[c1 s1]|]| |]; cbn [bind]; try discriminate; [apply IH|congruence].
  - destruct (Nat.ltb _ _); [apply IH|]. destruct (in_svg n); [|apply IH]. destruct (trans_stack st); [discriminate|apply IH].
Qed.

(** Whatever the events, the transform to start with, the filter and the functions used for sine,
    cosine and tangent: the binary64 reader and the exact one return segments of the same kinds in
    the same order, or both return an error, or both panic... *)
Theorem C108_document : forall tg evs ft0 t0 filter,
  (forall n attrs a, In (StartElement n attrs) evs -> In a attrs -> local_name (a_name a) = chars "d" -> arcless (a_value a)) ->
  match fparse_document tg evs ft0 filter, parse_document evs t0 filter with
  | Ok (Some fs), Ok (Some ss) => Forall2 same_kind fs ss
  | Ok None, Ok None => True
  | Panic, Panic => True
  | _, _ => False
  end.
Proof.
  intros tg evs ft0 t0 filter AL. unfold fparse_document, parse_document.
  pose proof (events_shape tg filter evs (mk_fdoc [] ft0 [] fpath_ctx_new 0) (mk_doc [] t0 [] path_ctx_new 0)) as S.
  assert (NF : events_loop filter (mk_doc [] t0 [] path_ctx_new 0) evs <> OutOfFuel) by apply loop_ends.
  destruct (fevents_loop tg filter _ evs) as [[f|]| |], (events_loop filter _ evs) as [[s|]| |]; cbn [bind agree] in *; try exact I;
    try (apply S; [|repeat split; constructor]; intros n attrs IN; apply Forall_forall; intros a IA E; apply (AL n attrs a IN IA E)).
  exact (NF eq_refl).
Qed.

(** ... so one can be drawn exactly when the other can, and is refused exactly when the other is. *)
Theorem C108_readable : forall tg evs ft0 t0 filter,
  (forall n attrs a, In (StartElement n attrs) evs -> In a attrs -> local_name (a_name a) = chars "d" -> arcless (a_value a)) ->
  ((exists fs, fparse_document tg evs ft0 filter = Ok (Some fs)) <->
   (exists ss, parse_document evs t0 filter = Ok (Some ss))) /\
  (fparse_document tg evs ft0 filter = Ok None <-> parse_document evs t0 filter = Ok None).
Proof.
  intros tg evs ft0 t0 filter AL. pose proof (C108_document tg evs ft0 t0 filter AL) as H.
  destruct (fparse_document _ _ _ _) as [[f|]| |], (parse_document _ _ _) as [[s|]| |]; try contradiction;
    (split; split; [intros [x E]|intros [x E]|intros E|intros E]; try discriminate E; eauto).
Qed.

(** The document of C53_example: two moves in binary64, too; its attributes have no arcs. *)
Lemma no_arcs : forall evs, forallb (fun e => match e with
    | StartElement _ attrs => forallb (fun a => negb (text_eqb (local_name (a_name a)) (chars "d")) || negb (is_one_of (a_value a) (ch "a") || is_one_of (a_value a) (ch "A")))%bool attrs
    | _ => true end) evs = true ->
  forall n attrs a, In (StartElement n attrs) evs -> In a attrs -> local_name (a_name a) = chars "d" -> arcless (a_value a).
Proof.
  intros evs H n attrs a IN IA E. rewrite forallb_forall in H. specialize (H _ IN). cbv beta iota in H. rewrite forallb_forall in H. specialize (H _ IA). cbv beta in H.
  rewrite (proj2 (text_eqb_true _ _) E) in H. cbn [negb orb] in H. apply negb_true_iff, orb_false_iff in H. destruct H as [H1 H2].
  split; intros I; apply is_one_of_In in I; congruence.
Qed.
Example C108_example : forall tg, exists p q, fparse_document tg (document_events groups) fidentity (layer_filter None) = Ok (Some [SGoTo p; SGoTo q]).
Proof.
  intros tg. pose proof (C108_document tg (document_events groups) fidentity tidentity (layer_filter None)) as H.
  rewrite C53_example in H.
  assert (A : forall n attrs a, In (StartElement n attrs) (document_events groups) -> In a attrs -> local_name (a_name a) = chars "d" -> arcless (a_value a))
    by (apply no_arcs; vm_compute; reflexivity).
  specialize (H A). destruct (fparse_document _ _ _ _) as [[fs|]| |]; try contradiction.
  inversion H as [|s r fs' rs K1 H1]; subst. inversion H1 as [|s2 r2 fs2 rs2 K2 H2]; subst. inversion H2; subst.
  destruct s; cbn in K1; try contradiction. destruct s2; cbn in K2; try contradiction. eauto.
Qed.

Print Assumptions C108_document.
Print Assumptions C108_readable.
Print Assumptions C108_example.
