(** Properties of parse_document: C53 (placement), C54 (filters). *)
From Coq Require Import Reals Lra ZArith List Bool NArith Arith Lia Ascii String.
From Verif Require Import Base Chars Coords Curves PathBuild PathGrammar PathLex BuildProofs LexProofs PropsCoords PropsLex SvgDocument.
Import ListNotations.

(** ** Documents as trees *)

Definition element := (name * list attribute)%type.

Inductive node :=
| Elem (e : element) (children : list node)
| Misc.

(** The events of the reader: an element starts, its children follow, it ends; anything else
    (text, comments, the start and the end of the document) is one event. *)
Fixpoint doc_events (t : node) : list xml_event :=
  match t with
  | Elem e ch => StartElement (fst e) (snd e) :: flat_map doc_events ch ++ [EndElement (fst e)]
  | Misc => [OtherEvent]
  end.
Definition document_events (doc : list node) : list xml_event := flat_map doc_events doc.

(** The elements with their ancestors, from the outermost to the element itself, in the order of
    the document; an element the filter rejects is left out with all below it. *)
Fixpoint chains (filter : name -> list attribute -> bool) (above : list element) (t : node) : list (list element) :=
  match t with
  | Elem e ch =>
      if filter (fst e) (snd e) then (above ++ [e]) :: flat_map (chains filter (above ++ [e])) ch else []
  | Misc => []
  end.
Definition all_chains (filter : name -> list attribute -> bool) (doc : list node) : list (list element) :=
  flat_map (chains filter []) doc.

(** ** The transform of an element *)

(** The values of the attributes with a local name, whatever their namespace. *)
Definition values (key : string) (attrs : list attribute) : list (list char) :=
  map a_value (List.filter (fun a => text_eqb (local_name (a_name a)) (chars key)) attrs).
Definition last_value (key : string) (attrs : list attribute) : option (list char) :=
  match rev (values key attrs) with v :: _ => Some v | [] => None end.

Fixpoint all_some {A} (l : list (option A)) : option (list A) :=
  match l with
  | [] => Some []
  | Some a :: r => match all_some r with Some l => Some (a :: l) | None => None end
  | None :: _ => None
  end.

(** The scale of an svg element: its size over the size of its view box, or 1. *)
Definition svg_scale (attrs : list attribute) (boxes : list (R * R * R * R)) : option transform :=
  match last_value "width" attrs, last_value "height" attrs with
  | Some w, Some h =>
      match parse_length w, parse_length h with
      | Some w, Some h =>
          Some (match rev boxes with
                | (_, _, bw, bh) :: _ => tscale_xy (w / bw) (h / bh)
                | [] => tscale_xy (w / w) (h / h)
                end)
      | _, _ => None
      end
  | _, _ => None
  end.

(** The transform an element of SVG adds: its transform attributes and, if it is an svg element,
    its scale.  None if an attribute can not be read or is missing. *)
Definition own (e : element) : option transform :=
  match all_some (map parse_transform (values "transform" (snd e))), all_some (map parse_view_box (values "viewBox" (snd e))) with
  | Some ts, Some boxes =>
      let m := fold_right tmul tidentity ts in
      if text_eqb (local_name (fst e)) (chars "svg") then
        match svg_scale (snd e) boxes with Some sc => Some (tmul m sc) | None => None end
      else Some m
  | _, _ => None
  end.

(** The product over the elements of SVG in a chain. *)
Definition place (t0 : transform) (chain : list element) : transform :=
  fold_left (fun tr e => if in_svg (fst e) then match own e with Some m => tmul tr m | None => tr end else tr) chain t0.

(** What the last element of a chain adds to the drawing: None is an error. *)
Definition visit (t0 : transform) (chain : list element) (c : path_ctx) : res (option (path_ctx * list curve_segment)) :=
  match rev chain with
  | [] => Ok (Some (c, []))
  | e :: _ =>
      if in_svg (fst e) then
        match own e with
        | None => Ok None
        | Some _ =>
            if text_eqb (local_name (fst e)) (chars "path") then
              match last_value "d" (snd e) with
              | None => Ok None
              | Some d => parse_path d c (place t0 chain)
              end
            else Ok (Some (c, []))
        end
      else Ok (Some (c, []))
  end.
Fixpoint visits (t0 : transform) (cs : list (list element)) (c : path_ctx) : res (option (path_ctx * list curve_segment)) :=
  match cs with
  | [] => Ok (Some (c, []))
  | ch :: cs =>
      let! r := visit t0 ch c in
      match r with
      | None => Ok None
      | Some (c, segs) =>
          let! r := visits t0 cs c in
          match r with
          | None => Ok None
          | Some (c, more) => Ok (Some (c, segs ++ more))
          end
      end
  end.

(** ** Reading attributes *)

Lemma text_eqb_true : forall a b, text_eqb a b = true <-> a = b.
Proof. intros a b. unfold text_eqb. destruct (list_eq_dec N.eq_dec a b); split; congruence. Qed.
Lemma text_eqb_refl : forall a, text_eqb a a = true.
Proof. intros a. apply text_eqb_true. reflexivity. Qed.

Lemma values_cons : forall key a attrs,
  values key (a :: attrs) = if text_eqb (local_name (a_name a)) (chars key) then a_value a :: values key attrs else values key attrs.
Proof. intros key a attrs. unfold values. cbn [List.filter]. destruct (text_eqb _ _); reflexivity. Qed.

Definition last_or {A} (l : list A) (d : option A) : option A := match rev l with v :: _ => Some v | [] => d end.
Lemma last_or_cons : forall A (x : A) l d, last_or (x :: l) d = last_or l (Some x).
Proof. intros A x l d. unfold last_or. cbn [rev]. destruct (rev l); reflexivity. Qed.

Definition product (ts : list transform) : transform := fold_right tmul tidentity ts.

Lemma read_attrs_spec : forall attrs st,
  read_attrs st attrs =
  match all_some (map parse_transform (values "transform" attrs)), all_some (map parse_view_box (values "viewBox" attrs)) with
  | Some ts, Some boxes =>
      Some (mk_attrs (tmul (at_transform st) (product ts)) (last_or (values "d" attrs) (at_d st)) (last_or boxes (at_view_box st))
              (last_or (values "width" attrs) (at_width st)) (last_or (values "height" attrs) (at_height st)))
  | _, _ => None
  end.
Proof.
  induction attrs as [|a attrs IH]; intros st.
  - cbn. destruct st as [t d v w h]. cbn. f_equal. f_equal. symmetry. apply (proj2 (C55_identity t)).
  - cbn [read_attrs]. unfold read_attr. rewrite !values_cons.
    destruct (text_eqb (local_name (a_name a)) (chars "transform")) eqn:E1.
    { apply text_eqb_true in E1. rewrite E1. change (text_eqb (chars "transform") (chars "viewBox")) with false.
      change (text_eqb (chars "transform") (chars "d")) with false. change (text_eqb (chars "transform") (chars "width")) with false.
      change (text_eqb (chars "transform") (chars "height")) with false. cbv iota. cbn [map].
      destruct (parse_transform (a_value a)) as [t|]; [|reflexivity]. cbn [all_some].
      rewrite IH. cbn [at_transform at_d at_view_box at_width at_height].
      destruct (all_some (map parse_transform _)) as [ts|]; [|reflexivity].
      destruct (all_some (map parse_view_box _)) as [boxes|]; [|reflexivity]. cbn [product fold_right].
      fold (product ts). rewrite C55_assoc. reflexivity. }
    destruct (text_eqb (local_name (a_name a)) (chars "d")) eqn:E2.
    { apply text_eqb_true in E2. rewrite E2. change (text_eqb (chars "d") (chars "viewBox")) with false.
      change (text_eqb (chars "d") (chars "width")) with false.
      change (text_eqb (chars "d") (chars "height")) with false. cbv iota.
      rewrite IH. cbn [at_transform at_d at_view_box at_width at_height].
      destruct (all_some (map parse_transform _)) as [ts|]; [|reflexivity].
      destruct (all_some (map parse_view_box _)) as [boxes|]; [|reflexivity]. rewrite last_or_cons. reflexivity. }
    destruct (text_eqb (local_name (a_name a)) (chars "viewBox")) eqn:E3.
    { apply text_eqb_true in E3. rewrite E3.
      change (text_eqb (chars "viewBox") (chars "width")) with false.
      change (text_eqb (chars "viewBox") (chars "height")) with false. cbv iota. cbn [map].
      destruct (parse_view_box (a_value a)) as [vb|].
      2: { cbn [all_some]. destruct (all_some _); reflexivity. }
      cbn [all_some]. rewrite IH. cbn [at_transform at_d at_view_box at_width at_height].
      destruct (all_some (map parse_transform _)) as [ts|]; [|reflexivity].
      destruct (all_some (map parse_view_box _)) as [boxes|]; [|reflexivity]. rewrite last_or_cons. reflexivity. }
    destruct (text_eqb (local_name (a_name a)) (chars "height")) eqn:E4.
    { apply text_eqb_true in E4. rewrite E4.
      change (text_eqb (chars "height") (chars "width")) with false. cbv iota.
      rewrite IH. cbn [at_transform at_d at_view_box at_width at_height].
      destruct (all_some (map parse_transform _)) as [ts|]; [|reflexivity].
      destruct (all_some (map parse_view_box _)) as [boxes|]; [|reflexivity]. rewrite last_or_cons. reflexivity. }
    destruct (text_eqb (local_name (a_name a)) (chars "width")) eqn:E5; rewrite IH; cbn [at_transform at_d at_view_box at_width at_height];
      (destruct (all_some (map parse_transform _)) as [ts|]; [|reflexivity]);
      (destruct (all_some (map parse_view_box _)) as [boxes|]; [|reflexivity]); rewrite ?last_or_cons; reflexivity.
Qed.

(** What the start of an element of SVG does. *)
Lemma start_svg_spec : forall (e : element) stack tr path c k,
  start_svg (mk_doc stack tr path c k) (fst e) (snd e) =
  match own e with
  | None => Ok None
  | Some m =>
      if text_eqb (local_name (fst e)) (chars "path") then
        match last_value "d" (snd e) with
        | None => Ok None
        | Some d =>
            let! r := parse_path d c (tmul tr m) in
            match r with
            | None => Ok None
            | Some (c, segs) => Ok (Some (mk_doc (tr :: stack) (tmul tr m) (path ++ segs) c k))
            end
        end
      else Ok (Some (mk_doc (tr :: stack) (tmul tr m) path c k))
  end.
Proof.
  intros [n attrs] stack tr path c k. unfold start_svg, own. rewrite read_attrs_spec. cbn [cur_transform trans_stack doc_path doc_ctx ignore_nest fst snd].
  destruct (all_some (map parse_transform (values "transform" attrs))) as [ts|]; [|reflexivity].
  destruct (all_some (map parse_view_box (values "viewBox" attrs))) as [boxes|]; [|reflexivity].
  cbn [at_transform at_d at_view_box at_width at_height]. fold (product ts).
  change (last_or (values "d" attrs) None) with (last_value "d" attrs).
  change (last_or (values "width" attrs) None) with (last_value "width" attrs).
  change (last_or (values "height" attrs) None) with (last_value "height" attrs).
  destruct (text_eqb (local_name n) (chars "path")) eqn:E1.
  - apply text_eqb_true in E1. rewrite E1. change (text_eqb (chars "path") (chars "svg")) with false. cbv iota. reflexivity.
  - destruct (text_eqb (local_name n) (chars "svg")); [|reflexivity]. unfold svg_scale.
    destruct (last_value "width" attrs) as [w|]; [|reflexivity]. destruct (last_value "height" attrs) as [h|]; [|reflexivity].
    destruct (parse_length w) as [lw|]; [|reflexivity]. destruct (parse_length h) as [lh|]; [|reflexivity].
    unfold last_or. destruct (rev boxes) as [|[[[a b] bw] bh] l]; rewrite C55_assoc; reflexivity.
Qed.

(** ** Events of trees *)

Section Nodes.
Variables (P : node -> Prop) (PE : forall e ch, Forall P ch -> P (Elem e ch)) (PM : P Misc).
Fixpoint node_deep (t : node) : P t :=
  match t with
  | Elem e ch => PE e ch ((fix go (l : list node) : Forall P l :=
      match l with [] => Forall_nil P | t :: l => Forall_cons t (node_deep t) (go l) end) ch)
  | Misc => PM
  end.
End Nodes.

(** An ignored element. *)
Lemma ignored : forall filter t stack tr path c k evs,
  events_loop filter (mk_doc stack tr path c (S k)) (doc_events t ++ evs) = events_loop filter (mk_doc stack tr path c (S k)) evs.
Proof.
  intros filter t. induction t as [e ch IH|] using node_deep; [|reflexivity].
  intros stack tr path c k evs. cbn [doc_events app events_loop ignore_nest Nat.ltb Nat.leb orb trans_stack cur_transform doc_path doc_ctx].
  rewrite <- app_assoc.
  assert (L : forall rest k, events_loop filter (mk_doc stack tr path c (S k)) (flat_map doc_events ch ++ rest) = events_loop filter (mk_doc stack tr path c (S k)) rest).
  { clear k evs. intros rest k. induction IH as [|t ch H _ IH]; [reflexivity|]. cbn [flat_map]. rewrite <- app_assoc, H. exact IH. }
  rewrite L. reflexivity.
Qed.

Lemma place_app : forall t0 chain e, place t0 (chain ++ [e]) =
  if in_svg (fst e) then match own e with Some m => tmul (place t0 chain) m | None => place t0 chain end else place t0 chain.
Proof. intros t0 chain e. unfold place. rewrite fold_left_app. reflexivity. Qed.

Lemma visits_app : forall t0 a b c, visits t0 (a ++ b) c =
  let! r := visits t0 a c in
  match r with
  | None => Ok None
  | Some (c, segs) =>
      let! r := visits t0 b c in
      match r with None => Ok None | Some (c, more) => Ok (Some (c, segs ++ more)) end
  end.
Proof.
  intros t0. induction a as [|ch a IH]; intros b c; cbn [app visits bind].
  - destruct (visits t0 b c) as [[[c' s]|]| |]; reflexivity.
  - destruct (visit t0 ch c) as [[[c1 s1]|]| |]; cbn [bind]; try reflexivity. rewrite IH.
    destruct (visits t0 a c1) as [[[c2 s2]|]| |]; cbn [bind]; try reflexivity.
    destruct (visits t0 b c2) as [[[c3 s3]|]| |]; cbn [bind]; try reflexivity. rewrite app_assoc. reflexivity.
Qed.

(** Continue the loop after some chains were visited. *)
Definition after (filter : name -> list attribute -> bool) (r : res (option (path_ctx * list curve_segment)))
  (stack : list transform) (tr : transform) (path : list curve_segment) (evs : list xml_event) : res (option doc_state) :=
  let! r := r in
  match r with
  | None => Ok None
  | Some (c, segs) => events_loop filter (mk_doc stack tr (path ++ segs) c 0) evs
  end.

Lemma events_tree : forall filter t0 t above stack path c evs,
  events_loop filter (mk_doc stack (place t0 above) path c 0) (doc_events t ++ evs) =
  after filter (visits t0 (chains filter above t) c) stack (place t0 above) path evs.
Proof.
  intros filter t0 t. induction t as [e ch IH|] using node_deep; intros above stack path c evs.
  2: { cbn. rewrite app_nil_r. reflexivity. }
  assert (L : forall above stack path c evs,
    events_loop filter (mk_doc stack (place t0 above) path c 0) (flat_map doc_events ch ++ evs) =
    after filter (visits t0 (flat_map (chains filter above) ch) c) stack (place t0 above) path evs).
  { clear above stack path c evs. induction IH as [|t ch H _ IH]; intros above stack path c evs.
    - cbn. rewrite app_nil_r. reflexivity.
    - cbn [flat_map]. rewrite <- app_assoc, H, visits_app. unfold after.
      destruct (visits t0 (chains filter above t) c) as [[[c1 s1]|]| |]; cbn [bind]; try reflexivity.
      rewrite IH. unfold after. destruct (visits t0 (flat_map (chains filter above) ch) c1) as [[[c2 s2]|]| |]; cbn [bind]; try reflexivity.
      rewrite app_assoc. reflexivity. }
  cbn [doc_events app events_loop ignore_nest Nat.ltb Nat.leb orb trans_stack cur_transform doc_path doc_ctx chains].
  destruct (filter (fst e) (snd e)) eqn:F; cbn [negb].
  2: { rewrite <- app_assoc.
    assert (IL : forall rest, events_loop filter (mk_doc stack (place t0 above) path c 1) (flat_map doc_events ch ++ rest) =
      events_loop filter (mk_doc stack (place t0 above) path c 1) rest).
    { clear. intros rest. induction ch as [|t ch IH]; [reflexivity|]. cbn [flat_map]. rewrite <- app_assoc, ignored. exact IH. }
    rewrite IL. cbn. rewrite app_nil_r. reflexivity. }
  rewrite <- app_assoc. cbn [visits]. unfold visit at 1. rewrite rev_app_distr. cbn [rev app].
  destruct (in_svg (fst e)) eqn:SV.
  - rewrite start_svg_spec. destruct (own e) as [m|] eqn:O; [|reflexivity].
    assert (PL : place t0 (above ++ [e]) = tmul (place t0 above) m).
    { rewrite place_app. rewrite SV, O. reflexivity. }
    destruct (text_eqb (local_name (fst e)) (chars "path")).
    + destruct (last_value "d" (snd e)) as [d|]; [|reflexivity]. rewrite <- PL. unfold after.
      destruct (parse_path d c (place t0 (above ++ [e]))) as [[[c1 s1]|]| |]; cbn [bind]; try reflexivity.
      rewrite L. unfold after. destruct (visits t0 (flat_map _ ch) c1) as [[[c2 s2]|]| |]; cbn [bind]; try reflexivity.
      cbn [events_loop app ignore_nest Nat.ltb Nat.leb trans_stack doc_path doc_ctx]. rewrite SV, app_assoc. reflexivity.
    + cbn [bind]. rewrite <- PL, L. unfold after. destruct (visits t0 (flat_map _ ch) c) as [[[c2 s2]|]| |]; cbn [bind]; try reflexivity.
      cbn [events_loop app ignore_nest Nat.ltb Nat.leb trans_stack doc_path doc_ctx]. rewrite SV. reflexivity.
  - assert (PL : place t0 (above ++ [e]) = place t0 above).
    { rewrite place_app. rewrite SV. reflexivity. }
    cbn [bind]. rewrite <- PL at 1. rewrite L. unfold after. destruct (visits t0 (flat_map _ ch) c) as [[[c2 s2]|]| |]; cbn [bind]; try reflexivity.
    cbn [events_loop app ignore_nest Nat.ltb Nat.leb trans_stack doc_path doc_ctx]. rewrite SV, PL. reflexivity.
Qed.

(** ** C53 *)

(** The result of a document is that of visiting its elements in order, each path drawn with the
    product of the transforms of its ancestors and its own: siblings do not matter. *)
Theorem C53_placed : forall doc t0 filter,
  parse_document (document_events doc) t0 filter =
  let! r := visits t0 (all_chains filter doc) path_ctx_new in
  match r with None => Ok None | Some (_, segs) => Ok (Some segs) end.
Proof.
  intros doc t0 filter. unfold parse_document, document_events, all_chains.
  assert (G : forall path c, events_loop filter (mk_doc [] t0 path c 0) (flat_map doc_events doc) =
    after filter (visits t0 (flat_map (chains filter []) doc) c) [] t0 path []).
  { induction doc as [|t doc IH]; intros path c.
    - cbn. rewrite app_nil_r. reflexivity.
    - cbn [flat_map]. change t0 with (place t0 []) at 1. rewrite events_tree, visits_app. change (place t0 []) with t0. unfold after at 1.
      destruct (visits t0 (chains filter [] t) c) as [[[c1 s1]|]| |]; cbn [bind]; try reflexivity.
      rewrite IH. unfold after. destruct (visits t0 (flat_map _ doc) c1) as [[[c2 s2]|]| |]; cbn [bind]; try reflexivity.
      rewrite app_assoc. reflexivity. }
  rewrite G. unfold after. destruct (visits t0 (flat_map _ doc) path_ctx_new) as [[[c2 s2]|]| |]; reflexivity.
Qed.

(** The first command of a path sets the position, so what a path draws does not depend on the
    paths before it. *)
Definition starts_with_move (d : list char) : Prop :=
  exists m args cmds, In m (chars "mM") /\ path_text d ((m, args) :: cmds).

Theorem C53_independent : forall d c c' tr, starts_with_move d -> parse_path d c tr = parse_path d c' tr.
Proof.
  intros d c c' tr (m & args & cmds & M & P). rewrite !(C50_complete _ _ _ _ P). cbn [build_commands].
  replace (build_path c m args tr true) with (build_path c' m args tr true); [reflexivity|].
  unfold build_path. rewrite (proj2 (is_one_of_In (chars "mM") m) M). cbn [negb]. rewrite andb_false_r.
  destruct (wrong_count 2 args) eqn:W; [reflexivity|]. destruct args as [|x [|y rest]]; [discriminate W|discriminate W|reflexivity].
Qed.

(** If all paths that are drawn start with a move, the drawing is made of what each of them draws
    alone at its place, in order. *)
Definition path_of (chain : list element) (d : list char) : Prop :=
  exists above e, chain = above ++ [e] /\ in_svg (fst e) = true /\ local_name (fst e) = chars "path" /\ last_value "d" (snd e) = Some d.

Theorem C53_alone : forall doc t0 filter segs,
  (forall chain d, In chain (all_chains filter doc) -> path_of chain d -> starts_with_move d) ->
  (parse_document (document_events doc) t0 filter = Ok (Some segs) <->
   exists pieces, segs = List.concat pieces /\
     Forall2 (fun chain s => exists c, visit t0 chain path_ctx_new = Ok (Some (c, s))) (all_chains filter doc) pieces).
Proof.
  intros doc t0 filter segs H. rewrite C53_placed. revert H. generalize (all_chains filter doc) as cs. intros cs H.
  assert (I : forall ch c c', In ch cs -> match visit t0 ch c with Ok (Some (_, s)) => exists c1, visit t0 ch c' = Ok (Some (c1, s)) | r => visit t0 ch c' = r end).
  { intros ch c c' IN. unfold visit. destruct (rev ch) as [|e r] eqn:R; [eauto|].
    assert (Q : ch = rev r ++ [e]) by (rewrite <- (rev_involutive ch), R; reflexivity).
    destruct (in_svg (fst e)) eqn:SV; [|eauto]. destruct (own e); [|reflexivity].
    destruct (text_eqb (local_name (fst e)) (chars "path")) eqn:PA; [|eauto].
    destruct (last_value "d" (snd e)) as [d|] eqn:D; [|reflexivity].
    rewrite (C53_independent d c c'). 
    - destruct (parse_path d c' (place t0 ch)) as [[[c1 s]|]| |]; eauto.
    - apply (H ch d IN). exists (rev r), e. apply text_eqb_true in PA. auto. }
  clear H. generalize path_ctx_new at 1 as c. revert I segs.
  induction cs as [|ch cs IH]; intros I segs c; cbn [visits bind].
  - split.
    + intros E. injection E as <-. exists []. split; [reflexivity|constructor].
    + intros (ps & -> & F). inversion F. reflexivity.
  - assert (I' : forall ch' c1 c2, In ch' cs -> match visit t0 ch' c1 with Ok (Some (_, s)) => exists c3, visit t0 ch' c2 = Ok (Some (c3, s)) | r => visit t0 ch' c2 = r end)
      by (intros; apply I; right; assumption).
    pose proof (I ch c path_ctx_new (or_introl eq_refl)) as I1. split.
    + intros E. destruct (visit t0 ch c) as [[[c1 s1]|]| |]; cbn [bind] in E; try discriminate.
      specialize (IH I'). destruct (visits t0 cs c1) as [[[c2 s2]|]| |] eqn:V; cbn [bind] in E; try discriminate.
      injection E as <-. destruct (proj1 (IH s2 c1)) as (ps & -> & F); [rewrite V; reflexivity|].
      exists (s1 :: ps). split; [reflexivity|]. constructor; auto.
    + intros (ps & -> & F). inversion F as [|ch' s1 cs' ps' [c1 V1] F']; subst.
      pose proof (I ch path_ctx_new c (or_introl eq_refl)) as I2. rewrite V1 in I2. destruct I2 as (c2 & ->). cbn [bind].
      pose proof (proj2 (IH I' (List.concat ps') c2) (ex_intro _ ps' (conj eq_refl F'))) as V.
      destruct (visits t0 cs c2) as [[[c3 s3]|]| |]; cbn [bind] in *; try discriminate. injection V as ->. reflexivity.
Qed.

(** A document that can not be read to its end is drawn up to there, as if it were complete. *)
Lemma loop_grows : forall filter evs st st', events_loop filter st evs = Ok (Some st') -> exists more, doc_path st' = doc_path st ++ more.
Proof.
  intros filter. induction evs as [|ev evs IH]; intros st st' E.
  - injection E as <-. exists []. rewrite app_nil_r. reflexivity.
  - assert (K : forall st1, events_loop filter st1 evs = Ok (Some st') -> (exists m, doc_path st1 = doc_path st ++ m) -> exists more, doc_path st' = doc_path st ++ more).
    { intros st1 E1 (m & M). destruct (IH _ _ E1) as (m' & ->). exists (m ++ m'). rewrite M, app_assoc. reflexivity. }
    assert (R : exists m, doc_path st = doc_path st ++ m) by (exists []; rewrite app_nil_r; reflexivity).
    destruct ev as [n attrs|n| |]; cbn [events_loop] in E.
    + destruct (Nat.ltb 0 (ignore_nest st) || negb (filter n attrs)); [apply (K _ E R)|].
      destruct (in_svg n); [|apply (K _ E R)].
      destruct st as [stack tr path c k]. pose proof (start_svg_spec (n, attrs) stack tr path c k) as S. cbn [fst snd] in S. rewrite S in E.
      destruct (own (n, attrs)) as [m|]; [|discriminate].
      destruct (text_eqb (local_name n) (chars "path")); [|apply (K _ E); eexists; cbn; rewrite app_nil_r; reflexivity].
      destruct (last_value "d" attrs) as [d|]; [|discriminate].
      destruct (parse_path d c (tmul tr m)) as [[[c1 s1]|]| |]; cbn [bind] in E; try discriminate.
      apply (K _ E). exists s1. reflexivity.
    + destruct (Nat.ltb 0 (ignore_nest st)); [apply (K _ E R)|]. destruct (in_svg n); [|apply (K _ E R)].
      destruct (trans_stack st); [discriminate|]. apply (K _ E R).
    + apply (K _ E R).
    + injection E as <-. exact R.
Qed.

Lemma loop_split : forall filter a b st st', ~ In ReadError a -> events_loop filter st (a ++ b) = Ok (Some st') ->
  exists st1, events_loop filter st a = Ok (Some st1) /\ events_loop filter st1 b = Ok (Some st') /\
    forall rest, events_loop filter st (a ++ ReadError :: rest) = Ok (Some st1).
Proof.
  intros filter a b. induction a as [|ev a IH]; intros st st' N E.
  - exists st. auto.
  - assert (N' : ~ In ReadError a) by (intros I; apply N; right; exact I).
    destruct ev as [n attrs|n| |]; cbn [events_loop app] in *.
    + destruct (Nat.ltb 0 (ignore_nest st) || negb (filter n attrs)); [eauto|]. destruct (in_svg n); [|eauto].
      destruct (start_svg st n attrs) as [[st1|]| |]; cbn [bind] in *; try discriminate. eauto.
    + destruct (Nat.ltb 0 (ignore_nest st)); [eauto|]. destruct (in_svg n); [|eauto]. destruct (trans_stack st); [discriminate|]. eauto.
    + eauto.
    + exfalso. apply N. left. reflexivity.
Qed.

Lemma doc_readable : forall t, ~ In ReadError (doc_events t).
Proof.
  induction t as [e ch IH|] using node_deep; cbn [doc_events].
  - intros [I|I]; [discriminate|]. apply in_app_iff in I. destruct I as [I|[I|[]]]; [|discriminate].
    apply in_flat_map in I. destruct I as (t & T & I). rewrite Forall_forall in IH. exact (IH t T I).
  - intros [I|[]]. discriminate.
Qed.

Theorem C53_truncated : forall doc t0 filter segs a b rest, document_events doc = a ++ b ->
  parse_document (document_events doc) t0 filter = Ok (Some segs) ->
  exists s1 s2, parse_document (a ++ ReadError :: rest) t0 filter = Ok (Some s1) /\ segs = s1 ++ s2.
Proof.
  intros doc t0 filter segs a b rest Q E. unfold parse_document in *. rewrite Q in E.
  destruct (events_loop filter (mk_doc [] t0 [] path_ctx_new 0) (a ++ b)) as [[st|]| |] eqn:L; cbn [bind] in E; try discriminate.
  injection E as <-. assert (N : ~ In ReadError a).
  { intros I. assert (J : In ReadError (document_events doc)) by (rewrite Q; apply in_app_iff; auto).
    unfold document_events in J. apply in_flat_map in J. destruct J as (t & _ & J). exact (doc_readable t J). }
  destruct (loop_split filter a b _ _ N L) as (st1 & E1 & E2 & E3). rewrite E3. cbn [bind]. destruct (loop_grows _ _ _ _ E2) as (more & ->). exists (doc_path st1), more. auto.
Qed.

(** The origin of a view box makes no difference: the drawing is not moved by it. *)
Theorem C53_origin : forall n a1 a2 k v v' x y x' y' w h,
  parse_view_box v = Some (x, y, w, h) -> parse_view_box v' = Some (x', y', w, h) ->
  own (n, a1 ++ mk_attr (mk_name (chars "viewBox") k) v :: a2) = own (n, a1 ++ mk_attr (mk_name (chars "viewBox") k) v' :: a2).
Proof.
  intros n a1 a2 k v v' x y x' y' w h V V'. unfold own. cbn [fst snd].
  assert (O : forall key u u', key <> "viewBox"%string -> text_eqb (chars "viewBox") (chars key) = false ->
    values key (a1 ++ mk_attr (mk_name (chars "viewBox") k) u :: a2) = values key (a1 ++ mk_attr (mk_name (chars "viewBox") k) u' :: a2)).
  { intros key u u' _ K. unfold values. rewrite !filter_app. cbn [List.filter a_name local_name]. rewrite K. reflexivity. }
  rewrite (O "transform"%string v v') by (discriminate || reflexivity).
  destruct (all_some (map parse_transform _)) as [ts|]; [|reflexivity].
  assert (B : forall u, values "viewBox" (a1 ++ mk_attr (mk_name (chars "viewBox") k) u :: a2) = values "viewBox" a1 ++ u :: values "viewBox" a2).
  { intros u. unfold values. rewrite filter_app, map_app. cbn [List.filter a_name local_name]. rewrite text_eqb_refl. reflexivity. }
  rewrite !B, !map_app. cbn [map]. rewrite V, V'.
  assert (AS : forall (l : list (option (R * R * R * R))) b r, all_some (l ++ Some b :: r) =
    match all_some l, all_some r with Some l, Some r => Some (l ++ b :: r) | _, _ => None end).
  { clear. induction l as [|[c|] l IH]; intros b r; cbn [app all_some].
    - destruct (all_some r); reflexivity.
    - rewrite IH. destruct (all_some l); [|reflexivity]. destruct (all_some r); reflexivity.
    - reflexivity. }
  rewrite !AS. destruct (all_some (map parse_view_box (values "viewBox" a1))) as [l1|]; [|reflexivity].
  destruct (all_some (map parse_view_box (values "viewBox" a2))) as [l2|]; [|reflexivity].
  destruct (text_eqb (local_name n) (chars "svg")); [|reflexivity].
  assert (S : svg_scale (a1 ++ mk_attr (mk_name (chars "viewBox") k) v :: a2) (l1 ++ (x, y, w, h) :: l2) =
              svg_scale (a1 ++ mk_attr (mk_name (chars "viewBox") k) v' :: a2) (l1 ++ (x', y', w, h) :: l2)).
  { unfold svg_scale, last_value. rewrite (O "width"%string v v'), (O "height"%string v v') by (discriminate || reflexivity).
    rewrite !rev_app_distr. cbn [rev]. rewrite <- !app_assoc. destruct (rev l2) as [|[[[p q] r] s] l]; reflexivity. }
  rewrite S. reflexivity.
Qed.

(** ** C54 *)

(** The document without the elements the filter rejects. *)
Fixpoint prune (filter : name -> list attribute -> bool) (t : node) : list node :=
  match t with
  | Elem e ch => if filter (fst e) (snd e) then [Elem e (flat_map (prune filter) ch)] else []
  | Misc => [Misc]
  end.

Theorem C54_pruned : forall doc t0 filter,
  parse_document (document_events doc) t0 filter = parse_document (document_events (flat_map (prune filter) doc)) t0 (fun _ _ => true).
Proof.
  intros doc t0 filter. rewrite !C53_placed. f_equal. f_equal. unfold all_chains.
  assert (G : forall t above, chains filter above t = flat_map (chains (fun _ _ => true) above) (prune filter t)).
  { induction t as [e ch IH|] using node_deep; intros above; [|reflexivity]. cbn [chains prune].
    destruct (filter (fst e) (snd e)); [|reflexivity]. cbn [flat_map chains]. rewrite app_nil_r. f_equal.
    induction IH as [|t ch H _ IH]; [reflexivity|]. cbn [flat_map]. rewrite flat_map_app, H, IH. reflexivity. }
  induction doc as [|t doc IH]; [reflexivity|]. cbn [flat_map]. rewrite flat_map_app, G, IH. reflexivity.
Qed.

(** Whatever is below an element that is rejected makes no difference. *)
Theorem C54_nothing : forall doc doc' t0 filter e ch, filter (fst e) (snd e) = false ->
  parse_document (document_events (doc ++ Elem e ch :: doc')) t0 filter = parse_document (document_events (doc ++ doc')) t0 filter.
Proof.
  intros doc doc' t0 filter e ch F. rewrite !C53_placed. f_equal. f_equal. unfold all_chains. rewrite !flat_map_app.
  cbn [flat_map chains]. rewrite F. reflexivity.
Qed.

(** With the option --layer an element is rejected exactly if it is a group of SVG marked as an
    Inkscape layer whose label is not the one asked for. *)
Definition has (attrs : list attribute) (ns key v : list char) : Prop :=
  In (mk_attr (mk_name key (Some ns)) v) attrs.

Theorem C54_layer : forall layer n attrs,
  layer_filter (Some layer) n attrs = false <->
  n = mk_name (chars "g") (Some SVG_NS) /\ has attrs INKSCAPE_NS (chars "groupmode") (chars "layer") /\
  ~ has attrs INKSCAPE_NS (chars "label") layer.
Proof.
  intros layer n attrs. unfold layer_filter.
  assert (NS : forall m ns, match namespace m with Some x => text_eqb x ns | None => false end = true <-> namespace m = Some ns).
  { intros m ns. destruct (namespace m) as [x|]; [rewrite text_eqb_true|]; split; congruence. }
  assert (F : forall l m, fold_left (fun '(l, m) a => (l || is_layer_attr a, m || is_label_attr layer a)) attrs (l, m) =
    (l || existsb is_layer_attr attrs, m || existsb (is_label_attr layer) attrs)).
  { induction attrs as [|a attrs IH]; intros l m; cbn [fold_left existsb]; [rewrite !orb_false_r; reflexivity|].
    rewrite IH, !orb_assoc. reflexivity. }
  rewrite F. cbn [orb].
  assert (A : forall a ns key v, in_inkscape (a_name a) = true -> ns = INKSCAPE_NS -> local_name (a_name a) = key -> a_value a = v -> a = mk_attr (mk_name key (Some ns)) v).
  { intros [[k o] v'] ns key v I -> K V. unfold in_inkscape in I. apply NS in I. cbn in *. congruence. }
  assert (IK : in_inkscape (mk_name (chars "label") (Some INKSCAPE_NS)) = true /\ in_inkscape (mk_name (chars "groupmode") (Some INKSCAPE_NS)) = true)
    by (split; apply NS; reflexivity).
  assert (EL : existsb is_layer_attr attrs = true <-> has attrs INKSCAPE_NS (chars "groupmode") (chars "layer")).
  { rewrite existsb_exists. split.
    - intros (a & I & H). unfold is_layer_attr in H. rewrite !andb_true_iff, !text_eqb_true in H. destruct H as [[H1 H2] H3].
      unfold has. rewrite <- (A a INKSCAPE_NS _ _ H1 eq_refl H2 H3). exact I.
    - intros I. eexists. split; [exact I|]. unfold is_layer_attr. cbn [a_name a_value local_name]. rewrite !text_eqb_refl, (proj2 IK). reflexivity. }
  assert (EM : existsb (is_label_attr layer) attrs = true <-> has attrs INKSCAPE_NS (chars "label") layer).
  { rewrite existsb_exists. split.
    - intros (a & I & H). unfold is_label_attr in H. rewrite !andb_true_iff, !text_eqb_true in H. destruct H as [[H1 H2] H3].
      unfold has. rewrite <- (A a INKSCAPE_NS _ _ H1 eq_refl H2 H3). exact I.
    - intros I. eexists. split; [exact I|]. unfold is_label_attr. cbn [a_name a_value local_name]. rewrite !text_eqb_refl, (proj1 IK). reflexivity. }
  assert (EN : text_eqb (local_name n) (chars "g") && in_svg n = true <-> n = mk_name (chars "g") (Some SVG_NS)).
  { rewrite andb_true_iff, text_eqb_true. unfold in_svg. rewrite NS. destruct n as [l o]. cbn. split; [intros [-> ->]; reflexivity|intros [= -> ->]; auto]. }
  rewrite <- EL, <- EM, <- EN. destruct (text_eqb (local_name n) (chars "g") && in_svg n).
  - destruct (existsb is_layer_attr attrs), (existsb (is_label_attr layer) attrs); cbn; intuition congruence.
  - split; [discriminate|intros (H & _); discriminate].
Qed.

Example C54_no_layer : forall n attrs, layer_filter None n attrs = true.
Proof. reflexivity. Qed.

(** ** Examples *)

Definition svg_name (s : string) : name := mk_name (chars s) (Some SVG_NS).
Definition plain_attr (k v : string) : attribute := mk_attr (mk_name (chars k) None) (chars v).
Definition ink_attr (k v : string) : attribute := mk_attr (mk_name (chars k) (Some INKSCAPE_NS)) (chars v).

Definition path_node (d : string) : node := Elem (svg_name "path", [plain_attr "d" d]) [].

(** Two groups with a path each: the transform of the first does not reach the second. *)
Definition groups : list node :=
  [Elem (svg_name "svg", [plain_attr "width" "4cm"; plain_attr "height" "4cm"; plain_attr "viewBox" "5 5 4 8"])
     [Elem (svg_name "g", [plain_attr "transform" "translate(1,2)"]) [path_node "M3 4"]; Misc; path_node "M5 6"]].

Local Ltac draws :=
  lazy -[IZR Rplus Rmult Rminus Ropp Rinv Rdiv powerRZ]; cbn [powerRZ];
  repeat match goal with
    | |- Ok _ = Ok _ => f_equal
    | |- Some _ = Some _ => f_equal
    | |- _ :: _ = _ :: _ => f_equal
    | |- GoTo _ = GoTo _ => f_equal
    | |- LineTo _ = LineTo _ => f_equal
    | |- mk_vec _ _ = mk_vec _ _ => f_equal
    | |- @nil _ = @nil _ => reflexivity
    | |- @eq R _ _ => field
    end.

Example C53_example : parse_document (document_events groups) tidentity (layer_filter None) =
  Ok (Some [GoTo (mk_vec 40 30); GoTo (mk_vec 50 30)]).
Proof. draws. Qed.

(** The same document cut off in the second path. *)
Example C53_truncated_example :
  parse_document (firstn 4 (document_events groups) ++ [ReadError]) tidentity (layer_filter None) = Ok (Some [GoTo (mk_vec 40 30)]).
Proof. draws. Qed.

(** A path that does not start with a move (which SVG forbids) starts where the path before it
    ended, in the coordinates of that path. *)
Example C53_carried_over :
  parse_document (document_events [Elem (svg_name "g", [plain_attr "transform" "scale(9)"]) [path_node "M5 5"]; path_node "h1"])
    tidentity (layer_filter None) = Ok (Some [GoTo (mk_vec 45 45); LineTo (mk_vec 6 5)]) /\
  parse_document (document_events [path_node "h1"]) tidentity (layer_filter None) = Ok (Some [LineTo (mk_vec 1 0)]).
Proof. split; draws. Qed.

Example C53_starts_with_move : starts_with_move (chars "M3 4").
Proof.
  exists (ch "M"), [3; 4]%R, []. split; [right; left; reflexivity|].
  change (chars "M3 4") with ([] ++ (ch "M" :: [] ++ ([ch "3"] ++ chars " " ++ [ch "4"])) ++ []).
  constructor; [constructor| |constructor; constructor].
  constructor; [apply is_one_of_In; reflexivity|constructor|].
  apply (numbers_more [ch "3"] 3 (chars " ") [ch "4"]); [apply (text_digit (ch "3")); reflexivity| |].
  - right. split; [discriminate|repeat constructor].
  - apply numbers_one. apply (text_digit (ch "4")); reflexivity.
Qed.

(** A layer that was not asked for is left out; so is a layer inside the one asked for, if its
    label differs; a path outside of all layers is drawn. *)
Definition layer_node (label : string) (ch : list node) : node :=
  Elem (svg_name "g", [ink_attr "groupmode" "layer"; ink_attr "label" label]) ch.
Definition layers : list node :=
  [layer_node "cut" [path_node "M1 1"; layer_node "detail" [path_node "M2 2"]]; layer_node "text" [path_node "M3 3"]; path_node "M4 4"].
Example C54_example : parse_document (document_events layers) tidentity (layer_filter (Some (chars "cut"))) =
  Ok (Some [GoTo (mk_vec 1 1); GoTo (mk_vec 4 4)]).
Proof. draws. Qed.

Print Assumptions C53_placed.
Print Assumptions C53_independent.
Print Assumptions C53_alone.
Print Assumptions C53_truncated.
Print Assumptions C53_origin.
Print Assumptions C54_pruned.
Print Assumptions C54_nothing.
Print Assumptions C54_layer.
