(** Model of /repo/src/svg_parser.rs, parse_document, and of the layer filter of
    /repo/src/svg_path.rs.  The input is the stream of events of the XML reader (xml-rs), which
    is not modelled.  f64 is modelled by the real numbers, as in PathBuild.v. *)
From Coq Require Import Reals ZArith List Bool NArith Ascii String.
From Verif Require Import Base Chars Coords Curves PathBuild PathLex.
Import ListNotations.

Definition text_eqb (a b : list char) : bool := if list_eq_dec N.eq_dec a b then true else false.

(** xml::name::OwnedName (the prefix is not looked at) and xml::attribute::OwnedAttribute. *)
Record name := mk_name { local_name : list char; namespace : option (list char) }.
Record attribute := mk_attr { a_name : name; a_value : list char }.

(** The items of the event reader: XmlEvent::StartElement, EndElement, all the other events
    (start and end of document, text, comments, ...), and a reading error. *)
Inductive xml_event :=
| StartElement (n : name) (attrs : list attribute)
| EndElement (n : name)
| OtherEvent
| ReadError.

(** svg_parser.rs:14 *)
Definition SVG_NS : list char := chars "http://www.w3.org/2000/svg".
Definition in_svg (n : name) : bool :=
  match namespace n with Some ns => text_eqb ns SVG_NS | None => false end.

(** The transform and the variables of svg_parser.rs:45-48 *)
Record attr_state := mk_attrs {
  at_transform : transform; at_d : option (list char); at_view_box : option (R * R * R * R);
  at_width : option (list char); at_height : option (list char) }.

(** svg_parser.rs:51-84, one attribute; None is Err. *)
Definition read_attr (st : attr_state) (a : attribute) : option attr_state :=
  let n := local_name (a_name a) in
  let v := a_value a in
  if text_eqb n (chars "transform") then
    match parse_transform v with
    | Some t => Some (mk_attrs (tmul (at_transform st) t) (at_d st) (at_view_box st) (at_width st) (at_height st))
    | None => None
    end
  else if text_eqb n (chars "d") then
    Some (mk_attrs (at_transform st) (Some v) (at_view_box st) (at_width st) (at_height st))
  else if text_eqb n (chars "viewBox") then
    match parse_view_box v with
    | Some args => Some (mk_attrs (at_transform st) (at_d st) (Some args) (at_width st) (at_height st))
    | None => None
    end
  else if text_eqb n (chars "height") then
    Some (mk_attrs (at_transform st) (at_d st) (at_view_box st) (at_width st) (Some v))
  else if text_eqb n (chars "width") then
    Some (mk_attrs (at_transform st) (at_d st) (at_view_box st) (Some v) (at_height st))
  else Some st.
Fixpoint read_attrs (st : attr_state) (attrs : list attribute) : option attr_state :=
  match attrs with
  | [] => Some st
  | a :: rest => match read_attr st a with Some st => read_attrs st rest | None => None end
  end.

(** The variables of svg_parser.rs:24-29; [ignore_nest] is an i32 in the source, which overflows
    only under 2^31 nested elements. *)
Record doc_state := mk_doc {
  trans_stack : list transform; cur_transform : transform; doc_path : list curve_segment;
  doc_ctx : path_ctx; ignore_nest : nat }.

(** svg_parser.rs:44-131, the start of an element of SVG that is not ignored. *)
Definition start_svg (st : doc_state) (n : name) (attrs : list attribute) : res (option doc_state) :=
  match read_attrs (mk_attrs (cur_transform st) None None None None) attrs with
  | None => Ok None
  | Some at_ =>
      let stack := cur_transform st :: trans_stack st in
      let tr := at_transform at_ in
      if text_eqb (local_name n) (chars "path") then
        match at_d at_ with
        | None => Ok None
        | Some d =>
            let! r := parse_path d (doc_ctx st) tr in
            match r with
            | None => Ok None
            | Some (c, segs) => Ok (Some (mk_doc stack tr (doc_path st ++ segs) c (ignore_nest st)))
            end
        end
      else if text_eqb (local_name n) (chars "svg") then
        match at_width at_, at_height at_ with
        | Some w, Some h =>
            match parse_length w with
            | None => Ok None
            | Some width =>
                match parse_length h with
                | None => Ok None
                | Some height =>
                    let '(vbw, vbh) :=
                      match at_view_box at_ with
                      | Some (_, _, w, h) => (w, h)
                      | None => (width, height)
                      end in
                    let sc := tscale_xy (width / vbw) (height / vbh) in
                    Ok (Some (mk_doc stack (tmul tr sc) (doc_path st) (doc_ctx st) (ignore_nest st)))
                end
            end
        | _, _ => Ok None
        end
      else Ok (Some (mk_doc stack tr (doc_path st) (doc_ctx st) (ignore_nest st)))
  end.

(** svg_parser.rs:30-149, the loop over the events. *)
Fixpoint events_loop (filter : name -> list attribute -> bool) (st : doc_state) (evs : list xml_event)
  : res (option doc_state) :=
  match evs with
  | [] => Ok (Some st)
  | StartElement n attrs :: evs =>
      if Nat.ltb 0 (ignore_nest st) || negb (filter n attrs) then
        events_loop filter (mk_doc (trans_stack st) (cur_transform st) (doc_path st) (doc_ctx st) (S (ignore_nest st))) evs
      else if in_svg n then
        let! r := start_svg st n attrs in
        match r with
        | None => Ok None
        | Some st => events_loop filter st evs
        end
      else events_loop filter st evs
  | EndElement n :: evs =>
      if Nat.ltb 0 (ignore_nest st) then
        events_loop filter (mk_doc (trans_stack st) (cur_transform st) (doc_path st) (doc_ctx st) (pred (ignore_nest st))) evs
      else if in_svg n then
        match trans_stack st with
        | t :: stack => events_loop filter (mk_doc stack t (doc_path st) (doc_ctx st) (ignore_nest st)) evs
        | [] => Panic
        end
      else events_loop filter st evs
  | OtherEvent :: evs => events_loop filter st evs
  | ReadError :: _ => Ok (Some st)
  end.

(** svg_parser.rs:18-152 *)
Definition parse_document (evs : list xml_event) (t0 : transform) (filter : name -> list attribute -> bool)
  : res (option (list curve_segment)) :=
  let! r := events_loop filter (mk_doc [] t0 [] path_ctx_new 0) evs in
  match r with
  | None => Ok None
  | Some st => Ok (Some (doc_path st))
  end.

(** svg_path.rs:29 *)
Definition INKSCAPE_NS : list char := chars "http://www.inkscape.org/namespaces/inkscape".

(** svg_path.rs:220-257, the filter for the option --layer. *)
Definition in_inkscape (n : name) : bool :=
  match namespace n with Some ns => text_eqb ns INKSCAPE_NS | None => false end.
Definition is_layer_attr (a : attribute) : bool :=
  in_inkscape (a_name a) && text_eqb (local_name (a_name a)) (chars "groupmode") && text_eqb (a_value a) (chars "layer").
Definition is_label_attr (layer : list char) (a : attribute) : bool :=
  in_inkscape (a_name a) && text_eqb (local_name (a_name a)) (chars "label") && text_eqb (a_value a) layer.
Definition layer_filter (layer : option (list char)) (n : name) (attrs : list attribute) : bool :=
  match layer with
  | None => true
  | Some layer =>
      if text_eqb (local_name n) (chars "g") && in_svg n then
        let '(is_layer, matches) :=
          fold_left (fun '(l, m) a => (l || is_layer_attr a, m || is_label_attr layer a)) attrs (false, false) in
        negb (is_layer && negb matches)
      else true
  end.
