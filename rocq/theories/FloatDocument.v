(** Second model, in binary64 (Floats.v), of /repo/src/svg_parser.rs, parse_document (see
    SvgDocument.v), and main of /repo/src/svg_path.rs from the events of the XML reader on. *)
From Coq Require Import ZArith List Bool NArith Ascii String.
From Verif Require Import Base Chars Floats StepperContext ApproxCurve DrawCurves PathLex ImageRaster SvgDocument SvgMain FloatPath FloatLex.
Import ListNotations.

(** The transform and the variables of svg_parser.rs:45-48 *)
Record fattr_state := mk_fattrs {
  fat_transform : ftransform; fat_d : option (list char); fat_view_box : option (f64 * f64 * f64 * f64);
  fat_width : option (list char); fat_height : option (list char) }.

(** svg_parser.rs:51-84 *)
Definition fread_attr (tg : trig) (st : fattr_state) (a : attribute) : option fattr_state :=
  let n := local_name (a_name a) in
  let v := a_value a in
  if text_eqb n (chars "transform") then
    match fparse_transform tg v with
    | Some t => Some (mk_fattrs (ftmul (fat_transform st) t) (fat_d st) (fat_view_box st) (fat_width st) (fat_height st))
    | None => None
    end
  else if text_eqb n (chars "d") then
    Some (mk_fattrs (fat_transform st) (Some v) (fat_view_box st) (fat_width st) (fat_height st))
  else if text_eqb n (chars "viewBox") then
    match fparse_view_box v with
    | Some args => Some (mk_fattrs (fat_transform st) (fat_d st) (Some args) (fat_width st) (fat_height st))
    | None => None
    end
  else if text_eqb n (chars "height") then
    Some (mk_fattrs (fat_transform st) (fat_d st) (fat_view_box st) (fat_width st) (Some v))
  else if text_eqb n (chars "width") then
    Some (mk_fattrs (fat_transform st) (fat_d st) (fat_view_box st) (Some v) (fat_height st))
  else Some st.
Fixpoint fread_attrs (tg : trig) (st : fattr_state) (attrs : list attribute) : option fattr_state :=
  match attrs with
  | [] => Some st
  | a :: rest => match fread_attr tg st a with Some st => fread_attrs tg st rest | None => None end
  end.

(** The variables of svg_parser.rs:24-29 *)
Record fdoc_state := mk_fdoc {
  ftrans_stack : list ftransform; fcur_transform : ftransform; fdoc_path : list segment;
  fdoc_ctx : fpath_ctx; fignore_nest : nat }.

(** svg_parser.rs:44-131 *)
Definition fstart_svg (tg : trig) (st : fdoc_state) (n : name) (attrs : list attribute) : res (option fdoc_state) :=
  match fread_attrs tg (mk_fattrs (fcur_transform st) None None None None) attrs with
  | None => Ok None
  | Some at_ =>
      let stack := fcur_transform st :: ftrans_stack st in
      let tr := fat_transform at_ in
      if text_eqb (local_name n) (chars "path") then
        match fat_d at_ with
        | None => Ok None
        | Some d =>
            let! r := fparse_path tg d (fdoc_ctx st) tr in
            match r with
            | None => Ok None
            | Some (c, segs) => Ok (Some (mk_fdoc stack tr (fdoc_path st ++ segs) c (fignore_nest st)))
            end
        end
      else if text_eqb (local_name n) (chars "svg") then
        match fat_width at_, fat_height at_ with
        | Some w, Some h =>
            match fparse_length w with
            | None => Ok None
            | Some width =>
                match fparse_length h with
                | None => Ok None
                | Some height =>
                    let '(vbw, vbh) :=
                      match fat_view_box at_ with
                      | Some (_, _, w, h) => (w, h)
                      | None => (width, height)
                      end in
                    let sc := fscale_xy (fdiv width vbw) (fdiv height vbh) in
                    Ok (Some (mk_fdoc stack (ftmul tr sc) (fdoc_path st) (fdoc_ctx st) (fignore_nest st)))
                end
            end
        | _, _ => Ok None
        end
      else Ok (Some (mk_fdoc stack tr (fdoc_path st) (fdoc_ctx st) (fignore_nest st)))
  end.

(** svg_parser.rs:30-149 *)
Fixpoint fevents_loop (tg : trig) (filter : name -> list attribute -> bool) (st : fdoc_state) (evs : list xml_event)
  : res (option fdoc_state) :=
  match evs with
  | [] => Ok (Some st)
  | StartElement n attrs :: evs =>
      if Nat.ltb 0 (fignore_nest st) || negb (filter n attrs) then
        fevents_loop tg filter
          (mk_fdoc (ftrans_stack st) (fcur_transform st) (fdoc_path st) (fdoc_ctx st) (S (fignore_nest st))) evs
      else if in_svg n then
        let! r := fstart_svg tg st n attrs in
        match r with
        | None => Ok None
        | Some st => fevents_loop tg filter st evs
        end
      else fevents_loop tg filter st evs
  | EndElement n :: evs =>
      if Nat.ltb 0 (fignore_nest st) then
        fevents_loop tg filter
          (mk_fdoc (ftrans_stack st) (fcur_transform st) (fdoc_path st) (fdoc_ctx st) (pred (fignore_nest st))) evs
      else if in_svg n then
        match ftrans_stack st with
        | t :: stack => fevents_loop tg filter (mk_fdoc stack t (fdoc_path st) (fdoc_ctx st) (fignore_nest st)) evs
        | [] => Panic
        end
      else fevents_loop tg filter st evs
  | OtherEvent :: evs => fevents_loop tg filter st evs
  | ReadError :: _ => Ok (Some st)
  end.

(** svg_parser.rs:18-152 *)
Definition fparse_document (tg : trig) (evs : list xml_event) (t0 : ftransform) (filter : name -> list attribute -> bool)
  : res (option (list segment)) :=
  let! r := fevents_loop tg filter (mk_fdoc [] t0 [] fpath_ctx_new 0) evs in
  match r with
  | None => Ok None
  | Some st => Ok (Some (fdoc_path st))
  end.

(** svg_path.rs:206-291: the document is read before anything is drawn; its errors panic. *)
Definition svg_program (tg : trig) (g : geometry) (cf : config_) (v_opt a_opt : option f64) (v_draw : f64)
    (n_repeat intensity : Z) (layer : option (list char)) (evs : list xml_event) : res (ctx * (Z * Z)) :=
  let! _ := svg_limits cf v_opt a_opt in
  let! r := fparse_document tg evs fidentity (layer_filter layer) in
  let! segs := unwrap r in
  svg_main g cf v_opt a_opt v_draw n_repeat intensity segs.
