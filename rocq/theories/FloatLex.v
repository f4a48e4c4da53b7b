(** Second model, in binary64 (Floats.v), of the parsers of PathLex.v: how the text of a path, a
    transform, a view box or a length becomes numbers of type f64.  The parsers that return no
    number are those of PathLex.v.

    f64::from_str returns the binary64 number nearest to the decimal (ties to even, infinity
    beyond the range).  That is its documentation; how it finds it is not modelled, and exponents
    of more than five digits, which it cuts off, are taken at their value. *)
From Coq Require Import ZArith List Bool NArith Ascii String.
From Flocq Require Import BinarySingleNaN.
From Verif Require Import Base Chars Floats ApproxCurve DrawCurves PathLex FloatPath.
Import ListNotations.

(** The number nearest to [m] times ten to the [e], with the sign [neg]. *)
Definition fdecimal (neg : bool) (m e : Z) : f64 :=
  match m with
  | Zpos p =>
      match e with
      | Zneg e => fratio neg p (10 ^ e)
      | Zpos e => fratio neg (p * 10 ^ e) 1
      | Z0 => fratio neg p 1
      end
  | _ => B754_zero neg
  end.

(** f64::from_str, see PathLex.v *)
Definition ffrom_sign (s : list char) : bool * list char :=
  match s with
  | c :: rest =>
      if N.eqb c (ch "-") then (true, rest) else if N.eqb c (ch "+") then (false, rest) else (false, s)
  | [] => (false, s)
  end.
Definition ffrom_str (s : list char) : option f64 :=
  let '(neg, s) := ffrom_sign s in
  let '(s, i) := while0 is_digit s in
  let '(s, f) :=
    match s with
    | c :: rest => if N.eqb c (ch ".") then while0 is_digit rest else (s, [])
    | [] => (s, [])
    end in
  match i ++ f with
  | [] => None
  | m =>
      match from_exp s with
      | None => None
      | Some x => Some (fdecimal neg (dec m) (x - Z.of_nat (List.length f)))
      end
  end.

(** svg_path_parser.rs:116-121 *)
Definition ffloating_point_signed : parser f64 :=
  map_res (recognize (pair sign_opt floating_point_constant)) ffrom_str.
(** svg_path_parser.rs:123-127 *)
Definition finteger : parser f64 :=
  map_res (recognize (pair (opt (one_of (chars "+-"))) digit1)) ffrom_str.
(** svg_path_parser.rs:128-130 *)
Definition fnumber : parser f64 := alt ffloating_point_signed finteger.

(** ** Transforms *)

(** coords.rs:214-264 *)
Definition fidentity : ftransform := mk_ftr fone fzero fzero fone fzero fzero.
Definition ftranslate (x y : f64) : ftransform := mk_ftr fone fzero fzero fone x y.
Definition fscale_xy (sx sy : f64) : ftransform := mk_ftr sx fzero fzero sy fzero fzero.
Definition frotate (g : trig) (a : f64) : ftransform :=
  mk_ftr (f_cos g a) (f_sin g a) (fneg (f_sin g a)) (f_cos g a) fzero fzero.
Definition frotate_around (g : trig) (a : f64) (pivot : fvec) : ftransform :=
  let s := f_sin g a in
  let c := f_cos g a in
  mk_ftr c s (fneg s) c
    (fadd (fmul (fx pivot) (fsub fone c)) (fmul (fy pivot) s))
    (fadd (fmul (fneg (fx pivot)) s) (fmul (fy pivot) (fsub fone c))).
Definition fskew_x (g : trig) (a : f64) : ftransform := mk_ftr fone fzero (f_tan g a) fone fzero fzero.
Definition fskew_y (g : trig) (a : f64) : ftransform := mk_ftr fone (f_tan g a) fzero fone fzero fzero.

(** svg_path_parser.rs:131-145 *)
Definition fmatrix : parser ftransform :=
  call (chars "matrix")
    (pmap
      (pair fnumber (pair comma_wsp (pair fnumber (pair comma_wsp (pair fnumber (pair comma_wsp
        (pair fnumber (pair comma_wsp (pair fnumber (pair comma_wsp fnumber))))))))))
      (fun '(a, (_, (b, (_, (c, (_, (d, (_, (e, (_, f)))))))))) => mk_ftr a b c d e f)).
(** svg_path_parser.rs:146-157 *)
Definition ftranslate_text : parser ftransform :=
  call (chars "translate")
    (pmap (pair fnumber (opt (preceded comma_wsp fnumber)))
      (fun '(x, y) => ftranslate x (match y with Some v => v | None => fzero end))).
(** svg_path_parser.rs:159-173 *)
Definition fscale_text : parser ftransform :=
  call (chars "scale")
    (pmap (pair fnumber (opt (preceded comma_wsp fnumber)))
      (fun '(x, y) => fscale_xy x (match y with Some v => v | None => x end))).
(** svg_path_parser.rs:175-196 *)
Definition frotate_text (g : trig) : parser ftransform :=
  call (chars "rotate")
    (pmap (pair fnumber (opt (pair (preceded comma_wsp fnumber) (preceded comma_wsp fnumber))))
      (fun '(a, c) =>
         let a := fradians a in
         match c with
         | Some (cx, cy) => frotate_around g a (mk_fvec cx cy)
         | None => frotate g a
         end)).
(** svg_path_parser.rs:197-206 *)
Definition fskewx_text (g : trig) : parser ftransform :=
  call (chars "skewX") (pmap fnumber (fun a => fskew_x g (fradians a))).
(** svg_path_parser.rs:208-217 *)
Definition fskewy_text (g : trig) : parser ftransform :=
  call (chars "skewY") (pmap fnumber (fun a => fskew_y g (fradians a))).
(** svg_path_parser.rs:219-221 *)
Definition fone_transform (g : trig) : parser ftransform :=
  alt fmatrix (alt ftranslate_text (alt fscale_text (alt (frotate_text g) (alt (fskewx_text g) (fskewy_text g))))).
(** svg_path_parser.rs:223-231 *)
Fixpoint ftransforms (g : trig) (fuel : nat) : parser ftransform :=
  match fuel with
  | O => fun _ => None
  | S fuel =>
      alt (pmap (separated_pair (fone_transform g) comma_wsp (ftransforms g fuel)) (fun '(a, b) => ftmul a b))
          (fone_transform g)
  end.
(** svg_path_parser.rs:233-235 *)
Definition ftransform_list (g : trig) : parser ftransform := fun s =>
  preceded multispace0 (ftransforms g (S (List.length s))) s.

(** ** Path commands, view boxes and lengths *)

(** svg_path_parser.rs:237-242 *)
Definition fpath_command : parser (char * list f64) :=
  pair (preceded wsp_opt (one_of (chars "mMzZlLhHvVcCsSqQtTaA")))
       (preceded wsp_opt (separated_list0 comma_wsp fnumber)).

(** svg_path_parser.rs:244-251 *)
Definition fview_box_args : parser (f64 * f64 * f64 * f64) :=
  pmap (pair wsp_opt (pair fnumber (pair comma_wsp (pair fnumber (pair comma_wsp (pair fnumber
         (pair comma_wsp (pair fnumber wsp_opt))))))))
    (fun '(_, (a, (_, (b, (_, (c, (_, (d, _)))))))) => (a, b, c, d)).

(** svg_path_parser.rs:253-255 *)
Definition f_INCH : f64 := lit 254 10.
Definition f_PX : f64 := fone.
Definition f_PT : f64 := fdiv f_INCH (f_of_Z 72).

(** svg_path_parser.rs:257-266 *)
Definition flength_unit : parser f64 :=
  alt (pvalue fone (tag (chars "mm")))
  (alt (pvalue (f_of_Z 10) (tag (chars "cm")))
  (alt (pvalue f_INCH (tag (chars "in")))
  (alt (pvalue f_PX (tag (chars "px")))
  (alt (pvalue f_PT (tag (chars "pt")))
       (pvalue (fmul f_PT (f_of_Z 12)) (tag (chars "pc"))))))).

(** svg_path_parser.rs:268-281 *)
Definition fphysical_length : parser f64 :=
  pmap (pair wsp_opt (pair fnumber (pair wsp_opt (opt (terminated flength_unit wsp_opt)))))
    (fun '(_, (v, (_, u))) => match u with Some unit => fmul v unit | None => v end).

(** svg_path_parser.rs:300-319 *)
Definition fparse_transform (g : trig) (s : list char) : option ftransform :=
  match ftransform_list g s with Some (_, o) => Some o | None => None end.
Definition fparse_view_box (s : list char) : option (f64 * f64 * f64 * f64) :=
  match fview_box_args s with Some (_, o) => Some o | None => None end.
Definition fparse_length (s : list char) : option f64 :=
  match fphysical_length s with Some (_, o) => Some o | None => None end.

(** svg_path_parser.rs:824-850, see PathLex.v; arcs are errors, as in FloatPath.v. *)
Fixpoint fparse_loop (g : trig) (fuel : nat) (c : fpath_ctx) (tr : ftransform) (first_elem : bool) (s : list char)
  : res (option (fpath_ctx * list segment)) :=
  match trim_start s with
  | [] => Ok (Some (c, []))
  | s =>
      match fuel with
      | O => OutOfFuel
      | S fuel =>
          match fpath_command s with
          | None => Panic
          | Some (rest, (cmd, args)) =>
              let! r := fbuild_path g c cmd args tr first_elem in
              match r with
              | None => Ok None
              | Some (c, segs) =>
                  let! r := fparse_loop g fuel c tr false rest in
                  match r with
                  | None => Ok None
                  | Some (c, more) => Ok (Some (c, segs ++ more))
                  end
              end
          end
      end
  end.
Definition fparse_path (g : trig) (s : list char) (c : fpath_ctx) (tr : ftransform) : res (option (fpath_ctx * list segment)) :=
  fparse_loop g (List.length s) c tr true s.

Example fnumber_tenth :
  match fnumber (chars "-1e-1,7") with
  | Some (rest, x) => rest = chars ",7" /\ B2SF x = SpecFloat.S754_finite true 7205759403792794 (-56)
  | None => False
  end.
Proof. vm_compute. auto. Qed.
