(** Model of the text half of /repo/src/svg_path_parser.rs: the nom parsers for numbers,
    path commands, transforms, view boxes and lengths, and parse_path.

    A parser takes the text and returns the rest and a value, or None for nom's
    [Err::Error] (the code uses no streaming parser and no [cut], so there are no other
    errors; kinds and positions of errors are left out).  f64 is modelled by the real
    numbers, as in PathBuild.v. *)
From Coq Require Import Reals ZArith List Bool NArith Ascii String.
From Verif Require Import Base Chars Coords Curves PathBuild.
Import ListNotations.
Open Scope R_scope.

Definition parser (A : Type) := list char -> option (list char * A).

(** ** The nom 7 combinators the code uses *)

Definition pmap {A B} (p : parser A) (f : A -> B) : parser B := fun s =>
  match p s with None => None | Some (rest, v) => Some (rest, f v) end.
Definition map_res {A B} (p : parser A) (f : A -> option B) : parser B := fun s =>
  match p s with
  | None => None
  | Some (rest, v) => match f v with None => None | Some w => Some (rest, w) end
  end.
Definition opt {A} (p : parser A) : parser (option A) := fun s =>
  match p s with None => Some (s, None) | Some (rest, v) => Some (rest, Some v) end.
Definition alt {A} (p q : parser A) : parser A := fun s =>
  match p s with None => q s | Some r => Some r end.
Definition pair {A B} (p : parser A) (q : parser B) : parser (A * B) := fun s =>
  match p s with
  | None => None
  | Some (rest, a) => match q rest with None => None | Some (rest, b) => Some (rest, (a, b)) end
  end.
Definition preceded {A B} (p : parser A) (q : parser B) : parser B := pmap (pair p q) snd.
Definition terminated {A B} (p : parser A) (q : parser B) : parser A := pmap (pair p q) fst.
Definition delimited {A B C} (p : parser A) (q : parser B) (r : parser C) : parser B :=
  preceded p (terminated q r).
Definition separated_pair {A B C} (p : parser A) (sep : parser B) (q : parser C) : parser (A * C) :=
  pair p (preceded sep q).
(** [recognize] returns the part of the input its parser consumed. *)
Definition recognize {A} (p : parser A) : parser (list char) := fun s =>
  match p s with
  | None => None
  | Some (rest, _) => Some (rest, firstn (List.length s - List.length rest) s)
  end.
Definition pvalue {A B} (v : B) (p : parser A) : parser B := pmap p (fun _ => v).

(** [complete::char] and [one_of] *)
Definition one_of (set : list char) : parser char := fun s =>
  match s with
  | c :: rest => if is_one_of set c then Some (rest, c) else None
  | [] => None
  end.
Definition pchar (c : char) : parser char := one_of [c].
(** [tag] *)
Fixpoint tag (t : list char) : parser (list char) := fun s =>
  match t with
  | [] => Some (s, [])
  | c :: t' =>
      match s with
      | d :: rest => if N.eqb c d then pmap (tag t') (cons c) rest else None
      | [] => None
      end
  end.
(** The longest prefix with a property: [digit0], [multispace0] and, if it must not be empty,
    [digit1], [multispace1]. *)
Fixpoint while0 (f : char -> bool) (s : list char) : list char * list char :=
  match s with
  | c :: rest => if f c then let '(rest', t) := while0 f rest in (rest', c :: t) else (s, [])
  | [] => ([], [])
  end.
Definition take0 (f : char -> bool) : parser (list char) := fun s => Some (while0 f s).
Definition take1 (f : char -> bool) : parser (list char) := fun s =>
  match while0 f s with
  | (_, []) => None
  | r => Some r
  end.
Definition digit0 := take0 is_digit.
Definition digit1 := take1 is_digit.
Definition multispace0 := take0 is_space.
Definition multispace1 := take1 is_space.

(** [separated_list0]: after the first element, as long as a separator and an element follow;
    a separator without an element is given back.  (A separator that consumes nothing is an
    error.)  The loop gets fuel; without any left it fails. *)
Fixpoint separated_loop {A B} (sep : parser A) (p : parser B) (fuel : nat) (s : list char)
  : option (list char * list B) :=
  match sep s with
  | None => Some (s, [])
  | Some (s1, _) =>
      if Nat.eqb (List.length s1) (List.length s) then None
      else
        match p s1 with
        | None => Some (s, [])
        | Some (s2, v) =>
            match fuel with
            | O => None
            | S fuel =>
                match separated_loop sep p fuel s2 with
                | None => None
                | Some (rest, l) => Some (rest, v :: l)
                end
            end
        end
  end.
Definition separated_list0 {A B} (sep : parser A) (p : parser B) : parser (list B) := fun s =>
  match p s with
  | None => Some (s, [])
  | Some (s1, v) =>
      match separated_loop sep p (List.length s) s1 with
      | None => None
      | Some (rest, l) => Some (rest, v :: l)
      end
  end.

(** ** Numbers *)

(** The value of a text of digits. *)
Definition dec (t : list char) : Z := fold_left (fun a c => (10 * a + (Z.of_N c - 48))%Z) t 0%Z.

(** f64::from_str on the texts the parsers give it: an optional sign, digits with an optional
    point, an optional exponent; None (InvalidNumber) for anything else.  Rust also reads "inf",
    "infinity" and "nan", which never reach it.  The result is the exact value; rounding to f64
    is not modelled. *)
Definition from_sign (s : list char) : R * list char :=
  match s with
  | c :: rest =>
      if N.eqb c (ch "-") then (-1, rest) else if N.eqb c (ch "+") then (1, rest) else (1, s)
  | [] => (1, s)
  end.
Definition from_exp (s : list char) : option Z :=
  match s with
  | [] => Some 0%Z
  | c :: rest =>
      if is_one_of (chars "eE") c then
        let '(neg, rest) :=
          match rest with
          | d :: more => if N.eqb d (ch "-") then (true, more) else if N.eqb d (ch "+") then (false, more) else (false, rest)
          | [] => (false, rest)
          end in
        match while0 is_digit rest with
        | ([], d :: ds) => let x := dec (d :: ds) in Some (if neg : bool then (- x)%Z else x)
        | _ => None
        end
      else None
  end.
Definition from_str (s : list char) : option R :=
  let '(sg, s) := from_sign s in
  let '(s, i) := while0 is_digit s in
  let '(s, f) :=
    match s with
    | c :: rest => if N.eqb c (ch ".") then while0 is_digit rest else (s, [])
    | [] => (s, [])
    end in
  match i ++ f with
  | [] => None
  | m =>
      match from_exp s with
      | None => None
      | Some x => Some (sg * IZR (dec m) * powerRZ 10 (x - Z.of_nat (List.length f)))
      end
  end.

(** svg_path_parser.rs:82-84 *)
Definition wsp_opt : parser (list char) := multispace0.
(** svg_path_parser.rs:86-91 *)
Definition comma_wsp : parser (list char) :=
  alt (recognize (delimited wsp_opt (pchar (ch ",")) wsp_opt)) multispace1.
(** svg_path_parser.rs:93-98 *)
Definition sign_opt : parser R :=
  pmap (opt (one_of (chars "+-")))
    (fun s => match s with Some c => if N.eqb c (ch "-") then -1 else 1 | None => 1 end).
(** svg_path_parser.rs:99-104 *)
Definition fractional_constant : parser (list char) :=
  alt (recognize (separated_pair digit0 (pchar (ch ".")) digit1))
      (recognize (terminated digit1 (pchar (ch ".")))).
(** svg_path_parser.rs:105-107 *)
Definition exponent : parser (list char) :=
  recognize (pair (one_of (chars "eE")) (pair sign_opt digit1)).
(** svg_path_parser.rs:109-114 *)
Definition floating_point_constant : parser (list char) :=
  alt (recognize (pair fractional_constant (opt exponent)))
      (recognize (pair digit1 exponent)).
(** svg_path_parser.rs:116-121 *)
Definition floating_point_signed : parser R :=
  map_res (recognize (pair sign_opt floating_point_constant)) from_str.
(** svg_path_parser.rs:123-127 *)
Definition integer : parser R :=
  map_res (recognize (pair (opt (one_of (chars "+-"))) digit1)) from_str.
(** svg_path_parser.rs:128-130 *)
Definition number : parser R := alt floating_point_signed integer.

(** ** Transforms *)

(** [delimited(tuple((tag(name), wsp_opt, char('('), wsp_opt)), p, pair(wsp_opt, char(')')))] *)
Definition call {A} (name : list char) (p : parser A) : parser A :=
  delimited (pair (tag name) (pair wsp_opt (pair (pchar (ch "(")) wsp_opt))) p
            (pair wsp_opt (pchar (ch ")"))).

(** svg_path_parser.rs:131-145 *)
Definition matrix : parser transform :=
  call (chars "matrix")
    (pmap
      (pair number (pair comma_wsp (pair number (pair comma_wsp (pair number (pair comma_wsp
        (pair number (pair comma_wsp (pair number (pair comma_wsp number))))))))))
      (fun '(a, (_, (b, (_, (c, (_, (d, (_, (e, (_, f)))))))))) => mk_tr a b c d e f)).
(** svg_path_parser.rs:146-157 *)
Definition translate : parser transform :=
  call (chars "translate")
    (pmap (pair number (opt (preceded comma_wsp number)))
      (fun '(x, y) => mk_tr 1 0 0 1 x (match y with Some v => v | None => 0 end))).
(** svg_path_parser.rs:159-173 *)
Definition scale : parser transform :=
  call (chars "scale")
    (pmap (pair number (opt (preceded comma_wsp number)))
      (fun '(x, y) => mk_tr x 0 0 (match y with Some v => v | None => x end) 0 0)).
(** svg_path_parser.rs:175-196 *)
Definition rotate : parser transform :=
  call (chars "rotate")
    (pmap (pair number (opt (pair (preceded comma_wsp number) (preceded comma_wsp number))))
      (fun '(a, c) =>
         let a := a * PI / 180 in
         match c with
         | Some (cx, cy) => trotate_around a (mk_vec cx cy)
         | None => trotate a
         end)).
(** svg_path_parser.rs:197-206 *)
Definition skewx : parser transform :=
  call (chars "skewX") (pmap number (fun a => let a := a * PI / 180 in tskew_x a)).
(** svg_path_parser.rs:208-217 *)
Definition skewy : parser transform :=
  call (chars "skewY") (pmap number (fun a => let a := a * PI / 180 in tskew_y a)).
(** svg_path_parser.rs:219-221 (named transform in the source) *)
Definition one_transform : parser transform :=
  alt matrix (alt translate (alt scale (alt rotate (alt skewx skewy)))).
(** svg_path_parser.rs:223-231; without fuel left it fails. *)
Fixpoint transforms (fuel : nat) : parser transform :=
  match fuel with
  | O => fun _ => None
  | S fuel =>
      alt (pmap (separated_pair one_transform comma_wsp (transforms fuel)) (fun '(a, b) => tmul a b))
          one_transform
  end.
(** svg_path_parser.rs:233-235; every transform takes a character. *)
Definition transform_list : parser transform := fun s =>
  preceded multispace0 (transforms (S (List.length s))) s.

(** ** Path commands, view boxes and lengths *)

(** svg_path_parser.rs:237-242 *)
Definition path_command : parser (char * list R) :=
  pair (preceded wsp_opt (one_of (chars "mMzZlLhHvVcCsSqQtTaA")))
       (preceded wsp_opt (separated_list0 comma_wsp number)).

(** svg_path_parser.rs:244-251 *)
Definition view_box_args : parser (R * R * R * R) :=
  pmap (pair wsp_opt (pair number (pair comma_wsp (pair number (pair comma_wsp (pair number
         (pair comma_wsp (pair number wsp_opt))))))))
    (fun '(_, (a, (_, (b, (_, (c, (_, (d, _)))))))) => (a, b, c, d)).

(** svg_path_parser.rs:253-255 *)
Definition INCH : R := 25.4.
Definition PX : R := 1.
Definition PT : R := INCH / 72.

(** svg_path_parser.rs:257-266 *)
Definition length_unit : parser R :=
  alt (pvalue 1 (tag (chars "mm")))
  (alt (pvalue 10 (tag (chars "cm")))
  (alt (pvalue INCH (tag (chars "in")))
  (alt (pvalue PX (tag (chars "px")))
  (alt (pvalue PT (tag (chars "pt")))
       (pvalue (PT * 12) (tag (chars "pc"))))))).

(** svg_path_parser.rs:268-281 *)
Definition physical_length : parser R :=
  pmap (pair wsp_opt (pair number (pair wsp_opt (opt (terminated length_unit wsp_opt)))))
    (fun '(_, (v, (_, u))) => match u with Some unit => v * unit | None => v end).

(** svg_path_parser.rs:300-319: the rest of the text is ignored; None stands for Err. *)
Definition parse_transform (s : list char) : option transform :=
  match transform_list s with Some (_, o) => Some o | None => None end.
Definition parse_view_box (s : list char) : option (R * R * R * R) :=
  match view_box_args s with Some (_, o) => Some o | None => None end.
Definition parse_length (s : list char) : option R :=
  match physical_length s with Some (_, o) => Some o | None => None end.

(** str::trim_start *)
Definition trim_start (s : list char) : list char := fst (while0 is_white s).

(** svg_path_parser.rs:824-850 parse_path, from its second line on; every turn of the loop takes
    a character. *)
Fixpoint parse_loop (fuel : nat) (c : path_ctx) (tr : transform) (first_elem : bool) (s : list char)
  : res (option (path_ctx * list curve_segment)) :=
  match trim_start s with
  | [] => Ok (Some (c, []))
  | s =>
      match fuel with
      | O => OutOfFuel
      | S fuel =>
          match path_command s with
          | None => Panic
          | Some (rest, (cmd, args)) =>
              let! r := build_path c cmd args tr first_elem in
              match r with
              | None => Ok None
              | Some (c, segs) =>
                  let! r := parse_loop fuel c tr false rest in
                  match r with
                  | None => Ok None
                  | Some (c, more) => Ok (Some (c, segs ++ more))
                  end
              end
          end
      end
  end.
Definition parse_path (s : list char) (c : path_ctx) (tr : transform) : res (option (path_ctx * list curve_segment)) :=
  parse_loop (List.length s) c tr true s.
