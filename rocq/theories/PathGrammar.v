(** The languages the text parsers of svg_path_parser.rs are to be measured against, written as
    grammars, independently of the parsers of PathLex.v. *)
From Coq Require Import Reals ZArith List Bool NArith Ascii String.
From Verif Require Import Base Chars Coords.
Import ListNotations.

Definition all (f : char -> bool) (t : list char) : Prop := Forall (fun c => f c = true) t.

(** ** Numbers: [sign] digits [. digits] [exponent], with a digit before or after the point *)

Inductive sign_text : list char -> Z -> Prop :=
| sign_none : sign_text [] 1
| sign_plus : sign_text (chars "+") 1
| sign_minus : sign_text (chars "-") (-1).

Definition digits (t : list char) : Prop := t <> [] /\ all is_digit t.

(** Every digit counts its power of ten. *)
Fixpoint digits_value (t : list char) : Z :=
  match t with
  | [] => 0
  | c :: r => (Z.of_N c - 48) * 10 ^ Z.of_nat (List.length r) + digits_value r
  end.

(** Text, digits as an integer, and the power of ten of the last digit. *)
Inductive mantissa : list char -> Z -> Z -> Prop :=
| mant_int : forall i, digits i -> mantissa i (digits_value i) 0
| mant_frac : forall i f, all is_digit i -> digits f ->
    mantissa (i ++ ch "." :: f) (digits_value (i ++ f)) (- Z.of_nat (List.length f))
| mant_dot : forall i, digits i -> mantissa (i ++ [ch "."]) (digits_value i) 0.

Inductive exponent_text : list char -> Z -> Prop :=
| exp_none : exponent_text [] 0
| exp_some : forall e s sg d, In e (chars "eE") -> sign_text s sg -> digits d ->
    exponent_text (e :: s ++ d) (sg * digits_value d).

Inductive number_text : list char -> R -> Prop :=
| number_intro : forall s sg m v p x e, sign_text s sg -> mantissa m v p -> exponent_text x e ->
    number_text (s ++ m ++ x) (IZR sg * IZR v * powerRZ 10 (p + e)).

(** ** Paths *)

Definition separator (t : list char) : Prop :=
  (exists a b, t = a ++ ch "," :: b /\ all is_space a /\ all is_space b) \/ (t <> [] /\ all is_space t).

Inductive numbers_text : list char -> list R -> Prop :=
| numbers_one : forall t v, number_text t v -> numbers_text t [v]
| numbers_more : forall t v sp r vs, number_text t v -> separator sp -> numbers_text r vs ->
    numbers_text (t ++ sp ++ r) (v :: vs).

Definition letters : list char := chars "mMzZlLhHvVcCsSqQtTaA".

Inductive command_text : list char -> char * list R -> Prop :=
| command_bare : forall c sp, In c letters -> all is_space sp -> command_text (c :: sp) (c, [])
| command_args : forall c sp t vs, In c letters -> all is_space sp -> numbers_text t vs ->
    command_text (c :: sp ++ t) (c, vs).

Inductive path_text : list char -> list (char * list R) -> Prop :=
| path_end : forall w, all is_white w -> path_text w []
| path_more : forall w t c r cs, all is_white w -> command_text t c -> path_text r cs ->
    path_text (w ++ t ++ r) (c :: cs).

(** ** Transforms *)

(** A name, and arguments between parentheses. *)
Definition call_text (name : string) (args t : list char) : Prop :=
  exists a b c, all is_space a /\ all is_space b /\ all is_space c /\
    t = chars name ++ a ++ chars "(" ++ b ++ args ++ c ++ chars ")".

Definition degrees (a : R) : R := (a * PI / 180)%R.

(** What each transform does to a point. *)
Inductive transform_text : list char -> (vec -> vec) -> Prop :=
| text_matrix : forall t args a b c d e f, numbers_text args [a; b; c; d; e; f] -> call_text "matrix" args t ->
    transform_text t (fun p => mk_vec (a * vx p + c * vy p + e) (b * vx p + d * vy p + f))
| text_translate1 : forall t args x, numbers_text args [x] -> call_text "translate" args t ->
    transform_text t (fun p => mk_vec (vx p + x) (vy p))
| text_translate2 : forall t args x y, numbers_text args [x; y] -> call_text "translate" args t ->
    transform_text t (fun p => mk_vec (vx p + x) (vy p + y))
| text_scale1 : forall t args x, numbers_text args [x] -> call_text "scale" args t ->
    transform_text t (fun p => mk_vec (x * vx p) (x * vy p))
| text_scale2 : forall t args x y, numbers_text args [x; y] -> call_text "scale" args t ->
    transform_text t (fun p => mk_vec (x * vx p) (y * vy p))
| text_rotate1 : forall t args a, numbers_text args [a] -> call_text "rotate" args t ->
    transform_text t (fun p => mk_vec (cos (degrees a) * vx p - sin (degrees a) * vy p)
                                      (sin (degrees a) * vx p + cos (degrees a) * vy p))
| text_rotate3 : forall t args a x y, numbers_text args [a; x; y] -> call_text "rotate" args t ->
    transform_text t
      (fun p => mk_vec (x + (cos (degrees a) * (vx p - x) - sin (degrees a) * (vy p - y)))
                       (y + (sin (degrees a) * (vx p - x) + cos (degrees a) * (vy p - y))))
| text_skewx : forall t args a, numbers_text args [a] -> call_text "skewX" args t ->
    transform_text t (fun p => mk_vec (vx p + tan (degrees a) * vy p) (vy p))
| text_skewy : forall t args a, numbers_text args [a] -> call_text "skewY" args t ->
    transform_text t (fun p => mk_vec (vx p) (vy p + tan (degrees a) * vx p)).

(** A list of transforms separated by a comma or white space. *)
Inductive transforms_text : list char -> list (vec -> vec) -> Prop :=
| transforms_one : forall t f, transform_text t f -> transforms_text t [f]
| transforms_more : forall t f sp r fs, transform_text t f -> separator sp -> transforms_text r fs ->
    transforms_text (t ++ sp ++ r) (f :: fs).
