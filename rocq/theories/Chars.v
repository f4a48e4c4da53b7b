(** Characters of a rust [str]: unicode code points. *)
From Coq Require Import List Bool NArith Ascii String.
Import ListNotations.
Open Scope N_scope.

Definition char := N.

(** A character given by its ascii literal, and a text given by a string literal. *)
Definition ch (a : ascii) : char := N_of_ascii a.
Fixpoint chars (s : string) : list char :=
  match s with
  | EmptyString => []
  | String a s => ch a :: chars s
  end.

(** nom's [one_of], [complete::char] and rust's [matches] on a set of characters. *)
Definition is_one_of (set : list char) (c : char) : bool := existsb (N.eqb c) set.

(** char::is_ascii_lowercase *)
Definition is_lower (c : char) : bool := (97 <=? c) && (c <=? 122).
(** nom's [digit0] and [digit1] accept '0'..'9'. *)
Definition is_digit (c : char) : bool := (48 <=? c) && (c <=? 57).
(** nom's [multispace0] and [multispace1] accept ' ', '\t', '\r' and '\n'. *)
Definition is_space (c : char) : bool := (c =? 32) || (c =? 9) || (c =? 13) || (c =? 10).
(** char::is_whitespace, used by str::trim_start: the unicode property White_Space. *)
Definition is_white (c : char) : bool :=
  ((9 <=? c) && (c <=? 13)) || (c =? 32) || (c =? 133) || (c =? 160) || (c =? 5760) ||
  ((8192 <=? c) && (c <=? 8202)) || (c =? 8232) || (c =? 8233) || (c =? 8239) || (c =? 8287) ||
  (c =? 12288).
