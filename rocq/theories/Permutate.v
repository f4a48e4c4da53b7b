(** Model of src/permutate.rs (27 lines): the macro [permutate!], which
    main_old.rs repeats in lines 9-22, and the program that uses it.

    The macro is modelled as what it is, a rewriting of source text: its four
    rules turn vectors and variables into nested loops around one call.  The
    variable [q] that each expansion brings in is a new one (the hygiene of
    macro_rules), so here variables are numbers and each loop takes the next
    one.  The vectors may be of different types in rust; here their elements
    share one type [A] (in the example a sum of the three types). *)
From Coq Require Import ZArith List Lia.
Import ListNotations.
Local Open Scope nat_scope.

Section Macro.
Variable A : Type.

(** What an expansion consists of: [for &q in v { body }] and [f(a, ..., b)]. *)
Inductive code : Type :=
| For (q : nat) (v : list A) (body : code)
| Call (args : list nat).

(** permutate.rs:1-14.  [None]: no rule matches, the compiler stops.  The
    second rule and the third are tried before the fourth, but need a
    vector after the first. *)
Fixpoint permutate (q : nat) (vs : list (list A)) (a : list nat) : option code :=
  match vs with
  | [] => None
  | v :: r =>
      match a, r with
      | [], [] => Some (For q v (Call [q]))                        (* lines 2-4 *)
      | [], _ :: _ =>                                              (* lines 5-7 *)
          match permutate (S q) r [q] with
          | Some b => Some (For q v b)
          | None => None
          end
      | _ :: _, _ :: _ =>                                          (* lines 8-10 *)
          match permutate (S q) r (a ++ [q]) with
          | Some b => Some (For q v b)
          | None => None
          end
      | _ :: _, [] => Some (For q v (Call (a ++ [q])))             (* lines 11-13 *)
      end
  end.

(** What rust does with that text: the calls it makes, in order, each with its
    arguments.  A variable that is not in scope has no value. *)
Definition scope : Type := nat -> option A.

Definition bind (e : scope) (q : nat) (x : A) : scope :=
  fun k => if Nat.eqb k q then Some x else e k.

Fixpoint values (e : scope) (args : list nat) : option (list A) :=
  match args with
  | [] => Some []
  | k :: r =>
      match e k, values e r with
      | Some x, Some xs => Some (x :: xs)
      | _, _ => None
      end
  end.

Fixpoint run (e : scope) (c : code) : option (list (list A)) :=
  match c with
  | Call args => match values e args with Some xs => Some [xs] | None => None end
  | For q v b =>
      (fix go (l : list A) : option (list (list A)) :=
         match l with
         | [] => Some []
         | x :: r =>
             match run (bind e q x) b, go r with
             | Some y, Some z => Some (y ++ z)
             | _, _ => None
             end
         end) v
  end.

(** [permutate!(f(v1, ..., vn))] *)
Definition permutated (vs : list (list A)) : option (list (list A)) :=
  match permutate 0 vs [] with
  | Some c => run (fun _ => None) c
  | None => None
  end.
End Macro.

(** permutate.rs:21-27: the vectors of [main]; the speeds in tenths. *)
Inductive value : Type := Tenths (z : Z) | Str (n : nat) | Int (z : Z).

Definition main_vectors : list (list value) :=
  [map Tenths [-230; -42; 0; 2; 61; 230]%Z;
   map Tenths [-210; -40; 0; 20; 57; 125]%Z;
   [Str 0; Str 1];
   map Int [-2; 0; 2]%Z].
