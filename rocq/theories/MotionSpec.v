(** Independent specification of stepper motion: a list of per tick
    accelerations, executed one tick at a time.  Distances are in the unit used
    by the code (half steps): a tick covers velocity before + velocity after. *)
From Coq Require Import ZArith List.
Import ListNotations.
Open Scope Z_scope.

(** Run length encoded accelerations, written out tick by tick. *)
Fixpoint expand (segs : list (Z * Z)) : list Z :=
  match segs with
  | [] => []
  | (n, a) :: t => repeat a (Z.to_nat n) ++ expand t
  end.

(** Distance covered. *)
Fixpoint travel (v : Z) (accs : list Z) : Z :=
  match accs with
  | [] => 0
  | a :: t => v + (v + a) + travel (v + a) t
  end.

(** Velocity at the end. *)
Fixpoint final_speed (v : Z) (accs : list Z) : Z :=
  match accs with
  | [] => v
  | a :: t => final_speed (v + a) t
  end.

(** Every velocity held at a tick boundary, including the first and the last. *)
Fixpoint speeds (v : Z) (accs : list Z) : list Z :=
  match accs with
  | [] => [v]
  | a :: t => v :: speeds (v + a) t
  end.
