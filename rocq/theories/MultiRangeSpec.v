(** Independent specification of integer range sets. *)
From Coq Require Import ZArith List.
Import ListNotations.
Open Scope Z_scope.

(** [x] belongs to the set described by a list of half-open ranges. *)
Definition covers (rs : list (Z * Z)) (x : Z) : Prop :=
  exists l h, In (l, h) rs /\ l <= x < h.

(** Ordered, separated by gaps, never inverted. *)
Inductive ordered : list (Z * Z) -> Prop :=
| ord_nil : ordered []
| ord_one : forall l h, l <= h -> ordered [(l, h)]
| ord_cons : forall l h l' h' t,
    l <= h -> h < l' -> ordered ((l', h') :: t) -> ordered ((l, h) :: (l', h') :: t).

(** No range is empty. *)
Definition nonempty_ranges (rs : list (Z * Z)) : Prop :=
  forall l h, In (l, h) rs -> l < h.
