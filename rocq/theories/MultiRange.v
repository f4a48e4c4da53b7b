(** Model of /repo/src/multi_range.rs, instantiated at T = i64 (the only use in
    the crate, integer_curve.rs); bounds are unbounded integers here. *)
From Coq Require Import ZArith List Bool Lia.
From Verif Require Import Base.
Import ListNotations.
Open Scope Z_scope.

(** multi_range.rs:7-10, [Range { low, high }]. *)
Definition range := (Z * Z)%type.
Definition low (r : range) : Z := fst r.
Definition high (r : range) : Z := snd r.

(** multi_range.rs:36-38, the [ranges] vector. *)
Definition mrange := list range.

(** multi_range.rs:18-32, helpers [min] and [max]. *)
Definition rmin (a b : Z) : Z := if a <? b then a else b.
Definition rmax (a b : Z) : Z := if a >? b then a else b.

(** multi_range.rs:42-44. *)
Definition mr_new : mrange := [].

(** multi_range.rs:52-56.  No check that low <= high, as in the source. *)
Definition mr_range (l h : Z) : mrange := [(l, h)].

(** multi_range.rs:78-84, index of the first range whose high reaches [l]. *)
Fixpoint or_first (l : Z) (rs : mrange) : nat :=
  match rs with
  | [] => 0%nat
  | r :: t => if l <=? high r then 0%nat else S (or_first l t)
  end.

(** multi_range.rs:85-91, number of ranges from [first] on whose low is not
    above [h]. *)
Fixpoint or_count (h : Z) (rs : mrange) : nat :=
  match rs with
  | [] => 0%nat
  | r :: t => if low r >? h then 0%nat else S (or_count h t)
  end.

(** multi_range.rs:76-103, [or].  Vec::insert, index assignment and drain are
    written with firstn/skipn; indexing out of bounds would be a panic. *)
Definition mr_or (rs : mrange) (l h : Z) : res mrange :=
  let! _ := assert (l <=? h) in
  let first := or_first l rs in
  let last := (first + or_count h (skipn first rs))%nat in
  if Nat.eqb first last then
    Ok (firstn first rs ++ (l, h) :: skipn first rs)
  else
    let! rf := unwrap (nth_error rs first) in
    let! rl := unwrap (nth_error rs (last - 1)) in
    let l' := rmin (low rf) l in
    let h' := rmax (high rl) h in
    Ok (firstn first rs ++ (l', h') :: skipn last rs).

(** multi_range.rs:63-68, [or_slice]. *)
Fixpoint mr_or_slice (rs : mrange) (a : list (Z * Z)) : res mrange :=
  match a with
  | [] => Ok rs
  | (l, h) :: t => let! rs' := mr_or rs l h in mr_or_slice rs' t
  end.

(** multi_range.rs:117-127, the inner loop of [and]. *)
Fixpoint and_take (l h : Z) (rs : mrange) : mrange :=
  match rs with
  | [] => []
  | rn :: t =>
      if low rn <? h
      then (rmax l (low rn), rmin h (high rn)) :: and_take l h t
      else []
  end.

(** multi_range.rs:112-132, [and]. *)
Fixpoint mr_and (rs : mrange) (l h : Z) : mrange :=
  match rs with
  | [] => []
  | r :: t => if high r >? l then and_take l h (r :: t) else mr_and t l h
  end.

(** multi_range.rs:149-154: advance [r2] past ranges that end at or before
    [r1.low]; [None] is the break out of the outer loop. *)
Fixpoint skip2 (l : Z) (r2 : range) (rest : mrange) : option (range * mrange) :=
  if high r2 <=? l then
    match rest with
    | [] => None
    | r :: t => skip2 l r t
    end
  else Some (r2, rest).

(** multi_range.rs:159-174: push every further range of [other] that starts
    before [r1.high]; returns the pushed ranges, the new r2 and the iterator. *)
Fixpoint take2 (r1 r2 : range) (rest : mrange) : mrange * (range * mrange) :=
  match rest with
  | [] => ([], (r2, []))
  | rn :: t =>
      if low rn >=? high r1 then ([], (r2, rest))
      else
        let '(p, st) := take2 r1 rn t in
        ((rmax (low r1) (low rn), rmin (high r1) (high rn)) :: p, st)
  end.

(** multi_range.rs:146-175, the outer loop. *)
Fixpoint and_range_loop (r1s : mrange) (r2 : range) (rest : mrange) : mrange :=
  match r1s with
  | [] => []
  | r1 :: t =>
      match skip2 (low r1) r2 rest with
      | None => []
      | Some (r2', rest') =>
          let p0 := if low r2' <? high r1
                    then [(rmax (low r1) (low r2'), rmin (high r1) (high r2'))]
                    else [] in
          let '(p, (r2'', rest'')) := take2 r1 r2' rest' in
          p0 ++ p ++ and_range_loop t r2'' rest''
      end
  end.

(** multi_range.rs:139-177, [and_range]. *)
Definition mr_and_range (rs other : mrange) : mrange :=
  match other with
  | [] => []
  | r2 :: rest => and_range_loop rs r2 rest
  end.

(** multi_range.rs:181-183. *)
Definition mr_is_empty (rs : mrange) : bool :=
  match rs with [] => true | _ => false end.

(** multi_range.rs:187-192: low of the first and high of the last range. *)
Definition mr_bounds (rs : mrange) : option (Z * Z) :=
  match rs with
  | [] => None
  | r :: _ => Some (low r, high (last rs r))
  end.
