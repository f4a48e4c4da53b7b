(** Model of /repo/src/solve.rs.  Arithmetic is on unbounded integers; that no
    i64 operation overflows in the calls of the planner is part of property C21. *)
From Coq Require Import ZArith List Bool Lia.
From Verif Require Import Base.
Open Scope Z_scope.

(** solve.rs:3-9. *)
Definition same_sign (a b : Z) : bool := if a >=? 0 then b >=? 0 else b <? 0.

(** solve.rs:11-13. *)
Definition sqpoly (a b c x : Z) : Z := a * x * x + b * x - c.

(** solve.rs:33-53, the bisection loop.  [/] truncates. *)
Fixpoint find_root_loop (fuel : nat) (a b c minx maxx miny maxy : Z) : res (option Z) :=
  match fuel with
  | O => OutOfFuel
  | S f =>
      if miny =? 0 then Ok (Some minx)
      else if maxy =? 0 then Ok (Some maxx)
      else if maxx - minx <=? 1 then
        Ok (if maxy >=? 0 then Some maxx else Some minx)
      else
        let midx := Z.quot (minx + maxx) 2 in
        let midy := sqpoly a b c midx in
        if same_sign maxy midy
        then find_root_loop f a b c minx midx miny midy
        else find_root_loop f a b c midx maxx midy maxy
  end.

(** Iterations allowed to the bisection of an interval of length [d]. *)
Definition bisect_fuel (d : Z) : nat := S (Z.to_nat (Z.log2_up d)).

(** solve.rs:18-54. *)
Definition find_root (a b c min max : Z) : res (option Z) :=
  let miny := sqpoly a b c min in
  let maxy := sqpoly a b c max in
  if miny =? 0 then Ok (Some min)
  else if maxy =? 0 then Ok (Some max)
  else if same_sign miny maxy then Ok None
  else find_root_loop (bisect_fuel (max - min)) a b c min max miny maxy.

(** solve.rs:84-87, doubling of the search limit. *)
Fixpoint limit_loop (fuel : nat) (a b c xmin limit : Z) : res Z :=
  if sqpoly a b c (xmin + limit) <=? 0 then
    match fuel with
    | O => OutOfFuel
    | S f => limit_loop f a b c xmin (limit * 2)
    end
  else Ok limit.

(** Iterations allowed to the doubling loop. *)
Definition limit_fuel (ymin : Z) : nat := Z.to_nat (Z.log2 (- ymin)).

(** solve.rs:63-69, the vertex rounded to the nearest integer. *)
Definition vertex (a b : Z) : Z :=
  if b >=? 0 then - Z.quot (b + a) (2 * a) else Z.quot (- b + a) (2 * a).

(** solve.rs:57-96. *)
Definition find_roots (a b c : Z) : res (option (Z * Z)) :=
  let s := b * b + 4 * a * c in
  if s <? 0 then Ok None
  else
    let xmin := vertex a b in
    let ymin := sqpoly a b c xmin in
    if (s =? 0) && (ymin =? 0) then Ok (Some (xmin, xmin))
    else if ymin >=? 0 then
      if - b <? 2 * a * xmin
      then Ok (Some (xmin - 1, xmin))
      else Ok (Some (xmin, xmin + 1))
    else
      let! limit0 := limit_loop (limit_fuel ymin) a b c xmin 16 in
      let limit := limit0 + 1 in
      let! r1 := find_root a b c (xmin - limit) xmin in
      let! r2 := find_root a b c xmin (xmin + limit) in
      match r1, r2 with
      | Some x1, Some x2 => Ok (Some (x1, x2))
      | _, _ => Ok None
      end.
