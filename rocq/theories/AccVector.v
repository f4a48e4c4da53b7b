(** Model of /repo/src/acc_vector.rs. *)
From Coq Require Import ZArith List Bool Lia.
From Verif Require Import Base.
Import ListNotations.
Open Scope Z_scope.

(** acc_vector.rs:5-10, AccSegment { interval: u16, acc: i16 } as a pair. *)
Definition seg := (Z * Z)%type.

(** The values a Vec<AccSegment> can hold. *)
Definition seg_typed (s : seg) : Prop :=
  0 <= fst s <= u16_max /\ i16_min <= snd s <= i16_max.

(** acc_vector.rs:81-104, [acc_push].  last_mut is the end of the list; the
    addition [*interval += t] is u16 arithmetic and panics on overflow (build
    with overflow checks). *)
Fixpoint acc_push (v : list seg) (t a : Z) {struct v} : res (list seg) :=
  if t =? 0 then Ok v
  else
    match v with
    | [] => Ok [(t, a)]
    | [(interval, acc)] =>
        if acc =? a then
          let! n := chk_u16 (interval + t) in Ok [(n, acc)]
        else Ok [(interval, acc); (t, a)]
    | s :: rest => let! r := acc_push rest t a in Ok (s :: r)
    end.

(** acc_vector.rs:106-119, [acc_distance].  [a as i32 * i as i32], [v + ..] and
    [v + v_next] are i32 operations, the sum is i64. *)
Fixpoint acc_distance_loop (s v : Z) (segs : list seg) : res (Z * Z) :=
  match segs with
  | [] => Ok (s, v)
  | (i, a) :: t =>
      let! ai := chk_i32 (a * i) in
      let! v_next := chk_i32 (v + ai) in
      let! vv := chk_i32 (v + v_next) in
      let! ds := chk_i64 (vv * i) in
      let! s' := chk_i64 (s + ds) in
      acc_distance_loop s' v_next t
  end.
Definition acc_distance (segs : list seg) (v0 : Z) : res (Z * Z) :=
  acc_distance_loop 0 v0 segs.

(** acc_vector.rs:29-36, AccIter. *)
Record acc_iterator := mk_iter { it_count : Z; it_acc : Z; it_seg : list seg }.

(** acc_vector.rs:43-55, [next]; [self.count -= 1] is u16 arithmetic. *)
Definition acc_next (it : acc_iterator) : res (option Z * acc_iterator) :=
  let! c := chk_u16 (it_count it - 1) in
  if c =? 0 then
    match it_seg it with
    | (interval, acc) :: rest => Ok (Some acc, mk_iter interval acc rest)
    | [] => Ok (None, mk_iter c (it_acc it) [])
    end
  else Ok (Some (it_acc it), mk_iter c (it_acc it) (it_seg it)).

(** acc_vector.rs:60-79, [acc_iter]; all arithmetic is u16. *)
Fixpoint acc_iter_loop (start t : Z) (segs : list seg) : res acc_iterator :=
  match segs with
  | [] => Panic
  | (i, a) :: rest =>
      let! end_ := chk_u16 (start + i) in
      if (start <=? t) && (t <? end_) then
        let! d := chk_u16 (end_ - t) in
        let! c := chk_u16 (d + 1) in
        Ok (mk_iter c a rest)
      else acc_iter_loop end_ t rest
  end.
Definition acc_iter (segs : list seg) (t : Z) : res acc_iterator := acc_iter_loop 0 t segs.

(** What [collect] does with the iterator: call [next] until it says None. *)
Fixpoint acc_collect (fuel : nat) (it : acc_iterator) : res (list Z) :=
  match fuel with
  | O => OutOfFuel
  | S f =>
      let! (o, it') := acc_next it in
      match o with
      | None => Ok []
      | Some a => let! r := acc_collect f it' in Ok (a :: r)
      end
  end.
