(** Model of /repo/src/curves/linear_curve.rs over the real numbers. *)
From Coq Require Import Reals List.
From Verif Require Import Base.
Import ListNotations.
Open Scope R_scope.

(** linear_curve.rs:5-18 trait CurveApprox: [split_length start end], giving the
    split point and the lengths of the two parts, if known. *)
Definition splitter := R -> R -> R * option R * option R.

(** linear_curve.rs:20-30 CurveNode: without and with children. *)
Inductive node :=
| Leaf (t_start t_end length : R)
| Fork (t_start t_end length : R) (low high : node).

Definition t_start (n : node) : R := match n with Leaf s _ _ => s | Fork s _ _ _ _ => s end.
Definition t_end (n : node) : R := match n with Leaf _ e _ => e | Fork _ e _ _ _ => e end.
Definition nlength (n : node) : R := match n with Leaf _ _ l => l | Fork _ _ l _ _ => l end.

(** unwrap_or(0.0) *)
Definition or_zero (l : option R) : R := match l with Some l => l | None => 0 end.

(** linear_curve.rs:71-87 node_length: the length, and the node as left behind. *)
Fixpoint node_length (fuel : nat) (curve : splitter) (n : node) : res (R * node) :=
  match fuel with
  | O => OutOfFuel
  | S fuel =>
      let '(low_length, high_length, low, high) :=
        match n with
        | Leaf s e _ =>
            let '(split, low_len, high_len) := curve s e in
            (low_len, high_len, Leaf s split (or_zero low_len), Leaf split e (or_zero high_len))
        | Fork _ _ _ low high => (Some (nlength low), Some (nlength high), low, high)
        end in
      let! (l, low) := match low_length with Some l => Ok (l, low) | None => node_length fuel curve low end in
      let! (h, high) := match high_length with Some h => Ok (h, high) | None => node_length fuel curve high end in
      Ok (l + h, Fork (t_start n) (t_end n) (l + h) low high)
  end.

(** linear_curve.rs:96-109: the children of a node, made if there are none. *)
Definition node_children (fuel : nat) (curve : splitter) (n : node) : res (node * node) :=
  match n with
  | Leaf s e _ =>
      let '(split, low_len, high_len) := curve s e in
      let low := Leaf s split (or_zero low_len) in
      let high := Leaf split e (or_zero high_len) in
      let! low := match low_len with
                  | None => let! (_, low) := node_length fuel curve low in Ok low
                  | Some _ => Ok low
                  end in
      let! high := match high_len with
                   | None => let! (_, high) := node_length fuel curve high in Ok high
                   | Some _ => Ok high
                   end in
      Ok (low, high)
  | Fork _ _ _ low high => Ok (low, high)
  end.

(** linear_curve.rs:89-122 node_pos *)
Fixpoint node_pos (fuel : nat) (curve : splitter) (n : node) (rel_pos error : R) : res (R * node) :=
  match fuel with
  | O => OutOfFuel
  | S fuel =>
      if Rle_dec rel_pos error then Ok (t_start n, n)
      else if Rle_dec (nlength n - rel_pos) error then Ok (t_end n, n)
      else
        let! (low, high) := node_children fuel curve n in
        if Rlt_dec rel_pos (nlength low) then
          let! (t, low) := node_pos fuel curve low rel_pos error in
          Ok (t, Fork (t_start n) (t_end n) (nlength n) low high)
        else
          let! (t, high) := node_pos fuel curve high (rel_pos - nlength low) error in
          Ok (t, Fork (t_start n) (t_end n) (nlength n) low high)
  end.

(** linear_curve.rs:125-137 LinearCurve::new; the curve itself is passed along. *)
Definition linear_new (fuel : nat) (curve : splitter) (start end_ : R) : res node :=
  let! (_, n) := node_length fuel curve (Leaf start end_ 0) in
  Ok n.

(** linear_curve.rs:140-142 length *)
Definition linear_length (n : node) : R := nlength n.

(** linear_curve.rs:149 *)
Definition position_error : R := 1 / 100000.

(** linear_curve.rs:148-150 position *)
Definition linear_position (fuel : nat) (curve : splitter) (n : node) (pos : R) : res (R * node) :=
  node_pos fuel curve n pos position_error.
