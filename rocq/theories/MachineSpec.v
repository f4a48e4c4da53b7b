(** Independent specification of the controller: a machine with two channels
    and a laser that executes an event stream one tick at a time. *)
From Coq Require Import ZArith List.
From Verif Require Import StepperContext.
Import ListNotations.
Open Scope Z_scope.

Record axis_state := mk_axis { s_pos : Z; s_v : Z; s_acc : Z }.
Record machine := mk_machine { m_x : axis_state; m_y : axis_state; m_weight : Z }.

(** One tick of one channel: accelerate, and move by velocity before + velocity
    after (the unit of position is half of what one unit of velocity covers). *)
Definition axis_tick (s : axis_state) : axis_state :=
  mk_axis (s_pos s + s_v s + (s_v s + s_acc s)) (s_v s + s_acc s) (s_acc s).

Definition machine_tick (m : machine) : machine :=
  mk_machine (axis_tick (m_x m)) (axis_tick (m_y m)) (m_weight m).

Fixpoint wait (n : nat) (m : machine) : machine :=
  match n with
  | O => m
  | S n' => wait n' (machine_tick m)
  end.

Definition apply_cmd (cmd : command) (m : machine) : machine :=
  match cmd with
  | Weight w => mk_machine (m_x m) (m_y m) w
  | Acc ch a =>
      if ch =? 0 then mk_machine (mk_axis (s_pos (m_x m)) (s_v (m_x m)) a) (m_y m) (m_weight m)
      else if ch =? 1 then mk_machine (m_x m) (mk_axis (s_pos (m_y m)) (s_v (m_y m)) a) (m_weight m)
      else m
  end.

(** The machine after exactly [t] ticks of the stream, including the commands
    that are due at time [t]. *)
Fixpoint play (evs : list event) (t : Z) (m : machine) : machine :=
  match evs with
  | [] => wait (Z.to_nat t) m
  | e :: rest =>
      if e_ticks e <=? t
      then play rest (t - e_ticks e) (apply_cmd (e_cmd e) (wait (Z.to_nat (e_ticks e)) m))
      else wait (Z.to_nat t) m
  end.

Definition machine_axis (m : machine) (i : axis) : axis_state :=
  match i with AX => m_x m | AY => m_y m end.

(** At the origin, at rest, with some weight set. *)
Definition machine0 (w : Z) : machine := mk_machine (mk_axis 0 0 0) (mk_axis 0 0 0) w.

(** Time of the last event. *)
Fixpoint total (evs : list event) : Z :=
  match evs with
  | [] => 0
  | e :: rest => e_ticks e + total rest
  end.
