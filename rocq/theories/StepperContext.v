(** Model of /repo/src/stepper_context.rs, the integer part: the motion state,
    the emitted events and the operations on them.

    Machine arithmetic is checked: an overflow is [Panic], as in a build with
    overflow checks; casts written [as] wrap.  [step_scale], [v_scale] and
    [min_cos_connect] never change after [new]; they only concern the floating
    point operations and are parameters there (ApproxCurve.v). *)
From Coq Require Import ZArith List Bool Lia.
From Verif Require Import Base AccVector IntegerCurve.
Import ListNotations.
Open Scope Z_scope.

(** stepper_context.rs:50-54, Command. *)
Inductive command :=
| Acc (channel acc : Z)
| Weight (w : Z).

(** stepper_context.rs:56-60, StepperEvent. *)
Record event := mk_event { e_ticks : Z; e_cmd : command }.

(** stepper_context.rs:62-64, the two channels and their indices. *)
Inductive axis := AX | AY.
Definition axis_index (i : axis) : Z := match i with AX => 0 | AY => 1 end.

(** stepper_context.rs:66-72, ChannelContext. *)
Record chan := mk_chan { c_pos : Z; c_v : Z; c_ticks : Z }.

(** stepper_context.rs:74-99, StepperContext.  Arrays of length two are pairs
    of fields. *)
Record ctx := mk_ctx {
  chan_x : chan; chan_y : chan;
  a_max_x : Z; a_max_y : Z;
  v_max_x : Z; v_max_y : Z;
  events : list event;
  event_ticks : Z;
  move_weight : Z;
  curve_weight : Z
}.

Definition channel (c : ctx) (i : axis) : chan :=
  match i with AX => chan_x c | AY => chan_y c end.
Definition a_max (c : ctx) (i : axis) : Z := match i with AX => a_max_x c | AY => a_max_y c end.
Definition v_max (c : ctx) (i : axis) : Z := match i with AX => v_max_x c | AY => v_max_y c end.

Definition set_channel (c : ctx) (i : axis) (ch : chan) : ctx :=
  match i with
  | AX => mk_ctx ch (chan_y c) (a_max_x c) (a_max_y c) (v_max_x c) (v_max_y c)
            (events c) (event_ticks c) (move_weight c) (curve_weight c)
  | AY => mk_ctx (chan_x c) ch (a_max_x c) (a_max_y c) (v_max_x c) (v_max_y c)
            (events c) (event_ticks c) (move_weight c) (curve_weight c)
  end.

Definition set_events (c : ctx) (evs : list event) (t : Z) : ctx :=
  mk_ctx (chan_x c) (chan_y c) (a_max_x c) (a_max_y c) (v_max_x c) (v_max_y c)
    evs t (move_weight c) (curve_weight c).

Definition ticks_of (c : ctx) (i : axis) : Z := c_ticks (channel c i).

(** stepper_context.rs:162-187, [new]. *)
Definition new_ctx (ax ay vx vy : Z) : ctx :=
  mk_ctx (mk_chan 0 0 0) (mk_chan 0 0 0) ax ay vx vy [] 0 0 255.

(** The event emission written out at each site:
    [events.push(StepperEvent { ticks: (t - event_ticks) as u32, cmd })] followed
    by [event_ticks = t]; t - event_ticks is u64 arithmetic. *)
Definition push_event (c : ctx) (t : Z) (cmd : command) : res ctx :=
  let! d := chk_u64 (t - event_ticks c) in
  Ok (set_events c (events c ++ [mk_event (as_u32 d) cmd]) t).

(** stepper_context.rs:192-207, the loop body of [add_acc_interval]. *)
Definition add_acc_one (c : ctx) (i : axis) (acc interval : Z) : res ctx :=
  let ch := channel c i in
  let! c1 := push_event c (c_ticks ch) (Acc (axis_index i) acc) in
  let! p1 := chk_i64 (2 * interval) in
  let! p2 := chk_i64 (p1 * c_v ch) in
  let! q1 := chk_i64 (interval * interval) in
  let! q2 := chk_i64 (q1 * acc) in
  let! pq := chk_i64 (p2 + q2) in
  let! pos := chk_i64 (c_pos ch + pq) in
  let! dv := chk_i32 (as_i32 interval * acc) in
  let! v := chk_i32 (c_v ch + dv) in
  let! t := chk_u64 (c_ticks ch + interval) in
  Ok (set_channel c1 i (mk_chan pos v t)).

(** stepper_context.rs:189-209, [add_acc_interval]. *)
Definition add_acc_interval (c : ctx) (acc_x acc_y interval : Z) : res ctx :=
  let! _ := assert (interval >=? 1) in
  let! c := add_acc_one c AX acc_x interval in
  let! c := add_acc_one c AY acc_y interval in
  let! _ := assert (ticks_of c AX =? ticks_of c AY) in
  Ok c.

(** stepper_context.rs:211-219, [add_weight_change]. *)
Definition add_weight_change (c : ctx) (weight when : Z) : res ctx :=
  let! _ := assert (when >=? ticks_of c AX) in
  let! _ := assert (when >=? ticks_of c AY) in
  push_event c when (Weight weight).

(** stepper_context.rs:227-234, the choice of the next channel: the one with
    segments left and the fewest ticks, the first of them on a tie. *)
Definition next_channel (c : ctx) (px py : list seg) : option axis :=
  let some (l : list seg) := match l with [] => false | _ => true end in
  let '(min, i) :=
    if (ticks_of c AX <? u64_max) && some px then (ticks_of c AX, Some AX)
    else (u64_max, None) in
  if (ticks_of c AY <? min) && some py then Some AY else i.

(** stepper_context.rs:235-244, one segment of one channel. *)
Definition emit_seg (c : ctx) (i : axis) (s : seg) : res ctx :=
  let ch := channel c i in
  let! _ := assert (c_ticks ch >=? event_ticks c) in
  let! c1 := push_event c (c_ticks ch) (Acc (axis_index i) (snd s)) in
  let! t := chk_u64 (c_ticks ch + fst s) in
  Ok (set_channel c1 i (mk_chan (c_pos ch) (c_v ch) t)).

(** stepper_context.rs:221-249, [acc_segs_to_events]. *)
Fixpoint segs_loop (fuel : nat) (c : ctx) (px py : list seg) : res ctx :=
  match next_channel c px py with
  | None => Ok c
  | Some i =>
      match fuel with
      | O => OutOfFuel
      | S f =>
          match i, px, py with
          | AX, s :: px', _ => let! c := emit_seg c AX s in segs_loop f c px' py
          | AY, _, s :: py' => let! c := emit_seg c AY s in segs_loop f c px py'
          | _, _, _ => Ok c
          end
      end
  end.
Definition acc_segs_to_events (c : ctx) (px py : list seg) : res ctx :=
  segs_loop (length px + length py) c px py.

(** stepper_context.rs:337-342, one pass of the loop: position and velocity
    check of one channel. *)
Definition goto_one (c : ctx) (i : axis) (s : list seg) (v_end : Z) : res ctx :=
  let ch := channel c i in
  let! (d, v) := acc_distance s (c_v ch) in
  let! pos := chk_i64 (c_pos ch + d) in
  let! _ := assert (v =? v_end) in
  Ok (set_channel c i (mk_chan pos (c_v ch) (c_ticks ch))).

Definition set_v (c : ctx) (i : axis) (v : Z) : ctx :=
  set_channel c i (mk_chan (c_pos (channel c i)) v (c_ticks (channel c i))).

(** stepper_context.rs:310-347, [step_goto_speed].  The planner is a parameter;
    the code uses [shortest_curve_sequences]. *)
Definition step_goto_speed_with (plan : list path_limits -> res (list (list seg)))
    (c : ctx) (x y vx vy : Z) : res ctx :=
  let! _ := assert (v_max c AX >=? vx) in
  let! _ := assert (v_max c AY >=? vy) in
  let! c := push_event c (ticks_of c AX) (Weight (move_weight c)) in
  let! dx := chk_i64 (x - c_pos (channel c AX)) in
  let! dy := chk_i64 (y - c_pos (channel c AY)) in
  let! seqs := plan [mk_limits dx (c_v (channel c AX)) vx (a_max c AX) (v_max c AX);
                     mk_limits dy (c_v (channel c AY)) vy (a_max c AY) (v_max c AY)] in
  match seqs with
  | sx :: sy :: _ =>
      let! c := goto_one c AX sx vx in
      let! c := goto_one c AY sy vy in
      let c := set_v (set_v c AX vx) AY vy in
      let! c := acc_segs_to_events c sx sy in
      let! _ := assert (ticks_of c AX =? ticks_of c AY) in
      Ok c
  | _ => Panic
  end.

Definition step_goto_speed := step_goto_speed_with shortest_curve_sequences.

(** stepper_context.rs:355-357, [step_goto]. *)
Definition step_goto (c : ctx) (x y : Z) : res ctx := step_goto_speed c x y 0 0.

(** i32 [div_rem]: panics on zero, and on overflow. *)
Definition div_rem_i32 (a b : Z) : res (Z * Z) :=
  let! _ := assert (negb (b =? 0)) in
  let! q := chk_i32 (Z.quot a b) in
  Ok (q, Z.rem a b).

(** stepper_context.rs:375-396, one channel of [speed]; [v] is the target after
    [to_step_v].  All arithmetic is i32 except the final addition. *)
Definition speed_one (c : ctx) (i : axis) (v : Z) : res (ctx * list seg) :=
  let ch := channel c i in
  let! dv := chk_i32 (v - c_v ch) in
  let! (t, dt) := div_rem_i32 dv (a_max c i) in
  let! a := (if v >=? c_v ch then Ok (a_max c i) else chk_i32 (- a_max c i)) in
  let seg1 := (as_u16 (Z.abs t), as_i16 a) in
  let! v2 := chk_i32 (2 * c_v ch) in
  let! at_ := chk_i32 (a_max c i * t) in
  let! s1 := chk_i32 (v2 + at_) in
  let! ta := chk_i32 (Z.abs t) in
  let! s2 := chk_i32 (s1 * ta) in
  let! pos := chk_i64 (c_pos ch + s2) in
  if negb (dt =? 0) then
    let! w1 := chk_i32 (c_v ch + at_) in
    let! w2 := chk_i32 (w1 + v) in
    let! pos := chk_i64 (pos + w2) in
    Ok (set_channel c i (mk_chan pos v (c_ticks ch)), [seg1; (1, as_i16 dt)])
  else Ok (set_channel c i (mk_chan pos v (c_ticks ch)), [seg1]).

(** stepper_context.rs:372-398, [speed] after the conversion of its arguments. *)
Definition step_speed (c : ctx) (vx vy : Z) : res ctx :=
  let! (c, px) := speed_one c AX vx in
  let! (c, py) := speed_one c AY vy in
  acc_segs_to_events c px py.

(** stepper_context.rs:466-468, [set_weight]. *)
Definition set_weight (c : ctx) (w : Z) : ctx :=
  mk_ctx (chan_x c) (chan_y c) (a_max_x c) (a_max_y c) (v_max_x c) (v_max_y c)
    (events c) (event_ticks c) (move_weight c) w.

(** stepper_context.rs:567-578, [position], [velocity] and [ticks]. *)
Definition position (c : ctx) : Z * Z := (c_pos (chan_x c), c_pos (chan_y c)).
Definition velocity (c : ctx) : Z * Z := (c_v (chan_x c), c_v (chan_y c)).
Definition ticks (c : ctx) : res Z :=
  let! _ := assert (ticks_of c AX =? ticks_of c AY) in Ok (ticks_of c AX).

(** stepper_context.rs:580-597, [events] (named [flush] here). *)
Definition flush (c : ctx) : res ctx :=
  let! _ := assert (ticks_of c AX =? ticks_of c AY) in
  let! c := push_event c (ticks_of c AX) (Weight (move_weight c)) in
  let! c := push_event c (ticks_of c AX) (Acc 0 0) in
  push_event c (ticks_of c AY) (Acc 1 0).

(** stepper_context.rs:599-609, [reset]. *)
Definition reset (c : ctx) : ctx :=
  mk_ctx (mk_chan 0 0 0) (mk_chan 0 0 0) (a_max_x c) (a_max_y c) (v_max_x c) (v_max_y c)
    [] 0 (move_weight c) (curve_weight c).

(** Histories of calls. *)
Inductive op :=
| AddAcc (acc_x acc_y interval : Z)
| AddWeight (w when : Z)
| GotoSpeed (x y vx vy : Z)
| Speed (vx vy : Z)
| SetWeight (w : Z)
| Flush
| Reset.

Definition exec_op (plan : list path_limits -> res (list (list seg))) (c : ctx) (o : op) : res ctx :=
  match o with
  | AddAcc ax ay n => add_acc_interval c ax ay n
  | AddWeight w t => add_weight_change c w t
  | GotoSpeed x y vx vy => step_goto_speed_with plan c x y vx vy
  | Speed vx vy => step_speed c vx vy
  | SetWeight w => Ok (set_weight c w)
  | Flush => flush c
  | Reset => Ok (reset c)
  end.

Fixpoint exec (plan : list path_limits -> res (list (list seg))) (c : ctx) (ops : list op) : res ctx :=
  match ops with
  | [] => Ok c
  | o :: rest => let! c := exec_op plan c o in exec plan c rest
  end.
