(** Model of the floating point part of /repo/src/stepper_context.rs that follows
    one curve.  f64 is IEEE binary64 (Floats.v); integers are checked. *)
From Coq Require Import ZArith List Bool.
From Verif Require Import Base Floats AccVector IntegerCurve StepperContext.
Import ListNotations.
Open Scope Z_scope.

(** coords.rs:4-8 and 94-103, Vector and its index by channel. *)
Record fvec := mk_fvec { fx : f64; fy : f64 }.
Definition fidx (v : fvec) (i : axis) : f64 := match i with AX => fx v | AY => fy v end.

(** curve_approx.rs:3-18, CurveInfo: any length and any function of the position,
    which may also panic. *)
Record fcurve := mk_fcurve { fc_length : f64; fc_value : f64 -> res (fvec * fvec) }.

(** stepper_context.rs:88-92, step_scale and v_scale = step_scale / 2.0. *)
Record scales := mk_scales { sc_x : f64; sc_y : f64 }.
Definition step_scale (s : scales) (i : axis) : f64 := match i with AX => sc_x s | AY => sc_y s end.
Definition v_scale (s : scales) (i : axis) : f64 := fdiv (step_scale s i) (f_of_Z 2).

(** stepper_context.rs:129-140, [limit] on f64. *)
Definition flimit (a min max : f64) : f64 :=
  if fgt a max then max else if flt a min then min else a.

(** stepper_context.rs:142-149, [acc_max]. *)
Definition acc_max (acc b : Z) : Z := if acc <? b then b else acc.

(** stepper_context.rs:285-292, [to_steps].  i64::MAX as f64 is 2^63. *)
Definition to_steps (s : scales) (coord : f64) (i : axis) : res Z :=
  let x := fround (fmul coord (step_scale s i)) in
  let! _ := assert (flt x (f_of_Z i64_max) && fgt x (f_of_Z i64_min)) in
  Ok (f_as_i64 x).

(** stepper_context.rs:294-301, [to_step_v]. *)
Definition to_step_v (s : scales) (v : f64) (i : axis) : res Z :=
  let x := fround (fmul v (v_scale s i)) in
  let! _ := assert (flt x (f_of_Z i32_max) && fgt x (f_of_Z i32_min)) in
  Ok (f_as_i32 x).

(** stepper_context.rs:303-305, [coord_from_steps]. *)
Definition coord_from_steps (s : scales) (steps : Z) (i : axis) : f64 :=
  fdiv (f_of_Z steps) (step_scale s i).

(** stepper_context.rs:359-366, [goto_speed]. *)
Definition goto_speed (s : scales) (c : ctx) (x y vx vy : f64) : res ctx :=
  let! ix := to_steps s x AX in
  let! iy := to_steps s y AY in
  let! ivx := to_step_v s vx AX in
  let! ivy := to_step_v s vy AY in
  step_goto_speed c ix iy ivx ivy.

(** stepper_context.rs:368-370, [goto]. *)
Definition goto (s : scales) (c : ctx) (x y : f64) : res ctx :=
  let! ix := to_steps s x AX in
  let! iy := to_steps s y AY in
  step_goto_speed c ix iy 0 0.

(** stepper_context.rs:372-373, [speed]. *)
Definition speed (s : scales) (c : ctx) (vx vy : f64) : res ctx :=
  let! ivx := to_step_v s vx AX in
  let! ivy := to_step_v s vy AY in
  step_speed c ivx ivy.

Definition half : f64 := lit 1 2.
Definition tenth : f64 := lit 1 10.
Definition fzero : f64 := f_of_Z 0.
Definition fone : f64 := f_of_Z 1.

(** stepper_context.rs:425-443, the wanted acceleration of one channel and the
    new accumulated position error; [sum] is pos + 2 * v. *)
Definition wanted (a_max : f64) (sum v : Z) (step_pos step_v err : f64) : f64 * Z :=
  let a_pos := flimit (fdiv (fsub step_pos (f_of_Z sum)) (f_of_Z 2)) (fneg a_max) a_max in
  let err1 := fadd err (fmul a_pos tenth) in
  let err2 :=
    if (fgt err1 fzero && flt a_pos fzero) || (flt err1 fzero && fgt a_pos fzero)
    then fzero else err1 in
  let a_v := flimit (fsub step_v (f_of_Z v)) (fneg a_max) a_max in
  (err2, f_as_i16 (fround (fadd (fmul a_v (fsub fone half)) (fmul (fadd a_pos err2) half)))).

(** stepper_context.rs:445-450, "Limit speed". *)
Definition limit_speed (v v_max acc : Z) : res Z :=
  let! low := (if acc <? 0 then
                 let! s := chk_i32 (v + acc) in
                 let! n := chk_i32 (- v_max) in Ok (s <? n)
               else Ok false) in
  if low then
    let! n := chk_i32 (- v_max) in
    let! d := chk_i32 (n - v) in Ok (as_i16 d)
  else
    let! high := (if acc >? 0 then let! s := chk_i32 (v + acc) in Ok (s >? v_max) else Ok false) in
    if high then let! d := chk_i32 (v_max - v) in Ok (as_i16 d)
    else Ok acc.

(** stepper_context.rs:420-451, one channel of one tick: the new error
    accumulator, the acceleration and the wanted position. *)
Definition approx_one (s : scales) (start : fvec) (v : f64) (c : ctx) (i : axis)
    (pos dir : fvec) (err : f64) : res (f64 * Z * Z) :=
  let ch := channel c i in
  let step_v := fmul (fmul (fidx dir i) v) (v_scale s i) in
  let step_pos := fmul (fadd (fidx pos i) (fidx start i)) (step_scale s i) in
  let! v2 := chk_i64 (2 * c_v ch) in
  let! sum := chk_i64 (c_pos ch + v2) in
  let '(err', acc) := wanted (f_of_Z (a_max c i)) sum (c_v ch) step_pos step_v err in
  let! acc := limit_speed (c_v ch) (v_max c i) acc in
  Ok (err', acc, f_as_i64 step_pos).

(** stepper_context.rs:454-461, (pos - step_pos_int).abs(). *)
Definition pos_error (c : ctx) (i : axis) (target : Z) : res Z :=
  let! d := chk_i64 (c_pos (channel c i) - target) in
  chk_i64 (Z.abs d).

(** stepper_context.rs:411-463, the loop over the ticks [t], [n] of them left. *)
Fixpoint approx_loop (n : nat) (t : Z) (s : scales) (start : fvec) (curve : fcurve)
    (v step_len : f64) (c : ctx) (ex ey : f64) (mx my : Z) : res (ctx * (Z * Z)) :=
  match n with
  | O => Ok (c, (mx, my))
  | S n' =>
      let! (pos, dir) := fc_value curve (fmul (f_of_Z t) step_len) in
      let! (ex, acc_x, tx) := approx_one s start v c AX pos dir ex in
      let! (ey, acc_y, ty) := approx_one s start v c AY pos dir ey in
      let! c := add_acc_interval c acc_x acc_y 1 in
      let! dx := pos_error c AX tx in
      let! dy := pos_error c AY ty in
      approx_loop n' (t + 1) s start curve v step_len c ex ey (acc_max mx dx) (acc_max my dy)
  end.

(** stepper_context.rs:400-403: the number of ticks. *)
Definition curve_ticks (curve : fcurve) (v : f64) : Z :=
  f_as_i32 (fround (fdiv (fc_length curve) v)).

(** stepper_context.rs:400-464, [approx_curve]: the context and max_err. *)
Definition approx_curve (s : scales) (c : ctx) (start : fvec) (curve : fcurve) (v : f64)
  : res (ctx * (Z * Z)) :=
  let steps := fround (fdiv (fc_length curve) v) in
  let step_len := fdiv (fc_length curve) steps in
  approx_loop (Z.to_nat (f_as_i32 steps)) 1 s start curve v step_len c fzero fzero 0 0.
