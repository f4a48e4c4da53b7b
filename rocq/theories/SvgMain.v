(** Model of main in /repo/src/svg_path.rs from the parsed options and the curve
    segments of the document to the event stream.  Not modelled: option and
    configuration parsing, file and port set-up, printing (the division in the
    printed time can panic and is kept).  The segments are any list: those of
    SvgDocument.v are over the reals. *)
From Coq Require Import ZArith List Bool.
From Verif Require Import Base Floats StepperContext ApproxCurve DrawCurves ImageRaster.
Import ListNotations.
Open Scope Z_scope.

(** svg_path.rs:106-142: the limits; [v_opt] and [a_opt] are the options. *)
Definition svg_limits (cf : config_) (v_opt a_opt : option f64) : res (Z * Z * Z * Z) :=
  let! two := chk_u32 (2 * tps cf) in
  let vx_scale := fdiv (steps_per_mm (stepper_x cf)) (f_of_Z two) in
  let vy_scale := fdiv (steps_per_mm (stepper_y cf)) (f_of_Z two) in
  let '(vx_max, vy_max) :=
    match v_opt with
    | None => (f_as_i32 (fround (fmul (fabs vx_scale) (max_velocity (stepper_x cf)))),
               f_as_i32 (fround (fmul (fabs vy_scale) (max_velocity (stepper_y cf)))))
    | Some v => (f_as_i32 (fmul (fabs vx_scale) v), f_as_i32 (fmul (fabs vy_scale) v))
    end in
  let ax_scale := fdiv vx_scale (f_of_Z (tps cf)) in
  let ay_scale := fdiv vy_scale (f_of_Z (tps cf)) in
  let '(ax_max, ay_max) :=
    match a_opt with
    | None => (f_as_i32 (fround (fabs (fmul ax_scale (max_acc (stepper_x cf))))),
               f_as_i32 (fround (fabs (fmul ay_scale (max_acc (stepper_y cf))))))
    | Some a => (f_as_i32 (fabs (fmul a ax_scale)), f_as_i32 (fabs (fmul a ay_scale)))
    end in
  Ok (ax_max, ay_max, vx_max, vy_max).

(** svg_path.rs:170-184; [intensity] in percent, i32. *)
Definition svg_weight (intensity : Z) : Z := Z.quot (intensity * 254) 100.

(** svg_path.rs:268-278: [n] passes left; only the errors of the last are kept. *)
Fixpoint repeat_draw (g : geometry) (s : scales) (segs : list segment) (v : f64) (n : nat)
    (c : ctx) (err : Z * Z) : res (ctx * (Z * Z)) :=
  match n with
  | O => Ok (c, err)
  | S n => let! (c, err) := draw_curves g s c segs v in repeat_draw g s segs v n c err
  end.

(** svg_path.rs:206-291 *)
Definition svg_main (g : geometry) (cf : config_) (v_opt a_opt : option f64) (v_draw : f64)
    (n_repeat intensity : Z) (segs : list segment) : res (ctx * (Z * Z)) :=
  let! (ax_max, ay_max, vx_max, vy_max) := svg_limits cf v_opt a_opt in
  let s := mk_scales (steps_per_mm (stepper_x cf)) (steps_per_mm (stepper_y cf)) in
  let c := set_weight (new_ctx ax_max ay_max vx_max vy_max) (svg_weight intensity) in
  let! (c, err) := repeat_draw g s segs (fdiv v_draw (f_of_Z (tps cf))) (Z.to_nat n_repeat) c (0, 0) in
  let! c := step_goto c 0 0 in
  let! t := ticks c in
  let! _ := assert (negb (tps cf =? 0)) in
  let! c := flush c in
  Ok (c, err).
