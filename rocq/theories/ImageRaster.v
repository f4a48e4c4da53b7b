(** Model of /repo/src/image_raster.rs: the rastering of an image, from the
    decoded grey image and the numbers of the configuration and the command line
    to the event stream.  Not modelled: option parsing, file and port set-up,
    printing (the real width and height are computed for printing only, but the
    integer arithmetic in it can panic and is kept). *)
From Coq Require Import ZArith List Bool.
From Verif Require Import Base Floats StepperContext ApproxCurve DrawCurves.
Import ListNotations.
Open Scope Z_scope.

(** image_raster.rs:44-49: from [x] up to the first matching pixel.  A row is the
    list of its pixels; its length is the width of the image. *)
Fixpoint scan_up {A} (filter : A -> bool) (row : list A) (fuel : nat) (x : nat) : res nat :=
  if (x <? length row)%nat then
    let! p := unwrap (nth_error row x) in
    if filter p then Ok x
    else match fuel with O => OutOfFuel | S f => scan_up filter row f (S x) end
  else Ok x.

(** image_raster.rs:55-60: from [x] down to the last matching pixel, at most to [start]. *)
Fixpoint scan_down {A} (filter : A -> bool) (row : list A) (start : nat) (fuel : nat) (x : nat) : res nat :=
  if (start <? x)%nat then
    let! p := unwrap (nth_error row x) in
    if filter p then Ok x
    else match fuel with O => OutOfFuel | S f => scan_down filter row start f (x - 1)%nat end
  else Ok x.

(** image_raster.rs:32-63 *)
Definition find_row_interval {A} (row : list A) (filter : A -> bool) : res (nat * nat) :=
  let! x := scan_up filter row (length row) 0 in
  if (x =? length row)%nat then Ok (0, 0)%nat
  else
    let start := x in
    let! x := scan_down filter row start (length row) (length row - 1) in
    let x := (x + 1)%nat in
    Ok (start, x - start)%nat.

(** The numbers that fix the scan: ticks per pixel, velocity along the row,
    lines per row, steps per line and the weight of black. *)
Record scan := mk_scan { res_x : Z; v_x : Z; res_y : Z; step_y : Z; black : Z }.

(** image_raster.rs:325-327: the weight of a pixel; u8 and i32 arithmetic. *)
Definition pixel_weight (p black : Z) : res Z :=
  let! k := chk 0 255 (255 - p) in
  let! w := chk_i32 (k * black) in
  Ok (Z.quot w 256).

(** image_raster.rs:308-316: the pixel under step [xn] of the scan. *)
Definition bitmap_x (ltr : bool) (start_x length_x xn : Z) : res Z :=
  if ltr then chk_u32 (start_x + xn)
  else
    let! a := chk_u32 (start_x + length_x) in
    let! a := chk_u32 (a - 1) in
    chk_u32 (a - xn).

(** image_raster.rs:324-337: the pixels from [xn] on, [n] of them left. *)
Fixpoint pixel_loop (sc : scan) (row : list Z) (ltr : bool) (start_x length_x start : Z)
    (n : nat) (xn : Z) (c : ctx) (prev : Z) : res ctx :=
  match n with
  | O => Ok c
  | S n =>
      let! x := bitmap_x ltr start_x length_x xn in
      let! p := unwrap (nth_error row (Z.to_nat x)) in
      let! w := pixel_weight p (black sc) in
      if w =? prev then pixel_loop sc row ltr start_x length_x start n (xn + 1) c prev
      else
        let! o := chk_u32 (xn * res_x sc) in
        let! when := chk_u64 (start + o) in
        let! t := ticks c in
        let! d := chk_u64 (when - t) in
        let! ivl := chk_u32 d in
        let! c := (if ivl =? 0 then Ok c else add_acc_interval c 0 0 ivl) in
        let! c := add_weight_change c w when in
        pixel_loop sc row ltr start_x length_x start n (xn + 1) c w
  end.

(** image_raster.rs:302-341: one line. *)
Definition raster_line (sc : scan) (row : list Z) (yn repeat_y : Z) (ltr : bool) (start_x length_x : Z)
    (c : ctx) : res ctx :=
  let! line_start := (if ltr then Ok start_x else chk_u32 (start_x + length_x)) in
  let! line_v := (if ltr then Ok (v_x sc) else chk_i32 (- v_x sc)) in
  let! x1 := chk_u32 (res_x sc * 2) in
  let! x2 := chk_u32 (x1 * as_u32 (v_x sc)) in
  let! x := chk_u32 (x2 * line_start) in
  let! y1 := chk_u32 (yn * res_y sc) in
  let! y2 := chk_u32 (y1 + repeat_y) in
  let! y := chk_i64 (y2 * step_y sc) in
  let! c := step_goto_speed c x y line_v 0 in
  let! start := ticks c in
  let! c := pixel_loop sc row ltr start_x length_x start (Z.to_nat length_x) 0 c 0 in
  let! o := chk_u32 (length_x * res_x sc) in
  let! when := chk_u64 (start + o) in
  let! t := ticks c in
  let! d := chk_u64 (when - t) in
  let! ivl := chk_u32 d in
  let! c := add_acc_interval c 0 0 ivl in
  add_weight_change c 0 when.

(** image_raster.rs:301-343: the lines of a row; [n] of them left. *)
Fixpoint repeat_loop (sc : scan) (row : list Z) (yn start_x length_x : Z) (n : nat) (repeat_y : Z)
    (ltr : bool) (c : ctx) : res (bool * ctx) :=
  match n with
  | O => Ok (ltr, c)
  | S n =>
      let! c := raster_line sc row yn repeat_y ltr start_x length_x c in
      repeat_loop sc row yn start_x length_x n (repeat_y + 1) (negb ltr) c
  end.

(** image_raster.rs:297-345 *)
Fixpoint rows_loop (sc : scan) (rows : list (list Z)) (yn : Z) (ltr : bool) (c : ctx) : res ctx :=
  match rows with
  | [] => Ok c
  | row :: rest =>
      let! (start_x, length_x) := find_row_interval row (fun p => p <? 255) in
      let! (ltr, c) :=
        (if (0 <? length_x)%nat
         then repeat_loop sc row yn (Z.of_nat start_x) (Z.of_nat length_x) (Z.to_nat (res_y sc)) 0 ltr c
         else Ok (ltr, c)) in
      rows_loop sc rest (yn + 1) ltr c
  end.

(** image_raster.rs:296-347 *)
Definition raster (sc : scan) (rows : list (list Z)) (c : ctx) : res ctx :=
  let! c := rows_loop sc rows 0 true c in
  step_goto c 0 0.

(** ** Set-up *)
Definition f_as_u32 := f_as 0 u32_max.

Record stepper := mk_stepper { steps_per_mm : f64; max_velocity : f64; max_acc : f64 }.
(** stepper_config.rs:21-26 without the laser; [ticks_per_second] is u32. *)
Record config_ := mk_config { tps : Z; stepper_x : stepper; stepper_y : stepper }.

(** image_raster.rs:120-156: the limits; [v_opt] and [a_opt] are the options. *)
Definition limits (cf : config_) (v_opt a_opt : option f64) : res (Z * Z * Z * Z) :=
  let! two := chk_u32 (2 * tps cf) in
  let vx_scale := fdiv (steps_per_mm (stepper_x cf)) (f_of_Z two) in
  let vy_scale := fdiv (steps_per_mm (stepper_y cf)) (f_of_Z two) in
  let '(vx_max, vy_max) :=
    match v_opt with
    | None => (f_as_i32 (fround (fmul (fabs vx_scale) (max_velocity (stepper_x cf)))),
               f_as_i32 (fround (fmul (fabs vy_scale) (max_velocity (stepper_y cf)))))
    | Some v => (f_as_i32 (fmul (fabs vx_scale) v), f_as_i32 (fmul (fabs vy_scale) v))
    end in
  let ax_scale := fdiv vx_scale (f_of_Z (tps cf)) in
  let ay_scale := fdiv vx_scale (f_of_Z (tps cf)) in
  let '(ax_max, ay_max) :=
    match a_opt with
    | None => (f_as_i32 (fround (fmul (fabs ax_scale) (max_acc (stepper_x cf)))),
               f_as_i32 (fround (fmul (fabs ay_scale) (max_acc (stepper_y cf)))))
    | Some a => (f_as_i32 (fabs (fmul a ax_scale)), f_as_i32 (fabs (fmul a ay_scale)))
    end in
  Ok (ax_max, ay_max, vx_max, vy_max).

(** image_raster.rs:169-183: [intensity] in percent, i32. *)
Definition black_weight (intensity : Z) : Z := Z.quot (intensity * 254) 100.

(** image_raster.rs:237-246 *)
Definition size_mm (x_pixels y_pixels : Z) (w h : option f64) : f64 * f64 :=
  let fx := f_of_Z x_pixels in
  let fy := f_of_Z y_pixels in
  match w, h with
  | Some w, Some h => (w, h)
  | Some w, None => (w, fdiv (fmul w fy) fx)
  | None, Some h => (fdiv (fmul h fx) fy, h)
  | None, None => (f_of_Z 20, fdiv (fmul (f_of_Z 20) fy) fx)
  end.

(** image_raster.rs:277-292 *)
Definition scan_of (cf : config_) (x_pixels y_pixels : Z) (width_mm height_mm v_draw spot_diam : f64)
    (black : Z) : res scan :=
  let sx := steps_per_mm (stepper_x cf) in
  let sy := steps_per_mm (stepper_y cf) in
  let width := fmul width_mm sx in
  let res_x := f_as_u32 (fround (fdiv (fmul width (f_of_Z (tps cf)))
                 (fmul (f_of_Z x_pixels) (fmul v_draw sx)))) in
  let res_x := Z.max 1 res_x in
  let! interval := chk_u32 (x_pixels * res_x) in
  let! two_i := chk_u32 (2 * interval) in
  let v_x := f_as_i32 (fround (fdiv width (f_of_Z two_i))) in
  let res_y := f_as_u32 (fround (fdiv height_mm (fmul (f_of_Z y_pixels) spot_diam))) in
  let! ry := chk_u32 (res_y * y_pixels) in
  let step_y := f_as_i64 (fround (fdiv (fmul height_mm sy) (f_of_Z ry))) in
  let! w1 := chk_u32 (as_u32 v_x * 2) in
  let! _ := chk_u32 (w1 * interval) in
  let! h1 := chk_i64 (res_y * step_y) in
  let! _ := chk_i64 (h1 * y_pixels) in
  Ok (mk_scan res_x v_x res_y step_y black).

(** image_raster.rs:120-347: the program from the parsed options and the decoded
    image to the events; [rows] are [y_pixels] rows of [x_pixels] pixels. *)
Definition image_main (cf : config_) (v_opt a_opt : option f64) (v_draw : f64) (intensity : Z)
    (w h : option f64) (spot_diam : f64) (x_pixels y_pixels : Z) (rows : list (list Z)) : res ctx :=
  let! (ax_max, ay_max, vx_max, vy_max) := limits cf v_opt a_opt in
  let weight := black_weight intensity in
  let '(width_mm, height_mm) := size_mm x_pixels y_pixels w h in
  let c := set_weight (new_ctx ax_max ay_max vx_max vy_max) weight in
  let! sc := scan_of cf x_pixels y_pixels width_mm height_mm v_draw spot_diam weight in
  raster sc rows c.
