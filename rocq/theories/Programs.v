(** Model of the main functions of /repo/src/svg_path.rs and /repo/src/image_raster.rs as a whole:
    from the options to the serial line.

    The input is what getopts makes of the command line: for every option that takes a value the
    text given, if any, and the free arguments.  A command line getopts does not understand panics
    before anything else and is not in the model.  Files and devices are found in a [world].
    Printed text is left out. *)
From Coq Require Import ZArith List Bool NArith Ascii String.
From Flocq Require Import BinarySingleNaN.
From Verif Require Import Base Chars Floats StepperContext StepperControl ApproxCurve DrawCurves PathLex FloatPath FloatLex
  SvgDocument ImageRaster SvgMain Config FloatDocument.
Import ListNotations.
Open Scope Z_scope.

(** What the names lead to: the value of a JSON file (None: not readable, or not JSON), the events
    of an XML file and a device (None: cannot be opened or set up), and the size and the rows of an
    8 bit image (None: cannot be opened, or is no image). *)
Record world := mk_world {
  w_json : list char -> option json;
  w_xml : list char -> option (list xml_event);
  w_image : list char -> option (Z * Z * list (list Z));
  w_device : list char -> option port }.

(** How main ends, if it ends: with a message instead of the work, or after the work. *)
Inductive finish := Message | Finished.

(** ** Numbers *)

(** f64::from_str: the words for infinity and NaN, in any case, or a decimal (FloatLex.v). *)
Definition lower (c : char) : char := if (N.leb 65 c && N.leb c 90)%bool then N.add c 32 else c.
Definition word (s : list char) : option bool :=
  let s := map lower s in
  if list_eq_dec N.eq_dec s (chars "inf") then Some true
  else if list_eq_dec N.eq_dec s (chars "infinity") then Some true
  else if list_eq_dec N.eq_dec s (chars "nan") then Some false
  else None.
Definition parse_f64 (s : list char) : option f64 :=
  let '(neg, t) := ffrom_sign s in
  match word t with
  | Some true => Some (B754_infinity neg)
  | Some false => Some B754_nan
  | None => ffrom_str s
  end.

(** i32::from_str *)
Definition parse_i32 (s : list char) : option Z :=
  match parse_int (map Z.of_N s) with
  | Some n => if (i32_min <=? n) && (n <=? i32_max) then Some n else None
  | None => None
  end.

(** An option that may be left out; the outer None is a text that is refused. *)
Definition given {A} (parse : list char -> option A) (o : option (list char)) : option (option A) :=
  match o with
  | None => Some None
  | Some t => match parse t with Some a => Some (Some a) | None => None end
  end.
Definition given_or {A} (parse : list char -> option A) (default : A) (o : option (list char)) : option A :=
  match o with None => Some default | Some t => parse t end.

(** svg_path.rs:155-168: at least 1. *)
Definition parse_repeat (s : list char) : option Z :=
  match parse_i32 s with Some n => if 1 <=? n then Some n else None | None => None end.
(** svg_path.rs:170-182, image_raster.rs:169-181: 0 to 100. *)
Definition parse_intensity (s : list char) : option Z :=
  match parse_i32 s with Some n => if (0 <=? n) && (n <=? 100) then Some n else None | None => None end.

(** stepper_config_parser.rs:41-56, None for an error. *)
Definition config_of (w : world) (name : list char) : option (config_ * laser) :=
  match w_json w name with Some v => read_config v | None => None end.

(** svg_path.rs:186-204, image_raster.rs:247-265 *)
Definition device_of (w : world) (name : option (list char)) : io (option port) :=
  match name with
  | None => ret None
  | Some name => match w_device w name with Some p => ret (Some p) | None => panics end
  end.

(** svg_path.rs:287-291, image_raster.rs:343-347 *)
Definition send (fuel : nat) (p : option port) (evs : list event) : io finish :=
  match p with
  | None => ret Finished
  | Some p => do! _ := io_unwrap (play_events fuel p evs) in ret Finished
  end.

(** ** svg_path.rs *)

Record svg_options := mk_svg_options {
  so_help : bool;
  so_free : list (list char);
  so_config : option (list char);
  so_device : option (list char);
  so_v_max : option (list char);
  so_a_max : option (list char);
  so_draw_speed : option (list char);
  so_repeat : option (list char);
  so_intensity : option (list char);
  so_layer : option (list char) }.

(** svg_path.rs:206-286: [svg_program] (FloatDocument.v) up to the call of [events], which flushes
    and is only made if there is a device. *)
Definition svg_drawing (tg : trig) (g : geometry) (cf : config_) (v_opt a_opt : option f64) (v_draw : f64)
    (n_repeat intensity : Z) (layer : option (list char)) (evs : list xml_event) : res ctx :=
  let! (ax_max, ay_max, vx_max, vy_max) := svg_limits cf v_opt a_opt in
  let! r := fparse_document tg evs fidentity (layer_filter layer) in
  let! segs := unwrap r in
  let s := mk_scales (steps_per_mm (stepper_x cf)) (steps_per_mm (stepper_y cf)) in
  let c := set_weight (new_ctx ax_max ay_max vx_max vy_max) (svg_weight intensity) in
  let! (c, _) := repeat_draw g s segs (fdiv v_draw (f_of_Z (tps cf))) (Z.to_nat n_repeat) c (0, 0) in
  let! c := step_goto c 0 0 in
  let! t := ticks c in
  let! _ := assert (negb (tps cf =? 0)) in
  Ok c.

(** svg_path.rs:31-292 *)
Definition svg_path_main (tg : trig) (g : geometry) (fuel : nat) (w : world) (o : svg_options) : io finish :=
  if so_help o then ret Message
  else match so_free o with
  | [] => ret Message
  | file :: _ =>
      match so_config o with
      | None => ret Message
      | Some name =>
          match config_of w name with
          | None => ret Message
          | Some (cf, _) =>
              do! _ := lift (chk_u32 (2 * tps cf)) in
              match given parse_f64 (so_v_max o) with
              | None => ret Message
              | Some v_opt =>
              match given parse_f64 (so_a_max o) with
              | None => ret Message
              | Some a_opt =>
              match given_or parse_f64 (f_of_Z 20) (so_draw_speed o) with
              | None => ret Message
              | Some v_draw =>
              match given_or parse_repeat 1 (so_repeat o) with
              | None => ret Message
              | Some n_repeat =>
              match given_or parse_intensity 5 (so_intensity o) with
              | None => ret Message
              | Some intensity =>
                  do! dev := device_of w (so_device o) in
                  match w_xml w file with
                  | None => panics
                  | Some doc =>
                      do! c := lift (svg_drawing tg g cf v_opt a_opt v_draw n_repeat intensity (so_layer o) doc) in
                      do! c := match dev with None => ret c | Some _ => lift (flush c) end in
                      send fuel dev (events c)
                  end
              end end end end end
          end
      end
  end.

(** ** image_raster.rs *)

Record image_options := mk_image_options {
  io_help : bool;
  io_free : list (list char);
  io_config : option (list char);
  io_device : option (list char);
  io_v_max : option (list char);
  io_a_max : option (list char);
  io_draw_speed : option (list char);
  io_intensity : option (list char);
  io_width : option (list char);
  io_height : option (list char);
  io_spot_diam : option (list char) }.

(** image_raster.rs:65-348.  The files are opened before the device. *)
Definition image_raster_main (fuel : nat) (w : world) (o : image_options) : io finish :=
  if io_help o then ret Message
  else match io_free o with
  | [] => ret Message
  | file :: _ =>
      match io_config o with
      | None => ret Message
      | Some name =>
          match config_of w name with
          | None => ret Message
          | Some (cf, _) =>
              do! _ := lift (chk_u32 (2 * tps cf)) in
              match given parse_f64 (io_v_max o) with
              | None => ret Message
              | Some v_opt =>
              match given parse_f64 (io_a_max o) with
              | None => ret Message
              | Some a_opt =>
              match given_or parse_f64 (f_of_Z 20) (io_draw_speed o) with
              | None => ret Message
              | Some v_draw =>
              match given_or parse_intensity 5 (io_intensity o) with
              | None => ret Message
              | Some intensity =>
              match given parse_f64 (io_width o) with
              | None => ret Message
              | Some width =>
              match given parse_f64 (io_height o) with
              | None => ret Message
              | Some height =>
              match given_or parse_f64 (lit 2 10) (io_spot_diam o) with
              | None => ret Message
              | Some spot_diam =>
              match w_image w file with
              | None => ret Message
              | Some (x_pixels, y_pixels, rows) =>
                  do! dev := device_of w (io_device o) in
                  do! c := lift (image_main cf v_opt a_opt v_draw intensity width height spot_diam x_pixels y_pixels rows) in
                  do! _ := lift (ticks c) in
                  do! _ := lift (assert (negb (tps cf =? 0))) in
                  match dev with
                  | None => ret Finished
                  | Some _ => do! c := lift (flush c) in send fuel dev (events c)
                  end
              end end end end end end end end
          end
      end
  end.
