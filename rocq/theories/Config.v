(** Model of src/stepper_config.rs and of read_config in src/stepper_config_parser.rs, from the
    JSON value in the file to the configuration: what serde's derived Deserialize and Serialize
    do for these structs.  JSON text is not modelled, nor that serde_json refuses values that are
    nested more than 127 deep. *)
From Coq Require Import ZArith List Bool NArith Ascii String.
From Flocq Require Import Core BinarySingleNaN.
From Verif Require Import Base Floats Chars ImageRaster.
Import ListNotations.
Open Scope Z_scope.

(** A JSON value as serde_json reads it: whole numbers without fraction or exponent that fit 64
    bits are integers, other numbers are floats; objects are lists of entries, in the order of
    the file, with names that need not differ. *)
Inductive json :=
| JNull
| JBool (b : bool)
| JInt (n : Z)
| JFloat (x : f64)
| JText (t : list char)
| JArray (l : list json)
| JObject (l : list (list char * json)).

(** stepper_config.rs:4,12,20 rename_all = "camelCase": the letter after an underscore becomes a
    capital, the underscore goes. *)
Definition upper (c : char) : char := (if is_lower c then c - 32 else c)%N.
Fixpoint camel (up : bool) (s : list char) : list char :=
  match s with
  | [] => []
  | c :: s => if N.eqb c (ch "_") then camel true s else (if up then upper c else c) :: camel false s
  end.
Definition name (s : string) : list char := camel false (chars s).

(** stepper_config.rs:5-9 *)
Definition stepper_names : list (list char) := [name "steps_per_millimeter"; name "max_velocity"; name "max_acceleration"].
(** stepper_config.rs:13-17 *)
Definition laser_names : list (list char) := [name "max_intensity"; name "pwm_period"; name "alignment_intensity"].
(** stepper_config.rs:21-26 *)
Definition config_names : list (list char) := [name "ticks_per_second"; name "stepper_x"; name "stepper_y"; name "laser"].

(** stepper_config.rs:13-17 *)
Record laser := mk_laser { max_intensity : Z; pwm_period : Z; alignment_intensity : Z }.

(** The derived loop over the entries of an object: one slot for each field, a second value for a
    field is an error, an entry that is no field is skipped. *)
Definition name_dec : forall a b : list char, {a = b} + {a <> b} := list_eq_dec N.eq_dec.
Fixpoint put (names : list (list char)) (slots : list (option json)) (k : list char) (v : json) : option (list (option json)) :=
  match names, slots with
  | n :: names, s :: slots =>
      if name_dec k n then match s with None => Some (Some v :: slots) | Some _ => None end
      else match put names slots k v with Some slots => Some (s :: slots) | None => None end
  | _, _ => Some slots
  end.
Fixpoint collect (names : list (list char)) (es : list (list char * json)) (slots : list (option json)) : option (list (option json)) :=
  match es with
  | [] => Some slots
  | (k, v) :: es => match put names slots k v with Some slots => collect names es slots | None => None end
  end.
(** A field without a value is an error. *)
Fixpoint filled (slots : list (option json)) : option (list json) :=
  match slots with
  | [] => Some []
  | None :: _ => None
  | Some v :: slots => match filled slots with Some l => Some (v :: l) | None => None end
  end.
(** The values of the fields.  Derived code reads a struct from an array too: exactly one element
    for each field. *)
Definition fields (names : list (list char)) (v : json) : option (list json) :=
  match v with
  | JObject es => match collect names es (map (fun _ => None) names) with Some slots => filled slots | None => None end
  | JArray l => if (List.length l =? List.length names)%nat then Some l else None
  | _ => None
  end.

(** serde_json for f64 and u32 *)
Definition read_f64 (v : json) : option f64 :=
  match v with JInt n => Some (f_of_Z n) | JFloat x => Some x | _ => None end.
Definition read_u32 (v : json) : option Z :=
  match v with JInt n => if (0 <=? n) && (n <=? u32_max) then Some n else None | _ => None end.

(** stepper_config.rs:3-9 *)
Definition read_stepper (v : json) : option stepper :=
  match fields stepper_names v with
  | Some [s; m; a] =>
      match read_f64 s, read_f64 m, read_f64 a with
      | Some s, Some m, Some a => Some (mk_stepper s m a)
      | _, _, _ => None
      end
  | _ => None
  end.
(** stepper_config.rs:11-17 *)
Definition read_laser (v : json) : option laser :=
  match fields laser_names v with
  | Some [m; p; a] =>
      match read_u32 m, read_u32 p, read_u32 a with
      | Some m, Some p, Some a => Some (mk_laser m p a)
      | _, _, _ => None
      end
  | _ => None
  end.
(** stepper_config.rs:19-26, stepper_config_parser.rs:50-55: None for an error. *)
Definition read_config (v : json) : option (config_ * laser) :=
  match fields config_names v with
  | Some [t; x; y; l] =>
      match read_u32 t, read_stepper x, read_stepper y, read_laser l with
      | Some t, Some x, Some y, Some l => Some (mk_config t x y, l)
      | _, _, _, _ => None
      end
  | _ => None
  end.

(** The derived Serialize: JSON has no text for infinities and NaN, serde_json writes null. *)
Definition write_f64 (x : f64) : json := if is_finite x then JFloat x else JNull.
Definition write_stepper (s : stepper) : json :=
  JObject (combine stepper_names [write_f64 (steps_per_mm s); write_f64 (max_velocity s); write_f64 (max_acc s)]).
Definition write_laser (l : laser) : json :=
  JObject (combine laser_names [JInt (max_intensity l); JInt (pwm_period l); JInt (alignment_intensity l)]).
Definition write_config (cf : config_) (l : laser) : json :=
  JObject (combine config_names [JInt (tps cf); write_stepper (stepper_x cf); write_stepper (stepper_y cf); write_laser l]).
