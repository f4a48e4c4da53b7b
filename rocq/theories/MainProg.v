(** Model of src/main.rs, a program that prints the plan for a distance and two speeds given as
    arguments, with every i64 operation checked.  Texts are lists of bytes. *)
From Coq Require Import ZArith NArith List Bool Ascii String.
From Verif Require Import Base StepperControl IntegerCurve CheckedCurve.
Import ListNotations.
Open Scope Z_scope.

Definition bytes (s : string) : list Z := map (fun c => Z.of_N (N_of_ascii c)) (list_ascii_of_string s).

(** integer_curve.rs:139-141 distance *)
Definition c_path_dist (p : distance_path) : res Z :=
  let! d := c_path_distance (p_v0 p) (p_vn p) (p_vflat p) (p_amax p) (p_t_total p) in
  i64 (d + 2 * (p_t_adjust p)).

(** integer_curve.rs:245-260 Display for DistancePath *)
Definition show_path (p : distance_path) : res (list Z) :=
  let! s := c_path_dist p in
  Ok (bytes "v= " ++ show (p_v0 p) ++ bytes " -> " ++ show (p_vn p) ++ bytes " amax = " ++ show (p_amax p) ++
      bytes ", vflat = " ++ show (p_vflat p) ++ bytes ", t_total = " ++ show (p_t_total p) ++
      bytes ", t_adjust = " ++ show (p_t_adjust p) ++ bytes ", s = " ++ show s)%list.

(** main.rs:29-31 args.next().unwrap().parse::<i64>().unwrap() *)
Definition next_i64 (args : list (list Z)) : res (Z * list (list Z)) :=
  match args with
  | [] => Panic
  | a :: rest => let! n := unwrap (parse_i64 a) in Ok (n, rest)
  end.

(** main.rs:26-38 main; [args] begins with the name of the program, the result is the output. *)
Definition main (args : list (list Z)) : res (list Z) :=
  let args := skipn 1 args in
  let! (ds, args) := next_i64 args in
  let! (v0, args) := next_i64 args in
  let! (vn, _) := next_i64 args in
  let vmax := 10 in
  let a := 5 in
  let! path := c_shortest_curve ds v0 vn a vmax in
  let! text := show_path path in
  Ok (bytes "Curve: " ++ text ++ [10])%list.
