(** Model of /repo/src/stepper_control.rs: sending events to the controller over
    a serial port.

    The port is an arbitrary peer: what a read returns and whether a write succeeds
    may depend on everything that happened before.  A program maps the history of
    the port to the extended history and an outcome, so that the history is known
    also when the program panics or never returns ([Stuck] when the fuel is used
    up; all theorems hold for every fuel).  The 10 ms sleep has no effect here.
    Text is a list of character codes. *)
From Coq Require Import ZArith List Bool Lia.
From Verif Require Import Base StepperContext.
Import ListNotations.
Open Scope Z_scope.

(** Result of one [read] into a buffer of one byte. *)
Inductive read_res :=
| RByte (b : Z)   (* Ok(1) *)
| REmpty          (* Ok(0) *)
| RTimeout        (* Err, kind TimedOut *)
| RFail.          (* any other Err *)

Inductive io_event :=
| Wrote (s : list Z)
| Got (r : read_res).

Record port := mk_port {
  on_read : list io_event -> read_res;
  on_write : list io_event -> list Z -> bool
}.

Inductive outcome (A : Type) :=
| Val (a : A)
| IoErr (msg : list Z)   (* returns Err *)
| Panics
| Stuck.
Arguments Val {A} a.
Arguments IoErr {A} msg.
Arguments Panics {A}.
Arguments Stuck {A}.

Definition io (A : Type) := list io_event -> list io_event * outcome A.

Definition ret {A} (a : A) : io A := fun tr => (tr, Val a).
Definition panics {A} : io A := fun tr => (tr, Panics).
Definition fail {A} (msg : list Z) : io A := fun tr => (tr, IoErr msg).
Definition io_bind {A B} (m : io A) (f : A -> io B) : io B :=
  fun tr => let '(tr', o) := m tr in
    match o with
    | Val a => f a tr'
    | IoErr e => (tr', IoErr e)
    | Panics => (tr', Panics)
    | Stuck => (tr', Stuck)
    end.
Notation "'do!' x := e 'in' f" := (io_bind e (fun x => f))
  (at level 200, x name, e at level 100, f at level 200).
Notation "'do!' ( x , y ) := e 'in' f" := (io_bind e (fun z => let '(x, y) := z in f))
  (at level 200, x name, y name, e at level 100, f at level 200).

(** [.unwrap()] of an io::Result *)
Definition io_unwrap {A} (m : io A) : io A :=
  fun tr => let '(tr', o) := m tr in
    match o with IoErr _ => (tr', Panics) | _ => (tr', o) end.

Definition lift {A} (r : res A) : io A :=
  fun tr => match r with Ok a => (tr, Val a) | Panic => (tr, Panics) | OutOfFuel => (tr, Stuck) end.

(** [write_all(..)]; a failed write is not recorded. *)
Definition write_all (p : port) (s : list Z) : io unit :=
  fun tr => if on_write p tr s then (tr ++ [Wrote s], Val tt) else (tr, IoErr []).

(** stepper_control.rs:14-33, [read_reply]. *)
Fixpoint read_reply (fuel : nat) (p : port) (reply : list Z) : io (list Z) :=
  fun tr =>
    match fuel with
    | O => (tr, Stuck)
    | S f =>
        let r := on_read p tr in
        let tr' := tr ++ [Got r] in
        match r with
        | RByte b => if b =? 10 then (tr', Val reply) else read_reply f p (reply ++ [b]) tr'
        | REmpty | RTimeout => read_reply f p reply tr'
        | RFail => (tr', IoErr [])
        end
    end.

(** Decimal numbers: [format!("{}")] and [str::parse::<i64>]. *)
Fixpoint digits (fuel : nat) (n : Z) : list Z :=
  match fuel with
  | O => []
  | S f => if n <? 10 then [48 + n] else digits f (n / 10) ++ [48 + n mod 10]
  end.
Definition show_nat (n : Z) : list Z := digits (Z.to_nat (Z.log2 n) + 1) n.
Definition show (n : Z) : list Z := if n <? 0 then 45 :: show_nat (- n) else show_nat n.

Definition is_digit (c : Z) : bool := (48 <=? c) && (c <=? 57).
(** All characters digits, at least one. *)
Fixpoint parse_digits (acc : Z) (s : list Z) : option Z :=
  match s with
  | [] => Some acc
  | c :: r => if is_digit c then parse_digits (10 * acc + (c - 48)) r else None
  end.
Definition parse_nat (s : list Z) : option Z :=
  match s with [] => None | _ => parse_digits 0 s end.
Definition parse_int (s : list Z) : option Z :=
  match s with
  | 45 :: r => option_map Z.opp (parse_nat r)
  | 43 :: r => parse_nat r
  | _ => parse_nat s
  end.
Definition parse_i64 (s : list Z) : option Z :=
  match parse_int s with
  | Some n => if (i64_min <=? n) && (n <=? i64_max) then Some n else None
  | None => None
  end.

(** stepper_control.rs:35-40, [request_time]; the write is unwrapped. *)
Definition request_time (fuel : nat) (p : port) : io Z :=
  do! _ := io_unwrap (write_all p [84; 10]) in
  do! r := read_reply fuel p [] in
  match parse_i64 r with Some t => ret t | None => fail [] end.

(** stepper_control.rs:51-57, the text of one command. *)
Definition format_cmd (t : Z) (c : command) : list Z :=
  match c with
  | Acc ch acc => 65 :: show ch ++ [44] ++ show t ++ [44] ++ show acc ++ [10]
  | Weight v => 76 :: show t ++ [44] ++ show v ++ [10]
  end.

(** stepper_control.rs:42-62, [send_cmds]. *)
Fixpoint cmds_text (t : Z) (evs : list event) : res (list Z) :=
  match evs with
  | [] => Ok []
  | ev :: rest =>
      let! t := chk_i64 (t + e_ticks ev) in
      let! s := cmds_text t rest in
      Ok (format_cmd t (e_cmd ev) ++ s)
  end.
Definition send_cmds (p : port) (t0 : Z) (evs : list event) : io unit :=
  do! s := lift (cmds_text t0 evs) in
  io_unwrap (write_all p s).

Definition text_eqb (a b : list Z) : bool := if list_eq_dec Z.eq_dec a b then true else false.
Definition ok_text : list Z := [79; 75].                  (* "OK" *)
Definition full_text : list Z := [69; 82; 82; 32; 49].    (* "ERR 1" *)
Definition reset_text : list Z := [82; 10].               (* "R\n" *)

(** stepper_control.rs:87-113, reading the replies to the pending commands. *)
Fixpoint replies (fuel : nat) (p : port) (i : Z) (pending : list event) (first_full t : Z) : io (Z * Z) :=
  match pending with
  | [] => ret (first_full, t)
  | e :: rest =>
      do! r := read_reply fuel p [] in
      do! ff :=
        (if text_eqb r ok_text then ret first_full
         else if text_eqb r full_text then ret (if first_full <? 0 then as_i32 i else first_full)
         else
           do! _ := io_unwrap (write_all p reset_text) in
           fail r) in
      do! t := (if ff =? -1 then lift (chk_i64 (t + e_ticks e)) else ret t) in
      replies fuel p (i + 1) rest ff t
  end.

(** stepper_control.rs:73-80, refilling the pending commands: one event. *)
Definition refill (pending rest : list event) : list event * list event :=
  match pending, rest with
  | [], e :: r => ([e], r)
  | _, _ => (pending, rest)
  end.

(** stepper_control.rs:72-119, the main loop. *)
Fixpoint play_loop (fuel : nat) (p : port) (t : Z) (pending rest : list event) : io unit :=
  match fuel with
  | O => fun tr => (tr, Stuck)
  | S f =>
      let '(pending, rest) := refill pending rest in
      match pending with
      | [] => ret tt
      | _ =>
          do! _ := send_cmds p t pending in
          do! (first_full, t) := replies fuel p 0 pending (-1) t in
          if first_full =? -1 then play_loop f p t [] rest
          else play_loop f p t (skipn (Z.to_nat first_full) pending) rest
      end
  end.

(** stepper_control.rs:64-121, [play_events]; TICKS_PER_SEC = 128. *)
Definition play_events (fuel : nat) (p : port) (events : list event) : io unit :=
  do! t := io_unwrap (request_time fuel p) in
  do! t := lift (chk_i64 (t + 128)) in
  play_loop fuel p t [] events.
