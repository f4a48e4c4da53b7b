(** What the two ends of the serial line see. *)
From Coq Require Import ZArith List Bool.
From Verif Require Import Base StepperContext StepperControl.
Import ListNotations.
Open Scope Z_scope.

(** Bytes written and bytes received. *)
Fixpoint written (tr : list io_event) : list Z :=
  match tr with
  | [] => []
  | Wrote s :: r => s ++ written r
  | Got _ :: r => written r
  end.
Fixpoint received (tr : list io_event) : list Z :=
  match tr with
  | [] => []
  | Got (RByte b) :: r => b :: received r
  | _ :: r => received r
  end.

(** Complete lines of a text, without their newline. *)
Fixpoint lines_from (cur : list Z) (s : list Z) : list (list Z) :=
  match s with
  | [] => []
  | c :: r => if c =? 10 then cur :: lines_from [] r else lines_from (cur ++ [c]) r
  end.
Definition lines (s : list Z) : list (list Z) := lines_from [] s.

(** The requests sent and the replies received, paired in order. *)
Definition exchange (tr : list io_event) : list (list Z * list Z) :=
  combine (lines (written tr)) (lines (received tr)).

(** The exchanges that concern commands: the first one is the time request. *)
Definition cmd_exchange (tr : list io_event) : list (list Z * list Z) := tl (exchange tr).

(** The command lines the controller accepted. *)
Definition accepted (tr : list io_event) : list (list Z) :=
  map fst (filter (fun x => text_eqb (snd x) ok_text) (cmd_exchange tr)).

(** Events at their absolute times, when the first delta counts from [t]. *)
Fixpoint at_times (t : Z) (evs : list event) : list (Z * command) :=
  match evs with
  | [] => []
  | e :: r => (t + e_ticks e, e_cmd e) :: at_times (t + e_ticks e) r
  end.

(** The line for a command at an absolute time, written independently of the
    code: fields joined by commas. *)
Definition join (fields : list (list Z)) : list Z :=
  match fields with
  | [] => []
  | f :: r => f ++ flat_map (fun x => 44 :: x) r
  end.
Definition cmd_line (x : Z * command) : list Z :=
  match snd x with
  | Acc ch acc => 65 :: join [show ch; show (fst x); show acc]
  | Weight v => 76 :: join [show (fst x); show v]
  end.

(** A conversation in which the lines are sent one at a time, each repeated while
    the answer is queue-full, the next one only after OK, and nothing after an
    error.  The last argument is the lines not yet accepted. *)
Inductive conversation : list (list Z) -> list (list Z * list Z) -> list (list Z) -> Prop :=
| conv_start : forall ls, conversation ls [] ls
| conv_full : forall ls log l rest,
    conversation ls log (l :: rest) -> conversation ls (log ++ [(l, full_text)]) (l :: rest)
| conv_ok : forall ls log l rest,
    conversation ls log (l :: rest) -> conversation ls (log ++ [(l, ok_text)]) rest.

(** A decoder for the wire format, as the controller could have it. *)
Fixpoint split_comma (cur : list Z) (s : list Z) : list (list Z) :=
  match s with
  | [] => [cur]
  | c :: r => if c =? 44 then cur :: split_comma [] r else split_comma (cur ++ [c]) r
  end.
Definition decode_line (l : list Z) : option (Z * command) :=
  match l with
  | 65 :: r =>
      match split_comma [] r with
      | [c; t; a] =>
          match parse_int c, parse_int t, parse_int a with
          | Some c, Some t, Some a => Some (t, Acc c a)
          | _, _, _ => None
          end
      | _ => None
      end
  | 76 :: r =>
      match split_comma [] r with
      | [t; w] =>
          match parse_int t, parse_int w with
          | Some t, Some w => Some (t, Weight w)
          | _, _ => None
          end
      | _ => None
      end
  | _ => None
  end.

(** How a run can end, after a conversation with [rem] lines not yet accepted:
    the outcome, and what was written and received after the conversation. *)
Inductive ending (rem : list (list Z)) : outcome unit -> list Z -> list Z -> Prop :=
| end_done : rem = [] -> ending rem (Val tt) [] []
| end_panic : ending rem Panics [] []
| end_stuck : ending rem Stuck [] []
| end_waiting : forall l rest er, rem = l :: rest -> ~ In 10 er ->
    ending rem Stuck (l ++ [10]) er
| end_read_error : forall l rest er, rem = l :: rest -> ~ In 10 er ->
    ending rem (IoErr []) (l ++ [10]) er
| end_error : forall l rest r, rem = l :: rest -> r <> ok_text -> r <> full_text -> ~ In 10 r ->
    ending rem (IoErr r) (l ++ [10] ++ reset_text) (r ++ [10])
| end_error_unsent : forall l rest r, rem = l :: rest -> r <> ok_text -> r <> full_text -> ~ In 10 r ->
    ending rem Panics (l ++ [10]) (r ++ [10]).

(** Number of OK replies in a list. *)
Definition count_ok (rs : list (list Z)) : nat := length (filter (fun r => text_eqb r ok_text) rs).
