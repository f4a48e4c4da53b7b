(** The planner of /repo/src/integer_curve.rs and solve.rs a second time, with
    every i64 operation checked, as in a build with overflow checks: an operation
    whose result is outside i64 panics.  Expressions are written as in the
    source; [i64 e] evaluates one, checking every operation in it. *)
From Coq Require Import ZArith List Bool.
From Verif Require Import Base MultiRange AccVector Solve IntegerCurve.
Import ListNotations.
Open Scope Z_scope.

Inductive iexp :=
| IC (z : Z)
| IAdd (x y : iexp) | ISub (x y : iexp) | IMul (x y : iexp)
| INeg (x : iexp) | IAbs (x : iexp)
| IQuot (x y : iexp) | IRem (x y : iexp)
| IDiv (x y : iexp) | IMod (x y : iexp).

Coercion IC : Z >-> iexp.

Definition chk2 (f : Z -> Z -> Z) (x y : res Z) : res Z :=
  let! a := x in let! b := y in chk_i64 (f a b).

(** A zero divisor panics, and so does an overflowing quotient (and rust's
    remainder in the same case, i64::MIN and -1). *)
Definition chk_div (f g : Z -> Z -> Z) (x y : res Z) : res Z :=
  let! a := x in let! b := y in
  let! _ := assert (negb (b =? 0)) in
  let! _ := chk_i64 (f a b) in
  chk_i64 (g a b).

Fixpoint run (e : iexp) : res Z :=
  match e with
  | IC z => Ok z
  | IAdd x y => chk2 Z.add (run x) (run y)
  | ISub x y => chk2 Z.sub (run x) (run y)
  | IMul x y => chk2 Z.mul (run x) (run y)
  | INeg x => let! a := run x in chk_i64 (- a)
  | IAbs x => let! a := run x in chk_i64 (Z.abs a)
  | IQuot x y => chk_div Z.quot Z.quot (run x) (run y)
  | IRem x y => chk_div Z.quot Z.rem (run x) (run y)
  | IDiv x y => chk_div Z.quot Z.div (run x) (run y)
  | IMod x y => chk_div Z.quot Z.modulo (run x) (run y)
  end.

Declare Scope i64_scope.
Delimit Scope i64_scope with i64e.
Notation "x + y" := (IAdd x y) : i64_scope.
Notation "x - y" := (ISub x y) : i64_scope.
Notation "x * y" := (IMul x y) : i64_scope.
Notation "x / y" := (IQuot x y) : i64_scope.
Notation "x 'rem' y" := (IRem x y) (at level 40, left associativity) : i64_scope.
Notation "x 'div_floor' y" := (IDiv x y) (at level 40, left associativity) : i64_scope.
Notation "x 'mod_floor' y" := (IMod x y) (at level 40, left associativity) : i64_scope.
Notation "- x" := (INeg x) : i64_scope.
Notation "'i64' e" := (run e%i64e) (at level 10, e at level 9).

(** solve.rs:11-13 *)
Definition c_sqpoly (a b c x : Z) : res Z := i64 (a * x * x + b * x - c).

(** solve.rs:33-53 *)
Fixpoint c_find_root_loop (fuel : nat) (a b c minx maxx miny maxy : Z) : res (option Z) :=
  match fuel with
  | O => OutOfFuel
  | S f =>
      if miny =? 0 then Ok (Some minx)
      else if maxy =? 0 then Ok (Some maxx)
      else
        let! d := i64 (maxx - minx) in
        if d <=? 1 then Ok (if maxy >=? 0 then Some maxx else Some minx)
        else
          let! midx := i64 ((minx + maxx) / 2) in
          let! midy := c_sqpoly a b c midx in
          if same_sign maxy midy
          then c_find_root_loop f a b c minx midx miny midy
          else c_find_root_loop f a b c midx maxx midy maxy
  end.

(** solve.rs:18-54; the fuel is as in the unchecked model. *)
Definition c_find_root (a b c min max : Z) : res (option Z) :=
  let! miny := c_sqpoly a b c min in
  let! maxy := c_sqpoly a b c max in
  if miny =? 0 then Ok (Some min)
  else if maxy =? 0 then Ok (Some max)
  else if same_sign miny maxy then Ok None
  else c_find_root_loop (bisect_fuel (max - min)) a b c min max miny maxy.

(** integer_curve.rs:306-308 *)
Fixpoint c_limit_loop (fuel : nat) (a b c xmin limit : Z) : res Z :=
  let! x := i64 (xmin + limit) in
  let! y := c_sqpoly a b c x in
  if y <=? 0 then
    match fuel with
    | O => OutOfFuel
    | S f => let! l := i64 (limit * 2) in c_limit_loop f a b c xmin l
    end
  else Ok limit.

(** integer_curve.rs:352-360 *)
Definition c_div_rem_away (a b : Z) : res (Z * Z) :=
  let! _ := assert (b >? 0) in
  let! q1 := i64 (a / b) in
  let! r1 := i64 (a rem b) in
  match r1 ?= 0 with
  | Eq => Ok (q1, r1)
  | Gt => let! q := i64 (q1 + 1) in let! r := i64 (r1 - b) in Ok (q, r)
  | Lt => let! q := i64 (q1 - 1) in let! r := i64 (r1 + b) in Ok (q, r)
  end.

(** integer_curve.rs:362-371 *)
Definition c_path_distance (v0 vn vflat a t : Z) : res Z :=
  let! d1 := i64 (vflat - v0) in
  let! (t1, dv1) := c_div_rem_away d1 a in
  let! d4 := i64 (vflat - vn) in
  let! (t4, dv4) := c_div_rem_away d4 a in
  let! t1 := run (IAbs t1) in
  let! t4 := run (IAbs t4) in
  i64 ((vflat - dv1 + v0) * t1 + dv1 + 2 * vflat * (t - t1 - t4) + dv4 + (vflat - dv4 + vn) * t4).

(** integer_curve.rs:291-297 *)
Definition c_acc_vertex (v0 vn a : Z) : res Z :=
  let! s := i64 (v0 + vn) in
  if s >=? 0 then i64 (- ((2 * (v0 + vn) + a) / (2 * a)))
  else i64 ((-2 * (v0 + vn) + a) / (2 * a)).

(** integer_curve.rs:270-324 *)
Definition c_max_acceleration_curve (ds v0 vn a : Z) : res mrange :=
  let! tmin := (if negb (v0 =? vn) then run (IQuot (ISub (IAdd (IAbs (ISub v0 vn)) a) 1) a) else Ok 1) in
  let! cx2 := i64 (a * a) in
  let! cx := i64 (2 * a * (v0 + vn)) in
  let! c := i64 ((v0 - vn) * (v0 - vn) + a * (a + 2 * ds)) in
  let! s := i64 (c + (v0 + vn) * (v0 + vn)) in
  if s <? 0 then Ok (mr_range tmin i64_max)
  else
    let! xmin := c_acc_vertex v0 vn a in
    let! ymin := c_sqpoly cx2 cx c xmin in
    if ymin >=? 0 then Ok (mr_range tmin i64_max)
    else
      let! limit0 := c_limit_loop (limit_fuel ymin) cx2 cx c xmin 16 in
      let! limit := i64 (limit0 + 1) in
      let! xl := i64 (xmin - limit) in
      let! r1 := c_find_root cx2 cx c xl xmin in
      let! xh := i64 (xmin + limit) in
      let! r2 := c_find_root cx2 cx c xmin xh in
      match r1, r2 with
      | Some min, Some max =>
          let! r := mr_or mr_new i64_min min in
          let! r := mr_or r max i64_max in
          Ok (mr_and r tmin i64_max)
      | _, _ => Panic
      end.

(** integer_curve.rs:337-347 *)
Definition c_speed_limited_curve (ds v0 vn a vmax : Z) : res mrange :=
  let! t1 := i64 ((vmax - v0 + a - 1) div_floor a) in
  let! dv1 := i64 ((vmax - v0 + a - 1) mod_floor a) in
  let! t4 := i64 ((vmax - vn + a - 1) div_floor a) in
  let! dv4 := i64 ((vmax - vn + a - 1) mod_floor a) in
  let! s0 := i64 ((2 * v0 + t1 * a) * t1 + (dv1 - (a - 1)) + (2 * vn + t4 * a) * t4 + (dv4 - (a - 1))) in
  if ds >=? s0 then
    let! t := i64 (t1 + t4 + (ds - s0 + 2 * vmax - 1) / (2 * vmax)) in
    mr_or mr_new t i64_max
  else Ok mr_new.

(** integer_curve.rs:374-431 *)
Definition c_adjust_curve_mid (t_total ds v0 vn a : Z) : res (option distance_path) :=
  let '(v_low, v_high) := if v0 <=? vn then (v0, vn) else (vn, v0) in
  let! t_acc := i64 ((v_high - v_low - 1) / a) in
  let! k := i64 (2 * (v_low - v_high + a * t_total)) in
  let! m := i64 (v_low - v_high + a * t_acc + 2 * (v_high - a * t_acc) * t_total + a * t_acc * t_acc) in
  if k =? 0 then
    let! vf := i64 (v_low + a) in
    Ok (Some (mk_path v0 vn a vf t_total 0))
  else
    let! smax := i64 (k * t_acc + m) in
    let! smin := i64 ((2 * v_high - t_acc * a) * t_acc
                      + v_high - t_acc * a + v_low
                      + 2 * v_low * (t_total - t_acc - 1)) in
    if (smax <? ds) || (smin >? ds) then Ok None
    else
      let! _ := assert (k >? 0) in
      let! x := i64 (ds - m + k) in
      let! _ := assert (x >=? 0) in
      let! t := i64 ((ds - m + k) / k) in
      let! s_high := i64 (k * t + m) in
      let! s_split := i64 ((2 * v_low + a * t) * t
                           + 2 * (v_low + a * t) * (t_total - t_acc - 1)
                           + v_high - (t_acc - t) * a + v_low + t * a
                           + (2 * v_high - (t_acc - t) * a) * (t_acc - t)) in
      let! (v_flat, s) :=
        (if ds >=? s_split then
           let! v_max := i64 (v_high - a * (t_acc - t)) in
           let! v_flat := i64 (v_max - (s_high - ds) / (2 * (t_total - t_acc - 1))) in
           let! s := i64 (s_high - 2 * (v_max - v_flat) * (t_total - t_acc - 1)) in
           Ok (v_flat, s)
         else
           let! v_min := i64 (v_low + a * t) in
           let! v_flat := i64 (v_min - (s_split - ds) / (2 * (t_total - t_acc))) in
           let! s := i64 (s_split - 2 * (v_min - v_flat) * (t_total - t_acc)) in
           Ok (v_flat, s)) in
      let! adj := i64 ((ds - s) / 2) in
      Ok (Some (mk_path v0 vn a v_flat t_total adj)).

(** integer_curve.rs:485-499 *)
Fixpoint c_adjust_loop (fuel : nat) (t_total ds v0 vn a min smin max smax : Z)
  : res (Z * Z * Z * Z) :=
  let! d := i64 (max - min) in
  if d <=? 1 then Ok (min, smin, max, smax)
  else
    match fuel with
    | O => OutOfFuel
    | S f =>
        let! mid := i64 ((max + min) / 2) in
        let! s := c_path_distance v0 vn mid a t_total in
        if s >=? ds
        then c_adjust_loop f t_total ds v0 vn a min smin mid s
        else c_adjust_loop f t_total ds v0 vn a mid s max smax
    end.

(** integer_curve.rs:457-477 *)
Definition c_adjust_bounds (t_total v0 vn a : Z) : res (Z * Z) :=
  let! tmid_low := i64 ((t_total * a - (v0 - vn)) / (2 * a)) in
  let! tmid_high := i64 ((t_total * a - (vn - v0)) / (2 * a)) in
  let! sum := i64 (tmid_low + tmid_high) in
  let! _ := assert (sum <=? t_total) in
  let! low := i64 (t_total - 1) in
  let! _ := assert (sum >=? low) in
  let! max :=
    (if tmid_high =? 0 then i64 (v0 + tmid_low * a)
     else if tmid_low =? 0 then i64 (vn + tmid_high * a)
     else
       let! x := i64 (v0 + tmid_low * a) in
       let! y := i64 (vn + tmid_high * a) in
       Ok (max_i64 x y)) in
  let! min :=
    (if tmid_high =? 0 then i64 (vn + tmid_low * - a)
     else if tmid_low =? 0 then i64 (v0 + tmid_high * - a)
     else
       let! x := i64 (v0 + tmid_high * - a) in
       let! y := i64 (vn + tmid_low * - a) in
       Ok (min_i64 x y)) in
  let! _ := assert (max >=? min) in
  Ok (min, max).

(** integer_curve.rs:433-522 *)
Definition c_adjust_curve (t_total ds v0 vn a : Z) : res distance_path :=
  if t_total =? 1 then
    let! d := run (IAbs (ISub (IAdd v0 vn) ds)) in
    let! _ := assert (d <=? 1) in
    Ok (mk_path v0 vn a v0 1 0)
  else
    let! o := c_adjust_curve_mid t_total ds v0 vn a in
    match o with
    | Some path => Ok path
    | None =>
        let! (min, max) := c_adjust_bounds t_total v0 vn a in
        let! smax := c_path_distance v0 vn max a t_total in
        let! smin := c_path_distance v0 vn min a t_total in
        let! _ := assert (smax >=? ds) in
        let! _ := assert (smin <=? ds) in
        let! (min, smin, max, smax) :=
          c_adjust_loop (bisect_fuel (max - min)) t_total ds v0 vn a min smin max smax in
        if smax =? ds then Ok (mk_path v0 vn a max t_total 0)
        else if smin =? ds then Ok (mk_path v0 vn a min t_total 0)
        else if (v0 >? min) || (vn >? min) then
          let! adj := i64 ((ds - smin) / 2) in
          Ok (mk_path v0 vn a min t_total adj)
        else
          let! adj := i64 ((ds - smax) / 2) in
          Ok (mk_path v0 vn a max t_total adj)
    end.

(** integer_curve.rs:156-193 *)
Definition c_acc_seq_step (p : distance_path) : res (Z * Z * Z) :=
  let a := p_amax p in
  let vflat := p_vflat p in
  let adj := p_t_adjust p in
  match adj ?= 0 with
  | Gt =>
      if p_vn p >? vflat then
        let! vflat_end := i64 (vflat + 1) in
        let! t_step := i64 (- adj) in
        let! r := i64 ((vflat_end - p_vn p) rem a) in
        let! t_step := (if r =? 0 then i64 (t_step - 1) else Ok t_step) in
        Ok (vflat, vflat_end, t_step)
      else
        let! _ := assert (p_v0 p >? vflat) in
        let! vflat_start := i64 (vflat + 1) in
        let! r := i64 ((vflat_start - p_v0 p) rem a) in
        let! t_step := (if r =? 0 then i64 (adj + 1) else Ok adj) in
        Ok (vflat_start, vflat, t_step)
  | Lt =>
      if p_vn p <? vflat then
        let! vflat_end := i64 (vflat - 1) in
        let! r := i64 ((vflat_end - p_vn p) rem a) in
        let! t_step := (if r =? 0 then i64 (adj - 1) else Ok adj) in
        Ok (vflat, vflat_end, t_step)
      else
        let! _ := assert (p_v0 p <? vflat) in
        let! vflat_start := i64 (vflat - 1) in
        let! t_step := i64 (- adj) in
        let! r := i64 ((vflat_start - p_v0 p) rem a) in
        let! t_step := (if r =? 0 then i64 (t_step + 1) else Ok t_step) in
        Ok (vflat_start, vflat, t_step)
  | Eq => Ok (vflat, vflat, 0)
  end.

(** integer_curve.rs:144-242 *)
Definition c_acc_seq (p : distance_path) : res (list seg) :=
  let a := p_amax p in
  let v0 := p_v0 p in
  let vn := p_vn p in
  if p_t_total p <=? 1 then
    if p_t_total p =? 0 then
      let! _ := assert (v0 =? vn) in Ok []
    else
      let! d := i64 (v0 - vn) in
      let! _ := assert (d <=? a) in
      let! x := i64 (vn - v0) in
      push_conv [] 1 x
  else
    let! (vflat_start, vflat_end, t_step) := c_acc_seq_step p in
    let! d1 := i64 (vflat_start - v0) in
    let! (t1, dv1) := c_div_rem_away d1 a in
    let! d4 := i64 (vflat_end - vn) in
    let! (t4, dv4) := c_div_rem_away d4 a in
    let! t1 := run (IAbs t1) in
    let! t4 := run (IAbs t4) in
    let! a1 := (if vflat_start >=? v0 then Ok a else i64 (- a)) in
    let! a4 := (if vflat_end <=? vn then Ok a else i64 (- a)) in
    let! t14 := i64 (t1 + t4) in
    let! _ := assert (p_t_total p >=? t14) in
    let! t_flat := i64 (p_t_total p - t1 - t4) in
    let! s :=
      (if dv1 =? 0 then push_conv [] t1 a1
       else
         let! t := i64 (t1 - 1) in
         let! s := push_conv [] t a1 in
         let! x := i64 (vflat_start - (a1 * (t1 - 1) + v0)) in
         push_conv s 1 x) in
    let! _ := assert (p_t_adjust p <=? t_flat) in
    let! s :=
      (match t_step ?= 0 with
       | Gt =>
           let! t := i64 (t_step - 1) in
           let! s := push_conv s t 0 in
           let! x := i64 (vflat_end - vflat_start) in
           let! s := push_conv s 1 x in
           let! t := i64 (t_flat - t_step) in
           push_conv s t 0
       | Lt =>
           let! t := i64 (t_flat + t_step) in
           let! s := push_conv s t 0 in
           let! x := i64 (vflat_end - vflat_start) in
           let! s := push_conv s 1 x in
           let! t := i64 (- t_step - 1) in
           push_conv s t 0
       | Eq => push_conv s t_flat 0
       end) in
    if dv4 =? 0 then push_conv s t4 a4
    else
      let! x := i64 ((vn - a4 * (t4 - 1)) - vflat_end) in
      let! s := push_conv s 1 x in
      let! t := i64 (t4 - 1) in
      push_conv s t a4.

(** integer_curve.rs:534-544 *)
Definition c_shortest_curve_length (ds v0 vn a vmax : Z) : res mrange :=
  let! pos := c_speed_limited_curve ds v0 vn a vmax in
  let! pos := (if mr_is_empty pos then c_max_acceleration_curve ds v0 vn a else Ok pos) in
  let! nds := i64 (- ds) in
  let! nv0 := i64 (- v0) in
  let! nvn := i64 (- vn) in
  let! neg := c_speed_limited_curve nds nv0 nvn a vmax in
  let! neg := (if mr_is_empty neg then c_max_acceleration_curve nds nv0 nvn a else Ok neg) in
  Ok (mr_and_range pos neg).

(** integer_curve.rs:557-560 *)
Definition c_shortest_curve (ds v0 vn a vmax : Z) : res distance_path :=
  let! r := c_shortest_curve_length ds v0 vn a vmax in
  let! (t, _) := unwrap (mr_bounds r) in
  c_adjust_curve t ds v0 vn a.

(** integer_curve.rs:592-600 *)
Fixpoint c_and_limits (r : mrange) (limits : list path_limits) : res mrange :=
  match limits with
  | [] => Ok r
  | l :: t =>
      let! rl := c_shortest_curve_length (l_ds l) (l_v0 l) (l_vn l) (l_a l) (l_vmax l) in
      c_and_limits (mr_and_range r rl) t
  end.

(** integer_curve.rs:602-607 *)
Fixpoint c_seqs_for (t : Z) (limits : list path_limits) : res (list (list seg)) :=
  match limits with
  | [] => Ok []
  | l :: rest =>
      let! path := c_adjust_curve t (l_ds l) (l_v0 l) (l_vn l) (l_a l) in
      let! s := c_acc_seq path in
      let! r := c_seqs_for t rest in
      Ok (s :: r)
  end.

(** integer_curve.rs:589-608 *)
Definition c_shortest_curve_sequences (limits : list path_limits) : res (list (list seg)) :=
  let! r := mr_or mr_new i64_min i64_max in
  let! r := c_and_limits r limits in
  let! (t, _) := unwrap (mr_bounds r) in
  c_seqs_for t limits.
