(** Model of /repo/src/integer_curve.rs.  i64 arithmetic is on unbounded
    integers here; CheckedCurve.v repeats these definitions with every i64
    operation checked, and property C21 says where both agree. *)
From Coq Require Import ZArith List Bool Lia.
From Verif Require Import Base MultiRange AccVector Solve.
Import ListNotations.
Open Scope Z_scope.

(** integer_curve.rs:11-25. *)
Definition min_i64 (a b : Z) : Z := if a <=? b then a else b.
Definition max_i64 (a b : Z) : Z := if a >=? b then a else b.

(** integer_curve.rs:36-51. *)
Record distance_path := mk_path {
  p_v0 : Z;
  p_vn : Z;
  p_amax : Z;
  p_vflat : Z;
  p_t_total : Z;
  p_t_adjust : Z
}.

(** integer_curve.rs:61-73, [split_acc]; div_rem truncates, division by zero
    panics. *)
Definition split_acc (v_diff max_acc : Z) : res (Z * Z) :=
  match v_diff ?= 0 with
  | Gt => let! _ := assert (negb (max_acc =? 0)) in
          Ok (Z.abs (Z.quot (v_diff - 1) max_acc), Z.rem (v_diff - 1) max_acc + 1)
  | Lt => let! _ := assert (negb (max_acc =? 0)) in
          Ok (Z.abs (Z.quot (v_diff + 1) max_acc), Z.rem (v_diff + 1) max_acc - 1)
  | Eq => Ok (0, 0)
  end.

(** integer_curve.rs:352-360, [div_rem_away]. *)
Definition div_rem_away (a b : Z) : res (Z * Z) :=
  let! _ := assert (b >? 0) in
  let q1 := Z.quot a b in
  let r1 := Z.rem a b in
  match r1 ?= 0 with
  | Eq => Ok (q1, r1)
  | Gt => Ok (q1 + 1, r1 - b)
  | Lt => Ok (q1 - 1, r1 + b)
  end.

(** integer_curve.rs:362-371, [path_distance]. *)
Definition path_distance (v0 vn vflat a t : Z) : res Z :=
  let! (t1, dv1) := div_rem_away (vflat - v0) a in
  let! (t4, dv4) := div_rem_away (vflat - vn) a in
  let t1 := Z.abs t1 in
  let t4 := Z.abs t4 in
  Ok ((vflat - dv1 + v0) * t1 + dv1 + 2 * vflat * (t - t1 - t4)
      + dv4 + (vflat - dv4 + vn) * t4).

(** integer_curve.rs:139-141, [distance]. *)
Definition path_dist (p : distance_path) : res Z :=
  let! d := path_distance (p_v0 p) (p_vn p) (p_vflat p) (p_amax p) (p_t_total p) in
  Ok (d + 2 * p_t_adjust p).

(** [s.acc_push(u16::try_from(t).unwrap(), i16::try_from(a).unwrap())]. *)
Definition push_conv (s : list seg) (t a : Z) : res (list seg) :=
  let! t' := chk_u16 t in
  let! a' := chk_i16 a in
  acc_push s t' a'.

(** [%] panics on a zero divisor. *)
Definition rem_chk (x y : Z) : res Z :=
  let! _ := assert (negb (y =? 0)) in Ok (Z.rem x y).

(** integer_curve.rs:156-193: start and end velocity of the flat part and the
    position of the one unit step in it. *)
Definition acc_seq_step (p : distance_path) : res (Z * Z * Z) :=
  let a := p_amax p in
  let vflat := p_vflat p in
  let adj := p_t_adjust p in
  match adj ?= 0 with
  | Gt =>
      if p_vn p >? vflat then
        let vflat_end := vflat + 1 in
        let! r := rem_chk (vflat_end - p_vn p) a in
        Ok (vflat, vflat_end, if r =? 0 then - adj - 1 else - adj)
      else
        let! _ := assert (p_v0 p >? vflat) in
        let vflat_start := vflat + 1 in
        let! r := rem_chk (vflat_start - p_v0 p) a in
        Ok (vflat_start, vflat, if r =? 0 then adj + 1 else adj)
  | Lt =>
      if p_vn p <? vflat then
        let vflat_end := vflat - 1 in
        let! r := rem_chk (vflat_end - p_vn p) a in
        Ok (vflat, vflat_end, if r =? 0 then adj - 1 else adj)
      else
        let! _ := assert (p_v0 p <? vflat) in
        let vflat_start := vflat - 1 in
        let! r := rem_chk (vflat_start - p_v0 p) a in
        Ok (vflat_start, vflat, if r =? 0 then - adj + 1 else - adj)
  | Eq => Ok (vflat, vflat, 0)
  end.

(** integer_curve.rs:144-242, [acc_seq]. *)
Definition acc_seq (p : distance_path) : res (list seg) :=
  let a := p_amax p in
  let v0 := p_v0 p in
  let vn := p_vn p in
  if p_t_total p <=? 1 then
    if p_t_total p =? 0 then
      let! _ := assert (v0 =? vn) in Ok []
    else
      let! _ := assert (v0 - vn <=? a) in
      push_conv [] 1 (vn - v0)
  else
    let! (vflat_start, vflat_end, t_step) := acc_seq_step p in
    let! (t1, dv1) := div_rem_away (vflat_start - v0) a in
    let! (t4, dv4) := div_rem_away (vflat_end - vn) a in
    let t1 := Z.abs t1 in
    let t4 := Z.abs t4 in
    let a1 := if vflat_start >=? v0 then a else - a in
    let a4 := if vflat_end <=? vn then a else - a in
    let! _ := assert (p_t_total p >=? t1 + t4) in
    let t_flat := p_t_total p - t1 - t4 in
    let! s :=
      (if dv1 =? 0 then push_conv [] t1 a1
       else
         let! s := push_conv [] (t1 - 1) a1 in
         push_conv s 1 (vflat_start - (a1 * (t1 - 1) + v0))) in
    let! _ := assert (p_t_adjust p <=? t_flat) in
    let! s :=
      (match t_step ?= 0 with
       | Gt =>
           let! s := push_conv s (t_step - 1) 0 in
           let! s := push_conv s 1 (vflat_end - vflat_start) in
           push_conv s (t_flat - t_step) 0
       | Lt =>
           let! s := push_conv s (t_flat + t_step) 0 in
           let! s := push_conv s 1 (vflat_end - vflat_start) in
           push_conv s (- t_step - 1) 0
       | Eq => push_conv s t_flat 0
       end) in
    if dv4 =? 0 then push_conv s t4 a4
    else
      let! s := push_conv s 1 ((vn - a4 * (t4 - 1)) - vflat_end) in
      push_conv s (t4 - 1) a4.

(** integer_curve.rs:291-297. *)
Definition acc_vertex (v0 vn a : Z) : Z :=
  if v0 + vn >=? 0 then - Z.quot (2 * (v0 + vn) + a) (2 * a)
  else Z.quot (- 2 * (v0 + vn) + a) (2 * a).

(** integer_curve.rs:270-324, [max_acceleration_curve].  The callers pass a > 0;
    a = 0 would divide by zero, modelled by the assert. *)
Definition max_acceleration_curve (ds v0 vn a : Z) : res mrange :=
  let! _ := assert (negb (a =? 0)) in
  let tmin := if negb (v0 =? vn) then Z.quot (Z.abs (v0 - vn) + a - 1) a else 1 in
  let cx2 := a * a in
  let cx := 2 * a * (v0 + vn) in
  let c := (v0 - vn) * (v0 - vn) + a * (a + 2 * ds) in
  let s := c + (v0 + vn) * (v0 + vn) in
  if s <? 0 then Ok (mr_range tmin i64_max)
  else
    let xmin := acc_vertex v0 vn a in
    let ymin := sqpoly cx2 cx c xmin in
    if ymin >=? 0 then Ok (mr_range tmin i64_max)
    else
      let! limit0 := limit_loop (limit_fuel ymin) cx2 cx c xmin 16 in
      let limit := limit0 + 1 in
      let! r1 := find_root cx2 cx c (xmin - limit) xmin in
      let! r2 := find_root cx2 cx c xmin (xmin + limit) in
      match r1, r2 with
      | Some min, Some max =>
          let! r := mr_or mr_new i64_min min in
          let! r := mr_or r max i64_max in
          Ok (mr_and r tmin i64_max)
      | _, _ => Panic
      end.

(** integer_curve.rs:337-347, [speed_limited_curve]; div_mod_floor is Z.div and
    Z.modulo. *)
Definition speed_limited_curve (ds v0 vn a vmax : Z) : res mrange :=
  let! _ := assert (negb (a =? 0)) in
  let t1 := (vmax - v0 + a - 1) / a in
  let dv1 := (vmax - v0 + a - 1) mod a in
  let t4 := (vmax - vn + a - 1) / a in
  let dv4 := (vmax - vn + a - 1) mod a in
  let s0 := (2 * v0 + t1 * a) * t1 + (dv1 - (a - 1)) + (2 * vn + t4 * a) * t4 + (dv4 - (a - 1)) in
  if ds >=? s0 then
    let! _ := assert (negb (vmax =? 0)) in
    mr_or mr_new (t1 + t4 + Z.quot (ds - s0 + 2 * vmax - 1) (2 * vmax)) i64_max
  else Ok mr_new.

(** integer_curve.rs:374-431, [adjust_curve_mid]. *)
Definition adjust_curve_mid (t_total ds v0 vn a : Z) : res (option distance_path) :=
  let '(v_low, v_high) := if v0 <=? vn then (v0, vn) else (vn, v0) in
  let! _ := assert (negb (a =? 0)) in
  let t_acc := Z.quot (v_high - v_low - 1) a in
  let k := 2 * (v_low - v_high + a * t_total) in
  let m := v_low - v_high + a * t_acc + 2 * (v_high - a * t_acc) * t_total + a * t_acc * t_acc in
  if k =? 0 then
    Ok (Some (mk_path v0 vn a (v_low + a) t_total 0))
  else
    let smax := k * t_acc + m in
    let smin := (2 * v_high - t_acc * a) * t_acc
                + v_high - t_acc * a + v_low
                + 2 * v_low * (t_total - t_acc - 1) in
    if (smax <? ds) || (smin >? ds) then Ok None
    else
      let! _ := assert (k >? 0) in
      let! _ := assert (ds - m + k >=? 0) in
      let t := Z.quot (ds - m + k) k in
      let s_high := k * t + m in
      let s_split := (2 * v_low + a * t) * t
                     + 2 * (v_low + a * t) * (t_total - t_acc - 1)
                     + v_high - (t_acc - t) * a + v_low + t * a
                     + (2 * v_high - (t_acc - t) * a) * (t_acc - t) in
      let! (v_flat, s) :=
        (if ds >=? s_split then
           let v_max := v_high - a * (t_acc - t) in
           let! _ := assert (negb (2 * (t_total - t_acc - 1) =? 0)) in
           let v_flat := v_max - Z.quot (s_high - ds) (2 * (t_total - t_acc - 1)) in
           Ok (v_flat, s_high - 2 * (v_max - v_flat) * (t_total - t_acc - 1))
         else
           let v_min := v_low + a * t in
           let! _ := assert (negb (2 * (t_total - t_acc) =? 0)) in
           let v_flat := v_min - Z.quot (s_split - ds) (2 * (t_total - t_acc)) in
           Ok (v_flat, s_split - 2 * (v_min - v_flat) * (t_total - t_acc))) in
      Ok (Some (mk_path v0 vn a v_flat t_total (Z.quot (ds - s) 2))).

(** integer_curve.rs:485-499, the binary search; returns (min, smin, max, smax). *)
Fixpoint adjust_loop (fuel : nat) (t_total ds v0 vn a min smin max smax : Z)
  : res (Z * Z * Z * Z) :=
  if max - min <=? 1 then Ok (min, smin, max, smax)
  else
    match fuel with
    | O => OutOfFuel
    | S f =>
        let mid := Z.quot (max + min) 2 in
        let! s := path_distance v0 vn mid a t_total in
        if s >=? ds
        then adjust_loop f t_total ds v0 vn a min smin mid s
        else adjust_loop f t_total ds v0 vn a mid s max smax
    end.

(** integer_curve.rs:457-477, highest and lowest reachable velocity. *)
Definition adjust_bounds (t_total v0 vn a : Z) : res (Z * Z) :=
  let! _ := assert (negb (a =? 0)) in
  let tmid_low := Z.quot (t_total * a - (v0 - vn)) (2 * a) in
  let tmid_high := Z.quot (t_total * a - (vn - v0)) (2 * a) in
  let! _ := assert (tmid_low + tmid_high <=? t_total) in
  let! _ := assert (tmid_low + tmid_high >=? t_total - 1) in
  let max :=
    if tmid_high =? 0 then v0 + tmid_low * a
    else if tmid_low =? 0 then vn + tmid_high * a
    else max_i64 (v0 + tmid_low * a) (vn + tmid_high * a) in
  let min :=
    if tmid_high =? 0 then vn + tmid_low * - a
    else if tmid_low =? 0 then v0 + tmid_high * - a
    else min_i64 (v0 + tmid_high * - a) (vn + tmid_low * - a) in
  let! _ := assert (max >=? min) in
  Ok (min, max).

(** integer_curve.rs:433-522, [adjust_curve]. *)
Definition adjust_curve (t_total ds v0 vn a : Z) : res distance_path :=
  if t_total =? 1 then
    let! _ := assert (Z.abs (v0 + vn - ds) <=? 1) in
    Ok (mk_path v0 vn a v0 1 0)
  else
    let! o := adjust_curve_mid t_total ds v0 vn a in
    match o with
    | Some path => Ok path
    | None =>
        let! (min, max) := adjust_bounds t_total v0 vn a in
        let! smax := path_distance v0 vn max a t_total in
        let! smin := path_distance v0 vn min a t_total in
        let! _ := assert (smax >=? ds) in
        let! _ := assert (smin <=? ds) in
        let! (min, smin, max, smax) :=
          adjust_loop (bisect_fuel (max - min)) t_total ds v0 vn a min smin max smax in
        if smax =? ds then Ok (mk_path v0 vn a max t_total 0)
        else if smin =? ds then Ok (mk_path v0 vn a min t_total 0)
        else if (v0 >? min) || (vn >? min) then
          Ok (mk_path v0 vn a min t_total (Z.quot (ds - smin) 2))
        else
          Ok (mk_path v0 vn a max t_total (Z.quot (ds - smax) 2))
    end.

(** integer_curve.rs:534-544, [shortest_curve_length]. *)
Definition shortest_curve_length (ds v0 vn a vmax : Z) : res mrange :=
  let! pos := speed_limited_curve ds v0 vn a vmax in
  let! pos := (if mr_is_empty pos then max_acceleration_curve ds v0 vn a else Ok pos) in
  let! neg := speed_limited_curve (- ds) (- v0) (- vn) a vmax in
  let! neg := (if mr_is_empty neg then max_acceleration_curve (- ds) (- v0) (- vn) a
               else Ok neg) in
  Ok (mr_and_range pos neg).

(** integer_curve.rs:557-560, [shortest_curve]. *)
Definition shortest_curve (ds v0 vn a vmax : Z) : res distance_path :=
  let! r := shortest_curve_length ds v0 vn a vmax in
  let! (t, _) := unwrap (mr_bounds r) in
  adjust_curve t ds v0 vn a.

(** integer_curve.rs:564-575, PathLimits; [i64::from] on i32 fields is the
    identity here. *)
Record path_limits := mk_limits {
  l_ds : Z; l_v0 : Z; l_vn : Z; l_a : Z; l_vmax : Z
}.

(** integer_curve.rs:592-600. *)
Fixpoint and_limits (r : mrange) (limits : list path_limits) : res mrange :=
  match limits with
  | [] => Ok r
  | l :: t =>
      let! rl := shortest_curve_length (l_ds l) (l_v0 l) (l_vn l) (l_a l) (l_vmax l) in
      and_limits (mr_and_range r rl) t
  end.

(** integer_curve.rs:602-607. *)
Fixpoint seqs_for (t : Z) (limits : list path_limits) : res (list (list seg)) :=
  match limits with
  | [] => Ok []
  | l :: rest =>
      let! path := adjust_curve t (l_ds l) (l_v0 l) (l_vn l) (l_a l) in
      let! s := acc_seq path in
      let! r := seqs_for t rest in
      Ok (s :: r)
  end.

(** integer_curve.rs:589-608, [shortest_curve_sequences]. *)
Definition shortest_curve_sequences (limits : list path_limits) : res (list (list seg)) :=
  let! r := mr_or mr_new i64_min i64_max in
  let! r := and_limits r limits in
  let! (t, _) := unwrap (mr_bounds r) in
  seqs_for t limits.
