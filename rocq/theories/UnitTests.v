(** Model of the tests in integer_curve.rs and solve.rs: the functions compiled
    for the tests only, what they assert, and the loops that call them.  What
    they print is left out.  i64 arithmetic is on unbounded integers. *)
From Coq Require Import ZArith List Bool.
From Verif Require Import Base MultiRange AccVector Solve IntegerCurve.
Import ListNotations.
Open Scope Z_scope.

(** [for x in lo..hi { body }] *)
Fixpoint each (xs : list Z) (body : Z -> res unit) : res unit :=
  match xs with
  | [] => Ok tt
  | x :: r => let! _ := body x in each r body
  end.
Definition span (lo hi : Z) : list Z := map (fun i => lo + Z.of_nat i) (seq 0 (Z.to_nat (hi - lo))).
Definition for_in (lo hi : Z) (body : Z -> res unit) : res unit := each (span lo hi) body.

(** ** integer_curve.rs *)

(** integer_curve.rs:610-631 *)
Definition check_max_acceleration_curve (ds v0 vn a : Z) : res unit :=
  let! range := max_acceleration_curve ds v0 vn a in
  match mr_bounds range with
  | None => Ok tt
  | Some (n, _) =>
      let! _ := assert (negb (2 * a =? 0)) in
      let dt1 := Z.quot (a * n + vn - v0) (2 * a) in
      let dt2 := Z.quot (a * n + v0 - vn) (2 * a) in
      let! _ := assert (dt1 >=? 0) in
      let! _ := assert (dt2 >=? 0) in
      let! _ := assert (dt2 + dt1 >=? n - 1) in
      let! _ := assert (dt2 + dt1 <=? n) in
      let ds2 := (a * dt1 + 2 * v0) * dt1 + (a * dt2 + 2 * vn) * dt2 + (n - dt1 - dt2) * (v0 + a * dt1 + vn + a * dt2) in
      assert (ds2 >=? ds)
  end.

(** integer_curve.rs:633-644 *)
Definition test_max_acceleration_curve : res unit :=
  for_in (-20) 20 (fun ds => for_in (-5) 5 (fun v0 => for_in (-5) 5 (fun vn => for_in 1 6 (fun a =>
    check_max_acceleration_curve ds v0 vn a)))).

(** integer_curve.rs:650-652, the body of the loops of test_div_rem_away, and 646-655 *)
Definition check_div_rem_away (a b : Z) : res unit :=
  let! (q, r) := div_rem_away a b in
  let! _ := assert (Z.abs (b * q) >=? Z.abs a) in
  assert (b * q + r =? a).
Definition test_div_rem_away : res unit := for_in (-20) 20 (fun a => for_in 1 20 (fun b => check_div_rem_away a b)).

(** integer_curve.rs:657-663 *)
Definition test_adjust_curve : res unit :=
  let ds := 23 in
  let! adjusted := adjust_curve 6 ds (-5) 3 4 in
  let! d := path_dist adjusted in
  assert (Z.abs (d - ds) <=? 1).

(** integer_curve.rs:674-684, the body of the innermost loop of test_adjust_curve_mid *)
Definition check_adjust_curve_mid (t_total ds v0 vn a : Z) : res unit :=
  let! r := adjust_curve_mid t_total ds v0 vn a in
  match r with
  | None => Panic
  | Some adjusted => let! d := path_dist adjusted in assert (Z.abs (d - ds) <=? 1)
  end.

(** integer_curve.rs:672-685, the loop over the distances *)
Definition check_adjust_all (t_total v0 vn a : Z) : res unit :=
  let! s_min := path_distance v0 vn v0 a t_total in
  let! s_max := path_distance v0 vn vn a t_total in
  for_in s_min s_max (fun ds => check_adjust_curve_mid t_total ds v0 vn a).

(** integer_curve.rs:665-688 *)
Definition test_adjust_curve_mid : res unit :=
  let a := 3 in
  for_in (-5) 5 (fun v0 => for_in v0 (v0 + 10) (fun vn =>
    let n_min := Z.quot (vn - v0 + a - 1) a in
    for_in n_min (n_min + 3) (fun t_total => check_adjust_all t_total v0 vn a))).

(** integer_curve.rs:696-706 and 722-732: the path of test_path_distance and test_acc_sequence *)
Definition test_path (v0 a dv1 dv4 : Z) : distance_path :=
  let t1 := Z.quot (Z.abs dv1 + a - 1) a in
  let t4 := Z.quot (Z.abs dv4 + a - 1) a in
  mk_path v0 (v0 + dv1 + dv4) a (v0 + dv1) (t1 + t4 + 3) 0.

(** integer_curve.rs:708-711 and 690-714 *)
Definition check_path_distance (v0 a dv1 dv4 : Z) : res unit :=
  let path := test_path v0 a dv1 dv4 in
  let! d1 := path_dist path in
  let! d2 := path_distance v0 (p_vn path) (p_vflat path) a (p_t_total path) in
  assert (d1 =? d2).
Definition test_path_distance : res unit :=
  for_in (-7) 7 (fun dv1 => for_in (-7) 7 (fun dv4 => check_path_distance (-2) 4 dv1 dv4)).

(** integer_curve.rs:734-745, the sum over the segments *)
Fixpoint sum_segments (s v : Z) (segs : list seg) : res (Z * Z) :=
  match segs with
  | [] => Ok (s, v)
  | (l, a) :: r =>
      let! _ := assert (l >? 0) in
      let vp := v in
      let v := v + l * a in
      sum_segments (s + (vp + v) * l) v r
  end.

(** integer_curve.rs:733-748 and 716-751 *)
Definition check_acc_sequence (v0 a dv1 dv4 : Z) : res unit :=
  let path := test_path v0 a dv1 dv4 in
  let! seq := acc_seq path in
  let! (s, _) := sum_segments 0 v0 seq in
  let! d := path_distance v0 (p_vn path) (p_vflat path) a (p_t_total path) in
  let! _ := assert (s =? d) in
  let! v0' := chk_i32 v0 in
  let! (d', _) := acc_distance seq v0' in
  assert (s =? d').
Definition test_acc_sequence : res unit :=
  for_in (-7) 7 (fun dv1 => for_in (-7) 7 (fun dv4 => check_acc_sequence (-2) 4 dv1 dv4)).

(** integer_curve.rs:753-801 *)
Definition check_shortest_curve (ds v0 vn a vmax : Z) : res unit :=
  let! path := shortest_curve ds v0 vn a vmax in
  let! d := path_dist path in
  let! _ := assert (Z.abs (d - ds) <=? 1) in
  let! _ := assert (Z.abs (p_vflat path) <=? vmax) in
  let! _ := assert (Z.abs (p_vflat path + (if p_t_adjust path =? 0 then 0 else if p_t_adjust path >? 0 then 1 else -1)) <=? vmax) in
  let! _ := assert (negb (a =? 0)) in
  let t1 := Z.quot ((p_vflat path - p_v0 path) + a - 1) a in
  let t4 := Z.quot ((p_vflat path - p_vn path) + a - 1) a in
  let! _ := assert (t1 + t4 <=? p_t_total path) in
  let! _ := assert (p_t_total path >? p_t_adjust path) in
  let! _ := assert (p_t_total path - (t1 + t4) >=? p_t_adjust path) in
  let! _ := (if negb (p_t_adjust path =? 0) then
               let t_flat := p_t_total path - t1 - t4 in
               let t_flat := if t1 =? 0 then t_flat - 1 else t_flat in
               let t_flat := if t4 =? 0 then t_flat - 1 else t_flat in
               assert (t_flat >=? 1)
             else Ok tt) in
  let! seq := acc_seq path in
  let! v0' := chk_i32 v0 in
  let! (d', _) := acc_distance seq v0' in
  assert (d =? d').

(** integer_curve.rs:803-816 *)
Definition test_shortest_curve : res unit :=
  for_in (-40) 40 (fun ds => for_in 1 7 (fun vmax => for_in (- vmax) (vmax + 1) (fun v0 => for_in (- vmax) (vmax + 1) (fun vn => for_in 1 6 (fun a =>
    check_shortest_curve ds v0 vn a vmax))))).

(** ** solve.rs *)

(** solve.rs:98-116.  [/] truncates; d = 0 panics unless n = 0. *)
Definition ceil_idiv (n d : Z) : res Z :=
  if n =? 0 then Ok 0
  else if d >? 0 then Ok (if n >=? 0 then Z.quot (n + d - 1) d else - Z.quot (- n) d)
  else let! _ := assert (negb (- d =? 0)) in Ok (if n >=? 0 then - Z.quot n (- d) else Z.quot (- n - d - 1) (- d)).

(** solve.rs:118-136 *)
Definition floor_idiv (n d : Z) : res Z :=
  if n =? 0 then Ok 0
  else if d >? 0 then Ok (if n >=? 0 then Z.quot n d else - Z.quot (- n + d - 1) d)
  else let! _ := assert (negb (- d =? 0)) in Ok (if n >=? 0 then - Z.quot (n - d - 1) (- d) else Z.quot (- n) (- d)).

(** solve.rs:138-153.  [-d / 2] is [(-d) / 2]. *)
Definition round_idiv (n d : Z) : res Z :=
  if d >? 0 then Ok (if n >=? 0 then Z.quot (n + Z.quot d 2) d else - Z.quot (- n + Z.quot d 2) d)
  else let! _ := assert (negb (- d =? 0)) in
       Ok (if n >=? 0 then - Z.quot (n + Z.quot (- d) 2) (- d) else Z.quot (- n + Z.quot (- d) 2) (- d)).

(** solve.rs:159-177, the body of the loops, and 155-179 *)
Definition check_idiv (n d : Z) : res unit :=
  if d =? 0 then Ok tt
  else
    let! ceil_q := ceil_idiv n d in
    let! floor_q := floor_idiv n d in
    let! round_q := round_idiv n d in
    let! _ := (if d >? 0 then let! _ := assert (ceil_q * d >=? n) in assert (floor_q * d <=? n)
               else let! _ := assert (ceil_q * d <=? n) in assert (floor_q * d >=? n)) in
    let! _ := assert (Z.abs (ceil_q - floor_q) <=? 1) in
    let! _ := assert (round_q <=? ceil_q) in
    let! _ := assert (round_q >=? floor_q) in
    assert (Z.abs (2 * (round_q * d - n)) <=? Z.abs d).
Definition idiv_test : res unit := for_in (-13) 14 (fun n => for_in (-5) 5 (fun d => check_idiv n d)).

(** solve.rs:181-204 *)
Definition find_root_check_limits (a b c min max : Z) : res unit :=
  let! xmin := round_idiv (- b) (2 * a) in
  let! r := find_root a b c min max in
  if 4 * a * c + b * b <? 0 then match r with None => Ok tt | Some _ => Panic end
  else
    match r with
    | Some root =>
        let! _ := assert (sqpoly a b c root >=? 0) in
        if root >? xmin then assert (sqpoly a b c (root - 1) <? 0)
        else if root <? xmin then assert (sqpoly a b c (root + 1) <? 0)
        else Ok tt
    | None => assert (sqpoly a b c xmin >=? 0)
    end.

(** solve.rs:206-215 *)
Definition find_root_check (a b c : Z) : res unit :=
  let! xmin := round_idiv (- b) (2 * a) in
  let! _ := find_root_check_limits a b c xmin 2642245 in
  find_root_check_limits a b c (-2642245) xmin.

(** solve.rs:217-226 *)
Definition find_root_test : res unit :=
  for_in 1 3 (fun a => for_in (-5) 5 (fun b => for_in (-1) 64 (fun c => find_root_check a b c))).

(** solve.rs:228-236: what the calls return is compared with these. *)
Definition find_roots_vectors : list ((Z * Z * Z) * (Z * Z)) :=
  [((4, -12, -8), (1, 2)); ((4, -12, -7), (0, 3)); ((9, -90, -225), (5, 5)); ((4, -12, -9), (1, 2)); ((9, -27, -20), (1, 2)); ((9, -21, -12), (1, 2))].
Definition find_roots_test : res unit :=
  fold_right (fun '((a, b, c), (x1, x2)) rest =>
    let! r := find_roots a b c in
    let! _ := (match r with Some (y1, y2) => assert ((y1 =? x1) && (y2 =? x2)) | None => Panic end) in rest) (Ok tt) find_roots_vectors.

(** ** multi_range.rs *)

(** assert_eq! and assert_ne! on ranges (derived PartialEq). *)
Fixpoint mr_eqb (a b : mrange) : bool :=
  match a, b with
  | [], [] => true
  | (l, h) :: a, (l', h') :: b => (l =? l') && (h =? h') && mr_eqb a b
  | _, _ => false
  end.
(** multi_range.rs:259-264 *)
Definition new_from_slice (a : list (Z * Z)) : res mrange := mr_or_slice mr_new a.
(** multi_range.rs:242-256 *)
Definition check_and (a b r : mrange) : res unit :=
  let! _ := assert (mr_eqb (mr_and_range a b) r) in
  let! _ := assert (mr_eqb (mr_and_range b a) r) in
  let! _ := (match a with [(l, h)] => assert (mr_eqb (mr_and b l h) r) | _ => Ok tt end) in
  match b with [(l, h)] => assert (mr_eqb (mr_and a l h) r) | _ => Ok tt end.

(** multi_range.rs:215-240 *)
Definition or_test : res unit :=
  let step r l h expected eq :=
    let! r := mr_or r l h in
    let! e := new_from_slice expected in
    let! _ := assert (Bool.eqb (mr_eqb r e) eq) in Ok r in
  let! r := mr_or mr_new 10 34 in
  let! r := step r 2 7 [(2, 7); (10, 34)] true in
  let! r := step r 8 9 [(2, 7); (8, 9); (10, 34)] true in
  let! r := step r 7 8 [(2, 9); (10, 34)] true in
  let! r := step r 1 33 [(1, 34)] true in
  let! r := mr_or mr_new 1 7 in
  let! r := step r 8 23 [(1, 23)] false in
  let! r := mr_or mr_new 1 7 in
  let! r := step r 7 23 [(1, 23)] true in
  let! r := step r 1 23 [(1, 23)] true in
  let! r := step r (-5) 27 [(-5, 27)] true in
  Ok tt.

(** multi_range.rs:266-299 *)
Definition and_test : res unit :=
  let eq_slice r expected := let! e := new_from_slice expected in assert (mr_eqb r e) in
  let and_slices r a expected :=
    let! a := new_from_slice a in let! e := new_from_slice expected in check_and r a e in
  let! r := new_from_slice [(1, 9); (10, 34)] in
  let! o := new_from_slice [(8, 12)] in
  let! _ := eq_slice (mr_and_range r o) [(8, 9); (10, 12)] in
  let! _ := eq_slice (mr_and_range o r) [(8, 9); (10, 12)] in
  let! _ := and_slices mr_new [] [] in
  let! _ := and_slices mr_new [(8, 12)] [] in
  let! r := new_from_slice [(2, 5); (10, 23)] in
  let! _ := and_slices r [(5, 10)] [] in
  let! _ := and_slices r [(5, 11)] [(10, 11)] in
  let! _ := and_slices r [(4, 10)] [(4, 5)] in
  let! _ := and_slices r [(0, 4)] [(2, 4)] in
  let! _ := and_slices r [(20, 40)] [(20, 23)] in
  and_slices r [(0, 40)] [(2, 5); (10, 23)].
