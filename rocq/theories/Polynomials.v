(** Model of src/curves/sqrt_poly.rs: polynomials as coefficient lists (lowest
    degree first), Taylor sequences of the square root of a polynomial and the
    arc length tables built from them.

    Numbers are reals: rounding, NaN and infinities are not modelled.  Index
    errors, subtraction below zero on usize and u16 overflow are [Panic]. *)
From Coq Require Import Reals ZArith List Lia.
From Verif Require Import Base.
Import ListNotations.
Open Scope R_scope.

(** sqrt_poly.rs:11-19 polyval, the loop from the highest coefficient down. *)
Fixpoint polyval (p : list R) (t : R) : R :=
  match p with
  | [] => 0
  | a :: r => polyval r t * t + a
  end.

(** [iter().enumerate()] with a map. *)
Fixpoint mapi_from {A B} (f : nat -> A -> B) (k : nat) (l : list A) : list B :=
  match l with
  | [] => []
  | a :: r => f k a :: mapi_from f (S k) r
  end.

(** sqrt_poly.rs:21-28 polyder; [len - 1] underflows on the empty slice. *)
Definition polyder (p : list R) : res (list R) :=
  match p with
  | [] => Panic
  | _ :: r => Ok (mapi_from (fun i a => a * INR (i + 1)) 0 r)
  end.

(** sqrt_poly.rs:30-38 polyint *)
Definition polyint (p : list R) : list R :=
  0 :: mapi_from (fun i a => a / INR (i + 1)) 0 p.

(** sqrt_poly.rs:45-50: coefficient [i] of the product. *)
Definition mul_coeff (a b : list R) (i : nat) : R :=
  let alen := length a in
  let blen := length b in
  let low_b := if Nat.leb alen i then (i - alen + 1)%nat else 0%nat in
  let high_b := (Nat.min i (blen - 1) + 1)%nat in
  fold_left (fun sum j => sum + nth (i - j) a 0 * nth j b 0)
            (seq low_b (high_b - low_b)) 0.

(** sqrt_poly.rs:40-54 polymul; [alen + blen - 1] underflows when both are
    empty, [blen - 1] when the loop runs with an empty [b]. *)
Definition polymul (a b : list R) : res (list R) :=
  match a, b with
  | [], [] => Panic
  | _ :: _ :: _, [] => Panic
  | _, _ => Ok (map (mul_coeff a b) (seq 0 (length a + length b - 1)))
  end.

(** sqrt_poly.rs:61-64: [sum[i] += a[i]] for all i of the shorter slice. *)
Fixpoint add_prefix (sum a : list R) : list R :=
  match sum, a with
  | x :: sum', y :: a' => (x + y) :: add_prefix sum' a'
  | _, _ => sum
  end.

(** sqrt_poly.rs:56-66 polyadd *)
Definition polyadd (a b : list R) : list R :=
  if Nat.ltb (length b) (length a) then add_prefix a b else add_prefix b a.

(** sqrt_poly.rs:3-9 SqrtPoly; c * s^(e/2) * P(t) *)
Record sqrt_poly := mk_sp { sp_c : R; sp_e : Z; sp_poly : list R }.

(** sqrt_poly.rs:68-72 DiffSqrtPoly *)
Record diff_sp := mk_dsp { d_t : R; d_base : list R; d_base_val : R }.

(** sqrt_poly.rs:75-81 DiffSqrtPoly::new *)
Definition dsp_new (base : list R) (t : R) : diff_sp :=
  mk_dsp t base (polyval base t).

(** sqrt_poly.rs:83-85 DiffSqrtPoly::eval.  [powf] is [Rpower], which agrees
    with it for a positive base only. *)
Definition dsp_eval (d : diff_sp) (sp : sqrt_poly) : R :=
  Rpower (d_base_val d) (IZR (sp_e sp) / 2) * sp_c sp * polyval (sp_poly sp) (d_t d).

(** sqrt_poly.rs:88-100 diff_single_sqrt_poly (the i32 exponent is unbounded
    here; it starts at 1 and falls by 2 in each of at most 6 rounds). *)
Definition diff_single_sqrt_poly (d : diff_sp) (sp : sqrt_poly)
  : res (sqrt_poly * sqrt_poly) :=
  let! db := polyder (d_base d) in
  let! m := polymul (sp_poly sp) db in
  let! dp := polyder (sp_poly sp) in
  Ok (mk_sp (sp_c sp * (1 / 2) * IZR (sp_e sp)) (sp_e sp - 2)%Z m,
      mk_sp (sp_c sp) (sp_e sp) dp).

(** sqrt_poly.rs:105-114: loop of diff_sqrt_poly *)
Fixpoint diff_loop (d : diff_sp) (spa : list sqrt_poly) (out : list sqrt_poly) (sum : R)
  : res (list sqrt_poly * R) :=
  match spa with
  | [] => Ok (out, sum)
  | sp :: rest =>
      let! (d1, d2) := diff_single_sqrt_poly d sp in
      let sum1 := sum + dsp_eval d d1 in
      let out1 := out ++ [d1] in
      match sp_poly d2 with
      | [] => diff_loop d rest out1 sum1
      | _ => diff_loop d rest (out1 ++ [d2]) (sum1 + dsp_eval d d2)
      end
  end.

(** sqrt_poly.rs:102-116 diff_sqrt_poly *)
Definition diff_sqrt_poly (d : diff_sp) (spa : list sqrt_poly)
  : res (list sqrt_poly * R) := diff_loop d spa [] 0.

(** sqrt_poly.rs:122-126: the loop of binomial_step.  [prev] is the local
    variable, the list is row[i..]. *)
Fixpoint bin_loop (prev : Z) (row : list Z) : res (list Z) :=
  match row with
  | [] => Ok []
  | x :: r =>
      match r with
      | [] => Ok [1%Z]
      | y :: _ =>
          let! prev' := chk_u16 (x + y)%Z in
          let! r' := bin_loop prev' r in
          Ok (prev :: r')
      end
  end.

(** sqrt_poly.rs:119-127 binomial_step *)
Definition binomial_step (row : list Z) : res (list Z) :=
  match row with
  | [] => Panic
  | _ :: r => bin_loop 1 (1%Z :: r)
  end.

(** sqrt_poly.rs:137-140: the values added to res[i], res[i-1], ..., res[0]. *)
Fixpoint offset_row (pi : R) (bin : list Z) (f offset : R) : list R :=
  match bin with
  | [] => []
  | b :: r => pi * IZR b * f :: offset_row pi r (f * offset) offset
  end.

(** sqrt_poly.rs:134-142: outer loop of polyoffset; [bin] is bin[..i]. *)
Fixpoint offset_loop (p : list R) (bin : list Z) (offset : R) (out : list R)
  : res (list R) :=
  match p with
  | [] => Ok out
  | pi :: rest =>
      let! bin' := binomial_step (bin ++ [0%Z]) in
      offset_loop rest bin' offset (add_prefix out (rev (offset_row pi bin' 1 offset)))
  end.

(** sqrt_poly.rs:129-144 polyoffset *)
Definition polyoffset (p : list R) (offset : R) : res (list R) :=
  offset_loop p [] offset (repeat 0 (length p)).

(** sqrt_poly.rs:146-151 polyweight *)
Definition polyweight (a : list R) (ta : R) (b : list R) (tb : R) : res (list R) :=
  let! wa := polymul [- tb / (ta - tb); 1 / (ta - tb)] a in
  let! wb := polymul [- ta / (tb - ta); 1 / (tb - ta)] b in
  Ok (polyadd wa wb).

(** sqrt_poly.rs:170-176 new_sqrt_poly *)
Definition new_sqrt_poly : sqrt_poly := mk_sp 1 1 [1].

(** sqrt_poly.rs:162-166: loop of taylor_sequence, [i] the counter, [k] the
    rounds left. *)
Fixpoint taylor_loop (d : diff_sp) (k i : nat) (sp : list sqrt_poly) (factorial : R)
  : res (list R) :=
  match k with
  | O => Ok []
  | S k' =>
      let! (sp', value) := diff_sqrt_poly d sp in
      let factorial' := factorial * INR i in
      let! r := taylor_loop d k' (S i) sp' factorial' in
      Ok (value / factorial' :: r)
  end.

(** sqrt_poly.rs:155-168 taylor_sequence *)
Definition taylor_sequence (p : list R) (t0 : R) (n : nat) : res (list R) :=
  let d := dsp_new p t0 in
  let! r := taylor_loop d (n - 1) 1 [new_sqrt_poly] 1 in
  Ok (sqrt (polyval p t0) :: r).

(** sqrt_poly.rs:179-182 IntegralSegment *)
Record int_seg := mk_seg { seg_start : R; seg_int : list R }.

(** [int[0] = v] *)
Definition set_first (l : list R) (v : R) : res (list R) :=
  match l with
  | [] => Panic
  | _ :: r => Ok (v :: r)
  end.

(** sqrt_poly.rs:195-205: main loop of build_segments, [k] the rounds left;
    returns the segments pushed, int_sum and prev_seq. *)
Fixpoint build_loop (p : list R) (low step : R) (k i : nat)
  (prev_seq : list R) (int_sum : R) : res (list int_seg * R * list R) :=
  match k with
  | O => Ok ([], int_sum, prev_seq)
  | S k' =>
      let t0 := low + step * (INR i + 1 / 2) in
      let t_prev := t0 - step in
      let! seq := taylor_sequence p t0 7 in
      let! off := polyoffset seq (- step) in
      let! w := polyweight prev_seq 0 off step in
      let int := polyint w in
      let end_val := polyval int step in
      let! int' := set_first int int_sum in
      let! (segs, sum, last) := build_loop p low step k' (S i) seq (int_sum + end_val) in
      Ok (mk_seg t_prev int' :: segs, sum, last)
  end.

(** sqrt_poly.rs:184-218 build_segments ([n + 1] does not overflow u32 here). *)
Definition build_segments (p : list R) (low high : R) (n : nat) : res (list int_seg) :=
  let step := (high - low) / INR (n + 1) in
  let! prev_seq := taylor_sequence p (step * (1 / 2)) 7 in
  let! off := polyoffset prev_seq (- step * (1 / 2)) in
  let int := polyint off in
  let end_val := polyval int (step / 2) in
  let! int1 := set_first int 0 in
  let! (segs, int_sum, last) := build_loop p low step n 1 prev_seq (0 + end_val) in
  let int2 := polyint last in
  let end_val2 := polyval int2 (step * (1 / 2)) in
  let! int2' := set_first int2 int_sum in
  let int_sum3 := int_sum + end_val2 in
  let! off3 := polyoffset last (step * (1 / 2)) in
  let! int3 := set_first (polyint off3) int_sum3 in
  Ok (mk_seg low int1 :: segs ++ [mk_seg (high - step / 2) int2'; mk_seg high int3]).

(** Result of [binary_search_by]. *)
Inductive search_result := Found (i : nat) | Insert (i : nat).

(** What is assumed about [binary_search_by]: [Found i] is any matching index,
    [Insert i] a place between a smaller and a larger neighbour.  For a sorted
    slice this is what the standard library documents; the bisection it uses
    has this property for every slice.  Any result allowed by this relation is
    considered possible. *)
Definition search_ok {A} (key : A -> R) (l : list A) (x : R) (r : search_result) : Prop :=
  match r with
  | Found i => exists a, nth_error l i = Some a /\ key a = x
  | Insert i =>
      (i <= length l)%nat /\
      (forall k a, i = S k -> nth_error l k = Some a -> key a < x) /\
      (forall a, nth_error l i = Some a -> x < key a)
  end.

Definition get {A} (l : list A) (i : nat) : res A := unwrap (nth_error l i).

(** [i - 1] on usize *)
Definition pred_index (i : nat) : res nat :=
  match i with O => Panic | S k => Ok k end.

(** sqrt_poly.rs:220-225 eval_int; [r] is the result of the search on start. *)
Definition eval_int (r : search_result) (ints : list int_seg) (t : R) : res R :=
  match r with
  | Found i => let! s := get ints i in get (seg_int s) 0
  | Insert i =>
      let! k := pred_index i in
      let! s := get ints k in
      Ok (polyval (seg_int s) (t - seg_start s))
  end.

(** f64::EPSILON *)
Definition f64_epsilon : R := / 2 ^ 52.

(** sqrt_poly.rs:235-243: the bisection of find_param, which compares
    [high - low] with EPSILON. *)
Fixpoint bisect (fuel : nat) (p : list R) (l low high : R) : res R :=
  if Rlt_dec f64_epsilon (high - low) then
    match fuel with
    | O => OutOfFuel
    | S f =>
        let mid := (high + low) * (1 / 2) in
        if Rlt_dec l (polyval p mid) then bisect f p l low mid
        else bisect f p l mid high
    end
  else Ok low.

(** sqrt_poly.rs:227-247 find_param; [r] is the result of the search on int[0]. *)
Definition find_param (fuel : nat) (r : search_result) (ints : list int_seg) (l : R) : res R :=
  match r with
  | Found i => let! s := get ints i in Ok (seg_start s)
  | Insert i =>
      let! _ := assert (Nat.ltb i (length ints)) in
      let! k := pred_index i in
      let! s1 := get ints i in
      let! s0 := get ints k in
      let! low := bisect fuel (seg_int s0) l 0 (seg_start s1 - seg_start s0) in
      Ok (low + seg_start s0)
  end.
