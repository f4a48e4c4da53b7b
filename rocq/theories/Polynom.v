(** Model of src/curves/polynom.rs: polynomials in arrays of fixed size and their roots in
    a range.

    The code is generic in the type of the coefficients (PolynomCoef, 36-48); so is the
    model.  It is used with the reals and with binary64. *)
From Coq Require Import Reals ZArith List Bool.
From Verif Require Import Base Polynomials Floats.
Import ListNotations.

(** polynom.rs:36-48 PolynomCoef.  [From<i8>] is applied to values of i8 only; [PartialOrd] is
    given by [<], [PartialEq] by [=]. *)
Record coef (T : Type) := mk_coef {
  k_add : T -> T -> T;
  k_mul : T -> T -> T;
  k_div : T -> T -> T;
  k_neg : T -> T;
  k_of : Z -> T;
  k_eqb : T -> T -> bool;
  k_ltb : T -> T -> bool;
  k_close : T -> bool }.
Arguments k_add {T}. Arguments k_mul {T}. Arguments k_div {T}. Arguments k_neg {T}.
Arguments k_of {T}. Arguments k_eqb {T}. Arguments k_ltb {T}. Arguments k_close {T}.

Definition as_i8 := wrap_s 8.

(** [a[i] = v] *)
Fixpoint store {T} (l : list T) (i : nat) (v : T) : res (list T) :=
  match l, i with
  | [], _ => Panic
  | _ :: r, O => Ok (v :: r)
  | a :: r, S i => let! r := store r i v in Ok (a :: r)
  end.

Section WithCoef.
Context {T : Type} (K : coef T).

(** polynom.rs:11-22 value; [poly[1..n]] needs 1 <= n <= N. *)
Definition value (poly : list T) (n : nat) (t : T) : res T :=
  match poly with
  | [] => Panic
  | p0 :: rest =>
      match n with
      | O => Panic
      | S m =>
          if Nat.ltb (length rest) m then Panic
          else Ok (fst (fold_left (fun '(sum, f) p => (k_add K sum (k_mul K f p), k_mul K f t)) (firstn m rest) (p0, t)))
      end
  end.

(** polynom.rs:24-34 deriv; [N - 1] underflows for an empty array, [(i + 1) as i8] wraps. *)
Definition deriv (poly : list T) : res (list T) :=
  match poly with
  | [] => Panic
  | _ :: rest =>
      Ok (mapi_from (fun i p => k_mul K (k_of K (as_i8 (Z.of_nat i + 1))) p) 0 rest ++ [k_of K 0])
  end.

(** polynom.rs:77-85, the loop of find_single_root. *)
Fixpoint single_loop (fuel : nat) (poly : list T) (n : nat) (low high : T) : res T :=
  if k_close K (k_add K high (k_neg K low)) then Ok low
  else
    match fuel with
    | O => OutOfFuel
    | S fuel =>
        let mid := k_div K (k_add K high low) (k_of K 2) in
        let! v := value poly n mid in
        if k_ltb K v (k_of K 0) then single_loop fuel poly n mid high
        else single_loop fuel poly n low mid
    end.

(** polynom.rs:58-87 find_single_root *)
Definition find_single_root (fuel : nat) (poly : list T) (n : nat) (low high : T) : res (option T) :=
  let! low_value := value poly n low in
  let! high_value := value poly n high in
  if k_ltb K (k_of K 0) (k_mul K high_value low_value) then Ok None
  else
    let '(low, high) := if k_ltb K high_value low_value then (high, low) else (low, high) in
    let! r := single_loop fuel poly n low high in
    Ok (Some r).

(** [partial_cmp(..).unwrap()] panics for values that do not compare. *)
Definition comparable (a b : T) : bool := k_ltb K a b || k_ltb K b a || k_eqb K a b.
Fixpoint all_comparable (l : list T) : bool :=
  match l with
  | [] => true
  | a :: r => forallb (comparable a) r && all_comparable r
  end.
Fixpoint insert (a : T) (l : list T) : list T :=
  match l with
  | [] => [a]
  | b :: r => if k_ltb K b a then b :: insert a r else a :: l
  end.
(** [sort_by(|a, b| a.partial_cmp(b).unwrap())], a stable sort: the order is determined if all
    values compare. *)
Definition sort_values (l : list T) : res (list T) :=
  if all_comparable l then Ok (fold_right insert [] l) else Panic.

(** polynom.rs:126-140, the loop over the pieces of the range: [highs] are the ends of the
    pieces, [low] the start of the next. *)
Fixpoint pieces (fuel : nat) (poly : list T) (n : nat) (last : T) (low : T) (highs : list T)
  (roots : list T) (n_roots : nat) : res (list T * nat) :=
  match highs with
  | [] => Ok (roots, n_roots)
  | high :: rest =>
      if k_ltb K last high then Ok (roots, n_roots)
      else
        let! (roots, n_roots) :=
          if k_ltb K low high then
            let! root := find_single_root fuel poly n low high in
            match root with
            | None => Ok (roots, n_roots)
            | Some root =>
                let! fresh :=
                  match n_roots with
                  | O => Ok true
                  | S m =>
                      let! prev := unwrap (nth_error roots m) in
                      Ok (negb (k_close K (k_add K prev (k_neg K root))))
                  end in
                if fresh : bool then
                  let! roots := store roots n_roots root in Ok (roots, S n_roots)
                else Ok (roots, n_roots)
            end
          else Ok (roots, n_roots) in
        pieces fuel poly n last high rest roots n_roots
  end.

(** polynom.rs:89-145 find_roots: an array of which the first entries are the roots, and
    their number.  The loop that lowers [n] while the highest coefficient is 0 is the first
    case of the recursion. *)
Fixpoint find_roots (fuel : nat) (n : nat) (poly : list T) (lo hi : T) : res (list T * nat) :=
  let zeros := map (fun _ => k_of K 0) poly in
  match n with
  | O => let! roots := store zeros 0 (k_of K 0) in Ok (roots, 1%nat)
  | S m =>
      let! top := unwrap (nth_error poly m) in
      if k_eqb K top (k_of K 0) then find_roots fuel m poly lo hi
      else
        match m with
        | O => Ok (zeros, 0%nat)
        | S O =>
            let! c0 := unwrap (nth_error poly 0) in
            let! c1 := unwrap (nth_error poly 1) in
            let v1 := k_add K c0 (k_mul K c1 lo) in
            let v2 := k_add K c0 (k_mul K c1 hi) in
            if k_ltb K (k_mul K v1 v2) (k_of K 0) then
              let! roots := store zeros 0 (k_neg K (k_div K c0 c1)) in Ok (roots, 1%nat)
            else Ok (zeros, 0%nat)
        | S (S _) =>
            let! d := deriv poly in
            let! (extremes, n_extremes) := find_roots fuel m d lo hi in
            let! sorted := sort_values (firstn n_extremes extremes) in
            let! extremes := store (sorted ++ skipn n_extremes extremes) n_extremes hi in
            pieces fuel poly n hi lo (firstn (S n_extremes) extremes) zeros 0
        end
  end.

(** polynom.rs:151-156 Polynom::value *)
Definition polynom_value (c : list T) (t : T) : res T := value c (length c) t.
(** polynom.rs:162-167 Polynom::real_roots *)
Definition real_roots (fuel : nat) (c : list T) (lo hi : T) : res (list T * nat) := find_roots fuel (length c) c lo hi.
End WithCoef.

(** polynom.rs:50-54 close_to_zero over the reals *)
Definition tolerance : R := (10 * f64_epsilon)%R.
Definition R_close (a : R) : bool :=
  if Rle_dec (- tolerance)%R a then if Rle_dec a tolerance then true else false else false.
Definition R_ltb (a b : R) : bool := if Rlt_dec a b then true else false.
Definition R_eqb (a b : R) : bool := if Req_EM_T a b then true else false.
(** f64 read as the reals: no rounding. *)
Definition R_coef : coef R := mk_coef R Rplus Rmult Rdiv Ropp IZR R_eqb R_ltb R_close.

(** polynom.rs:50-54 with binary64; f64::EPSILON is 2^-52. *)
Definition f_tolerance : f64 := fmul (lit 10 1) (lit 1 (2 ^ 52)).
Definition f_close (a : f64) : bool := fle (fmul (lit (-10) 1) (lit 1 (2 ^ 52))) a && fle a f_tolerance.
Definition F_coef : coef f64 := mk_coef f64 fadd fmul fdiv fneg f_of_Z feq flt f_close.
