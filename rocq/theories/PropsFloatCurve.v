(** Property C101: Bezier curves and lines in binary64. *)
From Coq Require Import ZArith Reals List Bool NArith Arith Lia Lra Psatz Ascii String.
From Flocq Require Import Core BinarySingleNaN.
From Verif Require Import Base Chars Floats FloatProofs FloatScale FloatErr ApproxCurve DrawCurves FloatPath
  Coords Curves PathBuild BuildProofs PropsBuild FloatPathProofs PropsFloatPath FloatCurve.
Import ListNotations.
Open Scope R_scope.

(** ** C101: the float evaluation of a curve stays on the curve

    [search] stands for slice::binary_search_by and [ints] for the Taylor tables; both
    are arbitrary here, so nothing depends on the tables being accurate or increasing. *)

(** The bisection ends: 50 halvings are enough for every table and length. *)
Theorem C101_ends : forall fuel search ints l, (50 <= fuel)%nat ->
  (forall keys x, search keys x <> OutOfFuel) -> ffind_param fuel search (ftable ints) l <> OutOfFuel.
Proof. exact find_param_ends. Qed.

(** The parameter found is a number between 0 and 1. *)
Theorem C101_parameter : forall fuel search ints l t, ffind_param fuel search (ftable ints) l = Ok t ->
  is_finite t = true /\ 0 <= B2R t <= 1.
Proof. exact find_param_unit. Qed.

(** The bisection closes in on the place where the polynomial passes [l]: it is not above
    [l] at the result and above it no more than an epsilon later, where the result
    and the later place may also be the ends of the interval. *)
Theorem C101_bracket : forall fuel p l low high r, fbisect fuel p l low high = Ok r ->
  exists h, fgt (fsub h r) fepsilon = false /\
    (r = low \/ fgt (fpolyval p r) l = false) /\ (h = high \/ fgt (fpolyval p h) l = true).
Proof.
  induction fuel as [|fuel IH]; intros p l low high r H; cbn [fbisect] in H.
  - destruct (fgt (fsub high low) fepsilon) eqn:G; [discriminate|]. injection H as <-. exists high. auto.
  - destruct (fgt (fsub high low) fepsilon) eqn:G.
    2: { injection H as <-. exists high. auto. }
    set (m := fmul (fadd high low) (lit 1 2)) in *.
    destruct (fgt (fpolyval p m) l) eqn:V; apply IH in H; destruct H as (h & A & [->|B] & [->|C]); eauto 6.
Qed.

(** Whatever length along the curve is asked for, the place returned is, up to rounding, a
    point of the curve; and at its length it is the end point. *)
Theorem C101_bezier : forall fuel search ints c1 c2 p2 curve W,
  1 <= W -> W <= 2 ^ 400 ->
  Forall (fun z : f64 => is_finite z = true /\ Rabs (B2R z) <= W) [fx c1; fy c1; fx c2; fy c2; fx p2; fy p2] ->
  fbezier fuel search ints c1 c2 p2 = Ok curve ->
  (forall pos p d, fc_value curve pos = Ok (p, d) -> exists t, 0 <= t <= 1 /\
    within (150 * W / 2 ^ 53) p (bernstein3 vzero (rv c1) (rv c2) (rv p2) t)) /\
  (is_finite (fc_length curve) = true -> 0 < B2R (fc_length curve) ->
   exists p d, fc_value curve (fc_length curve) = Ok (p, d) /\ within (150 * W / 2 ^ 53) p (rv p2)).
Proof.
  intros fuel search ints c1 c2 p2 curve W W1 W2 B H.
  destruct (bezier_curve fuel search ints c1 c2 p2 curve H) as [V E].
  assert (WW : W <= wide).
  { unfold wide. rewrite bpow_powerRZ. cbn [powerRZ]. replace (Pos.to_nat 400) with 400%nat by reflexivity. exact W2. }
  assert (HH : 2 * W <= huge) by (clear W2; pose proof wide_huge; assert (2 * W <= 16 * (wide * wide)) by nra; lra).
  clear W2. rewrite !Forall_cons_iff in B. destruct B as ([F1 B1] & [F2 B2] & [F3 B3] & [F4 B4] & [F5 B5] & [F6 B6] & _).
  assert (KEY : forall t, unit_param t ->
    within (150 * W / 2 ^ 53) (fst (fbezier_value c1 c2 p2 t)) (bernstein3 vzero (rv c1) (rv c2) (rv p2) (B2R t))).
  { intros t [Ft Bt].
    pose proof (bezier_value c1 c2 p2 t W W1 HH (conj F1 F2) (conj F3 F4) (conj F5 F6)
      (conj B1 B2) (conj B3 B4) (conj B5 B6) Ft Bt) as G.
    replace (150 * W / 2 ^ 53) with (150 * (u53 * W)) by (rewrite u53_is; unfold Rdiv; ring).
    replace (bernstein3 vzero (rv c1) (rv c2) (rv p2) (B2R t)) with (cubic_at (rv c1) (rv c2) (rv p2) (B2R t)); [exact G|].
    unfold bernstein3, cubic_at, cubic, vadd, vscale, vzero. cbn [vx vy]. f_equal; ring. }
  split.
  - intros pos p d K. destruct (V pos p d K) as (t & U & ->). exists (B2R t). split; [apply U|apply KEY, U].
  - intros FL PL. exists (fst (fbezier_value c1 c2 p2 fone)), (snd (fbezier_value c1 c2 p2 fone)).
    rewrite <- surjective_pairing. split; [apply E; assumption|].
    destruct one_value as [O1 O2]. assert (U1 : unit_param fone) by (split; [exact O1|rewrite O2; lra]). pose proof (KEY fone U1) as G. rewrite O2 in G.
    replace (bernstein3 vzero (rv c1) (rv c2) (rv p2) 1) with (rv p2) in G; [exact G|].
    destruct p2 as [x y]. unfold bernstein3, vadd, vscale, vzero, rv. cbn [vx vy fx fy]. f_equal; ring.
Qed.

(** A line from the origin to [e]: from length 0 to its length its places are, up to
    rounding, on it, the last one at its end. *)
Theorem C101_line : forall e W, 1 <= W -> W <= 2 ^ 400 ->
  Forall (fun z : f64 => is_finite z = true /\ Rabs (B2R z) <= W) [fx e; fy e] ->
  is_finite (fc_length (fline e)) = true /\ 0 <= B2R (fc_length (fline e)) <= 3 * W /\
  (forall s, is_finite s = true -> 0 <= B2R s <= B2R (fc_length (fline e)) ->
   exists p d t, fc_value (fline e) s = Ok (p, d) /\ 0 <= t <= 1 /\ within (32 * W / 2 ^ 53) p (vscale (rv e) t)) /\
  exists p d, fc_value (fline e) (fc_length (fline e)) = Ok (p, d) /\ within (32 * W / 2 ^ 53) p (rv e).
Proof.
  intros e W W1 W2 B.
  assert (WW : W <= wide).
  { unfold wide. rewrite bpow_powerRZ. cbn [powerRZ]. replace (Pos.to_nat 400) with 400%nat by reflexivity. exact W2. }
  rewrite !Forall_cons_iff in B. destruct B as ([F1 B1] & [F2 B2] & _).
  clear W2.
  assert (EQ : 32 * W / 2 ^ 53 = 32 * (u53 * W)) by (rewrite u53_is; unfold Rdiv; ring). rewrite EQ.
  destruct (fline_end e W F1 F2 (conj W1 WW) B1 B2) as (A & L & E).
  split; [exact A|]. split; [exact L|]. split; [|exact E]. intros s Fs Bs.
  destruct (fline_value e W s 0 F1 F2 (conj W1 WW) B1 B2 Fs ltac:(lra) ltac:(lra)) as (p & d & t & V & T & N).
  exists p, d, t. split; [exact V|]. split; [exact T|]. replace (32 * (u53 * W)) with (32 * (u53 * W) + 4 * 0) by ring. exact N.
Qed.

(** A search that goes through the keys from the start. *)
Fixpoint scan_from (i : nat) (keys : list f64) (x : f64) : bool * nat :=
  match keys with
  | [] => (false, i)
  | k :: r => if feq k x then (true, i) else if flt k x then scan_from (S i) r x else (false, i)
  end.
Definition scan : FloatPath.searcher := fun keys x => Ok (scan_from 0 keys x).

(** The straight Bezier curve to (3, 0) with speed 3: half its length is found half way. *)
Definition C101_tables (_ _ _ : fvec) : list (list f64) := map (fun s => [fmul (f_of_Z 3) s; f_of_Z 3]) fstarts.
Definition C101_point (z : Z) : fvec := mk_fvec (f_of_Z z) fzero.

Example C101_example :
  match fbezier 50 scan C101_tables (C101_point 1) (C101_point 2) (C101_point 3) with
  | Ok curve =>
      feq (fc_length curve) (f_of_Z 3) &&
      match fc_value curve (lit 13 10), fc_value curve (fc_length curve) with
      | Ok (p, d), Ok (q, _) =>
          fle (fabs (fsub (fx p) (lit 13 10))) (lit 1 1000000000) && feq (fx d) fone && feq (fx q) (f_of_Z 3)
      | _, _ => false
      end
  | _ => false
  end = true /\
  match fbisect 50 [fzero; f_of_Z 3] (lit 1 10) fzero (lit 1 10) with
  | Ok r => flt fzero r && flt r (lit 1 10) | _ => false end = true /\
  fbisect 3 [fzero; f_of_Z 3] (lit 1 10) fzero (lit 1 10) = OutOfFuel /\
  (forall keys x, scan keys x <> OutOfFuel) /\
  Forall (fun z : f64 => is_finite z = true /\ Rabs (B2R z) <= 3)
    [f_of_Z 1; fzero; f_of_Z 2; fzero; f_of_Z 3; fzero].
Proof.
  split; [vm_compute; reflexivity|]. split; [vm_compute; reflexivity|]. split; [vm_compute; reflexivity|].
  split; [discriminate|].
  assert (I : forall z, (0 <= z <= 3)%Z -> is_finite (f_of_Z z) = true /\ Rabs (B2R (f_of_Z z)) <= 3).
  { intros z Hz. destruct (f_of_Z_exact z ltac:(lia)) as [A B]. split; [exact A|]. rewrite B, <- abs_IZR. apply IZR_le. lia. }
  assert (Z0 : is_finite fzero = true /\ Rabs (B2R fzero) <= 3).
  { split; [reflexivity|]. replace (B2R fzero) with 0 by (vm_compute; reflexivity). rewrite Rabs_R0. lra. }
  repeat (constructor; [first [apply I; lia | exact Z0]|]). constructor.
Qed.

Print Assumptions C101_ends.
Print Assumptions C101_parameter.
Print Assumptions C101_bracket.
Print Assumptions C101_bezier.
Print Assumptions C101_line.
