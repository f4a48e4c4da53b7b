(** Properties of path building: C44 (relative and absolute commands), C45 (transforms),
    C46 (arguments), C47 (curves). *)
From Coq Require Import Reals Lra List Bool NArith Arith Lia ZifyBool Ascii String.
From Verif Require Import Base Chars Coords CoordsProofs Curves PathBuild BuildProofs PropsCurves.
Import ListNotations.
Open Scope R_scope.

(** ** C44: relative and absolute commands *)

(** The absolute form of a command, following the SVG rules: every pair of coordinates of a
    relative command is counted from the current point, which moves to the last pair of every
    group ([n] pairs before it); a relative move that opens the path is absolute. *)
Fixpoint abs_pairs (n k : nat) (base : vec) (args : list R) : list R :=
  match args with
  | x :: y :: rest =>
      let p := mk_vec (vx base + x) (vy base + y) in
      vx p :: vy p :: match k with O => abs_pairs n n p rest | S k => abs_pairs n k base rest end
  | _ => args
  end.

Fixpoint abs_sums (base : R) (args : list R) : list R :=
  match args with
  | [] => []
  | x :: rest => (base + x) :: abs_sums (base + x) rest
  end.

Fixpoint abs_arcs (base : vec) (args : list R) : list R :=
  match args with
  | rx :: ry :: rot :: large :: sweep :: x :: y :: rest =>
      let p := mk_vec (vx base + x) (vy base + y) in
      rx :: ry :: rot :: large :: sweep :: vx p :: vy p :: abs_arcs p rest
  | _ => args
  end.

Definition upper (c : char) : char := if is_lower c then (c - 32)%N else c.

Definition abs_args (cur : vec) (first_elem : bool) (cmd : char) (args : list R) : list R :=
  if is_one_of (chars "m") cmd then
    match args with
    | x :: y :: rest => if first_elem then x :: y :: abs_pairs 0 0 (mk_vec x y) rest else abs_pairs 0 0 cur args
    | _ => args
    end
  else if is_one_of (chars "l") cmd then abs_pairs 0 0 cur args
  else if is_one_of (chars "c") cmd then abs_pairs 2 2 cur args
  else if is_one_of (chars "q") cmd then abs_pairs 1 1 cur args
  else if is_one_of (chars "v") cmd then abs_sums (vy cur) args
  else if is_one_of (chars "h") cmd then abs_sums (vx cur) args
  else if is_one_of (chars "a") cmd then abs_arcs cur args
  else args.

(** The current point after an absolute command, and the point a close returns to. *)
Fixpoint last_pair (cur : vec) (args : list R) : vec :=
  match args with
  | [x; y] => mk_vec x y
  | _ :: rest => last_pair cur rest
  | [] => cur
  end.

Definition cursor (cur start : vec) (cmd : char) (args : list R) : vec :=
  if is_one_of (chars "Z") cmd then start
  else if is_one_of (chars "V") cmd then mk_vec (vx cur) (List.last args 0)
  else if is_one_of (chars "H") cmd then mk_vec (List.last args 0) (vy cur)
  else last_pair cur args.

Definition new_start (start : vec) (cmd : char) (args : list R) : vec :=
  if is_one_of (chars "M") cmd then match args with x :: y :: _ => mk_vec x y | _ => start end else start.

Fixpoint absolute (cur start : vec) (first_elem : bool) (cmds : list (char * list R)) : list (char * list R) :=
  match cmds with
  | [] => []
  | (cmd, args) :: rest =>
      let args' := abs_args cur first_elem cmd args in
      let cmd' := upper cmd in
      (cmd', args') :: absolute (cursor cur start cmd' args') (new_start start cmd' args') false rest
  end.

(** Induction on a list in steps of any size. *)
Lemma list_size_ind : forall (P : list R -> Prop),
  (forall l, (forall l', (List.length l' < List.length l)%nat -> P l') -> P l) -> forall l, P l.
Proof.
  intros P H l. assert (G : forall n l, (List.length l <= n)%nat -> P l).
  { induction n as [|n IH]; intros k L; apply H; intros k' L'; [lia|apply IH; lia]. }
  apply (G (List.length l)). lia.
Qed.

Lemma vadd_eta : forall p x y, vadd p (mk_vec x y) = mk_vec (vx p + x) (vy p + y).
Proof. reflexivity. Qed.

Lemma last_pair_any : forall args c c', (2 <= List.length args)%nat -> last_pair c args = last_pair c' args.
Proof.
  induction args as [|a args IH]; intros c c' L; [cbn in L; lia|].
  cbn [last_pair]. destruct args as [|b [|d args]]; [cbn in L; lia|reflexivity|].
  apply IH. cbn in *. lia.
Qed.

Lemma last_pair_2 : forall c x y rest, Nat.Even (List.length rest) ->
  last_pair c (x :: y :: rest) = last_pair (mk_vec x y) rest.
Proof.
  intros c x y rest E. destruct rest as [|a [|b rest]].
  - reflexivity.
  - destruct E as [k K]. cbn in K. lia.
  - change (last_pair c (a :: b :: rest) = last_pair (mk_vec x y) (a :: b :: rest)).
    apply last_pair_any. cbn. lia.
Qed.

Lemma abs_pairs_length : forall n args k base, List.length (abs_pairs n k base args) = List.length args.
Proof.
  intros n. induction args as [args IH] using list_size_ind. intros k base.
  destruct args as [|x [|y rest]]; try reflexivity. cbn [abs_pairs List.length].
  destruct k; rewrite IH by (cbn; lia); reflexivity.
Qed.
Lemma abs_sums_length : forall args base, List.length (abs_sums base args) = List.length args.
Proof. induction args; intros; cbn; auto. Qed.
Lemma abs_arcs_length : forall args base, List.length (abs_arcs base args) = List.length args.
Proof.
  induction args as [args IH] using list_size_ind. intros base.
  destruct args as [|x1 [|x2 [|x3 [|x4 [|x5 [|x6 [|x7 rest]]]]]]]; try reflexivity.
  cbn [abs_arcs List.length]. rewrite IH by (cbn; lia). reflexivity.
Qed.

Lemma lines_abs : forall tr args pos, build_lines true tr pos args = build_lines false tr pos (abs_pairs 0 0 pos args).
Proof.
  intros tr. induction args as [args IH] using list_size_ind. intros pos.
  destruct args as [|x [|y rest]]; try reflexivity.
  cbn [build_lines abs_pairs moved vx vy]. rewrite vadd_eta, IH by (cbn; lia). reflexivity.
Qed.

Lemma vertical_abs : forall tr args pos, build_vertical true tr pos args = build_vertical false tr pos (abs_sums (vy pos) args).
Proof.
  intros tr. induction args as [|y rest IH]; intros pos; [reflexivity|].
  cbn [build_vertical abs_sums]. rewrite IH. cbn [vy]. reflexivity.
Qed.
Lemma horizontal_abs : forall tr args pos, build_horizontal true tr pos args = build_horizontal false tr pos (abs_sums (vx pos) args).
Proof.
  intros tr. induction args as [|y rest IH]; intros pos; [reflexivity|].
  cbn [build_horizontal abs_sums]. rewrite IH. cbn [vx]. reflexivity.
Qed.

Lemma off_true : forall x y p, vadd (mk_vec x y) (offset true p) = mk_vec (vx p + x) (vy p + y).
Proof. intros. unfold vadd, offset. cbn [vx vy]. f_equal; ring. Qed.
Lemma off_false : forall x y p, vadd (mk_vec x y) (offset false p) = mk_vec x y.
Proof. intros. unfold vadd, offset. cbn [vx vy]. f_equal; ring. Qed.

Lemma cubics_abs : forall tr args pos ctl,
  build_cubics true tr pos ctl args = build_cubics false tr pos ctl (abs_pairs 2 2 pos args).
Proof.
  intros tr. induction args as [args IH] using list_size_ind. intros pos ctl.
  destruct args as [|x1 [|y1 [|x2 [|y2 [|x [|y rest]]]]]]; try reflexivity.
  cbn [abs_pairs build_cubics vx vy]. rewrite !off_true, !off_false, IH by (cbn; lia). reflexivity.
Qed.
Lemma quadratics_abs : forall tr args pos ctl,
  build_quadratics true tr pos ctl args = build_quadratics false tr pos ctl (abs_pairs 1 1 pos args).
Proof.
  intros tr. induction args as [args IH] using list_size_ind. intros pos ctl.
  destruct args as [|x1 [|y1 [|x [|y rest]]]]; try reflexivity.
  cbn [abs_pairs build_quadratics vx vy]. rewrite !off_true, !off_false, IH by (cbn; lia). reflexivity.
Qed.

Lemma arc_abs : forall tr pos a,
  let p := mk_vec (vx pos + arc_x a) (vy pos + arc_y a) in
  build_arc true tr pos a =
  build_arc false tr pos (mk_arc_args (arc_rx a) (arc_ry a) (arc_rot a) (arc_large a) (arc_sweep a) (vx p) (vy p)).
Proof.
  intros tr pos a p. unfold build_arc. cbn [arc_x arc_y arc_rx arc_ry].
  replace (vadd (mk_vec (arc_x a) (arc_y a)) pos) with p
    by (unfold p, vadd; cbn [vx vy]; f_equal; ring).
  reflexivity.
Qed.

Lemma arcs_abs : forall tr args fuel pos,
  build_arcs fuel true tr pos args = build_arcs fuel false tr pos (abs_arcs pos args).
Proof.
  intros tr. induction args as [args IH] using list_size_ind. intros fuel pos.
  destruct args as [|x1 [|x2 [|x3 [|x4 [|x5 [|x6 [|x7 rest]]]]]]]; try (destruct fuel; reflexivity).
  destruct fuel as [|fuel]; [reflexivity|].
  cbn [abs_arcs build_arcs get_arc_args vx vy]. rewrite arc_abs. cbn [arc_x arc_y arc_rx arc_ry arc_rot arc_large arc_sweep vx vy].
  set (a := mk_arc_args _ _ _ _ _ _ _).
  destruct (build_arc false tr pos a) as [[[e s]|]| |] eqn:E; cbn [bind]; try reflexivity.
  assert (e = mk_vec (vx pos + x6) (vy pos + x7)).
  { unfold build_arc in E. destruct (nonzero _ || nonzero _); [|discriminate].
    destruct (arc_segment tr a _) as [[s'|]| |]; cbn [bind] in E; try discriminate.
    injection E as E _. rewrite <- E. reflexivity. }
  subst e. rewrite IH by (cbn; lia). reflexivity.
Qed.

Lemma wrong_count_length : forall n a b, List.length a = List.length b -> wrong_count n a = wrong_count n b.
Proof. intros n a b H. unfold wrong_count. rewrite H. reflexivity. Qed.

(** Letters in both cases. *)
Lemma one_of_upper : forall c,
  is_one_of (chars "mM") (upper c) = is_one_of (chars "mM") c /\
  is_one_of (chars "lL") (upper c) = is_one_of (chars "lL") c /\
  is_one_of (chars "vV") (upper c) = is_one_of (chars "vV") c /\
  is_one_of (chars "hH") (upper c) = is_one_of (chars "hH") c /\
  is_one_of (chars "cC") (upper c) = is_one_of (chars "cC") c /\
  is_one_of (chars "qQ") (upper c) = is_one_of (chars "qQ") c /\
  is_one_of (chars "aA") (upper c) = is_one_of (chars "aA") c /\
  is_one_of (chars "zZ") (upper c) = is_one_of (chars "zZ") c.
Proof.
  intros c. unfold upper, is_one_of, is_lower.
  repeat match goal with |- context [chars ?s] => let v := eval vm_compute in (chars s) in change (chars s) with v end.
  cbn [existsb]. destruct ((97 <=? c)%N && (c <=? 122)%N) eqn:E; [|tauto]. repeat split; lia.
Qed.

Lemma upper_lower : forall c, is_lower (upper c) = false.
Proof.
  intros c. unfold upper, is_lower. destruct ((97 <=? c)%N && (c <=? 122)%N) eqn:E; [lia|exact E].
Qed.

(** One of two letters. *)
Lemma one_of_2 : forall a b c, is_one_of [a; b] c = true -> c = a \/ c = b.
Proof. intros a b c H. apply is_one_of_In in H. cbn in H. intuition. Qed.

Ltac pick H := apply one_of_2 in H; destruct H as [H|H]; subst.

Lemma build_path_abs : forall c cmd args tr f,
  build_path c cmd args tr f = build_path c (upper cmd) (abs_args (p_pos c) f cmd args) tr f.
Proof.
  intros c cmd args tr f. unfold build_path. rewrite upper_lower.
  destruct (one_of_upper cmd) as (M & L & V & H & C & Q & A & Z). rewrite M, L, V, H, C, Q, A, Z. clear M L V H C Q A Z.
  destruct (is_one_of (chars "mM") cmd) eqn:M.
  { pick M; [|reflexivity].
    change (abs_args (p_pos c) f _ args) with
      (match args with
       | x :: y :: rest => if f then x :: y :: abs_pairs 0 0 (mk_vec x y) rest else abs_pairs 0 0 (p_pos c) args
       | _ => args end).
    destruct args as [|x [|y rest]]; try reflexivity.
    change (is_lower (ch "m")) with true. destruct f; cbn [negb andb].
    - rewrite (wrong_count_length 2 (x :: y :: abs_pairs 0 0 _ rest) (x :: y :: rest))
        by (cbn; rewrite abs_pairs_length; reflexivity).
      destruct (wrong_count 2 _); [reflexivity|]. cbn [moved]. rewrite lines_abs. reflexivity.
    - rewrite (wrong_count_length 2 (abs_pairs _ _ _ _) (x :: y :: rest)) by apply abs_pairs_length.
      destruct (wrong_count 2 _); [reflexivity|]. cbn [abs_pairs moved vx vy]. rewrite vadd_eta, lines_abs. reflexivity. }
  destruct (is_one_of (chars "lL") cmd) eqn:L.
  { pick L; [|reflexivity]. change (abs_args (p_pos c) f _ args) with (abs_pairs 0 0 (p_pos c) args).
    rewrite (wrong_count_length 2 (abs_pairs _ _ _ _) args) by apply abs_pairs_length.
    change (is_lower _) with true. rewrite lines_abs. reflexivity. }
  destruct (is_one_of (chars "vV") cmd) eqn:V.
  { pick V; [|reflexivity]. change (abs_args (p_pos c) f _ args) with (abs_sums (vy (p_pos c)) args).
    rewrite abs_sums_length. change (is_lower _) with true. rewrite vertical_abs. reflexivity. }
  destruct (is_one_of (chars "hH") cmd) eqn:H.
  { pick H; [|reflexivity]. change (abs_args (p_pos c) f _ args) with (abs_sums (vx (p_pos c)) args).
    rewrite abs_sums_length. change (is_lower _) with true. rewrite horizontal_abs. reflexivity. }
  destruct (is_one_of (chars "cC") cmd) eqn:C.
  { pick C; [|reflexivity]. change (abs_args (p_pos c) f _ args) with (abs_pairs 2 2 (p_pos c) args).
    rewrite (wrong_count_length 6 (abs_pairs _ _ _ _) args) by apply abs_pairs_length.
    change (is_lower _) with true. rewrite cubics_abs. reflexivity. }
  destruct (is_one_of (chars "qQ") cmd) eqn:Q.
  { pick Q; [|reflexivity]. change (abs_args (p_pos c) f _ args) with (abs_pairs 1 1 (p_pos c) args).
    rewrite (wrong_count_length 4 (abs_pairs _ _ _ _) args) by apply abs_pairs_length.
    change (is_lower _) with true. rewrite quadratics_abs. reflexivity. }
  destruct (is_one_of (chars "aA") cmd) eqn:A.
  { pick A; [|reflexivity]. change (abs_args (p_pos c) f _ args) with (abs_arcs (p_pos c) args).
    rewrite (wrong_count_length 7 (abs_arcs _ _) args) by apply abs_arcs_length.
    rewrite abs_arcs_length. change (is_lower _) with true. rewrite arcs_abs. reflexivity. }
  destruct (is_one_of (chars "zZ") cmd) eqn:Z; reflexivity.
Qed.

(** The current point follows the absolute arguments. *)
Lemma lines_end : forall tr args pos, Nat.Even (List.length args) -> fst (build_lines false tr pos args) = last_pair pos args.
Proof.
  intros tr. induction args as [args IH] using list_size_ind. intros pos E.
  destruct args as [|x [|y rest]]; [reflexivity|destruct E as [k K]; cbn in K; lia|].
  assert (E' : Nat.Even (List.length rest)) by (destruct E as [k K]; exists (k - 1)%nat; cbn in K; lia).
  rewrite last_pair_2 by auto. cbn [build_lines moved]. specialize (IH rest ltac:(cbn; lia) (mk_vec x y) E').
  destruct (build_lines false tr (mk_vec x y) rest). exact IH.
Qed.

Lemma last_pair_skip : forall c a rest, (2 <= List.length rest)%nat -> last_pair c (a :: rest) = last_pair c rest.
Proof. intros c a rest L. destruct rest as [|b [|d rest]]; cbn in L; try lia. reflexivity. Qed.

Lemma cubics_end : forall tr args pos ctl, (exists k, List.length args = (6 * k)%nat) ->
  fst (fst (build_cubics false tr pos ctl args)) = last_pair pos args.
Proof.
  intros tr. induction args as [args IH] using list_size_ind. intros pos ctl [k K].
  destruct args as [|x1 [|y1 [|x2 [|y2 [|x [|y rest]]]]]]; [reflexivity|cbn in K; lia..|].
  assert (E' : exists k, List.length rest = (6 * k)%nat) by (exists (k - 1)%nat; cbn in K; lia).
  assert (EV : Nat.Even (List.length rest)) by (destruct E' as [k' E']; exists (3 * k')%nat; lia).
  rewrite !last_pair_skip by (cbn; lia). rewrite last_pair_2 by auto.
  cbn [build_cubics]. rewrite !off_false. specialize (IH rest ltac:(cbn; lia) (mk_vec x y) (Some (mk_vec x2 y2)) E').
  destruct (build_cubics false tr (mk_vec x y) _ rest) as [[e c] s]. exact IH.
Qed.

Lemma quadratics_end : forall tr args pos ctl, (exists k, List.length args = (4 * k)%nat) ->
  fst (fst (build_quadratics false tr pos ctl args)) = last_pair pos args.
Proof.
  intros tr. induction args as [args IH] using list_size_ind. intros pos ctl [k K].
  destruct args as [|x1 [|y1 [|x [|y rest]]]]; [reflexivity|cbn in K; lia..|].
  assert (E' : exists k, List.length rest = (4 * k)%nat) by (exists (k - 1)%nat; cbn in K; lia).
  assert (EV : Nat.Even (List.length rest)) by (destruct E' as [k' E']; exists (2 * k')%nat; lia).
  rewrite !last_pair_skip by (cbn; lia). rewrite last_pair_2 by auto.
  cbn [build_quadratics]. rewrite !off_false.
  match goal with |- context [build_quadratics false tr (mk_vec x y) ?l rest] =>
    specialize (IH rest ltac:(cbn; lia) (mk_vec x y) l E');
    destruct (build_quadratics false tr (mk_vec x y) l rest) as [[e c] s] end. exact IH.
Qed.

Lemma vertical_end : forall tr args pos, args <> [] ->
  fst (build_vertical false tr pos args) = mk_vec (vx pos) (List.last args 0).
Proof.
  intros tr. induction args as [|y rest IH]; intros pos N; [congruence|].
  cbn [build_vertical]. destruct rest as [|z rest]; [reflexivity|].
  specialize (IH (mk_vec (vx pos) y) ltac:(discriminate)). destruct (build_vertical _ _ _ _). exact IH.
Qed.
Lemma horizontal_end : forall tr args pos, args <> [] ->
  fst (build_horizontal false tr pos args) = mk_vec (List.last args 0) (vy pos).
Proof.
  intros tr. induction args as [|y rest IH]; intros pos N; [congruence|].
  cbn [build_horizontal]. destruct rest as [|z rest]; [reflexivity|].
  specialize (IH (mk_vec y (vy pos)) ltac:(discriminate)). destruct (build_horizontal _ _ _ _). exact IH.
Qed.

Lemma arc_end_abs : forall tr pos a e s, build_arc false tr pos a = Ok (Some (e, s)) -> e = mk_vec (arc_x a) (arc_y a).
Proof.
  intros tr pos a e s E. unfold build_arc in E. destruct (nonzero _ || nonzero _); [|discriminate].
  destruct (arc_segment tr a _) as [[s'|]| |]; cbn [bind] in E; try discriminate. congruence.
Qed.

Lemma last_pair_arc : forall pos x y rest, (exists k, List.length rest = (7 * k)%nat) ->
  last_pair pos (x :: y :: rest) = last_pair (mk_vec x y) rest.
Proof.
  intros pos x y rest [k K]. destruct rest as [|a [|b rest]]; [reflexivity|cbn in K; lia|].
  rewrite !last_pair_skip by (cbn; lia). apply last_pair_any. cbn. lia.
Qed.

Lemma arcs_end : forall tr args fuel pos e s, (exists k, List.length args = (7 * k)%nat) ->
  build_arcs fuel false tr pos args = Ok (Some (e, s)) -> e = last_pair pos args.
Proof.
  intros tr. induction args as [args IH] using list_size_ind. intros fuel pos e s [k K] H.
  destruct args as [|x1 [|x2 [|x3 [|x4 [|x5 [|x6 [|x7 rest]]]]]]]; [destruct fuel; cbn [build_arcs get_arc_args] in H; injection H as <- <-; reflexivity|cbn in K; lia..|].
  assert (E' : exists k, List.length rest = (7 * k)%nat) by (exists (k - 1)%nat; cbn in K; lia).
  destruct fuel as [|fuel]; [discriminate|]. cbn [build_arcs get_arc_args] in H.
  destruct (build_arc false tr pos _) as [[[e1 s1]|]| |] eqn:EA; cbn [bind] in H; try discriminate.
  apply arc_end_abs in EA. cbn [arc_x arc_y] in EA. subst e1.
  destruct (build_arcs fuel false tr _ rest) as [[[e2 s2]|]| |] eqn:EB; cbn [bind] in H; try discriminate.
  injection H as <- <-. apply IH in EB; [|cbn; lia|auto]. rewrite EB.
  rewrite !last_pair_skip by (cbn; lia). symmetry. apply last_pair_arc. auto.
Qed.

Lemma wc_ok : forall n args, n <> O -> wrong_count n args = false -> exists k, List.length args = (n * k)%nat.
Proof. intros n args N H. apply wrong_count_false in H; auto. destruct H as (k & _ & E). eauto. Qed.

Lemma wc_even : forall args, wrong_count 2 args = false -> Nat.Even (List.length args).
Proof. intros args H. apply wc_ok in H; auto. Qed.

Lemma build_path_cursor : forall c cmd args tr f c' segs, is_lower cmd = false ->
  build_path c cmd args tr f = Ok (Some (c', segs)) ->
  p_pos c' = cursor (p_pos c) (p_start c) cmd args /\ p_start c' = new_start (p_start c) cmd args.
Proof.
  intros c cmd args tr f c' segs U H. unfold build_path in H. rewrite U in H. cbn [andb] in H.
  destruct (is_one_of (chars "mM") cmd) eqn:M.
  { pick M; [discriminate|]. destruct (wrong_count 2 args) eqn:W; [discriminate|].
    assert (EV := wc_even _ W). apply wrong_count_false in W; [|lia]. destruct W as (k & K & L).
    destruct args as [|x [|y rest]]; [cbn in L; lia..|]. cbn [moved] in H.
    assert (EV' : Nat.Even (List.length rest)) by (destruct EV as [j J]; exists (j - 1)%nat; cbn in J; lia).
    pose proof (lines_end tr rest (mk_vec x y) EV') as LE. destruct (build_lines false tr (mk_vec x y) rest) as [e s].
    injection H as <- <-. cbn [p_pos p_start fst] in *. split; [|reflexivity].
    change (cursor (p_pos c) (p_start c) (ch "M") (x :: y :: rest)) with (last_pair (p_pos c) (x :: y :: rest)).
    rewrite last_pair_2 by auto. exact LE. }
  destruct (is_one_of (chars "lL") cmd) eqn:L.
  { pick L; [discriminate|]. destruct (wrong_count 2 args) eqn:W; [discriminate|]. assert (EV := wc_even _ W).
    pose proof (lines_end tr args (p_pos c) EV) as LE. destruct (build_lines false tr (p_pos c) args) as [e s].
    injection H as <- <-. split; [exact LE|reflexivity]. }
  destruct (is_one_of (chars "vV") cmd) eqn:V.
  { pick V; [discriminate|]. destruct (Nat.eqb (List.length args) 0) eqn:W; [discriminate|].
    assert (NE : args <> []) by (intros ->; discriminate).
    pose proof (vertical_end tr args (p_pos c) NE) as LE. destruct (build_vertical false tr (p_pos c) args) as [e s].
    injection H as <- <-. split; [exact LE|reflexivity]. }
  destruct (is_one_of (chars "hH") cmd) eqn:HH.
  { pick HH; [discriminate|]. destruct (Nat.eqb (List.length args) 0) eqn:W; [discriminate|].
    assert (NE : args <> []) by (intros ->; discriminate).
    pose proof (horizontal_end tr args (p_pos c) NE) as LE. destruct (build_horizontal false tr (p_pos c) args) as [e s].
    injection H as <- <-. split; [exact LE|reflexivity]. }
  destruct (is_one_of (chars "cC") cmd) eqn:C.
  { pick C; [discriminate|]. destruct (wrong_count 6 args) eqn:W; [discriminate|]. apply wc_ok in W; [|lia].
    pose proof (cubics_end tr args (p_pos c) (p_last_control c) W) as LE.
    destruct (build_cubics false tr (p_pos c) _ args) as [[e ct] s]. injection H as <- <-. split; [exact LE|reflexivity]. }
  destruct (is_one_of (chars "qQ") cmd) eqn:Q.
  { pick Q; [discriminate|]. destruct (wrong_count 4 args) eqn:W; [discriminate|]. apply wc_ok in W; [|lia].
    pose proof (quadratics_end tr args (p_pos c) (p_last_control c) W) as LE.
    destruct (build_quadratics false tr (p_pos c) _ args) as [[e ct] s]. injection H as <- <-. split; [exact LE|reflexivity]. }
  destruct (is_one_of (chars "aA") cmd) eqn:A.
  { pick A; [discriminate|]. destruct (wrong_count 7 args) eqn:W; [discriminate|]. apply wc_ok in W; [|lia].
    destruct (build_arcs _ false tr (p_pos c) args) as [[[e s]|]| |] eqn:E; cbn [bind] in H; try discriminate.
    apply arcs_end in E; [|exact W]. injection H as <- <-. split; [exact E|reflexivity]. }
  destruct (is_one_of (chars "zZ") cmd) eqn:Z; [|discriminate].
  pick Z; [discriminate|]. injection H as <- <-. split; reflexivity.
Qed.

(** Every list of commands builds what its absolute form builds: the same segments, the same
    context, or the same failure. *)
Theorem C44_absolute : forall cmds c tr f,
  build_commands c cmds tr f = build_commands c (absolute (p_pos c) (p_start c) f cmds) tr f /\
  Forall (fun cmd => is_lower (fst cmd) = false) (absolute (p_pos c) (p_start c) f cmds).
Proof.
  assert (F : forall cmds cur start f, Forall (fun cmd => is_lower (fst cmd) = false) (absolute cur start f cmds)).
  { induction cmds as [|[cmd args] cmds IH]; intros; cbn [absolute]; constructor; auto. apply upper_lower. }
  intros cmds c tr f. split; [|apply F]. revert c f.
  induction cmds as [|[cmd args] cmds IH]; intros c f; [reflexivity|].
  cbn [absolute build_commands]. rewrite (build_path_abs c cmd args tr f).
  destruct (build_path c (upper cmd) _ tr f) as [[[c' s]|]| |] eqn:E; cbn [bind]; try reflexivity.
  apply build_path_cursor in E; [|apply upper_lower]. destruct E as [<- <-]. rewrite IH. reflexivity.
Qed.

(** m 1 2 3 4 l 1 0 is M 1 2 4 6 L 5 6. *)
Example C44_example :
  absolute (mk_vec 9 9) (mk_vec 9 9) true [(ch "m", [1; 2; 3; 4]); (ch "l", [1; 0])] =
    [(ch "M", [1; 2; 1 + 3; 2 + 4]); (ch "L", [1 + 3 + 1; 2 + 4 + 0])] /\
  exists r, build_commands path_ctx_new [(ch "m", [1; 2; 3; 4]); (ch "l", [1; 0])] tidentity true = Ok (Some r).
Proof. split; [reflexivity|eexists; reflexivity]. Qed.

(** ** C45: transforms *)

Definition no_arcs (cmds : list (char * list R)) : Prop := Forall (fun cmd => is_one_of (chars "aA") (fst cmd) = false) cmds.

Lemma tapply_id : forall p, tapply tidentity p = p.
Proof. intros [x y]. unfold tapply, tidentity. cbn. f_equal; ring. Qed.

Lemma tapply_diff : forall tr p q, vsub (tapply tr p) (tapply tr q) = tapply (no_translation tr) (vsub p q).
Proof. intros tr p q. unfold vsub, tapply, no_translation. cbn. f_equal; ring. Qed.
Lemma tapply_nt_scale : forall tr p k, vscale (tapply (no_translation tr) p) k = tapply (no_translation tr) (vscale p k).
Proof. intros tr p k. unfold vscale, tapply, no_translation. cbn. f_equal; ring. Qed.

Definition map_transform (tr : transform) (segs : list curve_segment) := map (fun s => segment_transform s tr) segs.

Lemma lines_tr : forall rel tr args pos,
  build_lines rel tr pos args =
  let '(e, segs) := build_lines rel tidentity pos args in (e, map_transform tr segs).
Proof.
  intros rel tr. induction args as [args IH] using list_size_ind. intros pos.
  destruct args as [|x [|y rest]]; try reflexivity.
  cbn [build_lines]. rewrite IH by (cbn; lia). destruct (build_lines rel tidentity _ rest).
  cbn [map_transform map segment_transform]. rewrite tapply_id. reflexivity.
Qed.
Lemma vertical_tr : forall rel tr args pos,
  build_vertical rel tr pos args =
  let '(e, segs) := build_vertical rel tidentity pos args in (e, map_transform tr segs).
Proof.
  intros rel tr. induction args as [|y rest IH]; intros pos; [reflexivity|].
  cbn [build_vertical]. rewrite IH. destruct (build_vertical rel tidentity _ rest).
  cbn [map_transform map segment_transform]. rewrite tapply_id. reflexivity.
Qed.
Lemma horizontal_tr : forall rel tr args pos,
  build_horizontal rel tr pos args =
  let '(e, segs) := build_horizontal rel tidentity pos args in (e, map_transform tr segs).
Proof.
  intros rel tr. induction args as [|y rest IH]; intros pos; [reflexivity|].
  cbn [build_horizontal]. rewrite IH. destruct (build_horizontal rel tidentity _ rest).
  cbn [map_transform map segment_transform]. rewrite tapply_id. reflexivity.
Qed.
Lemma cubics_tr : forall rel tr args pos ctl,
  build_cubics rel tr pos ctl args =
  let '(e, c, segs) := build_cubics rel tidentity pos ctl args in (e, c, map_transform tr segs).
Proof.
  intros rel tr. induction args as [args IH] using list_size_ind. intros pos ctl.
  destruct args as [|x1 [|y1 [|x2 [|y2 [|x [|y rest]]]]]]; try reflexivity.
  cbn [build_cubics]. rewrite IH by (cbn; lia). destruct (build_cubics rel tidentity _ _ rest) as [[e c] s].
  cbn [map_transform map segment_transform]. rewrite !tapply_id, !tapply_diff. reflexivity.
Qed.
Lemma quadratics_tr : forall rel tr args pos ctl,
  build_quadratics rel tr pos ctl args =
  let '(e, c, segs) := build_quadratics rel tidentity pos ctl args in (e, c, map_transform tr segs).
Proof.
  intros rel tr. induction args as [args IH] using list_size_ind. intros pos ctl.
  destruct args as [|x1 [|y1 [|x [|y rest]]]]; try reflexivity.
  cbn [build_quadratics]. rewrite IH by (cbn; lia). destruct (build_quadratics rel tidentity _ _ rest) as [[e c] s].
  cbn [map_transform map segment_transform]. rewrite !tapply_id, !tapply_diff, !tapply_nt_scale. reflexivity.
Qed.

Lemma build_path_tr : forall c cmd args tr f, is_one_of (chars "aA") cmd = false ->
  build_path c cmd args tr f =
  match build_path c cmd args tidentity f with
  | Ok (Some (c', segs)) => Ok (Some (c', map_transform tr segs))
  | r => r
  end.
Proof.
  intros c cmd args tr f A. unfold build_path. rewrite A.
  destruct (is_one_of (chars "mM") cmd).
  { destruct (wrong_count 2 args); [reflexivity|]. destruct args as [|x [|y rest]]; try reflexivity.
    rewrite (lines_tr _ tr). destruct (build_lines _ tidentity _ rest).
    cbn [map_transform map segment_transform]. rewrite tapply_id. reflexivity. }
  destruct (is_one_of (chars "lL") cmd).
  { destruct (wrong_count 2 args); [reflexivity|].
    rewrite (lines_tr _ tr). destruct (build_lines _ tidentity _ _). reflexivity. }
  destruct (is_one_of (chars "vV") cmd).
  { destruct (Nat.eqb _ 0); [reflexivity|].
    rewrite (vertical_tr _ tr). destruct (build_vertical _ tidentity _ _). reflexivity. }
  destruct (is_one_of (chars "hH") cmd).
  { destruct (Nat.eqb _ 0); [reflexivity|].
    rewrite (horizontal_tr _ tr). destruct (build_horizontal _ tidentity _ _). reflexivity. }
  destruct (is_one_of (chars "cC") cmd).
  { destruct (wrong_count 6 args); [reflexivity|].
    rewrite (cubics_tr _ tr). destruct (build_cubics _ tidentity _ _ _) as [[e ct] s]. reflexivity. }
  destruct (is_one_of (chars "qQ") cmd).
  { destruct (wrong_count 4 args); [reflexivity|].
    rewrite (quadratics_tr _ tr). destruct (build_quadratics _ tidentity _ _ _) as [[e ct] s]. reflexivity. }
  destruct (is_one_of (chars "zZ") cmd); [|reflexivity].
  cbn [map_transform map segment_transform]. rewrite tapply_id. reflexivity.
Qed.

(** A path without arcs built under a transform is the transformed path; the current point
    and the failures do not depend on the transform.  (Arcs are the subject of C77 to C79.) *)
Theorem C45_transform : forall cmds c tr f, no_arcs cmds ->
  build_commands c cmds tr f =
  match build_commands c cmds tidentity f with
  | Ok (Some (c', segs)) => Ok (Some (c', map (fun s => segment_transform s tr) segs))
  | r => r
  end.
Proof.
  induction cmds as [|[cmd args] cmds IH]; intros c tr f N; [reflexivity|].
  inversion N as [|? ? A N']; subst. cbn [fst] in A. cbn [build_commands]. rewrite (build_path_tr _ _ _ tr _ A).
  destruct (build_path c cmd args tidentity f) as [[[c' s]|]| |]; cbn [bind]; try reflexivity.
  rewrite (IH c' tr false N'). destruct (build_commands c' cmds tidentity false) as [[[c2 s2]|]| |]; cbn [bind]; try reflexivity.
  unfold map_transform. rewrite map_app. reflexivity.
Qed.

(** The points of a segment drawn from [p]: a straight line to the end point of a move, line
    or close; for a curve the cubic with the control points given from its two ends. *)
Definition bernstein3 (p0 p1 p2 p3 : vec) (t : R) : vec :=
  vadd (vadd (vscale p0 ((1 - t) * (1 - t) * (1 - t))) (vscale p1 (3 * t * ((1 - t) * (1 - t)))))
       (vadd (vscale p2 (3 * (t * t) * (1 - t))) (vscale p3 (t * t * t))).
Definition bernstein2 (p0 p1 p2 : vec) (t : R) : vec :=
  vadd (vadd (vscale p0 ((1 - t) * (1 - t))) (vscale p1 (2 * t * (1 - t)))) (vscale p2 (t * t)).

Definition drawn (p : vec) (s : curve_segment) (t : R) : option vec :=
  match s with
  | GoTo q | LineTo q | CloseTo q => Some (vadd p (vscale (vsub q p) t))
  | CurveTo q c1 c2 => Some (bernstein3 p (vadd p c1) (vadd q c2) q t)
  | Arc _ _ _ _ _ => None
  end.

Theorem C45_points : forall s tr p t q, drawn p s t = Some q ->
  drawn (tapply tr p) (segment_transform s tr) t = Some (tapply tr q).
Proof.
  intros s tr p t q H. destruct s; cbn [drawn] in H; try discriminate; injection H as <-;
    cbn [segment_transform drawn]; f_equal; unfold bernstein3, tapply, vadd, vsub, vscale, no_translation; cbn; f_equal; ring.
Qed.

Example C45_example :
  no_arcs [(ch "M", [1; 2]); (ch "l", [3; 4]); (ch "q", [1; 0; 1; 1]); (ch "z", [])] /\
  exists r, build_commands path_ctx_new [(ch "M", [1; 2]); (ch "l", [3; 4]); (ch "q", [1; 0; 1; 1]); (ch "z", [])]
              (tscale 2) true = Ok (Some r).
Proof. split; [repeat constructor|eexists; reflexivity]. Qed.

(** ** C46: arguments *)

(** How many arguments make one segment. *)
Definition group (cmd : char) (n : nat) : Prop :=
  (In cmd (chars "mMlL") /\ n = 2%nat) \/ (In cmd (chars "vVhH") /\ n = 1%nat) \/
  (In cmd (chars "cC") /\ n = 6%nat) \/ (In cmd (chars "qQ") /\ n = 4%nat).

Lemma lines_len : forall rel tr args pos k, List.length args = (2 * k)%nat ->
  List.length (snd (build_lines rel tr pos args)) = k.
Proof.
  intros rel tr. induction args as [args IH] using list_size_ind. intros pos k K.
  destruct args as [|x [|y rest]]; [cbn in *; lia..|]. cbn in K.
  cbn [build_lines]. specialize (IH rest ltac:(cbn; lia) (moved rel pos (mk_vec x y)) (k - 1)%nat ltac:(lia)).
  destruct (build_lines rel tr _ rest). cbn in *. lia.
Qed.
Lemma vertical_len : forall rel tr args pos, List.length (snd (build_vertical rel tr pos args)) = List.length args.
Proof.
  intros rel tr. induction args as [|y rest IH]; intros pos; [reflexivity|].
  cbn [build_vertical]. specialize (IH (mk_vec (vx pos) (if rel then vy pos + y else y))).
  destruct (build_vertical rel tr _ rest). cbn in *. lia.
Qed.
Lemma horizontal_len : forall rel tr args pos, List.length (snd (build_horizontal rel tr pos args)) = List.length args.
Proof.
  intros rel tr. induction args as [|y rest IH]; intros pos; [reflexivity|].
  cbn [build_horizontal]. specialize (IH (mk_vec (if rel then vx pos + y else y) (vy pos))).
  destruct (build_horizontal rel tr _ rest). cbn in *. lia.
Qed.
Lemma cubics_len : forall rel tr args pos ctl k, List.length args = (6 * k)%nat ->
  List.length (snd (build_cubics rel tr pos ctl args)) = k.
Proof.
  intros rel tr. induction args as [args IH] using list_size_ind. intros pos ctl k K.
  destruct args as [|x1 [|y1 [|x2 [|y2 [|x [|y rest]]]]]]; [cbn in *; lia..|]. cbn in K. cbn [build_cubics].
  match goal with |- context [build_cubics rel tr ?p ?c rest] =>
    specialize (IH rest ltac:(cbn; lia) p c (k - 1)%nat ltac:(lia)); destruct (build_cubics rel tr p c rest) as [[e q] s] end.
  cbn in *. lia.
Qed.
Lemma quadratics_len : forall rel tr args pos ctl k, List.length args = (4 * k)%nat ->
  List.length (snd (build_quadratics rel tr pos ctl args)) = k.
Proof.
  intros rel tr. induction args as [args IH] using list_size_ind. intros pos ctl k K.
  destruct args as [|x1 [|y1 [|x [|y rest]]]]; [cbn in *; lia..|]. cbn in K. cbn [build_quadratics].
  match goal with |- context [build_quadratics rel tr ?p ?c rest] =>
    specialize (IH rest ltac:(cbn; lia) p c (k - 1)%nat ltac:(lia)); destruct (build_quadratics rel tr p c rest) as [[e q] s] end.
  cbn in *. lia.
Qed.

(** The eight pairs of letters, told apart. *)
Inductive kind := Move | Line | Vert | Hori | Cubic | Quad | ArcTo | Close | Other.
Definition kind_of (cmd : char) : kind :=
  if is_one_of (chars "mM") cmd then Move else if is_one_of (chars "lL") cmd then Line
  else if is_one_of (chars "vV") cmd then Vert else if is_one_of (chars "hH") cmd then Hori
  else if is_one_of (chars "cC") cmd then Cubic else if is_one_of (chars "qQ") cmd then Quad
  else if is_one_of (chars "aA") cmd then ArcTo else if is_one_of (chars "zZ") cmd then Close else Other.

Lemma not_one_of : forall l c, is_one_of l c = false -> ~ In c l.
Proof. intros l c H I. apply is_one_of_In in I. congruence. Qed.

Lemma is_one_of_app : forall a b c, is_one_of (a ++ b) c = is_one_of a c || is_one_of b c.
Proof. intros. unfold is_one_of. apply existsb_app. Qed.

Ltac known :=
  repeat match goal with |- context [is_one_of ?s ?c] => let v := eval vm_compute in (is_one_of s c) in change (is_one_of s c) with v end;
  split; [intros [[X Y]|[[X Y]|[[X Y]|[X Y]]]]; try discriminate X; exact Y|intros Y; auto 6].

Lemma group_kind : forall cmd n, group cmd n <->
  match kind_of cmd with
  | Move | Line => n = 2%nat | Vert | Hori => n = 1%nat | Cubic => n = 6%nat | Quad => n = 4%nat
  | _ => False
  end.
Proof.
  intros cmd n. unfold group, kind_of. rewrite <- !is_one_of_In.
  destruct (is_one_of (chars "mM") cmd) eqn:M; [pick M; known|].
  destruct (is_one_of (chars "lL") cmd) eqn:L; [pick L; known|].
  destruct (is_one_of (chars "vV") cmd) eqn:V; [pick V; known|].
  destruct (is_one_of (chars "hH") cmd) eqn:H; [pick H; known|].
  destruct (is_one_of (chars "cC") cmd) eqn:C; [pick C; known|].
  destruct (is_one_of (chars "qQ") cmd) eqn:Q; [pick Q; known|].
  change (chars "mMlL") with (chars "mM" ++ chars "lL"). change (chars "vVhH") with (chars "vV" ++ chars "hH").
  rewrite !is_one_of_app, M, L, V, H. cbn [orb].
  assert (F : ((false = true /\ n = 2) \/ (false = true /\ n = 1) \/ (false = true /\ n = 6) \/ (false = true /\ n = 4))%nat <-> False)
    by (split; [intros [[X _]|[[X _]|[[X _]|[X _]]]]; discriminate|contradiction]).
  destruct (is_one_of (chars "aA") cmd); [exact F|]. destruct (is_one_of (chars "zZ") cmd); exact F.
Qed.

Lemma build_path_kind : forall c cmd args tr f,
  build_path c cmd args tr f =
  match kind_of cmd with
  | Move =>
    if wrong_count 2 args then Ok None
    else
      match args with
      | x :: y :: rest =>
          let start := moved (is_lower cmd && negb f) (p_pos c) (mk_vec x y) in
          let '(e, segs) := build_lines (is_lower cmd) tr start rest in
          Ok (Some (mk_pctx e start None, GoTo (tapply tr start) :: segs))
      | _ => Ok (Some (mk_pctx (p_pos c) (p_start c) None, []))
      end
  | Line =>
    if wrong_count 2 args then Ok None
    else let '(e, segs) := build_lines (is_lower cmd) tr (p_pos c) args in Ok (Some (mk_pctx e (p_start c) None, segs))
  | Vert =>
    if Nat.eqb (List.length args) 0 then Ok None
    else let '(e, segs) := build_vertical (is_lower cmd) tr (p_pos c) args in Ok (Some (mk_pctx e (p_start c) None, segs))
  | Hori =>
    if Nat.eqb (List.length args) 0 then Ok None
    else let '(e, segs) := build_horizontal (is_lower cmd) tr (p_pos c) args in Ok (Some (mk_pctx e (p_start c) None, segs))
  | Cubic =>
    if wrong_count 6 args then Ok None
    else
      let '(e, ctl, segs) := build_cubics (is_lower cmd) tr (p_pos c) (p_last_control c) args in
      Ok (Some (mk_pctx e (p_start c) ctl, segs))
  | Quad =>
    if wrong_count 4 args then Ok None
    else
      let '(e, ctl, segs) := build_quadratics (is_lower cmd) tr (p_pos c) (p_last_control c) args in
      Ok (Some (mk_pctx e (p_start c) ctl, segs))
  | ArcTo =>
    if wrong_count 7 args then Ok None
    else
      let! r := build_arcs (List.length args) (is_lower cmd) tr (p_pos c) args in
      match r with
      | None => Ok None
      | Some (e, segs) => Ok (Some (mk_pctx e (p_start c) (p_last_control c), segs))
      end
  | Close => Ok (Some (mk_pctx (p_start c) (p_start c) (p_last_control c), [CloseTo (tapply tr (p_start c))]))
  | Other => Ok None
  end.
Proof.
  intros c cmd args tr f. unfold build_path, kind_of.
  repeat match goal with |- context [is_one_of ?s cmd] => destruct (is_one_of s cmd); try reflexivity end.
Qed.

(** A command with parameters succeeds exactly if it has one or more complete groups of
    arguments, and every group gives one segment. *)
Theorem C46_groups : forall c cmd args tr f n, group cmd n ->
  (forall k, List.length args = (n * k)%nat -> (0 < k)%nat ->
     exists c' segs, build_path c cmd args tr f = Ok (Some (c', segs)) /\ List.length segs = k) /\
  ((forall k, List.length args = (n * k)%nat -> k = 0%nat) -> build_path c cmd args tr f = Ok None).
Proof.
  intros c cmd args tr f n G. apply group_kind in G. rewrite build_path_kind.
  assert (WF : forall m k, m <> O -> List.length args = (m * k)%nat -> (0 < k)%nat -> wrong_count m args = false)
    by (intros; apply wrong_count_false; eauto).
  assert (WT : forall m, m <> O -> (forall k, List.length args = (m * k)%nat -> k = 0%nat) -> wrong_count m args = true).
  { intros m M H. destruct (wrong_count m args) eqn:E; [reflexivity|]. apply wrong_count_false in E; [|auto].
    destruct E as (k & K & E). apply H in E. lia. }
  destruct (kind_of cmd); try contradiction; subst n; (split; [intros k K P|intros H]).
  - rewrite (WF 2%nat k) by auto. destruct args as [|x [|y rest]]; [cbn in K; lia..|]. cbn in K.
    pose proof (lines_len (is_lower cmd) tr rest (moved (is_lower cmd && negb f) (p_pos c) (mk_vec x y)) (k - 1)%nat ltac:(lia)).
    cbv zeta. destruct (build_lines _ tr _ rest). eexists _, _. split; [reflexivity|]. cbn in *. lia.
  - rewrite WT by auto. reflexivity.
  - rewrite (WF 2%nat k) by auto. pose proof (lines_len (is_lower cmd) tr args (p_pos c) k K).
    destruct (build_lines _ tr _ args). eauto.
  - rewrite WT by auto. reflexivity.
  - destruct args as [|x rest]; [cbn in K; lia|]. cbn [List.length Nat.eqb].
    pose proof (vertical_len (is_lower cmd) tr (x :: rest) (p_pos c)).
    destruct (build_vertical _ tr _ _). eexists _, _. split; [reflexivity|]. cbn in *. lia.
  - destruct args as [|x rest]; [reflexivity|]. specialize (H (List.length (x :: rest)) ltac:(lia)). discriminate.
  - destruct args as [|x rest]; [cbn in K; lia|]. cbn [List.length Nat.eqb].
    pose proof (horizontal_len (is_lower cmd) tr (x :: rest) (p_pos c)).
    destruct (build_horizontal _ tr _ _). eexists _, _. split; [reflexivity|]. cbn in *. lia.
  - destruct args as [|x rest]; [reflexivity|]. specialize (H (List.length (x :: rest)) ltac:(lia)). discriminate.
  - rewrite (WF 6%nat k) by auto. pose proof (cubics_len (is_lower cmd) tr args (p_pos c) (p_last_control c) k K).
    destruct (build_cubics _ tr _ _ args) as [[e q] s]. eauto.
  - rewrite WT by auto. reflexivity.
  - rewrite (WF 4%nat k) by auto. pose proof (quadratics_len (is_lower cmd) tr args (p_pos c) (p_last_control c) k K).
    destruct (build_quadratics _ tr _ _ args) as [[e q] s]. eauto.
  - rewrite WT by auto. reflexivity.
Qed.

(** Any other letter but the arcs and the close is refused: the smooth curves S and T of SVG
    among them. *)
Theorem C46_unknown : forall c cmd args tr f, ~ In cmd (chars "mMlLvVhHcCqQaAzZ") -> build_path c cmd args tr f = Ok None.
Proof.
  intros c cmd args tr f H. rewrite build_path_kind. unfold kind_of.
  repeat match goal with |- context [is_one_of ?s cmd] =>
    let E := fresh in destruct (is_one_of s cmd) eqn:E; [exfalso; pick E; apply H; apply is_one_of_In; reflexivity|] end.
  reflexivity.
Qed.
Example C46_smooth : forall c args tr f,
  build_path c (ch "s") args tr f = Ok None /\ build_path c (ch "S") args tr f = Ok None /\
  build_path c (ch "t") args tr f = Ok None /\ build_path c (ch "T") args tr f = Ok None.
Proof. intros; repeat split; apply C46_unknown; rewrite <- is_one_of_In; discriminate. Qed.

(** The close takes any arguments and ignores them. *)
Theorem C46_close : forall c cmd args tr f, In cmd (chars "zZ") ->
  build_path c cmd args tr f =
  Ok (Some (mk_pctx (p_start c) (p_start c) (p_last_control c), [CloseTo (tapply tr (p_start c))])).
Proof. intros c cmd args tr f [<-|[<-|[]]]; reflexivity. Qed.

(** No argument is dropped: under a transform that keeps points apart, the segments of an
    accepted command with parameters determine all its arguments. *)
Definition keeps_apart (tr : transform) : Prop := forall p q, tapply tr p = tapply tr q -> p = q.

Lemma vsub_inj_l : forall a b c, vsub a c = vsub b c -> a = b.
Proof.
  intros [ax ay] [bx by_] [cx cy] H. assert (X := f_equal vx H). assert (Y := f_equal vy H). cbn in X, Y. f_equal; lra.
Qed.
Lemma vscale23_inj : forall a b, vscale a (2 / 3) = vscale b (2 / 3) -> a = b.
Proof.
  intros [ax ay] [bx by_] H. assert (X := f_equal vx H). assert (Y := f_equal vy H). cbn in X, Y. f_equal; lra.
Qed.
Lemma moved_inj : forall rel pos x y x' y', moved rel pos (mk_vec x y) = moved rel pos (mk_vec x' y') -> x = x' /\ y = y'.
Proof.
  intros rel pos x y x' y' H. assert (X := f_equal vx H). assert (Y := f_equal vy H). destruct rel; cbn in X, Y; lra.
Qed.
Lemma off_inj : forall rel pos x y x' y',
  vadd (mk_vec x y) (offset rel pos) = vadd (mk_vec x' y') (offset rel pos) -> x = x' /\ y = y'.
Proof.
  intros rel pos x y x' y' H. assert (X := f_equal vx H). assert (Y := f_equal vy H). cbn in X, Y. lra.
Qed.


Lemma line_cons : forall p q r r', LineTo p :: r = LineTo q :: r' -> p = q /\ r = r'.
Proof. intros p q r r' H. inversion H. auto. Qed.
Lemma goto_cons : forall p q r r', GoTo p :: r = GoTo q :: r' -> p = q /\ r = r'.
Proof. intros p q r r' H. inversion H. auto. Qed.
Lemma curve_cons : forall p a b q a' b' r r', CurveTo p a b :: r = CurveTo q a' b' :: r' -> p = q /\ a = a' /\ b = b' /\ r = r'.
Proof. intros until r'. intros H. inversion H. auto. Qed.

Lemma lines_inj : forall rel tr, keeps_apart tr -> forall args args' pos k k',
  List.length args = (2 * k)%nat -> List.length args' = (2 * k')%nat ->
  snd (build_lines rel tr pos args) = snd (build_lines rel tr pos args') -> args = args'.
Proof.
  intros rel tr KA. induction args as [args IH] using list_size_ind. intros args' pos k k' K K' E.
  destruct args as [|x [|y rest]]; destruct args' as [|x' [|y' rest']]; try (cbn in K, K'; lia); try reflexivity;
    cbn [build_lines] in E.
  - destruct (build_lines rel tr _ rest'). discriminate.
  - destruct (build_lines rel tr _ rest). discriminate.
  - destruct (build_lines rel tr (moved rel pos (mk_vec x y)) rest) eqn:A.
    destruct (build_lines rel tr (moved rel pos (mk_vec x' y')) rest') eqn:B.
    cbn [snd] in E. apply line_cons in E. destruct E as [T E]. apply KA in T.
    destruct (moved_inj _ _ _ _ _ _ T) as [<- <-].
    f_equal. f_equal. apply (IH rest ltac:(cbn; lia) rest' (moved rel pos (mk_vec x y)) (k - 1)%nat (k' - 1)%nat).
    + cbn in K. lia.
    + cbn in K'. lia.
    + rewrite A, B. exact E.
Qed.

Lemma vertical_inj : forall rel tr, keeps_apart tr -> forall args args' pos,
  snd (build_vertical rel tr pos args) = snd (build_vertical rel tr pos args') -> args = args'.
Proof.
  intros rel tr KA. induction args as [|y rest IH]; intros [|y' rest'] pos E; cbn [build_vertical] in E; [reflexivity|..].
  - destruct (build_vertical rel tr _ rest'). discriminate.
  - destruct (build_vertical rel tr _ rest). discriminate.
  - destruct (build_vertical rel tr _ rest) eqn:A in E. destruct (build_vertical rel tr _ rest') eqn:B in E.
    cbn [snd] in E. apply line_cons in E. destruct E as [T E]. apply KA in T.
    assert (Y : y = y') by (assert (Y := f_equal vy T); cbn in Y; destruct rel; lra). subst y'.
    f_equal. apply (IH rest' (mk_vec (vx pos) (if rel then vy pos + y else y))). rewrite A, B. exact E.
Qed.
Lemma horizontal_inj : forall rel tr, keeps_apart tr -> forall args args' pos,
  snd (build_horizontal rel tr pos args) = snd (build_horizontal rel tr pos args') -> args = args'.
Proof.
  intros rel tr KA. induction args as [|y rest IH]; intros [|y' rest'] pos E; cbn [build_horizontal] in E; [reflexivity|..].
  - destruct (build_horizontal rel tr _ rest'). discriminate.
  - destruct (build_horizontal rel tr _ rest). discriminate.
  - destruct (build_horizontal rel tr _ rest) eqn:A in E. destruct (build_horizontal rel tr _ rest') eqn:B in E.
    cbn [snd] in E. apply line_cons in E. destruct E as [T E]. apply KA in T.
    assert (Y : y = y') by (assert (Y := f_equal vx T); cbn in Y; destruct rel; lra). subst y'.
    f_equal. apply (IH rest' (mk_vec (if rel then vx pos + y else y) (vy pos))). rewrite A, B. exact E.
Qed.

Lemma cubics_inj : forall rel tr, keeps_apart tr -> forall args args' pos ctl ctl' k k',
  List.length args = (6 * k)%nat -> List.length args' = (6 * k')%nat ->
  snd (build_cubics rel tr pos ctl args) = snd (build_cubics rel tr pos ctl' args') -> args = args'.
Proof.
  intros rel tr KA. induction args as [args IH] using list_size_ind. intros args' pos ctl ctl' k k' K K' E.
  destruct args as [|x1 [|y1 [|x2 [|y2 [|x [|y rest]]]]]]; try (cbn in K; lia);
  destruct args' as [|x1' [|y1' [|x2' [|y2' [|x' [|y' rest']]]]]]; try (cbn in K'; lia); try reflexivity;
    cbn [build_cubics] in E; cbv zeta in E.
  - destruct (build_cubics rel tr _ _ rest') as [[? ?] ?]. discriminate.
  - destruct (build_cubics rel tr _ _ rest) as [[? ?] ?]. discriminate.
  - destruct (build_cubics rel tr _ _ rest) as [[? ?] ?] eqn:A in E.
    destruct (build_cubics rel tr _ _ rest') as [[? ?] ?] eqn:B in E.
    cbn [snd] in E. apply curve_cons in E. destruct E as (T & T1 & T2 & E).
    rewrite T in T2. apply vsub_inj_l in T1, T2. apply KA in T, T1, T2. apply off_inj in T1, T2.
    destruct T1 as [-> ->]. destruct T2 as [-> ->].
    assert (X : x = x' /\ y = y') by (apply off_inj in T; exact T). destruct X as [-> ->].
    do 6 f_equal. eapply (IH rest ltac:(cbn; lia) rest' _ _ _ (k - 1)%nat (k' - 1)%nat).
    + cbn in K. lia.
    + cbn in K'. lia.
    + rewrite A, B. exact E.
Qed.
Lemma quadratics_inj : forall rel tr, keeps_apart tr -> forall args args' pos ctl ctl' k k',
  List.length args = (4 * k)%nat -> List.length args' = (4 * k')%nat ->
  snd (build_quadratics rel tr pos ctl args) = snd (build_quadratics rel tr pos ctl' args') -> args = args'.
Proof.
  intros rel tr KA. induction args as [args IH] using list_size_ind. intros args' pos ctl ctl' k k' K K' E.
  destruct args as [|x1 [|y1 [|x [|y rest]]]]; try (cbn in K; lia);
  destruct args' as [|x1' [|y1' [|x' [|y' rest']]]]; try (cbn in K'; lia); try reflexivity;
    cbn [build_quadratics] in E; cbv zeta in E.
  - destruct (build_quadratics rel tr _ _ rest') as [[? ?] ?]. discriminate.
  - destruct (build_quadratics rel tr _ _ rest) as [[? ?] ?]. discriminate.
  - destruct (build_quadratics rel tr _ _ rest) as [[? ?] ?] eqn:A in E.
    destruct (build_quadratics rel tr _ _ rest') as [[? ?] ?] eqn:B in E.
    cbn [snd] in E. apply curve_cons in E. destruct E as (T & T1 & T2 & E). clear T2.
    apply vscale23_inj, vsub_inj_l in T1. apply KA in T, T1. apply off_inj in T1.
    destruct T1 as [-> ->].
    assert (X : x = x' /\ y = y') by (apply off_inj in T; exact T). destruct X as [-> ->].
    do 4 f_equal. eapply (IH rest ltac:(cbn; lia) rest' _ _ _ (k - 1)%nat (k' - 1)%nat).
    + cbn in K. lia.
    + cbn in K'. lia.
    + rewrite A, B. exact E.
Qed.

Theorem C46_nothing_dropped : forall tr c cmd args args' f n c1 c2 segs, keeps_apart tr -> group cmd n ->
  build_path c cmd args tr f = Ok (Some (c1, segs)) ->
  build_path c cmd args' tr f = Ok (Some (c2, segs)) -> args = args'.
Proof.
  intros tr c cmd args args' f n c1 c2 segs KA G B B'. apply group_kind in G. rewrite build_path_kind in B, B'.
  destruct (kind_of cmd); try contradiction; cbv zeta in B, B'.
  - destruct (wrong_count 2 args) eqn:W; [discriminate|]. destruct (wrong_count 2 args') eqn:W'; [discriminate|].
    apply wrong_count_false in W, W'; try lia. destruct W as (k & K & L). destruct W' as (k' & K' & L').
    destruct args as [|x [|y rest]]; [cbn in L; lia..|]. destruct args' as [|x' [|y' rest']]; [cbn in L'; lia..|].
    destruct (build_lines _ tr _ rest) as [e s] eqn:E in B. destruct (build_lines _ tr _ rest') as [e' s'] eqn:E' in B'.
    assert (S1 : GoTo (tapply tr (moved (is_lower cmd && negb f) (p_pos c) (mk_vec x y))) :: s = segs) by congruence.
    assert (S2 : GoTo (tapply tr (moved (is_lower cmd && negb f) (p_pos c) (mk_vec x' y'))) :: s' = segs) by congruence.
    rewrite <- S2 in S1. apply goto_cons in S1. destruct S1 as [T S1]. apply KA in T.
    destruct (moved_inj _ _ _ _ _ _ T) as [<- <-]. do 2 f_equal.
    apply (lines_inj (is_lower cmd) tr KA rest rest' _ (k - 1)%nat (k' - 1)%nat ltac:(cbn in L; lia) ltac:(cbn in L'; lia)
             (eq_trans (f_equal snd E) (eq_trans S1 (eq_sym (f_equal snd E'))))).
  - destruct (wrong_count 2 args) eqn:W; [discriminate|]. destruct (wrong_count 2 args') eqn:W'; [discriminate|].
    apply wc_ok in W, W'; try lia. destruct W as (k & L). destruct W' as (k' & L').
    destruct (build_lines _ tr _ args) as [e s] eqn:E in B. destruct (build_lines _ tr _ args') as [e' s'] eqn:E' in B'.
    apply (lines_inj (is_lower cmd) tr KA _ _ (p_pos c) k k' L L'). rewrite E, E'. cbn. congruence.
  - destruct (Nat.eqb (List.length args) 0); [discriminate|]. destruct (Nat.eqb (List.length args') 0); [discriminate|].
    destruct (build_vertical _ tr _ args) as [e s] eqn:E in B. destruct (build_vertical _ tr _ args') as [e' s'] eqn:E' in B'.
    apply (vertical_inj (is_lower cmd) tr KA _ _ (p_pos c)). rewrite E, E'. cbn. congruence.
  - destruct (Nat.eqb (List.length args) 0); [discriminate|]. destruct (Nat.eqb (List.length args') 0); [discriminate|].
    destruct (build_horizontal _ tr _ args) as [e s] eqn:E in B. destruct (build_horizontal _ tr _ args') as [e' s'] eqn:E' in B'.
    apply (horizontal_inj (is_lower cmd) tr KA _ _ (p_pos c)). rewrite E, E'. cbn. congruence.
  - destruct (wrong_count 6 args) eqn:W; [discriminate|]. destruct (wrong_count 6 args') eqn:W'; [discriminate|].
    apply wc_ok in W, W'; try lia. destruct W as (k & L). destruct W' as (k' & L').
    destruct (build_cubics _ tr _ _ args) as [[e q] s] eqn:E in B. destruct (build_cubics _ tr _ _ args') as [[e' q'] s'] eqn:E' in B'.
    apply (cubics_inj (is_lower cmd) tr KA _ _ (p_pos c) (p_last_control c) (p_last_control c) k k' L L').
    rewrite E, E'. cbn. congruence.
  - destruct (wrong_count 4 args) eqn:W; [discriminate|]. destruct (wrong_count 4 args') eqn:W'; [discriminate|].
    apply wc_ok in W, W'; try lia. destruct W as (k & L). destruct W' as (k' & L').
    destruct (build_quadratics _ tr _ _ args) as [[e q] s] eqn:E in B. destruct (build_quadratics _ tr _ _ args') as [[e' q'] s'] eqn:E' in B'.
    apply (quadratics_inj (is_lower cmd) tr KA _ _ (p_pos c) (p_last_control c) (p_last_control c) k k' L L').
    rewrite E, E'. cbn. congruence.
Qed.

Example C46_example :
  keeps_apart tidentity /\ group (ch "L") 2 /\
  (exists c segs, build_path path_ctx_new (ch "L") [1; 2; 3; 4] tidentity true = Ok (Some (c, segs))) /\
  build_path path_ctx_new (ch "L") [1; 2; 3] tidentity true = Ok None /\
  build_path path_ctx_new (ch "L") [] tidentity true = Ok None.
Proof.
  split; [intros p q H; rewrite !tapply_id in H; exact H|]. split; [left; split; [apply is_one_of_In; reflexivity|reflexivity]|].
  split; [do 2 eexists; reflexivity|]. split; reflexivity.
Qed.

(** ** C47: curves *)

(** The groups of arguments of absolute curve commands, as control points. *)
Fixpoint curves3 (p : vec) (args : list R) : list (vec * vec * vec * vec) :=
  match args with
  | x1 :: y1 :: x2 :: y2 :: x :: y :: rest =>
      (p, mk_vec x1 y1, mk_vec x2 y2, mk_vec x y) :: curves3 (mk_vec x y) rest
  | _ => []
  end.
Fixpoint curves2 (p : vec) (args : list R) : list (vec * vec * vec) :=
  match args with
  | x1 :: y1 :: x :: y :: rest => (p, mk_vec x1 y1, mk_vec x y) :: curves2 (mk_vec x y) rest
  | _ => []
  end.

(** [s] drawn from the image of [p] ends at the image of [q] and its point at every [t] is the
    image of [curve t]; what the drawing code makes of [s] (bezier_value) are these points. *)
Definition follows (tr : transform) (p q : vec) (curve : R -> vec) (s : curve_segment) : Prop :=
  exists c1 c2, s = CurveTo (tapply tr q) c1 c2 /\
  forall t,
    drawn (tapply tr p) s t = Some (tapply tr (curve t)) /\
    let rel := vsub (tapply tr q) (tapply tr p) in
    vadd (tapply tr p) (fst (bezier_value c1 (vadd rel c2) rel t)) = tapply tr (curve t).

Lemma follows_intro : forall tr p q a b curve,
  (forall t, bernstein3 (tapply tr p) a b (tapply tr q) t = tapply tr (curve t)) ->
  follows tr p q curve (CurveTo (tapply tr q) (vsub a (tapply tr p)) (vsub b (tapply tr q))).
Proof.
  intros tr p q a b curve H. exists (vsub a (tapply tr p)), (vsub b (tapply tr q)). split; [reflexivity|]. intros t. split.
  - cbn [drawn]. f_equal. rewrite <- H. f_equal; unfold vadd, vsub; cbn; destruct a, b; cbn; f_equal; ring.
  - cbv zeta. rewrite C61_bernstein, <- H. unfold bernstein3, vadd, vsub, vscale. cbn [vx vy]. f_equal; ring.
Qed.

(** Every group of a cubic command is drawn as the SVG cubic under the transform... *)
Theorem C47_cubic : forall c args tr f c' segs,
  build_path c (ch "C") args tr f = Ok (Some (c', segs)) ->
  Forall2 (fun '(p0, p1, p2, p3) s => follows tr p0 p3 (bernstein3 p0 p1 p2 p3) s) (curves3 (p_pos c) args) segs.
Proof.
  intros c args tr f c' segs H. rewrite build_path_kind in H. change (kind_of (ch "C")) with Cubic in H.
  change (is_lower (ch "C")) with false in H. cbv iota beta in H.
  destruct (wrong_count 6 args) eqn:W; [discriminate|]. apply wc_ok in W; [|lia]. destruct W as [k K].
  destruct (build_cubics false tr (p_pos c) (p_last_control c) args) as [[e q] s] eqn:E.
  assert (S := f_equal snd E). cbn [snd] in S. injection H as _ <-. subst s. clear E c' e q.
  generalize (p_pos c) as pos. generalize (p_last_control c) as ctl. intros ctl pos.
  revert pos ctl k K. induction args as [args IH] using list_size_ind. intros pos ctl k K.
  destruct args as [|x1 [|y1 [|x2 [|y2 [|x [|y rest]]]]]]; [constructor|cbn in K; lia..|].
  cbn [build_cubics curves3]. cbv zeta. rewrite !off_false.
  specialize (IH rest ltac:(cbn; lia) (mk_vec x y) (Some (mk_vec x2 y2)) (k - 1)%nat ltac:(cbn in K; lia)).
  destruct (build_cubics false tr (mk_vec x y) _ rest) as [[e q] s]. cbn [snd] in *. constructor; [|exact IH].
  apply follows_intro. intros t. unfold bernstein3, tapply, vadd, vscale. cbn. f_equal; ring.
Qed.

(** ... and every group of a quadratic command as the SVG quadratic, raised to a cubic. *)
Theorem C47_quadratic : forall c args tr f c' segs,
  build_path c (ch "Q") args tr f = Ok (Some (c', segs)) ->
  Forall2 (fun '(p0, p1, p2) s => follows tr p0 p2 (bernstein2 p0 p1 p2) s) (curves2 (p_pos c) args) segs.
Proof.
  intros c args tr f c' segs H. rewrite build_path_kind in H. change (kind_of (ch "Q")) with Quad in H.
  change (is_lower (ch "Q")) with false in H. cbv iota beta in H.
  destruct (wrong_count 4 args) eqn:W; [discriminate|]. apply wc_ok in W; [|lia]. destruct W as [k K].
  destruct (build_quadratics false tr (p_pos c) (p_last_control c) args) as [[e q] s] eqn:E.
  assert (S := f_equal snd E). cbn [snd] in S. injection H as _ <-. subst s. clear E c' e q.
  generalize (p_pos c) as pos. generalize (p_last_control c) as ctl. intros ctl pos.
  revert pos ctl k K. induction args as [args IH] using list_size_ind. intros pos ctl k K.
  destruct args as [|x1 [|y1 [|x [|y rest]]]]; [constructor|cbn in K; lia..|].
  cbn [build_quadratics curves2]. cbv zeta. rewrite !off_false.
  match goal with |- context [build_quadratics false tr ?p ?l rest] =>
    specialize (IH rest ltac:(cbn; lia) p l (k - 1)%nat ltac:(cbn in K; lia));
    destruct (build_quadratics false tr p l rest) as [[e q] s] end.
  cbn [snd] in *. constructor; [|exact IH].
  set (p0 := tapply tr pos). set (m := tapply tr (mk_vec x1 y1)). set (p2 := tapply tr (mk_vec x y)).
  replace (vscale (vsub m p0) (2 / 3)) with (vsub (vadd p0 (vscale (vsub m p0) (2 / 3))) p0)
    by (unfold vsub, vadd, vscale; cbn; f_equal; ring).
  replace (vscale (vsub m p2) (2 / 3)) with (vsub (vadd p2 (vscale (vsub m p2) (2 / 3))) p2)
    by (unfold vsub, vadd, vscale; cbn; f_equal; ring).
  apply follows_intro. intros t. unfold p0, m, p2, bernstein3, bernstein2, tapply, vadd, vsub, vscale. cbn. f_equal; field.
Qed.

(** Lines, moves and the close end where they say. *)
Fixpoint points (args : list R) : list vec :=
  match args with
  | x :: y :: rest => mk_vec x y :: points rest
  | _ => []
  end.

Theorem C47_straight : forall c args tr f c' segs cmd,
  build_path c cmd args tr f = Ok (Some (c', segs)) ->
  (cmd = ch "M" -> exists p ps, points args = p :: ps /\
     segs = GoTo (tapply tr p) :: map (fun q => LineTo (tapply tr q)) ps /\ p_start c' = p) /\
  (cmd = ch "L" -> segs = map (fun q => LineTo (tapply tr q)) (points args)) /\
  (cmd = ch "H" -> segs = map (fun x => LineTo (tapply tr (mk_vec x (vy (p_pos c))))) args) /\
  (cmd = ch "V" -> segs = map (fun y => LineTo (tapply tr (mk_vec (vx (p_pos c)) y))) args) /\
  (cmd = ch "Z" -> segs = [CloseTo (tapply tr (p_start c))] /\ p_pos c' = p_start c).
Proof.
  assert (LP : forall tr args pos, snd (build_lines false tr pos args) = map (fun q => LineTo (tapply tr q)) (points args)).
  { intros tr. induction args as [args IH] using list_size_ind. intros pos.
    destruct args as [|x [|y rest]]; try reflexivity. cbn [build_lines points moved].
    specialize (IH rest ltac:(cbn; lia) (mk_vec x y)). destruct (build_lines false tr _ rest). cbn [snd map] in *. congruence. }
  intros c args tr f c' segs cmd H. split; [|split; [|split; [|split]]]; intros ->; rewrite build_path_kind in H.
  - change (kind_of (ch "M")) with Move in H. change (is_lower (ch "M")) with false in H. cbn [andb moved] in H.
    destruct (wrong_count 2 args) eqn:W; [discriminate|]. apply wrong_count_false in W; [|lia]. destruct W as (k & K & L).
    destruct args as [|x [|y rest]]; [cbn in L; lia..|]. cbv zeta in H. specialize (LP tr rest (mk_vec x y)).
    destruct (build_lines false tr (mk_vec x y) rest) as [e s]. injection H as <- <-. cbn [snd] in LP. subst s.
    exists (mk_vec x y), (points rest). repeat split.
  - change (kind_of (ch "L")) with Line in H. change (is_lower (ch "L")) with false in H. cbv iota beta in H.
    destruct (wrong_count 2 args); [discriminate|]. specialize (LP tr args (p_pos c)).
    destruct (build_lines false tr (p_pos c) args) as [e s]. injection H as <- <-. exact LP.
  - change (kind_of (ch "H")) with Hori in H. change (is_lower (ch "H")) with false in H. cbv iota beta in H.
    destruct (Nat.eqb _ 0); [discriminate|].
    assert (HP : forall args pos, snd (build_horizontal false tr pos args) = map (fun x => LineTo (tapply tr (mk_vec x (vy pos)))) args).
    { clear. induction args as [|x rest IH]; intros pos; [reflexivity|]. cbn [build_horizontal map].
      specialize (IH (mk_vec x (vy pos))). destruct (build_horizontal false tr _ rest). cbn [snd vy] in *. congruence. }
    specialize (HP args (p_pos c)). destruct (build_horizontal false tr (p_pos c) args) as [e s]. injection H as <- <-. exact HP.
  - change (kind_of (ch "V")) with Vert in H. change (is_lower (ch "V")) with false in H. cbv iota beta in H.
    destruct (Nat.eqb _ 0); [discriminate|].
    assert (HP : forall args pos, snd (build_vertical false tr pos args) = map (fun y => LineTo (tapply tr (mk_vec (vx pos) y))) args).
    { clear. induction args as [|y rest IH]; intros pos; [reflexivity|]. cbn [build_vertical map].
      specialize (IH (mk_vec (vx pos) y)). destruct (build_vertical false tr _ rest). cbn [snd vx] in *. congruence. }
    specialize (HP args (p_pos c)). destruct (build_vertical false tr (p_pos c) args) as [e s]. injection H as <- <-. exact HP.
  - change (kind_of (ch "Z")) with Close in H. injection H as <- <-. split; reflexivity.
Qed.

Example C47_example : exists c' segs,
  build_path path_ctx_new (ch "Q") [1; 0; 1; 1; 2; 2; 3; 0] tidentity true = Ok (Some (c', segs)) /\ List.length segs = 2%nat.
Proof. eexists _, _. split; reflexivity. Qed.

Print Assumptions C44_absolute.
Print Assumptions C45_transform.
Print Assumptions C45_points.
Print Assumptions C46_groups.
Print Assumptions C46_unknown.
Print Assumptions C46_close.
Print Assumptions C46_nothing_dropped.
Print Assumptions C47_cubic.
Print Assumptions C47_quadratic.
Print Assumptions C47_straight.
