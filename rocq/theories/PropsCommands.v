(** Properties of path commands: C84 (repeated groups of arguments), C85 (the arguments of
    an arc), C86 (the last control point). *)
From Coq Require Import Reals Lra List Bool NArith Arith Lia ZifyBool Ascii String.
From Verif Require Import Base Chars Coords CoordsProofs Curves PathBuild BuildProofs ArcProofs PropsCurves PropsBuild PropsArc.
Import ListNotations.
Open Scope R_scope.

(** ** C84: repeated groups *)

(** The commands that may be followed by several groups of arguments, with the size of a
    group. *)
Definition repeats (cmd : char) (n : nat) : Prop :=
  (In cmd (chars "lL") /\ n = 2%nat) \/ (In cmd (chars "vVhH") /\ n = 1%nat) \/
  (In cmd (chars "cC") /\ n = 6%nat) \/ (In cmd (chars "qQ") /\ n = 4%nat) \/ (In cmd (chars "aA") /\ n = 7%nat).

Definition groups (n : nat) (args : list R) : Prop := exists k, (0 < k)%nat /\ List.length args = (n * k)%nat.

Lemma repeats_kind : forall cmd n, repeats cmd n ->
  match kind_of cmd with
  | Line => n = 2%nat | Vert | Hori => n = 1%nat | Cubic => n = 6%nat | Quad => n = 4%nat | ArcTo => n = 7%nat
  | _ => False
  end.
Proof.
  intros cmd n [[I ->]|[[I ->]|[[I ->]|[[I ->]|[I ->]]]]]; cbn in I;
    repeat (destruct I as [<-|I]; [reflexivity|]); contradiction.
Qed.

Lemma groups_ok : forall n args, n <> O -> groups n args -> wrong_count n args = false.
Proof. intros n args N (k & K & L). apply wrong_count_false; eauto. Qed.

Lemma groups_app : forall n a b, groups n a -> groups n b -> groups n (a ++ b).
Proof.
  intros n a b (k & K & A) (l & L & B). exists (k + l)%nat. rewrite app_length. split; lia.
Qed.

Lemma lines_app : forall rel tr g2 g1 pos k, List.length g1 = (2 * k)%nat ->
  build_lines rel tr pos (g1 ++ g2) =
  let '(e, s) := build_lines rel tr pos g1 in
  let '(e', s') := build_lines rel tr e g2 in (e', s ++ s').
Proof.
  intros rel tr g2. induction g1 as [g1 IH] using list_size_ind. intros pos k K.
  destruct g1 as [|x [|y rest]]; [|cbn in K; lia|].
  - cbn [app build_lines]. destruct (build_lines rel tr pos g2). reflexivity.
  - cbn [app build_lines]. rewrite (IH rest ltac:(cbn; lia) _ (k - 1)%nat) by (cbn in K; lia).
    destruct (build_lines rel tr (moved rel pos (mk_vec x y)) rest) as [e s].
    destruct (build_lines rel tr e g2). reflexivity.
Qed.

Lemma vertical_app : forall rel tr g2 g1 pos,
  build_vertical rel tr pos (g1 ++ g2) =
  let '(e, s) := build_vertical rel tr pos g1 in
  let '(e', s') := build_vertical rel tr e g2 in (e', s ++ s').
Proof.
  intros rel tr g2. induction g1 as [|y g1 IH]; intros pos.
  - cbn [app build_vertical]. destruct (build_vertical rel tr pos g2). reflexivity.
  - cbn [app build_vertical]. rewrite IH. cbv zeta. destruct (build_vertical rel tr _ g1) as [e s].
    destruct (build_vertical rel tr e g2). reflexivity.
Qed.

Lemma horizontal_app : forall rel tr g2 g1 pos,
  build_horizontal rel tr pos (g1 ++ g2) =
  let '(e, s) := build_horizontal rel tr pos g1 in
  let '(e', s') := build_horizontal rel tr e g2 in (e', s ++ s').
Proof.
  intros rel tr g2. induction g1 as [|y g1 IH]; intros pos.
  - cbn [app build_horizontal]. destruct (build_horizontal rel tr pos g2). reflexivity.
  - cbn [app build_horizontal]. rewrite IH. cbv zeta. destruct (build_horizontal rel tr _ g1) as [e s].
    destruct (build_horizontal rel tr e g2). reflexivity.
Qed.

Lemma cubics_app : forall rel tr g2 g1 pos ctl k, List.length g1 = (6 * k)%nat ->
  build_cubics rel tr pos ctl (g1 ++ g2) =
  let '(e, q, s) := build_cubics rel tr pos ctl g1 in
  let '(e', q', s') := build_cubics rel tr e q g2 in (e', q', s ++ s').
Proof.
  intros rel tr g2. induction g1 as [g1 IH] using list_size_ind. intros pos ctl k K.
  destruct g1 as [|x1 [|y1 [|x2 [|y2 [|x [|y rest]]]]]]; [|cbn in K; lia..|].
  - cbn [app build_cubics]. destruct (build_cubics rel tr pos ctl g2) as [[? ?] ?]. reflexivity.
  - cbn [app build_cubics]. cbv zeta. rewrite (IH rest ltac:(cbn; lia) _ _ (k - 1)%nat) by (cbn in K; lia).
    destruct (build_cubics rel tr _ _ rest) as [[e q] s].
    destruct (build_cubics rel tr e q g2) as [[? ?] ?]. reflexivity.
Qed.

Lemma quadratics_app : forall rel tr g2 g1 pos ctl k, List.length g1 = (4 * k)%nat ->
  build_quadratics rel tr pos ctl (g1 ++ g2) =
  let '(e, q, s) := build_quadratics rel tr pos ctl g1 in
  let '(e', q', s') := build_quadratics rel tr e q g2 in (e', q', s ++ s').
Proof.
  intros rel tr g2. induction g1 as [g1 IH] using list_size_ind. intros pos ctl k K.
  destruct g1 as [|x1 [|y1 [|x [|y rest]]]]; [|cbn in K; lia..|].
  - cbn [app build_quadratics]. destruct (build_quadratics rel tr pos ctl g2) as [[? ?] ?]. reflexivity.
  - cbn [app build_quadratics]. cbv zeta. rewrite (IH rest ltac:(cbn; lia) _ _ (k - 1)%nat) by (cbn in K; lia).
    destruct (build_quadratics rel tr _ _ rest) as [[e q] s].
    destruct (build_quadratics rel tr e q g2) as [[? ?] ?]. reflexivity.
Qed.

Lemma arcs_fuel : forall rel tr args fuel fuel' pos,
  (List.length args <= fuel)%nat -> (List.length args <= fuel')%nat ->
  build_arcs fuel rel tr pos args = build_arcs fuel' rel tr pos args.
Proof.
  intros rel tr. induction args as [args IH] using list_size_ind. intros fuel fuel' pos F F'.
  destruct args as [|rx [|ry [|rot [|large [|sweep [|x [|y rest]]]]]]]; try (destruct fuel; destruct fuel'; reflexivity).
  destruct fuel as [|fuel]; [cbn in F; lia|]. destruct fuel' as [|fuel']; [cbn in F'; lia|].
  cbn [build_arcs get_arc_args]. destruct (build_arc _ _ _ _) as [[[q seg]|]| |]; try reflexivity.
  cbn [bind]. rewrite (IH rest ltac:(cbn; lia) fuel fuel' q) by (cbn in F, F'; lia). reflexivity.
Qed.

Lemma arcs_app : forall rel tr g2 g1 fuel fuel1 fuel2 pos k, List.length g1 = (7 * k)%nat ->
  (List.length (g1 ++ g2) <= fuel)%nat -> (List.length g1 <= fuel1)%nat -> (List.length g2 <= fuel2)%nat ->
  build_arcs fuel rel tr pos (g1 ++ g2) =
  let! r := build_arcs fuel1 rel tr pos g1 in
  match r with
  | None => Ok None
  | Some (e, s) =>
      let! r := build_arcs fuel2 rel tr e g2 in
      match r with None => Ok None | Some (e', s') => Ok (Some (e', s ++ s')) end
  end.
Proof.
  intros rel tr g2. induction g1 as [g1 IH] using list_size_ind. intros fuel fuel1 fuel2 pos k K F F1 F2.
  destruct g1 as [|rx [|ry [|rot [|large [|sweep [|x [|y rest]]]]]]]; [|cbn in K; lia..|].
  - cbn [app] in *. replace (build_arcs fuel1 rel tr pos []) with (@Ok (option (vec * list curve_segment)) (Some (pos, [])))
      by (destruct fuel1; reflexivity).
    cbn [bind]. rewrite (arcs_fuel rel tr g2 fuel fuel2) by auto.
    destruct (build_arcs fuel2 rel tr pos g2) as [[[e s]|]| |]; reflexivity.
  - destruct fuel as [|fuel]; [cbn in F; lia|]. destruct fuel1 as [|fuel1]; [cbn in F1; lia|].
    cbn [app build_arcs get_arc_args].
    destruct (build_arc _ _ _ _) as [[[q seg]|]| |]; try reflexivity. cbn [bind].
    rewrite (IH rest ltac:(cbn; lia) fuel fuel1 fuel2 q (k - 1)%nat) by (cbn in K, F, F1; lia).
    destruct (build_arcs fuel1 rel tr q rest) as [[[e s]|]| |]; try reflexivity. cbn [bind].
    destruct (build_arcs fuel2 rel tr e g2) as [[[e' s']|]| |]; reflexivity.
Qed.

Lemma commands_2 : forall c cmd args cmd1 g1 cmd2 g2 rest tr f,
  build_path c cmd args tr f =
    (let! r := build_path c cmd1 g1 tr f in
     match r with
     | None => Ok None
     | Some (c1, s1) =>
         let! r := build_path c1 cmd2 g2 tr false in
         match r with None => Ok None | Some (c2, s2) => Ok (Some (c2, s1 ++ s2)) end
     end) ->
  build_commands c ((cmd, args) :: rest) tr f = build_commands c ((cmd1, g1) :: (cmd2, g2) :: rest) tr f.
Proof.
  intros c cmd args cmd1 g1 cmd2 g2 rest tr f H. cbn [build_commands]. rewrite H.
  destruct (build_path c cmd1 g1 tr f) as [[[c1 s1]|]| |]; try reflexivity. cbn [bind].
  destruct (build_path c1 cmd2 g2 tr false) as [[[c2 s2]|]| |]; try reflexivity. cbn [bind].
  destruct (build_commands c2 rest tr false) as [[[c3 s3]|]| |]; try reflexivity. cbn [bind].
  rewrite app_assoc. reflexivity.
Qed.

(** A command with several groups of arguments is the command repeated. *)
Theorem C84_repeated : forall cmd n c g1 g2 rest tr f, repeats cmd n -> groups n g1 -> groups n g2 ->
  build_commands c ((cmd, g1 ++ g2) :: rest) tr f = build_commands c ((cmd, g1) :: (cmd, g2) :: rest) tr f.
Proof.
  intros cmd n c g1 g2 rest tr f R G1 G2. apply commands_2. rewrite !build_path_kind.
  apply repeats_kind in R.
  destruct (kind_of cmd) eqn:K; try contradiction; subst n; pose proof (groups_app _ _ _ G1 G2) as G;
    pose proof G1 as GG; destruct GG as (k & K0 & KL).
  - rewrite !groups_ok by auto. rewrite (lines_app _ _ _ _ _ k KL).
    destruct (build_lines _ tr (p_pos c) g1) as [e s]. cbn [bind]. rewrite build_path_kind, K, groups_ok by auto.
    cbn [p_pos p_start]. destruct (build_lines _ tr e g2). reflexivity.
  - rewrite !(proj2 (Nat.eqb_neq _ _)) by (destruct G as (? & ? & ?); destruct G1 as (? & ? & ?); lia). rewrite vertical_app.
    destruct (build_vertical _ tr (p_pos c) g1) as [e s]. cbn [bind]. rewrite build_path_kind, K.
    rewrite !(proj2 (Nat.eqb_neq _ _)) by (destruct G2 as (? & ? & ?); lia).
    cbn [p_pos p_start]. destruct (build_vertical _ tr e g2). reflexivity.
  - rewrite !(proj2 (Nat.eqb_neq _ _)) by (destruct G as (? & ? & ?); destruct G1 as (? & ? & ?); lia). rewrite horizontal_app.
    destruct (build_horizontal _ tr (p_pos c) g1) as [e s]. cbn [bind]. rewrite build_path_kind, K.
    rewrite !(proj2 (Nat.eqb_neq _ _)) by (destruct G2 as (? & ? & ?); lia).
    cbn [p_pos p_start]. destruct (build_horizontal _ tr e g2). reflexivity.
  - rewrite !groups_ok by auto. rewrite (cubics_app _ _ _ _ _ _ k KL).
    destruct (build_cubics _ tr (p_pos c) _ g1) as [[e q] s]. cbn [bind]. rewrite build_path_kind, K, groups_ok by auto.
    cbn [p_pos p_start p_last_control]. destruct (build_cubics _ tr e q g2) as [[? ?] ?]. reflexivity.
  - rewrite !groups_ok by auto. rewrite (quadratics_app _ _ _ _ _ _ k KL).
    destruct (build_quadratics _ tr (p_pos c) _ g1) as [[e q] s]. cbn [bind]. rewrite build_path_kind, K, groups_ok by auto.
    cbn [p_pos p_start p_last_control]. destruct (build_quadratics _ tr e q g2) as [[? ?] ?]. reflexivity.
  - rewrite !groups_ok by auto. rewrite (arcs_app _ _ _ _ _ (List.length g1) (List.length g2) _ k KL) by lia.
    destruct (build_arcs _ _ tr (p_pos c) g1) as [[[e s]|]| |]; try reflexivity. cbn [bind].
    rewrite build_path_kind, K, groups_ok by auto. cbn [p_pos p_start p_last_control].
    destruct (build_arcs _ _ tr e g2) as [[[e' s']|]| |]; reflexivity.
Qed.

(** The pairs of a move-to after the first are a line-to. *)
Theorem C84_move : forall c g1 g2 rest tr f, groups 2 g1 -> groups 2 g2 ->
  build_commands c ((ch "M", g1 ++ g2) :: rest) tr f = build_commands c ((ch "M", g1) :: (ch "L", g2) :: rest) tr f /\
  build_commands c ((ch "m", g1 ++ g2) :: rest) tr f = build_commands c ((ch "m", g1) :: (ch "l", g2) :: rest) tr f.
Proof.
  intros c g1 g2 rest tr f G1 G2. pose proof (groups_app _ _ _ G1 G2) as G.
  pose proof G1 as GG. destruct GG as (k & K0 & KL).
  destruct g1 as [|x [|y g1]]; [cbn in KL; lia..|].
  split; apply commands_2; rewrite !build_path_kind.
  - change (kind_of (ch "M")) with Move. rewrite !groups_ok by auto. cbn [app]. cbv zeta.
    rewrite (lines_app _ _ _ _ _ (k - 1)%nat) by (cbn in KL; lia).
    destruct (build_lines _ tr _ g1) as [e s]. cbn [bind]. rewrite build_path_kind.
    change (kind_of (ch "L")) with Line. change (is_lower (ch "L")) with (is_lower (ch "M")).
    rewrite groups_ok by auto. cbn [p_pos p_start]. destruct (build_lines _ tr e g2). reflexivity.
  - change (kind_of (ch "m")) with Move. rewrite !groups_ok by auto. cbn [app]. cbv zeta.
    rewrite (lines_app _ _ _ _ _ (k - 1)%nat) by (cbn in KL; lia).
    destruct (build_lines _ tr _ g1) as [e s]. cbn [bind]. rewrite build_path_kind.
    change (kind_of (ch "l")) with Line. change (is_lower (ch "l")) with (is_lower (ch "m")).
    rewrite groups_ok by auto. cbn [p_pos p_start]. destruct (build_lines _ tr e g2). reflexivity.
Qed.

Example C84_example : groups 2 [1; 2] /\ groups 7 [1; 1; 0; 0; 1; 0; 1; 1; 1; 0; 0; 1; 1; 0] /\ repeats (ch "a") 7.
Proof.
  split; [exists 1%nat; auto|]. split; [exists 2%nat; auto|]. unfold repeats. cbn. auto 10.
Qed.

(** ** C85: the arguments of an arc *)

(** Anything but complete groups of seven is refused. *)
Theorem C85_count : forall c cmd args tr f, In cmd (chars "aA") -> ~ groups 7 args -> build_path c cmd args tr f = Ok None.
Proof.
  intros c cmd args tr f I N. rewrite build_path_kind.
  assert (K : kind_of cmd = ArcTo) by (cbn in I; repeat (destruct I as [<-|I]; [reflexivity|]); contradiction).
  rewrite K. destruct (wrong_count 7 args) eqn:W; [reflexivity|]. exfalso. apply N. apply wrong_count_false in W; [|lia]. exact W.
Qed.

Lemma one_arc : forall c cmd rx ry deg fl fs x y tr f, In cmd (chars "aA") ->
  build_path c cmd [rx; ry; deg; fl; fs; x; y] tr f =
  let! r := build_arc (is_lower cmd) tr (p_pos c) (mk_arc_args rx ry (deg * PI / 180) (nonzero fl) (nonzero fs) x y) in
  match r with None => Ok None | Some (q, seg) => Ok (Some (mk_pctx q (p_start c) (p_last_control c), [seg])) end.
Proof.
  intros c cmd rx ry deg fl fs x y tr f I. rewrite build_path_kind.
  assert (K : kind_of cmd = ArcTo) by (cbn in I; repeat (destruct I as [<-|I]; [reflexivity|]); contradiction).
  rewrite K, groups_ok by (try lia; exists 1%nat; auto). cbn [List.length build_arcs get_arc_args].
  destruct (build_arc _ _ _ _) as [[[q seg]|]| |]; reflexivity.
Qed.

Lemma nonzero_iff : forall v, nonzero v = true <-> v <> 0.
Proof. intros v. unfold nonzero. destruct (Req_EM_T v 0); split; intro H; congruence. Qed.

(** Where the last two arguments of an arc lie. *)
Definition arc_target (cmd : char) (pos : vec) (x y : R) : vec :=
  if N.eqb cmd (ch "a") then mk_vec (vx pos + x) (vy pos + y) else mk_vec x y.

Lemma arc_target_end : forall cmd pos a, In cmd (chars "aA") ->
  arc_end (is_lower cmd) pos a = arc_target cmd pos (arc_x a) (arc_y a).
Proof.
  intros cmd pos a I. cbn in I. destruct I as [<-|[<-|[]]]; [|reflexivity].
  change (is_lower _) with true. unfold arc_end, moved, arc_target, vadd. cbn [vx vy].
  change (N.eqb 97 (ch "a")) with true. reflexivity.
Qed.

(** A circle: two equal radii; the fourth argument asks for the large arc if it is not 0, the
    fifth for growing angles if it is not 0; the arc runs from the current point to the point
    named by the last two.  The path is refused if that is the current point or out of
    reach. *)
Theorem C85_circle : forall c cmd r fl fs x y tr f s large sweep, In cmd (chars "aA") ->
  0 < r -> 0 < s -> similar tr s -> (large = true <-> fl <> 0) -> (sweep = true <-> fs <> 0) ->
  let pos := p_pos c in
  let p := arc_target cmd pos x y in
  (build_path c cmd [r; r; 0; fl; fs; x; y] tr f = Ok None <-> p = pos \/ 2 * r < vlength (vsub p pos)) /\
  forall c' segs, build_path c cmd [r; r; 0; fl; fs; x; y] tr f = Ok (Some (c', segs)) ->
    p_pos c' = p /\ p_start c' = p_start c /\
    exists seg, segs = [seg] /\
    exists center b1 b2, svg_arc r pos p large (orientation tr sweep) center b1 b2 /\
    forall find fuel, exists ci len,
      segment_to_info find fuel seg (tapply tr pos) = Ok (Some (ci, tapply tr p)) /\
      ci_length ci = Ok len /\
      forall u, exists v d, ci_value ci (u * len) = Ok (v, d) /\
        vadd (tapply tr pos) v = tapply tr (arc_point r center b1 b2 u).
Proof.
  intros c cmd r fl fs x y tr f s large sweep I R0 S SI FL FS pos p. rewrite one_arc by auto.
  replace (nonzero fl) with large by (pose proof (nonzero_iff fl); destruct large; destruct (nonzero fl); intuition congruence).
  replace (nonzero fs) with sweep by (pose proof (nonzero_iff fs); destruct sweep; destruct (nonzero fs); intuition congruence).
  set (a := mk_arc_args r r (0 * PI / 180) large sweep x y).
  assert (Z : arc_rot a = 0) by (cbn; lra).
  destruct (C77_circle (is_lower cmd) tr pos a s R0 eq_refl Z S SI) as [N G].
  rewrite (arc_target_end cmd pos a I) in N, G. change (arc_target cmd pos (arc_x a) (arc_y a)) with p in N, G.
  cbn [arc_rx] in N. change (arc_rx a) with r in N, G. fold pos.
  destruct (build_arc (is_lower cmd) tr pos a) as [[[q seg]|]| |]; cbn [bind].
  - split.
    + split; intro H; [discriminate|]. apply N in H. discriminate.
    + intros c' segs H. injection H as <- <-. destruct (G q seg eq_refl) as [-> D]. cbn [p_pos p_start].
      split; [reflexivity|]. split; [reflexivity|]. exists seg. split; [reflexivity|]. exact D.
  - split; [|discriminate]. split; intro H; [apply N; reflexivity|reflexivity].
  - split; [|discriminate]. split; intro H; [discriminate|]. apply N in H. discriminate.
  - split; [|discriminate]. split; intro H; [discriminate|]. apply N in H. discriminate.
Qed.

(** The third argument is the rotation of the ellipse in degrees: the arc is one of the
    ellipse that the transform makes of the ellipse with the given radii turned by that
    angle. *)
Theorem C85_ellipse : forall c cmd rx ry deg fl fs x y tr f c' segs, In cmd (chars "aA") -> rx <> 0 -> ry <> 0 ->
  build_path c cmd [rx; ry; deg; fl; fs; x; y] tr f = Ok (Some (c', segs)) ->
  p_pos c' = arc_target cmd (p_pos c) x y /\
  exists rx' ry' a1 a2 rot', segs = [Arc rx' ry' a1 a2 rot'] /\
    forall w, (exists a, w = ellipse_point rx' ry' rot' a) <->
              (exists a, w = lin tr (ellipse_point rx ry (deg / 360 * (2 * PI)) a)).
Proof.
  intros c cmd rx ry deg fl fs x y tr f c' segs I X Y H. rewrite one_arc in H by auto.
  set (a := mk_arc_args rx ry (deg * PI / 180) (nonzero fl) (nonzero fs) x y) in H.
  destruct (build_arc (is_lower cmd) tr (p_pos c) a) as [[[q seg]|]| |] eqn:E; cbn [bind] in H; try discriminate.
  injection H as <- <-. cbn [p_pos].
  assert (Q : q = arc_end (is_lower cmd) (p_pos c) a).
  { rewrite build_arc_eq in E. match type of E with (if ?b then _ else _) = _ => destruct b; [|discriminate] end.
    destruct (arc_segment _ _ _) as [[sg|]| |]; cbn [bind] in E; try discriminate. injection E as <- _. reflexivity. }
  rewrite arc_target_end in Q by auto. split; [exact Q|].
  destruct (C79_displacement (is_lower cmd) tr (p_pos c) a q seg X Y E) as (rx' & ry' & a1 & a2 & rot & -> & TE & _).
  exists rx', ry', a1, a2, rot. split; [reflexivity|].
  replace (deg / 360 * (2 * PI)) with (arc_rot a) by (cbn; field).
  destruct (C78_image (arc_rx a) (arc_ry a) (arc_rot a) tr X Y) as [P G].
  assert (D : linear_det tr <> 0) by (intro Z; apply P in Z; rewrite Z in TE; discriminate).
  destruct (G D) as (rx2 & ry2 & rot2 & TE2 & _ & _ & W). rewrite TE in TE2. injection TE2 as <- <- <-. exact W.
Qed.

Example C85_example : let tr := mk_tr 2 0 0 2 5 7 in
  similar tr 2 /\ exists c' segs,
  build_path (mk_pctx (mk_vec 1 0) (mk_vec 0 0) None) (ch "A") [1; 1; 0; 0; 1; 0; 1] tr false = Ok (Some (c', segs)).
Proof.
  cbn zeta. assert (SI : similar (mk_tr 2 0 0 2 5 7) 2) by (unfold similar; cbn; repeat split; ring).
  split; [exact SI|]. rewrite one_arc by (cbn; auto). cbn [p_pos p_start p_last_control].
  change (is_lower (ch "A")) with false.
  destruct (build_circle_some false (mk_tr 2 0 0 2 5 7) (mk_vec 1 0)
    (mk_arc_args 1 1 (0 * PI / 180) (nonzero 0) (nonzero 1) 0 1) 2) as [[q seg] E]; cbn [arc_rx arc_ry]; try lra; auto.
  - unfold arc_end, moved. cbn. intro H. injection H. lra.
  - replace (vsub _ _) with (mk_vec (-1) 1) by (unfold vsub, arc_end, moved; cbn; f_equal; ring).
    rewrite Rmult_1_r. apply quarter_length.
  - rewrite E. cbn [bind]. eauto.
Qed.

(** ** C86: the last control point *)

(** The code keeps the second control point of the last cubic (or of the cubic that the last
    quadratic is drawn as), and forgets it after a move or a straight line; arcs and closing
    leave it alone. *)
Theorem C86_control : forall c cmd args tr f c' segs, build_path c cmd args tr f = Ok (Some (c', segs)) ->
  (cmd = ch "C" -> exists p0 p1 p2 p3, List.last (curves3 (p_pos c) args) (p0, p1, p2, p3) = (p0, p1, p2, p3) /\
     curves3 (p_pos c) args <> [] /\ p_last_control c' = Some p2) /\
  (cmd = ch "Q" -> exists p0 p1 p2 m, List.last (curves2 (p_pos c) args) (p0, p1, p2) = (p0, p1, p2) /\
     curves2 (p_pos c) args <> [] /\ p_last_control c' = Some m /\
     exists m0, forall t, bernstein3 p0 m0 m p2 t = bernstein2 p0 p1 p2 t) /\
  (In cmd (chars "mMlLhHvV") -> p_last_control c' = None) /\
  (In cmd (chars "aAzZ") -> p_last_control c' = p_last_control c).
Proof.
  intros c cmd args tr f c' segs H. rewrite build_path_kind in H. split; [|split; [|split]].
  - intros ->. change (kind_of (ch "C")) with Cubic in H. change (is_lower (ch "C")) with false in H. cbv iota beta in H.
    destruct (wrong_count 6 args) eqn:W; [discriminate|]. apply wrong_count_false in W; [|lia]. destruct W as (k & K0 & K).
    destruct (build_cubics false tr (p_pos c) (p_last_control c) args) as [[e q] s] eqn:E. injection H as <- _. cbn [p_last_control].
    assert (S : q = snd (fst (build_cubics false tr (p_pos c) (p_last_control c) args))) by (rewrite E; reflexivity).
    subst q. clear E s. generalize (p_pos c) as pos. generalize (p_last_control c) as ctl.
    revert k K0 K. induction args as [args IH] using list_size_ind. intros k K0 K ctl pos.
    destruct args as [|x1 [|y1 [|x2 [|y2 [|x [|y rest]]]]]]; [cbn in K; lia..|].
    cbn [build_cubics curves3]. cbv zeta. rewrite !off_false.
    destruct rest as [|z rest].
    + exists pos, (mk_vec x1 y1), (mk_vec x2 y2), (mk_vec x y). cbn. repeat split; auto. discriminate.
    + destruct (IH (z :: rest) ltac:(cbn; lia) (k - 1)%nat ltac:(cbn in K; lia) ltac:(cbn in *; lia)
        (Some (mk_vec x2 y2)) (mk_vec x y)) as (p0 & p1 & p2 & p3 & L & N & Q).
      exists p0, p1, p2, p3. split; [|split; [discriminate|]].
      * destruct (curves3 (mk_vec x y) (z :: rest)); [contradiction|exact L].
      * destruct (build_cubics false tr (mk_vec x y) (Some (mk_vec x2 y2)) (z :: rest)) as [[? ?] ?]. exact Q.
  - intros ->. change (kind_of (ch "Q")) with Quad in H. change (is_lower (ch "Q")) with false in H. cbv iota beta in H.
    destruct (wrong_count 4 args) eqn:W; [discriminate|]. apply wrong_count_false in W; [|lia]. destruct W as (k & K0 & K).
    destruct (build_quadratics false tr (p_pos c) (p_last_control c) args) as [[e q] s] eqn:E. injection H as <- _. cbn [p_last_control].
    assert (S : q = snd (fst (build_quadratics false tr (p_pos c) (p_last_control c) args))) by (rewrite E; reflexivity).
    subst q. clear E s. generalize (p_pos c) as pos. generalize (p_last_control c) as ctl.
    revert k K0 K. induction args as [args IH] using list_size_ind. intros k K0 K ctl pos.
    destruct args as [|x1 [|y1 [|x [|y rest]]]]; [cbn in K; lia..|].
    cbn [build_quadratics curves2]. cbv zeta. rewrite !off_false.
    destruct rest as [|z rest].
    + exists pos, (mk_vec x1 y1), (mk_vec x y). eexists. split; [reflexivity|]. split; [discriminate|]. split; [reflexivity|].
      exists (vadd (vscale (vsub (mk_vec x1 y1) pos) (2 / 3)) pos). intros t.
      unfold bernstein3, bernstein2, vadd, vsub, vscale. cbn [vx vy]. f_equal; field.
    + match goal with |- context [build_quadratics false tr ?p ?l (z :: rest)] =>
        destruct (IH (z :: rest) ltac:(cbn; lia) (k - 1)%nat ltac:(cbn in K; lia) ltac:(cbn in *; lia) l p)
          as (p0 & p1 & p2 & m & L & N & Q) end.
      exists p0, p1, p2, m. split; [|split; [discriminate|]].
      * destruct (curves2 (mk_vec x y) (z :: rest)); [contradiction|exact L].
      * match goal with |- context [build_quadratics false tr ?p ?l (z :: rest)] =>
          destruct (build_quadratics false tr p l (z :: rest)) as [[? ?] ?] end. exact Q.
  - intros I. assert (K : match kind_of cmd with Move | Line | Vert | Hori => True | _ => False end)
      by (cbn in I; repeat (destruct I as [<-|I]; [exact Logic.I|]); contradiction).
    destruct (kind_of cmd); try contradiction.
    + destruct (wrong_count 2 args); [discriminate|]. destruct args as [|x [|y rest]]; try (injection H as <- _; reflexivity).
      cbv zeta in H. destruct (build_lines _ _ _ _). injection H as <- _. reflexivity.
    + destruct (wrong_count 2 args); [discriminate|]. destruct (build_lines _ _ _ _). injection H as <- _. reflexivity.
    + destruct (Nat.eqb _ 0); [discriminate|]. destruct (build_vertical _ _ _ _). injection H as <- _. reflexivity.
    + destruct (Nat.eqb _ 0); [discriminate|]. destruct (build_horizontal _ _ _ _). injection H as <- _. reflexivity.
  - intros I. assert (K : match kind_of cmd with ArcTo | Close => True | _ => False end)
      by (cbn in I; repeat (destruct I as [<-|I]; [exact Logic.I|]); contradiction).
    destruct (kind_of cmd); try contradiction.
    + destruct (wrong_count 7 args); [discriminate|]. destruct (build_arcs _ _ _ _ _) as [[[e s]|]| |]; try discriminate.
      injection H as <- _. reflexivity.
    + injection H as <- _. reflexivity.
Qed.

(** ... but nothing that is drawn depends on it: there are no smooth commands. *)
Definition forget (r : res (option (path_ctx * list curve_segment))) : res (option (vec * vec * list curve_segment)) :=
  match r with
  | Ok (Some (c, segs)) => Ok (Some (p_pos c, p_start c, segs))
  | Ok None => Ok None
  | Panic => Panic
  | OutOfFuel => OutOfFuel
  end.

Lemma cubics_ctl : forall rel tr args pos q1 q2,
  fst (fst (build_cubics rel tr pos q1 args)) = fst (fst (build_cubics rel tr pos q2 args)) /\
  snd (build_cubics rel tr pos q1 args) = snd (build_cubics rel tr pos q2 args).
Proof.
  intros. destruct args as [|x1 [|y1 [|x2 [|y2 [|x [|y rest]]]]]]; auto.
Qed.

Lemma quadratics_ctl : forall rel tr args pos q1 q2,
  fst (fst (build_quadratics rel tr pos q1 args)) = fst (fst (build_quadratics rel tr pos q2 args)) /\
  snd (build_quadratics rel tr pos q1 args) = snd (build_quadratics rel tr pos q2 args).
Proof.
  intros. destruct args as [|x1 [|y1 [|x [|y rest]]]]; auto.
Qed.

Lemma path_ctl : forall pos start q1 q2 cmd args tr f,
  forget (build_path (mk_pctx pos start q1) cmd args tr f) = forget (build_path (mk_pctx pos start q2) cmd args tr f).
Proof.
  intros. rewrite !build_path_kind. cbn [p_pos p_start p_last_control].
  destruct (kind_of cmd); try reflexivity.
  - destruct (wrong_count 6 args); [reflexivity|]. destruct (cubics_ctl (is_lower cmd) tr args pos q1 q2) as [A B].
    destruct (build_cubics _ _ _ q1 _) as [[? ?] ?]. destruct (build_cubics _ _ _ q2 _) as [[? ?] ?].
    cbn in A, B. subst. reflexivity.
  - destruct (wrong_count 4 args); [reflexivity|]. destruct (quadratics_ctl (is_lower cmd) tr args pos q1 q2) as [A B].
    destruct (build_quadratics _ _ _ q1 _) as [[? ?] ?]. destruct (build_quadratics _ _ _ q2 _) as [[? ?] ?].
    cbn in A, B. subst. reflexivity.
  - destruct (wrong_count 7 args); [reflexivity|]. destruct (build_arcs _ _ _ _ _) as [[[? ?]|]| |]; reflexivity.
Qed.

Theorem C86_unused : forall cmds pos start q1 q2 tr f,
  forget (build_commands (mk_pctx pos start q1) cmds tr f) = forget (build_commands (mk_pctx pos start q2) cmds tr f).
Proof.
  induction cmds as [|[cmd args] rest IH]; intros pos start q1 q2 tr f; [reflexivity|]. cbn [build_commands].
  pose proof (path_ctl pos start q1 q2 cmd args tr f) as P.
  destruct (build_path (mk_pctx pos start q1) cmd args tr f) as [[[c1 s1]|]| |];
    destruct (build_path (mk_pctx pos start q2) cmd args tr f) as [[[c2 s2]|]| |]; try discriminate P; try reflexivity.
  cbn in P. injection P as P1 P2 ->. destruct c1 as [u1 v1 w1]. destruct c2 as [u2 v2 w2]. cbn [p_pos p_start] in P1, P2. subst.
  cbn [bind]. specialize (IH u2 v2 w1 w2 tr false).
  destruct (build_commands (mk_pctx u2 v2 w1) rest tr false) as [[[c1 s1]|]| |];
    destruct (build_commands (mk_pctx u2 v2 w2) rest tr false) as [[[c2 s3]|]| |]; try discriminate IH; try reflexivity.
  cbn in IH. injection IH as I1 I2 ->. cbn. congruence.
Qed.

Example C86_example : exists c' segs,
  build_path path_ctx_new (ch "Q") [1; 0; 1; 1; 2; 2; 3; 0] tidentity true = Ok (Some (c', segs)) /\ List.length segs = 2%nat.
Proof. eexists _, _. split; reflexivity. Qed.

Print Assumptions C84_repeated.
Print Assumptions C84_move.
Print Assumptions C85_count.
Print Assumptions C85_circle.
Print Assumptions C85_ellipse.
Print Assumptions C86_control.
Print Assumptions C86_unused.
