(** Property C107: from the text of a path to the burned line. *)
From Coq Require Import Ascii String ZArith Reals List Bool NArith Lia Lra.
From Flocq Require Import Core BinarySingleNaN.
From Verif Require Import Base Chars Floats FloatProofs FloatScale FloatErr AccVector IntegerCurve StepperContext
  MachineSpec MachineProofs ContextProofs ContextOps ContextHist ContextClock ApproxCurve DrawCurves FloatPath Coords Curves PathBuild BuildProofs
  PropsBuild PathGrammar PathLex LexProofs PropsLex FloatPathProofs PropsFloatPath FloatCurve PropsFloatCurve PropsApprox PropsDraw DrawProofs PropsError
  DrawPlan FloatRun PropsLaser FloatLex FloatLexProofs PropsFloatLex.
Import ListNotations.
Open Scope R_scope.

(** A relative argument is the difference of two coordinates. *)
Lemma abs_pairs_small : forall P args n k cur, 0 <= P -> box P cur -> Forall (fun a => Rabs a <= P) (abs_pairs n k cur args) ->
  Forall (fun a => Rabs a <= 2 * P) args.
Proof.
  intros P args. induction args as [args IH] using list_size_ind. intros n k cur P0 [B1 B2] H.
  assert (D : forall b x, Rabs b <= P -> Rabs (b + x) <= P -> Rabs x <= 2 * P).
  { intros b x A B. replace x with ((b + x) - b) by ring. eapply Rle_trans; [apply Rabs_triang|]. rewrite Rabs_Ropp. lra. }
  destruct args as [|x [|y rest]]; [constructor|constructor; [|constructor]|].
  - cbn [abs_pairs] in H. inversion H; subst. lra.
  - cbn [abs_pairs vx vy] in H. inversion H as [|? ? H1 H']; subst. inversion H' as [|? ? H2 H'']; subst.
    constructor; [apply (D (vx cur)); assumption|]. constructor; [apply (D (vy cur)); assumption|].
    destruct k; (eapply IH; [cbn; lia|exact P0| |exact H'']); split; assumption.
Qed.

Lemma abs_sums_small : forall P args b, Rabs b <= P -> Forall (fun a => Rabs a <= P) (abs_sums b args) -> Forall (fun a => Rabs a <= 2 * P) args.
Proof.
  intros P args. induction args as [|x args IH]; intros b B H; [constructor|]. cbn [abs_sums] in H. inversion H as [|? ? H1 H']; subst.
  constructor; [|exact (IH _ H1 H')]. replace x with ((b + x) - b) by ring. eapply Rle_trans; [apply Rabs_triang|]. rewrite Rabs_Ropp. lra.
Qed.

Lemma last_pair_box : forall P args cur, box P cur -> Forall (fun a => Rabs a <= P) args -> box P (last_pair cur args).
Proof.
  intros P args. induction args as [|x args IH]; intros cur B H; [exact B|]. inversion H as [|? ? H1 H']; subst. cbn [last_pair].
  destruct args as [|y [|z args]]; [apply IH; assumption| |apply IH; assumption]. inversion H'; subst. split; assumption.
Qed.

Lemma last_small : forall P args, 0 <= P -> Forall (fun a => Rabs a <= P) args -> Rabs (List.last args 0) <= P.
Proof.
  intros P args P0 H. induction H as [|x args Hx H IH]; cbn [List.last]; [rewrite Rabs_R0; exact P0|]. destruct args; assumption.
Qed.

Lemma numbers_small : forall P cmds cur start f, 0 <= P -> box P cur -> box P start -> no_arcs cmds ->
  Forall (fun cmd => Forall (fun a => Rabs a <= P) (snd cmd)) (absolute cur start f cmds) ->
  Forall (fun cmd => Forall (fun a => Rabs a <= 2 * P) (snd cmd)) cmds.
Proof.
  intros P cmds. induction cmds as [|[cmd args] cmds IH]; intros cur start f P0 BC BS NA H; [constructor|].
  cbn [absolute] in H. inversion H as [|? ? H1 H']; subst. cbn [snd] in H1. inversion NA as [|? ? N1 NA']; subst. cbn [fst] in N1.
  constructor.
  - cbn [snd]. clear H' IH. assert (W : Forall (fun a => Rabs a <= P) args -> Forall (fun a => Rabs a <= 2 * P) args).
    { apply Forall_impl. intros a A. lra. }
    unfold abs_args in H1.
    destruct (is_one_of (chars "m") cmd).
    { destruct args as [|x [|y rest]]; [constructor|exact (W H1)|]. destruct f; [|exact (abs_pairs_small P _ _ _ _ P0 BC H1)].
      inversion H1 as [|? ? A1 H2]; subst. inversion H2 as [|? ? A2 H3]; subst. constructor; [lra|]. constructor; [lra|].
      eapply abs_pairs_small; [exact P0| |exact H3]. split; assumption. }
    destruct (is_one_of (chars "l") cmd); [exact (abs_pairs_small P _ _ _ _ P0 BC H1)|].
    destruct (is_one_of (chars "c") cmd); [exact (abs_pairs_small P _ _ _ _ P0 BC H1)|].
    destruct (is_one_of (chars "q") cmd); [exact (abs_pairs_small P _ _ _ _ P0 BC H1)|].
    destruct (is_one_of (chars "v") cmd); [eapply abs_sums_small; [exact (proj2 BC)|exact H1]|].
    destruct (is_one_of (chars "h") cmd); [eapply abs_sums_small; [exact (proj1 BC)|exact H1]|].
    destruct (is_one_of (chars "a") cmd) eqn:A; [|exact (W H1)]. exfalso.
    apply is_one_of_In in A. assert (I : In cmd (chars "aA")) by (cbn in A |- *; tauto). apply is_one_of_In in I. congruence.
  - eapply IH; [exact P0| | |exact NA'|exact H'].
    + unfold cursor. destruct BC as [B1 B2].
      destruct (is_one_of (chars "Z") _); [exact BS|]. destruct (is_one_of (chars "V") _); [split; [exact B1|apply last_small; assumption]|].
      destruct (is_one_of (chars "H") _); [split; [apply last_small; assumption|exact B2]|]. apply last_pair_box; [split; assumption|exact H1].
    + unfold new_start. destruct (is_one_of (chars "M") _); [|exact BS]. destruct (abs_args cur f cmd args) as [|x [|y r]]; try exact BS.
      inversion H1 as [|? ? A1 H2]; subst. inversion H2; subst. split; assumption.
Qed.

(** C104 starting from the text: the figure is the path as written, with its decimals. *)
Theorem C107_text : forall tg text cmds tr S T P pc segs ax ay vmx vmy ops c g s v c' ex ey fuel search ints D w u,
  (* the text is read and built in binary64 under the transform [tr] *)
  path_text text cmds -> no_arcs cmds -> 1 <= P ->
  Forall (fun cmd => Forall (fun a => Rabs a <= P) (snd cmd)) (absolute (mk_vec 0 0) (mk_vec 0 0) true cmds) ->
  Forall (fun m => is_finite m = true /\ Rabs (B2R m) <= S) [fm0 tr; fm1 tr; fm2 tr; fm3 tr] ->
  Forall (fun m => is_finite m = true /\ Rabs (B2R m) <= T) [fm4 tr; fm5 tr] ->
  fparse_path tg text fpath_ctx_new tr = Ok (Some (pc, segs)) -> (exists q r, segs = SGoTo q :: r) ->
  let n := list_sum (map (fun cmd => length (snd cmd)) cmds) in
  let Q := 2 * S * P + T + 1 in
  P <= 2 ^ 900 -> 3 * Q <= 2 ^ 300 -> INR n <= 2 ^ 40 -> INR (length segs) <= 2 ^ 40 -> INR (length segs) <= 65536 * Q ->
  (* and drawn by a machine in a state reached by the program *)
  history code (new_ctx ax ay vmx vmy) ops c -> draw_curves g s c segs v = Ok (c', (ex, ey)) -> (forall i, ticks_of c' i < u64_max)%Z ->
  g_bezier g = fbezier fuel search ints -> finds (g_find g) -> lengths_sane g s v (3 * Q) (begin_drawing s c) segs ->
  fits (3 * Q) (machine_place s c) ->
  (forall i, is_finite (step_scale s i) = true /\ Rabs (B2R (step_scale s i)) * (24 * Q) <= 2 ^ 62) ->
  (forall i, 0 <= D i) -> gotos_near g s v D (begin_drawing s c) segs ->
  (* when the laser burns, the machine is near the image of a point of the path *)
  (ticks_of c AX <= u)%Z -> m_weight (play (events c') u (machine0 w)) <> 0%Z ->
  exists rc rsegs z, parse_path text path_ctx_new tidentity = Ok (Some (rc, rsegs)) /\ figure (mk_vec 0 0) rsegs z /\
    forall i, Rabs (IZR (s_pos (machine_axis (play (events c') (u + 1) (machine0 w)) i)) - B2R (step_scale s i) * coord (tapply (rtr tr) z) i)
      <= IZR (match i with AX => ex | AY => ey end) + 1 + Rabs (B2R (step_scale s i)) *
         (D i + (9600 * INR (length segs) + 15 * INR n + 2262) * Q / 2 ^ 53 + 4 / 10 ^ 6 * INR (closes segs)).
Proof.
  intros tg text cmds tr S T P pc segs ax ay vmx vmy ops c g s v c' ex ey fuel search ints D w u PT NA P1 AB TS TT FP SG n Q
    PH BQ BN BL BL2 H DC Hm GB FG LS FM SC D0 GN HU HW.
  destruct (C106_text text cmds PT) as (fcmds & RC & EQ). rewrite EQ in FP.
  assert (SM : Forall (fun cmd => Forall (fun a => Rabs a <= 2 * P) (snd cmd)) cmds).
  { assert (BZ : box P (mk_vec 0 0)) by (split; cbn [vx vy]; rewrite Rabs_R0; lra).
    apply (numbers_small P cmds (mk_vec 0 0) (mk_vec 0 0) true); auto. lra. }
  assert (P2 : 2 * P <= bpow radix2 1000).
  { apply Rle_trans with (bpow radix2 (1 + 900)); [|apply bpow_le; lia]. rewrite bpow_plus. change (bpow radix2 1) with 2.
    apply Rmult_le_compat_l; [lra|]. rewrite <- huge_is in PH. exact PH. }
  assert (CO : cmds_ok 5 P fcmds cmds).
  { clear - RC SM P1 P2. unfold cmds_ok. induction RC as [|c fc cmds fcmds [L A] RC IH]; constructor.
    - split; [symmetry; exact L|]. inversion SM as [|? ? S1 _]; subst. clear - A S1 P1 P2. unfold args_ok.
      induction A as [|r x rs xs R A IH]; constructor.
      + inversion S1; subst. replace (5 - 2) with 3 by ring. apply rounds_near; assumption.
      + apply IH. inversion S1; assumption.
    - apply IH. inversion SM; assumption. }
  assert (LN : list_sum (map (fun cmd => length (snd cmd)) fcmds) = n).
  { unfold n. clear - CO. induction CO as [|c r cs rs [_ A] CO IH]; [reflexivity|]. cbn [map list_sum fold_right]. rewrite (args_length _ _ _ _ A). f_equal. exact IH. }
  destruct (laser_commands tg 5 fcmds cmds tr S T P pc segs ax ay vmx vmy ops c g s v c' ex ey fuel search ints D w u ltac:(lra) TS TT
    CO NA P1 AB FP SG PH BQ ltac:(rewrite LN; exact BN) BL BL2 H DC Hm GB FG LS FM SC D0 GN HU HW) as (rc & rsegs & z & A & B & C).
  exists rc, rsegs, z. split; [rewrite (C50_complete _ _ _ _ PT); exact A|]. split; [exact B|]. intros i. specialize (C i).
  rewrite LN in C. replace (15 * INR n) with (3 * 5 * INR n) by ring. exact C.
Qed.

Lemma text_digits : forall ds, digits ds -> number_text ds (IZR (digits_value ds)).
Proof.
  intros ds D. replace (IZR (digits_value ds)) with (IZR 1 * IZR (digits_value ds) * powerRZ 10 (0 + 0)) by (cbn [powerRZ Z.add]; ring).
  replace ds with ([] ++ ds ++ @nil char) at 1 by (rewrite app_nil_r; reflexivity). constructor; [constructor|constructor; exact D|constructor].
Qed.

(** The path of C104 as text. *)
Definition C107_path : list char := chars "M0,0c250,0,500,0,750,0v250M0,1500L0,2000".

Example C107_example :
  path_text C107_path (rcmds C104_commands) /\ no_arcs (rcmds C104_commands) /\
  Forall (fun cmd => Forall (fun a => Rabs a <= 2000) (snd cmd)) (absolute (mk_vec 0 0) (mk_vec 0 0) true (rcmds C104_commands)) /\
  (forall tg, exists pc, fparse_path tg C107_path fpath_ctx_new C100_double = Ok (Some (pc, C103_segments))) /\
  lengths_sane C103_geometry sc1 (f_of_Z 40) (3 * (2 * 2 * 2000 + 0 + 1)) (begin_drawing sc1 laser) C103_segments.
Proof.
  destruct C104_example as (_ & _ & _ & _ & NA & AB & _ & LS).
  split; [|split; [exact NA|split; [exact AB|split; [|exact LS]]]].
  - assert (EQ : rcmds C104_commands = [(ch "M", [0; 0]); (ch "c", [250; 0; 500; 0; 750; 0]); (ch "v", [250]); (ch "M", [0; 1500]); (ch "L", [0; 2000])]).
    { unfold rcmds, C104_commands. cbn [map fst snd]. rewrite !(fun z H => proj2 (f_of_Z_exact z H)) by lia. reflexivity. }
    rewrite EQ. unfold C107_path.
    assert (SC : separator (chars ",")) by (left; exists [], []; repeat split; constructor).
    assert (N0 : number_text (chars "0") 0) by (apply (text_digits (chars "0")); split; [discriminate|repeat constructor]).
    assert (N250 : number_text (chars "250") 250) by (apply (text_digits (chars "250")); split; [discriminate|repeat constructor]).
    assert (N500 : number_text (chars "500") 500) by (apply (text_digits (chars "500")); split; [discriminate|repeat constructor]).
    assert (N750 : number_text (chars "750") 750) by (apply (text_digits (chars "750")); split; [discriminate|repeat constructor]).
    assert (N1500 : number_text (chars "1500") 1500) by (apply (text_digits (chars "1500")); split; [discriminate|repeat constructor]).
    assert (N2000 : number_text (chars "2000") 2000) by (apply (text_digits (chars "2000")); split; [discriminate|repeat constructor]).
    change (chars "M0,0c250,0,500,0,750,0v250M0,1500L0,2000") with
      ([] ++ (ch "M" :: [] ++ (chars "0" ++ chars "," ++ chars "0")) ++
       [] ++ (ch "c" :: [] ++ (chars "250" ++ chars "," ++ chars "0" ++ chars "," ++ chars "500" ++ chars "," ++ chars "0" ++ chars "," ++ chars "750" ++ chars "," ++ chars "0")) ++
       [] ++ (ch "v" :: [] ++ chars "250") ++
       [] ++ (ch "M" :: [] ++ (chars "0" ++ chars "," ++ chars "1500")) ++
       [] ++ (ch "L" :: [] ++ (chars "0" ++ chars "," ++ chars "2000")) ++ []).
    repeat (apply path_more; [constructor|apply command_args; [apply is_one_of_In; reflexivity|constructor|]|]); [..|constructor; constructor];
      repeat (apply numbers_more; [assumption|exact SC|]); apply numbers_one; assumption.
  - intros tg. assert (B : match fparse_path tg C107_path fpath_ctx_new C100_double with
      | Ok (Some (_, s)) => Some (map sf_segment s) | _ => None end = Some (map sf_segment C103_segments)) by (vm_compute; reflexivity).
    destruct (fparse_path tg C107_path fpath_ctx_new C100_double) as [[[pc s]|]| |]; try discriminate B.
    injection B as B. exists pc. rewrite (sf_segments_inj s C103_segments C103_sized B). reflexivity.
Qed.

Print Assumptions C107_text.
Print Assumptions C107_example.
