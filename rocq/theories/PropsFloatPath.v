(** Properties C100 and later: rounding in transforms, path building and curves. *)
From Coq Require Import ZArith Reals List Bool NArith Arith Lia Lra Psatz Ascii String.
From Flocq Require Import Core BinarySingleNaN.
From Verif Require Import Base Chars Floats FloatProofs FloatScale FloatErr ApproxCurve DrawCurves FloatPath
  Coords Curves PathBuild BuildProofs PropsBuild FloatPathProofs.
Import ListNotations.
Open Scope R_scope.

(** ** C100: the rounding error of path building *)

(** The same kind of segment, its points within [E], its control vectors (differences
    of two points) within [2 E]. *)
Definition segment_within (E : R) (s : segment) (r : curve_segment) : Prop :=
  match s, r with
  | SGoTo p, GoTo q => within E p q
  | SLineTo p, LineTo q => within E p q
  | SCloseTo p, CloseTo q => within E p q
  | SCurveTo p c d, CurveTo q c' d' => within E p q /\ within (2 * E) c c' /\ within (2 * E) d d'
  | _, _ => False
  end.

Lemma seg_near_within : forall k Q s r, seg_near k Q s r -> segment_within (k * (u53 * Q)) s r.
Proof.
  intros k Q s r H. inversion H; subst; cbn [segment_within].
  1-3: apply nv_within; assumption.
  split; [apply nv_within; assumption|].
  replace (2 * (k * (u53 * Q))) with (k * (u53 * (2 * Q))) by ring. split; apply nv_within; assumption.
Qed.

Lemma u53_is : u53 = / 2 ^ 53.
Proof.
  unfold u53. change (-53)%Z with (- (53))%Z. rewrite bpow_opp, bpow_powerRZ. reflexivity.
Qed.

Lemma huge_is : huge = 2 ^ 900.
Proof. unfold huge. rewrite bpow_powerRZ. change 900%Z with (Z.of_nat 900). rewrite <- pow_powerRZ. reflexivity. Qed.

Theorem C100_rounding : forall tg cmds tr S T P,
  Forall (fun m => is_finite m = true /\ Rabs (B2R m) <= S) [fm0 tr; fm1 tr; fm2 tr; fm3 tr] ->
  Forall (fun m => is_finite m = true /\ Rabs (B2R m) <= T) [fm4 tr; fm5 tr] ->
  Forall (fun cmd => Forall (fun a => is_finite a = true) (snd cmd)) cmds -> no_arcs (rcmds cmds) -> 1 <= P ->
  Forall (fun cmd => Forall (fun a => Rabs a <= P) (snd cmd)) (absolute (mk_vec 0 0) (mk_vec 0 0) true (rcmds cmds)) ->
  let n := list_sum (map (fun cmd => List.length (snd cmd)) cmds) in
  let Q := 2 * S * P + T + 1 in
  2 * INR n + 60 <= 2 ^ 50 -> P <= 2 ^ 900 -> 2 * Q <= 2 ^ 900 ->
  match fbuild_commands tg fpath_ctx_new cmds tr true, build_commands path_ctx_new (rcmds cmds) (rtr tr) true with
  | Ok (Some (_, s)), Ok (Some (_, r)) => Forall2 (segment_within ((2 * INR n + 16) * Q / 2 ^ 53)) s r
  | Ok None, Ok None => True
  | _, _ => False
  end.
Proof.
  intros tg cmds tr S T P H1 H2 H3 H4 H5 H6 n Q H7 H8 H9.
  assert (HS : setting S T P tr).
  { constructor; [split; assumption|split; [exact H5|rewrite huge_is; exact H8]|]. rewrite huge_is. exact H9. }
  assert (Z0 : B2R fzero = 0) by (vm_compute; reflexivity).
  assert (NZ : nv 0 P fvzero (mk_vec 0 0)).
  { unfold fvzero. split; cbn [fx fy vx vy]; (split; [reflexivity|]); rewrite Z0, Rminus_0_r, Rabs_R0, Rmult_0_l; lra. }
  assert (BZ : box P (mk_vec 0 0)) by (split; cbn [vx vy]; rewrite Rabs_R0; lra).
  assert (CN : ctx_near 0 P fpath_ctx_new path_ctx_new) by (split; [|split; [|split]]; assumption).
  pose proof (commands_near tg 2 S T P tr ltac:(lra) HS cmds (rcmds cmds) fpath_ctx_new path_ctx_new true 0) as G. cbv zeta in G.
  assert (MM : many = 2 ^ 50) by (unfold many; lra).
  assert (TN : total cmds = INR n) by reflexivity. rewrite !TN in G.
  specialize (G (cmds_exact P cmds H3) ltac:(lra) ltac:(lra) H4 CN H6).
  unfold out_near in G.
  destruct (fbuild_commands tg fpath_ctx_new cmds tr true) as [[[c s]|]| |];
    destruct (build_commands path_ctx_new (rcmds cmds) (rtr tr) true) as [[[rc rs]|]| |]; auto.
  destruct G as [_ G].
  assert (EQ : (2 * INR n + 16) * Q / 2 ^ 53 = (0 + 2 * INR n + 16) * (u53 * Qof S T P)).
  { rewrite u53_is. unfold Qof, Q. unfold Rdiv. ring. }
  rewrite EQ. clear - G. induction G; constructor; auto. apply seg_near_within. assumption.
Qed.

(** m 1 2 3 4 z, scaled by two: S = 2, T = 0, P = 6, four numbers, so the points are
    within 24 * 25 / 2^53 of the real ones; and both are built. *)
Definition C100_path : list (char * list f64) := [(ch "m", map f_of_Z [1; 2; 3; 4]%Z); (ch "z", [])].
Definition C100_double : ftransform := mk_ftr (f_of_Z 2) fzero fzero (f_of_Z 2) fzero fzero.

Example C100_example :
  forall tg, exists c s rc r, fbuild_commands tg fpath_ctx_new C100_path C100_double true = Ok (Some (c, s)) /\
    build_commands path_ctx_new (rcmds C100_path) (rtr C100_double) true = Ok (Some (rc, r)) /\
    Forall2 (segment_within (600 / 2 ^ 53)) s r /\ List.length s = 3%nat.
Proof.
  intros tg. assert (I : forall z, (0 <= z <= 4)%Z -> is_finite (f_of_Z z) = true /\ B2R (f_of_Z z) = IZR z).
  { intros z Hz. destruct (f_of_Z_exact z ltac:(lia)) as [A B]. auto. }
  pose proof (C100_rounding tg C100_path C100_double 2 0 6) as G. cbv zeta in G.
  assert (Z0 : B2R fzero = 0) by (vm_compute; reflexivity).
  set (n := list_sum _) in G. assert (N : n = 4%nat) by reflexivity. rewrite N in G. replace (INR 4) with 4 in G by (cbn; lra).
  assert (Z1 : Rabs 0 <= 2) by (rewrite Rabs_R0; lra). assert (Z2 : Rabs 2 <= 2) by (rewrite Rabs_right; lra).
  assert (M1 : Forall (fun m : f64 => is_finite m = true /\ Rabs (B2R m) <= 2) [fm0 C100_double; fm1 C100_double; fm2 C100_double; fm3 C100_double]).
  { cbn [fm0 fm1 fm2 fm3 C100_double].
    constructor; [|constructor; [|constructor; [|constructor; [|constructor]]]]; cbv beta; rewrite ?Z0, ?(proj2 (I 2%Z ltac:(lia)));
      (split; [vm_compute; reflexivity|assumption]). }
  assert (M2 : Forall (fun m : f64 => is_finite m = true /\ Rabs (B2R m) <= 0) [fm4 C100_double; fm5 C100_double]).
  { cbn [fm4 fm5 C100_double]. constructor; [|constructor; [|constructor]]; cbv beta; rewrite Z0, Rabs_R0; (split; [vm_compute; reflexivity|lra]). }
  assert (M3 : Forall (fun cmd => Forall (fun a : f64 => is_finite a = true) (snd cmd)) C100_path).
  { constructor; [|constructor; constructor]. apply Forall_forall. intros a Ha. apply in_map_iff in Ha. destruct Ha as (z & <- & Hz).
    apply I. cbn in Hz. lia. }
  assert (M4 : no_arcs (rcmds C100_path)) by (constructor; [reflexivity|constructor; [reflexivity|constructor]]).
  specialize (G M1 M2 M3 M4 ltac:(lra)).
  assert (AB : absolute (mk_vec 0 0) (mk_vec 0 0) true (rcmds C100_path) =
    [(ch "M", [1; 2; 1 + 3; 2 + 4]); (ch "Z", [])]).
  { cbn [rcmds C100_path map fst snd]. rewrite (proj2 (I 1%Z ltac:(lia))), (proj2 (I 2%Z ltac:(lia))), (proj2 (I 3%Z ltac:(lia))), (proj2 (I 4%Z ltac:(lia))).
    reflexivity. }
  rewrite AB in G.
  assert (M5 : Forall (fun cmd : char * list R => Forall (fun a => Rabs a <= 6) (snd cmd)) [(ch "M", [1; 2; 1 + 3; 2 + 4]); (ch "Z", [])]).
  { constructor; [|constructor; constructor]. cbn [snd].
    constructor; [|constructor; [|constructor; [|constructor; [|constructor]]]]; rewrite Rabs_right; lra. }
  specialize (G M5 ltac:(lra)).
  assert (H900 : 100 <= 2 ^ 900) by (apply Rle_trans with (2 ^ 7); [lra|apply Rle_pow; [lra|lia]]).
  specialize (G ltac:(clear G; generalize (2 ^ 900) H900; intros; lra) ltac:(clear G; generalize (2 ^ 900) H900; intros; lra)).
  assert (L : match fbuild_commands tg fpath_ctx_new C100_path C100_double true with
              | Ok (Some (_, s)) => Nat.eqb (List.length s) 3 | _ => false end = true) by (vm_compute; reflexivity).
  destruct (fbuild_commands tg fpath_ctx_new C100_path C100_double true) as [[[c s]|]| |]; try discriminate.
  destruct (build_commands path_ctx_new (rcmds C100_path) (rtr C100_double) true) as [[[rc r]|]| |] eqn:E2; try contradiction.
  exists c, s, rc, r. split; [reflexivity|]. split; [reflexivity|]. split.
  - replace (600 / 2 ^ 53) with ((2 * 4 + 16) * (2 * 2 * 6 + 0 + 1) / 2 ^ 53) by lra. exact G.
  - apply Nat.eqb_eq, L.
Qed.

Print Assumptions C100_rounding.
