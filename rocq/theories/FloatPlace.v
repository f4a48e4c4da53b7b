(** Rounding errors of a path that is read from its text under a transform that is itself off. *)
From Coq Require Import Reals Lra ZArith List Bool NArith Lia Ascii String.
From Flocq Require Import Core BinarySingleNaN.
From Verif Require Import Base Chars Floats FloatProofs FloatScale FloatErr FloatCurve ApproxCurve DrawCurves Coords Curves PathBuild PathGrammar PathLex
  BuildProofs LexProofs PropsBuild PropsLex FloatPath FloatPathProofs FloatLex FloatLexProofs FloatTransform FloatAngles SvgDocument FloatDocument FloatDocProofs
  PropsFloatPath PropsFloatLex PropsLaserText PropsSvg.
Import ListNotations.
Open Scope R_scope.

(** The text is a path that starts with a move, has no arcs and [n] numbers at most, and all its
    coordinates, made absolute, are at most [P]. *)
Definition fine_path (P : R) (n : nat) (d : list char) : Prop :=
  exists m args cmds, In m (chars "mM") /\ path_text d ((m, args) :: cmds) /\ no_arcs ((m, args) :: cmds) /\
    Forall (fun cmd => Forall (fun a => Rabs a <= P) (snd cmd)) (absolute (mk_vec 0 0) (mk_vec 0 0) true ((m, args) :: cmds)) /\
    (list_sum (map (fun cmd => List.length (snd cmd)) ((m, args) :: cmds)) <= n)%nat.

Lemma fine_start : forall P n d, fine_path P n d -> starts_with_move d.
Proof. intros P n d (m & args & cmds & M & T & _). exists m, args, cmds. auto. Qed.

(** The exact point and its image under the rounded transform. *)
Lemma image_near : forall k N T F A p B, 1 <= N -> 0 <= T -> 0 <= k -> 0 <= B -> tr_near k N T F A -> box B p ->
  Rabs (vx (tapply (rtr F) p) - vx (tapply A p)) <= k * (u53 * (N * (B + T + 1))) /\
  Rabs (vy (tapply (rtr F) p) - vy (tapply A p)) <= k * (u53 * (N * (B + T + 1))) /\ box (N * (B + T + 1)) (tapply A p).
Proof.
  intros k N T F A p B N1 T0 K0 B0 [[_ L0 R0 E0 G0] [_ L1 R1 E1 G1]] [X Y]. pose proof u53_pos as [U0 _].
  assert (LIN : forall a b, Rabs (a * vx p + b * vy p) <= (Rabs a + Rabs b) * B).
  { intros a b. eapply Rle_trans; [apply Rabs_triang|]. rewrite !Rabs_mult, Rmult_plus_distr_r.
    apply Rplus_le_compat; apply Rmult_le_compat_l; auto; apply Rabs_pos. }
  assert (ROW : forall f g h a b c, Rabs (f - a) + Rabs (g - b) <= k * (u53 * N) -> Rabs (h - c) <= k * (u53 * (N * (1 + T))) ->
    Rabs (f * vx p + g * vy p + h - (a * vx p + b * vy p + c)) <= k * (u53 * (N * (B + T + 1)))).
  { intros f g h a b c E G. replace (f * vx p + g * vy p + h - (a * vx p + b * vy p + c)) with (((f - a) * vx p + (g - b) * vy p) + (h - c)) by ring.
    eapply Rle_trans; [apply Rabs_triang|]. pose proof (LIN (f - a) (g - b)) as L.
    assert ((Rabs (f - a) + Rabs (g - b)) * B <= k * (u53 * N) * B) by (apply Rmult_le_compat_r; assumption).
    replace (k * (u53 * (N * (B + T + 1)))) with (k * (u53 * N) * B + k * (u53 * (N * (1 + T)))) by ring. lra. }
  assert (SZ : forall a b c, Rabs a + Rabs b <= N -> Rabs c <= N * T -> Rabs (a * vx p + b * vy p + c) <= N * (B + T + 1)).
  { intros a b c E G. eapply Rle_trans; [apply Rabs_triang|]. pose proof (LIN a b) as L.
    assert ((Rabs a + Rabs b) * B <= N * B) by (apply Rmult_le_compat_r; assumption).
    replace (N * (B + T + 1)) with (N * B + N * T + N) by ring. lra. }
  split; [|split; [|split]]; unfold tapply, rtr; cbn [vx vy m0 m1 m2 m3 m4 m5].
  - apply ROW; assumption.
  - apply ROW; assumption.
  - apply SZ; assumption.
  - apply SZ; assumption.
Qed.

Lemma nv_move : forall k j Q p r r' D, nv k Q p r -> Rabs (vx r - vx r') <= j * (u53 * D) -> Rabs (vy r - vy r') <= j * (u53 * D) -> 0 <= j -> D <= Q ->
  nv (k + j) Q p r'.
Proof.
  intros k j Q p r r' D [[F1 E1] [F2 E2]] X Y J DQ. pose proof u53_pos as [U0 _].
  assert (JD : j * (u53 * D) <= j * (u53 * Q)) by (apply Rmult_le_compat_l; [exact J|]; apply Rmult_le_compat_l; lra).
  split; (split; [assumption|]).
  - replace (B2R (fx p) - vx r') with ((B2R (fx p) - vx r) + (vx r - vx r')) by ring. eapply Rle_trans; [apply Rabs_triang|]. lra.
  - replace (B2R (fy p) - vy r') with ((B2R (fy p) - vy r) + (vy r - vy r')) by ring. eapply Rle_trans; [apply Rabs_triang|]. lra.
Qed.

Lemma nv_more : forall k Q Q' p r, 0 <= k -> Q <= Q' -> nv k Q p r -> nv k Q' p r.
Proof.
  intros k Q Q' p r K0 H [[F1 E1] [F2 E2]]. pose proof u53_pos as [U0 _].
  assert (k * (u53 * Q) <= k * (u53 * Q')) by (apply Rmult_le_compat_l; [exact K0|]; apply Rmult_le_compat_l; lra).
  split; (split; [assumption|lra]).
Qed.
Lemma box_more : forall Q Q' r, Q <= Q' -> box Q r -> box Q' r.
Proof. intros Q Q' r H [A B]. split; lra. Qed.
Lemma seg_near_more : forall k Q Q' s r, 0 <= k -> Q <= Q' -> seg_near k Q s r -> seg_near k Q' s r.
Proof.
  intros k Q Q' s r K0 H S. assert (H2 : 2 * Q <= 2 * Q') by lra. inversion S; subst; constructor; eauto using nv_more, box_more.
Qed.

Lemma no_translation_near : forall k N T F A, 0 <= k -> 1 <= N -> tr_near k N T F A ->
  tr_near k N 0 (mk_ftr (fm0 F) (fm1 F) (fm2 F) (fm3 F) fzero fzero) (no_translation A).
Proof.
  intros k N T F A K0 N1 [[(F0 & F2 & _) L0 R0 E0 G0] [(F1 & F3 & _) L1 R1 E1 G1]]. destruct zero_value as [Z1 Z2]. pose proof u53_pos as [U0 _].
  assert (0 <= k * (u53 * (N * (1 + 0)))) by (apply Rmult_le_pos; [lra|]; apply Rmult_le_pos; [lra|]; lra).
  split; constructor; cbn [no_translation fm0 fm1 fm2 fm3 fm4 fm5 m0 m1 m2 m3 m4 m5]; auto; rewrite ?Z2, ?Rminus_0_r, ?Rabs_R0; lra.
Qed.
Lemma no_translation_image : forall F p, tapply (no_translation (rtr F)) p = tapply (rtr (mk_ftr (fm0 F) (fm1 F) (fm2 F) (fm3 F) fzero fzero)) p.
Proof. intros F p. destruct zero_value as [_ Z]. unfold tapply, no_translation, rtr. cbn [m0 m1 m2 m3 m4 m5 fm0 fm1 fm2 fm3 fm4 fm5]. rewrite Z. reflexivity. Qed.

(** A segment under the rounded transform and under the exact one. *)
Lemma seg_image : forall k j N T F A Q B s r, 1 <= N -> 0 <= T -> 0 <= k -> 0 <= j -> 0 <= B -> tr_near j N T F A ->
  seg_near k Q s (segment_transform r (rtr F)) -> N * (B + T + 1) <= Q -> (exists i x, seg_near i B x r) ->
  seg_near (k + j) Q s (segment_transform r A).
Proof.
  intros k j N T F A Q B s r N1 T0 K0 J0 B0 TN S NQ (i & x & X).
  assert (NQ2 : N * (2 * B + 0 + 1) <= 2 * Q).
  { replace (N * (2 * B + 0 + 1)) with (2 * (N * (B + T + 1)) - (N * (2 * T + 1))) by ring. assert (0 <= N * (2 * T + 1)) by (apply Rmult_le_pos; lra). lra. }
  assert (PT : forall p q, nv k Q p (tapply (rtr F) q) -> box B q -> nv (k + j) Q p (tapply A q) /\ box Q (tapply A q)).
  { intros p q NV BX. destruct (image_near j N T F A q B N1 T0 J0 B0 TN BX) as (D1 & D2 & D3). split; [eapply nv_move; eassumption|].
    eapply box_more; eassumption. }
  assert (CT : forall p q, nv k (2 * Q) p (tapply (no_translation (rtr F)) q) -> box (2 * B) q ->
    nv (k + j) (2 * Q) p (tapply (no_translation A) q) /\ box (2 * Q) (tapply (no_translation A) q)).
  { intros p q NV BX. rewrite no_translation_image in NV.
    destruct (image_near j N 0 _ _ q (2 * B) N1 (Rle_refl 0) J0 ltac:(lra) (no_translation_near _ _ _ _ _ J0 N1 TN) BX) as (D1 & D2 & D3).
    split; [eapply nv_move; eassumption|]. eapply box_more; eassumption. }
  destruct r; cbn [segment_transform] in *; inversion S; subst; inversion X; subst;
    repeat match goal with H : nv _ Q _ (tapply (rtr F) ?q), H1 : box B ?q |- _ => destruct (PT _ _ H H1); clear H
      | H : nv _ (2 * Q) _ (tapply (no_translation (rtr F)) ?q), H1 : box (2 * B) ?q |- _ => destruct (CT _ _ H H1); clear H end; constructor; assumption.
Qed.

Lemma fbuild_independent : forall tg m args rest c c' tr, In m (chars "mM") -> fbuild_commands tg c ((m, args) :: rest) tr true = fbuild_commands tg c' ((m, args) :: rest) tr true.
Proof.
  intros tg m args rest c c' tr M. cbn [fbuild_commands].
  replace (fbuild_path tg c m args tr true) with (fbuild_path tg c' m args tr true); [reflexivity|].
  unfold fbuild_path. rewrite (proj2 (is_one_of_In (chars "mM") m) M). cbn [negb]. rewrite andb_false_r.
  destruct (fwrong_count 2 args) eqn:W; [reflexivity|]. destruct args as [|x [|y r]]; [discriminate W|discriminate W|reflexivity].
Qed.

Lemma identity_real : rtr fidentity = tidentity.
Proof. destruct one_value as [_ O]. destruct zero_value as [_ Z]. unfold rtr, fidentity. cbn [fm0 fm1 fm2 fm3 fm4 fm5]. rewrite O, Z. reflexivity. Qed.

Lemma tr_near_ok : forall k N T F A, 0 <= k <= lots -> 1 <= N -> 0 <= T -> tr_near k N T F A -> tr_ok (101 / 100 * N) (101 / 100 * (N * (T + 1))) F.
Proof.
  intros k N T F A K N1 T0 [[(F0 & F2 & F4) L0 R0 E0 G0] [(F1 & F3 & F5) L1 R1 E1 G1]]. pose proof u53_pos as [U0 _].
  assert (KU : 0 <= k * u53 <= / 100) by (split; [apply Rmult_le_pos; lra|]; rewrite u53_val; unfold lots in K; lra).
  assert (KN : k * (u53 * N) <= / 100 * N) by (rewrite <- Rmult_assoc; apply Rmult_le_compat_r; lra).
  assert (NT : 0 <= N * T) by (apply Rmult_le_pos; lra).
  assert (KT : k * (u53 * (N * (1 + T))) <= / 100 * (N * (1 + T))) by (rewrite <- Rmult_assoc; apply Rmult_le_compat_r; lra).
  assert (AX : forall x y, Rabs x <= Rabs y + Rabs (x - y)) by (intros x y; replace x with (y + (x - y)) at 1 by ring; apply Rabs_triang).
  pose proof (AX (B2R (fm0 F)) (m0 A)). pose proof (AX (B2R (fm1 F)) (m1 A)). pose proof (AX (B2R (fm2 F)) (m2 A)). pose proof (AX (B2R (fm3 F)) (m3 A)).
  pose proof (AX (B2R (fm4 F)) (m4 A)). pose proof (AX (B2R (fm5 F)) (m5 A)).
  pose proof (Rabs_pos (m0 A)). pose proof (Rabs_pos (m1 A)). pose proof (Rabs_pos (m2 A)). pose proof (Rabs_pos (m3 A)).
  pose proof (Rabs_pos (B2R (fm0 F) - m0 A)). pose proof (Rabs_pos (B2R (fm1 F) - m1 A)). pose proof (Rabs_pos (B2R (fm2 F) - m2 A)). pose proof (Rabs_pos (B2R (fm3 F) - m3 A)).
  split; repeat (apply Forall_cons; [split; [assumption|lra]|]); apply Forall_nil.
Qed.

Definition zone (N T P : R) : R := 3 * (N * (P + T + 1)).

(** Both succeed, with related results, or both return an error. *)
Definition along {A B} (E : A -> B -> Prop) (x : res (option A)) (y : res (option B)) : Prop :=
  match x, y with
  | Ok (Some a), Ok (Some b) => E a b
  | Ok None, Ok None => True
  | _, _ => False
  end.
Lemma along_bind : forall A B A' B' (E : A -> B -> Prop) (F : A' -> B' -> Prop) x y f g,
  along E x y -> (forall a b, E a b -> along F (f (Some a)) (g (Some b))) -> along F (f None) (g None) ->
  along F (bind x f) (bind y g).
Proof. intros A B A' B' E F x y f g H S N. destruct x as [[a|]| |], y as [[b|]| |]; cbn [along bind] in *; try contradiction; auto. Qed.

Lemma path_placed : forall tg j N T P n F A d c rc, 0 <= j <= lots -> 1 <= N -> 0 <= T -> 1 <= P -> zone N T P <= bpow radix2 400 ->
  INR n <= 2 ^ 40 -> tr_near j N T F A -> fine_path P n d ->
  along (fun a b => Forall2 (seg_near (5 * INR n + 16 + j) (zone N T P)) (snd a) (snd b)) (fparse_path tg d c F) (parse_path d rc A).
Proof.
  intros tg j N T P n F A d c rc J N1 T0 P1 Z NB TN (m & args & cmds & M & PT & NA & AB & LE).
  rewrite (C53_independent d rc path_ctx_new A) by (exists m, args, cmds; auto).
  destruct (C106_text d _ PT) as (fcmds & RC & EQ). rewrite EQ, (C50_complete _ _ _ _ PT).
  assert (IND : fbuild_commands tg c fcmds F true = fbuild_commands tg fpath_ctx_new fcmds F true).
  { inversion RC as [|? [m' fargs] ? ? [E _] _]; subst. cbn [fst] in E. subst m'. apply fbuild_independent. exact M. }
  rewrite IND. clear IND EQ. set (rcs := (m, args) :: cmds) in *.
  assert (NP : 1 <= N * P) by (rewrite <- (Rmult_1_r 1); apply Rmult_le_compat; lra). assert (NT : 0 <= N * T) by (apply Rmult_le_pos; lra).
  assert (PNP : P <= N * P) by (rewrite <- (Rmult_1_l P) at 1; apply Rmult_le_compat_r; lra).
  assert (ZV : zone N T P = 3 * (N * P) + 3 * (N * T) + 3 * N) by (unfold zone; ring).
  assert (HB : 8 * bpow radix2 400 <= huge) by (change 8 with (bpow radix2 3); rewrite <- bpow_plus; apply bpow_le; lia).
  pose proof huge_1000 as HH.
  assert (SM : Forall (fun cmd => Forall (fun a => Rabs a <= 2 * P) (snd cmd)) rcs).
  { assert (BZ : box P (mk_vec 0 0)) by (split; cbn [vx vy]; rewrite Rabs_R0; lra).
    apply (numbers_small P rcs (mk_vec 0 0) (mk_vec 0 0) true); auto. lra. }
  assert (CO : cmds_ok 5 P fcmds rcs).
  { assert (P2 : 2 * P <= bpow radix2 1000) by lra. clear - RC SM P1 P2. clearbody rcs. clear m args cmds. unfold cmds_ok. induction RC as [|c fc cmds fcmds [L A] RC IH]; constructor.
    - split; [symmetry; exact L|]. inversion SM as [|? ? S1 _]; subst. clear - A S1 P1 P2. unfold args_ok.
      induction A as [|r x rs xs R A IH]; constructor.
      + inversion S1; subst. replace (5 - 2) with 3 by ring. apply rounds_near; assumption.
      + apply IH. inversion S1; assumption.
    - apply IH. inversion SM; assumption. }
  assert (LN : total fcmds <= INR n).
  { unfold total. apply le_INR. eapply Nat.le_trans; [|exact LE]. clear - CO. clearbody rcs. clear m args cmds. induction CO as [|c r cs rs [_ A] CO IH]; [apply le_n|].
    cbn [map list_sum fold_right]. rewrite (args_length _ _ _ _ A). unfold list_sum in IH. lia. }
  pose proof (total_pos fcmds) as L0.
  assert (Z0 : B2R fzero = 0) by (apply zero_value).
  assert (NZ : nv 0 P fvzero (mk_vec 0 0)).
  { unfold fvzero. split; cbn [fx fy vx vy]; (split; [reflexivity|]); rewrite Z0, Rminus_0_r, Rabs_R0, Rmult_0_l; lra. }
  assert (BZ : box P (mk_vec 0 0)) by (split; cbn [vx vy]; rewrite Rabs_R0; lra).
  assert (CN : ctx_near 0 P fpath_ctx_new path_ctx_new) by (split; [|split; [|split]]; assumption).
  assert (MA : 0 + 5 * total fcmds <= many - 60) by (unfold many; clear - NB LN; cbn [pow] in NB; lra).
  (* under the rounded transform *)
  set (S := 101 / 100 * N). set (T' := 101 / 100 * (N * (T + 1))).
  assert (QL : Qof S T' P <= zone N T P) by (unfold Qof, S, T'; lra).
  assert (HS : setting S T' P F).
  { constructor; [exact (tr_near_ok _ _ _ _ _ J N1 T0 TN)|split; lra|lra]. }
  pose proof (commands_near tg 5 S T' P F ltac:(lra) HS fcmds rcs fpath_ctx_new path_ctx_new true 0 CO (Rle_refl 0) MA NA CN AB) as G. cbv zeta in G.
  (* under the identity *)
  assert (HI : setting 1 0 P fidentity).
  { destruct one_value as [O1 O2]. destruct zero_value as [O3 O4].
    constructor; [|split; lra|unfold Qof; lra].
    split; cbn [fidentity fm0 fm1 fm2 fm3 fm4 fm5]; repeat (apply Forall_cons; [split; [assumption|rewrite ?O2, ?O4, ?Rabs_R1, ?Rabs_R0; lra]|]); apply Forall_nil. }
  pose proof (commands_near tg 5 1 0 P fidentity ltac:(lra) HI fcmds rcs fpath_ctx_new path_ctx_new true 0 CO (Rle_refl 0) MA NA CN AB) as GI. cbv zeta in GI.
  rewrite identity_real in GI. unfold out_near in G, GI.
  rewrite (C45_transform rcs path_ctx_new (rtr F) true NA) in G. rewrite (C45_transform rcs path_ctx_new A true NA).
  destruct (build_commands path_ctx_new rcs tidentity true) as [[[rc0 rsegs]|]| |].
  - destruct (fbuild_commands tg fpath_ctx_new fcmds F true) as [[[fc segs]|]| |]; try contradiction.
    destruct (fbuild_commands tg fpath_ctx_new fcmds fidentity true) as [[[fc0 segs0]|]| |]; try contradiction.
    cbn [along snd]. destruct G as [_ G]. destruct GI as [_ GI].
    set (k := 0 + 5 * total fcmds + 16) in *. assert (K0 : 0 <= k) by (unfold k; lra).
    assert (G2 : Forall2 (seg_near (k + j) (zone N T P)) segs (map (fun s => segment_transform s A) rsegs)).
    { assert (FB : Forall (fun r => exists i x, seg_near i (2 * P + 1) x r) rsegs).
      { clear - GI. replace (2 * P + 1) with (Qof 1 0 P) by (unfold Qof; ring). induction GI; constructor; eauto. }
      clear GI. revert segs G. induction FB as [|r rsegs X FB IH]; intros segs G; cbn [map] in *; inversion G as [|s ? ss ? S1 G1]; subst; constructor; [|apply IH; exact G1].
      apply (seg_image k j N T F A (zone N T P) (2 * P + 1) s r); auto; try tauto; try lra.
      apply (seg_near_more k (Qof S T' P)); auto. }
    assert (Q0 : 0 <= zone N T P) by lra. apply (segs_near_le (k + j)); [exact Q0| |exact G2]. unfold k. lra.
  - destruct (fbuild_commands tg fpath_ctx_new fcmds F true) as [[[fc segs]|]| |]; try contradiction. exact I.
  - destruct (fbuild_commands tg fpath_ctx_new fcmds F true) as [[[fc segs]|]| |]; try contradiction.
  - destruct (fbuild_commands tg fpath_ctx_new fcmds F true) as [[[fc segs]|]| |]; try contradiction.
Qed.
