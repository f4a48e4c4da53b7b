(** C111: the rounding errors of a whole document. *)
From Coq Require Import Reals Lra ZArith List Bool NArith Lia Ascii String.
From Flocq Require Import Core BinarySingleNaN.
From Verif Require Import Base Chars Floats FloatProofs FloatScale FloatErr FloatCurve ApproxCurve DrawCurves Coords Curves PathBuild PathGrammar PathLex
  BuildProofs LexProofs PropsBuild PropsLex PropsTransform FloatPath FloatPathProofs FloatLex FloatLexProofs FloatTransform FloatAngles FloatLength SvgDocument
  FloatDocument FloatDocProofs PropsFloatPath PropsFloatLex PropsFloatTransform PropsSvg FloatPlace.
Import ListNotations.
Open Scope R_scope.

(** ** What the elements above a path cost *)

(** The text of an attribute: a list of transforms with the matrix [A]. *)
Definition transform_value (q : R) (v : list char) (A : transform) (k N T : R) : Prop :=
  exists w t rest, v = w ++ t ++ rest /\ all is_space w /\ items q t A k N T /\
    (forall sp u f r, rest = sp ++ u ++ r -> separator sp -> ~ transform_text u f).

(** Every transform attribute costs the roundings of its text and 8 for the product. *)
Inductive attrs_cost (q : R) : list attribute -> R -> R -> R -> Prop :=
| cost_none : attrs_cost q [] 0 1 0
| cost_other : forall a l k N T, local_name (a_name a) <> chars "transform" -> attrs_cost q l k N T -> attrs_cost q (a :: l) k N T
| cost_transform : forall a l A k N T k' N' T', local_name (a_name a) = chars "transform" -> transform_value q (a_value a) A k N T ->
    attrs_cost q l k' N' T' -> attrs_cost q (a :: l) (k + 8 + k') (N * N') (T + T').

(** An svg element is [w] by [h] and its view box [bw] by [bh], if it has one: the scale is at most [M]. *)
Definition svg_sizes (attrs : list attribute) (M : R) : Prop :=
  exists wt ht w h boxes, last_value "width" attrs = Some wt /\ last_value "height" attrs = Some ht /\
    parse_length wt = Some w /\ parse_length ht = Some h /\ between 300 w /\ between 300 h /\
    all_some (map parse_view_box (values "viewBox" attrs)) = Some boxes /\
    match rev boxes with
    | [] => M = 1
    | (_, _, bw, bh) :: _ => between 300 bw /\ between 300 bh /\ 1 <= M /\ Rabs (w / bw) <= M /\ Rabs (h / bh) <= M
    end.

Inductive elem_cost (q : R) (e : element) : R -> R -> R -> Prop :=
| cost_foreign : in_svg (fst e) = false -> elem_cost q e 0 1 0
| cost_plain : forall k N T, in_svg (fst e) = true -> local_name (fst e) <> chars "svg" -> attrs_cost q (snd e) k N T -> elem_cost q e k N T
| cost_svg : forall k N T M, in_svg (fst e) = true -> local_name (fst e) = chars "svg" -> attrs_cost q (snd e) k N T -> svg_sizes (snd e) M ->
    elem_cost q e (k + 26) (N * M) T.

Inductive chain_cost (q : R) : list element -> R -> R -> R -> Prop :=
| cost_nil : chain_cost q [] 0 1 0
| cost_cons : forall e l k N T k' N' T', elem_cost q e k N T -> chain_cost q l k' N' T' -> chain_cost q (e :: l) (k + k') (N * N') (T + T').

Definition sane (k N T : R) : Prop := 0 <= k /\ 1 <= N /\ 0 <= T.

Lemma sane_mul : forall k N T k' N' T' , sane k N T -> sane k' N' T' -> sane (k + k') (N * N') (T + T').
Proof. intros k N T k' N' T' (A & B & C) (D & E & F). split; [lra|]. split; [|lra]. rewrite <- (Rmult_1_r 1). apply Rmult_le_compat; lra. Qed.

Lemma attrs_sane : forall q l k N T, 0 <= q -> attrs_cost q l k N T -> sane k N T.
Proof.
  intros q l k N T Q0 C. induction C as [|a l k N T E C IH|a l A k N T k' N' T' E (w & t & rest & _ & _ & I & _) C IH].
  - split; [lra|split; lra].
  - exact IH.
  - destruct (items_sizes _ _ _ _ _ _ Q0 I) as (N1 & T0 & K0). apply sane_mul; [|exact IH]. split; [lra|split; lra].
Qed.
Lemma sizes_one : forall attrs M, svg_sizes attrs M -> 1 <= M.
Proof.
  intros attrs M (wt & ht & w & h & boxes & _ & _ & _ & _ & _ & _ & _ & H). destruct (rev boxes) as [|[[[x y] bw] bh] l]; [lra|tauto].
Qed.
Lemma elem_sane : forall q e k N T, 0 <= q -> elem_cost q e k N T -> sane k N T.
Proof.
  intros q e k N T Q0 C. destruct C as [F|k N T I L C|k N T M I L C S].
  - split; [lra|split; lra].
  - eapply attrs_sane; eassumption.
  - pose proof (attrs_sane _ _ _ _ _ Q0 C) as S1. pose proof (sizes_one _ _ S) as M1. replace T with (T + 0) by ring.
    apply sane_mul; [exact S1|]. split; [lra|split; lra].
Qed.
Lemma chain_sane : forall q l k N T, 0 <= q -> chain_cost q l k N T -> sane k N T.
Proof.
  intros q l k N T Q0 C. induction C as [|e l k N T k' N' T' E C IH]; [split; [lra|split; lra]|].
  apply sane_mul; [eapply elem_sane; eassumption|exact IH].
Qed.

Lemma chain_last : forall q above e k N T, chain_cost q (above ++ [e]) k N T ->
  exists k1 N1 T1 k2 N2 T2, chain_cost q above k1 N1 T1 /\ elem_cost q e k2 N2 T2 /\ k = k1 + k2 /\ N = N1 * N2 /\ T = T1 + T2.
Proof.
  intros q. induction above as [|x above IH]; intros e k N T C; cbn [app] in C; inversion C as [|e' l k1 N1 T1 k2 N2 T2 E C']; subst.
  - inversion C'; subst. exists 0, 1, 0, k1, N1, T1. split; [constructor|]. split; [exact E|]. split; [ring|split; ring].
  - destruct (IH _ _ _ _ C') as (k3 & N3 & T3 & k4 & N4 & T4 & A & B & -> & -> & ->).
    exists (k1 + k3), (N1 * N3), (T1 + T3), k4, N4, T4. split; [constructor; assumption|]. split; [exact B|]. split; [ring|split; ring].
Qed.

(** ** Attributes *)

Definition roomy (k N T : R) : Prop := k <= lots /\ N * (1 + T) <= huge.

Lemma roomy_left : forall k N T k' N' T', sane k N T -> sane k' N' T' -> roomy (k + k') (N * N') (T + T') -> roomy k N T.
Proof.
  intros k N T k' N' T' (A & B & C) (D & E & F) [G H]. split; [lra|]. eapply Rle_trans; [|exact H].
  apply Rmult_le_compat; try lra. rewrite <- (Rmult_1_r N) at 1. apply Rmult_le_compat_l; lra.
Qed.
Lemma roomy_right : forall k N T k' N' T', sane k N T -> sane k' N' T' -> roomy (k + k') (N * N') (T + T') -> roomy k' N' T'.
Proof. intros k N T k' N' T' A B R. apply (roomy_left _ _ _ k N T B A). rewrite (Rplus_comm k' k), (Rmult_comm N' N), (Rplus_comm T' T). exact R. Qed.

(** The product of two rounded transforms. *)
Lemma mul_near : forall k N T k' N' T' F A G B, sane k N T -> sane k' N' T' -> roomy (k + (k' + 8)) (N * N') (T + T') ->
  tr_near k N T F A -> tr_near k' N' T' G B -> tr_near (k + (k' + 8)) (N * N') (T + T') (ftmul F G) (tmul A B).
Proof.
  intros k N T k' N' T' F A G B (K & M & U) (K' & M' & U') [R1 R2] H1 H2. replace (k + (k' + 8)) with (k + k' + 8) by ring.
  apply tr_near_mul; auto. lra.
Qed.

Definition attrs_near (k N T : R) (fa : fattr_state) (a : attr_state) : Prop :=
  tr_near k N T (fat_transform fa) (at_transform a) /\ fat_d fa = at_d a /\ maybe boxes_near (at_view_box a) (fat_view_box fa) /\
  fat_width fa = at_width a /\ fat_height fa = at_height a.

Lemma value_read : forall q g v A k N T, accurate g q -> transform_value q v A k N T -> roomy k N T ->
  exists F, fparse_transform g v = Some F /\ parse_transform v = Some A /\ tr_near k N T F A.
Proof.
  intros q g v A k N T AC (w & t & rest & -> & W & I & NT) [KL NH].
  destruct (items_text _ _ _ _ _ _ I) as [fs R]. destruct (transforms_head _ _ R) as (c & r' & Q & C1 & C2).
  destruct (items_read q g t A k N T AC I KL NH (S (List.length (w ++ t ++ rest))) rest NT) as (F & E1 & E2 & NR); [rewrite !app_length; lia|].
  exists F. split; [|split; [|exact NR]].
  - unfold fparse_transform, ftransform_list, preceded, pmap, pair, multispace0, take0. subst t. cbn [app] in *. rewrite while0_app by auto. rewrite E1. reflexivity.
  - unfold parse_transform. rewrite (transform_list_eq w (t ++ rest) c (r' ++ rest)); [|exact W|subst t; reflexivity|exact C1]. rewrite E2. reflexivity.
Qed.

Lemma view_box_near : forall s, maybe boxes_near (parse_view_box s) (fparse_view_box s).
Proof.
  intros s. unfold parse_view_box, fparse_view_box. pose proof (view_box_alike s) as A.
  destruct (view_box_args s) as [[r b]|], (fview_box_args s) as [[r' f]|]; try contradiction; [|exact I]. destruct A as [_ A]. exact A.
Qed.

Local Ltac five := split; [|split; [|split; [|split]]];
  cbn [fat_transform fat_d fat_view_box fat_width fat_height at_transform at_d at_view_box at_width at_height]; auto.
Lemma read_attrs_near : forall q g attrs k N T, accurate g q -> attrs_cost q attrs k N T ->
  forall k0 N0 T0 fa a, sane k0 N0 T0 -> roomy (k0 + k) (N0 * N) (T0 + T) -> attrs_near k0 N0 T0 fa a ->
  match fread_attrs g fa attrs, read_attrs a attrs with
  | Some fa', Some a' => attrs_near (k0 + k) (N0 * N) (T0 + T) fa' a'
  | None, None => True
  | _, _ => False
  end.
Proof.
  intros q g attrs k N T AC C. pose proof (accurate_pos _ _ AC) as Q0.
  induction C as [|x l k N T E C IH|x l A k N T k' N' T' E V C IH]; intros k0 N0 T0 fa a S0 R0 AN.
  - cbn [fread_attrs read_attrs]. rewrite Rplus_0_r, Rmult_1_r, Rplus_0_r. exact AN.
  - destruct AN as (TN & DE & VB & WE & HE). cbn [fread_attrs read_attrs]. unfold fread_attr, read_attr.
    destruct (text_eqb (local_name (a_name x)) (chars "transform")) eqn:ET; [apply text_eqb_true in ET; congruence|].
    destruct (text_eqb (local_name (a_name x)) (chars "d")); [apply IH; auto; five|].
    destruct (text_eqb (local_name (a_name x)) (chars "viewBox")).
    { pose proof (view_box_near (a_value x)) as B. destruct (parse_view_box (a_value x)) as [b|], (fparse_view_box (a_value x)) as [f|]; try contradiction; [|exact I].
      apply IH; auto. five. }
    destruct (text_eqb (local_name (a_name x)) (chars "height")); [apply IH; auto; five|].
    destruct (text_eqb (local_name (a_name x)) (chars "width")); apply IH; auto; five.
  - destruct AN as (TN & DE & VB & WE & HE). cbn [fread_attrs read_attrs]. unfold fread_attr, read_attr. rewrite (proj2 (text_eqb_true _ _) E).
    assert (SV : sane k N T).
    { destruct V as (w & t & rest & _ & _ & I & _). destruct (items_sizes _ _ _ _ _ _ Q0 I) as (? & ? & ?). split; [lra|split; lra]. }
    pose proof (attrs_sane _ _ _ _ _ Q0 C) as SL.
    assert (S8 : sane (k + 8) N T) by (destruct SV as (? & ? & ?); split; [lra|split; lra]).
    replace (k0 + (k + 8 + k')) with (k0 + (k + 8) + k') in * by ring. replace (N0 * (N * N')) with (N0 * N * N') in * by ring.
    replace (T0 + (T + T')) with (T0 + T + T') in * by ring.
    pose proof (sane_mul _ _ _ _ _ _ S0 S8) as S1. pose proof (roomy_left _ _ _ _ _ _ S1 SL R0) as R1.
    pose proof (roomy_right _ _ _ _ _ _ S0 S8 R1) as [R2 R3]. assert (RV : roomy k N T) by (split; [lra|exact R3]).
    destruct (value_read q g (a_value x) A k N T AC V RV) as (F & -> & -> & FN).
    apply IH; auto. five. apply mul_near; auto.
Qed.

(** ** Elements *)

Section Document.
Variables (q : R) (g : trig) (filter : name -> list attribute -> bool) (K N T P : R) (n : nat).
Hypotheses (AC : accurate g q) (KL : K <= lots) (N1 : 1 <= N) (T0 : 0 <= T) (P1 : 1 <= P) (Z : zone N T P <= bpow radix2 400) (NB : INR n <= 2 ^ 40).

Definition chain_within (chain : list element) : Prop :=
  exists k N' T', chain_cost q chain k N' T' /\ k <= K /\ N' <= N /\ T' <= T.
Definition chain_fine (chain : list element) : Prop := chain_within chain /\ forall d, path_of chain d -> fine_path P n d.

(** The transforms for the elements of a chain, whatever bound is derived for it. *)
Definition transforms_near (above : list element) (F : ftransform) (A : transform) : Prop :=
  forall k N' T', chain_cost q above k N' T' -> roomy k N' T' -> tr_near k N' T' F A.

Definition near_segs : list segment -> list curve_segment -> Prop := Forall2 (seg_near (5 * INR n + 16 + K) (zone N T P)).

Lemma within_roomy : forall k N' T', sane k N' T' -> k <= K -> N' <= N -> T' <= T -> roomy k N' T'.
Proof.
  intros k N' T' (A & B & C) D E F. split; [lra|]. apply Rle_trans with (zone N T P).
  - unfold zone. apply Rle_trans with (N * (1 + T)); [apply Rmult_le_compat; lra|].
    apply Rle_trans with (N * (P + T + 1)); [apply Rmult_le_compat_l; lra|]. assert (0 <= N * (P + T + 1)) by (apply Rmult_le_pos; lra). lra.
  - eapply Rle_trans; [exact Z|]. unfold huge. apply bpow_le. lia.
Qed.

Definition started (above : list element) (fstack : list ftransform) (stack : list transform) (f : fdoc_state) (s : doc_state) : Prop :=
  ftrans_stack f = fstack /\ trans_stack s = stack /\ near_segs (fdoc_path f) (doc_path s) /\ fignore_nest f = 0%nat /\ ignore_nest s = 0%nat /\
  transforms_near above (fcur_transform f) (cur_transform s).

Local Ltac six := split; [|split; [|split; [|split; [|split]]]];
  cbn [ftrans_stack trans_stack fdoc_path doc_path fignore_nest ignore_nest fcur_transform cur_transform]; auto.
Lemma start_near : forall above e F A fstack stack fpath path fc c, in_svg (fst e) = true -> chain_fine (above ++ [e]) ->
  transforms_near above F A -> near_segs fpath path ->
  along (started (above ++ [e]) (F :: fstack) (A :: stack))
    (fstart_svg g (mk_fdoc fstack F fpath fc 0) (fst e) (snd e)) (start_svg (mk_doc stack A path c 0) (fst e) (snd e)).
Proof.
  intros above e F A fstack stack fpath path fc c SV [(k & N' & T' & C & KB & NB' & TB) FP] IN NS. pose proof (accurate_pos _ _ AC) as Q0.
  pose proof (within_roomy k N' T' (chain_sane _ _ _ _ _ Q0 C) KB NB' TB) as RM.
  (* every bound for the chain gives one for the attributes *)
  assert (AT : forall k1 N1' T1 k2 N2 T2, chain_cost q above k1 N1' T1 -> attrs_cost q (snd e) k2 N2 T2 -> roomy (k1 + k2) (N1' * N2) (T1 + T2) ->
    match fread_attrs g (mk_fattrs F None None None None) (snd e), read_attrs (mk_attrs A None None None None) (snd e) with
    | Some fa', Some a' => attrs_near (k1 + k2) (N1' * N2) (T1 + T2) fa' a' | None, None => True | _, _ => False end).
  { intros k1 N1' T1 k2 N2 T2 C1 C2 R. pose proof (chain_sane _ _ _ _ _ Q0 C1) as S1. pose proof (attrs_sane _ _ _ _ _ Q0 C2) as S2.
    apply (read_attrs_near q g); auto. five; [apply IN; [exact C1|eapply roomy_left; eassumption]|exact I]. }
  assert (EA : exists k1 N1' T1 k2 N2 T2, chain_cost q above k1 N1' T1 /\ attrs_cost q (snd e) k2 N2 T2 /\ roomy (k1 + k2) (N1' * N2) (T1 + T2)).
  { destruct (chain_last _ _ _ _ _ _ C) as (k1 & N1' & T1 & k2 & N2 & T2 & C1 & C2 & -> & -> & ->). inversion C2 as [X|k3 N3 T3 _ _ C3|k3 N3 T3 M _ _ C3 SZ]; subst.
    - congruence.
    - exists k1, N1', T1, k2, N2, T2. auto.
    - exists k1, N1', T1, k3, N3, T2. split; [exact C1|]. split; [exact C3|].
      pose proof (chain_sane _ _ _ _ _ Q0 C1) as S1. pose proof (attrs_sane _ _ _ _ _ Q0 C3) as S2. pose proof (sizes_one _ _ SZ) as M1.
      apply (roomy_left _ _ _ 26 M 0); [apply sane_mul; assumption|split; [lra|split; lra]|].
      replace (k1 + k3 + 26) with (k1 + (k3 + 26)) by ring. replace (N1' * N3 * M) with (N1' * (N3 * M)) by ring. rewrite Rplus_0_r. exact RM. }
  unfold fstart_svg, start_svg. cbn [fcur_transform cur_transform ftrans_stack trans_stack fdoc_path doc_path fdoc_ctx doc_ctx fignore_nest ignore_nest].
  pose proof (read_attrs_spec (snd e) (mk_attrs A None None None None)) as SPEC.
  destruct (fread_attrs g (mk_fattrs F None None None None) (snd e)) as [fa|] eqn:FR, (read_attrs (mk_attrs A None None None None) (snd e)) as [a|] eqn:RR.
  2, 3: (exfalso; destruct EA as (k1 & N1' & T1 & k2 & N2 & T2 & C1 & C2 & R); exact (AT _ _ _ _ _ _ C1 C2 R)).
  2: exact I.
  destruct EA as (k1 & N1' & T1 & k2 & N2 & T2 & C1 & C2 & R). destruct (AT _ _ _ _ _ _ C1 C2 R) as (_ & ED & EV & EW & EH). rewrite ED, EW, EH. clear k1 N1' T1 k2 N2 T2 C1 C2 R.
  destruct (text_eqb (local_name (fst e)) (chars "path")) eqn:LP.
  { apply text_eqb_true in LP.
    assert (TR : transforms_near (above ++ [e]) (fat_transform fa) (at_transform a)).
    { intros k1 N1' T1 C1 R1. destruct (chain_last _ _ _ _ _ _ C1) as (k2 & N2 & T2 & k3 & N3 & T3 & C2 & C3 & -> & -> & ->).
      inversion C3 as [X|k4 N4 T4 _ _ C4|k4 N4 T4 M _ L _ _]; subst; [congruence| |rewrite LP in L; discriminate L].
      exact (proj1 (AT _ _ _ _ _ _ C2 C4 R1)). }
    assert (DV : at_d a = last_value "d" (snd e)).
    { destruct (all_some (map parse_transform _)); [|discriminate SPEC]. destruct (all_some (map parse_view_box _)); [|discriminate SPEC]. injection SPEC as ->. reflexivity. }
    rewrite DV. destruct (last_value "d" (snd e)) as [d|] eqn:LD; [|exact I].
    assert (FD : fine_path P n d) by (apply FP; exists above, e; auto).
    pose proof (chain_sane _ _ _ _ _ Q0 C) as (SA & SB & SC).
    assert (ZL : zone N' T' P <= zone N T P) by (unfold zone; apply Rmult_le_compat_l; [lra|]; apply Rmult_le_compat; lra).
    pose proof (path_placed g k N' T' P n (fat_transform fa) (at_transform a) d fc c ltac:(destruct RM; lra) SB SC P1 ltac:(lra) NB (TR _ _ _ C RM) FD) as PP.
    eapply along_bind; [exact PP| |exact I]. intros [fc' fs] [c' ss] SS. cbn [snd] in SS. cbn [along]. six.
    apply Forall2_app; [exact NS|]. clear - SS ZL KB SA SB SC P1. pose proof (pos_INR n). assert (Q0 : 0 <= 5 * INR n + 16 + k) by lra.
    induction SS as [|x y l l' S1 SS IH]; constructor; [|exact IH].
    apply (seg_near_more _ (zone N' T' P)); [lra|exact ZL|]. assert (Z0 : 0 <= zone N' T' P) by (unfold zone; apply Rmult_le_pos; [lra|]; apply Rmult_le_pos; lra).
    apply (seg_near_le (5 * INR n + 16 + k)); [exact Z0|lra|exact S1]. }
  destruct (text_eqb (local_name (fst e)) (chars "svg")) eqn:LS.
  { apply text_eqb_true in LS.
    assert (SZ : exists M, svg_sizes (snd e) M).
    { destruct (chain_last _ _ _ _ _ _ C) as (k1 & N1' & T1 & k2 & N2 & T2 & _ & C2 & _). inversion C2 as [X|k3 N3 T3 _ X _|k3 N3 T3 M _ _ _ SZ]; [congruence|congruence|eauto]. }
    assert (AV : at_width a = last_value "width" (snd e) /\ at_height a = last_value "height" (snd e) /\
      forall boxes, all_some (map parse_view_box (values "viewBox" (snd e))) = Some boxes -> at_view_box a = last_or boxes None).
    { destruct (all_some (map parse_transform _)); [|discriminate SPEC]. destruct (all_some (map parse_view_box _)) as [bs|]; [|discriminate SPEC]. injection SPEC as ->.
      split; [reflexivity|]. split; [reflexivity|]. intros boxes [= <-]. reflexivity. }
    destruct AV as (AW & AH & AB). rewrite AW, AH.
    destruct SZ as (M0 & wt & ht & w & h & boxes & HW & HH & LW & LH & BW & BH & HB & HM). rewrite HW, HH, LW, LH.
    destruct (length_near wt w LW BW) as (fw & -> & RW). destruct (length_near ht h LH BH) as (fh & -> & RH).
    specialize (AB _ HB). unfold last_or in AB.
    (* the scale, whatever bound is derived for it *)
    assert (SC : exists fvb vb, 
      (match fat_view_box fa with Some (_, _, w0, h0) => (w0, h0) | None => (fw, fh) end) = fvb /\
      (match at_view_box a with Some (_, _, w0, h0) => (w0, h0) | None => (w, h) end) = vb /\
      forall M, svg_sizes (snd e) M -> tr_near 18 M 0 (fscale_xy (fdiv fw (fst fvb)) (fdiv fh (snd fvb))) (tscale_xy (w / fst vb) (h / snd vb))).
    { eexists. eexists. split; [reflexivity|]. split; [reflexivity|].
      intros M (wt' & ht' & w' & h' & boxes' & HW' & HH' & LW' & LH' & _ & _ & HB' & HM').
      assert (w' = w) by congruence. assert (h' = h) by congruence. assert (boxes' = boxes) by congruence. subst w' h' boxes'. rewrite AB in *.
      destruct (rev boxes) as [|[[[x y] bw] bh] l].
      - destruct (fat_view_box fa); [contradiction|]. cbn [fst snd]. rewrite HM'. apply scale_one; assumption.
      - destruct (fat_view_box fa) as [[[[fx0 fy0] fbw] fbh]|]; [|contradiction]. destruct EV as [[[_ _] RBW] RBH]. cbn [fst snd] in *.
        destruct HM' as (B1 & B2 & M1 & MW & MH). apply scale_near; assumption. }
    destruct SC as ([fvw fvh] & [vw vh] & E1 & E2 & SC). rewrite E1, E2. cbn [fst snd] in SC. cbn [along].
    six. intros k1 N1' T1 C1 R1. destruct (chain_last _ _ _ _ _ _ C1) as (k2 & N2 & T2 & k3 & N3 & T3 & C2 & C3 & -> & -> & ->).
    inversion C3 as [X|k4 N4 T4 _ X _|k4 N4 T4 M _ _ C4 SZ]; subst; [congruence|congruence|].
    pose proof (chain_sane _ _ _ _ _ Q0 C2) as S2. pose proof (attrs_sane _ _ _ _ _ Q0 C4) as S4. pose proof (sizes_one _ _ SZ) as M1.
    pose proof (sane_mul _ _ _ _ _ _ S2 S4) as S24.
    assert (SM : sane 18 M 0) by (split; [lra|split; lra]). assert (SM26 : sane 26 M 0) by (split; [lra|split; lra]).
    assert (EQ : roomy (k2 + k4 + 26) (N2 * N4 * M) (T2 + T3 + 0)).
    { replace (k2 + k4 + 26) with (k2 + (k4 + 26)) by ring. replace (N2 * N4 * M) with (N2 * (N4 * M)) by ring. rewrite Rplus_0_r. exact R1. }
    replace (k2 + (k4 + 26)) with ((k2 + k4) + (18 + 8)) by ring. replace (N2 * (N4 * M)) with ((N2 * N4) * M) by ring.
    replace (T2 + T3) with ((T2 + T3) + 0) by ring.
    apply mul_near; auto; [replace (18 + 8) with 26 by ring; exact EQ|].
    exact (proj1 (AT _ _ _ _ _ _ C2 C4 (roomy_left _ _ _ _ _ _ S24 SM26 EQ))). }
  cbn [along]. six. intros k1 N1' T1 C1 R1. destruct (chain_last _ _ _ _ _ _ C1) as (k2 & N2 & T2 & k3 & N3 & T3 & C2 & C3 & -> & -> & ->).
  inversion C3 as [X|k4 N4 T4 _ _ C4|k4 N4 T4 M _ L _ _]; subst; [congruence| |rewrite L in LS; discriminate LS].
  exact (proj1 (AT _ _ _ _ _ _ C2 C4 R1)).
Qed.

(** ** Trees *)

Lemma fignored : forall t stack tr path c k evs,
  fevents_loop g filter (mk_fdoc stack tr path c (S k)) (doc_events t ++ evs) = fevents_loop g filter (mk_fdoc stack tr path c (S k)) evs.
Proof.
  intros t. induction t as [e ch IH|] using node_deep; [|reflexivity].
  intros stack tr path c k evs. cbn [doc_events app fevents_loop fignore_nest Nat.ltb Nat.leb orb ftrans_stack fcur_transform fdoc_path fdoc_ctx].
  rewrite <- app_assoc.
  assert (L : forall rest k, fevents_loop g filter (mk_fdoc stack tr path c (S k)) (flat_map doc_events ch ++ rest) = fevents_loop g filter (mk_fdoc stack tr path c (S k)) rest).
  { clear k evs. intros rest k. induction IH as [|t ch H _ IH]; [reflexivity|]. cbn [flat_map]. rewrite <- app_assoc, H. exact IH. }
  rewrite L. reflexivity.
Qed.
Lemma all_ignored : forall ch stack tr path c evs,
  fevents_loop g filter (mk_fdoc stack tr path c 1) (flat_map doc_events ch ++ evs) = fevents_loop g filter (mk_fdoc stack tr path c 1) evs.
Proof. induction ch as [|t ch IH]; intros; [reflexivity|]. cbn [flat_map]. rewrite <- app_assoc, fignored. apply IH. Qed.
Lemma all_ignored_exact : forall ch stack tr path c evs,
  events_loop filter (mk_doc stack tr path c 1) (flat_map doc_events ch ++ evs) = events_loop filter (mk_doc stack tr path c 1) evs.
Proof. induction ch as [|t ch IH]; intros; [reflexivity|]. cbn [flat_map]. rewrite <- app_assoc, ignored. apply IH. Qed.

Definition finished (f : fdoc_state) (s : doc_state) : Prop := near_segs (fdoc_path f) (doc_path s).

(** The rest of the document is read alike, whatever the segments so far. *)
Definition goes_on (fstack : list ftransform) (stack : list transform) (F : ftransform) (A : transform) (evs : list xml_event) : Prop :=
  forall fpath path fc c, near_segs fpath path ->
  along finished (fevents_loop g filter (mk_fdoc fstack F fpath fc 0) evs) (events_loop filter (mk_doc stack A path c 0) evs).

Lemma foreign_near : forall above e F A, in_svg (fst e) = false -> transforms_near above F A -> transforms_near (above ++ [e]) F A.
Proof.
  intros above e F A SV TN k N' T' C R. destruct (chain_last _ _ _ _ _ _ C) as (k2 & N2 & T2 & k3 & N3 & T3 & C2 & C3 & -> & -> & ->).
  inversion C3; subst; try congruence. rewrite Rplus_0_r, Rmult_1_r, Rplus_0_r in *. apply TN; assumption.
Qed.

Lemma tree_near : forall t above fstack stack F A evs, (forall chain, In chain (chains filter above t) -> chain_fine chain) ->
  transforms_near above F A -> goes_on fstack stack F A evs -> goes_on fstack stack F A (doc_events t ++ evs).
Proof.
  intros t. induction t as [e ch IH|] using node_deep; intros above fstack stack F A evs CF TN GO; [|exact GO].
  assert (L : forall above fstack stack F A evs, (forall chain, In chain (flat_map (chains filter above) ch) -> chain_fine chain) ->
    transforms_near above F A -> goes_on fstack stack F A evs -> goes_on fstack stack F A (flat_map doc_events ch ++ evs)).
  { clear above fstack stack F A evs CF TN GO. induction IH as [|t ch H _ IH]; intros above fstack stack F A evs CF TN GO; [exact GO|].
    cbn [flat_map] in *. rewrite <- app_assoc. apply (H above); [intros chain I; apply CF, in_app_iff; left; exact I|exact TN|].
    apply (IH above); [intros chain I; apply CF, in_app_iff; right; exact I|exact TN|exact GO]. }
  intros fpath path fc c NS. cbn [chains] in CF.
  cbn [doc_events app fevents_loop events_loop fignore_nest ignore_nest Nat.ltb Nat.leb orb ftrans_stack trans_stack fcur_transform cur_transform fdoc_path doc_path fdoc_ctx doc_ctx].
  destruct (filter (fst e) (snd e)) eqn:FI; cbn [negb].
  2: { rewrite <- app_assoc, all_ignored, all_ignored_exact. cbn [app fevents_loop events_loop fignore_nest ignore_nest Nat.ltb Nat.leb pred ftrans_stack trans_stack fcur_transform cur_transform fdoc_path doc_path fdoc_ctx doc_ctx].
       apply GO, NS. }
  assert (CE : chain_fine (above ++ [e])) by (apply CF; left; reflexivity).
  assert (CC : forall chain, In chain (flat_map (chains filter (above ++ [e])) ch) -> chain_fine chain) by (intros chain I; apply CF; right; exact I).
  rewrite <- app_assoc. cbn [app]. destruct (in_svg (fst e)) eqn:SV.
  - eapply along_bind; [apply (start_near above e); eassumption| |exact I].
    intros [fst1 F1 fp1 fc1 fi1] [st1 A1 p1 c1 i1] (S1 & S2 & S3 & S4 & S5 & S6).
    cbn [ftrans_stack trans_stack fdoc_path doc_path fignore_nest ignore_nest fcur_transform cur_transform] in *. subst.
    apply (L (above ++ [e])); [exact CC|exact S6| |exact S3].
    intros fpath' path' fc' c' NS'. cbn [fevents_loop events_loop fignore_nest ignore_nest Nat.ltb Nat.leb ftrans_stack trans_stack fdoc_path doc_path fdoc_ctx doc_ctx].
    rewrite SV. apply GO, NS'.
  - apply (L (above ++ [e])); [exact CC|apply foreign_near; assumption| |exact NS].
    intros fpath' path' fc' c' NS'. cbn [fevents_loop events_loop fignore_nest ignore_nest Nat.ltb Nat.leb ftrans_stack trans_stack fdoc_path doc_path fdoc_ctx doc_ctx].
    rewrite SV. apply GO, NS'.
Qed.

Lemma document_near : forall doc, (forall chain, In chain (all_chains filter doc) -> chain_fine chain) ->
  along near_segs (fparse_document g (document_events doc) fidentity filter) (parse_document (document_events doc) tidentity filter).
Proof.
  intros doc CF. unfold fparse_document, parse_document. apply (along_bind _ _ _ _ finished); [|intros f s H; exact H|exact I].
  rewrite <- (app_nil_r (document_events doc)). unfold document_events, all_chains in *.
  assert (TN : transforms_near [] fidentity tidentity).
  { intros k N' T' C R. inversion C; subst. destruct one_value as [O1 O2]. destruct zero_value as [O3 O4].
    split; constructor; cbn [fidentity tidentity fm0 fm1 fm2 fm3 fm4 fm5 m0 m1 m2 m3 m4 m5]; auto;
      rewrite ?O2, ?O4, ?Rminus_0_r, ?Rminus_eq_0, ?Rabs_R0, ?Rabs_R1; lra. }
  assert (G : goes_on [] [] fidentity tidentity (flat_map doc_events doc ++ [])).
  { revert CF. induction doc as [|t doc IH]; intros CF; [intros fp p fc c NS; exact NS|]. cbn [flat_map] in *. rewrite <- app_assoc.
    apply (tree_near t []); [intros chain I; apply CF, in_app_iff; left; exact I|exact TN|].
    apply IH. intros chain I. apply CF, in_app_iff. right. exact I. }
  apply G. constructor.
Qed.
End Document.

(** * C111 *)

Lemma big_is : bpow radix2 400 = 2 ^ 400.
Proof. change (bpow radix2 400) with (bpow radix2 (Z.of_nat 400)). rewrite bpow_powerRZ, <- pow_powerRZ. reflexivity. Qed.

(** A document whose paths start with a move, have no arcs, [n] numbers at most and coordinates of
    at most [P], under elements that cost [K] roundings at most, enlarge [N] times at most and
    translate by [T] at most: the segments read in binary64 are as far off as the number of
    roundings on the way to a point, in units of the last place of the largest of them. *)
Theorem C111_document : forall tg q filter doc K N T P n, accurate tg q ->
  K <= 2 ^ 20 -> 1 <= N -> 0 <= T -> 1 <= P -> INR n <= 2 ^ 40 -> 3 * (N * (P + T + 1)) <= 2 ^ 400 ->
  (forall chain, In chain (all_chains filter doc) ->
    (exists k N' T', chain_cost q chain k N' T' /\ k <= K /\ N' <= N /\ T' <= T) /\ forall d, path_of chain d -> fine_path P n d) ->
  match fparse_document tg (document_events doc) fidentity filter, parse_document (document_events doc) tidentity filter with
  | Ok (Some s), Ok (Some r) => Forall2 (segment_within ((5 * INR n + 16 + K) * (3 * (N * (P + T + 1))) / 2 ^ 53)) s r
  | Ok None, Ok None => True
  | _, _ => False
  end.
Proof.
  intros tg q filter doc K N T P n AC KL N1 T0 P1 NB Z CF.
  assert (KL' : K <= lots) by (unfold lots; eapply Rle_trans; [exact KL|cbn [pow]; lra]).
  assert (Z' : zone N T P <= bpow radix2 400) by (rewrite big_is; exact Z).
  pose proof (document_near q tg filter K N T P n AC KL' N1 T0 P1 Z' NB doc CF) as D.
  destruct (fparse_document _ _ _ _) as [[s|]| |], (parse_document _ _ _) as [[r|]| |]; try exact D.
  cbn [along] in D. unfold near_segs in D. unfold Rdiv. rewrite <- u53_is.
  replace ((5 * INR n + 16 + K) * (3 * (N * (P + T + 1))) * u53) with ((5 * INR n + 16 + K) * (u53 * zone N T P)) by (unfold zone; ring).
  clear - D. induction D; constructor; auto. apply seg_near_within. assumption.
Qed.

Lemma four_cm : exists w, parse_length (chars "4cm") = Some w /\ w = 40.
Proof. eexists. split; [lazy -[IZR Rplus Rmult Rminus Ropp Rinv Rdiv powerRZ]; reflexivity|]. cbn [powerRZ]. field. Qed.
Lemma the_box : exists x y w h, parse_view_box (chars "5 5 4 8") = Some (x, y, w, h) /\ w = 4 /\ h = 8.
Proof. do 4 eexists. split; [lazy -[IZR Rplus Rmult Rminus Ropp Rinv Rdiv powerRZ]; reflexivity|]. cbn [powerRZ]. split; field. Qed.

(** The document of C53_example, with a library for sine, cosine and tangent that is good to three
    units: the moves are within 10^-11 of (40, 30) and (50, 30). *)
Lemma near_4_to_40 : forall r, 4 <= r <= 40 -> between 300 r.
Proof.
  intros r H. replace r with (r / 2 * 2) by field. apply (between_le (5 + 5)); [lia|]. apply between_mul; apply between_5; lra.
Qed.

Lemma move_fine : forall a b, is_digit a = true -> is_digit b = true -> fine_path 9 2 (ch "M" :: [a] ++ chars " " ++ [b]).
Proof.
  intros a b DA DB. assert (NT : forall c, is_digit c = true -> number_text [c] (IZR (Z.of_N c - 48)) /\ Rabs (IZR (Z.of_N c - 48)) <= 9).
  { intros c D. split; [apply text_digit; exact D|]. unfold is_digit in D. apply andb_true_iff in D. destruct D as [D1 D2]. apply N.leb_le in D1, D2.
    rewrite <- abs_IZR. apply IZR_le. change (ch "0") with 48%N in D1. change (ch "9") with 57%N in D2. lia. }
  destruct (NT a DA) as [TA LA]. destruct (NT b DB) as [TB LB]. set (x := IZR (Z.of_N a - 48)) in *. set (y := IZR (Z.of_N b - 48)) in *. clearbody x y.
  exists (ch "M"), [x; y], []. split; [right; left; reflexivity|]. split.
  - replace (ch "M" :: [a] ++ chars " " ++ [b]) with ([] ++ (ch "M" :: [] ++ ([a] ++ chars " " ++ [b])) ++ []) by reflexivity.
    constructor; [constructor| |constructor; constructor]. constructor; [apply is_one_of_In; reflexivity|constructor|].
    apply (numbers_more [a] x (chars " ") [b]); [exact TA|right; split; [discriminate|repeat constructor]|]. apply numbers_one, TB.
  - split; [repeat constructor|]. split; [|cbn; lia].
    change (absolute (mk_vec 0 0) (mk_vec 0 0) true [(ch "M", [x; y])]) with [(ch "M", [x; y])].
    apply Forall_cons; [|apply Forall_nil]. cbn [snd]. apply Forall_cons; [exact LA|]. apply Forall_cons; [exact LB|apply Forall_nil].
Qed.

Lemma groups_cost : forall chain, In chain (all_chains (layer_filter None) groups) ->
  (exists k N' T', chain_cost 3 chain k N' T' /\ k <= 36 /\ N' <= 10 /\ T' <= 2) /\ forall d, path_of chain d -> fine_path 9 2 d.
Proof.
  set (es := (svg_name "svg", [plain_attr "width" "4cm"; plain_attr "height" "4cm"; plain_attr "viewBox" "5 5 4 8"])).
  set (eg := (svg_name "g", [plain_attr "transform" "translate(1,2)"])).
  set (ep := fun d => (svg_name "path", [plain_attr "d" d])).
  assert (CS : elem_cost 3 es (0 + 26) (1 * 10) 0).
  { apply cost_svg; [reflexivity|reflexivity|repeat (apply cost_other; [discriminate|]); constructor|].
    destruct four_cm as (w & LW & EW). destruct the_box as (x & y & bw & bh & LB & E1 & E2).
    exists (chars "4cm"), (chars "4cm"), w, w, [(x, y, bw, bh)].
    split; [reflexivity|]. split; [reflexivity|]. split; [exact LW|]. split; [exact LW|].
    assert (BW : between 300 w) by (apply near_4_to_40; lra). split; [exact BW|]. split; [exact BW|].
    split; [change (values "viewBox" (snd es)) with [chars "5 5 4 8"]; cbn [map]; rewrite LB; reflexivity|].
    cbn [rev app]. split; [apply near_4_to_40; lra|]. split; [apply near_4_to_40; lra|]. subst. split; [lra|]. split; rewrite Rabs_pos_eq; lra. }
  assert (CG : elem_cost 3 eg (2 + 8 + 0) (1 * 1) (2 + 0)).
  { apply cost_plain; [reflexivity|discriminate|]. apply (cost_transform _ _ _ (mk_tr 1 0 0 1 1 2)); [reflexivity| |constructor].
    exists [], (chars "translate(1,2)"), []. split; [reflexivity|]. split; [constructor|]. split.
    - apply items_one, (item_translate2 3 _ (chars "1,2")); [|apply (call_short "translate")| |].
      + apply (numbers_more (chars "1") 1 (chars ",") (chars "2") [2]); [apply (text_digit (ch "1")); reflexivity|left; exists [], []; repeat split; constructor|].
        apply numbers_one, (text_digit (ch "2")). reflexivity.
      + rewrite Rabs_pos_eq; lra.
      + rewrite Rabs_pos_eq; lra.
    - intros sp u f r Z SP _. apply separator_nonempty in SP. destruct sp; [congruence|discriminate]. }
  assert (CP : forall d, elem_cost 3 (ep d) 0 1 0).
  { intros d. apply cost_plain; [reflexivity|discriminate|]. apply cost_other; [discriminate|constructor]. }
  intros chain I. change (In chain [[es]; [es; eg]; [es; eg; ep "M3 4"%string]; [es; ep "M5 6"%string]]) in I.
  assert (NP : forall above e d, path_of (above ++ [e]) d -> local_name (fst e) = chars "path" /\ last_value "d" (snd e) = Some d).
  { intros above e d (above' & e' & E & _ & L & V). apply app_inj_tail in E. destruct E as [_ <-]. auto. }
  destruct I as [<-|[<-|[<-|[<-|[]]]]]; split; try (do 3 eexists; split; [repeat (eapply cost_cons; [first [exact CS|exact CG|apply CP]|]); apply cost_nil|lra]).
  - intros d H. destruct (NP [] es d H) as [L _]. discriminate L.
  - intros d H. destruct (NP [es] eg d H) as [L _]. discriminate L.
  - intros d H. destruct (NP [es; eg] (ep "M3 4"%string) d H) as [_ V]. injection V as <-. apply move_fine; reflexivity.
  - intros d H. destruct (NP [es] (ep "M5 6"%string) d H) as [_ V]. injection V as <-. apply move_fine; reflexivity.
Qed.

Example C111_example : exists p q, fparse_document good_trig (document_events groups) fidentity (layer_filter None) = Ok (Some [SGoTo p; SGoTo q]) /\
  within (/ 10 ^ 11) p (mk_vec 40 30) /\ within (/ 10 ^ 11) q (mk_vec 50 30).
Proof.
  pose proof (C111_document good_trig 3 (layer_filter None) groups 36 10 2 9 2 good_accurate) as H.
  rewrite C53_example in H.
  specialize (H ltac:(cbn [pow]; lra) ltac:(lra) ltac:(lra) ltac:(lra) ltac:(cbn [INR pow]; lra)).
  assert (B : 3 * (10 * (9 + 2 + 1)) <= 2 ^ 400) by (apply Rle_trans with (2 ^ 10); [cbn [pow]; lra|apply Rle_pow; [lra|lia]]).
  specialize (H B groups_cost). destruct (fparse_document _ _ _ _) as [[fs|]| |]; try contradiction.
  inversion H as [|s r fs' rs K1 H1]; subst. inversion H1 as [|s2 r2 fs2 rs2 K2 H2]; subst. inversion H2; subst.
  destruct s; cbn [segment_within] in K1; try contradiction. destruct s2; cbn [segment_within] in K2; try contradiction.
  eexists. eexists. split; [reflexivity|].
  assert (E : (5 * INR 2 + 16 + 36) * (3 * (10 * (9 + 2 + 1))) / 2 ^ 53 <= / 10 ^ 11) by (unfold Rdiv; rewrite <- u53_is, u53_val; cbn [INR pow]; lra).
  split; [destruct K1 as (F1 & F2 & X & Y)|destruct K2 as (F1 & F2 & X & Y)]; (split; [exact F1|split; [exact F2|split; eapply Rle_trans; eassumption]]).
Qed.

Print Assumptions C111_document.
Print Assumptions C111_example.
