(** The segments of a document, path by path: every path is built under the transform of the elements
    above it, in binary64. *)
From Coq Require Import Reals Lra ZArith List Bool NArith Lia Ascii String.
From Flocq Require Import Core BinarySingleNaN.
From Verif Require Import Base Chars Floats FloatProofs FloatScale FloatErr FloatCurve ApproxCurve DrawCurves Coords Curves PathBuild PathGrammar PathLex
  BuildProofs LexProofs PropsBuild PropsLex PropsTransform FloatPath FloatPathProofs FloatLex FloatLexProofs FloatTransform FloatAngles FloatLength SvgDocument
  FloatDocument FloatDocProofs PropsFloatPath PropsFloatLex PropsFloatTransform PropsCoords PropsSvg FloatPlace PropsFloatSvg.
Import ListNotations.
Open Scope R_scope.

(** ** The transform of a chain of elements, as binary64 computes it *)

(** The scale of an svg element (svg_scale of PropsSvg.v). *)
Definition fsvg_scale (attrs : list attribute) (boxes : list (f64 * f64 * f64 * f64)) : option ftransform :=
  match last_value "width" attrs, last_value "height" attrs with
  | Some w, Some h =>
      match fparse_length w, fparse_length h with
      | Some w, Some h =>
          Some (match rev boxes with
                | (_, _, bw, bh) :: _ => fscale_xy (fdiv w bw) (fdiv h bh)
                | [] => fscale_xy (fdiv w w) (fdiv h h)
                end)
      | _, _ => None
      end
  | _, _ => None
  end.

(** An element multiplies with its transform attributes, one after the other, and then with its scale. *)
Definition fturn (tg : trig) (F : ftransform) (e : element) : ftransform :=
  if in_svg (fst e) then
    match all_some (map (fparse_transform tg) (values "transform" (snd e))), all_some (map fparse_view_box (values "viewBox" (snd e))) with
    | Some ts, Some boxes =>
        if text_eqb (local_name (fst e)) (chars "svg") then
          match fsvg_scale (snd e) boxes with Some sc => ftmul (fold_left ftmul ts F) sc | None => F end
        else fold_left ftmul ts F
    | _, _ => F
    end
  else F.
Definition fplace (tg : trig) (chain : list element) : ftransform := fold_left (fturn tg) chain fidentity.

Lemma fplace_app : forall tg chain e, fplace tg (chain ++ [e]) = fturn tg (fplace tg chain) e.
Proof. intros tg chain e. unfold fplace. rewrite fold_left_app. reflexivity. Qed.

Lemma fread_attrs_spec : forall tg attrs st,
  fread_attrs tg st attrs =
  match all_some (map (fparse_transform tg) (values "transform" attrs)), all_some (map fparse_view_box (values "viewBox" attrs)) with
  | Some ts, Some boxes =>
      Some (mk_fattrs (fold_left ftmul ts (fat_transform st)) (last_or (values "d" attrs) (fat_d st)) (last_or boxes (fat_view_box st))
              (last_or (values "width" attrs) (fat_width st)) (last_or (values "height" attrs) (fat_height st)))
  | _, _ => None
  end.
Proof.
  intros tg. induction attrs as [|a attrs IH]; intros st.
  - cbn. destruct st as [t d v w h]. reflexivity.
  - cbn [fread_attrs]. unfold fread_attr. rewrite !values_cons.
    destruct (text_eqb (local_name (a_name a)) (chars "transform")) eqn:E1.
    { apply text_eqb_true in E1. rewrite E1. change (text_eqb (chars "transform") (chars "viewBox")) with false.
      change (text_eqb (chars "transform") (chars "d")) with false. change (text_eqb (chars "transform") (chars "width")) with false.
      change (text_eqb (chars "transform") (chars "height")) with false. cbv iota. cbn [map].
      destruct (fparse_transform tg (a_value a)) as [t|]; [|reflexivity]. cbn [all_some].
      rewrite IH. cbn [fat_transform fat_d fat_view_box fat_width fat_height].
      destruct (all_some (map (fparse_transform tg) _)) as [ts|]; [|reflexivity]. reflexivity. }
    destruct (text_eqb (local_name (a_name a)) (chars "d")) eqn:E2.
    { apply text_eqb_true in E2. rewrite E2. change (text_eqb (chars "d") (chars "viewBox")) with false.
      change (text_eqb (chars "d") (chars "width")) with false.
      change (text_eqb (chars "d") (chars "height")) with false. cbv iota.
      rewrite IH. cbn [fat_transform fat_d fat_view_box fat_width fat_height]. rewrite last_or_cons. reflexivity. }
    destruct (text_eqb (local_name (a_name a)) (chars "viewBox")) eqn:E3.
    { apply text_eqb_true in E3. rewrite E3.
      change (text_eqb (chars "viewBox") (chars "width")) with false.
      change (text_eqb (chars "viewBox") (chars "height")) with false. cbv iota. cbn [map].
      destruct (fparse_view_box (a_value a)) as [vb|].
      2: { cbn [all_some]. destruct (all_some _); reflexivity. }
      cbn [all_some]. rewrite IH. cbn [fat_transform fat_d fat_view_box fat_width fat_height].
      destruct (all_some (map (fparse_transform tg) _)) as [ts|]; [|reflexivity].
      destruct (all_some (map fparse_view_box _)) as [boxes|]; [|reflexivity]. rewrite last_or_cons. reflexivity. }
    destruct (text_eqb (local_name (a_name a)) (chars "height")) eqn:E4.
    { apply text_eqb_true in E4. rewrite E4.
      change (text_eqb (chars "height") (chars "width")) with false. cbv iota.
      rewrite IH. cbn [fat_transform fat_d fat_view_box fat_width fat_height]. rewrite last_or_cons. reflexivity. }
    destruct (text_eqb (local_name (a_name a)) (chars "width")) eqn:E5; rewrite IH; cbn [fat_transform fat_d fat_view_box fat_width fat_height];
      rewrite ?last_or_cons; reflexivity.
Qed.

(** What the start of an element of SVG does. *)
Lemma fstart_svg_spec : forall tg (e : element) stack F path c k f', in_svg (fst e) = true ->
  fstart_svg tg (mk_fdoc stack F path c k) (fst e) (snd e) = Ok (Some f') ->
  exists s c', f' = mk_fdoc (F :: stack) (fturn tg F e) (path ++ s) c' k /\
    ((local_name (fst e) = chars "path" /\ exists d, last_value "d" (snd e) = Some d /\ fparse_path tg d c (fturn tg F e) = Ok (Some (c', s))) \/
     (local_name (fst e) <> chars "path" /\ s = [])).
Proof.
  intros tg [n attrs] stack F path c k f' SV ST. unfold fstart_svg in ST. unfold fturn. rewrite SV. rewrite fread_attrs_spec in ST.
  cbn [fcur_transform ftrans_stack fdoc_path fdoc_ctx fignore_nest fst snd] in *.
  destruct (all_some (map (fparse_transform tg) (values "transform" attrs))) as [ts|]; [|discriminate ST].
  destruct (all_some (map fparse_view_box (values "viewBox" attrs))) as [boxes|]; [|discriminate ST].
  cbn [fat_transform fat_d fat_view_box fat_width fat_height] in ST.
  change (last_or (values "d" attrs) None) with (last_value "d" attrs) in ST.
  change (last_or (values "width" attrs) None) with (last_value "width" attrs) in ST.
  change (last_or (values "height" attrs) None) with (last_value "height" attrs) in ST.
  destruct (text_eqb (local_name n) (chars "path")) eqn:E1.
  - apply text_eqb_true in E1. rewrite E1 in *. change (text_eqb (chars "path") (chars "svg")) with false. cbv iota.
    destruct (last_value "d" attrs) as [d|]; [|discriminate ST]. apply bind_Ok in ST. destruct ST as ([[c' s]|] & FP & ST); [|discriminate ST].
    injection ST as <-. exists s, c'. split; [reflexivity|]. left. split; [reflexivity|]. exists d. auto.
  - assert (NP : local_name n <> chars "path") by (intros K; rewrite K in E1; discriminate E1).
    destruct (text_eqb (local_name n) (chars "svg")).
    + unfold fsvg_scale.
      destruct (last_value "width" attrs) as [w|]; [|discriminate ST]. destruct (last_value "height" attrs) as [h|]; [|discriminate ST].
      destruct (fparse_length w) as [lw|]; [|discriminate ST]. destruct (fparse_length h) as [lh|]; [|discriminate ST].
      exists [], c. unfold last_or in ST. rewrite app_nil_r. split; [|right; auto].
      destruct (rev boxes) as [|[[[a b] bw] bh] l]; injection ST as <-; reflexivity.
    + injection ST as <-. exists [], c. rewrite app_nil_r. auto.
Qed.

(** ** The parts of a document *)

(** The segments that a chain of elements adds: those of its path, built on its own under the
    transform of the chain, whatever was built before. *)
Definition part_of (tg : trig) (chain : list element) (s : list segment) : Prop :=
  (forall d, path_of chain d -> exists c c', fparse_path tg d c (fplace tg chain) = Ok (Some (c', s))) /\
  ((forall d, ~ path_of chain d) -> s = []).

Lemma path_of_last : forall above e d, path_of (above ++ [e]) d <-> in_svg (fst e) = true /\ local_name (fst e) = chars "path" /\ last_value "d" (snd e) = Some d.
Proof.
  intros above e d. split.
  - intros (a & x & E & A). apply app_inj_tail in E. destruct E as [<- <-]. exact A.
  - intros A. exists above, e. auto.
Qed.

Lemma tree_parts : forall tg filter t above stack path c evs f,
  fevents_loop tg filter (mk_fdoc stack (fplace tg above) path c 0) (doc_events t ++ evs) = Ok (Some f) ->
  exists parts c', Forall2 (part_of tg) (chains filter above t) parts /\
    fevents_loop tg filter (mk_fdoc stack (fplace tg above) (path ++ List.concat parts) c' 0) evs = Ok (Some f).
Proof.
  intros tg filter t. induction t as [e ch IH|] using node_deep; intros above stack path c evs f R.
  2: { exists [], c. split; [constructor|]. cbn [List.concat]. rewrite app_nil_r. exact R. }
  assert (L : forall above stack path c evs,
    fevents_loop tg filter (mk_fdoc stack (fplace tg above) path c 0) (flat_map doc_events ch ++ evs) = Ok (Some f) ->
    exists parts c', Forall2 (part_of tg) (flat_map (chains filter above) ch) parts /\
      fevents_loop tg filter (mk_fdoc stack (fplace tg above) (path ++ List.concat parts) c' 0) evs = Ok (Some f)).
  { clear above stack path c evs R. induction IH as [|t ch H _ IH]; intros above stack path c evs R.
    - exists [], c. split; [constructor|]. cbn [List.concat]. rewrite app_nil_r. exact R.
    - cbn [flat_map] in *. rewrite <- app_assoc in R. destruct (H _ _ _ _ _ _ R) as (p1 & c1 & F1 & R1). destruct (IH _ _ _ _ _ R1) as (p2 & c2 & F2 & R2).
      exists (p1 ++ p2), c2. split; [apply Forall2_app; assumption|]. rewrite concat_app, app_assoc. exact R2. }
  cbn [doc_events app fevents_loop fignore_nest Nat.ltb Nat.leb orb ftrans_stack fcur_transform fdoc_path fdoc_ctx chains] in *.
  destruct (filter (fst e) (snd e)) eqn:FI; cbn [negb] in R.
  2: { rewrite <- app_assoc, all_ignored in R. exists [], c. split; [constructor|]. cbn [List.concat]. rewrite app_nil_r. exact R. }
  rewrite <- app_assoc in R. cbn [app] in R. destruct (in_svg (fst e)) eqn:SV.
  - apply bind_Ok in R. destruct R as ([f1|] & ST & R); [|discriminate R].
    destruct (fstart_svg_spec tg e _ _ _ _ _ _ SV ST) as (s & c1 & -> & A). rewrite <- fplace_app in R, A.
    destruct (L _ _ _ _ _ R) as (p1 & c2 & F1 & R1). cbn [fevents_loop fignore_nest Nat.ltb Nat.leb ftrans_stack fdoc_path fdoc_ctx] in R1. rewrite SV in R1.
    exists (s :: p1), c2. split; [|cbn [List.concat]; rewrite app_assoc; exact R1]. constructor; [|exact F1]. split.
    + intros d PO. apply path_of_last in PO. destruct PO as (_ & P1 & P2). destruct A as [[_ (d' & D1 & D2)]|[A _]]; [|contradiction].
      assert (d' = d) by congruence. subst d'. eauto.
    + intros NP. destruct A as [[P1 (d & D1 & _)]|[_ A]]; [|exact A]. exfalso. apply (NP d). apply path_of_last. auto.
  - assert (EP : fplace tg (above ++ [e]) = fplace tg above) by (rewrite fplace_app; unfold fturn; rewrite SV; reflexivity).
    rewrite <- EP in R. destruct (L _ _ _ _ _ R) as (p1 & c2 & F1 & R1). cbn [fevents_loop fignore_nest Nat.ltb Nat.leb ftrans_stack fdoc_path fdoc_ctx] in R1. rewrite SV in R1.
    rewrite EP in R1. exists ([] :: p1), c2. split; [|exact R1]. constructor; [|exact F1]. split; [|reflexivity].
    intros d PO. apply path_of_last in PO. destruct PO as (K & _). congruence.
Qed.

Lemma document_parts : forall tg filter doc segs, fparse_document tg (document_events doc) fidentity filter = Ok (Some segs) ->
  exists parts, segs = List.concat parts /\ Forall2 (part_of tg) (all_chains filter doc) parts.
Proof.
  intros tg filter doc segs FP. unfold fparse_document in FP. apply bind_Ok in FP. destruct FP as ([f|] & R & FP); [|discriminate FP]. injection FP as <-.
  assert (L : forall doc path c, fevents_loop tg filter (mk_fdoc [] fidentity path c 0) (flat_map doc_events doc) = Ok (Some f) ->
    exists parts, Forall2 (part_of tg) (flat_map (chains filter []) doc) parts /\ fdoc_path f = path ++ List.concat parts).
  { clear. induction doc as [|t doc IH]; intros path c R.
    - cbn [flat_map fevents_loop] in R. injection R as <-. exists []. split; [constructor|]. cbn [List.concat fdoc_path]. rewrite app_nil_r. reflexivity.
    - cbn [flat_map] in *. destruct (tree_parts tg filter t [] _ _ _ _ _ R) as (p1 & c1 & F1 & R1). destruct (IH _ _ R1) as (p2 & F2 & E2).
      exists (p1 ++ p2). split; [apply Forall2_app; assumption|]. rewrite E2, concat_app, app_assoc. reflexivity. }
  destruct (L doc [] fpath_ctx_new R) as (parts & F & E). exists parts. auto.
Qed.

(** ** The transform of a chain is near the exact one *)

Lemma tr_near_le : forall k N T k' N' T' F A, sane k N T -> k <= k' -> N <= N' -> T <= T' -> tr_near k N T F A -> tr_near k' N' T' F A.
Proof.
  intros k N T k' N' T' F A (K0 & N1 & T0) HK HN HT. pose proof u53_pos as [U0 _].
  assert (L1 : k * (u53 * N) <= k' * (u53 * N')).
  { apply prod_le; [lra|]. split; [apply Rmult_le_pos; lra|apply Rmult_le_compat_l; lra]. }
  assert (L2 : N * T <= N' * T') by (apply prod_le; lra).
  assert (L3 : k * (u53 * (N * (1 + T))) <= k' * (u53 * (N' * (1 + T')))).
  { apply prod_le; [lra|]. split; [apply Rmult_le_pos; [lra|apply Rmult_le_pos; lra]|]. apply Rmult_le_compat_l; [lra|]. apply prod_le; lra. }
  intros [[A1 A2 A3 A4 A5] [B1 B2 B3 B4 B5]]. split; constructor; auto; lra.
Qed.

Lemma boxes_alike : forall vs, match all_some (map fparse_view_box vs), all_some (map parse_view_box vs) with
  | Some fb, Some b => Forall2 boxes_near b fb | None, None => True | _, _ => False end.
Proof.
  induction vs as [|v vs IH]; cbn [map all_some]; [constructor|]. pose proof (view_box_near v) as B.
  destruct (parse_view_box v) as [b|], (fparse_view_box v) as [f|]; cbn [maybe] in B; try contradiction; cbn [all_some]; [|exact I].
  destruct (all_some (map fparse_view_box vs)), (all_some (map parse_view_box vs)); try contradiction; [|exact I]. constructor; assumption.
Qed.

Lemma place_near : forall tg q chain k N T, accurate tg q -> chain_cost q chain k N T -> roomy k N T -> tr_near k N T (fplace tg chain) (place tidentity chain).
Proof.
  intros tg q chain k N T AC. pose proof (accurate_pos _ _ AC) as Q0. revert k N T.
  induction chain as [|e above IH] using rev_ind; intros k N T C RM.
  { inversion C; subst. destruct one_value as [O1 O2]. destruct zero_value as [O3 O4].
    split; constructor; cbn [fplace place fold_left fidentity tidentity fm0 fm1 fm2 fm3 fm4 fm5 m0 m1 m2 m3 m4 m5]; auto;
      rewrite ?O2, ?O4, ?Rminus_0_r, ?Rminus_eq_0, ?Rabs_R0, ?Rabs_R1; lra. }
  destruct (chain_last _ _ _ _ _ _ C) as (k1 & N1 & T1 & k2 & N2 & T2 & C1 & C2 & -> & -> & ->).
  rewrite fplace_app, place_app. unfold fturn.
  pose proof (chain_sane _ _ _ _ _ Q0 C1) as S1. pose proof (elem_sane _ _ _ _ _ Q0 C2) as S2.
  specialize (IH _ _ _ C1 (roomy_left _ _ _ _ _ _ S1 S2 RM)). set (F := fplace tg above) in *. set (A := place tidentity above) in *.
  assert (W : tr_near (k1 + k2) (N1 * N2) (T1 + T2) F A).
  { destruct S2 as (K2 & M2 & U2). pose proof S1 as (K1 & M1 & U1). apply (tr_near_le k1 N1 T1); auto; try lra.
    rewrite <- (Rmult_1_r N1) at 1. apply Rmult_le_compat_l; lra. }
  pose proof (boxes_alike (values "viewBox" (snd e))) as BA.
  assert (READ : forall k3 N3 T3, attrs_cost q (snd e) k3 N3 T3 -> roomy (k1 + k3) (N1 * N3) (T1 + T3) ->
    match all_some (map fparse_view_box (values "viewBox" (snd e))) with Some _ =>
    match all_some (map (fparse_transform tg) (values "transform" (snd e))), all_some (map parse_transform (values "transform" (snd e))) with
    | Some fts, Some ts => tr_near (k1 + k3) (N1 * N3) (T1 + T3) (fold_left ftmul fts F) (tmul A (product ts))
    | None, None => True | _, _ => False end | None => True end).
  { intros k3 N3 T3 AT R3.
    pose proof (read_attrs_near q tg (snd e) k3 N3 T3 AC AT k1 N1 T1 (mk_fattrs F None None None None) (mk_attrs A None None None None) S1 R3
      ltac:(split; [exact IH|]; split; [reflexivity|]; split; [exact I|]; split; reflexivity)) as RN.
    rewrite fread_attrs_spec, read_attrs_spec in RN. cbn [fat_transform at_transform] in RN.
    destruct (all_some (map fparse_view_box _)) as [fb|], (all_some (map parse_view_box _)) as [b|]; try contradiction; [|exact I].
    destruct (all_some (map (fparse_transform tg) _)) as [fts|], (all_some (map parse_transform _)) as [ts|]; try contradiction; [|exact I]. exact (proj1 RN). }
  destruct C2 as [SV|k2 N2 T2 SV NS AT|k2 N2 T2 M SV IS AT SZ]; rewrite SV; [exact W|..]; unfold own.
  - specialize (READ _ _ _ AT RM).
    destruct (text_eqb (local_name (fst e)) (chars "svg")) eqn:E; [apply text_eqb_true in E; contradiction|].
    destruct (all_some (map fparse_view_box _)) as [fb|], (all_some (map parse_view_box _)) as [b|]; try contradiction.
    2: { destruct (all_some (map (fparse_transform tg) _)), (all_some (map parse_transform _)); exact W. }
    destruct (all_some (map (fparse_transform tg) _)) as [fts|], (all_some (map parse_transform _)) as [ts|]; try contradiction; [exact READ|exact W].
  - rewrite (proj2 (text_eqb_true _ _) IS). pose proof (attrs_sane _ _ _ _ _ Q0 AT) as S3. pose proof (sizes_one _ _ SZ) as M1.
    assert (S26 : sane 26 M 0) by (split; [lra|split; lra]). assert (S18 : sane 18 M 0) by (split; [lra|split; lra]).
    replace (k1 + (k2 + 26)) with ((k1 + k2) + (18 + 8)) in * by ring. replace (N1 * (N2 * M)) with ((N1 * N2) * M) in * by ring.
    replace (T1 + T2) with ((T1 + T2) + 0) in RM by ring.
    pose proof (sane_mul _ _ _ _ _ _ S1 S3) as S13.
    assert (R13 : roomy (k1 + k2) (N1 * N2) (T1 + T2)).
    { apply (roomy_left _ _ _ 26 M 0 S13 S26). replace 26 with (18 + 8) by ring. exact RM. }
    specialize (READ _ _ _ AT R13).
    destruct SZ as (wt & ht & w & h & boxes & HW & HH & LW & LH & BW & BH & HB & HM).
    rewrite HB in *. destruct (all_some (map fparse_view_box _)) as [fb|]; [|contradiction].
    destruct (all_some (map (fparse_transform tg) _)) as [fts|], (all_some (map parse_transform _)) as [ts|]; try contradiction; [|exact W].
    unfold fsvg_scale, svg_scale. rewrite HW, HH, LW, LH.
    destruct (length_near wt w LW BW) as (fw & -> & RW). destruct (length_near ht h LH BH) as (fh & -> & RH).
    fold (product ts). rewrite <- C55_assoc. replace (T1 + T2) with ((T1 + T2) + 0) by ring. apply mul_near; [exact S13|exact S18|exact RM|exact READ|].
    assert (RB : match rev boxes, rev fb with b :: _, f :: _ => boxes_near b f | [], [] => True | _, _ => False end).
    { clear - BA. assert (R : Forall2 boxes_near (rev boxes) (rev fb)).
      { induction BA as [|b f bs fs B BA IH]; [constructor|]. cbn [rev]. apply Forall2_app; [exact IH|constructor; [exact B|constructor]]. }
      destruct R; [exact I|assumption]. }
    destruct (rev boxes) as [|[[[x y] bw] bh] l], (rev fb) as [|[[[fx0 fy0] fbw] fbh] fl]; try contradiction.
    + rewrite HM. apply scale_one; assumption.
    + destruct RB as [[[_ _] RBW] RBH]. cbn [fst snd] in *. destruct HM as (B1 & B2 & M1' & MW & MH). apply scale_near; assumption.
Qed.
