(** C109: the rounding errors of the transform of an attribute. *)
From Coq Require Import Reals Lra ZArith List Bool NArith Lia Ascii String.
From Flocq Require Import Core BinarySingleNaN.
From Verif Require Import Base Chars Floats FloatProofs FloatScale FloatErr FloatCurve ApproxCurve DrawCurves Coords PathBuild PathGrammar PathLex
  BuildProofs LexProofs PropsLex PropsTransform FloatPath FloatPathProofs FloatLex FloatLexProofs FloatTransform FloatAngles SvgDocument FloatDocument FloatDocProofs.
Import ListNotations.
Open Scope R_scope.

Lemma alike_some : forall A B (E : A -> B -> Prop) p q s r a, alike E p q -> p s = Some (r, a) -> exists b, q s = Some (r, b) /\ E a b.
Proof.
  intros A B E p q s r a L H. specialize (L s). rewrite H in L. destruct (q s) as [[r' b]|]; [|contradiction].
  destruct L as [<- L]. eauto.
Qed.
Lemma call_pmap : forall A B name (p : parser A) (f : A -> B) s, call name (pmap p f) s = pmap (call name p) f s.
Proof.
  intros A B name p f s. unfold call, delimited. generalize (pair (tag name) (pair wsp_opt (pair (pchar (ch "(")) wsp_opt))). generalize (pair wsp_opt (pchar (ch ")"))).
  intros r l. unfold preceded, terminated, pmap, pair. destruct (l s) as [[s1 a]|]; [|reflexivity].
  destruct (p s1) as [[s2 b]|]; [|reflexivity]. destruct (r s2) as [[s3 c]|]; reflexivity.
Qed.

Local Ltac likes := repeat first [apply alike_pair | apply alike_opt | apply alike_preceded | apply fnumber_alike | apply alike_refl].

Local Notation six n := (pair n (pair comma_wsp (pair n (pair comma_wsp (pair n (pair comma_wsp (pair n (pair comma_wsp (pair n (pair comma_wsp n)))))))))) (only parsing).
Lemma six_alike : alike (both rounds_to (both eq (both rounds_to (both eq (both rounds_to (both eq (both rounds_to (both eq (both rounds_to (both eq rounds_to))))))))))
  (six number) (six fnumber).
Proof. likes. Qed.
Lemma two_alike : alike (both rounds_to (maybe rounds_to)) (pair number (opt (preceded comma_wsp number))) (pair fnumber (opt (preceded comma_wsp fnumber))).
Proof. likes. Qed.
Lemma three_alike : alike (both rounds_to (maybe (both rounds_to rounds_to)))
  (pair number (opt (pair (preceded comma_wsp number) (preceded comma_wsp number)))) (pair fnumber (opt (pair (preceded comma_wsp fnumber) (preceded comma_wsp fnumber)))).
Proof. likes. Qed.

Lemma item_read : forall q g t A k N T rest, accurate g q -> item q t A k N T -> k <= lots -> N * (1 + T) <= huge ->
  (exists F, fone_transform g (t ++ rest) = Some (rest, F) /\ one_transform (t ++ rest) = Some (rest, A) /\ tr_near k N T F A) /\
  1 <= N /\ 0 <= T /\ 0 <= k.
Proof.
  Local Ltac other H := repeat first [
    rewrite (call_other _ _ "matrix" _ _ _ _ H) by (intros; reflexivity) |
    rewrite (call_other _ _ "translate" _ _ _ _ H) by (intros; reflexivity) |
    rewrite (call_other _ _ "scale" _ _ _ _ H) by (intros; reflexivity) |
    rewrite (call_other _ _ "rotate" _ _ _ _ H) by (intros; reflexivity) |
    rewrite (call_other _ _ "skewX" _ _ _ _ H) by (intros; reflexivity)].
  intros q g t A k N T rest AC I KL NH. pose proof (accurate_pos _ _ AC) as Q0.
  assert (B : 1 <= N /\ 0 <= T /\ 0 <= k).
  { destruct I as [t args a b c d e f N T TX C H1 H2 H3 H4 H5|t args x T TX C H1|t args x y T TX C H1 H2|t args x N TX C H1 H2|t args x y N TX C H1 H2 H3|
      t args a TX C|t args a x y TX C|t args a TX C H|t args a TX C H].
    - pose proof (Rabs_pos e). lra.
    - pose proof (Rabs_pos x). lra.
    - pose proof (Rabs_pos x). lra.
    - lra.
    - lra.
    - pose proof (Rabs_pos (degrees a)). lra.
    - pose proof (Rabs_pos (degrees a)). pose proof (Rabs_pos x). pose proof (Rabs_pos y). lra.
    - lra.
    - lra. }
  split; [|exact B]. destruct B as (N1 & T0 & K0).
  assert (BT : T <= bpow radix2 1000).
  { assert (1 * (1 + T) <= N * (1 + T)) by (apply Rmult_le_compat_r; lra). pose proof huge_1000. lra. }
  assert (BN : N <= bpow radix2 1000).
  { assert (N * 1 <= N * (1 + T)) by (apply Rmult_le_compat_l; lra). pose proof huge_1000. lra. }
  assert (RV : forall v fv, Rabs v <= N \/ Rabs v <= T -> rounds_to v fv -> rounded v fv).
  { intros v fv H R. apply rounds_val; [|exact R]. destruct H; eapply Rle_trans; eassumption. }
  clear BT BN.
  pose proof (Rabs_R0) as A0. pose proof Rabs_R1 as A1. pose proof rounded_one as D1. pose proof rounded_zero as D0.
  unfold one_transform, fone_transform, alt, matrix, translate, scale, rotate, skewx, skewy, fmatrix, ftranslate_text, fscale_text, frotate_text, fskewx_text, fskewy_text.
  destruct I as [t args a b c d e f N T TX C H1 H2 H3 H4 H5|t args x T TX C H1|t args x y T TX C H1 H2|t args x N TX C H1 H2|t args x y N TX C H1 H2 H3|
      t args a TX C|t args a x y TX C|t args a TX C H|t args a TX C H];
    destruct (numbers_stop _ _ TX) as [ST NE]; other C; rewrite !call_pmap; unfold pmap.
  - assert (E : matrix (t ++ rest) = Some (rest, mk_tr a b c d e f)).
    { unfold matrix. erewrite (call_exact _ _ _ args _ t rest C ST NE); [reflexivity|].
      intros z Z. destruct (args_6 z rest Z _ _ _ _ _ _ _ TX) as (s1 & s2 & s3 & s4 & s5 & E). unfold pmap. rewrite E. reflexivity. }
    unfold matrix in E. rewrite call_pmap in E. unfold pmap in E.
    match type of E with match ?x with _ => _ end = _ => destruct x as [[r v]|] eqn:EV; [|discriminate] end.
    destruct v as (a' & s1 & b' & s2 & c' & s3 & d' & s4 & e' & s5 & f'). injection E as -> -> -> -> -> -> ->.
    destruct (alike_some _ _ _ _ _ _ _ _ (alike_call _ _ _ (chars "matrix") _ _ six_alike) EV) as ((fa & z1 & fb & z2 & fc & z3 & fd & z4 & fe & z5 & ff) & -> & R1 & _ & R2 & _ & R3 & _ & R4 & _ & R5 & _ & R6).
    cbn [fst snd] in *. eexists. split; [reflexivity|]. split; [reflexivity|].
    pose proof (Rabs_pos a). pose proof (Rabs_pos b). pose proof (Rabs_pos c). pose proof (Rabs_pos d).
    assert (X1 : rounded a fa) by (apply RV; [left; lra|exact R1]). assert (X2 : rounded b fb) by (apply RV; [left; lra|exact R2]).
    assert (X3 : rounded c fc) by (apply RV; [left; lra|exact R3]). assert (X4 : rounded d fd) by (apply RV; [left; lra|exact R4]).
    assert (X5 : rounded e fe) by (apply RV; [right; lra|exact R5]). assert (X6 : rounded f ff) by (apply RV; [right; lra|exact R6]).
    split; [exact (row_rounded _ _ _ _ _ _ _ _ X1 X3 X5 N1 T0 H2 H4)|exact (row_rounded _ _ _ _ _ _ _ _ X2 X4 X6 N1 T0 H3 H5)].
  - pose proof (call_exact _ _ _ args _ t rest C ST NE (fun z Z => proj1 (args_12 z rest Z _ _) TX)) as E. rewrite E.
    destruct (alike_some _ _ _ _ _ _ _ _ (alike_call _ _ _ (chars "translate") _ _ two_alike) E) as ((fx & fy) & -> & R1 & R2).
    cbn [fst snd] in *. destruct fy as [fy|]; [contradiction|]. eexists. split; [reflexivity|]. split; [reflexivity|].
    assert (X : rounded x fx) by (apply RV; [right; lra|exact R1]).
    split; [apply (row_rounded _ _ _ _ _ _ _ _ D1 D0 X); lra|apply (row_rounded _ _ _ _ _ _ _ _ D0 D1 D0); lra].
  - pose proof (call_exact _ _ _ args _ t rest C ST NE (fun z Z => proj2 (args_12 z rest Z _ _) _ TX)) as E. rewrite E.
    destruct (alike_some _ _ _ _ _ _ _ _ (alike_call _ _ _ (chars "translate") _ _ two_alike) E) as ((fx & fy) & -> & R1 & R2).
    cbn [fst snd] in *. destruct fy as [fy|]; [|contradiction]. eexists. split; [reflexivity|]. split; [reflexivity|].
    assert (X : rounded x fx) by (apply RV; [right; lra|exact R1]). assert (Y : rounded y fy) by (apply RV; [right; lra|exact R2]).
    split; [apply (row_rounded _ _ _ _ _ _ _ _ D1 D0 X); lra|apply (row_rounded _ _ _ _ _ _ _ _ D0 D1 Y); lra].
  - pose proof (call_exact _ _ _ args _ t rest C ST NE (fun z Z => proj1 (args_12 z rest Z _ _) TX)) as E. rewrite E.
    destruct (alike_some _ _ _ _ _ _ _ _ (alike_call _ _ _ (chars "scale") _ _ two_alike) E) as ((fx & fy) & -> & R1 & R2).
    cbn [fst snd] in *. destruct fy as [fy|]; [contradiction|]. eexists. split; [reflexivity|]. split; [reflexivity|].
    assert (X : rounded x fx) by (apply RV; [left; lra|exact R1]).
    split; [apply (row_rounded _ _ _ _ _ _ _ _ X D0 D0); lra|apply (row_rounded _ _ _ _ _ _ _ _ D0 X D0); lra].
  - pose proof (call_exact _ _ _ args _ t rest C ST NE (fun z Z => proj2 (args_12 z rest Z _ _) _ TX)) as E. rewrite E.
    destruct (alike_some _ _ _ _ _ _ _ _ (alike_call _ _ _ (chars "scale") _ _ two_alike) E) as ((fx & fy) & -> & R1 & R2).
    cbn [fst snd] in *. destruct fy as [fy|]; [|contradiction]. eexists. split; [reflexivity|]. split; [reflexivity|].
    assert (X : rounded x fx) by (apply RV; [left; lra|exact R1]). assert (Y : rounded y fy) by (apply RV; [left; lra|exact R2]).
    split; [apply (row_rounded _ _ _ _ _ _ _ _ X D0 D0); lra|apply (row_rounded _ _ _ _ _ _ _ _ D0 Y D0); lra].
  - pose proof (call_exact _ _ _ args _ t rest C ST NE (fun z Z => proj1 (args_13 z rest Z _ _) TX)) as E. rewrite E.
    destruct (alike_some _ _ _ _ _ _ _ _ (alike_call _ _ _ (chars "rotate") _ _ three_alike) E) as ((fa & fc) & -> & R1 & R2).
    cbn [fst snd] in *. destruct fc as [fc|]; [contradiction|]. eexists. split; [reflexivity|]. split; [reflexivity|].
    apply rotate_near; assumption.
  - pose proof (call_exact _ _ _ args _ t rest C ST NE (fun z Z => proj2 (args_13 z rest Z _ _) _ _ TX)) as E. rewrite E.
    destruct (alike_some _ _ _ _ _ _ _ _ (alike_call _ _ _ (chars "rotate") _ _ three_alike) E) as ((fa & fc) & -> & R1 & R2).
    cbn [fst snd] in *. destruct fc as [[fcx fcy]|]; [|contradiction]. destruct R2 as [R2 R3]. cbn [fst snd] in *. eexists. split; [reflexivity|].
    split; [|apply pivot_near; assumption]. unfold trotate_around, degrees. cbn [vx vy]. do 2 f_equal. f_equal; ring.
  - pose proof (call_exact _ _ _ args _ t rest C ST NE (fun z Z => args_1 z rest Z _ _ TX)) as E. rewrite E.
    destruct (alike_some _ _ _ _ _ _ _ _ (alike_call _ _ _ (chars "skewX") _ _ fnumber_alike) E) as (fa & -> & R1).
    eexists. split; [reflexivity|]. split; [reflexivity|]. apply skewx_near; assumption.
  - pose proof (call_exact _ _ _ args _ t rest C ST NE (fun z Z => args_1 z rest Z _ _ TX)) as E. rewrite E.
    destruct (alike_some _ _ _ _ _ _ _ _ (alike_call _ _ _ (chars "skewY") _ _ fnumber_alike) E) as (fa & -> & R1).
    eexists. split; [reflexivity|]. split; [reflexivity|]. apply skewy_near; assumption.
Qed.

(** ** Lists of transforms *)

(** The product of two matrices of an affine map. *)
Definition product (a b : transform) : transform :=
  mk_tr (m0 a * m0 b + m2 a * m1 b) (m1 a * m0 b + m3 a * m1 b)
        (m0 a * m2 b + m2 a * m3 b) (m1 a * m2 b + m3 a * m3 b)
        (m0 a * m4 b + m2 a * m5 b + m4 a) (m1 a * m4 b + m3 a * m5 b + m5 a).

(** The text of a list of transforms and its matrix: roundings add up, and each product costs 8 more. *)
Inductive items (q : R) : list char -> transform -> R -> R -> R -> Prop :=
| items_one : forall t A k N T, item q t A k N T -> items q t A k N T
| items_more : forall t A k N T sp r B k' N' T', item q t A k N T -> separator sp -> items q r B k' N' T' ->
    items q (t ++ sp ++ r) (product A B) (k + k' + 8) (N * N') (T + T').

Lemma item_text : forall q t A k N T, item q t A k N T -> exists f, transform_text t f.
Proof.
  intros q t A k N T I. destruct I as [t args a b c d e f N T TX C H1 H2 H3 H4 H5|t args x T TX C H1|t args x y T TX C H1 H2|t args x N TX C H1 H2|t args x y N TX C H1 H2 H3|
      t args a TX C|t args a x y TX C|t args a TX C H|t args a TX C H]; eexists.
  - eapply text_matrix; eassumption.
  - eapply text_translate1; eassumption.
  - eapply text_translate2; eassumption.
  - eapply text_scale1; eassumption.
  - eapply text_scale2; eassumption.
  - eapply text_rotate1; eassumption.
  - eapply text_rotate3; eassumption.
  - eapply text_skewx; eassumption.
  - eapply text_skewy; eassumption.
Qed.
Lemma items_text : forall q t A k N T, items q t A k N T -> exists fs, transforms_text t fs.
Proof.
  intros q t A k N T I. induction I as [t A k N T I|t A k N T sp r B k' N' T' I SP J [fs IH]]; destruct (item_text _ _ _ _ _ _ I) as [f F].
  - exists [f]. constructor. exact F.
  - exists (f :: fs). constructor; assumption.
Qed.

Lemma items_sizes : forall q t A k N T, 0 <= q -> items q t A k N T -> 1 <= N /\ 0 <= T /\ 0 <= k.
Proof.
  assert (X : forall q t A k N T, 0 <= q -> item q t A k N T -> 1 <= N /\ 0 <= T /\ 0 <= k).
  { intros q t A k N T Q0 I. destruct I as [t args a b c d e f N T TX C H1 H2 H3 H4 H5|t args x T TX C H1|t args x y T TX C H1 H2|t args x N TX C H1 H2|t args x y N TX C H1 H2 H3|
      t args a TX C|t args a x y TX C|t args a TX C H|t args a TX C H].
    - pose proof (Rabs_pos e). lra.
    - pose proof (Rabs_pos x). lra.
    - pose proof (Rabs_pos x). lra.
    - lra.
    - lra.
    - pose proof (Rabs_pos (degrees a)). lra.
    - pose proof (Rabs_pos (degrees a)). pose proof (Rabs_pos x). pose proof (Rabs_pos y). lra.
    - lra.
    - lra. }
  intros q t A k N T Q0 I. induction I as [t A k N T I|t A k N T sp r B k' N' T' I SP J IH]; [eapply X; eassumption|].
  destruct (X _ _ _ _ _ _ Q0 I) as (N1 & T0 & K0). destruct IH as (N1' & T0' & K0').
  split; [|lra]. rewrite <- (Rmult_1_r 1). apply Rmult_le_compat; lra.
Qed.

Lemma items_read : forall q g t A k N T, accurate g q -> items q t A k N T -> k <= lots -> N * (1 + T) <= huge ->
  forall fuel rest, no_transform rest -> (List.length t < fuel)%nat ->
  exists F, ftransforms g fuel (t ++ rest) = Some (rest, F) /\ transforms fuel (t ++ rest) = Some (rest, A) /\ tr_near k N T F A.
Proof.
  intros q g t A k N T AC I. pose proof (accurate_pos _ _ AC) as Q0.
  induction I as [t A k N T I|t A k N T sp r B k' N' T' I SP J IH]; intros KL NH fuel rest NT FL; (destruct fuel as [|fuel]; [lia|]);
    cbn [ftransforms transforms]; unfold alt, pmap, separated_pair, pair, preceded, pmap, pair.
  - destruct (item_read q g t A k N T rest AC I KL NH) as ((F & E1 & E2 & NR) & _). rewrite E1, E2. exists F.
    assert (SH := transforms_shape g fuel).
    destruct (comma_wsp rest) as [[s1 v]|] eqn:C; [|auto]. specialize (SH s1).
    destruct (transforms fuel s1) as [[s2 w]|] eqn:D.
    + exfalso. destruct (separator_sound _ _ _ C) as (sp & -> & SP). destruct (transforms_sound _ _ _ _ D) as (t2 & -> & fs & TS & _).
      destruct (transforms_first _ _ TS) as (u & h & r & -> & TU). apply (NT sp u h (r ++ s2)); auto. rewrite <- app_assoc. reflexivity.
    + destruct (ftransforms g fuel s1) as [[s2 w]|]; [contradiction|auto].
  - destruct (items_sizes _ _ _ _ _ _ Q0 J) as (N1' & T0' & K0'). assert (SZ := items_sizes _ _ _ _ _ _ Q0 (items_one _ _ _ _ _ _ I)). destruct SZ as (N1 & T0 & K0).
    assert (NN : 1 <= N * N') by (rewrite <- (Rmult_1_r 1); apply Rmult_le_compat; lra).
    assert (NL : N <= N * N') by (rewrite <- (Rmult_1_r N) at 1; apply Rmult_le_compat_l; lra).
    assert (NL' : N' <= N * N') by (rewrite <- (Rmult_1_l N') at 1; apply Rmult_le_compat_r; lra).
    assert (NH1 : N * (1 + T) <= huge) by (eapply Rle_trans; [|exact NH]; apply Rmult_le_compat; lra).
    assert (NH2 : N' * (1 + T') <= huge) by (eapply Rle_trans; [|exact NH]; apply Rmult_le_compat; lra).
    assert (KL1 : k <= lots) by lra. assert (KL2 : k' <= lots) by lra.
    rewrite <- !app_assoc. destruct (item_read q g t A k N T (sp ++ r ++ rest) AC I KL1 NH1) as ((F & E1 & E2 & NR) & _). rewrite E1, E2.
    destruct (items_text _ _ _ _ _ _ J) as [fs R]. destruct (transforms_head _ _ R) as (c & r' & Q & C1 & C2).
    rewrite separator_exact; [|exact SP|subst r; exact C1|subst r; exact C2].
    rewrite !app_length in FL. pose proof (separator_nonempty _ SP) as SN. destruct sp as [|x sp]; [congruence|]. cbn in FL.
    destruct (IH KL2 NH2 fuel rest NT ltac:(lia)) as (G & E3 & E4 & NG). rewrite E3, E4.
    exists (ftmul F G). split; [reflexivity|]. split; [reflexivity|]. apply tr_near_mul; auto. lra.
Qed.

Definition entries_within (el et : R) (F : ftransform) (A : transform) : Prop :=
  (is_finite (fm0 F) = true /\ Rabs (B2R (fm0 F) - m0 A) <= el) /\ (is_finite (fm1 F) = true /\ Rabs (B2R (fm1 F) - m1 A) <= el) /\
  (is_finite (fm2 F) = true /\ Rabs (B2R (fm2 F) - m2 A) <= el) /\ (is_finite (fm3 F) = true /\ Rabs (B2R (fm3 F) - m3 A) <= el) /\
  (is_finite (fm4 F) = true /\ Rabs (B2R (fm4 F) - m4 A) <= et) /\ (is_finite (fm5 F) = true /\ Rabs (B2R (fm5 F) - m5 A) <= et).

Lemma near_entries : forall k N T F A, tr_near k N T F A -> entries_within (k * N / 2 ^ 53) (k * (N * (1 + T)) / 2 ^ 53) F A.
Proof.
  intros k N T F A [[(F0 & F2 & F4) _ _ L0 T0] [(F1 & F3 & F5) _ _ L1 T1]]. rewrite u53_is' in *.
  pose proof (Rabs_pos (B2R (fm0 F) - m0 A)). pose proof (Rabs_pos (B2R (fm1 F) - m1 A)). pose proof (Rabs_pos (B2R (fm2 F) - m2 A)). pose proof (Rabs_pos (B2R (fm3 F) - m3 A)).
  replace (k * N / 2 ^ 53) with (k * (/ 2 ^ 53 * N)) by (unfold Rdiv; ring). replace (k * (N * (1 + T)) / 2 ^ 53) with (k * (/ 2 ^ 53 * (N * (1 + T)))) by (unfold Rdiv; ring).
  set (a := k * (/ 2 ^ 53 * N)) in *. set (b := k * (/ 2 ^ 53 * (N * (1 + T)))) in *. clearbody a b.
  repeat split; auto; lra.
Qed.

Lemma huge_is' : huge = 2 ^ 900.
Proof. unfold huge. rewrite bpow_powerRZ. change 900%Z with (Z.of_nat 900). rewrite <- pow_powerRZ. reflexivity. Qed.

(** * C109 *)

(** The matrix read in binary64 is off by at most the roundings the list of transforms allows. *)
Theorem C109_transform : forall q g w t A k N T rest, accurate g q -> all is_space w -> items q t A k N T -> k <= 2 ^ 20 -> N * (1 + T) <= 2 ^ 900 ->
  (forall sp u f r, rest = sp ++ u ++ r -> separator sp -> ~ transform_text u f) ->
  exists F, fparse_transform g (w ++ t ++ rest) = Some F /\ parse_transform (w ++ t ++ rest) = Some A /\
    entries_within (k * N / 2 ^ 53) (k * (N * (1 + T)) / 2 ^ 53) F A.
Proof.
  intros q g w t A k N T rest AC W I KL NH NT.
  assert (KL' : k <= lots) by (unfold lots; eapply Rle_trans; [exact KL|cbn [pow]; lra]).
  assert (NH' : N * (1 + T) <= huge) by (rewrite huge_is'; exact NH).
  destruct (items_text _ _ _ _ _ _ I) as [fs R]. destruct (transforms_head _ _ R) as (c & r' & Q & C1 & C2).
  destruct (items_read q g t A k N T AC I KL' NH' (S (List.length (w ++ t ++ rest))) rest NT) as (F & E1 & E2 & NR); [rewrite !app_length; lia|].
  exists F. split; [|split; [|apply near_entries; exact NR]].
  - unfold fparse_transform, ftransform_list, preceded, pmap, pair, multispace0, take0. subst t. cbn [app] in *. rewrite while0_app by auto. rewrite E1. reflexivity.
  - unfold parse_transform. rewrite (transform_list_eq w (t ++ rest) c (r' ++ rest)); [|exact W|subst t; reflexivity|exact C1]. rewrite E2. reflexivity.
Qed.

(** *** A library that meets the hypothesis *)

(** The number of 60 binary places below a real number, rounded to binary64. *)
Definition near_real (r : R) : f64 :=
  match Zfloor (r * 2 ^ 60) with
  | Z0 => fzero
  | Zpos p => fratio false p (2 ^ 60)
  | Zneg p => fratio true p (2 ^ 60)
  end.

Lemma near_real_size : forall r, Rabs r <= 4 -> is_finite (near_real r) = true /\ Rabs (B2R (near_real r) - r) <= u53 * (Rabs r + / 10).
Proof.
  intros r B. pose proof u53_pos as [U0 U1]. pose proof tiny_pos. pose proof tiny_small.
  set (z := Zfloor (r * 2 ^ 60)). pose proof (Zfloor_lb (r * 2 ^ 60)) as L. pose proof (Zfloor_ub (r * 2 ^ 60)) as U. fold z in L, U.
  assert (P60 : 2 ^ 60 = 1152921504606846976) by (cbn [pow]; lra). rewrite P60 in L, U.
  set (v := IZR z / 1152921504606846976).
  assert (EV : Rabs (v - r) <= u53 / 100) by (rewrite u53_val; unfold v; apply Rabs_le; lra).
  assert (R : rounds_to v (near_real r)).
  { unfold near_real. fold z. unfold v. destruct z as [|p|p] eqn:Z.
    - replace (0 / 1152921504606846976) with 0 by lra. unfold rounds_to. rewrite <- bexp_flt. cbv zeta. rewrite round_0 by typeclasses eauto.
      rewrite Rabs_R0, Rlt_bool_true by apply bpow_gt_0. split; reflexivity.
    - exact (fratio_rounds false p (2 ^ 60)).
    - replace (IZR (Z.neg p) / 1152921504606846976) with (signed true (IZR (Z.pos p) / IZR (Z.pos (2 ^ 60)))); [apply fratio_rounds|].
      unfold signed. change (Z.pos (2 ^ 60)) with 1152921504606846976%Z. change (Z.neg p) with (- Z.pos p)%Z. rewrite opp_IZR. field. }
  assert (VB : Rabs v <= Rabs r + / 100) by (replace v with ((v - r) + r) by ring; eapply Rle_trans; [apply Rabs_triang|lra]).
  destruct (rounds_val v (near_real r)) as [F E]; [apply big_enough; replace (2 ^ 60) with 1152921504606846976; lra|exact R|].
  split; [exact F|]. replace (B2R (near_real r) - r) with ((B2R (near_real r) - v) + (v - r)) by ring.
  eapply Rle_trans; [apply Rabs_triang|]. assert (u53 * Rabs v <= u53 * (Rabs r + / 100)) by (apply Rmult_le_compat_l; lra). lra.
Qed.
Lemma near_real_err : forall r, Rabs r <= 2.5 -> is_finite (near_real r) = true /\ Rabs (B2R (near_real r) - r) <= 3 / 2 ^ 53.
Proof.
  intros r B. destruct (near_real_size r ltac:(lra)) as [F E]. split; [exact F|]. eapply Rle_trans; [exact E|]. unfold Rdiv. rewrite <- u53_is'.
  rewrite Rmult_comm. apply Rmult_le_compat_r; [pose proof u53_pos; lra|lra].
Qed.

Definition good_trig : trig := mk_trig (fun x => near_real (sin (B2R x))) (fun x => near_real (cos (B2R x))) (fun x => near_real (tan (B2R x)))
  (fun y x => near_real (atan2 (B2R y) (B2R x))).

Lemma good_accurate : accurate good_trig 3.
Proof.
  intros x F B. cbn [good_trig f_sin f_cos f_tan]. pose proof (SIN_bound (B2R x)). pose proof (COS_bound (B2R x)).
  split; [apply near_real_err, Rabs_le; lra|]. split; [apply near_real_err, Rabs_le; lra|].
  intros X. apply near_real_err. pose proof (cos_half _ X) as C.
  unfold tan, Rdiv. rewrite Rabs_mult, (Rabs_pos_eq (/ _)) by (apply Rlt_le, Rinv_0_lt_compat; lra).
  apply Rle_trans with (1 * / (48 / 100)); [|lra].
  apply Rmult_le_compat; [apply Rabs_pos|apply Rlt_le, Rinv_0_lt_compat; lra|apply Rabs_le; lra|apply Rinv_le_contravar; lra].
Qed.

Lemma digits_number : forall ds, digits ds -> number_text ds (IZR (digits_value ds)).
Proof.
  intros ds D. replace (IZR (digits_value ds)) with (IZR 1 * IZR (digits_value ds) * powerRZ 10 (0 + 0)) by (cbn [powerRZ Z.add]; ring).
  replace ds with ([] ++ ds ++ @nil char) at 1 by (rewrite app_nil_r; reflexivity). constructor; [constructor|constructor; exact D|constructor].
Qed.

Example C109_example : exists A k F,
  items 3 (chars "rotate(30) translate(5,7)") A k 2 7 /\ k <= 24 /\
  fparse_transform good_trig (chars " rotate(30) translate(5,7)") = Some F /\
  parse_transform (chars " rotate(30) translate(5,7)") = Some A /\
  (m4 A = sqrt 3 / 2 * 5 - 7 / 2) /\ Rabs (B2R (fm4 F) - m4 A) <= / 10 ^ 12.
Proof.
  assert (N5 : number_text (chars "5") 5) by (apply (digits_number (chars "5")); split; [discriminate|repeat constructor]).
  assert (N7 : number_text (chars "7") 7) by (apply (digits_number (chars "7")); split; [discriminate|repeat constructor]).
  assert (N30 : number_text (chars "30") 30) by (apply (digits_number (chars "30")); split; [discriminate|repeat constructor]).
  pose proof (item_rotate1 3 (chars "rotate(30)") (chars "30") 30 (numbers_one _ _ N30) (call_short "rotate" _)) as I1.
  assert (I2 : item 3 (chars "translate(5,7)") (mk_tr 1 0 0 1 5 7) 2 1 7).
  { apply (item_translate2 3 _ (chars "5,7")); [|apply (call_short "translate")| |].
    - apply (numbers_more (chars "5") 5 (chars ",") (chars "7") [7]); [exact N5| |apply numbers_one; exact N7]. left. exists [], []. repeat split; constructor.
    - rewrite Rabs_pos_eq; lra.
    - rewrite Rabs_pos_eq; lra. }
  assert (D : degrees 30 = PI / 6) by (unfold degrees; field). rewrite D in I1. pose proof pi_near as PN. rewrite (Rabs_pos_eq (PI / 6)) in I1 by lra.
  assert (II := items_more 3 _ _ _ _ _ (chars " ") _ _ _ _ _ I1 ltac:(right; split; [discriminate|repeat constructor]) (items_one _ _ _ _ _ _ I2)).
  match type of II with items _ _ ?A ?k _ _ => exists A, k end.
  replace (2 * 1) with 2 in II by ring. replace (0 + 7) with 7 in II by ring.
  match type of II with items _ _ ?A ?k _ _ => assert (KB : k <= 24) by lra; destruct (C109_transform 3 good_trig (chars " ") _ A k 2 7 [] good_accurate ltac:(repeat constructor) II) as (F & E1 & E2 & EN) end.
  - eapply Rle_trans; [exact KB|]. cbn [pow]. lra.
  - apply Rle_trans with (2 ^ 4); [cbn [pow]; lra|]. apply Rle_pow; [lra|lia].
  - intros sp u f r Z SP _. apply separator_nonempty in SP. destruct sp; [congruence|discriminate].
  - exists F. split; [exact II|]. split; [exact KB|]. split; [exact E1|]. split; [exact E2|].
    destruct EN as (_ & _ & _ & _ & (_ & EB) & _). split.
    + cbn [product m0 m1 m2 m3 m4 m5]. rewrite cos_PI6, sin_PI6. field.
    + eapply Rle_trans; [exact EB|]. unfold Rdiv. rewrite <- u53_is', u53_val. cbn [pow]. lra.
Qed.

Print Assumptions C109_transform.
Print Assumptions C109_example.
