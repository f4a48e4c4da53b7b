(** adjust_curve finds a path of the requested duration. *)
From Coq Require Import ZArith List Bool Lia.
From Coq Require Import ZifyBool ZifyNat.
From Verif Require Import Base Solve SolveProofs IntegerCurve CurveArith.
Import ListNotations.
Open Scope Z_scope.

(** Spare ticks of the profile with flat velocity [v]. *)
Definition tfree (v0 vn a T v : Z) : Z := T - tk a (v - v0) - tk a (v - vn).

Lemma tfree_swap : forall v0 vn a T v, tfree v0 vn a T v = tfree vn v0 a T v.
Proof. intros; unfold tfree; lia. Qed.

Lemma Nf_swap : forall v0 vn a T v, Nf v0 vn a T v = Nf vn v0 a T v.
Proof. intros; unfold Nf; lia. Qed.

Lemma Nf_le_tfree : forall v0 vn a T v, 0 < a -> Nf v0 vn a T v <= tfree v0 vn a T v + 1.
Proof.
  intros v0 vn a T v Ha. unfold Nf, tfree.
  pose proof (tk_le_fl a (v - v0) Ha). pose proof (tk_le_fl a (v - vn) Ha). lia.
Qed.

Lemma Nf_pred_le_tfree : forall v0 vn a T v, 0 < a -> Nf v0 vn a T (v - 1) <= tfree v0 vn a T v + 1.
Proof.
  intros v0 vn a T v Ha. unfold Nf, tfree.
  pose proof (tk_le_fl_pred a (v - v0) Ha). pose proof (tk_le_fl_pred a (v - vn) Ha).
  replace (v - 1 - v0) with (v - v0 - 1) by lia. replace (v - 1 - vn) with (v - vn - 1) by lia. lia.
Qed.

(** What a good path for the request is. *)
Definition good_path (v0 vn a T ds v adj : Z) : Prop :=
  0 <= tfree v0 vn a T v /\ Z.abs adj <= tfree v0 vn a T v /\
  (0 < adj -> v < v0 \/ v < vn) /\ (adj < 0 -> v0 < v \/ vn < v) /\
  Z.abs (F v0 vn a T v + 2 * adj - ds) <= 1 /\
  (0 < adj -> adj < Nf v0 vn a T v) /\ (adj < 0 -> - adj < Nf v0 vn a T (v - 1)).

(** ** F between the two end velocities *)

Section Mid.
  Variables vl a ta r T : Z.
  Hypothesis Ha : 0 < a.
  Hypothesis Hta : 0 <= ta.
  Hypothesis Hr : 1 <= r <= a.
  Let vh := vl + a * ta + r.

  Definition s_split_ (t : Z) : Z :=
    2 * (vl + a * t) * T - a * t * t + a * (ta - t) * (ta - t) + r * (2 * (ta - t) + 1).

  Lemma F_mid1 : forall t j, 0 <= t <= ta -> 0 <= j <= r ->
    F vl vh a T (vl + a * t + j) = s_split_ t + 2 * j * (T - ta - 1).
  Proof.
    intros t j Ht Hj. unfold F, vh.
    replace (vl + a * t + j - vl) with (a * t + j) by lia.
    replace (vl + a * t + j - (vl + a * ta + r)) with (- (a * (ta - t) + (r - j))) by ring.
    rewrite Lf_opp, !Lf_at by lia. unfold s_split_. ring.
  Qed.

  Lemma F_mid2 : forall t j, 1 <= t <= ta -> 0 <= j <= a - r ->
    F vl vh a T (vl + a * t - j) = s_split_ t - 2 * j * (T - ta).
  Proof.
    intros t j Ht Hj. unfold F, vh.
    replace (vl + a * t - j - vl) with (a * (t - 1) + (a - j)) by ring.
    replace (vl + a * t - j - (vl + a * ta + r)) with (- (a * (ta - t) + (r + j))) by ring.
    rewrite Lf_opp, !Lf_at by lia. unfold s_split_. ring.
  Qed.

  Lemma F_vl : F vl vh a T vl = s_split_ 0.
  Proof. rewrite <- (Z.add_0_r vl) at 2. pose proof (F_mid1 0 0) as H.
    replace (vl + a * 0 + 0) with (vl + 0) in H by lia. rewrite H by lia. ring. Qed.

  Lemma F_vh : F vl vh a T vh = s_split_ ta + 2 * r * (T - ta - 1).
  Proof. unfold vh at 2. apply F_mid1; lia. Qed.

  Lemma tfree_vh : tfree vl vh a T vh = T - ta - 1.
  Proof.
    unfold tfree, vh. replace (vl + a * ta + r - vl) with (a * ta + r) by lia.
    rewrite Z.sub_diag, tk_0, tk_pos by lia. lia.
  Qed.

  Lemma tfree_mid2 : forall t j, 1 <= t <= ta -> 0 <= j <= a - r ->
    tfree vl vh a T (vl + a * t - j) = T - ta - 1.
  Proof.
    intros t j Ht Hj. unfold tfree, vh.
    replace (vl + a * t - j - vl) with (a * (t - 1) + (a - j)) by ring.
    replace (vl + a * t - j - (vl + a * ta + r)) with (- (a * (ta - t) + (r + j))) by ring.
    rewrite tk_opp, !tk_pos by lia. lia.
  Qed.

  Lemma tfree_mid1 : forall t j, 0 <= t <= ta -> 0 <= j <= r ->
    T - ta - 2 <= tfree vl vh a T (vl + a * t + j).
  Proof.
    intros t j Ht Hj. unfold tfree, vh.
    replace (vl + a * t + j - vl) with (a * t + j) by lia.
    replace (vl + a * t + j - (vl + a * ta + r)) with (- (a * (ta - t) + (r - j))) by ring.
    rewrite tk_opp.
    assert (tk a (a * t + j) <= t + 1) by (apply tk_le_iff; nia).
    assert (tk a (a * (ta - t) + (r - j)) <= ta - t + 1) by (apply tk_le_iff; nia).
    lia.
  Qed.
End Mid.

Lemma quot_half : forall x, x <= 0 -> 0 <= - Z.quot x 2 /\ 2 * (- Z.quot x 2) <= - x <= 2 * (- Z.quot x 2) + 1.
Proof.
  intros x Hx. replace x with (- (- x)) by lia. rewrite Z.quot_opp_l by lia.
  rewrite Z.quot_div_nonneg by lia.
  pose proof (Z.div_mod (- x) 2). pose proof (Z.mod_pos_bound (- x) 2). lia.
Qed.

Lemma quot_half_pos : forall x, 0 <= x -> 0 <= Z.quot x 2 /\ 2 * Z.quot x 2 <= x <= 2 * Z.quot x 2 + 1.
Proof.
  intros x Hx. rewrite Z.quot_div_nonneg by lia.
  pose proof (Z.div_mod x 2). pose proof (Z.mod_pos_bound x 2). lia.
Qed.

Lemma sandwich : forall N j x, 0 < N -> 2 * N * j <= 2 * x * N < 2 * N * j + 2 * N -> j = x.
Proof. intros N j x HN H. assert (j < x + 1) by nia. assert (x < j + 1) by nia. lia. Qed.

Lemma sandwich_le : forall N j x, 0 < N -> 2 * N * j <= 2 * x * N -> j <= x.
Proof. intros N j x HN H. nia. Qed.

(** adjust_curve_mid with the two velocities in order. *)
Definition mid_core (v0 vn : Z) (t_total ds v_low v_high a : Z) : res (option distance_path) :=
  let! _ := assert (negb (a =? 0)) in
  let t_acc := Z.quot (v_high - v_low - 1) a in
  let k := 2 * (v_low - v_high + a * t_total) in
  let m := v_low - v_high + a * t_acc + 2 * (v_high - a * t_acc) * t_total + a * t_acc * t_acc in
  if k =? 0 then
    Ok (Some (mk_path v0 vn a (v_low + a) t_total 0))
  else
    let smax := k * t_acc + m in
    let smin := (2 * v_high - t_acc * a) * t_acc
                + v_high - t_acc * a + v_low
                + 2 * v_low * (t_total - t_acc - 1) in
    if (smax <? ds) || (smin >? ds) then Ok None
    else
      let! _ := assert (k >? 0) in
      let! _ := assert (ds - m + k >=? 0) in
      let t := Z.quot (ds - m + k) k in
      let s_high := k * t + m in
      let s_split := (2 * v_low + a * t) * t
                     + 2 * (v_low + a * t) * (t_total - t_acc - 1)
                     + v_high - (t_acc - t) * a + v_low + t * a
                     + (2 * v_high - (t_acc - t) * a) * (t_acc - t) in
      let! (v_flat, s) :=
        (if ds >=? s_split then
           let v_max := v_high - a * (t_acc - t) in
           let! _ := assert (negb (2 * (t_total - t_acc - 1) =? 0)) in
           let v_flat := v_max - Z.quot (s_high - ds) (2 * (t_total - t_acc - 1)) in
           Ok (v_flat, s_high - 2 * (v_max - v_flat) * (t_total - t_acc - 1))
         else
           let v_min := v_low + a * t in
           let! _ := assert (negb (2 * (t_total - t_acc) =? 0)) in
           let v_flat := v_min - Z.quot (s_split - ds) (2 * (t_total - t_acc)) in
           Ok (v_flat, s_split - 2 * (v_min - v_flat) * (t_total - t_acc))) in
      Ok (Some (mk_path v0 vn a v_flat t_total (Z.quot (ds - s) 2))).

Lemma adjust_curve_mid_core : forall T ds v0 vn a,
  adjust_curve_mid T ds v0 vn a =
  if v0 <=? vn then mid_core v0 vn T ds v0 vn a else mid_core v0 vn T ds vn v0 a.
Proof. intros. unfold adjust_curve_mid, mid_core. destruct (v0 <=? vn); reflexivity. Qed.

(** Outcome of the middle search. *)
Definition mid_result (v0 vn T ds vl vh a : Z) (o : res (option distance_path)) : Prop :=
  match o with
  | Ok None => vh - vl < a * T /\ (ds < F vl vh a T vl \/ F vl vh a T vh < ds)
  | Ok (Some p) => exists v adj, p = mk_path v0 vn a v T adj /\ vl <= v <= vh /\ adj <= 0 /\
      ((vh - vl = a * T /\ adj = 0 /\ 0 <= tfree vl vh a T v /\
        F vl vh a T v = F vl vh a T vl /\ F vl vh a T v = F vl vh a T vh) \/
       (vh - vl < a * T /\ good_path vl vh a T ds v adj /\
        F vl vh a T vl <= ds <= F vl vh a T vh))
  | _ => False
  end.

Lemma mid_core_eq : forall v0 vn T ds vl a, 0 < a -> 1 <= T ->
  mid_result v0 vn T ds vl vl a (mid_core v0 vn T ds vl vl a).
Proof.
  intros v0 vn T ds vl a Ha HT. unfold mid_core.
  destruct (Z.eqb_spec a 0); [lia|]. cbn [negb assert bind].
  replace (vl - vl - 1) with (- (1)) by lia. rewrite Z.quot_opp_l by lia.
  assert (Hk : 2 * (vl - vl + a * T) > 0) by nia.
  destruct (Z.eqb_spec (2 * (vl - vl + a * T)) 0); [lia|].
  assert (EF : F vl vl a T vl = 2 * vl * T).
  { unfold F. rewrite Z.sub_diag. pose proof (Lf_at a 0 0 Ha). rewrite Z.mul_0_r, Z.add_0_r in H.
    rewrite H by lia. ring. }
  assert (ET : tfree vl vl a T vl = T).
  { unfold tfree. rewrite Z.sub_diag, tk_0 by lia. lia. }
  assert (GP : ds = 2 * vl * T -> good_path vl vl a T ds vl 0).
  { intros ->. unfold good_path. rewrite ET, EF. repeat split; try lia. }
  destruct (Z.eq_dec a 1) as [->|Hn1].
  - change (- (1 ÷ 1)) with (-1).
    match goal with |- context [if ?c then _ else _] => destruct c eqn:Ec end.
    { unfold mid_result. rewrite EF. split; lia. }
    assert (Hds : ds = 2 * vl * T) by lia. subst ds.
    destruct (Z.gtb_spec (2 * (vl - vl + 1 * T)) 0); [|lia]. cbn [assert bind].
    match goal with |- context [assert ?c] => destruct c eqn:Ec2 end; [|lia]. cbn [assert bind].
    match goal with |- context [Z.quot ?x (2 * (vl - vl + 1 * T))] =>
      replace x with 0 by ring end.
    rewrite Z.quot_0_l by lia.
    match goal with |- context [if ?c then _ else _] => destruct c eqn:Ec3 end; [|lia].
    match goal with |- context [assert ?c] => destruct c eqn:Ec4 end; [|lia]. cbn [assert bind].
    match goal with |- context [Z.quot ?x (2 * (T - -1 - 1))] =>
      replace x with (1 * (2 * (T - -1 - 1))) by ring end.
    rewrite Z.quot_mul by lia.
    exists vl, 0. split.
    { f_equal; [lia|]. match goal with |- Z.quot ?x 2 = 0 => replace x with 0 by ring end. reflexivity. }
    split; [lia|]. split; [lia|]. right. split; [lia|]. split; [apply GP; auto|]. lia.
  - assert (E1 : - (1 ÷ a) = 0) by (rewrite Z.quot_small by lia; reflexivity). rewrite E1.
    match goal with |- context [if ?c then _ else _] => destruct c eqn:Ec end.
    { unfold mid_result. rewrite EF. split; nia. }
    assert (Hds : ds = 2 * vl * T) by lia. subst ds.
    destruct (Z.gtb_spec (2 * (vl - vl + a * T)) 0); [|lia]. cbn [assert bind].
    match goal with |- context [assert ?c] => destruct c eqn:Ec2 end; [|lia]. cbn [assert bind].
    match goal with |- context [Z.quot ?x (2 * (vl - vl + a * T))] =>
      replace x with (1 * (2 * (vl - vl + a * T))) by ring end.
    rewrite Z.quot_mul by lia.
    match goal with |- context [if ?c then _ else _] => destruct c eqn:Ec3 end; [exfalso; nia|].
    match goal with |- context [assert ?c] => destruct c eqn:Ec4 end; [|lia]. cbn [assert bind].
    match goal with |- context [Z.quot ?x (2 * (T - 0))] =>
      replace x with (a * (2 * (T - 0))) by ring end.
    rewrite Z.quot_mul by lia.
    exists vl, 0. split.
    { f_equal; [lia|]. match goal with |- Z.quot ?x 2 = 0 => replace x with 0 by ring end. reflexivity. }
    split; [lia|]. split; [lia|]. right. split; [lia|]. split; [apply GP; auto|]. lia.
Qed.

Lemma good_path_neg : forall v0 vn a T ds v s, 0 < a ->
  0 <= tfree v0 vn a T v -> F v0 vn a T v = s -> ds <= s ->
  (s <= ds \/ (s - ds < F v0 vn a T v - F v0 vn a T (v - 1) /\ (v0 < v \/ vn < v))) ->
  good_path v0 vn a T ds v (Z.quot (ds - s) 2) /\ Z.quot (ds - s) 2 <= 0.
Proof.
  intros v0 vn a T ds v s Ha Htf HF Hle Hc.
  pose proof (quot_half (ds - s) ltac:(lia)) as Hq. set (q := Z.quot (ds - s) 2) in *. clearbody q.
  pose proof (F_diff v0 vn a T (v - 1) Ha) as HD. replace (v - 1 + 1) with v in HD by lia.
  pose proof (Nf_pred_le_tfree v0 vn a T v Ha) as HN.
  split; [|lia]. unfold good_path. rewrite HF. repeat split; try lia.
Qed.

Lemma good_path_pos : forall v0 vn a T ds v s, 0 < a ->
  0 <= tfree v0 vn a T v -> F v0 vn a T v = s -> s <= ds ->
  (ds <= s \/ (ds - s < F v0 vn a T (v + 1) - F v0 vn a T v /\ (v < v0 \/ v < vn))) ->
  good_path v0 vn a T ds v (Z.quot (ds - s) 2).
Proof.
  intros v0 vn a T ds v s Ha Htf HF Hle Hc.
  pose proof (quot_half_pos (ds - s) ltac:(lia)) as Hq. set (q := Z.quot (ds - s) 2) in *. clearbody q.
  pose proof (F_diff v0 vn a T v Ha) as HD.
  pose proof (Nf_le_tfree v0 vn a T v Ha) as HN.
  unfold good_path. rewrite HF. repeat split; try lia.
Qed.

Lemma mid_core_lt : forall v0 vn T ds vl vh a, 0 < a -> 1 <= T -> vl < vh -> vh - vl <= a * T ->
  mid_result v0 vn T ds vl vh a (mid_core v0 vn T ds vl vh a).
Proof.
  intros v0 vn T ds vl vh a Ha HT Hlt Hd. unfold mid_core.
  destruct (Z.eqb_spec a 0); [lia|]. cbn [negb assert bind].
  rewrite Z.quot_div_nonneg by lia.
  set (ta := (vh - vl - 1) / a). set (r := vh - vl - a * ta).
  assert (Hta : 0 <= ta) by (apply Z.div_pos; lia).
  assert (Hr : 1 <= r <= a).
  { unfold r, ta. pose proof (Z.div_mod (vh - vl - 1) a). pose proof (Z.mod_pos_bound (vh - vl - 1) a). lia. }
  assert (Evh : vh = vl + a * ta + r) by (unfold r; lia). clearbody ta r.
  set (S := s_split_ vl a ta r T).
  assert (HS1 : forall t, S (t + 1) = S t + 2 * r * (T - ta - 1) + 2 * (a - r) * (T - ta)).
  { intro t. unfold S, s_split_. ring. }
  assert (Fl : F vl vh a T vl = S 0) by (rewrite Evh; apply F_vl; lia).
  assert (Fh : F vl vh a T vh = S ta + 2 * r * (T - ta - 1)).
  { rewrite Evh at 1. rewrite Evh at 1. apply F_vh; lia. }
  destruct (Z.eqb_spec (2 * (vl - vh + a * T)) 0) as [K0|K0].
  { (* only one profile: d = a T *)
    assert (Hx : a * T = a * ta + r) by lia.
    assert (Hx1 : a * (T - ta) = r) by lia.
    assert (Hx2 : T - ta = 1).
    { assert (0 < T - ta) by nia. assert (T - ta < 2) by nia. lia. }
    assert (HTa : T = ta + 1) by lia. subst T.
    assert (Hra : r = a) by nia. clear Hx Hx1. subst r.
    unfold mid_result. exists (vl + a), 0. split; [auto|]. split; [nia|]. split; [lia|]. left.
    split; [lia|]. split; [lia|].
    assert (Ev : F vl vh a (ta + 1) (vl + a) = S 0).
    { replace (vl + a) with (vl + a * 0 + a) by lia. rewrite Evh.
      rewrite F_mid1 by lia. unfold S. ring. }
    split; [|split].
    - rewrite Evh. destruct (Z.eq_dec ta 0) as [->|].
      + replace (vl + a * 0 + a) with (vl + a) by lia. unfold tfree.
        replace (vl + a - vl) with a by lia. rewrite Z.sub_diag, tk_0 by lia.
        pose proof (tk_pos a 0 a Ha). replace (a * 0 + a) with a in H by lia. rewrite H by lia. lia.
      + replace (vl + a) with (vl + a * 1 - 0) by lia. rewrite tfree_mid2 by lia. lia.
    - rewrite Ev. lia.
    - rewrite Ev, Fh. unfold S, s_split_. ring. }
  assert (HN2 : 1 <= T - ta) by nia.
  assert (HN1 : 0 <= T - ta - 1) by lia.
  match goal with |- context [?k * ta + ?m <? ds] =>
    assert (Ek : k = 2 * r * (T - ta - 1) + 2 * (a - r) * (T - ta));
    [rewrite Evh; ring| assert (Em : m = S 0 + 2 * r * (T - ta - 1))];
    [unfold S, s_split_; rewrite Evh; ring|];
    set (k_ := k) in *; set (m_ := m) in * end.
  assert (Hkpos : 0 < k_) by (assert (0 <= k_) by (rewrite Ek; nia); lia).
  assert (HSt : forall t, S t = k_ * t + S 0).
  { intro t. rewrite Ek. unfold S, s_split_. ring. }
  match goal with |- context [(?mn >? ds)] =>
    assert (Emin : mn = S 0) by (unfold S, s_split_; rewrite Evh; ring); rewrite Emin; clear Emin end.
  destruct ((k_ * ta + m_ <? ds) || (S 0 >? ds)) eqn:Ein.
  { unfold mid_result. rewrite Fl, Fh, (HSt ta). unfold k_ in K0, Hkpos. split; lia. }
  destruct (Z.gtb_spec k_ 0); [|lia]. cbn [assert bind].
  assert (Hnum : 0 <= ds - m_ + k_).
  { assert (0 <= 2 * (a - r) * (T - ta)) by nia. lia. }
  destruct (Z.geb_spec (ds - m_ + k_) 0); [|lia]. cbn [assert bind].
  rewrite (Z.quot_div_nonneg (ds - m_ + k_)) by lia.
  set (t := (ds - m_ + k_) / k_).
  assert (Ht0 : 0 <= t) by (apply Z.div_pos; lia).
  assert (Hti : k_ * t <= ds - m_ + k_ < k_ * t + k_).
  { unfold t. pose proof (Z.div_mod (ds - m_ + k_) k_). pose proof (Z.mod_pos_bound (ds - m_ + k_) k_). lia. }
  clearbody t.
  assert (Ht1 : t <= ta + 1) by nia.
  match goal with |- context [ds >=? ?s] =>
    assert (Es : s = S t) by (unfold S, s_split_; rewrite Evh; ring); rewrite Es; clear Es end.
  assert (Hlim : t = ta + 1 -> ds = S ta + 2 * r * (T - ta - 1)).
  { intros ->. rewrite HSt. nia. }
  assert (Fin : F vl vh a T vl <= ds <= F vl vh a T vh) by (rewrite Fl, Fh, (HSt ta); lia).
  assert (Hstrict : vh - vl < a * T) by (unfold k_ in Hkpos; lia).
  (* high part *)
  destruct (Z.geb_spec ds (S t)) as [Hb|Hb].
  - assert (HN : 0 < T - ta - 1).
    { assert (k_ * t + m_ = S t + 2 * r * (T - ta - 1)) by (rewrite HSt; lia). nia. }
    match goal with |- context [assert ?c] => destruct c eqn:Ec4 end; [|lia]. cbn [assert bind].
    rewrite (Z.quot_div_nonneg (k_ * t + m_ - ds)) by lia.
    set (j := (k_ * t + m_ - ds) / (2 * (T - ta - 1))).
    assert (Hj0 : 0 <= j) by (apply Z.div_pos; lia).
    assert (Hj : 2 * (T - ta - 1) * j <= k_ * t + m_ - ds < 2 * (T - ta - 1) * j + 2 * (T - ta - 1)).
    { unfold j. pose proof (Z.div_mod (k_ * t + m_ - ds) (2 * (T - ta - 1))).
      pose proof (Z.mod_pos_bound (k_ * t + m_ - ds) (2 * (T - ta - 1))). lia. }
    clearbody j.
    assert (Esh : k_ * t + m_ = S t + 2 * r * (T - ta - 1)) by (rewrite HSt; lia).
    destruct (Z.eq_dec t (ta + 1)) as [Et|Et].
    + (* only the end point *)
      specialize (Hlim Et). subst t. rewrite HS1 in Hb. 
      assert (a = r) by nia. subst a.
      assert (j = r).
      { rewrite HSt in Hlim. assert (k_ * (ta + 1) + m_ - ds = 2 * (T - ta - 1) * r) by lia. nia. }
      subst j. unfold mid_result.
      match goal with |- exists v adj, Some (mk_path _ _ _ ?v1 _ (Z.quot (ds - ?s1) 2)) = _ /\ _ => idtac | |- _ => idtac end.
      eexists _, _. split; [reflexivity|].
      match goal with |- vl <= ?v1 <= vh /\ _ => assert (Ev : v1 = vh) by (rewrite Evh; ring); rewrite Ev end.
      match goal with |- context [Z.quot ?x 2] => assert (Eq0 : x = 0) end.
      { rewrite Hlim. rewrite HSt in *. nia. }
      rewrite Eq0. cbn [Z.quot]. split; [lia|]. split; [reflexivity|]. right. split; [lia|].
      split; [|exact Fin]. unfold good_path. rewrite Fh. rewrite Evh. rewrite tfree_vh by lia.
      change (0 ÷ 2) with 0. repeat split; lia.
    + assert (Htta : t <= ta) by lia.
      assert (Hjr : j <= r) by nia.
      eexists _, _. split; [reflexivity|].
      match goal with |- vl <= ?v1 <= vh /\ _ =>
        assert (Ev : v1 = vl + a * t + (r - j)) by (rewrite Evh; ring); rewrite Ev; clear Ev end.
      match goal with |- context [Z.quot (ds - ?x) 2] =>
        assert (Es : x = S t + 2 * (r - j) * (T - ta - 1)) end.
      { rewrite Esh, Evh. ring. }
      rewrite Es. clear Es.
      assert (HF : F vl vh a T (vl + a * t + (r - j)) = S t + 2 * (r - j) * (T - ta - 1)).
      { rewrite Evh. apply F_mid1; lia. }
      split; [rewrite Evh; nia|].
      destruct (fun H => good_path_neg vl vh a T ds (vl + a * t + (r - j)) _ Ha H HF) as [G1 G2].
      * rewrite Evh. pose proof (tfree_mid1 vl a ta r T Ha Hr t (r - j)). lia.
      * lia.
      * destruct (Z.eq_dec j r) as [->|]; [left; lia|]. right. split.
        -- replace (vl + a * t + (r - j) - 1) with (vl + a * t + (r - j - 1)) by lia.
           rewrite HF. rewrite Evh. rewrite F_mid1 by lia. fold S. lia.
        -- left. assert (0 <= a * t) by (apply Z.mul_nonneg_nonneg; lia). lia.
      * split; [exact G2|]. right. auto.
  - match goal with |- context [assert ?c] => destruct c eqn:Ec4 end; [|lia]. cbn [assert bind].
    assert (Ht1' : 1 <= t).
    { destruct (Z.eq_dec t 0) as [->|]; lia. }
    rewrite (Z.quot_div_nonneg (S t - ds)) by lia.
    set (j := (S t - ds) / (2 * (T - ta))).
    assert (Hj0 : 0 <= j) by (apply Z.div_pos; lia).
    assert (Hj : 2 * (T - ta) * j <= S t - ds < 2 * (T - ta) * j + 2 * (T - ta)).
    { unfold j. pose proof (Z.div_mod (S t - ds) (2 * (T - ta))).
      pose proof (Z.mod_pos_bound (S t - ds) (2 * (T - ta))). lia. }
    clearbody j.
    assert (Hds : ds >= S t - 2 * (a - r) * (T - ta)) by (rewrite HSt; lia).
    destruct (Z.eq_dec t (ta + 1)) as [Et|Et].
    + specialize (Hlim Et). subst t.
      assert (Hja : j = a - r).
      { rewrite (HS1 ta) in Hj. rewrite Hlim in Hj. apply (sandwich (T - ta)); lia. }
      subst j.
      eexists _, _. split; [reflexivity|].
      match goal with |- vl <= ?v1 <= vh /\ _ => assert (Ev : v1 = vh) by (rewrite Evh; ring); rewrite Ev end.
      match goal with |- context [Z.quot ?x 2] => assert (Eq0 : x = 0) end.
      { rewrite (HS1 ta). rewrite Hlim, Evh. ring. }
      rewrite Eq0. change (0 ÷ 2) with 0. split; [lia|]. split; [reflexivity|]. right. split; [lia|].
      split; [|exact Fin]. unfold good_path. rewrite Fh. rewrite Evh. rewrite tfree_vh by lia.
      repeat split; lia.
    + assert (Hjr : j <= a - r) by (apply (sandwich_le (T - ta)); lia).
      eexists _, _. split; [reflexivity|].
      match goal with |- context [Z.quot (ds - ?x) 2] =>
        assert (Es : x = S t - 2 * j * (T - ta)) by ring end.
      rewrite Es. clear Es.
      assert (HF : F vl vh a T (vl + a * t - j) = S t - 2 * j * (T - ta)).
      { rewrite Evh. apply F_mid2; lia. }
      split; [assert (a <= a * t <= a * ta) by (clear - Ha Ht1' Et Ht1; nia); lia|].
      destruct (fun H => good_path_neg vl vh a T ds (vl + a * t - j) _ Ha H HF) as [G1 G2].
      * rewrite Evh. rewrite tfree_mid2 by lia. lia.
      * lia.
      * destruct (Z.eq_dec j (a - r)) as [->|]; [left; lia|]. right. split.
        -- replace (vl + a * t - j - 1) with (vl + a * t - (j + 1)) by lia.
           rewrite HF. rewrite Evh. rewrite F_mid2 by lia. fold S. lia.
        -- left. assert (a <= a * t) by (clear - Ha Ht1'; nia). lia.
      * split; [exact G2|]. right. auto.
Qed.

Lemma mid_result_swap : forall v0 vn T ds vl vh a o,
  vl = v0 /\ vh = vn \/ vl = vn /\ vh = v0 ->
  mid_result v0 vn T ds vl vh a o ->
  match o with
  | Ok None => vh - vl < a * T /\ (ds < F v0 vn a T vl \/ F v0 vn a T vh < ds)
  | Ok (Some p) => exists v adj, p = mk_path v0 vn a v T adj /\ vl <= v <= vh /\ adj <= 0 /\
      ((vh - vl = a * T /\ adj = 0 /\ 0 <= tfree v0 vn a T v /\
        F v0 vn a T v = F v0 vn a T vl /\ F v0 vn a T v = F v0 vn a T vh) \/
       (vh - vl < a * T /\ good_path v0 vn a T ds v adj /\
        F v0 vn a T vl <= ds <= F v0 vn a T vh))
  | _ => False
  end.
Proof.
  intros v0 vn T ds vl vh a o [[-> ->]|[-> ->]] H; [exact H|].
  unfold mid_result in H. destruct o as [[p|]| |]; auto.
  - destruct H as (v & adj & E & B & Hn & H). exists v, adj. repeat split; try tauto; try lia.
    destruct H as [(H1 & H2 & H3 & H4 & H5)|(H1 & H2 & H3)].
    + left. rewrite !(F_swap v0 vn), (tfree_swap v0 vn). auto.
    + right. split; [auto|]. split; [|rewrite !(F_swap v0 vn); auto].
      unfold good_path in *. rewrite !(F_swap v0 vn), (tfree_swap v0 vn), !(Nf_swap v0 vn). tauto.
  - rewrite !(F_swap v0 vn). auto.
Qed.

Lemma adjust_curve_mid_spec : forall T ds v0 vn a, 0 < a -> 1 <= T -> Z.abs (v0 - vn) <= a * T ->
  let vl := Z.min v0 vn in let vh := Z.max v0 vn in
  match adjust_curve_mid T ds v0 vn a with
  | Ok None => vh - vl < a * T /\ (ds < F v0 vn a T vl \/ F v0 vn a T vh < ds)
  | Ok (Some p) => exists v adj, p = mk_path v0 vn a v T adj /\ vl <= v <= vh /\ adj <= 0 /\
      ((vh - vl = a * T /\ adj = 0 /\ 0 <= tfree v0 vn a T v /\
        F v0 vn a T v = F v0 vn a T vl /\ F v0 vn a T v = F v0 vn a T vh) \/
       (vh - vl < a * T /\ good_path v0 vn a T ds v adj /\
        F v0 vn a T vl <= ds <= F v0 vn a T vh))
  | _ => False
  end.
Proof.
  intros T ds v0 vn a Ha HT Hd vl vh. apply mid_result_swap; [unfold vl, vh; lia|].
  rewrite adjust_curve_mid_core.
  destruct (Z.leb_spec v0 vn).
  - unfold vl, vh. rewrite Z.min_l, Z.max_r by lia.
    destruct (Z.eq_dec v0 vn) as [<-|]; [apply mid_core_eq|apply mid_core_lt]; lia.
  - unfold vl, vh. rewrite Z.min_r, Z.max_l by lia. apply mid_core_lt; lia.
Qed.

(** ** F outside the two end velocities *)

Definition hi_ok (ds v0 vn a vmax T : Z) : Prop :=
  exists M, v0 <= M /\ vn <= M /\ M <= vmax /\ 0 <= tfree v0 vn a T M /\ ds <= F v0 vn a T M.

Definition lo_ok (ds v0 vn a vmax T : Z) : Prop :=
  exists m, m <= v0 /\ m <= vn /\ - vmax <= m /\ 0 <= tfree v0 vn a T m /\ F v0 vn a T m <= ds.

Lemma tfree_opp : forall v0 vn a T v, tfree (- v0) (- vn) a T (- v) = tfree v0 vn a T v.
Proof.
  intros. unfold tfree. replace (- v - - v0) with (- (v - v0)) by lia.
  replace (- v - - vn) with (- (v - vn)) by lia. rewrite !tk_opp. reflexivity.
Qed.

Lemma lo_ok_opp : forall ds v0 vn a vmax T, 0 < a ->
  hi_ok (- ds) (- v0) (- vn) a vmax T -> lo_ok ds v0 vn a vmax T.
Proof.
  intros ds v0 vn a vmax T Ha (M & H1 & H2 & H3 & H4 & H5). exists (- M).
  rewrite <- (tfree_opp v0 vn), Z.opp_involutive.
  pose proof (F_opp v0 vn a T (- M) Ha) as E. rewrite Z.opp_involutive in E. lia.
Qed.

Lemma Nf_above : forall v0 vn a T v M, 0 < a -> v0 <= v -> vn <= v -> v < M ->
  0 <= tfree v0 vn a T M -> 1 <= Nf v0 vn a T v.
Proof.
  intros v0 vn a T v M Ha H0 Hn HM Hf. unfold Nf. unfold tfree in Hf.
  pose proof (tk_fl_pos a (v + 1 - v0) Ha ltac:(lia)) as E0.
  pose proof (tk_fl_pos a (v + 1 - vn) Ha ltac:(lia)) as En.
  replace (v + 1 - v0 - 1) with (v - v0) in E0 by lia.
  replace (v + 1 - vn - 1) with (v - vn) in En by lia.
  pose proof (tk_mono a (v + 1 - v0) (M - v0) Ha ltac:(lia)).
  pose proof (tk_mono a (v + 1 - vn) (M - vn) Ha ltac:(lia)). lia.
Qed.

Lemma Nf_below : forall v0 vn a T v m, 0 < a -> v < v0 -> v < vn -> m <= v ->
  0 <= tfree v0 vn a T m -> 1 <= Nf v0 vn a T v.
Proof.
  intros v0 vn a T v m Ha H0 Hn Hm Hf. unfold Nf. unfold tfree in Hf.
  pose proof (tk_fl_neg a (v - v0) Ha ltac:(lia)) as E0.
  pose proof (tk_fl_neg a (v - vn) Ha ltac:(lia)) as En.
  pose proof (tk_mono a (v - v0) (m - v0) Ha ltac:(lia)).
  pose proof (tk_mono a (v - vn) (m - vn) Ha ltac:(lia)). lia.
Qed.

Lemma Nf_mid : forall v0 vn a T v, 0 < a -> Z.min v0 vn <= v < Z.max v0 vn ->
  Z.abs (v0 - vn) <= a * T -> 0 <= Nf v0 vn a T v.
Proof.
  intros v0 vn a T v Ha Hv Hd.
  assert (P : forall vl vh, vl <= v < vh -> vh - vl <= a * T -> 0 <= Nf vl vh a T v).
  { intros vl vh H1 H2. unfold Nf. rewrite (fl_neg a (v - vh)) by lia.
    destruct (split_pos a (v - vl)) as (q1 & s1 & E1 & Hq1 & Hs1); try lia.
    destruct (split_pos a (- (v - vh) - 1)) as (q2 & s2 & E2 & Hq2 & Hs2); try lia.
    rewrite E1, E2, !fl_at by lia. nia. }
  destruct (Z_le_gt_dec v0 vn).
  - apply P; lia.
  - rewrite Nf_swap. apply P; lia.
Qed.

(** Reaching M >= both ends takes at least |v0 - vn| / a ticks. *)
Lemma feas_diff : forall v0 vn a T M, 0 < a -> 0 <= T ->
  (v0 <= M /\ vn <= M) \/ (M <= v0 /\ M <= vn) -> 0 <= tfree v0 vn a T M ->
  Z.abs (v0 - vn) <= a * T.
Proof.
  intros v0 vn a T M Ha HT H Hf. unfold tfree in Hf.
  pose proof (tk_bounds a (M - v0) Ha). pose proof (tk_bounds a (M - vn) Ha).
  pose proof (tk_nonneg a (M - v0) Ha). pose proof (tk_nonneg a (M - vn) Ha). nia.
Qed.

Lemma F_steps : forall v0 vn a T v (n : nat), 0 < a ->
  (forall x, v <= x < v + Z.of_nat n -> 0 <= Nf v0 vn a T x) ->
  F v0 vn a T v <= F v0 vn a T (v + Z.of_nat n).
Proof.
  intros v0 vn a T v n Ha. induction n as [|n IH]; intros H.
  - rewrite Z.add_0_r. lia.
  - assert (F v0 vn a T v <= F v0 vn a T (v + Z.of_nat n)) by (apply IH; intros; apply H; lia).
    pose proof (F_diff v0 vn a T (v + Z.of_nat n) Ha) as HD.
    assert (0 <= Nf v0 vn a T (v + Z.of_nat n)) by (apply H; lia).
    replace (v + Z.of_nat (S n)) with (v + Z.of_nat n + 1) by lia. lia.
Qed.

Lemma F_le : forall v0 vn a T v w, 0 < a -> v <= w ->
  (forall x, v <= x < w -> 0 <= Nf v0 vn a T x) -> F v0 vn a T v <= F v0 vn a T w.
Proof.
  intros v0 vn a T v w Ha Hvw H.
  replace w with (v + Z.of_nat (Z.to_nat (w - v))) by lia. apply F_steps; auto.
  intros; apply H; lia.
Qed.

Lemma F_lt : forall v0 vn a T v w, 0 < a -> v < w ->
  (forall x, v <= x < w -> 1 <= Nf v0 vn a T x) -> F v0 vn a T v < F v0 vn a T w.
Proof.
  intros v0 vn a T v w Ha Hvw H.
  assert (F v0 vn a T (v + 1) <= F v0 vn a T w).
  { apply F_le; [lia|lia|]. intros x Hx. specialize (H x ltac:(lia)). lia. }
  pose proof (F_diff v0 vn a T v Ha). specialize (H v ltac:(lia)). lia.
Qed.

(** ** The bounds of the search *)

Lemma bounds_feasible : forall v0 vn a T tl th, 0 < a ->
  0 <= tl -> 0 <= th ->
  2 * a * tl <= T * a - (v0 - vn) < 2 * a * tl + 2 * a ->
  2 * a * th <= T * a - (vn - v0) < 2 * a * th + 2 * a ->
  let M := Z.max (v0 + tl * a) (vn + th * a) in
  v0 <= M /\ vn <= M /\ 0 <= tfree v0 vn a T M /\
  (forall x, v0 <= x -> vn <= x -> 0 <= tfree v0 vn a T x -> x <= M) /\
  T - 1 <= tl + th <= T.
Proof.
  intros v0 vn a T tl th Ha H0l H0h Hl Hh M.
  assert (Hsum : T - 1 <= tl + th <= T) by nia.
  assert (Hm0 : v0 <= M) by nia. assert (Hmn : vn <= M) by nia.
  split; [auto|]. split; [auto|].
  split; [|split; [|auto]].
  - unfold tfree. destruct (Z.eq_dec (tl + th) T) as [E|E].
    + assert (tk a (M - v0) <= tl) by (apply tk_le_iff; try lia; unfold M; nia).
      assert (tk a (M - vn) <= th) by (apply tk_le_iff; try lia; unfold M; nia). lia.
    + assert (Et : T = tl + th + 1) by lia.
      destruct (Z_le_gt_dec (vn + th * a) (v0 + tl * a)) as [C|C].
      * assert (EM : M = v0 + tl * a) by (unfold M; lia).
        assert (tk a (M - v0) <= tl) by (apply tk_le_iff; nia).
        assert (tk a (M - vn) <= th + 1) by (apply tk_le_iff; nia). lia.
      * assert (EM : M = vn + th * a) by (unfold M; lia).
        assert (tk a (M - v0) <= tl + 1) by (apply tk_le_iff; nia).
        assert (tk a (M - vn) <= th) by (apply tk_le_iff; nia). lia.
  - intros x Hx0 Hxn Hf. unfold tfree in Hf.
    pose proof (tk_nonneg a (x - v0) Ha). pose proof (tk_nonneg a (x - vn) Ha).
    pose proof (proj2 (tk_bounds a (x - v0) Ha)) as K0. pose proof (proj2 (tk_bounds a (x - vn) Ha)) as Kn.
    rewrite Z.abs_eq in K0, Kn by lia.
    destruct (Z_le_gt_dec (tk a (x - v0)) tl) as [C|C].
    + unfold M. nia.
    + assert (tk a (x - vn) <= th) by nia. unfold M. nia.
Qed.
