(** The arc length tables. *)
From Coq Require Import Reals ZArith List Lia Lra Ranalysis5 MVT.
From Verif Require Import Base Polynomials PolyProofs TaylorProofs.
Import ListNotations.
Open Scope R_scope.

(** ** What a table is *)

(** Neighbouring segments of a list. *)
Definition neighbours {A} (l : list A) (a b : A) : Prop :=
  exists k, nth_error l k = Some a /\ nth_error l (S k) = Some b.

Definition is_table (segs : list int_seg) : Prop :=
  (forall s, In s segs -> seg_int s <> []) /\
  forall s1 s2, neighbours segs s1 s2 ->
    seg_start s1 < seg_start s2 /\
    polyval (seg_int s1) (seg_start s2 - seg_start s1) = polyval (seg_int s2) 0.

(** ** Walking along the construction *)

(** [walk P st v d segs st' v' d']: the segments lead from parameter [st] with
    value [v] and slope [d] to [st'], [v'], [d']; at each later knot the slope
    satisfies [P]. *)
Fixpoint walk (P : R -> R -> Prop) (st v d : R) (segs : list int_seg) (st' v' d' : R) : Prop :=
  match segs with
  | [] => st = st' /\ v = v' /\ d = d'
  | s :: r =>
      seg_start s = st /\ seg_int s <> [] /\ polyval (seg_int s) 0 = v /\
      derivable_pt_lim (polyval (seg_int s)) 0 d /\
      exists st1 v1 d1, st < st1 /\
        polyval (seg_int s) (st1 - st) = v1 /\
        derivable_pt_lim (polyval (seg_int s)) (st1 - st) d1 /\
        P st1 d1 /\ walk P st1 v1 d1 r st' v' d'
  end.

Lemma walk_app : forall P l l' st v d st1 v1 d1 st' v' d',
  walk P st v d l st1 v1 d1 -> walk P st1 v1 d1 l' st' v' d' ->
  walk P st v d (l ++ l') st' v' d'.
Proof.
  induction l as [|s l IH]; intros l' st v d st1 v1 d1 st' v' d' H H'.
  - destruct H as [<- [<- <-]]; exact H'.
  - cbn [app walk] in *; destruct H as [A [B [C [D [a [b [c [E [F [G [Q W]]]]]]]]]]].
    repeat split; auto; exists a, b, c; repeat split; auto; eapply IH; eauto.
Qed.

Lemma walk_P : forall (P Q : R -> R -> Prop) l st v d st' v' d',
  (forall a b, P a b -> Q a b) -> walk P st v d l st' v' d' -> walk Q st v d l st' v' d'.
Proof.
  intros P Q l; induction l as [|s l IH]; intros st v d st' v' d' PQ H; [exact H|].
  cbn [walk] in *; destruct H as [A [B [C [D [a [b [c [E [F [G [K W]]]]]]]]]]].
  repeat split; auto; exists a, b, c; repeat split; auto.
Qed.

Definition smooth (P : R -> R -> Prop) (s1 s2 : int_seg) : Prop :=
  seg_start s1 < seg_start s2 /\
  polyval (seg_int s1) (seg_start s2 - seg_start s1) = polyval (seg_int s2) 0 /\
  exists d, derivable_pt_lim (polyval (seg_int s1)) (seg_start s2 - seg_start s1) d /\
            derivable_pt_lim (polyval (seg_int s2)) 0 d /\ P (seg_start s2) d.

Lemma walk_neighbours : forall P l st v d st' v' d' s1 s2,
  walk P st v d l st' v' d' -> neighbours l s1 s2 -> smooth P s1 s2.
Proof.
  induction l as [|s l IH]; intros st v d st' v' d' s1 s2 H [k [N1 N2]].
  - destruct k; discriminate.
  - cbn [walk] in H; destruct H as [A [B [C [D [a [b [c [E [F [G [K W]]]]]]]]]]].
    destruct k as [|k].
    + cbn in N1, N2; inversion N1; subst s1; clear N1.
      destruct l as [|t l]; [discriminate|]; cbn in N2; inversion N2; subst s2.
      cbn [walk] in W; destruct W as [W1 [W2 [W3 [W4 _]]]]; subst st.
      rewrite <- W1 in *; unfold smooth; repeat split; auto; [rewrite F; auto|].
      exists c; repeat split; auto.
    + apply (IH a b c st' v' d'); auto; exists k; auto.
Qed.

Lemma walk_full : forall P l st v d st' v' d' s,
  walk P st v d l st' v' d' -> In s l -> seg_int s <> [].
Proof.
  induction l as [|t l IH]; intros st v d st' v' d' s H I; [destruct I|].
  cbn [walk] in H; destruct H as [A [B [C [D [a [b [c [E [F [G [K W]]]]]]]]]]].
  destruct I as [<-|I]; [auto|eapply IH; eauto].
Qed.

(** ** One segment *)

Lemma set_first_int : forall g v, exists r,
  set_first (polyint g) v = Ok (v :: r) /\
  (forall h, polyval (v :: r) h = v + polyval (polyint g) h) /\
  forall h, derivable_pt_lim (polyval (v :: r)) h (polyval g h).
Proof.
  intros g v; unfold polyint; eexists; split; [reflexivity|].
  set (r := mapi_from _ 0 g).
  split; [intro h; cbn; ring|].
  intro h; rewrite <- (der_polyint g).
  change (polyval (der (polyint g)) h) with (polyval (der (v :: r)) h); apply der_lim.
Qed.

Lemma taylor_length : forall p t l, (2 <= length p)%nat ->
  taylor_sequence p t 7 = Ok l -> length l = 7%nat /\ polyval l 0 = sqrt (polyval p t).
Proof.
  intros p t l L H; destruct (taylor_total p t 7 L) as [r [E Lr]].
  rewrite H in E; inversion E; subst l; split; [cbn; rewrite Lr; reflexivity|cbn; ring].
Qed.

Lemma polyoffset_7 : forall l o, length l = 7%nat ->
  exists q, polyoffset l o = Ok q /\ length q = 7%nat /\ forall t, polyval q t = polyval l (t + o).
Proof.
  intros l o L.
  destruct (offset_loop_fit l [] o (repeat 0 (length l))) as [q E];
    [rewrite L; apply rows_fit_19; lia|].
  exists q; destruct (polyoffset_spec l o q E) as [A B]; split; [exact E|]; split; [lia|auto].
Qed.

Definition speed_at (p : list R) (st d : R) : Prop := d = sqrt (polyval p st).

(** What a round of the loop does. *)
Lemma build_loop_S : forall p low step k i prev sum, (2 <= length p)%nat -> step <> 0 ->
  length prev = 7%nat ->
  let t0 := low + step * (INR i + 1 / 2) in
  exists sq w int,
    taylor_sequence p t0 7 = Ok sq /\ length sq = 7%nat /\ polyval sq 0 = sqrt (polyval p t0) /\
    (forall h, polyval w h = (step - h) / step * polyval prev h + h / step * polyval sq (h - step)) /\
    seg_int int <> [] /\ seg_start int = t0 - step /\
    (forall h, polyval (seg_int int) h = sum + polyval (polyint w) h) /\
    (forall h, derivable_pt_lim (polyval (seg_int int)) h (polyval w h)) /\
    build_loop p low step (S k) i prev sum =
      (let! (segs, s, last) := build_loop p low step k (S i) sq (sum + polyval (polyint w) step) in
       Ok (int :: segs, s, last)).
Proof.
  intros p low step k i prev sum L S0 LP t0.
  destruct (taylor_total p t0 7 L) as [r [ET LR]].
  set (sq := sqrt (polyval p t0) :: r) in *.
  destruct (taylor_length p t0 sq L ET) as [LS VS].
  destruct (polyoffset_7 sq (- step) LS) as [off [EO [LO VO]]].
  destruct (polyweight_spec prev 0 off step) as [w [EW [_ [LW VW]]]];
    [intro E; rewrite E in LP; discriminate|intro E; rewrite E in LO; discriminate|auto|].
  destruct (set_first_int w sum) as [q [EI [VI DI]]].
  exists sq, w, (mk_seg (t0 - step) (sum :: q)).
  split; [exact ET|]; split; [exact LS|]; split; [exact VS|].
  split; [intro h; rewrite VW, VO; unfold Rminus; field; lra|].
  split; [cbn; congruence|]; split; [reflexivity|]; split; [exact VI|]; split; [exact DI|].
  cbn [build_loop]; fold t0; rewrite ET; cbn [bind]; rewrite EO; cbn [bind].
  rewrite EW; cbn [bind]; rewrite EI; reflexivity.
Qed.

Lemma build_loop_walk : forall p low step k i prev sum,
  (2 <= length p)%nat -> 0 < step -> length prev = 7%nat -> (1 <= i)%nat ->
  exists segs sum' last, build_loop p low step k i prev sum = Ok (segs, sum', last) /\
    length segs = k /\ length last = 7%nat /\
    (k = O -> last = prev) /\
    (polyval prev 0 = sqrt (polyval p (low + step * (INR i - 1 / 2))) ->
     polyval last 0 = sqrt (polyval p (low + step * (INR (i + k) - 1 / 2)))) /\
    walk (speed_at p) (low + step * (INR i - 1 / 2)) sum (polyval prev 0) segs
         (low + step * (INR (i + k) - 1 / 2)) sum' (polyval last 0).
Proof.
  intros p low step k; induction k as [|k IH]; intros i prev sum L S0 LP I1.
  - exists [], sum, prev; rewrite Nat.add_0_r; cbn; repeat split; auto.
  - destruct (build_loop_S p low step k i prev sum L ltac:(lra) LP)
      as [sq [w [int [ET [LS [VS [VW [NI [SI [VI [DI E]]]]]]]]]]].
    set (t0 := low + step * (INR i + 1 / 2)) in *.
    destruct (IH (S i) sq (sum + polyval (polyint w) step) L S0 LS ltac:(lia))
      as [segs [sum' [last [EL [LL [LT [_ [HS W]]]]]]]].
    rewrite E, EL; cbn [bind].
    exists (int :: segs), sum', last; split; [reflexivity|]; split; [cbn; lia|]; split; [auto|].
    split; [discriminate|].
    replace (i + S k)%nat with (S i + k)%nat by lia.
    assert (ES : low + step * (INR (S i) - 1 / 2) = t0) by (unfold t0; rewrite S_INR; field).
    assert (EP : low + step * (INR i - 1 / 2) = t0 - step) by (unfold t0; field).
    rewrite ES in W, HS.
    split; [intros _; apply HS; exact VS|].
    cbn [walk]; rewrite EP; split; [exact SI|]; split; [exact NI|].
    split; [rewrite VI, polyint_0; ring|].
    split.
    { replace (polyval prev 0) with (polyval w 0); [apply DI|]. rewrite VW; field; lra. }
    exists t0, (sum + polyval (polyint w) step), (polyval sq 0).
    replace (t0 - (t0 - step)) with step by ring.
    split; [lra|]; split; [apply VI|]; split.
    { replace (polyval sq 0) with (polyval w step); [apply DI|].
      rewrite VW; replace (step - step) with 0 by ring; field; lra. }
    split; [exact VS|exact W].
Qed.

Lemma step_pos : forall low high n, low < high -> 0 < (high - low) / INR (n + 1).
Proof.
  intros low high n H; apply Rdiv_lt_0_compat; [lra|]; apply lt_0_INR; lia.
Qed.

(** The whole construction. *)
Lemma build_segments_spec : forall p low high n,
  (2 <= length p)%nat -> low < high ->
  exists segs s0 mid slast,
    build_segments p low high n = Ok segs /\
    segs = s0 :: mid ++ [slast] /\ length mid = S n /\
    seg_start s0 = low /\ seg_start slast = high /\ seg_int slast <> [] /\
    polyval (seg_int s0) 0 = 0 /\
    forall s1 s2, neighbours segs s1 s2 ->
      smooth (fun st d => low = 0 -> st < high -> speed_at p st d) s1 s2.
Proof.
  intros p low high n L LH; unfold build_segments.
  set (step := (high - low) / INR (n + 1)).
  assert (SP : 0 < step) by (apply step_pos; auto).
  assert (SH : low + step * INR (n + 1) = high)
    by (unfold step; field; apply not_0_INR; lia).
  destruct (taylor_total p (step * (1 / 2)) 7 L) as [r [ET LR]].
  set (prev := sqrt (polyval p (step * (1 / 2))) :: r) in *.
  destruct (taylor_length p _ prev L ET) as [LP VP].
  destruct (polyoffset_7 prev (- step * (1 / 2)) LP) as [off [EO [LO VO]]].
  destruct (set_first_int off 0) as [q [EI [VI DI]]].
  rewrite ET; cbn [bind]; rewrite EO; cbn [bind]; rewrite EI; cbn [bind].
  set (v1 := 0 + polyval (polyint off) (step / 2)).
  destruct (build_loop_walk p low step n 1 prev v1 L SP LP ltac:(lia))
    as [segs [sum [last [EL [LL [LT [_ [HS W]]]]]]]].
  rewrite EL; cbn [bind].
  destruct (set_first_int last sum) as [q2 [EI2 [VI2 DI2]]].
  rewrite EI2; cbn [bind].
  destruct (polyoffset_7 last (step * (1 / 2)) LT) as [off3 [EO3 [LO3 VO3]]].
  rewrite EO3; cbn [bind].
  set (sum3 := sum + polyval (polyint last) (step * (1 / 2))).
  destruct (set_first_int off3 sum3) as [q3 [EI3 [VI3 DI3]]].
  rewrite EI3; cbn [bind].
  set (s0 := mk_seg low (0 :: q)); set (s2 := mk_seg (high - step / 2) (sum :: q2)).
  set (s3 := mk_seg high (sum3 :: q3)).
  exists (s0 :: segs ++ [s2; s3]), s0, (segs ++ [s2]), s3.
  split; [reflexivity|].
  split; [rewrite <- app_assoc; reflexivity|].
  split; [rewrite app_length; cbn; lia|].
  split; [reflexivity|]; split; [reflexivity|]; split; [cbn; congruence|].
  split; [cbn; ring|].
  intros a b N.
  set (P := fun st d => low = 0 -> st < high -> speed_at p st d).
  assert (E1 : low + step * (INR 1 - 1 / 2) = low + step / 2) by (cbn; field).
  assert (E2 : low + step * (INR (1 + n) - 1 / 2) = high - step / 2)
    by (rewrite Nat.add_comm; lra).
  rewrite E1, E2 in W; rewrite E1, E2 in HS.
  apply (walk_neighbours P (s0 :: segs ++ [s2; s3]) low 0 (polyval off 0)
           (high + 1) (polyval (seg_int s3) 1) (polyval off3 1)); [|exact N].
  cbn [walk]; split; [reflexivity|]; split; [cbn; congruence|].
  split; [cbn; ring|]; split; [apply DI|].
  exists (low + step / 2), v1, (polyval prev 0).
  replace (low + step / 2 - low) with (step / 2) by ring.
  split; [lra|]; split; [unfold s0, v1; cbn [seg_int]; rewrite VI; reflexivity|].
  split.
  { replace (polyval prev 0) with (polyval off (step / 2)); [apply DI|].
    rewrite VO; f_equal; field. }
  split.
  { intros Z _; unfold speed_at; rewrite VP, Z; f_equal; f_equal; field. }
  apply (walk_app P segs [s2; s3] _ _ _ (high - step / 2) sum (polyval last 0)).
  { apply (walk_P (speed_at p)); [intros st d H _ _; exact H|exact W]. }
  cbn [walk]; split; [reflexivity|]; split; [cbn; congruence|].
  split; [unfold s2; cbn [seg_int]; rewrite VI2, polyint_0; ring|]; split; [apply DI2|].
  exists high, sum3, (polyval off3 0).
  replace (high - (high - step / 2)) with (step * (1 / 2)) by field.
  split; [lra|]; split; [apply VI2|]; split.
  { replace (polyval off3 0) with (polyval last (step * (1 / 2))); [apply DI2|].
    rewrite VO3; f_equal; ring. }
  split; [intros _ Z; lra|].
  split; [reflexivity|]; split; [cbn; congruence|].
  split; [unfold s3; cbn [seg_int]; rewrite VI3, polyint_0; ring|]; split; [apply DI3|].
  exists (high + 1), (polyval (seg_int s3) 1), (polyval off3 1).
  replace (high + 1 - high) with 1 by ring.
  split; [lra|]; split; [reflexivity|]; split; [apply DI3|].
  split; [intros _ Z; lra|auto].
Qed.

Lemma neighbours_In : forall A (l : list A) a b, neighbours l a b -> In a l /\ In b l.
Proof.
  intros A l a b [k [H1 H2]]; split; eapply nth_error_In; eauto.
Qed.

(** ** Searching in a table *)

Lemma starts_mono : forall segs, is_table segs -> forall j i a b,
  nth_error segs i = Some a -> nth_error segs j = Some b -> (i < j)%nat ->
  seg_start a < seg_start b.
Proof.
  intros segs [_ T] j; induction j as [|j IH]; intros i a b Ha Hb L; [lia|].
  destruct (nth_error segs j) as [c|] eqn:Hc.
  - assert (C := proj1 (T c b (ex_intro _ j (conj Hc Hb)))).
    destruct (Nat.eq_dec i j) as [->|N]; [congruence|].
    assert (seg_start a < seg_start c) by (apply (IH i); auto; lia); lra.
  - apply nth_error_None in Hc.
    assert (j < length segs)%nat
      by (assert (nth_error segs (S j) <> None) by congruence; apply nth_error_Some in H; lia).
    lia.
Qed.

Lemma get_first : forall s, seg_int s <> [] -> get (seg_int s) 0 = Ok (polyval (seg_int s) 0).
Proof. intros [st [|a r]] H; cbn in *; [congruence|]; unfold get; cbn; f_equal; ring. Qed.

(** Every admissible search gives the value of the segment around [t]. *)
Lemma eval_int_between : forall segs s1 s2 t r, is_table segs -> neighbours segs s1 s2 ->
  seg_start s1 <= t <= seg_start s2 -> search_ok seg_start segs t r ->
  eval_int r segs t = Ok (polyval (seg_int s1) (t - seg_start s1)).
Proof.
  intros segs s1 s2 t r T N B S; destruct T as [NE TT] eqn:ET.
  assert (M := starts_mono segs T).
  destruct (TT s1 s2 N) as [_ J].
  destruct (neighbours_In _ _ _ _ N) as [I1 I2].
  destruct N as [k [N1 N2]].
  destruct r as [i|i]; cbn [search_ok eval_int] in *.
  - destruct S as [a [Ha Ea]]; unfold get at 1; rewrite Ha; cbn [unwrap bind].
    destruct (Nat.lt_trichotomy i k) as [C|[C|C]].
    + assert (H := M k i a s1 Ha N1 C); lra.
    + subst i; rewrite Ha in N1; inversion N1; subst a.
      rewrite get_first by auto; f_equal; f_equal; lra.
    + destruct (Nat.eq_dec i (Datatypes.S k)) as [E|E].
      * subst i; rewrite Ha in N2; inversion N2; subst a.
        rewrite get_first by auto; f_equal; rewrite <- J; f_equal; lra.
      * assert (H := M i (Datatypes.S k) s2 a N2 Ha ltac:(lia)); lra.
  - destruct S as [Li [Sl Sr]].
    assert (LK : (Datatypes.S k < length segs)%nat)
      by (apply nth_error_Some; congruence).
    destruct i as [|i].
    + exfalso; destruct (nth_error segs 0) as [a|] eqn:Ha.
      * assert (t < seg_start a) by (apply Sr; auto).
        destruct k as [|k]; [rewrite Ha in N1; inversion N1; subst; lra|].
        assert (H1 := M (Datatypes.S k) 0%nat a s1 Ha N1 ltac:(lia)); lra.
      * apply nth_error_None in Ha; lia.
    + cbn [pred_index bind].
      destruct (nth_error segs i) as [a|] eqn:Ha; [|apply nth_error_None in Ha; lia].
      assert (A := Sl i a eq_refl Ha).
      assert (EI : i = k).
      { destruct (Nat.lt_trichotomy i k) as [C|[C|C]]; auto; exfalso.
        - destruct (nth_error segs (Datatypes.S i)) as [b|] eqn:Hb.
          + assert (B' := Sr b eq_refl).
            destruct (Nat.eq_dec (Datatypes.S i) k) as [E|E].
            * rewrite E in Hb; rewrite Hb in N1; inversion N1; subst; lra.
            * assert (H := M k (Datatypes.S i) b s1 Hb N1 ltac:(lia)); lra.
          + apply nth_error_None in Hb; lia.
        - destruct (Nat.eq_dec i (Datatypes.S k)) as [E|E].
          + rewrite E in Ha; rewrite Ha in N2; inversion N2; subst; lra.
          + assert (H := M i (Datatypes.S k) s2 a N2 Ha ltac:(lia)); lra. }
      subst i; unfold get; rewrite N1; cbn [unwrap bind]; reflexivity.
Qed.

(** ** The bisection of find_param *)

Lemma eps_pos : 0 < f64_epsilon.
Proof. unfold f64_epsilon; apply Rinv_0_lt_compat; apply pow_lt; lra. Qed.

Lemma bisect_spec : forall fuel p l low high,
  high - low <= 2 ^ fuel * f64_epsilon -> low < high ->
  polyval p low <= l -> l < polyval p high ->
  exists t t', bisect fuel p l low high = Ok t /\
    low <= t /\ t < t' /\ t' <= high /\ t' <= t + f64_epsilon /\
    polyval p t <= l /\ l < polyval p t'.
Proof.
  induction fuel as [|fuel IH]; intros p l low high F LH A B; cbn [bisect].
  - cbn [pow] in F; destruct (Rlt_dec f64_epsilon (high - low)); [lra|].
    exists low, high; repeat split; auto; lra.
  - destruct (Rlt_dec f64_epsilon (high - low)) as [C|C].
    + set (mid := (high + low) * (1 / 2)).
      assert (LM : low < mid < high) by (unfold mid; lra).
      cbn [pow] in F.
      assert (FM : mid - low <= 2 ^ fuel * f64_epsilon /\ high - mid <= 2 ^ fuel * f64_epsilon)
        by (unfold mid; lra).
      clearbody mid.
      destruct (Rlt_dec l (polyval p mid)) as [D|D]; [|apply Rnot_lt_le in D].
      * destruct (IH p l low mid) as [t [t' [E [H1 [H2 [H3 H4]]]]]]; try lra.
        exists t, t'; repeat split; auto; try lra; apply H4.
      * destruct (IH p l mid high) as [t [t' [E [H1 [H2 [H3 H4]]]]]]; try lra.
        exists t, t'; repeat split; auto; try lra; apply H4.
    + exists low, high; repeat split; auto; lra.
Qed.

Definition first_of (s : int_seg) : R := polyval (seg_int s) 0.

Lemma nth_last_split : forall A (l : list A) a, nth_error (l ++ [a]) (length l) = Some a.
Proof. intros; rewrite nth_error_app2, Nat.sub_diag by lia; reflexivity. Qed.

(** find_param on a table, for a length between the first and the last value. *)
Lemma find_param_spec : forall segs l r fuel, is_table segs ->
  search_ok first_of segs l r ->
  (forall s, nth_error segs 0 = Some s -> first_of s <= l) ->
  (exists s, nth_error segs (length segs - 1) = Some s /\ l <= first_of s) ->
  (forall s1 s2, neighbours segs s1 s2 ->
     seg_start s2 - seg_start s1 <= 2 ^ fuel * f64_epsilon) ->
  exists t, find_param fuel r segs l = Ok t /\
    ((exists s, In s segs /\ t = seg_start s /\ first_of s = l) \/
     exists s1 s2 t', neighbours segs s1 s2 /\
       seg_start s1 <= t /\ t < t' /\ t' <= seg_start s2 /\ t' <= t + f64_epsilon /\
       polyval (seg_int s1) (t - seg_start s1) <= l /\
       l < polyval (seg_int s1) (t' - seg_start s1)).
Proof.
  intros segs l r fuel T S F0 [sl [HL FL]] FU; destruct r as [i|i]; cbn [search_ok find_param] in *.
  - destruct S as [a [Ha Ea]]; unfold get; rewrite Ha; cbn [unwrap bind].
    exists (seg_start a); split; [reflexivity|]; left; exists a; repeat split; auto.
    eapply nth_error_In; eauto.
  - destruct S as [Li [Sl Sr]].
    assert (NZ : (0 < length segs)%nat).
    { destruct segs; [|cbn; lia]; cbn in HL; discriminate. }
    destruct i as [|i].
    { exfalso; destruct (nth_error segs 0) as [a|] eqn:Ha.
      - assert (H := Sr a eq_refl); assert (H' := F0 a eq_refl); lra.
      - apply nth_error_None in Ha; lia. }
    destruct (nth_error segs (Datatypes.S i)) as [s2|] eqn:H2.
    2:{ exfalso; apply nth_error_None in H2.
        assert (i = length segs - 1)%nat by lia; subst i.
        assert (H := Sl _ sl eq_refl HL); lra. }
    assert (LT : (Datatypes.S i < length segs)%nat) by (apply nth_error_Some; congruence).
    destruct (nth_error segs i) as [s1|] eqn:H1; [|apply nth_error_None in H1; lia].
    assert (N : neighbours segs s1 s2) by (exists i; auto).
    assert (A := Sl i s1 eq_refl H1); assert (B := Sr s2 eq_refl).
    destruct (proj2 T s1 s2 N) as [LS J].
    destruct (Nat.ltb_spec (Datatypes.S i) (length segs)) as [_|C]; [|lia].
    cbn [assert bind pred_index]; unfold get; rewrite H2, H1; cbn [unwrap bind].
    destruct (bisect_spec fuel (seg_int s1) l 0 (seg_start s2 - seg_start s1))
      as [t [t' [E [K1 [K2 [K3 [K4 [K5 K6]]]]]]]].
    + assert (H := FU s1 s2 N); lra.
    + lra.
    + unfold first_of in A; lra.
    + rewrite J; exact B.
    + rewrite E; cbn [bind].
      exists (t + seg_start s1); split; [reflexivity|]; right.
      exists s1, s2, (t' + seg_start s1); split; [auto|].
      replace (t + seg_start s1 - seg_start s1) with t by ring.
      replace (t' + seg_start s1 - seg_start s1) with t' by ring.
      repeat split; auto; lra.
Qed.

(** ** Exactness when the speed is a polynomial *)

Lemma poly_const : forall f, (forall x, derivable_pt_lim f x 0) -> forall x, f x = f 0.
Proof.
  intros f H x.
  assert (pr : derivable f) by (intro y; exists 0; apply H).
  assert (C : constant f).
  { apply (null_derivative_1 f pr); intro y; apply derive_pt_eq_0; apply H. }
  apply C.
Qed.

(** Equal slopes give equal increments. *)
Lemma same_slope : forall g q st, (forall h, polyval g h = polyval q (st + h)) ->
  forall h, polyval (polyint g) h = polyval (polyint q) (st + h) - polyval (polyint q) st.
Proof.
  intros g q st E h.
  set (f := fun h => polyval (polyint g) h - polyval (polyint q) (st + h)).
  assert (D : forall x, derivable_pt_lim f x 0).
  { intro x; unfold f.
    replace 0 with (polyval g x - polyval q (st + x) * (0 + 1)) by (rewrite E; ring).
    apply (derivable_pt_lim_minus (polyval (polyint g)) (fun h => polyval (polyint q) (st + h)));
      [apply polyint_lim|].
    apply (derivable_pt_lim_comp (fct_cte st + id)%F (polyval (polyint q))).
    - apply derivable_pt_lim_plus; [apply derivable_pt_lim_const|apply derivable_pt_lim_id].
    - apply polyint_lim. }
  assert (C := poly_const f D h); unfold f in C; rewrite polyint_0, Rplus_0_r in C; lra.
Qed.

Section Exact.
Variables (p q : list R) (high : R).
Hypothesis Lp : (2 <= length p)%nat.
Hypothesis Lq : (length q <= 7)%nat.
Hypothesis sq_q : forall u, polyval p u = polyval q u * polyval q u.
Hypothesis pos_q : forall u, 0 <= u <= high -> 0 < polyval q u.

Definition exact_seg (s : int_seg) : Prop :=
  forall h, polyval (seg_int s) h = polyval (polyint q) (seg_start s + h).

Lemma taylor_exact : forall t l, 0 <= t <= high -> taylor_sequence p t 7 = Ok l ->
  forall h, polyval l h = polyval q (t + h).
Proof.
  intros t l B E; apply (taylor_of_square p q t 7); auto; lia.
Qed.

Lemma build_loop_exact : forall step k i prev sum segs sum' last,
  0 < step -> (1 <= i)%nat -> length prev = 7%nat ->
  step * (INR (i + k) - 1 / 2) <= high ->
  (forall h, polyval prev h = polyval q (step * (INR i - 1 / 2) + h)) ->
  sum = polyval (polyint q) (step * (INR i - 1 / 2)) ->
  build_loop p 0 step k i prev sum = Ok (segs, sum', last) ->
  Forall exact_seg segs /\ length last = 7%nat /\
  sum' = polyval (polyint q) (step * (INR (i + k) - 1 / 2)) /\
  forall h, polyval last h = polyval q (step * (INR (i + k) - 1 / 2) + h).
Proof.
  intros step k; induction k as [|k IH]; intros i prev sum segs sum' last SP I1 LP HB HP HS E.
  - rewrite Nat.add_0_r in *; cbn in E; inversion E; subst; auto.
  - destruct (build_loop_S p 0 step k i prev sum Lp ltac:(lra) LP)
      as [sq [w [int [ET [LS [VS [VW [NI [SI [VI [DI EB]]]]]]]]]]].
    rewrite EB in E; apply bind_Ok in E as [[[segs1 s1] last1] [E1 E2]].
    inversion E2; subst segs s1 last1; clear E2.
    set (t0 := 0 + step * (INR i + 1 / 2)) in *.
    assert (T0 : t0 = step * (INR (S i) - 1 / 2)) by (unfold t0; rewrite S_INR; field).
    assert (TP : t0 - step = step * (INR i - 1 / 2)) by (unfold t0; field).
    assert (BT : 0 <= t0 <= high).
    { assert (0 <= INR i) by apply pos_INR.
      split; [unfold t0; nra|].
      apply Rle_trans with (2 := HB); rewrite T0.
      apply Rmult_le_compat_l; [lra|].
      apply Rplus_le_compat_r, le_INR; lia. }
    assert (HQ := taylor_exact t0 sq BT ET).
    assert (HW : forall h, polyval w h = polyval q (t0 - step + h)).
    { intro h; rewrite VW, HP, HQ, <- TP.
      replace (t0 + (h - step)) with (t0 - step + h) by ring; field; lra. }
    assert (HI := same_slope w q (t0 - step) HW).
    replace (i + S k)%nat with (S i + k)%nat in * by lia.
    destruct (IH (S i) sq (sum + polyval (polyint w) step) segs1 sum' last SP ltac:(lia) LS HB)
      as [F [L' [S' V']]]; auto.
    + intro h; rewrite HQ, T0; reflexivity.
    + rewrite HI, HS, <- TP, <- T0; replace (t0 - step + step) with t0 by ring; ring.
    + split; [constructor; auto|auto].
      intro h; rewrite VI, HI, SI, HS, <- TP; ring.
Qed.

Lemma build_segments_exact : forall n segs, 0 < high ->
  build_segments p 0 high n = Ok segs -> Forall exact_seg segs.
Proof.
  intros n segs H0 E; unfold build_segments in E.
  set (step := (high - 0) / INR (n + 1)) in *.
  assert (SP : 0 < step) by (apply step_pos; auto).
  assert (IN : 1 <= INR (n + 1)) by (rewrite plus_INR; cbn; assert (0 <= INR n) by apply pos_INR; lra).
  assert (SH : step * INR (n + 1) = high)
    by (unfold step; field; lra).
  assert (HB : step <= high) by (rewrite <- SH; nra).
  destruct (taylor_total p (step * (1 / 2)) 7 Lp) as [r [ET LR]].
  set (prev := sqrt (polyval p (step * (1 / 2))) :: r) in *.
  destruct (taylor_length p _ prev Lp ET) as [LP VP].
  destruct (polyoffset_7 prev (- step * (1 / 2)) LP) as [off [EO [LO VO]]].
  destruct (set_first_int off 0) as [q1 [EI [VI DI]]].
  rewrite ET in E; cbn [bind] in E; rewrite EO in E; cbn [bind] in E.
  rewrite EI in E; cbn [bind] in E.
  set (v1 := 0 + polyval (polyint off) (step / 2)) in *.
  apply bind_Ok in E as [[[segs1 sum] last] [EL E]].
  assert (HQ := taylor_exact (step * (1 / 2)) prev ltac:(lra) ET).
  assert (HO : forall h, polyval off h = polyval q (0 + h)).
  { intro h; rewrite VO, HQ; f_equal; field. }
  assert (HI := same_slope off q 0 HO).
  destruct (build_loop_exact step n 1 prev v1 segs1 sum last SP ltac:(lia) LP)
    as [F [LT [SS HLt]]]; auto.
  - replace (1 + n)%nat with (n + 1)%nat by lia; lra.
  - intro h; rewrite HQ; f_equal; cbn; field.
  - unfold v1; rewrite HI; replace (step * (INR 1 - 1 / 2)) with (0 + step / 2) by (cbn; field).
    rewrite polyint_0; ring.
  - assert (EH : step * (INR (1 + n) - 1 / 2) = high - step / 2)
      by (replace (1 + n)%nat with (n + 1)%nat by lia; lra).
    rewrite EH in *.
    destruct (set_first_int last sum) as [q2 [EI2 [VI2 DI2]]].
    rewrite EI2 in E; cbn [bind] in E.
    destruct (polyoffset_7 last (step * (1 / 2)) LT) as [off3 [EO3 [LO3 VO3]]].
    rewrite EO3 in E; cbn [bind] in E.
    set (sum3 := sum + polyval (polyint last) (step * (1 / 2))) in *.
    destruct (set_first_int off3 sum3) as [q3 [EI3 [VI3 DI3]]].
    rewrite EI3 in E; cbn [bind] in E; inversion E; subst segs; clear E.
    assert (HL2 := same_slope last q _ HLt).
    assert (HO3 : forall h, polyval off3 h = polyval q (high + h)).
    { intro h; rewrite VO3, HLt; f_equal; field. }
    assert (H3 := same_slope off3 q high HO3).
    constructor.
    + intro h; cbn [seg_int seg_start]; rewrite VI, HI, polyint_0; ring.
    + apply Forall_app; split; [exact F|].
      constructor; [|constructor; [|constructor]]; intro h; cbn [seg_int seg_start].
      * rewrite VI2, HL2, SS; ring.
      * rewrite VI3, H3; unfold sum3; rewrite HL2, SS.
        replace (high - step / 2 + step * (1 / 2)) with high by field; ring.
Qed.
End Exact.
