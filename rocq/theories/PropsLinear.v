(** C83: finding the parameter at a distance along a curve (linear_curve.rs). *)
From Coq Require Import Reals List Lra Lia Psatz.
From Verif Require Import Base LinearCurve.
Import ListNotations.
Open Scope R_scope.

(** * Vocabulary *)

(** [L t] is the length of the curve up to parameter [t].  The curve splits every
    part inside the part, and the lengths it reports are off by at most [eta]
    times the true length. *)
Definition measured (eta : R) (curve : splitter) (L : R -> R) (start end_ : R) : Prop :=
  (forall s e, start <= s -> s <= e -> e <= end_ -> L s <= L e)
  /\ forall s e m lo hi, start <= s -> s <= e -> e <= end_ -> curve s e = (m, lo, hi) ->
     s <= m <= e
     /\ (forall l, lo = Some l -> Rabs (l - (L m - L s)) <= eta * (L m - L s))
     /\ (forall h, hi = Some h -> Rabs (h - (L e - L m)) <= eta * (L e - L m)).

(** Both parts of a split are at most [q] times the whole, and the length of
    a part no longer than [delta] is reported. *)
Definition shrinking (q delta : R) (curve : splitter) (L : R -> R) (start end_ : R) : Prop :=
  forall s e m lo hi, start <= s -> s <= e -> e <= end_ -> curve s e = (m, lo, hi) ->
     L m - L s <= q * (L e - L s) /\ L e - L m <= q * (L e - L s)
     /\ (L m - L s <= delta -> lo <> None) /\ (L e - L m <= delta -> hi <> None).

(** Some positions asked for one after the other. *)
Inductive asked (curve : splitter) : node -> node -> Prop :=
| asked_none n : asked curve n n
| asked_more n n1 n2 fuel p t :
    asked curve n n1 -> linear_position fuel curve n1 p = Ok (t, n2) -> asked curve n n2.

(** * Inversion lemmas *)
Section Tree.
Variable curve : splitter.

Definition child (fuel : nat) (s e : R) (lo : option R) : res (R * node) :=
  match lo with
  | Some l => Ok (l, Leaf s e (or_zero lo))
  | None => node_length fuel curve (Leaf s e (or_zero lo))
  end.

Lemma node_length_leaf fuel s e l0 v n' :
  node_length fuel curve (Leaf s e l0) = Ok (v, n') ->
  exists f m lo hi l h low high,
    fuel = S f /\ curve s e = (m, lo, hi)
    /\ child f s m lo = Ok (l, low) /\ child f m e hi = Ok (h, high)
    /\ v = l + h /\ n' = Fork s e (l + h) low high.
Proof.
  destruct fuel as [|f]; [discriminate|].
  cbn [node_length]. destruct (curve s e) as [[m lo] hi] eqn:E.
  fold (child f s m lo). fold (child f m e hi).
  destruct (child f s m lo) as [[l low]| |] eqn:E1; try discriminate.
  destruct (child f m e hi) as [[h high]| |] eqn:E2; try discriminate.
  cbn [bind t_start t_end]. intros H. injection H as <- <-.
  exists f, m, lo, hi, l, h, low, high. repeat split; auto.
Qed.

Lemma node_length_value fuel s e l0 v n' :
  node_length fuel curve (Leaf s e l0) = Ok (v, n') ->
  t_start n' = s /\ t_end n' = e /\ nlength n' = v.
Proof.
  intros H. apply node_length_leaf in H as (f & m & lo & hi & l & h & low & high & _ & _ & _ & _ & -> & ->).
  repeat split.
Qed.

Lemma child_value f s e lo v n' :
  child f s e lo = Ok (v, n') -> t_start n' = s /\ t_end n' = e /\ nlength n' = v.
Proof.
  destruct lo as [l|]; cbn [child or_zero].
  - intros H. injection H as <- <-. repeat split.
  - apply node_length_value.
Qed.

Lemma node_children_leaf fuel s e l0 low high :
  node_children fuel curve (Leaf s e l0) = Ok (low, high) ->
  exists m lo hi l h,
    curve s e = (m, lo, hi) /\ child fuel s m lo = Ok (l, low) /\ child fuel m e hi = Ok (h, high).
Proof.
  cbn [node_children]. destruct (curve s e) as [[m lo] hi] eqn:E.
  intros H. exists m, lo, hi.
  assert (A : forall a b o (k : node -> res (node * node)),
    bind (match o with
          | None => let! (_, n) := node_length fuel curve (Leaf a b (or_zero o)) in Ok n
          | Some _ => Ok (Leaf a b (or_zero o))
          end) k = Ok (low, high) ->
    exists l n, child fuel a b o = Ok (l, n) /\ k n = Ok (low, high)).
  { intros a b [l|] k Hk; cbn [child or_zero bind] in *.
    - exists l, (Leaf a b l). split; [reflexivity|exact Hk].
    - destruct (node_length fuel curve (Leaf a b 0)) as [[l n]| |]; cbn [bind] in Hk; try discriminate.
      exists l, n. split; [reflexivity|exact Hk]. }
  apply A in H as (l & n & H1 & H). apply A in H as (h & n2 & H2 & H).
  injection H as -> ->. exists l, h. repeat split; assumption.
Qed.

Lemma node_pos_inv fuel n p err t n' :
  node_pos fuel curve n p err = Ok (t, n') ->
  (p <= err /\ t = t_start n /\ n' = n)
  \/ (err < p /\ nlength n - p <= err /\ t = t_end n /\ n' = n)
  \/ (err < p /\ err < nlength n - p
      /\ exists f low high, fuel = S f /\ node_children f curve n = Ok (low, high)
         /\ ((p < nlength low /\ exists low', node_pos f curve low p err = Ok (t, low')
                                  /\ n' = Fork (t_start n) (t_end n) (nlength n) low' high)
             \/ (nlength low <= p /\ exists high', node_pos f curve high (p - nlength low) err = Ok (t, high')
                                  /\ n' = Fork (t_start n) (t_end n) (nlength n) low high'))).
Proof.
  destruct fuel as [|f]; [discriminate|]. cbn [node_pos].
  destruct (Rle_dec p err) as [A|A].
  { intros H. injection H as <- <-. left. auto. }
  destruct (Rle_dec (nlength n - p) err) as [B|B].
  { intros H. injection H as <- <-. right; left. repeat split; auto; lra. }
  destruct (node_children f curve n) as [[low high]| |] eqn:E; try discriminate.
  cbn [bind]. intros H. right; right. split; [lra|]. split; [lra|].
  exists f, low, high. split; [reflexivity|]. split; [exact E|].
  destruct (Rlt_dec p (nlength low)) as [C|C].
  - left. split; [exact C|]. destruct (node_pos f curve low p err) as [[t1 low']| |]; cbn [bind] in H; try discriminate.
    injection H as <- <-. exists low'. auto.
  - right. split; [lra|]. destruct (node_pos f curve high (p - nlength low) err) as [[t1 high']| |]; cbn [bind] in H; try discriminate.
    injection H as <- <-. exists high'. auto.
Qed.

(** More fuel gives the same result. *)
Lemma node_length_more f : forall g s e l0 r, (f <= g)%nat ->
  node_length f curve (Leaf s e l0) = Ok r -> node_length g curve (Leaf s e l0) = Ok r.
Proof.
  induction f as [|f IH]; intros g s e l0 r L H; [discriminate|].
  destruct g as [|g]; [lia|].
  cbn [node_length] in *. destruct (curve s e) as [[m lo] hi].
  fold (child f s m lo) in H. fold (child f m e hi) in H. fold (child g s m lo). fold (child g m e hi).
  assert (C : forall a b o v, child f a b o = Ok v -> child g a b o = Ok v).
  { intros a b [l|] v; cbn [child]; [auto|]. apply IH. lia. }
  destruct (child f s m lo) as [[l low]| |] eqn:E1; try discriminate.
  destruct (child f m e hi) as [[h high]| |] eqn:E2; try discriminate.
  rewrite (C _ _ _ _ E1), (C _ _ _ _ E2). exact H.
Qed.

Lemma child_more f g s e lo r : (f <= g)%nat -> child f s e lo = Ok r -> child g s e lo = Ok r.
Proof. destruct lo as [l|]; cbn [child]; [auto|]. apply node_length_more. Qed.

Lemma child_same f g s e lo r r' : child f s e lo = Ok r -> child g s e lo = Ok r' -> r = r'.
Proof.
  intros H H'. apply (child_more f (Nat.max f g)) in H; [|lia].
  apply (child_more g (Nat.max f g)) in H'; [|lia]. congruence.
Qed.

Lemma node_children_same f g n r r' : node_children f curve n = Ok r -> node_children g curve n = Ok r' -> r = r'.
Proof.
  destruct n as [s e l|s e l low high]; [|cbn [node_children]; congruence].
  destruct r as [low high], r' as [low' high']. intros H H'.
  apply node_children_leaf in H as (m & lo & hi & l1 & h1 & E & H1 & H2).
  apply node_children_leaf in H' as (m' & lo' & hi' & l1' & h1' & E' & H1' & H2').
  rewrite E in E'. injection E' as <- <- <-.
  assert (A := child_same _ _ _ _ _ _ _ H1 H1'). assert (B := child_same _ _ _ _ _ _ _ H2 H2').
  congruence.
Qed.

(** ** A tree grows: queries only make leaves into forks. *)
Inductive grown : node -> node -> Prop :=
| grown_same s e l : grown (Leaf s e l) (Leaf s e l)
| grown_fork s e l low high low' high' :
    grown low low' -> grown high high' -> grown (Fork s e l low high) (Fork s e l low' high')
| grown_leaf f s e l low high low' high' :
    node_children f curve (Leaf s e l) = Ok (low, high) ->
    grown low low' -> grown high high' -> grown (Leaf s e l) (Fork s e l low' high').

Lemma grown_refl n : grown n n.
Proof. induction n; constructor; assumption. Qed.

Lemma grown_ends n n' : grown n n' -> t_start n' = t_start n /\ t_end n' = t_end n /\ nlength n' = nlength n.
Proof. destruct 1; repeat split. Qed.

Lemma grown_trans n1 n2 : grown n1 n2 -> forall n3, grown n2 n3 -> grown n1 n3.
Proof.
  induction 1 as [s e l|s e l low high low' high' H1 IH1 H2 IH2|f s e l low high low' high' C H1 IH1 H2 IH2];
    intros n3 H3; [exact H3| |]; inversion H3; subst.
  - constructor; auto.
  - econstructor; [exact C| |]; auto.
Qed.

Lemma node_pos_grown f : forall n p err t n', node_pos f curve n p err = Ok (t, n') -> grown n n'.
Proof.
  induction f as [|f IH]; intros n p err t n' H; [discriminate|].
  apply node_pos_inv in H as [(_ & _ & ->)|[(_ & _ & _ & ->)|(_ & _ & g & low & high & Ef & C & H)]];
    try apply grown_refl.
  injection Ef as <-.
  assert (K : forall low' high', grown low low' -> grown high high' ->
    grown n (Fork (t_start n) (t_end n) (nlength n) low' high')).
  { intros low' high' G1 G2. destruct n as [s e l|s e l lo hi].
    - apply (grown_leaf f _ _ _ low high); assumption.
    - cbn [node_children] in C. injection C as <- <-. constructor; assumption. }
  destruct H as [(_ & low' & H & ->)|(_ & high' & H & ->)]; apply K; try apply grown_refl; eapply IH; exact H.
Qed.

(** What a query answers does not depend on how far the tree has grown. *)
Lemma node_pos_pure f : forall g n1 n2 p err t1 t2 n1' n2',
  grown n1 n2 ->
  node_pos f curve n1 p err = Ok (t1, n1') -> node_pos g curve n2 p err = Ok (t2, n2') -> t1 = t2.
Proof.
  induction f as [|f IH]; intros g n1 n2 p err t1 t2 n1' n2' G H1 H2; [discriminate|].
  destruct (grown_ends _ _ G) as (Es & Ee & El).
  apply node_pos_inv in H1. apply node_pos_inv in H2. rewrite Es, Ee, El in H2.
  destruct H1 as [(A1 & -> & _)|[(A1 & B1 & -> & _)|(A1 & B1 & f1 & low1 & high1 & Ef & C1 & H1)]];
  destruct H2 as [(A2 & -> & _)|[(A2 & B2 & -> & _)|(A2 & B2 & f2 & low2 & high2 & _ & C2 & H2)]];
    try lra; try reflexivity.
  injection Ef as <-.
  assert (K : grown low1 low2 /\ grown high1 high2).
  { destruct G as [s e l|s e l low high low' high' G1 G2|k s e l low high low' high' C G1 G2].
    - assert (E := node_children_same _ _ _ _ _ C1 C2). injection E as <- <-. split; apply grown_refl.
    - cbn [node_children] in C1, C2. injection C1 as <- <-. injection C2 as <- <-. split; assumption.
    - assert (E := node_children_same _ _ _ _ _ C C1). injection E as <- <-.
      cbn [node_children] in C2. injection C2 as <- <-. split; assumption. }
  destruct K as [K1 K2]. destruct (grown_ends _ _ K1) as (_ & _ & Ell). rewrite Ell in H2.
  destruct H1 as [(D1 & x1 & H1 & _)|(D1 & x1 & H1 & _)]; destruct H2 as [(D2 & x2 & H2 & _)|(D2 & x2 & H2 & _)]; try lra.
  - exact (IH _ _ _ _ _ _ _ _ _ K1 H1 H2).
  - exact (IH _ _ _ _ _ _ _ _ _ K2 H1 H2).
Qed.

Lemma asked_grown n n' : asked curve n n' -> grown n n'.
Proof.
  induction 1 as [n|n n1 n2 fuel p t H IH Hp]; [apply grown_refl|].
  eapply grown_trans; [exact IH|]. eapply node_pos_grown. exact Hp.
Qed.

(** ** The nodes of a tree cover the curve. *)
Section Measured.
Variables (eta start end_ : R) (L : R -> R).
Hypothesis eta_pos : 0 <= eta.
Hypothesis M : measured eta curve L start end_.

Definition near (l s e : R) : Prop := Rabs (l - (L e - L s)) <= eta * (L e - L s).

Inductive wf : node -> Prop :=
| wf_leaf s e l : start <= s -> s <= e -> e <= end_ -> near l s e -> wf (Leaf s e l)
| wf_fork s e l low high : start <= s -> s <= e -> e <= end_ -> near l s e ->
    wf low -> wf high -> t_start low = s -> t_end low = t_start high -> t_end high = e ->
    fst (fst (curve s e)) = t_end low ->
    wf (Fork s e l low high).

Lemma wf_range n : wf n -> start <= t_start n /\ t_start n <= t_end n /\ t_end n <= end_
  /\ near (nlength n) (t_start n) (t_end n).
Proof. destruct 1; cbn [t_start t_end nlength]; auto. Qed.

Lemma node_length_wf f : forall s e l0 v n',
  start <= s -> s <= e -> e <= end_ ->
  node_length f curve (Leaf s e l0) = Ok (v, n') -> wf n'.
Proof.
  induction f as [|f IH]; intros s e l0 v n' H1 H2 H3 H; [discriminate|].
  apply node_length_leaf in H as (g & m & lo & hi & l & h & low & high & Eg & E & C1 & C2 & _ & ->).
  injection Eg as <-.
  destruct M as [Mono Ms]. destruct (Ms _ _ _ _ _ H1 H2 H3 E) as (B & N1 & N2).
  assert (K : forall a b o w n, start <= a -> a <= b -> b <= end_ ->
     (forall l, o = Some l -> near l a b) -> child f a b o = Ok (w, n) -> wf n).
  { intros a b [x|] w n A1 A2 A3 N C; cbn [child or_zero] in C.
    - injection C as <- <-. constructor; auto.
    - eapply IH; [| | |exact C]; assumption. }
  assert (W1 : wf low) by (eapply K; [| | | |exact C1]; try lra; exact N1).
  assert (W2 : wf high) by (eapply K; [| | | |exact C2]; try lra; exact N2).
  destruct (child_value _ _ _ _ _ _ C1) as (S1 & S2 & S3).
  destruct (child_value _ _ _ _ _ _ C2) as (T1 & T2 & T3).
  constructor; try assumption; try lra; try congruence; [|rewrite E; cbn [fst]; lra].
  - apply wf_range in W1 as (_ & _ & _ & W1). apply wf_range in W2 as (_ & _ & _ & W2).
    rewrite S1, S2, S3 in W1. rewrite T1, T2, T3 in W2. unfold near in *.
    replace (l + h - (L e - L s)) with ((l - (L m - L s)) + (h - (L e - L m))) by ring.
    eapply Rle_trans; [apply Rabs_triang|]. lra.
Qed.

Lemma node_children_wf f n low high : wf n -> node_children f curve n = Ok (low, high) ->
  wf low /\ wf high /\ t_start low = t_start n /\ t_end low = t_start high /\ t_end high = t_end n
  /\ fst (fst (curve (t_start n) (t_end n))) = t_end low.
Proof.
  intros W H. destruct W as [s e l H1 H2 H3 N|s e l lo hi H1 H2 H3 N W1 W2 E1 E2 E3 E4].
  - apply node_children_leaf in H as (m & lo & hi & x & y & E & C1 & C2).
    destruct M as [Mono Ms]. destruct (Ms _ _ _ _ _ H1 H2 H3 E) as (B & N1 & N2).
    assert (K : forall a b o w n, start <= a -> a <= b -> b <= end_ ->
       (forall l, o = Some l -> near l a b) -> child f a b o = Ok (w, n) -> wf n).
    { intros a b [z|] w n A1 A2 A3 Nz C; cbn [child or_zero] in C.
      - injection C as <- <-. constructor; auto.
      - eapply node_length_wf; [| | |exact C]; assumption. }
    assert (W1 : wf low) by (eapply K; [| | | |exact C1]; try lra; exact N1).
    assert (W2 : wf high) by (eapply K; [| | | |exact C2]; try lra; exact N2).
    destruct (child_value _ _ _ _ _ _ C1) as (S1 & S2 & S3).
    destruct (child_value _ _ _ _ _ _ C2) as (T1 & T2 & T3).
    cbn [t_start t_end]. rewrite E. cbn [fst]. repeat split; auto; congruence.
  - cbn [node_children] in H. injection H as -> ->. cbn [t_start t_end]. repeat split; auto.
Qed.

Lemma grown_wf n n' : grown n n' -> wf n -> wf n'.
Proof.
  induction 1 as [s e l|s e l low high low' high' G1 IH1 G2 IH2|f s e l low high low' high' C G1 IH1 G2 IH2]; intros W.
  - exact W.
  - inversion W; subst.
    destruct (grown_ends _ _ G1) as (A1 & A2 & _). destruct (grown_ends _ _ G2) as (B1 & B2 & _).
    constructor; auto; congruence.
  - destruct (node_children_wf _ _ _ _ W C) as (W1 & W2 & E1 & E2 & E3 & E4). cbn [t_start t_end] in *.
    inversion W; subst.
    destruct (grown_ends _ _ G1) as (A1 & A2 & _). destruct (grown_ends _ _ G2) as (B1 & B2 & _).
    constructor; auto; congruence.
Qed.

Lemma wf_mono n : wf n -> L (t_start n) <= L (t_end n).
Proof. intros W. apply wf_range in W as (A & B & C & _). apply M; assumption. Qed.

(** Where the answer is. *)
Lemma node_pos_within f : forall n p err t n',
  wf n -> node_pos f curve n p err = Ok (t, n') -> t_start n <= t <= t_end n.
Proof.
  induction f as [|f IH]; intros n p err t n' W H; [discriminate|].
  assert (R := wf_range _ W).
  apply node_pos_inv in H as [(_ & -> & _)|[(_ & _ & -> & _)|(_ & _ & g & low & high & Ef & C & H)]]; try lra.
  injection Ef as <-.
  destruct (node_children_wf _ _ _ _ W C) as (W1 & W2 & E1 & E2 & E3 & _).
  assert (R1 := wf_range _ W1). assert (R2 := wf_range _ W2).
  destruct H as [(_ & x & H & _)|(_ & x & H & _)]; apply IH in H; auto; lra.
Qed.

(** Not too far. *)
Lemma node_pos_upper f : forall n p err t n',
  wf n -> 0 <= p -> 0 <= err -> node_pos f curve n p err = Ok (t, n') ->
  L t - L (t_start n) <= p + err + eta * (L (t_end n) - L (t_start n)).
Proof.
  induction f as [|f IH]; intros n p err t n' W P E H; [discriminate|].
  assert (R := wf_range _ W). assert (Mn := wf_mono _ W). unfold near in R. destruct R as (_ & _ & _ & R).
  apply node_pos_inv in H as [(_ & -> & _)|[(_ & B & -> & _)|(_ & _ & g & low & high & Ef & C & H)]].
  - nra.
  - rewrite Rabs_minus_sym in R. pose proof (Rle_abs (L (t_end n) - L (t_start n) - nlength n)). lra.
  - injection Ef as <-.
    destruct (node_children_wf _ _ _ _ W C) as (W1 & W2 & E1 & E2 & E3 & _).
    assert (M1 := wf_mono _ W1). assert (M2 := wf_mono _ W2).
    destruct H as [(_ & x & H & _)|(G & x & H & _)].
    + apply IH in H; auto. rewrite E1 in *. rewrite E2, E3 in *. nra.
    + apply IH in H; auto; [|lra].
      assert (R1 := wf_range _ W1). unfold near in R1. destruct R1 as (_ & _ & _ & R1).
      pose proof (Rle_abs (L (t_end low) - L (t_start low) - nlength low)). rewrite Rabs_minus_sym in R1.
      rewrite E1, E2, E3 in *. nra.
Qed.

(** Not too short. *)
Lemma node_pos_lower f : forall n p err t n' X,
  wf n -> 0 <= err -> node_pos f curve n p err = Ok (t, n') ->
  p <= L (t_end n) - L (t_start n) + X -> 2 * eta * (L (t_end n) - L (t_start n)) <= X ->
  p - err - X - eta * (L (t_end n) - L (t_start n)) <= L t - L (t_start n).
Proof.
  induction f as [|f IH]; intros n p err t n' X W E H PX BX; [discriminate|].
  assert (R := wf_range _ W). assert (Mn := wf_mono _ W). unfold near in R. destruct R as (_ & _ & _ & R).
  apply node_pos_inv in H as [(A & -> & _)|[(_ & B & -> & _)|(_ & D & g & low & high & Ef & C & H)]].
  - nra.
  - nra.
  - injection Ef as <-.
    destruct (node_children_wf _ _ _ _ W C) as (W1 & W2 & E1 & E2 & E3 & _).
    assert (M1 := wf_mono _ W1). assert (M2 := wf_mono _ W2).
    assert (R1 := wf_range _ W1). unfold near in R1. destruct R1 as (_ & _ & _ & R1).
    pose proof (Rle_abs (nlength low - (L (t_end low) - L (t_start low)))).
    pose proof (Rle_abs (- (nlength low - (L (t_end low) - L (t_start low))))) as A2. rewrite Rabs_Ropp in A2.
    pose proof (Rle_abs (nlength n - (L (t_end n) - L (t_start n)))).
    rewrite E1, E2 in *. rewrite <- E3 in *.
    destruct H as [(P & x & H & _)|(P & x & H & _)].
    + apply (IH _ _ _ _ _ X) in H; auto; rewrite ?E1, ?E2 in *; nra.
    + apply (IH _ _ _ _ _ X) in H; auto; nra.
Qed.

(** Order is kept. *)
Lemma node_pos_mono f : forall g n p1 p2 err t1 t2 n1 n2,
  wf n -> p1 <= p2 ->
  node_pos f curve n p1 err = Ok (t1, n1) -> node_pos g curve n p2 err = Ok (t2, n2) -> t1 <= t2.
Proof.
  induction f as [|f IH]; intros g n p1 p2 err t1 t2 n1 n2 W P H1 H2; [discriminate|].
  assert (I1 := node_pos_within _ _ _ _ _ _ W H1). assert (I2 := node_pos_within _ _ _ _ _ _ W H2).
  apply node_pos_inv in H1 as [(A1 & -> & _)|[(A1 & B1 & -> & _)|(A1 & B1 & f1 & low1 & high1 & Ef & C1 & H1)]];
  apply node_pos_inv in H2 as [(A2 & -> & _)|[(A2 & B2 & -> & _)|(A2 & B2 & f2 & low2 & high2 & _ & C2 & H2)]]; try lra.
  injection Ef as <-.
  assert (E := node_children_same _ _ _ _ _ C1 C2). injection E as <- <-.
  destruct (node_children_wf _ _ _ _ W C1) as (W1 & W2 & E1 & E2 & E3 & _).
  destruct H1 as [(D1 & x1 & H1 & _)|(D1 & x1 & H1 & _)]; destruct H2 as [(D2 & x2 & H2 & _)|(D2 & x2 & H2 & _)].
  - exact (IH _ _ _ _ _ _ _ _ _ W1 P H1 H2).
  - apply node_pos_within in H1; auto. apply node_pos_within in H2; auto. lra.
  - lra.
  - refine (IH _ _ _ _ _ _ _ _ _ W2 _ H1 H2). lra.
Qed.

(** ** Termination *)
Section Shrinking.
Variables (q delta : R).
Hypothesis q_range : 0 <= q < 1.
Hypothesis Sh : shrinking q delta curve L start end_.

Lemma node_length_ends d : forall s e l0,
  start <= s -> s <= e -> e <= end_ -> q ^ d * (L e - L s) <= delta ->
  forall f, (S d <= f)%nat -> exists r, node_length f curve (Leaf s e l0) = Ok r.
Proof.
  induction d as [|d IH]; intros s e l0 H1 H2 H3 D f Hf; (destruct f as [|f]; [lia|]);
    cbn [node_length]; destruct (curve s e) as [[m lo] hi] eqn:E;
    destruct (Sh _ _ _ _ _ H1 H2 H3 E) as (S1 & S2 & S3 & S4);
    destruct M as [Mono Ms]; destruct (Ms _ _ _ _ _ H1 H2 H3 E) as (B & _);
    assert (L s <= L m) by (apply Mono; lra); assert (L m <= L e) by (apply Mono; lra).
  - cbn [pow] in D.
    destruct lo as [l|]; [|exfalso; apply S3; [nra|reflexivity]].
    destruct hi as [h|]; [|exfalso; apply S4; [nra|reflexivity]].
    cbn [bind]. eexists; reflexivity.
  - fold (child f s m lo). fold (child f m e hi).
    assert (Q : 0 <= q ^ d) by (apply pow_le; lra).
    assert (K : forall a b o, start <= a -> a <= b -> b <= end_ -> q ^ d * (L b - L a) <= delta ->
       exists r, child f a b o = Ok r).
    { intros a b [x|] A1 A2 A3 A4; cbn [child or_zero]; [eexists; reflexivity|].
      apply IH; auto; lia. }
    cbn [pow] in D.
    destruct (K s m lo) as [[v1 n1] ->]; [lra|lra|lra| |].
    { apply Rle_trans with (q ^ d * (q * (L e - L s))); [|lra]. apply Rmult_le_compat_l; assumption. }
    destruct (K m e hi) as [[v2 n2] ->]; [lra|lra|lra| |].
    { apply Rle_trans with (q ^ d * (q * (L e - L s))); [|lra]. apply Rmult_le_compat_l; assumption. }
    cbn [bind]. eexists; reflexivity.
Qed.

(** [d] levels are enough to measure a part, [k] levels to come below the error. *)
Lemma node_pos_ends err d k : forall n p,
  wf n -> q ^ d * (L end_ - L start) <= delta -> q ^ k * (L (t_end n) - L (t_start n)) * (1 + eta) <= err ->
  forall f, (S (S d) + k <= f)%nat -> exists r, node_pos f curve n p err = Ok r.
Proof.
  induction k as [|k IH]; intros n p W D K f Hf; (destruct f as [|f]; [lia|]); cbn [node_pos];
    (destruct (Rle_dec p err) as [A|A]; [eexists; reflexivity|]);
    (destruct (Rle_dec (nlength n - p) err) as [B|B]; [eexists; reflexivity|]).
  - exfalso. apply B. assert (Mn := wf_mono _ W). apply wf_range in W as (_ & _ & _ & N). unfold near in N. cbn [pow] in K.
    pose proof (Rle_abs (nlength n - (L (t_end n) - L (t_start n)))).
    assert (nlength n <= err) by lra. assert (0 <= err) by nra. lra.
  - assert (C : exists low high, node_children f curve n = Ok (low, high)).
    { destruct n as [s e l|s e l lo hi]; [|cbn [node_children]; do 2 eexists; reflexivity].
      cbn [node_children]. destruct (curve s e) as [[m lo] hi] eqn:E.
      apply wf_range in W as (H1 & H2 & H3 & _). cbn [t_start t_end] in *.
      destruct M as [Mono Ms]; destruct (Ms _ _ _ _ _ H1 H2 H3 E) as (Bm & _).
      assert (Z : forall a b l0, start <= a -> a <= b -> b <= end_ ->
        exists r, node_length f curve (Leaf a b l0) = Ok r).
      { intros a b l0 A1 A2 A3. apply (node_length_ends d); auto; [|lia].
        eapply Rle_trans; [|exact D]. apply Rmult_le_compat_l; [apply pow_le; lra|].
        assert (L start <= L a) by (apply Mono; lra). assert (L b <= L end_) by (apply Mono; lra). lra. }
      destruct lo as [l1|]; cbn [or_zero bind].
      - destruct hi as [h1|]; cbn [or_zero bind]; [do 2 eexists; reflexivity|].
        destruct (Z m e 0) as [[v n] ->]; try lra. cbn [bind]. do 2 eexists; reflexivity.
      - destruct (Z s m 0) as [[v n] ->]; try lra. cbn [bind].
        destruct hi as [h1|]; cbn [or_zero bind]; [do 2 eexists; reflexivity|].
        destruct (Z m e 0) as [[v' n'] ->]; try lra. cbn [bind]. do 2 eexists; reflexivity. }
    destruct C as (low & high & C). rewrite C. cbn [bind].
    destruct (node_children_wf _ _ _ _ W C) as (W1 & W2 & E1 & E2 & E3 & E4).
    assert (R := wf_range _ W). destruct R as (H1 & H2 & H3 & _).
    destruct (curve (t_start n) (t_end n)) as [[m lo] hi] eqn:E. cbn [fst] in E4. subst m.
    destruct (Sh _ _ _ _ _ H1 H2 H3 E) as (S1 & S2 & _).
    assert (Q : 0 <= q ^ k) by (apply pow_le; lra). cbn [pow] in K.
    assert (Z : forall x, x <= q * (L (t_end n) - L (t_start n)) -> q ^ k * x * (1 + eta) <= err).
    { intros x Hx. eapply Rle_trans; [|exact K]. apply Rmult_le_compat_r; [lra|].
      replace (q * q ^ k * (L (t_end n) - L (t_start n))) with (q ^ k * (q * (L (t_end n) - L (t_start n)))) by ring.
      apply Rmult_le_compat_l; assumption. }
    destruct (Rlt_dec p (nlength low)).
    + destruct (IH low p W1 D) with (f := f) as [[t n'] ->]; [|lia|].
      * apply Z. rewrite E1. lra.
      * cbn [bind]. eexists; reflexivity.
    + destruct (IH high (p - nlength low) W2 D) with (f := f) as [[t n'] ->]; [|lia|].
      * apply Z. rewrite E3, <- E2. lra.
      * cbn [bind]. eexists; reflexivity.
Qed.
End Shrinking.
End Measured.
End Tree.

Lemma linear_new_inv fuel curve start end_ n :
  linear_new fuel curve start end_ = Ok n ->
  exists v, node_length fuel curve (Leaf start end_ 0) = Ok (v, n).
Proof.
  unfold linear_new. destruct (node_length fuel curve (Leaf start end_ 0)) as [[v n']| |]; try discriminate.
  cbn [bind]. intros H. injection H as <-. exists v; reflexivity.
Qed.

Lemma pow_small q x d : 0 <= q < 1 -> 0 < d -> 0 <= x -> exists k, q ^ k * x <= d.
Proof.
  intros Q D X. destruct (pow_lt_1_zero q) with (y := d / (x + 1)) as [k Hk].
  - rewrite Rabs_pos_eq; lra.
  - apply Rdiv_lt_0_compat; lra.
  - exists k. specialize (Hk k (le_n k)). rewrite Rabs_pos_eq in Hk by (apply pow_le; lra).
    assert (q ^ k * (x + 1) <= d).
    { replace d with (d / (x + 1) * (x + 1)) by (field; lra). apply Rmult_le_compat_r; lra. }
    assert (0 <= q ^ k) by (apply pow_le; lra). lra.
Qed.

(** * The theorems *)

(** The length is that of the curve, as precisely as its parts are measured. *)
Theorem C83_length : forall eta curve L start end_ fuel n,
  0 <= eta -> measured eta curve L start end_ -> start <= end_ ->
  linear_new fuel curve start end_ = Ok n ->
  Rabs (linear_length n - (L end_ - L start)) <= eta * (L end_ - L start).
Proof.
  intros eta curve L start end_ fuel n He M Hse H.
  apply linear_new_inv in H as [v H].
  assert (W := node_length_wf curve eta start end_ L M _ _ _ _ _ _ (Rle_refl _) Hse (Rle_refl _) H).
  apply node_length_value in H as (E1 & E2 & _).
  apply wf_range in W as (_ & _ & _ & N). unfold near in N. rewrite E1, E2 in N. exact N.
Qed.

(** A position along the curve is answered, whatever was asked before, by a
    parameter of the curve at which the curve is as long as asked, within the
    fixed error and three times what the measured lengths are off by. *)
Theorem C83_position : forall eta curve L start end_ fuel n0 n fuel' p t n',
  0 <= eta -> measured eta curve L start end_ -> start <= end_ ->
  linear_new fuel curve start end_ = Ok n0 -> asked curve n0 n ->
  0 <= p <= linear_length n0 ->
  linear_position fuel' curve n p = Ok (t, n') ->
  start <= t <= end_
  /\ Rabs (L t - L start - p) <= 1 / 100000 + 3 * eta * (L end_ - L start)
  /\ linear_length n' = linear_length n0.
Proof.
  intros eta curve L start end_ fuel n0 n fuel' p t n' He M Hse H A P Hp.
  assert (Len := C83_length _ _ _ _ _ _ _ He M Hse H).
  apply linear_new_inv in H as [v H].
  assert (W0 := node_length_wf curve eta start end_ L M _ _ _ _ _ _ (Rle_refl _) Hse (Rle_refl _) H).
  apply node_length_value in H as (E1 & E2 & _).
  apply asked_grown in A. destruct (grown_ends _ _ _ A) as (G1 & G2 & G3).
  assert (W := grown_wf curve eta start end_ L M _ _ A W0).
  unfold linear_position in Hp.
  assert (I := node_pos_within curve eta start end_ L M _ _ _ _ _ _ W Hp).
  assert (Pe : 0 <= position_error) by (unfold position_error; lra).
  assert (U := node_pos_upper curve eta start end_ L He M _ _ _ _ _ _ W (proj1 P) Pe Hp).
  assert (D : 0 <= L end_ - L start) by (destruct M as [Mono _]; specialize (Mono start end_); lra).
  pose proof (Rle_abs (linear_length n0 - (L end_ - L start))).
  assert (V := node_pos_lower curve eta start end_ L He M _ _ _ _ _ _ (2 * eta * (L end_ - L start)) W Pe Hp).
  rewrite G1, G2, E1, E2 in *.
  assert (V' : p - position_error - 2 * eta * (L end_ - L start) - eta * (L end_ - L start) <= L t - L start).
  { apply V; nra. }
  split; [lra|]. split.
  - unfold position_error in *. apply Rabs_le. nra.
  - apply node_pos_grown in Hp. apply grown_ends in Hp as (_ & _ & Hp). unfold linear_length. congruence.
Qed.

(** The ends of the curve are hit exactly. *)
Theorem C83_ends : forall curve start end_ fuel n0 n fuel' p t n',
  linear_new fuel curve start end_ = Ok n0 -> asked curve n0 n ->
  linear_position fuel' curve n p = Ok (t, n') ->
  (p <= 1 / 100000 -> t = start)
  /\ (1 / 100000 < p -> linear_length n0 - 1 / 100000 <= p -> t = end_).
Proof.
  intros curve start end_ fuel n0 n fuel' p t n' H A Hp.
  apply linear_new_inv in H as [v H]. apply node_length_value in H as (E1 & E2 & _).
  apply asked_grown in A. destruct (grown_ends _ _ _ A) as (G1 & G2 & G3).
  unfold linear_position in Hp. apply node_pos_inv in Hp. unfold position_error, linear_length in *.
  rewrite G1, G2, G3, E1, E2 in Hp.
  destruct Hp as [(B & -> & _)|[(B & C & -> & _)|(B & C & _)]]; split; intros; try reflexivity; lra.
Qed.

(** What is asked before makes no difference to the answer. *)
Theorem C83_pure : forall curve n0 n fuel fuel' p t t' n1 n2,
  asked curve n0 n ->
  linear_position fuel curve n0 p = Ok (t, n1) ->
  linear_position fuel' curve n p = Ok (t', n2) ->
  t' = t.
Proof.
  intros curve n0 n fuel fuel' p t t' n1 n2 A H1 H2.
  apply asked_grown in A. symmetry. exact (node_pos_pure _ _ _ _ _ _ _ _ _ _ _ A H1 H2).
Qed.

(** Further along the curve is a later parameter. *)
Theorem C83_order : forall eta curve L start end_ fuel n0 n fuel1 fuel2 p1 p2 t1 t2 n1 n2,
  measured eta curve L start end_ -> start <= end_ ->
  linear_new fuel curve start end_ = Ok n0 -> asked curve n0 n ->
  p1 <= p2 ->
  linear_position fuel1 curve n p1 = Ok (t1, n1) ->
  linear_position fuel2 curve n p2 = Ok (t2, n2) ->
  t1 <= t2.
Proof.
  intros eta curve L start end_ fuel n0 n fuel1 fuel2 p1 p2 t1 t2 n1 n2 M Hse H A P H1 H2.
  apply linear_new_inv in H as [v H].
  assert (W0 := node_length_wf curve eta start end_ L M _ _ _ _ _ _ (Rle_refl _) Hse (Rle_refl _) H).
  apply asked_grown in A.
  assert (W := grown_wf curve eta start end_ L M _ _ A W0).
  exact (node_pos_mono curve eta start end_ L M _ _ _ _ _ _ _ _ _ _ W P H1 H2).
Qed.

(** On a curve whose parts shrink and are measured when short, everything
    ends, within a bound that does not depend on what is asked. *)
Theorem C83_terminates : forall eta q delta curve L start end_,
  0 <= eta -> 0 <= q < 1 -> 0 < delta -> start <= end_ ->
  measured eta curve L start end_ -> shrinking q delta curve L start end_ ->
  exists N, forall fuel, (N <= fuel)%nat ->
    exists n0, linear_new fuel curve start end_ = Ok n0
    /\ forall n p, asked curve n0 n -> exists t n', linear_position fuel curve n p = Ok (t, n').
Proof.
  intros eta q delta curve L start end_ He Q D Hse M S.
  assert (X : 0 <= L end_ - L start) by (destruct M as [Mono _]; specialize (Mono start end_); lra).
  destruct (pow_small q (L end_ - L start) delta Q D X) as [d Hd].
  destruct (pow_small q ((L end_ - L start) * (1 + eta)) position_error Q) as [k Hk];
    [unfold position_error; lra|nra|].
  exists (3 + d + k)%nat. intros fuel Hf.
  destruct (node_length_ends curve eta start end_ L M q delta Q S d start end_ 0 (Rle_refl _) Hse (Rle_refl _) Hd fuel) as [[v n0] H]; [lia|].
  exists n0. split; [unfold linear_new; rewrite H; reflexivity|].
  intros n p A.
  assert (W0 := node_length_wf curve eta start end_ L M _ _ _ _ _ _ (Rle_refl _) Hse (Rle_refl _) H).
  apply node_length_value in H as (E1 & E2 & _).
  apply asked_grown in A. destruct (grown_ends _ _ _ A) as (G1 & G2 & _).
  assert (W := grown_wf curve eta start end_ L M _ _ A W0).
  destruct (node_pos_ends curve eta start end_ L He M q delta Q S position_error d k n p W Hd) with (f := fuel) as [[t n'] R].
  - rewrite G1, G2, E1, E2, Rmult_assoc. exact Hk.
  - lia.
  - exists t, n'. exact R.
Qed.

(** A curve that never reports a length is measured for ever. *)
Theorem C83_unmeasured : forall curve start end_ fuel,
  (forall s e, snd (fst (curve s e)) = None) -> linear_new fuel curve start end_ = OutOfFuel.
Proof.
  intros curve start end_ fuel H. unfold linear_new.
  enough (K : forall f s e l, node_length f curve (Leaf s e l) = OutOfFuel) by (rewrite K; reflexivity).
  induction f as [|f IH]; intros s e l; [reflexivity|].
  cbn [node_length]. specialize (H s e). destruct (curve s e) as [[m lo] hi]. cbn [fst snd] in H. subst lo.
  rewrite IH. reflexivity.
Qed.

(** The curve of the project's tests (linear_curve.rs:153-178) meets all of this:
    a straight line split at a fixed fraction [k], measured up to a length [d]. *)
Definition test_curve (k d : R) : splitter := fun s e =>
  let low := (e - s) * k in
  let high := (e - s) * (1 - k) in
  (s * (1 - k) + e * k, if Rle_dec low d then Some low else None, if Rle_dec high d then Some high else None).

Lemma test_curve_ok k d start end_ : 0 < k < 1 -> 0 < d ->
  measured 0 (test_curve k d) (fun t => t) start end_
  /\ shrinking (Rmax k (1 - k)) d (test_curve k d) (fun t => t) start end_.
Proof.
  intros K D. split.
  - split; [auto|]. intros s e m lo hi H1 H2 H3 H. unfold test_curve in H. injection H as <- <- <-.
    split; [nra|].
    split; intros l Hl; [destruct (Rle_dec ((e - s) * k) d)|destruct (Rle_dec ((e - s) * (1 - k)) d)]; try discriminate;
      injection Hl as <-.
    + replace ((e - s) * k - (s * (1 - k) + e * k - s)) with 0 by ring. rewrite Rabs_R0. lra.
    + replace ((e - s) * (1 - k) - (e - (s * (1 - k) + e * k))) with 0 by ring. rewrite Rabs_R0. lra.
  - intros s e m lo hi H1 H2 H3 H. unfold test_curve in H. injection H as <- <- <-.
    assert (A := Rmax_l k (1 - k)). assert (B := Rmax_r k (1 - k)).
    split; [nra|]. split; [nra|].
    split; intros C.
    + destruct (Rle_dec ((e - s) * k) d) as [G|G]; [discriminate|]. exfalso. apply G. lra.
    + destruct (Rle_dec ((e - s) * (1 - k)) d) as [G|G]; [discriminate|]. exfalso. apply G. lra.
Qed.

(** The project's tests: length 1, and every position p is found at parameter p,
    within 0.00001. *)
Example C83_example : exists fuel n0,
  linear_new fuel (test_curve (7 / 10) (1 / 1000)) 0 1 = Ok n0
  /\ linear_length n0 = 1
  /\ forall n p, asked (test_curve (7 / 10) (1 / 1000)) n0 n -> 0 <= p <= 1 ->
     exists t n', linear_position fuel (test_curve (7 / 10) (1 / 1000)) n p = Ok (t, n')
                  /\ Rabs (t - p) <= 1 / 100000.
Proof.
  destruct (test_curve_ok (7 / 10) (1 / 1000) 0 1) as [M S]; [lra|lra|].
  assert (Q : 0 <= Rmax (7 / 10) (1 - 7 / 10) < 1) by (rewrite Rmax_left by lra; lra).
  destruct (C83_terminates 0 _ (1 / 1000) _ _ 0 1 ltac:(lra) Q ltac:(lra) ltac:(lra) M S) as [N HN].
  destruct (HN N (le_n N)) as (n0 & H & Hq).
  exists N, n0. split; [exact H|].
  assert (Len : linear_length n0 = 1).
  { assert (X := C83_length 0 _ _ 0 1 _ _ ltac:(lra) M ltac:(lra) H). cbv beta in X.
    rewrite Rmult_0_l in X. pose proof (Rabs_pos (linear_length n0 - (1 - 0))).
    assert (Y : Rabs (linear_length n0 - (1 - 0)) = 0) by lra.
    destruct (Req_dec (linear_length n0 - (1 - 0)) 0) as [E|E]; [lra|]. apply Rabs_no_R0 in E. contradiction. }
  split; [exact Len|]. intros n p A P.
  destruct (Hq n p A) as (t & n' & R). exists t, n'. split; [exact R|].
  destruct (C83_position 0 _ _ 0 1 _ _ _ _ p t n' ltac:(lra) M ltac:(lra) H A ltac:(lra) R) as (_ & B & _).
  cbv beta in B. replace (t - 0 - p) with (t - p) in B by ring. lra.
Qed.

Example C83_unmeasured_ex : linear_new 1000 (fun s e => ((s + e) / 2, None, None)) 0 1 = OutOfFuel.
Proof. apply C83_unmeasured. reflexivity. Qed.

Print Assumptions C83_length.
Print Assumptions C83_position.
Print Assumptions C83_ends.
Print Assumptions C83_pure.
Print Assumptions C83_order.
Print Assumptions C83_terminates.
Print Assumptions C83_unmeasured.
