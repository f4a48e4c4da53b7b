(** C18: how good a rest to rest move of the planner is (src/integer_curve.rs). *)
From Coq Require Import ZArith List Bool Lia.
From Coq Require Import ZifyBool ZifyNat.
From Verif Require Import Base MultiRange MultiRangeSpec MultiRangeProofs MotionSpec
  IntegerCurve CurveArith RangeProofs PlanProofs PropsIntegerCurve.
Import ListNotations.
Open Scope Z_scope.

(** * What any sequence of accelerations can do *)

Notation len l := (Z.of_nat (length l)).

Lemma change_bound : forall a l v, (forall x, In x l -> Z.abs x <= a) ->
  Z.abs (final_speed v l - v) <= a * len l.
Proof.
  induction l as [|x l IH]; intros v Ha; cbn [final_speed length].
  - rewrite Z.sub_diag. cbn. lia.
  - specialize (IH (v + x) (fun y Hy => Ha y (or_intror Hy))).
    pose proof (Ha x (or_introl eq_refl)). lia.
Qed.

(** A speed is reached from the start and left for the end. *)
Lemma speed_reached : forall a l v w, (forall x, In x l -> Z.abs x <= a) -> In w (speeds v l) ->
  exists i, 0 <= i <= len l /\ w <= v + a * i /\ w <= final_speed v l + a * (len l - i).
Proof.
  induction l as [|x l IH]; intros v w Ha Hw; cbn [speeds] in Hw.
  - destruct Hw as [<-|[]]. exists 0. cbn [final_speed length]. lia.
  - destruct Hw as [<-|Hw].
    + exists 0. pose proof (change_bound a (x :: l) v Ha). lia.
    + cbn [final_speed]. destruct (IH (v + x) w (fun y Hy => Ha y (or_intror Hy)) Hw) as (i & Hi & H1 & H2).
      exists (i + 1). pose proof (Ha x (or_introl eq_refl)). cbn [length]. lia.
Qed.

Lemma speeds_final : forall l v, In (final_speed v l) (speeds v l).
Proof.
  induction l as [|x l IH]; intros v; cbn [speeds final_speed]; [left; reflexivity|]. right. apply IH.
Qed.

(** Below the speed [V] distance is lost, at first. *)
Lemma lost_first : forall a V l v k, (forall x, In x l -> Z.abs x <= a) ->
  (forall w, In w (speeds v l) -> w <= V) -> (1 <= k <= length l)%nat ->
  (V - v) * (2 * Z.of_nat k - 1) - a * (Z.of_nat k * (Z.of_nat k - 1)) + (V - final_speed v l)
  <= 2 * V * len l - travel v l.
Proof.
  intros a V. induction l as [|x l IH]; intros v k Ha Hv Hk; [cbn [length] in Hk; lia|].
  assert (G : forall l v, (forall w, In w (speeds v l) -> w <= V) -> travel v l <= 2 * V * len l - (V - v) - (V - final_speed v l)
                          \/ l = []).
  { clear. induction l as [|x l IH]; intros v Hv; [right; reflexivity|]. left.
    cbn [speeds travel final_speed length] in *.
    assert (v <= V) by (apply Hv; left; reflexivity).
    specialize (IH (v + x) (fun w Hw => Hv w (or_intror Hw))). destruct IH as [IH| ->].
    - assert (v + x <= V) by (apply Hv; right; destruct l; left; reflexivity). lia.
    - cbn [travel final_speed length]. lia. }
  destruct (Nat.eq_dec k 1) as [->|Hk1].
  - destruct (G (x :: l) v Hv) as [G1|]; [|discriminate]. lia.
  - cbn [speeds travel final_speed length] in *.
    specialize (IH (v + x) (k - 1)%nat (fun y Hy => Ha y (or_intror Hy)) (fun w Hw => Hv w (or_intror Hw)) ltac:(lia)).
    pose proof (Ha x (or_introl eq_refl)).
    replace (Z.of_nat (k - 1)) with (Z.of_nat k - 1) in IH by lia.
    assert (2 <= Z.of_nat k) by lia. set (K := Z.of_nat k) in *. clearbody K.
    set (t := travel (v + x) l) in *. set (f := final_speed (v + x) l) in *. clearbody t f.
    assert ((V - v - a) * (2 * K - 2) <= (V - (v + x)) * (2 * K - 2)) by (apply Z.mul_le_mono_nonneg_r; lia).
    lia.
Qed.

(** The same backwards. *)
Definition back (l : list Z) : list Z := rev (map Z.opp l).

Lemma final_app : forall u w v, final_speed v (u ++ w) = final_speed (final_speed v u) w.
Proof. induction u as [|x u IH]; intros w v; cbn [app final_speed]; auto. Qed.

Lemma travel_app : forall u w v, travel v (u ++ w) = travel v u + travel (final_speed v u) w.
Proof. induction u as [|x u IH]; intros w v; cbn [app travel final_speed]; [lia|]. rewrite IH. lia. Qed.

Lemma speeds_app : forall u w v x, In x (speeds v (u ++ w)) <-> In x (speeds v u) \/ In x (speeds (final_speed v u) w).
Proof.
  induction u as [|y u IH]; intros w v x; cbn [app speeds final_speed].
  - split; [auto|]. intros [[<-|[]]|H]; [|exact H]. destruct w; left; reflexivity.
  - cbn [In]. rewrite IH. tauto.
Qed.

Lemma back_final : forall l v, final_speed (final_speed v l) (back l) = v.
Proof.
  induction l as [|x l IH]; intros v; [reflexivity|].
  unfold back in *. cbn [map rev final_speed]. rewrite final_app, IH. cbn [final_speed]. lia.
Qed.

Lemma back_travel : forall l v, travel (final_speed v l) (back l) = travel v l.
Proof.
  induction l as [|x l IH]; intros v; [reflexivity|].
  unfold back in *. cbn [map rev final_speed]. rewrite travel_app, IH.
  assert (B := back_final l (v + x)). unfold back in B. rewrite B. cbn [travel]. lia.
Qed.

Lemma back_speeds : forall l v w, In w (speeds (final_speed v l) (back l)) -> In w (speeds v l).
Proof.
  induction l as [|x l IH]; intros v w; [auto|].
  unfold back in *. cbn [map rev final_speed]. rewrite speeds_app.
  assert (B := back_final l (v + x)). unfold back in B. rewrite B. cbn [speeds].
  intros [H|[<-|[<-|[]]]].
  - right. apply IH. exact H.
  - right. destruct l; left; reflexivity.
  - left. lia.
Qed.

Lemma back_acc : forall a l, (forall x, In x l -> Z.abs x <= a) -> forall x, In x (back l) -> Z.abs x <= a.
Proof.
  intros a l H x Hx. unfold back in Hx. rewrite <- in_rev, in_map_iff in Hx. destruct Hx as (y & <- & Hy).
  specialize (H y Hy). lia.
Qed.

Lemma back_length : forall l, length (back l) = length l.
Proof. intros. unfold back. rewrite rev_length, map_length. reflexivity. Qed.

(** Rest to rest below the speed [V], with at least [k] ticks at either end. *)
Lemma lost_both : forall a V l k, (forall x, In x l -> Z.abs x <= a) ->
  (forall w, In w (speeds 0 l) -> w <= V) -> final_speed 0 l = 0 -> (1 <= k)%nat -> (2 * k <= length l)%nat ->
  travel 0 l <= 2 * V * len l - 2 * (V * (2 * Z.of_nat k - 1) - a * (Z.of_nat k * (Z.of_nat k - 1))).
Proof.
  intros a V l k Ha Hv Hf Hk Hl.
  rewrite <- (firstn_skipn k l) in Ha, Hv, Hf |- *.
  set (u := firstn k l) in *. set (w := skipn k l) in *.
  assert (Lu : length u = k) by (unfold u; rewrite firstn_length; lia).
  assert (Lw : length w = (length l - k)%nat) by (unfold w; rewrite skipn_length; reflexivity).
  rewrite final_app in Hf. rewrite travel_app, app_length.
  set (m := final_speed 0 u) in *.
  assert (A := lost_first a V u 0 k (fun x Hx => Ha x (in_or_app _ _ _ (or_introl Hx)))
                (fun x Hx => Hv x (proj2 (speeds_app u w 0 x) (or_introl Hx))) ltac:(lia)). fold m in A.
  assert (Hv2 : forall x, In x (speeds m w) -> x <= V) by (intros x Hx; apply Hv; rewrite speeds_app; right; exact Hx).
  assert (B := lost_first a V (back w) (final_speed m w) k
                (back_acc a w (fun x Hx => Ha x (in_or_app _ _ _ (or_intror Hx))))
                (fun x Hx => Hv2 x (back_speeds w m x Hx)) ltac:(rewrite back_length; lia)).
  rewrite back_final, back_travel, back_length, Hf in B.
  assert (m <= V) by (apply Hv2; destruct w; left; reflexivity). lia.
Qed.

(** Rest to rest in [n] ticks, without a limit on the speed. *)
Lemma farthest : forall a l, 0 <= a -> (forall x, In x l -> Z.abs x <= a) -> final_speed 0 l = 0 ->
  2 * travel 0 l <= a * (len l * len l) - (if Z.even (len l) then 0 else a).
Proof.
  intros a l Ha0 Ha Hf.
  assert (D := Nat.div_mod (length l) 2 ltac:(lia)). assert (M := Nat.mod_upper_bound (length l) 2 ltac:(lia)).
  set (k := (length l / 2)%nat) in *. set (r := (length l mod 2)%nat) in *. clearbody k r.
  assert (Ev : Z.even (len l) = Z.even (Z.of_nat r)).
  { replace (len l) with (Z.of_nat r + 2 * Z.of_nat k) by lia. apply Z.even_add_mul_2. }
  rewrite Ev.
  destruct (Nat.eq_dec k 0) as [->|Hk].
  - destruct l as [|x [|y l]].
    + assert (r = 0)%nat by (cbn [length] in D; lia). subst r. cbn. lia.
    + assert (r = 1)%nat by (cbn [length] in D; lia). subst r. cbn [final_speed travel length] in *. change (Z.even (Z.of_nat 1)) with false. cbv iota. lia.
    + cbn [length] in D. lia.
  - assert (S : forall w, In w (speeds 0 l) -> w <= a * Z.of_nat k).
    { intros w Hw. destruct (speed_reached a l 0 w Ha Hw) as (i & Hi & H1 & H2). rewrite Hf in H2.
      destruct (Z_le_gt_dec i (Z.of_nat k)); nia. }
    assert (B := lost_both a (a * Z.of_nat k) l k Ha S Hf ltac:(lia) ltac:(lia)).
    assert (En : len l = 2 * Z.of_nat k + Z.of_nat r) by lia. rewrite En in *.
    assert (r = 0 \/ r = 1)%nat as [-> | ->] by lia; cbn [Z.of_nat Z.even Pos.of_succ_nat] in *;
      set (K := Z.of_nat k) in *; clearbody K; clear - B Ha0; nia.
Qed.

(** * What the planner returns *)

(** The distance from which on the planner goes at full speed. *)
Definition cruise (a vmax : Z) : Z :=
  let q := (vmax + a - 1) / a in 2 * vmax + 2 * a * (q * (q - 1)).

Lemma vertex_rest : forall a, 0 < a -> acc_vertex 0 0 a = 0.
Proof.
  intros a Ha. unfold acc_vertex. change (0 + 0 >=? 0) with true. cbv iota.
  rewrite Z.quot_small; lia.
Qed.

Lemma planned_time : forall ds a vmax p, request ds 0 0 a vmax -> 0 <= ds ->
  shortest_curve ds 0 0 a vmax = Ok p ->
  1 <= p_t_total p /\
  let q := (vmax + a - 1) / a in
  (ds < cruise a vmax /\ 2 * ds <= a * (p_t_total p * p_t_total p - 1) /\
     (p_t_total p = 1 \/ a * ((p_t_total p - 1) * (p_t_total p - 1) - 1) < 2 * ds))
  \/ (cruise a vmax <= ds /\ 2 * q <= p_t_total p /\
      (p_t_total p = 2 * q \/ cruise a vmax + 2 * vmax * (p_t_total p - 1 - 2 * q) < ds)).
Proof.
  intros ds a vmax p R Hds Ep. apply request_supported in R. pose proof R as [Hd Ha Hv H0 Hn].
  destruct (shortest_curve_spec _ _ _ _ _ R) as (r & t & h & p' & E & EB & C1 & C2 & Hhi & Hlo & Ht & Es & P).
  assert (p' = p) by congruence. subst p'. destruct P as (P1 & P2 & P3 & P4 & _). rewrite P4.
  split; [exact Ht|]. intros q.
  rewrite shortest_curve_length_halves in E.
  destruct (half_range_spec _ _ _ _ _ R) as (hp & Ehp & Op & _ & _ & Bp). rewrite Ehp in E. cbn [bind] in E.
  pose proof (supported_opp _ _ _ _ _ R) as R'.
  destruct (half_range_spec _ _ _ _ _ R') as (hn & Ehn & On & _ & _ & Bn). rewrite Ehn in E. cbn [bind] in E.
  injection E as <-.
  destruct (mr_and_range_ordered hp hn Op On) as [_ CC].
  assert (Q : tk a (vmax - 0) = q) by (unfold tk, q; rewrite Z.sub_0_r, Z.abs_eq by lia; reflexivity).
  assert (Q' : tk a (vmax - - 0) = q) by exact Q.
  assert (Qb : vmax <= a * q < vmax + a).
  { unfold q. pose proof (Z.div_mod (vmax + a - 1) a ltac:(lia)). pose proof (Z.mod_pos_bound (vmax + a - 1) a ltac:(lia)). lia. }
  assert (Q1 : 1 <= q) by nia.
  assert (L : Lf a (vmax - 0) = vmax * (2 * q - 1) - a * q * (q - 1)).
  { unfold Lf. rewrite Q. rewrite Z.sub_0_r. destruct (Z.leb_spec 0 vmax); [reflexivity|lia]. }
  assert (Fv : forall t, F 0 0 a t vmax = cruise a vmax + 2 * vmax * (t - 2 * q)).
  { intros x. unfold F, cruise. fold q. rewrite L. ring. }
  assert (S0 : s0_ 0 0 a vmax = cruise a vmax).
  { unfold s0_. rewrite Q, Fv. ring. }
  assert (Cp : 0 < cruise a vmax) by (unfold cruise; fold q; nia).
  (* the lower half is no restriction *)
  assert (Neg : forall x, 1 <= x < i64_max -> covers hn x).
  { unfold half_range in Ehn.
    destruct (speed_limited_spec _ _ _ _ _ R') as [[_ E]|(Hge & _)].
    2: { exfalso. change (- 0) with 0 in Hge. rewrite S0 in Hge. lia. }
    rewrite E in Ehn. cbn [bind mr_is_empty] in Ehn.
    destruct (max_acceleration_spec _ _ _ _ _ R') as (r & Er & _ & _ & _ & K & _).
    assert (r = hn) by congruence. subst r. intros x Hx. apply K.
    - unfold tmin. cbn. lia.
    - unfold slack. change (- 0) with 0.
      assert (0 <= a * a * (x * x - 1)) by (apply Z.mul_nonneg_nonneg; nia).
      assert (0 <= a * ds) by (apply Z.mul_nonneg_nonneg; lia).
      clear - H H1. lia.
    - change (- 0) with 0. rewrite vertex_rest; lia. }
  apply CC in C1. destruct C1 as [C1 _].
  assert (Hmax : t < i64_max /\ 2 ^ 51 < i64_max).
  { split; [|unfold i64_max; lia].
    assert (t <= 2 ^ 51); [|unfold i64_max; lia]. apply C2. apply CC.
    split; [apply Bp|apply Bn]; unfold i64_max; lia. }
  unfold half_range in Ehp.
  destruct (speed_limited_spec _ _ _ _ _ R) as [[Hlt E]|(Hge & x & E & Hx & HF)]; rewrite E in Ehp; cbn [bind mr_is_empty] in Ehp;
    rewrite S0 in *.
  - left. split; [exact Hlt|].
    destruct (max_acceleration_spec _ _ _ _ _ R) as (r & Er & _ & _ & K1 & K2 & _).
    assert (r = hp) by congruence. subst r.
    split; [apply K1 in C1; destruct C1 as (_ & C1 & _); unfold slack in C1; nia|].
    destruct (Z.eq_dec t 1) as [|Ht1]; [left; assumption|right].
    destruct (Z_lt_le_dec (a * ((t - 1) * (t - 1) - 1)) (2 * ds)) as [|C]; [assumption|exfalso].
    assert (covers hp (t - 1)).
    { apply K2; [unfold tmin; cbn; lia|unfold slack; nia|].
      rewrite vertex_rest; lia. }
    assert (t <= t - 1); [|lia]. apply C2. apply CC. split; [assumption|apply Neg; lia].
  - right. split; [exact Hge|].
    injection Ehp as <-. rewrite covers_one in C1. rewrite Q in Hx. split; [lia|].
    assert (Ex : t = x).
    { assert (t <= x); [|lia]. apply C2. apply CC. split; [apply covers_one; lia|apply Neg; lia]. }
    subst x. destruct (Z.eq_dec t (2 * q)) as [|Hne]; [left; assumption|right].
    specialize (HF (t - 1)). rewrite Fv in HF. lia.
Qed.

Lemma square_scaled : forall a n m, 0 <= a -> 0 <= n -> n <= m -> a * (n * n) <= a * (m * m).
Proof. intros a n m Ha Hn H. apply Z.mul_le_mono_nonneg_l; [lia|]. apply Z.mul_le_mono_nonneg; lia. Qed.

Lemma even_travel : forall l, final_speed 0 l = 0 -> Z.even (travel 0 l) = true.
Proof. intros l H. rewrite travel_parity, H. reflexivity. Qed.

(** What a shorter sequence falls short of the request by. *)
Lemma falls_short : forall ds a vmax p accs, request ds 0 0 a vmax -> 0 <= ds ->
  shortest_curve ds 0 0 a vmax = Ok p -> legal 0 0 a vmax accs -> accs <> [] ->
  (len accs <= p_t_total p - 2 -> travel 0 accs <= ds - 2) /\
  (len accs <= p_t_total p - 1 -> Z.even (p_t_total p) = true \/ cruise a vmax <= ds -> travel 0 accs < ds).
Proof.
  intros ds a vmax p accs R Hds Ep (Hf & Hacc & Hsp) Hne.
  destruct (planned_time _ _ _ _ R Hds Ep) as (Ht & T).
  destruct R as (_ & Ha & Hv & _ & _).
  assert (Hn : 1 <= len accs) by (destruct accs; [contradiction|cbn [length]; lia]).
  assert (Fa := farthest a accs ltac:(lia) Hacc Hf).
  set (t := p_t_total p) in *. set (d := travel 0 accs) in *. set (n := len accs) in *.
  set (q := (vmax + a - 1) / a) in *. cbv zeta in T. fold q in T.
  destruct T as [(Hc & T1 & T2)|(Hc & T1 & T2)].
  - destruct T2 as [T2|T2]; [split; intros; lia|].
    assert (0 <= (if Z.even n then 0 else a)) by (destruct (Z.even n); lia).
    split.
    + intros L. pose proof (square_scaled a n (t - 2) ltac:(lia) ltac:(lia) L).
      assert (a <= a * (t - 2)) by nia. lia.
    + intros L [Ev|?]; [|lia].
      destruct (Z_le_gt_dec n (t - 2)) as [L2|L2].
      * pose proof (square_scaled a n (t - 2) ltac:(lia) ltac:(lia) L2).
        assert (a <= a * (t - 2)) by nia. lia.
      * assert (n = t - 1) by lia. assert (Z.even n = false).
        { rewrite H0. rewrite Z.even_sub, Ev. reflexivity. }
        rewrite H1, H0 in Fa. lia.
  - assert (Qb : vmax <= a * q < vmax + a).
    { unfold q. pose proof (Z.div_mod (vmax + a - 1) a ltac:(lia)). pose proof (Z.mod_pos_bound (vmax + a - 1) a ltac:(lia)). lia. }
    assert (Q1 : 1 <= q) by nia.
    assert (Cr : cruise a vmax = 2 * vmax + 2 * a * (q * (q - 1))) by reflexivity.
    assert (Low : n <= 2 * q - 1 -> d <= ds - 2).
    { intros L. destruct (Z.even n) eqn:Ev.
      - assert (n <= 2 * q - 2).
        { destruct (Z.eq_dec n (2 * q - 1)) as [E|]; [|lia]. rewrite E in Ev.
          replace (2 * q - 1) with (1 + 2 * (q - 1)) in Ev by ring. rewrite Z.even_add_mul_2 in Ev. discriminate. }
        pose proof (square_scaled a n (2 * q - 2) ltac:(lia) ltac:(lia) H).
        assert (0 <= a * (q - 1)) by (apply Z.mul_nonneg_nonneg; lia). lia.
      - pose proof (square_scaled a n (2 * q - 1) ltac:(lia) ltac:(lia) L). lia. }
    assert (High : 2 * q <= n -> d <= cruise a vmax + 2 * vmax * (n - 2 * q)).
    { intros L.
      assert (B := lost_both a vmax accs (Z.to_nat q) Hacc (fun w Hw => proj2 (proj1 (Z.abs_le _ _) (Hsp w Hw))) Hf ltac:(lia) ltac:(unfold n in L; lia)).
      rewrite Z2Nat.id in B by lia. fold d n in B. rewrite Cr. lia. }
    split; intros L.
    + destruct (Z_le_gt_dec n (2 * q - 1)) as [|G]; [auto|]. specialize (High ltac:(lia)).
      destruct T2 as [T2|T2]; [lia|].
      pose proof (Z.mul_le_mono_nonneg_l n (t - 2) vmax ltac:(lia) L). lia.
    + intros _. destruct (Z_le_gt_dec n (2 * q - 1)) as [G|G]; [specialize (Low G); lia|]. specialize (High ltac:(lia)).
      destruct T2 as [T2|T2]; [lia|].
      pose proof (Z.mul_le_mono_nonneg_l n (t - 1) vmax ltac:(lia) L). lia.
Qed.

(** A sequence the other way round. *)
Lemma mirror_legal : forall a vmax accs, legal 0 0 a vmax accs ->
  legal 0 0 a vmax (map Z.opp accs) /\ travel 0 (map Z.opp accs) = - travel 0 accs.
Proof.
  intros a vmax accs (Hf & Ha & Hs).
  assert (G : forall l v, final_speed (- v) (map Z.opp l) = - final_speed v l /\ travel (- v) (map Z.opp l) = - travel v l
     /\ forall w, In w (speeds (- v) (map Z.opp l)) -> In (- w) (speeds v l)).
  { induction l as [|x l IH]; intros v; cbn [map final_speed travel speeds].
    - repeat split; try lia. intros w [<-|[]]. left. lia.
    - replace (- v + - x) with (- (v + x)) by lia. destruct (IH (v + x)) as (G1 & G2 & G3).
      split; [exact G1|]. split; [lia|]. intros w [<-|Hw]; [left; lia|right; auto]. }
  destruct (G accs 0) as (G1 & G2 & G3). change (- 0) with 0 in *.
  split; [|exact G2]. split; [lia|]. split.
  - intros x Hx. apply in_map_iff in Hx as (y & <- & Hy). specialize (Ha y Hy). lia.
  - intros v Hw. apply G3 in Hw. apply Hs in Hw. lia.
Qed.

(** The same for distances in either direction. *)
Lemma falls_short_any : forall ds a vmax p accs, request ds 0 0 a vmax ->
  shortest_curve ds 0 0 a vmax = Ok p -> legal 0 0 a vmax accs -> accs <> [] ->
  (len accs <= p_t_total p - 2 -> 2 <= Z.abs (travel 0 accs - ds)) /\
  (len accs <= p_t_total p - 1 -> Z.even (p_t_total p) = true \/ cruise a vmax <= Z.abs ds -> travel 0 accs <> ds).
Proof.
  intros ds a vmax p accs R Ep Hl Hne.
  destruct (Z_le_gt_dec 0 ds) as [Hs|Hs].
  - destruct (falls_short _ _ _ _ _ R Hs Ep Hl Hne) as [A B]. split; [lia|].
    intros L C. rewrite Z.abs_eq in C by lia. specialize (B L C). lia.
  - destruct (C20_mirror_time _ _ _ _ _ R) as (p1 & p2 & E1 & E2 & Et).
    change (- 0) with 0 in E2. assert (p1 = p) by congruence. subst p1. rewrite Et.
    destruct (mirror_legal _ _ _ Hl) as [Hl' Tr].
    assert (R' : request (- ds) 0 0 a vmax) by (unfold request in *; lia).
    assert (Hne' : map Z.opp accs <> []) by (destruct accs; [contradiction|discriminate]).
    destruct (falls_short _ _ _ _ _ R' ltac:(lia) E2 Hl' Hne') as [A B]. rewrite map_length, Tr in *.
    split; [lia|]. intros L C. rewrite Z.abs_neq in C by lia. specialize (B L C). lia.
Qed.

(** * The theorems *)

(** No sequence from rest to rest does it more than one tick faster. *)
Theorem C18_near_optimal : forall ds a vmax p accs, request ds 0 0 a vmax ->
  shortest_curve ds 0 0 a vmax = Ok p ->
  legal 0 0 a vmax accs -> accs <> [] -> Z.abs (travel 0 accs - ds) <= 1 ->
  p_t_total p - 1 <= Z.of_nat (length accs).
Proof.
  intros ds a vmax p accs R Ep Hl Hne Hd.
  destruct (falls_short_any _ _ _ _ _ R Ep Hl Hne) as [A _]. lia.
Qed.

(** None does exactly the distance faster when the planned duration is even, or
    when the distance is long enough to go at full speed for a while. *)
Theorem C18_optimal : forall ds a vmax p accs, request ds 0 0 a vmax ->
  shortest_curve ds 0 0 a vmax = Ok p ->
  Z.even (p_t_total p) = true \/ 2 * vmax + 2 * a * ((vmax + a - 1) / a * ((vmax + a - 1) / a - 1)) <= Z.abs ds ->
  legal 0 0 a vmax accs -> accs <> [] -> travel 0 accs = ds ->
  p_t_total p <= Z.of_nat (length accs).
Proof.
  intros ds a vmax p accs R Ep C Hl Hne Hd.
  destruct (falls_short_any _ _ _ _ _ R Ep Hl Hne) as [_ B].
  destruct (Z_le_gt_dec (p_t_total p) (len accs)); [assumption|]. exfalso.
  apply (B ltac:(lia) C Hd).
Qed.

Lemma final_repeat : forall x k v, final_speed v (repeat x k) = v + x * Z.of_nat k.
Proof. induction k as [|k IH]; intros v; cbn [repeat final_speed]; [lia|]. rewrite IH. lia. Qed.

Lemma travel_repeat : forall x k v, travel v (repeat x k) = 2 * v * Z.of_nat k + x * (Z.of_nat k * Z.of_nat k).
Proof. induction k as [|k IH]; intros v; cbn [repeat travel]; [lia|]. rewrite IH. lia. Qed.

Lemma speeds_repeat : forall x k v w, In w (speeds v (repeat x k)) -> exists i, 0 <= i <= Z.of_nat k /\ w = v + x * i.
Proof.
  induction k as [|k IH]; intros v w H; cbn [repeat speeds] in H.
  - destruct H as [<-|[]]. exists 0. lia.
  - destruct H as [<-|H]; [exists 0; lia|]. apply IH in H as (i & Hi & ->). exists (i + 1). lia.
Qed.

(** The one tick is lost on every move that accelerates all the way to the
    middle: [k] ticks up and [k] ticks down would do. *)
Theorem C18_one_tick_lost : forall k a vmax p, 1 <= k -> a * k < vmax ->
  request (2 * a * (k * k)) 0 0 a vmax ->
  shortest_curve (2 * a * (k * k)) 0 0 a vmax = Ok p ->
  let accs := repeat a (Z.to_nat k) ++ repeat (- a) (Z.to_nat k) in
  legal 0 0 a vmax accs /\ travel 0 accs = 2 * a * (k * k) /\
  Z.of_nat (length accs) = 2 * k /\ p_t_total p = 2 * k + 1.
Proof.
  intros k a vmax p Hk Hv R Ep accs.
  pose proof R as (_ & Ha & _).
  assert (L : legal 0 0 a vmax accs).
  { unfold accs. split; [rewrite final_app, !final_repeat; lia|]. split.
    - intros x Hx. apply in_app_or in Hx as [Hx|Hx]; apply repeat_spec in Hx; lia.
    - intros v Hx. apply speeds_app in Hx as [Hx|Hx]; apply speeds_repeat in Hx as (i & Hi & ->); rewrite ?final_repeat; nia. }
  assert (T : travel 0 accs = 2 * a * (k * k)).
  { unfold accs. rewrite travel_app, final_repeat, !travel_repeat, Z2Nat.id by lia. ring. }
  assert (N : Z.of_nat (length accs) = 2 * k) by (unfold accs; rewrite app_length, !repeat_length; lia).
  split; [exact L|]. split; [exact T|]. split; [exact N|].
  assert (Near : p_t_total p - 1 <= Z.of_nat (length accs)).
  { apply (C18_near_optimal _ _ _ _ _ R Ep L); [intros E; rewrite E in N; cbn [length] in N; lia|rewrite T; lia]. }
  destruct (planned_time _ _ _ _ R ltac:(nia) Ep) as (Ht & [(Hc & T1 & T2)|(Hc & _)]).
  { destruct (Z_le_gt_dec (p_t_total p) (2 * k)) as [C|C]; [|lia]. exfalso.
    pose proof (square_scaled a (p_t_total p) (2 * k) ltac:(lia) ltac:(lia) C). lia. }
  exfalso. unfold cruise in Hc.
  pose proof (Z.div_mod (vmax + a - 1) a ltac:(lia)). pose proof (Z.mod_pos_bound (vmax + a - 1) a ltac:(lia)).
  set (q := (vmax + a - 1) / a) in *. assert (k + 1 <= q) by nia. nia.
Qed.

Example C18_example :
  request 5000 0 0 7 12 /\ (let! p := shortest_curve 5000 0 0 7 12 in Ok (p_t_total p)) = Ok 211 /\
  cruise 7 12 = 52 /\
  request (-61) 0 0 7 100 /\ (let! p := shortest_curve (-61) 0 0 7 100 in Ok (p_t_total p)) = Ok 5 /\
  legal 0 0 7 100 [-7; -2; 0; 3; 6] /\ travel 0 [-7; -2; 0; 3; 6] = -62.
Proof.
  split; [unfold request; lia|]. split; [reflexivity|]. split; [reflexivity|].
  split; [unfold request; lia|]. split; [reflexivity|]. split; [|reflexivity].
  split; [reflexivity|].
  split; intros x Hx; cbn in Hx; repeat (destruct Hx as [<-|Hx]; [lia|]); destruct Hx.
Qed.

Example C18_one_tick_lost_ex :
  request (2 * 7 * (3 * 3)) 0 0 7 100 /\
  (let! p := shortest_curve (2 * 7 * (3 * 3)) 0 0 7 100 in Ok (p_t_total p)) = Ok 7.
Proof. split; [unfold request; lia|reflexivity]. Qed.

Print Assumptions C18_near_optimal.
Print Assumptions C18_optimal.
Print Assumptions C18_one_tick_lost.
