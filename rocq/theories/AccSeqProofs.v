(** acc_seq expands a DistancePath to the tick sequence it describes. *)
From Coq Require Import ZArith List Bool Lia.
From Coq Require Import ZifyBool ZifyNat.
From Verif Require Import Base AccVector MotionSpec AccVectorProofs IntegerCurve CurveArith.
Import ListNotations.
Open Scope Z_scope.

(** A list of ticks from velocity [v] to [w] within acceleration [a], staying
    between [lo] and [hi], covering [d]. *)
Record moves (a lo hi v w d n : Z) (l : list Z) : Prop := {
  mv_len : Z.of_nat (length l) = n;
  mv_final : final_speed v l = w;
  mv_dist : travel v l = d;
  mv_acc : forall x, In x l -> Z.abs x <= a;
  mv_speed : forall x, In x (speeds v l) -> lo <= x <= hi
}.

Lemma moves_app : forall a lo hi v w x d1 d2 n1 n2 l1 l2,
  moves a lo hi v w d1 n1 l1 -> moves a lo hi w x d2 n2 l2 ->
  moves a lo hi v x (d1 + d2) (n1 + n2) (l1 ++ l2).
Proof.
  intros a lo hi v w x d1 d2 n1 n2 l1 l2 [A1 A2 A3 A4 A5] [B1 B2 B3 B4 B5]. constructor.
  - rewrite app_length. lia.
  - rewrite final_speed_app, A2. auto.
  - rewrite travel_app, A2. lia.
  - intros y Hy. apply in_app_or in Hy. destruct Hy; auto.
  - intros y Hy. apply In_speeds_app in Hy. rewrite A2 in Hy. destruct Hy; auto.
Qed.

Lemma moves_eq : forall a lo hi v w d n d' n' l, moves a lo hi v w d n l -> d = d' -> n = n' ->
  moves a lo hi v w d' n' l.
Proof. intros; subst; auto. Qed.

Lemma moves_nil : forall a lo hi v, lo <= v <= hi -> moves a lo hi v v 0 0 [].
Proof.
  intros. constructor; cbn; auto; try tauto.
  intros x [<-|[]]; auto.
Qed.

Lemma moves_repeat : forall a lo hi v x n, 0 <= n -> Z.abs x <= a ->
  lo <= v <= hi -> lo <= v + x * n <= hi ->
  moves a lo hi v (v + x * n) ((2 * v + x * n) * n) n (repeat x (Z.to_nat n)).
Proof.
  intros a lo hi v x n Hn Hx Hv Hw. constructor.
  - rewrite repeat_length. lia.
  - rewrite final_speed_repeat. rewrite Z2Nat.id by lia. auto.
  - rewrite travel_repeat. rewrite Z2Nat.id by lia. ring.
  - intros y Hy. apply repeat_spec in Hy. subst; auto.
  - intros y Hy. apply speeds_repeat in Hy. destruct Hy as (k & Hk & ->).
    assert (0 <= Z.of_nat k <= n) by lia. nia.
Qed.

Lemma moves_one : forall a lo hi v w, Z.abs (w - v) <= a -> lo <= v <= hi -> lo <= w <= hi ->
  moves a lo hi v w (v + w) 1 [w - v].
Proof.
  intros a lo hi v w Hx Hv Hw. constructor; cbn [length final_speed travel speeds In].
  - reflexivity.
  - lia.
  - lia.
  - intros x [<-|[]]; auto.
  - intros x [<-|[<-|[]]]; lia.
Qed.

(** Pushing never fails while the total stays within u16. *)
Lemma push_conv_spec : forall s t x, Forall seg_typed s -> 0 <= t ->
  Z.of_nat (length (expand s)) + t <= u16_max -> i16_min <= x <= i16_max ->
  exists s', push_conv s t x = Ok s' /\ Forall seg_typed s' /\
    expand s' = expand s ++ repeat x (Z.to_nat t).
Proof.
  intros s t x Hs Ht Hl Hx. unfold push_conv, chk_u16, chk_i16.
  rewrite !chk_in by lia. cbn [bind].
  assert (Hnn : forall y, In y s -> 0 <= fst y).
  { intros y Hy. rewrite Forall_forall in Hs. apply Hs in Hy. unfold seg_typed in Hy. lia. }
  destruct (acc_push_fails s t x Ht Hnn) as [[s' E]|[E (w & i & -> & Hi)]].
  - exists s'. split; auto. split.
    + apply (acc_push_typed s t x); auto. lia.
    + apply acc_push_expand; auto.
  - exfalso. rewrite expand_app in Hl. cbn [expand] in Hl. rewrite app_nil_r, app_length, repeat_length in Hl.
    lia.
Qed.

Lemma push_conv_inv : forall s t x s', push_conv s t x = Ok s' -> Forall seg_typed s ->
  Forall seg_typed s' /\ expand s' = expand s ++ repeat x (Z.to_nat t).
Proof.
  intros s t x s' H Hs. unfold push_conv, chk_u16, chk_i16 in H. inv_bind H.
  apply chk_Ok in E. destruct E as [<- Ht]. apply chk_Ok in E0. destruct E0 as [<- Hx].
  assert (Hnn : forall y, In y s -> 0 <= fst y).
  { intros y Hy. rewrite Forall_forall in Hs. apply Hs in Hy. unfold seg_typed in Hy. lia. }
  split; [apply (acc_push_typed s t x); auto|apply acc_push_expand; auto; lia].
Qed.

(** The tick list that acc_seq pushes for the ramp from v0 to vs. *)
Definition ramp_first (a v0 vs q dv : Z) : list Z :=
  let a1 := if vs >=? v0 then a else - a in
  if dv =? 0 then repeat a1 (Z.to_nat (Z.abs q))
  else repeat a1 (Z.to_nat (Z.abs q - 1)) ++ [vs - (a1 * (Z.abs q - 1) + v0)].

Definition ramp_last (a ve vn q dv : Z) : list Z :=
  let a4 := if ve <=? vn then a else - a in
  if dv =? 0 then repeat a4 (Z.to_nat (Z.abs q))
  else [(vn - a4 * (Z.abs q - 1)) - ve] ++ repeat a4 (Z.to_nat (Z.abs q - 1)).

Lemma moves_ramp_first : forall a lo hi v0 vs q dv, 0 < a ->
  vs - v0 = a * q + dv ->
  (0 <= vs - v0 -> 0 <= q /\ - a < dv <= 0) -> (vs - v0 <= 0 -> q <= 0 /\ 0 <= dv < a) ->
  lo <= v0 <= hi -> lo <= vs <= hi ->
  moves a lo hi v0 vs (2 * vs * Z.abs q - ((vs - v0 + dv) * Z.abs q - dv)) (Z.abs q)
    (ramp_first a v0 vs q dv).
Proof.
  intros a lo hi v0 vs q dv Ha E Hp Hn H0 Hs. unfold ramp_first.
  assert (exists sg, (sg = 1 /\ 0 <= q \/ sg = -1 /\ q < 0) /\ (if vs >=? v0 then a else - a) = sg * a /\
    (dv <> 0 -> q <> 0) /\ q = sg * Z.abs q /\ - a < sg * dv <= 0) as (sg & Hsg & -> & Hq0 & Hq & Hdv).
  { destruct (Z.geb_spec vs v0).
    - exists 1. destruct Hp; [lia|]. repeat split; try lia; nia.
    - exists (-1). destruct Hn; [lia|]. assert (q <> 0) by (intros ->; lia). repeat split; try lia; try nia. }
  set (n := Z.abs q) in *. assert (Hn0 : 0 <= n) by lia.
  assert (Eq' : vs = v0 + sg * a * n + dv) by (rewrite Hq in E; lia).
  destruct (Z.eqb_spec dv 0) as [->|Hd].
  - assert (M := moves_repeat a lo hi v0 (sg * a) n Hn0).
    rewrite <- (Z.add_0_r (v0 + sg * a * n)), <- Eq' in M.
    replace (2 * vs * n - ((vs - v0 + 0) * n - 0)) with ((2 * v0 + sg * a * n) * n) by (rewrite Eq'; ring).
    apply M; auto. destruct Hsg as [[-> _]|[-> _]]; lia.
  - assert (Hn1 : 1 <= n) by lia.
    assert (M := moves_repeat a lo hi v0 (sg * a) (n - 1)).
    assert (B : lo <= v0 + sg * a * (n - 1) <= hi).
    { destruct Hsg as [[-> _]|[-> _]]; nia. }
    replace (vs - (sg * a * (n - 1) + v0)) with (vs - (v0 + sg * a * (n - 1))) by lia.
    replace (2 * vs * n - ((vs - v0 + dv) * n - dv)) with
      ((2 * v0 + sg * a * (n - 1)) * (n - 1) + (v0 + sg * a * (n - 1) + vs)) by (rewrite Eq'; ring).
    apply moves_eq with (n := n - 1 + 1) (2 := eq_refl); [|lia].
    apply (moves_app a lo hi v0 (v0 + sg * a * (n - 1)) vs).
    + apply M; auto; lia.
    + apply moves_one; auto. rewrite Eq'. destruct Hsg as [[-> _]|[-> _]]; lia.
Qed.

Lemma moves_ramp_last : forall a lo hi ve vn q dv, 0 < a ->
  ve - vn = a * q + dv ->
  (0 <= ve - vn -> 0 <= q /\ - a < dv <= 0) -> (ve - vn <= 0 -> q <= 0 /\ 0 <= dv < a) ->
  lo <= vn <= hi -> lo <= ve <= hi ->
  moves a lo hi ve vn (2 * ve * Z.abs q - ((ve - vn + dv) * Z.abs q - dv)) (Z.abs q)
    (ramp_last a ve vn q dv).
Proof.
  intros a lo hi ve vn q dv Ha E Hp Hn H0 Hs. unfold ramp_last.
  assert (exists sg, (sg = 1 /\ q <= 0 \/ sg = -1 /\ 0 < q) /\ (if ve <=? vn then a else - a) = sg * a /\
    (dv <> 0 -> q <> 0) /\ q = - sg * Z.abs q /\ 0 <= sg * dv < a) as (sg & Hsg & -> & Hq0 & Hq & Hdv).
  { destruct (Z.leb_spec ve vn).
    - exists 1. destruct Hn; [lia|]. repeat split; try lia; nia.
    - exists (-1). destruct Hp; [lia|]. assert (q <> 0) by (intros ->; lia). repeat split; try lia; try nia. }
  set (n := Z.abs q) in *. assert (Hn0 : 0 <= n) by lia.
  assert (Eq' : ve = vn - sg * a * n + dv) by (rewrite Hq in E; lia).
  destruct (Z.eqb_spec dv 0) as [->|Hd].
  - assert (M := moves_repeat a lo hi ve (sg * a) n Hn0).
    replace (ve + sg * a * n) with vn in M by lia.
    replace (2 * ve * n - ((ve - vn + 0) * n - 0)) with ((2 * ve + sg * a * n) * n) by (rewrite Eq'; ring).
    apply M; auto. destruct Hsg as [[-> _]|[-> _]]; lia.
  - assert (Hn1 : 1 <= n) by lia.
    assert (M := moves_repeat a lo hi (vn - sg * a * (n - 1)) (sg * a) (n - 1)).
    replace (vn - sg * a * (n - 1) + sg * a * (n - 1)) with vn in M by lia.
    assert (B : lo <= vn - sg * a * (n - 1) <= hi).
    { destruct Hsg as [[-> _]|[-> _]]; nia. }
    replace (2 * ve * n - ((ve - vn + dv) * n - dv)) with
      ((ve + (vn - sg * a * (n - 1))) + (2 * (vn - sg * a * (n - 1)) + sg * a * (n - 1)) * (n - 1))
      by (rewrite Eq'; ring).
    apply moves_eq with (n := 1 + (n - 1)) (2 := eq_refl); [|lia].
    apply (moves_app a lo hi ve (vn - sg * a * (n - 1)) vn).
    + apply moves_one; auto. rewrite Eq'. destruct Hsg as [[-> _]|[-> _]]; lia.
    + apply M; auto; lia.
Qed.

(** The middle part. *)
Definition mid_ticks (vs ve ts tf : Z) : list Z :=
  match ts ?= 0 with
  | Gt => repeat 0 (Z.to_nat (ts - 1)) ++ [ve - vs] ++ repeat 0 (Z.to_nat (tf - ts))
  | Lt => repeat 0 (Z.to_nat (tf + ts)) ++ [ve - vs] ++ repeat 0 (Z.to_nat (- ts - 1))
  | Eq => repeat 0 (Z.to_nat tf)
  end.

Definition mid_dist (vs ve ts tf : Z) : Z :=
  match ts ?= 0 with
  | Gt => 2 * vs * (ts - 1) + (vs + ve) + 2 * ve * (tf - ts)
  | Lt => 2 * vs * (tf + ts) + (vs + ve) + 2 * ve * (- ts - 1)
  | Eq => 2 * vs * tf
  end.

Lemma moves_flat : forall a lo hi v n, 0 < a -> 0 <= n -> lo <= v <= hi ->
  moves a lo hi v v (2 * v * n) n (repeat 0 (Z.to_nat n)).
Proof.
  intros a lo hi v n Ha Hn Hv. pose proof (moves_repeat a lo hi v 0 n Hn) as M.
  replace (v + 0 * n) with v in M by lia. replace ((2 * v + 0 * n) * n) with (2 * v * n) in M by ring.
  apply M; auto. lia.
Qed.

Lemma moves_mid : forall a lo hi vs ve ts tf, 0 < a -> 0 <= tf -> - tf <= ts <= tf ->
  (ts = 0 -> vs = ve) -> Z.abs (ve - vs) <= a -> lo <= vs <= hi -> lo <= ve <= hi ->
  moves a lo hi vs ve (mid_dist vs ve ts tf) tf (mid_ticks vs ve ts tf).
Proof.
  intros a lo hi vs ve ts tf Ha Htf Hts H0 Hd Hs He. unfold mid_dist, mid_ticks.
  destruct (Z.compare_spec ts 0).
  - rewrite <- H0 by auto. apply moves_flat; auto.
  - rewrite <- Z.add_assoc. apply moves_eq with (n := (tf + ts) + (1 + (- ts - 1))) (2 := eq_refl); [|lia].
    apply (moves_app a lo hi vs vs ve); [apply moves_flat; auto; lia|].
    apply (moves_app a lo hi vs ve ve); [apply moves_one; auto|apply moves_flat; auto; lia].
  - rewrite <- Z.add_assoc. apply moves_eq with (n := (ts - 1) + (1 + (tf - ts))) (2 := eq_refl); [|lia].
    apply (moves_app a lo hi vs vs ve); [apply moves_flat; auto; lia|].
    apply (moves_app a lo hi vs ve ve); [apply moves_one; auto|apply moves_flat; auto; lia].
Qed.

(** acc_seq in terms of the three parts. *)
Lemma acc_seq_general : forall p vs ve ts lo hi,
  1 <= p_amax p <= i16_max -> 2 <= p_t_total p ->
  acc_seq_step p = Ok (vs, ve, ts) ->
  let a := p_amax p in
  let tf := p_t_total p - tk a (vs - p_v0 p) - tk a (ve - p_vn p) in
  0 <= tf -> p_t_adjust p <= tf -> - tf <= ts <= tf -> (ts = 0 -> vs = ve) ->
  Z.abs (ve - vs) <= 1 ->
  lo <= p_v0 p <= hi -> lo <= p_vn p <= hi -> lo <= vs <= hi -> lo <= ve <= hi ->
  exists l,
    moves a lo hi (p_v0 p) (p_vn p)
      (2 * vs * tk a (vs - p_v0 p) - Lf a (vs - p_v0 p) + mid_dist vs ve ts tf
       + (2 * ve * tk a (ve - p_vn p) - Lf a (ve - p_vn p)))
      (p_t_total p) l /\
    ((p_t_total p <= u16_max -> exists s, acc_seq p = Ok s) /\
     (forall s, acc_seq p = Ok s -> Forall seg_typed s /\ expand s = l)).
Proof.
  intros p vs ve ts lo hi Ha HT Hstep a tf Htf Hadj Hts Hts0 Hvd H0 Hn Hs He.
  assert (Etf : tf = p_t_total p - tk a (vs - p_v0 p) - tk a (ve - p_vn p)) by reflexivity.
  clearbody tf. unfold acc_seq. fold a in Ha |- *. clearbody a.
  assert (Ha0 : 0 < a) by lia.
  destruct (div_rem_away_spec (vs - p_v0 p) a Ha0) as (q1 & d1 & D1 & E1 & T1 & P1 & M1).
  destruct (div_rem_away_spec (ve - p_vn p) a Ha0) as (q4 & d4 & D4 & E4 & T4 & P4 & M4).
  pose proof (moves_ramp_first a lo hi (p_v0 p) vs q1 d1 Ha0 E1 P1 M1 H0 Hs) as R1.
  pose proof (moves_ramp_last a lo hi ve (p_vn p) q4 d4 Ha0 E4 P4 M4 Hn He) as R4.
  rewrite (ramp_loss a (vs - p_v0 p) q1 d1) in R1 by auto.
  rewrite (ramp_loss a (ve - p_vn p) q4 d4) in R4 by auto.
  rewrite <- T1, <- T4 in Etf |- *. clear T1 T4.
  set (t1 := Z.abs q1) in *. set (t4 := Z.abs q4) in *.
  pose proof (moves_mid a lo hi vs ve ts tf Ha0 Htf Hts Hts0 ltac:(lia) Hs He) as RM.
  exists ((ramp_first a (p_v0 p) vs q1 d1 ++ mid_ticks vs ve ts tf) ++ ramp_last a ve (p_vn p) q4 d4).
  split.
  { apply (fun M E => moves_eq _ _ _ _ _ _ (t1 + tf + t4) _ (p_t_total p) _ M eq_refl E); [|lia].
    apply (moves_app a lo hi (p_v0 p) ve (p_vn p)); [|exact R4].
    apply (moves_app a lo hi (p_v0 p) vs ve); [exact R1|exact RM]. }
  split.
  2: { intros s H. destruct (Z.leb_spec (p_t_total p) 1); [lia|]. rewrite Hstep in H. cbn [bind] in H.
       rewrite D1, D4 in H. cbn [bind] in H. fold t1 t4 in H.
       replace (p_t_total p - t1 - t4) with tf in H by lia.
       unfold ramp_first, mid_ticks, ramp_last. fold t1 t4.
       apply bind_Ok in H. destruct H as ([] & _ & H).
       apply bind_Ok in H. destruct H as (s1 & K1 & H).
       apply bind_Ok in H. destruct H as ([] & _ & H).
       apply bind_Ok in H. destruct H as (s2 & K2 & H).
       assert (G1 : Forall seg_typed s1 /\ expand s1 =
         if d1 =? 0 then repeat (if vs >=? p_v0 p then a else - a) (Z.to_nat t1)
         else repeat (if vs >=? p_v0 p then a else - a) (Z.to_nat (t1 - 1)) ++
              [vs - ((if vs >=? p_v0 p then a else - a) * (t1 - 1) + p_v0 p)]).
       { destruct (d1 =? 0).
         - apply push_conv_inv in K1; [exact K1|constructor].
         - apply bind_Ok in K1. destruct K1 as (s0 & K0 & K1).
           apply push_conv_inv in K0; [|constructor]. destruct K0 as [Ty0 Ex0].
           apply push_conv_inv in K1; [|auto]. destruct K1 as [Ty1 Ex1].
           split; [auto|]. rewrite Ex1, Ex0. reflexivity. }
       destruct G1 as [Ty1 Ex1]. rewrite <- Ex1.
       assert (G2 : Forall seg_typed s2 /\ expand s2 = expand s1 ++
         match ts ?= 0 with
         | Gt => repeat 0 (Z.to_nat (ts - 1)) ++ [ve - vs] ++ repeat 0 (Z.to_nat (tf - ts))
         | Lt => repeat 0 (Z.to_nat (tf + ts)) ++ [ve - vs] ++ repeat 0 (Z.to_nat (- ts - 1))
         | Eq => repeat 0 (Z.to_nat tf)
         end).
       { destruct (ts ?= 0).
         - apply push_conv_inv in K2; auto.
         - apply bind_Ok in K2. destruct K2 as (sa & Ha' & K2).
           apply bind_Ok in K2. destruct K2 as (sb & Hb' & K2).
           apply push_conv_inv in Ha'; [|auto]. destruct Ha' as [Tya Exa].
           apply push_conv_inv in Hb'; [|auto]. destruct Hb' as [Tyb Exb].
           apply push_conv_inv in K2; [|auto]. destruct K2 as [Tyc Exc].
           split; [auto|]. rewrite Exc, Exb, Exa, <- !app_assoc. reflexivity.
         - apply bind_Ok in K2. destruct K2 as (sa & Ha' & K2).
           apply bind_Ok in K2. destruct K2 as (sb & Hb' & K2).
           apply push_conv_inv in Ha'; [|auto]. destruct Ha' as [Tya Exa].
           apply push_conv_inv in Hb'; [|auto]. destruct Hb' as [Tyb Exb].
           apply push_conv_inv in K2; [|auto]. destruct K2 as [Tyc Exc].
           split; [auto|]. rewrite Exc, Exb, Exa, <- !app_assoc. reflexivity. }
       destruct G2 as [Ty2 Ex2]. rewrite <- Ex2.
       destruct (d4 =? 0).
       - apply push_conv_inv in H; auto.
       - apply bind_Ok in H. destruct H as (sa & Ha' & H).
         apply push_conv_inv in Ha'; [|auto]. destruct Ha' as [Tya Exa].
         apply push_conv_inv in H; [|auto]. destruct H as [Tyc Exc].
         split; [auto|]. rewrite Exc, Exa, <- !app_assoc. reflexivity. }
  intros HTu.
  destruct (Z.leb_spec (p_t_total p) 1); [lia|]. rewrite Hstep. cbn [bind].
  rewrite D1, D4. cbn [bind]. fold t1 t4.
  destruct (Z.geb_spec (p_t_total p) (t1 + t4)) as [Hge|]; [|lia]. cbn [assert bind].
  replace (p_t_total p - t1 - t4) with tf by lia.
  assert (Hi16 : forall x, Z.abs x <= a -> i16_min <= x <= i16_max) by (unfold i16_min, i16_max in *; lia).
  pose proof (mv_acc _ _ _ _ _ _ _ _ R1) as A1. pose proof (mv_acc _ _ _ _ _ _ _ _ R4) as A4.
  pose proof (mv_len _ _ _ _ _ _ _ _ R1) as L1. pose proof (mv_len _ _ _ _ _ _ _ _ R4) as L4.
  assert (Ht1 : 0 <= t1) by lia. assert (Ht4 : 0 <= t4) by lia.
  (* first ramp *)
  assert (S1 : exists s1,
    (if d1 =? 0 then push_conv [] t1 (if vs >=? p_v0 p then a else - a)
     else let! s := push_conv [] (t1 - 1) (if vs >=? p_v0 p then a else - a) in
          push_conv s 1 (vs - ((if vs >=? p_v0 p then a else - a) * (t1 - 1) + p_v0 p))) = Ok s1 /\
    Forall seg_typed s1 /\ expand s1 = ramp_first a (p_v0 p) vs q1 d1).
  { unfold ramp_first in *. fold t1 in A1, L1 |- *.
    set (a1 := if vs >=? p_v0 p then a else - a) in *.
    assert (Ha1 : Z.abs a1 <= a) by (unfold a1; destruct (vs >=? p_v0 p); lia).
    destruct (Z.eqb_spec d1 0).
    - destruct (push_conv_spec [] t1 a1) as (s1 & -> & Ty & Ex); auto; cbn [expand length]; try lia.
      exists s1. auto.
    - assert (1 <= t1) by (destruct (Z.eq_dec t1 0) as [Z0|]; [|lia]; assert (q1 = 0) by lia; subst q1; lia).
      destruct (push_conv_spec [] (t1 - 1) a1) as (s1 & -> & Ty & Ex); auto; cbn [expand length]; try lia.
      cbn [bind].
      destruct (push_conv_spec s1 1 (vs - (a1 * (t1 - 1) + p_v0 p))) as (s2 & -> & Ty2 & Ex2); auto; try lia.
      + rewrite Ex. cbn [expand app]. rewrite repeat_length. lia.
      + apply Hi16, A1. apply in_or_app. right. left. auto.
      + exists s2. split; auto. split; auto. rewrite Ex2, Ex. reflexivity. }
  destruct S1 as (s1 & -> & Ty1 & Ex1). cbn [bind].
  destruct (Z.leb_spec (p_t_adjust p) tf) as [_|]; [|lia]. cbn [assert bind].
  (* middle *)
  assert (Hl1 : Z.of_nat (length (expand s1)) = t1) by (rewrite Ex1; exact L1).
  assert (S2 : exists s2,
    (match ts ?= 0 with
     | Gt => let! s := push_conv s1 (ts - 1) 0 in
             let! s := push_conv s 1 (ve - vs) in push_conv s (tf - ts) 0
     | Lt => let! s := push_conv s1 (tf + ts) 0 in
             let! s := push_conv s 1 (ve - vs) in push_conv s (- ts - 1) 0
     | Eq => push_conv s1 tf 0
     end) = Ok s2 /\ Forall seg_typed s2 /\ expand s2 = expand s1 ++ mid_ticks vs ve ts tf).
  { assert (D : i16_min <= ve - vs <= i16_max) by (apply Hi16; lia).
    assert (Z0 : i16_min <= 0 <= i16_max) by (unfold i16_min, i16_max; lia).
    unfold mid_ticks. destruct (Z.compare_spec ts 0).
    - destruct (push_conv_spec s1 tf 0) as (s2 & -> & Ty & Ex); auto; try lia. eauto.
    - destruct (push_conv_spec s1 (tf + ts) 0) as (s2 & -> & Ty & Ex); auto; try lia. cbn [bind].
      destruct (push_conv_spec s2 1 (ve - vs)) as (s3 & -> & Ty3 & Ex3); auto; try lia.
      { rewrite Ex, app_length, repeat_length. lia. }
      cbn [bind].
      destruct (push_conv_spec s3 (- ts - 1) 0) as (s4 & -> & Ty4 & Ex4); auto; try lia.
      { rewrite Ex3, Ex, !app_length, !repeat_length. lia. }
      exists s4. split; auto. split; auto. rewrite Ex4, Ex3, Ex, <- !app_assoc. reflexivity.
    - destruct (push_conv_spec s1 (ts - 1) 0) as (s2 & -> & Ty & Ex); auto; try lia. cbn [bind].
      destruct (push_conv_spec s2 1 (ve - vs)) as (s3 & -> & Ty3 & Ex3); auto; try lia.
      { rewrite Ex, app_length, repeat_length. lia. }
      cbn [bind].
      destruct (push_conv_spec s3 (tf - ts) 0) as (s4 & -> & Ty4 & Ex4); auto; try lia.
      { rewrite Ex3, Ex, !app_length, !repeat_length. lia. }
      exists s4. split; auto. split; auto. rewrite Ex4, Ex3, Ex, <- !app_assoc. reflexivity. }
  destruct S2 as (s2 & -> & Ty2 & Ex2). cbn [bind].
  (* last ramp *)
  assert (Hl2 : Z.of_nat (length (expand s2)) = t1 + tf).
  { rewrite Ex2, app_length. pose proof (mv_len _ _ _ _ _ _ _ _ RM). lia. }
  assert (S3 : exists s3,
    (if d4 =? 0 then push_conv s2 t4 (if ve <=? p_vn p then a else - a)
     else let! s := push_conv s2 1 ((p_vn p - (if ve <=? p_vn p then a else - a) * (t4 - 1)) - ve) in
          push_conv s (t4 - 1) (if ve <=? p_vn p then a else - a)) = Ok s3 /\
    Forall seg_typed s3 /\ expand s3 = expand s2 ++ ramp_last a ve (p_vn p) q4 d4).
  { unfold ramp_last in *. fold t4 in A4, L4 |- *.
    set (a4 := if ve <=? p_vn p then a else - a) in *.
    assert (Ha4 : Z.abs a4 <= a) by (unfold a4; destruct (ve <=? p_vn p); lia).
    destruct (Z.eqb_spec d4 0).
    - destruct (push_conv_spec s2 t4 a4) as (s3 & -> & Ty & Ex); auto; try lia. eauto.
    - assert (1 <= t4) by (destruct (Z.eq_dec t4 0) as [Z0|]; [|lia]; assert (q4 = 0) by lia; subst q4; lia).
      destruct (push_conv_spec s2 1 ((p_vn p - a4 * (t4 - 1)) - ve)) as (s3 & -> & Ty & Ex); auto; try lia.
      { apply Hi16, A4. left. auto. }
      cbn [bind].
      destruct (push_conv_spec s3 (t4 - 1) a4) as (s4 & -> & Ty4 & Ex4); auto; try lia.
      { rewrite Ex, app_length, repeat_length. lia. }
      exists s4. split; auto. split; auto. rewrite Ex4, Ex, <- !app_assoc. reflexivity. }
  destruct S3 as (s3 & -> & Ty3 & Ex3).
  exists s3. reflexivity.
Qed.
