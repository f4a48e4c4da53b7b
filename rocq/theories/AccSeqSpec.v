(** acc_seq of an adjusted path covers F(vflat) + 2 * t_adjust. *)
From Coq Require Import ZArith List Bool Lia.
From Coq Require Import ZifyBool ZifyNat.
From Verif Require Import Base AccVector MotionSpec AccVectorProofs IntegerCurve CurveArith AccSeqProofs.
Import ListNotations.
Open Scope Z_scope.

Lemma tk_step_pos : forall a w, 0 < a -> 0 <= w ->
  tk a w = if Z.rem w a =? 0 then fl a w else fl a w + 1.
Proof.
  intros a w Ha Hw. rewrite Z.rem_mod_nonneg by lia.
  destruct (split_pos a w Ha Hw) as (q & s & -> & Hq & Hs).
  assert (M : (a * q + s) mod a = s) by (symmetry; apply (Z.mod_unique _ _ q); lia).
  rewrite M, fl_at by lia. destruct (Z.eqb_spec s 0) as [->|].
  - rewrite Z.add_0_r. apply tk_mul; lia.
  - apply tk_pos; lia.
Qed.

Lemma tk_step_neg : forall a u, 0 < a -> u < 0 ->
  tk a (u + 1) = if Z.rem (u + 1) a =? 0 then fl a u else fl a u + 1.
Proof.
  intros a u Ha Hu. rewrite <- tk_opp, tk_step_pos by lia.
  rewrite (fl_neg a u) by lia. replace (- (u + 1)) with (- u - 1) by lia.
  replace (u + 1) with (- (- u - 1)) by lia. rewrite Z.rem_opp_l by lia.
  destruct (Z.eqb_spec (Z.rem (- u - 1) a) 0), (Z.eqb_spec (- Z.rem (- u - 1) a) 0); lia.
Qed.

Lemma acc_seq_spec : forall p lo hi,
  let a := p_amax p in let v := p_vflat p in let T := p_t_total p in
  let v0 := p_v0 p in let vn := p_vn p in let adj := p_t_adjust p in
  let tf := T - tk a (v - v0) - tk a (v - vn) in
  1 <= a <= i16_max -> 2 <= T -> 0 <= tf -> Z.abs adj <= tf ->
  (0 < adj -> v < v0 \/ v < vn) -> (adj < 0 -> v0 < v \/ vn < v) ->
  lo <= v0 <= hi -> lo <= vn <= hi -> lo <= v <= hi ->
  exists l, moves a lo hi v0 vn (F v0 vn a T v + 2 * adj) T l /\
    ((T <= u16_max -> exists s, acc_seq p = Ok s) /\
     (forall s, acc_seq p = Ok s -> Forall seg_typed s /\ expand s = l)).
Proof.
  intros p lo hi a v T v0 vn adj tf Ha HT Htf Hadj Hpos Hneg H0 Hn Hv.
  assert (Ha0 : 0 < a) by lia.
  assert (G := acc_seq_general p).
  unfold acc_seq_step in G. cbv zeta in G. fold a v T v0 vn adj in G.
  assert (RC : forall x, rem_chk x a = Ok (Z.rem x a)).
  { intros x. unfold rem_chk. destruct (Z.eqb_spec a 0); [lia|]. reflexivity. }
  destruct (Z.compare_spec adj 0) as [E|Hlt|Hgt].
  - destruct (G v v 0 lo hi) as (l & M & HS); auto; try lia; try (fold tf; lia).
    exists l. split; [|exact HS]. eapply moves_eq; [exact M| |reflexivity].
    rewrite E. unfold F, mid_dist. change (0 ?= 0) with Eq. cbv iota. lia.
  - specialize (Hneg Hlt). destruct (Z.ltb_spec vn v) as [Hvn|Hvn].
    + rewrite RC in G. cbn [bind] in G.
      pose proof (tk_step_pos a (v - vn - 1) Ha0 ltac:(lia)) as K.
      pose proof (tk_fl_pos a (v - vn) Ha0 ltac:(lia)) as K1.
      pose proof (Lf_diff a (v - vn - 1) Ha0) as D. replace (v - vn - 1 + 1) with (v - vn) in D by lia.
      replace (v - 1 - vn) with (v - vn - 1) in G by lia.
      destruct (G _ _ _ lo hi Ha HT eq_refl) as (l & M & HS); auto;
        replace (v - 1 - vn) with (v - vn - 1) in * by lia;
        try (destruct (Z.eqb_spec (Z.rem (v - vn - 1) a) 0); lia).
      exists l. split; [|exact HS]. eapply moves_eq; [exact M| |reflexivity].
      clear G M. unfold F, mid_dist.
      destruct (Z.eqb_spec (Z.rem (v - vn - 1) a) 0) as [R|R].
      * destruct (Z.compare_spec (adj - 1) 0); try lia; rewrite K; lia.
      * destruct (Z.compare_spec adj 0); try lia; rewrite K; lia.
    + destruct (Z.ltb_spec v0 v) as [Hv0|]; [|lia].
      cbn [assert bind] in G. rewrite RC in G. cbn [bind] in G.
      pose proof (tk_step_pos a (v - v0 - 1) Ha0 ltac:(lia)) as K.
      pose proof (tk_fl_pos a (v - v0) Ha0 ltac:(lia)) as K1.
      pose proof (Lf_diff a (v - v0 - 1) Ha0) as D. replace (v - v0 - 1 + 1) with (v - v0) in D by lia.
      replace (v - 1 - v0) with (v - v0 - 1) in G by lia.
      destruct (G _ _ _ lo hi Ha HT eq_refl) as (l & M & HS); auto;
        replace (v - 1 - v0) with (v - v0 - 1) in * by lia;
        try (destruct (Z.eqb_spec (Z.rem (v - v0 - 1) a) 0); lia).
      exists l. split; [|exact HS]. eapply moves_eq; [exact M| |reflexivity].
      clear G M. unfold F, mid_dist.
      destruct (Z.eqb_spec (Z.rem (v - v0 - 1) a) 0) as [R|R].
      * destruct (Z.compare_spec (- adj + 1) 0); try lia; rewrite K; lia.
      * destruct (Z.compare_spec (- adj) 0); try lia; rewrite K; lia.
  - specialize (Hpos Hgt). destruct (Z.gtb_spec vn v) as [Hvn|Hvn].
    + rewrite RC in G. cbn [bind] in G.
      pose proof (tk_step_neg a (v - vn) Ha0 ltac:(lia)) as K.
      pose proof (tk_fl_neg a (v - vn) Ha0 ltac:(lia)) as K1.
      pose proof (Lf_diff a (v - vn) Ha0) as D.
      replace (v + 1 - vn) with (v - vn + 1) in G by lia.
      destruct (G _ _ _ lo hi Ha HT eq_refl) as (l & M & HS); auto;
        replace (v + 1 - vn) with (v - vn + 1) in * by lia;
        try (destruct (Z.eqb_spec (Z.rem (v - vn + 1) a) 0); lia).
      exists l. split; [|exact HS]. eapply moves_eq; [exact M| |reflexivity].
      clear G M. unfold F, mid_dist.
      destruct (Z.eqb_spec (Z.rem (v - vn + 1) a) 0) as [R|R].
      * destruct (Z.compare_spec (- adj - 1) 0); try lia; rewrite K; lia.
      * destruct (Z.compare_spec (- adj) 0); try lia; rewrite K; lia.
    + destruct (Z.gtb_spec v0 v) as [Hv0|]; [|lia].
      cbn [assert bind] in G. rewrite RC in G. cbn [bind] in G.
      pose proof (tk_step_neg a (v - v0) Ha0 ltac:(lia)) as K.
      pose proof (tk_fl_neg a (v - v0) Ha0 ltac:(lia)) as K1.
      pose proof (Lf_diff a (v - v0) Ha0) as D.
      replace (v + 1 - v0) with (v - v0 + 1) in G by lia.
      destruct (G _ _ _ lo hi Ha HT eq_refl) as (l & M & HS); auto;
        replace (v + 1 - v0) with (v - v0 + 1) in * by lia;
        try (destruct (Z.eqb_spec (Z.rem (v - v0 + 1) a) 0); lia).
      exists l. split; [|exact HS]. eapply moves_eq; [exact M| |reflexivity].
      clear G M. unfold F, mid_dist.
      destruct (Z.eqb_spec (Z.rem (v - v0 + 1) a) 0) as [R|R].
      * destruct (Z.compare_spec (adj + 1) 0); try lia; rewrite K; lia.
      * destruct (Z.compare_spec adj 0); try lia; rewrite K; lia.
Qed.
