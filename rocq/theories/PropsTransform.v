(** Properties of parse_transform, parse_view_box and parse_length: C51, C52, C80. *)
From Coq Require Import Reals Lra ZArith List Bool NArith Arith Lia ZifyBool Ascii String.
From Verif Require Import Base Chars Coords PathBuild PathGrammar PathLex BuildProofs LexProofs PropsLex.
Import ListNotations.

(** ** Calls *)

Lemma tag_exact : forall t rest, tag t (t ++ rest) = Some (rest, t).
Proof.
  induction t as [|c t IH]; intros rest; [reflexivity|]. cbn [tag app]. rewrite N.eqb_refl. unfold pmap. rewrite IH. reflexivity.
Qed.
Lemma tag_sound : forall t, sound (tag t) (fun u v => u = t).
Proof.
  induction t as [|c t IH]; intros s rest v E.
  - injection E as <- <-. exists []. auto.
  - cbn [tag] in E. destruct s as [|d r]; [discriminate|]. destruct (N.eqb_spec c d) as [<-|]; [|discriminate].
    unfold pmap in E. destruct (tag t r) as [[r' v']|] eqn:T; [|discriminate]. injection E as <- <-.
    destruct (IH _ _ _ T) as (u & -> & ->). exists (c :: t). auto.
Qed.

Lemma pchar_exact : forall c rest, pchar c (c :: rest) = Some (rest, c).
Proof. intros c rest. unfold pchar, one_of, is_one_of. cbn [existsb]. rewrite N.eqb_refl. reflexivity. Qed.

Lemma call_exact : forall A name (p : parser A) args v t rest, call_text name args t -> stops is_space args -> args <> [] ->
  (forall c, all is_space c -> p (args ++ c ++ ch ")" :: rest) = Some (c ++ ch ")" :: rest, v)) ->
  call (chars name) p (t ++ rest) = Some (rest, v).
Proof.
  intros A name p args v t rest (a & b & c & HA & HB & HC & ->) S N P.
  unfold call, delimited, preceded, terminated, pmap, pair. rewrite <- !app_assoc, tag_exact.
  unfold wsp_opt, multispace0, take0. rewrite while0_app by (auto; reflexivity).
  change (chars "(" ++ b ++ args ++ c ++ chars ")" ++ rest) with (ch "(" :: b ++ args ++ c ++ ch ")" :: rest).
  rewrite pchar_exact, while0_app; [|auto|destruct args; [congruence|exact S]].
  rewrite P, while0_app by (auto; reflexivity). rewrite pchar_exact. reflexivity.
Qed.

Lemma call_sound : forall A name (p : parser A) P, sound p P ->
  sound (call (chars name) p) (fun t v => exists args, P args v /\ call_text name args t).
Proof.
  intros A name p P S. eapply sound_weaken.
  { apply preceded_sound; [|apply terminated_sound; [exact S|]].
    - apply pair_sound; [apply tag_sound|apply pair_sound; [apply take0_sound|apply pair_sound; [apply one_of_sound|apply take0_sound]]].
    - apply pair_sound; [apply take0_sound|apply one_of_sound]. }
  cbn beta. intros t v (t1 & t2 & x & -> & (n & r & -> & -> & a & r' & -> & [_ A1] & o & b & -> & (-> & O) & _ & B) &
    args & t3 & y & -> & HP & c & q & -> & (_ & C) & -> & Q).
  exists args. split; [exact HP|]. exists a, b, c. repeat split; auto.
  destruct O as [O|[]], Q as [Q|[]]. rewrite <- O, <- Q. rewrite <- !app_assoc. reflexivity.
Qed.

Lemma call_other : forall A name name' args (p : parser A) t rest, call_text name args t ->
  (forall r, tag (chars name') (chars name ++ r) = None) -> call (chars name') p (t ++ rest) = None.
Proof.
  intros A name name' args p t rest (a & b & c & _ & _ & _ & ->) H.
  unfold call, delimited, preceded, terminated, pmap, pair. rewrite <- app_assoc, H. reflexivity.
Qed.

(** ** Arguments *)

Lemma paren_ends : forall c rest, all is_space c -> list_ends (c ++ ch ")" :: rest).
Proof.
  intros c rest C. split.
  - apply stops_ends. destruct C as [|x c X C]; [reflexivity|]. cbn. apply space_white, white_not in X. tauto.
  - intros s1 v E. unfold comma_wsp, alt in E. rewrite comma_alt in E by (auto; reflexivity).
    change (ch ")" =? ch ",")%N with false in E. cbv iota in E. unfold multispace1, take1 in E.
    rewrite while0_app in E by (auto; reflexivity). destruct c as [|x c]; [discriminate|]. injection E as <- _.
    apply number_none. reflexivity.
Qed.

Lemma number_then : forall t v x, number_text t v -> number_ends x -> number (t ++ x) = Some (x, v).
Proof. auto. Qed.
Lemma separator_then : forall sp t vs x, separator sp -> numbers_text t vs -> comma_wsp (sp ++ t ++ x) = Some (t ++ x, sp).
Proof.
  intros sp t vs x SP T. destruct (numbers_head _ _ T) as (c & r & -> & C). apply num_char_not in C.
  apply separator_exact; cbn; tauto.
Qed.
Lemma numbers_stop : forall t vs, numbers_text t vs -> stops is_space t /\ t <> [].
Proof. intros t vs T. destruct (numbers_head _ _ T) as (c & r & -> & C). apply num_char_not in C. split; [cbn; tauto|discriminate]. Qed.
Lemma separator_ends : forall sp x, separator sp -> number_ends (sp ++ x).
Proof. intros sp x S. apply stops_ends, separator_stops. exact S. Qed.

(** After the last argument there is no further one. *)
Lemma no_more : forall B c rest (p : parser B), all is_space c -> (forall s, number s = None -> p s = None) ->
  preceded comma_wsp p (c ++ ch ")" :: rest) = None.
Proof.
  intros B c rest p C H. destruct (paren_ends c rest C) as [_ E]. unfold preceded, pmap, pair.
  destruct (comma_wsp (c ++ ch ")" :: rest)) as [[s1 v]|] eqn:D; [|reflexivity]. rewrite (H s1 (E _ _ eq_refl)). reflexivity.
Qed.

Lemma numbers_cons : forall t v vs, numbers_text t (v :: vs) ->
  match vs with
  | [] => number_text t v
  | _ => exists t1 sp r, t = t1 ++ sp ++ r /\ number_text t1 v /\ separator sp /\ numbers_text r vs
  end.
Proof.
  intros t v vs H. inversion H as [t' v' T|t1 v' sp r vs' T S R]; subst; [exact T|].
  assert (N : vs <> []) by (destruct R; discriminate). destruct vs; [congruence|]. exists t1, sp, r. auto.
Qed.



(** The text after the arguments. *)
Section Args.
Variables (c rest : list char) (C : all is_space c).
Let R0 : list char := c ++ ch ")" :: rest.
Lemma R0_ends : number_ends R0.
Proof. apply (paren_ends c rest C). Qed.

Lemma sep_number : forall sp t v vs x, separator sp -> numbers_text (t ++ x) (v :: vs) -> number_text t v ->
  forall r, number_ends (x ++ r) -> preceded comma_wsp number (sp ++ t ++ x ++ r) = Some (x ++ r, v).
Proof.
  intros sp t v vs x S T N r E. unfold preceded, pmap, pair. rewrite (app_assoc t).
  rewrite (separator_then sp (t ++ x) (v :: vs) r S T), <- app_assoc, (E t v N). reflexivity.
Qed.

Lemma args_1 : forall t x, numbers_text t [x] -> number (t ++ R0) = Some (R0, x).
Proof. intros t x T. apply R0_ends. exact (numbers_cons _ _ _ T). Qed.
Lemma args_last : forall sp t x, separator sp -> numbers_text t [x] -> preceded comma_wsp number (sp ++ t ++ R0) = Some (R0, x).
Proof.
  intros sp t x S T. unfold preceded, pmap, pair. rewrite (separator_then sp t [x] R0 S T), (args_1 t x T). reflexivity.
Qed.
Lemma args_12 : forall t x,
  (numbers_text t [x] -> pair number (opt (preceded comma_wsp number)) (t ++ R0) = Some (R0, (x, None))) /\
  (forall y, numbers_text t [x; y] -> pair number (opt (preceded comma_wsp number)) (t ++ R0) = Some (R0, (x, Some y))).
Proof.
  intros t x. split.
  - intros T. unfold pair. rewrite (args_1 t x T). unfold opt. unfold R0. rewrite no_more by auto. reflexivity.
  - intros y T. destruct (numbers_cons _ _ _ T) as (t1 & sp & r & -> & N & S & T2). rewrite <- !app_assoc. unfold pair.
    rewrite (separator_ends sp (r ++ R0) S t1 x N). unfold opt. rewrite args_last with (x := y) by auto. reflexivity.
Qed.
Lemma args_13 : forall t x,
  (numbers_text t [x] ->
   pair number (opt (pair (preceded comma_wsp number) (preceded comma_wsp number))) (t ++ R0) = Some (R0, (x, None))) /\
  (forall y z, numbers_text t [x; y; z] ->
   pair number (opt (pair (preceded comma_wsp number) (preceded comma_wsp number))) (t ++ R0) = Some (R0, (x, Some (y, z)))).
Proof.
  intros t x. split.
  - intros T. unfold pair at 1. rewrite (args_1 t x T). unfold opt, pair. unfold R0. rewrite no_more by auto. reflexivity.
  - intros y z T. destruct (numbers_cons _ _ _ T) as (t1 & sp & r & -> & N & S & T2). rewrite <- !app_assoc. unfold pair at 1.
    rewrite (separator_ends sp (r ++ R0) S t1 x N). unfold opt, pair.
    pose proof T2 as T2'. apply numbers_cons in T2. destruct T2 as (t2 & sp2 & r2 & -> & N2 & S2 & T3). rewrite <- !app_assoc.
    replace (sp ++ t2 ++ sp2 ++ r2 ++ R0) with (sp ++ t2 ++ (sp2 ++ r2) ++ R0) by (rewrite <- !app_assoc; reflexivity).
    rewrite (sep_number sp t2 y [z] (sp2 ++ r2)); auto.
    + rewrite <- !app_assoc. rewrite args_last with (x := z) by auto. reflexivity.
    + rewrite <- app_assoc. apply separator_ends. auto.
Qed.

Lemma args_step : forall t v vs x, vs <> [] -> numbers_text t (v :: vs) ->
  exists sp r, numbers_text r vs /\ forall A (q : parser A),
    pair number (pair comma_wsp q) (t ++ x) =
    match q (r ++ x) with None => None | Some (rest, w) => Some (rest, (v, (sp, w))) end.
Proof.
  intros t v vs x NE T. apply numbers_cons in T. destruct vs as [|v2 vs]; [congruence|].
  destruct T as (t1 & sp & r & -> & N & S & T). exists sp, r. split; [exact T|]. intros A q. rewrite <- !app_assoc. unfold pair.
  rewrite (separator_ends sp (r ++ x) S t1 v N), (separator_then sp r (v2 :: vs) x S T).
  destruct (q (r ++ x)) as [[rr w]|]; reflexivity.
Qed.
Lemma args_6 : forall t a b e d f g, numbers_text t [a; b; e; d; f; g] ->
  exists s1 s2 s3 s4 s5,
  (pair number (pair comma_wsp (pair number (pair comma_wsp (pair number (pair comma_wsp
        (pair number (pair comma_wsp (pair number (pair comma_wsp number)))))))))) (t ++ R0) =
  Some (R0, (a, (s1, (b, (s2, (e, (s3, (d, (s4, (f, (s5, g))))))))))).
Proof.
  intros t a b e d f g T.
  destruct (args_step t a [b; e; d; f; g] R0 ltac:(discriminate) T) as (s1 & r1 & T1 & E1). rewrite E1.
  destruct (args_step r1 b [e; d; f; g] R0 ltac:(discriminate) T1) as (s2 & r2 & T2 & E2). rewrite E2.
  destruct (args_step r2 e [d; f; g] R0 ltac:(discriminate) T2) as (s3 & r3 & T3 & E3). rewrite E3.
  destruct (args_step r3 d [f; g] R0 ltac:(discriminate) T3) as (s4 & r4 & T4 & E4). rewrite E4.
  destruct (args_step r4 f [g] R0 ltac:(discriminate) T4) as (s5 & r5 & T5 & E5). rewrite E5.
  rewrite (args_1 _ _ T5). exists s1, s2, s3, s4, s5. reflexivity.
Qed.
End Args.

Lemma sep_numbers_sound : sound (preceded comma_wsp number) (fun t v => exists sp r, t = sp ++ r /\ separator sp /\ number_text r v).
Proof.
  eapply sound_weaken; [apply preceded_sound; [apply separator_sound|apply number_sound]|].
  cbn beta. intros t v (sp & r & _ & -> & S & N). eauto.
Qed.

(** ** One transform *)

(** What a transform does to the points. *)
Definition acts (M : transform) (f : vec -> vec) : Prop := forall p, tapply M p = f p.

Lemma acts_ext : forall M N, (forall p, tapply M p = tapply N p) -> M = N.
Proof.
  intros [a b c d e f] [a' b' c' d' e' f'] H. unfold tapply in H. cbn in H.
  pose proof (H (mk_vec 0 0)) as H0. pose proof (H (mk_vec 1 0)) as H1. pose proof (H (mk_vec 0 1)) as H2. cbn in H0, H1, H2.
  assert (X0 := f_equal vx H0). assert (Y0 := f_equal vy H0). assert (X1 := f_equal vx H1). assert (Y1 := f_equal vy H1).
  assert (X2 := f_equal vx H2). assert (Y2 := f_equal vy H2). cbn in *. f_equal; lra.
Qed.

Lemma one_transform_exact : forall t f rest, transform_text t f -> exists M, one_transform (t ++ rest) = Some (rest, M) /\ acts M f.
Proof.
  Local Ltac other H := repeat (rewrite (call_other _ _ _ _ _ _ _ H) by (intros; reflexivity)).
  intros t f rest H. unfold one_transform, alt, matrix, translate, scale, rotate, skewx, skewy.
  destruct H as [t args a b c d e f T C|t args x T C|t args x y T C|t args x T C|t args x y T C|t args a T C|t args a x y T C|t args a T C|t args a T C];
    destruct (numbers_stop _ _ T) as [ST NE]; other C.
  - erewrite (call_exact _ _ _ args _ t rest C ST NE).
    2: { intros z Z. destruct (args_6 z rest Z _ _ _ _ _ _ _ T) as (s1 & s2 & s3 & s4 & s5 & E). unfold pmap. rewrite E. reflexivity. }
    eexists. split; [reflexivity|]. intros p. unfold tapply. cbn. f_equal; ring.
  - erewrite (call_exact _ _ _ args _ t rest C ST NE).
    2: { intros z Z. unfold pmap. rewrite (proj1 (args_12 z rest Z _ _) T). reflexivity. }
    eexists. split; [reflexivity|]. intros p. unfold tapply. cbn. f_equal; ring.
  - erewrite (call_exact _ _ _ args _ t rest C ST NE).
    2: { intros z Z. unfold pmap. rewrite (proj2 (args_12 z rest Z _ _) _ T). reflexivity. }
    eexists. split; [reflexivity|]. intros p. unfold tapply. cbn. f_equal; ring.
  - erewrite (call_exact _ _ _ args _ t rest C ST NE).
    2: { intros z Z. unfold pmap. rewrite (proj1 (args_12 z rest Z _ _) T). reflexivity. }
    eexists. split; [reflexivity|]. intros p. unfold tapply. cbn. f_equal; ring.
  - erewrite (call_exact _ _ _ args _ t rest C ST NE).
    2: { intros z Z. unfold pmap. rewrite (proj2 (args_12 z rest Z _ _) _ T). reflexivity. }
    eexists. split; [reflexivity|]. intros p. unfold tapply. cbn. f_equal; ring.
  - erewrite (call_exact _ _ _ args _ t rest C ST NE).
    2: { intros z Z. unfold pmap. rewrite (proj1 (args_13 z rest Z _ _) T). reflexivity. }
    eexists. split; [reflexivity|]. intros p. unfold tapply, trotate, degrees. cbn [m0 m1 m2 m3 m4 m5]. f_equal; ring.
  - erewrite (call_exact _ _ _ args _ t rest C ST NE).
    2: { intros z Z. unfold pmap. rewrite (proj2 (args_13 z rest Z _ _) _ _ T). reflexivity. }
    eexists. split; [reflexivity|]. intros p. unfold tapply, trotate_around, degrees. cbn [m0 m1 m2 m3 m4 m5 vx vy]. f_equal; ring.
  - erewrite (call_exact _ _ _ args _ t rest C ST NE).
    2: { intros z Z. unfold pmap. rewrite (args_1 z rest Z _ _ T). reflexivity. }
    eexists. split; [reflexivity|]. intros p. unfold tapply, tskew_x, degrees. cbn [m0 m1 m2 m3 m4 m5]. f_equal; ring.
  - erewrite (call_exact _ _ _ args _ t rest C ST NE).
    2: { intros z Z. unfold pmap. rewrite (args_1 z rest Z _ _ T). reflexivity. }
    eexists. split; [reflexivity|]. intros p. unfold tapply, tskew_y, degrees. cbn [m0 m1 m2 m3 m4 m5]. f_equal; ring.
Qed.

Lemma args_12_sound : sound (pair number (opt (preceded comma_wsp number)))
  (fun t v => numbers_text t (fst v :: match snd v with Some y => [y] | None => [] end)).
Proof.
  eapply sound_weaken; [apply pair_sound; [apply number_sound|apply opt_sound, sep_numbers_sound]|].
  cbn beta. intros t [x [y|]] (t1 & t2 & -> & N & H); cbn [fst snd] in *.
  - destruct H as (sp & r & -> & S & N2). apply numbers_more; auto. apply numbers_one; auto.
  - subst t2. rewrite app_nil_r. constructor. auto.
Qed.
Lemma args_13_sound : sound (pair number (opt (pair (preceded comma_wsp number) (preceded comma_wsp number))))
  (fun t v => numbers_text t (fst v :: match snd v with Some (y, z) => [y; z] | None => [] end)).
Proof.
  eapply sound_weaken; [apply pair_sound; [apply number_sound|apply opt_sound, pair_sound; apply sep_numbers_sound]|].
  cbn beta. intros t [x [[y z]|]] (t1 & t2 & -> & N & H); cbn [fst snd] in *.
  - destruct H as (u1 & u2 & -> & (sp & r & -> & S & N2) & (sp2 & r2 & -> & S2 & N3)). rewrite <- app_assoc. apply numbers_more; auto. apply numbers_more; auto. apply numbers_one; auto.
  - subst t2. rewrite app_nil_r. constructor. auto.
Qed.
Lemma args_6_sound : sound
  (pair number (pair comma_wsp (pair number (pair comma_wsp (pair number (pair comma_wsp
        (pair number (pair comma_wsp (pair number (pair comma_wsp number))))))))))
  (fun t '(a, (_, (b, (_, (c, (_, (d, (_, (e, (_, f)))))))))) => numbers_text t [a; b; c; d; e; f]).
Proof.
  eapply sound_weaken.
  { repeat (apply pair_sound; [apply number_sound|apply pair_sound; [apply separator_sound|]]). apply number_sound. }
  intros t (a & s1 & b & s2 & c & s3 & d & s4 & e & s5 & f) (t1 & r1 & -> & N1 & p1 & q1 & -> & S1 & t2 & r2 & -> & N2 & p2 & q2 & -> & S2 &
    t3 & r3 & -> & N3 & p3 & q3 & -> & S3 & t4 & r4 & -> & N4 & p4 & q4 & -> & S4 & t5 & r5 & -> & N5 & p5 & t6 & -> & S5 & N6).
  cbn [fst snd] in *. repeat (apply numbers_more; auto). apply numbers_one; auto.
Qed.

Lemma one_transform_sound : sound one_transform (fun t M => exists f, transform_text t f /\ acts M f).
Proof.
  intros s rest M E.
  assert (X : exists t, s = t ++ rest /\ exists f, transform_text t f).
  { revert s rest M E. change (sound one_transform (fun t M => exists f, transform_text t f)). unfold one_transform.
    eapply sound_weaken.
    { apply alt_sound; [|apply alt_sound; [|apply alt_sound; [|apply alt_sound; [|apply alt_sound]]]]; apply call_sound;
        apply pmap_sound.
      - apply args_6_sound.
      - apply args_12_sound.
      - apply args_12_sound.
      - apply args_13_sound.
      - apply number_sound.
      - apply number_sound. }
    cbn beta. intros t v [H|[H|[H|[H|[H|H]]]]]; destruct H as (args & (w & W & _) & C).
    - destruct w as (a & s1 & b & s2 & c & s3 & d & s4 & e & s5 & f). eexists. eapply text_matrix; [exact W|exact C].
    - destruct w as [x [y|]]; eexists; [eapply text_translate2|eapply text_translate1]; [exact W|exact C|exact W|exact C].
    - destruct w as [x [y|]]; eexists; [eapply text_scale2|eapply text_scale1]; [exact W|exact C|exact W|exact C].
    - destruct w as [x [[y z]|]]; eexists; [eapply text_rotate3|eapply text_rotate1]; [exact W|exact C|exact W|exact C].
    - eexists. eapply text_skewx; [apply numbers_one; exact W|exact C].
    - eexists. eapply text_skewy; [apply numbers_one; exact W|exact C]. }
  destruct X as (t & -> & f & T). destruct (one_transform_exact t f rest T) as (M' & E' & A). rewrite E' in E. injection E as <-.
  exists t. split; [reflexivity|]. exists f. auto.
Qed.

(** ** Lists of transforms *)

(** The last transform of the list is applied first. *)
Definition compose (fs : list (vec -> vec)) (p : vec) : vec := fold_right (fun f p => f p) p fs.

Lemma tmul_acts : forall M N f g, acts M f -> acts N g -> acts (tmul M N) (fun p => f (g p)).
Proof.
  intros M N f g A B p. rewrite <- A, <- B. unfold tapply, tmul. cbn. f_equal; ring.
Qed.

Lemma transform_head : forall t f, transform_text t f -> exists c r, t = c :: r /\ is_space c = false /\ (ch "," =? c)%N = false.
Proof.
  intros t f H.
  assert (K : forall name args, call_text name args t -> (exists c r, chars name = c :: r /\ is_space c = false /\ (ch "," =? c)%N = false) ->
    exists c r, t = c :: r /\ is_space c = false /\ (ch "," =? c)%N = false).
  { intros name args (a & b & c & _ & _ & _ & ->) (d & r & -> & D). eexists _, _. split; [reflexivity|exact D]. }
  destruct H as [t args a b c d e f T C|t args x T C|t args x y T C|t args x T C|t args x y T C|t args a T C|t args a x y T C|t args a T C|t args a T C];
    apply (K _ _ C); eexists _, _; repeat split; reflexivity.
Qed.
Lemma transforms_head : forall t fs, transforms_text t fs -> exists c r, t = c :: r /\ is_space c = false /\ (ch "," =? c)%N = false.
Proof.
  intros t fs [t' f T|t' f sp r fs' T S R]; destruct (transform_head _ _ T) as (c & x & -> & C); [eauto|].
  eexists _, _. split; [reflexivity|exact C].
Qed.

Lemma transforms_sound : forall fuel, sound (transforms fuel) (fun t M => exists fs, transforms_text t fs /\ acts M (compose fs)).
Proof.
  induction fuel as [|fuel IH]; [discriminate|]. cbn [transforms]. eapply sound_weaken.
  { apply alt_sound; [|apply one_transform_sound]. apply pmap_sound. unfold separated_pair.
    apply pair_sound; [apply one_transform_sound|]. apply preceded_sound; [apply separator_sound|exact IH]. }
  cbn beta. intros t M [([A B] & (t1 & t2 & -> & (f & T & AF) & sp & r & _ & -> & S & fs & TS & AS) & ->)|(f & T & A)]; cbn [fst snd] in *.
  - exists (f :: fs). split; [apply transforms_more; auto|]. exact (tmul_acts _ _ _ _ AF AS).
  - exists [f]. split; [apply transforms_one; auto|exact A].
Qed.

(** [rest] does not go on with a separator and a transform. *)
Definition no_transform (rest : list char) : Prop :=
  forall sp u f r, rest = sp ++ u ++ r -> separator sp -> ~ transform_text u f.

Lemma transforms_first : forall t fs, transforms_text t fs -> exists u f r, t = u ++ r /\ transform_text u f.
Proof.
  intros t fs [t' f T|t' f sp r fs' T S R]; [exists t', f, []; rewrite app_nil_r; auto|eauto].
Qed.

Lemma transforms_exact : forall t fs, transforms_text t fs -> forall fuel rest, no_transform rest -> (List.length t < fuel)%nat ->
  exists M, transforms fuel (t ++ rest) = Some (rest, M) /\ acts M (compose fs).
Proof.
  intros t fs H. induction H as [t f T|t f sp r fs T S R IH]; intros fuel rest NT F; (destruct fuel as [|fuel]; [lia|]); cbn [transforms];
    unfold alt, pmap, separated_pair, pair, preceded, pmap, pair.
  - destruct (one_transform_exact t f rest T) as (M & E & A). rewrite E.
    exists M. split; [|exact A]. destruct (comma_wsp rest) as [[s1 v]|] eqn:C; [|reflexivity].
    destruct (transforms fuel s1) as [[s2 w]|] eqn:D; [|reflexivity]. exfalso.
    destruct (separator_sound _ _ _ C) as (sp & -> & SP). destruct (transforms_sound _ _ _ _ D) as (t2 & -> & fs & TS & _).
    destruct (transforms_first _ _ TS) as (u & g & r & -> & TU). apply (NT sp u g (r ++ s2)); auto. rewrite <- app_assoc. reflexivity.
  - rewrite <- !app_assoc. destruct (one_transform_exact t f (sp ++ r ++ rest) T) as (M & E & A). rewrite E.
    destruct (transforms_head _ _ R) as (c & r' & Q & C1 & C2).
    rewrite separator_exact; [|exact S|subst r; exact C1|subst r; exact C2].
    rewrite !app_length in F. apply separator_nonempty in S. destruct sp as [|x sp]; [congruence|]. cbn in F. destruct (IH fuel rest NT ltac:(lia)) as (N & E' & B). rewrite E'.
    exists (tmul M N). split; [reflexivity|]. exact (tmul_acts _ _ _ _ A B).
Qed.

(** At least the whole of a list is taken. *)
Lemma transforms_leaves : forall t fs, transforms_text t fs -> forall fuel rest, (List.length t < fuel)%nat ->
  leaves (transforms fuel) (t ++ rest) (List.length rest).
Proof.
  intros t fs H. induction H as [t f T|t f sp r fs T S R IH]; intros fuel rest F; (destruct fuel as [|fuel]; [lia|]); cbn [transforms];
    unfold alt, pmap, separated_pair, pair, preceded, pmap, pair, leaves.
  - destruct (one_transform_exact t f rest T) as (M & E & A). rewrite E.
    destruct (comma_wsp rest) as [[s1 v]|] eqn:C; [|eauto].
    destruct (transforms fuel s1) as [[s2 w]|] eqn:D; [|eauto].
    destruct (separator_sound _ _ _ C) as (sp & -> & SP). destruct (transforms_sound _ _ _ _ D) as (t2 & -> & _).
    eexists _, _. split; [reflexivity|]. rewrite !app_length. lia.
  - rewrite <- !app_assoc. destruct (one_transform_exact t f (sp ++ r ++ rest) T) as (M & E & A). rewrite E.
    destruct (transforms_head _ _ R) as (c & r' & Q & C1 & C2).
    rewrite separator_exact; [|exact S|subst r; exact C1|subst r; exact C2].
    rewrite !app_length in F. apply separator_nonempty in S. destruct sp as [|x sp]; [congruence|]. cbn in F. destruct (IH fuel rest ltac:(lia)) as (s2 & N & E' & L). rewrite E'. eauto.
Qed.

Lemma transform_list_eq : forall w t c r, all is_space w -> t = c :: r -> is_space c = false ->
  transform_list (w ++ t) = transforms (S (List.length (w ++ t))) t.
Proof.
  intros w t c r W -> C. unfold transform_list, preceded, pmap, pair, multispace0, take0. rewrite while0_app by auto.
  destruct (transforms _ _) as [[x y]|]; reflexivity.
Qed.

(** ** C51 *)

(** A list of transforms gives one transform that applies them to a point from the last to the first. *)
Theorem C51_compose : forall w t fs, all is_space w -> transforms_text t fs ->
  exists M, parse_transform (w ++ t) = Some M /\ forall p, tapply M p = compose fs p.
Proof.
  intros w t fs W T. destruct (transforms_head _ _ T) as (c & r & Q & C & _).
  unfold parse_transform. rewrite (transform_list_eq w t c r W Q C).
  destruct (transforms_exact t fs T (S (List.length (w ++ t))) []) as (M & E & A).
  - intros sp u f x Z SP _. apply separator_nonempty in SP. destruct sp; [congruence|discriminate].
  - rewrite app_length. lia.
  - rewrite app_nil_r in E. rewrite E. exists M. auto.
Qed.

(** Two lists after one another give the product. *)
Theorem C51_product : forall w w' t t' sp fs fs', all is_space w -> all is_space w' -> transforms_text t fs -> transforms_text t' fs' ->
  separator sp -> exists M M', parse_transform (w ++ t) = Some M /\ parse_transform (w' ++ t') = Some M' /\
    parse_transform (w ++ t ++ sp ++ t') = Some (tmul M M').
Proof.
  intros w w' t t' sp fs fs' W W' T T' SP.
  destruct (C51_compose w t fs W T) as (M & E & A). destruct (C51_compose w' t' fs' W' T') as (M' & E' & A').
  assert (TT : transforms_text (t ++ sp ++ t') (fs ++ fs')).
  { clear -T T' SP. induction T as [t f T|t f sp2 r fs T S R IH]; cbn [app]; [constructor; auto|].
    rewrite <- !app_assoc. constructor; auto. }
  destruct (C51_compose w _ _ W TT) as (P & EP & AP). exists M, M'. repeat split; auto. rewrite EP. f_equal. apply acts_ext.
  intros p. rewrite AP. unfold compose. rewrite fold_right_app. fold (compose fs' p). rewrite <- A'.
  fold (compose fs (tapply M' p)). rewrite <- A. unfold tapply, tmul. cbn. f_equal; ring.
Qed.

(** The reading of a list is unique. *)
Theorem C51_unambiguous : forall t fs fs', transforms_text t fs -> transforms_text t fs' -> forall p, compose fs p = compose fs' p.
Proof.
  intros t fs fs' T T' p. destruct (C51_compose [] t fs) as (M & E & A); [constructor|exact T|].
  destruct (C51_compose [] t fs') as (M' & E' & A'); [constructor|exact T'|]. rewrite E in E'. injection E' as <-. congruence.
Qed.

(** ** C52 *)

(** What is read is the longest list at the start (after white space); the rest is ignored. *)
Theorem C52_longest : forall s M,
  parse_transform s = Some M <->
  exists w t fs rest, s = w ++ t ++ rest /\ all is_space w /\ transforms_text t fs /\ (forall p, tapply M p = compose fs p) /\
    forall t' fs' rest', t ++ rest = t' ++ rest' -> transforms_text t' fs' -> (List.length t' <= List.length t)%nat.
Proof.
  intros s M.
  assert (MAX : forall w t fs rest, all is_space w -> transforms_text t fs -> exists r N, transforms (S (List.length (w ++ t ++ rest))) (t ++ rest) = Some (r, N) /\
    transform_list (w ++ t ++ rest) = Some (r, N) /\ (List.length r <= List.length rest)%nat).
  { intros w t fs rest W T. destruct (transforms_head _ _ T) as (c & x & -> & C & _).
    destruct (transforms_leaves _ _ T (S (List.length (w ++ (c :: x) ++ rest))) rest) as (r & N & E & L); [rewrite !app_length; lia|].
    exists r, N. rewrite (transform_list_eq w ((c :: x) ++ rest) c (x ++ rest)) by auto. auto. }
  split.
  - unfold parse_transform. destruct (transform_list s) as [[rest N]|] eqn:E; [|discriminate]. intros [= <-].
    pose proof E as E0. unfold transform_list, preceded, pmap, pair, multispace0, take0 in E.
    destruct (while0 is_space s) as [s1 w] eqn:W. apply while0_spec in W. destruct W as (-> & W & _).
    destruct (transforms _ s1) as [[r N']|] eqn:D; [|discriminate]. injection E as <- ->.
    destruct (transforms_sound _ _ _ _ D) as (t & -> & fs & T & A). exists w, t, fs, r. do 4 (split; [solve [auto]|]).
    intros t' fs' rest' Q T'. destruct (MAX w t' fs' rest' W T') as (r' & N' & _ & E' & L). rewrite <- Q, E0 in E'.
    injection E' as <- <-. apply (f_equal (@List.length char)) in Q. rewrite !app_length in Q. lia.
  - intros (w & t & fs & rest & -> & W & T & A & LG). destruct (MAX w t fs rest W T) as (r & N & E0 & E & L).
    unfold parse_transform. rewrite E. f_equal.
    destruct (transforms_sound _ _ _ _ E0) as (t' & Q & fs' & T' & A'). pose proof (LG _ _ _ Q T') as LE.
    assert (S : t = t').
    { apply (f_equal (@List.length char)) in Q as LL. rewrite !app_length in LL.
      apply app_eq_app in Q. destruct Q as [l [[-> ->]|[-> ->]]]; rewrite !app_length in *;
        (destruct l; [rewrite ?app_nil_r; auto|cbn in *; lia]). }
    subst t'. apply acts_ext. intros p. rewrite A, A'. apply (C51_unambiguous t); auto.
Qed.

(** If nothing but the list is in the text, nothing is ignored (C51_compose).  What follows a
    list without a separator, or after a separator that is followed by something else than a
    transform, is dropped without a word. *)
Theorem C52_dropped : forall w t fs rest, all is_space w -> transforms_text t fs ->
  (forall sp u f r, rest = sp ++ u ++ r -> separator sp -> ~ transform_text u f) ->
  parse_transform (w ++ t ++ rest) = parse_transform (w ++ t).
Proof.
  intros w t fs rest W T NT. destruct (transforms_head _ _ T) as (c & r & Q & C & _).
  destruct (C51_compose w t fs W T) as (N & E & A). rewrite E. unfold parse_transform.
  rewrite (transform_list_eq w (t ++ rest) c (r ++ rest)); [|auto|subst t; reflexivity|auto].
  destruct (transforms_exact t fs T (S (List.length (w ++ t ++ rest))) rest NT) as (M & E' & A').
  { rewrite !app_length. lia. }
  rewrite E'. f_equal. apply acts_ext. intros p. rewrite A, A'. reflexivity.
Qed.

(** Without any transform at the start there is an error. *)
Theorem C52_error : forall s, parse_transform s = None <->
  forall w t f rest, s = w ++ t ++ rest -> all is_space w -> ~ transform_text t f.
Proof.
  intros s. split.
  - intros E w t f rest -> W T. assert (TT : transforms_text t [f]) by (constructor; auto).
    destruct (transforms_head _ _ TT) as (c & x & -> & C & _).
    destruct (transforms_leaves _ _ TT (S (List.length (w ++ (c :: x) ++ rest))) rest) as (r & N & E' & L); [rewrite !app_length; lia|].
    unfold parse_transform in E. rewrite (transform_list_eq w ((c :: x) ++ rest) c (x ++ rest)), E' in E by auto. discriminate.
  - intros H. destruct (parse_transform s) as [M|] eqn:E; [|reflexivity]. exfalso.
    apply C52_longest in E. destruct E as (w & t & fs & rest & -> & W & T & _).
    destruct (transforms_first _ _ T) as (u & f & r & -> & TU). apply (H w u f (r ++ rest)); auto. rewrite <- app_assoc. reflexivity.
Qed.

Lemma no_transform_next : forall rest, (forall s1 v, comma_wsp rest = Some (s1, v) -> one_transform s1 = None) -> no_transform rest.
Proof.
  intros rest H sp u f r -> SP T. destruct (transform_head _ _ T) as (c & x & Q & C1 & C2).
  assert (E : comma_wsp (sp ++ u ++ r) = Some (u ++ r, sp)) by (apply separator_exact; subst u; auto).
  apply H in E. destruct (one_transform_exact u f r T) as (M & E' & _). congruence.
Qed.

Lemma call_short : forall name args, call_text name args (chars name ++ chars "(" ++ args ++ chars ")").
Proof. intros name args. exists [], [], []. repeat split; constructor. Qed.

(** First doubled, then moved. *)
Example C51_example : exists M, parse_transform (chars " translate(1,2) scale(2)") = Some M /\
  forall x y, tapply M (mk_vec x y) = mk_vec (2 * x + 1) (2 * y + 2).
Proof.
  pose proof (text_digit (ch "1") eq_refl) as N1. pose proof (text_digit (ch "2") eq_refl) as N2.
  assert (T1 : transform_text (chars "translate(1,2)") (fun p => mk_vec (vx p + 1) (vy p + 2))).
  { apply (text_translate2 _ (chars "1,2")); [|apply (call_short "translate")].
    apply (numbers_more [ch "1"] 1 (chars ",") [ch "2"] [2%R]); [exact N1| |apply numbers_one; exact N2].
    left. exists [], []. repeat split; constructor. }
  assert (T2 : transform_text (chars "scale(2)") (fun p => mk_vec (2 * vx p) (2 * vy p))).
  { apply (text_scale1 _ (chars "2")); [apply numbers_one; exact N2|apply (call_short "scale")]. }
  destruct (C51_compose (chars " ") (chars "translate(1,2) scale(2)")
    [fun p => mk_vec (vx p + 1) (vy p + 2); fun p => mk_vec (2 * vx p) (2 * vy p)]) as (M & E & A).
  - repeat constructor.
  - apply (transforms_more (chars "translate(1,2)") _ (chars " ") (chars "scale(2)")); [exact T1| |apply transforms_one; exact T2].
    right. split; [discriminate|repeat constructor].
  - exists M. split; [exact E|]. intros x y. rewrite A. reflexivity.
Qed.

(** The second scale is lost: without a separator, and with two commas. *)
Example C52_example : exists M, parse_transform (chars "scale(2)") = Some M /\
  parse_transform (chars "scale(2)scale(3)") = Some M /\ parse_transform (chars "scale(2),,scale(3)") = Some M /\
  (forall x y, tapply M (mk_vec x y) = mk_vec (2 * x) (2 * y)) /\ parse_transform (chars "matrix(1)") = None.
Proof.
  pose proof (text_digit (ch "2") eq_refl) as N2.
  assert (T : transforms_text (chars "scale(2)") [fun p => mk_vec (2 * vx p) (2 * vy p)]).
  { apply transforms_one, (text_scale1 _ (chars "2")); [apply numbers_one; exact N2|apply (call_short "scale")]. }
  destruct (C51_compose [] _ _ (Forall_nil _) T) as (M & E & A). exists M. split; [exact E|].
  split; [|split; [|split]].
  - rewrite <- E. apply (C52_dropped [] (chars "scale(2)") _ (chars "scale(3)") (Forall_nil _) T). apply no_transform_next.
    intros s1 v C. discriminate C.
  - rewrite <- E. apply (C52_dropped [] (chars "scale(2)") _ (chars ",,scale(3)") (Forall_nil _) T). apply no_transform_next.
    intros s1 v C. change (comma_wsp (chars ",,scale(3)")) with (Some (chars ",scale(3)", chars ",")) in C. injection C as <- _. reflexivity.
  - intros x y. rewrite A. reflexivity.
  - reflexivity.
Qed.

(** ** C80: lengths and view boxes *)

(** Millimetres per unit, as the code has them. *)
Definition unit_names : list (string * R) :=
  [("mm", 1); ("cm", 10); ("in", 25.4); ("px", 1); ("pt", 25.4 / 72); ("pc", 25.4 / 6)]%string%R.

Definition starts (t s : list char) : Prop := exists r, s = t ++ r.

(** The factor of the unit at the start of the text: 1 if there is none. *)
Definition factor (s : list char) (k : R) : Prop :=
  (exists u, In (u, k) unit_names /\ starts (chars u) s) \/
  (k = 1%R /\ forall u k', In (u, k') unit_names -> ~ starts (chars u) s).

Lemma length_unit_some : forall s r k, length_unit s = Some (r, k) -> factor s k.
Proof.
  intros s r k E.
  assert (S : sound length_unit (fun t k => exists u, In (u, k) unit_names /\ t = chars u)).
  { eapply sound_weaken.
    { unfold length_unit. repeat (apply alt_sound; [apply pmap_sound, tag_sound|]). apply pmap_sound, tag_sound. }
    cbn beta. intros t v H.
    repeat match type of H with _ \/ _ => destruct H as [H|H] end; destruct H as (w & -> & ->).
    1: exists "mm"%string. 2: exists "cm"%string. 3: exists "in"%string. 4: exists "px"%string. 5: exists "pt"%string. 6: exists "pc"%string.
    all: split; [|reflexivity]; unfold unit_names, PX, PT, INCH.
    1: left; reflexivity.
    1: right; left; reflexivity.
    1: do 2 right; left; reflexivity.
    1: do 3 right; left; reflexivity.
    1: do 4 right; left; reflexivity.
    do 5 right; left. f_equal. lra. }
  destruct (S _ _ _ E) as (t & -> & u & U & ->). left. exists u. split; [exact U|]. exists r. reflexivity.
Qed.
Lemma length_unit_none : forall s, length_unit s = None -> factor s 1.
Proof.
  intros s E. right. split; [reflexivity|]. intros u k U (r & ->). unfold length_unit, alt, pvalue, pmap in E.
  repeat match type of E with context [tag ?t ?x] => destruct (tag t x) as [[? ?]|] eqn:?; [discriminate|] end.
  repeat (destruct U as [U|U]; [injection U as <- _; rewrite tag_exact in *; discriminate|]). destruct U.
Qed.
Lemma factor_unique : forall s k k', factor s k -> factor s k' -> k = k'.
Proof.
  intros s k k' [(u & U & (r & ->))|[-> N]] [(u' & U' & (r' & Q))|[-> N']]; try reflexivity.
  - assert (L : forall u k, In (u, k) unit_names -> exists a b, chars u = [a; b]).
    { clear. intros u k H. repeat (destruct H as [H|H]; [injection H as <- _; eexists _, _; reflexivity|]). destruct H. }
    destruct (L _ _ U) as (a & b & E). destruct (L _ _ U') as (a' & b' & E'). rewrite E, E' in Q. injection Q as <- <- _.
    clear L. rewrite <- E' in E. clear E'.
    repeat (destruct U as [U|U]; [injection U as <- <-;
      repeat (destruct U' as [U'|U']; [injection U' as <- <-; first [reflexivity|discriminate E]|]); destruct U'|]).
    destruct U.
  - exfalso. apply (N' u k U). exists r. reflexivity.
  - exfalso. apply (N u' k' U'). exists r'. exact Q.
Qed.

(** A length is white space and the longest number that follows, times the factor of the unit
    that comes next (after white space).  Anything else that comes next counts as no unit and is
    ignored, and so is what follows the unit. *)
Theorem C80_length : forall s v, parse_length s = Some v <->
  exists w t x sp rest k, s = w ++ t ++ sp ++ rest /\ all is_space w /\ number_text t x /\
    (forall t' x' r', t ++ sp ++ rest = t' ++ r' -> number_text t' x' -> (List.length t' <= List.length t)%nat) /\
    all is_space sp /\ stops is_space rest /\ factor rest k /\ v = (x * k)%R.
Proof.
  intros s v. unfold parse_length, physical_length, pmap, pair, wsp_opt, multispace0, take0. split.
  - destruct (while0 is_space s) as [s1 w] eqn:W. destruct (number s1) as [[s2 x]|] eqn:N; [|discriminate].
    destruct (while0 is_space s2) as [s3 sp] eqn:W2. apply while0_spec in W, W2.
    destruct W as (-> & W & _). destruct W2 as (-> & W2 & ST).
    apply C48_longest in N. destruct N as (t & -> & T & LG).
    unfold opt, terminated, pmap, pair. destruct (length_unit s3) as [[s4 k]|] eqn:U.
    + destruct (while0 is_space s4) as [s5 z] eqn:W3. cbn [fst]. intros [= <-].
      exists w, t, x, sp, s3, k. split; [reflexivity|]. do 6 (split; [solve [eauto using length_unit_some]|]). reflexivity.
    + intros [= <-]. exists w, t, x, sp, s3, 1%R. split; [reflexivity|].
      do 6 (split; [solve [eauto using length_unit_none]|]). ring.
  - intros (w & t & x & sp & rest & k & -> & W & T & LG & SP & ST & F & ->).
    assert (HN : stops is_space (t ++ sp ++ rest)).
    { pose proof (number_nonempty _ _ T) as NE. apply number_chars in T. destruct T as [|c t C T]; [congruence|]. cbn.
      apply num_char_not in C. tauto. }
    rewrite while0_app by auto.
    assert (N : number (t ++ sp ++ rest) = Some (sp ++ rest, x)).
    { apply C48_longest. exists t. split; [reflexivity|]. split; [exact T|]. intros t' x' r' Q T'. eapply LG; eauto. }
    rewrite N, while0_app by auto. unfold opt, terminated, pmap, pair. destruct (length_unit rest) as [[s4 k']|] eqn:U.
    + destruct (while0 is_space s4) as [s5 z] eqn:W3. cbn [fst]. f_equal. f_equal. eapply factor_unique; [|exact F].
      eapply length_unit_some; eauto.
    + f_equal. rewrite (factor_unique _ _ _ F (length_unit_none _ U)). ring.
Qed.

(** A px is taken for a millimetre (CSS: 1/96 inch); a length with a unit that is not in the list
    reads as millimetres. *)
Example C80_example : parse_length (chars " 2cm") = Some 20%R /\ parse_length (chars "2 px") = Some 2%R /\
  parse_length (chars "2em") = Some 2%R /\ parse_length (chars "2%") = Some 2%R /\ parse_length (chars "em") = None.
Proof.
  pose proof (text_digit (ch "2") eq_refl) as N2. cbn in N2.
  assert (G : forall w sp rest k, all is_space w -> all is_space sp -> stops is_space rest -> factor rest k ->
    number (ch "2" :: sp ++ rest) = Some (sp ++ rest, 2%R) -> parse_length (w ++ [ch "2"] ++ sp ++ rest) = Some (2 * k)%R).
  { intros w sp rest k W SP ST F N. apply C80_length. exists w, [ch "2"], 2%R, sp, rest, k. 
    split; [reflexivity|]. split; [auto|]. split; [exact N2|]. split; [|auto].
    apply C48_longest in N. destruct N as (t & Q & T & LG). intros t' x' r' Q' T'. specialize (LG _ _ _ Q' T').
    apply (f_equal (@List.length char)) in Q. cbn in Q. rewrite !app_length in Q. cbn. lia. }
  assert (NU : forall s, length_unit s = None -> factor s 1) by (apply length_unit_none).
  split; [|split; [|split; [|split]]].
  - replace 20%R with (2 * 10)%R by ring. apply (G (chars " ") [] (chars "cm")); [repeat constructor|repeat constructor|reflexivity| |].
    + left. exists "cm"%string. split; [right; left; reflexivity|]. exists []. reflexivity.
    + apply (number_exact [ch "2"] 2 (chars "cm")); [exact N2|reflexivity].
  - replace (Some 2%R) with (Some (2 * 1)%R) by (f_equal; ring). apply (G [] (chars " ") (chars "px")); [repeat constructor|repeat constructor|reflexivity| |].
    + left. exists "px"%string. split; [do 3 right; left; reflexivity|]. exists []. reflexivity.
    + apply (number_exact [ch "2"] 2 (chars " px")); [exact N2|reflexivity].
  - replace (Some 2%R) with (Some (2 * 1)%R) by (f_equal; ring). apply (G [] [] (chars "em")); [repeat constructor|repeat constructor|reflexivity| |].
    + apply NU. reflexivity.
    + apply C48_longest. exists [ch "2"]. split; [reflexivity|]. split; [exact N2|].
      intros t' x' r' Q T'. destruct t' as [|a [|b t']]; cbn; [lia|lia|]. injection Q as <- <- Q. exfalso.
      destruct (number_last _ _ T') as (u & y & Q' & Y). destruct t' as [|d t'].
      * destruct u as [|u0 [|u1 u]]; try discriminate Q'; [|destruct u; discriminate Q']. injection Q' as _ <-. destruct Y; discriminate.
      * destruct t' as [|f t']; [|discriminate Q]. injection Q as <-. destruct u as [|u0 [|u1 [|u2 u]]]; try discriminate Q'; [|destruct u; discriminate Q'].
        injection Q' as _ _ <-. destruct Y; discriminate.
  - replace (Some 2%R) with (Some (2 * 1)%R) by (f_equal; ring). apply (G [] [] (chars "%")); [repeat constructor|repeat constructor|reflexivity| |].
    + apply NU. reflexivity.
    + apply (number_exact [ch "2"] 2 (chars "%")); [exact N2|reflexivity].
  - reflexivity.
Qed.

(** A view box is four numbers with separators between them; what follows is ignored. *)
Theorem C80_view_box : forall w t a b c d rest, all is_space w -> numbers_text t [a; b; c; d] -> stops num_char rest ->
  parse_view_box (w ++ t ++ rest) = Some (a, b, c, d).
Proof.
  intros w t a b c d rest W T ST.
  assert (HN : stops is_space (t ++ rest)).
  { destruct (numbers_stop _ _ T) as [S NE]. destruct t; [congruence|exact S]. }
  destruct (args_step t a [b; c; d] rest ltac:(discriminate) T) as (s1 & r1 & T1 & E1).
  destruct (args_step r1 b [c; d] rest ltac:(discriminate) T1) as (s2 & r2 & T2 & E2).
  destruct (args_step r2 c [d] rest ltac:(discriminate) T2) as (s3 & r3 & T3 & E3).
  unfold parse_view_box, view_box_args, pmap. unfold pair at 1. unfold wsp_opt at 1, multispace0 at 1, take0 at 1.
  rewrite while0_app by auto. rewrite E1, E2, E3. unfold pair.
  rewrite (number_exact r3 d rest (numbers_cons _ _ _ T3) ST). unfold wsp_opt, multispace0, take0.
  destruct (while0 is_space rest). reflexivity.
Qed.
Theorem C80_view_box_only : forall s a b c d, parse_view_box s = Some (a, b, c, d) ->
  exists w t rest, s = w ++ t ++ rest /\ all is_space w /\ numbers_text t [a; b; c; d].
Proof.
  intros s a b c d E. unfold parse_view_box in E. destruct (view_box_args s) as [[rest r]|] eqn:V; [|discriminate]. injection E as ->.
  assert (S : sound view_box_args (fun t v => let '(a, b, c, d) := v in exists w u x, t = w ++ u ++ x /\ all is_space w /\ numbers_text u [a; b; c; d])).
  { eapply sound_weaken.
    { unfold view_box_args. apply pmap_sound. apply pair_sound; [apply take0_sound|].
      repeat (apply pair_sound; [apply number_sound|apply pair_sound; [apply separator_sound|]]).
      apply pair_sound; [apply number_sound|apply take0_sound]. }
    intros t v ((w0 & a' & s1 & b' & s2 & c' & s3 & d' & w1) & (w & q & -> & W & t1 & r1 & -> & N1 & p1 & q1 & -> & S1 & t2 & r2 & -> & N2 & p2 & q2 & -> & S2 &
      t3 & r3 & -> & N3 & p3 & q3 & -> & S3 & t4 & r4 & -> & N4 & _) & ->).
    cbn [fst snd] in *. exists w, (t1 ++ p1 ++ t2 ++ p2 ++ t3 ++ p3 ++ t4), r4. destruct W as [_ W].
    split; [rewrite <- !app_assoc; reflexivity|]. split; [exact W|].
    repeat (apply numbers_more; auto). apply numbers_one; auto. }
  destruct (S _ _ _ V) as (t & -> & w & u & x & -> & W & T). exists w, u, (x ++ rest). rewrite <- !app_assoc. auto.
Qed.
Example C80_view_box_example : parse_view_box (chars "0 0,3 4 junk") = Some (0, 0, 3, 4)%R /\ parse_view_box (chars "0 0 3") = None.
Proof.
  split; [|reflexivity].
  assert (SC : separator (chars ",")) by (left; exists [], []; repeat split; constructor).
  assert (SB : separator (chars " ")) by (right; split; [discriminate|repeat constructor]).
  apply (C80_view_box [] (chars "0 0,3 4") 0 0 3 4 (chars " junk")); [constructor| |reflexivity].
  apply (numbers_more [ch "0"] 0 (chars " ") (chars "0,3 4")); [apply (text_digit (ch "0")); reflexivity|exact SB|].
  apply (numbers_more [ch "0"] 0 (chars ",") (chars "3 4")); [apply (text_digit (ch "0")); reflexivity|exact SC|].
  apply (numbers_more [ch "3"] 3 (chars " ") (chars "4")); [apply (text_digit (ch "3")); reflexivity|exact SB|].
  apply numbers_one. apply (text_digit (ch "4")); reflexivity.
Qed.

Print Assumptions C51_compose.
Print Assumptions C51_product.
Print Assumptions C51_unambiguous.
Print Assumptions C52_longest.
Print Assumptions C52_dropped.
Print Assumptions C52_error.
Print Assumptions C80_length.
Print Assumptions C80_view_box.
Print Assumptions C80_view_box_only.
