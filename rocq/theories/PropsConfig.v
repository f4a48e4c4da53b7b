(** Property C95: which configuration files are read, and as what. *)
From Coq Require Import ZArith Reals List Bool NArith Ascii String Lia Permutation.
From Flocq Require Import Core BinarySingleNaN.
From Verif Require Import Base Floats Chars ImageRaster SvgMain Config.
Import ListNotations.
Open Scope Z_scope.

(** ** What a file says *)

(** The entry called [n] of an object, if there is exactly one. *)
Definition only_entry (es : list (list char * json)) (n : string) (v : json) : Prop :=
  exists pre post, es = pre ++ (chars n, v) :: post /\ ~ In (chars n) (map fst pre) /\ ~ In (chars n) (map fst post).
(** The values of the named parts: entries of an object in any order, other entries do not
    matter; or an array of just them. *)
Definition parts (v : json) (names : list string) (vs : list json) : Prop :=
  match v with
  | JObject es => Forall2 (only_entry es) names vs
  | JArray l => l = vs /\ List.length vs = List.length names
  | _ => False
  end.
(** A number: a float, or an integer rounded to one. *)
Definition says_number (v : json) (x : f64) : Prop := v = JFloat x \/ exists n, v = JInt n /\ x = f_of_Z n.
Definition says_u32 (v : json) (n : Z) : Prop := v = JInt n /\ 0 <= n <= 4294967295.
Definition says_stepper (v : json) (s : stepper) : Prop := exists a b c,
  parts v ["stepsPerMillimeter"; "maxVelocity"; "maxAcceleration"]%string [a; b; c] /\
  says_number a (steps_per_mm s) /\ says_number b (max_velocity s) /\ says_number c (max_acc s).
Definition says_laser (v : json) (l : laser) : Prop := exists a b c,
  parts v ["maxIntensity"; "pwmPeriod"; "alignmentIntensity"]%string [a; b; c] /\
  says_u32 a (max_intensity l) /\ says_u32 b (pwm_period l) /\ says_u32 c (alignment_intensity l).
Definition says_config (v : json) (cf : config_) (l : laser) : Prop := exists t x y z,
  parts v ["ticksPerSecond"; "stepperX"; "stepperY"; "laser"]%string [t; x; y; z] /\
  says_u32 t (tps cf) /\ says_stepper x (stepper_x cf) /\ says_stepper y (stepper_y cf) /\ says_laser z l.

(** ** The loop over the entries *)

Fixpoint collect1 (n : list char) (es : list (list char * json)) (s : option json) : option (option json) :=
  match es with
  | [] => Some s
  | (k, v) :: es => if name_dec k n then match s with None => collect1 n es (Some v) | Some _ => None end else collect1 n es s
  end.

Lemma put_out : forall names slots k v, ~ In k names -> put names slots k v = Some slots.
Proof.
  induction names as [|n names IH]; intros slots k v H; [reflexivity|]. destruct slots as [|s slots]; [reflexivity|]. cbn [put].
  destruct (name_dec k n) as [->|]; [exfalso; apply H; left; reflexivity|]. rewrite IH; [reflexivity|]. intros X. apply H. right. exact X.
Qed.

Lemma collect_cons : forall es n names s slots, ~ In n names ->
  collect (n :: names) es (s :: slots) =
    match collect1 n es s, collect names es slots with Some a, Some b => Some (a :: b) | _, _ => None end.
Proof.
  induction es as [|[k v] es IH]; intros n names s slots H; cbn [collect collect1 put]; [reflexivity|].
  destruct (name_dec k n) as [->|N].
  - rewrite (put_out names slots n v H). destruct s; [reflexivity|]. apply IH, H.
  - destruct (put names slots k v) as [slots'|]; [apply IH, H|]. destruct (collect1 n es s); reflexivity.
Qed.

Lemma collect_nil : forall es slots, collect [] es slots = Some slots.
Proof. induction es as [|[k v] es IH]; intros slots; [reflexivity|]. apply IH. Qed.

Lemma collect1_full : forall n es x r, collect1 n es (Some x) = Some r <-> r = Some x /\ ~ In n (map fst es).
Proof.
  induction es as [|[k v] es IH]; intros x r; cbn [collect1 map fst In].
  - split; [intros [= <-]; auto|intros [-> _]; reflexivity].
  - destruct (name_dec k n) as [->|N].
    + split; [discriminate|]. intros [_ H]. exfalso. apply H. left. reflexivity.
    + rewrite IH. split; intros [-> H]; split; auto. intros [X|X]; auto.
Qed.

Lemma collect1_one : forall n es x, collect1 (chars n) es None = Some (Some x) <-> only_entry es n x.
Proof.
  intros n. induction es as [|[k v] es IH]; intros x; cbn [collect1].
  - split; [discriminate|]. intros (pre & post & E & _). destruct pre; discriminate.
  - destruct (name_dec k (chars n)) as [->|N].
    + rewrite collect1_full. split.
      * intros [[= ->] H]. exists [], es. split; [reflexivity|]. split; [intros []|exact H].
      * intros (pre & post & E & P & Q). destruct pre as [|p pre].
        -- injection E as -> ->. split; [reflexivity|exact Q].
        -- exfalso. injection E as <- _. apply P. left. reflexivity.
    + rewrite IH. split; intros (pre & post & E & P & Q).
      * subst es. exists ((k, v) :: pre), post. split; [reflexivity|]. split; [|exact Q]. intros [X|X]; [apply N, X|exact (P X)].
      * destruct pre as [|p pre]; [exfalso; injection E as -> _ _; apply N; reflexivity|].
        injection E as <- ->. exists pre, post. split; [reflexivity|]. split; [|exact Q]. intros X. apply P. right. exact X.
Qed.

Lemma fields_object : forall names es vs, NoDup (map chars names) ->
  (match collect (map chars names) es (map (fun _ => None) (map chars names)) with Some slots => filled slots | None => None end) = Some vs <->
  Forall2 (only_entry es) names vs.
Proof.
  induction names as [|n names IH]; intros es vs ND; cbn [map] in *.
  - rewrite collect_nil. cbn [filled]. split; [intros [= <-]; constructor|]. intros F. inversion F. reflexivity.
  - inversion ND as [|? ? NI ND']; subst. rewrite (collect_cons es _ _ None _ NI). specialize (IH es).
    set (rest := collect (map chars names) es _) in *.
    split.
    + intros H. destruct (collect1 (chars n) es None) as [[a|]|] eqn:A; [|destruct rest; discriminate|discriminate].
      destruct rest as [b|]; [|discriminate]. cbn [filled] in H. destruct (filled b) as [l|] eqn:L; [|discriminate].
      injection H as <-. constructor; [apply collect1_one, A|]. apply (IH l ND'). reflexivity.
    + intros F. inversion F as [|? x ? l X L]; subst. apply collect1_one in X. rewrite X. apply (IH l ND') in L.
      destruct rest as [b|]; [|discriminate]. cbn [filled]. rewrite L. reflexivity.
Qed.

Lemma fields_spec : forall names v vs, NoDup (map chars names) -> fields (map chars names) v = Some vs <-> parts v names vs.
Proof.
  intros names v vs ND. destruct v; cbn [fields parts]; try (split; [discriminate|intros []]).
  - rewrite map_length. destruct (Nat.eqb_spec (List.length l) (List.length names)) as [E|E].
    + split; [intros [= <-]; auto|intros [-> _]; reflexivity].
    + split; [discriminate|]. intros [-> H]. contradiction.
  - apply fields_object, ND.
Qed.

Lemma stepper_names_are : stepper_names = map chars ["stepsPerMillimeter"; "maxVelocity"; "maxAcceleration"]%string.
Proof. reflexivity. Qed.
Lemma laser_names_are : laser_names = map chars ["maxIntensity"; "pwmPeriod"; "alignmentIntensity"]%string.
Proof. reflexivity. Qed.
Lemma config_names_are : config_names = map chars ["ticksPerSecond"; "stepperX"; "stepperY"; "laser"]%string.
Proof. reflexivity. Qed.
Ltac no_dup := repeat (constructor; [cbn; intuition discriminate|]); constructor.

Lemma read_f64_spec : forall v x, read_f64 v = Some x <-> says_number v x.
Proof.
  intros v x. unfold says_number. destruct v; cbn [read_f64]; split; intros H; try discriminate;
    try (destruct H as [H|(m & H & E)]; [|]; try discriminate).
  - injection H as <-. right. eexists. split; reflexivity.
  - injection H as ->. rewrite E. reflexivity.
  - injection H as ->. left. reflexivity.
  - injection H as ->. reflexivity.
Qed.
Lemma read_u32_spec : forall v n, read_u32 v = Some n <-> says_u32 v n.
Proof.
  intros v n. unfold says_u32. destruct v as [| |m| | | |]; cbn [read_u32]; try (split; [discriminate|intros [X _]; discriminate]).
  change u32_max with 4294967295. destruct ((0 <=? m) && (m <=? 4294967295)) eqn:E.
  - apply andb_prop in E. destruct E as [A B]. apply Z.leb_le in A, B. split; [intros [= <-]; auto|intros [[= ->] _]; reflexivity].
  - split; [discriminate|]. intros [[= ->] H]. exfalso. apply andb_false_iff in E. rewrite !Z.leb_gt in E. lia.
Qed.

Lemma read_stepper_spec : forall v s, read_stepper v = Some s <-> says_stepper v s.
Proof.
  intros v s. unfold read_stepper, says_stepper. rewrite stepper_names_are. split.
  - destruct (fields _ v) as [vs|] eqn:F; [|discriminate]. apply fields_spec in F; [|no_dup].
    destruct vs as [|a [|b [|c [|]]]]; try discriminate. intros H.
    destruct (read_f64 a) eqn:A; [|discriminate]. destruct (read_f64 b) eqn:B; [|discriminate]. destruct (read_f64 c) eqn:C; [|discriminate].
    injection H as <-. exists a, b, c. cbn. rewrite <- !read_f64_spec. auto.
  - intros (a & b & c & P & A & B & C). apply fields_spec in P; [|no_dup]. rewrite P.
    apply read_f64_spec in A, B, C. rewrite A, B, C. destruct s. reflexivity.
Qed.
Lemma read_laser_spec : forall v l, read_laser v = Some l <-> says_laser v l.
Proof.
  intros v s. unfold read_laser, says_laser. rewrite laser_names_are. split.
  - destruct (fields _ v) as [vs|] eqn:F; [|discriminate]. apply fields_spec in F; [|no_dup].
    destruct vs as [|a [|b [|c [|]]]]; try discriminate. intros H.
    destruct (read_u32 a) eqn:A; [|discriminate]. destruct (read_u32 b) eqn:B; [|discriminate]. destruct (read_u32 c) eqn:C; [|discriminate].
    injection H as <-. exists a, b, c. cbn [max_intensity pwm_period alignment_intensity]. rewrite <- !read_u32_spec. auto.
  - intros (a & b & c & P & A & B & C). apply fields_spec in P; [|no_dup]. rewrite P.
    apply read_u32_spec in A, B, C. rewrite A, B, C. destruct s. reflexivity.
Qed.

(** A file is read exactly if it says a configuration, and as what it says. *)
Theorem C95_read : forall v cf l, read_config v = Some (cf, l) <-> says_config v cf l.
Proof.
  intros v cf l. unfold read_config, says_config. rewrite config_names_are. split.
  - destruct (fields _ v) as [vs|] eqn:F; [|discriminate]. apply fields_spec in F; [|no_dup].
    destruct vs as [|t [|x [|y [|z [|]]]]]; try discriminate. intros H.
    destruct (read_u32 t) eqn:A; [|discriminate]. destruct (read_stepper x) eqn:B; [|discriminate].
    destruct (read_stepper y) eqn:C; [|discriminate]. destruct (read_laser z) eqn:D; [|discriminate].
    injection H as <- <-. exists t, x, y, z. cbn [tps stepper_x stepper_y].
    rewrite <- read_u32_spec, <- !read_stepper_spec, <- read_laser_spec. auto.
  - intros (t & x & y & z & P & A & B & C & D). apply fields_spec in P; [|no_dup]. rewrite P.
    apply read_u32_spec in A. apply read_stepper_spec in B, C. apply read_laser_spec in D.
    rewrite A, B, C, D. destruct cf. reflexivity.
Qed.

(** ** Order and other entries *)

Lemma only_perm : forall es es' n v, Permutation es es' -> only_entry es n v -> only_entry es' n v.
Proof.
  intros es es' n v P (pre & post & -> & A & B).
  assert (I : In (chars n, v) es') by (eapply Permutation_in; [exact P|apply in_elt]).
  apply in_split in I. destruct I as (pre' & post' & ->). exists pre', post'. split; [reflexivity|].
  apply Permutation_app_inv in P.
  assert (N : ~ In (chars n) (map fst (pre' ++ post'))).
  { intros X. apply (Permutation_in _ (Permutation_map fst (Permutation_sym P))) in X.
    rewrite map_app, in_app_iff in X. tauto. }
  rewrite map_app, in_app_iff in N. tauto.
Qed.

Lemma option_ext : forall (A : Type) (a b : option A), (forall x, a = Some x <-> b = Some x) -> a = b.
Proof.
  intros A a b H. destruct a as [a|].
  - symmetry. apply H. reflexivity.
  - destruct b as [b|]; [|reflexivity]. apply H. reflexivity.
Qed.

(** The order of the entries does not matter, nor do entries with other names. *)
Theorem C95_order : forall es es' k v,
  (Permutation es es' -> read_config (JObject es) = read_config (JObject es')) /\
  (~ In k (map chars ["ticksPerSecond"; "stepperX"; "stepperY"; "laser"]%string) ->
   read_config (JObject ((k, v) :: es)) = read_config (JObject es)).
Proof.
  intros es es' k v. split.
  - intros P. apply option_ext. intros [cf l]. rewrite !C95_read.
    assert (G : forall a b, Permutation a b -> says_config (JObject a) cf l -> says_config (JObject b) cf l).
    { intros a b Q (t & x & y & z & F & R). exists t, x, y, z. split; [|exact R]. cbn [parts] in *.
      clear - F Q. induction F as [|n j ns js E F IH]; constructor; [exact (only_perm _ _ _ _ Q E)|exact IH]. }
    split; apply G; [exact P|apply Permutation_sym, P].
  - intros N. rewrite <- config_names_are in N. unfold read_config, fields. cbn [collect]. rewrite (put_out _ _ _ _ N). reflexivity.
Qed.

(** ** What is known of a configuration *)

(** A value serde_json makes: integers fit 64 bits, floats are finite. *)
Inductive well_formed : json -> Prop :=
| WNull : well_formed JNull
| WBool : forall b, well_formed (JBool b)
| WInt : forall n, - 2 ^ 63 <= n < 2 ^ 64 -> well_formed (JInt n)
| WFloat : forall x, is_finite x = true -> well_formed (JFloat x)
| WText : forall t, well_formed (JText t)
| WArray : forall l, Forall well_formed l -> well_formed (JArray l)
| WObject : forall l, Forall (fun e => well_formed (snd e)) l -> well_formed (JObject l).

Lemma parts_wf : forall v names vs, well_formed v -> parts v names vs -> Forall well_formed vs.
Proof.
  intros v names vs W P. inversion W; subst; cbn [parts] in P; try contradiction.
  - destruct P as [-> _]. assumption.
  - clear W. induction P as [|n x names vs E F IH]; constructor; [|exact IH].
    destruct E as (pre & post & -> & _). apply Forall_app in H. destruct H as [_ H]. inversion H. assumption.
Qed.

Lemma int_finite : forall n, - 2 ^ 63 <= n < 2 ^ 64 -> is_finite (f_of_Z n) = true.
Proof.
  intros n B. unfold f_of_Z.
  pose proof (binary_normalize_correct 53 1024 prec_ok emax_ok mode_NE n 0 false) as H.
  cbv zeta in H. destruct (Rlt_bool_spec (Rabs (round radix2 (SpecFloat.fexp 53 1024) (round_mode mode_NE) (F2R (Float radix2 n 0)))) (bpow radix2 1024)) as [L|L].
  - apply H.
  - exfalso. apply (Rle_not_lt _ _ L). clear H L.
    apply Rle_lt_trans with (bpow radix2 64); [|apply bpow_lt; lia].
    apply abs_round_le_generic.
    + apply fexp_correct. reflexivity.
    + apply valid_rnd_round_mode.
    + apply generic_format_bpow. unfold SpecFloat.fexp, SpecFloat.emin. lia.
    + unfold F2R. cbn [Fnum Fexp bpow]. rewrite Rmult_1_r, <- abs_IZR. change (bpow radix2 64) with (IZR (2 ^ 64)). apply IZR_le. change (2 ^ 63) with 9223372036854775808 in B. change (2 ^ 64) with 18446744073709551616 in B. change (Z.abs n <= 18446744073709551616). lia.
Qed.

(** Whatever the file, the numbers of a configuration that was read are finite and the integers
    fit 32 bits. *)
Theorem C95_ranges : forall v cf l, well_formed v -> read_config v = Some (cf, l) ->
  0 <= tps cf < 2 ^ 32 /\
  Forall (fun s => is_finite (steps_per_mm s) = true /\ is_finite (max_velocity s) = true /\ is_finite (max_acc s) = true)
    [stepper_x cf; stepper_y cf] /\
  Forall (fun n => 0 <= n < 2 ^ 32) [max_intensity l; pwm_period l; alignment_intensity l].
Proof.
  intros v cf l W H. apply C95_read in H. destruct H as (t & x & y & z & P & T & X & Y & Z).
  pose proof (parts_wf _ _ _ W P) as F. inversion F as [|? ? _ F1]; subst. inversion F1 as [|? ? WX F2]; subst.
  inversion F2 as [|? ? WY _]; subst. clear F F1 F2 W P.
  assert (N : forall j r, well_formed j -> says_number j r -> is_finite r = true).
  { intros j r Wj [->|(n & -> & ->)]; inversion Wj; subst; [assumption|apply int_finite; assumption]. }
  assert (G : forall j s, well_formed j -> says_stepper j s ->
    is_finite (steps_per_mm s) = true /\ is_finite (max_velocity s) = true /\ is_finite (max_acc s) = true).
  { intros j s Wj (a & b & c & P & A & B & C). pose proof (parts_wf _ _ _ Wj P) as F.
    inversion F as [|? ? Wa F1]; subst. inversion F1 as [|? ? Wb F2]; subst. inversion F2 as [|? ? Wc _]; subst.
    split; [apply (N a _ Wa A)|]. split; [apply (N b _ Wb B)|apply (N c _ Wc C)]. }
  split; [destruct T as [_ T]; lia|]. split.
  - constructor; [apply (G x _ WX X)|]. constructor; [apply (G y _ WY Y)|constructor].
  - destruct Z as (a & b & c & _ & [_ A] & [_ B] & [_ C]). repeat constructor; lia.
Qed.

(** ** Writing and reading *)

Lemma write_parts : forall names vs, NoDup (map chars names) -> List.length vs = List.length names ->
  parts (JObject (combine (map chars names) vs)) names vs.
Proof.
  intros names vs ND L. cbn [parts].
  assert (G : forall names vs pre, NoDup (map chars names) -> List.length vs = List.length names ->
    (forall n, In n names -> ~ In (chars n) (map fst pre)) ->
    Forall2 (only_entry (pre ++ combine (map chars names) vs)) names vs).
  { clear. induction names as [|n names IH]; intros vs pre ND L D; destruct vs as [|v vs]; try discriminate L; [constructor|].
    cbn [map combine] in *. inversion ND as [|? ? NI ND']; subst. constructor.
    - exists pre, (combine (map chars names) vs). split; [reflexivity|]. split; [apply D; left; reflexivity|].
      intros X. apply NI. clear - X. revert vs X. induction names as [|m names IH]; intros [|v vs] X; cbn in *; try contradiction.
      destruct X as [X|X]; [left; exact X|right; eapply IH; exact X].
    - change ((chars n, v) :: combine (map chars names) vs) with ([(chars n, v)] ++ combine (map chars names) vs). rewrite app_assoc.
      apply IH; [exact ND'|cbn in L; lia|]. intros m M. rewrite map_app, in_app_iff. intros [X|X].
      + apply (D m); [right; exact M|exact X].
      + destruct X as [X|[]]. cbn in X. apply NI. rewrite X. apply in_map. exact M. }
  apply (G names vs []); auto.
Qed.

Definition finite_stepper (s : stepper) : bool := is_finite (steps_per_mm s) && is_finite (max_velocity s) && is_finite (max_acc s).

Lemma write_f64_spec : forall x, is_finite x = true -> says_number (write_f64 x) x.
Proof. intros x H. left. unfold write_f64. rewrite H. reflexivity. Qed.

Lemma write_stepper_spec : forall s, finite_stepper s = true -> says_stepper (write_stepper s) s.
Proof.
  intros s H. unfold finite_stepper in H. apply andb_prop in H. destruct H as [H C]. apply andb_prop in H. destruct H as [A B].
  do 3 eexists. split; [unfold write_stepper; rewrite stepper_names_are; apply write_parts; [no_dup|reflexivity]|].
  auto using write_f64_spec.
Qed.

(** A configuration that is written is read back as it was exactly if all its numbers are finite;
    otherwise it is refused. *)
Theorem C95_write : forall cf l, 0 <= tps cf < 2 ^ 32 -> Forall (fun n => 0 <= n < 2 ^ 32) [max_intensity l; pwm_period l; alignment_intensity l] ->
  read_config (write_config cf l) = if finite_stepper (stepper_x cf) && finite_stepper (stepper_y cf) then Some (cf, l) else None.
Proof.
  intros cf l T L. inversion L as [|? ? A L1]; subst. inversion L1 as [|? ? B L2]; subst. inversion L2 as [|? ? C _]; subst. clear L L1 L2.
  destruct (finite_stepper (stepper_x cf) && finite_stepper (stepper_y cf)) eqn:F.
  - apply C95_read. apply andb_prop in F. destruct F as [X Y].
    do 4 eexists. split; [unfold write_config; rewrite config_names_are; apply write_parts; [no_dup|reflexivity]|].
    split; [split; [reflexivity|lia]|]. split; [apply write_stepper_spec, X|]. split; [apply write_stepper_spec, Y|].
    do 3 eexists. split; [unfold write_laser; rewrite laser_names_are; apply write_parts; [no_dup|reflexivity]|].
    repeat split; lia.
  - assert (S : forall s, finite_stepper s = false -> read_stepper (write_stepper s) = None).
    { intros s H. unfold read_stepper, write_stepper.
      assert (E : fields stepper_names (JObject (combine stepper_names [write_f64 (steps_per_mm s); write_f64 (max_velocity s); write_f64 (max_acc s)]))
        = Some [write_f64 (steps_per_mm s); write_f64 (max_velocity s); write_f64 (max_acc s)]).
      { rewrite stepper_names_are. apply fields_spec; [no_dup|]. apply write_parts; [no_dup|reflexivity]. }
      rewrite E. unfold finite_stepper in H. unfold write_f64.
      destruct (is_finite (steps_per_mm s)), (is_finite (max_velocity s)), (is_finite (max_acc s)); try discriminate H; reflexivity. }
    unfold read_config, write_config.
    assert (E : forall vs, List.length vs = 4%nat -> fields config_names (JObject (combine config_names vs)) = Some vs).
    { intros vs Hl. rewrite config_names_are. apply fields_spec; [no_dup|]. apply write_parts; [no_dup|exact Hl]. }
    rewrite E by reflexivity. destruct (read_u32 _); [|reflexivity]. apply andb_false_iff in F. destruct F as [F|F].
    + rewrite (S _ F). reflexivity.
    + rewrite (S _ F). destruct (read_stepper _); reflexivity.
Qed.

(** ** The configuration of the repository *)

Definition axis_entries : json := JObject
  [(chars "stepsPerMillimeter", JInt 1966080); (chars "maxVelocity", JInt 50); (chars "maxAcceleration", JInt 500)].
Definition shipped (ticks : Z) : json := JObject
  [(chars "ticksPerSecond", JInt ticks); (chars "stepperX", axis_entries); (chars "stepperY", axis_entries);
   (chars "laser", JObject [(chars "maxIntensity", JInt 255); (chars "pwmPeriod", JInt 256); (chars "alignmentIntensity", JInt 5)])].

Definition shipped_axis : stepper := mk_stepper (f_of_Z 1966080) (f_of_Z 50) (f_of_Z 500).

(** xystepper_config.json *)
Example C95_example : well_formed (shipped 128) /\
  read_config (shipped 128) = Some (mk_config 128 shipped_axis shipped_axis, mk_laser 255 256 5) /\
  svg_limits (mk_config 128 shipped_axis shipped_axis) None None = Ok (30000, 30000, 384000, 384000).
Proof.
  split; [|split; [reflexivity|vm_compute; reflexivity]].
  repeat (constructor; cbn [snd]); lia.
Qed.

(** Values are not checked: a file with 2^31 ticks per second is read, and the program that uses
    it panics. *)
Theorem C95_unchecked_refuted : exists v cf l, well_formed v /\ read_config v = Some (cf, l) /\
  forall v_opt a_opt, svg_limits cf v_opt a_opt = Panic /\ limits cf v_opt a_opt = Panic.
Proof.
  exists (shipped (2 ^ 31)), (mk_config (2 ^ 31) shipped_axis shipped_axis), (mk_laser 255 256 5).
  split; [repeat (constructor; cbn [snd]); lia|]. split; [reflexivity|]. split; reflexivity.
Qed.

(** A field twice, a missing field, a float for an integer and a negative integer are refused;
    an array instead of the object is read. *)
Example C95_refused :
  read_laser (JObject [(chars "maxIntensity", JInt 255); (chars "pwmPeriod", JInt 256); (chars "alignmentIntensity", JInt 5); (chars "pwmPeriod", JInt 256)]) = None /\
  read_laser (JObject [(chars "maxIntensity", JInt 255); (chars "pwm_period", JInt 256); (chars "alignmentIntensity", JInt 5)]) = None /\
  read_laser (JArray [JInt 255; JFloat (f_of_Z 256); JInt 5]) = None /\ read_laser (JArray [JInt 255; JInt (-1); JInt 5]) = None /\
  read_laser (JArray [JInt 255; JInt 256; JInt 5]) = Some (mk_laser 255 256 5).
Proof. repeat split; reflexivity. Qed.

Print Assumptions C95_read.
Print Assumptions C95_order.
Print Assumptions C95_ranges.
Print Assumptions C95_write.
Print Assumptions C95_unchecked_refuted.
