(** Conversions of single values and lists: more of C14, C23, C27, C28, C32, C33 and C44. *)

From Coq Require Import String Ascii List NArith ZArith Bool Lia Permutation.
Import ListNotations.
From Verif Require Import Base BaseFacts Num NumFacts Coll CollFacts Regex NumSpec ValuesSpec ValuesModel ValuesProofs ValuesNumProofs ListMapProofs PortsModel PropsPorts VolumesModel PropsVolumes
  ImageModel ImageSpec ImageLang ImageProofs PlatformModel PlatformProofs Serde CommonCodec ShortModel FormsModel.
Open Scope N_scope.

(** ** C14: lists of ports *)

(** If all the ports of a list have a short form, then these stand for the same ports. *)
Theorem ports_short_long : forall l shorts, ports_into_short l = map Ok shorts -> ports_into_long (map inl shorts) = ports_into_long l.
Proof.
  induction l as [|x l IH]; intros [|s shorts] H; try discriminate H; [reflexivity|]. cbn [map ports_into_short] in H. injection H as H1 H2.
  unfold ports_into_long in *. cbn [map flat_map]. rewrite (IH shorts H2). f_equal. destruct x as [y|p]; [congruence|].
  pose proof (port_short_long p) as E. rewrite H1 in E. exact E.
Qed.
Print Assumptions ports_short_long.
(** What has none is given back as it was. *)
Theorem ports_short_rest : forall l p, In (Err p) (ports_into_short l) -> In (inr p) l.
Proof.
  intros l p H. unfold ports_into_short in H. apply in_map_iff in H as ([s|q] & E & I); [discriminate|]. pose proof (port_short_long q) as F. rewrite E in F. now subst.
Qed.
Print Assumptions ports_short_rest.
(** A port made from its number alone has the number as its short form. *)
Theorem port_new_short : forall n, port_into_short (port_new n) = Ok (mk_short_port None (mk_short_ranges None (mk_range n None)) None).
Proof. reflexivity. Qed.
Print Assumptions port_new_short.
Example ports_short_long_ex : exists l shorts, ports_into_short l = map Ok shorts /\ List.length l = 2%nat /\ ports_into_long l = [port_new 80; port_new 81; port_new 443].
Proof.
  exists [inl (mk_short_port None (mk_short_ranges None (mk_range 80 (Some 81))) None); inr (port_new 443)].
  exists [mk_short_port None (mk_short_ranges None (mk_range 80 (Some 81))) None; mk_short_port None (mk_short_ranges None (mk_range 443 None)) None]. repeat split; vm_compute; reflexivity.
Qed.

(** ** C23: variants *)

Theorem platform_variants_inverse : forall vs, NoDup (map v_ident vs) -> NoDup (map v_name vs) ->
  (forall i s, variant_parse vs s = Ok i <-> variant_as_str vs i = Some s) /\ (forall i s, variant_parse vs s = Ok i <-> exists v, In v vs /\ v_ident v = i /\ v_name v = s).
Proof.
  intros vs NI NN.
  assert (U : forall (f g : variant -> str), NoDup (map f vs) -> forall v v', In v vs -> In v' vs -> f v = f v' -> v = v').
  { clear. intros f _ H v v' I I' E. induction vs as [|x vs IH]; [destruct I|]. cbn [map] in H. inversion H as [|? ? A B]; subst.
    destruct I as [->|I], I' as [->|I']; auto; exfalso; apply A; apply in_map_iff; [exists v'|exists v]; auto. }
  assert (P : forall i s, In (i, s) (variant_arms vs) <-> exists v, In v vs /\ v_ident v = i /\ v_name v = s).
  { intros i s. unfold variant_arms. rewrite in_map_iff. split; [intros (v & E & I); injection E as <- <-; eauto|intros (v & I & <- & <-); eauto]. }
  assert (A : forall i s, variant_parse vs s = Ok i <-> In (i, s) (variant_arms vs)).
  { intros i s. apply first_text_ok. intros x1 x2 H1 H2. apply P in H1 as (v1 & I1 & <- & E1), H2 as (v2 & I2 & <- & E2). f_equal. apply (U v_name v_name); congruence. }
  split; [|intros i s; now rewrite A, P]. intros i s. rewrite A. symmetry. apply first_value_ok.
  intros s1 s2 H1 H2. apply P in H1 as (v1 & I1 & E1 & <-), H2 as (v2 & I2 & E2 & <-). f_equal. apply (U v_ident v_ident); congruence.
Qed.
Print Assumptions platform_variants_inverse.

(** ** C27: lists of volumes *)

(** The short forms of a list, as far as there are any, expand to what the list stands for, with the exceptions of [long_short_long]. *)
Definition volume_exact (m : mount) : Prop :=
  (forall vol, m = MVolume vol -> vol_source vol = None -> cm_read_only (vol_common vol) = false) /\ (forall b, m = MBind b -> bind_bind b <> None) /\ (forall vol, m = MVolume vol -> vol_volume vol = None).
Theorem volumes_short_long : forall l shorts, into_short_iter l = map Ok shorts -> (forall m, In (Long m) l -> volume_exact m) -> into_long_iter (map Short shorts) = into_long_iter l.
Proof.
  induction l as [|x l IH]; intros [|s shorts] H X; try discriminate H; [reflexivity|]. cbn [map into_short_iter] in H. injection H as H1 H2.
  unfold into_long_iter in *. cbn [map]. rewrite (IH shorts H2) by (intros m I; apply X; now right). f_equal. destruct x as [y|m]; [congruence|].
  destruct (X m (or_introl eq_refl)) as (A & B & C). destruct (long_short_long m s H1 A B) as [-> _]. destruct m as [[src o c]|b|t|n|c]; try reflexivity. cbn [vol_source vol_common].
  specialize (C _ eq_refl). cbn in C. now subst.
Qed.
Print Assumptions volumes_short_long.
Theorem volumes_short_rest : forall l m, In (Err m) (into_short_iter l) -> In (Long m) l.
Proof.
  intros l m H. unfold into_short_iter in H. apply in_map_iff in H as ([s|q] & E & I); [discriminate|]. pose proof (mount_into_short_total q) as F. rewrite E in F. now subst.
Qed.
Print Assumptions volumes_short_rest.

(** ** C28: an image in parts *)

Theorem image_parts : forall s i checks, image_parse s = Ok i ->
  exists n t, image_as_name checks i = Ret n /\ image_as_parts checks i = Ret (n, t) /\ iname_new (n_inner n) = Ok n /\
    s = n_inner n ++ match t with None => [] | Some (TTag t) => $":" ++ t | Some (TDigest d) => $"@" ++ d end.
Proof.
  intros s i checks H. apply image_parse_ok in H. destruct H as (n & x & -> & Hn & Hx & Hu & ->).
  exists {| n_inner := n; n_registry_end := option_map blen (registry_of n) |}, (match x with NoSuffix => None | Tagged t => Some (TTag t) | Digested d => Some (TDigest d) end).
  assert (A : image_as_name checks (mk_image {| p_registry := registry_of n; p_name := n; p_suffix := x |}) = Ret {| n_inner := n; n_registry_end := option_map blen (registry_of n) |}).
  { unfold image_as_name. rewrite get_name. reflexivity. }
  split; [exact A|]. split; [unfold image_as_parts; rewrite A; cbn [pbind]; rewrite get_tod; reflexivity|]. split; [now apply iname_new_ok|]. destruct x; reflexivity.
Qed.
Print Assumptions image_parts.
Example image_parts_ex : exists i n, image_parse $"quay.io/podman/hello:v1" = Ok i /\ image_as_parts true i = Ret (n, Some (TTag $"v1")) /\ n_registry_end n = Some 7.
Proof. eexists. eexists. split; [vm_compute; reflexivity|]. split; vm_compute; reflexivity. Qed.

(** ** C32 and C33: [StringOrNumber] *)

Theorem string_or_number_kind : forall fv s,
  (forall n, string_or_number_parse fv s = SNumber (UnsignedInt n) <-> denotes s (Z.of_N n) /\ n < 2 ^ 64 /\ forall t, s <> ch "-" :: t) /\
  (forall z, string_or_number_parse fv s = SNumber (SignedInt z) <-> denotes s z /\ (- 2 ^ 63 <= z)%Z /\ exists t, s = ch "-" :: t) /\
  (forall b, string_or_number_parse fv s = SNumber (Float b) <-> matches FLOAT_RE s /\ ~ matches INT_RE s /\ b = fv s) /\
  (forall t, string_or_number_parse fv s = SString t -> t = s).
Proof.
  intros fv s. unfold string_or_number_parse.
  assert (E : forall n, match number_parse fv s with Ok n => SNumber n | Err _ => SString s end = SNumber n <-> number_parse fv s = Ok n) by (intros n; destruct (number_parse fv s); split; congruence).
  split; [|split; [|split]].
  - intros n. rewrite E, number_unsigned. change (2 ^ 64) with (U64_MAX + 1). assert (A : n < U64_MAX + 1 <-> n <= U64_MAX) by lia. rewrite A. tauto.
  - intros z. rewrite E, number_signed. change (- Z.of_N I64_MIN_ABS)%Z with (- 2 ^ 63)%Z. tauto.
  - intros b. rewrite E. apply number_float.
  - intros t. destruct (number_parse fv s); congruence.
Qed.
Print Assumptions string_or_number_kind.
(** Text that is not a number stays as it is, booleans too. *)
Theorem string_or_number_text : forall fv fs s, ~ matches INT_RE s -> ~ matches FLOAT_RE s -> string_or_number_parse fv s = SString s /\ string_or_number_show fs (SString s) = s.
Proof.
  intros fv fs s H1 H2. split; [|reflexivity]. unfold string_or_number_parse. destruct (number_parse fv s) as [[n|z|b]|] eqn:E; [| | |reflexivity].
  - apply number_unsigned in E as [E _]. apply denotes_int in E. contradiction.
  - apply number_signed in E as [E _]. apply denotes_int in E. contradiction.
  - apply number_float in E as [E _]. contradiction.
Qed.
Print Assumptions string_or_number_text.
Theorem string_or_number_integers : forall fv fs n, n < 2 ^ 64 -> string_or_number_parse fv (string_or_number_show fs (SNumber (UnsignedInt n))) = SNumber (UnsignedInt n).
Proof.
  intros fv fs n H. apply string_or_number_kind. cbn [string_or_number_show number_show]. split; [apply denotes_show_N|]. split; [exact H|].
  intros t E. pose proof (show_N_digits n) as D. rewrite E in D. discriminate D.
Qed.
Print Assumptions string_or_number_integers.
(** The number of a text is the one it denotes. *)
Theorem string_or_number_exact : forall fv v,
  (forall n, string_or_number_to_number fv v = Ok (UnsignedInt n) <-> match v with SNumber m => m = UnsignedInt n | SString s => denotes s (Z.of_N n) /\ n < 2 ^ 64 /\ forall t, s <> ch "-" :: t end) /\
  (forall z, string_or_number_to_number fv v = Ok (SignedInt z) <-> match v with SNumber m => m = SignedInt z | SString s => denotes s z /\ (- 2 ^ 63 <= z)%Z /\ exists t, s = ch "-" :: t end).
Proof.
  intros fv [s|m]; cbn [string_or_number_to_number]; [|split; intros; split; congruence]. split.
  - intros n. rewrite number_unsigned. change (2 ^ 64) with (U64_MAX + 1). assert (A : n < U64_MAX + 1 <-> n <= U64_MAX) by lia. rewrite A. tauto.
  - intros z. rewrite number_signed. change (- Z.of_N I64_MIN_ABS)%Z with (- 2 ^ 63)%Z. tauto.
Qed.
Print Assumptions string_or_number_exact.
Example string_or_number_ex : forall fv, map (string_or_number_parse fv) [$"10"; $"-3"; $"true"; $"x"] = [SNumber (UnsignedInt 10); SNumber (SignedInt (-3)); SString $"true"; SString $"x"].
Proof. reflexivity. Qed.

(** ** C44: [ShortOrLong] and [ItemOrList] *)

(** If the long forms of a type are converted exactly, so is what is in either form. *)
Theorem as_short_exact : forall (S L : Type) (into : S -> L) (short : L -> option S), (forall l s, short l = Some s -> into s = l) ->
  forall x s, as_short short x = Some s -> into s = into_long into x.
Proof. intros S L into short H [s'|l] s E; cbn [as_short into_long] in *; [congruence|auto]. Qed.
Print Assumptions as_short_exact.
Theorem as_short_iter_exact : forall (V : Set) (d : V) (short : list (str * V) -> option (list str)),
  (forall m l, NoDup (map fst m) -> short m = Some l -> map (fun k => (k, d)) l = m) ->
  forall x l, NoDup (sol_keys x) -> as_short_iter short x = Some l -> map_of_short d (Short l) = map_of_short d x /\ l = sol_keys x.
Proof.
  intros V d short H [l'|m] l N E; cbn [as_short_iter sol_keys map_of_short] in *; [injection E as <-; now split|]. pose proof (H m l N E) as X.
  assert (K : l = map fst m) by (rewrite <- X, map_map; cbn [fst]; symmetry; apply map_id). split; [|exact K]. rewrite X. now apply (imap_of_nodup str_eqb str_eqb_eq).
Qed.
Print Assumptions as_short_iter_exact.
(** The forms exclude each other. *)
Theorem one_form : forall (S L : Type) (x : short_or_long S L),
  (is_short x = true <-> exists s, x = Short s) /\ (is_long x = true <-> exists l, x = Long l) /\ is_short x = negb (is_long x) /\ (forall l, as_long x = Some l <-> x = Long l).
Proof.
  intros S L [s|l]; cbn; repeat split; intros; try discriminate; eauto; try congruence; try (destruct H as [? H]; discriminate).
Qed.
Print Assumptions one_form.
(** The keys are those of the map it stands for. *)
Theorem keys_long : forall (V : Set) (d : V) x, NoDup (sol_keys x) -> map fst (map_of_short d x) = sol_keys x.
Proof.
  intros V d [l|m] N; [|reflexivity]. cbn [map_of_short sol_keys] in *. rewrite (imap_of_nodup str_eqb str_eqb_eq).
  - rewrite map_map. apply map_id.
  - rewrite map_map. cbn [fst]. now rewrite map_id.
Qed.
Print Assumptions keys_long.
(** An item is a list of one. *)
Theorem item_list : forall (A : Set) (x : item_or_list A (list A)),
  (forall a, as_item x = Some a <-> item_into_list x = [a]) /\ (forall l, as_list x = Some l <-> x = Items l) /\ (forall a : A, item_into_list (Item a) = [a]) /\ (as_list x = None <-> exists a, x = Item a).
Proof.
  intros A [a|[|a [|b l]]]; cbn; repeat split; intros; try discriminate; try congruence; eauto; try (destruct H as [? H]; discriminate).
Qed.
Print Assumptions item_list.

(** Equality of sets does not depend on the order. *)
Theorem set_equal : forall (A : Type) (eqb : A -> A -> bool), (forall a b, eqb a b = true <-> a = b) ->
  forall a b, NoDup a -> NoDup b -> (set_eqb eqb a b = true <-> Permutation a b).
Proof.
  intros A eqb R a b Na Nb. unfold set_eqb. rewrite andb_true_iff, Nat.eqb_eq, forallb_forall. split.
  - intros [L H]. apply NoDup_Permutation_bis; [exact Na|lia|]. intros x I. apply H in I. apply existsb_exists in I as (y & J & E). apply R in E. now subst.
  - intros P. split; [now apply Permutation_length|]. intros x I. apply existsb_exists. exists x. split; [now apply (Permutation_in x P)|now apply R].
Qed.
Print Assumptions set_equal.
Theorem item_or_list_equal : forall (A : Set) (eqb : A -> A -> bool), (forall a b, eqb a b = true <-> a = b) ->
  forall x y : item_or_list A (list A), NoDup (item_into_list x) -> NoDup (item_into_list y) ->
  (item_or_list_eqb eqb x y = true <-> Permutation (item_into_list x) (item_into_list y) /\ (as_list x = None <-> as_list y = None)).
Proof.
  intros A eqb R [a|a] [b|b] Na Nb; cbn [item_or_list_eqb item_into_list as_list] in *.
  - rewrite R. split; [intros ->; split; [apply Permutation_refl|tauto]|]. intros [P _]. now apply Permutation_length_1 in P.
  - split; [discriminate|]. intros [_ [H _]]. discriminate (H eq_refl).
  - split; [discriminate|]. intros [_ [_ H]]. discriminate (H eq_refl).
  - rewrite (set_equal A eqb R a b Na Nb). split; [intros P; split; [exact P|split; discriminate]|tauto].
Qed.
Print Assumptions item_or_list_equal.
Example item_or_list_ex : item_or_list_eqb str_eqb (Items [$"a"; $"b"]) (Items [$"b"; $"a"]) = true /\ item_or_list_eqb str_eqb (Items [$"a"]) (Item $"a") = false /\
  @item_into_list str (Items [$"a"]) = item_into_list (Item $"a").
Proof. repeat split. Qed.
