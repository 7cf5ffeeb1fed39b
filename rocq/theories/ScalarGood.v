(** The codecs of [EnumModel] and [ScalarCodec] are good: they read back what they write, and read well-formed
    values only. *)

From Coq Require Import String Ascii List NArith ZArith Bool Lia ZifyBool ZifyN ZifyNat Sorted.
Import ListNotations.
From Verif Require Import Base BaseFacts Num NumFacts Coll CollFacts Regex KeysSpec KeysModel KeysProofs UserModel UserProofs DurationModel DurationSpec DurationProofs
  BytesModel BytesProofs CpuSetModel CpuSetProofs DeviceModel DeviceProofs ImageModel ImageSpec ImageProofs IpModel IpProofs
  NetModel NetProofs PathModel PathProofs PortsModel PortsProofs TextModel VolumesModel VolumesProofs ValuesModel BuildModel BuildProofs
  PlatformModel PlatformSpec PropsPlatform PropsText PropsNet PropsBuild PropsBytes PropsCpuSet PropsDevice PropsVolumes PropsUser Serde Codec CodecFacts EnumModel PropsEnum ScalarCodec.
Open Scope N_scope.

(** ** Shapes of what is written *)

Definition is_map (v : sval) : bool := match v with VMap _ => true | _ => false end.
Definition is_scalar (v : sval) : bool := match v with VNull | VSeq _ | VMap _ => false | _ => true end.
Definition scalar {A : Set} (c : codec A) : Prop := forall a, wf c a -> is_scalar (ser c a) = true.
(** Never a map; always a map. *)
Definition flat {A : Set} (c : codec A) : Prop := forall a, wf c a -> is_map (ser c a) = false.
Definition mapping {A : Set} (c : codec A) : Prop := forall a, is_map (ser c a) = true.

Lemma scalar_nn : forall {A : Set} (c : codec A), scalar c -> not_null c.
Proof. intros A c H a W E. specialize (H a W). rewrite E in H. discriminate. Qed.
Lemma scalar_flat : forall {A : Set} (c : codec A), scalar c -> flat c.
Proof. intros A c H a W. specialize (H a W). destruct (ser c a); try reflexivity; discriminate. Qed.
Lemma mapping_nn : forall {A : Set} (c : codec A), mapping c -> not_null c.
Proof. intros A c H a W E. specialize (H a). rewrite E in H. discriminate. Qed.

Create HintDb codec discriminated.
#[export] Hint Constants Opaque : codec.
#[export] Hint Variables Opaque : codec.

(** A scalar codec which normalises nothing. *)
Record leaf {A : Set} (c : codec A) : Prop := mk_leaf { l_good : good c; l_plain : plain c; l_scalar : scalar c }.
Lemma leaf_good : forall {A : Set} (c : codec A), leaf c -> good c. Proof. intros A c []; assumption. Qed.
Lemma leaf_plain : forall {A : Set} (c : codec A), leaf c -> plain c. Proof. intros A c []; assumption. Qed.
Lemma leaf_scalar : forall {A : Set} (c : codec A), leaf c -> scalar c. Proof. intros A c []; assumption. Qed.
Lemma leaf_nn : forall {A : Set} (c : codec A), leaf c -> not_null c. Proof. intros A c []. now apply scalar_nn. Qed.
Lemma leaf_flat : forall {A : Set} (c : codec A), leaf c -> flat c. Proof. intros A c []. now apply scalar_flat. Qed.
#[export] Hint Resolve leaf_good leaf_plain leaf_scalar leaf_nn leaf_flat : codec.

Lemma text_leaf : forall {E} {A : Set} (show : A -> str) (parse : str -> result E A) (inv : A -> Prop),
  (forall a, inv a -> parse (show a) = Ok a) -> (forall s a, parse s = Ok a -> inv a) -> leaf (text_c show parse inv).
Proof. intros E A show parse inv R S. split; [now apply text_good|intros a; reflexivity|intros a _; reflexivity]. Qed.
Lemma derived_leaf : forall {A : Set} (d : enum_def A), closed_enum (derived d) (en_as_str d) (en_aliases d) -> leaf (derived d).
Proof. intros A d H. split; [now apply closed_good|apply derived_plain|intros a _; reflexivity]. Qed.
Lemma mk_leaf' : forall {A : Set} (ser : A -> sval) de (wf : A -> Prop) p,
  (forall a, wf a -> de (ser a) = Ok a) -> (forall v a, de v = Ok a -> wf a) -> (forall a, wf a -> is_scalar (ser a) = true) ->
  leaf (MkCodec ser de wf (fun a => a) p).
Proof. intros A ser de wf p R S X. split; [apply plain_good; [intros a; reflexivity|exact R|exact S]|intros a; reflexivity|exact X]. Qed.

Lemma string_leaf : leaf string_c. Proof. split; [exact string_good|intros a; reflexivity|intros a _; reflexivity]. Qed.
Lemma bool_leaf : leaf bool_c. Proof. split; [exact bool_good|intros a; reflexivity|intros a _; reflexivity]. Qed.
Lemma uint_leaf : forall m, leaf (uint_c m). Proof. intros m. split; [apply uint_good|intros a; reflexivity|intros a _; reflexivity]. Qed.
#[export] Hint Resolve string_leaf bool_leaf uint_leaf : codec.

(** ** Enums *)

Lemma cgroup_leaf : leaf cgroup_c. Proof. apply derived_leaf, closed_enums. Qed.
Lemma condition_leaf : leaf condition_c. Proof. apply derived_leaf, closed_enums. Qed.
Lemma uts_leaf : leaf uts_c. Proof. apply derived_leaf, closed_enums. Qed.
Lemma pull_policy_leaf : leaf pull_policy_c. Proof. apply derived_leaf, closed_enums. Qed.
Lemma restart_leaf : leaf restart_c. Proof. apply derived_leaf, closed_enums. Qed.
Lemma deploy_mode_leaf : leaf deploy_mode_c. Proof. apply derived_leaf, closed_enums. Qed.
Lemma restart_condition_leaf : leaf restart_condition_c. Proof. apply derived_leaf, closed_enums. Qed.
Lemma failure_action_leaf : leaf failure_action_c. Proof. apply derived_leaf, closed_enums. Qed.
Lemma order_leaf : leaf order_c. Proof. apply derived_leaf, closed_enums. Qed.
Lemma action_leaf : leaf action_c. Proof. apply derived_leaf, closed_enums. Qed.
Lemma bind_propagation_leaf : leaf bind_propagation_c.
Proof. split; [apply buffered_good, closed_enums|intros a; reflexivity|intros a _; reflexivity]. Qed.
Lemma mode_leaf : leaf mode_c. Proof. apply derived_leaf, closed_enums. Qed.
#[export] Hint Resolve cgroup_leaf condition_leaf uts_leaf pull_policy_leaf restart_leaf deploy_mode_leaf restart_condition_leaf
  failure_action_leaf order_leaf action_leaf bind_propagation_leaf mode_leaf : codec.

(** ** Text *)

(** A validated string. *)
Lemma language_leaf : forall {E} (new : str -> result E str) (lang : str -> Prop), (forall s t, new s = Ok t <-> t = s /\ lang s) ->
  leaf (text_c identity new lang).
Proof.
  intros E new lang H. apply text_leaf; unfold identity.
  - intros a L. apply H. auto.
  - intros s a X. now apply H in X as [-> L].
Qed.

Lemma identifier_leaf : leaf identifier_c. Proof. apply language_leaf, identifier_new_ok. Qed.
Lemma name_leaf : leaf name_c. Proof. apply language_leaf, name_new_ok. Qed.
Lemma map_key_leaf : leaf map_key_c.
Proof.
  apply language_leaf. intros s t. unfold map_key_new, map_key. destruct s as [|c s]; [split; [discriminate|intros (_ & X & _); now elim X]|].
  destruct (contains 10 (c :: s)) eqn:C.
  - apply contains_In in C. split; [discriminate|]. intros (_ & _ & N). now elim N.
  - apply contains_not_In in C. split; [|intros [-> _]; reflexivity]. intros H. injection H as <-. repeat split; [discriminate|assumption].
Qed.
Lemma hostname_leaf : leaf hostname_c. Proof. apply language_leaf, hostname_new_ok. Qed.
Lemma ulimit_resource_leaf : leaf ulimit_resource_c. Proof. apply language_leaf, ulimit_resource_new_ok. Qed.
Lemma path_leaf : leaf path_c. Proof. exact string_leaf. Qed.
Lemma absolute_iff : forall p, is_absolute p = true <-> absolute p.
Proof. intros p. unfold is_absolute, absolute. apply starts_with_iff. Qed.
Lemma absolute_path_leaf : leaf absolute_path_c.
Proof. apply language_leaf. intros s t. rewrite absolute_path_new_ok. now rewrite absolute_iff. Qed.
Lemma host_path_leaf : leaf host_path_c.
Proof. apply language_leaf. intros s t. rewrite host_path_new_ok. reflexivity. Qed.

Lemma image_leaf : leaf image_c.
Proof.
  apply text_leaf; [intros a H; exact H|]. intros s a H. unfold image_wf. now rewrite (image_text s a H).
Qed.
Lemma platform_leaf : leaf platform_c.
Proof.
  destruct crate_platforms as (T & _). destruct (platform_inverse crate_table T) as (R & S & _). apply text_leaf.
  - intros a W. destruct (R a W) as (s & E1 & E2). unfold platform_show. now rewrite E1.
  - intros s a H. now apply S in H.
Qed.
Lemma link_leaf : leaf link_c.
Proof. apply text_leaf; [apply link_round_trip|]. intros s a H. now apply link_language in H. Qed.
Lemma ipc_leaf : leaf ipc_c.
Proof. apply text_leaf; [apply ipc_round_trip|]. intros s a H. now apply ipc_language in H. Qed.
(** Reading [container:ro:rw] gives a value which is written as [container:ro]. *)
Lemma volumes_from_good_if : good_if (fun v => vf_read_only v = false -> suffix_free (vf_source v)) volumes_from_c /\ plain volumes_from_c /\ scalar volumes_from_c.
Proof.
  split; [split|split; [intros a; reflexivity|intros a _; reflexivity]].
  - intros a [S F]. cbn [de ser volumes_from_c text_c norm]. unfold from_string. now rewrite (proj2 (volumes_from_round_trip a S) F).
  - intros v a H F. cbn [de volumes_from_c text_c] in H. unfold from_string in H. destruct v; try discriminate.
    destruct (volumes_from_parse s) as [b|] eqn:E; cbn [map_err] in H; [|discriminate]. injection H as ->.
    split; [now apply volumes_from_language in E|exact F].
  - intros a _. reflexivity.
Qed.

Lemma driver_leaf : leaf driver_c.
Proof.
  destruct driver_open_enum as (A1 & A2 & A3 & A4 & A5). apply text_leaf; unfold total.
  - intros a [N1 N2]. f_equal. apply A4. intros s [<-|[<-|[]]]; assumption.
  - intros s a H. injection H as <-. assert (X := proj1 (A4 (driver_parse s))). rewrite A1 in X.
    split; apply X; cbn; auto.
Qed.
Lemma endpoint_mode_leaf : leaf endpoint_mode_c.
Proof.
  destruct endpoint_mode_open_enum as (A1 & A2 & A3 & A4 & A5). apply text_leaf; unfold total.
  - intros a [N1 N2]. f_equal. apply A4. intros s [<-|[<-|[]]]; assumption.
  - intros s a H. injection H as <-. assert (X := proj1 (A4 (endpoint_mode_parse s))). rewrite A1 in X.
    split; apply X; cbn; auto.
Qed.
Lemma capability_leaf : leaf capability_c.
Proof.
  destruct capability_open_enum as (A1 & A2 & A3 & A4 & A5). apply text_leaf; unfold total.
  - intros a [N1 N2]. f_equal. apply A4. intros s [<-|[<-|[]]]; assumption.
  - intros s a H. injection H as <-. assert (X := proj1 (A4 (capability_parse s))). rewrite A1 in X.
    split; apply X; cbn; auto.
Qed.
Lemma protocol_leaf : leaf protocol_c.
Proof.
  destruct protocol_open_enum as (A1 & A2 & A3 & A4 & A5). apply text_leaf; unfold total.
  - intros a [N1 N2]. f_equal. apply A4. intros s [<-|[<-|[]]]; assumption.
  - intros s a H. injection H as <-. assert (X := proj1 (A4 (protocol_parse s))). rewrite A1 in X.
    split; apply X; cbn; auto.
Qed.
Lemma build_network_leaf : leaf build_network_c.
Proof.
  apply text_leaf.
  - intros a W. apply build_network_language. destruct a; cbn in *; tauto.
  - intros s a H. apply build_network_language in H. destruct a; cbn in *; [|exact I]. destruct H as (-> & M & N). auto.
Qed.
Lemma user_leaf : leaf user_c.
Proof.
  apply text_leaf.
  - intros a [U G]. apply user_text_round_trip; [exact U|]. destruct (user_group a) as [[n|s]|]; exact G.
  - intros s a H. apply user_parse_valid in H as [U G]. unfold user_wf, id_or_name_wf. unfold valid_id_or_name in *. split.
    + destruct (user_user a); [unfold U32_MAX in *; lia|assumption].
    + destruct (user_group a) as [[n|g]|]; [unfold U32_MAX in *; lia|assumption|exact I].
Qed.
Lemma cpuset_leaf : forall w, leaf (cpuset_c w).
Proof.
  intros w. apply text_leaf.
  - intros a [S F]. destruct (cpuset_text_round_trip (w_checks w) a S F) as (s & E1 & E2). unfold cpuset_text. now rewrite E1.
  - intros s a H. apply cpuset_parse_ok in H as (_ & S & M). split; [assumption|]. apply Forall_forall. intros x Hx.
    apply M in Hx as (i & _ & [Hi|(a' & b & m & n & _ & _ & Hb & L)]); [now apply parse_uint_bound in Hi|]. apply parse_uint_bound in Hb. lia.
Qed.
Lemma device_leaf : leaf device_c.
Proof.
  apply text_leaf.
  - intros a (A & N1 & N2). apply device_text_round_trip; [now apply absolute_iff|assumption|assumption].
  - intros s a H. apply device_parse_meaning in H as ([r A] & N1 & N2 & _). split; [exists r; exact A|]. now split.
Qed.
Lemma cgroup_rule_leaf : leaf cgroup_rule_c.
Proof.
  apply text_leaf.
  - intros a [A B]. now apply cgroup_round_trip.
  - intros s a H. now apply cgroup_parse_u16 in H.
Qed.
Lemma network_mode_leaf : leaf network_mode_c.
Proof.
  apply text_leaf.
  - intros a W. apply PropsNet.network_mode_text. split; [reflexivity|exact W].
  - intros s a H. now apply PropsNet.network_mode_text in H as [_ W].
Qed.
Lemma mac_leaf : leaf mac_c.
Proof.
  apply text_leaf.
  - intros a [L B]. now apply mac_round_trip.
  - intros s a H. now apply mac_parse_bytes in H.
Qed.
Lemma ip_leaf : forall w, leaf (ip_c w).
Proof.
  intros w. apply text_leaf; unfold from_option.
  - intros a W. now rewrite ip_round_trip.
  - intros s a H. destruct (ip_parse s) eqn:E; [|discriminate]. injection H as <-. now apply ip_parse_wf in E.
Qed.
Lemma ipv4_leaf : forall w, leaf (ipv4_c w).
Proof.
  intros w. apply text_leaf; unfold from_option, ipv4_parse.
  - intros a [W V]. now rewrite ip_round_trip, V.
  - intros s a H. destruct (ip_parse s) eqn:E; [|discriminate]. destruct (is_v4 i) eqn:V; [|discriminate].
    injection H as <-. split; [now apply ip_parse_wf in E|assumption].
Qed.
Lemma ipv6_leaf : forall w, leaf (ipv6_c w).
Proof.
  intros w. apply text_leaf; unfold from_option, ipv6_parse.
  - intros a [W V]. now rewrite ip_round_trip, V.
  - intros s a H. destruct (ip_parse s) eqn:E; [|discriminate]. destruct (is_v4 i) eqn:V; [discriminate|].
    injection H as <-. split; [now apply ip_parse_wf in E|assumption].
Qed.
Lemma ip_net_leaf : forall w, externals_ok w -> leaf (ip_net_c w).
Proof.
  intros w (_ & O & _). apply text_leaf; unfold from_option, identity.
  - intros a W. now rewrite W.
  - intros s a H. destruct (w_net w s) eqn:E; [|discriminate]. injection H as <-. now apply O in E.
Qed.
Lemma short_volume_leaf : leaf short_volume_c.
Proof.
  apply text_leaf.
  - intros a (A & N & O). apply short_volume_text_round_trip; [exact A|exact N|]. intros o E. rewrite E in O.
    unfold volume_source_wf in O. destruct (so_source o); [|exact O]. split; [|apply O]. apply path_languages. apply O.
  - intros s a H. apply short_volume_parse_meaning in H as (A & N & O). split; [exact A|]. split; [exact N|].
    destruct (sv_options a) as [o|]; [|exact I]. destruct O as (src & P & Ns & _). unfold volume_source_wf.
    destruct (so_source o) as [p|id]; apply volume_source_kinds in P as [-> P]; auto.
Qed.
Lemma selinux_leaf : leaf selinux_c.
Proof. apply text_leaf; [intros [] _; reflexivity|intros; exact I]. Qed.
Lemma cache_leaf : leaf cache_c.
Proof. apply text_leaf; [apply cache_round_trip|apply cache_parse_canonical]. Qed.
Lemma ssh_auth_leaf : leaf ssh_auth_c.
Proof.
  apply text_leaf.
  - intros a W. apply ssh_auth_language. destruct a; cbn in *; [reflexivity|]. split; [reflexivity|exact W].
  - intros s a H. apply ssh_auth_language in H. destruct a; cbn in *; [exact I|]. destruct H as [_ H]. exact H.
Qed.
Lemma u32_text_leaf : leaf u32_text_c.
Proof. apply text_leaf; [apply parse_u32_show|intros s a H; now apply parse_uint_bound in H]. Qed.
#[export] Hint Resolve identifier_leaf name_leaf map_key_leaf hostname_leaf ulimit_resource_leaf path_leaf absolute_path_leaf host_path_leaf
  image_leaf platform_leaf link_leaf ipc_leaf driver_leaf endpoint_mode_leaf capability_leaf protocol_leaf build_network_leaf user_leaf
  cpuset_leaf device_leaf cgroup_rule_leaf network_mode_leaf mac_leaf ip_leaf ipv4_leaf ipv6_leaf ip_net_leaf short_volume_leaf selinux_leaf
  cache_leaf ssh_auth_leaf u32_text_leaf : codec.

(** ** Numbers and mixed forms *)

Lemma u16_leaf : leaf u16_c. Proof. apply uint_leaf. Qed.
Lemma u32_leaf : leaf u32_c. Proof. apply uint_leaf. Qed.
Lemma u64_leaf : leaf u64_c. Proof. apply uint_leaf. Qed.
Lemma percent_leaf : leaf percent_c.
Proof.
  apply mk_leaf'; [intros a W; now apply percent_deserialize_iff|intros v a H; now apply percent_deserialize_iff in H|reflexivity].
Qed.
Lemma oom_score_adj_leaf : leaf oom_score_adj_c.
Proof.
  apply mk_leaf'; [intros a W; now apply oom_score_adj_deserialize_iff|intros v a H; now apply oom_score_adj_deserialize_iff in H|reflexivity].
Qed.
Lemma weight_leaf : leaf weight_c.
Proof.
  apply mk_leaf'; [intros a W; now apply weight_deserialize_iff|intros v a H; now apply weight_deserialize_iff in H|reflexivity].
Qed.
Lemma byte_value_leaf : leaf byte_value_c.
Proof.
  apply mk_leaf'; [intros a W; now apply byte_value_text_round_trip| |reflexivity].
  intros v a H. unfold byte_value_deserialize in H. destruct v; try discriminate.
  - destruct (int_to_uint U64_MAX z) eqn:E; cbn [map_ok] in H; [|discriminate]. injection H as <-. apply int_to_uint_ok in E as [_ E]. exact E.
  - destruct (byte_value_parse s) eqn:E; cbn [map_err] in H; [|discriminate]. injection H as <-. now apply byte_value_parse_bound in E.
Qed.
(** Of an unsigned integer or a byte value. *)
Lemma limit_leaf : forall {T : Set} (c : codec T), leaf c ->
  (forall a, wf c a -> match ser c a with VInt z => (0 <= z)%Z | VStr s => s <> $"-1" | _ => False end) -> leaf (limit_c c).
Proof.
  intros T c [[R S T'] P X] N. split; [apply plain_good| |].
  - intros [a|]; cbn [norm limit_c]; [now rewrite (P a)|reflexivity].
  - intros [a|] W; [|reflexivity]. cbn [de ser limit_c wf] in *. specialize (N a W). assert (E := R a W). rewrite (P a) in E.
    unfold limit_deserialize, limit_serialize. destruct (ser c a); try contradiction.
    + destruct (z <=? -2)%Z eqn:L; [lia|]. destruct (z =? -1)%Z eqn:L'; [lia|]. now rewrite E.
    + destruct (str_eqb_spec s $"-1"); [contradiction|]. now rewrite E.
  - intros v [a|] H; [|exact I]. cbn [de wf limit_c] in *. unfold limit_deserialize in H. destruct v; try discriminate.
    + destruct (z <=? -2)%Z; [discriminate|]. destruct (z =? -1)%Z; [discriminate|].
      destruct (de c (VInt z)) eqn:E; cbn [map_ok] in H; [|discriminate]. injection H as <-. now apply S in E.
    + destruct (str_eqb s $"-1"); [discriminate|].
      destruct (de c (VStr s)) eqn:E; cbn [map_ok] in H; [|discriminate]. injection H as <-. now apply S in E.
  - intros [a|]; cbn [norm limit_c]; [now rewrite (P a)|reflexivity].
  - intros [a|] W; [exact (X a W)|reflexivity].
Qed.
Lemma limit_uint_leaf : forall m, leaf (limit_c (uint_c m)).
Proof. intros m. apply limit_leaf; [apply uint_leaf|]. intros a _. cbn. lia. Qed.
Lemma limit_bytes_leaf : leaf (limit_c byte_value_c).
Proof.
  apply limit_leaf; [exact byte_value_leaf|]. intros a W. cbn. intros E. cbn in W.
  assert (H := proj1 (byte_value_text_round_trip a W)). rewrite E in H. discriminate H.
Qed.
Lemma count_leaf : leaf count_c.
Proof.
  apply mk_leaf'; [exact count_round_trip| |intros []; reflexivity].
  intros v a H. apply count_deserialize_iff in H. destruct a; [exact I|apply H].
Qed.
Lemma cpus_leaf : forall w, leaf (cpus_c w).
Proof.
  intros w. apply mk_leaf'; [| |reflexivity].
  - intros a W. unfold cpus_new. destruct (N.ltb_spec a POS_INF_BITS); [reflexivity|lia].
  - intros v a. assert (X : forall b, cpus_new b = Ok a -> a < POS_INF_BITS).
    { intros b. unfold cpus_new. destruct (N.ltb_spec b POS_INF_BITS); [|discriminate]. intros H'. injection H' as <-. assumption. }
    destruct v; try discriminate; [apply X|]. destruct (is_float_text s); [apply X|discriminate].
Qed.
Lemma id_or_name_leaf : leaf id_or_name_c.
Proof.
  apply mk_leaf'; [| |intros []; reflexivity].
  - intros [n|s] W; cbn [id_or_name_wf] in W.
    + unfold int_to_uint, U32_MAX. destruct ((0 <=? Z.of_N n)%Z && (Z.of_N n <=? Z.of_N 4294967295)%Z) eqn:E; [|lia].
      cbn [map_ok]. now rewrite N2Z.id.
    + change s with (id_or_name_show (UName s)) at 1. now rewrite id_or_name_text_round_trip.
  - intros v a H. destruct v; try discriminate.
    + destruct (int_to_uint U32_MAX z) eqn:E; cbn [map_ok] in H; [|discriminate]. injection H as <-. apply int_to_uint_ok in E as [_ E].
      cbn. unfold U32_MAX in E. lia.
    + destruct (id_or_name_parse s) as [i|] eqn:E; cbn [map_err] in H; [|discriminate]. injection H as <-. apply id_or_name_parse_valid in E.
      destruct i; cbn in *; [unfold U32_MAX in *; lia|assumption].
Qed.
Lemma range_leaf : leaf range_c.
Proof.
  apply mk_leaf'.
  - intros a W. unfold range_serialize, range_deserialize, from_str_or_u16. destruct a as [s [e|]]; cbn [r_end r_start].
    + rewrite range_round_trip by exact W. reflexivity.
    + unfold int_to_uint. destruct W as [W _]. cbn [r_start] in W.
      destruct ((0 <=? Z.of_N s)%Z && (Z.of_N s <=? Z.of_N U16_MAX)%Z) eqn:E; [|lia]. cbn [map_ok lift no_panic]. now rewrite N2Z.id.
  - intros v a H. unfold range_deserialize, from_str_or_u16 in H. destruct v; try discriminate.
    + destruct (int_to_uint U16_MAX z) eqn:E; cbn [map_ok lift no_panic] in H; [|discriminate]. injection H as <-. apply int_to_uint_ok in E as [_ E].
      split; [exact E|exact I].
    + destruct (range_parse s) eqn:E; cbn [lift no_panic] in H; [|discriminate]. injection H as <-. now apply range_parse_u16 in E.
  - intros [s [e|]] _; reflexivity.
Qed.
Lemma protocol_wf_iff : forall p, protocol_wf p <-> protocol_canonical p.
Proof.
  intros [| |s]; unfold protocol_wf; cbn; split; intros H; try exact I; try (split; discriminate).
  - split; intros ->; destruct H as [H1 H2]; congruence.
  - destruct H as [H1 H2]. split; intros X; injection X as ->; congruence.
Qed.
Lemma expose_wf_iff : forall e, expose_wf e <-> ex_valid e.
Proof.
  intros e. unfold expose_wf, ex_valid, range_wf. destruct (ex_protocol e) as [p|]; [rewrite protocol_wf_iff; reflexivity|reflexivity].
Qed.
Lemma expose_leaf : leaf expose_c.
Proof.
  apply mk_leaf'.
  - intros a W. apply expose_wf_iff in W. now rewrite expose_serde_round_trip.
  - intros v a H. apply expose_wf_iff. unfold expose_deserialize, from_str_or_u16 in H. destruct v; try discriminate.
    + destruct (int_to_uint U16_MAX z) eqn:E; cbn [map_ok lift no_panic] in H; [|discriminate]. injection H as <-. apply int_to_uint_ok in E as [_ E].
      split; [split; [exact E|exact I]|exact I].
    + destruct (expose_parse s) eqn:E; cbn [lift no_panic] in H; [|discriminate]. injection H as <-. now apply expose_parse_valid in E.
  - intros a _. cbn [ser expose_c]. unfold expose_serialize. destruct (r_end (ex_range a)), (ex_protocol a); reflexivity.
Qed.
Lemma short_port_leaf : forall w, leaf (short_port_c w).
Proof.
  intros w. apply mk_leaf'.
  - intros a W. now rewrite short_port_serde_round_trip.
  - intros v a H. unfold short_port_deserialize, from_str_or_u16 in H. destruct v; try discriminate.
    + destruct (int_to_uint U16_MAX z) eqn:E; cbn [map_ok lift no_panic] in H; [|discriminate]. injection H as <-. apply int_to_uint_ok in E as [_ E].
      split; [exact I|]. split; [|exact I]. split; [split; [exact I|split; [exact E|exact I]]|reflexivity].
    + destruct (short_port_parse (w_checks w) s) eqn:E; cbn [no_panic] in H; try discriminate. injection H as <-. now apply short_port_parse_valid in E.
  - intros a _. unfold short_port_serialize. destruct (sp_host_ip a), (sp_protocol a); try reflexivity.
    unfold short_ranges_serialize. destruct (sr_host (sp_ranges a)); [reflexivity|]. try (unfold range_serialize; destruct (r_end (sr_container (sp_ranges a))); reflexivity).
Qed.
#[export] Hint Resolve u16_leaf u32_leaf u64_leaf percent_leaf oom_score_adj_leaf weight_leaf byte_value_leaf limit_uint_leaf limit_bytes_leaf count_leaf cpus_leaf
  id_or_name_leaf range_leaf expose_leaf short_port_leaf : codec.

(** ** Durations *)

Lemma whole_micros_string : forall d, to_string (whole_micros d) = to_string d.
Proof.
  intros d. unfold to_string, whole_micros, subsec_micros. cbn [secs nanos].
  replace (nanos d / 1000 * 1000 / 1000) with (nanos d / 1000) by (rewrite N.div_mul; [reflexivity|discriminate]). reflexivity.
Qed.
Lemma duration_good : good duration_c.
Proof.
  split.
  - intros d W. cbn [de ser duration_c norm]. rewrite (round_trip d W). reflexivity.
  - intros v d H. cbn [de wf duration_c] in *. destruct v; try discriminate.
    + destruct (int_to_uint U64_MAX z) eqn:E; cbn [map_ok] in H; [|discriminate]. injection H as <-. apply int_to_uint_ok in E as [_ E].
      now apply from_micros_spec.
    + destruct (parse s) eqn:E; cbn [no_panic] in H; try discriminate. injection H as <-. apply parse_ok_iff in E.
      destruct E as (ts & _ & _ & _ & W & _). exact W.
  - intros d _. cbn [ser norm duration_c]. now rewrite whole_micros_string.
Qed.
Lemma duration_scalar : scalar duration_c. Proof. intros d _. reflexivity. Qed.
Lemma duration_us_good : good duration_us_c.
Proof.
  assert (M : forall d, as_micros (whole_micros d) = as_micros d).
  { intros d. unfold as_micros, whole_micros. cbn [secs nanos]. rewrite N.div_mul; [reflexivity|discriminate]. }
  split.
  - intros d [[W1 W2] L]. cbn [de ser duration_us_c norm]. rewrite (proj2 (int_to_uint_ok _ _ (as_micros d)) (conj eq_refl L)). cbn [map_ok]. f_equal.
    unfold from_micros, whole_micros, as_micros. unfold NANOS_PER_SEC in W2.
    assert (Q : nanos d / 1000 < 1000000) by (apply N.div_lt_upper_bound; [discriminate|exact W2]).
    rewrite (N.add_comm (secs d * 1000000)), N.div_add, N.mod_add by discriminate. rewrite (N.div_small _ _ Q), (N.mod_small _ _ Q). reflexivity.
  - intros v d H. cbn [de wf duration_us_c] in *. destruct v; try discriminate.
    destruct (int_to_uint U64_MAX z) eqn:E; cbn [map_ok] in H; [|discriminate]. injection H as <-. apply int_to_uint_ok in E as [_ E].
    split; [now apply from_micros_spec|]. unfold as_micros, from_micros. cbn [secs nanos]. rewrite N.div_mul by discriminate.
    rewrite N.mul_comm, <- N.div_mod by discriminate. exact E.
  - intros d _. cbn [ser norm duration_us_c]. now rewrite M.
Qed.
Lemma duration_us_scalar : scalar duration_us_c. Proof. intros d _. reflexivity. Qed.
Lemma duration_nn : not_null duration_c. Proof. apply scalar_nn, duration_scalar. Qed.
Lemma duration_us_nn : not_null duration_us_c. Proof. apply scalar_nn, duration_us_scalar. Qed.
#[export] Hint Resolve duration_good duration_us_good duration_nn duration_us_nn : codec.
