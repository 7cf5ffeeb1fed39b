(** Which values the codecs of the scalar types accept. *)

From Coq Require Import String Ascii List NArith ZArith Bool Lia ZifyBool ZifyN ZifyNat Permutation.
Import ListNotations.
From Verif Require Import Base BaseFacts PlatformSpec Num NumFacts Coll CollFacts Regex KeysSpec KeysModel NumSpec IpModel IpSpec IpLang PortsModel PortsSpec PortsProofs PlatformModel
  ValuesSpec ValuesModel ValuesProofs DurationSpec DurationModel BytesModel CpuSetModel DeviceModel PathModel ImageModel NetModel NetProofs TextModel VolumesModel BuildModel UserModel
  PropsDuration PropsText PropsPortText PropsNet PropsBytes BytesProofs
  Serde Codec CodecFacts EnumModel ScalarCodec CommonCodec
  Schema SchemaText ComposeSchema SchemaFacts SchemaLoads.
Open Scope N_scope.

(** ** Texts *)

Lemma loads_identifier : loads identifier_c (text IDENTIFIER). Proof. apply loads_text, identifier_texts. Qed.
Lemma loads_name : loads name_c (text PROJECT_NAME). Proof. apply loads_text, name_texts. Qed.
Lemma loads_map_key : loads map_key_c (text MAP_KEY). Proof. apply loads_text, map_key_texts. Qed.
Lemma loads_hostname : loads hostname_c (text HOSTNAME). Proof. apply loads_text, hostname_texts. Qed.
Lemma loads_ulimit_resource : loads ulimit_resource_c (text ULIMIT). Proof. apply loads_text, ulimit_texts. Qed.
Lemma loads_absolute_path : loads absolute_path_c (text ABSOLUTE_PATH). Proof. apply loads_text, absolute_texts. Qed.
Lemma loads_host_path : loads host_path_c (text HOST_PATH). Proof. apply loads_text, host_path_texts. Qed.
Lemma loads_image : loads image_c (text IMAGE). Proof. apply loads_text, image_texts. Qed.
Lemma loads_platform : loads platform_c (text PLATFORM). Proof. apply loads_text, platform_texts. Qed.
Lemma loads_link : loads link_c (text LINK). Proof. apply loads_text, link_texts. Qed.
Lemma loads_ipc : loads ipc_c (text IPC). Proof. apply loads_text, ipc_texts. Qed.
Lemma loads_volumes_from : loads volumes_from_c (text VOLUMES_FROM). Proof. apply loads_text, volumes_from_texts. Qed.
Lemma loads_driver : loads driver_c any_text. Proof. apply loads_any_text. Qed.
Lemma loads_endpoint_mode : loads endpoint_mode_c any_text. Proof. apply loads_any_text. Qed.
Lemma loads_capability : loads capability_c any_text. Proof. apply loads_any_text. Qed.
Lemma loads_protocol : loads protocol_c any_text. Proof. apply loads_any_text. Qed.
Lemma loads_build_network : loads build_network_c (text IDENTIFIER). Proof. apply loads_text, build_network_texts. Qed.
Lemma loads_user : loads user_c (text USER). Proof. apply loads_text, user_texts. Qed.
Lemma loads_cpuset : forall w, loads (cpuset_c w) (text CPUSET). Proof. intros w. apply loads_text, cpuset_texts. Qed.
Lemma loads_device : loads device_c (text DEVICE). Proof. apply loads_text, device_texts. Qed.
Lemma loads_cgroup_rule : loads cgroup_rule_c (text DEVICE_CGROUP_RULE). Proof. apply loads_text, cgroup_texts. Qed.
Lemma loads_network_mode : loads network_mode_c (text NETWORK_MODE). Proof. apply loads_text, network_mode_texts. Qed.
Lemma loads_mac : loads mac_c (text MAC_ADDRESS). Proof. apply loads_text, mac_texts. Qed.
Lemma loads_ip : forall w, loads (ip_c w) (text IP). Proof. intros w. apply loads_text, ip_texts. Qed.
Lemma loads_ipv4 : forall w, loads (ipv4_c w) (text IPV4). Proof. intros w. apply loads_text, ipv4_texts. Qed.
Lemma loads_ipv6 : forall w, loads (ipv6_c w) (text IPV6). Proof. intros w. apply loads_text, ipv6_texts. Qed.
Lemma loads_ip_net : forall w, loads (ip_net_c w) (text (NETWORK_TEXT w)). Proof. intros w. apply loads_text, net_texts. Qed.
Lemma loads_short_volume : loads short_volume_c (text SHORT_VOLUME). Proof. apply loads_text, short_volume_texts. Qed.
Lemma loads_selinux : loads selinux_c (one_of [$"z"; $"Z"]). Proof. apply loads_text, selinux_texts. Qed.
Lemma loads_cache : loads cache_c (text CACHE). Proof. apply loads_text, cache_texts. Qed.
Lemma loads_ssh_auth : loads ssh_auth_c (text SSH). Proof. apply loads_text, ssh_texts. Qed.
Lemma loads_u32_text : loads u32_text_c (text (UINT 4294967295)). Proof. apply loads_text, u32_texts. Qed.

(** ** Numbers and mixed forms *)

Lemma loads_u16 : loads u16_c U16. Proof. now apply loads_uint. Qed.
Lemma loads_u32 : loads u32_c U32. Proof. now apply loads_uint. Qed.
Lemma loads_u64 : loads u64_c U64. Proof. now apply loads_uint. Qed.
Lemma loads_percent : loads percent_c PERCENT.
Proof.
  intros v. split.
  - intros [n H]. apply percent_deserialize_iff in H as [-> H]. eexists. split; [reflexivity|lia].
  - intros (z & -> & H). exists (Z.to_N z). apply percent_deserialize_iff. split; [f_equal|]; lia.
Qed.
Lemma loads_oom_score_adj : loads oom_score_adj_c (integer (-1000) 1000).
Proof. intros v. split; intros [z H]; exists z; now apply oom_score_adj_deserialize_iff. Qed.
Lemma loads_weight : loads weight_c WEIGHT.
Proof.
  intros v. split.
  - intros [n H]. apply weight_deserialize_iff in H as [-> H]. eexists. split; [reflexivity|lia].
  - intros (z & -> & H). exists (Z.to_N z). apply weight_deserialize_iff. split; [f_equal|]; lia.
Qed.

Lemma int_or_text : forall {A : Set} (c : codec A) hi L (f : N -> A) max, hi = Z.of_N max ->
  (forall z, de c (VInt z) = map_ok f (int_to_uint max z)) -> (forall s, accepts (de c (VStr s)) <-> L s) ->
  (forall v, match v with VInt _ | VStr _ => True | _ => ~ accepts (de c v) end) ->
  loads c (either (integer 0 hi) (text L)).
Proof.
  intros A c hi L f max -> HI HS HO v. specialize (HO v). unfold either, integer, text. destruct v; try (split; [tauto|]; intros [(? & E & _)|(? & E & _)]; discriminate).
  - rewrite HI, accepts_map, accepts_uint. split; [intros H; left; eauto|]. intros [(y & E & H)|(s & E & _)]; congruence.
  - rewrite HS. split; [intros H; right; eauto|]. intros [(y & E & H)|(t & E & H)]; congruence.
Qed.
Ltac others := let v := fresh "v" in intros v; destruct v; exact I || (let H := fresh "H" in intros H; now apply accepts_no in H).

Lemma bytes_texts : parses byte_value_parse BYTES.
Proof.
  assert (U : UNITS = map (fun x => fst (fst x)) unit_table) by reflexivity.
  intros s. unfold BYTES. split.
  - intros [v H]. apply byte_value_language in H as (u & f & m & d & n & I & -> & P & _). exists d, u. split; [reflexivity|]. split; [apply uint_texts; now exists n|].
    rewrite U. apply in_map_iff. exists (u, f, m). auto.
  - intros (d & u & -> & P & I). rewrite U in I. apply in_map_iff in I as (((u' & f) & m) & E & I). cbn [fst] in E. subst u'. apply uint_texts in P as [n P].
    exists (f n). apply byte_value_language. eauto 9.
Qed.
Lemma loads_byte_value : loads byte_value_c AMOUNT.
Proof. apply (int_or_text byte_value_c _ _ Bytes U64_MAX); [reflexivity|reflexivity| |others]. intros s. cbn [de byte_value_c byte_value_deserialize]. rewrite accepts_err. apply bytes_texts. Qed.

Definition int_or_string (P : shape) : Prop := forall v, P v -> (exists z, v = VInt z /\ (0 <= z)%Z) \/ (exists s, v = VStr s).
Lemma loads_limit : forall {A : Set} (c : codec A) P, loads c P -> int_or_string P -> loads (limit_c c) (or_unlimited P).
Proof.
  intros A c P L O v. unfold or_unlimited, either, integer, one_of.
  assert (X : forall v, ((exists z, v = VInt z /\ (-1 <= z <= -1)%Z) \/ (exists s, v = VStr s /\ In s [$"-1"])) <-> v = VInt (-1) \/ v = VStr $"-1").
  { intros u. cbn [In]. split; [intros [(z & -> & H)|(s & -> & [<-|[]])]; [left; f_equal; lia|now right]|]. intros [->| ->]; [left|right]; eexists; (split; [reflexivity|]); [lia|now left]. }
  rewrite X. clear X. destruct v; cbn [de limit_c limit_deserialize].
  1-2: rewrite accepts_no; (split; [intros []|]); intros [[E|E]|H]; try discriminate; destruct (O _ H) as [(z & E & _)|(s & E)]; discriminate.
  2: rewrite accepts_no; (split; [intros []|]); intros [[E|E]|H]; try discriminate; destruct (O _ H) as [(z & E & _)|(s & E)]; discriminate.
  3-4: rewrite accepts_no; (split; [intros []|]); intros [[E|E]|H]; try discriminate; destruct (O _ H) as [(z & E & _)|(s & E)]; discriminate.
  - destruct (Z.leb_spec z (-2)).
    + rewrite accepts_no. split; [intros []|]. intros [[E|E]|H']; [injection E; lia|discriminate|]. destruct (O _ H') as [(y & E & H1)|(s & E)]; [|discriminate]. injection E as <-. lia.
    + destruct (Z.eqb_spec z (-1)) as [->|N]; [rewrite accepts_ok; tauto|]. rewrite accepts_map, (L (VInt z)). split; [auto|]. intros [[E|E]|H']; [injection E; lia|discriminate|exact H'].
  - destruct (str_eqb_spec s $"-1") as [->|N]; [rewrite accepts_ok; tauto|]. rewrite accepts_map, (L (VStr s)). split; [auto|]. intros [[E|E]|H']; [discriminate|congruence|exact H'].
Qed.
Lemma uint_int_or_string : forall hi, int_or_string (integer 0 hi).
Proof. intros hi v (z & -> & H). left. exists z. split; [reflexivity|lia]. Qed.
Lemma amount_int_or_string : int_or_string AMOUNT.
Proof. intros v [(z & -> & H)|(s & -> & _)]; [left; exists z; split; [reflexivity|lia]|right; eauto]. Qed.

Lemma loads_count : loads count_c COUNT.
Proof.
  apply (int_or_text count_c _ _ CountInteger U64_MAX); [reflexivity|reflexivity| |others]. intros s. split.
  - intros [[|n] H]; apply count_deserialize_iff in H.
    + injection H as ->. now left.
    + destruct H as [_ [H|(t & E & H)]]; [discriminate|]. injection E as <-. right. apply uint_texts. now exists n.
  - intros [->|H]; [exists CountAll; now apply count_deserialize_iff|]. apply uint_texts in H as [n H]. exists (CountInteger n). apply count_deserialize_iff.
    split; [eapply parse_uint_bound; exact H|]. right. eauto.
Qed.
Lemma loads_cpus : forall w, loads (cpus_c w) (FINITE w).
Proof.
  intros w v. unfold FINITE.
  assert (F : forall b, accepts (cpus_new b) <-> finite b). { intros b. unfold cpus_new, finite. change (2047 * 2 ^ 52) with POS_INF_BITS. destruct (N.ltb_spec b POS_INF_BITS); rewrite ?accepts_ok, ?accepts_no; split; try tauto; lia. }
  destruct v; cbn [de cpus_c]; try (rewrite accepts_no; (split; [intros []|]); intros [(b' & E & _)|(s' & E & _)]; discriminate).
  - rewrite F. split; [intros H; left; eauto|]. intros [(b & E & H)|(s & E & _)]; congruence.
  - split.
    + intros H. right. exists s. split; [reflexivity|]. destruct (is_float_text s) eqn:E; [|now apply accepts_no in H]. split; [now apply float_re|now apply F].
    + intros [(b & E & _)|(t & E & M & H)]; [discriminate|]. injection E as <-. apply float_re in M. rewrite M. now apply F.
Qed.
Lemma loads_id_or_name : loads id_or_name_c (either U32 (text ID_OR_NAME)).
Proof. apply (int_or_text id_or_name_c _ _ Id U32_MAX); [reflexivity|reflexivity| |others]. intros s. cbn [de id_or_name_c]. rewrite accepts_err. apply id_or_name_texts. Qed.

Lemma accepts_no_panic : forall {E A} (o : outcome E A), accepts (no_panic o) <-> exists a, o = OOk a.
Proof. intros E A [a|e|]; cbn [no_panic]; rewrite ?accepts_ok, ?accepts_no; split; try tauto; try (intros [b H]; discriminate). intros _. now exists a. Qed.
Lemma u16_or_text : forall {E} {A : Set} (c : codec A) (f : N -> A) (p : str -> outcome E A) L,
  (forall v, de c v = no_panic (from_str_or_u16 f p v)) -> (forall s, (exists a, p s = OOk a) <-> L s) -> loads c (either U16 (text L)).
Proof.
  intros E A c f p L D P. apply (int_or_text c _ _ f U16_MAX); [reflexivity| | |].
  - intros z. rewrite D. cbn [from_str_or_u16]. destruct (int_to_uint U16_MAX z) as [n|[]]; reflexivity.
  - intros s. rewrite D. cbn [from_str_or_u16]. rewrite <- P, accepts_no_panic. destruct (p s) as [a|e|]; split; intros [b H]; try discriminate; injection H as ->; now exists b.
  - intros v. rewrite D. destruct v; exact I || (intros H; now apply accepts_no in H).
Qed.
Lemma lift_ok : forall {E A} (r : result E A) a, lift r = OOk a <-> r = Ok a.
Proof. intros E A [b|e] a; cbn [lift]; split; congruence. Qed.
Lemma range_texts : forall s, accepts (range_parse s) <-> PORT_RANGE s.
Proof. intros s. unfold PORT_RANGE. split; intros [r H]; exists r; now apply range_text_iff. Qed.
Lemma loads_range : loads range_c (either U16 (text PORT_RANGE)).
Proof.
  apply (u16_or_text range_c range_of_u16 (fun s => lift (range_parse s))); [reflexivity|]. intros s. rewrite <- range_texts. split; intros [r H]; exists r; now apply lift_ok.
Qed.
Lemma loads_expose : loads expose_c (either U16 (text EXPOSE)).
Proof.
  apply (u16_or_text expose_c expose_of_u16 (fun s => lift (expose_parse s))); [reflexivity|]. intros s. unfold EXPOSE. split.
  - intros [e H]. apply (proj1 (lift_ok _ _)) in H. apply expose_parse_meaning in H. destruct (ex_protocol e) as [p|].
    + destruct H as (_ & _ & a & -> & _ & H). exists a, ($"/" ++ protocol_show p). split; [reflexivity|]. split; [apply range_texts; exists (ex_range e); exact H|]. right. eauto.
    + exists s, []. rewrite app_nil_r. split; [reflexivity|]. split; [apply range_texts; exists (ex_range e); apply H|now left].
  - intros (a & rest & -> & [r R] & O). assert (N : ~ In (ch "/") a) by (apply (range_text_not a r); [exact R|reflexivity|discriminate|discriminate]).
    apply range_text_iff in R. destruct O as [->|[p ->]].
    + exists (mk_expose r None). apply lift_ok. apply expose_parse_meaning. cbn [ex_protocol ex_range]. rewrite app_nil_r. auto.
    + exists (mk_expose r (Some (protocol_parse p))). apply lift_ok. apply expose_parse_ok. cbn [ex_protocol ex_range].
      split; [apply protocol_parse_canonical|]. exists a. rewrite protocol_parse_show. auto.
Qed.
Lemma loads_short_port : forall w, loads (short_port_c w) (either U16 (text (SHORT_PORT (w_checks w)))).
Proof.
  intros w. apply (u16_or_text (short_port_c w) short_port_of_u16 (short_port_parse (w_checks w))); [reflexivity|]. intros s. unfold SHORT_PORT. split; intros [p H]; exists p; now apply short_port_language.
Qed.

(** ** Durations *)

Lemma duration_texts : forall s, (exists d, parse s = OOk d) <-> DURATION s.
Proof.
  intros s. unfold DURATION. split.
  - intros [d H]. apply duration_parse_meaning in H as (ts & N & F & E & [B1 B2] & V). exists ts. repeat (split; [assumption|]). rewrite <- V. unfold in_nanos, max_nanos, U64_MAX, NANOS_PER_SEC in *. lia.
  - intros (ts & N & F & E & V). exists (mk_duration (terms_nanos ts / NANOS_PER_SEC) (terms_nanos ts mod NANOS_PER_SEC)). apply duration_parse_meaning.
    exists ts. repeat (split; [assumption|]). cbn [secs nanos]. unfold in_nanos. cbn [secs nanos]. unfold max_nanos, U64_MAX in *.
    pose proof (N.div_mod (terms_nanos ts) NANOS_PER_SEC ltac:(discriminate)) as D. pose proof (N.mod_lt (terms_nanos ts) NANOS_PER_SEC ltac:(discriminate)) as M.
    unfold NANOS_PER_SEC in *. split; [split; [|exact M]|]; lia.
Qed.
Lemma loads_duration : loads duration_c TIME.
Proof. apply (int_or_text duration_c _ _ from_micros U64_MAX); [reflexivity|reflexivity| |others]. intros s. cbn [de duration_c]. rewrite accepts_no_panic. apply duration_texts. Qed.
Lemma loads_duration_us : loads duration_us_c U64.
Proof.
  intros v. unfold U64, integer. destruct v; cbn [de duration_us_c]; try (rewrite accepts_no; (split; [intros []|]); intros (z' & E & _); discriminate).
  rewrite accepts_map, accepts_uint. change (Z.of_N U64_MAX) with 18446744073709551615%Z. split; [eauto|]. intros (y & E & H). congruence.
Qed.

(** ** Values *)

Lemma loads_number : loads number_c NUMBER.
Proof.
  intros v. unfold NUMBER, either, integer, float. destruct v; cbn [de number_c number_de]; try (rewrite accepts_no; (split; [intros []|]); intros [(z' & E & _)|(z' & E)]; discriminate).
  - assert (X : ((exists y, VInt z = VInt y /\ (-9223372036854775808 <= y <= 18446744073709551615)%Z) \/ (exists b, VInt z = VFloat b)) <-> (-9223372036854775808 <= z <= 18446744073709551615)%Z).
    { split; [intros [(y & E & H)|(b & E)]; congruence|]. intros H. left. eauto. }
    rewrite X. clear X. destruct (Z.leb_spec 0 z).
    + rewrite accepts_map, accepts_uint. change (Z.of_N U64_MAX) with 18446744073709551615%Z. lia.
    + change (- Z.of_N I64_MIN_ABS)%Z with (-9223372036854775808)%Z. destruct (Z.leb_spec (-9223372036854775808) z); rewrite ?accepts_ok, ?accepts_no; split; try tauto; lia.
  - rewrite accepts_ok. split; [|tauto]. intros _. right. eauto.
Qed.
Lemma loads_value : loads value_c SCALAR.
Proof.
  intros v. pose proof (loads_number v) as N. unfold SCALAR, either at 1 2, any_text, boolean.
  destruct v; cbn [de value_c]; try (rewrite accepts_map, N; (split; [intros H; right; right; exact H|]); intros [(z' & E)|[(z' & E)|H]]; [discriminate|discriminate|exact H]);
    rewrite accepts_ok; (split; [|tauto]); intros _; [right; left|left]; eauto.
Qed.
Lemma loads_string_or_number : loads string_or_number_c TEXT_OR_NUMBER.
Proof.
  intros v. pose proof (loads_number v) as N. unfold TEXT_OR_NUMBER, either at 1, any_text.
  destruct v; cbn [de string_or_number_c]; try (rewrite accepts_map, N; (split; [intros H; right; exact H|]); intros [(z' & E)|H]; [discriminate|exact H]);
    rewrite accepts_ok; (split; [|tauto]); intros _; left; eauto.
Qed.
Lemma loads_vmap : loads vmap_c VALUES.
Proof. apply loads_imap; [exact loads_map_key|apply loads_option, loads_value]. Qed.
Lemma loads_list_or_map : loads list_or_map_c LIST_OR_MAP.
Proof.
  intros v. pose proof (loads_iset str_eqb string_c _ loads_string v) as L. pose proof (loads_vmap v) as M. unfold LIST_OR_MAP, either.
  destruct v; cbn [de list_or_map_c]; rewrite ?accepts_map, ?accepts_no; try (split; [intros []|]; intros [(m & E & _)|(m & E & _)]; discriminate).
  - unfold sset. rewrite L. split; [auto|]. intros [H|(m & E & _)]; [exact H|discriminate].
  - rewrite M. split; [auto|]. intros [(m & E & _)|H]; [discriminate|exact H].
Qed.
