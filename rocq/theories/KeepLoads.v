(** Lemmas for [PropsKeep]: everything which is read is a value as described in [KeepSpec]. *)

From Coq Require Import String Ascii List NArith ZArith Bool Lia ZifyBool ZifyN ZifyNat Sorted.
Import ListNotations.
From Verif Require Import Base BaseFacts Num Coll CollFacts Regex KeysSpec KeysModel UserModel UserProofs DurationModel DurationProofs BytesModel BytesProofs CpuSetModel DeviceModel ImageModel IpModel NetModel
  PathModel PortsModel PortsProofs TextModel VolumesModel ValuesModel BuildModel BuildProofs PlatformModel PlatformSpec PropsText PropsBuild EqModel Serde Codec CodecFacts EnumModel ScalarCodec ScalarGood
  CommonCodec CommonGood ServiceParts PartsGood MountCodec MountGood HealthModel HealthProofs ServiceCodec ServiceGood ComposeCodec ComposeGood ReloadFacts KeepSpec KeepFacts.
Open Scope N_scope.

Definition can {A : Set} (c : codec A) (P : A -> Prop) : Prop := forall a, wf c a -> P a.
Definition mcan (m : member) (P : m_type m -> Prop) : Prop := forall a, m_wf m a -> P a.
Fixpoint mscan (ms : list member) : preds ms -> Prop :=
  match ms return preds ms -> Prop with [] => fun _ => True | m :: r => fun p => mcan m (fst p) /\ mscan r (snd p) end.
Create HintDb can.

Lemma can_any : forall {A : Set} (c : codec A), can c any. Proof. intros A c a _. exact I. Qed.
Lemma option_can' : forall {A : Set} (c : codec A) P, can c P -> can (option_c c) (opt P).
Proof. intros A c P H [a|] W; [exact (H a W)|exact I]. Qed.
Lemma list_can : forall {A : Set} (c : codec A) P, can c P -> can (list_c c) (Forall P).
Proof. intros A c P H l W. exact (Forall_impl P H W). Qed.
Lemma iset_can : forall {A : Set} eqb (c : codec A) P, can c P -> can (iset_c eqb c) (set_of eqb P).
Proof. intros A eqb c P H l [W D]. split; [exact (Forall_impl P H W)|exact D]. Qed.
Lemma sset_can : forall (c : codec str) P, can c P -> can (sset c) (set_of str_eqb P).
Proof. intros c P. apply iset_can. Qed.
Lemma map_can : forall {V : Set} k (v : codec V) (K : str -> Prop) P, can k K -> can v P -> can (smap k v) (map_of K P).
Proof. intros V k v K P Hk Hv m [W D]. split; [exact D|]. refine (Forall_impl _ _ W). intros e [A B]. split; [exact (Hk _ A)|exact (Hv _ B)]. Qed.
Lemma form_can : forall {A B : Set} (c : codec A) (d : codec B) P R, can c P -> can d R -> can (short_or_long_c c d) (form P R).
Proof. intros A B c d P R H G [a|a] W; [exact (H a W)|exact (G a W)]. Qed.
Lemma item_can : forall {A B : Set} (c : codec A) (d : codec B) P R, can c P -> can d R -> can (item_or_list_c c d) (item P R).
Proof. intros A B c d P R H G [a|a] W; [exact (H a W)|exact (G a W)]. Qed.
Lemma limit_can' : forall {A : Set} (c : codec A) P, can c P -> can (limit_c c) (limit_can P).
Proof. intros A c P H [a|] W; [exact (H a W)|exact I]. Qed.
Lemma resource_can' : forall {A : Set} (c : codec A) P, can c P -> can (resource_c c) (resource_can P).
Proof. intros A c P H [a|a] W; [exact I|exact (H a W)]. Qed.
Lemma members_can : forall ms p, mscan ms p -> forall v, wf_members ms v -> each ms p v.
Proof. induction ms as [|m r IH]; intros p H v W; [exact I|]. destruct H as [H G]. destruct W as [W X]. split; [exact (H _ W)|exact (IH _ G _ X)]. Qed.
Lemma mscan_cons : forall m r (P : m_type m -> Prop) p, mcan m P -> mscan r p -> mscan (m :: r) (P, p).
Proof. intros. split; assumption. Qed.
Lemma struct_can' : forall ms p, mscan ms p -> can (struct_c ms) (each ms p).
Proof. intros ms p H v W. exact (members_can ms p H v W). Qed.
Lemma struct_ext_can : forall ms p, mscan ms p -> can (struct_ext_c ms) (struct_can ms p).
Proof. intros ms p H [v x] [W X]. split; [exact (members_can ms p H v W)|now apply ext_can_iff]. Qed.
Lemma iso_can : forall {A B : Set} (c : codec A) (write : B -> A) make P, can c P -> can (iso c write make) (fun b => P (write b)).
Proof. intros A B c write make P H b W. exact (H _ W). Qed.
Lemma mcan_any : forall m, mcan m any. Proof. intros m a _. exact I. Qed.
Lemma required_can : forall n {A : Set} (c : codec A) P, can c P -> mcan (required n c) P. Proof. intros n A c P H. exact H. Qed.
Lemma optional_can : forall n {A : Set} (c : codec A) P, can (option_c c) P -> mcan (optional n c) P. Proof. intros n A c P H. exact H. Qed.
Lemma given_can : forall n {A : Set} (c : codec A) P, can (option_c c) P -> mcan (given n c) P. Proof. intros n A c P H. exact H. Qed.
Lemma many_can : forall n {A : Set} (c : codec (list A)) P, can c P -> mcan (many n c) P. Proof. intros n A c P H. exact H. Qed.
#[export] Hint Resolve can_any option_can' list_can iset_can sset_can map_can form_can item_can limit_can' resource_can' struct_can' struct_ext_can : can.
#[export] Hint Extern 1 (mscan [] _) => exact I : can.
#[export] Hint Extern 1 (mscan (_ :: _) _) => apply mscan_cons : can.
#[export] Hint Extern 0 (mcan _ any) => apply mcan_any : can.
#[export] Hint Extern 1 (mcan (many _ _) _) => apply many_can : can.
#[export] Hint Extern 1 (mcan (optional _ _) _) => apply optional_can : can.
#[export] Hint Extern 1 (mcan (given _ _) _) => apply given_can : can.
#[export] Hint Extern 1 (mcan (required _ _) _) => apply required_can : can.

Ltac same := solve [intros a W; exact W].
Lemma identifier_can : can identifier_c identifier. Proof. same. Qed.
Lemma name_can : can name_c (matches NAME_RE). Proof. same. Qed.
Lemma key_can' : can map_key_c key_can. Proof. same. Qed.
Lemma hostname_can : can hostname_c hostname. Proof. same. Qed.
Lemma ulimit_resource_can : can ulimit_resource_c (matches ULIMIT_RE). Proof. same. Qed.
Lemma absolute_can' : can absolute_path_c absolute_can. Proof. same. Qed.
Lemma host_path_can' : can host_path_c host_path_can. Proof. same. Qed.
Lemma platform_can' : can platform_c platform_can. Proof. same. Qed.
Lemma link_can' : can link_c link_can. Proof. same. Qed.
Lemma u16_can : can u16_c u16. Proof. same. Qed.
Lemma u32_can : can u32_c u32. Proof. same. Qed.
Lemma u64_can : can u64_c u64. Proof. same. Qed.
Lemma u32_text_can : can u32_text_c u32. Proof. same. Qed.
Lemma percent_can' : can percent_c percent_can. Proof. same. Qed.
Lemma score_can' : can oom_score_adj_c score_can. Proof. same. Qed.
Lemma weight_can' : can weight_c weight_can. Proof. same. Qed.
Lemma cpus_can' : forall w, can (cpus_c w) cpus_can. Proof. intros. same. Qed.
Lemma count_can' : can count_c count_can. Proof. same. Qed.
Lemma ip_can' : forall w, can (ip_c w) ip_can. Proof. intros. same. Qed.
Lemma mac_can' : can mac_c mac_can. Proof. same. Qed.
Lemma net_can : forall w, can (ip_net_c w) (fun n => w_net w n = Some n). Proof. intros. same. Qed.
Lemma byte_can' : can byte_value_c byte_can. Proof. intros [n|n|n|n] H; exact H. Qed.
Lemma range_can' : can range_c range_can. Proof. same. Qed.
Lemma cgroup_can : can cgroup_rule_c rule_can. Proof. same. Qed.
Lemma v4_can' : forall w, can (ipv4_c w) v4_can. Proof. intros w i [H E]. split; [exact H|]. destruct i; [eauto|discriminate]. Qed.
Lemma v6_can' : forall w, can (ipv6_c w) v6_can. Proof. intros w i [H E]. split; [exact H|]. destruct i; [discriminate|eauto]. Qed.
Lemma id_or_name_can' : can id_or_name_c id_or_name_can.
Proof. intros [n|s] H; cbn in *; [|now apply user_name_new_ok in H]. unfold u32. change (2 ^ 32) with 4294967296 in H. lia. Qed.
Lemma user_can' : can user_c user_can.
Proof. intros [u g] [H G]. split; cbn in *; [exact (id_or_name_can' _ H)|]. destruct g; [exact (id_or_name_can' _ G)|exact I]. Qed.
Lemma cpuset_can' : forall n w, mcan (cpuset_field n w) cpuset_can. Proof. intros. same. Qed.
Lemma ipc_can' : can ipc_c ipc_can. Proof. intros [|s|s] H; cbn in *; tauto. Qed.
Lemma build_network_can' : can build_network_c build_network_can. Proof. intros [s|] H; cbn in *; tauto. Qed.
Lemma device_can' : can device_c device_can. Proof. intros d H. apply H. Qed.
Lemma mode_can' : can network_mode_c mode_can. Proof. intros [| |i|i|o] H; cbn in *; tauto. Qed.
Lemma short_volume_can' : can short_volume_c short_volume_can.
Proof. intros [c o] (A & _ & O). split; [exact A|]. cbn in *. destruct o as [o|]; [|exact I]. cbn. destruct (so_source o); [apply O|exact O]. Qed.
Lemma ssh_can' : can ssh_auth_c ssh_can. Proof. intros [|i] H; cbn in *; tauto. Qed.
Lemma cache_can' : can cache_c cache_can.
Proof.
  intros [t o] (D & F & T). split; cbn in *; [split; [exact D|]|destruct t; [exact I|apply T]]. refine (Forall_impl _ _ F). intros e (A & B & _). split; [exact A|exact B].
Qed.
Lemma expose_can' : can expose_c expose_can. Proof. intros e [H _]. exact H. Qed.
Lemma short_port_can' : forall w, can (short_port_c w) (short_port_can w). Proof. intros w p (A & [[B C] D] & _). split; [exact A|]. split; [exact B|]. split; [exact C|]. apply as_many_iff; assumption. Qed.
Lemma time_can' : can duration_c time_can. Proof. same. Qed.
Lemma micros_can : can duration_us_c time_can. Proof. intros d [H _]. exact H. Qed.
Lemma number_can' : can number_c number_can. Proof. intros [n|z|b] H; exact H. Qed.
Lemma value_can' : can value_c value_can. Proof. intros [s|n|b] H; [exact I|exact (number_can' n H)|exact I]. Qed.
Lemma plain_can' : can string_or_number_c plain_can. Proof. intros [s|n] H; [exact I|exact (number_can' n H)]. Qed.
Lemma context_can' : forall w, can (context_c w) (context_can w). Proof. intros w [p|u] H; [exact I|exact H]. Qed.
#[export] Hint Resolve identifier_can name_can key_can' hostname_can ulimit_resource_can absolute_can' host_path_can' platform_can' link_can' u16_can u32_can u64_can u32_text_can percent_can' score_can' weight_can'
  cpus_can' count_can' ip_can' mac_can' net_can byte_can' range_can' cgroup_can v4_can' v6_can' id_or_name_can' user_can' ipc_can' build_network_can' device_can' mode_can' short_volume_can' ssh_can' cache_can'
  expose_can' short_port_can' time_can' micros_can value_can' plain_can' context_can' : can.
Lemma options_can' : can vmap_c options_can. Proof. unfold vmap_c, options_can. auto with can. Qed.
Lemma either_can' : forall n, mcan (list_or_map_field n) either_can.
Proof. intros n [l|m] W; [|exact (options_can' m W)]. apply (distinct_NoDup str_eqb l str_eqb_eq). exact (proj2 W). Qed.
Lemma hosts_can' : forall w, can (extra_hosts_c w) hosts_can.
Proof. intros w m W. assert (S : can (smap hostname_c (ip_c w)) hosts_can) by (unfold hosts_can; auto with can). exact (S m W). Qed.
Lemma hosts_map_can : forall w, can (smap hostname_c (ip_c w)) hosts_can.
Proof. intros w. unfold hosts_can. auto with can. Qed.
Lemma contexts_can : forall w, can (additional_contexts_c w) (map_of key_can (context_can w)).
Proof. intros w m W. assert (S : can (smap map_key_c (context_c w)) (map_of key_can (context_can w))) by auto with can. exact (S m W). Qed.
Lemma grants_can' : can grants_c grants_can.
Proof. unfold grants_c, grants_can, config_or_secret_c, config_or_secret_ms. auto 20 with can. Qed.
Lemma ulimit_can' : can ulimit_c ulimit_can.
Proof.
  assert (S : can (struct_ext_c ulimit_ms) (struct_can ulimit_ms [* limit_can u64; limit_can u64 *])) by (unfold ulimit_ms; auto 10 with can).
  intros u W. destruct (S _ W) as [(A & B & _) C]. split; [exact A|]. split; [exact B|exact C].
Qed.
#[export] Hint Resolve options_can' hosts_can' hosts_map_can contexts_can grants_can' ulimit_can' : can.
#[export] Hint Extern 1 (mcan (list_or_map_field _) _) => apply either_can' : can.
#[export] Hint Extern 1 (mcan (cpuset_field _ _) _) => apply cpuset_can' : can.
Lemma ulimits_can' : can ulimits_c ulimits_can. Proof. unfold ulimits_c, ulimits_can. auto 20 with can. Qed.
#[export] Hint Resolve ulimits_can' : can.

(** ** The parts of a service *)

Lemma build_can' : forall w, can (build_c w) (struct_can (build_ms w) (build_can w)).
Proof. intros w. unfold build_c. apply struct_ext_can. unfold build_ms, build_can. auto 40 with can. Qed.
Lemma limits_can' : forall w, can (limits_c w) (struct_can (limits_ms w) (limits_can w)).
Proof. intros w. unfold limits_c. apply struct_ext_can. unfold limits_ms, limits_can. auto 20 with can. Qed.
Lemma deploy_device_can' : can deploy_device_c (struct_can deploy_device_ms deploy_device_can).
Proof. unfold deploy_device_c. apply struct_ext_can. unfold deploy_device_ms, deploy_device_can. auto 20 with can. Qed.
Lemma spec_can' : can discrete_resource_spec_c (struct_can discrete_resource_spec_ms spec_can).
Proof. unfold discrete_resource_spec_c. apply struct_ext_can. unfold discrete_resource_spec_ms, spec_can. auto 20 with can. Qed.
#[export] Hint Resolve build_can' limits_can' deploy_device_can' spec_can' : can.
Lemma generic_can' : can generic_resource_c (struct_can generic_resource_ms generic_can).
Proof. unfold generic_resource_c. apply struct_ext_can. unfold generic_resource_ms, generic_can. auto 20 with can. Qed.
#[export] Hint Resolve generic_can' : can.
Lemma reservations_can' : forall w, can (reservations_c w) (struct_can (reservations_ms w) (reservations_can w)).
Proof. intros w. unfold reservations_c. apply struct_ext_can. unfold reservations_ms, reservations_can. auto 20 with can. Qed.
#[export] Hint Resolve reservations_can' : can.
Lemma resources_can' : forall w, can (resources_c w) (struct_can (resources_ms w) (resources_can w)).
Proof. intros w. unfold resources_c. apply struct_ext_can. unfold resources_ms, resources_can. auto 20 with can. Qed.
Lemma preference_can : can preference_c (struct_can preference_ms [* any *]).
Proof. unfold preference_c. apply struct_ext_can. unfold preference_ms. auto 20 with can. Qed.
#[export] Hint Resolve resources_can' preference_can : can.
Lemma placement_can' : can placement_c (struct_can placement_ms placement_can).
Proof. unfold placement_c. apply struct_ext_can. unfold placement_ms, placement_can. auto 20 with can. Qed.
Lemma restart_policy_can' : can restart_policy_c (struct_can restart_policy_ms restart_policy_can).
Proof. unfold restart_policy_c. apply struct_ext_can. unfold restart_policy_ms, restart_policy_can. auto 20 with can. Qed.
Lemma update_config_can' : can update_config_c (struct_can update_config_ms update_config_can).
Proof. unfold update_config_c. apply struct_ext_can. unfold update_config_ms, update_config_can. auto 20 with can. Qed.
#[export] Hint Resolve placement_can' restart_policy_can' update_config_can' : can.
Lemma deploy_can' : forall w, can (deploy_c w) (struct_can (deploy_ms w) (deploy_can w)).
Proof. intros w. unfold deploy_c. apply struct_ext_can. unfold deploy_ms, deploy_can. auto 20 with can. Qed.
Lemma service_network_can' : forall w, can (service_network_c w) (struct_can (service_network_ms w) (service_network_can w)).
Proof. intros w. unfold service_network_c. apply struct_ext_can. unfold service_network_ms, service_network_can. auto 20 with can. Qed.
#[export] Hint Resolve deploy_can' service_network_can' : can.
Lemma network_config_can' : forall w, mcan (network_config_m w) (opt (network_config_can w)).
Proof.
  intros w [[m|n]|] W; [exact (mode_can' m W)| |exact I].
  assert (S : can (networks_c w) (form (set_of str_eqb identifier) (map_of identifier (opt (struct_can (service_network_ms w) (service_network_can w)))))) by (unfold networks_c; auto 20 with can).
  exact (S n W).
Qed.
Lemma blkio_can : can blkio_config_c (each blkio_config_ms device_limits_can).
Proof. unfold blkio_config_c. apply struct_can'. unfold blkio_config_ms, device_limits_can, bps_limit_c, iops_limit_c, weight_device_c. cbv zeta. auto 20 with can. Qed.
Lemma credential_can' : mcan credential_m credential_can. Proof. intros [i|p|s] W; [exact W|exact I|exact I]. Qed.
#[export] Hint Resolve blkio_can : can.
#[export] Hint Extern 1 (mcan (network_config_m _) _) => apply network_config_can' : can.
#[export] Hint Extern 1 (mcan credential_m _) => exact credential_can' : can.
Lemma credential_spec_can : can credential_spec_c (struct_can [credential_m] [* credential_can *]).
Proof. change (can (struct_ext_c [credential_m]) (struct_can [credential_m] [* credential_can *])). auto with can. Qed.
Lemma watch_rule_can' : can watch_rule_c (struct_can watch_rule_ms watch_rule_can).
Proof. unfold watch_rule_c. apply struct_ext_can. unfold watch_rule_ms, watch_rule_can. auto 20 with can. Qed.
#[export] Hint Resolve credential_spec_can watch_rule_can' : can.
Lemma develop_can : can develop_c (each [many $"watch" (list_c watch_rule_c)] [* Forall (struct_can watch_rule_ms watch_rule_can) *]).
Proof. unfold develop_c. auto 20 with can. Qed.
Lemma depends_on_can' : forall n, mcan (depends_on_field n) depends_on_can.
Proof. intros n d W. assert (S : can depends_on_c depends_on_can) by (unfold depends_on_c, depends_on_can; auto 20 with can). exact (S d W). Qed.
Lemma extends_can : can extends_c (each [required $"service" identifier_c; optional $"file" path_c] [* identifier; any *]).
Proof. unfold extends_c. auto 20 with can. Qed.
Lemma logging_can : can logging_c
  (struct_can [optional $"driver" string_c; many $"options" (smap map_key_c (option_c string_or_number_c))] [* any; map_of key_can (opt plain_can) *]).
Proof. unfold logging_c. auto 20 with can. Qed.
Lemma healthcheck_can : can healthcheck_c health_can.
Proof.
  intros [c|] W; [|exact I].
  assert (S : can (struct_ext_c health_ms) (struct_can health_ms [* any; opt time_can; opt time_can; opt u64; opt time_can; opt time_can *])) by (unfold health_ms; auto 20 with can).
  exact (S c W).
Qed.
#[export] Hint Resolve develop_can extends_can logging_can healthcheck_can : can.
#[export] Hint Extern 1 (mcan (depends_on_field _) _) => apply depends_on_can' : can.

(** ** Volumes and ports *)

Lemma vo_can : can volume_options_c (fun o => extensions_can (vo_extensions o)). Proof. intros o [_ X]. now apply ext_can_iff in X. Qed.
Lemma bo_can : can bind_options_c (fun o => extensions_can (bo_extensions o)). Proof. intros o [_ X]. now apply ext_can_iff in X. Qed.
Lemma to_can : can tmpfs_options_c (fun o => opt byte_can (to_size o) /\ opt u32 (to_mode o) /\ extensions_can (to_extensions o)).
Proof.
  assert (S : can (struct_ext_c tmpfs_options_ms) (struct_can tmpfs_options_ms [* opt byte_can; opt u32 *])) by (unfold tmpfs_options_ms; auto 10 with can).
  intros o W. destruct (S _ W) as [(A & B & _) C]. split; [exact A|]. split; [exact B|exact C].
Qed.
#[export] Hint Resolve vo_can bo_can to_can : can.
Lemma mount_can' : can mount_c mount_can.
Proof.
  intros m W. destruct m as [m|m|m|m|m]; cbn [wf mount_c mount_wf mount_can] in *.
  - assert (S : can (struct_ext_c volume_ms) (struct_can volume_ms [* opt identifier; opt (fun o => extensions_can (vo_extensions o)); absolute_can; any; any *])) by (unfold volume_ms, common_ms; auto 20 with can).
    destruct (S _ W) as [(A & B & C & _) D]. split; [exact A|]. split; [exact B|]. split; [exact C|exact D].
  - assert (S : can (struct_ext_c bind_ms) (struct_can bind_ms [* host_path_can; opt (fun o => extensions_can (bo_extensions o)); absolute_can; any; any *])) by (unfold bind_ms, common_ms; auto 20 with can).
    destruct (S _ W) as [(A & B & C & _) D]. split; [exact A|]. split; [exact B|]. split; [exact C|exact D].
  - assert (S : can (struct_ext_c tmpfs_ms) (struct_can tmpfs_ms [* opt (fun o => opt byte_can (to_size o) /\ opt u32 (to_mode o) /\ extensions_can (to_extensions o)); absolute_can; any; any *]))
      by (unfold tmpfs_ms, common_ms; auto 20 with can).
    destruct (S _ W) as [(B & C & _) D]. split; [exact B|]. split; [exact C|exact D].
  - assert (S : can (struct_ext_c named_pipe_ms) (struct_can named_pipe_ms [* host_path_can; absolute_can; any; any *])) by (unfold named_pipe_ms, common_ms; auto 20 with can).
    destruct (S _ W) as [(B & C & _) D]. split; [exact B|]. split; [exact C|exact D].
  - assert (S : can (struct_ext_c cluster_ms) (struct_can cluster_ms [* any; absolute_can; any; any *])) by (unfold cluster_ms, common_ms; auto 20 with can).
    destruct (S _ W) as [(_ & C & _) D]. split; [exact C|exact D].
Qed.
Lemma port_can' : forall w, can (port_c w) port_can.
Proof.
  intros w p W. assert (S : can (struct_ext_c (port_ms w)) (struct_can (port_ms w) [* any; u16; opt range_can; opt ip_can; any; any; any *])) by (unfold port_ms; auto 20 with can).
  destruct (S _ W) as [(_ & A & B & C & _) D]. split; [exact A|]. split; [exact B|]. split; [exact C|exact D].
Qed.
#[export] Hint Resolve mount_can' port_can' : can.
Lemma volumes_can : forall w, can (volumes_c w) (set_of (short_or_long_eqb short_volume_eqb (mount_eqb (w_yaml_eqb w))) (form short_volume_can mount_can)).
Proof. intros w. unfold volumes_c. auto with can. Qed.
Lemma ports_can : forall w, can (ports_c w) (set_of (short_or_long_eqb short_port_eqb (port_eqb (w_yaml_eqb w))) (form (short_port_can w) port_can)).
Proof. intros w. unfold ports_c. auto with can. Qed.
#[export] Hint Resolve volumes_can ports_can : can.

(** ** Whole services and files: what a member reads *)

Definition mreads (m : member) (P : m_type m -> Prop) : Prop := forall es a, m_de m es = Ok a -> P a.
Fixpoint msreads (ms : list member) : preds ms -> Prop :=
  match ms return preds ms -> Prop with [] => fun _ => True | m :: r => fun p => mreads m (fst p) /\ msreads r (snd p) end.
Lemma msreads_cons : forall m r (P : m_type m -> Prop) p, mreads m P -> msreads r p -> msreads (m :: r) (P, p).
Proof. intros. split; assumption. Qed.
Lemma good_mreads : forall m P, member_good m -> mcan m P -> mreads m P.
Proof. intros m P G C es a H. exact (C a (mg_sound m G es a H)). Qed.
Lemma members_read : forall ms p es v, msreads ms p -> de_members ms es = Ok v -> each ms p v.
Proof.
  induction ms as [|m r IH]; intros p es v H D; [exact I|]. destruct H as [H G]. cbn [de_members] in D.
  apply bind_ok in D as (a & A & D). apply bind_ok in D as (u & U & D). injection D as <-. split; [exact (H _ _ A)|exact (IH _ _ _ G U)].
Qed.
Lemma ext_read : forall es x, ext_de es = Ok x -> extensions_can x.
Proof. intros es x H. apply ext_can_iff. now apply ext_de_sound in H. Qed.
Lemma struct_ext_read : forall ms p v s, msreads ms p -> de (struct_ext_c ms) v = Ok s -> struct_can ms p s.
Proof.
  intros ms p v s H D. cbn [de struct_ext_c] in D. destruct v as [| | | | | |es]; try discriminate. apply bind_ok in D as (a & A & D). apply bind_ok in D as (x & X & D). injection D as <-.
  split; [exact (members_read ms p es a H A)|exact (ext_read _ _ X)].
Qed.
Lemma from_reads : mreads (many $"volumes_from" (iset_c volumes_from_eqb volumes_from_c)) (set_of volumes_from_eqb from_can).
Proof.
  intros es l H. split; [exact (sources_read es l H)|]. cbn [m_de many field] in H. apply bind_ok in H as (o & _ & H). destruct o as [v|]; [|injection H as <-; constructor].
  cbn [de iset_c] in H. destruct v as [| | | | |vs|]; try discriminate. destruct (collect (de volumes_from_c) vs) as [r|]; cbn [map_ok] in H; [|discriminate]. injection H as <-. apply iset_of_is_distinct.
Qed.
Lemma service_reads : forall w v s, externals_ok w -> de (service_c w) v = Ok s -> struct_can (service_ms w) (service_can w) s.
Proof.
  intros w v s O. apply (struct_ext_read (service_ms w) (service_can w) v s). unfold service_ms, service_can.
  do 81 (apply msreads_cons; [apply good_mreads; [solve [auto 8 with codec]|solve [auto 20 with can]]|]).
  apply msreads_cons; [exact from_reads|]. apply msreads_cons; [apply good_mreads; [solve [auto 8 with codec]|solve [auto 20 with can]]|]. exact I.
Qed.

Lemma ipam_config_can' : forall w, can (ipam_config_c w) (struct_can (ipam_config_ms w) (ipam_config_can w)).
Proof. intros w. unfold ipam_config_c. apply struct_ext_can. unfold ipam_config_ms, ipam_config_can. auto 20 with can. Qed.
#[export] Hint Resolve ipam_config_can' : can.
Lemma ipam_can' : forall w, can (ipam_c w) (struct_can (ipam_ms w) (ipam_can w)).
Proof. intros w. unfold ipam_c. apply struct_ext_can. unfold ipam_ms, ipam_can. auto 20 with can. Qed.
#[export] Hint Resolve ipam_can' : can.
Lemma network_can' : forall w, can (network_c w) (struct_can (network_ms w) (network_can w)).
Proof. intros w. unfold network_c. apply struct_ext_can. unfold network_ms, network_can. auto 20 with can. Qed.
Lemma volume_can' : can top_volume_c (struct_can top_volume_ms volume_can).
Proof. unfold top_volume_c. apply struct_ext_can. unfold top_volume_ms, volume_can. auto 20 with can. Qed.
Lemma config_can' : can config_c (struct_can config_ms config_can).
Proof. unfold config_c. apply struct_ext_can. unfold config_ms, config_can. auto 20 with can. Qed.
Lemma secret_can' : can secret_c (struct_can secret_ms secret_can).
Proof. unfold secret_c. apply struct_ext_can. unfold secret_ms, secret_can. auto 20 with can. Qed.
Lemma include_can' : can include_c (each include_ms include_can).
Proof. unfold include_c. apply struct_can'. unfold include_ms, include_can. auto 20 with can. Qed.
#[export] Hint Resolve network_can' volume_can' config_can' secret_can' include_can' : can.
Lemma map_reads : forall {V : Set} (c : codec V) (P : V -> Prop) n, (forall v a, de c v = Ok a -> P a) -> mreads (required n (smap identifier_c c)) (map_of identifier P).
Proof.
  intros V c P n H es m D. cbn [m_de required field] in D. apply bind_ok in D as (o & _ & D). destruct o as [v|]; [|discriminate].
  cbn [de smap imap_c] in D. destruct v as [| | | | | |l]; try discriminate. destruct (collect (entry_de identifier_c c) l) as [r|] eqn:C; cbn [map_ok] in D; [|discriminate]. injection D as <-.
  split; [apply imap_of_NoDup; apply str_eqb_eq|]. apply (collect_sound _ (fun e => identifier (fst e) /\ P (snd e))) in C.
  - rewrite Forall_forall in *. intros e J. apply C. now apply (imap_of_sub str_eqb str_eqb_eq r).
  - intros [a b] [k x] E. unfold entry_de in E. apply bind_ok in E as (k' & K & E). apply bind_ok in E as (x' & X & E). injection E as <- <-. split; [|exact (H _ _ X)].
    assert (G : good identifier_c) by auto with codec. exact (g_sound _ G _ _ K).
Qed.
Lemma compose_reads : forall w v c, externals_ok w -> de (compose_c w) v = Ok c -> struct_can (compose_ms w) (compose_can w) c.
Proof.
  intros w v c O. apply (struct_ext_read (compose_ms w) (compose_can w) v c). unfold compose_ms, compose_can.
  do 3 (apply msreads_cons; [apply good_mreads; [solve [auto 8 with codec]|solve [auto 20 with can]]|]).
  apply msreads_cons; [apply (map_reads (service_c w)); intros u s; now apply service_reads|].
  do 4 (apply msreads_cons; [apply good_mreads; [solve [auto 8 with codec]|solve [auto 20 with can]]|]). exact I.
Qed.
