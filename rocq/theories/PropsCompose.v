(** C53-C59: loading and saving whole compose files. *)

From Coq Require Import String Ascii List NArith ZArith Bool Lia Permutation ZifyBool ZifyN ZifyNat.
Import ListNotations.
From Verif Require Import Base BaseFacts Num NumFacts Coll CollFacts Regex KeysModel KeysSpec KeysProofs TextModel ValuesModel VolumesModel EqModel Serde Codec CodecFacts EnumModel ScalarCodec ScalarGood
  CommonCodec CommonGood ServiceParts PartsGood MountCodec MountGood HealthModel HealthProofs OrderFacts ServiceCodec ServiceGood ComposeCodec ComposeGood NeatFacts ExactFacts ReadFacts ComposeProofs.
Open Scope N_scope.

(** [serde_yaml::from_value::<Compose>] and [serde_yaml::to_value]. *)
Definition load (w : externals) (v : sval) : result de_error (compose w) := de (compose_c w) v.
Definition save (w : externals) (c : compose w) : sval := ser (compose_c w) c.

(** A file for the examples, with any services and anything else. *)
Definition file (services : list (sval * sval)) (more : list (sval * sval)) : sval := VMap ((VStr $"services", VMap services) :: more).
Definition w0 : externals := mk_externals true true (fun _ => 0) (fun _ => $"0") (fun _ => None) (fun _ => None) sval_eqb.
Example w0_ok : externals_ok w0. Proof. repeat apply conj; [discriminate|discriminate|reflexivity]. Qed.
Definition web : sval :=
  VMap [(VStr $"depends_on", VSeq [VStr $"db"]); (VStr $"environment", VMap [(VStr $"A", VNull); (VStr $"B", VInt 7)]);
        (VStr $"image", VStr $"nginx:1.25"); (VStr $"ports", VSeq [VStr $"8080:80"]); (VStr $"stop_grace_period", VStr $"1m30s");
        (VStr $"volumes_from", VSeq [VStr $"db:ro"; VStr $"container:db"]); (VStr $"x-team", VMap [(VStr $"a", VSeq [])])].
Definition sample : sval :=
  file [(VStr $"db", VMap []); (VStr $"web", web)]
    [(VStr $"networks", VMap [(VStr $"front", VMap [(VStr $"external", VBool true)]); (VStr $"back", VNull)]);
     (VStr $"configs", VMap [(VStr $"c", VMap [(VStr $"file", VStr $"./c.txt")])]); (VStr $"x-note", VStr $"hi")].

Definition accepted {A : Type} (r : result de_error A) : bool := match r with Ok _ => true | Err _ => false end.
Lemma accepted_ok : forall {A : Type} (r : result de_error A), accepted r = true -> exists a, r = Ok a.
Proof. intros A [a|e] H; [eauto|discriminate]. Qed.
Lemma found : forall {A : Type} (r : result de_error A) (P : A -> Prop), match r with Ok a => P a | Err _ => False end -> exists a, r = Ok a /\ P a.
Proof. intros A [a|e] P H; [eauto|destruct H]. Qed.

Definition twice {B : Type} (w : externals) (v : sval) (f : compose w -> B) : option (B * B) :=
  match load w v with Ok c => match load w (save w c) with Ok c' => Some (f c, f c') | Err _ => None end | Err _ => None end.
Lemma reloaded : forall w v {B : Type} (f : compose w -> B) x y, twice w v f = Some (x, y) ->
  exists c c', load w v = Ok c /\ load w (save w c) = Ok c' /\ f c = x /\ f c' = y.
Proof.
  intros w v B f x y H. unfold twice in H. destruct (load w v) as [c|]; [|discriminate]. exists c. destruct (load w (save w c)) as [c'|]; [|discriminate]. injection H as <- <-. eauto 6.
Qed.

(** ** C53 *)

(** Loading what was saved gives back the same [Compose], for every file that was loaded itself, except when
    a field which may be a list or a map was given as an empty map ([no_empty]), or when a service takes its
    volumes from a container called [ro] or [rw] read-write. *)
Theorem compose_reload_partial : forall w v c, externals_ok w -> no_empty v ->
  ~ compose_texts v $"container:ro:rw" -> ~ compose_texts v $"container:rw:rw" ->
  load w v = Ok c -> load w (save w c) = Ok c.
Proof.
  intros w v c O E N1 N2 H. unfold load, save in *. assert (K := compose_texts_ok w v c H N1 N2). destruct (compose_good_if w O) as [R S _].
  rewrite (R c (S v c H K)). f_equal. apply (compose_exact w O v); [|assumption]. now apply full_parts, no_empty_full.
Qed.
Print Assumptions compose_reload_partial.

(** The field with number 31 of each service. *)
Definition environments {w : externals} (c : compose w) : list list_or_map := map (fun e => nth_val 31 (service_ms w) (fst (snd e))) (compose_services c).

(** Both exceptions are real. With [environment: {}] the map comes back as a list. *)
Theorem compose_reload_refuted : forall w, exists v c c', load w v = Ok c /\ load w (save w c) = Ok c' /\ c' <> c.
Proof.
  intros w. set (v := file [(VStr $"web", VMap [(VStr $"environment", VMap [])])] []). exists v.
  assert (F := reloaded w v environments [LMap []] [LList []]). destruct F as (c & c' & H & H' & E & E'); [vm_compute; reflexivity|].
  exists c, c'. split; [assumption|]. split; [assumption|]. intros X. rewrite X in E'. congruence.
Qed.
Print Assumptions compose_reload_refuted.
Theorem compose_reload_volumes_from_refuted : forall w, exists v c c', no_empty v /\ load w v = Ok c /\ load w (save w c) = Ok c' /\
  map (fun e => service_volumes_from (snd e)) (compose_services c) = [[mk_volumes_from (FromContainer $"ro") false]] /\
  map (fun e => service_volumes_from (snd e)) (compose_services c') = [[mk_volumes_from (FromService $"container") true]].
Proof.
  intros w. set (v := file [(VStr $"web", VMap [(VStr $"volumes_from", VSeq [VStr $"container:ro:rw"])])] []). exists v.
  destruct (reloaded w v (fun c => map (fun e => service_volumes_from (snd e)) (compose_services c)) [[mk_volumes_from (FromContainer $"ro") false]]
    [[mk_volumes_from (FromService $"container") true]]) as (c & c' & H); [vm_compute; reflexivity|]. exists c, c'. split; [now apply full_no_empty|exact H].
Qed.
Print Assumptions compose_reload_volumes_from_refuted.
Example compose_reload_example : no_empty sample /\ ~ compose_texts sample $"container:ro:rw" /\ exists c, load w0 sample = Ok c /\ load w0 (save w0 c) = Ok c.
Proof.
  assert (N : no_empty sample) by (apply full_no_empty; reflexivity). assert (T : ~ compose_texts sample $"container:ro:rw") by (apply compose_has_texts; reflexivity).
  split; [exact N|]. split; [exact T|]. destruct (accepted_ok (load w0 sample)) as [c H]; [vm_compute; reflexivity|]. exists c. split; [exact H|].
  apply (compose_reload_partial w0 sample); auto using w0_ok. apply compose_has_texts. reflexivity.
Qed.

(** ** C54 *)

(** Saving is stable: what is loaded from a saved file is saved as the same file. *)
Theorem compose_save_stable_partial : forall w v c, externals_ok w ->
  ~ compose_texts v $"container:ro:rw" -> ~ compose_texts v $"container:rw:rw" ->
  load w v = Ok c -> exists c', load w (save w c) = Ok c' /\ save w c' = save w c.
Proof.
  intros w v c O N1 N2 H. unfold load, save in *. assert (K := compose_texts_ok w v c H N1 N2). destruct (compose_good_if w O) as [R S T]. assert (W := S v c H K).
  exists (norm (compose_c w) c). split; [exact (R c W)|exact (T c W)].
Qed.
Print Assumptions compose_save_stable_partial.
(** Without the condition on [volumes_from] this is false: two different entries are saved as the same text, and one
    of them is gone the next time. *)
Theorem compose_save_stable_refuted : forall w, exists v c c', load w v = Ok c /\ load w (save w c) = Ok c' /\ save w c' <> save w c.
Proof.
  intros w. set (v := file [(VStr $"web", VMap [(VStr $"volumes_from", VSeq [VStr $"container:ro:rw"; VStr $"container:ro"])])] []). exists v.
  destruct (reloaded w v (save w) (file [(VStr $"web", VMap [(VStr $"volumes_from", VSeq [VStr $"container:ro"; VStr $"container:ro"])])] [])
    (file [(VStr $"web", VMap [(VStr $"volumes_from", VSeq [VStr $"container:ro"])])] [])) as (c & c' & H & H' & E & E'); [vm_compute; reflexivity|].
  exists c, c'. split; [exact H|]. split; [exact H'|]. rewrite E, E'. discriminate.
Qed.
Print Assumptions compose_save_stable_refuted.
Example compose_save_example : exists c, load w0 sample = Ok c /\ save w0 c = sample.
Proof. apply found. vm_compute. reflexivity. Qed.

(** ** C55 *)

(** A saved file has no map with the same key twice. *)
Theorem compose_save_tidy : forall w v c, externals_ok w -> load w v = Ok c -> tidy (save w c).
Proof. intros w v c O H. apply yaml_ok_tidy. exact (compose_neat w O v c H). Qed.
Print Assumptions compose_save_tidy.
Example compose_save_tidy_example : tidy sample /\ ~ tidy (file [(VStr $"a", VMap []); (VStr $"a", VMap [])] []).
Proof.
  split; [apply yaml_ok_tidy; reflexivity|]. intros T. inversion T as [| | | | | |es _ H]; subst. destruct (H _ _ (or_introl eq_refl)) as [_ S].
  inversion S as [| | | | | |es' D _]; subst. inversion D as [|? ? N _]; subst. apply N. now left.
Qed.

(** ** C56 *)

(** The keys of a compose file, and of everything in it: each is one of the fields, or an extension. *)
Definition COMPOSE_FIELDS : list str :=
  [$"version"; $"name"; $"include"; $"services"; $"networks"; $"volumes"; $"configs"; $"secrets"].
Definition SERVICE_FIELDS : list str :=
  [$"attach"; $"build"; $"blkio_config"; $"cpu_count"; $"cpu_percent"; $"cpu_shares"; $"cpu_period"; $"cpu_quota"; $"cpu_rt_runtime";
   $"cpu_rt_period"; $"cpus"; $"cpuset"; $"cap_add"; $"cap_drop"; $"cgroup"; $"cgroup_parent"; $"command"; $"configs"; $"container_name";
   $"credential_spec"; $"depends_on"; $"deploy"; $"develop"; $"device_cgroup_rules"; $"devices"; $"dns"; $"dns_opt"; $"dns_search";
   $"domainname"; $"entrypoint"; $"env_file"; $"environment"; $"expose"; $"extends"; $"annotations"; $"external_links"; $"extra_hosts";
   $"group_add"; $"healthcheck"; $"hostname"; $"image"; $"init"; $"ipc"; $"uts"; $"isolation"; $"labels"; $"links"; $"logging";
   $"network_mode"; $"networks"; $"mac_address"; $"mem_limit"; $"mem_reservation"; $"mem_swappiness"; $"memswap_limit";
   $"oom_kill_disable"; $"oom_score_adj"; $"pid"; $"pids_limit"; $"platform"; $"ports"; $"privileged"; $"profiles"; $"pull_policy";
   $"read_only"; $"restart"; $"runtime"; $"scale"; $"secrets"; $"security_opt"; $"shm_size"; $"stdin_open"; $"stop_grace_period";
   $"stop_signal"; $"storage_opt"; $"sysctls"; $"tmpfs"; $"tty"; $"ulimits"; $"user"; $"userns_mode"; $"volumes"; $"volumes_from";
   $"working_dir"].
Definition only_fields (fields : list str) (v : sval) : Prop :=
  exists es, v = VMap es /\ forall k x, In (k, x) es -> exists s, k = VStr s /\ (In s fields \/ (exists r, s = $"x-" ++ r /\ ~ In 10 s)).

Lemma known_fields : forall ms v a fields, names ms = fields -> de (struct_ext_c ms) v = Ok a -> only_fields fields v.
Proof.
  intros ms v a fields <- H. destruct v as [| | | | | |es]; try discriminate. exists es. split; [reflexivity|]. apply struct_ext_known in H. intros k x I.
  rewrite Forall_forall in H. destruct (H _ I) as (s & E & [J|[[r Er] N]]); exists s; (split; [exact E|]); [now left|right]. exists r. auto.
Qed.
Theorem compose_keys : forall w v c, load w v = Ok c -> only_fields COMPOSE_FIELDS v.
Proof. intros w v c H. now apply (known_fields (compose_ms w) v c). Qed.
Print Assumptions compose_keys.
Theorem service_keys : forall w v s, de (service_c w) v = Ok s -> only_fields SERVICE_FIELDS v.
Proof. intros w v s H. now apply (known_fields (service_ms w) v s). Qed.
Print Assumptions service_keys.
(** Every service of an accepted file is an accepted service (and so has only these fields). *)
Theorem compose_services_accepted : forall w v c, load w v = Ok c ->
  exists es services, v = VMap es /\ In (VStr $"services", VMap services) es /\
    forall k x, In (k, x) services -> only_fields SERVICE_FIELDS x /\ exists n, k = VStr n /\ matches IDENTIFIER_RE n.
Proof.
  intros w v c H. destruct v as [| | | | | |es]; try discriminate. destruct (services_read w es c H) as (v & I & S). destruct v as [| | | | | |ss]; try discriminate. exists es, ss.
  split; [reflexivity|]. split; [assumption|]. intros k x J. cbn [de smap imap_c] in S. destruct (collect (entry_de identifier_c (service_c w)) ss) as [r|] eqn:C; cbn [map_ok] in S; [|discriminate].
  clear S H I. apply collect_ok in C. induction C as [|[k' x'] p l r E C IH]; [destruct J|]. destruct J as [E'|J]; [|auto]. injection E' as -> ->.
  unfold entry_de in E. cbn [fst snd] in E. apply bind_ok in E as (n & N & E). apply bind_ok in E as (s & Sx & _). split; [exact (service_keys w x s Sx)|].
  destruct k as [| | | |n'| |]; try discriminate. exists n'. split; [reflexivity|].
  cbn [de identifier_c text_c from_string] in N. destruct (identifier_new n') as [m|] eqn:M; cbn [map_err] in N; [|discriminate].
  exact (proj2 (proj1 (identifier_new_ok n' m) M)).
Qed.
Print Assumptions compose_services_accepted.

(** The same below services, networks, ... *)
Definition reads_only {A : Set} (c : codec A) (fields : list str) : Prop := forall v a, de c v = Ok a -> only_fields fields v.
Theorem parts_keys : forall w,
  reads_only (build_c w) [$"context"; $"dockerfile"; $"dockerfile_inline"; $"args"; $"ssh"; $"cache_from"; $"cache_to"; $"additional_contexts";
    $"entitlements"; $"extra_hosts"; $"isolation"; $"privileged"; $"labels"; $"no_cache"; $"pull"; $"network"; $"shm_size"; $"target"; $"secrets";
    $"tags"; $"ulimits"; $"platforms"] /\
  reads_only config_or_secret_c [$"source"; $"target"; $"uid"; $"gid"; $"mode"] /\
  reads_only (deploy_c w) [$"endpoint_mode"; $"labels"; $"mode"; $"placement"; $"replicas"; $"resources"; $"restart_policy"; $"rollback_config"; $"update_config"] /\
  reads_only (resources_c w) [$"limits"; $"reservations"] /\
  reads_only (limits_c w) [$"cpus"; $"memory"; $"pids"] /\
  reads_only (reservations_c w) [$"cpus"; $"memory"; $"devices"; $"generic_resources"] /\
  reads_only deploy_device_c [$"capabilities"; $"driver"; $"count"; $"device_ids"; $"options"] /\
  reads_only placement_c [$"constraints"; $"preferences"; $"max_replicas_per_node"] /\
  reads_only restart_policy_c [$"condition"; $"delay"; $"max_attempts"; $"window"] /\
  reads_only update_config_c [$"parallelism"; $"delay"; $"failure_action"; $"monitor"; $"max_failure_ratio"; $"order"] /\
  reads_only (service_network_c w) [$"aliases"; $"ipv4_address"; $"ipv6_address"; $"link_local_ips"; $"mac_address"; $"driver_opts"; $"priority"] /\
  reads_only credential_spec_c [$"config"; $"file"; $"registry"] /\
  reads_only watch_rule_c [$"action"; $"ignore"; $"path"; $"target"] /\
  reads_only logging_c [$"driver"; $"options"] /\
  reads_only (ipam_c w) [$"driver"; $"config"; $"options"] /\
  reads_only (ipam_config_c w) [$"subnet"; $"ip_range"; $"gateway"; $"aux_addresses"] /\
  reads_only (network_c w) [$"driver"; $"driver_opts"; $"attachable"; $"enable_ipv6"; $"ipam"; $"internal"; $"labels"; $"name"] /\
  reads_only top_volume_c [$"driver"; $"driver_opts"; $"labels"; $"name"] /\
  reads_only config_c [$"file"; $"environment"; $"content"; $"labels"] /\
  reads_only secret_c [$"file"; $"environment"; $"labels"; $"driver"; $"driver_opts"].
Proof.
  intros w.
  assert (K : forall ms fields, names ms = fields -> reads_only (struct_ext_c ms) fields) by (intros ms fields E v a H; exact (known_fields ms v a fields E H)).
  assert (K' : forall ms fields, names ms = fields -> reads_only (struct_ext_once_c ms) fields).
  { intros ms fields E v a H. apply (K ms fields E v a). cbn [de struct_ext_c struct_ext_once_c] in *. destruct v; try discriminate.
    apply bind_ok in H as (u & U & H). rewrite U. cbn [bind]. apply bind_ok in H as (x & X & H). rewrite X. cbn [bind]. destruct (once _ _); [assumption|discriminate]. }
  repeat apply conj; first [now apply K|now apply K'].
Qed.
Print Assumptions parts_keys.

(** Not so for the structs without extensions: an entry with any other string as key is dropped without notice. *)
Definition ignores_others {A : Set} (c : codec A) (fields : list str) : Prop :=
  forall es es' k x, ~ In k fields -> de c (VMap (es ++ (VStr k, x) :: es')) = de c (VMap (es ++ es')).
Lemma lookup_others : forall n es es' k x, k <> VStr n -> lookup n (es ++ (k, x) :: es') = lookup n (es ++ es').
Proof.
  intros n es es' k x N. induction es as [|[y v] es IH]; cbn [app lookup].
  - destruct k; try reflexivity. destruct (str_eqb n s) eqn:E; [|reflexivity]. apply str_eqb_eq in E. now subst.
  - now rewrite IH.
Qed.
Lemma member_others : forall m es es' k x, member_reads m -> ~ In k (map VStr (m_names m)) -> m_de m (es ++ (k, x) :: es') = m_de m (es ++ es').
Proof. intros m es es' k x R N. apply R. intros n I. apply lookup_others. intros ->. apply N. now apply in_map. Qed.
Lemma struct_others : forall ms, Forall member_reads ms -> ignores_others (struct_c ms) (names ms).
Proof.
  intros ms F es es' k x N. cbn [de struct_c]. unfold string_keys. rewrite !forallb_app. cbn [forallb fst andb]. destruct (_ && _); [|reflexivity].
  induction F as [|m ms R F IH]; [reflexivity|]. unfold names in N. cbn [flat_map] in N. rewrite in_app_iff in N.
  cbn [de_members]. rewrite (member_others m es es' (VStr k) x R) by (rewrite in_map_iff; intros (y & E & J); injection E as ->; tauto). rewrite IH by tauto. reflexivity.
Qed.
Theorem other_keys_ignored :
  ignores_others dependency_c [$"condition"; $"restart"; $"required"] /\ ignores_others extends_c [$"service"; $"file"] /\
  ignores_others blkio_config_c [$"device_read_bps"; $"device_read_iops"; $"device_write_bps"; $"device_write_iops"; $"weight"; $"weight_device"] /\
  ignores_others env_file_config_c [$"path"; $"required"] /\ ignores_others develop_c [$"watch"] /\
  ignores_others include_c [$"path"; $"project_directory"; $"env_file"].
Proof. repeat apply conj; apply struct_others; repeat constructor; apply field_reads. Qed.
Print Assumptions other_keys_ignored.
Example other_keys_example :
  accepted (de dependency_c (VMap [(VStr $"condition", VStr $"service_started"); (VStr $"restrat", VBool true)])) = true /\
  accepted (load w0 (file [] [(VStr $"service", VMap [])])) = false /\ accepted (load w0 (file [(VStr $"a", VMap [(VStr $"imag", VStr $"b")])] [])) = false.
Proof. repeat split; vm_compute; reflexivity. Qed.

(** ** C57 *)

(** A field of a compose file or of a service cannot be given twice. *)
Definition twice_in (k : sval) (es : list (sval * sval)) : Prop := exists a b c x y, es = a ++ (k, x) :: b ++ (k, y) :: c.
Lemma once_not_twice : forall n es o, lookup n es = Ok o -> ~ twice_in (VStr n) es.
Proof. intros n es o H T. apply (lookup_err n es) in T as [e E]. congruence. Qed.
Theorem compose_no_field_twice : forall w es c n, load w (VMap es) = Ok c -> In n COMPOSE_FIELDS -> ~ twice_in (VStr n) es.
Proof.
  intros w es c n H I. destruct (struct_ext_once' (compose_ms w) es c) with (n := n) as [o L]; [|exact H|exact I|now apply (once_not_twice n es o)].
  unfold compose_ms. repeat (apply Forall_cons; [apply field_once|]). apply Forall_nil.
Qed.
Print Assumptions compose_no_field_twice.
Theorem service_no_field_twice : forall w es s n, de (service_c w) (VMap es) = Ok s -> In n SERVICE_FIELDS -> ~ twice_in (VStr n) es.
Proof.
  intros w es s n H I. destruct (struct_ext_once' (service_ms w) es s) with (n := n) as [o L]; [|exact H|exact I|now apply (once_not_twice n es o)].
  unfold service_ms. repeat (apply Forall_cons; [first [apply field_once|apply group_once; unfold network_config_ms; repeat constructor; apply field_once]|]). apply Forall_nil.
Qed.
Print Assumptions service_no_field_twice.
(** Everything else can: a service, an extension, and any field of a network, where the last one counts. *)
Theorem repeated_keys_refuted : forall w, exists v c services,
  v = VMap [(VStr $"services", VMap services); (VStr $"networks", VMap [(VStr $"n", VMap [(VStr $"name", VStr $"a"); (VStr $"name", VStr $"b")])]); (VStr $"x-a", VInt 1); (VStr $"x-a", VInt 2)] /\
  twice_in (VStr $"web") services /\ load w v = Ok c /\
  save w c = VMap [(VStr $"services", VMap [(VStr $"web", VMap [(VStr $"image", VStr $"b")])]); (VStr $"networks", VMap [(VStr $"n", VMap [(VStr $"name", VStr $"b")])]); (VStr $"x-a", VInt 2)].
Proof.
  intros w. eexists. destruct (found (load w (VMap [(VStr $"services", VMap [(VStr $"web", VMap [(VStr $"image", VStr $"a")]); (VStr $"web", VMap [(VStr $"image", VStr $"b")])]);
    (VStr $"networks", VMap [(VStr $"n", VMap [(VStr $"name", VStr $"a"); (VStr $"name", VStr $"b")])]); (VStr $"x-a", VInt 1); (VStr $"x-a", VInt 2)])) (fun c => save w c =
    VMap [(VStr $"services", VMap [(VStr $"web", VMap [(VStr $"image", VStr $"b")])]); (VStr $"networks", VMap [(VStr $"n", VMap [(VStr $"name", VStr $"b")])]); (VStr $"x-a", VInt 2)])) as (c & H & E);
    [vm_compute; reflexivity|].
  exists c. eexists. split; [reflexivity|]. split; [|split; [exact H|exact E]]. exists [], [], [], (VMap [(VStr $"image", VStr $"a")]), (VMap [(VStr $"image", VStr $"b")]). reflexivity.
Qed.
Print Assumptions repeated_keys_refuted.

Example field_twice_example :
  accepted (load w0 (VMap [(VStr $"services", VMap []); (VStr $"name", VStr $"a"); (VStr $"name", VStr $"a")])) = false /\
  accepted (load w0 (file [(VStr $"a", VMap [(VStr $"image", VStr $"a"); (VStr $"image", VStr $"a")])] [])) = false.
Proof. split; vm_compute; reflexivity. Qed.

(** ** C58 *)

(** A file has to have [services], which may be empty; nothing else is needed. *)
Theorem compose_requires_services : forall w es c, load w (VMap es) = Ok c -> exists services, In (VStr $"services", VMap services) es.
Proof. intros w es c H. destruct (services_read w es c H) as (v & I & S). destruct v as [| | | | | |ss]; try discriminate. eauto. Qed.
Print Assumptions compose_requires_services.
Theorem compose_minimal : forall w, exists c, load w (VMap [(VStr $"services", VMap [])]) = Ok c /\ save w c = VMap [(VStr $"services", VMap [])].
Proof. intros w. apply found. vm_compute. reflexivity. Qed.
Print Assumptions compose_minimal.
(** With no service twice, the services of the result are those of the file, each read by itself, in the order of the file. *)
Theorem compose_services_are : forall w es c, load w (VMap es) = Ok c ->
  exists services, In (VStr $"services", VMap services) es /\
    (NoDup (map fst services) ->
     Forall2 (fun e s => fst e = VStr (fst s) /\ de (service_c w) (snd e) = Ok (snd s)) services (compose_services c)).
Proof.
  intros w es c H. destruct (services_read w es c H) as (v & I & S). destruct v as [| | | | | |ss]; try discriminate. exists ss. split; [assumption|]. intros D.
  cbn [de smap imap_c] in S. destruct (collect (entry_de identifier_c (service_c w)) ss) as [r|] eqn:C; cbn [map_ok] in S; [|discriminate].
  injection S as S. rewrite <- S. clear S H I c. apply collect_ok in C.
  assert (F : Forall2 (fun e s => fst e = VStr (fst s) /\ de (service_c w) (snd e) = Ok (snd s)) ss r).
  { clear D. induction C as [|e p ss r E C IH]; [constructor|]. constructor; [|assumption]. unfold entry_de in E. apply bind_ok in E as (n & N & E). apply bind_ok in E as (s & Sx & E). injection E as <-.
    cbn [fst snd]. split; [|exact Sx]. destruct (fst e) as [| | | |n'| |]; try discriminate. cbn [de identifier_c text_c from_string] in N.
    destruct (identifier_new n') as [m|] eqn:M; cbn [map_err] in N; [|discriminate]. injection N as <-. f_equal. symmetry. exact (proj1 (proj1 (identifier_new_ok n' m) M)). }
  rewrite (imap_of_nodup str_eqb str_eqb_eq); [exact F|]. clear C. revert D. induction F as [|e p ss r [E _] F IH]; intros D; [constructor|]. cbn [map] in *. inversion D as [|? ? N D']; subst.
  constructor; [|auto]. intros J. apply N. rewrite E. clear - F J. induction F as [|e' p' ss r [E' _] F IH]; [destruct J|]. cbn [map In] in *. destruct J as [J|J]; [left; congruence|right; auto].
Qed.
Print Assumptions compose_services_are.

Example compose_services_example :
  accepted (load w0 (VMap [(VStr $"name", VStr $"a")])) = false /\
  exists c, load w0 (file [(VStr $"b", VMap []); (VStr $"a", VMap [])] []) = Ok c /\ map fst (compose_services c) = [$"b"; $"a"].
Proof. split; [vm_compute; reflexivity|]. apply found. vm_compute. reflexivity. Qed.

(** ** C59 *)

(** The order of the entries of a file, or of a service, does not matter: only the extensions follow it. *)
Theorem compose_order : forall w es es' c, NoDup (map fst es) -> Permutation es es' -> load w (VMap es) = Ok c ->
  exists c', load w (VMap es') = Ok c' /\ fst c' = fst c /\ Permutation (snd c) (snd c').
Proof.
  intros w es es' c D P H. destruct (struct_ext_order (compose_ms w) es es' c) as (c' & H' & E & X); [|exact P|exact D|exact H|exists c'; auto].
  unfold compose_ms. repeat (apply Forall_cons; [apply field_perm|]). apply Forall_nil.
Qed.
Print Assumptions compose_order.
Theorem service_order : forall w es es' s, NoDup (map fst es) -> Permutation es es' -> de (service_c w) (VMap es) = Ok s ->
  exists s', de (service_c w) (VMap es') = Ok s' /\ fst s' = fst s /\ Permutation (snd s) (snd s').
Proof.
  intros w es es' s D P H. destruct (struct_ext_order (service_ms w) es es' s) as (s' & H' & E & X); [|exact P|exact D|exact H|exists s'; auto].
  unfold service_ms. repeat (apply Forall_cons; [first [apply field_perm|apply group_perm; unfold network_config_ms; repeat constructor; apply field_perm]|]). apply Forall_nil.
Qed.
Print Assumptions service_order.
Example order_example : exists c c',
  load w0 (VMap [(VStr $"x-a", VInt 1); (VStr $"services", VMap [(VStr $"web", web)]); (VStr $"x-b", VInt 2)]) = Ok c /\
  load w0 (VMap [(VStr $"services", VMap [(VStr $"web", web)]); (VStr $"x-b", VInt 2); (VStr $"x-a", VInt 1)]) = Ok c' /\
  fst c' = fst c /\ snd c = [($"x-a", VInt 1); ($"x-b", VInt 2)] /\ snd c' = [($"x-b", VInt 2); ($"x-a", VInt 1)].
Proof.
  destruct (found (load w0 (VMap [(VStr $"x-a", VInt 1); (VStr $"services", VMap [(VStr $"web", web)]); (VStr $"x-b", VInt 2)])) (fun c => snd c = [($"x-a", VInt 1); ($"x-b", VInt 2)])) as (c & H & E);
    [vm_compute; reflexivity|].
  destruct (found (load w0 (VMap [(VStr $"services", VMap [(VStr $"web", web)]); (VStr $"x-b", VInt 2); (VStr $"x-a", VInt 1)])) (fun c => snd c = [($"x-b", VInt 2); ($"x-a", VInt 1)])) as (c2 & H2 & E2);
    [vm_compute; reflexivity|].
  exists c, c2. split; [exact H|]. split; [exact H2|]. split; [|split; [exact E|exact E2]].
  refine ((fun O => _) (fun D P => compose_order w0 _ [(VStr $"services", VMap [(VStr $"web", web)]); (VStr $"x-b", VInt 2); (VStr $"x-a", VInt 1)] c D P H)).
  destruct O as (c' & H' & F & _).
  - repeat constructor; cbn [map fst In]; intuition discriminate.
  - apply Permutation_cons_append with (x := (VStr $"x-a", VInt 1)).
  - rewrite H2 in H'. assert (c2 = c') as -> by congruence. exact F.
Qed.
