(** What is written: every struct is written with its declared keys, in the order of declaration, each present or absent by the
    value of its own field, and then its extensions. *)

From Coq Require Import String Ascii List NArith ZArith Bool.
Import ListNotations.
From Verif Require Import Base Num Coll BytesModel ValuesModel PortsModel VolumesModel TextModel Serde Codec ScalarCodec CommonCodec ServiceParts MountCodec HealthModel ServiceCodec
  ComposeCodec PropsCompose WrittenSpec.
Open Scope N_scope.

(** ** One field *)

Definition keys_of (es : list (sval * sval)) : list sval := map fst es.
Lemma written_some (n : str) {A : Set} (c : codec A) (o : option A) : keys_of (m_ser (optional n c) o) = map VStr (if_some n o).
Proof. now destruct o. Qed.
Lemma written_given (n : str) {A : Set} (c : codec A) (o : option A) : keys_of (m_ser (given n c) o) = map VStr (if_some n o).
Proof. now destruct o. Qed.
Lemma written_filled (n : str) {A : Set} (c : codec (list A)) (l : list A) : keys_of (m_ser (many n c) l) = map VStr (if_filled n l).
Proof. now destruct l. Qed.
Lemma written_cpuset (n : str) (w : externals) (l : list N) : keys_of (m_ser (cpuset_field n w) l) = map VStr (if_filled n l).
Proof. now destruct l. Qed.
Lemma written_listed (n : str) (x : list_or_map) : keys_of (m_ser (list_or_map_field n) x) = map VStr (if_listed n x).
Proof. now destruct x as [[|]|[|]]. Qed.
Lemma written_depending (n : str) d : keys_of (m_ser (depends_on_field n) d) = map VStr (if_depending n d).
Proof. now destruct d as [[|]|[|]]. Qed.
Lemma written_true (n : str) (b : bool) : keys_of (m_ser (flag n) b) = map VStr (if_true n b).
Proof. now destruct b. Qed.
Lemma written_false (n : str) (b : bool) : keys_of (m_ser (flag_true n) b) = map VStr (if_false n b).
Proof. now destruct b. Qed.
Lemma written_required (n : str) {A : Set} (c : codec A) (a : A) : keys_of (m_ser (required n c) a) = map VStr (always n a).
Proof. reflexivity. Qed.
Lemma written_dockerfile d : keys_of (m_ser dockerfile_m d) = map VStr (dockerfile_writes d).
Proof. now destruct d as [[|]|]. Qed.
Lemma written_network_config w c : keys_of (m_ser (network_config_m w) c) = map VStr (network_config_writes c).
Proof. now destruct c as [[|]|]. Qed.
Lemma written_config_source s : keys_of (m_ser config_source_m s) = map VStr (config_source_writes s).
Proof. now destruct s. Qed.
Lemma written_secret_source s : keys_of (m_ser secret_source_m s) = map VStr (secret_source_writes s).
Proof. now destruct s. Qed.

(** ** A table *)

Lemma written_cons (m : member) (ms : list member) (k : m_type m -> list str) (rest : vals ms -> list str) :
  (forall a, keys_of (m_ser m a) = map VStr (k a)) -> (forall v, keys_of (ser_members ms v) = map VStr (rest v)) ->
  forall v : vals (m :: ms), keys_of (ser_members (m :: ms) v) = map VStr (after k rest v).
Proof.
  intros E F [a v]. cbn [ser_members]. unfold keys_of, after in *. rewrite !map_app. cbn [fst snd]. now rewrite <- E, <- F.
Qed.
Lemma written_nil (v : vals []) : keys_of (ser_members [] v) = map VStr (nothing v).
Proof. reflexivity. Qed.
Lemma written_struct (ms : list member) (k : vals ms -> list str) :
  (forall v, keys_of (ser_members ms v) = map VStr (k v)) -> forall a, written_with (ser (struct_c ms) a) (k a).
Proof. intros E a. eexists. split; [reflexivity|]. apply E. Qed.
Lemma written_struct_ext (ms : list member) (k : vals ms -> list str) :
  (forall v, keys_of (ser_members ms v) = map VStr (k v)) ->
  forall a, written_with (ser (struct_ext_c ms) a) (k (fst a) ++ map fst (snd a)).
Proof.
  intros E [v x]. eexists. split; [reflexivity|]. rewrite !map_app. cbn [fst snd]. rewrite <- E. f_equal. unfold ext_ser. now rewrite !map_map.
Qed.

Ltac one_field :=
  lazymatch goal with
  | |- forall a, keys_of (m_ser (optional ?n ?c) a) = _ => exact (written_some n c)
  | |- forall a, keys_of (m_ser (given ?n ?c) a) = _ => exact (written_given n c)
  | |- forall a, keys_of (m_ser (many ?n ?c) a) = _ => exact (written_filled n c)
  | |- forall a, keys_of (m_ser (required ?n ?c) a) = _ => exact (written_required n c)
  | |- forall a, keys_of (m_ser (flag ?n) a) = _ => exact (written_true n)
  | |- forall a, keys_of (m_ser (flag_true ?n) a) = _ => exact (written_false n)
  | |- forall a, keys_of (m_ser (list_or_map_field ?n) a) = _ => exact (written_listed n)
  | |- forall a, keys_of (m_ser (depends_on_field ?n) a) = _ => exact (written_depending n)
  | |- forall a, keys_of (m_ser (cpuset_field ?n ?w) a) = _ => exact (written_cpuset n w)
  | |- forall a, keys_of (m_ser dockerfile_m a) = _ => exact written_dockerfile
  | |- forall a, keys_of (m_ser (network_config_m ?w) a) = _ => exact (written_network_config w)
  | |- forall a, keys_of (m_ser config_source_m a) = _ => exact written_config_source
  | |- forall a, keys_of (m_ser secret_source_m a) = _ => exact written_secret_source
  end.
Ltac table := first [exact written_nil | refine (written_cons _ _ _ _ _ _); [one_field | table]].

(** ** C68: what is written *)

Theorem service_written : forall w s, written_with (ser (service_c w) s) (service_writes w s).
Proof. intros w. refine (written_struct_ext (service_ms w) _ _). unfold service_ms. table. Qed.
Print Assumptions service_written.

Theorem compose_written : forall w c, written_with (ser (compose_c w) c) (compose_writes w c).
Proof. intros w. refine (written_struct_ext (compose_ms w) _ _). unfold compose_ms. table. Qed.
Print Assumptions compose_written.

Theorem build_written : forall w b, written_with (ser (build_c w) b) (build_writes w b).
Proof. intros w. refine (written_struct_ext (build_ms w) _ _). unfold build_ms. table. Qed.
Print Assumptions build_written.

Theorem deploy_written : forall w,
  (forall d, written_with (ser (deploy_c w) d) (deploy_writes w d)) /\
  (forall p, written_with (ser placement_c p) (placement_writes p)) /\
  (forall p, written_with (ser preference_c p) (preference_writes p)) /\
  (forall p, written_with (ser restart_policy_c p) (restart_policy_writes p)) /\
  (forall c, written_with (ser update_config_c c) (update_config_writes c)).
Proof.
  intros w. repeat split.
  - refine (written_struct_ext (deploy_ms w) _ _). unfold deploy_ms. table.
  - refine (written_struct_ext placement_ms _ _). unfold placement_ms. table.
  - refine (written_struct_ext preference_ms _ _). unfold preference_ms. table.
  - refine (written_struct_ext restart_policy_ms _ _). unfold restart_policy_ms. table.
  - refine (written_struct_ext update_config_ms _ _). unfold update_config_ms. table.
Qed.
Print Assumptions deploy_written.

Theorem resources_written : forall w,
  (forall r, written_with (ser (resources_c w) r) (resources_writes w r)) /\
  (forall l, written_with (ser (limits_c w) l) (limits_writes w l)) /\
  (forall r, written_with (ser (reservations_c w) r) (reservations_writes w r)) /\
  (forall d, written_with (ser deploy_device_c d) (deploy_device_writes d)) /\
  (forall g, written_with (ser generic_resource_c g) (generic_resource_writes g)) /\
  (forall s, written_with (ser discrete_resource_spec_c s) (discrete_resource_spec_writes s)).
Proof.
  intros w. repeat split.
  - refine (written_struct_ext (resources_ms w) _ _). unfold resources_ms. table.
  - refine (written_struct_ext (limits_ms w) _ _). unfold limits_ms. table.
  - refine (written_struct_ext (reservations_ms w) _ _). unfold reservations_ms. table.
  - refine (written_struct_ext deploy_device_ms _ _). unfold deploy_device_ms. table.
  - refine (written_struct_ext generic_resource_ms _ _). unfold generic_resource_ms. table.
  - refine (written_struct_ext discrete_resource_spec_ms _ _). unfold discrete_resource_spec_ms. table.
Qed.
Print Assumptions resources_written.

(** The parts of a service. *)
Theorem service_parts_written : forall w,
  (forall n, written_with (ser (service_network_c w) n) (service_network_writes w n)) /\
  (forall b, written_with (ser blkio_config_c b) (blkio_config_writes b)) /\
  (forall r, written_with (ser watch_rule_c r) (watch_rule_writes r)) /\
  (forall g, written_with (ser config_or_secret_c g) (config_or_secret_writes g)) /\
  (forall u, written_with (ser ulimit_c u) (ulimit_writes u)) /\
  (forall p, written_with (ser (port_c w) p) (port_writes p)) /\
  (forall h, written_with (ser healthcheck_c h) (healthcheck_writes h)).
Proof.
  intros w. repeat split.
  - refine (written_struct_ext (service_network_ms w) _ _). unfold service_network_ms. table.
  - refine (written_struct blkio_config_ms _ _). unfold blkio_config_ms. table.
  - refine (written_struct_ext watch_rule_ms _ _). unfold watch_rule_ms. table.
  - refine (written_struct_ext config_or_secret_ms _ _). unfold config_or_secret_ms. table.
  - intros [s h x]. eexists. split; [reflexivity|]. unfold ulimit_writes, ext_ser. cbn. now rewrite !map_map.
  - intros [n t r h p a m x]. eexists. split; [reflexivity|]. unfold port_writes, ext_ser. cbn.
    rewrite !map_app, !map_map. cbn. rewrite !map_app. now destruct n, r, h, p, a, m; cbn; rewrite !map_map.
  - intros [[(t & i & o & r & p & q & u) x]|]; [|eexists; split; reflexivity].
    eexists. split; [reflexivity|]. cbn. unfold ext_ser. rewrite !map_app, !map_map. now destruct t, i, o, r, p, q; cbn; rewrite ?map_map.
Qed.
Print Assumptions service_parts_written.

Theorem mounts_written :
  (forall m, written_with (ser mount_c m) (mount_writes m)) /\
  (forall o, written_with (ser volume_options_c o) (volume_options_writes o)) /\
  (forall o, written_with (ser bind_options_c o) (bind_options_writes o)) /\
  (forall o, written_with (ser tmpfs_options_c o) (tmpfs_options_writes o)).
Proof.
  assert (C : forall c, map fst (ser_members common_ms (of_common c) ++ ext_ser (cm_extensions c)) = map VStr (common_writes c)).
  { intros [t r c x]. unfold common_writes, ext_ser. cbn. rewrite !map_app, !map_map. now destruct r, c; cbn; rewrite ?map_map. }
  repeat split.
  - intros [[s o c]|[s o c]|[o c]|[s c]|[s c]]; (eexists; split; [reflexivity|]); unfold mount_writes; cbn [map]; f_equal;
      rewrite ?map_app; cbn [map vol_source vol_volume vol_common bind_source bind_bind bind_common tm_tmpfs tm_common np_source np_common cl_source cl_common];
      rewrite <- C; cbn [mount_body entries]; unfold volume_c, bind_c, tmpfs_c, named_pipe_c, cluster_c, volume_ms, bind_ms, tmpfs_ms, named_pipe_ms, cluster_ms;
      cbn [ser iso struct_ext_c ser_members fst snd entries]; rewrite ?map_app, ?app_assoc; repeat f_equal; try reflexivity.
    all: try now destruct s. all: try now destruct o.
  - intros [n s x]. eexists. split; [reflexivity|]. unfold volume_options_writes, ext_ser. cbn. rewrite !map_app, !map_map. now destruct n, s; cbn; rewrite ?map_map.
  - intros [p c s x]. eexists. split; [reflexivity|]. unfold bind_options_writes, ext_ser. cbn. rewrite !map_app, !map_map. now destruct p, c, s; cbn; rewrite ?map_map.
  - intros [s m x]. eexists. split; [reflexivity|]. unfold tmpfs_options_writes, ext_ser. cbn. rewrite !map_app, !map_map. now destruct s, m; cbn; rewrite ?map_map.
Qed.
Print Assumptions mounts_written.

Theorem top_level_written : forall w,
  (forall n, written_with (ser (network_c w) n) (network_writes w n)) /\
  (forall i, written_with (ser (ipam_c w) i) (ipam_writes w i)) /\
  (forall c, written_with (ser (ipam_config_c w) c) (ipam_config_writes w c)) /\
  (forall v, written_with (ser top_volume_c v) (top_volume_writes v)) /\
  (forall c, written_with (ser config_c c) (config_writes c)) /\
  (forall s, written_with (ser secret_c s) (secret_writes s)) /\
  (forall i, written_with (ser include_c i) (include_writes i)).
Proof.
  intros w. repeat split.
  - refine (written_struct_ext (network_ms w) _ _). unfold network_ms. table.
  - refine (written_struct_ext (ipam_ms w) _ _). unfold ipam_ms. table.
  - refine (written_struct_ext (ipam_config_ms w) _ _). unfold ipam_config_ms. table.
  - refine (written_struct_ext top_volume_ms _ _). unfold top_volume_ms. table.
  - refine (written_struct_ext config_ms _ _). unfold config_ms. table.
  - refine (written_struct_ext secret_ms _ _). unfold secret_ms. table.
  - refine (written_struct include_ms _ _). unfold include_ms. table.
Qed.
Print Assumptions top_level_written.

(** A mount and a service with some of their fields. *)
Example mount_written_ex :
  mount_writes (MBind (mk_bind $"/src" None (mk_common $"/t" true None [($"x-a", VNull)]))) = [$"type"; $"source"; $"target"; $"read_only"; $"x-a"].
Proof. reflexivity. Qed.
Example service_written_ex :
  match de (service_c w0) (VMap [(VStr $"x-a", VNull); (VStr $"tty", VBool true); (VStr $"image", VStr $"a"); (VStr $"init", VBool false);
                                 (VStr $"labels", VMap []); (VStr $"attach", VBool false)]) with
  | Ok s => service_writes w0 s = [$"attach"; $"image"; $"tty"; $"x-a"]
  | Err _ => False
  end.
Proof. vm_compute. reflexivity. Qed.
