(** Lemmas for [PropsSettle]: well-formed values are legible. *)

From Coq Require Import String Ascii List NArith ZArith Bool Lia ZifyBool ZifyN ZifyNat Sorted.
Import ListNotations.
From Verif Require Import Base BaseFacts Num Coll Regex KeysSpec KeysModel UserModel DurationModel DurationProofs BytesModel BytesProofs CpuSetModel DeviceModel ImageModel IpModel NetModel
  PathModel PortsModel PortsProofs TextModel VolumesModel ValuesModel BuildModel BuildProofs PlatformModel PlatformSpec PropsText PropsBuild EqModel Serde Codec CodecFacts EnumModel ScalarCodec ScalarGood
  CommonCodec CommonGood ServiceParts PartsGood MountCodec MountGood HealthModel HealthProofs ServiceCodec ComposeCodec KeepSpec KeepFacts KeepWhole SettleSpec.
Open Scope N_scope.

Definition back {A : Set} (c : codec A) (P Q : A -> Prop) : Prop := forall a, P a -> wf c a -> Q a.
Definition mback (m : member) (P Q : m_type m -> Prop) : Prop := forall a, P a -> m_wf m a -> Q a.
Fixpoint msback (ms : list member) : preds ms -> preds ms -> Prop :=
  match ms return preds ms -> preds ms -> Prop with [] => fun _ _ => True | m :: r => fun p q => mback m (fst p) (fst q) /\ msback r (snd p) (snd q) end.
Create HintDb back.

Lemma back_any : forall {A : Set} (c : codec A) (P : A -> Prop), back c P any.
Proof. intros A c P a _ _. exact I. Qed.
Lemma mback_any : forall m (P : m_type m -> Prop), mback m P any.
Proof. intros m P a _ _. exact I. Qed.
Lemma back_said : forall {A : Set} (c : codec A) (P Q : A -> Prop), said c P Q -> (forall a, norm c a = a) -> back c P Q.
Proof. intros A c P Q H N a p W. apply (H a p). auto. Qed.
Lemma option_back : forall {A : Set} (c : codec A) (P Q : A -> Prop), back c P Q -> back (option_c c) (opt P) (opt Q).
Proof. intros A c P Q H [a|] p W; cbn [wf option_c opt] in *; auto. Qed.
Lemma option_back_all : forall {A : Set} (c : codec A) (Q : A -> Prop), back c any Q -> back (option_c c) any (opt Q).
Proof. intros A c Q H a _. apply (option_back c any Q H). destruct a; exact I. Qed.
Lemma Forall_imp_in : forall {A : Type} (P W Q : A -> Prop) l, (forall a, P a -> W a -> Q a) -> Forall P l -> Forall W l -> Forall Q l.
Proof. intros A P W Q l H p w. rewrite Forall_forall in *. auto. Qed.
Lemma list_back : forall {A : Set} (c : codec A) (P Q : A -> Prop), back c P Q -> back (list_c c) (Forall P) (Forall Q).
Proof. intros A c P Q H l p W. exact (Forall_imp_in P _ Q l H p W). Qed.
Lemma list_back_all : forall {A : Set} (c : codec A) (Q : A -> Prop), back c any Q -> back (list_c c) any (Forall Q).
Proof. intros A c Q H l _. apply (list_back c any Q H). now apply Forall_all. Qed.
Lemma iset_back : forall {A : Set} eqb (c : codec A) (P Q : A -> Prop), back c P Q -> back (iset_c eqb c) (set_of eqb P) (Forall Q).
Proof. intros A eqb c P Q H l [p _] [W _]. exact (Forall_imp_in P _ Q l H p W). Qed.
Lemma iset_back_all : forall {A : Set} eqb (c : codec A) (Q : A -> Prop), back c any Q -> back (iset_c eqb c) (set_of eqb any) (Forall Q).
Proof. intros A eqb c Q. exact (iset_back eqb c any Q). Qed.
Lemma map_back : forall {V : Set} k (v : codec V) (K : str -> Prop) (P Q : V -> Prop), back v P Q -> back (smap k v) (map_of K P) (values Q).
Proof. intros V k v K P Q H m [_ p] [W _]. unfold values. rewrite Forall_forall in *. intros e J. apply (H _ (proj2 (p e J)) (proj2 (W e J))). Qed.
Lemma form_back : forall {A B : Set} (c : codec A) (d : codec B) (P Q : A -> Prop) (R S : B -> Prop), back c P Q -> back d R S -> back (short_or_long_c c d) (form P R) (form Q S).
Proof. intros A B c d P Q R S H G [a|a] p W; cbn [wf short_or_long_c form] in *; auto. Qed.
Lemma resource_back : forall {A : Set} (c : codec A) (P Q : A -> Prop), back c P Q -> back (resource_c c) (resource_can P) (resource_can Q).
Proof. intros A c P Q H [n|a] p W; cbn [wf resource_c resource_can] in *; auto. Qed.
Lemma members_back : forall ms p q, msback ms p q -> forall v, each ms p v -> wf_members ms v -> each ms q v.
Proof.
  induction ms as [|m r IH]; intros p q H v E W; cbn [wf_members each] in *; [exact I|]. destruct H as [H G]. destruct E as [E E']. destruct W as [W W']. split; [exact (H _ E W)|exact (IH _ _ G _ E' W')].
Qed.
Lemma msback_cons : forall m r (P Q : m_type m -> Prop) p q, mback m P Q -> msback r p q -> msback (m :: r) (P, p) (Q, q).
Proof. intros. split; assumption. Qed.
Lemma struct_ext_back : forall ms p q, msback ms p q -> back (struct_ext_c ms) (struct_can ms p) (struct_keeps ms q).
Proof. intros ms p q H [v x] [E _] [W _]. exact (members_back ms p q H v E W). Qed.
Lemma required_back : forall n {A : Set} (c : codec A) (P Q : A -> Prop), back c P Q -> mback (required n c) P Q. Proof. intros n A c P Q H. exact H. Qed.
Lemma optional_back : forall n {A : Set} (c : codec A) (P Q : option A -> Prop), back (option_c c) P Q -> mback (optional n c) P Q. Proof. intros n A c P Q H. exact H. Qed.
Lemma given_back : forall n {A : Set} (c : codec A) (P Q : option A -> Prop), back (option_c c) P Q -> mback (given n c) P Q. Proof. intros n A c P Q H. exact H. Qed.
Lemma many_back : forall n {A : Set} (c : codec (list A)) (P Q : list A -> Prop), back c P Q -> mback (many n c) P Q. Proof. intros n A c P Q H. exact H. Qed.
Ltac back_types := lazymatch goal with |- @back ?A ?c ?P ?Q => let P := any_type A P in let Q := any_type A Q in change (@back A c P Q) end.
#[export] Hint Resolve back_any option_back option_back_all list_back list_back_all iset_back iset_back_all map_back form_back resource_back : back.
#[export] Hint Extern 1 (mback (many _ _) _ _) => apply many_back; back_types : back.
#[export] Hint Extern 1 (mback (optional _ _) _ _) => apply optional_back; back_types : back.
#[export] Hint Extern 1 (mback (given _ _) _ _) => apply given_back; back_types : back.
#[export] Hint Extern 1 (mback (required _ _) _ _) => apply required_back; back_types : back.
Ltac one_back := lazymatch goal with |- mback _ _ any => apply mback_any | |- mback _ _ (@any _) => apply mback_any | |- _ => solve [auto 20 with back] end.
Ltac all_back := repeat lazymatch goal with |- msback (_ :: _) _ _ => apply msback_cons; [one_back|] end; exact I.

Lemma image_back : back image_c any image_keeps. Proof. apply (back_said _ _ _ image_said). reflexivity. Qed.
Lemma ipc_back : back ipc_c ipc_can ipc_keeps. Proof. apply (back_said _ _ _ ipc_said). reflexivity. Qed.
Lemma driver_back : back driver_c any driver_keeps. Proof. apply (back_said _ _ _ driver_said). reflexivity. Qed.
Lemma endpoint_back : back endpoint_mode_c any endpoint_keeps. Proof. apply (back_said _ _ _ endpoint_said). reflexivity. Qed.
Lemma capability_back : back capability_c any capability_keeps. Proof. apply (back_said _ _ _ capability_said). reflexivity. Qed.
Lemma build_network_back : back build_network_c build_network_can build_network_keeps. Proof. apply (back_said _ _ _ build_network_said). reflexivity. Qed.
Lemma device_back : back device_c device_can device_keeps. Proof. apply (back_said _ _ _ device_said). reflexivity. Qed.
Lemma from_back : back volumes_from_c from_can from_keeps. Proof. apply (back_said _ _ _ from_said). reflexivity. Qed.
Lemma short_volume_back : back short_volume_c short_volume_can short_volume_keeps. Proof. apply (back_said _ _ _ short_volume_said). reflexivity. Qed.
Lemma ssh_back : back ssh_auth_c ssh_can ssh_keeps. Proof. apply (back_said _ _ _ ssh_said). reflexivity. Qed.
Lemma cache_back : back cache_c cache_can cache_keeps. Proof. apply (back_said _ _ _ cache_said). reflexivity. Qed.
Lemma expose_back : back expose_c expose_can expose_keeps. Proof. apply (back_said _ _ _ expose_said). reflexivity. Qed.
Lemma short_port_back : forall w, back (short_port_c w) (short_port_can w) short_port_keeps. Proof. intros w. apply (back_said _ _ _ (short_port_said w)). reflexivity. Qed.
Lemma port_back : forall w, back (port_c w) port_can port_keeps. Proof. intros w. apply (back_said _ _ _ (port_said w)). exact (port_plain w). Qed.
Lemma context_back : forall w, back (context_c w) (context_can w) (context_keeps w). Proof. intros w. apply (back_said _ _ _ (context_said w)). reflexivity. Qed.
Lemma contexts_back : forall w, back (additional_contexts_c w) (map_of key_can (context_can w)) (values (context_keeps w)). Proof. intros w. apply (back_said _ _ _ (contexts_said w)). reflexivity. Qed.
Lemma micros_back : back duration_us_c time_can micros_read.
Proof. intros [s n] H [_ F]. unfold micros_read, u64, as_micros, U64_MAX in *. cbn [secs nanos] in *. lia. Qed.
Lemma volumes_back : forall w, back (volumes_c w) (set_of (short_or_long_eqb short_volume_eqb (mount_eqb (w_yaml_eqb w))) (form short_volume_can mount_can)) (Forall (form short_volume_keeps any)).
Proof. intros w. unfold volumes_c. apply iset_back, form_back; [exact short_volume_back|apply back_any]. Qed.
Lemma ports_back : forall w, back (ports_c w) (set_of (short_or_long_eqb short_port_eqb (port_eqb (w_yaml_eqb w))) (form (short_port_can w) port_can)) (Forall (form short_port_keeps port_keeps)).
Proof. intros w. unfold ports_c. apply iset_back, form_back; [exact (short_port_back w)|exact (port_back w)]. Qed.
#[export] Hint Resolve image_back ipc_back driver_back endpoint_back capability_back build_network_back device_back from_back ssh_back cache_back expose_back context_back contexts_back micros_back volumes_back ports_back : back.

Lemma build_back : forall w, back (build_c w) (struct_can (build_ms w) (build_can w)) (struct_keeps (build_ms w) (build_reads w)).
Proof. intros w. unfold build_c. apply struct_ext_back. unfold build_ms, build_can, build_reads. all_back. Qed.
Lemma deploy_device_back : back deploy_device_c (struct_can deploy_device_ms deploy_device_can) (struct_keeps deploy_device_ms deploy_device_reads).
Proof. unfold deploy_device_c. apply struct_ext_back. unfold deploy_device_ms, deploy_device_can, deploy_device_reads. all_back. Qed.
#[export] Hint Resolve build_back deploy_device_back : back.
Lemma reservations_back : forall w, back (reservations_c w) (struct_can (reservations_ms w) (reservations_can w)) (struct_keeps (reservations_ms w) (reservations_read w)).
Proof. intros w. unfold reservations_c. apply struct_ext_back. unfold reservations_ms, reservations_can, reservations_read. all_back. Qed.
#[export] Hint Resolve reservations_back : back.
Lemma resources_back : forall w, back (resources_c w) (struct_can (resources_ms w) (resources_can w)) (struct_keeps (resources_ms w) (resources_read w)).
Proof. intros w. unfold resources_c. apply struct_ext_back. unfold resources_ms, resources_can, resources_read. all_back. Qed.
#[export] Hint Resolve resources_back : back.
Lemma deploy_back : forall w, back (deploy_c w) (struct_can (deploy_ms w) (deploy_can w)) (struct_keeps (deploy_ms w) (deploy_reads w)).
Proof. intros w. unfold deploy_c. apply struct_ext_back. unfold deploy_ms, deploy_can, deploy_reads. all_back. Qed.
Lemma network_config_back : forall w, mback (network_config_m w) (opt (network_config_can w)) (opt (network_config_reads w)).
Proof.
  intros w o H W. destruct o as [[m|n]|]; cbn [opt network_config_can network_config_reads] in *; try exact I. apply (mode_said m H). split; [exact W|reflexivity].
Qed.
#[export] Hint Resolve deploy_back : back.
#[export] Hint Extern 1 (mback (network_config_m _) _ _) => apply network_config_back : back.
Lemma service_back : forall w, back (service_c w) (struct_can (service_ms w) (service_can w)) (struct_keeps (service_ms w) (service_legible w)).
Proof. intros w. unfold service_c. apply struct_ext_back. unfold service_ms, service_can, service_legible. all_back. Qed.
Lemma network_back : forall w, back (network_c w) (struct_can (network_ms w) (network_can w)) (struct_keeps (network_ms w) (network_reads w)).
Proof. intros w. unfold network_c. apply struct_ext_back. unfold network_ms, network_can, network_reads. all_back. Qed.
#[export] Hint Resolve network_back : back.
Lemma compose_back : forall w, back (compose_c w) (struct_can (compose_ms w) (compose_can w)) (struct_keeps (compose_ms w) (compose_legible w)).
Proof.
  intros w. unfold compose_c. apply struct_ext_back. unfold compose_ms, compose_can, compose_legible. do 3 (apply msback_cons; [one_back|]).
  apply msback_cons; [apply required_back; apply map_back; exact (service_back w)|]. all_back.
Qed.
