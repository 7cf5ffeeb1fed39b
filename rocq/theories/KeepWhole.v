(** Lemmas for [PropsKeep]: a whole service and a whole file. *)

From Coq Require Import String Ascii List NArith ZArith Bool Lia ZifyBool ZifyN ZifyNat Sorted.
Import ListNotations.
From Verif Require Import Base BaseFacts Num Coll Regex KeysSpec KeysModel UserModel DurationModel DurationProofs BytesModel BytesProofs CpuSetModel DeviceModel ImageModel IpModel NetModel
  PathModel PortsModel PortsProofs TextModel VolumesModel ValuesModel BuildModel BuildProofs PlatformModel PlatformSpec PropsText PropsBuild EqModel Serde Codec CodecFacts EnumModel ScalarCodec ScalarGood
  CommonCodec CommonGood ServiceParts PartsGood MountCodec MountGood HealthModel HealthProofs ServiceCodec ComposeCodec KeepSpec KeepFacts.
Open Scope N_scope.

(** ** A service *)

Lemma service_said : forall w, said (service_c w) (struct_can (service_ms w) (service_can w)) (struct_keeps (service_ms w) (service_keeps w)).
Proof.
  intros w. unfold service_c. apply struct_ext_said. unfold service_ms, service_can, service_keeps.
  repeat lazymatch goal with |- mssaid (_ :: _) _ _ => apply mssaid_cons; [solve [auto 20 with said]|] end. exact I.
Qed.

(** ** A file *)

Lemma resource_said : forall {A : Set} (c : codec A) P Q, said c P Q -> said (resource_c c) (resource_can P) (resource_can Q).
Proof.
  intros A c P Q H [n|a] p; cbn [wf norm resource_c resource_can] in *; [split; auto|]. rewrite <- (H a p). split; intros [W N]; split; auto; [now injection N|now rewrite N].
Qed.
#[export] Hint Resolve resource_said : said.
Lemma ipam_config_said : forall w, said (ipam_config_c w) (struct_can (ipam_config_ms w) (ipam_config_can w)) any.
Proof. intros w. unfold ipam_config_c. apply struct_ext_any. unfold ipam_config_ms, ipam_config_can. auto 20 with said. Qed.
#[export] Hint Resolve ipam_config_said : said.
Lemma ipam_said : forall w, said (ipam_c w) (struct_can (ipam_ms w) (ipam_can w)) any.
Proof. intros w. unfold ipam_c. apply struct_ext_any. unfold ipam_ms, ipam_can. auto 20 with said. Qed.
#[export] Hint Resolve ipam_said : said.
Lemma network_said : forall w, said (network_c w) (struct_can (network_ms w) (network_can w)) (struct_keeps (network_ms w) (network_keeps w)).
Proof. intros w. unfold network_c. apply struct_ext_said. unfold network_ms, network_can, network_keeps. auto 20 with said. Qed.
Lemma volume_said : said top_volume_c (struct_can top_volume_ms volume_can) (struct_keeps top_volume_ms volume_keeps).
Proof. unfold top_volume_c. apply struct_ext_said. unfold top_volume_ms, volume_can, volume_keeps. auto 20 with said. Qed.
Lemma config_source_said : msaid config_source_m any any.
Proof. intros d _. split; [intros; exact I|]. intros _. split; [exact I|reflexivity]. Qed.
Lemma secret_source_said : msaid secret_source_m any any.
Proof. intros d _. split; [intros; exact I|]. intros _. split; [exact I|reflexivity]. Qed.
#[export] Hint Extern 1 (msaid config_source_m _ _) => exact config_source_said : said.
#[export] Hint Extern 1 (msaid secret_source_m _ _) => exact secret_source_said : said.
Lemma config_said : said config_c (struct_can config_ms config_can) (struct_keeps config_ms config_keeps).
Proof. unfold config_c. apply struct_ext_said. unfold config_ms, config_can, config_keeps. auto 20 with said. Qed.
Lemma secret_said : said secret_c (struct_can secret_ms secret_can) (struct_keeps secret_ms secret_keeps).
Proof. unfold secret_c. apply struct_ext_said. unfold secret_ms, secret_can, secret_keeps. auto 20 with said. Qed.
Lemma path_plain : plain path_c. Proof. intros a. reflexivity. Qed.
#[export] Hint Resolve network_said volume_said config_said secret_said path_plain : said.
Lemma include_said : said include_c (each include_ms include_can) any.
Proof. unfold include_c. apply struct_any. unfold include_ms, include_can. auto 20 with said. Qed.
#[export] Hint Resolve include_said service_said : said.
Lemma compose_said : forall w, said (compose_c w) (struct_can (compose_ms w) (compose_can w)) (struct_keeps (compose_ms w) (compose_keeps w)).
Proof.
  intros w. unfold compose_c. apply struct_ext_said. unfold compose_ms, compose_can, compose_keeps.
  do 3 (apply mssaid_cons; [solve [auto 20 with said]|]).
  apply mssaid_cons; [apply required_said; apply map_said; [exact identifier_said|exact (service_said w)]|].
  do 4 (apply mssaid_cons; [solve [auto 20 with said]|]). exact I.
Qed.

(** The condition of one field. *)
Fixpoint nth_pred (n : nat) (ms : list member) {struct ms} : preds ms -> nth_type n ms -> Prop :=
  match ms return preds ms -> nth_type n ms -> Prop with
  | [] => fun _ _ => True
  | m :: r => match n return preds (m :: r) -> nth_type n (m :: r) -> Prop with O => fun p => fst p | S n => fun p => nth_pred n r (snd p) end
  end.
Lemma each_nth : forall n ms p v, each ms p v -> nth_pred n ms p (nth_val n ms v).
Proof. induction n as [|n IH]; intros [|m r] p v E; cbn [each nth_pred nth_val] in *; auto; [apply E|apply IH, E]. Qed.
Lemma each_nth_iff : forall ms p v, each ms p v <-> forall n, nth_pred n ms p (nth_val n ms v).
Proof.
  intros ms p v. split; [intros E n; now apply each_nth|]. revert p v. induction ms as [|m r IH]; intros p v H; [exact I|]. split; [exact (H O)|]. apply IH. intros n. exact (H (S n)).
Qed.
