(** Lemmas for [PropsSettle]: what each codec's [norm] is, and that values which are possible and legible are well formed. *)

From Coq Require Import String Ascii List NArith ZArith Bool Lia ZifyBool ZifyN ZifyNat Sorted.
Import ListNotations.
From Verif Require Import Base BaseFacts Num Coll Regex KeysSpec KeysModel UserModel DurationModel DurationProofs BytesModel BytesProofs CpuSetModel DeviceModel ImageModel IpModel NetModel
  PathModel PortsModel PortsProofs TextModel VolumesModel ValuesModel BuildModel BuildProofs PlatformModel PlatformSpec PropsText PropsBuild EqModel Serde Codec CodecFacts EnumModel ScalarCodec ScalarGood
  CommonCodec CommonGood ServiceParts PartsGood MountCodec MountGood HealthModel HealthProofs ServiceCodec ComposeCodec KeepSpec KeepFacts KeepWhole SettleSpec.
Open Scope N_scope.

Definition turns {A : Set} (c : codec A) (P Q : A -> Prop) (f : A -> A) : Prop := forall a, P a -> Q a -> wf c a /\ norm c a = f a.
Definition mturns (m : member) (P Q : m_type m -> Prop) (f : m_type m -> m_type m) : Prop := forall a, P a -> Q a -> m_wf m a /\ m_norm m a = f a.
Fixpoint msturns (ms : list member) : preds ms -> preds ms -> maps ms -> Prop :=
  match ms return preds ms -> preds ms -> maps ms -> Prop with
  | [] => fun _ _ _ => True
  | m :: r => fun p q f => mturns m (fst p) (fst q) (fst f) /\ msturns r (snd p) (snd q) (snd f)
  end.
(** The same without a condition. *)
Fixpoint msfree (ms : list member) : preds ms -> maps ms -> Prop :=
  match ms return preds ms -> maps ms -> Prop with [] => fun _ _ => True | m :: r => fun p f => mturns m (fst p) any (fst f) /\ msfree r (snd p) (snd f) end.
Create HintDb turns.

Lemma turns_same : forall {A : Set} (c : codec A) (P Q : A -> Prop), said c P Q -> turns c P Q same.
Proof. intros A c P Q H a p q. exact (proj2 (H a p) q). Qed.
Lemma mturns_same : forall m (P Q : m_type m -> Prop), msaid m P Q -> mturns m P Q same.
Proof. intros m P Q H a p q. exact (proj2 (H a p) q). Qed.

Lemma option_turns : forall {A : Set} (c : codec A) (P Q : A -> Prop) f, turns c P Q f -> turns (option_c c) (opt P) (opt Q) (option_map f).
Proof. intros A c P Q f H [a|] p q; cbn [wf norm option_c option_map opt] in *; [|auto]. destruct (H a p q) as [W N]. now rewrite N. Qed.
Lemma option_free : forall {A : Set} (c : codec A) (P : A -> Prop) f, turns c P any f -> turns (option_c c) (opt P) any (option_map f).
Proof. intros A c P f H a p _. apply (option_turns c P any f H a p). destruct a; exact I. Qed.
Lemma list_turns : forall {A : Set} (c : codec A) (P Q : A -> Prop) f, turns c P Q f -> turns (list_c c) (Forall P) (Forall Q) (map f).
Proof.
  intros A c P Q f H l p q. cbn [wf norm list_c]. rewrite !Forall_forall in *. split; [intros a J; now apply (H a (p a J) (q a J))|].
  apply map_ext_in. intros a J. now apply (H a (p a J) (q a J)).
Qed.
Lemma list_free : forall {A : Set} (c : codec A) (P : A -> Prop) f, turns c P any f -> turns (list_c c) (Forall P) any (map f).
Proof. intros A c P f H l p _. apply (list_turns c P any f H l p). now apply Forall_all. Qed.
Lemma map_turns : forall {V : Set} k (v : codec V) (K : str -> Prop) (P Q : V -> Prop) f, said k K any -> turns v P Q f -> turns (smap k v) (map_of K P) (values Q) (in_values f).
Proof.
  intros V k v K P Q f Hk Hv m [D F] G. cbn [wf norm smap imap_c]. unfold values, in_values in *. rewrite !Forall_forall in *. split; [split; [|exact D]|].
  - intros e J. specialize (F e J). specialize (G e J). split; [apply (any_said k K); [assumption|apply F]|apply (Hv _ (proj2 F) G)].
  - apply map_ext_in. intros [a b] J. specialize (F _ J). specialize (G _ J). cbn [fst snd] in *. now rewrite (proj2 (Hv b (proj2 F) G)).
Qed.
Lemma map_free : forall {V : Set} k (v : codec V) (K : str -> Prop) (P : V -> Prop) f, said k K any -> turns v P any f -> turns (smap k v) (map_of K P) any (in_values f).
Proof. intros V k v K P f Hk Hv m p _. apply (map_turns k v K P any f Hk Hv m p). now apply Forall_all. Qed.
Lemma form_turns : forall {A B : Set} (c : codec A) (d : codec B) (P Q : A -> Prop) (R S : B -> Prop) f g, turns c P Q f -> turns d R S g -> turns (short_or_long_c c d) (form P R) (form Q S) (in_form f g).
Proof.
  intros A B c d P Q R S f g H G [a|a] p q; cbn [wf norm short_or_long_c form in_form] in *; [destruct (H a p q) as [W N]|destruct (G a p q) as [W N]]; rewrite N; auto.
Qed.
Lemma form_free : forall {A B : Set} (c : codec A) (d : codec B) (P : A -> Prop) (R : B -> Prop) f g, turns c P any f -> turns d R any g -> turns (short_or_long_c c d) (form P R) any (in_form f g).
Proof. intros A B c d P R f g H G a p _. apply (form_turns c d P any R any f g H G a p). destruct a; exact I. Qed.
Lemma resource_turns : forall {A : Set} (c : codec A) (P Q : A -> Prop) f, turns c P Q f -> turns (resource_c c) (resource_can P) (resource_can Q) (in_resource f).
Proof. intros A c P Q f H [n|a] p q; cbn [wf norm resource_c resource_can in_resource] in *; [auto|]. destruct (H a p q) as [W N]. rewrite N. auto. Qed.
Lemma resource_free : forall {A : Set} (c : codec A) (P : A -> Prop) f, turns c P any f -> turns (resource_c c) (resource_can P) any (in_resource f).
Proof. intros A c P f H a p _. apply (resource_turns c P any f H a p). destruct a; exact I. Qed.

Lemma members_turn : forall ms p q f, msturns ms p q f -> forall v, each ms p v -> each ms q v -> wf_members ms v /\ norm_members ms v = in_each ms f v.
Proof.
  induction ms as [|m r IH]; intros p q f H v E F; cbn [wf_members norm_members each in_each] in *; [split; [exact I|now destruct v]|].
  destruct H as [H G]. destruct E as [E E']. destruct F as [F F']. destruct (IH _ _ _ G _ E' F') as [X N']. destruct (H _ E F) as [W N]. destruct v as [a v]. cbn [fst snd] in *. rewrite N, N'. auto.
Qed.
Lemma members_free : forall ms p f, msfree ms p f -> forall v, each ms p v -> wf_members ms v /\ norm_members ms v = in_each ms f v.
Proof.
  induction ms as [|m r IH]; intros p f H v E; cbn [wf_members norm_members each in_each] in *; [split; [exact I|now destruct v]|].
  destruct H as [H G]. destruct E as [E E']. destruct (IH _ _ G _ E') as [X N']. destruct (H _ E I) as [W N]. destruct v as [a v]. cbn [fst snd] in *. rewrite N, N'. auto.
Qed.
Lemma msturns_cons : forall m r (P Q : m_type m -> Prop) f p q g, mturns m P Q f -> msturns r p q g -> msturns (m :: r) (P, p) (Q, q) (f, g).
Proof. intros. split; assumption. Qed.
Lemma msfree_cons : forall m r (P : m_type m -> Prop) f p g, mturns m P any f -> msfree r p g -> msfree (m :: r) (P, p) (f, g).
Proof. intros. split; assumption. Qed.
Lemma struct_ext_turns : forall ms p q f, msturns ms p q f -> turns (struct_ext_c ms) (struct_can ms p) (struct_keeps ms q) (in_struct ms f).
Proof.
  intros ms p q f H [v x] [E X] F. unfold struct_keeps, in_struct in *. cbn [wf norm struct_ext_c fst snd] in *. destruct (members_turn ms p q f H v E F) as [W N]. rewrite N. apply ext_can_iff in X. auto.
Qed.
Lemma struct_ext_free : forall ms p f, msfree ms p f -> turns (struct_ext_c ms) (struct_can ms p) any (in_struct ms f).
Proof.
  intros ms p f H [v x] [E X] _. unfold in_struct in *. cbn [wf norm struct_ext_c fst snd] in *. destruct (members_free ms p f H v E) as [W N]. rewrite N. apply ext_can_iff in X. auto.
Qed.

Lemma required_turns : forall n {A : Set} (c : codec A) (P Q : A -> Prop) f, turns c P Q f -> mturns (required n c) P Q f.
Proof. intros n A c P Q f H. exact H. Qed.
Lemma optional_turns : forall n {A : Set} (c : codec A) (P Q : option A -> Prop) f, turns (option_c c) P Q f -> mturns (optional n c) P Q f.
Proof. intros n A c P Q f H a p q. cbn [m_wf m_norm optional field]. rewrite opt_norm. exact (H a p q). Qed.
Lemma given_turns : forall n {A : Set} (c : codec A) (P Q : option A -> Prop) f, turns (option_c c) P Q f -> mturns (given n c) P Q f.
Proof. intros n A c P Q f H a p q. cbn [m_wf m_norm given field]. change (norm (some_c c)) with (norm (option_c c)). rewrite opt_norm. exact (H a p q). Qed.
Lemma many_turns : forall n {A : Set} (c : codec (list A)) (P Q : list A -> Prop) f, norm c [] = [] -> turns c P Q f -> mturns (many n c) P Q f.
Proof. intros n A c P Q f N H a p q. cbn [m_wf m_norm many field]. destruct (H a p q) as [W M]. split; [exact W|]. rewrite <- M. destruct a; cbn [is_nil]; [now rewrite N|reflexivity]. Qed.

#[export] Hint Resolve option_turns option_free list_turns list_free map_turns map_free form_turns form_free resource_turns resource_free struct_ext_turns struct_ext_free : turns.
Ltac turn_types := lazymatch goal with |- @turns ?A ?c ?P ?Q ?f => let P := any_type A P in let Q := any_type A Q in change (@turns A c P Q f) end.
#[export] Hint Extern 1 (turns _ _ _ same) => apply turns_same; any_types; solve [auto 20 with said] : turns.
#[export] Hint Extern 1 (said _ _ _) => solve [auto 20 with said] : turns.
#[export] Hint Extern 1 (mturns (many _ _) _ _ _) => apply many_turns; [reflexivity|turn_types] : turns.
#[export] Hint Extern 1 (mturns (optional _ _) _ _ _) => apply optional_turns; turn_types : turns.
#[export] Hint Extern 1 (mturns (given _ _) _ _ _) => apply given_turns; turn_types : turns.
#[export] Hint Extern 1 (mturns (required _ _) _ _ _) => apply required_turns; turn_types : turns.
(** One field. *)
Ltac turn := lazymatch goal with
  | |- mturns _ _ _ same => apply mturns_same; solve [auto 20 with said]
  | |- _ => solve [auto 20 with turns]
  end.
Ltac turn_all := repeat lazymatch goal with |- msturns (_ :: _) _ _ _ => apply msturns_cons; [turn|] | |- msfree (_ :: _) _ _ => apply msfree_cons; [turn|] end; exact I.

(** ** What changes *)

Lemma cut_turns : turns duration_c time_can any cut.
Proof.
  intros [s n] H _. cbn [wf norm duration_c]. unfold whole_micros, cut. cbn [secs nanos]. split; [exact H|]. f_equal. assert (E := N.div_mod n 1000 ltac:(lia)). lia.
Qed.
Lemma micros_turns : turns duration_us_c time_can micros_read cut.
Proof.
  intros [s n] H F. cbn [wf norm duration_us_c]. unfold whole_micros, cut, micros_read, as_micros, u64 in *. cbn [secs nanos] in *. split; [split; [exact H|unfold as_micros, U64_MAX; cbn [secs nanos]; lia]|].
  f_equal. assert (E := N.div_mod n 1000 ltac:(lia)). lia.
Qed.
Lemma number_turns : turns number_c number_can any unsigned.
Proof.
  intros [n|z|b] H _; (split; [exact H|]); cbn [norm number_c number_norm unsigned]; try reflexivity. destruct (Z.leb_spec 0 z), (Z.ltb_spec z 0); try lia; reflexivity.
Qed.
Lemma value_turns : turns value_c value_can any value_settled.
Proof. intros [s|n|b] H _; cbn [wf norm value_c value_can value_settled] in *; auto. destruct (number_turns n H I) as [W N]. now rewrite N. Qed.
Lemma plain_turns : turns string_or_number_c plain_can any plain_settled.
Proof. intros [s|n] H _; cbn [wf norm string_or_number_c plain_can plain_settled] in *; auto. destruct (number_turns n H I) as [W N]. now rewrite N. Qed.
#[export] Hint Resolve cut_turns micros_turns value_turns plain_turns : turns.
Lemma options_turns : turns vmap_c options_can any options_settled.
Proof. unfold vmap_c, options_can, options_settled. auto 20 with turns. Qed.
Lemma either_turns : forall n, mturns (list_or_map_field n) either_can any either_settled.
Proof.
  intros n [l|m] H _.
  - exact (proj2 (either_said n (LList l) H) I).
  - destruct (options_turns m H I) as [W N]. cbn [m_wf m_norm list_or_map_field field wf norm list_or_map_c list_or_map_empty either_settled] in *. split; [exact W|].
    destruct m as [|e m]; cbn [is_nil]; [reflexivity|]. exact (f_equal LMap N).
Qed.
Lemma depends_on_turns : forall n, mturns (depends_on_field n) depends_on_can any depends_on_settled.
Proof.
  intros n d H _. assert (S : said depends_on_c depends_on_can any) by (unfold depends_on_c, depends_on_can; auto 20 with said). destruct (any_said _ _ _ S H) as [W N].
  cbn [m_wf m_norm depends_on_field field]. rewrite N. split; [exact W|]. destruct d as [[|a l]|[|a l]]; reflexivity.
Qed.
#[export] Hint Resolve options_turns : turns.
#[export] Hint Extern 1 (mturns (list_or_map_field _) _ _ _) => apply either_turns : turns.
#[export] Hint Extern 1 (mturns (depends_on_field _) _ _ _) => apply depends_on_turns : turns.

(** ** The parts of a service *)

Lemma build_turns : forall w, turns (build_c w) (struct_can (build_ms w) (build_can w)) (struct_keeps (build_ms w) (build_reads w)) (in_struct (build_ms w) (build_settled w)).
Proof. intros w. unfold build_c. apply struct_ext_turns. unfold build_ms, build_can, build_reads, build_settled. turn_all. Qed.
Lemma deploy_device_turns : turns deploy_device_c (struct_can deploy_device_ms deploy_device_can) (struct_keeps deploy_device_ms deploy_device_reads) (in_struct deploy_device_ms deploy_device_settled).
Proof. unfold deploy_device_c. apply struct_ext_turns. unfold deploy_device_ms, deploy_device_can, deploy_device_reads, deploy_device_settled. turn_all. Qed.
#[export] Hint Resolve build_turns deploy_device_turns : turns.
Lemma reservations_turn : forall w, turns (reservations_c w) (struct_can (reservations_ms w) (reservations_can w)) (struct_keeps (reservations_ms w) (reservations_read w)) (in_struct (reservations_ms w) (reservations_settled w)).
Proof. intros w. unfold reservations_c. apply struct_ext_turns. unfold reservations_ms, reservations_can, reservations_read, reservations_settled. turn_all. Qed.
#[export] Hint Resolve reservations_turn : turns.
Lemma resources_turn : forall w, turns (resources_c w) (struct_can (resources_ms w) (resources_can w)) (struct_keeps (resources_ms w) (resources_read w)) (in_struct (resources_ms w) (resources_settled w)).
Proof. intros w. unfold resources_c. apply struct_ext_turns. unfold resources_ms, resources_can, resources_read, resources_settled. turn_all. Qed.
Lemma restart_policy_turns : turns restart_policy_c (struct_can restart_policy_ms restart_policy_can) any (in_struct restart_policy_ms restart_policy_settled).
Proof. unfold restart_policy_c. apply struct_ext_free. unfold restart_policy_ms, restart_policy_can, restart_policy_settled. turn_all. Qed.
Lemma update_config_turns : turns update_config_c (struct_can update_config_ms update_config_can) any (in_struct update_config_ms update_config_settled).
Proof. unfold update_config_c. apply struct_ext_free. unfold update_config_ms, update_config_can, update_config_settled. turn_all. Qed.
#[export] Hint Resolve resources_turn restart_policy_turns update_config_turns : turns.
Lemma deploy_turns : forall w, turns (deploy_c w) (struct_can (deploy_ms w) (deploy_can w)) (struct_keeps (deploy_ms w) (deploy_reads w)) (in_struct (deploy_ms w) (deploy_settled w)).
Proof. intros w. unfold deploy_c. apply struct_ext_turns. unfold deploy_ms, deploy_can, deploy_reads, deploy_settled. turn_all. Qed.
Lemma service_network_turns : forall w, turns (service_network_c w) (struct_can (service_network_ms w) (service_network_can w)) any (in_struct (service_network_ms w) (service_network_settled w)).
Proof. intros w. unfold service_network_c. apply struct_ext_free. unfold service_network_ms, service_network_can, service_network_settled. turn_all. Qed.
#[export] Hint Resolve deploy_turns service_network_turns : turns.
Lemma network_config_turns : forall w, mturns (network_config_m w) (opt (network_config_can w)) (opt (network_config_reads w)) (option_map (network_config_settled w)).
Proof.
  intros w o H Q. cbn [m_wf m_norm network_config_m group]. destruct o as [[m|n]|]; cbn [opt network_config_can network_config_reads option_map network_config_settled] in *; [| |split; auto].
  - split; [exact (proj1 (proj2 (mode_said m H) Q))|reflexivity].
  - assert (S : turns (networks_c w) (form (set_of str_eqb identifier) (map_of identifier (opt (struct_can (service_network_ms w) (service_network_can w))))) any
                  (in_form same (in_values (option_map (in_struct (service_network_ms w) (service_network_settled w)))))) by (unfold networks_c; auto 20 with turns).
    destruct (S n H I) as [W N]. split; [exact W|]. exact (f_equal (fun x => Some (NcNetworks x)) N).
Qed.
Lemma health_turns : turns healthcheck_c health_can any health_settled.
Proof.
  intros [c|] H _; [|split; [exact I|reflexivity]]. cbn [wf norm healthcheck_c health_can health_settled] in *.
  assert (S : turns (struct_ext_c health_ms) (struct_can health_ms [* any; opt time_can; opt time_can; opt u64; opt time_can; opt time_can *]) any
                (in_struct health_ms [* same; option_map cut; option_map cut; same; option_map cut; option_map cut *])) by (apply struct_ext_free; unfold health_ms; turn_all).
  destruct (S c H I) as [W N]. split; [exact W|]. exact (f_equal HcCommand N).
Qed.
Lemma logging_turns : turns logging_c
  (struct_can [optional $"driver" string_c; many $"options" (smap map_key_c (option_c string_or_number_c))] [* any; map_of key_can (opt plain_can) *]) any
  (in_struct [optional $"driver" string_c; many $"options" (smap map_key_c (option_c string_or_number_c))] [* same; in_values (option_map plain_settled) *]).
Proof. unfold logging_c. apply struct_ext_free. turn_all. Qed.
#[export] Hint Resolve health_turns logging_turns : turns.
#[export] Hint Extern 1 (mturns (network_config_m _) _ _ _) => apply network_config_turns : turns.

(** ** Services and files *)

Lemma service_turns : forall w, turns (service_c w) (struct_can (service_ms w) (service_can w)) (struct_keeps (service_ms w) (service_legible w)) (in_struct (service_ms w) (service_settled w)).
Proof. intros w. unfold service_c. apply struct_ext_turns. unfold service_ms, service_can, service_legible, service_settled. turn_all. Qed.
Lemma network_turns : forall w, turns (network_c w) (struct_can (network_ms w) (network_can w)) (struct_keeps (network_ms w) (network_reads w)) (in_struct (network_ms w) (network_settled w)).
Proof. intros w. unfold network_c. apply struct_ext_turns. unfold network_ms, network_can, network_reads, network_settled. turn_all. Qed.
Lemma volume_turns : turns top_volume_c (struct_can top_volume_ms volume_can) any (in_struct top_volume_ms volume_settled).
Proof. unfold top_volume_c. apply struct_ext_free. unfold top_volume_ms, volume_can, volume_settled. turn_all. Qed.
Lemma config_turns : turns config_c (struct_can config_ms config_can) any (in_struct config_ms config_settled).
Proof. unfold config_c. apply struct_ext_free. unfold config_ms, config_can, config_settled. turn_all. Qed.
Lemma secret_turns : turns secret_c (struct_can secret_ms secret_can) any (in_struct secret_ms secret_settled).
Proof. unfold secret_c. apply struct_ext_free. unfold secret_ms, secret_can, secret_settled. turn_all. Qed.
#[export] Hint Resolve network_turns volume_turns config_turns secret_turns : turns.
Lemma compose_turns : forall w, turns (compose_c w) (struct_can (compose_ms w) (compose_can w)) (struct_keeps (compose_ms w) (compose_legible w)) (in_struct (compose_ms w) (compose_settled w)).
Proof.
  intros w. unfold compose_c. apply struct_ext_turns. unfold compose_ms, compose_can, compose_legible, compose_settled.
  do 3 (apply msturns_cons; [turn|]).
  apply msturns_cons; [apply required_turns; apply map_turns; [exact identifier_said|exact (service_turns w)]|].
  turn_all.
Qed.
