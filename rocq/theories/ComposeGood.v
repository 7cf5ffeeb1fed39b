(** [ComposeCodec] is good, up to [volumes_from]. *)

From Coq Require Import String Ascii List NArith ZArith Bool Lia ZifyBool ZifyN ZifyNat.
Import ListNotations.
From Verif Require Import Base BaseFacts Num NumFacts Coll CollFacts TextModel PropsText VolumesModel EqModel Serde Codec CodecFacts EnumModel ScalarCodec ScalarGood CommonCodec CommonGood
  ServiceParts PartsGood MountCodec MountGood HealthModel HealthProofs ServiceCodec ServiceGood ComposeCodec.
Open Scope N_scope.

(** ** Networks, volumes, configs and secrets *)

Lemma ipam_config_good : forall w, externals_ok w -> good (ipam_config_c w). Proof. intros w O. struct ipam_config_ms. Qed.
Lemma ipam_config_clean : forall w, externals_ok w -> clean (ipam_config_c w). Proof. intros w O. struct ipam_config_ms. Qed.
#[export] Hint Resolve ipam_config_good ipam_config_clean : codec.
Lemma ipam_good : forall w, externals_ok w -> good (ipam_c w). Proof. intros w O. struct ipam_ms. Qed.
Lemma ipam_clean : forall w, externals_ok w -> clean (ipam_c w). Proof. intros w O. struct ipam_ms. Qed.
Lemma ipam_mapping : forall w, mapping (ipam_c w). Proof. intros w. apply struct_ext_mapping. Qed.
#[export] Hint Resolve ipam_good ipam_clean ipam_mapping : codec.
Lemma network_good : forall w, externals_ok w -> good (network_c w). Proof. intros w O. struct network_ms. Qed.
Lemma network_object : forall w, externals_ok w -> object $"external" (network_c w).
Proof. intros w O. apply struct_ext_object; try reflexivity; unfold network_ms; members. Qed.
Lemma network_mapping : forall w, mapping (network_c w). Proof. intros w. apply struct_ext_mapping. Qed.
Lemma top_volume_good : good top_volume_c. Proof. struct top_volume_ms. Qed.
Lemma top_volume_object : object $"external" top_volume_c. Proof. apply struct_ext_object; try reflexivity; unfold top_volume_ms; members. Qed.
Lemma top_volume_mapping : mapping top_volume_c. Proof. apply struct_ext_mapping. Qed.

Lemma config_source_good : member_good config_source_m.
Proof.
  apply group_plain_good; [unfold config_source_ms; members|unfold config_source_ms; members|reflexivity| |intros; exact I].
  intros [p|s|s] _; (split; [repeat split|reflexivity]).
Qed.
Lemma config_source_clean : member_clean config_source_m.
Proof. apply group_clean; [unfold config_source_ms; members|unfold config_source_ms; members|reflexivity|]. intros [p|s|s] _; repeat split. Qed.
Lemma secret_source_good : member_good secret_source_m.
Proof.
  apply group_plain_good; [unfold secret_source_ms; members|unfold secret_source_ms; members|reflexivity| |intros; exact I].
  intros [p|s] _; (split; [repeat split|reflexivity]).
Qed.
Lemma secret_source_clean : member_clean secret_source_m.
Proof. apply group_clean; [unfold secret_source_ms; members|unfold secret_source_ms; members|reflexivity|]. intros [p|s] _; repeat split. Qed.
#[export] Hint Resolve config_source_good config_source_clean secret_source_good secret_source_clean : codec.
Lemma config_good : good config_c. Proof. struct config_ms. Qed.
Lemma config_object : object $"external" config_c. Proof. apply struct_ext_object; try reflexivity; unfold config_ms; members. Qed.
Lemma config_mapping : mapping config_c. Proof. apply struct_ext_mapping. Qed.
Lemma secret_good : good secret_c. Proof. struct secret_ms. Qed.
Lemma secret_object : object $"external" secret_c. Proof. apply struct_ext_object; try reflexivity; unfold secret_ms; members. Qed.
Lemma secret_mapping : mapping secret_c. Proof. apply struct_ext_mapping. Qed.
Lemma external_clean : forall {A : Set} (c : codec A), object $"external" c -> clean c. Proof. intros A c. apply object_clean. Qed.
#[export] Hint Resolve network_good network_object network_mapping top_volume_good top_volume_object top_volume_mapping config_good config_object config_mapping
  secret_good secret_object secret_mapping resource_good external_clean option_good : codec.

(** ** Compose *)

Lemma include_good : good include_c. Proof. struct include_ms. Qed.
Lemma include_clean : clean include_c. Proof. struct include_ms. Qed.
Lemma include_mapping : mapping include_c. Proof. apply struct_mapping. Qed.
#[export] Hint Resolve include_good include_clean include_mapping : codec.

Lemma imap_good_if : forall {K V : Set} eqb (k : codec K) (v : codec V) (P : V -> Prop),
  (forall a b, eqb a b = true <-> a = b) -> plain k -> good k -> good_if P v -> good_if (Forall (fun e => P (snd e))) (imap_c eqb k v).
Proof.
  intros K V eqb k v P E Pl [Rk Sk _] [Rv Sv Tv]; split.
  - intros m [H D]. cbn [ser de imap_c norm].
    rewrite (collect_map_rt _ _ (fun e => (fst e, norm v (snd e))) (fun e => wf k (fst e) /\ wf v (snd e))); [| |assumption].
    + cbn [map_ok]. rewrite (imap_of_nodup eqb E); [reflexivity|]. rewrite map_map. exact D.
    + intros [a b] [Ha Hb]. unfold entry_de, entry_ser. cbn [fst snd] in *. rewrite (Rk a Ha), (Rv b Hb), (Pl a). reflexivity.
  - intros x m H F. cbn [de wf imap_c] in *. destruct x; try discriminate.
    destruct (collect (entry_de k v) l) as [r|] eqn:C; cbn [map_ok] in H; [|discriminate]. injection H as <-.
    apply (collect_sound _ (fun e => wf k (fst e) /\ (P (snd e) -> wf v (snd e)))) in C.
    + split; [|apply (imap_of_NoDup eqb E)]. rewrite Forall_forall in *. intros p Hp. assert (Fp := F p Hp). apply (imap_of_sub eqb) in Hp; [|assumption].
      destruct (C p Hp) as [C1 C2]. auto.
    + intros [a b] [a' b']. unfold entry_de. cbn [fst snd].
      destruct (de k a) eqn:Ea; cbn [bind]; [|discriminate]. destruct (de v b) eqn:Eb; cbn [bind]; [|discriminate].
      intros X. injection X as <- <-. split; [exact (Sk _ _ Ea)|exact (Sv _ _ Eb)].
  - intros m [H D]. cbn [ser norm imap_c]. f_equal. rewrite map_map. apply map_ext_Forall.
    eapply Forall_impl; [|exact H]. intros [a b] [_ Hb]. unfold entry_ser. cbn [fst snd] in *. now rewrite (Tv b Hb).
Qed.
Lemma required_back : forall n {A : Set} (c : codec A) (P : A -> Prop), good_if P c -> member_back (required n c).
Proof. intros n A c P [R _ T]. apply field_back; [|discriminate]. intros a W _. rewrite (R a W), (T a W). auto. Qed.
Lemma required_sound_if : forall n {A : Set} (c : codec A) (P : A -> Prop), good_if P c ->
  forall es a, m_de (required n c) es = Ok a -> P a -> m_wf (required n c) a.
Proof.
  intros n A c P [_ S _] es a H F. cbn [m_de m_wf required field] in *. destruct (lookup n es) as [[v|]|]; cbn [bind] in H; try discriminate. exact (S v a H F).
Qed.

Definition services_ok {w : externals} (l : list (str * service w)) : Prop := Forall (fun e => service_ok (snd e)) l.
Lemma services_good_if : forall w, externals_ok w -> good_if services_ok (smap identifier_c (service_c w)).
Proof.
  intros w O. apply (imap_good_if str_eqb identifier_c (service_c w) service_ok); [apply str_eqb_eq|auto with codec|auto with codec|now apply service_good_if].
Qed.

(** [services] is the field with number 3. *)
Definition compose_services {w : externals} (c : compose w) : list (str * service w) := nth_val 3 (compose_ms w) (fst c).
Definition compose_ok {w : externals} (c : compose w) : Prop := services_ok (compose_services c).

Lemma compose_others : forall w, externals_ok w -> others_good 3 (compose_ms w).
Proof. intros w O. unfold compose_ms. repeat (apply others_cons; [solve [auto 8 with codec]|]). apply others_here. members. Qed.
Lemma compose_backs : forall w, externals_ok w -> Forall member_back (compose_ms w).
Proof.
  intros w O. unfold compose_ms.
  repeat (apply Forall_cons; [first [solve [apply mg_back; auto 8 with codec]|exact (required_back $"services" (smap identifier_c (service_c w)) services_ok (services_good_if w O))]|]).
  apply Forall_nil.
Qed.
Lemma compose_cleans : forall w, externals_ok w -> Forall member_clean (compose_ms w).
Proof. intros w O. assert (C := service_clean w O). unfold compose_ms. members. Qed.
Lemma compose_good_if : forall w, externals_ok w -> good_if compose_ok (compose_c w).
Proof.
  intros w O. unfold compose_c. apply (struct_ext_good_if (compose_ms w) (fun v => services_ok (nth_val 3 (compose_ms w) v))).
  - now apply compose_backs.
  - apply (nth_members_sound_if (compose_ms w) 3 services_ok); [now apply compose_others|].
    exact (required_sound_if $"services" (smap identifier_c (service_c w)) services_ok (services_good_if w O)).
  - reflexivity.
  - reflexivity.
Qed.
Lemma compose_clean : forall w, externals_ok w -> clean (compose_c w).
Proof. intros w O. apply struct_ext_clean_back; [now apply compose_backs|now apply compose_cleans|reflexivity|reflexivity]. Qed.
