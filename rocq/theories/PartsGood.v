(** The codecs of [ServiceParts] are good. *)

From Coq Require Import String Ascii List NArith ZArith Bool Lia ZifyBool ZifyN ZifyNat.
Import ListNotations.
From Verif Require Import Base BaseFacts Num NumFacts Coll CollFacts Regex KeysSpec KeysModel KeysProofs BytesModel BytesProofs IpModel IpProofs NetModel TextModel
  ValuesModel ListMapProofs VolumesModel BuildModel PlatformModel ImageModel Serde Codec CodecFacts EnumModel PropsEnum ScalarCodec ScalarGood CommonCodec CommonGood ServiceParts.
Open Scope N_scope.

#[export] Hint Resolve required_good optional_good given_good many_list_good flag_good flag_true_good imap_nn : codec.
#[export] Hint Resolve required_plain optional_plain given_plain many_plain : codec.
Lemma flag_plain : forall n, member_plain (flag n). Proof. intros n []; reflexivity. Qed.
Lemma flag_true_plain : forall n, member_plain (flag_true n). Proof. intros n []; reflexivity. Qed.
Lemma many_iset_good' : forall n {A : Set} eqb (c : codec A), leaf c -> member_good (many n (iset_c eqb c)).
Proof. intros n A eqb c []. now apply many_iset_good. Qed.
Lemma iset_leaf_good : forall {A : Set} eqb (c : codec A), leaf c -> good (iset_c eqb c).
Proof. intros A eqb c []. now apply iset_good. Qed.
Lemma iset_plain : forall {A : Set} eqb (c : codec A), plain (iset_c eqb c). Proof. intros A eqb c a. reflexivity. Qed.
#[export] Hint Resolve flag_plain flag_true_plain many_iset_good' iset_leaf_good iset_plain : codec.

(** A list of members, one by one. *)
Ltac members :=
  lazymatch goal with
  | |- Forall _ (_ :: _) => apply Forall_cons; [solve [auto 8 with codec]|members]
  | |- Forall _ [] => apply Forall_nil
  | |- Forall _ ?l => let h := eval cbv delta [l] in l in idtac
  end.
Ltac struct d := first [apply struct_good|apply struct_ext_good|apply struct_ext_once_good|apply struct_clean|apply struct_ext_clean|apply struct_ext_once_clean
  |apply struct_plain|apply struct_ext_plain|apply struct_ext_once_plain]; unfold d; try reflexivity; members.

(** ** Build *)

Lemma context_leaf : forall w, externals_ok w -> leaf (context_c w).
Proof.
  intros w (O & _ & _). apply text_leaf; unfold total, context_parse.
  - intros [p|u] W; cbn [context_show]; now rewrite W.
  - intros s a H. injection H as <-. destruct (w_url w s) eqn:E; [now apply O in E|exact E].
Qed.
#[export] Hint Resolve context_leaf : codec.

Lemma dockerfile_good : member_good dockerfile_m.
Proof.
  apply group_plain_good; [unfold dockerfile_ms; members|unfold dockerfile_ms; members|reflexivity| |intros; exact I].
  intros [[p|s]|] _; (split; [repeat split|reflexivity]).
Qed.
Lemma dockerfile_clean : member_clean dockerfile_m.
Proof.
  apply group_clean; [unfold dockerfile_ms; members|unfold dockerfile_ms; members|reflexivity|].
  intros [[p|s]|] _; repeat split.
Qed.
#[export] Hint Resolve dockerfile_good dockerfile_clean : codec.

Lemma map_key_new_wf : forall s t, map_key_new s = Ok t -> t = s /\ map_key s.
Proof.
  intros s t H. assert (E : de map_key_c (VStr s) = Ok t) by (cbn [de map_key_c text_c]; unfold from_string; now rewrite H).
  assert (W := g_sound _ (leaf_good _ map_key_leaf) _ _ E). assert (X : t = s); [|now subst].
  unfold map_key_new in H. destruct s; [discriminate|]. destruct (contains _ _); [discriminate|]. congruence.
Qed.

Lemma additional_contexts_good : forall w, externals_ok w -> good (additional_contexts_c w).
Proof.
  intros w O. assert (G : good (smap map_key_c (context_c w))) by auto with codec.
  apply plain_good; [intros a; reflexivity| |].
  - intros m W. cbn [de ser wf additional_contexts_c] in *. pose (g := fun e : str * context => (fst e, Some (VString (context_show (snd e))))).
    assert (E : ser (smap map_key_c (context_c w)) m = ser list_or_map_c (LMap (map g m))).
    { cbn [ser smap imap_c list_or_map_c vmap_c]. f_equal. rewrite map_map. apply map_ext. intros [h i]. reflexivity. }
    destruct W as [F D]. assert (Wg : wf list_or_map_c (LMap (map g m))).
    { split; [|now rewrite map_map]. apply Forall_map. eapply Forall_impl; [|exact F]. intros [h i] [Hh Hi]. split; [exact Hh|exact I]. }
    rewrite E, (g_rt _ list_or_map_good _ Wg). cbn [bind norm list_or_map_c vmap_c smap imap_c]. unfold into_map, into_map_split_on.
    cbn [map_err bind]. f_equal. rewrite !map_map. rewrite (map_ext_in _ (fun e => e)); [apply map_id|]. intros [k c] I. unfold additional_context. cbn [fst snd g norm option_c option_map value_c value_show].
    f_equal. rewrite Forall_forall in F. destruct (F _ I) as [_ Wc]. destruct c; cbn [snd wf context_c text_c context_show] in *; unfold context_parse; now rewrite Wc.
  - intros v m H. cbn [de wf additional_contexts_c] in *. destruct (de list_or_map_c v) as [x|] eqn:E; cbn [bind] in H; [|discriminate].
    destruct (into_map (w_float w) x) as [y|] eqn:Ey; cbn [map_err bind] in H; [|discriminate]. injection H as <-.
    assert (K : Forall map_key (map fst y) /\ NoDup (map fst y)).
    { apply (g_sound _ list_or_map_good) in E. unfold into_map, into_map_split_on in Ey. destruct x as [l|m].
      - destruct (collect _ l) as [r|] eqn:C; cbn [map_ok] in Ey; [|discriminate]. injection Ey as <-. split; [|apply (imap_of_NoDup str_eqb str_eqb_eq)].
        apply Forall_map. apply (collect_sound _ (fun e => map_key (fst e))) in C.
        + rewrite Forall_forall in *. intros e I. apply C. now apply (imap_of_sub str_eqb str_eqb_eq) in I.
        + intros s [k o] He. unfold item_entry in He. cbn [fst]. destruct (match split_once_p _ s with Some (k, v) => (k, Some v) | None => (s, None) end) as [key t].
          destruct (map_key_new key) as [k'|] eqn:Ek; cbn [bind] in He; [|discriminate]. injection He as <- <-. now apply map_key_new_wf in Ek as [-> Ek].
      - injection Ey as <-. destruct E as [F D]. split; [|exact D]. apply Forall_map. eapply Forall_impl; [|exact F]. intros e [A _]. exact A. }
    destruct K as [K D]. split; [|rewrite map_map; exact D]. apply Forall_map. rewrite Forall_map in K. eapply Forall_impl; [|exact K]. intros [k o] A.
    cbn [additional_context fst snd]. split; [exact A|]. destruct o as [v'|].
    + unfold context_parse. destruct (w_url w _) eqn:U; cbn [wf context_c text_c]; [now apply O in U|exact U].
    + cbn [wf context_c text_c context_default]. exact (proj2 (proj2 O)).
Qed.
Lemma additional_contexts_field_good : forall n w, externals_ok w -> member_good (many n (additional_contexts_c w)).
Proof. intros n w O. apply many_good; [now apply additional_contexts_good|split; constructor|discriminate]. Qed.
Lemma additional_contexts_clean : forall w, externals_ok w -> clean (additional_contexts_c w).
Proof. intros w O. assert (A : clean (smap map_key_c (context_c w))) by auto with codec. exact A. Qed.
#[export] Hint Resolve additional_contexts_good additional_contexts_field_good additional_contexts_clean : codec.

Lemma config_or_secret_good : good config_or_secret_c. Proof. struct config_or_secret_ms. Qed.
Lemma config_or_secret_clean : clean config_or_secret_c. Proof. struct config_or_secret_ms. Qed.
Lemma config_or_secret_mapping : mapping config_or_secret_c. Proof. apply struct_ext_mapping. Qed.
#[export] Hint Resolve config_or_secret_good config_or_secret_clean config_or_secret_mapping : codec.
Lemma grants_good : good grants_c. Proof. unfold grants_c. auto 8 with codec. Qed.
Lemma grants_field_good : forall n, member_good (many n grants_c). Proof. intros n. unfold grants_c. auto 8 with codec. Qed.
Lemma grants_clean : clean grants_c. Proof. unfold grants_c. auto 8 with codec. Qed.
#[export] Hint Resolve grants_good grants_field_good grants_clean : codec.

Lemma limit_u64_leaf : leaf (limit_c u64_c). Proof. apply limit_uint_leaf. Qed.
Lemma limit_u32_leaf : leaf (limit_c u32_c). Proof. apply limit_uint_leaf. Qed.
#[export] Hint Resolve limit_u64_leaf limit_u32_leaf : codec.
Lemma ulimit_good : good ulimit_c.
Proof. apply iso_good; [struct ulimit_ms|intros [[a [b []]] x]; reflexivity]. Qed.
Lemma ulimit_clean : clean ulimit_c. Proof. apply iso_clean. struct ulimit_ms. Qed.
Lemma ulimit_mapping : mapping ulimit_c. Proof. apply iso_mapping, struct_ext_mapping. Qed.
Lemma ulimit_plain : plain ulimit_c.
Proof. apply iso_plain; [struct ulimit_ms|intros []; reflexivity]. Qed.
#[export] Hint Resolve ulimit_good ulimit_clean ulimit_mapping ulimit_plain : codec.
Lemma ulimits_good : good ulimits_c. Proof. unfold ulimits_c. auto 8 with codec. Qed.
Lemma ulimits_field_good : forall n, member_good (many n ulimits_c). Proof. intros n. unfold ulimits_c. auto 8 with codec. Qed.
Lemma ulimits_clean : clean ulimits_c. Proof. unfold ulimits_c. auto 8 with codec. Qed.
#[export] Hint Resolve ulimits_good ulimits_field_good ulimits_clean : codec.

Lemma build_good : forall w, externals_ok w -> good (build_c w). Proof. intros w O. struct build_ms. Qed.
Lemma build_clean : forall w, externals_ok w -> clean (build_c w). Proof. intros w O. struct build_ms. Qed.
Lemma build_mapping : forall w, mapping (build_c w). Proof. intros w. apply struct_ext_mapping. Qed.
#[export] Hint Resolve build_good build_clean build_mapping : codec.

(** ** Deploy *)

Lemma limits_good : forall w, good (limits_c w). Proof. intros w. struct limits_ms. Qed.
Lemma limits_clean : forall w, clean (limits_c w). Proof. intros w. struct limits_ms. Qed.
Lemma limits_mapping : forall w, mapping (limits_c w). Proof. intros w. apply struct_ext_mapping. Qed.
Lemma deploy_device_good : good deploy_device_c. Proof. struct deploy_device_ms. Qed.
Lemma deploy_device_clean : clean deploy_device_c. Proof. struct deploy_device_ms. Qed.
Lemma discrete_resource_spec_good : good discrete_resource_spec_c. Proof. struct discrete_resource_spec_ms. Qed.
Lemma discrete_resource_spec_clean : clean discrete_resource_spec_c. Proof. struct discrete_resource_spec_ms. Qed.
Lemma discrete_resource_spec_mapping : mapping discrete_resource_spec_c. Proof. apply struct_ext_mapping. Qed.
#[export] Hint Resolve limits_good limits_clean limits_mapping deploy_device_good deploy_device_clean discrete_resource_spec_good discrete_resource_spec_clean
  discrete_resource_spec_mapping : codec.
Lemma generic_resource_good : good generic_resource_c. Proof. struct generic_resource_ms. Qed.
Lemma generic_resource_clean : clean generic_resource_c. Proof. struct generic_resource_ms. Qed.
#[export] Hint Resolve generic_resource_good generic_resource_clean : codec.
Lemma reservations_good : forall w, good (reservations_c w). Proof. intros w. struct reservations_ms. Qed.
Lemma reservations_clean : forall w, clean (reservations_c w). Proof. intros w. struct reservations_ms. Qed.
Lemma reservations_mapping : forall w, mapping (reservations_c w). Proof. intros w. apply struct_ext_mapping. Qed.
#[export] Hint Resolve reservations_good reservations_clean reservations_mapping : codec.
Lemma resources_good : forall w, good (resources_c w). Proof. intros w. struct resources_ms. Qed.
Lemma resources_clean : forall w, clean (resources_c w). Proof. intros w. struct resources_ms. Qed.
Lemma resources_mapping : forall w, mapping (resources_c w). Proof. intros w. apply struct_ext_mapping. Qed.
Lemma preference_good : good preference_c. Proof. struct preference_ms. Qed.
Lemma preference_clean : clean preference_c. Proof. struct preference_ms. Qed.
#[export] Hint Resolve resources_good resources_clean resources_mapping preference_good preference_clean : codec.
Lemma placement_good : good placement_c. Proof. struct placement_ms. Qed.
Lemma placement_clean : clean placement_c. Proof. struct placement_ms. Qed.
Lemma placement_mapping : mapping placement_c. Proof. apply struct_ext_mapping. Qed.
Lemma restart_policy_good : good restart_policy_c. Proof. struct restart_policy_ms. Qed.
Lemma restart_policy_clean : clean restart_policy_c. Proof. struct restart_policy_ms. Qed.
Lemma restart_policy_mapping : mapping restart_policy_c. Proof. apply struct_ext_mapping. Qed.
Lemma update_config_good : good update_config_c. Proof. struct update_config_ms. Qed.
Lemma update_config_clean : clean update_config_c. Proof. struct update_config_ms. Qed.
Lemma update_config_mapping : mapping update_config_c. Proof. apply struct_ext_mapping. Qed.
#[export] Hint Resolve placement_good placement_clean placement_mapping restart_policy_good restart_policy_clean restart_policy_mapping update_config_good
  update_config_clean update_config_mapping : codec.
Lemma deploy_good : forall w, good (deploy_c w). Proof. intros w. struct deploy_ms. Qed.
Lemma deploy_clean : forall w, clean (deploy_c w). Proof. intros w. struct deploy_ms. Qed.
Lemma deploy_mapping : forall w, mapping (deploy_c w). Proof. intros w. apply struct_ext_mapping. Qed.
#[export] Hint Resolve deploy_good deploy_clean deploy_mapping : codec.

(** ** Networks *)

Lemma service_network_good : forall w, good (service_network_c w). Proof. intros w. struct service_network_ms. Qed.
Lemma service_network_clean : forall w, clean (service_network_c w). Proof. intros w. struct service_network_ms. Qed.
Lemma service_network_mapping : forall w, mapping (service_network_c w). Proof. intros w. apply struct_ext_mapping. Qed.
#[export] Hint Resolve service_network_good service_network_clean service_network_mapping : codec.
Lemma networks_good : forall w, good (networks_c w). Proof. intros w. unfold networks_c. auto 8 with codec. Qed.
Lemma networks_clean : forall w, clean (networks_c w). Proof. intros w. unfold networks_c. auto 8 with codec. Qed.
Lemma networks_nn : forall w, not_null (networks_c w). Proof. intros w. unfold networks_c. auto 8 with codec. Qed.
#[export] Hint Resolve networks_good networks_clean networks_nn : codec.
Lemma network_config_good : forall w, member_good (network_config_m w).
Proof.
  intros w. apply group_good; [unfold network_config_ms; members|reflexivity| | |].
  - intros [[m|n]|] W; repeat split; exact W.
  - intros [[m|n]|] W; (split; [reflexivity|]); try reflexivity.
    cbn [ser_members network_config_ms network_config_write fst snd optional m_ser field is_none option_c ser]. now rewrite (g_settled _ (networks_good w)).
  - intros [[m|] [[n|] []]] c [W1 [W2 _]] H; try discriminate; injection H as <-; first [exact W1|exact W2|exact I].
Qed.
Lemma network_config_clean : forall w, member_clean (network_config_m w).
Proof.
  intros w. apply group_clean; [unfold network_config_ms; members|unfold network_config_ms; members|reflexivity|].
  intros [[m|n]|] W; repeat split; exact W.
Qed.
#[export] Hint Resolve network_config_good network_config_clean : codec.

(** ** Others *)

Lemma bps_limit_good : good bps_limit_c. Proof. struct bps_limit_c. Qed.
Lemma bps_limit_clean : clean bps_limit_c. Proof. struct bps_limit_c. Qed.
Lemma iops_limit_good : good iops_limit_c. Proof. struct iops_limit_c. Qed.
Lemma iops_limit_clean : clean iops_limit_c. Proof. struct iops_limit_c. Qed.
Lemma weight_device_good : good weight_device_c. Proof. struct weight_device_c. Qed.
Lemma weight_device_clean : clean weight_device_c. Proof. struct weight_device_c. Qed.
#[export] Hint Resolve bps_limit_good bps_limit_clean iops_limit_good iops_limit_clean weight_device_good weight_device_clean : codec.
Lemma blkio_config_good : good blkio_config_c. Proof. struct blkio_config_ms. Qed.
Lemma blkio_config_clean : clean blkio_config_c. Proof. struct blkio_config_ms. Qed.
Lemma blkio_config_mapping : mapping blkio_config_c. Proof. apply struct_mapping. Qed.

Lemma credential_good : member_good credential_m.
Proof.
  apply group_plain_good; [unfold credential_ms; members|unfold credential_ms; members|reflexivity| |].
  - intros [i|p|s] W; (split; [repeat split; exact W|reflexivity]).
  - intros [[i|] [[p|] [[s|] []]]] c (W & _) H; try discriminate; injection H as <-; first [exact W|exact I].
Qed.
Lemma credential_clean : member_clean credential_m.
Proof.
  apply group_clean; [unfold credential_ms; members|unfold credential_ms; members|reflexivity|].
  intros [i|p|s] W; repeat split; exact W.
Qed.
#[export] Hint Resolve credential_good credential_clean : codec.
Lemma credential_spec_good : good credential_spec_c. Proof. struct credential_spec_c. Qed.
Lemma credential_spec_clean : clean credential_spec_c. Proof. struct credential_spec_c. Qed.
Lemma credential_spec_mapping : mapping credential_spec_c. Proof. apply struct_ext_once_mapping. Qed.

Lemma watch_rule_good : good watch_rule_c. Proof. struct watch_rule_ms. Qed.
Lemma watch_rule_clean : clean watch_rule_c. Proof. struct watch_rule_ms. Qed.
#[export] Hint Resolve watch_rule_good watch_rule_clean : codec.
Lemma develop_good : good develop_c. Proof. struct develop_c. Qed.
Lemma develop_clean : clean develop_c. Proof. struct develop_c. Qed.
Lemma develop_mapping : mapping develop_c. Proof. apply struct_mapping. Qed.

Lemma env_file_config_good : good env_file_config_c. Proof. struct env_file_config_c. Qed.
Lemma env_file_config_clean : clean env_file_config_c. Proof. struct env_file_config_c. Qed.
Lemma env_file_config_mapping : mapping env_file_config_c. Proof. apply struct_mapping. Qed.
#[export] Hint Resolve env_file_config_good env_file_config_clean env_file_config_mapping : codec.
Lemma env_file_good : good env_file_c. Proof. unfold env_file_c. auto 8 with codec. Qed.
Lemma env_file_clean : clean env_file_c. Proof. unfold env_file_c. auto 8 with codec. Qed.
Lemma env_file_nn : not_null env_file_c. Proof. unfold env_file_c. auto 8 with codec. Qed.

Lemma command_good : good command_c. Proof. unfold command_c. auto 8 with codec. Qed.
Lemma command_clean : clean command_c. Proof. unfold command_c. auto 8 with codec. Qed.
Lemma command_nn : not_null command_c. Proof. unfold command_c. auto 8 with codec. Qed.
Lemma dependency_good : good dependency_c. Proof. struct dependency_c. Qed.
Lemma dependency_clean : clean dependency_c. Proof. struct dependency_c. Qed.
Lemma dependency_plain : plain dependency_c. Proof. struct dependency_c. Qed.
Lemma dependency_mapping : mapping dependency_c. Proof. apply struct_mapping. Qed.
#[export] Hint Resolve dependency_good dependency_clean dependency_plain dependency_mapping : codec.
Lemma depends_on_good : good depends_on_c. Proof. unfold depends_on_c. auto 8 with codec. Qed.
Lemma depends_on_clean : clean depends_on_c. Proof. unfold depends_on_c. auto 8 with codec. Qed.
Lemma extends_good : good extends_c. Proof. struct extends_c. Qed.
Lemma extends_clean : clean extends_c. Proof. struct extends_c. Qed.
Lemma extends_mapping : mapping extends_c. Proof. apply struct_mapping. Qed.
Lemma logging_good : good logging_c. Proof. struct logging_c. Qed.
Lemma logging_clean : clean logging_c. Proof. struct logging_c. Qed.
Lemma logging_mapping : mapping logging_c. Proof. apply struct_ext_mapping. Qed.
#[export] Hint Resolve blkio_config_good blkio_config_clean blkio_config_mapping credential_spec_good credential_spec_clean credential_spec_mapping
  develop_good develop_clean develop_mapping env_file_good env_file_clean env_file_nn command_good command_clean command_nn depends_on_good depends_on_clean
  extends_good extends_clean extends_mapping logging_good logging_clean logging_mapping : codec.
