(** The codecs read more when more is seen: down the types of the crate, following [NodeModel]. *)

From Coq Require Import String Ascii List NArith ZArith Bool Lia.
Import ListNotations.
From Verif Require Import Base BaseFacts Num Coll CollFacts VolumesModel TextModel EqModel Serde Codec EnumModel ScalarCodec CommonCodec ServiceParts MountCodec HealthModel
  ServiceCodec ComposeCodec NodeModel NodeSpec NodeFacts.
Open Scope N_scope.

Lemma fields_hit : forall n h r, fields ((n, h) :: r) n = h.
Proof. intros n h r. cbn [fields]. now rewrite (proj2 (str_eqb_eq n n) eq_refl). Qed.
Lemma fields_miss : forall n h r k, str_eqb k n = false -> fields ((n, h) :: r) k = fields r k.
Proof. intros n h r k E. cbn [fields]. now rewrite E. Qed.
Lemma fields_none : forall k, fields [] k = HAny.
Proof. reflexivity. Qed.

(** The same by number, for a long table. *)
Fixpoint number (t : list (str * hint)) (k : str) : option nat :=
  match t with [] => None | (n, _) :: r => if str_eqb k n then Some O else option_map S (number r k) end.
Lemma fields_number : forall t k, fields t k = match number t k with Some i => snd (nth i t ([], HAny)) | None => HAny end.
Proof.
  induction t as [|[n h] t IH]; intros k; [reflexivity|]. cbn [fields number]. destruct (str_eqb k n); [reflexivity|]. rewrite IH. now destruct (number t k).
Qed.
Lemma fields_found : forall t k i h, number t k = Some i -> snd (nth i t ([], HAny)) = h -> fields t k = h.
Proof. intros t k i h N H. rewrite fields_number, N. exact H. Qed.
Lemma fields_missing : forall t k, number t k = None -> fields t k = HAny.
Proof. intros t k N. now rewrite fields_number, N. Qed.

Ltac find_field := lazymatch goal with
  | |- fields [] _ = _ => apply fields_none
  | |- fields ((?n, ?h) :: ?r) ?n = _ => apply fields_hit
  | |- fields ((?n, ?h) :: ?r) ?k = _ => etransitivity; [apply fields_miss; vm_compute; reflexivity|find_field]
  | |- fields service_t ?k = _ =>
      let i := eval vm_compute in (number service_t k) in
      lazymatch i with
      | Some ?i => eapply (fields_found service_t k i); [vm_compute; reflexivity|]; cbv delta [service_t] beta; cbn [nth]; unfold text_field; cbn [snd]; reflexivity
      | None => apply fields_missing; vm_compute; reflexivity
      end
  | |- fields (text_field ?n :: ?r) ?k = ?x => change (fields ((n, HOption HText) :: r) k = x); find_field
  | |- fields (driver_opts_h :: ?r) ?k = ?x => change (fields (($"driver_opts", HMap HAny) :: r) k = x); find_field
  end.
Ltac reads := first [apply text_string | apply text_text | apply text_enum].

(** The next constructor of a hint or a codec. *)
Ltac head_of x := lazymatch x with ?f _ => head_of f | ?f => f end.
Ltac open_hint := lazymatch goal with |- monotone ?c ?h =>
  lazymatch h with struct _ => fail | _ => let f := head_of h in let h' := eval cbv delta [f] in h in let h' := eval cbv beta in h' in
    lazymatch h' with h => fail | _ => change (monotone c h') end end end.
Ltac open_codec := lazymatch goal with |- monotone ?c ?h =>
  let f := head_of c in let c' := eval cbv delta [f] in c in let c' := eval cbv beta in c' in lazymatch c' with c => fail | _ => change (monotone c' h) end end.

(** [known] proves what is known of parts which have lemmas of their own. *)
Ltac mono known := lazymatch goal with
  | |- monotone _ HAny => apply mono_any
  | |- monotone list_or_map_c _ => apply mono_list_or_map
  | |- monotone vmap_c _ => apply mono_vmap
  | |- monotone (extra_hosts_c _) _ => apply mono_extra_hosts
  | |- monotone (additional_contexts_c _) _ => apply mono_additional_contexts
  | |- monotone healthcheck_c _ => apply mono_health
  | |- monotone (option_c _) (HOption _) => apply mono_option; mono known
  | |- monotone (some_c _) _ => apply mono_some; mono known
  | |- monotone (list_c _) (HSeq _) => apply mono_list; mono known
  | |- monotone (iset_c _ _) (HSeq _) => apply mono_iset; mono known
  | |- monotone (sset _) (HSeq _) => apply mono_iset; mono known
  | |- monotone (imap_c _ _ _) (HMap _) => apply mono_imap; [reads|mono known]
  | |- monotone (smap _ _) (HMap _) => apply mono_imap; [reads|mono known]
  | |- monotone (item_or_list_c _ _) (HForms _ _) => apply mono_item_or_list; mono known
  | |- monotone (short_or_long_c _ _) (HForms _ _) => apply mono_short_or_long; mono known
  | |- monotone (iso _ _ _) _ => apply mono_iso; mono known
  | |- monotone (struct_ext_c _) (struct _) => apply mono_struct_ext; [vm_compute; reflexivity|members known]
  | |- monotone (struct_ext_once_c _) (struct _) => apply mono_struct_ext_once; [vm_compute; reflexivity|members known]
  | |- monotone (struct_c _) (struct _) => apply mono_struct; members known
  | |- monotone _ HText => apply mono_text; reads
  | |- _ => first [solve [known] | open_hint; mono known | open_codec; mono known]
  end
with members known := lazymatch goal with
  | |- Forall _ [] => apply Forall_nil
  | |- Forall _ (_ :: _) => apply Forall_cons; [one_member known|members known]
  | |- Forall ?P ?ms => let l := eval hnf in ms in change (Forall P l); members known
  end
with one_member known := lazymatch goal with
  | |- m_mono _ dockerfile_m => apply m_mono_group; members known
  | |- m_mono _ (network_config_m _) => apply m_mono_group; members known
  | |- m_mono _ config_source_m => apply m_mono_group; members known
  | |- m_mono _ secret_source_m => apply m_mono_group; members known
  | |- m_mono _ credential_m => apply m_mono_group; members known
  | |- _ => eapply m_mono_field; [find_field|mono known]
  end.
Ltac no := fail.

Lemma mono_grants : monotone grants_c grants_h.
Proof. mono no. Qed.
Lemma mono_ulimits : monotone ulimits_c ulimits_h.
Proof. mono no. Qed.
Lemma mono_deploy : forall w, monotone (deploy_c w) deploy_h.
Proof. intros w. mono no. Qed.
Lemma mono_blkio : monotone blkio_config_c blkio_config_h.
Proof. mono no. Qed.
Lemma mono_credential : monotone credential_spec_c credential_spec_h.
Proof. mono no. Qed.
Lemma mono_develop : monotone develop_c develop_h.
Proof. mono no. Qed.
Lemma mono_env_file : monotone env_file_c env_file_h.
Proof. mono no. Qed.
Lemma mono_depends_on : monotone depends_on_c depends_on_h.
Proof. mono no. Qed.
Lemma mono_extends : monotone extends_c extends_h.
Proof. mono no. Qed.
Lemma mono_logging : monotone logging_c logging_h.
Proof. mono no. Qed.
Lemma mono_ports : forall w, monotone (ports_c w) ports_h.
Proof. intros w. mono no. Qed.
Ltac parts := idtac; lazymatch goal with |- monotone grants_c _ => apply mono_grants | |- monotone ulimits_c _ => apply mono_ulimits end.
Lemma mono_build : forall w, monotone (build_c w) build_h.
Proof. intros w. mono parts. Qed.
Ltac service_parts := idtac; lazymatch goal with
  | |- monotone (build_c _) _ => apply mono_build
  | |- monotone (deploy_c _) _ => apply mono_deploy
  | |- monotone blkio_config_c _ => apply mono_blkio
  | |- monotone credential_spec_c _ => apply mono_credential
  | |- monotone develop_c _ => apply mono_develop
  | |- monotone env_file_c _ => apply mono_env_file
  | |- monotone depends_on_c _ => apply mono_depends_on
  | |- monotone extends_c _ => apply mono_extends
  | |- monotone logging_c _ => apply mono_logging
  | |- monotone (ports_c _) _ => apply mono_ports
  | |- monotone grants_c _ => apply mono_grants
  | |- monotone ulimits_c _ => apply mono_ulimits
  end.
Lemma mono_service : forall w, monotone (service_c w) service_h.
Proof. intros w. mono service_parts. Qed.

Ltac name_field h := lazymatch goal with |- monotone _ ?f => let E := fresh in assert (E : f = h) by find_field; rewrite E; clear E end.
Lemma mono_network : forall w, monotone (resource_c (network_c w)) network_h.
Proof.
  intros w. apply mono_resource; [find_field| |mono no].
  name_field (HOption HText). apply mono_text_option; reads.
Qed.
Lemma mono_volume : monotone (resource_c top_volume_c) volume_h.
Proof.
  apply mono_resource; [find_field| |mono no].
  name_field (HOption HText). apply mono_text_option; reads.
Qed.
Lemma mono_config : monotone (resource_c config_c) config_h.
Proof.
  apply mono_resource; [find_field| |mono no].
  name_field HAny. apply mono_any.
Qed.
Lemma mono_secret : monotone (resource_c secret_c) secret_h.
Proof.
  apply mono_resource; [find_field| |mono no].
  name_field HAny. apply mono_any.
Qed.
Lemma mono_include : monotone include_c include_h.
Proof. mono no. Qed.
Ltac file_parts := idtac; lazymatch goal with
  | |- monotone (service_c _) _ => apply mono_service
  | |- monotone (resource_c (network_c _)) _ => apply mono_network
  | |- monotone (resource_c top_volume_c) _ => apply mono_volume
  | |- monotone (resource_c config_c) _ => apply mono_config
  | |- monotone (resource_c secret_c) _ => apply mono_secret
  | |- monotone include_c _ => apply mono_include
  end.
Lemma mono_compose : forall w, monotone (compose_c w) compose_h.
Proof. intros w. mono file_parts. Qed.
