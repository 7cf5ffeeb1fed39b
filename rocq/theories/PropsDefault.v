(** C67: an empty document is the default value, an entry that is absent gives its field the default, and each field is decided by its
    own entry alone. *)

From Coq Require Import String Ascii List NArith ZArith Bool Lia.
Import ListNotations.
From Verif Require Import Base BaseFacts Num Coll BytesModel ValuesModel PortsModel VolumesModel TextModel Serde Codec ScalarCodec EnumModel CommonCodec
  ServiceParts MountCodec HealthModel ServiceCodec ComposeCodec Schema SchemaFacts HealthProofs ComposeProofs DefaultModel NamesSpec PropsCompose.
Open Scope N_scope.

(** ** An empty document *)

(** [{}] is read as the default, and the default is written as [{}]. *)
Definition empty_default {A : Set} (c : codec A) (d : A) : Prop := de c (VMap []) = Ok d /\ ser c d = VMap [].

Theorem service_empty_default : forall w, empty_default (service_c w) (service_default w).
Proof. intros w. split; reflexivity. Qed.
Print Assumptions service_empty_default.

Theorem parts_empty_default : forall w,
  empty_default (build_c w) (build_default w) /\ empty_default (deploy_c w) (deploy_default w) /\
  empty_default (resources_c w) (resources_default w) /\ empty_default (limits_c w) (limits_default w) /\
  empty_default (reservations_c w) (reservations_default w) /\ empty_default generic_resource_c generic_resource_default /\
  empty_default discrete_resource_spec_c discrete_resource_spec_default /\ empty_default placement_c placement_default /\
  empty_default preference_c preference_default /\ empty_default restart_policy_c restart_policy_default /\
  empty_default update_config_c update_config_default /\ empty_default (service_network_c w) (service_network_default w) /\
  empty_default blkio_config_c blkio_config_default /\ empty_default healthcheck_c healthcheck_default /\
  empty_default volume_options_c volume_options_default /\ empty_default bind_options_c bind_options_default /\
  empty_default tmpfs_options_c tmpfs_options_default /\ empty_default logging_c logging_default /\ empty_default develop_c develop_default.
Proof. intros w. repeat apply conj; split; reflexivity. Qed.
Print Assumptions parts_empty_default.

Theorem top_level_empty_default : forall w,
  empty_default (network_c w) (network_default w) /\ empty_default (ipam_c w) (ipam_default w) /\
  empty_default (ipam_config_c w) (ipam_config_default w) /\ empty_default top_volume_c top_volume_default.
Proof. intros w. repeat apply conj; split; reflexivity. Qed.
Print Assumptions top_level_empty_default.

(** Three structs have a [Default] although one of their fields has to be given. Their default is written with that field, [{}] is not read, and
    what is written is read back. *)
Definition nearly_empty_default {A : Set} (c : codec A) (d : A) (es : list (sval * sval)) : Prop :=
  ser c d = VMap es /\ de c (VMap es) = Ok d /\ de c (VMap []) = Err DeError.
Theorem required_default : forall w,
  nearly_empty_default (compose_c w) (compose_default w) [(VStr $"services", VMap [])] /\
  nearly_empty_default deploy_device_c deploy_device_default [(VStr $"capabilities", VSeq [])] /\
  nearly_empty_default dependency_c dependency_default [(VStr $"condition", VStr $"service_started")].
Proof. intros w. repeat apply conj; reflexivity. Qed.
Print Assumptions required_default.

(** ** One entry *)

Definition local (m : member) : Prop := forall es es', same_entries (m_names m) es es' -> m_de m es = m_de m es'.
Lemma field_local n (A : Set) (c : codec A) d s : local (field n c d s).
Proof. intros es es' H. cbn [m_de field]. rewrite !lookup_values, (H n); [reflexivity|now left]. Qed.
Lemma members_local ms : Forall local ms -> forall es es', same_entries (names ms) es es' -> de_members ms es = de_members ms es'.
Proof.
  induction 1 as [|m ms L F IH]; intros es es' H; [reflexivity|]. cbn [de_members]. rewrite (L es es'), (IH es es'); [reflexivity| |].
  - intros n I. apply H. cbn [names flat_map]. now apply in_or_app; right.
  - intros n I. apply H. cbn [names flat_map]. now apply in_or_app; left.
Qed.
Lemma group_local (B : Set) ms wr (rd : vals ms -> result de_error B) inv nrm : Forall local ms -> local (group ms wr rd inv nrm).
Proof. intros F es es' H. cbn [m_de group] in *. now rewrite (members_local ms F es es' H). Qed.

Lemma nth_local : forall ms, Forall local ms -> forall i es es' a a', de_members ms es = Ok a -> de_members ms es' = Ok a' ->
  same_entries (nth i (map m_names ms) []) es es' -> nth_val i ms a = nth_val i ms a'.
Proof.
  induction 1 as [|m ms L F IH]; intros i es es' a a' D D' H; [reflexivity|]. cbn [de_members] in D, D'.
  apply bind_ok in D. destruct D as (x & X & D). apply bind_ok in D. destruct D as (v & V & D).
  apply bind_ok in D'. destruct D' as (x' & X' & D'). apply bind_ok in D'. destruct D' as (v' & V' & D').
  injection D as <-. injection D' as <-. destruct i as [|i]; cbn [map nth nth_val fst snd] in *.
  - specialize (L es es' H). congruence.
  - exact (IH i es es' v v' V V' H).
Qed.
Lemma struct_local : forall ms, Forall local ms -> forall i es es' a a', de (struct_ext_c ms) (VMap es) = Ok a -> de (struct_ext_c ms) (VMap es') = Ok a' ->
  same_entries (nth i (map m_names ms) []) es es' -> nth_val i ms (fst a) = nth_val i ms (fst a').
Proof.
  intros ms F i es es' a a' D D' H. cbn [de struct_ext_c] in D, D'.
  apply bind_ok in D. destruct D as (v & V & D). apply bind_ok in D. destruct D as (x & X & D).
  apply bind_ok in D'. destruct D' as (v' & V' & D'). apply bind_ok in D'. destruct D' as (x' & X' & D').
  injection D as <-. injection D' as <-. exact (nth_local ms F i es es' v v' V V' H).
Qed.
Lemma unknown_other ns es : unknown ns es = filter (other ns) es.
Proof.
  apply filter_ext. intros [[] v]; unfold other; cbn [fst key_is]; try (now replace (existsb _ ns) with false by (induction ns; auto)).
  f_equal. induction ns as [|n ns IH]; cbn [existsb]; [reflexivity|]. rewrite IH. f_equal. destruct (str_eqb_spec s n) as [->|N]; [now rewrite str_eqb_refl|].
  destruct (str_eqb_spec n s) as [->|M]; congruence.
Qed.
Lemma extensions_local : forall ms es es' a a', de (struct_ext_c ms) (VMap es) = Ok a -> de (struct_ext_c ms) (VMap es') = Ok a' ->
  same_others (names ms) es es' -> snd a = snd a'.
Proof.
  intros ms es es' a a' D D' H. cbn [de struct_ext_c] in D, D'. rewrite unknown_other in D, D'. rewrite H in D.
  apply bind_ok in D. destruct D as (v & V & D). apply bind_ok in D. destruct D as (x & X & D).
  apply bind_ok in D'. destruct D' as (v' & V' & D'). apply bind_ok in D'. destruct D' as (x' & X' & D').
  injection D as <-. injection D' as <-. cbn [snd]. congruence.
Qed.

Ltac locals := repeat (apply Forall_cons; [first [apply field_local | apply group_local; locals]|]); apply Forall_nil.
Lemma service_members_local w : Forall local (service_ms w).
Proof. unfold service_ms. locals. Qed.
Lemma compose_members_local w : Forall local (compose_ms w).
Proof. unfold compose_ms. locals. Qed.
Lemma build_members_local w : Forall local (build_ms w).
Proof. unfold build_ms. locals. Qed.
Lemma deploy_members_local w : Forall local (deploy_ms w).
Proof. unfold deploy_ms. locals. Qed.

(** Field [i] of a service is decided by the entries with its names: two documents which agree on them give it the same value, whatever
    else is in them; and the extensions are decided by the entries with other names. *)
Theorem service_fields_local : forall w es es' s s', de (service_c w) (VMap es) = Ok s -> de (service_c w) (VMap es') = Ok s' ->
  (forall i, same_entries (nth i service_names []) es es' -> nth_val i (service_ms w) (fst s) = nth_val i (service_ms w) (fst s')) /\
  (same_others (concat service_names) es es' -> snd s = snd s').
Proof.
  intros w es es' s s' D D'. split.
  - intros i H. exact (struct_local (service_ms w) (service_members_local w) i es es' s s' D D' H).
  - intros H. exact (extensions_local (service_ms w) es es' s s' D D' H).
Qed.
Print Assumptions service_fields_local.
Theorem compose_fields_local : forall w es es' s s', de (compose_c w) (VMap es) = Ok s -> de (compose_c w) (VMap es') = Ok s' ->
  (forall i, same_entries (nth i compose_names []) es es' -> nth_val i (compose_ms w) (fst s) = nth_val i (compose_ms w) (fst s')) /\
  (same_others (concat compose_names) es es' -> snd s = snd s').
Proof.
  intros w es es' s s' D D'. split.
  - intros i H. exact (struct_local (compose_ms w) (compose_members_local w) i es es' s s' D D' H).
  - intros H. exact (extensions_local (compose_ms w) es es' s s' D D' H).
Qed.
Print Assumptions compose_fields_local.
Theorem build_fields_local : forall w es es' s s', de (build_c w) (VMap es) = Ok s -> de (build_c w) (VMap es') = Ok s' ->
  (forall i, same_entries (nth i build_names []) es es' -> nth_val i (build_ms w) (fst s) = nth_val i (build_ms w) (fst s')) /\
  (same_others (concat build_names) es es' -> snd s = snd s').
Proof.
  intros w es es' s s' D D'. split.
  - intros i H. exact (struct_local (build_ms w) (build_members_local w) i es es' s s' D D' H).
  - intros H. exact (extensions_local (build_ms w) es es' s s' D D' H).
Qed.
Print Assumptions build_fields_local.
Theorem deploy_fields_local : forall w es es' s s', de (deploy_c w) (VMap es) = Ok s -> de (deploy_c w) (VMap es') = Ok s' ->
  (forall i, same_entries (nth i deploy_names []) es es' -> nth_val i (deploy_ms w) (fst s) = nth_val i (deploy_ms w) (fst s')) /\
  (same_others (concat deploy_names) es es' -> snd s = snd s').
Proof.
  intros w es es' s s' D D'. split.
  - intros i H. exact (struct_local (deploy_ms w) (deploy_members_local w) i es es' s s' D D' H).
  - intros H. exact (extensions_local (deploy_ms w) es es' s s' D D' H).
Qed.
Print Assumptions deploy_fields_local.

(** A field whose entry is absent has its default value, in any document. *)
Theorem service_absent_default : forall w es s i, de (service_c w) (VMap es) = Ok s -> (forall n, In n (nth i service_names []) -> values_of n es = []) ->
  nth_val i (service_ms w) (fst s) = nth_val i (service_ms w) (fst (service_default w)).
Proof. intros w es s i D N. exact (proj1 (service_fields_local w es [] s (service_default w) D (proj1 (service_empty_default w))) i N). Qed.
Print Assumptions service_absent_default.
Theorem build_absent_default : forall w es s i, de (build_c w) (VMap es) = Ok s -> (forall n, In n (nth i build_names []) -> values_of n es = []) ->
  nth_val i (build_ms w) (fst s) = nth_val i (build_ms w) (fst (build_default w)).
Proof. intros w es s i D N. exact (proj1 (build_fields_local w es [] s (build_default w) D (proj1 (proj1 (parts_empty_default w)))) i N). Qed.
Print Assumptions build_absent_default.
Theorem deploy_absent_default : forall w es s i, de (deploy_c w) (VMap es) = Ok s -> (forall n, In n (nth i deploy_names []) -> values_of n es = []) ->
  nth_val i (deploy_ms w) (fst s) = nth_val i (deploy_ms w) (fst (deploy_default w)).
Proof. intros w es s i D N. exact (proj1 (deploy_fields_local w es [] s (deploy_default w) D (proj1 (proj1 (proj2 (parts_empty_default w))))) i N). Qed.
Print Assumptions deploy_absent_default.
Theorem compose_absent_default : forall w es s i, de (compose_c w) (VMap es) = Ok s -> (forall n, In n (nth i compose_names []) -> values_of n es = []) ->
  nth_val i (compose_ms w) (fst s) = nth_val i (compose_ms w) (fst (compose_default w)).
Proof.
  intros w es s i D N. destruct (Nat.eq_dec i 3) as [->|Ne].
  - exfalso. assert (E := N _ (or_introl eq_refl)).
    refine (struct_nth (compose_ms w) 3 es (fun _ => False) s D _). 
    change (forall a, m_de (required $"services" (smap identifier_c (service_c w))) es = Ok a -> False). intros a. cbn [m_de required field].
    rewrite lookup_values, E. discriminate.
  - refine (proj1 (compose_fields_local w es [(VStr $"services", VMap [])] s (compose_default w) D (proj1 (proj2 (proj1 (required_default w))))) i _).
    intros n I. rewrite (N n I). destruct i as [|[|[|[|[|[|[|[|i]]]]]]]]; cbn [nth compose_names In] in I; try (destruct I as [<-|[]]; reflexivity); [now elim Ne|].
    destruct i; destruct I.
Qed.
Print Assumptions compose_absent_default.

(** A service with two entries: everything else has its default. *)
Example service_absent_ex :
  match de (service_c w0) (VMap [(VStr $"attach", VBool false); (VStr $"x-a", VNull)]) with
  | Ok s => fst s = (false, snd (fst (service_default w0))) /\ snd s = [($"x-a", VNull)]
  | Err _ => False
  end.
Proof. vm_compute. split; reflexivity. Qed.
