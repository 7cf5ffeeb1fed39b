(** C102: attributes which exclude each other. *)

From Coq Require Import String Ascii List NArith ZArith Bool.
Import ListNotations.
From Verif Require Import Base BaseFacts Num Coll CollFacts KeysModel ValidateModel Serde Codec ScalarCodec CommonCodec CodecFacts HealthProofs ChangeFacts ServiceParts ServiceCodec ComposeCodec Schema SchemaFacts NamesSpec PropsCompose
  ComposeView DocumentSpec PropsDocument PropsDefined PropsRemove PropsAdd AgreeSpec ConflictSpec.
Open Scope N_scope.

(** Any [ports] go with any service, also with one whose [network_mode] is [host], and the validation sees no difference. *)
Theorem ports_beside_anything : forall w es s d t, values_of $"ports" es = [] -> de (service_c w) (VMap es) = Ok s -> de (service_c w) (VMap [(VStr $"ports", d)]) = Ok t ->
  exists s', de (service_c w) (VMap (es ++ [(VStr $"ports", d)])) = Ok s' /\ service_view s' = service_view s.
Proof.
  intros w es s d t N H T. destruct (service_addable w $"ports" (fun I => match I with or_introl e => ltac:(discriminate e) | or_intror (or_introl e) => ltac:(discriminate e) | or_intror (or_intror f) => f end)
    d es s t N H T) as (s' & H' & F & _). exists s'. split; [exact H'|]. unfold service_view.
  rewrite (F 48%nat), (F 80%nat), (F 17%nat), (F 67%nat); [reflexivity|..]; vm_compute; intuition discriminate.
Qed.
Print Assumptions ports_beside_anything.

(** Any [count] goes with any device, also with one which has [device_ids]; and conversely. *)
Definition takes (k : str) (v : sval) (m : member) : Prop := forall es a, values_of k es = [] -> m_de m es = Ok a -> exists a', m_de m (es ++ [(VStr k, v)]) = Ok a'.
Lemma field_takes : forall k v n {A : Set} (c : codec A) d sk, (n = k -> exists a, de c v = Ok a) -> takes k v (field n c d sk).
Proof.
  intros k v n A c d sk C es a N H. cbn [m_de field] in *. rewrite lookup_values in *. rewrite added_values. destruct (str_eqb n k) eqn:E.
  - apply str_eqb_eq in E. destruct (C E) as [x X]. subst n. rewrite N. cbn [app]. exists x. exact X.
  - rewrite app_nil_r. exists a. exact H.
Qed.
Lemma members_take : forall k v ms es a, Forall (takes k v) ms -> values_of k es = [] -> de_members ms es = Ok a -> exists a', de_members ms (es ++ [(VStr k, v)]) = Ok a'.
Proof.
  intros k v ms es a F N. revert a. induction F as [|m r D F IH]; intros a H; cbn [de_members] in *; [now exists tt|].
  apply bind_ok in H as (x & X & H). apply bind_ok in H as (u & U & _). destruct (D es x N X) as [x' X']. destruct (IH u U) as [u' U']. exists (x', u'). now rewrite X', U'.
Qed.
Lemma struct_takes : forall k v ms es s, Forall (takes k v) ms -> existsb (str_eqb k) (names ms) = true -> values_of k es = [] -> de (struct_ext_c ms) (VMap es) = Ok s ->
  exists s', de (struct_ext_c ms) (VMap (es ++ [(VStr k, v)])) = Ok s' /\ snd s' = snd s.
Proof.
  intros k v ms es s F K N H. cbn [de struct_ext_c] in *. apply bind_ok in H as (a & A & H). apply bind_ok in H as (x & X & H). injection H as <-.
  destruct (members_take k v ms es a F N A) as [a' A']. exists (a', x). split; [|reflexivity]. rewrite A'. cbn [bind].
  assert (U : unknown (names ms) (es ++ [(VStr k, v)]) = unknown (names ms) es).
  { unfold unknown. rewrite filter_app. cbn [filter fst]. rewrite K. apply app_nil_r. }
  unfold ext_de in *. rewrite U, X. reflexivity.
Qed.
Theorem count_beside_anything : forall es s v n, values_of $"count" es = [] -> de deploy_device_c (VMap es) = Ok s -> de (option_c count_c) v = Ok n ->
  exists s', de deploy_device_c (VMap (es ++ [(VStr $"count", v)])) = Ok s'.
Proof.
  intros es s v n N H C. destruct (struct_takes $"count" v deploy_device_ms es s) as (s' & H' & _); [|reflexivity|exact N|exact H|exists s'; exact H'].
  unfold deploy_device_ms. repeat (apply Forall_cons; [apply field_takes; intros E; first [exists n; exact C | discriminate E]|]). apply Forall_nil.
Qed.
Print Assumptions count_beside_anything.
Theorem device_ids_beside_anything : forall es s v i, values_of $"device_ids" es = [] -> de deploy_device_c (VMap es) = Ok s -> de (sset string_c) v = Ok i ->
  exists s', de deploy_device_c (VMap (es ++ [(VStr $"device_ids", v)])) = Ok s'.
Proof.
  intros es s v n N H C. destruct (struct_takes $"device_ids" v deploy_device_ms es s) as (s' & H' & _); [|reflexivity|exact N|exact H|exists s'; exact H'].
  unfold deploy_device_ms. repeat (apply Forall_cons; [apply field_takes; intros E; first [exists n; exact C | discriminate E]|]). apply Forall_nil.
Qed.
Print Assumptions device_ids_beside_anything.

(** So a file with such a conflict is loaded and passes the validation; each of the two kinds, by itself. *)
Definition host_doc : sval := VMap [(VStr $"services", VMap [(VStr $"web", VMap [(VStr $"network_mode", VStr $"host"); (VStr $"ports", VSeq [VStr $"8080:80"])])])].
Definition gpu_doc : sval :=
  VMap [(VStr $"services", VMap [(VStr $"web", VMap [(VStr $"deploy", VMap [(VStr $"resources", VMap [(VStr $"reservations", VMap [(VStr $"devices", VSeq [
    VMap [(VStr $"capabilities", VSeq [VStr $"gpu"]); (VStr $"count", VInt 1); (VStr $"device_ids", VSeq [VStr $"0"; VStr $"3"])]])])])])])])].
Theorem host_ports_refuted : exists w v (c : compose w), load w v = Ok c /\ validate_all (compose_view c) = Ok tt /\ exists name s, has_service v name s /\ ports_on_host s.
Proof.
  exists w0, host_doc.
  assert (C : match load w0 host_doc with Ok c => Some (validate_all (compose_view c)) | Err _ => None end = Some (Ok tt)) by (vm_compute; reflexivity).
  destruct (load w0 host_doc) as [c|]; [|discriminate C]. exists c. split; [reflexivity|]. split; [exact (some_eq _ _ _ C)|].
  exists $"web". eexists. split; [exact (only_service _)|]. do 2 eexists. split; cbn [at_path]; repeat (eexists; split; [eexists; split; reflexivity|]); reflexivity.
Qed.
Print Assumptions host_ports_refuted.
Theorem device_conflict_refuted : exists w v (c : compose w), load w v = Ok c /\ validate_all (compose_view c) = Ok tt /\
  exists name s d, has_service v name s /\ reserves s d /\ number_and_names d.
Proof.
  exists w0, gpu_doc.
  assert (C : match load w0 gpu_doc with Ok c => Some (validate_all (compose_view c)) | Err _ => None end = Some (Ok tt)) by (vm_compute; reflexivity).
  destruct (load w0 gpu_doc) as [c|]; [|discriminate C]. exists c. split; [reflexivity|]. split; [exact (some_eq _ _ _ C)|].
  exists $"web". eexists. eexists. split; [exact (only_service _)|]. split.
  - eexists. split; [cbn [at_path]; repeat (eexists; split; [eexists; split; reflexivity|]); reflexivity|]. left. reflexivity.
  - do 3 eexists. split; cbn [at_path]; repeat (eexists; split; [eexists; split; reflexivity|]); reflexivity.
Qed.
Print Assumptions device_conflict_refuted.
Theorem no_conflict_refuted : exists w v (c : compose w), load w v = Ok c /\ validate_all (compose_view c) = Ok tt /\ ~ no_conflict v.
Proof.
  destruct host_ports_refuted as (w & v & c & L & V & name & s & H & P). exists w, v, c. split; [exact L|]. split; [exact V|]. intros N. exact (proj1 (N name s H) P).
Qed.
Print Assumptions no_conflict_refuted.

(** Concrete case: both files pass; the pair which is held in one enum is rejected. *)
Example conflict_case : checked w0 host_doc = Some (Ok tt) /\ checked w0 gpu_doc = Some (Ok tt) /\
  checked w0 (VMap [(VStr $"services", VMap [(VStr $"web", VMap [(VStr $"network_mode", VStr $"host"); (VStr $"networks", VSeq [VStr $"front"])])])]) = None.
Proof. split; [|split]; vm_compute; reflexivity. Qed.
