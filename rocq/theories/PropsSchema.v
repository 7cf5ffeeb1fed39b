(** C63: which documents are compose files. *)

From Coq Require Import String Ascii List NArith ZArith Bool Lia ZifyBool ZifyN ZifyNat.
Import ListNotations.
From Verif Require Import Base BaseFacts Serde Codec ScalarCodec CommonCodec ServiceParts ServiceCodec ComposeCodec ComposeProofs PropsCompose
  Schema SchemaText ComposeSchema SchemaFacts ComposeLoads.
Open Scope N_scope.

(** A document loads exactly if it matches the schema of [ComposeSchema]: every field of every type at every depth with
    the exact set of values it takes, which fields are required, which exclude each other, and what else may be there. *)
Theorem compose_schema : forall w v, (exists c, load w v = Ok c) <-> COMPOSE w v.
Proof. intros w v. apply loads_compose. Qed.
Print Assumptions compose_schema.
Theorem service_schema : forall w v, (exists s, de (service_c w) v = Ok s) <-> SERVICE w v.
Proof. intros w v. apply loads_service. Qed.
Print Assumptions service_schema.

(** The sample of [PropsCompose] matches the schema. *)
Example compose_schema_example : COMPOSE w0 sample.
Proof. apply compose_schema. apply accepted_ok. vm_compute. reflexivity. Qed.
(** A file of one service, shown to match without running the model, so that it loads. *)
Example compose_schema_loads : forall w, exists c, load w (VMap [(VStr $"services", VMap [(VStr $"web", VMap [(VStr $"tty", VBool true); (VStr $"x-a", VNull)])])]) = Ok c.
Proof.
  intros w. apply compose_schema. unfold COMPOSE, object. apply object_shape. split; [|split; [constructor|]].
  - repeat (apply Forall_cons; [|]); try apply Forall_nil; try reflexivity.
    exists [(VStr $"web", VMap [(VStr $"tty", VBool true); (VStr $"x-a", VNull)])]. split; [reflexivity|]. constructor; [|constructor]. split.
    + exists $"web". split; [reflexivity|]. apply (proj1 (KeysProofs.identifier_new_ok $"web" $"web")). reflexivity.
    + unfold SERVICE, object. apply object_shape. split; [|split].
      * repeat (apply Forall_cons; [|]); try apply Forall_nil; try reflexivity. now exists true.
      * constructor; [|constructor]. cbv. lia.
      * intros k x [E|[E|[]]]; injection E as <- <-; eexists; (split; [reflexivity|]).
        -- left. vm_compute. tauto.
        -- right. split; [exists $"a"; reflexivity|]. split; [vm_compute; intuition discriminate|constructor].
  - intros k x [E|[]]. injection E as <- <-. exists $"services". split; [reflexivity|]. left. vm_compute. tauto.
Qed.

(** ** Where the schema differs from the Compose Specification *)

Lemma field_given : forall es f x, field_ok es f -> In (VStr (e_name f), x) es -> e_shape f x.
Proof.
  intros es f x H I. unfold field_ok in H.
  assert (J : In x (values_of (e_name f) es)).
  { unfold values_of. apply in_map_iff. exists (VStr (e_name f), x). split; [reflexivity|]. apply filter_In. split; [exact I|]. cbn [fst key_is]. apply str_eqb_refl. }
  destruct (values_of (e_name f) es) as [|y [|z r]]; [destruct J| |destruct H]. destruct J as [->|[]]. exact H.
Qed.

(** [cpus: 2] is rejected: a number of processors has to be written with a point, or as a text. The Compose Specification
    takes any number. *)
Theorem integer_cpus_rejected : forall w es z, In (VStr $"cpus", VInt z) es -> forall s, de (service_c w) (VMap es) <> Ok s.
Proof.
  intros w es z I s H. assert (S : SERVICE w (VMap es)) by (apply service_schema; eauto). unfold SERVICE, object in S. apply object_shape in S as [F _].
  assert (C : field_ok es (maybe $"cpus" (FINITE w))) by (rewrite Forall_forall in F; apply F; cbn [In]; tauto).
  destruct (field_given _ _ _ C I) as [X|[(b & X & _)|(t & X & _)]]; discriminate.
Qed.
Print Assumptions integer_cpus_rejected.
Theorem cpus_number_refuted : forall w, exists v, v = VMap [(VStr $"cpus", VInt 2)] /\ forall s, de (service_c w) v <> Ok s.
Proof. intros w. eexists. split; [reflexivity|]. apply (integer_cpus_rejected w _ 2). now left. Qed.
Print Assumptions cpus_number_refuted.

(** [max_failure_ratio: 0.3] is rejected: only whole numbers are taken. The Compose Specification calls it a failure rate
    and takes any number. *)
Theorem fractional_failure_ratio_rejected : forall es b, In (VStr $"max_failure_ratio", VFloat b) es -> forall c, de update_config_c (VMap es) <> Ok c.
Proof.
  intros es b I c H. assert (S : UPDATE_CONFIG (VMap es)) by (apply loads_update_config; now exists c). unfold UPDATE_CONFIG, object in S. apply object_shape in S as [F _].
  assert (C : field_ok es (maybe $"max_failure_ratio" U64)) by (rewrite Forall_forall in F; apply F; cbn [In]; tauto).
  destruct (field_given _ _ _ C I) as [X|(z & X & _)]; discriminate.
Qed.
Print Assumptions fractional_failure_ratio_rejected.
Theorem failure_ratio_number_refuted : exists v, v = VMap [(VStr $"max_failure_ratio", VFloat 4599075939470750515)] /\ forall c, de update_config_c v <> Ok c.
Proof. eexists. split; [reflexivity|]. apply (fractional_failure_ratio_rejected _ 4599075939470750515). now left. Qed.
Print Assumptions failure_ratio_number_refuted.

(** An entry of [extra_hosts] which is not an address is accepted if a later one has the same host, also in a list. *)
Theorem extra_hosts_all_checked_refuted : forall w, exists l,
  In (VStr $"db=nonsense") l /\ exists m, de (extra_hosts_c w) (VSeq l) = Ok m.
Proof.
  intros w. exists [VStr $"db=nonsense"; VStr $"db=10.0.0.1"]. split; [now left|]. eexists. vm_compute. reflexivity.
Qed.
Print Assumptions extra_hosts_all_checked_refuted.
