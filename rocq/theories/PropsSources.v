(** C39 and C45: groups of fields of which only one may be given. *)

From Coq Require Import String Ascii List NArith ZArith Bool Lia Permutation ZifyBool ZifyN ZifyNat.
Import ListNotations.
From Verif Require Import Base BaseFacts Num NumFacts Coll CollFacts NetModel TextModel ValuesModel VolumesModel EqModel Serde Codec CodecFacts EnumModel ScalarCodec ScalarGood
  CommonCodec CommonGood ServiceParts PartsGood MountCodec MountGood HealthModel HealthProofs OrderFacts ServiceCodec ServiceGood ComposeCodec ComposeGood ExactFacts ReadFacts ComposeProofs.
Open Scope N_scope.

(** ** An optional field *)

(** The field is given, with this value; a null counts as not given. *)
Definition gives (n : str) (es : list (sval * sval)) (v : sval) : Prop := In (VStr n, v) es /\ v <> VNull.
Definition not_given (n : str) (es : list (sval * sval)) : Prop := forall v, In (VStr n, v) es -> v = VNull.

Lemma optional_read : forall n {A : Set} (c : codec A) es, NoDup (map fst es) ->
  forall o, m_de (optional n c) es = Ok o <->
    match o with Some a => exists v, gives n es v /\ de c v = Ok a | None => not_given n es end.
Proof.
  intros n A c es D o. cbn [m_de optional field]. split.
  - intros H. apply bind_ok in H as ([v|] & L & H).
    + apply (lookup_in n es v D) in L. cbn [de option_c] in H. assert (U : forall u, In (VStr n, u) es -> u = v).
      { intros u I. apply (lookup_in n es u D) in I. apply (lookup_in n es v D) in L. congruence. }
      assert (X : v = VNull \/ v <> VNull) by (destruct v; auto; right; discriminate).
      destruct X as [->|X]; [injection H as <-; exact U|]. destruct v; try congruence; (destruct (de c _) as [a|] eqn:E; cbn [map_ok] in H; [|discriminate]; injection H as <-; eexists; split; [split; eassumption|exact E]).
    + injection H as <-. apply lookup_none in L. intros v I. elim (L v I).
  - destruct o as [a|].
    + intros (v & [I X] & E). rewrite (proj2 (lookup_in n es v D) I). cbn [bind de option_c]. destruct v; try congruence; now rewrite E.
    + intros N. destruct (lookup n es) as [[v|]|] eqn:L; cbn [bind].
      * apply (lookup_in n es v D) in L. now rewrite (N v L).
      * reflexivity.
      * assert (X : exists e, lookup n es = Err e) by eauto. apply lookup_err in X as (a & b & c' & x & y & E). exfalso. rewrite E, map_app in D. cbn [map fst] in D. apply NoDup_remove_2 in D. apply D.
        apply in_or_app. right. apply (in_map fst (b ++ (VStr n, y) :: c') (VStr n, y)). apply in_or_app. right. now left.
Qed.

(** ** C39 *)

(** What the entries of a service say about its network. *)
Definition network_is {w : externals} (es : list (sval * sval)) (o : option (network_config w)) : Prop :=
  match o with
  | Some (NcMode m) => (exists v, gives $"network_mode" es v /\ de network_mode_c v = Ok m) /\ not_given $"networks" es
  | Some (NcNetworks n) => (exists v, gives $"networks" es v /\ de (networks_c w) v = Ok n) /\ not_given $"network_mode" es
  | None => not_given $"network_mode" es /\ not_given $"networks" es
  end.
(** The pair of fields is accepted exactly if at most one of them is given and that one is acceptable by itself. *)
Theorem network_config_iff : forall w es o, NoDup (map fst es) -> m_de (network_config_m w) es = Ok o <-> network_is es o.
Proof.
  intros w es o D. change (m_de (network_config_m w) es) with (v <- de_members (network_config_ms w) es ;; network_config_read w v).
  assert (R1 := optional_read $"network_mode" network_mode_c es D). assert (R2 := optional_read $"networks" (networks_c w) es D).
  unfold network_config_ms. cbn [de_members]. split.
  - intros H. apply bind_ok in H as (v & Hv & H). apply bind_ok in Hv as (a & Ha & Hv). apply bind_ok in Hv as (u & Hu & Hv). apply bind_ok in Hu as (b & Hb & Hu).
    injection Hu as <-. injection Hv as <-. apply R1 in Ha. apply R2 in Hb. destruct a as [m|], b as [n|]; cbn [network_config_read] in H; try discriminate; injection H as <-; cbn [network_is]; auto.
  - intros H. destruct o as [[m|n]|]; cbn [network_is] in H; destruct H as [H1 H2].
    + rewrite (proj2 (R1 (Some m)) H1). cbn [bind]. rewrite (proj2 (R2 None) H2). reflexivity.
    + rewrite (proj2 (R1 None) H2). cbn [bind]. rewrite (proj2 (R2 (Some n)) H1). reflexivity.
    + rewrite (proj2 (R1 None) H1). cbn [bind]. rewrite (proj2 (R2 None) H2). reflexivity.
Qed.
Print Assumptions network_config_iff.

(** [network_config] is the member with number 48 of a service. *)
Definition service_network_config {w : externals} (s : service w) : option (network_config w) := nth_val 48 (service_ms w) (fst s).
Theorem service_network : forall w es s, NoDup (map fst es) -> de (service_c w) (VMap es) = Ok s -> network_is es (service_network_config s).
Proof.
  intros w es s D H. apply (network_config_iff w es _ D). unfold service_network_config.
  apply (struct_nth (service_ms w) 48 es (fun o => m_de (network_config_m w) es = Ok o) s H). change (forall a, m_de (network_config_m w) es = Ok a -> m_de (network_config_m w) es = Ok a). auto.
Qed.
Print Assumptions service_network.
Theorem service_network_conflict : forall w es v u s, NoDup (map fst es) -> gives $"network_mode" es v -> gives $"networks" es u -> de (service_c w) (VMap es) <> Ok s.
Proof.
  intros w es v u s D [I1 N1] [I2 N2] H. apply service_network in H; [|assumption]. destruct (service_network_config s) as [[m|n]|]; cbn [network_is] in H; destruct H as [_ H]; auto.
Qed.
Print Assumptions service_network_conflict.
(** What is written is exactly the field that was given. *)
Theorem network_config_written : forall w (o : option (network_config w)), m_ser (network_config_m w) o =
  match o with
  | Some (NcMode m) => [(VStr $"network_mode", ser network_mode_c m)]
  | Some (NcNetworks n) => [(VStr $"networks", ser (networks_c w) n)]
  | None => []
  end.
Proof. intros w [[m|n]|]; reflexivity. Qed.
Print Assumptions network_config_written.
Example network_config_example : forall w,
  m_de (network_config_m w) [(VStr $"network_mode", VStr $"service:db"); (VStr $"networks", VNull)] = Ok (Some (NcMode (NmService $"db"))) /\
  m_de (network_config_m w) [(VStr $"network_mode", VStr $"host"); (VStr $"networks", VSeq [])] = Err DeError.
Proof. split; reflexivity. Qed.

(** ** C45 *)

Definition config_source_is (es : list (sval * sval)) (s : config_source) : Prop :=
  match s with
  | CfgFile t => gives $"file" es (VStr t) /\ not_given $"environment" es /\ not_given $"content" es
  | CfgEnvironment t => not_given $"file" es /\ gives $"environment" es (VStr t) /\ not_given $"content" es
  | CfgContent t => not_given $"file" es /\ not_given $"environment" es /\ gives $"content" es (VStr t)
  end.
Definition secret_source_is (es : list (sval * sval)) (s : secret_source) : Prop :=
  match s with
  | SecFile t => gives $"file" es (VStr t) /\ not_given $"environment" es
  | SecEnvironment t => not_given $"file" es /\ gives $"environment" es (VStr t)
  end.
Lemma text_read : forall n (c : codec str) es, (c = path_c \/ c = string_c) -> NoDup (map fst es) ->
  forall o, m_de (optional n c) es = Ok o <-> match o with Some t => gives n es (VStr t) | None => not_given n es end.
Proof.
  intros n c es C D o. rewrite (optional_read n c es D o). destruct o as [t|]; [|tauto]. split.
  - intros (v & G & E). assert (v = VStr t); [|now subst]. destruct C as [->| ->]; destruct v; try discriminate; now injection E as ->.
  - intros G. exists (VStr t). split; [exact G|]. destruct C as [->| ->]; reflexivity.
Qed.
(** The source of a config is accepted exactly if one of the three fields is given, as text; it is what that field says. *)
Theorem config_source_iff : forall es s, NoDup (map fst es) -> m_de config_source_m es = Ok s <-> config_source_is es s.
Proof.
  intros es s D. change (m_de config_source_m es) with (v <- de_members config_source_ms es ;; config_source_read v).
  assert (R1 := text_read $"file" path_c es (or_introl eq_refl) D). assert (R2 := text_read $"environment" string_c es (or_intror eq_refl) D). assert (R3 := text_read $"content" string_c es (or_intror eq_refl) D).
  unfold config_source_ms. cbn [de_members]. split.
  - intros H. apply bind_ok in H as (v & Hv & H). apply bind_ok in Hv as (a & Ha & Hv). apply bind_ok in Hv as (u & Hu & Hv). apply bind_ok in Hu as (b & Hb & Hu). apply bind_ok in Hu as (t & Ht & Hu).
    apply bind_ok in Ht as (c & Hc & Ht). injection Ht as <-. injection Hu as <-. injection Hv as <-. apply R1 in Ha. apply R2 in Hb. apply R3 in Hc.
    destruct a as [a|], b as [b|], c as [c|]; cbn [config_source_read] in H; try discriminate; injection H as <-; cbn [config_source_is]; auto.
  - intros H. destruct s as [t|t|t]; cbn [config_source_is] in H; destruct H as (H1 & H2 & H3).
    + rewrite (proj2 (R1 (Some t)) H1). cbn [bind]. rewrite (proj2 (R2 None) H2). cbn [bind]. rewrite (proj2 (R3 None) H3). reflexivity.
    + rewrite (proj2 (R1 None) H1). cbn [bind]. rewrite (proj2 (R2 (Some t)) H2). cbn [bind]. rewrite (proj2 (R3 None) H3). reflexivity.
    + rewrite (proj2 (R1 None) H1). cbn [bind]. rewrite (proj2 (R2 None) H2). cbn [bind]. rewrite (proj2 (R3 (Some t)) H3). reflexivity.
Qed.
Print Assumptions config_source_iff.
Theorem secret_source_iff : forall es s, NoDup (map fst es) -> m_de secret_source_m es = Ok s <-> secret_source_is es s.
Proof.
  intros es s D. change (m_de secret_source_m es) with (v <- de_members secret_source_ms es ;; secret_source_read v).
  assert (R1 := text_read $"file" path_c es (or_introl eq_refl) D). assert (R2 := text_read $"environment" string_c es (or_intror eq_refl) D).
  unfold secret_source_ms. cbn [de_members]. split.
  - intros H. apply bind_ok in H as (v & Hv & H). apply bind_ok in Hv as (a & Ha & Hv). apply bind_ok in Hv as (u & Hu & Hv). apply bind_ok in Hu as (b & Hb & Hu).
    injection Hu as <-. injection Hv as <-. apply R1 in Ha. apply R2 in Hb.
    destruct a as [a|], b as [b|]; cbn [secret_source_read] in H; try discriminate; injection H as <-; cbn [secret_source_is]; auto.
  - intros H. destruct s as [t|t]; cbn [secret_source_is] in H; destruct H as (H1 & H2).
    + rewrite (proj2 (R1 (Some t)) H1). cbn [bind]. rewrite (proj2 (R2 None) H2). reflexivity.
    + rewrite (proj2 (R1 None) H1). cbn [bind]. rewrite (proj2 (R2 (Some t)) H2). reflexivity.
Qed.
Print Assumptions secret_source_iff.

(** The whole config: [source] and [labels], and extensions. *)
Definition config : Set := vals config_ms * extensions.
Definition config_source_of (c : config) : config_source := fst (fst c).
Definition secret : Set := vals secret_ms * extensions.
Definition secret_source_of (c : secret) : secret_source := fst (fst c).
Theorem config_source_given : forall es (c : config), NoDup (map fst es) -> de config_c (VMap es) = Ok c -> config_source_is es (config_source_of c).
Proof.
  intros es c D H. apply (config_source_iff es _ D). apply (struct_nth config_ms 0 es (fun s => m_de config_source_m es = Ok s) c H). change (forall a, m_de config_source_m es = Ok a -> m_de config_source_m es = Ok a). auto.
Qed.
Print Assumptions config_source_given.
Theorem secret_source_given : forall es (c : secret), NoDup (map fst es) -> de secret_c (VMap es) = Ok c -> secret_source_is es (secret_source_of c).
Proof.
  intros es c D H. apply (secret_source_iff es _ D). apply (struct_nth secret_ms 0 es (fun s => m_de secret_source_m es = Ok s) c H). change (forall a, m_de secret_source_m es = Ok a -> m_de secret_source_m es = Ok a). auto.
Qed.
Print Assumptions secret_source_given.
(** Writing and reading is the identity on every config which was read, if the labels were not an empty map. *)
Theorem config_round_trip : forall v c, no_empty v -> de config_c v = Ok c -> de config_c (ser config_c c) = Ok c.
Proof.
  intros v c E H. assert (G : good config_c) by auto with codec. rewrite (g_rt _ G c (g_sound _ G v c H)). f_equal. apply (config_exact v); [|assumption]. now apply full_parts, no_empty_full.
Qed.
Print Assumptions config_round_trip.
Theorem secret_round_trip : forall v c, no_empty v -> de secret_c v = Ok c -> de secret_c (ser secret_c c) = Ok c.
Proof.
  intros v c E H. assert (G : good secret_c) by auto with codec. rewrite (g_rt _ G c (g_sound _ G v c H)). f_equal. apply (secret_exact v); [|assumption]. now apply full_parts, no_empty_full.
Qed.
Print Assumptions secret_round_trip.
(** For any config at all the source comes back. *)
Theorem config_source_back : forall (c : config), wf config_c c -> exists c', de config_c (ser config_c c) = Ok c' /\ config_source_of c' = config_source_of c.
Proof. intros c W. assert (G : good config_c) by auto with codec. exists (norm config_c c). split; [exact (g_rt _ G c W)|reflexivity]. Qed.
Print Assumptions config_source_back.
Example config_source_example :
  m_de config_source_m [(VStr $"content", VStr $"a"); (VStr $"file", VNull)] = Ok (CfgContent $"a") /\
  m_de config_source_m [(VStr $"content", VStr $"a"); (VStr $"file", VStr $"b")] = Err DeError /\ m_de config_source_m [] = Err DeError.
Proof. repeat split; reflexivity. Qed.
