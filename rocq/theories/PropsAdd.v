(** C100: an attribute which is accepted by itself is accepted beside any others. *)

From Coq Require Import String Ascii List NArith ZArith Bool Lia.
Import ListNotations.
From Verif Require Import Base BaseFacts Num Coll CollFacts KeysModel Serde Codec ScalarCodec CommonCodec CodecFacts HealthProofs ChangeFacts
  ServiceParts ServiceCodec ComposeCodec Schema SchemaFacts DefaultModel NamesSpec PropsCompose PropsDefault PropsRemove.
Open Scope N_scope.

Lemma added_values : forall n k v es, values_of n (es ++ [(VStr k, v)]) = values_of n es ++ if str_eqb n k then [v] else [].
Proof. intros n k v es. unfold values_of. rewrite filter_app, map_app. cbn [filter fst key_is]. now destruct (str_eqb n k). Qed.
Definition adds (k : str) (m : member) : Prop := forall v es a b, values_of k es = [] -> m_de m es = Ok a -> m_de m [(VStr k, v)] = Ok b ->
  exists a', m_de m (es ++ [(VStr k, v)]) = Ok a'.
Lemma field_adds : forall k n {A : Set} (c : codec A) d sk, adds k (field n c d sk).
Proof.
  intros k n A c d sk v es a b N H B. cbn [m_de field] in *. rewrite !lookup_values in *. change [(VStr k, v)] with ([] ++ [(VStr k, v)]) in B. rewrite added_values in B. rewrite added_values.
  destruct (str_eqb n k) eqn:E.
  - apply str_eqb_eq in E. subst n. rewrite N. exists b. exact B.
  - rewrite app_nil_r. exists a. exact H.
Qed.
Lemma other_adds : forall k m, local m -> ~ In k (m_names m) -> adds k m.
Proof.
  intros k m L N v es a b _ H _. exists a. rewrite <- H. apply L. intros n I. rewrite added_values. destruct (str_eqb n k) eqn:E; [|apply app_nil_r]. apply str_eqb_eq in E. subst n. contradiction.
Qed.
Lemma members_add : forall k ms v es a b, Forall (adds k) ms -> values_of k es = [] -> de_members ms es = Ok a -> de_members ms [(VStr k, v)] = Ok b ->
  exists a', de_members ms (es ++ [(VStr k, v)]) = Ok a'.
Proof.
  intros k ms v es a b F N. revert a b. induction F as [|m r D F IH]; intros a b H B; cbn [de_members] in *; [now exists tt|].
  apply bind_ok in H as (x & X & H). apply bind_ok in H as (u & U & _). apply bind_ok in B as (y & Y & B). apply bind_ok in B as (t & T & _).
  destruct (D v es x y N X Y) as [x' X']. destruct (IH u t U T) as [u' U']. exists (x', u'). now rewrite X', U'.
Qed.
Lemma imap_last : forall (l : list (str * sval)) k v, ~ In k (map fst l) -> imap_of str_eqb (l ++ [(k, v)]) = imap_of str_eqb l ++ [(k, v)].
Proof.
  intros l k v N. unfold imap_of at 1. rewrite fold_left_app. cbn [fold_left fst snd]. change (fold_left (fun m p => imap_insert str_eqb m (fst p) (snd p)) l []) with (imap_of str_eqb l).
  apply (imap_insert_new str_eqb str_eqb_eq). intros J. apply N. apply in_map_iff in J as (e & E & I). apply in_map_iff. exists e. split; [exact E|exact (imap_of_sub str_eqb str_eqb_eq l e I)].
Qed.
Lemma unknown_keys : forall ns k us es, us = unknown ns es -> values_of k es = [] -> ~ In (VStr k) (map fst us).
Proof.
  intros ns k us es -> N I. apply in_map_iff in I as ([x v] & E & I). cbn [fst] in E. subst x. apply filter_In in I as [I _].
  assert (J : In v (values_of k es)). { unfold values_of. apply in_map_iff. exists (VStr k, v). split; [reflexivity|]. apply filter_In. split; [exact I|]. cbn [fst key_is]. apply str_eqb_refl. }
  rewrite N in J. exact J.
Qed.
Lemma entry_keys : forall us l, collect ext_entry us = Ok l -> map fst us = map (fun e => VStr (fst e)) l.
Proof.
  induction us as [|e r IH]; intros l H; cbn [collect] in H; [injection H as <-; reflexivity|]. apply bind_ok in H as ([n v] & E & H). apply bind_ok in H as (t & T & H). injection H as <-.
  cbn [map fst]. now rewrite (entry_key e n v E), (IH t T).
Qed.
Lemma struct_added : forall k v ms es s t, Forall (adds k) ms -> values_of k es = [] -> de (struct_ext_c ms) (VMap es) = Ok s -> de (struct_ext_c ms) (VMap [(VStr k, v)]) = Ok t ->
  exists s', de (struct_ext_c ms) (VMap (es ++ [(VStr k, v)])) = Ok s' /\ snd s' = snd s ++ snd t.
Proof.
  intros k v ms es s t F N H T. cbn [de struct_ext_c] in *. apply bind_ok in H as (a & A & H). apply bind_ok in H as (x & X & H). injection H as <-.
  apply bind_ok in T as (b & B & T). apply bind_ok in T as (y & Y & T). injection T as <-. destruct (members_add k ms v es a b F N A B) as [a' A']. exists (a', x ++ y). split; [|reflexivity].
  rewrite A'. cbn [bind]. unfold ext_de in *. assert (U : unknown (names ms) (es ++ [(VStr k, v)]) = unknown (names ms) es ++ unknown (names ms) [(VStr k, v)]) by apply filter_app. rewrite U. clear U.
  destruct (collect ext_entry (unknown (names ms) es)) as [l|] eqn:C; [|discriminate X]. destruct (collect ext_entry (unknown (names ms) [(VStr k, v)])) as [l'|] eqn:C'; [|discriminate Y].
  injection X as <-. injection Y as <-. rewrite collect_app, C, C'. cbn [bind map_ok]. f_equal. f_equal.
  unfold unknown in C'. cbn [filter fst] in C'. destruct (negb (existsb (str_eqb k) (names ms))).
  - cbn [collect] in C'. apply bind_ok in C' as ([n z] & E & C'). injection C' as <-. assert (K := entry_key _ _ _ E). cbn [fst] in K. injection K as <-. apply imap_last. intros J.
    apply (unknown_keys (names ms) k _ es eq_refl N). rewrite (entry_keys _ _ C). apply in_map_iff in J as (e & J & I). apply in_map_iff. exists e. split; [now f_equal|exact I].
  - cbn [collect] in C'. injection C' as <-. now rewrite !app_nil_r.
Qed.

(** What adding the attribute [k] to an object which does not have it does: if it is accepted by itself the whole is accepted; each field whose names
    do not include [k] is unchanged; a field for which nothing else is given is as if [k] were alone; and an extension comes last. *)
Definition addable (ms : list member) (all : list (list str)) (k : str) : Prop :=
  forall v es s t, values_of k es = [] -> de (struct_ext_c ms) (VMap es) = Ok s -> de (struct_ext_c ms) (VMap [(VStr k, v)]) = Ok t ->
    exists s', de (struct_ext_c ms) (VMap (es ++ [(VStr k, v)])) = Ok s' /\
      (forall i, ~ In k (nth i all []) -> nth_val i ms (fst s') = nth_val i ms (fst s)) /\
      (forall i, (forall n, In n (nth i all []) -> values_of n es = []) -> nth_val i ms (fst s') = nth_val i ms (fst t)) /\
      snd s' = snd s ++ snd t.
Lemma same_added : forall k v ns es, ~ In k ns -> same_entries ns es (es ++ [(VStr k, v)]).
Proof. intros k v ns es N n I. rewrite added_values. destruct (str_eqb n k) eqn:E; [|now rewrite app_nil_r]. apply str_eqb_eq in E. subst n. contradiction. Qed.
Lemma alone_added : forall k v ns es, (forall n, In n ns -> values_of n es = []) -> same_entries ns (es ++ [(VStr k, v)]) [(VStr k, v)].
Proof. intros k v ns es N n I. rewrite added_values, (N n I). exact (eq_sym (added_values n k v [])). Qed.

(** [network_mode] and [networks] exclude each other, and so do [dockerfile] and [dockerfile_inline] (C39); all others may be added. *)
Theorem service_addable : forall w k, ~ In k [$"network_mode"; $"networks"] -> addable (service_ms w) service_names k.
Proof.
  intros w k K v es s t N H T. assert (F : Forall (adds k) (service_ms w)).
  { assert (L : adds k (network_config_m w)) by (apply other_adds; [apply group_local; repeat (apply Forall_cons; [apply field_local|]); apply Forall_nil|exact K]).
    unfold service_ms. repeat (apply Forall_cons; [first [apply field_adds | exact L]|]). apply Forall_nil. }
  destruct (struct_added k v (service_ms w) es s t F N H T) as (s' & H' & X). exists s'. split; [exact H'|]. split; [|split; [|exact X]].
  - intros i J. symmetry. exact (proj1 (service_fields_local w es (es ++ [(VStr k, v)]) s s' H H') i (same_added k v _ es J)).
  - intros i J. exact (proj1 (service_fields_local w (es ++ [(VStr k, v)]) [(VStr k, v)] s' t H' T) i (alone_added k v _ es J)).
Qed.
Print Assumptions service_addable.
Theorem build_addable : forall w k, ~ In k [$"dockerfile"; $"dockerfile_inline"] -> addable (build_ms w) build_names k.
Proof.
  intros w k K v es s t N H T. assert (F : Forall (adds k) (build_ms w)).
  { assert (L : adds k dockerfile_m) by (apply other_adds; [apply group_local; repeat (apply Forall_cons; [apply field_local|]); apply Forall_nil|exact K]).
    unfold build_ms. repeat (apply Forall_cons; [first [apply field_adds | exact L]|]). apply Forall_nil. }
  destruct (struct_added k v (build_ms w) es s t F N H T) as (s' & H' & X). exists s'. split; [exact H'|]. split; [|split; [|exact X]].
  - intros i J. symmetry. exact (proj1 (build_fields_local w es (es ++ [(VStr k, v)]) s s' H H') i (same_added k v _ es J)).
  - intros i J. exact (proj1 (build_fields_local w (es ++ [(VStr k, v)]) [(VStr k, v)] s' t H' T) i (alone_added k v _ es J)).
Qed.
Print Assumptions build_addable.
Theorem deploy_addable : forall w k, addable (deploy_ms w) deploy_names k.
Proof.
  intros w k v es s t N H T. assert (F : Forall (adds k) (deploy_ms w)).
  { unfold deploy_ms. repeat (apply Forall_cons; [apply field_adds|]). apply Forall_nil. }
  destruct (struct_added k v (deploy_ms w) es s t F N H T) as (s' & H' & X). exists s'. split; [exact H'|]. split; [|split; [|exact X]].
  - intros i J. symmetry. exact (proj1 (deploy_fields_local w es (es ++ [(VStr k, v)]) s s' H H') i (same_added k v _ es J)).
  - intros i J. exact (proj1 (deploy_fields_local w (es ++ [(VStr k, v)]) [(VStr k, v)] s' t H' T) i (alone_added k v _ es J)).
Qed.
Print Assumptions deploy_addable.
(** For the others it is false. *)
Theorem all_addable_refuted : exists w, ~ addable (service_ms w) service_names $"networks" /\ ~ addable (service_ms w) service_names $"network_mode" /\
  ~ addable (build_ms w) build_names $"dockerfile" /\ ~ addable (build_ms w) build_names $"dockerfile_inline".
Proof.
  exists w0.
  assert (G : forall ms all k v es, values_of k es = [] -> accepted (de (struct_ext_c ms) (VMap es)) = true -> accepted (de (struct_ext_c ms) (VMap [(VStr k, v)])) = true ->
    accepted (de (struct_ext_c ms) (VMap (es ++ [(VStr k, v)]))) = false -> ~ addable ms all k).
  { intros ms all k v es N A B C R. destruct (accepted_ok _ A) as [s S]. destruct (accepted_ok _ B) as [t T]. destruct (R v es s t N S T) as (s' & S' & _). rewrite S' in C. discriminate C. }
  split; [|split; [|split]].
  - apply (G _ _ _ (VSeq [VStr $"front"]) [(VStr $"network_mode", VStr $"host")]); vm_compute; reflexivity.
  - apply (G _ _ _ (VStr $"host") [(VStr $"networks", VSeq [VStr $"front"])]); vm_compute; reflexivity.
  - apply (G _ _ _ (VStr $"a") [(VStr $"dockerfile_inline", VStr $"FROM b")]); vm_compute; reflexivity.
  - apply (G _ _ _ (VStr $"FROM b") [(VStr $"dockerfile", VStr $"a")]); vm_compute; reflexivity.
Qed.
Print Assumptions all_addable_refuted.

(** Concrete case. *)
Example addable_case :
  match de (service_c w0) (VMap two_of_each), de (service_c w0) (VMap (two_of_each ++ [(VStr $"x-c", VBool true)])), de (service_c w0) (VMap (two_of_each ++ [(VStr $"init", VBool true)])) with
  | Ok s, Ok s', Ok s'' => snd s' = snd s ++ [($"x-c", VBool true)] /\ snd s'' = snd s /\ nth_val 48 (service_ms w0) (fst s'') = nth_val 48 (service_ms w0) (fst s)
  | _, _, _ => False
  end.
Proof. vm_compute. split; [reflexivity|]. split; reflexivity. Qed.
