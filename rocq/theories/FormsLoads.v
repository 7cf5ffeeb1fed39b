(** The two forms of a part, in a whole file. *)

From Coq Require Import String Ascii List NArith ZArith Bool Lia.
Import ListNotations.
From Verif Require Import Base BaseFacts Num Coll ValuesModel BytesModel PortsModel VolumesModel EqModel Serde Codec CodecFacts SchemaFacts EnumModel ScalarCodec CommonCodec ServiceParts MountCodec ServiceCodec ComposeCodec EmptyModel
  PanicSpec ChangeSpec ChangeFacts ChangeLoads SpellSpec ShortModel FormsSpec FormsModel FormsSame FormsFacts FormsItems.
Open Scope N_scope.

(** ** Reflexivity *)

Lemma both_refl : forall {A : Type} (R : A -> A -> Prop), (forall x, R x x) -> forall o, both R o o.
Proof. intros A R H [x|]; cbn [both]; auto. Qed.
Lemma same_refl : forall {A B : Type} (f : A -> B) x, same f x x.
Proof. reflexivity. Qed.
Lemma all_refl : forall {A : Type} (R : A -> A -> Prop), (forall x, R x x) -> forall l, Forall2 R l l.
Proof. intros A R H l. induction l; constructor; auto. Qed.
Lemma map_refl : forall {K V : Type} (R : V -> V -> Prop), (forall x, R x x) -> forall m : list (K * V), same_map R m m.
Proof. intros K V R H m. apply all_refl. intros e. now split. Qed.
Lemma set_refl : forall {A : Type} (eqb : A -> A -> bool) l, same_set eqb l l.
Proof. intros A eqb l. split; apply Forall_forall; intros x I; exists x; auto. Qed.
Lemma networks_refl : forall w (c : network_config w), same_networks c c.
Proof. intros w [m|n]; reflexivity. Qed.
Lemma grants_refl : forall l, Forall2 same_grant l l.
Proof. intros l. apply all_refl. reflexivity. Qed.
Lemma ulimits_refl : forall m : list (str * _), same_map same_ulimit m m.
Proof. intros m. apply map_refl. reflexivity. Qed.

Ltac reflexive_item := intros; first [reflexivity|apply networks_refl|apply all_refl; reflexivity].
Ltac reflexive := first [reflexivity|apply grants_refl|apply ulimits_refl|apply set_refl|apply both_refl; reflexive_item].
(** Field [k] is the same, or it is the one with the two forms. *)
Ltac each O S := repeat match goal with |- _ /\ _ => split end;
  lazymatch goal with |- context [nth_val ?k _ _] => first [rewrite <- (O k) by discriminate; reflexive|exact S] end.

(** ** Builds *)

Definition build_places : list nat := [2; 11; 17; 19]%nat.
Lemma build_others : forall w i (R : nth_type i (build_ms w) -> nth_type i (build_ms w) -> Prop) (b b' : ShortModel.build w), ext_related (only_at i (build_ms w) R) b b' -> In i build_places ->
  forall n, ~ In n build_places -> nth_val n (build_ms w) (fst b) = nth_val n (build_ms w) (fst b').
Proof. intros w i R b b' [[O _] _] I n N. apply O. intros ->. contradiction. Qed.
Lemma build_refl : forall w (b : ShortModel.build w), same_build b b.
Proof. intros w b. split; [reflexivity|]. split; [reflexivity|]. split; [reflexivity|]. split; [reflexivity|]. split; [apply grants_refl|apply ulimits_refl]. Qed.

Ltac build_at i lem :=
  eapply sees_impl; [apply (sees_struct_ext (build_ms _) (tidy_build _) i); split; [now left|apply m_sees_field; lem]|];
  intros b b' H; cbv beta in H; split; [apply (build_others _ i _ b b' H); cbn [In build_places]; tauto|]; destruct H as [[O S] E]; split; [exact E|]; clear E; each O S.
Lemma sees_grants : sees grants_c (Forall2 same_grant) (under_item grant_form).
Proof. apply sees_list; [reflexivity|apply sees_grant]. Qed.
Lemma sees_ulimits : sees ulimits_c (same_map same_ulimit) (under_any_key ulimit_form).
Proof. apply sees_imap; [reflexivity|apply sees_ulimit]. Qed.
Lemma sees_build_args : forall w, sees (build_c w) same_build (under_key $"args" list_form).
Proof. intros w. build_at 2%nat ltac:(apply (sees_list_or_map w)). Qed.
Lemma sees_build_labels : forall w, sees (build_c w) same_build (under_key $"labels" list_form).
Proof. intros w. build_at 11%nat ltac:(apply (sees_list_or_map w)). Qed.
Lemma sees_build_secrets : forall w, sees (build_c w) same_build (under_key $"secrets" (under_item grant_form)).
Proof. intros w. build_at 17%nat ltac:(apply sees_grants). Qed.
Lemma sees_build_ulimits : forall w, sees (build_c w) same_build (under_key $"ulimits" (under_any_key ulimit_form)).
Proof. intros w. build_at 19%nat ltac:(apply sees_ulimits). Qed.

(** The contexts are converted when they are read. *)
Lemma sees_contexts : forall w, sees (additional_contexts_c w) eq list_form.
Proof.
  intros w v v' Y H. pose proof (sees_list_or_map w v v' Y H) as S. cbn [de additional_contexts_c].
  destruct (de list_or_map_c v) as [a|], (de list_or_map_c v') as [a'|]; cbn [rrel bind] in *; try contradiction; [|exact I]. rewrite S. destruct (into_map _ a'); cbn; auto.
Qed.
Lemma sees_build_contexts : forall w, sees (build_c w) same_build (under_key $"additional_contexts" list_form).
Proof.
  intros w. eapply sees_impl; [apply (sees_struct_ext (build_ms w) (tidy_build w) 6%nat); split; [now left|apply m_sees_field; apply sees_contexts]|].
  intros b b' [[O S] E]. assert (X : forall n, nth_val n (build_ms w) (fst b) = nth_val n (build_ms w) (fst b')).
  { intros n. destruct (Nat.eq_dec n 6) as [->|N]; [exact S|exact (O n N)]. }
  split; [intros n _; apply X|]. split; [exact E|]. clear O S E. repeat match goal with |- _ /\ _ => split end; lazymatch goal with |- context [nth_val ?k _ _] => rewrite <- (X k); reflexive end.
Qed.

Definition same_any_build {w : externals} (b b' : short_or_long context (ShortModel.build w)) : Prop := same_build (into_long build_of_short b) (into_long build_of_short b').
Lemma sees_long_build : forall w Q, between_maps Q -> sees (build_c w) same_build Q -> sees (short_or_long_c (context_c w) (build_c w)) same_any_build Q.
Proof. intros w Q M H. eapply sees_impl; [apply (sees_long _ _ same_build Q M H)|]. intros [a|a] [b|b] R; cbn [long_related] in R; try contradiction. exact R. Qed.
Lemma sees_short_build : forall w, sees (short_or_long_c (context_c w) (build_c w)) same_any_build build_form.
Proof. intros w. eapply sees_impl; [apply sees_context|]. intros a b H. unfold same_any_build. rewrite H. apply build_refl. Qed.

(** ** Services *)

Definition service_places : list nat := [1; 17; 20; 25; 27; 30; 31; 34; 45; 48; 59; 67; 74; 75; 77; 80]%nat.
Lemma service_others : forall w i (R : nth_type i (service_ms w) -> nth_type i (service_ms w) -> Prop) (b b' : ServiceCodec.service w), ext_related (only_at i (service_ms w) R) b b' -> In i service_places ->
  forall n, ~ In n service_places -> nth_val n (service_ms w) (fst b) = nth_val n (service_ms w) (fst b').
Proof. intros w i R b b' [[O _] _] I n N. apply O. intros ->. contradiction. Qed.
Lemma builds_refl : forall w (o : option (short_or_long context (ShortModel.build w))), both same_any_build o o.
Proof. intros w. apply both_refl. intros b. apply build_refl. Qed.
Lemma service_refl : forall w (s : ServiceCodec.service w), same_service s s.
Proof.
  intros w s. unfold same_service. cbv zeta. split; [reflexivity|]. split; [reflexivity|].
  split; [apply builds_refl|].
  split; [apply grants_refl|].
  split; [reflexivity|].
  split; [apply both_refl; reflexivity|].
  split; [apply both_refl; reflexivity|].
  split; [apply both_refl; intros; apply all_refl; reflexivity|].
  split; [reflexivity|].
  split; [reflexivity|].
  split; [reflexivity|].
  split; [apply both_refl; apply networks_refl|].
  split; [apply set_refl|].
  split; [apply grants_refl|].
  split; [reflexivity|].
  split; [apply both_refl; reflexivity|].
  split; [apply ulimits_refl|].
  apply set_refl.
Qed.
Lemma service_changes : forall w i (R : nth_type i (service_ms w) -> nth_type i (service_ms w) -> Prop) (s s' : ServiceCodec.service w), ext_related (only_at i (service_ms w) R) s s' -> In i service_places ->
  (i = 1%nat -> both (fun b b' => same_build (into_long build_of_short b) (into_long build_of_short b')) (nth_val 1 (service_ms w) (fst s)) (nth_val 1 (service_ms w) (fst s'))) ->
  (i = 17%nat -> Forall2 same_grant (nth_val 17 (service_ms w) (fst s)) (nth_val 17 (service_ms w) (fst s'))) ->
  (i = 20%nat -> same (map_of_short dependency_default) (nth_val 20 (service_ms w) (fst s)) (nth_val 20 (service_ms w) (fst s'))) ->
  (i = 25%nat -> both (same item_into_list) (nth_val 25 (service_ms w) (fst s)) (nth_val 25 (service_ms w) (fst s'))) ->
  (i = 27%nat -> both (same item_into_list) (nth_val 27 (service_ms w) (fst s)) (nth_val 27 (service_ms w) (fst s'))) ->
  (i = 30%nat -> both (fun e e' => Forall2 (same (into_long env_file_config_of_short)) (env_file_into_list e) (env_file_into_list e')) (nth_val 30 (service_ms w) (fst s)) (nth_val 30 (service_ms w) (fst s'))) ->
  (i = 31%nat -> @same_list_or_map w (nth_val 31 (service_ms w) (fst s)) (nth_val 31 (service_ms w) (fst s'))) ->
  (i = 34%nat -> @same_list_or_map w (nth_val 34 (service_ms w) (fst s)) (nth_val 34 (service_ms w) (fst s'))) ->
  (i = 45%nat -> @same_list_or_map w (nth_val 45 (service_ms w) (fst s)) (nth_val 45 (service_ms w) (fst s'))) ->
  (i = 48%nat -> both same_networks (nth_val 48 (service_ms w) (fst s)) (nth_val 48 (service_ms w) (fst s'))) ->
  (i = 59%nat -> (fun l l' => same_set (port_eqb (w_yaml_eqb w)) (ports_long l) (ports_long l')) (nth_val 59 (service_ms w) (fst s)) (nth_val 59 (service_ms w) (fst s'))) ->
  (i = 67%nat -> Forall2 same_grant (nth_val 67 (service_ms w) (fst s)) (nth_val 67 (service_ms w) (fst s'))) ->
  (i = 74%nat -> @same_list_or_map w (nth_val 74 (service_ms w) (fst s)) (nth_val 74 (service_ms w) (fst s'))) ->
  (i = 75%nat -> both (same item_into_list) (nth_val 75 (service_ms w) (fst s)) (nth_val 75 (service_ms w) (fst s'))) ->
  (i = 77%nat -> same_map same_ulimit (nth_val 77 (service_ms w) (fst s)) (nth_val 77 (service_ms w) (fst s'))) ->
  (i = 80%nat -> (fun l l' => same_set (mount_eqb (w_yaml_eqb w)) (into_long_iter l) (into_long_iter l')) (nth_val 80 (service_ms w) (fst s)) (nth_val 80 (service_ms w) (fst s'))) ->
  same_service s s'.
Proof.
  intros w i R s s' H I H1 H17 H20 H25 H27 H30 H31 H34 H45 H48 H59 H67 H74 H75 H77 H80. unfold same_service. cbv zeta. split; [apply (service_others _ i _ s s' H I)|]. destruct H as [[O _] E]. split; [exact E|]. clear E.
  split; [destruct (Nat.eq_dec i 1) as [C|C]; [exact (H1 C)|]; assert (C' : 1%nat <> i) by congruence; rewrite <- (O 1%nat C'); apply builds_refl|].
  split; [destruct (Nat.eq_dec i 17) as [C|C]; [exact (H17 C)|]; assert (C' : 17%nat <> i) by congruence; rewrite <- (O 17%nat C'); apply grants_refl|].
  split; [destruct (Nat.eq_dec i 20) as [C|C]; [exact (H20 C)|]; assert (C' : 20%nat <> i) by congruence; rewrite <- (O 20%nat C'); reflexivity|].
  split; [destruct (Nat.eq_dec i 25) as [C|C]; [exact (H25 C)|]; assert (C' : 25%nat <> i) by congruence; rewrite <- (O 25%nat C'); apply both_refl; reflexivity|].
  split; [destruct (Nat.eq_dec i 27) as [C|C]; [exact (H27 C)|]; assert (C' : 27%nat <> i) by congruence; rewrite <- (O 27%nat C'); apply both_refl; reflexivity|].
  split; [destruct (Nat.eq_dec i 30) as [C|C]; [exact (H30 C)|]; assert (C' : 30%nat <> i) by congruence; rewrite <- (O 30%nat C'); apply both_refl; intros; apply all_refl; reflexivity|].
  split; [destruct (Nat.eq_dec i 31) as [C|C]; [exact (H31 C)|]; assert (C' : 31%nat <> i) by congruence; rewrite <- (O 31%nat C'); reflexivity|].
  split; [destruct (Nat.eq_dec i 34) as [C|C]; [exact (H34 C)|]; assert (C' : 34%nat <> i) by congruence; rewrite <- (O 34%nat C'); reflexivity|].
  split; [destruct (Nat.eq_dec i 45) as [C|C]; [exact (H45 C)|]; assert (C' : 45%nat <> i) by congruence; rewrite <- (O 45%nat C'); reflexivity|].
  split; [destruct (Nat.eq_dec i 48) as [C|C]; [exact (H48 C)|]; assert (C' : 48%nat <> i) by congruence; rewrite <- (O 48%nat C'); apply both_refl; apply networks_refl|].
  split; [destruct (Nat.eq_dec i 59) as [C|C]; [exact (H59 C)|]; assert (C' : 59%nat <> i) by congruence; rewrite <- (O 59%nat C'); apply set_refl|].
  split; [destruct (Nat.eq_dec i 67) as [C|C]; [exact (H67 C)|]; assert (C' : 67%nat <> i) by congruence; rewrite <- (O 67%nat C'); apply grants_refl|].
  split; [destruct (Nat.eq_dec i 74) as [C|C]; [exact (H74 C)|]; assert (C' : 74%nat <> i) by congruence; rewrite <- (O 74%nat C'); reflexivity|].
  split; [destruct (Nat.eq_dec i 75) as [C|C]; [exact (H75 C)|]; assert (C' : 75%nat <> i) by congruence; rewrite <- (O 75%nat C'); apply both_refl; reflexivity|].
  split; [destruct (Nat.eq_dec i 77) as [C|C]; [exact (H77 C)|]; assert (C' : 77%nat <> i) by congruence; rewrite <- (O 77%nat C'); apply ulimits_refl|].
  destruct (Nat.eq_dec i 80) as [C|C]; [exact (H80 C)|]; assert (C' : 80%nat <> i) by congruence; rewrite <- (O 80%nat C'); apply set_refl.
Qed.
Lemma sees_member : forall w i n Q R, nth_sees i (service_ms w) n Q R -> sees (service_c w) (ext_related (only_at i (service_ms w) R)) (under_key n Q).
Proof. intros w. exact (sees_struct_ext (service_ms w) (tidy_service w)). Qed.
Ltac service_at i lem :=
  eapply sees_impl; [apply (sees_member _ i); split; [left; reflexivity|lem]|];
  intros b b' HH; cbv beta in HH; apply (service_changes _ i _ b b' HH); [cbn [In service_places]; tauto|..];
  let C := fresh in intros C;
  lazymatch type of C with i = i => destruct HH as [[_ HH] _]; exact HH | _ => exfalso; clear - C; discriminate C end.
Ltac field_at i lem := service_at i ltac:(idtac; apply m_sees_field; lem).

Lemma sees_service_build : forall w Q, not_null Q -> sees (short_or_long_c (context_c w) (build_c w)) same_any_build Q -> sees (service_c w) same_service (under_key $"build" Q).
Proof. intros w Q N H. field_at 1%nat ltac:(apply sees_option; [exact N|exact H]). Qed.
Lemma sees_service_configs : forall w, sees (service_c w) same_service (under_key $"configs" (under_item grant_form)).
Proof. intros w. field_at 17%nat ltac:(apply sees_grants). Qed.
Lemma sees_service_secrets : forall w, sees (service_c w) same_service (under_key $"secrets" (under_item grant_form)).
Proof. intros w. field_at 67%nat ltac:(apply sees_grants). Qed.
Lemma sees_service_depends_on : forall w, sees (service_c w) same_service (under_key $"depends_on" depends_on_form).
Proof. intros w. field_at 20%nat ltac:(apply sees_depends_on). Qed.
Lemma single_not_null : not_null single_form.
Proof. intros v v' [H ->]. split; [|reflexivity]. now destruct v. Qed.
Lemma sees_service_dns : forall w, sees (service_c w) same_service (under_key $"dns" single_form).
Proof. intros w. field_at 25%nat ltac:(apply sees_option; [apply single_not_null|apply sees_single]). Qed.
Lemma sees_service_dns_search : forall w, sees (service_c w) same_service (under_key $"dns_search" single_form).
Proof. intros w. field_at 27%nat ltac:(apply sees_option; [apply single_not_null|apply sees_single]). Qed.
Lemma sees_service_tmpfs : forall w, sees (service_c w) same_service (under_key $"tmpfs" single_form).
Proof. intros w. field_at 75%nat ltac:(apply sees_option; [apply single_not_null|apply sees_single]). Qed.

Definition same_env_file (e e' : env_file) : Prop := Forall2 (same (into_long env_file_config_of_short)) (env_file_into_list e) (env_file_into_list e').
Lemma sees_env_file_single : sees env_file_c same_env_file single_form.
Proof. eapply sees_impl; [apply sees_single_env_file|]. intros a b H. unfold same_env_file. rewrite H. apply all_refl. reflexivity. Qed.
Lemma sees_env_file_item : sees env_file_c same_env_file (under_item env_file_form).
Proof.
  eapply sees_impl; [apply sees_items; [apply lists_under_item|apply sees_list; [|apply sees_env_file_path]; reflexivity]|].
  intros [a|a] [b|b] R; cbn [items_related] in R; try contradiction. exact R.
Qed.
Lemma item_not_null : forall Q, not_null (under_item Q).
Proof. intros Q v v' (l & y & y' & r & -> & -> & _). now split. Qed.
Lemma key_not_null : forall k Q, not_null (under_key k Q).
Proof. intros k Q v v' (l & y & y' & r & -> & -> & _). now split. Qed.
Lemma sees_service_env_file : forall w Q, not_null Q -> sees env_file_c same_env_file Q -> sees (service_c w) same_service (under_key $"env_file" Q).
Proof. intros w Q N H. field_at 30%nat ltac:(apply sees_option; [exact N|exact H]). Qed.
Lemma sees_service_environment : forall w, sees (service_c w) same_service (under_key $"environment" list_form).
Proof. intros w. field_at 31%nat ltac:(apply (sees_list_or_map w)). Qed.
Lemma sees_service_annotations : forall w, sees (service_c w) same_service (under_key $"annotations" list_form).
Proof. intros w. field_at 34%nat ltac:(apply (sees_list_or_map w)). Qed.
Lemma sees_service_labels : forall w, sees (service_c w) same_service (under_key $"labels" list_form).
Proof. intros w. field_at 45%nat ltac:(apply (sees_list_or_map w)). Qed.
Lemma sees_service_sysctls : forall w, sees (service_c w) same_service (under_key $"sysctls" list_form).
Proof. intros w. field_at 74%nat ltac:(apply (sees_list_or_map w)). Qed.
Lemma sees_service_ports : forall w, sees (service_c w) same_service (under_key $"ports" (item_becomes port_form)).
Proof. intros w. field_at 59%nat ltac:(apply sees_ports). Qed.
Lemma sees_service_ulimits : forall w, sees (service_c w) same_service (under_key $"ulimits" (under_any_key ulimit_form)).
Proof. intros w. field_at 77%nat ltac:(apply sees_ulimits). Qed.
Lemma sees_service_volumes : forall w, sees (service_c w) same_service (under_key $"volumes" (item_becomes (one volume_form))).
Proof. intros w. field_at 80%nat ltac:(apply sees_volumes). Qed.
(** The networks are one of two entries of a group. *)
Lemma sees_network_config : forall w, m_sees $"networks" networks_form (network_config_m w) (both same_networks).
Proof.
  intros w es es' Y D. pose proof (key_others _ _ _ _ D) as K. cbn [m_de network_config_m group]. unfold network_config_ms. cbn [de_members].
  assert (E : m_de (optional $"network_mode" network_mode_c) es = m_de (optional $"network_mode" network_mode_c) es').
  { cbn [m_de optional field]. rewrite !lookup_values, (K $"network_mode") by discriminate. reflexivity. }
  rewrite <- E. clear E. destruct (m_de _ es) as [o|]; cbn [bind]; [|exact I].
  assert (G : rrel (both (same (map_of_short None))) (m_de (optional $"networks" (networks_c w)) es) (m_de (optional $"networks" (networks_c w)) es')).
  { apply (m_sees_field $"networks" networks_form); [|exact Y|exact D]. apply sees_option; [|apply sees_networks]. intros v v' (l & _ & -> & ->). now split. }
  destruct (m_de _ es) as [a|], (m_de _ es') as [a'|]; cbn [rrel bind] in *; try contradiction; [|exact I].
  destruct o as [m|], a as [n|], a' as [n'|]; cbn [both network_config_read rrel] in *; try contradiction; try exact I; [reflexivity|exact G].
Qed.
Lemma sees_service_networks : forall w, sees (service_c w) same_service (under_key $"networks" networks_form).
Proof.
  intros w. eapply sees_impl; [apply (sees_member _ 48%nat); split; [right; left; reflexivity|apply sees_network_config]|].
  intros b b' HH; cbv beta in HH; apply (service_changes _ 48%nat _ b b' HH); [cbn [In service_places]; tauto|..];
  let C := fresh in intros C;
  lazymatch type of C with 48%nat = 48%nat => destruct HH as [[_ HH] _]; exact HH | _ => exfalso; clear - C; discriminate C end.
Qed.

(** ** Includes *)

Definition same_any_include (i i' : short_or_long str include) : Prop := same_include (into_long include_of_short i) (into_long include_of_short i').
Lemma include_refl : forall i, same_include i i.
Proof. intros i. split; [reflexivity|]. split; [reflexivity|]. apply both_refl. reflexivity. Qed.
Lemma sees_include_short : sees (short_or_long_c path_c include_c) same_any_include include_form.
Proof. eapply sees_impl; [apply sees_include_path|]. intros a b H. unfold same_any_include. rewrite H. apply include_refl. Qed.
Lemma sees_long_include : forall Q, between_maps Q -> sees include_c same_include Q -> sees (short_or_long_c path_c include_c) same_any_include Q.
Proof. intros Q M H. eapply sees_impl; [apply (sees_long _ _ same_include Q M H)|]. intros [a|a] [b|b] R; cbn [long_related] in R; try contradiction. exact R. Qed.
Lemma sees_include_paths : sees include_c same_include (under_key $"path" single_form).
Proof.
  eapply sees_impl; [apply (sees_struct include_ms tidy_include 0%nat); split; [left; reflexivity|apply m_sees_field; apply sees_single]|].
  intros i i' [O S]. split; [exact S|]. split; [apply O; discriminate|]. rewrite <- (O 2%nat) by discriminate. apply both_refl. reflexivity.
Qed.
Lemma sees_include_env_file : sees include_c same_include (under_key $"env_file" single_form).
Proof.
  eapply sees_impl; [apply (sees_struct include_ms tidy_include 2%nat); split; [left; reflexivity|apply m_sees_field; apply sees_option; [apply single_not_null|apply sees_single]]|].
  intros i i' [O S]. split; [unfold same; rewrite (O 0%nat) by discriminate; reflexivity|]. split; [apply O; discriminate|exact S].
Qed.

(** ** Files *)

Lemma includes_refl : forall l, Forall2 same_any_include l l.
Proof. apply all_refl. intros i. apply include_refl. Qed.
Lemma services_refl : forall w (l : list (str * ServiceCodec.service w)), same_map same_service l l.
Proof. intros w. apply map_refl. apply service_refl. Qed.
Lemma sees_file : forall w i n Q R, nth_sees i (compose_ms w) n Q R -> sees (compose_c w) (ext_related (only_at i (compose_ms w) R)) (under_key n Q).
Proof. intros w. exact (sees_struct_ext (compose_ms w) (tidy_compose w)). Qed.
Lemma sees_compose_include : forall w Q, sees (short_or_long_c path_c include_c) same_any_include Q -> sees (compose_c w) same_compose (changed [Key $"include"; AnyItem] Q).
Proof.
  intros w Q H. cbn [changed]. eapply sees_impl; [apply (sees_file w 2%nat); split; [left; reflexivity|apply m_sees_field; apply sees_list; [|exact H]; intros i; apply include_refl]|].
  intros c c' [[O S] E]. split; [intros n N; apply O; intros ->; apply N; now left|]. split; [exact E|]. split; [exact S|]. rewrite <- (O 3%nat) by discriminate. apply services_refl.
Qed.
Lemma sees_compose_service : forall w Q, sees (service_c w) same_service Q -> sees (compose_c w) same_compose (under_key $"services" (under_any_key Q)).
Proof.
  intros w Q H. eapply sees_impl; [apply (sees_file w 3%nat); split; [left; reflexivity|apply m_sees_field; apply sees_imap; [apply service_refl|exact H]]|].
  intros c c' [[O S] E]. split; [intros n N; apply O; intros ->; apply N; right; now left|]. split; [exact E|]. split; [|exact S]. rewrite <- (O 2%nat) by discriminate. apply includes_refl.
Qed.
Lemma sees_compose_build : forall w Q, not_null Q -> sees (short_or_long_c (context_c w) (build_c w)) same_any_build Q -> sees (compose_c w) same_compose (under_key $"services" (under_any_key (under_key $"build" Q))).
Proof. intros w Q N H. apply sees_compose_service, sees_service_build; [exact N|exact H]. Qed.

Theorem sees_forms : forall w p R, In (p, R) forms -> sees (compose_c w) same_compose (changed p R).
Proof.
  intros w p R H. unfold forms in H. cbn [In] in H.
  destruct H as [H|H]; [injection H as <- <-; apply (sees_compose_include w include_form); apply sees_include_short|].
  destruct H as [H|H]; [injection H as <- <-; apply (sees_compose_include w (under_key $"path" single_form)); apply sees_long_include; [apply maps_under_key|apply sees_include_paths]|].
  destruct H as [H|H]; [injection H as <- <-; apply (sees_compose_include w (under_key $"env_file" single_form)); apply sees_long_include; [apply maps_under_key|apply sees_include_env_file]|].
  destruct H as [H|H]; [injection H as <- <-; apply sees_compose_build; [intros v v' (s & -> & ->); now split|apply sees_short_build]|].
  destruct H as [H|H]; [injection H as <- <-; apply sees_compose_build; [apply key_not_null|apply sees_long_build; [apply maps_under_key|apply sees_build_args]]|].
  destruct H as [H|H]; [injection H as <- <-; apply sees_compose_build; [apply key_not_null|apply sees_long_build; [apply maps_under_key|apply sees_build_labels]]|].
  destruct H as [H|H]; [injection H as <- <-; apply sees_compose_build; [apply key_not_null|apply sees_long_build; [apply maps_under_key|apply sees_build_contexts]]|].
  destruct H as [H|H]; [injection H as <- <-; apply sees_compose_build; [apply key_not_null|apply sees_long_build; [apply maps_under_key|apply sees_build_secrets]]|].
  destruct H as [H|H]; [injection H as <- <-; apply sees_compose_build; [apply key_not_null|apply sees_long_build; [apply maps_under_key|apply sees_build_ulimits]]|].
  destruct H as [H|H]; [injection H as <- <-; apply sees_compose_service, sees_service_configs|].
  destruct H as [H|H]; [injection H as <- <-; apply sees_compose_service, sees_service_secrets|].
  destruct H as [H|H]; [injection H as <- <-; apply sees_compose_service, sees_service_depends_on|].
  destruct H as [H|H]; [injection H as <- <-; apply sees_compose_service, sees_service_dns|].
  destruct H as [H|H]; [injection H as <- <-; apply sees_compose_service, sees_service_dns_search|].
  destruct H as [H|H]; [injection H as <- <-; apply sees_compose_service, sees_service_tmpfs|].
  destruct H as [H|H]; [injection H as <- <-; apply sees_compose_service, sees_service_env_file; [apply single_not_null|apply sees_env_file_single]|].
  destruct H as [H|H]; [injection H as <- <-; apply sees_compose_service, sees_service_env_file; [apply item_not_null|apply sees_env_file_item]|].
  destruct H as [H|H]; [injection H as <- <-; apply sees_compose_service, sees_service_environment|].
  destruct H as [H|H]; [injection H as <- <-; apply sees_compose_service, sees_service_annotations|].
  destruct H as [H|H]; [injection H as <- <-; apply sees_compose_service, sees_service_labels|].
  destruct H as [H|H]; [injection H as <- <-; apply sees_compose_service, sees_service_sysctls|].
  destruct H as [H|H]; [injection H as <- <-; apply sees_compose_service, sees_service_networks|].
  destruct H as [H|H]; [injection H as <- <-; apply sees_compose_service, sees_service_ports|].
  destruct H as [H|H]; [injection H as <- <-; apply sees_compose_service, sees_service_ulimits|].
  destruct H as [H|[]]; injection H as <- <-; apply sees_compose_service, sees_service_volumes.
Qed.
