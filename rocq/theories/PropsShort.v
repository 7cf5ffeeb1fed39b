(** C44: a long form is given as short form only if expanding the short form gives it back. (Ulimits are in [PropsBytes],
    mounts in [PropsVolumes], ports in [PropsPorts].) *)

From Coq Require Import String Ascii List NArith ZArith Bool Lia.
Import ListNotations.
From Verif Require Import Base BaseFacts Num Coll CollFacts PortsModel VolumesModel ValuesModel EqModel Serde Codec CodecFacts EnumModel ScalarCodec ScalarGood CommonCodec CommonGood ServiceParts PartsGood
  MountCodec HealthModel HealthProofs ServiceCodec ComposeCodec EmptyModel EmptyProofs ShortModel.
Open Scope N_scope.

Ltac ands H := repeat (apply andb_prop in H as [H ?]).
Ltac conds := repeat match goal with
  | H : is_none ?o = true |- _ => destruct o; [discriminate H|clear H]
  | H : is_nil ?l = true |- _ => destruct l; [clear H|discriminate H]
  | H : negb ?b = true |- _ => destruct b; [discriminate H|clear H]
  end.

(** ** Exact ones *)

Theorem config_or_secret_short_exact : forall v s, config_or_secret_as_short v = Some s <-> v = config_or_secret_of_short s.
Proof.
  intros [(source & target & uid & gid & mode & []) x] s. unfold config_or_secret_as_short, config_or_secret_of_short. cbn [fst snd]. split; [|intros [=]; subst; reflexivity].
  destruct (is_none target && _ && _ && _ && _) eqn:E; [|discriminate]. intros [= ->]. ands E. conds. reflexivity.
Qed.
Print Assumptions config_or_secret_short_exact.
Theorem env_file_config_short_exact : forall v s, env_file_config_as_short v = Some s <-> v = env_file_config_of_short s.
Proof.
  intros (p & [] & []) s; unfold env_file_config_as_short, env_file_config_of_short; split; congruence.
Qed.
Print Assumptions env_file_config_short_exact.
Theorem short_ranges_short_exact : forall r s, short_ranges_as_short r = Some s <-> r = short_ranges_of_short s.
Proof. intros [[h|] c] s; unfold short_ranges_as_short, short_ranges_of_short; cbn [is_none sr_host sr_container]; split; congruence. Qed.
Print Assumptions short_ranges_short_exact.
Example short_exact_example :
  config_or_secret_as_short (($"a", (None, (Some 0, (None, (None, tt))))), []) = None /\ config_or_secret_as_short (($"a", (None, (None, (None, (None, tt))))), []) = Some $"a" /\
  env_file_config_as_short ($"a", (false, tt)) = None /\ short_ranges_as_short (mk_short_ranges None (mk_range 1 (Some 2))) = Some (mk_range 1 (Some 2)).
Proof. repeat split; reflexivity. Qed.

(** Dependencies: exactly if all options are the defaults. *)
Lemma nodup_map_of : forall {V : Set} (d : V) l, NoDup l -> map_of_short d (Short l) = map (fun k => (k, d)) l.
Proof. intros V d l D. unfold map_of_short. apply (imap_of_nodup str_eqb str_eqb_eq). rewrite map_map. cbn [fst]. now rewrite map_id. Qed.
Lemma keys_const : forall {V : Set} (d : V) m, Forall (fun e : str * V => snd e = d) m <-> m = map (fun k => (k, d)) (map fst m).
Proof.
  intros V d m. split.
  - induction 1 as [|[k v] m E F IH]; [reflexivity|]. cbn [map fst snd] in *. now rewrite E, <- IH.
  - intros ->. clear. induction (map fst m) as [|k l IH]; constructor; [reflexivity|assumption].
Qed.
Lemma dependency_eqb_eq : forall a b, dependency_eqb a b = true <-> a = b.
Proof.
  intros (c & r & q & []) (c' & r' & q' & []). unfold dependency_eqb. split.
  - intros H. apply andb_prop in H as [H Q]. apply andb_prop in H as [C R]. apply eqb_prop in R, Q. subst. destruct c, c'; now try discriminate.
  - intros [=]; subst. rewrite !eqb_reflx. now destruct c'.
Qed.
Theorem dependencies_short_exact : forall m l, NoDup (map fst m) -> dependencies_as_short m = Some l <-> NoDup l /\ m = map_of_short dependency_default (Short l).
Proof.
  intros m l D. unfold dependencies_as_short.
  assert (E : forallb (fun e : str * dependency => dependency_eqb (snd e) dependency_default) m = true <-> m = map (fun k => (k, dependency_default)) (map fst m)).
  { rewrite <- keys_const, forallb_forall, Forall_forall. split; intros H e I; apply dependency_eqb_eq, H, I. }
  split.
  - destruct (forallb _ m); [|discriminate]. intros [= <-]. split; [assumption|]. rewrite nodup_map_of by assumption. now apply E.
  - intros [N ->]. rewrite nodup_map_of in * by assumption. rewrite map_map in *. cbn [fst] in *. rewrite map_id in *. rewrite map_map in E. cbn [fst] in E. now rewrite (proj2 E eq_refl).
Qed.
Print Assumptions dependencies_short_exact.
Example dependencies_example :
  dependencies_as_short [($"b", dependency_default); ($"a", (ServiceStarted, (false, (true, tt))))] = Some [$"b"; $"a"] /\
  dependencies_as_short [($"b", dependency_default); ($"a", (ServiceStarted, (true, (true, tt))))] = None.
Proof. split; reflexivity. Qed.

(** ** Build *)

(** When nothing is written for a member, for all members. *)
Definition nil_when (m : member) (t : m_type m -> bool) : Prop := forall a, m_ser m a = [] <-> t a = true.
Fixpoint nils (ms : list member) : tests ms -> Prop :=
  match ms return tests ms -> Prop with [] => fun _ => True | m :: ms => fun t => nil_when m (fst t) /\ nils ms (snd t) end.
Lemma all_nil : forall ms t, nils ms t -> forall acc v, all_empty acc ms t v = true <-> acc = true /\ ser_members ms v = [].
Proof.
  induction ms as [|m ms IH]; intros t H acc v; [cbn [all_empty ser_members]; tauto|]. destruct H as [H1 H2]. cbn [all_empty ser_members]. rewrite (IH _ H2), andb_true_iff, <- (H1 (fst v)). split.
  - intros [[A B] C]. rewrite B, C. auto.
  - intros [A B]. apply app_eq_nil in B as [B C]. auto.
Qed.
Lemma field_nil : forall n {A : Set} (c : codec A) d skip, nil_when (field n c d skip) skip.
Proof. intros n A c d skip. unfold nil_when. cbn [m_type m_ser field]. intros a. destruct (skip a); split; congruence. Qed.
Lemma dockerfile_nil : nil_when dockerfile_m is_none.
Proof. intros [[p|s]|]; cbn; split; congruence. Qed.
Lemma only_first : forall (a b : sval * sval) r, VMap ([a] ++ r) = VMap [b] -> r = [].
Proof. intros a b r [= _ H]. exact H. Qed.
Lemma ext_nil : forall x, is_nil x = true <-> ext_ser x = [].
Proof. intros [|e x]; cbn; split; congruence. Qed.

Definition build_tests (w : externals) : tests (tl (build_ms w)) :=
  (is_none, (list_or_map_empty, (is_nil, (is_nil, (is_nil, (is_nil, (is_nil, (is_nil, (is_none, (negb, (list_or_map_empty, (negb, (negb, (is_none, (is_none, (is_none,
   (is_nil, (is_nil, (is_nil, (is_nil, tt)))))))))))))))))))).
Lemma build_nils : forall w, nils (tl (build_ms w)) (build_tests w).
Proof. intros w. repeat apply conj; first [exact I|apply field_nil|exact dockerfile_nil]. Qed.
Lemma build_short_cond : forall w (b : build w),
  build_as_short b = if all_empty true (tl (build_ms w)) (build_tests w) (snd (fst b)) && is_nil (snd b) then fst (fst b) else None.
Proof.
  intros w [(context & dockerfile & args & ssh & cache_from & cache_to & additional_contexts & entitlements & extra_hosts & isolation &
     privileged & labels & no_cache & pull & network & shm_size & target & secrets & tags & ulimits & platforms & []) x]. reflexivity.
Qed.
(** A build has a short form exactly if the context is all that is written for it. *)
Theorem build_short : forall w (b : build w) c,
  build_as_short b = Some c <-> fst (fst b) = Some c /\ ser (build_c w) b = VMap [(VStr $"context", ser (context_c w) c)].
Proof.
  intros w b c. rewrite build_short_cond.
  change (ser (build_c w) b) with (VMap ((m_ser (optional $"context" (context_c w)) (fst (fst b)) ++ ser_members (tl (build_ms w)) (snd (fst b))) ++ ext_ser (snd b))). rewrite <- app_assoc.
  assert (E : all_empty true (tl (build_ms w)) (build_tests w) (snd (fst b)) && is_nil (snd b) = true <-> ser_members (tl (build_ms w)) (snd (fst b)) ++ ext_ser (snd b) = []).
  { rewrite andb_true_iff, (all_nil _ _ (build_nils w)), ext_nil. split; [intros [[_ ->] ->]; reflexivity|]. intros H. apply app_eq_nil in H as [-> ->]. auto. }
  split.
  - destruct (all_empty _ _ _ _ && _); [|discriminate]. intros H. rewrite (proj1 E eq_refl), H. split; reflexivity.
  - intros [H X]. rewrite (proj2 E); [exact H|]. rewrite H in X. exact (only_first _ _ _ X).
Qed.
Print Assumptions build_short.
(** So the expanded short form is written the same. *)
Theorem build_short_written : forall w (b : build w) c, build_as_short b = Some c -> ser (build_c w) (build_of_short c) = ser (build_c w) b.
Proof. intros w b c H. apply build_short in H as [_ ->]. reflexivity. Qed.
Print Assumptions build_short_written.
Theorem build_short_back : forall w c, build_as_short (build_of_short (w := w) c) = Some c.
Proof. reflexivity. Qed.
Print Assumptions build_short_back.
(** It is the same build, unless [args] or [labels] is a map, an empty one. *)
Definition build_args {w : externals} (b : build w) : list_or_map := nth_val 2 (build_ms w) (fst b).
Definition build_labels {w : externals} (b : build w) : list_or_map := nth_val 11 (build_ms w) (fst b).
Theorem build_short_exact_partial : forall w (b : build w) c, build_as_short b = Some c -> build_args b <> LMap [] -> build_labels b <> LMap [] -> b = build_of_short c.
Proof.
  intros w [(context & dockerfile & args & ssh & cache_from & cache_to & additional_contexts & entitlements & extra_hosts & isolation &
     privileged & labels & no_cache & pull & network & shm_size & target & secrets & tags & ulimits & platforms & []) x] c.
  unfold build_args, build_labels. cbn [nth_val fst snd]. unfold build_as_short.
  destruct (is_none dockerfile && _ && _ && _ && _ && _ && _ && _ && _ && _ && _ && _ && _ && _ && _ && _ && _ && _ && _ && _ && _) eqn:E; [|discriminate]. intros C A L. ands E.
  assert (labels = LList []) as -> by (destruct labels as [[]|[]]; try discriminate; [reflexivity|now elim L]).
  assert (args = LList []) as -> by (destruct args as [[]|[]]; try discriminate; [reflexivity|now elim A]).
  conds. cbn [fst] in C. rewrite C. reflexivity.
Qed.
Print Assumptions build_short_exact_partial.
Theorem build_short_exact_refuted : forall w, exists (b : build w) c, build_as_short b = Some c /\ b <> build_of_short c.
Proof.
  intros w. exists ((Some (CtxPath $"."), (None, (LMap [], ([], ([], ([], ([], ([], ([], (None,
     (false, (LList [], (false, (false, (None, (None, (None, ([], ([], ([], ([], tt))))))))))))))))))))), []), (CtxPath $"."). split; [reflexivity|].
  intros E. apply (f_equal build_args) in E. discriminate.
Qed.
Print Assumptions build_short_exact_refuted.
Example build_short_example : forall w, exists b : build w,
  build_as_short b = None /\ fst (fst b) = Some (CtxPath $".") /\ ser (build_c w) b = VMap [(VStr $"context", VStr $"."); (VStr $"pull", VBool true)].
Proof.
  intros w. exists ((Some (CtxPath $"."), (None, (LMap [], ([], ([], ([], ([], ([], ([], (None,
     (false, (LList [], (false, (true, (None, (None, (None, ([], ([], ([], ([], tt))))))))))))))))))))), []). repeat split; reflexivity.
Qed.

(** ** Networks *)

Lemma service_network_blank : forall w (n : vals (service_network_ms w) * extensions), service_network_empty n = true <-> ser (service_network_c w) n = VMap [].
Proof.
  intros w [v x]. assert (N : nils (service_network_ms w) (is_nil, (is_none, (is_none, (is_nil, (is_none, (is_nil, (is_none, tt)))))))) by (repeat apply conj; first [exact I|apply field_nil]).
  assert (E := all_nil _ _ N true v). cbn [ser service_network_c struct_ext_c fst snd].
  transitivity (ser_members (service_network_ms w) v ++ ext_ser x = []); [|split; [intros ->; reflexivity|now intros [=]]].
  transitivity (ser_members (service_network_ms w) v = [] /\ ext_ser x = []); [|split; [intros [-> ->]; reflexivity|apply app_eq_nil]]. rewrite <- ext_nil.
  destruct v as (a & b & c & d & e & f & g & []). unfold service_network_empty. rewrite <- (andb_assoc _ (is_none g) (is_none g)), andb_diag, andb_true_iff.
  split; [intros [A B]; split; [now apply E|exact B]|intros [A B]; split; [now apply E|exact B]].
Qed.
(** The networks of a service have a short form exactly if nothing is written for each of them. *)
Theorem service_networks_short : forall w (m : service_networks w) l, service_networks_as_short m = Some l <->
  l = map fst m /\ Forall (fun e => match snd e with Some n => ser (service_network_c w) n = VMap [] | None => True end) m.
Proof.
  intros w m l. unfold service_networks_as_short.
  assert (E : forallb (fun e => match snd e with Some n => service_network_empty n | None => true end) m = true <-> Forall (fun e : str * option _ => match snd e with Some n => ser (service_network_c w) n = VMap [] | None => True end) m).
  { rewrite forallb_forall, Forall_forall. split; intros H e I; specialize (H e I); destruct (snd e) as [n|]; auto; now apply service_network_blank. }
  destruct (forallb _ m); split; intros H.
  - injection H as <-. split; [reflexivity|now apply E].
  - destruct H as [-> _]. reflexivity.
  - discriminate.
  - destruct H as [_ H]. apply E in H. discriminate.
Qed.
Print Assumptions service_networks_short.
(** Expanding gives the same networks if none of them is given as an empty map. *)
Theorem service_networks_short_exact_partial : forall w (m : service_networks w) l, NoDup (map fst m) -> Forall (fun e => snd e = None) m ->
  service_networks_as_short m = Some l <-> l = map fst m /\ m = map_of_short None (Short l).
Proof.
  intros w m l D F. rewrite service_networks_short. split; intros [-> _]; (split; [reflexivity|]).
  - rewrite nodup_map_of by assumption. now apply keys_const.
  - clear D. induction F as [|e m E F IH]; constructor; [now rewrite E|assumption].
Qed.
Print Assumptions service_networks_short_exact_partial.
Theorem service_networks_short_exact_refuted : forall w, exists (m : service_networks w) l, NoDup (map fst m) /\ service_networks_as_short m = Some l /\ m <> map_of_short None (Short l).
Proof.
  intros w. exists [($"a", Some (([], (None, (None, ([], (None, ([], (None, tt))))))), []))], [$"a"]. split; [repeat constructor; intros []|]. split; [reflexivity|]. discriminate.
Qed.
Print Assumptions service_networks_short_exact_refuted.

(** ** Include *)

Theorem include_short : forall v p, include_as_short v = Some p <-> v = include_of_short p \/ v = (Items [p], (None, (None, tt))).
Proof.
  intros ([q|l] & d & e & []) p; unfold include_as_short, include_of_short.
  - destruct d, e; cbn [is_none andb as_item]; split; try discriminate; try (now intros [|]); [intros [= ->]; now left|intros [[= ->]|]; [reflexivity|discriminate]].
  - destruct d, e; cbn [is_none andb as_item]; split; try discriminate; try (now intros [|]); [|intros [|[= ->]]; [discriminate|reflexivity]].
    destruct l as [|q [|]]; try discriminate. intros [= ->]. now right.
Qed.
Print Assumptions include_short.
Theorem include_short_exact_refuted : exists v p, include_as_short v = Some p /\ v <> include_of_short p /\ ser include_c v <> ser include_c (include_of_short p).
Proof. exists (Items [$"a"], (None, (None, tt))), $"a". repeat split; discriminate. Qed.
Print Assumptions include_short_exact_refuted.

(** ** Environment files *)

(** [as_single] is there exactly if there is one file and it is required, however it is written. *)
Definition env_file_entry (x : short_or_long str env_file_config) : str * bool := match x with Short p => (p, true) | Long (p, (required, _)) => (p, required) end.
Theorem env_file_single : forall x p, env_file_as_single x = Some p <-> map env_file_entry (env_file_into_list x) = [(p, true)].
Proof.
  intros [q|[|[q|(q & [] & [])] [|]]] p; cbn; split; congruence.
Qed.
Print Assumptions env_file_single.
Example env_file_example : env_file_as_single (Items [Long ($"a", (true, tt))]) = Some $"a" /\ env_file_as_single (Items [Long ($"a", (false, tt))]) = None.
Proof. split; reflexivity. Qed.
