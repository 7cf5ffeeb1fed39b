(** A value which was read is read back exactly, unless there was an empty map in the input. *)

From Coq Require Import String Ascii List NArith ZArith Bool Lia ZifyBool ZifyN ZifyNat.
Import ListNotations.
From Verif Require Import Base BaseFacts Num NumFacts Coll CollFacts DurationModel DurationSpec DurationProofs TextModel ValuesModel VolumesModel EqModel Serde Codec CodecFacts EnumModel
  ScalarCodec ScalarGood CommonCodec CommonGood ServiceParts PartsGood MountCodec MountGood HealthModel HealthProofs ServiceCodec ServiceGood ComposeCodec ComposeGood.
Open Scope N_scope.

(** The fields which are left out when they hold an empty map, and then read as an empty list. *)
Definition EITHER : list str := [$"annotations"; $"args"; $"depends_on"; $"environment"; $"labels"; $"options"; $"sysctls"].
(** None of these fields is an empty map, anywhere in [v]. *)
Definition full_entry (e : sval * sval) : bool :=
  match fst e, snd e with VStr k, VMap [] => negb (existsb (str_eqb k) EITHER) | _, _ => true end.
Fixpoint full (v : sval) : bool :=
  match v with
  | VSeq l => forallb full l
  | VMap es => forallb (fun e => full_entry e && full (snd e)) es
  | _ => true
  end.
Definition full_entries (es : list (sval * sval)) : Prop := Forall (fun e => full_entry e = true /\ full (snd e) = true) es.
Definition parts (v : sval) : Prop := match v with VMap es => full_entries es | VSeq l => Forall (fun v => full v = true) l | _ => True end.
Lemma full_parts : forall v, full v = true -> parts v.
Proof.
  intros [| | | | |l|es] H; try exact I; cbn [full parts] in *.
  - apply Forall_forall. now apply forallb_forall.
  - apply Forall_forall. intros e I. rewrite forallb_forall in H. apply andb_true_iff, H, I.
Qed.
Definition exact {A : Set} (c : codec A) : Prop := forall v a, parts v -> de c v = Ok a -> norm c a = a.
Definition member_exact (m : member) : Prop := forall es a, full_entries es -> m_de m es = Ok a -> m_norm m a = a.

Lemma plain_exact : forall {A : Set} (c : codec A), plain c -> exact c. Proof. intros A c P v a _ _. apply P. Qed.
Lemma member_plain_exact : forall m, member_plain m -> member_exact m. Proof. intros m P es a _ _. apply P. Qed.

(** ** Combinators *)

Lemma option_exact : forall {A : Set} (c : codec A), exact c -> exact (option_c c).
Proof.
  intros A c X v [a|] F H; [|reflexivity]. cbn [norm option_c option_map]. f_equal. apply (X v); [assumption|]. cbn [de option_c] in H.
  destruct v; try discriminate; destruct (de c _); cbn [map_ok] in H; congruence.
Qed.
Lemma collect_exact : forall {A B} (f : sval -> result de_error A) (g : A -> B) (h : A -> B) l r,
  (forall v a, full v = true -> f v = Ok a -> g a = h a) -> Forall (fun v => full v = true) l -> collect f l = Ok r -> map g r = map h r.
Proof.
  intros A B f g h l r X F H. apply collect_ok in H. induction H as [|v a l r E H IH]; [reflexivity|]. inversion F; subst. cbn [map]. f_equal; [eauto|auto].
Qed.
Lemma list_exact : forall {A : Set} (c : codec A), exact c -> exact (list_c c).
Proof.
  intros A c X v l F H. cbn [de norm list_c] in *. destruct v; try discriminate. rewrite <- (map_id l) at 2. apply (collect_exact (de c) _ _ l0); auto.
  intros v a Fv E. apply (X v); [now apply full_parts|assumption].
Qed.
Lemma imap_exact : forall {K V : Set} eqb (k : codec K) (v : codec V), (forall a b, eqb a b = true <-> a = b) -> exact v -> exact (imap_c eqb k v).
Proof.
  intros K V eqb k v E X x m F H. cbn [de norm imap_c] in *. destruct x; try discriminate.
  destruct (collect (entry_de k v) l) as [r|] eqn:C; cbn [map_ok] in H; [|discriminate]. injection H as <-.
  assert (R : Forall (fun e => norm v (snd e) = snd e) r).
  { apply collect_ok in C. cbn [parts] in F. unfold full_entries in F. clear - C F X. induction C as [|e p l r Ee C IH]; [constructor|]. inversion F as [|? ? [_ Fe]]; subst. constructor; [|auto].
    unfold entry_de in Ee. destruct (de k (fst e)); cbn [bind] in Ee; [|discriminate]. destruct (de v (snd e)) eqn:Ev; cbn [bind] in Ee; [|discriminate].
    injection Ee as <-. cbn [snd]. apply (X (snd e)); [now apply full_parts|assumption]. }
  rewrite <- (map_id (imap_of eqb r)) at 2. apply map_ext_in. intros [a b] I. apply (imap_of_sub eqb) in I; [|assumption]. rewrite Forall_forall in R. specialize (R _ I).
  cbn [fst snd] in *. now rewrite R.
Qed.
Lemma smap_exact : forall {V : Set} k (v : codec V), exact v -> exact (smap k v).
Proof. intros V k v. apply imap_exact, str_eqb_eq. Qed.
Lemma item_or_list_exact : forall {A B : Set} (i : codec A) (l : codec B), exact i -> exact l -> exact (item_or_list_c i l).
Proof.
  intros A B i l Xi Xl v x F H. cbn [de norm item_or_list_c] in *. destruct v; try discriminate;
    match type of H with context [de ?c ?v] => destruct (de c v) eqn:E end; cbn [map_ok] in H; try discriminate; injection H as <-; f_equal; eauto.
Qed.
Lemma short_or_long_exact : forall {A B : Set} (i : codec A) (l : codec B), exact i -> exact l -> exact (short_or_long_c i l).
Proof.
  intros A B i l Xi Xl v x F H. cbn [de norm short_or_long_c] in *. destruct v;
    match type of H with context [de ?c ?v] => destruct (de c v) eqn:E end; cbn [map_ok] in H; try discriminate; injection H as <-; f_equal; eauto.
Qed.
Lemma number_exact : exact number_c.
Proof.
  intros v n _ H. cbn [de norm number_c] in *. destruct v as [| |z|b| | |]; try discriminate; cbn [number_de] in H; [|now injection H as <-].
  destruct (0 <=? z)%Z eqn:E; [destruct (int_to_uint U64_MAX z); cbn [map_ok] in H; [now injection H as <-|discriminate]|].
  destruct (- Z.of_N I64_MIN_ABS <=? z)%Z; [|discriminate]. injection H as <-. cbn [number_norm]. now rewrite E.
Qed.
Lemma value_exact : exact value_c.
Proof.
  intros v x F H. cbn [de norm value_c] in *. destruct v; try (injection H as <-; reflexivity);
    match type of H with context [de ?c ?v] => destruct (de c v) eqn:E end; cbn [map_ok] in H; try discriminate; injection H as <-; f_equal; exact (number_exact _ _ F E).
Qed.
Lemma string_or_number_exact : exact string_or_number_c.
Proof.
  intros v x F H. cbn [de norm string_or_number_c] in *. destruct v; try (injection H as <-; reflexivity);
    match type of H with context [de ?c ?v] => destruct (de c v) eqn:E end; cbn [map_ok] in H; try discriminate; injection H as <-; f_equal; exact (number_exact _ _ F E).
Qed.
Lemma vmap_exact : exact vmap_c. Proof. apply smap_exact, option_exact, value_exact. Qed.
Lemma list_or_map_exact : exact list_or_map_c.
Proof.
  intros v x F H. cbn [de norm list_or_map_c] in *. destruct v; try discriminate;
    match type of H with context [de ?c ?v] => destruct (de c v) eqn:E end; cbn [map_ok] in H; try discriminate; injection H as <-; [reflexivity|].
  f_equal. exact (vmap_exact _ _ F E).
Qed.
Lemma duration_exact : exact duration_c.
Proof.
  intros v d _ H. cbn [de norm duration_c] in *. unfold whole_micros. destruct v as [| |z| |s| |]; try discriminate.
  - destruct (int_to_uint U64_MAX z) as [n|]; cbn [map_ok] in H; [|discriminate]. injection H as <-. unfold from_micros. cbn [secs nanos]. f_equal. rewrite N.div_mul by discriminate. reflexivity.
  - unfold no_panic in H. destruct (parse s) as [a| |] eqn:E; try discriminate. injection H as <-.
    assert (W : duration_wf a) by (apply parse_ok_iff in E as (ts & _ & _ & _ & E & _); exact E).
    assert (R := round_trip a W). rewrite (parse_normalizes s a E) in R. injection R as R. symmetry. exact R.
Qed.
Lemma duration_us_exact : exact duration_us_c.
Proof.
  intros v d _ H. cbn [de norm duration_us_c] in *. unfold whole_micros. destruct v as [| |z| |s| |]; try discriminate.
  destruct (int_to_uint U64_MAX z) as [n|]; cbn [map_ok] in H; [|discriminate]. injection H as <-. unfold from_micros. cbn [secs nanos]. f_equal. rewrite N.div_mul by discriminate. reflexivity.
Qed.

(** ** Structs *)

Lemma lookup_full : forall n es v, full_entries es -> lookup n es = Ok (Some v) -> full v = true /\ (In n EITHER -> v <> VMap []).
Proof.
  intros n es v F H. induction F as [|[k x] es [Fe Fx] F IH]; [discriminate|]. cbn [lookup] in H. cbn [snd] in Fx. destruct k; auto.
  destruct (str_eqb n s) eqn:En; [|auto]. destruct (lookup n es) as [[y|]|]; try discriminate. injection H as <-. split; [assumption|]. intros I ->.
  unfold full_entry in Fe. cbn [fst snd] in Fe. apply str_eqb_eq in En. subst s. assert (X : existsb (str_eqb n) EITHER = true) by (apply existsb_exists; exists n; split; [assumption|apply str_eqb_refl]).
  rewrite X in Fe. discriminate.
Qed.
Lemma field_exact : forall n {A : Set} (c : codec A) default skip, exact c ->
  (forall v a, (In n EITHER -> v <> VMap []) -> de c v = Ok a -> skip a = true -> default = Some a) ->
  (forall a, default = Some a -> skip a = false -> norm c a = a) -> member_exact (field n c default skip).
Proof.
  intros n A c default skip X S D. unfold member_exact. cbn [m_type m_de m_norm field]. intros es a F H. destruct (lookup n es) as [[v|]|] eqn:L; cbn [bind] in H; [| |discriminate].
  - destruct (lookup_full n es v F L) as [Fv Nv]. destruct (skip a) eqn:K; [now rewrite (S v a Nv H K)|]. apply (X v); [now apply full_parts|assumption].
  - destruct default as [d|] eqn:E; [|discriminate]. assert (d = a) by congruence. subst d. destruct (skip a) eqn:K; [reflexivity|now apply D].
Qed.
Lemma required_exact : forall n {A : Set} (c : codec A), exact c -> member_exact (required n c).
Proof. intros n A c X. apply field_exact; [assumption|discriminate|discriminate]. Qed.
Lemma optional_exact : forall n {A : Set} (c : codec A), exact c -> member_exact (optional n c).
Proof. intros n A c X. apply field_exact; [now apply option_exact|intros v [a|] _ _ H; [discriminate|reflexivity]|]. intros a H. now injection H as <-. Qed.
Lemma given_exact : forall n {A : Set} (c : codec A), exact c -> member_exact (given n c).
Proof.
  intros n A c X. apply field_exact; [|intros v [a|] _ _ H; [discriminate|reflexivity]|].
  - intros v [a|] F H; [|reflexivity]. cbn [norm de some_c option_c option_map] in *. destruct (de c v) eqn:E; cbn [map_ok] in H; [|discriminate]. injection H as <-. f_equal. exact (X v _ F E).
  - intros a H. now injection H as <-.
Qed.
Lemma many_exact : forall n {A : Set} (c : codec (list A)), exact c -> member_exact (many n c).
Proof. intros n A c X. apply field_exact; [assumption|intros v [|a l] _ _ H; [reflexivity|discriminate]|]. intros a H. injection H as <-. discriminate. Qed.
Lemma flag_exact : forall n, member_exact (flag n). Proof. intros n. apply member_plain_exact, flag_plain. Qed.
Lemma flag_true_exact : forall n, member_exact (flag_true n). Proof. intros n. apply member_plain_exact, flag_true_plain. Qed.
Lemma collect_nil : forall {E A B} (f : A -> result E B) l, collect f l = Ok [] -> l = [].
Proof. intros E A B f l H. apply collect_ok in H. now inversion H. Qed.
Lemma imap_of_nil : forall {K V} (eqb : K -> K -> bool) (l : list (K * V)), imap_of eqb l = [] -> l = [].
Proof.
  intros K V eqb l. assert (H : forall (r acc : list (K * V)), acc <> [] -> fold_left (fun m e => imap_insert eqb m (fst e) (snd e)) r acc <> []).
  { induction r as [|e r IH]; intros acc N; [assumption|]. cbn [fold_left]. apply IH. destruct acc as [|[a b] acc]; [congruence|]. cbn [imap_insert]. destruct (eqb _ _); discriminate. }
  destruct l as [|e l]; [reflexivity|]. intros X. exfalso. revert X. unfold imap_of. cbn [fold_left]. apply H. discriminate.
Qed.
Lemma full_map_nonempty : forall {V : Set} k (v : codec V) es, VMap es <> VMap [] -> de (smap k v) (VMap es) <> Ok [].
Proof.
  intros V k v es F H. cbn [de smap imap_c] in H. destruct (collect (entry_de k v) es) as [r|] eqn:C; cbn [map_ok] in H; [|discriminate]. injection H as H.
  apply imap_of_nil in H. subst r. apply collect_nil in C. subst es. now apply F.
Qed.
Lemma either_in : forall n, existsb (str_eqb n) EITHER = true -> In n EITHER.
Proof. intros n H. apply existsb_exists in H as (k & I & E). apply str_eqb_eq in E. now subst k. Qed.
Lemma list_or_map_field_exact : forall n, existsb (str_eqb n) EITHER = true -> member_exact (list_or_map_field n).
Proof.
  intros n N. apply either_in in N. apply field_exact; [exact list_or_map_exact| |intros a H; injection H as <-; reflexivity].
  intros v [[|s l]|[|e m]] F H K; try discriminate; [reflexivity|]. exfalso. cbn [de list_or_map_c] in H. destruct v; try discriminate.
  - destruct (de (sset string_c) (VSeq l)); discriminate.
  - destruct (de vmap_c (VMap l)) eqn:E; cbn [map_ok] in H; [|discriminate]. injection H as ->. exact (full_map_nonempty map_key_c _ l (F N) E).
Qed.
Lemma depends_on_exact : exact depends_on_c.
Proof. apply short_or_long_exact; apply plain_exact; [apply sset_plain|apply smap_plain; auto with codec]. Qed.
Lemma depends_on_field_exact : forall n, existsb (str_eqb n) EITHER = true -> member_exact (depends_on_field n).
Proof.
  intros n N. apply either_in in N. apply field_exact; [exact depends_on_exact| |intros a H; injection H as <-; reflexivity].
  intros v [[|s l]|[|e m]] F H K; try discriminate; [reflexivity|]. exfalso. unfold depends_on_c in H. cbn [de short_or_long_c] in H.
  destruct v; try (destruct (de (sset identifier_c) _); discriminate).
  destruct (de (smap identifier_c dependency_c) (VMap l)) eqn:E; cbn [map_ok] in H; [|discriminate]. injection H as ->. exact (full_map_nonempty identifier_c _ l (F N) E).
Qed.
Lemma members_exact : forall ms es v, Forall member_exact ms -> full_entries es -> de_members ms es = Ok v -> norm_members ms v = v.
Proof.
  induction ms as [|m r IH]; intros es v X F H; [reflexivity|]. inversion X as [|? ? Xm Xr]; subst. cbn [de_members] in H. destruct (m_de m es) as [a|] eqn:Ea; cbn [bind] in H; [|discriminate].
  destruct (de_members r es) as [u|] eqn:Er; cbn [bind] in H; [|discriminate]. injection H as <-. cbn [norm_members fst snd]. now rewrite (Xm es a F Ea), (IH es u Xr F Er).
Qed.
Lemma struct_exact : forall ms, Forall member_exact ms -> exact (struct_c ms).
Proof. intros ms X v a F H. cbn [de norm struct_c] in *. destruct v; try discriminate. destruct (string_keys l); [|discriminate]. exact (members_exact ms l a X F H). Qed.
Lemma struct_ext_exact : forall ms, Forall member_exact ms -> exact (struct_ext_c ms).
Proof.
  intros ms X v a F H. cbn [de norm struct_ext_c] in *. destruct v; try discriminate. destruct (de_members ms l) as [u|] eqn:E; cbn [bind] in H; [|discriminate].
  destruct (ext_de _) as [x|]; cbn [bind] in H; [|discriminate]. injection H as <-. cbn [fst snd]. now rewrite (members_exact ms l u X F E).
Qed.
Lemma struct_ext_once_exact : forall ms, Forall member_exact ms -> exact (struct_ext_once_c ms).
Proof.
  intros ms X v a F H. apply (struct_ext_exact ms X v a F). cbn [de struct_ext_c struct_ext_once_c] in *. destruct v; try discriminate. destruct (de_members ms l) as [u|]; cbn [bind] in *; [|discriminate].
  destruct (ext_de _) as [x|]; cbn [bind] in *; [|discriminate]. destruct (once _ _); [assumption|discriminate].
Qed.
Lemma resource_exact : forall {A : Set} (c : codec A), exact c -> exact (resource_c c).
Proof.
  intros A c X v r F H. cbn [de norm resource_c] in *. destruct v as [| | | | | |es]; try discriminate. destruct r as [n|a]; [reflexivity|]. f_equal.
  apply bind_ok in H as (m & Hm & H). unfold resource_of in H. apply bind_ok in H as (external & _ & H). destruct external.
  { apply bind_ok in H as (name & _ & H). destruct (is_nil _); discriminate. }
  destruct (de c _) eqn:E; cbn [map_ok] in H; [|discriminate]. injection H as ->. apply (X (VMap (ext_ser (without $"external" m)))); [|assumption].
  cbn [parts]. unfold hash_map_de in Hm. destruct (collect yaml_entry es) as [l|] eqn:C; cbn [map_ok] in Hm; [|discriminate]. injection Hm as <-.
  assert (Fl : Forall (fun e => full_entry (VStr (fst e), snd e) = true /\ full (snd e) = true) l).
  { apply collect_ok in C. cbn [parts] in F. unfold full_entries in F. clear - C F. induction C as [|e p es l Ee C IH]; [constructor|]. inversion F; subst. constructor; [|auto].
    unfold yaml_entry in Ee. destruct e as [k x]. cbn [fst snd] in *. destruct k; try discriminate. cbn [de yaml_c] in Ee. destruct (yaml_ok x); [|discriminate]. cbn [bind] in Ee. now injection Ee as <-. }
  unfold full_entries, ext_ser. apply Forall_map. cbn [snd]. rewrite Forall_forall in *. intros e I. unfold without in I. apply filter_In in I as [I _]. apply Fl.
  now apply (imap_of_sub str_eqb str_eqb_eq) in I.
Qed.
#[export] Hint Extern 1 (existsb (str_eqb _) EITHER = true) => reflexivity : codec.
#[export] Hint Resolve plain_exact option_exact list_exact smap_exact item_or_list_exact short_or_long_exact value_exact string_or_number_exact vmap_exact list_or_map_exact
  duration_exact duration_us_exact required_exact optional_exact given_exact many_exact flag_exact flag_true_exact list_or_map_field_exact depends_on_field_exact
  member_plain_exact resource_exact : codec.
Ltac exacts d := first [apply struct_exact|apply struct_ext_exact|apply struct_ext_once_exact]; unfold d; members.

(** ** The parts of a service *)

Lemma build_exact : forall w, externals_ok w -> exact (build_c w).
Proof.
  intros w O. assert (member_exact dockerfile_m) by now apply member_plain_exact. assert (plain (additional_contexts_c w)) by easy. assert (plain (extra_hosts_c w)) by easy.
  assert (plain grants_c) by (apply list_plain, short_or_long_plain; [auto with codec|struct config_or_secret_ms]).
  assert (plain ulimits_c) by (apply smap_plain; auto with codec). exacts build_ms.
Qed.
Lemma limits_exact : forall w, externals_ok w -> exact (limits_c w). Proof. intros w O. exacts limits_ms. Qed.
Lemma deploy_device_exact : exact deploy_device_c. Proof. exacts deploy_device_ms. Qed.
Lemma discrete_resource_spec_exact : exact discrete_resource_spec_c. Proof. exacts discrete_resource_spec_ms. Qed.
#[export] Hint Resolve build_exact limits_exact deploy_device_exact discrete_resource_spec_exact : codec.
Lemma generic_resource_exact : exact generic_resource_c. Proof. exacts generic_resource_ms. Qed.
#[export] Hint Resolve generic_resource_exact : codec.
Lemma reservations_exact : forall w, externals_ok w -> exact (reservations_c w). Proof. intros w O. exacts reservations_ms. Qed.
#[export] Hint Resolve reservations_exact : codec.
Lemma resources_exact : forall w, externals_ok w -> exact (resources_c w). Proof. intros w O. exacts resources_ms. Qed.
Lemma preference_exact : exact preference_c. Proof. exacts preference_ms. Qed.
#[export] Hint Resolve resources_exact preference_exact : codec.
Lemma placement_exact : exact placement_c. Proof. exacts placement_ms. Qed.
Lemma restart_policy_exact : exact restart_policy_c. Proof. exacts restart_policy_ms. Qed.
Lemma update_config_exact : exact update_config_c. Proof. exacts update_config_ms. Qed.
#[export] Hint Resolve placement_exact restart_policy_exact update_config_exact : codec.
Lemma deploy_exact : forall w, externals_ok w -> exact (deploy_c w). Proof. intros w O. exacts deploy_ms. Qed.
Lemma service_network_exact : forall w, externals_ok w -> exact (service_network_c w). Proof. intros w O. exacts service_network_ms. Qed.
#[export] Hint Resolve deploy_exact service_network_exact : codec.
Lemma networks_exact : forall w, externals_ok w -> exact (networks_c w).
Proof. intros w O. apply short_or_long_exact; [apply plain_exact, sset_plain|auto with codec]. Qed.
Lemma network_config_exact : forall w, externals_ok w -> member_exact (network_config_m w).
Proof.
  intros w O. unfold member_exact. cbn [m_type m_de m_norm network_config_m group]. intros es c F H. apply bind_ok in H as (v & Hv & H).
  assert (X : Forall member_exact (network_config_ms w)) by (unfold network_config_ms; repeat constructor; [|apply optional_exact, networks_exact, O]; auto with codec).
  apply (members_exact _ es) in Hv; [|assumption..]. destruct v as [[m|] [[n|] []]]; cbn [network_config_read] in H; try discriminate; injection H as <-; try reflexivity.
  assert (E : Some (norm (networks_c w) n) = Some n) by exact (f_equal (fun v : vals (network_config_ms w) => fst (snd v)) Hv).
  assert (E' : norm (networks_c w) n = n) by congruence. now rewrite E'.
Qed.
#[export] Hint Resolve network_config_exact : codec.
Lemma blkio_config_exact : exact blkio_config_c.
Proof.
  assert (exact bps_limit_c) by exacts bps_limit_c. assert (exact iops_limit_c) by exacts iops_limit_c. assert (exact weight_device_c) by exacts weight_device_c. exacts blkio_config_ms.
Qed.
Lemma credential_spec_exact : exact credential_spec_c. Proof. assert (member_exact credential_m) by now apply member_plain_exact. exacts credential_spec_c. Qed.
Lemma watch_rule_exact : exact watch_rule_c. Proof. exacts watch_rule_ms. Qed.
#[export] Hint Resolve blkio_config_exact credential_spec_exact watch_rule_exact : codec.
Lemma develop_exact : exact develop_c. Proof. exacts develop_c. Qed.
Lemma env_file_exact : exact env_file_c.
Proof. assert (exact env_file_config_c) by exacts env_file_config_c. apply item_or_list_exact; auto 8 with codec. Qed.
Lemma command_exact : exact command_c. Proof. apply item_or_list_exact; auto with codec. Qed.
Lemma extends_exact : exact extends_c. Proof. exacts extends_c. Qed.
Lemma logging_exact : exact logging_c. Proof. exacts logging_c. Qed.
Lemma healthcheck_exact : exact healthcheck_c.
Proof.
  intros v [c|] F H; [|reflexivity]. cbn [de norm healthcheck_c] in *. destruct v as [| | | | | |es]; try discriminate. apply command_iff in H as (d & _ & H).
  assert (X : exact slot_c). { assert (exact test_c) by now apply plain_exact. exacts slot_ms. unfold health_ms. members. }
  apply (X (VMap es) _ F) in H. destruct c as [c x]. f_equal. exact (f_equal (fun v => (snd (fst v), snd v)) H).
Qed.
Lemma grants_exact : exact grants_c.
Proof. assert (exact config_or_secret_c) by exacts config_or_secret_ms. apply list_exact; auto with codec. Qed.
#[export] Hint Resolve develop_exact env_file_exact command_exact extends_exact logging_exact healthcheck_exact grants_exact : codec.

Lemma service_exact : forall w, externals_ok w -> exact (service_c w).
Proof.
  intros w O. assert (member_exact (cpuset_field $"cpuset" w)) by (apply member_plain_exact; intros []; reflexivity).
  assert (plain (extra_hosts_c w)) by easy. assert (plain ulimits_c) by (apply smap_plain; auto with codec). assert (plain (volumes_c w)) by easy. assert (plain (ports_c w)) by easy.
  exacts service_ms.
Qed.
#[export] Hint Resolve service_exact : codec.

(** ** Compose *)

Lemma ipam_config_exact : forall w, externals_ok w -> exact (ipam_config_c w). Proof. intros w O. exacts ipam_config_ms. Qed.
#[export] Hint Resolve ipam_config_exact : codec.
Lemma ipam_exact : forall w, externals_ok w -> exact (ipam_c w). Proof. intros w O. exacts ipam_ms. Qed.
#[export] Hint Resolve ipam_exact : codec.
Lemma network_exact : forall w, externals_ok w -> exact (network_c w). Proof. intros w O. exacts network_ms. Qed.
Lemma top_volume_exact : exact top_volume_c. Proof. exacts top_volume_ms. Qed.
Lemma config_exact : exact config_c. Proof. assert (member_exact config_source_m) by now apply member_plain_exact. exacts config_ms. Qed.
Lemma secret_exact : exact secret_c. Proof. assert (member_exact secret_source_m) by now apply member_plain_exact. exacts secret_ms. Qed.
Lemma include_exact : exact include_c. Proof. exacts include_ms. Qed.
#[export] Hint Resolve network_exact top_volume_exact config_exact secret_exact include_exact : codec.
Lemma compose_exact : forall w, externals_ok w -> exact (compose_c w). Proof. intros w O. exacts compose_ms. Qed.
