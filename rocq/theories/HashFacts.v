(** Lemmas for [PropsHash]: the laws of [Eq] and [Hash], type by type. *)

From Coq Require Import String Ascii List NArith ZArith Bool Lia.
Import ListNotations.
From Verif Require Import Base BaseFacts Coll UserModel BytesModel DeviceModel ImageModel IpModel NetModel PathModel PortsModel TextModel VolumesModel BuildModel
  Serde EqModel HashModel HashSpec.
Open Scope N_scope.

(** ** Lemmas *)

Class Law {A : Type} (eqb : A -> A -> bool) (hash : A -> feed) : Prop := {
  l_refl : forall a, eqb a a = true;
  l_sym : forall a b, eqb a b = true -> eqb b a = true;
  l_trans : forall a b c, eqb a b = true -> eqb b c = true -> eqb a c = true;
  l_hash : forall a b, eqb a b = true -> hash a = hash b }.
Lemma law_lawful : forall A (eqb : A -> A -> bool) hash, Law eqb hash -> lawful eqb hash.
Proof. intros A eqb hash []. repeat split; auto. Qed.
Lemma lawful_law : forall A (eqb : A -> A -> bool) hash, lawful eqb hash -> Law eqb hash.
Proof. intros A eqb hash [[] ]. split; auto. Qed.
(** An equality that decides equality. *)
Lemma law_decides : forall A (eqb : A -> A -> bool) hash, (forall a b, eqb a b = true <-> a = b) -> Law eqb hash.
Proof. intros A eqb hash D. split; intros *; rewrite ?D; congruence. Qed.

#[export] Instance law_num : Law N.eqb hash_num := law_decides _ _ _ N.eqb_eq.
#[export] Instance law_bool : Law Bool.eqb hash_bool := law_decides _ _ _ Bool.eqb_true_iff.
#[export] Instance law_str : Law str_eqb hash_str := law_decides _ _ _ str_eqb_eq.
#[export] Instance law_option : forall A (e : A -> A -> bool) h, Law e h -> Law (option_eqb e) (hash_option h).
Proof.
  intros A e h L. split.
  - intros [a|]; cbn; [apply l_refl|reflexivity].
  - intros [a|] [b|]; cbn; auto. apply l_sym.
  - intros [a|] [b|] [c|]; cbn; auto; try discriminate. apply l_trans.
  - intros [a|] [b|]; cbn; auto; try discriminate. intros E. f_equal. now apply l_hash.
Qed.
#[export] Instance law_ip : Law ip_eqb hash_ip.
Proof.
  apply law_decides. intros [a b c d|s] [a' b' c' d'|s']; cbn; rewrite ?andb_true_iff, ?N.eqb_eq, ?str_eqb_eq; split; try discriminate; try congruence.
  - intros [[[-> ->] ->] ->]. reflexivity.
  - intros E. inversion E. auto.
Qed.

Local Arguments Bool.eqb : simpl never.
Local Arguments N.eqb : simpl never.
Local Arguments str_eqb : simpl never.
Local Arguments option_eqb : simpl never.
Local Arguments hash_bool : simpl never.
Local Arguments hash_num : simpl never.
Local Arguments hash_str : simpl never.
Local Arguments hash_option : simpl never.
Local Arguments app : simpl never.

(** Splits an equality of records into those of their fields, and proves each part from the law of its type. *)
Ltac parts := repeat match goal with H : _ && _ = true |- _ => apply andb_true_iff in H; destruct H end.
Ltac conj_true := repeat match goal with |- _ && _ = true => apply andb_true_iff; split end.
Ltac same := repeat first [reflexivity | apply l_hash; assumption | apply (f_equal2 (@app piece)) | apply f_equal].
Ltac law_fields := split;
  [ intros []; cbn; conj_true; try reflexivity; apply l_refl
  | intros [] []; cbn; intros; try discriminate; try reflexivity; parts; conj_true; apply l_sym; assumption
  | intros [] [] []; cbn; intros; try discriminate; try reflexivity; parts; conj_true; eapply l_trans; eassumption
  | intros [] []; cbn; intros; try discriminate; try reflexivity; parts; same ].

#[export] Instance law_capability : Law capability_eqb capability_hash.
Proof. unfold capability_eqb, capability_hash. law_fields. Qed.
#[local] Arguments capability_eqb : simpl never.
#[local] Arguments capability_hash : simpl never.
#[export] Instance law_permissions : Law permissions_eqb permissions_hash.
Proof. unfold permissions_eqb, permissions_hash. law_fields. Qed.
#[local] Arguments permissions_eqb : simpl never.
#[local] Arguments permissions_hash : simpl never.
#[export] Instance law_dev_kind : Law dev_kind_eqb dev_kind_hash.
Proof. unfold dev_kind_eqb, dev_kind_hash. law_fields. Qed.
#[local] Arguments dev_kind_eqb : simpl never.
#[local] Arguments dev_kind_hash : simpl never.
#[export] Instance law_mm : Law mm_eqb mm_hash.
Proof. unfold mm_eqb, mm_hash. law_fields. Qed.
#[local] Arguments mm_eqb : simpl never.
#[local] Arguments mm_hash : simpl never.
#[export] Instance law_cgroup_rule : Law cgroup_rule_eqb cgroup_rule_hash.
Proof. unfold cgroup_rule_eqb, cgroup_rule_hash. law_fields. Qed.
#[local] Arguments cgroup_rule_eqb : simpl never.
#[local] Arguments cgroup_rule_hash : simpl never.
#[export] Instance law_id_or_name : Law id_or_name_eqb id_or_name_hash.
Proof. unfold id_or_name_eqb, id_or_name_hash. law_fields. Qed.
#[local] Arguments id_or_name_eqb : simpl never.
#[local] Arguments id_or_name_hash : simpl never.
#[export] Instance law_link : Law link_eqb link_hash.
Proof. unfold link_eqb, link_hash. law_fields. Qed.
#[local] Arguments link_eqb : simpl never.
#[local] Arguments link_hash : simpl never.
#[export] Instance law_volumes_from_source : Law volumes_from_source_eqb volumes_from_source_hash.
Proof. unfold volumes_from_source_eqb, volumes_from_source_hash. law_fields. Qed.
#[local] Arguments volumes_from_source_eqb : simpl never.
#[local] Arguments volumes_from_source_hash : simpl never.
#[export] Instance law_volumes_from : Law volumes_from_eqb volumes_from_hash.
Proof. unfold volumes_from_eqb, volumes_from_hash. law_fields. Qed.
#[local] Arguments volumes_from_eqb : simpl never.
#[local] Arguments volumes_from_hash : simpl never.
#[export] Instance law_range : Law range_eqb range_hash.
Proof. unfold range_eqb, range_hash. law_fields. Qed.
#[local] Arguments range_eqb : simpl never.
#[local] Arguments range_hash : simpl never.
#[export] Instance law_protocol : Law protocol_eqb protocol_hash.
Proof. unfold protocol_eqb, protocol_hash. law_fields. Qed.
#[local] Arguments protocol_eqb : simpl never.
#[local] Arguments protocol_hash : simpl never.
#[export] Instance law_expose : Law expose_eqb expose_hash.
Proof. unfold expose_eqb, expose_hash. law_fields. Qed.
#[local] Arguments expose_eqb : simpl never.
#[local] Arguments expose_hash : simpl never.
#[export] Instance law_short_ranges : Law short_ranges_eqb short_ranges_hash.
Proof. unfold short_ranges_eqb, short_ranges_hash. law_fields. Qed.
#[local] Arguments short_ranges_eqb : simpl never.
#[local] Arguments short_ranges_hash : simpl never.
#[export] Instance law_short_port : Law short_port_eqb short_port_hash.
Proof. unfold short_port_eqb, short_port_hash. law_fields. Qed.
#[local] Arguments short_port_eqb : simpl never.
#[local] Arguments short_port_hash : simpl never.
#[export] Instance law_mode : Law mode_eqb mode_hash.
Proof. unfold mode_eqb, mode_hash. law_fields. Qed.
#[local] Arguments mode_eqb : simpl never.
#[local] Arguments mode_hash : simpl never.
#[export] Instance law_selinux : Law selinux_eqb selinux_hash.
Proof. unfold selinux_eqb, selinux_hash. law_fields. Qed.
#[local] Arguments selinux_eqb : simpl never.
#[local] Arguments selinux_hash : simpl never.
#[export] Instance law_bind_propagation : Law bind_propagation_eqb bind_propagation_hash.
Proof. unfold bind_propagation_eqb, bind_propagation_hash. law_fields. Qed.
#[local] Arguments bind_propagation_eqb : simpl never.
#[local] Arguments bind_propagation_hash : simpl never.
#[export] Instance law_byte_value : Law byte_value_eqb byte_value_hash.
Proof. unfold byte_value_eqb, byte_value_hash. law_fields. Qed.
#[local] Arguments byte_value_eqb : simpl never.
#[local] Arguments byte_value_hash : simpl never.

(** ** Types with paths and extensions *)

Lemma list_eqb_refl : forall A (e : A -> A -> bool), (forall a, e a a = true) -> forall l, list_eqb e l l = true.
Proof. intros A e R. induction l as [|a l IH]; cbn; [reflexivity|]. now rewrite R, IH. Qed.
Lemma list_eqb_eq : forall A (e : A -> A -> bool), (forall a b, e a b = true <-> a = b) -> forall l r, list_eqb e l r = true <-> l = r.
Proof.
  intros A e D. induction l as [|a l IH]; intros [|b r]; cbn; try (split; [discriminate|discriminate]); [tauto|].
  rewrite andb_true_iff, D, IH. split; [intros [-> ->]; reflexivity|]. intros E. now inversion E.
Qed.
Lemma path_eqb_key : forall p q, path_eqb p q = true <->
  (is_absolute p, include_cur_dir p, path_components p) = (is_absolute q, include_cur_dir q, path_components q).
Proof.
  intros p q. unfold path_eqb. rewrite !andb_true_iff, !Bool.eqb_true_iff, (list_eqb_eq str str_eqb str_eqb_eq).
  split; [intros [[-> ->] ->]; reflexivity|]. intros E. inversion E. auto.
Qed.
Lemma path_equivalence : equivalence path_eqb.
Proof. split; intros *; rewrite ?path_eqb_key; congruence. Qed.

Section oracles.
Context (veqb : sval -> sval -> bool) (phash : str -> feed) (vhash : sval -> feed).
Context (LP : Law path_eqb phash) (LV : Law veqb vhash).
Instance law_extensions : Law (ext_eqb veqb) (hash_extensions vhash).
Proof.
  split.
  - intros l. apply list_eqb_refl. intros [k v]. cbn. now rewrite str_eqb_refl, l_refl.
  - unfold ext_eqb. induction a as [|[k v] a IH]; intros [|[k' v'] b]; cbn; intros; try discriminate; [reflexivity|]. parts.
    repeat (apply andb_true_iff; split); [now apply l_sym|now apply l_sym|auto].
  - unfold ext_eqb. induction a as [|[k v] a IH]; intros [|[k' v'] b] [|[k'' v''] c]; cbn; intros; try discriminate; [reflexivity|]. parts.
    repeat (apply andb_true_iff; split); [eapply l_trans; eassumption|eapply l_trans; eassumption|eauto].
  - unfold ext_eqb, hash_extensions, hash_slice. intros a b H.
    assert (X : List.length a = List.length b /\ flat_map (fun e => hash_str (fst e) ++ vhash (snd e)) a = flat_map (fun e => hash_str (fst e) ++ vhash (snd e)) b).
    { revert b H. induction a as [|[k v] a IH]; intros [|[k' v'] b]; cbn; intros; try discriminate; [auto|]. parts.
      destruct (IH b) as [-> ->]; [assumption|]. split; [reflexivity|]. same. }
    destruct X as [-> ->]. reflexivity.
Qed.
#[local] Arguments path_eqb : simpl never.
#[local] Arguments ext_eqb : simpl never.
#[local] Arguments hash_extensions : simpl never.
Instance law_device : Law (device_eqb) (device_hash phash).
Proof. unfold device_eqb, device_hash. law_fields. Qed.
#[local] Arguments device_eqb : simpl never.
#[local] Arguments device_hash : simpl never.
Instance law_source : Law (source_eqb) (source_hash phash).
Proof. unfold source_eqb, source_hash. law_fields. Qed.
#[local] Arguments source_eqb : simpl never.
#[local] Arguments source_hash : simpl never.
Instance law_short_options : Law (short_options_eqb) (short_options_hash phash).
Proof. unfold short_options_eqb, short_options_hash. law_fields. Qed.
#[local] Arguments short_options_eqb : simpl never.
#[local] Arguments short_options_hash : simpl never.
Instance law_short_volume : Law (short_volume_eqb) (short_volume_hash phash).
Proof. unfold short_volume_eqb, short_volume_hash. law_fields. Qed.
#[local] Arguments short_volume_eqb : simpl never.
#[local] Arguments short_volume_hash : simpl never.
Instance law_port : Law (port_eqb veqb) (port_hash vhash).
Proof. unfold port_eqb, port_hash. law_fields. Qed.
#[local] Arguments port_eqb : simpl never.
#[local] Arguments port_hash : simpl never.
Instance law_volume_options : Law (volume_options_eqb veqb) (volume_options_hash phash vhash).
Proof. unfold volume_options_eqb, volume_options_hash. law_fields. Qed.
#[local] Arguments volume_options_eqb : simpl never.
#[local] Arguments volume_options_hash : simpl never.
Instance law_bind_options : Law (bind_options_eqb veqb) (bind_options_hash vhash).
Proof. unfold bind_options_eqb, bind_options_hash. law_fields. Qed.
#[local] Arguments bind_options_eqb : simpl never.
#[local] Arguments bind_options_hash : simpl never.
Instance law_tmpfs_options : Law (tmpfs_options_eqb veqb) (tmpfs_options_hash vhash).
Proof. unfold tmpfs_options_eqb, tmpfs_options_hash. law_fields. Qed.
#[local] Arguments tmpfs_options_eqb : simpl never.
#[local] Arguments tmpfs_options_hash : simpl never.
Instance law_common : Law (common_eqb veqb) (common_hash phash vhash).
Proof. unfold common_eqb, common_hash. law_fields. Qed.
#[local] Arguments common_eqb : simpl never.
#[local] Arguments common_hash : simpl never.
Instance law_ssh_auth : Law ssh_auth_eqb (ssh_auth_hash phash).
Proof. unfold ssh_auth_eqb, ssh_auth_hash. law_fields. Qed.
Instance law_mount : Law (mount_eqb veqb) (mount_hash phash vhash).
Proof. unfold mount_eqb, mount_hash. law_fields. Qed.
End oracles.
#[export] Instance law_short_or_long : forall S L (e : S -> S -> bool) (f : L -> L -> bool) h k, Law e h -> Law f k ->
  Law (short_or_long_eqb e f) (short_or_long_hash h k).
Proof. intros. unfold short_or_long_eqb, short_or_long_hash. law_fields. Qed.

(** What [std] and [serde_yaml] promise. *)
Lemma path_law_law : forall phash, path_law phash -> Law path_eqb phash.
Proof. intros phash P. apply lawful_law. split; [exact path_equivalence|exact P]. Qed.
#[export] Existing Instances law_extensions law_device law_source law_short_options law_short_volume law_port law_volume_options law_bind_options
  law_tmpfs_options law_common law_ssh_auth law_mount.

(** ** The order of texts *)

Lemma str_cmp_eq : forall a b, str_cmp a b = Eq <-> a = b.
Proof.
  induction a as [|x a IH]; intros [|y b]; cbn; try (split; discriminate); [tauto|].
  destruct (N.compare_spec x y) as [E|E|E].
  - subst. rewrite IH. split; [intros ->; reflexivity|]. intros E. now inversion E.
  - split; [discriminate|]. intros H. inversion H. lia.
  - split; [discriminate|]. intros H. inversion H. lia.
Qed.
Lemma str_cmp_anti : forall a b, str_cmp b a = CompOpp (str_cmp a b).
Proof.
  induction a as [|x a IH]; intros [|y b]; cbn; try reflexivity. rewrite (N.compare_antisym x y). destruct (x ?= y); cbn; [apply IH|reflexivity|reflexivity].
Qed.
Lemma str_cmp_trans : forall a b c r, str_cmp a b = r -> str_cmp b c = r -> str_cmp a c = r.
Proof.
  induction a as [|x a IH]; intros [|y b] [|z c] r; cbn; try congruence.
  destruct (N.compare_spec x y) as [E|E|E], (N.compare_spec y z) as [F|F|F]; subst; intros A B; subst;
    try discriminate; try (rewrite N.compare_refl); eauto;
    repeat match goal with
    | H : ?x < ?y |- context [?x ?= ?y] => rewrite (proj2 (N.compare_lt_iff x y) H)
    | H : ?y < ?x |- context [?x ?= ?y] => rewrite (proj2 (N.compare_gt_iff x y) H)
    end; try congruence; try (now rewrite <- A); try (now rewrite <- B).
  - rewrite (proj2 (N.compare_lt_iff x z)) by lia. reflexivity.
  - rewrite (proj2 (N.compare_gt_iff x z)) by lia. reflexivity.
Qed.

(** ** Index sets *)

Lemma hashed_set_eq : forall A (eqb : A -> A -> bool) (hash : A -> N), (forall a b, eqb a b = true -> hash a = hash b) ->
  forall l, hashed_set eqb hash l = iset_of eqb l.
Proof.
  intros A eqb hash H l. unfold hashed_set, iset_of. generalize (@nil A). induction l as [|x l IH]; intros acc; cbn [fold_left]; [reflexivity|].
  rewrite IH. f_equal. unfold hashed_insert, iset_insert.
  replace (existsb (fun y => (hash x =? hash y) && eqb x y) acc) with (existsb (eqb x) acc); [reflexivity|].
  induction acc as [|y acc I]; cbn; [reflexivity|]. rewrite I. destruct (eqb x y) eqn:E; [|now rewrite andb_false_r].
  rewrite (H x y E), N.eqb_refl. reflexivity.
Qed.
