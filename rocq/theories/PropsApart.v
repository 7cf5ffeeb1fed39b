(** C82: values of the types kept in index sets which are not equal give a hasher different pieces, and what one value gives never runs
    into what is hashed after it. *)

From Coq Require Import String Ascii List NArith ZArith Bool Lia.
Import ListNotations.
From Verif Require Import Base BaseFacts Coll UserModel BytesModel DeviceModel ImageModel IpModel NetModel PathModel PortsModel TextModel VolumesModel BuildModel
  Serde EqModel HashModel HashSpec HashFacts.
Open Scope N_scope.

(** ** Specification *)

(** From the pieces of a value and of what follows, one can tell the value (up to [eqb]) and what follows. [std::hash::Hash] asks for this
    of collections and calls it prefix-freeness. *)
Definition told_apart {A : Type} (eqb : A -> A -> bool) (hash : A -> feed) : Prop :=
  forall a b r s, hash a ++ r = hash b ++ s -> eqb a b = true /\ r = s.
(** The same as a law, both ways: equal values, equal pieces. *)
Definition faithful {A : Type} (eqb : A -> A -> bool) (hash : A -> feed) : Prop := forall a b, hash a = hash b <-> eqb a b = true.

(** ** Lemmas *)

Class Apart {A : Type} (eqb : A -> A -> bool) (hash : A -> feed) : Prop := apart : told_apart eqb hash.
#[local] Instance apart_num : Apart N.eqb hash_num.
Proof. intros a b r s H. injection H as -> ->. split; [apply N.eqb_refl|reflexivity]. Qed.
#[local] Instance apart_bool : Apart Bool.eqb hash_bool.
Proof. intros [] [] r s H; try discriminate H; injection H as ->; split; reflexivity. Qed.
#[local] Instance apart_str : Apart str_eqb hash_str.
Proof. intros a b r s H. injection H as -> ->. split; [apply str_eqb_refl|reflexivity]. Qed.
#[local] Instance apart_option : forall A (e : A -> A -> bool) h, Apart e h -> Apart (option_eqb e) (hash_option h).
Proof.
  intros A e h P [a|] [b|] r s H; try discriminate H.
  - apply (P a b). now injection H.
  - injection H as ->. split; reflexivity.
Qed.
#[local] Instance apart_ip : Apart ip_eqb hash_ip.
Proof.
  intros [a b c d|t] [a' b' c' d'|t'] r s H; try discriminate H; injection H; intros; subst; cbn [ip_eqb]; rewrite ?N.eqb_refl, ?str_eqb_refl; split; reflexivity.
Qed.
Lemma apart_cons : forall (n m : N) (r s : feed), PNum n :: r = PNum m :: s -> n = m /\ r = s.
Proof. intros n m r s H. injection H. auto. Qed.

Local Arguments Bool.eqb : simpl never.
Local Arguments N.eqb : simpl never.
Local Arguments str_eqb : simpl never.
Local Arguments option_eqb : simpl never.
Local Arguments hash_bool : simpl never.
Local Arguments hash_num : simpl never.
Local Arguments hash_str : simpl never.
Local Arguments hash_option : simpl never.
Local Arguments app : simpl never.

(** Takes the pieces apart from the left: numbers of variants, then fields. *)
Ltac next := match goal with
  | H : (?a ++ ?b) ++ ?c = _ |- _ => rewrite <- !app_assoc in H
  | H : (PNum _ :: _) ++ _ = _ |- _ => rewrite <- !app_comm_cons in H
  | H : PNum ?n :: _ = PNum ?n :: _ |- _ => apply apart_cons, proj2 in H
  | H : PNum _ :: _ = PNum _ :: _ |- _ => exfalso; apply apart_cons, proj1 in H; discriminate H
  | H : [] ++ _ = [] ++ _ |- _ => rewrite !app_nil_l in H
  | H : _ ++ _ = _ ++ _ |- _ => apply apart in H; destruct H as [? H]
  end.
Ltac apart_fields := let a := fresh in let b := fresh in let H := fresh in
  intros a b ? ? H; destruct a, b; cbn in H |- *; repeat next; split; try assumption; try reflexivity; conj_true; assumption.

#[local] Instance apart_capability : Apart capability_eqb capability_hash.
Proof. unfold capability_eqb, capability_hash. apart_fields. Qed.
#[local] Arguments capability_eqb : simpl never.
#[local] Arguments capability_hash : simpl never.
#[local] Instance apart_permissions : Apart permissions_eqb permissions_hash.
Proof. unfold permissions_eqb, permissions_hash. apart_fields. Qed.
#[local] Arguments permissions_eqb : simpl never.
#[local] Arguments permissions_hash : simpl never.
#[local] Instance apart_dev_kind : Apart dev_kind_eqb dev_kind_hash.
Proof. unfold dev_kind_eqb, dev_kind_hash. apart_fields. Qed.
#[local] Arguments dev_kind_eqb : simpl never.
#[local] Arguments dev_kind_hash : simpl never.
#[local] Instance apart_mm : Apart mm_eqb mm_hash.
Proof. unfold mm_eqb, mm_hash. apart_fields. Qed.
#[local] Arguments mm_eqb : simpl never.
#[local] Arguments mm_hash : simpl never.
#[local] Instance apart_cgroup_rule : Apart cgroup_rule_eqb cgroup_rule_hash.
Proof. unfold cgroup_rule_eqb, cgroup_rule_hash. apart_fields. Qed.
#[local] Arguments cgroup_rule_eqb : simpl never.
#[local] Arguments cgroup_rule_hash : simpl never.
#[local] Instance apart_id_or_name : Apart id_or_name_eqb id_or_name_hash.
Proof. unfold id_or_name_eqb, id_or_name_hash. apart_fields. Qed.
#[local] Arguments id_or_name_eqb : simpl never.
#[local] Arguments id_or_name_hash : simpl never.
#[local] Instance apart_link : Apart link_eqb link_hash.
Proof. unfold link_eqb, link_hash. apart_fields. Qed.
#[local] Arguments link_eqb : simpl never.
#[local] Arguments link_hash : simpl never.
#[local] Instance apart_volumes_from_source : Apart volumes_from_source_eqb volumes_from_source_hash.
Proof. unfold volumes_from_source_eqb, volumes_from_source_hash. apart_fields. Qed.
#[local] Arguments volumes_from_source_eqb : simpl never.
#[local] Arguments volumes_from_source_hash : simpl never.
#[local] Instance apart_volumes_from : Apart volumes_from_eqb volumes_from_hash.
Proof. unfold volumes_from_eqb, volumes_from_hash. apart_fields. Qed.
#[local] Arguments volumes_from_eqb : simpl never.
#[local] Arguments volumes_from_hash : simpl never.
#[local] Instance apart_range : Apart range_eqb range_hash.
Proof. unfold range_eqb, range_hash. apart_fields. Qed.
#[local] Arguments range_eqb : simpl never.
#[local] Arguments range_hash : simpl never.
#[local] Instance apart_protocol : Apart protocol_eqb protocol_hash.
Proof. unfold protocol_eqb, protocol_hash. apart_fields. Qed.
#[local] Arguments protocol_eqb : simpl never.
#[local] Arguments protocol_hash : simpl never.
#[local] Instance apart_expose : Apart expose_eqb expose_hash.
Proof. unfold expose_eqb, expose_hash. apart_fields. Qed.
#[local] Arguments expose_eqb : simpl never.
#[local] Arguments expose_hash : simpl never.
#[local] Instance apart_short_ranges : Apart short_ranges_eqb short_ranges_hash.
Proof. unfold short_ranges_eqb, short_ranges_hash. apart_fields. Qed.
#[local] Arguments short_ranges_eqb : simpl never.
#[local] Arguments short_ranges_hash : simpl never.
#[local] Instance apart_short_port : Apart short_port_eqb short_port_hash.
Proof. unfold short_port_eqb, short_port_hash. apart_fields. Qed.
#[local] Arguments short_port_eqb : simpl never.
#[local] Arguments short_port_hash : simpl never.
#[local] Instance apart_mode : Apart mode_eqb mode_hash.
Proof. unfold mode_eqb, mode_hash. apart_fields. Qed.
#[local] Arguments mode_eqb : simpl never.
#[local] Arguments mode_hash : simpl never.
#[local] Instance apart_selinux : Apart selinux_eqb selinux_hash.
Proof. unfold selinux_eqb, selinux_hash. apart_fields. Qed.
#[local] Arguments selinux_eqb : simpl never.
#[local] Arguments selinux_hash : simpl never.
#[local] Instance apart_bind_propagation : Apart bind_propagation_eqb bind_propagation_hash.
Proof. unfold bind_propagation_eqb, bind_propagation_hash. apart_fields. Qed.
#[local] Arguments bind_propagation_eqb : simpl never.
#[local] Arguments bind_propagation_hash : simpl never.
#[local] Instance apart_byte_value : Apart byte_value_eqb byte_value_hash.
Proof. unfold byte_value_eqb, byte_value_hash. apart_fields. Qed.
#[local] Arguments byte_value_eqb : simpl never.
#[local] Arguments byte_value_hash : simpl never.

(** ** Types with paths and extensions *)

Section oracles.
Context (veqb : sval -> sval -> bool) (phash : str -> feed) (vhash : sval -> feed).
Context (LP : Apart path_eqb phash) (LV : Apart veqb vhash).
Instance apart_extensions : Apart (ext_eqb veqb) (hash_extensions vhash).
Proof.
  unfold ext_eqb, hash_extensions, hash_slice. intros a b r s H. rewrite <- !app_comm_cons in H. apply apart_cons in H as [L H]. apply Nnat.Nat2N.inj in L.
  revert b L H. induction a as [|[k v] a IH]; intros [|[k' v'] b] L H; try discriminate L; [split; [reflexivity|exact H]|].
  cbn [flat_map fst snd] in H. repeat next. destruct (IH b) as [E ->]; [now injection L|assumption|]. split; [|reflexivity]. cbn [list_eqb fst snd]. conj_true; assumption.
Qed.
#[local] Arguments path_eqb : simpl never.
#[local] Arguments ext_eqb : simpl never.
#[local] Arguments hash_extensions : simpl never.
Instance apart_device : Apart (device_eqb) (device_hash phash).
Proof. unfold device_eqb, device_hash. apart_fields. Qed.
#[local] Arguments device_eqb : simpl never.
#[local] Arguments device_hash : simpl never.
Instance apart_source : Apart (source_eqb) (source_hash phash).
Proof. unfold source_eqb, source_hash. apart_fields. Qed.
#[local] Arguments source_eqb : simpl never.
#[local] Arguments source_hash : simpl never.
Instance apart_short_options : Apart (short_options_eqb) (short_options_hash phash).
Proof. unfold short_options_eqb, short_options_hash. apart_fields. Qed.
#[local] Arguments short_options_eqb : simpl never.
#[local] Arguments short_options_hash : simpl never.
Instance apart_short_volume : Apart (short_volume_eqb) (short_volume_hash phash).
Proof. unfold short_volume_eqb, short_volume_hash. apart_fields. Qed.
#[local] Arguments short_volume_eqb : simpl never.
#[local] Arguments short_volume_hash : simpl never.
Instance apart_port : Apart (port_eqb veqb) (port_hash vhash).
Proof. unfold port_eqb, port_hash. apart_fields. Qed.
#[local] Arguments port_eqb : simpl never.
#[local] Arguments port_hash : simpl never.
Instance apart_volume_options : Apart (volume_options_eqb veqb) (volume_options_hash phash vhash).
Proof. unfold volume_options_eqb, volume_options_hash. apart_fields. Qed.
#[local] Arguments volume_options_eqb : simpl never.
#[local] Arguments volume_options_hash : simpl never.
Instance apart_bind_options : Apart (bind_options_eqb veqb) (bind_options_hash vhash).
Proof. unfold bind_options_eqb, bind_options_hash. apart_fields. Qed.
#[local] Arguments bind_options_eqb : simpl never.
#[local] Arguments bind_options_hash : simpl never.
Instance apart_tmpfs_options : Apart (tmpfs_options_eqb veqb) (tmpfs_options_hash vhash).
Proof. unfold tmpfs_options_eqb, tmpfs_options_hash. apart_fields. Qed.
#[local] Arguments tmpfs_options_eqb : simpl never.
#[local] Arguments tmpfs_options_hash : simpl never.
Instance apart_common : Apart (common_eqb veqb) (common_hash phash vhash).
Proof. unfold common_eqb, common_hash. apart_fields. Qed.
#[local] Arguments common_eqb : simpl never.
#[local] Arguments common_hash : simpl never.
Instance apart_ssh_auth : Apart (ssh_auth_eqb) (ssh_auth_hash phash).
Proof. unfold ssh_auth_eqb, ssh_auth_hash. apart_fields. Qed.
#[local] Arguments ssh_auth_eqb : simpl never.
#[local] Arguments ssh_auth_hash : simpl never.
Instance apart_mount : Apart (mount_eqb veqb) (mount_hash phash vhash).
Proof. unfold mount_eqb, mount_hash. apart_fields. Qed.
#[local] Arguments mount_eqb : simpl never.
#[local] Arguments mount_hash : simpl never.
End oracles.
#[local] Existing Instances apart_extensions apart_device apart_source apart_short_options apart_short_volume apart_port apart_volume_options apart_bind_options
  apart_tmpfs_options apart_common apart_ssh_auth apart_mount.
#[local] Instance apart_short_or_long : forall S L (e : S -> S -> bool) (f : L -> L -> bool) h k, Apart e h -> Apart f k ->
  Apart (short_or_long_eqb e f) (short_or_long_hash h k).
Proof. intros. unfold short_or_long_eqb, short_or_long_hash. apart_fields. Qed.
Lemma apart_faithful : forall A (eqb : A -> A -> bool) hash, lawful eqb hash -> told_apart eqb hash -> faithful eqb hash.
Proof.
  intros A eqb hash [_ L] P a b. split; [|apply L]. intros H. apply (P a b [] []). now rewrite H.
Qed.

(** ** Theorems *)

Ltac aparts := repeat match goal with |- _ /\ _ => split end; match goal with |- told_apart ?e ?h => change (Apart e h); typeclasses eauto end.

(** The types whose [Hash] is written by hand, and the elements of [Service::volumes] and [Service::ports], *)
Theorem hand_written_apart : forall veqb phash vhash, told_apart path_eqb phash -> told_apart veqb vhash ->
  told_apart (volume_options_eqb veqb) (volume_options_hash phash vhash) /\
  told_apart (bind_options_eqb veqb) (bind_options_hash vhash) /\
  told_apart (tmpfs_options_eqb veqb) (tmpfs_options_hash vhash) /\
  told_apart (common_eqb veqb) (common_hash phash vhash) /\
  told_apart (port_eqb veqb) (port_hash vhash) /\
  told_apart (short_or_long_eqb short_volume_eqb (mount_eqb veqb)) (short_or_long_hash (short_volume_hash phash) (mount_hash phash vhash)) /\
  told_apart (short_or_long_eqb short_port_eqb (port_eqb veqb)) (short_or_long_hash short_port_hash (port_hash vhash)).
Proof.
  intros veqb phash vhash P V. change (Apart path_eqb phash) in P. change (Apart veqb vhash) in V. aparts.
Qed.
Print Assumptions hand_written_apart.

(** and those of the other index sets. *)
Theorem sets_apart : forall phash, told_apart path_eqb phash ->
  told_apart ssh_auth_eqb (ssh_auth_hash phash) /\ told_apart device_eqb (device_hash phash) /\
  told_apart capability_eqb capability_hash /\ told_apart cgroup_rule_eqb cgroup_rule_hash /\ told_apart id_or_name_eqb id_or_name_hash /\
  told_apart link_eqb link_hash /\ told_apart volumes_from_eqb volumes_from_hash /\ told_apart expose_eqb expose_hash /\ told_apart ip_eqb hash_ip /\
  told_apart str_eqb hash_str.
Proof. intros phash P. change (Apart path_eqb phash) in P. aparts. Qed.
Print Assumptions sets_apart.

(** So two values give the same pieces exactly if they are equal. *)
Theorem volumes_ports_faithful : forall veqb phash vhash, path_law phash -> value_law veqb vhash -> told_apart path_eqb phash -> told_apart veqb vhash ->
  faithful (short_or_long_eqb short_volume_eqb (mount_eqb veqb)) (short_or_long_hash (short_volume_hash phash) (mount_hash phash vhash)) /\
  faithful (short_or_long_eqb short_port_eqb (port_eqb veqb)) (short_or_long_hash short_port_hash (port_hash vhash)).
Proof.
  intros veqb phash vhash P V AP AV. pose proof (hand_written_apart veqb phash vhash AP AV) as (_ & _ & _ & _ & _ & X & Y).
  apply path_law_law in P. apply lawful_law in V. split; apply apart_faithful; try assumption; apply law_lawful; typeclasses eauto.
Qed.
Print Assumptions volumes_ports_faithful.

(** A set of such elements keeps two values apart or not by their pieces alone: with a hasher that never maps different pieces to the same
    number, comparing is not needed. *)
Theorem index_set_pieces : forall A (eqb : A -> A -> bool) hash (hasher : feed -> N), lawful eqb hash -> told_apart eqb hash ->
  (forall x y, hasher x = hasher y -> x = y) -> forall l, hashed_set (fun _ _ => true) (fun a => hasher (hash a)) l = hashed_set eqb (fun a => hasher (hash a)) l.
Proof.
  intros A eqb hash hasher L P I l. assert (F := apart_faithful A eqb hash L P). unfold hashed_set. generalize (@nil A) as acc.
  induction l as [|x l IH]; intros acc; cbn [fold_left]; [reflexivity|]. rewrite IH. f_equal. unfold hashed_insert.
  replace (existsb (fun y => (hasher (hash x) =? hasher (hash y)) && true) acc) with (existsb (fun y => (hasher (hash x) =? hasher (hash y)) && eqb x y) acc); [reflexivity|].
  clear IH. induction acc as [|y acc J]; cbn; [reflexivity|]. rewrite J. f_equal. destruct (N.eqb_spec (hasher (hash x)) (hasher (hash y))) as [E|]; [|reflexivity].
  apply I, F in E. now rewrite E.
Qed.
Print Assumptions index_set_pieces.

(** ** Examples *)

Definition phash1 (p : str) : feed := hash_bool (is_absolute p) ++ hash_bool (include_cur_dir p) ++ hash_slice hash_str (path_components p).
Lemma slice_apart : forall l m r s, hash_slice hash_str l ++ r = hash_slice hash_str m ++ s -> l = m /\ r = s.
Proof.
  unfold hash_slice. intros a b r s H. rewrite <- !app_comm_cons in H. apply apart_cons in H as [L H]. apply Nnat.Nat2N.inj in L.
  revert b L H. induction a as [|k a IH]; intros [|k' b] L H; try discriminate L; [split; [reflexivity|exact H]|].
  cbn [flat_map] in H. rewrite <- !app_assoc in H. injection H as -> H. destruct (IH b) as [-> ->]; [now injection L|assumption|]. split; reflexivity.
Qed.
Example path_apart : told_apart path_eqb phash1.
Proof.
  intros p q r s H. unfold phash1 in H. rewrite <- !app_assoc in H. apply apart_bool in H as [A H]. apply apart_bool in H as [B H]. apply slice_apart in H as [C ->].
  split; [|reflexivity]. apply path_eqb_key. apply Bool.eqb_prop in A, B. congruence.
Qed.
(** [80:80] and [80-80] give the same numbers, but not at the same places. *)
Example ports_apart : short_port_hash (mk_short_port None (mk_short_ranges (Some (mk_range 80 None)) (mk_range 80 None)) None) <>
  short_port_hash (mk_short_port None (mk_short_ranges None (mk_range 80 (Some 80))) None).
Proof. discriminate. Qed.
