(** C70: the types kept in index sets obey the laws of [Eq] and [Hash], so a set has each element once. *)

From Coq Require Import String Ascii List NArith ZArith Bool Lia.
Import ListNotations.
From Verif Require Import Base BaseFacts Coll UserModel BytesModel DeviceModel ImageModel IpModel NetModel PathModel PortsModel TextModel VolumesModel BuildModel
  Serde EqModel HashModel HashSpec HashFacts.
Open Scope N_scope.

Ltac laws := intros; repeat match goal with |- _ /\ _ => split end; apply law_lawful; typeclasses eauto.

(** The implementations written by hand, service/volumes/mount.rs and service/ports.rs. *)
Theorem hand_written_lawful : forall veqb phash vhash, path_law phash -> value_law veqb vhash ->
  lawful (volume_options_eqb veqb) (volume_options_hash phash vhash) /\
  lawful (bind_options_eqb veqb) (bind_options_hash vhash) /\
  lawful (tmpfs_options_eqb veqb) (tmpfs_options_hash vhash) /\
  lawful (common_eqb veqb) (common_hash phash vhash) /\
  lawful (port_eqb veqb) (port_hash vhash).
Proof. intros veqb phash vhash P V. apply path_law_law in P. apply lawful_law in V. laws. Qed.

(** The elements of [Service::volumes] and [Service::ports], *)
Theorem volumes_ports_lawful : forall veqb phash vhash, path_law phash -> value_law veqb vhash ->
  lawful (short_or_long_eqb short_volume_eqb (mount_eqb veqb)) (short_or_long_hash (short_volume_hash phash) (mount_hash phash vhash)) /\
  lawful (short_or_long_eqb short_port_eqb (port_eqb veqb)) (short_or_long_hash short_port_hash (port_hash vhash)).
Proof. intros veqb phash vhash P V. apply path_law_law in P. apply lawful_law in V. laws. Qed.

(** and of the other index sets. *)
Theorem sets_lawful : forall phash, path_law phash ->
  lawful ssh_auth_eqb (ssh_auth_hash phash) /\ lawful device_eqb (device_hash phash) /\ lawful path_eqb phash /\
  lawful capability_eqb capability_hash /\ lawful cgroup_rule_eqb cgroup_rule_hash /\ lawful id_or_name_eqb id_or_name_hash /\
  lawful link_eqb link_hash /\ lawful volumes_from_eqb volumes_from_hash /\ lawful expose_eqb expose_hash /\ lawful ip_eqb hash_ip /\
  lawful str_eqb hash_str.
Proof. intros phash P. apply path_law_law in P. laws. Qed.

(** An index set looks only at elements with the same hash. It finds all equal ones, whatever the hasher: *)
Theorem index_set_hashed : forall A (eqb : A -> A -> bool) hash (hasher : feed -> N), lawful eqb hash ->
  forall l, hashed_set eqb (fun a => hasher (hash a)) l = iset_of eqb l.
Proof. intros A eqb hash hasher [_ H] l. apply hashed_set_eq. intros a b E. now rewrite (H a b E). Qed.

(** it has the first of each group of equal elements, in order. *)
Theorem index_set_uniques : forall A (eqb : A -> A -> bool) hash (hasher : feed -> N), lawful eqb hash ->
  forall l, uniques eqb l (hashed_set eqb (fun a => hasher (hash a)) l).
Proof.
  intros A eqb hash hasher L l. rewrite (index_set_hashed _ _ _ _ L). destruct L as [[R S T] _]. unfold iset_of.
  induction l as [|x l IH] using rev_ind; [constructor|]. rewrite fold_left_app. cbn [fold_left]. set (s := fold_left (iset_insert eqb) l []) in *.
  assert (U : forall y, (exists z, In z l /\ eqb y z = true) <-> exists z, In z s /\ eqb y z = true).
  { clearbody s. intros y. induction IH as [|l s x' U IH N|l s x' y' U IH I E].
    - split; intros (z & [] & _).
    - split; intros (z & I & E); apply in_app_iff in I as [I|[<-|[]]]; try (exists x'; split; [apply in_app_iff; right; now left|assumption]).
      + destruct (proj1 IH (ex_intro _ z (conj I E))) as (z' & J & F). exists z'. split; [apply in_app_iff; now left|assumption].
      + destruct (proj2 IH (ex_intro _ z (conj I E))) as (z' & J & F). exists z'. split; [apply in_app_iff; now left|assumption].
    - split.
      + intros (z & J & F). apply IH. apply in_app_iff in J as [J|[<-|[]]]; [now exists z|]. exists y'. split; [assumption|]. eapply T; eassumption.
      + intros X. apply IH in X as (z & J & F). exists z. split; [apply in_app_iff; now left|assumption]. }
  unfold iset_insert. destruct (existsb (eqb x) s) eqn:E.
  - apply existsb_exists in E. destruct (proj2 (U x)) as (y & I & E'); [exact E|]. now apply (uniques_old eqb l s x y).
  - apply uniques_new; [assumption|]. intros y I. destruct (eqb x y) eqn:F; [|reflexivity]. exfalso.
    destruct (proj1 (U x)) as (z & J & G); [now exists y|]. assert (X : existsb (eqb x) s = true) by (apply existsb_exists; now exists z). congruence.
Qed.

(** Images and their names are compared and hashed by their texts, *)
Theorem image_lawful : lawful image_eqb image_hash /\ ordered image_eqb image_cmp /\ lawful iname_eqb iname_hash /\ ordered iname_eqb iname_cmp.
Proof.
  unfold image_eqb, image_hash, image_cmp, iname_eqb, iname_hash, iname_cmp.
  repeat split; intros *; rewrite ?str_eqb_eq, ?str_cmp_eq; try congruence; try apply str_cmp_anti; try apply str_cmp_trans.
Qed.

(** which decide everything for images that were parsed, *)
Theorem image_equal_parsed : forall a b, image_parse (i_inner a) = Ok a -> image_parse (i_inner b) = Ok b -> image_eqb a b = true -> a = b.
Proof. unfold image_eqb. intros a b A B E. apply str_eqb_eq in E. congruence. Qed.

(** but not for images of [from_parts]: equal images, of which one has a tag and the other panics. *)
Theorem image_equal_refuted : exists a b, image_eqb a b = true /\ image_tag a = Ret (Some $"latest") /\ image_tag b = Panic.
Proof.
  exists (match image_parse $"hello:latest" with Ok i => i | Err _ => Build_image [] None None end),
    (match iname_new $"hello" with Ok n => image_from_parts n (Some (TTag $"latest")) | Err _ => Build_image [] None None end).
  repeat split.
Qed.

(** ** Examples *)

Definition phash0 (p : str) : feed := hash_bool (is_absolute p) ++ hash_bool (include_cur_dir p) ++ hash_slice hash_str (path_components p).
Example path_law_example : path_law phash0.
Proof. intros p q E. apply path_eqb_key in E. unfold phash0. inversion E. reflexivity. Qed.
Example value_law_example : value_law (fun _ _ => true) (fun _ => []).
Proof. repeat split. Qed.
(** Two texts of a path are one element of a set; the first text stays. *)
Example index_set_example : hashed_set path_eqb (fun p => N.of_nat (List.length (phash0 p))) [$"/a/b"; $"/a//b/."; $"/c"; $"a/b"] = [$"/a/b"; $"/c"; $"a/b"].
Proof. reflexivity. Qed.
Example index_set_uniques_example : lawful path_eqb phash0 /\ uniques path_eqb [$"/a"; $"/a/"] [$"/a"] /\ ~ uniques path_eqb [$"/a"; $"/a/"] [$"/a"; $"/a/"].
Proof.
  assert (L : lawful path_eqb phash0) by (split; [exact path_equivalence|exact path_law_example]).
  split; [exact L|]. split; [exact (index_set_uniques _ _ _ (fun _ => 0) L [$"/a"; $"/a/"])|].
  intros U. inversion U as [|l s x U' N E1 E2|l s x y U' I E E1 E2].
  - apply (app_inj_tail l [$"/a"]) in E1 as [-> ->]. assert (X := N _ (or_introl eq_refl)). discriminate.
  - apply (app_inj_tail l [$"/a"]) in E1 as [-> ->]. clear - U'. inversion U' as [|l' s' x' V N E1 E2|l' s' x' y' V I E E1 E2].
    + apply (app_inj_tail l' []) in E1 as [-> ->]. apply (app_inj_tail s' [$"/a"]) in E2 as [_ E2]. discriminate.
    + apply (app_inj_tail l' []) in E1 as [-> ->]. destruct I.
Qed.

Print Assumptions hand_written_lawful.
Print Assumptions volumes_ports_lawful.
Print Assumptions sets_lawful.
Print Assumptions index_set_hashed.
Print Assumptions index_set_uniques.
Print Assumptions image_lawful.
Print Assumptions image_equal_parsed.
Print Assumptions image_equal_refuted.
