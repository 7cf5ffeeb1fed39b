(** Theorems about devices and device cgroup rules (C20, C21). *)

From Coq Require Import String Ascii List NArith ZArith Bool Lia.
Import ListNotations.
From Verif Require Import BaseFacts Base Num Serde DeviceModel DeviceProofs.
Open Scope N_scope.

(** C20. Printing and parsing a device is the identity when its paths have no colon. *)
Theorem device_text_round_trip : forall d, is_absolute (dev_container d) = true ->
  ~ In (ch ":") (dev_host d) -> ~ In (ch ":") (dev_container d) ->
  device_parse (device_show d) = Ok d /\ device_deserialize (device_serialize d) = Ok d.
Proof.
  intros d H1 H2 H3. split; [apply device_round_trip; assumption|].
  unfold device_deserialize, device_serialize, from_string. rewrite device_round_trip by assumption. reflexivity.
Qed.
Print Assumptions device_text_round_trip.

Example device_case :
  let d := mk_device $"/dev/ttyUSB0" $"/dev/tty" (mk_permissions true false true) in
  is_absolute (dev_container d) = true /\ device_show d = $"/dev/ttyUSB0:/dev/tty:rm".
Proof. vm_compute. auto. Qed.

(** C20. Exact language and meaning of the device parser. *)
Theorem device_parse_meaning : forall s d, device_parse s = Ok d <->
  (exists r, dev_container d = ch "/" :: r) /\ ~ In (ch ":") (dev_host d) /\ ~ In (ch ":") (dev_container d) /\
  ((s = dev_host d ++ $":" ++ dev_container d /\ dev_permissions d = mk_permissions false false false) \/
   exists p, s = dev_host d ++ $":" ++ dev_container d ++ $":" ++ p /\
     (forall c, In c p -> c = ch "r" \/ c = ch "w" \/ c = ch "m") /\
     (perm_read (dev_permissions d) = true <-> In (ch "r") p) /\
     (perm_write (dev_permissions d) = true <-> In (ch "w") p) /\
     (perm_mknod (dev_permissions d) = true <-> In (ch "m") p)).
Proof.
  intros s d. rewrite device_parse_ok, is_absolute_iff.
  assert (N : forall p, perm_any p = false <-> p = mk_permissions false false false).
  { intros [[] [] []]; cbn; split; intros H; try discriminate; reflexivity. }
  rewrite N. split; intros [H1 [H2 [H3 [H4|[p [H4 H5]]]]]]; repeat (split; [assumption|]); auto; right; exists p;
    (split; [exact H4|]); apply permissions_parse_ok; exact H5.
Qed.
Print Assumptions device_parse_meaning.

(** C20. Whatever is accepted prints to a text with the same meaning. *)
Theorem device_parse_normalizes : forall s d, device_parse s = Ok d -> device_parse (device_show d) = Ok d.
Proof. intros s d H. apply device_parse_ok in H as [H1 [H2 [H3 _]]]. apply device_round_trip; assumption. Qed.
Print Assumptions device_parse_normalizes.

(** C20. Without the colon condition the round trip fails: the host path may be any path. *)
Theorem device_colon_round_trip_refuted : exists d, is_absolute (dev_container d) = true /\
  device_parse (device_show d) <> Ok d.
Proof.
  exists (mk_device $"/dev/a:b" $"/dev/c" (mk_permissions false false false)). split; [reflexivity|]. vm_compute. discriminate.
Qed.
Print Assumptions device_colon_round_trip_refuted.

(** C21. Printing and parsing any cgroup rule is the identity. *)
Theorem cgroup_rule_round_trip : forall r, mm_u16 (cg_major r) -> mm_u16 (cg_minor r) ->
  cgroup_parse (cgroup_show r) = Ok r /\ cgroup_deserialize (cgroup_serialize r) = Ok r.
Proof.
  intros r H1 H2. split; [apply cgroup_round_trip; assumption|].
  unfold cgroup_deserialize, cgroup_serialize, from_string. rewrite cgroup_round_trip by assumption. reflexivity.
Qed.
Print Assumptions cgroup_rule_round_trip.

Example cgroup_rule_case :
  cgroup_show (mk_cgroup_rule KChar (MMInt 7) MMAll (mk_permissions true true true)) = $"c 7:* rwm" /\
  cgroup_parse $"a :* " = Ok (mk_cgroup_rule KAll MMAll MMAll (mk_permissions false false false)).
Proof. vm_compute. auto. Qed.

(** C21. Exact language of the parser: kind, space, major:minor (empty or star is a wildcard), and
    optionally a space and permission letters. *)
Theorem cgroup_rule_parse_meaning : forall s r, cgroup_parse s = Ok r <->
  exists a b, ~ In (ch " ") a /\ ~ In (ch ":") a /\ ~ In (ch " ") b /\
    match cg_major r with MMAll => a = [] \/ a = $"*" | MMInt n => parse_u16 a = Ok n end /\
    match cg_minor r with MMAll => b = [] \/ b = $"*" | MMInt n => parse_u16 b = Ok n end /\
    let head := match cg_kind r with KAll => $"a " | KChar => $"c " | KBlock => $"b " end ++ a ++ $":" ++ b in
    ((s = head /\ cg_permissions r = mk_permissions false false false) \/
     exists p, s = head ++ $" " ++ p /\
       (forall c, In c p -> c = ch "r" \/ c = ch "w" \/ c = ch "m") /\
       (perm_read (cg_permissions r) = true <-> In (ch "r") p) /\
       (perm_write (cg_permissions r) = true <-> In (ch "w") p) /\
       (perm_mknod (cg_permissions r) = true <-> In (ch "m") p)).
Proof.
  intros s r. rewrite cgroup_parse_ok.
  assert (N : forall p, perm_any p = false <-> p = mk_permissions false false false).
  { intros [[] [] []]; cbn; split; intros H; try discriminate; reflexivity. }
  assert (K : forall a b, kind_show (cg_kind r) ++ ch " " :: a ++ ch ":" :: b =
              match cg_kind r with KAll => $"a " | KChar => $"c " | KBlock => $"b " end ++ a ++ $":" ++ b)
    by (intros a b; destruct (cg_kind r); reflexivity).
  assert (K2 : forall a b p, kind_show (cg_kind r) ++ ch " " :: (a ++ ch ":" :: b) ++ ch " " :: p =
              (match cg_kind r with KAll => $"a " | KChar => $"c " | KBlock => $"b " end ++ a ++ $":" ++ b) ++ $" " ++ p)
    by (intros a b p; rewrite <- K; destruct (cg_kind r); cbn; rewrite <- ?app_assoc; reflexivity).
  split; intros [a [b [H1 [H2 [H3 [H4 [H5 H6]]]]]]]; exists a, b; cbv zeta in *; rewrite !mm_parse_ok in *;
    repeat (split; [assumption|]); destruct H6 as [[H6 H7]|[p [H6 H7]]].
  - left. rewrite <- K, <- N. auto.
  - right. exists p. rewrite <- K2. split; [exact H6|apply permissions_parse_ok; exact H7].
  - left. rewrite <- K in H6. rewrite N. auto.
  - right. exists p. rewrite <- K2 in H6. split; [exact H6|apply permissions_parse_ok; exact H7].
Qed.
Print Assumptions cgroup_rule_parse_meaning.

Theorem cgroup_rule_parse_normalizes : forall s r, cgroup_parse s = Ok r -> cgroup_parse (cgroup_show r) = Ok r.
Proof. intros s r H. apply cgroup_parse_u16 in H as [H1 H2]. apply cgroup_round_trip; assumption. Qed.
Print Assumptions cgroup_rule_parse_normalizes.

(** C21. A kind from a character is the kind written with that character, and nothing else is a kind. *)
Theorem device_kind_texts : (forall s k, kind_parse s = Ok k <-> kind_show k = s) /\ (forall c k, kind_of_char c = Ok k <-> kind_show k = [c]) /\
  (forall c, kind_of_char c = kind_parse [c]).
Proof.
  assert (K : forall s k, kind_parse s = Ok k <-> kind_show k = s).
  { intros s k. unfold kind_parse. destruct (str_eqb_spec s $"a") as [->|A]; [destruct k; split; intros H; solve [reflexivity|exfalso; cbv in H; discriminate]|].
    destruct (str_eqb_spec s $"c") as [->|C]; [destruct k; split; intros H; solve [reflexivity|exfalso; cbv in H; discriminate]|].
    destruct (str_eqb_spec s $"b") as [->|B]; [destruct k; split; intros H; solve [reflexivity|exfalso; cbv in H; discriminate]|]. split; [discriminate|]. destruct k; cbn [kind_show]; congruence. }
  assert (E : forall c, kind_of_char c = kind_parse [c]).
  { intros c. unfold kind_of_char, kind_parse. cbn [of_string]. unfold str_eqb. cbn. rewrite !andb_true_r. reflexivity. }
  split; [exact K|]. split; [|exact E]. intros c k. rewrite E. apply K.
Qed.
Print Assumptions device_kind_texts.
Example device_kind_case : kind_of_char (ch "b") = Ok KBlock /\ kind_of_char (ch "x") = Err $"x".
Proof. auto. Qed.
