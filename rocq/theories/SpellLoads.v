(** The ways to the values that can be spelled differently. *)

From Coq Require Import String Ascii List NArith ZArith Bool Lia.
Import ListNotations.
From Verif Require Import Base BaseFacts Num Coll EnumModel HealthModel HealthProofs VolumesModel Serde Codec ScalarCodec CommonCodec ServiceParts MountCodec ServiceCodec ComposeCodec
  PropsDefault PanicSpec ChangeSpec ChangeFacts ChangeLoads SpellSpec SpellFacts.
Open Scope N_scope.

(** ** Health checks *)

Lemma health_loop_app : forall a b s, health_loop s (a ++ b) = (s <- health_loop s a ;; health_loop s b).
Proof. induction a as [|e a IH]; intros b s; [reflexivity|]. cbn [app health_loop]. destruct (health_entry s e); cbn [bind]; [apply IH|reflexivity]. Qed.
Lemma blind_health : forall k (Q : relation), (forall s y y', yaml_ok y = true -> Q y y' -> health_entry s (VStr k, y') = health_entry s (VStr k, y)) -> blind healthcheck_c (under_key k Q).
Proof.
  intros k Q H v v' Y (l & y & y' & r & -> & -> & R). cbn [de healthcheck_c health_de]. rewrite !health_loop_app. cbn [health_loop].
  destruct (health_loop no_slots l) as [s|]; cbn [bind]; [|reflexivity]. now rewrite (H s y y' (yaml_value _ _ _ _ Y) R).
Qed.
Lemma blind_health_time : forall k, In k [$"interval"; $"timeout"; $"start_period"; $"start_interval"] -> forall (Q : relation), blind duration_c Q -> blind healthcheck_c (under_key k Q).
Proof.
  intros k I Q B. apply blind_health. intros [d t i o r p q x] y y' Y R. specialize (B _ _ Y R).
  repeat (destruct I as [<-|I]; [unfold health_entry, fill; cbn [fst snd]; rewrite B; reflexivity|]). contradiction.
Qed.
Lemma blind_shell : blind healthcheck_c (under_key $"test" (alike shell_test)).
Proof. apply blind_health. intros [d t i o r p q x] y y' Y (s & [->| ->] & [->| ->]); reflexivity. Qed.
Lemma blind_no_healthcheck : blind healthcheck_c (alike no_healthcheck).
Proof. intros v v' _ (u & [->| ->] & [->| ->]); reflexivity. Qed.
Lemma blind_missing : blind pull_policy_c (alike pull_if_missing).
Proof. intros v v' _ (u & [->| ->] & [->| ->]); reflexivity. Qed.

(** ** The relations *)

Lemma fine_scalars : forall Q, between_scalars Q -> fine Q.
Proof. intros Q S v v' H. destruct (S _ _ H) as [A B]. destruct v, v'; cbn [scalar] in *; try contradiction; auto. Qed.
Lemma scalars_alike : forall {X : Type} (means : sval -> X -> Prop), (forall v x, means v x -> scalar v) -> between_scalars (alike means).
Proof. intros X means S v v' (x & H & H'). eauto. Qed.
Ltac scalars := apply scalars_alike; let v := fresh in let x := fresh in let H := fresh in intros v x H.
Lemma scalars_text : forall {X : Type} (writes : str -> X -> Prop), between_scalars (alike (text_of writes)).
Proof. intros X writes. scalars. destruct H1 as (s & -> & _). exact I. Qed.
Lemma scalars_time : between_scalars (alike time).
Proof. scalars. destruct H1 as [(n & -> & _)|(ts & -> & _)]; exact I. Qed.
Lemma scalars_number : forall max, between_scalars (alike (number_or_text max)).
Proof. intros max. scalars. destruct H1 as [[-> _]|(ts & -> & _)]; exact I. Qed.
Lemma scalars_size : between_scalars (alike size).
Proof. scalars. destruct H1 as [[-> _]|(s & t & -> & _)]; exact I. Qed.
Lemma scalars_limit : forall max, between_scalars (alike (or_unlimited (only_number max))).
Proof. intros max. scalars. destruct H0; cbn [or_unlimited] in H1; [destruct H1 as [-> _]|destruct H1 as [->| ->]]; exact I. Qed.
Lemma scalars_size_limit : between_scalars (alike (or_unlimited size)).
Proof. scalars. destruct H0; cbn [or_unlimited] in H1; [destruct H1 as [[-> _]|(a & b & -> & _)]|destruct H1 as [->| ->]]; exact I. Qed.
Lemma scalars_range : between_scalars (alike ports_range).
Proof. scalars. destruct H1 as [(n & -> & _)|(s & -> & _)]; exact I. Qed.
Lemma scalars_exposed : between_scalars (alike exposed).
Proof. scalars. destruct H1 as [(_ & [(n & -> & _)|(s & -> & _)])|(s & t & p & -> & _)]; exact I. Qed.
Lemma scalars_port : between_scalars (alike short_port_value).
Proof. scalars. destruct H1 as [(n & -> & _)|(s & -> & _)]; exact I. Qed.
Lemma scalars_cpus : between_scalars same_cpus.
Proof. intros v v' (s & s' & A & A' & -> & -> & _). now split. Qed.
Lemma scalars_missing : between_scalars (alike pull_if_missing).
Proof. scalars. destruct H1 as [->| ->]; exact I. Qed.
Lemma fine_no_healthcheck : fine (alike no_healthcheck).
Proof. intros v v' (u & [->| ->] & [->| ->]); split; reflexivity. Qed.

(** ** The ways *)

Ltac scalar_relation := first [apply scalars_time | apply scalars_port | apply scalars_range | apply scalars_exposed | apply scalars_number | apply scalars_text | apply scalars_size
  | apply scalars_size_limit | apply scalars_limit | apply scalars_cpus | apply scalars_missing].
Ltac spelled B := let P := fresh "P" in let S := fresh "S" in let M := fresh "M" in let F := fresh "F" in
  pose proof B as P;
  lazymatch type of P with
  | blind _ (alike ?m) => assert (S : between_scalars (alike m)) by scalar_relation
  | blind _ same_cpus => pose proof scalars_cpus as S
  end;
  pose proof (fine_scalars _ S) as F; cbn [changed ChangeSpec.service ChangeSpec.deploy build resources PanicSpec.in_service map fst snd app];
  descend.
Ltac timed k := let T := fresh "T" in pose proof (blind_health_time k ltac:(cbn [In]; tauto) _ blind_time) as T; pose proof (fine_scalars _ scalars_time) as F;
  cbn [changed PanicSpec.in_service map app]; descend.
Lemma in_joined w (Q : relation) p k : fine Q -> blind (service_network_c w) (under_key k (changed p Q)) -> blind (compose_c w) (changed (ChangeSpec.service (Key $"networks" :: AnyKey :: Key k :: p)) Q).
Proof.
  intros F B. assert (H : blind (service_c w) (under_key $"networks" (under_any_key (under_key k (changed p Q))))).
  { pose proof (fine_changed p Q F) as G. apply blind_struct_ext; [apply maps_under_key|]. eapply (key_unnoticed _ (tidy_service w)); [reflexivity|]. unfold network_config_m.
    eapply m_blind_group; [locals|vm_compute; reflexivity|reflexivity|]. apply m_blind_field. descend. }
  cbn [changed ChangeSpec.service]. descend.
Qed.
Lemma tmpfs_size w : blind (compose_c w) (changed (ChangeSpec.service [Key $"volumes"; AnyItem; Key $"tmpfs"; Key $"size"]) (alike size)).
Proof.
  pose proof (fine_scalars _ scalars_size) as F. pose proof (blind_alike _ _ _ reads_size) as B.
  assert (X : blind mount_c (under_key $"tmpfs" (under_key $"size" (alike size)))).
  { apply blind_mount; [apply maps_under_key|apply passes_key; discriminate|foreign tidy_volume|foreign tidy_bind|native tidy_tmpfs|foreign tidy_named_pipe|foreign tidy_cluster]. }
  cbn [changed ChangeSpec.service]. descend.
Qed.
Lemma fine_hosts : fine (alike hosts).
Proof.
  assert (H : forall v x, hosts v x -> is_null v = false /\ yaml_ok v = true).
  { intros v x (N & [(l & -> & F)|(l & -> & F)]); (split; [reflexivity|]).
    - apply yaml_seq. clear N. induction F as [|y p l x [h d t ip _ _ _] F IH]; constructor; auto.
    - apply yaml_map. split.
      + assert (E : map fst l = map VStr (map fst x)) by (clear N; induction F as [|y p l x [h t ip _ _] F IH]; [reflexivity|]; cbn [map fst]; now rewrite IH).
        rewrite E. clear F E. induction (map fst x) as [|a r IH]; [constructor|]. inversion N; subst. cbn [map]. constructor; [|auto]. rewrite in_map_iff. intros (b & E & I). injection E as ->. contradiction.
      + clear N. induction F as [|y p l x [h t ip _ _] F IH]; constructor; auto. }
  intros v v' (x & A & B). apply H in A as [A1 A2], B as [B1 B2]. split; [congruence|auto].
Qed.
Lemma fine_shell : fine (alike shell_test).
Proof. intros v v' (s & [->| ->] & [->| ->]); auto. Qed.
Lemma spellings_blind w : Forall (fun e => blind (compose_c w) (changed (fst e) (snd e))) spellings.
Proof.
  unfold spellings, at_each, of_ulimit, durations. cbn [map app].
  repeat (apply Forall_cons; [cbn [fst snd]|]); [..|apply Forall_nil].
  1-3: spelled blind_time.
  1: timed $"interval".
  1: timed $"timeout".
  1: timed $"start_period".
  1: timed $"start_interval".
  1-6: spelled blind_time.
  - spelled (blind_alike _ _ _ (reads_short_port w)).
  - spelled (blind_alike _ _ _ reads_range).
  - spelled (blind_alike _ _ _ reads_expose).
  - spelled (blind_alike _ _ _ reads_id).
  - spelled (blind_alike _ _ _ reads_count).
  - spelled (blind_alike _ _ _ reads_u32_text).
  - spelled (blind_alike _ _ _ reads_u32_text).
  - spelled (blind_alike _ _ _ reads_u32_text).
  - spelled (blind_alike _ _ _ reads_u32_text).
  - spelled (blind_alike _ _ _ reads_u32_text).
  - spelled (blind_alike _ _ _ reads_u32_text).
  - spelled (blind_alike _ _ _ reads_size).
  - spelled (blind_alike _ _ _ reads_size).
  - spelled (blind_alike _ _ _ reads_size).
  - spelled (blind_alike _ _ _ reads_size).
  - spelled (blind_alike _ _ _ reads_size).
  - spelled (blind_alike _ _ _ reads_size).
  - spelled (blind_alike _ _ _ reads_size).
  - spelled (blind_alike _ _ _ reads_size).
  - apply tmpfs_size.
  - spelled (blind_alike _ _ _ reads_size_limit).
  - spelled (blind_alike _ _ _ (reads_number_limit u32)).
  - spelled (blind_alike _ _ _ (reads_number_limit u32)).
  - spelled (blind_alike _ _ _ (reads_number_limit u64)).
  - spelled (blind_alike _ _ _ (reads_number_limit u64)).
  - spelled (blind_alike _ _ _ (reads_number_limit u64)).
  - spelled (blind_alike _ _ _ (reads_number_limit u64)).
  - spelled (blind_alike _ _ _ (reads_number_limit u64)).
  - spelled (blind_alike _ _ _ (reads_number_limit u64)).
  - apply (in_joined w); [apply fine_scalars; scalar_relation|spelled (blind_ipv4 w)].
  - apply (in_joined w); [apply fine_scalars; scalar_relation|spelled (blind_ipv6 w)].
  - apply (in_joined w); [apply fine_scalars; scalar_relation|spelled (blind_alike _ _ _ (reads_ip w))].
  - spelled (blind_alike _ _ _ (reads_ip w)).
  - spelled (blind_alike _ _ _ (reads_ip w)).
  - spelled (blind_alike _ _ _ (reads_ip w)).
  - spelled (blind_alike _ _ _ (reads_ip w)).
  - spelled (blind_alike _ _ _ (reads_ip w)).
  - spelled (blind_cpus w).
  - pose proof (blind_alike _ _ _ (reads_hosts w)) as H. pose proof fine_hosts as F. cbn [changed ChangeSpec.service]. descend.
  - pose proof (blind_alike _ _ _ (reads_hosts w)) as H. pose proof fine_hosts as F. cbn [changed build ChangeSpec.service]. descend.
  - pose proof blind_shell as H. pose proof fine_shell as F. cbn [changed ChangeSpec.service]. descend.
  - pose proof blind_no_healthcheck as H. pose proof fine_no_healthcheck as F. cbn [changed ChangeSpec.service]. descend.
  - spelled blind_missing.
Qed.
