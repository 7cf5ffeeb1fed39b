(** C99: an attribute can be removed from a document: what is left is read, the field is as if it had never been given, and
    nothing else changes. *)

From Coq Require Import String Ascii List NArith ZArith Bool Lia.
Import ListNotations.
From Verif Require Import Base BaseFacts Num Coll CollFacts KeysModel Serde Codec ScalarCodec CommonCodec CodecFacts HealthProofs
  ServiceParts ServiceCodec ComposeCodec Schema SchemaFacts DefaultModel NamesSpec PropsCompose PropsDefault.
Open Scope N_scope.

(** The entries of an object which do not have the key [k]. *)
Definition without (k : str) (es : list (sval * sval)) : list (sval * sval) := filter (fun e => negb (key_is k (fst e))) es.
Lemma without_values : forall k n es, values_of n (without k es) = if str_eqb n k then [] else values_of n es.
Proof.
  intros k n es. unfold values_of, without. induction es as [|[x v] r IH]; [now destruct (str_eqb n k)|]. cbn [filter fst].
  destruct x as [|b|z|f|s|l|l]; cbn [key_is negb filter fst]; try exact IH.
  destruct (str_eqb k s) eqn:E; cbn [negb filter fst key_is].
  - apply str_eqb_eq in E. subst s. destruct (str_eqb n k); [exact IH|exact IH].
  - destruct (str_eqb n s) eqn:F; [|exact IH]. cbn [map snd]. apply str_eqb_eq in F. subst s. destruct (str_eqb n k) eqn:G; [|now rewrite IH].
    apply str_eqb_eq in G. subst n. rewrite str_eqb_refl in E. discriminate.
Qed.

Definition drops (k : str) (m : member) : Prop := forall es a, m_de m es = Ok a -> exists a', m_de m (without k es) = Ok a'.
Lemma default_drops : forall k n {A : Set} (c : codec A) d sk, drops k (field n c (Some d) sk).
Proof.
  intros k n A c d sk es a. cbn [m_de field]. rewrite !lookup_values, without_values. destruct (str_eqb n k); [|intros H; now exists a].
  intros _. exists d. reflexivity.
Qed.
Lemma other_drops : forall k n {A : Set} (c : codec A) d sk, str_eqb n k = false -> drops k (field n c d sk).
Proof. intros k n A c d sk N es a. cbn [m_de field]. rewrite !lookup_values, without_values, N. intros H. now exists a. Qed.
Lemma network_config_drops : forall w k, drops k (network_config_m w).
Proof.
  intros w k es a. change (m_de (network_config_m w)) with (fun es => v <- de_members (network_config_ms w) es ;; network_config_read w v). cbn [de_members network_config_ms]. intros H.
  apply bind_ok in H as (v & V & R). apply bind_ok in V as (m & M & V). apply bind_ok in V as (r & N & V). apply bind_ok in N as (n & N & Q). injection Q as Q. injection V as V. subst r v.
  cbn [m_de optional field] in *. rewrite !lookup_values, !without_values in *.
  destruct (str_eqb $"network_mode" k); destruct (str_eqb $"networks" k); cbn [bind] in *; rewrite ?M, ?N; cbn [bind network_config_read];
    try (destruct m; destruct n); cbn [network_config_read] in *; try discriminate R; eexists; reflexivity.
Qed.
Lemma dockerfile_drops : forall k, drops k (dockerfile_m).
Proof.
  intros k es a. change (m_de (dockerfile_m)) with (fun es => v <- de_members (dockerfile_ms) es ;; dockerfile_read v). cbn [de_members dockerfile_ms]. intros H.
  apply bind_ok in H as (v & V & R). apply bind_ok in V as (m & M & V). apply bind_ok in V as (r & N & V). apply bind_ok in N as (n & N & Q). injection Q as Q. injection V as V. subst r v.
  cbn [m_de optional field] in *. rewrite !lookup_values, !without_values in *.
  destruct (str_eqb $"dockerfile" k); destruct (str_eqb $"dockerfile_inline" k); cbn [bind] in *; rewrite ?M, ?N; cbn [bind dockerfile_read];
    try (destruct m; destruct n); cbn [dockerfile_read] in *; try discriminate R; eexists; reflexivity.
Qed.
Lemma members_drop : forall k ms es v, Forall (drops k) ms -> de_members ms es = Ok v -> exists v', de_members ms (without k es) = Ok v'.
Proof.
  intros k ms es v F. revert v. induction F as [|m r D F IH]; intros v H; cbn [de_members] in *; [now exists tt|]. apply bind_ok in H as (a & A & H). apply bind_ok in H as (u & U & _).
  destruct (D es a A) as [a' A']. destruct (IH u U) as [u' U']. exists (a', u'). now rewrite A', U'.
Qed.

(** Extensions. *)
Definition kept_key (k : str) {V : Type} (e : str * V) : bool := negb (str_eqb k (fst e)).
Lemma insert_kept : forall k (m : list (str * sval)) n v, filter (kept_key k) (imap_insert str_eqb m n v) = if str_eqb k n then filter (kept_key k) m else imap_insert str_eqb (filter (kept_key k) m) n v.
Proof.
  intros k m n v. assert (P : forall n (v : sval), kept_key k (n, v) = negb (str_eqb k n)) by reflexivity. induction m as [|[n' v'] r IH]; cbn [imap_insert filter].
  - rewrite P. now destruct (str_eqb k n).
  - destruct (str_eqb n n') eqn:E.
    + apply str_eqb_eq in E. subst n'. cbn [filter]. rewrite !P. destruct (str_eqb k n) eqn:K; cbn [negb]; [reflexivity|]. cbn [imap_insert]. now rewrite str_eqb_refl.
    + cbn [filter]. rewrite !P, IH. destruct (str_eqb k n) eqn:K; destruct (str_eqb k n') eqn:K'; cbn [negb]; try reflexivity. cbn [imap_insert]. now rewrite E.
Qed.
Lemma imap_kept : forall k (l : list (str * sval)), filter (kept_key k) (imap_of str_eqb l) = imap_of str_eqb (filter (kept_key k) l).
Proof.
  intros k l. unfold imap_of. change (@nil (str * sval)) with (filter (kept_key k) (@nil (str * sval))) at 2. generalize (@nil (str * sval)) as m.
  induction l as [|[n v] r IH]; intros m; [reflexivity|]. cbn [fold_left filter fst snd]. rewrite IH, insert_kept.
  change (kept_key k (n, v)) with (negb (str_eqb k n)). destruct (str_eqb k n); reflexivity.
Qed.
Lemma entry_key : forall e n v, ext_entry e = Ok (n, v) -> fst e = VStr n.
Proof.
  intros [x y] n v H. unfold ext_entry in H. cbn [fst snd] in *. destruct x; try discriminate H. apply bind_ok in H as (k & K & H). apply bind_ok in H as (z & _ & H). injection H as H _. subst k.
  destruct (extension_key_new s) as [t|] eqn:E; [|discriminate K]. cbn [map_err] in K. injection K as K. subst t. apply extension_key_new_iff in E as [E _]. now rewrite E.
Qed.
Lemma collect_kept_keys : forall k us l, collect ext_entry us = Ok l -> collect ext_entry (without k us) = Ok (filter (kept_key k) l).
Proof.
  intros k us. induction us as [|e r IH]; intros l H; cbn [collect] in H; [injection H as <-; reflexivity|]. apply bind_ok in H as ([n v] & E & H). apply bind_ok in H as (t & T & H). injection H as H. subst l.
  unfold without. cbn [filter]. rewrite (entry_key e n v E). cbn [key_is]. change (kept_key k (n, v)) with (negb (str_eqb k n)). destruct (str_eqb k n); cbn [negb]; [exact (IH t T)|]. cbn [collect]. rewrite E. cbn [bind].
  change (filter (fun e => negb (key_is k (fst e))) r) with (without k r). now rewrite (IH t T).
Qed.
Lemma unknown_without : forall ns k es, unknown ns (without k es) = without k (unknown ns es).
Proof.
  intros ns k es. unfold unknown, without. induction es as [|e r IH]; [reflexivity|]. cbn [filter].
  destruct (negb (key_is k (fst e))) eqn:A; destruct (match fst e with VStr s => negb (existsb (str_eqb s) ns) | _ => true end) eqn:B; cbn [filter]; rewrite ?A, ?B, ?IH; reflexivity.
Qed.
Lemma struct_without : forall k ms es s, Forall (drops k) ms -> de (struct_ext_c ms) (VMap es) = Ok s ->
  exists s', de (struct_ext_c ms) (VMap (without k es)) = Ok s' /\ snd s' = filter (kept_key k) (snd s).
Proof.
  intros k ms es s F H. cbn [de struct_ext_c] in *. apply bind_ok in H as (v & V & H). apply bind_ok in H as (x & X & H). injection H as <-.
  destruct (members_drop k ms es v F V) as [v' V']. exists (v', filter (kept_key k) x). split; [|reflexivity]. rewrite V', unknown_without. cbn [bind].
  unfold ext_de in *. destruct (collect ext_entry (unknown (names ms) es)) as [l|] eqn:C; [|discriminate X]. cbn [map_ok] in X. injection X as <-. rewrite (collect_kept_keys k _ l C). cbn [map_ok bind].
  now rewrite imap_kept.
Qed.

Lemma same_without : forall k ns es, ~ In k ns -> same_entries ns es (without k es).
Proof. intros k ns es N n I. rewrite without_values. destruct (str_eqb n k) eqn:E; [|reflexivity]. apply str_eqb_eq in E. subst n. contradiction. Qed.
Lemma nothing_without : forall k ns es, (forall n, In n ns -> n <> k -> values_of n es = []) -> forall n, In n ns -> values_of n (without k es) = [].
Proof. intros k ns es N n I. rewrite without_values. destruct (str_eqb n k) eqn:E; [reflexivity|]. apply N; [exact I|]. intros ->. rewrite str_eqb_refl in E. discriminate. Qed.

(** What removing the attribute [k] from the object [es] has to do: [read] accepts what is left; each field whose names do not include [k] is
    unchanged; each field given by [k] alone has its default; the extensions lose [k]. *)
Definition removable (ms : list member) (all : list (list str)) (default : vals ms) (k : str) : Prop :=
  forall es s, de (struct_ext_c ms) (VMap es) = Ok s -> exists s', de (struct_ext_c ms) (VMap (without k es)) = Ok s' /\
    (forall i, ~ In k (nth i all []) -> nth_val i ms (fst s') = nth_val i ms (fst s)) /\
    (forall i, (forall n, In n (nth i all []) -> n <> k -> values_of n es = []) -> nth_val i ms (fst s') = nth_val i ms default) /\
    snd s' = filter (kept_key k) (snd s).
Ltac drop_all := repeat (apply Forall_cons; [first [apply default_drops | apply network_config_drops | apply dockerfile_drops]|]); apply Forall_nil.

Theorem service_removable : forall w k, removable (service_ms w) service_names (fst (service_default w)) k.
Proof.
  intros w k es s H. assert (F : Forall (drops k) (service_ms w)) by (unfold service_ms; drop_all).
  destruct (struct_without k (service_ms w) es s F H) as (s' & H' & X). exists s'. split; [exact H'|]. split; [|split; [|exact X]].
  - intros i N. symmetry. exact (proj1 (service_fields_local w es (without k es) s s' H H') i (same_without k _ es N)).
  - intros i N. exact (service_absent_default w (without k es) s' i H' (nothing_without k _ es N)).
Qed.
Print Assumptions service_removable.
Theorem build_removable : forall w k, removable (build_ms w) build_names (fst (build_default w)) k.
Proof.
  intros w k es s H. assert (F : Forall (drops k) (build_ms w)) by (unfold build_ms; drop_all).
  destruct (struct_without k (build_ms w) es s F H) as (s' & H' & X). exists s'. split; [exact H'|]. split; [|split; [|exact X]].
  - intros i N. symmetry. exact (proj1 (build_fields_local w es (without k es) s s' H H') i (same_without k _ es N)).
  - intros i N. exact (build_absent_default w (without k es) s' i H' (nothing_without k _ es N)).
Qed.
Print Assumptions build_removable.
Theorem deploy_removable : forall w k, removable (deploy_ms w) deploy_names (fst (deploy_default w)) k.
Proof.
  intros w k es s H. assert (F : Forall (drops k) (deploy_ms w)) by (unfold deploy_ms; drop_all).
  destruct (struct_without k (deploy_ms w) es s F H) as (s' & H' & X). exists s'. split; [exact H'|]. split; [|split; [|exact X]].
  - intros i N. symmetry. exact (proj1 (deploy_fields_local w es (without k es) s s' H H') i (same_without k _ es N)).
  - intros i N. exact (deploy_absent_default w (without k es) s' i H' (nothing_without k _ es N)).
Qed.
Print Assumptions deploy_removable.
(** Of a whole file everything but [services]. *)
Theorem compose_removable : forall w k, removable (compose_ms w) compose_names (fst (compose_default w)) k <-> k <> $"services".
Proof.
  intros w k. split.
  - intros R ->. destruct (R [(VStr $"services", VMap [])] (compose_default w)) as (s' & H & _); [reflexivity|]. discriminate H.
  - intros K es s H. assert (N : str_eqb $"services" k = false) by (apply str_eqb_neq; congruence).
    assert (F : Forall (drops k) (compose_ms w)).
    { unfold compose_ms. repeat (apply Forall_cons; [first [apply default_drops | apply other_drops; exact N]|]). apply Forall_nil. }
    destruct (struct_without k (compose_ms w) es s F H) as (s' & H' & X). exists s'. split; [exact H'|]. split; [|split; [|exact X]].
    + intros i J. symmetry. exact (proj1 (compose_fields_local w es (without k es) s s' H H') i (same_without k _ es J)).
    + intros i J. exact (compose_absent_default w (without k es) s' i H' (nothing_without k _ es J)).
Qed.
Print Assumptions compose_removable.

(** Concrete case: of two attributes and two extensions one of each is removed. *)
Definition two_of_each : list (sval * sval) :=
  [(VStr $"network_mode", VStr $"host"); (VStr $"x-a", VInt 1); (VStr $"hostname", VStr $"h"); (VStr $"x-b", VInt 2)].
Example removable_case :
  match de (service_c w0) (VMap two_of_each), de (service_c w0) (VMap (without $"network_mode" (without $"x-a" two_of_each))) with
  | Ok s, Ok s' => nth_val 48 (service_ms w0) (fst s) <> None /\ nth_val 48 (service_ms w0) (fst s') = None /\
      snd s = [($"x-a", VInt 1); ($"x-b", VInt 2)] /\ snd s' = [($"x-b", VInt 2)]
  | _, _ => False
  end.
Proof. vm_compute. split; [discriminate|]. split; [reflexivity|]. split; reflexivity. Qed.
(** Without its only source a config is not read any more. *)
Example config_not_removable : let es := [(VStr $"file", VStr $"a.txt")] in
  accepted (de config_c (VMap es)) = true /\ accepted (de config_c (VMap (without $"file" es))) = false.
Proof. split; vm_compute; reflexivity. Qed.
