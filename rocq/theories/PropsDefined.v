(** C97: what is defined in a file which passes the validation. *)

From Coq Require Import String Ascii List NArith ZArith Bool.
Import ListNotations.
From Verif Require Import Base BaseFacts VolumesModel ValidateModel Serde Codec ServiceParts ServiceCodec ComposeCodec Schema PropsCompose ComposeGood ComposeView EditModel PropsEdit
  DocumentSpec PropsDocument DefinedSpec.
Open Scope N_scope.

Lemma validate_all_parts : forall c, validate_all c = Ok tt <->
  validate_networks c = Ok tt /\ validate_volumes c = Ok tt /\ validate_configs c = Ok tt /\ validate_secrets c = Ok tt.
Proof.
  intros c. unfold validate_all, bind.
  destruct (validate_networks c) as [[]|]; destruct (validate_volumes c) as [[]|]; destruct (validate_configs c) as [[]|]; destruct (validate_secrets c) as [[]|];
    split; intros H; repeat split; try discriminate H; try reflexivity; destruct H as (H1 & H2 & H3 & H4); discriminate.
Qed.

(** If everything is defined the file passes. *)
Theorem defined_passes : forall w v (c : compose w), load w v = Ok c -> grants_defined v -> volumes_defined v -> validate_all (compose_view c) = Ok tt.
Proof.
  intros w v c H G V. apply validate_all_parts. split; [|split; [|split]].
  - apply (proj2 (document_networks w v c H)). intros name s n S. exact (proj1 (G name s n S)).
  - destruct (validate_volumes (compose_view c)) as [[]|e] eqn:E; [reflexivity|]. exfalso. destruct (document_volumes_only w v c e H E) as [N [(n1 & s1 & n2 & s2 & _ & S & _ & U & _)|(name & s & S & U)]].
    + exact (N (V n1 s1 _ S U)).
    + apply N. apply (V name s _ S). destruct U as (a & x & b & y & d & P & M & _). exists (VSeq (a ++ x :: b ++ y :: d)), x. split; [exact P|]. split; [|exact M].
      eexists. split; [reflexivity|]. apply in_or_app. right. now left.
  - apply (proj2 (document_configs w v c H)). intros name s n S. exact (proj1 (proj2 (G name s n S))).
  - apply (proj2 (document_secrets w v c H)). intros name s n S. exact (proj2 (proj2 (G name s n S))).
Qed.
Print Assumptions defined_passes.

(** [decidable]: the keys of a map are compared. *)
Lemma declares_dec : forall w v (c : compose w) n, load w v = Ok c -> declares v $"volumes" n \/ ~ declares v $"volumes" n.
Proof.
  intros w v c n H. destruct (DocumentFacts.compose_has w v c H) as (_ & _ & D & _). rewrite <- (D n).
  destruct (in_dec (list_eq_dec N.eq_dec) n (vc_volumes (compose_view c))); [now left|now right].
Qed.
(** Missing for [validate_all (compose_view c) = Ok tt -> all_defined v]: the volumes which one service uses, and the secrets of builds. *)
Theorem passes_defined_partial : forall w v (c : compose w), load w v = Ok c -> validate_all (compose_view c) = Ok tt -> grants_defined v /\ shared_volumes_defined v.
Proof.
  intros w v c H A. apply validate_all_parts in A as (N & V & C & S). split.
  - intros name s n J. split; [|split].
    + exact (proj1 (document_networks w v c H) N name s n J).
    + exact (proj1 (document_configs w v c H) C name s n J).
    + exact (proj1 (document_secrets w v c H) S name s n J).
  - intros n1 s1 n2 s2 n D J1 J2 U1 U2. destruct (declares_dec w v c n H) as [Y|Y]; [exact Y|]. exfalso.
    destruct (document_volumes_rejected w v c n1 s1 n2 s2 n H D J1 J2 U1 U2 Y) as (e & E & _). rewrite V in E. discriminate.
Qed.
Print Assumptions passes_defined_partial.

Definition build_secret_doc : sval :=
  VMap [(VStr $"services", VMap [(VStr $"web", VMap [(VStr $"build", VMap [(VStr $"context", VStr $"."); (VStr $"secrets", VSeq [VStr $"token"])])])])].
Definition lone_volume_doc : sval := VMap [(VStr $"services", VMap [(VStr $"web", VMap [(VStr $"volumes", VSeq [VStr $"data:/srv"])])])].
Definition missing_service_doc : sval := VMap [(VStr $"services", VMap [(VStr $"web", VMap [(VStr $"depends_on", VSeq [VStr $"db"])])])].
Definition default_network_doc : sval := VMap [(VStr $"services", VMap [(VStr $"web", VMap [(VStr $"networks", VSeq [VStr $"default"])])])].

Lemma only_service : forall s, has_service (VMap [(VStr $"services", VMap [(VStr $"web", s)])]) $"web" s.
Proof. intros s. eexists. split; [eexists; split; reflexivity|]. exists [], []. split; [reflexivity|now intros []]. Qed.
Lemma nothing_declared : forall s kind n, kind <> $"services" -> ~ declares (VMap [(VStr $"services", s)]) kind n.
Proof.
  intros s kind n N (x & (es & E & P) & _). injection E as <-. unfold values_of in P. cbn [filter fst] in P.
  change (map snd (if str_eqb kind $"services" then [(VStr $"services", s)] else []) = [x]) in P. destruct (str_eqb kind $"services") eqn:Q; [|discriminate P].
  apply str_eqb_eq in Q. exact (N Q).
Qed.
Lemma some_eq : forall (A : Type) (a b : A), Some a = Some b -> a = b.
Proof. intros A a b E. now injection E. Qed.
(** The claim of the documentation does not hold, for builds and for volumes. *)
Theorem build_secrets_defined_refuted : exists w v (c : compose w), load w v = Ok c /\ validate_all (compose_view c) = Ok tt /\ ~ build_secrets_defined v.
Proof.
  exists w0, build_secret_doc. assert (C : match load w0 build_secret_doc with Ok c => Some (validate_all (compose_view c)) | Err _ => None end = Some (Ok tt)) by (vm_compute; reflexivity).
  destruct (load w0 build_secret_doc) as [c|]; [|discriminate]. exists c. split; [reflexivity|]. split; [exact (some_eq _ _ _ C)|]. intros D.
  apply (nothing_declared (VMap [(VStr $"web", VMap [(VStr $"build", VMap [(VStr $"context", VStr $"."); (VStr $"secrets", VSeq [VStr $"token"])])])]) $"secrets" $"token"); [vm_compute; discriminate|].
  apply (D $"web" _ $"token" (only_service _)). eexists. split; [eexists; split; reflexivity|]. exists (VSeq [VStr $"token"]), (VStr $"token").
  split; [eexists; split; reflexivity|]. split; [eexists; split; [reflexivity|now left]|now left].
Qed.
Print Assumptions build_secrets_defined_refuted.
Theorem volumes_defined_refuted : exists w v (c : compose w), load w v = Ok c /\ validate_all (compose_view c) = Ok tt /\ ~ volumes_defined v.
Proof.
  exists w0, lone_volume_doc. assert (C : match load w0 lone_volume_doc with Ok c => Some (validate_all (compose_view c)) | Err _ => None end = Some (Ok tt)) by (vm_compute; reflexivity).
  destruct (load w0 lone_volume_doc) as [c|]; [|discriminate]. exists c. split; [reflexivity|]. split; [exact (some_eq _ _ _ C)|]. intros D.
  apply (nothing_declared (VMap [(VStr $"web", VMap [(VStr $"volumes", VSeq [VStr $"data:/srv"])])]) $"volumes" $"data"); [vm_compute; discriminate|].
  apply (D $"web" _ $"data" (only_service _)). exists (VSeq [VStr $"data:/srv"]), (VStr $"data:/srv").
  split; [eexists; split; reflexivity|]. split; [eexists; split; [reflexivity|now left]|]. left. exists $"/srv". split; [reflexivity|].
  apply (KeysProofs.identifier_new_ok $"data" $"data"). vm_compute. reflexivity.
Qed.
Print Assumptions volumes_defined_refuted.
(** Services which have to be started first need not exist (the documentation does not say that they do). *)
Theorem services_defined_refuted : exists w v (c : compose w), load w v = Ok c /\ validate_all (compose_view c) = Ok tt /\
  exists name s n, has_service v name s /\ starts_after s n /\ forall s', ~ has_service v n s'.
Proof.
  exists w0, missing_service_doc. assert (C : match load w0 missing_service_doc with Ok c => Some (validate_all (compose_view c)) | Err _ => None end = Some (Ok tt)) by (vm_compute; reflexivity).
  destruct (load w0 missing_service_doc) as [c|]; [|discriminate]. exists c. split; [reflexivity|]. split; [exact (some_eq _ _ _ C)|]. exists $"web". eexists. exists $"db". split; [exact (only_service _)|].
  split. { exists (VSeq [VStr $"db"]). split; [eexists; split; reflexivity|]. left. eexists. split; [reflexivity|now left]. }
  intros s' (x & (es & E & P) & b & a & L & _). injection E as <-. vm_compute in P. injection P as <-. injection L as L.
  destruct b as [|p b]; [discriminate L|]. injection L as _ L. destruct b; discriminate.
Qed.
Print Assumptions services_defined_refuted.
(** The network [default], which a project always has, must be defined like any other. *)
Theorem default_network_refuted : exists w v (c : compose w) e, load w v = Ok c /\ (forall name s n, has_service v name s -> uses_network s n -> n = $"default") /\
  validate_all (compose_view c) = Err e /\ ve_resource e = $"default".
Proof.
  exists w0, default_network_doc. assert (C : match load w0 default_network_doc with Ok c => Some (validate_all (compose_view c)) | Err _ => None end = Some (Err (mk_validation_error (Some $"web") $"default" KNetwork))) by (vm_compute; reflexivity).
  destruct (load w0 default_network_doc) as [c|]; [|discriminate]. exists c, (mk_validation_error (Some $"web") $"default" KNetwork). split; [reflexivity|]. split; [|split; [exact (some_eq _ _ _ C)|reflexivity]].
  intros name s n (x & (es & E & P) & b & a & L & _) (y & (fs & F & Q) & U). injection E as <-. vm_compute in P. injection P as <-. injection L as L.
  destruct b as [|p b]; [|injection L as _ L; destruct b; discriminate]. injection L as _ S _. rewrite <- S in F. injection F as <-. vm_compute in Q. injection Q as <-.
  destruct U as [(l & A & B)|(fs & A & _)]; [|discriminate A]. injection A as <-. destruct B as [B|[]]. injection B as <-. reflexivity.
Qed.
Print Assumptions default_network_refuted.

(** More generally: no field of a service but [configs] (17), [network_mode] and [networks] (48), [secrets] (67) and [volumes] (80) has any bearing on the validation. *)
Theorem validation_ignores : forall w (c : compose w) name s n x, n <> 17%nat -> n <> 48%nat -> n <> 67%nat -> n <> 80%nat ->
  (forall t, In (name, t) (compose_services c) -> t = s) ->
  validate_all (compose_view (set_services (update name (set_field n x s) (compose_services c)) c)) = validate_all (compose_view c).
Proof.
  intros w c name s n x N1 N2 N3 N4 U. f_equal.
  assert (V : service_view (set_field n x s) = service_view s).
  { unfold service_view, set_field. cbn [fst]. assert (O := fun k => nth_set_other k n (service_ms w) x (fst s)).
    rewrite (O 48%nat), (O 80%nat), (O 17%nat), (O 67%nat) by congruence. reflexivity. }
  unfold compose_view, set_services. cbn [fst].
  rewrite (nth_set_other 4 3 (compose_ms w)), (nth_set_other 5 3 (compose_ms w)), (nth_set_other 6 3 (compose_ms w)), (nth_set_other 7 3 (compose_ms w)) by discriminate.
  rewrite (nth_set_same 3 (compose_ms w)). f_equal. change (nth_val 3 (compose_ms w) (fst c)) with (compose_services c). unfold update. rewrite map_map. apply map_ext_in.
  intros [k t] J. cbn [fst snd]. destruct (str_eqb k name) eqn:Q; [|reflexivity]. apply str_eqb_eq in Q. subst k. cbn [fst snd]. rewrite V, (U t J). reflexivity.
Qed.
Print Assumptions validation_ignores.
(** Concrete case. *)
Example defined_case : checked w0 (document [(VStr $"data", VNull)]) = Some (Ok tt) /\ checked w0 build_secret_doc = Some (Ok tt) /\
  checked w0 default_network_doc = Some (Err (mk_validation_error (Some $"web") $"default" KNetwork)).
Proof. split; [|split]; vm_compute; reflexivity. Qed.

(** These four do have a bearing, so that they are exactly the fields which the validation looks at. *)
Definition ignored (n : nat) : Prop := forall w (c : compose w) name s x, In (name, s) (compose_services c) -> (forall t, In (name, t) (compose_services c) -> t = s) ->
  validate_all (compose_view (set_services (update name (set_field n x s) (compose_services c)) c)) = validate_all (compose_view c).
Definition bare : sval := VMap [(VStr $"services", VMap [(VStr $"web", VMap [])])].
Lemma looks_at : forall n (x : nth_type n (service_ms w0)),
  match load w0 bare with
  | Ok c => match compose_services c with
            | [(name, s)] => match validate_all (compose_view (set_services (update name (set_field n x s) (compose_services c)) c)), validate_all (compose_view c) with
                             | Err _, Ok _ => True | _, _ => False end
            | _ => False
            end
  | Err _ => False
  end -> ~ ignored n.
Proof.
  intros n x T I. destruct (load w0 bare) as [c|]; [|exact T]. assert (J := I w0 c). destruct (compose_services c) as [|[name s] [|p r]] eqn:E; [exact T| |exact T].
  assert (K := J name s x (or_introl eq_refl) (fun t Q => match Q with or_introl q => eq_sym (f_equal snd q) | or_intror q => False_ind _ q end)).
  rewrite K in T. destruct (validate_all (compose_view c)); exact T.
Qed.
Theorem validation_fields : forall n, ignored n <-> ~ In n [17; 48; 67; 80]%nat.
Proof.
  intros n. split.
  - intros I J. destruct J as [<-|[<-|[<-|[<-|[]]]]]; revert I.
    + apply (looks_at 17 ([Short $"c"] : nth_type 17 (service_ms w0))). vm_compute. exact I.
    + apply (looks_at 48 (Some (NcNetworks (Short [$"front"])) : nth_type 48 (service_ms w0))). vm_compute. exact I.
    + apply (looks_at 67 ([Short $"c"] : nth_type 67 (service_ms w0))). vm_compute. exact I.
    + apply (looks_at 80 ([Short (mk_short_volume $"/a" (Some (mk_short_options (NamedVolume $"data") true None))); Short (mk_short_volume $"/b" (Some (mk_short_options (NamedVolume $"data") true None)))]
        : nth_type 80 (service_ms w0))). vm_compute. exact I.
  - intros N w c name s x _ U. apply validation_ignores; [intros ->; apply N; cbn; tauto..|exact U].
Qed.
Print Assumptions validation_fields.
