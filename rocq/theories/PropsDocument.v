(** C66: validation in terms of the document. A document is loaded and validated; the answer only depends on what the
    document declares and uses ([DocumentSpec]). *)

From Coq Require Import String Ascii List NArith ZArith Bool Lia.
Import ListNotations.
From Verif Require Import Base BaseFacts Coll CollFacts VolumesModel ValidateModel PropsValidate Serde Codec ScalarCodec CommonCodec ServiceParts MountCodec HealthProofs ServiceCodec ComposeCodec
  ComposeProofs PropsCompose Schema SchemaFacts ComposeView DocumentSpec DocumentFacts.
Open Scope N_scope.

Lemma view_services : forall w (c : compose w) n t, In (n, t) (vc_services (compose_view c)) <->
  exists s, In (n, s) (nth_val 3 (compose_ms w) (fst c)) /\ t = service_view s.
Proof.
  intros w c n t. unfold compose_view. cbn [vc_services]. split.
  - intros I. apply in_map_iff in I as ([m s] & E & I). injection E as <- <-. eauto.
  - intros (s & I & ->). apply in_map_iff. now exists (n, s).
Qed.

(** Every service of the document is validated, and no other. *)
Lemma view_document : forall w v c n, load w v = Ok c ->
  forall Q : sval -> vservice -> Prop, (forall x s, de (service_c w) x = Ok s -> Q x (service_view s)) ->
  (forall t, In (n, t) (vc_services (compose_view c)) -> exists x, has_service v n x /\ Q x t) /\
  (forall x, has_service v n x -> exists t, In (n, t) (vc_services (compose_view c)) /\ Q x t).
Proof.
  intros w v c n H Q HQ. destruct (compose_has w v c H) as [S _]. split.
  - intros t I. apply view_services in I as (s & I & ->). apply S in I as (x & X & D). exists x. split; [exact X|now apply HQ].
  - intros x X.
    assert (D : exists s, de (service_c w) x = Ok s).
    { unfold load, compose_c in H. destruct (struct_map _ _ _ H) as [es E]. destruct X as (y & P & L). subst v.
      apply (struct_nth (compose_ms w) 3 es (fun _ => exists s, de (service_c w) x = Ok s) c H).
      change (forall l, m_de (required $"services" (smap identifier_c (service_c w))) es = Ok l -> exists s, de (service_c w) x = Ok s).
      clear - P L. intros l H. apply field_from in H as [(z & V & D)|[_ D]]; [|discriminate]. apply part_map in P. assert (z = y) by congruence. subst z.
      apply smap_entries in D as (ks & r & -> & _ & F). destruct L as (before & after & E & _). injection E as ->.
      apply Forall2_app_inv_l in F as (r1 & r2 & _ & F & _). inversion F as [|? [k b] ? ? [_ D] _]; subst. now exists b. }
    destruct D as [s D]. exists (service_view s). split; [|now apply HQ]. apply view_services. exists s. split; [|reflexivity]. apply S. eauto.
Qed.

(** One kind of reference. *)
Lemma refs_document : forall w v c (refs : vservice -> list str) (uses : sval -> str -> Prop) defined (kind : str), load w v = Ok c ->
  (forall x s, de (service_c w) x = Ok s -> forall n, In n (refs (service_view s)) <-> uses x n) ->
  (forall n, In n defined <-> declares v kind n) ->
  ((forall n t, In (n, t) (vc_services (compose_view c)) -> incl (refs t) defined) <->
   (forall name x n, has_service v name x -> uses x n -> declares v kind n)).
Proof.
  intros w v c refs uses defined kind H R D. split.
  - intros A name x n X U. destruct (view_document w v c name H (fun x t => forall n, In n (refs t) <-> uses x n) R) as [_ G].
    destruct (G x X) as (t & I & E). apply D. apply (A name t I). now apply E.
  - intros A name t I n J. destruct (view_document w v c name H (fun x t => forall n, In n (refs t) <-> uses x n) R) as [G _].
    destruct (G t I) as (x & X & E). apply D. apply (A name x n X). now apply E.
Qed.

(** Networks, configs and secrets: accepted exactly if whatever a service of the document uses is declared. *)
Theorem document_networks : forall w v c, load w v = Ok c ->
  (validate_networks (compose_view c) = Ok tt <-> forall name s n, has_service v name s -> uses_network s n -> declares v $"networks" n).
Proof.
  intros w v c H. rewrite <- (refs_document w v c networks_of uses_network (vc_networks (compose_view c)) $"networks" H).
  - pose proof (validate_networks_spec (compose_view c)) as S. destruct (validate_networks (compose_view c)) as [[]|e]; [tauto|].
    split; [discriminate|]. intros A. destruct S as [_ [name [_ F]]]. now apply first_violation_bad in F.
  - intros x s D. exact (proj1 (service_uses w x s D)).
  - exact (proj1 (proj2 (compose_has w v c H))).
Qed.
Print Assumptions document_networks.
Theorem document_configs : forall w v c, load w v = Ok c ->
  (validate_configs (compose_view c) = Ok tt <-> forall name s n, has_service v name s -> uses_grant $"configs" s n -> declares v $"configs" n).
Proof.
  intros w v c H. rewrite <- (refs_document w v c (fun s => sources (vs_configs s)) (uses_grant $"configs") (vc_configs (compose_view c)) $"configs" H).
  - pose proof (validate_configs_spec (compose_view c)) as S. destruct (validate_configs (compose_view c)) as [[]|e]; [tauto|].
    split; [discriminate|]. intros A. destruct S as [_ [name [_ F]]]. now apply first_violation_bad in F.
  - intros x s D. exact (proj1 (proj2 (service_uses w x s D))).
  - exact (proj1 (proj2 (proj2 (proj2 (compose_has w v c H))))).
Qed.
Print Assumptions document_configs.
Theorem document_secrets : forall w v c, load w v = Ok c ->
  (validate_secrets (compose_view c) = Ok tt <-> forall name s n, has_service v name s -> uses_grant $"secrets" s n -> declares v $"secrets" n).
Proof.
  intros w v c H. rewrite <- (refs_document w v c (fun s => sources (vs_secrets s)) (uses_grant $"secrets") (vc_secrets (compose_view c)) $"secrets" H).
  - pose proof (validate_secrets_spec (compose_view c)) as S. destruct (validate_secrets (compose_view c)) as [[]|e]; [tauto|].
    split; [discriminate|]. intros A. destruct S as [_ [name [_ F]]]. now apply first_violation_bad in F.
  - intros x s D. exact (proj1 (proj2 (proj2 (service_uses w x s D)))).
  - exact (proj2 (proj2 (proj2 (proj2 (compose_has w v c H))))).
Qed.
Print Assumptions document_secrets.

(** The services of a file have different names. *)
Lemma view_names : forall w v c, load w v = Ok c -> NoDup (map fst (vc_services (compose_view c))).
Proof.
  intros w v c H. unfold compose_view. cbn [vc_services]. rewrite map_map. cbn [fst]. unfold load, compose_c in H. destruct (struct_map _ _ _ H) as [es ->].
  apply (struct_nth (compose_ms w) 3 es (fun l => NoDup (map (fun e => fst e) l)) c H).
  change (forall l, m_de (required $"services" (smap identifier_c (service_c w))) es = Ok l -> NoDup (map (fun e => fst e) l)).
  clear. intros l H. apply field_from in H as [(x & _ & D)|[_ D]]; [|discriminate]. apply smap_entries in D as (ks & r & _ & -> & _). apply (imap_of_NoDup str_eqb str_eqb_eq).
Qed.

(** Volumes: an undeclared volume used by two services is always rejected; if something is rejected, it is undeclared and
    mounted by two services, or twice by one. *)
Theorem document_volumes_rejected : forall w v c name1 s1 name2 s2 n, load w v = Ok c -> name1 <> name2 ->
  has_service v name1 s1 -> has_service v name2 s2 -> uses_volume s1 n -> uses_volume s2 n -> ~ declares v $"volumes" n ->
  exists e, validate_volumes (compose_view c) = Err e /\ ve_kind e = KVolume.
Proof.
  intros w v c name1 s1 name2 s2 n H N X1 X2 U1 U2 ND.
  assert (R : forall x s, de (service_c w) x = Ok s -> forall n, In n (named_volumes (vs_volumes (service_view s))) <-> uses_volume x n).
  { intros x s D. exact (proj1 (proj2 (proj2 (proj2 (service_uses w x s D))))). }
  destruct (view_document w v c name1 H (fun x t => forall n, In n (named_volumes (vs_volumes t)) <-> uses_volume x n) R) as [_ G1].
  destruct (view_document w v c name2 H (fun x t => forall n, In n (named_volumes (vs_volumes t)) <-> uses_volume x n) R) as [_ G2].
  destruct (G1 s1 X1) as (t1 & I1 & E1). destruct (G2 s2 X2) as (t2 & I2 & E2). apply E1, named_volumes_mounts in U1. apply E2, named_volumes_mounts in U2.
  assert (ND' : ~ In n (vc_volumes (compose_view c))) by (intros J; apply ND; now apply (proj1 (proj2 (proj2 (compose_has w v c H))))).
  generalize dependent (compose_view c). intros vc G1 G2 I1 I2 ND'.
  assert (O : (exists a b d, vc_services vc = a ++ (name1, t1) :: b ++ (name2, t2) :: d) \/ (exists a b d, vc_services vc = a ++ (name2, t2) :: b ++ (name1, t1) :: d)).
  { apply in_split in I1 as (a & b & E). rewrite E in I2. apply in_app_or in I2 as [I2|[I2|I2]]; [right| |left].
    - apply in_split in I2 as (x & y & ->). exists x, y, b. now rewrite E, <- app_assoc.
    - elim N. congruence.
    - apply in_split in I2 as (x & y & ->). now exists a, x, y. }
  destruct O as [(a & b & d & E)|(a & b & d & E)]; [exact (validate_volumes_shared vc a name1 t1 b name2 t2 d n E U1 U2 ND')|exact (validate_volumes_shared vc a name2 t2 b name1 t1 d n E U2 U1 ND')].
Qed.
Print Assumptions document_volumes_rejected.
Theorem document_volumes_only : forall w v c e, load w v = Ok c -> validate_volumes (compose_view c) = Err e ->
  ~ declares v $"volumes" (ve_resource e) /\
  ((exists name1 s1 name2 s2, name1 <> name2 /\ has_service v name1 s1 /\ has_service v name2 s2 /\ uses_volume s1 (ve_resource e) /\ uses_volume s2 (ve_resource e)) \/
   (exists name s, has_service v name s /\ uses_volume_twice s (ve_resource e))).
Proof.
  intros w v c e H E. apply validate_volumes_fails_only in E as [ND O]. split; [intros D; apply ND; now apply (proj1 (proj2 (proj2 (compose_has w v c H))))|].
  set (Q := fun x t => (forall n, In n (named_volumes (vs_volumes t)) <-> uses_volume x n) /\
    forall n a b, named_volumes (vs_volumes t) = a ++ n :: b -> In n a -> uses_volume_twice x n).
  assert (R : forall x s, de (service_c w) x = Ok s -> Q x (service_view s)).
  { intros x s D. exact (proj2 (proj2 (proj2 (service_uses w x s D)))). }
  assert (G := fun name t => proj1 (view_document w v c name H Q R) t). assert (ND' := view_names w v c H). destruct O as [(a & n1 & t1 & b & n2 & t2 & d & S & M1 & M2)|(n & t & x & y & I & S & J)].
  - left. destruct (G n1 t1) as (x1 & X1 & Q1 & _); [rewrite S; apply in_or_app; right; now left|].
    destruct (G n2 t2) as (x2 & X2 & Q2 & _); [rewrite S; apply in_or_app; right; right; apply in_or_app; right; now left|].
    exists n1, x1, n2, x2. split; [|split; [exact X1|split; [exact X2|split; [apply Q1|apply Q2]; now apply named_volumes_mounts]]].
    intros <-. rewrite S, map_app in ND'. cbn [map fst] in ND'. apply NoDup_remove_2 in ND'. apply ND'. apply in_or_app. right. rewrite map_app. apply in_or_app. right. now left.
  - right. destruct (G n t I) as (z & Z & _ & T). exists n, z. split; [exact Z|]. exact (T _ x y S J).
Qed.
Print Assumptions document_volumes_only.

(** What an error says is true of the document: the service is there, uses the resource, and the document does not declare it. *)
Theorem document_error : forall w v c e, load w v = Ok c -> validate_all (compose_view c) = Err e ->
  match ve_kind e with
  | KNetwork => exists name s, ve_service e = Some name /\ has_service v name s /\ uses_network s (ve_resource e) /\ ~ declares v $"networks" (ve_resource e)
  | KVolume => ve_service e = None /\ (exists name s, has_service v name s /\ uses_volume s (ve_resource e)) /\ ~ declares v $"volumes" (ve_resource e)
  | KConfig => exists name s, ve_service e = Some name /\ has_service v name s /\ uses_grant $"configs" s (ve_resource e) /\ ~ declares v $"configs" (ve_resource e)
  | KSecret => exists name s, ve_service e = Some name /\ has_service v name s /\ uses_grant $"secrets" s (ve_resource e) /\ ~ declares v $"secrets" (ve_resource e)
  end.
Proof.
  intros w v c e H E. apply validate_all_error in E. destruct (compose_has w v c H) as (_ & DN & DV & DC & DS).
  assert (F : forall (refs : vservice -> list str) (uses : sval -> str -> Prop) defined kind, (forall x s, de (service_c w) x = Ok s -> forall n, In n (refs (service_view s)) <-> uses x n) ->
    (forall n, In n defined <-> declares v kind n) ->
    (exists name, ve_service e = Some name /\ first_violation refs defined (vc_services (compose_view c)) name (ve_resource e)) ->
    exists name s, ve_service e = Some name /\ has_service v name s /\ uses s (ve_resource e) /\ ~ declares v kind (ve_resource e)).
  { intros refs uses defined kind R D (name & S & pre & t & post & L & _ & a & b & U & N & _).
    destruct (view_document w v c name H (fun x t => forall n, In n (refs t) <-> uses x n) R) as [G _].
    destruct (G t) as (x & X & Q); [rewrite L; apply in_or_app; right; now left|]. exists name, x. split; [exact S|]. split; [exact X|]. split.
    - apply Q. rewrite U. apply in_or_app. right. now left.
    - now rewrite <- D. }
  destruct (ve_kind e).
  - apply (F networks_of uses_network _ $"networks" (fun x s D => proj1 (service_uses w x s D)) DN E).
  - destruct E as (_ & S & a & b & U & I & N & _). split; [exact S|]. split; [|now rewrite <- DV]. unfold volume_uses in U.
    assert (J : In (ve_resource e) (concat (map (fun s => named_volumes (vs_volumes (snd s))) (vc_services (compose_view c))))) by (rewrite U; apply in_or_app; now left).
    apply in_concat in J as (l & L & J). apply in_map_iff in L as ([name t] & <- & L).
    destruct (view_document w v c name H (fun x t => forall n, In n (named_volumes (vs_volumes t)) <-> uses_volume x n)
      (fun x s D => proj1 (proj2 (proj2 (proj2 (service_uses w x s D)))))) as [G _].
    destruct (G t L) as (x & X & Q). exists name, x. split; [exact X|now apply Q].
  - apply (F (fun s => sources (vs_configs s)) (uses_grant $"configs") _ $"configs" (fun x s D => proj1 (proj2 (service_uses w x s D))) DC). tauto.
  - apply (F (fun s => sources (vs_secrets s)) (uses_grant $"secrets") _ $"secrets" (fun x s D => proj1 (proj2 (proj2 (service_uses w x s D)))) DS). tauto.
Qed.
Print Assumptions document_error.

Definition checked (w : externals) (v : sval) : option (result validation_error unit) := match load w v with Ok c => Some (validate_all (compose_view c)) | Err _ => None end.
Definition uses_all (networks : sval) : sval :=
  VMap [(VStr $"networks", networks); (VStr $"configs", VSeq [VStr $"c"; VMap [(VStr $"source", VStr $"d")]]);
        (VStr $"volumes", VSeq [VStr $"data:/a"; VMap [(VStr $"type", VStr $"bind"); (VStr $"source", VStr $"/x"); (VStr $"target", VStr $"/y")]])].
Definition document (volumes : list (sval * sval)) : sval :=
  file [(VStr $"a", uses_all (VSeq [VStr $"front"])); (VStr $"b", uses_all (VMap [(VStr $"front", VNull)]))]
    [(VStr $"networks", VMap [(VStr $"front", VNull)]); (VStr $"volumes", VMap volumes);
     (VStr $"configs", VMap [(VStr $"c", VMap [(VStr $"file", VStr $"c.txt")]); (VStr $"d", VMap [(VStr $"external", VBool true)])])].
Example document_case :
  checked w0 (document []) = Some (Err (mk_validation_error None $"data" KVolume)) /\
  checked w0 (document [(VStr $"data", VNull)]) = Some (Ok tt).
Proof. split; vm_compute; reflexivity. Qed.
(** One service which mounts a volume at two paths is rejected, though it is the only one to use it. *)
Example document_twice :
  checked w0 (file [(VStr $"a", VMap [(VStr $"volumes", VSeq [VStr $"data:/a"; VStr $"data:/b"])])] []) = Some (Err (mk_validation_error None $"data" KVolume)) /\
  checked w0 (file [(VStr $"a", VMap [(VStr $"volumes", VSeq [VStr $"data:/a"; VStr $"data:/a"])])] []) = Some (Ok tt).
Proof. split; vm_compute; reflexivity. Qed.
