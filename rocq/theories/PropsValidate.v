(** C35 and C36: validation of a compose file. *)

From Coq Require Import String Ascii List Bool Arith Lia.
Import ListNotations.
From Verif Require Import Base BaseFacts VolumesModel ValidateModel.

(** * Specification *)

(** What a service refers to, by kind. *)
Definition networks_of (s : vservice) : list str := match vs_networks s with NetworkNames l => l | _ => [] end.
Definition sources (l : list (short_or_long str config_or_secret)) : list str :=
  map (fun x => match x with Short n => n | Long c => cos_source c end) l.

(** A service mounts the named volume [v]: by the short syntax with a volume name as source, or by a long
    volume mount with that source. *)
Definition mounts (s : vservice) (v : str) : Prop :=
  exists e, In e (vs_volumes s) /\
    match e with
    | Short sv => exists o, sv_options sv = Some o /\ so_source o = NamedVolume v
    | Long m => exists vol, m = MVolume vol /\ vol_source vol = Some v
    end.

(** All named volume references of a file, in order. *)
Definition volume_uses (c : vcompose) : list str :=
  concat (map (fun s => named_volumes (vs_volumes (snd s))) (vc_services c)).

(** [r] is the first element of [used] which is not in [defined]. *)
Definition first_undefined (defined used : list str) (r : str) : Prop :=
  exists a b, used = a ++ r :: b /\ ~ In r defined /\ incl a defined.

(** The reported service is the first one which refers to something undefined, and the reported resource is
    its first such reference. *)
Definition first_violation (refs : vservice -> list str) (defined : list str) (services : list (str * vservice)) (name r : str) : Prop :=
  exists pre s post, services = pre ++ (name, s) :: post /\
    (forall n t, In (n, t) pre -> incl (refs t) defined) /\ first_undefined defined (refs s) r.

(** [v] is the first undefined volume to occur a second time. *)
Definition first_repeat (defined uses : list str) (v : str) : Prop :=
  exists a b, uses = a ++ v :: b /\ In v a /\ ~ In v defined /\
    forall a1 x a2, a = a1 ++ x :: a2 -> In x a1 -> In x defined.

Definition repeats_defined (defined uses : list str) : Prop :=
  forall a x b, uses = a ++ x :: b -> In x a -> In x defined.

(** * Lemmas *)

Lemma contains_key_iff : forall l k, contains_key l k = true <-> In k l.
Proof.
  intros l k. unfold contains_key. rewrite existsb_exists. split.
  - intros [x [H E]]. apply str_eqb_eq in E. subst x. exact H.
  - intros H. exists k. split; [exact H|apply str_eqb_refl].
Qed.

Lemma contains_key_false : forall l k, contains_key l k = false <-> ~ In k l.
Proof. intros l k. rewrite <- contains_key_iff. destruct (contains_key l k); split; congruence. Qed.

Lemma check_defined_spec : forall d u,
  match check_defined d u with Ok _ => incl u d | Err r => first_undefined d u r end.
Proof.
  intros d u. induction u as [|x u IH]; cbn [check_defined]; [intros x []|].
  destruct (contains_key d x) eqn:E.
  - apply contains_key_iff in E. destruct (check_defined d u) as [[]|r].
    + intros y [<-|Hy]; auto.
    + destruct IH as [a [b [-> [H1 H2]]]]. exists (x :: a), b. repeat split; [exact H1|]. intros y [<-|Hy]; auto.
  - apply contains_key_false in E. exists [], u. repeat split; [exact E|intros y []].
Qed.

Lemma for_services_spec : forall kind check refs d,
  (forall s, match check s with Ok _ => incl (refs s) d | Err r => first_undefined d (refs s) r end) ->
  forall services, match for_services kind check services with
  | Ok _ => forall n s, In (n, s) services -> incl (refs s) d
  | Err e => ve_kind e = kind /\ exists name, ve_service e = Some name /\ first_violation refs d services name (ve_resource e)
  end.
Proof.
  intros kind check refs d Hc services. induction services as [|[name s] services IH]; cbn [for_services]; [intros n s []|].
  specialize (Hc s). destruct (check s) as [[]|r]; cbn [map_err bind].
  - destruct (for_services kind check services) as [[]|e].
    + intros n t [E|H]; [injection E as <- <-; exact Hc|]. exact (IH n t H).
    + destruct IH as [Hk [n [Hs [pre [t [post [-> [H1 H2]]]]]]]]. split; [exact Hk|]. exists n. split; [exact Hs|].
      exists ((name, s) :: pre), t, post. repeat split; [|exact H2]. intros m u [E|H]; [injection E as <- <-; exact Hc|]. exact (H1 m u H).
  - split; [reflexivity|]. exists name. split; [reflexivity|]. exists [], s, services. repeat split; [intros n t []|exact Hc].
Qed.

Lemma repeats_split : forall (d p l : list str) x, repeats_defined d (p ++ x :: l) ->
  repeats_defined d ((p ++ [x]) ++ l).
Proof. intros d p l x H. rewrite <- app_assoc. exact H. Qed.

Lemma volumes_loop_spec : forall d l seen p,
  (forall x, seen_get seen x = None <-> ~ In x p) ->
  (forall x, seen_get seen x = Some true -> In x d) ->
  (forall a1 x a2, p = a1 ++ x :: a2 -> In x a1 -> In x d) ->
  match volumes_loop d seen l with
  | Ok _ => repeats_defined d (p ++ l)
  | Err e => ve_kind e = KVolume /\ ve_service e = None /\ first_repeat d (p ++ l) (ve_resource e)
  end.
Proof.
  intros d l. induction l as [|v l IH]; intros seen p H1 H2 H3; cbn [volumes_loop].
  - unfold repeats_defined. rewrite app_nil_r. exact H3.
  - assert (Step : forall b, (b = true -> In v d) -> (In v p -> In v d) ->
      match volumes_loop d (seen_set seen v b) l with
      | Ok _ => repeats_defined d (p ++ v :: l)
      | Err e => ve_kind e = KVolume /\ ve_service e = None /\ first_repeat d (p ++ v :: l) (ve_resource e)
      end).
    { intros b Hb Hp. replace (p ++ v :: l) with ((p ++ [v]) ++ l) by (rewrite <- app_assoc; reflexivity). apply IH.
      - intros x. cbn [seen_set seen_get]. rewrite in_app_iff. destruct (str_eqb_spec x v) as [->|Hn].
        + split; [discriminate|]. intros H. exfalso. apply H. right. left. reflexivity.
        + rewrite H1. cbn [In]. split; intros H X; apply H; [|tauto]. destruct X as [X|[X|[]]]; [exact X|congruence].
      - intros x. cbn [seen_set seen_get]. destruct (str_eqb_spec x v) as [->|Hn]; [|apply H2]. intros E. injection E as ->. auto.
      - intros a1 x a2 E Hx. destruct a2 as [|y a2].
        + apply app_inj_tail in E as [-> <-]. auto.
        + assert (E2 : p ++ [v] = (a1 ++ x :: removelast (y :: a2)) ++ [last (y :: a2) v]).
          { rewrite E. rewrite <- app_assoc. cbn [app]. rewrite <- (app_removelast_last v) by discriminate. reflexivity. }
          apply app_inj_tail in E2 as [-> _]. eapply H3; [reflexivity|exact Hx]. }
    destruct (seen_get seen v) as [b|] eqn:E.
    + assert (Hp : In v p).
      { destruct (in_dec str_eq_dec v p) as [H|H]; [exact H|]. apply H1 in H. congruence. }
      destruct (negb b && negb (contains_key d v)) eqn:C.
      * apply andb_true_iff in C as [_ C]. apply negb_true_iff, contains_key_false in C. split; [reflexivity|]. split; [reflexivity|].
        exists p, l. repeat split; assumption.
      * assert (Hd : In v d).
        { apply andb_false_iff in C as [C|C]; apply negb_false_iff in C; [|apply contains_key_iff; exact C].
          subst b. apply H2. exact E. }
        apply Step; auto.
    + apply H1 in E. apply Step; [discriminate|contradiction].
Qed.

Lemma volume_uses_eq : forall c, flat_map (fun s => named_volumes (vs_volumes (snd s))) (vc_services c) = volume_uses c.
Proof. intros c. unfold volume_uses. rewrite flat_map_concat_map. reflexivity. Qed.

Lemma named_volumes_In : forall l v, In v (named_volumes l) <-> exists e, In e l /\ named_volume e = Some v.
Proof.
  induction l as [|e l IH]; intros v; cbn [named_volumes]; [split; [intros []|intros [e [[] _]]]|].
  destruct (named_volume e) as [id|] eqn:E.
  - cbn [In]. rewrite IH. split.
    + intros [<-|[f [H1 H2]]]; eauto.
    + intros [f [[<-|H1] H2]]; [left; congruence|eauto].
  - rewrite IH. split; [intros [f [H1 H2]]; exists f; split; [right|]; assumption|].
    intros [f [[<-|H1] H2]]; [congruence|eauto].
Qed.

(** [named_volumes_iter] gives exactly the named volumes the service mounts. *)
Theorem named_volumes_mounts : forall s v, In v (named_volumes (vs_volumes s)) <-> mounts s v.
Proof.
  intros s v. rewrite named_volumes_In. unfold mounts. split; intros [e [H1 H2]]; exists e; (split; [exact H1|]).
  - destruct e as [sv|m]; cbn [named_volume] in *.
    + destruct (sv_options sv) as [o|]; [|discriminate]. exists o. split; [reflexivity|]. destruct (so_source o) as [x|x]; congruence.
    + destruct m; try discriminate. eauto.
  - destruct e as [sv|m]; cbn [named_volume].
    + destruct H2 as [o [-> ->]]. reflexivity.
    + destruct H2 as [vol [-> ->]]. reflexivity.
Qed.
Print Assumptions named_volumes_mounts.

(** * C35 *)

Theorem validate_networks_spec : forall c, match validate_networks c with
  | Ok _ => forall n s, In (n, s) (vc_services c) -> incl (networks_of s) (vc_networks c)
  | Err e => ve_kind e = KNetwork /\ exists name, ve_service e = Some name /\
      first_violation networks_of (vc_networks c) (vc_services c) name (ve_resource e)
  end.
Proof.
  intros c. apply for_services_spec. intros s. unfold service_validate_networks, networks_of.
  destruct (vs_networks s); try (intros x []). apply check_defined_spec.
Qed.
Print Assumptions validate_networks_spec.

Theorem validate_configs_spec : forall c, match validate_configs c with
  | Ok _ => forall n s, In (n, s) (vc_services c) -> incl (sources (vs_configs s)) (vc_configs c)
  | Err e => ve_kind e = KConfig /\ exists name, ve_service e = Some name /\
      first_violation (fun s => sources (vs_configs s)) (vc_configs c) (vc_services c) name (ve_resource e)
  end.
Proof.
  intros c. apply (for_services_spec KConfig _ (fun s => sources (vs_configs s))). intros s. apply check_defined_spec.
Qed.
Print Assumptions validate_configs_spec.

Theorem validate_secrets_spec : forall c, match validate_secrets c with
  | Ok _ => forall n s, In (n, s) (vc_services c) -> incl (sources (vs_secrets s)) (vc_secrets c)
  | Err e => ve_kind e = KSecret /\ exists name, ve_service e = Some name /\
      first_violation (fun s => sources (vs_secrets s)) (vc_secrets c) (vc_services c) name (ve_resource e)
  end.
Proof.
  intros c. apply (for_services_spec KSecret _ (fun s => sources (vs_secrets s))). intros s. apply check_defined_spec.
Qed.
Print Assumptions validate_secrets_spec.

Theorem validate_volumes_spec : forall c, match validate_volumes c with
  | Ok _ => repeats_defined (vc_volumes c) (volume_uses c)
  | Err e => ve_kind e = KVolume /\ ve_service e = None /\ first_repeat (vc_volumes c) (volume_uses c) (ve_resource e)
  end.
Proof.
  intros c. unfold validate_volumes. rewrite volume_uses_eq. apply (volumes_loop_spec _ _ [] []).
  - intros x. split; [intros _ []|reflexivity].
  - discriminate.
  - intros a1 x a2 E. destruct a1; discriminate.
Qed.
Print Assumptions validate_volumes_spec.

Lemma first_violation_bad : forall refs d services name r, first_violation refs d services name r ->
  ~ (forall n s, In (n, s) services -> incl (refs s) d).
Proof.
  intros refs d services name r [pre [s [post [-> [_ [a [b [E [H1 _]]]]]]]]] H. apply H1.
  apply (H name s); [apply in_or_app; right; left; reflexivity|]. rewrite E. apply in_or_app. right. left. reflexivity.
Qed.

(** The four conditions together are exactly what [validate_all] checks. *)
Theorem validate_all_iff : forall c, validate_all c = Ok tt <->
  (forall n s, In (n, s) (vc_services c) ->
     incl (networks_of s) (vc_networks c) /\ incl (sources (vs_configs s)) (vc_configs c) /\
     incl (sources (vs_secrets s)) (vc_secrets c)) /\
  repeats_defined (vc_volumes c) (volume_uses c).
Proof.
  intros c. unfold validate_all.
  pose proof (validate_networks_spec c) as HN. pose proof (validate_volumes_spec c) as HV.
  pose proof (validate_configs_spec c) as HC. pose proof (validate_secrets_spec c) as HS.
  destruct (validate_networks c) as [[]|e]; cbn [bind].
  2:{ split; [discriminate|]. intros [H _]. destruct HN as [_ [name [_ F]]]. exfalso. eapply first_violation_bad; [exact F|].
      intros n s X. apply (H n s X). }
  destruct (validate_volumes c) as [[]|e]; cbn [bind].
  2:{ split; [discriminate|]. intros [_ H]. destruct HV as [_ [_ [a [b [E [H1 [H2 _]]]]]]]. exfalso. apply H2. eapply H; eassumption. }
  destruct (validate_configs c) as [[]|e]; cbn [bind].
  2:{ split; [discriminate|]. intros [H _]. destruct HC as [_ [name [_ F]]]. exfalso. eapply first_violation_bad; [exact F|].
      intros n s X. apply (H n s X). }
  destruct (validate_secrets c) as [[]|e].
  - split; [|reflexivity]. intros _. split; [|exact HV]. intros n s X. split; [|split]; eauto.
  - split; [discriminate|]. intros [H _]. destruct HS as [_ [name [_ F]]]. exfalso. eapply first_violation_bad; [exact F|].
    intros n s X. apply (H n s X).
Qed.
Print Assumptions validate_all_iff.

(** When it fails, the error is the first violation of the first failing kind in the documented order
    networks, volumes, configs, secrets. *)
Theorem validate_all_error : forall c e, validate_all c = Err e ->
  match ve_kind e with
  | KNetwork => exists name, ve_service e = Some name /\
      first_violation networks_of (vc_networks c) (vc_services c) name (ve_resource e)
  | KVolume => validate_networks c = Ok tt /\ ve_service e = None /\ first_repeat (vc_volumes c) (volume_uses c) (ve_resource e)
  | KConfig => validate_networks c = Ok tt /\ validate_volumes c = Ok tt /\ exists name, ve_service e = Some name /\
      first_violation (fun s => sources (vs_configs s)) (vc_configs c) (vc_services c) name (ve_resource e)
  | KSecret => validate_networks c = Ok tt /\ validate_volumes c = Ok tt /\ validate_configs c = Ok tt /\
      exists name, ve_service e = Some name /\
      first_violation (fun s => sources (vs_secrets s)) (vc_secrets c) (vc_services c) name (ve_resource e)
  end.
Proof.
  intros c e. unfold validate_all.
  pose proof (validate_networks_spec c) as HN. pose proof (validate_volumes_spec c) as HV.
  pose proof (validate_configs_spec c) as HC. pose proof (validate_secrets_spec c) as HS.
  destruct (validate_networks c) as [[]|e']; cbn [bind]; [|intros E; injection E as ->; destruct HN as [-> HN]; exact HN].
  destruct (validate_volumes c) as [[]|e']; cbn [bind]; [|intros E; injection E as ->; destruct HV as [-> HV]; auto].
  destruct (validate_configs c) as [[]|e']; cbn [bind]; [|intros E; injection E as ->; destruct HC as [-> HC]; auto].
  destruct (validate_secrets c) as [[]|e']; [discriminate|]. intros E; injection E as ->; destruct HS as [-> HS]; auto.
Qed.
Print Assumptions validate_all_error.

(** * C36 *)

(** A volume not defined at top level and mounted by two different services is always an error. *)
Theorem validate_volumes_shared : forall c a n1 s1 b n2 s2 d v,
  vc_services c = a ++ (n1, s1) :: b ++ (n2, s2) :: d -> mounts s1 v -> mounts s2 v -> ~ In v (vc_volumes c) ->
  exists e, validate_volumes c = Err e /\ ve_kind e = KVolume.
Proof.
  intros c a n1 s1 b n2 s2 d v E M1 M2 Nd. pose proof (validate_volumes_spec c) as H.
  destruct (validate_volumes c) as [[]|e]; [|exists e; split; [reflexivity|apply H]]. exfalso. apply Nd.
  apply named_volumes_mounts in M1, M2. apply in_split in M2 as [x [y M2]].
  apply (H (concat (map (fun s => named_volumes (vs_volumes (snd s))) (a ++ (n1, s1) :: b)) ++ x) v
           (y ++ concat (map (fun s => named_volumes (vs_volumes (snd s))) d))).
  - unfold volume_uses. rewrite E. rewrite (app_comm_cons b), app_assoc. rewrite !map_app, !concat_app. cbn [map concat snd].
    rewrite M2. rewrite <- !app_assoc. reflexivity.
  - apply in_or_app. left. rewrite map_app, concat_app. apply in_or_app. right. cbn [map concat snd]. apply in_or_app. left. exact M1.
Qed.
Print Assumptions validate_volumes_shared.

(** It fails only if some undefined volume is mounted by two different services, or more than once by one
    service. *)
Theorem validate_volumes_fails_only : forall c e, validate_volumes c = Err e ->
  ~ In (ve_resource e) (vc_volumes c) /\
  ((exists a n1 s1 b n2 s2 d, vc_services c = a ++ (n1, s1) :: b ++ (n2, s2) :: d /\ mounts s1 (ve_resource e) /\ mounts s2 (ve_resource e)) \/
   (exists n s x y, In (n, s) (vc_services c) /\ named_volumes (vs_volumes s) = x ++ ve_resource e :: y /\ In (ve_resource e) x)).
Proof.
  intros c e E. pose proof (validate_volumes_spec c) as H. rewrite E in H. destruct H as [_ [_ [p [q [E1 [Hp [Nd _]]]]]]].
  split; [exact Nd|]. generalize dependent (ve_resource e). clear E. intros v E1 Hp _.
  assert (G : forall services p q, concat (map (fun s : str * vservice => named_volumes (vs_volumes (snd s))) services) = p ++ v :: q -> In v p ->
    (exists a n1 s1 b n2 s2 d, services = a ++ (n1, s1) :: b ++ (n2, s2) :: d /\ mounts s1 v /\ mounts s2 v) \/
    (exists n s x y, In (n, s) services /\ named_volumes (vs_volumes s) = x ++ v :: y /\ In v x)).
  { clear. intros services. induction services as [|[n s] services IH]; intros p q E Hp; cbn [map concat snd] in E.
    - destruct p; discriminate.
    - apply app_eq_app in E as [m [[E1 E2]|[E1 E2]]].
      + (* the second use is inside this service or in a later one *)
        destruct m as [|z m].
        * rewrite app_nil_r in E1. cbn [app] in E2.
          apply in_split in Hp as [p1 [p2 Hp]].
          left. assert (M1 : mounts s v) by (apply named_volumes_mounts; rewrite E1, Hp; apply in_or_app; right; left; reflexivity).
          assert (In v (concat (map (fun s : str * vservice => named_volumes (vs_volumes (snd s))) services))) by (rewrite <- E2; left; reflexivity).
          apply in_concat in H as [l [H1 H2]]. apply in_map_iff in H1 as [[n2 s2] [<- H1]]. cbn [snd] in H2.
          apply in_split in H1 as [b [d ->]]. exists [], n, s, b, n2, s2, d. repeat split; [exact M1|]. apply named_volumes_mounts. exact H2.
        * cbn [app] in E2. injection E2 as <- E2. right. exists n, s, p, m. repeat split; [left; reflexivity|exact E1|exact Hp].
      + (* both sides split after this service *)
        subst p. apply in_app_or in Hp as [Hp|Hp].
        * left. assert (M1 : mounts s v) by (apply named_volumes_mounts; exact Hp).
          assert (In v (concat (map (fun s : str * vservice => named_volumes (vs_volumes (snd s))) services))) by (rewrite E2; apply in_or_app; right; left; reflexivity).
          apply in_concat in H as [l [H1 H2]]. apply in_map_iff in H1 as [[n2 s2] [<- H1]]. cbn [snd] in H2.
          apply in_split in H1 as [b [d ->]]. exists [], n, s, b, n2, s2, d. repeat split; [exact M1|]. apply named_volumes_mounts. exact H2.
        * destruct (IH m q E2 Hp) as [[a [n1 [s1 [b [n2 [s2 [d [-> [M1 M2]]]]]]]]]|[n' [s' [x [y [H1 [H2 H3]]]]]]].
          -- left. exists ((n, s) :: a), n1, s1, b, n2, s2, d. repeat split; assumption.
          -- right. exists n', s', x, y. repeat split; [right; exact H1|exact H2|exact H3]. }
  exact (G _ p q E1 Hp).
Qed.
Print Assumptions validate_volumes_fails_only.

(** C36 as stated is false: one service that mounts a named volume at two paths is reported as sharing it. *)
Definition two_mounts : vservice :=
  mk_vservice NoNetworks
    [Long (MVolume {| vol_common := mk_common ($"/a") false None []; vol_source := Some ($"data"); vol_volume := None |});
     Long (MVolume {| vol_common := mk_common ($"/b") false None []; vol_source := Some ($"data"); vol_volume := None |})] [] [].

Theorem validate_volumes_one_service_refuted : exists c,
  (exists n s, vc_services c = [(n, s)]) /\
  validate_volumes c = Err (mk_validation_error None ($"data") KVolume).
Proof. exists (mk_vcompose [($"web", two_mounts)] [] [] [] []). split; [do 2 eexists; reflexivity|reflexivity]. Qed.
Print Assumptions validate_volumes_one_service_refuted.

Example validate_example :
  validate_all (mk_vcompose [($"a", mk_vservice (NetworkNames [$"front"]) [] [Short ($"cfg")] []);
                             ($"b", mk_vservice NetworkModeSet [] [] [Long (mk_config_or_secret ($"key"))])]
                            [$"front"] [] [$"cfg"] [])
  = Err (mk_validation_error (Some ($"b")) ($"key") KSecret).
Proof. reflexivity. Qed.

(** The texts of the errors, for any names. *)
Theorem validation_error_texts : forall c e, validate_all c = Err e ->
  (ve_kind e = KNetwork -> exists s, validation_error_show e =
     $"network `" ++ ve_resource e ++ $"` (used in the `" ++ s ++ $"` service) is not defined in the top-level `networks` field" /\ In s (map fst (vc_services c))) /\
  (ve_kind e = KVolume -> validation_error_show e =
     $"volume `" ++ ve_resource e ++ $"` is used across multiple services and is not defined in the top-level `volumes` field") /\
  (ve_kind e = KConfig -> exists s, validation_error_show e =
     $"config `" ++ ve_resource e ++ $"` (used in the `" ++ s ++ $"` service) is not defined in the top-level `configs` field" /\ In s (map fst (vc_services c))) /\
  (ve_kind e = KSecret -> exists s, validation_error_show e =
     $"secret `" ++ ve_resource e ++ $"` (used in the `" ++ s ++ $"` service) is not defined in the top-level `secrets` field" /\ In s (map fst (vc_services c))).
Proof.
  intros c e H. apply validate_all_error in H.
  assert (N : forall refs d name r, first_violation refs d (vc_services c) name r -> In name (map fst (vc_services c))).
  { intros refs d name r (pre & s & post & -> & _). rewrite map_app. apply in_or_app. right. now left. }
  destruct e as [[s|] r k]; destruct k; cbn [ve_kind ve_service ve_resource] in *; (split; [|split; [|split]]); intros E; try discriminate; clear E;
    try (exists s; split; [unfold validation_error_show; cbn [ve_kind ve_service ve_resource kind_show of_string app]; rewrite <- ?app_assoc; reflexivity|]);
    decompose [ex and] H; try discriminate; try reflexivity; match goal with X : Some _ = Some _ |- _ => injection X as <- end; eauto.
Qed.
Print Assumptions validation_error_texts.

Example validate_message :
  validation_error_show (mk_validation_error (Some ($"b")) ($"key") KSecret) =
  $"secret `key` (used in the `b` service) is not defined in the top-level `secrets` field".
Proof. reflexivity. Qed.
