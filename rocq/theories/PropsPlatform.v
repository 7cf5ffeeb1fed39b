(** Theorems about platforms (C23), for every table the [platforms!] macro may be given and for the crate's. *)

From Coq Require Import String Ascii List NArith Bool.
Import ListNotations.
From Verif Require Import Base BaseFacts PlatformModel PlatformSpec PlatformProofs.
Open Scope N_scope.

(** C23. For every legal table: parsing accepts exactly the texts os[/arch[/variant]] of supported combinations
    and returns the platform so written; [as_str] gives that text.  [crate_platforms] is the crate's instance. *)
Theorem platform_language : forall t, table_ok t -> forall s p,
  (platform_parse t s = Ok p <-> platform_text t p s) /\ (platform_as_str t p = Some s <-> platform_text t p s).
Proof. intros t T s p. split; [apply platform_parse_ok|apply platform_as_str_ok]; exact T. Qed.
Print Assumptions platform_language.

(** C23. [parse] and [as_str] are mutually inverse, and [as_str] covers every well-typed value. *)
Theorem platform_inverse : forall t, table_ok t ->
  (forall p, platform_typed t p -> exists s, platform_as_str t p = Some s /\ platform_parse t s = Ok p) /\
  (forall s p, platform_parse t s = Ok p -> platform_typed t p /\ platform_as_str t p = Some s) /\
  (forall s e, platform_parse t s = Err e -> e = s).
Proof.
  intros t T. split; [|split].
  - intros p H. apply platform_typed_text in H as [s H]. exists s. split; [apply platform_as_str_ok|apply platform_parse_ok]; assumption.
  - intros s p H. apply platform_parse_ok in H; [|exact T]. split; [apply platform_typed_text; eauto|apply platform_as_str_ok; assumption].
  - intros s e. apply first_text_err.
Qed.
Print Assumptions platform_inverse.

(** C23. The accessors agree with the text: it is the text of [os()], followed by a slash and the text of
    [arch()] if there is one. *)
Theorem platform_accessors : forall t, table_ok t -> forall p s, platform_as_str t p = Some s ->
  exists os, os_as_str t (platform_os p) = Some os /\
    match platform_arch p with
    | None => s = os
    | Some a => exists ar, arch_as_str t a = Some ar /\ s = os ++ $"/" ++ ar
    end.
Proof.
  intros t T p s H. apply platform_as_str_ok in H; [|exact T]. inversion H as [o Ho|o a x Ho Hx]; subst.
  - exists (o_name o). split; [apply os_as_str_ok; [exact T|]; eauto|reflexivity].
  - exists (o_name o). split; [apply os_as_str_ok; [exact T|]; eauto|]. cbn. destruct Hx as [it [Hi [_ Hx]]].
    exists x. split; [|reflexivity]. replace (arch_of_os_arch a) with a by (destruct a; reflexivity).
    apply arch_as_str_ok; [exact T|]. eauto.
Qed.
Print Assumptions platform_accessors.

(** C23. Converting an architecture to the one of an operating system succeeds exactly if the operating system
    supports it; converting back gives the same architecture, and every architecture of the operating system comes
    back from [Arch]. *)
Theorem platform_arch_conversion : forall t, table_ok t -> forall o a, In o (t_os t) ->
  (forall a', (exists s, arch_as_str t a = Some s) ->
    os_arch_try_from t o a = Ok a' -> arch_of_os_arch a' = a /\ exists s, os_arch_as_str t o a' = Some s /\ arch_as_str t a = Some s) /\
  (forall s, os_arch_as_str t o a = Some s -> arch_as_str t (arch_of_os_arch a) = Some s /\ os_arch_try_from t o (arch_of_os_arch a) = Ok a) /\
  ((exists s, arch_as_str t a = Some s) -> (forall s, os_arch_as_str t o a <> Some s) -> os_arch_try_from t o a = Err (a, o_ident o)).
Proof.
  intros t T o a Ho. replace (arch_of_os_arch a) with a by (destruct a; reflexivity). split; [|split].
  - intros a' [s A] H. apply arch_as_str_ok in A as [it [Hi A]]; [|exact T]. apply os_arch_try_from_ok in H as [-> [s' H]]; eauto.
    split; [destruct a; reflexivity|]. exists s'. split; [apply os_arch_as_str_ok; assumption|].
    apply arch_as_str_ok; [exact T|]. destruct H as [it' [Hi' [_ H]]]. eauto.
  - intros s H. apply os_arch_as_str_ok in H as [it [Hi [Hn H]]]; [|exact T]. split; [apply arch_as_str_ok; eauto|].
    apply os_arch_try_from_ok; eauto. split; [reflexivity|]. exists s, it. auto.
  - intros [s A] N. destruct (os_arch_try_from t o a) as [a'|e] eqn:E.
    + exfalso. apply arch_as_str_ok in A as [it [Hi A]]; [|exact T]. apply os_arch_try_from_ok in E as [-> [s' E]]; eauto.
      apply (N s'). apply os_arch_as_str_ok; assumption.
    + unfold os_arch_try_from in E. destruct (existsb _ _); congruence.
Qed.
Print Assumptions platform_arch_conversion.

(** C23. The texts of operating systems, architectures and the architectures of an operating system. *)
Theorem platform_parts_inverse : forall t, table_ok t ->
  (forall i s, os_parse t s = Ok i <-> os_as_str t i = Some s) /\
  (forall a s, arch_parse t s = Ok a <-> arch_as_str t a = Some s) /\
  (forall o a s, os_arch_parse t o s = Ok a <-> os_arch_as_str t o a = Some s) /\
  (forall i s, os_parse t s = Ok i -> platform_parse t s = Ok (platform_of_os i) /\ platform_os (platform_of_os i) = i).
Proof.
  intros t T. split; [|split; [|split]].
  - intros i s. rewrite os_parse_ok, os_as_str_ok by exact T. reflexivity.
  - intros a s. rewrite arch_parse_ok, arch_as_str_ok by exact T. reflexivity.
  - intros o a s. rewrite os_arch_parse_ok, os_arch_as_str_ok by exact T. reflexivity.
  - intros i s H. apply os_parse_ok in H as [o [Ho [<- <-]]]; [|exact T]. split; [|reflexivity].
    apply platform_parse_ok; [exact T|]. apply pt_os. exact Ho.
Qed.
Print Assumptions platform_parts_inverse.

(** C23. The macro rejects a table exactly if an operating system lists an architecture which is not defined or an
    architecture is not used. *)
Theorem platform_macro_checks : forall t, to_map t = [] <->
  (forall o n, In o (t_os t) -> In n (o_arch o) -> exists a, In a (t_arch t) /\ a_name a = n) /\
  (forall a, In a (t_arch t) -> exists o, In o (t_os t) /\ In (a_name a) (o_arch o)).
Proof.
  intros t. unfold to_map. split.
  - intros H. apply app_eq_nil in H as [H1 H2]. apply map_eq_nil in H1, H2. split.
    + intros o n Ho Hn. assert (In n (flat_map o_arch (t_os t))) as Hi by (apply in_flat_map; eauto).
      pose proof (filter_nil _ _ _ H1 Hi) as F. cbn beta in F. destruct (map_get t n) as [it|] eqn:G; [|discriminate].
      unfold map_get in G. apply find_some in G as [G1 G2]. apply in_rev in G1. destruct (str_dec (a_name it) n); [|discriminate]. eauto.
    + intros a Ha. pose proof (filter_nil _ _ _ H2 Ha) as F. cbn beta in F.
      destruct (in_dec str_dec (a_name a) (flat_map o_arch (t_os t))) as [Hi|]; [|discriminate]. apply in_flat_map in Hi. exact Hi.
  - intros [H1 H2]. assert (E : forall {A} (f : A -> bool) l, (forall x, In x l -> f x = false) -> filter f l = []).
    { intros A f. induction l as [|x l IH]; intros H; [reflexivity|]. cbn [filter]. rewrite H by (left; reflexivity). apply IH. intros y Hy. apply H. right. exact Hy. }
    rewrite !E; [reflexivity| |].
    + intros a Ha. destruct (in_dec _ _ _) as [|N]; [reflexivity|]. exfalso. apply N. apply in_flat_map. apply H2. exact Ha.
    + intros n Hn. apply in_flat_map in Hn as [o [Ho Hn]]. destruct (map_get t n) eqn:G; [reflexivity|].
      destruct (H1 o n Ho Hn) as [a [Ha Ea]]. apply in_rev in Ha. unfold map_get in G. eapply find_none in G; [|exact Ha].
      cbn beta in G. destruct (str_dec (a_name a) n); [discriminate|contradiction].
Qed.
Print Assumptions platform_macro_checks.

(** C23. The crate's table is legal, so all of the above holds of [compose_spec::service::Platform]. *)
Theorem crate_platforms : table_ok crate_table /\ to_map crate_table = [] /\
  forall s p, platform_parse crate_table s = Ok p <-> platform_text crate_table p s.
Proof.
  split; [apply crate_table_ok|]. split; [vm_compute; reflexivity|]. intros s p. apply platform_parse_ok. apply crate_table_ok.
Qed.
Print Assumptions crate_platforms.

(** C23. The texts of platforms are the ones listed in [PlatformSpec]. *)
Lemma first_text_in : forall {A} (arms : list (A * str)) s, (exists a, first_text arms s = Ok a) <-> In s (map snd arms).
Proof.
  intros A arms s. unfold first_text. induction arms as [|[a t] arms IH]; cbn [find map snd].
  - split; [intros [x H]; discriminate|intros []].
  - destruct (str_eqb_spec t s) as [->|N].
    + split; [intros _; now left|intros _; now exists a].
    + rewrite IH. cbn [In]. split; [tauto|intros [E|I]; [congruence|exact I]].
Qed.
Definition platform_list : list str := flat_map (fun p => fst p :: map (fun a => fst p ++ $"/" ++ a) (snd p)) PLATFORMS.
Lemma platform_list_iff : forall s, In s platform_list <-> PLATFORM s.
Proof.
  intros s. unfold platform_list. rewrite in_flat_map. unfold PLATFORM. split.
  - intros ([os archs] & I & [H|H]); cbn [fst snd] in H; exists os, archs; (split; [exact I|]); [now left|]. right. apply in_map_iff in H as (a & E & H). eauto.
  - intros (os & archs & I & H). exists (os, archs). split; [exact I|]. cbn [fst snd]. destruct H as [->|(a & H & ->)]; [now left|]. right. apply in_map_iff. eauto.
Qed.
Theorem crate_platform_texts : forall s, (exists p, platform_parse crate_table s = Ok p) <-> PLATFORM s.
Proof.
  intros s. unfold platform_parse. rewrite first_text_in, <- platform_list_iff.
  assert (E : forallb (fun x => existsb (str_eqb x) platform_list) (map snd (platform_arms crate_table)) = true) by (vm_compute; reflexivity).
  assert (F : forallb (fun x => existsb (str_eqb x) (map snd (platform_arms crate_table))) platform_list = true) by (vm_compute; reflexivity).
  rewrite forallb_forall in E, F. split; intros I; [apply E in I|apply F in I]; apply existsb_exists in I as (y & Hy & X); apply str_eqb_eq in X; now subst y.
Qed.
Print Assumptions crate_platform_texts.

Example platform_case : platform_parse crate_table $"linux/arm64/v8" = Ok (mk_platform $"Linux" (Some (AVar $"Arm64" (Some $"V8")))) /\
  platform_parse crate_table $"darwin/386" = Err $"darwin/386" /\ List.length (platform_arms crate_table) = 85%nat.
Proof. vm_compute. auto. Qed.
