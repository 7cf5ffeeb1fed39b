(** C86: what saving and loading again does to a file, for every file that can be loaded. *)

From Coq Require Import String Ascii List NArith ZArith Bool Lia.
Import ListNotations.
From Verif Require Import Base BaseFacts Num NumFacts Coll CollFacts TextModel PropsText ValuesModel VolumesModel EqModel Serde Codec CodecFacts EnumModel ScalarCodec ScalarGood CommonCodec CommonGood
  ServiceParts PartsGood MountCodec MountGood HealthModel HealthProofs ServiceCodec ServiceGood ComposeCodec ComposeGood ExactFacts ReadFacts ComposeProofs ValidateModel ComposeView ReloadFacts PropsCompose.
Open Scope N_scope.

(** ** One round is enough *)

(** Every file that can be loaded can be saved and loaded again, and what comes back then comes back unchanged ever after.
    There are no conditions on the file: compare [compose_reload_partial] and [compose_save_stable_partial]. *)
Theorem reload_settles : forall w v c, externals_ok w -> load w v = Ok c ->
  exists c', load w (save w c) = Ok c' /\ load w (save w c') = Ok c'.
Proof.
  intros w v c O H. exists (settle c). split; [exact (proj1 (compose_resettled w v c O H))|exact (settle_fixed w v c O H)].
Qed.
Print Assumptions reload_settles.

(** ** The validation *)

(** [validate_all] and its four parts have the same result, with the same error, before and after. *)
Theorem reload_validation : forall w v c c', externals_ok w -> load w v = Ok c -> load w (save w c) = Ok c' ->
  validate_all (compose_view c') = validate_all (compose_view c) /\
  validate_networks (compose_view c') = validate_networks (compose_view c) /\ validate_volumes (compose_view c') = validate_volumes (compose_view c) /\
  validate_configs (compose_view c') = validate_configs (compose_view c) /\ validate_secrets (compose_view c') = validate_secrets (compose_view c).
Proof.
  intros w v c c' O H H'. assert (R := proj1 (compose_resettled w v c O H)). assert (E : c' = settle c) by (unfold load, save in H'; congruence). subst c'.
  rewrite (compose_view_settle w c). auto.
Qed.
Print Assumptions reload_validation.

(** ** The difference *)

(** How an entry of [volumes_from] comes back. *)
Inductive comes_back : volumes_from -> volumes_from -> Prop :=
| back_ro : comes_back (mk_volumes_from (FromContainer $"ro") false) (mk_volumes_from (FromService $"container") true)
| back_rw : comes_back (mk_volumes_from (FromContainer $"rw") false) (mk_volumes_from (FromService $"container") false)
| back_same : forall v, v <> mk_volumes_from (FromContainer $"ro") false -> v <> mk_volumes_from (FromContainer $"rw") false -> comes_back v v.
(** How the entries of a service come back: each as one of those which were there, none twice. *)
Definition come_back (l l' : list volumes_from) : Prop :=
  (forall x', In x' l' <-> exists x, In x l /\ comes_back x x') /\ NoDup l'.
(** The same service but for its [volumes_from]. *)
Definition service_comes_back {w : externals} (s s' : service w) : Prop :=
  (forall j, j <> 81%nat -> nth_val j (service_ms w) (fst s') = nth_val j (service_ms w) (fst s)) /\ snd s' = snd s /\
  come_back (service_volumes_from s) (service_volumes_from s').
(** The same file but for the [volumes_from] of its services. *)
Definition compose_comes_back {w : externals} (c c' : compose w) : Prop :=
  (forall j, j <> 3%nat -> nth_val j (compose_ms w) (fst c') = nth_val j (compose_ms w) (fst c)) /\ snd c' = snd c /\
  Forall2 (fun e e' => fst e' = fst e /\ service_comes_back (snd e) (snd e')) (compose_services c) (compose_services c').

Lemma misread_back : forall x y, misread x = y <-> comes_back x y.
Proof.
  intros x y. destruct (misread_cases x) as [[-> ->]|[[-> ->]|[K ->]]].
  - split; [intros <-; constructor|]. intros H. inversion H; subst; [reflexivity|congruence].
  - split; [intros <-; constructor|]. intros H. inversion H; subst; [reflexivity|congruence].
  - split; [intros <-; constructor; intros ->; destruct (K eq_refl) as [K1 K2]; [now apply K1|now apply K2]|].
    intros H. inversion H; subst; [exfalso; apply (proj1 (K eq_refl)); reflexivity|exfalso; apply (proj2 (K eq_refl)); reflexivity|reflexivity].
Qed.
Lemma volumes_from_eqb_eq : forall a b, volumes_from_eqb a b = true <-> a = b.
Proof.
  intros [a x] [b y]. unfold volumes_from_eqb. cbn [vf_source vf_read_only]. rewrite andb_true_iff, Bool.eqb_true_iff. destruct a as [a|a], b as [b|b]; cbn [volumes_from_source_eqb].
  - rewrite str_eqb_eq. split; [intros [-> ->]; reflexivity|intros E; injection E as -> ->; auto].
  - split; [intros [E _]; discriminate|discriminate].
  - split; [intros [E _]; discriminate|discriminate].
  - rewrite str_eqb_eq. split; [intros [-> ->]; reflexivity|intros E; injection E as -> ->; auto].
Qed.
Lemma misread_all_back : forall l, come_back l (misread_all l).
Proof.
  intros l. split; [|apply (iset_of_NoDup volumes_from_eqb volumes_from_eqb_eq)]. intros y. unfold misread_all. rewrite (iset_of_In volumes_from_eqb volumes_from_eqb_eq), in_map_iff.
  split; intros (x & A & B); exists x; (split; [|]); try assumption; now apply misread_back.
Qed.
Lemma Forall2_map_r : forall {A B} (f : A -> B) (R : A -> B -> Prop) l, Forall (fun a => R a (f a)) l -> Forall2 R l (map f l).
Proof. intros A B f R l H. induction H; cbn [map]; constructor; assumption. Qed.

(** A file without empty maps in place of lists comes back as it was, but for the entries [container:ro:rw] and
    [container:rw:rw] of [volumes_from], which come back as a service called [container]. *)
Theorem reload_exact : forall w v c, externals_ok w -> no_empty v -> load w v = Ok c ->
  exists c', load w (save w c) = Ok c' /\ compose_comes_back c c'.
Proof.
  intros w v c O E H. exists (settle c). split; [exact (proj1 (compose_resettled w v c O H))|].
  assert (N : norm (compose_c w) c = c) by (apply (compose_exact w O v); [now apply full_parts, no_empty_full|exact H]).
  destruct (compose_norm_parts w c N) as [M S]. split; [|split; [reflexivity|]].
  - intros j J. rewrite (settle_compose_other w c j J). f_equal. exact M.
  - rewrite settle_compose_services. apply Forall2_map_r. eapply Forall_impl; [|exact S]. intros [n s] Ns. cbn [fst snd] in *. split; [reflexivity|].
    split; [exact (settle_service_exact w s Ns)|]. split; [reflexivity|]. rewrite settle_volumes_from. apply misread_all_back.
Qed.
Print Assumptions reload_exact.

(** A file with both entries, an empty map, and an error: it settles after one round, and the error stays. *)
Definition odd_file : sval :=
  file [(VStr $"web", VMap [(VStr $"volumes_from", VSeq [VStr $"container:ro:rw"; VStr $"container:ro"; VStr $"container:db"]);
                            (VStr $"environment", VMap []); (VStr $"networks", VSeq [VStr $"front"])])] [].
Definition odd_view {w : externals} (c : compose w) : list (list volumes_from) * list list_or_map * result validation_error unit :=
  (map (fun e => service_volumes_from (snd e)) (compose_services c), environments c, validate_all (compose_view c)).
Example reload_example : exists c c', load w0 odd_file = Ok c /\ load w0 (save w0 c) = Ok c' /\
  odd_view c = ([[mk_volumes_from (FromContainer $"ro") false; mk_volumes_from (FromService $"container") true; mk_volumes_from (FromContainer $"db") false]], [LMap []],
    Err (mk_validation_error (Some $"web") $"front" KNetwork)) /\
  odd_view c' = ([[mk_volumes_from (FromService $"container") true; mk_volumes_from (FromContainer $"db") false]], [LList []],
    Err (mk_validation_error (Some $"web") $"front" KNetwork)).
Proof. apply reloaded. vm_compute. reflexivity. Qed.
