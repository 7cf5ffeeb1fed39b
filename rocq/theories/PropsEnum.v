(** C52: the closed enums. The derived serde names are the hand-written [as_str] texts; exactly these and the
    aliases are accepted. *)

From Coq Require Import String Ascii List NArith Bool.
Import ListNotations.
From Verif Require Import Base BaseFacts PortsModel VolumesModel Serde Codec CodecFacts EnumModel.
Open Scope N_scope.

(** ** Specification *)

(** A closed enum with texts [text] and other accepted texts [also]: what is written is the text, what is read
    is a text or an alias of exactly one variant, and nothing else is read. *)
Definition closed_enum {A : Set} (c : codec A) (text : A -> str) (also : A -> list str) : Prop :=
  (forall a, ser c a = VStr (text a)) /\
  (forall a, de c (ser c a) = Ok a) /\
  (forall v a, de c v = Ok a <-> exists s, v = VStr s /\ (s = text a \/ In s (also a))) /\
  (forall a b, text a = text b -> a = b).

(** ** Proofs *)

Lemma enum_find_sound : forall {A : Set} (t : enum_table A) s a, enum_find t s = Ok a ->
  exists n al, In (a, (n, al)) t /\ (s = n \/ In s al).
Proof.
  intros A t s a. induction t as [|[b [n al]] t IH]; cbn [enum_find]; [discriminate|].
  destruct (str_eqb_spec s n) as [->|_]; cbn [orb].
  - intros H. injection H as <-. exists n, al. split; [now left|now left].
  - destruct (existsb (str_eqb s) al) eqn:E.
    + intros H. injection H as <-. exists n, al. split; [now left|]. right. apply existsb_exists in E as (x & I & X).
      apply str_eqb_eq in X. now subst.
    + intros H. destruct (IH H) as (n' & al' & I & X). exists n', al'. split; [now right|assumption].
Qed.

Lemma enum_find_complete : forall {A : Set} (t : enum_table A) a n al s, nodupb (flat_map (fun e => fst (snd e) :: snd (snd e)) t) = true ->
  In (a, (n, al)) t -> (s = n \/ In s al) -> enum_find t s = Ok a.
Proof.
  intros A t a n al s D. apply nodupb_NoDup in D. induction t as [|[b [m bl]] t IH]; [intros []|].
  cbn [flat_map fst snd] in D. apply NoDup_app_inv in D as [D N]. cbn [enum_find]. intros [X|I] S.
  - injection X as -> -> ->. destruct S as [->|S]; [now rewrite str_eqb_refl|].
    replace (existsb (str_eqb s) al) with true; [now rewrite orb_true_r|]. symmetry. apply existsb_exists. exists s. split; [assumption|apply str_eqb_refl].
  - assert (J : In s (flat_map (fun e : A * (str * list str) => fst (snd e) :: snd (snd e)) t)).
    { apply in_flat_map. exists (a, (n, al)). split; [assumption|]. cbn. destruct S; auto. }
    destruct (str_eqb_spec s m) as [->|_]; cbn [orb]; [elim (N m); [now left|assumption]|].
    destruct (existsb (str_eqb s) bl) eqn:E; [|now apply IH]. apply existsb_exists in E as (x & I' & X). apply str_eqb_eq in X. subst x.
    elim (N s); [now right|assumption].
Qed.

Lemma closed : forall {A : Set} (d : enum_def A),
  nodupb (flat_map (fun e => fst (snd e) :: snd (snd e)) (map (fun a => (a, (serde_name d a, en_aliases d a))) (en_all d))) = true ->
  (forall a, In a (en_all d)) -> (forall a, serde_name d a = en_as_str d a) -> (forall a, ser (derived d) a = VStr (serde_name d a)) ->
  closed_enum (derived d) (en_as_str d) (en_aliases d).
Proof.
  intros A d D C N W.
  assert (R : forall v a, de (derived d) v = Ok a <-> exists s, v = VStr s /\ (s = en_as_str d a \/ In s (en_aliases d a))).
  { intros v a. unfold derived, enum_c. cbn [de]. split.
    - destruct v; try discriminate. intros H. apply enum_find_sound in H as (n & al & I & S). exists s. split; [reflexivity|].
      apply in_map_iff in I as (a' & X & _). injection X as <- <- <-. now rewrite <- N.
    - intros (s & -> & S). eapply enum_find_complete; [exact D|apply in_map_iff; exists a; split; [reflexivity|apply C]|now rewrite N]. }
  assert (T : forall a, de (derived d) (ser (derived d) a) = Ok a) by (intros a; apply R; exists (en_as_str d a); rewrite W, N; auto).
  repeat split; [intros a; now rewrite W, N|assumption|apply R|apply R|].
  intros a b E. assert (H := T b). rewrite W, N, <- E, <- N, <- W, T in H. congruence.
Qed.

Ltac variants := first [reflexivity | let a := fresh in intros a; destruct a; vm_compute; tauto | let a := fresh in intros a; destruct a; reflexivity].

Definition all_closed (P : forall A : Set, enum_def A -> Prop) : Prop :=
  P _ cgroup_def /\ P _ condition_def /\ P _ uts_def /\ P _ pull_policy_def /\ P _ restart_def /\ P _ deploy_mode_def /\
  P _ restart_condition_def /\ P _ failure_action_def /\ P _ order_def /\ P _ action_def /\ P _ bind_propagation_def /\ P _ mode_def.

(** C52. *)
Theorem closed_enums : all_closed (fun A d => closed_enum (derived d) (en_as_str d) (en_aliases d)).
Proof. repeat apply conj; apply closed; variants. Qed.
Print Assumptions closed_enums.

(** The only alias. *)
Theorem only_alias : all_closed (fun A d => forall a s, In s (en_aliases d a) -> s = $"if_not_present" /\ en_as_str d a = $"missing").
Proof. repeat apply conj; intros a s; destruct a; cbn; intros H; repeat destruct H as [H|H]; subst; try contradiction; auto. Qed.
Print Assumptions only_alias.

(** The texts. The compose specification also has [failure_action: rollback] for updates (deploy.md,
    [update_config]), which is rejected here. *)
Theorem closed_enum_texts :
  map (en_as_str cgroup_def) (en_all cgroup_def) = [$"host"; $"private"] /\
  map (en_as_str condition_def) (en_all condition_def) = [$"service_started"; $"service_healthy"; $"service_completed_successfully"] /\
  map (en_as_str uts_def) (en_all uts_def) = [$"host"] /\
  map (en_as_str pull_policy_def) (en_all pull_policy_def) = [$"always"; $"never"; $"missing"; $"build"] /\
  map (en_as_str restart_def) (en_all restart_def) = [$"no"; $"always"; $"on-failure"; $"unless-stopped"] /\
  map (en_as_str deploy_mode_def) (en_all deploy_mode_def) = [$"global"; $"replicated"] /\
  map (en_as_str restart_condition_def) (en_all restart_condition_def) = [$"none"; $"on-failure"; $"any"] /\
  map (en_as_str failure_action_def) (en_all failure_action_def) = [$"continue"; $"pause"] /\
  map (en_as_str order_def) (en_all order_def) = [$"stop-first"; $"start-first"] /\
  map (en_as_str action_def) (en_all action_def) = [$"rebuild"; $"sync"; $"sync+restart"] /\
  map (en_as_str bind_propagation_def) (en_all bind_propagation_def) = 
    [$"private"; $"shared"; $"slave"; $"unbindable"; $"rprivate"; $"rshared"; $"rslave"; $"runbindable"] /\
  map (en_as_str mode_def) (en_all mode_def) = [$"host"; $"ingress"].
Proof. repeat apply conj; reflexivity. Qed.
Print Assumptions closed_enum_texts.

Example closed_enums_restart : de restart_c (VStr $"unless-stopped") = Ok RsUnlessStopped /\ de restart_c (VStr $"unless_stopped") = Err DeError.
Proof. split; reflexivity. Qed.
Example closed_enums_pull : de pull_policy_c (VStr $"if_not_present") = Ok PpMissing /\ ser pull_policy_c PpMissing = VStr $"missing".
Proof. split; reflexivity. Qed.

(** For the codecs built from them. *)
Lemma closed_good : forall {A : Set} (d : enum_def A), closed_enum (derived d) (en_as_str d) (en_aliases d) -> good (derived d).
Proof. intros A d (_ & R & _). apply plain_good; [intros a; reflexivity|intros a _; apply R|intros v a _; exact I]. Qed.
Lemma derived_nn : forall {A : Set} (d : enum_def A), not_null (derived d).
Proof. intros A d. apply enum_nn. Qed.
Lemma buffered_good : forall {A : Set} (d : enum_def A), closed_enum (derived d) (en_as_str d) (en_aliases d) -> good (buffered d).
Proof. intros A d (_ & R & _). apply plain_good; [intros a; reflexivity|intros a _; apply R|intros v a _; exact I]. Qed.
Lemma derived_plain : forall {A : Set} (d : enum_def A), plain (derived d).
Proof. intros A d a. reflexivity. Qed.
