(** C88: the names of variants in long volume syntax. [Mount] is internally tagged, so serde keeps its entries as [Content] before it reads
    them. Read from [Content], a variant of an enum may also be given as a map of one entry. *)

From Coq Require Import String Ascii List NArith ZArith Bool Lia.
Import ListNotations.
From Verif Require Import Base BaseFacts PortsModel VolumesModel Serde Codec CodecFacts ScalarCodec EnumModel PropsEnum MountCodec ComposeCodec PropsCompose.
Open Scope N_scope.

(** ** Specification *)

Definition propagations : list (str * bind_propagation) :=
  [($"private", BpPrivate); ($"shared", BpShared); ($"slave", BpSlave); ($"unbindable", BpUnbindable);
   ($"rprivate", BpRPrivate); ($"rshared", BpRShared); ($"rslave", BpRSlave); ($"runbindable", BpRUnbindable)].
(** Nothing, as the value of an entry. *)
Definition nothing (v : sval) : Prop := v = VNull \/ v = VMap [].
(** The ways in which a propagation is given: its name, or its name or its number (from 0) as the only key of a map. *)
Inductive gives : sval -> bind_propagation -> Prop :=
| gives_name s a : In (s, a) propagations -> gives (VStr s) a
| gives_name_key s a u : In (s, a) propagations -> nothing u -> gives (VMap [(VStr s, u)]) a
| gives_number_key n s a u : nth_error propagations n = Some (s, a) -> nothing u -> gives (VMap [(VInt (Z.of_nat n), u)]) a.

(** A bind mount with any propagation, and a file with it. *)
Definition bind_with (p : sval) : sval :=
  VMap [(VStr $"type", VStr $"bind"); (VStr $"source", VStr $"/a"); (VStr $"bind", VMap [(VStr $"propagation", p)]); (VStr $"target", VStr $"/b")].
Definition mounting (p : sval) : sval := file [(VStr $"web", VMap [(VStr $"volumes", VSeq [bind_with p])])] [].

(** ** Proofs *)

Lemma name_read : forall s a, de (derived bind_propagation_def) (VStr s) = Ok a <-> In (s, a) propagations.
Proof.
  intros s a. destruct closed_enums as (_ & _ & _ & _ & _ & _ & _ & _ & _ & _ & (_ & _ & R & _) & _). rewrite R. clear R. split.
  - intros (t & E & [->|[]]). injection E as ->. destruct a; cbn; tauto.
  - intros H. exists s. split; [reflexivity|]. left. cbn [propagations In] in H.
    repeat (destruct H as [H|H]; [injection H as <- <-; reflexivity|]). destruct H.
Qed.
Lemma numbered_nth : forall {A : Type} (l : list A) z a, numbered l z = Some a <-> exists n, z = Z.of_nat n /\ nth_error l n = Some a.
Proof.
  intros A l. induction l as [|x r IH]; intros z a; cbn [numbered].
  - split; [discriminate|]. intros (n & _ & H). now destruct n.
  - destruct (Z.eqb_spec z 0) as [->|N].
    + split; [intros H; now exists O|]. intros ([|n] & E & H); [exact H|lia].
    + rewrite IH. split.
      * intros (n & E & H). exists (S n). split; [lia|exact H].
      * intros ([|n] & E & H); [lia|]. exists n. split; [lia|exact H].
Qed.
Lemma nth_propagation : forall n a, nth_error (en_all bind_propagation_def) n = Some a <-> exists s, nth_error propagations n = Some (s, a).
Proof.
  intros n a. change (en_all bind_propagation_def) with (map snd propagations). rewrite nth_error_map. destruct (nth_error propagations n) as [[s b]|]; cbn [option_map snd].
  - split; [intros H; injection H as ->; now exists s|intros (t & H); congruence].
  - split; [discriminate|intros (t & H); discriminate].
Qed.
Lemma key_read : forall k u a, is_unit u = true -> variant_key bind_propagation_def k = Ok a <-> gives (VMap [(k, u)]) a.
Proof.
  intros k u a U. assert (N : nothing u) by (unfold nothing; destruct u as [| | | | | |[|e r]]; cbn in U; try discriminate; auto).
  split.
  - intros H. destruct k; cbn [variant_key] in H; try discriminate H.
    + destruct (numbered (en_all bind_propagation_def) z) as [b|] eqn:E; [|discriminate]. injection H as ->. apply numbered_nth in E as (n & -> & E).
      apply nth_propagation in E as (s & E). now apply (gives_number_key n s).
    + apply name_read in H. now constructor.
  - intros H. inversion H as [|s b v I V|n s b v E V]; subst; cbn [variant_key].
    + now apply name_read.
    + rewrite (proj2 (numbered_nth (en_all bind_propagation_def) (Z.of_nat n) a)); [reflexivity|]. exists n. split; [reflexivity|]. apply nth_propagation. eauto.
Qed.

(** C88: exactly these ways are read, as the propagation which is named or numbered. *)
Theorem propagation_reads : forall v a, de bind_propagation_c v = Ok a <-> gives v a.
Proof.
  intros v a. unfold bind_propagation_c. cbn [de buffered].
  assert (M : (exists k u, v = VMap [(k, u)]) \/
    (match v with VMap [(k, u)] => if is_unit u then variant_key bind_propagation_def k else Err DeError | _ => de (derived bind_propagation_def) v end) =
    de (derived bind_propagation_def) v /\ ~ exists k u, v = VMap [(k, u)]).
  { destruct v as [| | | | | |[|[k u] [|e r]]]; try (right; split; [reflexivity|intros (k' & u' & E); discriminate]). left. eauto. }
  destruct M as [(k & u & ->)|[M X]].
  - destruct (is_unit u) eqn:U; [now apply key_read|]. split; [discriminate|]. intros H.
    assert (N : nothing u) by (inversion H; subst; assumption). destruct N as [->| ->]; discriminate.
  - rewrite M. split.
    + intros H. destruct v; try discriminate H. constructor. now apply name_read.
    + intros H. inversion H as [s b I|s b u I V|n s b u E V]; subst; [now apply name_read|elim X; eauto|elim X; eauto].
Qed.
Print Assumptions propagation_reads.

(** A way gives one propagation. *)
Theorem gives_one : forall v a b, gives v a -> gives v b -> a = b.
Proof. intros v a b A B. apply propagation_reads in A, B. congruence. Qed.
Print Assumptions gives_one.

(** The property as stated, "a propagation is accepted only as its name", is false: a file with a number is accepted, and saved with the name. *)
Theorem only_names_refuted : exists w p c, load w (mounting p) = Ok c /\ (forall s, p <> VStr s) /\ save w c = mounting (VStr $"rprivate").
Proof.
  exists w0, (VMap [(VInt 4, VNull)]). destruct (found (load w0 (mounting (VMap [(VInt 4, VNull)]))) (fun c => save w0 c = mounting (VStr $"rprivate"))) as (c & L & S).
  { vm_compute. reflexivity. }
  exists c. split; [exact L|]. split; [discriminate|exact S].
Qed.
Print Assumptions only_names_refuted.

(** In the other places where an enum is read, only a name is accepted. *)
Theorem only_names_partial : all_closed (fun A d => forall v a, de (derived d) v = Ok a -> exists s, v = VStr s).
Proof.
  destruct closed_enums as (C1 & C2 & C3 & C4 & C5 & C6 & C7 & C8 & C9 & C10 & C11 & C12).
  assert (G : forall (A : Set) (d : enum_def A), closed_enum (derived d) (en_as_str d) (en_aliases d) -> forall v a, de (derived d) v = Ok a -> exists s, v = VStr s).
  { intros A d (_ & _ & R & _) v a H. apply R in H as (s & -> & _). now exists s. }
  repeat apply conj; apply G; assumption.
Qed.
Print Assumptions only_names_partial.

(** So a mount is accepted exactly if its propagation is a null or given in one of these ways. *)
Theorem mount_accepts : forall p, (exists m, de mount_c (bind_with p) = Ok m) <-> p = VNull \/ exists a, gives p a.
Proof.
  intros p. assert (E : de mount_c (bind_with p) = match de (option_c bind_propagation_c) p with
    | Ok o => Ok (MBind (mk_bind $"/a" (Some (mk_bind_options o false None [])) (mk_common $"/b" false None []))) | Err _ => Err DeError end).
  { destruct p; lazy -[bind_propagation_c]; try reflexivity;
      match goal with |- context [(let (_, d, _, _, _) := bind_propagation_c in d) ?v] =>
        destruct ((let (_, d, _, _, _) := bind_propagation_c in d) v) as [o|[]]; reflexivity end. }
  rewrite E. clear E. assert (O : (exists o, de (option_c bind_propagation_c) p = Ok o) <-> p = VNull \/ exists a, gives p a).
  { assert (X : p = VNull \/ p <> VNull) by (destruct p; (left; reflexivity) || (right; discriminate)). destruct X as [->|X].
    - split; [now left|]. intros _. now exists None.
    - replace (de (option_c bind_propagation_c) p) with (map_ok Some (de bind_propagation_c p)) by (destruct p; congruence || reflexivity). split.
      + intros (o & H). right. destruct (de bind_propagation_c p) as [a|e] eqn:E; [|discriminate]. apply propagation_reads in E. eauto.
      + intros [H|(a & H)]; [contradiction|]. apply propagation_reads in H. rewrite H. now exists (Some a). }
  rewrite <- O. destruct (de (option_c bind_propagation_c) p) as [o|e]; split; intros (x & H); try discriminate; eauto.
Qed.
Print Assumptions mount_accepts.

Example propagation_case : gives (VMap [(VInt 0, VMap [])]) BpPrivate /\ ~ (exists a, gives (VInt 0) a) /\ ~ (exists a, gives (VMap [(VStr $"4", VNull)]) a).
Proof.
  split; [apply (gives_number_key 0 $"private"); [reflexivity|now right]|].
  split; intros (a & H); apply propagation_reads in H; discriminate.
Qed.
