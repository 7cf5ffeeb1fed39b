(** What is known about the entries of a struct which was read. *)

From Coq Require Import String Ascii List NArith ZArith Bool Lia ZifyBool ZifyN ZifyNat.
Import ListNotations.
From Verif Require Import Base BaseFacts Num NumFacts Coll CollFacts KeysModel Serde Codec CodecFacts EnumModel ScalarCodec ScalarGood CommonCodec CommonGood OrderFacts HealthProofs.
Open Scope N_scope.

(** ** Keys *)

(** Each entry is a field or an extension. *)
Definition known (ns : list str) (e : sval * sval) : Prop := exists k, fst e = VStr k /\ (In k ns \/ ext_key k).
Lemma ext_entry_key : forall e p, ext_entry e = Ok p -> fst e = VStr (fst p) /\ ext_key (fst p) /\ snd e = snd p /\ yaml_ok (snd p) = true.
Proof.
  intros [k v] p H. unfold ext_entry in H. cbn [fst snd] in *. destruct k as [| | | |s| |]; try discriminate.
  destruct (extension_key_new s) as [x|] eqn:E; cbn [map_err bind] in H; [|discriminate]. destruct (de yaml_c v) as [y|] eqn:Y; cbn [bind] in H; [|discriminate]. injection H as <-.
  cbn [fst snd]. cbn [de yaml_c] in Y. destruct (yaml_ok v) eqn:Yv; [|discriminate]. injection Y as <-.
  apply extension_key_new_iff in E as [-> K]. auto.
Qed.
Lemma unknown_known : forall ns es x, ext_de (unknown ns es) = Ok x -> Forall (known ns) es.
Proof.
  intros ns es x H. unfold ext_de in H. destruct (collect ext_entry (unknown ns es)) as [r|] eqn:C; cbn [map_ok] in H; [|discriminate]. clear H x. apply collect_ok in C.
  apply Forall_forall. intros e I. destruct (match fst e with VStr k => negb (existsb (str_eqb k) ns) | _ => true end) eqn:U.
  - assert (J : In e (unknown ns es)) by (apply filter_In; auto). clear - C J. induction C as [|a p l r E C IH]; [destruct J|]. destruct J as [<-|J]; [|auto].
    destruct (ext_entry_key a p E) as (K & X & _). exists (fst p). auto.
  - destruct (fst e) as [| | | |k| |] eqn:Ek; try discriminate. exists k. split; [exact Ek|left]. apply negb_false_iff in U. apply existsb_exists in U as (n & In & En). apply str_eqb_eq in En. now subst.
Qed.
Lemma struct_ext_known : forall ms es a, de (struct_ext_c ms) (VMap es) = Ok a -> Forall (known (names ms)) es.
Proof.
  intros ms es a H. cbn [de struct_ext_c] in H. apply bind_ok in H as (v & _ & H). apply bind_ok in H as (x & X & _). exact (unknown_known _ _ _ X).
Qed.
Lemma struct_ext_once_known : forall ms es a, de (struct_ext_once_c ms) (VMap es) = Ok a -> Forall (known (names ms)) es.
Proof.
  intros ms es a H. cbn [de struct_ext_once_c] in H. apply bind_ok in H as (v & _ & H). apply bind_ok in H as (x & X & _). exact (unknown_known _ _ _ X).
Qed.

(** ** Repeated fields *)

Definition member_once (m : member) : Prop := forall es a, m_de m es = Ok a -> forall n, In n (m_names m) -> exists o, lookup n es = Ok o.
Lemma field_once : forall n {A : Set} (c : codec A) d s, member_once (field n c d s).
Proof. intros n A c d s es a H k [<-|[]]. cbn [m_de field] in H. apply bind_ok in H as (o & L & _). eauto. Qed.
Lemma members_once : forall ms, Forall member_once ms -> forall es v, de_members ms es = Ok v -> forall n, In n (names ms) -> exists o, lookup n es = Ok o.
Proof.
  intros ms F. induction F as [|m r Hm F IH]; intros es v H n I; [destruct I|]. cbn [de_members] in H. apply bind_ok in H as (a & Ha & H). apply bind_ok in H as (u & Hu & _).
  unfold names in I. cbn [flat_map] in I. apply in_app_iff in I as [I|I]; eauto.
Qed.
Lemma group_once : forall {B : Set} ms (write : B -> vals ms) read inv nrm, Forall member_once ms -> member_once (group ms write read inv nrm).
Proof. intros B ms write read inv nrm F es a H n I. cbn [m_de group m_names] in *. apply bind_ok in H as (v & Hv & _). exact (members_once ms F es v Hv n I). Qed.
Lemma struct_once : forall ms es v, Forall member_once ms -> de (struct_c ms) (VMap es) = Ok v -> forall n, In n (names ms) -> exists o, lookup n es = Ok o.
Proof. intros ms es v F H. cbn [de struct_c] in H. destruct (string_keys es); [|discriminate]. exact (members_once ms F es v H). Qed.
Lemma struct_ext_once' : forall ms es v, Forall member_once ms -> de (struct_ext_c ms) (VMap es) = Ok v -> forall n, In n (names ms) -> exists o, lookup n es = Ok o.
Proof. intros ms es v F H. cbn [de struct_ext_c] in H. apply bind_ok in H as (u & Hu & _). exact (members_once ms F es u Hu). Qed.

(** ** Other entries *)

(** Only the entries with its names matter to a member. *)
Definition member_reads (m : member) : Prop :=
  forall es es', (forall n, In n (m_names m) -> lookup n es = lookup n es') -> m_de m es = m_de m es'.
Lemma field_reads : forall n {A : Set} (c : codec A) d s, member_reads (field n c d s).
Proof. intros n A c d s es es' H. cbn [m_de field]. rewrite (H n); [reflexivity|now left]. Qed.
Lemma members_reads : forall ms, Forall member_reads ms -> forall es es', (forall n, In n (names ms) -> lookup n es = lookup n es') -> de_members ms es = de_members ms es'.
Proof.
  intros ms F. induction F as [|m ms R F IH]; intros es es' H; [reflexivity|]. cbn [de_members]. rewrite (R es es'), (IH es es'); [reflexivity| |];
    intros n I; apply H; unfold names; cbn [flat_map]; apply in_app_iff; auto.
Qed.
Lemma group_reads : forall {B : Set} ms (write : B -> vals ms) read inv nrm, Forall member_reads ms -> member_reads (group ms write read inv nrm).
Proof. intros B ms write read inv nrm F es es' H. cbn [m_de group m_names] in *. now rewrite (members_reads ms F es es' H). Qed.
