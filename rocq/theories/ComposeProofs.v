(** Lemmas for [PropsCompose]. *)

From Coq Require Import String Ascii List NArith ZArith Bool Lia Permutation ZifyBool ZifyN ZifyNat.
Import ListNotations.
From Verif Require Import Base BaseFacts Num NumFacts Coll CollFacts KeysModel TextModel PropsText ValuesModel VolumesModel EqModel Serde Codec CodecFacts EnumModel ScalarCodec ScalarGood
  CommonCodec CommonGood ServiceParts PartsGood MountCodec MountGood HealthModel HealthProofs OrderFacts ServiceCodec ServiceGood ComposeCodec ComposeGood ExactFacts ReadFacts.
Open Scope N_scope.

(** ** One member of a struct *)

Fixpoint nth_from (n : nat) (ms : list member) (es : list (sval * sval)) {struct ms} : (nth_type n ms -> Prop) -> Prop :=
  match ms return (nth_type n ms -> Prop) -> Prop with
  | [] => fun Q => Q tt
  | m :: r => match n return (nth_type n (m :: r) -> Prop) -> Prop with
              | O => fun Q => forall a, m_de m es = Ok a -> Q a
              | S n => nth_from n r es
              end
  end.
Lemma nth_holds : forall ms n es (Q : nth_type n ms -> Prop) v, de_members ms es = Ok v -> nth_from n ms es Q -> Q (nth_val n ms v).
Proof.
  induction ms as [|m r IH]; intros n es Q v H F; [exact F|]. cbn [de_members] in H. apply bind_ok in H as (a & Ha & H). apply bind_ok in H as (u & Hu & H). injection H as <-.
  destruct n as [|n]; cbn [nth_val nth_from nth_type fst snd] in *; [exact (F a Ha)|exact (IH n es Q u Hu F)].
Qed.
Lemma struct_nth : forall ms n es (Q : nth_type n ms -> Prop) a, de (struct_ext_c ms) (VMap es) = Ok a -> nth_from n ms es Q -> Q (nth_val n ms (fst a)).
Proof. intros ms n es Q a H F. cbn [de struct_ext_c] in H. apply bind_ok in H as (v & Hv & H). apply bind_ok in H as (x & _ & H). injection H as <-. exact (nth_holds ms n es Q v Hv F). Qed.

(** ** volumes_from *)

Lemma volumes_from_bad : forall s v, volumes_from_parse s = Ok v -> ~ volumes_from_ok v -> s = $"container:ro:rw" \/ s = $"container:rw:rw".
Proof.
  intros s [src ro] H N. unfold volumes_from_ok in N. cbn [vf_source vf_read_only] in N.
  destruct ro; [exfalso; apply N; discriminate|]. apply volumes_from_language in H as (_ & H). cbn [vf_source vf_read_only] in H.
  assert (Z : ~ suffix_free src) by (intros Z; apply N; intros _; exact Z). clear N.
  assert (C : src = FromContainer $"ro" \/ src = FromContainer $"rw").
  { destruct src as [x|x]; [exfalso; apply Z; split; discriminate|]. destruct (str_eqb x $"ro") eqn:E1; [apply str_eqb_eq in E1; subst; auto|]. destruct (str_eqb x $"rw") eqn:E2; [apply str_eqb_eq in E2; subst; auto|].
    exfalso. apply Z. split; intros X; injection X as ->; discriminate. }
  destruct H as [H|[_ H]]; [|elim (Z H)]. destruct C as [->| ->]; [left|right]; exact H.
Qed.

(** The texts in the [volumes_from] of a service, and of all services. *)
Definition service_texts (v : sval) (s : str) : Prop :=
  exists fields l, v = VMap fields /\ In (VStr $"volumes_from", VSeq l) fields /\ In (VStr s) l.
Definition compose_texts (v : sval) (s : str) : Prop :=
  exists es services name service, v = VMap es /\ In (VStr $"services", VMap services) es /\ In (name, service) services /\ service_texts service s.

Lemma lookup_member : forall k es v, lookup k es = Ok (Some v) -> In (VStr k, v) es.
Proof. intros k es v H. apply lookup_some in H as (a & b & -> & A). now apply in_absent. Qed.
Lemma service_texts_ok : forall w v s, de (service_c w) v = Ok s ->
  ~ service_texts v $"container:ro:rw" -> ~ service_texts v $"container:rw:rw" -> service_ok s.
Proof.
  intros w v s H N1 N2. unfold service_c in H. destruct v as [| | | | | |es]; try discriminate. unfold service_ok, service_volumes_from.
  apply (struct_nth (service_ms w) 81 es (Forall volumes_from_ok) s H).
  change (forall l, m_de (many $"volumes_from" (iset_c volumes_from_eqb volumes_from_c)) es = Ok l -> Forall volumes_from_ok l).
  clear H s. intros l H. cbn [m_de many field] in H. apply bind_ok in H as (o & L & H). destruct o as [v|]; [|injection H as <-; constructor].
  apply lookup_member in L. cbn [de iset_c] in H. destruct v as [| | | | |vs|]; try discriminate. destruct (collect (de volumes_from_c) vs) as [r|] eqn:C; cbn [map_ok] in H; [|discriminate].
  injection H as <-. apply collect_ok in C. destruct (iset_of_is_distinct volumes_from_eqb r) as [_ S]. apply Forall_forall. intros x I. apply S in I. clear S.
  assert (X : exists v, In v vs /\ de volumes_from_c v = Ok x).
  { clear - C I. induction C as [|v a vs r E C IH]; [destruct I|]. destruct I as [<-|I]; [exists v; cbn [In]; auto|]. destruct (IH I) as (u & U & D). exists u. cbn [In]. auto. }
  destruct X as (u & U & D). cbn [de volumes_from_c text_c] in D. destruct u as [| | | |t| |]; try discriminate. cbn [from_string] in D.
  destruct (volumes_from_parse t) as [y|] eqn:P; cbn [map_err] in D; [|discriminate]. injection D as ->.
  intros R. destruct (str_eqb t $"container:ro:rw") eqn:T1; [exfalso; apply str_eqb_eq in T1; subst t; apply N1; exists es, vs; auto|].
  destruct (str_eqb t $"container:rw:rw") eqn:T2; [exfalso; apply str_eqb_eq in T2; subst t; apply N2; exists es, vs; auto|].
  unfold suffix_free. split; intros E; (destruct (volumes_from_bad t x P) as [->| ->]; [intros O; specialize (O R); unfold suffix_free in O; tauto|discriminate|discriminate]).
Qed.

Lemma services_read : forall w es (c : compose w), de (compose_c w) (VMap es) = Ok c ->
  exists v, In (VStr $"services", v) es /\ de (smap identifier_c (service_c w)) v = Ok (compose_services c).
Proof.
  intros w es c H. unfold compose_services.
  apply (struct_nth (compose_ms w) 3 es (fun l => exists v, In (VStr $"services", v) es /\ de (smap identifier_c (service_c w)) v = Ok l) c H).
  change (forall l, m_de (required $"services" (smap identifier_c (service_c w))) es = Ok l -> exists v, In (VStr $"services", v) es /\ de (smap identifier_c (service_c w)) v = Ok l).
  clear H c. intros l H. cbn [m_de required field] in H. apply bind_ok in H as ([v|] & L & H); [|discriminate]. exists v. split; [now apply lookup_member|exact H].
Qed.
Lemma imap_values : forall {K V : Set} eqb (k : codec K) (v : codec V) es m e, (forall a b, eqb a b = true <-> a = b) -> de (imap_c eqb k v) (VMap es) = Ok m -> In e m ->
  exists x y, In (x, y) es /\ de k x = Ok (fst e) /\ de v y = Ok (snd e).
Proof.
  intros K V eqb k v es m e Q H I. cbn [de imap_c] in H. destruct (collect (entry_de k v) es) as [r|] eqn:C; cbn [map_ok] in H; [|discriminate]. injection H as <-.
  apply (imap_of_sub eqb Q) in I. apply collect_ok in C. induction C as [|[x y] p es r E C IH]; [destruct I|]. destruct I as [->|I].
  - unfold entry_de in E. cbn [fst snd] in E. apply bind_ok in E as (a & A & E). apply bind_ok in E as (b & B & E). injection E as <-. exists x, y. cbn [In fst snd]. auto.
  - destruct (IH I) as (x' & y' & J & R). exists x', y'. cbn [In]. auto.
Qed.
Lemma compose_texts_ok : forall w v c, de (compose_c w) v = Ok c ->
  ~ compose_texts v $"container:ro:rw" -> ~ compose_texts v $"container:rw:rw" -> compose_ok c.
Proof.
  intros w v c H N1 N2. destruct v as [| | | | | |es]; try discriminate. destruct (services_read w es c H) as (v & I & S). unfold compose_ok, services_ok. apply Forall_forall. intros e J.
  destruct v as [| | | | | |ss]; try discriminate. destruct (imap_values str_eqb identifier_c (service_c w) ss _ e str_eqb_eq S J) as (x & y & Iy & _ & D).
  apply (service_texts_ok w y); [assumption| |]; intros T; [apply N1|apply N2]; exists es, ss, x, y; auto.
Qed.

(** ** Inside a value *)

Inductive within (x : sval) : sval -> Prop :=
| within_here : within x x
| within_seq : forall v l, In v l -> within x v -> within x (VSeq l)
| within_map : forall k v es, In (k, v) es -> within x v -> within x (VMap es).

(** None of these fields is given as an empty map. *)
Definition no_empty (v : sval) : Prop :=
  forall es k, within (VMap es) v ->
    In k [$"annotations"; $"args"; $"depends_on"; $"environment"; $"labels"; $"options"; $"sysctls"] -> ~ In (VStr k, VMap []) es.

Lemma no_empty_full : forall v, no_empty v -> full v = true.
Proof.
  fix rec 1. intros v H. destruct v as [| | | | |l|es]; try reflexivity; cbn [full].
  - assert (G : forall v, In v l -> no_empty v) by (intros v I es k W; apply H; econstructor; eassumption). clear H.
    induction l as [|v l IH]; [reflexivity|]. cbn [forallb]. rewrite (rec v) by (apply G; now left). apply IH. intros u I. apply G. now right.
  - assert (G : forall k v, In (k, v) es -> no_empty v) by (intros k v I es' k' W; apply H; econstructor; eassumption).
    assert (E : forall e, In e es -> full_entry e = true).
    { intros [k v] I. unfold full_entry. cbn [fst snd]. destruct k as [| | | |k| |]; try reflexivity. destruct v as [| | | | | |[|]]; try reflexivity.
      destruct (existsb (str_eqb k) EITHER) eqn:X; [|reflexivity]. exfalso. apply either_in in X. exact (H es k (within_here _) X I). }
    clear H. induction es as [|[k v] es IH]; [reflexivity|]. cbn [forallb snd]. rewrite (E (k, v)) by now left. rewrite (rec v) by (apply (G k); now left).
    cbn [andb]. apply IH; [intros k' v' I; apply (G k'); now right|intros e I; apply E; now right].
Qed.

(** ** No repeated keys *)

Inductive tidy : sval -> Prop :=
| tidy_null : tidy VNull
| tidy_bool : forall b, tidy (VBool b)
| tidy_int : forall z, tidy (VInt z)
| tidy_float : forall f, tidy (VFloat f)
| tidy_string : forall s, tidy (VStr s)
| tidy_seq : forall l, (forall v, In v l -> tidy v) -> tidy (VSeq l)
| tidy_map : forall es, NoDup (map fst es) -> (forall k v, In (k, v) es -> tidy k /\ tidy v) -> tidy (VMap es).

Lemma sval_eqb_refl : forall v, sval_eqb v v = true.
Proof.
  fix rec 1. intros [| | | | |l|es]; cbn [sval_eqb].
  - reflexivity.
  - apply Bool.eqb_reflx.
  - apply Z.eqb_refl.
  - apply N.eqb_refl.
  - apply str_eqb_refl.
  - induction l as [|v l IH]; [reflexivity|]. now rewrite (rec v), IH.
  - induction es as [|[k v] es IH]; [reflexivity|]. now rewrite (rec k), (rec v), IH.
Qed.
Lemma no_repeat_NoDup : forall l, no_repeat l = true -> NoDup l.
Proof.
  induction l as [|v l IH]; intros H; [constructor|]. cbn [no_repeat] in H. apply andb_true_iff in H as [H1 H2]. constructor; [|auto].
  intros I. apply negb_true_iff in H1. assert (X : existsb (sval_eqb v) l = true) by (apply existsb_exists; exists v; split; [assumption|apply sval_eqb_refl]). congruence.
Qed.
Lemma yaml_ok_tidy : forall v, yaml_ok v = true -> tidy v.
Proof.
  fix rec 1. intros v H. destruct v as [| | | | |l|es]; try constructor; cbn [yaml_ok] in H.
  - revert H. induction l as [|v l IH]; intros H u I; [destruct I|]. cbn [forallb] in H. apply andb_true_iff in H as [H1 H2]. destruct I as [<-|I]; [exact (rec v H1)|exact (IH H2 u I)].
  - apply andb_true_iff in H as [H _]. now apply no_repeat_NoDup.
  - apply andb_true_iff in H as [_ H]. revert H. induction es as [|[k v] es IH]; intros H x y I; [destruct I|]. cbn [forallb fst snd] in H. apply andb_true_iff in H as [H1 H2].
    apply andb_true_iff in H1 as [Hk Hv]. destruct I as [E|I]; [|exact (IH H2 x y I)]. split; [|].
    + assert (Ek : k = x) by congruence. rewrite <- Ek. exact (rec k Hk).
    + assert (Ev : v = y) by congruence. rewrite <- Ev. exact (rec v Hv).
Qed.
Lemma full_no_empty : forall v, full v = true -> no_empty v.
Proof.
  intros v F es k W. revert F. induction W as [|v l I W IH|j v l I W IH]; intros F.
  - intros K J. cbn [full] in F. rewrite forallb_forall in F. specialize (F _ J). unfold full_entry in F. cbn [fst snd] in F.
    assert (X : existsb (str_eqb k) EITHER = true) by (apply existsb_exists; exists k; split; [exact K|apply str_eqb_refl]). rewrite X in F. discriminate.
  - apply IH. cbn [full] in F. rewrite forallb_forall in F. auto.
  - apply IH. cbn [full] in F. rewrite forallb_forall in F. specialize (F _ I). now apply andb_true_iff in F as [_ F].
Qed.

(** For the examples. *)
Definition service_has (s : str) (v : sval) : bool :=
  match v with
  | VMap fields => existsb (fun e => match e with (VStr k, VSeq l) => str_eqb k $"volumes_from" && existsb (sval_eqb (VStr s)) l | _ => false end) fields
  | _ => false
  end.
Definition compose_has (s : str) (v : sval) : bool :=
  match v with
  | VMap es => existsb (fun e => match e with (VStr k, VMap services) => str_eqb k $"services" && existsb (fun e => service_has s (snd e)) services | _ => false end) es
  | _ => false
  end.
Lemma compose_has_texts : forall s v, compose_has s v = false -> ~ compose_texts v s.
Proof.
  intros s v H (es & ss & n & x & -> & I1 & I2 & fields & l & -> & I3 & I4). cbn [compose_has] in H. apply not_true_iff_false in H. apply H.
  apply existsb_exists. eexists. split; [exact I1|]. cbn beta iota. rewrite str_eqb_refl. cbn [andb]. apply existsb_exists. eexists. split; [exact I2|]. cbn [snd service_has].
  apply existsb_exists. eexists. split; [exact I3|]. cbn beta iota. rewrite str_eqb_refl. cbn [andb]. apply existsb_exists. exists (VStr s). split; [exact I4|apply sval_eqb_refl].
Qed.
