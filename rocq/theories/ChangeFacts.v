(** Facts on changes to a document that a reader does not notice. *)

From Coq Require Import String Ascii List NArith ZArith Bool Lia Permutation.
Import ListNotations.
From Verif Require Import Base BaseFacts Num Coll CollFacts Regex KeysModel KeysProofs IpModel VolumesModel HealthModel HealthProofs Serde Codec CodecFacts ScalarCodec CommonCodec ServiceParts MountCodec
  ServiceCodec ComposeCodec ComposeProofs SchemaFacts Schema NamesSpec OrderFacts PropsDefault PropsResource PanicSpec PanicFacts ChangeSpec.
Open Scope N_scope.

(** ** Documents without repeated keys *)

Lemma yaml_map : forall es, yaml_ok (VMap es) = true <-> NoDup (map fst es) /\ Forall (fun e => yaml_ok (fst e) = true /\ yaml_ok (snd e) = true) es.
Proof.
  intros es. cbn [yaml_ok]. rewrite andb_true_iff, forallb_forall, Forall_forall. split.
  - intros [N F]. split; [now apply no_repeat_NoDup|]. intros e I. now apply andb_true_iff, F.
  - intros [N F]. split; [now apply NoDup_no_repeat|]. intros e I. now apply andb_true_iff, F.
Qed.
Lemma yaml_seq : forall l, yaml_ok (VSeq l) = true <-> Forall (fun x => yaml_ok x = true) l.
Proof. intros l. cbn [yaml_ok]. now rewrite forallb_forall, Forall_forall. Qed.

(** A relation keeps nulls and adds no repeated key. *)
Definition is_null (v : sval) : bool := match v with VNull => true | _ => false end.
Definition fine (Q : relation) : Prop := forall v v', Q v v' -> is_null v' = is_null v /\ (yaml_ok v = true -> yaml_ok v' = true).
Definition between_maps (Q : relation) : Prop := forall v v', Q v v' -> exists es es', v = VMap es /\ v' = VMap es'.
Definition between_lists (Q : relation) : Prop := forall v v', Q v v' -> exists l l', v = VSeq l /\ v' = VSeq l'.

Lemma forall_middle : forall {X} (P : X -> Prop) l y y' r, Forall P (l ++ y :: r) -> (P y -> P y') -> Forall P (l ++ y' :: r).
Proof. intros X P l y y' r F H. apply Forall_app in F as [A B]. inversion B; subst. apply Forall_app. split; [assumption|]. constructor; auto. Qed.
Lemma fine_under_any_key : forall Q, fine Q -> fine (under_any_key Q).
Proof.
  intros Q F v v' (l & k & y & y' & r & -> & -> & H). split; [reflexivity|]. rewrite !yaml_map, !map_app. intros [N G]. split; [exact N|].
  apply (forall_middle _ _ _ _ _ G). cbn [fst snd]. intros [A B]. split; [exact A|]. now apply (F _ _ H).
Qed.
Lemma fine_under_key : forall k Q, fine Q -> fine (under_key k Q).
Proof. intros k Q F v v' (l & y & y' & r & E & E' & H). apply (fine_under_any_key Q F). exists l, (VStr k), y, y', r. auto. Qed.
Lemma fine_under_item : forall Q, fine Q -> fine (under_item Q).
Proof.
  intros Q F v v' (l & y & y' & r & -> & -> & H). split; [reflexivity|]. rewrite !yaml_seq. intros G. apply (forall_middle _ _ _ _ _ G). now apply (F _ _ H).
Qed.
Lemma fine_changed : forall p Q, fine Q -> fine (changed p Q).
Proof. induction p as [|[k| |] p IH]; intros Q F; cbn [changed]; auto using fine_under_key, fine_under_any_key, fine_under_item. Qed.
Lemma fine_adds : forall k x, yaml_ok x = true -> fine (adds k x).
Proof.
  intros k x X v v' (l & r & -> & -> & N). split; [reflexivity|]. rewrite !yaml_map. intros [D F]. split.
  - rewrite map_app in *. cbn [map fst]. now apply NoDup_Add with (a := VStr k) (l := map fst l ++ map fst r); [apply Add_app|split].
  - apply Forall_app in F as [A B]. apply Forall_app. split; [exact A|]. constructor; auto.
Qed.
Lemma fine_adds_managed : forall k x, yaml_ok x = true -> fine (adds_managed k x).
Proof. intros k x X v v' [H _]. now apply (fine_adds k x X). Qed.
Lemma fine_reorders : fine reorders.
Proof.
  intros v v' (es & es' & -> & -> & P & _). split; [reflexivity|]. rewrite !yaml_map. intros [D F]. split.
  - apply (Permutation_NoDup (Permutation_map fst P) D).
  - now apply (Permutation_Forall P).
Qed.
Lemma maps_under_key : forall k Q, between_maps (under_key k Q).
Proof. intros k Q v v' (l & y & y' & r & -> & -> & _). eauto. Qed.
Lemma maps_under_any_key : forall Q, between_maps (under_any_key Q).
Proof. intros Q v v' (l & k & y & y' & r & -> & -> & _). eauto. Qed.
Lemma maps_adds : forall k x, between_maps (adds k x).
Proof. intros k x v v' (l & r & -> & -> & _). eauto. Qed.
Lemma maps_adds_managed : forall k x, between_maps (adds_managed k x).
Proof. intros k x v v' [H _]. now apply (maps_adds k x). Qed.
Lemma maps_reorders : between_maps reorders.
Proof. intros v v' (es & es' & -> & -> & _). eauto. Qed.
Lemma lists_under_item : forall Q, between_lists (under_item Q).
Proof. intros Q v v' (l & y & y' & r & -> & -> & _). eauto. Qed.

(** ** A reader that does not notice *)

Definition blind {A : Set} (c : codec A) (Q : relation) : Prop := forall v v', yaml_ok v = true -> Q v v' -> de c v' = de c v.

Lemma blind_option : forall {A : Set} (c : codec A) Q, fine Q -> blind c Q -> blind (option_c c) Q.
Proof.
  intros A c Q F B v v' Y H. pose proof (proj1 (F _ _ H)) as C. specialize (B _ _ Y H). cbn [de option_c].
  destruct v, v'; try discriminate C; try reflexivity; now rewrite B.
Qed.
Lemma blind_some : forall {A : Set} (c : codec A) Q, blind c Q -> blind (some_c c) Q.
Proof. intros A c Q B v v' Y H. cbn [de some_c]. now rewrite (B _ _ Y H). Qed.
Lemma blind_iso : forall {A B : Set} (c : codec A) (f : B -> A) g Q, blind c Q -> blind (iso c f g) Q.
Proof. intros A B c f g Q H v v' Y R. cbn [de iso]. now rewrite (H _ _ Y R). Qed.
Lemma collect_app : forall {E A B} (f : A -> result E B) a b, collect f (a ++ b) = (x <- collect f a ;; y <- collect f b ;; Ok (x ++ y)).
Proof.
  intros E A B f. induction a as [|x a IH]; intros b; cbn [app collect bind]; [destruct (collect f b); reflexivity|]. rewrite IH.
  destruct (f x); cbn [bind]; [|reflexivity]. destruct (collect f a); cbn [bind]; [|reflexivity]. destruct (collect f b); reflexivity.
Qed.
Lemma collect_middle : forall {E A B} (f : A -> result E B) l y y' r, f y' = f y -> collect f (l ++ y' :: r) = collect f (l ++ y :: r).
Proof. intros E A B f l y y' r H. rewrite !collect_app. cbn [collect]. now rewrite H. Qed.
Lemma yaml_item : forall l y r, yaml_ok (VSeq (l ++ y :: r)) = true -> yaml_ok y = true.
Proof. intros l y r H. apply yaml_seq, Forall_app in H as [_ H]. now inversion H. Qed.
Lemma yaml_value : forall l k y r, yaml_ok (VMap (l ++ (k, y) :: r)) = true -> yaml_ok y = true.
Proof. intros l k y r H. apply yaml_map in H as [_ H]. apply Forall_app in H as [_ H]. inversion H; subst. tauto. Qed.
Lemma blind_list : forall {A : Set} (c : codec A) Q, blind c Q -> blind (list_c c) (under_item Q).
Proof. intros A c Q B v v' Y (l & y & y' & r & -> & -> & H). cbn [de list_c]. apply collect_middle, B; [now apply yaml_item in Y|exact H]. Qed.
Lemma blind_iset : forall {A : Set} eqb (c : codec A) Q, blind c Q -> blind (iset_c eqb c) (under_item Q).
Proof. intros A eqb c Q B v v' Y (l & y & y' & r & -> & -> & H). cbn [de iset_c]. f_equal. apply collect_middle, B; [now apply yaml_item in Y|exact H]. Qed.
Lemma blind_imap : forall {K V : Set} eqb (k : codec K) (c : codec V) Q, blind c Q -> blind (imap_c eqb k c) (under_any_key Q).
Proof.
  intros K V eqb k c Q B v v' Y (l & x & y & y' & r & -> & -> & H). cbn [de imap_c]. f_equal. apply collect_middle. unfold entry_de. cbn [fst snd].
  now rewrite (B _ _ (yaml_value _ _ _ _ Y) H).
Qed.
Lemma blind_long : forall {S L : Set} (s : codec S) (l : codec L) Q, between_maps Q -> blind l Q -> blind (short_or_long_c s l) Q.
Proof. intros S L s l Q M B v v' Y H. destruct (M _ _ H) as (es & es' & -> & ->). cbn [de short_or_long_c]. now rewrite (B _ _ Y H). Qed.
(** Not null, a map or a list. *)
Definition scalar (v : sval) : Prop := match v with VNull | VMap _ | VSeq _ => False | _ => True end.
Definition between_scalars (Q : relation) : Prop := forall v v', Q v v' -> scalar v /\ scalar v'.
Lemma blind_short : forall {S L : Set} (s : codec S) (l : codec L) Q, between_scalars Q -> blind s Q -> blind (short_or_long_c s l) Q.
Proof. intros S L s l Q M B v v' Y H. destruct (M _ _ H) as (A & A'). cbn [de short_or_long_c]. rewrite (B _ _ Y H). destruct v, v'; cbn [scalar] in *; (reflexivity || contradiction). Qed.
Lemma blind_item : forall {A B : Set} (i : codec A) (l : codec B) Q, between_scalars Q -> blind i Q -> blind (item_or_list_c i l) Q.
Proof. intros A B i l Q M H v v' Y R. destruct (M _ _ R) as (X & X'). cbn [de item_or_list_c]. rewrite (H _ _ Y R). destruct v, v'; cbn [scalar] in *; (reflexivity || contradiction). Qed.
Lemma blind_items : forall {A B : Set} (i : codec A) (l : codec B) Q, between_lists Q -> blind l Q -> blind (item_or_list_c i l) Q.
Proof. intros A B i l Q M H v v' Y R. destruct (M _ _ R) as (x & x' & -> & ->). cbn [de item_or_list_c]. now rewrite (H _ _ Y R). Qed.

(** ** Structs *)

Definition keeps (es es' : list (sval * sval)) (m : member) : Prop := m_de m es' = m_de m es.
Lemma keeps_members : forall ms es es', Forall (keeps es es') ms -> de_members ms es' = de_members ms es.
Proof. intros ms es es' F. induction F as [|m ms H _ IH]; [reflexivity|]. cbn [de_members]. rewrite H, IH. reflexivity. Qed.
Lemma keeps_group : forall {B : Set} ms wr (rd : vals ms -> result de_error B) inv nrm es es', Forall (keeps es es') ms -> keeps es es' (group ms wr rd inv nrm).
Proof. intros B ms wr rd inv nrm es es' F. unfold keeps. cbn [m_de group]. now rewrite (keeps_members ms es es' F). Qed.

(** The member that has an entry. *)
Fixpoint owner (n : str) (ms : list member) : option member :=
  match ms with [] => None | m :: r => if existsb (str_eqb n) (m_names m) then Some m else owner n r end.
Fixpoint once_each (l : list str) : bool := match l with [] => true | x :: r => negb (existsb (str_eqb x) r) && once_each r end.
Lemma in_names : forall n l, existsb (str_eqb n) l = true <-> In n l.
Proof.
  intros n l. rewrite existsb_exists. split; [intros (x & I & E); apply str_eqb_eq in E; now subst x|]. intros I. exists n. split; [exact I|apply str_eqb_refl].
Qed.
Lemma once_each_NoDup : forall l, once_each l = true -> NoDup l.
Proof.
  induction l as [|x l IH]; cbn [once_each]; [constructor|]. rewrite andb_true_iff, negb_true_iff. intros [H R]. constructor; [|auto].
  intros I. apply in_names in I. congruence.
Qed.
Lemma owner_in : forall n ms m, owner n ms = Some m -> In m ms /\ In n (m_names m).
Proof.
  intros n. induction ms as [|x ms IH]; intros m H; cbn [owner] in H; [discriminate|]. destruct (existsb (str_eqb n) (m_names x)) eqn:E.
  - injection H as <-. split; [apply in_eq|now apply in_names].
  - destruct (IH _ H). split; [now right|assumption].
Qed.
Definition others_same (n : str) (es es' : list (sval * sval)) : Prop := forall k, k <> n -> values_of k es = values_of k es'.
Lemma keeps_others : forall ms n es es', Forall local ms -> ~ In n (names ms) -> others_same n es es' -> Forall (keeps es es') ms.
Proof.
  intros ms n es es' L N S. rewrite Forall_forall in *. intros m I. unfold keeps. symmetry. apply (L m I). intros k J. apply S. intros ->. apply N. unfold names. apply in_flat_map. eauto.
Qed.
Lemma NoDup_parts : forall {X} (a b : list X), NoDup (a ++ b) -> NoDup b /\ forall x, In x a -> ~ In x b.
Proof.
  intros X. induction a as [|y a IH]; intros b N; cbn [app] in N; [split; [exact N|]; intros x []|]. inversion N as [|? ? A B]; subst. destruct (IH _ B) as [C D].
  split; [exact C|]. intros x [<-|I]; [|now apply D]. intros J. apply A. apply in_or_app. now right.
Qed.
Lemma keeps_all : forall ms n m es es', Forall local ms -> once_each (names ms) = true -> owner n ms = Some m -> others_same n es es' -> keeps es es' m ->
  Forall (keeps es es') ms.
Proof.
  intros ms n m es es' L N O S K. apply once_each_NoDup in N. revert N O. induction L as [|x ms Lx L IH]; intros N O; [constructor|]. cbn [owner] in O. unfold names in N. cbn [flat_map] in N. fold (names ms) in N.
  apply NoDup_parts in N as [N1 N2]. destruct (existsb (str_eqb n) (m_names x)) eqn:E.
  - injection O as ->. constructor; [exact K|]. apply in_names in E. apply (keeps_others ms n); auto.
  - constructor; [|auto]. unfold keeps. symmetry. apply Lx. intros k J. apply S. intros ->. apply in_names in J. congruence.
Qed.

(** *** What is the same about the entries *)

Lemma values_app : forall n a b, values_of n (a ++ b) = values_of n a ++ values_of n b.
Proof. intros n a b. unfold values_of. now rewrite filter_app, map_app. Qed.
Lemma values_key : forall k y r, values_of k ((VStr k, y) :: r) = y :: values_of k r.
Proof. intros k y r. unfold values_of. cbn [filter fst key_is]. rewrite str_eqb_refl. reflexivity. Qed.
Lemma values_other : forall n k y r, n <> k -> values_of n ((VStr k, y) :: r) = values_of n r.
Proof. intros n k y r D. unfold values_of. cbn [filter fst key_is]. destruct (str_eqb_spec n k); [contradiction|reflexivity]. Qed.
Lemma values_none : forall k es, ~ In (VStr k) (map fst es) -> values_of k es = [].
Proof.
  intros k. induction es as [|[x y] es IH]; intros N; [reflexivity|]. cbn [map fst In] in N. unfold values_of. cbn [filter fst]. destruct x as [| | | |s| |]; cbn [key_is]; try (apply IH; tauto).
  destruct (str_eqb_spec k s) as [->|D]; [tauto|]. apply IH. tauto.
Qed.
Lemma unknown_app : forall ns a b, unknown ns (a ++ b) = unknown ns a ++ unknown ns b.
Proof. intros ns a b. unfold unknown. now rewrite filter_app. Qed.
Lemma unknown_key : forall ns k y r, In k ns -> unknown ns ((VStr k, y) :: r) = unknown ns r.
Proof. intros ns k y r I. unfold unknown. cbn [filter fst]. apply in_names in I. now rewrite I. Qed.
Lemma unknown_other_key : forall ns k y r, ~ In k ns -> unknown ns ((VStr k, y) :: r) = (VStr k, y) :: unknown ns r.
Proof. intros ns k y r I. unfold unknown. cbn [filter fst]. destruct (existsb (str_eqb k) ns) eqn:E; [apply in_names in E; contradiction|reflexivity]. Qed.
Lemma lookup_same : forall n es es', values_of n es = values_of n es' -> lookup n es' = lookup n es.
Proof. intros n es es' H. now rewrite !lookup_values, H. Qed.

(** Structs read nothing but the members and the other entries. *)
Definition same_unknown (ns : list str) (es es' : list (sval * sval)) : Prop :=
  unknown ns es' = unknown ns es \/ (read_ok (ext_de (unknown ns es)) = false /\ read_ok (ext_de (unknown ns es')) = false).
Lemma same_ext : forall ns es es', same_unknown ns es es' -> ext_de (unknown ns es') = ext_de (unknown ns es).
Proof. intros ns es es' [->|[A B]]; [reflexivity|]. destruct (ext_de (unknown ns es)) as [|[]]; [discriminate|]. destruct (ext_de (unknown ns es')) as [|[]]; [discriminate|reflexivity]. Qed.
Definition unnoticed (ms : list member) (Q : relation) : Prop := forall es es', yaml_ok (VMap es) = true -> Q (VMap es) (VMap es') ->
  Forall (keeps es es') ms /\ same_unknown (names ms) es es' /\ string_keys es' = string_keys es.
Lemma blind_struct : forall ms Q, between_maps Q -> unnoticed ms Q -> blind (struct_c ms) Q.
Proof. intros ms Q M U v v' Y H. destruct (M _ _ H) as (es & es' & -> & ->). destruct (U _ _ Y H) as (F & _ & S). cbn [de struct_c]. now rewrite S, (keeps_members ms es es' F). Qed.
Lemma blind_struct_ext : forall ms Q, between_maps Q -> unnoticed ms Q -> blind (struct_ext_c ms) Q.
Proof.
  intros ms Q M U v v' Y H. destruct (M _ _ H) as (es & es' & -> & ->). destruct (U _ _ Y H) as (F & S & _). cbn [de struct_ext_c]. now rewrite (keeps_members ms es es' F), (same_ext _ _ _ S).
Qed.
Lemma blind_struct_ext_once : forall ms Q, between_maps Q -> unnoticed ms Q -> blind (struct_ext_once_c ms) Q.
Proof.
  intros ms Q M U v v' Y H. destruct (M _ _ H) as (es & es' & -> & ->). destruct (U _ _ Y H) as (F & S & _). cbn [de struct_ext_once_c].
  rewrite (keeps_members ms es es' F), (same_ext _ _ _ S). destruct (de_members ms es); cbn [bind]; [|reflexivity]. destruct S as [->|[S _]]; [reflexivity|].
  destruct (ext_de (unknown (names ms) es)); [discriminate|reflexivity].
Qed.

(** *** A change below a key *)

Lemma key_others : forall n Q es es', under_key n Q (VMap es) (VMap es') -> others_same n es es'.
Proof. intros n Q es es' (l & y & y' & r & E & E' & _) k D. injection E as ->. injection E' as ->. now rewrite !values_app, !values_other. Qed.
Lemma key_unknown : forall n Q es es' ns, under_key n Q (VMap es) (VMap es') -> In n ns -> unknown ns es' = unknown ns es.
Proof. intros n Q es es' ns (l & y & y' & r & E & E' & _) I. injection E as ->. injection E' as ->. now rewrite !unknown_app, !unknown_key. Qed.
Lemma key_strings : forall n Q es es', under_key n Q (VMap es) (VMap es') -> string_keys es' = string_keys es.
Proof. intros n Q es es' (l & y & y' & r & E & E' & _). injection E as ->. injection E' as ->. unfold string_keys. now rewrite !forallb_app. Qed.
Lemma keeps_at : forall n Q es es' {A : Set} (c : codec A) d s, yaml_ok (VMap es) = true -> under_key n Q (VMap es) (VMap es') -> blind c Q -> keeps es es' (field n c d s).
Proof.
  intros n Q es es' A c d s Y (l & y & y' & r & E & E' & H) B. injection E as ->. injection E' as ->. unfold keeps. cbn [m_de field]. rewrite !lookup_values, !values_app, !values_key.
  destruct (values_of n l) as [|a [|b t]]; cbn [app]; [|destruct (values_of n r); reflexivity|reflexivity]. destruct (values_of n r); [|reflexivity]. cbn [bind].
  apply B; [now apply yaml_value in Y|exact H].
Qed.
Definition m_blind (n : str) (Q : relation) (m : member) : Prop := forall es es', yaml_ok (VMap es) = true -> under_key n Q (VMap es) (VMap es') -> keeps es es' m.
Lemma m_blind_field : forall n Q {A : Set} (c : codec A) d s, blind c Q -> m_blind n Q (field n c d s).
Proof. intros n Q A c d s B es es' Y H. now apply (keeps_at n Q). Qed.
Lemma m_blind_group : forall n Q {B : Set} ms wr (rd : vals ms -> result de_error B) inv nrm m, Forall local ms -> once_each (names ms) = true -> owner n ms = Some m -> m_blind n Q m ->
  m_blind n Q (group ms wr rd inv nrm).
Proof. intros n Q B ms wr rd inv nrm m L N O K es es' Y H. apply keeps_group. apply (keeps_all ms n m); auto. now apply (key_others n Q). Qed.
Lemma owner_name : forall n ms m, owner n ms = Some m -> In n (names ms).
Proof. intros n ms m O. apply owner_in in O as [I J]. unfold names. apply in_flat_map. eauto. Qed.
Lemma unnoticed_key : forall ms n m Q, Forall local ms -> once_each (names ms) = true -> owner n ms = Some m -> m_blind n Q m -> unnoticed ms (under_key n Q).
Proof.
  intros ms n m Q L N O K es es' Y H. split; [|split].
  - apply (keeps_all ms n m); auto. now apply (key_others n Q).
  - left. apply (key_unknown n Q); [exact H|]. now apply owner_name in O.
  - now apply (key_strings n Q).
Qed.

(** *** A default that is written *)

Definition m_default (k : str) (x : sval) (m : member) : Prop := forall es es', values_of k es = [] -> values_of k es' = [x] -> others_same k es es' -> keeps es es' m.
Lemma m_default_field : forall k x {A : Set} (c : codec A) d s, de c x = Ok d -> m_default k x (field k c (Some d) s).
Proof. intros k x A c d s H es es' N E _. unfold keeps. cbn [m_de field]. rewrite !lookup_values, N, E. cbn [bind]. exact H. Qed.
Lemma m_default_group : forall k x {B : Set} ms wr (rd : vals ms -> result de_error B) inv nrm m, Forall local ms -> once_each (names ms) = true -> owner k ms = Some m -> m_default k x m ->
  m_default k x (group ms wr rd inv nrm).
Proof. intros k x B ms wr rd inv nrm m L N O K es es' H1 H2 H3. apply keeps_group. apply (keeps_all ms k m); auto. Qed.
Lemma adds_values : forall k x es es', adds k x (VMap es) (VMap es') -> values_of k es = [] /\ values_of k es' = [x] /\ others_same k es es'.
Proof.
  intros k x es es' (l & r & E & E' & N). injection E as ->. injection E' as ->. pose proof (values_none _ _ N) as V. split; [exact V|]. rewrite values_app in V. apply app_eq_nil in V as [V1 V2]. split.
  - rewrite values_app, values_key, V1, V2. reflexivity.
  - intros n D. now rewrite !values_app, values_other.
Qed.
Lemma unnoticed_adds : forall ms k x m, Forall local ms -> once_each (names ms) = true -> owner k ms = Some m -> m_default k x m -> unnoticed ms (adds k x).
Proof.
  intros ms k x m L N O K es es' Y H. destruct (adds_values _ _ _ _ H) as (A & B & C). split; [apply (keeps_all ms k m); auto|]. apply owner_name in O.
  destruct H as (l & r & E & E' & _). injection E as ->. injection E' as ->. split; [left; now rewrite !unknown_app, unknown_key|]. unfold string_keys. now rewrite !forallb_app.
Qed.

(** *** Another order *)

Definition plain_name (n : str) : bool := match n with 120 :: 45 :: _ => false | _ => true end.
Lemma extension_names : forall s k, extension_key_new s = Ok k -> plain_name s = false.
Proof. intros s k H. apply extension_key_new_iff in H as [_ [[r ->] _]]. reflexivity. Qed.
Lemma filter_all : forall {X} (f : X -> bool) l, (forall x, In x l -> f x = true) -> filter f l = l.
Proof. intros X f. induction l as [|x l IH]; intros H; cbn [filter]; [reflexivity|]. rewrite (H x (in_eq _ _)), IH; [reflexivity|]. intros y I. apply H. now right. Qed.
Lemma filter_filter : forall {X} (f g : X -> bool) l, filter f (filter g l) = filter (fun x => g x && f x) l.
Proof. intros X f g. induction l as [|x l IH]; cbn [filter]; [reflexivity|]. destruct (g x) eqn:G; cbn [filter andb]; [destruct (f x)|]; now rewrite IH. Qed.
Lemma reorder_unknown : forall ns es es', forallb plain_name ns = true -> Permutation es es' -> filter extension_entry es = filter extension_entry es' -> same_unknown ns es es'.
Proof.
  intros ns es es' N P E. destruct (forallb extension_entry (unknown ns es)) eqn:A.
  - left. assert (G : forall l, (forall e, In e (unknown ns l) -> extension_entry e = true) -> unknown ns l = filter extension_entry l).
    { intros l H. rewrite <- (filter_all extension_entry (unknown ns l)) by exact H. unfold unknown. rewrite filter_filter. apply filter_ext. intros [x y]. unfold extension_entry. cbn [fst].
      destruct x as [| | | |s| |]; try reflexivity. destruct (existsb (str_eqb s) ns) eqn:X; cbn [negb andb]; [|reflexivity]. apply in_names in X. rewrite forallb_forall in N. specialize (N _ X).
      destruct s as [|a [|b s]]; try reflexivity; cbn in *.
      all: destruct a as [|a]; try reflexivity; repeat (destruct a as [a|a|]; try reflexivity).
      destruct b as [|b]; try reflexivity; repeat (destruct b as [b|b|]; try reflexivity). discriminate. }
    rewrite forallb_forall in A. rewrite (G es), (G es'); [now symmetry| |exact A]. intros e I. apply A. apply (Permutation_in e (Permutation_sym (unknown_perm ns _ _ P)) I).
  - right. assert (X : exists e, In e (unknown ns es) /\ extension_entry e = false).
    { clear - A. induction (unknown ns es) as [|e l IH]; [discriminate|]. cbn [forallb] in A. destruct (extension_entry e) eqn:Ee; [|exists e; split; [apply in_eq|exact Ee]].
      destruct (IH A) as (e' & I & F). exists e'. split; [now right|exact F]. }
    destruct X as (e & I & F). assert (B : read_ok (ext_entry e) = false).
    { unfold ext_entry. destruct e as [[| | | |s| |] y]; cbn [fst snd] in *; try reflexivity. destruct (extension_key_new s) as [k|] eqn:K; [|reflexivity].
      apply extension_key_new_iff in K as [_ [[r ->] _]]. discriminate F. }
    split; unfold ext_de; rewrite read_ok_map; apply (read_ok_collect _ _ e); try exact B; [exact I|]. apply (Permutation_in e (unknown_perm ns _ _ P) I).
Qed.
Lemma reorder_values : forall es es' n, yaml_ok (VMap es) = true -> Permutation es es' -> values_of n es = values_of n es'.
Proof.
  intros es es' n Y P. apply yaml_map in Y as [N _]. unfold values_of. assert (Q : Permutation (filter (fun e => key_is n (fst e)) es) (filter (fun e => key_is n (fst e)) es')) by now apply filter_perm.
  assert (S : (List.length (filter (fun e => key_is n (fst e)) es) <= 1)%nat).
  { clear - N. induction es as [|[x y] es IH]; cbn [filter fst List.length]; [lia|]. cbn [map fst] in N. inversion N as [|? ? A B]; subst. destruct (key_is n x) eqn:K; [|auto].
    destruct x as [| | | |s| |]; try discriminate. cbn [key_is] in K. apply str_eqb_eq in K. subst s.
    destruct (filter (fun e => key_is n (fst e)) es) as [|[z u] t] eqn:F; [cbn; lia|]. exfalso. apply A. assert (I : In (z, u) (filter (fun e => key_is n (fst e)) es)) by (rewrite F; apply in_eq).
    apply filter_In in I as [I K]. cbn [fst] in K. destruct z as [| | | |s| |]; try discriminate. cbn [key_is] in K. apply str_eqb_eq in K. subst s. apply in_map_iff. exists (VStr n, u). auto. }
  destruct (filter (fun e => key_is n (fst e)) es) as [|e [|e' t]]; [apply Permutation_nil in Q; now rewrite Q|apply Permutation_length_1_inv in Q; now rewrite Q|cbn in S; lia].
Qed.
Lemma strings_perm : forall es es', Permutation es es' -> string_keys es' = string_keys es.
Proof.
  intros es es' P. unfold string_keys. induction P as [|x l l' _ IH|x y l|l1 l2 l3 _ IH1 _ IH2]; cbn [forallb]; [reflexivity|now rewrite IH| |congruence].
  rewrite !andb_assoc. f_equal. apply andb_comm.
Qed.
Lemma unnoticed_reorders : forall ms, Forall local ms -> forallb plain_name (names ms) = true -> unnoticed ms reorders.
Proof.
  intros ms L N es es' Y (a & b & E & E' & P & F). injection E as <-. injection E' as <-. split; [|split].
  - eapply Forall_impl; [|exact L]. intros m Lm. unfold keeps. symmetry. apply Lm. intros n _. now apply reorder_values.
  - now apply reorder_unknown.
  - now apply strings_perm.
Qed.

(** ** Readers which take out an entry first *)

Definition passes (t : str) (Q Q' : relation) : Prop := forall es es', yaml_ok (VMap es) = true -> Q (VMap es) (VMap es') ->
  values_of t es = values_of t es' /\ Q' (VMap (unknown [t] es)) (VMap (unknown [t] es')).
Lemma not_only : forall (t n : str), n <> t -> ~ In n [t].
Proof. intros t n D [E|[]]. congruence. Qed.
Lemma passes_key : forall t n Q, n <> t -> passes t (under_key n Q) (under_key n Q).
Proof.
  intros t n Q D es es' _ H. split; [apply (key_others n Q); [exact H|congruence]|]. destruct H as (l & y & y' & r & E & E' & H). injection E as ->. injection E' as ->.
  exists (unknown [t] l), y, y', (unknown [t] r). rewrite !unknown_app, !unknown_other_key by now apply not_only. auto.
Qed.
Lemma passes_adds : forall t k x, k <> t -> passes t (adds k x) (adds k x).
Proof.
  intros t k x D es es' _ H. split; [apply (adds_values k x es es' H); congruence|]. destruct H as (l & r & E & E' & N). injection E as ->. injection E' as ->.
  exists (unknown [t] l), (unknown [t] r). rewrite !unknown_app, unknown_other_key by now apply not_only. split; [reflexivity|]. split; [reflexivity|].
  rewrite <- unknown_app. intros I. apply N. apply in_map_iff in I as (e & E & I). apply filter_In in I as [I _]. apply in_map_iff. eauto.
Qed.
Lemma passes_adds_managed : forall t k x, k <> t -> passes t (adds_managed k x) (adds k x).
Proof. intros t k x D es es' Y [H _]. now apply passes_adds. Qed.
Lemma passes_reorders : forall t, passes t reorders reorders.
Proof.
  intros t es es' Y (a & b & E & E' & P & F). injection E as <-. injection E' as <-. split; [now apply reorder_values|]. exists (unknown [t] es), (unknown [t] es').
  split; [reflexivity|]. split; [reflexivity|]. split; [now apply unknown_perm|]. unfold unknown. rewrite !filter_filter.
  rewrite (filter_ext _ (fun x => extension_entry x && match fst x with VStr k => negb (existsb (str_eqb k) [t]) | _ => true end)) by (intros x; apply andb_comm).
  rewrite (filter_ext (fun x => match fst x with VStr k => negb (existsb (str_eqb k) [t]) | _ => true end && extension_entry x)
    (fun x => extension_entry x && match fst x with VStr k => negb (existsb (str_eqb k) [t]) | _ => true end)) by (intros x; apply andb_comm).
  rewrite <- !filter_filter, F. reflexivity.
Qed.
Lemma NoDup_fst_filter : forall (f : sval * sval -> bool) es, NoDup (map fst es) -> NoDup (map fst (filter f es)).
Proof.
  intros f. induction es as [|e es IH]; intros N; cbn [filter map] in *; [constructor|]. inversion N as [|? ? A B]; subst. destruct (f e); [|auto]. cbn [map]. constructor; [|auto].
  intros I. apply A. apply in_map_iff in I as (e' & E & I). apply filter_In in I as [I _]. apply in_map_iff. eauto.
Qed.
Lemma yaml_unknown : forall ns es, yaml_ok (VMap es) = true -> yaml_ok (VMap (unknown ns es)) = true.
Proof.
  intros ns es. rewrite !yaml_map. intros [N F]. split; [now apply NoDup_fst_filter|]. rewrite Forall_forall in *. intros e I. apply filter_In in I as [I _]. auto.
Qed.

Lemma blind_mount : forall Q, between_maps Q -> passes $"type" Q Q -> blind volume_c Q -> blind bind_c Q -> blind tmpfs_c Q -> blind named_pipe_c Q -> blind cluster_c Q -> blind mount_c Q.
Proof.
  intros Q M P B1 B2 B3 B4 B5 v v' Y H. destruct (M _ _ H) as (es & es' & -> & ->). destruct (P _ _ Y H) as [L K]. cbn [de mount_c mount_de].
  rewrite (lookup_same _ _ _ L). destruct (lookup $"type" es) as [[[| | | |k| |]|]|]; cbn [bind]; try reflexivity.
  pose proof (yaml_unknown [$"type"] es Y) as Y'. unfold mount_read.
  now rewrite (B1 _ _ Y' K), (B2 _ _ Y' K), (B3 _ _ Y' K), (B4 _ _ Y' K), (B5 _ _ Y' K).
Qed.

(** *** Resources *)

Lemma string_entries : forall es, string_keys es = true -> exists m, es = ext_ser m.
Proof.
  induction es as [|[k v] es IH]; intros H; [now exists []|]. cbn [string_keys forallb fst] in H. destruct k as [| | | |s| |]; try discriminate. destruct (IH H) as [m ->]. now exists ((s, v) :: m).
Qed.
Lemma yaml_entries : forall m, Forall (fun e => yaml_ok (snd e) = true) m -> collect yaml_entry (ext_ser m) = Ok m.
Proof.
  induction m as [|[k v] m IH]; intros F; [reflexivity|]. inversion F as [|? ? A B]; subst. unfold ext_ser in *. cbn [map collect fst snd yaml_entry de yaml_c] in *. rewrite A. cbn [bind]. now rewrite (IH B).
Qed.
Lemma get_lookup : forall (m : list (str * sval)) k, NoDup (map fst m) -> lookup k (ext_ser m) = Ok (imap_get str_eqb m k).
Proof.
  induction m as [|[x v] m IH]; intros k N; [reflexivity|]. cbn [map fst] in N. inversion N as [|? ? A B]; subst. unfold ext_ser in *. cbn [map fst snd lookup imap_get]. rewrite (IH k B).
  destruct (str_eqb_spec k x) as [->|D]; [|reflexivity].
  assert (Z : imap_get str_eqb m x = None) by now apply (imap_get_none str_eqb str_eqb_eq). now rewrite Z.
Qed.
Lemma without_unknown : forall k m, ext_ser (without k m) = unknown [k] (ext_ser m).
Proof.
  intros k. induction m as [|[x v] m IH]; [reflexivity|]. unfold ext_ser, without, unknown in *. cbn [filter map fst snd existsb]. rewrite orb_false_r.
  replace (str_eqb x k) with (str_eqb k x). { destruct (str_eqb k x); cbn [negb map fst snd]; now rewrite IH. }
  destruct (str_eqb_spec k x) as [->|D]; symmetry; [apply str_eqb_refl|]. now destruct (str_eqb_spec x k) as [->|_].
Qed.
Lemma is_nil_map : forall {X Y} (f : X -> Y) l, is_nil (map f l) = is_nil l.
Proof. intros X Y f [|x l]; reflexivity. Qed.
(** A description without repeated keys. *)
Definition resource_view {A : Set} (c : codec A) (es : list (sval * sval)) : result de_error (resource A) :=
  o <- lookup $"external" es ;;
  external <- match o with Some v => de bool_c v | None => Ok false end ;;
  if (external : bool) then
    n <- lookup $"name" (unknown [$"external"] es) ;;
    name <- match n with Some v => map_ok Some (de string_c v) | None => Ok None end ;;
    if is_nil (unknown [$"name"] (unknown [$"external"] es)) then Ok (External name) else Err DeError
  else map_ok Managed (de c (VMap (unknown [$"external"] es))).
Lemma resource_reads : forall {A : Set} (c : codec A) es, yaml_ok (VMap es) = true ->
  de (resource_c c) (VMap es) = if string_keys es then resource_view c es else Err DeError.
Proof.
  intros A c es Y. apply yaml_map in Y as [N F]. cbn [de resource_c]. unfold hash_map_de. destruct (string_keys es) eqn:S.
  - apply string_entries in S as [m ->]. rewrite (yaml_entries m).
    2: { apply Forall_forall. intros e I. rewrite Forall_forall in F. apply (F (VStr (fst e), snd e)). unfold ext_ser. apply in_map_iff. eauto. }
    assert (D : NoDup (map fst m)). { unfold ext_ser in N. rewrite map_map in N. cbn [fst] in N. rewrite <- (map_map fst VStr) in N. now apply NoDup_map_inv in N. }
    cbn [map_ok bind]. rewrite (imap_of_nodup str_eqb str_eqb_eq) by exact D. unfold resource_of, resource_view. rewrite (get_lookup m _ D). cbn [bind].
    destruct (match imap_get str_eqb m $"external" with Some v => de bool_c v | None => Ok false end) as [[]|]; cbn [bind]; [| |reflexivity].
    + rewrite <- without_unknown, get_lookup by now apply PropsResource.without_once. cbn [bind].
      destruct (match imap_get str_eqb (without $"external" m) $"name" with Some v => map_ok Some (de string_c v) | None => Ok None end); cbn [bind]; [|reflexivity].
      rewrite <- without_unknown. unfold ext_ser. now rewrite is_nil_map.
    + now rewrite without_unknown.
  - assert (X : read_ok (collect yaml_entry es) = false).
    { clear - S. unfold string_keys in S. assert (X : exists e, In e es /\ match fst e with VStr _ => true | _ => false end = false).
      { induction es as [|e es IH]; [discriminate|]. cbn [forallb] in S. destruct (match fst e with VStr _ => true | _ => false end) eqn:E; [|exists e; split; [apply in_eq|exact E]].
        destruct (IH S) as (e' & I & F). exists e'. split; [now right|exact F]. }
      destruct X as (e & I & F). apply (read_ok_collect _ _ e I). unfold yaml_entry. destruct (fst e); try reflexivity. discriminate. }
    destruct (collect yaml_entry es) as [|[]]; [discriminate|reflexivity].
Qed.
(** A change is the same for something external. *)
Definition same_external (Q : relation) : Prop := forall es es', yaml_ok (VMap es) = true -> Q (VMap es) (VMap es') -> lookup $"external" es = Ok (Some (VBool true)) ->
  values_of $"name" (unknown [$"external"] es) = values_of $"name" (unknown [$"external"] es') /\
  is_nil (unknown [$"name"] (unknown [$"external"] es')) = is_nil (unknown [$"name"] (unknown [$"external"] es)).
Lemma blind_resource : forall {A : Set} (c : codec A) Q Q', fine Q -> between_maps Q -> (forall es es', Q (VMap es) (VMap es') -> string_keys es' = string_keys es) ->
  passes $"external" Q Q' -> same_external Q -> blind c Q' -> blind (resource_c c) Q.
Proof.
  intros A c Q Q' F M S P X B v v' Y H. destruct (M _ _ H) as (es & es' & -> & ->). destruct (P _ _ Y H) as [L K].
  rewrite !resource_reads by (try exact Y; now apply (F _ _ H)). rewrite (S _ _ H). destruct (string_keys es); [|reflexivity].
  unfold resource_view. rewrite (lookup_same _ _ _ L). destruct (lookup $"external" es) as [o|] eqn:E; cbn [bind]; [|reflexivity].
  pose proof (B _ _ (yaml_unknown [$"external"] es Y) K) as G. destruct o as [[|[]| | | | |]|]; cbn [de bool_c bind]; try reflexivity; try (now rewrite G).
  destruct (X _ _ Y H E) as [X1 X2]. now rewrite (lookup_same _ _ _ X1), X2.
Qed.
Lemma external_key : forall n Q, n <> $"external" -> n <> $"name" -> same_external (under_key n Q).
Proof.
  intros n Q D1 D2 es es' Y H _. destruct (passes_key $"external" n Q D1 es es' Y H) as [_ H1]. split; [apply (key_others n Q); [exact H1|congruence]|].
  destruct (passes_key $"name" n Q D2 _ _ (yaml_unknown [$"external"] _ Y) H1) as [_ H2]. destruct H2 as (l & y & y' & r & E & E' & _). injection E as ->. injection E' as ->. destruct l; reflexivity.
Qed.
Lemma external_reorders : same_external reorders.
Proof.
  intros es es' Y H _. destruct (passes_reorders $"external" es es' Y H) as [_ H1]. destruct (passes_reorders $"name" _ _ (yaml_unknown [$"external"] _ Y) H1) as [V H2]. split; [exact V|].
  destruct H2 as (a & b & E & E' & P & _). injection E as ->. injection E' as ->. destruct a as [|x a]; [apply Permutation_nil in P; now rewrite P|].
  destruct b as [|y b]; [apply Permutation_sym, Permutation_nil in P; discriminate|reflexivity].
Qed.
Lemma lookup_member : forall k es v, lookup k es = Ok (Some v) -> In (VStr k, v) es.
Proof.
  intros k es v H. rewrite lookup_values in H. destruct (values_of k es) as [|x [|y r]] eqn:E; try discriminate. injection H as ->. assert (I : In v (values_of k es)) by (rewrite E; apply in_eq).
  unfold values_of in I. apply in_map_iff in I as ([a b] & E' & I). cbn [snd] in E'. subst b. apply filter_In in I as [I K]. cbn [fst] in K. destruct a as [| | | |s| |]; try discriminate.
  cbn [key_is] in K. apply str_eqb_eq in K. now subst s.
Qed.
Lemma external_adds : forall k x, same_external (adds_managed k x).
Proof. intros k x es es' Y [_ N] E. apply lookup_member in E. now elim (N es eq_refl). Qed.
Lemma strings_adds : forall k x es es', adds_managed k x (VMap es) (VMap es') -> string_keys es' = string_keys es.
Proof. intros k x es es' [(l & r & E & E' & _) _]. injection E as ->. injection E' as ->. unfold string_keys. now rewrite !forallb_app. Qed.
Lemma strings_reorders : forall es es', reorders (VMap es) (VMap es') -> string_keys es' = string_keys es.
Proof. intros es es' (a & b & E & E' & P & _). injection E as <-. injection E' as <-. now apply strings_perm. Qed.

Lemma blind_resource_key : forall {A : Set} (c : codec A) n Q, fine Q -> n <> $"external" -> n <> $"name" -> blind c (under_key n Q) -> blind (resource_c c) (under_key n Q).
Proof.
  intros A c n Q F D1 D2 B. apply (blind_resource c _ (under_key n Q)); auto using fine_under_key, maps_under_key, passes_key, external_key. intros es es'. apply key_strings.
Qed.
Lemma blind_resource_reorders : forall {A : Set} (c : codec A), blind c reorders -> blind (resource_c c) reorders.
Proof. intros A c B. apply (blind_resource c _ reorders); auto using fine_reorders, maps_reorders, passes_reorders, external_reorders, strings_reorders. Qed.
Lemma blind_resource_adds : forall {A : Set} (c : codec A) k x, yaml_ok x = true -> k <> $"external" -> blind c (adds k x) -> blind (resource_c c) (adds_managed k x).
Proof.
  intros A c k x Y D B. apply (blind_resource c _ (adds k x)); auto using fine_adds_managed, maps_adds_managed, passes_adds_managed, external_adds. intros es es'. apply strings_adds.
Qed.
Lemma blind_resource_external : forall {A : Set} (c : codec A), blind (resource_c c) (adds_managed $"external" (VBool false)).
Proof.
  intros A c v v' Y H. pose proof (proj2 (fine_adds_managed $"external" (VBool false) eq_refl _ _ H) Y) as Y'. destruct (maps_adds_managed _ _ _ _ H) as (es & es' & -> & ->).
  rewrite !resource_reads by assumption. rewrite (strings_adds _ _ _ _ H). destruct (string_keys es); [|reflexivity]. destruct H as [H _]. destruct (adds_values _ _ _ _ H) as (V & V' & _).
  unfold resource_view. rewrite !lookup_values, V, V'. cbn [bind de bool_c]. destruct H as (l & r & E & E' & _). injection E as ->. injection E' as ->.
  now rewrite !unknown_app, unknown_key by apply in_eq.
Qed.

(** *** An entry which is not allowed *)

Lemma bad_entry : forall ns es k y, ~ In k ns -> plain_name k = true -> In (VStr k, y) es -> read_ok (ext_de (unknown ns es)) = false.
Proof.
  intros ns es k y N P I. unfold ext_de. rewrite read_ok_map. apply (read_ok_collect _ _ (VStr k, y)).
  - apply filter_In. split; [exact I|]. cbn [fst]. destruct (existsb (str_eqb k) ns) eqn:E; [apply in_names in E; contradiction|reflexivity].
  - unfold ext_entry. cbn [fst snd]. destruct (extension_key_new k) as [z|] eqn:E; [|reflexivity]. apply extension_names in E. congruence.
Qed.
Lemma unnoticed_foreign : forall ms n Q, Forall local ms -> existsb (str_eqb n) (names ms) = false -> plain_name n = true -> unnoticed ms (under_key n Q).
Proof.
  intros ms n Q L N P es es' Y H. assert (N' : ~ In n (names ms)) by (intros I; apply in_names in I; congruence). split; [|split].
  - apply (keeps_others ms n); [exact L|exact N'|]. now apply (key_others n Q).
  - right. destruct H as (l & y & y' & r & E & E' & _). injection E as ->. injection E' as ->. split; eapply bad_entry; try exact N'; try exact P; apply in_elt.
  - now apply (key_strings n Q).
Qed.
