(** C91: what is put in a file through the API survives saving exactly when each field does. *)

From Coq Require Import String Ascii List NArith ZArith Bool Lia ZifyBool ZifyN ZifyNat.
Import ListNotations.
From Verif Require Import Base BaseFacts Num NumFacts Coll CollFacts Regex KeysModel KeysSpec KeysProofs PropsKeys DurationModel DurationProofs BytesProofs PropsText TextModel ValuesModel VolumesModel EqModel Serde Codec CodecFacts EnumModel ScalarCodec ScalarGood
  CommonCodec CommonGood ServiceParts PartsGood MountCodec MountGood HealthModel HealthProofs OrderFacts ServiceCodec ServiceGood ComposeCodec ComposeGood NeatFacts ExactFacts ReadFacts ComposeProofs PropsCompose EditModel.
Open Scope N_scope.

(** A value comes back if reading what is written for it gives the same value. *)
Definition kept {A : Set} (c : codec A) (a : A) : Prop := de c (ser c a) = Ok a.
(** A field comes back on its own: the entries written for it, and nothing else, are read. *)
Definition field_kept (m : member) (a : m_type m) : Prop := m_de m (m_ser m a) = Ok a.
Fixpoint fields_kept (ms : list member) : vals ms -> Prop :=
  match ms return vals ms -> Prop with [] => fun _ => True | m :: r => fun v => field_kept m (fst v) /\ fields_kept r (snd v) end.
Fixpoint nth_kept (n : nat) (ms : list member) {struct ms} : nth_type n ms -> Prop :=
  match ms return nth_type n ms -> Prop with
  | [] => fun _ => True
  | m :: r => match n return nth_type n (m :: r) -> Prop with O => field_kept m | S n => nth_kept n r end
  end.
(** What [Extensions] can be: keys which start with [x-], each once, and values in which no map has a key twice. *)
Definition extensions_valid (x : extensions) : Prop :=
  NoDup (map fst x) /\ forall k v, In (k, v) x -> (exists r, k = $"x-" ++ r) /\ ~ In 10 k /\ yaml_ok v = true.

(** ** Fields are read independently *)

Record local (m : member) : Prop := mk_local {
  l_keys : forall a, Forall (key_in (m_names m)) (m_ser m a);
  l_de : forall pre es post, apart (m_names m) pre -> apart (m_names m) post -> m_de m (pre ++ es ++ post) = m_de m es }.

Lemma lookup_app_r : forall k a b, Forall (fun e => fst e <> VStr k) b -> lookup k (a ++ b) = lookup k a.
Proof.
  intros k a b H. induction a as [|[x v] a IH]; cbn [app]; [now apply lookup_absent|]. cbn [lookup]. destruct x; auto. now rewrite IH.
Qed.
Lemma field_local : forall n {A : Set} (c : codec A) default skip, local (field n c default skip).
Proof.
  intros n A c default skip. split; cbn [m_names m_ser m_de field].
  - intros a. destruct (skip a); constructor; [|constructor]. exists n. split; [reflexivity|now left].
  - intros pre es post P Q. rewrite lookup_app by (apply P; now left). rewrite lookup_app_r by (apply Q; now left). reflexivity.
Qed.
Lemma local_keys : forall ms v, Forall local ms -> Forall (key_in (names ms)) (ser_members ms v).
Proof.
  induction ms as [|m r IH]; intros v G; [constructor|]. inversion G as [|? ? Gm Gr]; subst. cbn [ser_members]. rewrite names_cons.
  apply Forall_app; split.
  - eapply Forall_impl; [|apply (l_keys m Gm)]. intros e (k & E & H). exists k. split; [assumption|]. apply in_or_app. now left.
  - eapply Forall_impl; [|apply IH; assumption]. intros e (k & E & H). exists k. split; [assumption|]. apply in_or_app. now right.
Qed.
Lemma de_members_local : forall ms pre es post, Forall local ms -> apart (names ms) pre -> apart (names ms) post ->
  de_members ms (pre ++ es ++ post) = de_members ms es.
Proof.
  induction ms as [|m r IH]; intros pre es post G P Q; [reflexivity|]. inversion G as [|? ? Gm Gr]; subst. rewrite names_cons in *. cbn [de_members].
  rewrite (l_de m Gm) by (eapply apart_sub; [|eassumption]; intros k I; apply in_or_app; now left).
  rewrite IH; [reflexivity|assumption|eapply apart_sub; [|eassumption]; intros k I; apply in_or_app; now right|eapply apart_sub; [|eassumption]; intros k I; apply in_or_app; now right].
Qed.
Lemma group_local : forall {B : Set} ms (write : B -> vals ms) read inv nrm, Forall local ms -> local (group ms write read inv nrm).
Proof.
  intros B ms write read inv nrm G. split; cbn [m_names m_ser m_de group].
  - intros b. now apply local_keys.
  - intros pre es post P Q. now rewrite de_members_local.
Qed.

Lemma bind_ok : forall {E A B} (r : result E A) (f : A -> result E B) b, bind r f = Ok b <-> exists a, r = Ok a /\ f a = Ok b.
Proof. intros E A B [a|e] f b; cbn [bind]; split; [eauto|intros (x & X & H); now injection X as ->|discriminate|intros (x & X & _); discriminate]. Qed.

Lemma de_members_kept : forall ms v pre post, Forall local ms -> NoDup (names ms) -> apart (names ms) pre -> apart (names ms) post ->
  (de_members ms (pre ++ ser_members ms v ++ post) = Ok v <-> fields_kept ms v).
Proof.
  induction ms as [|m r IH]; intros v pre post G D P Q; [destruct v; split; [exact (fun _ => I)|reflexivity]|]. destruct v as [a v]. inversion G as [|? ? Gm Gr]; subst.
  rewrite names_cons in *. apply NoDup_app_inv in D as [Dr Dx]. cbn [de_members ser_members fields_kept fst snd]. unfold field_kept.
  rewrite <- (app_assoc (m_ser m a)). rewrite (l_de m Gm pre (m_ser m a)).
  - rewrite (app_assoc pre). specialize (IH v (pre ++ m_ser m a) post Gr Dr). rewrite <- IH.
    + rewrite bind_ok. split.
      * intros (b & Hb & H). apply bind_ok in H as (u & Hu & H). injection H as -> ->. split; assumption.
      * intros [Ha Hv]. exists a. split; [assumption|]. apply bind_ok. exists v. split; [assumption|reflexivity].
    + apply apart_app; [eapply apart_sub; [|exact P]; intros k I; apply in_or_app; now right|].
      apply (key_in_apart _ (m_names m)); [|apply (l_keys m Gm)]. intros k I J. now apply (Dx k).
    + eapply apart_sub; [|exact Q]. intros k I; apply in_or_app; now right.
  - eapply apart_sub; [|exact P]. intros k I; apply in_or_app; now left.
  - apply apart_app; [|eapply apart_sub; [|exact Q]; intros k I; apply in_or_app; now left].
    apply (key_in_apart _ (names r)); [exact Dx|now apply local_keys].
Qed.

Lemma ext_valid_wf : forall x, extensions_valid x <-> ext_wf x.
Proof.
  intros x. unfold extensions_valid, ext_wf, ext_key. rewrite !Forall_forall. split.
  - intros [D H]. split; [|split; [exact D|]]; intros [k v] I; destruct (H k v I) as (A & B & C); [split; assumption|exact C].
  - intros (A & D & B). split; [exact D|]. intros k v I. destruct (A _ I) as [A1 A2]. auto. split; [exact A1|]. split; [exact A2|exact (B _ I)].
Qed.

Lemma struct_kept : forall ms v x, Forall local ms -> nodupb (names ms) = true -> no_x (names ms) = true ->
  (kept (struct_ext_c ms) (v, x) <-> fields_kept ms v /\ extensions_valid x).
Proof.
  intros ms v x G D X. apply nodupb_NoDup in D. rewrite ext_valid_wf. unfold kept. cbn [ser de struct_ext_c fst snd].
  assert (U : ext_wf x -> unknown (names ms) (ser_members ms v ++ ext_ser x) = ext_ser x).
  { intros W. rewrite unknown_app, unknown_fields by now apply local_keys. cbn [app]. apply unknown_ext; [assumption|apply W]. }
  assert (K : ext_wf x -> (de_members ms (ser_members ms v ++ ext_ser x) = Ok v <-> fields_kept ms v)).
  { intros W. apply (de_members_kept ms v [] (ext_ser x)); auto using apart_nil. apply ext_apart; [assumption|apply W]. }
  split.
  - intros H. apply bind_ok in H as (a & Ha & H). apply bind_ok in H as (y & Hy & H). injection H as -> ->.
    assert (W := ext_de_sound _ _ Hy). split; [now apply K|exact W].
  - intros [F W]. rewrite (proj2 (K W) F). cbn [bind]. rewrite (U W), (ext_ser_de x W). reflexivity.
Qed.

Lemma set_kept : forall n ms x v, fields_kept ms v -> (fields_kept ms (set_val n ms x v) <-> nth_kept n ms x).
Proof.
  induction n as [|n IH]; intros [|m r] x v K; cbn [fields_kept nth_kept set_val fst snd] in *; try (split; auto; fail).
  - destruct K as [_ K]. split; [intros [H _]; exact H|intros H; split; assumption].
  - destruct K as [K1 K2]. specialize (IH r x (snd v) K2). split; [intros [_ H]; now apply IH|intros H; split; [assumption|now apply IH]].
Qed.
Lemma fields_nth : forall n ms v, fields_kept ms v -> nth_kept n ms (nth_val n ms v).
Proof.
  induction n as [|n IH]; intros [|m r] v K; cbn [fields_kept nth_kept nth_val] in *; auto; [exact (proj1 K)|exact (IH r (snd v) (proj2 K))].
Qed.

Ltac locals := repeat (apply Forall_cons; [first [apply field_local|apply group_local; repeat (apply Forall_cons; [apply field_local|]); apply Forall_nil]|]); apply Forall_nil.
Lemma service_local : forall w, Forall local (service_ms w). Proof. intros w. unfold service_ms. locals. Qed.
Lemma compose_local : forall w, Forall local (compose_ms w). Proof. intros w. unfold compose_ms. locals. Qed.
Lemma fields_all : forall ms v, fields_kept ms v <-> forall n, nth_kept n ms (nth_val n ms v).
Proof.
  intros ms v. split; [intros K n; now apply fields_nth|]. revert v. induction ms as [|m r IH]; intros v H; [exact I|]. cbn [fields_kept]. split; [exact (H O)|].
  apply IH. intros n. exact (H (S n)).
Qed.

(** ** Services *)

(** A service comes back from its own text exactly when each of its fields does on its own. *)
Theorem service_kept : forall w (s : service w), kept (service_c w) s <->
  (forall n, nth_kept n (service_ms w) (nth_val n (service_ms w) (fst s))) /\ extensions_valid (snd s).
Proof. intros w [v x]. cbn [fst snd]. rewrite <- fields_all. apply (struct_kept (service_ms w) v x); [apply service_local|reflexivity|reflexivity]. Qed.
Print Assumptions service_kept.

(** So a field of a service which comes back may be set to what comes back on its own, and to nothing else. *)
Theorem service_set : forall w n x (s : service w), kept (service_c w) s -> (kept (service_c w) (set_field n x s) <-> nth_kept n (service_ms w) x).
Proof.
  intros w n x [v y] K. assert (S := fun v => struct_kept (service_ms w) v y (service_local w) eq_refl eq_refl). unfold set_field, service_c in *. cbn [fst snd].
  apply S in K as [K Y]. rewrite S, (set_kept n (service_ms w) x v K). split; [intros [H _]; exact H|intros H; split; assumption].
Qed.
Print Assumptions service_set.

(** ** Whole files *)

Lemma collect_kept : forall {A B E} (f : A -> B) (g : B -> result E A) l, collect g (map f l) = Ok l <-> Forall (fun a => g (f a) = Ok a) l.
Proof.
  intros A B E f g l. rewrite collect_ok. induction l as [|a l IH]; cbn [map]; [split; constructor|]. split; intros H; inversion H; subst; constructor; auto; now apply IH.
Qed.
Lemma map_kept : forall {V : Set} (k : codec str) (c : codec V) (l : list (str * V)), good k -> (forall a b, de k (ser k a) = Ok b -> b = a) ->
  (kept (smap k c) l <-> NoDup (map fst l) /\ Forall (fun e => wf k (fst e) /\ kept c (snd e)) l).
Proof.
  intros V k c l G U. unfold kept, smap. cbn [ser de imap_c].
  assert (X : forall e, entry_de k c (entry_ser k c e) = Ok e <-> wf k (fst e) /\ de c (ser c (snd e)) = Ok (snd e)).
  { intros [n v]. unfold entry_de, entry_ser. cbn [fst snd]. split.
    - intros H. apply bind_ok in H as (n' & Hn & H). apply bind_ok in H as (v' & Hv & H). injection H as -> ->. split; [|exact Hv].
      exact (g_sound _ G _ _ Hn).
    - intros [Hn Hv]. assert (R := g_rt _ G n Hn). rewrite (U _ _ R) in R. rewrite R. cbn [bind]. rewrite Hv. reflexivity. }
  split.
  - intros H. destruct (collect _ _) as [r|] eqn:C; cbn [map_ok] in H; [|discriminate]. injection H as H.
    assert (D : NoDup (map fst l)) by (rewrite <- H; apply (imap_of_NoDup str_eqb str_eqb_eq)). split; [exact D|].
    assert (Ek : map fst r = map fst l).
    { clear H D. apply collect_ok in C. revert r C. induction l as [|[n v] l IH]; intros r C; cbn [map] in C; inversion C as [|? [n' v'] ? ? E C']; subst; [reflexivity|]. cbn [map fst]. f_equal; [|now apply IH].
      unfold entry_de, entry_ser in E. cbn [fst snd] in E. apply bind_ok in E as (n2 & Hn & E). apply bind_ok in E as (v2 & _ & E). injection E as <- <-. now apply U. }
    rewrite (imap_of_nodup str_eqb str_eqb_eq) in H by (now rewrite Ek). subst r. apply collect_kept in C. eapply Forall_impl; [|exact C]. intros e E. now apply X.
  - intros [D F]. assert (C : collect (entry_de k c) (map (entry_ser k c) l) = Ok l).
    { apply collect_kept. eapply Forall_impl; [|exact F]. intros e E. now apply X. }
    rewrite C. cbn [map_ok]. now rewrite (imap_of_nodup str_eqb str_eqb_eq).
Qed.
Lemma smap_kept : forall {V : Set} (c : codec V) (l : list (str * V)),
  kept (smap identifier_c c) l <-> NoDup (map fst l) /\ Forall (fun e => matches IDENTIFIER_RE (fst e) /\ kept c (snd e)) l.
Proof.
  intros V c l. apply (map_kept identifier_c c l); [auto with codec|]. intros a b H. cbn [de identifier_c text_c ser from_string] in H. unfold identity in H.
  destruct (identifier_new a) as [t|] eqn:T; cbn [map_err] in H; [|discriminate]. injection H as <-. apply identifier_language in T. tauto.
Qed.
Definition services_kept {w : externals} (l : list (str * service w)) : Prop :=
  NoDup (map fst l) /\ Forall (fun e => matches IDENTIFIER_RE (fst e) /\ kept (service_c w) (snd e)) l.
Lemma services_field : forall w (l : list (str * service w)), nth_kept 3 (compose_ms w) l <-> services_kept l.
Proof.
  intros w l. unfold services_kept. rewrite <- smap_kept. cbn [nth_kept compose_ms]. unfold field_kept, kept. cbn [m_de m_ser required field lookup]. rewrite str_eqb_refl. reflexivity.
Qed.
Lemma compose_struct : forall w (v : vals (compose_ms w)) x, kept (compose_c w) (v, x) <-> fields_kept (compose_ms w) v /\ extensions_valid x.
Proof. intros w v x. apply (struct_kept (compose_ms w) v x); [apply compose_local|reflexivity|reflexivity]. Qed.

(** A file comes back exactly when each of its services and each of its other fields does. *)
Theorem compose_kept : forall w (c : compose w), load w (save w c) = Ok c <->
  services_kept (compose_services c) /\ (forall n, n <> 3%nat -> nth_kept n (compose_ms w) (nth_val n (compose_ms w) (fst c))) /\ extensions_valid (snd c).
Proof.
  intros w [v x]. change (load w (save w (v, x)) = Ok (v, x)) with (kept (compose_c w) (v, x)). rewrite compose_struct, fields_all, <- services_field. unfold compose_services. cbn [fst snd]. split.
  - intros [H X]. split; [exact (H 3%nat)|]. split; [intros n _; apply H|exact X].
  - intros (S & H & X). split; [|exact X]. intros n. destruct (Nat.eq_dec n 3) as [->|N]; [exact S|exact (H n N)].
Qed.
Print Assumptions compose_kept.

(** Other services may be put in a file which comes back exactly if each comes back. *)
Theorem compose_set_services : forall w (c : compose w) l, load w (save w c) = Ok c ->
  (load w (save w (set_services l c)) = Ok (set_services l c) <-> services_kept l).
Proof.
  intros w [v x] l K. change (load w (save w (v, x)) = Ok (v, x)) with (kept (compose_c w) (v, x)) in K. unfold set_services. cbn [fst snd].
  change (load w (save w ?a) = Ok ?a) with (kept (compose_c w) a). rewrite compose_struct in *. destruct K as [K X].
  rewrite (set_kept 3 (compose_ms w) l v K), services_field. split; [intros [H _]; exact H|intros H; split; assumption].
Qed.
Print Assumptions compose_set_services.

Lemma update_fst : forall w name (s : service w) l, map fst (update name s l) = map fst l.
Proof. intros w name s l. unfold update. rewrite map_map. apply map_ext. intros e. now destruct (str_eqb (fst e) name). Qed.
(** One field of one service. *)
Theorem compose_set_field : forall w (c : compose w) name s n x, load w (save w c) = Ok c -> In (name, s) (compose_services c) ->
  let c' := set_services (update name (set_field n x s) (compose_services c)) c in
  load w (save w c') = Ok c' <-> nth_kept n (service_ms w) x.
Proof.
  intros w c name s n x K J c'. assert (Q := compose_set_services w c (update name (set_field n x s) (compose_services c)) K). apply (iff_trans Q). clear Q c'.
  apply compose_kept in K as (S & _ & _). destruct S as [D F].
  assert (Ks : kept (service_c w) s) by (rewrite Forall_forall in F; exact (proj2 (F _ J))). assert (E := service_set w n x s Ks). apply (iff_trans (B := kept (service_c w) (set_field n x s))); [clear E|exact E].
  generalize (set_field n x s). intros s'. generalize dependent (compose_services c). intros l D F J.
  unfold services_kept. rewrite update_fst. split.
  - intros [_ G]. rewrite Forall_forall in G. apply (G (name, s')). unfold update. apply in_map_iff. exists (name, s). cbn [fst]. rewrite str_eqb_refl. split; [reflexivity|exact J].
  - intros G. split; [exact D|]. unfold update. apply Forall_map. eapply Forall_impl; [|exact F]. intros e [M E]. destruct (str_eqb (fst e) name); (split; [exact M|]); [exact G|exact E].
Qed.
Print Assumptions compose_set_field.

(** Setting a field changes this field of this service and nothing else. *)
Definition only_changed {w : externals} (c c' : compose w) (name : str) (s : service w) (n : nat) (x : nth_type n (service_ms w)) : Prop :=
  snd c' = snd c /\ (forall k, k <> 3%nat -> nth_val k (compose_ms w) (fst c') = nth_val k (compose_ms w) (fst c)) /\
  map fst (compose_services c') = map fst (compose_services c) /\
  (forall m t, m <> name -> (In (m, t) (compose_services c') <-> In (m, t) (compose_services c))) /\
  exists s', In (name, s') (compose_services c') /\ nth_val n (service_ms w) (fst s') = x /\
    (forall k, k <> n -> nth_val k (service_ms w) (fst s') = nth_val k (service_ms w) (fst s)) /\ snd s' = snd s.

Lemma nth_set_other : forall k n ms x v, k <> n -> nth_val k ms (set_val n ms x v) = nth_val k ms v.
Proof.
  induction k as [|k IH]; intros n [|m r] x v N; destruct n as [|n]; cbn [nth_val set_val fst snd]; try reflexivity; [now elim N|]. apply IH. congruence.
Qed.
Lemma nth_set_same : forall n ms x v, nth_val n ms (set_val n ms x v) = x.
Proof.
  induction n as [|n IH]; intros [|m r] x v; cbn [nth_val set_val fst snd nth_type] in *; [now destruct x|reflexivity|now destruct x|apply IH].
Qed.
Lemma set_changes : forall w (c : compose w) name s n x, In (name, s) (compose_services c) ->
  only_changed c (set_services (update name (set_field n x s) (compose_services c)) c) name s n x.
Proof.
  intros w c name s n x J. unfold only_changed. assert (E : compose_services (set_services (update name (set_field n x s) (compose_services c)) c) = update name (set_field n x s) (compose_services c)).
  { unfold compose_services at 1. unfold set_services. cbn [fst]. exact (nth_set_same 3 (compose_ms w) (update name (set_field n x s) (compose_services c)) (fst c)). }
  rewrite E. clear E. split; [reflexivity|]. split; [intros k N; exact (nth_set_other k 3 (compose_ms w) _ (fst c) N)|]. split; [apply update_fst|].
  generalize dependent (compose_services c). intros l J. split.
  - intros m t N. unfold update. rewrite in_map_iff. split.
    + intros ([m' t'] & E & I). cbn [fst] in E. destruct (str_eqb_spec m' name) as [M|M]; injection E as E1 E2; [elim N; congruence|]. rewrite <- E1, <- E2. exact I.
    + intros I. exists (m, t). cbn [fst]. destruct (str_eqb_spec m name) as [->|M]; [now elim N|]. split; [reflexivity|exact I].
  - exists (set_field n x s). split.
    + unfold update. apply in_map_iff. exists (name, s). cbn [fst]. rewrite str_eqb_refl. split; [reflexivity|exact J].
    + unfold set_field. cbn [fst snd]. split; [apply nth_set_same|]. split; [intros k N; now apply nth_set_other|reflexivity].
Qed.
(** So what is loaded after the change has the new value, and is the same everywhere else. *)
Theorem compose_set_reloads : forall w (c : compose w) name s n x, load w (save w c) = Ok c -> In (name, s) (compose_services c) -> nth_kept n (service_ms w) x ->
  exists c', load w (save w (set_services (update name (set_field n x s) (compose_services c)) c)) = Ok c' /\ only_changed c c' name s n x.
Proof.
  intros w c name s n x K J X. exists (set_services (update name (set_field n x s) (compose_services c)) c). split; [exact (proj2 (compose_set_field w c name s n x K J) X)|now apply set_changes].
Qed.
Print Assumptions compose_set_reloads.

(** Fields may be moved between files which come back. *)
Theorem compose_move_field : forall w (c d : compose w) name s name' t n,
  load w (save w c) = Ok c -> In (name, s) (compose_services c) -> load w (save w d) = Ok d -> In (name', t) (compose_services d) ->
  let c' := set_services (update name (set_field n (nth_val n (service_ms w) (fst t)) s) (compose_services c)) c in
  load w (save w c') = Ok c'.
Proof.
  intros w c d name s name' t n K J L H. apply (compose_set_field w c name s n _ K J). apply compose_kept in L as ([_ F] & _). rewrite Forall_forall in F.
  destruct (F _ H) as [_ T]. now apply service_kept in T.
Qed.
Print Assumptions compose_move_field.

(** ** Which values of a field come back *)

Lemma given_kept : forall name {A : Set} (c : codec A) (a : A), field_kept (given name c) (Some a) <-> kept c a.
Proof.
  intros name A c a. unfold field_kept, kept. cbn [m_de m_ser given field is_none ser some_c option_c lookup]. rewrite str_eqb_refl. cbn [bind de some_c]. destruct (de c (ser c a)) as [b|]; cbn [map_ok]; [|split; discriminate].
  split; intros H; injection H as ->; reflexivity.
Qed.
Lemma optional_kept : forall name {A : Set} (c : codec A) (a : A), ser c a <> VNull -> (field_kept (optional name c) (Some a) <-> kept c a).
Proof.
  intros name A c a N. unfold field_kept, kept. cbn [m_de m_ser optional field is_none ser option_c lookup]. rewrite str_eqb_refl. cbn [bind de option_c].
  assert (E : match ser c a with VNull => Ok None | _ => map_ok Some (de c (ser c a)) end = map_ok Some (de c (ser c a))) by (destruct (ser c a); congruence). rewrite E.
  destruct (de c (ser c a)) as [b|]; cbn [map_ok]; [|split; discriminate]. split; intros H; injection H as ->; reflexivity.
Qed.

(** Times are written in microseconds: a time with a fraction of one loses it. *)
Lemma whole_mod : forall d, whole_micros d = d <-> nanos d mod 1000 = 0.
Proof.
  intros [s n]. unfold whole_micros. cbn [secs nanos]. assert (E := N.div_mod n 1000). split.
  - intros H. injection H as H. lia.
  - intros H. f_equal. lia.
Qed.
Lemma duration_kept : forall d, duration_wf d -> (kept duration_c d <-> nanos d mod 1000 = 0).
Proof.
  intros d W. unfold kept. assert (R := g_rt _ duration_good d W). rewrite R, <- whole_mod. cbn [norm duration_c]. split; [intros H; now injection H|intros ->; reflexivity].
Qed.
Definition total_micros (d : duration) : N := secs d * 1000000 + nanos d / 1000.
Lemma duration_us_kept : forall d, duration_wf d -> (kept duration_us_c d <-> nanos d mod 1000 = 0 /\ total_micros d <= 18446744073709551615).
Proof.
  intros d W. unfold kept. rewrite <- whole_mod. destruct (N.le_gt_cases (total_micros d) 18446744073709551615) as [L|L].
  - assert (R := g_rt _ duration_us_good d (conj W L)). rewrite R. cbn [norm duration_us_c]. split; [intros H; injection H as H; auto|intros [-> _]; reflexivity].
  - split; [|intros [_ H]; exfalso; lia]. intros H. cbn [de ser duration_us_c] in H. destruct (int_to_uint U64_MAX (Z.of_N (as_micros d))) as [n|] eqn:E; cbn [map_ok] in H; [|discriminate].
    apply int_to_uint_ok in E as [E M]. unfold total_micros, as_micros, U64_MAX in *. exfalso. lia.
Qed.
(** [cpu_rt_runtime], [cpu_rt_period] and [stop_grace_period] are texts; [cpu_period] and [cpu_quota] are numbers, which also have to fit in 64 bits. *)
Theorem times_kept : forall w d, duration_wf d ->
  (nth_kept 8 (service_ms w) (Some d) <-> nanos d mod 1000 = 0) /\
  (nth_kept 9 (service_ms w) (Some d) <-> nanos d mod 1000 = 0) /\
  (nth_kept 71 (service_ms w) (Some d) <-> nanos d mod 1000 = 0) /\
  (nth_kept 6 (service_ms w) (Some d) <-> nanos d mod 1000 = 0 /\ total_micros d <= 18446744073709551615) /\
  (nth_kept 7 (service_ms w) (Some d) <-> nanos d mod 1000 = 0 /\ total_micros d <= 18446744073709551615).
Proof.
  intros w d W. assert (N : ser duration_us_c d <> VNull) by discriminate.
  split; [exact (iff_trans (given_kept $"cpu_rt_runtime" duration_c d) (duration_kept d W))|]. split; [exact (iff_trans (given_kept $"cpu_rt_period" duration_c d) (duration_kept d W))|]. split; [exact (iff_trans (given_kept $"stop_grace_period" duration_c d) (duration_kept d W))|].
  split; [exact (iff_trans (optional_kept $"cpu_period" duration_us_c d N) (duration_us_kept d W))|exact (iff_trans (optional_kept $"cpu_quota" duration_us_c d N) (duration_us_kept d W))].
Qed.
Print Assumptions times_kept.

(** The modes of [ipc]. *)
Theorem ipc_kept : forall w i, nth_kept 42 (service_ms w) (Some i) <-> ipc_canonical i.
Proof.
  intros w i. rewrite <- ipc_round_trip. assert (N : ser ipc_c i <> VNull) by discriminate. apply (iff_trans (optional_kept $"ipc" ipc_c i N)). unfold kept, ipc_c. cbn [de ser text_c from_string].
  destruct (ipc_parse (ipc_show i)); cbn [map_err]; split; intros H; first [discriminate|injection H as ->; reflexivity].
Qed.
Print Assumptions ipc_kept.

(** Values in a map: a number is written as a number, and one which is not negative is read as an unsigned one. *)
Definition number_valid (n : number) : Prop :=
  match n with UnsignedInt n => n <= 18446744073709551615 | SignedInt z => (-9223372036854775808 <= z <= 9223372036854775807)%Z | Float _ => True end.
Definition value_valid (v : value) : Prop := match v with VNumber n => number_valid n | _ => True end.
Definition value_kept (v : value) : Prop := match v with VNumber (SignedInt z) => (z < 0)%Z | _ => True end.
Lemma value_back : forall v, value_valid v -> (kept value_c v <-> value_kept v).
Proof.
  intros v V. assert (W : wf value_c v) by (destruct v as [s|[n|z|b]|b]; exact V). unfold kept. rewrite (g_rt _ value_good v W). cbn [norm value_c].
  destruct v as [s|[n|z|b]|b]; cbn [norm number_c number_norm value_kept]; try (split; intros; [exact I|reflexivity]).
  destruct (Z.leb_spec 0 z); (split; intros H'; [|]); [discriminate|exfalso; lia|lia|reflexivity].
Qed.
(** A key is one line of text which is not empty. *)
Definition key_valid (k : str) : Prop := k <> [] /\ ~ In 10 k.
Definition list_or_map_valid (x : list_or_map) : Prop :=
  match x with
  | LList l => NoDup l
  | LMap m => NoDup (map fst m) /\ forall k o, In (k, o) m -> key_valid k /\ (forall v, o = Some v -> value_valid v)
  end.
Definition list_or_map_kept (x : list_or_map) : Prop :=
  match x with LList _ => True | LMap m => m <> [] /\ forall k v, In (k, Some v) m -> value_kept v end.
Lemma option_value_back : forall o, (forall v, o = Some v -> value_valid v) -> (kept (option_c value_c) o <-> forall v, o = Some v -> value_kept v).
Proof.
  intros [v|] V; [|split; [discriminate|reflexivity]]. specialize (V v eq_refl). assert (B := value_back v V). unfold kept in *. cbn [ser de option_c].
  assert (E : match ser value_c v with VNull => Ok None | _ => map_ok Some (de value_c (ser value_c v)) end = map_ok Some (de value_c (ser value_c v))) by (destruct v as [s|[n|z|b]|b]; reflexivity).
  rewrite E. split.
  - intros H u U. injection U as <-. apply B. destruct (de value_c (ser value_c v)); [now injection H as ->|discriminate].
  - intros H. rewrite (proj2 B (H v eq_refl)). reflexivity.
Qed.
Lemma list_or_map_back : forall name x, list_or_map_valid x -> (field_kept (list_or_map_field name) x <-> list_or_map_kept x).
Proof.
  intros name x V. unfold field_kept. cbn [m_de m_ser list_or_map_field field]. destruct (list_or_map_empty x) eqn:Ee.
  - cbn [lookup bind]. destruct x as [[|a l]|[|a m]]; try discriminate; cbn [list_or_map_kept]; split; try (intros; exact I); try reflexivity; [discriminate|intros [N _]; now elim N].
  - cbn [lookup]. rewrite str_eqb_refl. cbn [bind]. destruct x as [l|m].
    + split; [intros _; exact I|]. intros _. assert (W : wf list_or_map_c (LList l)).
      { split; [apply Forall_forall; intros; exact I|]. now apply (distinct_NoDup str_eqb l str_eqb_eq). }
      exact (g_rt _ list_or_map_good (LList l) W).
    + destruct V as [D V]. assert (K : kept vmap_c m <-> forall k v, In (k, Some v) m -> value_kept v).
      { unfold vmap_c. rewrite map_kept; [|auto with codec|]; [split|].
        - intros [_ F] k v J. rewrite Forall_forall in F. destruct (F _ J) as [_ E]. cbn [snd] in E. exact (proj1 (option_value_back (Some v) (proj2 (V _ _ J))) E v eq_refl).
        - intros H. split; [exact D|]. apply Forall_forall. intros [k o] J. destruct (V _ _ J) as [Vk Vo]. split; [exact Vk|]. cbn [snd]. apply (proj2 (option_value_back o Vo)). intros v ->. exact (H k v J).
        - intros a b H. cbn [de map_key_c text_c ser from_string] in H. unfold identity in H. unfold map_key_new in H. destruct a; [discriminate|]. destruct (contains _ _) in H; [discriminate|]. now injection H. }
      cbn [list_or_map_kept]. rewrite <- K. cbn [ser de list_or_map_c]. unfold kept. change (ser vmap_c m) with (VMap (map (entry_ser map_key_c (option_c value_c)) m)).
      cbv iota. change (VMap (map (entry_ser map_key_c (option_c value_c)) m)) with (ser vmap_c m). assert (N : m <> []) by (intros ->; discriminate).
      destruct (de vmap_c (ser vmap_c m)) as [u|]; cbn [map_ok]; (split; [intros H|intros [_ H]]); try discriminate; injection H as ->; auto.
Qed.
(** [environment], [annotations], [labels] and [sysctls]. *)
Theorem maps_kept : forall w x, list_or_map_valid x ->
  (nth_kept 31 (service_ms w) x <-> list_or_map_kept x) /\ (nth_kept 34 (service_ms w) x <-> list_or_map_kept x) /\
  (nth_kept 45 (service_ms w) x <-> list_or_map_kept x) /\ (nth_kept 74 (service_ms w) x <-> list_or_map_kept x).
Proof.
  intros w x V. split; [exact (list_or_map_back $"environment" x V)|]. split; [exact (list_or_map_back $"annotations" x V)|].
  split; [exact (list_or_map_back $"labels" x V)|exact (list_or_map_back $"sysctls" x V)].
Qed.
Print Assumptions maps_kept.

(** Sets come back when each element does. *)
Lemma iset_insert_grow : forall {A : Type} (eqb : A -> A -> bool) l x, (List.length (iset_insert eqb l x) <= S (List.length l))%nat /\ (List.length (iset_insert eqb l x) = S (List.length l) -> iset_insert eqb l x = l ++ [x]).
Proof. intros A eqb l x. unfold iset_insert. destruct (existsb _ l); [split; [lia|intros H; exfalso; lia]|]. rewrite app_length. cbn [List.length]. split; [lia|reflexivity]. Qed.
Lemma iset_fold_grow : forall {A : Type} (eqb : A -> A -> bool) r l, (List.length (fold_left (iset_insert eqb) r l) <= List.length l + List.length r)%nat /\
  (List.length (fold_left (iset_insert eqb) r l) = List.length l + List.length r -> fold_left (iset_insert eqb) r l = l ++ r)%nat.
Proof.
  intros A eqb r. induction r as [|x r IH]; intros l; cbn [fold_left List.length]; [rewrite app_nil_r; split; [lia|reflexivity]|].
  destruct (iset_insert_grow eqb l x) as [G1 G2]. destruct (IH (iset_insert eqb l x)) as [I1 I2]. split; [lia|]. intros H.
  assert (L : List.length (iset_insert eqb l x) = S (List.length l)) by lia. rewrite I2 by lia. rewrite (G2 L), <- app_assoc. reflexivity.
Qed.
Lemma iset_kept : forall {A : Set} (eqb : A -> A -> bool) (c : codec A) l, distinct eqb l -> (kept (iset_c eqb c) l <-> Forall (kept c) l).
Proof.
  intros A eqb c l D. unfold kept. cbn [ser de iset_c]. split.
  - intros H. destruct (collect (de c) (map (ser c) l)) as [r|] eqn:C; cbn [map_ok] in H; [|discriminate]. injection H as H.
    assert (L : List.length r = List.length l). { apply collect_ok in C. clear H D. revert r C. induction l as [|a l IH]; intros r C; cbn [map] in C; inversion C; subst; cbn [List.length]; auto. }
    destruct (iset_fold_grow eqb r []) as [_ G]. unfold iset_of in H. rewrite H in G. cbn [List.length app Nat.add] in G. rewrite (G (eq_sym L)) in *. now apply collect_kept in C.
  - intros F. rewrite (proj2 (collect_kept (ser c) (de c) l) F). cbn [map_ok]. now rewrite iset_of_distinct.
Qed.
Lemma many_kept : forall name {A : Set} (c : codec (list A)) l, l <> [] -> (field_kept (many name c) l <-> kept c l).
Proof.
  intros name A c [|a l] N; [now elim N|]. unfold field_kept, kept. cbn [m_de m_ser many field is_nil lookup]. rewrite str_eqb_refl. reflexivity.
Qed.
Lemma volumes_from_eqb_eq : forall a b, volumes_from_eqb a b = true <-> a = b.
Proof.
  intros [[a|a] p] [[b|b] q]; unfold volumes_from_eqb; cbn; rewrite ?andb_true_iff, ?str_eqb_eq, ?eqb_true_iff; split; intros H; try discriminate; try (destruct H; congruence); try (injection H as -> ->; auto).
Qed.
Lemma volumes_from_distinct : forall l, NoDup l -> distinct volumes_from_eqb l.
Proof. intros l D. apply (distinct_NoDup volumes_from_eqb l volumes_from_eqb_eq). exact D. Qed.
(** [volumes_from]: no container called [ro] or [rw] is mounted read-write. *)
Theorem volumes_from_kept : forall w l, NoDup l -> (forall v, In v l -> source_ok (vf_source v)) ->
  (nth_kept 81 (service_ms w) l <-> forall v, In v l -> vf_read_only v = false -> suffix_free (vf_source v)).
Proof.
  intros w l D S. destruct l as [|a l]; [split; [intros _ v []|reflexivity]|]. assert (N : a :: l <> []) by discriminate.
  apply (iff_trans (many_kept $"volumes_from" (iset_c volumes_from_eqb volumes_from_c) (a :: l) N)). rewrite (iset_kept volumes_from_eqb volumes_from_c (a :: l) (volumes_from_distinct _ D)).
  rewrite Forall_forall. assert (K : forall v, kept volumes_from_c v <-> volumes_from_parse (volumes_from_show v) = Ok v).
  { intros v. unfold kept, volumes_from_c. cbn [de ser text_c from_string]. destruct (volumes_from_parse (volumes_from_show v)); cbn [map_err]; split; intros H; first [discriminate|injection H as ->; reflexivity]. }
  split; intros H v J; specialize (H v J).
  - apply K in H. exact (proj1 (volumes_from_round_trip v (S v J)) H).
  - apply K. exact (proj2 (volumes_from_round_trip v (S v J)) H).
Qed.
Print Assumptions volumes_from_kept.

(** ** Files which were loaded *)

Theorem loaded_set_field : forall w v c name s n x, externals_ok w -> no_empty v ->
  ~ compose_texts v $"container:ro:rw" -> ~ compose_texts v $"container:rw:rw" -> load w v = Ok c -> In (name, s) (compose_services c) ->
  let c' := set_services (update name (set_field n x s) (compose_services c)) c in
  load w (save w c') = Ok c' <-> nth_kept n (service_ms w) x.
Proof.
  intros w v c name s n x O E N1 N2 H J. assert (K := compose_reload_partial w v c O E N1 N2 H). exact (compose_set_field w c name s n x K J).
Qed.
Print Assumptions loaded_set_field.

(** Not everything that can be set comes back. With a grace period of 1.5 microseconds the half is lost; a period of the greatest [Duration] is
    written as a number which cannot be read, so the whole file cannot; and [Number::SignedInt(5)] comes back as [Number::UnsignedInt(5)]. *)
Definition edited (w : externals) (n : nat) (x : nth_type n (service_ms w)) : option (sval * result de_error (list (nth_type n (service_ms w)))) :=
  match load w (file [(VStr $"web", VMap [])] []) with
  | Ok c => match compose_services c with
            | [(name, s)] =>
                let c' := set_services (update name (set_field n x s) (compose_services c)) c in
                Some (save w c', map_ok (fun c'' => map (fun e => nth_val n (service_ms w) (fst (snd e))) (compose_services c'')) (load w (save w c')))
            | _ => None
            end
  | Err _ => None
  end.
Theorem api_values_kept_refuted : forall w,
  edited w 71 (Some (mk_duration 0 1500)) = Some (file [(VStr $"web", VMap [(VStr $"stop_grace_period", VStr $"1us")])] [], Ok [Some (mk_duration 0 1000)]) /\
  edited w 6 (Some (mk_duration 18446744073709551615 999999999)) =
    Some (file [(VStr $"web", VMap [(VStr $"cpu_period", VInt 18446744073709551615999999)])] [], Err DeError) /\
  edited w 31 (LMap [($"A", Some (VNumber (SignedInt 5)))]) =
    Some (file [(VStr $"web", VMap [(VStr $"environment", VMap [(VStr $"A", VInt 5)])])] [], Ok [LMap [($"A", Some (VNumber (UnsignedInt 5)))]]) /\
  edited w 31 (LMap []) = Some (file [(VStr $"web", VMap [])] [], Ok [LList []]) /\
  edited w 42 (Some (IpcOther $"shareable")) = Some (file [(VStr $"web", VMap [(VStr $"ipc", VStr $"shareable")])] [], Ok [Some IpcShareable]).
Proof. intros w. repeat split; vm_compute; reflexivity. Qed.
Print Assumptions api_values_kept_refuted.

Example edited_example : edited w0 71 (Some (mk_duration 3 5000)) =
  Some (file [(VStr $"web", VMap [(VStr $"stop_grace_period", VStr $"3s5us")])] [], Ok [Some (mk_duration 3 5000)]).
Proof. vm_compute. reflexivity. Qed.
Example set_field_example : exists c s, load w0 sample = Ok c /\ In ($"web", s) (compose_services c) /\
  let c' := set_services (update $"web" (set_field 71 (Some (mk_duration 3 5000) : nth_type 71 (service_ms w0)) s) (compose_services c)) c in
  load w0 (save w0 c') = Ok c'.
Proof.
  destruct (accepted_ok (load w0 sample)) as [c H]; [vm_compute; reflexivity|].
  assert (K : map fst (compose_services c) = [$"db"; $"web"]).
  { assert (X : map_ok (fun c => map fst (compose_services c)) (load w0 sample) = Ok [$"db"; $"web"]) by (vm_compute; reflexivity). rewrite H in X. cbn [map_ok] in X. now injection X. }
  assert (S : exists s, In ($"web", s) (compose_services c)).
  { assert (I : In $"web" (map fst (compose_services c))) by (rewrite K; right; left; reflexivity). apply in_map_iff in I as ([n s] & E & I). cbn [fst] in E. subst n. exists s. exact I. }
  destruct S as [s J]. exists c, s. split; [exact H|]. split; [exact J|]. cbv zeta. assert (N : no_empty sample) by (apply full_no_empty; reflexivity).
  apply (loaded_set_field w0 sample c $"web" s 71 (Some (mk_duration 3 5000)) w0_ok N); [apply compose_has_texts; reflexivity|apply compose_has_texts; reflexivity|exact H|exact J|].
  assert (W : duration_wf (mk_duration 3 5000)) by (split; vm_compute; [discriminate|reflexivity]). destruct (times_kept w0 _ W) as (_ & _ & T & _). apply (proj2 T). reflexivity.
Qed.
