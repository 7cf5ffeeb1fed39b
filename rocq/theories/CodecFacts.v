(** The combinators of [Codec.v] preserve three facts about a codec: a well-formed value [a] reads back as
    [norm a] ([rt]), whatever is read is well-formed ([sound]), and [norm] does not change what is written
    ([settled]). *)

From Coq Require Import String Ascii List NArith ZArith Bool Lia ZifyBool ZifyN ZifyNat.
Import ListNotations.
From Verif Require Import Base BaseFacts Num NumFacts Coll CollFacts KeysModel Serde Codec.
Open Scope N_scope.

(** Reading back what was written. *)
Definition rt {A : Set} (c : codec A) : Prop := forall a, wf c a -> de c (ser c a) = Ok (norm c a).
(** Reading only gives well-formed values. *)
Definition sound {A : Set} (c : codec A) : Prop := forall v a, de c v = Ok a -> wf c a.
(** The value which is read back is written in the same way. *)
Definition settled {A : Set} (c : codec A) : Prop := forall a, wf c a -> ser c (norm c a) = ser c a.
Record good {A : Set} (c : codec A) : Prop := mk_good { g_rt : rt c; g_sound : sound c; g_settled : settled c }.
(** The same where only values satisfying [P] are known to be well-formed when they are read. *)
Definition sound_if {A : Set} (P : A -> Prop) (c : codec A) : Prop := forall v a, de c v = Ok a -> P a -> wf c a.
Record good_if {A : Set} (P : A -> Prop) (c : codec A) : Prop := mk_good_if { gi_rt : rt c; gi_sound : sound_if P c; gi_settled : settled c }.
(** Nothing is normalised. *)
Definition plain {A : Set} (c : codec A) : Prop := forall a, norm c a = a.
(** Nothing is written as a null. *)
Definition not_null {A : Set} (c : codec A) : Prop := forall a, wf c a -> ser c a <> VNull.

Lemma norm_wf : forall {A : Set} (c : codec A) a, good c -> wf c a -> wf c (norm c a).
Proof. intros A c a [R S _] W. exact (S _ _ (R a W)). Qed.
Lemma norm_norm : forall {A : Set} (c : codec A) a, good c -> wf c a -> norm c (norm c a) = norm c a.
Proof.
  intros A c a G W. assert (H := g_rt c G (norm c a) (norm_wf c a G W)). rewrite (g_settled c G a W), (g_rt c G a W) in H.
  congruence.
Qed.

(** Most codecs normalise nothing. *)
Lemma plain_good : forall {A : Set} (c : codec A), plain c -> (forall a, wf c a -> de c (ser c a) = Ok a) -> sound c -> good c.
Proof.
  intros A c P R S. split; [|exact S|].
  - intros a W. rewrite (P a). exact (R a W).
  - intros a _. now rewrite (P a).
Qed.
Lemma plain_rt : forall {A : Set} (c : codec A) a, plain c -> good c -> wf c a -> de c (ser c a) = Ok a.
Proof. intros A c a P G W. rewrite (g_rt c G a W). now rewrite (P a). Qed.

(** ** Scalars *)

Lemma string_good : good string_c.
Proof. apply plain_good; [intros a; reflexivity|intros a _; reflexivity|intros v a _; exact I]. Qed.
Lemma bool_good : good bool_c.
Proof. apply plain_good; [intros a; reflexivity|intros a _; reflexivity|intros v a _; exact I]. Qed.
Lemma yaml_good : good yaml_c.
Proof.
  apply plain_good; [intros a; reflexivity| |]; cbn [de ser wf yaml_c].
  - intros a W. now rewrite W.
  - intros v a. cbn [de wf yaml_c]. destruct (yaml_ok v) eqn:E; [|discriminate]. intros H. injection H as <-. exact E.
Qed.

Lemma uint_good : forall m, good (uint_c m).
Proof.
  intros m; apply plain_good; [intros a; reflexivity| |].
  - intros n H. cbn [wf uint_c] in H. cbn [de ser uint_c]. unfold int_to_uint.
    replace ((0 <=? Z.of_N n)%Z && (Z.of_N n <=? Z.of_N m)%Z) with true by lia. now rewrite N2Z.id.
  - intros v a. cbn [de wf uint_c]. destruct v; try discriminate. unfold int_to_uint.
    destruct ((0 <=? z)%Z && (z <=? Z.of_N m)%Z) eqn:E; [|discriminate]. intros H. injection H as <-. lia.
Qed.

Lemma text_good : forall {E} {A : Set} (show : A -> str) (parse : str -> result E A) (inv : A -> Prop),
  (forall a, inv a -> parse (show a) = Ok a) -> (forall s a, parse s = Ok a -> inv a) -> good (text_c show parse inv).
Proof.
  intros E A show parse inv R S; apply plain_good; [intros a; reflexivity| |].
  - intros a H. cbn [de ser text_c]. unfold from_string. now rewrite R.
  - intros v a. cbn [de wf text_c]. unfold from_string. destruct v; try discriminate.
    intros H. apply (S s). destruct (parse s); cbn in H; congruence.
Qed.

Lemma enum_good : forall {A : Set} eqb (t : enum_table A), (forall a, enum_find t (enum_name eqb t a) = Ok a) -> good (enum_c eqb t).
Proof. intros A eqb t R; apply plain_good; [intros a; reflexivity|intros a _; apply R|intros v a _; exact I]. Qed.

Lemma string_nn : not_null string_c. Proof. intros a _; discriminate. Qed.
Lemma bool_nn : not_null bool_c. Proof. intros a _; discriminate. Qed.
Lemma uint_nn : forall m, not_null (uint_c m). Proof. intros m a _; discriminate. Qed.
Lemma text_nn : forall {E} {A : Set} (show : A -> str) (parse : str -> result E A) inv, not_null (text_c show parse inv).
Proof. intros; intros a _; discriminate. Qed.
Lemma enum_nn : forall {A : Set} eqb (t : enum_table A), not_null (enum_c eqb t). Proof. intros; intros a _; discriminate. Qed.

(** ** Containers *)

Lemma option_good : forall {A : Set} (c : codec A), good c -> not_null c -> good (option_c c).
Proof.
  intros A c [R S T] N; split.
  - intros [a|] H; [|reflexivity]. cbn [wf option_c] in H. cbn [ser de option_c norm option_map].
    specialize (N a H). specialize (R a H). destruct (ser c a); try (now rewrite R). now elim N.
  - intros v o. cbn [de wf option_c]. destruct o as [a|]; [|exact (fun _ => I)].
    intros H. apply (S v). destruct v; try discriminate; unfold map_ok in H; destruct (de c _); congruence.
  - intros [a|] H; [|reflexivity]. exact (T a H).
Qed.

Lemma collect_map_rt : forall {A B E} (f : B -> result E A) (g : A -> B) (h : A -> A) (P : A -> Prop) l,
  (forall a, P a -> f (g a) = Ok (h a)) -> Forall P l -> collect f (map g l) = Ok (map h l).
Proof.
  intros A B E f g h P l R H. induction H as [|a l Ha Hl IH]; [reflexivity|].
  cbn [map collect]. rewrite (R a Ha). cbn [bind]. now rewrite IH.
Qed.

Lemma collect_sound : forall {A B E} (f : B -> result E A) (P : A -> Prop) l r,
  (forall b a, f b = Ok a -> P a) -> collect f l = Ok r -> Forall P r.
Proof.
  intros A B E f P l r S H. apply collect_ok in H. induction H; constructor; eauto.
Qed.

Lemma list_good : forall {A : Set} (c : codec A), good c -> good (list_c c).
Proof.
  intros A c [R S T]; split.
  - intros l H. cbn [ser de list_c norm]. now apply (collect_map_rt _ _ _ (wf c)).
  - intros v l H. cbn [de wf list_c] in *. destruct v; try discriminate. now apply (collect_sound _ _ _ _ S) in H.
  - intros l H. cbn [ser norm list_c wf] in *. f_equal. rewrite map_map. apply map_ext_Forall.
    eapply Forall_impl; [|exact H]. exact T.
Qed.
Lemma list_nn : forall {A : Set} (c : codec A), not_null (list_c c). Proof. intros A c a _; discriminate. Qed.

(** Sets. *)
Lemma distinct_snoc : forall {A} (eqb : A -> A -> bool) l x, distinct eqb (l ++ [x]) <-> distinct eqb l /\ existsb (eqb x) l = false.
Proof.
  intros A eqb l x. unfold distinct. induction l as [|y l IH]; cbn [app existsb].
  - split; [intros _; split; [constructor|reflexivity]|]. intros _. constructor; constructor.
  - split.
    + intros H. inversion H as [|? ? F R]; subst. apply IH in R as [R1 R2]. apply Forall_app in F as [F1 F2].
      inversion F2 as [|? ? F3 _]; subst. split; [now constructor|]. now rewrite F3, R2.
    + intros [H E]. inversion H as [|? ? F R]; subst. apply orb_false_iff in E as [E1 E2].
      constructor; [|now apply IH]. apply Forall_app; split; [assumption|]. constructor; [exact E1|constructor].
Qed.
Lemma distinct_app : forall {A} (eqb : A -> A -> bool) l r, distinct eqb (l ++ r) -> distinct eqb l.
Proof.
  intros A eqb l r. revert l. induction r as [|x r IH]; intros l H; [now rewrite app_nil_r in H|].
  change (x :: r) with ([x] ++ r) in H. rewrite app_assoc in H. apply IH in H. now apply distinct_snoc in H.
Qed.
Lemma iset_of_distinct : forall {A} (eqb : A -> A -> bool) l, distinct eqb l -> iset_of eqb l = l.
Proof.
  intros A eqb l. unfold iset_of. assert (H : forall acc, distinct eqb (acc ++ l) -> fold_left (iset_insert eqb) l acc = acc ++ l); [|apply (H [])].
  induction l as [|x l IH]; intros acc H; cbn [fold_left]; [now rewrite app_nil_r|].
  change (x :: l) with ([x] ++ l) in *. rewrite app_assoc in *.
  assert (D := distinct_app _ _ _ H). apply distinct_snoc in D as [_ D]. unfold iset_insert. rewrite D. now apply IH.
Qed.
Lemma iset_of_is_distinct : forall {A} (eqb : A -> A -> bool) l, distinct eqb (iset_of eqb l) /\ (forall x, In x (iset_of eqb l) -> In x l).
Proof.
  intros A eqb l. unfold iset_of.
  assert (H : forall acc, distinct eqb acc ->
    distinct eqb (fold_left (iset_insert eqb) l acc) /\ (forall x, In x (fold_left (iset_insert eqb) l acc) -> In x acc \/ In x l)).
  { induction l as [|x l IH]; intros acc H; cbn [fold_left]; [auto|].
    destruct (IH (iset_insert eqb acc x)) as [I1 I2].
    - unfold iset_insert. destruct (existsb (eqb x) acc) eqn:E; [assumption|]. now apply distinct_snoc.
    - split; [assumption|]. intros y Hy. apply I2 in Hy as [Hy|Hy]; [|right; now right].
      unfold iset_insert in Hy. destruct (existsb (eqb x) acc); [now left|]. apply in_app_or in Hy as [Hy|[<-|[]]]; [now left|right; now left]. }
  destruct (H []) as [H1 H2]; [constructor|]. split; [assumption|]. intros x Hx. now apply H2 in Hx as [[]|Hx].
Qed.
(** With a true equality the elements are different. *)
Lemma distinct_NoDup : forall {A} (eqb : A -> A -> bool) l, (forall a b, eqb a b = true <-> a = b) -> (distinct eqb l <-> NoDup l).
Proof.
  intros A eqb l E. unfold distinct. induction l as [|x l IH]; [split; constructor|]. split; intros H; inversion H; subst.
  - constructor; [|now apply IH]. intros I. rewrite Forall_forall in H2. specialize (H2 x I). assert (eqb x x = true) by now apply E. congruence.
  - constructor; [|now apply IH]. rewrite Forall_forall. intros y I. destruct (eqb y x) eqn:X; [|reflexivity]. apply E in X. now subst.
Qed.

Lemma iset_good : forall {A : Set} eqb (c : codec A), plain c -> good c -> good (iset_c eqb c).
Proof.
  intros A eqb c P [R S _]; apply plain_good; [intros a; reflexivity| |].
  - intros l [H D]. cbn [ser de iset_c]. rewrite (collect_map_rt _ _ (fun a => a) (wf c)); [|intros a W; rewrite (R a W); now rewrite (P a)|assumption].
    cbn [map_ok]. rewrite map_id. now rewrite (iset_of_distinct eqb).
  - intros v l H. cbn [de wf iset_c] in *. destruct v; try discriminate.
    destruct (collect (de c) l0) as [r|] eqn:C; cbn [map_ok] in H; [|discriminate]. injection H as <-.
    apply (collect_sound _ _ _ _ S) in C. destruct (iset_of_is_distinct eqb r) as [I1 I2]. split; [|assumption].
    rewrite Forall_forall in *. intros x Hx. apply C. now apply I2.
Qed.
Lemma iset_nn : forall {A : Set} eqb (c : codec A), not_null (iset_c eqb c). Proof. intros A eqb c a _; discriminate. Qed.

Lemma imap_good : forall {K V : Set} eqb (k : codec K) (v : codec V),
  (forall a b, eqb a b = true <-> a = b) -> plain k -> good k -> good v -> good (imap_c eqb k v).
Proof.
  intros K V eqb k v E P [Rk Sk _] [Rv Sv Tv]; split.
  - intros m [H D]. cbn [ser de imap_c norm].
    rewrite (collect_map_rt _ _ (fun e => (fst e, norm v (snd e))) (fun e => wf k (fst e) /\ wf v (snd e))); [| |assumption].
    + cbn [map_ok]. rewrite (imap_of_nodup eqb E); [reflexivity|]. rewrite map_map. exact D.
    + intros [a b] [Ha Hb]. unfold entry_de, entry_ser. cbn [fst snd] in *. rewrite (Rk a Ha), (Rv b Hb), (P a). reflexivity.
  - intros x m H. cbn [de wf imap_c] in *. destruct x; try discriminate.
    destruct (collect (entry_de k v) l) as [r|] eqn:C; cbn [map_ok] in H; [|discriminate]. injection H as <-.
    apply (collect_sound _ (fun e => wf k (fst e) /\ wf v (snd e))) in C.
    + split; [|apply (imap_of_NoDup eqb E)]. rewrite Forall_forall in *. intros p Hp. apply C. now apply (imap_of_sub eqb) in Hp.
    + intros [a b] [a' b']. unfold entry_de. cbn [fst snd].
      destruct (de k a) eqn:Ea; cbn [bind]; [|discriminate]. destruct (de v b) eqn:Eb; cbn [bind]; [|discriminate].
      intros X. injection X as <- <-. split; [exact (Sk _ _ Ea)|exact (Sv _ _ Eb)].
  - intros m [H D]. cbn [ser norm imap_c]. f_equal. rewrite map_map. apply map_ext_Forall.
    eapply Forall_impl; [|exact H]. intros [a b] [_ Hb]. unfold entry_ser. cbn [fst snd] in *. now rewrite (Tv b Hb).
Qed.
Lemma imap_nn : forall {K V : Set} eqb (k : codec K) (v : codec V), not_null (imap_c eqb k v).
Proof. intros K V eqb k v a _; discriminate. Qed.

(** A record as the tuple of its fields. *)
Lemma iso_good : forall {A B : Set} (c : codec A) (write : B -> A) make, good c -> (forall a, write (make a) = a) -> good (iso c write make).
Proof.
  intros A B c write make [R S T] W; split.
  - intros b H. cbn [ser de iso norm]. rewrite (R _ H). reflexivity.
  - intros v b. cbn [de wf iso]. destruct (de c v) as [a|] eqn:E; cbn [map_ok]; [|discriminate].
    intros H. injection H as <-. rewrite W. exact (S _ _ E).
  - intros b H. cbn [ser iso norm]. rewrite W. exact (T _ H).
Qed.
Lemma iso_plain : forall {A B : Set} (c : codec A) (write : B -> A) make, plain c -> (forall b, make (write b) = b) -> plain (iso c write make).
Proof. intros A B c write make P M b. cbn [norm iso]. now rewrite (P (write b)). Qed.
Lemma iso_nn : forall {A B : Set} (c : codec A) (write : B -> A) make, not_null c -> not_null (iso c write make).
Proof. intros A B c write make N b H. cbn [ser iso]. now apply N. Qed.

(** ** Structs *)

(** The keys of [ks] do not occur. *)
Definition apart (ks : list str) (es : list (sval * sval)) : Prop := forall k, In k ks -> Forall (fun e => fst e <> VStr k) es.
Definition key_in (ks : list str) (e : sval * sval) : Prop := exists k, fst e = VStr k /\ In k ks.

(** What a member has to satisfy: it writes entries with its own names, reads them back whatever entries with
    other names are around them, gives well-formed values only, and normalising does not change what is
    written. *)
Record member_back (m : member) : Prop := mk_member_back {
  mb_keys : forall a, Forall (key_in (m_names m)) (m_ser m a);
  mb_rt : forall a pre post, m_wf m a -> apart (m_names m) pre -> apart (m_names m) post ->
    m_de m (pre ++ m_ser m a ++ post) = Ok (m_norm m a);
  mb_settled : forall a, m_wf m a -> m_ser m (m_norm m a) = m_ser m a }.
Record member_good (m : member) : Prop := mk_member_good {
  mg_back : member_back m;
  mg_sound : forall es a, m_de m es = Ok a -> m_wf m a }.
Lemma good_back : forall ms, Forall member_good ms -> Forall member_back ms.
Proof. intros ms G. eapply Forall_impl; [|exact G]. exact mg_back. Qed.
Definition member_plain (m : member) : Prop := forall a, m_norm m a = a.

Lemma lookup_absent : forall k es, Forall (fun e => fst e <> VStr k) es -> lookup k es = Ok None.
Proof.
  intros k es H. induction H as [|[x v] es Hx _ IH]; [reflexivity|]. cbn [fst] in Hx. cbn [lookup].
  destruct x; auto. destruct (str_eqb_spec k s); [congruence|auto].
Qed.

Lemma lookup_app : forall k a b, Forall (fun e => fst e <> VStr k) a -> lookup k (a ++ b) = lookup k b.
Proof.
  intros k a b H. induction H as [|[x v] es Hx _ IH]; [reflexivity|]. cbn [fst] in Hx. cbn [lookup app].
  destruct x; auto. destruct (str_eqb_spec k s); [congruence|auto].
Qed.

Lemma key_in_apart : forall ks ks' es, (forall k, In k ks -> ~ In k ks') -> Forall (key_in ks') es -> apart ks es.
Proof.
  intros ks ks' es N H k I. eapply Forall_impl; [|exact H]. intros e (j & E & J) X. rewrite E in X. injection X as ->. now apply (N k).
Qed.
Lemma apart_app : forall ks a b, apart ks a -> apart ks b -> apart ks (a ++ b).
Proof. intros ks a b A B k I. apply Forall_app; auto. Qed.
Lemma apart_sub : forall ks ks' es, (forall k, In k ks -> In k ks') -> apart ks' es -> apart ks es.
Proof. intros ks ks' es S A k I. auto. Qed.
Lemma apart_nil : forall ks, apart ks []. Proof. intros ks k I. constructor. Qed.

(** A field: a value which may be skipped has a default which is also skipped, and normalising does not make a
    value skipped. *)
Lemma field_back : forall n {A : Set} (c : codec A) default skip,
  (forall a, wf c a -> skip a = false -> de c (ser c a) = Ok (norm c a) /\ ser c (norm c a) = ser c a /\ skip (norm c a) = false) ->
  (forall a, skip a = true -> exists d, default = Some d /\ skip d = true) -> member_back (field n c default skip).
Proof.
  intros n A c default skip R K. split; cbn [m_names m_ser m_de m_wf m_norm m_type field].
  - intros a. destruct (skip a); constructor; [|constructor]. exists n. split; [reflexivity|now left].
  - intros a pre post W Hpre Hpost.
    assert (L : lookup n (pre ++ (if skip a then [] else [(VStr n, ser c a)]) ++ post)
              = Ok (if skip a then None else Some (ser c a))).
    { rewrite lookup_app by (apply Hpre; now left).
      assert (T : lookup n post = Ok None) by (apply lookup_absent, Hpost; now left).
      destruct (skip a); [exact T|]. cbn [app lookup]. rewrite str_eqb_refl, T. reflexivity. }
    rewrite L. cbn [bind]. destruct (skip a) eqn:Ek; [destruct (K a Ek) as (d & -> & _); reflexivity|].
    now apply R.
  - intros a W. destruct (skip a) eqn:Ek.
    + destruct (K a Ek) as (d & -> & Hd). now rewrite Hd.
    + destruct (R a W Ek) as (_ & T & P). now rewrite P, T.
Qed.
Lemma field_good : forall n {A : Set} (c : codec A) default skip,
  (forall a, wf c a -> skip a = false -> de c (ser c a) = Ok (norm c a) /\ ser c (norm c a) = ser c a /\ skip (norm c a) = false) ->
  sound c ->
  (forall a, skip a = true -> exists d, default = Some d /\ skip d = true) ->
  (forall a, default = Some a -> wf c a) -> member_good (field n c default skip).
Proof.
  intros n A c default skip R S K D. split; [now apply field_back|]. cbn [m_names m_ser m_de m_wf m_norm m_type field].
  intros es a. destruct (lookup n es) as [[x|]|]; cbn [bind]; [apply S| |discriminate].
  destruct default eqn:Ed; [|discriminate]. intros H. injection H as ->. now apply D.
Qed.
Lemma field_good' : forall n {A : Set} (c : codec A) default skip, good c ->
  (forall a, wf c a -> skip a = false -> skip (norm c a) = false) ->
  (forall a, skip a = true -> exists d, default = Some d /\ skip d = true) ->
  (forall a, default = Some a -> wf c a) -> member_good (field n c default skip).
Proof.
  intros n A c default skip [R S T] P K D. apply field_good; auto.
Qed.

Lemma names_cons : forall m r, names (m :: r) = m_names m ++ names r. Proof. reflexivity. Qed.
Lemma NoDup_app_inv : forall {A} (a b : list A), NoDup (a ++ b) -> NoDup b /\ (forall x, In x a -> ~ In x b).
Proof.
  intros A a b. induction a as [|x a IH]; cbn [app]; intros H; [auto|]. inversion H as [|? ? N D]; subst.
  destruct (IH D) as [I1 I2]. split; [assumption|]. intros y [<-|I]; [|now apply I2]. intros J. apply N. apply in_or_app. now right.
Qed.

Lemma ser_members_keys : forall ms v, Forall member_back ms -> Forall (key_in (names ms)) (ser_members ms v).
Proof.
  induction ms as [|m r IH]; intros v G; [constructor|]. inversion G as [|? ? Gm Gr]; subst. cbn [ser_members]. rewrite names_cons.
  apply Forall_app; split.
  - eapply Forall_impl; [|apply (mb_keys m Gm)]. intros e (k & E & H). exists k. split; [assumption|]. apply in_or_app. now left.
  - eapply Forall_impl; [|apply IH; assumption]. intros e (k & E & H). exists k. split; [assumption|]. apply in_or_app. now right.
Qed.

Lemma de_members_ser : forall ms (v : vals ms) pre post,
  Forall member_back ms -> NoDup (names ms) -> wf_members ms v -> apart (names ms) pre -> apart (names ms) post ->
  de_members ms (pre ++ ser_members ms v ++ post) = Ok (norm_members ms v).
Proof.
  induction ms as [|m r IH]; intros v pre post G D W Hpre Hpost; [now destruct v|].
  destruct v as [a v]. inversion G as [|? ? Gm Gr]; subst. rewrite names_cons in *.
  apply NoDup_app_inv in D as [Dr Dx]. cbn [wf_members fst snd] in W. destruct W as [Wa Wv].
  cbn [de_members ser_members fst snd].
  rewrite <- (app_assoc (m_ser m a)). rewrite (mb_rt m Gm a pre (ser_members r v ++ post)); auto.
  - cbn [bind]. rewrite (app_assoc pre). rewrite IH; auto.
    + apply apart_app; [eapply apart_sub; [|exact Hpre]; intros k I; apply in_or_app; now right|].
      apply (key_in_apart _ (m_names m)); [|apply (mb_keys m Gm)]. intros k I J. now apply (Dx k).
    + eapply apart_sub; [|exact Hpost]. intros k I; apply in_or_app; now right.
  - eapply apart_sub; [|exact Hpre]. intros k I; apply in_or_app; now left.
  - apply apart_app; [|eapply apart_sub; [|exact Hpost]; intros k I; apply in_or_app; now left].
    apply (key_in_apart _ (names r)); [exact Dx|now apply ser_members_keys].
Qed.

Lemma de_members_sound : forall ms es v, Forall member_good ms -> de_members ms es = Ok v -> wf_members ms v.
Proof.
  induction ms as [|m r IH]; intros es v G H; [exact I|]. inversion G as [|? ? Gm Gr]; subst.
  cbn [de_members] in H. destruct (m_de m es) as [a|] eqn:Ef; cbn [bind] in H; [|discriminate].
  destruct (de_members r es) as [w|] eqn:Er; cbn [bind] in H; [|discriminate]. injection H as <-.
  cbn [wf_members fst snd]. split; [exact (mg_sound m Gm _ _ Ef)|now apply (IH es)].
Qed.

Lemma ser_members_norm : forall ms v, Forall member_back ms -> wf_members ms v -> ser_members ms (norm_members ms v) = ser_members ms v.
Proof.
  induction ms as [|m r IH]; intros v G W; [reflexivity|]. inversion G as [|? ? Gm Gr]; subst.
  destruct v as [a v]. cbn [wf_members fst snd] in W. destruct W as [Wa Wv].
  cbn [ser_members norm_members fst snd]. f_equal; [now apply (mb_settled m Gm)|now apply IH].
Qed.

Lemma norm_members_plain : forall ms, Forall member_plain ms -> forall v, norm_members ms v = v.
Proof.
  induction ms as [|m r IH]; intros G v; [reflexivity|]. inversion G as [|? ? Pm Pr]; subst. destruct v as [a v].
  cbn [norm_members fst snd]. now rewrite (Pm a), IH.
Qed.

(** Distinct names. *)
Fixpoint nodupb (l : list str) : bool := match l with [] => true | x :: r => negb (existsb (str_eqb x) r) && nodupb r end.
Lemma nodupb_NoDup : forall l, nodupb l = true -> NoDup l.
Proof.
  induction l as [|x l IH]; intros H; [constructor|]. cbn [nodupb] in H. apply andb_true_iff in H as [H1 H2].
  constructor; [|auto]. intros I. apply negb_true_iff in H1. assert (existsb (str_eqb x) l = true); [|congruence].
  apply existsb_exists. exists x. split; [assumption|apply str_eqb_refl].
Qed.

Lemma group_good : forall {B : Set} ms (write : B -> vals ms) read (inv : B -> Prop) nrm,
  Forall member_good ms -> nodupb (names ms) = true ->
  (forall b, inv b -> wf_members ms (write b)) ->
  (forall b, inv b -> read (norm_members ms (write b)) = Ok (nrm b) /\ ser_members ms (write (nrm b)) = ser_members ms (write b)) ->
  (forall v b, wf_members ms v -> read v = Ok b -> inv b) -> member_good (group ms write read inv nrm).
Proof.
  intros B ms write read inv nrm G D W X J. apply nodupb_NoDup in D. assert (Gb := good_back ms G).
  split; [split|]; cbn [m_names m_ser m_de m_wf m_norm m_type group].
  - intros b. now apply ser_members_keys.
  - intros b pre post H Hpre Hpost. rewrite de_members_ser; auto. cbn [bind]. now apply X.
  - intros b H. now apply X.
  - intros es b. destruct (de_members ms es) as [v|] eqn:E; cbn [bind]; [|discriminate]. apply J. now apply de_members_sound in E.
Qed.
Lemma group_plain_good : forall {B : Set} ms (write : B -> vals ms) read (inv : B -> Prop),
  Forall member_good ms -> Forall member_plain ms -> nodupb (names ms) = true ->
  (forall b, inv b -> wf_members ms (write b) /\ read (write b) = Ok b) ->
  (forall v b, wf_members ms v -> read v = Ok b -> inv b) -> member_good (group ms write read inv (fun b => b)).
Proof.
  intros B ms write read inv G P D W J. apply group_good; auto.
  - intros b H. now apply W.
  - intros b H. split; [|reflexivity]. rewrite norm_members_plain by assumption. now apply W.
Qed.

Lemma key_in_strings : forall ns es, Forall (key_in ns) es -> string_keys es = true.
Proof. intros ns es H. apply forallb_forall. intros e I. rewrite Forall_forall in H. destruct (H e I) as (k & -> & _). reflexivity. Qed.
Lemma struct_good : forall ms, Forall member_good ms -> nodupb (names ms) = true -> good (struct_c ms).
Proof.
  intros ms G D. apply nodupb_NoDup in D. assert (Gb := good_back ms G). split.
  - intros v W. cbn [ser de struct_c]. rewrite (key_in_strings (names ms)) by now apply ser_members_keys.
    rewrite <- (app_nil_r (ser_members ms v)). apply (de_members_ser ms v [] []); auto using apart_nil.
  - intros v a H. cbn [de wf struct_c] in *. destruct v; try discriminate. destruct (string_keys l); [|discriminate]. now apply de_members_sound in H.
  - intros v W. cbn [ser norm struct_c wf] in *. now rewrite ser_members_norm.
Qed.
Lemma struct_plain : forall ms, Forall member_plain ms -> plain (struct_c ms).
Proof. intros ms P v. now apply norm_members_plain. Qed.
Lemma struct_nn : forall ms, not_null (struct_c ms). Proof. intros ms a _; discriminate. Qed.

Lemma extension_key_new_iff : forall s t, extension_key_new s = Ok t <-> t = s /\ ext_key s.
Proof.
  intros s t. unfold extension_key_new, ext_key.
  destruct (starts_with $"x-" s) eqn:E; cbn [negb].
  - apply starts_with_iff in E. destruct (contains 10 s) eqn:C.
    + apply contains_In in C. split; [discriminate|]. intros (_ & _ & N). now elim N.
    + apply contains_not_In in C. split; [intros H; injection H as <-; auto|]. intros (-> & _). reflexivity.
  - split; [discriminate|]. intros (_ & [r Er] & _). assert (starts_with $"x-" s = true); [|congruence].
    apply starts_with_iff. eauto.
Qed.

Lemma ext_ser_de : forall x, ext_wf x -> ext_de (ext_ser x) = Ok x.
Proof.
  intros x (F & D & Y). unfold ext_de, ext_ser.
  rewrite (collect_map_rt _ _ (fun e => e) (fun e => ext_key (fst e) /\ wf yaml_c (snd e))).
  - cbn [map_ok]; rewrite map_id; now rewrite (imap_of_nodup str_eqb str_eqb_eq).
  - intros [k v] [Hk Hv]. unfold ext_entry. cbn [fst snd] in *. rewrite (proj2 (extension_key_new_iff k k) (conj eq_refl Hk)).
    cbn [map_err bind]. change v with (ser yaml_c v) at 1. rewrite (g_rt _ yaml_good v Hv). reflexivity.
  - rewrite Forall_forall in *. auto.
Qed.

Lemma ext_de_sound : forall es x, ext_de es = Ok x -> ext_wf x.
Proof.
  intros es x H. unfold ext_de in H. destruct (collect _ es) as [r|] eqn:C; cbn [map_ok] in H; [|discriminate]. injection H as <-.
  apply (collect_sound _ (fun e => ext_key (fst e) /\ wf yaml_c (snd e))) in C.
  - split; [|split; [apply (imap_of_NoDup str_eqb str_eqb_eq)|]]; rewrite Forall_forall in *; intros p Hp; apply C; now apply (imap_of_sub str_eqb str_eqb_eq) in Hp.
  - intros [b v] [k w]. unfold ext_entry. cbn [fst snd]. destruct b; try discriminate.
    destruct (extension_key_new s) as [t|] eqn:E; cbn [map_err bind]; [|discriminate].
    destruct (de yaml_c v) as [u|] eqn:Ey; cbn [bind]; [|discriminate].
    intros X. injection X as <- <-. apply extension_key_new_iff in E as [-> E]. split; [exact E|exact (g_sound _ yaml_good _ _ Ey)].
Qed.

Lemma unknown_app : forall ns a b, unknown ns (a ++ b) = unknown ns a ++ unknown ns b.
Proof. intros. apply filter_app. Qed.

Lemma unknown_fields : forall ns es, Forall (key_in ns) es -> unknown ns es = [].
Proof.
  intros ns es H. induction H as [|[x v] es (k & E & I) _ IH]; [reflexivity|]. cbn [fst] in E. subst x.
  cbn [unknown filter fst]. replace (existsb (str_eqb k) ns) with true; [exact IH|].
  symmetry. apply existsb_exists. exists k. split; [assumption|apply str_eqb_refl].
Qed.

Definition no_x (l : list str) : bool := forallb (fun n => negb (starts_with $"x-" n)) l.
Lemma no_x_ext : forall ns k, no_x ns = true -> ext_key k -> ~ In k ns.
Proof.
  intros ns k Nx [[r Er] _] I. unfold no_x in Nx. rewrite forallb_forall in Nx. specialize (Nx k I). apply negb_true_iff in Nx.
  assert (starts_with $"x-" k = true); [|congruence]. apply starts_with_iff. eauto.
Qed.

Lemma unknown_ext : forall ns x, no_x ns = true -> Forall (fun e => ext_key (fst e)) x -> unknown ns (ext_ser x) = ext_ser x.
Proof.
  intros ns x Nx H. induction H as [|[k v] x Hk _ IH]; [reflexivity|]. cbn [fst] in Hk.
  cbn [unknown filter fst ext_ser map snd].
  replace (existsb (str_eqb k) ns) with false; cbn [negb]; [f_equal; exact IH|].
  symmetry. apply not_true_is_false. intros X. apply existsb_exists in X as (n & I & X). apply str_eqb_eq in X. subst n.
  now apply (no_x_ext ns k).
Qed.

Lemma ext_apart : forall ns x, no_x ns = true -> Forall (fun e => ext_key (fst e)) x -> apart ns (ext_ser x).
Proof.
  intros ns x Nx H k I. unfold ext_ser. apply Forall_map. eapply Forall_impl; [|exact H].
  intros [j v] Hj X. cbn [fst] in *. injection X as ->. now apply (no_x_ext ns k).
Qed.

Lemma struct_ext_read : forall ms v x, Forall member_back ms -> nodupb (names ms) = true -> no_x (names ms) = true ->
  wf (struct_ext_c ms) (v, x) ->
  de_members ms (ser_members ms v ++ ext_ser x) = Ok (norm_members ms v) /\ unknown (names ms) (ser_members ms v ++ ext_ser x) = ext_ser x.
Proof.
  intros ms v x G D X [W Wx]. apply nodupb_NoDup in D. cbn [fst snd] in *. split.
  - apply (de_members_ser ms v [] (ext_ser x)); auto using apart_nil. apply ext_apart; [assumption|apply Wx].
  - rewrite unknown_app, unknown_fields by now apply ser_members_keys. cbn [app]. apply unknown_ext; [assumption|apply Wx].
Qed.

(** The values which are read satisfy the invariants if they satisfy [P]. *)
Definition members_sound_if (ms : list member) (P : vals ms -> Prop) : Prop := forall es v, de_members ms es = Ok v -> P v -> wf_members ms v.
Lemma struct_ext_good_if : forall ms (P : vals ms -> Prop), Forall member_back ms -> members_sound_if ms P -> nodupb (names ms) = true -> no_x (names ms) = true ->
  good_if (fun v => P (fst v)) (struct_ext_c ms).
Proof.
  intros ms P G S D X. split.
  - intros [v x] W. cbn [ser de struct_ext_c fst snd norm].
    destruct (struct_ext_read ms v x G D X W) as [-> ->]. cbn [bind]. rewrite ext_ser_de by apply W. reflexivity.
  - intros v a H Pa. cbn [de wf struct_ext_c] in *. destruct v; try discriminate.
    destruct (de_members ms l) eqn:E1; cbn [bind] in H; [|discriminate].
    destruct (ext_de (unknown (names ms) l)) eqn:E2; cbn [bind] in H; [|discriminate]. injection H as <-. cbn [fst snd] in *.
    split; [now apply (S l)|now apply ext_de_sound in E2].
  - intros [v x] [W _]. cbn [ser norm struct_ext_c fst snd] in *. now rewrite ser_members_norm.
Qed.
Lemma struct_ext_good : forall ms, Forall member_good ms -> nodupb (names ms) = true -> no_x (names ms) = true -> good (struct_ext_c ms).
Proof.
  intros ms G D X. destruct (struct_ext_good_if ms (fun _ => True) (good_back ms G)) as [R S T]; [|assumption|assumption|].
  - intros es v H _. now apply (de_members_sound ms es).
  - split; [exact R| |exact T]. intros v a H. exact (S v a H I).
Qed.
Lemma struct_ext_plain : forall ms, Forall member_plain ms -> plain (struct_ext_c ms).
Proof. intros ms P [v x]. cbn [norm struct_ext_c fst snd]. now rewrite norm_members_plain. Qed.
Lemma struct_ext_nn : forall ms, not_null (struct_ext_c ms). Proof. intros ms a _; discriminate. Qed.

Lemma struct_ext_once_good : forall ms, Forall member_good ms -> nodupb (names ms) = true -> no_x (names ms) = true ->
  good (struct_ext_once_c ms).
Proof.
  intros ms G D X. assert (B := struct_ext_good ms G D X). split.
  - intros [v x] W. cbn [ser de struct_ext_c struct_ext_once_c fst snd norm].
    destruct (struct_ext_read ms v x (good_back ms G) D X W) as [-> ->]. cbn [bind]. rewrite ext_ser_de by apply W. cbn [bind].
    unfold once, ext_ser. rewrite map_length, Nat.eqb_refl. reflexivity.
  - intros v a H. apply (g_sound _ B v). cbn [de struct_ext_c struct_ext_once_c] in *. destruct v; try discriminate.
    destruct (de_members ms l) eqn:E1; cbn [bind] in *; [|discriminate].
    destruct (ext_de (unknown (names ms) l)) eqn:E2; cbn [bind] in *; [|discriminate].
    destruct (once _ _); [assumption|discriminate].
  - exact (g_settled _ B).
Qed.
Lemma struct_ext_once_plain : forall ms, Forall member_plain ms -> plain (struct_ext_once_c ms).
Proof. intros ms P. exact (struct_ext_plain ms P). Qed.
Lemma struct_ext_once_nn : forall ms, not_null (struct_ext_once_c ms). Proof. intros ms a _; discriminate. Qed.

(** ** The usual fields *)

Lemma required_good : forall n {A : Set} (c : codec A), good c -> member_good (required n c).
Proof. intros n A c G. apply field_good'; [exact G|intros a _ _; reflexivity|discriminate|discriminate]. Qed.
Lemma required_plain : forall n {A : Set} (c : codec A), plain c -> member_plain (required n c).
Proof. intros n A c P a. exact (P a). Qed.
Lemma optional_good : forall n {A : Set} (c : codec A), good c -> not_null c -> member_good (optional n c).
Proof.
  intros n A c G N. apply field_good'; [exact (option_good c G N)| | |].
  - intros [a|] _ H; [reflexivity|discriminate].
  - intros a H. exists None. auto.
  - intros a H. injection H as <-. exact I.
Qed.
Lemma option_plain : forall {A : Set} (c : codec A), plain c -> plain (option_c c).
Proof. intros A c P [a|]; [|reflexivity]. cbn [norm option_c option_map]. now rewrite (P a). Qed.
Lemma optional_plain : forall n {A : Set} (c : codec A), plain c -> member_plain (optional n c).
Proof. intros n A c P [a|]; [|reflexivity]. cbn. now rewrite (P a). Qed.
Lemma given_good : forall n {A : Set} (c : codec A), good c -> member_good (given n c).
Proof.
  intros n A c [R S T]. apply field_good.
  - intros [a|] W H; [|discriminate]. cbn [some_c option_c de ser norm wf option_map] in *. rewrite (R a W). split; [reflexivity|]. split; [exact (T a W)|reflexivity].
  - intros v [a|]; [|intros _; exact I]. cbn [some_c option_c de wf]. destruct (de c v) eqn:E; cbn [map_ok]; [|discriminate].
    intros H. injection H as <-. exact (S _ _ E).
  - intros a H. exists None. auto.
  - intros a H. injection H as <-. exact I.
Qed.
Lemma given_plain : forall n {A : Set} (c : codec A), plain c -> member_plain (given n c).
Proof. intros n A c P [a|]; [|reflexivity]. cbn. now rewrite (P a). Qed.
Lemma many_good : forall n {A : Set} (c : codec (list A)), good c -> wf c [] -> (forall a l, norm c (a :: l) <> []) -> member_good (many n c).
Proof.
  intros n A c G W X. apply field_good'; [exact G| | |].
  - intros [|a l] _ H; [discriminate|]. specialize (X a l). destruct (norm c (a :: l)); [now elim X|reflexivity].
  - intros a H. exists []. auto.
  - intros a H. injection H as <-. exact W.
Qed.
Lemma many_plain : forall n {A : Set} (c : codec (list A)), plain c -> member_plain (many n c).
Proof. intros n A c P [|a l]; [reflexivity|]. cbn. now rewrite (P (a :: l)). Qed.
Lemma list_plain : forall {A : Set} (c : codec A), plain c -> plain (list_c c).
Proof. intros A c P l. cbn [norm list_c]. rewrite (map_ext _ (fun a => a)); [apply map_id|exact P]. Qed.
Lemma iset_plain : forall {A : Set} eqb (c : codec A), plain (iset_c eqb c). Proof. intros A eqb c l. reflexivity. Qed.
Lemma imap_plain : forall {K V : Set} eqb (k : codec K) (v : codec V), plain v -> plain (imap_c eqb k v).
Proof.
  intros K V eqb k v P l. cbn [norm imap_c]. rewrite (map_ext _ (fun a => a)); [apply map_id|]. intros [a b]. cbn [fst snd]. now rewrite (P b).
Qed.
Lemma many_list_good : forall n {A : Set} (c : codec A), good c -> member_good (many n (list_c c)).
Proof. intros n A c G. apply many_good; [now apply list_good|constructor|discriminate]. Qed.
Lemma many_iset_good : forall n {A : Set} eqb (c : codec A), plain c -> good c -> member_good (many n (iset_c eqb c)).
Proof. intros n A eqb c P G. apply many_good; [now apply iset_good|split; constructor|discriminate]. Qed.
Lemma many_imap_good : forall n {K V : Set} eqb (k : codec K) (v : codec V), (forall a b, eqb a b = true <-> a = b) -> plain k ->
  good k -> good v -> member_good (many n (imap_c eqb k v)).
Proof. intros n K V eqb k v E P Gk Gv. apply many_good; [now apply imap_good|split; constructor|discriminate]. Qed.
Lemma flag_good : forall n, member_good (flag n).
Proof.
  intros n. apply field_good'; [exact bool_good| | |].
  - intros a _ H. exact H.
  - intros a H. exists false. auto.
  - intros a H. exact I.
Qed.
Lemma flag_plain : forall n, member_plain (flag n). Proof. intros n []; reflexivity. Qed.
Lemma flag_true_good : forall n, member_good (flag_true n).
Proof.
  intros n. apply field_good'; [exact bool_good| | |].
  - intros a _ H. exact H.
  - intros a H. exists true. auto.
  - intros a H. exact I.
Qed.
Lemma flag_true_plain : forall n, member_plain (flag_true n). Proof. intros n []; reflexivity. Qed.
