(** Which values the codecs with their own visitors accept: hosts, contexts, resources, mounts and healthchecks. *)

From Coq Require Import String Ascii List NArith ZArith Bool Lia ZifyBool ZifyN ZifyNat Permutation.
Import ListNotations.
From Verif Require Import Base BaseFacts Num NumFacts Coll CollFacts Regex KeysSpec KeysModel KeysProofs IpModel IpSpec IpLang PortsModel PortsProofs
  ValuesSpec ValuesModel ValuesProofs ListMapProofs PropsValues PropsPortText VolumesModel HealthModel HealthProofs PropsHealth
  Serde Codec CodecFacts EnumModel ScalarCodec CommonCodec ServiceParts MountCodec
  Schema SchemaText ComposeSchema SchemaFacts SchemaLoads SchemaLeaves.
Open Scope N_scope.

(** ** Last values *)

Lemma imap_last : forall {V} (l : list (str * V)) k v, In (k, v) (imap_of str_eqb l) <-> exists b a, l = b ++ (k, v) :: a /\ ~ In k (map fst a).
Proof. intros V l k v. rewrite <- (imap_get_In str_eqb str_eqb_eq) by apply (imap_of_NoDup str_eqb str_eqb_eq). rewrite (imap_of_get str_eqb str_eqb_eq). apply last_in_rev. Qed.
Lemma iset_snoc : forall l x, iset_of str_eqb (l ++ [x]) = iset_insert str_eqb (iset_of str_eqb l) x.
Proof. intros l x. unfold iset_of. now rewrite fold_left_app. Qed.
Lemma iset_first : forall l, iset_of str_eqb l = first_occurrences l.
Proof.
  intros l. induction l as [|x l IH] using rev_ind; [reflexivity|]. rewrite iset_snoc. unfold first_occurrences in *. rewrite rev_app_distr. cbn [rev app nodup].
  destruct (in_dec (list_eq_dec N.eq_dec) x (rev l)) as [I|N].
  - rewrite (iset_insert_old str_eqb str_eqb_eq); [exact IH|]. apply (iset_of_In str_eqb str_eqb_eq). now apply in_rev.
  - rewrite (iset_insert_new str_eqb str_eqb_eq); [cbn [rev]; now rewrite <- IH|]. intros I. apply N. apply (proj1 (iset_of_In str_eqb str_eqb_eq l x)) in I. now apply (proj1 (in_rev l x)).
Qed.

(** ** Items *)

Lemma until_inj : forall ds s k k', until ds s k -> until ds s k' -> k = k'.
Proof.
  intros ds s k k' [N E] [N' E']. revert s k' E N' E'. induction k as [|c k IH]; intros s k' E N' E'.
  - destruct k' as [|c' k']; [reflexivity|]. exfalso. destruct E as [->|(d & r & D & ->)].
    + destruct E' as [E'|(d' & r' & _ & E')]; discriminate.
    + apply (N' d D). destruct E' as [E'|(d' & r' & _ & E')]; injection E' as <- _; now left.
  - destruct k' as [|c' k'].
    + exfalso. destruct E' as [->|(d & r & D & ->)].
      * destruct E as [E|(d' & r' & _ & E)]; discriminate.
      * apply (N d D). destruct E as [E|(d' & r' & _ & E)]; injection E as <- _; now left.
    + destruct s as [|x s]; [destruct E as [E|(d' & r' & _ & E)]; discriminate|].
      assert (c = x /\ (s = k \/ exists d r, In d ds /\ s = k ++ d :: r)) as [-> Es].
      { destruct E as [E|(d & r & D & E)]; injection E as -> ->; split; eauto. }
      assert (c' = x /\ (s = k' \/ exists d r, In d ds /\ s = k' ++ d :: r)) as [-> Es'].
      { destruct E' as [E'|(d & r & D & E')]; injection E' as -> ->; split; eauto. }
      f_equal. apply (IH (fun d D I => N d D (or_intror I)) s); auto. intros d D I. apply (N' d D). now right.
Qed.
Lemma item_until : forall fv ds s k v, item_entry fv ds s = Ok (k, v) -> until ds s k /\ MAP_KEY k.
Proof.
  intros fv ds s k v H. apply item_entry_ok in H as (K1 & K2 & N & H). split; [|split; assumption]. split; [intros d D I; exact (N d I D)|].
  destruct H as [[-> _]|(d & t & D & -> & _)]; [now left|right; eauto].
Qed.
Lemma accepts_item : forall fv ds s, accepts (item_entry fv ds s) <-> exists k, until ds s k /\ MAP_KEY k.
Proof.
  intros fv ds s. split.
  - intros [[k v] H]. exists k. now apply item_until in H.
  - intros (k & [N H] & [K1 K2]). assert (N' : forall c, In c k -> ~ In c ds) by (intros c I D; exact (N c D I)). destruct H as [->|(d & r & D & ->)].
    + exists (k, None). apply item_entry_ok. repeat (split; [assumption|]). left. auto.
    + exists (k, item_value fv r). apply item_entry_ok. repeat (split; [assumption|]). right. eauto.
Qed.

(** ** Hosts *)

Lemma address_iff : forall a, (exists i, ip_parse (strip_brackets a) = Some i) <-> ADDRESS a.
Proof. intros a. unfold ADDRESS, IP. split; [intros [i H]; apply brackets_iff in H as (t & E & H); eauto|]. intros (t & E & i & H). exists i. apply brackets_iff. eauto. Qed.
Lemma accepts_host : forall k v, accepts (extra_host (k, v)) <-> HOSTNAME k /\ exists a, v = Some (VString a) /\ ADDRESS a.
Proof.
  intros k v. unfold extra_host. cbn [fst snd]. assert (X : forall P, ~ P -> forall Q : Prop, (exists a, P /\ ADDRESS a) -> Q) by (intros P N Q (a & H & _); contradiction).
  destruct v as [[a| |]|]; try (rewrite accepts_no; split; [intros []|]; intros (_ & a & E & _); discriminate).
  assert (HN : accepts (hostname_new k) <-> HOSTNAME k) by apply hostname_texts. pose proof (address_iff a) as HA. destruct (hostname_new k) as [h|e] eqn:E.
  - rewrite accepts_ok in HN. destruct (ip_parse (strip_brackets a)) as [i|].
    + rewrite accepts_ok. split; [intros _|tauto]. split; [tauto|]. exists a. split; [reflexivity|]. apply HA. now exists i.
    + rewrite accepts_no. split; [intros []|]. intros (_ & b & Eb & H). injection Eb as <-. apply HA in H as [i H]. discriminate.
  - rewrite accepts_no in HN. rewrite accepts_no. tauto.
Qed.
Lemma accepts_host_item : forall fv s k v, item_entry fv [ch "="; ch ":"] s = Ok (k, v) -> (accepts (extra_host (k, v)) <-> host_item s).
Proof.
  intros fv s k v H. split.
  - intros A. apply accepts_host in A as (HN & a & -> & HA). apply item_entry_ok in H as (_ & _ & _ & [[_ E]|(d & t & D & -> & E)]); [discriminate|].
    exists k, d, t. split; [reflexivity|]. split; [exact D|]. split; [exact HN|]. destruct t as [|c t]; [discriminate|]. cbn [item_value] in E. injection E as E. symmetry in E.
    apply (proj2 (proj2 (proj2 (proj2 (value_parse_kind fv (c :: t)))))) in E. now subst a.
  - intros (host & d & a & -> & D & HN & t & Et & i & HI). apply ip_language in HI.
    assert (exists b, a = bracketed b t) as [b ->] by (destruct Et as [->| ->]; [now exists false|now exists true]).
    destruct (extra_host_entry fv host d b t i HN HI D) as [A B]. rewrite A in H. injection H as <- <-. now exists (host, i).
Qed.
Lemma strings_map : forall l r, collect (de string_c) l = Ok r <-> l = map VStr r.
Proof. exact strings_ok. Qed.

Lemma map_inj_str : forall l m, map VStr l = map VStr m -> l = m.
Proof. induction l as [|x l IH]; intros [|y m] H; try discriminate; [reflexivity|]. injection H as -> H. f_equal. now apply IH. Qed.
Lemma forall2_split : forall {A B} (R : A -> B -> Prop) l1 x l2 m, Forall2 R (l1 ++ x :: l2) m -> exists m1 y m2, m = m1 ++ y :: m2 /\ R x y /\ Forall2 R l1 m1 /\ Forall2 R l2 m2.
Proof. intros A B R l1 x l2 m F. apply Forall2_app_inv_l in F as (m1 & m' & F1 & F2 & ->). inversion F2; subst. eauto 8. Qed.
Lemma forall2_split_r : forall {A B} (R : A -> B -> Prop) m1 y m2 l, Forall2 R l (m1 ++ y :: m2) -> exists l1 x l2, l = l1 ++ x :: l2 /\ R x y /\ Forall2 R l1 m1 /\ Forall2 R l2 m2.
Proof. intros A B R m1 y m2 l F. apply Forall2_app_inv_r in F as (l1 & l' & F1 & F2 & ->). inversion F2; subst. eauto 8. Qed.
Lemma forall2_in_l : forall {A B} (R : A -> B -> Prop) l m x, Forall2 R l m -> In x l -> exists y, In y m /\ R x y.
Proof. intros A B R l m x F. induction F as [|a b l m H F IH]; intros I; [destruct I|]. destruct I as [->|I]; [exists b; split; [now left|exact H]|]. destruct (IH I) as (y & Hy & R'). exists y. split; [now right|exact R']. Qed.
Lemma forall2_in_r : forall {A B} (R : A -> B -> Prop) l m y, Forall2 R l m -> In y m -> exists x, In x l /\ R x y.
Proof. intros A B R l m y F. induction F as [|a b l m H F IH]; intros I; [destruct I|]. destruct I as [->|I]; [exists a; split; [now left|exact H]|]. destruct (IH I) as (x & Hx & R'). exists x. split; [now right|exact R']. Qed.

Lemma accepts_hosts : forall (es : list (str * option value)),
  accepts (l <- collect extra_host (imap_of str_eqb es) ;; Ok (imap_of str_eqb l) : result de_error (list (str * ip_addr))) <->
  forall b k v a, es = b ++ (k, v) :: a -> ~ In k (map fst a) -> accepts (extra_host (k, v)).
Proof.
  intros es. rewrite accepts_bind. transitivity (accepts (collect extra_host (imap_of str_eqb es))).
  { split; [intros (l & H & _); now exists l|]. intros [l H]. exists l. split; [exact H|now eexists]. }
  rewrite accepts_collect, Forall_forall. split.
  - intros H b k v a E N. apply H. apply imap_last. eauto.
  - intros H [k v] I. apply imap_last in I as (b & a & E & N). eauto.
Qed.

Lemma option_string : forall x a, de (option_c value_c) x = Ok (Some (VString a)) -> x = VStr a.
Proof.
  intros x a H. assert (N : forall v, map_ok Some (map_ok VNumber (de number_c v)) <> Ok (Some (VString a))) by (intros v E; destruct (de number_c v); discriminate).
  destruct x; try discriminate; try (exfalso; eapply N; exact H). injection H as ->. reflexivity.
Qed.
Lemma loads_extra_hosts : forall w, loads (extra_hosts_c w) EXTRA_HOSTS.
Proof.
  intros w v. unfold EXTRA_HOSTS, either.
  assert (L : forall l, accepts (extra_hosts (w_float w) (LList (iset_of str_eqb l))) <-> EXTRA_HOSTS_LIST (VSeq (map VStr l))).
  { intros l. unfold extra_hosts, into_map_split_on. rewrite accepts_bind. rewrite iset_first.
    assert (U : EXTRA_HOSTS_LIST (VSeq (map VStr l)) <-> (forall s, In s l -> exists k, until [ch "="; ch ":"] s k /\ MAP_KEY k) /\
      forall before s after k, first_occurrences l = before ++ s :: after -> until [ch "="; ch ":"] s k -> (forall t, In t after -> ~ until [ch "="; ch ":"] t k) -> host_item s).
    { unfold EXTRA_HOSTS_LIST. split; [|eauto]. intros (l' & E & H). replace l with l'; [exact H|]. injection E as E. symmetry; apply (map_inj_str _ _ E). }
    rewrite U. clear U.
    assert (IF : forall s, In s (first_occurrences l) <-> In s l) by (intros s; rewrite <- iset_first; apply (iset_of_In str_eqb str_eqb_eq)).
    assert (C : accepts (collect (item_entry (w_float w) [ch "="; ch ":"]) (first_occurrences l)) <-> forall s, In s l -> exists k, until [ch "="; ch ":"] s k /\ MAP_KEY k).
    { rewrite accepts_collect, Forall_forall. split; intros H s I; [apply (accepts_item (w_float w))|apply accepts_item]; apply H; now apply IF. }
    rewrite <- C. clear C.
    assert (G : forall es, collect (item_entry (w_float w) [ch "="; ch ":"]) (first_occurrences l) = Ok es ->
      ((forall b k v a, es = b ++ (k, v) :: a -> ~ In k (map fst a) -> accepts (extra_host (k, v))) <->
       (forall before s after k, first_occurrences l = before ++ s :: after -> until [ch "="; ch ":"] s k -> (forall t, In t after -> ~ until [ch "="; ch ":"] t k) -> host_item s))).
    { intros es H. apply collect_ok in H. split.
      - intros A b s a k E Us Na. rewrite E in H. apply forall2_split in H as (m1 & [k' v'] & m2 & -> & Hs & _ & H2).
        pose proof (item_until _ _ _ _ _ Hs) as [Us' _]. pose proof (until_inj _ _ _ _ Us Us') as <-. apply (accepts_host_item _ _ _ _ Hs). apply (A m1 k v' m2 eq_refl).
        intros I. apply in_map_iff in I as ([k2 v2] & Ek & I). cbn [fst] in Ek. subst k2. destruct (forall2_in_r _ _ _ _ H2 I) as (t & It & Ht). apply (Na t It). now apply item_until in Ht.
      - intros A b k x a E Na. rewrite E in H. apply forall2_split_r in H as (l1 & s & l2 & Ef & Hs & _ & H2). apply (accepts_host_item _ _ _ _ Hs).
        apply (A l1 s l2 k Ef); [now apply item_until in Hs|]. intros t It Ut. destruct (forall2_in_l _ _ _ _ H2 It) as ([k2 v2] & I2 & Ht).
        pose proof (item_until _ _ _ _ _ Ht) as [Ut' _]. pose proof (until_inj _ _ _ _ Ut Ut') as <-. apply Na. apply in_map_iff. now exists (k, v2). }
    split.
    - intros (m & Hm & A). destruct (collect (item_entry (w_float w) [ch "="; ch ":"]) (first_occurrences l)) as [es|] eqn:Ec; cbn [map_ok map_err] in Hm; [|discriminate].
      injection Hm as <-. split; [now exists es|]. apply (G es eq_refl). now apply accepts_hosts.
    - intros ([es Ec] & A). rewrite Ec. cbn [map_ok map_err]. exists (imap_of str_eqb es). split; [reflexivity|]. apply accepts_hosts. now apply (G es Ec). }
  assert (M : forall es, accepts (x <- de list_or_map_c (VMap es) ;; extra_hosts (w_float w) x) <-> EXTRA_HOSTS_MAP (VMap es)).
  { intros es. unfold EXTRA_HOSTS_MAP. rewrite <- (loads_vmap (VMap es)). cbn [de list_or_map_c].
    assert (U : forall P : Prop, (exists es', VMap es = VMap es' /\ forall before k x after, es' = before ++ (VStr k, x) :: after -> ~ In (VStr k) (map fst after) -> HOSTNAME k /\ text ADDRESS x) <->
      (forall before k x after, es = before ++ (VStr k, x) :: after -> ~ In (VStr k) (map fst after) -> HOSTNAME k /\ text ADDRESS x)).
    { intros _. split; [intros (es' & E & H); injection E as <-; exact H|eauto]. }
    rewrite (U True). clear U. cbn [de vmap_c smap imap_c].
    assert (G : forall l, collect (entry_de map_key_c (option_c value_c)) es = Ok l ->
      ((forall b k v a, l = b ++ (k, v) :: a -> ~ In k (map fst a) -> accepts (extra_host (k, v))) <->
       (forall before k x after, es = before ++ (VStr k, x) :: after -> ~ In (VStr k) (map fst after) -> HOSTNAME k /\ text ADDRESS x))).
    { intros l H. apply collect_ok in H.
      assert (ED : forall e p, entry_de map_key_c (option_c value_c) e = Ok p -> fst e = VStr (fst p) /\ de (option_c value_c) (snd e) = Ok (snd p)).
      { intros e p X. unfold entry_de in X. apply bind_ok in X as (k & Hk & X). apply bind_ok in X as (y & Hy & X). injection X as <-. cbn [fst snd]. split; [|exact Hy].
        destruct (fst e); try discriminate. cbn [de map_key_c text_c from_string] in Hk. destruct (map_key_new s) as [k'|] eqn:K; cbn [map_err] in Hk; [|discriminate]. injection Hk as ->.
        apply map_key_iff in K as [-> _]. reflexivity. }
      assert (VT : forall x y k, de (option_c value_c) x = Ok y -> (accepts (extra_host (k, y)) <-> HOSTNAME k /\ text ADDRESS x)).
      { intros x y k X. rewrite accepts_host. unfold text.
        assert (Y : (exists a, y = Some (VString a) /\ ADDRESS a) <-> exists s, x = VStr s /\ ADDRESS s); [|now rewrite Y].
        split; [intros (a & -> & HA); exists a; split; [now apply option_string|exact HA]|]. intros (t & -> & HA). exists t. split; [|exact HA]. injection X as <-. reflexivity. }
      split.
      - intros A b k x a E Na. rewrite E in H. apply forall2_split in H as (m1 & [k' v'] & m2 & -> & Hs & _ & H2).
        apply ED in Hs as [E1 E2]. cbn [fst snd] in E1, E2. injection E1 as <-. apply (VT x v' k E2). apply (A m1 k v' m2 eq_refl).
        intros I. apply Na. apply in_map_iff in I as ([k2 v2] & Ek & I). cbn [fst] in Ek. subst k2. destruct (forall2_in_r _ _ _ _ H2 I) as (t & It & Ht). apply ED in Ht as [Ht _].
        apply in_map_iff. exists t. auto.
      - intros A b k x a E Na. rewrite E in H. apply forall2_split_r in H as (l1 & [s y] & l2 & -> & Hs & _ & H2). apply ED in Hs as [E1 E2]. cbn [fst snd] in E1, E2. subst s.
        apply (VT y x k E2). apply (A l1 k y l2 eq_refl). intros I. apply Na. apply in_map_iff in I as (t & Et & It). destruct (forall2_in_l _ _ _ _ H2 It) as ([k2 v2] & I2 & Ht).
        apply ED in Ht as [Ht _]. rewrite Et in Ht. injection Ht as ->. apply in_map_iff. now exists (k2, v2). }
    rewrite accepts_bind, accepts_map. split.
    - intros (x & Hx & A). destruct (collect (entry_de map_key_c (option_c value_c)) es) as [l|] eqn:Ec; cbn [map_ok] in Hx; [|discriminate]. injection Hx as <-.
      split; [now exists l|]. apply (G l eq_refl). apply accepts_hosts. exact A.
    - intros ([l Ec] & A). rewrite Ec. cbn [map_ok]. eexists. split; [reflexivity|]. unfold extra_hosts, into_map_split_on. cbn [map_err bind]. apply accepts_hosts. now apply (G l Ec). }
  cbn [de extra_hosts_c]. destruct v as [| | | | |l|es]; try (rewrite accepts_bind; split; [intros (x & Hx & _); discriminate|]; intros [(l & E & _)|(_ & es & E & _)]; discriminate).
  - cbn [de list_or_map_c sset iset_c]. assert (N : ~ EXTRA_HOSTS_MAP (VSeq l)) by (intros (_ & es & E & _); discriminate).
    transitivity (EXTRA_HOSTS_LIST (VSeq l)); [|tauto]. rewrite accepts_bind. split.
    + intros (x & Hx & A). destruct (collect (de string_c) l) as [r|] eqn:E; cbn [map_ok] in Hx; [|discriminate]. injection Hx as <-. apply strings_map in E. subst l. now apply L.
    + intros H. pose proof H as (r & E & _). injection E as ->. exists (LList (iset_of str_eqb r)). rewrite (proj2 (strings_map (map VStr r) r) eq_refl). split; [reflexivity|]. now apply L.
  - rewrite M. split; [tauto|]. intros [(l & E & _)|H]; [discriminate|exact H].
Qed.

Lemma loads_additional_contexts : forall w, loads (additional_contexts_c w) ADDITIONAL_CONTEXTS.
Proof.
  intros w v. unfold ADDITIONAL_CONTEXTS, either. cbn [de additional_contexts_c]. rewrite accepts_bind.
  assert (L : forall r, accepts (m <- map_err (fun _ => DeError) (into_map (w_float w) (LList (iset_of str_eqb r))) ;; Ok (map (additional_context w) m)) <->
    list_of (text (fun s => exists k, until [ch "="] s k /\ MAP_KEY k)) (VSeq (map VStr r))).
  { intros r. rewrite accepts_bind, seq_shape. unfold into_map, into_map_split_on.
    transitivity (accepts (collect (item_entry (w_float w) [ch "="]) (iset_of str_eqb r))).
    { split.
      - intros (m & H & _). destruct (collect (item_entry (w_float w) [ch "="]) (iset_of str_eqb r)) as [l|]; [now exists l|discriminate].
      - intros [l H]. rewrite H. exists (imap_of str_eqb l). split; [reflexivity|now eexists]. }
    rewrite accepts_collect, !Forall_forall. split.
    - intros H x I. apply in_map_iff in I as (s & <- & I). exists s. split; [reflexivity|]. apply (accepts_item (w_float w)). apply H. now apply (iset_of_In str_eqb str_eqb_eq).
    - intros H s I. apply (proj1 (iset_of_In str_eqb str_eqb_eq r s)) in I. destruct (H (VStr s)) as (t & E & Ht); [now apply in_map|]. injection E as <-. now apply accepts_item. }
  destruct v as [| | | | |l|es]; try (split; [intros (x & Hx & _); discriminate|]; intros [(l & E & _)|(es & E & _)]; discriminate).
  - cbn [de list_or_map_c sset iset_c]. split.
    + intros (x & Hx & A). destruct (collect (de string_c) l) as [r|] eqn:E; cbn [map_ok] in Hx; [|discriminate]. injection Hx as <-. apply strings_map in E. subst l. left. now apply L.
    + intros [H|(es & E & _)]; [|discriminate]. assert (exists r, l = map VStr r) as [r ->].
      { apply seq_shape in H. clear L. induction H as [|x l (s & -> & _) F [r IH]]; [now exists []|]. exists (s :: r). now rewrite IH. }
      exists (LList (iset_of str_eqb r)). rewrite (proj2 (strings_map (map VStr r) r) eq_refl). split; [reflexivity|]. now apply L.
  - rewrite <- (loads_vmap (VMap es)). cbn [de list_or_map_c]. split.
    + intros (x & Hx & A). right. destruct (de vmap_c (VMap es)) as [m|]; [now exists m|discriminate].
    + intros [(l & E & _)|[m H]]; [discriminate|]. rewrite H. exists (LMap m). split; [reflexivity|]. cbn [into_map into_map_split_on map_err bind]. now eexists.
Qed.
