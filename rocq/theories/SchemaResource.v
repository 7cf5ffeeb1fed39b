(** Which values the codecs of resources, mounts and healthchecks accept. *)

From Coq Require Import String Ascii List NArith ZArith Bool Lia ZifyBool ZifyN ZifyNat Permutation.
Import ListNotations.
From Verif Require Import Base BaseFacts Num Coll CollFacts VolumesModel HealthModel HealthProofs PropsHealth
  Serde Codec CodecFacts OrderFacts EnumModel ScalarCodec CommonCodec MountCodec
  Schema SchemaText ComposeSchema SchemaFacts SchemaLoads SchemaLeaves SchemaSpecial.
Open Scope N_scope.

(** ** Resources *)

(** A shape which does not depend on the order of the entries. *)
Definition unordered (P : shape) : Prop := forall es es', Permutation es es' -> P (VMap es) -> P (VMap es').
Definition unordered_condition (c : condition) : Prop := forall es es', Permutation es es' -> c es -> c es'.
Lemma values_perm : forall n es es', Permutation es es' -> Permutation (values_of n es) (values_of n es').
Proof. intros n es es' P. unfold values_of. apply Permutation_map. induction P as [|x l l' P IH|x y l|l l' l'' P1 IH1 P2 IH2]; cbn [filter]; [constructor| | |].
  - destruct (key_is n (fst x)); [now constructor|exact IH].
  - destruct (key_is n (fst x)), (key_is n (fst y)); try apply Permutation_refl. constructor.
  - now apply (Permutation_trans IH1).
Qed.
Lemma field_perm : forall f es es', Permutation es es' -> field_ok es f -> field_ok es' f.
Proof.
  intros f es es' P. apply (values_perm (e_name f)) in P. unfold field_ok. destruct (values_of (e_name f) es) as [|v [|u r]]; intros H.
  - apply Permutation_nil in P. now rewrite P.
  - apply Permutation_length_1_inv in P. now rewrite P.
  - destruct H.
Qed.
Lemma object_unordered : forall o fs cs, Forall unordered_condition cs -> unordered (object_with o fs cs).
Proof.
  intros o fs cs C es es' P H. apply object_shape in H as (H1 & H2 & H3). apply object_shape. split; [|split].
  - eapply Forall_impl; [|exact H1]. intros f. now apply field_perm.
  - rewrite Forall_forall in *. intros c I. exact (C c I _ _ P (H2 c I)).
  - intros k x I. apply H3. eapply Permutation_in; [apply Permutation_sym; exact P|exact I].
Qed.
Lemma set_perm : forall es es' n, Permutation es es' -> set es n = set es' n.
Proof.
  intros es es' n P. apply (values_perm n) in P. unfold set. f_equal. induction P as [|x l l' P IH|x y l|l l' l'' P1 IH1 P2 IH2]; cbn [forallb]; [reflexivity| | |].
  - now rewrite IH.
  - rewrite !andb_assoc. f_equal. apply andb_comm.
  - congruence.
Qed.
Lemma exactly_one_unordered : forall ns, unordered_condition (exactly_one ns).
Proof.
  intros ns es es' P. unfold exactly_one. replace (filter (set es') ns) with (filter (set es) ns); [tauto|]. apply filter_ext. intros n. now apply set_perm.
Qed.

Lemma last_value_rev : forall l k, last_value k (ext_ser l) = imap_get str_eqb (rev l) k.
Proof.
  intros l k. unfold last_value, values_of, ext_ser. rewrite <- map_rev.
  assert (X : forall l : list (str * sval), hd_error (map snd (filter (fun e => key_is k (fst e)) (map (fun e => (VStr (fst e), snd e)) l))) = imap_get str_eqb l k).
  { clear l. induction l as [|[j v] l IH]; [reflexivity|]. cbn [map filter fst snd key_is imap_get]. destruct (str_eqb k j); [reflexivity|exact IH]. }
  rewrite <- X. do 2 f_equal. rewrite map_rev. generalize (map (fun e : str * sval => (VStr (fst e), snd e)) l). clear. intros l.
  induction l as [|x l IH]; [reflexivity|]. cbn [rev]. rewrite filter_app. cbn [filter]. destruct (key_is k (fst x)); cbn [rev]; rewrite IH, ?app_nil_r; reflexivity.
Qed.
Lemma hash_map_iff : forall es m, hash_map_de es = Ok m <-> exists l, es = ext_ser l /\ Forall (fun e => yaml (snd e)) l /\ m = imap_of str_eqb l.
Proof.
  intros es m. unfold hash_map_de.
  assert (C : forall l, collect yaml_entry es = Ok l <-> es = ext_ser l /\ Forall (fun e => yaml (snd e)) l).
  { intros l. rewrite collect_ok. revert l. induction es as [|[k v] es IH]; intros l; (split; [intros F; inversion F as [|? p ? l' H F']; subst|intros [E F]]).
    - split; [reflexivity|constructor].
    - destruct l; [constructor|discriminate].
    - apply IH in F' as [-> F']. unfold yaml_entry in H. cbn [fst snd] in H. destruct k; try discriminate. cbn [de yaml_c] in H. destruct (yaml_ok v) eqn:Y; cbn [bind] in H; [|discriminate].
      injection H as <-. split; [reflexivity|]. constructor; [now apply yaml_iff|exact F'].
    - destruct l as [|[s x] l]; [discriminate|]. injection E as -> -> ->. inversion F as [|? ? Y F']; subst. constructor; [|now apply IH]. unfold yaml_entry. cbn [fst snd] in *.
      apply yaml_iff in Y. cbn [de yaml_c]. now rewrite Y. }
  split.
  - intros H. destruct (collect yaml_entry es) as [l|] eqn:E; cbn [map_ok] in H; [|discriminate]. injection H as <-. exists l. destruct (proj1 (C l) eq_refl). auto.
  - intros (l & E & F & ->). rewrite (proj2 (C l)) by auto. reflexivity.
Qed.
Lemma without_in : forall {A} k (m : list (str * A)) j v, In (j, v) (without k m) <-> In (j, v) m /\ j <> k.
Proof. intros A k m j v. unfold without. rewrite filter_In. cbn [fst]. destruct (str_eqb_spec k j) as [->|N]; cbn [negb]; split; intros [H1 H2]; try discriminate; [congruence|split; [exact H1|congruence]|auto]. Qed.
Lemma ext_ser_in : forall m k v, In (VStr k, v) (ext_ser m) <-> In (k, v) m.
Proof. intros m k v. unfold ext_ser. rewrite in_map_iff. split; [intros ([j x] & E & I); injection E as -> ->; exact I|]. intros I. now exists (k, v). Qed.
Lemma ext_ser_text : forall m k v, In (k, v) (ext_ser m) -> exists s, k = VStr s.
Proof. intros m k v I. unfold ext_ser in I. apply in_map_iff in I as (e & E & _). injection E as <- _. eauto. Qed.
Lemma ext_ser_nodup : forall m, NoDup (map fst m) -> NoDup (map fst (ext_ser m)).
Proof.
  intros m D. unfold ext_ser. rewrite map_map. cbn [fst]. rewrite <- (map_map fst VStr). apply FinFun.Injective_map_NoDup; [|exact D]. intros a b E. congruence.
Qed.
Lemma settled_in : forall l, settled (ext_ser l) (ext_ser (without $"external" (imap_of str_eqb l))).
Proof.
  intros l. split.
  - apply ext_ser_nodup. assert (D := imap_of_NoDup str_eqb str_eqb_eq l). revert D. generalize (imap_of str_eqb l). clear l. intros m D. unfold without.
    induction m as [|e m IH]; [constructor|]. cbn [map] in D. inversion D as [|? ? N D']; subst. cbn [filter]. destruct (negb (str_eqb $"external" (fst e))); [|now apply IH].
    cbn [map]. constructor; [|now apply IH]. intros I. apply N. apply in_map_iff in I as (x & E & I). apply filter_In in I as [I _]. apply in_map_iff. eauto.
  - intros k v. split.
    + intros I. destruct (ext_ser_text _ _ _ I) as [s ->]. exists s. split; [reflexivity|]. apply (proj1 (ext_ser_in _ _ _)) in I. apply without_in in I as [I N]. split; [exact N|].
      rewrite last_value_rev, <- (imap_of_get str_eqb str_eqb_eq). apply (imap_get_In str_eqb str_eqb_eq); [apply (imap_of_NoDup str_eqb str_eqb_eq)|exact I].
    + intros (s & -> & N & L). apply ext_ser_in. apply without_in. split; [|exact N]. rewrite last_value_rev, <- (imap_of_get str_eqb str_eqb_eq) in L.
      apply (imap_get_In str_eqb str_eqb_eq) in L; [exact L|apply (imap_of_NoDup str_eqb str_eqb_eq)].
Qed.
Lemma settled_perm : forall es m m', settled es m -> settled es m' -> Permutation m m'.
Proof.
  intros es m m' [D H] [D' H']. apply NoDup_Permutation; [now apply NoDup_map_inv in D|now apply NoDup_map_inv in D'|]. intros [k v]. rewrite H, H'. reflexivity.
Qed.

Lemma loads_resource : forall {A : Set} (c : codec A) P, loads c P -> unordered P -> loads (resource_c c) (or_external P).
Proof.
  intros A c P L O v. unfold or_external. destruct v as [| | | | | |es]; cbn [de resource_c]; try (rewrite accepts_no; split; [intros []|]; intros (es & E & _); discriminate).
  assert (U : forall Q : list (sval * sval) -> Prop, (exists es', VMap es = VMap es' /\ Q es') <-> Q es) by (intros Q; split; [intros (es' & E & H); injection E as <-; exact H|eauto]).
  rewrite U. clear U. rewrite accepts_bind.
  assert (B : forall l, accepts (resource_of c (imap_of str_eqb l)) <->
    (last_value $"external" (ext_ser l) = Some (VBool true) /\ (forall k, In k (map fst (ext_ser l)) -> k = VStr $"external" \/ k = VStr $"name") /\
      (forall n, last_value $"name" (ext_ser l) = Some n -> any_text n)) \/
     ((forall x, last_value $"external" (ext_ser l) = Some x -> x = VBool false) /\ exists m, settled (ext_ser l) m /\ P (VMap m))).
  { intros l. pose proof (settled_in l) as S. set (m := imap_of str_eqb l) in *. unfold resource_of.
    assert (G : forall k, imap_get str_eqb m k = last_value k (ext_ser l)) by (intros k; rewrite last_value_rev; apply (imap_of_get str_eqb str_eqb_eq)).
    rewrite (G $"external").
    assert (G' : imap_get str_eqb (without $"external" m) $"name" = last_value $"name" (ext_ser l)).
    { rewrite <- G. unfold without. clear. induction m as [|[k v] m IH]; [reflexivity|]. cbn [filter fst]. destruct (str_eqb_spec $"external" k) as [<-|N]; cbn [negb imap_get].
      - rewrite IH. reflexivity.
      - rewrite IH. reflexivity. }
    assert (K : is_nil (without $"name" (without $"external" m)) = true <-> forall k, In k (map fst (ext_ser l)) -> k = VStr $"external" \/ k = VStr $"name").
    { assert (KM : forall s, In s (map fst m) <-> In (VStr s) (map fst (ext_ser l))).
      { intros s. unfold m. rewrite (imap_of_keys str_eqb), (iset_of_In str_eqb str_eqb_eq). unfold ext_ser. rewrite map_map. cbn [fst]. rewrite <- (map_map fst VStr). split; [apply in_map|].
        intros I. apply in_map_iff in I as (t & E & I). injection E as ->. exact I. }
      split.
      - intros H k I. assert (exists s, k = VStr s) as [s ->] by (apply in_map_iff in I as ([k' v] & E & I); cbn [fst] in E; subst k'; eauto using ext_ser_text).
        apply KM in I. apply in_map_iff in I as ([s' v] & E & I). cbn [fst] in E. subst s'. destruct (str_eq_dec s $"external") as [->|N1]; [now left|]. destruct (str_eq_dec s $"name") as [->|N2]; [now right|].
        exfalso. assert (J : In (s, v) (without $"name" (without $"external" m))) by (apply without_in; split; [apply without_in; auto|exact N2]).
        destruct (without $"name" (without $"external" m)); [destruct J|discriminate].
      - intros H. destruct (without $"name" (without $"external" m)) as [|[s v] r] eqn:E; [reflexivity|]. exfalso.
        assert (J : In (s, v) (without $"name" (without $"external" m))) by (rewrite E; now left). apply without_in in J as [J N2]. apply without_in in J as [J N1].
        destruct (H (VStr s)) as [X|X]; [apply KM; apply in_map_iff; now exists (s, v)| |]; injection X; congruence. }
    destruct (last_value $"external" (ext_ser l)) as [x|] eqn:E.
    - destruct x as [|[]| | | | |]; cbn [de bool_c bind]; try (rewrite accepts_no; split; [intros []|]; intros [(X & _)|[X _]]; [discriminate|specialize (X _ eq_refl); discriminate]).
      + rewrite G'. rewrite accepts_bind. split.
        * intros (n & Hn & H). left. split; [reflexivity|]. destruct (is_nil (without $"name" (without $"external" m))) eqn:Z; [|now apply accepts_no in H]. split; [now apply K|].
          intros y Hy. rewrite Hy in Hn. destruct y; try discriminate. eexists. reflexivity.
        * intros [(_ & H1 & H2)|[X _]]; [|specialize (X _ eq_refl); discriminate]. rewrite (proj2 K H1). destruct (last_value $"name" (ext_ser l)) as [y|].
          -- destruct (H2 y eq_refl) as [s ->]. exists (Some s). split; [reflexivity|now eexists].
          -- exists None. split; [reflexivity|now eexists].
      + rewrite accepts_map, (L _). split.
        * intros H. right. split; [intros x X; congruence|]. eauto.
        * intros [(X & _)|(_ & m' & S' & H)]; [discriminate|]. eapply O; [|exact H]. eapply settled_perm; eassumption.
    - cbn [bind]. rewrite accepts_map, (L _). split.
      * intros H. right. split; [discriminate|]. eauto.
      * intros [(X & _)|(_ & m' & S' & H)]; [discriminate|]. eapply O; [|exact H]. eapply settled_perm; eassumption. }
  assert (T : forall l, (forall k x, In (k, x) (ext_ser l) -> (exists s, k = VStr s) /\ yaml x) <-> Forall (fun e => yaml (snd e)) l).
  { intros l. rewrite Forall_forall. split.
    - intros H [k x] I. apply (H (VStr k)). now apply ext_ser_in.
    - intros H k x I. destruct (ext_ser_text _ _ _ I) as [s ->]. split; [eauto|]. apply (proj1 (ext_ser_in _ _ _)) in I. exact (H _ I). }
  split.
  - intros (m & Hm & H). apply hash_map_iff in Hm as (l & -> & F & ->). split; [now apply T|]. now apply B.
  - intros [H1 H2]. assert (exists l, es = ext_ser l) as [l ->].
    { clear H2. induction es as [|[k x] es IH]; [now exists []|]. destruct IH as [l ->]; [intros k' x' I; apply H1; now right|]. destruct (H1 k x) as [[s ->] _]; [now left|]. now exists ((s, x) :: l). }
    exists (imap_of str_eqb l). split; [apply hash_map_iff; exists l; split; [reflexivity|]; split; [now apply T|reflexivity]|]. now apply B.
Qed.

(** ** Mounts *)

Lemma values_unknown : forall n t es, n <> t -> values_of n (unknown [t] es) = values_of n es.
Proof.
  intros n t es N. unfold values_of, unknown. f_equal. induction es as [|[k v] es IH]; [reflexivity|]. cbn [filter fst]. destruct k; cbn [filter fst key_is]; try exact IH.
  cbn [existsb] in IH |- *. destruct (str_eqb_spec s t) as [->|M]; cbn [orb negb].
  - rewrite IH. destruct (str_eqb_spec n t); [congruence|reflexivity].
  - cbn [filter fst key_is]. now rewrite IH.
Qed.
Lemma tagged_object : forall t kind fs es, ~ In t (map e_name fs) ->
  (object (req t (one_of [kind]) :: fs) [] (VMap es) <-> values_of t es = [VStr kind] /\ object fs [] (VMap (unknown [t] es))).
Proof.
  intros t kind fs es N. unfold object. rewrite !object_shape.
  assert (F : Forall (field_ok (unknown [t] es)) fs <-> Forall (field_ok es) fs).
  { rewrite !Forall_forall. split; intros H f I; specialize (H f I); unfold field_ok in *; (rewrite values_unknown in *; [exact H|]); intros E; apply N; apply in_map_iff; eauto. }
  rewrite F. clear F. split.
  - intros (H1 & _ & H3). inversion H1 as [|? ? Ht Hf]; subst. split.
    + unfold field_ok, req in Ht. cbn [e_name e_required e_shape] in Ht. destruct (values_of t es) as [|v [|u r]]; [discriminate| |destruct Ht]. destruct Ht as (s & -> & [->|[]]). reflexivity.
    + split; [exact Hf|]. split; [constructor|]. intros k x I. unfold unknown in I. apply filter_In in I as [I J]. destruct (H3 k x I) as (s & -> & [[E|Hs]|Hs]); [|eauto|eauto].
      exfalso. cbn [e_name req] in E. subst s. cbn [fst existsb] in J. rewrite str_eqb_refl in J. discriminate.
  - intros (Ht & Hf & _ & H3). split; [|split; [constructor|]].
    + constructor; [|exact Hf]. unfold field_ok, req. cbn [e_name e_required e_shape]. rewrite Ht. exists kind. split; [reflexivity|now left].
    + intros k x I. destruct (match k with VStr s => str_eqb s t | _ => false end) eqn:E.
      * destruct k; try discriminate. apply str_eqb_eq in E. subst s. exists t. split; [reflexivity|]. left. now left.
      * destruct (H3 k x) as (s & -> & Hs); [|exists s; split; [reflexivity|]; destruct Hs; [left; now right|now right]]. unfold unknown. apply filter_In. split; [exact I|]. cbn [fst]. destruct k; try reflexivity.
        cbn [existsb]. now rewrite E.
Qed.

Ltac members := cbn [app]; repeat first
  [ apply reads_nil
  | apply reads_required
  | apply reads_optional
  | apply reads_flag
  | apply reads_flag_true
  | apply reads_many
  | apply reads_given
  | apply reads_default ].

Lemma loads_volume_options : loads volume_options_c (object [opt $"nocopy" boolean; maybe $"subpath" any_text] []).
Proof. apply loads_iso, loads_struct_ext. members. exact loads_path. Qed.
Lemma accepts_numbered : forall {A : Type} (l : list A) i, (exists a, numbered l i = Some a) <-> (0 <= i < Z.of_nat (List.length l))%Z.
Proof.
  intros A l. induction l as [|a r IH]; intros i; cbn [numbered List.length].
  - split; [intros (a & E); discriminate|cbn; lia].
  - destruct (Z.eqb_spec i 0) as [->|N]; [split; [lia|eauto]|]. rewrite IH. lia.
Qed.
Lemma loads_variant : forall {A : Set} (d : enum_def A) l, enum_texts (map (fun a => (a, (serde_name d a, en_aliases d a))) (en_all d)) = l ->
  List.length l = List.length (en_all d) -> loads (buffered d) (VARIANT l).
Proof.
  intros A d l T N v. unfold VARIANT.
  assert (D : forall k, accepts (de (derived d) k) <-> one_of l k) by (apply loads_enum; exact T).
  assert (K : forall k, accepts (variant_key d k) <-> one_of l k \/ exists i, k = VInt i /\ (0 <= i < Z.of_nat (List.length l))%Z).
  { intros k. assert (X : (exists i, k = VInt i) \/ variant_key d k = de (derived d) k /\ ~ exists i, k = VInt i).
    { destruct k; try (right; split; [reflexivity|intros (i & E); discriminate]). left. eauto. }
    destruct X as [(i & ->)|[X Y]].
    - cbn [variant_key]. assert (R := accepts_numbered (en_all d) i). rewrite N. destruct (numbered (en_all d) i) as [a|].
      + rewrite accepts_ok. split; [intros _; right; exists i; split; [reflexivity|apply R; now exists a]|tauto].
      + rewrite accepts_no. split; [intros []|]. intros [(s & E & _)|(j & E & H)]; [discriminate|]. injection E as <-. apply R in H as (a & F). discriminate.
    - rewrite X, D. split; [tauto|]. intros [H|(i & E & _)]; [assumption|]. elim Y. eauto. }
  assert (M : (exists k u, v = VMap [(k, u)]) \/ de (buffered d) v = de (derived d) v /\ ~ exists k u, v = VMap [(k, u)]).
  { destruct v as [| | | | | |[|[k u] [|e r]]]; try (right; split; [reflexivity|intros (k' & u' & E); discriminate]). left. eauto. }
  destruct M as [(k & u & ->)|[M X]].
  - cbn [de buffered]. assert (U : is_unit u = true <-> u = VNull \/ u = VMap []).
    { destruct u as [| | | | | |[|e r]]; cbn; split; try discriminate; try tauto; intros [E|E]; discriminate. }
    destruct (is_unit u).
    + rewrite K. split.
      * intros H. right. exists k, u. split; [reflexivity|]. split; [now apply U|assumption].
      * intros [(s & E & _)|(k' & u' & E & _ & H)]; [discriminate|]. injection E as <- <-. exact H.
    + rewrite accepts_no. split; [intros []|]. intros [(s & E & _)|(k' & u' & E & H & _)]; [discriminate|]. injection E as <- <-. apply U in H. discriminate.
  - rewrite M, D. split; [tauto|]. intros [H|(k & u & E & _)]; [assumption|]. elim X. eauto.
Qed.
Lemma loads_bind_options : loads bind_options_c (object
  [maybe $"propagation" (VARIANT [$"private"; $"shared"; $"slave"; $"unbindable"; $"rprivate"; $"rshared"; $"rslave"; $"runbindable"]);
   opt $"create_host_path" boolean; maybe $"selinux" (one_of [$"z"; $"Z"])] []).
Proof. apply loads_iso, loads_struct_ext. members; [now apply loads_variant|exact loads_selinux]. Qed.
Lemma loads_tmpfs_options : loads tmpfs_options_c (object [maybe $"size" AMOUNT; maybe $"mode" U32] []).
Proof. apply loads_iso, loads_struct_ext. members; [exact loads_byte_value|exact loads_u32]. Qed.
Lemma reads_common : reads common_ms MOUNT_COMMON [].
Proof. members; [exact loads_absolute_path|exact loads_string]. Qed.

Lemma accepts_mount : forall es, accepts (mount_de (VMap es)) <->
  exists kind, values_of $"type" es = [VStr kind] /\ accepts (mount_read kind (VMap (unknown [$"type"] es))).
Proof.
  intros es. cbn [mount_de]. rewrite lookup_values. destruct (values_of $"type" es) as [|v [|u r]]; cbn [bind]; rewrite ?accepts_no; try (split; [intros []|intros (k & E & _); discriminate]).
  destruct v; rewrite ?accepts_no; try (split; [intros []|intros (k & E & _); discriminate]). split; [eauto|]. intros (k & E & H). injection E as <-. exact H.
Qed.
Lemma accepts_mount_read : forall kind v, accepts (mount_read kind v) <->
  (kind = $"volume" /\ accepts (de volume_c v)) \/ (kind = $"bind" /\ accepts (de bind_c v)) \/ (kind = $"tmpfs" /\ accepts (de tmpfs_c v)) \/
  (kind = $"npipe" /\ accepts (de named_pipe_c v)) \/ (kind = $"cluster" /\ accepts (de cluster_c v)).
Proof.
  intros kind v. unfold mount_read.
  repeat match goal with |- context [if str_eqb kind ?k then _ else _] => destruct (str_eqb_spec kind k) as [->|?] end; rewrite ?accepts_map, ?accepts_no;
    (split; [intros H; tauto|]); intros [[E H]|[[E H]|[[E H]|[[E H]|[E H]]]]]; solve [assumption|discriminate|contradiction].
Qed.
Lemma loads_mount : loads mount_c MOUNT.
Proof.
  intros v. cbn [de mount_c]. destruct v as [| | | | | |es];
    try (cbn [mount_de]; rewrite accepts_no; split; [intros []|]; unfold MOUNT, mount_of; intros [(es & E & _)|[(es & E & _)|[(es & E & _)|[(es & E & _)|(es & E & _)]]]]; discriminate).
  rewrite accepts_mount. unfold MOUNT, mount_of. rewrite !tagged_object by (cbn; intuition discriminate).
  assert (V : forall v, accepts (de volume_c v) <-> object ([maybe $"source" (text IDENTIFIER); maybe $"volume" (object [opt $"nocopy" boolean; maybe $"subpath" PATH] [])] ++ MOUNT_COMMON) [] v).
  { apply loads_iso, loads_struct_ext. apply reads_optional; [exact loads_identifier|]. apply reads_optional; [exact loads_volume_options|exact reads_common]. }
  assert (B : forall v, accepts (de bind_c v) <-> object ([req $"source" (text HOST_PATH);
    maybe $"bind" (object
      [maybe $"propagation" (VARIANT [$"private"; $"shared"; $"slave"; $"unbindable"; $"rprivate"; $"rshared"; $"rslave"; $"runbindable"]);
       opt $"create_host_path" boolean; maybe $"selinux" (one_of [$"z"; $"Z"])] [])] ++ MOUNT_COMMON) [] v).
  { apply loads_iso, loads_struct_ext. apply reads_required; [exact loads_host_path|]. apply reads_optional; [exact loads_bind_options|exact reads_common]. }
  assert (T : forall v, accepts (de tmpfs_c v) <-> object ([maybe $"tmpfs" (object [maybe $"size" AMOUNT; maybe $"mode" U32] [])] ++ MOUNT_COMMON) [] v).
  { apply loads_iso, loads_struct_ext. apply reads_optional; [exact loads_tmpfs_options|exact reads_common]. }
  assert (P : forall v, accepts (de named_pipe_c v) <-> object ([req $"source" (text HOST_PATH)] ++ MOUNT_COMMON) [] v).
  { apply loads_iso, loads_struct_ext. apply reads_required; [exact loads_host_path|exact reads_common]. }
  assert (C : forall v, accepts (de cluster_c v) <-> object ([req $"source" any_text] ++ MOUNT_COMMON) [] v).
  { apply loads_iso, loads_struct_ext. apply reads_required; [exact loads_string|exact reads_common]. }
  split.
  - intros (kind & E & H). apply accepts_mount_read in H. rewrite V, B, T, P, C in H. intuition (subst; tauto).
  - intros [[E H]|[[E H]|[[E H]|[[E H]|[E H]]]]]; eexists; (split; [exact E|]); apply accepts_mount_read; rewrite V, B, T, P, C; tauto.
Qed.

(** ** Healthchecks *)

Lemma loads_test : loads test_c TEST.
Proof.
  intros v. unfold TEST. split.
  - intros [t H]. apply test_iff in H. destruct H; [left; now eexists|right; left; now eexists|right; right; now eexists].
  - intros [[s ->]|[[args ->]|[s ->]]]; eexists; apply test_iff; constructor.
Qed.
Definition HEALTH_SHAPES : list entry :=
  [opt $"test" TEST; opt $"interval" TIME; opt $"timeout" TIME; opt $"retries" U64; opt $"start_period" TIME; opt $"start_interval" TIME].
Lemma reads_health : reads health_ms HEALTH_SHAPES [].
Proof. members; first [exact loads_test|exact loads_duration|exact loads_u64]. Qed.
Lemma slot_disable : forall es d x y, de slot_c (VMap es) = Ok ((d, x), y) -> (d = Some true <-> values_of $"disable" es = [VBool true]).
Proof.
  intros es d x y H. cbn [de slot_c struct_ext_once_c] in H.
  assert (M : m_de (given $"disable" bool_c) es = Ok d).
  { apply bind_ok in H as (a & Ha & H). apply bind_ok in H as (x' & _ & H). destruct (once _ x'); [|discriminate]. injection H as -> _.
    unfold slot_ms in Ha. cbn [de_members] in Ha. apply bind_ok in Ha as (d' & Hd & Ha). apply bind_ok in Ha as (r & _ & Ha). injection Ha as -> _. exact Hd. }
  clear H. unfold given in M. cbn [m_de field] in M. rewrite lookup_values in M. destruct (values_of $"disable" es) as [|v [|u r]]; cbn [bind] in M; try discriminate.
  - injection M as <-. split; discriminate.
  - destruct v as [|b| | | | |]; try discriminate. injection M as <-. split; intros E; injection E as ->; reflexivity.
Qed.
Lemma loads_healthcheck : loads healthcheck_c HEALTHCHECK.
Proof.
  intros v. cbn [de healthcheck_c]. destruct v as [| | | | | |es];
    try (cbn [health_de]; rewrite accepts_no; split; [intros []|]; intros [[E|[E|E]]|(es & E & _)]; discriminate).
  assert (S : loads slot_c (object (opt $"disable" boolean :: HEALTH_SHAPES) [no_repeats])).
  { apply (loads_struct_ext_once _ _ []). apply reads_given; [exact loads_bool|exact reads_health]. }
  assert (Q : object (opt $"disable" (fun v => v = VBool false) :: HEALTH_SHAPES) [no_repeats] (VMap es) <->
    object (opt $"disable" boolean :: HEALTH_SHAPES) [no_repeats] (VMap es) /\ values_of $"disable" es <> [VBool true]).
  { unfold object. rewrite !object_shape. cbn [map opt e_name]. split.
    - intros (F & C & X). inversion F as [|? ? D F']; subst. unfold field_ok, opt in D. cbn [e_name e_required e_shape] in D. split; [split; [|auto]|].
      + constructor; [|exact F']. unfold field_ok, opt. cbn [e_name e_required e_shape]. destruct (values_of $"disable" es) as [|v [|u r]]; [reflexivity|subst v; now eexists|destruct D].
      + intros E. rewrite E in D. discriminate.
    - intros ((F & C & X) & N). inversion F as [|? ? D F']; subst. unfold field_ok, opt in D. cbn [e_name e_required e_shape] in D. split; [|auto].
      constructor; [|exact F']. unfold field_ok, opt. cbn [e_name e_required e_shape]. destruct (values_of $"disable" es) as [|v [|u r]]; [reflexivity| |destruct D].
      destruct D as [[] ->]; [congruence|reflexivity]. }
  unfold HEALTHCHECK, either. fold HEALTH_SHAPES. rewrite Q, <- (S (VMap es)). split.
  - intros [[c|] H].
    + right. apply command_iff in H as (d & N & H). split; [exists ((d, fst c), snd c); exact H|]. apply slot_disable in H. tauto.
    + left. apply disabled_iff in H. unfold NO_HEALTHCHECK. intuition congruence.
  - intros [H|[[[[d c] x] H] N]].
    + exists HcDisable. apply disabled_iff. unfold NO_HEALTHCHECK in H. intuition congruence.
    + exists (HcCommand (c, x)). apply command_iff. exists d. split; [|exact H]. apply slot_disable in H. tauto.
Qed.
