(** Which values the codecs of the scalar types, the mixed forms and the hand-written visitors accept. *)

From Coq Require Import String Ascii List NArith ZArith Bool Lia ZifyBool ZifyN ZifyNat Permutation.
Import ListNotations.
From Verif Require Import Base BaseFacts Num NumFacts Coll CollFacts Regex KeysSpec KeysModel KeysProofs NumSpec IpModel IpSpec IpLang PortsModel PortsSpec PortsProofs ImageSpec PlatformModel PlatformSpec
  ValuesSpec ValuesModel ValuesProofs DurationSpec DurationModel BytesModel CpuSetModel CpuSetProofs DeviceModel DeviceProofs PathModel PathProofs ImageModel NetModel NetProofs TextModel VolumesModel BuildModel BuildProofs UserModel UserProofs
  PropsKeys PropsDuration PropsImage PropsPlatform PropsText PropsCpuSet PropsDevice PropsNet PropsPortText PropsVolumes PropsBuild PropsBytes BytesProofs
  PropsValues Serde Codec CodecFacts OrderFacts HealthModel HealthProofs PropsHealth EnumModel ScalarCodec CommonCodec ServiceParts MountCodec
  Schema SchemaText ComposeSchema SchemaFacts.
Open Scope N_scope.

Lemma loads_struct_ext_once : forall ms fs cs, reads ms fs cs -> loads (struct_ext_once_c ms) (object fs (cs ++ [no_repeats])).
Proof.
  intros ms fs cs R v. pose proof (loads_struct_ext ms fs cs R) as L. destruct R as [N R]. destruct v as [| | | | | |es];
    cbn [de struct_ext_once_c]; try (rewrite accepts_no; split; [intros []|intros (es & E & _); discriminate]).
  specialize (L (VMap es)). cbn [de struct_ext_c] in L. unfold object in *. rewrite object_shape in *. rewrite Forall_app.
  assert (NR : forall P : Prop, (Forall (fun c : condition => c es) [no_repeats] /\ P <-> keys_once es /\ P)).
  { intros P. split; intros [A B]; (split; [|exact B]); [now inversion A|now repeat constructor]. }
  rewrite accepts_bind in *. split.
  - intros (a & Ha & T). apply accepts_bind in T as (x & Hx & T). destruct (once (unknown (names ms) es) x) eqn:O; [|now apply accepts_no in T].
    destruct (proj1 L) as (H1 & H2 & H3). { exists a. split; [exact Ha|]. rewrite Hx. cbn [bind]. now eexists. }
    repeat (split; [assumption|]). rewrite and_assoc. split; [assumption|]. apply NR. split; [|exact H3].
    apply (keys_once_intro (names ms)); [|now apply (once_keys _ x)].
    intros n I. rewrite N in I. apply in_map_iff in I as (f & <- & I). rewrite Forall_forall in H1. specialize (H1 f I). unfold field_ok in H1.
    rewrite lookup_values. destruct (values_of (e_name f) es) as [|y [|z r]]; [now eexists|now eexists|contradiction].
  - intros (H1 & [H2 H3] & H4). inversion H3 as [|? ? D _]; subst. destruct (proj2 L) as (a & Ha & T); [auto|]. exists a. split; [exact Ha|].
    apply accepts_bind in T as (x & Hx & _). rewrite Hx. cbn [bind].
    destruct (once (unknown (names ms) es) x) eqn:O; [now eexists|]. exfalso.
    assert (X : extends_to [] (unknown (names ms) es) x); [|apply once_iff in X as (y & Hy & Oy & ->); congruence].
    unfold ext_de in Hx. destruct (collect ext_entry (unknown (names ms) es)) as [l|] eqn:C; cbn [map_ok] in Hx; [|discriminate]. injection Hx as <-.
    assert (DL : NoDup (map fst l)).
    { pose proof (unknown_once (names ms) es D) as DU. unfold keys_once in DU. rewrite (ext_entries _ _ C), <- (map_map fst VStr) in DU.
      now apply NoDup_map_inv in DU. }
    exists l. rewrite (imap_of_nodup str_eqb str_eqb_eq) by assumption. auto.
Qed.

(** ** Texts *)

Definition parses {E A : Type} (f : str -> result E A) (L : str -> Prop) : Prop := forall s, accepts (f s) <-> L s.
Lemma parses_same : forall {E} (f : str -> result E str) (L : str -> Prop), (forall s t, f s = Ok t <-> t = s /\ L s) -> parses f L.
Proof. intros E f L H s. split; [intros [t E1]; now apply H in E1|]. intros X. exists s. apply H. auto. Qed.
Lemma identifier_texts : parses identifier_new IDENTIFIER.
Proof. apply parses_same. exact identifier_language. Qed.
Lemma name_texts : parses name_new PROJECT_NAME.
Proof. apply parses_same. exact project_name_language. Qed.
Lemma map_key_texts : parses map_key_new MAP_KEY.
Proof.
  intros s. unfold MAP_KEY, map_key_new. destruct s as [|c s]; [rewrite accepts_no; tauto|]. destruct (contains 10 (c :: s)) eqn:E.
  - apply contains_In in E. rewrite accepts_no. tauto.
  - rewrite accepts_ok. split; [|tauto]. intros _. split; [discriminate|]. intros I. apply contains_In in I. congruence.
Qed.
Lemma hostname_texts : parses hostname_new HOSTNAME.
Proof. apply parses_same. exact hostname_language. Qed.
Lemma ulimit_texts : parses ulimit_resource_new ULIMIT.
Proof. apply parses_same. exact ulimit_resource_language. Qed.

Lemma uint_texts : forall max, parses (parse_uint max) (UINT max).
Proof. intros max s. unfold UINT. split; intros [n H]; exists n; now apply parse_uint_text. Qed.
Lemma absolute_texts : parses absolute_path_new ABSOLUTE_PATH.
Proof. apply parses_same. intros s t. rewrite absolute_path_new_ok, is_absolute_iff. reflexivity. Qed.
Lemma host_path_texts : parses host_path_new HOST_PATH.
Proof. apply parses_same. intros s t. rewrite host_path_new_ok. reflexivity. Qed.
Lemma image_texts : parses image_parse IMAGE.
Proof. exact image_language_partial. Qed.
Lemma platform_texts : parses (platform_parse crate_table) PLATFORM.
Proof. exact crate_platform_texts. Qed.
Lemma link_texts : parses link_parse LINK.
Proof.
  intros s. split.
  - intros [l H]. apply link_language in H as [H E]. destruct (l_alias l) as [a|].
    + exists (l_service l), ($":" ++ a). split; [exact E|]. split; [exact H|]. right. now exists a.
    + exists (l_service l), []. rewrite app_nil_r. auto.
  - intros (v & r & E & H & [->|[a ->]]).
    + rewrite app_nil_r in E. exists (mk_link v None). apply link_language. auto.
    + exists (mk_link v (Some a)). apply link_language. auto.
Qed.
Lemma prefix_case : forall p s : str, (exists r, s = p ++ r) \/ forall r, s <> p ++ r.
Proof. intros p s. destruct (strip_prefix p s) as [r|] eqn:E; [left; apply strip_prefix_some in E; eauto|right; apply strip_prefix_none; exact E]. Qed.
Lemma ipc_texts : parses ipc_parse IPC.
Proof.
  intros s. split.
  - intros [i H] r E. apply ipc_language in H as [C H]. destruct i as [|n|o]; cbn [ipc_canonical] in C.
    + rewrite E in H. discriminate H.
    + rewrite E in H. apply app_inv_head in H. now subst.
    + destruct C as [_ C]. exfalso. apply (C r). congruence.
  - intros H. destruct (str_eq_dec s $"shareable") as [->|N]; [exists IpcShareable; now apply ipc_language|].
    destruct (prefix_case $"service:" s) as [[r ->]|P].
    + exists (IpcService r). apply ipc_language. split; [|reflexivity]. apply (H r). reflexivity.
    + exists (IpcOther s). apply ipc_language. split; [|reflexivity]. split; assumption.
Qed.
Lemma network_mode_texts : parses network_mode_parse NETWORK_MODE.
Proof.
  intros s. split.
  - intros [m H] r E. destruct (network_mode_rejects s) as [_ X]. destruct (identifier_new r) as [t|e] eqn:I; [apply identifier_language in I as [_ I]; exact I|].
    exfalso. destruct X as [e' X]; [|congruence]. exists r. split; [exact E|]. intros M. rewrite (proj2 (identifier_language r r)) in I by auto. discriminate.
  - intros H. destruct (network_mode_parse s) as [m|e] eqn:E; [now exists m|]. exfalso. destruct (proj1 (network_mode_rejects s) (ex_intro _ e E)) as (r & E1 & N). apply N. now apply H.
Qed.
Lemma volumes_from_texts : parses volumes_from_parse VOLUMES_FROM.
Proof.
  intros s. split.
  - intros [[src ro] H]. apply volumes_from_language in H. cbn [vf_source vf_read_only] in H. destruct H as [C H].
    assert (X : exists id, (source_text src = id \/ source_text src = $"container:" ++ id) /\ IDENTIFIER id) by (destruct src as [id|id]; exists id; cbn [source_text]; auto).
    destruct X as (id & X & I).
    destruct ro; [exists (source_text src), id, $":ro"|destruct H as [H|[H _]]; [exists (source_text src), id, $":rw"|exists (source_text src), id, []; rewrite app_nil_r]];
      (repeat split; [exact H|exact X|exact I|cbn; tauto]).
  - intros (src & id & mode & -> & S & I & M).
    assert (X : exists v, source_ok v /\ source_text v = src) by (destruct S as [->| ->]; [exists (FromService id)|exists (FromContainer id)]; split; try reflexivity; exact I).
    destruct X as (v & C & <-). cbn [In] in M. destruct M as [<-|[<-|[<-|[]]]].
    + rewrite app_nil_r. destruct v as [i|i]; cbn [source_text] in *.
      * exists (mk_volumes_from (FromService i) false). apply volumes_from_language. cbn. split; [exact C|]. right. split; [reflexivity|]. split; discriminate.
      * destruct (str_eq_dec i $"ro") as [->|N1]; [exists (mk_volumes_from (FromService $"container") true); reflexivity|].
        destruct (str_eq_dec i $"rw") as [->|N2]; [exists (mk_volumes_from (FromService $"container") false); reflexivity|].
        exists (mk_volumes_from (FromContainer i) false). apply volumes_from_language. cbn [vf_source vf_read_only]. split; [exact C|]. right. split; [reflexivity|]. split; congruence.
    + exists (mk_volumes_from v true). apply volumes_from_language. cbn [vf_source vf_read_only]. auto.
    + exists (mk_volumes_from v false). apply volumes_from_language. cbn [vf_source vf_read_only]. auto.
Qed.
Lemma user_name_texts : parses user_name_new USER_NAME.
Proof.
  intros s. unfold USER_NAME. split.
  - intros [t H]. apply user_name_language in H as (_ & H1 & H2 & H3). repeat split; auto. lia.
  - intros (H1 & H2 & H3). exists s. apply user_name_language. repeat split; auto. lia.
Qed.
Lemma id_or_name_texts : parses id_or_name_parse ID_OR_NAME.
Proof.
  intros s. unfold ID_OR_NAME, id_or_name_parse. rewrite <- (uint_texts U32_MAX s), <- (user_name_texts s). change (parse_u32 s) with (parse_uint U32_MAX s).
  destruct (parse_uint U32_MAX s) as [n|e]; rewrite ?accepts_ok, ?accepts_map, ?accepts_no; tauto.
Qed.
Lemma uint_not : forall max s c, UINT max s -> is_digit c = false -> c <> ch "+" -> ~ In c s.
Proof. intros max s c [n H] D N I. destruct (uint_text_chars _ _ _ _ H I) as [X|X]; congruence. Qed.
Lemma id_or_name_colon : forall s, ID_OR_NAME s -> ~ In (ch ":") s.
Proof.
  intros s [H|H]; [now apply (uint_not U32_MAX)|]. apply user_name_texts in H as [t H]. pose proof H as H'. apply user_name_language in H' as [-> _].
  exact (UserProofs.id_or_name_no_colon (UName s) H).
Qed.
Lemma user_texts : parses user_parse USER.
Proof.
  intros s. unfold user_parse, USER. destruct (split_once_case (ch ":") s) as [[N ->]|[a [b [-> [Na ->]]]]].
  - rewrite accepts_map, (id_or_name_texts s). split.
    + intros H. exists s, []. rewrite app_nil_r. auto.
    + intros (u & g & -> & H & [->|(n & -> & _)]); [now rewrite app_nil_r|]. exfalso. apply N. apply in_or_app. right. left. reflexivity.
  - rewrite accepts_bind. split.
    + intros (u & Hu & T). apply accepts_bind in T as (g & Hg & _). exists a, ($":" ++ b). split; [reflexivity|].
      split; [apply id_or_name_texts; now exists u|]. right. exists b. split; [reflexivity|]. apply id_or_name_texts. now exists g.
    + intros (u & g & E & H & G). pose proof (id_or_name_colon u H) as Nu. destruct G as [->|(n & -> & Hn)].
      * rewrite app_nil_r in E. subst u. exfalso. apply Nu. apply in_or_app. right. left. reflexivity.
      * assert (X : split_once (ch ":") (a ++ ch ":" :: b) = Some (u, n)) by (apply split_once_some; auto).
        rewrite split_once_app in X by exact Na. injection X as -> ->. apply id_or_name_texts in H as [x Hx], Hn as [y Hy]. exists x. split; [exact Hx|]. rewrite Hy. cbn [bind]. now eexists.
Qed.

Lemma cpus_item : forall s, item_wf s <-> CPUS s.
Proof.
  intros s. unfold item_wf, CPUS. split.
  - intros [H|(a & b & m & n & E & Ha & Hb)]; [left; now apply uint_texts|]. right. exists a, b. split; [exact E|]. split; apply uint_texts; eexists; eassumption.
  - intros [H|(a & b & E & Ha & Hb)]; [left; now apply uint_texts in H|]. right. apply uint_texts in Ha as [m Ha], Hb as [n Hb]. exists a, b, m, n. auto.
Qed.
Lemma cpus_not : forall s, CPUS s -> s <> [] /\ ~ In (ch ",") s.
Proof.
  intros s H. assert (U : forall t, UINT U64_MAX t -> t <> [] /\ ~ In (ch ",") t).
  { intros t Ht. split; [|now apply (uint_not U64_MAX)]. intros ->. destruct Ht as (n & ds & [E|E] & Nd & _); [congruence|discriminate E]. }
  destruct H as [H|(a & b & -> & Ha & Hb)]; [now apply U|]. apply U in Ha as [Na Ca], Hb as [Nb Cb]. split.
  - destruct a; [congruence|discriminate].
  - rewrite !in_app_iff. intros [J|[J|J]]; [contradiction| |contradiction]. destruct J as [J|[]]; discriminate J.
Qed.
Lemma cpuset_total : forall items acc, Forall item_wf items -> accepts (cpuset_items acc items).
Proof.
  induction items as [|i items IH]; intros acc F; cbn [cpuset_items]; [now eexists|]. inversion F as [|? ? W F']; subst.
  destruct (cpuset_item_total acc i W) as [l ->]. cbn [bind]. now apply IH.
Qed.
Lemma join_snoc : forall sep l x, l <> [] -> join sep (l ++ [x]) = join sep l ++ sep ++ x.
Proof.
  intros sep l x. induction l as [|y l IH]; intros N; [congruence|]. destruct l as [|z l]; [reflexivity|].
  change (join sep ((y :: z :: l) ++ [x])) with (y ++ sep ++ join sep ((z :: l) ++ [x])). rewrite IH by discriminate.
  change (join sep (y :: z :: l)) with (y ++ sep ++ join sep (z :: l)). now rewrite <- !app_assoc.
Qed.
Lemma cpuset_texts : parses cpuset_parse CPUSET.
Proof.
  intros s. split.
  - intros [l H]. apply cpuset_parse_meaning in H as (items & C & E & W & _). destruct items as [|i items]; [destruct E as [->|[N _]]; [now left|exfalso; now apply N]|].
    right. exists (i :: items). split; [discriminate|]. split; [eapply Forall_impl; [|exact W]; intros; now apply cpus_item|].
    destruct E as [->|[_ ->]]; [right|now left]. rewrite join_snoc by discriminate. now rewrite app_nil_r.
  - intros H. unfold cpuset_parse. assert (X : exists items, split_terminator (ch ",") s = items /\ Forall CPUS items).
    { destruct H as [->|(items & N & F & E)]; [exists []; split; [reflexivity|constructor]|]. exists items. split; [|exact F]. apply split_terminator_iff. split.
      - eapply Forall_impl; [|exact F]. intros a Ha. now apply cpus_not.
      - destruct E as [->| ->]; [right; split; [|reflexivity]|left; rewrite join_snoc by exact N; now rewrite app_nil_r].
        destruct (exists_last N) as (r & x & ->). rewrite last_last. apply Forall_app in F as [_ F]. inversion F; subst. now apply cpus_not. }
    destruct X as (items & -> & F). apply cpuset_total. eapply Forall_impl; [|exact F]. intros a. apply cpus_item.
Qed.

Lemma permissions_texts : forall p, PERMISSIONS p -> exists x, (perm_read x = true <-> In (ch "r") p) /\ (perm_write x = true <-> In (ch "w") p) /\ (perm_mknod x = true <-> In (ch "m") p).
Proof.
  intros p _. assert (X : forall c, contains c p = true <-> In c p) by (intros c; apply contains_In).
  exists (mk_permissions (contains (ch "r") p) (contains (ch "w") p) (contains (ch "m") p)). cbn. now rewrite !X.
Qed.
Lemma device_texts : parses device_parse DEVICE.
Proof.
  intros s. split.
  - intros [d H]. apply device_parse_meaning in H as (A & H1 & H2 & H). destruct H as [[-> _]|(p & -> & P & _)].
    + exists (dev_host d), (dev_container d), []. rewrite app_nil_r. auto 7.
    + exists (dev_host d), (dev_container d), ($":" ++ p). split; [reflexivity|]. repeat (split; [assumption|]). right. exists p. auto.
  - intros (h & c & r & -> & Nh & Nc & A & [->|(p & -> & P)]).
    + exists (mk_device h c (mk_permissions false false false)). apply device_parse_meaning. cbn [dev_host dev_container dev_permissions]. rewrite app_nil_r. auto 7.
    + destruct (permissions_texts p P) as (x & X). exists (mk_device h c x). apply device_parse_meaning. cbn [dev_host dev_container dev_permissions].
      repeat (split; [assumption|]). right. exists p. split; [reflexivity|]. split; [exact P|exact X].
Qed.
Lemma device_number_not : forall a c, DEVICE_NUMBER a -> is_digit c = false -> c <> ch "+" -> c <> ch "*" -> ~ In c a.
Proof.
  intros a c [->|[->|H]] D N1 N2; [intros []| |now apply (uint_not 65535)]. intros [E|[]]. now apply N2.
Qed.
Lemma cgroup_texts : parses cgroup_parse DEVICE_CGROUP_RULE.
Proof.
  assert (M : forall m a, match m with MMAll => a = [] \/ a = $"*" | MMInt n => parse_u16 a = Ok n end -> DEVICE_NUMBER a).
  { intros [|n] a H; unfold DEVICE_NUMBER; [tauto|]. right. right. apply uint_texts. now exists n. }
  assert (M' : forall a, DEVICE_NUMBER a -> exists m, match m with MMAll => a = [] \/ a = $"*" | MMInt n => parse_u16 a = Ok n end).
  { intros a [H|[H|H]]; [exists MMAll; auto|exists MMAll; auto|]. apply uint_texts in H as [n H]. now exists (MMInt n). }
  intros s. split.
  - intros [r H]. apply cgroup_rule_parse_meaning in H as (a & b & N1 & N2 & N3 & Ma & Mb & H). cbv zeta in H.
    set (k := match cg_kind r with KAll => $"a" | KChar => $"c" | KBlock => $"b" end).
    assert (K : In k [$"a"; $"b"; $"c"]) by (unfold k; destruct (cg_kind r); cbn; auto).
    assert (E : match cg_kind r with KAll => $"a " | KChar => $"c " | KBlock => $"b " end = k ++ $" ") by (unfold k; destruct (cg_kind r); reflexivity).
    rewrite E in H. destruct H as [[-> _]|(p & -> & P & _)].
    + exists k, a, b, []. rewrite app_nil_r, <- app_assoc. split; [reflexivity|]. split; [exact K|]. split; [eapply M; exact Ma|]. split; [eapply M; exact Mb|]. now left.
    + exists k, a, b, ($" " ++ p). split; [now rewrite <- !app_assoc|]. split; [exact K|]. split; [eapply M; exact Ma|]. split; [eapply M; exact Mb|]. right. exists p. auto.
  - intros (k & a & b & rest & -> & K & Ha & Hb & R). destruct (M' a Ha) as [ma Ma], (M' b Hb) as [mb Mb].
    assert (X : exists kd, match kd with KAll => $"a " | KChar => $"c " | KBlock => $"b " end = k ++ $" ").
    { cbn [In] in K. destruct K as [<-|[<-|[<-|[]]]]; [exists KAll|exists KBlock|exists KChar]; reflexivity. }
    destruct X as [kd X]. destruct R as [->|(p & -> & P)].
    + exists (mk_cgroup_rule kd ma mb (mk_permissions false false false)). apply cgroup_rule_parse_meaning. exists a, b. cbn [cg_kind cg_major cg_minor cg_permissions]. cbv zeta.
      split; [now apply device_number_not|]. split; [now apply device_number_not|]. split; [now apply device_number_not|]. split; [exact Ma|]. split; [exact Mb|]. left. rewrite X, app_nil_r, <- app_assoc. auto.
    + destruct (permissions_texts p P) as (x & Hx). exists (mk_cgroup_rule kd ma mb x). apply cgroup_rule_parse_meaning. exists a, b. cbn [cg_kind cg_major cg_minor cg_permissions]. cbv zeta.
      split; [now apply device_number_not|]. split; [now apply device_number_not|]. split; [now apply device_number_not|]. split; [exact Ma|]. split; [exact Mb|]. right. exists p. rewrite X. split; [now rewrite <- !app_assoc|]. split; [exact P|exact Hx].
Qed.

(** Hexadecimal. *)
Lemma hex_accumulate : forall max over s acc, accepts (accumulate 16 max over s acc) /\ acc <= max <->
  Forall (in_cls HEX) s /\ fold_left (fun n c => n * 16 + hex_digit c) s acc <= max.
Proof.
  assert (G : forall s acc, acc <= fold_left (fun n c => n * 16 + hex_digit c) s acc).
  { induction s as [|c s IH]; intros acc; cbn [fold_left]; [lia|]. specialize (IH (acc * 16 + hex_digit c)). lia. }
  intros max over s. induction s as [|c s IH]; intros acc; cbn [accumulate fold_left].
  - rewrite accepts_ok. split; [intros [_ H]; split; [constructor|exact H]|tauto].
  - destruct (to_digit 16 c) as [d|] eqn:D.
    + apply hex_to_digit in D as [D ->]. specialize (IH (acc * 16 + hex_digit c)). destruct (N.leb_spec (acc * 16 + hex_digit c) max) as [B|B].
      * split.
        -- intros [H _]. destruct (proj1 IH) as [F V]; [auto|]. split; [now constructor|exact V].
        -- intros [F V]. inversion F; subst. destruct (proj2 IH) as [H _]; [auto|]. split; [exact H|]. specialize (G s (acc * 16 + hex_digit c)). lia.
      * rewrite accepts_no. split; [tauto|]. intros [F V]. specialize (G s (acc * 16 + hex_digit c)). lia.
    + rewrite accepts_no. split; [tauto|]. intros [F _]. inversion F as [|? ? X _]; subst. assert (Y : to_digit 16 c = Some (hex_digit c)) by (apply hex_to_digit; auto). congruence.
Qed.
Lemma hex_not : forall s c, Forall (in_cls HEX) s -> ~ in_cls HEX c -> ~ In c s.
Proof. intros s c F N I. rewrite Forall_forall in F. now apply N, F. Qed.
Lemma not_hex_sign : ~ in_cls HEX 43 /\ ~ in_cls HEX 45 /\ ~ in_cls HEX 58.
Proof. repeat split; intros H; assert (X : exists d, Some d = to_digit 16 43 \/ Some d = to_digit 16 45 \/ Some d = to_digit 16 58) by (eexists; rewrite !(proj2 (hex_to_digit _ _) (conj H eq_refl)); tauto);
  destruct X as [d [X|[X|X]]]; discriminate X. Qed.
Lemma hex_texts : forall max, parses (parse_uint_radix 16 max) (HEX_UINT max).
Proof.
  intros max s. unfold parse_uint_radix, HEX_UINT. destruct not_hex_sign as (NP & NM & _). destruct s as [|c r].
  { rewrite accepts_no. split; [intros []|]. intros (ds & [E|E] & N & _); [congruence|discriminate E]. }
  pose proof (fun s => hex_accumulate max IntPosOverflow s 0) as A.
  assert (A' : forall s, accepts (accumulate 16 max IntPosOverflow s 0) <-> Forall (in_cls HEX) s /\ number_in 16 hex_digit s <= max).
  { intros t. specialize (A t). unfold number_in. split; [intros H; apply A; split; [exact H|lia]|]. intros H. now apply A in H. }
  clear A. destruct (N.eqb_spec c 43) as [->|N1]; cbn [orb].
  - destruct r as [|d r].
    + rewrite accepts_no. split; [intros []|]. intros (ds & [<-|E] & N & F & _).
      * inversion F; subst. contradiction.
      * cbn in E. injection E as <-. congruence.
    + rewrite A'. split.
      * intros [F V]. exists (d :: r). repeat split; auto. discriminate.
      * intros (ds & [<-|E] & N & F & V); [inversion F; subst; contradiction|]. cbn in E. injection E as <-. auto.
  - assert (X : forall P : Prop, (accepts (if c =? 45 then match r with [] => Err IntInvalidDigit | _ => accumulate 16 max IntPosOverflow (c :: r) 0 end
                                    else accumulate 16 max IntPosOverflow (c :: r) 0) <-> P) <-> (Forall (in_cls HEX) (c :: r) /\ number_in 16 hex_digit (c :: r) <= max <-> P)).
    { intros P. destruct (N.eqb_spec c 45) as [->|N2]; [|now rewrite A'].
      assert (Y : accepts (match r with [] => Err IntInvalidDigit | _ => accumulate 16 max IntPosOverflow (45 :: r) 0 end) <-> False).
      { destruct r as [|d r]; [apply accepts_no|]. rewrite A'. split; [|intros []]. intros [F _]. inversion F; subst. contradiction. }
      rewrite Y. split; (intros [H1 H2]; split; [|]); try tauto.
      - intros [F _]. inversion F; subst. contradiction.
      - intros Hp. exfalso. apply H2 in Hp as [F _]. inversion F; subst. contradiction. }
    apply X. clear X. split.
    + intros [F V]. exists (c :: r). repeat split; auto. discriminate.
    + intros (ds & [<-|E] & N & F & V); [auto|]. cbn in E. injection E as E _. congruence.
Qed.
Lemma forall2_length : forall A B (R : A -> B -> Prop) l m, Forall2 R l m -> List.length l = List.length m.
Proof. intros A B R l m F. induction F; cbn; congruence. Qed.
Lemma mac_texts : parses mac_parse MAC_ADDRESS.
Proof.
  intros s. split.
  - intros [m H]. apply mac_parse_ok in H as [L F]. exists (split (ch ":") s). split; [symmetry; apply split_join|].
    split; [rewrite <- L; apply (forall2_length _ _ _ _ _ F)|]. clear L. induction F as [|p b ps bs Hp F IH]; constructor; [|exact IH]. apply hex_texts. now exists b.
  - intros (gs & -> & L & F). assert (X : exists m, Forall2 (fun piece b => parse_uint_radix 16 U8_MAX piece = Ok b) gs m).
    { clear L. induction F as [|g gs Hg F IH]; [exists []; constructor|]. destruct IH as [m IH]. apply hex_texts in Hg as [b Hb]. exists (b :: m). now constructor. }
    destruct X as [m X]. exists m. apply mac_parse_ok. rewrite <- (forall2_length _ _ _ _ _ X). split; [exact L|]. rewrite split_of_join; [exact X|destruct gs; discriminate|].
    eapply Forall_impl; [|exact F]. intros g (ds & E & N & D & _) I. destruct not_hex_sign as (_ & _ & NC). apply (hex_not ds (ch ":") D NC).
    destruct E as [->| ->]; [exact I|]. apply in_app_iff in I as [I|I]; [|exact I]. destruct I as [I|[]]. discriminate I.
Qed.

Lemma ip_texts : parses (from_option ip_parse) IP.
Proof.
  intros s. unfold IP, from_option. split.
  - intros [i H]. destruct (ip_parse s) as [j|] eqn:E; [|discriminate]. exists j. now apply ip_language.
  - intros [i H]. apply ip_language in H. rewrite H. now eexists.
Qed.
Lemma ipv4_texts : parses (from_option ipv4_parse) IPV4.
Proof.
  intros s. unfold IPV4, from_option, ipv4_parse. split.
  - intros [i H]. destruct (ip_parse s) as [j|] eqn:E; [|discriminate]. apply ip_language in E. destruct j as [a b c d|l]; cbn [is_v4] in H; [|discriminate]. now exists (a, b, c, d).
  - intros [[[[a b] c] d] H]. assert (X : ip_parse s = Some (V4 a b c d)) by now apply ip_language. rewrite X. cbn [is_v4]. now eexists.
Qed.
Lemma ipv6_texts : parses (from_option ipv6_parse) IPV6.
Proof.
  intros s. unfold IPV6, from_option, ipv6_parse. split.
  - intros [i H]. destruct (ip_parse s) as [j|] eqn:E; [|discriminate]. apply ip_language in E. destruct j as [a b c d|l]; cbn [is_v4] in H; [discriminate|]. now exists l.
  - intros [l H]. assert (X : ip_parse s = Some (V6 l)) by now apply ip_language. rewrite X. cbn [is_v4]. now eexists.
Qed.
Lemma net_texts : forall w, parses (from_option (w_net w)) (NETWORK_TEXT w).
Proof. intros w s. unfold NETWORK_TEXT, from_option. destruct (w_net w s) as [n|]; rewrite ?accepts_ok, ?accepts_no; split; try tauto; [intros _; now exists n|intros [n E]; discriminate]. Qed.

Lemma short_volume_texts : parses short_volume_parse SHORT_VOLUME.
Proof.
  assert (SP : forall src, accepts (source_parse src) <-> HOST_PATH src \/ IDENTIFIER src).
  { intros src. destruct (volume_source_kinds src) as [A B]. split.
    - intros [[p|i] H]; [apply A in H as [_ H]; left; exact H|apply B in H as [_ H]; right; exact H].
    - intros [H|H]; [exists (HostPath src); now apply A|exists (NamedVolume src); now apply B]. }
  intros s. split.
  - intros [v H]. apply short_volume_parse_meaning in H as (A & N & H). destruct (sv_options v) as [o|].
    + destruct H as (src & P & Ns & H). destruct H as [[-> _]|(opts & st & -> & O & _)].
      * exists (src ++ $":"), (sv_container v), []. rewrite app_nil_r, <- app_assoc. split; [reflexivity|]. split; [exact A|]. split; [exact N|]. right.
        split; [|now left]. exists src. split; [reflexivity|]. split; [exact Ns|]. apply SP. exists (so_source o). exact P.
      * exists (src ++ $":"), (sv_container v), ($":" ++ opts). split; [now rewrite <- app_assoc|]. split; [exact A|]. split; [exact N|]. right. split.
        -- exists src. split; [reflexivity|]. split; [exact Ns|]. apply SP. exists (so_source o). exact P.
        -- right. exists (split (ch ",") opts). split; [change $"," with [ch ","]; now rewrite split_join|]. split; [apply split_nonempty|].
           apply volume_options_exact in O as (O1 & O2 & O3 & O4 & _). split; [exact O1|]. split; [|auto]. intros o' I. cbn [In]. destruct (O2 o' I) as [->|[->|[->| ->]]]; auto.
    + exists [], s, []. rewrite app_nil_r. subst s. cbn [app]. auto 7.
  - intros (source & c & options & -> & A & N & H). destruct H as [[-> ->]|[(p & -> & Np & Sp) O]].
    + exists (mk_short_volume c None). apply short_volume_parse_meaning. cbn [sv_container sv_options app]. rewrite app_nil_r. auto.
    + apply SP in Sp as [src Sp]. destruct O as [->|(os & -> & No & O1 & O2 & O3 & O4)].
      * exists (mk_short_volume c (Some (mk_short_options src false None))). apply short_volume_parse_meaning. cbn [sv_container sv_options so_source so_read_only so_selinux].
        split; [exact A|]. split; [exact N|]. exists p. split; [exact Sp|]. split; [exact Np|]. left. rewrite app_nil_r, <- app_assoc. auto.
      * destruct (volume_options_accepts os) as [st O]; auto. { intros o I. apply O2 in I. cbn [In] in I. destruct I as [<-|[<-|[<-|[<-|[]]]]]; auto. }
        exists (mk_short_volume c (Some (mk_short_options src (match fst st with Some b => b | None => false end) (snd st)))). apply short_volume_parse_meaning.
        cbn [sv_container sv_options so_source so_read_only so_selinux]. split; [exact A|]. split; [exact N|]. exists p. split; [exact Sp|]. split; [exact Np|]. right.
        exists (join $"," os), st. split; [now rewrite <- app_assoc|]. split; [|auto]. change $"," with [ch ","]. rewrite split_of_join; [exact O|exact No|].
        apply Forall_forall. intros o I. apply O2 in I. cbn [In] in I. destruct I as [<-|[<-|[<-|[<-|[]]]]]; intros J; cbn in J; repeat (destruct J as [J|J]; [discriminate J|]); exact J.
Qed.

Lemma selinux_texts : parses selinux_parse (fun s => In s [$"z"; $"Z"]).
Proof.
  intros s. unfold selinux_parse. cbn [In]. destruct (str_eqb_spec s $"z") as [->|N1]; [rewrite accepts_ok; tauto|].
  destruct (str_eqb_spec s $"Z") as [->|N2]; [rewrite accepts_ok; tauto|]. rewrite accepts_no. split; [intros []|]. intros [E|[E|[]]]; congruence.
Qed.
Lemma exists_last_or_nil : forall A (l : list A), l = [] \/ exists m x, l = m ++ [x].
Proof. intros A l. destruct l as [|y l] using rev_ind; [now left|]. right. eauto. Qed.
Lemma last_in_rev : forall {V} (kvs : list (str * V)) k r, imap_get str_eqb (rev kvs) k = Some r <->
  exists before after, kvs = before ++ (k, r) :: after /\ ~ In k (map fst after).
Proof.
  intros V kvs k r. pose proof (rev_involutive kvs) as R. revert R. generalize (rev kvs) as l. intros l <-. induction l as [|[j x] l IH]; cbn [imap_get rev].
  - split; [discriminate|]. intros (b & a & E & _). destruct b; discriminate.
  - destruct (str_eqb_spec k j) as [->|N].
    + split.
      * intros E. injection E as ->. exists (rev l), []. cbn. auto.
      * intros (b & a & E & H). destruct (exists_last_or_nil _ a) as [->|(a' & y & ->)].
        -- apply app_inj_tail in E as [_ E]. congruence.
        -- exfalso. change ((j, r) :: a' ++ [y]) with (((j, r) :: a') ++ [y]) in E. rewrite app_assoc in E. apply app_inj_tail in E as [_ <-]. apply H. rewrite map_app, in_app_iff. right. now left.
    + rewrite IH. split.
      * intros (b & a & E & H). exists b, (a ++ [(j, x)]). rewrite E, <- app_assoc. split; [reflexivity|]. rewrite map_app, in_app_iff. intros [I|[I|[]]]; [contradiction|]. cbn in I. congruence.
      * intros (b & a & E & H). destruct (exists_last_or_nil _ a) as [->|(a' & y & ->)].
        -- apply app_inj_tail in E as [_ E]. congruence.
        -- change ((k, r) :: a' ++ [y]) with (((k, r) :: a') ++ [y]) in E. rewrite app_assoc in E. apply app_inj_tail in E as [E <-]. exists b, a'. split; [exact E|].
           intros I. apply H. rewrite map_app, in_app_iff. now left.
Qed.
Lemma cache_texts : parses cache_parse CACHE.
Proof.
  assert (IM : forall s, (exists i, image_parse s = Ok i) <-> IMAGE s) by exact image_texts.
  assert (PO : forall o, pair_ok o <-> CACHE_TEXT (fst o) /\ ~ In (ch "=") (fst o) /\ CACHE_TEXT (snd o)) by (intros o; unfold pair_ok, is_option, CACHE_TEXT; tauto).
  assert (RG : is_option $"registry" /\ ~ In (ch ",") $"registry").
  { split; [split; [discriminate|]|].
    - intros c H. repeat (destruct H as [<-|H]; [reflexivity|]). destruct H.
    - intros H. repeat (destruct H as [H|H]; [discriminate H|]). destruct H. }
  assert (TT : forall ty (kvs : list (str * str)), typed_text ty kvs = $"type=" ++ join $"," (ty :: map (fun o => fst o ++ $"=" ++ snd o) kvs)) by reflexivity.
  intros s. split.
  - intros [c H]. apply cache_language in H as [(i & H & _)|(ty & kvs & -> & N & F & C & H)]; [left; apply IM; now exists i|]. right. exists ty, kvs.
    split; [apply TT|]. split; [exact N|]. split; [eapply Forall_impl; [|exact F]; intros o; apply PO|].
    destruct H as [(-> & r & i & G & P & _)|(Nt & O & _)].
    + split; [unfold CACHE_TEXT; unfold is_option in RG; tauto|]. intros _. apply last_in_rev in G as (b & a & E & H). exists b, r, a. split; [exact E|]. split; [exact H|]. apply IM. now exists i.
    + split; [unfold CACHE_TEXT; unfold is_option in O; tauto|]. congruence.
  - intros [H|(ty & kvs & -> & N & F & T & R)].
    + apply IM in H as [i H]. exists (mk_cache (CtRegistry i) []). apply cache_language. left. eauto.
    + assert (X : Forall pair_ok kvs) by (eapply Forall_impl; [|exact F]; intros o; apply PO). destruct (str_eq_dec ty $"registry") as [E|Nt].
      * destruct (R E) as (b & r & a & E2 & Na & I). apply IM in I as [i I]. exists (mk_cache (CtRegistry i) (without $"ref" (imap_of str_eqb kvs))). apply cache_language. right.
        exists ty, kvs. split; [symmetry; apply TT|]. split; [exact N|]. split; [exact X|]. split; [apply T|]. left. split; [exact E|]. exists r, i. split; [|auto]. apply last_in_rev. eauto.
      * exists (mk_cache (CtOther ty) (imap_of str_eqb kvs)). apply cache_language. right. exists ty, kvs. split; [symmetry; apply TT|]. split; [exact N|]. split; [exact X|].
        split; [apply T|]. right. split; [exact Nt|]. split; [|reflexivity]. split; apply T.
Qed.
Lemma ssh_texts : parses ssh_auth_parse SSH.
Proof.
  intros s. split.
  - intros [[|[id path]] H]; apply ssh_auth_language in H; [now left|]. right. exists id, path. exact H.
  - intros [->|(id & path & H)]; [exists SshDefault; now apply ssh_auth_language|]. exists (SshId (mk_ssh_id id path)). now apply ssh_auth_language.
Qed.

Lemma build_network_texts : parses build_network_parse IDENTIFIER.
Proof.
  intros s. split.
  - intros [[i|] H]; apply build_network_language in H; [destruct H as (-> & H & _); exact H|]. subst s. apply identifier_texts. now eexists.
  - intros H. destruct (str_eq_dec s $"none") as [->|N]; [exists BnNone; now apply build_network_language|]. exists (BnIdentifier s). apply build_network_language. auto.
Qed.
Lemma u32_texts : parses parse_u32 (UINT 4294967295).
Proof. exact (uint_texts 4294967295). Qed.
