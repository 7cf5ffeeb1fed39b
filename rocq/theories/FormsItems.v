(** The two forms of the single values. *)

From Coq Require Import String Ascii List NArith ZArith Bool Lia Permutation.
Import ListNotations.
From Verif Require Import Base BaseFacts Num NumFacts Coll CollFacts Regex RegexFacts KeysSpec KeysModel KeysProofs NumSpec ValuesSpec ValuesModel ValuesNumProofs ListMapProofs PropsValues BytesModel IpModel IpSpec PathModel PortsModel PortsSpec PortsProofs
  PropsPorts PropsPortText VolumesModel DeviceModel DeviceProofs VolumesProofs PropsVolumes EqModel HashFacts Serde Codec CodecFacts EnumModel ScalarCodec CommonCodec ServiceParts MountCodec ServiceCodec ComposeCodec EmptyModel ShortModel PanicSpec ChangeSpec ChangeFacts SpellSpec SpellFacts
  FormsSpec FormsModel FormsSame FormsFacts.
Open Scope N_scope.


(** A struct with one entry, the main one. *)
Lemma sees_grant : sees (short_or_long_c identifier_c config_or_secret_c) same_grant grant_form.
Proof.
  intros v v' _ (s & -> & ->). unfold config_or_secret_c. cbn [de short_or_long_c]. destruct (de identifier_c (VStr s)) as [x|[]] eqn:E.
  - cbn -[identifier_c]. rewrite E. reflexivity.
  - cbn -[identifier_c]. rewrite E. exact I.
Qed.
Lemma sees_include_path : sees (short_or_long_c path_c include_c) (same (into_long include_of_short)) include_form.
Proof. intros v v' _ (s & -> & ->). reflexivity. Qed.
Lemma sees_context : forall w, sees (short_or_long_c (context_c w) (build_c w)) (same (into_long build_of_short)) build_form.
Proof.
  intros w v v' _ (s & -> & ->). cbn [de short_or_long_c]. destruct (de (context_c w) (VStr s)) as [x|[]] eqn:E.
  - replace (de (build_c w) _) with (Ok (build_of_short x) : result de_error (ShortModel.build w)); [reflexivity|]. symmetry. 
    cbn -[context_c]. rewrite E. reflexivity.
  - discriminate E.
Qed.
Lemma sees_env_file_path : sees (short_or_long_c path_c env_file_config_c) (same (into_long env_file_config_of_short)) env_file_form.
Proof. intros v v' _ (s & -> & ->). reflexivity. Qed.
Lemma sees_ulimit : sees (short_or_long_c (limit_c u64_c) ulimit_c) same_ulimit ulimit_form.
Proof.
  intros v v' _ [S ->]. unfold ulimit_c. replace (de (short_or_long_c (limit_c u64_c) _) v) with (map_ok (@Short _ ulimit) (de (limit_c u64_c) v)) by (destruct v; try contradiction; reflexivity).
  cbn [de short_or_long_c]. destruct (de (limit_c u64_c) v) as [x|[]] eqn:E.
  - cbn -[limit_c]. rewrite E. reflexivity.
  - cbn -[limit_c]. rewrite E. exact I.
Qed.

(** One item. *)
Lemma sees_single : forall {A : Set} (i : codec A) eqb, sees (item_or_list_c i (iset_c eqb i)) (same item_into_list) single_form.
Proof.
  intros A i eqb v v' _ [S ->]. replace (de (item_or_list_c i (iset_c eqb i)) v) with (map_ok (@Item A (list A)) (de i v)) by (destruct v; try contradiction; reflexivity).
  cbn [de item_or_list_c iset_c collect]. destruct (de i v) as [x|[]]; cbn; [reflexivity|exact I].
Qed.
Lemma sees_single_env_file : sees env_file_c (same env_file_into_list) single_form.
Proof.
  intros v v' _ [S ->]. destruct v; try contradiction; try exact I. reflexivity.
Qed.

(** Names. *)
Lemma collect_identifiers : forall l, collect (de identifier_c) (map VStr l) = Ok l \/ collect (de identifier_c) (map VStr l) = Err DeError.
Proof.
  induction l as [|s l IH]; [now left|]. cbn [map collect].
  assert (E : de identifier_c (VStr s) = Ok s \/ de identifier_c (VStr s) = Err DeError).
  { cbn [de identifier_c text_c from_string]. destruct (identifier_new s) as [k|] eqn:K; cbn [map_err]; [|now right]. apply identifier_new_ok in K as [-> _]. now left. }
  destruct E as [-> | ->]; cbn [bind]; [|now right]. destruct IH as [-> | ->]; cbn [bind]; auto.
Qed.
Lemma collect_entries : forall {V : Set} (c : codec V) x (d : V) l, de c x = Ok d ->
  collect (entry_de identifier_c c) (map (fun k => entry k x) l) = map_ok (map (fun k => (k, d))) (collect (de identifier_c) (map VStr l)).
Proof.
  intros V c x d l D. induction l as [|s l IH]; [reflexivity|]. cbn [map collect]. rewrite IH. unfold entry_de, entry. cbn [fst snd]. rewrite D.
  destruct (de identifier_c (VStr s)) as [k|]; cbn [bind map_ok]; [|reflexivity]. destruct (collect (de identifier_c) (map VStr l)); reflexivity.
Qed.
Lemma sees_names : forall {V : Set} (c : codec V) x (d : V) (Q : relation), de c x = Ok d -> (forall v v', Q v v' -> exists l, NoDup l /\ v = VSeq (map VStr l) /\ v' = VMap (map (fun k => entry k x) l)) ->
  sees (short_or_long_c (sset identifier_c) (smap identifier_c c)) (same (map_of_short d)) Q.
Proof.
  intros V c x d Q D H v v' _ J. destruct (H _ _ J) as (l & N & -> & ->). cbn [de short_or_long_c sset smap iset_c imap_c]. rewrite (collect_entries c x d l D).
  destruct (collect_identifiers l) as [-> | ->]; cbn [map_ok rrel]; [|exact I]. unfold same. cbn [map_of_short]. now rewrite (iset_of_nodup str_eqb str_eqb_eq l N).
Qed.
Lemma sees_depends_on : sees depends_on_c (same (map_of_short dependency_default)) depends_on_form.
Proof. apply (sees_names dependency_c (VMap [entry $"condition" (VStr $"service_started")])); [reflexivity|]. intros v v' H. exact H. Qed.
Lemma sees_networks : forall w, sees (networks_c w) (same (map_of_short None)) networks_form.
Proof. intros w. apply (sees_names (option_c (service_network_c w)) VNull); [reflexivity|]. intros v v' H. exact H. Qed.

(** [key=value]. *)

Lemma digits_start : forall s c r, matches (Plus D) s -> s = c :: r -> is_digit c = true.
Proof. intros s c r M ->. apply matches_plus_cls in M as [_ M]. cbn [forallb] in M. apply andb_true_iff in M as [M _]. cbn in M. unfold is_digit. now rewrite orb_false_r in M. Qed.
Lemma value_reads : forall fv t x, value_text t x -> de (option_c value_c) x = Ok (Some (value_parse fv t)) /\ t <> [].
Proof.
  intros fv t x [| |s n M D L|s n M D L|s N1 N2 N3 N4 N5].
  - split; [reflexivity|discriminate].
  - split; [reflexivity|discriminate].
  - destruct (value_parse_kind fv s) as (_ & U & _).
    assert (P : value_parse fv s = VNumber (UnsignedInt n)).
    { apply U. split; [exact D|]. split; [change (2 ^ 64) with 18446744073709551616; lia|]. intros r E. pose proof (digits_start _ _ _ M E). discriminate. }
    rewrite P. split; [|intros ->; now apply matches_plus_cls in M]. cbn [de option_c value_c number_c]. unfold number_de.
    destruct (Z.leb_spec 0 (Z.of_N n)); [|lia]. unfold U64_MAX. now rewrite int_to_uint_of_N.
  - destruct (value_parse_kind fv ($"-" ++ s)) as (_ & _ & U & _).
    assert (P : value_parse fv ($"-" ++ s) = VNumber (SignedInt (- Z.of_N n))).
    { apply U. split; [|split; [change (2 ^ 63)%Z with 9223372036854775808%Z; lia|now exists s]]. inversion D as [r R E1 E2|r R E1 E2|r R E1 E2]; subst.
      - cbn. now apply den_minus.
      - pose proof (digits_start _ _ _ M eq_refl). discriminate.
      - pose proof (digits_start _ _ _ M eq_refl). discriminate. }
    rewrite P. split; [|discriminate]. cbn [de option_c value_c number_c]. unfold number_de, I64_MIN_ABS. destruct (Z.leb_spec 0 (- Z.of_N n)); [lia|].
    destruct (Z.leb_spec (- Z.of_N 9223372036854775808) (- Z.of_N n)); [reflexivity|lia].
  - split; [|exact N1]. cbn [de option_c value_c map_ok]. do 2 f_equal. symmetry. destruct (value_parse_kind fv s) as (B & U & I & F & S).
    pose proof (denotes_int s) as DN.
    destruct (value_parse fv s) as [r|[n|z|b]|b] eqn:P.
    + now rewrite (S r eq_refl).
    + destruct (proj1 (U n) eq_refl) as (X & _). now elim N4; apply (DN _ X).
    + destruct (proj1 (I z) eq_refl) as (X & _). now elim N4; apply (DN _ X).
    + destruct (proj1 (F b) eq_refl) as (X & _). contradiction.
    + pose proof (proj1 (B b) eq_refl). destruct b; contradiction.
Qed.

Lemma item_reads : forall fv y e, item_form y e -> exists s k o, y = VStr s /\ fst e = VStr k /\ item_says fv s k o /\ entry_de map_key_c (option_c value_c) e = Ok (k, o).
Proof.
  intros fv y e H.
  assert (K : forall k, MAP_KEY k -> de map_key_c (VStr k) = Ok k).
  { intros k (N & _ & L). cbn [de map_key_c text_c from_string]. unfold map_key_new. destruct k as [|c k]; [congruence|]. destruct (contains 10 (c :: k)) eqn:C; [|reflexivity].
    destruct (contains_not_In 10 (c :: k)) as [_ X]. rewrite (X L) in C. discriminate. }
  destruct H as [k s x M V|k M|k M]; unfold entry_de; cbn [fst snd]; rewrite (K k M); cbn [bind]; destruct M as (N & Q & L).
  - destruct (value_reads fv s x V) as [-> NE]. exists (k ++ $"=" ++ s), k, (Some (value_parse fv s)). repeat (split; try assumption; try reflexivity). right. now exists s.
  - exists (k ++ $"="), k, None. repeat (split; try assumption; try reflexivity). left. auto.
  - exists k, k, None. repeat (split; try assumption; try reflexivity). left. auto.
Qed.
Lemma sees_list_or_map : forall w, sees list_or_map_c (@same_list_or_map w) list_form.
Proof.
  intros w v v' _ (l & es & -> & -> & N & F). set (fv := w_float w).
  assert (X : exists ss m, l = map VStr ss /\ Forall2 (fun s e => item_says fv s (fst e) (snd e)) ss m /\ map fst es = map VStr (map fst m) /\ collect (entry_de map_key_c (option_c value_c)) es = Ok m).
  { clear N. induction F as [|y e l es H F (ss & m & -> & G & K & C)]; [exists [], []; repeat split; constructor|].
    destruct (item_reads fv y e H) as (s & k & o & -> & Ek & S & D). exists (s :: ss), ((k, o) :: m). split; [reflexivity|]. split; [now constructor|].
    split; [cbn [map fst]; now rewrite Ek, K|]. cbn [collect]. now rewrite D, C. }
  destruct X as (ss & m & -> & G & K & C). rewrite K in N. apply NoDup_map_inv in N. cbn [de list_or_map_c sset iset_c vmap_c smap imap_c]. rewrite C.
  replace (collect (de string_c) (map VStr ss)) with (Ok ss : result de_error (list str)) by (clear; induction ss as [|s ss IH]; [reflexivity|]; cbn [map collect]; rewrite <- IH; reflexivity).
  cbn [map_ok rrel]. unfold same_list_or_map, same. fold fv.
  assert (N' : NoDup ss).
  { clear -G N. induction G as [|s e ss m S G IH]; [constructor|]. cbn [map] in N. inversion N as [|? ? A B]; subst. constructor; [|auto]. intros J. apply A.
    clear -J G S. induction G as [|s' e' ss m S' G IH]; [destruct J|]. destruct J as [->|J]; [|right; auto]. left. apply item_says_ok in S, S'. congruence. }
  rewrite (iset_of_nodup str_eqb str_eqb_eq ss N'), (imap_of_nodup str_eqb str_eqb_eq m N), (list_to_map_order fv ss m G N). reflexivity.
Qed.

(** ** Volumes *)

Definition selinux_says (se : option str) : option selinux := option_map (fun t => if str_eqb t $"z" then Shared else Private) se.
Lemma options_say : forall a b ws ro se, access a ro -> label b se -> Permutation ws (a ++ b) ->
  ws = [] /\ ro = false /\ se = None \/
  ws <> [] /\ volume_options_loop (None, None) (split (ch ",") (join $"," ws)) = Ok (match a with [] => None | _ => Some ro end, selinux_says se).
Proof.
  intros a b ws ro se A B P. apply Permutation_sym in P. destruct A, B; cbn [app] in P;
    first [apply Permutation_nil in P; subst ws; left; repeat split; reflexivity
          | apply Permutation_length_1_inv in P; subst ws; right; split; [discriminate|reflexivity]
          | apply Permutation_length_2_inv in P as [-> | ->]; right; split; try discriminate; reflexivity].
Qed.
Lemma short_reads : forall s c a b ws ro se, no_colon s -> no_colon c -> access a ro -> label b se -> Permutation ws (a ++ b) ->
  short_volume_parse (s ++ $":" ++ c ++ suffix ws) =
  (src <- map_err SvSource (source_parse s) ;; p <- parse_container_path c ;; Ok (mk_short_volume p (Some (mk_short_options src ro (selinux_says se))))).
Proof.
  intros s c a b ws ro se S C A B P. destruct (options_say a b ws ro se A B P) as [(-> & -> & ->)|(N & O)]; unfold short_volume_parse.
  - cbn [suffix]. rewrite app_nil_r. change (s ++ $":" ++ c) with (s ++ ch ":" :: c). rewrite splitn3_two by assumption. reflexivity.
  - replace (suffix ws) with (ch ":" :: join $"," ws) by (destruct ws; [congruence|reflexivity]). change (s ++ $":" ++ c ++ ch ":" :: join $"," ws) with (s ++ ch ":" :: c ++ ch ":" :: join $"," ws).
    rewrite splitn3_three by assumption. rewrite O. destruct (map_err SvSource (source_parse s)); cbn [bind]; [|reflexivity]. destruct (parse_container_path c); cbn [bind]; [|reflexivity].
    cbn [fst snd]. now destruct A.
Qed.
Definition mounts_of (x : short_or_long short_volume mount) : list mount := [match x with Short s => short_into_long s | Long m => m end].
Lemma container_read : forall c, de absolute_path_c (VStr c) = map_err (fun _ => DeError) (parse_container_path c).
Proof. intros c. cbn [de absolute_path_c text_c from_string]. unfold parse_container_path. now destruct (absolute_path_new c). Qed.
Lemma path_source : forall s, is_path s -> source_parse s = map_err SrcHostPath (map_ok HostPath (host_path_new s)).
Proof. intros s [[r ->]|[r ->]]; reflexivity. Qed.
Lemma name_source : forall s, ~ is_path s -> source_parse s = map_err SrcIdentifier (map_ok NamedVolume (identifier_new s)).
Proof.
  intros s N. unfold source_parse. destruct (starts_with $"." s || is_absolute s) eqn:E; [|reflexivity]. elim N. apply orb_true_iff in E as [E|E].
  - left. now apply starts_with_iff in E.
  - right. now apply is_absolute_iff in E.
Qed.
Lemma reads_volume : forall v vs, one volume_form v vs ->
  rrel (fun l l' => flat_map mounts_of l = flat_map mounts_of l') (map_ok (fun a => [a]) (de (short_or_long_c short_volume_c mount_c) v)) (collect (de (short_or_long_c short_volume_c mount_c)) vs).
Proof.
  intros v vs (v' & -> & H). cbn [collect]. destruct H as [c C|s c ws ro S C P A|s c a b ws ro se S C P A B W]; cbn [de short_or_long_c].
  - pose proof (container_read c) as R. cbn [de short_volume_c text_c from_string]. unfold short_volume_parse. cbn [splitn]. apply split_once_none in C. rewrite C.
    destruct (parse_container_path c) as [p|]; cbn [bind map_ok map_err] in *; cbn -[absolute_path_c]; rewrite R; [reflexivity|exact I].
  - pose proof (container_read c) as R. cbn [de short_volume_c text_c from_string]. rewrite (short_reads s c ws [] ws ro None S C A label_none) by (rewrite app_nil_r; apply Permutation_refl).
    rewrite (name_source s P). destruct (identifier_new s) as [i|] eqn:K.
    + assert (K' : de identifier_c (VStr s) = Ok i) by (cbn [de identifier_c text_c from_string]; now rewrite K). cbn [map_ok map_err bind].
      destruct (parse_container_path c) as [p|]; cbn [bind map_ok map_err] in *; destruct A; cbn -[absolute_path_c identifier_c]; rewrite K'; cbn -[absolute_path_c]; rewrite R; (reflexivity || exact I).
    + assert (K' : de identifier_c (VStr s) = Err DeError) by (cbn [de identifier_c text_c from_string]; now rewrite K). cbn [map_ok map_err bind].
      destruct A; cbn -[absolute_path_c identifier_c]; rewrite K'; exact I.
  - pose proof (container_read c) as R. cbn [de short_volume_c text_c from_string]. rewrite (short_reads s c a b ws ro se S C A B W).
    rewrite (path_source s P). destruct (host_path_new s) as [i|] eqn:K.
    + assert (K' : de host_path_c (VStr s) = Ok i) by (cbn [de host_path_c text_c from_string]; now rewrite K). cbn [map_ok map_err bind].
      destruct (parse_container_path c) as [p|]; cbn [bind map_ok map_err] in *; destruct A, B; cbn -[absolute_path_c host_path_c]; rewrite K'; cbn -[absolute_path_c]; rewrite R; (reflexivity || exact I).
    + assert (K' : de host_path_c (VStr s) = Err DeError) by (cbn [de host_path_c text_c from_string]; now rewrite K). cbn [map_ok map_err bind].
      destruct A, B; cbn -[absolute_path_c host_path_c]; rewrite K'; exact I.
Qed.
Lemma mounts_apart : forall yeqb x y m, short_or_long_eqb short_volume_eqb (mount_eqb yeqb) x y = true -> In m (mounts_of x) -> exists m', In m' (mounts_of y) /\ (m = m' \/ mount_eqb yeqb m m' = true).
Proof.
  intros yeqb [[c o]|x] [[c' o']|y] m E [<-|[]]; cbn [short_or_long_eqb] in E; try discriminate; (eexists; split; [left; reflexivity|right]); [|exact E].
  unfold short_volume_eqb in E. cbn [sv_container sv_options] in E. apply andb_true_iff in E as [E1 E2]. destruct o as [[s r l]|], o' as [[s' r' l']|]; try discriminate.
  - cbn [option_eqb] in E2. unfold short_options_eqb in E2. cbn [so_source so_read_only so_selinux] in E2. apply andb_true_iff in E2 as [E2 E4]. apply andb_true_iff in E2 as [E2 E3].
    unfold short_into_long. cbn [sv_options sv_container so_source so_read_only so_selinux]. destruct s, s'; try discriminate; cbn [mount_eqb vol_source vol_volume vol_common bind_source bind_bind bind_common option_eqb source_eqb] in *;
      unfold common_eqb, bind_options_eqb; cbn [cm_target cm_read_only cm_consistency cm_extensions bo_propagation bo_create_host_path bo_selinux bo_extensions option_eqb ext_eqb list_eqb]; now rewrite E1, E2, E3, ?E4.
  - unfold short_into_long, common_new. cbn [sv_options sv_container mount_eqb vol_source vol_volume vol_common option_eqb]. unfold common_eqb. cbn. now rewrite E1.
Qed.
Lemma sees_volumes : forall w, sees (volumes_c w) (fun l l' => same_set (mount_eqb (w_yaml_eqb w)) (into_long_iter l) (into_long_iter l')) (item_becomes (one volume_form)).
Proof.
  intros w. assert (E : forall l, into_long_iter l = flat_map mounts_of l) by (intros l; unfold into_long_iter; induction l as [|x l IH]; [reflexivity|]; cbn [map flat_map app mounts_of]; now rewrite IH).
  eapply sees_impl; [apply (sees_iset _ (mount_eqb (w_yaml_eqb w)) mounts_of (mounts_apart (w_yaml_eqb w)) _ _ reads_volume)|]. intros a b H. now rewrite !E.
Qed.

(** ** Ports *)

Definition ports_of (x : short_or_long short_port port) : list port := match x with Short s => short_port_into_long s | Long p => [p] end.
Lemma option_eqb_true : forall {A : Type} (e : A -> A -> bool), (forall a b, e a b = true -> a = b) -> forall a b, option_eqb e a b = true -> a = b.
Proof. intros A e H [a|] [b|] E; try discriminate; [|reflexivity]. f_equal. now apply H. Qed.
Lemma range_eqb_true : forall a b, range_eqb a b = true -> a = b.
Proof. intros [a e] [b f] E. unfold range_eqb in E. cbn [r_start r_end] in E. apply andb_true_iff in E as [E1 E2]. apply N.eqb_eq in E1. apply (option_eqb_true _ (fun a b => proj1 (N.eqb_eq a b))) in E2. congruence. Qed.
Lemma ip_eqb_true : forall a b, ip_eqb a b = true -> a = b.
Proof.
  intros [a b c d|s] [a' b' c' d'|s'] E; cbn [ip_eqb] in E; try discriminate; [|apply str_eqb_eq in E; congruence].
  repeat (apply andb_true_iff in E as [E ?H]). apply N.eqb_eq in E, H, H0, H1. congruence.
Qed.
Lemma protocol_eqb_true : forall a b, protocol_eqb a b = true -> a = b.
Proof. intros [] [] E; cbn [protocol_eqb] in E; try discriminate; try reflexivity. apply str_eqb_eq in E. congruence. Qed.
Lemma short_port_eqb_true : forall a b, short_port_eqb a b = true -> a = b.
Proof.
  intros [i [h c] p] [i' [h' c'] p'] E. unfold short_port_eqb, short_ranges_eqb in E. cbn [sp_host_ip sp_ranges sp_protocol sr_host sr_container] in E. apply andb_true_iff in E as [E E1]. apply andb_true_iff in E as [E E2]. apply andb_true_iff in E2 as [E2 E3].
  apply (option_eqb_true _ ip_eqb_true) in E. apply (option_eqb_true _ protocol_eqb_true) in E1. apply (option_eqb_true _ range_eqb_true) in E2. apply range_eqb_true in E3. congruence.
Qed.
Lemma ports_apart : forall yeqb x y m, short_or_long_eqb short_port_eqb (port_eqb yeqb) x y = true -> In m (ports_of x) -> exists m', In m' (ports_of y) /\ (m = m' \/ port_eqb yeqb m m' = true).
Proof.
  intros yeqb [x|x] [y|y] m E J; cbn [short_or_long_eqb] in E; try discriminate; cbn [ports_of] in *.
  - exists m. split; [|now left]. now apply short_port_eqb_true in E as ->.
  - destruct J as [<-|[]]. exists y. split; [now left|now right].
Qed.
Lemma short_port_reach : forall v p, short_port_value v p -> sr_reach true (sp_ranges p).
Proof.
  intros v p [(n & -> & L & ->)|(s & -> & a & b & c & _ & R & _)]; cbn [sp_ranges].
  - apply (reach_of_range true (mk_range n None)). split; [exact L|exact I].
  - apply (reach_parse true b). now apply short_ranges_language.
Qed.
Lemma port_pairs_read : forall x, sr_reach true x -> short_ranges_iter x = port_pairs x /\ Forall (fun hc => snd hc <= 65535 /\ match fst hc with Some h => h <= 65535 | None => True end) (port_pairs x).
Proof.
  intros x R. pose proof (sr_reach_same_size x R) as S. destruct (sr_reach_inv true x R) as [[H C] _]. split.
  - rewrite (same_size_iter x S). unfold port_pairs. f_equal. f_equal. unfold width, range_count. destruct (r_end (sr_container x)); lia.
  - apply Forall_forall. intros hc I. unfold port_pairs in I. apply in_map_iff in I as (k & <- & I). apply in_seq in I as [_ I]. cbn [fst snd]. unfold width, same_size, range_u16, range_count, U16_MAX in *.
    destruct (sr_host x) as [[h he]|]; cbn [option_map]; destruct (sr_container x) as [c ce]; cbn [r_start r_end] in *.
    + destruct S as (O1 & O2 & S). unfold range_ordered in *. cbn [r_start r_end] in *. destruct he as [he|], ce as [ce|]; lia.
    + destruct ce; lia.
Qed.
Lemma reads_port : forall w v vs, port_form v vs ->
  rrel (fun l l' => flat_map ports_of l = flat_map ports_of l') (map_ok (fun a => [a]) (de (short_or_long_c (short_port_c w) (port_c w)) v)) (collect (de (short_or_long_c (short_port_c w) (port_c w))) vs).
Proof.
  intros w v vs (p & ip & pr & V & HI & HP & ->). pose proof (short_port_reach v p V) as R. destruct (port_pairs_read _ R) as [E F].
  replace (de (short_or_long_c (short_port_c w) (port_c w)) v) with (Ok (Short p) : result de_error (short_or_long short_port port)).
  2: { pose proof (reads_short_port w v p V) as D. destruct V as [(n & -> & _)|(s & -> & _)]; cbn [de short_or_long_c]; rewrite D; reflexivity. }
  cbn [map_ok]. set (one_port := fun hc : option N * N => mk_port None (snd hc) (option_map range_of_u16 (fst hc)) (sp_host_ip p) (sp_protocol p) None None []).
  assert (G : forall l, Forall (fun hc => snd hc <= 65535 /\ match fst hc with Some h => h <= 65535 | None => True end) l ->
    collect (de (short_or_long_c (short_port_c w) (port_c w))) (map (fun hc => VMap (entry $"target" (number (snd hc)) :: entry_of number $"published" (fst hc) ++ entry_of VStr $"host_ip" ip ++ entry_of VStr $"protocol" pr)) l)
    = Ok (map (fun hc => Long (one_port hc)) l)).
  { induction l as [|[h c] l IH]; intros G; [reflexivity|]. inversion G as [|? ? [G1 G2] G3]; subst. cbn [map collect]. rewrite (IH G3). cbn [fst snd] in *.
    replace (de (short_or_long_c (short_port_c w) (port_c w)) _) with (Ok (Long (one_port (h, c))) : result de_error (short_or_long short_port port)); [reflexivity|]. symmetry. cbn [de short_or_long_c].
    assert (C : de u16_c (number c) = Ok c) by (cbn [de u16_c uint_c number]; now apply int_to_uint_of_N).
    assert (H : match h with Some h => de range_c (number h) = Ok (range_of_u16 h) | None => True end).
    { destruct h as [h|]; [|exact I]. apply reads_range. left. exists h. auto. }
    assert (HI' : match ip with Some t => exists i, de (ip_c w) (VStr t) = Ok i /\ sp_host_ip p = Some i | None => sp_host_ip p = None end).
    { destruct (sp_host_ip p) as [i|], ip as [t|]; try contradiction; [|reflexivity]. exists i. split; [|reflexivity]. apply (reads_ip w (VStr t) i). exists t. auto. }
    assert (HP' : match pr with Some t => exists q, de protocol_c (VStr t) = Ok q /\ sp_protocol p = Some q | None => sp_protocol p = None end).
    { destruct (sp_protocol p) as [q|], pr as [t|]; try contradiction; [|reflexivity]. exists q. split; [|reflexivity]. cbn [de protocol_c text_c from_string total map_err]. now apply protocol_iff in HP as ->. }
    unfold one_port. cbn [fst snd]. clear - C H HI' HP'. destruct h as [h|], ip as [t|], pr as [u|]; cbn [entry_of app option_map];
      repeat match goal with X : exists _, _ |- _ => destruct X as (? & ? & ?) end; 
      repeat match goal with X : sp_host_ip p = _ |- _ => rewrite X; clear X | X : sp_protocol p = _ |- _ => rewrite X; clear X end;
      cbn -[u16_c range_c ip_c protocol_c number]; rewrite C; cbn -[range_c ip_c protocol_c number]; try rewrite H; cbn -[ip_c protocol_c];
      repeat match goal with X : de _ _ = Ok _ |- _ => rewrite X; clear X; cbn -[ip_c protocol_c] end; reflexivity. }
  rewrite (G _ F). cbn [rrel flat_map ports_of]. rewrite app_nil_r. unfold short_port_into_long. rewrite E. clear.
  induction (port_pairs (sp_ranges p)) as [|hc l IH]; [reflexivity|]. cbn [map flat_map ports_of app]. now rewrite <- IH.
Qed.
Lemma sees_ports : forall w, sees (ports_c w) (fun l l' => same_set (port_eqb (w_yaml_eqb w)) (ports_long l) (ports_long l')) (item_becomes port_form).
Proof.
  intros w. assert (E : forall l, ports_long l = flat_map ports_of l).
  { intros l. unfold ports_long, ports_into_long. induction l as [|[x|x] l IH]; [reflexivity| |]; cbn [map flat_map port_sum ports_of]; now rewrite IH. }
  eapply sees_impl; [apply (sees_iset _ (port_eqb (w_yaml_eqb w)) ports_of (ports_apart (w_yaml_eqb w)) _ _ (reads_port w))|]. intros a b H. now rewrite !E.
Qed.
