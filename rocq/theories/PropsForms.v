(** C81: the short and the long form of a part of a compose file mean the same. *)

From Coq Require Import String Ascii List NArith ZArith Bool Permutation.
Import ListNotations.
From Verif Require Import Base BaseFacts Num Coll CollFacts Regex RegexFacts KeysSpec NumSpec ValuesSpec PortsModel VolumesModel ValuesModel EqModel Serde Codec ScalarCodec CommonCodec ServiceParts ServiceCodec ComposeCodec ComposeView ValidateModel
  PropsPortText ValuesNumProofs ListMapProofs PropsValidate PropsCompose PanicSpec ChangeSpec ChangeFacts PropsChange ShortModel FormsSpec FormsModel FormsSame FormsFacts FormsLoads.
Open Scope N_scope.

(** Replacing any short form by the long form it stands for, anywhere in a file, does not change whether the file loads, and what is loaded differs only in the
    form of that part: converted to the long form, it is the same. *)
Theorem forms_same : forall w doc doc', yaml_ok doc = true -> reforms doc doc' ->
  match load w doc, load w doc' with Ok c, Ok c' => same_compose c c' | Err _, Err _ => True | _, _ => False end.
Proof. intros w doc doc' Y (p & R & I & D). exact (sees_forms w p R I doc doc' Y D). Qed.
Print Assumptions forms_same.

(** ** Validation *)

Lemma check_seen : forall d a k l, In k a -> check_defined d (a ++ k :: l) = check_defined d (a ++ l).
Proof.
  intros d a k l. induction a as [|x a IH]; intros H; [destruct H|]. cbn [app check_defined]. destruct (contains_key d x) eqn:E; [|reflexivity].
  destruct H as [->|H]; [|now apply IH]. clear IH. induction a as [|y a IH]; cbn [app check_defined]; [now rewrite E|]. destruct (contains_key d y); [exact IH|reflexivity].
Qed.
Lemma check_names : forall {V : Type} (x : V) d l acc,
  check_defined d (map fst (fold_left (fun m e => imap_insert str_eqb m (fst e) (snd e)) (map (fun k => (k, x)) l) acc)) = check_defined d (map fst acc ++ l).
Proof.
  intros V x d l. induction l as [|k l IH]; intros acc; cbn [map fold_left fst snd]; [now rewrite app_nil_r|]. rewrite IH, imap_insert_keys. unfold iset_insert.
  destruct (existsb (str_eqb k) (map fst acc)) eqn:E; [|now rewrite <- app_assoc]. apply existsb_exists in E as (y & J & E). apply str_eqb_eq in E. subst y. now rewrite check_seen.
Qed.
Lemma source_form : forall x, source_of (grant_view x) = nth_val 0 config_or_secret_ms (fst (into_long config_or_secret_of_short x)).
Proof. intros [s|g]; reflexivity. Qed.
Lemma sources_same : forall l l', Forall2 same_grant l l' -> map source_of (map grant_view l) = map source_of (map grant_view l').
Proof. intros l l' H. induction H as [|x y l l' E H IH]; [reflexivity|]. cbn [map]. rewrite IH, !source_form. now rewrite E. Qed.
Definition names_of {w : externals} (o : option (network_config w)) : list str := match o with Some (NcNetworks n) => map fst (map_of_short None n) | _ => [] end.
Lemma networks_form_check : forall w d (s : ServiceCodec.service w), service_validate_networks d (service_view s) = check_defined d (names_of (nth_val 48 (service_ms w) (fst s))).
Proof.
  intros w d s. unfold service_validate_networks, service_view. cbn [vs_networks]. set (o := (nth_val 48 (service_ms w) (fst s)) : option (network_config w)). clearbody o. destruct o as [[m|[l|l]]|]; cbn [networks_view names_of map_of_short]; try reflexivity.
  unfold imap_of. symmetry. apply (check_names None d l []).
Qed.
Lemma names_same : forall w (o o' : option (network_config w)), both same_networks o o' -> names_of o = names_of o'.
Proof. intros w [[m|n]|] [[m'|n']|] H; cbn [both same_networks names_of] in *; try contradiction; try reflexivity. now rewrite H. Qed.

(** The named volumes of a service, in its mounts. *)
Definition has_source (v : str) (m : mount) : Prop := match m with MVolume x => vol_source x = Some v | _ => False end.
Lemma mounts_long : forall s v, mounts s v <-> exists m, In m (into_long_iter (vs_volumes s)) /\ has_source v m.
Proof.
  intros s v. unfold mounts, into_long_iter. split.
  - intros (e & I & H). exists (match e with Short s => short_into_long s | Long m => m end). split; [apply in_map_iff; now exists e|].
    destruct e as [sv|m]; [destruct H as (o & H1 & H2); unfold short_into_long; rewrite H1, H2; reflexivity|]. now destruct H as (x & -> & H).
  - intros (m & I & H). apply in_map_iff in I as (e & <- & I). exists e. split; [exact I|]. destruct e as [sv|m].
    + unfold short_into_long in H. destruct (sv_options sv) as [o|]; [|discriminate H]. exists o. split; [reflexivity|]. destruct (so_source o); [destruct H|]. cbn in H. congruence.
    + destruct m as [x| | | |]; try contradiction. now exists x.
Qed.
Lemma source_kept : forall yeqb m m' v, (m = m' \/ mount_eqb yeqb m m' = true) -> has_source v m -> has_source v m'.
Proof.
  intros yeqb m m' v [->|E] H; [exact H|]. destruct m as [x| | | |]; try contradiction. destruct m' as [x'| | | |]; try discriminate E. cbn [mount_eqb has_source] in *.
  rewrite H in E. destruct (vol_source x') as [v'|]; [|discriminate E]. cbn [option_eqb] in E. apply andb_true_iff in E as [E _]. apply andb_true_iff in E as [E _].
  apply str_eqb_eq in E. now subst.
Qed.
Lemma mounts_same : forall yeqb s s', same_set (mount_eqb yeqb) (into_long_iter (vs_volumes s)) (into_long_iter (vs_volumes s')) -> forall v, mounts s v <-> mounts s' v.
Proof.
  intros yeqb s s' [H H'] v. rewrite !mounts_long. split; intros (m & I & S).
  - destruct (proj1 (Forall_forall _ _) H m I) as (m' & I' & E). exists m'. split; [exact I'|]. now apply (source_kept yeqb m m').
  - destruct (proj1 (Forall_forall _ _) H' m I) as (m' & I' & E). exists m'. split; [exact I'|]. now apply (source_kept yeqb m m').
Qed.

(** What validation sees of a service. *)
Definition same_view (a b : str * vservice) : Prop :=
  fst a = fst b /\ (forall d, service_validate_networks d (snd a) = service_validate_networks d (snd b)) /\
  map source_of (vs_configs (snd a)) = map source_of (vs_configs (snd b)) /\ map source_of (vs_secrets (snd a)) = map source_of (vs_secrets (snd b)) /\
  forall v, mounts (snd a) v <-> mounts (snd b) v.
Lemma service_same_view : forall w n (s s' : ServiceCodec.service w), same_service s s' -> same_view (n, service_view s) (n, service_view s').
Proof.
  intros w n s s' H. unfold same_service in H. cbv zeta in H. destruct H as (_ & _ & _ & H17 & _ & _ & _ & _ & _ & _ & _ & H48 & _ & H67 & _ & _ & _ & H80).
  split; [reflexivity|]. cbn [snd]. split; [intros d; rewrite (networks_form_check w d s), (networks_form_check w d s'), (names_same w _ _ H48); reflexivity|]. split; [exact (sources_same _ _ H17)|]. split; [exact (sources_same _ _ H67)|].
  exact (mounts_same (w_yaml_eqb w) (service_view s) (service_view s') H80).
Qed.
Lemma compose_same_view : forall w (c c' : compose w), same_compose c c' ->
  Forall2 same_view (vc_services (compose_view c)) (vc_services (compose_view c')) /\ vc_networks (compose_view c) = vc_networks (compose_view c') /\
  vc_volumes (compose_view c) = vc_volumes (compose_view c') /\ vc_configs (compose_view c) = vc_configs (compose_view c') /\ vc_secrets (compose_view c) = vc_secrets (compose_view c').
Proof.
  intros w c c' (O & _ & _ & S). unfold compose_view. cbn [vc_services vc_networks vc_volumes vc_configs vc_secrets].
  split; [|repeat split; f_equal; apply O; intros [X|[X|[]]]; discriminate X].
  clear O. revert S. unfold same_map. intros S. induction S as [|e e' l l' [E H] S IH]; [constructor|]. cbn [map]. constructor; [|exact IH]. rewrite <- E. now apply service_same_view.
Qed.
Lemma checks_same : forall kind check check' l l', Forall2 (fun a b => fst a = fst b /\ check (snd a) = check' (snd b)) l l' -> for_services kind check l = for_services kind check' l'.
Proof. intros kind check check' l l' H. induction H as [|[n a] [n' b] l l' [E F] H IH]; [reflexivity|]. cbn [fst snd] in *. cbn [for_services]. now rewrite E, F, IH. Qed.

(** Networks, configs and secrets are validated alike, with the same error. *)
Theorem forms_validate : forall w doc doc' c c', yaml_ok doc = true -> reforms doc doc' -> load w doc = Ok c -> load w doc' = Ok c' ->
  validate_networks (compose_view c) = validate_networks (compose_view c') /\ validate_configs (compose_view c) = validate_configs (compose_view c') /\
  validate_secrets (compose_view c) = validate_secrets (compose_view c').
Proof.
  intros w doc doc' c c' Y H L L'. pose proof (forms_same w doc doc' Y H) as S. rewrite L, L' in S. destruct (compose_same_view w c c' S) as (V & EN & _ & EC & ES).
  unfold validate_networks, validate_configs, validate_secrets. rewrite EN, EC, ES. split; [|split]; apply checks_same.
  - clear -V. induction V as [|a b l l' (E & N & _) V IH]; constructor; auto.
  - clear -V. unfold service_validate_configs. induction V as [|a b l l' (E & _ & C & _) V IH]; constructor; [|exact IH]. now rewrite C.
  - clear -V. unfold service_validate_secrets. induction V as [|a b l l' (E & _ & _ & C & _) V IH]; constructor; [|exact IH]. now rewrite C.
Qed.
Print Assumptions forms_validate.

(** Volumes are not: a set of volumes does not know that a short and a long form are the same, so that a service that has one volume in both forms has it twice,
    and this counts as use by more than one service. *)
Definition volume_long : sval := VMap [entry $"type" (VStr $"volume"); entry $"source" (VStr $"data"); entry $"target" (VStr $"/a")].
Theorem forms_validate_refuted : exists w doc doc', yaml_ok doc = true /\ reforms doc doc' /\
  match load w doc, load w doc' with Ok c, Ok c' => validate_all (compose_view c) = Ok tt /\ validate_all (compose_view c') = Err (mk_validation_error None $"data" KVolume) | _, _ => False end.
Proof.
  exists w0, (web [(VStr $"volumes", VSeq [VStr $"data:/a"; VStr $"data:/a"])]), (web [(VStr $"volumes", VSeq [VStr $"data:/a"; volume_long])]).
  split; [reflexivity|]. split; [|vm_compute; split; reflexivity]. exists (ChangeSpec.service [Key $"volumes"]), (item_becomes (one volume_form)).
  split; [unfold forms; cbn [In]; tauto|]. apply (web_changed (changed [Key $"volumes"] (item_becomes (one volume_form)))).
  exists [], (VSeq [VStr $"data:/a"; VStr $"data:/a"]), (VSeq [VStr $"data:/a"; volume_long]), []. split; [reflexivity|]. split; [reflexivity|].
  exists [VStr $"data:/a"], (VStr $"data:/a"), [volume_long], []. split; [reflexivity|]. split; [reflexivity|]. exists volume_long. split; [reflexivity|].
  apply (vf_named $"data" $"/a" [] false); [| | |constructor].
  - intros X. cbn in X. repeat destruct X as [X|X]; try discriminate X; exact X.
  - intros X. cbn in X. repeat destruct X as [X|X]; try discriminate X; exact X.
  - intros [[r X]|[r X]]; discriminate X.
Qed.
Print Assumptions forms_validate_refuted.

(** That is the only difference: a file is rejected for its volumes in one form and not in the other only if a service has one volume more than once. *)
Definition has_twice (s : vservice) (v : str) : Prop := exists x y, named_volumes (vs_volumes s) = x ++ v :: y /\ In v x.
Lemma volumes_differ : forall c c' e, Forall2 same_view (vc_services c) (vc_services c') -> vc_volumes c = vc_volumes c' -> validate_volumes c = Ok tt -> validate_volumes c' = Err e ->
  exists n s, In (n, s) (vc_services c') /\ has_twice s (ve_resource e).
Proof.
  intros c c' e V EV A B. apply validate_volumes_fails_only in B as [N [X|X]].
  - exfalso. destruct X as (a & n1 & s1 & b & n2 & s2 & d & E & M1 & M2). rewrite E in V.
    apply Forall2_app_inv_r in V as (a' & r & _ & V & Ea). inversion V as [|[m1 t1] ? r' ? (_ & _ & _ & _ & H1) V']; subst.
    apply Forall2_app_inv_r in V' as (b' & r2 & _ & V' & ->). inversion V' as [|[m2 t2] ? d' ? (_ & _ & _ & _ & H2) V'']; subst.
    rewrite <- EV in N. cbn [snd] in H1, H2. destruct (validate_volumes_shared c a' m1 t1 b' m2 t2 d' (ve_resource e) Ea (proj2 (H1 _) M1) (proj2 (H2 _) M2) N) as (e' & F & _). congruence.
  - destruct X as (n & s & x & y & I & E & J). exists n, s. split; [exact I|]. now exists x, y.
Qed.
Theorem forms_validate_partial : forall w doc doc' c c', yaml_ok doc = true -> reforms doc doc' -> load w doc = Ok c -> load w doc' = Ok c' ->
  (forall n s v, In (n, s) (vc_services (compose_view c)) \/ In (n, s) (vc_services (compose_view c')) -> has_twice s v -> In v (vc_volumes (compose_view c))) ->
  (validate_all (compose_view c) = Ok tt <-> validate_all (compose_view c') = Ok tt).
Proof.
  intros w doc doc' c c' Y H L L' T. destruct (forms_validate w doc doc' c c' Y H L L') as (EN & EC & ES). pose proof (forms_same w doc doc' Y H) as S. rewrite L, L' in S.
  destruct (compose_same_view w c c' S) as (V & _ & EV & _ & _). unfold validate_all. rewrite EN, EC, ES. destruct (validate_networks (compose_view c')); cbn [bind]; [|reflexivity].
  assert (V' : Forall2 same_view (vc_services (compose_view c')) (vc_services (compose_view c))).
  { clear -V. induction V as [|a b l l' (A & B & C & D & E) V IH]; constructor; [|exact IH]. repeat split; intros; try apply E; auto. }
  destruct (validate_volumes (compose_view c)) as [[]|e] eqn:A, (validate_volumes (compose_view c')) as [[]|e'] eqn:B; cbn [bind]; try reflexivity.
  - exfalso. destruct (volumes_differ _ _ _ V EV A B) as (n & s & I & J). apply validate_volumes_fails_only in B as [N _]. apply N. rewrite <- EV. apply (T n s); auto.
  - exfalso. destruct (volumes_differ _ _ _ V' (eq_sym EV) B A) as (n & s & I & J). apply validate_volumes_fails_only in A as [N _]. apply N. apply (T n s); auto.
  - split; discriminate.
Qed.
Print Assumptions forms_validate_partial.

(** A range of ports is as many ports, a line of the environment an entry of a map, and a path with options a bind mount. *)
Lemma web_reforms : forall k R v v' rest, In (ChangeSpec.service [Key k], R) forms -> R v v' -> reforms (web ((VStr k, v) :: rest)) (web ((VStr k, v') :: rest)).
Proof.
  intros k R v v' rest H D. exists (ChangeSpec.service [Key k]), R. split; [exact H|]. apply (web_changed (under_key k R)). exists [], v, v', rest. auto.
Qed.
Definition port_long (c h : Z) : sval := VMap [entry $"target" (VInt c); entry $"published" (VInt h); entry $"protocol" (VStr $"udp")].
Definition published (r : result de_error (compose w0)) : list (N * option range) :=
  match r with Ok c => flat_map (fun e => map (fun p => (p_target p, p_published p)) (ports_long (nth_val 59 (service_ms w0) (fst (snd e))))) (nth_val 3 (compose_ms w0) (fst c)) | Err _ => [] end.
Example forms_ports : exists doc doc', yaml_ok doc = true /\ reforms doc doc' /\
  doc = web [(VStr $"ports", VSeq [VStr $"8000-8001:80-81/udp"; VInt 90]); (VStr $"tty", VBool true)] /\
  doc' = web [(VStr $"ports", VSeq [port_long 80 8000; port_long 81 8001; VInt 90]); (VStr $"tty", VBool true)] /\
  published (load w0 doc) = [(80, Some (mk_range 8000 None)); (81, Some (mk_range 8001 None)); (90, None)] /\ published (load w0 doc') = published (load w0 doc).
Proof.
  eexists. eexists. split; [|split; [|split; [reflexivity|split; [reflexivity|split; vm_compute; reflexivity]]]]; [reflexivity|].
  apply (web_reforms $"ports" (item_becomes port_form)); [unfold forms; cbn [In]; tauto|].
  exists [], (VStr $"8000-8001:80-81/udp"), [port_long 80 8000; port_long 81 8001], [VInt 90]. split; [reflexivity|]. split; [reflexivity|].
  exists (mk_short_port None (mk_short_ranges (Some (mk_range 8000 (Some 8001))) (mk_range 80 (Some 81))) (Some Udp)), None, (Some $"udp").
  split; [right; exists $"8000-8001:80-81/udp"; split; [reflexivity|]; apply short_port_language; vm_compute; reflexivity|]. split; [exact I|]. split; [reflexivity|]. reflexivity.
Qed.
Definition environment (r : result de_error (compose w0)) : list (result de_error (list (str * option value))) :=
  match r with Ok c => map (fun e => map_err (fun _ => DeError) (into_map (w_float w0) (nth_val 31 (service_ms w0) (fst (snd e))))) (nth_val 3 (compose_ms w0) (fst c)) | Err _ => [] end.
Example forms_environment : exists doc doc', yaml_ok doc = true /\ reforms doc doc' /\
  doc = web [(VStr $"environment", VSeq [VStr $"A=-7"; VStr $"B=true"; VStr $"C="; VStr $"D"; VStr $"E=x=y"])] /\
  doc' = web [(VStr $"environment", VMap [(VStr $"A", VInt (-7)); (VStr $"B", VBool true); (VStr $"C", VNull); (VStr $"D", VNull); (VStr $"E", VStr $"x=y")])] /\
  environment (load w0 doc') = environment (load w0 doc) /\ read_ok (load w0 doc) = true.
Proof.
  eexists. eexists. split; [|split; [|split; [reflexivity|split; [reflexivity|split; vm_compute; reflexivity]]]]; [reflexivity|].
  apply (web_reforms $"environment" list_form); [unfold forms; cbn [In]; tauto|]. eexists. eexists. split; [reflexivity|]. split; [reflexivity|].
  assert (K : forall c, MAP_KEY [c] <-> c <> ch "=" /\ c <> 10) by (intros c; unfold MAP_KEY; cbn [In]; intuition congruence).
  split; [repeat constructor; cbn [In]; intuition discriminate|].
  assert (T : ~ matches INT_RE $"x=y" /\ ~ matches FLOAT_RE $"x=y").
  { destruct (number_parse_spec (w_float w0) $"x=y") as [X|[X|[X|X]]].
    - destruct X as (ds & [E|E] & _ & D & _); [subst ds|]; discriminate.
    - destruct X as (ds & E & _). discriminate E.
    - destruct X as (_ & _ & X). vm_compute in X. discriminate X.
    - now destruct X as (A & B & _). }
  constructor; [apply (if_value $"A" $"-7"); [now apply K|apply (vt_negative $"7" 7); [|apply (denotes_show_N 7)|split; [reflexivity|discriminate]]]|].
  { apply matches_plus_cls. split; [discriminate|]. reflexivity. }
  constructor; [apply (if_value $"B" $"true"); [now apply K|constructor]|]. constructor; [apply (if_empty $"C"); now apply K|]. constructor; [apply (if_none $"D"); now apply K|].
  constructor; [apply (if_value $"E" $"x=y"); [now apply K|apply vt_text; try apply T; discriminate]|constructor].
Qed.
