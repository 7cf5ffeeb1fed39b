(** Lemmas for [PropsKeep]: for each type, the values of [KeepSpec] which are kept are those which are valid and do not change. *)

From Coq Require Import String Ascii List NArith ZArith Bool Lia ZifyBool ZifyN ZifyNat Sorted.
Import ListNotations.
From Verif Require Import Base BaseFacts Num Coll Regex KeysSpec KeysModel UserModel UserProofs DurationModel DurationProofs BytesModel BytesProofs CpuSetModel DeviceModel ImageSpec ImageModel ImageLang ImageProofs IpModel NetModel
  PathModel PortsModel PortsProofs TextModel VolumesModel ValuesModel BuildModel BuildProofs PlatformModel PlatformSpec PropsText PropsBuild EqModel Serde Codec CodecFacts EnumModel ScalarCodec ScalarGood
  CommonCodec CommonGood ServiceParts PartsGood MountCodec MountGood HealthModel HealthProofs ServiceCodec ComposeCodec KeepSpec.
Open Scope N_scope.

Definition said {A : Set} (c : codec A) (P Q : A -> Prop) : Prop := forall a, P a -> (wf c a /\ norm c a = a <-> Q a).
Definition msaid (m : member) (P Q : m_type m -> Prop) : Prop := forall a, P a -> (m_wf m a /\ m_norm m a = a <-> Q a).
Fixpoint mssaid (ms : list member) : preds ms -> preds ms -> Prop :=
  match ms return preds ms -> preds ms -> Prop with [] => fun _ _ => True | m :: r => fun p q => msaid m (fst p) (fst q) /\ mssaid r (snd p) (snd q) end.
Fixpoint msany (ms : list member) : preds ms -> Prop :=
  match ms return preds ms -> Prop with [] => fun _ => True | m :: r => fun p => msaid m (fst p) any /\ msany r (snd p) end.
Create HintDb said.

(** ** Containers *)

Lemma said_any : forall {A : Set} (c : codec A) (P : A -> Prop), (forall a, P a -> wf c a /\ norm c a = a) -> said c P any.
Proof. intros A c P H a p. split; [intros; exact I|auto]. Qed.
Lemma any_said : forall {A : Set} (c : codec A) (P : A -> Prop) a, said c P any -> P a -> wf c a /\ norm c a = a.
Proof. intros A c P a H p. exact (proj2 (H a p) I). Qed.
Lemma leaf_said : forall {A : Set} (c : codec A) (P Q : A -> Prop), (forall a, norm c a = a) -> (forall a, P a -> (wf c a <-> Q a)) -> said c P Q.
Proof. intros A c P Q N H a p. rewrite <- (H a p). specialize (N a). tauto. Qed.
Lemma leaf_any : forall {A : Set} (c : codec A) (P : A -> Prop), (forall a, norm c a = a) -> (forall a, P a -> wf c a) -> said c P any.
Proof. intros A c P N H. apply said_any. auto. Qed.

Lemma Forall_iff_in : forall {A : Type} (P Q R : A -> Prop) l, (forall a, P a -> (Q a <-> R a)) -> Forall P l -> (Forall Q l <-> Forall R l).
Proof. intros A P Q R l H F. rewrite !Forall_forall in *. split; intros G a J; apply (H a (F a J)); auto. Qed.
Lemma Forall_all : forall {A : Type} (P : A -> Prop) l, (forall a, P a) -> Forall P l.
Proof. intros A P l H. apply Forall_forall. auto. Qed.
Lemma map_id_iff : forall {A : Type} (f : A -> A) l, map f l = l <-> Forall (fun a => f a = a) l.
Proof.
  intros A f l. induction l as [|a l IH]; cbn [map]; [split; [constructor|reflexivity]|]. rewrite Forall_cons_iff, <- IH. split; [intros H; injection H; auto|intros [-> ->]; reflexivity].
Qed.

Lemma option_said : forall {A : Set} (c : codec A) P Q, said c P Q -> said (option_c c) (opt P) (opt Q).
Proof.
  intros A c P Q H [a|] p; cbn [wf norm option_c option_map opt] in *; [|split; auto]. rewrite <- (H a p). split; intros [W N]; split; auto; [now injection N|now rewrite N].
Qed.
Lemma option_any : forall {A : Set} (c : codec A) P, said c P any -> said (option_c c) (opt P) any.
Proof. intros A c P H a p. rewrite (option_said c P any H a p). split; [intros; exact I|]. intros _. destruct a; exact I. Qed.
Lemma option_all : forall {A : Set} (c : codec A) Q, said c any Q -> said (option_c c) any (opt Q).
Proof. intros A c Q H a _. apply (option_said c any Q H). destruct a; exact I. Qed.
Lemma option_free : forall {A : Set} (c : codec A), said c any any -> said (option_c c) any any.
Proof. intros A c H a _. apply (option_any c any H). destruct a; exact I. Qed.

Lemma list_said : forall {A : Set} (c : codec A) P Q, said c P Q -> said (list_c c) (Forall P) (Forall Q).
Proof.
  intros A c P Q H l p. cbn [wf norm list_c]. rewrite map_id_iff. rewrite <- (Forall_iff_in P (fun a => wf c a /\ norm c a = a) Q l H p). rewrite !Forall_forall. split; [intros [F G] a J; auto|intros F; split; intros a J; now apply F].
Qed.
Lemma list_any : forall {A : Set} (c : codec A) P, said c P any -> said (list_c c) (Forall P) any.
Proof. intros A c P H a p. rewrite (list_said c P any H a p). split; [intros; exact I|]. intros _. now apply Forall_all. Qed.
Lemma list_all : forall {A : Set} (c : codec A) Q, said c any Q -> said (list_c c) any (Forall Q).
Proof. intros A c Q H a _. apply (list_said c any Q H). now apply Forall_all. Qed.
Lemma list_free : forall {A : Set} (c : codec A), said c any any -> said (list_c c) any any.
Proof. intros A c H a _. apply (list_any c any H). now apply Forall_all. Qed.

Lemma iset_said : forall {A : Set} eqb (c : codec A) P Q, plain c -> said c P Q -> said (iset_c eqb c) (set_of eqb P) (Forall Q).
Proof.
  intros A eqb c P Q N H l [p d]. cbn [wf norm iset_c]. rewrite <- (Forall_iff_in P (fun a => wf c a /\ norm c a = a) Q l H p). rewrite !Forall_forall.
  split; [intros [[F _] _] a J; split; [auto|apply N]|intros F; split; [|reflexivity]; split; [intros a J; now apply F|exact d]].
Qed.
Lemma iset_any : forall {A : Set} eqb (c : codec A) P, plain c -> said c P any -> said (iset_c eqb c) (set_of eqb P) any.
Proof. intros A eqb c P N H a p. rewrite (iset_said eqb c P any N H a p). split; [intros; exact I|]. intros _. now apply Forall_all. Qed.
Lemma sset_any : forall (c : codec str) P, plain c -> said c P any -> said (sset c) (set_of str_eqb P) any.
Proof. intros c P. apply iset_any. Qed.

Lemma map_said : forall {V : Set} k (v : codec V) K P Q, said k K any -> said v P Q -> said (smap k v) (map_of K P) (values Q).
Proof.
  intros V k v K P Q Hk Hv m [D F]. cbn [wf norm smap imap_c]. rewrite map_id_iff. unfold values. rewrite !Forall_forall in *. split.
  - intros [[G _] N] e J. specialize (F e J). specialize (G e J). specialize (N e J). apply (Hv _ (proj2 F)). split; [apply G|]. destruct e as [a b]. cbn in *. now injection N.
  - intros G. split; [split; [|exact D]|]; intros e J; specialize (F e J); specialize (G e J); apply (Hv _ (proj2 F)) in G.
    + split; [apply (any_said k K); [assumption|apply F]|apply G].
    + destruct e as [a b]. cbn in *. now rewrite (proj2 G).
Qed.
Lemma map_any : forall {V : Set} k (v : codec V) K P, said k K any -> said v P any -> said (smap k v) (map_of K P) any.
Proof. intros V k v K P Hk Hv a p. rewrite (map_said k v K P any Hk Hv a p). split; [intros; exact I|]. intros _. now apply Forall_all. Qed.

Lemma form_said : forall {A B : Set} (c : codec A) (d : codec B) P Q R S, said c P Q -> said d R S -> said (short_or_long_c c d) (form P R) (form Q S).
Proof.
  intros A B c d P Q R S H G [a|a] p; cbn [wf norm short_or_long_c form] in *; [rewrite <- (H a p)|rewrite <- (G a p)]; (split; intros [W N]; split; auto; [now injection N|now rewrite N]).
Qed.
Lemma form_any : forall {A B : Set} (c : codec A) (d : codec B) P R, said c P any -> said d R any -> said (short_or_long_c c d) (form P R) any.
Proof. intros A B c d P R H G a p. rewrite (form_said c d P any R any H G a p). split; [intros; exact I|]. intros _. destruct a; exact I. Qed.
Lemma form_free : forall {A B : Set} (c : codec A) (d : codec B), said c any any -> said d any any -> said (short_or_long_c c d) any any.
Proof. intros A B c d H G a _. apply (form_any c d any any H G). destruct a; exact I. Qed.
Lemma item_any : forall {A B : Set} (c : codec A) (d : codec B) P R, said c P any -> said d R any -> said (item_or_list_c c d) (item P R) any.
Proof.
  intros A B c d P R H G. apply said_any. intros [a|a] p; cbn [wf norm item_or_list_c item] in *; [destruct (any_said c P a H p) as [W N]|destruct (any_said d R a G p) as [W N]]; rewrite N; auto.
Qed.
Lemma item_free : forall {A B : Set} (c : codec A) (d : codec B), said c any any -> said d any any -> said (item_or_list_c c d) any any.
Proof. intros A B c d H G a _. apply (item_any c d any any H G). destruct a; exact I. Qed.
Lemma limit_any : forall {A : Set} (c : codec A) P, said c P any -> said (limit_c c) (limit_can P) any.
Proof. intros A c P H. apply said_any. intros [a|] p; cbn [wf norm limit_c limit_can] in *; [|auto]. destruct (any_said c P a H p) as [W N]. rewrite N. auto. Qed.

(** ** Structs *)

Lemma members_said : forall ms p q, mssaid ms p q -> forall v, each ms p v -> (wf_members ms v /\ norm_members ms v = v <-> each ms q v).
Proof.
  induction ms as [|m r IH]; intros p q H v E; cbn [wf_members norm_members each]; [split; [intros; exact I|intros; split; [exact I|reflexivity]]|].
  destruct H as [H G]. destruct E as [E F]. specialize (IH _ _ G _ F). specialize (H _ E). destruct v as [a v]. cbn [fst snd] in *. rewrite <- IH, <- H. split.
  - intros [[W X] N]. injection N as N N'. auto.
  - intros [[W N] [X N']]. rewrite N, N'. auto.
Qed.
Lemma members_any : forall ms p, msany ms p -> forall v, each ms p v -> wf_members ms v /\ norm_members ms v = v.
Proof.
  induction ms as [|m r IH]; intros p H v E; cbn [wf_members norm_members each]; [split; [exact I|reflexivity]|].
  destruct H as [H G]. destruct E as [E F]. destruct (IH _ G _ F) as [X N']. destruct (proj2 (H _ E) I) as [W N]. destruct v as [a v]. cbn [fst snd] in *. rewrite N, N'. auto.
Qed.
Lemma mssaid_nil : mssaid [] tt tt. Proof. exact I. Qed.
Lemma mssaid_cons : forall m r (P Q : m_type m -> Prop) p q, msaid m P Q -> mssaid r p q -> mssaid (m :: r) (P, p) (Q, q).
Proof. intros. split; assumption. Qed.
Lemma msany_nil : msany [] tt. Proof. exact I. Qed.
Lemma msany_cons : forall m r (P : m_type m -> Prop) p, msaid m P any -> msany r p -> msany (m :: r) (P, p).
Proof. intros. split; assumption. Qed.

Lemma ext_can_iff : forall x, extensions_can x <-> ext_wf x.
Proof.
  intros x. unfold extensions_can, ext_wf, ext_key. cbn [wf yaml_c]. rewrite !Forall_forall. split; [intros [D F]|intros (F & D & G)]; (split; [|]); auto.
  - intros e J. destruct (F e J) as (a & b & _). auto.
  - split; [exact D|]. intros e J. apply F, J.
  - intros e J. destruct (F e J) as [a b]. auto.
Qed.
Lemma struct_said : forall ms p q, mssaid ms p q -> said (struct_c ms) (each ms p) (each ms q).
Proof. intros ms p q H v E. exact (members_said ms p q H v E). Qed.
Lemma struct_any : forall ms p, msany ms p -> said (struct_c ms) (each ms p) any.
Proof. intros ms p H. apply said_any. exact (members_any ms p H). Qed.
Lemma struct_ext_said : forall ms p q, mssaid ms p q -> said (struct_ext_c ms) (struct_can ms p) (struct_keeps ms q).
Proof.
  intros ms p q H [v x] [E X]. cbn [wf norm struct_ext_c fst snd] in *. unfold struct_keeps. cbn [fst]. rewrite <- (members_said ms p q H v E). apply ext_can_iff in X. split.
  - intros [[W _] N]. injection N as N. auto.
  - intros [W N]. rewrite N. auto.
Qed.
Lemma struct_ext_any : forall ms p, msany ms p -> said (struct_ext_c ms) (struct_can ms p) any.
Proof.
  intros ms p H. apply said_any. intros [v x] [E X]. cbn [wf norm struct_ext_c fst snd] in *. destruct (members_any ms p H v E) as [W N]. rewrite N. apply ext_can_iff in X. auto.
Qed.

Lemma iso_said : forall {A B : Set} (c : codec A) (write : B -> A) make P Q, (forall b, make (write b) = b) -> (forall a, write (make a) = a) ->
  said c P Q -> said (iso c write make) (fun b => P (write b)) (fun b => Q (write b)).
Proof.
  intros A B c write make P Q E F H b p. cbn [wf norm iso]. rewrite <- (H _ p). split; intros [W N]; (split; [exact W|]).
  - rewrite <- N at 2. now rewrite F.
  - now rewrite N, E.
Qed.
Lemma said_weaken : forall {A : Set} (c : codec A) P Q (R S : A -> Prop), said c P Q -> (forall a, R a -> P a) -> (forall a, R a -> (Q a <-> S a)) -> said c R S.
Proof. intros A c P Q R S H F G a r. rewrite <- (G a r). apply H, F, r. Qed.

(** ** Fields *)

Lemma required_said : forall n {A : Set} (c : codec A) P Q, said c P Q -> msaid (required n c) P Q.
Proof. intros n A c P Q H. exact H. Qed.
Lemma opt_norm : forall {A : Set} (c : codec A) o, (if is_none o then match Some (@None A) with Some d => d | None => o end else norm (option_c c) o) = norm (option_c c) o.
Proof. intros A c [a|]; reflexivity. Qed.
Lemma optional_said : forall n {A : Set} (c : codec A) P Q, said (option_c c) P Q -> msaid (optional n c) P Q.
Proof. intros n A c P Q H a p. cbn [m_wf m_norm optional field]. rewrite opt_norm. exact (H a p). Qed.
Lemma given_said : forall n {A : Set} (c : codec A) P Q, said (option_c c) P Q -> msaid (given n c) P Q.
Proof. intros n A c P Q H a p. cbn [m_wf m_norm given field]. change (norm (some_c c)) with (norm (option_c c)). rewrite opt_norm. exact (H a p). Qed.
Lemma many_said : forall n {A : Set} (c : codec (list A)) P Q, norm c [] = [] -> said c P Q -> msaid (many n c) P Q.
Proof. intros n A c P Q N H a p. cbn [m_wf m_norm many field]. rewrite <- (H a p). destruct a; cbn [is_nil]; [rewrite N|]; reflexivity. Qed.
Lemma flag_said : forall n P, msaid (flag n) P any.
Proof. intros n P a _. cbn [m_wf m_norm flag field]. split; intros; [exact I|]. destruct a; cbn; auto. Qed.
Lemma flag_true_said : forall n P, msaid (flag_true n) P any.
Proof. intros n P a _. cbn [m_wf m_norm flag_true field]. split; intros; [exact I|]. destruct a; cbn; auto. Qed.

#[export] Hint Resolve option_said option_any option_all option_free list_said list_any list_all list_free iset_said iset_any sset_any map_said map_any form_said form_any form_free item_any item_free limit_any
  struct_said struct_any struct_ext_said struct_ext_any : said.
Ltac any_type A P := lazymatch P with @any _ => constr:(@any A) | _ => P end.
Ltac any_types := lazymatch goal with |- @said ?A ?c ?P ?Q => let P := any_type A P in let Q := any_type A Q in change (@said A c P Q) end.
#[export] Hint Extern 1 (mssaid [] _ _) => exact I : said.
#[export] Hint Extern 1 (mssaid (_ :: _) _ _) => apply mssaid_cons : said.
#[export] Hint Extern 1 (msany [] _) => exact I : said.
#[export] Hint Extern 1 (msany (_ :: _) _) => apply msany_cons : said.
#[export] Hint Extern 1 (msaid (many _ _) _ _) => apply many_said; [reflexivity|any_types] : said.
#[export] Hint Extern 1 (msaid (optional _ _) _ _) => apply optional_said; any_types : said.
#[export] Hint Extern 1 (msaid (given _ _) _ _) => apply given_said; any_types : said.
#[export] Hint Extern 1 (msaid (required _ _) _ _) => apply required_said; any_types : said.
#[export] Hint Extern 1 (msaid (flag _) _ _) => apply flag_said : said.
#[export] Hint Extern 1 (msaid (flag_true _) _ _) => apply flag_true_said : said.
#[export] Hint Extern 4 (plain _) => solve [auto 6 with codec | intro; reflexivity] : said.

(** ** Scalars *)

Ltac leaf := solve [apply leaf_any; [reflexivity|intros; assumption || exact I]].
Lemma string_said : said string_c any any. Proof. leaf. Qed.
Lemma path_said : said path_c any any. Proof. leaf. Qed.
Lemma enum_said : forall {A : Set} eqb (t : enum_table A), said (enum_c eqb t) any any. Proof. intros. leaf. Qed.
Lemma cgroup_enum_said : said cgroup_c any any. Proof. leaf. Qed.
Lemma condition_enum_said : said condition_c any any. Proof. leaf. Qed.
Lemma uts_enum_said : said uts_c any any. Proof. leaf. Qed.
Lemma pull_policy_enum_said : said pull_policy_c any any. Proof. leaf. Qed.
Lemma restart_enum_said : said restart_c any any. Proof. leaf. Qed.
Lemma deploy_mode_enum_said : said deploy_mode_c any any. Proof. leaf. Qed.
Lemma restart_condition_enum_said : said restart_condition_c any any. Proof. leaf. Qed.
Lemma failure_action_enum_said : said failure_action_c any any. Proof. leaf. Qed.
Lemma order_enum_said : said order_c any any. Proof. leaf. Qed.
Lemma action_enum_said : said action_c any any. Proof. leaf. Qed.
Lemma bind_propagation_enum_said : said bind_propagation_c any any. Proof. leaf. Qed.
Lemma mode_enum_said : said mode_c any any. Proof. leaf. Qed.
Lemma identifier_said : said identifier_c identifier any. Proof. leaf. Qed.
Lemma name_said : said name_c (matches NAME_RE) any. Proof. leaf. Qed.
Lemma key_said : said map_key_c key_can any. Proof. leaf. Qed.
Lemma hostname_said : said hostname_c hostname any. Proof. leaf. Qed.
Lemma ulimit_resource_said : said ulimit_resource_c (matches ULIMIT_RE) any. Proof. leaf. Qed.
Lemma absolute_said : said absolute_path_c absolute_can any. Proof. leaf. Qed.
Lemma host_path_said : said host_path_c host_path_can any. Proof. leaf. Qed.
Lemma platform_said : said platform_c platform_can any. Proof. leaf. Qed.
Lemma link_said : said link_c link_can any. Proof. leaf. Qed.
Lemma u16_said : said u16_c u16 any. Proof. leaf. Qed.
Lemma u32_said : said u32_c u32 any. Proof. leaf. Qed.
Lemma u64_said : said u64_c u64 any. Proof. leaf. Qed.
Lemma u32_text_said : said u32_text_c u32 any. Proof. leaf. Qed.
Lemma percent_said : said percent_c percent_can any. Proof. leaf. Qed.
Lemma score_said : said oom_score_adj_c score_can any. Proof. leaf. Qed.
Lemma weight_said : said weight_c weight_can any. Proof. leaf. Qed.
Lemma cpus_said : forall w, said (cpus_c w) cpus_can any. Proof. intros. leaf. Qed.
Lemma count_said : said count_c count_can any. Proof. leaf. Qed.
Lemma ip_said : forall w, said (ip_c w) ip_can any. Proof. intros. leaf. Qed.
Lemma mac_said : said mac_c mac_can any. Proof. leaf. Qed.
Lemma selinux_said : said selinux_c any any. Proof. leaf. Qed.
Lemma test_said : said test_c any any. Proof. leaf. Qed.
Lemma net_said : forall w, said (ip_net_c w) (fun n => w_net w n = Some n) any. Proof. intros. leaf. Qed.
Lemma byte_said : said byte_value_c byte_can any. Proof. apply leaf_any; [reflexivity|]. intros [n|n|n|n] H; exact H. Qed.
Lemma range_said : said range_c range_can any. Proof. leaf. Qed.
Lemma cgroup_said : said cgroup_rule_c rule_can any. Proof. leaf. Qed.
Lemma v4_said : forall w, said (ipv4_c w) v4_can any.
Proof. intros w. apply leaf_any; [reflexivity|]. intros i [H (a & b & c & d & ->)]. split; [exact H|reflexivity]. Qed.
Lemma v6_said : forall w, said (ipv6_c w) v6_can any.
Proof. intros w. apply leaf_any; [reflexivity|]. intros i [H (l & ->)]. split; [exact H|reflexivity]. Qed.
Lemma id_or_name_can_wf : forall x, id_or_name_can x -> id_or_name_wf x.
Proof. intros [n|s] H; unfold id_or_name_can, id_or_name_wf, u32 in *; [change (2 ^ 32) with 4294967296; lia|]. apply user_name_new_ok. split; [reflexivity|exact H]. Qed.
Lemma id_or_name_said : said id_or_name_c id_or_name_can any.
Proof. apply leaf_any; [reflexivity|exact id_or_name_can_wf]. Qed.
Lemma user_said : said user_c user_can any.
Proof. apply leaf_any; [reflexivity|]. intros [u g] [H G]. cbn in *. split; cbn; [now apply id_or_name_can_wf|]. destruct g; [now apply id_or_name_can_wf|exact I]. Qed.
Lemma cpuset_said : forall w, said (cpuset_c w) cpuset_can any. Proof. intros. leaf. Qed.
#[export] Hint Resolve cgroup_enum_said condition_enum_said uts_enum_said pull_policy_enum_said restart_enum_said deploy_mode_enum_said restart_condition_enum_said failure_action_enum_said order_enum_said action_enum_said bind_propagation_enum_said mode_enum_said : said.
#[export] Hint Resolve string_said path_said enum_said identifier_said name_said key_said hostname_said ulimit_resource_said absolute_said host_path_said platform_said link_said u16_said u32_said u64_said
  u32_text_said percent_said score_said weight_said cpus_said count_said ip_said mac_said selinux_said test_said net_said byte_said range_said cgroup_said v4_said v6_said id_or_name_said user_said cpuset_said : said.

Ltac leaf_iff := apply leaf_said; [reflexivity|].
Lemma image_keeps_iff : forall i, image_parse (i_inner i) = Ok i <-> image_keeps i.
Proof.
  intros i. rewrite image_parse_ok. split.
  - intros (n & x & T & N & S & U & E). exists n, x, (registry_of n). repeat (split; [assumption|]). split; [now apply registry_of_spec|].
    split; [exact T|]. rewrite E. split; reflexivity.
  - intros (n & x & r & N & S & U & R & T & E & F). exists n, x. repeat (split; [assumption|]). apply registry_of_spec in R. subst r.
    destruct i as [a b c]. cbn in *. subst. destruct x; reflexivity.
Qed.
Lemma image_said : said image_c any image_keeps. Proof. leaf_iff. intros i _. exact (image_keeps_iff i). Qed.
Lemma as_many_iff : forall checks h c, opt range_can h -> range_can c ->
  (range_size_eq checks h c = OOk tt <-> opt (fun h => as_many checks h c) h).
Proof.
  assert (T : forall r n, range_can r -> (range_size true r = Ret n <-> (1 <= ports_in r <= 65535 /\ ports_in r = Z.of_N n)%Z)).
  { intros [s [e|]] n [A B]; unfold range_size, ports_in, u16_sub, u16_add, u16, U16_MAX in *; cbn [r_start r_end opt] in *.
    - destruct (N.leb_spec s e) as [L|L]; cbn [pbind]; [|split; [discriminate|lia]].
      destruct (N.leb_spec (e - s + 1) 65535) as [M|M]; [|split; [discriminate|lia]]. split; [intros X; injection X as <-; lia|intros X; f_equal; lia].
    - split; [intros X; injection X as <-; lia|intros X; f_equal; lia]. }
  assert (F : forall r, range_can r -> exists n, range_size false r = Ret n /\ (Z.of_N n = ports_in r mod 65536)%Z).
  { intros [s [e|]] [A B]; unfold range_size, ports_in, u16_sub, u16_add, u16, U16_MAX in *; cbn [r_start r_end opt] in *; [|exists 1; split; reflexivity].
    destruct (N.leb_spec s e) as [L|L]; cbn [pbind].
    - destruct (N.leb_spec (e - s + 1) 65535) as [M|M]; eexists; (split; [reflexivity|]); [rewrite Z.mod_small; lia|]. rewrite N2Z.inj_mod. f_equal. lia.
    - rewrite N.mod_small by lia. destruct (N.leb_spec (e + 65536 - s + 1) 65535) as [M|M]; eexists; (split; [reflexivity|]).
      + apply (Z.mod_unique_pos _ _ (-1)); lia.
      + assert (X : e + 65536 - s + 1 = 65536) by lia. rewrite X. replace (Z.of_N e - Z.of_N s + 1)%Z with 0%Z by lia. reflexivity. }
  intros checks [h|] c H C; [|split; [intros _; exact I|reflexivity]]. rewrite range_size_eq_ok. unfold as_many. cbn [opt] in *. destruct checks.
  - split; [intros (n & X & Y); apply T in X, Y; try assumption; lia|]. intros X. exists (Z.to_N (ports_in h)). split; apply T; try assumption; lia.
  - destruct (F h H) as (n & X & Y), (F c C) as (m & V & W). rewrite X, V, <- Y, <- W. split; [intros (k & P & Q); congruence|].
    intros E. apply N2Z.inj in E. subst. eauto.
Qed.
Lemma ipc_said : said ipc_c ipc_can ipc_keeps. Proof. leaf_iff. intros [|s|s] H; cbn in *; tauto. Qed.
Lemma driver_said : said driver_c any driver_keeps. Proof. leaf_iff. intros i _. reflexivity. Qed.
Lemma endpoint_said : said endpoint_mode_c any endpoint_keeps. Proof. leaf_iff. intros i _. reflexivity. Qed.
Lemma capability_said : said capability_c any capability_keeps. Proof. leaf_iff. intros i _. reflexivity. Qed.
Lemma protocol_said : said protocol_c any protocol_keeps. Proof. leaf_iff. intros i _. reflexivity. Qed.
Lemma build_network_said : said build_network_c build_network_can build_network_keeps.
Proof.
  leaf_iff. intros [i|] H; cbn [wf build_network_c text_c build_network_wf]; unfold build_network_keeps; [|split; [discriminate|intros; exact I]].
  split; [intros [_ N] E; injection E; exact N|]. intros N. split; [exact H|]. intros ->. now apply N.
Qed.
Lemma device_said : said device_c device_can device_keeps. Proof. leaf_iff. intros d H. unfold device_keeps, device_can in *. cbn [wf device_c text_c]. unfold device_wf. tauto. Qed.
Lemma mode_said : said network_mode_c mode_can mode_keeps. Proof. leaf_iff. intros [| |i|i|o] H; cbn in *; tauto. Qed.
Lemma from_said : said volumes_from_c from_can from_keeps. Proof. leaf_iff. intros v H. cbn [wf volumes_from_c text_c]. unfold volumes_from_wf, from_keeps, suffix_free. split; [tauto|]. intros G. split; [exact H|exact G]. Qed.
Lemma short_volume_said : said short_volume_c short_volume_can short_volume_keeps.
Proof.
  leaf_iff. intros [c o] [A O]. cbn [wf short_volume_c text_c]. unfold short_volume_wf, short_volume_keeps. cbn [sv_container sv_options] in *. destruct o as [o|]; cbn [opt] in *; [|tauto].
  destruct (so_source o) as [p|i]; cbn [source_can volume_source_wf] in *.
  - split; [intros (_ & C & _ & D); split; [exact C|]; intros q E; now injection E as <-|intros [C D]; repeat split; auto].
  - split; [intros (_ & C & _); split; [exact C|]; intros q E; discriminate|intros [C D]; repeat split; auto].
Qed.
Lemma ssh_said : said ssh_auth_c ssh_can ssh_keeps. Proof. leaf_iff. intros [|i] H; cbn in *; tauto. Qed.
Lemma cache_said : said cache_c cache_can cache_keeps.
Proof.
  leaf_iff. intros [t o] [[D F] T]. cbn [wf cache_c text_c]. unfold cache_canonical, cache_keeps, pair_ok. cbn [c_type c_options] in *. rewrite !Forall_forall in *. split.
  - intros (_ & G & H). split; [intros e J; specialize (G e J); tauto|]. destruct t as [i|]; [rewrite <- (image_keeps_iff i); exact H|tauto].
  - intros [G H]. split; [exact D|]. split; [intros e J; specialize (G e J); specialize (F e J); unfold option_can in F; unfold is_option; tauto|]. destruct t as [i|]; [rewrite <- (image_keeps_iff i) in H; exact H|]. split; [exact T|exact H].
Qed.
Lemma expose_said : said expose_c expose_can expose_keeps.
Proof. leaf_iff. intros [r p] H. cbn [wf expose_c]. unfold expose_wf, expose_keeps, expose_can in *. cbn [ex_range ex_protocol] in *. split; [intros [_ G]; exact G|]. intros G. split; [exact H|exact G]. Qed.
Lemma short_port_said : forall w, said (short_port_c w) (short_port_can w) short_port_keeps.
Proof.
  intros w. leaf_iff. intros [i r p] (A & B & C & D). cbn [wf short_port_c]. unfold sp_valid, sr_valid, sr_u16, short_port_keeps. cbn [sp_host_ip sp_ranges sp_protocol] in *.
  assert (E : match p with Some pr => protocol_canonical pr | None => True end <-> opt protocol_keeps p).
  { destruct p as [p|]; [|reflexivity]. symmetry. apply (protocol_wf_iff p). }
  rewrite E. split; [tauto|]. intros G. split; [exact A|]. split; [|exact G]. split; [split; [exact B|exact C]|]. apply as_many_iff; assumption.
Qed.
Lemma time_said : said duration_c time_can time_keeps.
Proof.
  intros [s n] H. cbn [wf norm duration_c]. unfold whole_micros, time_keeps. cbn [secs nanos].
  assert (E := N.div_mod n 1000 ltac:(lia)). split.
  - intros [_ G]. injection G as G. lia.
  - intros G. split; [exact H|]. f_equal. lia.
Qed.
Lemma micros_said : said duration_us_c time_can micros_keep.
Proof.
  intros [s n] H. cbn [wf norm duration_us_c]. unfold whole_micros, micros_keep, time_keeps, as_micros. cbn [secs nanos].
  assert (E := N.div_mod n 1000 ltac:(lia)). split.
  - intros [[_ U] G]. injection G as G. split; [lia|exact U].
  - intros [G U]. split; [split; [exact H|exact U]|]. f_equal. lia.
Qed.
Lemma number_said : said number_c number_can number_keeps.
Proof.
  intros [n|z|b] H; cbn [wf norm number_c number_norm number_keeps number_wf]; [split; intros; [exact I|split; [exact H|reflexivity]]| |split; intros; [exact I|split; [exact I|reflexivity]]].
  destruct (Z.leb_spec 0 z); split; intros G; [destruct G; discriminate|exfalso; lia|lia|split; [exact H|reflexivity]].
Qed.
Lemma value_said : said value_c value_can value_keeps.
Proof.
  intros [s|n|b] H; cbn [wf norm value_c value_keeps]; try (split; intros; [exact I|split; [exact I|reflexivity]]).
  rewrite <- (number_said n H). split; intros [W N]; (split; [exact W|]); [now injection N|now rewrite N].
Qed.
Lemma plain_said : said string_or_number_c plain_can plain_keeps.
Proof.
  intros [s|n] H; cbn [wf norm string_or_number_c plain_keeps]; try (split; intros; [exact I|split; [exact I|reflexivity]]).
  rewrite <- (number_said n H). split; intros [W N]; (split; [exact W|]); [now injection N|now rewrite N].
Qed.
#[export] Hint Resolve image_said ipc_said driver_said endpoint_said capability_said protocol_said build_network_said device_said mode_said from_said short_volume_said ssh_said cache_said expose_said short_port_said
  time_said micros_said value_said plain_said : said.
Lemma options_said : said vmap_c options_can options_keep.
Proof. unfold vmap_c, options_can, options_keep. auto with said. Qed.
#[export] Hint Resolve options_said : said.
Lemma either_said : forall n, msaid (list_or_map_field n) either_can either_keeps.
Proof.
  intros n [l|m] H; cbn [m_wf m_norm list_or_map_field field wf norm list_or_map_c list_or_map_empty either_can either_keeps] in *.
  - split; [intros; exact I|]. intros _. split; [|destruct l; reflexivity]. split; [apply Forall_all; intros; exact I|]. now apply (distinct_NoDup str_eqb l str_eqb_eq).
  - destruct m as [|e m]; cbn [is_nil].
    + split; [intros [_ G]; discriminate|intros [G _]; now elim G].
    + rewrite <- (options_said _ H). assert (J : forall x y, LMap x = LMap y -> x = y) by (intros x y E; now injection E).
      split; [intros [W G]; split; [discriminate|]; split; [exact W|exact (J _ _ G)]|intros [_ [W G]]; split; [exact W|exact (f_equal LMap G)]].
Qed.
Lemma hosts_said : forall w, said (extra_hosts_c w) hosts_can any.
Proof. intros w. apply said_any. intros m H. split; [|reflexivity]. apply (any_said (smap hostname_c (ip_c w)) hosts_can m); [|exact H]. unfold hosts_can. auto with said. Qed.
Lemma hosts_map_said : forall w, said (smap hostname_c (ip_c w)) hosts_can any.
Proof. intros w. unfold hosts_can. auto with said. Qed.
Lemma context_said : forall w, said (context_c w) (context_can w) (context_keeps w).
Proof. intros w. leaf_iff. intros [p|u] H; cbn in *; tauto. Qed.
#[export] Hint Extern 1 (msaid (list_or_map_field _) _ _) => apply either_said : said.
#[export] Hint Resolve hosts_said hosts_map_said context_said : said.
Lemma contexts_said : forall w, said (additional_contexts_c w) (map_of key_can (context_can w)) (values (context_keeps w)).
Proof.
  intros w. leaf_iff. intros m H. cbn [wf additional_contexts_c]. rewrite <- (map_said map_key_c (context_c w) key_can _ _ key_said (context_said w) m H). split; [|tauto].
  intros W. split; [exact W|]. cbn [norm smap imap_c]. rewrite map_id_iff. apply Forall_all. intros [a b]. reflexivity.
Qed.
Lemma grants_said : said grants_c grants_can any.
Proof. unfold grants_c, grants_can, config_or_secret_c, config_or_secret_ms. auto 20 with said. Qed.
Lemma ulimit_said : said ulimit_c ulimit_can any.
Proof.
  assert (S : said (struct_ext_c ulimit_ms) (struct_can ulimit_ms [* limit_can u64; limit_can u64 *]) any) by (unfold ulimit_ms; auto 10 with said).
  unfold ulimit_c. eapply said_weaken; [eapply iso_said; [| |exact S]| |].
  - intros []. reflexivity.
  - intros [(a & b & []) x]. reflexivity.
  - intros u (A & B & C). split; [cbn; auto|exact C].
  - intros. reflexivity.
Qed.
#[export] Hint Resolve contexts_said grants_said ulimit_said : said.
Lemma ulimits_said : said ulimits_c ulimits_can any.
Proof. unfold ulimits_c, ulimits_can. auto 20 with said. Qed.
Lemma dockerfile_said : msaid dockerfile_m any any.
Proof. intros d _. split; [intros; exact I|]. intros _. split; [exact I|reflexivity]. Qed.
#[export] Hint Resolve ulimits_said : said.
#[export] Hint Extern 1 (msaid dockerfile_m _ _) => exact dockerfile_said : said.

(** ** The parts of a service *)

Lemma build_said : forall w, said (build_c w) (struct_can (build_ms w) (build_can w)) (struct_keeps (build_ms w) (build_keeps w)).
Proof. intros w. unfold build_c. apply struct_ext_said. unfold build_ms, build_can, build_keeps. auto 40 with said. Qed.
Lemma limits_said : forall w, said (limits_c w) (struct_can (limits_ms w) (limits_can w)) any.
Proof. intros w. unfold limits_c. apply struct_ext_any. unfold limits_ms, limits_can. auto 20 with said. Qed.
Lemma deploy_device_said : said deploy_device_c (struct_can deploy_device_ms deploy_device_can) (struct_keeps deploy_device_ms deploy_device_keeps).
Proof. unfold deploy_device_c. apply struct_ext_said. unfold deploy_device_ms, deploy_device_can, deploy_device_keeps. auto 20 with said. Qed.
Lemma spec_said : said discrete_resource_spec_c (struct_can discrete_resource_spec_ms spec_can) any.
Proof. unfold discrete_resource_spec_c. apply struct_ext_any. unfold discrete_resource_spec_ms, spec_can. auto 20 with said. Qed.
#[export] Hint Resolve build_said limits_said deploy_device_said spec_said : said.
Lemma generic_said : said generic_resource_c (struct_can generic_resource_ms generic_can) any.
Proof. unfold generic_resource_c. apply struct_ext_any. unfold generic_resource_ms, generic_can. auto 20 with said. Qed.
#[export] Hint Resolve generic_said : said.
Lemma reservations_said : forall w, said (reservations_c w) (struct_can (reservations_ms w) (reservations_can w)) (struct_keeps (reservations_ms w) (reservations_keep w)).
Proof. intros w. unfold reservations_c. apply struct_ext_said. unfold reservations_ms, reservations_can, reservations_keep. auto 20 with said. Qed.
#[export] Hint Resolve reservations_said : said.
Lemma resources_said : forall w, said (resources_c w) (struct_can (resources_ms w) (resources_can w)) (struct_keeps (resources_ms w) (resources_keep w)).
Proof. intros w. unfold resources_c. apply struct_ext_said. unfold resources_ms, resources_can, resources_keep. auto 20 with said. Qed.
Lemma preference_said : said preference_c (struct_can preference_ms [* any *]) any.
Proof. unfold preference_c. apply struct_ext_any. unfold preference_ms. auto 20 with said. Qed.
#[export] Hint Resolve resources_said preference_said : said.
Lemma placement_said : said placement_c (struct_can placement_ms placement_can) any.
Proof. unfold placement_c. apply struct_ext_any. unfold placement_ms, placement_can. auto 20 with said. Qed.
Lemma restart_policy_said : said restart_policy_c (struct_can restart_policy_ms restart_policy_can) (struct_keeps restart_policy_ms restart_policy_keeps).
Proof. unfold restart_policy_c. apply struct_ext_said. unfold restart_policy_ms, restart_policy_can, restart_policy_keeps. auto 20 with said. Qed.
Lemma update_config_said : said update_config_c (struct_can update_config_ms update_config_can) (struct_keeps update_config_ms update_config_keeps).
Proof. unfold update_config_c. apply struct_ext_said. unfold update_config_ms, update_config_can, update_config_keeps. auto 20 with said. Qed.
#[export] Hint Resolve placement_said restart_policy_said update_config_said : said.
Lemma deploy_said : forall w, said (deploy_c w) (struct_can (deploy_ms w) (deploy_can w)) (struct_keeps (deploy_ms w) (deploy_keeps w)).
Proof. intros w. unfold deploy_c. apply struct_ext_said. unfold deploy_ms, deploy_can, deploy_keeps. auto 20 with said. Qed.

Lemma service_network_said : forall w, said (service_network_c w) (struct_can (service_network_ms w) (service_network_can w)) (struct_keeps (service_network_ms w) (service_network_keeps w)).
Proof. intros w. unfold service_network_c. apply struct_ext_said. unfold service_network_ms, service_network_can, service_network_keeps. auto 20 with said. Qed.
#[export] Hint Resolve deploy_said service_network_said : said.
Lemma network_config_said : forall w, msaid (network_config_m w) (opt (network_config_can w)) (opt (network_config_keeps w)).
Proof.
  intros w o H. cbn [m_wf m_norm network_config_m group]. destruct o as [[m|n]|]; cbn [opt network_config_can network_config_keeps] in *; [| |split; auto].
  - rewrite <- (mode_said m H). split; [intros [W _]; split; [exact W|reflexivity]|intros [W _]; split; [exact W|reflexivity]].
  - assert (S : said (networks_c w) (form (set_of str_eqb identifier) (map_of identifier (opt (struct_can (service_network_ms w) (service_network_can w)))))
                  (form any (values (opt (struct_keeps (service_network_ms w) (service_network_keeps w)))))) by (unfold networks_c; auto 20 with said).
    rewrite <- (S n H). assert (J : forall x y : networks w, Some (NcNetworks x) = Some (NcNetworks y) -> x = y) by (intros x y E; now injection E).
    split; intros [W G]; (split; [exact W|]); [exact (J _ _ G)|exact (f_equal (fun x => Some (NcNetworks x)) G)].
Qed.
Lemma blkio_said : said blkio_config_c (each blkio_config_ms device_limits_can) any.
Proof. unfold blkio_config_c. apply struct_any. unfold blkio_config_ms, device_limits_can, bps_limit_c, iops_limit_c, weight_device_c. cbv zeta. auto 20 with said. Qed.
Lemma credential_said : msaid credential_m credential_can any.
Proof. intros c H. split; [intros; exact I|]. intros _. split; [|reflexivity]. destruct c; [exact H|exact I|exact I]. Qed.
#[export] Hint Resolve blkio_said : said.
#[export] Hint Extern 1 (msaid (network_config_m _) _ _) => apply network_config_said : said.
#[export] Hint Extern 1 (msaid credential_m _ _) => exact credential_said : said.
Lemma credential_spec_said : said credential_spec_c (struct_can [credential_m] [* credential_can *]) any.
Proof. change (said (struct_ext_c [credential_m]) (struct_can [credential_m] [* credential_can *]) any). auto with said. Qed.
Lemma watch_rule_said : said watch_rule_c (struct_can watch_rule_ms watch_rule_can) any.
Proof. unfold watch_rule_c. apply struct_ext_any. unfold watch_rule_ms, watch_rule_can. auto 20 with said. Qed.
#[export] Hint Resolve credential_spec_said watch_rule_said : said.
Lemma develop_said : said develop_c (each [many $"watch" (list_c watch_rule_c)] [* Forall (struct_can watch_rule_ms watch_rule_can) *]) any.
Proof. unfold develop_c. auto 20 with said. Qed.
Lemma env_file_config_said : said env_file_config_c any any.
Proof. apply said_any. intros (p & r & []) _. cbn. destruct r; auto. Qed.
#[export] Hint Resolve develop_said env_file_config_said : said.
Lemma env_file_said : said env_file_c any any.
Proof. unfold env_file_c. auto 20 with said. Qed.
Lemma command_said : said command_c any any.
Proof. unfold command_c. auto 20 with said. Qed.
Lemma dependency_said : said dependency_c any any.
Proof. apply said_any. intros (c & r & q & []) _. cbn. destruct r, q; auto. Qed.
#[export] Hint Resolve env_file_said command_said dependency_said : said.
Lemma depends_on_said : forall n, msaid (depends_on_field n) depends_on_can depends_on_keeps.
Proof.
  intros n d H. assert (S : said depends_on_c depends_on_can any) by (unfold depends_on_c, depends_on_can; auto 20 with said). destruct (any_said _ _ _ S H) as [W N].
  cbn [m_wf m_norm depends_on_field field]. unfold depends_on_keeps. rewrite N. destruct d as [[|a l]|[|a l]]; cbn [depends_on_empty is_nil]; split; intros G; try discriminate; auto; [destruct G; discriminate|now elim G].
Qed.
Lemma extends_said : said extends_c (each [required $"service" identifier_c; optional $"file" path_c] [* identifier; any *]) any.
Proof. unfold extends_c. auto 20 with said. Qed.
Lemma logging_said : said logging_c
  (struct_can [optional $"driver" string_c; many $"options" (smap map_key_c (option_c string_or_number_c))] [* any; map_of key_can (opt plain_can) *])
  (struct_keeps [optional $"driver" string_c; many $"options" (smap map_key_c (option_c string_or_number_c))] [* any; values (opt plain_keeps) *]).
Proof. unfold logging_c. auto 20 with said. Qed.
Lemma healthcheck_said : said healthcheck_c health_can health_keeps.
Proof.
  intros [c|] H; [|split; intros; [exact I|split; [exact I|reflexivity]]]. cbn [wf norm healthcheck_c health_can health_keeps] in *.
  assert (S : said (struct_ext_c health_ms) (struct_can health_ms [* any; opt time_can; opt time_can; opt u64; opt time_can; opt time_can *])
                (struct_keeps health_ms [* any; opt time_keeps; opt time_keeps; any; opt time_keeps; opt time_keeps *])) by (unfold health_ms; auto 20 with said).
  rewrite <- (S c H). assert (J : forall x y, HcCommand x = HcCommand y -> x = y) by (intros x y E; now injection E).
  split; intros [W G]; (split; [exact W|]); [exact (J _ _ G)|exact (f_equal HcCommand G)].
Qed.
#[export] Hint Resolve extends_said logging_said healthcheck_said : said.
#[export] Hint Extern 1 (msaid (depends_on_field _) _ _) => apply depends_on_said : said.

(** ** Volumes and ports *)

Lemma volume_options_said : said volume_options_c (fun o => extensions_can (vo_extensions o)) any.
Proof.
  assert (S : said (struct_ext_c volume_options_ms) (struct_can volume_options_ms [* any; any *]) any) by (unfold volume_options_ms; auto 10 with said).
  unfold volume_options_c. eapply said_weaken; [eapply iso_said; [| |exact S]| |].
  - intros []. reflexivity.
  - intros [(a & b & []) x]. reflexivity.
  - intros u C. split; [cbn; unfold any; auto|exact C].
  - intros. reflexivity.
Qed.
Lemma bind_options_said : said bind_options_c (fun o => extensions_can (bo_extensions o)) any.
Proof.
  assert (S : said (struct_ext_c bind_options_ms) (struct_can bind_options_ms [* any; any; any *]) any) by (unfold bind_options_ms; auto 10 with said).
  unfold bind_options_c. eapply said_weaken; [eapply iso_said; [| |exact S]| |].
  - intros []. reflexivity.
  - intros [(a & b & c & []) x]. reflexivity.
  - intros u C. split; [cbn; unfold any; auto|exact C].
  - intros. reflexivity.
Qed.
Lemma tmpfs_options_said : said tmpfs_options_c (fun o => opt byte_can (to_size o) /\ opt u32 (to_mode o) /\ extensions_can (to_extensions o)) any.
Proof.
  assert (S : said (struct_ext_c tmpfs_options_ms) (struct_can tmpfs_options_ms [* opt byte_can; opt u32 *]) any) by (unfold tmpfs_options_ms; auto 10 with said).
  unfold tmpfs_options_c. eapply said_weaken; [eapply iso_said; [| |exact S]| |].
  - intros []. reflexivity.
  - intros [(a & b & []) x]. reflexivity.
  - intros u (A & B & C). split; [cbn; auto|exact C].
  - intros. reflexivity.
Qed.
#[export] Hint Resolve volume_options_said bind_options_said tmpfs_options_said : said.
Lemma volume_mount_said : said volume_c (fun m => opt identifier (vol_source m) /\ opt (fun o => extensions_can (vo_extensions o)) (vol_volume m) /\ common_can (vol_common m)) any.
Proof.
  assert (S : said (struct_ext_c volume_ms) (struct_can volume_ms [* opt identifier; opt (fun o => extensions_can (vo_extensions o)); absolute_can; any; any *]) any)
    by (unfold volume_ms, common_ms; auto 20 with said).
  unfold volume_c. eapply said_weaken; [eapply iso_said; [| |exact S]| |].
  - intros [? ? []]. reflexivity.
  - intros [(a & b & c & d & e & []) x]. reflexivity.
  - intros [a b c] (A & B & C & D). split; [cbn; unfold any; auto 10|exact D].
  - intros. reflexivity.
Qed.
Lemma bind_mount_said : said bind_c (fun m => host_path_can (bind_source m) /\ opt (fun o => extensions_can (bo_extensions o)) (bind_bind m) /\ common_can (bind_common m)) any.
Proof.
  assert (S : said (struct_ext_c bind_ms) (struct_can bind_ms [* host_path_can; opt (fun o => extensions_can (bo_extensions o)); absolute_can; any; any *]) any)
    by (unfold bind_ms, common_ms; auto 20 with said).
  unfold bind_c. eapply said_weaken; [eapply iso_said; [| |exact S]| |].
  - intros [? ? []]. reflexivity.
  - intros [(a & b & c & d & e & []) x]. reflexivity.
  - intros [a b c] (A & B & C & D). split; [cbn; unfold any; auto 10|exact D].
  - intros. reflexivity.
Qed.
Lemma tmpfs_mount_said : said tmpfs_c (fun m => opt (fun o => opt byte_can (to_size o) /\ opt u32 (to_mode o) /\ extensions_can (to_extensions o)) (tm_tmpfs m) /\ common_can (tm_common m)) any.
Proof.
  assert (S : said (struct_ext_c tmpfs_ms) (struct_can tmpfs_ms [* opt (fun o => opt byte_can (to_size o) /\ opt u32 (to_mode o) /\ extensions_can (to_extensions o)); absolute_can; any; any *]) any)
    by (unfold tmpfs_ms, common_ms; auto 20 with said).
  unfold tmpfs_c. eapply said_weaken; [eapply iso_said; [| |exact S]| |].
  - intros [? []]. reflexivity.
  - intros [(b & c & d & e & []) x]. reflexivity.
  - intros [b c] (B & C & D). split; [cbn; unfold any; auto 10|exact D].
  - intros. reflexivity.
Qed.
Lemma named_pipe_said : said named_pipe_c (fun m => host_path_can (np_source m) /\ common_can (np_common m)) any.
Proof.
  assert (S : said (struct_ext_c named_pipe_ms) (struct_can named_pipe_ms [* host_path_can; absolute_can; any; any *]) any) by (unfold named_pipe_ms, common_ms; auto 20 with said).
  unfold named_pipe_c. eapply said_weaken; [eapply iso_said; [| |exact S]| |].
  - intros [? []]. reflexivity.
  - intros [(b & c & d & e & []) x]. reflexivity.
  - intros [b c] (B & C & D). split; [cbn; unfold any; auto 10|exact D].
  - intros. reflexivity.
Qed.
Lemma cluster_said : said cluster_c (fun m => common_can (cl_common m)) any.
Proof.
  assert (S : said (struct_ext_c cluster_ms) (struct_can cluster_ms [* any; absolute_can; any; any *]) any) by (unfold cluster_ms, common_ms; auto 20 with said).
  unfold cluster_c. eapply said_weaken; [eapply iso_said; [| |exact S]| |].
  - intros [? []]. reflexivity.
  - intros [(b & c & d & e & []) x]. reflexivity.
  - intros [b c] (C & D). split; [cbn; unfold any; auto 10|exact D].
  - intros. reflexivity.
Qed.
Lemma mount_said : said mount_c mount_can any.
Proof.
  apply leaf_any; [reflexivity|]. intros m H. destruct m as [m|m|m|m|m]; cbn [mount_can] in H.
  - exact (proj1 (any_said _ _ m volume_mount_said H)).
  - exact (proj1 (any_said _ _ m bind_mount_said H)).
  - exact (proj1 (any_said _ _ m tmpfs_mount_said H)).
  - exact (proj1 (any_said _ _ m named_pipe_said H)).
  - exact (proj1 (any_said _ _ m cluster_said H)).
Qed.
Lemma port_said : forall w, said (port_c w) port_can port_keeps.
Proof.
  intros w. assert (S : said (struct_ext_c (port_ms w)) (struct_can (port_ms w) [* any; u16; opt range_can; opt ip_can; any; any; any *])
                          (struct_keeps (port_ms w) [* any; any; any; any; opt protocol_keeps; any; any *])) by (unfold port_ms; auto 20 with said).
  unfold port_c. eapply said_weaken; [eapply iso_said; [| |exact S]| |].
  - intros []. reflexivity.
  - intros [(a & b & c & d & e & f & g & []) x]. reflexivity.
  - intros p (A & B & C & D). split; [cbn; unfold any; auto 10|exact D].
  - intros p _. unfold port_keeps, struct_keeps. cbn. unfold any. tauto.
Qed.
#[export] Hint Resolve mount_said port_said : said.
Lemma volumes_said : forall w, said (volumes_c w) (set_of (short_or_long_eqb short_volume_eqb (mount_eqb (w_yaml_eqb w))) (form short_volume_can mount_can)) (Forall (form short_volume_keeps any)).
Proof. intros w. unfold volumes_c. apply iset_said; [intros []; reflexivity|]. auto with said. Qed.
Lemma port_plain : forall w, plain (port_c w).
Proof. intros w. auto 6 with codec. Qed.
Lemma ports_said : forall w, said (ports_c w) (set_of (short_or_long_eqb short_port_eqb (port_eqb (w_yaml_eqb w))) (form (short_port_can w) port_can)) (Forall (form short_port_keeps port_keeps)).
Proof. intros w. unfold ports_c. apply iset_said; [|auto with said]. intros [a|a]; [reflexivity|]. exact (f_equal Long (port_plain w a)). Qed.
#[export] Hint Resolve volumes_said ports_said : said.
Lemma cpuset_field_said : forall n w, msaid (cpuset_field n w) cpuset_can any.
Proof. intros n w l H. split; [intros; exact I|]. intros _. cbn [m_wf m_norm cpuset_field field]. split; [exact H|]. destruct l; reflexivity. Qed.
#[export] Hint Extern 1 (msaid (cpuset_field _ _) _ _) => apply cpuset_field_said : said.
