(** Spellings that the readers of single values do not tell apart. *)

From Coq Require Import String Ascii List NArith ZArith Bool Lia Sorted.
Import ListNotations.
From Verif Require Import Base BaseFacts Num NumFacts Coll CollFacts Regex KeysSpec KeysModel KeysProofs IpModel IpLang NumSpec IpSpec PropsPortText DurationModel DurationSpec DurationProofs
  PortsModel PortsProofs PortsSpec NetModel PropsNet UserModel TextModel BytesModel BytesProofs CpuSetModel CpuSetProofs PropsCpuSet PropsValues ValuesModel ListMapProofs EnumModel HealthModel HealthProofs
  Serde Codec ScalarCodec CommonCodec CommonGood PanicSpec ChangeSpec ChangeFacts SpellSpec.
Open Scope N_scope.

Definition reads {A : Set} {X : Type} (c : codec A) (means : sval -> X -> Prop) (f : X -> A) : Prop := forall v x, means v x -> de c v = Ok (f x).
Lemma blind_alike : forall {A : Set} {X : Type} (c : codec A) (means : sval -> X -> Prop) f, reads c means f -> blind c (alike means).
Proof. intros A X c means f R v v' _ (x & H & H'). now rewrite (R _ _ H), (R _ _ H'). Qed.

(** ** Numbers *)

Lemma read_number : forall max z n, z = Z.of_N n -> n <= max -> int_to_uint max z = Ok n.
Proof. intros max z n -> H. now apply int_to_uint_of_N. Qed.
Lemma reads_count : reads count_c (number_or_text u64) CountInteger.
Proof.
  intros v n [[-> L]|(s & -> & T)]; cbn [de count_c count_deserialize].
  - now rewrite int_to_uint_of_N.
  - unfold count_parse. apply parse_uint_text in T. destruct (str_eqb_spec s $"all") as [->|_]; [discriminate T|]. unfold parse_u64. change U64_MAX with u64. now rewrite T.
Qed.
Lemma reads_id : reads id_or_name_c (number_or_text u32) Id.
Proof.
  intros v n [[-> L]|(s & -> & T)]; cbn [de id_or_name_c].
  - now rewrite int_to_uint_of_N.
  - unfold id_or_name_parse. apply parse_uint_text in T. unfold parse_u32. change U32_MAX with u32. now rewrite T.
Qed.
Lemma reads_u32_text : reads u32_text_c (text_of (uint_text u32)) (fun n => n).
Proof. intros v n (s & -> & T). apply parse_uint_text in T. cbn [de u32_text_c text_c from_string]. unfold parse_u32. change U32_MAX with u32. now rewrite T. Qed.
Lemma reads_only_number : forall max, reads (uint_c max) (only_number max) (fun n => n).
Proof. intros max v n [-> L]. cbn [de uint_c]. now apply int_to_uint_of_N. Qed.

Definition byte_value_of (x : N * size_unit) : byte_value :=
  match snd x with B => Bytes (fst x) | KB => Kilobytes (fst x) | MB => Megabytes (fst x) | GB => Gigabytes (fst x) end.
Lemma reads_size : reads byte_value_c size byte_value_of.
Proof.
  intros v [n u] [(-> & L & E)|(s & t & -> & T & I)]; cbn [de byte_value_c byte_value_deserialize fst snd] in *.
  - subst u. now rewrite int_to_uint_of_N.
  - assert (P : byte_value_parse (s ++ t) = Ok (byte_value_of (n, u))); [|now rewrite P]. apply byte_value_parse_ok. apply parse_uint_text in T.
    assert (M : exists m, In (t, fun k => byte_value_of (k, u), m) unit_table).
    { unfold unit_table, byte_value_of. cbn [fst snd].
      destruct u; [exists 1|exists 1000|exists 1000000|exists 1000000000]; cbn [suffixes In] in I |- *; repeat (destruct I as [<-|I]; [tauto|]); contradiction. }
    destruct M as [m M]. eexists _, _, m, s, n. eauto.
Qed.
Definition limited {X T : Type} (f : X -> T) (x : option X) : limit T := match x with Some x => LimitValue (f x) | None => Unlimited end.
Lemma reads_limit : forall {A : Set} {X : Type} (c : codec A) (means : sval -> X -> Prop) f, reads c means f ->
  (forall v x, means v x -> (exists n, v = VInt (Z.of_N n)) \/ exists s, v = VStr s /\ s <> $"-1") -> reads (limit_c c) (or_unlimited means) (limited f).
Proof.
  intros A X c means f R K v [x|] H; cbn [or_unlimited limited] in *; [|destruct H as [->| ->]; reflexivity].
  pose proof (R _ _ H) as E. cbn [de limit_c]. destruct (K _ _ H) as [(n & ->)|(s & -> & D)]; cbn [limit_deserialize].
  - destruct (Z.leb_spec (Z.of_N n) (-2)); [lia|]. destruct (Z.eqb_spec (Z.of_N n) (-1)); [lia|]. now rewrite E.
  - destruct (str_eqb_spec s $"-1"); [contradiction|]. now rewrite E.
Qed.
Lemma uint_text_starts : forall max s n t, uint_text max s n -> s ++ t <> $"-1".
Proof.
  intros max s n t (ds & [->| ->] & N & F & _) E; [|discriminate E]. destruct ds as [|c ds]; [congruence|]. inversion F as [|? ? D _]; subst. cbn [app] in E. injection E as -> _.
  apply RegexFacts.in_clsb_iff in D. discriminate D.
Qed.
Lemma reads_size_limit : reads (limit_c byte_value_c) (or_unlimited size) (limited byte_value_of).
Proof.
  apply (reads_limit byte_value_c size _ reads_size). intros v x [(-> & _)|(s & t & -> & T & _)]; [eauto|]. right. eexists. split; [reflexivity|]. now apply (uint_text_starts u64 s (fst x)).
Qed.
Lemma reads_number_limit : forall max, reads (limit_c (uint_c max)) (or_unlimited (only_number max)) (limited (fun n => n)).
Proof. intros max. apply (reads_limit _ _ _ (reads_only_number max)). intros v x [-> _]. eauto. Qed.

(** ** Times *)

Lemma time_read : forall v ns, time v ns -> exists d, de duration_c v = Ok d /\ duration_wf d /\ in_nanos d = ns.
Proof.
  intros v ns [(us & -> & L & ->)|(ts & -> & N & F & -> & L)]; cbn [de duration_c].
  - rewrite int_to_uint_of_N by exact L. eexists. split; [reflexivity|]. now apply from_micros_spec.
  - assert (D : exists d, duration_wf d /\ in_nanos d = terms_nanos ts).
    { exists (mk_duration (terms_nanos ts / 10 ^ 9) (terms_nanos ts mod 10 ^ 9)). unfold duration_wf, in_nanos. cbn [secs nanos]. rewrite (N.mul_comm (_ / _)), <- N.div_mod by discriminate.
      split; [|reflexivity]. split; [|now apply N.mod_lt]. apply N.lt_succ_r. apply N.div_lt_upper_bound; [discriminate|]. unfold max_nanos, U64_MAX in *. lia. }
    destruct D as (d & W & E). exists d. split; [|auto]. assert (P : parse (terms_text ts) = OOk d) by (apply parse_ok_iff; exists ts; auto). now rewrite P.
Qed.
Lemma blind_time : blind duration_c (alike time).
Proof.
  intros v v' _ (ns & H & H'). apply time_read in H as (d & E & W & D), H' as (d' & E' & W' & D'). rewrite E, E'. f_equal. apply in_nanos_inj; congruence.
Qed.

(** ** Ports *)

Lemma reads_range : reads range_c ports_range (fun r => r).
Proof.
  intros v r [(n & -> & L & ->)|(s & -> & T)]; cbn [de range_c]; unfold range_deserialize, from_str_or_u16.
  - now rewrite int_to_uint_of_N.
  - apply range_text_iff in T. now rewrite T.
Qed.
Lemma slash_free : forall s r, range_text s r -> ~ In (ch "/") s.
Proof. intros s r T. apply (range_text_not s r _ T); discriminate || reflexivity. Qed.
Lemma reads_expose : reads expose_c exposed (fun x => mk_expose (fst x) (snd x)).
Proof.
  intros v [r p] [(E & [(n & -> & L & E')|(s & -> & T)])|(s & t & q & -> & T & E & P)]; cbn [de expose_c fst snd] in *; unfold expose_deserialize, from_str_or_u16.
  - subst r p. now rewrite int_to_uint_of_N.
  - subst p. assert (X : expose_parse s = Ok (mk_expose r None)); [|now rewrite X]. unfold expose_parse. pose proof (slash_free s r T) as D. apply range_text_iff in T.
    destruct (split_once_case (ch "/") s) as [[_ ->]|(a & b & -> & _ & _)]; [now rewrite T|]. destruct D. apply in_or_app. right. now left.
  - subst p. assert (X : expose_parse (s ++ $"/" ++ t) = Ok (mk_expose r (Some q))); [|now rewrite X]. unfold expose_parse. pose proof (slash_free s r T) as D. apply range_text_iff in T.
    change (s ++ $"/" ++ t) with (s ++ ch "/" :: t). rewrite (split_once_app (ch "/") s t D), T. cbn [bind]. do 3 f_equal. unfold protocol_parse, protocol_is in *.
    destruct q as [| |o]; [subst t; reflexivity|subst t; reflexivity|]. destruct P as (-> & A & C). destruct (str_eqb_spec o $"tcp"); [contradiction|]. now destruct (str_eqb_spec o $"udp").
Qed.
Lemma checked_port : forall checks s p, short_port_text true s p -> short_port_text checks s p.
Proof.
  intros [|] s p H; [exact H|]. destruct H as (a & b & c & E & R & H). exists a, b, c. split; [exact E|]. split; [|exact H]. unfold ranges_text in *. destruct (sr_host (sp_ranges p)) as [h|]; [|exact R].
  destruct R as (x & y & E' & A & C & S). exists x, y. split; [exact E'|]. split; [exact A|]. split; [exact C|]. unfold sizes_agree in *. now destruct S as [-> _].
Qed.
Lemma reads_short_port : forall w, reads (short_port_c w) short_port_value (fun p => p).
Proof.
  intros w v p [(n & -> & L & ->)|(s & -> & T)]; cbn [de short_port_c]; unfold short_port_deserialize, from_str_or_u16.
  - now rewrite int_to_uint_of_N.
  - apply (checked_port (w_checks w)), short_port_language in T. now rewrite T.
Qed.

(** ** Addresses *)

Lemma reads_ip : forall w, reads (ip_c w) (text_of ip_text) (fun i => i).
Proof. intros w v i (s & -> & T). cbn [de ip_c text_c from_string]. unfold from_option. apply ip_language in T. now rewrite T. Qed.
Lemma blind_ipv4 : forall w, blind (ipv4_c w) (alike (text_of ip_text)).
Proof.
  intros w v v' _ (i & (s & -> & T) & (s' & -> & T')). cbn [de ipv4_c text_c from_string]. unfold from_option, ipv4_parse. apply ip_language in T, T'. now rewrite T, T'.
Qed.
Lemma blind_ipv6 : forall w, blind (ipv6_c w) (alike (text_of ip_text)).
Proof.
  intros w v v' _ (i & (s & -> & T) & (s' & -> & T')). cbn [de ipv6_c text_c from_string]. unfold from_option, ipv6_parse. apply ip_language in T, T'. now rewrite T, T'.
Qed.

(** ** Sets of CPUs *)

Lemma items_wf_ok : forall items acc, Forall item_wf items -> exists l, cpuset_items acc items = Ok l.
Proof.
  induction items as [|i items IH]; intros acc F; [eexists; reflexivity|]. inversion F as [|? ? W G]; subst. cbn [cpuset_items].
  assert (E : exists a, cpuset_item acc i = Ok a).
  { unfold cpuset_item. destruct W as [[n P]|(a & b & m & n & -> & P & Q)].
    - destruct (split_once_case (ch "-") i) as [[_ ->]|(a & b & -> & _ & _)]; [rewrite P; eexists; reflexivity|]. exfalso.
      refine (parse_u64_not_In _ _ (ch "-") P _ _ _); [reflexivity|discriminate|]. apply in_or_app. right. now left.
    - rewrite split_once_app by (apply (parse_u64_not_In _ _ _ P); [reflexivity|discriminate]). rewrite P, Q. eexists. reflexivity. }
  destruct E as [a ->]. cbn [bind]. now apply IH.
Qed.
Lemma cpu_item_read : forall s A, cpu_item s A -> item_wf s /\ (forall x, item_means s x <-> A x) /\ ~ In (ch ",") s /\ s <> [].
Proof.
  intros s A [t n T|a b m n T T']; apply parse_uint_text in T; try (apply parse_uint_text in T').
  - assert (C : forall c, is_digit c = false -> c <> 43 -> ~ In c t) by (intros c D E; now apply (parse_u64_not_In t n)). split; [left; eauto|]. split; [|split; [apply C; [reflexivity|discriminate]|intros ->; discriminate T]].
    intros x. unfold item_means. change (parse_u64 t) with (parse_uint u64 t). rewrite T. split; [|intros <-; now left].
    intros [E|(a & b & k & l & -> & _)]; [congruence|]. exfalso. apply (C (ch "-")); [reflexivity|discriminate|]. apply in_or_app. right. now left.
  - assert (C : forall c, is_digit c = false -> c <> 43 -> ~ In c a) by (intros c D E; now apply (parse_u64_not_In a m)).
    assert (C' : forall c, is_digit c = false -> c <> 43 -> ~ In c b) by (intros c D E; now apply (parse_u64_not_In b n)). change (a ++ $"-" ++ b) with (a ++ ch "-" :: b).
    split; [right; exists a, b, m, n; auto|]. split; [|split].
    + intros x. unfold item_means. split; [|intros H; right; exists a, b, m, n; auto]. intros [E|(a' & b' & m' & n' & E & P & Q & L)].
      * exfalso. refine (parse_u64_not_In _ _ (ch "-") E _ _ _); [reflexivity|discriminate|]. apply in_or_app. right. now left.
      * assert (S : split_once (ch "-") (a ++ ch "-" :: b) = Some (a', b')).
        { rewrite E. apply split_once_app, (parse_u64_not_In _ _ _ P); [reflexivity|discriminate]. }
        rewrite split_once_app in S by (apply C; [reflexivity|discriminate]). injection S as <- <-. unfold parse_u64 in *. change U64_MAX with u64 in *. congruence.
    + rewrite in_app_iff. intros [I|[I|I]]; [now apply (C (ch ","))|discriminate I|now apply (C' (ch ","))].
    + intros E. now apply app_eq_nil in E as [_ E].
Qed.
Lemma cpus_text_items : forall s A, cpus_text s A -> Forall item_wf (split_terminator (ch ",") s) /\ forall x, A x <-> exists i, In i (split_terminator (ch ",") s) /\ item_means i x.
Proof.
  intros s A H. induction H as [|s A I|s t A B I T IH].
  - split; [constructor|]. intros x. split; [intros []|intros (i & [] & _)].
  - apply cpu_item_read in I as (W & M & C & N). assert (E : split_terminator (ch ",") s = [s]) by (apply split_terminator_iff; split; [auto|]; right; split; [exact N|reflexivity]).
    rewrite E. split; [auto|]. intros x. rewrite <- M. split; [intros H; exists s; split; [now left|exact H]|]. now intros (i & [<-|[]] & H).
  - apply cpu_item_read in I as (W & M & C & N). destruct IH as [F K]. assert (E : split_terminator (ch ",") (s ++ $"," ++ t) = s :: split_terminator (ch ",") t).
    { apply split_terminator_iff. destruct (proj1 (split_terminator_iff (ch ",") t _) eq_refl) as [P J]. split; [now constructor|].
      change (s ++ $"," ++ t) with (s ++ ch "," :: t). destruct J as [J|[L J]].
      - left. rewrite J at 1. cbn [app join]. destruct (split_terminator (ch ",") t) eqn:Z; reflexivity.
      - right. destruct (split_terminator (ch ",") t) as [|y r] eqn:Z; [now destruct L|]. split; [exact L|]. rewrite J at 1. reflexivity. }
    rewrite E. split; [now constructor|]. intros x. rewrite K, <- M. split.
    + intros [H|(i & H & G)]; [exists s; split; [now left|exact H]|exists i; split; [now right|exact G]].
    + intros (i & [<-|H] & G); [now left|right; eauto].
Qed.
Lemma blind_cpus : forall w, blind (cpuset_c w) same_cpus.
Proof.
  intros w v v' _ (s & s' & A & A' & -> & -> & T & T' & E). cbn [de cpuset_c text_c from_string].
  assert (R : forall s A, cpus_text s A -> exists l, cpuset_parse s = Ok l /\ StronglySorted N.lt l /\ forall x, In x l <-> A x).
  { clear. intros s A T. apply cpus_text_items in T as [F K]. destruct (items_wf_ok _ [] F) as [l P]. exists l. split; [exact P|]. apply cpuset_parse_ok in P as (_ & S & I). split; [exact S|].
    intros x. now rewrite I, K. }
  apply R in T as (l & P & S & I), T' as (l' & P' & S' & I'). rewrite P, P'. cbn [map_err]. f_equal. apply (sorted_ext l' l); auto. intros x. now rewrite I, I', E.
Qed.

(** ** Hosts *)

Lemma reads_hosts : forall w, reads (extra_hosts_c w) hosts (fun x => x).
Proof.
  intros w v x (N & [(l & -> & F)|(l & -> & F)]); cbn [de extra_hosts_c list_or_map_c].
  - assert (P : exists es : list (str * char * bool * str * ip_addr), l = map (fun e => VStr (PropsValues.host_item (fst e))) es /\ x = map (fun e => let '(host, d, b, t, ip) := e in (host, ip)) es /\
      Forall (fun e => let '(host, d, b, t, ip) := e in matches HOSTNAME_RE host /\ (d = ch "=" \/ d = ch ":") /\ ip_parse t = Some ip) es).
    { clear N. induction F as [|y p l x H F IH]; [exists []; auto|]. destruct IH as (es & -> & -> & G). destruct H as [h d t ip M D (a & [->| ->] & T)]; apply ip_language in T.
      - destruct D as [->| ->]; [exists ((h, ch "=", false, a, ip) :: es)|exists ((h, ch ":", false, a, ip) :: es)]; (split; [reflexivity|]; split; [reflexivity|]; constructor; [|exact G]); auto.
      - destruct D as [->| ->]; [exists ((h, ch "=", true, a, ip) :: es)|exists ((h, ch ":", true, a, ip) :: es)]; (split; [reflexivity|]; split; [reflexivity|]; constructor; [|exact G]); auto. }
    destruct P as (es & -> & -> & G).
    assert (C : de (sset string_c) (VSeq (map (fun e => VStr (PropsValues.host_item (fst e))) es)) = Ok (map (fun e => PropsValues.host_item (fst e)) es)).
    { cbn [de sset iset_c]. assert (Z : collect (de string_c) (map (fun e => VStr (PropsValues.host_item (fst e))) es) = Ok (map (fun e => PropsValues.host_item (fst e)) es)).
      { clear. induction es as [|e es IH]; [reflexivity|]. cbn [map collect]. now rewrite IH. }
      rewrite Z. cbn [map_ok]. f_equal. apply (iset_of_nodup str_eqb str_eqb_eq).
      set (host_of := fun s : str => match split_once_p (fun c => existsb (N.eqb c) [ch "="; ch ":"]) s with Some (h, _) => h | None => [] end).
      apply (NoDup_map_inv host_of). rewrite map_map.
      rewrite (map_ext_in _ (fun e : str * char * bool * str * ip_addr => fst (let '(host, d, b, t, ip) := e in (host, ip)))); [now rewrite <- map_map|].
      intros [[[[h d] b] t] ip] I. rewrite Forall_forall in G. destruct (G _ I) as (M & D & _). cbn [fst PropsValues.host_item]. unfold host_of.
      assert (S : split_once_p (fun c => existsb (N.eqb c) [ch "="; ch ":"]) (h ++ d :: (if b then ch "[" :: t ++ [ch "]"] else t)) = Some (h, if b then ch "[" :: t ++ [ch "]"] else t)); [|now rewrite S].
      apply split_once_p_some. exists d. split; [reflexivity|]. split; [destruct D as [->| ->]; reflexivity|]. apply forallb_forall. intros c K. apply negb_true_iff. cbn [existsb].
      destruct (N.eqb_spec c (ch "=")) as [->|]; [exfalso; revert K; apply hostname_chars; [exact M|reflexivity]|]. destruct (N.eqb_spec c (ch ":")) as [->|]; [exfalso; revert K; apply hostname_chars; [exact M|reflexivity]|]. reflexivity. }
    rewrite C. cbn [map_ok bind]. rewrite (PropsValues.extra_hosts_exact (w_float w) es G). f_equal. now apply (imap_of_nodup str_eqb str_eqb_eq).
  - assert (P : exists m, collect (entry_de map_key_c (option_c value_c)) l = Ok m /\ map fst m = map fst x /\ collect extra_host m = Ok x).
    { clear N. induction F as [|y p l x H F IH]; [exists []; auto|]. destruct IH as (m & C & K & E). destruct H as [h t ip M (a & D & T)].
      exists ((h, Some (VString t)) :: m). cbn [collect map fst]. unfold entry_de at 1. cbn [fst snd de map_key_c text_c from_string option_c value_c]. destruct (hostname_map_key h M) as [M1 M2].
      rewrite (map_key_valid h M1 M2). cbn [map_err bind]. rewrite C. cbn [bind]. split; [reflexivity|]. split; [now rewrite K|]. rewrite E.
      assert (X : extra_host (h, Some (VString t)) = Ok (h, ip)); [|rewrite X; reflexivity]. unfold extra_host. cbn [fst snd]. assert (Z : hostname_new h = Ok h) by now apply hostname_new_ok. rewrite Z.
      assert (Y : ip_parse (strip_brackets t) = Some ip) by (apply brackets_iff; eauto). now rewrite Y. }
    destruct P as (m & C & K & E). cbn [de vmap_c smap imap_c]. rewrite C. cbn [map_ok bind]. rewrite (imap_of_nodup str_eqb str_eqb_eq) by now rewrite K. unfold extra_hosts. cbn [into_map_split_on map_err bind].
    rewrite E. cbn [bind]. f_equal. now apply (imap_of_nodup str_eqb str_eqb_eq).
Qed.
