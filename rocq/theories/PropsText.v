(** C37, C43, C46 and C51: the small service types written as one string or one bounded integer. *)

From Coq Require Import String Ascii List NArith ZArith Bool Lia ZifyBool ZifyN ZifyNat.
Import ListNotations.
From Verif Require Import Base BaseFacts Num NumFacts Regex RegexFacts KeysModel KeysSpec KeysProofs Serde BytesProofs PortsModel TextModel.
Open Scope N_scope.

Lemma ident_iff : forall s t, identifier_new s = Ok t <-> t = s /\ matches IDENTIFIER_RE s.
Proof. exact identifier_new_ok. Qed.

Lemma ident_valid : forall s, matches IDENTIFIER_RE s -> identifier_new s = Ok s.
Proof. intros s H. apply ident_iff. auto. Qed.

Lemma ident_no_colon : forall s, matches IDENTIFIER_RE s -> ~ In (ch ":") s.
Proof. intros s H. apply ident_valid in H. eapply identifier_not_In; [exact H|reflexivity]. Qed.

Lemma map_ok_iff : forall {E A B} (f : A -> B) (r : result E A) b, map_ok f r = Ok b <-> exists a, r = Ok a /\ b = f a.
Proof.
  intros E A B f [a|e] b; cbn [map_ok]; split; try discriminate.
  - intros H. injection H as <-. eauto.
  - intros [a' [H ->]]. injection H as ->. reflexivity.
  - intros [a [H _]]. discriminate.
Qed.

(** * C37 *)

(** The strings read as a link are exactly [service] and [service:alias], with a valid service name, and
    each is read as what it says. The alias is everything after the first colon. *)
Theorem link_language : forall s l, link_parse s = Ok l <->
  matches IDENTIFIER_RE (l_service l) /\
  match l_alias l with None => s = l_service l | Some a => s = l_service l ++ $":" ++ a end.
Proof.
  intros s [v al]. cbn [l_service l_alias]. unfold link_parse. destruct (split_once_case (ch ":") s) as [[N ->]|[a [b [-> [Na ->]]]]].
  - rewrite map_ok_iff. split.
    + intros [i [H E]]. injection E as -> ->. apply ident_iff in H as [-> H]. auto.
    + intros [H E]. destruct al as [al|]; subst s.
      * exfalso. apply N. apply in_or_app. right. left. reflexivity.
      * exists v. split; [apply ident_valid; exact H|reflexivity].
  - rewrite map_ok_iff. split.
    + intros [i [H E]]. injection E as -> ->. apply ident_iff in H as [-> H]. auto.
    + intros [H E]. pose proof (ident_no_colon v H) as Nv. destruct al as [al|].
      * assert (X : split_once (ch ":") (a ++ ch ":" :: b) = Some (v, al)) by (apply split_once_some; auto).
        rewrite split_once_app in X by exact Na. injection X as -> ->. exists v. split; [apply ident_valid; exact H|reflexivity].
      * exfalso. apply Nv. rewrite <- E. apply in_or_app. right. left. reflexivity.
Qed.
Print Assumptions link_language.

(** C37, links: what is printed is read back. *)
Theorem link_round_trip : forall l, matches IDENTIFIER_RE (l_service l) -> link_parse (link_show l) = Ok l.
Proof.
  intros l H. apply link_language. split; [exact H|]. unfold link_show. destruct (l_alias l); [reflexivity|apply app_nil_r].
Qed.
Print Assumptions link_round_trip.

Example link_example : link_parse ($"db:my:alias") = Ok (mk_link ($"db") (Some ($"my:alias"))).
Proof. reflexivity. Qed.

(** An IPC mode that [parse] can give: [Other] holds neither of the two reserved forms. *)
Definition ipc_canonical (i : ipc) : Prop :=
  match i with
  | IpcShareable => True
  | IpcService s => matches IDENTIFIER_RE s
  | IpcOther s => s <> $"shareable" /\ forall r, s <> $"service:" ++ r
  end.

Theorem ipc_language : forall s i, ipc_parse s = Ok i <->
  ipc_canonical i /\
  s = match i with IpcShareable => $"shareable" | IpcService n => $"service:" ++ n | IpcOther o => o end.
Proof.
  intros s i. unfold ipc_parse. destruct (str_eqb_spec s ($"shareable")) as [->|Ns].
  - split.
    + intros H. injection H as <-. split; [exact I|reflexivity].
    + intros [C E]. destruct i as [|n|o]; [reflexivity| |].
      * discriminate E.
      * destruct C as [C _]. subst o. congruence.
  - destruct (strip_prefix ($"service:") s) as [r|] eqn:Ep.
    + apply strip_prefix_some in Ep. subst s. rewrite map_ok_iff. split.
      * intros [a [H ->]]. apply ident_iff in H as [-> H]. split; [exact H|reflexivity].
      * intros [C E]. destruct i as [|n|o].
        -- discriminate E.
        -- apply app_inv_head in E. subst r. exists n. split; [apply ident_valid; exact C|reflexivity].
        -- destruct C as [_ C]. exfalso. eapply C. symmetry. exact E.
    + pose proof (proj1 (strip_prefix_none _ _) Ep) as Np. split.
      * intros H. injection H as <-. split; [split; [exact Ns|exact Np]|reflexivity].
      * intros [C E]. destruct i as [|n|o]; [congruence| |congruence]. exfalso. eapply Np. exact E.
Qed.
Print Assumptions ipc_language.

(** C37, IPC modes: printing is reversible for exactly the canonical values. *)
Theorem ipc_round_trip : forall i, ipc_parse (ipc_show i) = Ok i <-> ipc_canonical i.
Proof.
  intros i. rewrite ipc_language. destruct i; cbn [ipc_show]; tauto.
Qed.
Print Assumptions ipc_round_trip.

Theorem ipc_reprint : forall s i, ipc_parse s = Ok i -> ipc_show i = s.
Proof. intros s i H. apply ipc_language in H as [_ ->]. destruct i; reflexivity. Qed.
Print Assumptions ipc_reprint.

Example ipc_example : ipc_parse ($"service:db") = Ok (IpcService ($"db")) /\ ipc_parse ($"service:") = Err KeyEmpty /\ ipc_parse ($"host") = Ok (IpcOther ($"host")).
Proof. repeat split. Qed.

(** The documented form [[container:]identifier]. *)
Definition source_ok (v : volumes_from_source) : Prop :=
  match v with FromService s => matches IDENTIFIER_RE s | FromContainer s => matches IDENTIFIER_RE s end.
Definition source_text (v : volumes_from_source) : str :=
  match v with FromService s => s | FromContainer s => $"container:" ++ s end.

Lemma source_language : forall s v, volumes_from_source_parse s = Ok v <-> source_ok v /\ s = source_text v.
Proof.
  intros s v. unfold volumes_from_source_parse. destruct (strip_prefix ($"container:") s) as [r|] eqn:Ep.
  - apply strip_prefix_some in Ep. subst s. rewrite map_ok_iff. split.
    + intros [a [H ->]]. apply ident_iff in H as [-> H]. split; [exact H|reflexivity].
    + intros [C E]. destruct v as [n|n]; cbn [source_text source_ok] in *.
      * exfalso. apply (ident_no_colon n C). rewrite <- E. apply in_or_app. left. apply (in_or_app ($"container") [ch ":"]). right. left. reflexivity.
      * apply app_inv_head in E. subst r. exists n. split; [apply ident_valid; exact C|reflexivity].
  - pose proof (proj1 (strip_prefix_none _ _) Ep) as Np. rewrite map_ok_iff. split.
    + intros [a [H ->]]. apply ident_iff in H as [-> H]. split; [exact H|reflexivity].
    + intros [C E]. destruct v as [n|n]; cbn [source_text source_ok] in *.
      * subst s. exists n. split; [apply ident_valid; exact C|reflexivity].
      * exfalso. eapply Np. exact E.
Qed.

(** The source text ends in [:ro] or [:rw] only if it is the container of that name. *)
Lemma source_suffix : forall v m r, source_ok v -> m <> [] -> ~ In (ch ":") m -> source_text v = r ++ $":" ++ m ->
  v = FromContainer m /\ r = $"container".
Proof.
  intros v m r C Hm Nm E. destruct v as [n|n]; cbn [source_text source_ok] in *.
  - exfalso. apply (ident_no_colon n C). rewrite E. apply in_or_app. right. left. reflexivity.
  - assert (X : rsplit_once (ch ":") ($"container" ++ ch ":" :: n) = Some (r, m)).
    { apply rsplit_once_some. split; [exact E|exact Nm]. }
    rewrite rsplit_once_app in X by (apply ident_no_colon; exact C). injection X as <- <-. auto.
Qed.

Definition suffix_free (v : volumes_from_source) : Prop := v <> FromContainer ($"ro") /\ v <> FromContainer ($"rw").

Theorem volumes_from_language : forall s v, volumes_from_parse s = Ok v <->
  source_ok (vf_source v) /\
  if vf_read_only v then s = source_text (vf_source v) ++ $":ro"
  else s = source_text (vf_source v) ++ $":rw" \/ (s = source_text (vf_source v) /\ suffix_free (vf_source v)).
Proof.
  intros s [v ro]. cbn [vf_source vf_read_only]. unfold volumes_from_parse.
  assert (Nro : ~ In (ch ":") ($"ro")) by (intros [X|[X|[]]]; discriminate X).
  assert (Nrw : ~ In (ch ":") ($"rw")) by (intros [X|[X|[]]]; discriminate X).
  destruct (strip_suffix ($":ro") s) as [r|] eqn:E1.
  - apply strip_suffix_some in E1. subst s. rewrite map_ok_iff. split.
    + intros [a [H E]]. injection E as -> ->. apply source_language in H as [H ->]. auto.
    + intros [C E]. destruct ro.
      * apply app_inv_tail in E. subst r. exists v. split; [apply source_language; auto|reflexivity].
      * exfalso. destruct E as [E|[E [S _]]].
        -- assert (X : rev (r ++ $":ro") = rev (source_text v ++ $":rw")) by (rewrite E; reflexivity).
           rewrite !rev_app_distr in X. discriminate X.
        -- symmetry in E. apply (source_suffix v ($"ro") r C) in E; [|discriminate|exact Nro]. apply S. apply E.
  - pose proof (fun r => proj1 (strip_suffix_none _ _) E1 r) as N1.
    destruct (strip_suffix ($":rw") s) as [r|] eqn:E2.
    + apply strip_suffix_some in E2. subst s. rewrite map_ok_iff. split.
      * intros [a [H E]]. injection E as -> ->. apply source_language in H as [H ->]. auto.
      * intros [C E]. destruct ro; [exfalso; eapply N1; exact E|]. destruct E as [E|[E [_ S]]].
        -- apply app_inv_tail in E. subst r. exists v. split; [apply source_language; auto|reflexivity].
        -- exfalso. symmetry in E. apply (source_suffix v ($"rw") r C) in E; [|discriminate|exact Nrw]. apply S. apply E.
    + pose proof (fun r => proj1 (strip_suffix_none _ _) E2 r) as N2. rewrite map_ok_iff. split.
      * intros [a [H E]]. injection E as -> ->. apply source_language in H as [H ->]. split; [exact H|]. right. split; [reflexivity|].
        split; intros ->; [apply (N1 ($"container")); reflexivity|apply (N2 ($"container")); reflexivity].
      * intros [C E]. destruct ro; [exfalso; eapply N1; exact E|]. destruct E as [E|[E _]]; [exfalso; eapply N2; exact E|].
        subst s. exists v. split; [apply source_language; auto|reflexivity].
Qed.
Print Assumptions volumes_from_language.

(** C37, volumes_from: printing is reversible for exactly the values other than a writable container
    called "ro" or "rw". *)
Theorem volumes_from_round_trip : forall v, source_ok (vf_source v) ->
  (volumes_from_parse (volumes_from_show v) = Ok v <-> (vf_read_only v = false -> suffix_free (vf_source v))).
Proof.
  intros [v ro] C. cbn [vf_source vf_read_only] in *. rewrite volumes_from_language. cbn [vf_source vf_read_only].
  unfold volumes_from_show. cbn [vf_source vf_read_only]. replace (volumes_from_source_show v) with (source_text v) by (destruct v; reflexivity).
  destruct ro; split.
  - discriminate.
  - auto.
  - intros [_ [H|[_ H]]] _; [|exact H]. exfalso. rewrite app_nil_r in H. rewrite <- app_nil_r in H at 1.
    apply app_inv_head in H. discriminate H.
  - intros H. split; [exact C|]. right. rewrite app_nil_r. auto.
Qed.
Print Assumptions volumes_from_round_trip.

Theorem volumes_from_round_trip_refuted : exists v, source_ok (vf_source v) /\
  volumes_from_parse (volumes_from_show v) = Ok (mk_volumes_from (FromService ($"container")) true) /\
  v = mk_volumes_from (FromContainer ($"ro")) false.
Proof.
  exists (mk_volumes_from (FromContainer ($"ro")) false). split; [|split; reflexivity].
  cbn [vf_source source_ok]. apply (ident_iff _ ($"ro")). reflexivity.
Qed.
Print Assumptions volumes_from_round_trip_refuted.

(** Even a value that was just read need not survive being written: saving a file which mounts the volumes of a
    container named [ro] (or [rw]) read-write, and loading it again, gives the volumes of a service named
    [container]. *)
Theorem volumes_from_reload_refuted : exists s v v',
  volumes_from_parse s = Ok v /\ volumes_from_parse (volumes_from_show v) = Ok v' /\
  vf_source v <> vf_source v' /\ vf_read_only v <> vf_read_only v'.
Proof.
  exists ($"container:ro:rw"), (mk_volumes_from (FromContainer ($"ro")) false), (mk_volumes_from (FromService ($"container")) true).
  repeat apply conj; [reflexivity|reflexivity|discriminate|discriminate].
Qed.
Print Assumptions volumes_from_reload_refuted.

Example volumes_from_example :
  volumes_from_parse ($"container:db:rw") = Ok (mk_volumes_from (FromContainer ($"db")) false) /\
  volumes_from_parse ($"db:ro") = Ok (mk_volumes_from (FromService ($"db")) true).
Proof. split; reflexivity. Qed.

(** * C43 *)

(** An open enumeration: fixed names, everything else kept as text. Every text is printed back exactly,
    the fixed names are never kept as text, and printing is reversible for exactly the values [parse] gives. *)
Definition open_enum {A : Type} (parse : str -> A) (show : A -> str) (fixed : list (str * A)) (other : str -> A) : Prop :=
  (forall s, show (parse s) = s) /\
  (forall s a, In (s, a) fixed -> parse s = a) /\
  (forall s, ~ In s (map fst fixed) -> parse s = other s) /\
  (forall a, parse (show a) = a <-> forall s, In s (map fst fixed) -> a <> other s) /\
  (forall a, In a (map snd fixed) \/ exists s, a = other s).

Ltac open_enum_tac :=
  unfold open_enum; cbn [map fst snd];
  split; [intros s; unfold driver_parse, endpoint_mode_parse, capability_parse, protocol_parse; repeat match goal with |- context [str_eqb s ?t] => destruct (str_eqb_spec s t) as [->|?]; [reflexivity|] end; reflexivity|];
  split; [intros s a [E|[E|[]]]; injection E as <- <-; reflexivity|];
  split; [intros s H; cbn [In] in H; unfold driver_parse, endpoint_mode_parse, capability_parse, protocol_parse;
          repeat match goal with |- context [str_eqb s ?t] => destruct (str_eqb_spec s t) as [->|?]; [exfalso; tauto|] end; reflexivity|];
  split; [|intros [| |s]; cbn [In]; eauto].

Theorem driver_open_enum : open_enum driver_parse driver_show [($"host", DrvHost); ($"none", DrvNone)] DrvOther.
Proof.
  open_enum_tac. intros a. split.
  - intros H s [<-|[<-|[]]] ->; discriminate H.
  - destruct a as [| |o]; [reflexivity|reflexivity|]. intros H. cbn [driver_show]. unfold driver_parse.
    destruct (str_eqb_spec o ($"host")) as [->|?]; [exfalso; eapply H; [left; reflexivity|reflexivity]|].
    destruct (str_eqb_spec o ($"none")) as [->|?]; [exfalso; eapply H; [right; left; reflexivity|reflexivity]|]. reflexivity.
Qed.
Print Assumptions driver_open_enum.

Theorem endpoint_mode_open_enum :
  open_enum endpoint_mode_parse endpoint_mode_show [($"vip", VIp); ($"dnsrr", DnsRR)] EmOther.
Proof.
  open_enum_tac. intros a. split.
  - intros H s [<-|[<-|[]]] ->; discriminate H.
  - destruct a as [| |o]; [reflexivity|reflexivity|]. intros H. cbn [endpoint_mode_show]. unfold endpoint_mode_parse.
    destruct (str_eqb_spec o ($"vip")) as [->|?]; [exfalso; eapply H; [left; reflexivity|reflexivity]|].
    destruct (str_eqb_spec o ($"dnsrr")) as [->|?]; [exfalso; eapply H; [right; left; reflexivity|reflexivity]|]. reflexivity.
Qed.
Print Assumptions endpoint_mode_open_enum.

Theorem capability_open_enum :
  open_enum capability_parse capability_show [($"gpu", Gpu); ($"tpu", Tpu)] CapOther.
Proof.
  open_enum_tac. intros a. split.
  - intros H s [<-|[<-|[]]] ->; discriminate H.
  - destruct a as [| |o]; [reflexivity|reflexivity|]. intros H. cbn [capability_show]. unfold capability_parse.
    destruct (str_eqb_spec o ($"gpu")) as [->|?]; [exfalso; eapply H; [left; reflexivity|reflexivity]|].
    destruct (str_eqb_spec o ($"tpu")) as [->|?]; [exfalso; eapply H; [right; left; reflexivity|reflexivity]|]. reflexivity.
Qed.
Print Assumptions capability_open_enum.

Theorem protocol_open_enum :
  open_enum protocol_parse protocol_show [($"tcp", Tcp); ($"udp", Udp)] POther.
Proof.
  open_enum_tac. intros a. split.
  - intros H s [<-|[<-|[]]] ->; discriminate H.
  - destruct a as [| |o]; [reflexivity|reflexivity|]. intros H. cbn [protocol_show]. unfold protocol_parse.
    destruct (str_eqb_spec o ($"tcp")) as [->|?]; [exfalso; eapply H; [left; reflexivity|reflexivity]|].
    destruct (str_eqb_spec o ($"udp")) as [->|?]; [exfalso; eapply H; [right; left; reflexivity|reflexivity]|]. reflexivity.
Qed.
Print Assumptions protocol_open_enum.

Example driver_example : driver_parse ($"bridge") = DrvOther ($"bridge") /\ driver_parse ($"none") = DrvNone.
Proof. split; reflexivity. Qed.

(** The build network is the word [none] or a network name other than that word. *)
Theorem build_network_language : forall s n, build_network_parse s = Ok n <->
  match n with
  | BnNone => s = $"none"
  | BnIdentifier i => s = i /\ matches IDENTIFIER_RE i /\ i <> $"none"
  end.
Proof.
  intros s n. unfold build_network_parse. destruct (str_eqb_spec s ($"none")) as [->|Ns].
  - destruct n as [i|].
    + split; [discriminate|]. intros [<- [_ H]]. congruence.
    + split; reflexivity.
  - rewrite map_ok_iff. destruct n as [i|].
    + split.
      * intros [a [H E]]. injection E as ->. apply ident_iff in H as [-> H]. auto.
      * intros [-> [H _]]. exists i. split; [apply ident_valid; exact H|reflexivity].
    + split; [intros [a [_ H]]; discriminate|congruence].
Qed.
Print Assumptions build_network_language.

Theorem build_network_reprint : forall s n, build_network_parse s = Ok n -> build_network_show n = s.
Proof. intros s [i|] H; apply build_network_language in H; [destruct H as [-> _]|subst s]; reflexivity. Qed.
Print Assumptions build_network_reprint.

Theorem build_network_round_trip : forall n, (match n with BnIdentifier i => matches IDENTIFIER_RE i | BnNone => True end) ->
  (build_network_parse (build_network_show n) = Ok n <-> n <> BnIdentifier ($"none")).
Proof.
  intros [i|] H; rewrite build_network_language; cbn [build_network_show].
  - split; [intros [_ [_ X]] E; injection E as E; contradiction|]. intros X. repeat split; [exact H|]. congruence.
  - split; [discriminate|reflexivity].
Qed.
Print Assumptions build_network_round_trip.

(** * C46 *)

Theorem percent_range : forall n m, percent_new n = Ok m <-> m = n /\ n <= 100.
Proof.
  intros n m. unfold percent_new. destruct (N.leb_spec n 100).
  - split; [intros E; injection E as <-; auto|intros [-> _]; reflexivity].
  - split; [discriminate|intros [_ ?]; lia].
Qed.
Print Assumptions percent_range.

Theorem oom_score_adj_range : forall z y, oom_score_adj_new z = Ok y <-> y = z /\ (-1000 <= z <= 1000)%Z.
Proof.
  intros z y. unfold oom_score_adj_new. destruct ((-1000 <=? z)%Z && (z <=? 1000)%Z) eqn:E.
  - split; [intros X; injection X as <-; split; [reflexivity|lia]|intros [-> _]; reflexivity].
  - split; [discriminate|intros [_ ?]; lia].
Qed.
Print Assumptions oom_score_adj_range.

Theorem weight_range : forall n m, weight_new n = Ok m <-> m = n /\ 10 <= n <= 1000.
Proof.
  intros n m. unfold weight_new. destruct (N.eqb_spec n 0) as [->|?].
  - split; [discriminate|intros [_ ?]; lia].
  - destruct ((10 <=? n) && (n <=? 1000)) eqn:E.
    + split; [intros X; injection X as <-; split; [reflexivity|lia]|intros [-> _]; reflexivity].
    + split; [discriminate|intros [_ ?]; lia].
Qed.
Print Assumptions weight_range.

(** The documented bounds are in the error. *)
Theorem range_errors : forall n z e,
  (percent_new n = Err e -> e = mk_range_error (Z.of_N n) 0 100) /\
  (oom_score_adj_new z = Err e -> e = mk_range_error z (-1000) 1000).
Proof.
  intros n z e. unfold percent_new, oom_score_adj_new. split; intros H;
    match type of H with (if ?b then _ else _) = _ => destruct b end; congruence.
Qed.
Print Assumptions range_errors.

Lemma int_to_uint_ok : forall max z n, int_to_uint max z = Ok n <-> z = Z.of_N n /\ n <= max.
Proof.
  intros max z n. unfold int_to_uint. destruct ((0 <=? z)%Z && (z <=? Z.of_N max)%Z) eqn:E.
  - split; [intros H; injection H as <-; lia|intros [-> H]; f_equal; lia].
  - split; [discriminate|intros [-> H]; lia].
Qed.

(** Reading: exactly the integers in the range are accepted, and give the same integer; and what is written
    is read back. *)
Theorem percent_deserialize_iff : forall v n, percent_deserialize v = Ok n <-> v = VInt (Z.of_N n) /\ n <= 100.
Proof.
  intros v n. unfold percent_deserialize. destruct v; try (split; [discriminate|intros [H _]; discriminate H]).
  destruct (int_to_uint U8_MAX z) as [m|e] eqn:E; cbn [bind].
  - apply int_to_uint_ok in E as [-> Hm]. destruct (percent_new m) as [k|e] eqn:Ep; cbn [map_err].
    + apply percent_range in Ep as [-> Hk]. split; [intros X; injection X as <-; auto|intros [X _]; injection X as X; f_equal; lia].
    + split; [discriminate|]. intros [X H]. injection X as X. assert (m = n) by lia. subst m.
      rewrite (proj2 (percent_range n n)) in Ep by auto. discriminate.
  - split; [discriminate|]. intros [X H]. injection X as ->.
    rewrite (proj2 (int_to_uint_ok U8_MAX (Z.of_N n) n)) in E by (split; [reflexivity|unfold U8_MAX; lia]). discriminate.
Qed.
Print Assumptions percent_deserialize_iff.

Theorem oom_score_adj_deserialize_iff : forall v z, oom_score_adj_deserialize v = Ok z <-> v = VInt z /\ (-1000 <= z <= 1000)%Z.
Proof.
  intros v n. unfold oom_score_adj_deserialize. destruct v; try (split; [discriminate|intros [H _]; discriminate H]).
  unfold int_in, oom_score_adj_new. destruct ((-32768 <=? z)%Z && (z <=? 32767)%Z) eqn:E; cbn [bind].
  - destruct ((-1000 <=? z)%Z && (z <=? 1000)%Z) eqn:E2; cbn [map_err].
    + split; [intros X; injection X as <-; split; [reflexivity|lia]|intros [X _]; injection X as ->; reflexivity].
    + split; [discriminate|]. intros [X ?]. injection X as ->. lia.
  - split; [discriminate|]. intros [X ?]. injection X as ->. lia.
Qed.
Print Assumptions oom_score_adj_deserialize_iff.

Theorem weight_deserialize_iff : forall v n, weight_deserialize v = Ok n <-> v = VInt (Z.of_N n) /\ 10 <= n <= 1000.
Proof.
  intros v n. unfold weight_deserialize. destruct v; try (split; [discriminate|intros [H _]; discriminate H]).
  destruct (int_to_uint U16_MAX z) as [m|e] eqn:E; cbn [bind].
  - apply int_to_uint_ok in E as [-> Hm]. destruct (weight_new m) as [k|e] eqn:Ep; cbn [map_err].
    + apply weight_range in Ep as [-> Hk]. split; [intros X; injection X as <-; auto|intros [X _]; injection X as X; f_equal; lia].
    + split; [discriminate|]. intros [X H]. injection X as X. assert (m = n) by lia. subst m.
      rewrite (proj2 (weight_range n n)) in Ep by auto. discriminate.
  - split; [discriminate|]. intros [X H]. injection X as ->.
    rewrite (proj2 (int_to_uint_ok U16_MAX (Z.of_N n) n)) in E by (split; [reflexivity|unfold U16_MAX; lia]). discriminate.
Qed.
Print Assumptions weight_deserialize_iff.

Example weight_example : weight_deserialize (VInt 1000) = Ok 1000 /\ weight_deserialize (VInt 9) = Err DeError /\ oom_score_adj_deserialize (VInt (-1000)) = Ok (-1000)%Z /\ percent_deserialize (VInt 101) = Err DeError.
Proof. repeat split; vm_compute; reflexivity. Qed.

(** * Device counts *)

Definition count_ok (c : count) : Prop := match c with CountAll => True | CountInteger n => n <= U64_MAX end.

Theorem count_round_trip : forall c, count_ok c -> count_deserialize (count_serialize c) = Ok c.
Proof.
  intros [|n] H; cbn [count_serialize count_deserialize]; [reflexivity|].
  rewrite (proj2 (int_to_uint_ok U64_MAX (Z.of_N n) n)) by auto. reflexivity.
Qed.
Print Assumptions count_round_trip.

(** A count is read from the word [all], from an integer that fits, or from the text of one. *)
Theorem count_deserialize_iff : forall v c, count_deserialize v = Ok c <->
  match c with
  | CountAll => v = VStr ($"all")
  | CountInteger n => n <= U64_MAX /\ (v = VInt (Z.of_N n) \/ exists s, v = VStr s /\ parse_u64 s = Ok n)
  end.
Proof.
  intros v c. destruct v; cbn [count_deserialize];
    try (split; [discriminate|]; destruct c; [discriminate|intros [_ [H|[s [H _]]]]; discriminate H]).
  - rewrite map_ok_iff. split.
    + intros [n [H ->]]. apply int_to_uint_ok in H as [-> H]. auto.
    + destruct c as [|n]; [discriminate|]. intros [H [E|[s [E _]]]]; [|discriminate]. injection E as ->.
      exists n. split; [apply int_to_uint_ok; auto|reflexivity].
  - unfold count_parse. destruct (str_eqb_spec s ($"all")) as [->|Ns]; cbn [map_err].
    + destruct c as [|n]; [split; reflexivity|]. split; [discriminate|]. intros [_ [E|[s [E H]]]]; [discriminate|].
      injection E as <-. vm_compute in H. discriminate H.
    + destruct (parse_u64 s) as [m|e] eqn:E; cbn [map_ok map_err].
      * destruct c as [|n].
        -- split; [discriminate|]. intros X. injection X as ->. congruence.
        -- split.
           ++ intros X. injection X as ->. split; [|right; eauto]. unfold parse_u64 in E. apply parse_uint_bound in E. exact E.
           ++ intros [_ [X|[t [X H]]]]; [discriminate|]. injection X as <-. congruence.
      * destruct c as [|n]; split; try discriminate.
        -- intros X. injection X as ->. congruence.
        -- intros [_ [X|[t [X H]]]]; [discriminate|]. injection X as <-. congruence.
Qed.
Print Assumptions count_deserialize_iff.

Example count_example : count_deserialize (VStr ($"+12")) = Ok (CountInteger 12) /\ count_deserialize (VInt (-1)) = Err DeError.
Proof. split; reflexivity. Qed.
