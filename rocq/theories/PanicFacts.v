(** Facts on panics while reading. *)

From Coq Require Import String Ascii List NArith ZArith Bool Lia ZifyBool ZifyN ZifyNat.
Import ListNotations.
From Verif Require Import Base BaseFacts Num Coll IpModel DurationModel DurationSpec DurationProofs PortsModel PortsProofs PortsSpec PropsPortText VolumesModel HealthModel HealthProofs
  Serde Codec CodecFacts EnumModel ScalarCodec CommonCodec ServiceParts MountCodec ServiceCodec ComposeCodec SchemaFacts Schema ErrorSpec ErrorFacts PropsErrors PropsErrors2 PanicSpec.
Open Scope N_scope.

(** ** Reading *)

Lemma read_ok_iff : forall {A} (r : result de_error A), read_ok r = true <-> exists a, r = Ok a.
Proof. intros A [a|e]; cbn; split; [eauto|reflexivity|discriminate|intros [a H]; discriminate]. Qed.
Lemma read_not_ok : forall {A} (r : result de_error A), read_ok r = false <-> exists e, r = Err e.
Proof. intros A [a|e]; cbn; split; [discriminate|intros [x H]; discriminate|eauto|reflexivity]. Qed.
Lemma read_ok_map : forall {A B} (f : A -> B) (r : result de_error A), read_ok (map_ok f r) = read_ok r.
Proof. intros A B f [a|e]; reflexivity. Qed.
Lemma read_ok_bind : forall {A B} (r : result de_error A) (f : A -> result de_error B), read_ok r = false -> read_ok (bind r f) = false.
Proof. intros A B [a|e] f H; [discriminate|reflexivity]. Qed.
Lemma read_ok_collect : forall {A B} (f : A -> result de_error B) l x, In x l -> read_ok (f x) = false -> read_ok (collect f l) = false.
Proof.
  intros A B f l x I H. destruct (collect f l) as [ys|e] eqn:E; [|reflexivity]. exfalso. apply collect_ok in E.
  induction E as [|a b l ys E _ IH]; [destruct I|]. destruct I as [->|I]; [rewrite E in H; discriminate|auto].
Qed.
Lemma first_panic_in : forall {X : Type} (ok bad : X -> bool) l, first_panic ok bad l = true -> exists x, In x l /\ bad x = true.
Proof.
  intros X ok bad. induction l as [|x l IH]; cbn [first_panic]; [discriminate|]. rewrite orb_true_iff, andb_true_iff. intros [H|[_ H]].
  - exists x. split; [apply in_eq|exact H].
  - destruct (IH H) as (y & I & B). exists y. split; [now right|exact B].
Qed.
Lemma first_panic_at : forall {X : Type} (ok bad : X -> bool) l x r, Forall (fun y => ok y = true) l -> bad x = true -> first_panic ok bad (l ++ x :: r) = true.
Proof. intros X ok bad l x r H B. induction H as [|y l E _ IH]; cbn [app first_panic]; [now rewrite B|]. rewrite E, IH. apply orb_true_r. Qed.
Lemma collect_prefix : forall {A B} (f : A -> result de_error B) l x r ys, collect f (l ++ x :: r) = Ok ys ->
  Forall (fun y => read_ok (f y) = true) l /\ exists b, f x = Ok b.
Proof.
  intros A B f l x r ys H. apply collect_ok in H. revert ys H. induction l as [|y l IH]; intros ys H; inversion H as [|a b l' ys' E T]; subst.
  - split; [constructor|eauto].
  - destruct (IH _ T) as [F X]. split; [|exact X]. constructor; [|exact F]. now rewrite E.
Qed.

(** ** Texts *)

Lemma panicked_iff : forall {E A} (o : outcome E A), panicked o = true <-> o = OPanic.
Proof. intros E A []; cbn; split; congruence. Qed.
Lemma duration_panics : forall s, panicked (parse s) = true <-> huge_number s.
Proof. intros s. rewrite panicked_iff. apply parse_panic_iff. Qed.

Lemma size_panics : forall checks r, range_u16 r -> (range_size checks r = Panic <-> checks = true /\ uncountable r).
Proof.
  intros [] r U.
  - rewrite range_size_panic by exact U. unfold uncountable, width. destruct r as [a [e|]]; cbn [r_end r_start].
    + destruct U as [U1 U2]. cbn [r_end r_start] in *. unfold U16_MAX in *. split; [intros (e' & E & H); injection E as <-; split; [reflexivity|]; lia|]. intros [_ H]. exists e. split; [reflexivity|]. lia.
    + split; [intros (e & E & _); discriminate|]. intros [_ H]. lia.
  - split; [|intros [H _]; discriminate]. intros H. exfalso. destruct r as [a [e|]]; cbn in H; [|discriminate]. unfold u16_sub, u16_add in H.
    destruct (a <=? e); cbn [pbind] in H; match type of H with (if ?b then _ else _) = _ => destruct b end; discriminate.
Qed.
Lemma short_port_panics : forall checks s, short_port_parse checks s = OPanic <-> exists r, ports_part s r /\ short_ranges_parse checks r = OPanic.
Proof.
  intros checks s. unfold short_port_parse, ports_part. destruct (slash_case s) as (b & pr & B & ->).
  destruct (rsplit_case b) as [[R N]|(a & h & c & -> & H & C & R)]; rewrite R.
  - cbn [obind snd fst]. split.
    + intros X. exists b. split; [exists b; split; [exact B|]; left; auto|]. now destruct (short_ranges_parse checks b).
    + intros (r & (b' & B' & X) & P). rewrite <- (slash_fun _ _ _ B B') in X. destruct X as [[_ ->]|(a & h & c & E & _)]; [|now elim (N a h c)]. now rewrite P.
  - pose proof (address_oks a) as A. destruct (ip_parse (strip_brackets a)) as [ip|] eqn:I; cbn [obind snd fst].
    + assert (A' : address_reads a) by (apply A; eauto). split.
      * intros X. exists (h ++ $":" ++ c). split; [eexists; split; [exact B|]; right; exists a, h, c; auto 6|]. now destruct (short_ranges_parse checks _).
      * intros (r & (b' & B' & X) & P). rewrite <- (slash_fun _ _ _ B B') in X. destruct X as [[X _]|(a' & h' & c' & E & H' & C' & _ & ->)]; [now elim (X a h c)|]. apply rsplit_two_fun in E as (<- & <- & <-); auto. now rewrite P.
    + assert (A' : ~ address_reads a) by (rewrite <- A; intros [? X]; discriminate). split; [discriminate|].
      intros (r & (b' & B' & X) & P). rewrite <- (slash_fun _ _ _ B B') in X. destruct X as [[X _]|(a' & h' & c' & E & H' & C' & X & _)]; [now elim (X a h c)|]. apply rsplit_two_fun in E as (<- & <- & <-); auto. contradiction.
Qed.
Lemma port_panics : forall checks s, panicked (short_port_parse checks s) = true <-> checks = true /\ uncountable_ports s.
Proof.
  intros checks s. rewrite panicked_iff, short_port_panics. unfold uncountable_ports. split.
  - intros (r & P & H). apply short_ranges_parse_panic in H as (h & c & rh & rc & -> & Hh & Hc & H).
    pose proof (range_parse_u16 _ _ Hh) as Uh. pose proof (range_parse_u16 _ _ Hc) as Uc. rewrite !size_panics in H by assumption.
    split; [tauto|]. exists h, c, rh, rc. split; [exact P|]. split; [now apply range_text_iff|]. split; [now apply range_text_iff|tauto].
  - intros [-> (h & c & rh & rc & P & Hh & Hc & H)]. exists (h ++ $":" ++ c). split; [exact P|]. apply short_ranges_parse_panic.
    exists h, c, rh, rc. split; [reflexivity|]. apply range_text_iff in Hh, Hc. split; [exact Hh|]. split; [exact Hc|].
    pose proof (range_parse_u16 _ _ Hh) as Uh. pose proof (range_parse_u16 _ _ Hc) as Uc. rewrite !size_panics by assumption. tauto.
Qed.

(** ** Where the panics of a codec come from *)

Section Codecs.
Variable checks : bool.

Definition found_at (ps : list (list step * kind)) (v : sval) : Prop :=
  exists p k x, In (p, k) ps /\ reaches p v x /\ causes_panic checks k x.
(** A panic is a failure and comes from one of the places. *)
Definition tame {A : Set} (c : codec A) (ps : list (list step * kind)) : Prop :=
  forall v, panics c v = true -> read_ok (de c v) = false /\ found_at ps v.
Definition never {A : Set} (c : codec A) : Prop := forall v, panics c v = false.
Definition under (s : step) (ps : list (list step * kind)) : list (list step * kind) := map (fun e => (s :: fst e, snd e)) ps.

Lemma never_tame : forall {A : Set} (c : codec A) ps, never c -> tame c ps.
Proof. intros A c ps N v H. rewrite N in H. discriminate. Qed.
Lemma found_incl : forall ps qs v, found_at ps v -> incl ps qs -> found_at qs v.
Proof. intros ps qs v (p & k & x & I & H) S. exists p, k, x. auto. Qed.
Lemma found_under : forall s ps p k, In (p, k) ps -> In (s :: p, k) (under s ps).
Proof. intros s ps p k I. apply in_map_iff. exists (p, k). auto. Qed.

Lemma tame_option : forall {A : Set} (c : codec A) ps, tame c ps -> tame (option_c c) ps.
Proof. intros A c ps T v H. cbn [panics de option_c] in *. destruct v; try discriminate; (destruct (T _ H) as [F P]; split; [|exact P]); now rewrite read_ok_map. Qed.
Lemma tame_some : forall {A : Set} (c : codec A) ps, tame c ps -> tame (some_c c) ps.
Proof. intros A c ps T v H. destruct (T _ H) as [F P]. split; [|exact P]. cbn [de some_c]. now rewrite read_ok_map. Qed.
Lemma tame_seq : forall {A : Set} (c : codec A) ps v, tame c ps -> seq_panics c v = true ->
  exists l x, v = VSeq l /\ In x l /\ read_ok (de c x) = false /\ found_at (under AnyItem ps) v.
Proof.
  intros A c ps v T H. destruct v as [| | | | |l|]; try discriminate. apply first_panic_in in H as (x & I & H). destruct (T _ H) as [F (p & k & y & Ip & R & C)].
  exists l, x. split; [reflexivity|]. split; [exact I|]. split; [exact F|]. exists (AnyItem :: p), k, y. split; [now apply found_under|]. split; [|exact C]. exists l, x. auto.
Qed.
Lemma tame_list : forall {A : Set} (c : codec A) ps, tame c ps -> tame (list_c c) (under AnyItem ps).
Proof. intros A c ps T v H. destruct (tame_seq c ps v T H) as (l & x & -> & I & F & P). split; [|exact P]. cbn [de list_c]. now apply (read_ok_collect _ _ x). Qed.
Lemma tame_iset : forall {A : Set} eqb (c : codec A) ps, tame c ps -> tame (iset_c eqb c) (under AnyItem ps).
Proof. intros A eqb c ps T v H. destruct (tame_seq c ps v T H) as (l & x & -> & I & F & P). split; [|exact P]. cbn [de iset_c]. rewrite read_ok_map. now apply (read_ok_collect _ _ x). Qed.
Lemma tame_imap : forall {K V : Set} eqb (k : codec K) (c : codec V) ps, never k -> tame c ps -> tame (imap_c eqb k c) (under AnyKey ps).
Proof.
  intros K V eqb k c ps N T v H. destruct v as [| | | | | |m]; try discriminate. cbn [panics imap_c] in H. apply first_panic_in in H as ([a b] & I & H).
  unfold entry_panics in H. cbn [fst snd] in H. rewrite N in H. cbn [orb] in H. apply andb_true_iff in H as [_ H]. destruct (T _ H) as [F (p & q & x & Ip & R & C)]. split.
  - cbn [de imap_c]. rewrite read_ok_map. apply (read_ok_collect _ _ (a, b)); [exact I|]. unfold entry_de. cbn [fst snd].
    destruct (de k a); [|reflexivity]. cbn [bind]. now apply read_ok_bind.
  - exists (AnyKey :: p), q, x. split; [now apply found_under|]. split; [|exact C]. exists m, a, b. auto.
Qed.
Lemma tame_short_or_long : forall {S L : Set} (s : codec S) (l : codec L) ps, tame s ps -> tame l ps -> tame (short_or_long_c s l) ps.
Proof. intros S L s l ps T U v H. cbn [panics de short_or_long_c] in *. destruct v; rewrite read_ok_map; auto. Qed.
Lemma tame_iso : forall {A B : Set} (c : codec A) (f : B -> A) g ps, tame c ps -> tame (iso c f g) ps.
Proof. intros A B c f g ps T v H. destruct (T _ H) as [F P]. split; [|exact P]. cbn [de iso]. now rewrite read_ok_map. Qed.

(** *** Structs *)

Inductive made : member -> Prop :=
| made_field : forall name (A : Set) (c : codec A) d s, made (field name c d s)
| made_group : forall (B : Set) ms w r i n, made (@group B ms w r i n).
Lemma find_in : forall k ms m, find_field k ms = Some m -> In m ms /\ m_flat m = false /\ In k (m_names m).
Proof.
  intros k. induction ms as [|m ms IH]; intros m' H; cbn [find_field] in H; [discriminate|].
  destruct (m_flat m) eqn:F; cbn [negb andb] in H; [destruct (IH _ H) as (I & R); split; [now right|exact R]|].
  destruct (existsb (str_eqb k) (m_names m)) eqn:E; [|destruct (IH _ H) as (I & R); split; [now right|exact R]].
  injection H as <-. split; [apply in_eq|]. split; [exact F|]. apply existsb_exists in E as (x & I & E). apply str_eqb_eq in E. now subst x.
Qed.
Lemma members_in : forall strict ms all es seen, members_panic strict ms all seen es = true ->
  (exists k v m, In (VStr k, v) es /\ In m ms /\ m_flat m = false /\ In k (m_names m) /\ m_panics m [(VStr k, v)] = true) \/
  (exists m, In m ms /\ m_flat m = true /\ m_panics m all = true).
Proof.
  intros strict ms all. induction es as [|[x v] es IH]; intros seen H; cbn [members_panic] in H.
  - unfold finish_panics in H. apply andb_true_iff in H as [_ H]. apply first_panic_in in H as (m & I & H). apply filter_In in I as [I F]. right. exists m. auto.
  - assert (W : forall seen, members_panic strict ms all seen es = true -> (exists k v' m, In (VStr k, v') ((x, v) :: es) /\ In m ms /\ m_flat m = false /\ In k (m_names m) /\ m_panics m [(VStr k, v')] = true) \/
      (exists m, In m ms /\ m_flat m = true /\ m_panics m all = true)).
    { intros seen' H'. destruct (IH _ H') as [(k & v' & m & I & R)|R]; [left; exists k, v', m; split; [now right|exact R]|now right]. }
    destruct x; try (destruct strict; [discriminate|]; now apply (W seen)).
    destruct (find_field s ms) as [m|] eqn:E; [|now apply (W seen)]. apply find_in in E as (I & F & N).
    destruct (existsb (str_eqb s) seen); [discriminate|]. apply orb_true_iff in H as [H|H].
    + left. exists s, v, m. split; [apply in_eq|auto].
    + apply andb_true_iff in H as [_ H]. now apply (W (s :: seen)).
Qed.

(** A member panics only if the value under its key does. *)
Definition m_tame (m : member) (ps : list (list step * kind)) : Prop :=
  m_flat m = false -> forall k v, In k (m_names m) -> m_panics m [(VStr k, v)] = true ->
    (forall es, In (VStr k, v) es -> read_ok (m_de m es) = false) /\ found_at ps (VMap [(VStr k, v)]).
Lemma lookup_in : forall k v es, In (VStr k, v) es -> lookup k es = Ok (Some v) \/ exists e, lookup k es = Err e.
Proof.
  intros k v es I. rewrite lookup_values. assert (J : In v (values_of k es)).
  { unfold values_of. apply in_map_iff. exists (VStr k, v). split; [reflexivity|]. apply filter_In. split; [exact I|]. cbn [fst key_is]. apply str_eqb_refl. }
  destruct (values_of k es) as [|a [|b r]]; [destruct J|destruct J as [->|[]]; now left|right; eauto].
Qed.
Lemma m_tame_field : forall name {A : Set} (c : codec A) d s ps, tame c ps -> m_tame (field name c d s) (under (Key name) ps).
Proof.
  intros name A c d s ps T _ k v [<-|[]] H. cbn [m_panics field lookup] in H. rewrite str_eqb_refl in H. destruct (T _ H) as [F (p & q & x & Ip & R & C)]. split.
  - intros es I. cbn [m_de field]. destruct (lookup_in _ _ _ I) as [E|[e E]]; rewrite E; [exact F|reflexivity].
  - exists (Key name :: p), q, x. split; [now apply found_under|]. split; [|exact C]. exists [(VStr name, v)], v. split; [reflexivity|]. split; [apply in_eq|exact R].
Qed.
Lemma m_tame_incl : forall m ps qs, m_tame m ps -> incl ps qs -> m_tame m qs.
Proof. intros m ps qs T I F k v N H. destruct (T F k v N H) as [X Y]. split; [exact X|]. now apply (found_incl ps). Qed.
Lemma m_tame_never : forall name {A : Set} (c : codec A) d s ps, never c -> m_tame (field name c d s) ps.
Proof. intros name A c d s ps N F k v [<-|[]] H. cbn [m_panics field lookup] in H. rewrite str_eqb_refl, N in H. discriminate. Qed.
Lemma m_tame_group : forall {B : Set} ms w r i n ps, m_tame (@group B ms w r i n) ps.
Proof. intros B ms w r i n ps F. discriminate F. Qed.
(** Flattened structs never panic. *)
Definition quiet (m : member) : Prop := m_flat m = true -> forall es, m_panics m es = false.
Lemma de_members_fails : forall ms es m, In m ms -> read_ok (m_de m es) = false -> read_ok (de_members ms es) = false.
Proof.
  induction ms as [|m ms IH]; intros es m' I F; [destruct I|]. cbn [de_members]. destruct I as [->|I]; [now apply read_ok_bind|].
  destruct (m_de m es); [|reflexivity]. cbn [bind]. apply read_ok_bind. eauto.
Qed.
Lemma tame_members : forall strict ms ps es, Forall (fun m => m_tame m ps) ms -> Forall quiet ms ->
  (forall p k, In (p, k) ps -> exists s q, p = Key s :: q) ->
  members_panic strict ms es [] es = true -> read_ok (de_members ms es) = false /\ found_at ps (VMap es).
Proof.
  intros strict ms ps es T Q S H. apply members_in in H as [(k & v & m & I & Im & F & N & H)|(m & Im & F & H)].
  - rewrite Forall_forall in T. destruct (T m Im F k v N H) as [X (p & q & x & Ip & R & C)]. split; [apply (de_members_fails ms es m Im), X, I|].
    exists p, q, x. split; [exact Ip|]. split; [|exact C]. destruct (S _ _ Ip) as (s & p' & ->). destruct R as (es' & y & E & J & R). injection E as <-.
    destruct J as [J|[]]. injection J as -> ->. exists es, y. auto.
  - rewrite Forall_forall in Q. rewrite (Q m Im F) in H. discriminate.
Qed.
Lemma tame_struct : forall ms ps, Forall (fun m => m_tame m ps) ms -> Forall quiet ms -> (forall p k, In (p, k) ps -> exists s q, p = Key s :: q) -> tame (struct_c ms) ps.
Proof.
  intros ms ps T Q S v H. destruct v as [| | | | | |es]; try discriminate. cbn [panics struct_c] in H. destruct (tame_members true ms ps es T Q S H) as [F P].
  split; [|exact P]. cbn [de struct_c]. destruct (string_keys es); [exact F|reflexivity].
Qed.
Lemma tame_struct_ext : forall ms ps, Forall (fun m => m_tame m ps) ms -> Forall quiet ms -> (forall p k, In (p, k) ps -> exists s q, p = Key s :: q) -> tame (struct_ext_c ms) ps.
Proof.
  intros ms ps T Q S v H. destruct v as [| | | | | |es]; try discriminate. cbn [panics struct_ext_c] in H. destruct (tame_members false ms ps es T Q S H) as [F P].
  split; [|exact P]. cbn [de struct_ext_c]. now apply read_ok_bind.
Qed.

End Codecs.

(** *** Codecs which never panic *)

Lemma tame_never : forall checks {A : Set} (c : codec A), tame checks c [] -> never c.
Proof. intros checks A c T v. destruct (panics c v) eqn:E; [|reflexivity]. destruct (T _ E) as [_ (p & k & x & [] & _)]. Qed.
Lemma never_option : forall {A : Set} (c : codec A), never c -> never (option_c c).
Proof. intros A c N v. cbn [panics option_c]. destruct v; auto. Qed.
Lemma never_some : forall {A : Set} (c : codec A), never c -> never (some_c c).
Proof. intros A c N v. apply N. Qed.
Lemma never_list : forall {A : Set} (c : codec A), never c -> never (list_c c).
Proof. intros A c N. apply (tame_never true). apply (tame_list true c []). now apply never_tame. Qed.
Lemma never_iset : forall {A : Set} eqb (c : codec A), never c -> never (iset_c eqb c).
Proof. intros A eqb c N. apply (tame_never true). apply (tame_iset true eqb c []). now apply never_tame. Qed.
Lemma never_imap : forall {K V : Set} eqb (k : codec K) (c : codec V), never k -> never c -> never (imap_c eqb k c).
Proof. intros K V eqb k c M N. apply (tame_never true). apply (tame_imap true eqb k c []); [exact M|]. now apply never_tame. Qed.
Lemma never_short_or_long : forall {S L : Set} (s : codec S) (l : codec L), never s -> never l -> never (short_or_long_c s l).
Proof. intros S L s l M N v. cbn [panics short_or_long_c]. destruct v; auto. Qed.
Lemma never_item_or_list : forall {S L : Set} (s : codec S) (l : codec L), never s -> never l -> never (item_or_list_c s l).
Proof. intros S L s l M N v. cbn [panics item_or_list_c]. destruct v; auto. Qed.
Lemma never_iso : forall {A B : Set} (c : codec A) (f : B -> A) g, never c -> never (iso c f g).
Proof. intros A B c f g N v. apply N. Qed.
Lemma never_limit : forall {A : Set} (c : codec A), never c -> never (limit_c c).
Proof. intros A c N v. cbn [panics limit_c]. destruct v; auto; rewrite N; apply andb_false_r. Qed.
Lemma never_resource : forall {A : Set} (c : codec A), never c -> never (resource_c c).
Proof.
  intros A c N v. cbn [panics resource_c]. destruct v as [| | | | | |es]; auto. destruct (hash_map_de es) as [x|]; [|reflexivity]. unfold resource_panics.
  destruct (match imap_get str_eqb x $"external" with Some v => _ | None => _ end) as [[]|]; auto.
Qed.

Definition m_never (m : member) : Prop := forall es, m_panics m es = false.
Lemma never_field : forall name {A : Set} (c : codec A) d s, never c -> m_never (field name c d s).
Proof. intros name A c d s N es. cbn [m_panics field]. destruct (lookup name es) as [[v|]|]; auto. Qed.
Lemma never_members : forall strict ms, Forall m_never ms -> forall all es seen, members_panic strict ms all seen es = false.
Proof.
  intros strict ms N all es seen. rewrite Forall_forall in N. destruct (members_panic strict ms all seen es) eqn:E; [|reflexivity].
  apply members_in in E as [(k & v & m & _ & I & _ & _ & H)|(m & I & _ & H)]; rewrite (N m I) in H; discriminate.
Qed.
Lemma never_group : forall {B : Set} ms w r i n, Forall m_never ms -> m_never (@group B ms w r i n).
Proof. intros B ms w r i n N es. now apply never_members. Qed.
Lemma never_struct : forall ms, Forall m_never ms -> never (struct_c ms).
Proof. intros ms N v. cbn [panics struct_c]. destruct v; auto using never_members. Qed.
Lemma never_struct_ext : forall ms, Forall m_never ms -> never (struct_ext_c ms).
Proof. intros ms N v. cbn [panics struct_ext_c]. destruct v; auto using never_members. Qed.
Lemma never_struct_ext_once : forall ms, Forall m_never ms -> never (struct_ext_once_c ms).
Proof. intros ms N v. cbn [panics struct_ext_once_c]. now apply never_struct_ext. Qed.
Lemma never_quiet : forall m, m_never m -> quiet m.
Proof. intros m N _. exact N. Qed.
Lemma quiet_field : forall name {A : Set} (c : codec A) d s, quiet (field name c d s).
Proof. intros name A c d s F. discriminate F. Qed.

(** ** A text which panics, in a document which can be read otherwise *)

Section Critical.
Variable checks : bool.

Definition critical {A : Set} (c : codec A) (p : list step) (k : kind) : Prop :=
  forall v v' x a, de c v = Ok a -> replaced p v x v' -> causes_panic checks k x -> panics c v' = true.

Lemma critical_some : forall {A : Set} (c : codec A) p k, critical c p k -> critical (some_c c) p k.
Proof. intros A c p k C v v' x a D. cbn [de some_c] in D. destruct (de c v) as [b|] eqn:E; [|discriminate]. apply (C v v' x b E). Qed.
Lemma replaced_not_null : forall p v x v', replaced p v x v' -> p <> [] -> v' <> VNull /\ v <> VNull.
Proof. intros [|[n| |] p] v x v' R N; [now elim N| | |]; cbn [replaced] in R; [destruct R as (? & ? & ? & ? & -> & -> & _)|destruct R as (? & ? & ? & ? & ? & -> & -> & _)|destruct R as (? & ? & ? & ? & -> & -> & _)]; split; discriminate. Qed.
Lemma critical_option : forall {A : Set} (c : codec A) p k, p <> [] -> critical c p k -> critical (option_c c) p k.
Proof.
  intros A c p k N C v v' x a D R P. destruct (replaced_not_null _ _ _ _ R N) as [N1 N2]. cbn [de panics option_c] in *.
  assert (E : exists b, de c v = Ok b) by (destruct v; try contradiction; (destruct (de c _) as [got|] eqn:E; [eauto|discriminate])). destruct E as [b E].
  pose proof (C v v' x b E R P) as G. destruct v'; try contradiction; exact G.
Qed.
Lemma critical_iset : forall {A : Set} eqb (c : codec A) p k, critical c p k -> critical (iset_c eqb c) (AnyItem :: p) k.
Proof.
  intros A eqb c p k C v v' x a D R P. destruct R as (l & y & y' & r & -> & -> & R). cbn [de iset_c] in D. destruct (collect (de c) (l ++ y :: r)) as [ys|] eqn:E; [|discriminate].
  apply collect_prefix in E as [F [b E]]. cbn [panics iset_c seq_panics]. apply first_panic_at; [exact F|]. exact (C _ _ _ _ E R P).
Qed.
Lemma critical_imap : forall {K V : Set} eqb (kc : codec K) (c : codec V) p k, critical c p k -> critical (imap_c eqb kc c) (AnyKey :: p) k.
Proof.
  intros K V eqb kc c p k C v v' x a D R P. destruct R as (l & n & y & y' & r & -> & -> & R). cbn [de imap_c] in D. destruct (collect _ (l ++ (n, y) :: r)) as [ys|] eqn:E; [|discriminate].
  apply collect_prefix in E as [F [b E]]. unfold entry_de in E. cbn [fst snd] in E. destruct (de kc n) as [n'|] eqn:En; [|discriminate]. cbn [bind] in E. destruct (de c y) as [z|] eqn:Ez; [|discriminate].
  cbn [panics imap_c]. apply first_panic_at; [exact F|]. unfold entry_panics. cbn [fst snd]. rewrite En, (C _ _ _ _ Ez R P). apply orb_true_r.
Qed.

Lemma de_members_each : forall ms es v m, de_members ms es = Ok v -> In m ms -> exists a, m_de m es = Ok a.
Proof.
  intros ms es v m H I. destruct (m_de m es) as [a|e] eqn:E; [eauto|]. assert (F : read_ok (de_members ms es) = false) by (apply (de_members_fails ms es m I); now rewrite E).
  rewrite H in F. discriminate.
Qed.
Lemma values_app : forall k a b, values_of k (a ++ b) = values_of k a ++ values_of k b.
Proof. intros k a b. unfold values_of. now rewrite filter_app, map_app. Qed.
Lemma values_cons : forall k v r, values_of k ((VStr k, v) :: r) = v :: values_of k r.
Proof. intros k v r. unfold values_of. cbn [filter fst key_is]. rewrite str_eqb_refl. reflexivity. Qed.
(** A field which is read is given once. *)
Lemma field_once : forall name {A : Set} (c : codec A) d s l v r a, m_de (field name c d s) (l ++ (VStr name, v) :: r) = Ok a ->
  values_of name l = [] /\ values_of name r = [] /\ de c v = Ok a.
Proof.
  intros name A c d s l v r a H. cbn [m_de field] in H. rewrite lookup_values, values_app, values_cons in H.
  destruct (values_of name l) as [|y [|z q]]; cbn [app] in H; [|destruct (values_of name r); discriminate|discriminate].
  destruct (values_of name r); [|discriminate]. auto.
Qed.
Lemma field_alone : forall name {A : Set} (c : codec A) d s v, m_de (field name c d s) [(VStr name, v)] = de c v /\ m_panics (field name c d s) [(VStr name, v)] = panics c v.
Proof. intros name A c d s v. cbn [m_de m_panics field lookup]. rewrite str_eqb_refl. auto. Qed.

Lemma critical_members : forall ms k (A : Set) (c : codec A) d s l y y' r v all,
  Forall made ms -> find_field k ms = Some (field k c d s) -> de_members ms (l ++ (VStr k, y) :: r) = Ok v ->
  panics c y' = true -> members_panic false ms all [] (l ++ (VStr k, y') :: r) = true.
Proof.
  intros ms k A c d s l y y' r v all M F D P.
  assert (G : forall l2 l1 seen, l = l1 ++ l2 -> (forall x, In x seen -> exists z, In (VStr x, z) l1) -> members_panic false ms all seen (l2 ++ (VStr k, y') :: r) = true).
  { induction l2 as [|[x z] l2 IH]; intros l1 seen E S; cbn [app members_panic].
    - rewrite F. destruct (existsb (str_eqb k) seen) eqn:X.
      + exfalso. apply existsb_exists in X as (x & I & X). apply str_eqb_eq in X. subst x. destruct (S _ I) as [z J]. rewrite app_nil_r in E. subst l1.
        apply find_in in F as (Im & _). destruct (de_members_each _ _ _ _ D Im) as [a Ha]. apply field_once in Ha as (N & _).
        apply in_split in J as (u & w & ->). rewrite values_app, values_cons in N. destruct (values_of k u); discriminate.
      + rewrite (proj2 (field_alone k c d s y')), P. reflexivity.
    - assert (E' : l = (l1 ++ [(x, z)]) ++ l2) by (now rewrite <- app_assoc).
      assert (S' : forall x', In x' seen -> exists z', In (VStr x', z') (l1 ++ [(x, z)])) by (intros x' I; destruct (S _ I) as [z' J]; exists z'; apply in_or_app; now left).
      destruct x as [| | | |s0| |]; try (eapply IH; eassumption).
      destruct (find_field s0 ms) as [m|] eqn:Fm; [|apply (IH (l1 ++ [(VStr s0, z)]) seen); assumption].
      apply find_in in Fm as (Im & Fl & Nm). destruct (de_members_each _ _ _ _ D Im) as [a Ha]. rewrite Forall_forall in M. pose proof (M m Im) as Mm.
      destruct Mm as [name B cm dm sm|]; [|discriminate]. destruct Nm as [<-|[]].
      assert (L : l ++ (VStr k, y) :: r = l1 ++ (VStr name, z) :: (l2 ++ (VStr k, y) :: r)) by (rewrite E, <- app_assoc; reflexivity).
      rewrite L in Ha. apply field_once in Ha as (N & _ & Hz). destruct (existsb (str_eqb name) seen) eqn:X.
      + exfalso. apply existsb_exists in X as (x & I & X). apply str_eqb_eq in X. subst x. destruct (S _ I) as [z' J].
        apply in_split in J as (u & w & ->). rewrite values_app, values_cons in N. destruct (values_of name u); discriminate.
      + rewrite (proj1 (field_alone name cm dm sm z)), Hz. cbn [read_ok andb]. rewrite (IH (l1 ++ [(VStr name, z)]) (name :: seen)); [apply orb_true_r|exact E'|].
        intros x' [<-|I]; [exists z; apply in_or_app; right; apply in_eq|auto]. }
  apply (G l [] []); [reflexivity|]. intros x [].
Qed.
Lemma critical_struct_ext : forall ms n (A : Set) (c : codec A) d s p k, Forall made ms -> find_field n ms = Some (field n c d s) -> critical c p k ->
  critical (struct_ext_c ms) (Key n :: p) k.
Proof.
  intros ms n A c d s p k M F C v v' x a D R P. destruct R as (l & y & y' & r & -> & -> & R). cbn [de struct_ext_c] in D. apply bind_ok in D as (b & D & _).
  cbn [panics struct_ext_c]. apply (critical_members ms n A c d s l y y' r b); [exact M|exact F|exact D|].
  pose proof F as F'. apply find_in in F' as (Im & _). destruct (de_members_each _ _ _ _ D Im) as [u Hu]. apply field_once in Hu as (_ & _ & Hu). exact (C _ _ _ _ Hu R P).
Qed.
End Critical.
