(** Lemmas for [PropsDocument]: what is read from the parts of a document. *)

From Coq Require Import String Ascii List NArith ZArith Bool Lia.
Import ListNotations.
From Verif Require Import Base BaseFacts Num Coll CollFacts Regex RegexFacts KeysSpec KeysModel PropsKeys VolumesModel PropsVolumes EqModel ValidateModel PropsValidate Serde Codec CodecFacts
  ScalarCodec CommonCodec ServiceParts MountCodec HealthProofs ServiceCodec ComposeCodec ComposeProofs Schema SchemaFacts ComposeView DocumentSpec.
Open Scope N_scope.

Definition same_key {V : Set} (c : codec V) (e : sval * sval) (p : str * V) : Prop := fst e = VStr (fst p) /\ de c (snd e) = Ok (snd p).

Lemma identifier_same : forall v s, de identifier_c v = Ok s -> v = VStr s.
Proof.
  intros v s H. destruct v; cbn -[identifier_new] in H; try discriminate. destruct (identifier_new s0) as [t|e] eqn:E; cbn [map_err] in H; [|discriminate].
  apply identifier_language in E as [-> _]. congruence.
Qed.
Lemma smap_entries : forall {V : Set} (c : codec V) v m, de (smap identifier_c c) v = Ok m ->
  exists es r, v = VMap es /\ m = imap_of str_eqb r /\ Forall2 (same_key c) es r.
Proof.
  intros V c v m H. destruct v; cbn [de smap imap_c] in H; try discriminate. destruct (collect (entry_de identifier_c c) l) as [r|] eqn:C; cbn [map_ok] in H; [|discriminate].
  injection H as <-. exists l, r. split; [reflexivity|]. split; [reflexivity|]. apply collect_ok in C. clear -C. induction C as [|e p es r E C IH]; constructor; [|exact IH].
  unfold entry_de in E. apply bind_ok in E as (a & A & E). apply bind_ok in E as (b & B & E). injection E as <-. split; [now apply identifier_same|exact B].
Qed.
Lemma same_keys : forall {V : Set} (c : codec V) es r, Forall2 (same_key c) es r -> map fst es = map (fun p => VStr (fst p)) r.
Proof. intros V c es r F. induction F as [|e p es r [E _] F IH]; cbn [map]; congruence. Qed.
Lemma in_text_keys : forall {V : Type} (r : list (str * V)) n, In (VStr n) (map (fun p => VStr (fst p)) r) <-> In n (map fst r).
Proof.
  intros V r n. split; intros I.
  - apply in_map_iff in I as (p & E & I). injection E as <-. now apply in_map.
  - apply in_map_iff in I as (p & <- & I). now apply (in_map (fun p => VStr (fst p))).
Qed.
Lemma smap_keys : forall {V : Set} (c : codec V) v m n, de (smap identifier_c c) v = Ok m -> (In n (map fst m) <-> key v n).
Proof.
  intros V c v m n H. apply smap_entries in H as (es & r & -> & -> & F). rewrite (imap_of_keys str_eqb), (iset_of_In str_eqb str_eqb_eq).
  rewrite <- in_text_keys, <- (same_keys c es r F). unfold key. split; [intros I; now exists es|]. intros (x & E & I). congruence.
Qed.
Lemma last_split : forall {V : Type} (l : list (str * V)) n, In n (map fst l) -> exists a v b, l = a ++ (n, v) :: b /\ ~ In n (map fst b).
Proof.
  intros V l n. induction l as [|[k v] l IH]; cbn [map fst In]; [intros []|]. intros I. destruct (in_dec str_eq_dec n (map fst l)) as [J|J].
  - destruct (IH J) as (a & x & b & -> & N). now exists ((k, v) :: a), x, b.
  - destruct I as [->|I]; [|contradiction]. now exists [], v, l.
Qed.
Lemma smap_last : forall {V : Set} (c : codec V) v m n a, de (smap identifier_c c) v = Ok m ->
  (In (n, a) m <-> exists x, last_entry v n x /\ de c x = Ok a).
Proof.
  intros V c v m n a H. apply smap_entries in H as (es & r & -> & -> & F). split.
  - intros I. assert (J : In n (map fst r)). { apply (iset_of_In str_eqb str_eqb_eq). rewrite <- (imap_of_keys str_eqb). apply in_map_iff. now exists (n, a). }
    apply last_split in J as (p & b & q & -> & N). pose proof (imap_of_last str_eqb str_eqb_eq _ n b p q eq_refl N) as L.
    apply (imap_get_In str_eqb str_eqb_eq _ _ _ (imap_of_NoDup str_eqb str_eqb_eq _)) in I, L. assert (a = b) by congruence. subst b. clear I L.
    apply Forall2_app_inv_r in F as (es1 & es2 & _ & F & ->). inversion F as [|[k x] e es3 r3 [K D] F3]; subst. cbn [fst snd] in K, D. subst k.
    exists x. split; [|exact D]. exists es1, es3. split; [reflexivity|]. rewrite (same_keys c _ _ F3). now rewrite in_text_keys.
  - intros (x & (before & after & E & N) & D). injection E as ->. apply Forall2_app_inv_l in F as (r1 & r2 & _ & F & ->).
    inversion F as [|? [k b] ? r3 [K D'] F3]; subst. cbn [fst snd] in K, D'. injection K as <-. assert (a = b) by congruence. subst b.
    apply (imap_of_last str_eqb str_eqb_eq _ n a r1 r3 eq_refl). rewrite (same_keys c _ _ F3) in N. now rewrite in_text_keys in N.
Qed.

(** ** Fields *)

(** What a field was read from. *)
Definition from_field {A : Set} (name : str) (c : codec A) (default : option A) (es : list (sval * sval)) (a : A) : Prop :=
  (exists x, values_of name es = [x] /\ de c x = Ok a) \/ (values_of name es = [] /\ default = Some a).
Lemma field_from : forall {A : Set} name (c : codec A) d skip es a, m_de (field name c d skip) es = Ok a -> from_field name c d es a.
Proof.
  intros A name c d skip es a H. cbn [m_de field] in H. rewrite lookup_values in H. unfold from_field.
  destruct (values_of name es) as [|x [|y r]]; cbn [bind] in H; [right|left|discriminate].
  - destruct d; [|discriminate]. split; congruence.
  - eauto.
Qed.
Lemma struct_map : forall ms v a, de (struct_ext_c ms) v = Ok a -> exists es, v = VMap es.
Proof. intros ms v a H. destruct v; try discriminate. now eexists. Qed.
Lemma part_map : forall k es x, part k (VMap es) x <-> values_of k es = [x].
Proof. intros k es x. unfold part. split; [intros (y & E & H); congruence|]. intros H. now exists es. Qed.
(** A list of names which was read by field [name]. *)
Lemma many_from : forall {A : Set} name (c : codec (list A)) es l, from_field name c (Some []) es l ->
  (exists x, part name (VMap es) x /\ de c x = Ok l) \/ ((forall x, ~ part name (VMap es) x) /\ l = []).
Proof.
  intros A name c es l [(x & V & D)|[V D]]; [left|right].
  - exists x. split; [now apply part_map|exact D].
  - split; [|congruence]. intros x P. apply part_map in P. congruence.
Qed.

(** ** Networks, configs and secrets of a service *)

Lemma sset_items : forall v l n, de (sset identifier_c) v = Ok l -> (In n l <-> item v (VStr n)).
Proof.
  intros v l n H. destruct v; cbn [de sset iset_c] in H; try discriminate. destruct (collect (de identifier_c) l0) as [r|] eqn:C; cbn [map_ok] in H; [|discriminate].
  injection H as <-. rewrite (iset_of_In str_eqb str_eqb_eq). apply collect_ok in C. unfold item.
  assert (E : l0 = map VStr r) by (clear -C; induction C as [|x s l r E C IH]; cbn [map]; [reflexivity|apply identifier_same in E; congruence]).
  subst l0. split.
  - intros I. exists (map VStr r). split; [reflexivity|now apply in_map].
  - intros (k & E & I). injection E as <-. apply in_map_iff in I as (t & E & I). congruence.
Qed.
Lemma short_or_long_read : forall {S L : Set} (s : codec S) (l : codec L) v x, de (short_or_long_c s l) v = Ok x ->
  (exists es b, v = VMap es /\ x = Long b /\ de l v = Ok b) \/ ((forall es, v <> VMap es) /\ exists a, x = Short a /\ de s v = Ok a).
Proof.
  intros S L s l v x H. destruct v; cbn [de short_or_long_c] in H.
  7:{ left. destruct (de l (VMap l0)) as [b|] eqn:D; cbn [map_ok] in H; [|discriminate]. injection H as <-. exists l0, b. auto. }
  all: right; split; [discriminate|]; match type of H with map_ok _ ?r = _ => destruct r as [a|] eqn:D end; cbn [map_ok] in H; [|discriminate]; injection H as <-; exists a; auto.
Qed.
Lemma networks_names : forall w v (n : networks w), de (networks_c w) v = Ok n ->
  forall name, In name (match n with Short l => l | Long m => map fst m end) <-> item v (VStr name) \/ key v name.
Proof.
  intros w v n H name. apply short_or_long_read in H as [(es & m & -> & -> & D)|(X & l & -> & D)].
  - rewrite (smap_keys _ _ _ name D). split; [tauto|]. intros [(l & E & _)|K]; [discriminate|exact K].
  - rewrite (sset_items v l name D). split; [tauto|]. intros [I|(es & E & _)]; [exact I|]. now elim (X es).
Qed.
Lemma option_read : forall {A : Set} (c : codec A) x o, de (option_c c) x = Ok o -> (x = VNull /\ o = None) \/ (exists a, o = Some a /\ de c x = Ok a).
Proof.
  intros A c x o H. assert (X : x = VNull \/ x <> VNull) by (destruct x; (left; reflexivity) || (right; discriminate)). destruct X as [->|X].
  - left. cbn [de option_c] in H. split; congruence.
  - right. replace (de (option_c c) x) with (map_ok Some (de c x)) in H by (destruct x; congruence || reflexivity).
    destruct (de c x) as [a|] eqn:D; cbn [map_ok] in H; [|discriminate]. exists a. split; congruence.
Qed.
Lemma network_config_names : forall w es (o : option (network_config w)), m_de (network_config_m w) es = Ok o ->
  forall name, In name (match networks_view o with NetworkNames l => l | _ => [] end) <-> uses_network (VMap es) name.
Proof.
  intros w es o H name. cbn [m_de network_config_m group de_members network_config_ms] in H.
  apply bind_ok in H as (v & H & R). apply bind_ok in H as (mode & _ & H). apply bind_ok in H as (v2 & H & E). injection E as <-.
  apply bind_ok in H as (nets & N & H). injection H as <-. apply field_from in N. unfold from_field in N.
  assert (U : match nets with Some n => forall name, In name (match n with Short l => l | Long m => map fst m end) <-> uses_network (VMap es) name
             | None => ~ uses_network (VMap es) name end).
  { unfold uses_network. destruct N as [(x & V & D)|[V D]].
    - apply option_read in D as [[-> ->]|(n & -> & D)].
      + intros (v & P & U). apply part_map in P. rewrite V in P. injection P as <-. destruct U as [(l & E & _)|(l & E & _)]; discriminate.
      + intros m. rewrite (networks_names w x n D m). split.
        * intros I. exists x. split; [now apply part_map|exact I].
        * intros (v & P & I). apply part_map in P. congruence.
    - injection D as <-. intros (v & P & _). apply part_map in P. congruence. }
  cbn [network_config_read] in R. destruct mode as [m|], nets as [n|]; try discriminate; injection R as <-; cbn [networks_view]; try (split; [intros []|contradiction]).
  rewrite <- (U name). now destruct n.
Qed.

Lemma config_or_secret_source : forall v (g : vals config_or_secret_ms * extensions) n, de config_or_secret_c v = Ok g ->
  (nth_val 0 config_or_secret_ms (fst g) = n <-> part $"source" v (VStr n)).
Proof.
  intros v g n H. destruct (struct_map _ _ _ H) as [es ->].
  apply (struct_nth config_or_secret_ms 0 es (fun s : str => s = n <-> part $"source" (VMap es) (VStr n)) g H).
  change (forall a, m_de (required $"source" identifier_c) es = Ok a -> (a = n <-> part $"source" (VMap es) (VStr n))). intros a Ha. apply field_from in Ha.
  rewrite part_map. destruct Ha as [(x & V & D)|[_ D]]; [|discriminate]. apply identifier_same in D. rewrite V, D. split; congruence.
Qed.
Lemma grants_names : forall v l n, de grants_c v = Ok l ->
  (In n (sources (map grant_view l)) <-> exists x, item v x /\ (x = VStr n \/ part $"source" x (VStr n))).
Proof.
  intros v l n H. destruct v; cbn [de grants_c list_c] in H; try discriminate. apply collect_ok in H. unfold sources. rewrite map_map.
  assert (G : forall x (g : short_or_long str (vals config_or_secret_ms * extensions)), de (short_or_long_c identifier_c config_or_secret_c) x = Ok g ->
    (match grant_view g with Short m => m | Long c => cos_source c end = n <-> x = VStr n \/ part $"source" x (VStr n))).
  { clear. intros x g D. apply short_or_long_read in D as [(es & c & -> & -> & E)|(X & s & -> & E)]; cbn [grant_view cos_source].
    - rewrite (config_or_secret_source _ c n E). split; [tauto|]. intros [J|J]; [discriminate|exact J].
    - apply identifier_same in E. subst x. split; [intros ->; now left|]. intros [J|(es & J & _)]; [congruence|discriminate]. }
  unfold item. split.
  - intros I. apply in_map_iff in I as (g & E & I). clear -H G E I. revert I. induction H as [|x g' l0 l D H IH]; intros I; [destruct I|]. destruct I as [->|I].
    + exists x. split; [exists (x :: l0); split; [reflexivity|now left]|]. now apply (G x g D).
    + destruct (IH I) as (y & (k & K & J) & U). injection K as <-. exists y. split; [exists (x :: l0); split; [reflexivity|now right]|exact U].
  - intros (x & (k & K & I) & U). injection K as <-. apply in_map_iff. clear -H G I U. revert I. induction H as [|y g l0 l D H IH]; intros I; [destruct I|]. destruct I as [->|I].
    + exists g. split; [now apply (G x g D)|now left].
    + destruct (IH I) as (g' & E & J). exists g'. split; [exact E|now right].
Qed.

(** ** Volumes of a service *)

Lemma colon_split : forall (a b x y : str), ~ In (ch ":") a -> ~ In (ch ":") b -> a ++ ch ":" :: x = b ++ ch ":" :: y -> a = b /\ x = y.
Proof.
  induction a as [|c a IH]; intros [|d b] x y Na Nb E; cbn [app] in E.
  - injection E as ->. auto.
  - injection E as E _. elim Nb. left. now symmetry.
  - injection E as E _. elim Na. now left.
  - injection E as -> E. apply IH in E as [-> ->]; [auto| |]; intros I; [apply Na|apply Nb]; now right.
Qed.
Lemma identifier_no_colon : forall n, matches IDENTIFIER_RE n -> ~ In (ch ":") n.
Proof.
  intros n M I. apply matches_cls_star in M as (c & r & -> & C & F). destruct I as [->|I]; [discriminate|].
  assert (X := proj1 (forallb_forall _ _) F _ I). discriminate.
Qed.
Lemma short_volume_names : forall s v n, short_volume_parse s = Ok v -> (named_volume (Short v) = Some n <-> mounts_volume (VStr s) n).
Proof.
  intros s v n H. apply short_volume_parse_meaning in H as (_ & Nc & H). unfold mounts_volume.
  assert (NP : forall k y, ~ part k (VStr s) y) by (intros k y (es & E & _); discriminate). cbn [named_volume]. destruct (sv_options v) as [o|].
  - destruct H as (src & P & Ns & H). assert (T : exists tail, s = src ++ ch ":" :: tail).
    { destruct H as [(-> & _)|(opts & st & -> & _)]; cbn [app of_string]; eexists; reflexivity. }
    destruct T as [tail ->]. clear H. destruct (so_source o) as [p|id]; cbn [named_volume].
    + split; [discriminate|]. intros [(r & E & M)|[X _]]; [|now apply NP in X]. exfalso. injection E as E.
      apply (colon_split src n tail r Ns (identifier_no_colon n M)) in E as [<- _].
      assert (X := proj2 (proj2 (volume_source_kinds src) src) (conj eq_refl M)). congruence.
    + apply (proj2 (volume_source_kinds src)) in P as [-> M]. split.
      * intros E. injection E as <-. left. exists tail. auto.
      * intros [(r & E & M')|[X _]]; [|now apply NP in X]. injection E as E. apply (colon_split src n tail r Ns (identifier_no_colon n M')) in E as [<- _]. reflexivity.
  - split; [discriminate|]. intros [(r & E & _)|[X _]]; [|now apply NP in X]. injection E as ->. elim Nc. rewrite <- H. apply in_or_app. right. now left.
Qed.

Lemma values_unknown : forall k ns es, ~ In k ns -> values_of k (unknown ns es) = values_of k es.
Proof.
  intros k ns es N. unfold values_of, unknown. f_equal. induction es as [|[x v] es IH]; cbn [filter fst]; [reflexivity|].
  destruct x; cbn [key_is]; try (cbn [filter fst key_is]; exact IH). destruct (str_eqb_spec k s) as [<-|D].
  - replace (existsb (str_eqb k) ns) with false; [cbn [negb filter fst key_is]; now rewrite str_eqb_refl, IH|]. symmetry. apply not_true_is_false. intros X. apply existsb_exists in X as (y & I & E).
    apply str_eqb_eq in E. now subst.
  - destruct (negb (existsb (str_eqb s) ns)); cbn [filter fst key_is]; [|exact IH]. destruct (str_eqb_spec k s); [contradiction|exact IH].
Qed.
Lemma mount_names : forall x m n, de mount_c x = Ok m ->
  (named_volume (Long m) = Some n <-> part $"type" x (VStr $"volume") /\ part $"source" x (VStr n)).
Proof.
  intros x m n H. cbn [de mount_c] in H. destruct x; try discriminate. cbn [mount_de] in H. apply bind_ok in H as (t & T & H). rewrite lookup_values in T.
  destruct t as [[]|]; try discriminate. rename s into kind. assert (V : values_of $"type" l = [VStr kind]).
  { destruct (values_of $"type" l) as [|a [|b r]]; congruence. }
  rewrite !part_map, V, <- (values_unknown $"source" [$"type"] l) by (intros [E|[]]; discriminate).
  unfold mount_read in H. destruct (str_eqb_spec kind $"volume") as [->|K].
  - destruct (de volume_c (VMap (unknown [$"type"] l))) as [v|] eqn:D; cbn [map_ok] in H; [|discriminate]. injection H as <-. cbn [named_volume].
    unfold volume_c, iso in D. cbn [de] in D. destruct (de (struct_ext_c volume_ms) (VMap (unknown [$"type"] l))) as [a|] eqn:D'; cbn [map_ok] in D; [|discriminate]. injection D as <-.
    match goal with |- vol_source ?t = _ <-> _ => assert (Q : vol_source t = nth_val 0 volume_ms (fst a)) by (destruct a as [[s [o c]] y]; reflexivity); rewrite Q; clear Q end.
    apply (struct_nth volume_ms 0 (unknown [$"type"] l) (fun s : option str => s = Some n <-> [VStr $"volume"] = [VStr $"volume"] /\ values_of $"source" (unknown [$"type"] l) = [VStr n]) a D').
    change (forall s, m_de (optional $"source" identifier_c) (unknown [$"type"] l) = Ok s ->
      (s = Some n <-> [VStr $"volume"] = [VStr $"volume"] /\ values_of $"source" (unknown [$"type"] l) = [VStr n])).
    intros s Hs. apply field_from in Hs as [(y & Vy & Dy)|[Vy Dy]]; rewrite Vy.
    + apply option_read in Dy as [[-> ->]|(i & -> & Dy)]; [split; [discriminate|intros [_ E]; discriminate]|]. apply identifier_same in Dy. subst y.
      split; [intros E; injection E as ->; auto|intros [_ E]; congruence].
    + injection Dy as <-. split; [discriminate|intros [_ E]; discriminate].
  - assert (X : named_volume (Long m) = None).
    { repeat match type of H with (if ?b then _ else _) = _ => destruct b end; try discriminate;
        match type of H with map_ok _ ?r = _ => destruct r end; cbn [map_ok] in H; try discriminate; injection H as <-; reflexivity. }
    rewrite X. split; [discriminate|]. intros [E _]. congruence.
Qed.
Lemma entry_names : forall x e n, de (short_or_long_c short_volume_c mount_c) x = Ok e -> (named_volume e = Some n <-> mounts_volume x n).
Proof.
  intros x e n H. apply short_or_long_read in H as [(es & m & -> & -> & D)|(X & v & -> & D)].
  - rewrite (mount_names _ m n D). unfold mounts_volume. split; [tauto|]. intros [(r & E & _)|P]; [discriminate|exact P].
  - destruct x; cbn [de short_volume_c text_c from_string] in D; try discriminate. destruct (short_volume_parse s) as [v'|] eqn:P; cbn [map_err] in D; [|discriminate].
    injection D as ->. now apply short_volume_names.
Qed.

(** [IndexSet]s with a coarse equality. *)
Inductive sub {A : Type} : list A -> list A -> Prop :=
| sub_nil : sub [] []
| sub_skip x a b : sub a b -> sub a (x :: b)
| sub_cons x a b : sub a b -> sub (x :: a) (x :: b).
Lemma iset_of_sub : forall {A : Type} (eqb : A -> A -> bool) l, sub (iset_of eqb l) l.
Proof.
  intros A eqb l. unfold iset_of. assert (G : forall l acc, exists r, fold_left (iset_insert eqb) l acc = acc ++ r /\ sub r l).
  { clear. induction l as [|x l IH]; intros acc; cbn [fold_left].
    - exists []. rewrite app_nil_r. split; [reflexivity|constructor].
    - unfold iset_insert at 2. destruct (existsb (eqb x) acc).
      + destruct (IH acc) as (r & E & S). exists r. split; [exact E|now constructor].
      + destruct (IH (acc ++ [x])) as (r & E & S). exists (x :: r). split; [now rewrite E, <- app_assoc|now constructor]. }
  destruct (G l []) as (r & E & S). now rewrite E.
Qed.
Lemma iset_of_has : forall {A : Type} (eqb : A -> A -> bool) l x, In x l -> exists y, In y (iset_of eqb l) /\ (y = x \/ eqb x y = true).
Proof.
  intros A eqb l x I. unfold iset_of.
  assert (G : forall l acc, (forall y, In y acc -> In y (fold_left (iset_insert eqb) l acc)) /\
    (In x l -> exists y, In y (fold_left (iset_insert eqb) l acc) /\ (y = x \/ eqb x y = true))).
  { clear. induction l as [|z l IH]; intros acc; cbn [fold_left]; [split; [auto|intros []]|]. destruct (IH (iset_insert eqb acc z)) as [K H]. split.
    - intros y Y. apply K. unfold iset_insert. destruct (existsb (eqb z) acc); [exact Y|]. apply in_or_app. now left.
    - intros [->|J]; [|now apply H]. unfold iset_insert in K. destruct (existsb (eqb x) acc) eqn:E.
      + apply existsb_exists in E as (y & Y & E). exists y. unfold iset_insert. replace (existsb (eqb x) acc) with true by (symmetry; apply existsb_exists; eauto). auto.
      + exists x. unfold iset_insert. rewrite E. split; [|now left]. apply K. apply in_or_app. right. now left. }
  exact (proj2 (G l []) I).
Qed.
Lemma sub_In : forall {A : Type} (a b : list A) x, sub a b -> In x a -> In x b.
Proof. intros A a b x S. induction S; cbn [In]; intuition. Qed.
Lemma option_eqb_str : forall a b, option_eqb str_eqb a b = true -> a = b.
Proof. intros [a|] [b|] H; cbn [option_eqb] in H; try discriminate; [|reflexivity]. apply str_eqb_eq in H. congruence. Qed.
Lemma named_volume_eqb : forall veqb a b, short_or_long_eqb short_volume_eqb (mount_eqb veqb) a b = true -> named_volume a = named_volume b.
Proof.
  intros veqb [a|a] [b|b] H; cbn [short_or_long_eqb] in H; try discriminate; cbn [named_volume].
  - unfold short_volume_eqb in H. apply andb_true_iff in H as [_ H]. destruct (sv_options a) as [o|], (sv_options b) as [p|]; cbn [option_eqb] in H; try discriminate; [|reflexivity].
    unfold short_options_eqb in H. apply andb_true_iff in H as [H _]. apply andb_true_iff in H as [H _]. destruct (so_source o), (so_source p); cbn [source_eqb] in H; try discriminate; [reflexivity|].
    apply str_eqb_eq in H. congruence.
  - destruct a as [a|a|a|a|a], b as [b|b|b|b|b]; try discriminate; try reflexivity. cbn [mount_eqb] in H. apply andb_true_iff in H as [H _]. apply andb_true_iff in H as [H _].
    now apply option_eqb_str.
Qed.

Lemma volumes_items : forall w v l, de (volumes_c w) v = Ok l ->
  exists xs es, v = VSeq xs /\ Forall2 (fun x e => de (short_or_long_c short_volume_c mount_c) x = Ok e) xs es /\
    l = iset_of (short_or_long_eqb short_volume_eqb (mount_eqb (w_yaml_eqb w))) es.
Proof.
  intros w v l H. destruct v; cbn [de volumes_c iset_c] in H; try discriminate. destruct (collect _ _) as [es|] eqn:C in H; cbn [map_ok] in H; [|discriminate].
  injection H as <-. exists l0, es. apply collect_ok in C. auto.
Qed.
Lemma volumes_names : forall w v l n, de (volumes_c w) v = Ok l -> (In n (named_volumes l) <-> exists x, item v x /\ mounts_volume x n).
Proof.
  intros w v l n H. apply volumes_items in H as (xs & es & -> & F & ->). rewrite named_volumes_In. split.
  - intros (e & I & N). apply (sub_In _ _ _ (iset_of_sub _ es)) in I. clear -F I N. revert I. induction F as [|x y xs es D F IH]; intros I; [destruct I|]. destruct I as [->|I].
    + exists x. split; [exists (x :: xs); split; [reflexivity|now left]|]. now apply (entry_names x e n D).
    + destruct (IH I) as (z & (k & K & J) & U). injection K as <-. exists z. split; [exists (x :: xs); split; [reflexivity|now right]|exact U].
  - intros (x & (k & K & I) & U). injection K as <-. assert (X : exists e, In e es /\ named_volume e = Some n).
    { clear -F I U. revert I. induction F as [|y e xs es D F IH]; intros I; [destruct I|]. destruct I as [->|I].
      - exists e. split; [now left|]. now apply (entry_names x e n D).
      - destruct (IH I) as (e' & J & E). exists e'. split; [now right|exact E]. }
    destruct X as (e & J & E). apply (iset_of_has (short_or_long_eqb short_volume_eqb (mount_eqb (w_yaml_eqb w)))) in J as (e' & J & Q).
    exists e'. split; [exact J|]. destruct Q as [->|Q]; [exact E|]. rewrite <- (named_volume_eqb _ _ _ Q). exact E.
Qed.
(** A name twice among the volumes comes from two items. *)
Lemma named_volumes_app : forall a b, named_volumes (a ++ b) = named_volumes a ++ named_volumes b.
Proof. induction a as [|e a IH]; intros b; cbn [app named_volumes]; [reflexivity|]. destruct (named_volume e); cbn [app]; now rewrite IH. Qed.
Lemma named_two : forall l n x y, named_volumes l = x ++ n :: y -> In n x ->
  exists a e b f c, l = a ++ e :: b ++ f :: c /\ named_volume e = Some n /\ named_volume f = Some n.
Proof.
  induction l as [|e l IH]; intros n x y E I; cbn [named_volumes] in E; [destruct x; discriminate|]. destruct (named_volume e) as [id|] eqn:N.
  - destruct x as [|z x]; [destruct I|]. cbn [app] in E. injection E as -> E. destruct I as [->|I].
    + assert (J : In n (named_volumes l)) by (rewrite E; apply in_or_app; right; now left). apply named_volumes_In in J as (f & J & Nf). apply in_split in J as (b & c & ->).
      now exists [], e, b, f, c.
    + destruct (IH n x y E I) as (a & e' & b & f & c & -> & N1 & N2). now exists (e :: a), e', b, f, c.
  - destruct (IH n x y E I) as (a & e' & b & f & c & -> & N1 & N2). now exists (e :: a), e', b, f, c.
Qed.
Lemma sub_two : forall {A : Type} (s l : list A), sub s l -> forall a e b f c, s = a ++ e :: b ++ f :: c -> exists a' b' c', l = a' ++ e :: b' ++ f :: c'.
Proof.
  assert (One : forall {A : Type} (s l : list A), sub s l -> forall f, In f s -> exists b c, l = b ++ f :: c).
  { intros A s l S f I. apply in_split. now apply (sub_In s l). }
  intros A s l S. induction S as [|x s l S IH|x s l S IH]; intros a e b f c E.
  - destruct a; discriminate.
  - destruct (IH a e b f c E) as (a' & b' & c' & ->). now exists (x :: a'), b', c'.
  - destruct a as [|y a]; cbn [app] in E; injection E as -> E.
    + destruct (One A s l S f) as (b' & c' & ->); [rewrite E; apply in_or_app; right; now left|]. now exists [], b', c'.
    + destruct (IH a e b f c E) as (a' & b' & c' & ->). now exists (y :: a'), b', c'.
Qed.
Lemma volumes_twice : forall w v l n x y, de (volumes_c w) v = Ok l -> named_volumes l = x ++ n :: y -> In n x ->
  exists a d b e c, v = VSeq (a ++ d :: b ++ e :: c) /\ mounts_volume d n /\ mounts_volume e n.
Proof.
  intros w v l n x y H E I. apply volumes_items in H as (xs & es & -> & F & ->). destruct (named_two _ n x y E I) as (a & e & b & f & c & S & N1 & N2).
  destruct (sub_two _ _ (iset_of_sub _ es) a e b f c S) as (a' & b' & c' & ->). clear S.
  apply Forall2_app_inv_r in F as (x1 & x2 & _ & F & ->). inversion F as [|d ? x3 ? D1 F3]; subst.
  apply Forall2_app_inv_r in F3 as (x4 & x5 & _ & F5 & ->). inversion F5 as [|d' ? x6 ? D2 F6]; subst.
  exists x1, d, x4, d', x6. split; [reflexivity|]. split; [now apply (entry_names d e n D1)|now apply (entry_names d' f n D2)].
Qed.

(** ** A whole service, a whole file *)

Lemma service_uses : forall w v (s : service w), de (service_c w) v = Ok s ->
  (forall n, In n (networks_of (service_view s)) <-> uses_network v n) /\
  (forall n, In n (sources (vs_configs (service_view s))) <-> uses_grant $"configs" v n) /\
  (forall n, In n (sources (vs_secrets (service_view s))) <-> uses_grant $"secrets" v n) /\
  (forall n, In n (named_volumes (vs_volumes (service_view s))) <-> uses_volume v n) /\
  (forall n x y, named_volumes (vs_volumes (service_view s)) = x ++ n :: y -> In n x -> uses_volume_twice v n).
Proof.
  intros w v s H. unfold service_c in H. destruct (struct_map _ _ _ H) as [es ->]. unfold networks_of, service_view. cbn [vs_networks vs_volumes vs_configs vs_secrets].
  split; [|split; [|split; [|split]]].
  - apply (struct_nth (service_ms w) 48 es (fun o => forall n, In n (match networks_view o with NetworkNames l => l | _ => [] end) <-> uses_network (VMap es) n) s H).
    change (forall o, m_de (network_config_m w) es = Ok o -> forall n, In n (match networks_view o with NetworkNames l => l | _ => [] end) <-> uses_network (VMap es) n).
    exact (network_config_names w es).
  - apply (struct_nth (service_ms w) 17 es (fun l => forall n, In n (sources (map grant_view l)) <-> uses_grant $"configs" (VMap es) n) s H).
    change (forall l, m_de (many $"configs" grants_c) es = Ok l -> forall n, In n (sources (map grant_view l)) <-> uses_grant $"configs" (VMap es) n).
    clear. intros l H n. apply field_from, many_from in H as [(x & P & D)|[P ->]]; unfold uses_grant.
    + rewrite (grants_names x l n D). split; [intros (y & Y); exists x, y; tauto|]. intros (x' & y & P' & Y). apply part_map in P, P'. assert (x' = x) by congruence. subst x'. eauto.
    + split; [intros []|]. intros (x & y & P' & _). now apply P in P'.
  - apply (struct_nth (service_ms w) 67 es (fun l => forall n, In n (sources (map grant_view l)) <-> uses_grant $"secrets" (VMap es) n) s H).
    change (forall l, m_de (many $"secrets" grants_c) es = Ok l -> forall n, In n (sources (map grant_view l)) <-> uses_grant $"secrets" (VMap es) n).
    clear. intros l H n. apply field_from, many_from in H as [(x & P & D)|[P ->]]; unfold uses_grant.
    + rewrite (grants_names x l n D). split; [intros (y & Y); exists x, y; tauto|]. intros (x' & y & P' & Y). apply part_map in P, P'. assert (x' = x) by congruence. subst x'. eauto.
    + split; [intros []|]. intros (x & y & P' & _). now apply P in P'.
  - apply (struct_nth (service_ms w) 80 es (fun l => forall n, In n (named_volumes l) <-> uses_volume (VMap es) n) s H).
    change (forall l, m_de (many $"volumes" (volumes_c w)) es = Ok l -> forall n, In n (named_volumes l) <-> uses_volume (VMap es) n).
    clear. intros l H n. apply field_from, many_from in H as [(x & P & D)|[P ->]]; unfold uses_volume.
    + rewrite (volumes_names w x l n D). split; [intros (y & Y); exists x, y; tauto|]. intros (x' & y & P' & Y). apply part_map in P, P'. assert (x' = x) by congruence. subst x'. eauto.
    + split; [intros []|]. intros (x & y & P' & _). now apply P in P'.
  - apply (struct_nth (service_ms w) 80 es (fun l => forall n x y, named_volumes l = x ++ n :: y -> In n x -> uses_volume_twice (VMap es) n) s H).
    change (forall l, m_de (many $"volumes" (volumes_c w)) es = Ok l -> forall n x y, named_volumes l = x ++ n :: y -> In n x -> uses_volume_twice (VMap es) n).
    clear. intros l H n x y E I. apply field_from, many_from in H as [(v & P & D)|[P ->]]; [|destruct x; discriminate].
    destruct (volumes_twice w v l n x y D E I) as (a & d & b & e & c & -> & M1 & M2). exists a, d, b, e, c. auto.
Qed.

Lemma many_keys : forall {V : Set} name (c : codec V) es m, m_de (many name (smap identifier_c c)) es = Ok m -> forall n, In n (map fst m) <-> declares (VMap es) name n.
Proof.
  intros V name c es m H n. apply field_from, many_from in H as [(x & P & D)|[P ->]]; unfold declares.
  - rewrite (smap_keys _ _ _ n D). split; [intros K; now exists x|]. intros (y & P' & K). apply part_map in P, P'. assert (y = x) by congruence. now subst y.
  - split; [intros []|]. intros (x & P' & _). now apply P in P'.
Qed.
Lemma compose_has : forall w v (c : compose w), de (compose_c w) v = Ok c ->
  (forall n s, In (n, s) (nth_val 3 (compose_ms w) (fst c)) <-> exists x, has_service v n x /\ de (service_c w) x = Ok s) /\
  (forall n, In n (vc_networks (compose_view c)) <-> declares v $"networks" n) /\
  (forall n, In n (vc_volumes (compose_view c)) <-> declares v $"volumes" n) /\
  (forall n, In n (vc_configs (compose_view c)) <-> declares v $"configs" n) /\
  (forall n, In n (vc_secrets (compose_view c)) <-> declares v $"secrets" n).
Proof.
  intros w v c H. unfold compose_c in H. destruct (struct_map _ _ _ H) as [es ->]. unfold compose_view. cbn [vc_networks vc_volumes vc_configs vc_secrets].
  split; [|split; [|split; [|split]]].
  - apply (struct_nth (compose_ms w) 3 es (fun l => forall n s, In (n, s) l <-> exists x, has_service (VMap es) n x /\ de (service_c w) x = Ok s) c H).
    change (forall l, m_de (required $"services" (smap identifier_c (service_c w))) es = Ok l ->
      forall n s, In (n, s) l <-> exists x, has_service (VMap es) n x /\ de (service_c w) x = Ok s).
    clear. intros l H n s. apply field_from in H as [(x & V & D)|[_ D]]; [|discriminate]. rewrite (smap_last _ _ _ n s D). unfold has_service. split.
    + intros (y & L & Y). exists y. split; [|exact Y]. exists x. split; [now apply part_map|exact L].
    + intros (y & (x' & P & L) & Y). apply part_map in P. assert (x' = x) by congruence. subst x'. now exists y.
  - apply (struct_nth (compose_ms w) 4 es (fun m => forall n, In n (map fst m) <-> declares (VMap es) $"networks" n) c H). exact (many_keys $"networks" _ es).
  - apply (struct_nth (compose_ms w) 5 es (fun m => forall n, In n (map fst m) <-> declares (VMap es) $"volumes" n) c H). exact (many_keys $"volumes" _ es).
  - apply (struct_nth (compose_ms w) 6 es (fun m => forall n, In n (map fst m) <-> declares (VMap es) $"configs" n) c H). exact (many_keys $"configs" _ es).
  - apply (struct_nth (compose_ms w) 7 es (fun m => forall n, In n (map fst m) <-> declares (VMap es) $"secrets" n) c H). exact (many_keys $"secrets" _ es).
Qed.
