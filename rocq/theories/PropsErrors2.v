(** C73, continued: volumes, caches, ssh, names inside longer texts and CPU sets. *)

From Coq Require Import String Ascii List NArith ZArith Bool Lia ZifyBool ZifyN ZifyNat.
Import ListNotations.
From Verif Require Import Base BaseFacts Num NumFacts Regex RegexFacts KeysModel KeysSpec KeysProofs ImageModel ImageSpec ImageLang ImageProofs
  UserModel UserProofs BytesModel BytesProofs DeviceModel DeviceProofs PathModel NetModel PortsModel VolumesModel BuildModel TextModel CpuSetModel CpuSetProofs IpModel IpSpec PortsSpec PortsProofs PropsPortText HealthProofs PathProofs VolumesProofs Coll CollFacts BuildProofs ErrorSpec ErrorFacts PropsErrors.
Open Scope N_scope.

(** ** Volumes *)

Lemma source_errors : forall s e, source_parse s = Err e <-> source_fails s e.
Proof.
  intros s e. unfold source_parse, source_fails.
  assert (ST : starts_with $"." s || is_absolute s = true <-> exists r, s = $"." ++ r \/ s = $"/" ++ r).
  { rewrite orb_true_iff, starts_with_iff, is_absolute_iff. split; [intros [[r H]|[r H]]; [exists r; now left|exists r; now right]|intros [r [H|H]]; [left|right]; exists r; exact H]. }
  destruct (starts_with $"." s || is_absolute s) eqn:Q.
  - pose proof (proj1 ST eq_refl) as (r & R). rewrite map_err_err. split.
    + intros ([] & H & ->). rewrite map_ok_err in H. left. assert (NT : ~ host_path_text s). { intros X. assert (Y : host_path_new s = Ok s) by (apply host_path_new_ok; auto). congruence. }
      destruct R as [R|R]; [|exfalso; apply NT; right; right; exists r; auto]. split; [eauto|]. split; [intros X; apply NT; now left|]. split; [intros X; apply NT; right; now left|]. split; [|reflexivity].
      intros t. split; intros X; apply NT; right; right; exists t; auto.
    + intros [([t T] & A & B & C & ->)|[X _]]; [|exfalso; destruct (X r); tauto]. exists HostPathError. split; [|reflexivity]. rewrite map_ok_err. destruct (host_path_new s) as [q|[]] eqn:H; [|reflexivity]. exfalso.
      apply host_path_new_ok in H as [_ [H|[H|[u [H|[H|H]]]]]]; [now apply A|now apply B| |exact (proj1 (C u) H)|exact (proj2 (C u) H)]. rewrite H in T. discriminate.
  - assert (NS : forall r, s <> $"." ++ r /\ s <> $"/" ++ r). { intros r. split; intros X; assert (Y : false = true) by (apply ST; eauto); discriminate. }
    rewrite map_err_err. setoid_rewrite map_ok_err. setoid_rewrite key_errors. split.
    + intros (k & K & ->). right. split; [exact NS|eauto].
    + intros [([r R] & _)|[_ (k & K & ->)]]; [now elim (proj1 (NS r))|eauto].
Qed.
Lemma source_oks : forall s, (exists x, source_parse s = Ok x) <-> source_reads s.
Proof.
  intros s. unfold source_reads. split.
  - intros [x H]. apply source_parse_ok in H as [-> V]. destruct x as [p|id]; cbn [source_show source_valid] in *; [|auto]. destruct V as [V|[V|V]]; auto.
  - intros H. assert (V : host_path_text s \/ matches IDENTIFIER_RE s) by (unfold host_path_text; tauto). destruct V as [V|V]; [exists (HostPath s)|exists (NamedVolume s)]; apply source_parse_ok; auto.
Qed.
Lemma options_ok_iff : forall l, options_ok l <-> exists st, options_meaning l st.
Proof.
  intros l. unfold options_ok, options_meaning, opposite. split.
  - intros (N & F & O). assert (O1 : In $"rw" l -> ~ In $"ro" l) by (apply O; cbn; auto). assert (O2 : In $"z" l -> ~ In $"Z" l) by (apply O; cbn; auto).
    exists (if in_dec str_eq_dec $"rw" l then Some false else if in_dec str_eq_dec $"ro" l then Some true else None,
            if in_dec str_eq_dec $"z" l then Some Shared else if in_dec str_eq_dec $"Z" l then Some Private else None). cbn [fst snd]. split; [exact N|]. split; [now apply Forall_forall|].
    destruct (in_dec str_eq_dec $"rw" l), (in_dec str_eq_dec $"ro" l), (in_dec str_eq_dec $"z" l), (in_dec str_eq_dec $"Z" l); intuition congruence.
  - intros ([r s] & N & F & A & B & C & D). cbn [fst snd] in *. split; [exact N|]. split; [now apply Forall_forall|].
    intros o p I Ho Hp. cbn [In] in I. destruct I as [I|[I|[I|[I|[]]]]]; injection I as <- <-.
    + apply A in Ho. apply B in Hp. congruence.
    + apply B in Ho. apply A in Hp. congruence.
    + apply C in Ho. apply D in Hp. congruence.
    + apply D in Ho. apply C in Hp. congruence.
Qed.
Definition option_fails (a : list str) (o : str) (e : short_volume_error) : Prop :=
  (~ In o [$"rw"; $"ro"; $"z"; $"Z"] /\ e = SvUnknownOption o) \/ (In o a /\ e = SvDuplicateOption o) \/
  (exists p, opposite o p /\ In p a /\ (In o [$"rw"; $"ro"] /\ e = SvReadWriteAndReadOnly \/ In o [$"z"; $"Z"] /\ e = SvSELinuxSharedAndPrivate)).
Lemma volume_option_errors : forall seen st o e, options_meaning seen st -> (volume_option st o = Err e <-> option_fails seen o e).
Proof.
  intros seen [r s] o e (_ & F & A & B & C & D). cbn [fst snd] in *. unfold volume_option, option_fails, opposite.
  assert (N1 : $"rw" <> $"z" /\ $"rw" <> $"Z" /\ $"ro" <> $"z" /\ $"ro" <> $"Z" /\ $"rw" <> $"ro" /\ $"z" <> $"Z") by (repeat split; discriminate). destruct N1 as (N1 & N2 & N3 & N4 & N5 & N6).
  assert (P : forall x y (q : Prop), (exists p, In (x, p) [($"rw", $"ro"); ($"ro", $"rw"); ($"z", $"Z"); ($"Z", $"z")] /\ In p seen /\ q) <->
    ((x = $"rw" /\ In $"ro" seen \/ x = $"ro" /\ In $"rw" seen \/ x = $"z" /\ In $"Z" seen \/ x = $"Z" /\ In $"z" seen) /\ q) \/ (y : bool) <> y).
  { intros x y q. split.
    - intros (p & I & J & K). cbn [In] in I. destruct I as [I|[I|[I|[I|[]]]]]; injection I as <- <-; left; split; auto 6.
    - intros [[H K]|H]; [|now elim H]. destruct H as [[-> H]|[[-> H]|[[-> H]|[-> H]]]]; [exists $"ro"|exists $"rw"|exists $"Z"|exists $"z"]; cbn [In]; auto 8. }
  rewrite (P o true). clear P. cbn [In].
  destruct (str_eqb_spec o $"rw") as [->|O1]; [|destruct (str_eqb_spec o $"ro") as [->|O2]; [|destruct (str_eqb_spec o $"z") as [->|O3]; [|destruct (str_eqb_spec o $"Z") as [->|O4]]]].
  - destruct r as [[|]|]; split; intros H; try (injection H as <-); intuition congruence.
  - destruct r as [[|]|]; split; intros H; try (injection H as <-); intuition congruence.
  - destruct s as [[|]|]; split; intros H; try (injection H as <-); intuition congruence.
  - destruct s as [[|]|]; split; intros H; try (injection H as <-); intuition congruence.
  - assert (NI : ~ In o seen). { intros I. rewrite Forall_forall in F. apply F in I. cbn [In] in I. intuition congruence. } split; [intros H; injection H as <-; left; split; [intuition congruence|reflexivity]|intuition congruence].
Qed.
Lemma volume_options_errors : forall os seen st e, options_meaning seen st ->
  (volume_options_loop st os = Err e <-> exists a o b, os = a ++ o :: b /\ options_ok (seen ++ a) /\ option_fails (seen ++ a) o e).
Proof.
  induction os as [|x os IH]; intros seen st e M; cbn [volume_options_loop].
  - split; [discriminate|]. intros (a & o & b & E & _). destruct a; discriminate.
  - rewrite bind_err, (volume_option_errors seen st x e M). split.
    + intros [H|(st' & S & H)].
      * exists [], x, os. rewrite app_nil_r. repeat split; [apply (proj2 (options_ok_iff seen)); eauto..|exact H].
      * pose proof (volume_option_step _ _ _ _ M S) as M'. apply (IH _ _ _ M') in H as (a & o & b & -> & O & F). exists (x :: a), o, b. rewrite <- app_assoc in O, F. auto.
    + intros (a & o & b & E & O & F). destruct a as [|y a].
      * injection E as <- <-. rewrite app_nil_r in F. now left.
      * injection E as <- ->. destruct (volume_option st x) as [st'|e'] eqn:S.
        -- right. exists st'. split; [reflexivity|]. pose proof (volume_option_step _ _ _ _ M S) as M'. apply (IH _ _ _ M'). exists a, o, b. rewrite <- app_assoc. auto.
        -- exfalso. apply options_ok_iff in O as [st' O]. exact (volume_option_err _ _ _ _ _ _ M S O).
Qed.
Theorem short_volume_errors : forall s e, short_volume_parse s = Err e <-> short_volume_fails s e.
Proof.
  intros s e. unfold short_volume_parse, short_volume_fails.
  assert (C : forall c e', parse_container_path c = Err e' <-> ~ (exists p, c = $"/" ++ p) /\ e' = SvAbsoluteContainerPath c).
  { intros c e'. unfold parse_container_path. rewrite map_err_err. destruct (absolute_path_cases c) as [[A X]|[A X]]; rewrite A; split.
    - intros (? & H & _). discriminate.
    - intros [N _]. contradiction.
    - intros (? & _ & ->). auto.
    - intros [_ ->]. eauto. }
  assert (K : forall c, (exists p, c = $"/" ++ p) -> parse_container_path c = Ok c).
  { intros c [p X]. apply parse_container_path_ok. split; [reflexivity|]. apply is_absolute_iff. exists p. exact X. }
  assert (K' : forall c q, parse_container_path c = Ok q -> exists p, c = $"/" ++ p) by (intros c q H; apply parse_container_path_ok in H as [_ H]; now apply is_absolute_iff in H).
  assert (O : forall l, volume_options_loop (None, None) l = Err e <-> options_fail l e).
  { intros l. rewrite (volume_options_errors l [] (None, None) e); [reflexivity|]. unfold options_meaning. cbn. split; [constructor|]. split; [constructor|]. intuition discriminate. }
  destruct (splitn3 (ch ":") s) as [[N ->]|[(src & c & -> & N & N' & ->)|(src & c & o & -> & N & N' & ->)]].
  - rewrite bind_err, C. split; [intros [[A ->]|(x & _ & X)]; [auto|discriminate]|]. intros [(_ & A & ->)|(src & r & -> & _)]; [auto|]. now apply not_cut with (a := src) (b := r) in N.
  - split.
    + intros H. right. exists src, c. split; [reflexivity|]. split; [exact N|]. apply bind_err in H as [H|(x & X & H)].
      * left. apply map_err_err in H as (i & H & ->). exists i. split; [now apply source_errors|reflexivity].
      * right. split; [apply source_oks; destruct (source_parse src); [eauto|discriminate]|]. exists c, None. split; [auto|]. split; [exact N'|]. left. apply bind_err in H as [H|(y & _ & H)]; [now apply C|discriminate].
    + intros [(X & _)|(src' & r & E & M & H)]; [elim X; apply in_app_iff; right; now left|]. destruct (cut_fun _ _ _ _ _ E N M) as [<- <-]. apply bind_err. destruct H as [(i & F & ->)|(R & c' & o & E' & M' & H)].
      * left. apply source_errors in F. now rewrite F.
      * right. apply source_oks in R as [x R]. exists x. rewrite R. split; [reflexivity|]. apply bind_err. destruct E' as [[<- ->]|(t & -> & ->)]; [|elim N'; rewrite in_app_iff; right; apply in_eq].
        destruct H as [H|(_ & t & l & Q & _)]; [left; now apply C|discriminate].
  - split.
    + intros H. right. exists src, (c ++ ch ":" :: o). split; [reflexivity|]. split; [exact N|]. apply bind_err in H as [H|(x & X & H)].
      * left. apply map_err_err in H as (i & H & ->). exists i. split; [now apply source_errors|reflexivity].
      * right. split; [apply source_oks; destruct (source_parse src); [eauto|discriminate]|]. exists c, (Some o). split; [right; exists o; auto|]. split; [exact N'|]. apply bind_err in H as [H|(y & Y & H)]; [left; now apply C|right].
        split; [now apply K' in Y|]. exists o, (split (ch ",") o). split; [reflexivity|]. split; [symmetry; apply split_join|]. split; [apply split_nonempty|]. split; [apply split_pieces|].
        apply bind_err in H as [H|(z & _ & H)]; [now apply O|discriminate].
    + intros [(X & _)|(src' & r & E & M & H)]; [elim X; apply in_app_iff; right; now left|]. destruct (cut_fun _ _ _ _ _ E N M) as [<- <-]. apply bind_err. destruct H as [(i & F & ->)|(R & c' & o' & E' & M' & H)].
      * left. apply source_errors in F. now rewrite F.
      * right. apply source_oks in R as [x R]. exists x. rewrite R. split; [reflexivity|]. apply bind_err. destruct E' as [[<- ->]|(t & E' & ->)]; [elim M'; rewrite in_app_iff; right; apply in_eq|].
        destruct (cut_fun _ _ _ _ _ E' N' M') as [<- <-]. destruct H as [H|(A & t & l & Q & -> & NE & P & F)]; [left; now apply C|]. right. exists c. split; [now apply K|]. apply bind_err. left. injection Q as ->.
        change ($",") with [ch ","]. rewrite split_of_join by assumption. now apply O.
Qed.
Print Assumptions short_volume_errors.
Example short_volume_errors_used : short_volume_parse $"a" = Err (SvAbsoluteContainerPath $"a") /\ short_volume_parse $".a:b" = Err (SvSource (SrcHostPath HostPathError)) /\ short_volume_parse $"a:/b:z,ro,Z,rw" = Err SvSELinuxSharedAndPrivate /\
  short_volume_parse $"a:/b:ro,ro" = Err (SvDuplicateOption $"ro") /\ short_volume_parse $"a:/b:" = Err (SvUnknownOption []).
Proof. repeat split. Qed.

(** ** Caches and ssh *)

Lemma cache_option_oks : forall s, (exists x, cache_option_new s = Ok x) <-> cache_option_reads s.
Proof.
  intros s. unfold cache_option_reads. rewrite Forall_forall. split; [intros [x H]; now apply cache_option_new_ok in H|intros H; exists s; now apply cache_option_new_ok].
Qed.
Lemma entry_cut : forall s, exists k v, cache_entry_cut s k v /\ match split_once (ch "=") s with Some p => p | None => (s, []) end = (k, v) /\ forall k' v', cache_entry_cut s k' v' -> k' = k /\ v' = v.
Proof.
  intros s. destruct (cut1 (ch "=") s) as [k v] eqn:C. exists k, v. pose proof (proj1 (cut1_iff _ _ _ _) C) as [E N]. split; [split; [exact N|destruct E as [E|E]; auto]|]. split; [exact C|].
  intros k' v' [N' E']. assert (C' : cut1 (ch "=") s = (k', v')) by (apply cut1_iff; split; [destruct E' as [E'|E']; auto|exact N']). rewrite C in C'. injection C' as -> ->. auto.
Qed.
Lemma cache_entry_errors : forall s e, cache_option_parse s = Err e <-> cache_entry_fails s e.
Proof.
  intros s e. unfold cache_option_parse, cache_entry_fails. destruct (entry_cut s) as (k & v & C & -> & U). rewrite bind_err, map_err_err. split.
  - intros H. exists k, v. split; [exact C|]. destruct H as [(i & H & ->)|(x & X & H)].
    + exists i. apply cache_option_errors in H. auto.
    + apply bind_err in H as [H|(y & _ & H)]; [|discriminate]. apply map_err_err in H as (i & H & ->). exists i. apply cache_option_errors in H. split; [|reflexivity]. right. split; [|exact H]. apply cache_option_oks. destruct (cache_option_new k); [eauto|discriminate].
  - intros (k' & v' & C' & i & H & ->). destruct (U _ _ C') as [-> ->]. destruct H as [H|[R H]]; apply cache_option_errors in H; [left; eauto|right]. apply cache_option_oks in R as [x R]. exists x. rewrite R. split; [reflexivity|]. now rewrite H.
Qed.
Lemma cache_entry_oks : forall s, (exists x, cache_option_parse s = Ok x) <-> cache_entry_reads s.
Proof.
  intros s. unfold cache_option_parse, cache_entry_reads. destruct (entry_cut s) as (k & v & C & -> & U). split.
  - intros [x H]. exists k, v. split; [exact C|]. apply bind_ok in H as (y & Y & H). apply bind_ok in H as (z & Z & _). split; apply cache_option_oks; [destruct (cache_option_new k)|destruct (cache_option_new v)]; eauto; discriminate.
  - intros (k' & v' & C' & K & V). destruct (U _ _ C') as [-> ->]. apply cache_option_oks in K as [x K]. apply cache_option_oks in V as [y V]. rewrite K, V. cbn. eauto.
Qed.
Lemma options_ref : forall l kvs, collect cache_option_parse l = Ok kvs ->
  (imap_get str_eqb (rev kvs) $"ref" = None -> ~ exists v, In ($"ref=" ++ v) l) /\
  (forall v, imap_get str_eqb (rev kvs) $"ref" = Some v -> exists a b, l = a ++ ($"ref=" ++ v) :: b /\ ~ exists v', In ($"ref=" ++ v') b).
Proof.
  intros l kvs H. apply collect_ok in H. assert (R : forall o k v, cache_option_parse o = Ok (k, v) -> (k = $"ref" <-> o = $"ref=" ++ v) /\ forall w, o = $"ref=" ++ w -> k = $"ref").
  { intros o k v P. apply option_parse_ok in P as (-> & _ & _ & N). unfold option_text. cbn [fst snd]. assert (W : forall w, k ++ $"=" ++ v = $"ref=" ++ w -> k = $"ref").
    { intros w E. destruct (cut_fun (ch "=") k v $"ref" w) as [-> _]; [exact E|exact N|cbn; intuition discriminate|reflexivity]. }
    split; [|exact W]. split; [intros ->; reflexivity|apply W]. }
  revert kvs H. induction l as [|o l IH] using rev_ind; intros kvs H.
  - inversion H; subst. cbn. split; [intros _ (v & [])|discriminate].
  - apply Forall2_app_inv_l in H as (k1 & k2 & H1 & H2 & ->). inversion H2 as [|? [k v] ? ? P H3]; subst. inversion H3; subst. rewrite rev_unit. cbn [imap_get]. destruct (IH k1 H1) as [I1 I2]. destruct (R _ _ _ P) as [R1 R2].
    destruct (str_eqb_spec $"ref" k) as [<-|NK].
    + split; [discriminate|]. intros w E. injection E as <-. exists l, []. rewrite (proj1 R1 eq_refl). split; [reflexivity|]. intros (v' & []).
    + split.
      * intros E (w & I). apply in_app_iff in I as [I|[I|[]]]; [apply I1; eauto|]. apply R2 in I. congruence.
      * intros w E. apply I2 in E as (a & b & -> & N). exists a, (b ++ [o]). rewrite <- app_assoc. split; [reflexivity|]. intros (v' & I). apply in_app_iff in I as [I|[I|[]]]; [apply N; eauto|]. apply R2 in I. congruence.
Qed.
Theorem cache_errors : forall s e, cache_parse s = Err e <-> cache_fails s e.
Proof.
  intros s e. unfold cache_parse, cache_fails. destruct (contains (ch ",") s) eqn:C.
  - apply contains_In in C. unfold cache_parse_str. destruct (split (ch ",") s) as [|first l] eqn:SP; [now apply split_nonempty in SP|]. pose proof (proj1 (split_iff _ _ _) SP) as (_ & P & J).
    assert (NE : l <> []). { intros ->. cbn in J. subst s. inversion P; subst. contradiction. }
    transitivity ((~ (exists t, first = $"type=" ++ t) /\ e = CeTypeFirst) \/
      (exists t, first = $"type=" ++ t /\
         (first_failing cache_entry_reads cache_entry_fails l e \/
          (Forall cache_entry_reads l /\
             ((t = $"registry" /\ ~ (exists v, In ($"ref=" ++ v) l) /\ e = CeMissingRef) \/
              (t = $"registry" /\ (exists a v b i, l = a ++ ($"ref=" ++ v) :: b /\ ~ (exists v', In ($"ref=" ++ v') b) /\ image_fails v i /\ e = CeImage i)) \/
              (t <> $"registry" /\ exists i, cache_option_fails t i /\ e = CeOption i)))))).
    + destruct (strip_prefix $"type=" first) as [t|] eqn:T; cbn [bind].
      * apply strip_prefix_some in T. subst first. 
        transitivity (first_failing cache_entry_reads cache_entry_fails l e \/
          (Forall cache_entry_reads l /\
             ((t = $"registry" /\ ~ (exists v, In ($"ref=" ++ v) l) /\ e = CeMissingRef) \/
              (t = $"registry" /\ (exists a v b i, l = a ++ ($"ref=" ++ v) :: b /\ ~ (exists v', In ($"ref=" ++ v') b) /\ image_fails v i /\ e = CeImage i)) \/
              (t <> $"registry" /\ exists i, cache_option_fails t i /\ e = CeOption i)))).
        2: { split; [intros H; right; exists t; auto|]. intros [[N _]|(t' & E & H)]; [elim N; eauto|]. apply app_inv_head in E as <-. exact H. }
        assert (FF : collect cache_option_parse l = Err e <-> first_failing cache_entry_reads cache_entry_fails l e) by (rewrite collect_err; apply failing_iff; [apply cache_entry_oks|apply cache_entry_errors]).
        assert (FO : (exists kvs, collect cache_option_parse l = Ok kvs) -> Forall cache_entry_reads l).
        { intros [kvs H]. apply collect_ok in H. apply Forall_forall. intros x I. clear - H I. induction H as [|y z l kvs H _ IH]; [destruct I|]. destruct I as [<-|I]; [apply cache_entry_oks; eauto|auto]. }
        assert (FN : Forall cache_entry_reads l -> exists kvs, collect cache_option_parse l = Ok kvs).
        { intros F. destruct (collect cache_option_parse l) as [kvs|e'] eqn:Q; [eauto|]. exfalso. apply collect_err in Q as (a & x & b & -> & _ & X). rewrite Forall_app in F. destruct F as [_ F]. inversion F as [|? ? Y _]; subst. apply cache_entry_oks in Y as [y Y]. congruence. }
        destruct (collect cache_option_parse l) as [kvs|e'] eqn:Q; cbn [bind].
        -- destruct (options_ref _ _ Q) as [R1 R2]. assert (FA : Forall cache_entry_reads l) by (apply FO; eauto). assert (NF : ~ first_failing cache_entry_reads cache_entry_fails l e) by (rewrite <- FF; discriminate).
           assert (UN : forall a v b a' v' b', l = a ++ ($"ref=" ++ v) :: b -> ~ (exists w, In ($"ref=" ++ w) b) -> l = a' ++ ($"ref=" ++ v') :: b' -> ~ (exists w, In ($"ref=" ++ w) b') -> v = v').
           { clear. intros a v b a' v' b' E N E' N'. subst l. revert a' E'. induction a as [|x a IH]; intros [|x' a'] E'; cbn [app] in E'.
             - assert (E2 : $"ref=" ++ v = $"ref=" ++ v') by congruence. now apply app_inv_head in E2.
             - assert (b = a' ++ ($"ref=" ++ v') :: b') as -> by congruence. elim N. exists v'. apply in_app_iff. right. now left.
             - assert (b' = a ++ ($"ref=" ++ v) :: b) as -> by congruence. elim N'. exists v. apply in_app_iff. right. now left.
             - apply (IH a'). congruence. }
           destruct (str_eqb_spec t $"registry") as [->|NT].
           ++ rewrite (shift_remove_eq (imap_of str_eqb kvs) $"ref") by (apply (imap_of_NoDup str_eqb str_eqb_eq)). rewrite (imap_of_get str_eqb str_eqb_eq). destruct (imap_get str_eqb (rev kvs) $"ref") as [v|].
              ** destruct (R2 v eq_refl) as (a & b & E & N). rewrite bind_err, map_err_err. setoid_rewrite image_errors. split.
                 --- intros [(i & I & ->)|(x & _ & X)]; [|discriminate]. right. split; [exact FA|]. right. left. split; [reflexivity|]. exists a, v, b, i. auto.
                 --- intros [X|[_ [(_ & X & _)|[(_ & a' & v' & b' & i & E' & N' & I & ->)|(X & _)]]]]; [contradiction| | |contradiction].
                     +++ elim X. exists v. rewrite E. apply in_app_iff. right. now left.
                     +++ rewrite (UN _ _ _ _ _ _ E N E' N'). left. eauto.
              ** specialize (R1 eq_refl). split.
                 --- intros H. injection H as <-. right. split; [exact FA|]. left. auto.
                 --- intros [X|[_ [(_ & _ & ->)|[(_ & a' & v' & b' & i & E' & _)|(X & _)]]]]; [contradiction|reflexivity| |contradiction]. elim R1. exists v'. rewrite E'. apply in_app_iff. right. now left.
           ++ rewrite bind_err, map_err_err. setoid_rewrite cache_option_errors. split.
              ** intros [(i & I & ->)|(x & _ & X)]; [|discriminate]. right. split; [exact FA|]. right. right. eauto.
              ** intros [X|[_ [(X & _)|[(X & _)|(_ & X)]]]]; [contradiction..|now left].
        -- split; [intros H; left; apply FF; now injection H as ->|]. intros [H|[F _]]; [apply FF in H; now injection H as ->|]. apply FN in F as [kvs F]. discriminate.
      * pose proof (proj1 (strip_prefix_none _ _) T) as T'. split; [intros H; injection H as <-; left; split; [intros [t E]; now apply (T' t)|reflexivity]|]. intros [[_ ->]|(t & E & _)]; [reflexivity|now apply T' in E].
    + split; [intros H; right; exists first, l; repeat split; [now symmetry|exact NE|exact P|exact H]|]. intros [[N _]|(f' & l' & E & _ & P' & H)]; [contradiction|].
      assert (Q : split (ch ",") s = f' :: l') by (apply split_iff; repeat split; [discriminate|exact P'|now symmetry]). rewrite SP in Q. injection Q as <- <-. exact H.
  - apply contains_not_In in C. rewrite map_ok_err, map_err_err. setoid_rewrite image_errors. split; [eauto|]. intros [[_ H]|(first & l & -> & NE & _)]; [exact H|]. elim C. destruct l as [|y l]; [now elim NE|].
    change (join $"," (first :: y :: l)) with (first ++ $"," ++ join $"," (y :: l)). rewrite !in_app_iff. right. left. apply in_eq.
Qed.
Print Assumptions cache_errors.
Theorem ssh_auth_errors : forall s e, ssh_auth_parse s = Err e <-> ssh_auth_fails s e.
Proof.
  intros s e. unfold ssh_auth_parse, ssh_auth_fails. destruct (str_eqb_spec s $"default") as [->|N]; [split; [discriminate|intros [N _]; now elim N]|]. rewrite map_ok_err. unfold ssh_id_parse.
  destruct (split_once_case (ch "=") s) as [[M ->]|(i & p & -> & M & ->)].
  - split; [intros H; injection H as <-; auto|]. intros (_ & [[_ ->]|(i & p & -> & _)]); [reflexivity|]. now apply not_cut with (a := i) (b := p) in M.
  - split.
    + intros H. split; [exact N|]. right. exists i, p. split; [reflexivity|]. split; [exact M|]. unfold ssh_id_new in H. destruct i; [injection H as <-; auto|]. destruct p; [injection H as <-; right; repeat split; discriminate|discriminate].
    + intros (_ & [[X _]|(i' & p' & E & M' & H)]); [elim X; apply in_app_iff; right; now left|]. destruct (cut_fun _ _ _ _ _ E M M') as [<- <-]. destruct H as [[-> ->]|(NI & -> & ->)]; [reflexivity|]. destruct i; [now elim NI|reflexivity].
Qed.
Print Assumptions ssh_auth_errors.
Example cache_errors_used : cache_parse $"user/App" = Err (CeImage (IEName (NECharacter (ch "A")))) /\ cache_parse $"a,b" = Err CeTypeFirst /\ cache_parse $"type=x y,a=" = Err (CeOption CacheOptionEmpty) /\
  cache_parse $"type=registry,mode=max" = Err CeMissingRef /\ cache_parse $"type=registry,ref=a,ref=B" = Err (CeImage (IEName (NECharacter (ch "B")))) /\ ssh_auth_parse $"a=" = Err MissingPath /\ ssh_auth_parse $"=" = Err EmptyId.
Proof. repeat split. Qed.

(** ** Ports with an address *)

Lemma address_oks : forall a, (exists ip, ip_parse (strip_brackets a) = Some ip) <-> address_reads a.
Proof. intros a. unfold address_reads. split; [intros (ip & H); apply brackets_iff in H as (t & H & I); eauto|intros (t & ip & H & I); exists ip; apply brackets_iff; eauto]. Qed.
Lemma rsplit_two_fun : forall a h c a' h' c', a ++ $":" ++ h ++ $":" ++ c = a' ++ $":" ++ h' ++ $":" ++ c' -> ~ In (ch ":") h -> ~ In (ch ":") c -> ~ In (ch ":") h' -> ~ In (ch ":") c' -> a = a' /\ h = h' /\ c = c'.
Proof.
  intros a h c a' h' c' E H C H' C'. pose proof (rsplit_two a h c H C) as X. pose proof (rsplit_two a' h' c' H' C') as Y. change (a ++ 58 :: h ++ 58 :: c) with (a ++ $":" ++ h ++ $":" ++ c) in X. change (a' ++ 58 :: h' ++ 58 :: c') with (a' ++ $":" ++ h' ++ $":" ++ c') in Y.
  rewrite E, Y in X. injection X as <- X. split; [reflexivity|]. symmetry in X. destruct (cut_fun (ch ":") _ _ _ _ X H H') as [-> ->]. auto.
Qed.
Lemma slash_fun : forall s b b', before_slash s b -> before_slash s b' -> b = b'.
Proof.
  intros s b b' (N & E) (N' & E'). destruct E as [->|(p & ->)], E' as [E'|(p' & E')]; [exact E'| | |].
  - subst b. elim N. rewrite in_app_iff. right. apply in_eq.
  - subst b'. elim N'. rewrite in_app_iff. right. apply in_eq.
  - now destruct (cut_fun (ch "/") _ _ _ _ E' N N').
Qed.
Lemma slash_case : forall s, exists b pr, before_slash s b /\ match split_once (ch "/") s with Some (s, p) => (s, Some (protocol_parse p)) | None => (s, None) end = (b, pr).
Proof.
  intros s. destruct (split_once_case (ch "/") s) as [[M ->]|(i & p & -> & M & ->)]; do 2 eexists; (split; [|reflexivity]); (split; [assumption|]); [now left|right; exists p; reflexivity].
Qed.
Lemma size_count : forall checks r n, range_u16 r -> (range_size checks r = Ret n <-> size_counted checks r n).
Proof.
  intros checks [a [e|]] n [H1 H2]; cbn [r_start r_end] in *; unfold range_size, size_counted, width; cbn [r_start r_end].
  - unfold u16_sub, u16_add. change U16_MAX with 65535 in *. destruct (N.leb_spec a e) as [L|L].
    + cbn [pbind]. destruct (N.leb_spec (e - a + 1) 65535) as [M|M].
      * destruct checks; [|rewrite Z.mod_small by lia]; (split; [intros H; injection H as <-; lia|intros H; f_equal; lia]).
      * assert (e - a + 1 = 65536) by lia. destruct checks; [split; [discriminate|lia]|]. replace (Z.of_N e - Z.of_N a + 1)%Z with 65536%Z by lia. rewrite H. change (65536 mod 65536) with 0. change (65536 mod 65536)%Z with 0%Z. split; [intros X; injection X as <-; reflexivity|intros X; f_equal; lia].
    + destruct checks; cbn [pbind]; [split; [discriminate|lia]|]. rewrite N.mod_small by lia. replace (Z.of_N e - Z.of_N a + 1)%Z with (Z.of_N (e + 65536 - a + 1) + (-1) * 65536)%Z by lia. rewrite Z_mod_plus_full.
      destruct (N.leb_spec (e + 65536 - a + 1) 65535) as [M|M].
      * rewrite Z.mod_small by lia. split; [intros H; injection H as <-; lia|intros H; f_equal; lia].
      * replace (e + 65536 - a + 1) with 65536 by lia. change (65536 mod 65536) with 0. change (Z.of_N 65536 mod 65536)%Z with 0%Z. split; [intros X; injection X as <-; reflexivity|intros X; f_equal; lia].
  - destruct checks; (split; [intros H; injection H as <-; cbn; lia|intros H; f_equal; cbn in H; lia]).
Qed.
Lemma range_text_u16 : forall s r, range_text s r -> range_u16 r.
Proof. intros s r H. apply range_text_iff in H. eapply range_parse_u16; exact H. Qed.
Theorem short_ranges_sizes : forall checks s m n, short_ranges_parse checks s = OErr (SRShortRanges (m, n)) <-> sizes_differ checks s m n.
Proof.
  intros checks s m n. unfold short_ranges_parse, sizes_differ. assert (NC : forall s r, range_text s r -> ~ In (ch ":") s) by (intros s' r X; apply (range_text_not s' r _ X); [reflexivity|discriminate|discriminate]).
  destruct (split_once_case (ch ":") s) as [[M ->]|(h & c & -> & M & ->)].
  - split; [destruct (range_parse s); discriminate|]. intros (h & c & rh & rc & -> & _). elim M. rewrite in_app_iff. right. apply in_eq.
  - transitivity (exists rh rc, range_text h rh /\ range_text c rc /\ size_counted checks rh m /\ size_counted checks rc n /\ m <> n).
    2: { split; [intros (rh & rc & H); exists h, c, rh, rc; auto|]. intros (h' & c' & rh & rc & E & Hh & H). destruct (cut_fun (ch ":") _ _ _ _ E M (NC _ _ Hh)) as [-> ->]. exists rh, rc. auto. }
    destruct h as [|h0 h]; cbn [obind].
    + split; [destruct (range_parse c); discriminate|]. intros (rh & rc & Hh & _). now apply range_text_nonempty in Hh.
    + remember (h0 :: h) as k eqn:Ek. clear Ek h0 h. destruct (range_parse k) as [rh|e] eqn:Eh; cbn [map_ok map_err lift obind].
      2: { split; [discriminate|]. intros (rh & rc & Hh & _). apply range_text_iff in Hh. congruence. }
      destruct (range_parse c) as [rc|e] eqn:Ec; cbn [map_ok map_err lift obind].
      2: { split; [discriminate|]. intros (rh' & rc & _ & Hc & _). apply range_text_iff in Hc. congruence. }
      pose proof (range_parse_u16 _ _ Eh) as Uh. pose proof (range_parse_u16 _ _ Ec) as Uc. split.
      * intros H. exists rh, rc. split; [now apply range_text_iff|]. split; [now apply range_text_iff|]. unfold short_ranges_new, range_size_eq in H. rewrite <- !size_count by assumption.
        destruct (range_size checks rh) as [x|]; [|discriminate]. destruct (range_size checks rc) as [y|]; [|discriminate]. destruct (N.eqb_spec x y) as [Z|Z]; cbn [obind] in H; [discriminate|]. injection H as <- <-. auto.
      * intros (rh' & rc' & Hh & Hc & Sh & Sc & D). apply range_text_iff in Hh, Hc. replace rh' with rh in * by congruence. replace rc' with rc in * by congruence. apply size_count in Sh, Sc; try assumption.
        unfold short_ranges_new, range_size_eq. rewrite Sh, Sc. destruct (N.eqb_spec m n); [contradiction|reflexivity].
Qed.
Print Assumptions short_ranges_sizes.
Example short_ranges_sizes_used : short_ranges_parse true $"1-2:1-3" = OErr (SRShortRanges (2, 3)) /\ short_ranges_parse false $"5-1:1-2" = OErr (SRShortRanges (65533, 2)).
Proof. split; reflexivity. Qed.
Lemma short_port_parts : forall checks s,
  (forall a, short_port_parse checks s = OErr (SPIpAddr a) <-> short_port_address_fails s a) /\
  (forall e, short_port_parse checks s = OErr (SPShortRanges e) <-> exists r, ports_part s r /\ short_ranges_parse checks r = OErr e).
Proof.
  intros checks s. unfold short_port_parse, short_port_address_fails, ports_part. destruct (slash_case s) as (b & pr & B & ->).
  destruct (rsplit_case b) as [[R N]|(a & h & c & -> & H & C & R)]; rewrite R.
  - cbn [obind snd fst]. split.
    + intros a. split; [destruct (short_ranges_parse checks b); discriminate|]. intros (h & c & B' & _). now elim (N a h c (slash_fun _ _ _ B B')).
    + intros e. split.
      * intros X. exists b. split; [exists b; split; [exact B|]; left; auto|]. destruct (short_ranges_parse checks b); try discriminate X. now injection X as ->.
      * intros (r & (b' & B' & X) & P). rewrite <- (slash_fun _ _ _ B B') in X. destruct X as [[_ ->]|(a & h & c & E & _)]; [|now elim (N a h c)]. now rewrite P.
  - pose proof (address_oks a) as A. destruct (ip_parse (strip_brackets a)) as [ip|] eqn:I; cbn [obind snd fst].
    + assert (A' : address_reads a) by (apply A; eauto). split.
      * intros a'. split; [destruct (short_ranges_parse checks _); discriminate|]. intros (h' & c' & B' & H' & C' & X). pose proof (slash_fun _ _ _ B B') as E. apply rsplit_two_fun in E as (-> & _); auto. contradiction.
      * intros e. split.
        -- intros X. exists (h ++ $":" ++ c). split; [eexists; split; [exact B|]; right; exists a, h, c; auto 6|]. destruct (short_ranges_parse checks _); try discriminate X. now injection X as ->.
        -- intros (r & (b' & B' & X) & P). rewrite <- (slash_fun _ _ _ B B') in X. destruct X as [[X _]|(a' & h' & c' & E & H' & C' & _ & ->)]; [now elim (X a h c)|]. apply rsplit_two_fun in E as (<- & <- & <-); auto. now rewrite P.
    + assert (A' : ~ address_reads a) by (rewrite <- A; intros [? X]; discriminate). split.
      * intros a'. split.
        -- intros X. injection X as <-. exists h, c. auto.
        -- intros (h' & c' & B' & H' & C' & X). pose proof (slash_fun _ _ _ B B') as E. apply rsplit_two_fun in E as (-> & _); auto.
      * intros e. split; [discriminate|]. intros (r & (b' & B' & X) & P). rewrite <- (slash_fun _ _ _ B B') in X. destruct X as [[X _]|(a' & h' & c' & E & H' & C' & X & _)]; [now elim (X a h c)|]. apply rsplit_two_fun in E as (<- & <- & <-); auto. contradiction.
Qed.
Theorem short_port_errors : forall checks s,
  (forall a, short_port_parse checks s = OErr (SPIpAddr a) <-> short_port_address_fails s a) /\
  (forall e, short_port_parse checks s = OErr (SPShortRanges (SRRange e)) <-> exists r, ports_part s r /\ short_ranges_fails r e) /\
  (forall m n, short_port_parse checks s = OErr (SPShortRanges (SRShortRanges (m, n))) <-> exists r, ports_part s r /\ sizes_differ checks r m n).
Proof.
  intros checks s. destruct (short_port_parts checks s) as [A B]. split; [exact A|]. split; intros; rewrite B; [setoid_rewrite short_ranges_errors|setoid_rewrite short_ranges_sizes]; reflexivity.
Qed.
Print Assumptions short_port_errors.
Example short_port_errors_used : short_port_parse true $"[::x]:1:2/udp" = OErr (SPIpAddr $"[::x]") /\ short_port_parse true $"1.2.3.4:1:2x" = OErr (SPShortRanges (SRRange (RangeInt IntInvalidDigit $"2x"))) /\
  short_port_parse true $"::1:1-2:5" = OErr (SPShortRanges (SRShortRanges (2, 1))).
Proof. repeat split. Qed.

(** ** Names inside longer texts *)

Theorem link_errors : forall s e, link_parse s = Err e <-> link_fails s e.
Proof.
  intros s e. unfold link_parse, link_fails. destruct (split_once_case (ch ":") s) as [[M ->]|(i & p & -> & M & ->)]; rewrite map_ok_err, key_errors.
  - split; [eauto|]. intros (i & N & [->|[a ->]] & H); [exact H|]. elim M. rewrite in_app_iff. right. apply in_eq.
  - split; [intros H; exists i; split; [exact M|]; split; [right; exists p; reflexivity|exact H]|]. intros (i' & N & [<-|[a E]] & H); [elim N; rewrite in_app_iff; right; apply in_eq|]. now destruct (cut_fun (ch ":") _ _ _ _ E M N) as [-> _].
Qed.
Print Assumptions link_errors.
Theorem ipc_errors : forall s e, ipc_parse s = Err e <-> ipc_fails s e.
Proof.
  intros s e. unfold ipc_parse, ipc_fails. destruct (str_eqb_spec s $"shareable") as [->|N].
  - split; [discriminate|]. intros (i & E & _). discriminate E.
  - destruct (strip_prefix $"service:" s) as [i|] eqn:P.
    + apply strip_prefix_some in P. subst s. rewrite map_ok_err, key_errors. split; [eauto|]. intros (j & E & H). now apply app_inv_head in E as ->.
    + pose proof (proj1 (strip_prefix_none _ _) P) as Q. split; [discriminate|]. intros (i & E & _). now apply Q in E.
Qed.
Print Assumptions ipc_errors.
Theorem network_mode_errors : forall s e, network_mode_parse s = Err e <-> network_mode_fails s e.
Proof.
  intros s e. unfold network_mode_parse, network_mode_fails. destruct (str_eqb_spec s $"none") as [->|N]; [split; [discriminate|]; intros (i & [E|E] & _); discriminate E|].
  destruct (str_eqb_spec s $"host") as [->|N']; [split; [discriminate|]; intros (i & [E|E] & _); discriminate E|].
  destruct (strip_prefix $"service:" s) as [i|] eqn:P.
  - apply strip_prefix_some in P. subst s. rewrite map_ok_err, key_errors. split; [eauto|]. intros (j & [E|E] & H); [now apply app_inv_head in E as ->|discriminate E].
  - pose proof (proj1 (strip_prefix_none _ _) P) as Q. destruct (strip_prefix $"container:" s) as [i|] eqn:P'.
    + apply strip_prefix_some in P'. subst s. rewrite map_ok_err, key_errors. split; [eauto|]. intros (j & [E|E] & H); [now apply Q in E|now apply app_inv_head in E as ->].
    + pose proof (proj1 (strip_prefix_none _ _) P') as Q'. split; [discriminate|]. intros (i & [E|E] & _); [now apply Q in E|now apply Q' in E].
Qed.
Print Assumptions network_mode_errors.
Theorem build_network_errors : forall s e, build_network_parse s = Err e <-> build_network_fails s e.
Proof. intros s e. unfold build_network_parse, build_network_fails. destruct (str_eqb_spec s $"none") as [->|N]; [split; [discriminate|intros [N _]; now elim N]|]. rewrite map_ok_err, key_errors. tauto. Qed.
Print Assumptions build_network_errors.
Lemma from_source_errors : forall s e, volumes_from_source_parse s = Err e <-> (exists i, s = $"container:" ++ i /\ key_fails i e) \/ ((forall i, s <> $"container:" ++ i) /\ key_fails s e).
Proof.
  intros s e. unfold volumes_from_source_parse. destruct (strip_prefix $"container:" s) as [i|] eqn:P; rewrite map_ok_err, key_errors.
  - apply strip_prefix_some in P. subst s. split; [eauto|]. intros [(j & E & H)|[N _]]; [now apply app_inv_head in E as ->|now elim (N i)].
  - pose proof (proj1 (strip_prefix_none _ _) P) as Q. split; [auto|]. intros [(j & E & H)|[_ H]]; [now apply Q in E|exact H].
Qed.
Theorem volumes_from_errors : forall s e, volumes_from_parse s = Err e <-> volumes_from_fails s e.
Proof.
  assert (D : forall x y, x ++ $":ro" <> y ++ $":rw"). { intros x y E. apply (f_equal (@rev _)) in E. rewrite !rev_app_distr in E. discriminate E. }
  intros s e. unfold volumes_from_parse, volumes_from_fails. setoid_rewrite <- from_source_errors. destruct (strip_suffix $":ro" s) as [b|] eqn:P.
  - apply strip_suffix_some in P. subst s. rewrite map_ok_err. split; [eauto|]. intros (b' & [E|[E|[_ N]]] & H); [now apply app_inv_tail in E as ->|now apply D in E|now elim (proj1 (N b))].
  - pose proof (proj1 (strip_suffix_none _ _) P) as Q. destruct (strip_suffix $":rw" s) as [b|] eqn:P'; rewrite map_ok_err.
    + apply strip_suffix_some in P'. subst s. split; [eauto|]. intros (b' & [E|[E|[_ N]]] & H); [now apply Q in E|now apply app_inv_tail in E as ->|now elim (proj2 (N b))].
    + pose proof (proj1 (strip_suffix_none _ _) P') as Q'. split.
      * intros H. exists s. split; [|exact H]. right. right. split; [reflexivity|]. intros x. split; [apply Q|apply Q'].
      * intros (b & [E|[E|[-> _]]] & H); [now apply Q in E|now apply Q' in E|exact H].
Qed.
Print Assumptions volumes_from_errors.
Theorem count_errors : forall s e, count_parse s = Err e <-> count_fails s e.
Proof. intros s e. unfold count_parse, count_fails. destruct (str_eqb_spec s $"all") as [->|N]; [split; [discriminate|intros [N _]; now elim N]|]. rewrite map_ok_err, <- (uint_err 10 U64_MAX s e) by lia. unfold parse_u64. tauto. Qed.
Print Assumptions count_errors.
Example name_errors_used : link_parse $"d b:x" = Err (KeyCharacter (ch " ")) /\ ipc_parse $"service:" = Err KeyEmpty /\ volumes_from_parse $"container:-:ro" = Err (KeyStart (ch "-")) /\
  network_mode_parse $"container:a/b" = Err (KeyCharacter (ch "/")) /\ count_parse $"ALL" = Err IntInvalidDigit.
Proof. repeat split. Qed.

(** ** CPU sets *)

Lemma cpu_oks : forall s, (exists n, parse_u64 s = Ok n) <-> cpu_reads s.
Proof. intros s. unfold cpu_reads, parse_u64. split; intros [n H]; exists n; apply uint_read in H; auto; lia. Qed.
Lemma cpu_errs : forall s e, parse_u64 s = Err e <-> uint_fails 10 U64_MAX s e.
Proof. intros s e. unfold parse_u64. apply uint_err. lia. Qed.
Lemma cpus_errors : forall acc s e, cpuset_item acc s = Err e <-> cpus_fails s e.
Proof.
  intros acc s [e t]. unfold cpuset_item, cpus_fails. cbn [fst snd]. setoid_rewrite <- cpu_errs. setoid_rewrite <- cpu_oks. destruct (split_once_case (ch "-") s) as [[M ->]|(a & b & -> & M & ->)].
  - rewrite bind_err, map_err_err. split.
    + intros [(i & H & E)|(x & _ & X)]; [|discriminate]. injection E as -> ->. auto.
    + intros [(_ & H & ->)|(a & b & -> & _)]; [left; eauto|]. elim M. rewrite in_app_iff. right. apply in_eq.
  - rewrite bind_err, map_err_err. split.
    + intros H. right. exists a, b. split; [reflexivity|]. split; [exact M|]. destruct H as [(i & H & E)|(x & X & H)]; [injection E as -> ->; auto|]. right.
      destruct (parse_u64 a) as [n|]; [|discriminate]. split; [eauto|]. apply bind_err in H as [H|(y & _ & Y)]; [|discriminate]. apply map_err_err in H as (i & H & E). injection E as -> ->. auto.
    + intros [(X & _)|(a' & b' & E & N & H)]; [elim X; rewrite in_app_iff; right; apply in_eq|]. destruct (cut_fun (ch "-") _ _ _ _ E M N) as [<- <-]. destruct H as [[H ->]|([n R] & H & ->)]; [left; eauto|]. right. rewrite R. exists n. split; [reflexivity|]. rewrite H. reflexivity.
Qed.
Lemma cpus_oks : forall acc s, (exists l, cpuset_item acc s = Ok l) <-> cpus_reads s.
Proof.
  intros acc s. unfold cpus_reads. setoid_rewrite <- cpu_oks. split.
  - intros [l H]. apply cpuset_item_ok in H as ([W|(a & b & m & n & -> & A & B)] & _); [now left|]. right. exists a, b. split; [reflexivity|]. eauto.
  - intros H. apply cpuset_item_total. destruct H as [H|(a & b & -> & [m A] & [n B])]; [now left|]. right. exists a, b, m, n. auto.
Qed.
Lemma cpuset_items_errors : forall l acc e, cpuset_items acc l = Err e <-> first_failing cpus_reads cpus_fails l e.
Proof.
  induction l as [|x l IH]; intros acc e; cbn [cpuset_items].
  - split; [discriminate|]. intros (a & y & b & X & _). destruct a; discriminate.
  - rewrite bind_err, cpus_errors. setoid_rewrite IH. split.
    + intros [H|(y & Y & a & z & b & -> & F & H)]; [exists [], x, l; auto|]. exists (x :: a), z, b. split; [reflexivity|]. split; [constructor; [apply (cpus_oks acc); eauto|exact F]|exact H].
    + intros (a & z & b & E & F & H). destruct a as [|y a]; [injection E as <- <-; now left|]. injection E as <- ->. inversion F as [|? ? G F']; subst. apply (cpus_oks acc) in G as [y G]. right. exists y. split; [exact G|]. exists a, z, b. auto.
Qed.
Theorem cpuset_errors : forall s e, cpuset_parse s = Err e <-> cpuset_fails s e.
Proof.
  intros s e. unfold cpuset_parse, cpuset_fails. rewrite cpuset_items_errors. split.
  - intros H. exists (split_terminator (ch ",") s). destruct (proj1 (split_terminator_iff (ch ",") s _) eq_refl) as [F J]. auto.
  - intros (l & F & J & H). assert (E : split_terminator (ch ",") s = l) by (apply split_terminator_iff; auto). now rewrite E.
Qed.
Print Assumptions cpuset_errors.
Example cpuset_errors_used : cpuset_parse $"0-3,4-x,y" = Err (IntInvalidDigit, $"x") /\ cpuset_parse $"1,," = Err (IntEmpty, []) /\ exists l, cpuset_parse $"1," = Ok l.
Proof. repeat split. now exists [1]. Qed.

(** ** Errors that are never reported *)

(** [ParseDeviceError::Empty] and [ParseCgroupRuleError::Empty] are declared for empty texts, but splitting always gives a first piece: an empty text is reported as something else. *)
Theorem empty_error_unreachable : (forall s, device_parse s <> Err DevEmpty) /\ (forall s, cgroup_parse s <> Err CgEmpty).
Proof.
  split; intros s; [unfold device_parse|unfold cgroup_parse].
  - destruct (splitn3 (ch ":") s) as [[_ ->]|[(a & c & _ & _ & _ & ->)|(a & c & o & _ & _ & _ & ->)]]; [discriminate|..]; intros H; apply bind_err in H as [H|(x & _ & H)];
      try (apply map_err_err in H as (? & _ & H); discriminate H); try (apply bind_err in H as [H|(y & _ & H)]; [|discriminate H]; apply map_err_err in H as (? & _ & H); discriminate H); discriminate H.
  - intros H. apply cgroup_errors in H. unfold cgroup_fails in H. repeat (destruct H as [H|H] || destruct H as (? & H)); try discriminate H; congruence.
Qed.
Print Assumptions empty_error_unreachable.
Example empty_error_used : device_parse [] = Err DevContainerPathMissing /\ cgroup_parse [] = Err (CgKind []).
Proof. split; reflexivity. Qed.
