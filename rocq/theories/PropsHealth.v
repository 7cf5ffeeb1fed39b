(** C40: reading healthchecks. *)

From Coq Require Import String Ascii List NArith ZArith Bool Lia Permutation ZifyBool ZifyN ZifyNat.
Import ListNotations.
From Verif Require Import Base BaseFacts Num NumFacts Coll CollFacts KeysModel DurationModel DurationSpec Serde Codec CodecFacts ScalarCodec ScalarGood
  CommonCodec CommonGood ServiceParts PartsGood OrderFacts HealthModel HealthProofs.
Open Scope N_scope.

(** ** What the entries of a healthcheck mean *)

(** A [test]: a shell command, or a sequence which starts with [CMD] or [CMD-SHELL]. *)
Inductive test_value : sval -> test -> Prop :=
| shell_string : forall s, test_value (VStr s) (TShell s)
| cmd : forall args, test_value (VSeq (map VStr ($"CMD" :: args))) (TCommand args)
| cmd_shell : forall s, test_value (VSeq [VStr $"CMD-SHELL"; VStr s]) (TShell s).

(** A duration: text (see [PropsDuration]) or a number of microseconds. *)
Definition duration_value (v : sval) (d : duration) : Prop :=
  (exists s, v = VStr s /\ parse s = OOk d) \/ (exists n, v = VInt (Z.of_N n) /\ n <= U64_MAX /\ d = from_micros n).
Definition retries_value (v : sval) (n : N) : Prop := v = VInt (Z.of_N n) /\ n <= U64_MAX.

(** An optional field. *)
Definition field_is {A : Type} (is : sval -> A -> Prop) (n : str) (es : list (sval * sval)) (o : option A) : Prop :=
  match o with Some a => exists v, In (VStr n, v) es /\ is v a | None => forall v, ~ In (VStr n, v) es end.

Definition HEALTH_FIELDS : list str :=
  [$"disable"; $"test"; $"interval"; $"timeout"; $"retries"; $"start_period"; $"start_interval"].
(** The other entries are the extensions, in their order. *)
Definition extensions_are (es : list (sval * sval)) (x : list (str * sval)) : Prop :=
  filter (fun e => match fst e with VStr k => negb (existsb (str_eqb k) HEALTH_FIELDS) | _ => true end) es = map (fun e => (VStr (fst e), snd e)) x /\
  Forall (fun e => ext_key (fst e) /\ yaml_ok (snd e) = true) x.

Lemma duration_de_iff : forall v d, de duration_c v = Ok d <-> duration_value v d.
Proof.
  intros v d. unfold duration_value. cbn [de duration_c]. destruct v as [| |z| |s| |]; try (split; [discriminate|intros [(s' & E & _)|(n & E & _)]; discriminate]).
  - split.
    + destruct (int_to_uint U64_MAX z) as [n|] eqn:E; cbn [map_ok]; [|discriminate]. intros H. injection H as <-.
      right. exists n. unfold int_to_uint in E. destruct ((0 <=? z)%Z && (z <=? Z.of_N U64_MAX)%Z) eqn:B; [|discriminate]. injection E as <-.
      split; [f_equal; lia|]. split; [lia|reflexivity].
    + intros [(s & E & _)|(n & E & L & ->)]; [discriminate|]. injection E as ->. unfold int_to_uint.
      replace ((0 <=? Z.of_N n)%Z && (Z.of_N n <=? Z.of_N U64_MAX)%Z) with true by lia. cbn [map_ok]. now rewrite N2Z.id.
  - split.
    + unfold no_panic. destruct (parse s) as [a| |] eqn:E; try discriminate. intros H. injection H as <-. left. eauto.
    + intros [(s' & E & P)|(n & E & _)]; [|discriminate]. injection E as <-. now rewrite P.
Qed.
Lemma retries_iff : forall v n, de u64_c v = Ok n <-> retries_value v n.
Proof.
  intros v n. unfold retries_value. cbn [de u64_c uint_c]. destruct v as [| |z| |s| |]; try (split; [discriminate|intros [E _]; discriminate]).
  unfold int_to_uint. destruct ((0 <=? z)%Z && (z <=? Z.of_N U64_MAX)%Z) eqn:B; split; try discriminate.
  - intros H. injection H as <-. split; [f_equal; lia|lia].
  - intros [E L]. injection E as ->. now rewrite N2Z.id.
  - intros [E L]. injection E as ->. lia.
Qed.
Lemma strings_ok : forall l r, strings l = Ok r <-> l = map VStr r.
Proof.
  intros l r. split; [|intros ->; apply strings_rt]. revert r. unfold strings. induction l as [|v l IH]; intros r H; cbn [collect] in H; [injection H as <-; reflexivity|].
  apply bind_ok in H as (a & Ha & H). apply bind_ok in H as (r' & Hr & H). injection H as <-. destruct v; try discriminate. injection Ha as ->.
  cbn [map]. f_equal. now apply IH.
Qed.
Lemma test_iff : forall v t, de test_c v = Ok t <-> test_value v t.
Proof.
  intros v t. cbn [de test_c]. split.
  - intros H. destruct (test_or_none v) as [[t'|]|] eqn:E; try discriminate. injection H as <-.
    destruct v as [| | | |s|[|[| | | |k| |] args]|]; try discriminate; cbn [test_or_none] in E; kind_texts.
    + injection E as <-. constructor.
    + destruct (str_eqb_spec k $"CMD") as [->|N].
      { destruct (strings args) as [a|] eqn:S; cbn [map_ok] in E; [|discriminate]. injection E as <-. apply strings_ok in S. subst args. apply cmd. }
      destruct (str_eqb_spec k $"CMD-SHELL") as [->|N']; [destruct args as [|[] [|]]; try discriminate; injection E as <-; constructor|].
      destruct (str_eqb k $"NONE"); [destruct args|]; discriminate.
  - intros H. destruct H as [s|args|s]; try reflexivity. cbn [map test_or_none]. kind_texts. rewrite str_eqb_refl, strings_rt. reflexivity.
Qed.
Lemma fills_field : forall {A : Set} (c : codec A) is n es o, (forall v a, de c v = Ok a <-> is v a) -> keys_once es ->
  fills c None (lookup n es) o <-> field_is is n es o.
Proof.
  intros A c is n es o I D. destruct (lookup n es) as [[v|]|e] eqn:L; cbn [fills].
  - split.
    + intros (_ & a & Ha & ->). apply lookup_in in L; [|assumption]. exists v. split; [assumption|]. now apply I.
    + destruct o as [a|]; cbn [field_is].
      * intros (u & Hu & Ha). apply (lookup_in _ _ _ D) in Hu. rewrite Hu in L. injection L as ->. split; [reflexivity|]. exists a. split; [now apply I|reflexivity].
      * intros H. apply lookup_in in L; [|assumption]. now elim (H v).
  - apply lookup_none in L. unfold absent in L. destruct o as [a|]; cbn [field_is]; split; try tauto; try reflexivity; try discriminate.
    intros (v & Hv & _). now elim (L v).
  - exfalso. destruct (proj1 (lookup_err n es) (ex_intro _ e L)) as (a & b & c' & x & y & ->). unfold keys_once in D. rewrite map_app in D. cbn [map fst] in D.
    apply NoDup_remove_2 in D. apply D. apply in_or_app. right. rewrite map_app. apply in_or_app. right. now left.
Qed.
Lemma fills_found : forall {A : Set} (c : codec A) n es o, fills c None (lookup n es) o -> exists x, lookup n es = Ok x.
Proof. intros A c n es o H. destruct (lookup n es); [eauto|destruct H]. Qed.

Lemma ext_entry_iff : forall e y, ext_entry e = Ok y <-> e = (VStr (fst y), snd y) /\ ext_key (fst y) /\ yaml_ok (snd y) = true.
Proof.
  intros [k v] [s u]. unfold ext_entry. cbn [fst snd]. destruct k as [| | | |k| |]; try (split; [discriminate|intros [E _]; discriminate]). split.
  - intros H. destruct (extension_key_new k) as [t|] eqn:E; cbn [map_err bind] in H; [|discriminate]. cbn [de yaml_c] in H. destruct (yaml_ok v) eqn:Y; cbn [bind] in H; [|discriminate].
    injection H as <- <-. apply extension_key_new_iff in E as [-> E]. auto.
  - intros (E & K & Y). injection E as -> ->. rewrite (proj2 (extension_key_new_iff s s)) by auto. cbn [map_err bind de yaml_c]. now rewrite Y.
Qed.
Lemma extends_iff : forall es x, keys_once es -> extends_to [] (unknown HEALTH_FIELDS es) x <-> extensions_are es x.
Proof.
  intros es x D. unfold extends_to, extensions_are. change (filter _ es) with (unknown HEALTH_FIELDS es). apply (unknown_once HEALTH_FIELDS) in D.
  revert x. induction (unknown HEALTH_FIELDS es) as [|e us IH]; intros x.
  - split.
    + intros (l & H & -> & _). injection H as <-. split; [reflexivity|constructor].
    + intros [H _]. destruct x; [|discriminate]. exists []. repeat split; constructor.
  - unfold keys_once in D. cbn [map fst] in D. inversion D as [|? ? N D']; subst. specialize (IH D'). cbn [collect]. split.
    + intros (l & H & -> & Dx). apply bind_ok in H as (y & Hy & H). apply bind_ok in H as (l' & Hl & H). injection H as <-. cbn [app map] in *.
      inversion Dx as [|? ? Nx Dx']; subst. destruct (IH l') as [IH1 _]. destruct IH1 as [E F]; [exists l'; auto|]. apply ext_entry_iff in Hy as (-> & Hy). split.
      * cbn [map]. now rewrite <- E.
      * constructor; assumption.
    + intros [E F]. destruct x as [|y x]; [discriminate|]. cbn [map] in E. injection E as -> E. inversion F as [|? ? Fy Fx]; subst.
      destruct (IH x) as [_ IH2]. destruct IH2 as (l & Hl & El & Dl); [split; [reflexivity|assumption]|]. cbn [app] in El. subst l. exists (y :: x).
      rewrite (proj2 (ext_entry_iff _ y)) by auto. cbn [bind]. rewrite Hl. cbn [bind]. split; [reflexivity|]. split; [reflexivity|]. cbn [app map]. constructor; [|assumption].
      intros I. apply N. cbn [fst]. rewrite map_map. cbn [fst]. apply in_map_iff in I as (z & Ez & I). apply in_map_iff. exists z. split; [now rewrite Ez|assumption].
Qed.

(** ** The result for every list of entries *)

(** Exactly three lists of entries disable the healthcheck. *)
Theorem healthcheck_disabled : forall es,
  de healthcheck_c (VMap es) = Ok HcDisable <->
  es = [(VStr $"disable", VBool true)] \/ es = [(VStr $"test", VSeq [VStr $"NONE"])] \/
  es = [(VStr $"disable", VBool false); (VStr $"test", VSeq [VStr $"NONE"])].
Proof. exact disabled_iff. Qed.

(** Exactly the lists of entries without a repeated key, with [disable] absent or [false], and where every entry has a
    meaning are accepted as a command. *)
Theorem healthcheck_command : forall es t i o r p q x,
  de healthcheck_c (VMap es) = Ok (HcCommand ((t, (i, (o, (r, (p, (q, tt)))))), x)) <->
  NoDup (map fst es) /\ (forall v, In (VStr $"disable", v) es -> v = VBool false) /\
  field_is test_value $"test" es t /\ field_is duration_value $"interval" es i /\ field_is duration_value $"timeout" es o /\
  field_is retries_value $"retries" es r /\ field_is duration_value $"start_period" es p /\ field_is duration_value $"start_interval" es q /\
  extensions_are es x.
Proof.
  intros es t i o r p q x. cbn [de healthcheck_c]. rewrite command_iff. cbn [fst snd].
  transitivity (exists d, d <> Some true /\ filled no_slots es (mk_slots d t i o r p q x)).
  { split; intros (d & N & H); exists d; (split; [assumption|]); now apply (filled_iff es (mk_slots d t i o r p q x)). }
  unfold filled. cbn [h_disable h_test h_interval h_timeout h_retries h_start_period h_start_interval h_extensions no_slots].
  change (names slot_ms) with HEALTH_FIELDS. split.
  - intros (d & N & H0 & H1 & H2 & H3 & H4 & H5 & H6 & H7).
    assert (D : keys_once es).
    { apply (keys_once_intro HEALTH_FIELDS).
      - intros n [<-|[<-|[<-|[<-|[<-|[<-|[<-|[]]]]]]]]; eapply fills_found; eassumption.
      - apply once_iff in H7 as (y & Hy & O & _). now apply (once_keys _ y). }
    split; [exact D|]. split.
    { intros v Hv. apply (lookup_in _ _ _ D) in Hv. rewrite Hv in H0. cbn [fills] in H0. destruct H0 as (_ & b & Hb & ->). destruct v; try discriminate. injection Hb as ->.
      destruct b; congruence. }
    rewrite <- (fills_field test_c test_value), <- !(fills_field duration_c duration_value), <- (fills_field u64_c retries_value), <- extends_iff
      by (try exact D; first [exact test_iff|exact duration_de_iff|exact retries_iff]). tauto.
  - intros (D & H0 & H). rewrite <- (fills_field test_c test_value), <- !(fills_field duration_c duration_value), <- (fills_field u64_c retries_value), <- extends_iff in H
      by (try exact D; first [exact test_iff|exact duration_de_iff|exact retries_iff]).
    assert (X : exists d, d <> Some true /\ fills bool_c None (lookup $"disable" es) d).
    { destruct (lookup $"disable" es) as [[v|]|e] eqn:L.
      - apply lookup_in in L; [|exact D]. apply H0 in L. subst v. exists (Some false). split; [discriminate|]. cbn [fills]. split; [reflexivity|]. exists false. split; reflexivity.
      - exists None. split; [discriminate|reflexivity].
      - exfalso. destruct (proj1 (lookup_err $"disable" es) (ex_intro _ e L)) as (a & b & c' & y & z & ->). rewrite map_app in D. cbn [map fst] in D.
        apply NoDup_remove_2 in D. apply D. apply in_or_app. right. rewrite map_app. apply in_or_app. right. now left. }
    destruct X as (d & N & X). exists d. tauto.
Qed.

(** ** Order *)

(** The full statement of C40 is false: [disable: false] before [test: [NONE]] is accepted, after it is an error. *)
Theorem healthcheck_order_refuted : exists es es', Permutation es es' /\
  de healthcheck_c (VMap es) = Ok HcDisable /\ exists e, de healthcheck_c (VMap es') = Err e.
Proof.
  exists [(VStr $"disable", VBool false); (VStr $"test", VSeq [VStr $"NONE"])], [(VStr $"test", VSeq [VStr $"NONE"]); (VStr $"disable", VBool false)].
  split; [apply perm_swap|]. split; [reflexivity|]. exists DeError. reflexivity.
Qed.

(** For every other list of entries the order makes no difference, except that the extensions keep the order they are in. *)
Theorem healthcheck_order_partial : forall es es', Permutation es es' ->
  ~ Permutation es [(VStr $"disable", VBool false); (VStr $"test", VSeq [VStr $"NONE"])] ->
  match de healthcheck_c (VMap es), de healthcheck_c (VMap es') with
  | Ok HcDisable, Ok HcDisable => True
  | Ok (HcCommand (v, x)), Ok (HcCommand (v', x')) => v = v' /\ Permutation x x'
  | Err _, Err _ => True
  | _, _ => False
  end.
Proof.
  intros es es' P N. cbn [de healthcheck_c].
  assert (Dis : forall a b, Permutation a b -> ~ Permutation a [(VStr $"disable", VBool false); (VStr $"test", VSeq [VStr $"NONE"])] ->
    health_de (VMap a) = Ok HcDisable -> health_de (VMap b) = Ok HcDisable).
  { intros a b Pab Na H. apply disabled_iff in H as [->|[->| ->]].
    - apply Permutation_length_1_inv in Pab. subst b. reflexivity.
    - apply Permutation_length_1_inv in Pab. subst b. reflexivity.
    - elim Na. apply Permutation_refl. }
  assert (N' : ~ Permutation es' [(VStr $"disable", VBool false); (VStr $"test", VSeq [VStr $"NONE"])]).
  { intros X. apply N. now apply Permutation_trans with es'. }
  destruct (health_de (VMap es)) as [[c|]|e] eqn:E.
  - destruct (command_order es es' c P E) as ([v' x'] & -> & X1 & X2). destruct c as [v x]. cbn [fst snd] in *. auto.
  - now rewrite (Dis es es' P N E).
  - destruct (health_de (VMap es')) as [[c'|]|e'] eqn:E'; [| |exact I].
    + apply Permutation_sym in P. destruct (command_order es' es c' P E') as (c & X & _). congruence.
    + apply Permutation_sym in P. rewrite (Dis es' es P N' E') in E. discriminate.
Qed.

(** [disable: true] and [test: [NONE]] never end in an enabled healthcheck, and together they are an error. *)
Theorem healthcheck_disable_wins : forall es c,
  In (VStr $"disable", VBool true) es \/ In (VStr $"test", VSeq [VStr $"NONE"]) es ->
  de healthcheck_c (VMap es) <> Ok (HcCommand c).
Proof.
  intros es [[t [i [o [r [p [q []]]]]]] x] H E. apply healthcheck_command in E as (D & F & T & _). destruct H as [H|H].
  - apply F in H. discriminate.
  - destruct t as [t|]; cbn [field_is] in T; [|exact (T _ H)]. destruct T as (v & Hv & T).
    assert (v = VSeq [VStr $"NONE"]); [|subst v; inversion T; fail].
    apply (lookup_in _ _ _ D) in H. apply (lookup_in _ _ _ D) in Hv. congruence.
Qed.
Theorem healthcheck_conflict : forall es,
  In (VStr $"disable", VBool true) es -> In (VStr $"test", VSeq [VStr $"NONE"]) es -> de healthcheck_c (VMap es) = Err DeError.
Proof.
  intros es H1 H2. apply de_err. intros [c|] E.
  - exact (healthcheck_disable_wins es c (or_introl H1) E).
  - apply healthcheck_disabled in E as [->|[->| ->]]; cbn in H1, H2; intuition discriminate.
Qed.

(** ** Writing *)

(** Reading what was written gives the same healthcheck, if the durations are whole microseconds. *)
Definition health_ok (h : healthcheck) : Prop :=
  match h with
  | HcDisable => True
  | HcCommand ((t, (i, (o, (r, (p, (q, _)))))), x) =>
      (forall d, In (Some d) [i; o; p; q] -> duration_wf d /\ nanos d mod 1000 = 0) /\
      (forall n, r = Some n -> n <= U64_MAX) /\
      (Forall (fun e => ext_key (fst e)) x /\ NoDup (map fst x) /\ Forall (fun e => yaml_ok (snd e) = true) x)
  end.
Theorem healthcheck_round_trip : forall h, health_ok h -> de healthcheck_c (ser healthcheck_c h) = Ok h.
Proof.
  intros h H.
  assert (Wd : forall d l, (forall d, In (Some d) l -> duration_wf d /\ nanos d mod 1000 = 0) -> In d l -> match d with Some a => duration_wf a | None => True end).
  { intros [d|] l F I; [|exact Logic.I]. now apply F. }
  assert (Nd : forall d l, (forall d, In (Some d) l -> duration_wf d /\ nanos d mod 1000 = 0) -> In d l -> option_map whole_micros d = d).
  { intros [d|] l F I; [|reflexivity]. cbn [option_map]. f_equal. destruct (F d I) as [_ M]. destruct d as [s n]. unfold whole_micros. cbn [nanos secs] in *. f_equal.
    rewrite (N.div_mod n 1000) at 2 by discriminate. lia. }
  assert (W : wf healthcheck_c h).
  { destruct h as [[[t [i [o [r [p [q []]]]]]] x]|]; [|exact I]. destruct H as (Hd & Hr & Hx). split; [|exact Hx]. cbn [fst snd wf_members health_ms m_wf given field wf some_c option_c].
    repeat apply conj; try exact I; try (destruct t; exact I); try (eapply Wd; [exact Hd|cbn [In]; tauto]). destruct r as [n|]; [now apply Hr|exact I]. }
  rewrite (g_rt _ healthcheck_good h W). f_equal. destruct h as [[[t [i [o [r [p [q []]]]]]] x]|]; [|reflexivity]. destruct H as (Hd & Hr & Hx).
  assert (Ni := Nd i _ Hd (or_introl eq_refl)). assert (No := Nd o _ Hd (or_intror (or_introl eq_refl))).
  assert (Np := Nd p _ Hd (or_intror (or_intror (or_introl eq_refl)))). assert (Nq := Nd q _ Hd (or_intror (or_intror (or_intror (or_introl eq_refl))))).
  cbn [norm healthcheck_c struct_ext_c norm_members health_ms m_norm given field fst snd some_c option_c].
  change (norm duration_c) with whole_micros. f_equal. f_equal.
  rewrite Ni, No, Np, Nq. destruct t, i, o, r, p, q; reflexivity.
Qed.

Example healthcheck_example :
  de healthcheck_c (VMap [(VStr $"retries", VInt 3); (VStr $"x-note", VStr $"n"); (VStr $"interval", VStr $"1m30s"); (VStr $"disable", VBool false);
                          (VStr $"test", VSeq [VStr $"CMD"; VStr $"curl"; VStr $"-f"])]) =
  Ok (HcCommand ((Some (TCommand [$"curl"; $"-f"]), (Some (mk_duration 90 0), (None, (Some 3, (None, (None, tt)))))), [($"x-note", VStr $"n")])).
Proof. vm_compute. reflexivity. Qed.
Example healthcheck_example_rejected :
  de healthcheck_c (VMap [(VStr $"disable", VBool true); (VStr $"interval", VStr $"3s")]) = Err DeError /\
  de healthcheck_c (VMap [(VStr $"test", VSeq [VStr $"CMD-SHELL"])]) = Err DeError.
Proof. split; vm_compute; reflexivity. Qed.

Print Assumptions healthcheck_disabled.
Print Assumptions healthcheck_command.
Print Assumptions healthcheck_order_refuted.
Print Assumptions healthcheck_order_partial.
Print Assumptions healthcheck_disable_wins.
Print Assumptions healthcheck_conflict.
Print Assumptions healthcheck_round_trip.
