(** Facts about [HealthModel]: the loop of the visitor, described by what each entry is. *)

From Coq Require Import String Ascii List NArith ZArith Bool Lia Permutation ZifyBool ZifyN ZifyNat.
Import ListNotations.
From Verif Require Import Base BaseFacts Num NumFacts Coll CollFacts KeysModel DurationModel Serde Codec CodecFacts ScalarCodec ScalarGood CommonCodec CommonGood
  ServiceParts PartsGood OrderFacts HealthModel.
Open Scope N_scope.

(** Reading with one slot for each member, [disable] among them, and no [NONE]. *)
Definition slot_ms : list member := given $"disable" bool_c :: health_ms.
Definition slot_c := struct_ext_once_c slot_ms.

Lemma de_err : forall {A} (x : result de_error A), (forall a, x <> Ok a) -> x = Err DeError.
Proof. intros A [a|[]] H; [now elim (H a)|reflexivity]. Qed.

(** A slot before and after a list of entries. *)
Definition fills {A : Set} (c : codec A) (before : option A) (found : result de_error (option sval)) (after : option A) : Prop :=
  match found with
  | Ok None => after = before
  | Ok (Some v) => before = None /\ exists a, de c v = Ok a /\ after = Some a
  | Err _ => False
  end.
Lemma fills_other : forall {A : Set} (c : codec A) k e es o o', fst e <> VStr k -> fills c o (lookup k (e :: es)) o' <-> fills c o (lookup k es) o'.
Proof.
  intros A c k [x v] es o o' N. cbn [fst] in N. replace (lookup k ((x, v) :: es)) with (lookup k es); [tauto|]. cbn [lookup].
  destruct x; try reflexivity. destruct (str_eqb_spec k s); [congruence|reflexivity].
Qed.
Lemma fills_this : forall {A : Set} (c : codec A) k v es o o', fills c o (lookup k ((VStr k, v) :: es)) o' <->
  o = None /\ exists a, de c v = Ok a /\ fills c (Some a) (lookup k es) o'.
Proof.
  intros A c k v es o o'. cbn [lookup]. rewrite str_eqb_refl. destruct (lookup k es) as [[x|]|[]]; cbn [fills].
  - split; [tauto|]. intros (_ & a & _ & X & _). discriminate.
  - tauto.
  - split; [tauto|]. intros (_ & a & _ & []).
Qed.
Lemma fills_given : forall {A : Set} n (c : codec A) es o, m_de (given n c) es = Ok o <-> fills c None (lookup n es) o.
Proof.
  intros A n c es o. cbn [m_de given field]. destruct (lookup n es) as [[x|]|[]]; cbn [fills bind].
  - cbn [de some_c]. destruct (de c x) as [a|[]]; cbn [map_ok]; split.
    + intros H. injection H as <-. eauto.
    + intros (_ & b & H & ->). injection H as ->. reflexivity.
    + discriminate.
    + intros (_ & b & H & _). discriminate.
  - split; intros H; [now injection H as <-|now rewrite H].
  - split; [discriminate|tauto].
Qed.

(** The extensions before and after. *)
Definition extends_to (before : extensions) (us : list (sval * sval)) (after : extensions) : Prop :=
  exists l, collect ext_entry us = Ok l /\ after = before ++ l /\ NoDup (map fst after).
Lemma imap_of_length : forall (l : list (str * sval)), List.length (imap_of str_eqb l) = List.length l <-> NoDup (map fst l).
Proof.
  intros l. split; intros H; [|now rewrite (imap_of_nodup str_eqb str_eqb_eq)].
  rewrite <- (map_length fst), <- (map_length fst l) in H. rewrite (imap_of_keys str_eqb) in H.
  apply (@NoDup_incl_NoDup _ (iset_of str_eqb (map fst l))); [apply (iset_of_NoDup str_eqb str_eqb_eq)|lia|].
  intros x I. exact (proj1 (iset_of_In str_eqb str_eqb_eq _ _) I).
Qed.
Lemma once_iff : forall us x, extends_to [] us x <-> exists y, ext_de us = Ok y /\ once us y = true /\ x = y.
Proof.
  intros us x. unfold extends_to, ext_de, once. destruct (collect ext_entry us) as [l|] eqn:C; cbn [map_ok].
  - assert (L : List.length us = List.length l) by (apply collect_ok in C; clear - C; induction C; cbn [List.length]; congruence). split.
    + intros (l' & E & -> & D). injection E as <-. cbn [app] in *. exists (imap_of str_eqb l). rewrite (imap_of_nodup str_eqb str_eqb_eq) by assumption.
      repeat apply conj; try reflexivity. now apply Nat.eqb_eq.
    + intros (y & E & O & ->). injection E as <-. exists l. split; [reflexivity|]. apply Nat.eqb_eq in O. rewrite L in O. symmetry in O.
      apply imap_of_length in O. rewrite (imap_of_nodup str_eqb str_eqb_eq) by assumption. auto.
  - split; [intros (l & E & _)|intros (y & E & _)]; discriminate.
Qed.
Lemma extends_cons : forall x e us x', NoDup (map fst x) -> extends_to x (e :: us) x' <->
  exists y, ext_entry e = Ok y /\ imap_get str_eqb x (fst y) = None /\ extends_to (x ++ [y]) us x'.
Proof.
  intros x e us x' D. unfold extends_to. cbn [collect]. split.
  - intros (l & C & -> & D'). destruct (ext_entry e) as [y|]; cbn [bind] in C; [|discriminate]. destruct (collect ext_entry us) as [l'|]; cbn [bind] in C; [|discriminate].
    injection C as <-. exists y. split; [reflexivity|]. split.
    + apply (imap_get_none str_eqb str_eqb_eq). rewrite map_app in D'. cbn [map] in D'. apply NoDup_remove_2 in D'. intros I. apply D'. apply in_or_app. now left.
    + exists l'. rewrite <- app_assoc. auto.
  - intros (y & -> & N & l & -> & -> & D'). cbn [bind]. exists (y :: l). rewrite <- app_assoc in *. auto.
Qed.

Lemma extends_nodup : forall x us x', extends_to x us x' -> NoDup (map fst x).
Proof. intros x us x' (l & _ & -> & D). rewrite map_app in D. rewrite <- (rev_involutive (map fst x)), <- (rev_involutive (map fst l)), <- rev_app_distr in D.
  apply NoDup_rev in D. rewrite rev_involutive in D. apply NoDup_app_inv in D as [D _]. apply NoDup_rev in D. now rewrite rev_involutive in D. Qed.

(** No [test] entry says [NONE]. *)
Definition none_entry (e : sval * sval) : Prop := e = (VStr $"test", VSeq [VStr $"NONE"]).
(** The names of the kind_texts. *)
Lemma kind_names : test_kind_name TkCmd = $"CMD" /\ test_kind_name TkCmdShell = $"CMD-SHELL" /\ test_kind_name TkNone = $"NONE".
Proof. repeat split. Qed.
Ltac kind_texts := change (test_kind_name TkCmd) with $"CMD" in *; change (test_kind_name TkCmdShell) with $"CMD-SHELL" in *; change (test_kind_name TkNone) with $"NONE" in *.
Lemma test_none : forall v, test_or_none v = Ok None <-> v = VSeq [VStr $"NONE"].
Proof.
  intros v. split; [|intros ->; reflexivity]. destruct v as [| | | |s|[|[| | | |k| |] args]|]; try discriminate. cbn [test_or_none]. kind_texts.
  destruct (str_eqb_spec k $"CMD"); [destruct (strings args); discriminate|].
  destruct (str_eqb_spec k $"CMD-SHELL"); [destruct args as [|[] [|]]; discriminate|].
  destruct (str_eqb_spec k $"NONE"); [|discriminate]. subst k. destruct args; [reflexivity|discriminate].
Qed.

Definition filled (s : slots) (es : list (sval * sval)) (s' : slots) : Prop :=
  fills bool_c (h_disable s) (lookup $"disable" es) (h_disable s') /\ fills test_c (h_test s) (lookup $"test" es) (h_test s') /\
  fills duration_c (h_interval s) (lookup $"interval" es) (h_interval s') /\ fills duration_c (h_timeout s) (lookup $"timeout" es) (h_timeout s') /\
  fills u64_c (h_retries s) (lookup $"retries" es) (h_retries s') /\ fills duration_c (h_start_period s) (lookup $"start_period" es) (h_start_period s') /\
  fills duration_c (h_start_interval s) (lookup $"start_interval" es) (h_start_interval s') /\
  extends_to (h_extensions s) (unknown (names slot_ms) es) (h_extensions s').

Lemma fill_iff : forall {A : Set} (o : option A) c v f s, fill o c v f = Ok s <-> o = None /\ exists a, de c v = Ok a /\ s = f (Some a).
Proof.
  intros A o c v f s. unfold fill. destruct o; cbn [is_none]; [split; [discriminate|intros [X _]; discriminate]|].
  destruct (de c v) as [b|]; cbn [map_ok]; split; try discriminate.
  - intros H. injection H as <-. eauto.
  - intros (_ & a & H & ->). injection H as ->. reflexivity.
  - intros (_ & a & H & _). discriminate.
Qed.

Lemma unknown_skip : forall ns k v es, existsb (str_eqb k) ns = true -> unknown ns ((VStr k, v) :: es) = unknown ns es.
Proof. intros ns k v es H. cbn [unknown filter fst]. now rewrite H. Qed.

Lemma health_loop_filled : forall es s s', Forall (fun e => ~ none_entry e) es -> NoDup (map fst (h_extensions s)) ->
  health_loop s es = Ok s' <-> filled s es s'.
Proof.
  induction es as [|e es IH]; intros s s' F D.
  { cbn [health_loop]. unfold filled. cbn [lookup fills unknown filter]. destruct s as [d t i o r p q x], s' as [d' t' i' o' r' p' q' x']. cbn [h_disable h_test h_interval h_timeout h_retries
      h_start_period h_start_interval h_extensions] in *. split.
    - intros H. injection H as -> -> -> -> -> -> -> ->. repeat apply conj; try reflexivity. exists []. rewrite app_nil_r. auto.
    - intros (-> & -> & -> & -> & -> & -> & -> & l & C & -> & _). injection C as <-. now rewrite app_nil_r. }
  inversion F as [|? ? Fe Fes]; subst. cbn [health_loop]. destruct e as [k v].
  assert (IH' : forall s1, NoDup (map fst (h_extensions s1)) -> health_loop s1 es = Ok s' <-> filled s1 es s') by (intros; now apply IH). clear IH.
  destruct s as [d t i o r p q x], s' as [d' t' i' o' r' p' q' x']. unfold filled in IH' |- *. unfold health_entry.
  cbn [fst snd h_disable h_test h_interval h_timeout h_retries h_start_period h_start_interval h_extensions] in *.
  destruct k as [| | | |k| |].
  1,2,3,4,6,7: split; [discriminate|]; intros (_ & _ & _ & _ & _ & _ & _ & l1 & C & _); cbn [unknown filter fst collect ext_entry bind] in C; discriminate.
  assert (Step : forall (A : Set) (c : codec A) (slot : option A) (g : option A -> slots) (P : option A -> Prop), 
    (forall a, NoDup (map fst (h_extensions (g a)))) -> 
    (forall a, filled (g a) es (mk_slots d' t' i' o' r' p' q' x') <-> P a) ->
    (s <- fill slot c v g ;; health_loop s es) = Ok (mk_slots d' t' i' o' r' p' q' x') <->
    slot = None /\ exists a, de c v = Ok a /\ P (Some a)).
  { intros A c slot g P Dg HP. split.
    - destruct (fill slot c v g) as [s1|] eqn:E; cbn [bind]; [|discriminate]. apply fill_iff in E as (-> & a & Ea & ->). intros H.
      apply IH' in H; [|apply Dg]. split; [reflexivity|]. exists a. split; [assumption|]. now apply HP.
    - intros (-> & a & Ea & H). rewrite (proj2 (fill_iff None c v g (g (Some a)))) by eauto. cbn [bind]. apply IH'; [apply Dg|]. now apply HP. }
  Ltac slot Step D := rewrite unknown_skip by reflexivity; rewrite fills_this; rewrite !fills_other by (cbn [fst]; discriminate);
    rewrite Step; [|intros; exact D|intros a; apply iff_refl]; unfold filled;
    cbn [h_disable h_test h_interval h_timeout h_retries h_start_period h_start_interval h_extensions];
    split; [intros (-> & a & Ea & H); repeat apply conj; try tauto; exists a; tauto
           |let H := fresh in intros H; decompose [and ex] H; subst; split; [reflexivity|]; eexists; split; [eassumption|]; tauto].
  destruct (str_eqb_spec k $"disable") as [->|N1]; [slot Step D|].
  destruct (str_eqb_spec k $"test") as [->|N2].
  { rewrite unknown_skip by reflexivity. rewrite fills_this, !fills_other by (cbn [fst]; discriminate).
    assert (E : is_none t = true -> (y <- test_or_none v ;; match y with Some t => Ok (mk_slots d (Some t) i o r p q x)
      | None => match d with Some true => Err DeError | _ => Ok (mk_slots (Some true) t i o r p q x) end end) = fill t test_c v (fun t => mk_slots d t i o r p q x)).
    { intros E. unfold fill. rewrite E. cbn [de test_c]. destruct (test_or_none v) as [[y|]|[]] eqn:Ev; cbn [bind map_ok]; try reflexivity.
      apply test_none in Ev. subst v. now elim Fe. }
    assert (E' : (if is_none t then y <- test_or_none v ;; match y with Some t => Ok (mk_slots d (Some t) i o r p q x)
      | None => match d with Some true => Err DeError | _ => Ok (mk_slots (Some true) t i o r p q x) end end else Err DeError) = fill t test_c v (fun t => mk_slots d t i o r p q x)).
    { destruct (is_none t) eqn:Et; [now apply E|]. unfold fill. now rewrite Et. }
    rewrite E'. rewrite Step; [|intros; exact D|intros a; apply iff_refl]; unfold filled;
    cbn [h_disable h_test h_interval h_timeout h_retries h_start_period h_start_interval h_extensions];
    split; [intros (-> & a & Ea & H); repeat apply conj; try tauto; exists a; tauto
           |intros H; decompose [and ex] H; subst; split; [reflexivity|]; eexists; split; [eassumption|]; tauto]. }
  destruct (str_eqb_spec k $"interval") as [->|N3]; [slot Step D|].
  destruct (str_eqb_spec k $"timeout") as [->|N4]; [slot Step D|].
  destruct (str_eqb_spec k $"retries") as [->|N5]; [slot Step D|].
  destruct (str_eqb_spec k $"start_period") as [->|N6]; [slot Step D|].
  destruct (str_eqb_spec k $"start_interval") as [->|N7]; [slot Step D|].
  rewrite !fills_other by (cbn [fst]; congruence). 
  assert (U : unknown (names slot_ms) ((VStr k, v) :: es) = (VStr k, v) :: unknown (names slot_ms) es).
  { cbn [unknown filter fst]. replace (existsb (str_eqb k) (names slot_ms)) with false; [reflexivity|]. symmetry.
    cbn. repeat (rewrite (proj2 (str_eqb_neq _ _)) by assumption). reflexivity. }
  rewrite U, extends_cons by assumption. split.
  - destruct (ext_entry (VStr k, v)) as [y|] eqn:Ey; cbn [bind]; [|discriminate]. destruct (imap_get str_eqb x (fst y)) eqn:G; [discriminate|]. cbn [bind].
    intros H. apply IH' in H; [|cbn [h_extensions]; apply (imap_get_none str_eqb str_eqb_eq) in G; rewrite map_app; cbn [map];
      apply NoDup_app_intro; [assumption|constructor; [intros []|constructor]|intros z I [<-|[]]; contradiction]].
    cbn [h_disable h_test h_interval h_timeout h_retries h_start_period h_start_interval h_extensions] in H. repeat apply conj; try tauto. exists y. tauto.
  - intros (H1 & H2 & H3 & H4 & H5 & H6 & H7 & y & Ey & G & X). rewrite Ey. cbn [bind]. rewrite G. cbn [bind]. apply IH'.
    + cbn [h_extensions]. now apply extends_nodup in X.
    + cbn [h_disable h_test h_interval h_timeout h_retries h_start_period h_start_interval h_extensions]. tauto.
Qed.

(** The members of [slot_c] and the rest. *)
Lemma bind_ok : forall {E A B} (x : result E A) (f : A -> result E B) b, bind x f = Ok b <-> exists a, x = Ok a /\ f a = Ok b.
Proof.
  intros E A B [a|e] f b; cbn [bind]; split.
  - eauto.
  - intros (a' & H & H'). now injection H as <-.
  - discriminate.
  - intros (a' & H & _). discriminate.
Qed.
Lemma cons_ok : forall m ms es a v, de_members (m :: ms) es = Ok (a, v) <-> m_de m es = Ok a /\ de_members ms es = Ok v.
Proof.
  intros m ms es a v. cbn [de_members]. rewrite bind_ok. split.
  - intros (a' & Ha & H). apply bind_ok in H as (v' & Hv & H). injection H as <- <-. auto.
  - intros (Ha & Hv). exists a. split; [assumption|]. apply bind_ok. eauto.
Qed.
Definition slots_of (s : slots) : vals slot_ms * extensions :=
  ((h_disable s, (h_test s, (h_interval s, (h_timeout s, (h_retries s, (h_start_period s, (h_start_interval s, tt))))))), h_extensions s).
Lemma filled_iff : forall es s, filled no_slots es s <-> de slot_c (VMap es) = Ok (slots_of s).
Proof.
  intros es s. unfold filled, slots_of. cbn [h_disable h_test h_interval h_timeout h_retries h_start_period h_start_interval h_extensions no_slots].
  rewrite <- !fills_given, once_iff.
  transitivity (de_members slot_ms es = Ok (fst (slots_of s)) /\ exists y, ext_de (unknown (names slot_ms) es) = Ok y /\ once (unknown (names slot_ms) es) y = true /\ h_extensions s = y).
  - unfold slots_of. cbn [fst]. unfold slot_ms, health_ms. rewrite !cons_ok. cbn [de_members]. tauto.
  - unfold slot_c. cbn [de struct_ext_once_c]. destruct (de_members slot_ms es) as [v|]; cbn [bind].
    + destruct (ext_de (unknown (names slot_ms) es)) as [x|]; cbn [bind]; split.
      * intros (E & y & Ey & O & Hs). injection Ey as <-. rewrite O. injection E as ->. now rewrite <- Hs.
      * destruct (once _ x) eqn:O; [|discriminate]. intros E. injection E as -> <-. eauto 6.
      * intros (_ & y & Ey & _). discriminate.
      * discriminate.
    + split; [intros [E _]|intros E]; discriminate.
Qed.

Definition is_none_entry (e : sval * sval) : bool :=
  match e with (VStr k, v) => str_eqb k $"test" && match test_or_none v with Ok None => true | _ => false end | _ => false end.
Lemma is_none_entry_iff : forall e, is_none_entry e = true <-> none_entry e.
Proof.
  intros [k v]. unfold none_entry, is_none_entry. destruct k; try (split; discriminate). rewrite andb_true_iff, str_eqb_eq. split.
  - intros [-> H]. destruct (test_or_none v) as [[]|] eqn:E; try discriminate. apply test_none in E. now subst.
  - intros E. injection E as -> ->. split; reflexivity.
Qed.

(** What one entry does to the [disable] slot and to the others. *)
Definition others (s : slots) : bool :=
  negb (is_none (h_test s) && is_none (h_interval s) && is_none (h_timeout s) && is_none (h_retries s) && is_none (h_start_period s)
         && is_none (h_start_interval s) && is_nil (h_extensions s)).
Lemma entry_step : forall s e s', health_entry s e = Ok s' ->
  (exists b, e = (VStr $"disable", VBool b) /\ h_disable s = None /\ s' = mk_slots (Some b) (h_test s) (h_interval s) (h_timeout s) (h_retries s) (h_start_period s) (h_start_interval s) (h_extensions s)) \/
  (none_entry e /\ h_disable s <> Some true /\ s' = mk_slots (Some true) (h_test s) (h_interval s) (h_timeout s) (h_retries s) (h_start_period s) (h_start_interval s) (h_extensions s)) \/
  (h_disable s' = h_disable s /\ others s' = true).
Proof.
  intros [d t i o r p q x] [k v] s'. unfold health_entry. cbn [fst snd h_disable h_test h_interval h_timeout h_retries h_start_period h_start_interval h_extensions].
  destruct k as [| | | |k| |]; try discriminate.
  destruct (str_eqb_spec k $"disable") as [->|N1].
  { intros H. left. apply fill_iff in H as (-> & b & Hb & ->). destruct v; try discriminate. injection Hb as ->. eauto. }
  destruct (str_eqb_spec k $"test") as [->|N2].
  { destruct (is_none t) eqn:Et; [|discriminate]. destruct (test_or_none v) as [[y|]|] eqn:Ev; cbn [bind]; [| |discriminate].
    - intros H. injection H as <-. right. right. split; reflexivity.
    - apply test_none in Ev. subst v. intros H. right. left. split; [reflexivity|]. destruct d as [[]|]; try discriminate; injection H as <-; (split; [discriminate|reflexivity]). }
  assert (X : forall (A : Set) (slot : option A) c g, (forall a, h_disable (g (Some a)) = d /\ others (g (Some a)) = true) -> fill slot c v g = Ok s' -> h_disable s' = d /\ others s' = true).
  { intros A slot c g Hg H. apply fill_iff in H as (_ & a & _ & ->). apply Hg. }
  Ltac step X := let H := fresh in intros H; right; right; refine (X _ _ _ _ _ H); intros a; split; [reflexivity|];
    unfold others; cbn [h_disable h_test h_interval h_timeout h_retries h_start_period h_start_interval h_extensions is_none]; rewrite ?andb_false_r; reflexivity.
  destruct (str_eqb_spec k $"interval"); [step X|].
  destruct (str_eqb_spec k $"timeout"); [step X|].
  destruct (str_eqb_spec k $"retries"); [step X|].
  destruct (str_eqb_spec k $"start_period"); [step X|].
  destruct (str_eqb_spec k $"start_interval"); [step X|].
  destruct (ext_entry (VStr k, v)) as [y|]; cbn [bind]; [|discriminate]. destruct (imap_get str_eqb x (fst y)); [discriminate|].
  intros H. injection H as <-. right. right. split; [reflexivity|]. unfold others. cbn [h_extensions]. destruct x; cbn [app is_nil]; now rewrite andb_false_r.
Qed.
Lemma entry_others : forall s e s', health_entry s e = Ok s' -> others s = true -> others s' = true.
Proof. intros s e s' H O. apply entry_step in H as [(b & _ & _ & ->)|[(_ & _ & ->)|(_ & H)]]; assumption. Qed.
Lemma loop_others : forall es s s', health_loop s es = Ok s' -> others s = true -> others s' = true.
Proof.
  induction es as [|e es IH]; intros s s' H O; cbn [health_loop] in H; [now injection H as <-|]. apply bind_ok in H as (s1 & H1 & H).
  apply (IH s1 s' H). now apply (entry_others s e s1).
Qed.
Lemma loop_disabled : forall es s s', health_loop s es = Ok s' -> h_disable s = Some true -> h_disable s' = Some true.
Proof.
  induction es as [|e es IH]; intros s s' H O; cbn [health_loop] in H; [now injection H as <-|]. apply bind_ok in H as (s1 & H1 & H).
  apply (IH s1 s' H). apply entry_step in H1 as [(b & _ & X & _)|[(_ & X & _)|(X & _)]]; congruence.
Qed.
Lemma loop_none : forall es s s', health_loop s es = Ok s' -> Exists none_entry es -> h_disable s' = Some true.
Proof.
  induction es as [|e es IH]; intros s s' H N; [inversion N|]. cbn [health_loop] in H. apply bind_ok in H as (s1 & H1 & H).
  inversion N as [? ? Ne|? ? Ne]; subst; [|now apply (IH s1)]. apply (loop_disabled es s1 s' H). unfold none_entry in Ne. subst e.
  destruct s as [d t i o r p q x]. cbn [health_entry fst snd] in H1. change (str_eqb $"test" $"disable") with false in H1. change (str_eqb $"test" $"test") with true in H1.
  cbv iota in H1. destruct (is_none t); [|discriminate]. cbn [bind test_or_none] in H1. kind_texts. change (str_eqb $"NONE" $"CMD") with false in H1.
  change (str_eqb $"NONE" $"CMD-SHELL") with false in H1. change (str_eqb $"NONE" $"NONE") with true in H1. cbv iota in H1. cbn [bind] in H1.
  destruct d as [[]|]; try discriminate; injection H1 as <-; reflexivity.
Qed.

(** The result is [Disable] for three lists of entries. *)
Lemma disabled_iff : forall es, health_de (VMap es) = Ok HcDisable <->
  es = [(VStr $"disable", VBool true)] \/ es = [(VStr $"test", VSeq [VStr $"NONE"])] \/
  es = [(VStr $"disable", VBool false); (VStr $"test", VSeq [VStr $"NONE"])].
Proof.
  intros es. split; [|intros [->|[->| ->]]; reflexivity].
  cbn [health_de]. intros H. apply bind_ok in H as (s' & H & F).
  assert (D : h_disable s' = Some true /\ others s' = false).
  { unfold health_finish in F. destruct (h_disable s') as [[]|]; try discriminate. split; [reflexivity|]. unfold others.
    destruct (_ && _); [reflexivity|discriminate]. }
  destruct D as [D O]. clear F.
  assert (T : forall s e s1 es, health_entry s e = Ok s1 -> health_loop s1 es = Ok s' -> 
    (exists b, e = (VStr $"disable", VBool b) /\ h_disable s = None /\ h_disable s1 = Some b) \/ (none_entry e /\ h_disable s <> Some true /\ h_disable s1 = Some true)).
  { intros s e s1 es0 H1 H2. apply entry_step in H1 as [(b & -> & Hd & ->)|[(N & Hd & ->)|(_ & X)]].
    - left. eauto.
    - right. auto.
    - rewrite (loop_others es0 s1 s' H2 X) in O. discriminate. }
  unfold none_entry in T. destruct es as [|e1 es]; cbn [health_loop] in H; [injection H as <-; discriminate|].
  apply bind_ok in H as (s1 & H1 & H). destruct (T _ _ _ _ H1 H) as [(b & -> & _ & D1)|(-> & _ & D1)].
  - destruct es as [|e2 es]; cbn [health_loop] in H.
    + injection H as <-. left. congruence.
    + apply bind_ok in H as (s2 & H2 & H). destruct (T _ _ _ _ H2 H) as [(b' & _ & X & _)|(-> & X & D2)]; [congruence|].
      destruct es as [|e3 es]; cbn [health_loop] in H.
      * right. right. destruct b; [congruence|reflexivity].
      * apply bind_ok in H as (s3 & H3 & H). destruct (T _ _ _ _ H3 H) as [(b' & _ & Y & _)|(_ & Y & _)]; congruence.
  - destruct es as [|e2 es]; cbn [health_loop] in H; [tauto|].
    apply bind_ok in H as (s2 & H2 & H). destruct (T _ _ _ _ H2 H) as [(b' & _ & X & _)|(_ & X & _)]; congruence.
Qed.

Lemma test_not_none : forall es o, fills test_c None (lookup $"test" es) o -> Forall (fun e => ~ none_entry e) es.
Proof.
  induction es as [|[k v] es IH]; intros o H; [constructor|]. 
  assert (X : k = VStr $"test" \/ k <> VStr $"test").
  { destruct k; try (right; discriminate). destruct (str_eqb_spec s $"test") as [->|N]; [now left|right; congruence]. }
  destruct X as [->|N].
  - apply fills_this in H as (_ & a & Ea & H). constructor.
    + intros E. injection E as ->. discriminate.
    + apply IH with (o := None). cbn [fills]. destruct (lookup _ es) as [[]|]; cbn [fills] in *; [destruct H; discriminate|reflexivity|assumption].
  - apply fills_other in H; [|exact N]. constructor; [|now apply (IH o)]. intros E. injection E as -> _. congruence.
Qed.

Lemma command_iff : forall es c, health_de (VMap es) = Ok (HcCommand c) <->
  exists d, d <> Some true /\ de slot_c (VMap es) = Ok ((d, fst c), snd c).
Proof.
  intros es c. cbn [health_de]. rewrite bind_ok. split.
  - intros (s & H & F). unfold health_finish in F.
    assert (N : h_disable s <> Some true /\ slots_of s = ((h_disable s, fst c), snd c)).
    { destruct (h_disable s) as [[]|] eqn:E; [destruct (_ && _); discriminate| |]; (split; [discriminate|]); injection F as <-; unfold slots_of; now rewrite E. }
    destruct N as [N Es]. exists (h_disable s). split; [assumption|]. rewrite <- Es. apply filled_iff. apply health_loop_filled; [|constructor|assumption].
    apply Forall_forall. intros e I Ne. apply N. apply (loop_none es no_slots s H). apply Exists_exists. eauto.
  - intros (d & N & H). destruct c as [[t [i [o [r [p [q []]]]]]] x]. cbn [fst snd] in H.
    exists (mk_slots d t i o r p q x). split.
    + assert (H' := proj2 (filled_iff es (mk_slots d t i o r p q x)) H). pose proof H' as (_ & T & _). apply health_loop_filled; [|constructor|exact H']. now apply test_not_none in T.
    + unfold health_finish. cbn. destruct d as [[]|]; [congruence|reflexivity|reflexivity].
Qed.

(** ** The codec *)

Lemma strings_rt : forall l, strings (map VStr l) = Ok l.
Proof. intros l. unfold strings. rewrite (collect_map_rt _ _ (fun s => s) (fun _ => True)); [now rewrite map_id|reflexivity|]. now apply Forall_forall. Qed.
Lemma test_good : good test_c.
Proof.
  apply plain_good; [intros a; reflexivity| |intros v a _; exact I].
  intros [args|s] _; [|reflexivity]. cbn [de ser test_c test_ser test_or_none map]. kind_texts. rewrite str_eqb_refl, strings_rt. reflexivity.
Qed.
Lemma test_clean : clean test_c.
Proof. intros [args|s] _; [|reflexivity]. cbn [ser test_c test_ser yaml_ok]. apply forallb_forall. intros v I. apply in_map_iff in I as (s & <- & _). reflexivity. Qed.
#[export] Hint Resolve test_good test_clean : codec.

Lemma slot_good : good slot_c. Proof. unfold slot_c. apply struct_ext_once_good; try reflexivity. unfold slot_ms, health_ms. members. Qed.
Lemma health_struct_good : good (struct_ext_c health_ms). Proof. struct health_ms. Qed.
Lemma healthcheck_good : good healthcheck_c.
Proof.
  split.
  - intros [c|] W; [|reflexivity]. cbn [de ser norm wf healthcheck_c health_ser] in *.
    assert (R := g_rt _ slot_good ((None, fst c), snd c)). cbn [wf slot_c struct_ext_once_c] in R. specialize (R (conj (conj I (proj1 W)) (proj2 W))).
    destruct c as [c x]. cbn [fst snd] in *. change (ser (struct_ext_c health_ms) (c, x)) with (ser slot_c ((None, c), x)).
    unfold slot_c in R |- *. cbn [ser struct_ext_once_c struct_ext_c] in *. apply command_iff. exists None. split; [discriminate|]. exact R.
  - intros v [c|] H; [|exact I]. cbn [de healthcheck_c] in H. destruct v as [| | | | | |es]; try discriminate. apply command_iff in H as (d & _ & H). apply (g_sound _ slot_good) in H.
    destruct H as [[_ H1] H2]. exact (conj H1 H2).
  - intros [c|] W; [|reflexivity]. cbn [ser norm wf healthcheck_c health_ser] in *. now apply (g_settled _ health_struct_good).
Qed.
Lemma healthcheck_mapping : mapping healthcheck_c. Proof. intros []; reflexivity. Qed.
Lemma healthcheck_clean : clean healthcheck_c.
Proof. intros [c|] W; [|reflexivity]. cbn [ser wf healthcheck_c health_ser] in *. assert (C : clean (struct_ext_c health_ms)) by (struct health_ms). now apply C. Qed.
#[export] Hint Resolve healthcheck_good healthcheck_mapping healthcheck_clean : codec.

(** ** Order *)

Lemma once_keys : forall us x, ext_de us = Ok x -> once us x = true -> keys_once us.
Proof.
  intros us x H O. unfold ext_de in H. destruct (collect ext_entry us) as [l|] eqn:C; cbn [map_ok] in H; [|discriminate]. injection H as <-.
  assert (L : List.length us = List.length l) by (apply collect_ok in C; clear - C; induction C; cbn [List.length]; congruence).
  unfold once in O. apply Nat.eqb_eq in O. rewrite L in O. symmetry in O. apply imap_of_length in O. unfold keys_once. rewrite (ext_entries _ _ C), <- (map_map fst VStr).
  apply FinFun.Injective_map_NoDup; [|assumption]. intros a b E. congruence.
Qed.
Lemma struct_ext_once_order : forall ms es es' a, Forall member_perm ms -> Permutation es es' ->
  de (struct_ext_once_c ms) (VMap es) = Ok a -> exists b, de (struct_ext_once_c ms) (VMap es') = Ok b /\ same_but_order a b.
Proof.
  intros ms es es' a H P E. cbn [de struct_ext_once_c] in *. rewrite <- (members_perm ms es es' H P). destruct (de_members ms es) as [v|]; cbn [bind] in *; [|discriminate].
  assert (U := unknown_perm (names ms) _ _ P).
  destruct (ext_de (unknown (names ms) es)) as [x|] eqn:X; cbn [bind] in E; [|discriminate]. destruct (once _ x) eqn:O; [|discriminate]. injection E as <-.
  destruct (ext_de_perm _ _ x (once_keys _ _ X O) U X) as (x' & -> & P'). cbn [bind].
  assert (O' : once (unknown (names ms) es') x' = true).
  { unfold once in *. now rewrite <- (Permutation_length U), <- (Permutation_length P'). }
  rewrite O'. exists (v, x'). split; [reflexivity|]. split; [reflexivity|assumption].
Qed.
Lemma slot_perm : Forall member_perm slot_ms.
Proof. unfold slot_ms, health_ms. repeat (apply Forall_cons; [apply field_perm|]). apply Forall_nil. Qed.

Definition health_same (a b : result de_error healthcheck) : Prop :=
  match a, b with
  | Ok HcDisable, Ok HcDisable => True
  | Ok (HcCommand a), Ok (HcCommand b) => same_but_order a b
  | Err _, Err _ => True
  | _, _ => False
  end.
Lemma command_order : forall es es' c, Permutation es es' -> health_de (VMap es) = Ok (HcCommand c) ->
  exists c', health_de (VMap es') = Ok (HcCommand c') /\ same_but_order c c'.
Proof.
  intros es es' c P H. apply command_iff in H as (d & N & H). destruct (struct_ext_once_order _ _ _ _ slot_perm P H) as (((d' & v') & x') & H' & E & Px).
  cbn [fst snd] in E, Px. injection E as <- E. exists (v', x'). split; [|split; [exact E|exact Px]]. apply command_iff. exists d. split; [assumption|exact H'].
Qed.
