(** What was loaded is written without repeated keys, whatever it is. *)

From Coq Require Import String Ascii List NArith ZArith Bool Lia ZifyBool ZifyN ZifyNat.
Import ListNotations.
From Verif Require Import Base BaseFacts Num NumFacts Coll CollFacts TextModel PropsText VolumesModel EqModel Serde Codec CodecFacts EnumModel ScalarCodec ScalarGood CommonCodec CommonGood
  ServiceParts PartsGood MountCodec MountGood HealthModel HealthProofs ServiceCodec ServiceGood ComposeCodec ComposeGood.
Open Scope N_scope.

Definition neat {A : Set} (c : codec A) : Prop := forall v a, de c v = Ok a -> yaml_ok (ser c a) = true.
Definition member_neat (m : member) : Prop :=
  forall es a, m_de m es = Ok a -> NoDup (map fst (m_ser m a)) /\ Forall (fun e => yaml_ok (snd e) = true) (m_ser m a).

Lemma good_neat : forall {A : Set} (c : codec A), good c -> clean c -> neat c.
Proof. intros A c [_ S _] C v a H. exact (C a (S v a H)). Qed.
Lemma member_good_neat : forall m, member_good m -> member_clean m -> member_neat m.
Proof. intros m [_ S] C es a H. exact (C a (S es a H)). Qed.
Lemma field_neat : forall n {A : Set} (c : codec A) d (s : A -> bool), neat c -> (forall a, d = Some a -> s a = true) -> member_neat (field n c d s).
Proof.
  intros n A c d s H D es a E. cbn [m_ser m_de field] in *. destruct (s a) eqn:Ea; [split; constructor|]. split; [repeat constructor; intros []|].
  constructor; [|constructor]. cbn [snd]. destruct (lookup n es) as [[v|]|]; cbn [bind] in E; [exact (H v a E)| |discriminate].
  destruct d as [x|]; [|discriminate]. injection E as E. rewrite <- E, (D x eq_refl) in Ea. discriminate.
Qed.
Lemma ser_members_neat : forall ms es v, Forall member_back ms -> Forall member_neat ms -> NoDup (names ms) -> de_members ms es = Ok v ->
  NoDup (map fst (ser_members ms v)) /\ Forall (fun e => yaml_ok (snd e) = true) (ser_members ms v).
Proof.
  induction ms as [|m r IH]; intros es v G C D H; [split; constructor|]. inversion G as [|? ? Gm Gr]; inversion C as [|? ? Cm Cr]; subst.
  cbn [de_members] in H. destruct (m_de m es) as [a|] eqn:Ea; cbn [bind] in H; [|discriminate]. destruct (de_members r es) as [u|] eqn:Er; cbn [bind] in H; [|discriminate].
  injection H as <-. rewrite names_cons in D. apply NoDup_app_inv in D as [Dr N]. destruct (Cm _ _ Ea) as [D1 F1]. destruct (IH es u Gr Cr Dr Er) as [D2 F2].
  cbn [ser_members fst snd]. split; [|now apply Forall_app]. rewrite map_app. apply NoDup_app_intro; [assumption|assumption|].
  intros k I J. apply in_map_iff in I as (e & <- & I). apply in_map_iff in J as (e' & E & J).
  assert (K := mb_keys m Gm a). assert (K' := ser_members_keys r u Gr). rewrite Forall_forall in K, K'.
  destruct (K e I) as (x & Ex & Ix). destruct (K' e' J) as (y & Ey & Iy). rewrite Ex, Ey in E. injection E as ->. exact (N x Ix Iy).
Qed.
Lemma struct_ext_neat : forall ms, Forall member_back ms -> Forall member_neat ms -> nodupb (names ms) = true -> no_x (names ms) = true -> neat (struct_ext_c ms).
Proof.
  intros ms G C D X d [v x] H. cbn [de struct_ext_c] in H. destruct d as [| | | | |l|es]; try discriminate.
  destruct (de_members ms es) as [v'|] eqn:E; cbn [bind] in H; [|discriminate]. destruct (ext_de (unknown (names ms) es)) as [x'|] eqn:Ex; cbn [bind] in H; [|discriminate].
  injection H as -> ->. apply ext_de_sound in Ex as (F & Dx & Y). apply nodupb_NoDup in D.
  destruct (ser_members_neat ms es v G C D E) as [D' F']. assert (K := ser_members_keys ms v G). rewrite Forall_forall in F, K. cbn [ser struct_ext_c]. apply entries_clean.
  - cbn [fst snd]. rewrite map_app. apply NoDup_app_intro; [assumption| |].
    + unfold ext_ser. rewrite map_map. cbn [fst]. rewrite <- (map_map fst VStr). apply FinFun.Injective_map_NoDup; [|assumption]. intros a b Z. congruence.
    + intros k I J. apply in_map_iff in I as (e & <- & I). destruct (K e I) as (y & Ey & Iy). rewrite Ey in J. unfold ext_ser in J. rewrite map_map in J.
      apply in_map_iff in J as (e' & Z & J). cbn [fst] in Z. injection Z as <-. exact (no_x_ext _ _ X (F e' J) Iy).
  - apply Forall_app. split; [|apply Forall_map, Forall_forall; cbn [fst]; eauto]. apply Forall_forall. intros e I. destruct (K e I) as (y & Ey & _). eauto.
  - apply Forall_app. split; [assumption|]. unfold ext_ser. apply Forall_map. exact Y.
Qed.
Lemma imap_neat : forall {K V : Set} eqb (k : codec K) (v : codec V), (forall a b, eqb a b = true <-> a = b) -> leaf k -> neat v -> neat (imap_c eqb k v).
Proof.
  intros K V eqb k v Q [G P S] C d m H. cbn [de imap_c] in H. destruct d as [| | | | |l|l]; try discriminate.
  destruct (collect (entry_de k v) l) as [r|] eqn:E; cbn [map_ok] in H; [|discriminate]. injection H as <-.
  apply (collect_sound _ (fun e => wf k (fst e) /\ yaml_ok (ser v (snd e)) = true)) in E.
  2:{ intros [a b] [a' b']. unfold entry_de. cbn [fst snd].
      destruct (de k a) eqn:Ea; cbn [bind]; [|discriminate]. destruct (de v b) eqn:Eb; cbn [bind]; [|discriminate].
      intros X. injection X as <- <-. split; [exact (g_sound _ G _ _ Ea)|exact (C _ _ Eb)]. }
  assert (D := imap_of_NoDup eqb Q r). assert (F : Forall (fun e => wf k (fst e) /\ yaml_ok (ser v (snd e)) = true) (imap_of eqb r)).
  { rewrite Forall_forall in *. intros p I. apply E. now apply (imap_of_sub eqb Q) in I. }
  set (m := imap_of eqb r) in *. clearbody m. clear E r. cbn [ser imap_c yaml_ok]. apply andb_true_iff; split.
  - rewrite map_map. cbn [entry_ser fst]. apply no_repeat_NoDup.
    + apply Forall_map. eapply Forall_impl; [|exact F]. intros e [W _]. exact (S _ W).
    + induction m as [|e m IH]; cbn [map]; [constructor|]. inversion F as [|? ? [We _] F']; subst. inversion D as [|? ? N D']; subst.
      constructor; [|now apply IH]. intros I. apply in_map_iff in I as (e' & E & I). apply N. apply in_map_iff. exists e'. split; [|assumption].
      rewrite Forall_forall in F'. destruct (F' e' I) as [We' _]. assert (R := plain_rt k _ P G We). rewrite <- E, (plain_rt k _ P G We') in R. congruence.
  - apply forallb_forall. intros x I. apply in_map_iff in I as (e & <- & I). rewrite Forall_forall in F. destruct (F e I) as [W1 W2].
    cbn [entry_ser fst snd]. rewrite W2, andb_true_r. now apply (scalar_clean k S).
Qed.

Lemma volumes_from_neat : forall n, member_neat (many n (iset_c volumes_from_eqb volumes_from_c)).
Proof.
  intros n. apply field_neat; [|intros a E; injection E as <-; reflexivity]. intros v a _. cbn [ser iset_c yaml_ok]. apply forallb_forall.
  intros x I. apply in_map_iff in I as (y & <- & _). reflexivity.
Qed.
Lemma service_neats : forall w, externals_ok w -> Forall member_neat (service_ms w).
Proof.
  intros w O. unfold service_ms.
  repeat (apply Forall_cons; [first [apply volumes_from_neat|apply member_good_neat; auto 8 with codec]|]). apply Forall_nil.
Qed.
Lemma service_neat : forall w, externals_ok w -> neat (service_c w).
Proof. intros w O. apply struct_ext_neat; [now apply service_backs|now apply service_neats|reflexivity|reflexivity]. Qed.
Lemma compose_neats : forall w, externals_ok w -> Forall member_neat (compose_ms w).
Proof.
  intros w O. unfold compose_ms.
  repeat (apply Forall_cons; [first [solve [apply member_good_neat; auto 8 with codec]|
    apply field_neat; [apply imap_neat; [apply str_eqb_eq|auto with codec|now apply service_neat]|discriminate]]|]). apply Forall_nil.
Qed.
Lemma compose_neat : forall w, externals_ok w -> neat (compose_c w).
Proof. intros w O. apply struct_ext_neat; [now apply compose_backs|now apply compose_neats|reflexivity|reflexivity]. Qed.
