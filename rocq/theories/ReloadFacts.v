(** Lemmas for [PropsReload]: reading back a struct of which one field does not come back as it was. *)

From Coq Require Import String Ascii List NArith ZArith Bool Lia.
Import ListNotations.
From Verif Require Import Base BaseFacts Num NumFacts Coll CollFacts TextModel PropsText VolumesModel EqModel Serde Codec CodecFacts EnumModel ScalarCodec ScalarGood CommonCodec CommonGood
  ServiceParts PartsGood MountCodec MountGood HealthModel HealthProofs ServiceCodec ServiceGood ComposeCodec ComposeGood ExactFacts ReadFacts ComposeProofs ValidateModel ComposeView.
Open Scope N_scope.

(** ** All members but one *)

(** The member [n] comes back as [h], the others as their [m_norm]. *)
Fixpoint norm_but (n : nat) (ms : list member) {struct ms} : (nth_type n ms -> nth_type n ms) -> vals ms -> vals ms :=
  match ms return (nth_type n ms -> nth_type n ms) -> vals ms -> vals ms with
  | [] => fun _ v => v
  | m :: r => match n return (nth_type n (m :: r) -> nth_type n (m :: r)) -> vals (m :: r) -> vals (m :: r) with
              | O => fun h v => (h (fst v), norm_members r (snd v))
              | S n => fun h v => (m_norm m (fst v), norm_but n r h (snd v))
              end
  end.
Fixpoint wf_but (n : nat) (ms : list member) {struct ms} : (nth_type n ms -> Prop) -> vals ms -> Prop :=
  match ms return (nth_type n ms -> Prop) -> vals ms -> Prop with
  | [] => fun _ _ => True
  | m :: r => match n return (nth_type n (m :: r) -> Prop) -> vals (m :: r) -> Prop with
              | O => fun W v => W (fst v) /\ wf_members r (snd v)
              | S n => fun W v => m_wf m (fst v) /\ wf_but n r W (snd v)
              end
  end.
Fixpoint nth_reads (n : nat) (ms : list member) {struct ms} : (nth_type n ms -> Prop) -> (nth_type n ms -> nth_type n ms) -> Prop :=
  match ms return (nth_type n ms -> Prop) -> (nth_type n ms -> nth_type n ms) -> Prop with
  | [] => fun _ _ => True
  | m :: r => match n return (nth_type n (m :: r) -> Prop) -> (nth_type n (m :: r) -> nth_type n (m :: r)) -> Prop with
              | O => fun W h => (forall a pre post, W a -> apart (m_names m) pre -> apart (m_names m) post -> m_de m (pre ++ m_ser m a ++ post) = Ok (h a)) /\
                                (forall a, W a -> m_norm m (h a) = h a)
              | S n => nth_reads n r
              end
  end.

Lemma de_members_but : forall ms n W h (v : vals ms) pre post,
  Forall member_back ms -> others_good n ms -> nth_reads n ms W h -> NoDup (names ms) -> wf_but n ms W v -> apart (names ms) pre -> apart (names ms) post ->
  de_members ms (pre ++ ser_members ms v ++ post) = Ok (norm_but n ms h v).
Proof.
  induction ms as [|m r IH]; intros n W h v pre post G O N D Wv Hpre Hpost; [now destruct v|].
  destruct v as [a v]. inversion G as [|? ? Gm Gr]; subst. rewrite names_cons in *.
  apply NoDup_app_inv in D as [Dr Dx]. cbn [de_members ser_members fst snd].
  assert (P1 : apart (m_names m) pre) by (eapply apart_sub; [|exact Hpre]; intros k I; apply in_or_app; now left).
  assert (P2 : apart (m_names m) (ser_members r v ++ post)).
  { apply apart_app; [|eapply apart_sub; [|exact Hpost]; intros k I; apply in_or_app; now left].
    apply (key_in_apart _ (names r)); [exact Dx|now apply ser_members_keys]. }
  assert (P3 : apart (names r) (pre ++ m_ser m a)).
  { apply apart_app; [eapply apart_sub; [|exact Hpre]; intros k I; apply in_or_app; now right|].
    apply (key_in_apart _ (m_names m)); [|apply (mb_keys m Gm)]. intros k I J. now apply (Dx k). }
  assert (P4 : apart (names r) post) by (eapply apart_sub; [|exact Hpost]; intros k I; apply in_or_app; now right).
  rewrite <- (app_assoc (m_ser m a)). destruct n as [|n]; cbn [wf_but nth_reads norm_but others_good fst snd nth_type] in *; destruct Wv as [Wa Wv].
  - destruct N as [N _]. rewrite (N a pre (ser_members r v ++ post) Wa P1 P2). cbn [bind]. rewrite (app_assoc pre).
    rewrite (de_members_ser r v (pre ++ m_ser m a) post); auto.
  - rewrite (mb_rt m Gm a pre (ser_members r v ++ post) Wa P1 P2). cbn [bind]. rewrite (app_assoc pre).
    rewrite (IH n W h v (pre ++ m_ser m a) post); auto. apply O.
Qed.

Lemma members_sound_but : forall ms n (W : nth_type n ms -> Prop) es v, others_good n ms -> de_members ms es = Ok v -> W (nth_val n ms v) -> wf_but n ms W v.
Proof.
  induction ms as [|m r IH]; intros n W es v O H Wn; [exact I|]. cbn [de_members] in H. apply bind_ok in H as (a & Ha & H). apply bind_ok in H as (u & Hu & H). injection H as <-.
  destruct n as [|n]; cbn [wf_but nth_val others_good fst snd nth_type] in *.
  - split; [exact Wn|exact (de_members_sound r es u O Hu)].
  - destruct O as [Om O]. split; [exact (mg_sound m Om es a Ha)|exact (IH n W es u O Hu Wn)].
Qed.

Lemma member_norm_norm : forall m a, member_good m -> m_wf m a -> m_norm m (m_norm m a) = m_norm m a.
Proof.
  intros m a [[K R T] S] W. assert (E := R a [] [] W (apart_nil _) (apart_nil _)). assert (W' := S _ _ E).
  assert (E' := R _ [] [] W' (apart_nil _) (apart_nil _)). rewrite (T a W) in E'. congruence.
Qed.
Lemma norm_members_norm : forall ms (v : vals ms), Forall member_good ms -> wf_members ms v -> norm_members ms (norm_members ms v) = norm_members ms v.
Proof.
  induction ms as [|m r IH]; intros v G W; [reflexivity|]. inversion G as [|? ? Gm Gr]; subst. destruct v as [a v]. cbn [wf_members norm_members fst snd] in *.
  destruct W as [Wa Wv]. now rewrite (member_norm_norm m a Gm Wa), (IH v Gr Wv).
Qed.
Lemma norm_norm_but : forall ms n W h (v : vals ms), others_good n ms -> nth_reads n ms W h -> wf_but n ms W v ->
  norm_members ms (norm_but n ms h v) = norm_but n ms h v.
Proof.
  induction ms as [|m r IH]; intros n W h v O N Wv; [reflexivity|]. destruct v as [a v].
  destruct n as [|n]; cbn [wf_but nth_reads norm_but norm_members others_good fst snd nth_type] in *; destruct Wv as [Wa Wv].
  - now rewrite (proj2 N a Wa), (norm_members_norm r v O Wv).
  - destruct O as [Om O]. now rewrite (member_norm_norm m a Om Wa), (IH n W h v O N Wv).
Qed.

Lemma nth_but_here : forall ms n h (v : vals ms), (n < List.length ms)%nat -> nth_val n ms (norm_but n ms h v) = h (nth_val n ms v).
Proof.
  induction ms as [|m r IH]; intros n h v L; cbn [List.length] in L; [lia|]. destruct n as [|n]; cbn [norm_but nth_val fst snd nth_type] in *; [reflexivity|]. apply IH. lia.
Qed.
Lemma nth_but_other : forall ms n h j (v : vals ms), j <> n -> nth_val j ms (norm_but n ms h v) = nth_val j ms (norm_members ms v).
Proof.
  induction ms as [|m r IH]; intros n h j v L; [reflexivity|]. destruct n as [|n], j as [|j]; cbn [norm_but norm_members nth_val fst snd nth_type] in *; try reflexivity; [congruence|].
  apply IH. congruence.
Qed.

(** A struct with extensions. *)
Lemma struct_ext_but : forall ms n W h v (a : vals ms * extensions), Forall member_back ms -> others_good n ms -> nth_reads n ms W h ->
  nodupb (names ms) = true -> no_x (names ms) = true -> de (struct_ext_c ms) v = Ok a -> W (nth_val n ms (fst a)) ->
  de (struct_ext_c ms) (ser (struct_ext_c ms) a) = Ok (norm_but n ms h (fst a), snd a) /\
  norm (struct_ext_c ms) (norm_but n ms h (fst a), snd a) = (norm_but n ms h (fst a), snd a).
Proof.
  intros ms n W h v a G O N D X H Wn. destruct v as [| | | | | |es]; try discriminate. cbn [de struct_ext_c] in H.
  apply bind_ok in H as (u & Hu & H). apply bind_ok in H as (x & Hx & H). injection H as <-. cbn [fst snd] in *.
  assert (Wx := ext_de_sound _ _ Hx). assert (Wu := members_sound_but ms n W es u O Hu Wn). apply nodupb_NoDup in D. split.
  - cbn [ser de struct_ext_c fst snd]. assert (R := de_members_but ms n W h u [] (ext_ser x) G O N D Wu (apart_nil _)). cbn [app] in R.
    rewrite R by (apply ext_apart; [assumption|apply Wx]). cbn [bind]. rewrite unknown_app, unknown_fields by now apply ser_members_keys. cbn [app].
    rewrite unknown_ext by (assumption || apply Wx). now rewrite ext_ser_de.
  - cbn [norm struct_ext_c fst snd]. now rewrite (norm_norm_but ms n W h u O N Wu).
Qed.

(** ** [volumes_from] *)

(** What the text of [v] is read as. *)
Definition misread (v : volumes_from) : volumes_from :=
  if vf_read_only v then v
  else match vf_source v with
       | FromContainer c =>
           if str_eqb c $"ro" then mk_volumes_from (FromService $"container") true
           else if str_eqb c $"rw" then mk_volumes_from (FromService $"container") false else v
       | FromService _ => v
       end.
Lemma misread_cases : forall v,
  (v = mk_volumes_from (FromContainer $"ro") false /\ misread v = mk_volumes_from (FromService $"container") true) \/
  (v = mk_volumes_from (FromContainer $"rw") false /\ misread v = mk_volumes_from (FromService $"container") false) \/
  (volumes_from_ok v /\ misread v = v).
Proof.
  intros [s ro]. unfold misread, volumes_from_ok, suffix_free. cbn [vf_source vf_read_only]. destruct ro; [right; right; split; [discriminate|reflexivity]|].
  destruct s as [s|s]; [right; right; split; [split; discriminate|reflexivity]|].
  destruct (str_eqb s $"ro") eqn:E1; [apply str_eqb_eq in E1; subst s; auto|]. destruct (str_eqb s $"rw") eqn:E2; [apply str_eqb_eq in E2; subst s; auto|].
  right; right. split; [|reflexivity]. intros _. split; intros X; injection X as ->; discriminate.
Qed.
Lemma misread_read : forall v, source_ok (vf_source v) -> de volumes_from_c (ser volumes_from_c v) = Ok (misread v).
Proof.
  intros v S. cbn [de ser volumes_from_c text_c from_string]. destruct (misread_cases v) as [[-> ->]|[[-> ->]|[K ->]]]; [reflexivity|reflexivity|].
  now rewrite (proj2 (volumes_from_round_trip v S) K).
Qed.
Lemma misread_ok : forall v, volumes_from_ok (misread v).
Proof. intros v. destruct (misread_cases v) as [[_ ->]|[[_ ->]|[K ->]]]; [intros X; discriminate|intros _; split; discriminate|exact K]. Qed.
Definition misread_all (l : list volumes_from) : list volumes_from := iset_of volumes_from_eqb (map misread l).
Definition sources_ok (l : list volumes_from) : Prop := Forall (fun v => source_ok (vf_source v)) l.

(** A field whose value comes back as [h]. *)
Lemma field_reads_as : forall n {A : Set} (c : codec A) default skip (W : A -> Prop) h,
  (forall a, W a -> skip a = false -> de c (ser c a) = Ok (h a)) -> (forall a, W a -> skip a = true -> default = Some (h a)) ->
  forall a pre post, W a -> apart [n] pre -> apart [n] post -> m_de (field n c default skip) (pre ++ m_ser (field n c default skip) a ++ post) = Ok (h a).
Proof.
  intros n A c default skip W h R K a pre post Wa Hpre Hpost. cbn [m_ser m_de field].
  assert (L : lookup n (pre ++ (if skip a then [] else [(VStr n, ser c a)]) ++ post) = Ok (if skip a then None else Some (ser c a))).
  { rewrite lookup_app by (apply Hpre; now left). assert (T : lookup n post = Ok None) by (apply lookup_absent, Hpost; now left).
    destruct (skip a); [exact T|]. cbn [app lookup]. rewrite str_eqb_refl, T. reflexivity. }
  rewrite L. cbn [bind]. destruct (skip a) eqn:Ek; [now rewrite (K a Wa Ek)|now apply R].
Qed.
Lemma volumes_from_read : forall a pre post, sources_ok a -> apart [$"volumes_from"] pre -> apart [$"volumes_from"] post ->
  m_de (many $"volumes_from" (iset_c volumes_from_eqb volumes_from_c)) (pre ++ m_ser (many $"volumes_from" (iset_c volumes_from_eqb volumes_from_c)) a ++ post) = Ok (misread_all a).
Proof.
  apply (field_reads_as $"volumes_from" (iset_c volumes_from_eqb volumes_from_c) (Some []) is_nil sources_ok misread_all).
  - intros l W _. cbn [de ser iset_c]. rewrite (collect_map_rt _ _ misread (fun v => source_ok (vf_source v))); [reflexivity|exact misread_read|exact W].
  - intros [|x l] _ S; [reflexivity|discriminate].
Qed.
Lemma sources_read : forall es l, m_de (many $"volumes_from" (iset_c volumes_from_eqb volumes_from_c)) es = Ok l -> sources_ok l.
Proof.
  intros es l H. cbn [m_de many field] in H. apply bind_ok in H as (o & _ & H). destruct o as [v|]; [|injection H as <-; constructor].
  cbn [de iset_c] in H. destruct v as [| | | | |vs|]; try discriminate. destruct (collect (de volumes_from_c) vs) as [r|] eqn:C; cbn [map_ok] in H; [|discriminate].
  injection H as <-. apply (collect_sound _ (fun v => source_ok (vf_source v))) in C.
  - unfold sources_ok. rewrite Forall_forall in *. intros x I. apply C. now apply (iset_of_is_distinct volumes_from_eqb r).
  - intros v a D. cbn [de volumes_from_c text_c] in D. destruct v as [| | | |t| |]; try discriminate. cbn [from_string] in D.
    destruct (volumes_from_parse t) as [y|] eqn:P; cbn [map_err] in D; [|discriminate]. injection D as ->. now apply volumes_from_language in P.
Qed.

(** ** A service *)

Definition settle_service {w : externals} (s : service w) : service w := (norm_but 81 (service_ms w) misread_all (fst s), snd s).
Lemma service_nth_reads : forall w, nth_reads 81 (service_ms w) sources_ok misread_all.
Proof.
  intros w.
  change ((forall a pre post, sources_ok a -> apart [$"volumes_from"] pre -> apart [$"volumes_from"] post ->
    m_de (many $"volumes_from" (iset_c volumes_from_eqb volumes_from_c)) (pre ++ m_ser (many $"volumes_from" (iset_c volumes_from_eqb volumes_from_c)) a ++ post) = Ok (misread_all a)) /\
    (forall a, sources_ok a -> m_norm (many $"volumes_from" (iset_c volumes_from_eqb volumes_from_c)) (misread_all a) = misread_all a)).
  split; [exact volumes_from_read|]. intros a _. cbn [m_norm many field norm iset_c]. destruct (misread_all a) as [|x l]; reflexivity.
Qed.
Lemma service_sources : forall w v (s : service w), de (service_c w) v = Ok s -> sources_ok (service_volumes_from s).
Proof.
  intros w v s H. unfold service_c in H. destruct v as [| | | | | |es]; try discriminate. unfold service_volumes_from.
  apply (struct_nth (service_ms w) 81 es sources_ok s H).
  change (forall l, m_de (many $"volumes_from" (iset_c volumes_from_eqb volumes_from_c)) es = Ok l -> sources_ok l). exact (sources_read es).
Qed.
Lemma service_resettled : forall w v (s : service w), externals_ok w -> de (service_c w) v = Ok s ->
  de (service_c w) (ser (service_c w) s) = Ok (settle_service s) /\ norm (service_c w) (settle_service s) = settle_service s.
Proof.
  intros w v s O H. unfold service_c, settle_service in *.
  apply (struct_ext_but (service_ms w) 81 sources_ok misread_all v s (service_backs w O) (service_others w O) (service_nth_reads w) eq_refl eq_refl H).
  exact (service_sources w v s H).
Qed.
Lemma settle_volumes_from : forall w (s : service w), service_volumes_from (settle_service s) = misread_all (service_volumes_from s).
Proof.
  intros w s. unfold service_volumes_from, settle_service. apply (nth_but_here (service_ms w) 81 misread_all (fst s)).
  apply (Nat.ltb_lt 81 (List.length (service_ms w))). reflexivity.
Qed.
Lemma settle_service_other : forall w (s : service w) j, j <> 81%nat ->
  nth_val j (service_ms w) (fst (settle_service s)) = nth_val j (service_ms w) (norm_members (service_ms w) (fst s)).
Proof. intros w s j N. unfold settle_service. exact (nth_but_other (service_ms w) 81 misread_all j (fst s) N). Qed.
Lemma settle_service_ok : forall w (s : service w), service_ok (settle_service s).
Proof.
  intros w s. unfold service_ok. rewrite settle_volumes_from. apply Forall_forall. intros x I.
  apply (iset_of_is_distinct volumes_from_eqb) in I. apply in_map_iff in I as (y & <- & _). apply misread_ok.
Qed.

(** ** The file *)

Definition settle_services {w : externals} (l : list (str * service w)) : list (str * service w) := map (fun e => (fst e, settle_service (snd e))) l.
Definition services_wf {w : externals} (l : list (str * service w)) : Prop :=
  NoDup (map fst l) /\ Forall (fun e => wf identifier_c (fst e) /\ de (service_c w) (ser (service_c w) (snd e)) = Ok (settle_service (snd e)) /\
    norm (service_c w) (settle_service (snd e)) = settle_service (snd e)) l.
Definition settle {w : externals} (c : compose w) : compose w := (norm_but 3 (compose_ms w) settle_services (fst c), snd c).
Lemma services_reads : forall w, nth_reads 3 (compose_ms w) services_wf settle_services.
Proof.
  intros w. assert (IG : good identifier_c) by auto with codec. assert (IP : plain identifier_c) by auto with codec. split.
  - apply (field_reads_as $"services" (smap identifier_c (service_c w)) None (fun _ => false) services_wf settle_services); [|discriminate].
    intros l [D W] _. unfold smap. cbn [ser de imap_c].
    rewrite (collect_map_rt _ _ (fun e => (fst e, settle_service (snd e))) (fun e => wf identifier_c (fst e) /\ de (service_c w) (ser (service_c w) (snd e)) = Ok (settle_service (snd e)) /\
      norm (service_c w) (settle_service (snd e)) = settle_service (snd e))); [| |assumption].
    + cbn [map_ok]. rewrite (imap_of_nodup str_eqb str_eqb_eq); [reflexivity|]. rewrite map_map. exact D.
    + intros [a b] (Ha & Hb & _). unfold entry_de, entry_ser. cbn [fst snd] in *. rewrite (g_rt _ IG a Ha), (IP a), Hb. reflexivity.
  - intros l [_ W]. change (map (fun e => (fst e, norm (service_c w) (snd e))) (settle_services l) = settle_services l).
    unfold settle_services. rewrite map_map. apply map_ext_Forall. eapply Forall_impl; [|exact W]. intros [a b] (_ & _ & N). cbn [fst snd] in *. now rewrite N.
Qed.

Lemma compose_services_wf : forall w v (c : compose w), externals_ok w -> de (compose_c w) v = Ok c -> services_wf (compose_services c).
Proof.
  intros w v c O H. assert (IG : good identifier_c) by auto with codec. destruct v as [| | | | | |es]; try discriminate.
  destruct (services_read w es c H) as (v & _ & S). destruct v as [| | | | | |ss]; try discriminate. split.
  - unfold smap in S. cbn [de imap_c] in S. destruct (collect _ ss) as [r|]; cbn [map_ok] in S; [|discriminate]. injection S as <-. apply (imap_of_NoDup str_eqb str_eqb_eq).
  - apply Forall_forall. intros e J. destruct (imap_values str_eqb identifier_c (service_c w) ss _ e str_eqb_eq S J) as (x & y & _ & K & D).
    split; [exact (g_sound _ IG _ _ K)|exact (service_resettled w y (snd e) O D)].
Qed.
Lemma compose_resettled : forall w v (c : compose w), externals_ok w -> de (compose_c w) v = Ok c ->
  de (compose_c w) (ser (compose_c w) c) = Ok (settle c) /\ norm (compose_c w) (settle c) = settle c.
Proof.
  intros w v c O H. unfold compose_c, settle in *.
  apply (struct_ext_but (compose_ms w) 3 services_wf settle_services v c (compose_backs w O) (compose_others w O) (services_reads w) eq_refl eq_refl H).
  exact (compose_services_wf w v c O H).
Qed.
Lemma settle_compose_services : forall w (c : compose w), compose_services (settle c) = settle_services (compose_services c).
Proof. reflexivity. Qed.
Lemma settle_compose_other : forall w (c : compose w) j, j <> 3%nat ->
  nth_val j (compose_ms w) (fst (settle c)) = nth_val j (compose_ms w) (norm_members (compose_ms w) (fst c)).
Proof. intros w c j N. exact (nth_but_other (compose_ms w) 3 settle_services j (fst c) N). Qed.
Lemma settle_ok : forall w (c : compose w), compose_ok (settle c).
Proof.
  intros w c. unfold compose_ok. rewrite settle_compose_services. unfold services_ok, settle_services. apply Forall_forall. intros e I.
  apply in_map_iff in I as (s & <- & _). cbn [snd]. apply settle_service_ok.
Qed.
(** Once saved and loaded, a value comes back as it is. *)
Lemma settle_fixed : forall w v (c : compose w), externals_ok w -> de (compose_c w) v = Ok c ->
  de (compose_c w) (ser (compose_c w) (settle c)) = Ok (settle c).
Proof.
  intros w v c O H. destruct (compose_resettled w v c O H) as [R N]. destruct (compose_good_if w O) as [Rt S _].
  rewrite (Rt _ (S _ _ R (settle_ok w c))). now rewrite N.
Qed.

(** ** What the validation looks at *)

Lemma grants_norm : forall n l, map grant_view (m_norm (many n grants_c) l) = map grant_view l.
Proof.
  intros n l. cbn [m_norm many field]. destruct l as [|x l]; [reflexivity|]. cbn [is_nil]. change (norm grants_c (x :: l)) with (map (norm (short_or_long_c identifier_c config_or_secret_c)) (x :: l)).
  rewrite map_map. apply map_ext. intros [s|[g e]]; reflexivity.
Qed.
Lemma networks_norm : forall w o, networks_view (m_norm (network_config_m w) o) = networks_view o.
Proof.
  intros w [[m|[l|l]]|]; try reflexivity. unfold network_config_m. cbn [m_norm group]. unfold networks_c. cbn [norm short_or_long_c networks_view]. f_equal.
  change (map fst (map (fun e => (fst e, norm (option_c (service_network_c w)) (snd e))) l) = map fst l). rewrite map_map. reflexivity.
Qed.
Lemma volumes_norm : forall w l, m_norm (many $"volumes" (volumes_c w)) l = l.
Proof. intros w l. cbn [m_norm many field]. destruct l; reflexivity. Qed.
Lemma service_view_settle : forall w (s : service w), service_view (settle_service s) = service_view s.
Proof.
  intros w s. unfold service_view. rewrite !settle_service_other by discriminate.
  change (nth_val 48 (service_ms w) (norm_members (service_ms w) (fst s))) with (m_norm (network_config_m w) (nth_val 48 (service_ms w) (fst s))).
  change (nth_val 80 (service_ms w) (norm_members (service_ms w) (fst s))) with (m_norm (many $"volumes" (volumes_c w)) (nth_val 80 (service_ms w) (fst s))).
  change (nth_val 17 (service_ms w) (norm_members (service_ms w) (fst s))) with (m_norm (many $"configs" grants_c) (nth_val 17 (service_ms w) (fst s))).
  change (nth_val 67 (service_ms w) (norm_members (service_ms w) (fst s))) with (m_norm (many $"secrets" grants_c) (nth_val 67 (service_ms w) (fst s))).
  f_equal; [exact (networks_norm w _)|exact (volumes_norm w _)|exact (grants_norm _ _)|exact (grants_norm _ _)].
Qed.
Lemma many_keys : forall n {V : Set} (c : codec V) l, map fst (m_norm (many n (smap identifier_c c)) l) = map fst l.
Proof.
  intros n V c l. cbn [m_norm many field]. destruct l as [|x l]; [reflexivity|]. cbn [is_nil].
  change (map fst (map (fun e => (fst e, norm c (snd e))) (x :: l)) = map fst (x :: l)). rewrite map_map. reflexivity.
Qed.
Lemma compose_view_settle : forall w (c : compose w), compose_view (settle c) = compose_view c.
Proof.
  intros w c. unfold compose_view. change (nth_val 3 (compose_ms w) (fst (settle c))) with (settle_services (compose_services c)).
  rewrite !settle_compose_other by discriminate.
  change (nth_val 4 (compose_ms w) (norm_members (compose_ms w) (fst c))) with (m_norm (many $"networks" (smap identifier_c (option_c (resource_c (network_c w))))) (nth_val 4 (compose_ms w) (fst c))).
  change (nth_val 5 (compose_ms w) (norm_members (compose_ms w) (fst c))) with (m_norm (many $"volumes" (smap identifier_c (option_c (resource_c top_volume_c)))) (nth_val 5 (compose_ms w) (fst c))).
  change (nth_val 6 (compose_ms w) (norm_members (compose_ms w) (fst c))) with (m_norm (many $"configs" (smap identifier_c (resource_c config_c))) (nth_val 6 (compose_ms w) (fst c))).
  change (nth_val 7 (compose_ms w) (norm_members (compose_ms w) (fst c))) with (m_norm (many $"secrets" (smap identifier_c (resource_c secret_c))) (nth_val 7 (compose_ms w) (fst c))).
  f_equal; [|exact (many_keys _ _ _)|exact (many_keys _ _ _)|exact (many_keys _ _ _)|exact (many_keys _ _ _)].
  unfold settle_services, compose_services. rewrite map_map. apply map_ext. intros [n s]. cbn [fst snd]. now rewrite service_view_settle.
Qed.

(** ** Without empty maps nothing else changes *)

Lemma settle_service_exact : forall w (s : service w), norm (service_c w) s = s -> forall j, j <> 81%nat -> nth_val j (service_ms w) (fst (settle_service s)) = nth_val j (service_ms w) (fst s).
Proof. intros w s N j J. rewrite (settle_service_other w s j J). f_equal. exact (f_equal fst N). Qed.
Lemma map_fixed : forall {K V : Type} (f : V -> V) (l : list (K * V)), map (fun e => (fst e, f (snd e))) l = l -> Forall (fun e => f (snd e) = snd e) l.
Proof. intros K V f l. induction l as [|[n s] l IH]; intros S; [constructor|]. cbn [map fst snd] in S. injection S as S1 S2. constructor; [exact S1|exact (IH S2)]. Qed.
Lemma compose_norm_parts : forall w (c : compose w), norm (compose_c w) c = c ->
  norm_members (compose_ms w) (fst c) = fst c /\ Forall (fun e => norm (service_c w) (snd e) = snd e) (compose_services c).
Proof.
  intros w c N. assert (M : norm_members (compose_ms w) (fst c) = fst c) by exact (f_equal fst N). split; [exact M|].
  assert (S := f_equal (nth_val 3 (compose_ms w)) M).
  change (map (fun e => (fst e, norm (service_c w) (snd e))) (compose_services c) = compose_services c) in S.
  exact (map_fixed (norm (service_c w)) (compose_services c) S).
Qed.
