(** [ServiceCodec] is good, up to [volumes_from] (see [volumes_from_reload_refuted]). *)

From Coq Require Import String Ascii List NArith ZArith Bool Lia ZifyBool ZifyN ZifyNat.
Import ListNotations.
From Verif Require Import Base BaseFacts Num NumFacts Coll CollFacts TextModel PropsText VolumesModel EqModel Serde Codec CodecFacts EnumModel ScalarCodec ScalarGood CommonCodec CommonGood
  ServiceParts PartsGood MountCodec MountGood HealthModel HealthProofs ServiceCodec.
Open Scope N_scope.

(** ** Fields which are only sound for some values *)

Fixpoint nth_sound_if (n : nat) (ms : list member) {struct ms} : (nth_type n ms -> Prop) -> Prop :=
  match ms return (nth_type n ms -> Prop) -> Prop with
  | [] => fun _ => True
  | m :: r => match n return (nth_type n (m :: r) -> Prop) -> Prop with
              | O => fun Q => forall es a, m_de m es = Ok a -> Q a -> m_wf m a
              | S n => nth_sound_if n r
              end
  end.
Fixpoint others_good (n : nat) (ms : list member) {struct ms} : Prop :=
  match ms with [] => True | m :: r => match n with O => Forall member_good r | S n => member_good m /\ others_good n r end end.
Lemma others_cons : forall n m r, member_good m -> others_good n r -> others_good (S n) (m :: r). Proof. intros n m r G O. split; assumption. Qed.
Lemma others_here : forall m r, Forall member_good r -> others_good 0 (m :: r). Proof. intros m r G. exact G. Qed.
Lemma nth_members_sound_if : forall ms n (Q : nth_type n ms -> Prop), others_good n ms -> nth_sound_if n ms Q ->
  members_sound_if ms (fun v => Q (nth_val n ms v)).
Proof.
  induction ms as [|m r IH]; intros n Q O S es v H P; [exact I|]. cbn [de_members] in H.
  destruct (m_de m es) as [a|] eqn:Ea; cbn [bind] in H; [|discriminate]. destruct (de_members r es) as [u|] eqn:Er; cbn [bind] in H; [|discriminate].
  injection H as <-. destruct n as [|n]; cbn [others_good nth_sound_if nth_val nth_type] in *; split; cbn [fst snd] in *.
  - exact (S es a Ea P).
  - exact (de_members_sound r es u O Er).
  - destruct O as [G _]. exact (mg_sound m G es a Ea).
  - destruct O as [_ O]. exact (IH n Q O S es u Er P).
Qed.
Lemma many_iset_back : forall n {A : Set} eqb (c : codec A) (P : A -> Prop), plain c -> good_if P c -> member_back (many n (iset_c eqb c)).
Proof.
  intros n A eqb c P Pl [R _ _]. apply field_back.
  - intros l [W D] K. cbn [ser de norm iset_c]. rewrite (collect_map_rt _ _ (fun a => a) (wf c)); [|intros a Wa; rewrite (R a Wa); now rewrite (Pl a)|assumption].
    cbn [map_ok]. rewrite map_id, (iset_of_distinct eqb) by assumption. auto.
  - intros l _. exists []. auto.
Qed.
Lemma many_iset_sound_if : forall n {A : Set} eqb (c : codec A) (P : A -> Prop), good_if P c ->
  forall es l, m_de (many n (iset_c eqb c)) es = Ok l -> Forall P l -> m_wf (many n (iset_c eqb c)) l.
Proof.
  intros n A eqb c P [_ S _] es l H F. cbn [m_de m_wf many field] in *. destruct (lookup n es) as [[v|]|]; cbn [bind] in H; [|injection H as <-; split; constructor|discriminate].
  cbn [de wf iset_c] in *. destruct v; try discriminate. destruct (collect (de c) l0) as [r|] eqn:C; cbn [map_ok] in H; [|discriminate]. injection H as <-.
  destruct (iset_of_is_distinct eqb r) as [I1 I2]. split; [|assumption]. rewrite Forall_forall in *. intros x Hx.
  apply collect_ok in C. assert (X := I2 x Hx). specialize (F x Hx). clear - C X F S. induction C as [|v a vs r E C IH]; [destruct X|].
  destruct X as [<-|X]; [exact (S _ _ E F)|auto].
Qed.

(** ** The fields of a service *)

Lemma cpuset_field_good : forall n w, member_good (cpuset_field n w).
Proof. intros n w. apply field_good'; [auto with codec|intros a _ H; exact H|intros a _; exists []; auto|intros a H; injection H as <-; split; constructor]. Qed.
Lemma cpuset_field_clean : forall n w, member_clean (cpuset_field n w). Proof. intros. apply field_clean'. auto with codec. Qed.
Lemma depends_on_field_good : forall n, member_good (depends_on_field n).
Proof.
  intros n. apply field_good'; [auto with codec| |intros a _; exists (Short []); auto|intros a H; injection H as <-; split; constructor].
  intros [l|[|e m]] _ H; [exact H|discriminate|reflexivity].
Qed.
Lemma depends_on_field_clean : forall n, member_clean (depends_on_field n). Proof. intros. apply field_clean'. auto with codec. Qed.
Lemma vmap_field_good : forall n, member_good (many n vmap_c).
Proof. intros n. unfold vmap_c. auto with codec. Qed.
Lemma vmap_clean : clean vmap_c. Proof. unfold vmap_c. auto 8 with codec. Qed.
Lemma build_or_context_good : forall w, externals_ok w -> good (short_or_long_c (context_c w) (build_c w)).
Proof. intros w O. auto 8 with codec. Qed.
#[export] Hint Resolve cpuset_field_good cpuset_field_clean depends_on_field_good depends_on_field_clean vmap_field_good vmap_clean healthcheck_mapping mapping_nn : codec.

(** What a container in [volumes_from] may not be called. *)
Definition volumes_from_ok (v : volumes_from) : Prop := vf_read_only v = false -> suffix_free (vf_source v).

(** [volumes_from] is the field with number 81. *)
Definition service_volumes_from {w : externals} (s : service w) : list volumes_from := nth_val 81 (service_ms w) (fst s).
Definition service_ok {w : externals} (s : service w) : Prop := Forall volumes_from_ok (service_volumes_from s).

Lemma service_others : forall w, externals_ok w -> others_good 81 (service_ms w).
Proof.
  intros w O. unfold service_ms. repeat (apply others_cons; [solve [auto 8 with codec]|]). apply others_here. members.
Qed.
Lemma service_backs : forall w, externals_ok w -> Forall member_back (service_ms w).
Proof.
  intros w O. unfold service_ms.
  repeat (apply Forall_cons; [first [solve [apply mg_back; auto 8 with codec]|eapply many_iset_back; [apply volumes_from_good_if|apply volumes_from_good_if]]|]). apply Forall_nil.
Qed.
Lemma volumes_from_clean : clean volumes_from_c. Proof. apply scalar_clean, volumes_from_good_if. Qed.
#[export] Hint Resolve volumes_from_clean : codec.
Lemma service_cleans : forall w, externals_ok w -> Forall member_clean (service_ms w).
Proof. intros w O. unfold service_ms. members. Qed.
Lemma service_good_if : forall w, externals_ok w -> good_if service_ok (service_c w).
Proof.
  intros w O. unfold service_c. apply (struct_ext_good_if (service_ms w) (fun v => Forall volumes_from_ok (nth_val 81 (service_ms w) v))).
  - now apply service_backs.
  - apply (nth_members_sound_if (service_ms w) 81 (Forall volumes_from_ok)); [now apply service_others|].
    exact (many_iset_sound_if $"volumes_from" volumes_from_eqb volumes_from_c volumes_from_ok (proj1 volumes_from_good_if)).
  - reflexivity.
  - reflexivity.
Qed.
Lemma service_clean : forall w, externals_ok w -> clean (service_c w).
Proof. intros w O. apply struct_ext_clean_back; [now apply service_backs|now apply service_cleans|reflexivity|reflexivity]. Qed.
