(** What an empty struct is written as, for [PropsEmpty]. *)

From Coq Require Import String Ascii List NArith ZArith Bool Lia.
Import ListNotations.
From Verif Require Import Base BaseFacts Num Coll BytesModel VolumesModel ValuesModel Serde Codec CodecFacts EnumModel ScalarCodec ScalarGood CommonCodec CommonGood ServiceParts PartsGood MountCodec MountGood
  HealthModel ServiceCodec ServiceGood ComposeCodec ComposeGood EmptyModel.
Open Scope N_scope.

(** Nothing is said here but the names of fields: lists and maps which are empty, or have only such values in them.
    An extension, even one with an empty value, says something. *)
Fixpoint blank (v : sval) : bool :=
  match v with
  | VSeq l => forallb blank l
  | VMap es => forallb (fun e => match fst e with VStr n => negb (starts_with $"x-" n) | _ => false end && blank (snd e)) es
  | _ => false
  end.
Definition blanks (es : list (sval * sval)) : bool := blank (VMap es).

Lemma blanks_app : forall a b, blanks (a ++ b) = blanks a && blanks b.
Proof. intros a b. apply forallb_app. Qed.

(** Never blank. *)
Definition solid {A : Set} (c : codec A) : Prop := forall a, wf c a -> blank (ser c a) = false.
Lemma scalar_solid : forall {A : Set} (c : codec A), scalar c -> solid c.
Proof. intros A c S a W. specialize (S a W). destruct (ser c a); now try discriminate. Qed.
Lemma option_solid : forall {A : Set} (c : codec A), solid c -> solid (option_c c).
Proof. intros A c S [a|] W; [exact (S a W)|reflexivity]. Qed.
Lemma short_or_long_solid : forall {A B : Set} (s : codec A) (l : codec B), solid s -> solid l -> solid (short_or_long_c s l).
Proof. intros A B s l X Y [a|b] W; cbn [ser short_or_long_c]; auto. Qed.
Lemma value_solid : solid value_c. Proof. intros [s|[n|z|b]|b] _; reflexivity. Qed.
Lemma string_or_number_solid : solid string_or_number_c. Proof. intros [s|[n|z|b]] _; reflexivity. Qed.
Lemma test_solid : solid test_c. Proof. intros [l|s] _; reflexivity. Qed.
(** A struct with a field which is always there and never blank. *)
Lemma struct_solid : forall n {A : Set} (c : codec A) ms, solid c -> solid (struct_c (required n c :: ms)).
Proof.
  intros n A c ms S [a v] [W _]. cbn [ser struct_c ser_members fst snd required m_ser field]. change (blanks ([(VStr n, ser c a)] ++ ser_members ms v) = false).
  rewrite blanks_app. unfold blanks at 1. cbn [blank forallb fst snd]. rewrite (S a W). now rewrite andb_false_r.
Qed.
Lemma struct_ext_solid : forall n {A : Set} (c : codec A) ms, solid c -> solid (struct_ext_c (required n c :: ms)).
Proof.
  intros n A c ms S [[a v] x] [[W _] _]. cbn [ser struct_ext_c ser_members fst snd required m_ser field]. rewrite <- app_assoc. change (blanks ([(VStr n, ser c a)] ++ ser_members ms v ++ ext_ser x) = false).
  rewrite blanks_app. unfold blanks at 1. cbn [blank forallb fst snd]. rewrite (S a W). now rewrite andb_false_r.
Qed.
#[export] Hint Resolve scalar_solid option_solid short_or_long_solid value_solid string_or_number_solid test_solid : codec.

(** How a type that can be blank is. *)
Definition empty_is {A : Set} (c : codec A) (e : A -> bool) : Prop := forall a, wf c a -> blank (ser c a) = e a.
(** The same for a member. *)
Definition member_is (m : member) (e : m_type m -> bool) : Prop := forall a, m_wf m a -> blanks (m_ser m a) = e a.

Definition named (n : str) : Prop := starts_with $"x-" n = false.
Lemma field_is : forall n {A : Set} (c : codec A) d skip e, named n -> (forall a, skip a = true -> e a = true) ->
  (forall a, wf c a -> skip a = false -> blank (ser c a) = e a) -> member_is (field n c d skip) e.
Proof.
  intros n A c d skip e N S E. unfold member_is. cbn [m_type m_wf m_ser field]. intros a W. destruct (skip a) eqn:K; [symmetry; now apply S|].
  unfold blanks. cbn [blank forallb fst snd]. rewrite N, (E a W K). cbn [negb]. now rewrite andb_true_r.
Qed.
Lemma optional_solid : forall n {A : Set} (c : codec A), named n -> solid c -> member_is (optional n c) is_none.
Proof. intros n A c N S. apply field_is; [assumption|auto|]. intros [a|] W K; [exact (S a W)|discriminate]. Qed.
Lemma given_solid : forall n {A : Set} (c : codec A), named n -> solid c -> member_is (given n c) is_none.
Proof. intros n A c N S. apply field_is; [assumption|auto|]. intros [a|] W K; [exact (S a W)|discriminate]. Qed.
Lemma optional_is : forall n {A : Set} (c : codec A) e, named n -> empty_is c e -> member_is (optional n c) (none_or e).
Proof.
  intros n A c e N S. apply field_is; [assumption|now intros [a|]|]. intros [a|] W K; [|discriminate]. cbn [ser option_c]. unfold none_or. rewrite negb_involutive. exact (S a W).
Qed.
Lemma list_blank : forall {A : Set} (c : codec A) e l, empty_is c e -> Forall (wf c) l -> blank (VSeq (map (ser c) l)) = forallb e l.
Proof. intros A c e l S. induction 1 as [|a l W F IH]; [reflexivity|]. cbn [map blank forallb] in *. now rewrite (S a W), IH. Qed.
Lemma list_solid : forall {A : Set} (c : codec A) l, solid c -> Forall (wf c) l -> blank (VSeq (map (ser c) l)) = is_nil l.
Proof. intros A c l S F. destruct F as [|a l W F]; [reflexivity|]. cbn [map blank forallb is_nil]. now rewrite (S a W). Qed.
Lemma many_list_is : forall n {A : Set} (c : codec A) e, named n -> empty_is c e -> member_is (many n (list_c c)) (forallb e).
Proof. intros n A c e N S. apply field_is; [assumption|now intros []|]. intros l W _. now apply list_blank. Qed.
Lemma many_list_solid : forall n {A : Set} (c : codec A), named n -> solid c -> member_is (many n (list_c c)) is_nil.
Proof. intros n A c N S. apply field_is; [assumption|auto|]. intros l W _. now apply list_solid. Qed.
Lemma many_iset_solid : forall n {A : Set} eqb (c : codec A), named n -> solid c -> member_is (many n (iset_c eqb c)) is_nil.
Proof. intros n A eqb c N S. apply field_is; [assumption|auto|]. intros l [W _] _. now apply list_solid. Qed.
Lemma many_sset_solid : forall n (c : codec str), named n -> solid c -> member_is (many n (sset c)) is_nil.
Proof. intros n c. apply many_iset_solid. Qed.
Lemma smap_solid : forall {V : Set} (k : codec str) (v : codec V) m, solid v -> wf (smap k v) m -> blank (ser (smap k v) m) = is_nil m.
Proof.
  intros V k v m S [W _]. destruct W as [|[a b] m [Wk Wv] W]; [reflexivity|]. cbn [ser smap imap_c map blank forallb entry_ser fst snd is_nil]. cbn [fst snd] in Wv. rewrite (S b Wv). now rewrite andb_false_r.
Qed.
Lemma many_smap_solid : forall n {V : Set} (k : codec str) (v : codec V), named n -> solid v -> member_is (many n (smap k v)) is_nil.
Proof. intros n V k v N S. apply field_is; [assumption|auto|]. intros m W _. now apply smap_solid. Qed.
Lemma extra_hosts_is : forall w n, named n -> member_is (many n (extra_hosts_c w)) is_nil.
Proof. intros w n N. apply field_is; [assumption|auto|]. intros m W _. apply (smap_solid hostname_c (ip_c w)); [|exact W]. auto with codec. Qed.
Lemma additional_contexts_is : forall w n, named n -> member_is (many n (additional_contexts_c w)) is_nil.
Proof. intros w n N. apply field_is; [assumption|auto|]. intros m W _. apply (smap_solid map_key_c (context_c w)); [|exact W]. intros c _. reflexivity. Qed.
Lemma list_or_map_is : forall n, named n -> member_is (list_or_map_field n) list_or_map_empty.
Proof.
  intros n N. apply field_is; [assumption|auto|]. intros [l|m] W _; cbn [ser list_or_map_c list_or_map_empty].
  - destruct W as [W _]. apply list_solid; auto with codec.
  - apply (smap_solid map_key_c (option_c value_c)); auto with codec.
Qed.
Lemma flag_is : forall n, named n -> member_is (flag n) negb.
Proof. intros n N. apply field_is; [assumption|auto|]. intros [] _ K; [reflexivity|discriminate]. Qed.
Lemma dockerfile_is : member_is dockerfile_m is_none.
Proof. intros [[p|s]|] _; reflexivity. Qed.
#[export] Hint Resolve optional_solid given_solid optional_is many_list_is many_list_solid many_iset_solid many_sset_solid many_smap_solid extra_hosts_is additional_contexts_is list_or_map_is flag_is dockerfile_is : codec.

Lemma ext_blank : forall x, ext_wf x -> blanks (ext_ser x) = is_nil x.
Proof.
  intros x (K & _ & _). destruct K as [|[k v] x [[r E] _] K]; [reflexivity|]. cbn [fst] in E. subst k. reflexivity.
Qed.

(** A struct all of whose members are tested. *)
Fixpoint tests (ms : list member) : Type := match ms with [] => unit | m :: ms => ((m_type m -> bool) * tests ms)%type end.
Fixpoint tests_are (ms : list member) : tests ms -> Prop :=
  match ms return tests ms -> Prop with [] => fun _ => True | m :: ms => fun t => member_is m (fst t) /\ tests_are ms (snd t) end.
Fixpoint all_empty (acc : bool) (ms : list member) : tests ms -> vals ms -> bool :=
  match ms return tests ms -> vals ms -> bool with [] => fun _ _ => acc | m :: ms => fun t v => all_empty (acc && fst t (fst v)) ms (snd t) (snd v) end.
Lemma all_blank : forall ms t acc, tests_are ms t -> forall v, wf_members ms v -> acc && blanks (ser_members ms v) = all_empty acc ms t v.
Proof.
  induction ms as [|m ms IH]; intros t acc H v W; [apply andb_true_r|]. destruct H as [H1 H2], W as [W1 W2]. cbn [ser_members all_empty]. now rewrite blanks_app, (H1 _ W1), andb_assoc, (IH _ _ H2 _ W2).
Qed.
Lemma struct_is : forall ms t, tests_are ms t -> empty_is (struct_c ms) (all_empty true ms t).
Proof. intros ms t H v W. exact (all_blank ms t true H v W). Qed.
Lemma struct_ext_is : forall ms t, tests_are ms t -> empty_is (struct_ext_c ms) (fun v => all_empty true ms t (fst v) && is_nil (snd v)).
Proof.
  intros ms t H [v x] [W X]. cbn [ser struct_ext_c fst snd]. fold (blanks (ser_members ms v ++ ext_ser x)). now rewrite blanks_app, <- (all_blank ms t true H v W), (ext_blank x X).
Qed.
Lemma empty_is_ext : forall {A : Set} (c : codec A) e e', empty_is c e -> (forall a, e a = e' a) -> empty_is c e'.
Proof. intros A c e e' H E a W. now rewrite (H a W). Qed.
