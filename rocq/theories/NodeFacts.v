(** The codecs read a value in the same way however it is presented by [serde_yaml]. *)

From Coq Require Import String Ascii List NArith ZArith Bool Lia.
Import ListNotations.
From Verif Require Import Base BaseFacts Num Coll CollFacts KeysModel Serde Codec CodecFacts ValuesModel ScalarCodec CommonCodec ServiceParts HealthModel HealthProofs NodeModel NodeSpec.
Open Scope N_scope.

(** ** Induction on nodes *)

Section Induction.
Variable P : node -> Prop.
Hypothesis Hplain : forall t, P (Plain t).
Hypothesis Hquoted : forall s, P (Quoted s).
Hypothesis Hseq : forall l, Forall P l -> P (NSeq l).
Hypothesis Hmap : forall es, Forall (fun e => P (fst e) /\ P (snd e)) es -> P (NMap es).
Fixpoint node_induction (n : node) : P n :=
  match n with
  | Plain t => Hplain t
  | Quoted s => Hquoted s
  | NSeq l => Hseq l ((fix go (l : list node) : Forall P l := match l with [] => Forall_nil _ | x :: r => Forall_cons x (node_induction x) (go r) end) l)
  | NMap es =>
      Hmap es ((fix go (es : list (node * node)) : Forall (fun e => P (fst e) /\ P (snd e)) es :=
        match es with
        | [] => Forall_nil _
        | e :: r => Forall_cons e (conj (node_induction (fst e)) (node_induction (snd e))) (go r)
        end) es)
  end.
End Induction.

(** ** Presentations *)

(** [le h v v']: a reader asking for [h] which accepts [v] accepts [v'], with the same result. *)
Inductive le : hint -> sval -> sval -> Prop :=
| le_refl h v : le h v v
| le_text v v' : (forall s, v <> VStr s) -> le HText v v'
| le_some h v v' : v <> VNull -> v' <> VNull -> le h v v' -> le (HOption h) v v'
| le_null_seq h v' : le (HSeq h) VNull v'
| le_seq h l l' : Forall2 (le h) l l' -> le (HSeq h) (VSeq l) (VSeq l')
| le_null_map h v' : le (HMap h) VNull v'
| le_map h es es' : Forall2 (fun e e' => le HText (fst e) (fst e') /\ le h (snd e) (snd e')) es es' -> le (HMap h) (VMap es) (VMap es')
| le_null_struct f v' : le (HStruct f) VNull v'
| le_struct f es es' :
    Forall2 (fun e e' => le HText (fst e) (fst e') /\ forall k, fst e = VStr k -> le (f k) (snd e) (snd e')) es es' ->
    le (HStruct f) (VMap es) (VMap es')
| le_forms_seq q m l l' : le q (VSeq l) (VSeq l') -> le (HForms q m) (VSeq l) (VSeq l')
| le_forms_map q m es es' : le m (VMap es) (VMap es') -> le (HForms q m) (VMap es) (VMap es')
| le_value h v : le (HValue h) v (seen_value h v).

Definition monotone {A : Set} (c : codec A) (h : hint) : Prop := forall v v' a, le h v v' -> de c v = Ok a -> de c v' = Ok a.
(** Only strings are read. *)
Definition reads_text {A : Set} (c : codec A) : Prop := forall v a, de c v = Ok a -> exists s, v = VStr s.

Lemma le_any : forall v v', le HAny v v' -> v' = v.
Proof. intros v v' H. now inversion H. Qed.
Lemma le_str : forall s v', le HText (VStr s) v' -> v' = VStr s.
Proof. intros s v' H. inversion H as [| ? ? N | | | | | | | | | | ]; subst; [reflexivity|]. now destruct (N s). Qed.

Lemma mono_any : forall {A : Set} (c : codec A), monotone c HAny.
Proof. intros A c v v' a L H. now rewrite (le_any _ _ L). Qed.
Lemma mono_text : forall {A : Set} (c : codec A), reads_text c -> monotone c HText.
Proof. intros A c R v v' a L H. destruct (R v a H) as [s ->]. now rewrite (le_str _ _ L). Qed.
Lemma mono_option : forall {A : Set} (c : codec A) h, monotone c h -> monotone (option_c c) (HOption h).
Proof.
  intros A c h M v v' a L H. inversion L as [| | ? ? ? N N' L' | | | | | | | | | ]; subst; [exact H|]. cbn [option_c de] in *.
  assert (Hd : map_ok Some (de c v) = Ok a) by (destruct v; [now destruct N|exact H..]). destruct (de c v) as [b|] eqn:D; cbn [map_ok] in Hd; [|discriminate].
  destruct v'; [now destruct N'| | | | | |]; rewrite (M _ _ b L' D); exact Hd.
Qed.
(** A field which may be left out but not null, of an optional type. *)
Lemma mono_text_option : forall {A : Set} (c : codec A), reads_text c -> monotone c (HOption HText).
Proof. intros A c R v v' a L H. destruct (R v a H) as [s ->]. inversion L as [| | ? ? ? N N' L' | | | | | | | | | ]; subst; [exact H|]. now rewrite (le_str _ _ L'). Qed.
Lemma mono_some : forall {A : Set} (c : codec A) h, monotone c h -> monotone (some_c c) h.
Proof.
  intros A c h M v v' a L H. cbn [some_c de] in *. destruct (de c v) as [b|] eqn:D; cbn [map_ok] in H; [|discriminate]. now rewrite (M _ _ b L D).
Qed.
Lemma mono_iso : forall {A B : Set} (c : codec A) (f : B -> A) g h, monotone c h -> monotone (iso c f g) h.
Proof. intros A B c f g h M v v' b L H. cbn [iso de] in *. destruct (de c v) as [a|] eqn:D; cbn [map_ok] in H; [|discriminate]. now rewrite (M _ _ a L D). Qed.

Lemma collect_le : forall {E A B} (f g : A -> result E B) (R : A -> A -> Prop) l l' ys,
  (forall x x' y, R x x' -> f x = Ok y -> g x' = Ok y) -> Forall2 R l l' -> collect f l = Ok ys -> collect g l' = Ok ys.
Proof.
  intros E A B f g R l l' ys M F H. apply collect_ok in H. apply collect_ok. revert ys H. induction F as [|x x' l l' Hx F IH]; intros ys H.
  - inversion H. constructor.
  - inversion H as [|? y ? ys' Hy Hr]; subst. constructor; [now apply (M x)|now apply IH].
Qed.
Lemma le_seq_inv : forall h l v', le (HSeq h) (VSeq l) v' -> exists l', v' = VSeq l' /\ Forall2 (le h) l l'.
Proof.
  intros h l v' L. inversion L as [| | | | ? ? l' F | | | | | | | ]; subst; [|now exists l']. exists l. split; [reflexivity|]. clear L. induction l; constructor; [constructor|assumption].
Qed.
Lemma le_map_inv : forall h es v', le (HMap h) (VMap es) v' ->
  exists es', v' = VMap es' /\ Forall2 (fun e e' => le HText (fst e) (fst e') /\ le h (snd e) (snd e')) es es'.
Proof.
  intros h es v' L. inversion L as [| | | | | | ? ? es' F | | | | | ]; subst; [|now exists es']. exists es. split; [reflexivity|]. clear L.
  induction es; constructor; [split; constructor|assumption].
Qed.
Definition entry_le (f : str -> hint) (e e' : sval * sval) : Prop :=
  le HText (fst e) (fst e') /\ forall k, fst e = VStr k -> le (f k) (snd e) (snd e').
Lemma le_struct_inv : forall f es v', le (HStruct f) (VMap es) v' -> exists es', v' = VMap es' /\ Forall2 (entry_le f) es es'.
Proof.
  intros f es v' L. inversion L as [| | | | | | | | ? ? es' F | | | ]; subst; [|now exists es']. exists es. split; [reflexivity|]. clear L.
  induction es; constructor; [split; constructor|assumption].
Qed.

Lemma mono_list : forall {A : Set} (c : codec A) h, monotone c h -> monotone (list_c c) (HSeq h).
Proof.
  intros A c h M v v' a L H. destruct v; try discriminate H. destruct (le_seq_inv _ _ _ L) as (l' & -> & F). cbn [list_c de] in *.
  now apply (collect_le (de c) (de c) (le h) l l').
Qed.
Lemma mono_iset : forall {A : Set} eqb (c : codec A) h, monotone c h -> monotone (iset_c eqb c) (HSeq h).
Proof.
  intros A eqb c h M v v' a L H. destruct v; try discriminate H. destruct (le_seq_inv _ _ _ L) as (l' & -> & F). cbn [iset_c de] in *.
  destruct (collect (de c) l) as [ys|] eqn:C; cbn [map_ok] in H; [|discriminate]. now rewrite (collect_le (de c) (de c) (le h) l l' ys M F C).
Qed.
Lemma mono_imap : forall {K V : Set} eqb (k : codec K) (c : codec V) h, reads_text k -> monotone c h -> monotone (imap_c eqb k c) (HMap h).
Proof.
  intros K V eqb k c h R M v v' a L H. destruct v as [| | | | | |es]; try discriminate H. destruct (le_map_inv _ _ _ L) as (es' & -> & F). cbn [imap_c de] in *.
  destruct (collect (entry_de k c) es) as [ys|] eqn:C; cbn [map_ok] in H; [|discriminate].
  rewrite (collect_le (entry_de k c) (entry_de k c) _ es es' ys) with (3 := C) (2 := F); [exact H|].
  intros x x' y [L1 L2] D. unfold entry_de in *. destruct (de k (fst x)) as [i|] eqn:Dk; cbn [bind] in D; [|discriminate].
  destruct (de c (snd x)) as [j|] eqn:Dc; cbn [bind] in D; [|discriminate]. rewrite (mono_text k R _ _ i L1 Dk). cbn [bind]. now rewrite (M _ _ j L2 Dc).
Qed.
Lemma mono_item_or_list : forall {A B : Set} (i : codec A) (l : codec B) q, monotone l q -> monotone (item_or_list_c i l) (HForms q HAny).
Proof.
  intros A B i l q M v v' a L H. inversion L as [| | | | | | | | | ? ? ? l' L' | ? ? ? es' L' | ]; subst; [exact H| |discriminate H].
  cbn [item_or_list_c de] in *. destruct (de l (VSeq l0)) as [b|] eqn:D; cbn [map_ok] in H; [|discriminate]. now rewrite (M _ _ b L' D).
Qed.
Lemma mono_short_or_long : forall {S L : Set} (s : codec S) (l : codec L) q m, monotone s q -> monotone l m -> monotone (short_or_long_c s l) (HForms q m).
Proof.
  intros S T s l q m Ms Ml v v' a L H. inversion L as [| | | | | | | | | ? ? ? l' L' | ? ? ? es' L' | ]; subst; [exact H| |]; cbn [short_or_long_c de] in *.
  - destruct (de s (VSeq l0)) as [b|] eqn:D; cbn [map_ok] in H; [|discriminate]. now rewrite (Ms _ _ b L' D).
  - destruct (de l (VMap es)) as [b|] eqn:D; cbn [map_ok] in H; [|discriminate]. now rewrite (Ml _ _ b L' D).
Qed.
Lemma text_string : reads_text string_c.
Proof. intros v a H. destruct v; try discriminate H. eauto. Qed.
Lemma text_text : forall {E} {A : Set} (show : A -> str) (parse : str -> result E A) inv, reads_text (text_c show parse inv).
Proof. intros E A show parse inv v a H. destruct v; try discriminate H. eauto. Qed.
Lemma text_enum : forall {A : Set} eqb (t : enum_table A), reads_text (enum_c eqb t).
Proof. intros A eqb t v a H. destruct v; try discriminate H. eauto. Qed.
Lemma mono_vmap : monotone vmap_c value_map.
Proof. apply mono_imap; [apply text_text|]. apply mono_option, mono_any. Qed.
Lemma mono_texts : monotone (sset string_c) texts.
Proof. apply mono_iset, mono_text, text_string. Qed.
Lemma mono_list_or_map : monotone list_or_map_c list_or_map_h.
Proof.
  intros v v' a L H. inversion L as [| | | | | | | | | ? ? ? l' L' | ? ? ? es' L' | ]; subst; [exact H| |]; cbn [list_or_map_c de] in *.
  - destruct (de (sset string_c) (VSeq l)) as [b|] eqn:D; cbn [map_ok] in H; [|discriminate]. now rewrite (mono_texts _ _ b L' D).
  - destruct (de vmap_c (VMap es)) as [b|] eqn:D; cbn [map_ok] in H; [|discriminate]. now rewrite (mono_vmap _ _ b L' D).
Qed.
Lemma mono_extra_hosts : forall w, monotone (extra_hosts_c w) list_or_map_h.
Proof.
  intros w v v' a L H. cbn [extra_hosts_c de] in *. destruct (de list_or_map_c v) as [x|] eqn:D; cbn [bind] in H; [|discriminate].
  now rewrite (mono_list_or_map _ _ x L D).
Qed.
Lemma mono_additional_contexts : forall w, monotone (additional_contexts_c w) list_or_map_h.
Proof.
  intros w v v' a L H. cbn [additional_contexts_c de] in *. destruct (de list_or_map_c v) as [x|] eqn:D; cbn [bind] in H; [|discriminate].
  now rewrite (mono_list_or_map _ _ x L D).
Qed.

(** ** Structs *)

(** Entries with the same names. *)
Definition entry_same (f : str -> hint) (e e' : sval * sval) : Prop :=
  exists k, fst e = VStr k /\ fst e' = VStr k /\ le (f k) (snd e) (snd e').
Definition m_mono (f : str -> hint) (m : member) : Prop := forall es es' a, Forall2 (entry_same f) es es' -> m_de m es = Ok a -> m_de m es' = Ok a.

Lemma same_entries : forall f es es', Forall2 (entry_le f) es es' -> string_keys es = true -> Forall2 (entry_same f) es es'.
Proof.
  intros f es es' F. induction F as [|e e' es es' [L1 L2] F IH]; intros S; [constructor|]. apply andb_prop in S. destruct S as [S1 S2]. constructor; [|now apply IH].
  destruct (fst e) as [| | | |k| |] eqn:K; try discriminate S1. exists k. split; [exact K|]. split; [now apply le_str|now apply L2].
Qed.
Lemma same_keys : forall f es es', Forall2 (entry_same f) es es' -> string_keys es' = true.
Proof.
  intros f es es' F. induction F as [|e e' es es' (k & K & K' & _) F IH]; [reflexivity|]. unfold string_keys in *. cbn [forallb]. rewrite K'. exact IH.
Qed.
Lemma lookup_same : forall f es es' n, Forall2 (entry_same f) es es' ->
  match lookup n es, lookup n es' with
  | Ok (Some v), Ok (Some v') => le (f n) v v'
  | Ok None, Ok None => True
  | Err _, Err _ => True
  | _, _ => False
  end.
Proof.
  intros f es es' n F. induction F as [|[k0 v] [k0' v'] es es' (k & K & K' & L) F IH]; [exact I|]. cbn [fst snd] in *. subst k0 k0'. cbn [lookup].
  destruct (str_eqb n k) eqn:E.
  - apply str_eqb_eq in E. subst k. destruct (lookup n es) as [[x|]|], (lookup n es') as [[x'|]|]; try contradiction; auto.
  - exact IH.
Qed.
Lemma m_mono_field : forall f n (A : Set) (c : codec A) d s h, f n = h -> monotone c h -> m_mono f (field n c d s).
Proof.
  intros f n A c d s h E M es es' a F H. cbn [field m_de] in *. pose proof (lookup_same f es es' n F) as L.
  destruct (lookup n es) as [[v|]|], (lookup n es') as [[v'|]|]; cbn [bind] in *; try contradiction; try discriminate; [|exact H]. rewrite E in L. now apply (M v).
Qed.
Lemma de_members_same : forall f ms es es' a, Forall (m_mono f) ms -> Forall2 (entry_same f) es es' -> de_members ms es = Ok a -> de_members ms es' = Ok a.
Proof.
  intros f ms es es' a M F. revert a. induction M as [|m ms Hm M IH]; intros a H; [exact H|]. cbn [de_members] in *.
  destruct (m_de m es) as [x|] eqn:D; cbn [bind] in H; [|discriminate]. destruct (de_members ms es) as [y|]; cbn [bind] in H; [|discriminate].
  rewrite (Hm es es' x F D). cbn [bind]. now rewrite (IH y eq_refl).
Qed.
Lemma m_mono_group : forall f (B : Set) ms (wr : B -> vals ms) rd inv nrm, Forall (m_mono f) ms -> m_mono f (group ms wr rd inv nrm).
Proof.
  intros f B ms wr rd inv nrm M es es' a F H. cbn [group m_de] in *. destruct (de_members ms es) as [x|] eqn:D; cbn [bind] in H; [|discriminate].
  now rewrite (de_members_same f ms es es' x M F D).
Qed.

(** Only fields of the struct have hints. *)
Definition fits (t : list (str * hint)) (ms : list member) : bool := forallb (fun e => existsb (str_eqb (fst e)) (names ms)) t.
Lemma fits_any : forall t ms k, fits t ms = true -> existsb (str_eqb k) (names ms) = false -> fields t k = HAny.
Proof.
  intros t ms k F N. induction t as [|[n h] t IH]; [reflexivity|]. cbn [fits forallb fst] in F. apply andb_prop in F. destruct F as [F1 F2]. cbn [fields].
  destruct (str_eqb k n) eqn:E; [|now apply IH]. apply str_eqb_eq in E. subst n. congruence.
Qed.
Lemma unknown_same : forall t ms es es', fits t ms = true -> Forall2 (entry_same (fields t)) es es' -> unknown (names ms) es' = unknown (names ms) es.
Proof.
  intros t ms es es' N F. induction F as [|[k0 v] [k0' v'] es es' (k & K & K' & L) F IH]; [reflexivity|]. cbn [fst snd] in *. subst k0 k0'. unfold unknown in *. cbn [filter fst].
  destruct (existsb (str_eqb k) (names ms)) eqn:E; cbn [negb]; [exact IH|]. rewrite (fits_any t ms k N E) in L. rewrite (le_any _ _ L). now f_equal.
Qed.
Lemma ext_keys : forall ns es x, ext_de (unknown ns es) = Ok x -> string_keys es = true.
Proof.
  intros ns es x H. unfold ext_de in H. destruct (collect ext_entry (unknown ns es)) as [l|] eqn:C; [|discriminate]. clear H. apply collect_ok in C.
  unfold string_keys. apply forallb_forall. intros e I. destruct (fst e) as [| | | |k| |] eqn:K; try reflexivity; exfalso.
  all: assert (U : In e (unknown ns es)) by (unfold unknown; apply filter_In; split; [exact I|now rewrite K]).
  all: clear I; revert l C U; induction (unknown ns es) as [|e' us IH]; intros l C U; [destruct U|]; inversion C as [|? ? ? ? C1 C2]; subst.
  all: destruct U as [->|U]; [unfold ext_entry in C1; rewrite K in C1; discriminate|now apply (IH _ C2)].
Qed.
Lemma mono_struct : forall ms t, Forall (m_mono (fields t)) ms -> monotone (struct_c ms) (struct t).
Proof.
  intros ms t M v v' a L H. destruct v as [| | | | | |es]; try discriminate H. destruct (le_struct_inv _ _ _ L) as (es' & -> & F). cbn [struct_c de] in *.
  destruct (string_keys es) eqn:S; [|discriminate]. assert (F' := same_entries _ _ _ F S). rewrite (same_keys _ _ _ F'). now apply (de_members_same (fields t) ms es).
Qed.
Lemma mono_struct_ext : forall ms t, fits t ms = true -> Forall (m_mono (fields t)) ms -> monotone (struct_ext_c ms) (struct t).
Proof.
  intros ms t N M v v' a L H. destruct v as [| | | | | |es]; try discriminate H. destruct (le_struct_inv _ _ _ L) as (es' & -> & F). cbn [struct_ext_c de] in *.
  destruct (de_members ms es) as [x|] eqn:D; cbn [bind] in H; [|discriminate]. destruct (ext_de (unknown (names ms) es)) as [y|] eqn:X; cbn [bind] in H; [|discriminate].
  assert (F' := same_entries _ _ _ F (ext_keys _ _ _ X)). rewrite (de_members_same (fields t) ms es es' x M F' D), (unknown_same t ms es es' N F'), X. exact H.
Qed.
Lemma mono_struct_ext_once : forall ms t, fits t ms = true -> Forall (m_mono (fields t)) ms -> monotone (struct_ext_once_c ms) (struct t).
Proof.
  intros ms t N M v v' a L H. destruct v as [| | | | | |es]; try discriminate H. destruct (le_struct_inv _ _ _ L) as (es' & -> & F). cbn [struct_ext_once_c de] in *.
  destruct (de_members ms es) as [x|] eqn:D; cbn [bind] in H; [|discriminate]. destruct (ext_de (unknown (names ms) es)) as [y|] eqn:X; cbn [bind] in H; [|discriminate].
  assert (F' := same_entries _ _ _ F (ext_keys _ _ _ X)). rewrite (de_members_same (fields t) ms es es' x M F' D), (unknown_same t ms es es' N F'), X. exact H.
Qed.

(** ** Health checks *)

Lemma test_le : forall v v' a, le (HForms texts HAny) v v' -> test_or_none v = Ok a -> test_or_none v' = Ok a.
Proof.
  intros v v' a L H. inversion L as [| | | | | | | | | ? ? l l' L' | ? ? ? es' L' | ]; subst; [exact H| |discriminate H].
  destruct (le_seq_inv _ _ _ L') as (l2 & E & F). injection E as <-. clear L L'. cbn [test_or_none] in *. kind_texts.
  destruct F as [|x x' l l' Hx F]; [discriminate|]. destruct x as [| | | |kind| |]; try discriminate H. rewrite (le_str _ _ Hx).
  destruct (str_eqb kind $"CMD"); [|destruct (str_eqb kind $"CMD-SHELL")].
  - destruct (strings l) as [ss|] eqn:S; cbn [map_ok] in H; [|discriminate]. unfold strings in *.
    now rewrite (collect_le (de string_c) (de string_c) (le HText) l l' ss (mono_text string_c text_string) F S).
  - destruct F as [|y y' l l' Hy F]; [discriminate|]. destruct y as [| | | |s| |]; try discriminate H. destruct F; [|destruct l; discriminate]. now rewrite (le_str _ _ Hy).
  - destruct (str_eqb kind $"NONE"); [|discriminate]. destruct F; [exact H|discriminate].
Qed.
Lemma health_entry_le : forall s e e' s', entry_le (fields [($"test", HForms texts HAny)]) e e' -> health_entry s e = Ok s' -> health_entry s e' = Ok s'.
Proof.
  intros s e e' s' [L1 L2] H. destruct s as [d t i o r p q x]. cbn [health_entry] in *. destruct (fst e) as [| | | |k| |] eqn:K; try discriminate H.
  specialize (L2 k eq_refl). cbn [fields] in L2. rewrite (le_str _ _ L1). destruct (str_eqb k $"test") eqn:T.
  - apply str_eqb_eq in T. subst k. change (str_eqb $"test" $"disable") with false in *. cbn iota in *. destruct (is_none t); [|exact H].
    destruct (test_or_none (snd e)) as [y|] eqn:D; cbn [bind] in H; [|discriminate]. now rewrite (test_le _ _ y L2 D).
  - assert (E : e' = e) by (rewrite (surjective_pairing e), (surjective_pairing e'), K, (le_str _ _ L1), (le_any _ _ L2); reflexivity). subst e'. exact H.
Qed.
Lemma mono_health : monotone healthcheck_c healthcheck_h.
Proof.
  intros v v' a L H. destruct v as [| | | | | |es]; try discriminate H. destruct (le_struct_inv _ _ _ L) as (es' & -> & F). cbn [healthcheck_c de health_de] in *.
  destruct (health_loop no_slots es) as [s|] eqn:D; cbn [bind] in H; [|discriminate].
  enough (G : health_loop no_slots es' = Ok s) by (rewrite G; exact H). clear H L. revert D. generalize no_slots. induction F as [|e e' es es' He F IH]; intros s0 D; [exact D|].
  cbn [health_loop] in *. destruct (health_entry s0 e) as [s1|] eqn:D1; cbn [bind] in D; [|discriminate]. rewrite (health_entry_le _ _ _ _ He D1). now apply IH.
Qed.

(** ** Resources *)

(** A value and the way it is seen. *)
Lemma seen_value_null : forall h v, seen_value h v = VNull -> v = VNull.
Proof.
  induction h as [| |h IH|h IH|h IH|f IH|q IHq m IHm|h IH]; intros v E; cbn [seen_value] in E; try exact E; try (destruct v; try discriminate E; reflexivity).
  - destruct v; [reflexivity|now apply IH..].
  - destruct v; try exact E; [now apply IHq|now apply IHm].
  - now apply IH.
Qed.
Lemma seen_value_seq : forall h l, exists l', seen_value h (VSeq l) = VSeq l'.
Proof. induction h as [| |h IH|h IH|h IH|f IH|q IHq m IHm|h IH]; intros l; cbn [seen_value]; try (now eexists); [apply IH|apply IHq|apply IH]. Qed.
Lemma seen_value_map : forall h es, exists es', seen_value h (VMap es) = VMap es'.
Proof. induction h as [| |h IH|h IH|h IH|f IH|q IHq m IHm|h IH]; intros es; cbn [seen_value]; try (now eexists); [apply IH|apply IHm|apply IH]. Qed.
Lemma le_seen_value : forall h v, le h v (seen_value h v).
Proof.
  induction h as [| |h IH|h IH|h IH|f IH|q IHq m IHm|h IH]; intros v; cbn [seen_value]; try apply le_refl.
  - assert (N : v <> VNull -> le (HOption h) v (seen_value h v)) by (intros N; apply le_some; [exact N| |apply IH]; intros E; now apply N, (seen_value_null h)).
    destruct v; [apply le_refl|now apply N..].
  - destruct v; try apply le_refl; [apply le_null_seq|]. apply le_seq. induction l; constructor; [apply IH|assumption].
  - destruct v as [| | | | | |es]; try apply le_refl; [apply le_null_map|]. apply le_map. induction es; constructor; [split; [apply le_refl|apply IH]|assumption].
  - destruct v as [| | | | | |es]; try apply le_refl; [apply le_null_struct|]. apply le_struct. induction es as [|e es I]; constructor; [|assumption].
    split; [apply le_refl|]. cbn [fst snd]. intros k ->. apply IH.
  - destruct v; try apply le_refl.
    + destruct (seen_value_seq q l) as [l' E]. rewrite E. apply le_forms_seq. rewrite <- E. apply IHq.
    + destruct (seen_value_map m l) as [l' E]. rewrite E. apply le_forms_map. rewrite <- E. apply IHm.
  - apply le_value.
Qed.

Lemma fields_through : forall t k, fields (through_value t) k = HValue (fields t k) \/ fields (through_value t) k = HAny.
Proof. induction t as [|[n h] t IH]; intros k; [now right|]. cbn [through_value fields]. destruct (str_eqb k n); [now left|apply IH]. Qed.
Lemma yaml_seen : forall h v, yaml_ok v = true -> yaml_ok (seen_value h v) = true.
Proof.
  induction h as [| |h IH|h IH|h IH|f IH|q IHq m IHm|h IH]; intros v Y; cbn [seen_value]; try exact Y.
  - destruct v; try exact Y; apply IH, Y.
  - destruct v; try exact Y. cbn [yaml_ok] in *. rewrite forallb_forall in *. intros x I. apply in_map_iff in I. destruct I as (z & <- & I). now apply IH, Y.
  - destruct v as [| | | | | |es]; try exact Y. cbn [yaml_ok] in *. rewrite map_map. cbn [fst]. change (map (fun x => fst x) es) with (map fst es). apply andb_prop in Y. destruct Y as [Y1 Y2]. rewrite Y1. cbn [andb].
    rewrite forallb_forall in *. intros x I. apply in_map_iff in I. destruct I as (z & <- & I). cbn [fst snd]. specialize (Y2 z I). apply andb_prop in Y2. destruct Y2 as [Z1 Z2].
    rewrite Z1. now apply IH.
  - destruct v as [| | | | | |es]; try exact Y. cbn [yaml_ok] in *. rewrite map_map. cbn [fst]. change (map (fun x => fst x) es) with (map fst es). apply andb_prop in Y. destruct Y as [Y1 Y2]. rewrite Y1. cbn [andb].
    rewrite forallb_forall in *. intros x I. apply in_map_iff in I. destruct I as (z & <- & I). cbn [fst snd]. specialize (Y2 z I). apply andb_prop in Y2. destruct Y2 as [Z1 Z2].
    rewrite Z1. cbn [andb]. destruct (fst z); try exact Z2. now apply IH.
  - destruct v; try exact Y; [apply IHq|apply IHm]; exact Y.
  - now apply IH.
Qed.
Lemma le_through : forall t k v v', le (fields (through_value t) k) v v' -> le (fields t k) v v' /\ (yaml_ok v = true -> yaml_ok v' = true).
Proof.
  intros t k v v' L. destruct (fields_through t k) as [E|E]; rewrite E in L.
  - inversion L; subst; [split; [apply le_refl|auto]|]. split; [apply le_seen_value|apply yaml_seen].
  - rewrite (le_any _ _ L). split; [apply le_refl|auto].
Qed.

Definition rel (R : str -> sval -> sval -> Prop) (e e' : str * sval) : Prop := fst e' = fst e /\ R (fst e) (snd e) (snd e').
Lemma imap_insert_rel : forall R m m' k v v', Forall2 (rel R) m m' -> R k v v' -> Forall2 (rel R) (imap_insert str_eqb m k v) (imap_insert str_eqb m' k v').
Proof.
  intros R m m' k v v' F H. induction F as [|[i x] [i' x'] m m' [E Hx] F IH]; [now repeat constructor|]. cbn [fst snd] in *. subst i'. cbn [imap_insert].
  destruct (str_eqb k i) eqn:E; constructor; try assumption; [|now split]. apply str_eqb_eq in E. subst i. now split.
Qed.
Lemma imap_of_rel : forall R l l', Forall2 (rel R) l l' -> Forall2 (rel R) (imap_of str_eqb l) (imap_of str_eqb l').
Proof.
  intros R l l' F. unfold imap_of. assert (N : Forall2 (rel R) [] []) by constructor. revert N. generalize (@nil (str * sval)) at 1 3. generalize (@nil (str * sval)).
  induction F as [|[k v] [k' v'] l l' [E Hx] F IH]; intros a' a N; [exact N|]. cbn [fold_left fst snd] in *. subst k'. apply IH. now apply imap_insert_rel.
Qed.
Lemma get_rel : forall R m m' k, Forall2 (rel R) m m' ->
  match imap_get str_eqb m k, imap_get str_eqb m' k with Some v, Some v' => R k v v' | None, None => True | _, _ => False end.
Proof.
  intros R m m' k F. induction F as [|[i x] [i' x'] m m' [E Hx] F IH]; [exact I|]. cbn [fst snd] in *. subst i'. cbn [imap_get]. destruct (str_eqb k i) eqn:E; [|exact IH].
  apply str_eqb_eq in E. now subst i.
Qed.
Lemma without_rel : forall R m m' k, Forall2 (rel R) m m' -> Forall2 (rel R) (without k m) (without k m').
Proof.
  intros R m m' k F. induction F as [|[i x] [i' x'] m m' [E Hx] F IH]; [constructor|]. cbn [fst snd] in *. subst i'. unfold without in *. cbn [filter fst].
  destruct (str_eqb k i); cbn [negb]; [exact IH|]. constructor; [now split|exact IH].
Qed.
Lemma hash_map_rel : forall t es es' m, Forall2 (entry_le (fields (through_value t))) es es' -> hash_map_de es = Ok m ->
  exists m', hash_map_de es' = Ok m' /\ Forall2 (rel (fun k => le (fields t k))) m m'.
Proof.
  intros t es es' m F H. unfold hash_map_de in *. destruct (collect yaml_entry es) as [l|] eqn:C; cbn [map_ok] in H; [|discriminate]. injection H as <-.
  enough (G : exists l', collect yaml_entry es' = Ok l' /\ Forall2 (rel (fun k => le (fields t k))) l l').
  { destruct G as (l' & -> & G). exists (imap_of str_eqb l'). split; [reflexivity|now apply imap_of_rel]. }
  apply collect_ok in C. revert l C. induction F as [|e e' es es' [L1 L2] F IH]; intros l C; inversion C as [|? y ? ys C1 C2]; subst; [exists []; split; [reflexivity|constructor]|].
  destruct (IH _ C2) as (l' & D & G). unfold yaml_entry in C1. destruct (fst e) as [| | | |k| |] eqn:K; try discriminate C1. cbn [yaml_c de] in C1.
  destruct (yaml_ok (snd e)) eqn:Y; cbn [bind] in C1; [|discriminate]. injection C1 as <-. destruct (le_through _ _ _ _ (L2 k eq_refl)) as [L Y'].
  exists ((k, snd e') :: l'). split; [|constructor; [now split|exact G]]. cbn [collect]. unfold yaml_entry at 1. rewrite (le_str _ _ L1). cbn [yaml_c de]. rewrite (Y' Y).
  cbn [bind]. now rewrite D.
Qed.
Lemma is_nil_rel : forall R m m', Forall2 (rel R) m m' -> is_nil m' = is_nil m.
Proof. intros R m m' F. now destruct F. Qed.
Lemma mono_resource : forall {A : Set} (c : codec A) t,
  fields t $"external" = HAny -> monotone string_c (fields t $"name") -> monotone c (struct t) -> monotone (resource_c c) (resource_h t).
Proof.
  intros A c t X N M v v' a L H. destruct v as [| | | | | |es]; try discriminate H. destruct (le_struct_inv _ _ _ L) as (es' & -> & F). cbn [resource_c de] in *.
  destruct (hash_map_de es) as [m|] eqn:D; cbn [bind] in H; [|discriminate]. destruct (hash_map_rel t es es' m F D) as (m' & -> & G). cbn [bind]. clear L F D es es'.
  unfold resource_of in *. pose proof (get_rel _ _ _ $"external" G) as Ge. cbv beta in Ge. rewrite X in Ge.
  assert (E : match imap_get str_eqb m' $"external" with Some v => de bool_c v | None => Ok false end =
              match imap_get str_eqb m $"external" with Some v => de bool_c v | None => Ok false end).
  { destruct (imap_get str_eqb m $"external") as [x|], (imap_get str_eqb m' $"external") as [x'|]; try contradiction; [now rewrite (le_any _ _ Ge)|reflexivity]. }
  rewrite E. clear E Ge. destruct (match imap_get str_eqb m $"external" with Some v => de bool_c v | None => Ok false end) as [b|]; cbn [bind] in *; [|discriminate].
  apply (without_rel _ _ _ $"external") in G. set (u := without $"external" m) in *. set (u' := without $"external" m') in *. destruct b.
  - rewrite (is_nil_rel _ _ _ (without_rel _ _ _ $"name" G)). pose proof (get_rel _ _ _ $"name" G) as Gn. cbv beta in Gn.
    destruct (imap_get str_eqb u $"name") as [x|], (imap_get str_eqb u' $"name") as [x'|]; try contradiction; [|exact H].
    destruct (de string_c x) as [s|] eqn:S; cbn [map_ok bind] in H; [|discriminate]. now rewrite (N _ _ s Gn S).
  - destruct (de c (VMap (ext_ser u))) as [z|] eqn:Z; cbn [map_ok] in H; [|discriminate]. rewrite (M _ (VMap (ext_ser u')) z) with (2 := Z); [exact H|].
    apply le_struct. clear - G. induction G as [|[k x] [k' x'] u u' [E Hx] G IH]; [constructor|]. cbn [ext_ser map fst snd] in *. subst k'. constructor; [|exact IH].
    split; [apply le_refl|]. cbn [fst snd]. intros k0 E0. injection E0 as <-. exact Hx.
Qed.

(** ** Nodes *)

Section Nodes.
Variable y : numerals.

Lemma resolve_str : forall t s, resolve y t = VStr s -> s = t.
Proof.
  intros t s H. unfold resolve in H. destruct (one_of null_texts t); [discriminate|]. destruct (one_of true_texts t); [discriminate|].
  destruct (one_of false_texts t); [discriminate|]. destruct (y_int y t); [discriminate|]. destruct (y_float y t); [discriminate|]. now injection H.
Qed.
Lemma resolve_scalar : forall t, match resolve y t with VSeq _ | VMap _ => False | _ => True end.
Proof.
  intros t. unfold resolve. destruct (one_of null_texts t); [exact I|]. destruct (one_of true_texts t); [exact I|]. destruct (one_of false_texts t); [exact I|].
  destruct (y_int y t); [exact I|]. now destruct (y_float y t).
Qed.
Lemma resolve_null : forall t, resolve y t = VNull -> t = [] \/ In t [$"~"; $"null"; $"Null"; $"NULL"].
Proof.
  intros t H. unfold resolve in H. destruct (one_of null_texts t) eqn:E.
  - unfold one_of in E. apply existsb_exists in E. destruct E as (u & I & E). apply str_eqb_eq in E. subst u. destruct I as [<-|I]; [now left|now right].
  - destruct (one_of true_texts t); [discriminate|]. destruct (one_of false_texts t); [discriminate|]. destruct (y_int y t); [discriminate|]. destruct (y_float y t); discriminate.
Qed.
Lemma seen_null : forall h n, seen y h n = VNull -> value y n = VNull.
Proof.
  induction h as [| |h IH|h IH|h IH|f IH|q IHq m IHm|h IH]; intros n E; cbn [seen] in E; try exact E.
  - destruct n; try discriminate E.
  - destruct (value y n) eqn:V; [reflexivity|exfalso; apply IH in E; congruence..].
  - destruct n as [[|]| | |]; try discriminate E; exact E.
  - destruct n as [[|]| | |]; try discriminate E; exact E.
  - destruct n as [[|]| | |]; try discriminate E; exact E.
  - destruct n; try exact E; [now apply IHq|now apply IHm].
  - now apply (seen_value_null h).
Qed.
Lemma seen_seq : forall h l, exists l', seen y h (NSeq l) = VSeq l'.
Proof.
  induction h as [| |h IH|h IH|h IH|f IH|q IHq m IHm|h IH]; intros l; cbn [seen]; try (now eexists); [|apply IHq|apply seen_value_seq].
  cbn [value]. apply IH.
Qed.
Lemma seen_map : forall h l, exists l', seen y h (NMap l) = VMap l'.
Proof.
  induction h as [| |h IH|h IH|h IH|f IH|q IHq m IHm|h IH]; intros l; cbn [seen]; try (now eexists); [|apply IHm|apply seen_value_map].
  cbn [value]. apply IH.
Qed.

Lemma le_seen_text : forall n, le HText (value y n) (seen_text y n).
Proof.
  intros n. destruct n as [t| | |]; try apply le_refl. cbn [value seen_text]. destruct (resolve y t) as [| | | |s| |] eqn:R; try (apply le_text; discriminate).
  rewrite (resolve_str t s R). apply le_refl.
Qed.
(** What is seen is at least what the value is. *)
Lemma le_seen : forall h n, le h (value y n) (seen y h n).
Proof.
  induction h as [| |h IH|h IH|h IH|f IH|q IHq m IHm|h IH]; intros n; cbn [seen]; try apply le_refl.
  - apply le_seen_text.
  - destruct (value y n) eqn:V; [apply le_refl| | | | | |]; rewrite <- V; apply le_some; try (rewrite V; discriminate); try (intros E; apply seen_null in E; congruence); apply IH.
  - destruct n as [[|]| |l|]; try apply le_refl; [apply le_null_seq|]. cbn [value]. apply le_seq. induction l; constructor; [apply IH|assumption].
  - destruct n as [[|]| | |es]; try apply le_refl; [apply le_null_map|]. cbn [value]. apply le_map. induction es; constructor; [split; [apply le_seen_text|apply IH]|assumption].
  - destruct n as [[|]| | |es]; try apply le_refl; [apply le_null_struct|]. cbn [value]. apply le_struct. induction es as [|e es I]; constructor; [|assumption].
    split; [apply le_seen_text|]. cbn [fst snd]. intros k E. pose proof (le_seen_text (fst e)) as L. rewrite E in L. rewrite (le_str _ _ L). apply IH.
  - destruct n as [| |l|es]; try apply le_refl.
    + pose proof (IHq (NSeq l)) as L. destruct (seen_seq q l) as [l' E]. rewrite E in *. cbn [value] in *. now apply le_forms_seq.
    + pose proof (IHm (NMap es)) as L. destruct (seen_map m es) as [l' E]. rewrite E in *. cbn [value] in *. now apply le_forms_map.
  - apply le_value.
Qed.

(** Text and value, when no null is written. *)
Lemma le_value_seen : forall h n, no_written_null n -> le h (seen_value h (value y n)) (seen y h n).
Proof.
  induction h as [| |h IH|h IH|h IH|f IH|q IHq m IHm|h IH]; intros n W; cbn [seen seen_value]; try apply le_refl.
  - apply le_seen_text.
  - assert (G : value y n <> VNull -> le (HOption h) (seen_value h (value y n)) (seen y h n)).
    { intros N. apply le_some; [intros E; now apply N, (seen_value_null h)|intros E; now apply N, (seen_null h)|now apply IH]. }
    destruct (value y n) eqn:V; [apply le_refl|apply G; discriminate..].
  - destruct n as [t| |l|].
    + inversion W as [? N| | |]; subst. cbn [value]. pose proof (resolve_scalar t) as S. destruct t as [|a t]; [apply le_refl|].
      destruct (resolve y (a :: t)) eqn:R; try contradiction; try apply le_refl. destruct (resolve_null _ R) as [E|E]; [discriminate|now destruct N].
    + apply le_refl.
    + cbn [value]. apply le_seq. inversion W as [| |? F|]; subst. clear W. induction F; constructor; [now apply IH|assumption].
    + apply le_refl.
  - destruct n as [t| |l|es].
    + inversion W as [? N| | |]; subst. cbn [value]. pose proof (resolve_scalar t) as S. destruct t as [|a t]; [apply le_refl|].
      destruct (resolve y (a :: t)) eqn:R; try contradiction; try apply le_refl. destruct (resolve_null _ R) as [E|E]; [discriminate|now destruct N].
    + apply le_refl.
    + apply le_refl.
    + cbn [value]. apply le_map. inversion W as [| | |? F]; subst. clear W. induction F as [|e es [W1 W2] F I]; constructor; [|assumption].
      split; [apply le_seen_text|now apply IH].
  - destruct n as [t| |l|es].
    + inversion W as [? N| | |]; subst. cbn [value]. pose proof (resolve_scalar t) as S. destruct t as [|a t]; [apply le_refl|].
      destruct (resolve y (a :: t)) eqn:R; try contradiction; try apply le_refl. destruct (resolve_null _ R) as [E|E]; [discriminate|now destruct N].
    + apply le_refl.
    + apply le_refl.
    + cbn [value]. apply le_struct. inversion W as [| | |? F]; subst. clear W. induction F as [|e es [W1 W2] F I]; constructor; [|assumption].
      split; [apply le_seen_text|]. cbn [fst snd]. intros k E. pose proof (le_seen_text (fst e)) as L. rewrite E in *. rewrite (le_str _ _ L). now apply IH.
  - destruct n as [t| |l|es].
    + cbn [value]. pose proof (resolve_scalar t) as S. destruct (resolve y t); try contradiction; apply le_refl.
    + apply le_refl.
    + specialize (IHq (NSeq l) W). cbn [value] in *. destruct (seen_seq q l) as [l' E], (seen_value_seq q (map (value y) l)) as [l2 E2]. rewrite E, E2 in *. now apply le_forms_seq.
    + specialize (IHm (NMap es) W). cbn [value] in *. destruct (seen_map m es) as [l' E], (seen_value_map m (map (fun e => (value y (fst e), value y (snd e))) es)) as [l2 E2].
      rewrite E, E2 in *. now apply le_forms_map.
Qed.

(** Quotes put where text is asked for. *)
Definition quote_text (n : node) : node := match n with Plain t => Quoted t | _ => n end.
Fixpoint quote (h : hint) (n : node) {struct h} : node :=
  match h with
  | HAny | HValue _ => n
  | HText => quote_text n
  | HOption h => match value y n with VNull => n | _ => quote h n end
  | HSeq h => match n with NSeq l => NSeq (map (quote h) l) | _ => n end
  | HMap h => match n with NMap es => NMap (map (fun e => (quote_text (fst e), quote h (snd e))) es) | _ => n end
  | HStruct f =>
      match n with
      | NMap es =>
          NMap (map (fun e => (quote_text (fst e), match seen_text y (fst e) with VStr k => quote (f k) (snd e) | _ => snd e end)) es)
      | _ => n
      end
  | HForms q m => match n with NSeq _ => quote q n | NMap _ => quote m n | _ => n end
  end.
Lemma quote_text_value : forall n, value y (quote_text n) = seen_text y n.
Proof. intros n. now destruct n. Qed.
Lemma quote_null : forall h n, value y (quote h n) = VNull -> value y n = VNull.
Proof.
  induction h as [| |h IH|h IH|h IH|f IH|q IHq m IHm|h IH]; intros n E; cbn [quote] in E; try exact E; try (now destruct n).
  - destruct (value y n) eqn:V; [reflexivity|exfalso; apply IH in E; congruence..].
  - destruct n; try exact E; [now apply IHq|now apply IHm].
Qed.
Lemma quote_seq : forall h l, exists l', quote h (NSeq l) = NSeq l'.
Proof. induction h as [| |h IH|h IH|h IH|f IH|q IHq m IHm|h IH]; intros l; cbn [quote]; try (now eexists); [cbn [value]; apply IH|apply IHq]. Qed.
Lemma quote_map : forall h l, exists l', quote h (NMap l) = NMap l'.
Proof. induction h as [| |h IH|h IH|h IH|f IH|q IHq m IHm|h IH]; intros l; cbn [quote]; try (now eexists); [cbn [value]; apply IH|apply IHm]. Qed.
Lemma requoted_text : forall n, requoted n (quote_text n).
Proof. intros [t| | |]; constructor. Qed.
Lemma requoted_quote : forall h n, requoted n (quote h n).
Proof.
  induction h as [| |h IH|h IH|h IH|f IH|q IHq m IHm|h IH]; intros n; cbn [quote]; try apply rq_same.
  - apply requoted_text.
  - destruct (value y n); [apply rq_same|apply IH..].
  - destruct n as [| |l|]; try apply rq_same. apply rq_seq. induction l; constructor; [apply IH|assumption].
  - destruct n as [| | |es]; try apply rq_same. apply rq_map. induction es; constructor; [split; [apply requoted_text|apply IH]|assumption].
  - destruct n as [| | |es]; try apply rq_same. apply rq_map. induction es as [|e es I]; constructor; [|assumption]. cbn [fst snd]. split; [apply requoted_text|].
    destruct (seen_text y (fst e)); try apply rq_same. apply IH.
  - destruct n; try apply rq_same; [apply IHq|apply IHm].
Qed.

(** The text as it is, and the quoted text as a value. *)
Lemma le_quoted : forall h n, le h (seen y h n) (seen_value h (value y (quote h n))).
Proof.
  induction h as [| |h IH|h IH|h IH|f IH|q IHq m IHm|h IH]; intros n; cbn [seen seen_value quote]; try apply le_refl.
  - rewrite quote_text_value. apply le_refl.
  - assert (G : value y n <> VNull -> le (HOption h) (seen y h n) (match value y (quote h n) with VNull => VNull | _ => seen_value h (value y (quote h n)) end)).
    { intros N. assert (Q : value y (quote h n) <> VNull) by (intros E; now apply N, (quote_null h)).
      replace (match value y (quote h n) with VNull => VNull | _ => seen_value h (value y (quote h n)) end) with (seen_value h (value y (quote h n))) by (destruct (value y (quote h n)); [now destruct Q|reflexivity..]).
      apply le_some; [intros E; now apply N, (seen_null h)|intros E; now apply Q, (seen_value_null h)|apply IH]. }
    destruct (value y n) eqn:V; [rewrite V; apply le_refl|apply G; discriminate..].
  - destruct n as [t| |l|]; try apply le_refl.
    + cbn [value]. pose proof (resolve_scalar t) as S. destruct t as [|a t]; [apply le_refl|]. destruct (resolve y (a :: t)); try contradiction; try apply le_refl. apply le_null_seq.
    + cbn [value]. rewrite !map_map. apply le_seq. induction l; constructor; [apply IH|assumption].
  - destruct n as [t| | |es]; try apply le_refl.
    + cbn [value]. pose proof (resolve_scalar t) as S. destruct t as [|a t]; [apply le_refl|]. destruct (resolve y (a :: t)); try contradiction; try apply le_refl. apply le_null_map.
    + cbn [value]. rewrite !map_map. cbn [fst snd]. apply le_map. induction es; constructor; [|assumption]. cbn [fst snd]. rewrite quote_text_value. split; [apply le_refl|apply IH].
  - destruct n as [t| | |es]; try apply le_refl.
    + cbn [value]. pose proof (resolve_scalar t) as S. destruct t as [|a t]; [apply le_refl|]. destruct (resolve y (a :: t)); try contradiction; try apply le_refl. apply le_null_struct.
    + cbn [value]. rewrite !map_map. cbn [fst snd]. apply le_struct. induction es as [|e es I]; constructor; [|assumption]. cbn [fst snd]. rewrite quote_text_value.
      split; [apply le_refl|]. intros k E. rewrite E. apply IH.
  - destruct n as [t| |l|es]; try apply le_refl.
    + cbn [value]. pose proof (resolve_scalar t) as S. destruct (resolve y t); try contradiction; apply le_refl.
    + specialize (IHq (NSeq l)). destruct (quote_seq q l) as [l1 E1]. rewrite E1 in *. cbn [value] in *. destruct (seen_seq q l) as [l' E], (seen_value_seq q (map (value y) l1)) as [l2 E2].
      rewrite E, E2 in *. now apply le_forms_seq.
    + specialize (IHm (NMap es)). destruct (quote_map m es) as [l1 E1]. rewrite E1 in *. cbn [value] in *.
      destruct (seen_map m es) as [l' E], (seen_value_map m (map (fun e => (value y (fst e), value y (snd e))) l1)) as [l2 E2]. rewrite E, E2 in *. now apply le_forms_map.
Qed.
(** The value as it is, and the quoted text as a value. *)
Lemma le_value_quoted : forall h n, le h (seen_value h (value y n)) (seen_value h (value y (quote h n))).
Proof.
  induction h as [| |h IH|h IH|h IH|f IH|q IHq m IHm|h IH]; intros n; cbn [seen_value quote]; try apply le_refl.
  - rewrite quote_text_value. apply le_seen_text.
  - assert (G : value y n <> VNull -> le (HOption h) (seen_value h (value y n)) (match value y (quote h n) with VNull => VNull | _ => seen_value h (value y (quote h n)) end)).
    { intros N. assert (Q : value y (quote h n) <> VNull) by (intros E; now apply N, (quote_null h)).
      replace (match value y (quote h n) with VNull => VNull | _ => seen_value h (value y (quote h n)) end) with (seen_value h (value y (quote h n))) by (destruct (value y (quote h n)); [now destruct Q|reflexivity..]).
      apply le_some; [intros E; now apply N, (seen_value_null h)|intros E; now apply Q, (seen_value_null h)|apply IH]. }
    destruct (value y n) eqn:V; [rewrite V; apply le_refl|apply G; discriminate..].
  - destruct n as [t| |l|]; try apply le_refl. cbn [value]. rewrite !map_map. apply le_seq. induction l; constructor; [apply IH|assumption].
  - destruct n as [t| | |es]; try apply le_refl.
    cbn [value]. rewrite !map_map. cbn [fst snd]. apply le_map. induction es; constructor; [|assumption]. cbn [fst snd]. rewrite quote_text_value. split; [apply le_seen_text|apply IH].
  - destruct n as [t| | |es]; try apply le_refl.
    cbn [value]. rewrite !map_map. cbn [fst snd]. apply le_struct. induction es as [|e es I]; constructor; [|assumption]. cbn [fst snd]. rewrite quote_text_value.
    split; [apply le_seen_text|]. intros k E. pose proof (le_seen_text (fst e)) as L. rewrite E in *. rewrite (le_str _ _ L). apply IH.
  - destruct n as [t| |l|es]; try apply le_refl.
    + specialize (IHq (NSeq l)). destruct (quote_seq q l) as [l1 E1]. rewrite E1 in *. cbn [value] in *. destruct (seen_value_seq q (map (value y) l)) as [l' E], (seen_value_seq q (map (value y) l1)) as [l2 E2].
      rewrite E, E2 in *. now apply le_forms_seq.
    + specialize (IHm (NMap es)). destruct (quote_map m es) as [l1 E1]. rewrite E1 in *. cbn [value] in *.
      destruct (seen_value_map m (map (fun e => (value y (fst e), value y (snd e))) es)) as [l' E], (seen_value_map m (map (fun e => (value y (fst e), value y (snd e))) l1)) as [l2 E2]. rewrite E, E2 in *. now apply le_forms_map.
Qed.
End Nodes.
