(** C83: quotes around a scalar do not matter where the file has text, when it is read from YAML text. *)

From Coq Require Import String Ascii List NArith ZArith Bool Lia.
Import ListNotations.
From Verif Require Import Base BaseFacts Num Coll Serde Codec ScalarCodec ServiceParts ServiceCodec ComposeCodec PanicSpec PropsCompose NodeModel NodeSpec NodeFacts PropsNode QuoteSpec.
Open Scope N_scope.

(** ** Lemmas *)

(** What is text for a reader, and which maps have keys that are text. *)
Fixpoint text_at (h : hint) (p : list step) : bool :=
  match h with
  | HAny | HValue _ => false
  | HText => match p with [] => true | _ => false end
  | HOption h => text_at h p
  | HSeq h => match p with AnyItem :: p => text_at h p | _ => false end
  | HMap h => match p with AnyKey :: p | Key _ :: p => text_at h p | _ => false end
  | HStruct f => match p with Key k :: p => text_at (f k) p | _ => false end
  | HForms q m => match p with [] => false | AnyItem :: _ => text_at q p | _ => text_at m p end
  end.
Fixpoint keys_at (h : hint) (p : list step) : bool :=
  match h with
  | HAny | HValue _ | HText => false
  | HOption h => keys_at h p
  | HSeq h => match p with AnyItem :: p => keys_at h p | _ => false end
  | HMap h => match p with [] => true | AnyKey :: p | Key _ :: p => keys_at h p | _ => false end
  | HStruct f => match p with [] => true | Key k :: p => keys_at (f k) p | _ => false end
  | HForms q m => match p with AnyItem :: _ => keys_at q p | _ => keys_at m p end
  end.

Definition never (P : list step -> Prop) : Prop := forall p, ~ P p.
Lemma never_key : forall P k, never P -> never (below_key P k).
Proof. intros P k N p [H|H]; exact (N _ H). Qed.
Lemma never_item : forall P, never P -> never (below_item P).
Proof. intros P N p H. exact (N _ H). Qed.
Lemma quoted_nowhere : forall n T M n', never T -> never M -> quoted_at T M n n' -> n' = n.
Proof.
  induction n as [t|s|l IH|es IH] using node_induction; intros T M n' NT NM H; inversion H as [?|? ? ? C|? ? ? l' F|? ? ? es' F]; subst; try reflexivity.
  - destruct (NT _ C).
  - f_equal. clear H. apply never_item in NT, NM. induction F as [|x x' l l' X F J]; [reflexivity|]. inversion IH as [|? ? I1 I2]; subst. f_equal; [eapply I1; [| |exact X]; assumption|auto].
  - f_equal. clear H. induction F as [|[k v] [k' v'] es es' X F J]; [reflexivity|]. inversion IH as [|? ? [I0 I1] I2]; subst. cbn [fst snd] in *. f_equal; [|auto].
    destruct X as [X|(c & _ & _ & [C| ->] & Q)]; [exact X|destruct (NM _ C)|]. f_equal. eapply I1; [| |exact Q]; apply never_key; assumption.
Qed.
Lemma seq_same : forall T M l l', never (below_item T) -> never (below_item M) -> Forall2 (quoted_at (below_item T) (below_item M)) l l' -> l' = l.
Proof. intros T M l l' NT NM F. induction F as [|x x' l l' X F J]; [reflexivity|]. f_equal; [eapply quoted_nowhere; [exact NT|exact NM|exact X]|exact J]. Qed.

(** [T] and [M] are places of the reader [h]. *)
Definition within (h : hint) (T M : list step -> Prop) : Prop := (forall p, T p -> text_at h p = true) /\ (forall p, M p -> keys_at h p = true).

Section Reading.
Variable y : numerals.
Lemma text_key : forall n n' k, scalar_text n = Some k -> scalar_text n' = Some k -> seen_text y n = VStr k /\ seen_text y n' = VStr k.
Proof. intros n n' k A B. destruct n, n'; try discriminate; injection A as ->; injection B as ->; split; reflexivity. Qed.
Lemma map_same : forall (T M : list step -> Prop) es es', (forall k, never (below_key T k)) -> (forall k, never (below_key M k)) -> ~ M [] ->
  Forall2 (fun e e' => e' = e \/ exists k, scalar_text (fst e) = Some k /\ scalar_text (fst e') = Some k /\ (M [] \/ fst e' = fst e) /\
      quoted_at (below_key T k) (below_key M k) (snd e) (snd e')) es es' -> es' = es.
Proof.
  intros T M es es' NT NM NK F. induction F as [|[k v] [k' v'] es es' X F J]; [reflexivity|]. f_equal; [|exact J].
  destruct X as [X|(c & _ & _ & [C|E] & Q)]; [exact X|destruct (NK C)|]. cbn [fst snd] in *. subst. f_equal. eapply quoted_nowhere; [apply NT|apply NM|exact Q].
Qed.
Lemma value_not_null : forall n T M n', quoted_at T M n n' -> (value y n = VNull <-> value y n' = VNull).
Proof.
  intros n T M n' H. inversion H as [?|? ? t C N|? ? ? l' F|? ? ? es' F]; subst; cbn [value]; try (split; discriminate); [tauto|].
  split; [|discriminate]. intros E. apply (resolve_null y) in E as [->|E]; [destruct N; now left|destruct N; now right].
Qed.
Lemma seen_quoted : forall h T M n n', within h T M -> quoted_at T M n n' -> seen y h n' = seen y h n.
Proof.
  induction h as [| |h IH|h IH|h IH|f IH|q IHq m IHm|h IH]; intros T M n n' [WT WM] H.
  - assert (n' = n) as ->; [|reflexivity]. apply (quoted_nowhere n T M n'); [intros p C; discriminate (WT _ C)|intros p C; discriminate (WM _ C)|exact H].
  - inversion H as [?|? ? t C N|? ? l l' F|? ? es es' F]; subst; try reflexivity.
    + f_equal. assert (l' = l) as ->; [|reflexivity]. eapply seq_same; [| |exact F]; intros p C; [discriminate (WT _ C)|discriminate (WM _ C)].
    + f_equal. assert (es' = es) as ->; [|reflexivity]. eapply map_same; [| | |exact F]; [intros k p [C|C]; discriminate (WT _ C)|intros k p [C|C]; discriminate (WM _ C)|intros C; discriminate (WM _ C)].
  - assert (E := IH T M n n' (conj WT WM) H). assert (V := value_not_null n T M n' H). cbn [seen].
    destruct (value y n); [rewrite (proj1 V eq_refl); reflexivity|..]; destruct (value y n'); try (discriminate (proj2 V eq_refl)); exact E.
  - inversion H as [?|? ? t C N|? ? l l' F|? ? es es' F]; subst; try reflexivity.
    + discriminate (WT _ C).
    + cbn [seen]. f_equal. clear H. induction F as [|x x' l l' X F J]; [reflexivity|]. cbn [map]. f_equal; [|exact J].
      apply (IH (below_item T) (below_item M)); [|exact X]. split; intros p C; [exact (WT _ C)|exact (WM _ C)].
    + f_equal. assert (es' = es) as ->; [|reflexivity]. eapply map_same; [| | |exact F]; [intros k p [C|C]; discriminate (WT _ C)|intros k p [C|C]; discriminate (WM _ C)|intros C; discriminate (WM _ C)].
  - inversion H as [?|? ? t C N|? ? l l' F|? ? es es' F]; subst; try reflexivity.
    + discriminate (WT _ C).
    + f_equal. assert (l' = l) as ->; [|reflexivity]. eapply seq_same; [| |exact F]; intros p C; [discriminate (WT _ C)|discriminate (WM _ C)].
    + cbn [seen]. f_equal. clear H. induction F as [|[k v] [k' v'] es es' X F J]; [reflexivity|]. cbn [map fst snd]. f_equal; [|exact J].
      destruct X as [X|(c & A & B & _ & Q)]; [now injection X as -> ->|]. cbn [fst snd] in *. destruct (text_key _ _ _ A B) as [-> ->]. f_equal.
      apply (IH (below_key T c) (below_key M c)); [|exact Q]. split; intros p [C|C]; [exact (WT _ C)|exact (WT _ C)|exact (WM _ C)|exact (WM _ C)].
  - inversion H as [?|? ? t C N|? ? l l' F|? ? es es' F]; subst; try reflexivity.
    + discriminate (WT _ C).
    + f_equal. assert (l' = l) as ->; [|reflexivity]. eapply seq_same; [| |exact F]; intros p C; [discriminate (WT _ C)|discriminate (WM _ C)].
    + cbn [seen]. f_equal. clear H. induction F as [|[k v] [k' v'] es es' X F J]; [reflexivity|]. cbn [map fst snd]. f_equal; [|exact J].
      destruct X as [X|(c & A & B & _ & Q)]; [now injection X as -> ->|]. cbn [fst snd] in *. destruct (text_key _ _ _ A B) as [-> ->]. f_equal.
      apply (IH c (below_key T c) (below_key M c)); [|exact Q]. split; intros p [C|C]; [exact (WT _ C)|discriminate (WT _ C)|exact (WM _ C)|discriminate (WM _ C)].
  - inversion H as [?|? ? t C N|? ? l l' F|? ? es es' F]; subst; try reflexivity.
    + discriminate (WT _ C).
    + cbn [seen]. apply (IHq (fun p => match p with AnyItem :: _ => T p | _ => False end) (fun p => match p with AnyItem :: _ => M p | _ => False end)).
      * split; intros [|[] p] C; try destruct C; [exact (WT _ C)|exact (WM _ C)].
      * now constructor.
    + cbn [seen]. apply (IHm (fun p => match p with [] | AnyItem :: _ => False | _ => T p end) (fun p => match p with AnyItem :: _ => False | _ => M p end)).
      * split; intros [|[] p] C; try destruct C; first [exact (WT _ C)|exact (WM _ C)].
      * now constructor.
  - assert (n' = n) as ->; [|reflexivity]. apply (quoted_nowhere n T M n'); [intros p C; discriminate (WT _ C)|intros p C; discriminate (WM _ C)|exact H].
Qed.
End Reading.

Lemma places_text : forallb (text_at compose_h) text_places = true.
Proof. vm_compute. reflexivity. Qed.
Lemma places_keys : forallb (keys_at compose_h) key_places = true.
Proof. vm_compute. reflexivity. Qed.

(** ** Theorems *)

(** A file with quotes around some of its text, and around some keys, is read the same. *)
Theorem quotes_free_partial : forall w y n n', quoted_at (fun p => In p text_places) (fun p => In p key_places) n n' -> from_text w y n' = from_text w y n.
Proof.
  intros w y n n' H. unfold from_text. f_equal. refine (seen_quoted y compose_h _ _ n n' _ H).
  split; intros p I; [exact (proj1 (forallb_forall _ _) places_text p I)|exact (proj1 (forallb_forall _ _) places_keys p I)].
Qed.
Print Assumptions quotes_free_partial.
(** Quoting twice is no more than once, and a file may have some quotes and not others: also the other way around. *)
Corollary quotes_either_partial : forall w y n n' n'', quoted_at (fun p => In p text_places) (fun p => In p key_places) n n' ->
  quoted_at (fun p => In p text_places) (fun p => In p key_places) n n'' -> from_text w y n' = from_text w y n''.
Proof. intros w y n n' n'' A B. now rewrite (quotes_free_partial w y n n' A), (quotes_free_partial w y n n'' B). Qed.
Print Assumptions quotes_either_partial.

Definition step_eq (a b : step) : {a = b} + {a <> b}.
Proof. decide equality. apply (list_eq_dec N.eq_dec). Defined.
Lemma in_place : forall p l, (if in_dec (list_eq_dec step_eq) p l then true else false) = true -> In p l.
Proof. intros p l H. destruct (in_dec (list_eq_dec step_eq) p l); [assumption|discriminate]. Qed.
Ltac here := lazymatch goal with
  | |- In _ _ => apply in_place; vm_compute; reflexivity
  | |- _ \/ _ => first [left; here | right; here]
  | |- below_key _ _ _ => unfold below_key at 1; cbv beta; here
  | |- below_item _ _ => unfold below_item at 1; cbv beta; here
  | |- _ => cbv beta; lazymatch goal with |- In _ _ => here end
  end.
Ltac quotes := cbn beta iota delta [fst snd]; lazymatch goal with
  | |- quoted_at _ _ (Plain _) (Quoted _) => apply qa_quote; [here|vm_compute; intuition discriminate]
  | |- quoted_at _ _ ?n ?n => apply qa_same
  | |- quoted_at _ _ (NSeq _) (NSeq _) => apply qa_seq; repeat (apply Forall2_cons || apply Forall2_nil); quotes
  | |- quoted_at _ _ (NMap _) (NMap _) => apply qa_map; repeat (apply Forall2_cons || apply Forall2_nil); quotes
  | |- ?e = ?e \/ _ => now left
  | |- _ \/ _ => right; eexists; repeat apply conj; [reflexivity|reflexivity|first [right; reflexivity | left; here]|quotes]
  end.
Example quotes_used : quoted_at (fun p => In p text_places) (fun p => In p key_places) numbered
    (NMap [(Quoted $"services", NMap [(Quoted $"1", NMap [(Plain $"image", Quoted $"nginx:1.25"); (Quoted $"user", Quoted $"1000"); (Plain $"cap_add", Plain []); (Plain $"scale", Plain $"2");
      (Plain $"environment", NMap [(Quoted $"1", Plain $"yes"); (Plain $"B", Quoted $"007")]); (Plain $"labels", NSeq [Quoted $"3.8"])])]);
      (Plain $"version", Quoted $"3.8")]) /\
  accepted (from_text w0 y0 numbered) = true.
Proof. split; [|vm_compute; reflexivity]. unfold numbered, document, numbered_app. quotes. Qed.

(** At other places which have text the quotes do matter: the fields of a network, volume, config or secret, the flattened fields of a service
    or build, and the fields of a long volume. There a scalar which is a number or boolean is only accepted in quotes. *)
Definition one (k : str) (n : node) : node := NMap [(Plain k, n)].
Definition at_service (n : node) : node := one $"services" (one $"a" n).
Definition at_resource (r k : str) (n : node) : node := NMap [(Plain $"services", NMap []); (Plain r, one $"a" (one k n))].
Definition other_texts : list (node -> node) :=
  [at_resource $"networks" $"driver"; at_resource $"networks" $"name"; at_resource $"volumes" $"driver"; at_resource $"volumes" $"name";
   at_resource $"configs" $"file"; at_resource $"configs" $"environment"; at_resource $"configs" $"content"; at_resource $"secrets" $"file"; at_resource $"secrets" $"environment";
   (fun n => at_service (one $"build" (one $"dockerfile" n))); (fun n => at_service (one $"build" (one $"dockerfile_inline" n)));
   (fun n => at_service (one $"volumes" (NSeq [NMap [(Quoted $"type", Quoted $"cluster"); (Quoted $"source", n); (Quoted $"target", Quoted $"/a")]])));
   (fun n => at_service (one $"volumes" (NSeq [NMap [(Quoted $"type", Quoted $"volume"); (Quoted $"target", Quoted $"/a"); (Quoted $"consistency", n)]])))].
Definition vone (k : str) (v : sval) : sval := VMap [(VStr k, v)].
Definition vat_service (v : sval) : sval := vone $"services" (vone $"a" v).
Definition vat_resource (r k : str) (v : sval) : sval := VMap [(VStr $"services", VMap []); (VStr r, vone $"a" (vone k v))].
Definition other_values : list (sval -> sval) :=
  [vat_resource $"networks" $"driver"; vat_resource $"networks" $"name"; vat_resource $"volumes" $"driver"; vat_resource $"volumes" $"name";
   vat_resource $"configs" $"file"; vat_resource $"configs" $"environment"; vat_resource $"configs" $"content"; vat_resource $"secrets" $"file"; vat_resource $"secrets" $"environment";
   (fun v => vat_service (vone $"build" (vone $"dockerfile" v))); (fun v => vat_service (vone $"build" (vone $"dockerfile_inline" v)));
   (fun v => vat_service (vone $"volumes" (VSeq [VMap [(VStr $"type", VStr $"cluster"); (VStr $"source", v); (VStr $"target", VStr $"/a")]])));
   (fun v => vat_service (vone $"volumes" (VSeq [VMap [(VStr $"type", VStr $"volume"); (VStr $"target", VStr $"/a"); (VStr $"consistency", v)]])))].
Lemma other_seen : forall y t, Forall2 (fun f g => seen y compose_h (f (Quoted t)) = g (VStr t) /\ (resolve y t <> VNull -> seen y compose_h (f (Plain t)) = g (resolve y t))) other_texts other_values.
Proof.
  intros y t. unfold other_texts, other_values.
  repeat (apply Forall2_cons; [split; [reflexivity|intros N; cbn -[resolve]; destruct (resolve y t); try reflexivity; now destruct N]|]). apply Forall2_nil.
Qed.
Lemma other_read : forall w, Forall (fun g => (forall t, accepted (de (compose_c w) (g (VStr t))) = true) /\
  (forall b, accepted (de (compose_c w) (g (VBool b))) = false) /\ (forall z, accepted (de (compose_c w) (g (VInt z))) = false) /\
  (forall f, accepted (de (compose_c w) (g (VFloat f))) = false)) other_values.
Proof.
  intros w. unfold other_values. repeat (apply Forall_cons; [repeat apply conj; intros ?; vm_compute; reflexivity|]). apply Forall_nil.
Qed.
Theorem quotes_free_refuted : forall w y f t, In f other_texts -> resolve y t <> VNull -> resolve y t <> VStr t ->
  accepted (from_text w y (f (Quoted t))) = true /\ accepted (from_text w y (f (Plain t))) = false.
Proof.
  intros w y f t I N S. assert (S' : forall s, resolve y t <> VStr s) by (intros s E; pose proof (resolve_str y t s E) as ->; now destruct (S E)).
  pose proof (other_seen y t) as A. pose proof (other_read w) as B. revert I B. induction A as [|f' g fs gs [Q P] A IH]; intros I B; [destruct I|].
  inversion B as [|? ? [BQ BP] B']; subst. destruct I as [->|I]; [|exact (IH I B')]. unfold from_text. rewrite Q, (P N). split; [apply BQ|].
  destruct BP as (B1 & B2 & B3). pose proof (resolve_scalar y t) as R. destruct (resolve y t); try contradiction; auto. now destruct (S' s).
Qed.
Print Assumptions quotes_free_refuted.
Example quotes_matter_used : resolve y0 $"3.8" <> VNull /\ resolve y0 $"3.8" <> VStr $"3.8" /\ List.length other_texts = 13%nat.
Proof. vm_compute. repeat split; discriminate. Qed.
