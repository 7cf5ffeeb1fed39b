(** C78: a compose file read from YAML text and read from a [serde_yaml::Value]. *)

From Coq Require Import String Ascii List NArith ZArith Bool Lia.
Import ListNotations.
From Verif Require Import Base BaseFacts Num Coll VolumesModel Serde Codec EnumModel ScalarCodec CommonCodec ServiceParts MountCodec ServiceCodec ComposeCodec ComposeGood ComposeProofs
  NeatFacts ExactFacts ReadFacts OptionsModel MergeSpec MergeFacts PropsCompose PropsOptions NodeModel NodeSpec NodeFacts NodeLoads.
Open Scope N_scope.

(** Examples: digits are an integer, [3.8] is a float. *)
Definition y0 : numerals :=
  mk_numerals (fun t => match parse_u32 t with Ok n => Some (Z.of_N n) | Err _ => None end) (fun t => if str_eqb t $"3.8" then Some 4615739258092021350 else None).
Definition document (services more : list (node * node)) : node := NMap ((Plain $"services", NMap services) :: more).
Definition numbered_app : node :=
  NMap [(Plain $"image", Plain $"nginx:1.25"); (Plain $"user", Plain $"1000"); (Plain $"cap_add", Plain []); (Plain $"scale", Plain $"2");
        (Plain $"environment", NMap [(Plain $"1", Plain $"yes"); (Plain $"B", Quoted $"007")]); (Plain $"labels", NSeq [Plain $"3.8"])].
Definition quoted_app : node :=
  NMap [(Quoted $"image", Quoted $"nginx:1.25"); (Quoted $"user", Quoted $"1000"); (Quoted $"cap_add", Plain []); (Quoted $"scale", Plain $"2");
        (Quoted $"environment", NMap [(Quoted $"1", Plain $"yes"); (Quoted $"B", Quoted $"007")]); (Quoted $"labels", NSeq [Quoted $"3.8"])].
Definition numbered : node := document [(Plain $"1", numbered_app)] [(Plain $"version", Plain $"3.8")].
Definition numbered_quoted : node := NMap [(Quoted $"services", NMap [(Quoted $"1", quoted_app)]); (Quoted $"version", Quoted $"3.8")].
Definition compose_version {w : externals} (c : compose w) : option str := nth_val 0 (compose_ms w) (fst c).

(** ** The strict reading *)

(** All the other theorems on loading are about [load], which takes every value for what it is and nothing else. What [load] accepts is
    accepted, and read the same way, from text and from a [Value]. *)
Theorem load_text : forall w y n c, load w (value y n) = Ok c -> from_text w y n = Ok c.
Proof. intros w y n c H. exact (mono_compose w _ _ c (le_seen y compose_h n) H). Qed.
Print Assumptions load_text.
Theorem load_value : forall w v c, load w v = Ok c -> from_value w v = Ok c.
Proof. intros w v c H. exact (mono_compose w _ _ c (le_seen_value compose_h v) H). Qed.
Print Assumptions load_value.

(** ** Text and value *)

(** A document without a null that is spelled out, if accepted as a [Value], is accepted as text and means the same. *)
Theorem value_text_partial : forall w y n c, no_written_null n -> from_value w (value y n) = Ok c -> from_text w y n = Ok c.
Proof. intros w y n c W H. exact (mono_compose w _ _ c (le_value_seen y compose_h n W) H). Qed.
Print Assumptions value_text_partial.
(** A document accepted as text is accepted as a [Value] and means the same, once some of its scalars are put in quotes. *)
Theorem text_value_partial : forall w y n c, from_text w y n = Ok c -> exists n', requoted n n' /\ from_value w (value y n') = Ok c.
Proof.
  intros w y n c H. exists (quote y compose_h n). split; [apply requoted_quote|]. exact (mono_compose w _ _ c (le_quoted y compose_h n) H).
Qed.
Print Assumptions text_value_partial.
Example text_value_used : accepted (from_text w0 y0 numbered) = true /\ accepted (from_value w0 (value y0 numbered)) = false /\
  requoted numbered numbered_quoted /\ accepted (from_value w0 (value y0 numbered_quoted)) = true /\ accepted (load w0 (value y0 numbered_quoted)) = false /\
  from_text w0 y0 numbered = from_value w0 (value y0 numbered_quoted).
Proof.
  split; [vm_compute; reflexivity|]. split; [vm_compute; reflexivity|]. split; [exact (requoted_quote y0 compose_h numbered)|]. split; [vm_compute; reflexivity|].
  split; [vm_compute; reflexivity|]. vm_compute. reflexivity.
Qed.
(** A document accepted both as text and as a [Value] means the same both ways. *)
Theorem text_value_agree : forall w y n c c', from_text w y n = Ok c -> from_value w (value y n) = Ok c' -> c' = c.
Proof.
  intros w y n c c' H H'. assert (A := mono_compose w _ _ c (le_quoted y compose_h n) H). assert (B := mono_compose w _ _ c' (le_value_quoted y compose_h n) H').
  rewrite A in B. now injection B.
Qed.
Print Assumptions text_value_agree.

(** Neither accepts all that the other does. A version which looks like a number or boolean is only accepted as text, whatever it is. *)
Lemma version_typed : forall v v', v <> VNull -> (forall s, v <> VStr s) -> v' = VMap [(VStr $"services", VMap []); (VStr $"version", v)] -> forall w, de (compose_c w) v' = Err DeError.
Proof. intros v v' N S -> w. destruct v; try (now destruct N); try reflexivity. now destruct (S s). Qed.
Lemma version_text : forall w t, match de (compose_c w) (VMap [(VStr $"services", VMap []); (VStr $"version", VStr t)]) with Ok c => compose_version c = Some t | Err _ => False end.
Proof. intros w t. reflexivity. Qed.
Theorem text_value_refuted : forall w y t, resolve y t <> VNull -> resolve y t <> VStr t ->
  let n := NMap [(Quoted $"services", NMap []); (Quoted $"version", Plain t)] in
  (exists c, from_text w y n = Ok c /\ compose_version c = Some t) /\ from_value w (value y n) = Err DeError.
Proof.
  intros w y t N S n. assert (S' : forall s, resolve y t <> VStr s) by (intros s E; pose proof (resolve_str y t s E) as ->; now destruct (S E)). split.
  - unfold from_text. assert (E : seen y compose_h n = VMap [(VStr $"services", VMap []); (VStr $"version", VStr t)]).
    { change (VMap [(VStr $"services", VMap []); (VStr $"version", match resolve y t with VNull => VNull | _ => VStr t end)] = VMap [(VStr $"services", VMap []); (VStr $"version", VStr t)]).
      destruct (resolve y t); [now destruct N|reflexivity..]. }
    rewrite E. apply found, version_text.
  - apply (version_typed (resolve y t)); [exact N|exact S'|].
    change (VMap [(VStr $"services", VMap []); (VStr $"version", match resolve y t with VNull => VNull | _ => resolve y t end)] = VMap [(VStr $"services", VMap []); (VStr $"version", resolve y t)]).
    destruct (resolve y t); reflexivity.
Qed.
Print Assumptions text_value_refuted.
Example text_value_refuted_used : resolve y0 $"3.8" = VFloat 4615739258092021350 /\ resolve y0 $"3" = VInt 3 /\ resolve y0 $"true" = VBool true /\ resolve y0 $"yes" = VStr $"yes".
Proof. repeat split. Qed.
(** A null that is spelled out is an empty service, or an empty list, only in a [Value]. One that is left out is in both. *)
Theorem value_text_refuted : forall w y t, In t [$"~"; $"null"; $"Null"; $"NULL"] ->
  let service := NMap [(Quoted $"services", NMap [(Quoted $"a", Plain t)])] in
  let lists := NMap [(Quoted $"services", NMap [(Quoted $"a", NMap [(Quoted $"cap_add", Plain t)])])] in
  accepted (from_value w (value y service)) = true /\ from_text w y service = Err DeError /\
  accepted (from_value w (value y lists)) = true /\ from_text w y lists = Err DeError.
Proof. intros w y t I. cbn [In] in I. destruct I as [<-|[<-|[<-|[<-|[]]]]]; repeat apply conj; first [apply rejected_err; vm_compute; reflexivity | vm_compute; reflexivity]. Qed.
Print Assumptions value_text_refuted.
Theorem left_out_text : forall w y,
  let service := NMap [(Quoted $"services", NMap [(Quoted $"a", Plain [])])] in
  let lists := NMap [(Quoted $"services", NMap [(Quoted $"a", NMap [(Quoted $"cap_add", Plain [])])])] in
  accepted (from_text w y service) = true /\ accepted (from_text w y lists) = true /\ load w (value y service) = Err DeError /\ load w (value y lists) = Err DeError.
Proof. intros w y. repeat apply conj; first [apply rejected_err; vm_compute; reflexivity | vm_compute; reflexivity]. Qed.
Print Assumptions left_out_text.
(** But a list that may also be a map is rejected when left out, both ways. *)
Theorem left_out_forms_refuted : forall w y k,
  In k [$"environment"; $"labels"; $"annotations"; $"sysctls"; $"depends_on"; $"extra_hosts"] ->
  let n := NMap [(Quoted $"services", NMap [(Quoted $"a", NMap [(Quoted k, Plain [])])])] in
  from_text w y n = Err DeError /\ from_value w (value y n) = Err DeError.
Proof. intros w y k I. cbn [In] in I. destruct I as [<-|[<-|[<-|[<-|[<-|[<-|[]]]]]]]; split; apply rejected_err; vm_compute; reflexivity. Qed.
Print Assumptions left_out_forms_refuted.

(** ** Flags *)

(** A flag of a service is read from text exactly from the three spellings of each boolean, whatever [y] takes for numbers. *)
Definition flagged (k : str) (f : sval) : list (sval * sval) := [(VStr $"services", VMap [(VStr $"a", VMap [(VStr k, f)])])].
Definition flagless : list (sval * sval) := [(VStr $"services", VMap [(VStr $"a", VMap [])])].
Lemma one_of_in : forall ts t, one_of ts t = true <-> In t ts.
Proof.
  intros ts t. unfold one_of. rewrite existsb_exists. split; [intros (u & I & E); apply str_eqb_eq in E; now subst|]. intros I. exists t. split; [exact I|apply str_eqb_refl].
Qed.
Lemma resolve_bool : forall y t, match resolve y t with
  | VBool true => In t [$"true"; $"True"; $"TRUE"] | VBool false => In t [$"false"; $"False"; $"FALSE"]
  | _ => ~ In t [$"true"; $"True"; $"TRUE"; $"false"; $"False"; $"FALSE"] end.
Proof.
  intros y t. unfold resolve. destruct (one_of null_texts t) eqn:N.
  { apply one_of_in in N. cbn [In null_texts] in N. intros I. cbn [In] in I.
    destruct N as [<-|[<-|[<-|[<-|[<-|[]]]]]]; repeat (destruct I as [I|I]; [discriminate I|]); exact I. }
  clear N. destruct (one_of true_texts t) eqn:T; [apply one_of_in in T; exact T|].
  destruct (one_of false_texts t) eqn:F; [apply one_of_in in F; exact F|].
  assert (X : ~ In t [$"true"; $"True"; $"TRUE"; $"false"; $"False"; $"FALSE"]).
  { intros I. apply (in_app_or true_texts false_texts) in I as [I|I]; apply one_of_in in I; congruence. }
  destruct (y_int y t); [exact X|]. destruct (y_float y t); exact X.
Qed.
Lemma flag_loads : forall w k v, In k [$"init"; $"oom_kill_disable"; $"privileged"; $"read_only"; $"stdin_open"; $"tty"] ->
  match v, de (compose_c w) (VMap (flagged k v)) with
  | VBool true, Ok c => save w c = VMap (flagged k (VBool true)) | VBool false, Ok c => save w c = VMap flagless | VBool _, Err _ => False
  | _, Ok _ => False | _, Err _ => True
  end.
Proof.
  intros w k v I. cbn [In] in I. destruct v as [|[]| | | | | ]; destruct I as [<-|[<-|[<-|[<-|[<-|[<-|[]]]]]]]; vm_compute; reflexivity || exact I.
Qed.
Theorem text_flag : forall w y k t, In k [$"init"; $"oom_kill_disable"; $"privileged"; $"read_only"; $"stdin_open"; $"tty"] ->
  match from_text w y (NMap [(Plain $"services", NMap [(Plain $"a", NMap [(Plain k, Plain t)])])]) with
  | Ok c => In t [$"true"; $"True"; $"TRUE"] /\ save w c = VMap [(VStr $"services", VMap [(VStr $"a", VMap [(VStr k, VBool true)])])] \/
            In t [$"false"; $"False"; $"FALSE"] /\ save w c = VMap [(VStr $"services", VMap [(VStr $"a", VMap [])])]
  | Err _ => ~ In t [$"true"; $"True"; $"TRUE"; $"false"; $"False"; $"FALSE"]
  end.
Proof.
  intros w y k t I. unfold from_text.
  assert (E : seen y compose_h (NMap [(Plain $"services", NMap [(Plain $"a", NMap [(Plain k, Plain t)])])]) = VMap (flagged k (resolve y t))).
  { cbn [In] in I. destruct I as [<-|[<-|[<-|[<-|[<-|[<-|[]]]]]]]; reflexivity. }
  rewrite E. pose proof (flag_loads w k (resolve y t) I) as L. pose proof (resolve_bool y t) as R. clear E.
  destruct (resolve y t) as [|[]| | | | | ]; destruct (de (compose_c w) _); try contradiction; auto.
Qed.
Print Assumptions text_flag.
Example text_flag_used : accepted (from_text w0 y0 (document [(Plain $"a", NMap [(Plain $"tty", Plain $"True")])] [])) = true /\
  accepted (from_text w0 y0 (document [(Plain $"a", NMap [(Plain $"tty", Plain $"yes")])] [])) = false /\
  accepted (from_text w0 y0 (document [(Plain $"a", NMap [(Plain $"tty", Quoted $"true")])] [])) = false.
Proof. vm_compute. repeat split. Qed.

(** ** Saved files *)

(** A file that was loaded and saved is loaded again as it was, both from a [Value] and from any text that means what was saved. The
    exceptions are those of [compose_reload_partial]. *)
Theorem saved_text_partial : forall w y v c, externals_ok w -> no_empty v -> ~ compose_texts v $"container:ro:rw" -> ~ compose_texts v $"container:rw:rw" ->
  load w v = Ok c -> from_value w (save w c) = Ok c /\ forall n, value y n = save w c -> from_text w y n = Ok c.
Proof.
  intros w y v c O E N1 N2 H. assert (R := compose_reload_partial w v c O E N1 N2 H). split; [now apply load_value|]. intros n V. apply load_text. now rewrite V.
Qed.
Print Assumptions saved_text_partial.
Fixpoint as_text (v : sval) : node :=
  match v with
  | VNull => Plain []
  | VBool b => Plain (if b then $"true" else $"false")
  | VInt z => Plain (show_N (Z.to_N z))
  | VFloat _ => Plain $"3.8"
  | VStr s => Quoted s
  | VSeq l => NSeq (map as_text l)
  | VMap es => NMap (map (fun e => (as_text (fst e), as_text (snd e))) es)
  end.
Example saved_text_used : exists c, load w0 sample = Ok c /\ value y0 (as_text (save w0 c)) = save w0 c /\ from_text w0 y0 (as_text (save w0 c)) = Ok c.
Proof.
  destruct (found (load w0 sample) (fun c => value y0 (as_text (save w0 c)) = save w0 c)) as (c & H & E); [vm_compute; reflexivity|]. exists c. split; [exact H|]. split; [exact E|].
  destruct compose_reload_example as (N & T & _). apply (saved_text_partial w0 y0 sample); auto using w0_ok. apply compose_has_texts. reflexivity.
Qed.

(** ** Options *)

(** Without options the text is read as text; with merging it is read as a [Value], which has no repeated keys, and merged. *)
Theorem options_text : forall w y o n c,
  (from_text w y n = Ok c <-> options_from_text w y (set_apply_merge o false) n = Ok c) /\
  (options_from_text w y (set_apply_merge o true) n = Ok c <-> exists v, yaml_ok (value y n) = true /\ apply_merge (value y n) = Ok v /\ from_value w v = Ok c).
Proof.
  intros w y o n c. split; [reflexivity|]. unfold options_from_text, options_from_value. cbn [any set_apply_merge opt_apply_merge de yaml_c].
  destruct (yaml_ok (value y n)); cbn [bind].
  - destruct (apply_merge (value y n)) as [v|]; cbn [bind].
    + split; [intros H; exists v; auto|intros (u & _ & E & H); injection E as ->; exact H].
    + split; [discriminate|intros (u & _ & E & _); discriminate].
  - split; [discriminate|intros (u & E & _); discriminate].
Qed.
Print Assumptions options_text.
(** So where there is nothing to merge the option does not change what a document means, but it changes what is accepted:
    it takes numbers for text no more, and nulls for lists. *)
Theorem options_text_agree : forall w y o o' n c c', plain (value y n) -> options_from_text w y o n = Ok c -> options_from_text w y o' n = Ok c' -> c' = c.
Proof.
  assert (V : forall w y n c, plain (value y n) -> options_from_text w y (mk_options true) n = Ok c -> from_value w (value y n) = Ok c).
  { intros w y n c P H. apply (options_text w y options_default n c) in H as (v & _ & M & H). rewrite (merge_plain _ P) in M. injection M as <-. exact H. }
  intros w y [[]] [[]] n c c' P H H'.
  - rewrite H in H'. now injection H'.
  - symmetry. exact (text_value_agree w y n c' c H' (V w y n c P H)).
  - exact (text_value_agree w y n c c' H (V w y n c' P H')).
  - rewrite H in H'. now injection H'.
Qed.
Print Assumptions options_text_agree.
Theorem options_text_refuted : forall w y, exists n m, plain (value y n) /\ plain (value y m) /\
  accepted (options_from_text w y compose_options n) = true /\ accepted (options_from_text w y (set_apply_merge compose_options true) n) = false /\
  accepted (options_from_text w y compose_options m) = false /\ accepted (options_from_text w y (set_apply_merge compose_options true) m) = true.
Proof.
  intros w y. exists (NMap [(Quoted $"services", NMap []); (Quoted $"version", Plain $"true")]), (NMap [(Quoted $"services", NMap [(Quoted $"a", Plain $"null")])]).
  assert (P : forall v, plain (VMap [(VStr $"a", v)]) -> plain (VMap [(VStr $"services", VMap [(VStr $"a", v)])])).
  { intros v P. apply plain_map; [intros [x [E|[]]]; discriminate E|]. intros k x [E|[]]. injection E as _ <-. exact P. }
  split; [|split].
  - apply plain_map; [intros [x [E|[E|[]]]]; discriminate E|]. intros k x [E|[E|[]]]; injection E as _ <-; [apply plain_map; [intros [x []]|intros ? ? []]|apply plain_leaf; exact I].
  - apply P, plain_map; [intros [x [E|[]]]; discriminate E|]. intros k x [E|[]]. injection E as _ <-. apply plain_leaf. exact I.
  - repeat apply conj; vm_compute; reflexivity.
Qed.
Print Assumptions options_text_refuted.
