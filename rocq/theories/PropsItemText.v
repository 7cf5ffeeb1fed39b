(** Theorems about the texts of [NAME=TEXT] items (C85). *)

From Coq Require Import String Ascii List NArith ZArith Bool Lia ZifyBool ZifyN ZifyNat.
Import ListNotations.
From Verif Require Import Base BaseFacts Num NumFacts Regex RegexFacts Serde Coll CollFacts KeysModel KeysSpec
  IpModel ValuesModel ValuesSpec ValuesProofs ValuesNumProofs ListMapProofs PropsValues EqModel Codec EnumModel ScalarCodec CommonCodec ServiceParts
  PropsCompose.
Open Scope N_scope.

(** ** Specification *)

(** Integers as they are usually written: no plus, no zero in front, no minus zero. *)
Definition nonzero_digit (c : char) : Prop := 49 <= c <= 57.
Definition a_digit (c : char) : Prop := 48 <= c <= 57.
Inductive plain_int : str -> Prop :=
| plain_zero : plain_int $"0"
| plain_positive : forall d ds, nonzero_digit d -> Forall a_digit ds -> plain_int (d :: ds)
| plain_negative : forall d ds, nonzero_digit d -> Forall a_digit ds -> plain_int (ch "-" :: d :: ds).

(** Texts which are kept: anything which is no number, integers as they are usually written, integers too large to be read
    as one, and floats which are printed as they were written. *)
Definition kept (float_value : str -> N) (float_show : N -> str) (t : str) : Prop :=
  (forall z, denotes t z -> plain_int t \/ (z < - 2 ^ 63)%Z \/ (2 ^ 64 <= z)%Z) /\
  (matches FLOAT_RE t -> ~ matches INT_RE t -> float_show (float_value t) = t).

(** ** Digits *)

Lemma value_bound : forall ds acc, Forall (fun d => d < 10) ds ->
  NumFacts.value 10 ds acc < (acc + 1) * 10 ^ N.of_nat (List.length ds).
Proof.
  induction ds as [|d ds IH]; intros acc F; cbn [NumFacts.value List.length]; [change (N.of_nat 0) with 0; rewrite N.pow_0_r; lia|].
  inversion F as [|? ? Hd F']; subst. rewrite Nat2N.inj_succ, N.pow_succ_r'. specialize (IH (acc * 10 + d) F').
  set (p := 10 ^ N.of_nat (List.length ds)) in *. nia.
Qed.

Lemma value_inj : forall a b x y, List.length a = List.length b -> Forall (fun d => d < 10) a -> Forall (fun d => d < 10) b ->
  NumFacts.value 10 a x = NumFacts.value 10 b y -> x = y /\ a = b.
Proof.
  induction a as [|c a IH]; intros [|d b] x y L A B H; try discriminate L; cbn [NumFacts.value] in H; [auto|].
  inversion A; inversion B; subst. injection L as L. destruct (IH b _ _ L ltac:(assumption) ltac:(assumption) H) as [E ->].
  assert (x = y) by lia. assert (c = d) by lia. subst. auto.
Qed.

Lemma digits_lt : forall s, all_digits s = true -> Forall (fun d => d < 10) (map (fun c => c - 48) s).
Proof.
  intros s H. unfold all_digits in H. rewrite forallb_forall in H. apply Forall_forall. intros d I. apply in_map_iff in I as (c & <- & I).
  specialize (H c I). cls; lia.
Qed.

Lemma dec_inj : forall a b c d, all_digits (c :: a) = true -> all_digits (d :: b) = true -> c <> 48 -> d <> 48 ->
  dec_value (c :: a) = dec_value (d :: b) -> c :: a = d :: b.
Proof.
  assert (B : forall a c, all_digits (c :: a) = true -> c <> 48 ->
    10 ^ N.of_nat (List.length a) <= dec_value (c :: a) < 10 ^ N.of_nat (S (List.length a))).
  { intros a c H N. assert (C : is_digit c = true) by (unfold all_digits in H; cbn [forallb] in H; apply andb_true_iff in H; tauto). split.
    - unfold dec_value. cbn [map NumFacts.value]. pose proof (value_acc_bound 10 (map (fun c => c - 48) a) (0 * 10 + (c - 48)) ltac:(lia)) as V. rewrite map_length in V.
      cls. set (p := 10 ^ N.of_nat (List.length a)) in *. nia.
    - pose proof (value_bound _ 0 (digits_lt _ H)) as V. rewrite map_length in V. cbn [List.length] in V. unfold dec_value. lia. }
  intros a b c d Ha Hb Nc Nd E.
  assert (L : List.length a = List.length b).
  { pose proof (B a c Ha Nc) as [A1 A2]. pose proof (B b d Hb Nd) as [B1 B2]. rewrite E in A1, A2.
    destruct (Nat.lt_trichotomy (List.length a) (List.length b)) as [G|[G|G]]; [|exact G|].
    - exfalso. assert (10 ^ N.of_nat (S (List.length a)) <= 10 ^ N.of_nat (List.length b)) by (apply N.pow_le_mono_r; lia). lia.
    - exfalso. assert (10 ^ N.of_nat (S (List.length b)) <= 10 ^ N.of_nat (List.length a)) by (apply N.pow_le_mono_r; lia). lia. }
  unfold dec_value in E. apply value_inj in E as [_ E]; [|cbn [map List.length]; now rewrite !map_length, L|now apply digits_lt|now apply digits_lt].
  assert (M : forall x y, all_digits x = true -> all_digits y = true -> map (fun c => c - 48) x = map (fun c => c - 48) y -> x = y).
  { induction x as [|p x IH]; intros [|q y] X Y K; try discriminate K; [reflexivity|]. unfold all_digits in X, Y. cbn [forallb] in X, Y.
    apply andb_true_iff in X as [X1 X2]. apply andb_true_iff in Y as [Y1 Y2]. cbn [map] in K. injection K as K1 K2. rewrite (IH y X2 Y2 K2).
    f_equal. cls. lia. }
  now apply M.
Qed.

Lemma digits_all : forall s, Forall a_digit s <-> all_digits s = true.
Proof.
  intros s. unfold all_digits. rewrite forallb_forall, Forall_forall. split; intros H c I; specialize (H c I); unfold a_digit in *; cls; lia.
Qed.

Lemma show_N_plain : forall n, plain_int (show_N n) /\ (n <> 0 -> plain_int (ch "-" :: show_N n)).
Proof.
  intros n. destruct (N.eq_dec n 0) as [->|Hn]; [split; [exact plain_zero|congruence]|].
  destruct (show_N_cons n) as (c & r & E & C & R). rewrite E.
  assert (c <> 48) by (intros ->; destruct (show_N_no_leading_zero n r E); congruence).
  assert (D : nonzero_digit c) by (unfold nonzero_digit; cls; lia). apply digits_all in R.
  split; [|intros _]; now constructor.
Qed.

Lemma plain_shown : forall d ds, nonzero_digit d -> Forall a_digit ds -> show_N (dec_value (d :: ds)) = d :: ds /\ dec_value (d :: ds) <> 0.
Proof.
  intros d ds D F. apply digits_all in F.
  assert (A : all_digits (d :: ds) = true).
  { unfold all_digits. cbn [forallb]. apply andb_true_iff. split; [|exact F]. unfold nonzero_digit in *. cls. lia. }
  assert (Z : dec_value (d :: ds) <> 0).
  { unfold dec_value. cbn [map NumFacts.value]. pose proof (value_ge 10 (map (fun c => c - 48) ds) (0 * 10 + (d - 48)) ltac:(lia)). unfold nonzero_digit in D. lia. }
  split; [|exact Z]. destruct (show_N_cons (dec_value (d :: ds))) as (c & r & E & C & R). rewrite E.
  assert (N : c <> 48) by (intros ->; destruct (show_N_no_leading_zero _ r E); congruence).
  apply dec_inj.
  - unfold all_digits. cbn [forallb]. now rewrite C.
  - exact A.
  - exact N.
  - unfold nonzero_digit in D. lia.
  - rewrite <- E. apply show_N_value.
Qed.

(** ** Texts *)

Lemma plain_kept : forall t z, denotes t z -> plain_int t -> show_Z z = t.
Proof.
  intros t z H P. destruct P as [|d ds D F|d ds D F].
  - inversion H as [s M E1|s M E1|s M E1]; subst; try discriminate; reflexivity.
  - assert (A : all_digits (d :: ds) = true) by (apply digits_all; constructor; [unfold nonzero_digit, a_digit in *; lia|exact F]).
    apply (denotes_plain (d :: ds) (d :: ds)) in H; auto; [|discriminate]. subst z.
    destruct (plain_shown d ds D F) as [E N]. unfold show_Z. destruct (dec_value (d :: ds)); [congruence|]. exact E.
  - assert (A : all_digits (d :: ds) = true) by (apply digits_all; constructor; [unfold nonzero_digit, a_digit in *; lia|exact F]).
    apply denotes_minus in H; auto; [|discriminate]. subst z.
    destruct (plain_shown d ds D F) as [E N]. unfold show_Z. destruct (dec_value (d :: ds)); [congruence|]. cbn [Z.of_N Z.opp]. now rewrite E.
Qed.

Lemma shown_plain : forall z, plain_int (show_Z z).
Proof.
  intros [|p|p]; cbn [show_Z]; [exact plain_zero|apply show_N_plain|]. apply (show_N_plain (Npos p)). discriminate.
Qed.

(** Parsing and printing keeps exactly these texts. *)
Theorem text_kept_iff : forall float_value float_show t,
  value_show float_show (value_parse float_value t) = t <-> kept float_value float_show t.
Proof.
  intros fv fs t. unfold kept. destruct (value_parse fv t) as [s|[n|z|b]|b] eqn:E; cbn [value_show number_show].
  - pose proof E as E'. apply value_string in E as (-> & _ & _ & e & E). split; [intros _|auto]. split.
    + intros z H. right. destruct (Z.lt_ge_cases z (- 2 ^ 63)) as [L|L]; [auto|]. right. destruct (Z.lt_ge_cases z (2 ^ 64)) as [G|G]; [|exact G]. exfalso.
      assert (X : exists n, number_parse fv t = Ok n); [|destruct X as [n X]; congruence].
      destruct t as [|c t']; [inversion H as [s M Es|s M Es|s M Es]; apply plus_digits in M; tauto|].
      destruct (N.eq_dec c (ch "-")) as [->|C].
      * exists (SignedInt z). apply number_signed. split; [exact H|]. split; [unfold I64_MIN_ABS; lia|eauto].
      * assert (0 <= z)%Z.
        { inversion H as [s M Es|s M Es|s M Es]; subst; try (exfalso; apply C; reflexivity); apply plus_digits in M as [M1 M2]; rewrite (horner_dec _ M2); lia. }
        exists (UnsignedInt (Z.to_N z)). apply number_unsigned. rewrite Z2N.id by lia. split; [exact H|]. split; [unfold U64_MAX; lia|congruence].
    + intros F N. assert (X : number_parse fv t = Ok (Float (fv t))) by (apply number_float; auto). congruence.
  - apply value_number, number_unsigned in E as (E & L & _). replace (show_N n) with (show_Z (Z.of_N n)) by now destruct n. split.
    + intros <-. split; [intros z _; left; apply shown_plain|]. intros _ N. apply denotes_int in E. contradiction.
    + intros [H _]. destruct (H _ E) as [P|[P|P]]; [now apply plain_kept|lia|unfold U64_MAX in L; lia].
  - apply value_number, number_signed in E as (E & L & u & Hu). split.
    + intros <-. split; [intros y _; left; apply shown_plain|]. intros _ N. apply denotes_int in E. contradiction.
    + intros [H _]. destruct (H _ E) as [P|[P|P]]; [now apply plain_kept|unfold I64_MIN_ABS in L; lia|]. exfalso.
      subst t. inversion E as [s M Es|s M Es|s M Es]; subst; apply plus_digits in M as [M1 M2]; [discriminate M2|]. rewrite (horner_dec _ M2) in P. lia.
  - apply value_number, number_float in E as (F & N & ->). split; [|tauto]. intros H. split; [|auto]. intros z D. apply denotes_int in D. contradiction.
  - apply value_boolean in E. split; [intros _|intros _; subst t; now destruct b]. split.
    + intros z D. apply denotes_int in D. apply int_re in D. subst t. destruct b; destruct D; discriminate.
    + intros F. apply float_re in F. subst t. destruct b; discriminate.
Qed.
Print Assumptions text_kept_iff.

Example text_kept_case : forall fv fs,
  kept fv fs $"-12" /\ kept fv fs $"1.2.3" /\ kept fv fs $"18446744073709551616" /\ kept fv fs $"true" /\
  ~ kept fv fs $"007" /\ ~ kept fv fs $"+1" /\ ~ kept fv fs $"-0" /\ (fs (fv $"1.10") = $"1.1" -> ~ kept fv fs $"1.10").
Proof.
  intros fv fs. refine (conj _ (conj _ (conj _ (conj _ (conj _ (conj _ (conj _ _))))))).
  1-4: apply text_kept_iff; vm_compute; reflexivity.
  1-3: intros X; apply text_kept_iff in X; vm_compute in X; discriminate X.
  intros E [_ K]. rewrite K in E; [discriminate E|apply float_re; reflexivity|]. rewrite int_re. intros [_ X]. discriminate X.
Qed.

(** ** Lists *)

(** An item of a list: a name alone, or a name and a text. *)
Definition item (e : str * option str) : str := match snd e with Some t => fst e ++ $"=" ++ t | None => fst e end.
(** Names without [=] and line breaks. *)
Definition is_name (k : str) : Prop := k <> [] /\ ~ In (ch "=") k /\ ~ In 10 k.
(** The items which are kept. *)
Definition item_kept (fv : str -> N) (fs : N -> str) (e : str * option str) : Prop :=
  match snd e with Some t => t <> [] /\ kept fv fs t | None => True end.

Definition entry_of (fv : str -> N) (e : str * option str) : str * option ValuesModel.value :=
  (fst e, match snd e with Some (c :: t) => Some (value_parse fv (c :: t)) | _ => None end).

Lemma items_read : forall fv es, Forall (fun e => is_name (fst e)) es -> NoDup (map fst es) ->
  into_map fv (LList (map item es)) = Ok (map (entry_of fv) es).
Proof.
  intros fv es F N. apply list_to_map_order; [|rewrite map_map; exact N].
  clear N. induction F as [|[k o] es (K1 & K2 & K3) F IH]; cbn [map]; [constructor|]. constructor; [|exact IH]. cbn [fst] in *. unfold item_says, entry_of, item. cbn [fst snd].
  split; [exact K1|]. split; [exact K3|]. split; [exact K2|]. destruct o as [[|c t]|]; auto.
  right. exists (c :: t). split; [discriminate|]. auto.
Qed.

Lemma items_nodup : forall es, Forall (fun e => is_name (fst e)) es -> NoDup (map fst es) -> NoDup (map item es).
Proof.
  intros es F N. apply (NoDup_map_inv (fun s => match split_once (ch "=") s with Some (k, _) => k | None => s end)). rewrite map_map.
  rewrite (map_ext_in _ fst); [exact N|]. intros [k o] I. rewrite Forall_forall in F. destruct (F _ I) as (_ & K & _). unfold item. cbn [fst snd] in *.
  destruct o as [t|]; [change (k ++ $"=" ++ t) with (k ++ ch "=" :: t); now rewrite split_once_app|]. apply split_once_none in K. now rewrite K.
Qed.

Lemma entry_text_item : forall fv fs e, item_kept fv fs e <-> entry_text fs (entry_of fv e) = item e.
Proof.
  intros fv fs [k [[|c t]|]]; unfold item_kept, entry_text, entry_of, item; cbn [fst snd].
  - split; [tauto|]. intros H. change (k = k ++ [ch "="]) in H. apply (f_equal (@List.length _)) in H. rewrite app_length in H. cbn [List.length] in H. lia.
  - rewrite <- text_kept_iff. split; [intros [_ ->]; reflexivity|]. intros H. apply app_inv_head in H. injection H as H. split; [discriminate|exact H].
  - tauto.
Qed.

(** A list of items becomes a map with one entry per item, in order. Writing it as a list again gives the same list exactly if every
    text is kept; an empty text is not. *)
Theorem list_items_kept_partial : forall fv fs es, Forall (fun e => is_name (fst e)) es -> NoDup (map fst es) ->
  exists m, into_map fv (LList (map item es)) = Ok m /\ map fst m = map fst es /\
    (into_list fs (LMap m) = map item es <-> Forall (item_kept fv fs) es).
Proof.
  intros fv fs es F N. exists (map (entry_of fv) es). split; [now apply items_read|]. split; [rewrite map_map; reflexivity|].
  cbn [into_list]. rewrite map_map.
  assert (N' : NoDup (map (fun e => entry_text fs (entry_of fv e)) es)).
  { set (g := fun e : str * option str => (fst e, option_map (value_show fs) (snd (entry_of fv e)))).
    rewrite (map_ext _ (fun e => item (g e))); [|intros [k [[|c t]|]]; reflexivity]. rewrite <- map_map. apply items_nodup.
    - apply Forall_map. exact F.
    - rewrite map_map. exact N. }
  rewrite (iset_of_nodup str_eqb str_eqb_eq _ N'). clear F N N'. induction es as [|e es IH]; cbn [map]; [split; auto|]. split.
  - intros H. injection H as H1 H2. constructor; [now apply entry_text_item|tauto].
  - intros H. inversion H as [|? ? A B]; subst. apply entry_text_item in A. rewrite A. f_equal. tauto.
Qed.
Print Assumptions list_items_kept_partial.

(** So a list need not come back. *)
Theorem list_items_kept_refuted : forall fv fs,
  (exists l m, into_map fv (LList l) = Ok m /\ l = [$"A=007"] /\ into_list fs (LMap m) = [$"A=7"]) /\
  (exists l m, into_map fv (LList l) = Ok m /\ l = [$"A="] /\ into_list fs (LMap m) = [$"A"]).
Proof.
  intros fv fs. split.
  - exists [$"A=007"], [($"A", Some (VNumber (UnsignedInt 7)))]. auto.
  - exists [$"A="], [($"A", None)]. auto.
Qed.
Print Assumptions list_items_kept_refuted.

Example list_items_kept_case : forall fv fs,
  Forall (item_kept fv fs) [($"A", Some $"1"); ($"B", None); ($"C", Some $"x=y")] /\
  map item [($"A", Some $"1"); ($"B", None); ($"C", Some $"x=y")] = [$"A=1"; $"B"; $"C=x=y"] /\ ~ item_kept fv fs ($"A", Some $"01").
Proof.
  intros fv fs. split; [|split; [reflexivity|intros [_ X]; apply text_kept_iff in X; discriminate X]].
  repeat apply Forall_cons; unfold item_kept; cbn [snd]; auto; split; try discriminate; apply text_kept_iff; reflexivity.
Qed.

(** ** Additional contexts *)

(** The context named by a text: a URL if it is one, otherwise a path; without a text the current directory. *)
Definition names_context (w : externals) (o : option str) (c : context) : Prop :=
  match o with
  | None | Some [] => c = CtxPath $"."
  | Some t => match w_url w t with Some u => c = CtxUrl u | None => c = CtxPath t end
  end.

Lemma contexts_read : forall w es, Forall (fun e => is_name (fst e)) es -> NoDup (map fst es) ->
  de (additional_contexts_c w) (VSeq (map (fun e => VStr (item e)) es)) = Ok (map (fun e => additional_context w (entry_of (w_float w) e)) es).
Proof.
  intros w es F N. cbn [de additional_contexts_c list_or_map_c sset iset_c].
  replace (collect (de string_c) (map (fun e => VStr (item e)) es)) with (Ok (map item es) : result de_error (list str))
    by (clear; induction es as [|e es IH]; [reflexivity|]; cbn [map collect]; rewrite <- IH; reflexivity).
  cbn [map_ok bind]. rewrite (iset_of_nodup str_eqb str_eqb_eq _ (items_nodup es F N)), (items_read _ es F N). cbn [map_err bind]. now rewrite map_map.
Qed.

(** Every item with a kept text names the context of this text. *)
Theorem contexts_kept_partial : forall w es, Forall (fun e => is_name (fst e)) es -> NoDup (map fst es) ->
  exists cs, de (additional_contexts_c w) (VSeq (map (fun e => VStr (item e)) es)) = Ok cs /\
    Forall2 (fun e c => fst c = fst e /\
      (match snd e with Some t => t = [] \/ kept (w_float w) (w_float_show w) t | None => True end -> names_context w (snd e) (snd c))) es cs.
Proof.
  intros w es F N. exists (map (fun e => additional_context w (entry_of (w_float w) e)) es). split; [now apply contexts_read|].
  clear F N. induction es as [|[k o] es IH]; cbn [map]; [constructor|]. constructor; [|exact IH]. unfold additional_context, entry_of. cbn [fst snd]. split; [reflexivity|].
  destruct o as [[|c t]|]; cbn [names_context]; try reflexivity. intros [X|X]; [discriminate|]. apply text_kept_iff in X. rewrite X. unfold context_parse.
  destruct (w_url w (c :: t)); reflexivity.
Qed.
Print Assumptions contexts_kept_partial.

(** Other texts change: the directory [007] becomes the directory [7], and [1.10] becomes [1.1] (as Rust prints this float). *)
Theorem contexts_kept_refuted : forall w,
  (w_url w $"7" = None -> de (additional_contexts_c w) (VSeq [VStr $"app=007"]) = Ok [($"app", CtxPath $"7")]) /\
  (w_url w $"1.1" = None -> w_float_show w (w_float w $"1.10") = $"1.1" ->
   de (additional_contexts_c w) (VSeq [VStr $"app=1.10"]) = Ok [($"app", CtxPath $"1.1")]).
Proof.
  intros w. split.
  - intros U. change (VSeq [VStr $"app=007"]) with (VSeq (map (fun e => VStr (item e)) [($"app", Some $"007")])).
    rewrite contexts_read; [|repeat constructor; try discriminate; intros X; vm_compute in X; intuition discriminate|repeat constructor; intros []].
    change (Ok [($"app", context_parse w $"7")] = (Ok [($"app", CtxPath $"7")] : result de_error _)). unfold context_parse. now rewrite U.
  - intros U E. change (VSeq [VStr $"app=1.10"]) with (VSeq (map (fun e => VStr (item e)) [($"app", Some $"1.10")])).
    rewrite contexts_read; [|repeat constructor; try discriminate; intros X; vm_compute in X; intuition discriminate|repeat constructor; intros []].
    change (Ok [($"app", context_parse w (w_float_show w (w_float w $"1.10")))] = (Ok [($"app", CtxPath $"1.1")] : result de_error _)).
    rewrite E. unfold context_parse. now rewrite U.
Qed.
Print Assumptions contexts_kept_refuted.

Example contexts_kept_case :
  de (additional_contexts_c w0) (VSeq [VStr $"a=../lib"; VStr $"b"; VStr $"c="; VStr $"d=010"]) =
  Ok [($"a", CtxPath $"../lib"); ($"b", CtxPath $"."); ($"c", CtxPath $"."); ($"d", CtxPath $"10")].
Proof. vm_compute. reflexivity. Qed.
