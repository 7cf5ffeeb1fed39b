(** Proofs about list-or-map syntax and extra hosts. *)

From Coq Require Import String Ascii List NArith ZArith Bool Lia ZifyBool ZifyN ZifyNat.
Import ListNotations.
From Verif Require Import Base BaseFacts Num NumFacts Regex RegexFacts Serde Coll CollFacts KeysModel KeysSpec KeysProofs
  IpModel IpProofs ValuesModel ValuesSpec ValuesProofs ValuesNumProofs.
Open Scope N_scope.

Lemma one_delim : forall c s, split_once_p (fun x => existsb (N.eqb x) [c]) s = split_once c s.
Proof.
  intros c s. unfold split_once.
  assert (G : forall p q, (forall x, p x = q x) -> split_once_p p s = split_once_p q s).
  { clear. intros p q H. induction s as [|x s IH]; [reflexivity|]. cbn [split_once_p]. rewrite H, IH. reflexivity. }
  apply G. intros x. cbn [existsb]. rewrite orb_false_r. apply N.eqb_sym.
Qed.

Lemma map_key_valid : forall k, k <> [] -> ~ In 10 k -> map_key_new k = Ok k.
Proof.
  intros k H1 H2. unfold map_key_new. destruct k as [|c k]; [congruence|]. apply contains_not_In in H2. rewrite H2. reflexivity.
Qed.

Lemma map_key_iff : forall k j, map_key_new k = Ok j <-> j = k /\ k <> [] /\ ~ In 10 k.
Proof.
  intros k j. unfold map_key_new. destruct k as [|c k]; [split; [discriminate|intros [_ [H _]]; congruence]|].
  destruct (contains 10 (c :: k)) eqn:E.
  - apply contains_In in E. split; [discriminate|tauto].
  - apply contains_not_In in E. split; [intros H; injection H as <-|intros [-> _]; reflexivity].
    split; [reflexivity|]. split; [discriminate|exact E].
Qed.

Section Floats.
  Variable float_value : str -> N.
  Notation number_parse := (number_parse float_value).
  Notation value_parse := (value_parse float_value).
  Notation item_entry := (item_entry float_value).

  Definition item_value (t : str) : option value := match t with [] => None | _ => Some (value_parse t) end.

  (** An item is a key alone, or a key, a delimiter and a value. *)
  Lemma item_entry_ok : forall delims item k v, item_entry delims item = Ok (k, v) <->
    k <> [] /\ ~ In 10 k /\ (forall c, In c k -> ~ In c delims) /\
    (item = k /\ v = None \/ exists d t, In d delims /\ item = k ++ d :: t /\ v = item_value t).
  Proof.
    assert (P : forall delims c, existsb (N.eqb c) delims = true <-> In c delims).
    { intros delims c. rewrite existsb_exists. split.
      - intros [x [H1 H2]]. apply N.eqb_eq in H2. subst x. exact H1.
      - intros H. exists c. split; [exact H|apply N.eqb_refl]. }
    assert (Q : forall delims k, forallb (fun x => negb (existsb (N.eqb x) delims)) k = true <-> forall c, In c k -> ~ In c delims).
    { intros delims k. rewrite forallb_forall. split; intros H c Hc; specialize (H c Hc).
      - intros G. apply P in G. rewrite G in H. discriminate.
      - destruct (existsb (N.eqb c) delims) eqn:E; [|reflexivity]. apply P in E. contradiction. }
    intros delims item k v. unfold ValuesModel.item_entry.
    destruct (split_once_p (fun c => existsb (N.eqb c) delims) item) as [[a b]|] eqn:E.
    - apply split_once_p_some in E. destruct E as [d [-> [Hd Ha']]]. pose proof (proj1 (Q delims a) Ha') as Ha. apply P in Hd.
      destruct (map_key_new a) as [a'|e] eqn:Ek; cbn [bind].
      + apply map_key_iff in Ek. destruct Ek as [-> [H1 H2]]. split.
        * intros H. injection H as <- <-. split; [exact H1|]. split; [exact H2|]. split; [exact Ha|]. right.
          exists d, b. split; [exact Hd|]. split; [reflexivity|]. destruct b; reflexivity.
        * intros [_ [_ [Hk [[H _]|[d' [t [Hd' [H Hv]]]]]]]].
          -- exfalso. apply (Hk d); [|exact Hd]. rewrite <- H. apply in_or_app. right. left. reflexivity.
          -- destruct (first_bad_unique (fun x => negb (existsb (N.eqb x) delims)) a d b k d' t H) as [-> [-> ->]].
             ++ exact (proj2 (Q delims a) Ha).
             ++ exact (proj2 (Q delims k) Hk).
             ++ apply P in Hd. rewrite Hd. reflexivity.
             ++ apply P in Hd'. rewrite Hd'. reflexivity.
             ++ subst v. destruct t; reflexivity.
      + split; [discriminate|]. intros [H1 [H2 [Hk [[H _]|[d' [t [Hd' [H Hv]]]]]]]].
        * exfalso. apply (Hk d); [|exact Hd]. rewrite <- H. apply in_or_app. right. left. reflexivity.
        * destruct (first_bad_unique (fun x => negb (existsb (N.eqb x) delims)) a d b k d' t H) as [-> [-> ->]].
          -- exact (proj2 (Q delims a) Ha).
          -- exact (proj2 (Q delims k) Hk).
          -- apply P in Hd. rewrite Hd. reflexivity.
          -- apply P in Hd'. rewrite Hd'. reflexivity.
          -- rewrite (map_key_valid k H1 H2) in Ek. discriminate.
    - apply split_once_p_none in E.
      assert (A : forall d t, In d delims -> item <> k ++ d :: t).
      { intros d t Hd ->. pose proof (proj1 (Q delims (k ++ d :: t)) E) as G. apply (G d); [|exact Hd].
        apply in_or_app. right. left. reflexivity. }
      destruct (map_key_new item) as [j|e] eqn:Ek; cbn [bind].
      + apply map_key_iff in Ek. destruct Ek as [-> [H1 H2]]. split.
        * intros H. injection H as <- <-. split; [exact H1|]. split; [exact H2|]. split; [exact (proj1 (Q delims item) E)|]. auto.
        * intros [_ [_ [_ [[-> ->]|[d [t [Hd [H _]]]]]]]]; [reflexivity|]. exfalso. exact (A d t Hd H).
      + split; [discriminate|]. intros [H1 [H2 [_ [[-> ->]|[d [t [Hd [H _]]]]]]]].
        * rewrite (map_key_valid k H1 H2) in Ek. discriminate.
        * exfalso. exact (A d t Hd H).
  Qed.

  (** ** Addresses are not numbers *)

  Lemma colon_not_number : forall s, In 58 s -> value_parse s = VString s.
  Proof.
    intros s H. apply value_string. split; [reflexivity|].
    split; [intros ->; cbn in H; lia|]. split; [intros ->; cbn in H; lia|]. apply (proj2 (number_error_iff float_value _)). left.
    split; intros G; revert H; apply (matches_not_In _ _ _ G); vm_compute; reflexivity.
  Qed.

  Lemma bracket_not_number : forall s, In 91 s -> value_parse s = VString s.
  Proof.
    intros s H. apply value_string. split; [reflexivity|].
    split; [intros ->; cbn in H; lia|]. split; [intros ->; cbn in H; lia|]. apply (proj2 (number_error_iff float_value _)). left.
    split; intros G; revert H; apply (matches_not_In _ _ _ G); vm_compute; reflexivity.
  Qed.

  Lemma two_dots_not_number : forall p q r, p <> [] -> all_digits p = true -> all_digits q = true ->
    value_parse (p ++ ch "." :: q ++ ch "." :: r) = VString (p ++ ch "." :: q ++ ch "." :: r).
  Proof.
    intros p q r H0 H1 H2. set (s := p ++ ch "." :: q ++ ch "." :: r).
    assert (Hd : In 46 s) by (apply in_or_app; right; left; reflexivity).
    apply value_string. split; [reflexivity|].
    split; [intros E; rewrite E in Hd; cbn in Hd; lia|]. split; [intros E; rewrite E in Hd; cbn in Hd; lia|].
    apply (proj2 (number_error_iff float_value _)). left. split.
    - rewrite float_re. unfold is_float_text, s. destruct p as [|c p]; [congruence|].
      assert (Hc : is_digit c = true) by (unfold all_digits in H1; cbn [forallb] in H1; apply andb_true_iff in H1; tauto).
      assert (E : strip_sign ((c :: p) ++ ch "." :: q ++ ch "." :: r) = (c :: p) ++ ch "." :: q ++ ch "." :: r).
      { cbn [app strip_sign]. apply digit_not_sign in Hc. unfold is_sign in Hc. rewrite Hc. reflexivity. }
      rewrite E. unfold is_decimal.
      rewrite span_intro; [|exact H1|right; exists (ch "."), (q ++ ch "." :: r); split; reflexivity].
      rewrite N.eqb_refl. rewrite span_intro; [|exact H2|right; exists (ch "."), r; split; reflexivity].
      assert (F : is_exponent (ch "." :: r) = false) by reflexivity. rewrite F, andb_false_r. cbn [orb].
      assert (G : to_lower c = c) by (unfold to_lower; cls; destruct ((65 <=? c) && (c <=? 90)) eqn:X; lia).
      cbn [app map existsb]. rewrite G.
      assert (N1 : (c =? ch "i") = false) by (cls; lia). assert (N2 : (c =? ch "n") = false) by (cls; lia).
      change $"inf" with (ch "i" :: $"nf"). change $"infinity" with (ch "i" :: $"nfinity"). change $"nan" with (ch "n" :: $"an").
      cbn [str_eqb]. rewrite N1, N2. discriminate.
    - intros G. revert Hd. apply (matches_not_In _ _ _ G). vm_compute. reflexivity.
  Qed.

  Lemma read_number_digits : forall m allow max s n rest, read_number 10 m allow max s = Some (n, rest) ->
    exists p, s = p ++ rest /\ p <> [] /\ all_digits p = true.
  Proof.
    intros m allow max s n rest H. apply read_number_app in H. destruct H as [_ [p [-> [H1 [H2 _]]]]]. exists p.
    split; [reflexivity|]. split; [exact H1|]. apply forallb_forall. intros c Hc.
    rewrite Forall_forall in H2. specialize (H2 c Hc). destruct (is_digit c) eqn:E; [reflexivity|].
    apply to_digit_10_none in E. contradiction.
  Qed.

  Lemma read_ipv4_shape : forall s x rest, read_ipv4 s = Some (x, rest) ->
    exists p q r, s = p ++ ch "." :: q ++ ch "." :: r /\ p <> [] /\ all_digits p = true /\ all_digits q = true.
  Proof.
    intros s x rest. unfold read_ipv4, read_separator, read_given_char, read_octet.
    destruct (read_number 10 3 false 255 s) as [[a s1]|] eqn:E1; [|discriminate].
    destruct s1 as [|c1 s1]; [discriminate|]. destruct (N.eqb_spec c1 (ch ".")) as [->|]; [|discriminate].
    destruct (read_number 10 3 false 255 s1) as [[b s2]|] eqn:E2; [|discriminate].
    destruct s2 as [|c2 s2]; [discriminate|]. destruct (N.eqb_spec c2 (ch ".")) as [->|]; [|discriminate].
    intros _. apply read_number_digits in E1. destruct E1 as [p [-> [P1 P2]]].
    apply read_number_digits in E2. destruct E2 as [q [-> [Q1 Q2]]]. exists p, q, s2. auto.
  Qed.

  Lemma read_groups_no_colon : forall limit s, ~ In 58 s -> read_groups limit false s = ([], false, s).
  Proof.
    intros limit s H. assert (E : forall A (f : str -> option (A * str)), read_separator (ch ":") false f s = None).
    { intros A f. unfold read_separator, read_given_char. destruct s as [|c s]; [reflexivity|].
      destruct (N.eqb_spec c (ch ":")) as [->|]; [|reflexivity]. exfalso. apply H. left. reflexivity. }
    destruct limit as [|[|limit]]; cbn [read_groups]; rewrite ?E; reflexivity.
  Qed.

  Lemma read_ipv6_colon : forall s x, read_ipv6 s = Some x -> In 58 s.
  Proof.
    intros s x H. destruct (in_dec N.eq_dec 58 s) as [Hi|Hn]; [exact Hi|exfalso]. revert H. unfold read_ipv6.
    assert (A : exists head v4 r, read_groups 8 true s = (head, v4, r) /\ (List.length head <= 2)%nat /\ ~ In 58 r).
    { cbn [read_groups]. unfold read_separator. destruct (read_ipv4 s) as [[[[[a b] c] d] r]|] eqn:E4.
      - eexists. eexists. eexists. split; [reflexivity|]. split; [cbn [List.length]; lia|].
        intros Hr. apply Hn. revert E4. unfold read_ipv4, read_separator, read_given_char, read_octet.
        destruct (read_number 10 3 false 255 s) as [[a' s1]|] eqn:E1; [|discriminate].
        destruct s1 as [|c1 s1]; [discriminate|]. destruct (c1 =? ch "."); [|discriminate].
        destruct (read_number 10 3 false 255 s1) as [[b' s2]|] eqn:E2; [|discriminate].
        destruct s2 as [|c2 s2]; [discriminate|]. destruct (c2 =? ch "."); [|discriminate].
        destruct (read_number 10 3 false 255 s2) as [[c' s3]|] eqn:E3; [|discriminate].
        destruct s3 as [|c3 s3]; [discriminate|]. destruct (c3 =? ch "."); [|discriminate].
        destruct (read_number 10 3 false 255 s3) as [[d' s4]|] eqn:E4; [|discriminate]. intros H. injection H as _ _ _ _ <-.
        apply read_number_digits in E1. destruct E1 as [p1 [-> _]]. apply read_number_digits in E2. destruct E2 as [p2 [-> _]].
        apply read_number_digits in E3. destruct E3 as [p3 [-> _]]. apply read_number_digits in E4. destruct E4 as [p4 [-> _]].
        repeat (apply in_or_app; right; try right). exact Hr.
      - destruct (read_group s) as [[g r]|] eqn:Eg.
        + unfold read_group in Eg. apply read_number_app in Eg. destruct Eg as [_ [p [E [_ _]]]].
          assert (Hr : ~ In 58 r) by (intros Hr; apply Hn; rewrite E; apply in_or_app; auto).
          pose proof (read_groups_no_colon 7 r Hr) as G. cbn [read_groups] in G. unfold read_separator in G. rewrite G.
          eexists. eexists. eexists. split; [reflexivity|]. split; [cbn [List.length]; lia|exact Hr].
        + eexists. eexists. eexists. split; [reflexivity|]. split; [cbn [List.length]; lia|exact Hn]. }
    destruct A as [head [v4 [r [-> [A1 A2]]]]].
    destruct (Nat.eqb_spec (List.length head) 8) as [A3|A3]; [lia|]. destruct v4; [discriminate|].
    unfold read_given_char. destruct r as [|c r]; [discriminate|]. destruct (N.eqb_spec c (ch ":")) as [->|]; [|discriminate].
    exfalso. apply A2. left. reflexivity.
  Qed.

  Lemma ip_text_not_number : forall t ip, ip_parse t = Some ip -> value_parse t = VString t.
  Proof.
    intros t ip H. unfold ip_parse in H. destruct (read_ipv4 t) as [[x r]|] eqn:E4.
    - apply read_ipv4_shape in E4. destruct E4 as [p [q [r' [-> [H1 [H2 H3]]]]]]. apply two_dots_not_number; assumption.
    - destruct (read_ipv6 t) as [x|] eqn:E6; [|discriminate]. apply colon_not_number. eapply read_ipv6_colon. exact E6.
  Qed.

  Lemma ip_text_nonempty : forall ip, ip_parse [] <> Some ip.
  Proof. intros ip. vm_compute. discriminate. Qed.

  Lemma ip_text_first : forall c t ip, ip_parse (c :: t) = Some ip -> c <> 91.
  Proof.
    intros c t ip H ->. revert H. unfold ip_parse. 
    assert (E4 : read_ipv4 (91 :: t) = None) by reflexivity. rewrite E4.
    assert (E6 : read_ipv6 (91 :: t) = None) by reflexivity. rewrite E6. discriminate.
  Qed.

  Lemma strip_brackets_plain : forall t ip, ip_parse t = Some ip -> strip_brackets t = t.
  Proof.
    intros t ip H. unfold strip_brackets. destruct (strip_prefix $"[" t) as [r|] eqn:E; [|reflexivity].
    apply strip_prefix_some in E. subst t. apply ip_text_first in H. contradiction.
  Qed.

  Lemma strip_brackets_both : forall t, strip_brackets (ch "[" :: t ++ [ch "]"]) = t.
  Proof.
    intros t. unfold strip_brackets.
    assert (E : strip_prefix $"[" (ch "[" :: t ++ [ch "]"]) = Some (t ++ [ch "]"])) by (apply strip_prefix_some; reflexivity).
    rewrite E. change [ch "]"] with $"]". rewrite strip_suffix_app. reflexivity.
  Qed.

  Lemma hostname_chars : forall h c, matches HOSTNAME_RE h -> re_char HOSTNAME_RE c = false -> ~ In c h.
  Proof. intros h c H E. exact (matches_not_In _ _ _ H E). Qed.

  Lemma hostname_not_empty : ~ matches HOSTNAME_RE [].
  Proof.
    intros H. apply hostname_labels in H. destruct H as [ls [H1 [H2 H3]]]. destruct ls as [|l ls]; [congruence|].
    inversion H3 as [|x y Hl Hls]; subst. unfold LABEL_RE in Hl. apply matches_cat in Hl. destruct Hl as [a [b [-> [Ha _]]]].
    apply matches_cls in Ha. destruct Ha as [c [-> _]]. destruct ls; discriminate.
  Qed.

  (** The text after the delimiter: the address with or without brackets. *)
  Definition bracketed (b : bool) (t : str) : str := if b then ch "[" :: t ++ [ch "]"] else t.

  Lemma extra_host_entry : forall host d b t ip,
    matches HOSTNAME_RE host -> ip_parse t = Some ip -> In d [ch "="; ch ":"] ->
    item_entry [ch "="; ch ":"] (host ++ d :: bracketed b t) = Ok (host, Some (VString (bracketed b t))) /\
    extra_host (host, Some (VString (bracketed b t))) = Ok (host, ip).
  Proof.
    intros host d b t ip H1 H2 Hd. split.
    - apply item_entry_ok. split; [intros ->; exact (hostname_not_empty H1)|].
      split; [apply hostname_chars; [exact H1|reflexivity]|].
      split; [intros c Hc [<-|[<-|[]]]; revert Hc; apply hostname_chars; try exact H1; reflexivity|].
      right. exists d, (bracketed b t). split; [exact Hd|]. split; [reflexivity|]. unfold item_value.
      destruct (bracketed b t) as [|x l] eqn:E.
      + exfalso. destruct b; [discriminate|]. cbn [bracketed] in E. subst t. exact (ip_text_nonempty ip H2).
      + rewrite <- E. f_equal. symmetry. destruct b; cbn [bracketed].
        * apply bracket_not_number. left. reflexivity.
        * eapply ip_text_not_number. exact H2.
    - unfold extra_host. cbn [snd fst].
      assert (Hh : hostname_new host = Ok host) by (apply hostname_new_ok; auto). rewrite Hh.
      assert (Hs : strip_brackets (bracketed b t) = t).
      { destruct b; cbn [bracketed]; [apply strip_brackets_both|eapply strip_brackets_plain; exact H2]. }
      rewrite Hs, H2. reflexivity.
  Qed.

  Lemma collect_all : forall {E A B} (f : A -> result E B) (g : A -> B) l,
    (forall x, In x l -> f x = Ok (g x)) -> collect f l = Ok (map g l).
  Proof.
    intros E A B f g l. induction l as [|x l IH]; intros H; cbn [collect map]; [reflexivity|].
    rewrite H by (left; reflexivity). cbn [bind]. rewrite IH by (intros y Hy; apply H; right; exact Hy). reflexivity.
  Qed.
End Floats.

Section Convert.
  Variable float_value : str -> N.
  Variable float_show : N -> str.
  Notation value_parse := (value_parse float_value).
  Notation value_show := (value_show float_show).

  (** The float [b] prints as a float text (not as an integer) which is read back as [b]. *)
  Definition float_ok (b : N) : Prop :=
    matches FLOAT_RE (float_show b) /\ ~ matches INT_RE (float_show b) /\ float_value (float_show b) = b.

  (** Values which are what their text says. *)
  Definition canonical (v : value) : Prop :=
    match v with
    | VBoolean _ => True
    | VNumber (UnsignedInt n) => n <= U64_MAX
    | VNumber (SignedInt z) => (- Z.of_N I64_MIN_ABS <= z < 0)%Z
    | VNumber (Float b) => float_ok b
    | VString s => s <> $"true" /\ s <> $"false" /\ ~ matches FLOAT_RE s /\ ~ matches INT_RE s
    end.

  Lemma denotes_show_N : forall n, denotes (show_N n) (Z.of_N n).
  Proof.
    intros n. apply (denotes_plain (show_N n) (show_N n)); auto using show_N_nonempty, show_N_digits.
    rewrite show_N_value. reflexivity.
  Qed.

  Lemma denotes_show_Z : forall z, denotes (show_Z z) z.
  Proof.
    intros [|p|p]; cbn [show_Z].
    - apply (denotes_show_N 0).
    - apply (denotes_show_N (Npos p)).
    - apply denotes_minus; auto using show_N_nonempty, show_N_digits. rewrite show_N_value. reflexivity.
  Qed.

  Lemma show_N_not_minus : forall n t, show_N n <> ch "-" :: t.
  Proof. intros n t. apply (plain_not_minus _ (show_N n)); auto using show_N_digits. Qed.

  Lemma value_round_trip : forall v, canonical v -> value_parse (value_show v) = v.
  Proof.
    intros [s|[n|z|b]|b] H; cbn [canonical ValuesModel.value_show ValuesModel.number_show] in *.
    - apply value_string. split; [reflexivity|]. split; [tauto|]. split; [tauto|].
      apply (proj2 (number_error_iff float_value s)). left. tauto.
    - apply value_number, number_unsigned. split; [apply denotes_show_N|]. split; [exact H|]. apply show_N_not_minus.
    - apply value_number, number_signed. split; [apply denotes_show_Z|]. split; [lia|]. destruct z; try lia. eexists. reflexivity.
    - apply value_number, number_float. destruct H as [H1 [H2 H3]]. auto.
    - apply value_boolean. destruct b; reflexivity.
  Qed.

  (** The integer an integer text denotes is kept. *)
  Lemma value_keeps_integer : forall s z, denotes s z -> denotes (value_show (value_parse s)) z.
  Proof.
    intros s z H. destruct (value_parse s) as [t|[n|y|b]|b] eqn:E.
    - apply value_string in E. destruct E as [-> _]. exact H.
    - apply value_number, number_unsigned in E. destruct E as [E _].
      assert (z = Z.of_N n).
      { destruct (int_denotes s (denotes_int _ _ H)) as [w Hw]. clear Hw w.
        inversion H as [t Ht X1 X2|t Ht X1 X2|t Ht X1 X2]; subst; apply plus_digits in Ht; destruct Ht as [T1 T2].
        - apply (denotes_plain s s) in E; auto. rewrite E. apply horner_dec. exact T2.
        - apply (denotes_plain _ t) in E; auto. rewrite E. apply horner_dec. exact T2.
        - apply (denotes_minus t) in E; auto. rewrite E. rewrite horner_dec; auto. }
      subst z. apply denotes_show_N.
    - apply value_number, number_signed in E. destruct E as [E _].
      assert (z = y).
      { inversion H as [t Ht X1 X2|t Ht X1 X2|t Ht X1 X2]; subst; apply plus_digits in Ht; destruct Ht as [T1 T2].
        - apply (denotes_plain s s) in E; auto. rewrite E. apply horner_dec. exact T2.
        - apply (denotes_plain _ t) in E; auto. rewrite E. apply horner_dec. exact T2.
        - apply (denotes_minus t) in E; auto. rewrite E. rewrite horner_dec; auto. }
      subst z. apply denotes_show_Z.
    - apply value_number, number_float in E. destruct E as [_ [E _]]. apply denotes_int in H. contradiction.
    - apply value_boolean in E. apply denotes_int in H. exfalso. subst s. destruct b; apply int_re in H; destruct H as [_ H]; discriminate.
  Qed.

  (** ** Map to list and back *)

  Definition entry_ok (p : str * option value) : Prop :=
    let (k, v) := p in
    k <> [] /\ ~ In 10 k /\ ~ In (ch "=") k /\
    match v with Some v => canonical v /\ value_show v <> [] | None => True end.

  Lemma entry_text_item : forall p, entry_ok p ->
    item_entry float_value [ch "="] (entry_text float_show p) = Ok p.
  Proof.
    intros [k [v|]] [H1 [H2 [H3 H4]]]; unfold entry_text; cbn [fst snd]; apply item_entry_ok.
    - split; [exact H1|]. split; [exact H2|]. split; [intros c Hc [<-|[]]; contradiction|]. right.
      exists (ch "="), (value_show v). split; [left; reflexivity|]. split; [reflexivity|].
      destruct H4 as [H4 H5]. unfold item_value. pose proof (value_round_trip v H4) as R.
      destruct (value_show v); [congruence|]. rewrite R. reflexivity.
    - split; [exact H1|]. split; [exact H2|]. split; [intros c Hc [<-|[]]; contradiction|]. auto.
  Qed.

  Lemma entry_text_key : forall p q, entry_ok p -> entry_ok q -> entry_text float_show p = entry_text float_show q -> fst p = fst q.
  Proof.
    intros p q Hp Hq E. apply entry_text_item in Hp. apply entry_text_item in Hq. rewrite E in Hp. congruence.
  Qed.

  Lemma entry_texts_nodup : forall m, NoDup (map fst m) -> Forall entry_ok m -> NoDup (map (entry_text float_show) m).
  Proof.
    intros m H1 H2. induction m as [|p m IH]; cbn [map]; [constructor|]. cbn [map] in H1.
    inversion H1 as [|a b H3 H4]; subst a b. inversion H2 as [|a b H5 H6]; subst a b. constructor; [|auto].
    intros Hi. apply in_map_iff in Hi. destruct Hi as [q [E Hq]]. rewrite Forall_forall in H6.
    apply H3. apply in_map_iff. exists q. split; [|exact Hq]. apply entry_text_key; auto.
  Qed.

  Lemma map_list_map : forall m, NoDup (map fst m) -> Forall entry_ok m ->
    into_list float_show (LMap m) = map (entry_text float_show) m /\
    into_map float_value (LList (into_list float_show (LMap m))) = Ok m.
  Proof.
    intros m H1 H2. unfold into_list, into_map, into_map_split_on.
    rewrite (iset_of_nodup str_eqb str_eqb_eq) by (apply entry_texts_nodup; assumption). split; [reflexivity|].
    assert (A : collect (item_entry float_value [ch "="]) (map (entry_text float_show) m) = Ok m).
    { clear H1. induction H2 as [|p m H3 H4 IH]; cbn [map collect]; [reflexivity|].
      rewrite entry_text_item by exact H3. cbn [bind]. rewrite IH. reflexivity. }
    rewrite A. cbn [map_ok]. rewrite (imap_of_nodup str_eqb str_eqb_eq) by exact H1. reflexivity.
  Qed.

  (** ** List to map *)

  (** What an item says: a key, and a value when text follows the delimiter. *)
  Definition item_says (item k : str) (v : option value) : Prop :=
    k <> [] /\ ~ In 10 k /\ ~ In (ch "=") k /\
    ((item = k \/ item = k ++ $"=") /\ v = None \/
     exists t, t <> [] /\ item = k ++ $"=" ++ t /\ v = Some (value_parse t)).

  Lemma item_says_ok : forall item k v, item_entry float_value [ch "="] item = Ok (k, v) <-> item_says item k v.
  Proof.
    intros item k v. rewrite item_entry_ok. unfold item_says. change ($"=") with [ch "="]. split.
    - intros [H1 [H2 [H3 H4]]]. split; [exact H1|]. split; [exact H2|].
      split; [intros H; apply (H3 _ H); left; reflexivity|].
      destruct H4 as [[-> ->]|[d [t [[<-|[]] [-> ->]]]]]; [auto|].
      destruct t as [|x t]; [left; auto|]. right. exists (x :: t). split; [discriminate|]. auto.
    - intros [H1 [H2 [H3 H4]]]. split; [exact H1|]. split; [exact H2|].
      split; [intros c Hc [<-|[]]; contradiction|].
      destruct H4 as [[[->| ->] ->]|[t [Ht [-> ->]]]]; [auto| |]; right.
      + exists (ch "="), []. split; [left; reflexivity|]. auto.
      + exists (ch "="), t. split; [left; reflexivity|]. split; [reflexivity|]. destruct t; [congruence|reflexivity].
  Qed.

  Lemma into_map_ok : forall l m, into_map float_value (LList l) = Ok m <->
    exists es, Forall2 (fun item e => item_says item (fst e) (snd e)) l es /\ m = imap_of str_eqb es.
  Proof.
    intros l m. unfold into_map, into_map_split_on.
    destruct (collect (item_entry float_value [ch "="]) l) as [es|e] eqn:E; cbn [map_ok].
    - apply collect_ok in E.
      assert (F : Forall2 (fun item e => item_says item (fst e) (snd e)) l es).
      { induction E as [|x [k v] l es H1 H2 IH]; constructor; [apply item_says_ok; exact H1|exact IH]. }
      split; [intros H; injection H as <-; eauto|]. intros [es' [F' ->]]. f_equal. f_equal.
      clear E. revert es' F'. induction F as [|x [k v] l es H1 H2 IH]; intros es' F'; inversion F' as [|a [k' v'] b c H3 H4]; subst; [reflexivity|].
      cbn [fst snd] in *. apply item_says_ok in H1. apply item_says_ok in H3. rewrite H1 in H3. injection H3 as <- <-. f_equal. apply IH. exact H4.
    - split; [discriminate|]. intros [es [F _]].
      assert (X : collect (item_entry float_value [ch "="]) l = Ok es).
      { apply collect_ok. induction F as [|x [k v] l es H1 H2 IH]; constructor.
        - apply item_says_ok. exact H1.
        - apply IH. clear - E H1. cbn [collect] in E. apply item_says_ok in H1. cbn [fst snd] in H1. rewrite H1 in E. cbn [bind] in E.
          destruct (collect (item_entry float_value [ch "="]) l); [discriminate|exact E]. }
      congruence.
  Qed.
End Convert.
