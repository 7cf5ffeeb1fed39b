(** Proofs about validated strings. *)

From Coq Require Import String Ascii List NArith ZArith Bool Lia ZifyBool ZifyN ZifyNat.
Import ListNotations.
From Verif Require Import Base BaseFacts Num NumFacts Regex RegexFacts KeysModel KeysSpec UserModel.
Open Scope N_scope.

Ltac kls := unfold in_clsb, LOWER, UPPER, DIGIT, rng, one; cbn [existsb fst snd]; cls; lia.

Lemma check_chars_ok : forall {E} p (err : char -> E) s, check_chars p err s = Ok tt <-> forallb p s = true.
Proof.
  intros E p err s. induction s as [|c s IH]; cbn [check_chars forallb]; [tauto|].
  destruct (p c); cbn [andb]; [exact IH|]. split; discriminate.
Qed.

Lemma check_chars_err : forall {E} p (err : char -> E) s e,
  check_chars p err s = Err e <-> exists a c r, s = a ++ c :: r /\ forallb p a = true /\ p c = false /\ e = err c.
Proof.
  intros E p err s e. induction s as [|x s IH]; cbn [check_chars].
  - split; [discriminate|]. intros [a [c [r [H _]]]]. destruct a; discriminate.
  - destruct (p x) eqn:Ex.
    + rewrite IH. split; intros [a [c [r [H1 [H2 [H3 H4]]]]]].
      * exists (x :: a), c, r. subst. cbn [app forallb]. rewrite Ex. auto.
      * destruct a as [|y a]; cbn [app] in H1; inv H1; [congruence|].
        cbn [forallb] in H2. apply andb_true_iff in H2 as [_ H2]. exists a, c, r. auto.
    + split.
      * intros H. inv H. exists [], x, s. auto.
      * intros [a [c [r [H1 [H2 [H3 H4]]]]]]. destruct a as [|y a]; cbn [app] in H1; inv H1; [reflexivity|].
        cbn [forallb] in H2. apply andb_true_iff in H2 as [H2 _]. congruence.
Qed.

(** A validator of the shape "first character in one class, the others in another". *)
Definition first_rest (first rest : char -> bool) (s : str) : result key_error str :=
  match s with
  | [] => Err KeyEmpty
  | c :: r => if negb (first c) then Err (KeyStart c)
              else _ <- check_chars rest KeyCharacter r ;; Ok s
  end.

Lemma first_rest_ok : forall first rest s t,
  first_rest first rest s = Ok t <-> t = s /\ exists c r, s = c :: r /\ first c = true /\ forallb rest r = true.
Proof.
  intros first rest s t. unfold first_rest. destruct s as [|c r].
  - split; [discriminate|]. intros [_ [c [r [H _]]]]. discriminate.
  - destruct (first c) eqn:Ec; cbn [negb].
    + destruct (check_chars rest KeyCharacter r) as [[]|e] eqn:Er; cbn [bind].
      * apply check_chars_ok in Er. split; [intros H; inv H; eauto 6|]. intros [-> _]. reflexivity.
      * split; [discriminate|]. intros [_ [c' [r' [H1 [H2 H3]]]]]. inv H1.
        rewrite (proj2 (check_chars_ok rest KeyCharacter r') H3) in Er. discriminate.
    + split; [discriminate|]. intros [_ [c' [r' [H1 [H2 H3]]]]]. congruence.
Qed.

Lemma first_rest_err : forall first rest s e,
  first_rest first rest s = Err e <->
  (s = [] /\ e = KeyEmpty) \/
  (exists c r, s = c :: r /\ first c = false /\ e = KeyStart c) \/
  (exists f a c r, s = f :: a ++ c :: r /\ first f = true /\ forallb rest a = true /\ rest c = false /\ e = KeyCharacter c).
Proof.
  intros first rest s e. unfold first_rest. destruct s as [|x s].
  - split; [intros H; inv H; auto|]. intros [[_ ->]|[[c [r [H _]]]|[f [a [c [r [H _]]]]]]]; congruence.
  - destruct (first x) eqn:Ex; cbn [negb].
    + destruct (check_chars rest KeyCharacter s) as [[]|e'] eqn:Er; cbn [bind].
      * split; [discriminate|]. apply check_chars_ok in Er.
        intros [[H _]|[[c [r [H1 [H2 _]]]]|[f [a [c [r [H1 [H2 [H3 [H4 _]]]]]]]]]]; try congruence.
        inv H1. apply forallb_app_iff in Er as [_ Er]. cbn [forallb] in Er. rewrite H4 in Er. discriminate.
      * split.
        -- intros H. inv H. apply check_chars_err in Er as [a [c [r [-> [H1 [H2 ->]]]]]].
           right. right. exists x, a, c, r. auto.
        -- intros [[H _]|[[c [r [H1 [H2 _]]]]|[f [a [c [r [H1 [H2 [H3 [H4 ->]]]]]]]]]]; try congruence.
           injection H1 as <- ->. assert (Er' : check_chars rest KeyCharacter (a ++ c :: r) = Err (KeyCharacter c)).
           { apply check_chars_err. exists a, c, r. auto. }
           congruence.
    + split.
      * intros H. inv H. right. left. eauto.
      * intros [[H _]|[[c [r [H1 [H2 ->]]]]|[f [a [c [r [H1 [H2 _]]]]]]]]; congruence.
Qed.

Lemma name_new_first_rest : forall s, name_new s =
  first_rest (in_clsb [LOWER; DIGIT]) (in_clsb [LOWER; DIGIT; one "_"; one "-"]) s.
Proof.
  intros [|c s]; [reflexivity|]. unfold name_new, first_rest.
  replace (in_clsb [LOWER; DIGIT] c) with (is_lower c || is_digit c)
    by (kls).
  assert (E : forall s, check_chars (fun c => is_lower c || is_digit c || (c =? ch "_") || (c =? ch "-")) KeyCharacter s
            = check_chars (in_clsb [LOWER; DIGIT; one "_"; one "-"]) KeyCharacter s).
  { clear. induction s as [|c s IH]; [reflexivity|]. cbn [check_chars].
    replace (in_clsb [LOWER; DIGIT; one "_"; one "-"] c)
      with (is_lower c || is_digit c || (c =? ch "_") || (c =? ch "-"))
      by (kls).
    rewrite IH. reflexivity. }
  rewrite E. reflexivity.
Qed.

Lemma identifier_new_first_rest : forall s, identifier_new s =
  first_rest (in_clsb [LOWER; UPPER; DIGIT]) (in_clsb [LOWER; UPPER; DIGIT; one "."; one "_"; one "-"]) s.
Proof.
  intros [|c s]; [reflexivity|]. unfold identifier_new, first_rest.
  replace (in_clsb [LOWER; UPPER; DIGIT] c) with (is_alnum c)
    by (kls).
  assert (E : forall s, check_chars (fun c => is_alnum c || (c =? ch ".") || (c =? ch "_") || (c =? ch "-")) KeyCharacter s
            = check_chars (in_clsb [LOWER; UPPER; DIGIT; one "."; one "_"; one "-"]) KeyCharacter s).
  { clear. induction s as [|c s IH]; [reflexivity|]. cbn [check_chars].
    replace (in_clsb [LOWER; UPPER; DIGIT; one "."; one "_"; one "-"] c)
      with (is_alnum c || (c =? ch ".") || (c =? ch "_") || (c =? ch "-"))
      by (kls).
    rewrite IH. reflexivity. }
  rewrite E. reflexivity.
Qed.

Lemma name_new_ok : forall s t, name_new s = Ok t <-> t = s /\ matches NAME_RE s.
Proof.
  intros s t. rewrite name_new_first_rest, first_rest_ok. unfold NAME_RE. rewrite matches_cls_star. tauto.
Qed.

Lemma identifier_new_ok : forall s t, identifier_new s = Ok t <-> t = s /\ matches IDENTIFIER_RE s.
Proof.
  intros s t. rewrite identifier_new_first_rest, first_rest_ok. unfold IDENTIFIER_RE.
  rewrite matches_cls_star. tauto.
Qed.

(** Error reports. *)
Lemma in_clsb_false : forall k c, in_clsb k c = false <-> ~ in_cls k c.
Proof. intros. rewrite <- in_clsb_iff. destruct (in_clsb k c); intuition congruence. Qed.

Lemma first_rest_err_cls : forall k1 k2 s e,
  first_rest (in_clsb k1) (in_clsb k2) s = Err e <->
  (s = [] /\ e = KeyEmpty) \/
  (exists c r, s = c :: r /\ ~ in_cls k1 c /\ e = KeyStart c) \/
  (exists f a c r, s = f :: a ++ c :: r /\ in_cls k1 f /\ Forall (in_cls k2) a /\ ~ in_cls k2 c /\ e = KeyCharacter c).
Proof.
  intros k1 k2 s e. rewrite first_rest_err. split.
  - intros [H|[[c [r [H1 [H2 H3]]]]|[f [a [c [r [H1 [H2 [H3 [H4 H5]]]]]]]]]]; [auto|right; left|right; right].
    + exists c, r. rewrite <- in_clsb_false. auto.
    + exists f, a, c, r. rewrite <- in_clsb_iff, Forall_in_cls, <- in_clsb_false. auto.
  - intros [H|[[c [r [H1 [H2 H3]]]]|[f [a [c [r [H1 [H2 [H3 [H4 H5]]]]]]]]]]; [auto|right; left|right; right].
    + exists c, r. rewrite in_clsb_false. auto.
    + exists f, a, c, r. rewrite in_clsb_iff, <- Forall_in_cls, in_clsb_false. auto.
Qed.

(** ** MapKey, ExtensionKey *)

Lemma dot_iff : forall c, c <= 1114111 -> (in_cls DOT c <-> c <> 10).
Proof.
  intros c Hc. unfold in_cls, DOT. split.
  - intros [a [b [[H|[H|[]]] H2]]]; inv H; lia.
  - intros H. destruct (N.ltb_spec c 10).
    + exists 0, 9. split; [left; reflexivity|lia].
    + exists 11, 1114111. split; [right; left; reflexivity|lia].
Qed.

Lemma forall_dot : forall s, unicode s -> (Forall (in_cls DOT) s <-> ~ In 10 s).
Proof.
  intros s Hu. unfold unicode in Hu. rewrite Forall_forall in *. split.
  - intros H Hi. apply (dot_iff 10); [lia| |reflexivity]. apply H. exact Hi.
  - intros H c Hc. apply dot_iff; [apply Hu; exact Hc|]. intros ->. auto.
Qed.

Lemma map_key_new_ok : forall s t, unicode s -> (map_key_new s = Ok t <-> t = s /\ matches MAP_KEY_RE s).
Proof.
  intros s t Hu. unfold MAP_KEY_RE. rewrite matches_plus_cls, <- Forall_in_cls, forall_dot by exact Hu.
  rewrite <- contains_not_In. unfold map_key_new.
  destruct s as [|c s]; [split; [discriminate|intros [_ [H _]]; congruence]|].
  destruct (contains 10 (c :: s)).
  - split; [discriminate|]. intros [_ [_ H]]. discriminate.
  - split; [intros H; inv H; repeat split; discriminate|intros [-> _]; reflexivity].
Qed.

Lemma extension_key_new_ok : forall s t, unicode s ->
  (extension_key_new s = Ok t <-> t = s /\ matches EXTENSION_KEY_RE s).
Proof.
  intros s t Hu. unfold extension_key_new, EXTENSION_KEY_RE.
  destruct (starts_with $"x-" s) eqn:E; cbn [negb].
  - apply starts_with_iff in E as [r ->].
    assert (Hr : ~ In 10 ($"x-" ++ r) <-> ~ In 10 r) by (cbn; intuition discriminate).
    assert (Hur : unicode r) by (unfold unicode in *; apply Forall_app in Hu; tauto).
    assert (Hm : matches (Cat (Lit "x") (Cat (Lit "-") (Star (Cls DOT)))) ($"x-" ++ r) <-> ~ In 10 r).
    { rewrite <- forall_dot by exact Hur. rewrite <- matches_star_cls. rewrite matches_cat. split.
      - intros [x [y [H1 [H2 H3]]]]. apply matches_lit in H2. subst x. apply matches_cat in H3 as [x [z [H3 [H4 H5]]]].
        apply matches_lit in H4. subst. inv H1. exact H5.
      - intros H. exists [ch "x"], (ch "-" :: r). split; [reflexivity|]. split; [apply matches_lit; reflexivity|].
        apply matches_cat. exists [ch "-"], r. split; [reflexivity|]. split; [apply matches_lit; reflexivity|exact H]. }
    rewrite Hm, <- Hr, <- contains_not_In. destruct (contains 10 ($"x-" ++ r)).
    + split; [discriminate|]. intros [_ H]. discriminate.
    + split; [intros H; inv H; auto|intros [-> _]; reflexivity].
  - split; [discriminate|]. intros [_ H]. exfalso.
    apply matches_cat in H as [x [y [H1 [H2 H3]]]]. apply matches_lit in H2. subst x.
    apply matches_cat in H3 as [x [z [H3 [H4 H5]]]]. apply matches_lit in H4. subst.
    assert (starts_with $"x-" ([ch "x"] ++ [ch "-"] ++ z) = true); [|congruence].
    apply starts_with_iff. exists z. reflexivity.
Qed.

Lemma extension_key_strip_prefix_ok : forall s k, extension_key_new s = Ok k ->
  exists r, extension_key_strip_prefix k = Ret r /\ k = $"x-" ++ r.
Proof.
  intros s k. unfold extension_key_new. destruct (starts_with $"x-" s) eqn:E; cbn [negb]; [|discriminate].
  destruct (contains 10 s); [discriminate|]. intros H. inv H.
  apply starts_with_iff in E as [r ->]. exists r. unfold extension_key_strip_prefix.
  rewrite strip_prefix_app. auto.
Qed.

(** ** Hostname *)

Lemma label_re : forall s, matches LABEL_RE s <->
  s <> [] /\ forallb (fun c => is_alnum c || (c =? ch "-")) s = true /\
  starts_with $"-" s = false /\ ends_with $"-" s = false.
Proof.
  intros s.
  assert (K1 : forall c, in_cls [LOWER; UPPER; DIGIT] c <-> is_alnum c = true).
  { intros c. rewrite <- in_clsb_iff. replace (in_clsb [LOWER; UPPER; DIGIT] c) with (is_alnum c)
      by (kls). reflexivity. }
  assert (K2 : forall c, in_cls [LOWER; UPPER; DIGIT; one "-"] c <-> is_alnum c || (c =? ch "-") = true).
  { intros c. rewrite <- in_clsb_iff.
    replace (in_clsb [LOWER; UPPER; DIGIT; one "-"] c) with (is_alnum c || (c =? ch "-"))
      by (kls). reflexivity. }
  assert (S : forall c r, starts_with $"-" (c :: r) = (c =? ch "-")).
  { intros c r. unfold starts_with. cbn [of_string map list_ascii_of_string strip_prefix].
    rewrite N.eqb_sym. unfold ch. destruct (c =? N_of_ascii "-"); reflexivity. }
  assert (EW : forall r c, ends_with $"-" (r ++ [c]) = (c =? ch "-")).
  { intros r c. destruct (N.eqb_spec c (ch "-")) as [->|Hn].
    - apply ends_with_iff. exists r. reflexivity.
    - destruct (ends_with $"-" (r ++ [c])) eqn:E; [|reflexivity]. apply ends_with_iff in E as [q E].
      apply app_inj_tail in E as [_ E]. exfalso. apply Hn. exact E. }
  assert (D : is_alnum (ch "-") = false) by reflexivity.
  unfold LABEL_RE. rewrite matches_cat. split.
  - intros [x [y [-> [H1 H2]]]]. apply matches_cls in H1 as [c [-> H1]]. apply K1 in H1.
    assert (Hc : (c =? ch "-") = false) by (destruct (N.eqb_spec c (ch "-")); congruence).
    unfold Opt in H2. apply matches_alt in H2 as [H2|H2].
    + apply matches_eps in H2. subst y. split; [discriminate|]. cbn [app forallb]. rewrite H1, S, Hc.
      repeat split. change [c] with ([] ++ [c]). rewrite EW. exact Hc.
    + apply matches_cat in H2 as [a [b [-> [Ha Hb]]]]. apply matches_star_cls in Ha.
      apply matches_cls in Hb as [d [-> Hb]]. apply K1 in Hb.
      split; [discriminate|]. split; [|split].
      * cbn [app forallb]. rewrite H1. cbn [orb andb]. apply forallb_app_iff. split.
        -- rewrite forallb_forall. rewrite Forall_forall in Ha. intros z Hz. apply K2. apply Ha. exact Hz.
        -- cbn [forallb]. rewrite Hb. reflexivity.
      * cbn [app]. rewrite S. exact Hc.
      * change ([c] ++ a ++ [d]) with ((c :: a) ++ [d]). rewrite EW.
        destruct (N.eqb_spec d (ch "-")); congruence.
  - intros [H1 [H2 [H3 H4]]]. destruct s as [|c r]; [congruence|]. exists [c], r. split; [reflexivity|].
    rewrite S in H3. cbn [forallb] in H2. apply andb_true_iff in H2 as [H2 H5]. rewrite H3, orb_false_r in H2.
    split; [apply matches_cls; exists c; split; [reflexivity|]; apply K1; exact H2|].
    unfold Opt. apply matches_alt. destruct r as [|d r] using rev_ind.
    + left. constructor.
    + right. apply matches_cat. exists r, [d]. split; [reflexivity|].
      apply forallb_app_iff in H5 as [H5 H6]. cbn [forallb] in H6. rewrite andb_true_r in H6.
      change (c :: r ++ [d]) with ((c :: r) ++ [d]) in H4. rewrite EW in H4. rewrite H4, orb_false_r in H6.
      split.
      * apply matches_star_cls. rewrite Forall_forall. rewrite forallb_forall in H5.
        intros z Hz. apply K2. apply H5. exact Hz.
      * apply matches_cls. exists d. split; [reflexivity|]. apply K1. exact H6.
Qed.

Lemma check_label_ok : forall l, check_label l = Ok tt <-> matches LABEL_RE l.
Proof.
  intros l. rewrite label_re. unfold check_label. destruct l as [|c l].
  - split; [discriminate|]. intros [H _]. congruence.
  - destruct (check_chars (fun c => is_alnum c || (c =? ch "-")) HostCharacter (c :: l)) as [[]|e] eqn:E;
      cbn [bind].
    + apply check_chars_ok in E.
      destruct (starts_with $"-" (c :: l)), (ends_with $"-" (c :: l)); cbn [orb];
        (split; [first [discriminate|intros _; repeat split; auto; discriminate]
                |first [reflexivity|intros [_ [_ [H1 H2]]]; discriminate]]).
    + split; [discriminate|]. intros [_ [H _]].
      rewrite (proj2 (check_chars_ok _ HostCharacter _) H) in E. discriminate.
Qed.

Lemma no_dot_label : forall l, matches LABEL_RE l -> ~ In (ch ".") l.
Proof.
  intros l H. apply label_re in H as [_ [H _]]. eapply forallb_not_In; [exact H|reflexivity].
Qed.

Lemma hostname_labels : forall s, matches HOSTNAME_RE s <->
  exists ls, ls <> [] /\ s = join $"." ls /\ Forall (matches LABEL_RE) ls.
Proof.
  assert (G : forall t, matches (Star (Cat (Lit ".") LABEL_RE)) t <->
              exists ls, t = flat_map (fun l => $"." ++ l) ls /\ Forall (matches LABEL_RE) ls).
  { intros t. split.
    - intros H. remember (Star (Cat (Lit ".") LABEL_RE)) as r eqn:E. induction H; try discriminate.
      + exists []. auto.
      + inv E. destruct IHmatches2 as [ls [-> Hl]]; [reflexivity|].
        apply matches_cat in H as [x [y [-> [H1 H2]]]]. apply matches_lit in H1. subst x.
        exists (y :: ls). split; [reflexivity|constructor; assumption].
    - intros [ls [-> H]]. induction H as [|l ls H Hl IH]; [constructor|].
      cbn [flat_map]. apply m_star_cons; [|exact IH]. apply m_cat; [apply matches_lit; reflexivity|exact H]. }
  assert (J : forall l ls, join $"." (l :: ls) = l ++ flat_map (fun l => $"." ++ l) ls).
  { intros l ls. revert l. induction ls as [|l' ls IH]; intros l; [cbn; rewrite app_nil_r; reflexivity|].
    change (join $"." (l :: l' :: ls)) with (l ++ $"." ++ join $"." (l' :: ls)). rewrite IH.
    cbn [flat_map]. rewrite <- app_assoc. reflexivity. }
  intros s. unfold HOSTNAME_RE. rewrite matches_cat. split.
  - intros [x [y [-> [H1 H2]]]]. apply G in H2 as [ls [-> Hl]]. exists (x :: ls).
    split; [discriminate|]. split; [symmetry; apply J|constructor; assumption].
  - intros [ls [H1 [-> H2]]]. destruct ls as [|l ls]; [congruence|]. inv H2.
    exists l, (flat_map (fun l => $"." ++ l) ls). split; [apply J|]. split; [assumption|].
    apply G. eauto.
Qed.

Lemma hostname_new_ok : forall s t, hostname_new s = Ok t <-> t = s /\ matches HOSTNAME_RE s.
Proof.
  intros s t. rewrite hostname_labels. unfold hostname_new.
  assert (G : forall ls, (exists us, collect check_label ls = Ok us) <-> Forall (matches LABEL_RE) ls).
  { induction ls as [|l ls IH]; cbn [collect].
    - split; eauto.
    - destruct (check_label l) as [[]|e] eqn:E; cbn [bind].
      + apply check_label_ok in E. destruct (collect check_label ls) as [us|e]; cbn [bind].
        * split; [intros _; constructor; [exact E|apply IH; eauto]|eauto].
        * split; [intros [us H]; discriminate|]. intros H. inv H. apply IH in H3 as [us H]. discriminate.
      + split; [intros [us H]; discriminate|]. intros H. inv H. apply check_label_ok in H2. congruence. }
  destruct (collect check_label (split (ch ".") s)) as [us|e] eqn:E; cbn [bind].
  - assert (H : Forall (matches LABEL_RE) (split (ch ".") s)) by (apply G; eauto).
    split.
    + intros Ht. inv Ht. split; [reflexivity|]. exists (split (ch ".") t).
      split; [apply split_nonempty|]. split; [symmetry; apply split_join|exact H].
    + intros [-> _]. reflexivity.
  - split; [discriminate|]. intros [_ [ls [H1 [H2 H3]]]]. exfalso.
    assert (Hs : split (ch ".") s = ls).
    { apply split_iff. split; [exact H1|]. split; [|symmetry; exact H2].
      eapply Forall_impl; [|exact H3]. intros l. apply no_dot_label. }
    rewrite Hs in E. apply G in H3 as [us H3]. congruence.
Qed.

Lemma ulimit_resource_new_ok : forall s t, ulimit_resource_new s = Ok t <-> t = s /\ matches ULIMIT_RE s.
Proof.
  intros s t. unfold ULIMIT_RE. rewrite matches_plus_cls. unfold ulimit_resource_new.
  assert (K : forallb (in_clsb [LOWER]) s = forallb is_lower s).
  { induction s as [|c s IH]; [reflexivity|]. cbn [forallb]. rewrite IH. f_equal.
    kls. }
  rewrite K. destruct s as [|c s]; [split; [discriminate|intros [_ [H _]]; congruence]|].
  destruct (check_chars is_lower KeyCharacter (c :: s)) as [[]|e] eqn:E; cbn [bind].
  - apply check_chars_ok in E. split; [intros H; inv H; repeat split; auto; discriminate|].
    intros [-> _]. reflexivity.
  - split; [discriminate|]. intros [_ [_ H]].
    rewrite (proj2 (check_chars_ok is_lower KeyCharacter _) H) in E. discriminate.
Qed.

Lemma cache_option_new_ok : forall s t,
  cache_option_new s = Ok t <-> t = s /\ s <> [] /\ forall c, In c s -> is_whitespace c = false.
Proof.
  intros s t. unfold cache_option_new. destruct s as [|c s]; [split; [discriminate|intros [_ [H _]]; congruence]|].
  destruct (existsb is_whitespace (c :: s)) eqn:E.
  - split; [discriminate|]. intros [_ [_ H]]. apply existsb_exists in E as [x [H1 H2]]. apply H in H1. congruence.
  - split.
    + intros H. inv H. split; [reflexivity|]. split; [discriminate|]. intros x Hx.
      destruct (is_whitespace x) eqn:Ex; [|reflexivity].
      assert (existsb is_whitespace (c :: s) = true) by (apply existsb_exists; eauto). congruence.
    + intros [-> _]. reflexivity.
Qed.

(** ** Consequences used elsewhere *)

Definition identifier_char (c : char) : bool := is_alnum c || (c =? ch ".") || (c =? ch "_") || (c =? ch "-").

Lemma identifier_chars : forall s t, identifier_new s = Ok t ->
  t = s /\ s <> [] /\ forallb identifier_char s = true /\ exists c r, s = c :: r /\ is_alnum c = true.
Proof.
  intros s t. unfold identifier_new. destruct s as [|c s]; [discriminate|].
  destruct (is_alnum c) eqn:Ec; cbn [negb]; [|discriminate].
  destruct (check_chars _ KeyCharacter s) as [[]|e] eqn:E; cbn [bind]; [|discriminate].
  intros H. inv H. apply check_chars_ok in E. split; [reflexivity|]. split; [discriminate|].
  split; [|eauto]. cbn [forallb]. unfold identifier_char at 1. rewrite Ec. cbn [orb andb]. exact E.
Qed.

Lemma identifier_not_In : forall s t c, identifier_new s = Ok t -> identifier_char c = false -> ~ In c t.
Proof.
  intros s t c H Hc. apply identifier_chars in H as [-> [_ [H _]]]. eapply forallb_not_In; eauto.
Qed.

Lemma identifier_idem : forall s t, identifier_new s = Ok t -> identifier_new t = Ok t.
Proof. intros s t H. destruct (identifier_chars _ _ H) as [-> _]. exact H. Qed.
