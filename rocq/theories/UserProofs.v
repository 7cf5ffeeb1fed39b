(** Proofs about [User], [IdOrName] and user names. *)

From Coq Require Import String Ascii List NArith ZArith Bool Lia ZifyBool ZifyN ZifyNat.
Import ListNotations.
From Verif Require Import Base BaseFacts Num NumFacts Regex RegexFacts KeysModel KeysSpec KeysProofs UserModel.
Open Scope N_scope.

Definition user_char (c : char) : bool := is_alnum c || (c =? ch "_") || (c =? ch "-") || (c =? ch "$").

Lemma user_char_split : forall c,
  user_char c = (is_alpha c || (c =? ch "_") || (c =? ch "-") || (c =? ch "$")) || is_digit c.
Proof. intros c. unfold user_char. cls. lia. Qed.

Lemma user_name_loop_ok : forall s n len num b,
  user_name_loop n len num s = Ok b <->
  forallb user_char s = true /\
  (forall i, nth_error s i = Some (ch "$") -> n + N.of_nat i = len - 1) /\
  b = num && forallb is_digit s.
Proof.
  induction s as [|c s IH]; intros n len num b; cbn [user_name_loop forallb].
  - split.
    + intros H. inv H. split; [reflexivity|]. split; [|rewrite andb_true_r; reflexivity].
      intros [|i] H; discriminate.
    + intros [_ [_ ->]]. rewrite andb_true_r. reflexivity.
  - rewrite user_char_split.
    destruct (is_alpha c || (c =? ch "_") || (c =? ch "-") || (c =? ch "$")) eqn:E1; cbn [orb andb].
    + assert (Hd : is_digit c = false) by (cls; lia). rewrite Hd. cbn [andb]. rewrite andb_false_r.
      destruct ((c =? ch "$") && negb (n =? len - 1)) eqn:E2.
      * split; [discriminate|]. intros [_ [H _]]. specialize (H O). cbn [nth_error] in H.
        assert (c = ch "$") by lia. subst c. specialize (H eq_refl). lia.
      * rewrite IH. cbn [andb]. split; intros [H1 [H2 H3]]; (split; [exact H1|]); (split; [|exact H3]).
        -- intros [|i] Hi; cbn [nth_error] in Hi.
           ++ injection Hi as ->. rewrite N.eqb_refl in E2. lia.
           ++ apply H2 in Hi. lia.
        -- intros i Hi. specialize (H2 (S i) Hi). lia.
    + destruct (is_digit c) eqn:E2; cbn [andb].
      * rewrite IH. split; intros [H1 [H2 H3]]; (split; [exact H1|]); (split; [|exact H3]).
        -- intros [|i] Hi; cbn [nth_error] in Hi.
           ++ injection Hi as ->. discriminate E1.
           ++ apply H2 in Hi. lia.
        -- intros i Hi. specialize (H2 (S i) Hi). lia.
      * split; [discriminate|]. intros [H _]. discriminate.
Qed.

Lemma user_char_ascii : forall s, forallb user_char s = true -> blen s = N.of_nat (List.length s).
Proof.
  intros s H. apply blen_ascii. eapply forallb_impl; [|exact H]. intros c Hc. unfold user_char in Hc. cls. lia.
Qed.

Definition user_body (c : char) : bool := is_alnum c || (c =? ch "_") || (c =? ch "-").

Lemma dollar_last : forall s,
  (forall i, nth_error s i = Some (ch "$") -> N.of_nat i = N.of_nat (List.length s) - 1) <->
  ~ In (ch "$") (removelast s).
Proof.
  intros s. destruct s as [|c s] using rev_ind; [split; [intros _ []|intros _ [|i] H; discriminate]|].
  rewrite removelast_last. clear IHs. rewrite app_length. cbn [List.length]. split.
  - intros H Hi. apply In_nth_error in Hi as [i Hi]. assert (i < List.length s)%nat by (apply nth_error_Some; congruence).
    specialize (H i). rewrite nth_error_app1 in H by assumption. specialize (H Hi). lia.
  - intros H i Hi. destruct (Nat.ltb_spec i (List.length s)).
    + rewrite nth_error_app1 in Hi by assumption. apply nth_error_In in Hi. contradiction.
    + assert (i < List.length (s ++ [c]))%nat by (apply nth_error_Some; congruence).
      rewrite app_length in *. cbn [List.length] in *. lia.
Qed.

Lemma user_name_re : forall s, matches USER_NAME_RE s <->
  s <> [] /\ forallb user_char s = true /\ ~ In (ch "$") (removelast s) /\ starts_with $"-" s = false.
Proof.
  intros s.
  assert (K1 : forall c, in_clsb [LOWER; UPPER; DIGIT; one "_"] c = is_alnum c || (c =? ch "_")) by (intros c; kls).
  assert (K2 : forall c, in_clsb [LOWER; UPPER; DIGIT; one "_"; one "-"] c = user_body c)
    by (intros c; unfold user_body; kls).
  assert (K3 : forall l, forallb (in_clsb [LOWER; UPPER; DIGIT; one "_"; one "-"]) l = forallb user_body l).
  { induction l as [|c l IH]; [reflexivity|]. cbn [forallb]. rewrite K2, IH. reflexivity. }
  assert (S : forall c r, starts_with $"-" (c :: r) = (c =? ch "-")).
  { intros c r. unfold starts_with. cbn [of_string map list_ascii_of_string strip_prefix].
    rewrite N.eqb_sym. unfold ch. destruct (c =? N_of_ascii "-"); reflexivity. }
  assert (U : forall c, user_char c = user_body c || (c =? ch "$")) by reflexivity.
  assert (B : forall l, forallb user_body l = true <-> forallb user_char l = true /\ ~ In (ch "$") l).
  { induction l as [|c l IH]; cbn [forallb In]; [tauto|]. rewrite U, !andb_true_iff, IH.
    destruct (N.eqb_spec c (ch "$")) as [->|Hn]; [change (user_body (ch "$")) with false; intuition congruence|].
    rewrite orb_false_r. intuition congruence. }
  unfold USER_NAME_RE. rewrite matches_alt. split.
  - intros [H|H].
    + apply matches_cat in H as [x [y [-> [H1 H2]]]]. apply matches_cls_star in H1 as [c [r [-> [H1 H3]]]].
      rewrite K1 in H1. rewrite K3 in H3. split; [discriminate|]. cbn [app]. rewrite S. cbn [forallb]. rewrite U.
      assert (Hb : user_body c = true) by (unfold user_body; rewrite H1; reflexivity). rewrite Hb. cbn [orb andb].
      assert (Hd : (c =? ch "-") = false) by (cls; lia).
      assert (Hcd : c <> ch "$") by (intros ->; discriminate Hb).
      unfold Opt in H2. apply matches_alt in H2 as [H2|H2].
      * apply matches_eps in H2. subst y. rewrite app_nil_r. apply B in H3 as [H3 H4]. split; [exact H3|].
        split; [|exact Hd]. intros Hi.
        assert (Hi' : In (ch "$") (c :: r)).
        { rewrite (app_removelast_last (l := c :: r) 0) by discriminate. apply in_or_app. left. exact Hi. }
        destruct Hi' as [Hi'|Hi']; [exact (Hcd Hi')|exact (H4 Hi')].
      * apply matches_lit in H2. subst y. apply B in H3 as [H3 H4]. split; [|split; [|exact Hd]].
        -- apply forallb_app_iff. split; [exact H3|reflexivity].
        -- change (c :: r ++ [ch "$"]) with ((c :: r) ++ [ch "$"]). rewrite removelast_last.
           intros [Hi|Hi]; [exact (Hcd Hi)|exact (H4 Hi)].
    + apply matches_lit in H. subst s. split; [discriminate|]. split; [reflexivity|]. split; [intros []|reflexivity].
  - intros [H1 [H2 [H3 H4]]]. destruct s as [|l s] using rev_ind; [congruence|]. clear IHs H1.
    rewrite removelast_last in H3. apply forallb_app_iff in H2 as [H2 H5]. cbn [forallb] in H5.
    rewrite andb_true_r, U in H5.
    destruct s as [|c s].
    + cbn [app] in *. rewrite S in H4. destruct (N.eqb_spec l (ch "$")) as [->|Hn].
      * right. apply matches_lit. reflexivity.
      * left. apply matches_cat. exists [l], []. split; [reflexivity|]. split.
        -- apply matches_cls_star. exists l, []. split; [reflexivity|]. rewrite K1. split; [|reflexivity].
           unfold user_body in H5. rewrite H4 in H5. cls. lia.
        -- apply matches_alt. left. constructor.
    + left. apply matches_cat. cbn [app] in H4. rewrite S in H4.
      assert (Hb : forallb user_body (c :: s) = true) by (apply B; split; assumption).
      cbn [forallb] in Hb. apply andb_true_iff in Hb as [Hb1 Hb2].
      assert (Hc : is_alnum c || (c =? ch "_") = true) by (unfold user_body in Hb1; rewrite H4 in Hb1; cls; lia).
      destruct (N.eqb_spec l (ch "$")) as [->|Hn].
      * exists (c :: s), [ch "$"]. split; [reflexivity|]. split.
        -- apply matches_cls_star. exists c, s. rewrite K1, K3. auto.
        -- apply matches_alt. right. apply matches_lit. reflexivity.
      * exists (c :: s ++ [l]), []. split; [rewrite app_nil_r; reflexivity|]. split.
        -- apply matches_cls_star. exists c, (s ++ [l]). rewrite K1, K3. split; [reflexivity|]. split; [exact Hc|].
           apply forallb_app_iff. split; [exact Hb2|]. cbn [forallb]. rewrite orb_false_r in H5. rewrite H5. reflexivity.
        -- apply matches_alt. left. constructor.
Qed.

Lemma user_name_new_ok : forall s t,
  user_name_new s = Ok t <->
  t = s /\ matches USER_NAME_RE s /\ ~ Forall (in_cls [DIGIT]) s /\ N.of_nat (List.length s) <= 32.
Proof.
  intros s t. rewrite user_name_re.
  assert (D : Forall (in_cls [DIGIT]) s <-> forallb is_digit s = true).
  { rewrite Forall_in_cls. replace (forallb (in_clsb [DIGIT]) s) with (forallb is_digit s); [tauto|].
    induction s as [|c s IH]; [reflexivity|]. cbn [forallb]. rewrite IH. f_equal. kls. }
  rewrite D. unfold user_name_new. destruct s as [|c s]; [split; [discriminate|intros [_ [[H _] _]]; congruence]|].
  set (w := c :: s) in *. assert (Hw : w <> []) by discriminate. clearbody w. clear c s D.
  destruct (user_name_loop 0 (blen w) true w) as [b|e] eqn:E; cbn [bind].
  - apply user_name_loop_ok in E as [H1 [H2 H3]]. cbn [andb] in H3.
    pose proof (user_char_ascii w H1) as Hl. rewrite Hl in *.
    assert (H2' : ~ In (ch "$") (removelast w)) by (apply dollar_last; intros i Hi; apply H2 in Hi; lia).
    subst b. destruct (forallb is_digit w) eqn:Ed.
    + split; [discriminate|]. intros [_ [_ [H _]]]. congruence.
    + destruct (starts_with $"-" w) eqn:Es.
      * split; [discriminate|]. intros [_ [[_ [_ [_ H]]] _]]. discriminate.
      * destruct (N.ltb_spec 32 (N.of_nat (List.length w))).
        -- split; [discriminate|]. intros [_ [_ [_ H']]]. lia.
        -- split; [intros H'; inv H'; repeat split; auto; discriminate|intros [-> _]; reflexivity].
  - split; [discriminate|]. intros [_ [[_ [H1 [H2 _]]] _]]. exfalso.
    assert (E' : user_name_loop 0 (blen w) true w = Ok (true && forallb is_digit w)); [|congruence].
    apply user_name_loop_ok. split; [exact H1|]. split; [|reflexivity]. intros i Hi.
    rewrite (user_char_ascii w H1). apply (proj2 (dollar_last w)) in Hi; [lia|exact H2].
Qed.

(** ** Round trips *)

Definition valid_id_or_name (x : id_or_name) : Prop :=
  match x with Id n => n <= U32_MAX | UName s => user_name_new s = Ok s end.

Definition valid_user (u : user) : Prop :=
  valid_id_or_name (user_user u) /\ match user_group u with Some g => valid_id_or_name g | None => True end.

Lemma user_name_facts : forall s t, user_name_new s = Ok t ->
  t = s /\ s <> [] /\ forallb user_char s = true /\ forallb is_digit s = false.
Proof.
  intros s t H. apply user_name_new_ok in H as [-> [H [H1 _]]]. apply user_name_re in H as [H2 [H3 _]].
  repeat split; auto. destruct (forallb is_digit s) eqn:E; [|reflexivity]. exfalso. apply H1.
  rewrite Forall_in_cls, forallb_forall. rewrite forallb_forall in E. intros c Hc. apply E in Hc.
  rewrite <- Hc. kls.
Qed.

Lemma name_not_id : forall s, user_name_new s = Ok s -> forall n, parse_u32 s <> Ok n.
Proof.
  intros s H n Hn. apply user_name_facts in H as [_ [H1 [H2 H3]]].
  apply parse_uint_ok in Hn. destruct Hn as [ds [Hs [_ [Hd _]]]].
  destruct Hs as [->| ->].
  - unfold all_digits in Hd. congruence.
  - cbn [forallb] in H2. discriminate.
Qed.

Lemma id_or_name_round_trip : forall x, valid_id_or_name x -> id_or_name_parse (id_or_name_show x) = Ok x.
Proof.
  intros [n|s] H; cbn [valid_id_or_name id_or_name_show] in *; unfold id_or_name_parse.
  - rewrite parse_u32_show by exact H. reflexivity.
  - destruct (parse_u32 s) as [n|e] eqn:E; [exfalso; eapply name_not_id; eauto|]. rewrite H. reflexivity.
Qed.

Lemma id_or_name_parse_valid : forall s x, id_or_name_parse s = Ok x -> valid_id_or_name x.
Proof.
  intros s x. unfold id_or_name_parse. destruct (parse_u32 s) as [n|e] eqn:E.
  - intros H. inv H. cbn [valid_id_or_name]. eapply parse_uint_bound. exact E.
  - destruct (user_name_new s) as [t|e'] eqn:E'; cbn [map_ok]; [|discriminate]. intros H. inv H.
    cbn [valid_id_or_name]. pose proof (user_name_facts _ _ E') as [-> _]. exact E'.
Qed.

Lemma id_or_name_no_colon : forall x, valid_id_or_name x -> ~ In (ch ":") (id_or_name_show x).
Proof.
  intros [n|s] H; cbn [valid_id_or_name id_or_name_show] in *.
  - apply show_N_not_In. reflexivity.
  - apply user_name_facts in H as [_ [_ [H _]]]. eapply forallb_not_In; [exact H|reflexivity].
Qed.

Lemma user_round_trip_valid : forall u, valid_user u -> user_parse (user_show u) = Ok u.
Proof.
  intros [u g] [Hu Hg]. cbn [user_user user_group] in *. unfold user_parse, user_show. cbn [user_user user_group].
  destruct g as [g|].
  - rewrite split_once_app by (apply id_or_name_no_colon; exact Hu).
    rewrite !id_or_name_round_trip by assumption. reflexivity.
  - rewrite app_nil_r. rewrite (proj2 (split_once_none _ _)) by (apply id_or_name_no_colon; exact Hu).
    rewrite id_or_name_round_trip by exact Hu. reflexivity.
Qed.

Lemma user_parse_valid : forall s u, user_parse s = Ok u -> valid_user u.
Proof.
  intros s u. unfold user_parse. destruct (split_once (ch ":") s) as [[a b]|].
  - destruct (id_or_name_parse a) as [x|e] eqn:Ea; cbn [bind]; [|discriminate].
    destruct (id_or_name_parse b) as [y|e] eqn:Eb; cbn [bind]; [|discriminate].
    intros H. inv H. split; cbn [user_user user_group]; eapply id_or_name_parse_valid; eauto.
  - destruct (id_or_name_parse s) as [x|e] eqn:Ea; cbn [map_ok]; [|discriminate].
    intros H. inv H. split; cbn [user_user user_group]; [eapply id_or_name_parse_valid; eauto|exact I].
Qed.

Lemma user_into_string_show : forall u, user_into_string u = user_show u.
Proof.
  intros [u [g|]]; unfold user_into_string, user_show; cbn [user_user user_group]; [reflexivity|].
  rewrite app_nil_r. destruct u; reflexivity.
Qed.

(** The normal form of an [IdOrName] text: numbers lose leading zeros and a plus sign. *)
Lemma id_or_name_parse_cases : forall s x, id_or_name_parse s = Ok x <->
  (exists n, x = Id n /\ parse_u32 s = Ok n) \/ (x = UName s /\ user_name_new s = Ok s).
Proof.
  intros s x. unfold id_or_name_parse. destruct (parse_u32 s) as [n|e] eqn:E.
  - split.
    + intros H. inv H. left. eauto.
    + intros [[m [-> H]]|[-> H]]; [congruence|]. exfalso. eapply name_not_id; eauto.
  - destruct (user_name_new s) as [t|e'] eqn:E'; cbn [map_ok].
    + pose proof (user_name_facts _ _ E') as [-> _]. split.
      * intros H. inv H. auto.
      * intros [[m [_ H]]|[-> _]]; [discriminate|reflexivity].
    + split; [discriminate|]. intros [[m [_ H]]|[_ H]]; discriminate.
Qed.
