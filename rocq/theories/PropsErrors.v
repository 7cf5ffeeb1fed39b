(** C73: which error each parser reports, and for which texts. The specification is in [ErrorSpec]. *)

From Coq Require Import String Ascii List NArith Bool Lia ZifyBool ZifyN ZifyNat.
Import ListNotations.
From Verif Require Import Base BaseFacts Num NumFacts Regex RegexFacts KeysModel KeysSpec KeysProofs ImageModel ImageSpec ImageLang ImageProofs
  UserModel UserProofs BytesModel BytesProofs DeviceModel DeviceProofs PathModel NetModel PortsModel VolumesModel BuildModel HealthProofs PathProofs VolumesProofs Coll CollFacts BuildProofs ErrorSpec ErrorFacts.
Open Scope N_scope.

(** ** Integers *)

(** The integers that are read are those of the language. *)
Theorem uint_language : forall base max s n, 2 <= base <= 16 -> (parse_uint_radix base max s = Ok n <-> reads_uint base max s n).
Proof. intros base max s n B. apply uint_read. lia. Qed.
Print Assumptions uint_language.
Theorem uint_errors : forall base max s e, 2 <= base <= 16 -> (parse_uint_radix base max s = Err e <-> uint_fails base max s e).
Proof. intros base max s e B. apply uint_err. lia. Qed.
Print Assumptions uint_errors.
Example uint_errors_used : parse_u16 $"65536" = Err IntPosOverflow /\ parse_u16 $"+6x" = Err IntInvalidDigit /\ parse_u16 $"99999x" = Err IntPosOverflow /\
  uint_fails 10 U16_MAX $"++6" IntInvalidDigit.
Proof. repeat split; [reflexivity..|]. apply uint_errors; [lia|reflexivity]. Qed.

(** ** Keys *)

Theorem map_key_errors : forall s e, map_key_new s = Err e <-> map_key_fails s e.
Proof.
  intros s e. unfold map_key_new, map_key_fails. destruct s as [|c r].
  - split; [intros H; injection H as <-; auto|intros [[_ ->]|[[] _]]; reflexivity].
  - destruct (contains 10 (c :: r)) eqn:C.
    + apply contains_In in C. split; [intros H; injection H as <-; auto|intros [[X _]|[_ ->]]; [discriminate|reflexivity]].
    + apply contains_not_In in C. split; [discriminate|]. intros [[X _]|[X _]]; [discriminate|now elim C].
Qed.
Print Assumptions map_key_errors.

Theorem extension_key_errors : forall s e, extension_key_new s = Err e <-> extension_key_fails s e.
Proof.
  intros s e. unfold extension_key_new, extension_key_fails. destruct (starts_with $"x-" s) eqn:P; cbn [negb].
  - apply starts_with_iff in P as [r ->]. assert (I : In 10 ($"x-" ++ r) <-> In 10 r). { split; [intros [X|[X|X]]; [discriminate..|exact X]|intros X; now do 2 right]. }
    destruct (contains 10 ($"x-" ++ r)) eqn:C.
    + apply contains_In, I in C. split; [intros H; injection H as <-; right; eauto|]. intros [[X _]|(r' & _ & _ & ->)]; [now elim (X r)|reflexivity].
    + apply contains_not_In in C. rewrite I in C. split; [discriminate|]. intros [[X _]|(r' & X & Y & _)]; [now elim (X r)|]. apply app_inv_head in X as <-. now elim C.
  - assert (N : forall r, s <> $"x-" ++ r). { intros r X. assert (starts_with $"x-" s = true) by (apply starts_with_iff; eauto). congruence. }
    split; [intros H; injection H as <-; auto|]. intros [[_ ->]|(r & -> & _)]; [reflexivity|now elim (N r)].
Qed.
Print Assumptions extension_key_errors.

Theorem cache_option_errors : forall s e, cache_option_new s = Err e <-> cache_option_fails s e.
Proof.
  intros s e. unfold cache_option_new, cache_option_fails. destruct s as [|c r].
  - split; [intros H; injection H as <-; auto|intros [[_ ->]|[(c & [] & _) _]]; reflexivity].
  - destruct (existsb is_whitespace (c :: r)) eqn:C.
    + apply existsb_exists in C. split; [intros H; injection H as <-; auto|intros [[X _]|[_ ->]]; [discriminate|reflexivity]].
    + split; [discriminate|]. intros [[X _]|[X _]]; [discriminate|]. apply existsb_exists in X. congruence.
Qed.
Print Assumptions cache_option_errors.

Theorem key_errors : forall s e, identifier_new s = Err e <-> key_fails s e.
Proof.
  intros s e. rewrite identifier_new_first_rest, first_rest_err_cls. unfold key_fails, first_outside. split.
  - intros [H|[H|(f & a & c & r & -> & F & A & C & ->)]]; [auto..|]. right. right. exists f, (a ++ c :: r), c. repeat split; [assumption|]. exists a, r. auto.
  - intros [H|[H|(f & t & c & -> & F & (a & r & -> & A & C) & ->)]]; [auto..|]. right. right. exists f, a, c, r. auto.
Qed.
Print Assumptions key_errors.
Example key_errors_used : map_key_new $"" = Err MapKeyEmpty /\ extension_key_new $"y" = Err (ExtMissingPrefix $"y") /\ identifier_new $"a/b" = Err (KeyCharacter (ch "/")).
Proof. repeat split. Qed.

Lemma label_errors : forall l e, check_label l = Err e <-> label_fails l e.
Proof.
  intros l e. unfold label_fails. destruct l as [|x r].
  - cbn. split; [intros H; injection H as <-; auto|]. intros [[_ ->]|[(c & (a & b & X & _) & _)|(_ & (r & [X|X]) & _)]]; [reflexivity|destruct a; discriminate|discriminate|destruct r; discriminate].
  - set (l := x :: r). assert (K : forall c, is_alnum c || (c =? ch "-") = in_clsb [LOWER; UPPER; DIGIT; one "-"] c) by (intros c; kls).
    assert (U : check_label l = (_ <- check_chars (fun c => is_alnum c || (c =? ch "-")) HostCharacter l ;; if starts_with $"-" l || ends_with $"-" l then Err HostLabelStartEnd else Ok tt)) by reflexivity.
    rewrite U, bind_err, (chars_err _ _ _ _ _ K). split.
    + intros [H|([] & H & X)]; [auto|]. apply (chars_ok _ _ _ _ K) in H. right. right. destruct (starts_with $"-" l || ends_with $"-" l) eqn:S; [|discriminate].
      injection X as <-. repeat split; [exact H|]. apply orb_true_iff in S as [S|S]; [apply starts_with_iff in S as [t S]|apply ends_with_iff in S as [t S]]; eauto.
    + intros [[X _]|[H|(H & (t & S) & ->)]]; [discriminate|now left|]. right. exists tt. split; [now apply (chars_ok _ _ _ _ K)|].
      replace (starts_with $"-" l || ends_with $"-" l) with true; [reflexivity|]. symmetry. apply orb_true_iff. destruct S as [S|S]; [left; apply starts_with_iff|right; apply ends_with_iff]; eauto.
Qed.
Theorem hostname_errors : forall s e, hostname_new s = Err e <-> hostname_fails s e.
Proof.
  intros s e. unfold hostname_new, hostname_fails. rewrite bind_err, collect_err. split.
  - intros [H|(x & _ & X)]; [|discriminate]. exists (split (ch ".") s). split; [symmetry; apply (split_join (ch "."))|]. split; [apply split_nonempty|]. split; [apply split_pieces|].
    eapply failing_iff; [| |exact H]; intros; [rewrite is_unit; symmetry; apply check_label_ok|symmetry; apply label_errors].
  - intros (ls & -> & N & P & H). left. change ($".") with [ch "."]. rewrite split_of_join by assumption.
    eapply failing_iff; [| |exact H]; intros; [rewrite is_unit; apply check_label_ok|apply label_errors].
Qed.
Print Assumptions hostname_errors.
Example hostname_errors_used : hostname_new $"a.-b_" = Err (HostCharacter (ch "_")) /\ hostname_new $"a.-b" = Err HostLabelStartEnd /\ hostname_new $"a..b" = Err HostLabelEmpty.
Proof. repeat split. Qed.

(** ** Users *)

Lemma user_chars : forall c, is_alpha c || (c =? ch "_") || (c =? ch "-") || is_digit c = in_clsb [LOWER; UPPER; DIGIT; one "_"; one "-"] c.
Proof. intros c. kls. Qed.
Lemma user_loop_body : forall a len s n num, Forall (in_cls [LOWER; UPPER; DIGIT; one "_"; one "-"]) a ->
  user_name_loop n len num (a ++ s) = user_name_loop (n + N.of_nat (List.length a)) len (num && forallb is_digit a) s.
Proof.
  induction a as [|c a IH]; intros len s n num F; cbn [app forallb List.length].
  - f_equal; [lia|now destruct num].
  - inversion F as [|? ? C F']; subst. apply in_clsb_iff in C. rewrite <- user_chars in C. cbn [user_name_loop].
    destruct (is_alpha c || (c =? ch "_") || (c =? ch "-") || (c =? ch "$")) eqn:A.
    + assert (D : is_digit c = false) by (revert A; cls; lia). assert (Q : (c =? ch "$") = false) by (revert C; cls; lia).
      rewrite Q, D. cbn [andb]. rewrite andb_false_r, IH by assumption. f_equal. lia.
    + assert (D : is_digit c = true) by (revert A C; cls; lia). rewrite D. cbn [andb]. rewrite IH by assumption. f_equal. lia.
Qed.
Lemma body_ascii : forall a, Forall (in_cls [LOWER; UPPER; DIGIT; one "_"; one "-"]) a -> blen a = N.of_nat (List.length a).
Proof. intros a F. apply blen_ascii. apply Forall_in_cls in F. eapply forallb_impl; [|exact F]. intros c. rewrite <- user_chars. cls. lia. Qed.
Lemma digits_iff : forall s, forallb is_digit s = true <-> Forall (in_cls [DIGIT]) s.
Proof.
  intros s. rewrite Forall_in_cls. assert (E : forallb is_digit s = forallb (in_clsb [DIGIT]) s); [|now rewrite E].
  induction s as [|c s IH]; cbn [forallb]; [reflexivity|]. rewrite IH. f_equal. kls.
Qed.
Theorem user_name_errors : forall s e, user_name_new s = Err e <-> user_name_fails s e.
Proof.
  intros s e. unfold user_name_fails. set (body := [LOWER; UPPER; DIGIT; one "_"; one "-"]).
  assert (END : forall t, (t = [] \/ t = $"$") -> forall a, Forall (in_cls body) a -> a ++ t <> [] -> forall e, user_name_new (a ++ t) = Err e <->
     ((Forall (in_cls [DIGIT]) (a ++ t) /\ e = UserNumeric) \/
      (~ Forall (in_cls [DIGIT]) (a ++ t) /\ (exists r, a ++ t = $"-" ++ r) /\ e = UserStart) \/
      (~ Forall (in_cls [DIGIT]) (a ++ t) /\ ~ (exists r, a ++ t = $"-" ++ r) /\ (List.length (a ++ t) > 32)%nat /\ e = UserLength))).
  { intros t T a F NE e'. assert (L : blen (a ++ t) = N.of_nat (List.length (a ++ t))). { rewrite blen_app, app_length, body_ascii by assumption. destruct T as [->| ->]; cbn; lia. }
    assert (U : user_name_new (a ++ t) = if forallb is_digit (a ++ t) then Err UserNumeric else if starts_with $"-" (a ++ t) then Err UserStart else if 32 <? blen (a ++ t) then Err UserLength else Ok (a ++ t)).
    { assert (G : user_name_loop 0 (blen (a ++ t)) true (a ++ t) = Ok (forallb is_digit (a ++ t))).
      { rewrite user_loop_body by exact F. rewrite forallb_app. cbn [andb]. destruct T as [->| ->].
        - cbn. now rewrite andb_true_r.
        - rewrite L, app_length. cbn [user_name_loop]. cbn. replace (N.of_nat (List.length a) =? N.of_nat (List.length a + 1) - 1) with true by lia. now rewrite andb_false_r. }
      unfold user_name_new. destruct (a ++ t) as [|x r] eqn:Q; [congruence|]. rewrite G. reflexivity. }
    rewrite U, L. destruct (forallb is_digit (a ++ t)) eqn:D.
    - apply digits_iff in D. split; [intros H; injection H as <-; auto|]. intros [[_ ->]|[[N _]|[N _]]]; [reflexivity|now elim N..].
    - assert (D' : ~ Forall (in_cls [DIGIT]) (a ++ t)) by (intros X; apply digits_iff in X; congruence). destruct (starts_with $"-" (a ++ t)) eqn:S.
      + apply starts_with_iff in S. split; [intros H; injection H as <-; auto|]. intros [[N _]|[(_ & _ & ->)|(_ & N & _)]]; [now elim D'|reflexivity|now elim N].
      + assert (S' : ~ exists r, a ++ t = $"-" ++ r) by (intros X; apply starts_with_iff in X; congruence). destruct (32 <? N.of_nat (List.length (a ++ t))) eqn:Q.
        * split; [intros H; injection H as <-; right; right; repeat split; auto; lia|]. intros [[N _]|[(_ & N & _)|(_ & _ & _ & ->)]]; [now elim D'|now elim S'|reflexivity].
        * split; [discriminate|]. intros [[N _]|[(_ & N & _)|(_ & _ & N & _)]]; [now elim D'|now elim S'|lia]. }
  assert (MID : forall a c b, Forall (in_cls body) a -> ~ in_cls body c -> (c <> ch "$" -> user_name_new (a ++ c :: b) = Err (UserCharacter c)) /\ (c = ch "$" -> b <> [] -> user_name_new (a ++ c :: b) = Err UserDollarSign)).
  { intros a c b F NC. assert (G : forall e, user_name_loop 0 (blen (a ++ c :: b)) true (a ++ c :: b) = Err e -> user_name_new (a ++ c :: b) = Err e).
    { intros e' H. unfold user_name_new. destruct (a ++ c :: b) as [|x r] eqn:Q; [destruct a; discriminate|]. now rewrite H. }
    apply in_clsb_false in NC. unfold body in NC. rewrite <- user_chars in NC. split.
    - intros N. apply G. rewrite user_loop_body by exact F. cbn [user_name_loop]. replace (is_alpha c || (c =? ch "_") || (c =? ch "-") || (c =? ch "$")) with false by (revert NC; cls; lia).
      replace (is_digit c) with false by (revert NC; cls; lia). reflexivity.
    - intros -> NB. apply G. rewrite user_loop_body by exact F. cbn [user_name_loop]. rewrite blen_app, body_ascii by exact F. cbn [blen].
      assert (1 <= blen b) by (destruct (blen_0 b) as [B _]; destruct (blen b) eqn:Z; [now elim NB; apply B|lia]). change (ch "$") with 36 in *. 
      replace (0 + N.of_nat (List.length a) =? N.of_nat (List.length a) + (utf8_width 36 + blen b) - 1) with false by (change (utf8_width 36) with 1; lia). reflexivity. }
  split.
  - intros H. destruct s as [|x r]; [left; injection H as <-; auto|]. right.
    destruct (outside_or body (x :: r)) as [F|(c & a & b & E & F & NC)].
    + right. exists (x :: r). split; [now left|]. split; [discriminate|]. split; [exact F|]. rewrite <- (app_nil_r (x :: r)) in H |- *. apply END in H; auto. discriminate.
    + destruct (N.eq_dec c (ch "$")) as [Q|Q].
      * destruct b as [|y b].
        -- right. exists a. split; [right; rewrite E, Q; reflexivity|]. split; [discriminate|]. split; [exact F|]. rewrite E, Q in *. change [ch "$"] with ($"$") in *. apply END in H; auto. destruct a; discriminate.
        -- left. exists a, c, (y :: b). repeat split; auto. right. repeat split; [exact Q|discriminate|]. rewrite E in H. rewrite (proj2 (MID a c (y :: b) F NC) Q) in H; [now injection H|discriminate].
      * left. exists a, c, b. repeat split; auto. left. split; [exact Q|]. rewrite E, (proj1 (MID a c b F NC) Q) in H. now injection H.
  - intros [[-> ->]|[(a & c & b & -> & F & NC & [[Q ->]|(Q & B & ->)])|(a & T & NE & F & H)]].
    + reflexivity.
    + now apply MID.
    + now apply MID.
    + destruct T as [->| ->]; [rewrite <- (app_nil_r a) in NE, H |- *|]; apply END; auto.
Qed.
Print Assumptions user_name_errors.
Lemma id_or_name_errors : forall s e, id_or_name_parse s = Err e <-> id_or_name_fails s e.
Proof.
  intros s e. unfold id_or_name_parse, id_or_name_fails. destruct (parse_u32 s) as [n|x] eqn:P.
  - apply uint_read in P; [|lia]. split; [discriminate|]. intros [N _]. now elim (N n).
  - rewrite map_ok_err, user_name_errors. split; [|now intros [_ H]]. intros H. split; [|exact H]. intros n X. apply uint_read in X; [|lia]. unfold parse_u32, parse_uint in P. congruence.
Qed.
Lemma id_or_name_oks : forall s, (exists x, id_or_name_parse s = Ok x) <-> id_or_name_reads s.
Proof.
  intros s. unfold id_or_name_reads. split.
  - intros [x H]. apply id_or_name_parse_cases in H as [(n & _ & H)|[_ H]]; [left; exists n; apply uint_read; [lia|exact H]|right].
    apply user_name_new_ok in H as (_ & H). repeat split; try apply H. destruct H as (_ & _ & H). lia.
  - intros [[n H]|H]; [exists (Id n); apply id_or_name_parse_cases; left; exists n; split; [reflexivity|]; apply uint_read; [lia|exact H]|].
    destruct (id_or_name_parse s) as [x|e] eqn:P; [eauto|]. exfalso. apply id_or_name_errors in P as [_ P]. apply user_name_errors in P.
    assert (X : user_name_new s = Ok s) by (apply user_name_new_ok; repeat split; try apply H; destruct H as (_ & _ & H); lia). congruence.
Qed.
Theorem user_errors : forall s e, user_parse s = Err e <-> user_fails s e.
Proof.
  intros s e. unfold user_parse, user_fails. destruct (split_once_case (ch ":") s) as [[N ->]|(u & g & -> & N & ->)].
  - rewrite map_ok_err, id_or_name_errors. split; [auto|]. intros [[_ H]|(u & g & -> & _)]; [exact H|]. elim N. apply in_app_iff. right. now left.
  - rewrite bind_err, id_or_name_errors. setoid_rewrite bind_err. split.
    + intros H. right. exists u, g. repeat split; [exact N|]. destruct H as [H|(x & X & [H|(y & _ & H)])]; [now left| |discriminate]. right. split; [apply id_or_name_oks; eauto|now apply id_or_name_errors].
    + intros [[X _]|(u' & g' & E & N' & H)]; [elim X; apply in_app_iff; right; now left|].
      assert (S : split_once (ch ":") (u ++ ch ":" :: g) = Some (u', g')) by (apply split_once_some; auto). rewrite split_once_app in S by exact N. injection S as <- <-.
      destruct H as [H|[R H]]; [now left|right]. apply id_or_name_oks in R as [x R]. exists x. split; [exact R|]. left. now apply id_or_name_errors.
Qed.
Print Assumptions user_errors.
Example user_errors_used : user_parse $"a$b:c" = Err UserDollarSign /\ user_parse $"4294967296:x/" = Err UserNumeric /\ user_parse $"a:-x" = Err UserStart.
Proof. repeat split. Qed.

(** ** Byte values *)

Definition unit_cut (r : str) (c : char) : option ((N -> byte_value) * str) :=
  if (ch "g" =? c) || (ch "G" =? c) then Some (Gigabytes, r)
  else if (ch "m" =? c) || (ch "M" =? c) then Some (Megabytes, r)
  else if (ch "k" =? c) || (ch "K" =? c) then Some (Kilobytes, r)
  else if ch "B" =? c then Some (Bytes, r)
  else if ch "b" =? c then
    match rev r with
    | d :: t => if ch "g" =? d then Some (Gigabytes, rev t) else if ch "m" =? d then Some (Megabytes, rev t) else if ch "k" =? d then Some (Kilobytes, rev t) else Some (Bytes, r)
    | [] => Some (Bytes, r)
    end
  else None.
Lemma byte_value_cut : forall r c, byte_value_parse (r ++ [c]) =
  match Num.parse_u64 (r ++ [c]) with
  | Ok n => Ok (Bytes n)
  | Err _ => match unit_cut r c with Some (f, t) => parse_u64_as f t | None => Err (BvUnknownUnit (r ++ [c])) end
  end.
Proof.
  intros r c. unfold byte_value_parse, unit_cut. destruct (r ++ [c]) as [|x t] eqn:E; [destruct r; discriminate|]. rewrite <- E. clear x t E.
  destruct (Num.parse_u64 (r ++ [c])); [reflexivity|]. rewrite !strip_suffix2_snoc.
  change ($"gb") with [ch "g"; ch "b"]. change ($"mb") with [ch "m"; ch "b"]. change ($"kb") with [ch "k"; ch "b"].
  destruct r as [|d t _] using rev_ind.
  - cbn [app]. rewrite !strip_suffix_pair1. cbn [or_else rev]. destruct (_ || _); [reflexivity|]. destruct (_ || _); [reflexivity|]. destruct (_ || _); [reflexivity|].
    destruct (ch "B" =? c); [now rewrite orb_true_r|]. rewrite orb_false_r. now destruct (ch "b" =? c).
  - rewrite <- app_assoc. 
    rewrite !strip_suffix_pair. rewrite rev_unit, rev_involutive.
    destruct (N.eqb_spec (ch "b") c) as [<-|NB].
    + change (ch "g" =? ch "b") with false. change (ch "G" =? ch "b") with false. change (ch "m" =? ch "b") with false. change (ch "M" =? ch "b") with false.
      change (ch "k" =? ch "b") with false. change (ch "K" =? ch "b") with false. change (ch "B" =? ch "b") with false. cbn [orb]. rewrite !andb_true_r.
      destruct (ch "g" =? d); [reflexivity|]. destruct (ch "m" =? d); [reflexivity|]. destruct (ch "k" =? d); reflexivity.
    + rewrite !andb_false_r. cbn [or_else orb]. destruct (_ || _); [reflexivity|]. destruct (_ || _); [reflexivity|]. destruct (_ || _); [reflexivity|]. now destruct (ch "B" =? c).
Qed.
Lemma unit_cut_none : forall r c, unit_cut r c = None <-> ~ ends (r ++ [c]) [one "b"; one "B"; one "k"; one "K"; one "m"; one "M"; one "g"; one "G"].
Proof.
  intros r c. assert (E : ends (r ++ [c]) [one "b"; one "B"; one "k"; one "K"; one "m"; one "M"; one "g"; one "G"] <-> in_clsb [one "b"; one "B"; one "k"; one "K"; one "m"; one "M"; one "g"; one "G"] c = true).
  { rewrite in_clsb_iff. unfold ends. split; [intros (a & d & X & Y); apply app_inj_tail in X as [_ ->]; exact Y|eauto]. }
  rewrite E. unfold unit_cut. assert (M : forall b, b <> true <-> b = false) by (intros []; split; congruence). rewrite M. clear E M. split.
  - destruct ((ch "g" =? c) || (ch "G" =? c)) eqn:G; [discriminate|]. destruct ((ch "m" =? c) || (ch "M" =? c)) eqn:Mm; [discriminate|]. destruct ((ch "k" =? c) || (ch "K" =? c)) eqn:K; [discriminate|].
    destruct (ch "B" =? c) eqn:B; [discriminate|]. destruct (ch "b" =? c) eqn:B'; [|intros _; kls].
    destruct (rev r) as [|d t]; [discriminate|]. destruct (ch "g" =? d); [discriminate|]. destruct (ch "m" =? d); [discriminate|]. destruct (ch "k" =? d); discriminate.
  - intros H. assert (F : (ch "g" =? c) || (ch "G" =? c) = false /\ (ch "m" =? c) || (ch "M" =? c) = false /\ (ch "k" =? c) || (ch "K" =? c) = false /\ (ch "B" =? c) = false /\ (ch "b" =? c) = false).
    { revert H. unfold in_clsb, one, rng. cbn [existsb fst snd]. cls. lia. }
    destruct F as (-> & -> & -> & -> & ->). reflexivity.
Qed.
Lemma unit_cut_some : forall r c t, (exists f, unit_cut r c = Some (f, t)) <-> exists u, r ++ [c] = t ++ u /\
  (In u [$"kb"; $"mb"; $"gb"; $"k"; $"K"; $"m"; $"M"; $"g"; $"G"; $"B"] \/ (u = $"b" /\ ~ ends t [one "k"; one "m"; one "g"])).
Proof.
  intros r c t. split.
  - intros [f H]. unfold unit_cut in H.
    destruct ((ch "g" =? c) || (ch "G" =? c)) eqn:G.
    { injection H as _ <-. exists [c]. split; [reflexivity|]. left. apply orb_true_iff in G as [G|G]; apply N.eqb_eq in G as <-; cbn; tauto. }
    destruct ((ch "m" =? c) || (ch "M" =? c)) eqn:G1.
    { injection H as _ <-. exists [c]. split; [reflexivity|]. left. apply orb_true_iff in G1 as [G1|G1]; apply N.eqb_eq in G1 as <-; cbn; tauto. }
    destruct ((ch "k" =? c) || (ch "K" =? c)) eqn:G2.
    { injection H as _ <-. exists [c]. split; [reflexivity|]. left. apply orb_true_iff in G2 as [G2|G2]; apply N.eqb_eq in G2 as <-; cbn; tauto. }
    destruct (ch "B" =? c) eqn:G3.
    { injection H as _ <-. exists [c]. split; [reflexivity|]. left. apply N.eqb_eq in G3 as <-; cbn; tauto. }
    destruct (ch "b" =? c) eqn:G4; [|discriminate]. apply N.eqb_eq in G4 as <-.
    destruct r as [|d r' _] using rev_ind.
    { injection H as _ <-. exists $"b". split; [reflexivity|]. right. split; [reflexivity|]. intros (a & x & X & _). destruct a; discriminate. }
    rewrite rev_unit, rev_involutive in H. rewrite <- app_assoc.
    destruct (ch "g" =? d) eqn:D1; [apply N.eqb_eq in D1 as <-; injection H as _ <-; exists $"gb"; split; [reflexivity|cbn; tauto]|].
    destruct (ch "m" =? d) eqn:D2; [apply N.eqb_eq in D2 as <-; injection H as _ <-; exists $"mb"; split; [reflexivity|cbn; tauto]|].
    destruct (ch "k" =? d) eqn:D3; [apply N.eqb_eq in D3 as <-; injection H as _ <-; exists $"kb"; split; [reflexivity|cbn; tauto]|].
    injection H as _ <-. exists $"b". rewrite <- app_assoc. split; [reflexivity|]. right. split; [reflexivity|]. intros (a & x & X & Y). apply app_inj_tail in X as [_ <-].
    apply in_clsb_iff in Y. revert D1 D2 D3 Y. unfold in_clsb, one, rng. cbn [existsb fst snd]. cls. lia.
  - intros (u & E & H).
    assert (ONE : forall x, u = [x] -> r = t /\ c = x) by (intros x ->; now apply app_inj_tail in E).
    assert (TWO : forall x y, u = [x; y] -> r = t ++ [x] /\ c = y) by (intros x y ->; change [x; y] with ([x] ++ [y]) in E; rewrite app_assoc in E; now apply app_inj_tail in E).
    destruct H as [H|[H NE]].
    + cbn [In] in H. destruct H as [H|[H|[H|[H|[H|[H|[H|[H|[H|[H|[]]]]]]]]]]]; symmetry in H.
      1: destruct (TWO _ _ H) as [-> ->]; unfold unit_cut; rewrite rev_unit, rev_involutive; eexists; reflexivity.
      1: destruct (TWO _ _ H) as [-> ->]; unfold unit_cut; rewrite rev_unit, rev_involutive; eexists; reflexivity.
      1: destruct (TWO _ _ H) as [-> ->]; unfold unit_cut; rewrite rev_unit, rev_involutive; eexists; reflexivity.
      all: destruct (ONE _ H) as [-> ->]; eexists; reflexivity.
    + destruct (ONE _ H) as [-> ->]. unfold unit_cut. cbn [N.eqb orb]. change (ch "g" =? ch "b") with false. change (ch "G" =? ch "b") with false. change (ch "m" =? ch "b") with false. change (ch "M" =? ch "b") with false.
      change (ch "k" =? ch "b") with false. change (ch "K" =? ch "b") with false. change (ch "B" =? ch "b") with false. change (ch "b" =? ch "b") with true. cbn [orb].
      destruct t as [|d t _] using rev_ind; [eexists; reflexivity|]. rewrite rev_unit.
      destruct (ch "g" =? d) eqn:D1; [exfalso; apply NE; exists t, d; split; [reflexivity|]; apply in_clsb_iff; revert D1; kls|].
      destruct (ch "m" =? d) eqn:D2; [exfalso; apply NE; exists t, d; split; [reflexivity|]; apply in_clsb_iff; revert D2; kls|].
      destruct (ch "k" =? d) eqn:D3; [exfalso; apply NE; exists t, d; split; [reflexivity|]; apply in_clsb_iff; revert D3; kls|]. eexists; reflexivity.
Qed.
Theorem byte_value_errors : forall s e, byte_value_parse s = Err e <-> byte_value_fails s e.
Proof.
  intros s e. unfold byte_value_fails. destruct s as [|c r _] using rev_ind.
  - cbn. split; [intros H; injection H as <-; auto|intros [[_ ->]|[N _]]; [reflexivity|now elim N]].
  - rewrite byte_value_cut. assert (NE : r ++ [c] <> []) by (destruct r; discriminate). destruct (Num.parse_u64 (r ++ [c])) as [n|i] eqn:P.
    + apply uint_read in P; [|lia]. split; [discriminate|]. intros [[X _]|(_ & N & _)]; [now elim NE|now elim (N n)].
    + assert (N : forall n, ~ reads_uint 10 U64_MAX (r ++ [c]) n) by (intros n X; apply uint_read in X; [unfold Num.parse_u64, parse_uint in P; congruence|lia]). clear P i.
      destruct (unit_cut r c) as [[f t]|] eqn:U.
      * assert (U' : exists f, unit_cut r c = Some (f, t)) by eauto. pose proof (proj1 (unit_cut_some r c t) U') as (u & E & I).
        unfold parse_u64_as. split.
        -- intros H. right. split; [exact NE|]. split; [exact N|]. right. destruct (Num.parse_u64 t) as [n|i] eqn:P; [discriminate|]. injection H as <-.
           apply uint_err in P; [|lia]. exists t, u, i. auto.
        -- intros [[X _]|(_ & _ & [[X _]|(t' & u' & i & E' & I' & F & ->)])]; [now elim NE| |].
           ++ apply unit_cut_none in X. congruence.
           ++ assert (U'' : exists f, unit_cut r c = Some (f, t')) by (apply unit_cut_some; eauto). destruct U'' as [f' U'']. rewrite U in U''. injection U'' as <- <-.
              apply uint_err in F; [|lia]. unfold Num.parse_u64, parse_uint. rewrite F. reflexivity.
      * split.
        -- intros H. injection H as <-. right. split; [exact NE|]. split; [exact N|]. left. split; [now apply unit_cut_none|reflexivity].
        -- intros [[X _]|(_ & _ & [[_ ->]|(t & u & i & E & I & _)])]; [now elim NE|reflexivity|]. assert (U'' : exists f, unit_cut r c = Some (f, t)) by (apply unit_cut_some; eauto). destruct U''. congruence.
Qed.
Print Assumptions byte_value_errors.
Example byte_value_errors_used : byte_value_parse $"1.5gb" = Err (BvParseInt IntInvalidDigit $"1.5") /\ byte_value_parse $"5t" = Err (BvUnknownUnit $"5t") /\ byte_value_parse $"kb" = Err (BvParseInt IntEmpty []).
Proof. repeat split. Qed.

(** ** Devices *)

Lemma permissions_errors : forall s c, permissions_parse s = Err c <-> first_outside PERMISSION s c.
Proof.
  intros s c. unfold permissions_parse. generalize (mk_permissions false false false). induction s as [|x s IH]; intros p; cbn [permissions_loop].
  - split; [discriminate|]. intros (a & b & X & _). destruct a; discriminate.
  - assert (S : in_cls PERMISSION x -> (first_outside PERMISSION (x :: s) c <-> first_outside PERMISSION s c)).
    { intros X. split; intros (a & b & E & F & N).
      - destruct a as [|y a]; [injection E as -> ->; contradiction|]. injection E as -> ->. inversion F; subst. exists a, b. auto.
      - exists (x :: a), b. subst s. auto. }
    destruct (x =? ch "r") eqn:R; [rewrite S, IH; [reflexivity|apply in_clsb_iff; revert R; unfold PERMISSION; kls]|].
    destruct (x =? ch "w") eqn:W; [rewrite S, IH; [reflexivity|apply in_clsb_iff; revert W; unfold PERMISSION; kls]|].
    destruct (x =? ch "m") eqn:M; [rewrite S, IH; [reflexivity|apply in_clsb_iff; revert M; unfold PERMISSION; kls]|].
    assert (N : ~ in_cls PERMISSION x) by (apply in_clsb_false; revert R W M; unfold PERMISSION; kls). split.
    + intros H. injection H as <-. exists [], s. auto.
    + intros (a & b & E & F & N'). destruct a as [|y a]; [injection E as -> ->; reflexivity|]. injection E as -> ->. inversion F; subst. contradiction.
Qed.
Lemma absolute_path_err : forall p e, absolute_path_new p = Err e <-> ~ exists r, p = $"/" ++ r.
Proof.
  intros p []. unfold absolute_path_new. destruct (is_absolute p) eqn:A; (split; [|reflexivity || idtac]); try discriminate.
  - intros N. elim N. apply is_absolute_iff in A. exact A.
  - intros _ X. apply is_absolute_iff in X. congruence.
Qed.
Lemma absolute_path_cases : forall p, (absolute_path_new p = Ok p /\ exists r, p = $"/" ++ r) \/ (absolute_path_new p = Err AbsolutePathError /\ ~ exists r, p = $"/" ++ r).
Proof.
  intros p. unfold absolute_path_new. destruct (is_absolute p) eqn:A; [left|right]; (split; [reflexivity|]).
  - apply is_absolute_iff in A. exact A.
  - intros X. apply is_absolute_iff in X. congruence.
Qed.
(** The error [DevEmpty] is not among them: no text is rejected with it. *)
Theorem device_errors : forall s e, device_parse s = Err e <-> device_fails s e.
Proof.
  intros s e. unfold device_parse, device_fails. destruct (splitn3 (ch ":") s) as [[N ->]|[(h & p & -> & N & N' & ->)|(h & p & q & -> & N & N' & ->)]].
  - split; [intros H; injection H as <-; auto|]. intros [[_ ->]|(h & r & -> & _)]; [reflexivity|]. now apply not_cut with (a := h) (b := r) in N.
  - split.
    + intros H. right. exists h, p. repeat split; [exact N|]. left. destruct (absolute_path_cases p) as [[A X]|[A X]]; rewrite A in H; cbn in H; [discriminate|]. injection H as <-. auto.
    + intros [[X _]|(h' & r & E & M & H)]; [elim X; apply in_app_iff; right; now left|]. destruct (cut_fun _ _ _ _ _ E N M) as [<- <-].
      destruct H as [[A ->]|(p' & q & c & -> & _)]; [|elim N'; rewrite !in_app_iff; right; right; left; apply in_eq].
      destruct (absolute_path_cases p) as [[B X]|[B X]]; [now elim A|]. now rewrite B.
  - split.
    + intros H. right. exists h, (p ++ ch ":" :: q). repeat split; [exact N|]. destruct (absolute_path_cases p) as [[A [r ->]]|[A X]]; rewrite A in H; cbn [map_err bind] in H.
      * right. destruct (permissions_parse q) as [pm|c] eqn:P; cbn in H; [discriminate|]. injection H as <-. exists r, q, c. apply permissions_errors in P. repeat split; auto. intros I. apply N'. now right.
      * left. injection H as <-. split; [|reflexivity]. intros [r R]. apply X. destruct p as [|y p]; [discriminate R|]. injection R as -> _. now exists p.
    + intros [[X _]|(h' & r & E & M & H)]; [elim X; apply in_app_iff; right; now left|]. destruct (cut_fun _ _ _ _ _ E N M) as [<- <-].
      destruct H as [[A ->]|(p' & q' & c & E' & M' & F & ->)].
      * destruct (absolute_path_cases p) as [[B [r ->]]|[B X]]; [elim A; now exists (r ++ ch ":" :: q)|]. now rewrite B.
      * change ($"/" ++ p' ++ $":" ++ q') with (($"/" ++ p') ++ ch ":" :: q') in E'. destruct (cut_fun (ch ":") p q ($"/" ++ p') q') as [-> ->]; [exact E'|exact N'|intros [I|I]; [discriminate|now apply M']|].
        destruct (absolute_path_cases ($"/" ++ p')) as [[B _]|[_ X]]; [|elim X; eauto]. rewrite B. cbn [map_err bind]. apply permissions_errors in F. now rewrite F.
Qed.
Print Assumptions device_errors.
Lemma mm_errors : forall s e, mm_parse s = Err e <-> mm_fails s e.
Proof.
  intros s e. unfold mm_parse, mm_fails. destruct s as [|x s]; [split; [discriminate|intros [N _]; now elim N]|].
  destruct (str_eqb_spec (x :: s) $"*") as [->|N]; [split; [discriminate|intros (_ & N & _); now elim N]|]. rewrite map_ok_err. unfold parse_u16, parse_uint. rewrite uint_err by lia.
  split; [intros H; repeat split; [discriminate|exact N|exact H]|tauto].
Qed.
Lemma mm_oks : forall s, (exists m, mm_parse s = Ok m) <-> mm_reads s.
Proof.
  intros s. unfold mm_reads. split.
  - intros [m H]. apply mm_parse_ok in H. destruct m as [|n]; [tauto|]. right. right. exists n. apply uint_read; [lia|exact H].
  - intros [H|[H|[n H]]]; [exists MMAll|exists MMAll|exists (MMInt n)]; apply mm_parse_ok; auto. apply uint_read in H; [exact H|lia].
Qed.
Lemma kind_errors : forall s e, kind_parse s = Err e <-> e = s /\ ~ In s [$"a"; $"b"; $"c"].
Proof.
  intros s e. unfold kind_parse. cbn [In]. destruct (str_eqb_spec s $"a") as [->|A]; [split; [discriminate|intros [_ N]; elim N; auto]|].
  destruct (str_eqb_spec s $"c") as [->|C]; [split; [discriminate|intros [_ N]; elim N; auto]|]. destruct (str_eqb_spec s $"b") as [->|B]; [split; [discriminate|intros [_ N]; elim N; auto]|].
  split; [intros H; injection H as <-; split; [reflexivity|]; intros [X|[X|[X|[]]]]; now symmetry in X|intros [-> _]; reflexivity].
Qed.
Lemma kind_cases : forall s, (exists k, kind_parse s = Ok k) /\ In s [$"a"; $"b"; $"c"] \/ kind_parse s = Err s /\ ~ In s [$"a"; $"b"; $"c"].
Proof.
  intros s. destruct (kind_parse s) as [k|e] eqn:K.
  - left. split; [eauto|]. apply kind_parse_ok in K as ->. destruct k; cbn; auto.
  - right. apply kind_errors in K as [-> K]. auto.
Qed.

Definition cut1 (c : char) (s : str) : str * str := match split_once c s with Some p => p | None => (s, []) end.
Lemma cut1_iff : forall c s k r, cut1 c s = (k, r) <-> (s = k /\ r = [] \/ s = k ++ c :: r) /\ ~ In c k.
Proof.
  intros c s k r. unfold cut1. destruct (split_once_case c s) as [[N ->]|(a & b & -> & N & ->)].
  - split; [intros H; injection H as <- <-; auto|]. intros [[[-> ->]| ->] _]; [reflexivity|]. elim N. apply in_app_iff. right. now left.
  - split; [intros H; injection H as <- <-; auto|]. intros [[[<- ->]|E] M].
    + elim M. apply in_app_iff. right. now left.
    + destruct (cut_fun _ _ _ _ _ E N M) as [<- <-]. reflexivity.
Qed.
Lemma cgroup_cut : forall s, cgroup_parse s =
  let (k, r) := cut1 (ch " ") s in
  kind <- map_err CgKind (kind_parse k) ;;
  let (n, p) := cut1 (ch " ") r in
  match split_once (ch ":") n with
  | None => Err CgNumbersMissing
  | Some (a, b) =>
      major <- map_err CgNumber (mm_parse a) ;;
      minor <- map_err CgNumber (mm_parse b) ;;
      perms <- map_err CgPermissions (permissions_parse p) ;;
      Ok (mk_cgroup_rule kind major minor perms)
  end.
Proof.
  intros s. unfold cgroup_parse, cut1. cbn [splitn]. destruct (split_once (ch " ") s) as [[k r]|].
  - destruct (split_once (ch " ") r) as [[n p]|]; reflexivity.
  - cbn. destruct (kind_parse s); reflexivity.
Qed.
(** Nor is [CgEmpty]. *)
Theorem cgroup_errors : forall s e, cgroup_parse s = Err e <-> cgroup_fails s e.
Proof.
  intros s e. rewrite cgroup_cut. unfold cgroup_fails. destruct (cut1 (ch " ") s) as [k r] eqn:K. pose proof (proj1 (cut1_iff _ _ _ _) K) as [K1 K2].
  destruct (cut1 (ch " ") r) as [n p] eqn:R. pose proof (proj1 (cut1_iff _ _ _ _) R) as [R1 R2].
  assert (KF : forall k' r', (s = k' /\ r' = [] \/ s = k' ++ $" " ++ r') -> ~ In (ch " ") k' -> k' = k /\ r' = r).
  { intros k' r' X Y. assert (Z : cut1 (ch " ") s = (k', r')) by (apply cut1_iff; auto). rewrite K in Z. injection Z as -> ->. auto. }
  assert (RF : forall n' p', (r = n' /\ p' = [] \/ r = n' ++ $" " ++ p') -> ~ In (ch " ") n' -> n' = n /\ p' = p).
  { intros n' p' X Y. assert (Z : cut1 (ch " ") r = (n', p')) by (apply cut1_iff; auto). rewrite R in Z. injection Z as -> ->. auto. }
  destruct (kind_cases k) as [[[kk KP] KI]|[KP KI]]; rewrite KP; cbn [map_err bind].
  - split.
    + intros H. exists k, r. split; [exact K1|]. split; [exact K2|]. right. split; [exact KI|]. exists n, p. split; [exact R1|]. split; [exact R2|].
      destruct (split_once_case (ch ":") n) as [[N E]|(a & b & E & N & E')].
      * left. rewrite E in H. injection H as <-. auto.
      * right. exists a, b. split; [exact E|]. split; [exact N|]. rewrite E' in H. rewrite bind_err, map_err_err in H.
        destruct H as [(i & X & ->)|(m & X & H)]; [left; exists i; apply mm_errors in X; auto|]. destruct (mm_parse a) as [ma|] eqn:A; [|discriminate X].
        rewrite bind_err, map_err_err in H. destruct H as [(i & Y & ->)|(m' & Y & H)]; [right; left; exists i; apply mm_errors in Y; split; [apply mm_oks; eauto|split; [exact Y|reflexivity]]|]. destruct (mm_parse b) as [mb|] eqn:B; [|discriminate Y].
        rewrite bind_err, map_err_err in H. destruct H as [(i & Z & ->)|(pm & Z & H)]; [|discriminate H]. right. right. exists i. apply permissions_errors in Z. split; [apply mm_oks; eauto|]. split; [apply mm_oks; eauto|]. split; [exact Z|reflexivity].
    + intros (k' & r' & X & Y & H). destruct (KF _ _ X Y) as [-> ->]. clear X Y. destruct H as [[X _]|(_ & n' & p' & X & Y & H)]; [contradiction|].
      destruct (RF _ _ X Y) as [-> ->]. clear X Y. destruct H as [[N ->]|(a & b & E & N & H)]; [apply split_once_none in N; now rewrite N|].
      assert (S : split_once (ch ":") n = Some (a, b)) by (apply split_once_some; auto). rewrite S.
      destruct H as [(i & F & ->)|[(i & A & F & ->)|(c & A & B & F & ->)]].
      * apply mm_errors in F. now rewrite F.
      * apply mm_oks in A as [ma A]. apply mm_errors in F. now rewrite A, F.
      * apply mm_oks in A as [ma A]. apply mm_oks in B as [mb B]. apply permissions_errors in F. now rewrite A, B, F.
  - split.
    + intros H. injection H as <-. exists k, r. auto.
    + intros (k' & r' & X & Y & H). destruct (KF _ _ X Y) as [-> ->]. destruct H as [[_ ->]|[X' _]]; [reflexivity|contradiction].
Qed.
Print Assumptions cgroup_errors.
Example device_errors_used : device_parse $"" = Err DevContainerPathMissing /\ device_parse $"/a:b:r" = Err DevContainerPathAbsolute /\ device_parse $"/a:/b:rwx" = Err (DevPermissions (ch "x")) /\
  cgroup_parse $"" = Err (CgKind []) /\ cgroup_parse $"c 1" = Err CgNumbersMissing /\ cgroup_parse $"c 1:65536 z" = Err (CgNumber IntPosOverflow).
Proof. repeat split. Qed.

(** ** Images *)

Lemma tag_chars_cls : forall c, tag_char c = in_clsb TAG_CHAR c. Proof. intros c. unfold tag_char, TAG_CHAR. kls. Qed.
Theorem tag_errors : forall s e, tag_new s = Err e <-> tag_fails s e.
Proof.
  intros s e. unfold tag_new, tag_fails, tag_chars. rewrite bind_err, (chars_err _ _ _ _ _ tag_chars_cls). split.
  - intros [H|([] & H & X)]; [auto|]. right. pose proof H as H0. apply check_chars_ok in H0. apply tag_char_ascii, blen_ascii in H0. apply (chars_ok _ _ _ _ tag_chars_cls) in H. destruct s as [|c r]; [injection X as <-; auto|].
    right. rewrite H0 in X. destruct (128 <? N.of_nat (List.length (c :: r))) eqn:L; [|discriminate]. injection X as <-. repeat split; [exact H|lia].
  - intros [H|[[-> ->]|(H & L & ->)]]; [now left|right; exists tt; auto|]. right. exists tt. pose proof H as H0. apply (chars_ok tag_char TECharacter TAG_CHAR _ tag_chars_cls) in H. split; [exact H|].
    apply check_chars_ok in H. apply tag_char_ascii, blen_ascii in H. destruct s as [|c r]; [cbn in L; lia|]. rewrite H. replace (128 <? N.of_nat (List.length (c :: r))) with true by lia. reflexivity.
Qed.
Print Assumptions tag_errors.

Lemma sep_chars : forall c, in_cls SEP_CHAR c <-> c = ch "." \/ c = ch "_" \/ c = ch "-".
Proof. intros c. rewrite <- in_clsb_iff. unfold SEP_CHAR, in_clsb, one, rng. cbn [existsb fst snd]. cls. lia. Qed.
Lemma part_chars_snoc : forall a d u p c, part_chars d u p a = Ok tt ->
  (char_is_alnum c = true -> part_chars d u p (a ++ [c]) = Ok tt) /\
  (char_is_alnum c = false -> ~ in_cls SEP_CHAR c -> part_chars d u p (a ++ [c]) = Err (NECharacter c)) /\
  (in_cls SEP_CHAR c -> part_chars d u p (a ++ [c]) = Ok tt \/ part_chars d u p (a ++ [c]) = Err NEMultipleSeparators).
Proof.
  induction a as [|x a IH]; intros d u p c H.
  - cbn [app part_chars]. unfold char_is_alnum. destruct (is_lower c || is_digit c) eqn:A; [repeat split; [discriminate|auto]|].
    rewrite sep_chars. destruct (N.eqb_spec c (ch "-")) as [D|D]; [destruct (_ && _); repeat split; auto; try discriminate; intros _ N; exfalso; apply N; auto|].
    destruct (N.eqb_spec c (ch ".")) as [P|P]; [destruct (_ && _); repeat split; auto; try discriminate; intros _ N; exfalso; apply N; auto|].
    destruct (N.eqb_spec c (ch "_")) as [U|U]; [destruct (_ && _); repeat split; auto; try discriminate; intros _ N; exfalso; apply N; auto|].
    repeat split; [discriminate|]. intros X. exfalso. intuition.
  - cbn [app part_chars] in H |- *. destruct (is_lower x || is_digit x); [now apply IH|]. destruct (x =? ch "-"); [destruct (_ && _); [now apply IH|discriminate]|].
    destruct (x =? ch "."); [destruct (_ && _); [now apply IH|discriminate]|]. destruct (x =? ch "_"); [destruct (_ && _); [now apply IH|discriminate]|discriminate].
Qed.
Lemma part_chars_app : forall a b d u p, part_chars d u p (a ++ b) = Ok tt -> part_chars d u p a = Ok tt.
Proof.
  induction a as [|x a IH]; intros b d u p H; [reflexivity|]. cbn [app part_chars] in H |- *. destruct (is_lower x || is_digit x); [now apply IH in H|].
  destruct (x =? ch "-"); [destruct (_ && _); [now apply IH in H|discriminate]|].
  destruct (x =? ch "."); [destruct (_ && _); [now apply IH in H|discriminate]|]. destruct (x =? ch "_"); [destruct (_ && _); [now apply IH in H|discriminate]|discriminate].
Qed.
Lemma part_chars_err : forall s d u p e, part_chars d u p s = Err e <-> exists a c b, s = a ++ c :: b /\ part_chars d u p a = Ok tt /\ part_chars d u p (a ++ [c]) = Err e.
Proof.
  intros s d u p e. split.
  - revert d u p. induction s as [|x s IH]; intros d u p H; [discriminate|].
    assert (STEP : forall d' u' p', (forall t, part_chars d u p (x :: t) = part_chars d' u' p' t) -> exists a c b, x :: s = a ++ c :: b /\ part_chars d u p a = Ok tt /\ part_chars d u p (a ++ [c]) = Err e).
    { intros d' u' p' S. rewrite S in H. apply IH in H as (a & c & b & -> & A & C). exists (x :: a), c, b. cbn [app]. rewrite !S. auto. }
    destruct (part_chars d u p [x]) as [[]|e'] eqn:X.
    + cbn [part_chars] in X. destruct (is_lower x || is_digit x) eqn:A; [apply (STEP 0 0 false); intros t; cbn [part_chars]; now rewrite A|].
      destruct (x =? ch "-") eqn:D; [destruct (_ && _) eqn:B; [|discriminate]; apply (STEP d u true); intros t; cbn [part_chars]; now rewrite A, D, B|].
      destruct (x =? ch ".") eqn:P; [destruct (_ && _) eqn:B; [|discriminate]; apply (STEP (d + 1) u false); intros t; cbn [part_chars]; now rewrite A, D, P, B|].
      destruct (x =? ch "_") eqn:U; [destruct (_ && _) eqn:B; [|discriminate]; apply (STEP d (u + 1) false); intros t; cbn [part_chars]; now rewrite A, D, P, U, B|discriminate].
    + exists [], x, s. split; [reflexivity|]. split; [reflexivity|]. cbn [app]. rewrite X. rewrite <- H. clear - X. cbn [part_chars] in *. destruct (is_lower x || is_digit x); [discriminate|].
      destruct (x =? ch "-"); [destruct (_ && _); [discriminate|now rewrite X]|]. destruct (x =? ch "."); [destruct (_ && _); [discriminate|now rewrite X]|]. destruct (x =? ch "_"); [destruct (_ && _); [discriminate|now rewrite X]|now rewrite X].
  - intros (a & c & b & -> & A & C). revert d u p A C. induction a as [|x a IH]; intros d u p A C.
    + cbn [app part_chars] in *. destruct (is_lower c || is_digit c); [discriminate|]. destruct (c =? ch "-"); [destruct (_ && _); [discriminate|exact C]|]. destruct (c =? ch "."); [destruct (_ && _); [discriminate|exact C]|]. destruct (c =? ch "_"); [destruct (_ && _); [discriminate|exact C]|exact C].
    + cbn [app part_chars] in *. destruct (is_lower x || is_digit x); [now apply IH|]. destruct (x =? ch "-"); [destruct (_ && _); [now apply IH|discriminate]|].
      destruct (x =? ch "."); [destruct (_ && _); [now apply IH|discriminate]|]. destruct (x =? ch "_"); [destruct (_ && _); [now apply IH|discriminate]|discriminate].
Qed.
Lemma fin_snoc : forall a c, fin (a ++ [c]) = char_is_alnum c.
Proof. intros a c. unfold fin, ends_with_p. now rewrite rev_unit. Qed.
Lemma follow_part : forall s, may_follow PART_SEP s <-> part_chars 0 0 false s = Ok tt.
Proof.
  intros s. unfold may_follow. split.
  - intros [t H]. apply comps_iff in H as (c & r & E & _ & H). injection E as <- <-. apply part_states in H as [H _]. now apply part_chars_app in H.
  - intros H. exists $"a". apply comps_iff. exists (ch "a"), (s ++ $"a"). split; [reflexivity|]. split; [reflexivity|]. apply part_states. split; [now apply part_chars_snoc|]. right. apply (fin_snoc s (ch "a")).
Qed.
Lemma al_class : forall c, in_cls [LOWER; DIGIT] c <-> char_is_alnum c = true.
Proof. intros c. rewrite <- in_clsb_iff. unfold char_is_alnum. replace (in_clsb [LOWER; DIGIT] c) with (is_lower c || is_digit c) by kls. reflexivity. Qed.
Lemma sep_or : forall c, char_is_alnum c = true \/ in_cls SEP_CHAR c \/ (char_is_alnum c = false /\ ~ in_cls SEP_CHAR c).
Proof. intros c. rewrite <- in_clsb_iff. destruct (char_is_alnum c); [auto|]. destruct (in_clsb SEP_CHAR c); auto. Qed.
Lemma sep_not_al : forall c, in_cls SEP_CHAR c -> char_is_alnum c = false.
Proof. intros c H. apply in_clsb_iff in H. unfold char_is_alnum. revert H. unfold SEP_CHAR, in_clsb, one, rng. cbn [existsb fst snd]. cls. lia. Qed.
Lemma part_char_or : forall s c, part_chars 0 0 false s = Ok tt -> In c s -> char_is_alnum c = true \/ in_cls SEP_CHAR c.
Proof.
  intros s c H I. destruct (sep_or c) as [A|[A|[A B]]]; [auto..|]. exfalso. apply in_split in I as (a & b & ->). pose proof (part_chars_app _ _ _ _ _ H) as H'.
  replace (a ++ c :: b) with ((a ++ [c]) ++ b) in H by (now rewrite <- app_assoc). apply part_chars_app in H. destruct (part_chars_snoc a 0 0 false c H') as (_ & X & _). rewrite X in H by assumption. discriminate.
Qed.
Lemma part_errors : forall s e, validate_part s = Err e <-> part_fails s e.
Proof.
  intros s e. unfold validate_part, part_fails. rewrite bind_err, part_chars_err. split.
  - intros [(a & c & b & -> & A & C)|([] & H & X)].
    + left. exists a, c, b. split; [reflexivity|]. split; [now apply follow_part|]. destruct (part_chars_snoc _ _ _ _ c A) as (S1 & S2 & S3). rewrite al_class.
      destruct (sep_or c) as [K|[K|[K K']]].
      * rewrite S1 in C by exact K. discriminate.
      * pose proof (sep_not_al _ K) as K'. split; [congruence|]. left. split; [exact K|]. rewrite follow_part. destruct (S3 K) as [Q|Q]; rewrite Q in C; [discriminate|]. injection C as <-. split; [congruence|reflexivity].
      * split; [congruence|]. right. rewrite S2 in C by assumption. injection C as <-. auto.
    + right. split; [now apply follow_part|]. destruct s as [|c r]; [injection X as <-; auto|]. right. cbn [starts_with_p] in X. destruct (char_is_alnum c) eqn:A; cbn [negb] in X.
      * right. exists c, r. rewrite al_class. split; [reflexivity|]. split; [exact A|]. destruct (ends_with_p char_is_alnum (c :: r)) eqn:Q; cbn [negb] in X; [discriminate|]. injection X as <-. split; [|reflexivity].
        destruct (exists_last (l := c :: r)) as (a & z & E); [discriminate|]. exists a, z. split; [exact E|]. destruct (part_char_or _ z H) as [K|K]; [rewrite E; apply in_app_iff; right; now left| |exact K].
        rewrite E in Q. fold (fin (a ++ [z])) in Q. rewrite fin_snoc in Q. congruence.
      * left. exists c, r. injection X as <-. repeat split. destruct (part_char_or _ c H) as [K|K]; [now left|congruence|exact K].
  - intros [(a & c & b & -> & A & NC & H)|(H & X)].
    + left. exists a, c, b. apply follow_part in A. split; [reflexivity|]. split; [exact A|]. destruct (part_chars_snoc _ _ _ _ c A) as (S1 & S2 & S3). rewrite al_class in NC.
      destruct H as [(K & F & ->)|(K & ->)].
      * rewrite follow_part in F. destruct (S3 K) as [Q|Q]; [contradiction|exact Q].
      * apply S2; [now destruct (char_is_alnum c)|exact K].
    + right. exists tt. apply follow_part in H. split; [exact H|]. destruct X as [[-> ->]|[(c & r & -> & K & ->)|(c & r & -> & K & (a & z & E & F) & ->)]]; [reflexivity| |].
      * cbn [starts_with_p]. now rewrite (sep_not_al _ K).
      * cbn [starts_with_p]. apply al_class in K. rewrite K. cbn [negb]. rewrite E. fold (fin (a ++ [z])). now rewrite fin_snoc, (sep_not_al _ F).
Qed.
Lemma parts_errors : forall l e, validate_parts l = Err e <-> first_failing (matches PART_RE) part_fails l e.
Proof.
  intros l e. assert (X : (exists u, validate_parts l = Ok u) <-> (exists u, collect validate_part l = Ok u)). { induction l as [|x l IH]; cbn; [split; eauto|]. destruct (validate_part x); cbn; [|split; intros [? H]; discriminate H]. rewrite IH. destruct (collect validate_part l); cbn; split; intros [? H]; try discriminate; eauto. }
  assert (Y : validate_parts l = Err e <-> collect validate_part l = Err e). { clear X. induction l as [|x l IH]; cbn; [split; discriminate|]. destruct (validate_part x); cbn; [|split; intros H; injection H as ->; reflexivity]. rewrite IH. destruct (collect validate_part l); cbn; split; intros H; try discriminate; injection H as ->; reflexivity. }
  rewrite Y, collect_err. apply failing_iff; [|apply part_errors]. intros x. rewrite is_unit. apply validate_part_ok.
Qed.
Theorem image_name_errors : forall s e, iname_new s = Err e <-> iname_fails s e.
Proof.
  intros s e. unfold iname_new, iname_fails.
  assert (SP : exists first rest, split (ch "/") s = first :: rest) by (destruct (split (ch "/") s) as [|f r] eqn:Q; [now apply split_nonempty in Q|eauto]).
  destruct SP as (first & rest & SP). rewrite SP. pose proof (proj1 (split_iff _ _ _) SP) as (_ & P & J).
  assert (U : forall f r, s = join $"/" (f :: r) -> Forall (fun p => ~ In (ch "/") p) (f :: r) -> f = first /\ r = rest).
  { intros f r E F. assert (Q : split (ch "/") s = f :: r) by (apply split_iff; repeat split; [discriminate|exact F|now symmetry]). rewrite SP in Q. injection Q as -> ->. auto. }
  assert (V : forall x z, (_ <- validate_part (fst (x : str * option N)) ;; _ <- validate_parts rest ;; Ok z) = @Err name_error iname e <-> first_failing (matches PART_RE) part_fails (fst x :: rest) e).
  { intros x z. rewrite <- parts_errors. cbn [validate_parts]. destruct (validate_part (fst x)) as [[]|]; cbn [bind]; [|split; intros H; injection H as ->; reflexivity]. destruct (validate_parts rest); cbn [bind]; split; intros H; try discriminate; injection H as ->; reflexivity. }
  destruct (contains (ch ".") first) eqn:D; [destruct (split_once_case (ch ":") first) as [[N E]|(h & p & E & N & E')]|].
  - rewrite E. cbn [bind]. rewrite V. cbn [fst]. split.
    + intros H. exists first, rest. split; [now symmetry|]. split; [exact P|]. right. right. split; [tauto|exact H].
    + intros (f & r & X & Y & H). destruct (U _ _ X Y) as [-> ->]. destruct H as [(h & p & i & _ & Q & _)|[(h & p & n & _ & Q & _)|[_ H]]]; [now apply not_cut with (a := h) (b := p) in N..|exact H].
  - rewrite E'. apply contains_In in D. destruct (parse_u16 p) as [n|i] eqn:PP; cbn [bind].
    + rewrite V. cbn [fst]. apply uint_read in PP; [|lia]. split.
      * intros H. exists first, rest. split; [now symmetry|]. split; [exact P|]. right. left. exists h, p, n. auto 6.
      * intros (f & r & X & Y & H). destruct (U _ _ X Y) as [-> ->]. destruct H as [(h' & p' & i & _ & Q & M & F & _)|[(h' & p' & n' & _ & Q & M & _ & H)|[X' H]]].
        -- exfalso. rewrite E in Q. destruct (cut_fun _ _ _ _ _ Q N M) as [<- <-]. apply uint_err in F; [|lia]. apply uint_read in PP; [|lia]. congruence.
        -- rewrite E in Q. destruct (cut_fun _ _ _ _ _ Q N M) as [<- <-]. exact H.
        -- exfalso. apply X'. split; [exact D|]. rewrite E. apply in_app_iff. right. now left.
    + apply uint_err in PP; [|lia]. split.
      * intros H. injection H as <-. exists first, rest. split; [now symmetry|]. split; [exact P|]. left. exists h, p, i. auto 6.
      * intros (f & r & X & Y & H). destruct (U _ _ X Y) as [-> ->]. apply uint_err in PP; [|lia]. destruct H as [(h' & p' & i' & _ & Q & M & F & ->)|[(h' & p' & n' & _ & Q & M & F & H)|[X' H]]].
        -- rewrite E in Q. destruct (cut_fun _ _ _ _ _ Q N M) as [<- <-]. apply uint_err in F; [|lia]. congruence.
        -- exfalso. rewrite E in Q. destruct (cut_fun _ _ _ _ _ Q N M) as [<- <-]. apply uint_read in F; [|lia]. congruence.
        -- exfalso. apply X'. split; [exact D|]. rewrite E. apply in_app_iff. right. now left.
  - cbn [bind]. rewrite V. cbn [fst]. apply contains_not_In in D. split.
    + intros H. exists first, rest. split; [now symmetry|]. split; [exact P|]. right. right. split; [tauto|exact H].
    + intros (f & r & X & Y & H). destruct (U _ _ X Y) as [-> ->]. destruct H as [(h & p & i & I & _)|[(h & p & n & I & _)|[_ H]]]; [contradiction..|exact H].
Qed.
Print Assumptions image_name_errors.

Lemma alg_sep_cls : forall c, alg_sep c = in_clsb ALGORITHM_SEP c. Proof. intros c. unfold alg_sep, ALGORITHM_SEP. kls. Qed.
Lemma algorithm_chars_snoc : forall a n c, n <= 1 -> algorithm_chars n a = Ok tt ->
  algorithm_chars n (a ++ [c]) =
    if char_is_alnum c then Ok tt else if alg_sep c then
      (if (match rev a with [] => n =? 1 | x :: _ => alg_sep x end) then Err DEAlgorithmSeparators else Ok tt)
    else Err (DEAlgorithmCharacter c).
Proof.
  induction a as [|x a IH]; intros n c L H.
  - cbn [app algorithm_chars rev]. unfold char_is_alnum, alg_sep. destruct (is_lower c || is_digit c); [reflexivity|].
    destruct ((c =? ch "+") || (c =? ch ".") || (c =? ch "_") || (c =? ch "-")); [|reflexivity]. destruct (N.eqb_spec n 1) as [->|N]; [reflexivity|]. replace (n + 1 <=? 1) with true by lia. reflexivity.
  - cbn [app algorithm_chars] in H |- *.
    assert (R : match rev (x :: a) with [] => n =? 1 | y :: _ => alg_sep y end = match rev a with [] => alg_sep x | y :: _ => alg_sep y end).
    { cbn [rev]. destruct (rev a) as [|y t]; reflexivity. }
    rewrite R. clear R.
    destruct (is_lower x || is_digit x) eqn:A.
    + rewrite IH by (exact H || lia). assert (Z : alg_sep x = false) by (revert A; unfold alg_sep; cls; lia). rewrite Z. now destruct (rev a).
    + destruct ((x =? ch "+") || (x =? ch ".") || (x =? ch "_") || (x =? ch "-")) eqn:S; [|discriminate]. destruct (n + 1 <=? 1) eqn:Q; [|discriminate].
      rewrite IH by (exact H || lia). assert (n = 0) as -> by lia. assert (Z : alg_sep x = true) by exact S. rewrite Z. now destruct (rev a).
Qed.
Lemma algorithm_chars_app : forall a b n, algorithm_chars n (a ++ b) = Ok tt -> algorithm_chars n a = Ok tt.
Proof.
  induction a as [|x a IH]; intros b n H; [reflexivity|]. cbn [app algorithm_chars] in H |- *. destruct (is_lower x || is_digit x); [now apply IH in H|].
  destruct (_ || _); [|discriminate]. destruct (_ <=? _); [now apply IH in H|discriminate].
Qed.
Lemma algorithm_chars_err : forall s n e, algorithm_chars n s = Err e <-> exists a c b, s = a ++ c :: b /\ algorithm_chars n a = Ok tt /\ algorithm_chars n (a ++ [c]) = Err e.
Proof.
  intros s n e. split.
  - revert n. induction s as [|x s IH]; intros n H; [discriminate|]. cbn [algorithm_chars] in H.
    destruct (is_lower x || is_digit x) eqn:A.
    { apply IH in H as (a & c & b & -> & X & Y). exists (x :: a), c, b. cbn [app algorithm_chars]. rewrite A. auto. }
    destruct ((x =? ch "+") || (x =? ch ".") || (x =? ch "_") || (x =? ch "-")) eqn:S; [destruct (n + 1 <=? 1) eqn:Q|].
    { apply IH in H as (a & c & b & -> & X & Y). exists (x :: a), c, b. cbn [app algorithm_chars]. rewrite A, S, Q. auto. }
    all: exists [], x, s; cbn [app algorithm_chars]; rewrite ?A, ?S, ?Q; auto.
  - intros (a & c & b & -> & A & C). revert n A C. induction a as [|x a IH]; intros n A C; cbn [app algorithm_chars] in *.
    + destruct (is_lower c || is_digit c); [discriminate|]. destruct (_ || _); [|exact C]. destruct (_ <=? _); [discriminate|exact C].
    + destruct (is_lower x || is_digit x); [now apply IH|]. destruct (_ || _); [|discriminate]. destruct (_ <=? _); [now apply IH|discriminate].
Qed.
Lemma follow_algorithm : forall s, may_follow (Cls ALGORITHM_SEP) s <-> algorithm_chars 0 s = Ok tt.
Proof.
  intros s. unfold may_follow. change (Cls ALGORITHM_SEP) with ALG_SEP. split.
  - intros [t H]. apply comps_iff in H as (c & r & E & _ & H). injection E as <- <-. apply alg_states in H as [H _]. now apply algorithm_chars_app in H.
  - intros H. exists $"a". apply comps_iff. exists (ch "a"), (s ++ $"a"). split; [reflexivity|]. split; [reflexivity|]. apply alg_states.
    split; [|right; apply (fin_snoc s (ch "a"))]. change ($"a") with [ch "a"]. rewrite algorithm_chars_snoc by (exact H || lia). reflexivity.
Qed.
Lemma alg_ends : forall a, match rev a with [] => false | x :: _ => alg_sep x end = true <-> ends a ALGORITHM_SEP.
Proof.
  intros a. unfold ends. destruct a as [|x a _] using rev_ind.
  - split; [discriminate|]. intros (b & c & E & _). destruct b; discriminate.
  - rewrite rev_unit, alg_sep_cls, in_clsb_iff. split; [eauto|]. intros (b & c & E & H). apply app_inj_tail in E as [_ ->]. exact H.
Qed.
Lemma alg_not_al : forall c, in_cls ALGORITHM_SEP c -> char_is_alnum c = false.
Proof. intros c H. apply in_clsb_iff in H. rewrite <- alg_sep_cls in H. revert H. unfold alg_sep, char_is_alnum. cls. lia. Qed.
Lemma encode_cls : forall c, encode_char c = in_clsb ENCODED_CHAR c. Proof. intros c. unfold encode_char, ENCODED_CHAR. kls. Qed.
Theorem digest_errors : forall s e, digest_new s = Err e <-> digest_fails s e.
Proof.
  intros s e. unfold digest_new, digest_fails. destruct (split_once_case (ch ":") s) as [[N ->]|(alg & enc & -> & N & ->)].
  - split; [intros H; injection H as <-; auto|]. intros [[_ ->]|(a & b & -> & _)]; [reflexivity|]. now apply not_cut with (a := a) (b := b) in N.
  - rewrite bind_err, algorithm_chars_err. split.
    + intros H. right. exists alg, enc. split; [reflexivity|]. split; [exact N|]. cbv zeta.
      destruct H as [(a & c & b & E & A & C)|([] & A & H)].
      * left. exists a, c, b. split; [exact E|]. split; [now apply follow_algorithm|]. rewrite algorithm_chars_snoc in C by (exact A || lia). rewrite al_class. destruct (char_is_alnum c) eqn:K; [discriminate|]. split; [discriminate|].
        destruct (alg_sep c) eqn:S; [left|right].
        -- rewrite alg_sep_cls in S. apply in_clsb_iff in S. split; [exact S|]. change (0 =? 1) with false in C. rewrite <- alg_ends. destruct (match rev a with [] => false | x :: _ => alg_sep x end); [|discriminate]. injection C as <-. auto.
        -- rewrite alg_sep_cls in S. apply in_clsb_false in S. injection C as <-. auto.
      * right. apply bind_err in H as [H|([] & F & H)].
        -- left. apply (chars_err _ _ _ _ _ encode_cls) in H as (c & H & ->). exists c. split; [now apply follow_algorithm|auto].
        -- right. split; [now apply follow_algorithm|]. apply (chars_ok _ _ _ _ encode_cls) in F. split; [exact F|]. destruct alg as [|c r] eqn:Q; [injection H as <-; auto|].
           rewrite <- Q in *. assert (I : forall z, In z alg -> char_is_alnum z = true \/ in_cls ALGORITHM_SEP z). { intros z I. destruct (algorithm_In _ _ _ A I) as [K|K]; [now left|right]. rewrite alg_sep_cls in K. now apply in_clsb_iff. }
           rewrite Q in H at 1. cbn [starts_with_p] in H. destruct (char_is_alnum c) eqn:K; cbn [negb] in H.
           ++ fold (fin alg) in H. destruct (fin alg) eqn:FI; cbn [negb] in H.
              ** right. right. right. destruct enc; [|discriminate]. injection H as <-. split; [|auto]. apply algorithm_iff. split; [exact A|]. split; [now rewrite Q|]. split; [now rewrite Q|exact FI].
              ** right. right. left. injection H as <-. exists c, r. rewrite al_class. split; [exact Q|]. split; [exact K|]. split; [|reflexivity]. destruct (exists_last (l := alg)) as (a & z & E); [now rewrite Q|].
                 exists a, z. rewrite E in FI, I. split; [congruence|]. rewrite fin_snoc in FI. destruct (I z) as [X|X]; [apply in_app_iff; right; now left|congruence|exact X].
           ++ right. left. injection H as <-. exists c, r. split; [exact Q|]. split; [|reflexivity]. destruct (I c) as [X|X]; [rewrite Q; now left|congruence|exact X].
    + intros [[X _]|(alg' & enc' & E & M & H)]; [elim X; apply in_app_iff; right; now left|]. destruct (cut_fun _ _ _ _ _ E N M) as [<- <-]. clear E M. cbv zeta in H.
      destruct H as [(a & c & b & -> & A & K & H)|[(c & A & F & ->)|(A & F & H)]].
      * left. exists a, c, b. apply follow_algorithm in A. split; [reflexivity|]. split; [exact A|]. rewrite algorithm_chars_snoc by (exact A || lia). rewrite al_class in K. destruct (char_is_alnum c); [now elim K|].
        rewrite alg_sep_cls. destruct H as [(S & EN & ->)|(S & ->)].
        -- apply in_clsb_iff in S. rewrite S. change (0 =? 1) with false. apply alg_ends in EN. now rewrite EN.
        -- apply in_clsb_false in S. now rewrite S.
      * right. exists tt. apply follow_algorithm in A. split; [exact A|]. apply bind_err. left. apply (chars_err _ _ _ _ _ encode_cls). eauto.
      * right. exists tt. apply follow_algorithm in A. split; [exact A|]. apply bind_err. right. exists tt. split; [now apply (chars_ok _ _ _ _ encode_cls)|].
        destruct H as [[-> ->]|[(c & r & -> & S & ->)|[(c & r & -> & K & (a & z & E & S) & ->)|(R & -> & ->)]]].
        -- reflexivity.
        -- cbn [starts_with_p]. now rewrite (alg_not_al _ S).
        -- cbn [starts_with_p]. apply al_class in K. rewrite K. cbn [negb]. fold (fin (c :: r)). now rewrite E, fin_snoc, (alg_not_al _ S).
        -- apply algorithm_iff in R as (_ & NE & S & FI). destruct alg as [|c r]; [now elim NE|]. rewrite S. fold (fin (c :: r)). now rewrite FI.
Qed.
Print Assumptions digest_errors.

Lemma tag_cut : forall s, exists n t, cut_tag s n t /\
  match rsplit_once (ch ":") s with Some (i, t) => if contains (ch "/") t then None else Some (i, t) | None => None end = option_map (fun t => (n, t)) t /\ (t = None -> n = s).
Proof.
  intros s. destruct (rsplit_once (ch ":") s) as [[i t]|] eqn:R.
  - apply rsplit_once_some in R as [-> N]. destruct (contains (ch "/") t) eqn:C.
    + apply contains_In in C. exists (i ++ ch ":" :: t), None. repeat split. constructor. intros a t' E N'.
      assert (X : rsplit_once (ch ":") (i ++ ch ":" :: t) = Some (a, t')) by (apply rsplit_once_some; auto). rewrite rsplit_once_app in X by exact N. injection X as <- <-. exact C.
    + apply contains_not_In in C. exists i, (Some t). split; [now apply (ct_some i t)|]. split; [reflexivity|discriminate].
  - apply rsplit_once_none in R. exists s, None. repeat split. constructor. intros a t E _. now apply not_cut with (a := a) (b := t) in R.
Qed.
Lemma cut_tag_fun : forall s n t n' t', cut_tag s n t -> cut_tag s n' t' -> n = n' /\ t = t'.
Proof.
  intros s n t n' t' H H'. destruct H as [s H|s t C S]; inversion H' as [s' K|s' t'' C' S' E]; subst.
  - auto.
  - exfalso. exact (S' (H _ _ eq_refl C')).
  - exfalso. exact (S (K _ _ eq_refl C)).
  - assert (X : rsplit_once (ch ":") (s ++ $":" ++ t) = Some (n', t'')) by (apply rsplit_once_some; auto). change ($":" ++ t) with (ch ":" :: t) in X. rewrite rsplit_once_app in X by exact C. injection X as -> ->. auto.
Qed.
Lemma cut_digest_fun : forall s n t n' t', cut_digest s n t -> cut_digest s n' t' -> n = n' /\ t = t'.
Proof.
  intros s n t n' t' H H'. destruct H as [s H|s t H]; inversion H' as [s' K|s' t'' K E]; subst.
  - auto.
  - exfalso. apply H. apply in_app_iff. right. apply in_eq.
  - exfalso. apply K. apply in_app_iff. right. apply in_eq.
  - destruct (cut_fun (ch "@") s t n' t'') as [-> ->]; [symmetry; assumption|assumption..|auto].
Qed.
Lemma digest_oks : forall s, (exists x, digest_new s = Ok x) <-> is_digest s.
Proof. intros s. split; [intros [x H]; now apply digest_new_ok in H|intros H; exists s; now apply digest_new_ok]. Qed.
Lemma tag_oks : forall s, (exists x, tag_new s = Ok x) <-> is_tag s.
Proof. intros s. split; [intros [x H]; now apply tag_new_ok in H|intros H; exists s; now apply tag_new_ok]. Qed.
(** The digest is checked before the tag, both before the name. *)
Theorem image_errors : forall s e, image_parse s = Err e <-> image_fails s e.
Proof.
  intros s e. unfold image_parse. transitivity (image_parse_impl s = Err e); [rewrite bind_err; split; [intros [H|(x & _ & X)]; [exact H|discriminate]|auto]|].
  unfold image_parse_impl, image_fails.
  assert (D : exists b d, cut_digest s b d /\ split_once (ch "@") s = option_map (fun x => (b, x)) d /\ (d = None -> b = s)).
  { destruct (split_once_case (ch "@") s) as [[N ->]|(b & d & -> & N & ->)]; [exists s, None; repeat split; now constructor|]. exists b, (Some d). split; [now apply (cd_some b d)|]. split; [reflexivity|discriminate]. }
  destruct D as (b & d & CD & DE & DN). destruct (tag_cut b) as (n & t & CT & TE & TN). rewrite DE.
  assert (U : forall P : str -> option str -> str -> option str -> Prop, (exists b d n t, cut_digest s b d /\ cut_tag b n t /\ P b d n t) <-> P b d n t).
  { intros P. split; [|intros H; exists b, d, n, t; auto]. intros (b' & d' & n' & t' & X & Y & H). destruct (cut_digest_fun _ _ _ _ _ CD X) as [<- <-]. destruct (cut_tag_fun _ _ _ _ _ CT Y) as [<- <-]. exact H. }
  rewrite (U (fun b d n t => (exists x i, d = Some x /\ digest_fails x i /\ e = IEDigest i) \/
     (exists x i, (forall y, d = Some y -> is_digest y) /\ t = Some x /\ tag_fails x i /\ e = IETag i) \/
     (exists x y, d = Some x /\ t = Some y /\ is_digest x /\ is_tag y /\ e = IETagAndDigest) \/
     (exists i, (forall y, d = Some y -> is_digest y /\ t = None) /\ (forall y, t = Some y -> is_tag y /\ d = None) /\ iname_fails n i /\ e = IEName i))). clear U.
  assert (NAME : forall z, match iname_new n with Ok name => Ok (n_registry_end name, z : option tod_start) | Err e => Err (IEName e) end = Err e <-> exists i, iname_fails n i /\ e = IEName i).
  { intros z. split.
    - destruct (iname_new n) as [m|i] eqn:I; [discriminate|]. intros H. injection H as <-. exists i. split; [now apply image_name_errors|reflexivity].
    - intros (i & I & ->). apply image_name_errors in I. now rewrite I. }
  destruct d as [x|]; cbn [option_map]; [destruct (digest_new x) as [dx|i] eqn:DX|].
  - assert (ID : is_digest x) by (apply digest_oks; eauto). cbn [bind]. rewrite TE. destruct t as [y|]; cbn [option_map]; [destruct (tag_new y) as [ty|i] eqn:TY|].
    + assert (IT : is_tag y) by (apply tag_oks; eauto). cbn [bind]. split; [intros H; injection H as <-; right; right; left; exists x, y; auto 6|].
      intros [(x' & i & E & F & _)|[(y' & i & _ & E & F & _)|[(x' & y' & _ & _ & _ & _ & ->)|(i & F & _)]]].
      * exfalso. injection E as <-. apply digest_errors in F. congruence.
      * exfalso. injection E as <-. apply tag_errors in F. congruence.
      * reflexivity.
      * exfalso. destruct (F x eq_refl). discriminate.
    + apply tag_errors in TY. split.
      * cbn [bind]. intros H. injection H as <-. right. left. exists y, i. split; [intros y' E; injection E as <-; exact ID|auto].
      * apply tag_errors in TY. intros [(x' & i' & E & F & _)|[(y' & i' & _ & E & F & ->)|[(x' & y' & _ & E & _ & F & ->)|(i' & F & _)]]].
        -- exfalso. injection E as <-. apply digest_errors in F. congruence.
        -- injection E as <-. apply tag_errors in F. cbn [bind]. congruence.
        -- exfalso. injection E as <-. apply tag_oks in F as [? F]. congruence.
        -- exfalso. destruct (F x eq_refl). discriminate.
    + cbn [bind]. rewrite (TN eq_refl) in NAME. rewrite NAME. rewrite (TN eq_refl). split.
      * intros (i & F & ->). right. right. right. exists i. split; [intros z E; injection E as <-; auto|]. split; [discriminate|auto].
      * intros [(x' & i & E & F & _)|[(y' & i & _ & E & _)|[(x' & y' & _ & E & _)|(i & _ & _ & F)]]]; [|discriminate..|eauto]. exfalso. injection E as <-. apply digest_errors in F. congruence.
  - split; [intros H; injection H as <-; left; exists x, i; apply digest_errors in DX; auto|].
    intros [(x' & i' & E & F & ->)|[(y' & i' & E & _)|[(x' & y' & E & _ & F & _)|(i' & F & _)]]].
    + injection E as <-. apply digest_errors in F. cbn [bind]. congruence.
    + exfalso. specialize (E x eq_refl). apply digest_oks in E as [? E]. congruence.
    + exfalso. injection E as <-. apply digest_oks in F as [? F]. congruence.
    + exfalso. destruct (F x eq_refl) as [E _]. apply digest_oks in E as [? E]. congruence.
  - cbn [bind]. rewrite (DN eq_refl) in *. rewrite TE. destruct t as [y|]; cbn [option_map]; [destruct (tag_new y) as [ty|i] eqn:TY|].
    + assert (IT : is_tag y) by (apply tag_oks; eauto). cbn [bind]. rewrite NAME. split.
      * intros (i & F & ->). right. right. right. exists i. split; [discriminate|]. split; [intros z E; injection E as <-; auto|auto].
      * intros [(x' & i & E & F & _)|[(y' & i & _ & E & F & _)|[(x' & y' & E & _)|(i & _ & _ & F)]]]; [discriminate| |discriminate|eauto]. exfalso. injection E as <-. apply tag_errors in F. congruence.
    + split.
      * cbn [bind]. intros H. injection H as <-. apply tag_errors in TY. right. left. exists y, i. split; [discriminate|auto].
      * intros [(x' & i' & E & F & _)|[(y' & i' & _ & E & F & ->)|[(x' & y' & E & _)|(i' & _ & F & _)]]]; [discriminate| |discriminate|].
        -- injection E as <-. apply tag_errors in F. cbn [bind]. congruence.
        -- exfalso. destruct (F y eq_refl) as [E _]. apply tag_oks in E as [? E]. congruence.
    + cbn [bind]. rewrite (TN eq_refl) in *. rewrite NAME. split.
      * intros (i & F & ->). right. right. right. exists i. split; [discriminate|]. split; [discriminate|auto].
      * intros [(x' & i & E & F & _)|[(y' & i & _ & E & F & _)|[(x' & y' & E & _)|(i & _ & _ & F)]]]; [discriminate..|eauto].
Qed.
Print Assumptions image_errors.
Example image_errors_used : image_parse $"A/b:c?@x" = Err (IEDigest DEMissingAlgorithm) /\ image_parse $"A/b:c?" = Err (IETag (TECharacter (ch "?"))) /\ image_parse $"a:b@c:d" = Err IETagAndDigest /\
  image_parse $"a.b:x/c" = Err (IEName (NERegistryPort IntInvalidDigit $"x")) /\ image_parse $"a/b_" = Err (IEName NEEnd) /\ image_parse $"a/b_.c" = Err (IEName NEMultipleSeparators) /\
  image_parse $"a@b..c:d" = Err (IEDigest DEAlgorithmSeparators).
Proof. repeat split. Qed.

(** ** Networks and ports *)

Fixpoint hexes (n : nat) (l : list str) : result mac_error (list N) :=
  match n, l with
  | O, [] => Ok []
  | O, _ => Err MacLength
  | S n, [] => Err MacLength
  | S n, v :: r => x <- map_err (fun e => MacInt e v) (parse_uint_radix 16 U8_MAX v) ;; xs <- hexes n r ;; Ok (x :: xs)
  end.
Lemma mac_hexes : forall s, mac_parse s = hexes 6 (split (ch ":") s).
Proof.
  intros s. unfold mac_parse. generalize (split (ch ":") s). intros l.
  do 6 (destruct l as [|? l]; cbn [parse_next_hex hexes bind snd fst]; [reflexivity|]; match goal with |- context [parse_uint_radix 16 U8_MAX ?v] => destruct (parse_uint_radix 16 U8_MAX v); cbn [map_err bind snd fst]; [|reflexivity] end).
  destruct l; reflexivity.
Qed.
Lemma hexes_err : forall n l e, hexes n l = Err e <->
  let reads p := exists n, reads_uint 16 255 p n in
    ((exists a p b i, l = a ++ p :: b /\ (List.length a < n)%nat /\ Forall reads a /\ uint_fails 16 255 p i /\ e = MacInt i p) \/
     ((List.length l < n)%nat /\ Forall reads l /\ e = MacLength) \/
     ((List.length l > n)%nat /\ Forall reads (firstn n l) /\ e = MacLength)).
Proof.
  induction n as [|n IH]; intros l e; cbv zeta.
  - destruct l as [|v r]; cbn [hexes List.length firstn].
    + split; [discriminate|]. intros [(a & p & b & i & _ & L & _)|[(L & _)|(L & _)]]; lia.
    + split; [intros H; injection H as <-; right; right; repeat split; [lia|constructor]|]. intros [(a & p & b & i & _ & L & _)|[(L & _)|(_ & _ & ->)]]; [lia|lia|reflexivity].
  - destruct l as [|v r]; cbn [hexes List.length firstn].
    + split; [intros H; injection H as <-; right; left; repeat split; [lia|constructor]|]. intros [(a & p & b & i & E & _)|[(_ & _ & ->)|(L & _)]]; [destruct a; discriminate|reflexivity|lia].
    + rewrite bind_err, map_err_err. split.
      * intros [(i & H & ->)|(x & H & H')].
        -- left. exists [], v, r, i. repeat split; [cbn; lia|constructor|]. apply uint_err in H; [exact H|lia].
        -- destruct (parse_uint_radix 16 U8_MAX v) as [y|i] eqn:P; [|discriminate]. apply uint_read in P; [|lia]. assert (R : exists n, reads_uint 16 255 v n) by (exists y; exact P).
           apply bind_err in H' as [H'|(xs & _ & X)]; [|discriminate]. apply IH in H' as [(a & p & b & i & -> & L & F & U & ->)|[(L & F & ->)|(L & F & ->)]].
           ++ left. exists (v :: a), p, b, i. repeat split; [cbn; lia|now constructor|exact U].
           ++ right. left. repeat split; [lia|now constructor].
           ++ right. right. repeat split; [lia|now constructor].
      * assert (GO : (exists n, reads_uint 16 255 v n) -> hexes n r = Err e -> exists x, map_err (fun e => MacInt e v) (parse_uint_radix 16 U8_MAX v) = Ok x /\ (xs <- hexes n r ;; Ok (x :: xs)) = Err e).
        { intros [x X] H. apply uint_read in X; [|lia]. exists x. change U8_MAX with 255. rewrite X. split; [reflexivity|]. rewrite H. reflexivity. }
        intros [(a & p & b & i & E & L & F & U & ->)|[(L & F & ->)|(L & F & ->)]].
        -- destruct a as [|w a].
           ++ injection E as <- <-. left. exists i. split; [|reflexivity]. apply uint_err; [lia|exact U].
           ++ injection E as <- ->. inversion F; subst. right. apply GO; [assumption|]. apply IH. left. exists a, p, b, i. cbn [List.length] in L. repeat split; auto. lia.
        -- inversion F; subst. right. apply GO; [assumption|]. apply IH. right. left. repeat split; auto. lia.
        -- inversion F; subst. right. apply GO; [assumption|]. apply IH. right. right. repeat split; auto. lia.
Qed.
Theorem mac_errors : forall s e, mac_parse s = Err e <-> mac_fails s e.
Proof.
  intros s e. rewrite mac_hexes, hexes_err. unfold mac_fails. split.
  - intros H. exists (split (ch ":") s). split; [symmetry; apply split_join|]. split; [apply split_nonempty|]. split; [apply split_pieces|exact H].
  - intros (l & -> & NE & P & H). change ($":") with [ch ":"]. rewrite split_of_join by assumption. exact H.
Qed.
Print Assumptions mac_errors.
Example mac_errors_used : mac_parse $"0:1:2:3:4:g" = Err (MacInt IntInvalidDigit $"g") /\ mac_parse $"0:1:2:3:4" = Err MacLength /\ mac_parse $"0:1:2:3:4:5:zz" = Err MacLength /\ mac_parse $"0:100:2" = Err (MacInt IntPosOverflow $"100").
Proof. repeat split. Qed.

Lemma port_int_err : forall s e, parse_range_int s = Err e <-> exists i, uint_fails 10 U16_MAX s i /\ e = RangeInt i s.
Proof. intros s e. unfold parse_range_int, parse_u16, parse_uint. rewrite map_err_err. split; intros (i & H & ->); exists i; (split; [apply uint_err in H; [exact H|lia]|reflexivity]) || (split; [apply uint_err; [lia|exact H]|reflexivity]). Qed.
Lemma port_int_ok : forall s, (exists n, parse_range_int s = Ok n) <-> port_reads s.
Proof.
  intros s. unfold parse_range_int, parse_u16, parse_uint, port_reads. split.
  - intros [n H]. exists n. apply uint_read; [lia|]. destruct (parse_uint_radix 10 U16_MAX s); [injection H as ->; reflexivity|discriminate].
  - intros [n H]. exists n. apply uint_read in H; [|lia]. now rewrite H.
Qed.
Theorem range_text_errors : forall s e, range_parse s = Err e <-> range_fails s e.
Proof.
  intros s e. unfold range_parse, range_fails. destruct (split_once_case (ch "-") s) as [[N ->]|(a & b & -> & N & ->)].
  - rewrite bind_err, port_int_err. split.
    + intros [(i & H & ->)|(x & _ & X)]; [|discriminate]. left. exists i. auto.
    + intros [(i & _ & H & ->)|(a & b & i & -> & _)]; [left; eauto|]. now apply not_cut with (a := a) (b := b) in N.
  - rewrite bind_err, port_int_err. setoid_rewrite bind_err. setoid_rewrite port_int_err. split.
    + intros [(i & H & ->)|(x & X & [(i & H & ->)|(y & _ & Y)])]; [| |discriminate]; right; exists a, b, i; (split; [reflexivity|]); (split; [exact N|]); [auto|]. right. split; [apply port_int_ok; eauto|auto].
    + intros [(i & X & _)|(a' & b' & i & E & M & H)]; [elim X; apply in_app_iff; right; now left|]. destruct (cut_fun _ _ _ _ _ E N M) as [<- <-].
      destruct H as [(H & ->)|(R & H & ->)]; [left; eauto|right]. apply port_int_ok in R as [x R]. exists x. split; [exact R|]. left. eauto.
Qed.
Print Assumptions range_text_errors.
Lemma range_oks : forall s, (exists r, range_parse s = Ok r) <-> range_reads s.
Proof.
  intros s. unfold range_parse, range_reads. destruct (split_once_case (ch "-") s) as [[N ->]|(a & b & -> & N & ->)].
  - rewrite <- port_int_ok. split.
    + intros [r H]. left. apply bind_ok in H as (x & X & _). eauto.
    + intros [[x X]|(a & b & -> & _)]; [|now apply not_cut with (a := a) (b := b) in N]. rewrite X. cbn. eauto.
  - split.
    + intros [r H]. right. exists a, b. split; [reflexivity|]. apply bind_ok in H as (x & X & H). apply bind_ok in H as (y & Y & _). split; apply port_int_ok; eauto.
    + intros [[x X]|(a' & b' & E & A & B)].
      * exfalso. apply reads_no_minus in X. apply X. apply in_app_iff. right. now left.
      * assert (M : ~ In (ch "-") a'). { destruct A as [x X]. now apply reads_no_minus in X. }
        destruct (cut_fun _ _ _ _ _ E N M) as [<- <-]. apply port_int_ok in A as [x A]. apply port_int_ok in B as [y B]. rewrite A, B. cbn. eauto.
Qed.
Theorem expose_errors : forall s e, expose_parse s = Err e <-> expose_fails s e.
Proof.
  intros s e. unfold expose_parse, expose_fails. destruct (split_once_case (ch "/") s) as [[N ->]|(a & b & -> & N & ->)]; rewrite bind_err, range_text_errors.
  - split; [intros [H|(x & _ & X)]; [exists s; auto|discriminate]|]. intros (r & [->|[p ->]] & M & H); [auto|]. now apply not_cut with (a := r) (b := p) in N.
  - split; [intros [H|(x & _ & X)]; [exists a; split; [right; exists b; reflexivity|auto]|discriminate]|]. intros (r & X & M & H). destruct X as [X|[p E]]; [elim M; rewrite <- X; apply in_app_iff; right; now left|].
    destruct (cut_fun _ _ _ _ _ E N M) as [<- <-]. now left.
Qed.
Print Assumptions expose_errors.
Theorem short_ranges_errors : forall checks s e, short_ranges_parse checks s = OErr (SRRange e) <-> short_ranges_fails s e.
Proof.
  intros checks s e. unfold short_ranges_parse, short_ranges_fails. destruct (split_once_case (ch ":") s) as [[N ->]|(h & c & -> & N & ->)].
  - split.
    + intros H. left. split; [exact N|]. apply range_text_errors. destruct (range_parse s); cbn in H; [discriminate|]. injection H as ->. reflexivity.
    + intros [[_ H]|(h & c & -> & _)]; [|now apply not_cut with (a := h) (b := c) in N]. apply range_text_errors in H. now rewrite H.
  - split.
    + intros H. right. exists h, c. split; [reflexivity|]. split; [exact N|]. destruct h as [|x h].
      * right. split; [now left|]. cbn in H. apply range_text_errors. destruct (range_parse c) as [r|i]; cbn in H; [discriminate|]. now injection H as ->.
      * destruct (range_parse (x :: h)) as [r|i] eqn:R; cbn in H.
        -- right. split; [right; apply range_oks; eauto|]. apply range_text_errors. destruct (range_parse c) as [r'|i]; cbn in H; [|now injection H as ->]. destruct (short_ranges_new checks (Some r) r'); discriminate.
        -- left. injection H as ->. split; [discriminate|]. now apply range_text_errors.
    + intros [[X _]|(h' & c' & E & M & H)]; [elim X; apply in_app_iff; right; now left|]. destruct (cut_fun _ _ _ _ _ E N M) as [<- <-].
      destruct H as [[NE H]|[R H]]; apply range_text_errors in H.
      * destruct h as [|x h]; [now elim NE|]. now rewrite H.
      * destruct h as [|x h]; [cbn; now rewrite H|]. destruct R as [R|R]; [discriminate|]. apply range_oks in R as [r R]. rewrite R. cbn. now rewrite H.
Qed.
Print Assumptions short_ranges_errors.
Example range_text_errors_used : range_parse $"80-x" = Err (RangeInt IntInvalidDigit $"x") /\ expose_parse $"70000/tcp" = Err (RangeInt IntPosOverflow $"70000") /\ short_ranges_parse true $":-5" = OErr (SRRange (RangeInt IntEmpty [])).
Proof. repeat split. Qed.

(** ** Volumes *)

