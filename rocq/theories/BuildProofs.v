(** Lemmas for [PropsBuild]. *)

From Coq Require Import String Ascii List NArith Bool Lia ZifyBool ZifyN ZifyNat.
Import ListNotations.
From Verif Require Import Base BaseFacts Regex RegexFacts Coll CollFacts KeysModel KeysProofs ImageModel ImageSpec ImageLang ImageProofs
  ValuesProofs BuildModel.
Open Scope N_scope.

(** ** The characters of an image text *)

Definition image_char (c : char) : bool :=
  is_lower c || is_upper c || is_digit c
  || existsb (N.eqb c) [ch "."; ch "_"; ch "-"; ch "/"; ch ":"; ch "@"; ch "+"; ch "="].

Ltac chars := unfold image_char, in_clsb, char_is_alnum, is_alnum, is_alpha, is_lower, is_upper, is_digit, between in *;
  cbn [existsb fst snd LOWER UPPER DIGIT one rng] in *; unfold LOWER, UPPER, DIGIT, one, rng in *; cbn [fst snd] in *;
  change (ch ".") with 46 in *; change (ch "_") with 95 in *; change (ch "-") with 45 in *; change (ch "/") with 47 in *;
  change (ch ":") with 58 in *; change (ch "@") with 64 in *; change (ch "+") with 43 in *; change (ch "=") with 61 in *;
  change (ch "a") with 97 in *; change (ch "z") with 122 in *; change (ch "A") with 65 in *; change (ch "Z") with 90 in *;
  change (ch "0") with 48 in *; change (ch "9") with 57 in *; lia.

Lemma parts_image_char : forall s c, matches PARTS_RE s -> In c s -> image_char c = true.
Proof. intros s c H Hc. apply (matches_chars _ _ _ H) in Hc. cbn in Hc. chars. Qed.

Lemma name_image_char : forall s c, is_name s -> In c s -> image_char c = true.
Proof.
  intros s c [H|[host [port [rest [-> [H1 [_ [[H2 _] H3]]]]]]]] Hc; [eapply parts_image_char; eassumption|].
  apply in_app_or in Hc as [Hc|[<-|Hc]].
  - apply (matches_chars _ _ _ H1) in Hc. cbn in Hc. chars.
  - reflexivity.
  - change (In c (port ++ rest)) in Hc. apply in_app_or in Hc as [Hc|Hc].
    + apply (matches_chars _ _ _ H2) in Hc. cbn in Hc. chars.
    + destruct H3 as [->|[r [-> H3]]]; [destruct Hc|]. destruct Hc as [<-|Hc]; [reflexivity|].
      change (In c r) in Hc. eapply parts_image_char; eassumption.
Qed.

Lemma image_text : forall s i, image_parse s = Ok i -> i_inner i = s.
Proof. intros s i H. apply image_parse_ok in H as [n [x [-> [_ [_ [_ ->]]]]]]. reflexivity. Qed.

Lemma image_chars : forall s i, image_parse s = Ok i -> s <> [] /\ forall c, In c s -> image_char c = true.
Proof.
  intros s i H. split.
  - intros ->. vm_compute in H. discriminate.
  - apply image_parse_ok in H as [n [x [-> [Hn [Hx _]]]]]. intros c Hc. apply in_app_or in Hc as [Hc|Hc].
    + eapply name_image_char; eassumption.
    + destruct x as [|t|d]; cbn [suffix_text] in Hc.
      * destruct Hc.
      * destruct Hc as [<-|Hc]; [reflexivity|]. destruct Hx as [Hx _]. apply (matches_chars _ _ _ Hx) in Hc. cbn in Hc. chars.
      * destruct Hc as [<-|Hc]; [reflexivity|]. apply (matches_chars _ _ _ Hx) in Hc. cbn in Hc. chars.
Qed.

Lemma image_no_comma : forall s i, image_parse s = Ok i -> ~ In (ch ",") s.
Proof. intros s i H Hc. apply image_chars in H as [_ H]. apply H in Hc. discriminate Hc. Qed.

Lemma image_char_not_whitespace : forall c, image_char c = true -> is_whitespace c = false.
Proof. intros c H. unfold is_whitespace. chars. Qed.

Lemma image_option : forall s i, image_parse s = Ok i -> cache_option_new s = Ok s.
Proof.
  intros s i H. apply image_chars in H as [H1 H2]. apply cache_option_new_ok. repeat split; [exact H1|].
  intros c Hc. apply image_char_not_whitespace. auto.
Qed.

(** ** Options *)

Definition option_text (kv : str * str) : str := fst kv ++ $"=" ++ snd kv.

Definition is_option (s : str) : Prop := s <> [] /\ forall c, In c s -> is_whitespace c = false.

(** A pair that [parse_str] can produce from one option text. *)
Definition pair_ok (kv : str * str) : Prop :=
  is_option (fst kv) /\ is_option (snd kv) /\ ~ In (ch "=") (fst kv) /\ ~ In (ch ",") (fst kv) /\ ~ In (ch ",") (snd kv).

Lemma option_new_iff : forall s t, cache_option_new s = Ok t <-> t = s /\ is_option s.
Proof. exact cache_option_new_ok. Qed.

Lemma option_parse_ok : forall o k v, cache_option_parse o = Ok (k, v) <->
  o = option_text (k, v) /\ is_option k /\ is_option v /\ ~ In (ch "=") k.
Proof.
  intros o k v. unfold cache_option_parse, option_text. cbn [fst snd].
  assert (B : forall a b, (key <- map_err CeOption (cache_option_new a);; value <- map_err CeOption (cache_option_new b);; Ok (key, value))
     = Ok (k, v) <-> a = k /\ b = v /\ is_option k /\ is_option v).
  { intros a b. destruct (cache_option_new a) as [a'|e] eqn:Ea; cbn [map_err bind].
    - apply option_new_iff in Ea as [-> Ha]. destruct (cache_option_new b) as [b'|e] eqn:Eb; cbn [map_err bind].
      + apply option_new_iff in Eb as [-> Hb]. split; [intros E; injection E as -> ->; auto|intros [-> [-> _]]; reflexivity].
      + split; [discriminate|]. intros [-> [-> [_ H]]]. rewrite (proj2 (option_new_iff v v)) in Eb by auto. discriminate.
    - split; [discriminate|]. intros [-> [-> [H _]]]. rewrite (proj2 (option_new_iff k k)) in Ea by auto. discriminate. }
  destruct (split_once_case (ch "=") o) as [[N ->]|[a [b [-> [Na ->]]]]]; rewrite B.
  - split; [intros [_ [<- [_ [H _]]]]; congruence|]. intros [-> _]. exfalso. apply N. apply in_or_app. right. left. reflexivity.
  - split.
    + intros [<- [<- [H1 H2]]]. auto.
    + intros [E [H1 [H2 H3]]]. assert (X : split_once (ch "=") (a ++ ch "=" :: b) = Some (k, v)) by (apply split_once_some; auto).
      rewrite split_once_app in X by exact Na. injection X as -> ->. auto.
Qed.

Lemma options_parse_ok : forall os kvs, Forall (fun o => ~ In (ch ",") o) os ->
  (collect cache_option_parse os = Ok kvs <-> os = map option_text kvs /\ Forall pair_ok kvs).
Proof.
  intros os kvs Hc. rewrite collect_ok. revert kvs. induction Hc as [|o os Ho Hc IH]; intros kvs; split.
  - intros H. inversion H. subst. split; [reflexivity|constructor].
  - intros [H _]. destruct kvs; [constructor|discriminate].
  - intros H. inversion H as [|x y l l' H1 H2]. subst. destruct y as [k v]. apply option_parse_ok in H1 as [-> [A [B C]]].
    apply IH in H2 as [-> H2]. split; [reflexivity|]. constructor; [|exact H2].
    unfold pair_ok, option_text in *. cbn [fst snd] in *. split; [exact A|]. split; [exact B|]. split; [exact C|].
    split; intros X; apply Ho; apply in_or_app; [left; exact X|right; right; exact X].
  - intros [H1 H2]. destruct kvs as [|[k v] kvs]; [discriminate|]. injection H1 as -> ->. inversion H2 as [|x l H3 H4]. subst.
    constructor; [|apply IH; auto]. apply option_parse_ok. unfold pair_ok in H3. cbn [fst snd] in H3. tauto.
Qed.

Lemma pair_ok_text : forall kv, pair_ok kv -> ~ In (ch ",") (option_text kv).
Proof.
  intros [k v] [_ [_ [_ [H1 H2]]]]. unfold option_text. cbn [fst snd] in *. intros X. apply in_app_or in X as [X|[X|X]]; [auto|discriminate X|auto].
Qed.

Lemma concat_join : forall t kvs, t ++ concat (map (fun kv => $"," ++ fst kv ++ $"=" ++ snd kv) kvs) = join [ch ","] (t :: map option_text kvs).
Proof.
  intros t kvs. revert t. induction kvs as [|kv kvs IH]; intros t; [cbn [map concat join]; apply app_nil_r|].
  cbn [map concat]. change (join [ch ","] (t :: option_text kv :: map option_text kvs))
    with (t ++ [ch ","] ++ join [ch ","] (option_text kv :: map option_text kvs)).
  rewrite <- IH. unfold option_text. rewrite <- !app_assoc. reflexivity.
Qed.

(** ** shift_remove *)

Definition without (k : str) {V} (m : list (str * V)) : list (str * V) := filter (fun p => negb (str_eqb k (fst p))) m.

Lemma filter_all : forall {A} (f : A -> bool) l, forallb f l = true -> filter f l = l.
Proof.
  intros A f l. induction l as [|x l IH]; [reflexivity|]. cbn [forallb filter]. intros H. apply andb_true_iff in H as [-> H].
  rewrite IH by exact H. reflexivity.
Qed.

Lemma without_absent : forall k {V} (m : list (str * V)), ~ In k (map fst m) -> without k m = m.
Proof.
  intros k V m H. apply filter_all. apply forallb_forall. intros [j v] Hj. cbn [fst]. apply negb_true_iff.
  apply str_eqb_neq. intros <-. apply H. apply (in_map fst) in Hj. exact Hj.
Qed.

Lemma shift_remove_eq : forall {V} (m : list (str * V)) k, NoDup (map fst m) ->
  imap_shift_remove m k = (imap_get str_eqb m k, without k m).
Proof.
  intros V m k. induction m as [|[j v] m IH]; intros H; [reflexivity|]. cbn [map fst] in H. inversion H as [|x l H1 H2]. subst.
  cbn [imap_shift_remove imap_get]. unfold without. cbn [filter fst]. destruct (str_eqb_spec k j) as [->|Hn]; cbn [negb].
  - f_equal. symmetry. apply (without_absent j m H1).
  - rewrite IH by exact H2. reflexivity.
Qed.

Lemma without_NoDup : forall k {V} (m : list (str * V)), NoDup (map fst m) -> NoDup (map fst (without k m)).
Proof.
  intros k V m. unfold without. induction m as [|[j v] m IH]; intros H; [constructor|]. cbn [map fst] in H. inversion H as [|x l H1 H2]. subst.
  cbn [filter fst]. destruct (negb (str_eqb k j)); [|auto]. cbn [map fst]. constructor; [|auto].
  intros X. apply H1. apply in_map_iff in X as [p [<- Hp]]. apply filter_In in Hp as [Hp _]. apply in_map. exact Hp.
Qed.

Lemma without_In : forall k {V} (m : list (str * V)), ~ In k (map fst (without k m)).
Proof.
  intros k V m X. apply in_map_iff in X as [[j v] [E Hp]]. apply filter_In in Hp as [_ Hp]. cbn [fst] in *. subst j.
  rewrite str_eqb_refl in Hp. discriminate.
Qed.
