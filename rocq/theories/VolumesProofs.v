(** Lemmas about volumes. *)

From Coq Require Import String Ascii List NArith Bool Permutation.
Import ListNotations.
From Verif Require Import Base BaseFacts Regex KeysModel KeysSpec KeysProofs DeviceModel DeviceProofs PathModel PathProofs VolumesModel.
Open Scope N_scope.

Definition source_valid (s : source) : Prop :=
  match s with HostPath p => host_path_text p | NamedVolume id => matches IDENTIFIER_RE id end.

Lemma identifier_first : forall id, matches IDENTIFIER_RE id -> starts_with $"." id || is_absolute id = false.
Proof.
  intros id M. assert (H : identifier_new id = Ok id) by (apply identifier_new_ok; auto). destruct id as [|c r]; [discriminate H|].
  unfold is_absolute. unfold identifier_new in H.
  destruct (starts_with $"." (c :: r)) eqn:E1.
  { apply starts_with_iff in E1 as [r' E]. change (c :: r = ch "." :: r') in E. injection E as -> ->. discriminate H. }
  destruct (starts_with $"/" (c :: r)) eqn:E2; [|reflexivity].
  apply starts_with_iff in E2 as [r' E]. change (c :: r = ch "/" :: r') in E. injection E as -> ->. discriminate H.
Qed.

Lemma source_parse_ok : forall s x, source_parse s = Ok x <-> s = source_show x /\ source_valid x.
Proof.
  intros s x. unfold source_parse. split.
  - destruct (_ || _).
    + destruct (host_path_new s) as [p|] eqn:E; [|discriminate]. cbn. intros H. injection H as <-. apply host_path_new_ok in E as [-> E]. auto.
    + destruct (identifier_new s) as [p|] eqn:E; [|discriminate]. cbn. intros H. injection H as <-. apply identifier_new_ok in E as [-> E]. auto.
  - intros [-> V]. destruct x as [p|id]; cbn [source_show source_valid] in *.
    + rewrite host_path_first by exact V. rewrite (proj2 (host_path_new_ok p p)) by auto. reflexivity.
    + rewrite identifier_first by exact V. rewrite (proj2 (identifier_new_ok id id)) by auto. reflexivity.
Qed.

(** ** Options *)

(** The option list [os] is legal and gives the access mode and SELinux label [st]. *)
Definition options_meaning (os : list str) (st : option bool * option selinux) : Prop :=
  NoDup os /\ Forall (fun o => In o [$"rw"; $"ro"; $"z"; $"Z"]) os /\
  (fst st = Some false <-> In $"rw" os) /\ (fst st = Some true <-> In $"ro" os) /\
  (snd st = Some Shared <-> In $"z" os) /\ (snd st = Some Private <-> In $"Z" os).

Lemma options_meaning_fun : forall os st st', options_meaning os st -> options_meaning os st' -> st = st'.
Proof.
  intros os [r s] [r' s'] [_ [_ [A [B [C D]]]]] [_ [_ [A' [B' [C' D']]]]]. cbn [fst snd] in *. f_equal.
  - destruct r as [[|]|], r' as [[|]|]; try reflexivity; exfalso; intuition discriminate.
  - destruct s as [[|]|], s' as [[|]|]; try reflexivity; exfalso; intuition discriminate.
Qed.

Lemma options_meaning_perm : forall os os' st, Permutation os os' -> options_meaning os st -> options_meaning os' st.
Proof.
  intros os os' st P [N [F [A [B [C D]]]]].
  assert (I : forall x, In x os <-> In x os') by (intros x; split; apply Permutation_in; [exact P|apply Permutation_sym; exact P]).
  rewrite !I in *. split; [eapply Permutation_NoDup; eassumption|]. split; [|auto].
  eapply Permutation_Forall; eassumption.
Qed.

Lemma NoDup_snoc : forall {A} (l : list A) x, NoDup (l ++ [x]) <-> NoDup l /\ ~ In x l.
Proof.
  intros A l x. split.
  - intros H. pose proof (NoDup_remove_1 l [] x H) as H1. pose proof (NoDup_remove_2 l [] x H) as H2. rewrite app_nil_r in *. auto.
  - intros [H1 H2]. induction l as [|a l IH]; cbn [app].
    + repeat constructor. intros [].
    + inversion H1; subst. constructor; [|apply IH; [assumption|]; intros H; apply H2; right; exact H].
      rewrite in_app_iff. cbn [In]. intros [H|[->|[]]]; [contradiction|]. apply H2. left. reflexivity.
Qed.

Lemma volume_option_step : forall seen st o st', options_meaning seen st -> volume_option st o = Ok st' -> options_meaning (seen ++ [o]) st'.
Proof.
  intros seen [r s] o st' [N [F [A [B [C D]]]]] H. cbn [fst snd] in *. unfold volume_option in H. unfold options_meaning.
  rewrite NoDup_snoc, !in_app_iff. cbn [In].
  assert (F' : In o [$"rw"; $"ro"; $"z"; $"Z"] -> Forall (fun o => In o [$"rw"; $"ro"; $"z"; $"Z"]) (seen ++ [o])).
  { intros Hi. apply Forall_app. split; [exact F|]. constructor; [exact Hi|constructor]. }
  destruct (str_eqb_spec o $"rw") as [->|N1].
  { destruct r as [[|]|]; [discriminate|discriminate|]. injection H as <-. cbn [fst snd].
    split; [split; [exact N|]; intros Q; apply A in Q; discriminate|]. split; [apply F'; cbn; auto|].
    assert (E1 : $"rw" <> $"ro") by discriminate. assert (E2 : $"rw" <> $"z") by discriminate. assert (E3 : $"rw" <> $"Z") by discriminate.
    intuition congruence. }
  destruct (str_eqb_spec o $"ro") as [->|N2].
  { destruct r as [[|]|]; [discriminate|discriminate|]. injection H as <-. cbn [fst snd].
    split; [split; [exact N|]; intros Q; apply B in Q; discriminate|]. split; [apply F'; cbn; auto|].
    assert (E1 : $"ro" <> $"rw") by discriminate. assert (E2 : $"ro" <> $"z") by discriminate. assert (E3 : $"ro" <> $"Z") by discriminate.
    intuition congruence. }
  destruct (str_eqb_spec o $"z") as [->|N3].
  { destruct s as [[|]|]; [discriminate|discriminate|]. injection H as <-. cbn [fst snd].
    split; [split; [exact N|]; intros Q; apply C in Q; discriminate|]. split; [apply F'; cbn; auto|].
    assert (E1 : $"z" <> $"rw") by discriminate. assert (E2 : $"z" <> $"ro") by discriminate. assert (E3 : $"z" <> $"Z") by discriminate.
    intuition congruence. }
  destruct (str_eqb_spec o $"Z") as [->|N4]; [|discriminate].
  destruct s as [[|]|]; [discriminate|discriminate|]. injection H as <-. cbn [fst snd].
  split; [split; [exact N|]; intros Q; apply D in Q; discriminate|]. split; [apply F'; cbn; auto|].
  assert (E1 : $"Z" <> $"rw") by discriminate. assert (E2 : $"Z" <> $"ro") by discriminate. assert (E3 : $"Z" <> $"z") by discriminate.
  intuition congruence.
Qed.

Lemma volume_option_err : forall seen st o e r st', options_meaning seen st -> volume_option st o = Err e ->
  ~ options_meaning (seen ++ o :: r) st'.
Proof.
  intros seen [x s] o e r [x' s'] [N [F [A [B [C D]]]]] H [N' [F' [A' [B' [C' D']]]]]. cbn [fst snd] in *.
  assert (No : ~ In o seen). { apply NoDup_remove_2 in N'. intros Q. apply N'. apply in_or_app. auto. }
  assert (Io : In o (seen ++ o :: r)) by (apply in_or_app; right; left; reflexivity).
  assert (Is : forall y, In y seen -> In y (seen ++ o :: r)) by (intros y Q; apply in_or_app; auto).
  unfold volume_option in H.
  destruct (str_eqb_spec o $"rw") as [->|N1].
  { destruct x as [[|]|]; [| |discriminate]; [|apply No, A; reflexivity].
    apply A' in Io. assert (Q : In $"ro" seen) by (apply B; reflexivity). apply Is, B' in Q. congruence. }
  destruct (str_eqb_spec o $"ro") as [->|N2].
  { destruct x as [[|]|]; [| |discriminate]; [apply No, B; reflexivity|].
    apply B' in Io. assert (Q : In $"rw" seen) by (apply A; reflexivity). apply Is, A' in Q. congruence. }
  destruct (str_eqb_spec o $"z") as [->|N3].
  { destruct s as [[|]|]; [| |discriminate]; [apply No, C; reflexivity|].
    apply C' in Io. assert (Q : In $"Z" seen) by (apply D; reflexivity). apply Is, D' in Q. congruence. }
  destruct (str_eqb_spec o $"Z") as [->|N4].
  { destruct s as [[|]|]; [| |discriminate]; [|apply No, D; reflexivity].
    apply D' in Io. assert (Q : In $"z" seen) by (apply C; reflexivity). apply Is, C' in Q. congruence. }
  eapply Forall_forall in F'; [|exact Io]. cbn [In] in F'. intuition congruence.
Qed.

Lemma volume_options_loop_ok : forall os seen st st', options_meaning seen st ->
  (volume_options_loop st os = Ok st' <-> options_meaning (seen ++ os) st').
Proof.
  induction os as [|o os IH]; intros seen st st' R; cbn [volume_options_loop].
  - rewrite app_nil_r. split; [intros H; injection H as <-; exact R|]. intros R'. f_equal. eapply options_meaning_fun; eassumption.
  - destruct (volume_option st o) as [st1|e] eqn:E; cbn [bind].
    + rewrite (IH (seen ++ [o]) st1); [|eapply volume_option_step; eassumption]. rewrite <- app_assoc. reflexivity.
    + split; [discriminate|]. intros Q. exact (False_ind _ (volume_option_err _ _ _ _ _ _ R E Q)).
Qed.

Lemma volume_options_ok : forall os st, volume_options_loop (None, None) os = Ok st <-> options_meaning os st.
Proof.
  intros os st. apply (volume_options_loop_ok os []). unfold options_meaning. cbn.
  split; [constructor|]. split; [constructor|]. intuition discriminate.
Qed.

(** ** Short volumes *)

Lemma parse_container_path_ok : forall p q, parse_container_path p = Ok q <-> q = p /\ is_absolute p = true.
Proof.
  intros p q. unfold parse_container_path. rewrite <- absolute_path_new_ok. destruct (absolute_path_new p); cbn.
  - split; intros H; injection H as <-; reflexivity.
  - split; discriminate.
Qed.

Lemma short_volume_parse_ok : forall s v, short_volume_parse s = Ok v <->
  is_absolute (sv_container v) = true /\ ~ In (ch ":") (sv_container v) /\
  match sv_options v with
  | None => s = sv_container v
  | Some o => source_valid (so_source o) /\ ~ In (ch ":") (source_show (so_source o)) /\
      exists tail, s = source_show (so_source o) ++ $":" ++ sv_container v ++ tail /\
        ((tail = [] /\ so_read_only o = false /\ so_selinux o = None) \/
         exists opts st, tail = $":" ++ opts /\ options_meaning (split (ch ",") opts) st /\
           so_read_only o = match fst st with Some b => b | None => false end /\ so_selinux o = snd st)
  end.
Proof.
  intros s [c opt]. cbn [sv_container sv_options]. unfold short_volume_parse.
  destruct (splitn3 (ch ":") s) as [[Hn ->]|[[a [b [-> [Ha [Hb ->]]]]]|[a [b [d [-> [Ha [Hb ->]]]]]]]].
  - split.
    + destruct (parse_container_path s) as [p|] eqn:E; cbn [bind]; [|discriminate]. intros H. injection H as <- <-.
      apply parse_container_path_ok in E as [-> E]. auto.
    + intros [A [N H]]. destruct opt as [o|].
      * exfalso. destruct H as [_ [_ [t [-> _]]]]. apply Hn. apply in_or_app. right. left. reflexivity.
      * subst c. rewrite (proj2 (parse_container_path_ok s s)) by auto. reflexivity.
  - split.
    + destruct (source_parse a) as [x|] eqn:E1; cbn [bind map_err]; [|discriminate].
      destruct (parse_container_path b) as [p|] eqn:E2; cbn [bind]; [|discriminate]. intros H. injection H as <- <-.
      apply parse_container_path_ok in E2 as [-> E2]. apply source_parse_ok in E1 as [-> E1]. cbn [so_source so_read_only so_selinux].
      split; [exact E2|]. split; [exact Hb|]. split; [exact E1|]. split; [exact Ha|]. exists []. rewrite app_nil_r. split; [reflexivity|]. auto.
    + intros [A [N H]]. destruct opt as [[x ro se]|].
      * cbn [so_source so_read_only so_selinux] in H. destruct H as [V [Nx [tail [E H]]]].
        assert (S : splitn 3 (ch ":") (a ++ ch ":" :: b) = [a; b]) by (apply splitn3_two; assumption).
        rewrite E in S. destruct H as [[-> [-> ->]]|[opts [st [-> _]]]].
        -- rewrite app_nil_r in S. change ($":" ++ c) with (ch ":" :: c) in S. rewrite splitn3_two in S by assumption. injection S as <- <-.
           rewrite (proj2 (source_parse_ok (source_show x) x)) by auto. cbn [bind map_err].
           rewrite (proj2 (parse_container_path_ok c c)) by auto. reflexivity.
        -- change ($":" ++ c ++ $":" ++ opts) with (ch ":" :: c ++ ch ":" :: opts) in S. rewrite splitn3_three in S by assumption. discriminate S.
      * exfalso. subst c. apply N. apply in_or_app. right. left. reflexivity.
  - split.
    + destruct (source_parse a) as [x|] eqn:E1; cbn [bind map_err]; [|discriminate].
      destruct (parse_container_path b) as [p|] eqn:E2; cbn [bind]; [|discriminate].
      destruct (volume_options_loop (None, None) (split (ch ",") d)) as [st|] eqn:E3; cbn [bind]; [|discriminate].
      intros H. injection H as <- <-.
      apply parse_container_path_ok in E2 as [-> E2]. apply source_parse_ok in E1 as [-> E1]. apply volume_options_ok in E3.
      cbn [so_source so_read_only so_selinux].
      split; [exact E2|]. split; [exact Hb|]. split; [exact E1|]. split; [exact Ha|]. exists ($":" ++ d). split; [reflexivity|].
      right. exists d, st. auto.
    + intros [A [N H]]. destruct opt as [[x ro se]|].
      * cbn [so_source so_read_only so_selinux] in H. destruct H as [V [Nx [tail [E H]]]].
        assert (S : splitn 3 (ch ":") (a ++ ch ":" :: b ++ ch ":" :: d) = [a; b; d]) by (apply splitn3_three; assumption).
        rewrite E in S. destruct H as [[-> [-> ->]]|[opts [st [-> [O [-> ->]]]]]].
        -- rewrite app_nil_r in S. change ($":" ++ c) with (ch ":" :: c) in S. rewrite splitn3_two in S by assumption. discriminate S.
        -- change ($":" ++ c ++ $":" ++ opts) with (ch ":" :: c ++ ch ":" :: opts) in S. rewrite splitn3_three in S by assumption. injection S as <- <- <-.
           rewrite (proj2 (source_parse_ok (source_show x) x)) by auto. cbn [bind map_err].
           rewrite (proj2 (parse_container_path_ok c c)) by auto. cbn [bind].
           rewrite (proj2 (volume_options_ok _ st) O). reflexivity.
      * exfalso. subst c. apply N. apply in_or_app. right. left. reflexivity.
Qed.

Lemma identifier_no_colon : forall id, matches IDENTIFIER_RE id -> ~ In (ch ":") id.
Proof. intros id M. assert (H : identifier_new id = Ok id) by (apply identifier_new_ok; auto). eapply identifier_not_In; [exact H|reflexivity]. Qed.

Lemma short_volume_round_trip : forall v, is_absolute (sv_container v) = true -> ~ In (ch ":") (sv_container v) ->
  (forall o, sv_options v = Some o -> source_valid (so_source o) /\ (forall p, so_source o = HostPath p -> ~ In (ch ":") p)) ->
  short_volume_parse (short_volume_show v) = Ok v.
Proof.
  intros [c opt] A N H. cbn [sv_container sv_options] in *. apply short_volume_parse_ok. cbn [sv_container sv_options].
  split; [exact A|]. split; [exact N|]. destruct opt as [[x ro se]|]; [|reflexivity].
  destruct (H _ eq_refl) as [V P]. cbn [so_source so_read_only so_selinux] in *. split; [exact V|]. split.
  { destruct x as [p|id]; cbn [source_show]; [apply P; reflexivity|apply identifier_no_colon; exact V]. }
  unfold short_volume_show. cbn [sv_container sv_options so_source so_read_only so_selinux]. eexists. split; [reflexivity|].
  destruct ro, se as [[|]|]; cbn [orb].
  - right. eexists. exists (Some true, Some Shared). split; [reflexivity|]. split; [|auto]. apply volume_options_ok. reflexivity.
  - right. eexists. exists (Some true, Some Private). split; [reflexivity|]. split; [|auto]. apply volume_options_ok. reflexivity.
  - right. eexists. exists (Some true, None). split; [reflexivity|]. split; [|auto]. apply volume_options_ok. reflexivity.
  - right. eexists. exists (None, Some Shared). split; [reflexivity|]. split; [|auto]. apply volume_options_ok. reflexivity.
  - right. eexists. exists (None, Some Private). split; [reflexivity|]. split; [|auto]. apply volume_options_ok. reflexivity.
  - left. auto.
Qed.

(** ** Conversions *)

Lemma is_nil_true : forall {A} (l : list A), is_nil l = true -> l = [].
Proof. intros A [|x l]; [reflexivity|discriminate]. Qed.
Lemma is_none_true : forall {A} (o : option A), is_none o = true -> o = None.
Proof. intros A [x|]; [discriminate|reflexivity]. Qed.
