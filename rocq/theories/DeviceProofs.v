(** Lemmas about devices and cgroup rules. *)

From Coq Require Import String Ascii List NArith ZArith Bool Lia ZifyBool ZifyN ZifyNat.
Import ListNotations.
From Verif Require Import Base BaseFacts Num NumFacts Serde DeviceModel.
Open Scope N_scope.

Lemma is_absolute_iff : forall p, is_absolute p = true <-> exists r, p = ch "/" :: r.
Proof. intros p. unfold is_absolute. rewrite starts_with_iff. split; intros [r ->]; exists r; reflexivity. Qed.

Lemma absolute_path_new_ok : forall p q, absolute_path_new p = Ok q <-> q = p /\ is_absolute p = true.
Proof.
  intros p q. unfold absolute_path_new. destruct (is_absolute p); split; try discriminate.
  - intros H. injection H as <-. auto.
  - intros [-> _]. reflexivity.
  - intros [_ H]. discriminate.
Qed.

(** ** Three pieces *)

Lemma splitn3 : forall c s,
  (~ In c s /\ splitn 3 c s = [s]) \/
  (exists a b, s = a ++ c :: b /\ ~ In c a /\ ~ In c b /\ splitn 3 c s = [a; b]) \/
  (exists a b d, s = a ++ c :: b ++ c :: d /\ ~ In c a /\ ~ In c b /\ splitn 3 c s = [a; b; d]).
Proof.
  intros c s. cbn [splitn]. destruct (split_once_case c s) as [[Hn ->]|[a [b [-> [Hn ->]]]]].
  - left. auto.
  - right. destruct (split_once_case c b) as [[Hb ->]|[b' [d [-> [Hb ->]]]]].
    + left. exists a, b. auto.
    + right. exists a, b', d. auto.
Qed.

Lemma splitn3_two : forall c a b, ~ In c a -> ~ In c b -> splitn 3 c (a ++ c :: b) = [a; b].
Proof.
  intros c a b Ha Hb. cbn [splitn]. rewrite split_once_app by exact Ha. apply split_once_none in Hb. rewrite Hb. reflexivity.
Qed.

Lemma splitn3_three : forall c a b d, ~ In c a -> ~ In c b -> splitn 3 c (a ++ c :: b ++ c :: d) = [a; b; d].
Proof.
  intros c a b d Ha Hb. cbn [splitn]. rewrite split_once_app by exact Ha. rewrite split_once_app by exact Hb. reflexivity.
Qed.

(** ** Permissions *)

Definition perm_char (c : char) : bool := (c =? ch "r") || (c =? ch "w") || (c =? ch "m").

Lemma permissions_loop_ok : forall s p q, permissions_loop s p = Ok q <->
  forallb perm_char s = true /\
  q = mk_permissions (perm_read p || contains (ch "r") s) (perm_write p || contains (ch "w") s)
        (perm_mknod p || contains (ch "m") s).
Proof.
  induction s as [|c s IH]; intros p q; cbn [permissions_loop forallb].
  - destruct p as [a b d]. cbn. rewrite !orb_false_r. split; [intros H; injection H as <-; auto|intros [_ ->]; reflexivity].
  - unfold contains. cbn [existsb]. fold (contains (ch "r") s) (contains (ch "w") s) (contains (ch "m") s).
    unfold perm_char at 1.
    rewrite (N.eqb_sym (ch "r")), (N.eqb_sym (ch "w")), (N.eqb_sym (ch "m")).
    destruct (N.eqb_spec c (ch "r")) as [->|H1].
    { rewrite IH. cbn [perm_read perm_write perm_mknod]. change (ch "r" =? ch "w") with false. change (ch "r" =? ch "m") with false.
      cbn [orb andb]. rewrite !orb_true_r. reflexivity. }
    destruct (N.eqb_spec c (ch "w")) as [->|H2].
    { rewrite IH. cbn [perm_read perm_write perm_mknod]. change (ch "w" =? ch "m") with false.
      cbn [orb andb]. rewrite !orb_true_r. reflexivity. }
    destruct (N.eqb_spec c (ch "m")) as [->|H3].
    { rewrite IH. cbn [perm_read perm_write perm_mknod]. cbn [orb andb]. rewrite !orb_true_r. reflexivity. }
    cbn [orb andb]. split; [discriminate|intros [H _]; discriminate].
Qed.

Lemma permissions_parse_ok : forall s p, permissions_parse s = Ok p <->
  (forall c, In c s -> c = ch "r" \/ c = ch "w" \/ c = ch "m") /\
  (perm_read p = true <-> In (ch "r") s) /\ (perm_write p = true <-> In (ch "w") s) /\ (perm_mknod p = true <-> In (ch "m") s).
Proof.
  intros s p. unfold permissions_parse. rewrite permissions_loop_ok. cbn [perm_read perm_write perm_mknod orb].
  rewrite forallb_forall. rewrite <- !contains_In. split.
  - intros [H ->]. cbn [perm_read perm_write perm_mknod]. split; [|tauto].
    intros c Hc. apply H in Hc. unfold perm_char in Hc. lia.
  - intros [H [H1 [H2 H3]]]. split.
    + intros c Hc. apply H in Hc. unfold perm_char. lia.
    + destruct p as [a b d]. cbn [perm_read perm_write perm_mknod] in *. f_equal.
      * destruct a, (contains (ch "r") s); intuition congruence.
      * destruct b, (contains (ch "w") s); intuition congruence.
      * destruct d, (contains (ch "m") s); intuition congruence.
Qed.

Lemma permissions_round_trip : forall p, permissions_parse (permissions_show p) = Ok p.
Proof. intros [[] [] []]; reflexivity. Qed.

Lemma permissions_show_none : forall p, perm_any p = false -> permissions_parse [] = Ok p.
Proof. intros [[] [] []] H; try discriminate H. reflexivity. Qed.

Lemma permissions_show_chars : forall p c, perm_char c = false -> ~ In c (permissions_show p).
Proof.
  intros p c Hc. unfold perm_char in Hc. destruct p as [[] [] []]; cbn; intros H; repeat (destruct H as [H|H]; [subst c; discriminate Hc|]); exact H.
Qed.

(** ** Devices *)

Lemma device_parse_ok : forall s d, device_parse s = Ok d <->
  is_absolute (dev_container d) = true /\ ~ In (ch ":") (dev_host d) /\ ~ In (ch ":") (dev_container d) /\
  ((s = dev_host d ++ ch ":" :: dev_container d /\ perm_any (dev_permissions d) = false) \/
   exists p, s = dev_host d ++ ch ":" :: dev_container d ++ ch ":" :: p /\ permissions_parse p = Ok (dev_permissions d)).
Proof.
  intros s [h c p]. cbn [dev_host dev_container dev_permissions]. unfold device_parse. split.
  - destruct (splitn3 (ch ":") s) as [[_ ->]|[[a [b [-> [Ha [Hb ->]]]]]|[a [b [d [-> [Ha [Hb ->]]]]]]]]; [discriminate| |].
    + destruct (absolute_path_new b) as [b'|] eqn:E; cbn [map_err bind]; [|discriminate].
      apply absolute_path_new_ok in E as [-> Habs]. cbn. intros H. injection H as <- <- <-.
      split; [exact Habs|]. split; [exact Ha|]. split; [exact Hb|]. left. auto.
    + destruct (absolute_path_new b) as [b'|] eqn:E; cbn [map_err bind]; [|discriminate].
      apply absolute_path_new_ok in E as [-> Habs].
      destruct (permissions_parse d) as [q|] eqn:Ed; cbn [map_err bind]; [|discriminate].
      intros H. injection H as <- <- <-. split; [exact Habs|]. split; [exact Ha|]. split; [exact Hb|]. right. eauto.
  - intros [Habs [Hh [Hc [[-> Hp]|[t [-> Ht]]]]]].
    + rewrite splitn3_two by assumption. unfold absolute_path_new. rewrite Habs. cbn [map_err bind].
      rewrite permissions_show_none with (p := p) by exact Hp. reflexivity.
    + rewrite splitn3_three by assumption. unfold absolute_path_new. rewrite Habs. cbn [map_err bind]. rewrite Ht. reflexivity.
Qed.

Lemma device_round_trip : forall d, is_absolute (dev_container d) = true ->
  ~ In (ch ":") (dev_host d) -> ~ In (ch ":") (dev_container d) -> device_parse (device_show d) = Ok d.
Proof.
  intros d Habs Hh Hc. apply device_parse_ok. repeat (split; [assumption|]). unfold device_show.
  destruct (perm_any (dev_permissions d)) eqn:E.
  - right. exists (permissions_show (dev_permissions d)). split; [reflexivity|apply permissions_round_trip].
  - left. rewrite app_nil_r. auto.
Qed.

(** ** Cgroup rules *)

Lemma kind_parse_ok : forall s k, kind_parse s = Ok k <-> s = kind_show k.
Proof.
  intros s k. unfold kind_parse. destruct (str_eqb_spec s $"a") as [->|H1];
    [|destruct (str_eqb_spec s $"c") as [->|H2]; [|destruct (str_eqb_spec s $"b") as [->|H3]]]; destruct k; split; intros H;
    try discriminate H; try reflexivity; try contradiction.
Qed.

Lemma mm_parse_ok : forall s m, mm_parse s = Ok m <->
  match m with MMAll => s = [] \/ s = $"*" | MMInt n => parse_u16 s = Ok n end.
Proof.
  intros s m. unfold mm_parse. destruct s as [|c s].
  - destruct m; [intuition|]. split; discriminate.
  - destruct (str_eqb_spec (c :: s) $"*") as [E|E].
    + rewrite E. destruct m; [intuition|]. split; discriminate.
    + destruct m.
      * split; [destruct (parse_u16 (c :: s)); discriminate|]. intros [H|H]; [discriminate|contradiction].
      * destruct (parse_u16 (c :: s)); cbn; split; intros H; try discriminate; injection H as <-; reflexivity.
Qed.

Definition mm_u16 (m : mm_number) : Prop := match m with MMAll => True | MMInt n => n <= U16_MAX end.

Lemma mm_round_trip : forall m, mm_u16 m -> mm_parse (mm_show m) = Ok m.
Proof. intros [|n] H; apply mm_parse_ok; [right; reflexivity|apply parse_u16_show; exact H]. Qed.

Lemma mm_show_chars : forall m c, is_digit c = false -> c <> ch "*" -> ~ In c (mm_show m).
Proof.
  intros [|n] c Hd Hs; unfold mm_show; [intros [E|[]]; apply Hs; symmetry; exact E|apply show_N_not_In; exact Hd].
Qed.

Lemma kind_show_no_space : forall k, ~ In (ch " ") (kind_show k).
Proof. intros []; cbn; intuition discriminate. Qed.

Lemma cgroup_parse_ok : forall s r, cgroup_parse s = Ok r <->
  exists a b, ~ In (ch " ") a /\ ~ In (ch ":") a /\ ~ In (ch " ") b /\
    mm_parse a = Ok (cg_major r) /\ mm_parse b = Ok (cg_minor r) /\
    ((s = kind_show (cg_kind r) ++ ch " " :: a ++ ch ":" :: b /\ perm_any (cg_permissions r) = false) \/
     exists p, s = kind_show (cg_kind r) ++ ch " " :: (a ++ ch ":" :: b) ++ ch " " :: p /\
               permissions_parse p = Ok (cg_permissions r)).
Proof.
  intros s [k ma mi p]. cbn [cg_kind cg_major cg_minor cg_permissions]. unfold cgroup_parse. split.
  - destruct (splitn3 (ch " ") s) as [[_ ->]|[[x [y [-> [Hx [Hy ->]]]]]|[x [y [z [-> [Hx [Hy ->]]]]]]]].
    + destruct (kind_parse s); discriminate.
    + destruct (kind_parse x) as [k'|] eqn:Ek; cbn [map_err bind]; [|discriminate].
      apply kind_parse_ok in Ek. subst x.
      destruct (split_once_case (ch ":") y) as [[_ ->]|[a [b [-> [Ha ->]]]]]; [discriminate|].
      destruct (mm_parse a) as [ma'|] eqn:Ea; cbn [map_err bind]; [|discriminate].
      destruct (mm_parse b) as [mi'|] eqn:Eb; cbn [map_err bind]; [|discriminate].
      intros H. injection H as <- <- <- <-. exists a, b. rewrite in_app_iff in Hy. cbn [In] in Hy.
      repeat (split; [tauto|]). left. auto.
    + destruct (kind_parse x) as [k'|] eqn:Ek; cbn [map_err bind]; [|discriminate].
      apply kind_parse_ok in Ek. subst x.
      destruct (split_once_case (ch ":") y) as [[_ ->]|[a [b [-> [Ha ->]]]]]; [discriminate|].
      destruct (mm_parse a) as [ma'|] eqn:Ea; cbn [map_err bind]; [|discriminate].
      destruct (mm_parse b) as [mi'|] eqn:Eb; cbn [map_err bind]; [|discriminate].
      destruct (permissions_parse z) as [q|] eqn:Ez; cbn [map_err bind]; [|discriminate].
      intros H. injection H as <- <- <- <-. exists a, b. rewrite in_app_iff in Hy. cbn [In] in Hy.
      repeat (split; [tauto|]). right. exists z. auto.
  - intros [a [b [Ha [Hac [Hb [Ea [Eb H]]]]]]].
    assert (Hab : ~ In (ch " ") (a ++ ch ":" :: b)).
    { rewrite in_app_iff. intros [Hi|[Hi|Hi]]; [contradiction|discriminate|contradiction]. }
    assert (Ek : kind_parse (kind_show k) = Ok k) by (apply kind_parse_ok; reflexivity).
    destruct H as [[-> Hp]|[t [-> Ht]]].
    + rewrite splitn3_two by (try apply kind_show_no_space; assumption). rewrite Ek. cbn [map_err bind].
      rewrite split_once_app by exact Hac. rewrite Ea, Eb. cbn [map_err bind].
      rewrite permissions_show_none with (p := p) by exact Hp. reflexivity.
    + rewrite splitn3_three by (try apply kind_show_no_space; assumption). rewrite Ek. cbn [map_err bind].
      rewrite split_once_app by exact Hac. rewrite Ea, Eb. cbn [map_err bind]. rewrite Ht. reflexivity.
Qed.

Lemma cgroup_round_trip : forall r, mm_u16 (cg_major r) -> mm_u16 (cg_minor r) -> cgroup_parse (cgroup_show r) = Ok r.
Proof.
  intros r Ha Hb. apply cgroup_parse_ok. exists (mm_show (cg_major r)), (mm_show (cg_minor r)).
  repeat split; try (apply mm_show_chars; [reflexivity|discriminate]); try (apply mm_round_trip; assumption).
  unfold cgroup_show. destruct (perm_any (cg_permissions r)) eqn:E.
  - right. exists (permissions_show (cg_permissions r)). split; [|apply permissions_round_trip]. rewrite <- app_assoc. reflexivity.
  - left. rewrite app_nil_r. auto.
Qed.

Lemma cgroup_parse_u16 : forall s r, cgroup_parse s = Ok r -> mm_u16 (cg_major r) /\ mm_u16 (cg_minor r).
Proof.
  assert (M : forall s m, mm_parse s = Ok m -> mm_u16 m).
  { intros s [|n] H; [exact I|]. apply mm_parse_ok in H. eapply parse_uint_bound. exact H. }
  intros s r H. apply cgroup_parse_ok in H as [a [b [_ [_ [_ [H1 [H2 _]]]]]]]. eauto.
Qed.
