(** Lemmas about platforms. *)

From Coq Require Import String Ascii List NArith Bool.
Import ListNotations.
From Verif Require Import Base BaseFacts PlatformModel PlatformSpec.
Open Scope N_scope.

Lemma NoDup_map_inj : forall {A B} (f : A -> B) l x y, NoDup (map f l) -> In x l -> In y l -> f x = f y -> x = y.
Proof.
  intros A B f. induction l as [|a l IH]; cbn [map In]; intros x y N Hx Hy E; [contradiction|]. inversion N; subst.
  destruct Hx as [->|Hx], Hy as [->|Hy]; auto.
  - exfalso. apply H1. rewrite E. apply in_map. exact Hy.
  - exfalso. apply H1. rewrite <- E. apply in_map. exact Hx.
Qed.

(** ** Searching arms *)

Lemma first_value_ok : forall {A} dec (arms : list (A * str)) x s,
  (forall s1 s2, In (x, s1) arms -> In (x, s2) arms -> s1 = s2) ->
  first_value dec arms x = Some s <-> In (x, s) arms.
Proof.
  intros A dec arms x s U. unfold first_value. split.
  - destruct (find _ arms) as [[y s']|] eqn:E; [|discriminate]. cbn. intros H. injection H as <-.
    apply find_some in E as [Hi E]. cbn in E. destruct (dec y x); [subst; exact Hi|discriminate].
  - intros H. destruct (find _ arms) as [[y s']|] eqn:E.
    + cbn. apply find_some in E as [Hi E]. cbn in E. destruct (dec y x); [subst|discriminate]. f_equal. eapply U; eassumption.
    + exfalso. eapply find_none in E; [|exact H]. cbn in E. destruct (dec x x); [discriminate|congruence].
Qed.

Lemma first_text_ok : forall {A} (arms : list (A * str)) x s,
  (forall x1 x2, In (x1, s) arms -> In (x2, s) arms -> x1 = x2) ->
  first_text arms s = Ok x <-> In (x, s) arms.
Proof.
  intros A arms x s U. unfold first_text. split.
  - destruct (find _ arms) as [[y s']|] eqn:E; [|discriminate]. cbn [fst]. intros H. injection H as <-.
    apply find_some in E as [Hi E]. cbn in E. apply str_eqb_eq in E. subst. exact Hi.
  - intros H. destruct (find _ arms) as [[y s']|] eqn:E.
    + cbn [fst]. apply find_some in E as [Hi E]. cbn in E. apply str_eqb_eq in E. subst. f_equal. eapply U; eassumption.
    + exfalso. eapply find_none in E; [|exact H]. cbn in E. rewrite str_eqb_refl in E. discriminate.
Qed.

Lemma first_text_err : forall {A} (arms : list (A * str)) s e, first_text arms s = Err e -> e = s.
Proof. intros A arms s e. unfold first_text. destruct (find _ arms); [discriminate|]. intros H. injection H as <-. reflexivity. Qed.

(** ** Arms are the texts of the specification *)

Lemma str_arms_iff : forall it a s, In (a, s) (str_arms it) <-> arch_text it a s.
Proof.
  intros it a s. unfold str_arms. destruct (a_fields it) as [vs|] eqn:E; cbn [In].
  - rewrite in_map_iff. split.
    + intros [H|[v [H Hv]]].
      * injection H as <- <-. eapply at_none. exact E.
      * injection H as <- <-. eapply at_variant; eassumption.
    + intros H. inversion H; subst; [congruence|left; reflexivity|]. right. exists v. split; [reflexivity|]. congruence.
  - split.
    + intros [H|[]]. injection H as <- <-. apply at_unit. exact E.
    + intros H. inversion H; subst; [left; reflexivity| |]; congruence.
Qed.

Section Table.
Variable t : table.
Hypothesis T : table_ok t.

Lemma map_get_some : forall n it, map_get t n = Some it <-> In it (t_arch t) /\ a_name it = n.
Proof.
  intros n it. unfold map_get. split.
  - intros H. apply find_some in H as [Hi E]. apply in_rev in Hi. destruct (str_dec (a_name it) n); [auto|discriminate].
  - intros [Hi <-]. destruct (find _ (rev (t_arch t))) as [x|] eqn:E.
    + apply find_some in E as [Hx E]. apply in_rev in Hx. destruct (str_dec (a_name x) (a_name it)) as [Q|]; [|discriminate].
      f_equal. eapply NoDup_map_inj; [apply (ok_arch_name _ T)| | |]; eassumption.
    + exfalso. apply in_rev in Hi. eapply find_none in E; [|exact Hi]. cbn in E. destruct (str_dec (a_name it) (a_name it)); [discriminate|congruence].
Qed.

Lemma os_arch_arms_iff : forall o a s, In (a, s) (os_arch_arms t o) <-> os_arch_text t o a s.
Proof.
  intros o a s. unfold os_arch_arms, os_arch_text. rewrite in_flat_map. split.
  - intros [n [Hn H]]. destruct (map_get t n) as [it|] eqn:E; [|contradiction]. apply map_get_some in E as [Hi <-].
    exists it. rewrite <- str_arms_iff. auto.
  - intros [it [Hi [Hn H]]]. exists (a_name it). split; [exact Hn|].
    rewrite (proj2 (map_get_some (a_name it) it)) by auto. apply str_arms_iff. exact H.
Qed.

Lemma arch_arms_iff : forall a s, In (a, s) (arch_arms t) <-> exists it, In it (t_arch t) /\ arch_text it a s.
Proof. intros a s. unfold arch_arms. rewrite in_flat_map. split; intros [it [Hi H]]; exists it; split; try assumption; apply str_arms_iff; exact H. Qed.

Lemma platform_arms_iff : forall p s, In (p, s) (platform_arms t) <-> platform_text t p s.
Proof.
  intros p s. unfold platform_arms. rewrite in_flat_map. split.
  - intros [o [Ho H]]. unfold platform_item_arms in H. destruct H as [H|H].
    + injection H as <- <-. apply pt_os. exact Ho.
    + apply in_map_iff in H as [[a x] [H Hi]]. injection H as <- <-. cbn [fst snd]. apply pt_arch; [exact Ho|].
      apply os_arch_arms_iff. exact Hi.
  - intros H. inversion H as [o Ho|o a x Ho Hx]; subst; exists o; split; try assumption; unfold platform_item_arms.
    + left. reflexivity.
    + right. apply in_map_iff. exists (a, x). split; [reflexivity|]. apply os_arch_arms_iff. exact Hx.
Qed.

(** ** Texts are unique *)

Lemma slash_inj : forall a b a' b', ~ In (ch "/") a -> ~ In (ch "/") a' -> a ++ $"/" ++ b = a' ++ $"/" ++ b' -> a = a' /\ b = b'.
Proof.
  intros a b a' b' Ha Ha' E. assert (S : split_once (ch "/") (a ++ $"/" ++ b) = Some (a', b')) by (rewrite E; apply split_once_app; exact Ha').
  change (split_once (ch "/") (a ++ ch "/" :: b) = Some (a', b')) in S. rewrite split_once_app in S by exact Ha.
  injection S as <- <-. auto.
Qed.

Lemma slash_neq : forall a a' b, ~ In (ch "/") a -> a <> a' ++ $"/" ++ b.
Proof. intros a a' b Ha ->. apply Ha. apply in_or_app. right. left. reflexivity. Qed.

Lemma arch_text_head : forall it a s, arch_text it a s -> In it (t_arch t) ->
  s = a_name it \/ exists r, s = a_name it ++ $"/" ++ r.
Proof. intros it a s H Hi. inversion H; subst; eauto. Qed.

Lemma arch_text_item : forall it it' a a' s, In it (t_arch t) -> In it' (t_arch t) -> arch_text it a s -> arch_text it' a' s -> it = it'.
Proof.
  intros it it' a a' s Hi Hi' H H'. pose proof (ok_arch_slash _ T _ Hi). pose proof (ok_arch_slash _ T _ Hi').
  assert (E : a_name it = a_name it').
  { destruct (arch_text_head _ _ _ H Hi) as [->|[r ->]], (arch_text_head _ _ _ H' Hi') as [E|[r' E]].
    - exact E.
    - exfalso. revert E. apply slash_neq. assumption.
    - exfalso. symmetry in E. revert E. apply slash_neq. assumption.
    - apply slash_inj in E; tauto. }
  eapply NoDup_map_inj; [apply (ok_arch_name _ T)| | |]; eassumption.
Qed.

Lemma arch_text_fun : forall it a s s', In it (t_arch t) -> arch_text it a s -> arch_text it a s' -> s = s'.
Proof.
  intros it a s s' Hi H H'. inversion H; subst; inversion H'; subst; try congruence.
  assert (vs0 = vs) by congruence. subst vs0. destruct (ok_variant _ T _ _ Hi H0) as [N _].
  assert (v0 = v) by (eapply NoDup_map_inj; [exact N| | |]; eassumption). subst. reflexivity.
Qed.

Lemma arch_text_inj : forall it a a' s, In it (t_arch t) -> arch_text it a s -> arch_text it a' s -> a = a'.
Proof.
  intros it a a' s Hi H H'. pose proof (ok_arch_slash _ T _ Hi) as S.
  inversion H as [F E1 E2|vs F E1 E2|vs v F V E1 E2]; inversion H' as [F' E1' E2'|vs' F' E1' E2'|vs' v' F' V' E1' E2'];
    subst; try congruence.
  - exfalso. symmetry in E2'. revert E2'. apply slash_neq. exact S.
  - exfalso. revert E2'. apply slash_neq. exact S.
  - apply slash_inj in E2' as [_ E]; try exact S. assert (vs' = vs) by congruence. subst vs'.
    destruct (ok_variant _ T _ _ Hi F) as [_ N].
    assert (v' = v) by (eapply NoDup_map_inj; [exact N| | |]; eassumption). subst. reflexivity.
Qed.

Definition arch_id (a : arch) : str := match a with AUnit i | AVar i _ => i end.
Lemma arch_text_id : forall it a s, arch_text it a s -> arch_id a = a_ident it.
Proof. intros it a s H. inversion H; reflexivity. Qed.

Lemma arch_texts_fun : forall it it' a s s', In it (t_arch t) -> In it' (t_arch t) -> arch_text it a s -> arch_text it' a s' -> s = s'.
Proof.
  intros it it' a s s' Hi Hi' H H'. assert (it = it').
  { eapply NoDup_map_inj; [apply (ok_arch_ident _ T)|exact Hi|exact Hi'|]. apply arch_text_id in H, H'. congruence. }
  subst it'. eapply arch_text_fun; eassumption.
Qed.
Lemma arch_texts_inj : forall it it' a a' s, In it (t_arch t) -> In it' (t_arch t) -> arch_text it a s -> arch_text it' a' s -> a = a'.
Proof. intros it it' a a' s Hi Hi' H H'. assert (it = it') by (eapply arch_text_item; eassumption). subst it'. eapply arch_text_inj; eassumption. Qed.

Lemma platform_text_fun : forall p s s', platform_text t p s -> platform_text t p s' -> s = s'.
Proof.
  intros p s s' H H'. inversion H as [o Ho|o a x Ho Hx]; subst; inversion H' as [o' Ho'|o' a' x' Ho' Hx']; subst.
  - f_equal. eapply NoDup_map_inj; [apply (ok_os_ident _ T)| | |]; try eassumption. congruence.
  - assert (o = o') by (eapply NoDup_map_inj; [apply (ok_os_ident _ T)| | |]; try eassumption; congruence). subst o'.
    destruct Hx as [it [Hi [_ Hx]]], Hx' as [it' [Hi' [_ Hx']]]. do 2 f_equal. eapply arch_texts_fun; [exact Hi|exact Hi'|exact Hx|exact Hx'].
Qed.

Lemma platform_text_inj : forall p p' s, platform_text t p s -> platform_text t p' s -> p = p'.
Proof.
  intros p p' s H H'. inversion H as [o Ho|o a x Ho Hx]; subst; inversion H' as [o' Ho'|o' a' x' Ho' Hx']; subst.
  - do 2 f_equal. eapply NoDup_map_inj; [apply (ok_os_name _ T)| | |]; try eassumption. congruence.
  - exfalso. match goal with E : _ ++ _ = _ |- _ => symmetry in E; revert E end. apply slash_neq. apply (ok_os_slash _ T). assumption.
  - exfalso. match goal with E : _ = _ ++ _ |- _ => revert E end. apply slash_neq. apply (ok_os_slash _ T). assumption.
  - match goal with E : _ ++ _ = _ |- _ => apply slash_inj in E as [E1 E2] end; try (apply (ok_os_slash _ T); assumption). subst x'.
    assert (o' = o) by (eapply NoDup_map_inj; [apply (ok_os_name _ T)| | |]; eassumption). subst o'.
    destruct Hx as [it [Hi [_ Hx]]], Hx' as [it' [Hi' [_ Hx']]]. do 2 f_equal. eapply arch_texts_inj; [exact Hi|exact Hi'|exact Hx|exact Hx'].
Qed.

(** ** The generated functions *)

Lemma platform_as_str_ok : forall p s, platform_as_str t p = Some s <-> platform_text t p s.
Proof.
  intros p s. unfold platform_as_str. rewrite first_value_ok; [apply platform_arms_iff|].
  intros s1 s2 H1 H2. apply platform_arms_iff in H1, H2. eapply platform_text_fun; eassumption.
Qed.
Lemma platform_parse_ok : forall s p, platform_parse t s = Ok p <-> platform_text t p s.
Proof.
  intros s p. unfold platform_parse. rewrite first_text_ok; [apply platform_arms_iff|].
  intros x1 x2 H1 H2. apply platform_arms_iff in H1, H2. eapply platform_text_inj; eassumption.
Qed.
Lemma arch_as_str_ok : forall a s, arch_as_str t a = Some s <-> exists it, In it (t_arch t) /\ arch_text it a s.
Proof.
  intros a s. unfold arch_as_str. rewrite first_value_ok; [apply arch_arms_iff|].
  intros s1 s2 H1 H2. apply arch_arms_iff in H1 as [i1 [I1 H1]], H2 as [i2 [I2 H2]]. eapply (arch_texts_fun i1 i2); eassumption.
Qed.
Lemma arch_parse_ok : forall s a, arch_parse t s = Ok a <-> exists it, In it (t_arch t) /\ arch_text it a s.
Proof.
  intros s a. unfold arch_parse. rewrite first_text_ok; [apply arch_arms_iff|].
  intros x1 x2 H1 H2. apply arch_arms_iff in H1 as [i1 [I1 H1]], H2 as [i2 [I2 H2]]. eapply (arch_texts_inj i1 i2); eassumption.
Qed.
Lemma os_arch_as_str_ok : forall o a s, os_arch_as_str t o a = Some s <-> os_arch_text t o a s.
Proof.
  intros o a s. unfold os_arch_as_str. rewrite first_value_ok; [apply os_arch_arms_iff|].
  intros s1 s2 H1 H2. apply os_arch_arms_iff in H1 as [i1 [I1 [_ H1]]], H2 as [i2 [I2 [_ H2]]]. eapply (arch_texts_fun i1 i2); eassumption.
Qed.
Lemma os_arch_parse_ok : forall o s a, os_arch_parse t o s = Ok a <-> os_arch_text t o a s.
Proof.
  intros o s a. unfold os_arch_parse. rewrite first_text_ok; [apply os_arch_arms_iff|].
  intros x1 x2 H1 H2. apply os_arch_arms_iff in H1 as [i1 [I1 [_ H1]]], H2 as [i2 [I2 [_ H2]]]. eapply (arch_texts_inj i1 i2); eassumption.
Qed.
Lemma os_as_str_ok : forall i s, os_as_str t i = Some s <-> exists o, In o (t_os t) /\ o_ident o = i /\ o_name o = s.
Proof.
  intros i s. unfold os_as_str, os_arms. rewrite first_value_ok.
  - rewrite in_map_iff. split; intros [o H]; exists o.
    + destruct H as [H Ho]. injection H as <- <-. auto.
    + destruct H as [Ho [<- <-]]. auto.
  - intros s1 s2 H1 H2. apply in_map_iff in H1 as [o1 [E1 I1]], H2 as [o2 [E2 I2]]. injection E1 as E1 <-. injection E2 as E2 <-.
    f_equal. eapply NoDup_map_inj; [apply (ok_os_ident _ T)| | |]; try eassumption. congruence.
Qed.
Lemma os_parse_ok : forall s i, os_parse t s = Ok i <-> exists o, In o (t_os t) /\ o_ident o = i /\ o_name o = s.
Proof.
  intros s i. unfold os_parse, os_arms. rewrite first_text_ok.
  - rewrite in_map_iff. split; intros [o H]; exists o.
    + destruct H as [H Ho]. injection H as <- <-. auto.
    + destruct H as [Ho [<- <-]]. auto.
  - intros s1 s2 H1 H2. apply in_map_iff in H1 as [o1 [E1 I1]], H2 as [o2 [E2 I2]]. injection E1 as <- E1. injection E2 as <- E2.
    f_equal. eapply NoDup_map_inj; [apply (ok_os_name _ T)| | |]; try eassumption. congruence.
Qed.

Lemma platform_typed_text : forall p, platform_typed t p <-> exists s, platform_text t p s.
Proof.
  intros [i a]. unfold platform_typed. cbn [p_os p_arch]. split.
  - intros [o [Ho [-> H]]]. destruct a as [a|].
    + destruct H as [s H]. eexists. apply pt_arch; eassumption.
    + eexists. apply pt_os. exact Ho.
  - intros [s H]. inversion H; subst; exists o; eauto.
Qed.

Lemma os_arch_try_from_ok : forall o a a', In o (t_os t) -> (exists it s, In it (t_arch t) /\ arch_text it a s) ->
  os_arch_try_from t o a = Ok a' <-> a' = a /\ exists s, os_arch_text t o a s.
Proof.
  intros o a a' Ho [it [s [Hi H]]]. unfold os_arch_try_from. set (arm := fun n => _).
  assert (A : existsb arm (o_arch o) = true <-> In (a_name it) (o_arch o)).
  { rewrite existsb_exists. split.
    - intros [n [Hn E]]. unfold arm in E. destruct (map_get t n) as [it'|] eqn:G; [|discriminate]. apply map_get_some in G as [Hi' <-].
      replace it with it'; [exact Hn|]. eapply NoDup_map_inj; [apply (ok_arch_ident _ T)| | |]; try eassumption.
      inversion H; subst; destruct (a_fields it'); try discriminate E; destruct (str_dec (a_ident it) (a_ident it')); congruence.
    - intros Hn. exists (a_name it). split; [exact Hn|]. unfold arm. rewrite (proj2 (map_get_some (a_name it) it)) by auto.
      inversion H; subst; rewrite H0; destruct (str_dec (a_ident it) (a_ident it)); congruence. }
  destruct (existsb arm (o_arch o)).
  - split; [intros E; injection E as <-|intros [-> _]; reflexivity]. split; [reflexivity|]. exists s, it. tauto.
  - split; [discriminate|]. intros [_ [s' [it' [Hi' [Hn' H']]]]]. exfalso.
    assert (it' = it). { eapply NoDup_map_inj; [apply (ok_arch_ident _ T)|exact Hi'|exact Hi|]. apply arch_text_id in H, H'. congruence. }
    subst it'. assert (false = true) by tauto. discriminate.
Qed.
End Table.

(** ** Deciding [table_ok] *)

Fixpoint nodupb (l : list str) : bool :=
  match l with [] => true | x :: r => negb (existsb (str_eqb x) r) && nodupb r end.
Lemma nodupb_ok : forall l, nodupb l = true -> NoDup l.
Proof.
  induction l as [|x l IH]; cbn [nodupb]; intros H; constructor; apply andb_true_iff in H as [H1 H2]; [|auto].
  intros Hi. apply negb_true_iff in H1. assert (existsb (str_eqb x) l = true); [|congruence].
  apply existsb_exists. exists x. split; [exact Hi|apply str_eqb_refl].
Qed.
Definition no_slashb (s : str) : bool := negb (contains (ch "/") s).
Lemma no_slashb_ok : forall s, no_slashb s = true -> ~ In (ch "/") s.
Proof. intros s H Hi. unfold no_slashb in H. apply negb_true_iff in H. apply contains_In in Hi. congruence. Qed.

Definition table_okb (t : table) : bool :=
  nodupb (map o_ident (t_os t)) && nodupb (map o_name (t_os t)) && nodupb (map a_ident (t_arch t)) && nodupb (map a_name (t_arch t)) &&
  forallb (fun o => no_slashb (o_name o)) (t_os t) && forallb (fun a => no_slashb (a_name a)) (t_arch t) &&
  forallb (fun a => match a_fields a with Some vs => nodupb (map v_ident vs) && nodupb (map v_name vs) | None => true end) (t_arch t) &&
  match to_map t with [] => true | _ => false end.

Lemma filter_nil : forall {A} (f : A -> bool) l x, filter f l = [] -> In x l -> f x = false.
Proof.
  intros A f. induction l as [|a l IH]; cbn [filter In]; intros x H Hx; [contradiction|].
  destruct (f a) eqn:E; [discriminate|]. destruct Hx as [<-|Hx]; auto.
Qed.

Lemma table_okb_ok : forall t, table_okb t = true -> table_ok t.
Proof.
  intros t H. unfold table_okb in H. rewrite !andb_true_iff in H. destruct H as [[[[[[[H1 H2] H3] H4] H5] H6] H7] H8].
  rewrite forallb_forall in H5, H6, H7. constructor.
  - apply nodupb_ok. exact H1.
  - apply nodupb_ok. exact H2.
  - apply nodupb_ok. exact H3.
  - apply nodupb_ok. exact H4.
  - intros o Ho. apply no_slashb_ok. apply H5. exact Ho.
  - intros a Ha. apply no_slashb_ok. apply H6. exact Ha.
  - intros a vs Ha E. specialize (H7 a Ha). cbn beta in H7. rewrite E in H7. apply andb_true_iff in H7 as [A B]. split; apply nodupb_ok; assumption.
  - intros o n Ho Hn. destruct (to_map t) eqn:E; [|discriminate]. unfold to_map in E. apply app_eq_nil in E as [E _]. apply map_eq_nil in E.
    assert (In n (flat_map o_arch (t_os t))) as Hi by (apply in_flat_map; eauto).
    pose proof (filter_nil _ _ _ E Hi) as F. cbn beta in F. destruct (map_get t n) as [it|] eqn:G; [|discriminate].
    unfold map_get in G. apply find_some in G as [G1 G2]. apply in_rev in G1. destruct (str_dec (a_name it) n); [|discriminate]. eauto.
Qed.

Lemma crate_table_ok : table_ok crate_table.
Proof. apply table_okb_ok. vm_compute. reflexivity. Qed.
