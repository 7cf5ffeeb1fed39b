(** The order of the entries of a map does not matter when a struct is read from it. *)

From Coq Require Import String Ascii List NArith ZArith Bool Lia Permutation.
Import ListNotations.
From Verif Require Import Base BaseFacts Num Coll CollFacts Serde Codec CodecFacts.
Open Scope N_scope.

Lemma lookup_perm : forall k es es', Permutation es es' -> lookup k es = lookup k es'.
Proof.
  intros k es es' P. induction P as [|[x v] es es' _ IH|[x v] [y u] es|es1 es2 es3 _ IH1 _ IH2].
  - reflexivity.
  - cbn [lookup]. now rewrite IH.
  - cbn [lookup]. destruct x, y; try reflexivity. destruct (str_eqb k s), (str_eqb k s0); try reflexivity.
    destruct (lookup k es) as [[]|]; reflexivity.
  - congruence.
Qed.

Definition member_perm (m : member) : Prop := forall es es', Permutation es es' -> m_de m es = m_de m es'.
Lemma field_perm : forall n {A : Set} (c : codec A) d s, member_perm (field n c d s).
Proof. intros n A c d s es es' P. cbn [m_de field]. now rewrite (lookup_perm n es es' P). Qed.
Lemma members_perm : forall ms es es', Forall member_perm ms -> Permutation es es' -> de_members ms es = de_members ms es'.
Proof.
  intros ms es es' H P. induction H as [|m ms Hm _ IH]; [reflexivity|]. cbn [de_members]. now rewrite (Hm es es' P), IH.
Qed.
Lemma group_perm : forall {B : Set} ms (write : B -> vals ms) read inv nrm, Forall member_perm ms -> member_perm (group ms write read inv nrm).
Proof. intros B ms write read inv nrm H es es' P. cbn [m_de group]. now rewrite (members_perm ms es es' H P). Qed.

Lemma collect_perm : forall {E A B} (f : A -> result E B) l l' r, Permutation l l' -> collect f l = Ok r -> exists r', collect f l' = Ok r' /\ Permutation r r'.
Proof.
  intros E A B f l l' r P. revert r. induction P as [|x l l' _ IH|x y l|l1 l2 l3 _ IH1 _ IH2]; intros r H.
  - exists r. split; [assumption|apply Permutation_refl].
  - cbn [collect] in *. destruct (f x); cbn [bind] in *; [|discriminate]. destruct (collect f l) as [r1|] eqn:C; cbn [bind] in H; [|discriminate].
    injection H as <-. destruct (IH r1 eq_refl) as (r' & -> & P'). cbn [bind]. eauto.
  - cbn [collect] in *. destruct (f y); cbn [bind] in *; [|discriminate]. destruct (f x); cbn [bind] in *; [|discriminate].
    destruct (collect f l); cbn [bind] in *; [|discriminate]. injection H as <-. eexists. split; [reflexivity|]. apply perm_swap.
  - destruct (IH1 r H) as (r1 & H1 & P1). destruct (IH2 r1 H1) as (r2 & H2 & P2). exists r2. split; [assumption|]. now apply Permutation_trans with r1.
Qed.
Lemma filter_perm : forall {A} (f : A -> bool) l l', Permutation l l' -> Permutation (filter f l) (filter f l').
Proof.
  intros A f l l' P. induction P as [|x l l' _ IH|x y l|l1 l2 l3 _ IH1 _ IH2]; cbn [filter].
  - constructor.
  - destruct (f x); auto.
  - destruct (f x), (f y); auto. apply perm_swap.
  - now apply Permutation_trans with (filter f l2).
Qed.
Lemma unknown_perm : forall ns es es', Permutation es es' -> Permutation (unknown ns es) (unknown ns es').
Proof. intros ns es es'. apply filter_perm. Qed.

(** No key twice. *)
Definition keys_once (es : list (sval * sval)) : Prop := NoDup (map fst es).
Lemma keys_once_perm : forall es es', Permutation es es' -> keys_once es -> keys_once es'.
Proof. intros es es' P. apply Permutation_NoDup. now apply Permutation_map. Qed.
Lemma ext_entries : forall us l, collect ext_entry us = Ok l -> map fst us = map (fun e => VStr (fst e)) l.
Proof.
  induction us as [|[k v] us IH]; intros l H; cbn [collect] in H; [injection H as <-; reflexivity|].
  destruct (ext_entry (k, v)) as [y|] eqn:E; cbn [bind] in H; [|discriminate]. destruct (collect ext_entry us) as [l'|]; cbn [bind] in H; [|discriminate].
  injection H as <-. cbn [map fst]. rewrite (IH l' eq_refl). f_equal. unfold ext_entry in E. cbn [fst snd] in E. destruct k; try discriminate.
  destruct (KeysModel.extension_key_new s) as [t|] eqn:Es; cbn [map_err bind] in E; [|discriminate]. destruct (de yaml_c v); cbn [bind] in E; [|discriminate].
  injection E as <-. cbn [fst]. now apply extension_key_new_iff in Es as [-> _].
Qed.
Lemma unknown_once : forall ns es, keys_once es -> keys_once (unknown ns es).
Proof.
  intros ns es H. unfold keys_once, unknown in *. induction es as [|e es IH]; cbn [filter map] in *; [constructor|]. inversion H as [|? ? N D]; subst.
  destruct (match fst e with VStr k => negb (existsb (str_eqb k) ns) | _ => true end); [|now apply IH]. cbn [map]. constructor; [|now apply IH].
  intros I. apply N. apply in_map_iff in I as (x & E & I). apply in_map_iff. exists x. split; [assumption|]. now apply filter_In in I.
Qed.
Lemma ext_de_perm : forall us us' x, keys_once us -> Permutation us us' -> ext_de us = Ok x -> exists x', ext_de us' = Ok x' /\ Permutation x x'.
Proof.
  intros us us' x D P H. unfold ext_de in *. destruct (collect ext_entry us) as [l|] eqn:C; cbn [map_ok] in H; [|discriminate]. injection H as <-.
  destruct (collect_perm _ _ _ _ P C) as (l' & C' & P'). rewrite C'. cbn [map_ok]. exists (imap_of str_eqb l'). split; [reflexivity|].
  assert (X : forall us l, keys_once us -> collect ext_entry us = Ok l -> imap_of str_eqb l = l).
  { intros us0 l0 D0 C0. apply (imap_of_nodup str_eqb str_eqb_eq). unfold keys_once in D0. rewrite (ext_entries _ _ C0), <- (map_map fst VStr) in D0.
    now apply NoDup_map_inv in D0. }
  rewrite (X us l D C), (X us' l' (keys_once_perm _ _ P D) C'). exact P'.
Qed.

(** Values which differ only in the order of their own extensions. *)
Definition same_but_order {A : Type} (a b : A * extensions) : Prop := fst a = fst b /\ Permutation (snd a) (snd b).

Lemma struct_order : forall ms es es', Forall member_perm ms -> Permutation es es' -> de (struct_c ms) (VMap es) = de (struct_c ms) (VMap es').
Proof.
  intros ms es es' H P. cbn [de struct_c]. rewrite (members_perm ms es es' H P).
  replace (string_keys es') with (string_keys es); [reflexivity|]. clear H. unfold string_keys. induction P as [|[[]] ? ? _ IH| |]; cbn [forallb] in *; try congruence.
  destruct (fst x), (fst y); reflexivity.
Qed.
Lemma struct_ext_order : forall ms es es' a, Forall member_perm ms -> Permutation es es' -> keys_once es ->
  de (struct_ext_c ms) (VMap es) = Ok a -> exists b, de (struct_ext_c ms) (VMap es') = Ok b /\ same_but_order a b.
Proof.
  intros ms es es' a H P D E. cbn [de struct_ext_c] in *. rewrite <- (members_perm ms es es' H P). destruct (de_members ms es) as [v|]; cbn [bind] in *; [|discriminate].
  destruct (ext_de (unknown (names ms) es)) as [x|] eqn:X; cbn [bind] in E; [|discriminate]. injection E as <-.
  destruct (ext_de_perm _ _ x (unknown_once _ _ D) (unknown_perm (names ms) _ _ P) X) as (x' & -> & P'). cbn [bind]. exists (v, x'). split; [reflexivity|].
  split; [reflexivity|assumption].
Qed.

(** ** Repeated keys *)

Definition has_key (k : sval) (e : sval * sval) : Prop := fst e = k.
(** At most one entry has the key. *)
Definition key_once (k : str) (es : list (sval * sval)) : Prop :=
  forall a b x y, es = a ++ (VStr k, x) :: b -> ~ In (VStr k, y) (a ++ b).
Definition absent (k : str) (es : list (sval * sval)) : Prop := forall v, ~ In (VStr k, v) es.

Lemma lookup_none : forall k es, lookup k es = Ok None <-> absent k es.
Proof.
  intros k es. unfold absent. induction es as [|[x v] es IH]; cbn [lookup In].
  - split; [tauto|reflexivity].
  - destruct x as [| | | |s| |]; try (rewrite IH; split; [intros H u [E|E]; [discriminate|exact (H u E)]|intros H u E; exact (H u (or_intror E))]).
    destruct (str_eqb_spec k s) as [<-|N].
    + split; [destruct (lookup k es) as [[]|]; discriminate|]. intros H. now elim (H v (or_introl eq_refl)).
    + rewrite IH. split; [intros H u [E|E]; [congruence|exact (H u E)]|intros H u E; exact (H u (or_intror E))].
Qed.
Lemma lookup_some : forall k es v, lookup k es = Ok (Some v) <-> exists a b, es = a ++ (VStr k, v) :: b /\ absent k (a ++ b).
Proof.
  intros k es v. induction es as [|[x u] es IH]; cbn [lookup].
  - split; [discriminate|]. intros (a & b & E & _). destruct a; discriminate.
  - assert (Other : VStr k <> x -> (exists a b, es = a ++ (VStr k, v) :: b /\ absent k (a ++ b)) <-> (exists a b, (x, u) :: es = a ++ (VStr k, v) :: b /\ absent k (a ++ b))).
    { intros N. split.
      - intros (a & b & -> & H). exists ((x, u) :: a), b. split; [reflexivity|]. intros y [E|E]; [congruence|exact (H y E)].
      - intros ([|e a] & b & E & H); cbn [app] in E; injection E as E1 E2; [congruence|]. subst. exists a, b. split; [reflexivity|]. intros y I. exact (H y (or_intror I)). }
    destruct x as [| | | |s| |]; try (rewrite IH; apply Other; discriminate).
    destruct (str_eqb_spec k s) as [<-|N]; [|rewrite IH; apply Other; congruence].
    split.
    + intros H. destruct (lookup k es) as [[]|] eqn:L; try discriminate. injection H as <-. apply lookup_none in L. exists [], es. split; [reflexivity|exact L].
    + intros ([|e a] & b & E & H); cbn [app] in E; injection E as E1 E2.
      * subst. cbn [app] in H. apply lookup_none in H. now rewrite H.
      * subst. cbn [app] in H. now elim (H u (or_introl eq_refl)).
Qed.
Lemma lookup_err : forall k es, (exists e, lookup k es = Err e) <-> exists a b c x y, es = a ++ (VStr k, x) :: b ++ (VStr k, y) :: c.
Proof.
  intros k es. split.
  - intros [e H]. induction es as [|[x u] es IH]; cbn [lookup] in H; [discriminate|].
    assert (Cons : (exists a b c x y, es = a ++ (VStr k, x) :: b ++ (VStr k, y) :: c) -> exists a b c z y, (x, u) :: es = a ++ (VStr k, z) :: b ++ (VStr k, y) :: c).
    { intros (a & b & c & z & y & ->). exists ((x, u) :: a), b, c, z, y. reflexivity. }
    destruct x as [| | | |s| |]; auto. destruct (str_eqb_spec k s) as [<-|N]; auto.
    destruct (lookup k es) as [[v|]|[]] eqn:L; [|discriminate|destruct e; auto]. apply lookup_some in L as (a & b & -> & _). exists [], a, b, u, v. reflexivity.
  - intros (a & b & c & x & y & ->). destruct (lookup k (a ++ (VStr k, x) :: b ++ (VStr k, y) :: c)) as [[v|]|e] eqn:L; [| |eauto].
    + exfalso. apply lookup_some in L as (a' & b' & E & H). 
      assert (N : (List.length (filter (fun e => match fst e with VStr s => str_eqb s k | _ => false end) (a ++ (VStr k, x) :: b ++ (VStr k, y) :: c)) >= 2)%nat).
      { rewrite filter_app, app_length. cbn [filter fst]. rewrite str_eqb_refl. cbn [List.length]. rewrite filter_app, app_length. cbn [filter fst].
        rewrite str_eqb_refl. cbn [List.length]. lia. }
      rewrite E, filter_app in N. cbn [filter fst] in N. rewrite str_eqb_refl, app_length in N. cbn [List.length] in N.
      assert (Z : forall l, (forall v, ~ In (VStr k, v) l) -> filter (fun e : sval * sval => match fst e with VStr s => str_eqb s k | _ => false end) l = []).
      { intros l. induction l as [|[z w] l IHl]; intros Hl; [reflexivity|]. cbn [filter fst]. rewrite IHl by (intros q I; exact (Hl q (or_intror I))).
        destruct z; try reflexivity. destruct (str_eqb_spec s k) as [->|]; [|reflexivity]. now elim (Hl w (or_introl eq_refl)). }
      rewrite (Z a'), (Z b') in N by (intros q I; apply (H q); apply in_or_app; auto). cbn [List.length] in N. lia.
    + exfalso. apply lookup_none in L. apply (L x). apply in_or_app. right. now left.
Qed.

Lemma in_absent : forall k a b v, absent k (a ++ b) -> In (VStr k, v) (a ++ (VStr k, v) :: b).
Proof. intros k a b v _. apply in_or_app. right. now left. Qed.
(** With no key twice, [lookup] is membership. *)
Lemma lookup_in : forall k es v, keys_once es -> lookup k es = Ok (Some v) <-> In (VStr k, v) es.
Proof.
  intros k es v D. rewrite lookup_some. split.
  - intros (a & b & -> & _). apply in_or_app. right. now left.
  - intros I. apply in_split in I as (a & b & ->). exists a, b. split; [reflexivity|]. intros u J. unfold keys_once in D. rewrite map_app in D. cbn [map fst] in D.
    apply NoDup_remove_2 in D. apply D. rewrite <- map_app. change (VStr k) with (fst (VStr k, u)). now apply in_map.
Qed.
(** If every string key is found at most once and the others are distinct, no key is there twice. *)
Lemma keys_once_intro : forall ns es, (forall n, In n ns -> exists o, lookup n es = Ok o) -> keys_once (unknown ns es) -> keys_once es.
Proof.
  intros ns es. unfold keys_once. induction es as [|[k v] es IH]; intros L D; cbn [map fst]; [constructor|].
  assert (L' : forall n, In n ns -> exists o, lookup n es = Ok o).
  { intros n I. destruct (L n I) as [o H]. cbn [lookup] in H. destruct k; eauto. destruct (str_eqb n s); [|eauto]. destruct (lookup n es) as [[]|]; try discriminate. eauto. }
  assert (Case : (exists s, k = VStr s /\ existsb (str_eqb s) ns = true) \/ unknown ns ((k, v) :: es) = (k, v) :: unknown ns es).
  { cbn [unknown filter fst]. destruct k; auto. destruct (existsb (str_eqb s) ns) eqn:E; cbn [negb]; eauto. }
  destruct Case as [(s & -> & X)|X].
  - constructor.
    + intros I. apply in_map_iff in I as ([k' u] & E & I). cbn [fst] in E. subst k'. apply existsb_exists in X as (n & In_ & X). apply str_eqb_eq in X. subst n.
      destruct (L s In_) as [o H]. cbn [lookup] in H. rewrite str_eqb_refl in H. destruct (lookup s es) as [[]|] eqn:Ls; try discriminate. apply lookup_none in Ls. exact (Ls u I).
    + apply IH; [assumption|]. cbn [unknown filter fst] in D. rewrite X in D. exact D.
  - rewrite X in D. cbn [map fst] in D. inversion D as [|? ? N D']; subst. constructor; [|now apply IH].
    intros I. apply in_map_iff in I as ([k' u] & E & I). cbn [fst] in E. subst k'. apply N. apply in_map_iff. exists (k, u). split; [reflexivity|].
    unfold unknown in X |- *. apply filter_In. split; [assumption|]. cbn [filter fst] in X |- *. destruct k; try reflexivity. destruct (existsb _ ns); [|reflexivity].
    cbn [negb] in X. exfalso. apply (f_equal (@List.length _)) in X. cbn [List.length] in X. clear -X. 
    assert (F : forall (f : sval * sval -> bool), (List.length (filter f es) <= List.length es)%nat).
    { intros f. induction es as [|e es IHe]; cbn [filter List.length]; [lia|]. destruct (f e); cbn [List.length]; lia. }
    lia.
Qed.
