(** Lemmas about paths. *)

From Coq Require Import String Ascii List NArith Bool.
Import ListNotations.
From Verif Require Import Base BaseFacts DeviceModel DeviceProofs PathModel.
Open Scope N_scope.

(** The text of a host path. *)
Definition host_path_text (p : str) : Prop :=
  p = $"." \/ p = $".." \/ exists r, p = $"/" ++ r \/ p = $"./" ++ r \/ p = $"../" ++ r.

Lemma include_cur_dir_iff : forall p, include_cur_dir p = true <-> p = $"." \/ exists r, p = $"./" ++ r.
Proof. intros p. unfold include_cur_dir. rewrite orb_true_iff, str_eqb_eq, starts_with_iff. reflexivity. Qed.

Lemma host_path_new_ok : forall p q, host_path_new p = Ok q <-> q = p /\ host_path_text p.
Proof.
  intros p q. unfold host_path_new. assert (H : is_absolute p || starts_with_dots p = true <-> host_path_text p).
  { unfold starts_with_dots, host_path_text. destruct (is_absolute p) eqn:A.
    { apply is_absolute_iff in A as [r ->]. cbn [orb]. split; [|reflexivity]. intros _. right. right. exists r. left. reflexivity. }
    cbn [orb]. destruct (include_cur_dir p) eqn:C.
    { apply include_cur_dir_iff in C. split; [|reflexivity]. intros _. destruct C as [->|[r ->]]; [left; reflexivity|].
      right. right. exists r. auto. }
    assert (NA : forall r, p <> $"/" ++ r) by (intros r ->; discriminate A).
    assert (NC : p <> $"." /\ forall r, p <> $"./" ++ r).
    { split; [intros ->; discriminate C|]. intros r ->. unfold include_cur_dir in C.
      rewrite (proj2 (starts_with_iff $"./" ($"./" ++ r))) in C by eauto. rewrite orb_true_r in C. discriminate. }
    destruct NC as [NC1 NC2].
    destruct (split_once_case (ch "/") p) as [[Hn E]|[a [b [-> [Hn E]]]]].
    - rewrite split_no by exact Hn. cbn [drop_trivial]. unfold trivial_component.
      destruct (str_eqb_spec p []) as [->|N1]; cbn [orb].
      { split; [discriminate|]. intros [Q|[Q|[r [Q|[Q|Q]]]]]; discriminate Q. }
      destruct (str_eqb_spec p $".") as [->|N2]; cbn [orb]; [congruence|]. rewrite str_eqb_eq. split.
      + intros ->. auto.
      + intros [Q|[Q|[r [Q|[Q|Q]]]]]; [congruence|exact Q|exfalso; eapply NA; exact Q|exfalso; eapply NC2; exact Q|].
        exfalso. subst p. apply Hn. apply in_or_app. left. right. right. left. reflexivity.
    - rewrite split_app by exact Hn. cbn [drop_trivial]. unfold trivial_component.
      destruct (str_eqb_spec a []) as [->|N1]; cbn [orb]; [exfalso; eapply (NA b); reflexivity|].
      destruct (str_eqb_spec a $".") as [->|N2]; cbn [orb]; [exfalso; eapply (NC2 b); reflexivity|].
      rewrite str_eqb_eq. split.
      + intros ->. right. right. exists b. right. right. reflexivity.
      + intros [Q|[Q|[r [Q|[Q|Q]]]]].
        * congruence.
        * exfalso. assert (I : In (ch "/") $"..") by (rewrite <- Q; apply in_or_app; right; left; reflexivity).
          destruct I as [I|[I|[]]]; discriminate I.
        * exfalso. eapply NA. exact Q.
        * exfalso. eapply NC2. exact Q.
        * assert (S : split_once (ch "/") (a ++ ch "/" :: b) = Some ($"..", r)).
          { rewrite Q. apply (split_once_app (ch "/") $".." r). intros [I|[I|[]]]; discriminate I. }
          rewrite split_once_app in S by exact Hn. injection S as -> _. reflexivity. }
  destruct (is_absolute p || starts_with_dots p).
  - split; [intros E; injection E as <-; split; [reflexivity|apply H; reflexivity]|intros [-> _]; reflexivity].
  - split; [discriminate|]. intros [_ Q]. apply H in Q. discriminate.
Qed.

Lemma host_path_first : forall p, host_path_text p -> starts_with $"." p || is_absolute p = true.
Proof. intros p [->|[->|[r [->|[->| ->]]]]]; reflexivity. Qed.

(** ** Parents *)

Lemma drop_trivial_suffix : forall l, exists t, l = t ++ drop_trivial l.
Proof.
  induction l as [|c l [t IH]]; cbn [drop_trivial]; [exists []; reflexivity|].
  destruct (trivial_component c); [|exists []; reflexivity]. exists (c :: t). cbn. f_equal. exact IH.
Qed.

Lemma path_parent_prefix : forall p q, path_parent p = Some q ->
  (q = [] /\ include_cur_dir p = true) \/
  exists l l', split (ch "/") (snd (path_prefix p)) = l ++ l' /\ l' <> [] /\ q = fst (path_prefix p) ++ join $"/" l.
Proof.
  intros p q. unfold path_parent. destruct (path_prefix p) as [pre body]. cbn [fst snd].
  destruct (drop_trivial (rev (split (ch "/") body))) as [|x rest] eqn:E.
  - destruct (include_cur_dir p); [|discriminate]. intros H. injection H as <-. auto.
  - intros H. injection H as <-. right. destruct (drop_trivial_suffix (rev (split (ch "/") body))) as [t Et]. rewrite E in Et.
    destruct (drop_trivial_suffix rest) as [t' Et'].
    exists (rev (drop_trivial rest)), (rev (t ++ x :: t')). split.
    + rewrite <- rev_app_distr. rewrite <- (rev_involutive (split (ch "/") body)). f_equal. rewrite Et.
      rewrite <- app_assoc. cbn [app]. rewrite <- Et'. reflexivity.
    + split; [|reflexivity]. intros R. apply (f_equal (@rev str)) in R. rewrite rev_involutive in R.
      destruct t; discriminate R.
Qed.

Lemma join_head : forall x l, join $"/" (x :: l) = x \/ exists r, join $"/" (x :: l) = x ++ $"/" ++ r.
Proof. intros x [|y l]; [left; reflexivity|]. right. exists (join $"/" (y :: l)). reflexivity. Qed.

Lemma host_path_pop_ok : forall p, host_path_text p -> host_path_text (snd (host_path_pop p)).
Proof.
  intros p H. unfold host_path_pop. destruct (path_parent p) as [q|] eqn:E.
  - destruct (str_eqb_spec q []) as [->|N]; [exact H|]. unfold path_pop. rewrite E. cbn [snd].
    apply path_parent_prefix in E as [[-> _]|[l [l' [S [N' ->]]]]]; [congruence|].
    destruct H as [->|[->|[r [->|[->| ->]]]]].
    + destruct l as [|x l]; [left; reflexivity|]. destruct l'; [congruence|]. cbn in S. destruct l; discriminate S.
    + destruct l as [|x l]; [exfalso; apply N; reflexivity|]. destruct l'; [congruence|]. cbn in S. destruct l; discriminate S.
    + right. right. eexists. left. reflexivity.
    + change (snd (path_prefix ($"./" ++ r))) with (ch "/" :: r) in S. change (fst (path_prefix ($"./" ++ r))) with $".".
      change (split (ch "/") (ch "/" :: r)) with ([] :: split (ch "/") r) in S.
      destruct l as [|x l]; [left; reflexivity|]. injection S as <- S.
      destruct (join_head [] l) as [J|[r' J]]; rewrite J; [left; reflexivity|]. right. right. exists r'. right. left. reflexivity.
    + change (snd (path_prefix ($"../" ++ r))) with ($".." ++ ch "/" :: r) in S. change (fst (path_prefix ($"../" ++ r))) with (@nil char).
      rewrite (split_app (ch "/") $".." r) in S by (intros [I|[I|[]]]; discriminate I).
      destruct l as [|x l]; [exfalso; apply N; reflexivity|]. injection S as <- S.
      destruct (join_head $".." l) as [J|[r' J]].
      * right. left. exact J.
      * right. right. exists r'. right. right. exact J.
  - unfold path_pop. rewrite E. exact H.
Qed.

Lemma absolute_path_pop_ok : forall p, is_absolute p = true -> is_absolute (snd (absolute_path_pop p)) = true.
Proof.
  intros p H. unfold absolute_path_pop, path_pop. destruct (path_parent p) as [q|] eqn:E; [|exact H]. cbn [snd].
  apply is_absolute_iff in H as [r ->]. apply path_parent_prefix in E as [[_ C]|[l [l' [_ [_ ->]]]]]; [discriminate C|].
  reflexivity.
Qed.

Lemma ends_with_slash : forall r c, ends_with $"/" (r ++ [c]) = (c =? ch "/").
Proof.
  intros r c. destruct (ends_with $"/" (r ++ [c])) eqn:E.
  - apply ends_with_iff in E as [x E]. apply app_inj_tail in E as [_ ->]. reflexivity.
  - symmetry. apply N.eqb_neq. intros ->. assert (ends_with $"/" (r ++ [ch "/"]) = true); [|congruence].
    apply ends_with_iff. exists r. reflexivity.
Qed.

Lemma host_path_push_ok : forall p q, host_path_text p -> host_path_text (path_push p q).
Proof.
  intros p q H. unfold path_push. destruct (is_absolute q) eqn:A.
  { apply is_absolute_iff in A as [r ->]. right. right. exists r. left. reflexivity. }
  destruct H as [->|[->|[r [->|[->| ->]]]]].
  - right. right. exists q. right. left. reflexivity.
  - right. right. exists q. right. right. reflexivity.
  - destruct (_ || _); rewrite <- app_assoc; right; right; eexists; left; reflexivity.
  - destruct (_ || _); rewrite <- app_assoc; right; right; eexists; right; left; reflexivity.
  - destruct (_ || _); rewrite <- app_assoc; right; right; eexists; right; right; reflexivity.
Qed.

Lemma absolute_path_push_ok : forall p q, is_absolute p = true -> is_absolute (path_push p q) = true.
Proof.
  intros p q H. unfold path_push. destruct (is_absolute q) eqn:A; [exact A|]. apply is_absolute_iff in H as [r ->].
  destruct (_ || _); reflexivity.
Qed.
