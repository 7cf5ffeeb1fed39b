(** C98: the verdict of the validation depends on which services there are and which names are defined, not on their order; and
    defining more or having fewer services does not make a file invalid. *)

From Coq Require Import String Ascii List NArith Arith ZArith Bool Permutation Lia.
Import ListNotations.
From Verif Require Import Base BaseFacts VolumesModel ValidateModel PropsValidate Serde Codec ServiceParts ServiceCodec ComposeCodec Schema PropsCompose ComposeView
  DocumentSpec DocumentFacts PropsDocument.

Local Notation cnt := (count_occ (list_eq_dec N.eq_dec)).
Lemma count_two : forall (v : str) l, (2 <= cnt l v)%nat <-> exists a b c, l = a ++ v :: b ++ v :: c.
Proof.
  intros v l. split.
  - intros H. assert (I : In v l) by (apply (count_occ_In (list_eq_dec N.eq_dec)); lia). apply in_split in I as (a & r & E). destruct (in_dec (list_eq_dec N.eq_dec) v r) as [J|J].
    + apply in_split in J as (b & c & F). exists a, b, c. now rewrite E, F.
    + assert (K : In v a). { apply (count_occ_In (list_eq_dec N.eq_dec)). rewrite E, count_occ_app in H. cbn [count_occ] in H. destruct (list_eq_dec N.eq_dec v v) as [_|X]; [|now elim X].
        apply (count_occ_not_In (list_eq_dec N.eq_dec)) in J. lia. }
      apply in_split in K as (x & y & F). exists x, y, r. now rewrite E, F, <- app_assoc.
  - intros (a & b & c & ->). rewrite count_occ_app. cbn [count_occ]. rewrite count_occ_app. cbn [count_occ]. destruct (list_eq_dec N.eq_dec v v) as [_|X]; [lia|now elim X].
Qed.
Lemma count_flat : forall (A : Type) (f : A -> list str) v (l l' : list A), NoDup l' -> incl l' l -> (cnt (flat_map f l') v <= cnt (flat_map f l) v)%nat.
Proof.
  intros A f v l l'. revert l. induction l' as [|a r IH]; intros l D I; [cbn; lia|]. inversion D as [|? ? Na Dr]; subst.
  destruct (in_split a l (I a (or_introl eq_refl))) as (x & y & E). assert (J : incl r (x ++ y)).
  { intros b B. assert (K := I b (or_intror B)). rewrite E in K. apply in_app_or in K. apply in_or_app. destruct K as [K|[K|K]]; [now left|subst b; contradiction|now right]. }
  assert (Q := IH _ Dr J). rewrite flat_map_app, count_occ_app in Q. rewrite E, flat_map_app, count_occ_app. cbn [flat_map]. rewrite !count_occ_app. lia.
Qed.

(** On what is looked at. *)
Lemma view_monotone : forall c c', NoDup (vc_services c') -> incl (vc_services c') (vc_services c) ->
  incl (vc_networks c) (vc_networks c') -> incl (vc_volumes c) (vc_volumes c') -> incl (vc_configs c) (vc_configs c') -> incl (vc_secrets c) (vc_secrets c') ->
  validate_all c = Ok tt -> validate_all c' = Ok tt.
Proof.
  intros c c' D I N V C S H. apply validate_all_iff in H as [G R]. apply validate_all_iff. split.
  - intros n s J. destruct (G n s (I _ J)) as (G1 & G2 & G3). split; [|split]; eapply incl_tran; eauto.
  - assert (E : forall c, volume_uses c = flat_map (fun s => named_volumes (vs_volumes (snd s))) (vc_services c)) by (intros; symmetry; apply flat_map_concat_map).
    unfold repeats_defined in *. rewrite E in *. clear E.
    intros a v b Q K. apply V.
    assert (T : (2 <= cnt (flat_map (fun s => named_volumes (vs_volumes (snd s))) (vc_services c)) v)%nat).
    { eapply Nat.le_trans; [|exact (count_flat _ _ v _ _ D I)]. apply count_two. apply in_split in K as (x & y & ->). exists x, y, b. now rewrite Q, <- app_assoc. }
    apply count_two in T as (x & y & z & T). apply (R (x ++ v :: y) v z); [now rewrite T, <- app_assoc|]. apply in_or_app. right. now left.
Qed.

(** A file with no other services, in which at least the same names are defined, is valid if the other one is. *)
Theorem validation_monotone : forall w v v' (c c' : compose w), load w v = Ok c -> load w v' = Ok c' ->
  (forall name s, has_service v' name s -> has_service v name s) ->
  (forall kind n, In kind [$"networks"; $"volumes"; $"configs"; $"secrets"] -> declares v kind n -> declares v' kind n) ->
  validate_all (compose_view c) = Ok tt -> validate_all (compose_view c') = Ok tt.
Proof.
  intros w v v' c c' H H' S D V. destruct (compose_has w v c H) as (C0 & C1 & C2 & C3 & C4). destruct (compose_has w v' c' H') as (E0 & E1 & E2 & E3 & E4).
  apply (view_monotone (compose_view c) (compose_view c')); [exact (NoDup_map_inv fst _ (view_names w v' c' H'))| | | | | |exact V].
  - intros [n t] I. apply view_services in I as (s & I & T). apply view_services. exists s. split; [|exact T]. apply C0. apply E0 in I as (x & X & Y). exists x. split; [exact (S n x X)|exact Y].
  - intros n I. apply E1. apply D; [cbn; tauto|]. now apply C1.
  - intros n I. apply E2. apply D; [cbn; tauto|]. now apply C2.
  - intros n I. apply E3. apply D; [cbn; tauto|]. now apply C3.
  - intros n I. apply E4. apply D; [cbn; tauto|]. now apply C4.
Qed.
Print Assumptions validation_monotone.
(** So order does not matter. *)
Theorem verdict_order : forall w v v' (c c' : compose w), load w v = Ok c -> load w v' = Ok c' ->
  (forall name s, has_service v' name s <-> has_service v name s) ->
  (forall kind n, In kind [$"networks"; $"volumes"; $"configs"; $"secrets"] -> (declares v kind n <-> declares v' kind n)) ->
  (validate_all (compose_view c) = Ok tt <-> validate_all (compose_view c') = Ok tt).
Proof.
  intros w v v' c c' H H' S D. split; intros V.
  - apply (validation_monotone w v v' c c' H H'); [intros n s; apply S|intros k n I; apply (D k n I)|exact V].
  - apply (validation_monotone w v' v c' c H' H); [intros n s; apply S|intros k n I; apply (D k n I)|exact V].
Qed.
Print Assumptions verdict_order.

(** The error does depend on it: the first service is named. *)
Definition uses_front (n : string) : sval * sval := (VStr $n, VMap [(VStr $"networks", VSeq [VStr $"front"])]).
Theorem error_order_refuted : exists w v v' (c c' : compose w) e e', load w v = Ok c /\ load w v' = Ok c' /\
  (forall name s, has_service v' name s <-> has_service v name s) /\
  validate_all (compose_view c) = Err e /\ validate_all (compose_view c') = Err e' /\ e <> e'.
Proof.
  exists w0, (file [uses_front "a"; uses_front "b"] []), (file [uses_front "b"; uses_front "a"] []).
  assert (X : match load w0 (file [uses_front "a"; uses_front "b"] []) with Ok c => Some (validate_all (compose_view c)) | Err _ => None end =
    Some (Err (mk_validation_error (Some $"a") $"front" KNetwork))) by (vm_compute; reflexivity).
  assert (Y : match load w0 (file [uses_front "b"; uses_front "a"] []) with Ok c => Some (validate_all (compose_view c)) | Err _ => None end =
    Some (Err (mk_validation_error (Some $"b") $"front" KNetwork))) by (vm_compute; reflexivity).
  destruct (load w0 (file [uses_front "a"; uses_front "b"] [])) as [c|]; [|discriminate X]. destruct (load w0 (file [uses_front "b"; uses_front "a"] [])) as [c'|]; [|discriminate Y].
  exists c, c', (mk_validation_error (Some $"a") $"front" KNetwork), (mk_validation_error (Some $"b") $"front" KNetwork).
  split; [reflexivity|]. split; [reflexivity|]. split; [|split; [now injection X|split; [now injection Y|discriminate]]].
  assert (T : forall a b : string, $a <> $b -> forall name s, has_service (file [uses_front a; uses_front b] []) name s -> has_service (file [uses_front b; uses_front a] []) name s).
  { intros a b N name s (x & (es & E & P) & before & after & L & M). injection E as <-. change ([VMap [uses_front a; uses_front b]] = [x]) in P. injection P as <-. exists (VMap [uses_front b; uses_front a]). split; [eexists; split; reflexivity|].
    injection L as L. destruct before as [|p before].
    - injection L as A B C. exists [uses_front b], []. split; [unfold uses_front; rewrite <- A, <- B; reflexivity|]. now intros [].
    - injection L as A L. destruct before as [|q before]; [|injection L as _ L; destruct before; discriminate L]. injection L as B C L.
      exists [], [uses_front a]. split; [unfold uses_front; rewrite <- B, <- C; reflexivity|]. intros [J|[]]. cbn [uses_front fst] in J. injection J as J. apply N. congruence. }
  intros name s. split; apply T; vm_compute; discriminate.
Qed.
Print Assumptions error_order_refuted.

(** Concrete case: the same services and definitions in another order. *)
Example verdict_order_case :
  let a := (VStr $"a", uses_all (VSeq [VStr $"front"])) in let b := (VStr $"b", uses_all (VMap [(VStr $"front", VNull)])) in
  let more := [(VStr $"networks", VMap [(VStr $"front", VNull)]); (VStr $"volumes", VMap [(VStr $"data", VNull)]);
    (VStr $"configs", VMap [(VStr $"c", VMap [(VStr $"file", VStr $"c.txt")]); (VStr $"d", VMap [(VStr $"external", VBool true)])])] in
  checked w0 (file [a; b] more) = Some (Ok tt) /\ checked w0 (file [b; a] (rev more)) = Some (Ok tt) /\ checked w0 (file [b] more) = Some (Ok tt) /\
  exists e, checked w0 (file [b; a] (tl more)) = Some (Err e).
Proof. intros a b more. split; [|split; [|split; [|eexists]]]; vm_compute; reflexivity. Qed.
