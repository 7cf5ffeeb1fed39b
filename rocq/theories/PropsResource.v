(** C71: a resource is read through a hash map, whose order is unspecified. *)

From Coq Require Import String Ascii List NArith ZArith Bool Lia Permutation.
Import ListNotations.
From Verif Require Import Base BaseFacts Num Coll CollFacts Regex KeysModel ValuesModel Serde Codec ScalarCodec CommonCodec ServiceParts ServiceCodec ComposeCodec HealthProofs OrderFacts
  PropsCompose.
Open Scope N_scope.

(** What reading the entries [es] can give: [Resource::deserialize] goes through the entries of the hash map in any order. *)
Definition reads_resource {A : Set} (c : codec A) (es : list (sval * sval)) (r : result de_error (resource A)) : Prop :=
  match hash_map_de es with
  | Err e => r = Err e
  | Ok m => exists m', Permutation m m' /\ r = resource_of c m'
  end.
(** The same, except for the order of extensions. *)
Definition same_resource {A : Set} (a b : result de_error (resource (A * extensions))) : Prop :=
  match a, b with
  | Err _, Err _ => True
  | Ok (External n), Ok (External m) => n = m
  | Ok (Managed a), Ok (Managed b) => fst a = fst b /\ Permutation (snd a) (snd b)
  | _, _ => False
  end.

(** ** Lemmas *)

Lemma hash_map_once : forall es m, hash_map_de es = Ok m -> NoDup (map fst m).
Proof.
  intros es m H. unfold hash_map_de in H. destruct (collect yaml_entry es) as [l|]; cbn [map_ok] in H; [|discriminate]. injection H as <-. apply (imap_of_NoDup str_eqb str_eqb_eq).
Qed.
Lemma get_perm : forall (m m' : list (str * sval)) k, NoDup (map fst m) -> Permutation m m' -> imap_get str_eqb m k = imap_get str_eqb m' k.
Proof.
  intros m m' k N P. assert (N' : NoDup (map fst m')) by (apply (Permutation_NoDup (Permutation_map fst P) N)).
  destruct (imap_get str_eqb m k) as [v|] eqn:E.
  - symmetry. apply (imap_get_In str_eqb str_eqb_eq); [assumption|]. apply (Permutation_in _ P). now apply (imap_get_In str_eqb str_eqb_eq) in E.
  - destruct (imap_get str_eqb m' k) as [v|] eqn:E'; [|reflexivity]. apply (imap_get_In str_eqb str_eqb_eq) in E'; [|assumption].
    apply (Permutation_in _ (Permutation_sym P)) in E'. apply (imap_get_In str_eqb str_eqb_eq) in E'; [congruence|assumption].
Qed.
Lemma without_once : forall (m : list (str * sval)) k, NoDup (map fst m) -> NoDup (map fst (without k m)).
Proof.
  intros m k N. unfold without. induction m as [|e m IH]; cbn [filter map] in *; [constructor|]. inversion N as [|? ? X Y]; subst.
  destruct (negb (str_eqb k (fst e))); [|auto]. cbn [map]. constructor; [|auto]. intros I. apply X. apply in_map_iff in I as (e' & E & I). apply in_map_iff.
  exists e'. split; [assumption|]. now apply filter_In in I as [I _].
Qed.
Lemma ext_ser_once : forall x, NoDup (map fst x) -> keys_once (ext_ser x).
Proof.
  intros x N. unfold keys_once, ext_ser. rewrite map_map. cbn [fst]. rewrite <- (map_map fst VStr). apply FinFun.Injective_map_NoDup; [|assumption]. intros a b E. congruence.
Qed.
Lemma resource_of_perm : forall ms m m', Forall member_perm ms -> NoDup (map fst m) -> Permutation m m' ->
  same_resource (resource_of (struct_ext_c ms) m) (resource_of (struct_ext_c ms) m').
Proof.
  intros ms m m' F N P. unfold resource_of. rewrite (get_perm m m' _ N P).
  destruct (match imap_get str_eqb m' $"external" with Some v => de bool_c v | None => Ok false end) as [b|]; cbn [bind]; [|exact I].
  assert (Q := filter_perm (fun e => negb (str_eqb $"external" (fst e))) m m' P). fold (without $"external" m) in Q. fold (without $"external" m') in Q.
  assert (D := without_once m $"external" N). destruct b.
  - rewrite (get_perm _ _ $"name" D Q).
    destruct (match imap_get str_eqb (without $"external" m') $"name" with Some v => map_ok Some (de string_c v) | None => Ok None end) as [n|]; cbn [bind]; [|exact I].
    assert (R := filter_perm (fun e => negb (str_eqb $"name" (fst e))) _ _ Q). fold (without $"name" (without $"external" m)) in R. fold (without $"name" (without $"external" m')) in R.
    destruct (without $"name" (without $"external" m)) as [|x l].
    + apply Permutation_nil in R. rewrite R. reflexivity.
    + destruct (without $"name" (without $"external" m')) as [|x' l']; [apply Permutation_sym, Permutation_nil in R; discriminate|]. exact I.
  - assert (K := ext_ser_once _ D). assert (PE : Permutation (ext_ser (without $"external" m)) (ext_ser (without $"external" m'))) by (unfold ext_ser; now apply Permutation_map).
    destruct (de (struct_ext_c ms) (VMap (ext_ser (without $"external" m)))) as [a|] eqn:E.
    + destruct (struct_ext_order ms _ _ a F PE K E) as (b & -> & S). exact S.
    + destruct (de (struct_ext_c ms) (VMap (ext_ser (without $"external" m')))) as [b|] eqn:E'; [|exact I].
      destruct (struct_ext_order ms _ _ b F (Permutation_sym PE) (keys_once_perm _ _ PE K) E') as (a & X & _). congruence.
Qed.
Lemma reads_same : forall ms es r r', Forall member_perm ms -> reads_resource (struct_ext_c ms) es r -> reads_resource (struct_ext_c ms) es r' -> same_resource r r'.
Proof.
  intros ms es r r' F H H'. unfold reads_resource in *. destruct (hash_map_de es) as [m|] eqn:E; [|subst; exact I].
  destruct H as (m1 & P1 & ->), H' as (m2 & P2 & ->). assert (N := hash_map_once es m E).
  apply resource_of_perm; [assumption|apply (Permutation_NoDup (Permutation_map fst P1) N)|apply (Permutation_trans (Permutation_sym P1) P2)].
Qed.

(** ** C71 *)

(** Whatever the order, the result is the same up to the order of extensions: either all orders are accepted or none, *)
Theorem resource_order : forall w es,
  (forall r r', reads_resource (network_c w) es r -> reads_resource (network_c w) es r' -> same_resource r r') /\
  (forall r r', reads_resource top_volume_c es r -> reads_resource top_volume_c es r' -> same_resource r r') /\
  (forall r r', reads_resource config_c es r -> reads_resource config_c es r' -> same_resource r r') /\
  (forall r r', reads_resource secret_c es r -> reads_resource secret_c es r' -> same_resource r r').
Proof.
  intros w es. repeat split; intros r r'; apply reads_same;
    repeat (apply Forall_cons; [first [apply field_perm|apply group_perm; repeat (apply Forall_cons; [apply field_perm|]); apply Forall_nil]|]); apply Forall_nil.
Qed.

(** what the model does is one of the possible results, *)
Theorem resource_order_model : forall (A : Set) (c : codec A) es, reads_resource c es (de (resource_c c) (VMap es)).
Proof.
  intros A c es. unfold reads_resource. cbn [de resource_c]. destruct (hash_map_de es) as [m|e]; cbn [bind]; [|reflexivity]. now exists m.
Qed.

(** and the order of the entries of the document does not matter, if no key is there twice. *)
Theorem resource_entries : forall (A : Set) (c : codec A) es es' r, NoDup (map fst es) -> Permutation es es' -> reads_resource c es (Ok r) -> reads_resource c es' (Ok r).
Proof.
  intros A c es es' r N P H. unfold reads_resource, hash_map_de in *. destruct (collect yaml_entry es) as [l|e] eqn:C; cbn [map_ok] in *; [|discriminate].
  destruct (collect_perm _ _ _ _ P C) as (l' & C' & P'). rewrite C'. cbn [map_ok]. destruct H as (m & Q & E). exists m. split; [|exact E].
  assert (K : forall us l, NoDup (map fst us) -> collect yaml_entry us = Ok l -> imap_of str_eqb l = l).
  { clear. intros us l N C. apply (imap_of_nodup str_eqb str_eqb_eq). revert l C. induction us as [|[k v] us IH]; intros l C; cbn [collect] in C; [injection C as <-; constructor|].
    inversion N as [|? ? X Y]; subst. destruct (yaml_entry (k, v)) as [y|] eqn:E; cbn [bind] in C; [|discriminate]. destruct (collect yaml_entry us) as [l0|] eqn:C0; cbn [bind] in C; [|discriminate].
    injection C as <-. cbn [map]. constructor; [|now apply IH]. intros I. apply X.
    assert (Z : forall us l k, collect yaml_entry us = Ok l -> In k (map fst l) -> In (VStr k) (map fst us)).
    { clear. induction us as [|[k v] us IH]; intros l k' C I; cbn [collect] in C; [injection C as <-; destruct I|].
      destruct (yaml_entry (k, v)) as [y|] eqn:E; cbn [bind] in C; [|discriminate]. destruct (collect yaml_entry us) as [l0|] eqn:C0; cbn [bind] in C; [|discriminate].
      injection C as <-. destruct I as [<-|I]; [left|right; now apply (IH l0)]. unfold yaml_entry in E. cbn [fst snd] in *. destruct k; try discriminate.
      destruct (de yaml_c v); cbn [bind] in E; [|discriminate]. now injection E as <-. }
    unfold yaml_entry in E. cbn [fst snd] in *. destruct k; try discriminate. destruct (de yaml_c v); cbn [bind] in E; [|discriminate]. injection E as <-.
    exact (Z us l0 s C0 I). }
  rewrite (K es l N C) in Q. rewrite (K es' l' (Permutation_NoDup (Permutation_map fst P) N) C'). exact (Permutation_trans (Permutation_sym P') Q).
Qed.

(** But the result is not determined, and a network with two extensions can be saved in two ways. *)
Theorem resource_order_refuted : exists w es a b, reads_resource (network_c w) es (Ok a) /\ reads_resource (network_c w) es (Ok b) /\ a <> b /\
  ser (resource_c (network_c w)) a <> ser (resource_c (network_c w)) b.
Proof.
  set (es := [(VStr $"x-a", VInt 1); (VStr $"x-b", VInt 2)]).
  set (n := fun x => @Managed (vals (network_ms w0) * extensions) ((None, ([], (false, (false, (None, (false, (LList [], (None, tt)))))))), x)).
  exists w0, es, (n [($"x-a", VInt 1); ($"x-b", VInt 2)]), (n [($"x-b", VInt 2); ($"x-a", VInt 1)]).
  assert (S : ser (resource_c (network_c w0)) (n [($"x-a", VInt 1); ($"x-b", VInt 2)]) <> ser (resource_c (network_c w0)) (n [($"x-b", VInt 2); ($"x-a", VInt 1)])).
  { vm_compute. discriminate. }
  split; [exists [($"x-a", VInt 1); ($"x-b", VInt 2)]; split; [apply Permutation_refl|vm_compute; reflexivity]|].
  split; [exists [($"x-b", VInt 2); ($"x-a", VInt 1)]; split; [apply perm_swap|vm_compute; reflexivity]|].
  split; [|exact S]. intros E. apply S. now rewrite E.
Qed.

Example resource_order_example : reads_resource (network_c w0) [(VStr $"external", VBool true); (VStr $"name", VStr $"n")] (Ok (External (Some $"n"))) /\
  ~ reads_resource (network_c w0) [(VStr $"external", VBool true); (VStr $"internal", VBool true)] (Ok (External None)).
Proof.
  split; [exists [($"name", VStr $"n"); ($"external", VBool true)]; split; [apply perm_swap|vm_compute; reflexivity]|].
  intros H. refine (proj1 (resource_order w0 _) _ (Err DeError) H _). exists [($"external", VBool true); ($"internal", VBool true)]. split; [apply Permutation_refl|vm_compute; reflexivity].
Qed.

Print Assumptions resource_order.
Print Assumptions resource_order_model.
Print Assumptions resource_entries.
Print Assumptions resource_order_refuted.
