(** Lemmas about error messages, for PropsErrorText. *)

From Coq Require Import String Ascii List NArith ZArith Bool Lia.
Import ListNotations.
From Verif Require Import Base BaseFacts Num NumFacts KeysModel DurationModel NetModel PortsModel BytesModel ImageModel VolumesModel PathModel UserModel BuildModel DeviceModel TextModel ValuesModel.
From Verif Require Import ErrorSpec ErrorFacts ErrorText ErrorTextSpec.
Open Scope N_scope.

(** ** Chains *)

Lemma chain_wrap : forall m l, l <> [] -> error_chain (m :: l) = message_text m ++ $": " ++ error_chain l.
Proof. intros m [|x l] H; [easy|]. reflexivity. Qed.

(** The pieces of a whole chain. *)
Fixpoint flat (l : messages) : list piece :=
  match l with
  | [] => []
  | m :: r => m ++ match r with [] => [] | _ => Lit $": " :: flat r end
  end.
Lemma message_app : forall a b, message_text (a ++ b) = message_text a ++ message_text b.
Proof. intros. apply flat_map_app. Qed.
Lemma flat_text : forall l, error_chain l = message_text (flat l).
Proof.
  induction l as [|m [|x l] IH]; [reflexivity|cbn [flat]; rewrite app_nil_r; reflexivity|].
  rewrite chain_wrap, IH by easy. symmetry. apply (message_app m (Lit $": " :: flat (x :: l))).
Qed.
(** The text around the first argument, and that argument. *)
Fixpoint cut (p : list piece) : str * str :=
  match p with
  | [] => ([], [])
  | Lit s :: r => (s ++ fst (cut r), snd (cut r))
  | Arg _ :: r => ([], message_text r)
  end.
Fixpoint named (p : list piece) : str :=
  match p with [] => [] | Lit _ :: r => named r | Arg s :: _ => s end.
Lemma cut_text : forall p, message_text p = fst (cut p) ++ named p ++ snd (cut p).
Proof. induction p as [|[s|s] p IH]; [reflexivity| |reflexivity]. cbn [cut named fst snd]. rewrite <- app_assoc, <- IH. reflexivity. Qed.
(** The text after the last argument, reversed. *)
Fixpoint tail (p : list piece) (acc : str) : str :=
  match p with [] => acc | Lit s :: r => tail r (rev_append s acc) | Arg _ :: r => tail r [] end.
Lemma tail_text : forall p acc a, exists b, rev (message_text p) ++ acc ++ a = tail p acc ++ b.
Proof.
  induction p as [|[s|s] p IH]; intros acc a; cbn [message_text flat_map piece_text tail].
  - now exists a.
  - destruct (IH (rev_append s acc) a) as [b H]. exists b. rewrite <- H, rev_app_distr, <- app_assoc, rev_append_rev, <- app_assoc. reflexivity.
  - destruct (IH [] (rev s ++ acc ++ a)) as [b H]. exists b. rewrite <- H, rev_app_distr, <- app_assoc. reflexivity.
Qed.

(** Two texts with different beginnings. *)
Fixpoint clash (u v : str) : bool :=
  match u, v with x :: u, y :: v => if x =? y then clash u v else true | _, _ => false end.
Lemma clash_differ : forall u v a b, u ++ a = v ++ b -> clash u v = false.
Proof.
  induction u as [|x u IH]; intros [|y v] a b H; try reflexivity. injection H as -> H. cbn. rewrite N.eqb_refl. eauto.
Qed.
Lemma heads_agree : forall l1 l2, error_chain l1 = error_chain l2 -> clash (fst (cut (flat l1))) (fst (cut (flat l2))) = false.
Proof. intros l1 l2 H. rewrite !flat_text, (cut_text (flat l1)), (cut_text (flat l2)) in H. eapply clash_differ, H. Qed.
Lemma tails_agree : forall l1 l2, error_chain l1 = error_chain l2 -> clash (tail (flat l1) []) (tail (flat l2) []) = false.
Proof.
  intros l1 l2 H. rewrite !flat_text in H. destruct (tail_text (flat l1) [] []) as [a A], (tail_text (flat l2) [] []) as [b B].
  rewrite H, B in A. eapply clash_differ. symmetry. exact A.
Qed.
Lemma same_named : forall l1 l2, error_chain l1 = error_chain l2 -> cut (flat l1) = cut (flat l2) -> named (flat l1) = named (flat l2).
Proof.
  intros l1 l2 H E. rewrite !flat_text, (cut_text (flat l1)), (cut_text (flat l2)), E in H. apply app_inv_head in H. now apply app_inv_tail in H.
Qed.

Ltac apart H := exfalso; first
  [ apply heads_agree in H; vm_compute in H; discriminate H | apply tails_agree in H; vm_compute in H; discriminate H ].
Ltac same H := first [ reflexivity | apply same_named in H; [|vm_compute; reflexivity]; cbv [named flat app] in H; cbn in H; first [injection H as H|idtac]; now subst ].
Ltac tell := intros e1 e2 _ _ H; destruct e1, e2; first [apart H | same H].

Lemma int_tells : tells any int_messages. Proof. tell. Qed.
Lemma name_tells : tells any name_messages. Proof. tell. Qed.
Lemma identifier_tells : tells any identifier_messages. Proof. tell. Qed.
Lemma map_key_tells : tells any map_key_messages. Proof. tell. Qed.
Lemma extension_key_tells : tells any extension_key_messages. Proof. tell. Qed.
Lemma hostname_tells : tells any hostname_messages. Proof. tell. Qed.
Lemma user_name_tells : tells any user_name_messages. Proof. tell. Qed.
Lemma duration_tells : tells any duration_messages. Proof. tell. Qed.
Lemma weight_tells : tells any weight_messages. Proof. tell. Qed.
Lemma tag_tells : tells any tag_messages. Proof. tell. Qed.
Lemma digest_tells : tells any digest_messages. Proof. tell. Qed.
Lemma cache_option_tells : tells any cache_option_messages. Proof. tell. Qed.
Lemma ssh_id_tells : tells any ssh_id_messages. Proof. tell. Qed.
Lemma device_tells : tells any device_messages. Proof. tell. Qed.
Lemma platform_tells : tells any platform_messages. Proof. intros e1 e2 _ _ H. same H. Qed.
Lemma resource_tells : tells (fun e => forall c, e <> KeyStart c) resource_messages.
Proof. intros e1 e2 A B H; destruct e1, e2; try (now elim (A _ eq_refl)); try (now elim (B _ eq_refl)); first [apart H | same H]. Qed.
Lemma try_from_number_tells : tells (fun e => e = TFFloatToInt \/ e = TFInt) try_from_number_messages.
Proof. intros e1 e2 [-> | ->] [-> | ->] H; first [apart H | same H]. Qed.

(** An integer error after a quoted text. *)
Ltac tell_int := intros e1 e2 _ _ H; destruct e1, e2; repeat match goal with e : int_error |- _ => destruct e end; first [apart H | same H].
Lemma byte_value_tells : tells any byte_value_messages. Proof. tell_int. Qed.
Lemma cpuset_tells : tells any cpuset_messages. Proof. tell_int. Qed.
Lemma mac_tells : tells any mac_messages. Proof. tell_int. Qed.
Lemma parse_range_tells : tells any parse_range_messages. Proof. tell_int. Qed.
Lemma image_name_tells : tells any image_name_messages. Proof. tell_int. Qed.
Lemma cgroup_tells : tells any cgroup_messages. Proof. tell_int. Qed.
Lemma number_tells : tells any number_messages. Proof. tell_int. Qed.

(** An error around another. *)
Lemma under : forall {E} (m : E -> messages) a e1 e2, tells any m -> (forall e, m e <> []) -> error_chain (a :: m e1) = error_chain (a :: m e2) -> e1 = e2.
Proof.
  intros E m a e1 e2 T N H. rewrite !chain_wrap in H by apply N. apply app_inv_head in H. apply app_inv_head in H. now apply T.
Qed.
Ltac tell_under T := intros e1 e2 _ _ H; destruct e1, e2; first [apart H | same H | f_equal; refine (under _ _ _ _ T _ H); now intros [] ].
Lemma network_mode_tells : tells any network_mode_messages. Proof. intros e1 e2 _ _ H. exact (under _ _ _ _ identifier_tells (fun _ E => ltac:(discriminate E)) H). Qed.
Lemma ipc_tells : tells any ipc_messages. Proof. intros e1 e2 _ _ H. exact (under _ _ _ _ identifier_tells (fun _ E => ltac:(discriminate E)) H). Qed.
Lemma source_tells : tells any source_messages.
Proof. intros [[]|e1] [[]|e2] _ _ H; first [apart H | same H | f_equal; exact (under _ _ _ _ identifier_tells (fun _ E => ltac:(discriminate E)) H)]. Qed.
Lemma short_volume_tells : tells any short_volume_messages. Proof. tell_under source_tells. Qed.
Lemma image_tells : tells any image_messages.
Proof.
  intros e1 e2 _ _ H; destruct e1, e2;
    first [apart H | same H | f_equal; first [refine (under _ _ _ _ digest_tells _ H) | refine (under _ _ _ _ tag_tells _ H) | refine (under _ _ _ _ image_name_tells _ H)]; now intros []].
Qed.
Lemma cache_tells : tells any cache_messages.
Proof.
  intros e1 e2 _ _ H; destruct e1, e2;
    first [apart H | same H | f_equal; first [refine (under _ _ _ _ image_tells _ H) | refine (under _ _ _ _ cache_option_tells _ H)]; now intros []].
Qed.
Lemma try_from_value_tells : tells any try_from_value_messages. Proof. tell_under number_tells. Qed.

(** Numbers. *)
Lemma show_Z_inj : forall a b, show_Z a = show_Z b -> a = b.
Proof.
  assert (M : forall n m, show_N n = 45 :: m -> False).
  { intros n m H. apply (show_N_not_In n 45 eq_refl). rewrite H. now left. }
  intros [|p|p] [|q|q] H; cbn [show_Z] in H; try (exfalso; eauto; fail); try (symmetry in H; exfalso; eauto; fail);
    try (apply show_N_inj in H; lia). injection H as H. apply show_N_inj in H. congruence.
Qed.
Lemma show_Z_chars : forall z c, In c (show_Z z) -> c = 45 \/ is_digit c = true.
Proof.
  intros z c H. destruct (is_digit c) eqn:D; [now right|left].
  destruct z as [|p|p]; cbn [show_Z] in H; try (now elim (show_N_not_In _ _ D H)). destruct H as [<-|H]; [reflexivity|]. now elim (show_N_not_In _ _ D H).
Qed.
Lemma range_error_tells : tells any range_error_messages.
Proof.
  intros [a b c] [a' b' c'] _ _ H. rewrite !flat_text in H. unfold range_error_messages, flat in H. cbn [re_value re_start re_end app message_text flat_map piece_text] in H.
  apply app_inv_head in H.
  change ($"` is not between ") with (96 :: $" is not between ") in H. cbn [app] in H.
  assert (N : forall z d, (d =? 45) || is_digit d = false -> ~ In d (show_Z z)).
  { intros z d D I. apply show_Z_chars in I as [-> | I]; [discriminate D|]. rewrite I in D. now destruct (d =? 45). }
  apply cut_fun in H as [H1 H]; try (apply N; reflexivity). apply app_inv_head in H.
  change ($" and ") with (32 :: $"and ") in H. cbn [app] in H.
  apply cut_fun in H as [H2 H]; try (apply N; reflexivity). apply app_inv_head in H. rewrite !app_nil_r in H.
  apply show_Z_inj in H1, H2, H. now subst.
Qed.
Lemma sizes_tells : tells any sizes_messages.
Proof.
  intros [a b] [a' b'] _ _ H. rewrite !flat_text in H. unfold sizes_messages, flat in H. cbn [fst snd app message_text flat_map piece_text] in H.
  apply app_inv_head in H.
  change ($"` must be equal to container port range size `") with (96 :: $" must be equal to container port range size `") in H. cbn [app] in H.
  apply cut_fun in H as [H1 H]; try (apply show_N_not_In; reflexivity). apply app_inv_head in H. apply app_inv_tail in H.
  apply show_N_inj in H1, H. now subst.
Qed.
Lemma short_ranges_tells : tells any short_ranges_messages.
Proof.
  intros e1 e2 _ _ H; destruct e1 as [e1|e1], e2 as [e2|e2]; try (apart H);
    f_equal; first [refine (under _ _ _ _ sizes_tells _ H) | refine (under _ _ _ _ parse_range_tells _ H)]; now intros [].
Qed.
(** Of an address only that it is wrong is told. *)
Lemma short_port_told : forall e1 e2, error_chain (short_port_messages e1) = error_chain (short_port_messages e2) <->
  e1 = e2 \/ (exists a b, e1 = SPIpAddr a /\ e2 = SPIpAddr b).
Proof.
  intros e1 e2. split; [|intros [-> | (a & b & -> & ->)]; reflexivity].
  destruct e1 as [a|e1], e2 as [b|e2]; intros H; [right; eauto|apart H|apart H|left; f_equal; refine (under _ _ _ _ short_ranges_tells _ H); now intros []].
Qed.
