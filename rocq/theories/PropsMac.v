(** C89: the texts of MAC addresses against the usual notation, six pairs of hexadecimal digits. *)

From Coq Require Import String Ascii List NArith ZArith Bool Lia.
Import ListNotations.
From Verif Require Import Base BaseFacts Num Serde NetModel NetProofs.
Open Scope N_scope.

(** ** Specification *)

(** The usual notation (IEEE 802, and what Docker's [net.ParseMAC] reads): each byte as two digits. *)
Definition pair (digits : str) (b : N) : str := [nth (N.to_nat (b / 16)) digits 0; nth (N.to_nat (b mod 16)) digits 0].
Definition usual (digits : str) (m : list N) : str := join $":" (map (pair digits) m).
Definition lower_digits : str := $"0123456789abcdef".
Definition upper_digits : str := $"0123456789ABCDEF".
Definition address (m : list N) : Prop := List.length m = 6%nat /\ Forall (fun b => b <= 255) m.

(** ** Proofs *)

Lemma bytes_all : forall (P : N -> bool), forallb (fun n => P (N.of_nat n)) (seq 0 256) = true -> forall b, b <= 255 -> P b = true.
Proof.
  intros P H b L. rewrite forallb_forall in H. rewrite <- (N2Nat.id b). apply H. apply in_seq. lia.
Qed.
Lemma hex02_pair : forall b, b <= 255 -> hex02 b = pair lower_digits b.
Proof. intros b L. apply str_eqb_eq. revert b L. apply bytes_all. vm_compute. reflexivity. Qed.
Lemma hex_pair : forall b, b <= 255 -> pair lower_digits b = if 16 <=? b then hex b else ch "0" :: hex b.
Proof. intros b L. apply str_eqb_eq. revert b L. apply bytes_all. vm_compute. reflexivity. Qed.
Lemma pair_parses : forall b, b <= 255 -> parse_uint_radix 16 U8_MAX (pair lower_digits b) = Ok b /\ parse_uint_radix 16 U8_MAX (pair upper_digits b) = Ok b.
Proof.
  intros b L.
  assert (H : (match parse_uint_radix 16 U8_MAX (pair lower_digits b), parse_uint_radix 16 U8_MAX (pair upper_digits b) with Ok x, Ok y => (x =? b) && (y =? b) | _, _ => false end) = true).
  { revert b L. apply (bytes_all (fun b => match parse_uint_radix 16 U8_MAX (pair lower_digits b), parse_uint_radix 16 U8_MAX (pair upper_digits b) with Ok x, Ok y => (x =? b) && (y =? b) | _, _ => false end)).
    vm_compute. reflexivity. }
  destruct (parse_uint_radix 16 U8_MAX (pair lower_digits b)) as [x|]; [|discriminate]. destruct (parse_uint_radix 16 U8_MAX (pair upper_digits b)) as [y|]; [|discriminate].
  apply andb_true_iff in H as [X Y]. apply N.eqb_eq in X, Y. now subst.
Qed.
Lemma pair_no_colon : forall b, b <= 255 -> ~ In (ch ":") (pair lower_digits b) /\ ~ In (ch ":") (pair upper_digits b).
Proof.
  intros b L. assert (H : negb (existsb (N.eqb (ch ":")) (pair lower_digits b)) && negb (existsb (N.eqb (ch ":")) (pair upper_digits b)) = true).
  { revert b L. apply bytes_all. vm_compute. reflexivity. }
  apply andb_true_iff in H as [X Y]. apply negb_true_iff in X, Y.
  split; intros I; [rewrite (proj2 (existsb_exists _ _)) in X|rewrite (proj2 (existsb_exists _ _)) in Y]; try discriminate; exists (ch ":"); split; auto using N.eqb_refl.
Qed.
Lemma usual_parses : forall digits, (forall b, b <= 255 -> parse_uint_radix 16 U8_MAX (pair digits b) = Ok b) -> (forall b, b <= 255 -> ~ In (ch ":") (pair digits b)) ->
  forall m, address m -> mac_parse (usual digits m) = Ok m.
Proof.
  intros digits P C m [L F]. apply mac_parse_ok. split; [exact L|].
  assert (S : forall m, m <> [] -> Forall (fun b => b <= 255) m -> split (ch ":") (usual digits m) = map (pair digits) m).
  { clear m L F. intros m. induction m as [|b [|c r] IH]; intros N F; [congruence| |].
    - inversion F; subst. unfold usual. cbn [map join]. apply split_no. now apply C.
    - inversion F as [|? ? Hb Hr]; subst. change (usual digits (b :: c :: r)) with (pair digits b ++ ch ":" :: usual digits (c :: r)).
      rewrite split_app by now apply C. rewrite IH by (discriminate || assumption). reflexivity. }
  rewrite S by (destruct m; [discriminate|discriminate] || assumption). clear L S.
  induction F as [|b m Hb F IH]; cbn [map]; constructor; auto.
Qed.
Lemma usual_cons : forall b r, usual lower_digits (b :: r) = pair lower_digits b ++ flat_map (fun x => ch ":" :: pair lower_digits x) r.
Proof.
  intros b r. revert b. induction r as [|c r IH]; intros b; [cbn; reflexivity|].
  change (usual lower_digits (b :: c :: r)) with (pair lower_digits b ++ ch ":" :: usual lower_digits (c :: r)). rewrite IH. reflexivity.
Qed.
Lemma show_tail : forall r, Forall (fun b => b <= 255) r -> flat_map (fun x => ch ":" :: hex02 x) r = flat_map (fun x => ch ":" :: pair lower_digits x) r.
Proof. intros r F. induction F as [|b r H F IH]; [reflexivity|]. cbn [flat_map]. now rewrite IH, hex02_pair by assumption. Qed.
Lemma show_usual : forall b r, address (b :: r) -> usual lower_digits (b :: r) = if 16 <=? b then mac_show (b :: r) else ch "0" :: mac_show (b :: r).
Proof.
  intros b r [_ F]. inversion F as [|? ? Hb Hr]; subst. rewrite usual_cons, hex_pair by assumption. cbn [mac_show]. rewrite show_tail by assumption.
  destruct (16 <=? b); reflexivity.
Qed.

(** The property, "the text of a MAC address is in the usual notation", is false: the first byte is not padded with a zero. *)
Theorem mac_usual_refuted : exists m, address m /\ mac_show m <> usual lower_digits m /\ mac_show m = $"2:42:ac:11:00:02".
Proof.
  exists [2; 66; 172; 17; 0; 2]. split; [split; [reflexivity|repeat constructor; lia]|]. split; [vm_compute; discriminate|reflexivity].
Qed.
Print Assumptions mac_usual_refuted.

(** It is true exactly if the first byte has two digits; otherwise only a zero is missing. *)
Theorem mac_usual_partial : forall b r, address (b :: r) ->
  (mac_show (b :: r) = usual lower_digits (b :: r) <-> 16 <= b) /\ (b < 16 -> usual lower_digits (b :: r) = ch "0" :: mac_show (b :: r)).
Proof.
  intros b r A. assert (S := show_usual b r A). destruct (N.leb_spec 16 b) as [H|H].
  - split; [split; [intros _; exact H|intros _; now symmetry]|lia].
  - split; [|intros _; exact S]. split; [|lia]. intros E. rewrite E in S. apply (f_equal (@List.length char)) in S. cbn in S. lia.
Qed.
Print Assumptions mac_usual_partial.

(** Every address in the usual notation is read, with lower or upper case digits, *)
Theorem mac_usual_read : forall m, address m -> mac_parse (usual lower_digits m) = Ok m /\ mac_parse (usual upper_digits m) = Ok m.
Proof. intros m A. split; apply usual_parses; try assumption; intros b L; first [apply pair_parses; exact L|apply pair_no_colon; exact L]. Qed.
Print Assumptions mac_usual_read.

(** but not only those: leading zeros, one digit or a plus sign are fine too. *)
Theorem mac_only_usual_refuted : exists s m, mac_parse s = Ok m /\ address m /\ s = $"+2:0042:aC:11:0:2".
Proof.
  exists $"+2:0042:aC:11:0:2", [2; 66; 172; 17; 0; 2]. split; [vm_compute; reflexivity|]. split; [split; [reflexivity|repeat constructor; lia]|reflexivity].
Qed.
Print Assumptions mac_only_usual_refuted.

Example mac_usual_case : usual lower_digits [146; 208; 198; 10; 41; 51] = $"92:d0:c6:0a:29:33" /\ mac_show [146; 208; 198; 10; 41; 51] = $"92:d0:c6:0a:29:33".
Proof. split; reflexivity. Qed.
