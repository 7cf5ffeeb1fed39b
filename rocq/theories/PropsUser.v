(** Theorems about [User] and [IdOrName] texts (C08). *)

From Coq Require Import String Ascii List NArith ZArith Bool Lia.
Import ListNotations.
From Verif Require Import Base Num UserModel UserProofs.
Open Scope N_scope.

(** C08. A valid name is never read as a numeric id. *)
Theorem user_name_is_not_an_id : forall s t n, user_name_new s = Ok t -> parse_u32 s <> Ok n.
Proof. intros s t n H. pose proof (user_name_facts _ _ H) as [-> _]. apply name_not_id. exact H. Qed.
Print Assumptions user_name_is_not_an_id.

(** C08. Printing an [IdOrName] and parsing the text gives the same value. *)
Theorem id_or_name_text_round_trip : forall x,
  match x with Id n => n < 2 ^ 32 | UName s => user_name_new s = Ok s end ->
  id_or_name_parse (id_or_name_show x) = Ok x.
Proof.
  intros x H. apply id_or_name_round_trip. destruct x as [n|s]; cbn [valid_id_or_name]; [|exact H].
  change (2 ^ 32) with 4294967296 in H. unfold U32_MAX. lia.
Qed.
Print Assumptions id_or_name_text_round_trip.

Example id_or_name_case : id_or_name_parse $"007" = Ok (Id 7) /\ id_or_name_parse $"007a" = Ok (UName $"007a").
Proof. vm_compute. auto. Qed.

(** C08. Printing a [User] and parsing the text gives the same value, for ids below 2^32 and valid names. *)
Theorem user_text_round_trip : forall u,
  (match user_user u with Id n => n < 2 ^ 32 | UName s => user_name_new s = Ok s end) ->
  (match user_group u with
   | None => True | Some (Id n) => n < 2 ^ 32 | Some (UName s) => user_name_new s = Ok s end) ->
  user_parse (user_show u) = Ok u /\ user_into_string u = user_show u.
Proof.
  intros [x g] H1 H2. split; [|apply user_into_string_show]. apply user_round_trip_valid.
  cbn [user_user user_group] in *. change (2 ^ 32) with 4294967296 in *. split; cbn [user_user user_group].
  - destruct x; cbn [valid_id_or_name]; [unfold U32_MAX; lia|exact H1].
  - destruct g as [[n|s]|]; cbn [valid_id_or_name]; [unfold U32_MAX; lia|exact H2|exact I].
Qed.
Print Assumptions user_text_round_trip.

(** C08. Whatever was parsed prints to a text which parses to the same value. *)
Theorem user_parse_normalizes : forall s u, user_parse s = Ok u -> user_parse (user_show u) = Ok u.
Proof. intros s u H. apply user_round_trip_valid. eapply user_parse_valid. exact H. Qed.
Print Assumptions user_parse_normalizes.

Example user_case :
  user_parse $"+05:www-data" = Ok (mk_user (Id 5) (Some (UName $"www-data"))) /\
  user_show (mk_user (Id 5) (Some (UName $"www-data"))) = $"5:www-data".
Proof. vm_compute. auto. Qed.
