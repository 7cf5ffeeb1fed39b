(** Theorems about validated strings (C04, C05, C06, C07, C09). *)

From Coq Require Import String Ascii List NArith ZArith Bool Lia.
Import ListNotations.
From Verif Require Import Base Num Regex RegexFacts KeysModel KeysSpec KeysProofs UserModel UserProofs.
Open Scope N_scope.

(** C04. Project names are exactly [^[a-z0-9][a-z0-9_-]*$], and keep their text. *)
Theorem project_name_language : forall s t, name_new s = Ok t <-> t = s /\ matches NAME_RE s.
Proof. exact name_new_ok. Qed.
Print Assumptions project_name_language.

Example project_name_language_case :
  name_new $"my-app_2" = Ok $"my-app_2" /\ name_new $"-app" = Err (KeyStart (ch "-")) /\ name_new $"aB" = Err (KeyCharacter (ch "B")).
Proof. vm_compute. auto. Qed.

(** C04. A rejected name is reported with its first offending character. *)
Theorem project_name_errors : forall s e, name_new s = Err e <->
  (s = [] /\ e = KeyEmpty) \/
  (exists c r, s = c :: r /\ ~ in_cls [LOWER; DIGIT] c /\ e = KeyStart c) \/
  (exists f a c r, s = f :: a ++ c :: r /\ in_cls [LOWER; DIGIT] f /\
     Forall (in_cls [LOWER; DIGIT; one "_"; one "-"]) a /\
     ~ in_cls [LOWER; DIGIT; one "_"; one "-"] c /\ e = KeyCharacter c).
Proof. intros s e. rewrite name_new_first_rest. apply first_rest_err_cls. Qed.
Print Assumptions project_name_errors.

(** C05. Identifiers are exactly [^[a-zA-Z0-9][a-zA-Z0-9._-]*$], and keep their text. *)
Theorem identifier_language : forall s t, identifier_new s = Ok t <-> t = s /\ matches IDENTIFIER_RE s.
Proof. exact identifier_new_ok. Qed.
Print Assumptions identifier_language.

Example identifier_language_case :
  identifier_new $"Web.1_a-b" = Ok $"Web.1_a-b" /\ identifier_new $"_a" = Err (KeyStart (ch "_")).
Proof. vm_compute. auto. Qed.

(** C05. A rejected identifier is reported with its first offending character. *)
Theorem identifier_errors : forall s e, identifier_new s = Err e <->
  (s = [] /\ e = KeyEmpty) \/
  (exists c r, s = c :: r /\ ~ in_cls [LOWER; UPPER; DIGIT] c /\ e = KeyStart c) \/
  (exists f a c r, s = f :: a ++ c :: r /\ in_cls [LOWER; UPPER; DIGIT] f /\
     Forall (in_cls [LOWER; UPPER; DIGIT; one "."; one "_"; one "-"]) a /\
     ~ in_cls [LOWER; UPPER; DIGIT; one "."; one "_"; one "-"] c /\ e = KeyCharacter c).
Proof. intros s e. rewrite identifier_new_first_rest. apply first_rest_err_cls. Qed.
Print Assumptions identifier_errors.

(** C06. Map keys are the non-empty strings without a newline ([unicode]: characters are code points). *)
Theorem map_key_language : forall s t, unicode s -> (map_key_new s = Ok t <-> t = s /\ matches MAP_KEY_RE s).
Proof. exact map_key_new_ok. Qed.
Print Assumptions map_key_language.

Example map_key_language_case : unicode $"a b" /\ map_key_new $"a b" = Ok $"a b" /\ map_key_new [97; 10] = Err MapKeyMultipleLines.
Proof. split; [repeat constructor; discriminate|]. vm_compute. auto. Qed.

(** C06. Extension keys are exactly [^x-.*$]. *)
Theorem extension_key_language : forall s t, unicode s ->
  (extension_key_new s = Ok t <-> t = s /\ matches EXTENSION_KEY_RE s).
Proof. exact extension_key_new_ok. Qed.
Print Assumptions extension_key_language.

Example extension_key_language_case :
  unicode $"x-foo" /\ extension_key_new $"x-foo" = Ok $"x-foo" /\ extension_key_new $"y" = Err (ExtMissingPrefix $"y").
Proof. split; [repeat constructor; discriminate|]. vm_compute. auto. Qed.

(** C06. Removing the prefix of an extension key never panics, and gives the rest of the key. *)
Theorem extension_key_strip_total : forall s k, extension_key_new s = Ok k ->
  exists r, extension_key_strip_prefix k = Ret r /\ s = $"x-" ++ r.
Proof.
  intros s k H. destruct (extension_key_strip_prefix_ok s k H) as [r [H1 H2]]. exists r. split; [exact H1|].
  unfold extension_key_new in H. destruct (negb _); [discriminate|]. destruct (contains _ _); [discriminate|].
  injection H as ->. exact H2.
Qed.
Print Assumptions extension_key_strip_total.

(** C07. Hostnames are exactly the dot separated lists of labels. *)
Theorem hostname_language : forall s t, hostname_new s = Ok t <-> t = s /\ matches HOSTNAME_RE s.
Proof. exact hostname_new_ok. Qed.
Print Assumptions hostname_language.

Theorem hostname_language_labels : forall s t, hostname_new s = Ok t <->
  t = s /\ exists ls, ls <> [] /\ s = join $"." ls /\ Forall (matches LABEL_RE) ls.
Proof. intros s t. rewrite hostname_new_ok, hostname_labels. reflexivity. Qed.
Print Assumptions hostname_language_labels.

Example hostname_language_case :
  hostname_new $"a-b.c9" = Ok $"a-b.c9" /\ hostname_new $"a-.b" = Err HostLabelStartEnd /\
  hostname_new $"a..b" = Err HostLabelEmpty /\ hostname_new $"a_b" = Err (HostCharacter (ch "_")).
Proof. vm_compute. auto. Qed.

(** Ulimit resource names are exactly [^[a-z]+$]. *)
Theorem ulimit_resource_language : forall s t, ulimit_resource_new s = Ok t <-> t = s /\ matches ULIMIT_RE s.
Proof. exact ulimit_resource_new_ok. Qed.
Print Assumptions ulimit_resource_language.

(** Cache option keys and values: non-empty and free of white space. *)
Theorem cache_option_language : forall s t,
  cache_option_new s = Ok t <-> t = s /\ s <> [] /\ forall c, In c s -> is_whitespace c = false.
Proof. exact cache_option_new_ok. Qed.
Print Assumptions cache_option_language.

(** C09. User and group names: the documented pattern, not only digits, at most 32 characters. *)
Theorem user_name_language : forall s t,
  user_name_new s = Ok t <->
  t = s /\ matches USER_NAME_RE s /\ ~ Forall (in_cls [DIGIT]) s /\ N.of_nat (List.length s) <= 32.
Proof. exact user_name_new_ok. Qed.
Print Assumptions user_name_language.

Example user_name_language_case :
  user_name_new $"svc_1-a$" = Ok $"svc_1-a$" /\ user_name_new $"1000" = Err UserNumeric /\
  user_name_new $"a$b" = Err UserDollarSign /\ user_name_new $"-a" = Err UserStart /\ user_name_new $"$" = Ok $"$".
Proof. vm_compute. auto. Qed.
