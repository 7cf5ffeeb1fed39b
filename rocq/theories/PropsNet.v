(** Theorems about MAC addresses, network modes and exposed ports (C22, C24, C38). *)

From Coq Require Import String Ascii List NArith ZArith Bool Lia.
Import ListNotations.
From Verif Require Import Base Num Serde Regex KeysModel KeysSpec PortsModel PortsProofs NetModel NetProofs.
Open Scope N_scope.

(** C22. Every MAC address survives printing and parsing. *)
Theorem mac_text_round_trip : forall m, List.length m = 6%nat -> Forall (fun b => b <= 255) m ->
  mac_parse (mac_show m) = Ok m /\ mac_deserialize (mac_serialize m) = Ok m.
Proof.
  intros m L F. split; [apply mac_round_trip; assumption|].
  unfold mac_deserialize, mac_serialize, from_string. rewrite mac_round_trip by assumption. reflexivity.
Qed.
Print Assumptions mac_text_round_trip.

Example mac_case : mac_show [5; 0; 10; 255; 16; 1] = $"5:00:0a:ff:10:01".
Proof. vm_compute. reflexivity. Qed.

(** C22. Exact language: six groups separated by colons, each a hexadecimal number that fits a byte; an
    address parsed is six bytes. *)
Theorem mac_parse_meaning : forall s m, mac_parse s = Ok m <->
  exists p1 p2 p3 p4 p5 p6 b1 b2 b3 b4 b5 b6,
    s = p1 ++ $":" ++ p2 ++ $":" ++ p3 ++ $":" ++ p4 ++ $":" ++ p5 ++ $":" ++ p6 /\
    m = [b1; b2; b3; b4; b5; b6] /\
    Forall2 (fun p b => ~ In (ch ":") p /\ parse_uint_radix 16 255 p = Ok b /\ b <= 255) [p1; p2; p3; p4; p5; p6] m.
Proof.
  intros s m. rewrite mac_parse_ok. split.
  - intros [L F]. pose proof (BaseFacts.split_pieces (ch ":") s) as P. pose proof (BaseFacts.split_join (ch ":") s) as J.
    destruct m as [|b1 [|b2 [|b3 [|b4 [|b5 [|b6 [|b7 m]]]]]]]; try discriminate L.
    remember (split (ch ":") s) as l eqn:El. clear El.
    repeat match goal with H : Forall2 _ _ (_ :: _) |- _ => inversion H; clear H; subst | H : Forall2 _ _ [] |- _ => inversion H; clear H; subst end.
    repeat match goal with H : Forall _ (_ :: _) |- _ => inversion H; clear H; subst end.
    do 12 eexists. split; [reflexivity|]. split; [reflexivity|].
    repeat constructor; try assumption; eapply parse_uint_radix_bound; eassumption.
  - intros [p1 [p2 [p3 [p4 [p5 [p6 [b1 [b2 [b3 [b4 [b5 [b6 [-> [-> F]]]]]]]]]]]]]]. split; [reflexivity|].
    repeat match goal with H : Forall2 _ (_ :: _) _ |- _ => inversion H; clear H; subst end.
    repeat match goal with H : _ /\ _ |- _ => destruct H end.
    cbn [of_string map list_ascii_of_string app]. change (N_of_ascii ":") with (ch ":").
    rewrite !BaseFacts.split_app by assumption. rewrite BaseFacts.split_no by assumption. repeat constructor; assumption.
Qed.
Print Assumptions mac_parse_meaning.

Theorem mac_parse_normalizes : forall s m, mac_parse s = Ok m -> mac_parse (mac_show m) = Ok m.
Proof. intros s m H. apply mac_parse_bytes in H as [L F]. apply mac_round_trip; assumption. Qed.
Print Assumptions mac_parse_normalizes.

(** C24. Every exposed port or range, with a protocol which is not an [Other] spelling a known one. *)
Theorem expose_text_round_trip : forall e,
  r_start (ex_range e) <= 65535 -> (forall x, r_end (ex_range e) = Some x -> x <= 65535) ->
  ex_protocol e <> Some (POther $"tcp") -> ex_protocol e <> Some (POther $"udp") ->
  expose_parse (expose_show e) = Ok e /\ expose_deserialize (expose_serialize e) = OOk e.
Proof.
  intros e H1 H2 H3 H4. assert (V : ex_valid e).
  { split; [split; [exact H1|destruct (r_end (ex_range e)); [apply H2; reflexivity|exact I]]|].
    destruct (ex_protocol e) as [[| |s]|]; try exact I. split; congruence. }
  split; [apply expose_round_trip|apply expose_serde_round_trip]; exact V.
Qed.
Print Assumptions expose_text_round_trip.

Example expose_case : expose_show (mk_expose (mk_range 3000 (Some 3010)) (Some Udp)) = $"3000-3010/udp".
Proof. vm_compute. reflexivity. Qed.

(** C24. The protocol is what follows the first slash. *)
Theorem expose_parse_meaning : forall s e, expose_parse s = Ok e <->
  match ex_protocol e with
  | None => ~ In (ch "/") s /\ range_parse s = Ok (ex_range e)
  | Some p => p <> POther $"tcp" /\ p <> POther $"udp" /\
              exists a, s = a ++ $"/" ++ protocol_show p /\ ~ In (ch "/") a /\ range_parse a = Ok (ex_range e)
  end.
Proof.
  intros s e. rewrite expose_parse_ok. destruct (ex_protocol e) as [p|]; [|reflexivity].
  assert (C : protocol_canonical p <-> p <> POther $"tcp" /\ p <> POther $"udp").
  { destruct p as [| |t]; cbn [protocol_canonical]; split; try tauto; try (intros _; split; discriminate).
    - intros [H1 H2]. split; congruence.
    - intros [H1 H2]. split; congruence. }
  rewrite C. tauto.
Qed.
Print Assumptions expose_parse_meaning.

(** C38. A text parses to the mode [m] exactly if it is the text of [m] and [m] is not an [Other] spelling
    another mode; so printing inverts parsing and parsing inverts printing. *)
Theorem network_mode_text : forall s m, network_mode_parse s = Ok m <->
  s = network_mode_show m /\
  match m with
  | NmNone | NmHost => True
  | NmService id | NmContainer id => matches IDENTIFIER_RE id
  | NmOther o => o <> $"none" /\ o <> $"host" /\ (forall r, o <> $"service:" ++ r) /\ (forall r, o <> $"container:" ++ r)
  end.
Proof. intros s m. rewrite network_mode_parse_ok. unfold nm_canonical. intuition congruence. Qed.
Print Assumptions network_mode_text.

Example network_mode_case : network_mode_parse $"service:db" = Ok (NmService $"db") /\
  network_mode_parse $"bridge" = Ok (NmOther $"bridge").
Proof. vm_compute. auto. Qed.

(** C38. The only texts rejected are a service or container prefix followed by an invalid identifier. *)
Theorem network_mode_rejects : forall s, (exists e, network_mode_parse s = Err e) <->
  exists r, (s = $"service:" ++ r \/ s = $"container:" ++ r) /\ ~ matches IDENTIFIER_RE r.
Proof.
  intros s. split.
  - intros [e H]. unfold network_mode_parse in H.
    destruct (str_eqb s $"none"); [discriminate|]. destruct (str_eqb s $"host"); [discriminate|].
    destruct (strip_prefix $"service:" s) as [r|] eqn:E1.
    { apply BaseFacts.strip_prefix_some in E1. exists r. split; [auto|]. intros M. apply identifier_ok in M. rewrite M in H. discriminate. }
    destruct (strip_prefix $"container:" s) as [r|] eqn:E2; [|discriminate].
    apply BaseFacts.strip_prefix_some in E2. exists r. split; [auto|]. intros M. apply identifier_ok in M. rewrite M in H. discriminate.
  - intros [r [E M]]. destruct (network_mode_parse s) as [m|e] eqn:P; [|eauto]. exfalso.
    apply network_mode_text in P as [-> C]. destruct m as [| |id|id|o]; cbn [network_mode_show] in E.
    + destruct E; discriminate.
    + destruct E; discriminate.
    + destruct E as [E|E]; [|discriminate]. apply app_inv_head in E. subst r. contradiction.
    + destruct E as [E|E]; [discriminate|]. apply app_inv_head in E. subst r. contradiction.
    + destruct C as [_ [_ [C1 C2]]]. destruct E as [E|E]; [exact (C1 _ E)|exact (C2 _ E)].
Qed.
Print Assumptions network_mode_rejects.
