(** C101: attributes which must be consistent. *)

From Coq Require Import String Ascii List NArith ZArith Bool.
Import ListNotations.
From Verif Require Import Base BaseFacts ValidateModel Serde Codec ServiceParts ServiceCodec ComposeCodec Schema NamesSpec PropsCompose ComposeView DocumentSpec PropsDocument
  PropsDefined PropsAdd AgreeSpec.
Open Scope N_scope.

(** Nothing compares them, neither when the file is loaded nor when it is validated: any section [deploy] goes with any service. *)
Theorem deploy_beside_anything : forall w es s d t, values_of $"deploy" es = [] -> de (service_c w) (VMap es) = Ok s -> de (service_c w) (VMap [(VStr $"deploy", d)]) = Ok t ->
  exists s', de (service_c w) (VMap (es ++ [(VStr $"deploy", d)])) = Ok s' /\ service_view s' = service_view s.
Proof.
  intros w es s d t N H T. destruct (service_addable w $"deploy" (fun I => match I with or_introl e => ltac:(discriminate e) | or_intror (or_introl e) => ltac:(discriminate e) | or_intror (or_intror f) => f end)
    d es s t N H T) as (s' & H' & F & _). exists s'. split; [exact H'|]. unfold service_view.
  rewrite (F 48%nat), (F 80%nat), (F 17%nat), (F 67%nat); [reflexivity|..]; vm_compute; intuition discriminate.
Qed.
Print Assumptions deploy_beside_anything.

(** The floats are 1.0 and 2.0. *)
Definition one_and_two_service : sval :=
  VMap [(VStr $"cpus", VFloat 4607182418800017408); (VStr $"mem_limit", VInt 1); (VStr $"mem_reservation", VInt 1); (VStr $"pids_limit", VInt 1); (VStr $"scale", VInt 1);
        (VStr $"deploy", VMap [(VStr $"replicas", VInt 2); (VStr $"resources", VMap [
          (VStr $"limits", VMap [(VStr $"cpus", VFloat 4611686018427387904); (VStr $"memory", VInt 2); (VStr $"pids", VInt 2)]); (VStr $"reservations", VMap [(VStr $"memory", VInt 2)])])])].
Definition one_and_two : sval := VMap [(VStr $"services", VMap [(VStr $"web", one_and_two_service)])].
Theorem agree_refuted : exists w v (c : compose w), load w v = Ok c /\ validate_all (compose_view c) = Ok tt /\ Forall (fun p => ~ agree (fst p) (snd p) v) pairs.
Proof.
  exists w0, one_and_two.
  assert (C : match load w0 one_and_two with Ok c => Some (validate_all (compose_view c)) | Err _ => None end = Some (Ok tt)) by (vm_compute; reflexivity).
  destruct (load w0 one_and_two) as [c|]; [|discriminate C]. exists c. split; [reflexivity|]. split; [exact (some_eq _ _ _ C)|].
  assert (G : forall p q x y, at_path p one_and_two_service x -> at_path q one_and_two_service y -> numbers x y -> x <> y -> ~ agree p q one_and_two).
  { intros p q x y P Q N D A. exact (D (A $"web" one_and_two_service x y (only_service _) P Q N)). }
  apply Forall_cons; [|repeat (apply Forall_cons; [apply (G _ _ (VInt 1) (VInt 2)); [..|left; do 2 eexists; split; reflexivity|discriminate];
    cbn [fst snd]; repeat (eexists; split; [eexists; split; reflexivity|]); reflexivity|]); apply Forall_nil].
  apply (G _ _ (VFloat 4607182418800017408) (VFloat 4611686018427387904)).
  - cbn [fst]. repeat (eexists; split; [eexists; split; reflexivity|]); reflexivity.
  - cbn [snd]. repeat (eexists; split; [eexists; split; reflexivity|]); reflexivity.
  - right. exists 4607182418800017408, 4611686018427387904. repeat split.
  - discriminate.
Qed.
Print Assumptions agree_refuted.

(** Concrete case, and one in which they agree. *)
Example agree_case : checked w0 one_and_two = Some (Ok tt) /\
  checked w0 (VMap [(VStr $"services", VMap [(VStr $"web", VMap [(VStr $"scale", VInt 2); (VStr $"deploy", VMap [(VStr $"replicas", VInt 2)])])])]) = Some (Ok tt).
Proof. split; vm_compute; reflexivity. Qed.

(** The same for fixed addresses: the network need not have an address range. *)
Definition address_doc : sval :=
  VMap [(VStr $"services", VMap [(VStr $"web", VMap [(VStr $"networks", VMap [(VStr $"front", VMap [(VStr $"ipv4_address", VStr $"10.0.0.1")])])])]); (VStr $"networks", VMap [(VStr $"front", VNull)])].
Theorem static_address_refuted : exists w v (c : compose w), load w v = Ok c /\ validate_all (compose_view c) = Ok tt /\
  exists name s n, has_service v name s /\ static_address s n /\ ~ has_ipam v n.
Proof.
  exists w0, address_doc.
  assert (C : match load w0 address_doc with Ok c => Some (validate_all (compose_view c)) | Err _ => None end = Some (Ok tt)) by (vm_compute; reflexivity).
  destruct (load w0 address_doc) as [c|]; [|discriminate C]. exists c. split; [reflexivity|]. split; [exact (some_eq _ _ _ C)|].
  exists $"web". eexists. exists $"front". split. { eexists. split; [eexists; split; reflexivity|]. exists [], []. split; [reflexivity|now intros []]. }
  split. { exists $"10.0.0.1". left. repeat (eexists; split; [eexists; split; reflexivity|]). reflexivity. }
  intros (x & y & (es & E & Y) & z & (fs & F & Z) & u & (gs & G & _) & _). injection E as <-. vm_compute in Y. injection Y as <-. injection F as <-. vm_compute in Z. injection Z as <-. discriminate G.
Qed.
Print Assumptions static_address_refuted.
