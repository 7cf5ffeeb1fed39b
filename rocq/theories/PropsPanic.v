(** C74: panics while a file is loaded. *)

From Coq Require Import String Ascii List NArith ZArith Bool Lia ZifyBool ZifyN ZifyNat.
Import ListNotations.
From Verif Require Import Base BaseFacts Num DurationModel DurationSpec PortsModel PortsSpec Serde Codec ScalarCodec CommonCodec ServiceCodec ComposeCodec PropsCompose
  ErrorSpec OptionsModel PanicSpec PanicFacts PanicLoads.
Open Scope N_scope.

(** C74. If loading a file panics, then one of its durations has a number which is too large or, with overflow checks, the short form of one of its
    ports has a range which is reversed or has all ports. *)
Theorem load_panics_located : forall w doc, panics (compose_c w) doc = true ->
  load w doc = Err DeError /\ exists p k x, In (p, k) places /\ reaches p doc x /\ causes_panic (w_checks w) k x.
Proof.
  intros w doc H. destruct (tame_compose w doc H) as [F P]. split; [|exact P]. unfold load. destruct (de (compose_c w) doc) as [c|[]]; [discriminate|reflexivity].
Qed.
Print Assumptions load_panics_located.

(** C74. A file which can be loaded has no such text at any of the places. *)
Theorem loaded_without_panics : forall w doc c p k x, load w doc = Ok c -> In (p, k) places -> reaches p doc x -> ~ causes_panic (w_checks w) k x.
Proof.
  intros w doc c p k x L I R P. pose proof (critical_compose w p k I doc doc x c L (replaced_itself p doc x R) P) as H. destruct (load_panics_located w doc H) as [E _].
  rewrite E in L. discriminate.
Qed.
Print Assumptions loaded_without_panics.

(** C74. After one duration or port of a file which can be loaded is replaced, loading panics exactly if the new one is such a text. *)
Theorem load_panics_exactly : forall w doc c p k x doc', load w doc = Ok c -> In (p, k) places -> replaced p doc x doc' ->
  (panics (compose_c w) doc' = true <-> causes_panic (w_checks w) k x).
Proof.
  intros w doc c p k x doc' L I R. split.
  - intros H. destruct (load_panics_located w doc' H) as [_ (q & k' & y & J & T & P)]. destruct (replaced_reaches _ _ _ _ R _ _ T) as [T'|Q].
    + now elim (loaded_without_panics w doc c q k' y L J T').
    + destruct (places_apart p k q k' I J Q) as [<- <-]. destruct (replaced_same _ _ _ _ R _ T) as [T'|Y]; [|now rewrite <- Y]. now elim (loaded_without_panics w doc c p k y L J T').
  - exact (critical_compose w p k I doc doc' x c L R).
Qed.
Print Assumptions load_panics_exactly.

Definition with_duration (s : str) : sval := file [(VStr $"web", VMap [(VStr $"image", VStr $"nginx"); (VStr $"healthcheck", VMap [(VStr $"interval", VStr s)])])] [].
Definition with_port (s : str) : sval := file [(VStr $"web", VMap [(VStr $"image", VStr $"nginx"); (VStr $"ports", VSeq [VInt 80; VStr s])])] [].
(** The theorem at work: for any text as the interval of a health check, or as the second port. *)
Example load_panics_used : forall s,
  (panics (compose_c w0) (with_duration s) = true <-> huge_number s) /\ (panics (compose_c w0) (with_port s) = true <-> uncountable_ports s).
Proof.
  intros s. split.
  - destruct (accepted_ok (load w0 (with_duration $"1m30s"))) as [c L]; [vm_compute; reflexivity|].
    assert (I : In (in_service [$"healthcheck"; $"interval"], Duration) places) by (unfold places, durations; cbn [map In]; tauto).
    rewrite (load_panics_exactly w0 _ c _ _ (VStr s) (with_duration s) L I).
    + split; [intros (t & E & H); injection E as <-; exact H|]. intros H. exists s. auto.
    + exists [], (VMap [(VStr $"web", VMap [(VStr $"image", VStr $"nginx"); (VStr $"healthcheck", VMap [(VStr $"interval", VStr $"1m30s")])])]). eexists _, []. split; [reflexivity|]. split; [reflexivity|].
      exists [], (VStr $"web"). eexists _, _, []. split; [reflexivity|]. split; [reflexivity|].
      exists [(VStr $"image", VStr $"nginx")]. eexists _, _, []. split; [reflexivity|]. split; [reflexivity|].
      exists []. eexists _, _, []. split; [reflexivity|]. split; [reflexivity|]. reflexivity.
  - destruct (accepted_ok (load w0 (with_port $"8080:80"))) as [c L]; [vm_compute; reflexivity|].
    assert (I : In (in_service [$"ports"] ++ [AnyItem], Port) places) by apply in_eq.
    rewrite (load_panics_exactly w0 _ c _ _ (VStr s) (with_port s) L I).
    + split; [intros (t & E & _ & H); injection E as <-; exact H|]. intros H. exists s. auto.
    + exists [], (VMap [(VStr $"web", VMap [(VStr $"image", VStr $"nginx"); (VStr $"ports", VSeq [VInt 80; VStr $"8080:80"])])]). eexists _, []. split; [reflexivity|]. split; [reflexivity|].
      exists [], (VStr $"web"). eexists _, _, []. split; [reflexivity|]. split; [reflexivity|].
      exists [(VStr $"image", VStr $"nginx")]. eexists _, _, []. split; [reflexivity|]. split; [reflexivity|].
      exists [VInt 80]. eexists _, _, []. split; [reflexivity|]. split; [reflexivity|]. reflexivity.
Qed.

(** C74 is false: a file can make loading panic, in release builds too. *)
Theorem load_total_refuted : forall w, exists doc, panics (compose_c w) doc = true /\ yaml_ok doc = true.
Proof. intros w. exists (with_duration $"18446744073709551616s"). vm_compute. auto. Qed.
Print Assumptions load_total_refuted.

(** C74. In release builds the durations are the only cause. *)
Theorem load_panics_release : forall w doc, w_checks w = false -> panics (compose_c w) doc = true ->
  exists p s, In p durations /\ reaches (in_service p) doc (VStr s) /\ huge_number s.
Proof.
  intros w doc C H. destruct (load_panics_located w doc H) as [_ (p & k & x & [E|I] & R & s & -> & P)].
  - injection E as <- <-. destruct P as [P _]. congruence.
  - apply in_map_iff in I as (q & E & I). injection E as <- <-. exists q, s. auto.
Qed.
Print Assumptions load_panics_release.
Example load_panics_release_used : panics (compose_c (mk_externals false true (fun _ => 0) (fun _ => []) (fun _ => None) (fun _ => None) sval_eqb)) (with_port $"9-5:9-5") = false /\
  panics (compose_c w0) (with_port $"9-5:9-5") = true.
Proof. vm_compute. auto. Qed.

(** C74. With options: the same for the document after merging. *)
Theorem from_yaml_panics_located : forall w o doc, from_yaml_panics w o doc = true ->
  from_yaml w o doc = Err DeError /\
  exists v p k x, (if opt_apply_merge o then apply_merge doc else Ok doc) = Ok v /\ In (p, k) places /\ reaches p v x /\ causes_panic (w_checks w) k x.
Proof.
  intros w [m] doc H. unfold from_yaml_panics, from_yaml, from_yaml_value, any in *. cbn [opt_apply_merge] in *. destruct m.
  - cbn [de yaml_c] in *. destruct (yaml_ok doc); [|discriminate]. cbn [bind]. destruct (apply_merge doc) as [v|]; [|discriminate]. cbn [bind]. destruct (load_panics_located w v H) as [L P]. split; [exact L|]. exists v.
    destruct P as (p & k & x & P). exists p, k, x. auto.
  - destruct (load_panics_located w doc H) as [L P]. split; [exact L|]. exists doc. destruct P as (p & k & x & P). exists p, k, x. auto.
Qed.
Print Assumptions from_yaml_panics_located.
Example from_yaml_panics_used : from_yaml_panics w0 (set_apply_merge compose_options true)
  (file [(VStr $"a", VMap [(VStr $"<<", VMap [(VStr $"stop_grace_period", VStr $"99999999999999999999s")])])] []) = true.
Proof. vm_compute. reflexivity. Qed.

(** C74. The order matters: what comes before the text has to be readable. *)
Example load_panics_order : let bad := (VStr $"stop_grace_period", VStr $"99999999999999999999s") in let wrong := (VStr $"tty", VStr $"x") in
  panics (compose_c w0) (file [(VStr $"a", VMap [bad; wrong])] []) = true /\ panics (compose_c w0) (file [(VStr $"a", VMap [wrong; bad])] []) = false.
Proof. vm_compute. auto. Qed.
