(** C75: an entry with its default value may be left out. C76: the entries of an object may be written in any order. *)

From Coq Require Import String Ascii List NArith ZArith Bool Permutation.
Import ListNotations.
From Verif Require Import Base BaseFacts Num Coll ValuesModel Serde Codec ScalarCodec CommonCodec ServiceCodec ComposeCodec PropsCompose PanicSpec ChangeSpec ChangeFacts ChangeLoads.
Open Scope N_scope.

(** ** C75 *)

(** Writing any of the defaults of [objects] and [managed_objects], anywhere in a file, does not change what is loaded, nor whether it loads. *)
Theorem default_changes_nothing : forall w doc doc', yaml_ok doc = true -> writes_default doc doc' -> load w doc' = load w doc.
Proof. intros w doc doc' Y H. now apply (default_unnoticed w). Qed.
Print Assumptions default_changes_nothing.

(** Not every entry without a value is the same as an absent one. A null is rejected for a duration (also for the fields of a healthcheck and of
    [credential_spec]), an empty map of labels is kept apart from no labels, and something external may have a null for nothing. *)
Definition lacks_default (p : list step) (k : str) (x : sval) : Prop :=
  exists w doc doc', yaml_ok doc = true /\ changed p (adds k x) doc doc' /\ read_ok (load w doc) = true /\ load w doc' <> load w doc.
Definition web (es : list (sval * sval)) : sval := VMap [(VStr $"services", VMap [(VStr $"web", VMap es)])].
Definition net (es : list (sval * sval)) : sval := VMap [(VStr $"services", VMap []); (VStr $"networks", VMap [(VStr $"a", VMap es)])].
Lemma web_changed : forall (R : relation) es es', R (VMap es) (VMap es') -> changed (ChangeSpec.service []) R (web es) (web es').
Proof.
  intros R es es' H. exists [], (VMap [(VStr $"web", VMap es)]), (VMap [(VStr $"web", VMap es')]), []. split; [reflexivity|]. split; [reflexivity|].
  exists [], (VStr $"web"), (VMap es), (VMap es'), []. auto.
Qed.
Lemma net_changed : forall (R : relation) es es', R (VMap es) (VMap es') -> changed [Key $"networks"; AnyKey] R (net es) (net es').
Proof.
  intros R es es' H. exists [(VStr $"services", VMap [])], (VMap [(VStr $"a", VMap es)]), (VMap [(VStr $"a", VMap es')]), []. split; [reflexivity|]. split; [reflexivity|].
  exists [], (VStr $"a"), (VMap es), (VMap es'), []. auto.
Qed.
Definition labels_map (r : result de_error (compose w0)) : bool :=
  match r with
  | Ok c => existsb (fun e => match nth_val 45 (service_ms w0) (fst (snd e)) with LMap _ => true | _ => false end) (nth_val 3 (compose_ms w0) (fst c))
  | Err _ => false
  end.
Theorem default_refuted :
  lacks_default (ChangeSpec.service []) $"stop_grace_period" VNull /\ lacks_default (ChangeSpec.service []) $"labels" (VMap []) /\
  lacks_default [Key $"networks"; AnyKey] $"driver" VNull.
Proof.
  split; [|split].
  - exists w0, (web []), (web [(VStr $"stop_grace_period", VNull)]). split; [reflexivity|]. split; [apply web_changed; exists [], []; split; [reflexivity|]; split; [reflexivity|]; intros []|].
    split; [vm_compute; reflexivity|]. intros E. apply (f_equal read_ok) in E. vm_compute in E. discriminate E.
  - exists w0, (web []), (web [(VStr $"labels", VMap [])]). split; [reflexivity|]. split; [apply web_changed; exists [], []; split; [reflexivity|]; split; [reflexivity|]; intros []|].
    split; [vm_compute; reflexivity|]. intros E. apply (f_equal labels_map) in E. vm_compute in E. discriminate E.
  - exists w0, (net [(VStr $"external", VBool true)]), (net [(VStr $"external", VBool true); (VStr $"driver", VNull)]). split; [reflexivity|].
    split; [apply net_changed; exists [(VStr $"external", VBool true)], []; split; [reflexivity|]; split; [reflexivity|]; intros [X|[]]; discriminate X|].
    split; [vm_compute; reflexivity|]. intros E. apply (f_equal read_ok) in E. vm_compute in E. discriminate E.
Qed.
Print Assumptions default_refuted.

(** An environment file is required unless it says otherwise. *)
Example default_ex : exists doc doc', yaml_ok doc = true /\ writes_default doc doc' /\
  doc' = web [(VStr $"env_file", VSeq [VStr $"a"; VMap [(VStr $"path", VStr $"b"); (VStr $"required", VBool true)]]); (VStr $"tty", VBool true)] /\
  read_ok (load w0 doc') = true /\ load w0 doc' = load w0 doc.
Proof.
  exists (web [(VStr $"env_file", VSeq [VStr $"a"; VMap [(VStr $"path", VStr $"b")]]); (VStr $"tty", VBool true)]). eexists. split; [reflexivity|]. assert (W : forall P Q : Prop, P -> (P -> Q) -> P /\ Q) by auto.
  apply W; [|intros H; split; [reflexivity|]; split; [vm_compute; reflexivity|]; apply default_changes_nothing; [reflexivity|exact H]].
  left. exists (ChangeSpec.service [Key $"env_file"; AnyItem]), (on [$"required"]), $"required", (VBool true). split; [unfold objects; cbn [In]; tauto|]. split; [now left|].
  apply (web_changed (changed [Key $"env_file"; AnyItem] (adds $"required" (VBool true)))).
  exists [], (VSeq [VStr $"a"; VMap [(VStr $"path", VStr $"b")]]), (VSeq [VStr $"a"; VMap [(VStr $"path", VStr $"b"); (VStr $"required", VBool true)]]), [(VStr $"tty", VBool true)].
  split; [reflexivity|]. split; [reflexivity|]. exists [VStr $"a"], (VMap [(VStr $"path", VStr $"b")]), (VMap [(VStr $"path", VStr $"b"); (VStr $"required", VBool true)]), []. split; [reflexivity|].
  split; [reflexivity|]. exists [(VStr $"path", VStr $"b")], []. split; [reflexivity|]. split; [reflexivity|]. intros [X|[]]. discriminate X.
Qed.

(** ** C76 *)

(** Putting the entries of any object of a file in another order does not change what is loaded, as long as extensions stay in their order. *)
Theorem order_changes_nothing : forall w doc doc', yaml_ok doc = true -> reorders_entries doc doc' -> load w doc' = load w doc.
Proof. intros w doc doc' Y H. now apply (order_unnoticed w). Qed.
Print Assumptions order_changes_nothing.

(** The two excluded cases make a difference. *)
Theorem order_refuted :
  (exists w doc doc' , yaml_ok doc = true /\ changed ChangeSpec.healthcheck reorders doc doc' /\ read_ok (load w doc) = true /\ read_ok (load w doc') = false) /\
  (exists w es es', yaml_ok (VMap es) = true /\ Permutation es es' /\ read_ok (load w (VMap es)) = true /\ load w (VMap es') <> load w (VMap es)).
Proof.
  set (d := (VStr $"disable", VBool false)). split.
  - exists w0, (web [(VStr $"healthcheck", VMap [d; none_test])]), (web [(VStr $"healthcheck", VMap [none_test; d])]). split; [reflexivity|].
    split; [|split; vm_compute; reflexivity]. apply (web_changed (changed [Key $"healthcheck"] reorders)). exists [], (VMap [d; none_test]), (VMap [none_test; d]), []. split; [reflexivity|].
    split; [reflexivity|]. exists [d; none_test], [none_test; d]. split; [reflexivity|]. split; [reflexivity|]. split; [apply perm_swap|reflexivity].
  - exists w0, [(VStr $"services", VMap []); (VStr $"x-a", VNull); (VStr $"x-b", VNull)], [(VStr $"services", VMap []); (VStr $"x-b", VNull); (VStr $"x-a", VNull)].
    split; [reflexivity|]. split; [apply perm_skip, perm_swap|]. split; [vm_compute; reflexivity|]. intros E.
    apply (f_equal (fun r => match r with Ok c => map fst (snd c) | Err _ => [] end)) in E. vm_compute in E. discriminate E.
Qed.
Print Assumptions order_refuted.

Example order_ex : let es := [(VStr $"type", VStr $"bind"); (VStr $"source", VStr $"/a"); (VStr $"x-b", VNull); (VStr $"x-a", VNull); (VStr $"target", VStr $"/b")] in
  let es' := [(VStr $"x-b", VNull); (VStr $"target", VStr $"/b"); (VStr $"source", VStr $"/a"); (VStr $"x-a", VNull); (VStr $"type", VStr $"bind")] in
  read_ok (load w0 (web [(VStr $"volumes", VSeq [VMap es])])) = true /\
  load w0 (web [(VStr $"volumes", VSeq [VMap es'])]) = load w0 (web [(VStr $"volumes", VSeq [VMap es])]).
Proof.
  cbv zeta. split; [vm_compute; reflexivity|]. apply order_changes_nothing; [reflexivity|]. left. eexists (ChangeSpec.service [Key $"volumes"; AnyItem]), _.
  split; [apply in_or_app; left; unfold objects; do 36 right; left; reflexivity|]. apply (web_changed (changed [Key $"volumes"; AnyItem] reorders)).
  eexists [], _, _, []. split; [reflexivity|]. split; [reflexivity|]. eexists [], _, _, []. split; [reflexivity|]. split; [reflexivity|]. eexists _, _. split; [reflexivity|]. split; [reflexivity|].
  split; [|reflexivity]. apply (Permutation_cons_app [_; _; _; _] []), (Permutation_cons_app [_; _] [_]), perm_skip, perm_swap.
Qed.

(** ** Both *)

(** Files which differ in these ways only load alike. *)
Theorem same_file_loads_same : forall w doc doc', same_file (fun v => yaml_ok v = true) doc doc' -> load w doc' = load w doc.
Proof.
  intros w doc doc' H. induction H as [v|v v' _ IH|v v' v'' _ IH1 _ IH2|v v' Y H|v v' Y H]; [reflexivity|congruence|congruence| |].
  - now apply default_changes_nothing.
  - now apply order_changes_nothing.
Qed.
Print Assumptions same_file_loads_same.
