(** Where in a document a panic can come from, and which texts cause it. *)

From Coq Require Import String Ascii List NArith ZArith Bool.
Import ListNotations.
From Verif Require Import Base DurationSpec PortsModel PortsSpec ErrorSpec Serde.
Open Scope N_scope.

(** ** Places in a document *)

Inductive step : Set := Key (k : str) | AnyKey | AnyItem.
(** [x] is found in [v] by following the steps. *)
Fixpoint reaches (p : list step) (v x : sval) : Prop :=
  match p with
  | [] => x = v
  | Key k :: p => exists es y, v = VMap es /\ In (VStr k, y) es /\ reaches p y x
  | AnyKey :: p => exists es k y, v = VMap es /\ In (k, y) es /\ reaches p y x
  | AnyItem :: p => exists l y, v = VSeq l /\ In y l /\ reaches p y x
  end.
(** [v'] is [v] with one value reached by the steps replaced by [x]. *)
Fixpoint replaced (p : list step) (v x v' : sval) : Prop :=
  match p with
  | [] => v' = x
  | Key k :: p => exists l y y' r, v = VMap (l ++ (VStr k, y) :: r) /\ v' = VMap (l ++ (VStr k, y') :: r) /\ replaced p y x y'
  | AnyKey :: p => exists l k y y' r, v = VMap (l ++ (k, y) :: r) /\ v' = VMap (l ++ (k, y') :: r) /\ replaced p y x y'
  | AnyItem :: p => exists l y y' r, v = VSeq (l ++ y :: r) /\ v' = VSeq (l ++ y' :: r) /\ replaced p y x y'
  end.

(** The durations and the ports of a compose file. *)
Inductive kind : Set := Duration | Port.
Definition in_service (p : list str) : list step := Key $"services" :: AnyKey :: map Key p.
Definition durations : list (list str) :=
  [[$"stop_grace_period"]; [$"cpu_rt_runtime"]; [$"cpu_rt_period"];
   [$"healthcheck"; $"interval"]; [$"healthcheck"; $"timeout"]; [$"healthcheck"; $"start_period"]; [$"healthcheck"; $"start_interval"];
   [$"deploy"; $"restart_policy"; $"delay"]; [$"deploy"; $"restart_policy"; $"window"];
   [$"deploy"; $"update_config"; $"delay"]; [$"deploy"; $"update_config"; $"monitor"];
   [$"deploy"; $"rollback_config"; $"delay"]; [$"deploy"; $"rollback_config"; $"monitor"]].
Definition places : list (list step * kind) :=
  (in_service [$"ports"] ++ [AnyItem], Port) :: map (fun p => (in_service p, Duration)) durations.

(** ** The texts *)

(** Valid terms, and then a number of 2{^64} or more, followed by something which is not a digit. *)
Definition huge_number (s : str) : Prop :=
  exists ts ds c r, Forall term_ok ts /\ terms_nanos ts <= max_nanos /\ s = terms_text ts ++ ds ++ c :: r /\
    ds <> [] /\ Forall (fun x => 48 <= x <= 57) ds /\ ~ (48 <= c <= 57) /\ 2 ^ 64 <= number ds.
(** Host and container ports are given, and one of them is a range which is reversed or has all 65536 ports. *)
Definition uncountable (r : range) : Prop := ~ (1 <= width r <= 65535)%Z.
Definition uncountable_ports (s : str) : Prop :=
  exists h c rh rc, ports_part s (h ++ $":" ++ c) /\ range_text h rh /\ range_text c rc /\ (uncountable rh \/ uncountable rc).
(** [checks]: with overflow checks. *)
Definition causes_panic (checks : bool) (k : kind) (x : sval) : Prop :=
  exists s, x = VStr s /\ match k with Duration => huge_number s | Port => checks = true /\ uncountable_ports s end.
