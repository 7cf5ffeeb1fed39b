(** Compose files that say the same, in short or long forms. *)

From Coq Require Import String Ascii List NArith ZArith Bool.
Import ListNotations.
From Verif Require Import Base Num Coll BytesModel PortsModel VolumesModel ValuesModel EqModel Serde Codec EnumModel ScalarCodec CommonCodec ServiceParts MountCodec ServiceCodec ComposeCodec
  EmptyModel ShortModel FormsModel.
Open Scope N_scope.

Definition both {A : Type} (R : A -> A -> Prop) (o o' : option A) : Prop :=
  match o, o' with Some x, Some y => R x y | None, None => True | _, _ => False end.
(** Equal after a conversion. *)
Definition same {A B : Type} (f : A -> B) (x y : A) : Prop := f x = f y.
(** The same keys in the same order. *)
Definition same_map {K V : Type} (R : V -> V -> Prop) : list (K * V) -> list (K * V) -> Prop := Forall2 (fun e e' => fst e = fst e' /\ R (snd e) (snd e')).

(** Sets of mounts or ports, as [PartialEq] compares them. *)
Definition counterpart {A : Type} (eqb : A -> A -> bool) (l : list A) (x : A) : Prop := exists y, In y l /\ (x = y \/ eqb x y = true).
Definition same_set {A : Type} (eqb : A -> A -> bool) (l l' : list A) : Prop := Forall (counterpart eqb l') l /\ Forall (counterpart eqb l) l'.

Section Files.
Context {w : externals}.

Definition same_grant : short_or_long str config_or_secret -> short_or_long str config_or_secret -> Prop := same (into_long config_or_secret_of_short).
Definition same_ulimit : short_or_long (limit N) ulimit -> short_or_long (limit N) ulimit -> Prop := same (into_long ulimit_of_short).
Definition same_list_or_map : list_or_map -> list_or_map -> Prop := same (into_map (w_float w)).

(** In a build: [args] 2, [labels] 11, [secrets] 17, [ulimits] 19. *)
Definition same_build (b b' : build w) : Prop :=
  (forall n, ~ In n [2; 11; 17; 19]%nat -> nth_val n (build_ms w) (fst b) = nth_val n (build_ms w) (fst b')) /\ snd b = snd b' /\
  same_list_or_map (nth_val 2 (build_ms w) (fst b)) (nth_val 2 (build_ms w) (fst b')) /\
  same_list_or_map (nth_val 11 (build_ms w) (fst b)) (nth_val 11 (build_ms w) (fst b')) /\
  Forall2 same_grant (nth_val 17 (build_ms w) (fst b)) (nth_val 17 (build_ms w) (fst b')) /\
  same_map same_ulimit (nth_val 19 (build_ms w) (fst b)) (nth_val 19 (build_ms w) (fst b')).
Definition same_networks (c c' : network_config w) : Prop :=
  match c, c' with
  | NcMode m, NcMode m' => m = m'
  | NcNetworks n, NcNetworks n' => map_of_short None n = map_of_short None n'
  | _, _ => False
  end.

(** In a service, in the order of the fields: [build], [configs], [depends_on], [dns], [dns_search], [env_file], [environment], [annotations], [labels],
    [network_config], [ports], [secrets], [sysctls], [tmpfs], [ulimits], [volumes]. *)
Definition same_service (s s' : service w) : Prop :=
  let at_ n := nth_val n (service_ms w) (fst s) in
  let at' n := nth_val n (service_ms w) (fst s') in
  (forall n, ~ In n [1; 17; 20; 25; 27; 30; 31; 34; 45; 48; 59; 67; 74; 75; 77; 80]%nat -> at_ n = at' n) /\ snd s = snd s' /\
  both (fun b b' => same_build (into_long build_of_short b) (into_long build_of_short b')) (at_ 1%nat) (at' 1%nat) /\
  Forall2 same_grant (at_ 17%nat) (at' 17%nat) /\
  same (map_of_short dependency_default) (at_ 20%nat) (at' 20%nat) /\
  both (same item_into_list) (at_ 25%nat) (at' 25%nat) /\
  both (same item_into_list) (at_ 27%nat) (at' 27%nat) /\
  both (fun e e' => Forall2 (same (into_long env_file_config_of_short)) (env_file_into_list e) (env_file_into_list e')) (at_ 30%nat) (at' 30%nat) /\
  same_list_or_map (at_ 31%nat) (at' 31%nat) /\
  same_list_or_map (at_ 34%nat) (at' 34%nat) /\
  same_list_or_map (at_ 45%nat) (at' 45%nat) /\
  both same_networks (at_ 48%nat) (at' 48%nat) /\
  same_set (port_eqb (w_yaml_eqb w)) (ports_long (at_ 59%nat)) (ports_long (at' 59%nat)) /\
  Forall2 same_grant (at_ 67%nat) (at' 67%nat) /\
  same_list_or_map (at_ 74%nat) (at' 74%nat) /\
  both (same item_into_list) (at_ 75%nat) (at' 75%nat) /\
  same_map same_ulimit (at_ 77%nat) (at' 77%nat) /\
  same_set (mount_eqb (w_yaml_eqb w)) (into_long_iter (at_ 80%nat)) (into_long_iter (at' 80%nat)).

(** An include: [path] 0, [project_directory] 1, [env_file] 2. *)
Definition same_include (i i' : include) : Prop :=
  same item_into_list (nth_val 0 include_ms i) (nth_val 0 include_ms i') /\ nth_val 1 include_ms i = nth_val 1 include_ms i' /\
  both (same item_into_list) (nth_val 2 include_ms i) (nth_val 2 include_ms i').

(** In a compose file: [include] 2, [services] 3. *)
Definition same_compose (c c' : compose w) : Prop :=
  (forall n, ~ In n [2; 3]%nat -> nth_val n (compose_ms w) (fst c) = nth_val n (compose_ms w) (fst c')) /\ snd c = snd c' /\
  Forall2 (fun i i' => same_include (into_long include_of_short i) (into_long include_of_short i')) (nth_val 2 (compose_ms w) (fst c)) (nth_val 2 (compose_ms w) (fst c')) /\
  same_map same_service (nth_val 3 (compose_ms w) (fst c)) (nth_val 3 (compose_ms w) (fst c')).
End Files.
