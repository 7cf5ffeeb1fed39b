(** The short and the long form of the same thing in a compose file, as documents. *)

From Coq Require Import String Ascii List NArith ZArith Bool Permutation.
Import ListNotations.
From Verif Require Import Base Regex KeysSpec NumSpec ValuesSpec IpModel IpSpec PortsModel PortsSpec Serde PanicSpec ChangeSpec SpellSpec.
Open Scope N_scope.

Definition entry (k : str) (x : sval) : sval * sval := (VStr k, x).
Definition entry_if (b : bool) (k : str) (x : sval) : list (sval * sval) := if b then [entry k x] else [].
Definition entry_of {X : Type} (f : X -> sval) (k : str) (o : option X) : list (sval * sval) := match o with Some x => [entry k (f x)] | None => [] end.

(** ** One text is the main entry of an object *)

Definition text_form (k : str) : relation := fun v v' => exists s, v = VStr s /\ v' = VMap [entry k (VStr s)].
(** [include: [p]] and [include: [{path: p}]], and so on. *)
Definition include_form := text_form $"path".
Definition build_form := text_form $"context".
Definition grant_form := text_form $"source".
Definition env_file_form := text_form $"path".
(** A number or text given for both limits. *)
Definition is_scalar (v : sval) : Prop := match v with VNull | VSeq _ | VMap _ => False | _ => True end.
Definition ulimit_form : relation := fun v v' => is_scalar v /\ v' = VMap [entry $"soft" v; entry $"hard" v].
(** One item alone or in a list. *)
Definition single_form : relation := fun v v' => is_scalar v /\ v' = VSeq [v].

(** ** A list of names is a map of names *)

Definition depends_on_form : relation := fun v v' =>
  exists l, NoDup l /\ v = VSeq (map VStr l) /\ v' = VMap (map (fun k => entry k (VMap [entry $"condition" (VStr $"service_started")])) l).
Definition networks_form : relation := fun v v' => exists l, NoDup l /\ v = VSeq (map VStr l) /\ v' = VMap (map (fun k => entry k VNull) l).

(** ** [key=value] *)

(** The text of a value: [true] and [false], whole numbers, and every text that is not a number or a boolean. *)
Inductive value_text : str -> sval -> Prop :=
| vt_true : value_text $"true" (VBool true)
| vt_false : value_text $"false" (VBool false)
| vt_number s n : matches (Plus D) s -> denotes s (Z.of_N n) -> n <= 18446744073709551615 -> value_text s (VInt (Z.of_N n))
| vt_negative s n : matches (Plus D) s -> denotes s (Z.of_N n) -> 0 < n <= 9223372036854775808 -> value_text ($"-" ++ s) (VInt (- Z.of_N n))
| vt_text s : s <> [] -> s <> $"true" -> s <> $"false" -> ~ matches INT_RE s -> ~ matches FLOAT_RE s -> value_text s (VStr s).
Definition MAP_KEY (k : str) : Prop := k <> [] /\ ~ In (ch "=") k /\ ~ In 10 k.
Inductive item_form : sval -> sval * sval -> Prop :=
| if_value k s x : MAP_KEY k -> value_text s x -> item_form (VStr (k ++ $"=" ++ s)) (VStr k, x)
| if_empty k : MAP_KEY k -> item_form (VStr (k ++ $"=")) (VStr k, VNull)
| if_none k : MAP_KEY k -> item_form (VStr k) (VStr k, VNull).
Definition list_form : relation := fun v v' => exists l es, v = VSeq l /\ v' = VMap es /\ NoDup (map fst es) /\ Forall2 item_form l es.

(** ** Volumes *)

(** [ro], [rw] or nothing; [z], [Z] or nothing; in any order. *)
Inductive access : list str -> bool -> Prop :=
| access_default : access [] false
| access_rw : access [$"rw"] false
| access_ro : access [$"ro"] true.
Inductive label : list str -> option str -> Prop :=
| label_none : label [] None
| label_shared : label [$"z"] (Some $"z")
| label_private : label [$"Z"] (Some $"Z").
Definition suffix (words : list str) : str := match words with [] => [] | _ => $":" ++ join $"," words end.
(** A source that begins with [.] or [/] is a path, any other the name of a volume. *)
Definition is_path (s : str) : Prop := (exists r, s = $"." ++ r) \/ (exists r, s = $"/" ++ r).
Definition no_colon (s : str) : Prop := ~ In (ch ":") s.
Inductive volume_form : relation :=
| vf_anonymous c : no_colon c ->
    volume_form (VStr c) (VMap [entry $"type" (VStr $"volume"); entry $"target" (VStr c)])
| vf_named s c ws ro : no_colon s -> no_colon c -> ~ is_path s -> access ws ro ->
    volume_form (VStr (s ++ $":" ++ c ++ suffix ws))
      (VMap ([entry $"type" (VStr $"volume"); entry $"source" (VStr s); entry $"target" (VStr c)] ++ entry_if ro $"read_only" (VBool true)))
| vf_bind s c a b ws ro se : no_colon s -> no_colon c -> is_path s -> access a ro -> label b se -> Permutation ws (a ++ b) ->
    volume_form (VStr (s ++ $":" ++ c ++ suffix ws))
      (VMap ([entry $"type" (VStr $"bind"); entry $"source" (VStr s); entry $"target" (VStr c);
              entry $"bind" (VMap (entry $"create_host_path" (VBool true) :: entry_of VStr $"selinux" se))] ++ entry_if ro $"read_only" (VBool true))).

(** ** Ports *)

(** The pairs of host port and container port. *)
Definition port_pairs (x : short_ranges) : list (option N * N) :=
  map (fun k => (option_map (fun h => r_start h + N.of_nat k) (sr_host x), r_start (sr_container x) + N.of_nat k)) (seq 0 (Z.to_nat (width (sr_container x)))).
(** One short form stands for as many long forms as there are ports. *)
Definition number (n : N) : sval := VInt (Z.of_N n).
Definition port_form (v : sval) (vs : list sval) : Prop :=
  exists p ip pr, short_port_value v p /\
    match sp_host_ip p, ip with Some i, Some t => ip_text t i | None, None => True | _, _ => False end /\
    match sp_protocol p, pr with Some q, Some t => protocol_is t q | None, None => True | _, _ => False end /\
    vs = map (fun hc => VMap (entry $"target" (number (snd hc)) :: entry_of number $"published" (fst hc) ++ entry_of VStr $"host_ip" ip ++ entry_of VStr $"protocol" pr))
           (port_pairs (sp_ranges p)).

(** An item of a list is replaced by any number of items. *)
Definition item_becomes (F : sval -> list sval -> Prop) : relation := fun v v' =>
  exists l y ys r, v = VSeq (l ++ y :: r) /\ v' = VSeq (l ++ ys ++ r) /\ F y ys.
Definition one (R : relation) (v : sval) (vs : list sval) : Prop := exists v', vs = [v'] /\ R v v'.

(** ** Where they may stand *)

Definition forms : list (list step * relation) :=
  [([Key $"include"; AnyItem], include_form); ([Key $"include"; AnyItem; Key $"path"], single_form); ([Key $"include"; AnyItem; Key $"env_file"], single_form);
   (service [Key $"build"], build_form);
   (build [Key $"args"], list_form); (build [Key $"labels"], list_form); (build [Key $"additional_contexts"], list_form); (build [Key $"secrets"; AnyItem], grant_form); (build [Key $"ulimits"; AnyKey], ulimit_form);
   (service [Key $"configs"; AnyItem], grant_form); (service [Key $"secrets"; AnyItem], grant_form);
   (service [Key $"depends_on"], depends_on_form);
   (service [Key $"dns"], single_form); (service [Key $"dns_search"], single_form); (service [Key $"tmpfs"], single_form);
   (service [Key $"env_file"], single_form); (service [Key $"env_file"; AnyItem], env_file_form);
   (service [Key $"environment"], list_form); (service [Key $"annotations"], list_form); (service [Key $"labels"], list_form); (service [Key $"sysctls"], list_form);
   (service [Key $"networks"], networks_form);
   (service [Key $"ports"], item_becomes port_form);
   (service [Key $"ulimits"; AnyKey], ulimit_form);
   (service [Key $"volumes"], item_becomes (one volume_form))].
Definition reforms : relation := fun v v' => exists p R, In (p, R) forms /\ changed p R v v'.
