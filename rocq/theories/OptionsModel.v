(** src/options.rs and [Compose::options] (lib.rs 245-248), with [serde_yaml::Value::apply_merge], which it calls. No proofs in this file.

    The source of [serde_yaml] is not part of the repository; [apply_merge] is modelled after version 0.9.34 as known to the author:
    a work list of nodes; in a mapping the entry [<<] is taken out ([Mapping::remove], that is [swap_remove]: the last entry takes
    its place), the entries of the mapping or mappings it holds are added where their key is missing ([entry(k).or_insert(v)]), and then the
    values of the mapping, the new ones included, are put on the list. Simplifications: the errors are one error; tagged values are not
    modelled; the order in which nodes are visited is left out, as a node does not depend on its siblings. *)

From Coq Require Import String Ascii List NArith ZArith Bool Arith.
Import ListNotations.
From Verif Require Import Base Num Coll Serde Codec ScalarCodec ServiceCodec ComposeCodec.
Open Scope N_scope.

Definition entries := list (sval * sval).
Definition MERGE : sval := VStr $"<<".

(** [Mapping::remove]. *)
Definition last_first (l : entries) : entries := match rev l with [] => [] | e :: r => e :: rev r end.
Fixpoint take_out (k : sval) (es : entries) : option (sval * entries) :=
  match es with
  | [] => None
  | (k', v) :: r =>
      if sval_eqb k k' then Some (v, last_first r)
      else match take_out k r with Some (x, r) => Some (x, (k', v) :: r) | None => None end
  end.
(** [mapping.entry(k).or_insert(v)]. *)
Definition or_insert (es : entries) (e : sval * sval) : entries :=
  if existsb (fun x => sval_eqb (fst e) (fst x)) es then es else es ++ [e].
(** The mappings under [<<]. *)
Definition mapping (v : sval) : result de_error entries := match v with VMap m => Ok m | _ => Err DeError end.
Definition sources (v : sval) : result de_error (list entries) :=
  match v with VMap m => Ok [m] | VSeq l => collect mapping l | _ => Err DeError end.
Definition merge_mapping (es : entries) : result de_error entries :=
  match take_out MERGE es with
  | None => Ok es
  | Some (v, rest) => ms <- sources v ;; Ok (fold_left or_insert (concat ms) rest)
  end.

(** The loop. The values of a mapping after merging are less deep than the mapping, so its depth is enough as a bound. *)
Fixpoint depth (v : sval) : nat :=
  match v with
  | VSeq l => S (list_max (map depth l))
  | VMap es => S (list_max (map (fun e => depth (snd e)) es))
  | _ => O
  end.
Fixpoint merge_nodes (bound : nat) (v : sval) : result de_error sval :=
  match bound with
  | O => Ok v
  | S n =>
      match v with
      | VSeq l => map_ok VSeq (collect (merge_nodes n) l)
      | VMap es =>
          es <- merge_mapping es ;;
          map_ok VMap (collect (fun e => map_ok (fun x => (fst e, x)) (merge_nodes n (snd e))) es)
      | _ => Ok v
      end
  end.
(** [Value::apply_merge]. *)
Definition apply_merge (v : sval) : result de_error sval := merge_nodes (depth v) v.

(** [Options], 10-13, with [Default]; [Options::apply_merge], 47-50; [Options::any], 53-56; [Compose::options]. *)
Record options : Set := mk_options { opt_apply_merge : bool }.
Definition options_default : options := mk_options false.
Definition set_apply_merge (o : options) (b : bool) : options := mk_options b.
Definition any (o : options) : bool := opt_apply_merge o.
Definition compose_options : options := options_default.

(** [Options::from_yaml_value], 102-107. *)
Definition from_yaml_value (w : externals) (o : options) (v : sval) : result de_error (compose w) :=
  v <- (if opt_apply_merge o then apply_merge v else Ok v) ;;
  de (compose_c w) v.
(** [from_yaml_str], [from_yaml_reader] and [from_yaml_slice], 63-95, from the parsed document: with an option set it is first read as a
    [Value], which no repeated key survives. *)
Definition from_yaml (w : externals) (o : options) (doc : sval) : result de_error (compose w) :=
  if any o then v <- de yaml_c doc ;; from_yaml_value w o v else de (compose_c w) doc.
(** Whether it panics. [serde_yaml]'s own code does not. *)
Definition from_yaml_panics (w : externals) (o : options) (doc : sval) : bool :=
  if any o then match de yaml_c doc with
                | Ok v => match (if opt_apply_merge o then apply_merge v else Ok v) with Ok v => panics (compose_c w) v | Err _ => false end
                | Err _ => false
                end
  else panics (compose_c w) doc.
