(** Documented grammars of tags, digests and image names, and what an image is as a value. *)

From Coq Require Import String Ascii List NArith Bool.
Import ListNotations.
From Verif Require Import Base Regex.
Open Scope N_scope.

Definition AL : re := Cls [LOWER; DIGIT].

(** Components joined by separators: [[a-z0-9]+(SEP[a-z0-9]+)*]. *)
Definition components (sep : re) : re := Cat (Plus AL) (Star (Cat sep (Plus AL))).

(** A part of an image name (OCI distribution spec):
    [[a-z0-9]+((\.|_|__|-+)[a-z0-9]+)*]. *)
Definition PART_SEP : re := Alt (Lit ".") (Alt (Lit "_") (Alt (Cat (Lit "_") (Lit "_")) (Plus (Lit "-")))).
Definition PART_RE : re := components PART_SEP.

(** A digest algorithm (OCI image spec): [[a-z0-9]+([+._-][a-z0-9]+)*]. *)
Definition ALGORITHM_RE : re := components (Cls [one "+"; one "."; one "_"; one "-"]).

(** The encoded part of a digest: [[a-zA-Z0-9=_-]+]. *)
Definition ENCODED_RE : re := Plus (Cls [LOWER; UPPER; DIGIT; one "="; one "_"; one "-"]).

(** A digest. *)
Definition DIGEST_RE : re := Cat ALGORITHM_RE (Cat (Lit ":") ENCODED_RE).

(** A tag, without the length limit: [[a-zA-Z0-9._-]+]. *)
Definition TAG_RE : re := Plus (Cls [LOWER; UPPER; DIGIT; one "."; one "_"; one "-"]).

(** The OCI distribution spec also restricts the first character: [[a-zA-Z0-9_][a-zA-Z0-9._-]{0,127}]. *)
Definition OCI_TAG_RE : re :=
  Cat (Cls [LOWER; UPPER; DIGIT; one "_"]) (Star (Cls [LOWER; UPPER; DIGIT; one "."; one "_"; one "-"])).

(** A list of parts: [PART(/PART)*]. *)
Definition PARTS_RE : re := Cat PART_RE (Star (Cat (Lit "/") PART_RE)).

(** Port texts: an optional plus sign and digits. The value has to fit 16 bits, see [port_value]. *)
Definition PORT_RE : re := Cat (Opt (Lit "+")) (Plus (Cls [DIGIT])).

Definition decimal (s : str) : N := fold_left (fun a c => if c =? ch "+" then a else 10 * a + (c - ch "0")) s 0.
Definition is_port (s : str) : Prop := matches PORT_RE s /\ decimal s <= 65535.

(** Image names: parts separated by slashes; a first part with a dot is a registry host, which may be
    followed by a colon and a port. *)
Definition is_name (s : str) : Prop :=
  matches PARTS_RE s \/
  exists host port rest, s = host ++ $":" ++ port ++ rest /\ matches PART_RE host /\ In (ch ".") host /\
    is_port port /\ (rest = [] \/ exists r, rest = $"/" ++ r /\ matches PARTS_RE r).

Definition is_tag (s : str) : Prop := matches TAG_RE s /\ (List.length s <= 128)%nat.
Definition is_digest (s : str) : Prop := matches DIGEST_RE s.

(** The registry of a name: everything before the first slash, if that contains a dot. *)
Definition is_registry (name : str) (r : option str) : Prop :=
  exists first, (name = first \/ exists rest, name = first ++ $"/" ++ rest) /\ ~ In (ch "/") first /\
    (In (ch ".") first /\ r = Some first \/ ~ In (ch ".") first /\ r = None).

(** An image as a value: its cached registry, its full name and its tag or digest. *)
Inductive suffix := NoSuffix | Tagged (t : str) | Digested (d : str).
Definition suffix_text (x : suffix) : str :=
  match x with NoSuffix => [] | Tagged t => ch ":" :: t | Digested d => ch "@" :: d end.
Definition is_suffix (x : suffix) : Prop :=
  match x with NoSuffix => True | Tagged t => is_tag t | Digested d => is_digest d end.

(** The text of an image determines its parts only if a registry port is not mistaken for a tag. *)
Definition port_has_path (name : str) : Prop := In (ch ":") name -> In (ch "/") name.
Definition unambiguous (name : str) (x : suffix) : Prop :=
  match x with Tagged _ => True | _ => port_has_path name end.

Record parts := { p_registry : option str; p_name : str; p_suffix : suffix }.
Definition parts_text (p : parts) : str := p_name p ++ suffix_text (p_suffix p).

(** What the setters are meant to do to the parts. *)
Inductive op :=
| OpRegistry (r : option str) | OpName (n : str) (registry : option str) | OpTag (t : option str) | OpDigest (d : option str).

(** The name after its registry has been taken off ([None]: nothing is left). *)
Inductive strips : option str -> str -> option str -> Prop :=
| strips_none : forall n, strips None n (Some n)
| strips_path : forall r n, strips (Some r) (r ++ $"/" ++ n) (Some n)
| strips_only : forall r, strips (Some r) r None.

Inductive step : parts -> op -> parts -> Prop :=
| step_registry : forall reg name x r rest,
    strips reg name (Some rest) ->
    step {| p_registry := reg; p_name := name; p_suffix := x |} (OpRegistry (Some r))
         {| p_registry := Some r; p_name := r ++ $"/" ++ rest; p_suffix := x |}
| step_registry_only : forall reg name x r,
    strips reg name None ->
    step {| p_registry := reg; p_name := name; p_suffix := x |} (OpRegistry (Some r))
         {| p_registry := Some r; p_name := r; p_suffix := x |}
| step_no_registry : forall reg name x rest,
    strips reg name (Some rest) ->
    step {| p_registry := reg; p_name := name; p_suffix := x |} (OpRegistry None)
         {| p_registry := None; p_name := rest; p_suffix := x |}
| step_name : forall p n r,
    step p (OpName n r) {| p_registry := r; p_name := n; p_suffix := p_suffix p |}
| step_tag : forall p t,
    step p (OpTag t) {| p_registry := p_registry p; p_name := p_name p;
                        p_suffix := match t with Some t => Tagged t | None => NoSuffix end |}
| step_digest : forall p d,
    step p (OpDigest d) {| p_registry := p_registry p; p_name := p_name p;
                           p_suffix := match d with Some d => Digested d | None => NoSuffix end |}.

(** Arguments of the setters are validated values. *)
Definition op_ok (o : op) : Prop :=
  match o with
  | OpRegistry r => match r with Some r => is_name r | None => True end
  | OpName n r => is_name n /\ is_registry n r
  | OpTag t => match t with Some t => is_tag t | None => True end
  | OpDigest d => match d with Some d => is_digest d | None => True end
  end.

Inductive steps : parts -> list op -> parts -> Prop :=
| steps_nil : forall p, steps p [] p
| steps_cons : forall p q r o os, op_ok o -> step p o q -> steps q os r -> steps p (o :: os) r.
