(** [src/service/healthcheck.rs]: the hand-written visitor. No proofs in this file. *)

From Coq Require Import String Ascii List NArith ZArith Bool.
Import ListNotations.
From Verif Require Import Base Num Coll KeysModel DurationModel Serde Codec EnumModel ScalarCodec.
Open Scope N_scope.

(** [Test], 379-385; [Serialize], 399-408. *)
Inductive test : Set := TCommand (args : list str) | TShell (s : str).
Definition test_ser (t : test) : sval := match t with TCommand args => VSeq (map VStr ($"CMD" :: args)) | TShell s => VStr s end.

(** [TestKind], 271-282, with the names of [rename_all = "SCREAMING-KEBAB-CASE"]. *)
Inductive test_kind : Set := TkCmd | TkCmdShell | TkNone.
Definition test_kind_ident (k : test_kind) : str := match k with TkCmd => $"Cmd" | TkCmdShell => $"CmdShell" | TkNone => $"None" end.
Definition test_kind_name (k : test_kind) : str := screaming_kebab_case (test_kind_ident k).

(** What [DisableOrTest] (191-268) finds in a [test] entry: a test, or [NONE]. The sequence starts with a [TestKind]. *)
Definition strings (l : list sval) : result de_error (list str) := collect (de string_c) l.
Definition test_or_none (v : sval) : result de_error (option test) :=
  match v with
  | VStr s => Ok (Some (TShell s))
  | VSeq (VStr kind :: args) =>
      if str_eqb kind (test_kind_name TkCmd) then map_ok (fun a => Some (TCommand a)) (strings args)
      else if str_eqb kind (test_kind_name TkCmdShell) then
        match args with [VStr s] => Ok (Some (TShell s)) | _ => Err DeError end
      else if str_eqb kind (test_kind_name TkNone) then
        match args with [] => Ok None | _ => Err DeError end
      else Err DeError
  | _ => Err DeError
  end.

(** The variables of [visit_map], 71-78. *)
Record slots : Set := mk_slots {
  h_disable : option bool; h_test : option test; h_interval : option duration; h_timeout : option duration;
  h_retries : option N; h_start_period : option duration; h_start_interval : option duration; h_extensions : extensions }.
Definition no_slots : slots := mk_slots None None None None None None None [].

(** [check_duplicate], 151-157, and [next_value]. *)
Definition fill {A : Set} (slot : option A) (c : codec A) (v : sval) (set : option A -> slots) : result de_error slots :=
  if is_none slot then map_ok (fun a => set (Some a)) (de c v) else Err DeError.

(** One turn of the loop, 80-119. Another key is read as an [ExtensionKey] ([Field], 160-186). *)
Definition health_entry (s : slots) (e : sval * sval) : result de_error slots :=
  let '(mk_slots d t i o r p q x) := s in
  match fst e with
  | VStr k =>
      if str_eqb k $"disable" then fill d bool_c (snd e) (fun d => mk_slots d t i o r p q x)
      else if str_eqb k $"test" then
        if is_none t then
          y <- test_or_none (snd e) ;;
          match y with
          | Some t => Ok (mk_slots d (Some t) i o r p q x)
          | None => match d with Some true => Err DeError | _ => Ok (mk_slots (Some true) t i o r p q x) end
          end
        else Err DeError
      else if str_eqb k $"interval" then fill i duration_c (snd e) (fun i => mk_slots d t i o r p q x)
      else if str_eqb k $"timeout" then fill o duration_c (snd e) (fun o => mk_slots d t i o r p q x)
      else if str_eqb k $"retries" then fill r u64_c (snd e) (fun r => mk_slots d t i o r p q x)
      else if str_eqb k $"start_period" then fill p duration_c (snd e) (fun p => mk_slots d t i o r p q x)
      else if str_eqb k $"start_interval" then fill q duration_c (snd e) (fun q => mk_slots d t i o r p q x)
      else
        y <- ext_entry e ;;
        match imap_get str_eqb x (fst y) with Some _ => Err DeError | None => Ok (mk_slots d t i o r p q (x ++ [y])) end
  | _ => Err DeError
  end.
Fixpoint health_loop (s : slots) (es : list (sval * sval)) : result de_error slots :=
  match es with [] => Ok s | e :: es => s <- health_entry s e ;; health_loop s es end.

(** The same, for panics. *)
Definition fill_panics {A : Set} (slot : option A) (c : codec A) (v : sval) : bool := is_none slot && panics c v.
Definition health_entry_panics (s : slots) (e : sval * sval) : bool :=
  match fst e with
  | VStr k =>
      if str_eqb k $"interval" then fill_panics (h_interval s) duration_c (snd e)
      else if str_eqb k $"timeout" then fill_panics (h_timeout s) duration_c (snd e)
      else if str_eqb k $"start_period" then fill_panics (h_start_period s) duration_c (snd e)
      else if str_eqb k $"start_interval" then fill_panics (h_start_interval s) duration_c (snd e)
      else false
  | _ => false
  end.
Fixpoint health_panics (s : slots) (es : list (sval * sval)) : bool :=
  match es with
  | [] => false
  | e :: es => health_entry_panics s e || match health_entry s e with Ok s => health_panics s es | Err _ => false end
  end.

(** [Command], 293-349, as the tuple of its fields. *)
Definition test_c : codec test :=
  mk_codec test_ser (fun v => match test_or_none v with Ok (Some t) => Ok t | _ => Err DeError end) (fun _ => True) (fun t => t).
Definition health_ms : list member :=
  [given $"test" test_c; given $"interval" duration_c; given $"timeout" duration_c; given $"retries" u64_c;
   given $"start_period" duration_c; given $"start_interval" duration_c].
Definition health_command : Set := vals health_ms * extensions.

(** [Healthcheck], 21-27; the end of [visit_map], 121-146. *)
Inductive healthcheck : Set := HcCommand (c : health_command) | HcDisable.
Definition health_finish (s : slots) : result de_error healthcheck :=
  match h_disable s with
  | Some true =>
      if is_none (h_test s) && is_none (h_interval s) && is_none (h_timeout s) && is_none (h_retries s) && is_none (h_start_period s)
         && is_none (h_start_interval s) && is_nil (h_extensions s)
      then Ok HcDisable else Err DeError
  | _ =>
      Ok (HcCommand ((h_test s, (h_interval s, (h_timeout s, (h_retries s, (h_start_period s, (h_start_interval s, tt)))))), h_extensions s))
  end.
Definition health_de (v : sval) : result de_error healthcheck :=
  match v with VMap es => s <- health_loop no_slots es ;; health_finish s | _ => Err DeError end.

(** [Serialize for Healthcheck], 41-52. *)
Definition health_ser (h : healthcheck) : sval :=
  match h with HcCommand c => ser (struct_ext_c health_ms) c | HcDisable => VMap [(VStr $"disable", VBool true)] end.
Definition healthcheck_c : codec healthcheck :=
  MkCodec health_ser health_de (fun h => match h with HcCommand c => wf (struct_ext_c health_ms) c | HcDisable => True end)
    (fun h => match h with HcCommand c => HcCommand (norm (struct_ext_c health_ms) c) | HcDisable => HcDisable end)
    (fun v => match v with VMap es => health_panics no_slots es | _ => false end).
