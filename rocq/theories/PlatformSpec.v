(** Specification of platforms: which tables are sensible, which values are well typed, and what the text of a
    platform is, stated on the table alone. *)

From Coq Require Import String Ascii List NArith Bool.
Import ListNotations.
From Verif Require Import Base PlatformModel.
Open Scope N_scope.

(** Tables whose generated enums are legal Rust (distinct identifiers), whose texts are distinct and without
    slashes, and which the macro does not reject. *)
Record table_ok (t : table) : Prop := {
  ok_os_ident : NoDup (map o_ident (t_os t));
  ok_os_name : NoDup (map o_name (t_os t));
  ok_arch_ident : NoDup (map a_ident (t_arch t));
  ok_arch_name : NoDup (map a_name (t_arch t));
  ok_os_slash : forall o, In o (t_os t) -> ~ In (ch "/") (o_name o);
  ok_arch_slash : forall a, In a (t_arch t) -> ~ In (ch "/") (a_name a);
  ok_variant : forall a vs, In a (t_arch t) -> a_fields a = Some vs -> NoDup (map v_ident vs) /\ NoDup (map v_name vs);
  ok_defined : forall o n, In o (t_os t) -> In n (o_arch o) -> exists a, In a (t_arch t) /\ a_name a = n;
}.

(** Architecture [a], written [s], is of the architecture defined by item [it]. *)
Inductive arch_text (it : arch_item) : arch -> str -> Prop :=
| at_unit : a_fields it = None -> arch_text it (AUnit (a_ident it)) (a_name it)
| at_none vs : a_fields it = Some vs -> arch_text it (AVar (a_ident it) None) (a_name it)
| at_variant vs v : a_fields it = Some vs -> In v vs ->
    arch_text it (AVar (a_ident it) (Some (v_ident v))) (a_name it ++ $"/" ++ v_name v).

(** Architecture [a], written [s], is supported by the operating system [o]. *)
Definition os_arch_text (t : table) (o : os_item) (a : arch) (s : str) : Prop :=
  exists it, In it (t_arch t) /\ In (a_name it) (o_arch o) /\ arch_text it a s.

(** Platform [p] is written [s]: os[/arch[/variant]]. *)
Inductive platform_text (t : table) : platform -> str -> Prop :=
| pt_os o : In o (t_os t) -> platform_text t (mk_platform (o_ident o) None) (o_name o)
| pt_arch o a s : In o (t_os t) -> os_arch_text t o a s ->
    platform_text t (mk_platform (o_ident o) (Some a)) (o_name o ++ $"/" ++ s).

(** Well-typed platform values. *)
Definition platform_typed (t : table) (p : platform) : Prop :=
  exists o, In o (t_os t) /\ p_os p = o_ident o /\
    match p_arch p with None => True | Some a => exists s, os_arch_text t o a s end.

(** The platforms of the crate: the ports of Go, with the variants of arm. *)
Definition ARM : list str := [$"arm"; $"arm/v6"; $"arm/v7"; $"arm/v8"].
Definition ARM64 : list str := [$"arm64"; $"arm64/v8"].
Definition PLATFORMS : list (str * list str) :=
  [($"aix", [$"ppc64"]);
   ($"android", [$"386"; $"amd64"] ++ ARM ++ ARM64);
   ($"darwin", [$"amd64"] ++ ARM64);
   ($"dragonfly", [$"amd64"]);
   ($"freebsd", [$"386"; $"amd64"] ++ ARM);
   ($"illumos", [$"amd64"]);
   ($"ios", ARM64);
   ($"js", [$"wasm"]);
   ($"linux", [$"386"; $"amd64"] ++ ARM ++ ARM64 ++
      [$"loong64"; $"mips"; $"mipsle"; $"mips64"; $"mips64le"; $"ppc64"; $"ppc64le"; $"riscv64"; $"s390x"]);
   ($"netbsd", [$"386"; $"amd64"] ++ ARM);
   ($"openbsd", [$"386"; $"amd64"] ++ ARM ++ ARM64);
   ($"plan9", [$"386"; $"amd64"] ++ ARM);
   ($"solaris", [$"amd64"]);
   ($"wasip1", [$"wasm"]);
   ($"windows", [$"386"; $"amd64"] ++ ARM ++ ARM64)].
Definition PLATFORM (s : str) : Prop :=
  exists os archs, In (os, archs) PLATFORMS /\ (s = os \/ exists a, In a archs /\ s = os ++ $"/" ++ a).
