(** Target platforms: the [platforms!] macro (compose_spec_macros/src/platforms.rs, platforms/os.rs and
    platforms/arch.rs) and the table it is applied to (src/service/platform.rs 7-212).

    The macro is modelled as a function of its input table.  A value of one of the generated enums is modelled by
    the identifiers of its constructors: an architecture is [AUnit ident] for an enum variant without fields and
    [AVar ident v] for one with a field of type [Option<{Arch}Variant>]; the values of the generated types are
    those which are well typed for the table ([PlatformSpec]).  The generated [match] expressions are lists of
    arms, searched from the first to the last as Rust does.  Attributes, visibilities and spans are left out. *)

From Coq Require Import String Ascii List NArith Bool.
Import ListNotations.
From Verif Require Import Base.
Open Scope N_scope.

(** One variant of an architecture, [ident => name] (arch.rs 449-457). *)
Record variant := mk_variant { v_ident : str; v_name : str }.
(** One architecture, [ident => name { variants: [..] }] (arch.rs 220-229). *)
Record arch_item := mk_arch { a_ident : str; a_name : str; a_fields : option (list variant) }.
(** One operating system, [ident => name { arch: [..] }] (os.rs 201-210). *)
Record os_item := mk_os { o_ident : str; o_name : str; o_arch : list str }.
(** The macro input: the [Os] and [Arch] definitions (platforms.rs 33-43). *)
Record table := mk_table { t_os : list os_item; t_arch : list arch_item }.

(** A value of the generated [Arch] or [{Os}Arch] enums (arch.rs 279-295). *)
Inductive arch := AUnit (ident : str) | AVar (ident : str) (v : option str).
(** A value of the generated [Platform] enum, [{Os}(Option<{Os}Arch>)] (os.rs 235-244). *)
Record platform := mk_platform { p_os : str; p_arch : option arch }.

Definition str_dec : forall a b : str, {a = b} + {a <> b} := list_eq_dec N.eq_dec.
Definition arch_dec : forall a b : arch, {a = b} + {a <> b}.
Proof. decide equality; try apply str_dec. decide equality. apply str_dec. Defined.
Definition platform_dec : forall a b : platform, {a = b} + {a <> b}.
Proof. decide equality; [decide equality; apply arch_dec|apply str_dec]. Defined.

(** ** Macro checks and lookups *)

(** [Map::get], arch.rs 162-170, on the map collected at arch.rs 62-68: the last item with a name wins.  [None] is
    the panic of [expect]. *)
Definition map_get (t : table) (name : str) : option arch_item :=
  find (fun a => if str_dec (a_name a) name then true else false) (rev (t_arch t)).

(** Errors of [Arch::to_map], arch.rs 53-102 (all reported errors, undefined ones first). *)
Inductive map_error := UndefinedArch (name : str) | UnusedArch (ident : str).

(** [Arch::to_map], arch.rs 58-102.  The table of the model stands for the map. *)
Definition to_map (t : table) : list map_error :=
  let used := flat_map o_arch (t_os t) in
  map UndefinedArch (filter (fun n => match map_get t n with None => true | Some _ => false end) used) ++
  map (fun a => UnusedArch (a_ident a)) (filter (fun a => if in_dec str_dec (a_name a) used then false else true) (t_arch t)).

(** ** Match arms *)

(** [concat], platforms.rs 299-319, of two literals with ['/']. *)
Definition slash (a b : str) : str := a ++ $"/" ++ b.

(** [Item::str_arms], arch.rs 315-336: the value and its text for every arm. *)
Definition str_arms (a : arch_item) : list (arch * str) :=
  match a_fields a with
  | Some vs => (AVar (a_ident a) None, a_name a) ::
               map (fun v => (AVar (a_ident a) (Some (v_ident v)), slash (a_name a) (v_name v))) vs
  | None => [(AUnit (a_ident a), a_name a)]
  end.

(** [Arch::expand], arch.rs 111-126: arms of [Arch::as_str] and [Arch::from_str]. *)
Definition arch_arms (t : table) : list (arch * str) := flat_map str_arms (t_arch t).

(** [Arch::os_arch_as_str_arms] and [os_arch_from_str_arms], os.rs 484-502: arms for [{Os}Arch].  The panic of
    [Map::get] gives no arm here; [to_map] has excluded it. *)
Definition os_arch_arms (t : table) (o : os_item) : list (arch * str) :=
  flat_map (fun n => match map_get t n with Some a => str_arms a | None => [] end) (o_arch o).

(** [Item::platform_as_str_arms] and [platform_from_str_arms], os.rs 246-258, 272-285 and arch.rs 252-277. *)
Definition platform_item_arms (t : table) (o : os_item) : list (platform * str) :=
  (mk_platform (o_ident o) None, o_name o) ::
  map (fun x => (mk_platform (o_ident o) (Some (fst x)), slash (o_name o) (snd x))) (os_arch_arms t o).

(** [Os::expand_platform], os.rs 89-99. *)
Definition platform_arms (t : table) : list (platform * str) := flat_map (platform_item_arms t) (t_os t).

(** The generated [match] on the value ([as_str], os.rs 123-127): first arm with this value.  [None] only for a
    value which is not well typed. *)
Definition first_value {A} (dec : forall a b : A, {a = b} + {a <> b}) (arms : list (A * str)) (x : A) : option str :=
  option_map snd (find (fun arm => if dec (fst arm) x then true else false) arms).
(** The generated [match] on the text ([from_str], platforms.rs 277-285): first arm with this text, else the
    error holding the text. *)
Definition first_text {A} (arms : list (A * str)) (s : str) : result str A :=
  match find (fun arm => str_eqb (snd arm) s) arms with Some arm => Ok (fst arm) | None => Err s end.

(** ** Generated functions *)

(** [Platform::as_str], os.rs 122-127. *)
Definition platform_as_str (t : table) : platform -> option str := first_value platform_dec (platform_arms t).
(** [Platform::from_str], platforms.rs 277-285. *)
Definition platform_parse (t : table) : str -> result str platform := first_text (platform_arms t).
(** [Platform::os], os.rs 129-134, 260-264: an [Os] value is its identifier. *)
Definition platform_os (p : platform) : str := p_os p.
(** [From<{Os}Arch> for Arch], os.rs 377-383 and arch.rs 349-358. *)
Definition arch_of_os_arch (a : arch) : arch := match a with AUnit i => AUnit i | AVar i v => AVar i v end.
(** [Platform::arch], os.rs 136-141, 266-270. *)
Definition platform_arch (p : platform) : option arch := option_map arch_of_os_arch (p_arch p).
(** [From<Os> for Platform], os.rs 146-152, 287-291. *)
Definition platform_of_os (os : str) : platform := mk_platform os None.

(** [Os::as_str] and [Os::from_str], os.rs 187-196, 303-315. *)
Definition os_arms (t : table) : list (str * str) := map (fun o => (o_ident o, o_name o)) (t_os t).
Definition os_as_str (t : table) : str -> option str := first_value str_dec (os_arms t).
Definition os_parse (t : table) : str -> result str str := first_text (os_arms t).

(** [Arch::as_str] and [Arch::from_str], arch.rs 139-148. *)
Definition arch_as_str (t : table) : arch -> option str := first_value arch_dec (arch_arms t).
Definition arch_parse (t : table) : str -> result str arch := first_text (arch_arms t).

(** [{Os}Arch::as_str] and [{Os}Arch::from_str], os.rs 352-364. *)
Definition os_arch_as_str (t : table) (o : os_item) : arch -> option str := first_value arch_dec (os_arch_arms t o).
Definition os_arch_parse (t : table) (o : os_item) : str -> result str arch := first_text (os_arch_arms t o).

(** [TryFrom<Arch> for {Os}Arch], os.rs 366-375 and arch.rs 338-347: one arm per architecture of the list, whose
    pattern binds the variant.  The error holds the architecture and the operating system. *)
Definition os_arch_try_from (t : table) (o : os_item) (a : arch) : result (arch * str) arch :=
  let arm n := match map_get t n with
    | Some it => match a, a_fields it with
        | AUnit i, None => if str_dec i (a_ident it) then true else false
        | AVar i _, Some _ => if str_dec i (a_ident it) then true else false
        | _, _ => false
        end
    | None => false
    end in
  if existsb arm (o_arch o) then Ok a else Err (a, o_ident o).

(** [{Arch}Variant::as_str] and [from_str], arch.rs 366-399, 482-496. *)
Definition variant_arms (vs : list variant) : list (str * str) := map (fun v => (v_ident v, v_name v)) vs.
Definition variant_as_str (vs : list variant) : str -> option str := first_value str_dec (variant_arms vs).
Definition variant_parse (vs : list variant) : str -> result str str := first_text (variant_arms vs).

(** ** The table of the crate, src/service/platform.rs 33-191 *)

Definition crate_os : list os_item := [
  mk_os $"Aix" $"aix" [$"ppc64"];
  mk_os $"Android" $"android" [$"386"; $"amd64"; $"arm"; $"arm64"];
  mk_os $"Darwin" $"darwin" [$"amd64"; $"arm64"];
  mk_os $"DragonFly" $"dragonfly" [$"amd64"];
  mk_os $"FreeBsd" $"freebsd" [$"386"; $"amd64"; $"arm"];
  mk_os $"Illumos" $"illumos" [$"amd64"];
  mk_os $"IOs" $"ios" [$"arm64"];
  mk_os $"Js" $"js" [$"wasm"];
  mk_os $"Linux" $"linux" [$"386"; $"amd64"; $"arm"; $"arm64"; $"loong64"; $"mips"; $"mipsle"; $"mips64"; $"mips64le";
    $"ppc64"; $"ppc64le"; $"riscv64"; $"s390x"];
  mk_os $"NetBsd" $"netbsd" [$"386"; $"amd64"; $"arm"];
  mk_os $"OpenBsd" $"openbsd" [$"386"; $"amd64"; $"arm"; $"arm64"];
  mk_os $"Plan9" $"plan9" [$"386"; $"amd64"; $"arm"];
  mk_os $"Solaris" $"solaris" [$"amd64"];
  mk_os $"WasiP1" $"wasip1" [$"wasm"];
  mk_os $"Windows" $"windows" [$"386"; $"amd64"; $"arm"; $"arm64"]].

Definition crate_arch : list arch_item := [
  mk_arch $"_386" $"386" None;
  mk_arch $"Amd64" $"amd64" None;
  mk_arch $"Arm" $"arm" (Some [mk_variant $"V6" $"v6"; mk_variant $"V7" $"v7"; mk_variant $"V8" $"v8"]);
  mk_arch $"Arm64" $"arm64" (Some [mk_variant $"V8" $"v8"]);
  mk_arch $"Loong64" $"loong64" None;
  mk_arch $"Mips" $"mips" None;
  mk_arch $"MipsLe" $"mipsle" None;
  mk_arch $"Mips64" $"mips64" None;
  mk_arch $"Mips64Le" $"mips64le" None;
  mk_arch $"Ppc64" $"ppc64" None;
  mk_arch $"Ppc64Le" $"ppc64le" None;
  mk_arch $"RiscV64" $"riscv64" None;
  mk_arch $"S390x" $"s390x" None;
  mk_arch $"Wasm" $"wasm" None].

Definition crate_table : table := mk_table crate_os crate_arch.
