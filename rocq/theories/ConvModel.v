(** Conversions which put a value together without going through its parser. No proofs in this file. *)

From Coq Require Import String Ascii List NArith Bool.
Import ListNotations.
From Verif Require Import Base Num KeysModel PathModel UserModel ImageModel BuildModel VolumesModel.
Open Scope N_scope.

(** [From<Image> for CacheOption], build/cache.rs 332-337: the text of the image, unchecked. *)
Definition cache_option_from_image (i : image) : str := i_inner i.
(** [CacheOption::pair_from_image], build/cache.rs 313-315. *)
Definition cache_option_pair (i : image) : str * str := ($"ref", cache_option_from_image i).
(** [Cache::from_image], build/cache.rs 116-118, with [From<Image> for CacheType] and [From<CacheType> for Cache]. *)
Definition cache_from_image (i : image) : cache := mk_cache (CtRegistry i) [].

(** [From<AbsolutePath> for HostPath], volumes.rs 656-660: unchecked. *)
Definition host_path_from_absolute (p : str) : str := p.
(** [From<HostPath> for Source], volumes.rs 524-528, [From<AbsolutePath> for Source], 530-534, and [From<Identifier> for Source], 568-572. *)
Definition source_from_host_path (p : str) : source := HostPath p.
Definition source_from_absolute (p : str) : source := source_from_host_path (host_path_from_absolute p).
Definition source_from_identifier (id : str) : source := NamedVolume id.
(** [TryFrom<PathBuf> for Source] and the other kinds of paths, volumes.rs 536-566. *)
Definition source_from_path (p : str) : result host_path_error source := map_ok source_from_host_path (host_path_new p).

(** [ExtensionKey::strip_prefix], common/keys.rs 154-159. *)
Definition extension_key_strip (k : str) : may_panic str := match strip_prefix $"x-" k with Some r => Ret r | None => Panic end.

(** [From<IdOrName> for User], user.rs 49-53, and [From<(IdOrName, IdOrName)> for User], 67-74. *)
Definition user_from (u : id_or_name) : user := mk_user u None.
Definition user_from_pair (p : id_or_name * id_or_name) : user := mk_user (fst p) (Some (snd p)).

(** [Weight::DEFAULT], blkio_config.rs 128-131, made with [NonZeroU16::new_unchecked]. *)
Definition weight_default : N := 500.
