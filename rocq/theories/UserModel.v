(** Model of /repo/src/service/user.rs. *)

From Coq Require Import String Ascii List NArith ZArith Bool.
Import ListNotations.
From Verif Require Import Base Num.
Open Scope N_scope.

(** [InvalidNameError], user.rs 347-374. *)
Inductive user_name_error :=
| UserEmpty | UserCharacter (c : char) | UserDollarSign | UserNumeric | UserStart | UserLength.

(** The loop of [Name::new], user.rs 321-333: [n] is the index of the head of [s], [len] the byte length
    of the whole name; the result is [fully_numeric]. *)
Fixpoint user_name_loop (n len : N) (numeric : bool) (s : str) : result user_name_error bool :=
  match s with
  | [] => Ok numeric
  | c :: r =>
      if is_alpha c || (c =? ch "_") || (c =? ch "-") || (c =? ch "$") then
        if (c =? ch "$") && negb (n =? len - 1) then Err UserDollarSign
        else user_name_loop (n + 1) len false r
      else if is_digit c then user_name_loop (n + 1) len numeric r
      else Err (UserCharacter c)
  end.

(** [Name::new], user.rs 310-343. *)
Definition user_name_new (s : str) : result user_name_error str :=
  match s with
  | [] => Err UserEmpty
  | _ =>
      numeric <- user_name_loop 0 (blen s) true s ;;
      if numeric then Err UserNumeric
      else if starts_with $"-" s then Err UserStart
      else if 32 <? blen s then Err UserLength
      else Ok s
  end.

(** [IdOrName], user.rs 144-150. *)
Inductive id_or_name := Id (n : N) | UName (s : str).

(** [IdOrName::parse], user.rs 162-170. *)
Definition id_or_name_parse (s : str) : result user_name_error id_or_name :=
  match parse_u32 s with
  | Ok id => Ok (Id id)
  | Err _ => map_ok UName (user_name_new s)
  end.

(** [Display for IdOrName], user.rs 219-226. *)
Definition id_or_name_show (x : id_or_name) : str :=
  match x with Id n => show_N n | UName s => s end.

(** [User], user.rs 18-24. *)
Record user := mk_user { user_user : id_or_name; user_group : option id_or_name }.

(** [User::parse], user.rs 34-47. *)
Definition user_parse (s : str) : result user_name_error user :=
  match split_once (ch ":") s with
  | Some (u, g) => u' <- id_or_name_parse u ;; g' <- id_or_name_parse g ;; Ok (mk_user u' (Some g'))
  | None => map_ok (fun u => mk_user u None) (id_or_name_parse s)
  end.

(** [Display for User], user.rs 115-130. *)
Definition user_show (u : user) : str :=
  id_or_name_show (user_user u) ++
  match user_group u with Some g => ch ":" :: id_or_name_show g | None => [] end.

(** [From<User> for String], user.rs 132-140 and [From<IdOrName> for String], 228-235. *)
Definition user_into_string (u : user) : str :=
  match user_group u with
  | Some _ => user_show u
  | None => match user_user u with Id n => show_N n | UName s => s end
  end.
