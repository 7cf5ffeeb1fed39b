(** Model of [src/service/cpuset.rs]. No proofs in this file. *)

From Coq Require Import String Ascii List NArith ZArith Bool.
Import ListNotations.
From Verif Require Import Base Num.
Open Scope N_scope.

(** [BTreeSet<u64>], cpuset.rs 18: its elements in increasing order. *)
Fixpoint set_insert (n : N) (l : list N) : list N :=
  match l with
  | [] => [n]
  | x :: r => match n ?= x with
              | Lt => n :: l
              | Eq => l
              | Gt => x :: set_insert n r
              end
  end.

(** [start..=end]. *)
Definition inclusive (start end_ : N) : list N :=
  map (fun k => start + N.of_nat k) (seq 0 (N.to_nat (end_ + 1 - start))).

(** [BTreeSet::extend]. *)
Definition set_extend (l ns : list N) : list N := fold_left (fun acc n => set_insert n acc) ns l.

(** [write_range], cpuset.rs 56-71. *)
Definition write_range (first : bool) (start end_ : N) : str :=
  (if first then [] else [ch ","]) ++ show_N start ++ (if start =? end_ then [] else ch "-" :: show_N end_).

(** [*end + 1] on [u64], cpuset.rs 41: panics with overflow checks, wraps without. *)
Definition u64_succ (checks : bool) (n : N) : may_panic N :=
  if n + 1 <=? U64_MAX then Ret (n + 1) else if checks then Panic else Ret 0.

(** The loop of [Display for CpuSet], cpuset.rs 39-52. *)
Fixpoint cpuset_loop (checks first : bool) (start end_ : N) (l : list N) : may_panic str :=
  match l with
  | [] => Ret (write_range first start end_)
  | cpu :: r =>
      next <! u64_succ checks end_ ;;
      if cpu =? next then cpuset_loop checks first start cpu r
      else rest <! cpuset_loop checks false cpu cpu r ;; Ret (write_range first start end_ ++ rest)
  end.

(** [Display for CpuSet], cpuset.rs 28-53. *)
Definition cpuset_show (checks : bool) (l : list N) : may_panic str :=
  match l with
  | [] => Ret []
  | cpu :: r => cpuset_loop checks true cpu cpu r
  end.

(** One item of the list, cpuset.rs 79-87. [ParseCpuSetError] keeps the number it could not parse. *)
Definition cpuset_item (acc : list N) (item : str) : result (int_error * str) (list N) :=
  match split_once (ch "-") item with
  | Some (a, b) =>
      start <- map_err (fun e => (e, a)) (parse_u64 a) ;;
      end_ <- map_err (fun e => (e, b)) (parse_u64 b) ;;
      Ok (set_extend acc (inclusive start end_))
  | None => cpu <- map_err (fun e => (e, item)) (parse_u64 item) ;; Ok (set_insert cpu acc)
  end.

Fixpoint cpuset_items (acc : list N) (items : list str) : result (int_error * str) (list N) :=
  match items with
  | [] => Ok acc
  | i :: r => acc' <- cpuset_item acc i ;; cpuset_items acc' r
  end.

(** [FromStr for CpuSet], cpuset.rs 73-92. *)
Definition cpuset_parse (s : str) : result (int_error * str) (list N) :=
  cpuset_items [] (split_terminator (ch ",") s).
