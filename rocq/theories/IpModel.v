(** IP address texts: model of the part of [core::net] used by the crate ([IpAddr::from_str], [Display]).
    Source: library/core/src/net/{parser.rs,ip_addr.rs} of the Rust standard library. No proofs here. *)

From Coq Require Import String Ascii List NArith ZArith Bool.
Import ListNotations.
From Verif Require Import Base Num.
Open Scope N_scope.

(** [IpAddr]: four octets, or eight 16-bit segments. *)
Inductive ip_addr :=
| V4 (a b c d : N)
| V6 (segments : list N).

Definition ip_wf (ip : ip_addr) : Prop :=
  match ip with
  | V4 a b c d => a <= 255 /\ b <= 255 /\ c <= 255 /\ d <= 255
  | V6 l => List.length l = 8%nat /\ Forall (fun g => g <= 65535) l
  end.

(** ** Parser *)

(** The digit loop of [Parser::read_number] with [max_digits = Some(max_digits)]. [None]: too many digits. *)
Fixpoint read_digits (radix : N) (max_digits : nat) (acc : N) (s : str) : option (nat * N * str) :=
  match s with
  | [] => Some (O, acc, [])
  | c :: r =>
      match to_digit radix c with
      | None => Some (O, acc, s)
      | Some d =>
          match max_digits with
          | O => None
          | S m => match read_digits radix m (acc * radix + d) r with
                   | Some (n, v, rest) => Some (S n, v, rest)
                   | None => None
                   end
          end
      end
  end.

(** [Parser::read_number]; [max] is the largest value of the target type. *)
Definition read_number (radix : N) (max_digits : nat) (allow_zero_prefix : bool) (max : N) (s : str)
  : option (N * str) :=
  let has_leading_zero := match s with c :: _ => c =? 48 | [] => false end in
  match read_digits radix max_digits 0 s with
  | None => None
  | Some (n, v, rest) =>
      if Nat.eqb n 0 then None
      else if negb allow_zero_prefix && has_leading_zero && Nat.ltb 1 n then None
      else if v <=? max then Some (v, rest) else None
  end.

(** [Parser::read_given_char]. *)
Definition read_given_char (c : char) (s : str) : option str :=
  match s with x :: r => if x =? c then Some r else None | [] => None end.

(** [Parser::read_separator]: the separator is read except before the first item. *)
Definition read_separator {A} (sep : char) (first : bool) (inner : str -> option (A * str)) (s : str)
  : option (A * str) :=
  if first then inner s
  else match read_given_char sep s with Some r => inner r | None => None end.

Definition read_octet : str -> option (N * str) := read_number 10 3 false 255.
Definition read_group : str -> option (N * str) := read_number 16 4 true 65535.

(** [Parser::read_ipv4_addr]. *)
Definition read_ipv4 (s : str) : option ((N * N * N * N) * str) :=
  match read_separator (ch ".") true read_octet s with
  | None => None
  | Some (a, s) =>
      match read_separator (ch ".") false read_octet s with
      | None => None
      | Some (b, s) =>
          match read_separator (ch ".") false read_octet s with
          | None => None
          | Some (c, s) =>
              match read_separator (ch ".") false read_octet s with
              | None => None
              | Some (d, s) => Some ((a, b, c, d), s)
              end
          end
      end
  end.

(** [read_groups] inside [Parser::read_ipv6_addr]: [limit] is the number of slots left; the result is the
    groups read, whether an embedded IPv4 address ended them, and the rest of the input. *)
Fixpoint read_groups (limit : nat) (first : bool) (s : str) : list N * bool * str :=
  match limit with
  | O => ([], false, s)
  | S limit' =>
      let group :=
        match read_separator (ch ":") first read_group s with
        | Some (g, r) => let '(gs, v4, rest) := read_groups limit' false r in (g :: gs, v4, rest)
        | None => ([], false, s)
        end in
      match limit' with
      | O => group
      | S _ => match read_separator (ch ":") first read_ipv4 s with
               | Some ((a, b, c, d), r) => ([a * 256 + b; c * 256 + d], true, r)
               | None => group
               end
      end
  end.

(** [Parser::read_ipv6_addr]. *)
Definition read_ipv6 (s : str) : option (list N * str) :=
  let '(head, head_v4, s) := read_groups 8 true s in
  if Nat.eqb (List.length head) 8 then Some (head, s)
  else if head_v4 then None
  else match read_given_char (ch ":") s with
       | None => None
       | Some s =>
           match read_given_char (ch ":") s with
           | None => None
           | Some s =>
               let '(tail, _, s) := read_groups (7 - List.length head) true s in
               Some (head ++ repeat 0 (8 - List.length head - List.length tail) ++ tail, s)
           end
       end.

(** [IpAddr::from_str]: [None] is [AddrParseError]. *)
Definition ip_parse (s : str) : option ip_addr :=
  match read_ipv4 s with
  | Some ((a, b, c, d), r) => match r with [] => Some (V4 a b c d) | _ => None end
  | None =>
      match read_ipv6 s with
      | Some (l, []) => Some (V6 l)
      | _ => None
      end
  end.

(** ** Display *)

Definition show_ipv4 (a b c d : N) : str :=
  show_N a ++ $"." ++ show_N b ++ $"." ++ show_N c ++ $"." ++ show_N d.

(** [{:x}]. *)
Definition show_hex (n : N) : str := map digit_char (digits 16 n).

(** [fmt_subslice]. *)
Definition fmt_subslice (l : list N) : str := join $":" (map show_hex l).

(** The loop which finds the longest run of zero segments: a span is (start, len). *)
Fixpoint zero_spans (i : nat) (current longest : nat * nat) (l : list N) : nat * nat :=
  match l with
  | [] => longest
  | g :: r =>
      if g =? 0 then
        let current := if Nat.eqb (snd current) 0 then (i, 1%nat) else (fst current, S (snd current)) in
        let longest := if Nat.ltb (snd longest) (snd current) then current else longest in
        zero_spans (S i) current longest r
      else zero_spans (S i) (O, O) longest r
  end.

(** [Display for Ipv6Addr]. [compat] chooses between the older standard library (which prints
    IPv4-compatible addresses other than [::] and [::1] in dotted form) and the current one. *)
Definition show_ipv6 (compat : bool) (l : list N) : str :=
  let general :=
    let '(start, len) := zero_spans 0 (O, O) (O, O) l in
    if Nat.ltb 1 len then
      fmt_subslice (firstn start l) ++ $"::" ++ fmt_subslice (skipn (start + len) l)
    else fmt_subslice l in
  match l with
  | [0; 0; 0; 0; 0; x; g; h] =>
      let v4 := show_ipv4 (g / 256) (g mod 256) (h / 256) (h mod 256) in
      if x =? 65535 then $"::ffff:" ++ v4
      else if compat && (x =? 0) && negb ((g =? 0) && ((h =? 0) || (h =? 1))) then $"::" ++ v4
      else general
  | _ => general
  end.

(** [Display for IpAddr]. *)
Definition ip_show (compat : bool) (ip : ip_addr) : str :=
  match ip with
  | V4 a b c d => show_ipv4 a b c d
  | V6 l => show_ipv6 compat l
  end.
