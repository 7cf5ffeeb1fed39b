(** Model of /repo/src/duration.rs (whole file) and of the parts of [std::time::Duration] it uses. *)

From Coq Require Import String Ascii List NArith ZArith Bool.
Import ListNotations.
From Verif Require Import Base Num.
Open Scope N_scope.

(** [std::time::Duration]: [u64] seconds and [u32] nanoseconds below [10^9]. *)
Record duration := mk_duration { secs : N; nanos : N }.

Definition NANOS_PER_SEC : N := 1000000000.

Definition duration_wf (d : duration) : Prop := secs d <= U64_MAX /\ nanos d < NANOS_PER_SEC.

(** [Duration::ZERO]. *)
Definition duration_zero : duration := mk_duration 0 0.

(** [Duration::from_secs], [from_millis], [from_micros] ([std]). *)
Definition from_secs (n : N) : duration := mk_duration n 0.
Definition from_millis (n : N) : duration := mk_duration (n / 1000) (n mod 1000 * 1000000).
Definition from_micros (n : N) : duration := mk_duration (n / 1000000) (n mod 1000000 * 1000).

(** [Duration::checked_add] ([std]): seconds are added first, then the carry of the nanoseconds. *)
Definition checked_add (a b : duration) : option duration :=
  if secs a + secs b <=? U64_MAX then
    let n := nanos a + nanos b in
    if n <? NANOS_PER_SEC then Some (mk_duration (secs a + secs b) n)
    else if secs a + secs b + 1 <=? U64_MAX
         then Some (mk_duration (secs a + secs b + 1) (n - NANOS_PER_SEC))
         else None
  else None.

(** [Duration::subsec_micros] ([std]). *)
Definition subsec_micros (d : duration) : N := nanos d / 1000.

(** duration.rs 31-40. *)
Definition MICROSECONDS_PER_MILLISECOND : N := 1000.
Definition SECONDS_PER_MINUTE : N := 60.
Definition MINUTES_PER_HOUR : N := 60.
Definition SECONDS_PER_HOUR : N := SECONDS_PER_MINUTE * MINUTES_PER_HOUR.

(** [push_value], duration.rs 84-89. The pushed text is returned. *)
Definition push_value (value : N) (unit : str) : str :=
  if value =? 0 then [] else show_N value ++ unit.

(** [to_string], duration.rs 47-81. *)
Definition to_string (d : duration) : str :=
  let seconds := secs d in
  let hours := seconds / SECONDS_PER_HOUR in
  let seconds := seconds mod SECONDS_PER_HOUR in
  let minutes := seconds / SECONDS_PER_MINUTE in
  let seconds := seconds mod SECONDS_PER_MINUTE in
  let microseconds := subsec_micros d in
  let milliseconds := microseconds / MICROSECONDS_PER_MILLISECOND in
  let microseconds := microseconds mod MICROSECONDS_PER_MILLISECOND in
  let string := push_value hours $"h" ++ push_value minutes $"m" ++ push_value seconds $"s"
                ++ push_value milliseconds $"ms" ++ push_value microseconds $"us" in
  match string with [] => $"0s" | _ => string end.

(** [ParseDurationError], duration.rs 161-183. *)
Inductive duration_error :=
| DurEmpty
| DurMissingUnit (s : str)
| DurNoDigits (s : str)
| DurOverflow
| DurInvalidUnit (u : str).

(** [add_duration], duration.rs 152-157. *)
Definition add_duration (d rhs : duration) : outcome duration_error duration :=
  match checked_add d rhs with Some r => OOk r | None => OErr DurOverflow end.

(** [u64::checked_mul]. *)
Definition checked_mul_u64 (a b : N) : option N := if a * b <=? U64_MAX then Some (a * b) else None.

(** One iteration of the loop, duration.rs 110-141: the new duration and the rest of the input. The
    [expect] of line 117 is the [OPanic] branch. *)
Definition parse_step (s : str) (d : duration) : outcome duration_error (duration * str) :=
  let (value, rest) := span is_digit s in
  match rest with
  | [] => OErr (DurMissingUnit s)
  | _ =>
      match value with
      | [] => OErr (DurNoDigits s)
      | _ =>
          match parse_u64 value with
          | Err _ => OPanic
          | Ok v =>
              let (unit, rest) := span (fun c => negb (is_digit c)) rest in
              let added :=
                if str_eqb unit $"h" then
                  match checked_mul_u64 v SECONDS_PER_HOUR with
                  | Some v => add_duration d (from_secs v)
                  | None => OErr DurOverflow
                  end
                else if str_eqb unit $"m" then
                  match checked_mul_u64 v SECONDS_PER_MINUTE with
                  | Some v => add_duration d (from_secs v)
                  | None => OErr DurOverflow
                  end
                else if str_eqb unit $"s" then add_duration d (from_secs v)
                else if str_eqb unit $"ms" then add_duration d (from_millis v)
                else if str_eqb unit $"us" then add_duration d (from_micros v)
                else OErr (DurInvalidUnit unit) in
              d' <~ added ;; OOk (d', rest)
          end
      end
  end.

(** The [while] loop, duration.rs 109-144. [None] is out of fuel; [parse] gives enough fuel
    (lemma [parse_loop_fuel]). *)
Fixpoint parse_loop (fuel : nat) (s : str) (d : duration) : option (outcome duration_error duration) :=
  match s with
  | [] => Some (OOk d)
  | _ => match fuel with
         | O => None
         | S f => match parse_step s d with
                  | OOk (d', rest) => parse_loop f rest d'
                  | OErr e => Some (OErr e)
                  | OPanic => Some OPanic
                  end
         end
  end.

(** [parse], duration.rs 102-145. *)
Definition parse (s : str) : outcome duration_error duration :=
  match s with
  | [] => OErr DurEmpty
  | _ => match parse_loop (List.length s) s duration_zero with
         | Some o => o
         | None => OPanic
         end
  end.
