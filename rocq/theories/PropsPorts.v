(** Theorems about ports (C10 to C14, C49, C50). *)

From Coq Require Import String Ascii List NArith ZArith Bool Lia.
Import ListNotations.
From Verif Require Import Base Num IpModel IpProofs Serde PortsModel PortsProofs.
Open Scope N_scope.

(** IP address texts, as printed and parsed by the standard library (both printing styles). *)
Theorem ip_text_round_trip : forall compat ip, ip_wf ip -> ip_parse (ip_show compat ip) = Some ip.
Proof. exact ip_round_trip. Qed.
Print Assumptions ip_text_round_trip.

Example ip_text_case :
  ip_wf (V6 [8193; 3512; 0; 0; 1; 0; 0; 1]) /\ ip_show false (V6 [8193; 3512; 0; 0; 1; 0; 0; 1]) = $"2001:db8::1:0:0:1".
Proof. split; [split; [reflexivity|repeat constructor; discriminate]|vm_compute; reflexivity]. Qed.

(** C10. Every range with [u16] bounds survives printing and parsing. *)
Theorem port_range_round_trip : forall start end_ r,
  start < 65536 -> (forall e, end_ = Some e -> e < 65536) -> range_new start end_ = Ok r ->
  range_parse (range_show r) = Ok r /\ range_deserialize (range_serialize r) = OOk r.
Proof.
  intros start end_ r H1 H2 H. assert (range_u16 r).
  { apply range_new_ok in H as [_ [<- H]]. unfold range_u16, U16_MAX. split; [lia|].
    destruct (r_end r) as [e|]; [|exact I]. destruct H as [-> _]. specialize (H2 e eq_refl). lia. }
  split; [apply range_round_trip|apply range_serde_round_trip]; assumption.
Qed.
Print Assumptions port_range_round_trip.

Example port_range_case : exists r, range_new 8000 (Some 9000) = Ok r /\ range_show r = $"8000-9000".
Proof. eexists. vm_compute. auto. Qed.

(** C10. Every accepted text prints to a text with the same meaning. *)
Theorem port_range_parse_normalizes : forall s r, range_parse s = Ok r -> range_parse (range_show r) = Ok r.
Proof. intros s r H. apply range_round_trip. eapply range_parse_u16. exact H. Qed.
Print Assumptions port_range_parse_normalizes.

(** C10. Exact language and meaning of the range parser. *)
Theorem port_range_parse_meaning : forall s r, range_parse s = Ok r <->
  match r_end r with
  | None => parse_u16 s = Ok (r_start r)
  | Some e => exists a b, s = a ++ ch "-" :: b /\ parse_u16 a = Ok (r_start r) /\ parse_u16 b = Ok e
  end.
Proof. exact range_parse_ok. Qed.
Print Assumptions port_range_parse_meaning.

(** C11 is false for parsed ranges: a reversed range is accepted. *)
Theorem port_range_parse_ordered_refuted : exists s r e,
  range_parse s = Ok r /\ r_end r = Some e /\ e < r_start r /\ range_size true r = Panic.
Proof. exists $"9-5", (mk_range 9 (Some 5)), 5. vm_compute. auto. Qed.
Print Assumptions port_range_parse_ordered_refuted.

(** C11 is false for the full range built by the checked constructor: [size] overflows. *)
Theorem port_range_size_refuted : exists r,
  range_new 0 (Some 65535) = Ok r /\ range_size true r = Panic /\ range_size false r = Ret 0.
Proof. exists (mk_range 0 (Some 65535)). vm_compute. auto. Qed.
Print Assumptions port_range_size_refuted.

(** C11. Ranges built by the constructor are in order, and describe the requested ports. *)
Theorem port_range_new_ordered : forall start end_ r, range_new start end_ = Ok r ->
  (forall e, r_end r = Some e -> r_start r < e) /\
  (forall n, In n (range_iter r) <-> start <= n <= match end_ with Some e => e | None => start end).
Proof.
  intros start end_ r H. apply range_new_ok in H as [_ [H1 H2]]. split.
  - intros e He. rewrite He in H2. lia.
  - intros n. rewrite range_iter_In. destruct (r_end r) as [e|].
    + destruct H2 as [-> _]. rewrite H1. tauto.
    + destruct H2 as [-> | ->]; rewrite H1; tauto.
Qed.
Print Assumptions port_range_new_ordered.

Theorem port_range_new_rejects : forall start end_ e, range_new start end_ = Err e <->
  exists b, end_ = Some b /\ b < start /\ e = (start, b).
Proof.
  intros start [b|] e; cbn [range_new].
  - destruct (N.compare_spec start b) as [->|H|H].
    + split; [discriminate|]. intros [b' [E [H _]]]. injection E as <-. lia.
    + split; [discriminate|]. intros [b' [E [H' _]]]. injection E as <-. lia.
    + split; [intros H'; injection H' as <-; eauto|]. intros [b' [E [_ ->]]]. injection E as <-. reflexivity.
  - split; [discriminate|]. intros [b [H _]]. discriminate.
Qed.
Print Assumptions port_range_new_rejects.

(** C11. [size] is the number of ports of the range, except for the full range. *)
Theorem port_range_size_exact : forall checks start end_ r, start < 65536 -> (forall e, end_ = Some e -> e < 65536) ->
  range_new start end_ = Ok r -> ~ (start = 0 /\ end_ = Some 65535) ->
  range_size checks r = Ret (N.of_nat (List.length (range_iter r))).
Proof.
  intros checks start end_ r H1 H2 H Hf. apply range_new_ok in H as [_ [E H]].
  assert (O : range_ordered r) by (unfold range_ordered; destruct (r_end r); [lia|exact I]).
  rewrite range_iter_length by exact O. apply range_size_ret.
  - unfold range_u16, U16_MAX. split; [lia|]. destruct (r_end r) as [e|]; [|exact I]. destruct H as [-> _].
    specialize (H2 e eq_refl). lia.
  - exact O.
  - unfold range_count, U16_MAX. destruct (r_end r) as [e|]; [|lia]. destruct H as [-> H].
    specialize (H2 e eq_refl). destruct (N.eq_dec start 0) as [->|]; [|lia].
    destruct (N.eq_dec e 65535) as [->|]; [exfalso; auto|lia].
Qed.
Print Assumptions port_range_size_exact.

(** C11. With overflow checks, [size] panics exactly on reversed ranges and on the full range. *)
Theorem port_range_size_panics_exactly : forall r,
  r_start r <= 65535 -> (forall e, r_end r = Some e -> e <= 65535) ->
  (range_size true r = Panic <->
   exists e, r_end r = Some e /\ (e < r_start r \/ (r_start r = 0 /\ e = 65535))).
Proof.
  intros r H1 H2. apply range_size_panic. split; [exact H1|].
  destruct (r_end r) as [e|]; [apply H2; reflexivity|exact I].
Qed.
Print Assumptions port_range_size_panics_exactly.

(** C12. With overflow checks, after any history of API calls the host and container ranges have the same
    number of ports, and iteration pairs the k-th host port with the k-th container port. *)
Theorem short_ranges_pairing : forall x, sr_reach true x ->
  (forall h, sr_host x = Some h ->
     List.length (range_iter h) = List.length (range_iter (sr_container x))) /\
  short_ranges_iter x =
  map (fun k => (option_map (fun h => r_start h + N.of_nat k) (sr_host x), r_start (sr_container x) + N.of_nat k))
      (seq 0 (List.length (range_iter (sr_container x)))).
Proof.
  intros x H. apply sr_reach_same_size in H. pose proof (same_size_iter x H) as E. split.
  - intros h Hh. unfold same_size in H. rewrite Hh in H. destruct H as [O1 [O2 H]].
    pose proof (range_iter_length _ O1). pose proof (range_iter_length _ O2). lia.
  - rewrite E. rewrite range_iter_map, map_length, seq_length. reflexivity.
Qed.
Print Assumptions short_ranges_pairing.

Example short_ranges_pairing_case :
  exists x, short_ranges_parse true $"8000-8001:80-81" = OOk x /\ sr_reach true x /\
            short_ranges_iter x = [(Some 8000, 80); (Some 8001, 81)].
Proof.
  exists (mk_short_ranges (Some (mk_range 8000 (Some 8001))) (mk_range 80 (Some 81))).
  split; [vm_compute; reflexivity|]. split; [apply (reach_parse true $"8000-8001:80-81"); vm_compute; reflexivity|].
  vm_compute. reflexivity.
Qed.

(** C12. In a release build the same holds if the ranges are in order. *)
Theorem short_ranges_pairing_release : forall x, sr_reach false x ->
  (forall h, sr_host x = Some h -> range_ordered h /\ range_ordered (sr_container x)) ->
  (forall h, sr_host x = Some h ->
     List.length (range_iter h) = List.length (range_iter (sr_container x))) /\
  short_ranges_iter x =
  map (fun k => (option_map (fun h => r_start h + N.of_nat k) (sr_host x), r_start (sr_container x) + N.of_nat k))
      (seq 0 (List.length (range_iter (sr_container x)))).
Proof.
  intros x H Ho. assert (S : same_size x).
  { apply sr_reach_same_size_release; [exact H|]. destruct (sr_host x) as [h|]; [apply (Ho h eq_refl)|exact I]. }
  pose proof (same_size_iter x S) as E. split.
  - intros h Hh. unfold same_size in S. rewrite Hh in S. destruct S as [O1 [O2 S]].
    pose proof (range_iter_length _ O1). pose proof (range_iter_length _ O2). lia.
  - rewrite E. rewrite range_iter_map, map_length, seq_length. reflexivity.
Qed.
Print Assumptions short_ranges_pairing_release.

(** C12 is false in a release build: a reversed host range is accepted next to a container range of another
    size, and no container port gets a host port. *)
Theorem short_ranges_pairing_release_refuted : exists s x,
  short_ranges_parse false s = OOk x /\ sr_host x <> None /\ short_ranges_iter x = [(None, 1); (None, 2)].
Proof.
  exists $"65535-0:1-2", (mk_short_ranges (Some (mk_range 65535 (Some 0))) (mk_range 1 (Some 2))).
  split; [vm_compute; reflexivity|]. split; [discriminate|vm_compute; reflexivity].
Qed.
Print Assumptions short_ranges_pairing_release_refuted.

(** C12. The text of every reachable value parses back to it. *)
Theorem short_ranges_text_round_trip : forall checks x, sr_reach checks x ->
  short_ranges_parse checks (short_ranges_show x) = OOk x /\
  short_ranges_deserialize checks (short_ranges_serialize x) = OOk x.
Proof.
  intros checks x H. apply sr_reach_inv in H.
  split; [apply short_ranges_round_trip|apply short_ranges_serde_round_trip]; exact H.
Qed.
Print Assumptions short_ranges_text_round_trip.

(** C13. Printing and parsing a short port is the identity: any address, any reachable ranges, any protocol
    that is not an [Other] spelling [tcp] or [udp]. *)
Theorem short_port_text_round_trip : forall checks compat p,
  (forall ip, sp_host_ip p = Some ip -> ip_wf ip) ->
  sr_reach checks (sp_ranges p) ->
  sp_protocol p <> Some (POther $"tcp") -> sp_protocol p <> Some (POther $"udp") ->
  short_port_parse checks (short_port_show compat p) = OOk p /\
  short_port_deserialize checks (short_port_serialize compat p) = OOk p.
Proof.
  intros checks compat p H1 H2 H3 H4. assert (V : sp_valid checks p).
  { split; [destruct (sp_host_ip p); [apply H1; reflexivity|exact I]|].
    split; [apply sr_reach_inv; exact H2|]. destruct (sp_protocol p) as [[| |s]|]; try exact I.
    split; intros ->; congruence. }
  split; [apply short_port_round_trip|apply short_port_serde_round_trip]; exact V.
Qed.
Print Assumptions short_port_text_round_trip.

Example short_port_case :
  let p := mk_short_port (Some (V6 [0; 0; 0; 0; 0; 0; 0; 1]))
             (mk_short_ranges (Some (mk_range 90 None)) (mk_range 80 None)) (Some Udp) in
  sr_reach true (sp_ranges p) /\ short_port_show false p = $"::1:90:80/udp" /\
  short_port_parse true $"[::1]:90:80/udp" = OOk p.
Proof.
  cbv zeta. split; [|vm_compute; auto]. apply (reach_parse true $"90:80"). vm_compute. reflexivity.
Qed.

(** C13. Whatever the parser accepts prints to a text with the same meaning. *)
Theorem short_port_parse_normalizes : forall checks compat s p, short_port_parse checks s = OOk p ->
  short_port_parse checks (short_port_show compat p) = OOk p.
Proof. intros checks compat s p H. apply short_port_round_trip. eapply short_port_parse_valid. exact H. Qed.
Print Assumptions short_port_parse_normalizes.

(** C14. Long to short and back gives the same port; a port without short form is handed back. *)
Theorem port_short_long : forall p,
  match port_into_short p with
  | Ok sp => short_port_into_long sp = [p]
  | Err p' => p' = p
  end.
Proof.
  intros p. destruct (port_into_short p) as [sp|p'] eqn:E; [apply port_into_short_ok|apply port_into_short_err]; exact E.
Qed.
Print Assumptions port_short_long.

(** C14. A port has a short form exactly when it uses no field that only the long form has. *)
Theorem port_short_exists : forall p, (exists sp, port_into_short p = Ok sp) <->
  p_name p = None /\ p_app_protocol p = None /\ p_mode p = None /\ p_extensions p = [] /\
  match p_published p with Some r => r_end r = None | None => True end.
Proof. exact port_into_short_some. Qed.
Print Assumptions port_short_exists.

(** C14. Expanding a short port: one long port per container port, in order, with the matching host port. *)
Theorem short_port_expand : forall p, sr_reach true (sp_ranges p) ->
  short_port_into_long p =
  map (fun k => mk_port None (r_start (sr_container (sp_ranges p)) + N.of_nat k)
                  (option_map (fun h => mk_range (r_start h + N.of_nat k) None) (sr_host (sp_ranges p)))
                  (sp_host_ip p) (sp_protocol p) None None [])
      (seq 0 (List.length (range_iter (sr_container (sp_ranges p))))).
Proof.
  intros p H. unfold short_port_into_long. destruct (short_ranges_pairing _ H) as [_ ->].
  rewrite map_map. apply map_ext. intros k. cbn [fst snd]. destruct (sr_host (sp_ranges p)); reflexivity.
Qed.
Print Assumptions short_port_expand.

(** C14. Expanding a whole list of ports keeps every long port, in order. *)
Theorem ports_into_long_app : forall a b, ports_into_long (a ++ b) = ports_into_long a ++ ports_into_long b.
Proof. intros a b. unfold ports_into_long. apply flat_map_app. Qed.
Print Assumptions ports_into_long_app.

(** C49 is false: with overflow checks, parsing a port text can panic. *)
Theorem short_port_parse_total_refuted : exists s, short_port_parse true s = OPanic.
Proof. exists $"9-5:9-5". vm_compute. reflexivity. Qed.
Print Assumptions short_port_parse_total_refuted.

(** C49. It panics exactly when both ranges are given and one is reversed or the full range. *)
Theorem short_ranges_parse_panics_exactly : forall s, short_ranges_parse true s = OPanic <->
  exists a b h c, s = a ++ ch ":" :: b /\ range_parse a = Ok h /\ range_parse b = Ok c /\
    exists r e, (r = h \/ r = c) /\ r_end r = Some e /\ (e < r_start r \/ (r_start r = 0 /\ e = 65535)).
Proof.
  intros s. rewrite short_ranges_parse_panic. split; intros [a [b [h [c [H1 [H2 [H3 H4]]]]]]];
    exists a, b, h, c; repeat split; auto.
  - pose proof (range_parse_u16 _ _ H2) as U1. pose proof (range_parse_u16 _ _ H3) as U2.
    destruct H4 as [H4|H4]; apply range_size_panic in H4; auto; destruct H4 as [e H4]; [exists h, e|exists c, e]; tauto.
  - pose proof (range_parse_u16 _ _ H2) as U1. pose proof (range_parse_u16 _ _ H3) as U2.
    destruct H4 as [r [e [[-> | ->] H4]]]; [left|right]; apply range_size_panic; eauto.
Qed.
Print Assumptions short_ranges_parse_panics_exactly.

(** C49. Release builds do not panic. *)
Theorem short_ranges_parse_release_total : forall s, short_ranges_parse false s <> OPanic.
Proof.
  intros s H. apply short_ranges_parse_panic in H as [a [b [h [c [_ [_ [_ [H|H]]]]]]]];
    exact (range_size_release_total _ H).
Qed.
Print Assumptions short_ranges_parse_release_total.

(** C50. With overflow checks, shifting a range either moves both bounds exactly or panics. *)
Theorem port_range_shift : forall r n r',
  (range_add true r n = Ret r' <->
   r' = mk_range (r_start r + n) (option_map (fun e => e + n) (r_end r)) /\
   r_start r + n <= 65535 /\ match r_end r with Some e => e + n <= 65535 | None => True end) /\
  (range_sub true r n = Ret r' <->
   r' = mk_range (r_start r - n) (option_map (fun e => e - n) (r_end r)) /\
   n <= r_start r /\ match r_end r with Some e => n <= e | None => True end).
Proof. intros r n r'. split; [apply range_add_checked|apply range_sub_checked]. Qed.
Print Assumptions port_range_shift.

Example port_range_shift_case : range_add true (mk_range 80 (Some 90)) 8000 = Ret (mk_range 8080 (Some 8090)).
Proof. vm_compute. reflexivity. Qed.

(** C50 is false in a release build: shifting wraps around and gives a reversed range. *)
Theorem port_range_shift_release_refuted : exists r n r' e',
  range_new 65534 (Some 65535) = Ok r /\ range_add false r n = Ret r' /\ r_end r' = Some e' /\ e' < r_start r'.
Proof. exists (mk_range 65534 (Some 65535)), 1, (mk_range 65535 (Some 0)), 0. vm_compute. auto. Qed.
Print Assumptions port_range_shift_release_refuted.

(** C65. Comparing a range with a port or with [a..=b]: the same first and last port, whether or not an end is written. *)
Definition last_port (r : range) : N := match r_end r with Some e => e | None => r_start r end.
Theorem port_range_equalities : (forall r n, range_eq_u16 r n = true <-> r = range_of_u16 n) /\
  (forall r a b, range_eq_inclusive r a b = true <-> r_start r = a /\ last_port r = b).
Proof.
  split.
  - intros [s [e|]] n; unfold range_eq_u16, range_of_u16; cbn [r_start r_end]; [split; discriminate|]. rewrite N.eqb_eq. split; congruence.
  - intros r a b. unfold range_eq_inclusive, last_port. rewrite andb_true_iff, !N.eqb_eq. reflexivity.
Qed.
Print Assumptions port_range_equalities.
Example port_range_equalities_case : range_eq_inclusive (mk_range 5 None) 5 5 = true /\ range_eq_u16 (mk_range 5 (Some 5)) 5 = false.
Proof. auto. Qed.

(** C65. The setters change their own part, keep the other, and return what was there before. *)
Theorem short_ranges_setters : forall checks x,
  (forall h x' old, replace_host checks x h = OOk (x', old) -> sr_host x' = Some h /\ sr_container x' = sr_container x /\ old = sr_host x) /\
  (forall c x' old, replace_container checks x c = OOk (x', old) -> sr_container x' = c /\ sr_host x' = sr_host x /\ old = sr_container x) /\
  (forall x' old, take_host x = (x', old) -> sr_host x' = None /\ sr_container x' = sr_container x /\ old = sr_host x).
Proof.
  intros checks x. split; [|split].
  - intros h x' old H. unfold replace_host in H. destruct (range_size_eq checks (Some h) (sr_container x)); try discriminate. injection H as <- <-. auto.
  - intros c x' old H. unfold replace_container in H. destruct (range_size_eq checks (sr_host x) c); try discriminate. injection H as <- <-. auto.
  - intros x' old H. unfold take_host in H. injection H as <- <-. auto.
Qed.
Print Assumptions short_ranges_setters.
Example short_ranges_setters_case : replace_host true (mk_short_ranges (Some (mk_range 1 None)) (mk_range 80 None)) (mk_range 2 None) =
  OOk (mk_short_ranges (Some (mk_range 2 None)) (mk_range 80 None), Some (mk_range 1 None)).
Proof. reflexivity. Qed.
