(** Proofs about ports. *)

From Coq Require Import String Ascii List NArith ZArith Bool Lia ZifyBool ZifyN ZifyNat.
Import ListNotations.
From Verif Require Import Base BaseFacts Num NumFacts IpModel IpProofs Serde PortsModel.
Open Scope N_scope.

(** The [u16] fields are in range: true of every Rust value. *)
Definition range_u16 (r : range) : Prop :=
  r_start r <= U16_MAX /\ match r_end r with Some e => e <= U16_MAX | None => True end.

(** Number of ports of a range whose bounds are in order. *)
Definition range_count (r : range) : N :=
  match r_end r with None => 1 | Some e => e + 1 - r_start r end.
Definition range_ordered (r : range) : Prop :=
  match r_end r with None => True | Some e => r_start r <= e end.

Lemma range_new_ok : forall s e r, range_new s e = Ok r ->
  range_count r = (match e with None => 1 | Some e => e + 1 - s end) /\
  r_start r = s /\ match r_end r with None => e = None \/ e = Some s | Some e' => e = Some e' /\ s < e' end.
Proof.
  intros s [e|] r; cbn [range_new].
  - destruct (N.compare_spec s e); intros H'; inv H'; unfold range_count; cbn [r_start r_end]; auto.
    split; [lia|]. auto.
  - intros H. inv H. cbn. auto.
Qed.

Lemma range_round_trip : forall r, range_u16 r -> range_parse (range_show r) = Ok r.
Proof.
  intros [s [e|]] [H1 H2]; cbn [r_start r_end] in *; unfold range_parse, range_show; cbn [r_start r_end].
  - rewrite split_once_app by (apply show_N_not_In; reflexivity). unfold parse_range_int.
    rewrite !parse_u16_show by assumption. reflexivity.
  - rewrite app_nil_r. rewrite (proj2 (split_once_none _ _)) by (apply show_N_not_In; reflexivity).
    unfold parse_range_int. rewrite parse_u16_show by assumption. reflexivity.
Qed.

Lemma parse_range_int_ok : forall s n, parse_range_int s = Ok n <-> parse_u16 s = Ok n.
Proof.
  intros s n. unfold parse_range_int. destruct (parse_u16 s); cbn [map_err]; split; intros H; inv H; reflexivity.
Qed.

Lemma range_parse_u16 : forall s r, range_parse s = Ok r -> range_u16 r.
Proof.
  intros s r. unfold range_parse. destruct (split_once (ch "-") s) as [[a b]|].
  - destruct (parse_range_int a) as [x|] eqn:Ea; cbn [bind]; [|discriminate].
    destruct (parse_range_int b) as [y|] eqn:Eb; cbn [bind]; [|discriminate]. intros H. inv H.
    rewrite parse_range_int_ok in *. split; cbn [r_start r_end]; eapply parse_uint_bound; eassumption.
  - destruct (parse_range_int s) as [x|] eqn:Ea; cbn [bind]; [|discriminate]. intros H. inv H.
    rewrite parse_range_int_ok in *. split; cbn [r_start r_end]; [eapply parse_uint_bound; eassumption|exact I].
Qed.

Lemma parse_u16_no_dash : forall s n, parse_u16 s = Ok n -> ~ In (ch "-") s.
Proof.
  intros s n H. apply parse_uint_ok in H as [ds [Hs [_ [Hd _]]]]. unfold all_digits in Hd.
  assert (~ In (ch "-") ds) by (eapply forallb_not_In; [exact Hd|reflexivity]).
  destruct Hs as [->| ->]; [assumption|]. intros [Hi|Hi]; [discriminate|contradiction].
Qed.

(** Exact language of the range parser. *)
Lemma range_parse_ok : forall s r, range_parse s = Ok r <->
  match r_end r with
  | None => parse_u16 s = Ok (r_start r)
  | Some e => exists a b, s = a ++ ch "-" :: b /\ parse_u16 a = Ok (r_start r) /\ parse_u16 b = Ok e
  end.
Proof.
  intros s [st e]. cbn [r_start r_end]. unfold range_parse.
  destruct (split_once_case (ch "-") s) as [[Hn ->]|[a [b [-> [Hn ->]]]]].
  - destruct e as [e|].
    + split.
      * destruct (parse_range_int s); cbn [bind]; intros H; inv H.
      * intros [a [b [-> _]]]. exfalso. apply Hn. apply in_or_app. right. left. reflexivity.
    + rewrite <- parse_range_int_ok. destruct (parse_range_int s); cbn [bind]; split; intros H; inv H; reflexivity.
  - destruct e as [e|].
    + split.
      * destruct (parse_range_int a) as [x|] eqn:Ea; cbn [bind]; [|discriminate].
        destruct (parse_range_int b) as [y|] eqn:Eb; cbn [bind]; [|discriminate]. intros H. inv H.
        rewrite parse_range_int_ok in *. eauto.
      * intros [a' [b' [E [Ha Hb]]]].
        assert (split_once (ch "-") (a ++ ch "-" :: b) = Some (a', b')).
        { rewrite E. apply split_once_app. eapply parse_u16_no_dash. exact Ha. }
        rewrite split_once_app in H by exact Hn. inv H.
        apply parse_range_int_ok in Ha, Hb. rewrite Ha, Hb. reflexivity.
    + split.
      * destruct (parse_range_int a) as [x|]; cbn [bind]; [|discriminate].
        destruct (parse_range_int b) as [y|]; cbn [bind]; [|discriminate]. intros H. inv H.
      * intros H. exfalso. apply parse_u16_no_dash in H. apply H. apply in_or_app. right. left. reflexivity.
Qed.

(** ** Size *)

Lemma range_size_panic : forall r, range_u16 r ->
  (range_size true r = Panic <->
   exists e, r_end r = Some e /\ (e < r_start r \/ (r_start r = 0 /\ e = U16_MAX))).
Proof.
  intros [s [e|]] [H1 H2]; cbn [r_start r_end] in *; unfold range_size; cbn [r_start r_end].
  - unfold u16_sub. destruct (N.leb_spec s e); cbn [pbind].
    + unfold u16_add. unfold U16_MAX in *. destruct (N.leb_spec (e - s + 1) 65535).
      * split; [discriminate|]. intros [e' [He [H'|H']]]; injection He as <-; lia.
      * split; [|reflexivity]. intros _. exists e. split; [reflexivity|]. lia.
    + split; [|reflexivity]. intros _. eauto.
  - split; [discriminate|]. intros [e [He _]]. discriminate.
Qed.

Lemma range_size_ret : forall checks r, range_u16 r -> range_ordered r -> range_count r <= U16_MAX ->
  range_size checks r = Ret (range_count r).
Proof.
  intros checks [s [e|]] [H1 H2] Ho Hc; unfold range_ordered, range_count, range_size in *; cbn [r_start r_end] in *;
    [|reflexivity].
  unfold u16_sub. destruct (N.leb_spec s e); [|lia]. cbn [pbind]. unfold u16_add, U16_MAX in *.
  destruct (N.leb_spec (e - s + 1) 65535); [|lia]. f_equal. lia.
Qed.

Lemma range_size_true_ret : forall r n, range_u16 r -> range_size true r = Ret n ->
  range_ordered r /\ n = range_count r /\ n <= U16_MAX.
Proof.
  intros [s [e|]] n [H1 H2]; unfold range_ordered, range_count, range_size; cbn [r_start r_end] in *.
  - unfold u16_sub. destruct (N.leb_spec s e); cbn [pbind]; [|discriminate].
    unfold u16_add, U16_MAX in *. destruct (N.leb_spec (e - s + 1) 65535); [|discriminate].
    intros H'. injection H' as <-. lia.
  - intros H. injection H as <-. unfold U16_MAX. repeat split. lia.
Qed.

(** Without overflow checks: the size modulo 2^16. *)
Lemma range_size_false_ret : forall r, range_u16 r -> range_ordered r ->
  range_size false r = Ret (range_count r mod 65536).
Proof.
  intros [s [e|]] [H1 H2] Ho; unfold range_ordered, range_count, range_size in *; cbn [r_start r_end] in *;
    [|reflexivity].
  unfold u16_sub. destruct (N.leb_spec s e); [|lia]. cbn [pbind]. unfold u16_add, U16_MAX in *.
  replace (e + 1 - s) with (e - s + 1) by lia.
  destruct (N.leb_spec (e - s + 1) 65535); f_equal. rewrite N.mod_small; lia.
Qed.

Lemma inclusive_length : forall a b, N.of_nat (List.length (inclusive a b)) = b + 1 - a.
Proof. intros a b. unfold inclusive. rewrite map_length, seq_length. lia. Qed.

Lemma range_iter_length : forall r, range_ordered r -> N.of_nat (List.length (range_iter r)) = range_count r.
Proof.
  intros [s [e|]] H; unfold range_iter, range_count, range_ordered in *; cbn [r_start r_end] in *;
    rewrite inclusive_length; lia.
Qed.

Lemma range_iter_map : forall r,
  range_iter r = map (fun k => r_start r + N.of_nat k) (seq 0 (N.to_nat (range_count r))).
Proof.
  intros [s [e|]]; unfold range_iter, range_count, inclusive; cbn [r_start r_end]; [reflexivity|].
  replace (s + 1 - s) with 1 by lia. reflexivity.
Qed.

Lemma range_iter_In : forall r n, In n (range_iter r) <->
  r_start r <= n <= match r_end r with Some e => e | None => r_start r end.
Proof.
  intros r n. rewrite range_iter_map, in_map_iff. unfold range_count. split.
  - intros [k [<- Hk]]. apply in_seq in Hk. destruct (r_end r); lia.
  - intros H. exists (N.to_nat (n - r_start r)). split; [lia|]. apply in_seq. destruct (r_end r); lia.
Qed.

(** ** ShortRanges *)

Definition same_size (x : short_ranges) : Prop :=
  match sr_host x with
  | None => True
  | Some h => range_ordered h /\ range_ordered (sr_container x) /\ range_count h = range_count (sr_container x)
  end.

Definition sr_u16 (x : short_ranges) : Prop :=
  (match sr_host x with Some h => range_u16 h | None => True end) /\ range_u16 (sr_container x).

(** Values reachable through the public API: constructors, parsing, conversion, in-place operations, and
    [Port::into_short]. Port numbers given by the caller are [u16]. *)
Inductive sr_reach (checks : bool) : short_ranges -> Prop :=
| reach_new : forall h c x, match h with Some h => range_u16 h | None => True end -> range_u16 c ->
    short_ranges_new checks h c = OOk x -> sr_reach checks x
| reach_parse : forall s x, short_ranges_parse checks s = OOk x -> sr_reach checks x
| reach_of_range : forall c, range_u16 c -> sr_reach checks (short_ranges_of_range c)
| reach_port : forall p sp, p_target p <= U16_MAX ->
    match p_published p with Some h => range_u16 h | None => True end ->
    port_into_short p = Ok sp -> sr_reach checks (sp_ranges sp)
| reach_replace_host : forall x h x' old, sr_reach checks x -> range_u16 h ->
    replace_host checks x h = OOk (x', old) -> sr_reach checks x'
| reach_take_host : forall x, sr_reach checks x -> sr_reach checks (fst (take_host x))
| reach_replace_container : forall x c x' old, sr_reach checks x -> range_u16 c ->
    replace_container checks x c = OOk (x', old) -> sr_reach checks x'.

Lemma range_size_eq_ok : forall checks h c, range_size_eq checks h c = OOk tt <->
  match h with
  | None => True
  | Some h => exists n, range_size checks h = Ret n /\ range_size checks c = Ret n
  end.
Proof.
  intros checks [h|] c; cbn [range_size_eq]; [|tauto].
  destruct (range_size checks h) as [n|]; [|split; [discriminate|intros [m [H _]]; discriminate]].
  destruct (range_size checks c) as [m|]; [|split; [discriminate|intros [k [_ H]]; discriminate]].
  destruct (N.eqb_spec n m) as [->|Hn].
  - split; eauto.
  - split; [discriminate|]. intros [k [H1 H2]]. congruence.
Qed.

Lemma short_ranges_new_ok : forall checks h c x, short_ranges_new checks h c = OOk x <->
  x = mk_short_ranges h c /\ range_size_eq checks h c = OOk tt.
Proof.
  intros checks h c x. unfold short_ranges_new. destruct (range_size_eq checks h c) as [[]|e|]; cbn [obind];
    split; try discriminate; try (intros [_ H]; discriminate).
  - intros H. inv H. auto.
  - intros [-> _]. reflexivity.
Qed.

Lemma short_ranges_parse_new : forall checks s x, short_ranges_parse checks s = OOk x ->
  sr_u16 x /\ range_size_eq checks (sr_host x) (sr_container x) = OOk tt.
Proof.
  intros checks s x. unfold short_ranges_parse. destruct (split_once (ch ":") s) as [[a b]|].
  - assert (G : forall h, match h with Some h => range_u16 h | None => True end ->
      (container <~ lift (map_err SRRange (range_parse b));;
       match short_ranges_new checks h container with
       | OOk x => OOk x | OErr e => OErr (SRShortRanges e) | OPanic => OPanic end) = OOk x ->
      sr_u16 x /\ range_size_eq checks (sr_host x) (sr_container x) = OOk tt).
    { intros h Hh. destruct (range_parse b) as [c|] eqn:Eb; cbn [map_err lift obind]; [|discriminate].
      destruct (short_ranges_new checks h c) as [y| |] eqn:En; try discriminate. intros H. inv H.
      apply short_ranges_new_ok in En as [-> En]. cbn [sr_host sr_container]. split; [|exact En].
      split; [exact Hh|]. eapply range_parse_u16. exact Eb. }
    destruct a as [|c0 a]; [apply G; exact I|].
    destruct (range_parse (c0 :: a)) as [h|] eqn:Ea; cbn [map_ok map_err lift obind]; [|discriminate].
    apply G. eapply range_parse_u16. exact Ea.
  - destruct (range_parse s) as [c|] eqn:Eb; cbn [map_ok map_err lift]; [|discriminate]. intros H. inv H.
    split; [split; [exact I|]; eapply range_parse_u16; exact Eb|reflexivity].
Qed.

(** The invariant of every reachable value. *)
Lemma sr_reach_inv : forall checks x, sr_reach checks x ->
  sr_u16 x /\ range_size_eq checks (sr_host x) (sr_container x) = OOk tt.
Proof.
  intros checks x H. induction H as [h c x Hh Hc H|s x H|c Hc|p sp Ht Hp H|x h x' old Hx IH Hh H|x Hx IH|x c x' old Hx IH Hc H].
  - apply short_ranges_new_ok in H as [-> H]. split; [split; assumption|exact H].
  - eapply short_ranges_parse_new. exact H.
  - split; [split; [exact I|exact Hc]|reflexivity].
  - unfold port_into_short in H. destruct (p_name p), (p_app_protocol p), (p_mode p), (p_extensions p); try discriminate.
    destruct p as [n t pu ip pr ap mo ex]; cbn [p_published p_target p_host_ip p_protocol] in *.
    destruct pu as [[s [e|]]|]; cbn [r_end] in H; inv H; cbn [sp_ranges sr_host sr_container].
    + split; [split; [exact Hp|split; [exact Ht|exact I]]|reflexivity].
    + split; [split; [exact I|split; [exact Ht|exact I]]|reflexivity].
  - unfold replace_host in H. destruct (range_size_eq checks (Some h) (sr_container x)) as [[]| |] eqn:E;
      cbn [obind] in H; try discriminate. inv H. cbn [sr_host sr_container]. destruct IH as [[_ IH] _].
    split; [split; assumption|exact E].
  - cbn [take_host fst sr_host sr_container]. destruct IH as [[_ IH] _]. split; [split; [exact I|exact IH]|reflexivity].
  - unfold replace_container in H. destruct (range_size_eq checks (sr_host x) c) as [[]| |] eqn:E;
      cbn [obind] in H; try discriminate. inv H. cbn [sr_host sr_container]. destruct IH as [[IH _] _].
    split; [split; assumption|exact E].
Qed.

(** With overflow checks, the sizes are really the same. *)
Lemma sr_reach_same_size : forall x, sr_reach true x -> same_size x.
Proof.
  intros x H. apply sr_reach_inv in H as [[Hh Hc] H]. unfold same_size. rewrite range_size_eq_ok in H.
  destruct (sr_host x) as [h|]; [|exact I]. destruct H as [n [H1 H2]].
  apply range_size_true_ret in H1 as [O1 [E1 _]]; [|exact Hh].
  apply range_size_true_ret in H2 as [O2 [E2 _]]; [|exact Hc]. split; [exact O1|]. split; [exact O2|congruence].
Qed.

(** Without overflow checks, they are if both ranges are in order. *)
Lemma sr_reach_same_size_release : forall x, sr_reach false x ->
  match sr_host x with Some h => range_ordered h /\ range_ordered (sr_container x) | None => True end ->
  same_size x.
Proof.
  intros x H Ho. apply sr_reach_inv in H as [[Hh Hc] H]. unfold same_size. rewrite range_size_eq_ok in H.
  destruct (sr_host x) as [h|]; [|exact I]. destruct H as [n [H1 H2]]. destruct Ho as [O1 O2].
  rewrite range_size_false_ret in H1, H2 by assumption. split; [exact O1|]. split; [exact O2|].
  assert (E : range_count h mod 65536 = range_count (sr_container x) mod 65536) by congruence.
  assert (B : forall r, range_u16 r -> range_ordered r -> 1 <= range_count r <= 65536).
  { intros [s [e|]] [B1 B2] B3; unfold range_ordered, range_count in *; cbn [r_start r_end] in *; unfold U16_MAX in *; lia. }
  pose proof (B _ Hh O1) as B1. pose proof (B _ Hc O2) as B2.
  destruct (N.eq_dec (range_count h) 65536) as [E1|E1], (N.eq_dec (range_count (sr_container x)) 65536) as [E2|E2];
    try congruence.
  - rewrite E1, (N.mod_small (range_count (sr_container x))) in E by lia. change (65536 mod 65536) with 0 in E. lia.
  - rewrite E2, (N.mod_small (range_count h)) in E by lia. change (65536 mod 65536) with 0 in E. lia.
  - rewrite !N.mod_small in E by lia. exact E.
Qed.

Lemma pair_up_none : forall cs, pair_up None cs = map (fun c => (None, c)) cs.
Proof. induction cs as [|c cs IH]; [reflexivity|]. cbn [pair_up map]. rewrite IH. reflexivity. Qed.

Lemma pair_up_some : forall hs cs, List.length hs = List.length cs ->
  pair_up (Some hs) cs = combine (map (@Some N) hs) cs.
Proof.
  induction hs as [|h hs IH]; intros [|c cs] H; try discriminate; [reflexivity|].
  cbn [pair_up map combine]. rewrite IH by (cbn [List.length] in H; lia). reflexivity.
Qed.

Lemma combine_maps : forall {A B C} (f : A -> B) (g : A -> C) l,
  combine (map f l) (map g l) = map (fun x => (f x, g x)) l.
Proof. intros A B C f g l. induction l as [|x l IH]; [reflexivity|]. cbn. rewrite IH. reflexivity. Qed.

Lemma same_size_iter : forall x, same_size x ->
  short_ranges_iter x =
  map (fun k => (option_map (fun h => r_start h + N.of_nat k) (sr_host x), r_start (sr_container x) + N.of_nat k))
      (seq 0 (N.to_nat (range_count (sr_container x)))).
Proof.
  intros [[h|] c] H; unfold same_size, short_ranges_iter in *; cbn [sr_host sr_container option_map] in *.
  - destruct H as [O1 [O2 E]]. rewrite pair_up_some.
    + rewrite !range_iter_map, E, map_map, combine_maps. reflexivity.
    + pose proof (range_iter_length _ O1). pose proof (range_iter_length _ O2). lia.
  - rewrite pair_up_none, range_iter_map, map_map. reflexivity.
Qed.

(** ** Text round trips *)

Lemma range_show_not_In : forall r c, is_digit c = false -> c <> ch "-" -> ~ In c (range_show r).
Proof.
  intros [s [e|]] c H1 H2 Hi; unfold range_show in Hi; cbn [r_start r_end] in Hi; apply in_app_or in Hi as [Hi|Hi].
  - revert Hi. apply show_N_not_In. exact H1.
  - destruct Hi as [Hi|Hi]; [congruence|]. revert Hi. apply show_N_not_In. exact H1.
  - revert Hi. apply show_N_not_In. exact H1.
  - exact Hi.
Qed.

Lemma range_show_nonempty : forall r, range_show r <> [].
Proof.
  intros r H. unfold range_show in H. apply app_eq_nil in H as [H _]. revert H. apply show_N_nonempty.
Qed.

Definition sr_valid (checks : bool) (x : short_ranges) : Prop :=
  sr_u16 x /\ range_size_eq checks (sr_host x) (sr_container x) = OOk tt.

Lemma parse_host_container : forall checks h c, range_u16 c ->
  match h with Some h => range_u16 h | None => True end -> range_size_eq checks h c = OOk tt ->
  short_ranges_parse checks (match h with Some h => range_show h | None => [] end ++ ch ":" :: range_show c)
  = OOk (mk_short_ranges h c).
Proof.
  intros checks h c Hc Hh H. unfold short_ranges_parse.
  assert (Hn : ~ In (ch ":") (match h with Some h => range_show h | None => [] end)).
  { destruct h as [h|]; [apply range_show_not_In; [reflexivity|discriminate]|intros []]. }
  rewrite split_once_app by exact Hn. rewrite range_round_trip by exact Hc.
  assert (R : short_ranges_new checks h c = OOk (mk_short_ranges h c)) by (apply short_ranges_new_ok; auto).
  destruct h as [h|].
  - pose proof (range_show_nonempty h) as Hne. pose proof (range_round_trip h Hh) as Hr.
    destruct (range_show h) as [|a l]; [congruence|]. rewrite Hr. cbn [map_ok map_err lift obind]. rewrite R. reflexivity.
  - cbn [map_err lift obind]. rewrite R. reflexivity.
Qed.

Lemma short_ranges_round_trip : forall checks x, sr_valid checks x ->
  short_ranges_parse checks (short_ranges_show x) = OOk x.
Proof.
  intros checks [h c] [[Hh Hc] H]. cbn [sr_host sr_container] in *. unfold short_ranges_show. cbn [sr_host sr_container].
  destruct h as [h|].
  - rewrite <- app_assoc. apply (parse_host_container checks (Some h) c); assumption.
  - cbn [app]. unfold short_ranges_parse.
    rewrite (proj2 (split_once_none _ _)) by (apply range_show_not_In; [reflexivity|discriminate]).
    rewrite range_round_trip by exact Hc. reflexivity.
Qed.

Lemma rsplit_skip : forall l seen rs acc, ~ In 58 l ->
  rsplit_second_colon seen (l ++ rs) acc = rsplit_second_colon seen rs (rev l ++ acc).
Proof.
  induction l as [|c l IH]; intros seen rs acc H; [reflexivity|].
  cbn [app rsplit_second_colon rev]. destruct (N.eqb_spec c (ch ":")) as [->|Hn].
  - exfalso. apply H. left. reflexivity.
  - rewrite IH by (intros Hi; apply H; right; exact Hi). rewrite <- app_assoc. reflexivity.
Qed.

Lemma rsplit_two : forall a b c, ~ In 58 b -> ~ In 58 c ->
  rsplit_second_colon false (rev (a ++ 58 :: b ++ 58 :: c)) [] = Some (a, b ++ 58 :: c).
Proof.
  intros a b c Hb Hc. rewrite rev_app_distr. cbn [rev]. rewrite rev_app_distr. cbn [rev].
  rewrite <- !app_assoc. cbn [app]. rewrite rsplit_skip by (rewrite <- in_rev; exact Hc).
  rewrite rev_involutive. cbn [rsplit_second_colon]. change (58 =? ch ":") with true. cbn iota.
  rewrite rsplit_skip by (rewrite <- in_rev; exact Hb). rewrite rev_involutive, app_nil_r.
  cbn [rsplit_second_colon]. change (58 =? ch ":") with true. cbn iota. rewrite rev_involutive. reflexivity.
Qed.

Lemma rsplit_one : forall b c, ~ In 58 b -> ~ In 58 c ->
  rsplit_second_colon false (rev (b ++ 58 :: c)) [] = None.
Proof.
  intros b c Hb Hc. rewrite rev_app_distr. cbn [rev].
  rewrite <- !app_assoc. cbn [app]. rewrite rsplit_skip by (rewrite <- in_rev; exact Hc).
  rewrite rev_involutive. cbn [rsplit_second_colon]. change (58 =? ch ":") with true. cbn iota.
  rewrite <- (app_nil_r (rev b)). rewrite rsplit_skip by (rewrite <- in_rev; exact Hb). reflexivity.
Qed.

Lemma rsplit_zero : forall c, ~ In 58 c -> rsplit_second_colon false (rev c) [] = None.
Proof.
  intros c Hc. rewrite <- (app_nil_r (rev c)). rewrite rsplit_skip by (rewrite <- in_rev; exact Hc). reflexivity.
Qed.

(** The two colons it looks for, in general. *)
Lemma rsplit_second_colon_some : forall s a r, rsplit_second_colon false (rev s) [] = Some (a, r) <->
  exists b c, s = a ++ 58 :: r /\ r = b ++ 58 :: c /\ ~ In 58 b /\ ~ In 58 c.
Proof.
  intros s a r. split.
  - intros H. destruct (rsplit_once 58 s) as [[x c]|] eqn:E1.
    + apply rsplit_once_some in E1 as [-> Hc]. destruct (rsplit_once 58 x) as [[y b]|] eqn:E2.
      * apply rsplit_once_some in E2 as [-> Hb]. rewrite <- app_assoc in H. cbn [app] in H.
        rewrite rsplit_two in H by assumption. inv H. exists b, c. rewrite <- app_assoc. auto.
      * apply rsplit_once_none in E2. rewrite rsplit_one in H by assumption. discriminate.
    + apply rsplit_once_none in E1. rewrite rsplit_zero in H by assumption. discriminate.
  - intros [b [c [-> [-> [Hb Hc]]]]]. apply rsplit_two; assumption.
Qed.

Definition protocol_canonical (p : protocol) : Prop :=
  match p with POther s => s <> $"tcp" /\ s <> $"udp" | _ => True end.

Lemma protocol_parse_show : forall s, protocol_show (protocol_parse s) = s.
Proof.
  intros s. unfold protocol_parse. destruct (str_eqb_spec s $"tcp") as [->|]; [reflexivity|].
  destruct (str_eqb_spec s $"udp") as [->|]; reflexivity.
Qed.

Lemma protocol_parse_canonical : forall s, protocol_canonical (protocol_parse s).
Proof.
  intros s. unfold protocol_parse. destruct (str_eqb_spec s $"tcp") as [->|]; [exact I|].
  destruct (str_eqb_spec s $"udp") as [->|]; [exact I|]. split; assumption.
Qed.

Lemma protocol_round_trip : forall p, protocol_canonical p -> protocol_parse (protocol_show p) = p.
Proof.
  intros [| |s] H; try reflexivity. cbn [protocol_show]. destruct H as [H1 H2]. unfold protocol_parse.
  destruct (str_eqb_spec s $"tcp"); [contradiction|]. destruct (str_eqb_spec s $"udp"); [contradiction|reflexivity].
Qed.

Lemma strip_brackets_id : forall s, ~ In 91 s -> strip_brackets s = s.
Proof.
  intros s H. unfold strip_brackets. destruct (strip_prefix $"[" s) as [r|] eqn:E; [|reflexivity].
  apply strip_prefix_some in E. subst s. exfalso. apply H. left. reflexivity.
Qed.

Lemma strip_brackets_brackets : forall s, strip_brackets ($"[" ++ s ++ $"]") = s.
Proof. intros s. unfold strip_brackets. rewrite strip_prefix_app, strip_suffix_app. reflexivity. Qed.

Definition sp_valid (checks : bool) (p : short_port) : Prop :=
  match sp_host_ip p with Some ip => ip_wf ip | None => True end /\
  sr_valid checks (sp_ranges p) /\
  match sp_protocol p with Some pr => protocol_canonical pr | None => True end.

(** The part of the text before the protocol. *)
Definition short_port_text (compat : bool) (p : short_port) : str :=
  match sp_host_ip p with
  | Some ip => ip_show compat ip ++ $":" ++ match sr_host (sp_ranges p) with None => $":" | Some _ => [] end
  | None => []
  end ++ short_ranges_show (sp_ranges p).

Lemma short_port_text_no_slash : forall compat p, ~ In (ch "/") (short_port_text compat p).
Proof.
  intros compat [ip [h c] pr]. unfold short_port_text, short_ranges_show. cbn [sp_host_ip sp_ranges sr_host sr_container].
  assert (Hr : forall r, ~ In (ch "/") (range_show r)) by (intros r; apply range_show_not_In; [reflexivity|discriminate]).
  rewrite !in_app_iff. intros [Hi|[Hi|Hi]].
  - destruct ip as [ip|]; [|exact Hi]. rewrite !in_app_iff in Hi. destruct Hi as [Hi|[Hi|Hi]].
    + revert Hi. apply ip_show_not_In. reflexivity.
    + destruct Hi as [Hi|[]]. discriminate.
    + destruct h; [exact Hi|]. destruct Hi as [Hi|[]]. discriminate.
  - destruct h as [h|]; [|exact Hi]. apply in_app_iff in Hi as [Hi|Hi]; [exact (Hr _ Hi)|].
    destruct Hi as [Hi|[]]. discriminate.
  - exact (Hr _ Hi).
Qed.

Lemma short_port_round_trip : forall checks compat p, sp_valid checks p ->
  short_port_parse checks (short_port_show compat p) = OOk p.
Proof.
  intros checks compat p [Hip [Hr Hp]].
  assert (E : short_port_show compat p =
              short_port_text compat p ++ match sp_protocol p with Some pr => ch "/" :: protocol_show pr | None => [] end).
  { unfold short_port_show, short_port_text. rewrite <- app_assoc. reflexivity. }
  unfold short_port_parse. rewrite E.
  assert (S : match split_once (ch "/") (short_port_text compat p ++
                match sp_protocol p with Some pr => ch "/" :: protocol_show pr | None => [] end) with
              | Some (s, q) => (s, Some (protocol_parse q))
              | None => (short_port_text compat p ++
                match sp_protocol p with Some pr => ch "/" :: protocol_show pr | None => [] end, None)
              end = (short_port_text compat p, sp_protocol p)).
  { destruct (sp_protocol p) as [pr|].
    - rewrite split_once_app by apply short_port_text_no_slash. rewrite protocol_round_trip by exact Hp. reflexivity.
    - rewrite app_nil_r. rewrite (proj2 (split_once_none _ _)) by apply short_port_text_no_slash. reflexivity. }
  rewrite S. clear E S.
  assert (Hrc : forall r, ~ In 58 (range_show r)) by (intros r; apply range_show_not_In; [reflexivity|discriminate]).
  destruct p as [ip [h c] pr]. cbn [sp_host_ip sp_ranges sp_protocol] in *. unfold short_port_text.
  cbn [sp_host_ip sp_ranges sp_protocol sr_host sr_container].
  destruct ip as [ip|].
  - assert (T : (ip_show compat ip ++ $":" ++ match h with None => $":" | Some _ => [] end) ++
                short_ranges_show (mk_short_ranges h c)
              = ip_show compat ip ++ 58 :: match h with Some h => range_show h | None => [] end ++ 58 :: range_show c).
    { unfold short_ranges_show. cbn [sr_host sr_container]. rewrite <- !app_assoc.
      destruct h; [rewrite <- app_assoc|]; reflexivity. }
    rewrite T.
    assert (Hh : ~ In 58 (match h with Some h => range_show h | None => [] end))
      by (destruct h; [apply Hrc|intros []]).
    rewrite rsplit_two by (auto using Hrc). rewrite strip_brackets_id by (apply ip_show_not_In; reflexivity).
    rewrite ip_round_trip by exact Hip. cbn [obind fst snd].
    destruct Hr as [[H1 H2] H3]. cbn [sr_host sr_container] in *.
    change (58 :: range_show c) with (ch ":" :: range_show c).
    rewrite (parse_host_container checks h c) by assumption. reflexivity.
  - cbn [app].
    assert (N : rsplit_second_colon false (rev (short_ranges_show (mk_short_ranges h c))) [] = None).
    { unfold short_ranges_show. cbn [sr_host sr_container]. destruct h as [h|].
      - rewrite <- app_assoc. apply rsplit_one; apply Hrc.
      - apply rsplit_zero. apply Hrc. }
    rewrite N. cbn [obind fst snd]. rewrite short_ranges_round_trip by exact Hr. reflexivity.
Qed.

Lemma short_port_parse_valid : forall checks s p, short_port_parse checks s = OOk p -> sp_valid checks p.
Proof.
  intros checks s p. unfold short_port_parse.
  destruct (match split_once (ch "/") s with
            | Some (s, q) => (s, Some (protocol_parse q)) | None => (s, None) end) as [s' pr] eqn:Es.
  assert (Hpr : match pr with Some pr => protocol_canonical pr | None => True end).
  { destruct (split_once (ch "/") s) as [[a b]|]; inv Es; [apply protocol_parse_canonical|exact I]. }
  clear Es.
  destruct (rsplit_second_colon false (rev s') []) as [[a r]|].
  - destruct (ip_parse (strip_brackets a)) as [ip|] eqn:Ei; cbn [obind]; [|discriminate]. cbn [fst snd].
    destruct (short_ranges_parse checks r) as [x| |] eqn:Er; try discriminate. intros H. inv H.
    repeat split; cbn [sp_host_ip sp_ranges sp_protocol]; try exact Hpr; try (eapply ip_parse_wf; exact Ei);
      eapply short_ranges_parse_new; exact Er.
  - cbn [obind fst snd]. destruct (short_ranges_parse checks s') as [x| |] eqn:Er; try discriminate. intros H. inv H.
    repeat split; cbn [sp_host_ip sp_ranges sp_protocol]; try exact Hpr; eapply short_ranges_parse_new; exact Er.
Qed.

(** ** Serde round trips *)

Lemma int_to_uint_of_N : forall max n, n <= max -> int_to_uint max (Z.of_N n) = Ok n.
Proof.
  intros max n H. unfold int_to_uint. destruct ((0 <=? Z.of_N n) && (Z.of_N n <=? Z.of_N max))%Z eqn:E; [|lia].
  rewrite N2Z.id. reflexivity.
Qed.

Lemma range_serde_round_trip : forall r, range_u16 r -> range_deserialize (range_serialize r) = OOk r.
Proof.
  intros r H. unfold range_deserialize, range_serialize. destruct r as [s [e|]]; cbn [r_start r_end from_str_or_u16].
  - rewrite range_round_trip by exact H. reflexivity.
  - destruct H as [H _]. cbn [r_start] in H. rewrite int_to_uint_of_N by exact H. reflexivity.
Qed.

Lemma short_ranges_serde_round_trip : forall checks x, sr_valid checks x ->
  short_ranges_deserialize checks (short_ranges_serialize x) = OOk x.
Proof.
  intros checks x H. unfold short_ranges_deserialize, short_ranges_serialize.
  destruct x as [[h|] c] eqn:Ex; cbn [sr_host sr_container].
  - cbn [from_str_or_u16]. rewrite short_ranges_round_trip by exact H. reflexivity.
  - unfold range_serialize. destruct c as [s [e|]] eqn:Ec; cbn [r_start r_end from_str_or_u16].
    + pose proof (short_ranges_round_trip checks _ H) as R. unfold short_ranges_show in R.
      cbn [sr_host sr_container app] in R. rewrite R. reflexivity.
    + destruct H as [[_ [H _]] _]. cbn [r_start sr_container] in H. rewrite int_to_uint_of_N by exact H. reflexivity.
Qed.

Lemma short_port_serde_round_trip : forall checks compat p, sp_valid checks p ->
  short_port_deserialize checks (short_port_serialize compat p) = OOk p.
Proof.
  intros checks compat p H. unfold short_port_deserialize, short_port_serialize.
  destruct p as [[ip|] x [pr|]] eqn:Ep; cbn [sp_host_ip sp_ranges sp_protocol];
    try (cbn [from_str_or_u16]; rewrite short_port_round_trip by exact H; reflexivity).
  unfold short_ranges_serialize. destruct x as [[h|] c] eqn:Ex; cbn [sr_host sr_container].
  - cbn [from_str_or_u16]. pose proof (short_port_round_trip checks compat _ H) as R.
    unfold short_port_show in R. cbn [sp_host_ip sp_ranges sp_protocol app] in R. rewrite app_nil_r in R.
    rewrite R. reflexivity.
  - unfold range_serialize. destruct c as [s [e|]] eqn:Ec; cbn [r_start r_end from_str_or_u16].
    + pose proof (short_port_round_trip checks compat _ H) as R.
      unfold short_port_show, short_ranges_show in R.
      cbn [sp_host_ip sp_ranges sp_protocol sr_host sr_container app] in R. rewrite app_nil_r in R.
      rewrite R. reflexivity.
    + destruct H as [_ [[[_ [H _]] _] _]]. cbn [r_start sr_container sp_ranges] in H.
      rewrite int_to_uint_of_N by exact H. reflexivity.
Qed.

(** ** Long ports *)

Lemma port_into_short_ok : forall p sp, port_into_short p = Ok sp -> short_port_into_long sp = [p].
Proof.
  intros [n t pu ip pr ap mo ex] sp. unfold port_into_short.
  cbn [p_name p_app_protocol p_mode p_extensions p_published p_target p_host_ip p_protocol].
  destruct n, ap, mo, ex; try discriminate.
  assert (I1 : forall a, inclusive a a = [a]).
  { intros a. unfold inclusive. replace (a + 1 - a) with 1 by lia. change (N.to_nat 1) with 1%nat.
    cbn [seq map]. change (N.of_nat 0) with 0. rewrite N.add_0_r. reflexivity. }
  destruct pu as [[s [e|]]|]; cbn [r_end]; intros H; inv H; unfold short_port_into_long, short_ranges_iter, range_iter,
    range_of_u16; cbn [sp_ranges sp_host_ip sp_protocol sr_host sr_container r_start r_end option_map];
    rewrite !I1; reflexivity.
Qed.

Lemma port_into_short_err : forall p p', port_into_short p = Err p' -> p' = p.
Proof.
  intros [n t pu ip pr ap mo ex] p'. unfold port_into_short.
  cbn [p_name p_app_protocol p_mode p_extensions p_published p_target p_host_ip p_protocol].
  destruct n, ap, mo, ex; try (intros H; inv H; reflexivity).
  destruct pu as [[s [e|]]|]; cbn [r_end]; intros H; inv H; reflexivity.
Qed.

(** Exactly which ports have a short form. *)
Lemma port_into_short_some : forall p, (exists sp, port_into_short p = Ok sp) <->
  p_name p = None /\ p_app_protocol p = None /\ p_mode p = None /\ p_extensions p = [] /\
  match p_published p with Some r => r_end r = None | None => True end.
Proof.
  intros [n t pu ip pr ap mo ex]. unfold port_into_short.
  cbn [p_name p_app_protocol p_mode p_extensions p_published p_target p_host_ip p_protocol].
  destruct n, ap, mo, ex; try (split; [intros [sp H]; discriminate|intuition discriminate]).
  destruct pu as [[s [e|]]|]; cbn [r_end].
  - split; [intros [sp H]; discriminate|intuition discriminate].
  - split; [auto|eauto].
  - split; [auto|eauto].
Qed.

(** ** Panics of the parser *)

Lemma short_ranges_parse_panic : forall checks s, short_ranges_parse checks s = OPanic <->
  exists a b h c, s = a ++ ch ":" :: b /\ range_parse a = Ok h /\ range_parse b = Ok c /\
                  (range_size checks h = Panic \/ range_size checks c = Panic).
Proof.
  intros checks s. unfold short_ranges_parse.
  destruct (split_once_case (ch ":") s) as [[Hn ->]|[a [b [-> [Hn ->]]]]].
  - split.
    + destruct (range_parse s); discriminate.
    + intros [a [b [h [c [-> _]]]]]. exfalso. apply Hn. apply in_or_app. right. left. reflexivity.
  - assert (U : forall a' b' h, a ++ ch ":" :: b = a' ++ ch ":" :: b' -> range_parse a' = Ok h -> a' = a /\ b' = b).
    { intros a' b' h E Ha.
      assert (Hn' : ~ In (ch ":") a').
      { assert (P : forall t n, parse_u16 t = Ok n -> ~ In (ch ":") t).
        { intros t n H. apply parse_uint_ok in H as [ds [Hs [_ [Hd _]]]].
          assert (Hx : ~ In (ch ":") ds) by (eapply forallb_not_In; [exact Hd|reflexivity]).
          destruct Hs as [->| ->]; [exact Hx|]. intros [Hi|Hi]; [discriminate|contradiction]. }
        apply range_parse_ok in Ha. destruct (r_end h) as [e|].
        - destruct Ha as [x [y [-> [Hx Hy]]]]. apply P in Hx, Hy. rewrite in_app_iff. intros [Hi|[Hi|Hi]]; auto.
          discriminate.
        - eapply P. exact Ha. }
      assert (split_once (ch ":") (a ++ ch ":" :: b) = Some (a', b')) by (rewrite E; apply split_once_app; exact Hn').
      rewrite split_once_app in H by exact Hn. inv H. auto. }
    assert (P0 : range_parse [] = Err (RangeInt IntEmpty [])) by reflexivity.
    split.
    + destruct a as [|c0 a].
      * cbn [obind]. destruct (range_parse b) as [c|]; cbn [map_err lift obind]; discriminate.
      * destruct (range_parse (c0 :: a)) as [h|] eqn:Ea; cbn [map_ok map_err lift obind]; [|discriminate].
        destruct (range_parse b) as [c|] eqn:Eb; cbn [map_err lift obind]; [|discriminate].
        unfold short_ranges_new, range_size_eq. intros H.
        exists (c0 :: a), b, h, c. repeat split; auto.
        destruct (range_size checks h) as [n|]; [|auto]. destruct (range_size checks c) as [m|]; [|auto].
        destruct (n =? m); discriminate.
    + intros [a' [b' [h [c [E [Ha [Hb Hp]]]]]]]. destruct (U _ _ _ E Ha) as [-> ->].
      destruct a as [|c0 a]; [congruence|]. rewrite Ha, Hb. cbn [map_ok map_err lift obind].
      unfold short_ranges_new, range_size_eq. destruct Hp as [-> | Hp]; [reflexivity|].
      destruct (range_size checks h); [|reflexivity]. rewrite Hp. reflexivity.
Qed.

Lemma range_size_release_total : forall r, range_size false r <> Panic.
Proof.
  intros [s [e|]]; unfold range_size; cbn [r_end r_start]; [|discriminate].
  unfold u16_sub, u16_add. destruct (s <=? e); cbn [pbind]; destruct (_ <=? U16_MAX); discriminate.
Qed.

(** ** Shifting *)

Lemma range_add_checked : forall r n r', range_add true r n = Ret r' <->
  r' = mk_range (r_start r + n) (option_map (fun e => e + n) (r_end r)) /\
  r_start r + n <= U16_MAX /\ match r_end r with Some e => e + n <= U16_MAX | None => True end.
Proof.
  intros [s [e|]] n r'; unfold range_add, u16_add; cbn [r_start r_end option_map].
  - destruct (N.leb_spec (s + n) U16_MAX); cbn [pbind]; [|split; [discriminate|intros [_ [H' _]]; lia]].
    destruct (N.leb_spec (e + n) U16_MAX); cbn [pbind]; [|split; [discriminate|intros [_ [_ H']]; lia]].
    split; [intros H'; injection H' as <-; auto|intros [-> _]; reflexivity].
  - destruct (N.leb_spec (s + n) U16_MAX); cbn [pbind]; [|split; [discriminate|intros [_ [H' _]]; lia]].
    split; [intros H'; injection H' as <-; auto|intros [-> _]; reflexivity].
Qed.

Lemma range_sub_checked : forall r n r', range_sub true r n = Ret r' <->
  r' = mk_range (r_start r - n) (option_map (fun e => e - n) (r_end r)) /\
  n <= r_start r /\ match r_end r with Some e => n <= e | None => True end.
Proof.
  intros [s [e|]] n r'; unfold range_sub, u16_sub; cbn [r_start r_end option_map].
  - destruct (N.leb_spec n s); cbn [pbind]; [|split; [discriminate|intros [_ [H' _]]; lia]].
    destruct (N.leb_spec n e); cbn [pbind]; [|split; [discriminate|intros [_ [_ H']]; lia]].
    split; [intros H'; injection H' as <-; auto|intros [-> _]; reflexivity].
  - destruct (N.leb_spec n s); cbn [pbind]; [|split; [discriminate|intros [_ [H' _]]; lia]].
    split; [intros H'; injection H' as <-; auto|intros [-> _]; reflexivity].
Qed.
