(** Lemmas about MAC addresses, network modes and exposed ports. *)

From Coq Require Import String Ascii List NArith ZArith Bool Lia ZifyBool ZifyN ZifyNat.
Import ListNotations.
From Verif Require Import Base BaseFacts Num NumFacts Serde Regex KeysModel KeysSpec KeysProofs PortsModel PortsProofs
  BytesProofs NetModel.
Open Scope N_scope.

(** ** Hexadecimal numbers *)

Lemma accumulate_digits : forall radix max over ds acc, 2 <= radix -> radix <= 16 -> Forall (fun d => d < radix) ds ->
  value radix ds acc <= max -> accumulate radix max over (map digit_char ds) acc = Ok (value radix ds acc).
Proof.
  intros radix max over. induction ds as [|d ds IH]; intros acc H2 H16 Hd Hm; cbn [map accumulate]; [reflexivity|].
  inversion Hd as [|x l Hx Hl]; subst. rewrite to_digit_digit_char by assumption.
  cbn [value] in *. replace (acc * radix + d <=? max) with true; [apply IH; assumption|].
  symmetry. apply N.leb_le. pose proof (value_ge radix ds (acc * radix + d) ltac:(lia)). lia.
Qed.

Lemma digit_char_not_sign : forall d, d < 16 -> (digit_char d =? 43) || (digit_char d =? 45) = false.
Proof. intros d H. unfold digit_char. destruct (N.ltb_spec d 10); lia. Qed.

Lemma parse_digits : forall radix max ds, 2 <= radix -> radix <= 16 -> ds <> [] -> Forall (fun d => d < radix) ds ->
  value radix ds 0 <= max -> parse_uint_radix radix max (map digit_char ds) = Ok (value radix ds 0).
Proof.
  intros radix max ds H2 H16 Hn Hd Hm. pose proof (accumulate_digits radix max IntPosOverflow ds 0 H2 H16 Hd Hm) as A.
  destruct ds as [|d ds]; [congruence|]. inversion Hd as [|x l Hx Hl]; subst. unfold parse_uint_radix.
  cbn [map] in *. rewrite digit_char_not_sign by lia. exact A.
Qed.

Lemma parse_hex : forall n, n <= U8_MAX -> parse_uint_radix 16 U8_MAX (hex n) = Ok n.
Proof.
  intros n H. unfold hex. pose proof (digits_value 16 n ltac:(lia)) as V. rewrite <- V at 2.
  apply parse_digits; [lia|lia|apply digits_nonempty|apply digits_range; lia|]. rewrite V. exact H.
Qed.

Lemma hex_shape : forall n, exists ds, hex n = map digit_char ds /\ ds <> [] /\ Forall (fun d => d < 16) ds /\ value 16 ds 0 = n.
Proof.
  intros n. exists (digits 16 n). split; [reflexivity|]. split; [apply digits_nonempty|].
  split; [apply digits_range; lia|apply digits_value; lia].
Qed.

Lemma hex02_shape : forall n, exists ds, hex02 n = map digit_char ds /\ ds <> [] /\ Forall (fun d => d < 16) ds /\ value 16 ds 0 = n.
Proof.
  intros n. destruct (hex_shape n) as [ds [E [Hn [Hd Hv]]]]. unfold hex02. rewrite E.
  destruct ds as [|d [|d' ds]]; [congruence| |].
  - exists [0; d]. repeat split; try discriminate; [|exact Hv]. inversion Hd; subst. repeat constructor. assumption.
  - exists (d :: d' :: ds). repeat split; assumption || discriminate.
Qed.

Lemma parse_hex02 : forall n, n <= U8_MAX -> parse_uint_radix 16 U8_MAX (hex02 n) = Ok n.
Proof.
  intros n H. destruct (hex02_shape n) as [ds [-> [Hn [Hd Hv]]]]. subst n.
  apply parse_digits; try assumption; lia.
Qed.

Lemma digit_chars_no_colon : forall ds, Forall (fun d => d < 16) ds -> ~ In (ch ":") (map digit_char ds).
Proof.
  intros ds H Hi. apply in_map_iff in Hi as [d [E Hi]]. eapply Forall_forall in H; [|exact Hi].
  unfold digit_char in E. change (ch ":") with 58 in E. destruct (N.ltb_spec d 10); lia.
Qed.

Lemma hex_no_colon : forall n, ~ In (ch ":") (hex n).
Proof. intros n. destruct (hex_shape n) as [ds [-> [_ [Hd _]]]]. apply digit_chars_no_colon. exact Hd. Qed.
Lemma hex02_no_colon : forall n, ~ In (ch ":") (hex02 n).
Proof. intros n. destruct (hex02_shape n) as [ds [-> [_ [Hd _]]]]. apply digit_chars_no_colon. exact Hd. Qed.

(** ** MAC addresses *)

Lemma mac_parse_ok : forall s m, mac_parse s = Ok m <->
  List.length m = 6%nat /\ Forall2 (fun piece b => parse_uint_radix 16 U8_MAX piece = Ok b) (split (ch ":") s) m.
Proof.
  intros s m. unfold mac_parse. generalize (split (ch ":") s) as l. intros l. split.
  - unfold parse_next_hex.
    destruct l as [|p1 l]; cbn [bind map_err]; [discriminate|].
    destruct (parse_uint_radix 16 U8_MAX p1) as [b1|] eqn:E1; cbn [bind map_err fst snd]; [|discriminate].
    destruct l as [|p2 l]; cbn [bind map_err]; [discriminate|].
    destruct (parse_uint_radix 16 U8_MAX p2) as [b2|] eqn:E2; cbn [bind map_err fst snd]; [|discriminate].
    destruct l as [|p3 l]; cbn [bind map_err]; [discriminate|].
    destruct (parse_uint_radix 16 U8_MAX p3) as [b3|] eqn:E3; cbn [bind map_err fst snd]; [|discriminate].
    destruct l as [|p4 l]; cbn [bind map_err]; [discriminate|].
    destruct (parse_uint_radix 16 U8_MAX p4) as [b4|] eqn:E4; cbn [bind map_err fst snd]; [|discriminate].
    destruct l as [|p5 l]; cbn [bind map_err]; [discriminate|].
    destruct (parse_uint_radix 16 U8_MAX p5) as [b5|] eqn:E5; cbn [bind map_err fst snd]; [|discriminate].
    destruct l as [|p6 l]; cbn [bind map_err]; [discriminate|].
    destruct (parse_uint_radix 16 U8_MAX p6) as [b6|] eqn:E6; cbn [bind map_err fst snd]; [|discriminate].
    destruct l; [|discriminate]. intros H. injection H as <-. split; [reflexivity|]. repeat constructor; assumption.
  - intros [L F].
    destruct m as [|b1 [|b2 [|b3 [|b4 [|b5 [|b6 [|b7 m]]]]]]]; try discriminate L.
    repeat match goal with H : Forall2 _ _ (_ :: _) |- _ => inversion H; clear H; subst | H : Forall2 _ _ [] |- _ => inversion H; clear H; subst end.
    unfold parse_next_hex.
    repeat match goal with H : parse_uint_radix 16 U8_MAX _ = Ok _ |- _ => rewrite H; clear H; cbn [bind map_err fst snd] end.
    reflexivity.
Qed.

Lemma mac_show_pieces : forall b r, split (ch ":") (mac_show (b :: r)) = hex b :: map hex02 r.
Proof.
  intros b r. cbn [mac_show]. assert (G : forall r p, ~ In (ch ":") p ->
    split (ch ":") (p ++ flat_map (fun x => ch ":" :: hex02 x) r) = p :: map hex02 r).
  { clear. induction r as [|x r IH]; intros p Hp; cbn [flat_map map].
    - rewrite app_nil_r. apply split_no. exact Hp.
    - change ((ch ":" :: hex02 x) ++ flat_map (fun x => ch ":" :: hex02 x) r) with
        (ch ":" :: (hex02 x ++ flat_map (fun x => ch ":" :: hex02 x) r)).
      rewrite split_app by exact Hp. rewrite IH by apply hex02_no_colon. reflexivity. }
  apply G, hex_no_colon.
Qed.

Lemma mac_round_trip : forall m, List.length m = 6%nat -> Forall (fun b => b <= U8_MAX) m -> mac_parse (mac_show m) = Ok m.
Proof.
  intros m L F. apply mac_parse_ok. split; [exact L|]. destruct m as [|b r]; [discriminate|].
  rewrite mac_show_pieces. inversion F as [|x l Hb Hr]; subst. constructor; [apply parse_hex; exact Hb|].
  clear - Hr. induction Hr; cbn [map]; constructor; [apply parse_hex02; assumption|assumption].
Qed.

Lemma parse_uint_radix_bound : forall radix max s n, parse_uint_radix radix max s = Ok n -> n <= max.
Proof.
  assert (A : forall radix max over s acc n, acc <= max -> accumulate radix max over s acc = Ok n -> n <= max).
  { intros radix max over. induction s as [|c s IH]; cbn [accumulate]; intros acc n Ha H.
    - injection H as <-. exact Ha.
    - destruct (to_digit radix c) as [d|]; [|discriminate]. destruct (N.leb_spec (acc * radix + d) max); [|discriminate].
      eapply IH; [|exact H]. assumption. }
  intros radix max s n. unfold parse_uint_radix. destruct s as [|c s]; [discriminate|].
  destruct ((c =? 43) || (c =? 45)); [destruct s; [discriminate|]; destruct (c =? 43)|]; apply A; apply N.le_0_l.
Qed.

Lemma mac_parse_bytes : forall s m, mac_parse s = Ok m -> List.length m = 6%nat /\ Forall (fun b => b <= U8_MAX) m.
Proof.
  intros s m H. apply mac_parse_ok in H as [L F]. split; [exact L|]. clear L.
  induction F; constructor; [eapply parse_uint_radix_bound; eassumption|assumption].
Qed.

(** ** Network modes *)

Lemma identifier_ok : forall s, identifier_new s = Ok s <-> matches IDENTIFIER_RE s.
Proof. intros s. rewrite identifier_new_ok. tauto. Qed.

(** Mode values whose text is not taken by another mode. *)
Definition nm_canonical (m : network_mode) : Prop :=
  match m with
  | NmNone | NmHost => True
  | NmService id | NmContainer id => matches IDENTIFIER_RE id
  | NmOther s => s <> $"none" /\ s <> $"host" /\ (forall r, s <> $"service:" ++ r) /\ (forall r, s <> $"container:" ++ r)
  end.

Lemma network_mode_parse_ok : forall s m, network_mode_parse s = Ok m <-> nm_canonical m /\ network_mode_show m = s.
Proof.
  intros s m. split.
  - unfold network_mode_parse.
    destruct (str_eqb_spec s $"none") as [->|N1]. { intros H. injection H as <-. split; [exact I|reflexivity]. }
    destruct (str_eqb_spec s $"host") as [->|N2]. { intros H. injection H as <-. split; [exact I|reflexivity]. }
    destruct (strip_prefix $"service:" s) as [r|] eqn:E1.
    { apply strip_prefix_some in E1. subst s. destruct (identifier_new r) as [t|] eqn:E; [|discriminate].
      apply identifier_new_ok in E as [-> E]. intros H. injection H as <-. split; [exact E|reflexivity]. }
    destruct (strip_prefix $"container:" s) as [r|] eqn:E2.
    { apply strip_prefix_some in E2. subst s. destruct (identifier_new r) as [t|] eqn:E; [|discriminate].
      apply identifier_new_ok in E as [-> E]. intros H. injection H as <-. split; [exact E|reflexivity]. }
    intros H. injection H as <-. split; [|reflexivity]. repeat split; try assumption; apply strip_prefix_none; assumption.
  - intros [C <-]. unfold network_mode_parse. destruct m as [| |id|id|t]; try reflexivity.
    + cbn [network_mode_show]. replace (str_eqb ($"service:" ++ id) $"none") with false by reflexivity.
      replace (str_eqb ($"service:" ++ id) $"host") with false by reflexivity.
      rewrite strip_prefix_app. apply identifier_ok in C. rewrite C. reflexivity.
    + cbn [network_mode_show]. replace (str_eqb ($"container:" ++ id) $"none") with false by reflexivity.
      replace (str_eqb ($"container:" ++ id) $"host") with false by reflexivity.
      replace (strip_prefix $"service:" ($"container:" ++ id)) with (@None (list N)) by reflexivity.
      rewrite strip_prefix_app. apply identifier_ok in C. rewrite C. reflexivity.
    + cbn [network_mode_show]. destruct C as [C1 [C2 [C3 C4]]]. apply str_eqb_neq in C1, C2. rewrite C1, C2.
      apply strip_prefix_none in C3, C4. rewrite C3, C4. reflexivity.
Qed.

(** ** Exposed ports *)

Lemma range_show_no_slash : forall r, ~ In (ch "/") (range_show r).
Proof.
  intros [s [e|]]; unfold range_show; cbn [r_start r_end].
  - rewrite in_app_iff. cbn [In].
    intros [H|[H|H]]; try discriminate; revert H; apply show_N_not_In; reflexivity.
  - rewrite app_nil_r. apply show_N_not_In. reflexivity.
Qed.

Definition ex_valid (e : expose) : Prop :=
  range_u16 (ex_range e) /\ match ex_protocol e with Some p => protocol_canonical p | None => True end.

Lemma expose_round_trip : forall e, ex_valid e -> expose_parse (expose_show e) = Ok e.
Proof.
  intros [r [p|]] [Hr Hp]; unfold expose_parse, expose_show; cbn [ex_range ex_protocol] in *.
  - rewrite split_once_app by apply range_show_no_slash. rewrite range_round_trip by exact Hr. cbn [bind].
    rewrite protocol_round_trip by exact Hp. reflexivity.
  - rewrite app_nil_r. rewrite (proj2 (split_once_none _ _) (range_show_no_slash r)).
    rewrite range_round_trip by exact Hr. reflexivity.
Qed.

Lemma expose_parse_ok : forall s e, expose_parse s = Ok e <->
  match ex_protocol e with
  | None => ~ In (ch "/") s /\ range_parse s = Ok (ex_range e)
  | Some p => protocol_canonical p /\ exists a, s = a ++ ch "/" :: protocol_show p /\ ~ In (ch "/") a /\ range_parse a = Ok (ex_range e)
  end.
Proof.
  intros s [r p]. cbn [ex_protocol ex_range]. unfold expose_parse.
  destruct (split_once_case (ch "/") s) as [[Hn ->]|[a [b [-> [Hn ->]]]]].
  - destruct p as [p|].
    + split; [destruct (range_parse s); discriminate|]. intros [_ [a [-> _]]]. exfalso. apply Hn. apply in_or_app. right. left. reflexivity.
    + destruct (range_parse s) as [r'|]; cbn [bind]; [|split; [discriminate|intros [_ H]; discriminate]].
      split; [intros H; injection H as <-; auto|intros [_ H]; injection H as <-; reflexivity].
  - destruct p as [p|].
    + split.
      * destruct (range_parse a) as [r'|] eqn:E; cbn [bind]; [|discriminate]. intros H. injection H as <- <-.
        split; [apply protocol_parse_canonical|]. exists a. rewrite protocol_parse_show. auto.
      * intros [C [a' [E [Hn' H]]]].
        assert (S : split_once (ch "/") (a ++ ch "/" :: b) = Some (a', protocol_show p)) by (rewrite E; apply split_once_app; exact Hn').
        rewrite split_once_app in S by exact Hn. injection S as -> ->. rewrite H. cbn [bind]. rewrite protocol_round_trip by exact C. reflexivity.
    + split; [destruct (range_parse a); discriminate|]. intros [H _]. exfalso. apply H. apply in_or_app. right. left. reflexivity.
Qed.

Lemma expose_parse_valid : forall s e, expose_parse s = Ok e -> ex_valid e.
Proof.
  intros s e H. apply expose_parse_ok in H. unfold ex_valid. destruct (ex_protocol e) as [p|].
  - destruct H as [C [a [_ [_ H]]]]. split; [eapply range_parse_u16; exact H|exact C].
  - destruct H as [_ H]. split; [eapply range_parse_u16; exact H|exact I].
Qed.

Lemma expose_serde_round_trip : forall e, ex_valid e -> expose_deserialize (expose_serialize e) = OOk e.
Proof.
  intros [r p] V. unfold expose_serialize, expose_deserialize. cbn [ex_range ex_protocol].
  destruct (r_end r) as [x|] eqn:Ee; [|destruct p as [p|]]; unfold from_str_or_u16.
  - rewrite expose_round_trip by exact V. reflexivity.
  - rewrite expose_round_trip by exact V. reflexivity.
  - destruct V as [[V _] _]. cbn [ex_range] in V. rewrite int_to_uint_of_N by exact V.
    destruct r as [s e]. cbn in Ee. subst e. reflexivity.
Qed.
