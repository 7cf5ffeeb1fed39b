(** Theorems about IP addresses and short ports as texts (C61, C62). *)

From Coq Require Import String Ascii List NArith ZArith Bool Lia ZifyBool ZifyN ZifyNat.
Import ListNotations.
From Verif Require Import Base BaseFacts Num NumFacts Regex NumSpec Serde IpModel IpProofs IpSpec IpLang PortsModel PortsProofs PortsSpec.
Open Scope N_scope.

(** ** C61 *)

(** The parser of IP addresses accepts exactly the documented texts, with the documented meaning. *)
Theorem ip_language : forall s ip, ip_parse s = Some ip <-> ip_text s ip.
Proof. exact ip_parse_iff. Qed.
Print Assumptions ip_language.

Example ip_language_case :
  ip_parse $"2001:DB8::7:192.168.0.1" = Some (V6 [8193; 3512; 0; 0; 0; 7; 49320; 1]) /\ ip_parse $"1:2:3:4:5:6:7::" = Some (V6 [1; 2; 3; 4; 5; 6; 7; 0]) /\
  ip_parse $"127.0.0.01" = None /\ ip_parse $"1:2:3:4:5:6:7:8::" = None /\ ip_parse $"::1.2.3.4:5" = None /\ ip_parse $"1:::2" = None.
Proof. vm_compute. repeat split. Qed.

(** A text has one meaning, and is never both an IPv4 and an IPv6 address. *)
Corollary ip_text_unique : forall s a b, ip_text s a -> ip_text s b -> a = b.
Proof. intros s a b Ha Hb. apply ip_language in Ha, Hb. congruence. Qed.
Print Assumptions ip_text_unique.

(** ** C62 *)

Lemma range_text_iff : forall s r, range_parse s = Ok r <-> range_text s r.
Proof.
  intros s r. rewrite range_parse_ok. unfold range_text. destruct (r_end r) as [e|]; [|apply parse_uint_text].
  split; intros (a & b & E & A & B); exists a, b; (split; [exact E|]); split; apply parse_uint_text; assumption.
Qed.
Lemma size_width : forall r n, range_u16 r -> (range_size false r = Ret n <-> (Z.of_N n = width r mod 65536)%Z).
Proof.
  intros [s [e|]] n [H1 H2]; unfold range_size, width; cbn [r_start r_end] in *.
  - assert (M : forall x : N, (Z.of_N (x mod 65536) = Z.of_N x mod 65536)%Z) by (intros; rewrite N2Z.inj_mod; reflexivity).
    assert (E : exists m, pbind (u16_sub false e s) (fun d => u16_add false d 1) = Ret m /\ (Z.of_N m = (Z.of_N e - Z.of_N s + 1) mod 65536)%Z).
    { unfold u16_sub, u16_add, U16_MAX in *. destruct (N.leb_spec s e); cbn [pbind].
      - destruct (N.leb_spec (e - s + 1) 65535); (eexists; split; [reflexivity|]); rewrite ?M; Z.div_mod_to_equations; lia.
      - set (y := (e + 65536 - s) mod 65536). pose proof (M (e + 65536 - s)) as Y. fold y in Y. clearbody y.
        destruct (N.leb_spec (y + 1) 65535); (eexists; split; [reflexivity|]); rewrite ?M; Z.div_mod_to_equations; lia. }
    destruct E as (m & -> & E). rewrite <- E. split; [intros X; congruence|intros X; f_equal; lia].
  - change (1 mod 65536)%Z with 1%Z. split; [intros X; injection X as <-; reflexivity|intros X; f_equal; lia].
Qed.
Lemma sizes_agree_iff : forall checks h c, range_u16 h -> range_u16 c -> (range_size_eq checks (Some h) c = OOk tt <-> sizes_agree checks h c).
Proof.
  intros checks h c Hh Hc. rewrite range_size_eq_ok. unfold sizes_agree. destruct checks.
  - assert (W : forall r, range_ordered r -> Z.of_N (range_count r) = width r).
    { intros [s [e|]] O; unfold range_ordered, range_count, width in *; cbn [r_start r_end] in *; lia. }
    split.
    + intros (n & A & B). apply range_size_true_ret in A as (O1 & E1 & L1); [|assumption]. apply range_size_true_ret in B as (O2 & E2 & L2); [|assumption].
      rewrite <- (W h O1), <- (W c O2), <- E1, <- E2. unfold U16_MAX in L1. split; [reflexivity|]. split; [|lia].
      rewrite E2. destruct c as [s [e|]]; unfold range_ordered, range_count in *; cbn [r_start r_end] in *; lia.
    + intros (E & L). exists (range_count c).
      assert (O : forall r, (1 <= width r)%Z -> range_ordered r) by (intros [s [e|]] X; unfold width, range_ordered in *; cbn [r_start r_end] in *; lia || exact I).
      assert (O1 := O h ltac:(lia)). assert (O2 := O c ltac:(lia)). pose proof (W h O1). pose proof (W c O2). split.
      * replace (range_count c) with (range_count h) by lia. apply range_size_ret; auto. unfold U16_MAX. lia.
      * apply range_size_ret; auto. unfold U16_MAX. lia.
  - split.
    + intros (n & A & B). apply size_width in A, B; auto. congruence.
    + intros E. exists (Z.to_N (width c mod 65536)). assert (0 <= width c mod 65536)%Z by (apply Z.mod_pos_bound; lia). split; apply size_width; auto; rewrite Z2N.id by assumption; congruence.
Qed.

Lemma uint_text_chars : forall max s n c, uint_text max s n -> In c s -> is_digit c = true \/ c = ch "+".
Proof.
  intros max s n c (ds & E & _ & D & _) I. rewrite Forall_forall in D. destruct E as [->| ->]; [left; apply digit_cls, D, I|]. destruct I as [<-|I]; [now right|left; apply digit_cls, D, I].
Qed.
Lemma range_text_not : forall s r c, range_text s r -> is_digit c = false -> c <> ch "+" -> c <> ch "-" -> ~ In c s.
Proof.
  intros s r c H D P M I. unfold range_text in H. destruct (r_end r) as [e|].
  - destruct H as (a & b & -> & A & B). rewrite !in_app_iff in I. destruct I as [I|[[I|[]]|I]]; [|exact (M (eq_sym I))|]; eapply uint_text_chars in I; eauto; destruct I; congruence.
  - eapply uint_text_chars in I; eauto. destruct I; congruence.
Qed.
Lemma range_text_nonempty : forall s r, range_text s r -> s <> [].
Proof.
  intros s r H ->. unfold range_text in H. destruct (r_end r) as [e|].
  - destruct H as (a & b & E & _). destruct a; discriminate.
  - destruct H as (ds & [<-|E] & N & _); [congruence|discriminate].
Qed.

Theorem short_ranges_language : forall checks s x, short_ranges_parse checks s = OOk x <-> ranges_text checks s x.
Proof.
  intros checks s [h c]. unfold short_ranges_parse, ranges_text. cbn [sr_host sr_container].
  assert (NC : forall s r, range_text s r -> ~ In (ch ":") s) by (intros s' r H; apply (range_text_not s' r _ H); [reflexivity|discriminate|discriminate]).
  destruct (split_once_case (ch ":") s) as [[N ->]|(a & b & -> & Na & ->)].
  - destruct (range_parse s) as [r|e] eqn:E; cbn [map_ok map_err lift].
    + apply range_text_iff in E. split.
      * intros X. injection X as <- ->. exists s. auto.
      * destruct h as [h|].
        -- intros (x & y & -> & _). exfalso. apply N. apply in_or_app. right. now left.
        -- intros (y & [->| ->] & H); [|exfalso; apply N; now left]. apply range_text_iff in E, H. replace r with c by congruence. reflexivity.
    + split; [discriminate|]. destruct h as [h|].
      * intros (x & y & -> & _). exfalso. apply N. apply in_or_app. right. now left.
      * intros (y & [->| ->] & H); [|exfalso; apply N; now left]. apply range_text_iff in H. congruence.
  - destruct a as [|a0 a].
    + cbn [obind app]. destruct (range_parse b) as [r|e] eqn:E; cbn [map_err lift obind].
      * split.
        -- intros X. assert (Y : short_ranges_new checks None r = OOk (mk_short_ranges None r)) by reflexivity. rewrite Y in X. injection X as <- <-. exists b. split; [now right|now apply range_text_iff].
        -- destruct h as [h|].
           ++ intros (x & y & Ex & Hx & _). pose proof (range_text_nonempty x h Hx) as Nx. destruct x as [|x0 x]; [congruence|]. cbn in Ex. injection Ex as <- _. exfalso. apply (NC _ _ Hx). now left.
           ++ intros (y & [Ey|Ey] & H).
              ** exfalso. apply (NC _ _ H). rewrite <- Ey. now left.
              ** injection Ey as <-. apply range_text_iff in H. replace c with r by congruence. reflexivity.
      * split; [discriminate|]. destruct h as [h|].
        -- intros (x & y & Ex & Hx & _). pose proof (range_text_nonempty x h Hx) as Nx. destruct x as [|x0 x]; [congruence|]. cbn in Ex. injection Ex as <- _. exfalso. apply (NC _ _ Hx). now left.
        -- intros (y & [Ey|Ey] & H); [exfalso; apply (NC _ _ H); rewrite <- Ey; now left|]. injection Ey as <-. apply range_text_iff in H. congruence.
    + remember (a0 :: a) as a' eqn:Ea. assert (Ne : a' <> []) by (subst; discriminate). clear Ea a0 a. rename a' into a.
      assert (R : match h with
                  | None => exists y, (a ++ ch ":" :: b = y \/ a ++ ch ":" :: b = $":" ++ y) /\ range_text y c
                  | Some h => exists x y, a ++ ch ":" :: b = x ++ $":" ++ y /\ range_text x h /\ range_text y c /\ sizes_agree checks h c
                  end <-> exists h', h = Some h' /\ range_text a h' /\ range_text b c /\ sizes_agree checks h' c).
      { destruct h as [h|].
        - split.
          + intros (x & y & E & Hx & Hy & S). exists h. split; [reflexivity|].
            assert (X : split_once (ch ":") (a ++ ch ":" :: b) = Some (x, y)) by (rewrite E; apply split_once_app; exact (NC _ _ Hx)).
            rewrite split_once_app in X by assumption. injection X as -> ->. auto.
          + intros (h' & E & Ha & Hb & S). injection E as <-. exists a, b. auto.
        - split; [|intros (h' & E & _); discriminate]. intros (y & [E|E] & H).
          + exfalso. apply (NC _ _ H). rewrite <- E. apply in_or_app. right. now left.
          + destruct a as [|x a]; [congruence|]. cbn in E. injection E as -> _. exfalso. apply Na. now left. }
      rewrite R. clear R. destruct (range_parse a) as [ra|e] eqn:Ea; cbn [map_ok map_err lift obind].
      * destruct (range_parse b) as [rb|e] eqn:Eb; cbn [map_ok map_err lift obind].
        -- pose proof (range_parse_u16 _ _ Ea) as Ua. pose proof (range_parse_u16 _ _ Eb) as Ub. split.
           ++ intros X. destruct (short_ranges_new checks (Some ra) rb) as [x| |] eqn:S; try discriminate. injection X as ->. apply short_ranges_new_ok in S as [Ex S]. injection Ex as -> ->.
              apply sizes_agree_iff in S; auto. apply range_text_iff in Ea, Eb. eauto.
           ++ intros (h' & -> & Ha & Hb & S). apply range_text_iff in Ha, Hb. replace h' with ra in * by congruence. replace c with rb in * by congruence.
              assert (X : short_ranges_new checks (Some ra) rb = OOk (mk_short_ranges (Some ra) rb)) by (apply short_ranges_new_ok; split; [reflexivity|]; apply sizes_agree_iff; auto). rewrite X. reflexivity.
        -- split; [discriminate|]. intros (h' & _ & _ & Hb & _). apply range_text_iff in Hb. congruence.
      * split; [discriminate|]. intros (h' & _ & Ha & _). apply range_text_iff in Ha. congruence.
Qed.
Print Assumptions short_ranges_language.

Lemma rsplit_none : forall seen b, ~ In (ch ":") b -> rsplit_second_colon seen (rev b) [] = None.
Proof. intros seen b N. rewrite <- (app_nil_r (rev b)), rsplit_skip by (rewrite <- in_rev; exact N). reflexivity. Qed.
Lemma rsplit_case : forall s,
  (rsplit_second_colon false (rev s) [] = None /\ forall a b c, s <> a ++ $":" ++ b ++ $":" ++ c) \/
  (exists a b c, s = a ++ $":" ++ b ++ $":" ++ c /\ ~ In (ch ":") b /\ ~ In (ch ":") c /\ rsplit_second_colon false (rev s) [] = Some (a, b ++ $":" ++ c)).
Proof.
  intros s. destruct (rsplit_once (ch ":") s) as [[x c]|] eqn:E.
  - apply rsplit_once_some in E as [-> Nc]. destruct (rsplit_once (ch ":") x) as [[a b]|] eqn:E'.
    + apply rsplit_once_some in E' as [-> Nb]. right. exists a, b, c. split; [now rewrite <- app_assoc|]. split; [assumption|]. split; [assumption|].
      rewrite <- app_assoc. exact (rsplit_two a b c Nb Nc).
    + apply rsplit_once_none in E'. left. split.
      * rewrite rev_app_distr. cbn [rev]. rewrite <- app_assoc, rsplit_skip by (rewrite <- in_rev; exact Nc). cbn [app rsplit_second_colon]. change (ch ":" =? ch ":") with true. cbv iota.
        rewrite <- (app_nil_r (rev x)), rsplit_skip by (rewrite <- in_rev; exact E'). reflexivity.
      * intros a b d Eq.
        apply E'.
        revert Eq Nc. clear. revert x. induction a as [|y a IH]; intros x Eq Nc.
        -- destruct x as [|z x]; [|cbn in Eq; injection Eq as -> _; now left]. injection Eq as Eq. exfalso. apply Nc. rewrite Eq. apply in_or_app. right. now left.
        -- destruct x as [|z x]; cbn in Eq; injection Eq as <- Eq; [|right; exact (IH x Eq Nc)]. exfalso. apply Nc. rewrite Eq. apply in_or_app. right. now left.
  - apply rsplit_once_none in E. left. split; [now apply rsplit_none|]. intros a b c ->. apply E. apply in_or_app. right. now left.
Qed.

Lemma ip_text_not : forall s ip c, ip_text s ip -> In c s -> in_cls HEX c \/ c = ch "." \/ c = ch ":".
Proof.
  assert (O : forall p n c, octet_text p n -> In c p -> in_cls HEX c).
  { intros p n c (_ & F & _) J. rewrite Forall_forall in F. apply F in J as (a & b & [E|[]] & L). exists a, b. split; [now left|assumption]. }
  assert (F4 : forall p q c, ipv4_text p q -> In c p -> in_cls HEX c \/ c = ch ".").
  { intros p [[[a b] c'] d] c (p1 & p2 & p3 & p4 & -> & O1 & O2 & O3 & O4) I. rewrite !in_app_iff in I.
    destruct I as [I|[[I|[]]|[I|[[I|[]]|[I|[[I|[]]|I]]]]]]; first [right; symmetry; exact I|left; eapply O; [|exact I]; eassumption]. }
  assert (G : forall t l d c, groups_text t l d -> In c t -> in_cls HEX c \/ c = ch "." \/ c = ch ":").
  { intros t l d c H. induction H as [s n (_ & F & _)|s a b c' d H|s n t l d (_ & F & _) H IH]; intros I.
    - rewrite Forall_forall in F. auto.
    - destruct (F4 _ _ _ H I); auto.
    - rewrite !in_app_iff in I. destruct I as [I|[[I|[]]|I]]; auto. rewrite Forall_forall in F. auto. }
  intros s [a b c d|l] x; cbn [ip_text].
  - intros H I. destruct (F4 _ _ _ H I); auto.
  - intros [((d & H) & _)|(h & t & hs & ts & d & -> & Hh & Ht & _)] I; [eapply G; eassumption|]. rewrite !in_app_iff in I. destruct I as [I|[I|I]].
    + destruct Hh as [(-> & _)|Hh]; [destruct I|eapply G; eassumption].
    + destruct I as [I|[I|[]]]; subst x; auto.
    + destruct Ht as [(-> & _)|Ht]; [destruct I|eapply G; eassumption].
Qed.
Lemma not_hex : forall c, in_cls HEX c -> c <> ch "[" /\ c <> ch "]" /\ c <> ch "/" /\ c <> ch ":" /\ c <> ch ".".
Proof. intros c (a & b & [E|[E|[E|[]]]] & L); inversion E; subst; cbn in L; change (ch "[") with 91; change (ch "]") with 93; change (ch "/") with 47; change (ch ":") with 58; change (ch ".") with 46; lia. Qed.
Lemma ip_text_clean : forall s ip c, ip_text s ip -> c = ch "[" \/ c = ch "]" \/ c = ch "/" -> ~ In c s.
Proof. intros s ip c H C I. destruct (ip_text_not s ip c H I) as [X|[X|X]]; [apply not_hex in X; destruct C as [->|[->| ->]]; intuition congruence| |]; subst c; destruct C as [C|[C|C]]; discriminate C. Qed.
Lemma brackets_iff : forall a ip, ip_parse (strip_brackets a) = Some ip <-> exists t, (a = t \/ a = $"[" ++ t ++ $"]") /\ ip_text t ip.
Proof.
  intros a ip. rewrite ip_language. unfold strip_brackets. destruct (strip_prefix $"[" a) as [r|] eqn:E.
  - apply strip_prefix_some in E. subst a. destruct (strip_suffix $"]" r) as [q|] eqn:E'.
    + apply strip_suffix_some in E'. subst r. split; [eauto|]. intros (t & [E|E] & H).
      * exfalso. apply (ip_text_clean t ip (ch "[") H); [auto|]. rewrite <- E. now left.
      * apply app_inv_head, app_inv_tail in E. now subst t.
    + split; [eauto|]. intros (t & [E|E] & H); [now rewrite E|]. apply app_inv_head in E. subst r. exfalso.
      assert (X : strip_suffix $"]" (t ++ $"]") = Some t) by (apply strip_suffix_some; reflexivity). congruence.
  - split; [eauto|]. intros (t & [E'|E'] & H); [now subst a|]. subst a. assert (X : strip_prefix $"[" ($"[" ++ t ++ $"]") = Some (t ++ $"]")) by (apply strip_prefix_some; reflexivity). congruence.
Qed.
Lemma protocol_iff : forall s p, protocol_parse s = p <-> protocol_is s p.
Proof.
  intros s p. unfold protocol_parse. destruct (str_eqb_spec s $"tcp") as [->|Nt]; [|destruct (str_eqb_spec s $"udp") as [->|Nu]]; destruct p as [| |t]; cbn [protocol_is]; split; intros H; try discriminate; try congruence; auto.
  - destruct H as (E & X & _). congruence.
  - destruct H as (E & _ & X). congruence.
  - injection H as <-. auto.
  - destruct H as (<- & _). reflexivity.
Qed.
Lemma ranges_text_not : forall checks s x, ranges_text checks s x -> ~ In (ch "/") s.
Proof.
  intros checks s [h c] H I. unfold ranges_text in H. cbn [sr_host sr_container] in H.
  assert (NS : forall s r, range_text s r -> ~ In (ch "/") s) by (intros s' r X; apply (range_text_not s' r _ X); [reflexivity|discriminate|discriminate]).
  destruct h as [h|].
  - destruct H as (a & b & -> & Ha & Hb & _). rewrite !in_app_iff in I. destruct I as [I|[[I|[]]|I]]; [exact (NS _ _ Ha I)|discriminate I|exact (NS _ _ Hb I)].
  - destruct H as (y & [->| ->] & H); [exact (NS _ _ H I)|]. destruct I as [I|I]; [discriminate I|exact (NS _ _ H I)].
Qed.
Lemma ranges_text_colon : forall checks s x, ranges_text checks s x -> ~ In (ch ":") s \/ exists b c, s = b ++ $":" ++ c /\ ~ In (ch ":") b /\ ~ In (ch ":") c.
Proof.
  intros checks s [h c] H. unfold ranges_text in H. cbn [sr_host sr_container] in H.
  assert (NC : forall s r, range_text s r -> ~ In (ch ":") s) by (intros s' r X; apply (range_text_not s' r _ X); [reflexivity|discriminate|discriminate]).
  destruct h as [h|].
  - destruct H as (a & b & -> & Ha & Hb & _). right. exists a, b. eauto.
  - destruct H as (y & [->| ->] & H); [left; eauto|]. right. exists [], y. split; [reflexivity|]. split; [intros []|eauto].
Qed.

(** The parser of short ports accepts exactly the documented texts, with the documented meaning. *)
Theorem short_port_language : forall checks s p, short_port_parse checks s = OOk p <-> short_port_text checks s p.
Proof.
  intros checks s [ip x pr]. unfold short_port_parse, short_port_text. cbn [sp_host_ip sp_ranges sp_protocol].
  set (body := fun s protocol =>
    p <~ (match rsplit_second_colon false (rev s) [] with
          | Some (host_ip, rest) => match ip_parse (strip_brackets host_ip) with Some ip => OOk (Some ip, rest) | None => OErr (SPIpAddr host_ip) end
          | None => OOk (None, s)
          end) ;;
    match short_ranges_parse checks (snd p) with
    | OOk ranges => OOk (mk_short_port (fst p) ranges protocol)
    | OErr e => OErr (SPShortRanges e)
    | OPanic => OPanic
    end).
  assert (B : forall s protocol, body s protocol = OOk (mk_short_port ip x pr) <->
    protocol = pr /\ exists address ports, s = address ++ ports /\ ranges_text checks ports x /\
      match ip with None => address = [] | Some ip => (exists t, (address = t ++ $":" \/ address = $"[" ++ t ++ $"]:") /\ ip_text t ip) /\ In (ch ":") ports end).
  { clear s. intros s protocol. unfold body. destruct (rsplit_case s) as [[-> N]|(a & b & c & -> & Nb & Nc & ->)]; cbn [obind fst snd].
    - destruct (short_ranges_parse checks s) as [r|e|] eqn:E.
      + apply short_ranges_language in E. split.
        * intros X. injection X as <- <- <-. split; [reflexivity|]. exists [], s. auto.
        * intros (-> & address & ports & -> & R & H). destruct ip as [i|].
          -- destruct H as [(t & Et & _) C]. exfalso. apply in_split in C as (u & v & ->). destruct Et as [->| ->].
             ++ apply (N t u v). now rewrite <- app_assoc.
             ++ apply (N ($"[" ++ t ++ $"]") u v). now rewrite <- !app_assoc.
          -- subst address. cbn [app] in *. apply short_ranges_language in E, R. replace x with r by congruence. reflexivity.
      + split; [discriminate|]. intros (_ & address & ports & -> & R & H). destruct ip as [i|].
        * destruct H as [(t & Et & _) C]. exfalso. apply in_split in C as (u & v & ->). destruct Et as [->| ->].
          -- apply (N t u v). now rewrite <- app_assoc.
          -- apply (N ($"[" ++ t ++ $"]") u v). now rewrite <- !app_assoc.
        * subst address. cbn [app] in *. apply short_ranges_language in R. congruence.
      + split; [discriminate|]. intros (_ & address & ports & -> & R & H). destruct ip as [i|].
        * destruct H as [(t & Et & _) C]. exfalso. apply in_split in C as (u & v & ->). destruct Et as [->| ->].
          -- apply (N t u v). now rewrite <- app_assoc.
          -- apply (N ($"[" ++ t ++ $"]") u v). now rewrite <- !app_assoc.
        * subst address. cbn [app] in *. apply short_ranges_language in R. congruence.
    - assert (U : forall address ports i, a ++ $":" ++ b ++ $":" ++ c = address ++ ports -> ranges_text checks ports x ->
                match i with None => address = [] | Some ip => (exists t, (address = t ++ $":" \/ address = $"[" ++ t ++ $"]:") /\ ip_text t ip) /\ In (ch ":") ports end ->
                ports = b ++ $":" ++ c /\ exists ip, i = Some ip /\ exists t, (a = t \/ a = $"[" ++ t ++ $"]") /\ ip_text t ip).
      { intros address ports i E R H. destruct (ranges_text_colon _ _ _ R) as [NC|(b' & c' & -> & Nb' & Nc')].
        - exfalso. destruct i as [i|]; [now destruct H|]. subst address. cbn [app] in E. apply NC. rewrite <- E. apply in_or_app. right. now left.
        - destruct i as [i|].
          + destruct H as [(t & Et & Ht) _].
            assert (X : exists a', address = a' ++ $":" /\ (a' = t \/ a' = $"[" ++ t ++ $"]")).
            { destruct Et as [->| ->]; [eauto|]. exists ($"[" ++ t ++ $"]"). split; [now rewrite <- !app_assoc|auto]. }
            destruct X as (a' & -> & Ea). rewrite <- app_assoc in E.
            assert (Y : rsplit_second_colon false (rev (a ++ $":" ++ b ++ $":" ++ c)) [] = Some (a', b' ++ $":" ++ c')) by (rewrite E; exact (rsplit_two a' b' c' Nb' Nc')).
            assert (Z : rsplit_second_colon false (rev (a ++ $":" ++ b ++ $":" ++ c)) [] = Some (a, b ++ $":" ++ c)) by exact (rsplit_two a b c Nb Nc).
            rewrite Z in Y. injection Y as <- Y. split; [exact (eq_sym Y)|]. exists i. split; [reflexivity|]. eauto.
          + subst address. cbn [app] in E. exfalso.
            assert (Z : rsplit_second_colon false (rev (a ++ $":" ++ b ++ $":" ++ c)) [] = Some (a, b ++ $":" ++ c)) by exact (rsplit_two a b c Nb Nc).
            destruct (rsplit_case (b' ++ $":" ++ c')) as [[Y _]|(a2 & b2 & c2 & Y & N2 & N3 & _)]; [change (ch ":" :: c') with ($":" ++ c') in *; rewrite E in Z; congruence|].
            assert (Q : split_once (ch ":") (a2 ++ $":" ++ b2 ++ $":" ++ c2) = Some (b', c')) by (rewrite <- Y; apply split_once_app; exact Nb').
            destruct (split_once_case (ch ":") a2) as [[Na _]|(u & v & -> & Nu & _)].
            * change ($":" ++ b2 ++ $":" ++ c2) with (ch ":" :: b2 ++ $":" ++ c2) in Q. rewrite split_once_app in Q by exact Na. injection Q as _ <-. apply Nc'. apply in_or_app. right. now left.
            * rewrite <- app_assoc in Q. cbn [app] in Q. rewrite split_once_app in Q by exact Nu. injection Q as _ <-. apply Nc'. apply in_or_app. right. now left. }
      destruct (ip_parse (strip_brackets a)) as [i|] eqn:Ei; cbn [obind fst snd].
      + pose proof Ei as Ei'. apply brackets_iff in Ei as (t & Et & Ht). destruct (short_ranges_parse checks (b ++ $":" ++ c)) as [r|e|] eqn:E.
        * apply short_ranges_language in E. split.
          -- intros X. injection X as <- <- <-. split; [reflexivity|]. exists (a ++ $":"), (b ++ $":" ++ c). split; [now rewrite <- app_assoc|]. split; [assumption|]. split; [|apply in_or_app; right; now left].
             exists t. split; [|assumption]. destruct Et as [->| ->]; [now left|right; now rewrite <- !app_assoc].
          -- intros (-> & address & ports & Ea & R & H). destruct (U _ _ _ Ea R H) as (-> & ip' & -> & t' & Et' & Ht'). apply short_ranges_language in E, R. replace x with r by congruence.
             assert (X : ip_parse (strip_brackets a) = Some ip') by (apply brackets_iff; eauto). replace ip' with i by congruence. reflexivity.
        * split; [discriminate|]. intros (_ & address & ports & Ea & R & H). destruct (U _ _ _ Ea R H) as (-> & _). apply short_ranges_language in R. congruence.
        * split; [discriminate|]. intros (_ & address & ports & Ea & R & H). destruct (U _ _ _ Ea R H) as (-> & _). apply short_ranges_language in R. congruence.
      + split; [discriminate|]. intros (_ & address & ports & Ea & R & H). destruct (U _ _ _ Ea R H) as (_ & ip' & -> & t' & Et' & Ht').
        assert (X : ip_parse (strip_brackets a) = Some ip') by (apply brackets_iff; eauto). congruence. }
  assert (NS : forall address ports, ranges_text checks ports x ->
    match ip with None => address = [] | Some ip => (exists t, (address = t ++ $":" \/ address = $"[" ++ t ++ $"]:") /\ ip_text t ip) /\ In (ch ":") ports end -> ~ In (ch "/") (address ++ ports)).
  { intros address ports R H I. apply in_app_iff in I as [I|I]; [|exact (ranges_text_not _ _ _ R I)]. destruct ip as [i|]; [|now subst address].
    destruct H as [(t & Et & Ht) _]. assert (N := ip_text_clean t i (ch "/") Ht (or_intror (or_intror eq_refl))). destruct Et as [->| ->]; rewrite !in_app_iff in I.
    - destruct I as [I|[I|[]]]; [auto|discriminate I].
    - destruct I as [[I|[]]|[I|[I|[I|[]]]]]; [discriminate I|auto|discriminate I|discriminate I]. }
  destruct (split_once_case (ch "/") s) as [[N ->]|(u & v & -> & Nu & ->)]; fold body; (etransitivity; [apply B|]); split.
  - intros (<- & address & ports & -> & R & H). exists address, ports, []. rewrite app_nil_r. auto.
  - intros (address & ports & protocol & -> & R & H & P). destruct pr as [q|].
    + destruct P as (t & -> & _). exfalso. apply N. rewrite !in_app_iff. right. right. left. now left.
    + subst protocol. rewrite app_nil_r in *. split; [reflexivity|]. exists address, ports. auto.
  - intros (<- & address & ports & -> & R & H). exists address, ports, ($"/" ++ v). split; [now rewrite <- app_assoc|]. split; [assumption|]. split; [assumption|]. exists v. split; [reflexivity|]. now apply protocol_iff.
  - intros (address & ports & protocol & E & R & H & P). pose proof (NS _ _ R H) as Ns. destruct pr as [q|].
    + destruct P as (t & -> & P). rewrite app_assoc in E. assert (X : split_once (ch "/") (u ++ ch "/" :: v) = Some (address ++ ports, t)) by (rewrite E; apply split_once_app; exact Ns).
      rewrite split_once_app in X by exact Nu. injection X as -> ->. split; [f_equal; now apply protocol_iff|]. exists address, ports. auto.
    + subst protocol. rewrite app_nil_r in E. exfalso. apply Ns. rewrite <- E. apply in_or_app. right. now left.
Qed.
Print Assumptions short_port_language.

Example short_port_language_case :
  (exists p, short_port_parse true $"[::1]:8080-8089:80-89/sctp" = OOk p) /\ (exists p, short_port_parse true $"127.0.0.1::80" = OOk p) /\
  short_port_parse true $"127.0.0.1:80" = OErr (SPShortRanges (SRRange (RangeInt IntInvalidDigit $"127.0.0.1"))) /\
  short_port_parse true $"1-2:1-3" = OErr (SPShortRanges (SRShortRanges (2, 3))) /\ short_port_parse true $"[127.0.0.1:80:80" = OErr (SPIpAddr $"[127.0.0.1").
Proof. repeat split; try (eexists; vm_compute; reflexivity); vm_compute; reflexivity. Qed.
