(** The parser of IP addresses accepts exactly the texts of [IpSpec]. *)

From Coq Require Import String Ascii List NArith ZArith Bool Lia ZifyBool ZifyN ZifyNat.
Import ListNotations.
From Verif Require Import Base BaseFacts Num NumFacts Regex NumSpec IpModel IpProofs IpSpec.
Open Scope N_scope.

Lemma hex_to_digit : forall c d, to_digit 16 c = Some d <-> in_cls HEX c /\ d = hex_digit c.
Proof.
  intros c d. unfold to_digit, is_digit, between, hex_digit. change (ch "0") with 48. change (ch "9") with 57.
  assert (I : in_cls HEX c <-> 48 <= c <= 57 \/ 97 <= c <= 102 \/ 65 <= c <= 70).
  { unfold in_cls, HEX. cbn [In]. split.
    - intros (a & b & [E|[E|[E|[]]]] & H); inversion E; subst; cbn in *; lia.
    - intros [H|[H|H]]; [exists 48, 57|exists 97, 102|exists 65, 70]; (split; [tauto|exact H]). }
  rewrite I. clear I.
  destruct ((48 <=? c) && (c <=? 57)) eqn:E1.
  - destruct (N.ltb_spec (c - 48) 16); destruct (N.leb_spec c 57); try lia. split; [intros H'; injection H' as <-; split; [lia|reflexivity]|intros [_ ->]; reflexivity].
  - destruct ((97 <=? c) && (c <=? 102)) eqn:E2.
    + destruct (N.ltb_spec (c - 87) 16); destruct (N.leb_spec c 57); destruct (N.leb_spec c 70); try lia. split; [intros H'; injection H' as <-; split; [lia|reflexivity]|intros [_ ->]; reflexivity].
    + destruct ((65 <=? c) && (c <=? 70)) eqn:E3; [|split; [discriminate|intros [H _]; lia]].
      destruct (N.ltb_spec (c - 55) 16); destruct (N.leb_spec c 57); destruct (N.leb_spec c 70); try lia. split; [intros H'; injection H' as <-; split; [lia|reflexivity]|intros [_ ->]; reflexivity].
Qed.
Lemma digit_cls : forall c, in_cls [DIGIT] c <-> is_digit c = true.
Proof.
  intros c. unfold in_cls, is_digit, between. change (ch "0") with 48. change (ch "9") with 57. cbn [In]. split.
  - intros (a & b & [E|[]] & H). inversion E; subst; cbn in *; lia.
  - intros H. exists 48, 57. split; [left; reflexivity|lia].
Qed.
Lemma digits_cls : forall s, all_digits s = true <-> Forall (in_cls [DIGIT]) s.
Proof.
  intros s. unfold all_digits. rewrite forallb_forall, Forall_forall. split; intros H x I; apply digit_cls, H, I.
Qed.
Lemma dec_value_in : forall s, dec_value s = number_in 10 (fun c => c - 48) s.
Proof.
  intros s. unfold dec_value, number_in. generalize 0. induction s as [|c s IH]; intros a; [reflexivity|]. cbn [map value fold_left]. apply IH.
Qed.
Lemma parse_uint_text : forall max s n, parse_uint max s = Ok n <-> uint_text max s n.
Proof.
  intros max s n. rewrite parse_uint_ok. unfold uint_text. split; intros (ds & E & N & D & V & B); exists ds; rewrite <- ?digits_cls, <- ?dec_value_in, ?digits_cls in *; auto.
Qed.
Lemma dec_to_digit : forall c d, to_digit 10 c = Some d <-> in_cls [DIGIT] c /\ d = c - 48.
Proof. intros c d. rewrite to_digit_10, digit_cls. reflexivity. Qed.

Section Radix.
  Context (radix : N) (k : cls) (digit : char -> N) (H : forall c d, to_digit radix c = Some d <-> in_cls k c /\ d = digit c).

  Lemma read_digits_iff : forall s m acc n v rest, read_digits radix m acc s = Some (n, v, rest) <->
    exists p, s = p ++ rest /\ Forall (in_cls k) p /\ not_digit_head radix rest /\ n = List.length p /\ (List.length p <= m)%nat /\
              v = fold_left (fun n c => n * radix + digit c) p acc.
  Proof.
    induction s as [|c s IH]; intros m acc n v rest.
    - assert (X : read_digits radix m acc [] = Some (O, acc, [])) by (destruct m; reflexivity). rewrite X. split.
      + intros E. injection E as <- <- <-. exists []. cbn. repeat split; auto; lia.
      + intros (p & E & _ & _ & -> & _ & ->). symmetry in E. apply app_eq_nil in E as [-> ->]. reflexivity.
    - destruct (to_digit radix c) as [d|] eqn:D.
      + assert (Dc := proj1 (H c d) D). destruct Dc as [Dc ->]. destruct m as [|m]; cbn [read_digits]; rewrite D.
        * split; [discriminate|]. intros (p & E & _ & N & _ & L & _). destruct p; [|cbn in L; lia]. cbn in E. subst rest. cbn in N. congruence.
        * destruct (read_digits radix m (acc * radix + digit c) s) as [[[n' v'] r']|] eqn:R.
          -- apply IH in R as (p & E & F & N & -> & L & V). split.
             ++ intros X. injection X as <- <- <-. exists (c :: p). cbn. subst s. repeat split; auto; lia.
             ++ intros (q & E' & F' & N' & -> & L' & V'). destruct q as [|c' q]; [cbn in E'; subst rest; cbn in N'; congruence|].
                cbn in E'. injection E' as <- E'. assert (X : p = q /\ r' = rest).
                { subst s. clear - H E' F F' N N'. inversion F' as [|? ? _ Fq]; subst. clear F'. revert q E' Fq. induction F as [|x p Hx F IHp]; intros q E' Fq.
                  - destruct Fq as [|y q Hy Fq]; [auto|]. cbn in E'. subst r'. cbn in N. assert (Y := proj2 (H y _) (conj Hy eq_refl)). congruence.
                  - destruct Fq as [|y q Hy Fq].
                    + cbn in E'. subst rest. cbn in N'. assert (Y := proj2 (H x _) (conj Hx eq_refl)). congruence.
                    + cbn in E'. injection E' as -> E'. destruct (IHp q E' Fq) as [-> ->]. auto. }
                destruct X as [-> ->]. cbn. subst v' v. reflexivity.
          -- split; [discriminate|]. intros (q & E' & F' & N' & -> & L' & V'). destruct q as [|c' q]; [cbn in E'; subst rest; cbn in N'; congruence|].
             cbn in E', L'. injection E' as <- E'. inversion F'; subst. assert (X : read_digits radix m (acc * radix + digit c) (q ++ rest) = Some (List.length q, fold_left (fun n c => n * radix + digit c) q (acc * radix + digit c), rest)).
             { apply IH. exists q. repeat split; auto; lia. } congruence.
      + assert (X : read_digits radix m acc (c :: s) = Some (O, acc, c :: s)) by (destruct m; cbn [read_digits]; rewrite D; reflexivity). rewrite X. split.
        * intros E. injection E as <- <- <-. exists []. cbn. repeat split; auto; lia.
        * intros (p & E & F & _ & -> & _ & ->). destruct F as [|y p Hy F]; [cbn in E; now subst rest|]. cbn in E. injection E as <- _.
          assert (Y := proj2 (H c _) (conj Hy eq_refl)). congruence.
  Qed.
End Radix.

Lemma group_bound : forall p, (List.length p <= 4)%nat -> Forall (in_cls HEX) p -> number_in 16 hex_digit p <= 65535.
Proof.
  intros p L F. assert (D : forall c, in_cls HEX c -> hex_digit c <= 15).
  { intros c I. assert (X := proj2 (hex_to_digit c _) (conj I eq_refl)). unfold to_digit in X. destruct (if is_digit c then _ else _); [|discriminate]. destruct (N.ltb_spec n 16); [|discriminate]. injection X as <-. lia. }
  unfold number_in. destruct F as [|a p Ha F]; [cbn; lia|]. destruct F as [|b p Hb F]; [apply D in Ha; cbn; lia|]. destruct F as [|c p Hc F]; [apply D in Ha, Hb; cbn [fold_left]; lia|].
  destruct F as [|d p Hd F]; [apply D in Ha, Hb, Hc; cbn [fold_left]; lia|]. destruct F as [|e p He F]; [apply D in Ha, Hb, Hc, Hd; cbn [fold_left]; lia|]. cbn in L. lia.
Qed.

Lemma read_group_iff : forall s n rest, read_group s = Some (n, rest) <-> exists p, s = p ++ rest /\ group_text p n /\ not_digit_head 16 rest.
Proof.
  intros s n rest. unfold read_group, read_number, group_text. cbn [negb andb]. destruct (read_digits 16 4 0 s) as [[[k v] r]|] eqn:E.
  - apply (read_digits_iff 16 HEX hex_digit hex_to_digit) in E as (p & -> & F & N & -> & L & V). fold (number_in 16 hex_digit p) in V. subst v. split.
    + destruct (Nat.eqb_spec (List.length p) 0); [discriminate|]. destruct (N.leb_spec (number_in 16 hex_digit p) 65535); [|discriminate]. intros X. injection X as <- <-.
      exists p. repeat split; auto; lia.
    + intros (q & E & ((L1 & L2) & F' & ->) & N'). assert (X : read_digits 16 4 0 (p ++ r) = Some (List.length q, number_in 16 hex_digit q, rest)).
      { apply (read_digits_iff 16 HEX hex_digit hex_to_digit). exists q. repeat split; auto. }
      assert (Y : read_digits 16 4 0 (p ++ r) = Some (List.length p, number_in 16 hex_digit p, r)).
      { apply (read_digits_iff 16 HEX hex_digit hex_to_digit). exists p. repeat split; auto. }
      rewrite X in Y. injection Y as Y1 Y2 Y3. destruct (Nat.eqb_spec (List.length p) 0); [lia|]. destruct (N.leb_spec (number_in 16 hex_digit p) 65535) as [_|Z]; [congruence|].
      pose proof (group_bound p L F). lia.
  - split; [discriminate|]. intros (q & -> & ((L1 & L2) & F' & ->) & N'). assert (X : read_digits 16 4 0 (q ++ rest) = Some (List.length q, number_in 16 hex_digit q, rest)).
    { apply (read_digits_iff 16 HEX hex_digit hex_to_digit). exists q. repeat split; auto. } congruence.
Qed.

Lemma octet_length : forall s n, octet_text s n -> (1 <= List.length s <= 3)%nat.
Proof.
  intros s n (N & F & Z & -> & B). split; [destruct s; [congruence|cbn; lia]|]. destruct F as [|a p Ha F]; [cbn; lia|]. destruct F as [|b p Hb F]; [cbn; lia|].
  destruct F as [|c p Hc F]; [cbn; lia|]. destruct F as [|d p Hd F]; [cbn; lia|]. exfalso.
  assert (a <> 48) by (intros ->; specialize (Z _ eq_refl); discriminate). apply digit_cls in Ha. unfold is_digit, between in Ha. change (ch "0") with 48 in Ha. change (ch "9") with 57 in Ha.
  unfold number_in in B. cbn [fold_left] in B. assert (G : forall l x, x <= fold_left (fun n c => n * 10 + (c - 48)) l x).
  { induction l as [|y l IH]; intros x; cbn [fold_left]; [lia|]. specialize (IH (x * 10 + (y - 48))). lia. }
  match type of B with fold_left _ _ ?x <= _ => specialize (G p x); assert (255 < x) by lia end. lia.
Qed.
Lemma read_octet_iff : forall s n rest, read_octet s = Some (n, rest) <-> exists p, s = p ++ rest /\ octet_text p n /\ not_digit_head 10 rest.
Proof.
  intros s n rest. unfold read_octet, read_number. cbn [negb andb]. destruct (read_digits 10 3 0 s) as [[[k v] r]|] eqn:E.
  - apply (read_digits_iff 10 [DIGIT] (fun c => c - 48) dec_to_digit) in E as (p & -> & F & N & -> & L & V). fold (number_in 10 (fun c => c - 48) p) in V. subst v. split.
    + destruct (Nat.eqb_spec (List.length p) 0) as [|Np]; [discriminate|].
      destruct (match p ++ r with [] => false | c :: _ => c =? 48 end && Nat.ltb 1 (List.length p)) eqn:Z; [discriminate|].
      destruct (N.leb_spec (number_in 10 (fun c => c - 48) p) 255); [|discriminate]. intros X. injection X as <- <-. exists p. split; [reflexivity|]. split; [|assumption].
      repeat split; auto; [destruct p; [cbn in Np; lia|discriminate]|]. intros q ->. cbn in Z. destruct q; [reflexivity|discriminate].
    + intros (q & E & O & N'). pose proof (octet_length _ _ O) as [L1 L2]. destruct O as (Nq & F' & Z & -> & B). assert (X : read_digits 10 3 0 (p ++ r) = Some (List.length q, number_in 10 (fun c => c - 48) q, rest)).
      { apply (read_digits_iff 10 [DIGIT] (fun c => c - 48) dec_to_digit). exists q. repeat split; auto. }
      assert (Y : read_digits 10 3 0 (p ++ r) = Some (List.length p, number_in 10 (fun c => c - 48) p, r)).
      { apply (read_digits_iff 10 [DIGIT] (fun c => c - 48) dec_to_digit). exists p. repeat split; auto. }
      rewrite X in Y. injection Y as Y1 Y2 Y3. destruct (Nat.eqb_spec (List.length p) 0); [lia|].
      assert (Zz : match p ++ r with [] => false | c :: _ => c =? 48 end && Nat.ltb 1 (List.length p) = false).
      { rewrite E, <- Y1. destruct q as [|x q]; [congruence|]. cbn [app]. destruct (N.eqb_spec x 48) as [->|]; [|reflexivity]. rewrite (Z q eq_refl). reflexivity. }
      rewrite Zz. destruct (N.leb_spec (number_in 10 (fun c => c - 48) p) 255); [congruence|lia].
  - split; [discriminate|]. intros (q & -> & O & N'). pose proof (octet_length _ _ O) as [L1 L2]. destruct O as (Nq & F' & Z & -> & B).
    assert (X : read_digits 10 3 0 (q ++ rest) = Some (List.length q, number_in 10 (fun c => c - 48) q, rest)).
    { apply (read_digits_iff 10 [DIGIT] (fun c => c - 48) dec_to_digit). exists q. repeat split; auto. } congruence.
Qed.

Lemma read_given_iff : forall c s r, read_given_char c s = Some r <-> s = c :: r.
Proof. intros c [|x s] r; cbn; [split; discriminate|]. destruct (N.eqb_spec x c) as [->|N]; split; intros E; try discriminate; injection E; congruence. Qed.
Lemma read_sep_iff : forall {A} c (inner : str -> option (A * str)) s x, read_separator c false inner s = Some x <-> exists r, s = c :: r /\ inner r = Some x.
Proof.
  intros A c inner s x. unfold read_separator. destruct (read_given_char c s) as [r|] eqn:E.
  - apply read_given_iff in E. subst s. split; [eauto|]. intros (r' & E & H). injection E as <-. exact H.
  - split; [discriminate|]. intros (r & -> & _). cbn in E. rewrite N.eqb_refl in E. discriminate.
Qed.
Lemma read_ipv4_iff : forall s q rest, read_ipv4 s = Some (q, rest) <-> exists p, s = p ++ rest /\ ipv4_text p q /\ not_digit_head 10 rest.
Proof.
  intros s [[[a b] c] d] rest. unfold read_ipv4. change (read_separator (ch ".") true read_octet s) with (read_octet s). split.
  - destruct (read_octet s) as [[a' s1]|] eqn:E1; [|discriminate]. apply read_octet_iff in E1 as (p1 & -> & O1 & _).
    destruct (read_separator (ch ".") false read_octet s1) as [[b' s2]|] eqn:E2; [|discriminate]. apply read_sep_iff in E2 as (r1 & -> & E2). apply read_octet_iff in E2 as (p2 & -> & O2 & _).
    destruct (read_separator (ch ".") false read_octet s2) as [[c' s3]|] eqn:E3; [|discriminate]. apply read_sep_iff in E3 as (r2 & -> & E3). apply read_octet_iff in E3 as (p3 & -> & O3 & _).
    destruct (read_separator (ch ".") false read_octet s3) as [[d' s4]|] eqn:E4; [|discriminate]. apply read_sep_iff in E4 as (r3 & -> & E4). apply read_octet_iff in E4 as (p4 & -> & O4 & N4).
    intros X. injection X as -> -> -> -> ->. exists (p1 ++ $"." ++ p2 ++ $"." ++ p3 ++ $"." ++ p4). split; [now rewrite <- !app_assoc|]. split; [|assumption]. exists p1, p2, p3, p4. auto.
  - intros (p & -> & (p1 & p2 & p3 & p4 & -> & O1 & O2 & O3 & O4) & N). rewrite <- !app_assoc.
    assert (E1 : read_octet (p1 ++ $"." ++ p2 ++ $"." ++ p3 ++ $"." ++ p4 ++ rest) = Some (a, $"." ++ p2 ++ $"." ++ p3 ++ $"." ++ p4 ++ rest)) by (apply read_octet_iff; exists p1; repeat split; auto; apply O1).
    rewrite E1. assert (E2 : read_octet (p2 ++ $"." ++ p3 ++ $"." ++ p4 ++ rest) = Some (b, $"." ++ p3 ++ $"." ++ p4 ++ rest)) by (apply read_octet_iff; exists p2; repeat split; auto; apply O2).
    change (read_separator (ch ".") false read_octet ($"." ++ p2 ++ $"." ++ p3 ++ $"." ++ p4 ++ rest)) with (read_octet (p2 ++ $"." ++ p3 ++ $"." ++ p4 ++ rest)). rewrite E2.
    assert (E3 : read_octet (p3 ++ $"." ++ p4 ++ rest) = Some (c, $"." ++ p4 ++ rest)) by (apply read_octet_iff; exists p3; repeat split; auto; apply O3).
    change (read_separator (ch ".") false read_octet ($"." ++ p3 ++ $"." ++ p4 ++ rest)) with (read_octet (p3 ++ $"." ++ p4 ++ rest)). rewrite E3.
    assert (E4 : read_octet (p4 ++ rest) = Some (d, rest)) by (apply read_octet_iff; exists p4; repeat split; auto; apply O4).
    change (read_separator (ch ".") false read_octet ($"." ++ p4 ++ rest)) with (read_octet (p4 ++ rest)). rewrite E4. reflexivity.
Qed.

(** An IPv4 address starts with digits and a dot. *)
Lemma ipv4_not_group : forall g n r, group_text g n -> match r with [] => True | c :: _ => c = ch ":" end -> read_ipv4 (g ++ r) = None.
Proof.
  intros g n r (_ & F & _) R. destruct (read_ipv4 (g ++ r)) as [[q rest]|] eqn:E; [exfalso|reflexivity].
  apply read_ipv4_dot in E as (p & q' & E & P). revert p E P. induction F as [|c g Hc F IH]; intros p E P.
  - cbn in E. subst r. destruct p as [|x p]; cbn in R; [discriminate R|]. inversion P; subst. discriminate (H1 eq_refl) || (apply H1; reflexivity).
  - destruct p as [|x p]; cbn in E; injection E as E1 E2.
    + subst c. unfold in_cls, HEX in Hc. cbn [In] in Hc. destruct Hc as (a & b & [X|[X|[X|[]]]] & Y); inversion X; subst; cbn in Y; lia.
    + subst x. inversion P; subst. exact (IH p E2 H2).
Qed.

Lemma read_groups_sound : forall limit first s l dotted rest, read_groups limit first s = (l, dotted, rest) ->
  (l = [] /\ dotted = false /\ rest = s) \/
  (exists t, s = (if first then t else ch ":" :: t) ++ rest /\ groups_text t l dotted /\ (List.length l <= limit)%nat).
Proof.
  induction limit as [|limit IH]; intros first s l dotted rest H; cbn [read_groups] in H; [injection H as <- <- <-; auto|].
  assert (G : forall l dotted rest,
    match read_separator (ch ":") first read_group s with
    | Some (g, r) => let '(gs, v4, rest) := read_groups limit false r in (g :: gs, v4, rest)
    | None => ([], false, s)
    end = (l, dotted, rest) -> (l = [] /\ dotted = false /\ rest = s) \/
      (exists t, s = (if first then t else ch ":" :: t) ++ rest /\ groups_text t l dotted /\ (List.length l <= S limit)%nat)).
  { clear H l dotted rest. intros l dotted rest H. destruct (read_separator (ch ":") first read_group s) as [[g r]|] eqn:E; [|injection H as <- <- <-; auto].
    destruct (read_groups limit false r) as [[gs v4] rest'] eqn:R. injection H as <- <- <-. right.
    assert (E' : exists t, s = (if first then t else ch ":" :: t) ++ r /\ group_text t g).
    { destruct first.
      - cbn [read_separator] in E. apply read_group_iff in E as (p & -> & Gp & _). eauto.
      - apply read_sep_iff in E as (r' & -> & E). apply read_group_iff in E as (p & -> & Gp & _). exists p. auto. }
    destruct E' as (t & -> & Gt). apply IH in R as [(-> & -> & ->)|(t' & -> & Gt' & L)].
    - exists t. split; [reflexivity|]. split; [now constructor|cbn; lia].
    - exists (t ++ $":" ++ t'). split; [destruct first; cbn [app]; rewrite <- !app_assoc; reflexivity|]. split; [now constructor|cbn; lia]. }
  destruct limit as [|limit']; [now apply G|]. destruct (read_separator (ch ":") first read_ipv4 s) as [[[[[a b] c] d] r]|] eqn:E; [|now apply G].
  injection H as <- <- <-. right. destruct first.
  - cbn [read_separator] in E. apply read_ipv4_iff in E as (p & -> & Gp & _). exists p. split; [reflexivity|]. split; [now constructor|cbn; lia].
  - apply read_sep_iff in E as (r' & -> & E). apply read_ipv4_iff in E as (p & -> & Gp & _). exists p. split; [reflexivity|]. split; [now constructor|cbn; lia].
Qed.

Lemma groups_nonempty : forall t l d, groups_text t l d -> l <> [].
Proof. intros t l d H. inversion H; discriminate. Qed.
Lemma group_head : forall g n r, group_text g n -> match r with [] => True | c :: _ => c = ch ":" end -> read_group (g ++ r) = Some (n, r).
Proof. intros g n r G R. apply read_group_iff. exists g. split; [reflexivity|]. split; [assumption|]. destruct r as [|c r]; [exact I|]. subst c. reflexivity. Qed.
Lemma read_stop : forall limit rest, groups_end rest -> read_groups limit false rest = ([], false, rest).
Proof. intros limit rest [->|[q ->]]; destruct limit as [|[|limit]]; reflexivity. Qed.
Lemma read_groups_complete : forall t l dotted, groups_text t l dotted -> forall limit (first : bool) rest, (List.length l <= limit)%nat -> (dotted = true -> rest = []) -> groups_end rest ->
  read_groups limit first ((if first then t else ch ":" :: t) ++ rest) = (l, dotted, rest).
Proof.
  intros t l dotted H. induction H as [s n G|s a b c d G|s n t l dotted G H IH]; intros limit first rest L D E.
  - destruct limit as [|limit]; [cbn in L; lia|]. cbn [read_groups].
    assert (R : match rest with [] => True | c :: _ => c = ch ":" end) by (destruct E as [->|[q ->]]; [exact I|reflexivity]).
    assert (E4 : read_separator (ch ":") first read_ipv4 ((if first then s else ch ":" :: s) ++ rest) = None).
    { destruct first; [cbn [read_separator]|change (read_ipv4 (s ++ rest) = None)]; exact (ipv4_not_group s n rest G R). }
    assert (Eg : read_separator (ch ":") first read_group ((if first then s else ch ":" :: s) ++ rest) = Some (n, rest)).
    { destruct first; [cbn [read_separator]|change (read_group (s ++ rest) = Some (n, rest))]; exact (group_head s n rest G R). }
    rewrite E4, Eg, (read_stop limit rest E). destruct limit; reflexivity.
  - destruct limit as [|[|limit]]; [cbn in L; lia|cbn in L; lia|]. cbn [read_groups]. rewrite (D eq_refl), app_nil_r.
    assert (E4 : read_separator (ch ":") first read_ipv4 (if first then s else ch ":" :: s) = Some ((a, b, c, d), [])).
    { assert (X : read_ipv4 s = Some ((a, b, c, d), [])) by (apply read_ipv4_iff; exists s; rewrite app_nil_r; repeat split; auto).
      destruct first; [cbn [read_separator]|change (read_ipv4 s = Some ((a, b, c, d), []))]; exact X. }
    rewrite E4. reflexivity.
  - destruct limit as [|limit]; [cbn in L; lia|]. cbn [List.length] in L. cbn [read_groups].
    replace ((if first then s ++ $":" ++ t else ch ":" :: s ++ $":" ++ t) ++ rest) with ((if first then s else ch ":" :: s) ++ ((ch ":" :: t) ++ rest)) by (destruct first; cbn [app]; rewrite <- !app_assoc; reflexivity).
    assert (E4 : read_separator (ch ":") first read_ipv4 ((if first then s else ch ":" :: s) ++ ((ch ":" :: t) ++ rest)) = None).
    { destruct first; [cbn [read_separator]|change (read_ipv4 (s ++ (ch ":" :: t) ++ rest) = None)]; exact (ipv4_not_group s n ((ch ":" :: t) ++ rest) G eq_refl). }
    assert (Eg : read_separator (ch ":") first read_group ((if first then s else ch ":" :: s) ++ ((ch ":" :: t) ++ rest)) = Some (n, (ch ":" :: t) ++ rest)).
    { destruct first; [cbn [read_separator]|change (read_group (s ++ (ch ":" :: t) ++ rest) = Some (n, (ch ":" :: t) ++ rest))]; exact (group_head s n ((ch ":" :: t) ++ rest) G eq_refl). }
    rewrite E4, Eg. assert (X := IH limit false rest ltac:(lia) D E). cbv iota in X. rewrite X. destruct limit; reflexivity.
Qed.
Lemma read_some_complete : forall t l dotted limit rest, some_groups t l dotted -> (List.length l <= limit)%nat -> (dotted = true -> rest = []) -> groups_end rest ->
  read_groups limit true (t ++ rest) = (l, dotted, rest).
Proof.
  intros t l dotted limit rest [(-> & -> & ->)|H] L D E; [apply read_first_empty; exact E|]. exact (read_groups_complete t l dotted H limit true rest L D E).
Qed.
Lemma read_some_sound : forall limit s l dotted rest, read_groups limit true s = (l, dotted, rest) ->
  exists t, s = t ++ rest /\ some_groups t l dotted /\ (List.length l <= limit)%nat.
Proof.
  intros limit s l dotted rest H. apply read_groups_sound in H as [(-> & -> & ->)|(t & -> & G & L)].
  - exists []. split; [reflexivity|]. split; [left; auto|cbn; lia].
  - exists t. split; [reflexivity|]. split; [now right|assumption].
Qed.

Lemma ipv6_iff : forall s l, read_ipv6 s = Some (l, []) <-> ipv6_text s l.
Proof.
  intros s l. unfold read_ipv6, ipv6_text. split.
  - destruct (read_groups 8 true s) as [[hs hd] r] eqn:E. apply read_some_sound in E as (h & -> & G & L).
    destruct (Nat.eqb_spec (List.length hs) 8) as [E8|N8].
    + intros X. injection X as -> ->. left. rewrite app_nil_r. split; [|assumption]. destruct G as [(_ & -> & _)|G]; [discriminate|eauto].
    + destruct hd; [discriminate|]. destruct (read_given_char (ch ":") r) as [r1|] eqn:E1; [|discriminate]. apply read_given_iff in E1. subst r.
      destruct (read_given_char (ch ":") r1) as [r2|] eqn:E2; [|discriminate]. apply read_given_iff in E2. subst r1.
      destruct (read_groups (7 - List.length hs) true r2) as [[ts td] r3] eqn:E3. apply read_some_sound in E3 as (t & -> & Gt & Lt). intros X. injection X as <- ->.
      right. exists h, t, hs, ts, td. rewrite app_nil_r. repeat split; auto. lia.
  - intros [((d & G) & E8)|(h & t & hs & ts & d & -> & Gh & Gt & L & ->)].
    + rewrite <- (app_nil_r s). rewrite (read_groups_complete s l d G 8 true []); [|lia|reflexivity|now left]. rewrite E8. reflexivity.
    + rewrite (read_some_complete h hs false 8 ($"::" ++ t)); [|assumption|lia|discriminate|right; eexists; reflexivity].
      destruct (Nat.eqb_spec (List.length hs) 8); [lia|]. cbn [app]. rewrite !read_colon || idtac.
      change (read_given_char (ch ":") ($"::" ++ t)) with (Some ($":" ++ t)). change (read_given_char (ch ":") ($":" ++ t)) with (Some t). cbv iota beta.
      change (read_given_char (ch ":") (of_string ":" ++ t)) with (Some t). cbv iota.
      assert (X := read_some_complete t ts d (7 - List.length hs) [] Gt ltac:(lia) (fun _ => eq_refl) (or_introl eq_refl)). rewrite app_nil_r in X. rewrite X. reflexivity.
Qed.

Lemma ipv4_no_colon : forall s q, ipv4_text s q -> ~ In (ch ":") s.
Proof.
  intros s [[[a b] c] d] (p1 & p2 & p3 & p4 & -> & O1 & O2 & O3 & O4) I.
  assert (X : forall p n, octet_text p n -> ~ In (ch ":") p).
  { intros p n (_ & F & _) J. rewrite Forall_forall in F. apply F in J. apply digit_cls in J. discriminate. }
  rewrite !in_app_iff in I. destruct I as [I|[[I|[]]|[I|[[I|[]]|[I|[[I|[]]|I]]]]]]; first [discriminate I|exact (X _ _ O1 I)|exact (X _ _ O2 I)|exact (X _ _ O3 I)|exact (X _ _ O4 I)].
Qed.
Lemma ip_parse_iff : forall s ip, ip_parse s = Some ip <-> ip_text s ip.
Proof.
  assert (N6 : forall s l, ipv6_text s l -> read_ipv4 s = None).
  { assert (H : forall t l d rest, groups_text t l d -> (List.length l > 2)%nat \/ d = false -> match rest with [] => True | c :: _ => c = ch ":" end -> read_ipv4 (t ++ rest) = None).
    { intros t l d rest G. destruct G as [s n G|s a b c d G|s n t l d G G']; intros C R.
      - exact (ipv4_not_group s n rest G R).
      - cbn in C. destruct C as [C|C]; [lia|discriminate].
      - rewrite <- app_assoc. exact (ipv4_not_group s n ((ch ":" :: t) ++ rest) G eq_refl). }
    intros s l [((d & G) & E8)|(h & t & hs & ts & d & -> & Gh & Gt & L & ->)].
    - rewrite <- (app_nil_r s). apply (H s l d []); [assumption|left; lia|exact I].
    - destruct Gh as [(-> & _)|Gh]; [reflexivity|]. apply (H h hs false _ Gh); [now right|reflexivity]. }
  intros s ip. unfold ip_parse. destruct (read_ipv4 s) as [[[[[a b] c] d] r]|] eqn:E.
  - pose proof E as E'. apply read_ipv4_iff in E as (p & -> & G & Nr). destruct r as [|x r].
    + rewrite app_nil_r in *. split; [intros H; injection H as <-; exact G|]. destruct ip as [a' b' c' d'|l]; cbn [ip_text]; intros H.
      * assert (X : read_ipv4 p = Some ((a', b', c', d'), [])) by (apply read_ipv4_iff; exists p; rewrite app_nil_r; auto). congruence.
      * apply N6 in H. congruence.
    + split; [discriminate|]. destruct ip as [a' b' c' d'|l]; cbn [ip_text]; intros H; [|apply N6 in H; congruence].
      assert (X : read_ipv4 (p ++ x :: r) = Some ((a', b', c', d'), [])) by (apply read_ipv4_iff; exists (p ++ x :: r); rewrite app_nil_r; repeat split; auto). congruence.
  - assert (X : forall a b c d, ~ ipv4_text s (a, b, c, d)).
    { intros a b c d G. assert (Y : read_ipv4 s = Some ((a, b, c, d), [])) by (apply read_ipv4_iff; exists s; rewrite app_nil_r; repeat split; auto). congruence. }
    destruct ip as [a b c d|l]; cbn [ip_text].
    + split; [|intros G; elim (X _ _ _ _ G)]. destruct (read_ipv6 s) as [[l [|x r]]|]; discriminate.
    + rewrite <- ipv6_iff. destruct (read_ipv6 s) as [[l' [|x r]]|]; split; intros H; congruence.
Qed.
