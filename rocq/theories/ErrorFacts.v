(** Lemmas for [PropsErrors]. *)

From Coq Require Import String Ascii List NArith Bool Lia ZifyBool ZifyN ZifyNat.
Import ListNotations.
From Verif Require Import Base BaseFacts Num NumFacts Regex RegexFacts KeysModel KeysSpec KeysProofs ErrorSpec.
Open Scope N_scope.

(** ** Integers *)

Lemma digit_iff : forall base c d, to_digit base c = Some d <-> digit base c d.
Proof.
  intros base c d. unfold to_digit. split.
  - destruct (is_digit c) eqn:D; [|destruct (between 97 102 c) eqn:L; [|destruct (between 65 70 c) eqn:U; [|discriminate]]].
    + destruct (c - 48 <? base) eqn:B; [|discriminate]. intros H. injection H as <-. change 48 with (ch "0"). apply digit_dec; [|change (ch "0") with 48; lia].
      exists 48, 57. split; [now left|]. unfold is_digit, between in D. change (ch "0") with 48 in D. change (ch "9") with 57 in D. lia.
    + destruct (c - 87 <? base) eqn:B; [|discriminate]. intros H. injection H as <-. unfold between in L. replace (c - 87) with (c - ch "a" + 10) in * by (change (ch "a") with 97; lia).
      apply digit_low; [|lia]. exists 97, 102. split; [now left|lia].
    + destruct (c - 55 <? base) eqn:B; [|discriminate]. intros H. injection H as <-. unfold between in U. replace (c - 55) with (c - ch "A" + 10) in * by (change (ch "A") with 65; lia).
      apply digit_up; [|lia]. exists 65, 70. split; [now left|lia].
  - intros H. unfold is_digit. change (ch "0") with 48. change (ch "9") with 57.
    destruct H as [c (a & b & [E|[]] & I) B|c (a & b & [E|[]] & I) B|c (a & b & [E|[]] & I) B]; injection E as <- <-;
      [change (ch "0") with 48 in *; change (ch "9") with 57 in *|change (ch "a") with 97 in *; change (ch "f") with 102 in *|change (ch "A") with 65 in *; change (ch "F") with 70 in *]; unfold between.
    + replace ((48 <=? c) && (c <=? 57)) with true by lia. replace (c - 48 <? base) with true by lia. reflexivity.
    + replace ((48 <=? c) && (c <=? 57)) with false by lia. replace ((97 <=? c) && (c <=? 102)) with true by lia. replace (c - 87) with (c - 97 + 10) by lia.
      replace (c - 97 + 10 <? base) with true by lia. reflexivity.
    + replace ((48 <=? c) && (c <=? 57)) with false by lia. replace ((97 <=? c) && (c <=? 102)) with false by lia. replace ((65 <=? c) && (c <=? 70)) with true by lia.
      replace (c - 55) with (c - 65 + 10) by lia. replace (c - 65 + 10 <? base) with true by lia. reflexivity.
Qed.
Lemma digit_none : forall base c, to_digit base c = None <-> forall d, ~ digit base c d.
Proof.
  intros base c. split.
  - intros H d D. apply digit_iff in D. congruence.
  - intros H. destruct (to_digit base c) as [d|] eqn:E; [|reflexivity]. apply digit_iff in E. now apply H in E.
Qed.
Lemma numeral_app : forall base s t n, numeral base s n -> forall m, numeral base (s ++ t) m <-> exists ds, Forall2 (fun c d => to_digit base c = Some d) t ds /\ m = fold_left (fun a d => a * base + d) ds n.
Proof.
  intros base s t. revert s. induction t as [|c t IH] using rev_ind; intros s n H m.
  - rewrite app_nil_r. split.
    + intros H'. exists []. split; [constructor|]. cbn. clear - H H'. revert n H. induction H' as [|s n' c d H' IH D]; intros n H.
      * inversion H as [|x ? y ? ? ? E]; [reflexivity|]. destruct x; discriminate.
      * inversion H as [E|x m y e X Y E]; [destruct s; discriminate|]. apply app_inj_tail in E as [-> ->]. rewrite (IH _ X). apply digit_iff in D, Y. congruence.
    + intros (ds & F & ->). inversion F; subst. exact H.
  - rewrite app_assoc. split.
    + intros X. inversion X as [E|x k y e X' Y E]; [destruct (s ++ t); discriminate|]. apply app_inj_tail in E as [-> ->]. apply (IH s n H) in X' as (ds & F & ->).
      exists (ds ++ [e]). split; [apply Forall2_app; [exact F|constructor; [now apply digit_iff|constructor]]|]. rewrite fold_left_app. reflexivity.
    + intros (ds & F & ->). apply Forall2_app_inv_l in F as (d1 & d2 & F1 & F2 & ->). inversion F2 as [|? e ? l E F3]; subst. inversion F3; subst.
      rewrite fold_left_app. cbn. constructor; [apply (IH s n H); eauto|now apply digit_iff].
Qed.
Lemma numeral_fun : forall base s n m, numeral base s n -> numeral base s m -> n = m.
Proof. intros base s n m H H'. rewrite <- (app_nil_r s) in H'. apply (numeral_app base s [] n H) in H' as (ds & F & ->). inversion F; subst. reflexivity. Qed.

Lemma accumulate_iff : forall base max over s acc pre r, 1 <= base -> numeral base pre acc -> acc <= max -> (accumulate base max over s acc = r <->
  (exists n, r = Ok n /\ numeral base (pre ++ s) n /\ n <= max) \/
  (exists a c b n, s = a ++ c :: b /\ numeral base (pre ++ a) n /\ n <= max /\
     ((r = Err IntInvalidDigit /\ forall d, ~ digit base c d) \/ (r = Err over /\ exists d, digit base c d /\ max < n * base + d)))).
Proof.
  intros base max over s. induction s as [|x s IH]; intros acc pre r B H L; cbn [accumulate].
  - rewrite app_nil_r. split.
    + intros <-. left. exists acc. auto.
    + intros [(n & -> & N & _)|(a & c & b & n & E & _)]; [|destruct a; discriminate]. f_equal. exact (numeral_fun _ _ _ _ H N).
  - destruct (to_digit base x) as [d|] eqn:D.
    + apply digit_iff in D. assert (H' : numeral base (pre ++ [x]) (acc * base + d)) by (now constructor).
      destruct (acc * base + d <=? max) eqn:M.
      * rewrite (IH (acc * base + d) (pre ++ [x]) r B H') by lia. rewrite <- app_assoc. cbn [app]. apply or_iff_compat_l. split.
        -- intros (a & c & b & n & -> & N & Y). exists (x :: a), c, b, n. rewrite <- app_assoc in N. auto.
        -- intros (a & c & b & n & E & N & Ln & Y). destruct a as [|y a].
           ++ exfalso. injection E as <- <-. rewrite app_nil_r in N. rewrite (numeral_fun _ _ _ _ N H) in *. destruct Y as [[_ Y]|[_ (d' & Y & Z)]]; [now apply (Y d)|].
              apply digit_iff in Y, D. rewrite Y in D. injection D as ->. lia.
           ++ injection E as <- ->. exists a, c, b, n. rewrite <- app_assoc. auto.
      * split.
        -- intros <-. right. exists [], x, s, acc. rewrite app_nil_r. repeat split; auto. right. split; [reflexivity|]. exists d. split; [assumption|lia].
        -- intros [(n & -> & N & Ln)|(a & c & b & n & E & N & Ln & Y)].
           ++ exfalso. replace (pre ++ x :: s) with ((pre ++ [x]) ++ s) in N by (now rewrite <- app_assoc). apply (numeral_app _ _ _ _ H') in N as (ds & F & ->).
              assert (G : forall ds k, k <= fold_left (fun a d => a * base + d) ds k). { clear - B. induction ds as [|d ds IH]; intros k; cbn; [lia|]. specialize (IH (k * base + d)). nia. }
              specialize (G ds (acc * base + d)). lia.
           ++ destruct a as [|y a].
              ** injection E as <- <-. rewrite app_nil_r in N. destruct Y as [[_ Y]|[-> _]]; [now apply Y in D|reflexivity].
              ** exfalso. injection E as <- ->. replace (pre ++ x :: a) with ((pre ++ [x]) ++ a) in N by (now rewrite <- app_assoc). apply (numeral_app _ _ _ _ H') in N as (ds & F & ->).
                 assert (G : forall ds k, k <= fold_left (fun a d => a * base + d) ds k). { clear - B. induction ds as [|d' ds IH]; intros k; cbn; [lia|]. specialize (IH (k * base + d')). nia. }
                 specialize (G ds (acc * base + d)). lia.
    + pose proof (proj1 (digit_none _ _) D) as D0; clear D; rename D0 into D. split.
      * intros <-. right. exists [], x, s, acc. rewrite app_nil_r. repeat split; auto.
      * intros [(n & -> & N & Ln)|(a & c & b & n & E & N & Ln & Y)].
        -- exfalso. apply (numeral_app _ _ _ _ H) in N as (ds & F & _). inversion F as [|? d ? ? X]; subst. apply digit_iff in X. now apply D in X.
        -- destruct a as [|y a].
           ++ injection E as <- <-. destruct Y as [[-> _]|[-> (d & X & _)]]; [reflexivity|now apply D in X].
           ++ exfalso. injection E as <- ->. apply (numeral_app _ _ _ _ H) in N as (ds & F & _). inversion F as [|? d ? ? X]; subst. apply digit_iff in X. now apply D in X.
Qed.

Lemma sign_not_digit : forall base c d, c = 43 \/ c = 45 -> ~ digit base c d.
Proof. intros base c d [->| ->] H; apply digit_iff in H; discriminate. Qed.

Lemma uint_read : forall base max s n, 1 <= base -> (parse_uint_radix base max s = Ok n <-> reads_uint base max s n).
Proof.
  intros base max s n B. assert (Z : 0 <= max) by lia. unfold parse_uint_radix, reads_uint. destruct s as [|c r].
  - split; [discriminate|]. intros (d & [<-|E] & N & _); [congruence|discriminate].
  - assert (A : forall t, accumulate base max IntPosOverflow t 0 = Ok n <-> numeral base t n /\ n <= max).
    { intros t. rewrite (accumulate_iff base max IntPosOverflow t 0 [] (Ok n) B (numeral_nil base) Z). cbn [app]. split.
      - intros [(m & E & X)|(a & x & b & m & _ & _ & _ & [[E _]|[E _]])]; [|discriminate..]. injection E as <-. exact X.
      - intros X. left. exists n. auto. }
    assert (M : forall t, (c = 43 \/ c = 45) -> ~ numeral base (c :: t) n).
    { intros t K X. apply (numeral_app base [] (c :: t) 0 (numeral_nil base)) in X as (ds & F & _). inversion F as [|? d ? ? E]; subst. apply digit_iff in E. now apply sign_not_digit in E. }
    destruct ((c =? 43) || (c =? 45)) eqn:S.
    + assert (K : c = 43 \/ c = 45) by lia. destruct r as [|c' r'].
      * split; [discriminate|]. intros (d & [<-|E] & N & X & _); [now apply M in X|]. injection E as _ <-. congruence.
      * destruct (c =? 43) eqn:P; rewrite A.
        -- assert (c = 43) as -> by lia. split; [intros [X Y]; exists (c' :: r'); repeat split; auto; discriminate|].
           intros (d & [<-|E] & N & X & Y); [now apply M in X|]. injection E as <-. auto.
        -- split; [intros [X _]; now apply M in X|]. intros (d & [<-|E] & N & X & Y); [now apply M in X|]. exfalso. injection E as -> _. discriminate.
    + rewrite A. split; [intros [X Y]; exists (c :: r); repeat split; auto; discriminate|]. intros (d & [<-|E] & N & X & Y); [auto|]. exfalso. injection E as -> _. discriminate.
Qed.
Lemma uint_err : forall base max s e, 1 <= base -> (parse_uint_radix base max s = Err e <-> uint_fails base max s e).
Proof.
  intros base max s e B. assert (Z : 0 <= max) by lia. unfold parse_uint_radix.
  assert (A : forall t, accumulate base max IntPosOverflow t 0 = Err e <-> exists a c b n, t = a ++ c :: b /\ numeral base a n /\ n <= max /\
     ((e = IntInvalidDigit /\ forall d, ~ digit base c d) \/ (e = IntPosOverflow /\ exists d, digit base c d /\ max < n * base + d))).
  { intros t. rewrite (accumulate_iff base max IntPosOverflow t 0 [] (Err e) B (numeral_nil base) Z). cbn [app]. split.
    - intros [(m & E & X)|(a & x & b & m & E & N & L & Y)]; [discriminate|]. exists a, x, b, m. repeat split; auto. destruct Y as [[F Y]|[F Y]]; injection F as ->; auto.
    - intros (a & x & b & m & E & N & L & Y). right. exists a, x, b, m. repeat split; auto. destruct Y as [[-> Y]|[-> Y]]; auto. }
  assert (M : forall c t n, (c = 43 \/ c = 45) -> ~ numeral base (c :: t) n).
  { intros c t n K X. apply (numeral_app base [] (c :: t) 0 (numeral_nil base)) in X as (ds & F & _). inversion F as [|? d ? ? E]; subst. apply digit_iff in E. now apply sign_not_digit in E. }
  split.
  - intros H. destruct s as [|c r]; [injection H as <-; constructor|].
    assert (P : forall sign t, sign = [] /\ (forall x y, t = x :: y -> x <> 43) \/ sign = $"+" -> accumulate base max IntPosOverflow t 0 = Err e -> uint_fails base max (sign ++ t) e).
    { intros sign t S H'. apply A in H' as (a & x & b & n & -> & N & L & [[-> Y]|[-> (d & D & Y)]]).
      - apply (uf_digit base max sign a x b n); auto. destruct S as [[-> S]| ->]; [left|now right]. split; [reflexivity|]. intros ->. exact (S x b eq_refl).
      - apply (uf_overflow base max sign a x b n d); auto. tauto. }
    destruct ((c =? 43) || (c =? 45)) eqn:S.
    + destruct r as [|c' r']; [injection H as <-|].
      * destruct (N.eq_dec c 43) as [->|NE]; [apply uf_sign|]. assert (c = 45) as -> by lia.
        apply (uf_digit base max [] [] 45 [] 0); [left; split; [reflexivity|]; intros _ E; discriminate|constructor|lia|]. intros d. apply sign_not_digit. now right.
      * destruct (c =? 43) eqn:P43; [assert (c = 43) as -> by lia; exact (P $"+" (c' :: r') (or_intror eq_refl) H)|].
        apply (P [] (c :: c' :: r')); [left; split; [reflexivity|]; intros x y E; injection E as <- _; lia|exact H].
    + apply (P [] (c :: r)); [left; split; [reflexivity|]; intros x y E; injection E as <- _; lia|exact H].
  - intros H. inversion H as [E|E|sign a c b n S N L D E|sign a c b n d S N L D M' E]; [reflexivity|reflexivity| |].
    + assert (X : accumulate base max IntPosOverflow (a ++ c :: b) 0 = Err IntInvalidDigit). { subst e. apply A. exists a, c, b, n. auto 8. }
      destruct S as [[-> S]| ->]; cbn [app].
      * destruct (a ++ c :: b) as [|x r] eqn:T; [destruct a; discriminate|]. destruct ((x =? 43) || (x =? 45)) eqn:S'; [|exact X].
        destruct r as [|x' r]; [reflexivity|]. destruct (x =? 43) eqn:P; [|exact X]. exfalso. assert (x = 43) as -> by lia.
        destruct a as [|y a]; [injection T as -> _; now apply S|]. injection T as -> _. apply M in N; [exact N|now left].
      * change ($"+" ++ a ++ c :: b) with (43 :: a ++ c :: b). cbn [N.eqb Pos.eqb orb]. destruct (a ++ c :: b); [destruct a; discriminate|exact X].
    + assert (X : accumulate base max IntPosOverflow (a ++ c :: b) 0 = Err IntPosOverflow). { subst e. apply A. exists a, c, b, n. repeat split; auto. right. eauto. }
      destruct S as [->| ->]; cbn [app].
      * destruct (a ++ c :: b) as [|x r] eqn:T; [destruct a; discriminate|]. destruct ((x =? 43) || (x =? 45)) eqn:S'; [|exact X].
        exfalso. assert (K : x = 43 \/ x = 45) by lia. destruct a as [|y a]; [injection T as -> _; now apply sign_not_digit in D|]. injection T as -> _. now apply M in N.
      * change ($"+" ++ a ++ c :: b) with (43 :: a ++ c :: b). cbn [N.eqb Pos.eqb orb]. destruct (a ++ c :: b); [destruct a; discriminate|exact X].
Qed.

(** ** Characters and lists *)

Lemma chars_err : forall {E} p (err : char -> E) k s e, (forall c, p c = in_clsb k c) ->
  (check_chars p err s = Err e <-> exists c, first_outside k s c /\ e = err c).
Proof.
  intros E p err k s e P. rewrite check_chars_err. unfold first_outside. split.
  - intros (a & c & r & -> & A & C & ->). exists c. split; [|reflexivity]. exists a, r. repeat split; [|apply in_clsb_false; now rewrite <- P].
    apply Forall_in_cls. rewrite <- A. clear - P. induction a as [|x a IH]; cbn; [reflexivity|]. now rewrite P, IH.
  - intros (c & (a & r & -> & A & C) & ->). exists a, c, r. repeat split; [|rewrite P; now apply in_clsb_false].
    apply Forall_in_cls in A. rewrite <- A. clear - P. induction a as [|x a IH]; cbn; [reflexivity|]. now rewrite P, IH.
Qed.
Lemma chars_ok : forall {E} p (err : char -> E) k s, (forall c, p c = in_clsb k c) -> (check_chars p err s = Ok tt <-> Forall (in_cls k) s).
Proof.
  intros E p err k s P. rewrite check_chars_ok, Forall_in_cls. replace (forallb (in_clsb k) s) with (forallb p s); [reflexivity|].
  induction s as [|x s IH]; cbn; [reflexivity|]. now rewrite P, IH.
Qed.
Lemma outside_not : forall k s c, first_outside k s c -> ~ Forall (in_cls k) s.
Proof. intros k s c (a & b & -> & _ & N) F. rewrite Forall_app in F. destruct F as [_ F]. now inversion F. Qed.
Lemma outside_or : forall k s, Forall (in_cls k) s \/ exists c, first_outside k s c.
Proof.
  intros k s. induction s as [|x s IH]; [left; constructor|]. destruct (in_clsb k x) eqn:X.
  - apply in_clsb_iff in X. destruct IH as [F|(c & a & b & -> & A & N)]; [left; now constructor|]. right. exists c, (x :: a), b. auto.
  - right. exists x, [], s. apply in_clsb_false in X. auto.
Qed.

Lemma collect_err : forall {E A B} (f : A -> result E B) l e,
  collect f l = Err e <-> first_failing (fun x => exists y, f x = Ok y) (fun x e => f x = Err e) l e.
Proof.
  intros E A B f l e. induction l as [|x l IH]; cbn [collect].
  - split; [discriminate|]. intros (a & y & b & X & _). destruct a; discriminate.
  - destruct (f x) as [y|e'] eqn:X; cbn [bind].
    + destruct (collect f l) as [ys|e'']; cbn [bind]; split.
      * discriminate.
      * intros (a & z & b & Y & F & Z). destruct a as [|x' a]; [injection Y as -> ->; congruence|]. injection Y as -> ->. inversion F; subst.
        assert (W : @Ok E _ ys = Err e) by (apply IH; exists a, z, b; auto). discriminate.
      * intros Q. injection Q as ->. destruct (proj1 IH eq_refl) as (a & z & b & -> & F & Z). exists (x :: a), z, b. repeat split; eauto.
      * intros (a & z & b & Y & F & Z). f_equal. destruct a as [|x' a]; [injection Y as -> ->; congruence|]. injection Y as -> ->. inversion F; subst.
        assert (W : @Err E (list B) e'' = Err e) by (apply IH; exists a, z, b; auto). now injection W.
    + split.
      * intros Q. injection Q as ->. exists [], x, l. auto.
      * intros (a & z & b & Y & F & Z). destruct a as [|x' a]; [injection Y as -> ->; congruence|]. injection Y as -> ->. inversion F as [|? ? [y W]]. congruence.
Qed.
Lemma failing_iff : forall {A E} (g g' : A -> Prop) (f f' : A -> E -> Prop) l e, (forall x, g x <-> g' x) -> (forall x e, f x e <-> f' x e) ->
  (first_failing g f l e <-> first_failing g' f' l e).
Proof.
  intros A E g g' f f' l e G F. unfold first_failing. split; intros (a & x & b & -> & X & Y); exists a, x, b; repeat split; try (now apply F);
    (eapply Forall_impl; [|exact X]; intros; now apply G).
Qed.
Lemma is_unit : forall {E} (r : result E unit), (exists y, r = Ok y) <-> r = Ok tt.
Proof. intros E r. split; [intros [[] H]; exact H|eauto]. Qed.
Lemma map_ok_err : forall {E A B} (f : A -> B) (r : result E A) e, map_ok f r = Err e <-> r = Err e.
Proof. intros E A B f [x|x] e; cbn; split; intros H; try discriminate; exact (f_equal _ H) || (injection H as ->; reflexivity). Qed.
Lemma map_err_err : forall {E F A} (f : E -> F) (r : result E A) e, map_err f r = Err e <-> exists x, r = Err x /\ e = f x.
Proof. intros E F A f [x|x] e; cbn; split; [discriminate|intros (y & H & _); discriminate|intros H; injection H as <-; eauto|intros (y & H & ->); now injection H as ->]. Qed.
Lemma bind_err : forall {E A B} (r : result E A) (f : A -> result E B) e, bind r f = Err e <-> r = Err e \/ exists x, r = Ok x /\ f x = Err e.
Proof. intros E A B [x|x] f e; cbn; split; [eauto|intros [H|(y & H & K)]; [discriminate|now injection H as ->]|intros H; left; now injection H as ->|intros [H|(y & H & K)]; [now injection H as ->|discriminate]]. Qed.
Lemma cut_fun : forall (c : char) a b a' b', a ++ c :: b = a' ++ c :: b' -> ~ In c a -> ~ In c a' -> a = a' /\ b = b'.
Proof.
  intros c a b a' b' E N N'. assert (S : split_once c (a ++ c :: b) = Some (a', b')) by (apply split_once_some; auto). rewrite split_once_app in S by exact N. injection S as -> ->. auto.
Qed.
Lemma not_cut : forall (c : char) s a b, ~ In c s -> s <> a ++ c :: b.
Proof. intros c s a b N ->. apply N. apply in_app_iff. right. now left. Qed.
Lemma numeral_In : forall base s n c, numeral base s n -> In c s -> exists d, digit base c d.
Proof. intros base s n c H. induction H as [|s n x d H IH D]; intros I; [destruct I|]. apply in_app_iff in I as [I|[<-|[]]]; eauto. Qed.
Lemma reads_no_minus : forall base max s n, reads_uint base max s n -> ~ In (ch "-") s.
Proof.
  intros base max s n (d & E & _ & N & _) I. assert (J : In (ch "-") d) by (destruct E as [->| ->]; [exact I|destruct I as [I|I]; [discriminate|exact I]]).
  apply (numeral_In _ _ _ _ N) in J as [x J]. apply sign_not_digit in J; [exact J|now right].
Qed.
