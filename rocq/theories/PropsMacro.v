(** C79-C80: the derive macros. *)

From Coq Require Import String Ascii List NArith Bool Permutation Lia.
Import ListNotations.
From Verif Require Import Base BaseFacts Num Coll PortsModel VolumesModel ValuesModel EqModel Serde Codec EnumModel ScalarCodec CommonCodec ServiceParts ComposeCodec EmptyModel ShortModel MacroModel MacroSpec.
Open Scope N_scope.

Section Facts.
Context {E : Set}.
Variable parse_literal : str -> option E.
Notation gives := (gives parse_literal).

Lemma item_expr_gives : forall t e, item_expr parse_literal t = Ok e <-> gives t e.
Proof.
  intros t e. unfold item_expr, MacroSpec.gives. destruct t as [|x|s|].
  - split; [discriminate|intros [H|(s & H & _)]; discriminate].
  - split; [intros [= ->]; now left|intros [[= ->]|(s & H & _)]; [reflexivity|discriminate]].
  - split.
    + destruct (parse_literal s) as [x|] eqn:P; [|discriminate]. intros [= <-]. right. now exists s.
    + intros [H|(s' & [= <-] & P)]; [discriminate|]. now rewrite P.
  - split; [discriminate|intros [H|(s & H & _)]; discriminate].
Qed.

(** A slot before and after some items: filled by one of them or left as it is. *)
Definition fills {X : Type} (ok : tokens E -> X -> Prop) (n : str) (items : list (str * tokens E)) (a b : option X) : Prop :=
  (~ In n (map fst items) /\ b = a) \/ (a = None /\ exists t x, In (n, t) items /\ ok t x /\ b = Some x).
Definition bare (t : tokens E) (x : unit) : Prop := t = TNothing.
Definition flag (b : bool) : option unit := if b then Some tt else None.
Definition NAMES : list str := [$"short"; $"if_fn"; $"default"].
Definition reads (s : seen) (items : list (str * tokens E)) (s' : seen) : Prop :=
  NoDup (map fst items) /\ incl (map fst items) NAMES /\ fills bare $"short" items (flag (s_short s)) (flag (s_short s')) /\
  fills gives $"if_fn" items (s_if s) (s_if s') /\ fills gives $"default" items (s_default s) (s_default s').

Lemma fills_other : forall {X : Type} (ok : tokens E -> X -> Prop) n m t r a b, n <> m -> fills ok n ((m, t) :: r) a b <-> fills ok n r a b.
Proof.
  intros X ok n m t r a b N. unfold fills. cbn [map fst In]. split.
  - intros [[H1 H2]|(H & u & x & [[= J _]|I] & G)]; [left; split; [tauto|exact H2]|now destruct N|right; eauto 6].
  - intros [[H1 H2]|(H & u & x & I & G)]; [left; split; [intros [J|J]; [now destruct N|tauto]|exact H2]|right; eauto 7].
Qed.
Lemma fills_this : forall {X : Type} (ok : tokens E -> X -> Prop) n t r a b, ~ In n (map fst r) -> fills ok n ((n, t) :: r) a b <-> a = None /\ exists x, ok t x /\ b = Some x.
Proof.
  intros X ok n t r a b N. unfold fills. cbn [map fst In]. split.
  - intros [[H _]|(H & u & x & [[= <-]|I] & G)]; [destruct H; now left|eauto|]. destruct N. apply in_map_iff. now exists (n, u).
  - intros (H & x & G). right. eauto 7.
Qed.
Lemma fills_none : forall {X : Type} (ok : tokens E -> X -> Prop) n r a b, ~ In n (map fst r) -> fills ok n r a b <-> b = a.
Proof.
  intros X ok n r a b N. unfold fills. split; [|tauto]. intros [[_ H]|(_ & t & x & I & _)]; [exact H|]. destruct N. apply in_map_iff. now exists (n, t).
Qed.
Lemma reads_nil : forall s s', reads s [] s' <-> s' = s.
Proof.
  intros [s i d] [s' i' d']. unfold reads. cbn [s_short s_if s_default]. rewrite !fills_none by (intros []). split.
  - intros (_ & _ & S & -> & ->). now destruct s, s'.
  - intros [= -> -> ->]. repeat split; [constructor|intros x []].
Qed.
Lemma str_eqb_neq : forall a b, str_eqb a b = false <-> a <> b.
Proof. intros a b. split; [intros H ->; now rewrite (proj2 (str_eqb_eq b b) eq_refl) in H|]. intros N. destruct (str_eqb a b) eqn:X; [|reflexivity]. apply str_eqb_eq in X. contradiction. Qed.
Lemma read_cons : forall s item items s', (exists s1, read_item parse_literal s item = Ok s1 /\ reads s1 items s') <-> reads s (item :: items) s'.
Proof.
  intros s [n t] items s'.
  assert (K1 : $"short" <> $"if_fn") by discriminate. assert (K2 : $"short" <> $"default") by discriminate. assert (K3 : $"if_fn" <> $"default") by discriminate.
  unfold read_item. destruct (str_eqb n $"short") eqn:N1; [|destruct (str_eqb n $"if_fn") eqn:N2; [|destruct (str_eqb n $"default") eqn:N3]].
  - apply str_eqb_eq in N1. subst n. unfold reads. cbn [map fst]. rewrite (fills_other gives $"if_fn"), (fills_other gives $"default") by congruence. split.
    + intros (s1 & R & D & C & S & I & F). destruct (s_short s) eqn:B; [discriminate|]. destruct t; try discriminate. injection R as <-. cbn [s_short s_if s_default flag] in *.
      assert (Q : ~ In $"short" (map fst items)). { intros Q. destruct S as [[H _]|[H _]]; [contradiction|discriminate]. }
      apply (fills_none bare) in S; [|exact Q]. split; [now constructor|]. split; [intros x [<-|J]; [now left|now apply C]|]. split; [|now split].
      apply fills_this; [exact Q|]. split; [reflexivity|]. exists tt. now split.
    + intros (D & C & S & I & F). inversion D as [|? ? Q D']; subst. apply fills_this in S; [|exact Q]. destruct S as (B & [] & T & S). destruct (s_short s); [discriminate|].
      rewrite T. eexists. split; [reflexivity|]. cbn [s_short s_if s_default]. split; [exact D'|]. split; [intros x J; apply C; now right|]. split; [|now split].
      apply fills_none; [exact Q|exact S].
  - apply str_eqb_eq in N2. subst n. unfold reads. cbn [map fst]. rewrite (fills_other bare), (fills_other gives $"default") by congruence. split.
    + intros (s1 & R & D & C & S & I & F). destruct (s_if s) eqn:B; [discriminate|]. destruct (item_expr parse_literal t) as [e|] eqn:X; [|discriminate]. apply item_expr_gives in X.
      injection R as <-. cbn [s_short s_if s_default] in *.
      assert (Q : ~ In $"if_fn" (map fst items)). { intros Q. destruct I as [[H _]|[H _]]; [contradiction|discriminate]. }
      apply (fills_none gives) in I; [|exact Q]. split; [now constructor|]. split; [intros x [<-|J]; [right; now left|now apply C]|]. split; [exact S|]. split; [|exact F].
      apply fills_this; [exact Q|]. split; [reflexivity|]. exists e. now split.
    + intros (D & C & S & I & F). inversion D as [|? ? Q D']; subst. apply fills_this in I; [|exact Q]. destruct I as (B & e & T & I). apply item_expr_gives in T.
      rewrite B, T. eexists. split; [reflexivity|]. cbn [s_short s_if s_default]. split; [exact D'|]. split; [intros x J; apply C; now right|]. split; [exact S|]. split; [|exact F].
      apply fills_none; [exact Q|exact I].
  - apply str_eqb_eq in N3. subst n. unfold reads. cbn [map fst]. rewrite (fills_other bare), (fills_other gives $"if_fn") by congruence. split.
    + intros (s1 & R & D & C & S & I & F). destruct (s_default s) eqn:B; [discriminate|]. destruct (item_expr parse_literal t) as [e|] eqn:X; [|discriminate]. apply item_expr_gives in X.
      injection R as <-. cbn [s_short s_if s_default] in *.
      assert (Q : ~ In $"default" (map fst items)). { intros Q. destruct F as [[H _]|[H _]]; [contradiction|discriminate]. }
      apply (fills_none gives) in F; [|exact Q]. split; [now constructor|]. split; [intros x [<-|J]; [right; right; now left|now apply C]|]. split; [exact S|]. split; [exact I|].
      apply fills_this; [exact Q|]. split; [reflexivity|]. exists e. now split.
    + intros (D & C & S & I & F). inversion D as [|? ? Q D']; subst. apply fills_this in F; [|exact Q]. destruct F as (B & e & T & F). apply item_expr_gives in T.
      rewrite B, T. eexists. split; [reflexivity|]. cbn [s_short s_if s_default]. split; [exact D'|]. split; [intros x J; apply C; now right|]. split; [exact S|]. split; [exact I|].
      apply fills_none; [exact Q|exact F].
  - split; [intros (s1 & R & _); discriminate|]. intros (_ & C & _). apply str_eqb_neq in N1, N2, N3. exfalso.
    destruct (C n (or_introl eq_refl)) as [J|[J|[J|[]]]]; congruence.
Qed.
Lemma read_items_reads : forall items s s', read_items parse_literal s items = Ok s' <-> reads s items s'.
Proof.
  induction items as [|i items IH]; intros s s'; [rewrite reads_nil; cbn; split; [now intros [= ->]|now intros ->]|].
  rewrite <- read_cons. cbn [read_items]. destruct (read_item parse_literal s i) as [s1|]; cbn [bind].
  - rewrite IH. split; [intros H; now exists s1|intros (s2 & [= <-] & H); exact H].
  - split; [discriminate|intros (s2 & H & _); discriminate].
Qed.
Lemma read_items_app : forall a b s, read_items parse_literal s (a ++ b) = (s <- read_items parse_literal s a ;; read_items parse_literal s b).
Proof. induction a as [|i a IH]; intros b s; [reflexivity|]. cbn [app read_items]. destruct (read_item parse_literal s i) as [s1|]; cbn [bind]; [apply IH|reflexivity]. Qed.
Lemma read_attributes_items : forall l s s', read_attributes parse_literal s l = Ok s' <-> exists items, items_of $"as_short" l items /\ read_items parse_literal s items = Ok s'.
Proof.
  induction l as [|a l IH]; intros s s'.
  - cbn [read_attributes]. split.
    + intros H. exists []. split; [now exists []|exact H].
    + intros (items & (lists & L & ->) & H). destruct lists; [exact H|discriminate].
  - unfold items_of. cbn [read_attributes filter]. destruct (str_eqb (at_name a) $"as_short"); [|apply IH]. cbn [map]. destruct (at_meta a) as [|e|its].
    + split; [discriminate|]. intros (items & (lists & L & _) & _). destruct lists; discriminate.
    + split; [discriminate|]. intros (items & (lists & L & _) & _). destruct lists; discriminate.
    + split.
      * destruct (read_items parse_literal s its) as [s1|] eqn:R; cbn [bind]; [|discriminate]. intros H. apply IH in H as (items & (lists & L & ->) & H).
        exists (its ++ concat lists). split; [exists (its :: lists); cbn [map concat]; now rewrite L|]. rewrite read_items_app, R. exact H.
      * intros (items & ([|q lists] & L & ->) & H); [discriminate|]. cbn [map concat] in *. injection L as <- L. rewrite read_items_app in H.
        destruct (read_items parse_literal s its) as [s1|]; cbn [bind] in *; [|discriminate]. apply IH. exists (concat lists). split; [now exists lists|exact H].
Qed.
Lemma items_of_fun : forall n l (a b : list (str * tokens E)), items_of n l a -> items_of n l b -> a = b.
Proof.
  intros n l a b (x & X & ->) (z & Z & ->). rewrite X in Z. f_equal. revert z Z. clear X. induction x as [|q x IH]; intros [|r z] Z; try discriminate; [reflexivity|].
  injection Z as <- Z. f_equal. now apply IH.
Qed.

(** ** C79: [AsShort] and [FromShort] *)

(** What an attribute says is understood, and nothing else is accepted. *)
Theorem attribute_meaning : forall l,
  (attribute_from_syn parse_literal l = Ok Short <-> says_short l) /\
  (forall i d, attribute_from_syn parse_literal l = Ok (Other i d) <-> says_other parse_literal l i d).
Proof.
  intros l. unfold attribute_from_syn.
  assert (A : forall s', read_attributes parse_literal (mk_seen false None None) l = Ok s' <-> exists items, items_of $"as_short" l items /\ reads (mk_seen false None None) items s').
  { intros s'. rewrite read_attributes_items. split; intros (items & O & R); exists items; (split; [exact O|]); now apply read_items_reads. }
  assert (G : forall items n o, fills gives n items None o <-> item_is parse_literal items n o).
  { intros items n o. unfold fills, item_is. destruct o as [e|].
    - split; [intros [[_ H]|(_ & t & x & I & X & [= ->])]; [discriminate|eauto]|]. intros (t & I & X). right. eauto 6.
    - split; [intros [[H _]|(_ & t & x & _ & _ & H)]; [exact H|discriminate]|]. intros H. now left. }
  split.
  - split.
    + destruct (read_attributes parse_literal (mk_seen false None None) l) as [s|] eqn:R in |- *; cbn [bind]; [|discriminate]. apply A in R as (items & O & D & C & S & I & F).
      cbn [s_short s_if s_default] in *. destruct (s_short s); [|discriminate]. destruct (s_if s); [discriminate|]. destruct (s_default s); [discriminate|]. intros _.
      apply G in I, F. cbn [item_is] in I, F. destruct S as [[_ S]|(_ & t & [] & J & T & _)]; [discriminate|]. unfold bare in T. subst t.
      destruct items as [|[n t] items]; [destruct J|]. cbn [map fst] in *. inversion D as [|? ? Q D']; subst.
      assert (N : n = $"short"). { destruct (C n (or_introl eq_refl)) as [K|[K|[K|[]]]]; [now symmetry|destruct I; now left|destruct F; now left]. } subst n.
      destruct items as [|[m u] items].
      * destruct J as [[= ->]|[]]. exact O.
      * exfalso. destruct (C m (or_intror (or_introl eq_refl))) as [K|[K|[K|[]]]]; [subst m; apply Q; now left|apply I; right; now left|apply F; right; now left].
    + intros O. rewrite (proj2 (A (mk_seen true None None))); [reflexivity|]. exists [($"short", TNothing)]. split; [exact O|]. split; [repeat constructor; intros []|].
      split; [intros x [<-|[]]; now left|]. cbn [s_short s_if s_default flag]. split; [|split; apply G; cbn; intros [K|[]]; discriminate].
      right. split; [reflexivity|]. exists TNothing, tt. split; [now left|]. now split.
  - intros i d. split.
    + destruct (read_attributes parse_literal (mk_seen false None None) l) as [s|] eqn:R in |- *; cbn [bind]; [|discriminate]. apply A in R as (items & O & D & C & S & I & F).
      cbn [s_short s_if s_default] in *. destruct (s_short s); [destruct (s_if s), (s_default s); discriminate|]. intros [= <- <-]. exists items. split; [exact O|]. split; [exact D|].
      split; [|split; now apply G]. destruct S as [[Q _]|(_ & t & [] & _ & _ & K)]; [|discriminate]. intros x J. destruct (C x J) as [K|K]; [subst x; contradiction|exact K].
    + intros (items & O & D & C & I & F). rewrite (proj2 (A (mk_seen false i d))); [reflexivity|]. exists items. split; [exact O|]. split; [exact D|].
      split; [intros x J; right; now apply C|]. cbn [s_short s_if s_default flag]. split; [|split; now apply G]. left. split; [|reflexivity].
      intros J. destruct (C _ J) as [K|[K|[]]]; discriminate.
Qed.

(** So it does not matter how the items are spread over attributes, and in which order. *)
Theorem attribute_order : forall l l' a b m, items_of $"as_short" l a -> items_of $"as_short" l' b -> Permutation a b ->
  attribute_from_syn parse_literal l = Ok m -> attribute_from_syn parse_literal l' = Ok m.
Proof.
  intros l l' a b m A B P H. destruct m as [|i d]; apply attribute_meaning in H; apply attribute_meaning.
  - unfold says_short in *. assert (X := items_of_fun _ _ _ _ A H). subst a. apply Permutation_length_1_inv in P. now subst b.
  - destruct H as (items & O & D & C & I & F). assert (X := items_of_fun _ _ _ _ A O). subst a. assert (Q : Permutation (map fst items) (map fst b)) by now apply Permutation_map.
    assert (G : forall n o, item_is parse_literal items n o -> item_is parse_literal b n o).
    { intros n [e|]; cbn [item_is]; [intros (t & J & X); exists t; split; [now apply (Permutation_in _ P)|exact X]|]. intros N J. apply N. now apply (Permutation_in _ (Permutation_sym Q)). }
    exists b. split; [exact B|]. split; [now apply (Permutation_NoDup Q)|]. split; [intros x J; apply C; now apply (Permutation_in _ (Permutation_sym Q))|]. split; now apply G.
Qed.

Lemma plain_option_type : forall t u, option_type t = Some u <-> plain_option t u.
Proof.
  intros t u. unfold plain_option. split.
  - destruct t as [q l segs|]; cbn [option_type]; [|discriminate]. destruct q; [discriminate|]. destruct segs as [|[n a] [|]]; try discriminate; [|now destruct a as [|[|? [|]]|]].
    destruct a as [|[|g [|]]|]; try discriminate. destruct (str_eqb n $"Option") eqn:X; [|discriminate]. apply str_eqb_eq in X. subst n. destruct g; [|discriminate]. intros [= ->]. now exists l.
  - intros [l ->]. reflexivity.
Qed.
Lemma short_new : forall (f : field E) s, short_is f s <-> says_short (f_attributes f) /\ s = short_field_new (f_name f) (f_type f).
Proof.
  intros f s. unfold short_is, short_field_new. destruct (option_type (f_type f)) as [u|] eqn:O.
  - apply plain_option_type in O. split.
    + intros (S & N & [[T P]|(_ & _ & P)]); [|now destruct (P u)]. split; [exact S|]. apply plain_option_type in O, P. destruct s. cbn in *. congruence.
    + intros (S & ->). split; [exact S|]. split; [reflexivity|]. now left.
  - assert (P : forall u, ~ plain_option (f_type f) u) by (intros u P; apply plain_option_type in P; congruence). split.
    + intros (S & N & [[T Q]|(X & T & _)]); [now destruct (P (sf_type s))|]. split; [exact S|]. destruct s. cbn in *. congruence.
    + intros (S & ->). split; [exact S|]. split; [reflexivity|]. right. now repeat split.
Qed.
Notation others := (Forall2 (other_is parse_literal)).
Lemma sort_some : forall fs s x os, sort_fields parse_literal (Some s) fs = Ok (x, os) <-> x = Some s /\ others fs os.
Proof.
  induction fs as [|f fs IH]; intros s x os; cbn [sort_fields].
  - split; [intros [= <- <-]; now split; [|constructor]|]. intros [-> H]. now inversion H.
  - destruct (attribute_meaning (f_attributes f)) as [MS MO]. destruct (attribute_from_syn parse_literal (f_attributes f)) as [[|i d]|] eqn:M; cbn [bind].
    + split; [discriminate|]. intros [_ H]. inversion H as [|? o ? ? [O _]]; subst. apply MO in O. discriminate.
    + destruct (sort_fields parse_literal (Some s) fs) as [[y ps]|] eqn:R; cbn [bind fst snd].
      * apply IH in R as [-> R]. split.
        -- intros [= <- <-]. split; [reflexivity|]. constructor; [|exact R]. split; [now apply MO|]. now split.
        -- intros [-> H]. inversion H as [|? o ? ? [O [N T]] F]; subst. apply MO in O. injection O as O1 O2. assert (Y : Ok (Some s, ps) = @Ok macro_error _ (Some s, l')).
           { transitivity (sort_fields parse_literal (Some s) fs); [symmetry; apply IH; now split|]. apply IH. now split. }
           injection Y as ->. destruct o. cbn in *. congruence.
      * split; [discriminate|]. intros [-> H]. inversion H as [|? o ? ? O F]; subst. assert (Y : sort_fields parse_literal (Some s) fs = Ok (Some s, l')) by (apply IH; now split). congruence.
    + split; [discriminate|]. intros [_ H]. inversion H as [|? o ? ? [O _]]; subst. apply MO in O. discriminate.
Qed.
Lemma sort_none : forall fs s os, sort_fields parse_literal None fs = Ok (Some s, os) <->
  exists before f after, fs = before ++ f :: after /\ short_is f s /\ others (before ++ after) os.
Proof.
  induction fs as [|f fs IH]; intros s os; cbn [sort_fields].
  - split; [discriminate|]. intros ([|] & g & after & H & _); discriminate.
  - destruct (attribute_meaning (f_attributes f)) as [MS MO]. destruct (attribute_from_syn parse_literal (f_attributes f)) as [[|i d]|] eqn:M; cbn [bind].
    + rewrite sort_some. split.
      * intros [[= ->] H]. exists [], f, fs. split; [reflexivity|]. split; [|exact H]. apply short_new. split; [now apply MS|reflexivity].
      * intros ([|g before] & h & after & X & S & H); cbn [app] in X; injection X as <- ->.
        -- apply short_new in S as [_ ->]. now split.
        -- cbn [app] in H. inversion H as [|? o ? ? [O _]]; subst. apply MO in O. discriminate.
    + split.
      * destruct (sort_fields parse_literal None fs) as [[[y|] ps]|] eqn:R in |- *; cbn [bind fst snd]; try discriminate. intros [= -> <-]. apply IH in R as (before & h & after & -> & S & H).
        exists (f :: before), h, after. split; [reflexivity|]. split; [exact S|]. cbn [app]. constructor; [|exact H]. split; [now apply MO|]. now split.
      * intros ([|g before] & h & after & X & S & H); cbn [app] in X; injection X as <- ->.
        -- apply short_new in S as [S _]. apply MS in S. discriminate.
        -- cbn [app] in H. inversion H as [|? o ? ? [O [N T]] F]; subst. apply MO in O. injection O as -> ->.
           rewrite (proj2 (IH s l')); [|now exists before, h, after]. cbn [bind fst snd]. destruct o. cbn in *. now subst.
    + split; [discriminate|]. intros ([|g before] & h & after & X & S & H); cbn [app] in X; injection X as <- ->.
      * apply short_new in S as [S _]. apply MS in S. discriminate.
      * cbn [app] in H. inversion H as [|? o ? ? [O _]]; subst. apply MO in O. discriminate.
Qed.
(** The macros accept a struct exactly if one field is marked [short] and the others have at most one [if_fn] and one [default], and
    they see what it says. *)
Theorem derive_meaning : forall d i, from_syn parse_literal d = Ok i <-> exists fs, d = Named fs /\ describes parse_literal fs i.
Proof.
  intros [fs|] i; cbn [from_syn].
  - split.
    + destruct (sort_fields parse_literal None fs) as [[[s|] os]|] eqn:R; cbn [bind fst snd]; try discriminate. intros [= <-]. exists fs. split; [reflexivity|]. now apply sort_none in R.
    + intros (gs & [= <-] & D). destruct i as [s os]. rewrite (proj2 (sort_none fs s os)); [reflexivity|exact D].
  - split; [discriminate|]. intros (fs & H & _). discriminate.
Qed.

(** [as_short] gives the short field exactly if every other field passes its test. *)
Theorem as_short_meaning : forall (V : Type) (r : rust V) (i : input (E:=E)) s v, run_as_short r i s = Some v <->
  (forall f, In f (in_others i) -> run_test r (field_test f) (s (o_name f)) = true) /\
  (if sf_optional (in_short i) then r_as_ref V r (s (sf_name (in_short i))) = Some v else s (sf_name (in_short i)) = v).
Proof.
  intros V r i s v. unfold run_as_short, tests.
  assert (A : forallb (fun t => run_test r (snd t) (s (fst t))) (map (fun f : other_field => (o_name f, field_test f)) (in_others i)) = true <->
    forall f, In f (in_others i) -> run_test r (field_test f) (s (o_name f)) = true).
  { rewrite forallb_forall. split; [intros H f J; exact (H (o_name f, field_test f) (in_map _ _ _ J))|]. intros H x J. apply in_map_iff in J as (f & <- & J). now apply H. }
  destruct (forallb _ _).
  - destruct (sf_optional (in_short i)); (split; [intros H; split; [now apply A|congruence]|intros [_ H]; congruence]).
  - split; [discriminate|]. intros [H _]. apply A in H. discriminate.
Qed.
(** Going to the long form and back is the identity if every default passes its test, going to the short form and back if nothing else does. *)
Theorem short_there_and_back : forall (V : Type) (r : rust V) (i : input (E:=E)) s v,
  (forall x, r_as_ref V r (r_some V r x) = Some x) -> (forall f, In f (in_others i) -> run_test r (field_test f) (run_maker r f) = true) ->
  (forall n x, In (n, x) (run_from_short r i v) -> s n = x) -> run_as_short r i s = Some v.
Proof.
  intros V r i s v R T H. apply as_short_meaning. split.
  - intros f J. rewrite (H (o_name f) (run_maker r f)); [now apply T|]. right. now apply (in_map (fun f : other_field => (o_name f, run_maker r f))).
  - rewrite (H _ _ (or_introl eq_refl)). destruct (sf_optional (in_short i)); [apply R|reflexivity].
Qed.
Theorem long_there_and_back : forall (V : Type) (r : rust V) (i : input (E:=E)) s v,
  (forall x y, r_as_ref V r x = Some y -> x = r_some V r y) -> (forall f x, In f (in_others i) -> run_test r (field_test f) x = true -> x = run_maker r f) ->
  run_as_short r i s = Some v -> forall n x, In (n, x) (run_from_short r i v) -> s n = x.
Proof.
  intros V r i s v R T H n x J. apply as_short_meaning in H as [H1 H2]. destruct J as [[= <- <-]|J].
  - destruct (sf_optional (in_short i)); [now apply R|exact H2].
  - apply in_map_iff in J as (f & [= <- <-] & J). now apply T, H1.
Qed.

(** The default test is [Option::is_none] for what is written [Option<_>], [Not::not] for what is written [bool], and [is_empty] of the type otherwise. *)
Theorem default_test : forall f : other_field (E:=E), o_if f = None ->
  (field_test f = IsNone <-> exists u, plain_option (o_type f) u) /\ (field_test f = Not <-> o_type f = TPath false false [($"bool", ANone)]) /\
  (forall t, field_test f = IsEmpty t <-> t = o_type f /\ (forall u, ~ plain_option t u) /\ t <> TPath false false [($"bool", ANone)]) .
Proof.
  intros f I. unfold field_test. rewrite I.
  assert (B : forall t, is_bool t = true <-> t = TPath false false [($"bool", ANone)]).
  { intros t. split; [|now intros ->]. destruct t as [q l segs|]; cbn [is_bool]; [|discriminate]. destruct q, l; try discriminate. destruct segs as [|[n []] [|]]; try discriminate.
    intros H. apply str_eqb_eq in H. now subst n. }
  destruct (option_type (o_type f)) as [u|] eqn:O.
  - apply plain_option_type in O. split; [split; [intros _; now exists u|reflexivity]|]. split.
    + split; [discriminate|]. intros T. destruct O as [l O]. congruence.
    + intros t. split; [discriminate|]. intros (-> & H & _). now destruct (H u).
  - assert (P : forall u, ~ plain_option (o_type f) u) by (intros u P; apply plain_option_type in P; congruence).
    destruct (is_bool (o_type f)) eqn:X.
    + apply B in X. split; [split; [discriminate|intros [u H]; now destruct (P u)]|]. split; [now split|]. intros t. split; [discriminate|]. intros (-> & _ & H). contradiction.
    + assert (X' : o_type f <> TPath false false [($"bool", ANone)]) by (intros H; apply B in H; congruence). split; [split; [discriminate|intros [u H]; now destruct (P u)]|].
      split; [split; [discriminate|contradiction]|]. intros t. split; [intros [= <-]; now repeat split|]. now intros (-> & _).
Qed.

(** The macro accepts a struct whose only field is the short one, but what it generates is not Rust; with more fields it is. *)
Theorem as_short_compiles_iff : forall fs i, from_syn parse_literal (Named fs) = Ok i -> (as_short_compiles i = true <-> (2 <= List.length fs)%nat).
Proof.
  intros fs i H. apply derive_meaning in H as (gs & [= <-] & before & f & after & -> & _ & F). unfold as_short_compiles, tests.
  assert (L : List.length (before ++ after) = List.length (in_others i)). { clear -F. induction F; [reflexivity|]. cbn. now rewrite IHF. }
  rewrite app_length in *. cbn [List.length]. destruct (in_others i) as [|o os]; cbn [map List.length] in *.
  - split; [discriminate|]. intros X. lia.
  - split; [|reflexivity]. intros _. lia.
Qed.
(** ** C80: [Default] and the options of the string macros *)

Lemma default_of_some : forall l e d, default_of (Some e) l = Ok d <-> d = Some e /\ filter (fun a : attribute E => str_eqb (at_name a) $"default") l = [].
Proof.
  induction l as [|a l IH]; intros e d; cbn [default_of filter]; [split; [intros [= <-]; now split|now intros [-> _]]|].
  destruct (str_eqb (at_name a) $"default"); [split; [discriminate|now intros [_ H]]|apply IH].
Qed.
Lemma default_of_meaning : forall l d, default_of None l = Ok d <-> says_default (E:=E) l d.
Proof.
  unfold says_default. induction l as [|a l IH]; intros d; cbn [default_of filter].
  - split; [now intros [= <-]|]. destruct d; [discriminate|reflexivity].
  - destruct (str_eqb (at_name a) $"default"); [|apply IH]. cbn [map]. destruct (at_meta a) as [|e|items].
    + split; [discriminate|]. destruct d; discriminate.
    + rewrite default_of_some. split.
      * intros [-> H]. now rewrite H.
      * destruct d as [x|]; [|discriminate]. intros [= -> H]. split; [reflexivity|]. now destruct (filter _ l).
    + split; [discriminate|]. destruct d; discriminate.
Qed.
(** A struct derives [Default] exactly if it has named fields with at most one [#[default = ...]] each; a field gets that or its type's default. *)
Theorem derive_default_meaning : forall i l, derive_default (E:=E) i = Ok l <->
  exists fs, i = Named fs /\ Forall2 (fun f d => fst d = f_name f /\ says_default (f_attributes f) (snd d)) fs l.
Proof.
  intros [fs|] l; cbn [derive_default].
  - rewrite collect_ok.
    assert (A : forall f d, default_field (E:=E) f = Ok d <-> fst d = f_name f /\ says_default (f_attributes f) (snd d)).
    { intros f [n d]. unfold default_field. cbn [fst snd]. rewrite <- default_of_meaning. destruct (default_of None (f_attributes f)); cbn [map_ok].
      - split; [intros [= <- <-]; now split|]. intros [-> [= ->]]. reflexivity.
      - split; [discriminate|now intros [_ H]]. }
    split.
    + intros H. exists fs. split; [reflexivity|]. induction H; constructor; [now apply A|assumption].
    + intros (gs & [= <-] & H). induction H; constructor; [now apply A|assumption].
  - split; [discriminate|]. intros (fs & H & _). discriminate.
Qed.

Definition not_transparent (i : str * tokens E) : bool := negb (str_eqb (fst i) $"transparent").
Definition plain_transparent (items : list (str * tokens E)) : Prop := forall t, In ($"transparent", t) items -> t = TNothing.
Definition expects (x : option str) (items : list (str * tokens E)) (x' : option str) : Prop :=
  plain_transparent items /\
  ((x' = x /\ filter not_transparent items = []) \/ (x = None /\ exists s, x' = Some s /\ filter not_transparent items = [($"expecting", TLiteral s)])).
Lemma expectings_meaning : forall items x x', read_expectings x items = Ok x' <-> expects x items x'.
Proof.
  induction items as [|[n t] items IH]; intros x x'.
  - cbn [read_expectings]. unfold expects, plain_transparent. cbn [filter]. split.
    + intros [= <-]. split; [intros t []|now left].
    + intros [_ [[-> _]|(_ & s & _ & H)]]; [reflexivity|discriminate].
  - cbn [read_expectings]. unfold read_expecting. destruct (str_eqb n $"expecting") eqn:N1.
    + apply str_eqb_eq in N1. subst n.
      assert (F : filter not_transparent (($"expecting", t) :: items) = ($"expecting", t) :: filter not_transparent items) by reflexivity.
      assert (P : plain_transparent (($"expecting", t) :: items) <-> plain_transparent items).
      { unfold plain_transparent. split; intros H u J; [apply H; now right|]. destruct J as [J|J]; [discriminate|now apply H]. }
      unfold expects. rewrite F. destruct x as [y|].
      * cbn [bind]. split; [discriminate|]. intros [_ [[_ H]|[H _]]]; discriminate.
      * destruct t as [|e|s|]; cbn [bind].
        -- split; [discriminate|]. intros [_ [[_ H]|(_ & s & _ & H)]]; discriminate.
        -- split; [discriminate|]. intros [_ [[_ H]|(_ & s & _ & H)]]; discriminate.
        -- rewrite IH, P. unfold expects. split.
           ++ intros [T [[-> H]|(H & _)]]; [|discriminate]. split; [exact T|]. right. split; [reflexivity|]. exists s. now rewrite H.
           ++ intros [T [[_ H]|(_ & u & -> & H)]]; [discriminate|]. injection H as -> H. split; [exact T|]. now left.
        -- split; [discriminate|]. intros [_ [[_ H]|(_ & s & _ & H)]]; discriminate.
    + destruct (str_eqb n $"transparent") eqn:N2.
      * apply str_eqb_eq in N2. subst n.
        assert (F : filter not_transparent (($"transparent", t) :: items) = filter not_transparent items) by reflexivity.
        assert (P : plain_transparent (($"transparent", t) :: items) <-> t = TNothing /\ plain_transparent items).
        { unfold plain_transparent. split; [intros H; split; [apply H; now left|intros u J; apply H; now right]|]. intros [-> H] u [[= <-]|J]; [reflexivity|now apply H]. }
        unfold expects. rewrite F, P. destruct t; cbn [bind]; try (split; [discriminate|intros [[H _] _]; discriminate]). rewrite IH. unfold expects. tauto.
      * cbn [bind]. split; [discriminate|]. intros [_ H]. exfalso.
        assert (F : filter not_transparent ((n, t) :: items) = (n, t) :: filter not_transparent items) by (cbn [filter]; unfold not_transparent at 1; cbn [fst]; now rewrite N2).
        rewrite F in H.
        apply str_eqb_neq in N1. destruct H as [[_ H]|(_ & s & _ & H)]; [discriminate|]. apply N1. now injection H.
Qed.
Lemma read_expectings_app : forall (a b : list (str * tokens E)) x, read_expectings x (a ++ b) = (x <- read_expectings x a ;; read_expectings x b).
Proof. induction a as [|i a IH]; intros b x; [reflexivity|]. cbn [app read_expectings]. destruct (read_expecting x i) as [s1|]; cbn [bind]; [apply IH|reflexivity]. Qed.
Lemma parse_expecting_items : forall (l : list (attribute E)) x x', parse_expecting x l = Ok x' <-> exists items, items_of $"serde" l items /\ read_expectings x items = Ok x'.
Proof.
  induction l as [|a l IH]; intros x x'.
  - cbn [parse_expecting]. split.
    + intros H. exists []. split; [now exists []|exact H].
    + intros (items & (lists & L & ->) & H). destruct lists; [exact H|discriminate].
  - unfold items_of. cbn [parse_expecting filter]. destruct (str_eqb (at_name a) $"serde"); [|apply IH]. cbn [map]. destruct (at_meta a) as [|e|its].
    + split; [discriminate|]. intros (items & (lists & L & _) & _). destruct lists; discriminate.
    + split; [discriminate|]. intros (items & (lists & L & _) & _). destruct lists; discriminate.
    + split.
      * destruct (read_expectings x its) as [x1|] eqn:R; cbn [bind]; [|discriminate]. intros H. apply IH in H as (items & (lists & L & ->) & H).
        exists (its ++ concat lists). split; [exists (its :: lists); cbn [map concat]; now rewrite L|]. rewrite read_expectings_app, R. exact H.
      * intros (items & ([|q lists] & L & ->) & H); [discriminate|]. cbn [map concat] in *. injection L as <- L. rewrite read_expectings_app in H.
        destruct (read_expectings x its) as [x1|]; cbn [bind] in *; [|discriminate]. apply IH. exists (concat lists). split; [now exists lists|exact H].
Qed.
(** The text of [#[serde(expecting = "...")]] is found, and [#[serde(transparent)]] is the only other option let through. *)
Theorem expecting_meaning : forall (l : list (attribute E)) x, parse_expecting None l = Ok x <-> says_expecting l x.
Proof.
  intros l x. rewrite parse_expecting_items. unfold says_expecting. split; intros (items & O & H); exists items; (split; [exact O|]).
  - apply expectings_meaning in H as [T [[-> H]|(_ & s & -> & H)]]; now split.
  - apply expectings_meaning. destruct H as [H T]. split; [exact T|]. destruct x as [s|]; [right; split; [reflexivity|now exists s]|now left].
Qed.
End Facts.
Print Assumptions attribute_meaning.
Print Assumptions attribute_order.
Print Assumptions derive_meaning.
Print Assumptions as_short_meaning.
Print Assumptions short_there_and_back.
Print Assumptions long_there_and_back.
Print Assumptions default_test.
Print Assumptions as_short_compiles_iff.
Print Assumptions derive_default_meaning.
Print Assumptions expecting_meaning.

(** ** The crate's structs *)

Definition path (n : string) : rtype := TPath false false [($n, ANone)].
Definition generic (n : string) (l : list rtype) : rtype := TPath false false [($n, AAngle (map GType l))].
Definition no_literal (s : str) : option string := None.
Definition plain (n : string) (t : rtype) : field string := mk_field $n t [].
Definition short_ (n : string) (t : rtype) : field string := mk_field $n t [mk_attribute $"as_short" (MList [($"short", TNothing)])].

(** [env_file::Config], service/env_file.rs 90-103, with the documentation and the [serde] attributes left out as everywhere here. *)
Definition env_file_struct : list (field string) :=
  [short_ "path" (path "PathBuf");
   mk_field $"required" (path "bool") [mk_attribute $"as_short" (MList [($"default", TExpr "default_true"%string); ($"if_fn", TExpr "skip_true"%string)])]].
(** [ShortRanges], service/ports.rs 408-416. *)
Definition short_ranges_struct : list (field string) := [plain "host" (generic "Option" [path "Range"]); short_ "container" (path "Range")].
(** [ConfigOrSecret], service/config_or_secret.rs 29-86. *)
Definition config_or_secret_struct : list (field string) :=
  [short_ "source" (path "Identifier"); plain "target" (generic "Option" [path "PathBuf"]); plain "uid" (generic "Option" [path "u32"]);
   plain "gid" (generic "Option" [path "u32"]); plain "mode" (generic "Option" [path "u32"]); plain "extensions" (path "Extensions")].
(** [Build], service/build.rs 30-197. *)
Definition build_struct : list (field string) :=
  [short_ "context" (generic "Option" [path "Context"]); plain "dockerfile" (generic "Option" [path "Dockerfile"]); plain "args" (path "ListOrMap");
   plain "ssh" (generic "IndexSet" [path "SshAuth"]); plain "cache_from" (generic "Vec" [path "Cache"]); plain "cache_to" (generic "Vec" [path "Cache"]);
   plain "additional_contexts" (generic "IndexMap" [path "MapKey"; path "Context"]); plain "entitlements" (generic "Vec" [path "String"]);
   plain "extra_hosts" (generic "IndexMap" [path "Hostname"; path "IpAddr"]); plain "isolation" (generic "Option" [path "String"]); plain "privileged" (path "bool");
   plain "labels" (path "ListOrMap"); plain "no_cache" (path "bool"); plain "pull" (path "bool"); plain "network" (generic "Option" [path "Network"]);
   plain "shm_size" (generic "Option" [path "ByteValue"]); plain "target" (generic "Option" [path "String"]);
   plain "secrets" (generic "Vec" [generic "ShortOrLong" [path "Identifier"; path "ConfigOrSecret"]]); plain "tags" (generic "Vec" [path "Image"]);
   plain "ulimits" (path "Ulimits"); plain "platforms" (generic "Vec" [path "Platform"]); plain "extensions" (path "Extensions")].

(** A field's value as far as the generated code looks at it: the short form itself, whether an option is there, a boolean, whether something is empty. *)
Inductive look (S : Type) : Type := LShort (s : S) | LSome (s : S) | LNone | LOption (absent : bool) | LBool (b : bool) | LEmpty (e : bool).
Arguments LShort {S} _.
Arguments LSome {S} _.
Arguments LNone {S}.
Arguments LOption {S} _.
Arguments LBool {S} _.
Arguments LEmpty {S} _.
Definition looks (S : Type) : rust (E:=string) (look S) := mk_rust (look S)
  (fun v => match v with LOption a => a | LNone => true | _ => false end)
  (fun v => match v with LShort s => LSome s | _ => v end)
  (fun v => match v with LSome s => Some (LShort s) | _ => None end)
  (fun v => match v with LBool b => negb b | _ => false end)
  (fun _ v => match v with LEmpty e => e | _ => false end)
  (fun t => match option_type t with Some _ => LOption true | None => if is_bool t then LBool false else LEmpty true end)
  (fun e v => match v with LBool b => if String.eqb e "skip_true" then b else false | _ => false end)
  (fun e => LBool (String.eqb e "default_true")).
Definition row {S : Type} (l : list (string * look S)) (n : str) : look S := match find (fun x => str_eqb $(fst x) n) l with Some x => snd x | None => LNone end.

Definition env_file_looks (v : env_file_config) : list (string * look str) := [("path", LShort (fst v)); ("required", LBool (fst (snd v)))]%string.
Definition short_ranges_looks (r : short_ranges) : list (string * look range) := [("host", LOption (is_none (sr_host r))); ("container", LShort (sr_container r))]%string.
Definition config_or_secret_looks (v : config_or_secret) : list (string * look str) :=
  let '((source, (target, (uid, (gid, (mode, _))))), extensions) := v in
  [("source", LShort source); ("target", LOption (is_none target)); ("uid", LOption (is_none uid)); ("gid", LOption (is_none gid)); ("mode", LOption (is_none mode));
   ("extensions", LEmpty (is_nil extensions))]%string.
Definition build_looks {w : externals} (v : ShortModel.build w) : list (string * look context) :=
  let '((context, (dockerfile, (args, (ssh, (cache_from, (cache_to, (additional_contexts, (entitlements, (extra_hosts, (isolation,
         (privileged, (labels, (no_cache, (pull, (network, (shm_size, (target, (secrets, (tags, (ulimits, (platforms, _)))))))))))))))))))))
       , extensions) := v in
  [("context", match context with Some c => LSome c | None => LNone end); ("dockerfile", LOption (is_none dockerfile)); ("args", LEmpty (list_or_map_empty args));
   ("ssh", LEmpty (is_nil ssh)); ("cache_from", LEmpty (is_nil cache_from)); ("cache_to", LEmpty (is_nil cache_to)); ("additional_contexts", LEmpty (is_nil additional_contexts));
   ("entitlements", LEmpty (is_nil entitlements)); ("extra_hosts", LEmpty (is_nil extra_hosts)); ("isolation", LOption (is_none isolation)); ("privileged", LBool privileged);
   ("labels", LEmpty (list_or_map_empty labels)); ("no_cache", LBool no_cache); ("pull", LBool pull); ("network", LOption (is_none network));
   ("shm_size", LOption (is_none shm_size)); ("target", LOption (is_none target)); ("secrets", LEmpty (is_nil secrets)); ("tags", LEmpty (is_nil tags));
   ("ulimits", LEmpty (is_nil ulimits)); ("platforms", LEmpty (is_nil platforms)); ("extensions", LEmpty (is_nil extensions))]%string.

Definition derived {S : Type} (fs : list (field string)) (l : list (string * look S)) : option (option (look S)) :=
  match from_syn no_literal (Named fs) with Ok i => Some (run_as_short (looks S) i (row l)) | Err _ => None end.
Definition derived_from {S : Type} (fs : list (field string)) (s : S) : option (list (str * look S)) :=
  match from_syn no_literal (Named fs) with Ok i => Some (run_from_short (looks S) i (LShort s)) | Err _ => None end.

(** [as_short] of the model is what the macro generates for the struct. *)
Theorem derived_as_short :
  (forall v, derived env_file_struct (env_file_looks v) = Some (option_map LShort (env_file_config_as_short v))) /\
  (forall r, derived short_ranges_struct (short_ranges_looks r) = Some (option_map LShort (short_ranges_as_short r))) /\
  (forall v, derived config_or_secret_struct (config_or_secret_looks v) = Some (option_map LShort (config_or_secret_as_short v))) /\
  (forall (w : externals) (v : ShortModel.build w), derived build_struct (build_looks v) = Some (option_map LShort (build_as_short v))).
Proof.
  split; [|split; [|split]].
  - intros [p [[|] u]]; reflexivity.
  - intros [[h|] c]; reflexivity.
  - intros [(source & target & uid & gid & mode & u) x]. unfold config_or_secret_as_short, config_or_secret_looks.
    generalize (is_none target) (is_none uid) (is_none gid) (is_none mode) (is_nil x). intros a b c d e. destruct a, b, c, d, e; reflexivity.
  - intros w [(context & dockerfile & args & ssh & cache_from & cache_to & additional_contexts & entitlements & extra_hosts & isolation & privileged & labels & no_cache & pull
       & network & shm_size & target & secrets & tags & ulimits & platforms & u) x]. unfold build_as_short, build_looks.
    generalize (is_none dockerfile) (list_or_map_empty args) (is_nil ssh) (is_nil cache_from) (is_nil cache_to) (is_nil additional_contexts) (is_nil entitlements) (is_nil extra_hosts)
      (is_none isolation) (list_or_map_empty labels) (is_none network) (is_none shm_size) (is_none target) (is_nil secrets) (is_nil tags) (is_nil ulimits) (is_nil platforms) (is_nil x).
    intros a1 a2 a3 a4 a5 a6 a7 a8 a9 b1 b2 b3 b4 b5 b6 b7 b8 b9.
    destruct a1; [|reflexivity]. destruct a2; [|reflexivity]. destruct a3; [|reflexivity]. destruct a4; [|reflexivity]. destruct a5; [|reflexivity]. destruct a6; [|reflexivity].
    destruct a7; [|reflexivity]. destruct a8; [|reflexivity]. destruct a9; [|reflexivity]. destruct privileged; [reflexivity|]. destruct b1; [|reflexivity].
    destruct no_cache; [reflexivity|]. destruct pull; [reflexivity|]. destruct b2; [|reflexivity]. destruct b3; [|reflexivity]. destruct b4; [|reflexivity]. destruct b5; [|reflexivity].
    destruct b6; [|reflexivity]. destruct b7; [|reflexivity]. destruct b8; [|reflexivity]. destruct b9; [|reflexivity]. destruct context; reflexivity.
Qed.
Print Assumptions derived_as_short.

(** And [From<Short>] of the model. *)
Definition entry {S : Type} (l : list (string * look S)) : list (str * look S) := map (fun x => ($(fst x), snd x)) l.
Theorem derived_from_short :
  (forall p, exists l, derived_from env_file_struct p = Some l /\ Permutation l (entry (env_file_looks (env_file_config_of_short p)))) /\
  (forall r, exists l, derived_from short_ranges_struct r = Some l /\ Permutation l (entry (short_ranges_looks (short_ranges_of_short r)))) /\
  (forall s, exists l, derived_from config_or_secret_struct s = Some l /\ Permutation l (entry (config_or_secret_looks (config_or_secret_of_short s)))) /\
  (forall (w : externals) c, exists l, derived_from build_struct c = Some l /\ Permutation l (entry (build_looks (w:=w) (build_of_short c)))).
Proof.
  split; [|split; [|split]].
  - intros p. exists (entry (env_file_looks (env_file_config_of_short p))). split; [vm_compute; reflexivity|]. apply Permutation_refl.
  - intros r. eexists. split; [reflexivity|]. apply perm_swap.
  - intros s. exists (entry (config_or_secret_looks (config_or_secret_of_short s))). split; [vm_compute; reflexivity|]. apply Permutation_refl.
  - intros w c. exists (entry (build_looks (w:=w) (build_of_short c))). split; [vm_compute; reflexivity|]. apply Permutation_refl.
Qed.
Print Assumptions derived_from_short.

(** ** [platforms!] *)

Definition opt {X : Set} (f : X -> definition X) (o : option X) : list (definition X) := match o with Some x => [f x] | None => [] end.
Definition spread {X : Set} (p : parts (option X)) : list (definition X) :=
  opt (DEnum $"Platform") (p_platform _ p) ++ opt (DEnum $"Os") (p_os _ p) ++ opt (DEnum $"Arch") (p_arch _ p) ++ opt (DType $"ParseError") (p_parse_error _ p) ++
  opt (DType $"TryFromArchError") (p_try_from_arch_error _ p).
Lemma read_definition_spread : forall {X : Set} p (d : definition X) p', read_definition p d = Ok p' -> Permutation (spread p') (d :: spread p).
Proof.
  intros X [a b c e f] [n x|n x] p'; cbn [read_definition].
  - destruct (str_eqb n $"ParseError") eqn:N; [|clear N; destruct (str_eqb n $"TryFromArchError") eqn:N; [|discriminate]]; apply str_eqb_eq in N; subst n.
    + destruct e as [y|]; cbn [once]; [discriminate|]. intros [= <-]. unfold spread. cbn [p_platform p_os p_arch p_parse_error p_try_from_arch_error opt app].
      rewrite ?app_assoc. symmetry. apply Permutation_cons_app. now rewrite ?app_assoc.
    + destruct f as [y|]; cbn [once]; [discriminate|]. intros [= <-]. unfold spread. cbn [p_platform p_os p_arch p_parse_error p_try_from_arch_error opt app].
      rewrite ?app_assoc. symmetry. apply Permutation_cons_app. now rewrite ?app_assoc.
  - destruct (str_eqb n $"Platform") eqn:N; [|clear N; destruct (str_eqb n $"Os") eqn:N; [|clear N; destruct (str_eqb n $"Arch") eqn:N; [|discriminate]]]; apply str_eqb_eq in N; subst n.
    + destruct a as [y|]; cbn [once]; [discriminate|]. intros [= <-]. reflexivity.
    + destruct b as [y|]; cbn [once]; [discriminate|]. intros [= <-]. unfold spread. cbn [p_platform p_os p_arch p_parse_error p_try_from_arch_error opt app].
      symmetry. apply Permutation_cons_app. reflexivity.
    + destruct c as [y|]; cbn [once]; [discriminate|]. intros [= <-]. unfold spread. cbn [p_platform p_os p_arch p_parse_error p_try_from_arch_error opt app].
      rewrite ?app_assoc. symmetry. apply Permutation_cons_app. now rewrite ?app_assoc.
Qed.
Lemma read_definitions_spread : forall {X : Set} l p (p' : parts (option X)), read_definitions p l = Ok p' -> Permutation (spread p') (l ++ spread p).
Proof.
  intros X l. induction l as [|d l IH]; intros p p'; cbn [read_definitions]; [intros [= <-]; reflexivity|].
  destruct (read_definition p d) as [q|] eqn:R; cbn [bind]; [|discriminate]. intros H. rewrite (IH _ _ H), (read_definition_spread _ _ _ R). symmetry. apply Permutation_middle.
Qed.
Definition wanted {X : Set} (p : parts X) : list (definition X) :=
  [DEnum $"Platform" (p_platform _ p); DEnum $"Os" (p_os _ p); DEnum $"Arch" (p_arch _ p); DType $"ParseError" (p_parse_error _ p); DType $"TryFromArchError" (p_try_from_arch_error _ p)].
(** A list of definitions that goes together with the ones already read to make [wanted] is read. *)
Lemma read_definitions_complete : forall {X : Set} l (p : parts (option X)) q, Permutation (wanted q) (l ++ spread p) ->
  read_definitions p l = Ok (mk_parts (Some (p_platform _ q)) (Some (p_os _ q)) (Some (p_arch _ q)) (Some (p_parse_error _ q)) (Some (p_try_from_arch_error _ q))).
Proof.
  intros X l. induction l as [|d l IH]; intros p q P; cbn [read_definitions].
  - cbn [app] in P. assert (L := Permutation_length P). destruct p as [a b c e f].
    destruct a, b, c, e, f; try discriminate. unfold spread, wanted in P. cbn [p_platform p_os p_arch p_parse_error p_try_from_arch_error opt app] in P.
    assert (A : forall d, In d (wanted q) -> In d [DEnum $"Platform" x; DEnum $"Os" x0; DEnum $"Arch" x1; DType $"ParseError" x2; DType $"TryFromArchError" x3]) by (intros d; now apply Permutation_in).
    f_equal. f_equal; f_equal; symmetry.
    + destruct (A (DEnum $"Platform" (p_platform _ q))) as [H|[H|[H|[H|[H|[]]]]]]; try discriminate; [now left|now injection H].
    + destruct (A (DEnum $"Os" (p_os _ q))) as [H|[H|[H|[H|[H|[]]]]]]; try discriminate; [now right; left|now injection H].
    + destruct (A (DEnum $"Arch" (p_arch _ q))) as [H|[H|[H|[H|[H|[]]]]]]; try discriminate; [now do 2 right; left|now injection H].
    + destruct (A (DType $"ParseError" (p_parse_error _ q))) as [H|[H|[H|[H|[H|[]]]]]]; try discriminate; [now do 3 right; left|now injection H].
    + destruct (A (DType $"TryFromArchError" (p_try_from_arch_error _ q))) as [H|[H|[H|[H|[H|[]]]]]]; try discriminate; [now do 4 right; left|now injection H].
  - assert (K : exists p1, read_definition p d = Ok p1).
    { assert (I : In d (wanted q)) by (apply (Permutation_in _ (Permutation_sym P)); now left).
      assert (N : NoDup (map (fun d : definition X => match d with DType n _ => (true, n) | DEnum n _ => (false, n) end) ((d :: l) ++ spread p))).
      { apply (Permutation_NoDup (Permutation_map _ P)). cbn. repeat (constructor; [cbn; intuition discriminate|]). constructor. }
      cbn [app map] in N. inversion N as [|? ? M _]; subst. rewrite map_app in M. destruct p as [a b c e f]. unfold spread in M. cbn [p_platform p_os p_arch p_parse_error p_try_from_arch_error] in M.
      destruct I as [<-|[<-|[<-|[<-|[<-|[]]]]]]; cbn [read_definition].
      - destruct a; [|eexists; reflexivity]. destruct M. apply in_or_app. right. now left.
      - destruct b; [|eexists; reflexivity]. destruct M. apply in_or_app. right. rewrite map_app. apply in_or_app. right. now left.
      - destruct c; [|eexists; reflexivity]. destruct M. apply in_or_app. right. rewrite !map_app. apply in_or_app. right. apply in_or_app. right. now left.
      - destruct e; [|eexists; reflexivity]. destruct M. apply in_or_app. right. rewrite !map_app. do 3 (apply in_or_app; right). now left.
      - destruct f; [|eexists; reflexivity]. destruct M. apply in_or_app. right. rewrite !map_app. do 4 (apply in_or_app; right). now left. }
    destruct K as [p1 K]. rewrite K. cbn [bind]. apply IH. rewrite P, (read_definition_spread _ _ _ K). cbn [app]. apply Permutation_middle.
Qed.
(** The macro takes the three enums and the two types, each once, in any order, and nothing else. *)
Theorem platforms_parse_meaning : forall {X : Set} (l : list (definition X)) p, platforms_parse l = Ok p <-> Permutation (wanted p) l.
Proof.
  intros X l p. unfold platforms_parse. split.
  - destruct (read_definitions (mk_parts None None None None None) l) as [q|] eqn:R; cbn [bind]; [|discriminate]. apply read_definitions_spread in R. rewrite app_nil_r in R.
    destruct q as [[a|] [b|] [c|] [e|] [f|]]; cbn [some_or bind]; try discriminate. intros [= <-]. exact R.
  - intros P. rewrite (read_definitions_complete l _ p); [now destruct p|]. now rewrite app_nil_r.
Qed.
Print Assumptions platforms_parse_meaning.

(** What it says about any other input, and about which definition: the first that is unknown or given twice, or else the first that is missing. *)
Definition named {X : Set} (d : definition X) : bool * str := match d with DType n _ => (true, n) | DEnum n _ => (false, n) end.
Definition names_wanted : list (bool * str) := [(false, $"Platform"); (false, $"Os"); (false, $"Arch"); (true, $"ParseError"); (true, $"TryFromArchError")].
Definition no_fault {X : Set} (l : list (definition X)) : Prop := NoDup (map named l) /\ incl (map named l) names_wanted.
Inductive platforms_fails {X : Set} : list (definition X) -> platforms_error -> Prop :=
| pf_enum l n x r : no_fault l -> ~ In (false, n) names_wanted -> platforms_fails (l ++ DEnum n x :: r) (Expected $"expected or `Platform` or `Os` or `Arch`")
| pf_type l n x r : no_fault l -> ~ In (true, n) names_wanted -> platforms_fails (l ++ DType n x :: r) (Expected $"expected `ParseError` or `TryFromArchError`")
| pf_twice l d r : no_fault l -> In (named d) names_wanted -> In (named d) (map named l) -> platforms_fails (l ++ d :: r) (Duplicate (snd (named d)))
| pf_missing l before k n after : no_fault l -> names_wanted = before ++ (k, n) :: after -> incl before (map named l) -> ~ In (k, n) (map named l) -> platforms_fails l (Missing n).
Definition slot {X : Set} (p : parts (option X)) (k : bool * str) : option X :=
  let '(t, n) := k in
  if t then if str_eqb n $"ParseError" then p_parse_error _ p else if str_eqb n $"TryFromArchError" then p_try_from_arch_error _ p else None
  else if str_eqb n $"Platform" then p_platform _ p else if str_eqb n $"Os" then p_os _ p else if str_eqb n $"Arch" then p_arch _ p else None.
Lemma slot_spread : forall {X : Set} (p : parts (option X)) k, In k (map named (spread p)) <-> slot p k <> None.
Proof.
  intros X p k. split.
  - intros I. apply in_map_iff in I as (d & <- & I). unfold spread in I. repeat (apply in_app_or in I as [I|I]); destruct p as [[a|] [b|] [c|] [e|] [f|]];
      cbn [opt In p_platform p_os p_arch p_parse_error p_try_from_arch_error] in I; destruct I as [<-|[]] || destruct I; cbn; discriminate.
  - destruct k as [[] n]; cbn [slot]; intros H.
    + destruct (str_eqb n $"ParseError") eqn:E; [|clear E; destruct (str_eqb n $"TryFromArchError") eqn:E; [|now destruct H]]; apply str_eqb_eq in E; subst n; unfold spread;
        destruct p as [a b c e f]; cbn [p_parse_error p_try_from_arch_error] in H |- *; [destruct e|destruct f]; try (now destruct H); rewrite !map_app; cbn [opt map named].
      * do 3 (apply in_or_app; right). now left.
      * do 4 (apply in_or_app; right). now left.
    + destruct (str_eqb n $"Platform") eqn:E; [|clear E; destruct (str_eqb n $"Os") eqn:E; [|clear E; destruct (str_eqb n $"Arch") eqn:E; [|now destruct H]]]; apply str_eqb_eq in E; subst n; unfold spread;
        destruct p as [a b c e f]; cbn [p_platform p_os p_arch] in H |- *; [destruct a|destruct b|destruct c]; try (now destruct H); rewrite !map_app; cbn [opt map named].
      * now left.
      * apply in_or_app. right. now left.
      * do 2 (apply in_or_app; right). now left.
Qed.
Lemma read_definition_says : forall {X : Set} (p : parts (option X)) d,
  match read_definition p d with
  | Ok _ => In (named d) names_wanted /\ slot p (named d) = None
  | Err e => (~ In (named d) names_wanted /\ e = Expected (if fst (named d) then $"expected `ParseError` or `TryFromArchError`" else $"expected or `Platform` or `Os` or `Arch`")) \/
             (In (named d) names_wanted /\ slot p (named d) <> None /\ e = Duplicate (snd (named d)))
  end.
Proof.
  intros X [a b c e f] [n x|n x]; cbn [read_definition named fst snd slot p_platform p_os p_arch p_parse_error p_try_from_arch_error].
  - destruct (str_eqb n $"ParseError") eqn:E1.
    { apply str_eqb_eq in E1; subst n. destruct e; cbn [once]; [right; split; [now do 3 right; left|split; [discriminate|reflexivity]]|split; [now do 3 right; left|reflexivity]]. }
    destruct (str_eqb n $"TryFromArchError") eqn:E2.
    { apply str_eqb_eq in E2; subst n. destruct f; cbn [once]; [right; split; [now do 4 right; left|split; [discriminate|reflexivity]]|split; [now do 4 right; left|reflexivity]]. }
    left. split; [|reflexivity]. intros [H|[H|[H|[H|[H|[]]]]]]; try discriminate H; injection H as <-; discriminate.
  - destruct (str_eqb n $"Platform") eqn:E1.
    { apply str_eqb_eq in E1; subst n. destruct a; cbn [once]; [right; split; [now left|split; [discriminate|reflexivity]]|split; [now left|reflexivity]]. }
    destruct (str_eqb n $"Os") eqn:E2.
    { apply str_eqb_eq in E2; subst n. destruct b; cbn [once]; [right; split; [now right; left|split; [discriminate|reflexivity]]|split; [now right; left|reflexivity]]. }
    destruct (str_eqb n $"Arch") eqn:E3.
    { apply str_eqb_eq in E3; subst n. destruct c; cbn [once]; [right; split; [now do 2 right; left|split; [discriminate|reflexivity]]|split; [now do 2 right; left|reflexivity]]. }
    left. split; [|reflexivity]. intros [H|[H|[H|[H|[H|[]]]]]]; try discriminate H; injection H as <-; discriminate.
Qed.
Lemma read_definitions_app : forall {X : Set} l r (p : parts (option X)), read_definitions p (l ++ r) = (q <- read_definitions p l ;; read_definitions q r).
Proof. intros X l r. induction l as [|d l IH]; intros p; cbn [app read_definitions bind]; [reflexivity|]. destruct (read_definition p d); cbn [bind]; [apply IH|reflexivity]. Qed.
Lemma read_definitions_err : forall {X : Set} l (p : parts (option X)) e, read_definitions p l = Err e ->
  exists l1 d r q, l = l1 ++ d :: r /\ read_definitions p l1 = Ok q /\ read_definition q d = Err e.
Proof.
  intros X l. induction l as [|d l IH]; intros p e H; cbn [read_definitions] in H; [discriminate|]. destruct (read_definition p d) as [q|e'] eqn:R; cbn [bind] in H.
  - destruct (IH q e H) as (l1 & d' & r & q' & -> & A & B). exists (d :: l1), d', r, q'. repeat split; [|exact B]. cbn [read_definitions]. now rewrite R.
  - injection H as ->. exists [], d, l, p. now repeat split.
Qed.
Definition nothing {X : Set} : parts (option X) := mk_parts None None None None None.
Lemma read_slots : forall {X : Set} l (q : parts (option X)) k, read_definitions nothing l = Ok q -> (In k (map named l) <-> slot q k <> None).
Proof.
  intros X l q k H. apply read_definitions_spread in H. rewrite app_nil_r in H. rewrite <- slot_spread.
  split; apply Permutation_in; [symmetry|]; now apply Permutation_map.
Qed.
Lemma no_fault_read : forall {X : Set} (l : list (definition X)), no_fault l <-> exists q, read_definitions nothing l = Ok q.
Proof.
  intros X l. induction l as [|d l IH] using rev_ind; [split; [exists nothing; reflexivity|intros _; split; [constructor|intros k []]]|].
  unfold no_fault. rewrite map_app. cbn [map]. rewrite read_definitions_app. split.
  - intros [N I]. apply (Permutation_NoDup (Permutation_sym (Permutation_cons_append _ _))) in N. inversion N as [|? ? N1 N2]; subst.
    destruct (proj1 IH) as [q Q]; [split; [exact N2|intros k K; apply I, in_or_app; now left]|]. rewrite Q. cbn [bind read_definitions].
    pose proof (read_definition_says q d) as S. destruct (read_definition q d) as [q'|e]; [exists q'; reflexivity|]. exfalso. destruct S as [[S _]|(_ & S & _)].
    + apply S, I, in_or_app. right. now left.
    + apply N1. now apply (read_slots l q).
  - intros [q' H]. destruct (read_definitions nothing l) as [q|] eqn:Q; [|discriminate]. cbn [bind read_definitions] in H.
    destruct (proj2 IH (ex_intro _ q eq_refl)) as [N I]. pose proof (read_definition_says q d) as S. destruct (read_definition q d) as [q1|]; [|discriminate]. destruct S as [S1 S2]. split.
    + apply (Permutation_NoDup (Permutation_cons_append _ _)). constructor; [|exact N]. intros C. apply (read_slots l q _ Q) in C. now rewrite S2 in C.
    + intros k K. apply in_app_or in K as [K|[<-|[]]]; auto.
Qed.
Theorem platforms_parse_errors : forall {X : Set} (l : list (definition X)) e, platforms_parse l = Err e <-> platforms_fails l e.
Proof.
  intros X l e. unfold platforms_parse. fold (@nothing X). split.
  - destruct (read_definitions nothing l) as [q|e'] eqn:R; cbn [bind].
    + assert (F : no_fault l) by (apply no_fault_read; now exists q). assert (S := fun k => read_slots l q k R).
      assert (P := S (false, $"Platform")). assert (O := S (false, $"Os")). assert (A := S (false, $"Arch")). assert (E := S (true, $"ParseError")). assert (T := S (true, $"TryFromArchError")). clear S.
      destruct q as [a b c p t]. cbn in P, O, A, E, T. Ltac gone := lazymatch goal with H : In ?k _ <-> None <> None |- ~ In ?k _ => intros I; now apply H in I end.
      Ltac had := intros k K; cbn [In] in K; repeat (destruct K as [<-|K]; [lazymatch goal with H : In ?k _ <-> Some _ <> None |- In ?k _ => apply H; discriminate end|]); destruct K.
      destruct a; cbn [some_or bind]; [|intros [= <-]; apply (pf_missing l [] false _ _ F eq_refl); [had|gone]].
      destruct b; cbn [some_or bind]; [|intros [= <-]; apply (pf_missing l [(false, $"Platform")] false _ _ F eq_refl); [had|gone]].
      destruct c; cbn [some_or bind]; [|intros [= <-]; apply (pf_missing l [(false, $"Platform"); (false, $"Os")] false _ _ F eq_refl); [had|gone]].
      destruct p; cbn [some_or bind]; [|intros [= <-]; apply (pf_missing l [(false, $"Platform"); (false, $"Os"); (false, $"Arch")] true _ _ F eq_refl); [had|gone]].
      destruct t; cbn [some_or bind]; [discriminate|intros [= <-]; apply (pf_missing l [(false, $"Platform"); (false, $"Os"); (false, $"Arch"); (true, $"ParseError")] true _ _ F eq_refl); [had|gone]].
    + intros [= <-]. destruct (read_definitions_err _ _ _ R) as (l1 & d & r & q & -> & Q & D). assert (F : no_fault l1) by (apply no_fault_read; now exists q).
      pose proof (read_definition_says q d) as S. rewrite D in S. destruct S as [[S ->]|(S1 & S2 & ->)]; [|apply (pf_twice l1 d r F S1); now apply (read_slots l1 q)].
      destruct d as [n x|n x]; cbn [named fst] in S |- *; [now apply pf_type|now apply pf_enum].
  - intros H.
    assert (G : forall (l : list (definition X)) d r, no_fault l -> forall e, (forall q, read_definitions nothing l = Ok q -> read_definition q d = Err e) -> read_definitions nothing (l ++ d :: r) = Err e).
    { clear. intros l d r F e K. apply no_fault_read in F as [q Q]. rewrite read_definitions_app, Q. cbn [bind read_definitions]. now rewrite (K q Q). }
    destruct H as [l n x r F N|l n x r F N|l d r F W T|l before k n after F W B M].
    + rewrite (G l (DEnum n x) r F (Expected $"expected or `Platform` or `Os` or `Arch`")); [reflexivity|]. intros q Q. pose proof (read_definition_says q (DEnum n x)) as S.
      destruct (read_definition q (DEnum n x)); [destruct S; contradiction|]. destruct S as [[_ ->]|(S & _)]; [reflexivity|contradiction].
    + rewrite (G l (DType n x) r F (Expected $"expected `ParseError` or `TryFromArchError`")); [reflexivity|]. intros q Q. pose proof (read_definition_says q (DType n x)) as S.
      destruct (read_definition q (DType n x)); [destruct S; contradiction|]. destruct S as [[_ ->]|(S & _)]; [reflexivity|contradiction].
    + rewrite (G l d r F (Duplicate (snd (named d)))); [reflexivity|]. intros q Q. pose proof (read_definition_says q d) as S. apply (read_slots l q _ Q) in T.
      destruct (read_definition q d); [destruct S; contradiction|]. destruct S as [[S _]|(_ & _ & ->)]; [contradiction|reflexivity].
    + apply no_fault_read in F as [q Q]. rewrite Q. cbn [bind]. assert (S := fun k => read_slots l q k Q). assert (Z : slot q (k, n) = None) by (destruct (slot q (k, n)) eqn:E; [destruct M; apply S; now rewrite E|reflexivity]).
      assert (Y : forall c, In c before -> slot q c <> None) by (intros c C; apply S; now apply B). clear S B M Q.
      apply Forall_forall in Y. destruct q as [a b c p t].
      Ltac after a := lazymatch goal with W : _ = ?before ++ _ :: _, Z : _ = None, Y : Forall _ ?before |- _ =>
        destruct before as [|? before]; [injection W as <- <- _; cbn in Z; subst a; reflexivity|]; injection W as <- W; inversion Y as [|? ? Y1 Y2]; subst; clear Y; rename Y2 into Y; cbn in Y1;
        destruct a; [|now destruct Y1]; clear Y1 end.
      after a. after b. after c. after p. after t. destruct before; discriminate W.
Qed.
Print Assumptions platforms_parse_errors.
Example platforms_parse_twice : platforms_parse [DEnum $"Os" 1; DType $"ParseError" 2; DEnum $"Os" 3; DEnum $"Other" 4] = Err (Duplicate $"Os").
Proof. reflexivity. Qed.

(** ** Findings *)

(** A struct with the short field alone passes the macro, which then generates [if { ... }]. *)
Theorem single_field_refuted : exists (fs : list (field string)) i, from_syn no_literal (Named fs) = Ok i /\ as_short_compiles i = false.
Proof. exists [short_ "inner" (path "String")]. eexists. split; reflexivity. Qed.
(** An [Option] written with its path is not seen to be one: it is asked whether it is [is_empty], which it has not, and as the short field it
    is the short form itself. *)
Theorem qualified_option_refuted : exists (t u : rtype), t = TPath false false [($"std", ANone); ($"option", ANone); ($"Option", AAngle [GType u])] /\
  (forall n, field_test (mk_other None None n t) = IsEmpty (E:=string) t) /\ (forall n, sf_optional (short_field_new n t) = false).
Proof. exists (TPath false false [($"std", ANone); ($"option", ANone); ($"Option", AAngle [GType (path "String")])]), (path "String"). now repeat split. Qed.
(** The message of [platforms!] for an enum it does not expect has "or" before the first name too: whether the message is empty is asked after
    it was started. *)
Theorem peek_error_says : forall l, peek_error l = $"expected" ++ concat (map (fun n => $" or `" ++ n ++ $"`") l).
Proof.
  intros l. unfold peek_error. assert (A : forall m, m <> [] -> fold_left peek_step l m = m ++ concat (map (fun n => $" or `" ++ n ++ $"`") l)); [|now apply A].
  induction l as [|n l IH]; intros m M; cbn [fold_left map concat]; [now rewrite app_nil_r|]. unfold peek_step at 2. destruct m as [|c m]; [contradiction|].
  rewrite IH by discriminate. now rewrite <- app_assoc.
Qed.
Theorem peek_error_refuted : exists n, peek_error [n] <> $"expected `" ++ n ++ $"`".
Proof. exists $"Platform". discriminate. Qed.
Print Assumptions peek_error_says.
Print Assumptions peek_error_refuted.
Print Assumptions single_field_refuted.
Print Assumptions qualified_option_refuted.

(** ** Cases *)

Example two_attributes : attribute_from_syn (fun s => Some s)
  [mk_attribute $"doc" MPath; mk_attribute $"as_short" (MList [($"if_fn", TLiteral $"f")]); mk_attribute $"as_short" (MList [($"default", TExpr $"g")])] =
  Ok (Other (Some $"f") (Some $"g")).
Proof. reflexivity. Qed.
Example short_and_default : attribute_from_syn no_literal [mk_attribute $"as_short" (MList [($"short", TNothing); ($"default", TExpr "g"%string)])] = Err ShortWithOther.
Proof. reflexivity. Qed.
Example two_short : from_syn no_literal (Named [short_ "a" (path "A"); short_ "b" (path "B")]) = Err DuplicateShortField.
Proof. reflexivity. Qed.
Example no_short : from_syn no_literal (Named [plain "a" (path "A")]) = Err MissingShort.
Proof. reflexivity. Qed.
Example env_file_tests : exists i, from_syn no_literal (Named env_file_struct) = Ok i /\ tests i = [($"required", Call "skip_true"%string)] /\ makers i = [($"required", MakeBy "default_true"%string)].
Proof. eexists. repeat split; reflexivity. Qed.
(** [Dependency], service.rs 882-897. *)
Example dependency_derives : derive_default (Named [mk_field $"condition" (path "Condition") []; mk_field $"restart" (path "bool") [];
    mk_field $"required" (path "bool") [mk_attribute $"default" (MValue "true"%string)]]) =
  Ok [($"condition", None); ($"restart", None); ($"required", Some "true"%string)].
Proof. reflexivity. Qed.
Example default_twice : derive_default (Named [mk_field $"a" (path "bool") [mk_attribute $"default" (MValue 1); mk_attribute $"default" (MValue 2)]]) = Err DuplicateDefault.
Proof. reflexivity. Qed.
Example ssh_auth_expects : parse_expecting (E:=string) None [mk_attribute $"doc" MPath; mk_attribute $"serde" (MList [($"expecting", TLiteral $"an id")])] = Ok (Some $"an id").
Proof. reflexivity. Qed.
Example other_option : parse_expecting (E:=string) None [mk_attribute $"serde" (MList [($"rename_all", TLiteral $"lowercase")])] = Err UnsupportedItem.
Proof. reflexivity. Qed.
Example platforms_any_order : platforms_parse [DType $"ParseError" 1; DEnum $"Os" 2; DEnum $"Arch" 3; DType $"TryFromArchError" 4; DEnum $"Platform" 5] = Ok (mk_parts 5 2 3 1 4) /\
  platforms_parse [DEnum $"Os" 2; DEnum $"Os" 3] = Err (Duplicate $"Os") /\ platforms_parse [DEnum $"Os" 2] = Err (Missing $"Platform").
Proof. repeat split; reflexivity. Qed.
