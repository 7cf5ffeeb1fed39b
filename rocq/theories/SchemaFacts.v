(** Which values the codec combinators accept. *)

From Coq Require Import String Ascii List NArith ZArith Bool Lia ZifyBool ZifyN Permutation.
Import ListNotations.
From Verif Require Import Base BaseFacts Num Coll CollFacts KeysModel Serde Codec CodecFacts ScalarCodec CommonCodec VolumesModel ComposeProofs Schema.
Open Scope N_scope.

Definition accepts {E A : Type} (r : result E A) : Prop := exists a, r = Ok a.
Definition loads {A : Set} (c : codec A) (P : shape) : Prop := forall v, accepts (de c v) <-> P v.

Lemma accepts_map : forall {E A B} (f : A -> B) (r : result E A), accepts (map_ok f r) <-> accepts r.
Proof. intros. destruct r as [a|e]; cbn [map_ok]; split; intros [x H]; try discriminate; eexists; reflexivity. Qed.
Lemma accepts_err : forall {E F A} (f : E -> F) (r : result E A), accepts (map_err f r) <-> accepts r.
Proof. intros. destruct r as [a|e]; cbn [map_err]; split; intros [x H]; try discriminate; eexists; reflexivity. Qed.
Lemma accepts_bind : forall {E A B} (r : result E A) (f : A -> result E B), accepts (bind r f) <-> exists a, r = Ok a /\ accepts (f a).
Proof.
  intros. destruct r as [a|e]; cbn [bind]; split.
  - intros H. eauto.
  - intros (b & E1 & H). congruence.
  - intros [x H]. discriminate.
  - intros (b & E1 & _). discriminate.
Qed.
Lemma accepts_ok : forall {E A} (a : A), accepts (Ok a : result E A) <-> True.
Proof. intros. split; intros _; [exact I|now exists a]. Qed.
Lemma accepts_no : forall {E A} (e : E), accepts (Err e : result E A) <-> False.
Proof. intros. split; [intros [a H]; discriminate|intros []]. Qed.
Lemma accepts_collect : forall {E A B} (f : A -> result E B) l, accepts (collect f l) <-> Forall (fun x => accepts (f x)) l.
Proof.
  intros E A B f l. induction l as [|x l IH]; cbn [collect].
  - split; [constructor|]. intros _. now exists [].
  - rewrite accepts_bind. split.
    + intros (a & H & T). constructor; [now exists a|]. apply IH. apply accepts_bind in T as (r & T & _). now exists r.
    + intros H. inversion H as [|? ? [a Ha] T]; subst. apply IH in T as [r T]. exists a. split; [exact Ha|]. rewrite T. cbn [bind]. now eexists.
Qed.

Lemma loads_ext : forall {A : Set} (c : codec A) P Q, loads c P -> (forall v, P v <-> Q v) -> loads c Q.
Proof. intros A c P Q H E v. now rewrite (H v). Qed.

(** ** Scalars *)


(** Both directions, for each kind of value. *)
Ltac kinds v :=
  destruct v; cbn -[accepts N.leb Z.leb int_to_uint map_ok map_err]; rewrite ?accepts_map, ?accepts_err, ?accepts_ok, ?accepts_no;
  (split; [let H := fresh "H" in intros H; try contradiction H|
   let H := fresh "H" in intros H; unfold any_text, text, one_of, boolean, integer, float, list_of, map_of, either in H;
   try (exfalso; decompose [ex and or] H; discriminate)]).

Lemma loads_string : loads string_c any_text.
Proof. intros v. kinds v; first [now eexists|exact I]. Qed.
Lemma loads_path : loads path_c any_text.
Proof. exact loads_string. Qed.
Lemma loads_bool : loads bool_c boolean.
Proof. intros v. kinds v; first [now eexists|exact I]. Qed.
Lemma accepts_uint : forall max z, accepts (int_to_uint max z) <-> (0 <= z <= Z.of_N max)%Z.
Proof.
  intros max z. unfold int_to_uint. destruct ((0 <=? z)%Z && (z <=? Z.of_N max)%Z) eqn:E; rewrite ?accepts_ok, ?accepts_no; lia.
Qed.
Lemma loads_uint : forall max hi, hi = Z.of_N max -> loads (uint_c max) (integer 0 hi).
Proof. intros max hi -> v. kinds v; rewrite accepts_uint in *; [now eexists|]. destruct H as (z' & E & H). congruence. Qed.
Lemma loads_text : forall {E} {A : Set} show (parse : str -> result E A) inv (L : str -> Prop),
  (forall s, accepts (parse s) <-> L s) -> loads (text_c show parse inv) (text L).
Proof.
  intros E A show parse inv L H v. kinds v.
  - unfold accepts in H0. exists s. split; [reflexivity|]. now apply H.
  - destruct H0 as (t & E1 & H0). injection E1 as ->. now apply H.
Qed.
Lemma loads_any_text : forall {A : Set} show (f : str -> A) inv, loads (text_c show (total f) inv) any_text.
Proof. intros A show f inv v. kinds v; [now eexists|]. now exists (f s). Qed.
Definition enum_texts {A : Set} (t : enum_table A) : list str := flat_map (fun e => fst (snd e) :: snd (snd e)) t.
Lemma accepts_enum : forall {A : Set} (t : enum_table A) s, accepts (enum_find t s) <-> In s (enum_texts t).
Proof.
  intros A t s. induction t as [|[b [n al]] t IH]; cbn [enum_find enum_texts flat_map fst snd]; [rewrite accepts_no; reflexivity|].
  rewrite in_app_iff. cbn [In]. fold (enum_texts t). destruct (str_eqb_spec s n) as [->|N]; cbn [orb].
  - rewrite accepts_ok. tauto.
  - destruct (existsb (str_eqb s) al) eqn:X.
    + rewrite accepts_ok. apply existsb_exists in X as (y & Hy & Ey). apply str_eqb_eq in Ey. subst y. tauto.
    + assert (~ In s al). { intros J. assert (existsb (str_eqb s) al = true); [|congruence]. apply existsb_exists. exists s. split; [exact J|apply str_eqb_refl]. }
      rewrite IH. intuition congruence.
Qed.
Lemma loads_enum : forall {A : Set} eqb (t : enum_table A) l, enum_texts t = l -> loads (enum_c eqb t) (one_of l).
Proof.
  intros A eqb t l <- v. kinds v.
  - apply accepts_enum in H. now eexists.
  - destruct H as (t' & E & H). injection E as ->. now apply accepts_enum.
Qed.

(** ** Alternatives and containers *)

Lemma loads_option : forall {A : Set} (c : codec A) P, loads c P -> loads (option_c c) (nullable P).
Proof.
  intros A c P H v. unfold nullable. assert (X : v = VNull \/ v <> VNull) by (destruct v; (left; reflexivity) || (right; discriminate)).
  destruct X as [->|X].
  - cbn [de option_c]. rewrite accepts_ok. tauto.
  - replace (de (option_c c) v) with (map_ok Some (de c v)) by (destruct v; congruence || reflexivity). rewrite accepts_map, (H v). tauto.
Qed.
Lemma Forall_iff : forall {A} (P Q : A -> Prop) l, (forall x, P x <-> Q x) -> (Forall P l <-> Forall Q l).
Proof. intros A P Q l H. rewrite !Forall_forall. split; intros F x I; apply H; auto. Qed.
Lemma seq_shape : forall (P : shape) l, list_of P (VSeq l) <-> Forall P l.
Proof. intros P l. split; [intros (m & E & F); congruence|]. intros F. exists l. auto. Qed.
Lemma loads_list : forall {A : Set} (c : codec A) P, loads c P -> loads (list_c c) (list_of P).
Proof.
  intros A c P H v. destruct v; cbn [de list_c]; rewrite ?accepts_no; try (split; [intros []|intros (m & E & _); discriminate]).
  rewrite seq_shape, accepts_collect. apply Forall_iff. exact H.
Qed.
Lemma loads_iset : forall {A : Set} eqb (c : codec A) P, loads c P -> loads (iset_c eqb c) (list_of P).
Proof.
  intros A eqb c P H v. destruct v; cbn [de iset_c]; rewrite ?accepts_no; try (split; [intros []|intros (m & E & _); discriminate]).
  rewrite accepts_map, seq_shape, accepts_collect. apply Forall_iff. exact H.
Qed.
Lemma map_shape : forall K P es, map_of K P (VMap es) <-> Forall (fun e => text K (fst e) /\ P (snd e)) es.
Proof. intros K P l. split; [intros (m & E & F); congruence|]. intros F. exists l. auto. Qed.
Lemma loads_imap : forall {K V : Set} eqb (k : codec K) (v : codec V) L P, loads k (text L) -> loads v P -> loads (imap_c eqb k v) (map_of L P).
Proof.
  intros K V eqb k v L P Hk Hv x. destruct x; cbn [de imap_c]; rewrite ?accepts_no; try (split; [intros []|intros (m & E & _); discriminate]).
  rewrite accepts_map, map_shape, accepts_collect. apply Forall_iff. intros e. unfold entry_de. rewrite accepts_bind, <- (Hk (fst e)), <- (Hv (snd e)). split.
  - intros (a & Ha & T). split; [now exists a|]. apply accepts_bind in T as (b & Hb & _). now exists b.
  - intros [[a Ha] [b Hb]]. exists a. split; [exact Ha|]. rewrite Hb. cbn [bind]. now eexists.
Qed.

Definition only_maps (P : shape) : Prop := forall v, P v -> exists es, v = VMap es.
Definition no_maps (P : shape) : Prop := forall es, ~ P (VMap es).
Lemma loads_short_or_long : forall {A B : Set} (s : codec A) (l : codec B) P Q, loads s P -> loads l Q -> no_maps P -> only_maps Q ->
  loads (short_or_long_c s l) (either P Q).
Proof.
  intros A B s l P Q Hs Hl NP OQ v. unfold either. assert (X : (exists es, v = VMap es) \/ forall es, v <> VMap es) by (destruct v; (left; now eexists) || (right; discriminate)).
  destruct X as [[es ->]|X].
  - cbn [de short_or_long_c]. rewrite accepts_map, (Hl (VMap es)). specialize (NP es). tauto.
  - replace (de (short_or_long_c s l) v) with (map_ok (@Short A B) (de s v)) by (destruct v; (exfalso; eapply X; reflexivity) || reflexivity).
    rewrite accepts_map, (Hs v). split; [tauto|]. intros [H|H]; [exact H|]. apply OQ in H as [es H]. now apply X in H.
Qed.
Definition only_lists (P : shape) : Prop := forall v, P v -> exists l, v = VSeq l.
Definition only_scalars (P : shape) : Prop := forall v, P v -> match v with VNull | VSeq _ | VMap _ => False | _ => True end.
Lemma loads_item_or_list : forall {A B : Set} (i : codec A) (l : codec B) P Q, loads i P -> loads l Q -> only_scalars P -> only_lists Q ->
  loads (item_or_list_c i l) (either P Q).
Proof.
  intros A B i l P Q Hi Hl SP OQ v. unfold either. destruct v; cbn [de item_or_list_c]; rewrite ?accepts_map, ?accepts_no, ?(Hi _), ?(Hl _);
    split; intros H; try contradiction; try destruct H as [H|H]; auto.
  all: try (apply SP in H; contradiction). all: apply OQ in H as [m H]; discriminate.
Qed.

Lemma text_no_maps : forall L, no_maps (text L).
Proof. intros L es (s & E & _). discriminate. Qed.
Lemma any_text_no_maps : no_maps any_text.
Proof. intros es (s & E). discriminate. Qed.
Lemma integer_no_maps : forall lo hi, no_maps (integer lo hi).
Proof. intros lo hi es (s & E & _). discriminate. Qed.
Lemma one_of_no_maps : forall l, no_maps (one_of l).
Proof. intros l es (s & E & _). discriminate. Qed.
Lemma list_no_maps : forall P, no_maps (list_of P).
Proof. intros l es (s & E & _). discriminate. Qed.
Lemma either_no_maps : forall P Q, no_maps P -> no_maps Q -> no_maps (either P Q).
Proof. intros P Q HP HQ es [H|H]; [now apply HP in H|now apply HQ in H]. Qed.
Lemma map_only_maps : forall K P, only_maps (map_of K P).
Proof. intros K P v (es & E & _). now exists es. Qed.
Lemma object_only_maps : forall o fs cs, only_maps (object_with o fs cs).
Proof. intros o fs cs v (es & E & _). now exists es. Qed.
Lemma list_only_lists : forall P, only_lists (list_of P).
Proof. intros P v (es & E & _). now exists es. Qed.
Lemma text_scalars : forall L, only_scalars (text L).
Proof. intros L v (s & -> & _). exact I. Qed.
Lemma any_text_scalars : only_scalars any_text.
Proof. intros v (s & ->). exact I. Qed.
#[export] Hint Resolve text_no_maps any_text_no_maps integer_no_maps one_of_no_maps list_no_maps either_no_maps map_only_maps object_only_maps
  list_only_lists text_scalars any_text_scalars : loads.

(** ** Fields *)

Lemma lookup_values : forall k es, lookup k es = match values_of k es with [] => Ok None | [v] => Ok (Some v) | _ => Err DeError end.
Proof.
  intros k. unfold values_of. induction es as [|[x v] es IH]; cbn [lookup filter fst key_is]; [reflexivity|].
  destruct x; cbn [key_is]; try exact IH. destruct (str_eqb k s); [|exact IH]. cbn [map snd]. rewrite IH.
  destruct (map snd (filter (fun e => key_is k (fst e)) es)) as [|y [|z r]]; reflexivity.
Qed.

Definition reads (ms : list member) (fs : list entry) (cs : list condition) : Prop :=
  names ms = map e_name fs /\
  forall es, accepts (de_members ms es) <-> Forall (field_ok es) fs /\ Forall (fun c => c es) cs.

Lemma reads_nil : reads [] [] [].
Proof. split; [reflexivity|]. intros es. cbn [de_members]. rewrite accepts_ok. split; [intros _; split; constructor|tauto]. Qed.
(** A member with its own fields and conditions. *)
Definition member_is (m : member) (fs : list entry) (cs : list condition) : Prop :=
  m_names m = map e_name fs /\ forall es, accepts (m_de m es) <-> Forall (field_ok es) fs /\ Forall (fun c => c es) cs.
Lemma reads_cons : forall m ms fs fs' cs cs', member_is m fs cs -> reads ms fs' cs' -> reads (m :: ms) (fs ++ fs') (cs ++ cs').
Proof.
  intros m ms fs fs' cs cs' [N1 H1] [N2 H2]. split.
  - unfold names in *. cbn [flat_map]. rewrite map_app. congruence.
  - intros es. cbn [de_members]. rewrite accepts_bind, !Forall_app. split.
    + intros (a & Ha & T). apply accepts_bind in T as (b & Hb & _). specialize (H1 es). specialize (H2 es).
      pose proof (proj1 H1 (ex_intro _ a Ha)). pose proof (proj1 H2 (ex_intro _ b Hb)). tauto.
    + intros H. destruct (proj2 (H1 es)) as [a Ha]; [tauto|]. destruct (proj2 (H2 es)) as [b Hb]; [tauto|].
      exists a. split; [exact Ha|]. rewrite Hb. cbn [bind]. now eexists.
Qed.
Lemma member_field : forall n {A : Set} (c : codec A) d skip P, loads c P ->
  member_is (field n c d skip) [mk_entry n (is_none d) P] [].
Proof.
  intros n A c d skip P H. split; [reflexivity|]. intros es. cbn [m_de field].
  assert (X : forall Q : Prop, Q <-> Forall (fun f => match values_of n es with [] => is_none d = false | [v] => P v | _ => False end) [tt] -> (Q <-> Forall (field_ok es) [mk_entry n (is_none d) P] /\ Forall (fun c : condition => c es) [])).
  { intros Q E. rewrite E. split.
    - intros F. inversion F; subst. split; [|constructor]. constructor; [|constructor]. assumption.
    - intros [F _]. inversion F; subst. constructor; [assumption|constructor]. }
  apply X. clear X. rewrite lookup_values. destruct (values_of n es) as [|v [|u r]]; cbn [bind].
  - destruct d as [a|]; cbn [is_none]; rewrite ?accepts_ok, ?accepts_no; split; try tauto; [intros _; now repeat constructor|].
    intros F. inversion F. discriminate.
  - rewrite (H v). split; [intros F; now repeat constructor|]. intros F. now inversion F.
  - rewrite accepts_no. split; [intros []|]. intros F. now inversion F.
Qed.

Lemma reads_required : forall n {A : Set} (c : codec A) P ms fs cs, loads c P -> reads ms fs cs -> reads (required n c :: ms) (req n P :: fs) cs.
Proof. intros n A c P ms fs cs H R. apply (reads_cons _ _ [req n P] fs [] cs); [|exact R]. apply (member_field n c None _ P H). Qed.
Lemma reads_default : forall n {A : Set} (c : codec A) d skip P ms fs cs, loads c P -> reads ms fs cs -> reads (field n c (Some d) skip :: ms) (opt n P :: fs) cs.
Proof. intros n A c d skip P ms fs cs H R. apply (reads_cons _ _ [opt n P] fs [] cs); [|exact R]. apply (member_field n c (Some d) _ P H). Qed.
Lemma reads_optional : forall n {A : Set} (c : codec A) P ms fs cs, loads c P -> reads ms fs cs -> reads (optional n c :: ms) (maybe n P :: fs) cs.
Proof. intros n A c P ms fs cs H R. apply reads_default; [now apply loads_option|exact R]. Qed.
Lemma reads_flag : forall n ms fs cs, reads ms fs cs -> reads (flag n :: ms) (opt n boolean :: fs) cs.
Proof. intros n ms fs cs R. apply reads_default; [exact loads_bool|exact R]. Qed.
Lemma reads_flag_true : forall n ms fs cs, reads ms fs cs -> reads (flag_true n :: ms) (opt n boolean :: fs) cs.
Proof. intros n ms fs cs R. apply reads_default; [exact loads_bool|exact R]. Qed.
Lemma reads_many : forall n {A : Set} (c : codec (list A)) P ms fs cs, loads c P -> reads ms fs cs -> reads (many n c :: ms) (opt n P :: fs) cs.
Proof. intros n A c P ms fs cs H R. now apply reads_default. Qed.
Lemma loads_some : forall {A : Set} (c : codec A) P, loads c P -> loads (some_c c) P.
Proof. intros A c P H v. cbn [de some_c]. rewrite accepts_map. apply H. Qed.
Lemma reads_given : forall n {A : Set} (c : codec A) P ms fs cs, loads c P -> reads ms fs cs -> reads (given n c :: ms) (opt n P :: fs) cs.
Proof. intros n A c P ms fs cs H R. apply reads_default; [now apply loads_some|exact R]. Qed.

(** ** Groups of exclusive fields *)

Definition tells {A : Set} (c : codec (option A)) : Prop := forall v a, de c v = Ok a -> is_none a = is_null v.
Lemma option_tells : forall {A : Set} (c : codec A), tells (option_c c).
Proof.
  intros A c v a H. destruct v; cbn [de option_c] in H; try (injection H as <-; reflexivity).
  all: destruct (de c _); cbn [map_ok] in H; [|discriminate]; injection H as <-; reflexivity.
Qed.
Lemma some_tells : forall {A : Set} (c : codec A) P, loads c P -> ~ P VNull -> tells (some_c c).
Proof.
  intros A c P L N v a H. cbn [de some_c] in H. destruct (de c v) as [b|] eqn:E; cbn [map_ok] in H; [|discriminate]. injection H as <-. cbn [is_none].
  destruct v; try reflexivity. exfalso. apply N. apply L. now exists b.
Qed.
Definition slot (n : str) {A : Set} (c : codec (option A)) : member := field n c (Some None) is_none.
Lemma slot_set : forall n {A : Set} (c : codec (option A)) es a, tells c -> m_de (slot n c) es = Ok a -> set es n = negb (is_none a).
Proof.
  intros n A c es a T H. cbn [m_de slot field] in H. rewrite lookup_values in H. unfold set. destruct (values_of n es) as [|v [|u r]]; cbn [bind] in H.
  - injection H as <-. reflexivity.
  - apply T in H. cbn [forallb]. rewrite H. now rewrite andb_true_r.
  - discriminate.
Qed.
Definition one {A : Set} (o : option A) : nat := if is_none o then 0 else 1.
Lemma member_group2 : forall {A1 A2 B : Set} n1 (c1 : codec (option A1)) P1 n2 (c2 : codec (option A2)) P2 wr (rd : option A1 * (option A2 * unit) -> result de_error B) inv nrm (cnt : nat -> Prop),
  loads c1 P1 -> loads c2 P2 -> tells c1 -> tells c2 ->
  (forall a b, accepts (rd (a, (b, tt))) <-> cnt (one a + one b)%nat) ->
  member_is (group [slot n1 c1; slot n2 c2] wr rd inv nrm) [opt n1 P1; opt n2 P2] [fun es => cnt (List.length (filter (set es) [n1; n2]))].
Proof.
  intros A1 A2 B n1 c1 P1 n2 c2 P2 wr rd inv nrm cnt L1 L2 T1 T2 R. split; [reflexivity|]. intros es. cbn [m_de group].
  assert (X : reads [slot n1 c1; slot n2 c2] [opt n1 P1; opt n2 P2] []) by (apply reads_default; [exact L1|]; apply reads_default; [exact L2|exact reads_nil]).
  destruct X as [_ X]. rewrite accepts_bind. split.
  - intros ((a & b & []) & H & Y). pose proof (proj1 (X es) (ex_intro _ _ H)) as [F _]. split; [exact F|]. constructor; [|constructor].
    cbn [de_members] in H. destruct (m_de (slot n1 c1) es) as [a'|] eqn:H1; cbn [bind] in H; [|discriminate].
    destruct (m_de (slot n2 c2) es) as [b'|] eqn:H2; cbn [bind] in H; [|discriminate]. injection H as -> ->.
    apply R in Y. cbn [filter]. rewrite (slot_set _ _ _ _ T1 H1), (slot_set _ _ _ _ T2 H2). destruct a, b; exact Y.
  - intros [F C]. destruct (proj2 (X es)) as [v H]; [split; [exact F|constructor]|]. exists v. split; [exact H|]. destruct v as (a & b & []). apply R.
    cbn [de_members] in H. destruct (m_de (slot n1 c1) es) as [a'|] eqn:H1; cbn [bind] in H; [|discriminate].
    destruct (m_de (slot n2 c2) es) as [b'|] eqn:H2; cbn [bind] in H; [|discriminate]. injection H as -> ->.
    inversion C as [|? ? Y _]; subst. cbn [filter] in Y. rewrite (slot_set _ _ _ _ T1 H1), (slot_set _ _ _ _ T2 H2) in Y. destruct a, b; exact Y.
Qed.
Lemma member_group3 : forall {A1 A2 A3 B : Set} n1 (c1 : codec (option A1)) P1 n2 (c2 : codec (option A2)) P2 n3 (c3 : codec (option A3)) P3 wr
    (rd : option A1 * (option A2 * (option A3 * unit)) -> result de_error B) inv nrm (cnt : nat -> Prop),
  loads c1 P1 -> loads c2 P2 -> loads c3 P3 -> tells c1 -> tells c2 -> tells c3 ->
  (forall a b d, accepts (rd (a, (b, (d, tt)))) <-> cnt (one a + one b + one d)%nat) ->
  member_is (group [slot n1 c1; slot n2 c2; slot n3 c3] wr rd inv nrm) [opt n1 P1; opt n2 P2; opt n3 P3]
    [fun es => cnt (List.length (filter (set es) [n1; n2; n3]))].
Proof.
  intros A1 A2 A3 B n1 c1 P1 n2 c2 P2 n3 c3 P3 wr rd inv nrm cnt L1 L2 L3 T1 T2 T3 R. split; [reflexivity|]. intros es. cbn [m_de group].
  assert (X : reads [slot n1 c1; slot n2 c2; slot n3 c3] [opt n1 P1; opt n2 P2; opt n3 P3] [])
    by (apply reads_default; [exact L1|]; apply reads_default; [exact L2|]; apply reads_default; [exact L3|exact reads_nil]).
  destruct X as [_ X]. rewrite accepts_bind. split.
  - intros ((a & b & d & []) & H & Y). pose proof (proj1 (X es) (ex_intro _ _ H)) as [F _]. split; [exact F|]. constructor; [|constructor].
    cbn [de_members] in H. destruct (m_de (slot n1 c1) es) as [a'|] eqn:H1; cbn [bind] in H; [|discriminate].
    destruct (m_de (slot n2 c2) es) as [b'|] eqn:H2; cbn [bind] in H; [|discriminate].
    destruct (m_de (slot n3 c3) es) as [d'|] eqn:H3; cbn [bind] in H; [|discriminate]. injection H as -> -> ->.
    apply R in Y. cbn [filter]. rewrite (slot_set _ _ _ _ T1 H1), (slot_set _ _ _ _ T2 H2), (slot_set _ _ _ _ T3 H3). destruct a, b, d; exact Y.
  - intros [F C]. destruct (proj2 (X es)) as [v H]; [split; [exact F|constructor]|]. exists v. split; [exact H|]. destruct v as (a & b & d & []). apply R.
    cbn [de_members] in H. destruct (m_de (slot n1 c1) es) as [a'|] eqn:H1; cbn [bind] in H; [|discriminate].
    destruct (m_de (slot n2 c2) es) as [b'|] eqn:H2; cbn [bind] in H; [|discriminate].
    destruct (m_de (slot n3 c3) es) as [d'|] eqn:H3; cbn [bind] in H; [|discriminate]. injection H as -> -> ->.
    inversion C as [|? ? Y _]; subst. cbn [filter] in Y. rewrite (slot_set _ _ _ _ T1 H1), (slot_set _ _ _ _ T2 H2), (slot_set _ _ _ _ T3 H3) in Y. destruct a, b, d; exact Y.
Qed.

(** ** Any YAML *)

Lemma sval_eqb_eq : forall a b, sval_eqb a b = true -> a = b.
Proof.
  fix rec 1. intros a b. destruct a as [|x|x|x|x|l|es], b as [|y|y|y|y|m|fs]; cbn [sval_eqb]; intros H; try discriminate.
  - reflexivity.
  - apply Bool.eqb_prop in H. now subst.
  - apply Z.eqb_eq in H. now subst.
  - apply N.eqb_eq in H. now subst.
  - apply str_eqb_eq in H. now subst.
  - f_equal. revert m H. induction l as [|x l IH]; intros [|y m] H; try discriminate; [reflexivity|]. apply andb_true_iff in H as [H1 H2]. f_equal; [exact (rec _ _ H1)|exact (IH _ H2)].
  - f_equal. revert fs H. induction es as [|[k x] es IH]; intros [|[j y] fs] H; try discriminate; [reflexivity|].
    apply andb_true_iff in H as [H H2]. apply andb_true_iff in H as [H0 H1]. f_equal; [f_equal; [exact (rec _ _ H0)|exact (rec _ _ H1)]|exact (IH _ H2)].
Qed.
Lemma NoDup_no_repeat : forall l, NoDup l -> no_repeat l = true.
Proof.
  induction l as [|x l IH]; intros H; [reflexivity|]. inversion H as [|? ? N D]; subst. cbn [no_repeat]. rewrite (IH D), andb_true_r. apply negb_true_iff.
  destruct (existsb (sval_eqb x) l) eqn:E; [|reflexivity]. exfalso. apply existsb_exists in E as (y & Hy & E). apply sval_eqb_eq in E. now subst.
Qed.
Lemma yaml_iff : forall v, yaml_ok v = true <-> yaml v.
Proof.
  intros v. split.
  - revert v. fix rec 1. intros v H. destruct v as [| | | | |l|es]; try constructor; cbn [yaml_ok] in H.
    + revert H. induction l as [|v l IH]; intros H u I; [destruct I|]. cbn [forallb] in H. apply andb_true_iff in H as [H1 H2]. destruct I as [<-|I]; [exact (rec v H1)|exact (IH H2 u I)].
    + apply andb_true_iff in H as [H _]. now apply no_repeat_NoDup.
    + apply andb_true_iff in H as [_ H]. revert H. induction es as [|[k v] es IH]; intros H x y I; [destruct I|]. cbn [forallb fst snd] in H. apply andb_true_iff in H as [H1 H2].
      apply andb_true_iff in H1 as [Hk Hv]. destruct I as [E|I]; [|exact (IH H2 x y I)]. assert (Ek : k = x) by congruence. rewrite <- Ek. exact (rec k Hk).
    + apply andb_true_iff in H as [_ H]. revert H. induction es as [|[k v] es IH]; intros H x y I; [destruct I|]. cbn [forallb fst snd] in H. apply andb_true_iff in H as [H1 H2].
      apply andb_true_iff in H1 as [Hk Hv]. destruct I as [E|I]; [|exact (IH H2 x y I)]. assert (Ev : v = y) by congruence. rewrite <- Ev. exact (rec v Hv).
  - intros H. induction H as [| | | | |l H IH|es D H IH H' IH']; try reflexivity; cbn [yaml_ok].
    + apply forallb_forall. exact IH.
    + rewrite (NoDup_no_repeat _ D). cbn [andb]. apply forallb_forall. intros [k x] I. cbn [fst snd]. now rewrite (IH k x I), (IH' k x I).
Qed.
Lemma accepts_yaml : forall v, accepts (de yaml_c v) <-> yaml v.
Proof. intros v. cbn [de yaml_c]. rewrite <- yaml_iff. destruct (yaml_ok v); rewrite ?accepts_ok, ?accepts_no; split; congruence || tauto. Qed.

(** ** Structs *)

Lemma accepts_ext_entry : forall e, accepts (ext_entry e) <-> exists s, fst e = VStr s /\ extension s (snd e).
Proof.
  intros [k x]. unfold ext_entry, extension. cbn [fst snd]. destruct k; try (rewrite accepts_no; split; [intros []|intros (s0 & E & _); discriminate]).
  rewrite accepts_bind. split.
  - intros (k & Hk & T). apply accepts_bind in T as (y & Hy & _). exists s. split; [reflexivity|].
    assert (X : extension_key_new s = Ok k) by (destruct (extension_key_new s); cbn [map_err] in Hk; congruence). apply extension_key_new_iff in X as [_ X].
    destruct X as [X1 X2]. split; [exact X1|]. split; [exact X2|]. apply accepts_yaml. now exists y.
  - intros (s0 & E & H1 & H2 & H3). injection E as <-. exists s. split.
    + assert (X : extension_key_new s = Ok s) by (apply extension_key_new_iff; unfold ext_key; auto). now rewrite X.
    + apply accepts_yaml in H3 as [y Hy]. rewrite Hy. cbn [bind]. now eexists.
Qed.
Lemma accepts_ext : forall ns es, accepts (ext_de (unknown ns es)) <->
  forall k x, In (k, x) es -> exists s, k = VStr s /\ (In s ns \/ extension s x).
Proof.
  intros ns es. unfold ext_de. rewrite accepts_map, accepts_collect, Forall_forall. split.
  - intros H k x I. assert (K : (exists s, k = VStr s) \/ forall s, k <> VStr s) by (destruct k; (left; now eexists) || (right; discriminate)).
    destruct K as [[s ->]|K].
    + exists s. split; [reflexivity|]. destruct (existsb (str_eqb s) ns) eqn:E.
      * left. apply existsb_exists in E as (y & Hy & E). apply str_eqb_eq in E. now subst.
      * right. assert (J : In (VStr s, x) (unknown ns es)) by (apply filter_In; split; [exact I|]; cbn [fst]; now rewrite E).
        apply H in J. apply accepts_ext_entry in J as (s' & E' & J). cbn [fst snd] in *. congruence.
    + assert (J : In (k, x) (unknown ns es)) by (apply filter_In; split; [exact I|]; cbn [fst]; destruct k; try reflexivity; exfalso; eapply K; reflexivity).
      apply H in J. apply accepts_ext_entry in J as (s' & E' & _). exfalso. eapply K. exact E'.
  - intros H [k x] I. apply filter_In in I as [I J]. destruct (H k x I) as (s & -> & [Hs|Hs]).
    + exfalso. cbn [fst] in J. apply negb_true_iff in J. assert (existsb (str_eqb s) ns = true); [|congruence]. apply existsb_exists. exists s. split; [exact Hs|apply str_eqb_refl].
    + apply accepts_ext_entry. exists s. auto.
Qed.

Lemma object_shape : forall o fs cs es, object_with o fs cs (VMap es) <->
  Forall (field_ok es) fs /\ Forall (fun c => c es) cs /\ forall k x, In (k, x) es -> exists s, k = VStr s /\ (In s (map e_name fs) \/ o s x).
Proof. intros o fs cs es. split; [intros (m & E & H); injection E as <-; exact H|]. intros H. exists es. auto. Qed.

Lemma loads_struct_ext : forall ms fs cs, reads ms fs cs -> loads (struct_ext_c ms) (object fs cs).
Proof.
  intros ms fs cs [N R] v. destruct v as [| | | | | |m]; cbn [de struct_ext_c]; try (rewrite accepts_no; split; [intros []|intros (es & E & _); discriminate]).
  unfold object. rewrite object_shape. rewrite accepts_bind. rewrite <- N. rewrite <- accepts_ext. split.
  - intros (a & Ha & T). apply accepts_bind in T as (x & Hx & _). pose proof (proj1 (R _) (ex_intro _ a Ha)) as [H1 H2]. split; [exact H1|]. split; [exact H2|]. now exists x.
  - intros (H1 & H2 & x & Hx). destruct (proj2 (R m)) as [a Ha]; [auto|]. exists a. split; [exact Ha|]. rewrite Hx. cbn [bind]. now eexists.
Qed.
Lemma loads_struct : forall ms fs, reads ms fs [] -> loads (struct_c ms) (open_object fs).
Proof.
  intros ms fs [N R] v. destruct v as [| | | | | |m]; cbn [de struct_c]; try (rewrite accepts_no; split; [intros []|intros (es & E & _); discriminate]).
  unfold open_object. rewrite object_shape. split.
  - intros H. destruct (string_keys m) eqn:K; [|now apply accepts_no in H]. apply R in H as [H _]. split; [exact H|]. split; [constructor|].
    intros k x I. unfold string_keys in K. rewrite forallb_forall in K. specialize (K _ I). cbn [fst] in K. destruct k; try discriminate. exists s. split; [reflexivity|]. right. exact Logic.I.
  - intros (H & _ & K). replace (string_keys m) with true; [apply R; split; [exact H|constructor]|].
    symmetry. apply forallb_forall. intros [k x] I. destruct (K k x I) as (s & -> & _). reflexivity.
Qed.
Lemma loads_iso : forall {A B : Set} (c : codec A) wr (mk : A -> B) P, loads c P -> loads (iso c wr mk) P.
Proof. intros A B c wr mk P H v. cbn [de iso]. rewrite accepts_map. apply H. Qed.
