(** Images: parsing, accessors and setters. *)

From Coq Require Import String Ascii List NArith ZArith Bool Lia ZifyBool ZifyN ZifyNat.
Import ListNotations.
From Verif Require Import Base BaseFacts Num NumFacts Regex RegexFacts KeysModel KeysProofs ImageModel ImageSpec ImageLang.
Open Scope N_scope.

(** ** Characters *)

Lemma parts_In : forall s c, matches PARTS_RE s -> In c s ->
  char_is_alnum c = true \/ c = ch "." \/ c = ch "_" \/ c = ch "-" \/ c = ch "/".
Proof.
  intros s c H Hc. apply parts_split in H. rewrite <- (split_join (ch "/") s) in Hc. revert Hc H.
  generalize (split (ch "/") s) as l. induction l as [|p l IH]; intros Hc H; [destruct Hc|].
  inversion H as [|x y Hp Hl]; subst x y. destruct l as [|q l].
  - destruct (part_In p c Hp Hc); tauto.
  - change (join [ch "/"] (p :: q :: l)) with (p ++ [ch "/"] ++ join [ch "/"] (q :: l)) in Hc.
    apply in_app_or in Hc. destruct Hc as [Hc|Hc]; [destruct (part_In p c Hp Hc); tauto|].
    apply in_app_or in Hc. destruct Hc as [[Hc|[]]|Hc]; [subst c; tauto|]. apply IH; assumption.
Qed.

Lemma parts_no_colon : forall s, matches PARTS_RE s -> ~ In (ch ":") s.
Proof. intros s H Hc. destruct (parts_In s _ H Hc) as [X|[X|[X|[X|X]]]]; discriminate. Qed.

Lemma name_no_at : forall s, is_name s -> ~ In (ch "@") s.
Proof.
  intros s [H|[host [port [rest [-> [H1 [_ [H2 H3]]]]]]]] Hc.
  - destruct (parts_In s _ H Hc) as [X|[X|[X|[X|X]]]]; discriminate.
  - apply in_app_or in Hc. destruct Hc as [Hc|Hc].
    { destruct (part_In host _ H1 Hc) as [X|[X|[X|X]]]; discriminate. }
    change ($":" ++ port ++ rest) with (ch ":" :: (port ++ rest)) in Hc.
    destruct Hc as [Hc|Hc]; [discriminate|]. apply in_app_or in Hc. destruct Hc as [Hc|Hc].
    { destruct (port_chars port _ H2 Hc); discriminate. }
    destruct H3 as [->|[r [-> H3]]]; [destruct Hc|]. destruct Hc as [Hc|Hc]; [discriminate|].
    destruct (parts_In r _ H3 Hc) as [X|[X|[X|[X|X]]]]; discriminate.
Qed.

Lemma tag_In : forall t c, is_tag t -> In c t -> tag_char c = true.
Proof.
  intros t c [H _] Hc. unfold TAG_RE in H. apply matches_plus_cls in H. destruct H as [_ H].
  rewrite <- tag_char_iff in H. rewrite forallb_forall in H. auto.
Qed.

Lemma name_rsplit : forall n, is_name n -> port_has_path n ->
  match rsplit_once (ch ":") n with Some (_, b) => contains (ch "/") b = true | None => True end.
Proof.
  intros n H P. destruct (rsplit_once (ch ":") n) as [[a b]|] eqn:E; [|exact I].
  destruct H as [H|[host [port [rest [-> [H1 [_ [H2 H3]]]]]]]].
  - exfalso. apply rsplit_once_some in E. destruct E as [-> _]. apply (parts_no_colon _ H). apply in_or_app. right. left. reflexivity.
  - destruct H3 as [->|[r [-> H3]]].
    + exfalso. rewrite app_nil_r in P. assert (Hc : In (ch ":") (host ++ $":" ++ port)) by (apply in_or_app; right; left; reflexivity).
      apply P in Hc. apply in_app_or in Hc. destruct Hc as [Hc|Hc]; [exact (no_slash_part host H1 Hc)|].
      destruct Hc as [Hc|Hc]; [discriminate|]. destruct (port_chars port _ H2 Hc); discriminate.
    + change ($":" ++ port ++ $"/" ++ r) with (ch ":" :: (port ++ $"/" ++ r)) in E. rewrite rsplit_once_app in E.
      * injection E as _ <-. apply contains_iff. apply in_or_app. right. left. reflexivity.
      * intros Hc. apply in_app_or in Hc. destruct Hc as [Hc|Hc]; [destruct (port_chars port _ H2 Hc); discriminate|].
        destruct Hc as [Hc|Hc]; [discriminate|]. exact (parts_no_colon r H3 Hc).
Qed.

(** ** Representation *)

Definition start_of (name : str) (x : suffix) : option tod_start :=
  match x with NoSuffix => None | Tagged _ => Some (STag (blen name + 1)) | Digested _ => Some (SDigest (blen name + 1)) end.

Definition mk_image (p : parts) : image :=
  {| i_inner := parts_text p; i_registry_end := option_map blen (p_registry p); i_start := start_of (p_name p) (p_suffix p) |}.

(** What the cached registry may be. *)
Definition registry_inv (reg : option str) (name : str) : Prop :=
  match reg with
  | None => matches PARTS_RE name
  | Some r => is_name r /\ (name = r \/ exists rest, name = r ++ $"/" ++ rest /\ matches PARTS_RE rest)
  end.

Definition parts_ok (p : parts) : Prop := registry_inv (p_registry p) (p_name p) /\ is_suffix (p_suffix p).

Lemma parts_app : forall a b, matches PARTS_RE a -> matches PARTS_RE b -> matches PARTS_RE (a ++ $"/" ++ b).
Proof.
  intros a b Ha Hb. apply parts_split in Hb. rewrite parts_split. apply parts_split in Ha.
  rewrite <- (split_join (ch "/") a). assert (Np := Ha). revert Np.
  assert (NS : Forall (fun p => ~ In (ch "/") p) (split (ch "/") a)).
  { eapply Forall_impl; [|exact Ha]. intros p. apply no_slash_part. }
  pose proof (split_nonempty (ch "/") a) as Ne. revert Ne NS. generalize (split (ch "/") a) as l. clear a Ha.
  induction l as [|p l IH]; intros Ne NS Np; [congruence|]. inversion Np as [|x y Hp Hl]; subst x y.
  inversion NS as [|x y Hp' Hl']; subst x y. destruct l as [|q l].
  - cbn [join]. change ($"/" ++ b) with (ch "/" :: b). rewrite split_app by exact Hp'. constructor; assumption.
  - change (join [ch "/"] (p :: q :: l)) with (p ++ [ch "/"] ++ join [ch "/"] (q :: l)). rewrite <- !app_assoc.
    change ([ch "/"] ++ join [ch "/"] (q :: l) ++ $"/" ++ b) with (ch "/" :: (join [ch "/"] (q :: l) ++ $"/" ++ b)).
    rewrite split_app by exact Hp'. constructor; [exact Hp|]. apply IH; [discriminate|exact Hl'|exact Hl].
Qed.

Lemma name_app : forall a b, is_name a -> matches PARTS_RE b -> is_name (a ++ $"/" ++ b).
Proof.
  intros a b [H|[host [port [rest [-> [H1 [H2 [H3 H4]]]]]]]] Hb.
  - left. apply parts_app; assumption.
  - right. exists host, port, (rest ++ $"/" ++ b). rewrite <- !app_assoc. split; [reflexivity|]. repeat split; auto; try apply H3.
    right. destruct H4 as [->|[r [-> Hr]]].
    + exists b. auto.
    + exists (r ++ $"/" ++ b). split; [rewrite <- app_assoc; reflexivity|]. apply parts_app; assumption.
Qed.

Lemma registry_inv_name : forall reg name, registry_inv reg name -> is_name name.
Proof.
  intros reg name H. destruct reg as [r|]; [|left; exact H]. destruct H as [H [->|[rest [-> Hr]]]]; [exact H|].
  apply name_app; assumption.
Qed.

Lemma name_split_registry : forall s, is_name s -> registry_inv (registry_of s) s.
Proof.
  intros s H. unfold registry_of, registry_inv. destruct (first_part s) as [first [rest [E [Nf Hs]]]]. rewrite E.
  destruct (contains (ch ".") first) eqn:Ec.
  - destruct H as [H|[host [port [r [H1 [H2 [H3 [H4 H5]]]]]]]].
    + apply parts_split in H. rewrite E in H. inversion H as [|x y Hf Hr]; subst x y. split.
      * left. apply parts_split. rewrite split_no by exact Nf. auto.
      * destruct Hs as [[-> _]|[r1 [-> ->]]]; [auto|]. right. exists r1. split; [reflexivity|]. apply parts_split. exact Hr.
    + assert (Nh : ~ In (ch "/") (host ++ $":" ++ port)).
      { intros Hc. apply in_app_or in Hc. destruct Hc as [Hc|[Hc|Hc]]; [exact (no_slash_part host H2 Hc)|discriminate|].
        destruct (port_chars port _ H4 Hc); discriminate. }
      destruct H5 as [->|[r' [-> Hr']]].
      * rewrite app_nil_r in H1. rewrite <- H1 in Nh. rewrite (split_no _ _ Nh) in E. injection E as <- <-.
        split; [|auto]. right. exists host, port, []. rewrite app_nil_r. repeat split; auto; apply H4.
      * rewrite !app_assoc in H1. rewrite <- (app_assoc host) in H1. rewrite <- app_assoc in H1.
        change ($"/" ++ r') with (ch "/" :: r') in H1. rewrite H1, (split_app _ _ _ Nh) in E. injection E as <- <-.
        split.
        -- right. exists host, port, []. rewrite app_nil_r. repeat split; auto; apply H4.
        -- right. exists r'. auto.
  - destruct H as [H|[host [port [r [H1 [H2 [H3 [H4 H5]]]]]]]]; [exact H|]. exfalso.
    assert (Nh : ~ In (ch "/") (host ++ $":" ++ port)).
    { intros Hc. apply in_app_or in Hc. destruct Hc as [Hc|[Hc|Hc]]; [exact (no_slash_part host H2 Hc)|discriminate|].
      destruct (port_chars port _ H4 Hc); discriminate. }
    assert (first = host ++ $":" ++ port) as ->.
    { destruct H5 as [->|[r' [-> Hr']]].
      - rewrite app_nil_r in H1. rewrite <- H1 in Nh. rewrite (split_no _ _ Nh) in E. injection E as <- <-. exact H1.
      - rewrite !app_assoc in H1. rewrite <- (app_assoc host) in H1. rewrite <- app_assoc in H1.
        change ($"/" ++ r') with (ch "/" :: r') in H1. rewrite H1, (split_app _ _ _ Nh) in E. injection E as <- <-. reflexivity. }
    assert (X : contains (ch ".") (host ++ $":" ++ port) = true) by (apply contains_iff; apply in_or_app; auto). congruence.
Qed.

(** ** Parsing *)

Lemma image_parse_ok : forall s i, image_parse s = Ok i <->
  exists n x, s = n ++ suffix_text x /\ is_name n /\ is_suffix x /\ unambiguous n x /\
    i = mk_image {| p_registry := registry_of n; p_name := n; p_suffix := x |}.
Proof.
  intros s i. unfold image_parse, image_parse_impl. split.
  - intros H.
    destruct (split_once (ch "@") s) as [[im d]|] eqn:Ea.
    + destruct (digest_new d) as [d'|] eqn:Ed; cbn [bind] in H; [|discriminate].
      apply digest_new_ok in Ed. destruct Ed as [-> Hd]. apply split_once_some in Ea. destruct Ea as [-> Na].
      match type of H with context [match match ?x with Some _ => _ | None => _ end with _ => _ end] =>
        destruct x as [[a b]|] eqn:Er end.
      * destruct (contains (ch "/") b) eqn:Eb.
        -- cbn [bind] in H. destruct (iname_new im) as [n|] eqn:En; cbn [bind] in H; [|discriminate]. injection H as <-.
           apply iname_new_ok in En. destruct En as [Hn ->]. exists im, (Digested d). split; [reflexivity|].
           split; [exact Hn|]. split; [exact Hd|]. split; [|reflexivity].
           intros _. apply rsplit_once_some in Er. destruct Er as [-> _]. apply contains_iff in Eb. apply in_or_app. right. right. exact Eb.
        -- destruct (tag_new b) as [t|] eqn:Et; cbn [bind] in H; discriminate.
      * cbn [bind] in H. destruct (iname_new im) as [n|] eqn:En; cbn [bind] in H; [|discriminate]. injection H as <-.
        apply iname_new_ok in En. destruct En as [Hn ->]. exists im, (Digested d). split; [reflexivity|].
        split; [exact Hn|]. split; [exact Hd|]. split; [|reflexivity].
        intros Hc. apply rsplit_once_none in Er. contradiction.
    + cbn [bind] in H.
      destruct (rsplit_once (ch ":") s) as [[a b]|] eqn:Er.
      * destruct (contains (ch "/") b) eqn:Eb.
        -- cbn [bind] in H. destruct (iname_new s) as [n|] eqn:En; cbn [bind] in H; [|discriminate]. injection H as <-.
           apply iname_new_ok in En. destruct En as [Hn ->]. exists s, NoSuffix. cbn [suffix_text]. rewrite app_nil_r.
           split; [reflexivity|]. split; [exact Hn|]. split; [exact I|]. split.
           ++ intros _. apply rsplit_once_some in Er. destruct Er as [-> _]. apply contains_iff in Eb. apply in_or_app. right. right. exact Eb.
           ++ unfold mk_image, parts_text. cbn [p_name p_suffix p_registry suffix_text start_of n_registry_end fst snd]. rewrite app_nil_r. reflexivity.
        -- destruct (tag_new b) as [t|] eqn:Et; cbn [bind] in H; [|discriminate].
           destruct (iname_new a) as [n|] eqn:En; cbn [bind] in H; [|discriminate]. injection H as <-.
           apply iname_new_ok in En. destruct En as [Hn ->]. apply tag_new_ok in Et. destruct Et as [-> Ht].
           apply rsplit_once_some in Er. destruct Er as [-> _].
           exists a, (Tagged b). split; [reflexivity|]. split; [exact Hn|]. split; [exact Ht|]. split; [exact I|reflexivity].
      * cbn [bind] in H. destruct (iname_new s) as [n|] eqn:En; cbn [bind] in H; [|discriminate]. injection H as <-.
        apply iname_new_ok in En. destruct En as [Hn ->]. exists s, NoSuffix. cbn [suffix_text]. rewrite app_nil_r.
        split; [reflexivity|]. split; [exact Hn|]. split; [exact I|]. split.
        -- intros Hc. apply rsplit_once_none in Er. contradiction.
        -- unfold mk_image, parts_text. cbn [p_name p_suffix p_registry suffix_text start_of n_registry_end fst snd]. rewrite app_nil_r. reflexivity.
  - intros [n [x [-> [Hn [Hx [Hu ->]]]]]].
    assert (En : iname_new n = Ok {| n_inner := n; n_registry_end := option_map blen (registry_of n) |})
      by (apply iname_new_ok; auto).
    destruct x as [|t|d]; cbn [suffix_text].
    + rewrite app_nil_r. rewrite (proj2 (split_once_none (ch "@") n) (name_no_at n Hn)). cbn [bind].
      pose proof (name_rsplit n Hn Hu) as Hr. destruct (rsplit_once (ch ":") n) as [[a b]|].
      * rewrite Hr. cbn [bind]. rewrite En. cbn [bind n_registry_end fst snd].
        unfold mk_image, parts_text. cbn [p_name p_suffix p_registry suffix_text start_of]. rewrite app_nil_r. reflexivity.
      * cbn [bind]. rewrite En. cbn [bind n_registry_end fst snd].
        unfold mk_image, parts_text. cbn [p_name p_suffix p_registry suffix_text start_of]. rewrite app_nil_r. reflexivity.
    + assert (Na : ~ In (ch "@") (n ++ ch ":" :: t)).
      { intros Hc. apply in_app_or in Hc. destruct Hc as [Hc|[Hc|Hc]]; [exact (name_no_at n Hn Hc)|discriminate|].
        apply (tag_In t _ Hx) in Hc. discriminate. }
      rewrite (proj2 (split_once_none (ch "@") _) Na). cbn [bind].
      rewrite rsplit_once_app by (intros Hc; apply (tag_In t _ Hx) in Hc; discriminate).
      destruct (contains (ch "/") t) eqn:Ec; [apply contains_iff in Ec; apply (tag_In t _ Hx) in Ec; discriminate|].
      rewrite (proj2 (tag_new_ok t t) (conj eq_refl Hx)). cbn [bind]. rewrite En. reflexivity.
    + rewrite split_once_app by (exact (name_no_at n Hn)). rewrite (proj2 (digest_new_ok d d) (conj eq_refl Hx)). cbn [bind].
      pose proof (name_rsplit n Hn Hu) as Hr. destruct (rsplit_once (ch ":") n) as [[a b]|].
      * rewrite Hr. cbn [bind]. rewrite En. reflexivity.
      * cbn [bind]. rewrite En. reflexivity.
Qed.

(** ** Accessors *)

Lemma slice_to_app : forall a b, slice_to (a ++ b) (blen a) = Ret a.
Proof. intros. unfold slice_to. rewrite split_at_app. reflexivity. Qed.

Lemma slice_from_app : forall a b, slice_from (a ++ b) (blen a) = Ret b.
Proof. intros. unfold slice_from. rewrite split_at_app. reflexivity. Qed.

Lemma registry_prefix : forall reg name x, registry_inv reg name ->
  match reg with Some r => exists rest, name ++ x = r ++ rest | None => True end.
Proof.
  intros [r|] name x H; [|exact I]. destruct H as [_ [->|[rest [-> _]]]].
  - exists x. reflexivity.
  - exists ($"/" ++ rest ++ x). rewrite <- !app_assoc. reflexivity.
Qed.

Lemma get_registry : forall p, parts_ok p -> image_registry (mk_image p) = Ret (p_registry p).
Proof.
  intros [reg name x] [H _]. unfold image_registry, mk_image, parts_text. cbn [i_registry_end i_inner p_registry p_name p_suffix] in *.
  pose proof (registry_prefix reg name (suffix_text x) H) as Hp. destruct reg as [r|]; [|reflexivity]. cbn [option_map].
  destruct Hp as [rest ->]. rewrite slice_to_app. reflexivity.
Qed.

Lemma get_name_end : forall checks p, name_end checks (mk_image p) = Ret (blen (p_name p)).
Proof.
  intros checks [reg name x]. unfold name_end, mk_image. cbn [i_start i_inner p_name p_suffix].
  destruct x as [|t|d]; cbn [start_of start_pos].
  - unfold parts_text. cbn [p_name p_suffix suffix_text]. rewrite app_nil_r. reflexivity.
  - unfold usize_sub. destruct (N.leb_spec 1 (blen name + 1)); [|lia]. f_equal. lia.
  - unfold usize_sub. destruct (N.leb_spec 1 (blen name + 1)); [|lia]. f_equal. lia.
Qed.

Lemma get_name : forall checks p, image_name checks (mk_image p) = Ret (p_name p).
Proof.
  intros checks p. unfold image_name. rewrite get_name_end. cbn [pbind]. unfold mk_image, parts_text. cbn [i_inner].
  apply slice_to_app.
Qed.

Lemma blen_sep : forall name c, utf8_width c = 1 -> blen name + 1 = blen (name ++ [c]).
Proof. intros name c H. rewrite blen_app. change (blen [c]) with (utf8_width c + 0). lia. Qed.

Lemma get_tod : forall p, image_tag_or_digest (mk_image p) =
  Ret (match p_suffix p with NoSuffix => None | Tagged t => Some (TTag t) | Digested d => Some (TDigest d) end).
Proof.
  intros [reg name x]. unfold image_tag_or_digest, mk_image, parts_text. cbn [i_start i_inner p_name p_suffix].
  destruct x as [|t|d]; cbn [start_of suffix_text]; [reflexivity| |].
  - rewrite (blen_sep name (ch ":")) by reflexivity. change (ch ":" :: t) with ([ch ":"] ++ t).
    rewrite app_assoc, slice_from_app. reflexivity.
  - rewrite (blen_sep name (ch "@")) by reflexivity. change (ch "@" :: d) with ([ch "@"] ++ d).
    rewrite app_assoc, slice_from_app. reflexivity.
Qed.

Lemma get_tag : forall p, image_tag (mk_image p) = Ret (match p_suffix p with Tagged t => Some t | _ => None end).
Proof.
  intros [reg name x]. unfold image_tag, mk_image, parts_text. cbn [i_start i_inner p_name p_suffix].
  destruct x as [|t|d]; cbn [start_of suffix_text]; [reflexivity| |reflexivity].
  rewrite (blen_sep name (ch ":")) by reflexivity. change (ch ":" :: t) with ([ch ":"] ++ t).
  rewrite app_assoc, slice_from_app. reflexivity.
Qed.

Lemma get_digest : forall p, image_digest (mk_image p) = Ret (match p_suffix p with Digested d => Some d | _ => None end).
Proof.
  intros [reg name x]. unfold image_digest, mk_image, parts_text. cbn [i_start i_inner p_name p_suffix].
  destruct x as [|t|d]; cbn [start_of suffix_text]; [reflexivity|reflexivity|].
  rewrite (blen_sep name (ch "@")) by reflexivity. change (ch "@" :: d) with ([ch "@"] ++ d).
  rewrite app_assoc, slice_from_app. reflexivity.
Qed.

(** ** Setters *)

Lemma update_start_shift : forall checks a b x extra,
  update_start checks (start_of (a ++ extra) x) (blen a) (blen b) = Ret (start_of (b ++ extra) x).
Proof.
  intros checks a b x extra. unfold update_start.
  assert (G : forall k : N -> tod_start, (forall f n, map_start f (k n) = pbind (f n) (fun m => Ret (k m))) ->
    (r <! match blen a ?= blen b with
          | Lt => map_start (fun n => Ret (n + (blen b - blen a))) (k (blen (a ++ extra) + 1))
          | Eq => Ret (k (blen (a ++ extra) + 1))
          | Gt => map_start (fun n => usize_sub checks n (blen a - blen b)) (k (blen (a ++ extra) + 1))
          end ;; Ret (Some r)) = Ret (Some (k (blen (b ++ extra) + 1)))).
  { intros k Hk. rewrite !blen_app, !Hk. destruct (N.compare_spec (blen a) (blen b)) as [E|E|E]; cbn [pbind].
    - do 3 f_equal. lia.
    - do 3 f_equal. lia.
    - unfold usize_sub. destruct (N.leb_spec (blen a - blen b) (blen a + blen extra + 1)); [|lia]. cbn [pbind]. do 3 f_equal. lia. }
  destruct x as [|t|d]; cbn [start_of]; [reflexivity| |]; apply G; reflexivity.
Qed.

Lemma replace_to_app : forall a b c, replace_to (a ++ b) (blen a) c = Ret (c ++ b).
Proof. intros. unfold replace_to. rewrite split_at_app. reflexivity. Qed.

Lemma replace_from_app : forall a b c, replace_from (a ++ b) (blen a) c = Ret (a ++ c).
Proof. intros. unfold replace_from. rewrite split_at_app. reflexivity. Qed.

Lemma truncate_app : forall a b, truncate (a ++ b) (blen a) = Ret a.
Proof.
  intros. unfold truncate. rewrite blen_app. destruct (N.leb_spec (blen a) (blen a + blen b)); [|lia]. apply slice_to_app.
Qed.

Lemma set_name_mk : forall checks p n reg,
  image_set_name checks (mk_image p) {| n_inner := n; n_registry_end := option_map blen reg |} =
  Ret (mk_image {| p_registry := reg; p_name := n; p_suffix := p_suffix p |}).
Proof.
  intros checks [r0 name x] n reg. unfold image_set_name. rewrite get_name_end. cbn [pbind n_inner n_registry_end p_name].
  unfold mk_image, parts_text. cbn [i_inner i_start p_name p_suffix p_registry]. rewrite replace_to_app. cbn [pbind].
  pose proof (update_start_shift checks name n x []) as E. rewrite !app_nil_r in E. rewrite E. reflexivity.
Qed.

Lemma set_tod_mk : forall checks p t,
  image_set_tod checks (mk_image p) t =
  Ret (mk_image {| p_registry := p_registry p; p_name := p_name p;
                   p_suffix := match t with None => NoSuffix | Some (TTag t) => Tagged t | Some (TDigest d) => Digested d end |}).
Proof.
  intros checks [reg name x] t. unfold image_set_tod. rewrite get_name_end. cbn [pbind p_name].
  unfold mk_image, parts_text, push_tod, as_start, usize_sub.
  assert (L : (1 <=? blen name + 1) = true) by (destruct (N.leb_spec 1 (blen name + 1)); [reflexivity|lia]).
  cbn [i_inner i_start i_registry_end p_name p_suffix p_registry].
  destruct t as [[t|d]|]; destruct x as [|t0|d0]; cbn [start_of start_pos suffix_text];
    rewrite ?L; cbn [pbind]; rewrite ?N.add_sub; rewrite ?truncate_app; cbn [pbind tod_separator tod_str]; rewrite ?app_nil_r; try reflexivity.
  - rewrite (blen_sep name (ch ":")) at 1 by reflexivity. change (ch ":" :: t0) with ([ch ":"] ++ t0).
    rewrite app_assoc, replace_from_app. cbn [pbind]. rewrite <- app_assoc. reflexivity.
  - rewrite (blen_sep name (ch "@")) at 1 by reflexivity. change (ch "@" :: d0) with ([ch "@"] ++ d0).
    rewrite app_assoc, replace_from_app. cbn [pbind]. rewrite <- app_assoc. reflexivity.
Qed.

Lemma set_registry_mk : forall checks p r q, parts_ok p -> step p (OpRegistry r) q ->
  image_set_registry checks (mk_image p) (option_map (fun r => {| n_inner := r; n_registry_end := option_map blen (registry_of r) |}) r) =
  Ret (mk_image q).
Proof.
  intros checks p r q Hp Hs. inversion Hs; subst; unfold image_set_registry; cbn [option_map n_inner n_registry_end].
  - unfold mk_image, parts_text. cbn [i_registry_end i_inner i_start p_registry p_name p_suffix].
    match goal with H : strips _ _ _ |- _ => inversion H; subst end; cbn [option_map].
    + change (0) with (blen []) at 1.
      assert (E : blen r0 + 1 = blen (r0 ++ $"/")) by (rewrite blen_app; reflexivity). rewrite E.
      pose proof (update_start_shift checks [] (r0 ++ $"/") x rest) as U. cbn [app] in U. rewrite U. cbn [pbind].
      rewrite <- !app_assoc. reflexivity.
    + rewrite <- !app_assoc. rewrite replace_to_app. cbn [pbind]. rewrite update_start_shift. reflexivity.
  - unfold mk_image, parts_text. cbn [i_registry_end i_inner i_start p_registry p_name p_suffix].
    match goal with H : strips _ _ _ |- _ => inversion H; subst end; cbn [option_map].
    rewrite replace_to_app. cbn [pbind]. pose proof (update_start_shift checks name r0 x []) as U. rewrite !app_nil_r in U.
    rewrite U. reflexivity.
  - unfold mk_image, parts_text. cbn [i_registry_end i_inner i_start p_registry p_name p_suffix].
    match goal with H : strips _ _ _ |- _ => inversion H; subst end; cbn [option_map]; [reflexivity|].
    assert (E : blen r + 1 = blen (r ++ $"/")) by (rewrite blen_app; reflexivity). rewrite E.
    rewrite <- !app_assoc. rewrite (app_assoc r ($"/")). rewrite replace_to_app. cbn [pbind].
    pose proof (update_start_shift checks (r ++ $"/") [] x rest) as U. cbn [app] in U. rewrite <- app_assoc in U.
    change (blen []) with 0 in U. rewrite U. reflexivity.
Qed.

(** One setter call. *)
Definition run_op (checks : bool) (i : image) (o : op) : may_panic image :=
  match o with
  | OpRegistry r => image_set_registry checks i (option_map (fun r => {| n_inner := r; n_registry_end := option_map blen (registry_of r) |}) r)
  | OpName n reg => image_set_name checks i {| n_inner := n; n_registry_end := option_map blen reg |}
  | OpTag t => image_set_tag checks i t
  | OpDigest d => image_set_digest checks i d
  end.

Fixpoint run_ops (checks : bool) (i : image) (os : list op) : may_panic image :=
  match os with [] => Ret i | o :: os => j <! run_op checks i o ;; run_ops checks j os end.

Lemma step_run : forall checks p o q, parts_ok p -> step p o q -> run_op checks (mk_image p) o = Ret (mk_image q).
Proof.
  intros checks p o q Hp Hs. destruct o as [r|n reg|t|d]; cbn [run_op].
  - apply set_registry_mk; assumption.
  - rewrite set_name_mk. inversion Hs; subst. reflexivity.
  - unfold image_set_tag. rewrite set_tod_mk. inversion Hs; subst. destruct t; reflexivity.
  - unfold image_set_digest. rewrite set_tod_mk. inversion Hs; subst. destruct d; reflexivity.
Qed.

Lemma step_ok : forall p o q, parts_ok p -> op_ok o -> step p o q -> parts_ok q.
Proof.
  intros p o q [Hr Hx] Ho Hs. split.
  - destruct Hs as [reg name x r rest S|reg name x r S|reg name x rest S|p n r|p t|p d]; cbn [p_registry p_name p_suffix op_ok] in *.
    + split; [exact Ho|]. right. exists rest. split; [reflexivity|]. inversion S; subst; [exact Hr|].
      destruct Hr as [Hn [E|[rest' [E Hr]]]].
      * exfalso. rewrite <- (app_nil_r r0) in E at 2. apply app_inv_head in E. discriminate.
      * apply app_inv_head in E. injection E as ->. exact Hr.
    + split; auto.
    + inversion S; subst; [exact Hr|]. destruct Hr as [Hn [E|[rest' [E Hr]]]].
      * exfalso. rewrite <- (app_nil_r r) in E at 2. apply app_inv_head in E. discriminate.
      * apply app_inv_head in E. injection E as ->. exact Hr.
    + destruct Ho as [Hn Hreg]. apply registry_of_spec in Hreg. subst r. apply name_split_registry. exact Hn.
    + exact Hr.
    + exact Hr.
  - destruct Hs as [reg name x r rest S|reg name x r S|reg name x rest S|p n r|p t|p d]; cbn [p_suffix op_ok] in *; try exact Hx.
    + destruct t; [exact Ho|exact I].
    + destruct d; [exact Ho|exact I].
Qed.

Lemma steps_run : forall checks os p q, parts_ok p -> steps p os q ->
  run_ops checks (mk_image p) os = Ret (mk_image q) /\ parts_ok q.
Proof.
  intros checks os. induction os as [|o os IH]; intros p q Hp Hs; inversion Hs; subst.
  - cbn [run_ops]. auto.
  - cbn [run_ops]. rewrite (step_run checks p o q0) by assumption. cbn [pbind]. apply IH; [|assumption].
    eapply step_ok; eassumption.
Qed.

Lemma reparse : forall p, parts_ok p ->
  (image_parse (parts_text p) = Ok (mk_image p) <->
   is_registry (p_name p) (p_registry p) /\ unambiguous (p_name p) (p_suffix p)).
Proof.
  intros [reg name x] [Hr Hx]. cbn [p_name p_registry p_suffix] in *. rewrite registry_of_spec. split.
  - intros H. apply image_parse_ok in H. destruct H as [n [y [E [Hn [Hy [Hu Hi]]]]]].
    pose proof (get_name true {| p_registry := reg; p_name := name; p_suffix := x |}) as G1.
    pose proof (get_tod {| p_registry := reg; p_name := name; p_suffix := x |}) as G2.
    pose proof (get_registry {| p_registry := reg; p_name := name; p_suffix := x |} (conj Hr Hx)) as G3.
    rewrite Hi in G1, G2, G3. rewrite get_name in G1. rewrite get_tod in G2. rewrite get_registry in G3.
    + cbn [p_name p_suffix p_registry] in *. injection G1 as ->. injection G3 as <-. split; [reflexivity|].
      destruct x, y; cbn [unambiguous] in *; try discriminate; try exact I; exact Hu.
    + split; [apply name_split_registry; exact Hn|exact Hy].
  - intros [-> Hu]. apply image_parse_ok. exists name, x. split; [reflexivity|].
    split; [eapply registry_inv_name; exact Hr|]. auto.
Qed.
