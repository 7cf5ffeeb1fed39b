(** The codecs of [CommonCodec] are good, and what the codecs write has no repeated keys. *)

From Coq Require Import String Ascii List NArith ZArith Bool Lia ZifyBool ZifyN ZifyNat.
Import ListNotations.
From Verif Require Import Base BaseFacts Num NumFacts Coll CollFacts Regex KeysSpec KeysModel KeysProofs BytesModel BytesProofs IpModel IpProofs ValuesModel ListMapProofs VolumesModel
  Serde Codec CodecFacts EnumModel PropsEnum ScalarCodec ScalarGood CommonCodec.
Open Scope N_scope.

(** ** Values *)

Lemma number_good : good number_c.
Proof.
  split.
  - intros [n|z|b] W; cbn [de ser norm number_c number_wf wf number_ser number_norm number_de] in *; [| |reflexivity].
    + destruct (Z.leb_spec 0 (Z.of_N n)); [|lia]. now rewrite (proj2 (int_to_uint_ok U64_MAX (Z.of_N n) n) (conj eq_refl W)).
    + destruct (Z.leb_spec 0 z) as [L|L].
      * assert (X : int_to_uint U64_MAX z = Ok (Z.to_N z)) by (apply int_to_uint_ok; unfold U64_MAX, I64_MAX in *; lia). now rewrite X.
      * destruct (Z.leb_spec (- Z.of_N I64_MIN_ABS) z); [reflexivity|lia].
  - intros v n H. cbn [de wf number_c number_de number_wf] in *. destruct v; try discriminate; cbn [number_de] in H.
    + destruct (0 <=? z)%Z eqn:L.
      * destruct (int_to_uint U64_MAX z) eqn:E; cbn [map_ok] in H; [|discriminate]. injection H as <-. now apply int_to_uint_ok in E.
      * destruct (- Z.of_N I64_MIN_ABS <=? z)%Z eqn:L'; [|discriminate]. injection H as <-. cbn [number_wf]. unfold I64_MAX. lia.
    + injection H as <-. exact I.
  - intros [n|z|b] W; try reflexivity. cbn [ser norm number_c number_norm]. destruct (Z.leb_spec 0 z); [|reflexivity]. cbn [number_ser].
    now rewrite Z2N.id.
Qed.
Lemma number_scalar : scalar number_c.
Proof. intros [n|z|b] _; reflexivity. Qed.

Lemma value_good : good value_c.
Proof.
  destruct number_good as [R S T]. split.
  - intros [s|n|b] W; [reflexivity| |reflexivity]. cbn [de ser norm value_c wf] in *. specialize (R n W).
    destruct n; cbn [ser number_c number_ser] in *; now rewrite R.
  - intros v x H. cbn [de wf value_c] in *.
    assert (X : map_ok VNumber (de number_c v) = Ok x -> match x with VNumber n => wf number_c n | _ => True end).
    { destruct (de number_c v) eqn:E; cbn [map_ok]; [|discriminate]. intros X. injection X as <-. now apply S in E. }
    destruct v; try exact (X H); injection H as <-; exact I.
  - intros [s|n|b] W; try reflexivity. cbn [ser norm value_c wf] in *. now apply T.
Qed.
Lemma value_scalar : scalar value_c.
Proof. intros [s|n|b] W; try reflexivity. now apply number_scalar. Qed.
Lemma value_nn : not_null value_c. Proof. apply scalar_nn, value_scalar. Qed.

Lemma string_or_number_good : good string_or_number_c.
Proof.
  destruct number_good as [R S T]. split.
  - intros [s|n] W; [reflexivity|]. cbn [de ser norm string_or_number_c wf] in *. specialize (R n W).
    destruct n; cbn [ser number_c number_ser] in *; now rewrite R.
  - intros v x H. cbn [de wf string_or_number_c] in *.
    assert (X : map_ok SNumber (de number_c v) = Ok x -> match x with SNumber n => wf number_c n | _ => True end).
    { destruct (de number_c v) eqn:E; cbn [map_ok]; [|discriminate]. intros X. injection X as <-. now apply S in E. }
    destruct v; try exact (X H); injection H as <-; exact I.
  - intros [s|n] W; try reflexivity. cbn [ser norm string_or_number_c wf] in *. now apply T.
Qed.
Lemma string_or_number_scalar : scalar string_or_number_c.
Proof. intros [s|n] W; try reflexivity. now apply number_scalar. Qed.
Lemma string_or_number_nn : not_null string_or_number_c. Proof. apply scalar_nn, string_or_number_scalar. Qed.
#[export] Hint Resolve number_good number_scalar value_good value_scalar value_nn string_or_number_good string_or_number_scalar string_or_number_nn : codec.

(** ** Lists and maps *)

Definition is_seq (v : sval) : bool := match v with VSeq _ => true | _ => false end.
Definition sequence {A : Set} (c : codec A) : Prop := forall a, is_seq (ser c a) = true.
Lemma list_sequence : forall {A : Set} (c : codec A), sequence (list_c c). Proof. intros A c a. reflexivity. Qed.
Lemma iset_sequence : forall {A : Set} eqb (c : codec A), sequence (iset_c eqb c). Proof. intros A eqb c a. reflexivity. Qed.
Lemma imap_mapping : forall {K V : Set} eqb (k : codec K) (v : codec V), mapping (imap_c eqb k v). Proof. intros. intros a. reflexivity. Qed.
Lemma sequence_flat : forall {A : Set} (c : codec A), sequence c -> flat c.
Proof. intros A c H a _. specialize (H a). destruct (ser c a); try discriminate; reflexivity. Qed.
Lemma sequence_nn : forall {A : Set} (c : codec A), sequence c -> not_null c.
Proof. intros A c H a _ E. specialize (H a). now rewrite E in H. Qed.
Lemma struct_mapping : forall ms, mapping (struct_c ms). Proof. intros ms a. reflexivity. Qed.
Lemma struct_ext_mapping : forall ms, mapping (struct_ext_c ms). Proof. intros ms a. reflexivity. Qed.
Lemma struct_ext_once_mapping : forall ms, mapping (struct_ext_once_c ms). Proof. intros ms a. reflexivity. Qed.
Lemma iso_mapping : forall {A B : Set} (c : codec A) (write : B -> A) make, mapping c -> mapping (iso c write make).
Proof. intros A B c write make H b. apply H. Qed.
#[export] Hint Resolve list_sequence iset_sequence imap_mapping sequence_flat sequence_nn struct_mapping struct_ext_mapping struct_ext_once_mapping iso_mapping
  mapping_nn : codec.

Lemma item_or_list_good : forall {A B : Set} (i : codec A) (l : codec B), good i -> good l -> scalar i -> sequence l -> good (item_or_list_c i l).
Proof.
  intros A B i l [Ri Si Ti] [Rl Sl Tl] X Y. split.
  - intros [a|b] W; cbn [de ser norm item_or_list_c wf] in *.
    + specialize (X a W). specialize (Ri a W). destruct (ser i a); try discriminate; now rewrite Ri.
    + specialize (Y b). specialize (Rl b W). destruct (ser l b); try discriminate; now rewrite Rl.
  - intros v x H. cbn [de wf item_or_list_c] in *.
    assert (X1 : map_ok Item (de i v) = Ok x -> match x with Item a => wf i a | Items b => wf l b end).
    { destruct (de i v) eqn:E; cbn [map_ok]; [|discriminate]. intros Z. injection Z as <-. now apply Si in E. }
    assert (X2 : map_ok Items (de l v) = Ok x -> match x with Item a => wf i a | Items b => wf l b end).
    { destruct (de l v) eqn:E; cbn [map_ok]; [|discriminate]. intros Z. injection Z as <-. now apply Sl in E. }
    destruct v; first [exact (X1 H)|exact (X2 H)|discriminate H].
  - intros [a|b] W; cbn [ser norm item_or_list_c wf] in *; auto.
Qed.
Lemma item_or_list_flat : forall {A B : Set} (i : codec A) (l : codec B), scalar i -> sequence l -> flat (item_or_list_c i l).
Proof. intros A B i l X Y [a|b] W; [exact (scalar_flat i X a W)|exact (sequence_flat l Y b W)]. Qed.
Lemma item_or_list_nn : forall {A B : Set} (i : codec A) (l : codec B), scalar i -> sequence l -> not_null (item_or_list_c i l).
Proof. intros A B i l X Y [a|b] W; [exact (scalar_nn i X a W)|exact (sequence_nn l Y b W)]. Qed.

Lemma sset_good : forall c, good c -> plain c -> good (sset c).
Proof. intros c G P. now apply iset_good. Qed.
Lemma sset_plain : forall c, plain (sset c). Proof. intros c a. reflexivity. Qed.
Lemma sset_sequence : forall c, sequence (sset c). Proof. intros c a. reflexivity. Qed.
Lemma smap_good : forall {V : Set} k (v : codec V), good k -> plain k -> good v -> good (smap k v).
Proof. intros V k v G P Gv. apply imap_good; auto. exact str_eqb_eq. Qed.
Lemma smap_plain : forall {V : Set} k (v : codec V), plain v -> plain (smap k v).
Proof. intros V k v P. now apply imap_plain. Qed.
Lemma smap_mapping : forall {V : Set} k (v : codec V), mapping (smap k v). Proof. intros V k v a. reflexivity. Qed.
#[export] Hint Resolve item_or_list_good item_or_list_flat item_or_list_nn sset_good sset_plain sset_sequence smap_good smap_plain smap_mapping
  option_good option_plain list_good list_plain : codec.

Lemma many_sset_good : forall n c, good c -> plain c -> member_good (many n (sset c)).
Proof. intros n c G P. now apply many_iset_good. Qed.
Lemma many_smap_good : forall n {V : Set} k (v : codec V), good k -> plain k -> good v -> member_good (many n (smap k v)).
Proof. intros n V k v G P Gv. apply many_imap_good; auto. exact str_eqb_eq. Qed.

Lemma vmap_good : good vmap_c. Proof. unfold vmap_c. auto with codec. Qed.
Lemma list_or_map_good : good list_or_map_c.
Proof.
  assert (L : good (sset string_c)) by auto with codec. destruct L as [Rl Sl Tl]. destruct vmap_good as [Rm Sm Tm]. split.
  - intros [l|m] W; cbn [norm list_or_map_c wf] in *.
    + specialize (Rl l W). change (de list_or_map_c (ser list_or_map_c (LList l))) with (map_ok LList (de (sset string_c) (ser (sset string_c) l))). now rewrite Rl.
    + specialize (Rm m W). change (de list_or_map_c (ser list_or_map_c (LMap m))) with (map_ok LMap (de vmap_c (ser vmap_c m))). now rewrite Rm.
  - intros v x H. cbn [de wf list_or_map_c] in *. destruct v as [| | | | |l|l]; try discriminate.
    + destruct (de (sset string_c) (VSeq l)) eqn:E; cbn [map_ok] in H; [|discriminate]. injection H as <-. now apply Sl in E.
    + destruct (de vmap_c (VMap l)) eqn:E; cbn [map_ok] in H; [|discriminate]. injection H as <-. now apply Sm in E.
  - intros [l|m] W; [reflexivity|]. cbn [ser norm list_or_map_c wf] in *. now apply Tm.
Qed.
Lemma list_or_map_nn : not_null list_or_map_c. Proof. intros [l|m] _; discriminate. Qed.
Lemma list_or_map_field_good : forall n, member_good (list_or_map_field n).
Proof.
  intros n. apply field_good'; [exact list_or_map_good| | |].
  - intros [l|m] _ H; [exact H|]. cbn in *. destruct m; [discriminate|reflexivity].
  - intros a _. eauto.
  - intros a H. injection H as <-. split; constructor.
Qed.

Lemma short_or_long_good : forall {S L : Set} (s : codec S) (l : codec L), good s -> good l -> flat s -> mapping l -> good (short_or_long_c s l).
Proof.
  intros S L s l [Rs Ss Ts] [Rl Sl Tl] X Y. split.
  - intros [a|b] W; cbn [de ser norm short_or_long_c wf] in *.
    + specialize (X a W). specialize (Rs a W). destruct (ser s a); try discriminate; now rewrite Rs.
    + specialize (Y b). specialize (Rl b W). destruct (ser l b); try discriminate; now rewrite Rl.
  - intros v x H. cbn [de wf short_or_long_c] in *.
    assert (X1 : map_ok Short (de s v) = Ok x -> match x with Short a => wf s a | Long b => wf l b end).
    { destruct (de s v) eqn:E; cbn [map_ok]; [|discriminate]. intros Z. injection Z as <-. now apply Ss in E. }
    assert (X2 : map_ok Long (de l v) = Ok x -> match x with Short a => wf s a | Long b => wf l b end).
    { destruct (de l v) eqn:E; cbn [map_ok]; [|discriminate]. intros Z. injection Z as <-. now apply Sl in E. }
    destruct v; first [exact (X1 H)|exact (X2 H)|discriminate H].
  - intros [a|b] W; cbn [ser norm short_or_long_c wf] in *; auto.
Qed.
Lemma short_or_long_nn : forall {S L : Set} (s : codec S) (l : codec L), not_null s -> mapping l -> not_null (short_or_long_c s l).
Proof. intros S L s l X Y [a|b] W; [exact (X a W)|exact (mapping_nn l Y b W)]. Qed.
Lemma short_or_long_plain : forall {S L : Set} (s : codec S) (l : codec L), plain s -> plain l -> plain (short_or_long_c s l).
Proof. intros S L s l P Q [a|b]; cbn [norm short_or_long_c]; [now rewrite (P a)|now rewrite (Q b)]. Qed.
#[export] Hint Resolve many_sset_good many_smap_good many_list_good vmap_good list_or_map_good list_or_map_nn list_or_map_field_good short_or_long_good short_or_long_nn short_or_long_plain : codec.

Lemma hostname_map_key : forall h, matches HOSTNAME_RE h -> map_key h.
Proof.
  intros h H. split; [intros ->; exact (hostname_not_empty H)|]. apply hostname_chars; [exact H|reflexivity].
Qed.

Lemma collect_map : forall {E A B C} (f : B -> result E C) (g : A -> B) l, collect f (map g l) = collect (fun a => f (g a)) l.
Proof. intros E A B C f g l. induction l as [|a l IH]; cbn [collect map]; [reflexivity|]. now rewrite IH. Qed.

Lemma extra_hosts_good : forall w, good (extra_hosts_c w).
Proof.
  intros w. assert (G : good (smap hostname_c (ip_c w))) by auto with codec.
  apply plain_good; [intros a; reflexivity| |].
  - intros m W. cbn [de ser wf extra_hosts_c] in *. pose (g := fun e : str * ip_addr => (fst e, Some (VString (ip_show (w_compat w) (snd e))))).
    assert (E : ser (smap hostname_c (ip_c w)) m = ser list_or_map_c (LMap (map g m))).
    { cbn [ser smap imap_c list_or_map_c vmap_c]. f_equal. rewrite map_map. apply map_ext. intros [h i]. reflexivity. }
    destruct W as [F D]. assert (Wg : wf list_or_map_c (LMap (map g m))).
    { split; [|now rewrite map_map]. apply Forall_map. eapply Forall_impl; [|exact F]. intros [h i] [Hh Hi]. split; [now apply hostname_map_key|exact I]. }
    rewrite E, (g_rt _ list_or_map_good _ Wg). cbn [bind norm list_or_map_c vmap_c smap imap_c].
    unfold extra_hosts, into_map_split_on. cbn [map_err bind]. rewrite !map_map.
    rewrite (map_ext _ (fun e => (fst e, Some (VString (ip_show (w_compat w) (snd e)))))) by (intros [h i]; reflexivity).
    rewrite (collect_map_rt _ _ (fun e => e) (fun e => matches HOSTNAME_RE (fst e) /\ ip_wf (snd e))).
    + cbn [bind]. rewrite map_id. f_equal. now apply (imap_of_nodup str_eqb str_eqb_eq).
    + intros [h i] [Hh Hi]. cbn [fst snd] in *.
      apply (fun X => proj2 (extra_host_entry (w_float w) h (ch "=") false (ip_show (w_compat w) i) i Hh X (or_introl eq_refl))).
      now apply ip_round_trip.
    + exact F.
  - intros v m H. cbn [de wf extra_hosts_c] in *. destruct (de list_or_map_c v) as [x|] eqn:E; cbn [bind] in H; [|discriminate].
    unfold extra_hosts in H. destruct (into_map_split_on _ _ x) as [y|]; cbn [map_err bind] in H; [|discriminate].
    destruct (collect extra_host y) as [l|] eqn:C; cbn [bind] in H; [|discriminate]. injection H as <-.
    split; [|apply (imap_of_NoDup str_eqb str_eqb_eq)]. apply (collect_sound _ (fun e => matches HOSTNAME_RE (fst e) /\ ip_wf (snd e))) in C.
    + rewrite Forall_forall in *. intros e He. apply C. now apply (imap_of_sub str_eqb str_eqb_eq) in He.
    + intros [h o] [h' i] He. unfold extra_host in He. cbn [fst snd] in *. destruct o as [[s| |]|]; try discriminate.
      destruct (hostname_new h) as [h''|] eqn:Eh; [|discriminate]. destruct (ip_parse (strip_brackets s)) eqn:Ei; [|discriminate]. injection He as -> ->.
      apply hostname_new_ok in Eh as [-> Eh]. split; [exact Eh|now apply ip_parse_wf in Ei].
Qed.
Lemma extra_hosts_field_good : forall n w, member_good (many n (extra_hosts_c w)).
Proof. intros n w. apply many_good; [apply extra_hosts_good|split; constructor|discriminate]. Qed.
#[export] Hint Resolve extra_hosts_good extra_hosts_field_good : codec.

(** ** No repeated keys *)

Definition clean {A : Set} (c : codec A) : Prop := forall a, wf c a -> yaml_ok (ser c a) = true.

Lemma scalar_clean : forall {A : Set} (c : codec A), scalar c -> clean c.
Proof. intros A c H a W. specialize (H a W). destruct (ser c a); try discriminate; reflexivity. Qed.
Lemma leaf_clean : forall {A : Set} (c : codec A), leaf c -> clean c.
Proof. intros A c []. now apply scalar_clean. Qed.
Lemma option_clean : forall {A : Set} (c : codec A), clean c -> clean (option_c c).
Proof. intros A c H [a|] W; [exact (H a W)|reflexivity]. Qed.
Lemma list_clean : forall {A : Set} (c : codec A), clean c -> clean (list_c c).
Proof.
  intros A c H l W. cbn [ser list_c yaml_ok wf] in *. apply forallb_forall. intros v I. apply in_map_iff in I as (a & <- & I).
  rewrite Forall_forall in W. auto.
Qed.
Lemma iset_clean : forall {A : Set} eqb (c : codec A), clean c -> clean (iset_c eqb c).
Proof. intros A eqb c H l [W _]. exact (list_clean c H l W). Qed.
Lemma sset_clean : forall c, clean c -> clean (sset c). Proof. intros c. apply iset_clean. Qed.

Lemma scalar_eqb : forall a b, is_scalar a = true -> sval_eqb a b = true -> a = b.
Proof.
  intros a b S H. destruct a, b; cbn in S, H; try discriminate; f_equal.
  - now apply Bool.eqb_prop.
  - lia.
  - lia.
  - now apply str_eqb_eq.
Qed.
Lemma no_repeat_NoDup : forall l, Forall (fun v => is_scalar v = true) l -> NoDup l -> no_repeat l = true.
Proof.
  intros l H. induction H as [|x l Hx _ IH]; intros D; [reflexivity|]. inversion D as [|? ? N D']; subst. cbn [no_repeat]. rewrite IH by assumption.
  rewrite andb_true_r. apply negb_true_iff. destruct (existsb (sval_eqb x) l) eqn:E; [|reflexivity]. apply existsb_exists in E as (y & I & E).
  apply scalar_eqb in E; [|assumption]. now subst.
Qed.

Lemma imap_clean : forall {K V : Set} eqb (k : codec K) (v : codec V), leaf k -> clean v -> clean (imap_c eqb k v).
Proof.
  intros K V eqb k v [G P S] C m [F D]. cbn [ser imap_c yaml_ok]. apply andb_true_iff; split.
  - rewrite map_map. cbn [entry_ser fst]. apply no_repeat_NoDup.
    + apply Forall_map. eapply Forall_impl; [|exact F]. intros e [W _]. exact (S _ W).
    + induction m as [|e m IH]; cbn [map]; [constructor|]. inversion F as [|? ? [We _] F']; subst. inversion D as [|? ? N D']; subst.
      constructor; [|now apply IH]. intros I. apply in_map_iff in I as (e' & E & I). apply N. apply in_map_iff. exists e'. split; [|assumption].
      rewrite Forall_forall in F'. destruct (F' e' I) as [We' _]. assert (R := plain_rt k _ P G We). rewrite <- E, (plain_rt k _ P G We') in R. congruence.
  - apply forallb_forall. intros x I. apply in_map_iff in I as (e & <- & I). rewrite Forall_forall in F. destruct (F e I) as [W1 W2].
    cbn [entry_ser fst snd]. rewrite (C _ W2), andb_true_r. now apply (scalar_clean k S).
Qed.
Lemma smap_clean : forall {V : Set} k (v : codec V), leaf k -> clean v -> clean (smap k v).
Proof. intros V k v. apply imap_clean. Qed.
Lemma item_or_list_clean : forall {A B : Set} (i : codec A) (l : codec B), clean i -> clean l -> clean (item_or_list_c i l).
Proof. intros A B i l X Y [a|b] W; [exact (X a W)|exact (Y b W)]. Qed.
Lemma short_or_long_clean : forall {A B : Set} (i : codec A) (l : codec B), clean i -> clean l -> clean (short_or_long_c i l).
Proof. intros A B i l X Y [a|b] W; [exact (X a W)|exact (Y b W)]. Qed.
#[export] Hint Resolve scalar_clean leaf_clean option_clean list_clean iset_clean sset_clean imap_clean smap_clean item_or_list_clean short_or_long_clean : codec.
Lemma list_or_map_clean : clean list_or_map_c.
Proof.
  assert (A : clean (sset string_c)) by auto with codec. assert (B : clean vmap_c) by (unfold vmap_c; auto with codec).
  intros [l|m] W; [exact (A l W)|exact (B m W)].
Qed.
Lemma extra_hosts_clean : forall w, clean (extra_hosts_c w).
Proof. intros w. assert (A : clean (smap hostname_c (ip_c w))) by auto with codec. exact A. Qed.
Lemma yaml_clean : clean yaml_c. Proof. intros v W. exact W. Qed.
Lemma duration_clean : clean duration_c. Proof. apply scalar_clean, duration_scalar. Qed.
Lemma duration_us_clean : clean duration_us_c. Proof. apply scalar_clean, duration_us_scalar. Qed.
#[export] Hint Resolve list_or_map_clean extra_hosts_clean yaml_clean duration_clean duration_us_clean : codec.

(** Members. *)
Definition member_clean (m : member) : Prop :=
  forall a, m_wf m a -> NoDup (map fst (m_ser m a)) /\ Forall (fun e => yaml_ok (snd e) = true) (m_ser m a).
Lemma field_clean : forall n {A : Set} (c : codec A) d (s : A -> bool), (forall a, wf c a -> s a = false -> yaml_ok (ser c a) = true) -> member_clean (field n c d s).
Proof.
  intros n A c d s H a W. cbn [m_ser field m_wf] in *. destruct (s a) eqn:E; [split; constructor|]. split.
  - constructor; [intros []|constructor].
  - constructor; [|constructor]. exact (H a W E).
Qed.
Lemma field_clean' : forall n {A : Set} (c : codec A) d (s : A -> bool), clean c -> member_clean (field n c d s).
Proof. intros n A c d s H. apply field_clean. intros a W _. exact (H a W). Qed.
Lemma required_clean : forall n {A : Set} (c : codec A), clean c -> member_clean (required n c). Proof. intros. now apply field_clean'. Qed.
Lemma optional_clean : forall n {A : Set} (c : codec A), clean c -> member_clean (optional n c). Proof. intros. now apply field_clean', option_clean. Qed.
Lemma given_clean : forall n {A : Set} (c : codec A), clean c -> member_clean (given n c). Proof. intros n A c H. apply field_clean'. exact (option_clean c H). Qed.
Lemma many_clean : forall n {A : Set} (c : codec (list A)), clean c -> member_clean (many n c). Proof. intros. now apply field_clean'. Qed.
Lemma flag_clean : forall n, member_clean (flag n). Proof. intros. apply field_clean'. auto with codec. Qed.
Lemma flag_true_clean : forall n, member_clean (flag_true n). Proof. intros. apply field_clean'. auto with codec. Qed.
Lemma list_or_map_field_clean : forall n, member_clean (list_or_map_field n). Proof. intros. apply field_clean'. auto with codec. Qed.

Lemma NoDup_app_intro : forall {A} (a b : list A), NoDup a -> NoDup b -> (forall x, In x a -> ~ In x b) -> NoDup (a ++ b).
Proof.
  intros A a b D1 D2 N. induction D1 as [|x a Nx D1 IH]; cbn [app]; [assumption|]. constructor.
  - intros I. apply in_app_or in I as [I|I]; [contradiction|]. exact (N x (or_introl eq_refl) I).
  - apply IH. intros y I. apply N. now right.
Qed.

Lemma ser_members_clean : forall ms v, Forall member_back ms -> Forall member_clean ms -> NoDup (names ms) -> wf_members ms v ->
  NoDup (map fst (ser_members ms v)) /\ Forall (fun e => yaml_ok (snd e) = true) (ser_members ms v).
Proof.
  induction ms as [|m r IH]; intros v G C D W; [split; constructor|]. inversion G as [|? ? Gm Gr]; inversion C as [|? ? Cm Cr]; subst.
  rewrite names_cons in D. apply NoDup_app_inv in D as [Dr N]. destruct W as [Wm Wr]. destruct (Cm _ Wm) as [D1 F1]. destruct (IH (snd v) Gr Cr Dr Wr) as [D2 F2].
  cbn [ser_members]. split; [|now apply Forall_app]. rewrite map_app. apply NoDup_app_intro; [assumption|assumption|].
  intros k I J. apply in_map_iff in I as (e & <- & I). apply in_map_iff in J as (e' & E & J).
  assert (K := mb_keys m Gm (fst v)). assert (K' := ser_members_keys r (snd v) Gr). rewrite Forall_forall in K, K'.
  destruct (K e I) as (x & Ex & Ix). destruct (K' e' J) as (y & Ey & Iy). rewrite Ex, Ey in E. injection E as ->. exact (N x Ix Iy).
Qed.

Lemma group_clean : forall {B : Set} ms (write : B -> vals ms) read (inv : B -> Prop) nrm, Forall member_good ms -> Forall member_clean ms ->
  nodupb (names ms) = true -> (forall b, inv b -> wf_members ms (write b)) -> member_clean (group ms write read inv nrm).
Proof. intros B ms write read inv nrm G C D W b H. apply ser_members_clean; auto using good_back. now apply nodupb_NoDup. Qed.

Lemma entries_clean : forall es, NoDup (map fst es) -> Forall (fun e => exists k, fst e = VStr k) es ->
  Forall (fun e => yaml_ok (snd e) = true) es -> yaml_ok (VMap es) = true.
Proof.
  intros es D K F. cbn [yaml_ok]. apply andb_true_iff; split.
  - apply no_repeat_NoDup; [|assumption]. apply Forall_map. eapply Forall_impl; [|exact K]. intros e [k E]. now rewrite E.
  - apply forallb_forall. intros e I. rewrite Forall_forall in K, F. rewrite (F e I), andb_true_r. destruct (K e I) as [k ->]. reflexivity.
Qed.

Lemma struct_clean : forall ms, Forall member_good ms -> Forall member_clean ms -> nodupb (names ms) = true -> clean (struct_c ms).
Proof.
  intros ms G C D v W. apply nodupb_NoDup in D. apply good_back in G. destruct (ser_members_clean ms v G C D W) as [D' F]. cbn [ser struct_c]. apply entries_clean; auto.
  eapply Forall_impl; [|exact (ser_members_keys ms v G)]. intros e (k & E & _). eauto.
Qed.

(** What is written is a map with distinct strings as keys. *)
Definition object (not : str) {A : Set} (c : codec A) : Prop := forall a, wf c a -> exists m, ser c a = VMap (ext_ser m) /\
  NoDup (map fst m) /\ Forall (fun e => yaml_ok (snd e) = true) m /\ ~ In not (map fst m).
Lemma object_clean : forall not {A : Set} (c : codec A), object not c -> clean c.
Proof.
  intros not A c H a W. destruct (H a W) as (m & -> & D & F & _). apply entries_clean.
  - unfold ext_ser. rewrite map_map. cbn [fst]. rewrite <- (map_map fst VStr). apply FinFun.Injective_map_NoDup; [|assumption]. intros x y E. congruence.
  - apply Forall_map, Forall_forall. cbn [fst]. eauto.
  - apply Forall_map. exact F.
Qed.

Lemma strings_ext : forall es, Forall (fun e => exists k, fst e = VStr k) es -> exists m, es = ext_ser m.
Proof.
  intros es H. induction H as [|[x v] es [k E] _ [m ->]]; [exists []; reflexivity|]. cbn [fst] in E. subst x. exists ((k, v) :: m). reflexivity.
Qed.

Lemma struct_ext_object_back : forall n ms, Forall member_back ms -> Forall member_clean ms -> nodupb (names ms) = true -> no_x (names ms) = true ->
  existsb (str_eqb n) (names ms) = false -> starts_with $"x-" n = false -> object n (struct_ext_c ms).
Proof.
  intros n ms G C D X N Nn [v x] [W (F & Dx & Y)]. apply nodupb_NoDup in D. cbn [fst snd] in *.
  destruct (ser_members_clean ms v G C D W) as [D' F']. assert (K := ser_members_keys ms v G).
  destruct (strings_ext (ser_members ms v)) as [m E]; [eapply Forall_impl; [|exact K]; intros e (k & E & _); eauto|].
  exists (m ++ x). cbn [ser struct_ext_c fst snd]. rewrite E in *. unfold ext_ser at 3. rewrite map_app. split; [reflexivity|].
  assert (Km : forall k, In k (map fst m) -> In k (names ms)).
  { intros k I. rewrite Forall_forall in K. apply in_map_iff in I as (e & <- & I).
    destruct (K (VStr (fst e), snd e)) as (k & Ek & Ik); [apply in_map_iff; exists e; auto|]. cbn [fst] in Ek. injection Ek as ->. exact Ik. }
  rewrite map_app. rewrite Forall_forall in F. split; [|split].
  - apply NoDup_app_intro; [|assumption|].
    + unfold ext_ser in D'. rewrite map_map in D'. cbn [fst] in D'. rewrite <- (map_map fst VStr) in D'. now apply NoDup_map_inv in D'.
    + intros k I J. apply in_map_iff in J as (e & <- & J). exact (no_x_ext _ _ X (F e J) (Km _ I)).
  - apply Forall_app. split; [|exact Y]. unfold ext_ser in F'. rewrite Forall_map in F'. exact F'.
  - intros I. apply in_app_or in I as [I|I].
    + apply Km in I. assert (existsb (str_eqb n) (names ms) = true); [|congruence]. apply existsb_exists. exists n. split; [assumption|apply str_eqb_refl].
    + apply in_map_iff in I as (e & E' & I). destruct (F e I) as [[r Er] _]. rewrite E' in Er.
      assert (starts_with $"x-" n = true); [|congruence]. apply starts_with_iff. eauto.
Qed.
Lemma struct_ext_object : forall n ms, Forall member_good ms -> Forall member_clean ms -> nodupb (names ms) = true -> no_x (names ms) = true ->
  existsb (str_eqb n) (names ms) = false -> starts_with $"x-" n = false -> object n (struct_ext_c ms).
Proof. intros n ms G. apply struct_ext_object_back. now apply good_back. Qed.
Lemma struct_ext_clean_back : forall ms, Forall member_back ms -> Forall member_clean ms -> nodupb (names ms) = true -> no_x (names ms) = true -> clean (struct_ext_c ms).
Proof.
  intros ms G C D X [v x] [W (F & Dx & Y)]. apply nodupb_NoDup in D. cbn [fst snd] in *.
  destruct (ser_members_clean ms v G C D W) as [D' F']. assert (K := ser_members_keys ms v G). rewrite Forall_forall in F, K. apply entries_clean.
  - cbn [fst snd]. rewrite map_app. apply NoDup_app_intro; [assumption| |].
    + unfold ext_ser. rewrite map_map. cbn [fst]. rewrite <- (map_map fst VStr). apply FinFun.Injective_map_NoDup; [|assumption]. intros a b E. congruence.
    + intros k I J. apply in_map_iff in I as (e & <- & I). destruct (K e I) as (y & Ey & Iy). rewrite Ey in J. unfold ext_ser in J. rewrite map_map in J.
      apply in_map_iff in J as (e' & E & J). cbn [fst] in E. injection E as <-. exact (no_x_ext _ _ X (F e' J) Iy).
  - apply Forall_app. split; [|apply Forall_map, Forall_forall; cbn [fst]; eauto]. apply Forall_forall. intros e I. destruct (K e I) as (y & Ey & _). eauto.
  - apply Forall_app. split; [assumption|]. unfold ext_ser. apply Forall_map. exact Y.
Qed.
Lemma struct_ext_clean : forall ms, Forall member_good ms -> Forall member_clean ms -> nodupb (names ms) = true -> no_x (names ms) = true -> clean (struct_ext_c ms).
Proof. intros ms G. apply struct_ext_clean_back. now apply good_back. Qed.
Lemma struct_ext_once_clean : forall ms, Forall member_good ms -> Forall member_clean ms -> nodupb (names ms) = true -> no_x (names ms) = true -> clean (struct_ext_once_c ms).
Proof. intros ms G C D X. exact (struct_ext_clean ms G C D X). Qed.
Lemma iso_clean : forall {A B : Set} (c : codec A) (write : B -> A) make, clean c -> clean (iso c write make).
Proof. intros A B c write make H b W. exact (H _ W). Qed.
Lemma iso_object : forall n {A B : Set} (c : codec A) (write : B -> A) make, object n c -> object n (iso c write make).
Proof. intros n A B c write make H b W. exact (H _ W). Qed.
#[export] Hint Resolve field_clean' required_clean optional_clean given_clean many_clean flag_clean flag_true_clean list_or_map_field_clean iso_clean : codec.

(** ** Resources *)

Lemma hash_map_ser : forall m, NoDup (map fst m) -> Forall (fun e => yaml_ok (snd e) = true) m -> hash_map_de (ext_ser m) = Ok m.
Proof.
  intros m D F. unfold hash_map_de, ext_ser. rewrite (collect_map_rt _ _ (fun e => e) (fun e => yaml_ok (snd e) = true)).
  - cbn [map_ok]. rewrite map_id. f_equal. now apply (imap_of_nodup str_eqb str_eqb_eq).
  - intros [k v] H. cbn [fst snd] in *. unfold yaml_entry. cbn [fst snd de yaml_c]. now rewrite H.
  - exact F.
Qed.
Lemma without_absent : forall {A} k (m : list (str * A)), ~ In k (map fst m) -> without k m = m.
Proof.
  intros A k m. induction m as [|[j v] m IH]; intros N; [reflexivity|]. cbn [without filter fst]. destruct (str_eqb_spec k j) as [->|X]; cbn [negb].
  - elim N. now left.
  - f_equal. apply IH. intros I. apply N. now right.
Qed.

Lemma resource_good : forall {A : Set} (c : codec A), good c -> object $"external" c -> good (resource_c c).
Proof.
  intros A c [R S T] O. split.
  - intros [name|a] W.
    + destruct name as [n|]; reflexivity.
    + cbn [ser de norm resource_c wf] in *. destruct (O a W) as (m & E & D & F & N). specialize (R a W). rewrite E in R |- *.
      rewrite hash_map_ser by assumption. cbn [bind]. unfold resource_of.
      rewrite (proj2 (imap_get_none str_eqb str_eqb_eq m _) N), without_absent by assumption. cbn [bind]. now rewrite R.
  - intros v r H. cbn [de wf resource_c] in *. destruct v; try discriminate. destruct (hash_map_de l) as [m|]; cbn [bind] in H; [|discriminate].
    unfold resource_of in H. destruct (match imap_get _ _ _ with Some v => de bool_c v | None => Ok false end) as [[]|]; cbn [bind] in H; [| |discriminate].
    + destruct (match imap_get _ _ _ with Some v => map_ok Some (de string_c v) | None => Ok None end); cbn [bind] in H; [|discriminate].
      destruct (is_nil _); [|discriminate]. injection H as <-. exact I.
    + destruct (de c _) eqn:E; cbn [map_ok] in H; [|discriminate]. injection H as <-. now apply S in E.
  - intros [name|a] W; [reflexivity|]. cbn [ser norm resource_c wf] in *. now apply T.
Qed.
Lemma resource_nn : forall {A : Set} (c : codec A), mapping c -> not_null (resource_c c).
Proof. intros A c M [n|a] W; [discriminate|]. exact (mapping_nn c M a W). Qed.
Lemma resource_clean : forall {A : Set} (c : codec A), clean c -> clean (resource_c c).
Proof. intros A c H [[n|]|a] W; [reflexivity|reflexivity|exact (H a W)]. Qed.
#[export] Hint Resolve resource_nn resource_clean : codec.
