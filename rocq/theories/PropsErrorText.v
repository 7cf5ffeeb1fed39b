(** C87. Error messages tell the error and show the offending part of the text. *)

From Coq Require Import String Ascii List NArith ZArith Bool Lia.
Import ListNotations.
From Verif Require Import Base BaseFacts Num NumFacts KeysModel DurationModel DurationSpec NetModel PortsModel BytesModel ImageModel VolumesModel PathModel UserModel BuildModel DeviceModel TextModel ValuesModel CpuSetModel PlatformModel.
From Verif Require Import KeysProofs ErrorSpec ErrorFacts PropsDuration PropsErrors PropsErrors2 ErrorText ErrorTextSpec ErrorTextFacts.
Open Scope N_scope.

(** ** The message tells the error *)

(** C87. Errors of one type never have the same message, all sources included. *)
Theorem messages_tell :
  tells any int_messages /\ tells any name_messages /\ tells any identifier_messages /\ tells (fun e => exists s, ulimit_resource_new s = Err e) resource_messages /\
  tells any map_key_messages /\ tells any extension_key_messages /\ tells any hostname_messages /\ tells any user_name_messages /\
  tells any network_mode_messages /\ tells any ipc_messages /\ tells any duration_messages /\ tells any byte_value_messages /\ tells any cpuset_messages /\
  tells any range_error_messages /\ tells any weight_messages /\ tells any number_messages /\
  tells (fun e => exists n, number_to_u64 n = Err e \/ number_to_i64 n = Err e \/ number_to_f64 n = Err e) try_from_number_messages /\
  tells any try_from_value_messages /\ tells any mac_messages /\ tells any parse_range_messages /\ tells any short_ranges_messages /\
  tells any tag_messages /\ tells any digest_messages /\ tells any image_name_messages /\ tells any image_messages /\
  tells any source_messages /\ tells any short_volume_messages /\ tells any cache_option_messages /\ tells any cache_messages /\ tells any ssh_id_messages /\
  tells any device_messages /\ tells any cgroup_messages /\ tells any platform_messages.
Proof.
  assert (R : tells (fun e => exists s, ulimit_resource_new s = Err e) resource_messages).
  { intros e1 e2 [s1 H1] [s2 H2]. apply resource_tells; intros c ->; [clear H2; rename H1 into H, s1 into s|clear H1; rename H2 into H, s2 into s];
      (destruct s; [discriminate H|]); unfold ulimit_resource_new in H; destruct (check_chars _ _ _) eqn:K; try discriminate H; injection H as ->; apply check_chars_err in K;
      now destruct K as (? & ? & ? & ? & ?). }
  assert (N : tells (fun e => exists n, number_to_u64 n = Err e \/ number_to_i64 n = Err e \/ number_to_f64 n = Err e) try_from_number_messages).
  { assert (K : forall e, (exists n, number_to_u64 n = Err e \/ number_to_i64 n = Err e \/ number_to_f64 n = Err e) -> e = TFFloatToInt \/ e = TFInt).
    { intros e ([|z|] & H); cbn in H; repeat match type of H with context [if ?b then _ else _] => destruct b end;
        intuition (try discriminate; match goal with H : Err _ = Err _ |- _ => injection H as <-; auto end). }
    intros e1 e2 H1 H2. apply try_from_number_tells; auto. }
  repeat match goal with |- _ /\ _ => split end; eauto using int_tells, name_tells, identifier_tells, map_key_tells, extension_key_tells, hostname_tells, user_name_tells,
    network_mode_tells, ipc_tells, duration_tells, byte_value_tells, cpuset_tells, range_error_tells, weight_tells, number_tells, try_from_value_tells, mac_tells,
    parse_range_tells, short_ranges_tells, tag_tells, digest_tells, image_name_tells, image_tells, source_tells, short_volume_tells, cache_option_tells, cache_tells,
    ssh_id_tells, device_tells, cgroup_tells, platform_tells.
Qed.
Print Assumptions messages_tell.
(** The error of an address keeps the text, but does not show it (ports.rs 343-349). *)
Theorem short_port_tells_refuted : exists e1 e2 s1 s2 checks, short_port_parse checks s1 = OErr e1 /\ short_port_parse checks s2 = OErr e2 /\
  e1 <> e2 /\ error_chain (short_port_messages e1) = error_chain (short_port_messages e2).
Proof. exists (SPIpAddr $"1.2.3"), (SPIpAddr $"localhost"), $"1.2.3:80:80", $"localhost:80:80", true. repeat split. discriminate. Qed.
Print Assumptions short_port_tells_refuted.
Theorem short_port_tells_partial : forall e1 e2, error_chain (short_port_messages e1) = error_chain (short_port_messages e2) <->
  e1 = e2 \/ (exists a b, e1 = SPIpAddr a /\ e2 = SPIpAddr b).
Proof. exact short_port_told. Qed.
Print Assumptions short_port_tells_partial.

(** ** What the message shows *)

Lemma part_refl : forall s, part s s. Proof. intros s. exists [], []. now rewrite app_nil_r. Qed.
Lemma part_nil : forall s, part [] s. Proof. intros s. now exists [], s. Qed.
Lemma part_trans : forall a b c, part a b -> part b c -> part a c.
Proof. intros a b c (u & v & ->) (u' & v' & ->). exists (u' ++ u), (v ++ v'). now rewrite !app_assoc. Qed.
Lemma part_char : forall c s, In c s -> part [c] s. Proof. intros c s H. apply in_split in H as (a & b & ->). now exists a, b. Qed.
Lemma part_left : forall a b, part a (a ++ b). Proof. intros. now exists [], b. Qed.
Lemma part_right : forall a b, part b (a ++ b). Proof. intros. exists a, []. now rewrite app_nil_r. Qed.
Lemma part_middle : forall a b c, part b (a ++ b ++ c). Proof. intros. now exists a, c. Qed.
Lemma part_in_right : forall t a b, part t b -> part t (a ++ b). Proof. intros. eapply part_trans; [eassumption|apply part_right]. Qed.
Lemma part_in_left : forall t a b, part t a -> part t (a ++ b). Proof. intros. eapply part_trans; [eassumption|apply part_left]. Qed.
Lemma part_join : forall sep x l, In x l -> part x (join sep l).
Proof.
  intros sep x. induction l as [|y [|z l] IH]; [easy|intros [-> |[]]; apply part_refl|].
  intros [-> |H]; [apply (part_left x)|]. apply (part_in_right _ y), part_in_right, IH, H.
Qed.
Lemma first_outside_part : forall k s c, first_outside k s c -> part [c] s. Proof. intros k s c (a & b & -> & _). now exists a, b. Qed.
Lemma part_cons : forall t c s, part t s -> part t (c :: s). Proof. intros t c s. apply (part_in_right t [c]). Qed.

(** Errors up to what they name. *)
Definition printableb (c : char) : bool := (32 <=? c) && (c <=? 126).
Lemma printableb_ok : forall s, forallb printableb s = true -> Forall printable s.
Proof. intros s H. rewrite forallb_forall in H. apply Forall_forall. intros c I. apply H in I. apply andb_prop in I as [A B]. apply N.leb_le in A, B. now split. Qed.
Lemma fills_by : forall {E} (blank : E -> E) (blanks : list E) (raised : str -> E -> Prop) m,
  forallb (fun b => let f := cut (flat (m b)) in forallb printableb (fst f ++ snd f)) blanks = true ->
  (forall s e, raised s e -> In (blank e) blanks /\ cut (flat (m e)) = cut (flat (m (blank e))) /\ part (named (flat (m e))) s) -> fills raised m.
Proof.
  intros E blank blanks raised m P H. exists (map (fun b => cut (flat (m b))) blanks). split.
  - apply Forall_map, Forall_forall. intros b I. rewrite forallb_forall in P. apply printableb_ok, P, I.
  - intros s e R. apply H in R as (I & C & T). exists (cut (flat (m e))), (named (flat (m e))). split; [rewrite C; now apply (in_map (fun b => cut (flat (m b))))|].
    split; [exact T|]. rewrite flat_text. apply cut_text.
Qed.
Definition ints := [IntEmpty; IntInvalidDigit; IntPosOverflow; IntNegOverflow].
Lemma all_ints : forall i, In i ints. Proof. intros []; cbn; auto. Qed.
Definition key_blank (e : key_error) : key_error := match e with KeyEmpty => KeyEmpty | KeyStart _ => KeyStart 0 | KeyCharacter _ => KeyCharacter 0 end.
Definition keys := [KeyEmpty; KeyStart 0; KeyCharacter 0].
Lemma all_keys : forall e, In (key_blank e) keys. Proof. intros []; cbn; auto. Qed.
Definition key_char (e : key_error) : str := match e with KeyEmpty => [] | KeyStart c => [c] | KeyCharacter c => [c] end.
Lemma key_part : forall s e, key_fails s e -> part (key_char e) s.
Proof.
  intros s e [[_ ->]|[(c & r & -> & _ & ->)|(f & r & c & -> & _ & H & ->)]]; cbn [key_char]; [apply part_nil|exact (part_left [c] r)|].
  eapply part_cons, first_outside_part, H.
Qed.
Ltac form b l := apply (fills_by b l); [vm_compute; reflexivity|]; intros s e R; split; [|split].
Ltac listed := cbn; tauto.
Lemma int_fills : forall raised : str -> int_error -> Prop, fills raised int_messages.
Proof. intros raised. form (fun e : int_error => e) ints; [apply all_ints|reflexivity|destruct e; apply part_nil]. Qed.
Lemma key_fills : forall raised : str -> key_error -> Prop, (forall s e, raised s e -> part (key_char e) s) ->
  fills raised name_messages /\ fills raised identifier_messages /\ fills raised network_mode_messages /\ fills raised ipc_messages.
Proof.
  intros raised H. repeat match goal with |- _ /\ _ => split end; form key_blank keys; try apply all_keys; try (destruct e; reflexivity); apply H in R; destruct e; exact R.
Qed.
Lemma name_part : forall s e, name_new s = Err e -> part (key_char e) s.
Proof.
  intros [|c r] e H; unfold name_new in H; [injection H as <-; apply part_nil|]. destruct (negb _); [injection H as <-; exact (part_left [c] r)|].
  destruct (check_chars _ _ _) eqn:K; [discriminate H|]. injection H as <-. apply check_chars_err in K as (a & d & b & -> & _ & _ & ->). now exists (c :: a), b.
Qed.
Lemma resource_fills : fills (fun s e => ulimit_resource_new s = Err e) resource_messages.
Proof.
  assert (H : forall s e, ulimit_resource_new s = Err e -> (forall c, e <> KeyStart c) /\ part (key_char e) s).
  { intros [|c r] e H; unfold ulimit_resource_new in H; [injection H as <-; split; [easy|apply part_nil]|].
    destruct (check_chars _ _ _) eqn:K; [discriminate H|]. injection H as <-. apply check_chars_err in K as (a & d & b & -> & _ & _ & ->). split; [easy|now exists a, b]. }
  form key_blank [KeyEmpty; KeyCharacter 0]; apply H in R as [N P]; destruct e; try (now elim (N c)); try reflexivity; try exact P; listed.
Qed.
Lemma map_key_fills : fills (fun s e => map_key_new s = Err e) map_key_messages.
Proof. form (fun e : map_key_error => e) [MapKeyEmpty; MapKeyMultipleLines]; destruct e; try listed; try reflexivity; apply part_nil. Qed.
Lemma extension_key_fills : fills (fun s e => extension_key_new s = Err e) extension_key_messages.
Proof.
  form (fun e => match e with ExtMissingPrefix _ => ExtMissingPrefix [] | x => x end) [ExtMissingPrefix []; ExtMultipleLines]; try (destruct e; first [listed | reflexivity]).
  apply extension_key_errors in R as [[_ ->]|(r & _ & _ & ->)]; [apply part_refl|apply part_nil].
Qed.
Lemma hostname_fills : fills (fun s e => hostname_new s = Err e) hostname_messages.
Proof.
  form (fun e => match e with HostCharacter _ => HostCharacter 0 | x => x end) [HostLabelEmpty; HostCharacter 0; HostLabelStartEnd]; try (destruct e; first [listed | reflexivity]).
  apply hostname_errors in R as (ls & -> & _ & _ & a & x & b & -> & _ & F). eapply part_trans; [|apply part_join, in_or_app; right; now left].
  destruct F as [[_ ->]|[(c & F & ->)|(_ & _ & ->)]]; [apply part_nil|eapply first_outside_part, F|apply part_nil].
Qed.
Definition user_blank (e : user_name_error) := match e with UserCharacter _ => UserCharacter 0 | x => x end.
Definition users := [UserEmpty; UserCharacter 0; UserDollarSign; UserNumeric; UserStart; UserLength].
Lemma user_part : forall s e, user_name_fails s e -> part (named (flat (user_name_messages e))) s.
Proof.
  intros s e [[_ ->]|[(a & c & b & -> & _ & _ & [[_ ->]|(_ & _ & ->)])|(a & _ & _ & _ & [[_ ->]|[(_ & _ & ->)|(_ & _ & _ & ->)]])]]; try apply part_nil. now exists a, b.
Qed.
Lemma user_fills : fills (fun s e => user_name_new s = Err e) user_name_messages /\ fills (fun s e => user_parse s = Err e) user_name_messages.
Proof.
  split; form user_blank users; try (destruct e; first [listed | reflexivity]).
  - apply user_name_errors in R. now apply user_part.
  - apply user_errors in R as [[_ [_ H]]|(u & g & -> & _ & [[_ H]|[_ [_ H]]])]; apply user_part in H; [exact H|now apply part_in_left|now apply part_in_right, part_cons].
Qed.
Lemma duration_fills : fills (fun s e => DurationModel.parse s = OErr e) duration_messages.
Proof.
  form (fun e => match e with DurMissingUnit _ => DurMissingUnit [] | DurNoDigits _ => DurNoDigits [] | DurInvalidUnit _ => DurInvalidUnit [] | x => x end)
    [DurEmpty; DurMissingUnit []; DurNoDigits []; DurOverflow; DurInvalidUnit []]; try (destruct e; first [listed | reflexivity]).
  apply duration_parse_errors in R as (ts & rest & -> & _ & _ & H). apply part_in_right. destruct e; cbn [error_at] in H; try apply part_nil.
  - destruct H as [-> _]. apply part_refl.
  - destruct H as [-> _]. apply part_refl.
  - destruct H as (ds & r & -> & _). apply part_middle.
Qed.
Lemma byte_value_fills : fills (fun s e => byte_value_parse s = Err e) byte_value_messages.
Proof.
  form (fun e => match e with BvUnknownUnit _ => BvUnknownUnit [] | BvParseInt i _ => BvParseInt i [] | x => x end) (BvEmpty :: BvUnknownUnit [] :: map (fun i => BvParseInt i []) ints);
    try (destruct e as [| |[]]; first [listed | reflexivity]).
  apply byte_value_errors in R as [[_ ->]|(_ & _ & [[_ ->]|(r & u & i & -> & _ & _ & ->)])]; [apply part_nil|apply part_refl|]. apply part_left.
Qed.
Lemma cpuset_fills : fills (fun s e => cpuset_parse s = Err e) cpuset_messages.
Proof.
  form (fun e : int_error * str => (fst e, @nil N)) (map (fun i : int_error => (i, @nil N)) ints); try (destruct e as [[] t]; first [listed | reflexivity]).
  apply cpuset_errors in R as (l & _ & J & a & x & b & -> & _ & F). destruct e as [i t]. change (part t s). apply (part_trans _ x).
  - destruct F as [(_ & _ & E)|(u & v & -> & _ & [[_ E]|(_ & _ & E)])]; cbn [snd] in E; subst t; [apply part_refl|apply part_left|apply (part_right (u ++ [_]) v) || (rewrite app_assoc; apply part_right)].
  - destruct J as [-> |[_ ->]]; apply part_join; rewrite ?in_app_iff; cbn; auto.
Qed.
Lemma number_fills : forall fv, fills (fun s e => number_parse fv s = Err e) number_messages.
Proof.
  intros fv. form (fun e : number_error => e) (NumFloat :: map NumInt ints); destruct e as [[]|]; try listed; try reflexivity; apply part_nil.
Qed.
Lemma mac_fills : fills (fun s e => mac_parse s = Err e) mac_messages.
Proof.
  form (fun e => match e with MacInt i _ => MacInt i [] | x => x end) (MacLength :: map (fun i => MacInt i []) ints); try (destruct e as [|[]]; first [listed | reflexivity]).
  apply mac_errors in R as (l & -> & _ & _ & [(a & p & b & i & -> & _ & _ & _ & ->)|[(_ & _ & ->)|(_ & _ & ->)]]); try apply part_nil.
  apply part_join, in_or_app. right. now left.
Qed.
Lemma range_part : forall s e, range_fails s e -> part (named (flat (parse_range_messages e))) s.
Proof.
  intros s e [(i & _ & _ & ->)|(a & b & i & -> & _ & [[_ ->]|(_ & _ & ->)])]; [apply part_refl|apply part_left|]. apply part_in_right, (part_right $"-" b).
Qed.
Definition range_blank (e : parse_range_error) := let 'RangeInt i _ := e in RangeInt i [].
Definition ranges := map (fun i => RangeInt i []) ints.
Lemma short_ranges_part : forall s e, short_ranges_fails s e -> part (named (flat (parse_range_messages e))) s.
Proof.
  intros s e [[_ H]|(h & c & -> & _ & [[_ H]|[_ H]])]; apply range_part in H; [exact H|now apply part_in_left|now apply part_in_right, part_cons].
Qed.
Lemma range_fills : fills (fun s e => range_parse s = Err e) parse_range_messages /\ fills (fun s e => expose_parse s = Err e) parse_range_messages.
Proof.
  split; form range_blank ranges; try (destruct e as [[]]; first [listed | reflexivity]).
  - apply range_text_errors in R. now apply range_part.
  - apply expose_errors in R as (r & E & _ & H). apply range_part in H. destruct E as [-> |[p ->]]; [exact H|now apply part_in_left].
Qed.
Lemma short_ranges_fill : forall checks, fills (fun s e => short_ranges_parse checks s = OErr e /\ forall p, e <> SRShortRanges p) short_ranges_messages.
Proof.
  intros checks. form (fun e => match e with SRRange e => SRRange (range_blank e) | x => x end) (map SRRange ranges);
    destruct R as [R N]; destruct e as [p|e]; try (now elim (N p)); try (destruct e as [[]]; first [listed | reflexivity]).
  apply short_ranges_errors in R. apply short_ranges_part in R. destruct e. exact R.
Qed.
Lemma ports_inside : forall s r, ports_part s r -> part r s.
Proof.
  intros s r (b & [_ B] & H). apply (part_trans _ b).
  - destruct H as [[_ ->]|(a & h & c & -> & _ & _ & _ & ->)]; [apply part_refl|]. apply part_in_right, (part_right $":").
  - destruct B as [-> |[p ->]]; [apply part_refl|apply part_left].
Qed.
Lemma short_port_fill : forall checks, fills (fun s e => short_port_parse checks s = OErr e /\ forall p, e <> SPShortRanges (SRShortRanges p)) short_port_messages.
Proof.
  intros checks. form (fun e => match e with SPShortRanges (SRRange e) => SPShortRanges (SRRange (range_blank e)) | SPIpAddr _ => SPIpAddr [] | x => x end)
    (SPIpAddr [] :: map (fun e => SPShortRanges (SRRange e)) ranges);
    destruct R as [R N]; destruct e as [a|[p|e]]; try (now elim (N p)); try (destruct e as [[]]; first [listed | reflexivity]); try listed; try reflexivity; try apply part_nil.
  apply (proj1 (proj2 (short_port_errors checks s))) in R as (r & P & H). apply short_ranges_part in H. apply ports_inside in P. destruct e. exact (part_trans _ _ _ H P).
Qed.
Definition tag_blank (e : tag_error) := match e with TECharacter _ => TECharacter 0 | x => x end.
Definition tags := [TECharacter 0; TEEmpty; TELength].
Lemma tag_part : forall s e, tag_fails s e -> part (named (flat (tag_messages e))) s.
Proof. intros s e [(c & H & ->)|[[_ ->]|(_ & _ & ->)]]; try apply part_nil. eapply first_outside_part, H. Qed.
Definition digest_blank (e : digest_error) := match e with DEAlgorithmCharacter _ => DEAlgorithmCharacter 0 | DEEncodeCharacter _ => DEEncodeCharacter 0 | x => x end.
(** All but the one over two lines. *)
Definition digests := [DEMissingAlgorithm; DEAlgorithmSeparators; DEEncodeCharacter 0; DEAlgorithmStart; DEAlgorithmEnd; DEEncodeEmpty].
Lemma digest_part : forall s e, digest_fails s e -> part (named (flat (digest_messages e))) s.
Proof.
  intros s e [[_ ->]|(alg & enc & -> & _ & H)]; [apply part_nil|].
  destruct H as [(a & c & b & -> & _ & _ & [(_ & _ & ->)|[_ ->]])|[(c & _ & H & ->)|(_ & _ & H)]]; try apply part_nil.
  - rewrite <- app_assoc. exact (part_middle a [c] _).
  - apply part_in_right, part_cons. eapply first_outside_part, H.
  - destruct H as [[_ ->]|[(c & r & _ & _ & ->)|[(c & r & _ & _ & _ & ->)|(_ & _ & ->)]]]; apply part_nil.
Qed.
Definition name_blank (e : name_error) := match e with NECharacter _ => NECharacter 0 | NERegistryPort i _ => NERegistryPort i [] | x => x end.
Definition names := NEMultipleSeparators :: NECharacter 0 :: NEEmpty :: NEStart :: NEEnd :: map (fun i => NERegistryPort i []) ints.
Lemma image_name_part : forall s e, iname_fails s e -> part (named (flat (image_name_messages e))) s.
Proof.
  assert (P : forall s e, part_fails s e -> part (named (flat (image_name_messages e))) s).
  { intros s e [(a & c & b & -> & _ & _ & [(_ & _ & ->)|[_ ->]])|(_ & [[_ ->]|[(c & r & _ & _ & ->)|(c & r & _ & _ & _ & ->)]])]; try apply part_nil. now exists a, b. }
  intros s e (first & rest & -> & _ & [(h & p & i & _ & -> & _ & _ & ->)|[(h & p & n & _ & -> & _ & _ & a & x & b & E & _ & H)|(_ & a & x & b & E & _ & H)]]).
  - eapply part_trans; [|apply part_join; now left]. apply part_in_right, (part_right $":" p).
  - apply P in H. assert (I : In x (h :: rest)) by (rewrite E; apply in_or_app; right; now left). destruct I as [-> |I].
    + eapply part_trans; [|apply part_join; now left]. apply part_in_left, H.
    + eapply part_trans; [exact H|]. apply part_join. now right.
  - apply P in H. eapply part_trans; [exact H|]. apply part_join. rewrite E. apply in_or_app. right. now left.
Qed.
Lemma tag_fills : fills (fun s e => tag_new s = Err e) tag_messages.
Proof. form tag_blank tags; try (destruct e; first [listed | reflexivity]). apply tag_errors in R. now apply tag_part. Qed.
Lemma digest_fill : fills (fun s e => digest_new s = Err e /\ forall c, e <> DEAlgorithmCharacter c) digest_messages.
Proof.
  form digest_blank digests; destruct R as [R N]; try (destruct e as [| |c| | | |]; try (now elim (N c)); first [listed | reflexivity]). apply digest_errors in R. now apply digest_part.
Qed.
Lemma image_name_fills : fills (fun s e => iname_new s = Err e) image_name_messages.
Proof. form name_blank names; try (destruct e as [[]| | | | |]; first [listed | reflexivity]). apply image_name_errors in R. now apply image_name_part. Qed.
Definition image_blank (e : image_error) :=
  match e with IEDigest e => IEDigest (digest_blank e) | IETag e => IETag (tag_blank e) | IETagAndDigest => IETagAndDigest | IEName e => IEName (name_blank e) end.
Definition images := IETagAndDigest :: map IEDigest digests ++ map IETag tags ++ map IEName names.
Lemma cut_digest_part : forall s b d, cut_digest s b d -> part b s /\ (forall x, d = Some x -> part x s).
Proof. intros s b d []; split; try easy; try apply part_refl; [apply part_left|]. intros x [= <-]. apply part_in_right, (part_right $"@" d0). Qed.
Lemma cut_tag_part : forall s b d, cut_tag s b d -> part b s /\ (forall x, d = Some x -> part x s).
Proof. intros s b d []; split; try easy; try apply part_refl; [apply part_left|]. intros x [= <-]. apply part_in_right, (part_right $":" t). Qed.
Lemma image_part : forall s e, image_fails s e -> part (named (flat (image_messages e))) s.
Proof.
  intros s e (b & d & n & t & D & T & H). apply cut_digest_part in D as [D1 D2]. apply cut_tag_part in T as [T1 T2].
  destruct H as [(x & i & E & F & ->)|[(x & i & _ & E & F & ->)|[(x & y & _ & _ & _ & _ & ->)|(i & _ & _ & F & ->)]]].
  - apply digest_part in F. apply D2 in E. destruct i; exact (part_trans _ _ _ F E).
  - apply tag_part in F. apply T2 in E. destruct i; exact (part_trans _ _ _ F (part_trans _ _ _ E D1)).
  - apply part_nil.
  - apply image_name_part in F. destruct i; exact (part_trans _ _ _ F (part_trans _ _ _ T1 D1)).
Qed.
Ltac nested := repeat match goal with
  | e : digest_error |- _ => destruct e | e : tag_error |- _ => destruct e | e : name_error |- _ => destruct e | e : int_error |- _ => destruct e | e : cache_option_error |- _ => destruct e
  | e : key_error |- _ => destruct e | e : host_path_error |- _ => destruct e end.
Lemma image_fill : fills (fun s e => image_parse s = Err e /\ forall c, e <> IEDigest (DEAlgorithmCharacter c)) image_messages.
Proof.
  form image_blank images; destruct R as [R N]; try (destruct e; nested; try (now elim (N c)); first [listed | reflexivity]). apply image_errors in R. now apply image_part.
Qed.
Lemma image_made : forall e, (forall c, e <> IEDigest (DEAlgorithmCharacter c)) -> In (image_blank e) images /\ cut (flat (image_messages e)) = cut (flat (image_messages (image_blank e))).
Proof. intros e N. destruct e; nested; try (now elim (N c)); split; first [listed | reflexivity]. Qed.
Lemma short_volume_fills : fills (fun s e => short_volume_parse s = Err e) short_volume_messages.
Proof.
  form (fun e => match e with
                 | SvSource (SrcIdentifier k) => SvSource (SrcIdentifier (key_blank k)) | SvAbsoluteContainerPath _ => SvAbsoluteContainerPath []
                 | SvDuplicateOption _ => SvDuplicateOption [] | SvUnknownOption _ => SvUnknownOption [] | x => x end)
    ([SvSource (SrcHostPath HostPathError); SvAbsoluteContainerPath []; SvReadWriteAndReadOnly; SvSELinuxSharedAndPrivate; SvDuplicateOption []; SvUnknownOption []]
     ++ map (fun k => SvSource (SrcIdentifier k)) keys); try (destruct e as [[]| | | | |]; nested; first [listed | reflexivity]).
  apply short_volume_errors in R as [(_ & _ & ->)|(src & r & -> & _ & [(i & F & ->)|(_ & c & o & E & _ & H)])].
  - apply part_refl.
  - apply part_in_left. destruct F as [(_ & _ & _ & _ & ->)|[_ (k & F & ->)]]; [apply part_nil|]. apply key_part in F. destruct k; exact F.
  - apply part_in_right, part_cons. assert (C : part c r) by (destruct E as [[-> _]|(t & -> & _)]; [apply part_refl|apply part_left]).
    destruct H as [[_ ->]|(_ & t & l & O & -> & _ & _ & a & x & b & -> & _ & H)]; [exact C|].
    destruct E as [[_ O']|(t' & -> & O')]; [congruence|]. assert (t' = join $"," (a ++ x :: b)) as -> by congruence.
    assert (X : part x (c ++ $":" ++ join $"," (a ++ x :: b))).
    { apply part_in_right, part_in_right, part_join, in_or_app. right. now left. }
    destruct H as [[_ ->]|[[_ ->]|(p & _ & _ & [[_ ->]|[_ ->]])]]; try exact X; apply part_nil.
Qed.
Lemma cache_option_fills : fills (fun s e => cache_option_new s = Err e) cache_option_messages.
Proof. form (fun e : cache_option_error => e) [CacheOptionEmpty; CacheOptionWhitespace]; destruct e; try listed; try reflexivity; apply part_nil. Qed.
Lemma cache_fill : fills (fun s e => cache_parse s = Err e /\ forall c, e <> CeImage (IEDigest (DEAlgorithmCharacter c))) cache_messages.
Proof.
  form (fun e => match e with CeImage e => CeImage (image_blank e) | x => x end)
    ([CeTypeFirst; CeMissingRef; CeOption CacheOptionEmpty; CeOption CacheOptionWhitespace] ++ map CeImage images); destruct R as [R N].
  1,2: destruct e as [e| |e|]; [|first [listed | reflexivity]|destruct e; first [listed | reflexivity]|first [listed | reflexivity]].
  - apply in_or_app. right. apply in_map, image_made. intros c ->. now elim (N c).
  - destruct e; nested; try (now elim (N c)); reflexivity.
  - assert (O : forall o, part (named (flat (cache_messages (CeOption o)))) s) by (intros []; apply part_nil).
    assert (I : forall i v, image_fails v i -> part v s -> part (named (flat (cache_messages (CeImage i)))) s).
    { intros i v F P. apply image_part in F. apply (part_trans _ _ _ F) in P. destruct i; nested; exact P. }
    apply cache_errors in R as [(_ & i & F & ->)|(f & l & -> & _ & _ & [[_ ->]|(t & _ & [(a & x & b & _ & _ & k & v & _ & i & _ & ->)|(_ & [(_ & _ & ->)|[(_ & a & v & b & i & -> & _ & F & ->)|(_ & i & _ & ->)]])])])]; try apply O; try apply part_nil.
    + apply (I _ _ F), part_refl.
    + apply (I _ _ F). apply (part_trans _ ($"ref=" ++ v)); [apply part_right|]. apply part_join. right. apply in_or_app. right. now left.
Qed.
Lemma ssh_fills : fills (fun s e => ssh_auth_parse s = Err e) ssh_id_messages.
Proof. form (fun e : ssh_id_error => e) [EmptyId; MissingPath]; destruct e; try listed; try reflexivity; apply part_nil. Qed.
Lemma device_fills : fills (fun s e => device_parse s = Err e) device_messages.
Proof.
  form (fun e => match e with DevPermissions _ => DevPermissions 0 | x => x end) [DevEmpty; DevContainerPathMissing; DevContainerPathAbsolute; DevPermissions 0]; try (destruct e; first [listed | reflexivity]).
  apply device_errors in R as [[_ ->]|(h & r & -> & _ & [[_ ->]|(p & q & c & -> & _ & F & ->)])]; try apply part_nil. do 4 (try apply part_in_right; try apply part_cons). eapply first_outside_part, F.
Qed.
Lemma cgroup_fills : fills (fun s e => cgroup_parse s = Err e) cgroup_messages.
Proof.
  form (fun e => match e with CgKind _ => CgKind [] | CgPermissions _ => CgPermissions 0 | x => x end) ([CgEmpty; CgKind []; CgNumbersMissing; CgPermissions 0] ++ map CgNumber ints);
    try (destruct e; nested; first [listed | reflexivity]).
  apply cgroup_errors in R as (k & r & E & _ & H).
  assert (K : part k s) by (destruct E as [[-> _]| ->]; [apply part_refl|apply part_left]).
  assert (P : r = [] \/ part r s) by (destruct E as [[_ ->]| ->]; [now left|right; apply part_in_right, (part_right $" ")]).
  destruct H as [[_ ->]|(_ & n & p & E' & _ & [[_ ->]|(a & b & -> & _ & [(i & _ & ->)|[(i & _ & _ & ->)|(c & _ & _ & F & ->)]])])]; try (destruct i); try apply part_nil; [exact K|].
  apply first_outside_part in F. destruct E' as [[_ ->]| ->]; [destruct F as ([|? ?] & ? & F); discriminate F|].
  destruct P as [P|P]; [exfalso; destruct a; discriminate P|]. refine (part_trans _ _ _ F (part_trans _ _ _ _ P)). apply part_in_right, (part_right $" ").
Qed.

(** C87. Every message is one line of fixed text around a piece of the rejected text; digests are an exception, below. *)
Theorem messages_fill_partial :
  (forall base max, fills (fun s e => parse_uint_radix base max s = Err e) int_messages) /\ fills (fun s e => count_parse s = Err e) int_messages /\
  fills (fun s e => name_new s = Err e) name_messages /\ fills (fun s e => identifier_new s = Err e) identifier_messages /\
  fills (fun s e => link_parse s = Err e) identifier_messages /\ fills (fun s e => build_network_parse s = Err e) identifier_messages /\
  fills (fun s e => volumes_from_parse s = Err e) identifier_messages /\
  fills (fun s e => network_mode_parse s = Err e) network_mode_messages /\ fills (fun s e => ipc_parse s = Err e) ipc_messages /\
  fills (fun s e => ulimit_resource_new s = Err e) resource_messages /\ fills (fun s e => map_key_new s = Err e) map_key_messages /\
  fills (fun s e => extension_key_new s = Err e) extension_key_messages /\ fills (fun s e => hostname_new s = Err e) hostname_messages /\
  fills (fun s e => user_name_new s = Err e) user_name_messages /\ fills (fun s e => user_parse s = Err e) user_name_messages /\
  fills (fun s e => DurationModel.parse s = OErr e) duration_messages /\ fills (fun s e => byte_value_parse s = Err e) byte_value_messages /\
  fills (fun s e => cpuset_parse s = Err e) cpuset_messages /\ (forall fv, fills (fun s e => number_parse fv s = Err e) number_messages) /\
  fills (fun s e => mac_parse s = Err e) mac_messages /\ fills (fun s e => range_parse s = Err e) parse_range_messages /\
  fills (fun s e => expose_parse s = Err e) parse_range_messages /\ fills (fun s e => tag_new s = Err e) tag_messages /\
  fills (fun s e => digest_new s = Err e /\ forall c, e <> DEAlgorithmCharacter c) digest_messages /\
  fills (fun s e => iname_new s = Err e) image_name_messages /\
  fills (fun s e => image_parse s = Err e /\ forall c, e <> IEDigest (DEAlgorithmCharacter c)) image_messages /\
  fills (fun s e => cache_parse s = Err e /\ forall c, e <> CeImage (IEDigest (DEAlgorithmCharacter c))) cache_messages /\
  fills (fun s e => short_volume_parse s = Err e) short_volume_messages /\ fills (fun s e => cache_option_new s = Err e) cache_option_messages /\
  fills (fun s e => ssh_auth_parse s = Err e) ssh_id_messages /\ fills (fun s e => device_parse s = Err e) device_messages /\
  fills (fun s e => cgroup_parse s = Err e) cgroup_messages /\ (forall A (arms : list (A * str)), fills (fun s e => first_text arms s = Err e) platform_messages).
Proof.
  assert (K : forall s e, identifier_new s = Err e -> part (key_char e) s) by (intros s e H; apply key_errors in H; now apply key_part).
  repeat match goal with |- _ /\ _ => split end;
    eauto using int_fills, resource_fills, map_key_fills, extension_key_fills, hostname_fills, duration_fills, byte_value_fills, cpuset_fills, number_fills, mac_fills,
      tag_fills, digest_fill, image_name_fills, image_fill, cache_fill, short_volume_fills, cache_option_fills, ssh_fills, device_fills, cgroup_fills;
    try apply range_fills; try apply user_fills; try (apply key_fills; intros s e H).
  - now apply name_part.
  - now apply K.
  - apply link_errors in H as (i & _ & E & H). apply key_part in H. destruct E as [-> |[a ->]]; [exact H|now apply part_in_left].
  - apply build_network_errors in H as [_ H]. now apply key_part.
  - apply volumes_from_errors in H as (b & E & H). apply (part_trans _ b).
    + destruct H as [(i & -> & H)|[_ H]]; apply key_part in H; [now apply part_in_right|exact H].
    + destruct E as [-> |[-> |[-> _]]]; [apply part_left|apply part_left|apply part_refl].
  - apply network_mode_errors in H as (i & E & H). apply key_part in H. destruct E as [-> | ->]; now apply part_in_right.
  - apply ipc_errors in H as (i & -> & H). apply key_part in H. now apply part_in_right.
  - intros A arms. form (fun _ : str => @nil N) [@nil N]; [listed|reflexivity|]. unfold first_text in R. destruct (find _ _); [discriminate R|]. injection R as <-. apply part_refl.
Qed.
Print Assumptions messages_fill_partial.

(** The message about a character of the algorithm of a digest goes over two lines: a line break and the indentation of the source are in it (digest.rs 127-130). *)
Theorem digest_message_refuted : exists s e, digest_new s = Err e /\ ~ In 10 s /\ In 10 (error_chain (digest_messages e)) /\
  image_parse ($"alpine@" ++ s) = Err (IEDigest e) /\ cache_parse ($"alpine@" ++ s) = Err (CeImage (IEDigest e)) /\
  In 10 (error_chain (image_messages (IEDigest e))) /\ In 10 (error_chain (cache_messages (CeImage (IEDigest e)))).
Proof. exists $"SHA256:00", (DEAlgorithmCharacter (ch "S")). repeat split; try (vm_compute; tauto). vm_compute. intuition discriminate. Qed.
Print Assumptions digest_message_refuted.
Lemma fills_clean : forall {E} (raised : str -> E -> Prop) m, fills raised m -> clean raised m.
Proof.
  intros E raised m (forms & P & F) s e c R I. apply F in R as (f & t & If & (a & b & ->) & H). rewrite H in I. rewrite Forall_forall in P. specialize (P f If). rewrite Forall_forall in P.
  rewrite !in_app_iff in *. destruct I as [I|[I|I]]; [left; apply P; rewrite in_app_iff; auto|auto|left; apply P; rewrite in_app_iff; auto].
Qed.
Theorem digest_message_lines : forall s e, ~ In 10 s -> digest_new s = Err e -> (In 10 (error_chain (digest_messages e)) <-> exists c, e = DEAlgorithmCharacter c).
Proof.
  intros s e N H. split; [|intros [c ->]; rewrite flat_text, cut_text; apply in_or_app; right; apply in_or_app; right; vm_compute; tauto].
  intros I. assert (D : (exists c, e = DEAlgorithmCharacter c) \/ forall c, e <> DEAlgorithmCharacter c) by (destruct e; eauto; right; discriminate).
  destruct D as [D|D]; [exact D|]. destruct (fills_clean _ _ digest_fill s e 10 (conj H D) I) as [[X _]|X]; [now elim X|contradiction].
Qed.
Print Assumptions digest_message_lines.

(** C87. Ports can also be rejected for the sizes of ranges, which are shown as numbers. *)
Theorem port_messages : forall checks,
  fills (fun s e => short_ranges_parse checks s = OErr e /\ forall p, e <> SRShortRanges p) short_ranges_messages /\
  fills (fun s e => short_port_parse checks s = OErr e /\ forall p, e <> SPShortRanges (SRShortRanges p)) short_port_messages /\
  clean (fun s e => short_ranges_parse checks s = OErr e) short_ranges_messages /\ clean (fun s e => short_port_parse checks s = OErr e) short_port_messages /\
  forall s m n, short_port_parse checks s = OErr (SPShortRanges (SRShortRanges (m, n))) ->
    exists r a b c, ports_part s r /\ sizes_differ checks r m n /\
      error_chain (short_port_messages (SPShortRanges (SRShortRanges (m, n)))) = a ++ $"`" ++ show_N m ++ $"`" ++ b ++ $"`" ++ show_N n ++ $"`" ++ c.
Proof.
  intros checks.
  assert (D : forall n c, In c (show_N n) -> printable c).
  { intros n c I. destruct (is_digit c) eqn:E; [|now elim (show_N_not_In _ _ E I)]. unfold printable. cls. lia. }
  assert (L : forall l, forallb printableb l = true -> forall c, In c l -> printable c) by (intros l H c I; apply printableb_ok in H; rewrite Forall_forall in H; auto).
  assert (S : forall p c, In c (error_chain (sizes_messages p)) -> printable c).
  { intros [m n] c I. unfold error_chain, sizes_messages, message_text in I. cbn [map flat_map piece_text join fst snd] in I. rewrite !in_app_iff in I.
    destruct I as [I|[I|[I|[I|[I|[]]]]]]; try exact (D _ _ I); (eapply L; [|exact I]; reflexivity). }
  assert (W : forall a, forallb printableb (message_text a) = true -> forall l, l <> [] -> (forall c, In c (error_chain l) -> printable c) -> forall c, In c (error_chain (a :: l)) -> printable c).
  { intros a H l N K c I. rewrite chain_wrap, !in_app_iff in I by exact N. destruct I as [I|[I|I]]; eauto using L. eapply (L $": "); [reflexivity|exact I]. }
  assert (S' : forall p c, In c (error_chain (short_ranges_messages (SRShortRanges p))) -> printable c) by (intros p; apply W; [reflexivity|easy|apply S]).
  assert (S'' : forall p c, In c (error_chain (short_port_messages (SPShortRanges (SRShortRanges p)))) -> printable c) by (intros p; apply W; [reflexivity|easy|apply S']).
  split; [apply short_ranges_fill|]. split; [apply short_port_fill|]. split; [|split].
  - intros s e c R I. destruct e as [p|e]; [left; eapply S', I|]. eapply fills_clean; [apply (short_ranges_fill checks)|split; [exact R|easy]|exact I].
  - intros s e c R I. destruct e as [a|[p|e]]; [|left; eapply S'', I|]; (eapply fills_clean; [apply (short_port_fill checks)|split; [exact R|easy]|exact I]).
  - intros s m n R. apply (proj2 (proj2 (short_port_errors checks s))) in R as (r & P & X). exists r.
    exists $"error parsing port ranges: error creating the port ranges: host port range size ", $" must be equal to container port range size ", []. split; [exact P|]. split; [exact X|].
    unfold short_port_messages, short_ranges_messages. rewrite !chain_wrap by easy. unfold error_chain, sizes_messages, message_text. cbn [map flat_map piece_text join fst snd]. rewrite <- !app_assoc. reflexivity.
Qed.
Print Assumptions port_messages.

(** Some errors are passed on with their own message only, without those of their sources: none of these errors has a source. *)
Theorem lone_messages : (forall e, error_alone (duration_messages e) = error_chain (duration_messages e)) /\
  (forall e, error_alone (user_name_messages e) = error_chain (user_name_messages e)) /\ (forall e, error_alone (map_key_messages e) = error_chain (map_key_messages e)) /\
  (forall e, error_alone (hostname_messages e) = error_chain (hostname_messages e)) /\ error_alone address_messages = error_chain address_messages /\
  error_alone try_from_int_messages = error_chain try_from_int_messages /\ error_alone float_messages = error_chain float_messages.
Proof. repeat match goal with |- _ /\ _ => split end; try (intros []); reflexivity. Qed.
Print Assumptions lone_messages.

(** An extension key over several lines is called a map key (keys.rs 170). *)
Theorem extension_key_message_refuted : exists s e, extension_key_new s = Err e /\ ~ part $"extension" (error_chain (extension_key_messages e)) /\
  error_chain (extension_key_messages e) = error_chain (map_key_messages MapKeyMultipleLines).
Proof.
  exists ($"x-a" ++ 10 :: $"b"), ExtMultipleLines. split; [reflexivity|]. split; [|reflexivity].
  intros (a & b & H).
  assert (X : forallb (fun c => negb (c =? ch "x")) (error_chain (extension_key_messages ExtMultipleLines)) = true) by reflexivity.
  rewrite forallb_forall in X. assert (I : In (ch "x") (error_chain (extension_key_messages ExtMultipleLines))).
  { rewrite H. apply in_or_app. right. cbn. tauto. }
  now apply X in I.
Qed.
Print Assumptions extension_key_message_refuted.

Example messages_case :
  image_parse $"quay.io:x/a" = Err (IEName (NERegistryPort IntInvalidDigit $"x")) /\
  error_chain (image_messages (IEName (NERegistryPort IntInvalidDigit $"x"))) = $"invalid image name part: image registry port `x` is not a valid port number: invalid digit found in string" /\
  short_volume_parse $"a b:/c" = Err (SvSource (SrcIdentifier (KeyCharacter 32))) /\
  error_chain (short_volume_messages (SvSource (SrcIdentifier (KeyCharacter 32)))) =
    $"error parsing volume source: error parsing volume identifier: invalid character ` `, identifiers must contain only ASCII letters (a-z, A-Z), digits (0-9), dots (.), underscores (_), or dashes (-)" /\
  error_chain (range_error_messages (mk_range_error (-1001) (-1000) 1000)) = $"value `-1001` is not between -1000 and 1000".
Proof. repeat split. Qed.
