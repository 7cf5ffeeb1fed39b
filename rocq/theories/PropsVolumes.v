(** Theorems about service volumes and paths (C25, C26, C27, C48). *)

From Coq Require Import String Ascii List NArith Bool Permutation.
Import ListNotations.
From Verif Require Import Base BaseFacts Serde Regex KeysModel KeysSpec DeviceModel DeviceProofs PathModel PathProofs VolumesModel VolumesProofs.
Open Scope N_scope.

(** C25. Every short volume with valid, colon-free paths survives printing and parsing. *)
Theorem short_volume_text_round_trip : forall v,
  (exists r, sv_container v = $"/" ++ r) -> ~ In (ch ":") (sv_container v) ->
  (forall o, sv_options v = Some o ->
     match so_source o with
     | HostPath p => host_path_new p = Ok p /\ ~ In (ch ":") p
     | NamedVolume id => matches IDENTIFIER_RE id
     end) ->
  short_volume_parse (short_volume_show v) = Ok v.
Proof.
  intros v [r Hr] N H. apply short_volume_round_trip; [apply is_absolute_iff; exists r; exact Hr|exact N|].
  intros o Ho. specialize (H o Ho). destruct (so_source o) as [p|id].
  - destruct H as [H1 H2]. split; [apply host_path_new_ok in H1; tauto|]. intros q Q. injection Q as <-. exact H2.
  - split; [exact H|]. intros q Q. discriminate.
Qed.
Print Assumptions short_volume_text_round_trip.

Example short_volume_case :
  short_volume_show (mk_short_volume $"/data" (Some (mk_short_options (HostPath $"./src") true (Some Private)))) = $"./src:/data:ro,Z" /\
  short_volume_parse $"db:/var/lib/db:z" = Ok (mk_short_volume $"/var/lib/db" (Some (mk_short_options (NamedVolume $"db") false (Some Shared)))).
Proof. vm_compute. auto. Qed.

(** C25. The hypothesis on colons is needed. *)
Theorem short_volume_colon_refuted : exists v, sv_container v = $"/a:b" /\ sv_options v = None /\
  short_volume_parse (short_volume_show v) <> Ok v.
Proof. exists (mk_short_volume $"/a:b" None). repeat split. vm_compute. discriminate. Qed.
Print Assumptions short_volume_colon_refuted.

(** C25. What a source text means: a host path exactly if it is absolute or its first component is [.] or [..];
    a volume exactly if it is an identifier; nothing is both. *)
Theorem volume_source_kinds : forall s,
  (forall p, source_parse s = Ok (HostPath p) <-> p = s /\
     (s = $"." \/ s = $".." \/ exists r, s = $"/" ++ r \/ s = $"./" ++ r \/ s = $"../" ++ r)) /\
  (forall id, source_parse s = Ok (NamedVolume id) <-> id = s /\ matches IDENTIFIER_RE s).
Proof.
  intros s. split.
  - intros p. rewrite source_parse_ok. cbn. unfold host_path_text. split; intros [-> H]; auto.
  - intros id. rewrite source_parse_ok. cbn. split; intros [-> H]; auto.
Qed.
Print Assumptions volume_source_kinds.

(** C26. The option list is accepted iff every option is known, none is repeated, and [rw]/[ro] and [z]/[Z] do not
    occur together; the result says which occurred. *)
Theorem volume_options_exact : forall os st, volume_options_loop (None, None) os = Ok st <->
  NoDup os /\ (forall o, In o os -> o = $"rw" \/ o = $"ro" \/ o = $"z" \/ o = $"Z") /\
  ~ (In $"rw" os /\ In $"ro" os) /\ ~ (In $"z" os /\ In $"Z" os) /\
  (fst st = Some true <-> In $"ro" os) /\ (fst st = Some false <-> In $"rw" os) /\
  (snd st = Some Shared <-> In $"z" os) /\ (snd st = Some Private <-> In $"Z" os).
Proof.
  intros os st. rewrite volume_options_ok. unfold options_meaning. split.
  - intros [N [F [A [B [C D]]]]]. rewrite Forall_forall in F. split; [exact N|].
    split. { intros o Ho. specialize (F o Ho). cbn [In] in F. intuition congruence. }
    split; [intros [H1 H2]; apply A in H1; apply B in H2; congruence|].
    split; [intros [H1 H2]; apply C in H1; apply D in H2; congruence|]. tauto.
  - intros [N [F [_ [_ [A [B [C D]]]]]]]. split; [exact N|]. split; [|tauto]. apply Forall_forall. intros o Ho. specialize (F o Ho). cbn [In]. intuition congruence.
Qed.
Print Assumptions volume_options_exact.

(** C26. Every consistent set of options is accepted: the right-hand side of [volume_options_exact] constrains the
    list only. *)
Theorem volume_options_accepts : forall os,
  NoDup os -> (forall o, In o os -> o = $"rw" \/ o = $"ro" \/ o = $"z" \/ o = $"Z") ->
  ~ (In $"rw" os /\ In $"ro" os) -> ~ (In $"z" os /\ In $"Z" os) ->
  exists st, volume_options_loop (None, None) os = Ok st.
Proof.
  intros os N F A B. assert (dec : forall o : str, {In o os} + {~ In o os}) by (intros o; apply in_dec; apply str_eq_dec).
  exists ((if dec $"rw" then Some false else if dec $"ro" then Some true else None),
          (if dec $"z" then Some Shared else if dec $"Z" then Some Private else None)).
  apply volume_options_exact. cbn [fst snd]. split; [exact N|]. split; [exact F|]. split; [exact A|]. split; [exact B|].
  destruct (dec $"rw"), (dec $"ro"), (dec $"z"), (dec $"Z"); intuition congruence.
Qed.
Print Assumptions volume_options_accepts.

(** C26. The order of the options does not matter: a permuted list is accepted with the same result, or rejected
    too. *)
Theorem volume_options_order : forall os os', Permutation os os' ->
  match volume_options_loop (None, None) os, volume_options_loop (None, None) os' with
  | Ok st, Ok st' => st = st'
  | Err _, Err _ => True
  | _, _ => False
  end.
Proof.
  intros os os' P. destruct (volume_options_loop (None, None) os) as [st|e] eqn:E1, (volume_options_loop (None, None) os') as [st'|e'] eqn:E2; trivial.
  - apply volume_options_ok in E1, E2. eapply options_meaning_fun; [|exact E2]. eapply options_meaning_perm; eassumption.
  - apply volume_options_ok in E1. eapply options_meaning_perm in E1; [|exact P]. apply volume_options_ok in E1. congruence.
  - apply volume_options_ok in E2. eapply options_meaning_perm in E2; [|apply Permutation_sym; exact P]. apply volume_options_ok in E2. congruence.
Qed.
Print Assumptions volume_options_order.

Example volume_options_case : volume_options_loop (None, None) [$"Z"; $"ro"] = Ok (Some true, Some Private) /\
  volume_options_loop (None, None) [$"ro"; $"rw"] = Err SvReadWriteAndReadOnly.
Proof. vm_compute. auto. Qed.

(** C26. Which texts parse, in full. *)
Theorem short_volume_parse_meaning : forall s v, short_volume_parse s = Ok v <->
  (exists r, sv_container v = $"/" ++ r) /\ ~ In (ch ":") (sv_container v) /\
  match sv_options v with
  | None => s = sv_container v
  | Some o => exists src, source_parse src = Ok (so_source o) /\ ~ In (ch ":") src /\
      ((s = src ++ $":" ++ sv_container v /\ so_read_only o = false /\ so_selinux o = None) \/
       exists opts st, s = src ++ $":" ++ sv_container v ++ $":" ++ opts /\
         volume_options_loop (None, None) (split (ch ",") opts) = Ok st /\
         so_read_only o = match fst st with Some b => b | None => false end /\ so_selinux o = snd st)
  end.
Proof.
  intros s v. rewrite short_volume_parse_ok. rewrite is_absolute_iff.
  assert (R : forall A B C D : Prop, (C <-> D) -> (A /\ B /\ C <-> A /\ B /\ D)) by tauto. apply R. clear R.
  destruct (sv_options v) as [o|]; [|reflexivity]. split.
  - intros [V [N [tail [-> H]]]]. exists (source_show (so_source o)). split; [apply source_parse_ok; auto|]. split; [exact N|].
    destruct H as [[-> [H1 H2]]|[opts [st [-> [O H]]]]].
    + left. rewrite app_nil_r. auto.
    + right. exists opts, st. split; [reflexivity|]. split; [apply volume_options_ok; exact O|exact H].
  - intros [src [P [N H]]]. apply source_parse_ok in P as [-> V]. split; [exact V|]. split; [exact N|].
    destruct H as [[-> H]|[opts [st [-> [O H]]]]].
    + exists []. rewrite app_nil_r. auto.
    + exists ($":" ++ opts). split; [reflexivity|]. right. exists opts, st. split; [reflexivity|]. split; [apply volume_options_ok; exact O|exact H].
Qed.
Print Assumptions short_volume_parse_meaning.

(** C27. Short to long and back: nothing changes except that the SELinux label of a named volume is dropped. *)
Theorem short_long_short : forall v, mount_into_short (short_into_long v) =
  Ok (mk_short_volume (sv_container v)
        (match sv_options v with
         | Some (mk_short_options (NamedVolume id) ro _) => Some (mk_short_options (NamedVolume id) ro None)
         | o => o
         end)).
Proof. intros [c [[[p|id] ro se]|]]; reflexivity. Qed.
Print Assumptions short_long_short.

(** C27. So the round trip is the identity exactly for volumes without a label on a named volume. *)
Theorem short_long_short_iff : forall v, mount_into_short (short_into_long v) = Ok v <->
  ~ exists c id ro x, v = mk_short_volume c (Some (mk_short_options (NamedVolume id) ro (Some x))).
Proof.
  intros [c [[[p|id] ro [x|]]|]]; split; try (intros _; reflexivity); intros H.
  - intros [c' [id' [ro' [x' E]]]]. discriminate.
  - intros [c' [id' [ro' [x' E]]]]. discriminate.
  - discriminate H.
  - exfalso. apply H. exists c, id, ro, x. reflexivity.
  - intros [c' [id' [ro' [x' E]]]]. discriminate.
  - intros [c' [id' [ro' [x' E]]]]. discriminate.
Qed.
Print Assumptions short_long_short_iff.

(** C27 is false as stated: expanding "data:/var:z" forgets the label. *)
Theorem short_long_lossless_refuted : exists s v, short_volume_parse s = Ok v /\ mount_into_short (short_into_long v) <> Ok v.
Proof. exists $"data:/var:z". eexists. split; [vm_compute; reflexivity|]. vm_compute. discriminate. Qed.
Print Assumptions short_long_lossless_refuted.

(** C27. Long to short and back: if a mount has a short form, the mount expanded from it is the same mount, with
    empty volume options removed, provided it is not a read-only anonymous volume nor a bind without options. *)
Theorem long_short_long : forall m v, mount_into_short m = Ok v ->
  (forall vol, m = MVolume vol -> vol_source vol = None -> cm_read_only (vol_common vol) = false) ->
  (forall b, m = MBind b -> bind_bind b <> None) ->
  short_into_long v = match m with MVolume vol => MVolume (mk_volume (vol_source vol) None (vol_common vol)) | m => m end /\
  (forall vol o, m = MVolume vol -> vol_volume vol = Some o -> o = mk_volume_options false None []).
Proof.
  intros m v H HV HB. destruct m as [[src opts [t ro co ex]]|[src opts [t ro co ex]]|tm|n|c]; try discriminate H; cbn in H.
  - unfold volume_into_short in H. cbn in H.
    destruct co; [discriminate H|]. cbn [is_none andb] in H.
    destruct (match opts with Some o => volume_options_is_empty o | None => true end) eqn:EO; [|discriminate H].
    destruct ex; [|discriminate H]. cbn in H. injection H as <-. split.
    + destruct src as [id|]; [reflexivity|]. specialize (HV _ eq_refl eq_refl). cbn in HV. subst ro. reflexivity.
    + intros vol o E. injection E as <-. cbn. intros ->. destruct o as [nc sp ex]. unfold volume_options_is_empty in EO. cbn in EO.
      destruct nc, sp, ex; try discriminate EO. reflexivity.
  - unfold bind_into_short in H. cbn in H. specialize (HB _ eq_refl). cbn in HB.
    destruct co; [discriminate H|]. cbn [is_none andb] in H. destruct opts as [[pr ch se ex']|]; [|congruence]. cbn in H.
    destruct pr, ch, ex', ex; try discriminate H. cbn in H. injection H as <-. split; [reflexivity|]. intros vol o E. discriminate.
Qed.
Print Assumptions long_short_long.

(** C27. The two provisos are needed: converting a read-only anonymous volume to the short form makes it writable,
    and a bind mount without options becomes one which creates the host path. *)
Theorem long_short_read_only_refuted : exists m v, mount_into_short m = Ok v /\
  cm_read_only (mount_common m) = true /\ cm_read_only (mount_common (short_into_long v)) = false.
Proof. exists (MVolume (mk_volume None None (mk_common $"/data" true None []))). eexists. split; [reflexivity|]. auto. Qed.
Print Assumptions long_short_read_only_refuted.

Theorem long_short_create_host_path_refuted : exists b v b', mount_into_short (MBind b) = Ok v /\ short_into_long v = MBind b' /\
  bind_bind b = None /\ (exists o, bind_bind b' = Some o /\ bo_create_host_path o = true).
Proof.
  exists (mk_bind $"./src" None (mk_common $"/data" false None [])). eexists. eexists. split; [reflexivity|]. split; [reflexivity|].
  split; [reflexivity|]. eexists. split; reflexivity.
Qed.
Print Assumptions long_short_create_host_path_refuted.

(** C27. A failed conversion hands back the mount; kind, target and source never change in a successful one. *)
Theorem mount_into_short_total : forall m, match mount_into_short m with
  | Ok v => mount_kind (short_into_long v) = mount_kind m /\ mount_source (short_into_long v) = mount_source m /\
            cm_target (mount_common (short_into_long v)) = cm_target (mount_common m)
  | Err m' => m' = m
  end.
Proof.
  intros [[src opts c]|[src opts c]|tm|n|c]; cbn [mount_into_short]; try reflexivity.
  - unfold volume_into_short. destruct (_ && _ && _); cbn [map_err]; [|reflexivity]. destruct src; repeat split; reflexivity.
  - unfold bind_into_short. destruct (_ && _ && _); cbn [map_err]; [|reflexivity]. repeat split; reflexivity.
Qed.
Print Assumptions mount_into_short_total.

(** C27. The named volumes of a list are the same in whatever form its entries are written. *)
Theorem named_volumes_form : forall l, named_volumes (map Long (into_long_iter l)) = named_volumes l.
Proof.
  induction l as [|v l IH]; [reflexivity|]. cbn [into_long_iter map named_volumes] in *. fold (into_long_iter l). rewrite IH.
  replace (named_volume (Long match v with Short s => short_into_long s | Long m => m end)) with (named_volume v); [reflexivity|].
  destruct v as [[c [[[p|id] ro se]|]]|m]; reflexivity.
Qed.
Print Assumptions named_volumes_form.

(** C48. After any history of [push] and [pop] an absolute path is absolute and a host path is a host path. *)
Theorem path_history : forall ops,
  (forall p q, absolute_path_new p = Ok q -> absolute_path_new (fold_left absolute_path_op ops q) = Ok (fold_left absolute_path_op ops q)) /\
  (forall p q, host_path_new p = Ok q -> host_path_new (fold_left host_path_op ops q) = Ok (fold_left host_path_op ops q)).
Proof.
  intros ops. split; intros p q H.
  - apply absolute_path_new_ok in H as [-> H]. apply absolute_path_new_ok. split; [reflexivity|].
    revert p H. induction ops as [|o ops IH]; intros p H; cbn [fold_left]; [exact H|]. apply IH. destruct o as [x|]; cbn [absolute_path_op].
    + apply absolute_path_push_ok. exact H.
    + apply absolute_path_pop_ok. exact H.
  - apply host_path_new_ok in H as [-> H]. apply host_path_new_ok. split; [reflexivity|].
    revert p H. induction ops as [|o ops IH]; intros p H; cbn [fold_left]; [exact H|]. apply IH. destruct o as [x|]; cbn [host_path_op].
    + apply host_path_push_ok. exact H.
    + apply host_path_pop_ok. exact H.
Qed.
Print Assumptions path_history.

(** C48. Exactly which texts are host paths and absolute paths. *)
Theorem path_languages : forall p,
  (absolute_path_new p = Ok p <-> exists r, p = $"/" ++ r) /\
  (host_path_new p = Ok p <-> p = $"." \/ p = $".." \/ exists r, p = $"/" ++ r \/ p = $"./" ++ r \/ p = $"../" ++ r).
Proof.
  intros p. rewrite absolute_path_new_ok, is_absolute_iff, host_path_new_ok. unfold host_path_text. split; split; tauto.
Qed.
Print Assumptions path_languages.

(** The documented example, volumes.rs 622-637, and a less regular one. *)
Example path_case : host_path_pop $"./hello/world" = (true, $"./hello") /\ host_path_pop $"./hello" = (true, $".") /\
  host_path_pop $"." = (false, $".") /\ host_path_pop $"..//a/./" = (true, $"..") /\ absolute_path_pop $"/a" = (true, $"/") /\
  absolute_path_pop $"//" = (false, $"//").
Proof. vm_compute. repeat split. Qed.
