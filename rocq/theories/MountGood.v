(** The codecs of [MountCodec] are good. *)

From Coq Require Import String Ascii List NArith ZArith Bool Lia ZifyBool ZifyN ZifyNat.
Import ListNotations.
From Verif Require Import Base BaseFacts Num NumFacts Coll CollFacts Regex KeysSpec KeysModel BytesModel IpModel PortsModel VolumesModel EqModel
  Serde Codec CodecFacts EnumModel PropsEnum ScalarCodec ScalarGood CommonCodec CommonGood ServiceParts PartsGood MountCodec.
Open Scope N_scope.

(** A struct, as a record, with all the facts about it. *)
Record whole {A : Set} (not : str) (c : codec A) : Prop := mk_whole {
  wh_good : good c; wh_plain : plain c; wh_mapping : mapping c; wh_object : object not c }.
Lemma wh_clean : forall {A : Set} n (c : codec A), whole n c -> clean c.
Proof. intros A n c H. apply (object_clean n), H. Qed.
Lemma iso_whole : forall {B : Set} n ms (write : B -> vals ms * extensions) make, Forall member_good ms -> Forall member_clean ms -> Forall member_plain ms ->
  nodupb (names ms) = true -> no_x (names ms) = true -> existsb (str_eqb n) (names ms) = false -> starts_with $"x-" n = false ->
  (forall a, write (make a) = a) -> (forall b, make (write b) = b) -> whole n (iso (struct_ext_c ms) write make).
Proof.
  intros B n ms write make G C P D X N Nn WM MW. split.
  - apply iso_good; [now apply struct_ext_good|assumption].
  - apply iso_plain; [now apply struct_ext_plain|assumption].
  - apply iso_mapping, struct_ext_mapping.
  - now apply iso_object, struct_ext_object.
Qed.
#[export] Hint Resolve leaf_plain yaml_clean : codec.
Lemma type_good : forall {A : Set} (c : codec A), whole $"type" c -> good c. Proof. intros A c []; assumption. Qed.
Lemma type_plain : forall {A : Set} (c : codec A), whole $"type" c -> plain c. Proof. intros A c []; assumption. Qed.
Lemma type_mapping : forall {A : Set} (c : codec A), whole $"type" c -> mapping c. Proof. intros A c []; assumption. Qed.
Lemma type_clean : forall {A : Set} (c : codec A), whole $"type" c -> clean c. Proof. intros A c. apply wh_clean. Qed.
#[export] Hint Resolve type_good type_plain type_mapping type_clean : codec.

Ltac record d := apply iso_whole; unfold d; try reflexivity; [members|members|members| |].

Lemma volume_options_whole : whole $"type" volume_options_c.
Proof. record volume_options_ms; [intros [[a [b []]] x]; reflexivity|intros []; reflexivity]. Qed.
Lemma bind_options_whole : whole $"type" bind_options_c.
Proof. record bind_options_ms; [intros [[a [b [c []]]] x]; reflexivity|intros []; reflexivity]. Qed.
Lemma tmpfs_options_whole : whole $"type" tmpfs_options_c.
Proof. record tmpfs_options_ms; [intros [[a [b []]] x]; reflexivity|intros []; reflexivity]. Qed.
#[export] Hint Resolve volume_options_whole bind_options_whole tmpfs_options_whole : codec.

Lemma volume_whole : whole $"type" volume_c.
Proof. unfold volume_c, volume_ms. record common_ms; [intros [[a [b [c [d [e []]]]]] x]; reflexivity|intros [a b []]; reflexivity]. Qed.
Lemma bind_whole : whole $"type" bind_c.
Proof. unfold bind_c, bind_ms. record common_ms; [intros [[a [b [c [d [e []]]]]] x]; reflexivity|intros [a b []]; reflexivity]. Qed.
Lemma tmpfs_whole : whole $"type" tmpfs_c.
Proof. unfold tmpfs_c, tmpfs_ms. record common_ms; [intros [[a [b [c [d []]]]] x]; reflexivity|intros [a []]; reflexivity]. Qed.
Lemma named_pipe_whole : whole $"type" named_pipe_c.
Proof. unfold named_pipe_c, named_pipe_ms. record common_ms; [intros [[a [b [c [d []]]]] x]; reflexivity|intros [a []]; reflexivity]. Qed.
Lemma cluster_whole : whole $"type" cluster_c.
Proof. unfold cluster_c, cluster_ms. record common_ms; [intros [[a [b [c [d []]]]] x]; reflexivity|intros [a []]; reflexivity]. Qed.
Lemma port_whole : forall w, whole $"type" (port_c w).
Proof. intros w. record port_ms; [intros [[a [b [c [d [e [f [g []]]]]]]] x]; reflexivity|intros []; reflexivity]. Qed.
#[export] Hint Resolve volume_whole bind_whole tmpfs_whole named_pipe_whole cluster_whole port_whole : codec.

(** What the tag does. *)
Lemma tagged : forall {A : Set} (c : codec A) k a, whole $"type" c -> wf c a ->
  let es := (VStr $"type", VStr k) :: entries (ser c a) in
  lookup $"type" es = Ok (Some (VStr k)) /\ VMap (unknown [$"type"] es) = ser c a /\ yaml_ok (VMap es) = true.
Proof.
  intros A c k a [G P M O] W. destruct (O a W) as (m & E & D & F & N). cbn zeta. rewrite E. cbn [entries].
  assert (X : Forall (fun e => fst e <> VStr $"type") (ext_ser m)).
  { apply Forall_map, Forall_forall. intros e I X. cbn [fst] in X. injection X as X. apply N. rewrite <- X. now apply in_map. }
  split; [|split].
  - cbn [lookup]. rewrite str_eqb_refl, lookup_absent by assumption. reflexivity.
  - cbn [unknown filter fst existsb]. rewrite str_eqb_refl. cbn [orb negb]. f_equal. rewrite Forall_forall in X. clear E.
    induction (ext_ser m) as [|e l IH]; [reflexivity|]. cbn [filter]. rewrite IH by (intros; apply X; now right).
    assert (Xe := X e (or_introl eq_refl)). destruct (fst e) eqn:Ee; try reflexivity. cbn [existsb]. destruct (str_eqb_spec s $"type"); [congruence|reflexivity].
  - apply entries_clean.
    + cbn [map fst]. constructor.
      * intros I. apply in_map_iff in I as (e & Ee & I). rewrite Forall_forall in X. exact (X e I Ee).
      * unfold ext_ser. rewrite map_map. cbn [fst]. rewrite <- (map_map fst VStr). apply FinFun.Injective_map_NoDup; [|assumption]. intros x y Exy. congruence.
    + constructor; [cbn [fst]; eauto|]. apply Forall_map, Forall_forall. cbn [fst]. eauto.
    + constructor; [reflexivity|]. apply Forall_map. exact F.
Qed.

Lemma mount_good : good mount_c.
Proof.
  apply plain_good; [intros a; reflexivity| |].
  - intros m W. cbn [de ser mount_c mount_de]. 
    assert (X : forall {A : Set} (c : codec A) a k f, whole $"type" c -> wf c a -> mount_body m = ser c a -> mount_kind m = k ->
      (forall v, mount_read k v = map_ok f (de c v)) -> f a = m -> 
      (t <- lookup $"type" ((VStr $"type", VStr (mount_kind m)) :: entries (mount_body m)) ;;
       match t with Some (VStr kind) => mount_read kind (VMap (unknown [$"type"] ((VStr $"type", VStr (mount_kind m)) :: entries (mount_body m))))
       | _ => Err DeError end) = Ok m).
    { intros A c a k f Wh Wa -> -> R Fa. destruct (tagged c k a Wh Wa) as (E1 & E2 & _). rewrite E1. cbn [bind]. rewrite E2, R.
      destruct Wh as [G P _ _]. rewrite (plain_rt c a P G Wa). cbn [map_ok]. now rewrite Fa. }
    destruct m as [m|m|m|m|m]; (eapply X; [| | | | |]); try reflexivity; try exact W; auto with codec.
  - intros v m H. cbn [de wf mount_c] in *. destruct v; try discriminate. cbn [mount_de] in H.
    destruct (lookup _ _) as [[[]|]|]; cbn [bind] in H; try discriminate. unfold mount_read in H.
    assert (X : forall {A : Set} (c : codec A) v f, whole $"type" c -> map_ok f (de c v) = Ok m -> (forall a, wf c a -> mount_wf (f a)) -> mount_wf m).
    { intros A c v f [G _ _ _] E Y. destruct (de c v) eqn:Ec; cbn [map_ok] in E; [|discriminate]. injection E as <-. apply Y. now apply (g_sound c G) in Ec. }
    repeat (destruct (str_eqb _ _); [eapply X; [|exact H|]; [auto with codec|intros a Wa; exact Wa]|]). discriminate.
Qed.
Lemma mount_mapping : mapping mount_c. Proof. intros m. reflexivity. Qed.
Lemma mount_plain : plain mount_c. Proof. intros m. reflexivity. Qed.
Lemma mount_clean : clean mount_c.
Proof.
  intros m W. cbn [ser mount_c]. destruct m as [m|m|m|m|m]; cbn [mount_body].
  - exact (proj2 (proj2 (tagged volume_c _ m volume_whole W))).
  - exact (proj2 (proj2 (tagged bind_c _ m bind_whole W))).
  - exact (proj2 (proj2 (tagged tmpfs_c _ m tmpfs_whole W))).
  - exact (proj2 (proj2 (tagged named_pipe_c _ m named_pipe_whole W))).
  - exact (proj2 (proj2 (tagged cluster_c _ m cluster_whole W))).
Qed.
#[export] Hint Resolve mount_good mount_mapping mount_plain mount_clean iset_good many_iset_good : codec.

Lemma volumes_good : forall w, good (volumes_c w). Proof. intros w. unfold volumes_c. auto with codec. Qed.
Lemma volumes_field_good : forall n w, member_good (many n (volumes_c w)). Proof. intros n w. unfold volumes_c. auto with codec. Qed.
Lemma volumes_clean : forall w, clean (volumes_c w). Proof. intros w. unfold volumes_c. auto with codec. Qed.
Lemma ports_good : forall w, good (ports_c w). Proof. intros w. unfold ports_c. auto with codec. Qed.
Lemma ports_field_good : forall n w, member_good (many n (ports_c w)). Proof. intros n w. unfold ports_c. auto with codec. Qed.
Lemma ports_clean : forall w, clean (ports_c w). Proof. intros w. unfold ports_c. auto with codec. Qed.
#[export] Hint Resolve volumes_good volumes_field_good volumes_clean ports_good ports_field_good ports_clean : codec.
