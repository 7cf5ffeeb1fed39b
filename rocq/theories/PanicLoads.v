(** Panics while a compose file is read: the codecs of the file, one by one. *)

From Coq Require Import String Ascii List NArith ZArith Bool Lia ZifyBool ZifyN ZifyNat.
Import ListNotations.
From Verif Require Import Base BaseFacts Num Coll IpModel DurationModel DurationSpec DurationProofs PortsModel PortsProofs PortsSpec NetModel TextModel VolumesModel HealthModel HealthProofs
  Serde Codec CodecFacts EnumModel ScalarCodec CommonCodec ServiceParts MountCodec ServiceCodec ComposeCodec ErrorSpec PanicSpec PanicFacts.
Open Scope N_scope.

(** ** Single values *)

Lemma panics_no : forall {E A} (o : outcome E A), panicked o = true -> read_ok (no_panic o) = false.
Proof. intros E A [] H; try discriminate; reflexivity. Qed.
Lemma tame_duration : forall checks, tame checks duration_c [([], Duration)].
Proof.
  intros checks v H. cbn [panics de duration_c] in *. destruct v; try discriminate. split; [now apply panics_no|]. exists [], Duration, (VStr s). split; [apply in_eq|]. split; [reflexivity|].
  exists s. split; [reflexivity|]. now apply duration_panics.
Qed.
Lemma critical_duration : forall checks, critical checks duration_c [] Duration.
Proof. intros checks v v' x a _ -> (s & -> & H). cbn [panics duration_c]. now apply duration_panics. Qed.
Lemma short_port_text_panics : forall checks s, panicked (short_port_deserialize checks (VStr s)) = panicked (short_port_parse checks s).
Proof. intros checks s. unfold short_port_deserialize, from_str_or_u16. now destruct (short_port_parse checks s). Qed.
Lemma tame_short_port : forall w, tame (w_checks w) (short_port_c w) [([], Port)].
Proof.
  intros w v H. cbn [panics de short_port_c] in *. split; [now apply panics_no|]. destruct v as [| |z| |s| |]; try discriminate.
  - unfold short_port_deserialize, from_str_or_u16 in H. destruct (int_to_uint U16_MAX z); discriminate.
  - rewrite short_port_text_panics in H. exists [], Port, (VStr s). split; [apply in_eq|]. split; [reflexivity|]. exists s. split; [reflexivity|]. now apply port_panics.
Qed.
Lemma critical_short_port : forall w, critical (w_checks w) (short_port_c w) [] Port.
Proof. intros w v v' x a _ -> (s & -> & H). cbn [panics short_port_c]. rewrite short_port_text_panics. now apply port_panics. Qed.
Lemma never_range : never range_c.
Proof.
  intros v. cbn [panics range_c]. unfold range_deserialize, from_str_or_u16. destruct v as [| |z| |s| |]; try reflexivity.
  - now destruct (int_to_uint U16_MAX z).
  - now destruct (range_parse s).
Qed.
Lemma never_expose : never expose_c.
Proof.
  intros v. cbn [panics expose_c]. unfold expose_deserialize, from_str_or_u16. destruct v as [| |z| |s| |]; try reflexivity.
  - now destruct (int_to_uint U16_MAX z).
  - now destruct (expose_parse s).
Qed.
Lemma never_vmap : never vmap_c.
Proof. apply never_imap; [intros v; reflexivity|]. apply never_option. intros v. reflexivity. Qed.
Lemma never_list_or_map : never list_or_map_c.
Proof. intros v. cbn [panics list_or_map_c]. destruct v; try reflexivity; [|apply never_vmap]. apply (never_iset str_eqb string_c). intros v. reflexivity. Qed.

(** ** Health checks *)

Definition health_places : list (list step * kind) :=
  map (fun n => ([Key n], Duration)) [$"interval"; $"timeout"; $"start_period"; $"start_interval"].
Lemma fill_tame : forall checks {A : Set} (slot : option A) (c : codec A) ps v set, tame checks c ps -> fill_panics slot c v = true -> read_ok (fill slot c v set) = false /\ found_at checks ps v.
Proof.
  intros checks A slot c ps v set T H. unfold fill_panics, fill in *. apply andb_true_iff in H as [N H]. rewrite N, read_ok_map. now apply T.
Qed.
Lemma health_entry_tame : forall checks s e, health_entry_panics s e = true ->
  read_ok (health_entry s e) = false /\ exists n x, fst e = VStr n /\ In n [$"interval"; $"timeout"; $"start_period"; $"start_interval"] /\ snd e = x /\ causes_panic checks Duration x.
Proof.
  intros checks [d t i o r p q x] [k v] H. unfold health_entry_panics, health_entry in *. cbn [fst snd h_interval h_timeout h_start_period h_start_interval] in *.
  destruct k as [| | | |k| |]; try discriminate.
  assert (G : forall n (slot : option duration) set, In n [$"interval"; $"timeout"; $"start_period"; $"start_interval"] -> k = n -> fill_panics slot duration_c v = true ->
    read_ok (fill slot duration_c v set) = false /\ exists n x, VStr k = VStr n /\ In n [$"interval"; $"timeout"; $"start_period"; $"start_interval"] /\ v = x /\ causes_panic checks Duration x).
  { intros n slot set I -> P. destruct (fill_tame checks slot duration_c _ v set (tame_duration checks) P) as [F (p' & k' & y & [E|[]] & R & C)]. injection E as <- <-. cbn in R. subst y.
    split; [exact F|]. exists n, v. auto. }
  destruct (str_eqb_spec k $"disable") as [->|_]; [discriminate|]. destruct (str_eqb_spec k $"test") as [->|_]; [discriminate|].
  destruct (str_eqb_spec k $"interval") as [E|_]; [apply (G $"interval"); cbn [In]; auto|].
  destruct (str_eqb_spec k $"timeout") as [E|_]; [apply (G $"timeout"); cbn [In]; auto|].
  destruct (str_eqb_spec k $"retries") as [->|_]; [discriminate|].
  destruct (str_eqb_spec k $"start_period") as [E|_]; [apply (G $"start_period"); cbn [In]; auto|].
  destruct (str_eqb_spec k $"start_interval") as [E|_]; [apply (G $"start_interval"); cbn [In]; auto|]. discriminate.
Qed.
Lemma health_loop_tame : forall checks es s, health_panics s es = true ->
  read_ok (health_loop s es) = false /\ exists n x, In (VStr n, x) es /\ In n [$"interval"; $"timeout"; $"start_period"; $"start_interval"] /\ causes_panic checks Duration x.
Proof.
  intros checks. induction es as [|[k v] es IH]; intros s H; cbn [health_panics health_loop] in *; [discriminate|]. apply orb_true_iff in H as [H|H].
  - destruct (health_entry_tame checks s (k, v) H) as [F (n & x & E & I & E' & C)]. cbn [fst snd] in *. subst k x. split; [now apply read_ok_bind|]. exists n, v. split; [apply in_eq|auto].
  - destruct (health_entry s (k, v)) as [s'|]; [|discriminate]. destruct (IH _ H) as [F (n & x & I & R)]. split; [exact F|]. exists n, x. split; [now right|exact R].
Qed.
Lemma tame_healthcheck : forall checks, tame checks healthcheck_c health_places.
Proof.
  intros checks v H. destruct v as [| | | | | |es]; try discriminate. cbn [panics healthcheck_c] in H. destruct (health_loop_tame checks es no_slots H) as [F (n & x & I & N & C)]. split.
  - cbn [de healthcheck_c health_de]. now apply read_ok_bind.
  - exists [Key n], Duration, x. split; [apply in_map_iff; exists n; auto|]. split; [|exact C]. exists es, x. split; [reflexivity|]. split; [exact I|reflexivity].
Qed.
Lemma health_entry_critical : forall checks s n v x s', In n [$"interval"; $"timeout"; $"start_period"; $"start_interval"] -> health_entry s (VStr n, v) = Ok s' -> causes_panic checks Duration x ->
  health_entry_panics s (VStr n, x) = true.
Proof.
  intros checks [d t i o r p q e] n v x s' I H C.
  assert (P : panics duration_c x = true) by (apply (critical_duration checks (VInt 0) x x (from_micros 0)); [reflexivity|reflexivity|exact C]).
  assert (G : forall (slot : option duration) set, fill slot duration_c v set = Ok s' -> fill_panics slot duration_c x = true).
  { intros slot set F. unfold fill, fill_panics in *. destruct (is_none slot); [now rewrite P|discriminate]. }
  unfold health_entry, health_entry_panics in *. cbn [fst snd h_interval h_timeout h_start_period h_start_interval] in *.
  destruct I as [<-|[<-|[<-|[<-|[]]]]].
  - exact (G _ _ H).
  - exact (G _ _ H).
  - exact (G _ _ H).
  - exact (G _ _ H).
Qed.
Lemma critical_healthcheck : forall checks n, In n [$"interval"; $"timeout"; $"start_period"; $"start_interval"] -> critical checks healthcheck_c [Key n] Duration.
Proof.
  intros checks n I v v' x a D R C. destruct R as (l & y & y' & r & -> & -> & R). cbn in R. subst y'. cbn [de healthcheck_c health_de] in D. apply bind_ok in D as (s' & D & _).
  cbn [panics healthcheck_c]. revert s' D. generalize no_slots. induction l as [|e l IH]; intros s s' D; cbn [app health_loop health_panics] in *.
  - apply bind_ok in D as (s1 & D & _). now rewrite (health_entry_critical checks s n y x s1 I D C).
  - apply bind_ok in D as (s1 & D & D'). rewrite D, (IH _ _ D'). apply orb_true_r.
Qed.

(** ** Everything which never panics *)

Ltac head_of c := lazymatch c with ?f _ => head_of f | ?f => f end.
Ltac never := lazymatch goal with
  | |- never (list_c _) => apply never_list; never
  | |- never (iset_c _ _) => apply never_iset; never
  | |- never (sset _) => apply never_iset; never
  | |- never vmap_c => exact never_vmap
  | |- never (smap _ _) => apply never_imap; never
  | |- never (imap_c _ _ _) => apply never_imap; never
  | |- never (option_c _) => apply never_option; never
  | |- never (some_c _) => apply never_some; never
  | |- never (limit_c _) => apply never_limit; never
  | |- never (resource_c _) => apply never_resource; never
  | |- never (short_or_long_c _ _) => apply never_short_or_long; never
  | |- never (item_or_list_c _ _) => apply never_item_or_list; never
  | |- never (iso _ _ _) => apply never_iso; never
  | |- never (struct_c _) => apply never_struct; never
  | |- never (struct_ext_c _) => apply never_struct_ext; never
  | |- never (struct_ext_once_c _) => apply never_struct_ext_once; never
  | |- never range_c => exact never_range
  | |- never expose_c => exact never_expose
  | |- never list_or_map_c => exact never_list_or_map
  | |- never (extra_hosts_c _) => exact never_list_or_map
  | |- never (additional_contexts_c _) => exact never_list_or_map
  | |- Forall m_never [] => constructor
  | |- Forall m_never (_ :: _) => constructor; [never|never]
  | |- Forall m_never ?l => let l' := eval hnf in l in change (Forall m_never l'); never
  | |- m_never (field _ _ _ _) => apply never_field; never
  | |- m_never (optional _ _) => apply never_field, never_option; never
  | |- m_never (given _ _) => apply never_field, never_some; never
  | |- m_never (required _ _) => apply never_field; never
  | |- m_never (many _ _) => apply never_field; never
  | |- m_never (flag _) => apply never_field; never
  | |- m_never (flag_true _) => apply never_field; never
  | |- m_never (list_or_map_field _) => apply never_field; never
  | |- m_never (cpuset_field _ _) => apply never_field; never
  | |- m_never (depends_on_field _) => apply never_field; never
  | |- m_never (group _ _ _ _ _) => apply never_group; never
  | |- m_never ?m => let h := head_of m in unfold h; never
  | |- never ?c => first [assumption | solve [intros ?v; reflexivity] | let h := head_of c in unfold h; never]
  end.

Lemma never_mount : never mount_c.
Proof.
  intros v. cbn [panics mount_c]. unfold mount_panics. destruct v as [| | | | | |es]; try reflexivity. destruct (lookup $"type" es) as [[[| | | |k| |]|]|]; try reflexivity. cbv zeta.
  assert (V : never volume_c) by never. assert (B : never bind_c) by never. assert (T : never tmpfs_c) by never. assert (N : never named_pipe_c) by never. assert (C : never cluster_c) by never.
  rewrite V, B, T, N, C. repeat match goal with |- (if ?b then _ else _) = _ => destruct b end; reflexivity.
Qed.
Lemma never_build : forall w, never (build_c w).
Proof. intros w. never. Qed.
Lemma never_network_config : forall w, m_never (network_config_m w).
Proof. intros w. never. Qed.

(** ** Compose files *)

Lemma keys_only : forall (l : list (list step * kind)), Forall (fun e => match fst e with Key _ :: _ => True | _ => False end) l -> forall p k, In (p, k) l -> exists s q, p = Key s :: q.
Proof. intros l F p k I. rewrite Forall_forall in F. specialize (F _ I). cbn [fst] in F. destruct p as [|[s| |] q]; try destruct F. eauto. Qed.
Ltac keys := apply keys_only; repeat (constructor; [exact I|]); constructor.
Ltac sub := let e := fresh in let I := fresh in intros e I; unfold under in *; cbn [In map app fst snd] in *; tauto.
(** Members: one with places in it, the others never panic. *)
Ltac tames L := repeat (apply Forall_cons; [first [L | apply m_tame_group | apply m_tame_never; solve [never]]|]); apply Forall_nil.
Ltac quiets := repeat (apply Forall_cons; [first [apply quiet_field | apply never_quiet; solve [never]]|]); apply Forall_nil.

Definition delays (a b : str) : list (list step * kind) := [([Key a], Duration); ([Key b], Duration)].
Lemma m_tame_given : forall checks n ps, In ([Key n], Duration) ps -> m_tame checks (given n duration_c) ps.
Proof.
  intros checks n ps I. unfold given. eapply m_tame_incl; [apply m_tame_field, tame_some, tame_duration|]. intros e [<-|[]]. exact I.
Qed.
Lemma m_tame_optional : forall checks n {A : Set} (c : codec A) qs ps, tame checks c qs -> incl (under (Key n) qs) ps -> m_tame checks (optional n c) ps.
Proof. intros checks n A c qs ps T I. unfold optional. eapply m_tame_incl; [apply m_tame_field, tame_option, T|exact I]. Qed.
Ltac delayed := apply m_tame_given; cbn [In delays]; tauto.
Lemma tame_restart_policy : forall checks, tame checks restart_policy_c (delays $"delay" $"window").
Proof. intros checks. apply tame_struct_ext; [unfold restart_policy_ms; tames delayed|unfold restart_policy_ms; quiets|keys]. Qed.
Lemma tame_update_config : forall checks, tame checks update_config_c (delays $"delay" $"monitor").
Proof. intros checks. apply tame_struct_ext; [unfold update_config_ms; tames delayed|unfold update_config_ms; quiets|keys]. Qed.
Definition deploy_places : list (list step * kind) :=
  under (Key $"restart_policy") (delays $"delay" $"window") ++ under (Key $"update_config") (delays $"delay" $"monitor") ++ under (Key $"rollback_config") (delays $"delay" $"monitor").
Lemma tame_deploy : forall w, tame (w_checks w) (deploy_c w) deploy_places.
Proof.
  intros w. apply tame_struct_ext; [unfold deploy_ms|unfold deploy_ms; quiets|unfold deploy_places, delays, under; cbn [map app fst snd]; keys].
  tames ltac:(first [eapply m_tame_optional; [exact (tame_restart_policy _)|]|eapply m_tame_optional; [exact (tame_update_config _)|]]; unfold deploy_places, delays; sub).
Qed.
Lemma tame_ports : forall w, tame (w_checks w) (ports_c w) [([AnyItem], Port)].
Proof.
  intros w. unfold ports_c. change [([AnyItem], Port)] with (under AnyItem [([], Port)]). apply tame_iset, tame_short_or_long; [apply tame_short_port|].
  apply never_tame. never.
Qed.
Definition service_places : list (list step * kind) := ([Key $"ports"; AnyItem], Port) :: map (fun p => (map Key p, Duration)) durations.
Lemma tame_service : forall w, tame (w_checks w) (service_c w) service_places.
Proof.
  intros w. assert (never mount_c) by exact never_mount.
  apply tame_struct_ext; [unfold service_ms|unfold service_ms; quiets|unfold service_places, durations; cbn [map app fst snd]; keys].
  tames ltac:(first
    [ apply m_tame_given; unfold service_places, durations; cbn [In map]; tauto
    | eapply m_tame_optional; [exact (tame_deploy w)|]; unfold service_places, durations, deploy_places, delays; sub
    | eapply m_tame_optional; [exact (tame_healthcheck _)|]; unfold service_places, durations, health_places; sub
    | unfold many; eapply m_tame_incl; [apply m_tame_field; exact (tame_ports w)|]; unfold service_places, durations; sub ]).
Qed.
Lemma tame_compose : forall w, tame (w_checks w) (compose_c w) places.
Proof.
  intros w. change places with (under (Key $"services") (under AnyKey service_places)).
  apply tame_struct_ext; [unfold compose_ms|unfold compose_ms; quiets|intros p k I; apply in_map_iff in I as (e & E & _); injection E as <- _; eauto].
  tames ltac:(unfold required; apply m_tame_field, tame_imap; [never|exact (tame_service w)]).
Qed.

(** ** A text which panics, in a file which can be loaded otherwise *)

Ltac mades := repeat (apply Forall_cons; [first [apply made_field|apply made_group]|]); apply Forall_nil.
Lemma made_service : forall w, Forall made (service_ms w).
Proof. intros w. unfold service_ms. mades. Qed.
Lemma made_compose : forall w, Forall made (compose_ms w).
Proof. intros w. unfold compose_ms. mades. Qed.
Lemma made_deploy : forall w, Forall made (deploy_ms w).
Proof. intros w. unfold deploy_ms. mades. Qed.
Lemma in_services : forall w p k, critical (w_checks w) (service_c w) p k -> critical (w_checks w) (compose_c w) (Key $"services" :: AnyKey :: p) k.
Proof. intros w p k C. eapply critical_struct_ext; [apply made_compose|reflexivity|]. apply critical_imap. exact C. Qed.
Ltac given_duration := eapply critical_struct_ext; [|reflexivity|apply critical_some, critical_duration].
Lemma critical_service : forall w p k, In (p, k) service_places -> critical (w_checks w) (service_c w) p k.
Proof.
  intros w p k I. unfold service_places, durations in I. cbn [map] in I. pose proof (made_service w) as M. destruct I as [I|I].
  { injection I as <- <-. eapply critical_struct_ext; [exact M|reflexivity|]. apply critical_iset. intros v v' x a D R P. cbn in R. subst v'.
    pose proof (critical_short_port w (VInt 0) x x (short_port_of_u16 0) eq_refl eq_refl P) as G. destruct P as (s & -> & _). exact G. }
  assert (Dp : forall n q, critical (w_checks w) (deploy_c w) (Key n :: q) Duration -> critical (w_checks w) (service_c w) (Key $"deploy" :: Key n :: q) Duration).
  { intros n q C. eapply critical_struct_ext; [exact M|reflexivity|]. apply critical_option; [discriminate|exact C]. }
  assert (Rp : forall n, critical (w_checks w) restart_policy_c [Key n] Duration -> critical (w_checks w) (service_c w) [Key $"deploy"; Key $"restart_policy"; Key n] Duration).
  { intros n C. apply Dp. eapply critical_struct_ext; [apply made_deploy|reflexivity|]. apply critical_option; [discriminate|exact C]. }
  assert (Up : forall n, critical (w_checks w) update_config_c [Key n] Duration -> critical (w_checks w) (service_c w) [Key $"deploy"; Key $"update_config"; Key n] Duration).
  { intros n C. apply Dp. eapply critical_struct_ext; [apply made_deploy|reflexivity|]. apply critical_option; [discriminate|exact C]. }
  assert (Ro : forall n, critical (w_checks w) update_config_c [Key n] Duration -> critical (w_checks w) (service_c w) [Key $"deploy"; Key $"rollback_config"; Key n] Duration).
  { intros n C. apply Dp. eapply critical_struct_ext; [apply made_deploy|reflexivity|]. apply critical_option; [discriminate|exact C]. }
  assert (Hc : forall n, In n [$"interval"; $"timeout"; $"start_period"; $"start_interval"] -> critical (w_checks w) (service_c w) [Key $"healthcheck"; Key n] Duration).
  { intros n N. eapply critical_struct_ext; [exact M|reflexivity|]. apply critical_option; [discriminate|]. now apply critical_healthcheck. }
  repeat (destruct I as [I|I]; [injection I as <- <-|]); [given_duration; exact M|given_duration; exact M|given_duration; exact M| | | | | | | | | | |destruct I].
  - apply Hc. cbn [In]. tauto.
  - apply Hc. cbn [In]. tauto.
  - apply Hc. cbn [In]. tauto.
  - apply Hc. cbn [In]. tauto.
  - apply Rp. given_duration. unfold restart_policy_ms. mades.
  - apply Rp. given_duration. unfold restart_policy_ms. mades.
  - apply Up. given_duration. unfold update_config_ms. mades.
  - apply Up. given_duration. unfold update_config_ms. mades.
  - apply Ro. given_duration. unfold update_config_ms. mades.
  - apply Ro. given_duration. unfold update_config_ms. mades.
Qed.
Lemma critical_compose : forall w p k, In (p, k) places -> critical (w_checks w) (compose_c w) p k.
Proof.
  intros w p k I. change places with (under (Key $"services") (under AnyKey service_places)) in I. unfold under in I. rewrite map_map in I. apply in_map_iff in I as ([q k'] & E & I).
  cbn [fst snd] in E. injection E as <- <-. now apply in_services, critical_service.
Qed.

(** ** Replacing a value *)

Fixpoint compatible (p q : list step) : bool :=
  match p, q with
  | Key a :: p, Key b :: q => str_eqb a b && compatible p q
  | Key _ :: p, AnyKey :: q | AnyKey :: p, Key _ :: q | AnyKey :: p, AnyKey :: q | AnyItem :: p, AnyItem :: q => compatible p q
  | [], _ | _, [] => true
  | _, _ => false
  end.
Lemma in_middle : forall {X} (l : list X) y r x, In x (l ++ y :: r) -> x = y \/ forall z, In x (l ++ z :: r).
Proof. intros X l y r x I. apply in_app_or in I as [I|[I|I]]; [right|left; congruence|right]; intros z; apply in_or_app; [now left|right; now right]. Qed.
Lemma replaced_reaches : forall p v x v', replaced p v x v' -> forall q y, reaches q v' y -> reaches q v y \/ compatible p q = true.
Proof.
  induction p as [|s p IH]; intros v x v' R q y H; [now right|]. destruct q as [|t q]; [right; destruct s; reflexivity|].
  destruct s as [k| |]; cbn [replaced] in R.
  - destruct R as (l & a & a' & r & -> & -> & R). destruct t as [k'| |]; cbn [reaches] in H.
    + destruct H as (es & b & E & I & H). injection E as <-. apply in_middle in I as [I|I].
      * injection I as -> ->. destruct (IH _ _ _ R q y H) as [H'|H'].
        -- left. exists (l ++ (VStr k, a) :: r), a. split; [reflexivity|]. split; [apply in_elt|exact H'].
        -- right. cbn [compatible]. now rewrite str_eqb_refl.
      * left. eexists _, b. split; [reflexivity|]. split; [apply I|exact H].
    + destruct H as (es & k' & b & E & I & H). injection E as <-. apply in_middle in I as [I|I].
      * injection I as -> ->. destruct (IH _ _ _ R q y H) as [H'|H']; [|now right].
        left. exists (l ++ (VStr k, a) :: r), (VStr k), a. split; [reflexivity|]. split; [apply in_elt|exact H'].
      * left. eexists _, k', b. split; [reflexivity|]. split; [apply I|exact H].
    + destruct H as (es & b & E & _). discriminate E.
  - destruct R as (l & k & a & a' & r & -> & -> & R). destruct t as [k'| |]; cbn [reaches] in H.
    + destruct H as (es & b & E & I & H). injection E as <-. apply in_middle in I as [I|I].
      * injection I as <- ->. destruct (IH _ _ _ R q y H) as [H'|H']; [|now right].
        left. exists (l ++ (VStr k', a) :: r), a. split; [reflexivity|]. split; [apply in_elt|exact H'].
      * left. eexists _, b. split; [reflexivity|]. split; [apply I|exact H].
    + destruct H as (es & k' & b & E & I & H). injection E as <-. apply in_middle in I as [I|I].
      * injection I as -> ->. destruct (IH _ _ _ R q y H) as [H'|H']; [|now right].
        left. exists (l ++ (k, a) :: r), k, a. split; [reflexivity|]. split; [apply in_elt|exact H'].
      * left. eexists _, k', b. split; [reflexivity|]. split; [apply I|exact H].
    + destruct H as (es & b & E & _). discriminate E.
  - destruct R as (l & a & a' & r & -> & -> & R). destruct t as [k'| |]; cbn [reaches] in H.
    + destruct H as (es & b & E & _). discriminate E.
    + destruct H as (es & k' & b & E & _). discriminate E.
    + destruct H as (es & b & E & I & H). injection E as <-. apply in_middle in I as [I|I].
      * subst b. destruct (IH _ _ _ R q y H) as [H'|H']; [|now right].
        left. exists (l ++ a :: r), a. split; [reflexivity|]. split; [apply in_elt|exact H'].
      * left. eexists _, b. split; [reflexivity|]. split; [apply I|exact H].
Qed.
(** At the place of the replaced value, there is the new one or what was there before. *)
Lemma replaced_same : forall p v x v', replaced p v x v' -> forall y, reaches p v' y -> reaches p v y \/ y = x.
Proof.
  induction p as [|s p IH]; intros v x v' R y H; [right; cbn in *; congruence|]. destruct s as [k| |]; cbn [replaced reaches] in *.
  - destruct R as (l & a & a' & r & -> & -> & R). destruct H as (es & b & E & I & H). injection E as <-. apply in_middle in I as [I|I].
    + injection I as ->. destruct (IH _ _ _ R _ H) as [H'|H']; [|now right]. left. exists (l ++ (VStr k, a) :: r), a. split; [reflexivity|]. split; [apply in_elt|exact H'].
    + left. eexists _, b. split; [reflexivity|]. split; [apply I|exact H].
  - destruct R as (l & k & a & a' & r & -> & -> & R). destruct H as (es & k' & b & E & I & H). injection E as <-. apply in_middle in I as [I|I].
    + injection I as -> ->. destruct (IH _ _ _ R _ H) as [H'|H']; [|now right]. left. exists (l ++ (k, a) :: r), k, a. split; [reflexivity|]. split; [apply in_elt|exact H'].
    + left. eexists _, k', b. split; [reflexivity|]. split; [apply I|exact H].
  - destruct R as (l & a & a' & r & -> & -> & R). destruct H as (es & b & E & I & H). injection E as <-. apply in_middle in I as [I|I].
    + subst b. destruct (IH _ _ _ R _ H) as [H'|H']; [|now right]. left. exists (l ++ a :: r), a. split; [reflexivity|]. split; [apply in_elt|exact H'].
    + left. eexists _, b. split; [reflexivity|]. split; [apply I|exact H].
Qed.
Lemma replaced_itself : forall p v x, reaches p v x -> replaced p v x v.
Proof.
  induction p as [|s p IH]; intros v x H; [cbn in *; congruence|]. destruct s as [k| |]; cbn [replaced reaches] in *.
  - destruct H as (es & b & -> & I & H). apply in_split in I as (l & r & ->). exists l, b, b, r. auto.
  - destruct H as (es & k & b & -> & I & H). apply in_split in I as (l & r & ->). exists l, k, b, b, r. auto.
  - destruct H as (es & b & -> & I & H). apply in_split in I as (l & r & ->). exists l, b, b, r. auto.
Qed.
(** No place is inside or the same as another one. *)
Lemma places_apart : forall p k q k', In (p, k) places -> In (q, k') places -> compatible p q = true -> p = q /\ k = k'.
Proof.
  intros p k q k' I J. unfold places, in_service, durations in *. cbn [map app In] in I, J.
  repeat (destruct I as [I|I]; [injection I as <- <-; repeat (destruct J as [J|J]; [injection J as <- <-; first [solve [auto] | discriminate]|]); destruct J|]); destruct I.
Qed.
