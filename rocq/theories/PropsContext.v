(** C72: git repositories as build contexts. *)

From Coq Require Import String Ascii List NArith Bool Lia.
Import ListNotations.
From Verif Require Import Base BaseFacts DeviceModel PathModel ValuesModel EqModel ServiceParts ContextModel.
Open Scope N_scope.

(** ** Specification *)

(** The same text but for the case of ASCII letters. *)
Definition same_letter (a b : char) : Prop := a = b \/ (is_upper a = true /\ b = a + 32) \/ (is_upper b = true /\ a = b + 32).
Definition same_text (a b : str) : Prop := Forall2 same_letter a b.

(** ** Lemmas *)

Lemma to_lower_same : forall a b, to_lower a = to_lower b <-> same_letter a b.
Proof.
  intros a b. unfold to_lower, same_letter, is_upper, between. change (ch "A") with 65. change (ch "Z") with 90.
  destruct (65 <=? a) eqn:A1, (a <=? 90) eqn:A2, (65 <=? b) eqn:B1, (b <=? 90) eqn:B2; cbn [andb];
    repeat match goal with H : (_ <=? _) = true |- _ => apply N.leb_le in H | H : (_ <=? _) = false |- _ => apply N.leb_gt in H end;
    split; intros H; try lia; try (destruct H as [H|[[? H]|[? H]]]; try discriminate; lia);
    try (destruct (N.eq_dec a b); [now left|]; try (right; left; split; [reflexivity|lia]); try (right; right; split; [reflexivity|lia])).
Qed.
Lemma same_ignoring_case_iff : forall a b, same_ignoring_case a b = true <-> same_text a b.
Proof.
  intros a b. unfold same_ignoring_case, same_text. rewrite str_eqb_eq. revert b. induction a as [|x a IH]; intros [|y b]; cbn [map].
  - split; [constructor|reflexivity].
  - split; [discriminate|]. intros H. inversion H.
  - split; [discriminate|]. intros H. inversion H.
  - split.
    + intros H. injection H as H1 H2. constructor; [now apply to_lower_same|now apply IH].
    + intros H. inversion H; subst. f_equal; [now apply to_lower_same|now apply IH].
Qed.
Lemma join_snoc : forall c l n, l <> [] -> join [c] (l ++ [n]) = join [c] l ++ c :: n.
Proof.
  intros c l n. induction l as [|p l IH]; intros E; [congruence|]. destruct l as [|q l]; [reflexivity|].
  change (join [c] ((p :: q :: l) ++ [n])) with (p ++ [c] ++ join [c] ((q :: l) ++ [n])). rewrite IH by discriminate.
  change (join [c] (p :: q :: l)) with (p ++ [c] ++ join [c] (q :: l)). now rewrite <- !app_assoc.
Qed.
Lemma split_last : forall c d n, ~ In c n -> split c (d ++ c :: n) = split c d ++ [n].
Proof.
  intros c d n N. apply split_iff. split; [destruct (split c d); discriminate|]. split; [apply Forall_app; split; [apply split_pieces|now repeat constructor]|].
  rewrite join_snoc by apply split_nonempty. now rewrite split_join.
Qed.
Lemma Forall2_left : forall {A B} {R : A -> B -> Prop} {l m}, Forall2 R l m -> forall {x}, In x l -> exists y, R x y /\ In y m.
Proof.
  intros A B R l m H. induction H as [|a b l m E _ IH]; intros x I; [destruct I|]. destruct I as [<-|I]; [exists b; split; [exact E|now left]|].
  destruct (IH x I) as (y & Y & J). exists y. split; [exact Y|now right].
Qed.
Definition slashes (t : str) : Prop := Forall (eq (ch "/")) t.
Lemma components_slashes : forall t p, slashes t -> path_components (p ++ t) = path_components p.
Proof.
  induction t as [|x t IH] using rev_ind; intros p S; [now rewrite app_nil_r|]. apply Forall_app in S as [S X]. assert (x = ch "/") as -> by (now inversion X). rewrite app_assoc.
  unfold path_components. rewrite (split_last (ch "/") (p ++ t) []) by (intros []). rewrite filter_app. cbn [filter]. rewrite app_nil_r. exact (IH p S).
Qed.
Lemma file_name_of : forall d n t, ~ In (ch "/") n -> n <> [] -> n <> $"." -> n <> $".." -> slashes t -> file_name (d ++ $"/" ++ n ++ t) = Some n.
Proof.
  intros d n t S N1 N2 N3 T. unfold file_name. rewrite (app_assoc $"/" n t), (app_assoc d), (components_slashes t _ T). unfold path_components.
  change ($"/" ++ n) with (ch "/" :: n). rewrite (split_last _ d n S), filter_app. cbn [filter]. unfold trivial_component.
  destruct (str_eqb_spec n []); [contradiction|]. destruct (str_eqb_spec n $"."); [contradiction|]. cbn [orb negb]. rewrite rev_unit.
  destruct (str_eqb_spec n $".."); [contradiction|reflexivity].
Qed.

Lemma split_slashes : forall t p, slashes t -> split (ch "/") (p ++ t) = split (ch "/") p ++ map (fun _ => []) t.
Proof.
  induction t as [|x t IH] using rev_ind; intros p S; [now rewrite !app_nil_r|]. apply Forall_app in S as [S X]. assert (x = ch "/") as -> by (now inversion X).
  rewrite app_assoc, (split_last (ch "/") (p ++ t) []) by (intros []). rewrite (IH p S), map_app, <- app_assoc. reflexivity.
Qed.
Lemma strip_slashes : forall p, exists core t, p = core ++ t /\ slashes t /\ (core = [] \/ forall d, core <> d ++ $"/").
Proof.
  induction p as [|x p IH] using rev_ind; [exists [], []; repeat split; [constructor|now left]|]. destruct (N.eq_dec x (ch "/")) as [->|N].
  - destruct IH as (core & t & -> & T & C). exists core, (t ++ [ch "/"]). rewrite app_assoc. repeat split; auto. apply Forall_app. split; [exact T|now repeat constructor].
  - exists (p ++ [x]), []. rewrite app_nil_r. repeat split; [constructor|]. right. intros d E. apply app_inj_tail in E as [_ E]. now apply N.
Qed.
Lemma Forall2_length' : forall {A B} {R : A -> B -> Prop} {l m}, Forall2 R l m -> List.length l = List.length m.
Proof. intros A B R l m H. induction H; cbn; congruence. Qed.
Lemma git_no : forall ext, same_text ext $"git" -> ~ In (ch "/") ext.
Proof.
  intros ext H I. destruct (Forall2_left H I) as (y & Y & J). destruct Y as [Y|[[Y _]|[_ Y]]].
  - subst y. cbv in J. intuition discriminate.
  - discriminate.
  - cbv in J. destruct J as [J|[J|[J|[]]]]; subst y; discriminate.
Qed.

Section url.
Context (url_scheme url_path : str -> str) (url_fragment : str -> option str).
Notation is_git := (is_git_repo_url url_scheme url_path).
Notation branch := (branch_or_tag url_scheme url_path url_fragment).
Notation subdir := (subdirectory url_scheme url_path url_fragment).

(** ** C72 *)

(** A URL whose path has the last part [n] is one of a git repository if its scheme is http or https and [n] is [base.git] with a base. *)
Theorem git_url_iff : forall u d n t, url_path u = d ++ $"/" ++ n ++ t -> slashes t -> ~ In (ch "/") n -> n <> [] -> n <> $"." -> n <> $".." ->
  (is_git (CtxUrl u) = true <->
   (same_text (url_scheme u) $"http" \/ same_text (url_scheme u) $"https") /\
   exists base ext, n = base ++ $"." ++ ext /\ base <> [] /\ same_text ext $"git").
Proof.
  intros u d n t E T S N1 N2 N3. unfold is_git_repo_url. cbn [as_url]. rewrite andb_true_iff, orb_true_iff, !same_ignoring_case_iff.
  assert (X : match extension (url_path u) with Some e => same_ignoring_case e $"git" | None => false end = true <->
    exists base ext, n = base ++ $"." ++ ext /\ base <> [] /\ same_text ext $"git"); [|tauto].
  rewrite E. unfold extension. rewrite (file_name_of d n t S N1 N2 N3 T). split.
  - destruct (rsplit_once (ch ".") n) as [[b e]|] eqn:R; [|discriminate]. apply rsplit_once_some in R as [-> R]. destruct (str_eqb_spec b []) as [->|B]; [discriminate|].
    intros H. apply same_ignoring_case_iff in H. now exists b, e.
  - intros (b & e & -> & B & H). change ($"." ++ e) with (ch "." :: e). rewrite rsplit_once_app.
    + destruct (str_eqb_spec b []); [contradiction|]. now apply same_ignoring_case_iff.
    + intros I. destruct (Forall2_left H I) as (y & Y & J). destruct Y as [Y|[[Y _]|[_ Y]]].
      * subst y. cbv in J. intuition discriminate.
      * discriminate.
      * cbv in J. destruct J as [J|[J|[J|[]]]]; subst y; discriminate.
Qed.
(** For the paths that URLs have, which begin with a slash and have no "." and ".." segments: the last segment that is not empty decides. *)
Theorem git_url_path : forall u, (exists p, url_path u = $"/" ++ p) -> ~ In $"." (split (ch "/") (url_path u)) -> ~ In $".." (split (ch "/") (url_path u)) ->
  (is_git (CtxUrl u) = true <->
   (same_text (url_scheme u) $"http" \/ same_text (url_scheme u) $"https") /\
   exists d base ext t, url_path u = d ++ $"/" ++ base ++ $"." ++ ext ++ t /\ base <> [] /\ ~ In (ch "/") base /\ same_text ext $"git" /\ slashes t).
Proof.
  intros u [p P] D1 D2. split.
  - intros G. destruct (strip_slashes (url_path u)) as (core & t & E & T & C). destruct (rsplit_once (ch "/") core) as [[d n]|] eqn:R.
    + apply rsplit_once_some in R as [-> R]. rewrite E in D1, D2.
      assert (I : In n (split (ch "/") ((d ++ ch "/" :: n) ++ t))). { rewrite (split_slashes t _ T), (split_last _ d n R), <- app_assoc. apply in_or_app. right. now left. }
      assert (N0 : n <> []). { intros ->. destruct C as [C|C]; [destruct d; discriminate|]. now apply (C d). }
      assert (N1 : n <> $".") by (intros ->; now apply D1). assert (N2 : n <> $"..") by (intros ->; now apply D2).
      assert (E' : url_path u = d ++ $"/" ++ n ++ t) by (rewrite E, <- app_assoc; reflexivity).
      apply (git_url_iff u d n t E' T R N0 N1 N2) in G as [S (b & e & -> & B & H)]. split; [exact S|]. exists d, b, e, t. rewrite <- !app_assoc in E'. repeat split; auto.
      intros J. apply R. apply in_or_app. now left.
    + apply rsplit_once_none in R. assert (core = []) as ->.
      { destruct core as [|x core]; [reflexivity|]. exfalso. apply R. left. rewrite P in E. injection E as E _. exact (eq_sym E). }
      exfalso. unfold is_git_repo_url, extension, file_name in G. cbn [as_url] in G. rewrite E, (components_slashes t [] T) in G. cbn in G. now rewrite andb_false_r in G.
  - intros [S (d & b & e & t & E & B & N & H & T)]. assert (L : (List.length b > 0)%nat) by (destruct b; [congruence|cbn; lia]).
    assert (Le : List.length e = 3%nat) by (rewrite (Forall2_length' H); reflexivity).
    assert (E' : url_path u = d ++ $"/" ++ (b ++ $"." ++ e) ++ t) by (rewrite E, <- !app_assoc; reflexivity).
    assert (Ln : (List.length (b ++ $"." ++ e) > 4)%nat) by (rewrite !app_length, Le; cbn; lia).
    apply (git_url_iff u d _ t E' T); [|intros X; rewrite X in Ln; cbn in Ln; lia..|split; [exact S|now exists b, e]].
    rewrite !in_app_iff. intros [I|[I|I]]; [now apply N|cbv in I; intuition discriminate|now apply (git_no e H)].
Qed.

(** The fragment of the URL of a git repository is split at its first colon into the branch (or tag) and the directory. *)
Theorem git_fragment : forall c b s, (branch c = Some b /\ subdir c = Some s) <->
  is_git c = true /\ exists u, c = CtxUrl u /\ ~ In (ch ":") b /\ url_fragment u = Some (b ++ $":" ++ s).
Proof.
  intros c b s. unfold branch_or_tag, subdirectory. destruct (is_git c) eqn:G; [|intuition discriminate].
  destruct c as [p|u]; [discriminate|]. cbn [as_url]. split.
  - intros [B S]. split; [reflexivity|]. exists u. split; [reflexivity|]. destruct (url_fragment u) as [f|]; [|discriminate].
    destruct (split_once (ch ":") f) as [[b' s']|] eqn:E; [|discriminate]. injection B as ->. injection S as ->. apply split_once_some in E as [-> E]. now split.
  - intros (_ & u' & E & N & F). injection E as <-. rewrite F. change ($":" ++ s) with (ch ":" :: s). now rewrite (split_once_app _ b s N).
Qed.
Theorem git_fragment_branch : forall c b, (branch c = Some b /\ subdir c = None) <->
  is_git c = true /\ exists u, c = CtxUrl u /\ ~ In (ch ":") b /\ url_fragment u = Some b.
Proof.
  intros c b. unfold branch_or_tag, subdirectory. destruct (is_git c) eqn:G; [|intuition discriminate].
  destruct c as [p|u]; [discriminate|]. cbn [as_url]. split.
  - intros [B S]. split; [reflexivity|]. exists u. split; [reflexivity|]. destruct (url_fragment u) as [f|]; [|discriminate].
    destruct (split_once (ch ":") f) as [[b' s']|] eqn:E; [discriminate|]. injection B as ->. apply split_once_none in E. now split.
  - intros (_ & u' & E & N & F). injection E as <-. rewrite F. apply split_once_none in N. now rewrite N.
Qed.
Theorem git_fragment_none : forall c, branch c = None <->
  is_git c = false \/ exists u, c = CtxUrl u /\ url_fragment u = None.
Proof.
  intros c. unfold branch_or_tag. destruct (is_git c) eqn:G; [|intuition].
  destruct c as [p|u]; [discriminate|]. cbn [as_url]. split.
  - intros B. right. exists u. split; [reflexivity|]. destruct (url_fragment u) as [f|]; [|reflexivity]. destruct (split_once (ch ":") f) as [[]|]; discriminate.
  - intros [E|(u' & E & F)]; [discriminate|]. injection E as <-. now rewrite F.
Qed.
(** There is no directory without a branch or tag. *)
Theorem git_subdirectory_branch : forall c s, subdir c = Some s -> exists b, branch c = Some b.
Proof.
  intros c s. unfold branch_or_tag, subdirectory. destruct (is_git c); [|discriminate]. destruct (as_url c) as [u|]; [|discriminate].
  destruct (url_fragment u) as [f|]; [|discriminate]. destruct (split_once (ch ":") f) as [[b s']|]; [|discriminate]. eauto.
Qed.
End url.

(** The documentation asks for "the path to end in .git", which is neither necessary nor sufficient. *)
Definition scheme0 (u : str) : str := match split_once (ch ":") u with Some (s, _) => s | None => [] end.
Definition path0 (u : str) : str :=
  match split_once (ch "#") (skipn (String.length "https://host") u) with Some (p, _) => p | None => skipn (String.length "https://host") u end.
Definition fragment0 (u : str) : option str := match split_once (ch "#") u with Some (_, f) => Some f | None => None end.
Theorem git_url_documented_refuted :
  (exists u d, path0 u = d ++ $".git" /\ scheme0 u = $"https" /\ is_git_repo_url scheme0 path0 (CtxUrl u) = false) /\
  (exists u, (forall d, path0 u <> d ++ $".git") /\ is_git_repo_url scheme0 path0 (CtxUrl u) = true).
Proof.
  split.
  - exists $"https://host/.git", $"/". repeat split.
  - exists $"https://host/a.git/". split; [|reflexivity]. intros d E. apply (f_equal (@rev _)) in E. rewrite rev_app_distr in E. discriminate.
Qed.
Example git_url_sample : let u := $"https://host/example/example.GIT#main:docs" in
  is_git_repo_url scheme0 path0 (CtxUrl u) = true /\
  branch_or_tag scheme0 path0 fragment0 (CtxUrl u) = Some $"main" /\ subdirectory scheme0 path0 fragment0 (CtxUrl u) = Some $"docs".
Proof. repeat split. Qed.
Example git_url_other : let u := $"ftp://xhost/example/example.git#main" in
  is_git_repo_url scheme0 path0 (CtxUrl u) = false /\ branch_or_tag scheme0 path0 fragment0 (CtxUrl u) = None.
Proof. split; reflexivity. Qed.

Print Assumptions git_url_iff.
Print Assumptions git_url_path.
Print Assumptions git_fragment.
Print Assumptions git_fragment_branch.
Print Assumptions git_fragment_none.
Print Assumptions git_subdirectory_branch.
Print Assumptions git_url_documented_refuted.
