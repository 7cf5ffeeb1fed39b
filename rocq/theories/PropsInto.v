(** C95: what a value is converted to as a string is what is written for it. *)

From Coq Require Import String Ascii List NArith ZArith Bool Lia.
Import ListNotations.
From Verif Require Import Base BaseFacts Num UserModel NetModel PortsModel TextModel ValuesModel Serde Codec ScalarCodec CommonCodec VolumesModel MountCodec ServiceParts IntoModel.
Open Scope N_scope.

(** The text of a scalar in a file. *)
Definition plain_text (w : externals) (v : sval) : option str :=
  match v with
  | VStr s => Some s
  | VInt z => Some (if (z <? 0)%Z then $"-" ++ show_N (Z.to_N (- z)) else show_N (Z.to_N z))
  | VFloat b => Some (w_float_show w b)
  | VBool b => Some (if b then $"true" else $"false")
  | _ => None
  end.

Lemma int_text : forall z, (if (z <? 0)%Z then $"-" ++ show_N (Z.to_N (- z)) else show_N (Z.to_N z)) = show_Z z.
Proof. intros z. unfold show_Z. destruct z; reflexivity. Qed.
Lemma nat_text : forall n, (if (Z.of_N n <? 0)%Z then $"-" ++ show_N (Z.to_N (- Z.of_N n)) else show_N (Z.to_N (Z.of_N n))) = show_N n.
Proof. intros n. destruct (Z.ltb_spec (Z.of_N n) 0) as [L|_]; [lia|]. now rewrite N2Z.id. Qed.
Lemma number_text : forall w n, plain_text w (number_ser n) = Some (number_show (w_float_show w) n).
Proof. intros w [n|z|b]; cbn [number_ser plain_text number_show]; [now rewrite nat_text|now rewrite int_text|reflexivity]. Qed.

Theorem converted_as_written : forall w, Forall (fun c => forall a, plain_text w (ser (c_codec c) a) = Some (c_into c a)) (conversions w).
Proof.
  intros w. unfold conversions. repeat apply Forall_cons; try apply Forall_nil; cbn [c_codec c_into c_type].
  1-12: intros []; reflexivity.
  - intros [s [a|]]; [reflexivity|]. cbn. unfold link_show, link_string. cbn. now rewrite app_nil_r.
  - intros []; reflexivity.
  - intros []; reflexivity.
  - intros [[s|s] []]; cbn; try reflexivity; unfold volumes_from_show, volumes_from_string; cbn; now rewrite app_nil_r.
  - intros [n|s]; [|reflexivity]. cbn [ser id_or_name_c plain_text id_or_name_string]. now rewrite nat_text.
  - intros [u [g|]]; [reflexivity|]. cbn. unfold user_show, user_string. cbn. rewrite app_nil_r. now destruct u.
  - intros [s|n|b]; [reflexivity|exact (number_text w n)|now destruct b].
  - intros [s|n]; [reflexivity|exact (number_text w n)].
  - intros []; reflexivity.
  - exact (number_text w).
Qed.
Print Assumptions converted_as_written.

(** So where one string is written, the string which a value is converted to parses to the value. *)
Theorem converted_reads_back : forall w c, In c (conversions w) -> forall a, (exists s, ser (c_codec c) a = VStr s) ->
  de (c_codec c) (VStr (c_into c a)) = de (c_codec c) (ser (c_codec c) a).
Proof.
  intros w c I a (s & E). assert (F := converted_as_written w). rewrite Forall_forall in F. specialize (F c I a). rewrite E in *. cbn in F. now injection F as ->.
Qed.
Print Assumptions converted_reads_back.

(** The kind of a mount by which the conversions between short and long volumes are stated (C27) is the [type] which is written for it. *)
Theorem mount_kind_written : forall m, exists body, ser mount_c m = VMap ((VStr $"type", VStr (VolumesModel.mount_kind m)) :: body).
Proof. intros []; eexists; reflexivity. Qed.
Print Assumptions mount_kind_written.

(** Concrete cases: a container's volumes are converted with the prefix, and a user without a group without the colon. *)
Example into_example : volumes_from_string (mk_volumes_from (FromContainer $"db") false) = $"container:db" /\
  user_string (mk_user (Id 7) None) = $"7" /\ link_string (mk_link $"db" (Some $"sql")) = $"db:sql".
Proof. vm_compute. repeat split. Qed.
