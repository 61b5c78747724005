(** Theorems about object serialisation (C12, C13, C41). *)
From Verif Require Import Base Bytes_Model Hiid_Model Hiid_Spec Pack_Model Ser_Model Ser_Spec Ser_Proofs.
Local Open Scope Z_scope.

(** a small registry for the examples: Vec, NumArray, Record, List = -100 .. -103 *)
Definition ex_env : tenv := {|
  te_class := fun t => if t =? -100 then Some KVec else if t =? -101 then Some KArr
                       else if t =? -102 then Some KRec else if t =? -103 then Some KList else None;
  te_hiid := -99;
  te_bin := fun t => if t =? -90 then Some 8%nat else None;
  te_vec := -100 |}.
Lemma ex_env_wf : wf_env ex_env.
Proof.
  unfold wf_env, ex_env; cbn. repeat split; try reflexivity; try discriminate;
  intros; repeat match goal with H : context [?t =? ?c] |- _ => destruct (Z.eqb_spec t c); [subst; cbn in *|] end;
    try reflexivity; try discriminate.
Qed.

(** a record holding a list holding a record, a 2x1 array of ints, an empty field, a
    scalar string and a vector of ids *)
Definition ex_obj : obj :=
  ORec (-102) [
    ([1;2], OList (-103) [OVecBin (-100) (-37) true 1 [7;0;0;0]; ONull;
                          ORec (-102) [([5], OArrNum (-101) (-37) [2;1] [1;0;0;0;2;0;0;0])]]);
    ([3], ONull);
    ([4], OVecDyn (-100) (-102) false [ONull; ORec (-102) []]);
    ([6], OVecStr (-100) true [[104;105]]);
    ([7], OVecHiid (-100) (-99) false [[1;2];[]])].
Ltac wf_go :=
  cbn [ex_obj wf fold_right fst snd map];
  repeat lazymatch goal with
  | |- _ /\ _ => split
  | |- True => exact I
  | |- _ = _ => reflexivity
  | |- _ <> _ => discriminate
  | |- _ -> _ => intro
  | |- int_size _ => reflexivity
  | |- hiid_ok _ => repeat constructor
  | |- exists k, category _ _ = _ /\ _ => eexists; split; [reflexivity|reflexivity]
  | |- exists k, num_size _ = _ /\ _ => eexists; split; [reflexivity|reflexivity]
  | |- blank ?o \/ _ => first [left; left; reflexivity | right; cbn [wf fold_right fst snd map]]
  | |- _ = ONull \/ _ => first [left; reflexivity | right; cbn [wf fold_right fst snd map]]
  | |- NoDup _ => constructor
  | |- ~ _ => cbn [In]; intuition discriminate
  | |- Forall _ _ => constructor
  | |- (_ <= _)%nat => cbn [length]; lia
  | |- _ < _ => reflexivity
  | |- _ <= _ => discriminate
  end.
Lemma ex_obj_wf : storable ex_env ex_obj.
Proof. split; [|reflexivity]. wf_go. all: try discriminate. Qed.

(** C12: storing and rebuilding.  Fields of Records and elements of Vecs come back still
    in blocks, so equality is of what one finds when looking inside ([reads]). *)
Theorem object_round_trip :
  forall e o rest, wf_env e -> storable e o ->
  exists o', construct e 0 (toBlock o ++ rest) = POk o' rest /\
             forall t, reads e o t -> reads e o' t.
Proof.
  intros e o rest He [Hw Hs]. apply (rt_all e He o Hw Hs); [auto|]. lia.
Qed.
Print Assumptions object_round_trip.

(** ... and for an object built in memory the contents found are exactly that object *)
Theorem object_round_trip_exact :
  forall e o rest, wf_env e -> storable e o -> plain o ->
  exists o', construct e 0 (toBlock o ++ rest) = POk o' rest /\
             reads e o' o /\ forall t, reads e o' t -> t = o.
Proof.
  intros e o rest He Hs Hp. destruct (object_round_trip e o rest He Hs) as (o' & E & H).
  exists o'. split; [exact E|]. assert (R := H o (plain_reads e o Hp)). split; [exact R|].
  intros t Ht. exact (reads_det e o' t Ht o R).
Qed.
Print Assumptions object_round_trip_exact.

(** storing again what was rebuilt, before or after looking inside, gives the same
    contents: rebuilding is stable *)
Theorem object_contents_unique :
  forall e o t1 t2, reads e o t1 -> reads e o t2 -> t1 = t2.
Proof. intros e o t1 t2 H1 H2. exact (reads_det e o t1 H1 t2 H2). Qed.
Print Assumptions object_contents_unique.

(** whatever the bytes, rebuilding only takes blocks off the front of the set *)
Theorem construct_takes_a_prefix :
  forall e tid set o rest, construct e tid set = POk o rest -> exists used, set = used ++ rest.
Proof.
  intros e tid set o rest H. pose proof (construct_f_consumes e (S (length set)) tid set) as C.
  unfold construct in H. rewrite H in C. exact C.
Qed.
Print Assumptions construct_takes_a_prefix.

(** the depth bound in the definition of [construct] is not a restriction *)
Theorem construct_depth :
  forall e tid set fuel, (length set <= fuel)%nat -> construct_f fuel e tid set = construct e tid set.
Proof. intros. apply construct_fuel; lia. Qed.
Print Assumptions construct_depth.

Lemma ex_obj_plain : plain ex_obj.
Proof. cbn. tauto. Qed.
Example round_trip_ex :
  length (toBlock ex_obj) = 9%nat /\
  exists o', construct ex_env 0 (toBlock ex_obj ++ [[1;2;3]]) = POk o' [[1;2;3]] /\ reads ex_env o' ex_obj.
Proof.
  split; [vm_compute; reflexivity|].
  destruct (object_round_trip_exact ex_env ex_obj [[1;2;3]] ex_env_wf ex_obj_wf ex_obj_plain) as (o' & E & R & _).
  eauto.
Qed.

(** C13: every proper prefix of the blocks is refused with an exception *)
Theorem object_truncated_fails :
  forall e o k, wf_env e -> storable e o -> (k < length (toBlock o))%nat ->
  exists left_over, construct e 0 (firstn k (toBlock o)) = PErr left_over.
Proof.
  intros e o k He [Hw Hs] Hk. apply (short_all e He o Hw Hs); [exact Hk|]. rewrite firstn_length. lia.
Qed.
Print Assumptions object_truncated_fails.
Example truncated_ex : forall k, (k < 9)%nat ->
  exists r, construct ex_env 0 (firstn k (toBlock ex_obj)) = PErr r.
Proof. intros k Hk. apply object_truncated_fails; [exact ex_env_wf|exact ex_obj_wf|exact Hk]. Qed.

(** The declared block count does not protect a Record against a negative count for one
    field: this header (declaring one field, -1 blocks, 0 blocks in all) is accepted and
    the field is given every block that happens to follow. *)
Theorem record_negative_count_refuted :
  exists b following o, construct ex_env 0 (b :: following) = POk o following /\
    word 1 b = 0 /\ reads ex_env o (ORec (-102) [([5], OVec0 (-100))]) /\ length following = 1%nat.
Proof.
  exists (enc_i32s [-102; 0; 1; 4; -1; 5]), (toBlock (OVec0 (-100))).
  exists (ORec (-102) [([5], OPacked (toBlock (OVec0 (-100))))]).
  split; [vm_compute; reflexivity|]. split; [vm_compute; reflexivity|].
  split; [|reflexivity]. constructor. constructor; [|constructor]. split; [reflexivity|].
  apply rd_packed with (OVec0 (-100)); [vm_compute; reflexivity|constructor].
Qed.
Print Assumptions record_negative_count_refuted.

(** C41 *)
Theorem message_round_trip :
  forall e tmsg m rest, wf_env e -> wf_msg e tmsg m ->
  exists m', msg_fromBlock e tmsg (msg_toBlock tmsg m ++ rest) = POk m' rest /\ same_msg e m m'.
Proof. exact msg_round. Qed.
Print Assumptions message_round_trip.

Definition ex_msg : msgobj := {|
  mg_pri := 7; mg_state := -3; mg_flags := 2; mg_hops := 5;
  mg_id := [1;2]; mg_from := [10;0]; mg_to := [11;0;3];
  mg_block := Some [9;9;9]; mg_payload := Some ex_obj |}.
Lemma ex_msg_wf : wf_msg ex_env (-50) ex_msg.
Proof.
  unfold wf_msg. cbn [ex_msg mg_pri mg_state mg_flags mg_hops mg_id mg_from mg_to mg_payload].
  do 4 (split; [reflexivity|]). split; [lia|].
  do 3 (split; [repeat constructor|]). do 4 (split; [reflexivity|]). exact (proj1 ex_obj_wf).
Qed.
Example message_ex :
  exists m', msg_fromBlock ex_env (-50) (msg_toBlock (-50) ex_msg) = POk m' [] /\
    mg_to m' = [11;0;3] /\ mg_state m' = -3 /\ mg_block m' = Some [9;9;9] /\
    exists o, mg_payload m' = Some o /\ reads ex_env o ex_obj.
Proof.
  destruct (message_round_trip ex_env (-50) ex_msg [] ex_env_wf ex_msg_wf) as (m' & E & S).
  rewrite app_nil_r in E. exists m'. split; [exact E|].
  destruct S as (_ & S1 & _ & _ & _ & _ & S2 & S3 & S4). repeat split; auto.
  cbn in S4. destruct (mg_payload m') as [o|]; [|contradiction].
  exists o. split; [reflexivity|]. apply S4. apply plain_reads, ex_obj_plain.
Qed.

(** C13 for messages: a truncated message is refused, if at least its header block and, when it has
    one, its data block arrive *)
Theorem message_truncated_fails_partial :
  forall e tmsg m k, wf_env e -> wf_msg e tmsg m -> (1 <= k < length (msg_toBlock tmsg m))%nat ->
  (mg_block m <> None -> (2 <= k)%nat) ->
  exists left_over, msg_fromBlock e tmsg (firstn k (msg_toBlock tmsg m)) = PErr left_over.
Proof.
  intros e tmsg m k He Hm Hk Hb. destruct (msg_short e tmsg m k He Hm Hk) as [(E1 & E2 & _)|H]; [|exact H].
  specialize (Hb E2). lia.
Qed.
Print Assumptions message_truncated_fails_partial.
Example message_truncated_ex : exists r, msg_fromBlock ex_env (-50) (firstn 6 (msg_toBlock (-50) ex_msg)) = PErr r.
Proof. apply message_truncated_fails_partial; [exact ex_env_wf|exact ex_msg_wf|cbv; lia|lia]. Qed.

(** ... otherwise a block is popped from an empty set, which is undefined behaviour:
    every message with a data block, cut after its header *)
Theorem message_missing_data_block_refuted :
  forall e tmsg m, wf_env e -> wf_msg e tmsg m -> mg_block m <> None ->
  msg_fromBlock e tmsg (firstn 1 (msg_toBlock tmsg m)) = PUB.
Proof.
  intros e tmsg m He (H1 & H2 & H3 & H4 & H5 & I1 & I2 & I3 & S1 & S2 & S3 & Hs & Hp) Hb.
  rewrite msg_head_ok in *. cbv zeta in *. cbn [length] in Hs. rewrite app_length in Hs. cbn [firstn].
  destruct (mg_block m) as [d|]; [|congruence]. rewrite msg_words; auto.
  - apply i32_nat. eapply int_size_le; [|exact Hs]. lia.
  - destruct (mg_payload m) as [o|]; [|reflexivity].
    destruct (head_ok e o He Hp) as (? & ? & ? & ? & ? & ? & ? & ? & ?). assumption.
Qed.
Print Assumptions message_missing_data_block_refuted.
