(** Property theorems on request ids and dependency masks (C22-C24). *)
From Verif Require Import Base Hiid_Model Rqid_Model Rqid_Spec Rqid_Proofs.
Local Open Scope Z_scope.

(** C22 *)
Theorem rqid_maskedCompare_agrees :
  forall a b mask, maskedCompare a b mask = true <->
    mask = 0 \/ (a <> [] /\ b <> [] /\ agree_under mask a b).
Proof. exact maskedCompare_iff. Qed.
Print Assumptions rqid_maskedCompare_agrees.

Theorem rqid_diffMask_positions :
  forall a b (i : nat), Z.testbit (diffMask a b) (Z.of_nat i) =
    (Nat.ltb i 16) && negb (at_pos a i =? at_pos b i).
Proof. exact diffMask_testbit. Qed.
Print Assumptions rqid_diffMask_positions.

Theorem rqid_compare_iff_no_common_difference :
  forall a b mask, a <> [] -> b <> [] ->
    (maskedCompare a b mask = true <-> Z.land (diffMask a b) mask = 0).
Proof. exact maskedCompare_diffMask. Qed.
Print Assumptions rqid_compare_iff_no_common_difference.

Theorem rqid_compare_equivalence :
  forall mask,
  (forall a, a <> [] -> maskedCompare a a mask = true) /\
  (forall a b, maskedCompare a b mask = maskedCompare b a mask) /\
  (forall a b c, maskedCompare a b mask = true -> maskedCompare b c mask = true ->
                 maskedCompare a c mask = true).
Proof. exact maskedCompare_equiv. Qed.
Print Assumptions rqid_compare_equivalence.

Theorem rqid_compare_coarser_for_smaller_mask :
  forall a b m1 m2, Z.land m1 m2 = m1 -> m2 <> 0 ->
    maskedCompare a b m2 = true -> maskedCompare a b m1 = true.
Proof. exact maskedCompare_mono. Qed.
Print Assumptions rqid_compare_coarser_for_smaller_mask.

Example compare_ex :
  maskedCompare [1;2;3] [1;5;3;0] 5 = true /\ maskedCompare [1;2;3] [1;5;3;0] 7 = false /\
  diffMask [1;2;3] [1;5;3;9] = 10.
Proof. repeat split. Qed.

(** C23: [31] iterations suffice for every non-negative C int *)
Theorem rqid_incrSubId_increments_selected :
  forall id mask, 0 <= mask < 2 ^ 31 ->
  exists id', incrSubId 31 id mask = Some id' /\
    forall i, at_pos id' i = at_pos id i + (if selected mask i then 1 else 0).
Proof. exact (incrSubId_spec 31). Qed.
Print Assumptions rqid_incrSubId_increments_selected.

Theorem rqid_incrSubId_difference :
  forall id mask id', 0 <= mask < 2 ^ 31 ->
    incrSubId 31 id mask = Some id' -> diffMask id id' = Z.land mask (Z.ones 16).
Proof. exact (diffMask_incr 31). Qed.
Print Assumptions rqid_incrSubId_difference.

Theorem rqid_setSubId_sets_selected :
  forall id mask v, 0 <= mask < 2 ^ 31 ->
  exists id', setSubId 31 id mask v = Some id' /\
    forall i, at_pos id' i = (if selected mask i then v else at_pos id i).
Proof. exact (setSubId_spec 31). Qed.
Print Assumptions rqid_setSubId_sets_selected.

Theorem rqid_maskSubId_zeroes_unselected :
  forall id mask i, at_pos (maskSubId id mask) i =
    if Nat.ltb i 16 then (if Z.testbit mask (Z.of_nat i) then at_pos id i else 0)
    else if mask =? 0 then 0 else at_pos id i.
Proof. exact maskSubId_spec. Qed.
Print Assumptions rqid_maskSubId_zeroes_unselected.

Theorem rqid_maskSubId_equivalent :
  forall id mask, id <> [] -> maskedCompare id (maskSubId id mask) mask = true.
Proof. exact maskSubId_equiv. Qed.
Print Assumptions rqid_maskSubId_equivalent.

Theorem rqid_maskSubId_canonical :
  forall a b mask, length a = length b -> (length a <= 16)%nat -> a <> [] ->
  (maskedCompare a b mask = true <-> maskSubId a mask = maskSubId b mask).
Proof. exact maskSubId_canonical. Qed.
Print Assumptions rqid_maskSubId_canonical.

(** the masked id has as many positions as the id; with an empty mask it is the one-position id 0 *)
Theorem rqid_maskSubId_length :
  forall id mask, length (maskSubId id mask) = (if mask =? 0 then 1%nat else length id) /\ (mask = 0 -> maskSubId id mask = [0]).
Proof.
  intros id mask. unfold maskSubId. destruct (Z.eqb_spec mask 0); [easy|]. split; [apply mask_loop_length|easy].
Qed.
Print Assumptions rqid_maskSubId_length.

(** A mask with the sign bit set never makes the loop end, whatever the time allowed. *)
Theorem rqid_update_negative_mask_diverges :
  forall fuel id mask v, mask < 0 ->
    incrSubId fuel id mask = None /\ setSubId fuel id mask v = None.
Proof. exact update_negative_mask. Qed.
Print Assumptions rqid_update_negative_mask_diverges.

Example incr_ex : incrSubId 31 [4;5] 10 = Some [4;6;0;1] /\ setSubId 31 [4;5] 5 9 = Some [9;5;9] /\
  maskSubId [4;5;6] 5 = [4;0;6].
Proof. repeat split. Qed.

(** C24 *)
Theorem symdeps_active_mask_is_union :
  forall os s', sd_run sd_init os = Ok s' ->
  forall i, 0 <= i ->
  (Z.testbit (sd_mask s') i = true <->
   exists d v, In d (sd_actives [] os) /\ latest (sd_assignments [] os) d = Some v /\
               Z.testbit v i = true).
Proof. exact sd_mask_correct. Qed.
Print Assumptions symdeps_active_mask_is_union.

Theorem symdeps_total_except_empty_vector :
  forall os s, ~ In (SdSetActiveVec []) os -> exists s', sd_run s os = Ok s'.
Proof. exact sd_run_defined. Qed.
Print Assumptions symdeps_total_except_empty_vector.

Example symdeps_ex :
  exists s, sd_run sd_init [SdSet [1] 4; SdSetActive [[1];[2]]; SdSet [2] 8; SdSet [1] 1] = Ok s /\ sd_mask s = 9.
Proof. eexists. split; reflexivity. Qed.
