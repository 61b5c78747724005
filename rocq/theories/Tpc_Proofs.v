(** Proofs about tiled parameters: the domains of the tiles and their cells along one axis. *)
From Coq Require Import QArith Qcanon Lqa.
From Verif Require Import Base Polc_Model Polc_Proofs Slv_Spec Slv_Proofs Leq_Proofs Tpc_Model Tpc_Spec.
Close Scope Q_scope. Close Scope Qc_scope. Local Open Scope nat_scope.

Lemma this_plus x y : (this (Qcplus x y) == this x + this y)%Q.
Proof. unfold Qcplus, Q2Qc. cbn [this]. apply Qred_correct. Qed.
Lemma this_opp x : (this (Qcopp x) == - this x)%Q.
Proof. unfold Qcopp, Q2Qc. cbn [this]. apply Qred_correct. Qed.
Lemma this_minus x y : (this (Qcminus x y) == this x - this y)%Q.
Proof. unfold Qcminus. rewrite this_plus, this_opp. reflexivity. Qed.
Lemma this_half x : (this (half x) == this x * (1 # 2))%Q.
Proof.
  unfold half, Qcdiv, Qcmult, Q2Qc. cbn [this]. rewrite Qred_correct. reflexivity.
Qed.
Lemma tiny_pos : (0 < this tiny)%Q.
Proof. vm_compute. reflexivity. Qed.
Ltac qlra := pose proof tiny_pos; unfold Qclt, Qcle in *; rewrite ?this_plus, ?this_minus, ?this_half in *; lra.

Lemma defineAxis_lt d a x y : (x < y)%Qc -> defineAxis d a x y = set_nth d a (Some (x, y)).
Proof.
  intros L. unfold defineAxis. destruct (qeqb x y) eqn:E; [apply qeqb_eq in E; subst; exfalso; qlra|].
  rewrite qltb_false; [reflexivity|]. qlra.
Qed.

Section Axis.
Variables (c : tcells) (a : nat).
Hypothesis Szs : length (k_size c a) = length (k_center c a).
Hypothesis Pos : forall x, In x (k_size c a) -> (tiny < x)%Qc.
Hypothesis Ord : forall k, S k < ncells c a -> (cellEnd c a k <= cellStart c a (S k))%Qc.

Lemma size_at k : k < ncells c a -> (tiny < nth k (k_size c a) q0)%Qc.
Proof. intros H. apply Pos, nth_In. unfold ncells in H. lia. Qed.
Lemma start_center k : k < ncells c a -> (cellStart c a k < nth k (k_center c a) q0)%Qc /\ (nth k (k_center c a) q0 < cellEnd c a k)%Qc
  /\ (cellStart c a k + tiny < cellEnd c a k)%Qc.
Proof. intros H. pose proof (size_at k H). unfold cellStart, cellEnd in *. repeat split; qlra. Qed.
Lemma ends_before k k' : k < k' -> k' < ncells c a -> (cellEnd c a k <= cellStart c a k')%Qc.
Proof.
  intros L. induction L as [|m L IH]; intros H; [now apply Ord|].
  pose proof (IH ltac:(lia)). pose proof (Ord m H). destruct (start_center m ltac:(lia)) as (A & B & D). qlra.
Qed.
Lemma start_le k k' : k <= k' -> k' < ncells c a -> (cellStart c a k <= cellStart c a k')%Qc.
Proof.
  intros L H. destruct (Nat.eq_dec k k') as [->|N]; [apply Qcle_refl|]. pose proof (ends_before k k' ltac:(lia) H).
  destruct (start_center k ltac:(lia)) as (A & B & D). qlra.
Qed.
Lemma start_lt k k' : k < k' -> k' < ncells c a -> (cellStart c a k + tiny < cellStart c a k')%Qc.
Proof.
  intros L H. pose proof (ends_before k k' L H). destruct (start_center k ltac:(lia)) as (A & B & D). qlra.
Qed.
(** a tile from cell [k] to cell [k'] *)
Lemma tile_range k k' : k <= k' -> k' < ncells c a -> (cellStart c a k < cellEnd c a k')%Qc.
Proof.
  intros L H. pose proof (start_le k k' L H). destruct (start_center k' H) as (A & B & D). qlra.
Qed.
Lemma tile_center k k' j : k' < ncells c a -> j < ncells c a ->
  ((cellStart c a k <= nth j (k_center c a) q0)%Qc /\ (nth j (k_center c a) q0 <= cellEnd c a k')%Qc) -> k <= k' -> k <= j <= k'.
Proof.
  intros H' Hj [A B] L. destruct (start_center j Hj) as (S1 & S2 & _). split.
  - destruct (le_lt_dec k j) as [|X]; [assumption|]. exfalso. pose proof (ends_before j k X ltac:(lia)). qlra.
  - destruct (le_lt_dec j k') as [|X]; [assumption|]. exfalso. pose proof (ends_before k' j X Hj). qlra.
Qed.
Lemma center_tile k k' j : k' < ncells c a -> k <= j <= k' ->
  (cellStart c a k <= nth j (k_center c a) q0)%Qc /\ (nth j (k_center c a) q0 <= cellEnd c a k')%Qc.
Proof.
  intros H [L L']. destruct (start_center j ltac:(lia)) as (S1 & S2 & _). split.
  - pose proof (start_le k j L ltac:(lia)). qlra.
  - destruct (Nat.eq_dec j k') as [->|N]; [qlra|]. pose proof (ends_before j k' ltac:(lia) H). destruct (start_center k' H) as (A & B & _). qlra.
Qed.
End Axis.

(** *** where the loops over the cells stop *)
Lemma up_spec lo : forall g, exists k, up g lo = k /\ k <= length g /\ (forall j, j < k -> (nth j g q0 < lo)%Qc) /\ (k < length g -> (lo <= nth k g q0)%Qc).
Proof.
  induction g as [|x g (k & E & L & B & A)]; [exists 0; cbn; repeat split; lia|]. cbn [up]. destruct (qltb x lo) eqn:Q.
  - exists (S k). rewrite E. cbn [length nth]. repeat split; try lia.
    + intros [|j] Hj; [now apply qltb_true|apply B; lia].
    + intros Hk. apply A. lia.
  - exists 0. repeat split; try (cbn; lia). intros _. cbn [nth]. apply Qcnot_lt_le. intros X. apply qltb_true in X. congruence.
Qed.
Lemma down_spec g hi : forall k, exists j, down g hi k = j /\ j <= k /\ (forall i, j < i <= k -> (hi < nth i g q0)%Qc) /\ (0 < j -> (nth j g q0 <= hi)%Qc).
Proof.
  induction k as [|k (j & E & L & B & A)]; [exists 0; cbn; repeat split; lia|]. cbn [down]. destruct (qltb hi (nth (S k) g q0)) eqn:Q.
  - exists j. rewrite E. repeat split; try lia; [|auto]. intros i Hi. destruct (Nat.eq_dec i (S k)) as [->|]; [now apply qltb_true|apply B; lia].
  - exists (S k). repeat split; try lia. intros _. apply Qcnot_lt_le. intros X. apply qltb_true in X. congruence.
Qed.
Lemma nth_firstn {A} (d : A) : forall l n k, k < n -> nth k (firstn n l) d = nth k l d.
Proof. induction l as [|x l IH]; intros [|n] [|k] H; try lia; try reflexivity. cbn. apply IH. lia. Qed.
Lemma up_is g lo k m : k < m -> m <= length g -> (forall j, j < k -> (nth j g q0 < lo)%Qc) -> (lo <= nth k g q0)%Qc -> up (firstn m g) lo = k.
Proof.
  intros H L B A. destruct (up_spec lo (firstn m g)) as (k' & -> & L' & B' & A'). rewrite firstn_length_le in * by lia.
  destruct (lt_eq_lt_dec k' k) as [[X|X]|X]; [|assumption|].
  - specialize (A' ltac:(lia)). rewrite nth_firstn in A' by lia. pose proof (B _ X). exfalso. qlra.
  - specialize (B' _ X). rewrite nth_firstn in B' by lia. exfalso. qlra.
Qed.
Lemma down_is g hi k m : k <= m -> (forall j, k < j <= m -> (hi < nth j g q0)%Qc) -> (nth k g q0 <= hi)%Qc -> down g hi m = k.
Proof.
  intros H B A. destruct (down_spec g hi m) as (k' & -> & L' & B' & A').
  destruct (lt_eq_lt_dec k' k) as [[X|X]|X]; [|assumption|].
  - specialize (B' k ltac:(lia)). exfalso. qlra.
  - specialize (A' ltac:(lia)). specialize (B k' ltac:(lia)). exfalso. qlra.
Qed.
