(** Proofs about tiled parameters: the list of domains, and its order. *)
From Coq Require Import QArith Qcanon.
From Verif Require Import Base Polc_Model Polc_Proofs Slv_Spec Slv_Proofs Leq_Proofs Tpc_Model Tpc_Spec Tpc_Proofs.
Close Scope Q_scope. Close Scope Qc_scope. Local Open Scope nat_scope.

Lemma nth_set_same {A} (d x : A) : forall l i, i < length l -> nth i (set_nth l i x) d = x.
Proof. induction l as [|y l IH]; intros [|i] H; cbn in *; try lia; [reflexivity|]. apply IH. lia. Qed.
Lemma nth_set_other {A} (d x : A) : forall l i j, i <> j -> nth j (set_nth l i x) d = nth j l d.
Proof. induction l as [|y l IH]; intros [|i] [|j] H; cbn; try lia; try reflexivity. apply IH. lia. Qed.
Lemma length_set {A} (x : A) : forall l i, length (set_nth l i x) = length l.
Proof. induction l as [|y l IH]; intros [|i]; cbn; auto. Qed.

Lemma hd_skipn {A} (d : A) : forall l k, hd d (skipn k l) = nth k l d.
Proof. induction l as [|x l IH]; intros [|k]; try reflexivity. apply IH. Qed.
Lemma tl_skipn {A} : forall (l : list A) k, tl (skipn k l) = skipn (S k) l.
Proof. induction l as [|x l IH]; intros [|k]; try reflexivity. cbn [skipn]. rewrite IH. destruct l; reflexivity. Qed.

Section Tiles.
Variables (c : tcells) (tiling : list nat).
Hypothesis G : grid_ok c.

(** length of the tiles along an axis; first and last cell of tile [i] *)
Definition len (a : nat) : nat := tile_len (ncells c a) (nth a tiling 0).
Definition first (a i : nat) : nat := i * len a.
Definition last (a i : nat) : nat := Nat.min (extent (ncells c a) - 1) ((i + 1) * len a - 1).
Definition count (a : nat) : nat := (extent (ncells c a) + len a - 1) / len a.
Definition cutting (a : nat) : bool := negb (nth a tiling 0 =? 0) && negb (ncells c a =? 0).
Definition cut_axis (a i : nat) (d : list (option (Qc * Qc))) := if cutting a then defineAxis d a (cellStart c a (first a i)) (cellEnd c a (last a i)) else d.
Fixpoint cut (d : list (option (Qc * Qc))) (a : nat) (coords : list nat) : list (option (Qc * Qc)) :=
  match coords with [] => d | i :: coords => cut (cut_axis a i d) (S a) coords end.
Definition counts (a k : nat) : list nat := map count (seq a k).

Lemma len_pos a : 0 < len a.
Proof. apply tile_len_pos. Qed.
Lemma count_pos a : 0 < count a.
Proof. apply ceil_pos; [apply len_pos|apply extent_pos]. Qed.
Lemma not_cutting a : cutting a = false -> count a = 1.
Proof.
  unfold cutting, count, len, tile_len. destruct (nth a tiling 0 =? 0) eqn:E1; cbn [negb andb].
  - intros _. pose proof (extent_pos (ncells c a)). set (e := extent _) in *. symmetry. apply (Nat.div_unique _ _ _ (e - 1)); lia.
  - intros E2. apply negb_false_iff in E2. apply Nat.eqb_eq in E2. rewrite E2. apply Nat.eqb_neq in E1. cbn [extent Nat.eqb].
    set (t := nth a tiling 0) in *. symmetry. apply (Nat.div_unique _ _ _ 0); lia.
Qed.
Lemma counts_tile : forall k a, counts a k = tile_counts (map (ncells c) (seq a k)) (skipn a tiling).
Proof.
  induction k as [|k IH]; intros a; [reflexivity|]. unfold counts in *. cbn [seq map tile_counts]. f_equal.
  - unfold count, len. rewrite hd_skipn. reflexivity.
  - rewrite IH, tl_skipn. reflexivity.
Qed.
Lemma split_cut ds a : split_axis c tiling ds a = flat_map (fun d => map (fun i => cut_axis a i d) (seq 0 (count a))) ds.
Proof.
  unfold split_axis, cut_axis, cutting. destruct (nth a tiling 0 =? 0) eqn:E1.
  - rewrite not_cutting by (unfold cutting; rewrite E1; reflexivity). cbn. induction ds; cbn; congruence.
  - destruct (ncells c a =? 0) eqn:E2.
    + rewrite not_cutting by (unfold cutting; rewrite E1, E2; reflexivity). cbn. induction ds; cbn; congruence.
    + cbn [negb andb]. unfold count, first, last, len, tile_len, extent. rewrite E1, E2. reflexivity.
Qed.
Lemma flat_map_map {A B D} (f : A -> B) (g : B -> list D) : forall l, flat_map g (map f l) = flat_map (fun x => g (f x)) l.
Proof. induction l; cbn; congruence. Qed.
Lemma map_flat_map {A B D} (f : A -> list B) (g : B -> D) : forall l, map g (flat_map f l) = flat_map (fun x => map g (f x)) l.
Proof. induction l; cbn; [reflexivity|]. rewrite map_app. congruence. Qed.
Lemma flat_flat {A B D} (f : A -> list B) (g : B -> list D) : forall l, flat_map g (flat_map f l) = flat_map (fun x => flat_map g (f x)) l.
Proof. induction l; cbn; [reflexivity|]. rewrite flat_map_app. congruence. Qed.
Lemma fold_cut : forall k a ds, fold_left (split_axis c tiling) (seq a k) ds = flat_map (fun d => map (cut d a) (points (counts a k))) ds.
Proof.
  induction k as [|k IH]; intros a ds.
  - cbn. induction ds; cbn; congruence.
  - cbn [seq fold_left]. rewrite IH, split_cut, flat_flat. apply flat_map_ext. intros d. unfold counts. cbn [seq map]. rewrite points_cons, flat_map_map, map_flat_map.
    apply flat_map_ext. intros i. rewrite map_map. reflexivity.
Qed.
Lemma domains_are d : GetTiledDomains d c tiling = map (cut d 0) (points (counts 0 MaxAxis)).
Proof. unfold GetTiledDomains. rewrite fold_cut. cbn [flat_map]. apply app_nil_r. Qed.

(** *** the range of a tile along an axis *)
Lemma cell_range a i : i < count a -> first a i <= last a i < extent (ncells c a).
Proof.
  intros H. unfold first, last. pose proof (len_pos a). pose proof (extent_pos (ncells c a)).
  assert (i * len a < extent (ncells c a)); [|nia]. unfold count in H. set (e := extent _) in *. set (t := len a) in *.
  assert (t * ((e + t - 1) / t) <= e + t - 1) by (apply Nat.mul_div_le; lia). nia.
Qed.
Definition range (a i : nat) : Qc * Qc := (cellStart c a (first a i), cellEnd c a (last a i)).
Lemma range_lt a i : i < count a -> ncells c a <> 0 -> (fst (range a i) < snd (range a i))%Qc.
Proof.
  intros H N. destruct (cell_range a i H) as [L B]. unfold extent in B. destruct (ncells c a =? 0) eqn:E; [apply Nat.eqb_eq in E; lia|].
  apply tile_range; [apply (g_sizes c G)|apply (g_size c G)|apply (g_order c G)|assumption|assumption].
Qed.
Lemma cutting_cells a : cutting a = true -> ncells c a <> 0.
Proof. unfold cutting. rewrite andb_true_iff, !negb_true_iff, !Nat.eqb_neq. tauto. Qed.
Lemma cut_axis_length a i d : length (cut_axis a i d) = length d.
Proof. unfold cut_axis, defineAxis. destruct (cutting a); [apply length_set|reflexivity]. Qed.
Lemma cut_length : forall co d a, length (cut d a co) = length d.
Proof. induction co as [|i co IH]; intros d a; [reflexivity|]. cbn [cut]. rewrite IH. apply cut_axis_length. Qed.
Lemma cut_axis_nth a i d b : length d = MaxAxis -> a < MaxAxis -> i < count a ->
  nth b (cut_axis a i d) None = if (a =? b) && cutting a then Some (range a i) else nth b d None.
Proof.
  intros Ld La H. unfold cut_axis. destruct (cutting a) eqn:E; [|rewrite andb_false_r; reflexivity].
  rewrite defineAxis_lt by (apply (range_lt a i H), cutting_cells, E). rewrite andb_true_r. destruct (a =? b) eqn:F.
  - apply Nat.eqb_eq in F. subst b. apply nth_set_same. lia.
  - apply Nat.eqb_neq in F. now apply nth_set_other.
Qed.
Lemma cut_nth : forall k co d a b, inbox (counts a k) co -> length d = MaxAxis -> a + k <= MaxAxis ->
  nth b (cut d a co) None = if (a <=? b) && (b <? a + k) && cutting b then Some (range b (nth (b - a) co 0)) else nth b d None.
Proof.
  induction k as [|k IH]; intros co d a b I Ld Lk; unfold counts in I; cbn [seq map] in I.
  - inversion I; subst. cbn [cut]. replace ((a <=? b) && (b <? a + 0)) with false; [reflexivity|].
    symmetry. apply andb_false_iff. destruct (le_lt_dec a b); [right; apply Nat.ltb_ge; lia|left; apply Nat.leb_gt; lia].
  - inversion I as [|n sh i co' Hi I']; subst. cbn [cut]. rewrite (IH co' (cut_axis a i d) (S a) b I'); [|rewrite cut_axis_length; assumption|lia].
    rewrite cut_axis_nth by (assumption || lia). destruct (Nat.eq_dec a b) as [->|N].
    + rewrite (proj2 (Nat.leb_gt (S b) b)) by lia. rewrite Nat.eqb_refl, Nat.leb_refl, (proj2 (Nat.ltb_lt b (b + S k))) by lia. cbn [andb]. rewrite Nat.sub_diag. cbn [nth]. reflexivity.
    + rewrite (proj2 (Nat.eqb_neq a b)) by assumption. cbn [andb]. destruct (le_lt_dec (S a) b) as [L|L].
      * rewrite (proj2 (Nat.leb_le (S a) b)), (proj2 (Nat.leb_le a b)) by lia. replace (S a + k) with (a + S k) by lia.
        replace (b - a) with (S (b - S a)) by lia. reflexivity.
      * rewrite (proj2 (Nat.leb_gt (S a) b)), (proj2 (Nat.leb_gt a b)) by lia. reflexivity.
Qed.
(** the domain of the tile with these coordinates *)
Definition dom_of (co : list nat) : list (option (Qc * Qc)) := cut (k_dom c) 0 co.
Lemma dom_nth co a : inbox (counts 0 MaxAxis) co -> a < MaxAxis ->
  nth a (dom_of co) None = if cutting a then Some (range a (nth a co 0)) else nth a (k_dom c) None.
Proof.
  intros I L. unfold dom_of. rewrite (cut_nth MaxAxis co _ 0 a I (g_dom c G)) by lia. cbn [Nat.leb Nat.add].
  rewrite (proj2 (Nat.ltb_lt a MaxAxis)) by assumption. cbn [andb]. rewrite Nat.sub_0_r. reflexivity.
Qed.
Lemma inbox_nth : forall sh co a, inbox sh co -> a < length sh -> nth a co 0 < nth a sh 0.
Proof. intros sh co a I. revert a. induction I as [|n sh i idx L I IH]; intros [|a] H; cbn in *; try lia. apply IH. lia. Qed.
Lemma counts_nth a : a < MaxAxis -> nth a (counts 0 MaxAxis) 0 = count a.
Proof. intros H. unfold counts. rewrite (nth_indep _ 0 (count 0)) by (rewrite map_length, seq_length; assumption). rewrite map_nth, seq_nth by assumption. reflexivity. Qed.
Lemma coord_count co a : inbox (counts 0 MaxAxis) co -> a < MaxAxis -> nth a co 0 < count a.
Proof. intros I H. rewrite <- counts_nth by assumption. apply inbox_nth; [assumption|]. unfold counts. rewrite map_length, seq_length. assumption. Qed.

(** which cells are in it *)
Lemma in_range a i j : i < count a -> j < extent (ncells c a) -> (first a i <= j <= last a i <-> j / len a = i).
Proof.
  intros H J. unfold first, last. pose proof (len_pos a). set (t := len a) in *. split.
  - intros [A B]. symmetry. apply (Nat.div_unique _ _ _ (j - t * i)); nia.
  - intros <-. pose proof (Nat.mul_div_le j t ltac:(lia)). pose proof (Nat.mul_succ_div_gt j t ltac:(lia)). nia.
Qed.
Lemma within_axis co a j : inbox (counts 0 MaxAxis) co -> a < MaxAxis -> ncells c a <> 0 -> j < ncells c a ->
  exists r, nth a (dom_of co) None = Some r /\ (fst r < snd r)%Qc /\
  ((fst r <= nth j (k_center c a) q0)%Qc /\ (nth j (k_center c a) q0 <= snd r)%Qc <-> j / len a = nth a co 0).
Proof.
  intros I L N J. rewrite (dom_nth co a I L). pose proof (coord_count co a I L) as H.
  assert (X : extent (ncells c a) = ncells c a). { unfold extent. apply Nat.eqb_neq in N. rewrite N. reflexivity. }
  destruct (cutting a) eqn:E.
  - exists (range a (nth a co 0)). split; [reflexivity|]. split; [now apply range_lt|]. rewrite <- (in_range a _ j H) by lia. cbn [range fst snd].
    destruct (cell_range a _ H) as [B1 B2]. split.
    + intros R. apply (tile_center c a (g_sizes c G a) (g_size c G a) (g_order c G a)); try lia. exact R.
    + intros R. apply (center_tile c a (g_sizes c G a) (g_size c G a) (g_order c G a)); lia.
  - destruct (nth a (k_dom c) None) as [r|] eqn:D.
    + exists r. split; [reflexivity|]. destruct (g_range c G a r D) as [R1 R2]. split; [exact R1|]. split.
      * intros _. pose proof (coord_count co a I L) as K. rewrite (not_cutting a E) in K. replace (nth a co 0) with 0 by lia.
        apply Nat.div_small. pose proof (cell_range a 0 (count_pos a)) as [_ B]. pose proof (not_cutting a E) as O. unfold count in O. rewrite X in O.
        pose proof (len_pos a). pose proof (Nat.mul_succ_div_gt (ncells c a + len a - 1) (len a) ltac:(lia)) as Q. rewrite O in Q. lia.
      * intros _. apply R2. apply nth_In. exact J.
    + apply (g_axes c G a L) in D. unfold ncells in N. rewrite D in N. cbn in N. lia.
Qed.
End Tiles.
