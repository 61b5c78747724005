(** Proofs about tiled parameters: the values of constant tiles. *)
From Coq Require Import QArith Qcanon.
From Verif Require Import Base Polc_Model Polc_Proofs Slv_Spec Slv_Proofs Leq_Proofs Tpc_Model Tpc_Spec Tpc_Proofs Tpc_Tiles Tpc_Order.
From Verif Require Vel_Spec.
Import Vel_Spec(position_from, position, at_index).
Close Scope Q_scope. Close Scope Qc_scope. Local Open Scope nat_scope.

(** *** elements of a block *)
Definition eff (n x : Z) : Z := if (n =? 1)%Z then 0%Z else x.
Inductive okax : list Z -> list (Z * Z) -> list Z -> Prop :=
| okax_nil : okax [] [] []
| okax_cons n shape r rs x idx : (0 <= fst r)%Z -> (snd r < n)%Z -> (0 <= eff n x < n)%Z -> okax shape rs idx -> okax (n :: shape) (r :: rs) (x :: idx).
Fixpoint hit (shape : list Z) (rs : list (Z * Z)) (idx : list Z) : Prop :=
  match shape, rs, idx with
  | n :: shape, r :: rs, x :: idx => (fst r <= eff n x <= snd r)%Z /\ hit shape rs idx
  | _, _, _ => True
  end.
Lemma in_span r v : In v (span r) <-> (fst r <= v <= snd r)%Z.
Proof.
  unfold span. rewrite in_map_iff. split.
  - intros (i & <- & H). apply in_seq in H. lia.
  - intros H. exists (Z.to_nat (v - fst r)). split; [lia|]. apply in_seq. lia.
Qed.
Lemma in_elements : forall shape rs idx, okax shape rs idx -> forall acc acc', In (position_from acc shape idx) (elements acc' shape rs) <-> acc = acc' /\ hit shape rs idx.
Proof.
  intros shape rs idx O. induction O as [|n shape r rs x idx L U E O IH]; intros acc acc'.
  - cbn. split; [intros [->|[]]; auto|intros [-> _]; auto].
  - cbn [position_from elements hit]. fold (eff n x). rewrite in_flat_map. split.
    + intros (v & Hv & Hi). apply in_span in Hv. apply IH in Hi as [A B]. assert (acc = acc') by nia. subst. repeat split; [lia|lia|assumption].
    + intros (-> & H & B). exists (eff n x). split; [now apply in_span|]. apply IH. auto.
Qed.
Lemma elements_bound : forall shape rs idx, okax shape rs idx -> forall acc e, In e (elements acc shape rs) ->
  (acc * fold_right Z.mul 1 shape <= e < (acc + 1) * fold_right Z.mul 1 shape)%Z.
Proof.
  intros shape rs idx O. induction O as [|n shape r rs x idx L U E O IH]; intros acc e H.
  - cbn in *. lia.
  - cbn [elements fold_right] in *. apply in_flat_map in H as (v & Hv & Hi). apply in_span in Hv. specialize (IH _ _ Hi). nia.
Qed.
Lemma position_bound : forall shape rs idx, okax shape rs idx -> forall acc,
  (acc * fold_right Z.mul 1 shape <= position_from acc shape idx < (acc + 1) * fold_right Z.mul 1 shape)%Z.
Proof.
  intros shape rs idx O. induction O as [|n shape r rs x idx L U E O IH]; intros acc.
  - cbn. lia.
  - cbn [position_from fold_right]. fold (eff n x). specialize (IH (acc * n + eff n x)%Z). nia.
Qed.

(** *** filling *)
Lemma nth_error_set_same {A} (x : A) : forall l i, i < length l -> nth_error (set_nth l i x) i = Some x.
Proof. induction l as [|y l IH]; intros [|i] H; cbn in *; try lia; [reflexivity|]. apply IH. lia. Qed.
Lemma nth_error_set_other {A} (x : A) : forall l i j, i <> j -> nth_error (set_nth l i x) j = nth_error l j.
Proof. induction l as [|y l IH]; intros [|i] [|j] H; cbn; try lia; try reflexivity. apply IH. lia. Qed.
Lemma fill_spec x : forall is l, (forall i, In i is -> (0 <= i < Z.of_nat (length l))%Z) ->
  exists l', fill l is x = Ok l' /\ length l' = length l /\
  forall k, k < length l -> (In (Z.of_nat k) is -> nth_error l' k = Some x) /\ (~ In (Z.of_nat k) is -> nth_error l' k = nth_error l k).
Proof.
  induction is as [|i is IH]; intros l B.
  - exists l. cbn. repeat split; auto. intros [].
  - cbn [fill]. pose proof (B i (or_introl eq_refl)) as Bi. unfold write. rewrite (proj2 (Z.ltb_ge i 0)) by lia. rewrite (proj2 (Z.leb_gt (Z.of_nat (length l)) i)) by lia. cbn [bind].
    destruct (IH (set_nth l (Z.to_nat i) x)) as (l' & E & Ll & S1). { rewrite length_set. intros j Hj. apply B. right. assumption. }
    exists l'. rewrite length_set in *. split; [exact E|]. split; [exact Ll|]. intros k Hk. destruct (S1 k Hk) as [S2 S3].
    destruct (in_dec Z.eq_dec (Z.of_nat k) is) as [I|N]; [split; [auto|intros X; exfalso; apply X; right; assumption]|]. rewrite (S3 N). split.
    + intros [X|X]; [|contradiction]. replace (Z.to_nat i) with k by lia. now apply nth_error_set_same.
    + intros X. apply nth_error_set_other. intros Y. apply X. left. lia.
Qed.
Lemma each_ok {A B} (f : nat -> A -> res B) (P : nat -> B -> Prop) : forall l i, (forall j x, nth_error l j = Some x -> exists y, f (i + j) x = Ok y /\ P (i + j) y) ->
  exists l', each f i l = Ok l' /\ length l' = length l /\ forall j y, nth_error l' j = Some y -> P (i + j) y.
Proof.
  induction l as [|x l IH]; intros i H; [exists []; cbn; repeat split; auto; intros [|j] y X; discriminate|]. cbn [each].
  destruct (H 0 x eq_refl) as (y & E & Py). rewrite Nat.add_0_r in E, Py. rewrite E. cbn [bind].
  destruct (IH (S i)) as (l' & E' & L' & P'). { intros j z Hz. replace (S i + j) with (i + S j) by lia. now apply H. }
  rewrite E'. cbn [bind]. exists (y :: l'). cbn [length]. repeat split; [congruence|]. intros [|j] z Hz.
  - cbn in Hz. injection Hz as <-. rewrite Nat.add_0_r. exact Py.
  - replace (i + S j) with (S i + j) by lia. now apply P'.
Qed.

Section Values.
Variables (c : tcells) (tiling : list nat).
Hypothesis G : grid_ok c.
Let K := counts c tiling 0 MaxAxis.
Let D := dom_of c tiling.
Lemma K_is : tile_counts (nc_of c) tiling = K.
Proof. unfold K. rewrite counts_tile. reflexivity. Qed.
Lemma cells_some a : k_center c a <> [] -> ncells c a <> 0 /\ extent (ncells c a) = ncells c a.
Proof. unfold ncells. destruct (k_center c a); [contradiction|]. intros _. split; [discriminate|reflexivity]. Qed.
(** *** which cells are in a tile *)
Lemma idx_ok idx : In idx (cells_of c) -> length idx = k_rank c /\ forall a, nth a idx 0 < extent (ncells c a).
Proof.
  intros H. apply points_In in H. assert (length idx = k_rank c) as L.
  { assert (W : forall sh co, inbox sh co -> length co = length sh) by (intros sh co I; induction I; cbn; congruence). rewrite (W _ _ H). unfold shape_of. rewrite map_length, seq_length. reflexivity. }
  split; [exact L|]. intros a. destruct (le_lt_dec (k_rank c) a) as [X|X].
  - rewrite nth_overflow by lia. apply extent_pos.
  - pose proof (inbox_nth _ _ a H) as B. unfold shape_of in B. rewrite map_length, seq_length in B. specialize (B X).
    set (f := fun a => extent (ncells c a)) in B. rewrite (nth_indep (map f (seq 0 (k_rank c))) 0 (f 0)) in B by (rewrite map_length, seq_length; assumption). rewrite map_nth, seq_nth in B by assumption. exact B.
Qed.
Lemma coords_nth idx : forall n a b, b < n -> nth b (tile_coords (map (ncells c) (seq a n)) (skipn a tiling) (skipn a idx)) 0 = nth (a + b) idx 0 / len c tiling (a + b).
Proof.
  induction n as [|n IH]; intros a b L; [lia|]. cbn [seq map tile_coords]. rewrite !hd_skipn, !tl_skipn. destruct b as [|b].
  - cbn [nth]. rewrite Nat.add_0_r. reflexivity.
  - cbn [nth]. rewrite IH by lia. replace (S a + b) with (a + S b) by lia. reflexivity.
Qed.
Lemma coords_length idx : forall nc p, length (tile_coords nc p idx) = length nc.
Proof. intros nc. revert idx. induction nc as [|n nc IH]; intros idx p; [reflexivity|]. cbn. rewrite IH. reflexivity. Qed.
Lemma is_cell_ok idx : In idx (cells_of c) -> is_cell (nc_of c) idx.
Proof.
  intros H. destruct (idx_ok idx H) as [L B]. pose proof (g_rank c G) as R.
  assert (W : forall n a, a + n = MaxAxis -> is_cell (map (ncells c) (seq a n)) (skipn a idx)).
  { induction n as [|n IH]; intros a Ha; cbn [seq map is_cell].
    - apply skipn_all2. lia.
    - rewrite hd_skipn, tl_skipn. split; [apply B|]. apply IH. lia. }
  exact (W MaxAxis 0 eq_refl).
Qed.
Lemma tile_is idx co : In idx (cells_of c) -> inbox K co -> (row_major K co = tile_of (nc_of c) tiling idx <-> forall a, a < MaxAxis -> nth a idx 0 / len c tiling a = nth a co 0).
Proof.
  intros H I. unfold tile_of. rewrite K_is.
  assert (J : inbox K (tile_coords (nc_of c) tiling idx)). { rewrite <- K_is. apply coords_inbox, is_cell_ok, H. }
  pose proof (coords_nth idx MaxAxis 0) as CN. cbn [skipn Nat.add] in CN. split.
  - intros E a La. apply row_inj in E; [|assumption|assumption]. rewrite E. unfold nc_of. rewrite CN by assumption. reflexivity.
  - intros E. f_equal. apply (nth_ext _ _ 0 0).
    + rewrite coords_length. assert (W : forall sh co, inbox sh co -> length co = length sh) by (intros sh' co' I'; induction I'; cbn; congruence). rewrite (W _ _ I). unfold K, counts, nc_of. rewrite !map_length. reflexivity.
    + intros a La. assert (W : forall sh co, inbox sh co -> length co = length sh) by (intros sh' co' I'; induction I'; cbn; congruence). rewrite (W _ _ I) in La. unfold K, counts in La. rewrite map_length, seq_length in La.
      rewrite <- E by assumption. unfold nc_of. symmetry. apply CN, La.
Qed.

Variable has : list bool.
Hypothesis Hs : forall a, 1 < nth a (tile_counts (nc_of c) tiling) 0 -> nth a has false = true.
Hypothesis Hc : forall a, nth a has false = true -> k_center c a <> [].
Let shape := res_shape c has.

Lemma one_tile a : a < MaxAxis -> nth a has false = false -> count c tiling a = 1.
Proof.
  intros L E. pose proof (count_pos c tiling a). destruct (Nat.eq_dec (count c tiling a) 1) as [|N]; [assumption|]. exfalso.
  assert (X : nth a (tile_counts (nc_of c) tiling) 0 = count c tiling a) by (rewrite K_is; now apply counts_nth). rewrite (Hs a) in E by lia. discriminate.
Qed.
Definition tile_rs (co : list nat) (a : nat) : Z * Z :=
  if nth a has false then (Z.of_nat (first c tiling a (nth a co 0)), Z.of_nat (last c tiling a (nth a co 0))) else (0, 0)%Z.
Lemma shape_nth a : a < k_rank c -> nth a shape 1%Z = if nth a has false then Z.of_nat (ncells c a) else 1%Z.
Proof.
  intros L. unfold shape, res_shape. set (f := fun a => _). rewrite (nth_indep _ 1%Z (f 0)) by (rewrite map_length, seq_length; assumption).
  rewrite map_nth, seq_nth by assumption. reflexivity.
Qed.
Lemma axis_range_ok co a : inbox K co -> a < k_rank c -> axis_range c shape (D co) a = (false, tile_rs co a).
Proof.
  intros I L. pose proof (g_rank c G) as R. assert (La : a < MaxAxis) by lia. unfold axis_range, tile_rs. unfold is_defined at 1.
  destruct (nth a (k_dom c) None) as [r|] eqn:Dk.
  2:{ cbn [negb]. apply (g_axes c G a La) in Dk. destruct (nth a has false) eqn:E; [exfalso; now apply (Hc a E)|reflexivity]. }
  assert (N : k_center c a <> []). { intros X. apply (g_axes c G a La) in X. congruence. }
  destruct (cells_some a N) as [N0 X]. cbn [negb].
  destruct (within_axis c tiling G co a 0 I La N0 ltac:(lia)) as (r' & Ed & R1 & W0). fold D in Ed. unfold is_defined. rewrite Ed. cbn [negb].
  rewrite shape_nth by assumption. pose proof (coord_count c tiling co a I La) as CC. unfold lower, upper. rewrite Ed.
  assert (W : forall j, j < ncells c a -> ((fst r' <= nth j (k_center c a) q0)%Qc /\ (nth j (k_center c a) q0 <= snd r')%Qc <-> first c tiling a (nth a co 0%nat) <= j <= last c tiling a (nth a co 0%nat))).
  { intros j Hj. destruct (within_axis c tiling G co a j I La N0 Hj) as (r'' & Ed' & _ & Wj). fold D in Ed'. rewrite Ed in Ed'. injection Ed' as <-. rewrite Wj. symmetry. apply in_range; [assumption|lia]. }
  clear W0. destruct (cell_range c tiling a _ CC) as [B1 B2]. rewrite X in B2. set (i0 := first c tiling a (nth a co 0)) in *. set (i1 := last c tiling a (nth a co 0)) in *.
  destruct (nth a has false) eqn:E.
  - rewrite Z.min_id, Nat2Z.id. rewrite (proj2 (Z.leb_gt _ 0)) by lia. replace (Z.to_nat (Z.of_nat (ncells c a) - 1)) with (ncells c a - 1) by lia.
    rewrite (up_is (k_center c a) (fst r') i0 (ncells c a)); [|lia|unfold ncells; lia| |].
    + rewrite (down_is (k_center c a) (snd r') i1 (ncells c a - 1)); [|lia| |].
      * rewrite (proj2 (Z.ltb_ge _ _)) by lia. reflexivity.
      * intros j Hj. apply Qcnot_le_lt. intros Le. assert (i0 <= j <= i1); [|lia]. apply (W j ltac:(lia)). split; [|exact Le].
        pose proof (proj2 (W i0 ltac:(lia)) ltac:(lia)) as [Q _]. pose proof (centers_lt c tiling G a i0 j ltac:(lia) ltac:(lia)) as Q'. qlra.
      * apply (W i1 ltac:(lia)). lia.
    + intros j Hj. apply Qcnot_le_lt. intros Le. assert (i0 <= j <= i1); [|lia]. apply (W j ltac:(lia)). split; [exact Le|].
      pose proof (proj2 (W i1 ltac:(lia)) ltac:(lia)) as [_ Q]. pose proof (centers_lt c tiling G a j i1 ltac:(lia) ltac:(lia)) as Q'. qlra.
    + apply (W i0 ltac:(lia)). lia.
  - rewrite Z.min_l by lia. cbn [Z.leb Z.compare]. change (Z.to_nat 1) with 1. change (Z.to_nat (1 - 1)) with 0. cbn [down].
    rewrite (up_is (k_center c a) (fst r') 0 1); [reflexivity|lia|unfold ncells in *; lia|lia|].
    apply (W 0 ltac:(lia)). pose proof (one_tile a La E). unfold i0, first. nia.
Qed.
Definition rs_of (co : list nat) : list (Z * Z) := map (tile_rs co) (seq 0 (k_rank c)).
Lemma ranges_ok co : inbox K co -> forall old, length old = k_rank c -> ranges c shape (D co) 0 old = rs_of co.
Proof.
  intros I old L. unfold rs_of.
  assert (W : forall old a, a + length old <= k_rank c -> ranges c shape (D co) a old = map (tile_rs co) (seq a (length old))).
  { induction old0 as [|o old0 IH]; intros a H; [reflexivity|]. cbn [ranges length seq map] in *. rewrite axis_range_ok by (assumption || lia). rewrite IH by lia. reflexivity. }
  rewrite W by lia. rewrite L. reflexivity.
Qed.

Lemma axes_of idx co : In idx (cells_of c) -> inbox K co -> okax shape (rs_of co) (index idx) /\ (hit shape (rs_of co) (index idx) <-> row_major K co = tile_of (nc_of c) tiling idx).
Proof.
  intros H I. destruct (idx_ok idx H) as [L B]. pose proof (g_rank c G) as R.
  assert (W : forall n a, a + n = k_rank c -> okax (map (fun a => if nth a has false then Z.of_nat (ncells c a) else 1%Z) (seq a n)) (map (tile_rs co) (seq a n)) (index (skipn a idx)) /\
    (hit (map (fun a => if nth a has false then Z.of_nat (ncells c a) else 1%Z) (seq a n)) (map (tile_rs co) (seq a n)) (index (skipn a idx)) <-> forall b, a <= b < k_rank c -> nth b idx 0 / len c tiling b = nth b co 0)).
  { induction n as [|n IH]; intros a Ha.
    - rewrite skipn_all2 by lia. cbn. split; [constructor|]. split; [intros _ b Hb; lia|auto].
    - assert (La : a < MaxAxis) by lia. assert (Sk : skipn a idx = nth a idx 0 :: skipn (S a) idx).
      { clear -Ha L. assert (a < length idx) as X by lia. clear L Ha. revert a X. induction idx as [|x l IHl]; intros [|a] X; cbn in *; try lia; [reflexivity|]. apply IHl. lia. }
      rewrite Sk. cbn [seq map index]. fold (index (skipn (S a) idx)). destruct (IH (S a) ltac:(lia)) as [O Hh].
      assert (X : (0 <= fst (tile_rs co a))%Z /\ (snd (tile_rs co a) < if nth a has false then Z.of_nat (ncells c a) else 1)%Z /\
                  (0 <= eff (if nth a has false then Z.of_nat (ncells c a) else 1) (Z.of_nat (nth a idx 0%nat)) < if nth a has false then Z.of_nat (ncells c a) else 1)%Z /\
                  ((fst (tile_rs co a) <= eff (if nth a has false then Z.of_nat (ncells c a) else 1) (Z.of_nat (nth a idx 0%nat)) <= snd (tile_rs co a))%Z <-> nth a idx 0 / len c tiling a = nth a co 0)).
      { pose proof (coord_count c tiling co a I La) as CC. pose proof (B a) as Ba. unfold tile_rs. destruct (nth a has false) eqn:E.
        - destruct (cells_some a (Hc a E)) as [N X]. destruct (cell_range c tiling a _ CC) as [B1 B2]. rewrite X in *. cbn [fst snd].
          rewrite <- (in_range c tiling a (nth a co 0) (nth a idx 0) CC ltac:(lia)).
          assert (Ef : eff (Z.of_nat (ncells c a)) (Z.of_nat (nth a idx 0)) = Z.of_nat (nth a idx 0)). { unfold eff. destruct (Z.eqb_spec (Z.of_nat (ncells c a)) 1); lia. }
          rewrite Ef. repeat split; lia.
        - cbn [fst snd]. unfold eff. cbn. repeat split; try lia. intros _. pose proof (one_tile a La E) as O1.
          pose proof (coord_lt (nth a idx 0) (extent (ncells c a)) (len c tiling a) (len_pos c tiling a) Ba) as Q. fold (count c tiling a) in Q. rewrite O1 in *.
          set (u := nth a idx 0 / len c tiling a) in *. set (w := nth a co 0) in *. lia. }
      destruct X as (X1 & X2 & X3 & X4). split; [constructor; assumption|]. cbn [hit]. rewrite X4, Hh. split.
      + intros [E1 E2] b Hb. destruct (Nat.eq_dec b a) as [->|]; [exact E1|apply E2; lia].
      + intros E. split; [apply E; lia|intros b Hb; apply E; lia]. }
  destruct (W (k_rank c) 0 eq_refl) as [O Hh]. cbn [skipn] in *. split; [exact O|]. change (hit shape (rs_of co) (index idx) <-> row_major K co = tile_of (nc_of c) tiling idx). rewrite (tile_is idx co H I). transitivity (forall b, 0 <= b < k_rank c -> nth b idx 0 / len c tiling b = nth b co 0); [exact Hh|].
  split; [|intros E b Hb; apply E; lia]. intros E a La. destruct (le_lt_dec (k_rank c) a) as [X|X]; [|apply E; lia].
  assert (Z0 : ncells c a = 0) by (unfold ncells; rewrite (g_none c G a X); reflexivity).
  rewrite nth_overflow by lia. rewrite Nat.div_0_l by (pose proof (len_pos c tiling a); lia).
  pose proof (coord_count c tiling co a I La) as CC. assert (Cf : cutting c tiling a = false) by (unfold cutting; rewrite Z0; apply andb_false_r). rewrite (not_cutting c tiling a Cf) in CC. lia.
Qed.

(** *** one tile after the other *)
Variable default : Qc.
Definition stage (val : nat -> Qc) (k : nat) (v : list Qc) : Prop :=
  length v = size shape /\ forall idx, In idx (cells_of c) -> at_index shape v (index idx) = Some (if tile_of (nc_of c) tiling idx <? k then val (tile_of (nc_of c) tiling idx) else default).
Lemma shape_pos : (0 < fold_right Z.mul 1 shape)%Z.
Proof.
  unfold shape, res_shape. induction (seq 0 (k_rank c)) as [|a l IH]; [reflexivity|]. cbn [map fold_right]. destruct (nth a has false) eqn:E; [|lia].
  destruct (cells_some a (Hc a E)) as [N _]. nia.
Qed.
Lemma stage_0 val : stage val 0 (repeat default (size shape)).
Proof.
  split; [apply repeat_length|]. intros idx H. cbn [Nat.ltb Nat.leb]. unfold at_index.
  assert (I : inbox K (point K 0)). { apply point_inbox. apply box_pos. unfold K. rewrite counts_tile. apply counts_pos. }
  destruct (axes_of idx _ H I) as [O _]. pose proof (position_bound _ _ _ O 0) as B. fold (position shape (index idx)) in B.
  apply nth_error_repeat. unfold size. lia.
Qed.
Lemma stage_step val k v : stage val k v -> k < box K -> exists v', fill v (elements 0 shape (rs_of (point K k))) (val k) = Ok v' /\ stage val (S k) v'.
Proof.
  intros [Lv V] Hk. destruct (point_inbox K k Hk) as [I Rk].
  destruct (fill_spec (val k) (elements 0 shape (rs_of (point K k))) v) as (v' & E & L' & S').
  { assert (Z0 : exists idx, In idx (cells_of c)). { exists (point (shape_of c) 0). apply points_In, point_inbox, box_pos. unfold shape_of. apply Forall_forall. intros x Hx. apply in_map_iff in Hx as (a & <- & _). apply extent_pos. }
    destruct Z0 as [idx H]. destruct (axes_of idx _ H I) as [O _]. intros e He. pose proof (elements_bound _ _ _ O _ _ He) as B. rewrite Lv. unfold size. pose proof shape_pos. lia. }
  exists v'. split; [exact E|]. split; [congruence|]. intros idx H. destruct (axes_of idx _ H I) as [O Hh]. rewrite Rk in Hh.
  pose proof (position_bound _ _ _ O 0) as B. fold (position shape (index idx)) in B. unfold at_index.
  destruct (S' (Z.to_nat (position shape (index idx)))) as [S1 S2]. { rewrite Lv. unfold size. lia. }
  rewrite Z2Nat.id in S1, S2 by lia. unfold position in S1, S2 at 1. rewrite (in_elements _ _ _ O 0 0) in S1, S2. rewrite Hh in S1, S2. specialize (V idx H). unfold at_index in V.
  set (t := tile_of (nc_of c) tiling idx) in *. destruct (Nat.eq_dec k t) as [->|N].
  - unfold position. rewrite S1 by auto. rewrite (proj2 (Nat.ltb_lt t (S t))) by lia. reflexivity.
  - unfold position in *. rewrite S2 by tauto. rewrite V. f_equal. destruct (Nat.ltb_spec t k), (Nat.ltb_spec t (S k)); try lia; reflexivity.
Qed.

(** the values of a constant tile *)
Definition coef (t : tile) : Qc := hd q0 (f_coeff (t_funk t)).
Variables (axf : axisfun) (mp : nat) (all : list tile) (solved : bool).
Hypothesis Ad : map t_dom all = map D (points K).
Hypothesis Ac : Forall (fun t => length (f_coeff (t_funk t)) = 1) all.
Definition main_val (k : nat) : Qc := match nth_error all k with Some t => coef t | None => default end.
Definition pert_val (ip k : nat) : Qc := match nth_error all k with Some t => Qcplus (coef t) (signed ip (f_pert (t_funk t))) | None => default end.
Lemma all_length : length all = box K.
Proof. rewrite <- (map_length t_dom), Ad, map_length. unfold points. rewrite map_length, seq_length. reflexivity. Qed.
Lemma dom_at k t : nth_error all k = Some t -> k < box K /\ t_dom t = D (point K k).
Proof.
  intros E. assert (L : k < box K) by (rewrite <- all_length; apply nth_error_Some; congruence). split; [exact L|].
  pose proof (map_nth_error t_dom _ _ E) as X. rewrite Ad in X. unfold points in X. rewrite map_map in X. rewrite nth_error_map in X.
  assert (Sq : nth_error (seq 0 (box K)) k = Some k). { rewrite (nth_error_nth' _ 0) by (rewrite seq_length; exact L). rewrite seq_nth by exact L. reflexivity. }
  rewrite Sq in X. cbn [option_map] in X. congruence.
Qed.
Definition good (k : nat) (s : state) : Prop :=
  stage main_val k (s_main s) /\ length (s_ranges s) = k_rank c /\ length (s_pert s) = mp /\
  forall ip set, nth_error (s_pert s) ip = Some set -> exists v, set = [v] /\ stage (pert_val ip) k v.
Lemma rs_length co : length (rs_of co) = k_rank c.
Proof. unfold rs_of. rewrite map_length, seq_length. reflexivity. Qed.
Lemma tile_step k t s : nth_error all k = Some t -> good k s -> exists s', add_tile axf c shape mp s t = Ok s' /\ good (S k) s'.
Proof.
  intros E (M & Lr & Lp & P). destruct (dom_at k t E) as [Lk Dt]. destruct (point_inbox K k Lk) as [I _].
  unfold add_tile. rewrite Dt, (ranges_ok _ I) by exact Lr.
  assert (C1 : length (f_coeff (t_funk t)) = 1). { rewrite Forall_forall in Ac. apply Ac. apply nth_error_In in E. exact E. }
  assert (X : exists x, f_coeff (t_funk t) = [x]). { destruct (f_coeff (t_funk t)) as [|x [|y l]]; try discriminate. eauto. }
  destruct X as [x X]. unfold isConstant, ncoeff. rewrite X. cbn [length Nat.leb].
  destruct (stage_step main_val k _ M Lk) as (m' & Em & M'). assert (Mx : main_val k = x) by (unfold main_val; rewrite E; unfold coef; rewrite X; reflexivity). rewrite Mx in Em.
  unfold fill_all. rewrite Em. cbn [bind].
  set (f := fun (ip : nat) (set : list (list Qc)) => _).
  destruct (each_ok f (fun ip set => exists v, set = [v] /\ stage (pert_val ip) (S k) v) (s_pert s) 0) as (ps & Ep & Lps & Pps).
  { intros ip set Hset. destruct (P ip set Hset) as (v & -> & St). destruct (stage_step (pert_val ip) k v St Lk) as (v' & Ev & St').
    assert (Px : pert_val ip k = Qcplus x (signed ip (f_pert (t_funk t)))) by (unfold pert_val; rewrite E; unfold coef; rewrite X; reflexivity). rewrite Px in Ev.
    exists [v']. cbn [Nat.add]. unfold f. rewrite Ev. cbn [bind]. split; [reflexivity|]. eauto. }
  rewrite Ep. cbn [bind]. eexists. split; [reflexivity|]. split; [exact M'|]. split; [apply rs_length|]. split; [cbn; congruence|]. exact Pps.
Qed.
Lemma tiles_steps : forall l k s, (forall j t, nth_error l j = Some t -> nth_error all (k + j) = Some t) -> good k s -> exists s', add_tiles axf c shape mp s l = Ok s' /\ good (k + length l) s'.
Proof.
  induction l as [|t l IH]; intros k s H Gs; [exists s; cbn; rewrite Nat.add_0_r; auto|]. cbn [add_tiles].
  destruct (tile_step k t s) as (s1 & E1 & G1); [rewrite <- (Nat.add_0_r k); now apply H|assumption|]. rewrite E1. cbn [bind].
  destruct (IH (S k) s1) as (s' & E' & G'); [intros j t' Ht'; replace (S k + j) with (k + S j) by lia; now apply H|assumption|].
  exists s'. split; [exact E'|]. cbn [length]. replace (k + S (length l)) with (S k + length l) by lia. exact G'.
Qed.
Lemma good_0 spids : (mp = 0 \/ length spids = 1) -> good 0 {| s_main := repeat default (size shape); s_pert := repeat (repeat (repeat default (size shape)) (length (spids : list Z))) mp; s_ranges := repeat (-1, -1)%Z (k_rank c) |}.
Proof.
  intros H. split; [apply stage_0|]. split; [apply repeat_length|]. split; [apply repeat_length|]. cbn [s_pert]. intros ip set Hs'.
  assert (L : ip < mp). { rewrite <- (repeat_length (repeat (repeat default (size shape)) (length spids)) mp). apply nth_error_Some. congruence. }
  destruct H as [->|H]; [lia|]. rewrite nth_error_repeat in Hs' by exact L. injection Hs' as <-. rewrite H. cbn [repeat]. eexists. split; [reflexivity|]. apply stage_0.
Qed.
Lemma all_steps spids : (mp = 0 \/ length spids = 1) -> exists s, add_tiles axf c shape mp {| s_main := repeat default (size shape); s_pert := repeat (repeat (repeat default (size shape)) (length (spids : list Z))) mp; s_ranges := repeat (-1, -1)%Z (k_rank c) |} all = Ok s /\ good (box K) s.
Proof. intros H. destruct (tiles_steps all 0 _ (fun j t X => X) (good_0 spids H)) as (s & E & Gs). rewrite all_length in Gs. eauto. Qed.
Lemma stage_end val v idx : stage val (box K) v -> In idx (cells_of c) -> at_index shape v (index idx) = Some (val (tile_of (nc_of c) tiling idx)).
Proof.
  intros [_ V] H. rewrite (V idx H). pose proof (tile_of_lt (nc_of c) tiling idx (is_cell_ok idx H)) as L. unfold tiles in L. rewrite K_is in L.
  rewrite (proj2 (Nat.ltb_lt _ _) L). reflexivity.
Qed.
Lemma tile_exists idx : In idx (cells_of c) -> exists t, nth_error all (tile_of (nc_of c) tiling idx) = Some t.
Proof.
  intros H. pose proof (tile_of_lt (nc_of c) tiling idx (is_cell_ok idx H)) as L. unfold tiles in L. rewrite K_is, <- all_length in L.
  destruct (nth_error all (tile_of (nc_of c) tiling idx)) eqn:E; [eauto|]. apply nth_error_None in E. lia.
Qed.
End Values.
