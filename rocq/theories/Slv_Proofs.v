(** Proofs about Slv_Model: row-major counting, and a tiling that follows it. *)
From Verif Require Import Base Slv_Model Slv_Spec.

(** ** Boxes *)
Lemma box_pos sh : Forall (fun n => 0 < n) sh -> 0 < box sh.
Proof. induction 1; cbn; [lia|]. fold (box l). nia. Qed.
Inductive inbox : list nat -> list nat -> Prop :=
| inbox_nil : inbox [] []
| inbox_cons n sh i idx : i < n -> inbox sh idx -> inbox (n :: sh) (i :: idx).
Lemma inbox_pos sh idx : inbox sh idx -> Forall (fun n => 0 < n) sh.
Proof. induction 1; constructor; auto. lia. Qed.
Lemma row_lt sh idx : inbox sh idx -> row_major sh idx < box sh.
Proof. induction 1; cbn; [lia|]. fold (box sh). nia. Qed.
Lemma point_row sh idx : inbox sh idx -> point sh (row_major sh idx) = idx.
Proof.
  induction 1 as [|n sh i idx H K IH]; [reflexivity|]. cbn.
  pose proof (row_lt _ _ K).
  rewrite (Nat.add_comm (i * _)), Nat.div_add, Nat.mod_add, Nat.div_small, Nat.mod_small by lia.
  rewrite IH. reflexivity.
Qed.
Lemma point_inbox sh j : j < box sh -> inbox sh (point sh j) /\ row_major sh (point sh j) = j.
Proof.
  revert j. induction sh as [|n sh IH]; intros j H; cbn in *. { split; [constructor|lia]. }
  fold (box sh) in *.
  assert (B : 0 < box sh) by (destruct (box sh); lia).
  destruct (IH (j mod box sh)) as [I R]; [apply Nat.mod_upper_bound; lia|].
  split. { constructor; auto. apply Nat.div_lt_upper_bound; lia. }
  rewrite R. pose proof (Nat.div_mod j (box sh)). lia.
Qed.
Lemma row_inj sh a b : inbox sh a -> inbox sh b -> row_major sh a = row_major sh b -> a = b.
Proof. intros A B E. rewrite <- (point_row sh a A), <- (point_row sh b B), E. reflexivity. Qed.
Lemma points_In sh idx : In idx (points sh) <-> inbox sh idx.
Proof.
  unfold points. rewrite in_map_iff. split.
  - intros (j & <- & J). apply in_seq in J. apply point_inbox. lia.
  - intros K. exists (row_major sh idx). split. now apply point_row. apply in_seq. pose proof (row_lt _ _ K). lia.
Qed.

Definition zeros (l : list nat) : list nat := map (fun _ => 0) l.
Lemma zeros_inbox sh : Forall (fun n => 0 < n) sh -> inbox sh (zeros sh).
Proof. induction 1; cbn; constructor; auto. Qed.
Lemma row_zeros sh : row_major sh (zeros sh) = 0.
Proof. induction sh; cbn; auto. Qed.
Lemma incr_some sh idx idx' d : inbox sh idx -> incr sh idx = (idx', Some d) ->
  inbox sh idx' /\ row_major sh idx' = S (row_major sh idx)
with incr_none sh idx idx' : inbox sh idx -> incr sh idx = (idx', None) ->
  idx' = zeros sh /\ S (row_major sh idx) = box sh.
Proof.
  - intros K. revert idx' d. induction K as [|n sh i idx H K IH]; intros idx' d E; cbn in E; [discriminate|].
    destruct (incr sh idx) as [idx1 [d1|]] eqn:E1.
    + injection E as <- <-. destruct (IH _ _ eq_refl) as [A B]. split; [now constructor|]. cbn. rewrite B. lia.
    + destruct (incr_none _ _ _ K E1) as [-> B]. destruct (Nat.leb_spec n (S i)); [discriminate|].
      injection E as <- <-. split. { constructor; [lia|]. apply zeros_inbox. now apply (inbox_pos _ idx). }
      cbn. rewrite row_zeros. fold (box sh). nia.
  - intros K. revert idx'. induction K as [|n sh i idx H K IH]; intros idx' E; cbn in E. { injection E as <-. split; reflexivity. }
    destruct (incr sh idx) as [idx1 [d1|]] eqn:E1; [discriminate|].
    destruct (IH _ eq_refl) as [-> B]. destruct (Nat.leb_spec n (S i)); [|discriminate].
    injection E as <-. split; [reflexivity|]. cbn. fold (box sh). assert (n = S i) by lia. subst. nia.
Qed.

(** ** Tiles *)
Lemma extent_pos n : 0 < extent n.
Proof. unfold extent. destruct (Nat.eqb_spec n 0); lia. Qed.
Lemma tile_len_pos n p : 0 < tile_len n p.
Proof. unfold tile_len. destruct (Nat.eqb_spec p 0); [apply extent_pos|lia]. Qed.
Lemma ceil_pos a t : 0 < t -> 0 < a -> 0 < (a + t - 1) / t.
Proof. intros. apply Nat.div_str_pos. lia. Qed.
Lemma counts_pos nc p : Forall (fun n => 0 < n) (tile_counts nc p).
Proof.
  revert p. induction nc as [|n nc IH]; intros p; cbn; constructor; auto.
  apply ceil_pos; [apply tile_len_pos|apply extent_pos].
Qed.
Lemma coord_lt i n t : 0 < t -> i < n -> i / t < (n + t - 1) / t.
Proof.
  intros T H. apply Nat.div_lt_upper_bound; [lia|].
  pose proof (Nat.div_mod (n + t - 1) t). pose proof (Nat.mod_upper_bound (n + t - 1) t). nia.
Qed.
Lemma coords_inbox nc p idx : is_cell nc idx -> inbox (tile_counts nc p) (tile_coords nc p idx).
Proof.
  revert p idx. induction nc as [|n nc IH]; intros p idx; cbn; [constructor|].
  intros [H K]. constructor; auto. apply coord_lt; auto. apply tile_len_pos.
Qed.
Lemma tiles_pos nc p : 0 < tiles nc p.
Proof. apply box_pos, counts_pos. Qed.
Lemma tile_of_lt nc p idx : is_cell nc idx -> tile_of nc p idx < tiles nc p.
Proof. intros K. now apply row_lt, coords_inbox. Qed.

(** ** Tiling::init *)
Definition tidy (nc k : list nat) : Prop := length k = length nc /\ forall i, nth i nc 0 = 0 -> nth i k 0 = 0.
Lemma tidy_tl n nc t k : tidy (n :: nc) (t :: k) -> tidy nc k /\ (n = 0 -> t = 0).
Proof. intros [L F]. cbn in L. split; [split; [lia|]; intros i; exact (F (S i))|exact (F 0)]. Qed.
Lemma init_total k nc : tidy nc k -> snd (init_axes k nc) = tiles nc k.
Proof.
  revert k. induction nc as [|n nc IH]; intros [|t k] T0; try (destruct T0; discriminate); [reflexivity|].
  apply tidy_tl in T0 as [T1 F0]. cbn.
  specialize (IH k T1). destruct (init_axes k nc) as [l total]. cbn in IH. subst total.
  unfold tiles. cbn. fold (box (tile_counts nc k)). unfold tile_len, extent.
  destruct (Nat.eqb_spec n 0) as [->|N].
  - rewrite F0 by reflexivity. cbn [Nat.eqb snd]. change ((1 + 1 - 1) / 1) with 1. lia.
  - destruct (Nat.eqb_spec t 0) as [->|T]; cbn [snd].
    + assert (Q : (n + n - 1) / n = 1); [|rewrite Q; lia].
      symmetry. apply (Nat.div_unique _ _ _ (n - 1)); lia.
    + rewrite Nat.mul_comm. f_equal.
      pose proof (Nat.div_mod n t). pose proof (Nat.mod_upper_bound n t).
      destruct (Nat.eqb_spec (n mod t) 0) as [M|M];
        [apply (Nat.div_unique _ _ _ (t - 1))|apply (Nat.div_unique _ _ _ (n mod t - 1))]; nia.
Qed.

(** ** A tiling that follows the counter *)
Inductive follows : list nat -> list nat -> list nat -> list nat -> list nat -> Prop :=
| follows_end k nc dc : tidy nc k -> Forall (fun n => n = 0) nc -> follows k nc [] [] dc
| follows_cons t k n nc sh i idx c dc : (n = 0 -> t = 0) -> i < extent n -> c = i mod tile_len n t -> follows k nc sh idx dc ->
    follows (t :: k) (n :: nc) (extent n :: sh) (i :: idx) (c :: dc).
Lemma tidy_cons n nc t k : (n = 0 -> t = 0) -> tidy nc k -> tidy (n :: nc) (t :: k).
Proof. intros F [L H]. split; [cbn; lia|]. intros [|i]; cbn; auto. Qed.
Lemma follows_tidy k nc sh idx dc : follows k nc sh idx dc -> tidy nc k.
Proof. induction 1; auto using tidy_cons. Qed.
Lemma follows_inbox k nc sh idx dc : follows k nc sh idx dc -> inbox sh idx.
Proof. induction 1; constructor; auto. Qed.
Lemma follows_zeros k nc sh idx dc : follows k nc sh idx dc -> follows k nc sh (zeros sh) (map (fun _ => 0) dc).
Proof.
  induction 1; cbn; constructor; auto. apply extent_pos. symmetry. apply Nat.mod_0_l. pose proof (tile_len_pos n t). lia.
Qed.
Lemma flat_nc nc k idx : tidy nc k -> Forall (fun n => n = 0) nc -> is_cell nc idx -> tile_of nc k idx = 0 /\ tiles nc k = 1.
Proof.
  revert k idx. induction nc as [|n nc IH]; intros [|t k] idx T0 Z; try (destruct T0; discriminate); [split; reflexivity|].
  inversion Z as [|? ? Z0 Z1]; subst. apply tidy_tl in T0 as [T1 T0]. rewrite (T0 eq_refl). cbn. intros [H K].
  destruct (IH k (tl idx) T1 Z1 K) as [A B]. unfold tile_of, tiles in *. cbn. rewrite A. fold (box (tile_counts nc k)).
  rewrite B. unfold tile_len. cbn. change (1 / 1) with 1. rewrite Nat.div_small by exact H. split; reflexivity.
Qed.
Lemma follows_cell k nc sh idx dc : follows k nc sh idx dc -> is_cell nc idx.
Proof.
  induction 1 as [k nc dc T Z|]; [|cbn; auto]. clear T. induction Z; cbn; [reflexivity|]. subst. split; [cbn; lia|exact IHZ].
Qed.
Lemma tile_zeros k nc sh idx dc : follows k nc sh idx dc -> tile_of nc k (zeros sh) = 0.
Proof.
  induction 1 as [k nc dc T Z|].
  - apply flat_nc; auto. apply (follows_cell k nc [] [] dc). now constructor.
  - change (zeros (extent n :: sh)) with (0 :: zeros sh). unfold tile_of in *. cbn [tile_counts tile_coords hd tl row_major].
    rewrite IHfollows. rewrite Nat.div_small by apply tile_len_pos. reflexivity.
Qed.
Lemma mod_succ_wrap i t : 0 < t -> t <= S (i mod t) -> S i / t = S (i / t) /\ S i mod t = 0.
Proof.
  intros T H. pose proof (Nat.div_mod i t). pose proof (Nat.mod_upper_bound i t).
  split; symmetry; [apply (Nat.div_unique _ _ _ 0)|apply (Nat.mod_unique _ _ (S (i / t)))]; nia.
Qed.
Lemma mod_succ_same i t : 0 < t -> S (i mod t) < t -> S i / t = i / t /\ S i mod t = S (i mod t).
Proof.
  intros T H. pose proof (Nat.div_mod i t).
  split; symmetry; [apply (Nat.div_unique _ _ _ (S (i mod t)))|apply (Nat.mod_unique _ _ (i / t))]; nia.
Qed.
Lemma last_tile k nc sh idx dc idx' : follows k nc sh idx dc -> incr sh idx = (idx', None) ->
  S (tile_of nc k idx) = tiles nc k.
Proof.
  intros F. revert idx'. induction F as [k nc dc T Z|t k n nc sh i idx c dc T H C F IH]; intros idx' E.
  - destruct (flat_nc nc k []) as [-> ->]; auto. apply (follows_cell k nc [] [] dc). now constructor.
  - cbn in E. destruct (incr sh idx) as [idx1 [d|]]; [discriminate|].
    destruct (Nat.leb_spec (extent n) (S i)); [|discriminate].
    specialize (IH _ eq_refl). unfold tile_of, tiles in *. cbn. fold (box (tile_counts nc k)).
    assert (extent n = S i) as -> by lia.
    assert (Q : (S i + tile_len n t - 1) / tile_len n t = S (i / tile_len n t)).
    { pose proof (tile_len_pos n t). replace (S i + tile_len n t - 1) with (i + 1 * tile_len n t) by lia. rewrite Nat.div_add; lia. }
    rewrite Q. nia.
Qed.
Lemma advance_step k nc sh idx dc idx' d : follows k nc sh idx dc -> incr sh idx = (idx', Some d) ->
  let '(dc', z) := advance_axes (fst (init_axes k nc)) dc d in
  follows k nc sh idx' dc' /\ Z.of_nat (tile_of nc k idx') = (Z.of_nat (tile_of nc k idx) + z)%Z.
Proof.
  intros F. revert idx' d. induction F as [k nc dc T Z|t k n nc sh i idx c dc T H C F IH]; intros idx' d E; [discriminate|].
  pose proof (init_total k nc (follows_tidy _ _ _ _ _ F)) as Tot.
  cbn in E. cbn [init_axes]. destruct (init_axes k nc) as [l total] eqn:EI. cbn [fst snd] in *. subst total.
  destruct (incr sh idx) as [idx1 [d1|]] eqn:E1.
  - injection E as <- <-. specialize (IH _ _ eq_refl).
    set (a := if n =? 0 then _ else _).
    assert (A : exists x, fst a = x :: l) by (subst a; destruct (n =? 0), (t =? 0); cbn; eauto).
    destruct A as [x ->]. cbn. destruct (advance_axes l dc d1) as [dc' z]. destruct IH as [A B].
    split; [now constructor|]. unfold tile_of in *. cbn. lia.
  - pose proof (last_tile _ _ _ _ _ _ F E1) as LT. destruct (incr_none _ _ _ (follows_inbox _ _ _ _ _ F) E1) as [-> _].
    destruct (Nat.leb_spec (extent n) (S i)); [discriminate|]. injection E as <- <-.
    assert (N : n <> 0) by (intros ->; cbn in *; lia). assert (EX : extent n = n) by (unfold extent; destruct (Nat.eqb_spec n 0); lia).
    set (a := if n =? 0 then _ else _).
    assert (A : exists num, fst a = {| a_num := num; a_size := tile_len n t; a_stride := tiles nc k |} :: l).
    { subst a. unfold tile_len. rewrite EX. destruct (Nat.eqb_spec n 0); [lia|]. destruct (t =? 0); cbn; eauto. }
    destruct A as [num ->]. cbn. clear a. rewrite C. pose proof (tile_len_pos n t) as TP.
    pose proof (tile_zeros _ _ _ _ _ F) as TZ.
    destruct (Nat.leb_spec (tile_len n t) (S (i mod tile_len n t))) as [W|W].
    + destruct (mod_succ_wrap _ _ TP W) as [D M]. split.
      { constructor; auto. now apply follows_zeros with idx. }
      unfold tile_of, tiles in *. cbn [tile_counts tile_coords hd tl row_major]. rewrite D, TZ.
      fold (box (tile_counts nc k)) in *. lia.
    + destruct (mod_succ_same _ _ TP W) as [D M]. split.
      { constructor; auto. now apply follows_zeros with idx. }
      unfold tile_of, tiles in *. cbn [tile_counts tile_coords hd tl row_major]. rewrite D, TZ.
      fold (box (tile_counts nc k)) in *. lia.
Qed.
Lemma advance_step' k nc sh idx dc idx' d cur : follows k nc sh idx dc -> incr sh idx = (idx', Some d) ->
  cur = Z.of_nat (tile_of nc k idx) ->
  exists dc', advance (init k nc) dc cur d = (dc', Z.of_nat (tile_of nc k idx')) /\ follows k nc sh idx' dc'.
Proof.
  intros F E C. pose proof (advance_step _ _ _ _ _ _ _ F E) as A. unfold advance, init.
  destruct (init_axes k nc) as [l total]. cbn [fst t_axes] in *. destruct (advance_axes l dc d) as [dc' z].
  destruct A as [A B]. exists dc'. split; auto. rewrite B, C. reflexivity.
Qed.
Definition seen (nc k sh : list nat) (j : nat) : list nat * Z := (point sh j, Z.of_nat (tile_of nc k (point sh j))).
Lemma walk_go_ok fuel k nc sh idx dc cur : follows k nc sh idx dc -> cur = Z.of_nat (tile_of nc k idx) ->
  fuel = box sh - row_major sh idx ->
  walk_go fuel (init k nc) sh idx dc cur = map (seen nc k sh) (seq (row_major sh idx) fuel).
Proof.
  revert idx dc cur. induction fuel as [|fuel IH]; intros idx dc cur F C E; [reflexivity|].
  cbn [walk_go seq map]. pose proof (follows_inbox _ _ _ _ _ F) as I. f_equal.
  { unfold seen. rewrite point_row by auto. now rewrite C. }
  destruct (incr sh idx) as [idx' [d|]] eqn:EI.
  - destruct (advance_step' _ _ _ _ _ _ _ _ F EI C) as (dc' & -> & F').
    destruct (incr_some _ _ _ _ I EI) as [I' R]. rewrite <- R. apply IH; auto. lia.
  - destruct (incr_none _ _ _ I EI) as [_ R]. assert (fuel = 0) as -> by lia. reflexivity.
Qed.
Lemma super_go_ok fuel k nc sh idx dc cur : follows k nc sh idx dc -> cur = Z.of_nat (tile_of nc k idx) ->
  fuel <= box sh - row_major sh idx ->
  super_go fuel (init k nc) sh idx dc cur = map (fun j => snd (seen nc k sh j)) (seq (row_major sh idx) fuel).
Proof.
  revert idx dc cur. induction fuel as [|fuel IH]; intros idx dc cur F C E; [reflexivity|].
  cbn [super_go seq map]. pose proof (follows_inbox _ _ _ _ _ F) as I. f_equal.
  { unfold seen. rewrite point_row by auto. now rewrite C. }
  destruct (incr sh idx) as [idx' [d|]] eqn:EI.
  - destruct (advance_step' _ _ _ _ _ _ _ _ F EI C) as (dc' & -> & F').
    destruct (incr_some _ _ _ _ I EI) as [I' R]. rewrite <- R. apply IH; auto. lia.
  - destruct (incr_none _ _ _ I EI) as [_ R]. assert (fuel = 0) as -> by lia. reflexivity.
Qed.
