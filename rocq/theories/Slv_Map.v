(** Proofs about Slv_Model: populateSpidMap up to the super-tiles. *)
From Verif Require Import Base Slv_Model Slv_Spec Slv_Proofs.

(** ** Walking over the cells *)
Lemma extent_max n : Nat.max 1 n = extent n.
Proof. unfold extent. destruct (Nat.eqb_spec n 0); lia. Qed.
Lemma all_zero nc : (forall i, nth i nc 0 = 0) -> Forall (fun n => n = 0) nc.
Proof. induction nc; intros H; constructor; [exact (H 0)|]. apply IHnc. intros i. exact (H (S i)). Qed.
Lemma zero_mod n t : 0 = 0 mod tile_len n t.
Proof. symmetry. apply Nat.mod_0_l. pose proof (tile_len_pos n t). lia. Qed.
Lemma follows_start r k nc : tidy nc k -> (forall i, r <= i -> nth i nc 0 = 0) ->
  let sh := map extent (firstn r nc) in
  follows k nc sh (zeros sh) (map (fun _ => 0) (fst (init_axes k nc))).
Proof.
  revert k nc. induction r as [|r IH]; intros k nc T H; cbn.
  - constructor; auto. apply all_zero. intros i. apply H. lia.
  - destruct nc as [|n nc]; cbn. { constructor; auto. }
    destruct k as [|t k]; [destruct T; discriminate|]. apply tidy_tl in T as [T T0].
    specialize (IH k nc T). cbn in IH. cbn [init_axes].
    destruct (init_axes k nc) as [l total]. cbn [fst] in *.
    set (a := if n =? 0 then _ else _).
    assert (A : exists x, fst a = x :: l) by (subst a; destruct (n =? 0), (t =? 0); cbn; eauto).
    destruct A as [x ->]. cbn. constructor; auto using extent_pos, zero_mod. apply IH. intros i Hi. apply (H (S i)). lia.
Qed.
Lemma last_defined_zero nc i : last_defined nc <= i -> nth i nc 0 = 0.
Proof.
  revert i. induction nc as [|n nc IH]; intros i H; [now destruct i|]. cbn in H.
  destruct (last_defined nc) eqn:E.
  - destruct (Nat.eqb_spec n 0); destruct i; cbn; auto; try lia; apply IH; lia.
  - destruct i; cbn; [lia|]. apply IH. lia.
Qed.
Lemma rank_zero nc i : rank_of nc <= i -> nth i nc 0 = 0.
Proof. intros H. apply last_defined_zero. unfold rank_of in H. lia. Qed.
Lemma grid_nil nc : last_defined nc = 0 -> grid nc = [].
Proof.
  induction nc as [|n nc IH]; [reflexivity|]. cbn. destruct (last_defined nc); [|discriminate].
  rewrite IH by reflexivity. destruct (n =? 0); [reflexivity|discriminate].
Qed.
Lemma grid_first nc : grid nc = map extent (firstn (last_defined nc) nc).
Proof.
  induction nc as [|n nc IH]; [reflexivity|]. cbn. destruct (last_defined nc) eqn:E.
  - rewrite grid_nil by auto. destruct (Nat.eqb_spec n 0); [reflexivity|]. cbn. unfold extent. destruct (Nat.eqb_spec n 0); [lia|]. reflexivity.
  - rewrite IH. destruct nc as [|m nc]; [discriminate|]. cbn. reflexivity.
Qed.
Lemma last_defined_pos nc : (exists i, nth i nc 0 <> 0) -> 0 < last_defined nc.
Proof.
  intros [i H]. destruct (last_defined nc) eqn:E; [|lia]. exfalso. apply H. apply last_defined_zero. lia.
Qed.
Lemma cells_shape_grid nc : (exists i, nth i nc 0 <> 0) -> cells_shape nc = grid nc.
Proof.
  intros H. apply last_defined_pos in H. rewrite grid_first. unfold cells_shape, rank_of.
  replace (Nat.max 1 (last_defined nc)) with (last_defined nc) by lia. apply map_ext, extent_max.
Qed.
Theorem walk_ok k nc : tidy nc k -> (exists i, nth i nc 0 <> 0) ->
  walk (init k nc) nc = map (fun c => (c, Z.of_nat (tile_of nc k c))) (points (grid nc)).
Proof.
  intros T N. unfold walk. cbv zeta.
  assert (E : cells_shape nc = map extent (firstn (rank_of nc) nc)) by (unfold cells_shape; apply map_ext, extent_max).
  rewrite <- (cells_shape_grid nc N). rewrite E. unfold points.
  pose proof (follows_start (rank_of nc) k nc T (rank_zero nc)) as F. cbv zeta in F.
  set (sh := map extent (firstn (rank_of nc) nc)) in *.
  change (map (fun _ => 0) sh) with (zeros sh).
  rewrite walk_go_ok with (nc := nc) (k := k).
  - rewrite row_zeros, map_map. reflexivity.
  - unfold fresh, init. destruct (init_axes k nc). exact F.
  - now rewrite (tile_zeros _ _ _ _ _ F).
  - rewrite row_zeros. unfold volume, box. lia.
Qed.

(** ** The tile sizes asked for *)
Fixpoint key (nc p : list nat) : list nat :=
  match nc with [] => [] | n :: nc => (if hd 0 p =? 0 then n else hd 0 p) :: key nc (tl p) end.
Lemma fits_tl n nc p : fits (n :: nc) p -> hd 0 p <= n /\ fits nc (tl p).
Proof.
  intros F. split. { pose proof (F 0). destruct p; cbn in *; lia. }
  intros i. pose proof (F (S i)). destruct p; cbn in *; auto. destruct i; lia.
Qed.
Lemma norm_tiles_ok nc p : fits nc p -> norm_tiles nc p = Ok (key nc p).
Proof.
  revert p. induction nc as [|n nc IH]; intros p F; [reflexivity|]. cbn. apply fits_tl in F as [H F].
  rewrite IH by auto. cbn. destruct (Nat.eqb_spec n 0) as [->|], (Nat.eqb_spec (hd 0 p) 0) as [E|]; cbn; try reflexivity. lia.
Qed.
Lemma key_length nc p : length (key nc p) = length nc.
Proof. revert p. induction nc; intros; cbn; auto. Qed.
Lemma key_nth nc p i : nth i (key nc p) 0 = if nth i nc 0 =? 0 then (if i <? length nc then nth i p 0 else 0) else len_at nc p i.
Proof.
  revert p i. induction nc as [|n nc IH]; intros p i; cbn [key]; [destruct i; reflexivity|].
  destruct i as [|i].
  - unfold len_at. destruct p as [|x p]; cbn [nth hd length]; change (0 <? S (length nc)) with true; cbn [negb]; unfold tile_len, extent;
      destruct (Nat.eqb_spec n 0); subst; cbn; auto. destruct (Nat.eqb_spec x 0); auto.
  - cbn [nth]. rewrite IH. cbn [length]. change (S i <? S (length nc)) with (i <? length nc). unfold len_at.
    destruct p as [|x p]; cbn [tl nth]; [destruct i|]; reflexivity.
Qed.
Lemma key_tidy nc p : fits nc p -> tidy nc (key nc p).
Proof.
  intros F. split; [apply key_length|]. intros i H. rewrite key_nth, H. cbn [Nat.eqb]. pose proof (F i). destruct (i <? length nc); lia.
Qed.
Lemma key_tiles nc p : fits nc p -> tile_counts nc (key nc p) = tile_counts nc p /\ forall idx, tile_coords nc (key nc p) idx = tile_coords nc p idx.
Proof.
  revert p. induction nc as [|n nc IH]; intros p F; [split; reflexivity|]. apply fits_tl in F as [H F].
  destruct (IH _ F) as [A B]. cbn.
  assert (E : tile_len n (if hd 0 p =? 0 then n else hd 0 p) = tile_len n (hd 0 p)).
  { unfold tile_len, extent. set (x := hd 0 p). destruct (Nat.eqb_spec x 0) as [X|X].
    - destruct (Nat.eqb_spec n 0); reflexivity.
    - destruct (Nat.eqb_spec x 0); [lia|reflexivity]. }
  rewrite E, A. split; [reflexivity|]. intros idx. now rewrite B.
Qed.
Lemma key_tile_of nc p idx : fits nc p -> tile_of nc (key nc p) idx = tile_of nc p idx.
Proof. intros F. unfold tile_of. destruct (key_tiles nc p F) as [-> ->]. reflexivity. Qed.
Lemma key_total nc p : fits nc p -> t_total (init (key nc p) nc) = tiles nc p.
Proof.
  intros F. pose proof (init_total _ _ (key_tidy _ _ F)) as E. unfold init, tiles in *. destruct (init_axes _ _). cbn in *.
  rewrite E. now destruct (key_tiles nc p F) as [-> _].
Qed.

(** ** The order of DimVectors *)
Lemma dv_lt_le e a b : Forall2 le a b -> dv_lt_go e a b = negb (e && if list_eq_dec Nat.eq_dec a b then true else false).
Proof.
  intros H. revert e. induction H as [|x y a b H F IH]; intros e; cbn [dv_lt_go].
  - cbn. now rewrite andb_true_r.
  - destruct (Nat.ltb_spec y x); [lia|]. rewrite IH. destruct (Nat.ltb_spec x y).
    + destruct (list_eq_dec Nat.eq_dec (x :: a) (y :: b)) as [E|]; [injection E; lia|]. now destruct e.
    + assert (x = y) as -> by lia.
      destruct (list_eq_dec Nat.eq_dec a b) as [E1|N], (list_eq_dec Nat.eq_dec (y :: a) (y :: b)) as [E|N'];
        try reflexivity; exfalso; congruence.
Qed.
Lemma same_key_eq a b : Forall2 le a b \/ Forall2 le b a -> same_key a b = true <-> a = b.
Proof.
  assert (G : forall a b, Forall2 le a b -> same_key a b = true <-> a = b).
  { clear. intros a b H. unfold same_key, dv_lt. split.
    - intros E. apply andb_prop in E as [E _]. rewrite (dv_lt_le true _ _ H) in E. cbn in E.
      destruct (list_eq_dec Nat.eq_dec a b); [auto|discriminate].
    - intros <-. rewrite (dv_lt_le true _ _ H). cbn. destruct (list_eq_dec Nat.eq_dec a a); [reflexivity|congruence]. }
  intros [H|H]; [now apply G|]. unfold same_key. rewrite andb_comm. fold (same_key b a). rewrite G by auto. split; congruence.
Qed.
Lemma Forall2_nth_le a b : length a = length b -> (forall i, nth i a 0 <= nth i b 0) -> Forall2 le a b.
Proof.
  revert b. induction a as [|x a IH]; intros [|y b] L H; try discriminate; constructor. { exact (H 0). }
  apply IH; [cbn in L; lia|]. intros i. exact (H (S i)).
Qed.
Definition comparable (a b : list nat) : Prop := Forall2 le a b \/ Forall2 le b a.
Lemma finer_key nc p q : fits nc p -> fits nc q -> finer nc p q -> Forall2 le (key nc p) (key nc q).
Proof.
  intros P Q H. apply Forall2_nth_le; [now rewrite !key_length|]. intros i. rewrite !key_nth.
  pose proof (P i). pose proof (Q i). pose proof (H i). destruct (Nat.eqb_spec (nth i nc 0) 0); [|auto].
  destruct (i <? length nc); lia.
Qed.

(** ** Looking tilings up *)
Definition tab (nc : list nat) (ks : list (list nat)) : list (list nat * tiling) := map (fun k => (k, init k nc)) ks.
Lemma find_ok nc k ks : (forall k', In k' ks -> comparable k k') ->
  match find_tiling k (tab nc ks) with
  | Some i => nth_error ks i = Some k
  | None => ~ In k ks
  end.
Proof.
  induction ks as [|k' ks IH]; intros C; cbn; [auto|].
  destruct (same_key k k') eqn:E.
  - apply same_key_eq in E; [|apply C; now left]. now subst.
  - specialize (IH (fun x H => C x (or_intror H))). fold (tab nc ks). destruct (find_tiling k (tab nc ks)); cbn; [auto|].
    intros [->|H]; [|auto]. rewrite (proj2 (same_key_eq k k (C k (or_introl eq_refl)))) in E by reflexivity. discriminate.
Qed.
Lemma get_ok nc k ks : (forall k', In k' ks -> comparable k k') ->
  exists i ks', get_tiling k nc (tab nc ks) = (i, tab nc ks') /\ nth_error ks' i = Some k /\
    (ks' = ks \/ ks' = ks ++ [k]) /\ (In k ks -> ks' = ks).
Proof.
  intros C. pose proof (find_ok nc k ks C) as F. unfold get_tiling. destruct (find_tiling k (tab nc ks)) as [i|].
  - exists i, ks. auto.
  - exists (length (tab nc ks)), (ks ++ [k]). split. { f_equal. unfold tab. now rewrite map_app. }
    split. { unfold tab. rewrite map_length, nth_error_app2, Nat.sub_diag by lia. reflexivity. } split; [now right|]. intros H. now elim F.
Qed.
Lemma tab_at nc ks i k : nth_error ks i = Some k -> tiling_at (tab nc ks) i = init k nc.
Proof.
  intros H. unfold tiling_at, tab. rewrite nth_indep with (d' := (fun k => (k, init k nc)) []).
  - rewrite (map_nth (fun k => (k, init k nc))). cbn. now rewrite (nth_error_nth _ _ _ H).
  - rewrite map_length. apply nth_error_Some. congruence.
Qed.
Lemma find_group_ok g l : match find_group g l with Some i => nth_error l i = Some g | None => ~ In g l end.
Proof.
  induction l as [|h l IH]; cbn; [auto|]. destruct (Z.eqb_spec g h); [now subst|].
  destruct (find_group g l); cbn; auto. intros [?|?]; [congruence|auto].
Qed.
Lemma get_group_ok g l : NoDup l -> exists i l', get_group g l = (i, l') /\ nth_error l' i = Some g /\ NoDup l' /\ exists x, l' = l ++ x.
Proof.
  intros N. pose proof (find_group_ok g l) as F. unfold get_group. destruct (find_group g l) as [i|].
  - exists i, l. repeat split; auto. exists []. now rewrite app_nil_r.
  - exists (length l), (l ++ [g]). repeat split.
    + now rewrite nth_error_app2, Nat.sub_diag by lia.
    + apply NoDup_rev in N. rewrite <- (rev_involutive (l ++ [g])). apply NoDup_rev. rewrite rev_app_distr. cbn.
      constructor; auto. now rewrite <- in_rev.
    + eauto.
Qed.
