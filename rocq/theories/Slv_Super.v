(** Proofs about Slv_Model: the super-tiles, and populateSpidMap as a whole. *)
From Coq Require Import Permutation Sorted.
From Verif Require Import Base Slv_Model Slv_Spec Slv_Proofs Slv_Map Slv_Stage.

Inductive nested : list nat -> list nat -> list nat -> Prop :=
| nested_nil : nested [] [] []
| nested_none nc k sz : nested nc k sz -> nested (0 :: nc) (0 :: k) (0 :: sz)
| nested_cons n nc t k s sz : 0 < n -> 0 < t -> 0 < s -> (Nat.divide t s \/ s = n) -> nested nc k sz -> nested (n :: nc) (t :: k) (s :: sz).
Lemma nested_intro nc k sz : length k = length nc -> length sz = length nc ->
  (forall i, if nth i nc 0 =? 0 then nth i k 0 = 0 /\ nth i sz 0 = 0
             else 0 < nth i k 0 /\ 0 < nth i sz 0 /\ (Nat.divide (nth i k 0) (nth i sz 0) \/ nth i sz 0 = nth i nc 0)) ->
  nested nc k sz.
Proof.
  revert k sz. induction nc as [|n nc IH]; intros [|t k] [|s sz] L L' H; try discriminate; [constructor|].
  assert (N : nested nc k sz) by (apply IH; [cbn in L; lia|cbn in L'; lia|]; intros i; exact (H (S i))).
  pose proof (H 0) as H0. cbn [nth] in H0. destruct (Nat.eqb_spec n 0) as [->|E].
  - destruct H0 as [-> ->]. now constructor.
  - destruct H0 as (A & B & C). constructor; auto. lia.
Qed.
Lemma common_nested nc rs sz r : asks nc rs -> common nc rs sz -> In r rs -> nested nc (key nc (r_tiles r)) sz.
Proof.
  intros A [L C] R. apply nested_intro; [apply key_length|auto|]. intros i. specialize (C i).
  pose proof (proj2 (key_tidy nc (r_tiles r) (as_fits _ _ A r R)) i) as K. pose proof (key_nth nc (r_tiles r) i) as Q.
  destruct (Nat.eqb_spec (nth i nc 0) 0) as [E|E]; [auto|]. destruct C as (C1 & C2 & _). rewrite Q.
  split; [apply tile_len_pos|]. split; [lia|]. destruct C2 as [C2|C2]; [auto|left]. apply C2. apply in_map_iff. eauto.
Qed.

Definition ceil (a b : nat) : nat := a / b + (if a mod b =? 0 then 0 else 1).
Lemma ceil_eq a b : 0 < b -> ceil a b = (a + b - 1) / b.
Proof.
  intros B. unfold ceil. pose proof (Nat.div_mod a b). pose proof (Nat.mod_upper_bound a b).
  destruct (Nat.eqb_spec (a mod b) 0) as [M|M]; [apply (Nat.div_unique _ _ _ (b - 1))|apply (Nat.div_unique _ _ _ (a mod b - 1))]; nia.
Qed.
Lemma ceil_self a : 0 < a -> ceil a a = 1.
Proof. intros A. unfold ceil. rewrite Nat.div_same, Nat.mod_same by lia. reflexivity. Qed.
Lemma ceil_nest n t s : 0 < n -> 0 < t -> 0 < s -> (Nat.divide t s \/ s = n) -> ceil (ceil n t) (ceil s t) = ceil n s.
Proof.
  intros N T P [[b ->]| ->].
  - assert (B : 0 < b) by nia.
    assert (E : ceil (b * t) t = b) by (unfold ceil; rewrite Nat.div_mul, Nat.mod_mul by lia; cbn; lia). rewrite E.
    rewrite !ceil_eq by nia.
    rewrite <- (Nat.add_sub_assoc _ b 1) by exact B.
    rewrite <- Nat.div_add by lia. rewrite Nat.div_div by lia. rewrite (Nat.mul_comm t b). f_equal. nia.
  - assert (0 < ceil n t) by (rewrite ceil_eq by auto; apply Nat.div_str_pos; lia). now rewrite !ceil_self by auto.
Qed.
Lemma coord_nest i n t s : i < n -> 0 < t -> 0 < s -> (Nat.divide t s \/ s = n) -> i / t / ceil s t = i / s.
Proof.
  intros I T P [[b ->]| ->].
  - assert (B : 0 < b) by nia.
    assert (E : ceil (b * t) t = b) by (unfold ceil; rewrite Nat.div_mul, Nat.mod_mul by lia; cbn; lia). rewrite E.
    rewrite Nat.div_div by lia. now rewrite Nat.mul_comm.
  - rewrite (Nat.div_small i n) by auto. apply Nat.div_small. rewrite ceil_eq by auto. now apply coord_lt.
Qed.

Fixpoint nums (nc k : list nat) : list nat :=
  match nc, k with n :: nc, t :: k => (if n =? 0 then 0 else ceil n t) :: nums nc k | _, _ => [] end.
Fixpoint subs (nc k sz : list nat) : list nat :=
  match nc, k, sz with n :: nc, t :: k, s :: sz => (if n =? 0 then 0 else ceil s t) :: subs nc k sz | _, _, _ => [] end.
Lemma init_nums nc k sz : nested nc k sz -> map a_num (fst (init_axes k nc)) = nums nc k.
Proof.
  induction 1 as [|nc k sz N IH|n nc t k s sz P T Q D N IH]; [reflexivity| |]; cbn [init_axes];
    destruct (init_axes k nc) as [l tot]; cbn [fst] in *.
  - cbn. now rewrite IH.
  - destruct (Nat.eqb_spec n 0); [lia|]. destruct (Nat.eqb_spec t 0); [lia|]. cbn. rewrite IH. unfold ceil.
    destruct (Nat.eqb_spec n 0); [lia|]. reflexivity.
Qed.
Lemma sub_sizes_0 nc k sz : nested nc k sz -> Forall (fun n => n = 0) nc -> subtile_sizes 0 sz (fst (init_axes k nc)) = Ok (subs nc k sz).
Proof.
  induction 1 as [|nc k sz N IH|n nc t k s sz P T Q D N IH]; intros F; [reflexivity| |]; inversion F; subst; [|lia].
  cbn [init_axes]. destruct (init_axes k nc) as [l tot]; cbn [fst] in *. cbn. rewrite IH by auto. reflexivity.
Qed.
Lemma sub_sizes_ok nc k sz r : nested nc k sz -> (forall i, i < r -> nth i nc 0 <> 0) -> (forall i, r <= i -> nth i nc 0 = 0) ->
  subtile_sizes r sz (fst (init_axes k nc)) = Ok (subs nc k sz).
Proof.
  intros N. revert r. induction N as [|nc k sz N IH|n nc t k s sz P T Q D N IH]; intros r H H'; [reflexivity| |].
  - destruct r as [|r].
    + apply sub_sizes_0; [now constructor|]. apply all_zero. intros i. apply H'. lia.
    + elim (H 0); [lia|reflexivity].
  - destruct r as [|r]. { specialize (H' 0). cbn in H'. lia. }
    cbn [init_axes]. destruct (init_axes k nc) as [l tot] eqn:E; cbn [fst] in *.
    destruct (Nat.eqb_spec n 0); [lia|]. destruct (Nat.eqb_spec t 0); [lia|]. cbn [fst subtile_sizes a_size].
    destruct (Nat.eqb_spec t 0); [lia|]. rewrite (IH r).
    + cbn [bind subs]. destruct (Nat.eqb_spec n 0); [lia|]. reflexivity.
    + intros i Hi. apply (H (S i)). lia.
    + intros i Hi. apply (H' (S i)). lia.
Qed.
Lemma subs_tidy nc k sz : nested nc k sz -> tidy (nums nc k) (subs nc k sz).
Proof.
  induction 1 as [|nc k sz N IH|n nc t k s sz P T Q D N IH]; cbn.
  - split; [reflexivity|intros [|i]; reflexivity].
  - apply tidy_cons; auto.
  - apply tidy_cons; auto. destruct (Nat.eqb_spec n 0); auto. intros C. rewrite ceil_eq in C by auto.
    pose proof (ceil_pos n t). lia.
Qed.
Lemma ceil_gt a b : 0 < a -> 0 < b -> 0 < ceil a b.
Proof. intros. rewrite ceil_eq by auto. now apply ceil_pos. Qed.
Lemma tile_len_S n t : 0 < t -> tile_len n t = t.
Proof. intros. unfold tile_len. destruct (Nat.eqb_spec t 0); lia. Qed.
Lemma extent_S n : 0 < n -> extent n = n.
Proof. intros. unfold extent. destruct (Nat.eqb_spec n 0); lia. Qed.
Lemma nested_counts nc k sz : nested nc k sz -> tile_counts (nums nc k) (subs nc k sz) = tile_counts nc sz.
Proof.
  induction 1 as [|nc k sz N IH|n nc t k s sz P T Q D N IH]; cbn [nums subs tile_counts hd tl]; [reflexivity| |].
  - cbn [Nat.eqb]. now rewrite IH.
  - destruct (Nat.eqb_spec n 0); [lia|]. rewrite IH. f_equal.
    rewrite !tile_len_S, !extent_S by (auto using ceil_gt). rewrite <- !ceil_eq by auto using ceil_gt. now apply ceil_nest.
Qed.
Lemma nested_coords nc k sz idx : nested nc k sz -> is_cell nc idx ->
  tile_coords (nums nc k) (subs nc k sz) (tile_coords nc k idx) = tile_coords nc sz idx.
Proof.
  intros N. revert idx. induction N as [|nc k sz N IH|n nc t k s sz P T Q D N IH]; intros idx;
    cbn [nums subs tile_coords hd tl is_cell]; [reflexivity| |]; intros [H K].
  - cbn [Nat.eqb]. rewrite IH by auto. f_equal. change (tile_len 0 0) with 1. now rewrite !Nat.div_1_r.
  - destruct (Nat.eqb_spec n 0); [lia|]. rewrite IH by auto. f_equal.
    rewrite !tile_len_S by (auto using ceil_gt). rewrite extent_S in H by auto. now apply (coord_nest _ n).
Qed.
Lemma nested_kcounts nc k sz : nested nc k sz -> tile_counts nc k = map extent (nums nc k).
Proof.
  induction 1 as [|nc k sz N IH|n nc t k s sz P T Q D N IH]; cbn [nums tile_counts hd tl map]; [reflexivity| |].
  - now rewrite IH.
  - destruct (Nat.eqb_spec n 0); [lia|]. rewrite IH. f_equal. rewrite tile_len_S, !extent_S, ceil_eq by (auto using ceil_gt). reflexivity.
Qed.
Lemma nums_nth nc k sz i : nested nc k sz -> nth i nc 0 = 0 <-> nth i (nums nc k) 0 = 0.
Proof.
  intros N. revert i. induction N as [|nc k sz N IH|n nc t k s sz P T Q D N IH]; intros [|i]; cbn [nums nth]; try reflexivity; auto.
  destruct (Nat.eqb_spec n 0); [lia|]. pose proof (ceil_gt n t P T). lia.
Qed.

Lemma row_trim r cs q : (forall i, r <= i -> nth i cs 1 = 1) -> (forall i, r <= i -> nth i q 0 = 0) -> length q = length cs ->
  row_major (firstn r cs) (firstn r q) = row_major cs q /\ box (firstn r cs) = box cs.
Proof.
  revert cs q. induction r as [|r IH]; intros cs q H H' L.
  - cbn. revert q H' L. induction cs as [|c cs IHc]; intros [|x q] H' L; try discriminate; [split; reflexivity|].
    destruct (IHc (fun i _ => H (S i) (Nat.le_0_l _)) q (fun i _ => H' (S i) (Nat.le_0_l _))) as [A B]; [cbn in L; lia|].
    cbn. rewrite <- A. fold (box cs). rewrite <- B. rewrite (H 0 (Nat.le_refl 0) : c = 1), (H' 0 (Nat.le_refl 0) : x = 0). split; reflexivity.
  - destruct cs as [|c cs], q as [|x q]; try discriminate; [split; reflexivity|]. cbn in L.
    destruct (IH cs q) as [A B]; [intros i Hi; apply (H (S i)); lia|intros i Hi; apply (H' (S i)); lia|lia|].
    cbn. fold (box (firstn r cs)). fold (box cs). rewrite A, B. split; reflexivity.
Qed.
Lemma firstn_inbox r cs q : inbox cs q -> inbox (firstn r cs) (firstn r q).
Proof. intros I. revert r. induction I; intros [|r]; cbn; constructor; auto. Qed.
Lemma coords_trim r nc p idx : (forall i, r <= i -> nth i idx 0 = 0) -> tile_coords nc p (firstn r idx) = tile_coords nc p idx.
Proof.
  revert r p idx. induction nc as [|n nc IH]; intros r p idx H; [reflexivity|]. cbn [tile_coords]. f_equal.
  - destruct r as [|r]; [|destruct idx; reflexivity]. pose proof (H 0 (Nat.le_refl 0)) as Z. destruct idx; cbn in *; subst; reflexivity.
  - destruct r as [|r].
    + cbn [firstn tl]. rewrite <- (IH 0 (tl p) (tl idx)); [reflexivity|]. intros i _. specialize (H (S i) (Nat.le_0_l _)). destruct idx; [now destruct i|exact H].
    + destruct idx as [|x idx]; [reflexivity|]. cbn [firstn tl]. apply IH. intros i Hi. apply (H (S i)). lia.
Qed.
Lemma coords_length nc p idx : length (tile_coords nc p idx) = length nc.
Proof. revert p idx. induction nc; intros; cbn; auto. Qed.
Lemma counts_length nc p : length (tile_counts nc p) = length nc.
Proof. revert p. induction nc; intros; cbn; auto. Qed.
Lemma coords_zero nc p idx i : is_cell nc idx -> nth i nc 0 = 0 -> nth i (tile_coords nc p idx) 0 = 0.
Proof.
  revert p idx i. induction nc as [|n nc IH]; intros p idx i; cbn [is_cell tile_coords]; [now destruct i|].
  intros [H K]. destruct i as [|i]; cbn [nth]; auto. intros ->. apply Nat.div_small. cbn in H. pose proof (tile_len_pos 0 (hd 0 p)). lia.
Qed.

(** An entry of super_tile: the tile of the solver around a tile *)
Definition good_super (nc k sz : list nat) (l : list Z) : Prop :=
  length l = tiles nc k /\ forall c, is_cell nc c -> nth_error l (tile_of nc k c) = Some (Z.of_nat (tile_of nc sz c)).
Lemma super_sub nc k sz r : nested nc k sz -> (forall i, i < r -> nth i nc 0 <> 0) -> (forall i, r <= i -> nth i nc 0 = 0) ->
  tidy nc k -> forall isolver i, i <> isolver -> exists l, super_tiles r sz isolver i (init k nc) = Ok l /\ good_super nc k sz l.
Proof.
  intros N H H' T isolver i NE. unfold super_tiles. destruct (Nat.eqb_spec i isolver); [contradiction|].
  assert (AX : t_axes (init k nc) = fst (init_axes k nc)) by (unfold init; destruct (init_axes k nc); reflexivity).
  assert (TT : t_total (init k nc) = tiles nc k) by (rewrite <- (init_total k nc T); unfold init; destruct (init_axes k nc); reflexivity).
  rewrite AX, TT, (sub_sizes_ok _ _ _ _ N H H'), (init_nums _ _ _ N). cbn [bind].
  set (nm := nums nc k) in *. set (sb := subs nc k sz) in *. set (sh := firstn r nm).
  eexists. split; [reflexivity|].
  assert (Ex : map extent sh = sh).
  { subst sh. assert (P : forall i, i < r -> nth i nm 0 <> 0) by (intros j J E; apply (nums_nth _ _ _ j N) in E; now apply (H j J)).
    clearbody nm. clear -P. revert nm P. induction r as [|r IH]; intros nm P; [reflexivity|]. destruct nm as [|x nm]; [reflexivity|]. cbn. f_equal.
    - apply extent_S. pose proof (P 0). cbn in *. lia.
    - apply IH. intros i Hi. apply (P (S i)). lia. }
  pose proof (follows_start r sb nm (subs_tidy _ _ _ N)) as F. cbv zeta in F. fold sh in F. rewrite Ex in F.
  specialize (F (fun j J => proj1 (nums_nth _ _ _ j N) (H' j J))).
  assert (CZ : forall j, r <= j -> nth j (tile_counts nc k) 1 = 1).
  { intros j J. rewrite (nested_kcounts _ _ _ N). change 1 with (extent 0) at 1. rewrite map_nth.
    rewrite (proj1 (nums_nth _ _ _ j N) (H' j J)). reflexivity. }
  assert (SH : firstn r (tile_counts nc k) = sh).
  { rewrite (nested_kcounts _ _ _ N). fold nm. rewrite firstn_map. exact Ex. }
  change (map (fun _ => 0) sh) with (zeros sh).
  rewrite super_go_ok with (nc := nm) (k := sb).
  - rewrite row_zeros. split; [now rewrite map_length, seq_length|]. intros c C.
    set (q := tile_coords nc k c).
    assert (QZ : forall j, r <= j -> nth j q 0 = 0) by (intros j J; apply coords_zero; auto).
    destruct (row_trim r (tile_counts nc k) q CZ QZ) as [R1 R2]; [now rewrite counts_length; apply coords_length|].
    rewrite SH in R1, R2.
    assert (I : inbox sh (firstn r q)) by (rewrite <- SH; now apply firstn_inbox, coords_inbox).
    rewrite nth_error_map, nth_error_nth' with (d := 0) by (rewrite seq_length; now apply tile_of_lt).
    rewrite seq_nth by now apply tile_of_lt. cbn [option_map Nat.add]. unfold seen. cbn [snd]. do 2 f_equal.
    unfold tile_of at 2. fold q. rewrite <- R1, point_row by auto.
    unfold tile_of. unfold nm, sb. rewrite (nested_counts _ _ _ N), coords_trim by auto. unfold q. now rewrite nested_coords.
  - unfold fresh, init. destruct (init_axes sb nm). exact F.
  - now rewrite (tile_zeros _ _ _ _ _ F).
  - rewrite row_zeros. destruct (row_trim r (tile_counts nc k) (map (fun _ => 0) (tile_counts nc k)) CZ) as [_ R2].
    + intros j _. change 0 with ((fun _ : nat => 0) 0) at 2. now rewrite (map_nth (fun _ => 0)).
    + apply map_length.
    + rewrite SH in R2. unfold tiles. rewrite R2. lia.
Qed.
Lemma super_own nc sz isolver : tidy nc sz -> exists l, super_tiles (rank_of nc) sz isolver isolver (init sz nc) = Ok l /\ good_super nc sz sz l.
Proof.
  intros T. unfold super_tiles. rewrite Nat.eqb_refl. eexists. split; [reflexivity|].
  assert (TT : t_total (init sz nc) = tiles nc sz) by (rewrite <- (init_total sz nc T); unfold init; destruct (init_axes sz nc); reflexivity).
  rewrite TT. split; [now rewrite map_length, seq_length|]. intros c C.
  rewrite nth_error_map, nth_error_nth' with (d := 0) by (rewrite seq_length; now apply tile_of_lt).
  rewrite seq_nth by now apply tile_of_lt. reflexivity.
Qed.

Lemma dense_rank nc i : dense nc -> (exists j, nth j nc 0 <> 0) -> i < rank_of nc -> nth i nc 0 <> 0.
Proof.
  intros D E L. apply last_defined_pos in E. unfold rank_of in L.
  assert (Last : nth (last_defined nc - 1) nc 0 <> 0).
  { clear -E. induction nc as [|n nc IH]; [cbn in E; lia|]. cbn in *. destruct (last_defined nc) eqn:Q.
    - destruct (Nat.eqb_spec n 0); cbn; lia.
    - replace (S (S n0) - 1) with (S (S n0 - 1)) by lia. cbn [nth]. apply IH. lia. }
  intros Z. destruct (Nat.eq_dec i (last_defined nc - 1)) as [->|NE]; [auto|]. apply Last. apply (D i); auto. lia.
Qed.
Lemma all_super_ok nc ks sz isolver : (forall i k, nth_error ks i = Some k -> exists l, super_tiles (rank_of nc) sz isolver i (init k nc) = Ok l /\ good_super nc k sz l) ->
  exists ls, all_super (rank_of nc) sz isolver 0 (tab nc ks) = Ok ls /\ length ls = length ks /\
    forall i k, nth_error ks i = Some k -> good_super nc k sz (nth i ls []).
Proof.
  intros H. change isolver with (0 + isolver) in H.
  assert (G : forall i0, (forall i k, nth_error ks i = Some k -> exists l, super_tiles (rank_of nc) sz isolver (i0 + i) (init k nc) = Ok l /\ good_super nc k sz l) ->
    exists ls, all_super (rank_of nc) sz isolver i0 (tab nc ks) = Ok ls /\ length ls = length ks /\
    forall i k, nth_error ks i = Some k -> good_super nc k sz (nth i ls [])).
  { clear H. induction ks as [|k ks IH]; intros i0 H.
    - exists []. split; [reflexivity|]. split; [reflexivity|]. intros [|i] k; discriminate.
    - destruct (H 0 k eq_refl) as (l & L & G). rewrite Nat.add_0_r in L.
      destruct (IH (S i0)) as (ls & E & Le & K).
      { intros i k' K. destruct (H (S i) k' K) as (l' & L' & G'). exists l'. split; auto. now replace (S i0 + i) with (i0 + S i) by lia. }
      exists (l :: ls). unfold tab in *. cbn [map all_super]. rewrite L. cbn [bind]. rewrite E. cbn [bind].
      split; [reflexivity|]. split; [cbn; lia|]. intros [|i] k' K'; [now injection K' as <-|]. exact (K i k' K'). }
  apply (G 0). exact H.
Qed.

Definition uniform (nc : list nat) (rs : list spidrec) : Prop :=
  forall r r' i, In r rs -> In r' rs -> len_at nc (r_tiles r) i = len_at nc (r_tiles r') i.
Lemma list_ext (a b : list nat) : length a = length b -> (forall i, nth i a 0 = nth i b 0) -> a = b.
Proof.
  revert b. induction a as [|x a IH]; intros [|y b] L H; try discriminate; [reflexivity|]. f_equal; [exact (H 0)|].
  apply IH; [cbn in L; lia|]. intros i. exact (H (S i)).
Qed.
Lemma uniform_common nc rs sz r : asks nc rs -> uniform nc rs -> common nc rs sz -> In r rs -> sz = key nc (r_tiles r).
Proof.
  intros A U [L C] R. apply list_ext; [now rewrite key_length|]. intros i. specialize (C i). rewrite key_nth.
  pose proof (as_fits _ _ A r R i) as F.
  destruct (Nat.eqb_spec (nth i nc 0) 0) as [E|E]. { destruct (i <? length nc); lia. }
  destruct C as (C1 & C2 & C3). set (t := len_at nc (r_tiles r) i) in *.
  assert (T : 0 < t <= nth i nc 0).
  { subst t. split; [apply tile_len_pos|]. unfold len_at, tile_len, extent. destruct (Nat.eqb_spec (nth i nc 0) 0); [lia|].
    destruct (Nat.eqb_spec (nth i (r_tiles r) 0) 0); lia. }
  assert (In t (map (fun r => len_at nc (r_tiles r) i) rs)) by (apply in_map_iff; exists r; auto).
  assert (t <= nth i sz 0) by (destruct C2 as [->|C2]; [lia|]; apply Nat.divide_pos_le; [lia|auto]).
  destruct (Nat.eq_dec (nth i sz 0) t) as [|NE]; [auto|]. destruct (C3 t) as (t' & T' & D); [lia|].
  apply in_map_iff in T' as (r' & <- & R'). elim D. rewrite (U r' r i R' R). apply Nat.divide_refl.
Qed.

Record populated (nc : list nat) (rs : list spidrec) (s : solver) (ks : list (list nat)) (gs : list Z) (sz : list nat) : Prop := {
  q_common : common nc rs sz;
  q_nc : s_nc s = nc;
  q_til : s_tilings s = tab nc ks;
  q_iso : nth_error ks (s_isolver s) = Some sz;
  q_super : forall i k, nth_error ks i = Some k -> good_super nc k sz (nth i (s_super s) []);
  q_groups : s_groups s = length gs /\ NoDup gs;
  q_spids : exists spids ss, Permutation spids ss /\ Forall2 (matches nc ks gs) rs ss /\ StronglySorted spid_lt spids /\
     alloc_all (tiles nc sz) (s_super s) spids (repeat (repeat 0 (tiles nc sz)) (length gs)) = (s_spids s, s_nuk s);
  q_num : s_num s = total nc rs }.
Lemma total_pos nc rs : rs <> [] -> 0 < total nc rs.
Proof. destruct rs; [congruence|]. intros _. unfold total. cbn. pose proof (tiles_pos nc (r_tiles s)). lia. Qed.
Theorem populate_ok nc rs : asks nc rs -> rs <> [] -> (exists i, nth i nc 0 <> 0) -> dense nc \/ uniform nc rs ->
  exists s ks gs sz, populate nc rs = Ok s /\ populated nc rs s ks gs sz.
Proof.
  intros A N X D. destruct (add_spids_inv nc rs [] (start nc) [] [] A (start_inv nc)) as (p & ks & ss & E & V). cbn [app] in V.
  unfold populate. rewrite E. cbn [bind]. rewrite (v_nuk _ _ _ _ _ V).
  destruct (Nat.eqb_spec (total nc rs) 0) as [Z|_]. { pose proof (total_pos nc rs N). lia. }
  rewrite (v_til _ _ _ _ _ V).
  assert (KM : map fst (tab nc ks) = ks) by (unfold tab; rewrite map_map; cbn; apply map_id). rewrite KM.
  pose proof (stage2 nc rs p ks ss A N V) as C. set (sz := solver_tiles 0 nc (p_tsz p) ks) in *. clearbody sz.
  destruct (get_ok nc sz ks) as (iso & ks' & -> & K1 & K2 & K3).
  { intros k K. destruct (v_keys _ _ _ _ _ V k K) as (r & R & ->). right. now apply common_ge with rs. }
  assert (ND : NoDup ks').
  { destruct K2 as [->| ->]; [apply (v_once _ _ _ _ _ V)|]. apply NoDup_snoc; [apply (v_once _ _ _ _ _ V)|].
    intros I. specialize (K3 I). apply (f_equal (@length _)) in K3. rewrite app_length in K3. cbn in K3. lia. }
  assert (KX : exists x, ks' = ks ++ x) by (destruct K2 as [->| ->]; [exists []; now rewrite app_nil_r|eauto]).
  rewrite (tab_at nc ks' iso sz K1).
  pose proof (common_tidy _ _ _ C) as TS.
  assert (TT : t_total (init sz nc) = tiles nc sz) by (rewrite <- (init_total sz nc TS); unfold init; destruct (init_axes sz nc); reflexivity).
  rewrite TT.
  destruct (all_super_ok nc ks' sz iso) as (ls & -> & LL & GS).
  { intros i k K. destruct (Nat.eq_dec i iso) as [->|NE].
    - rewrite K1 in K. injection K as <-. now apply super_own.
    - assert (NS : k <> sz).
      { intros ->. apply NE. apply (proj1 (NoDup_nth_error ks') ND); [apply nth_error_Some; congruence|congruence]. }
      assert (IK : In k ks).
      { apply nth_error_In in K. destruct K2 as [->| ->]; auto. apply in_app_or in K as [?|[?|[]]]; congruence. }
      destruct (v_keys _ _ _ _ _ V k IK) as (r & R & ->).
      destruct D as [D|U].
      + apply super_sub; auto.
        * now apply common_nested with rs.
        * intros j. now apply dense_rank.
        * intros j. apply rank_zero.
        * now apply key_tidy, (as_fits _ _ A).
      + elim NS. symmetry. now apply uniform_common with rs. }
  cbn [bind]. destruct (alloc_all _ _ _ _) as [l nuk] eqn:AL.
  eexists _, ks', (p_groups p), sz. split; [reflexivity|]. constructor; cbn; auto.
  - split; [reflexivity|apply (v_groups _ _ _ _ _ V)].
  - exists (p_spids p), ss. split; [apply (v_perm _ _ _ _ _ V)|]. split.
    + destruct KX as [x ->]. pose proof (v_match _ _ _ _ _ V) as M. clear -M.
      induction M; constructor; auto. rewrite <- (app_nil_r (p_groups p)). now apply matches_grow.
    + split; [apply (v_sort _ _ _ _ _ V)|]. exact AL.
Qed.
