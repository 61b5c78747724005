(** Theorems about the tilings and unknowns of the Solver (MeqNodes/src/Solver.cc). *)
From Coq Require Import Permutation Sorted.
From Verif Require Import Base Slv_Model Slv_Spec Slv_Proofs Slv_Map Slv_Stage Slv_Super Slv_Alloc.

Definition has_axis (nc : list nat) : Prop := exists i, nth i nc 0 <> 0.
Definition chain (nc : list nat) (rs : list spidrec) : Prop :=
  forall r r', In r rs -> In r' rs -> finer nc (r_tiles r) (r_tiles r') \/ finer nc (r_tiles r') (r_tiles r).
Definition all_fit (nc : list nat) (rs : list spidrec) : Prop := forall r, In r rs -> fits nc (r_tiles r).
Definition distinct (rs : list spidrec) : Prop := NoDup (map r_spid rs).
(** all parms are tiled alike *)
Definition alike (nc : list nat) (rs : list spidrec) : Prop :=
  forall r r' i, In r rs -> In r' rs -> len_at nc (r_tiles r) i = len_at nc (r_tiles r') i.
(** the line of the table that belongs to an entry of the spid map *)
Definition entry (nc : list nat) (s : solver) (r : spidrec) (u : uktable) : Prop :=
  In u (s_spids s) /\ i_spid (u_info u) = r_spid r /\ i_node (u_info u) = r_node r /\ i_nuk (u_info u) = tiles nc (r_tiles r).
(** the unknown for the tile of [r] with cell [c]; [sz] has the tile sizes of the solver *)
Definition unknown (nc sz : list nat) (s : solver) (r : spidrec) (u : uktable) (c : list nat) : nat * nat :=
  (psubsolver s (tile_of nc sz c) (i_group (u_info u)), nth (tile_of nc (r_tiles r) c) (u_ssuki u) 0).
(** the tile sizes of the solver *)
Definition solver_sizes (nc : list nat) (rs : list spidrec) (sz : list nat) : Prop :=
  length sz = length nc /\ forall i, if nth i nc 0 =? 0 then nth i sz 0 = 0
    else least_common (nth i nc 0) (map (fun r => len_at nc (r_tiles r) i) rs) (nth i sz 0).

(** ** Following the cells *)
Theorem tiling_follows_cells nc k : length k = length nc -> (forall i, nth i nc 0 = 0 -> nth i k 0 = 0) -> has_axis nc ->
  t_total (init k nc) = tiles nc k /\
  walk (init k nc) nc = map (fun c => (c, Z.of_nat (tile_of nc k c))) (points (grid nc)).
Proof.
  intros L T H. split; [|now apply walk_ok].
  pose proof (init_total k nc (conj L T)) as E. unfold init. destruct (init_axes k nc). exact E.
Qed.
Print Assumptions tiling_follows_cells.
(** what the numbers mean *)
Theorem tile_numbers nc k : (forall c, is_cell nc c -> tile_of nc k c < tiles nc k) /\
  (forall j, j < tiles nc k -> exists c, is_cell nc c /\ tile_of nc k c = j) /\
  (forall c c', is_cell nc c -> is_cell nc c' -> tile_of nc k c = tile_of nc k c' <-> tile_coords nc k c = tile_coords nc k c').
Proof.
  split; [apply tile_of_lt|]. split; [intros; now apply tile_surj|]. intros c c' C C'. split.
  - intros E. apply (row_inj (tile_counts nc k)); auto using coords_inbox.
  - intros E. unfold tile_of. now rewrite E.
Qed.
Print Assumptions tile_numbers.

(** ** Tiles of the solver *)
Lemma entry_match nc rs s ks gs sz r u : asks nc rs -> populated nc rs s ks gs sz -> In r rs -> entry nc s r u ->
  match_ nc s ks gs r u.
Proof.
  intros A P R (U & E & _ & _). split; auto. destruct (table nc rs s ks gs sz P) as (_ & T0 & _).
  destruct (T0 u U) as (r' & R' & [_ M]). replace r with r'; auto. apply (recs_unique nc rs A); auto. destruct M as [<- _]. exact E.
Qed.
Lemma match_entry nc s ks gs r u : match_ nc s ks gs r u -> entry nc s r u.
Proof. intros [U (E1 & E2 & _ & _ & E3)]. repeat split; auto. Qed.
Lemma least_common_unique n l m m' : least_common n l m -> least_common n l m' -> m = m'.
Proof.
  assert (G : forall m m', least_common n l m -> least_common n l m' -> m' <= m).
  { clear. intros m m' (A & B & C) (A' & B' & C'). destruct (Nat.le_gt_cases m' m); auto. exfalso.
    destruct B as [->|B]; [lia|]. destruct (C' m ltac:(lia)) as (t & T & D). exact (D (B t T)). }
  intros H H'. pose proof (G _ _ H H'). pose proof (G _ _ H' H). lia.
Qed.
Lemma sizes_unique nc rs sz sz' : solver_sizes nc rs sz -> solver_sizes nc rs sz' -> sz = sz'.
Proof.
  intros [L C] [L' C']. apply list_ext; [congruence|]. intros i. specialize (C i). specialize (C' i).
  destruct (nth i nc 0 =? 0); [congruence|]. now apply (least_common_unique _ _ _ _ C).
Qed.
Lemma sub_of_common nc rs sz r c c' : asks nc rs -> common nc rs sz -> In r rs -> is_cell nc c -> is_cell nc c' ->
  tile_of nc (r_tiles r) c = tile_of nc (r_tiles r) c' -> tile_of nc sz c = tile_of nc sz c'.
Proof.
  intros A C R Hc Hc' E. pose proof (common_nested nc rs sz r A C R) as N. apply (as_fits _ _ A) in R.
  apply (proj2 (proj2 (tile_numbers nc (r_tiles r))) c c' Hc Hc') in E.
  rewrite <- !(proj2 (key_tiles nc (r_tiles r) R)) in E.
  unfold tile_of. rewrite <- (nested_coords _ _ _ c N Hc), <- (nested_coords _ _ _ c' N Hc'), E. reflexivity.
Qed.
Theorem solver_tiles_partial nc rs : all_fit nc rs -> chain nc rs -> distinct rs -> rs <> [] -> has_axis nc -> dense nc \/ alike nc rs ->
  exists s sz, populate nc rs = Ok s /\ solver_sizes nc rs sz /\ ntiles s = tiles nc sz /\
    forall r c c', In r rs -> is_cell nc c -> is_cell nc c' ->
      tile_of nc (r_tiles r) c = tile_of nc (r_tiles r) c' -> tile_of nc sz c = tile_of nc sz c'.
Proof.
  intros F C D N H U. assert (A : asks nc rs) by (constructor; auto).
  destruct (populate_ok nc rs A N H U) as (s & ks & gs & sz & E & P). exists s, sz. split; [auto|]. split; [apply (q_common _ _ _ _ _ _ P)|].
  split; [apply (ntiles_ok _ _ _ _ _ _ P)|]. intros r c c' R Hc Hc'. apply (sub_of_common nc rs); auto. apply (q_common _ _ _ _ _ _ P).
Qed.
Print Assumptions solver_tiles_partial.

(** ** Unknowns *)
Theorem solver_unknowns_partial nc rs sz : all_fit nc rs -> chain nc rs -> distinct rs -> rs <> [] -> has_axis nc -> dense nc \/ alike nc rs ->
  solver_sizes nc rs sz -> exists s, populate nc rs = Ok s /\ ntiles s = tiles nc sz /\
    (* one line of the table for each entry of the spid map *)
    (forall r, In r rs -> exists u, entry nc s r u) /\ (forall u, In u (s_spids s) -> exists r, In r rs /\ entry nc s r u) /\
    (* one unknown per spid and tile *)
    (forall r u r' u' c c', In r rs -> In r' rs -> entry nc s r u -> entry nc s r' u' -> is_cell nc c -> is_cell nc c' ->
       unknown nc sz s r u c = unknown nc sz s r' u' c' <-> r = r' /\ tile_of nc (r_tiles r) c = tile_of nc (r_tiles r) c') /\
    (* in one subsolver per solve group and tile of the solver *)
    (forall r u r' u' c c', In r rs -> In r' rs -> entry nc s r u -> entry nc s r' u' -> is_cell nc c -> is_cell nc c' ->
       fst (unknown nc sz s r u c) = fst (unknown nc sz s r' u' c') <-> r_group r = r_group r' /\ tile_of nc sz c = tile_of nc sz c') /\
    (* and no others: the unknowns of a subsolver are numbered from 0 without gaps *)
    (forall g i, i < ntiles s -> forall x, x < nth i (nth g (s_nuk s) []) 0 <->
       exists r u c, In r rs /\ entry nc s r u /\ is_cell nc c /\ i_group (u_info u) = g /\ tile_of nc sz c = i /\ snd (unknown nc sz s r u c) = x) /\
    s_num s = list_sum (map (fun r => tiles nc (r_tiles r)) rs).
Proof.
  intros F C D N H U S. assert (A : asks nc rs) by (constructor; auto).
  destruct (populate_ok nc rs A N H U) as (s & ks & gs & sz' & E & P).
  assert (sz' = sz) as -> by (apply (sizes_unique nc rs); auto; apply (q_common _ _ _ _ _ _ P)).
  pose proof (table nc rs s ks gs sz P) as (T1 & T2 & _).
  exists s. split; [auto|]. split; [apply (ntiles_ok _ _ _ _ _ _ P)|].
  split. { intros r R. destruct (T1 r R) as (u & M). exists u. now apply match_entry with ks gs. }
  split. { intros u Hu. destruct (T2 u Hu) as (r & R & M). exists r. split; auto. now apply match_entry with ks gs. }
  split; [|split; [|split; [|apply (q_num _ _ _ _ _ _ P)]]].
  - intros r u r' u' c c' R R' Eu Eu' Hc Hc'.
    pose proof (entry_match _ _ _ _ _ _ _ _ A P R Eu) as M. pose proof (entry_match _ _ _ _ _ _ _ _ A P R' Eu') as M'. split.
    + intros X. unfold unknown in X. injection X as X1 X2.
      destruct (unknown_inj _ _ _ _ _ _ A P r u r' u' c c' R R' M M' Hc Hc' X1 X2) as (_ & B & B'). auto.
    + intros [<- X]. rewrite (match_unique _ _ _ _ _ _ P r u u' M M') in *. unfold unknown. rewrite X.
      rewrite (sub_of_common nc rs sz r c c' A S R Hc Hc' X). reflexivity.
  - intros r u r' u' c c' R R' Eu Eu' Hc Hc'.
    pose proof (entry_match _ _ _ _ _ _ _ _ A P R Eu) as M. pose proof (entry_match _ _ _ _ _ _ _ _ A P R' Eu') as M'.
    rewrite <- (groups_iff _ _ _ _ _ _ P r u r' u' M M'). cbn [fst unknown]. split.
    + intros X. apply (psub_inj _ _ _ _ _ _ P) in X; auto using tile_of_lt.
    + intros [X Y]. now rewrite X, Y.
  - intros g i I x. rewrite (ntiles_ok _ _ _ _ _ _ P) in I.
    change (nth i (nth g (s_nuk s) []) 0) with (at0 (row (s_nuk s) g) i). rewrite (subsolver_full _ _ _ _ _ _ A P g i x I). split.
    + intros (_ & r & u & c & R & M & Hc & G & Ei & Ex). exists r, u, c. split; [auto|]. split; [now apply match_entry with ks gs|]. auto.
    + intros (r & u & c & R & Eu & Hc & G & Ei & Ex). split; [auto|]. exists r, u, c. split; [auto|].
      split; [now apply (entry_match _ _ _ _ _ _ _ _ A P R)|]. auto.
Qed.
Print Assumptions solver_unknowns_partial.

Lemma perm_nuk node a b : Permutation a b ->
  list_sum (map i_nuk (filter (fun x => (i_node x =? node)%Z) a)) = list_sum (map i_nuk (filter (fun x => (i_node x =? node)%Z) b)).
Proof.
  induction 1 as [|x a b Pm IH|x y a|a b c P1 I1 P2 I2]; [reflexivity| | |congruence].
  - cbn. destruct (i_node x =? node)%Z; cbn; [f_equal|]; exact IH.
  - cbn. destruct (i_node x =? node)%Z, (i_node y =? node)%Z; cbn; lia.
Qed.
(** ** Updates: the unknowns of the node, each once *)
Theorem solver_updates_partial nc rs sz : all_fit nc rs -> chain nc rs -> distinct rs -> rs <> [] -> has_axis nc -> dense nc \/ alike nc rs ->
  solver_sizes nc rs sz -> exists s, populate nc rs = Ok s /\ forall node,
    (forall x, In x (updates s node) <-> exists r u c, In r rs /\ entry nc s r u /\ r_node r = node /\ is_cell nc c /\ x = unknown nc sz s r u c) /\
    length (updates s node) = list_sum (map (fun r => tiles nc (r_tiles r)) (filter (fun r => (r_node r =? node)%Z) rs)).
Proof.
  intros F C D N H U S. assert (A : asks nc rs) by (constructor; auto).
  destruct (populate_ok nc rs A N H U) as (s & ks & gs & sz' & E & P).
  assert (sz' = sz) as -> by (apply (sizes_unique nc rs); auto; apply (q_common _ _ _ _ _ _ P)).
  pose proof (table nc rs s ks gs sz P) as (T1 & T2 & _).
  exists s. split; [auto|]. intros node. split.
  - intros x. unfold updates, node_spids. rewrite in_concat. split.
    + intros (l & L & X). apply in_map_iff in L as (u & <- & Hu). apply filter_In in Hu as [Hu Nu]. apply Z.eqb_eq in Nu.
      destruct (T2 u Hu) as (r & R & M). destruct (proj1 (spid_updates_In _ _ _ _ _ _ A P r u x R M) X) as (c & Hc & ->).
      exists r, u, c. split; [auto|]. split; [now apply match_entry with ks gs|]. split; [|auto].
      destruct M as [_ (_ & M & _)]. congruence.
    + intros (r & u & c & R & Eu & Nr & Hc & ->). pose proof (entry_match _ _ _ _ _ _ _ _ A P R Eu) as M.
      exists (spid_updates s u). split.
      * apply in_map. apply filter_In. split; [apply M|]. apply Z.eqb_eq. destruct M as [_ (_ & M & _)]. congruence.
      * apply (spid_updates_In _ _ _ _ _ _ A P r u _ R M). exists c. auto.
  - unfold updates, node_spids. destruct (q_spids _ _ _ _ _ _ P) as (spids & ss & Pm & Mt & So & AL).
    assert (IN : map u_info (s_spids s) = spids).
    { clear -AL. revert AL. generalize (repeat (repeat 0 (tiles nc sz)) (length gs)) as n0. generalize (s_nuk s). generalize (s_spids s).
      induction spids as [|x l IH]; intros t n1 n0 E; cbn in E; [injection E as <- _; reflexivity|].
      destruct (alloc _ _) as [a b]. destruct (alloc_all _ _ _ _) as [t1 n2] eqn:E1. injection E as <- _. cbn. f_equal. eapply IH, E1. }
    assert (L1 : length (concat (map (spid_updates s) (filter (fun u => (i_node (u_info u) =? node)%Z) (s_spids s)))) =
      list_sum (map i_nuk (filter (fun x => (i_node x =? node)%Z) spids))).
    { rewrite <- IN. assert (Q : forall l, (forall u, In u l -> In u (s_spids s)) ->
        length (concat (map (spid_updates s) (filter (fun u => (i_node (u_info u) =? node)%Z) l))) =
        list_sum (map i_nuk (filter (fun x => (i_node x =? node)%Z) (map u_info l)))).
      { induction l as [|u l IH]; intros Hl; [reflexivity|]. cbn [filter map]. destruct (i_node (u_info u) =? node)%Z.
        - cbn [map concat list_sum fold_right]. rewrite app_length, IH by (intros; apply Hl; now right).
          destruct (T2 u (Hl u (or_introl eq_refl))) as (r & R & M). rewrite (spid_updates_length _ _ _ _ _ _ A P r u R M).
          destruct M as [_ (_ & _ & _ & _ & ->)]. reflexivity.
        - apply IH. intros; apply Hl; now right. }
      apply Q. auto. }
    rewrite L1, (perm_nuk node _ _ Pm). clear -Mt.
    induction Mt as [|r x l l' M F IH]; [reflexivity|]. cbn. destruct M as (_ & -> & _ & _ & E).
    destruct (r_node r =? node)%Z; cbn; [rewrite E; f_equal; exact IH|exact IH].
Qed.
Print Assumptions solver_updates_partial.

(** ** All parms tiled alike: equations and updates meet *)
Lemma grid_cells nc c : In c (points (grid nc)) -> is_cell nc c.
Proof.
  intros H. apply points_In in H. rewrite grid_first in H.
  assert (G : forall r, (forall i, r <= i -> nth i nc 0 = 0) -> inbox (map extent (firstn r nc)) c -> is_cell nc c).
  { clear H. revert c. induction nc as [|n nc IH]; intros c r Z I.
    - rewrite firstn_nil in I. now inversion I.
    - destruct r as [|r].
      + cbn in I. inversion I; subst. cbn. split; [apply extent_pos|]. apply (IH [] 0); [|constructor]. intros i _. apply (Z (S i)). lia.
      + cbn in I. inversion I as [|? ? x c' X I']; subst. cbn. split; [auto|]. apply (IH c' r); auto. intros i Hi. apply (Z (S i)). lia. }
  apply (G (last_defined nc)); auto. intros i. apply last_defined_zero.
Qed.
Lemma nth_error_concat {B} (ls : list (list B)) n a j l : (forall l, In l ls -> length l = n) -> nth_error ls a = Some l -> j < n ->
  nth_error (concat ls) (a * n + j) = nth_error l j.
Proof.
  revert a. induction ls as [|x ls IH]; intros a H E J; [destruct a; discriminate|]. cbn.
  pose proof (H x (or_introl eq_refl)) as X. destruct a as [|a]; cbn in E.
  - injection E as ->. cbn. now rewrite nth_error_app1 by lia.
  - rewrite nth_error_app2 by (cbn; lia). replace (S a * n + j - length x) with (a * n + j) by (cbn; lia).
    apply IH; auto. intros l' L. apply H. now right.
Qed.
Lemma own_super nc sz l : tidy nc sz -> good_super nc sz sz l -> map Z.to_nat l = seq 0 (tiles nc sz).
Proof.
  intros T [L G]. apply list_ext; [now rewrite map_length, seq_length|]. intros j.
  destruct (Nat.lt_ge_cases j (tiles nc sz)) as [H|H].
  - destruct (tile_surj nc sz j H) as (c & C & <-). rewrite seq_nth by auto. cbn.
    apply nth_error_nth. rewrite nth_error_map, (G c C). cbn. now rewrite Nat2Z.id.
  - rewrite !nth_overflow; auto; [now rewrite seq_length|now rewrite map_length, L].
Qed.
Theorem solver_alike nc rs : all_fit nc rs -> alike nc rs -> distinct rs -> rs <> [] -> has_axis nc ->
  exists s, populate nc rs = Ok s /\ (forall r, In r rs -> exists u, entry nc s r u) /\ forall r u, In r rs -> entry nc s r u ->
    let p := r_tiles r in
    derivatives s u = map (fun c => (c, Some (unknown nc p s r u c))) (points (grid nc)) /\
    StronglySorted Z.lt (map (fun v => i_spid (u_info v)) (node_spids s (r_node r))) /\
    In u (node_spids s (r_node r)) /\
    forall a c, nth_error (node_spids s (r_node r)) a = Some u -> is_cell nc c ->
      nth_error (updates s (r_node r)) (a * tiles nc p + tile_of nc p c) = Some (unknown nc p s r u c).
Proof.
  intros F U D N H. assert (C : chain nc rs) by (intros r r' R R'; left; intros i; rewrite (U r r' i R R'); auto).
  assert (A : asks nc rs) by (constructor; auto).
  destruct (populate_ok nc rs A N H (or_intror U)) as (s & ks & gs & sz & E & P). exists s. split; [auto|].
  pose proof (table nc rs s ks gs sz P) as (T1 & T2 & T3 & T4 & _).
  split. { intros r R. destruct (T1 r R) as (u & M). exists u. now apply match_entry with ks gs. }
  intros r u R Eu p. pose proof (entry_match _ _ _ _ _ _ _ _ A P R Eu) as M.
  assert (SZ : forall r', In r' rs -> sz = key nc (r_tiles r')) by (intros r' R'; apply (uniform_common nc rs); auto; apply (q_common _ _ _ _ _ _ P)).
  assert (TO : forall c, tile_of nc sz c = tile_of nc p c) by (intros c; rewrite (SZ r R); apply key_tile_of, F, R).
  assert (UN : forall c, unknown nc p s r u c = unknown nc sz s r u c) by (intros c; unfold unknown; now rewrite TO).
  assert (TS : tidy nc sz) by (apply (common_tidy _ _ _ (q_common _ _ _ _ _ _ P))).
  assert (TT : tiles nc p = tiles nc sz).
  { rewrite (SZ r R). unfold tiles, p. now destruct (key_tiles nc (r_tiles r) (F r R)) as [-> _]. }
  split; [|split; [|split]].
  - unfold derivatives. rewrite (q_til _ _ _ _ _ _ P), (tab_at _ _ _ _ (q_iso _ _ _ _ _ _ P)), (q_nc _ _ _ _ _ _ P).
    rewrite walk_ok by auto. rewrite map_map. apply map_ext_in. intros c Hc. apply grid_cells in Hc. cbn [fst snd]. f_equal.
    unfold eq_unknown. rewrite Nat2Z.id. destruct (match_ssuki _ _ _ _ _ _ A P r u c R M Hc) as (k & K1 & _). fold p in K1.
    rewrite TO, K1. unfold unknown. fold p. now rewrite (nth_error_nth _ _ _ K1).
  - unfold node_spids. clear -T3. induction (s_spids s) as [|x l IH]; [constructor|]. cbn in T3 |- *. apply StronglySorted_inv in T3 as [S G].
    destruct (i_node (u_info x) =? r_node r)%Z; cbn; auto. constructor; auto. apply Forall_forall. intros z Z.
    apply in_map_iff in Z as (v & <- & V). apply filter_In in V as [V _]. rewrite Forall_forall in G. apply G. now apply in_map.
  - apply filter_In. split; [apply M|]. apply Z.eqb_eq. apply Eu.
  - intros a c Ha Hc. unfold updates. rewrite (nth_error_concat _ (tiles nc p) a _ (spid_updates s u)).
    + rewrite (spid_updates_eq _ _ _ _ _ _ P u (proj1 M)).
      pose proof (match_good _ _ _ _ _ _ P r u R M) as G. rewrite <- (SZ r R) in G.
      assert (CN : forall i, i < tiles nc sz -> hi u i - lo u i = 1).
      { intros i Hi. destruct (T4 u (proj1 M)) as (_ & _ & _ & _ & T). destruct (T i Hi) as (-> & _ & _).
        unfold cnt. rewrite (own_super _ _ _ TS G). rewrite (proj1 (NoDup_count_occ' Nat.eq_dec (seq 0 (tiles nc sz)))); [lia|apply seq_NoDup|apply in_seq; lia]. }
      assert (Q : concat (map (fun i => map (fun k => (psubsolver s i (i_group (u_info u)), k)) (seq (lo u i) (hi u i - lo u i))) (seq 0 (tiles nc sz))) =
        map (fun i => (psubsolver s i (i_group (u_info u)), lo u i)) (seq 0 (tiles nc sz))).
      { assert (Q : forall l, (forall i, In i l -> i < tiles nc sz) ->
          concat (map (fun i => map (fun k => (psubsolver s i (i_group (u_info u)), k)) (seq (lo u i) (hi u i - lo u i))) l) =
          map (fun i => (psubsolver s i (i_group (u_info u)), lo u i)) l).
        { induction l as [|i l IH]; intros L; [reflexivity|]. cbn [map concat]. rewrite CN by (apply L; now left). cbn. f_equal. apply IH. intros; apply L; now right. }
        apply Q. intros i Hi. apply in_seq in Hi. lia. }
      rewrite Q. pose proof (tile_of_lt nc sz c Hc) as LT. rewrite <- TO.
      rewrite nth_error_map, nth_error_nth' with (d := 0) by (now rewrite seq_length). rewrite seq_nth by auto. cbn [option_map Nat.add]. f_equal.
      rewrite UN. unfold unknown. f_equal. destruct (match_ssuki _ _ _ _ _ _ A P r u c R M Hc) as (k & K1 & K2 & K3).
      rewrite (nth_error_nth _ _ _ K1). pose proof (CN _ LT). lia.
    + intros l L. apply in_map_iff in L as (v & <- & V). apply filter_In in V as [V _]. destruct (T2 v V) as (r' & R' & M').
      rewrite (spid_updates_length _ _ _ _ _ _ A P r' v R' M'), TT, (SZ r' R'). unfold tiles. now destruct (key_tiles nc _ (F r' R')) as [-> _].
    + rewrite nth_error_map, Ha. reflexivity.
    + rewrite TT, <- TO. now apply tile_of_lt.
Qed.
Print Assumptions solver_alike.

(** ** Where it goes wrong *)
Definition rec (spid node group : Z) (tiles : list nat) : spidrec := {| r_spid := spid; r_node := node; r_group := group; r_tiles := tiles |}.
Definition made (nc : list nat) (rs : list spidrec) : solver :=
  match populate nc rs with Ok s => s | _ => {| s_nc := []; s_tilings := []; s_isolver := 0; s_super := []; s_groups := 0; s_spids := []; s_nuk := []; s_num := 0 |} end.
Definition line (s : solver) (i : nat) : uktable :=
  nth i (s_spids s) {| u_info := {| i_spid := 0; i_node := 0; i_group := 0; i_tiling := 0; i_nuk := 0 |}; u_ssuki := []; u_slices := [] |}.
Lemma fits_dec nc p : forallb (fun i => nth i p 0 <=? nth i nc 0) (seq 0 (length p)) = true -> fits nc p.
Proof.
  intros H i. destruct (Nat.lt_ge_cases i (length p)) as [L|L]; [|now rewrite nth_overflow; [lia|]].
  rewrite forallb_forall in H. apply Nat.leb_le, H, in_seq. lia.
Qed.
Lemma finer_dec nc p q : forallb (fun i => len_at nc p i <=? len_at nc q i) (seq 0 (length nc + length p + length q)) = true -> finer nc p q.
Proof.
  intros H i. destruct (Nat.lt_ge_cases i (length nc + length p + length q)) as [L|L].
  - rewrite forallb_forall in H. apply Nat.leb_le, H, in_seq. lia.
  - unfold len_at. rewrite !(nth_overflow _ 0 (n := i)) by lia. reflexivity.
Qed.
Lemma dense_dec nc : forallb (fun i => forallb (fun j => negb ((i <? j) && (nth i nc 0 =? 0) && negb (nth j nc 0 =? 0))) (seq 0 (length nc))) (seq 0 (length nc)) = true -> dense nc.
Proof.
  intros H i j L Z. destruct (Nat.lt_ge_cases j (length nc)) as [J|J]; [|now apply nth_overflow].
  rewrite forallb_forall in H. specialize (H i ltac:(apply in_seq; lia)). rewrite forallb_forall in H.
  specialize (H j ltac:(apply in_seq; lia)). rewrite Z in H. destruct (Nat.ltb_spec i j); [|lia]. cbn in H.
  destruct (Nat.eqb_spec (nth j nc 0) 0); [auto|discriminate].
Qed.
Lemma fit2 nc a b : fits nc (r_tiles a) -> fits nc (r_tiles b) -> all_fit nc [a; b].
Proof. intros A B x [<-|[<-|[]]]; auto. Qed.
Lemma chain2 nc a b : finer nc (r_tiles a) (r_tiles b) -> chain nc [a; b].
Proof. intros H x y [<-|[<-|[]]] [<-|[<-|[]]]; auto; left; intros i; auto. Qed.
Lemma distinct2 a b : r_spid a <> r_spid b -> distinct [a; b].
Proof. intros H. repeat constructor; cbn; intuition. Qed.

(** Equations (the derivatives of a parm with respect to its coefficient in a tile come from the cells of that
    tile).  A parm that has one value per time slot next to a parm with a single value: all equations go to the
    first time slot. *)
Definition mixed : list spidrec := [rec 1 10 0 [1; 0]; rec 2 11 0 []].
Theorem solver_mixed_tilings_refuted : ~ forall nc rs s r u c c' x, all_fit nc rs -> chain nc rs -> distinct rs -> has_axis nc -> dense nc ->
  populate nc rs = Ok s -> In r rs -> entry nc s r u -> In (c, x) (derivatives s u) -> In (c', x) (derivatives s u) ->
  tile_of nc (r_tiles r) c = tile_of nc (r_tiles r) c'.
Proof.
  intros H. specialize (H [4; 2] mixed (made [4; 2] mixed) (rec 1 10 0 [1; 0]) (line (made [4; 2] mixed) 0) [0; 0] [3; 1] (Some (0, 0))).
  enough (0 = 3) by discriminate. apply H.
  - apply fit2; now apply fits_dec.
  - apply chain2. now apply finer_dec.
  - now apply distinct2.
  - exists 0. discriminate.
  - now apply dense_dec.
  - vm_compute. reflexivity.
  - now left.
  - unfold entry. vm_compute. auto.
  - vm_compute. auto.
  - vm_compute. auto 10.
Qed.
Print Assumptions solver_mixed_tilings_refuted.

(** Updates in the order of the tiles.  A parm with a value for every cell of a 2 by 2 grid next to one with a
    value per frequency channel: the updates for cells (0,1) and (1,0) are exchanged. *)
Definition twice : list spidrec := [rec 1 10 0 [1; 1]; rec 2 11 0 [2; 1]].
Theorem solver_update_order_refuted : ~ forall nc rs sz s r u a c, all_fit nc rs -> chain nc rs -> distinct rs -> has_axis nc -> dense nc ->
  populate nc rs = Ok s -> solver_sizes nc rs sz -> In r rs -> entry nc s r u -> is_cell nc c -> nth_error (node_spids s (r_node r)) a = Some u ->
  tiles nc (r_tiles r) * length (node_spids s (r_node r)) = length (updates s (r_node r)) ->
  nth_error (updates s (r_node r)) (a * tiles nc (r_tiles r) + tile_of nc (r_tiles r) c) = Some (unknown nc sz s r u c).
Proof.
  intros H. specialize (H [2; 2] twice [2; 1] (made [2; 2] twice) (rec 1 10 0 [1; 1]) (line (made [2; 2] twice) 0) 0 [0; 1]).
  enough (Some (0, 1) = Some (1, 0)) by discriminate. apply H.
  - apply fit2; now apply fits_dec.
  - apply chain2. now apply finer_dec.
  - now apply distinct2.
  - exists 0. discriminate.
  - now apply dense_dec.
  - vm_compute. reflexivity.
  - split; [reflexivity|]. intros [|[|i]]; cbn.
    + split; [lia|]. split; [now left|]. intros m M. exists 2.
      split; [cbn; auto|].
      intros [q Q]. lia.
    + split; [lia|]. split; [|intros; lia]. right. intros t [<-|[<-|[]]]; apply Nat.divide_refl.
    + destruct i; reflexivity.
  - now left.
  - unfold entry. vm_compute. auto.
  - cbn. auto.
  - reflexivity.
  - reflexivity.
Qed.
Print Assumptions solver_update_order_refuted.

(** The number of unknowns.  A parm with a value per time slot and one with a value per channel: the second is
    tiled like the first. *)
Definition crossed : list spidrec := [rec 1 10 0 [1; 0]; rec 2 11 0 [0; 1]].
Theorem solver_crossed_tilings_refuted : ~ forall nc rs s r u, all_fit nc rs -> distinct rs -> has_axis nc -> dense nc ->
  populate nc rs = Ok s -> In r rs -> In u (s_spids s) -> i_spid (u_info u) = r_spid r -> length (u_ssuki u) = tiles nc (r_tiles r).
Proof.
  intros H. specialize (H [4; 6] crossed (made [4; 6] crossed) (rec 2 11 0 [0; 1]) (line (made [4; 6] crossed) 1)).
  enough (4 = 6) by discriminate. apply H.
  - apply fit2; now apply fits_dec.
  - now apply distinct2.
  - exists 0. discriminate.
  - now apply dense_dec.
  - vm_compute. reflexivity.
  - cbn. auto.
  - vm_compute. auto.
  - reflexivity.
Qed.
Print Assumptions solver_crossed_tilings_refuted.

(** Cells without the first axis: integer division by zero *)
Definition freq_only : list spidrec := [rec 1 10 0 [0; 1]; rec 2 11 0 []].
Theorem solver_missing_axis_refuted : ~ forall nc rs, all_fit nc rs -> chain nc rs -> distinct rs -> rs <> [] -> has_axis nc ->
  exists s, populate nc rs = Ok s.
Proof.
  intros H. destruct (H [0; 4] freq_only) as [s E].
  - apply fit2; now apply fits_dec.
  - apply chain2. now apply finer_dec.
  - now apply distinct2.
  - discriminate.
  - exists 1. discriminate.
  - vm_compute in E. discriminate.
Qed.
Print Assumptions solver_missing_axis_refuted.

(** Tiles larger than the grid: a subsolver without unknowns of some parm, against the DbgAssert at Solver.cc:512.
    A second parm has twice as coarse tiles in the second axis, and the solver works with the tiles of the first *)
Definition large : list spidrec := [rec 1 10 0 [10; 1]; rec 2 11 0 [10; 2]].
Theorem solver_large_tiles_refuted : ~ forall nc rs s u i, chain nc rs -> distinct rs -> has_axis nc -> dense nc ->
  populate nc rs = Ok s -> In u (s_spids s) -> i < ntiles s -> let '(a, b) := nth i (u_slices u) (0, 0) in a < b.
Proof.
  intros H. specialize (H [4; 4] large (made [4; 4] large) (line (made [4; 4] large) 1) 3).
  enough (1 < 1) by lia. apply H.
  - apply chain2. now apply finer_dec.
  - now apply distinct2.
  - exists 0. discriminate.
  - now apply dense_dec.
  - vm_compute. reflexivity.
  - vm_compute. auto.
  - vm_compute. lia.
Qed.
Print Assumptions solver_large_tiles_refuted.

(** ** Examples *)
Example ex_walk : walk (init [2; 3; 0] [3; 4; 0]) [3; 4; 0] =
  [([0; 0], 0%Z); ([0; 1], 0%Z); ([0; 2], 0%Z); ([0; 3], 1%Z); ([1; 0], 0%Z); ([1; 1], 0%Z); ([1; 2], 0%Z); ([1; 3], 1%Z);
   ([2; 0], 2%Z); ([2; 1], 2%Z); ([2; 2], 2%Z); ([2; 3], 3%Z)].
Proof. reflexivity. Qed.
Definition trio : list spidrec := [rec 5 10 7 [2; 2]; rec 3 10 7 [2; 2]; rec 4 11 8 [2; 2]].
Definition nc0 : list nat := [4; 3; 0; 0; 0; 0; 0; 0].
Example ex_hyp : all_fit nc0 trio /\ alike nc0 trio /\ distinct trio /\ has_axis nc0 /\ dense nc0.
Proof.
  split. { intros r [<-|[<-|[<-|[]]]]; now apply fits_dec. }
  split. { intros r r' i [<-|[<-|[<-|[]]]] [<-|[<-|[<-|[]]]]; reflexivity. }
  split. { repeat constructor; cbn; intuition discriminate. }
  split; [exists 0; discriminate|]. now apply dense_dec.
Qed.
Example ex_trio : let s := made nc0 trio in
  (map u_ssuki (s_spids s), s_nuk s, updates s 10, updates s 11, s_num s) =
  ([[0; 0; 0; 0]; [0; 0; 0; 0]; [1; 1; 1; 1]], [[2; 2; 2; 2]; [1; 1; 1; 1]],
   [(0, 0); (1, 0); (2, 0); (3, 0); (0, 1); (1, 1); (2, 1); (3, 1)], [(4, 0); (5, 0); (6, 0); (7, 0)], 12) /\
  nth 5 (derivatives s (line s 2)) ([], None) = ([1; 2], Some (1, 1)).
Proof. vm_compute. split; reflexivity. Qed.
(** solver tiles of 6 by 3 cells around tiles of 2 and 3 *)
Example ex_common : let s := made [12; 3] [rec 1 10 0 [2; 3]; rec 2 11 0 [2; 3]; rec 3 11 0 [3; 3]] in
  (fst (nth (s_isolver s) (s_tilings s) ([], init [] [])), s_super s, map u_ssuki (s_spids s)) =
  ([6; 3], [map Z.of_nat [0; 0; 0; 1; 1; 1]; map Z.of_nat [0; 0; 1; 1]; map Z.of_nat [0; 1]],
   [[0; 1; 2; 0; 1; 2]; [3; 4; 5; 3; 4; 5]; [6; 7; 6; 7]]).
Proof. reflexivity. Qed.
