(** Proofs about Slv_Model: the unknowns. *)
From Coq Require Import Permutation Sorted.
From Verif Require Import Base Slv_Model Slv_Spec Slv_Proofs Slv_Map Slv_Stage Slv_Super.

Definition cnt (i : nat) (l : list Z) : nat := count_occ Nat.eq_dec (map Z.to_nat l) i.
Definition inrange (n : nat) (l : list Z) : Prop := Forall (fun z => Z.to_nat z < n) l.
Lemma bump_length l i : length (bump l i) = length l.
Proof. revert i. induction l; intros [|i]; cbn; auto. Qed.
Lemma bump_at l i j : i < length l -> at0 (bump l i) j = at0 l j + (if Nat.eq_dec i j then 1 else 0).
Proof.
  unfold at0. revert i j. induction l as [|x l IH]; intros i j L; cbn in L; [lia|].
  destruct i as [|i], j as [|j]; cbn [bump nth]; try (cbn; lia). rewrite IH by lia. destruct (Nat.eq_dec i j), (Nat.eq_dec (S i) (S j)); lia.
Qed.
Lemma alloc_ok n super nuk uks nuk' : inrange n super -> length nuk = n -> alloc super nuk = (uks, nuk') ->
  length uks = length super /\ length nuk' = n /\ (forall i, at0 nuk' i = at0 nuk i + cnt i super) /\
  forall j z, nth_error super j = Some z -> nth_error uks j = Some (at0 nuk (Z.to_nat z) + cnt (Z.to_nat z) (firstn j super)).
Proof.
  intros R. revert nuk uks nuk'. induction R as [|z super Hz R IH]; intros nuk uks nuk' L E; cbn in E.
  - injection E as <- <-. repeat split; auto. intros [|j] z; discriminate.
  - destruct (alloc super (bump nuk (Z.to_nat z))) as [uks1 nuk1] eqn:E1. injection E as <- <-.
    destruct (IH _ _ _ (eq_trans (bump_length _ _) L) E1) as (A & B & C & D).
    split; [cbn; lia|]. split; [auto|]. split.
    + intros i. rewrite C, bump_at by lia. unfold cnt. cbn. destruct (Nat.eq_dec (Z.to_nat z) i); lia.
    + intros [|j] z' Hj; cbn in Hj.
      * injection Hj as <-. cbn. f_equal. unfold cnt. cbn. lia.
      * cbn. rewrite (D j z' Hj). f_equal. rewrite bump_at by lia. unfold cnt. cbn. destruct (Nat.eq_dec (Z.to_nat z) (Z.to_nat z')); lia.
Qed.
Lemma cnt_firstn_lt i j j' z l : j < j' -> nth_error l j = Some z -> Z.to_nat z = i -> cnt i (firstn j l) < cnt i (firstn j' l).
Proof.
  revert j j'. induction l as [|x l IH]; intros [|j] [|j'] L E Z; try discriminate; try lia.
  - cbn in E. injection E as ->. unfold cnt. cbn. destruct (Nat.eq_dec (Z.to_nat z) i); lia.
  - cbn in E. specialize (IH j j' ltac:(lia) E Z). unfold cnt in *. cbn. destruct (Nat.eq_dec (Z.to_nat x) i); lia.
Qed.
Lemma cnt_firstn_all i j z l : nth_error l j = Some z -> Z.to_nat z = i -> cnt i (firstn j l) < cnt i l.
Proof.
  intros E Z. rewrite <- (firstn_all l) at 2. apply cnt_firstn_lt with z; auto. apply nth_error_Some. congruence.
Qed.
Lemma cnt_onto i k l : k < cnt i l -> exists j z, nth_error l j = Some z /\ Z.to_nat z = i /\ cnt i (firstn j l) = k.
Proof.
  revert k. induction l as [|x l IH]; intros k H; [cbn in H; lia|]. unfold cnt in H. cbn in H.
  destruct (Nat.eq_dec (Z.to_nat x) i) as [E|E].
  - destruct k as [|k]; [exists 0, x; auto|]. destruct (IH k) as (j & z & A & B & C); [unfold cnt; lia|].
    exists (S j), z. repeat split; auto. unfold cnt in *. cbn. destruct (Nat.eq_dec (Z.to_nat x) i); [lia|contradiction].
  - destruct (IH k) as (j & z & A & B & C); [unfold cnt; lia|].
    exists (S j), z. repeat split; auto. unfold cnt in *. cbn. destruct (Nat.eq_dec (Z.to_nat x) i); [contradiction|lia].
Qed.
Lemma cnt_sum n l : inrange n l -> list_sum (map (fun i => cnt i l) (seq 0 n)) = length l.
Proof.
  induction 1 as [|z l H R IH].
  - cbn. induction (seq 0 n); auto.
  - cbn [length]. rewrite <- IH. clear IH R.
    assert (G : forall a m, a <= Z.to_nat z < a + m -> list_sum (map (fun i => cnt i (z :: l)) (seq a m)) = S (list_sum (map (fun i => cnt i l) (seq a m)))).
    { intros a m. revert a. induction m as [|m IH]; intros a B; [lia|]. cbn [seq map list_sum fold_right].
      unfold cnt at 1. cbn [map count_occ]. fold (cnt a l). destruct (Nat.eq_dec (Z.to_nat z) a) as [E|E].
      - assert (Q : map (fun i => cnt i (z :: l)) (seq (S a) m) = map (fun i => cnt i l) (seq (S a) m)).
        { apply map_ext_in. intros i Hi. apply in_seq in Hi. unfold cnt. cbn. destruct (Nat.eq_dec (Z.to_nat z) i); lia. }
        rewrite Q. reflexivity.
      - change (list_sum (cnt a l :: ?x)) with (cnt a l + list_sum x).
        pose proof (IH (S a) ltac:(lia)) as Q. unfold list_sum in Q. rewrite Q. lia. }
    apply G. lia.
Qed.

Definition lo (u : uktable) (i : nat) : nat := fst (nth i (u_slices u) (0, 0)).
Definition hi (u : uktable) (i : nat) : nat := snd (nth i (u_slices u) (0, 0)).
Lemma slices_at n a b i : i < n -> nth i (slices n a b) (0, 0) = (at0 a i, at0 b i).
Proof.
  intros H. unfold slices. rewrite nth_indep with (d' := (fun i => (at0 a i, at0 b i)) 0) by (now rewrite map_length, seq_length).
  rewrite (map_nth (fun i => (at0 a i, at0 b i))). rewrite seq_nth by auto. reflexivity.
Qed.
Definition row (nuk : list (list nat)) (g : nat) : list nat := nth g nuk [].
Lemma put_row l g x g' : g < length l -> row (put_group l g x) g' = if Nat.eq_dec g g' then x else row l g'.
Proof.
  unfold row. revert g g'. induction l as [|y l IH]; intros g g' L; cbn in L; [lia|].
  destruct g as [|g], g' as [|g']; cbn [put_group nth]; auto. rewrite IH by lia. destruct (Nat.eq_dec g g'), (Nat.eq_dec (S g) (S g')); auto; lia.
Qed.
Lemma put_length l g x : length (put_group l g x) = length l.
Proof. revert g. induction l; intros [|g]; cbn; auto. Qed.
Definition sup (super : list (list Z)) (u : spinfo) : list Z := nth (i_tiling u) super [].
Definition shaped (n m : nat) (nuk : list (list nat)) : Prop := length nuk = m /\ forall g, g < m -> length (row nuk g) = n.
(** what one spid got *)
Definition got (n : nat) (super : list (list Z)) (nuk nuk' : list (list nat)) (u : uktable) : Prop :=
  length (u_ssuki u) = length (sup super (u_info u)) /\
  (forall j z, nth_error (sup super (u_info u)) j = Some z ->
     nth_error (u_ssuki u) j = Some (lo u (Z.to_nat z) + cnt (Z.to_nat z) (firstn j (sup super (u_info u))))) /\
  length (u_slices u) = n /\
  forall i, i < n -> hi u i = lo u i + cnt i (sup super (u_info u)) /\
     at0 (row nuk (i_group (u_info u))) i <= lo u i /\ hi u i <= at0 (row nuk' (i_group (u_info u))) i.
Lemma alloc_all_ok n m super spids nuk l nuk' :
  alloc_all n super spids nuk = (l, nuk') -> shaped n m nuk ->
  (forall s, In s spids -> i_group s < m /\ inrange n (sup super s)) ->
  shaped n m nuk' /\ map u_info l = spids /\
  (forall g i, at0 (row nuk g) i <= at0 (row nuk' g) i) /\
  Forall (got n super nuk nuk') l /\
  (forall g i x, i < n -> at0 (row nuk g) i <= x < at0 (row nuk' g) i -> exists u, In u l /\ i_group (u_info u) = g /\ lo u i <= x < hi u i) /\
  ForallOrdPairs (fun u u' => i_group (u_info u) = i_group (u_info u') -> forall i, i < n -> hi u i <= lo u' i) l.
Proof.
  revert nuk l nuk'. induction spids as [|s spids IH]; intros nuk l nuk' E S H; cbn in E.
  - injection E as <- <-. split; [auto|]. split; [reflexivity|]. split; [auto|]. split; [constructor|]. split; [|constructor]. intros; lia.
  - destruct (alloc (nth (i_tiling s) super []) (nth (i_group s) nuk [])) as [uks n1] eqn:A.
    destruct (alloc_all n super spids (put_group nuk (i_group s) n1)) as [l1 nuk1] eqn:E1. injection E as <- <-.
    destruct (H s (or_introl eq_refl)) as [G R]. destruct S as [S1 S2].
    change (nth (i_tiling s) super []) with (sup super s) in A. change (nth (i_group s) nuk []) with (row nuk (i_group s)) in *.
    destruct (alloc_ok n _ _ _ _ R (S2 _ G) A) as (A1 & A2 & A3 & A4).
    assert (P : shaped n m (put_group nuk (i_group s) n1)).
    { split; [now rewrite put_length|]. intros g Hg. rewrite put_row by lia. destruct (Nat.eq_dec (i_group s) g); auto. }
    destruct (IH _ _ _ E1 P (fun x X => H x (or_intror X))) as (B1 & B2 & B3 & B4 & B5 & B6).
    set (u := {| u_info := s; u_ssuki := uks; u_slices := slices n (row nuk (i_group s)) n1 |}).
    assert (LO : forall i, i < n -> lo u i = at0 (row nuk (i_group s)) i /\ hi u i = at0 n1 i).
    { intros i Hi. unfold lo, hi, u. cbn [u_slices]. rewrite slices_at by auto. auto. }
    assert (UP : forall g i, at0 (row nuk g) i <= at0 (row (put_group nuk (i_group s) n1) g) i).
    { intros g i. rewrite put_row by lia. destruct (Nat.eq_dec (i_group s) g) as [<-|]; [rewrite A3; lia|lia]. }
    split; [auto|]. split; [cbn; now rewrite B2|]. split. { intros g i. eapply Nat.le_trans; [apply UP|apply B3]. }
    split; [|split].
    + constructor.
      * split; [exact A1|]. split.
        { intros j z J.
          assert (Zr : Z.to_nat z < n) by (apply nth_error_In in J; unfold inrange in R; rewrite Forall_forall in R; now apply R).
          rewrite (proj1 (LO _ Zr)). now apply A4. }
        split; [cbn; unfold slices; now rewrite map_length, seq_length|].
        intros i Hi. destruct (LO i Hi) as [-> ->]. split; [apply A3|]. split; [apply Nat.le_refl|].
        specialize (B3 (i_group s) i). rewrite put_row in B3 by lia. destruct (Nat.eq_dec (i_group s) (i_group s)); [exact B3|contradiction].
      * eapply Forall_impl; [|exact B4]. intros v (V1 & V2 & V3 & V4). split; [auto|]. split; [auto|]. split; [auto|].
        intros i Hi. destruct (V4 i Hi) as (W1 & W2 & W3). split; [auto|]. split; [|auto]. eapply Nat.le_trans; [apply UP|exact W2].
    + intros g i x Hi X. destruct (Nat.lt_ge_cases x (at0 (row (put_group nuk (i_group s) n1) g) i)) as [L|L].
      * rewrite put_row in L by lia. destruct (Nat.eq_dec (i_group s) g) as [<-|]; [|lia].
        exists u. split; [now left|]. split; [reflexivity|]. destruct (LO i Hi) as [-> ->]. lia.
      * destruct (B5 g i x Hi) as (v & V1 & V2); [lia|]. exists v. split; [now right|auto].
    + constructor; [|exact B6]. apply Forall_forall. intros v V Eg i Hi. rewrite Forall_forall in B4.
      destruct (B4 v V) as (_ & _ & _ & W). destruct (W i Hi) as (_ & W2 & _). destruct (LO i Hi) as [_ ->].
      rewrite put_row in W2 by lia. cbn in Eg. destruct (Nat.eq_dec (i_group s) (i_group (u_info v))); [exact W2|contradiction].
Qed.

(** ** The populated table *)
Lemma start_lt q n t : 0 < t -> q < (n + t - 1) / t -> q * t < n.
Proof.
  intros T H. destruct (Nat.lt_ge_cases (q * t) n); auto. exfalso.
  assert ((n + t - 1) / t <= q); [|lia]. apply Nat.lt_succ_r. apply Nat.div_lt_upper_bound; [lia|]. nia.
Qed.
Lemma tile_surj nc p j : j < tiles nc p -> exists c, is_cell nc c /\ tile_of nc p c = j.
Proof.
  intros H. destruct (point_inbox (tile_counts nc p) j H) as [I R].
  assert (G : forall q, inbox (tile_counts nc p) q -> exists c, is_cell nc c /\ tile_coords nc p c = q).
  { clear. revert p. induction nc as [|n nc IH]; intros p q Q; cbn in Q; inversion Q as [|? ? x q' X Q']; subst.
    - exists []. split; reflexivity.
    - destruct (IH _ _ Q') as (c & C1 & C2). exists (x * tile_len n (hd 0 p) :: c). pose proof (tile_len_pos n (hd 0 p)) as T.
      cbn. rewrite C2, Nat.div_mul by lia. repeat split; auto. now apply start_lt. }
  destruct (G _ I) as (c & C1 & C2). exists c. split; auto. unfold tile_of. now rewrite C2.
Qed.
Lemma good_range nc k sz l : good_super nc k sz l -> inrange (tiles nc sz) l.
Proof.
  intros [L H]. apply Forall_forall. intros z Z. apply In_nth_error in Z as [j J].
  assert (Hj : j < tiles nc k) by (rewrite <- L; apply nth_error_Some; congruence).
  destruct (tile_surj nc k j Hj) as (c & C & <-). rewrite (H c C) in J. injection J as <-. rewrite Nat2Z.id. now apply tile_of_lt.
Qed.
Lemma good_inv nc k sz l j z : good_super nc k sz l -> nth_error l j = Some z ->
  exists c, is_cell nc c /\ tile_of nc k c = j /\ z = Z.of_nat (tile_of nc sz c).
Proof.
  intros [L H] J. assert (Hj : j < tiles nc k) by (rewrite <- L; apply nth_error_Some; congruence).
  destruct (tile_surj nc k j Hj) as (c & C & E). exists c. repeat split; auto. subst j. rewrite (H c C) in J. congruence.
Qed.
Lemma Forall2_in_l {A B} (R : A -> B -> Prop) l l' a : Forall2 R l l' -> In a l -> exists b, In b l' /\ R a b.
Proof. induction 1 as [|x y l l' H F IH]; intros []; [subst; exists y; split; [now left|auto]|]. destruct IH as (b & I & Q); auto. exists b. split; [now right|auto]. Qed.
Lemma Forall2_in_r {A B} (R : A -> B -> Prop) l l' b : Forall2 R l l' -> In b l' -> exists a, In a l /\ R a b.
Proof. induction 1 as [|x y l l' H F IH]; intros []; [subst; exists x; split; [now left|auto]|]. destruct IH as (a & I & Q); auto. exists a. split; [now right|auto]. Qed.
Lemma repeat_row n m g : g < m -> row (repeat (repeat 0 n) m) g = repeat 0 n.
Proof. unfold row. revert g. induction m; intros [|g] H; cbn; auto; try lia. apply IHm. lia. Qed.
Lemma repeat_row_0 n m g i : at0 (row (repeat (repeat 0 n) m) g) i = 0.
Proof.
  unfold row, at0. destruct (Nat.lt_ge_cases g m) as [H|H].
  - change (nth g (repeat (repeat 0 n) m) []) with (row (repeat (repeat 0 n) m) g). rewrite repeat_row by auto. apply nth_repeat.
  - rewrite (nth_overflow (repeat (repeat 0 n) m)) by (now rewrite repeat_length). now destruct i.
Qed.
Lemma sorted_inj l a b : StronglySorted spid_lt l -> In a l -> In b l -> i_spid a = i_spid b -> a = b.
Proof.
  intros S. induction S as [|x l S IH F]; intros A B E; [contradiction|]. rewrite Forall_forall in F. unfold spid_lt in F.
  destruct A as [<-|A], B as [<-|B]; auto.
  - specialize (F b B). lia.
  - specialize (F a A). lia.
Qed.

Section Table.
Variables (nc : list nat) (rs : list spidrec) (s : solver) (ks : list (list nat)) (gs : list Z) (sz : list nat).
Hypothesis A : asks nc rs.
Hypothesis P : populated nc rs s ks gs sz.
Definition match_ (r : spidrec) (u : uktable) : Prop := In u (s_spids s) /\ matches nc ks gs r (u_info u).

Lemma table : (forall r, In r rs -> exists u, match_ r u) /\ (forall u, In u (s_spids s) -> exists r, In r rs /\ match_ r u) /\
  StronglySorted spid_lt (map u_info (s_spids s)) /\
  (forall u, In u (s_spids s) -> i_group (u_info u) < length gs /\ got (tiles nc sz) (s_super s) (repeat (repeat 0 (tiles nc sz)) (length gs)) (s_nuk s) u) /\
  (forall g i x, i < tiles nc sz -> x < at0 (row (s_nuk s) g) i -> exists u, In u (s_spids s) /\ i_group (u_info u) = g /\ lo u i <= x < hi u i) /\
  ForallOrdPairs (fun u u' => i_group (u_info u) = i_group (u_info u') -> forall i, i < tiles nc sz -> hi u i <= lo u' i) (s_spids s).
Proof.
  destruct (q_spids _ _ _ _ _ _ P) as (spids & ss & Pm & M & So & AL).
  assert (SR : forall x, In x spids -> exists r, In r rs /\ matches nc ks gs r x).
  { intros x X. apply (Permutation_in _ Pm) in X. exact (Forall2_in_r _ _ _ _ M X). }
  assert (RG : forall x, In x spids -> i_group x < length gs /\ inrange (tiles nc sz) (sup (s_super s) x)).
  { intros x X. destruct (SR x X) as (r & R & (_ & _ & G & T & _)). split; [apply nth_error_Some; congruence|].
    apply good_range with (k := key nc (r_tiles r)). now apply (q_super _ _ _ _ _ _ P). }
  assert (SH : shaped (tiles nc sz) (length gs) (repeat (repeat 0 (tiles nc sz)) (length gs))).
  { split; [apply repeat_length|]. intros g G. rewrite repeat_row by auto. apply repeat_length. }
  destruct (alloc_all_ok _ _ _ _ _ _ _ AL SH RG) as (B1 & B2 & B3 & B4 & B5 & B6).
  assert (IU : forall u, In u (s_spids s) -> In (u_info u) spids) by (intros u U; rewrite <- B2; now apply in_map).
  split.
  { intros r R. destruct (Forall2_in_l _ _ _ _ M R) as (x & X & MX). apply (Permutation_in _ (Permutation_sym Pm)) in X.
    rewrite <- B2 in X. apply in_map_iff in X as (u & <- & U). exists u. split; auto. }
  split. { intros u U. destruct (SR _ (IU u U)) as (r & R & Mr). exists r. split; auto. split; auto. }
  split; [now rewrite B2|]. split. { intros u U. split; [apply RG; auto|]. rewrite Forall_forall in B4. now apply B4. }
  split; [|auto]. intros g i x Hi Hx. apply (B5 g i x Hi). rewrite repeat_row_0. lia.
Qed.
Lemma match_good r u : In r rs -> match_ r u -> good_super nc (key nc (r_tiles r)) sz (sup (s_super s) (u_info u)).
Proof. intros R (_ & _ & _ & _ & T & _). now apply (q_super _ _ _ _ _ _ P). Qed.
Lemma match_ssuki r u c : In r rs -> match_ r u -> is_cell nc c ->
  exists k, nth_error (u_ssuki u) (tile_of nc (r_tiles r) c) = Some k /\
    k = lo u (tile_of nc sz c) + cnt (tile_of nc sz c) (firstn (tile_of nc (r_tiles r) c) (sup (s_super s) (u_info u))) /\
    k < hi u (tile_of nc sz c).
Proof.
  intros R M C. pose proof (match_good r u R M) as [_ G]. specialize (G c C). rewrite key_tile_of in G by now apply (as_fits _ _ A).
  destruct table as (_ & _ & _ & T & _). destruct (T u (proj1 M)) as (_ & T1 & T2 & T3 & T4).
  eexists. split; [apply (T2 _ _ G)|]. rewrite Nat2Z.id. split; [reflexivity|].
  destruct (T4 (tile_of nc sz c)) as (-> & _ & _); [now apply tile_of_lt|]. apply Nat.add_lt_mono_l.
  apply cnt_firstn_all with (Z.of_nat (tile_of nc sz c)); auto. apply Nat2Z.id.
Qed.
Lemma match_unique r u u' : match_ r u -> match_ r u' -> u = u'.
Proof.
  intros [U (E & _)] [U' (E' & _)]. destruct table as (_ & _ & So & _).
  assert (Q : forall l, StronglySorted spid_lt (map u_info l) -> In u l -> In u' l -> u = u').
  { induction l as [|x l IH]; intros S B B'; [contradiction|]. cbn in S. apply StronglySorted_inv in S as [S F].
    rewrite Forall_forall in F. unfold spid_lt in F.
    destruct B as [<-|B], B' as [<-|B']; auto.
    - specialize (F _ (in_map u_info _ _ B')). lia.
    - specialize (F _ (in_map u_info _ _ B)). lia. }
  now apply (Q (s_spids s)).
Qed.
Lemma recs_unique r r' : In r rs -> In r' rs -> r_spid r = r_spid r' -> r = r'.
Proof.
  intros R R' E. pose proof (as_spids _ _ A) as N. clear -R R' E N. induction rs as [|x l IH]; [contradiction|]. cbn in N.
  inversion N as [|? ? X Y]; subst. destruct R as [<-|R], R' as [<-|R']; auto.
  - elim X. rewrite E. now apply in_map.
  - elim X. rewrite <- E. now apply in_map.
Qed.
Lemma groups_iff r u r' u' : match_ r u -> match_ r' u' -> i_group (u_info u) = i_group (u_info u') <-> r_group r = r_group r'.
Proof.
  intros (_ & _ & _ & G & _) (_ & _ & _ & G' & _). split; intros E.
  - rewrite E in G. congruence.
  - apply (proj1 (NoDup_nth_error gs) (proj2 (q_groups _ _ _ _ _ _ P))); [apply nth_error_Some; congruence|congruence].
Qed.
Lemma ntiles_ok : ntiles s = tiles nc sz.
Proof.
  unfold ntiles. rewrite (q_til _ _ _ _ _ _ P), (tab_at _ _ _ _ (q_iso _ _ _ _ _ _ P)).
  pose proof (common_tidy _ _ _ (q_common _ _ _ _ _ _ P)) as T. pose proof (init_total sz nc T) as E. unfold init.
  destruct (init_axes sz nc). exact E.
Qed.
Lemma psub_inj g g' i i' : i < tiles nc sz -> i' < tiles nc sz -> psubsolver s i g = psubsolver s i' g' -> g = g' /\ i = i'.
Proof.
  unfold psubsolver. rewrite ntiles_ok. set (n := tiles nc sz). intros L L' E.
  assert (g = g') by (destruct (Nat.lt_trichotomy g g') as [|[|]]; auto; exfalso; nia). subst. split; lia.
Qed.

Lemma unknown_inj r u r' u' c c' : In r rs -> In r' rs -> match_ r u -> match_ r' u' -> is_cell nc c -> is_cell nc c' ->
  psubsolver s (tile_of nc sz c) (i_group (u_info u)) = psubsolver s (tile_of nc sz c') (i_group (u_info u')) ->
  nth (tile_of nc (r_tiles r) c) (u_ssuki u) 0 = nth (tile_of nc (r_tiles r') c') (u_ssuki u') 0 ->
  u = u' /\ r = r' /\ tile_of nc (r_tiles r) c = tile_of nc (r_tiles r) c'.
Proof.
  intros R R' M M' C C' E1 E2.
  destruct (psub_inj _ _ _ _ (tile_of_lt nc sz c C) (tile_of_lt nc sz c' C') E1) as [G I].
  destruct (match_ssuki r u c R M C) as (k & K1 & K2 & K3). destruct (match_ssuki r' u' c' R' M' C') as (k' & K1' & K2' & K3').
  rewrite (nth_error_nth _ _ _ K1), (nth_error_nth _ _ _ K1') in E2. subst k'.
  destruct table as (_ & _ & _ & _ & _ & F).
  assert (EU : u = u').
  { destruct (ForallOrdPairs_In F u u' (proj1 M) (proj1 M')) as [|[H|H]]; [auto|exfalso|exfalso].
    - specialize (H G _ (tile_of_lt nc sz c C)). rewrite <- I in *. lia.
    - specialize (H (eq_sym G) _ (tile_of_lt nc sz c C)). rewrite <- I in *. lia. }
  subst u'. split; auto.
  assert (ER : r = r') by (apply recs_unique; auto; destruct M as [_ [<- _]], M' as [_ [<- _]]; reflexivity). subst r'. split; auto.
  rewrite <- I in *. rewrite K2' in K2. apply Nat.add_cancel_l in K2.
  pose proof (match_good r u R M) as [_ Gs].
  pose proof (Gs c C) as J. pose proof (Gs c' C') as J'. rewrite key_tile_of in J, J' by now apply (as_fits _ _ A). rewrite <- I in J'.
  destruct (Nat.lt_trichotomy (tile_of nc (r_tiles r) c) (tile_of nc (r_tiles r) c')) as [L|[|L]]; [|auto|]; exfalso.
  - pose proof (cnt_firstn_lt _ _ _ _ _ L J (Nat2Z.id _)). lia.
  - pose proof (cnt_firstn_lt _ _ _ _ _ L J' (Nat2Z.id _)). lia.
Qed.
(** every number between lo and hi is the unknown of a tile *)
Lemma unknown_onto r u i x : In r rs -> match_ r u -> i < tiles nc sz -> lo u i <= x < hi u i ->
  exists c, is_cell nc c /\ tile_of nc sz c = i /\ nth (tile_of nc (r_tiles r) c) (u_ssuki u) 0 = x.
Proof.
  intros R M I X. destruct table as (_ & _ & _ & T & _). destruct (T u (proj1 M)) as (_ & T1 & T2 & T3 & T4).
  destruct (T4 i I) as (H & _ & _). rewrite H in X.
  destruct (cnt_onto i (x - lo u i) (sup (s_super s) (u_info u))) as (j & z & J & Zi & K); [lia|].
  destruct (good_inv _ _ _ _ _ _ (match_good r u R M) J) as (c & C & Ej & Ez). exists c.
  rewrite key_tile_of in Ej by now apply (as_fits _ _ A). subst z. rewrite Nat2Z.id in Zi. repeat split; auto.
  rewrite Ej. specialize (T2 _ _ J). rewrite Nat2Z.id, Zi in T2. rewrite (nth_error_nth _ _ _ T2). lia.
Qed.
Lemma subsolver_full g i x : i < tiles nc sz -> x < at0 (row (s_nuk s) g) i <->
  i < tiles nc sz /\ exists r u c, In r rs /\ match_ r u /\ is_cell nc c /\ i_group (u_info u) = g /\ tile_of nc sz c = i /\ nth (tile_of nc (r_tiles r) c) (u_ssuki u) 0 = x.
Proof.
  intros I. destruct table as (_ & T0 & _ & T & T5 & _). split.
  - intros X. split; auto. destruct (T5 g i x I X) as (u & U & G & B). destruct (T0 u U) as (r & R & M).
    destruct (unknown_onto r u i x R M I B) as (c & C & Ei & Ex). exists r, u, c. auto 10.
  - intros (_ & r & u & c & R & M & C & G & Ei & Ex). destruct (match_ssuki r u c R M C) as (k & K1 & _ & K3).
    rewrite (nth_error_nth _ _ _ K1) in Ex. subst k. destruct (T u (proj1 M)) as (_ & _ & _ & _ & T4).
    rewrite Ei in K3. destruct (T4 i I) as (_ & _ & H). rewrite G in H. lia.
Qed.
Lemma combine_seq {B} (l : list B) d : combine (seq 0 (length l)) l = map (fun i => (i, nth i l d)) (seq 0 (length l)).
Proof.
  assert (G : forall a, combine (seq a (length l)) l = map (fun i => (i, nth (i - a) l d)) (seq a (length l))).
  { induction l as [|x l IH]; intros a; [reflexivity|]. cbn [length seq combine map]. rewrite Nat.sub_diag. cbn [nth]. f_equal.
    rewrite IH. apply map_ext_in. intros i Hi. apply in_seq in Hi. replace (i - a) with (S (i - S a)) by lia. reflexivity. }
  rewrite G. apply map_ext. intros i. now rewrite Nat.sub_0_r.
Qed.
Lemma spid_updates_eq u : In u (s_spids s) ->
  spid_updates s u = concat (map (fun i => map (fun k => (psubsolver s i (i_group (u_info u)), k)) (seq (lo u i) (hi u i - lo u i))) (seq 0 (tiles nc sz))).
Proof.
  intros U. destruct table as (_ & _ & _ & T & _). destruct (T u U) as (_ & _ & _ & T3 & _).
  unfold spid_updates. rewrite ntiles_ok, <- T3, (combine_seq _ (0, 0)), map_map. f_equal. apply map_ext. intros i.
  unfold lo, hi. destruct (nth i (u_slices u) (0, 0)). reflexivity.
Qed.
Lemma spid_updates_In r u x : In r rs -> match_ r u -> In x (spid_updates s u) <->
  exists c, is_cell nc c /\ x = (psubsolver s (tile_of nc sz c) (i_group (u_info u)), nth (tile_of nc (r_tiles r) c) (u_ssuki u) 0).
Proof.
  intros R M. rewrite (spid_updates_eq u (proj1 M)), in_concat. split.
  - intros (l & L & X). apply in_map_iff in L as (i & <- & Hi). apply in_map_iff in X as (k & <- & K). apply in_seq in Hi, K.
    destruct (unknown_onto r u i k R M) as (c & C & Ei & Ek); [lia|lia|]. exists c. split; [auto|now rewrite Ei, Ek].
  - intros (c & C & ->). pose proof (tile_of_lt nc sz c C) as L. destruct (match_ssuki r u c R M C) as (k & K1 & K2 & K3).
    rewrite (nth_error_nth _ _ _ K1). eexists. split.
    + apply in_map_iff. exists (tile_of nc sz c). split; [reflexivity|]. apply in_seq. lia.
    + apply in_map_iff. exists k. split; [reflexivity|]. apply in_seq. lia.
Qed.
Lemma spid_updates_length r u : In r rs -> match_ r u -> length (spid_updates s u) = tiles nc (r_tiles r).
Proof.
  intros R M. rewrite (spid_updates_eq u (proj1 M)). destruct table as (_ & _ & _ & T & _). destruct (T u (proj1 M)) as (_ & _ & _ & _ & T4).
  pose proof (match_good r u R M) as G. pose proof (good_range _ _ _ _ G) as Rg. destruct G as [GL _].
  assert (E : tiles nc (key nc (r_tiles r)) = tiles nc (r_tiles r)) by (unfold tiles; now destruct (key_tiles nc _ (as_fits _ _ A r R)) as [-> _]).
  rewrite <- E, <- GL, <- (cnt_sum _ _ Rg). clear -T4.
  assert (H : forall l, (forall i, In i l -> i < tiles nc sz) ->
    length (concat (map (fun i => map (fun k => (psubsolver s i (i_group (u_info u)), k)) (seq (lo u i) (hi u i - lo u i))) l)) =
    list_sum (map (fun i => cnt i (sup (s_super s) (u_info u))) l)).
  { induction l as [|i l IH]; intros L; [reflexivity|]. cbn [map concat]. rewrite app_length, map_length, seq_length, IH by (intros; apply L; now right).
    destruct (T4 i (L i (or_introl eq_refl))) as (-> & _ & _). cbn [list_sum fold_right]. unfold list_sum. lia. }
  apply H. intros i Hi. apply in_seq in Hi. lia.
Qed.
End Table.
