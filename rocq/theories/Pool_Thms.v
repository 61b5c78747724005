(** C33: the worker pool. *)
From Verif Require Import Base Pool_Model Pool_Spec Pool_Proofs.

(** At most [max_busy + 1] orders of one depth are in execution, whatever the threads do. *)
Theorem pool_busy_bound_partial : forall m nwork s d, greach m nwork s -> executing s d <= m + 1.
Proof. intros m n s d H. pose proof (gi_bound _ _ (ginv_reach _ _ _ H) d) as B. unfold occt, occ in B. unfold executing. lia. Qed.
Print Assumptions pool_busy_bound_partial.

(** the counters are exact and no counter outside the vector is touched *)
Theorem pool_counters : forall m nwork s, greach m nwork s ->
  q_nidle (g_pool s) = idle_threads s /\
  (forall d, q_nthr (g_pool s) d = executing s d + if Nat.eqb d 0 then 1 else 0) /\
  (forall busy wait mind, pool_look m busy wait mind (g_pool s) <> UB) /\ pool_awaken m (g_pool s) <> UB /\
  (forall t d, In t (g_thr s) -> In d (g_runs t) -> pool_finish d (g_pool s) <> UB).
Proof.
  intros m n s H. pose proof (ginv_reach _ _ _ H) as [I1 I2 I3 I4 I5 I6]. repeat split.
  - exact I3.
  - exact I1.
  - intros b w mind. unfold pool_look. destruct (q_orders (g_pool s)) as [|o q] eqn:E; [discriminate|].
    destruct (Nat.ltb _ _); [discriminate|]. pose proof (I5 o (or_introl eq_refl)) as L. destruct (Nat.leb_spec (q_nlen (g_pool s)) (o_depth o)); [lia|].
    assert (T : forall k, pool_take m o q k (g_pool s) <> UB).
    { intro k. unfold pool_take, bind. match goal with |- context [pool_awaken m ?p] => destruct (awaken_ok m p) as (a & p' & ->) end; [|discriminate]. cbn. intros o' Ho. apply I5. now right. }
    destruct b; [destruct (Nat.ltb _ _)|destruct (Nat.leb _ _)]; auto; discriminate.
  - destruct (awaken_ok m (g_pool s) I5) as (a & p & ->). discriminate.
  - intros t d Ht Hd. unfold pool_finish. pose proof (I6 _ _ Ht Hd). destruct (Nat.leb_spec (q_nlen (g_pool s)) d); [lia|discriminate].
Qed.
Print Assumptions pool_counters.

(** [max_busy] itself is exceeded for every [max_busy]: a thread that has just finished an order
    counts as busy when it asks for the next one, and is then let through although [max_busy]
    other threads are executing. *)
Definition one : order unit := mkorder 1 tt.
Definition hold : gthread := {| g_busy := true; g_runs := [1] |}.
Definition free : gthread := {| g_busy := true; g_runs := [] |}.
(** [k] workers hold an order of depth 1, [i] are idle, [r] orders are queued *)
Record shape (main : gthread) (k i r : nat) (s : gsys) : Prop := {
  sh_thr : g_thr s = main :: repeat hold k ++ repeat fresh i;
  sh_q : q_orders (g_pool s) = repeat one r;
  sh_n : q_nthr (g_pool s) 1 = k + length (g_runs main);
  sh_len : q_nlen (g_pool s) = 100;
  sh_idle : q_nidle (g_pool s) = i }.
Lemma repeat_snoc {A} (x : A) n : repeat x n ++ [x] = repeat x (S n).
Proof. induction n as [|n IH]; [reflexivity|]. cbn [repeat app]. now rewrite IH. Qed.
Lemma shape_awaken m r i f : exists a, pool_awaken m {| q_orders := repeat one r; q_nthr := f; q_nlen := 100; q_nidle := i |} = Ok (a, {| q_orders := repeat one r; q_nthr := f; q_nlen := 100; q_nidle := i + match a with ASpawn => 1 | _ => 0 end |}).
Proof.
  unfold pool_awaken. cbn [q_orders q_nthr q_nlen q_nidle]. destruct r as [|r]; cbn [repeat one o_depth]; [exists ANone; now rewrite Nat.add_0_r|].
  change (Nat.leb 100 1) with false. cbv iota. destruct (Nat.leb m (f 1)); [exists ANone; now rewrite Nat.add_0_r|]. destruct (Nat.eqb i 0); [exists ASpawn; now rewrite Nat.add_comm|exists ASignal; now rewrite Nat.add_0_r].
Qed.
Lemma shape_worker m main k i r s : shape main k (S i) (S r) s -> k + length (g_runs main) < m ->
  exists s' j, gstep m s s' /\ i <= j /\ shape main (S k) j r s'.
Proof.
  intros [H1 H2 H3 H4 H5] L. destruct (shape_awaken m r i (upd (q_nthr (g_pool s)) 1 (S (q_nthr (g_pool s) 1)))) as (a & Ea).
  eexists. exists (i + match a with ASpawn => 1 | _ => 0 end). split; [eapply (g_take m s (main :: repeat hold k) fresh (repeat fresh i) true 0 one a); [exact H1|]|split; [lia|]].
  - unfold pool_look. rewrite H2. cbn [repeat fresh g_busy]. change (o_depth one) with 1. change (Nat.ltb 1 0) with false. cbv iota. rewrite H4. change (Nat.leb 100 1) with false. cbv iota.
    destruct (Nat.leb_spec m (q_nthr (g_pool s) 1)); [lia|]. unfold pool_take, bind. change (o_depth one) with 1. rewrite H4, H5. change (S i - 1) with (i - 0). rewrite Nat.sub_0_r, Ea. reflexivity.
  - constructor; cbn [g_pool g_thr q_orders q_nthr q_nlen q_nidle snd fst].
    + change {| g_busy := true; g_runs := o_depth one :: g_runs fresh |} with hold. rewrite <- repeat_snoc, <- app_assoc. destruct a; cbn [wake_up app].
      * now rewrite Nat.add_0_r. * now rewrite Nat.add_0_r.
      * rewrite <- !app_assoc. cbn [app]. rewrite repeat_snoc, Nat.add_comm. reflexivity.
    + reflexivity. + unfold upd. cbn. lia. + reflexivity. + reflexivity.
Qed.
Lemma shape_main m k i r s : shape free k i (S r) s -> k <= m -> exists s' j, gstep m s s' /\ i <= j /\ shape hold k j r s'.
Proof.
  intros [H1 H2 H3 H4 H5] L. cbn [free g_runs length] in H3. destruct (shape_awaken m r i (upd (q_nthr (g_pool s)) 1 (S (q_nthr (g_pool s) 1)))) as (a & Ea).
  eexists. exists (i + match a with ASpawn => 1 | _ => 0 end). split; [eapply (g_take m s [] free (repeat hold k ++ repeat fresh i) false 1 one a); [exact H1|]|split; [lia|]].
  - unfold pool_look. rewrite H2. cbn [repeat free g_busy]. change (o_depth one) with 1. change (Nat.ltb 1 1) with false. cbv iota. rewrite H4. change (Nat.leb 100 1) with false. cbv iota.
    destruct (Nat.ltb_spec m (q_nthr (g_pool s) 1)); [lia|]. unfold pool_take, bind. change (o_depth one) with 1. rewrite H4, H5, Ea. reflexivity.
  - constructor; cbn [g_pool g_thr q_orders q_nthr q_nlen q_nidle snd fst].
    + change {| g_busy := true; g_runs := o_depth one :: g_runs free |} with hold. destruct a; cbn [wake_up app].
      * now rewrite Nat.add_0_r. * now rewrite Nat.add_0_r.
      * rewrite <- !app_assoc. cbn [app]. rewrite repeat_snoc, Nat.add_comm. reflexivity.
    + reflexivity. + unfold upd. cbn. lia. + reflexivity. + reflexivity.
Qed.
Lemma shape_finish m k i r s : shape hold k i r s -> exists s', gstep m s s' /\ shape free k i r s'.
Proof.
  intros [H1 H2 H3 H4 H5]. eexists. split; [eapply (g_finish m s [] hold (repeat hold k ++ repeat fresh i) [] 1 []); [exact H1|reflexivity|]|].
  - unfold pool_finish. rewrite H4. reflexivity.
  - constructor; cbn [g_pool g_thr q_orders q_nthr q_nlen q_nidle]; auto. unfold upd. cbn in *. lia.
Qed.
Lemma shape_workers m nwork main k : forall j i r s, shape main j i (k + r) s -> greach m nwork s -> k <= i -> k + j + length (g_runs main) <= m ->
  exists s' i', greach m nwork s' /\ i - k <= i' /\ shape main (k + j) i' r s'.
Proof.
  induction k as [|k IH]; intros j i r s H R Li Lm.
  - exists s, i. cbn [Nat.add] in *. split; [exact R|split; [lia|exact H]].
  - destruct i as [|i]; [lia|]. destruct (shape_worker m main j i (k + r) s H) as (s1 & i1 & St & L1 & H1); [lia|].
    destruct (IH (S j) i1 r s1 H1) as (s2 & i2 & R2 & L2 & H2); [eapply gr_step; eauto|lia|lia|]. exists s2, i2. split; [exact R2|split; [lia|]]. now rewrite Nat.add_succ_r in H2.
Qed.
Lemma shape_start m nwork r : exists s, greach m nwork s /\ shape free 0 nwork r s.
Proof.
  induction r as [|r (s & R & H)].
  - exists (gstart nwork). split; [constructor|]. constructor; reflexivity.
  - eexists. split; [eapply gr_step; [exact R|apply (g_place m s one)]|]. destruct H as [H1 H2 H3 H4 H5]. constructor; cbn [g_pool g_thr pool_place q_orders q_nthr q_nlen q_nidle]; auto.
    + rewrite H2. reflexivity. + rewrite H4. reflexivity.
Qed.
Theorem pool_busy_bound_refuted : forall m nwork, 1 <= m -> m <= nwork -> exists s, greach m nwork s /\ executing s 1 = m + 1.
Proof.
  intros m n Hm Hn. destruct (shape_start m n (m + 2)) as (s0 & R0 & S0).
  replace (m + 2) with (S (m - 1 + 2)) in S0 by lia. destruct (shape_main m 0 n (m - 1 + 2) s0 S0) as (s1 & i1 & St1 & L1 & S1); [lia|].
  destruct (shape_workers m n hold (m - 1) 0 i1 2 s1 S1) as (s2 & i2 & R2 & L2 & S2); [eapply gr_step; eauto|lia|cbn; lia|].
  destruct (shape_finish m _ _ _ _ S2) as (s3 & St3 & S3). rewrite Nat.add_0_r in S3.
  destruct i2 as [|i2]; [lia|]. destruct (shape_worker m free (m - 1) i2 1 s3 S3) as (s4 & i4 & St4 & L4 & S4); [cbn; lia|].
  destruct (shape_main m (S (m - 1)) i4 0 s4 S4) as (s5 & i5 & St5 & L5 & S5); [lia|].
  exists s5. split; [repeat (eapply gr_step; [|eassumption]); exact R2|].
  assert (X : forall d l a b, g_thr s5 = hold :: repeat hold a ++ repeat fresh b -> d = 1 -> l = executing s5 d -> l = a + 1).
  { intros d l a b E -> ->. unfold executing. rewrite E. fold (occ 1 (concat (map g_runs (hold :: repeat hold a ++ repeat fresh b)))). fold (occt 1 (hold :: repeat hold a ++ repeat fresh b)).
    rewrite occt_cons, occt_app. assert (O1 : occt 1 (repeat hold a) = a) by (clear; induction a as [|a IH]; cbn [repeat]; rewrite ?occt_cons; auto; rewrite IH; reflexivity).
    assert (O2 : occt 1 (repeat fresh b) = 0) by (clear; induction b as [|b IH]; cbn [repeat]; rewrite ?occt_cons; auto). rewrite O1, O2. cbn. lia. }
  rewrite (X 1 _ _ _ (sh_thr _ _ _ _ _ S5) eq_refl eq_refl). lia.
Qed.
Print Assumptions pool_busy_bound_refuted.

(** joining the pool: the size test is the wrong way round.  A thread joining at a depth beyond
    the vector writes outside it; a thread joining at depth [d] cuts the vector to [d + 100]
    entries although orders for deeper nodes may be queued. *)
Theorem pool_join_index_refuted : forall nwork,
  (forall d, 100 < d -> pool_join true d (pool_start (A := unit) nwork) = UB) /\
  (forall d m, 100 <= d -> let p := pool_place (mkorder d tt) (pool_start nwork) in
     pool_look m true false 1 p <> UB /\ exists p', pool_join true 0 p = Ok p' /\ pool_look m true false 1 p' = UB).
Proof.
  intro n. split.
  - intros d L. unfold pool_join. cbn [pool_start q_nlen]. destruct (Nat.leb_spec d 100); [lia|]. destruct (Nat.ltb_spec d 100); [lia|reflexivity].
  - intros d m L p. assert (Ep : q_nlen p = d + 100) by (unfold p; cbn [pool_place pool_start q_nlen o_depth]; destruct (Nat.leb_spec 100 d); lia). split.
    + unfold pool_look. cbn [p pool_place q_orders o_depth]. destruct (Nat.ltb_spec d 1); [lia|]. fold p. rewrite Ep. destruct (Nat.leb_spec (d + 100) d); [lia|]. destruct (Nat.ltb _ _); discriminate.
    + eexists. split; [unfold pool_join; reflexivity|]. unfold pool_look. cbn [p pool_place q_orders o_depth q_nlen]. destruct (Nat.ltb_spec d 1); [lia|]. match goal with |- context [Nat.leb ?x d] => change x with 100 end. destruct (Nat.leb_spec 100 d); [reflexivity|lia].
Qed.
Print Assumptions pool_join_index_refuted.

(** two workers, [max_busy] 2, three orders of depth 1 in execution *)
Example ex_pool : exists s, greach 2 3 s /\ executing s 1 = 3 /\ q_nthr (g_pool s) 1 = 3.
Proof. destruct (pool_busy_bound_refuted 2 3) as (s & R & E); [lia|lia|]. exists s. split; [exact R|split; [exact E|]]. destruct (pool_counters _ _ _ R) as (_ & H & _). rewrite H, E. reflexivity. Qed.
Example ex_look : pool_look 1 false true 0 {| q_orders := [mkorder 2 tt]; q_nthr := fun d => if Nat.eqb d 2 then 1 else 0; q_nlen := 100; q_nidle := 1 |} =
  Ok (LSleep {| q_orders := [mkorder 2 tt]; q_nthr := fun d => if Nat.eqb d 2 then 1 else 0; q_nlen := 100; q_nidle := 1 |}) /\
  is_ok (pool_look 1 true true 0 {| q_orders := [mkorder 2 tt]; q_nthr := fun d => if Nat.eqb d 2 then 1 else 0; q_nlen := 100; q_nidle := 1 |}) = true.
Proof. split; reflexivity. Qed.
