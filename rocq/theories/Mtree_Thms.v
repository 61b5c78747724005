(** Theorems about the multithreaded evaluation of a tree (C45, C46). *)
From Coq Require Import Permutation.
From Verif Require Import Base Pool_Model Pool_Proofs Mtree_Model Mtree_Spec Mtree_Proofs Mtree_Inv Mtree_Live Mtree_Prog.

(** C45.  When execute() of the root returns, every node of the tree has been executed exactly
    once, at its own depth; nothing is left in the queue and no other thread is still inside
    an execute(). *)
Theorem tree_executed_exactly_once : forall m nwork t s, reach m nwork t s -> finished s ->
  Permutation (s_log s) (labels 0 t) /\ q_orders (s_pool s) = [] /\
  forall h f, In h (s_thr s) -> In f (h_stack h) -> f_phase f = PDelivered.
Proof.
  intros m nwork t s R Fi. assert (I := inv_reach _ _ _ _ R). destruct (finished_nothing _ _ I Fi) as [Q L]. pose proof (V_fi _ _ _ _ _ _ _ _ I) as HF.
  assert (D : forall f, In f (frames (s_thr s)) -> f_phase f = PDelivered) by (intros f Hf; apply live_false; auto).
  split; [|split; [exact Q|]].
  - pose proof (F_log _ _ _ _ _ _ _ _ HF) as P. rewrite Q in P. cbn [flat_map app] in P. replace (flat_map flab (frames (s_thr s))) with (@nil (nat * nat)) in P; [now rewrite app_nil_r in P|].
    symmetry. clear - D HF. assert (X : forall f, In f (frames (s_thr s)) -> f_todo f = []) by (intros f Hf; destruct (F_frm _ _ _ _ _ _ _ _ HF f Hf) as (_ & _ & H); auto).
    clear - X. induction (frames (s_thr s)) as [|f F IH]; [reflexivity|]. cbn [flat_map]. unfold flab at 1. rewrite X by (now left). cbn. apply IH. intros g Hg. apply X. now right.
  - intros h f Hh Hf. apply D, frames_in. eauto.
Qed.
Print Assumptions tree_executed_exactly_once.
(** ... and at no moment has any node been executed more often than it occurs in the tree *)
Theorem tree_never_twice : forall m nwork t s, reach m nwork t s -> exists rest, Permutation (s_log s ++ rest) (labels 0 t).
Proof. intros m nwork t s R. pose proof (F_log _ _ _ _ _ _ _ _ (V_fi _ _ _ _ _ _ _ _ (inv_reach _ _ _ _ R))). eauto. Qed.
Print Assumptions tree_never_twice.

(** C46.  However the threads are scheduled, evaluation comes to an end after a number of steps
    that is linear in the size of the tree... *)
Fixpoint nodes (t : tree) : nat := match t with Node _ _ cs => S (list_sum (map nodes cs)) end.
Theorem tree_runs_end : forall m nwork t sched s, run m (sys_start nwork t) sched = Some s -> length sched <= 10 * nodes t + nwork.
Proof.
  intros m nwork t sched s H.
  assert (G : forall sched s0, Inv t s0 -> run m s0 sched = Some s -> length sched + cost s <= cost s0).
  { clear. induction sched as [|[i j] sched IH]; intros s0 I H; cbn [run length] in *; [injection H as ->; lia|]. destruct (step m s0 i j) as [s1|] eqn:E; [|discriminate]. pose proof (step_cost _ _ _ _ _ _ I E). specialize (IH s1 (inv_step _ _ _ _ _ _ I E) H). lia. }
  specialize (G sched _ (inv_start nwork t) H). assert (C : cost (sys_start nwork t) < 10 * nodes t + nwork).
  { unfold cost. cbn [sys_start s_pool s_thr s_polls pool_join pool_start]. cbn [map]. rewrite sum_cons. erewrite thread_cost_top by reflexivity. rewrite begin_cost. unfold order_cost. cbn [root_order o_what w_tree map].
    change (size t) with (nodes t). assert (X : list_sum (map (thread_cost [(0, 1)]) (repeat worker nwork)) = nwork) by (clear; induction nwork; cbn in *; auto).
    assert (1 <= nodes t) by apply size_pos. cbn [pool_join pool_start]. cbn. lia. }
  lia.
Qed.
Print Assumptions tree_runs_end.
(** ... and if no level of the tree has more than [max_busy + 1] nodes, it always ends with the
    root executed: in every reachable state (reached with or without spurious wakeups), every
    way of going on is finite, and where nobody can go on the root is done.  Missing: wider
    trees, for which the statement is false (below). *)
Theorem tree_completes_partial : forall m nwork t s, (forall d, width t d <= m + 1) -> reach m nwork t s ->
  exists bound, forall sched s', run m s sched = Some s' -> length sched <= bound /\ (stuck m s' -> finished s').
Proof.
  intros m nwork t s W R. exists (cost s). intros sched s' H.
  assert (G : forall sched s0, reach m nwork t s0 -> run m s0 sched = Some s' -> length sched + cost s' <= cost s0 /\ reach m nwork t s').
  { clear - W. induction sched as [|[i j] sched IH]; intros s0 R H; cbn [run length] in *; [injection H as ->; split; [lia|auto]|]. destruct (step m s0 i j) as [s1|] eqn:E; [|discriminate]. pose proof (step_cost _ _ _ _ _ _ (inv_reach _ _ _ _ R) E). destruct (IH s1 (r_step _ _ _ _ _ _ _ R E) H) as [L R']. split; [lia|auto]. }
  destruct (G sched s R H) as [L R']. split; [lia|]. intro St.
  assert (D : finished s' \/ ~ finished s').
  { unfold finished. destruct (s_thr s') as [|h l]; [right; intros (? & ? & ? & E & _); discriminate|]. destruct (h_main h) eqn:M; [|right; intros (? & ? & ? & E & M' & _); injection E as <- _; congruence].
    destruct (h_stack h) as [|f [|g st]] eqn:Es; try (right; intros (? & ? & ? & E & _ & E2 & _); injection E as <- _; congruence).
    destruct (f_phase f) eqn:Ph; try (right; intros (? & ? & ? & E & _ & E2 & E3); injection E as <- _; rewrite Es in E2; injection E2 as <-; congruence). left. exists h, l, f. auto. }
  destruct D as [D|D]; [exact D|]. destruct (progress _ _ _ _ W R' D) as (i & j & s2 & E). rewrite St in E. discriminate.
Qed.
Print Assumptions tree_completes_partial.

(** With the pool the server starts for two threads (max_busy 2, three workers,
    meqserver_main.cc:140) this tree of 15 nodes can be evaluated up to a state in which all
    threads wait for ever: every node polls all its children in parallel, and the third level
    has six nodes. *)
Definition leaf (n : nat) : tree := Node n true [].
Definition dead_tree : tree :=
  Node 0 true [Node 1 true [leaf 3; Node 4 true [leaf 5; leaf 6]; Node 7 true [leaf 8; leaf 9]; Node 10 true [leaf 11; leaf 12]];
               Node 2 true [leaf 13; leaf 14]].
Definition dead_sched : list (nat * nat) :=
  map (fun i => (i, 0)) [0;1;0;2; 0;0;0; 3; 0; 2;3;0; 1;1; 2;2;2;2;2; 3;3;3;3;3; 0;0;0;0;0; 4].
Lemma run_reach m nwork t sched : forall s s', reach m nwork t s -> run m s sched = Some s' -> reach m nwork t s'.
Proof. induction sched as [|[i j] sched IH]; intros s s' R H; cbn [run] in H; [injection H as <-; exact R|]. destruct (step m s i j) as [s1|] eqn:E; [|discriminate]. eapply IH; [|exact H]. econstructor; eauto. Qed.
Theorem tree_completes_refuted : exists m nwork t s, 2 <= m /\ nwork = 2 * m - 1 /\ reach m nwork t s /\ stuck m s /\ ~ finished s.
Proof.
  destruct (run 2 (sys_start 3 dead_tree) dead_sched) as [s|] eqn:E; [|vm_compute in E; discriminate].
  exists 2, 3, dead_tree, s. split; [lia|split; [reflexivity|split; [eapply run_reach; [constructor|exact E]|]]].
  set (brief := fun h => (h_main h, h_asleep h, map f_phase (h_stack h))).
  let v := eval vm_compute in (match run 2 (sys_start 3 dead_tree) dead_sched with Some s => map brief (s_thr s) | None => [] end) in assert (X : map brief (s_thr s) = v).
  { transitivity (match run 2 (sys_start 3 dead_tree) dead_sched with Some s => map brief (s_thr s) | None => [] end); [now rewrite E|vm_compute; reflexivity]. }
  clear E. split.
  - intros i j. unfold step. destruct (nth_error (s_thr s) i) as [h|] eqn:Eh; [|reflexivity].
    assert (Y := map_nth_error brief i (s_thr s) Eh). rewrite X in Y. unfold brief in Y.
    destruct h as [mn bs asl st]. cbn [h_main h_asleep h_stack] in *.
    do 5 (destruct i as [|i]; [cbn [nth_error] in Y; injection Y as _ Ya Ys; destruct st as [|f st]; cbn [map] in Ys; [first [discriminate Ys|rewrite <- Ya; reflexivity]|first [discriminate Ys|injection Ys as Yp _; cbn [f_phase]; rewrite <- Yp; reflexivity]]|]).
    destruct i; discriminate.
  - intros (h & l & f & El & _ & Eh & Ph). rewrite El in X. cbn [map] in X. unfold brief at 1 in X. rewrite Eh in X. cbn [map] in X. rewrite Ph in X. discriminate.
Qed.
Print Assumptions tree_completes_refuted.

(** a tree of five nodes on two threads that are both used, no wider than allowed *)
Definition ex_tree : tree := Node 0 true [Node 1 true [leaf 3; leaf 4]; leaf 2].
Example ex_tree_narrow : forall d, width ex_tree d <= 2 + 1.
Proof. intros [|[|[|d]]]; cbn; lia. Qed.
Example ex_tree_run : exists s, run 2 (sys_start 3 ex_tree) (map (fun i => (i, 0)) [0; 1; 0; 0; 0; 0; 0; 0; 0; 0; 0; 0; 1; 1; 1; 0; 0; 0; 0; 0]) = Some s /\ finished s /\ s_log s = [(1, 2); (2, 4); (2, 3); (1, 1); (0, 0)].
Proof. eexists. split; [vm_compute; reflexivity|]. split; [|reflexivity]. do 3 eexists. vm_compute. auto. Qed.
