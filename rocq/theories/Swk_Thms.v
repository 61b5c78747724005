(** The theorems about the worker threads of the Solver. *)
From Coq Require Import Permutation.
From Verif Require Import Base Swk_Model Swk_Spec Swk_Proofs.

(** ** Subsolvers stay the same during an activation *)
Lemma run_jobs t s s' : run t s = Some s' -> jobs s' = jobs s.
Proof.
  unfold run. intros E. destruct (at_pc s t) as [p|]; [|discriminate].
  destruct p; repeat match type of E with
    | (if ?b then _ else _) = _ => destruct b
    | match ?b with _ => _ end = _ => destruct b
    end; try discriminate; apply some_inj in E; rewrite E; clear E; unfold leave, broadcast_e, broadcast_c; autorewrite with goto; try reflexivity.
  all: cbv zeta; destruct (existsb _ _); cbn; try destruct (main s); reflexivity.
Qed.
Lemma step_jobs s l s' : step s l s' -> l <> Outside -> jobs s' = jobs s.
Proof. intros St N. destruct St; try congruence; [now apply run_jobs in H|now autorewrite with goto|reflexivity]. Qed.
Lemma steps_jobs s ls s' : steps s ls s' -> inside ls -> jobs s' = jobs s.
Proof.
  intros St. induction St as [|s l s1 ls s2 St _ IH]; intros I; [reflexivity|]. inversion I as [|? ? N I']; subst. rewrite (IH I'). now apply (step_jobs s l).
Qed.
Lemma reachable_steps s ls s' : reachable s -> steps s ls s' -> reachable s'.
Proof.
  intros (l0 & S0) St. exists (l0 ++ ls). induction S0 as [s|s l s1 ls0 s2 St1 _ IH]; [exact St|]. cbn. econstructor; [exact St1|auto].
Qed.
Lemma activation_facts s js s' : activation s js s' -> inv s' /\ jobs s' = js /\ main s' = MDone.
Proof.
  intros (R & St & ls & Ss & I & D). split; [|split; [|exact D]].
  - apply reachable_inv. apply (reachable_steps (activate js s) ls); [|exact Ss]. apply (reachable_steps s [Outside]); [exact R|]. econstructor; [exact St|constructor].
  - now rewrite (steps_jobs _ _ _ Ss I).
Qed.

(** ** The single-threaded loop *)
Lemma filter_seq_shift (f : nat -> bool) a n : filter f (seq (S a) n) = map S (filter (fun k => f (S k)) (seq a n)).
Proof. rewrite <- seq_shift. induction (seq a n) as [|x l IH]; [reflexivity|]. cbn. destruct (f (S x)); cbn; now rewrite IH. Qed.
Lemma to_solve_filter js : to_solve js = filter (unconv js) (seq 0 (length js)).
Proof.
  assert (G : forall js a, map fst (filter (fun kj : nat * job => negb (j_conv (snd kj))) (combine (seq a (length js)) js)) = map (fun k => a + k) (filter (unconv js) (seq 0 (length js)))).
  { clear js. induction js as [|j js IH]; intros a; [reflexivity|]. cbn [length seq combine filter map snd fst].
    replace (unconv (j :: js) 0) with (negb (j_conv j)) by reflexivity. rewrite filter_seq_shift.
    change (fun k => unconv (j :: js) (S k)) with (unconv js). destruct (negb (j_conv j)); cbn [map fst]; rewrite IH, map_map; [f_equal; [lia|]|]; apply map_ext; intros; lia. }
  unfold to_solve. rewrite G. apply map_id.
Qed.
Lemma count_filter f g l : count f (filter g l) = count (fun k => g k && f k) l.
Proof. unfold count. induction l as [|x l IH]; [reflexivity|]. cbn. destruct (g x); cbn; [destruct (f x); cbn; now rewrite IH|exact IH]. Qed.
Lemma count_perm f l l' : Permutation l l' -> count f l = count f l'.
Proof.
  unfold count. induction 1 as [|x l l' _ IH|x y l|l1 l2 l3 _ IH1 _ IH2]; [reflexivity| | |congruence].
  - cbn. destruct (f x); cbn; now rewrite IH.
  - cbn. destruct (f x), (f y); reflexivity.
Qed.
Lemma count_seq_shift f n : count f (seq 1 n) = count (fun k => f (S k)) (seq 0 n).
Proof. unfold count. rewrite filter_seq_shift. now rewrite map_length. Qed.
(** the numbers as the threads count them *)
Definition total (js : list job) : nat :=
  count (fun k => j_conv (nojob js k)) (seq 0 (length js)) + count (fun k => unconv js k && is_conv (j_out (nojob js k))) (seq 0 (length js)).
Definition thrown (js : list job) : nat := count (fun k => unconv js k && is_throw (j_out (nojob js k))) (seq 0 (length js)).
Lemma count_cons f n : count f (seq 0 (S n)) = (if f 0 then 1 else 0) + count (fun k => f (S k)) (seq 0 n).
Proof. cbn [seq]. rewrite <- count_seq_shift. unfold count. cbn. destruct (f 0); reflexivity. Qed.
Lemma one_by_one_total js n : one_by_one js n = if thrown js =? 0 then Some (n + total js) else None.
Proof.
  revert n. induction js as [|j js IH]; intros n; [cbn; f_equal; unfold total; cbn; lia|].
  unfold thrown, total in *. cbn [length]. rewrite !count_cons.
  change (fun k => j_conv (nojob (j :: js) (S k))) with (fun k => j_conv (nojob js k)).
  change (fun k => unconv (j :: js) (S k) && is_conv (j_out (nojob (j :: js) (S k)))) with (fun k => unconv js k && is_conv (j_out (nojob js k))).
  change (fun k => unconv (j :: js) (S k) && is_throw (j_out (nojob (j :: js) (S k)))) with (fun k => unconv js k && is_throw (j_out (nojob js k))).
  cbn [one_by_one]. unfold unconv at 1 3. cbn [nojob nth]. rewrite !IH.
  destruct (j_conv j); cbn [negb andb]; [|destruct (j_out j); cbn [is_conv is_throw]]; cbn [Nat.add Nat.eqb]; try reflexivity;
    destruct (count (fun k => unconv js k && is_throw (j_out (nojob js k))) (seq 0 (length js)) =? 0); auto; f_equal; lia.
Qed.
Lemma count_pos f l : count f l <> 0 <-> exists k, In k l /\ f k = true.
Proof.
  unfold count. split.
  - intros N. destruct (filter f l) as [|k r] eqn:F; [now cbn in N|]. exists k. apply filter_In. rewrite F. now left.
  - intros (k & Ik & Fk). assert (H : In k (filter f l)) by now apply filter_In. destruct (filter f l); [destruct H|discriminate].
Qed.
Lemma nojob_in js k : k < length js -> In (nojob js k) js.
Proof. intros L. unfold nojob. now apply nth_In. Qed.
Lemma throws_thrown js : throws js <-> thrown js <> 0.
Proof.
  unfold thrown. rewrite count_pos. split.
  - intros (j & Ij & C & O). apply (In_nth _ _ no_job) in Ij as (k & L & <-). exists k. split; [apply in_seq; lia|]. unfold unconv, nojob. now rewrite C, O.
  - intros (k & Ik & F). apply in_seq in Ik. apply andb_true_iff in F as [F1 F2]. exists (nojob js k). split; [apply nojob_in; lia|]. unfold unconv in F1.
    split; [now destruct (j_conv _)|now destruct (j_out _)].
Qed.
Lemma total_after js : total js = length (filter converged_after js).
Proof.
  unfold total. induction js as [|j js IH]; [reflexivity|]. cbn [length]. rewrite !count_cons.
  change (fun k => j_conv (nojob (j :: js) (S k))) with (fun k => j_conv (nojob js k)).
  change (fun k => unconv (j :: js) (S k) && is_conv (j_out (nojob (j :: js) (S k)))) with (fun k => unconv js k && is_conv (j_out (nojob js k))).
  unfold unconv at 1. cbn [nojob nth filter]. unfold converged_after at 1. destruct (j_conv j); cbn [negb andb orb]; [|destruct (j_out j)]; cbn [length is_conv]; lia.
Qed.

(** ** When the main thread is done *)
Lemma done_busy s : inv s -> main s = MDone -> busy s = [].
Proof. intros I D. unfold busy. rewrite D. cbn. apply (quiet_busy s I). rewrite D. now left. Qed.
Theorem threads_solve_all s js s' : activation s js s' ->
  (exc s' = 0 <-> ~ throws js) /\
  (exc s' = 0 -> calls s' = to_solve js /\ Permutation (ended s') (to_solve js) /\ nconv s' = length (filter converged_after js)) /\
  one_by_one js 0 = (if exc s' =? 0 then Some (nconv s') else None) /\
  (forall t k, ~ works_on s' t k).
Proof.
  intros Ac. destruct (activation_facts s js s' Ac) as (I & J & D). pose proof (v_tally _ I (or_intror D)) as [T1 T2 T3 T4 T5]. pose proof (v_done _ I D) as C.
  rewrite (done_busy s' I D), app_nil_r in T3. rewrite J in *.
  assert (EX : exc s' = 0 -> num s' = length js) by (intros Z; destruct C as [C|C]; [now rewrite J in C|congruence]).
  assert (X : exc s' = count (fun k => unconv js k && is_throw (j_out (nojob js k))) (seq 0 (num s'))).
  { rewrite T5, <- (count_perm _ _ _ T3), T2. apply count_filter. }
  assert (A0 : exc s' = 0 -> thrown js = 0) by (intros Z; unfold thrown; rewrite <- (EX Z), <- X; exact Z).
  assert (A1 : exc s' <> 0 -> thrown js <> 0).
  { rewrite X. unfold thrown. rewrite !count_pos. intros (k & Ik & F). exists k. split; [|exact F]. apply in_seq in Ik. apply in_seq. lia. }
  assert (CN : exc s' = 0 -> nconv s' = total js).
  { intros Z. rewrite T4, <- (count_perm _ _ _ T3), T2, count_filter. unfold total. now rewrite (EX Z). }
  split; [|split; [|split]].
  - rewrite throws_thrown. split; [intros Z N; apply N; auto|]. intros N. destruct (Nat.eq_dec (exc s') 0) as [Z|Z]; [exact Z|]. exfalso. now apply N, A1.
  - intros Z. rewrite to_solve_filter, <- (EX Z), <- T2. split; [reflexivity|]. split; [now symmetry|]. rewrite <- total_after. auto.
  - rewrite one_by_one_total. destruct (Nat.eqb_spec (exc s') 0) as [Z|Z].
    + rewrite (A0 Z), (CN Z). reflexivity.
    + destruct (Nat.eqb_spec (thrown js) 0) as [Y|Y]; [|reflexivity]. exfalso. exact (A1 Z Y).
  - intros [|i] k [K|K]; cbn in K; try congruence;
      (destruct (nth_error (workers s') i) as [w|] eqn:E; [|discriminate]; injection K as K; pose proof (v_w _ I _ _ E) as V; unfold okw in V; rewrite D, K in V; cbn in V; now rewrite andb_false_r in V).
Qed.

(** ** One subsolver, one thread *)
Lemma works_running s t k : inv s -> works_on s t k -> running (main s).
Proof. intros I [A|A]; now apply (loop_running t _ s I A). Qed.
Lemma hand_works s t k : works_on s t k -> exists p, at_pc s t = Some p /\ hand p = [k].
Proof. intros [A|A]; eauto. Qed.
Lemma in_busy s t k : works_on s t k -> exists a b, busy s = a ++ k :: b /\
  forall t', t' <> t -> works_on s t' k -> In k (a ++ b).
Proof.
  intros Wk. destruct t as [|i].
  - exists [], (flat_map (fun w => hand (w_pc w)) (workers s)). split; [destruct Wk as [A|A]; cbn in A; injection A as A; unfold busy; now rewrite A|].
    intros [|j] N Wj; [congruence|]. cbn. destruct (hand_works _ _ _ Wj) as (p & A & H). destruct (worker_at s j p A) as (w & Ew & Pw).
    apply in_flat_map. exists w. split; [now apply nth_error_In in Ew|]. rewrite Pw, H. now left.
  - destruct (hand_works _ _ _ Wk) as (p & A & H). destruct (worker_at s i p A) as (w & Ew & Pw). destruct (nth_error_split _ _ Ew) as (a & b & Ea & La).
    set (h := fun w => hand (w_pc w)). exists (hand (main s) ++ flat_map h a), (flat_map h b). split.
    { unfold busy. fold h. rewrite Ea, flat_map_app. cbn [flat_map]. unfold h at 2. rewrite Pw, H. now rewrite <- app_assoc. }
    intros [|j] N Wj.
    + rewrite !in_app_iff. left; left. destruct Wj as [B|B]; cbn in B; injection B as B; rewrite B; now left.
    + destruct (hand_works _ _ _ Wj) as (q & B & H'). destruct (worker_at s j q B) as (v & Ev & Pv).
      rewrite !in_app_iff, !in_flat_map. rewrite Ea in Ev. assert (Nj : j <> i) by congruence.
      assert (Kv : In k (h v)) by (unfold h; rewrite Pv, H'; now left).
      destruct (Nat.lt_ge_cases j i) as [L|L].
      * rewrite nth_error_app1 in Ev by lia. apply nth_error_In in Ev. left; right. eauto.
      * rewrite nth_error_app2 in Ev by lia. destruct (j - length a) as [|m] eqn:Em; [lia|]. cbn in Ev. apply nth_error_In in Ev. right. eauto.
Qed.
Lemma calls_nodup s : tally s -> NoDup (ended s ++ busy s) /\ forall k, In k (ended s ++ busy s) -> k < length (jobs s) /\ j_conv (nojob (jobs s) k) = false.
Proof.
  intros [T1 T2 T3 _ _]. split.
  - apply (Permutation_NoDup T3). rewrite T2. apply NoDup_filter, seq_NoDup.
  - intros k Ik. apply (Permutation_in _ (Permutation_sym T3)) in Ik. rewrite T2 in Ik. apply filter_In in Ik as [Ik U]. apply in_seq in Ik. split; [lia|].
    unfold unconv in U. now destruct (j_conv _).
Qed.
Theorem one_thread_per_subsolver s t k : reachable s -> works_on s t k ->
  k < length (jobs s) /\ j_conv (nojob (jobs s) k) = false /\ ~ In k (ended s) /\ NoDup (ended s) /\ (forall t', works_on s t' k -> t' = t).
Proof.
  intros R Wk. pose proof (reachable_inv _ R) as I. pose proof (v_tally _ I (or_introl (works_running _ _ _ I Wk))) as T.
  destruct (calls_nodup s T) as [ND J]. destruct (in_busy s t k Wk) as (a & b & B & O). rewrite B in *.
  assert (X : NoDup (ended s ++ a ++ k :: b)) by exact ND. rewrite app_assoc in X. apply NoDup_remove in X as [X N].
  destruct (J k) as [J1 J2]; [rewrite !in_app_iff; right; right; now left|]. split; [exact J1|]. split; [exact J2|]. split; [|split].
  - intros E. apply N. rewrite !in_app_iff. auto.
  - rewrite <- !app_assoc in X. clear -X. induction (ended s) as [|x l IH]; [constructor|]. cbn in X. inversion X as [|? ? N X']; subst. constructor; [|auto]. intros E. apply N. apply in_app_iff. auto.
  - intros t' Wt. destruct (tid_eq_or t' t) as [E|E]; [exact E|]. exfalso. apply N. specialize (O t' E Wt). rewrite <- app_assoc. apply in_app_iff. auto.
Qed.

(** ** What is done under which lock *)
Theorem shared_under_lock s t p : reachable s -> at_pc s t = Some p ->
  (match p with Loop | Head | After | MInit | MStopping => own_c s = Some t | _ => True end) /\
  (match p with Mark | MInit | MCheck => own_e s = Some t | _ => True end) /\
  (own_c s = Some t -> forall t' p', at_pc s t' = Some p' -> t' <> t -> match p' with Loop | Head | After | MInit | MStopping => False | _ => True end) /\
  (own_e s = Some t -> forall t' p', at_pc s t' = Some p' -> t' <> t -> match p' with Mark | MInit | MCheck => False | _ => True end).
Proof.
  intros R A. pose proof (reachable_inv _ R) as I.
  assert (C : forall t p, at_pc s t = Some p -> holds_c p = true -> own_c s = Some t) by (intros u q B H; apply (v_c _ I); unfold hc; now rewrite B).
  assert (E : forall t p, at_pc s t = Some p -> holds_e t p = true -> own_e s = Some t) by (intros u q B H; apply (v_e _ I); unfold he; now rewrite B).
  split; [|split; [|split]].
  - destruct p; auto; now apply (C _ _ A).
  - destruct p; auto; now apply (E _ _ A).
  - intros O t' p' B N. destruct p'; auto; apply N; specialize (C _ _ B eq_refl); congruence.
  - intros O t' p' B N. destruct p'; auto; apply N; specialize (E _ _ B eq_refl); congruence.
Qed.

(** ** Nobody waits for ever *)
Lemma can_run t p s : at_pc s t = Some p ->
  match p with
  | Solve _ | After => True
  | Loop => True
  | Back _ | CLock | Wake | MStart | MStop => own_c s = None
  | Head | Mark => exists i, t = W i
  | ELock | MLockE | MWake => own_e s = None
  | MInit | MExit | MCheck | MStopping => True
  | _ => False
  end -> exists s', run t s = Some s'.
Proof.
  intros A H. unfold run. rewrite A. destruct p; try contradiction; try rewrite H; eauto.
  - destruct (num s <? length (jobs s)); [destruct (j_conv _)|]; eauto.
  - destruct (j_out _); eauto.
  - destruct H as (i & ->). cbn in A. destruct (nth_error (workers s) i) as [w|]; [|discriminate]. destruct (negb (mt s)); eauto. destruct (negb (w_active w)); eauto. destruct (loop s); eauto.
  - destruct H as (i & ->). eauto.
  - destruct (existsb _ _); eauto.
Qed.
Lemma owner_e_runs s t : inv s -> own_e s = Some t -> t <> Main -> exists s', run t s = Some s'.
Proof.
  intros I O N. apply (v_e _ I) in O. unfold he in O. destruct (at_pc s t) as [p|] eqn:A; [|discriminate]. destruct t as [|i]; [congruence|].
  destruct (worker_at s i p A) as (w & Ew & Pw). pose proof (v_w _ I _ _ Ew) as K. unfold okw in K. rewrite Pw in K.
  destruct p; try discriminate; try (destruct (ph (main s)), (w_active w); discriminate). apply (can_run _ _ _ A). eauto.
Qed.
Lemma owner_c_runs s t : inv s -> own_c s = Some t -> exists t' s', run t' s = Some s'.
Proof.
  intros I O. pose proof O as O'. apply (v_c _ I) in O. unfold hc in O. destruct (at_pc s t) as [p|] eqn:A; [|discriminate].
  assert (X : p <> MLockE -> exists s', run t s = Some s').
  { intros N. apply (can_run _ _ _ A). destruct p; try discriminate; auto; try congruence. destruct t; [|eauto]. cbn in A. injection A as A. pose proof (v_main _ I) as V. rewrite A in V. discriminate. }
  destruct p; try discriminate; try (exists t; now apply X).
  destruct t as [|i].
  - cbn in A. injection A as A. destruct (own_e s) as [[|j]|] eqn:Oe.
    + apply (v_e _ I) in Oe. unfold he in Oe. cbn in Oe. rewrite A in Oe. discriminate.
    + destruct (owner_e_runs s (W j) I Oe) as (s' & E); [discriminate|eauto].
    + exists Main. apply (can_run Main MLockE); [cbn; now rewrite A|exact Oe].
  - destruct (worker_at s i _ A) as (w & Ew & Pw). pose proof (v_w _ I _ _ Ew) as K. unfold okw in K. rewrite Pw in K. destruct (ph (main s)), (w_active w); discriminate.
Qed.
Lemma progress s : inv s -> ~ at_rest s -> exists t s', run t s = Some s'.
Proof.
  intros I N. destruct (own_c s) as [t|] eqn:Oc; [now apply (owner_c_runs s t)|].
  assert (HC : forall t p, at_pc s t = Some p -> holds_c p = false).
  { intros t p A. destruct (holds_c p) eqn:H; [|reflexivity]. assert (X : own_c s = Some t) by (apply (v_c _ I); unfold hc; now rewrite A). congruence. }
  assert (RE : forall t p, at_pc s t = Some p -> p = ELock \/ p = MWake -> holds_e Main (main s) = false -> exists t s', run t s = Some s').
  { intros t p A P M. destruct (own_e s) as [[|j]|] eqn:Oe.
    - apply (v_e _ I) in Oe. unfold he in Oe. cbn in Oe. congruence.
    - destruct (owner_e_runs s (W j) I Oe) as (s' & E); [discriminate|eauto].
    - exists t. apply (can_run t p s A). destruct P as [-> | ->]; exact Oe. }
  assert (AM : at_pc s Main = Some (main s)) by reflexivity. pose proof (HC _ _ AM) as HM. pose proof (v_main _ I) as VM.
  destruct (main s) as [|k|k| | | | | | | | | | | | | | | | | | | | |] eqn:M; try discriminate; try (now destruct N; unfold at_rest; rewrite M; auto);
    try (now exists Main; apply (can_run _ _ _ AM)).
  - (* MSleep *) destruct (v_sleep _ I M) as (i & w & Ew & Aw). pose proof (v_w _ I _ _ Ew) as K. rewrite M in K. cbn in K. rewrite Aw in K.
    assert (A : at_pc s (W i) = Some (w_pc w)) by (cbn; now rewrite Ew). pose proof (HC _ _ A) as H.
    destruct (w_pc w) eqn:Pw; try discriminate; try (now exists (W i); apply (can_run _ _ _ A)).
    + now apply (RE _ _ A); [left|].
    + exists (W i). apply (can_run _ _ _ A). eauto.
  - (* MWake *) now apply (RE _ _ AM); [right|].
  - (* MJoin *) destruct (forallb (fun w => match w_pc w with Exited => true | _ => false end) (workers s)) eqn:F.
    + exists Main. unfold run. rewrite AM, F. eauto.
    + assert (X : exists i w, nth_error (workers s) i = Some w /\ w_pc w <> Exited).
      { clear -F. induction (workers s) as [|w l IH]; [discriminate|]. cbn in F. destruct (w_pc w) eqn:P; try (exists 0, w; split; [reflexivity|congruence]).
        destruct (IH F) as (i & v & E & Nv). now exists (S i), v. }
      destruct X as (i & w & Ew & NX). pose proof (v_w _ I _ _ Ew) as K. rewrite M in K. cbn in K. apply andb_true_iff in K as [_ K].
      assert (A : at_pc s (W i) = Some (w_pc w)) by (cbn; now rewrite Ew). pose proof (HC _ _ A) as H.
      exists (W i). apply (can_run _ _ _ A). destruct (w_pc w); try discriminate; auto; congruence.
Qed.

(** ** A bound on the number of steps *)
Definition wrank (w : worker) : nat :=
  match w_pc w with
  | CLock | Wake => if w_active w then 15 else 3
  | Head => if w_active w then 14 else 2
  | Sleep => if w_active w then 12 else 0
  | Solve _ => 12 | Back _ => 11 | Loop => 10 | After => 9 | ELock => 8 | Mark => 7
  | _ => 0
  end.
Definition extra (m : pc) : nat := match m with MStart | MLockE | MInit => 16 | MStop | MStopping => 4 | _ => 0 end.
Definition mrank (m : pc) (active : bool) : nat :=
  match m with
  | MStart => 16 | MLockE => 15 | MInit => 14
  | Solve _ => 12 | Back _ => 11 | Loop => 10 | MExit => 9
  | MWake => if active then 8 else 5
  | MCheck => if active then 7 else 4
  | MSleep => 6
  | MStop => 3 | MStopping => 2 | MJoin => 1
  | _ => 0
  end.
Definition left_over (s : state) : nat := if starting (main s) then length (jobs s) else length (jobs s) - num s.
Definition wsum (e : nat) (ws : list worker) : nat := fold_right (fun w n => wrank w + e + n) 0 ws.
Definition measure (s : state) : nat :=
  4 * left_over s + mrank (main s) (existsb w_active (workers s)) + wsum (extra (main s)) (workers s).

Lemma wsum_split e a w b : wsum e (a ++ w :: b) = wsum e a + (wrank w + e) + wsum e b.
Proof. unfold wsum. induction a as [|x a IH]; cbn [app fold_right]; [lia|]. rewrite IH. lia. Qed.
Lemma wsum_upd e l i w v : nth_error l i = Some w -> wsum e (upd l i v) + wrank w = wsum e l + wrank v.
Proof. intros E. destruct (upd_split l i v w E) as (a & b & Ea & Eb). rewrite Eb, Ea, !wsum_split. lia. Qed.
Lemma active_upd l i w v : nth_error l i = Some w -> w_active v = w_active w -> existsb w_active (upd l i v) = existsb w_active l.
Proof. intros E A. destruct (upd_split l i v w E) as (a & b & Ea & Eb). rewrite Eb, Ea, !existsb_app. cbn. now rewrite A. Qed.
Lemma mrank_mono m a b : (a = true -> b = true) -> mrank m a <= mrank m b.
Proof. intros H. destruct a, b; try (specialize (H eq_refl); discriminate); destruct m; cbn; lia. Qed.
Lemma wsum_map (f : worker -> worker) e d l : (forall w, In w l -> wrank (f w) <= wrank w + d) -> wsum e (map f l) <= wsum (e + d) l.
Proof.
  induction l as [|w l IH]; intros H; [cbn; lia|]. cbn [map]. specialize (H w (or_introl eq_refl)) as H0.
  assert (IH' := IH (fun v Hv => H v (or_intror Hv))). unfold wsum in *. cbn [fold_right]. lia.
Qed.
(** a step of one thread from [p] to [p'] that leaves the counters alone or takes a subsolver *)
Lemma measure_worker i w p' s s' : nth_error (workers s) i = Some w -> alone (W i) p' s s' -> jobs s' = jobs s ->
  measure s' + 4 * left_over s + wrank w = measure s + 4 * left_over s' + wrank {| w_pc := p'; w_active := w_active w |}.
Proof.
  intros E [M X] J. rewrite (goto_worker _ _ _ _ E) in M, X. cbn [main workers set_workers] in M, X. unfold measure. rewrite M, X.
  rewrite (active_upd _ i w) by auto. pose proof (wsum_upd (extra (main s)) _ i w {| w_pc := p'; w_active := w_active w |} E). lia.
Qed.
Lemma measure_main p' s s' : alone Main p' s s' -> jobs s' = jobs s -> extra p' = extra (main s) ->
  measure s' + 4 * left_over s + mrank (main s) (existsb w_active (workers s)) = measure s + 4 * left_over s' + mrank p' (existsb w_active (workers s)).
Proof. intros [M X] J E. cbn [main workers set_main goto] in M, X. unfold measure. rewrite M, X, E. lia. Qed.
Definition rank_in_loop (p : pc) : nat := match p with Solve _ => 12 | Back _ => 11 | Loop => 10 | _ => 9 end.
Lemma measure_loop t p p' s s' : inv s -> at_pc s t = Some p -> in_loop p = true -> (in_loop p' = true \/ p' = behind t) -> alone t p' s s' -> jobs s' = jobs s ->
  measure s' + 4 * (length (jobs s) - num s) + rank_in_loop p = measure s + 4 * (length (jobs s) - num s') + rank_in_loop p'.
Proof.
  intros I A L L' AL J. destruct (loop_running t p s I A L) as [R R1].
  assert (NS : starting (main s) = false) by (destruct R as [R|R]; destruct (main s); easy).
  assert (LO : left_over s = length (jobs s) - num s) by (unfold left_over; now rewrite NS).
  assert (NS' : starting (main s') = false).
  { destruct AL as [M _]. rewrite M, goto_main. destruct t; [|exact NS]. destruct L' as [L'| ->]; [destruct p'; easy|reflexivity]. }
  assert (LO' : left_over s' = length (jobs s) - num s') by (unfold left_over; now rewrite NS', J).
  rewrite <- LO, <- LO'. destruct t as [|i].
  - cbn in A. injection A as A. subst p. pose proof (measure_main p' s s' AL J) as H.
    assert (E1 : mrank (main s) (existsb w_active (workers s)) = rank_in_loop (main s)) by (destruct (main s); easy).
    assert (E2 : mrank p' (existsb w_active (workers s)) = rank_in_loop p') by (destruct L' as [L'| ->]; [destruct p'; easy|reflexivity]).
    rewrite E1, E2 in H. apply H. destruct (main s); try discriminate; destruct L' as [L'| ->]; try reflexivity; destruct p'; easy.
  - destruct (worker_at s i p A) as (w & Ew & Pw). pose proof (measure_worker i w p' s s' Ew AL J) as H.
    assert (E1 : wrank w = rank_in_loop p) by (unfold wrank; rewrite Pw; destruct p; easy).
    assert (E2 : wrank {| w_pc := p'; w_active := w_active w |} = rank_in_loop p') by (unfold wrank; cbn; destruct L' as [L'| ->]; [destruct p'; easy|reflexivity]).
    rewrite E1, E2 in H. exact H.
Qed.
Lemma left_over_same s s' : main s' = main s -> jobs s' = jobs s -> num s' = num s -> left_over s' = left_over s.
Proof. intros M J N. unfold left_over. now rewrite M, J, N. Qed.
Lemma upd_same_workers s i w p s' : nth_error (workers s) i = Some w -> alone (W i) p s s' -> workers s' = upd (workers s) i {| w_pc := p; w_active := w_active w |}.
Proof. intros E [_ X]. now rewrite (goto_worker _ _ _ _ E) in X. Qed.
Lemma measure_run_loop t s s' p : inv s -> at_pc s t = Some p -> in_loop p = true -> run t s = Some s' -> measure s' < measure s.
Proof.
  intros I A L E. pose proof (run_jobs t s s' E) as J. unfold run in E. rewrite A in E.
  assert (H : forall p', alone t p' s s' -> (in_loop p' = true \/ p' = behind t) -> measure s' + 4 * (length (jobs s) - num s) + rank_in_loop p = measure s + 4 * (length (jobs s) - num s') + rank_in_loop p')
    by (intros p' AL L'; now apply (measure_loop t p p' s s')).
  destruct p; try discriminate.
  - destruct (Nat.ltb_spec (num s) (length (jobs s))) as [N|N].
    + destruct (j_conv _); apply some_inj in E; subst s'; autorewrite with goto in H; cbn [num set_counts set_c] in H.
      * specialize (H Loop). cbn [rank_in_loop] in H. assert (X := H ltac:(now apply alone_stay) (or_introl eq_refl)). lia.
      * specialize (H (Solve (num s))). cbn [rank_in_loop] in H. assert (X := H ltac:(now apply goto_workers_eq) (or_introl eq_refl)). lia.
    + apply some_inj in E; subst s'. unfold leave in *. specialize (H (behind t) ltac:(now apply goto_workers_eq) (or_intror eq_refl)). autorewrite with goto in H.
      cbn [num set_loop] in H. destruct t; cbn [rank_in_loop behind] in H |- *; lia.
  - apply some_inj in E; subst s'. specialize (H (Back k) ltac:(now apply goto_workers_eq) (or_introl eq_refl)). autorewrite with goto in H. cbn [rank_in_loop] in H. lia.
  - destruct (own_c s); [discriminate|]. cbn [jobs set_c] in E. destruct (j_out _); apply some_inj in E; subst s'; unfold leave in *.
    + specialize (H Loop ltac:(now apply goto_workers_eq) (or_introl eq_refl)). autorewrite with goto in H. cbn [rank_in_loop num set_c set_counts] in H |- *. lia.
    + specialize (H Loop ltac:(now apply goto_workers_eq) (or_introl eq_refl)). autorewrite with goto in H. cbn [rank_in_loop num set_c set_counts] in H |- *. lia.
    + specialize (H (behind t) ltac:(now apply goto_workers_eq) (or_intror eq_refl)). autorewrite with goto in H. cbn [rank_in_loop num set_c set_counts set_loop] in H |- *.
      destruct t; cbn [rank_in_loop behind] in H |- *; lia.
Qed.
Lemma measure_run_worker i s s' w : inv s -> nth_error (workers s) i = Some w -> in_loop (w_pc w) = false -> run (W i) s = Some s' -> measure s' < measure s.
Proof.
  intros I Ew L E. pose proof (run_jobs _ s s' E) as J. assert (A : at_pc s (W i) = Some (w_pc w)) by (cbn; now rewrite Ew). unfold run in E. rewrite A, Ew in E.
  pose proof (v_w _ I _ _ Ew) as K.
  assert (G : forall p' s1, main s1 = main s -> workers s1 = workers s -> num s1 = num s -> s' = goto (W i) p' s1 -> wrank {| w_pc := p'; w_active := w_active w |} < wrank w -> measure s' < measure s).
  { intros p' s1 M X N Es R. assert (AL : alone (W i) p' s s') by (rewrite Es; now apply goto_workers_eq).
    pose proof (measure_worker i w p' s s' Ew AL J) as H. rewrite (left_over_same s s') in H; [lia| |exact J|].
    - rewrite Es, goto_main. exact M.
    - rewrite Es. now autorewrite with goto. }
  destruct (w_pc w) eqn:P; try discriminate;
    try (exfalso; unfold okw in K; rewrite P in K; destruct (ph (main s)), (w_active w); discriminate).
  - destruct (own_c s); [discriminate|]. apply some_inj in E. refine (G _ _ _ _ _ E _); [reflexivity|reflexivity|reflexivity|]. unfold wrank. rewrite P. cbn. destruct (w_active w); lia.
  - destruct (negb (mt s)); [|destruct (negb (w_active w)) eqn:Aw; [|destruct (loop s)]]; apply some_inj in E; (refine (G _ _ _ _ _ E _); [reflexivity|reflexivity|reflexivity|]); unfold wrank; rewrite P; cbn; destruct (w_active w); try discriminate; lia.
  - destruct (own_c s); [discriminate|]. apply some_inj in E. refine (G _ _ _ _ _ E _); [reflexivity|reflexivity|reflexivity|]. unfold wrank. rewrite P. cbn. destruct (w_active w); lia.
  - apply some_inj in E. refine (G _ _ _ _ _ E _); [reflexivity|reflexivity|reflexivity|]. unfold wrank. rewrite P. cbn. lia.
  - destruct (own_e s); [discriminate|]. apply some_inj in E. refine (G _ _ _ _ _ E _); [reflexivity|reflexivity|reflexivity|]. unfold wrank. rewrite P. cbn. lia.
  - apply some_inj in E. cbv zeta in E. set (w1 := {| w_pc := CLock; w_active := false |}) in *.
    assert (F : ph (main s) = Run2) by (unfold okw in K; rewrite P in K; destruct (ph (main s)), (w_active w); easy).
    assert (WS : forall e, wsum e (upd (workers s) i w1) + 7 = wsum e (workers s) + 3).
    { intros e. pose proof (wsum_upd e _ i w w1 Ew) as H. unfold wrank in H. rewrite P in H. exact H. }
    destruct (existsb w_active (upd (workers s) i w1)) eqn:X; subst s'; unfold measure.
    + cbn [main workers set_e set_workers]. rewrite X. specialize (WS (extra (main s))).
      assert (X' : existsb w_active (workers s) = true).
      { destruct (upd_split _ _ w1 _ Ew) as (a & b & Ea & Eb). rewrite Eb in X. rewrite Ea. rewrite existsb_app in *. cbn in X |- *. apply orb_true_iff in X as [X|X]; rewrite X; [reflexivity|]. now rewrite !orb_true_r. }
      rewrite X'. change (left_over (set_e None (set_workers (upd (workers s) i w1) s))) with (left_over s). lia.
    + unfold broadcast_e, left_over. cbn [main workers set_e set_workers]. destruct (main s) eqn:Ms; try discriminate F; cbn [main workers set_e set_workers set_main starting jobs num extra mrank]; specialize (WS 0); rewrite ?Ms; cbn [starting extra mrank]; rewrite X; try destruct (existsb w_active (workers s)); lia.
Qed.
Lemma measure_run_main s s' : inv s -> in_loop (main s) = false -> run Main s = Some s' -> measure s' < measure s.
Proof.
  intros I L E. unfold run in E. cbn [at_pc] in E. unfold measure, left_over. pose proof (v_main _ I) as VM. destruct (main s) eqn:M; try discriminate.
  - destruct (own_c s); [discriminate|]. apply some_inj in E. subst s'. cbn [main workers set_main set_c set_e set_workers jobs num starting extra mrank]. try (cbn [wsum fold_right]); lia.
  - destruct (own_e s); [discriminate|]. apply some_inj in E. subst s'. cbn [main workers set_main set_c set_e set_workers jobs num starting extra mrank]. try (cbn [wsum fold_right]); lia.
  - apply some_inj in E. subst s'. unfold broadcast_c. cbn [main workers set_main set_workers set_loop set_counts jobs num starting extra mrank]. rewrite map_map.
    pose proof (wsum_map (fun w => wake {| w_pc := w_pc w; w_active := true |}) 0 16 (workers s)) as H. cbn [Nat.add] in H.
    assert (H' : wsum 0 (map (fun w => wake {| w_pc := w_pc w; w_active := true |}) (workers s)) <= wsum 16 (workers s)); [|lia].
    apply H. intros w _. unfold wrank, wake. destruct w as [[] []]; cbn; lia.
  - apply some_inj in E. subst s'. cbn [main workers set_main set_c set_e set_workers jobs num starting extra mrank]. try (cbn [wsum fold_right]); lia.
  - destruct (own_e s); [discriminate|]. apply some_inj in E. subst s'. cbn [main workers set_main set_e jobs num starting extra mrank]. destruct (existsb _ _); lia.
  - destruct (existsb _ _) eqn:X; apply some_inj in E; subst s'; cbn [main workers set_main set_e jobs num starting extra mrank]; lia.
  - destruct (own_c s); [discriminate|]. apply some_inj in E. subst s'. cbn [main workers set_main set_c set_e set_workers jobs num starting extra mrank]. try (cbn [wsum fold_right]); lia.
  - apply some_inj in E. subst s'. unfold broadcast_c. cbn [main workers set_main set_workers set_c set_mt jobs num starting extra mrank].
    pose proof (wsum_map wake 0 4 (workers s)) as H. cbn [Nat.add] in H. assert (H' : wsum 0 (map wake (workers s)) <= wsum 4 (workers s)); [|lia].
    apply H. intros w _. unfold wrank, wake. destruct w as [[] []]; cbn; lia.
  - destruct (forallb _ _); [|discriminate]. apply some_inj in E. subst s'. cbn [main workers set_main set_c set_e set_workers jobs num starting extra mrank]. try (cbn [wsum fold_right]); lia.
Qed.
Lemma measure_run t s s' : inv s -> run t s = Some s' -> measure s' < measure s.
Proof.
  intros I E. destruct (at_pc s t) as [p|] eqn:A; [|unfold run in E; rewrite A in E; discriminate].
  destruct (in_loop p) eqn:L; [now apply (measure_run_loop t s s' p)|]. destruct t as [|i].
  - cbn in A. injection A as A. subst p. now apply measure_run_main.
  - destruct (worker_at s i p A) as (w & Ew & Pw). subst p. now apply (measure_run_worker i s s' w).
Qed.
Lemma measure_step s l s' : inv s -> step s l s' -> l <> Outside -> S (measure s') <= measure s + if is_spurious l then 4 else 0.
Proof.
  intros I St N. destruct St as [s t s' E|s i A|s M| | |]; try congruence; cbn [is_spurious].
  - pose proof (measure_run t s s' I E). lia.
  - destruct (worker_at s i Sleep A) as (w & Ew & Pw). pose proof (measure_worker i w Wake s (goto (W i) Wake s) Ew ltac:(split; reflexivity) ltac:(now autorewrite with goto)) as H.
    rewrite (left_over_same s (goto (W i) Wake s)) in H by (rewrite ?goto_main; autorewrite with goto; reflexivity). unfold wrank in H. rewrite Pw in H. cbn [w_pc w_active] in H. destruct (w_active w); lia.
  - unfold measure, left_over. cbn [main workers set_main jobs num]. rewrite M. cbn [starting mrank extra]. destruct (existsb _ _); lia.
Qed.
Lemma measure_steps s ls s' : inv s -> steps s ls s' -> inside ls -> length ls + measure s' <= measure s + 4 * length (filter is_spurious ls).
Proof.
  intros I St. induction St as [s|s l s1 ls s2 St _ IH]; intros IN; [cbn; lia|]. inversion IN as [|? ? N IN']; subst.
  pose proof (step_inv s l s1 I St) as I1. specialize (IH I1 IN'). pose proof (measure_step s l s1 I St N). cbn [length filter]. destruct (is_spurious l); cbn [length]; lia.
Qed.
Lemma measure_bound s : measure s <= 16 + 4 * length (jobs s) + 31 * length (workers s).
Proof.
  unfold measure. assert (H : forall e ws, e <= 16 -> wsum e ws <= 31 * length ws).
  { intros e ws L. induction ws as [|w ws IH]; [cbn; lia|]. unfold wsum in *. cbn [fold_right length]. assert (wrank w <= 15); [|lia]. unfold wrank. destruct (w_pc w), (w_active w); lia. }
  specialize (H (extra (main s)) (workers s)). assert (extra (main s) <= 16) by (destruct (main s); cbn; lia).
  assert (mrank (main s) (existsb w_active (workers s)) <= 16) by (destruct (main s), (existsb _ _); cbn; lia).
  assert (left_over s <= length (jobs s)) by (unfold left_over; destruct (starting _); lia). lia.
Qed.
(** As long as the main thread is in one of the functions, some thread can go on; and there is a bound on the number of
    steps, that wake-ups without a broadcast raise by 4 each. *)
Theorem threads_never_stuck s : reachable s ->
  (~ at_rest s -> exists t s', step s (Thr t) s') /\
  (forall ls s', steps s ls s' -> inside ls -> length ls <= 16 + 4 * length (jobs s) + 31 * length (workers s) + 4 * length (filter is_spurious ls)) /\
  (forall ls s', steps s ls s' -> inside ls -> (forall t s2, ~ step s' (Thr t) s2) -> at_rest s').
Proof.
  intros R. pose proof (reachable_inv _ R) as I. split; [|split].
  - intros N. destruct (progress s I N) as (t & s' & E). exists t, s'. now constructor.
  - intros ls s' St IN. pose proof (measure_steps s ls s' I St IN). pose proof (measure_bound s). lia.
  - intros ls s' St IN NO. pose proof (steps_inv s ls s' I St) as I'.
    assert (D : at_rest s' \/ ~ at_rest s') by (unfold at_rest; destruct (main s'); auto; right; intuition discriminate).
    destruct D as [D|D]; [exact D|]. destruct (progress s' I' D) as (t & s2 & E). exfalso. apply (NO t s2). now constructor.
Qed.

(** ** Where the main thread comes out *)
Definition kind (m : pc) : nat :=
  match m with MIdle => 0 | MStop | MStopping | MJoin | MStopped => 1 | _ => 2 end.
Lemma run_kind t s s' : inv s -> run t s = Some s' -> kind (main s') = kind (main s).
Proof.
  intros I E. pose proof (v_main _ I) as VM. unfold run in E. destruct (at_pc s t) as [p|] eqn:A; [|discriminate]. destruct t as [|i].
  - cbn in A. injection A as A. destruct p; rewrite A in VM; try discriminate VM; rewrite A; repeat match type of E with
    | (if ?b then _ else _) = _ => destruct b
    | match ?b with _ => _ end = _ => destruct b
    end; try discriminate; apply some_inj in E; rewrite E; cbn; now rewrite ?A.
  - destruct p; repeat match type of E with
    | (if ?b then _ else _) = _ => destruct b
    | match ?b with _ => _ end = _ => destruct b
    end; try discriminate; apply some_inj in E; rewrite E; unfold leave, broadcast_c; rewrite ?goto_main; try reflexivity;
    try (exfalso; destruct (worker_at s i _ A) as (w & Ew & Pw); pose proof (v_w _ I _ _ Ew) as K; unfold okw in K; rewrite Pw in K; destruct (ph (main s)), (w_active w); discriminate).
    cbv zeta. destruct (existsb _ _); [reflexivity|]. unfold broadcast_e. cbn [main set_e set_workers]. destruct (main s) eqn:M; cbn; now rewrite ?M.
Qed.
Lemma steps_kind s ls s' : inv s -> steps s ls s' -> inside ls -> kind (main s') = kind (main s).
Proof.
  intros I St. induction St as [|s l s1 ls s2 St _ IH]; intros IN; [reflexivity|]. inversion IN as [|? ? N IN']; subst. rewrite (IH (step_inv _ _ _ I St) IN').
  destruct St as [s t s' E|s i A|s M| | |]; try congruence; [now apply (run_kind t)|now rewrite goto_main|cbn; now rewrite M].
Qed.
(** activateSubsolverWorkers comes back, or throws; stopWorkerThreads comes back, and there are no threads any more *)
Theorem threads_come_back s ls s' : reachable s -> inside ls -> (forall t s2, ~ step s' (Thr t) s2) ->
  (forall js, step s Outside (activate js s) -> steps (activate js s) ls s' -> activation s js s') /\
  (forall b, step s Outside (set_main MStop (set_mt b s)) -> steps (set_main MStop (set_mt b s)) ls s' -> main s' = MStopped /\ workers s' = []).
Proof.
  intros R IN NO. assert (RR : forall s1, step s Outside s1 -> steps s1 ls s' -> at_rest s' /\ inv s' /\ kind (main s') = kind (main s1)).
  { intros s1 St Ss. assert (R1 : reachable s1) by (apply (reachable_steps s [Outside]); [exact R|econstructor; [exact St|constructor]]).
    pose proof (reachable_inv _ R1) as I1. split; [|split; [exact (steps_inv _ _ _ I1 Ss)|now apply (steps_kind s1 ls)]].
    destruct (threads_never_stuck s1 R1) as (_ & _ & H). exact (H ls s' Ss IN NO). }
  split.
  - intros js St Ss. destruct (RR _ St Ss) as (A & _ & K). split; [exact R|]. split; [exact St|]. exists ls. split; [exact Ss|]. split; [exact IN|].
    destruct A as [A|[A|A]]; [|exact A|]; rewrite A in K; discriminate.
  - intros b St Ss. destruct (RR _ St Ss) as (A & I & K). destruct A as [A|[A|A]]; try (rewrite A in K; discriminate). split; [exact A|exact (v_none _ I A)].
Qed.

(** ** Executions *)
Fixpoint play (ts : list tid) (s : state) : option state :=
  match ts with [] => Some s | t :: ts => match run t s with Some s' => play ts s' | None => None end end.
Lemma play_steps ts s s' : play ts s = Some s' -> steps s (map Thr ts) s' /\ inside (map Thr ts).
Proof.
  revert s. induction ts as [|t ts IH]; intros s E; cbn in E.
  - injection E as <-. split; constructor.
  - destruct (run t s) as [s1|] eqn:R; [|discriminate]. destruct (IH s1 E) as [A B]. split; [econstructor; [apply step_run; exact R|exact A]|constructor; [discriminate|exact B]].
Qed.
(** two workers have gone to sleep *)
Definition ready (n : nat) : option state := play (flat_map (fun i => [W i; W i]) (seq 0 n)) (launch n state0).
Lemma ready_reachable n s : n <> 0 -> ready n = Some s -> reachable s.
Proof.
  intros N E. destruct (play_steps _ _ _ E) as [A _]. exists (Outside :: map Thr (flat_map (fun i => [W i; W i]) (seq 0 n))). econstructor; [|exact A]. now apply step_launch.
Qed.
Lemma play_activation n s js ts s' : n <> 0 -> ready n = Some s -> main s = MIdle -> workers s <> [] -> play ts (activate js s) = Some s' -> main s' = MDone -> activation s js s'.
Proof.
  intros N R M NE P D. destruct (play_steps _ _ _ P) as [A B]. split; [now apply (ready_reachable n)|]. split; [apply step_activate; auto|]. eauto.
Qed.
Definition start : list tid := [Main; Main; Main].
Definition quit (i : nat) : list tid := [W i; W i; W i].           (* After, ELock, Mark *)
Definition come (i : nat) : list tid := [W i; W i].                (* Wake, Head *)
Definition ja := {| j_conv := false; j_out := Converges |}.
Definition jb := {| j_conv := true; j_out := Goes_on |}.
Definition jc := {| j_conv := false; j_out := Goes_on |}.
Definition jx := {| j_conv := false; j_out := Throws |}.
(** the main thread and two workers share four subsolvers, one of them converged before *)
Definition shared : list tid :=
  start ++ [Main] ++ come 1 ++ [W 1; W 1] ++ come 0 ++ [W 0; Main; W 1; W 0; W 0; W 0; W 0] ++ [W 1; W 1; W 1] ++ [Main; Main; Main] ++ [W 0; W 0; W 1; W 1] ++ [Main; Main].
Definition outcome_of (js : list job) (ts : list tid) : option (pc * nat * nat * list nat * list nat) :=
  match ready 2 with
  | Some s => option_map (fun s => (main s, exc s, nconv s, calls s, ended s)) (play ts (activate js s))
  | None => None
  end.
Example ex_shared : outcome_of [ja; jb; jc; ja] shared = Some (MDone, 0, 3, [0; 2; 3], [3; 2; 0]).
Proof. vm_compute. reflexivity. Qed.
Example ex_shared_alone : one_by_one [ja; jb; jc; ja] 0 = Some 3 /\ to_solve [ja; jb; jc; ja] = [0; 2; 3].
Proof. vm_compute. auto. Qed.
Lemma outcome_activation js ts x c cs es : outcome_of js ts = Some (MDone, x, c, cs, es) ->
  exists s s', ready 2 = Some s /\ activation s js s' /\ exc s' = x /\ nconv s' = c /\ calls s' = cs /\ ended s' = es.
Proof.
  unfold outcome_of. destruct (ready 2) as [s|] eqn:R; [|discriminate]. destruct (play ts (activate js s)) as [s'|] eqn:P; [|discriminate].
  cbn [option_map]. intros E. injection E as E1 E2 E3 E4 E5. exists s, s'. split; [reflexivity|]. split; [|auto].
  apply (play_activation 2 s js ts s'); auto; vm_compute in R; injection R as <-; [reflexivity|discriminate].
Qed.
Example ex_shared_done : exists s s', activation s [ja; jb; jc; ja] s' /\ exc s' = 0 /\ nconv s' = 3 /\ ended s' = [3; 2; 0].
Proof. destruct (outcome_activation _ _ _ _ _ _ ex_shared) as (s & s' & _ & A & E1 & E2 & E3 & E4). eauto 10. Qed.

(** When subsolvers throw, how many exceptions are reported, and which of the other subsolvers are solved, depends on
    the threads: a thread that comes late finds wt_solve_loop_ cleared, one that is in the loop goes on. *)
Definition late : list tid := start ++ [Main; Main; Main; Main] ++ come 0 ++ quit 0 ++ come 1 ++ quit 1 ++ [Main; Main].
Definition early : list tid :=
  start ++ [Main] ++ come 0 ++ [W 0] ++ come 1 ++ [W 1] ++ [W 1; W 1; W 1; W 1] ++ [W 0; W 0; W 0] ++ [Main; Main; Main] ++ [W 0; W 0; W 1; W 1] ++ [Main; Main].
Example ex_late : outcome_of [jx; jx; ja] late = Some (MDone, 1, 0, [0], [0]).
Proof. vm_compute. reflexivity. Qed.
Example ex_early : outcome_of [jx; jx; ja] early = Some (MDone, 2, 1, [0; 1; 2], [2; 1; 0]).
Proof. vm_compute. reflexivity. Qed.
Theorem thread_exceptions_refuted : exists s js s1 s2, activation s js s1 /\ activation s js s2 /\
  exc s1 = 1 /\ exc s2 = 2 /\ ended s1 = [0] /\ Permutation (ended s2) (to_solve js).
Proof.
  destruct (outcome_activation _ _ _ _ _ _ ex_late) as (s & s1 & R1 & A1 & X1 & _ & _ & E1). destruct (outcome_activation _ _ _ _ _ _ ex_early) as (s' & s2 & R2 & A2 & X2 & _ & _ & E2).
  assert (s' = s) by congruence. subst s'. exists s, [jx; jx; ja], s1, s2. repeat (split; [assumption|]). rewrite E2. change (to_solve [jx; jx; ja]) with (rev [2; 1; 0]). apply Permutation_rev.
Qed.

(** Stopping the threads: after an activation, whatever the workers are doing *)
Example ex_stop :
  match ready 2 with
  | Some s => match play shared (activate [ja; jb; jc; ja] s) with
              | Some s1 => option_map (fun s => (main s, workers s)) (play [W 0; W 0; Main; Main; W 1; W 1; Main] (set_main MStop (set_mt false s1)))
              | None => None
              end
  | None => None
  end = Some (MStopped, []).
Proof. vm_compute. reflexivity. Qed.

Print Assumptions threads_solve_all.
Print Assumptions one_thread_per_subsolver.
Print Assumptions shared_under_lock.
Print Assumptions threads_never_stuck.
Print Assumptions thread_exceptions_refuted.
Print Assumptions threads_come_back.
