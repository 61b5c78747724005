(** C30-C32: child poll order and synchronous polls. *)
From Coq Require Import String Permutation Sorted.
From Verif Require Import Base Poll_Model Poll_Spec Poll_Proofs.
Local Open Scope Z_scope.

(** C30 *)
Lemma find_denote ch nm i : distinct_names ch -> find_child nm 0 ch = Some i <-> nth_error ch i = Some (Some nm).
Proof.
  intro D. split.
  - intro H. destruct (find_child_some _ _ _ _ H) as (_ & E & _). now rewrite Nat.sub_0_r in E.
  - intro H. destruct (find_child nm 0 ch) as [j|] eqn:F.
    + destruct (find_child_some _ _ _ _ F) as (_ & E & _). rewrite Nat.sub_0_r in E. f_equal. eapply D; eauto.
    + exfalso. exact (find_child_none _ _ _ F i H).
Qed.
Theorem child_poll_order : forall ch ord names, distinct_names ch -> length ord = length ch ->
  (forall idx, denote ch names idx -> NoDup names -> exists ord', setChildPollOrder ch ord names = (ord', Ok tt) /\ good_order (length ch) idx ord') /\
  ((~ exists idx, denote ch names idx) \/ ~ NoDup names -> snd (setChildPollOrder ch ord names) = Err).
Proof.
  intros ch ord names Dn L. pose proof (set_order_ok ch ord names L) as H. destruct (setChildPollOrder ch ord names) as [ord' [[]| |]]; [| |contradiction].
  - destruct H as (idx & F & Nd & G).
    assert (De : denote ch names idx). { clear - F Dn. unfold denote. induction F; constructor; auto. now apply find_denote. }
    assert (Nn : NoDup names).
    { clear - F Nd. induction F as [|n i ns is E F IH]; constructor; inversion_clear Nd; auto. intro Hin. apply H. clear - F E Hin. induction F as [|m j ms js E2 F IH]; [destruct Hin|]. destruct Hin as [<-|Hin]; [left; congruence|right; auto]. }
    split.
    + intros idx' De' _. exists ord'. split; [reflexivity|]. replace idx' with idx; [exact G|]. clear - De De' Dn. revert idx De. induction De' as [|n i ns is E F IH]; intros idx De; inversion_clear De; [reflexivity|]. f_equal; [eapply Dn; eauto|auto].
    + intros [X|X]; exfalso; [apply X; eauto|contradiction].
  - split; [|reflexivity]. intros idx De Nd. exfalso. destruct H as [H|(p & nm & q & -> & H)].
    + assert (Li : length idx = length names) by (clear - De; unfold denote in De; induction De; cbn; auto).
      assert (Ni : NoDup idx).
      { clear - De Nd. unfold denote in De. induction De as [|n i ns is E F IH]; constructor; inversion_clear Nd; auto. intro Hin. apply H. clear - F E Hin. induction F as [|m j ms js E2 F IH]; [destruct Hin|]. destruct Hin as [<-|Hin]; [left; congruence|right; auto]. }
      assert (Ic : incl idx (seq 0 (length ch))).
      { intros i Hi. apply in_seq. split; [lia|]. cbn. clear - De Hi. unfold denote in De. induction De as [|n j ns is E F IH]; [destruct Hi|]. destruct Hi as [<-|Hi]; [apply nth_error_Some; congruence|auto]. }
      pose proof (NoDup_incl_length Ni Ic) as X. rewrite seq_length in X. lia.
    + unfold denote in De. apply Forall2_app_inv_l in De as (i1 & i2 & D1 & D2 & ->). inversion D2 as [|? i ? is E F]; subst. destruct H as [H|(j & n2 & H1 & H2 & H3)].
      * exact (find_child_none _ _ _ H i E).
      * apply (find_denote _ _ _ Dn) in H1, H3. assert (n2 = nm) as -> by congruence. apply NoDup_remove_2 in Nd. apply Nd. apply in_app_iff. now left.
Qed.
Print Assumptions child_poll_order.
(** whatever the names, an order that is accepted is good *)
Theorem child_poll_order_accepted : forall ch ord names ord', length ord = length ch -> setChildPollOrder ch ord names = (ord', Ok tt) ->
  exists idx, denote ch names idx /\ good_order (length ch) idx ord'.
Proof.
  intros ch ord names ord' L E. pose proof (set_order_ok ch ord names L) as H. rewrite E in H. destruct H as (idx & F & _ & G). exists idx. split; [|exact G].
  clear - F. unfold denote. induction F as [|n i ns is E F IH]; constructor; auto. destruct (find_child_some _ _ _ _ E) as (_ & H & _). now rewrite Nat.sub_0_r in H.
Qed.
Print Assumptions child_poll_order_accepted.
(** a refused order has already been written in part: one child is then polled twice and
    another not at all *)
Theorem child_poll_order_refused_unchanged_refuted : forall a b x rest, a <> b -> x <> a -> x <> b -> ~ In (Some x) rest ->
  let ch := Some a :: Some b :: rest in
  exists ord', setChildPollOrder ch (default_order (length ch)) [b; x] = (ord', Err) /\ hd_error ord' = Some 1%nat /\ nth_error ord' 1 = Some 1%nat /\ ~ In 0%nat ord'.
Proof.
  intros a b x rest Nab Nxa Nxb Nx ch. exists (1%nat :: seq 1 (length rest + 1)).
  assert (F : forall i, find_child x i rest = None).
  { clear - Nx. induction rest as [|[s|] rest IH]; intro i; cbn [find_child]; auto.
    - destruct (String.eqb_spec s x) as [->|N]; [exfalso; apply Nx; now left|]. apply IH. intro H. apply Nx. now right.
    - apply IH. intro H. apply Nx. now right. }
  assert (E : order_names ch [b; x] (default_order (length ch)) (repeat false (length ch)) 0 = (1%nat :: seq 1 (length rest + 1), Err)).
  { unfold ch. cbn [order_names find_child]. destruct (String.eqb_spec a b); [contradiction|]. rewrite String.eqb_refl. cbn [length repeat nth]. destruct (String.eqb_spec a x); [congruence|]. destruct (String.eqb_spec b x); [congruence|]. rewrite F.
    unfold default_order. cbn [seq set_nat]. rewrite Nat.add_comm. reflexivity. }
  split; [|split; [reflexivity|split]].
  - unfold setChildPollOrder. destruct (Nat.ltb_spec (length ch) (length [b; x])) as [H|H]; [unfold ch in H; cbn in H; lia|]. rewrite E. reflexivity.
  - rewrite Nat.add_comm. reflexivity.
  - intros [H|H]; [discriminate|]. apply in_seq in H. lia.
Qed.
Print Assumptions child_poll_order_refused_unchanged_refuted.

(** C31: whenever a multithreaded poll has returned, its results, codes and fails are those of
    the same polls done one after the other in a single thread, and so is what it returns *)
Theorem sync_poll_schedule_independent : forall R F (fails_of : R -> list F) cf exec (g0 : got R) s,
  (forall k, quiet cf (fun i => fst (exec k i))) -> msteps cf exec (start cf 0 [] [] 0 g0) s -> m_parent s = PDone ->
  same_poll (m_got s) (before cf exec g0 (S (m_k s))) /\
  let a := finish fails_of cf (m_got s) in let b := finish fails_of cf (before cf exec g0 (S (m_k s))) in
  fst a = fst b /\ match snd a, snd b with Some l, Some m => Permutation l m | None, None => True | _, _ => False end.
Proof.
  intros R F fails_of cf exec g0 s Q H Hd. pose proof (inv_reach cf exec Q g0 s H) as I. destruct (inv_done cf exec Q g0 s I Hd) as (_ & _ & P).
  split; [exact P|]. destruct P as (_ & _ & C & P). unfold finish. cbn [fst snd]. rewrite C. split; [reflexivity|].
  destruct (is_ignore (c_fail cf)); [exact Logic.I|]. destruct (g_fails (m_got s)) as [|x l] eqn:E1, (g_fails (before cf exec g0 (S (m_k s)))) as [|y m] eqn:E2; auto.
  - apply Permutation_nil in P. discriminate.
  - apply Permutation_sym, Permutation_nil in P. discriminate.
  - clear - P. remember (x :: l) as a. remember (y :: m) as b. clear - P. induction P; cbn [flat_map]; auto.
    + now apply Permutation_app_head. + rewrite !app_assoc. apply Permutation_app_tail, Permutation_app_comm. + eapply Permutation_trans; eauto.
Qed.
Print Assumptions sync_poll_schedule_independent.

(** C31: what a finished poll returns, bit by bit.  Some enabled child's code has the bit; the FAIL
    and MISSING bits are left out if the policy is to ignore them.  The fails returned are those
    of the results of the children whose code says FAIL, unless they are ignored. *)
Lemma lor_bits l : forall z n, 0 <= n -> Z.testbit (fold_left Z.lor l z) n = true <-> Z.testbit z n = true \/ exists c, In c l /\ Z.testbit c n = true.
Proof.
  induction l as [|x l IH]; intros z n Hn; cbn [fold_left].
  - split; [auto|]. intros [H|(c & [] & _)]; exact H.
  - rewrite (IH _ _ Hn), Z.lor_spec, orb_true_iff. split.
    + intros [[H|H]|(c & H & B)]; [auto|right; exists x; cbn; auto|right; exists c; cbn; auto].
    + intros [H|(c & [<-|H] & B)]; eauto.
Qed.
Lemma has_bit c n : 0 <= n -> has c (2 ^ n) = Z.testbit c n.
Proof.
  intro Hn. unfold has. destruct (Z.testbit c n) eqn:E; destruct (Z.eqb_spec (Z.land c (2 ^ n)) 0) as [Z0|Z0]; auto; exfalso.
  - assert (B : Z.testbit (Z.land c (2 ^ n)) n = true) by (rewrite Z.land_spec, E, Z.pow2_bits_true by exact Hn; reflexivity). rewrite Z0, Z.bits_0 in B. discriminate.
  - apply Z0. apply Z.bits_inj'. intros m Hm. rewrite Z.land_spec, Z.bits_0, Z.pow2_bits_eqb by exact Hn. destruct (Z.eqb_spec n m) as [<-|]; [now rewrite E|apply andb_false_r].
Qed.
Lemma drop_bit c k n : 0 <= k -> 0 <= n -> Z.testbit (Z.ldiff c (2 ^ k)) n = Z.testbit c n && negb (k =? n).
Proof. intros Hk Hn. rewrite Z.ldiff_spec, Z.pow2_bits_eqb by exact Hk. reflexivity. Qed.
Theorem sync_poll_code : forall R F (fails_of : R -> list F) cf exec (g0 : got R) s,
  (forall k, quiet cf (fun i => fst (exec k i))) -> msteps cf exec (start cf 0 [] [] 0 g0) s -> m_parent s = PDone ->
  let polled i := In i (c_order cf) /\ c_enabled cf i = true in
  let (code, fails) := finish fails_of cf (m_got s) in
  (forall bit, 0 <= bit -> has code (2 ^ bit) = true <->
     (exists i, polled i /\ has (fst (exec (m_k s) i)) (2 ^ bit) = true) /\
     (2 ^ bit = RES_FAIL -> c_fail cf <> PolIgnore) /\ (2 ^ bit = RES_MISSING -> c_missing cf <> PolIgnore)) /\
  match fails with
  | None => c_fail cf = PolIgnore \/ forall i, polled i -> has (fst (exec (m_k s) i)) RES_FAIL = false
  | Some l => c_fail cf <> PolIgnore /\ (exists i, polled i /\ has (fst (exec (m_k s) i)) RES_FAIL = true) /\
      forall f, In f l <-> exists i, polled i /\ has (fst (exec (m_k s) i)) RES_FAIL = true /\ In f (fails_of (snd (exec (m_k s) i)))
  end.
Proof.
  intros R F fails_of cf exec g0 s Q H Hd polled. pose proof (inv_reach cf exec Q g0 s H) as I. destruct (inv_done cf exec Q g0 s I Hd) as (_ & _ & _ & _ & C & P).
  rewrite (before_S cf exec Q g0), loop_cumul in C. rewrite (before_S cf exec Q g0), loop_fails in P. cbn [no_fails g_cumul g_fails app] in C, P.
  unfold finish. set (k := m_k s) in *. split.
  - intros bit Hb. rewrite has_bit by exact Hb.
    assert (B : Z.testbit (g_cumul (m_got s)) bit = true <-> exists i, polled i /\ has (fst (exec k i)) (2 ^ bit) = true).
    { rewrite C, lor_bits by exact Hb. rewrite Z.bits_0. split.
      - intros [X|(c & X & Y)]; [discriminate|]. apply in_map_iff in X as (i & <- & X). apply filter_In in X. exists i. split; [exact X|]. now rewrite has_bit.
      - intros (i & X & Y). right. exists (fst (exec k i)). split; [|now rewrite has_bit in Y]. apply (in_map (fun i => fst (exec k i))). apply filter_In. exact X. }
    rewrite <- B. clear B. assert (EF : 2 ^ bit = RES_FAIL <-> 23 =? bit = true).
    { rewrite Z.eqb_eq. change RES_FAIL with (2 ^ 23). split; [intro X; apply Z.pow_inj_r in X; lia|intros <-; reflexivity]. }
    assert (EM : 2 ^ bit = RES_MISSING <-> 18 =? bit = true).
    { rewrite Z.eqb_eq. change RES_MISSING with (2 ^ 18). split; [intro X; apply Z.pow_inj_r in X; lia|intros <-; reflexivity]. }
    rewrite EF, EM. change RES_FAIL with (2 ^ 23). change RES_MISSING with (2 ^ 18).
    destruct (c_fail cf), (c_missing cf); cbn [is_ignore]; rewrite ?drop_bit by lia; destruct (Z.testbit (g_cumul (m_got s)) bit), (23 =? bit), (18 =? bit); cbn [andb negb]; intuition congruence.
  - destruct (is_ignore (c_fail cf)) eqn:Ig.
    + left. destruct (c_fail cf); try discriminate. reflexivity.
    + assert (Ni : c_fail cf <> PolIgnore) by (intro X; rewrite X in Ig; discriminate).
      assert (M : forall r, In r (g_fails (m_got s)) <-> exists i, polled i /\ has (fst (exec k i)) RES_FAIL = true /\ r = snd (exec k i)).
      { intro r. split.
        - intro X. apply (Permutation_in _ P) in X. apply in_map_iff in X as (i & <- & X). apply filter_In in X as [X Y]. apply filter_In in X. exists i. auto.
        - intros (i & X & Y & ->). apply (Permutation_in _ (Permutation_sym P)). apply (in_map (fun i => snd (exec k i))). apply filter_In. split; [apply filter_In; exact X|exact Y]. }
      destruct (g_fails (m_got s)) as [|x l].
      * right. intros i Hi. destruct (has (fst (exec k i)) RES_FAIL) eqn:E; [|reflexivity]. destruct (proj2 (M (snd (exec k i)))). exists i. auto.
      * split; [exact Ni|]. split.
        -- destruct (proj1 (M x) (or_introl eq_refl)) as (i & X & Y & _). eauto.
        -- intro f. rewrite in_flat_map. split.
           ++ intros (r & X & Y). apply M in X as (i & X & Z & ->). eauto.
           ++ intros (i & X & Y & Z). exists (snd (exec k i)). split; [|exact Z]. apply M. eauto.
Qed.
Print Assumptions sync_poll_code.

(** C32: if no child's code ends the poll early, the polling thread is never left asleep: as
    long as it has not returned some thread can do something, and only so much can be done *)
Inductive chain {R} cf exec : nat -> mt R -> mt R -> Prop :=
| ch_nil s : chain cf exec 0 s s
| ch_cons n s t u : mstep cf exec s t -> chain cf exec n t u -> chain cf exec (S n) s u.
Theorem sync_poll_finishes_partial : forall R cf exec (g0 : got R) s,
  (forall k, quiet cf (fun i => fst (exec k i))) -> msteps cf exec (start cf 0 [] [] 0 g0) s ->
  (m_parent s <> PDone -> exists t, mstep cf exec s t) /\
  (forall n t, chain cf exec n s t -> (n <= left_to_do s)%nat).
Proof.
  intros R cf exec g0 s Q H. pose proof (inv_reach cf exec Q g0 s H) as I. split.
  - intro Nd. destruct (m_parent s) eqn:P.
    + destruct (Nat.lt_ge_cases (m_ret s) (m_num s)) as [L|L]; eexists; [apply m_sleep; auto; apply (i_abandon _ _ _ _ I)|apply m_done; auto].
    + pose proof (i_sleep _ _ _ _ I P) as L. destruct (m_queue s) as [|w q] eqn:Eq; [|eexists; eapply m_take; eauto].
      destruct (m_busy s) as [|[i k] b] eqn:Eb; [|destruct (exec k i) as [c r] eqn:Ex; eexists; apply (m_deliver cf exec s [] b i k c r); auto].
      exfalso. destruct (i_state _ _ _ _ I) as (D & g & _ & _ & _ & Rt & Pm & _). rewrite Eq, Eb in Pm. cbn [map app] in Pm. apply Permutation_length in Pm. rewrite (i_num _ _ _ _ I) in L. lia.
    + contradiction.
  - clear. intros n t C. induction C as [s|n s t u St C IH]; [lia|]. pose proof (mstep_less _ _ _ _ St). lia.
Qed.
Print Assumptions sync_poll_finishes_partial.

(** With the abandon policy a poll can hang: any nursery of two or more enabled children, one of
    which fails, can get into a state where the polling thread sleeps, every child has been
    executed and delivered, and nothing is left that could wake it. *)
Lemma msteps_trans {R} cf exec (a b c : mt R) : msteps cf exec a b -> msteps cf exec b c -> msteps cf exec a c.
Proof. induction 1; auto. intro. econstructor; eauto. Qed.
Lemma take_all {R} cf exec q : forall (s : mt R), m_queue s = q -> m_clear s = O -> exists b, Permutation b (q ++ m_busy s) /\
  msteps cf exec s {| m_k := m_k s; m_queue := []; m_busy := b; m_clear := O; m_got := m_got s; m_ret := m_ret s; m_num := m_num s; m_abandon := m_abandon s; m_parent := m_parent s |}.
Proof.
  induction q as [|w q IH]; intros s E C.
  - exists (m_busy s). split; [reflexivity|]. destruct s. cbn in *. subst. constructor.
  - destruct (IH {| m_k := m_k s; m_queue := q; m_busy := w :: m_busy s; m_clear := m_clear s; m_got := m_got s; m_ret := m_ret s; m_num := m_num s; m_abandon := m_abandon s; m_parent := m_parent s |}) as (b & P & M); auto.
    cbn in P, M. exists b. split; [eapply Permutation_trans; [exact P|]; apply Permutation_sym, Permutation_middle|]. econstructor; [left; apply m_take; exact E|exact M].
Qed.
Lemma drop_all {R} cf exec b : forall (s : mt R), m_busy s = b -> m_abandon s = true ->
  msteps cf exec s {| m_k := m_k s; m_queue := m_queue s; m_busy := []; m_clear := m_clear s; m_got := m_got s; m_ret := m_ret s; m_num := m_num s; m_abandon := true; m_parent := m_parent s |}.
Proof.
  induction b as [|[i k] b IH]; intros s E A.
  - destruct s. cbn in *. subst. constructor.
  - destruct (exec k i) as [c r] eqn:Ex. econstructor; [left; apply (m_deliver cf exec s [] b i k c r); auto|]. unfold receive. rewrite A. cbn [app].
    exact (IH {| m_k := m_k s; m_queue := m_queue s; m_busy := b; m_clear := m_clear s; m_got := m_got s; m_ret := m_ret s; m_num := m_num s; m_abandon := true; m_parent := m_parent s |} eq_refl eq_refl).
Qed.
Theorem sync_poll_finishes_refuted : forall R cf exec (g0 : got R) f,
  c_fail cf = PolAbandon -> (2 <= length (filter (c_enabled cf) (c_order cf)))%nat ->
  In f (c_order cf) -> c_enabled cf f = true -> has (fst (exec 0%nat f)) RES_FAIL = true ->
  exists s, msteps cf exec (start cf 0 [] [] 0 g0) s /\ m_parent s = PSleep /\ m_queue s = [] /\ m_busy s = [] /\ forall t, ~ mstep cf exec s t.
Proof.
  intros R cf exec g0 f Pol Two Hf Ef Ff. set (s0 := start cf 0 [] [] 0 g0).
  assert (Num : m_num s0 = length (filter (c_enabled cf) (c_order cf))) by (unfold s0, start, place; cbn; now rewrite map_length).
  set (s1 := {| m_k := 0; m_queue := m_queue s0; m_busy := []; m_clear := 0; m_got := m_got s0; m_ret := 0; m_num := m_num s0; m_abandon := false; m_parent := PSleep |}).
  assert (M1 : msteps cf exec s0 s1) by (econstructor; [left; apply m_sleep; [reflexivity|change (m_ret s0) with O; lia|reflexivity]|constructor]).
  destruct (take_all cf exec (m_queue s1) s1 eq_refl eq_refl) as (b & P & M2). cbn [s1 m_busy m_k m_got m_ret m_num m_abandon m_parent] in P, M2. rewrite app_nil_r in P.
  assert (Hin : In (f, 0%nat) b).
  { eapply Permutation_in; [apply Permutation_sym; exact P|]. cbn. rewrite app_nil_r. unfold place. apply in_map_iff. exists f. split; [reflexivity|]. apply filter_In. auto. }
  apply in_split in Hin as (b1 & b2 & Eb). destruct (exec 0%nat f) as [c r] eqn:Ex. cbn [fst] in Ff.
  set (s2 := {| m_k := 0; m_queue := []; m_busy := b; m_clear := 0; m_got := m_got s0; m_ret := 0; m_num := m_num s0; m_abandon := false; m_parent := PSleep |}) in *.
  assert (Ab : abandons cf c = true) by (unfold abandons; rewrite Ff, Pol; reflexivity).
  set (s3 := {| m_k := 0%nat; m_queue := []; m_busy := b1 ++ b2; m_clear := 1; m_got := store (m_got s0) f c r true; m_ret := 1; m_num := m_num s0; m_abandon := true; m_parent := PSleep |}).
  assert (M3 : mstep cf exec s2 s3).
  { pose proof (m_deliver cf exec s2 b1 b2 f 0 c r Eb Ex) as M. unfold receive in M. cbn [s2 m_abandon m_k m_queue m_clear m_got m_ret m_num m_parent] in M. rewrite Ab, Ff in M. rewrite Num in M.
    destruct (Nat.leb_spec (length (filter (c_enabled cf) (c_order cf))) 1); [lia|]. unfold s3. rewrite Num. exact M. }
  pose proof (drop_all cf exec (b1 ++ b2) s3 eq_refl eq_refl) as M4. cbn [s3 m_k m_queue m_clear m_got m_ret m_num m_parent] in M4.
  set (s4 := {| m_k := 0; m_queue := []; m_busy := []; m_clear := 1; m_got := store (m_got s0) f c r true; m_ret := 1; m_num := m_num s0; m_abandon := true; m_parent := PSleep |}) in M4.
  set (s5 := {| m_k := 0; m_queue := []; m_busy := []; m_clear := 0; m_got := store (m_got s0) f c r true; m_ret := 1; m_num := m_num s0; m_abandon := true; m_parent := PSleep |}).
  exists s5. split; [|split; [reflexivity|split; [reflexivity|split; [reflexivity|]]]].
  - eapply msteps_trans; [exact M1|]. eapply msteps_trans; [exact M2|]. econstructor; [left; exact M3|]. eapply msteps_trans; [exact M4|]. econstructor; [left; apply (m_clearq cf exec s4 0); reflexivity|]. constructor.
  - intros t St. inversion St as [? w q E|? c1 c2 i k c' r' E|? n E|? E|? E]; cbn in E; try discriminate. destruct c1; discriminate.
Qed.
Print Assumptions sync_poll_finishes_refuted.

(** An abandoned poll leaves threads behind that deliver into the next one: a poll can return,
    without having been abandoned, with the result a child gave for an earlier request. *)
Definition stale_cf : cfg := {| c_fail := PolAbandon; c_missing := PolCollect; c_order := [0;1]%nat; c_enabled := fun _ => true |}.
(** child [i] returns its poll number; child 0 fails in poll 0 *)
Definition stale_exec (k i : nat) : Z * nat := (if Nat.eqb k 0 && Nat.eqb i 0 then RES_FAIL else 1, k).
Theorem sync_poll_own_results_refuted : forall g0 : got nat, exists s,
  msteps stale_cf stale_exec (start stale_cf 0 [] [] 0 g0) s /\ m_parent s = PDone /\ m_k s = 1%nat /\ m_abandon s = false /\
  g_res (m_got s) 1%nat = Some 0%nat /\ snd (stale_exec 1 1) = 1%nat.
Proof.
  intro g0. eexists. split; [|split; [|split; [|split; [|split]]]].
  - eapply ms_step; [left; eapply m_take; reflexivity|]. cbn. eapply ms_step; [left; eapply m_take; reflexivity|]. cbn.
    eapply ms_step; [left; apply (m_deliver stale_cf stale_exec _ [(1,0)%nat] [] 0 0 RES_FAIL 0%nat); reflexivity|]. cbn.
    eapply ms_step; [left; eapply (m_clearq _ _ _ 0); reflexivity|]. cbn.
    eapply ms_step; [left; apply m_done; [reflexivity|right; reflexivity]|]. cbn.
    eapply ms_step; [right; right; apply m_next; reflexivity|]. cbn.
    eapply ms_step; [left; eapply m_take; reflexivity|]. cbn.
    eapply ms_step; [left; apply (m_deliver stale_cf stale_exec _ [] [(1,0)%nat] 0 1 1 1%nat); reflexivity|]. cbn.
    eapply ms_step; [left; apply (m_deliver stale_cf stale_exec _ [] [] 1 0 1 0%nat); reflexivity|]. cbn.
    eapply ms_step; [left; apply m_done; [reflexivity|left; cbn; auto]|]. apply ms_refl.
  - reflexivity. - reflexivity. - reflexivity. - reflexivity. - reflexivity.
Qed.
Print Assumptions sync_poll_own_results_refuted.

Example ex_order : setChildPollOrder [Some "a"; Some "b"; None; Some "d"]%string (default_order 4) ["d"; "a"]%string = ([3;0;1;2]%nat, Ok tt) /\
  setChildPollOrder [Some "a"; Some "b"; None; Some "d"]%string (default_order 4) ["d"; "d"]%string = ([3;1;2;3]%nat, Err).
Proof. split; reflexivity. Qed.
(** three children, one failing, one disabled: a schedule in which they finish in reverse *)
Definition ex_cf : cfg := {| c_fail := PolCollect; c_missing := PolIgnore; c_order := [2;0;1;3]%nat; c_enabled := fun i => negb (Nat.eqb i 3) |}.
Definition ex_exec (k i : nat) : Z * nat := (if Nat.eqb i 0 then RES_FAIL + 5 else if Nat.eqb i 1 then RES_MISSING else 2, (10 * k + i)%nat).
Definition ex_g0 : got nat := {| g_res := fun _ => None; g_code := fun _ => 7; g_cumul := 9; g_fails := [5%nat] |}.
Example ex_poll : (forall k, quiet ex_cf (fun i => fst (ex_exec k i))) /\
  finish (fun r => [r; r]) ex_cf (before ex_cf ex_exec ex_g0 1) = (RES_FAIL + 7, Some [0;0]%nat) /\
  map (g_res (before ex_cf ex_exec ex_g0 1)) [0;1;2;3]%nat = [Some 0; Some 1; Some 2; None]%nat.
Proof.
  split; [|split; reflexivity]. intros k i H _. cbn in H. split; [|split; discriminate]. decompose [or] H; try contradiction; subst; reflexivity.
Qed.
Example ex_poll_run : exists s, msteps ex_cf ex_exec (start ex_cf 0 [] [] 0 ex_g0) s /\ m_parent s = PDone /\ g_code (m_got s) 3%nat = 0 /\ g_fails (m_got s) = [0%nat].
Proof.
  eexists. split; [|split; [|split]].
  - eapply ms_step; [left; eapply m_take; reflexivity|]. cbn. eapply ms_step; [left; eapply m_take; reflexivity|]. cbn. eapply ms_step; [left; eapply m_take; reflexivity|]. cbn.
    eapply ms_step; [left; eapply m_sleep; [reflexivity|cbn; lia|reflexivity]|]. cbn.
    eapply ms_step; [left; apply (m_deliver ex_cf ex_exec _ [] [(0,0);(2,0)]%nat 1 0 RES_MISSING 1%nat); reflexivity|]. cbn.
    eapply ms_step; [left; apply (m_deliver ex_cf ex_exec _ [] [(2,0)]%nat 0 0 (RES_FAIL + 5) 0%nat); reflexivity|]. cbn.
    eapply ms_step; [left; apply (m_deliver ex_cf ex_exec _ [] [] 2 0 2 2%nat); reflexivity|]. cbn.
    eapply ms_step; [left; apply m_done; [reflexivity|left; cbn; auto]|]. apply ms_refl.
  - reflexivity. - reflexivity. - reflexivity.
Qed.
