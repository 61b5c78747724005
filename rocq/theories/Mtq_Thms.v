(** Theorems about the queue channel. *)
From Verif Require Import Base Hiid_Model Mtq_Model Mtq_Spec Mtq_Proofs Mtq_Traces Mtq_Block Mtq_Live.
From Coq Require Import PeanoNat Lia Bool.

(** For the examples: events, [n] steps of the worker with a remote channel that is open
    and has no events, a call and the client's steps as far as they go, and what has
    happened after some actions. *)
Definition ev (n : nat) : qevent := mkQevent [Z.of_nat n] [] 0 n.
Definition w (n : nat) : list act := repeat (AW RWait false) n.
Definition c (n : nat) : list act := repeat AC n.
Definition calls (k : call) : list act := ACall k :: c 10.
Definition trace (qs : nat) (l : list act) : list label := fst (exec qs minit l).
Definition state (qs : nat) (l : list act) : mstate := snd (exec qs minit l).
Lemma runs : forall qs l, mrun qs minit (trace qs l) (state qs l).
Proof. intros. apply exec_run. Qed.
(** Tests for what is said about all labels *)
Lemma all_open_by : forall tr, forallb (fun l => negb (closes l) && negb (ends l)) tr = true -> all_open tr.
Proof.
  intros tr H l I. rewrite forallb_forall in H. specialize (H l I).
  apply andb_true_iff in H as [H1 H2]. split; apply negb_true_iff; assumption.
Qed.
Lemma open_by : forall tr, forallb (fun l => negb (ends l)) tr = true -> forall l, In l tr -> ends l = false.
Proof. intros tr H l I. rewrite forallb_forall in H. apply negb_true_iff. exact (H l I). Qed.
Lemma quiet_by : forall tr, forallb quiet1 tr = true -> quiet tr.
Proof. intros tr H l I. rewrite forallb_forall in H. exact (H l I). Qed.
Lemma reads_by : forall tr,
  forallb (fun l => match l with LCall (CallGet _ _) | LCall (CallHas _) => true | LCall _ => false | _ => true end)
    tr = true -> only_reads tr.
Proof.
  intros tr H k I. rewrite forallb_forall in H. specialize (H _ I). destruct k; first [exact Logic.I|discriminate].
Qed.
Lemma shut_by : forall tr, existsb shut1 tr = true -> shut tr.
Proof.
  intros tr H. apply existsb_exists in H as [l [I H]]. exists l. split; [exact I|]. apply shut1_iff. exact H.
Qed.
Lemma not_shut_by : forall tr, forallb (fun l => negb (shut1 l)) tr = true -> ~ shut tr.
Proof.
  intros tr H [l [I E]]. rewrite forallb_forall in H. specialize (H l I).
  apply shut1_iff in E. rewrite E in H. discriminate.
Qed.
Ltac vmr := vm_compute; reflexivity.

(** The events accepted by postEvent are posted on the remote channel in their order, each
    at most once; while nothing is closed, all but the last ones: those in the queue and
    one on its way. *)
Theorem mtq_sent : forall qs tr s, (1 <= qs)%nat -> mrun qs minit tr s ->
  prefix (sent tr) (accepted tr) /\
  (all_open tr -> (length (accepted tr) <= length (sent tr) + qs + 1)%nat).
Proof.
  intros qs tr s Q R. pose proof (mrun_tinv _ _ _ Q R) as T.
  destruct (t_post _ _ _ T) as [lost [E D]]. split; [eexists; exact E|].
  intros A. destruct (t_open _ _ _ T A) as [H1 [_ [_ H4]]]. rewrite E, !app_length.
  pose proof (v_post _ _ (t_inv _ _ _ T)).
  assert (L : lost = []).
  { destruct D as [D|[[D1 D2]|[D _]]]; [exact D| |congruence]. rewrite (H4 D1) in D2. discriminate. }
  subst lost. assert (I : (length (inflight (s_w s)) <= 1)%nat) by (destruct (s_w s); cbn; lia).
  cbn [length]. lia.
Qed.
Print Assumptions mtq_sent.

(** the bound is met: the first event is on its way, the second in a queue of one; later
    both have been sent *)
Definition two_posts : list act := w 30 ++ calls (CallPost (ev 1)) ++ w 6 ++ calls (CallPost (ev 2)).
Example mtq_sent_ex :
  all_open (trace 1 two_posts) /\ accepted (trace 1 two_posts) = [ev 1; ev 2] /\
  sent (trace 1 two_posts) = [] /\ sent (trace 1 (two_posts ++ w 30)) = [ev 1; ev 2].
Proof. split; [apply all_open_by; vmr|]. split; [vmr|]. split; vmr. Qed.

(** getEvent returns the events of the remote channel in their order, each at most once.
    While nothing is closed, or if the client does nothing but look for events, at most
    [qs] of them are waiting to be returned. *)
Theorem mtq_received : forall qs tr s, (1 <= qs)%nat -> mrun qs minit tr s ->
  prefix (delivered tr) (received tr) /\
  (all_open tr \/ only_reads tr -> (length (received tr) <= length (delivered tr) + qs)%nat).
Proof.
  intros qs tr s Q R. pose proof (mrun_tinv _ _ _ Q R) as T.
  destruct (t_get _ _ _ T) as [lost [E D]]. split; [eexists; exact E|].
  pose proof (v_get _ _ (t_inv _ _ _ T)). intros [A|A].
  - destruct (t_open _ _ _ T A) as [H1 _]. rewrite E, !app_length.
    destruct D as [->|[_ [D _]]]; [cbn; lia|congruence].
  - rewrite (t_reads _ _ _ T A), app_length. lia.
Qed.
Print Assumptions mtq_received.

(** two events come in and the remote channel closes; both are returned, then CLOSED *)
Definition get : call := CallGet [] WAIT.
Definition two_gets : list act :=
  w 7 ++ AW (REvent (ev 1)) false :: w 8 ++ AW (REvent (ev 2)) true :: w 9.
Definition got_two : list act := two_gets ++ calls get ++ w 30 ++ calls get ++ w 30 ++ calls get ++ w 9 ++ c 9.
Example mtq_received_ex :
  only_reads (trace 2 got_two) /\ received (trace 2 got_two) = [ev 1; ev 2] /\
  delivered (trace 2 two_gets) = [] /\
  finished (trace 2 got_two) = [(get, Got (ev 1)); (get, Got (ev 2)); (get, IsClosed)].
Proof.
  split; [apply reads_by; vmr|]. split; [vmr|]. split; vmr.
Qed.

(** What the answers mean: the event returned, or found, is the first that has come in and
    not been returned, and it matches the mask; OUTOFSEQ says that it does not; and WAIT
    that there is none. *)
Definition for_mask (m : list Z) (e : qevent) : Prop := m = [] \/ hiid_matches m (e_id e) = true.
Theorem mtq_answers : forall qs tr o s k m, (1 <= qs)%nat -> mrun qs minit (tr ++ [LRet o]) s ->
  in_call tr = Some k -> k = CallHas m \/ (exists x, k = CallGet m x) ->
  match o with
  | Got e => (exists l, received tr = delivered tr ++ e :: l) /\ for_mask m e
  | HasIt => exists e l, received tr = delivered tr ++ e :: l /\ for_mask m e
  | OutOfSeq => exists e l, received tr = delivered tr ++ e :: l /\ ~ for_mask m e
  | MustWait => received tr = delivered tr /\ ~ shut tr
  | _ => True
  end.
Proof.
  intros qs tr o s k m Q R N K. apply mrun_last in R as [s1 [R M]].
  pose proof (mrun_tinv _ _ _ Q R) as T. pose proof (t_cur _ _ _ T) as HC. rewrite N in HC.
  destruct (t_get _ _ _ T) as [lost [E D]]. pose proof (t_gone _ _ _ T) as HG.
  pose proof (t_inv _ _ _ T) as V. pose proof (v_open _ _ V) as HO.
  pose proof (v_thread _ _ V) as HT. pose proof (v_exit _ _ V) as HE. clear T R V.
  assert (MM : forall e, wanted m e = true -> for_mask m e).
  { intros e H. unfold wanted in H. apply orb_true_iff in H as [H|H]; [left|right; exact H].
    apply isnil_true. exact H. }
  assert (MN : forall e, wanted m e = false -> ~ for_mask m e).
  { intros e H [->|X]; [discriminate H|]. unfold wanted in H. rewrite X, orb_true_r in H. discriminate. }
  unfold gone in HG. remember (LRet o) as x eqn:EX.
  rename k into k9.
  step_cases M; norm; try discriminate; repeat match goal with H : LRet _ = LRet _ |- _ => injection H as H; subst end; try exact Logic.I;
    try (destruct (afterClose k) eqn:EA; try exact Logic.I; destruct k; discriminate).
  all: try match goal with |- received _ = _ /\ _ =>
    bools; subst; split; [|intros S; apply HG in S; destruct S; discriminate];
    destruct D as [-> |[_ [-> _]]]; [rewrite E; apply app_nil_r|];
    destruct (HO eq_refl eq_refl) as [HW _]; destruct (HE (or_intror HW)); discriminate end.
  all: repeat match goal with H : exists _, _ |- _ => destruct H end.
  all: assert (EM : mask = m) by (destruct K as [->|[x9 ->]]; congruence); subst mask.
  all: try match goal with H : wanted ?m9 ?q9 = true |- exists e l, _ =>
             exists q9; eexists; split; [exact E|exact (MM _ H)] end.
  all: try match goal with H : wanted ?m9 ?q9 = false |- exists e l, _ =>
             exists q9; eexists; split; [exact E|exact (MN _ H)] end.
  split; [eexists; exact E|]. apply MM. assumption.
Qed.
Print Assumptions mtq_answers.

Example mtq_answers_ex :
  finished (trace 2 (two_gets ++ calls (CallHas [1%Z]) ++ calls (CallHas [2%Z]) ++
                     calls (CallGet [2%Z] NOWAIT) ++ calls (CallGet [1%Z] NOWAIT))) =
    [(CallHas [1%Z], HasIt); (CallHas [2%Z], OutOfSeq); (CallGet [2%Z] NOWAIT, OutOfSeq);
     (CallGet [1%Z] NOWAIT, Got (ev 1))] /\
  finished (trace 2 (w 30 ++ calls (CallGet [] NOWAIT))) = [(CallGet [] NOWAIT, MustWait)].
Proof. split; vmr. Qed.

(** The client has the errors of the remote channel in their order, each at most once.
    When a call other than flush comes back there are none left that it has not had, save
    the one of a postEvent of the remote channel that has only just failed; and none at
    all when the channel is closed. *)
Theorem mtq_errors : forall qs tr s, (1 <= qs)%nat -> mrun qs minit tr s ->
  prefix (thrown tr) (raised tr) /\
  forall tr0 o k, tr = tr0 ++ [LRet o] -> in_call tr0 = Some k -> k <> CallFlush ->
    raised tr = thrown tr \/
    (~ closed_by k o /\
     exists x l e cl, raised tr = thrown tr ++ [x] /\
                      filter remote_call tr = l ++ [LRPost e (RThrow x) cl]).
Proof.
  intros qs tr s Q R. pose proof (mrun_tinv _ _ _ Q R) as T.
  split; [eexists; exact (t_err _ _ _ T)|].
  intros tr0 o k E N K. pose proof (t_err _ _ _ T) as H. subst tr.
  rewrite (no_errors_after _ _ _ _ _ Q R N K) in H. cbn [app] in H.
  destruct (s_w s) as [| | | | | | | | | |[x|]| | | | | | | | | | | |] eqn:W;
    try (left; rewrite H; apply app_nil_r).
  right. split.
  - intros CB. destruct (over_reached _ _ _ _ _ Q R N CB) as [[O _] _]. congruence.
  - destruct (last_post _ _ _ _ R W) as [l [e [cl P]]]. exists x, l, e, cl. split; [exact H|exact P].
Qed.
Print Assumptions mtq_errors.

(** two postEvents of the remote channel fail; the second error has just been raised when
    a third postEvent throws the first *)
Definition two_errors : list act :=
  w 30 ++ calls (CallPost (ev 1)) ++ w 6 ++ calls (CallPost (ev 2)) ++
  AW (RThrow 11) false :: w 4 ++ [AW (RThrow 12) false] ++ calls (CallPost (ev 3)).
Example mtq_errors_ex :
  raised (trace 2 two_errors) = [11; 12] /\ thrown (trace 2 two_errors) = [11] /\
  thrown (trace 2 (two_errors ++ w 1 ++ w 30 ++ calls (CallHas []))) = [11; 12].
Proof. repeat split; vmr. Qed.

(** flush() comes back when every event but one has been posted on the remote channel, as
    long as nothing is closed. *)
Theorem mtq_flush_partial : forall qs tr s, (1 <= qs)%nat ->
  mrun qs minit (tr ++ [LRet Returned]) s -> in_call tr = Some CallFlush -> all_open tr ->
  exists l, accepted tr = sent tr ++ l /\ (length l <= 1)%nat.
Proof.
  intros qs tr s Q R N A. apply mrun_last in R as [s1 [R M]].
  pose proof (mrun_tinv _ _ _ Q R) as T. destruct (t_open _ _ _ T A) as [H1 [H2 [_ H4]]].
  destruct (t_post _ _ _ T) as [lost [E D]]. pose proof (t_cur _ _ _ T) as HC. rewrite N in HC.
  assert (L : lost = []).
  { destruct D as [D|[[D1 D2]|[D _]]]; [exact D| |congruence]. rewrite (H4 D1) in D2. discriminate. }
  subst lost. exists (inflight (s_w s1)).
  split; [|destruct (s_w s1); cbn; lia]. rewrite E. clear - M HC H2.
  remember (LRet Returned) as l eqn:EL.
  step_cases M; norm; try discriminate; bools; subst; rewrite ?app_nil_r; try reflexivity.
  - destruct HC as [HC X]. congruence.
  - destruct HC as [HC X]. congruence.
Qed.
Print Assumptions mtq_flush_partial.

(** It does not mean that the events have been posted: the last may be on its way. *)
Theorem mtq_flush_refuted : ~ (forall qs tr s, (1 <= qs)%nat ->
  mrun qs minit (tr ++ [LRet Returned]) s -> in_call tr = Some CallFlush -> all_open tr ->
  accepted tr = sent tr).
Proof.
  intros H. set (l := w 30 ++ calls (CallPost (ev 1)) ++ w 6 ++ calls CallFlush).
  specialize (H 1%nat (removelast (trace 1 l)) (state 1 l) (le_n 1)).
  assert (E : removelast (trace 1 l) ++ [LRet Returned] = trace 1 l) by (vmr).
  rewrite E in H. specialize (H (runs 1 l) ltac:(vmr)).
  assert (A : all_open (removelast (trace 1 l))) by (apply all_open_by; vmr).
  specialize (H A).
  assert (X : accepted (removelast (trace 1 l)) = [ev 1]) by vmr.
  assert (Y : sent (removelast (trace 1 l)) = []) by vmr.
  rewrite X, Y in H. discriminate.
Qed.
Print Assumptions mtq_flush_refuted.

(** When a call has closed the channel, or has found it closed, it stays closed: the remote
    channel is never called again, no event is accepted or returned, and every further call
    says so at once - it can always go on. *)
Theorem mtq_closed : forall qs tr0 o k s, (1 <= qs)%nat ->
  mrun qs minit (tr0 ++ [LRet o]) s -> in_call tr0 = Some k -> closed_by k o ->
  forall tr s', mrun qs s tr s' ->
    (forall l, In l tr -> remote_call l = false) /\
    (forall k' o', In (k', o') (finished tr) -> o' = answer k') /\
    accepted tr = [] /\ delivered tr = [] /\ thrown tr = [] /\
    (in_call tr <> None -> ~ blocked qs s').
Proof.
  intros qs tr0 o k s Q R N CB tr s' R'.
  destruct (over_reached _ _ _ _ _ Q R N CB) as [O CI].
  destruct (over_run _ _ _ _ O CI R') as [O' [C' [L F]]].
  split; [exact L|]. split; [exact F|].
  assert (Z : forall B (f : call * outcome -> list B), (forall k', f (k', answer k') = []) ->
              flat_map f (finished tr) = []).
  { intros B f Hf. induction (finished tr) as [|[k' o'] l IH]; [reflexivity|]. cbn [flat_map].
    rewrite (F k' o' (or_introl eq_refl)), Hf. cbn [app]. apply IH.
    intros k2 o2 I. apply F. right. exact I. }
  split; [apply Z; intros []; reflexivity|]. split; [apply Z; intros []; reflexivity|].
  split; [apply Z; intros []; reflexivity|].
  intros NC B. apply blocked_none in B as [_ B].
  pose proof (t_inv _ _ _ (mrun_tinv _ _ _ Q (mrun_app _ _ _ _ _ _ R R'))) as V'.
  pose proof (v_owner _ _ V') as HO. pose proof (v_csleep _ _ V') as HS. clear V'.
  unfold over in O'. destruct s' as [po ge er ow cs ab ri rc th w0 ws c0 cs']. simp.
  destruct O' as [-> [-> [-> [-> [-> [-> [-> [-> O']]]]]]]].
  cbn [wlocked] in HO. unfold cstep, cacquire, throwErrors, ret in B. simp.
  destruct c0 as [|t|t|t|t| | | | | |[?|]| | | |]; try destruct t as [| | |[?|]|]; try contradiction;
    cbn [clocked cwaits isnil negb andb] in *; subst; destruct cs'; try (specialize (HS eq_refl); discriminate);
    try discriminate; try congruence; simp; destruct ab; discriminate.
Qed.
Print Assumptions mtq_closed.

(** close(), then the other calls *)
Definition close_then : list act :=
  w 30 ++ calls CallClose ++ w 30 ++ c 9 ++
  calls (CallPost (ev 1)) ++ calls get ++ calls (CallHas []) ++ calls CallFlush ++ calls CallAbort.
Example mtq_closed_ex : finished (trace 1 close_then) =
  [(CallClose, Returned); (CallPost (ev 1), IsClosed); (get, IsClosed); (CallHas [], IsClosed);
   (CallFlush, Returned); (CallAbort, Returned)].
Proof. vm_compute. reflexivity. Qed.

(** When both threads wait: a client that is in no call has nothing unsent, unless it has
    errors to look at or the remote channel has closed.  A client in a call is in a
    getEvent(WAIT) that there is nothing for, no event and no error; or the remote channel
    has closed and the channel holds events, incoming or outgoing. *)
Theorem mtq_blocked : forall qs tr s, (1 <= qs)%nat -> mrun qs minit tr s -> blocked qs s ->
  match in_call tr with
  | None => shut tr \/ raised tr <> thrown tr \/ accepted tr = sent tr
  | Some k =>
      (exists m, k = CallGet m WAIT /\ received tr = delivered tr /\ raised tr = thrown tr /\
                 (shut tr \/ accepted tr = sent tr)) \/
      (k <> CallAbort /\ shut tr /\ (received tr <> delivered tr \/ accepted tr <> sent tr))
  end.
Proof.
  intros qs tr s Q R B.
  apply (blocked_cases _ _ _ (mrun_tinv _ _ _ Q R)); [exact (err_post' _ _ _ Q R)|exact B].
Qed.
Print Assumptions mtq_blocked.

(** a client waits for an event, with another one sent *)
Example mtq_blocked_ex : let l := w 30 ++ calls (CallPost (ev 1)) ++ w 30 ++ calls get in
  blocked 1 (state 1 l) /\ in_call (trace 1 l) = Some get /\ sent (trace 1 l) = [ev 1].
Proof. split; [apply stuck_blocked|split]; vmr. Qed.

(** If nothing is closed, nothing more is asked and the remote channel has neither events
    nor errors, the threads come to rest in a number of steps that the length of the queues
    gives; and when they do, postEvent, hasEvent, flush and getEvent without WAIT have come
    back, and so has getEvent(WAIT) if there is anything to come back with. *)
Theorem mtq_rest : forall qs tr s tr' s', (1 <= qs)%nat ->
  mrun qs minit tr s -> mrun qs s tr' s' -> all_open (tr ++ tr') -> quiet tr' ->
  (length tr' <= 14 * qs + 51)%nat /\
  (blocked qs s' ->
   match in_call (tr ++ tr') with
   | None => raised (tr ++ tr') <> thrown (tr ++ tr') \/ accepted (tr ++ tr') = sent (tr ++ tr')
   | Some k => exists m, k = CallGet m WAIT /\ received (tr ++ tr') = delivered (tr ++ tr') /\
                         raised (tr ++ tr') = thrown (tr ++ tr') /\
                         accepted (tr ++ tr') = sent (tr ++ tr')
   end).
Proof.
  intros qs tr s tr' s' Q R R' A U. split.
  - pose proof (todo_run _ _ _ _ _ Q R R' A U).
    pose proof (todo_bound _ _ (t_inv _ _ _ (mrun_tinv _ _ _ Q R))). lia.
  - intros B. pose proof (mrun_app _ _ _ _ _ _ R R') as RR. pose proof (mrun_tinv _ _ _ Q RR) as T.
    pose proof (mtq_blocked _ _ _ Q RR B) as H.
    assert (NS : ~ shut (tr ++ tr')).
    { intros S. apply (t_gone _ _ _ T) in S as [S1 S2].
      destruct (t_open _ _ _ T A) as [_ [_ [_ S3]]]. rewrite (S3 S1) in S2. discriminate. }
    destruct (in_call (tr ++ tr')) as [k|].
    + destruct H as [[m [H1 [H2 [H3 H4]]]]|[_ [S _]]]; [|contradiction].
      exists m. destruct H4 as [S|H4]; [contradiction|auto].
    + destruct H as [S|H]; [contradiction|exact H].
Qed.
Print Assumptions mtq_rest.

(** a third event is posted while the queue is full: the client waits, the worker goes on *)
Example mtq_rest_ex :
  let tr := trace 1 (two_posts ++ calls (CallPost (ev 3))) in
  let l := w 6 ++ c 9 ++ w 30 in
  let tr' := fst (exec 1 (state 1 (two_posts ++ calls (CallPost (ev 3)))) l) in
  let s' := snd (exec 1 (state 1 (two_posts ++ calls (CallPost (ev 3)))) l) in
  in_call tr = Some (CallPost (ev 3)) /\ all_open (tr ++ tr') /\ quiet tr' /\ blocked 1 s' /\
  sent (tr ++ tr') = [ev 1; ev 2; ev 3].
Proof.
  intros tr l tr' s'. split; [vmr|]. split; [apply all_open_by; vmr|].
  split; [apply quiet_by; vmr|]. split; [apply stuck_blocked; vmr|]. vmr.
Qed.

(** A client that waits for an event while the remote channel closes waits for ever: no
    spurious wake-up, no raised flag ends the call. *)
Theorem mtq_get_hangs : forall qs tr s m, (1 <= qs)%nat -> mrun qs minit tr s -> blocked qs s ->
  shut tr -> in_call tr = Some (CallGet m WAIT) -> hangs qs s.
Proof.
  intros qs tr s m Q R B S N. exact (get_hangs _ _ _ _ (mrun_tinv _ _ _ Q R) B S N).
Qed.
Print Assumptions mtq_get_hangs.

Definition close_in_get : list act :=
  w 30 ++ calls get ++ ARaise :: w 7 ++ AW RCode true :: w 9 ++ c 9.
Example mtq_get_hangs_ex : blocked 1 (state 1 close_in_get) /\ shut (trace 1 close_in_get) /\
  in_call (trace 1 close_in_get) = Some get.
Proof.
  split; [apply stuck_blocked; vmr|]. split; [apply shut_by; vmr|vmr].
Qed.

(** EventChannel.h:183-185: getEvent(WAIT) returns CLOSED when the stream is closed. *)
Theorem mtq_get_closed_refuted : ~ (forall qs tr s m, (1 <= qs)%nat -> mrun qs minit tr s ->
  shut tr -> in_call tr = Some (CallGet m WAIT) ->
  exists tr' s' o, mrun qs s tr' s' /\ In (LRet o) tr').
Proof.
  intros H. destruct mtq_get_hangs_ex as [B [S N]].
  destruct (H 1%nat _ _ [] (le_n 1) (runs 1 close_in_get) S N) as [tr' [s' [o [R I]]]].
  exact (mtq_get_hangs _ _ _ _ (le_n 1) (runs 1 close_in_get) B S N _ _ _ R I).
Qed.
Print Assumptions mtq_get_closed_refuted.

(** close() and abort() never return if there are errors that the client has not had, from
    any state in which both threads wait and the remote channel is open: the worker closes
    the remote channel and then looks at the errors for ever, with the lock. *)
Theorem mtq_close_hangs : forall qs tr s k, (1 <= qs)%nat -> mrun qs minit tr s -> blocked qs s ->
  in_call tr = None -> ~ shut tr -> raised tr <> thrown tr ->
  k = CallClose \/ k = CallAbort -> hangs qs (snd (startCall s k)).
Proof.
  intros qs tr s k Q R B N S E K.
  apply (close_hangs _ tr); try assumption; [exact (mrun_tinv _ _ _ Q R)|].
  destruct K as [-> | ->]; reflexivity.
Qed.
Print Assumptions mtq_close_hangs.

Definition failed_get : list act := w 7 ++ AW (RThrow 5) false :: w 9.
Example mtq_close_hangs_ex : blocked 1 (state 1 failed_get) /\ in_call (trace 1 failed_get) = None /\
  ~ shut (trace 1 failed_get) /\ raised (trace 1 failed_get) = [5] /\ thrown (trace 1 failed_get) = [].
Proof.
  split; [apply stuck_blocked; vmr|]. split; [vmr|].
  split; [apply not_shut_by; vmr|split; vmr].
Qed.

Theorem mtq_close_returns_refuted : ~ (forall qs tr s, (1 <= qs)%nat -> mrun qs minit tr s ->
  in_call tr = Some CallClose -> exists tr' s' o, mrun qs s tr' s' /\ In (LRet o) tr').
Proof.
  intros H. destruct mtq_close_hangs_ex as [B [N [S [E1 E2]]]].
  set (s := state 1 failed_get) in *.
  assert (R : mrun 1 minit (trace 1 failed_get ++ [LCall CallClose]) (snd (startCall s CallClose))).
  { econstructor; [apply runs|]. apply (m_call 1 s CallClose). vm_compute. reflexivity. }
  destruct (H 1%nat _ _ (le_n 1) R) as [tr' [s' [o [R' I]]]].
  { rewrite in_call_snoc. reflexivity. }
  refine (mtq_close_hangs 1 _ _ CallClose (le_n 1) (runs 1 failed_get) B N S _ (or_introl eq_refl) _ _ _ R' I).
  rewrite E1, E2. discriminate.
Qed.
Print Assumptions mtq_close_returns_refuted.

(** MTQueueChannel.h:73-74 says that close() flushes the events to the remote channel: it
    does not, accepted events may be lost although the remote channel did not close. *)
Theorem mtq_close_flushes_refuted : ~ (forall qs tr s, (1 <= qs)%nat ->
  mrun qs minit (tr ++ [LRet Returned]) s -> in_call tr = Some CallClose ->
  (forall l, In l tr -> ends l = false) -> accepted tr = sent tr).
Proof.
  intros H. set (l := w 30 ++ calls (CallPost (ev 1)) ++ calls CallClose ++ w 30 ++ c 9).
  specialize (H 1%nat (removelast (trace 1 l)) (state 1 l) (le_n 1)).
  assert (E : removelast (trace 1 l) ++ [LRet Returned] = trace 1 l) by (vmr).
  rewrite E in H. specialize (H (runs 1 l) ltac:(vmr)).
  assert (A : forall x, In x (removelast (trace 1 l)) -> ends x = false) by (apply open_by; vmr).
  specialize (H A).
  assert (X : accepted (removelast (trace 1 l)) = [ev 1]) by vmr.
  assert (Y : sent (removelast (trace 1 l)) = []) by vmr.
  rewrite X, Y in H. discriminate.
Qed.
Print Assumptions mtq_close_flushes_refuted.

(** postEvent may wait with an empty queue: the remote channel has closed, the worker has
    thrown the queue away without telling the client, and waits itself for a getEvent. *)
Theorem mtq_post_deadlock_refuted : ~ (forall qs tr s e, (1 <= qs)%nat -> mrun qs minit tr s ->
  blocked qs s -> in_call tr = Some (CallPost e) -> (length (s_post s) >= qs)%nat).
Proof.
  intros H.
  set (l := w 7 ++ AW (REvent (ev 9)) false :: w 9 ++ calls (CallPost (ev 1)) ++ w 6 ++
            calls (CallPost (ev 2)) ++ calls (CallPost (ev 3)) ++ AW ROk true :: w 20 ++ c 9).
  assert (B : blocked 1 (state 1 l)) by (apply stuck_blocked; vmr).
  assert (N : in_call (trace 1 l) = Some (CallPost (ev 3))) by (vmr).
  specialize (H 1%nat (trace 1 l) (state 1 l) (ev 3) (le_n 1) (runs 1 l) B N).
  assert (P : length (s_post (state 1 l)) = 0%nat) by (vmr).
  rewrite P in H. lia.
Qed.
Print Assumptions mtq_post_deadlock_refuted.

(** EventChannel.h:186-190: with BLOCK, getEvent waits for an event.  It does not. *)
Theorem mtq_block_refuted : ~ (forall qs tr s m, (1 <= qs)%nat ->
  mrun qs minit (tr ++ [LRet MustWait]) s -> in_call tr <> Some (CallGet m BLOCK)).
Proof.
  intros H. set (l := w 30 ++ calls (CallGet [] BLOCK)).
  specialize (H 1%nat (removelast (trace 1 l)) (state 1 l) [] (le_n 1)).
  assert (E : removelast (trace 1 l) ++ [LRet MustWait] = trace 1 l) by (vmr).
  rewrite E in H. apply (H (runs 1 l)). vm_compute. reflexivity.
Qed.
Print Assumptions mtq_block_refuted.

(** Events that have come in before the remote channel closed are all returned to a client
    that asks for them, [mtq_received], but not if it posts one first. *)
Theorem mtq_post_discards_refuted : ~ (forall qs tr s, (1 <= qs)%nat -> mrun qs minit tr s ->
  (forall k, In (LCall k) tr -> k <> CallClose /\ k <> CallAbort) ->
  In (get, IsClosed) (finished tr) -> received tr = delivered tr).
Proof.
  intros H. set (l := w 7 ++ AW (REvent (ev 9)) true :: w 9 ++ calls (CallPost (ev 1)) ++ c 9 ++ w 30 ++
                     c 9 ++ calls get).
  assert (F : finished (trace 1 l) = [(CallPost (ev 1), IsClosed); (get, IsClosed)]) by vmr.
  assert (X : received (trace 1 l) = [ev 9]) by vmr.
  assert (Y : delivered (trace 1 l) = []) by vmr.
  assert (A : forallb (fun x => negb (closes x)) (trace 1 l) = true) by vmr.
  specialize (H 1%nat _ _ (le_n 1) (runs 1 l)). rewrite F, X, Y in H.
  specialize (fun P => H P (or_intror (or_introl eq_refl))). discriminate H.
  intros k I. rewrite forallb_forall in A. specialize (A _ I).
  destruct k; first [discriminate A|split; discriminate].
Qed.
Print Assumptions mtq_post_discards_refuted.
