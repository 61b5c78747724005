(** What the queues of the channel hold, in terms of what has happened. *)
From Verif Require Import Base Hiid_Model Mtq_Model Mtq_Spec Mtq_Proofs.
From Coq Require Import PeanoNat Lia Bool.

Lemma scan_snoc : forall tr l, scan (tr ++ [l]) = scan1 (scan tr) l.
Proof. intros. unfold scan. rewrite fold_left_app. reflexivity. Qed.

Lemma in_call_snoc : forall tr l, in_call (tr ++ [l]) =
  match l with LCall c => Some c | LRet _ => None | _ => in_call tr end.
Proof. intros. unfold in_call. rewrite scan_snoc. destruct l; reflexivity. Qed.

Lemma finished_snoc : forall tr l, finished (tr ++ [l]) =
  finished tr ++ match l, in_call tr with LRet o, Some c => [(c, o)] | _, _ => [] end.
Proof.
  intros. unfold finished, in_call. rewrite scan_snoc.
  destruct l; cbn [scan1 snd]; try (rewrite app_nil_r; reflexivity). reflexivity.
Qed.

Lemma accepted_snoc : forall tr l, accepted (tr ++ [l]) =
  accepted tr ++ match l, in_call tr with LRet Posted, Some (CallPost e) => [e] | _, _ => [] end.
Proof.
  intros. unfold accepted. rewrite finished_snoc, flat_map_app. f_equal.
  destruct l as [|c|o| | | | | | |]; try reflexivity. destruct (in_call tr) as [c|]; destruct o; try reflexivity;
    destruct c; reflexivity.
Qed.

Lemma delivered_snoc : forall tr l, delivered (tr ++ [l]) =
  delivered tr ++ match l, in_call tr with LRet (Got e), Some (CallGet _ _) => [e] | _, _ => [] end.
Proof.
  intros. unfold delivered. rewrite finished_snoc, flat_map_app. f_equal.
  destruct l as [|c|o| | | | | | |]; try reflexivity. destruct (in_call tr) as [c|]; destruct o; try reflexivity;
    destruct c; reflexivity.
Qed.

Lemma thrown_snoc : forall tr l, thrown (tr ++ [l]) =
  thrown tr ++ match l, in_call tr with LRet (Threw es), Some _ => es | _, _ => [] end.
Proof.
  intros. unfold thrown. rewrite finished_snoc, flat_map_app. f_equal.
  destruct l as [|c|o| | | | | | |]; try reflexivity. destruct (in_call tr) as [c|]; destruct o; try reflexivity;
    cbn [flat_map]; apply app_nil_r.
Qed.

Lemma sent_snoc : forall tr l, sent (tr ++ [l]) =
  sent tr ++ match l with LRPost e _ _ => [e] | _ => [] end.
Proof. intros. unfold sent. rewrite flat_map_app. f_equal. destruct l; reflexivity. Qed.

Lemma received_snoc : forall tr l, received (tr ++ [l]) =
  received tr ++ match l with LRGet (REvent e) _ => [e] | _ => [] end.
Proof.
  intros. unfold received. rewrite flat_map_app. f_equal. destruct l as [| | | | |r ? | | | |]; try reflexivity.
  destruct r; reflexivity.
Qed.

Lemma raised_snoc : forall tr l, raised (tr ++ [l]) =
  raised tr ++ match l with
               | LRInit (RThrow x) _ | LRPost _ (RThrow x) _ | LRGet (RThrow x) _ => [x]
               | _ => []
               end.
Proof.
  intros. unfold raised. rewrite flat_map_app. f_equal.
  destruct l as [| | |r ?|? r ?|r ? | | | |]; try reflexivity; destruct r; reflexivity.
Qed.

(** The event that the worker is posting, and the error that it has yet to put in the queue *)
Definition inflight (w : wpc) : list qevent := match w with WPosting e => [e] | _ => [] end.
Definition pend (w : wpc) : list nat := match w with WRelock (Some x) => [x] | _ => [] end.

Definition dead (s : mstate) : Prop :=
  (s_rinit s = true /\ s_rclosed s = true) \/ (s_closed s = true /\ believes (s_w s) = false).

Definition task_ok (t : task) (o : option call) : Prop :=
  match t with
  | TPost e => o = Some (CallPost e)
  | TGet m w => o = Some (CallGet m w)
  | THas m => o = Some (CallHas m)
  | TFlush None => o = Some CallFlush
  | TFlush (Some k) | TClose k => o = Some k /\ k <> CallFlush
  end.

Definition cur_ok (c : cpc) (o : option call) : Prop :=
  match c with
  | CIdle => o = None
  | CLock t | CReady t | CReadyW t | CRun t => task_ok t o
  | CPostB e | CPostW e => o = Some (CallPost e)
  | CGetB m | CGetW m => o = Some (CallGet m WAIT)
  | CGetC m => exists w, o = Some (CallGet m w)
  | CFlushW None => o = Some CallFlush
  | CFlushW (Some k) | CClose0 k | CClose3 k | CClose3W k | CJoin k =>
      o = Some k /\ k <> CallFlush
  end.

(** The client is closing the channel *)
Definition leaving (c : cpc) : bool :=
  match c with CClose0 _ => true | _ => closing c end.

Definition reader (c : call) : bool :=
  match c with CallGet _ _ | CallHas _ => true | _ => false end.
Definition closer (c : call) : bool :=
  match c with CallClose | CallAbort => true | _ => false end.

(** The remote channel has been closed *)
Definition shut1 (l : label) : bool :=
  match l with LRClose | LRAbort => true | _ => ends l end.

Definition some_b (P : label -> bool) (tr : list label) : Prop := exists l, In l tr /\ P l = true.

Lemma some_snoc : forall P tr l, some_b P (tr ++ [l]) <-> some_b P tr \/ P l = true.
Proof.
  intros. unfold some_b. split.
  - intros [l' [H1 H2]]. apply in_app_or in H1 as [H1|[<-|[]]]; [left; eauto|right; exact H2].
  - intros [[l' [H1 H2]]|H]; [exists l'; split; [apply in_or_app; left|]; assumption|].
    exists l. split; [apply in_or_app; right; left; reflexivity|exact H].
Qed.

Lemma ri_true : forall qs s, inv qs s -> s_w s <> WInit -> s_rinit s = true.
Proof.
  intros qs s V H. destruct (s_rinit s) eqn:E; [reflexivity|].
  destruct (H (proj2 (v_winit _ _ V) E)).
Qed.

Ltac norm := cbn [inflight pend cur_ok task_ok leaving reader closer] in *; red1.

Section S.
  Variables (qs : nat) (s : mstate) (l : label) (s' : mstate).
  Hypothesis V : inv qs s.
  Hypothesis M : mstep qs s l s'.

  Lemma tst_cur : forall o, cur_ok (s_c s) o ->
    cur_ok (s_c s') (match l with LCall c => Some c | LRet _ => None | _ => o end).
  Proof.
    intros o. clear V. intros H.
    step_cases M; norm; try exact H; try reflexivity; try (destruct k; exact H);
      try (split; [reflexivity|discriminate]); try (split; [exact H|discriminate]).
    all: try (match goal with E : (_ =? _)%Z = true |- _ => apply Z.eqb_eq in E; subst end; first [exact H|reflexivity]).
    all: try (eexists; exact H).
    all: try (exists WAIT; exact H).
  Qed.

  Definition acc1 (o : option call) : list qevent :=
    match l, o with LRet Posted, Some (CallPost e) => [e] | _, _ => [] end.
  Definition sent1 : list qevent := match l with LRPost e _ _ => [e] | _ => [] end.

  Lemma tst_post : forall o A B, cur_ok (s_c s) o ->
    (exists lost, A = B ++ inflight (s_w s) ++ lost ++ s_post s /\ (lost = [] \/ dead s)) ->
    exists lost, A ++ acc1 o = (B ++ sent1) ++ inflight (s_w s') ++ lost ++ s_post s' /\
                 (lost = [] \/ dead s').
  Proof.
    intros o A B. pose proof (v_excl _ _ V) as Hexcl. pose proof (ri_true _ _ V) as Hri.
    pose proof (proj1 (v_winit _ _ V)) as Hw0. pose proof (v_closing _ _ V) as Hcl.
    clear V. intros Hc [lost [H D]].
    unfold acc1, sent1, dead in *.
    step_cases M; norm; rewrite ?app_nil_r in *; cbn [app] in *.
    all: try (pose proof (Hri ltac:(discriminate)) as R; clear Hri).
    all: try (pose proof (Hw0 eq_refl) as R; clear Hw0).
    all: try solve [exists lost; split;
      [first [exact H|reflexivity|rewrite <- app_assoc; reflexivity
             |destruct k; rewrite ?app_nil_r; first [exact H|reflexivity]]|
      destruct D as [D|[[D D']|[D D']]];
      first [left; exact D|right; left; split; congruence
            |right; left; split; [congruence|rewrite D'; reflexivity]|right; right; split; congruence|discriminate]]].
    - exists (lost ++ po). split; [rewrite app_nil_r; reflexivity|]. right. left. split; [exact R|reflexivity].
    - destruct D as [->|[[_ D]|[_ D]]]; [|discriminate|discriminate].
      exists []. split; [reflexivity|left; reflexivity].
    - exists (lost ++ po). split; [rewrite app_nil_r; reflexivity|]. right. right.
      destruct (Hcl eq_refl) as [H1 _]. split; [exact H1|].
      bools. destruct Hexcl as [E|E]; [destruct w; first [reflexivity|discriminate]|discriminate].
    - exists lost. split; [|exact D]. rewrite Hc. rewrite <- !app_assoc. reflexivity.
  Qed.

  Definition del1 (o : option call) : list qevent :=
    match l, o with LRet (Got e), Some (CallGet _ _) => [e] | _, _ => [] end.
  Definition rec1 : list qevent := match l with LRGet (REvent e) _ => [e] | _ => [] end.

  Lemma tst_get : forall o A B, cur_ok (s_c s) o ->
    (exists lost, A = B ++ s_get s ++ lost /\
       (lost = [] \/ (s_get s = [] /\ s_closed s = true /\
                      (s_rclosed s = true \/ believes (s_w s) = false)))) ->
    exists lost, A ++ rec1 = (B ++ del1 o) ++ s_get s' ++ lost /\
       (lost = [] \/ (s_get s' = [] /\ s_closed s' = true /\
                      (s_rclosed s' = true \/ believes (s_w s') = false))).
  Proof.
    intros o A B. pose proof (v_excl _ _ V) as Hexcl. pose proof (v_wget _ _ V) as Hwget.
    pose proof (v_closing _ _ V) as Hcl.
    clear V. intros Hc [lost [H D]].
    unfold del1, rec1 in *.
    step_cases M; norm; rewrite ?app_nil_r in *; cbn [app] in *.
    all: try solve [exists lost; split;
      [first [exact H|reflexivity|destruct k; rewrite ?app_nil_r; first [exact H|reflexivity]]|
      destruct D as [D|[D1 [D2 [D3|D3]]]];
      first [left; exact D|right; split; [exact D1|]; split; [congruence|]; left; congruence
            |right; split; [exact D1|]; split; [congruence|]; left; rewrite D3; reflexivity
            |right; split; [exact D1|]; split; [congruence|]; right; congruence|discriminate]]].
    - destruct D as [->|[_ [_ [D|D]]]]; [|rewrite (Hwget eq_refl) in D; discriminate|discriminate].
      exists []. split; [rewrite !app_nil_r, app_assoc; reflexivity|left; reflexivity].
    - exists (ge ++ lost). split; [reflexivity|]. right.
      destruct (Hcl eq_refl) as [H1 _]. split; [reflexivity|]. split; [exact H1|]. right.
      bools. destruct Hexcl as [E|E]; [destruct w; first [reflexivity|discriminate]|discriminate].
    - exists lost. destruct Hc as [m ->]. split; [rewrite <- app_assoc; reflexivity|].
      destruct D as [D|[D _]]; [left; exact D|discriminate].
  Qed.

  Lemma tst_reads : forall o A B, cur_ok (s_c s) o ->
    (leaving (s_c s) = true -> s_get s = []) ->
    A = B ++ s_get s -> A ++ rec1 = (B ++ del1 o) ++ s_get s'.
  Proof.
    intros o A B. clear V. intros Hc Hl H. unfold del1, rec1 in *.
    step_cases M; norm; rewrite ?app_nil_r in *; cbn [app] in *.
    all: try solve [first [exact H|reflexivity|symmetry; apply app_assoc
                          |destruct k; rewrite ?app_nil_r; first [exact H|reflexivity]]].
    - rewrite (Hl eq_refl). rewrite ?app_nil_r. reflexivity.
    - destruct Hc as [m ->]. rewrite <- app_assoc. reflexivity.
  Qed.

  Definition rai1 : list nat :=
    match l with
    | LRInit (RThrow x) _ | LRPost _ (RThrow x) _ | LRGet (RThrow x) _ => [x]
    | _ => []
    end.
  Definition thr1 (o : option call) : list nat :=
    match l, o with LRet (Threw es), Some _ => es | _, _ => [] end.

  Lemma tst_err : forall o A B, cur_ok (s_c s) o ->
    A = B ++ s_err s ++ pend (s_w s) -> A ++ rai1 = (B ++ thr1 o) ++ s_err s' ++ pend (s_w s').
  Proof.
    intros o A B. pose proof (v_excl _ _ V) as Hexcl. clear V. intros Hc H. unfold rai1, thr1 in *.
    step_cases M; norm; rewrite ?app_nil_r in *; cbn [app] in *.
    all: try solve [first [exact H|reflexivity|symmetry; apply app_assoc|rewrite <- ?app_assoc; reflexivity
                          |destruct k; rewrite ?app_nil_r; first [exact H|reflexivity]]].
    all: try solve [rewrite Hc; cbn [app]; rewrite <- ?app_assoc; reflexivity].
    all: try solve [destruct Hc as [m ->]; cbn [app]; rewrite <- ?app_assoc; reflexivity].
    destruct Hc as [-> _]. reflexivity.
  Qed.

  Definition nothing_closed (s : mstate) : Prop :=
    s_closed s = false /\ s_aborted s = false /\ leaving (s_c s) = false /\
    (s_rinit s = true -> s_rclosed s = false).

  Lemma tst_open : closes l = false -> ends l = false -> nothing_closed s -> nothing_closed s'.
  Proof.
    pose proof (v_cpc _ _ V) as Hcpc. clear V. unfold nothing_closed. intros L1 L2 [H1 [H2 [H3 H4]]].
    step_cases M; norm; cbn [closes ends] in *; fwd; subst.
    all: try solve [repeat split; try assumption; try reflexivity; try congruence;
                    destruct cl; first [discriminate|reflexivity|assumption|intros; fwd; subst; reflexivity]].
    all: try solve [repeat split; try assumption; try reflexivity; try congruence; intros; fwd; congruence].
  Qed.

  Definition gone (s : mstate) : Prop := s_rinit s = true /\ s_rclosed s = true.

  Lemma tst_gone : gone s -> gone s'.
  Proof.
    pose proof (proj1 (v_winit _ _ V)) as Hw0. pose proof (v_wget _ _ V) as Hg.
    clear V. unfold gone. intros [H1 H2].
    step_cases M; norm; fwd; subst; try (split; first [assumption|reflexivity|congruence]); congruence.
  Qed.

  Lemma tst_shut : shut1 l = true -> gone s'.
  Proof.
    pose proof (ri_true _ _ V) as Hri. clear V. unfold gone, shut1. intros H.
    step_cases M; norm; cbn [ends] in *; try discriminate.
    all: try (pose proof (Hri ltac:(discriminate)) as R; clear Hri).
    all: try (destruct cl; try discriminate).
    all: rewrite ?orb_true_r; split; first [assumption|reflexivity].
  Qed.

  Lemma tst_not_gone : gone s' -> gone s \/ shut1 l = true.
  Proof.
    clear V. unfold gone, shut1. intros [H1 H2].
    step_cases M; norm; cbn [ends] in *; subst; auto.
    all: destruct rc, cl; auto.
  Qed.

  Lemma tst_abort : forall o, (o = Some CallAbort -> s_aborted s = true) ->
    (match l with LCall c => Some c | LRet _ => None | _ => o end) = Some CallAbort ->
    s_aborted s' = true.
  Proof.
    intros o H X. clear V.
    step_cases M; norm; try discriminate; try reflexivity; subst;
      first [exact (H X)|exact (H eq_refl)|congruence].
  Qed.

  (** A call that closes the channel without having been asked to *)
  Lemma tst_why : forall o, cur_ok (s_c s) o ->
    (forall k, o = Some k -> leaving (s_c s) = true -> closer k = false ->
       gone s /\ (reader k = true -> s_get s = [])) ->
    forall k, (match l with LCall c => Some c | LRet _ => None | _ => o end) = Some k ->
       leaving (s_c s') = true -> closer k = false ->
       gone s' /\ (reader k = true -> s_get s' = []).
  Proof.
    intros o Hc H kk K1 K2 K3.
    assert (G : gone s -> gone s') by apply tst_gone.
    pose proof (v_cpc _ _ V) as Hcpc. pose proof (v_wget _ _ V) as Hg. clear V.
    unfold gone in *.
    step_cases M; norm; try discriminate; subst.
    all: try solve [destruct (H kk eq_refl K2 K3) as [H1 H2]; split; [exact (G H1)|exact H2]].
    all: try solve [destruct (H kk eq_refl eq_refl K3) as [H1 H2]; split; [exact (G H1)|exact H2]].
    all: try solve [exfalso; rewrite (Hg eq_refl) in H; destruct (H kk eq_refl K2 K3) as [[_ H1] _]; discriminate].
    all: try solve [injection K1 as <-; split; [split; first [assumption|reflexivity]|]; intros; bools;
                    first [discriminate|assumption|reflexivity]].
    all: try solve [injection K1 as <-; discriminate].
    destruct (H kk eq_refl eq_refl K3) as [H1 H2]. split; [exact (G H1)|]. reflexivity.
  Qed.
End S.

Lemma in_call_In : forall tr c, in_call tr = Some c -> In (LCall c) tr.
Proof.
  induction tr as [|l tr IH] using rev_ind; intros c H; [discriminate|].
  rewrite in_call_snoc in H. apply in_or_app.
  destruct l; try (left; apply IH; exact H); try discriminate.
  injection H as ->. right. left. reflexivity.
Qed.

Record tinv (qs : nat) (tr : list label) (s : mstate) : Prop := {
  t_inv : inv qs s;
  t_cur : cur_ok (s_c s) (in_call tr);
  t_post : exists lost, accepted tr = sent tr ++ inflight (s_w s) ++ lost ++ s_post s /\
                        (lost = [] \/ dead s);
  t_get : exists lost, received tr = delivered tr ++ s_get s ++ lost /\
            (lost = [] \/ (s_get s = [] /\ s_closed s = true /\
                           (s_rclosed s = true \/ believes (s_w s) = false)));
  t_err : raised tr = thrown tr ++ s_err s ++ pend (s_w s);
  t_open : all_open tr -> nothing_closed s;
  t_gone : gone s <-> shut tr;
  t_abort : in_call tr = Some CallAbort -> s_aborted s = true;
  t_why : forall k, in_call tr = Some k -> leaving (s_c s) = true -> closer k = false ->
            gone s /\ (reader k = true -> s_get s = []);
  t_reads : only_reads tr -> received tr = delivered tr ++ s_get s
}.

Lemma shut1_iff : forall l, shut1 l = true <-> (ends l = true \/ l = LRClose \/ l = LRAbort).
Proof.
  intros l. unfold shut1. split.
  - destruct l; auto.
  - intros [H|[->| ->]]; try reflexivity. destruct l; first [exact H|reflexivity|discriminate].
Qed.

Lemma shut_snoc : forall tr l, shut (tr ++ [l]) <-> shut tr \/ shut1 l = true.
Proof.
  intros tr l. unfold shut. split.
  - intros [l' [H1 H2]]. apply in_app_or in H1 as [H1|[<-|[]]]; [left; eauto|].
    right. apply shut1_iff. exact H2.
  - intros [[l' [H1 H2]]|H].
    + exists l'. split; [apply in_or_app; left|]; assumption.
    + exists l. split; [apply in_or_app; right; left; reflexivity|]. apply shut1_iff. exact H.
Qed.

Lemma only_reads_call : forall tr k, only_reads tr -> in_call tr = Some k -> reader k = true.
Proof.
  intros tr k R H. specialize (R k (in_call_In tr k H)). destruct k; first [reflexivity|destruct R].
Qed.

Lemma tinv_step : forall qs tr s l s', tinv qs tr s -> mstep qs s l s' -> tinv qs (tr ++ [l]) s'.
Proof.
  intros qs tr s l s' T M. pose proof (t_inv _ _ _ T) as V. pose proof (t_cur _ _ _ T) as C.
  constructor.
  - exact (inv_step _ _ _ _ V M).
  - rewrite in_call_snoc. exact (tst_cur _ _ _ _ M _ C).
  - rewrite accepted_snoc, sent_snoc. exact (tst_post _ _ _ _ V M _ _ _ C (t_post _ _ _ T)).
  - rewrite received_snoc, delivered_snoc. exact (tst_get _ _ _ _ V M _ _ _ C (t_get _ _ _ T)).
  - rewrite raised_snoc, thrown_snoc. exact (tst_err _ _ _ _ V M _ _ _ C (t_err _ _ _ T)).
  - intros O. assert (L : closes l = false /\ ends l = false) by
      (apply O, in_or_app; right; left; reflexivity).
    destruct L as [L1 L2]. apply (tst_open _ _ _ _ V M L1 L2), (t_open _ _ _ T).
    intros l' I. apply O, in_or_app. left. exact I.
  - rewrite shut_snoc. rewrite <- (t_gone _ _ _ T). split.
    + exact (tst_not_gone _ _ _ _ M).
    + intros [H|H]; [exact (tst_gone _ _ _ _ V M H)|exact (tst_shut _ _ _ _ V M H)].
  - rewrite in_call_snoc. exact (tst_abort _ _ _ _ M _ (t_abort _ _ _ T)).
  - rewrite in_call_snoc. exact (tst_why _ _ _ _ V M _ C (t_why _ _ _ T)).
  - intros R. rewrite received_snoc, delivered_snoc.
    assert (R' : only_reads tr) by (intros c I; apply R, in_or_app; left; exact I).
    apply (tst_reads _ _ _ _ M _ _ _ C); [|exact (t_reads _ _ _ T R')].
    intros L. destruct (in_call tr) as [k|] eqn:E.
    + pose proof (only_reads_call tr k R' E) as RK.
      apply (t_why _ _ _ T k E L); [destruct k; first [reflexivity|discriminate]|exact RK].
    + destruct (s_c s) as [|t|t|t|t| | | | | |[?|]| | | |]; try destruct t as [| | |[?|]|];
        cbn in C, L; try discriminate; destruct C; discriminate.
Qed.

Lemma tinv_init : forall qs, (1 <= qs)%nat -> tinv qs [] minit.
Proof.
  intros qs Q. constructor.
  - apply inv_init. exact Q.
  - reflexivity.
  - exists []. split; [reflexivity|left; reflexivity].
  - exists []. split; [reflexivity|left; reflexivity].
  - reflexivity.
  - intros _. unfold nothing_closed, minit. cbn. repeat split. intros; discriminate.
  - split; [intros [H _]; discriminate|intros [l [[] _]]].
  - intros; discriminate.
  - intros; discriminate.
  - reflexivity.
Qed.

Lemma mrun_tinv : forall qs tr s, (1 <= qs)%nat -> mrun qs minit tr s -> tinv qs tr s.
Proof.
  intros qs tr s Q R. remember minit as s0 eqn:E. induction R as [s|s tr s1 l s2 R IH M]; subst.
  - apply tinv_init. exact Q.
  - exact (tinv_step _ _ _ _ _ (IH eq_refl) M).
Qed.

Lemma mrun_last : forall qs s tr l s2, mrun qs s (tr ++ [l]) s2 ->
  exists s1, mrun qs s tr s1 /\ mstep qs s1 l s2.
Proof.
  intros qs s tr l s2 R. remember (tr ++ [l]) as tr0 eqn:E. destruct R as [s|s tr' s1 l' s2 R M].
  - destruct tr; discriminate.
  - apply app_inj_tail in E as [-> ->]. exists s1. split; assumption.
Qed.

Lemma mrun_app : forall qs s tr s1 tr' s2, mrun qs s tr s1 -> mrun qs s1 tr' s2 ->
  mrun qs s (tr ++ tr') s2.
Proof.
  intros qs s tr s1 tr' s2 R R'. induction R' as [s'|s' tr' s1' l s2' R' IH M].
  - rewrite app_nil_r. exact R.
  - rewrite app_assoc. econstructor; [apply IH; exact R|exact M].
Qed.
