(** Calls of the queue channel that never return, calls after the channel is closed, and
    runs that come to an end. *)
From Verif Require Import Base Hiid_Model Mtq_Model Mtq_Spec Mtq_Proofs Mtq_Traces Mtq_Block.
From Coq Require Import PeanoNat Lia Bool.

Lemma hangs_by : forall qs (P : mstate -> Prop),
  (forall s l s', P s -> mstep qs s l s' -> P s' /\ forall o, l <> LRet o) ->
  forall s, P s -> hangs qs s.
Proof.
  intros qs P H s Hs tr s' o R.
  assert (G : P s' /\ ~ In (LRet o) tr); [|apply G].
  induction R as [s|s tr s1 l s2 R IH M]; [split; [exact Hs|intros []]|].
  destruct (IH Hs) as [P1 N]. destruct (H _ _ _ P1 M) as [P2 L]. split; [exact P2|].
  intros I. apply in_app_or in I as [I|[I|[]]]; [exact (N I)|]. exact (L o I).
Qed.

(** getEvent(WAIT) when the worker is gone *)
Definition stuck_get (s : mstate) : Prop :=
  s_w s = WDone /\ s_get s = [] /\ s_err s = [] /\
  match s_c s with CGetW _ | CGetB _ => True | _ => False end.

Lemma stuck_get_step : forall qs s l s', stuck_get s -> mstep qs s l s' ->
  stuck_get s' /\ forall o, l <> LRet o.
Proof.
  intros qs s l s' [HW [HG [HE HC]]] M. unfold stuck_get.
  step_cases M; subst; try discriminate; try contradiction; bools;
    try (split; [repeat split; assumption|discriminate]);
    try solve [match goal with H : _ \/ _ |- _ => destruct H; bools; cbn in *; congruence end].
Qed.

(** ... and a flush when the worker is gone and there are events to send *)
Definition stuck_flush (s : mstate) : Prop :=
  s_w s = WDone /\ s_post s <> [] /\ s_aborted s = false /\
  match s_c s with CFlushW _ | CRun (TFlush _) => True | _ => False end.

Lemma stuck_flush_step : forall qs s l s', stuck_flush s -> mstep qs s l s' ->
  stuck_flush s' /\ forall o, l <> LRet o.
Proof.
  intros qs s l s' [HW [HG [HE HC]]] M. unfold stuck_flush.
  step_cases M; subst; try discriminate; try contradiction; bools;
    try (split; [repeat split; assumption|discriminate]);
    try solve [match goal with H : _ \/ _ |- _ => destruct H; bools; cbn in *; congruence end].
Qed.

(** close() when there are errors that the client has not had *)
Definition doomed (s : mstate) : Prop :=
  s_err s <> [] /\ s_thread s = true /\
  match s_w s with
  | WErr | WErr1 | WErr2 => True
  | WTop | WErrW | WFullW | WIdleW => s_rclosed s = false
  | _ => False
  end /\
  match s_c s with
  | CClose0 _
  | CLock (TFlush (Some _)) | CReady (TFlush (Some _)) | CReadyW (TFlush (Some _))
  | CRun (TFlush (Some _)) | CFlushW (Some _)
  | CLock (TClose _) | CReady (TClose _) | CReadyW (TClose _) | CRun (TClose _)
  | CClose3 _ | CClose3W _ => True
  | _ => False
  end.

Lemma doomed_step : forall qs s l s', inv qs s -> doomed s -> mstep qs s l s' ->
  doomed s' /\ forall o, l <> LRet o.
Proof.
  intros qs s l s' V [HE [HT [HW HC]]] M. pose proof (v_excl _ _ V) as HX. pose proof (v_owner _ _ V) as HO.
  clear V. unfold doomed.
  step_cases M; red1; subst; try discriminate; try contradiction; bools;
    try congruence;
    try (split; [repeat split; solve [assumption|exact Logic.I|congruence]|discriminate]).
  destruct w; first [discriminate|contradiction].
Qed.

Lemma doomed_hangs : forall qs s, inv qs s -> doomed s -> hangs qs s.
Proof.
  intros qs s V D. apply (hangs_by qs (fun s => inv qs s /\ doomed s)); [|split; assumption].
  intros s1 l s2 [V1 D1] M. destruct (doomed_step _ _ _ _ V1 D1 M) as [D2 L].
  split; [split; [exact (inv_step _ _ _ _ V1 M)|exact D2]|exact L].
Qed.

Lemma startCall_step : forall qs s c, s_c s = CIdle -> mstep qs s (LCall c) (snd (startCall s c)).
Proof.
  intros qs s c H. replace (LCall c) with (fst (startCall s c)) by (destruct c; reflexivity).
  apply m_call. exact H.
Qed.

Lemma close_hangs : forall qs tr s c, tinv qs tr s -> blocked qs s -> in_call tr = None ->
  raised tr <> thrown tr -> ~ shut tr -> closer c = true -> hangs qs (snd (startCall s c)).
Proof.
  intros qs tr s c T B N R S K. pose proof (t_inv _ _ _ T) as V.
  apply blocked_none in B as [W C]. destruct (both_stuck _ _ V (W ROk false) C) as [HW HC].
  assert (CI : s_c s = CIdle).
  { pose proof (t_cur _ _ _ T) as HT. rewrite N in HT.
    destruct (s_c s) as [|t|t|t|t| | | | | |[?|]| | | |]; try destruct t as [| | |[?|]|];
      try reflexivity; cbn in HT; try discriminate; try (destruct HT; discriminate). }
  pose proof (inv_step _ _ _ _ V (startCall_step qs s c CI)) as V'.
  assert (E : s_err s <> []).
  { intros E. apply R. apply (reported _ _ _ T); [exact E|]. destruct HW as [H|[_ H]]; auto. }
  assert (RC : s_rclosed s = false).
  { destruct (s_rclosed s) eqn:RC; [|reflexivity]. destruct S. apply (rclosed_shut _ _ _ T RC).
    destruct HW as [H|[_ H]]; [congruence|]. intros H'. rewrite H' in H. discriminate. }
  assert (TH : s_thread s = true).
  { destruct (s_thread s) eqn:TH; [reflexivity|]. destruct (v_thread _ _ V TH) as [_ D].
    destruct S. apply (done_shut _ _ _ T D). }
  apply doomed_hangs; [exact V'|].
  assert (WW : match s_w s with WErrW | WFullW | WIdleW => True | _ => False end).
  { destruct HW as [H|[_ H]]; [destruct S; apply (done_shut _ _ _ T H)|].
    destruct (s_w s) eqn:EW; try discriminate; try exact Logic.I.
    pose proof (v_drain _ _ V (or_intror EW)). congruence. }
  unfold doomed. destruct c; try discriminate; cbn [startCall snd]; simp;
    (split; [exact E|]; split; [exact TH|]; split; [|exact Logic.I];
     destruct (s_w s); first [exact RC|destruct WW]).
Qed.

(** Once the remote channel is closed, nothing ends a getEvent that both threads wait in *)
Lemma get_hangs : forall qs tr s m, tinv qs tr s -> blocked qs s -> shut tr ->
  in_call tr = Some (CallGet m WAIT) -> hangs qs s.
Proof.
  intros qs tr s m T B S N. pose proof (t_inv _ _ _ T) as V.
  apply blocked_none in B as [W C]. destruct (both_stuck _ _ V (W ROk false) C) as [HW HC].
  pose proof (worker_waits _ _ _ T HW) as WW. pose proof (t_cur _ _ _ T) as HT. rewrite N in HT.
  pose proof (v_qs _ _ V) as Q.
  apply (t_gone _ _ _ T) in S as [_ RC].
  destruct HC as [HC|[[CS HC]|[k [HC ND]]]].
  - rewrite HC in HT. discriminate.
  - destruct (s_c s) as [|t|t|t|t| | | |m'| |[k|]| | | |] eqn:EC; try discriminate.
    + pose proof (v_cReady _ _ V CS) as H. rewrite EC in H.
      apply (proj2 (v_winit _ _ V)) in H. rewrite H in HW. destruct HW as [|[_ ?]]; discriminate.
    + pose proof (v_cGet _ _ V CS) as H. rewrite EC in H. destruct H as [H1 H2].
      destruct WW as [[D _]|[[_ [H _]]|[[_ [_ G]]|[[_ [_ G]]|[_ [_ R]]]]]]; try congruence.
      apply (hangs_by qs stuck_get (stuck_get_step qs)). unfold stuck_get. rewrite EC. auto.
    + pose proof (v_cFlush _ _ V CS) as H. rewrite EC in H. destruct H as [H1 H2].
      destruct HT as [HT _]. injection HT as <-.
      destruct (t_why _ _ _ T _ N) as [_ G]; [rewrite EC; reflexivity|reflexivity|].
      specialize (G eq_refl).
      destruct WW as [[D _]|[[_ [_ H]]|[[_ [_ H]]|[[_ [_ H]]|[_ [_ R]]]]]]; try congruence.
      apply (hangs_by qs stuck_flush (stuck_flush_step qs)). unfold stuck_flush. rewrite EC.
      split; [exact D|]. split; [|auto]. destruct H2 as [H2|[_ H2]]; [exact H2|contradiction].
    + exfalso. pose proof (v_cClose _ _ V CS) as H. rewrite EC in H.
      destruct (v_emptied _ _ V) as [_ [_ [WS _]]]; [rewrite EC; reflexivity|].
      destruct HW as [D|[D _]]; [|congruence].
      destruct (v_exit _ _ V (or_intror D)) as [R _]. destruct H; congruence.
  - exfalso. destruct (v_emptied _ _ V) as [_ [_ [WS _]]]; [rewrite HC; reflexivity|].
    destruct HW as [D|[D _]]; congruence.
Qed.

(** The channel has been closed *)
Definition over (s : mstate) : Prop :=
  s_w s = WDone /\ s_thread s = false /\ s_closed s = true /\ s_rclosed s = true /\ s_rinit s = true /\
  s_post s = [] /\ s_get s = [] /\ s_err s = [] /\
  match s_c s with
  | CIdle | CClose0 _ => True
  | CLock t | CReady t | CRun t =>
      match t with TPost _ | TGet _ _ | THas _ | TFlush None => True | _ => False end
  | _ => False
  end.

Lemma over_step : forall qs s l s' o, over s -> cur_ok (s_c s) o -> mstep qs s l s' ->
  over s' /\ remote_call l = false /\
  (forall r, l = LRet r -> exists c, o = Some c /\ r = answer c).
Proof.
  intros qs s l s' o [H1 [H2 [H3 [H4 [H5 [H6 [H7 [H8 H9]]]]]]]] Hc M. unfold over.
  step_cases M; norm; subst; try discriminate; try contradiction; bools; try congruence;
    try (destruct t as [| | |[?|]|]; try contradiction);
    try (split; [repeat split; solve [assumption|exact Logic.I|reflexivity]|]; split; [reflexivity|];
         intros r R; first [discriminate|
           injection R as <-; eexists; split; [first [exact Hc|exact (proj1 Hc)|reflexivity]|
             first [reflexivity|destruct Hc as [_ Hc]; destruct k; first [reflexivity|congruence]]]]).
Qed.

Lemma no_errors_left : forall qs tr s, (1 <= qs)%nat -> mrun qs minit tr s ->
  s_thread s = false -> s_err s = [].
Proof.
  intros qs tr s Q R. remember minit as s0 eqn:E0. induction R as [s|s tr s1 l s2 R IH M]; subst.
  - discriminate.
  - specialize (IH eq_refl). pose proof (t_inv _ _ _ (mrun_tinv _ _ _ Q R)) as V.
    pose proof (v_thread _ _ V) as HT. clear V R.
    step_cases M; intros; bools; red1; try reflexivity; try congruence;
      try (apply IH; assumption);
      try solve [match goal with H : ?b = false, G : ?b = false -> _ /\ _ |- _ => destruct (G H); discriminate end].
Qed.

Lemma over_reached : forall qs tr o s c, (1 <= qs)%nat -> mrun qs minit (tr ++ [LRet o]) s ->
  in_call tr = Some c -> closed_by c o -> over s /\ s_c s = CIdle.
Proof.
  intros qs tr o s c Q R N K. apply mrun_last in R as [s1 [R M]].
  pose proof (mrun_tinv _ _ _ Q R) as T. pose proof (t_inv _ _ _ T) as V.
  pose proof (no_errors_left _ _ _ Q R) as HN. pose proof (t_cur _ _ _ T) as HC. rewrite N in HC.
  pose proof (v_thread _ _ V) as HT. pose proof (v_exit _ _ V) as HE. pose proof (v_open _ _ V) as HO.
  pose proof (v_closing _ _ V) as HG. pose proof (v_emptied _ _ V) as HM. pose proof (ri_true _ _ V) as HR.
  clear V T R.
  unfold over, closed_by in *. remember (LRet o) as l eqn:EL. rename c into c9.
  step_cases M; norm; try discriminate; bools; subst;
    try (exfalso; destruct K as [K|[K|K]]; congruence).
  all: try (exfalso; destruct HC; destruct K as [K|[K|K]]; congruence).
  all: try (exfalso; destruct o; destruct K as [K|[K|K]]; congruence).
  all: try (destruct HC as [? HC]; exfalso; destruct K as [K|[K|K]]; congruence).
  all: fwd; try (specialize (HR ltac:(discriminate))); repeat split; try assumption; try reflexivity.
  all: subst w; specialize (HE (or_intror eq_refl)); specialize (HR ltac:(discriminate)).
  all: try (apply HO); try (apply HE); try assumption.
Qed.

Lemma over_run : forall qs s tr s' , over s -> s_c s = CIdle -> mrun qs s tr s' ->
  over s' /\ cur_ok (s_c s') (in_call tr) /\ (forall l, In l tr -> remote_call l = false) /\
  (forall c o, In (c, o) (finished tr) -> o = answer c).
Proof.
  intros qs s tr s' O C R. induction R as [s|s tr s1 l s2 R IH M].
  - split; [exact O|]. split; [rewrite C; reflexivity|]. split; [intros l []|intros c o []].
  - destruct (IH O C) as [O1 [C1 [L1 F1]]]. destruct (over_step _ _ _ _ _ O1 C1 M) as [O2 [L2 F2]].
    split; [exact O2|]. split; [rewrite in_call_snoc; exact (tst_cur _ _ _ _ M _ C1)|]. split.
    + intros l' I. apply in_app_or in I as [I|[<-|[]]]; [exact (L1 l' I)|exact L2].
    + intros c o I. rewrite finished_snoc in I. apply in_app_or in I as [I|I]; [exact (F1 c o I)|].
      destruct l; try destruct I. destruct (F2 _ eq_refl) as [c' [EC ->]]. rewrite EC in I.
      destruct I as [I|[]]. injection I as <- <-. reflexivity.
Qed.

(** An error that is not in the queue yet is that of the last call of the remote channel *)
Lemma last_post : forall qs tr s x, mrun qs minit tr s -> s_w s = WRelock (Some x) ->
  exists k e cl, filter remote_call tr = k ++ [LRPost e (RThrow x) cl].
Proof.
  intros qs tr s x R. remember minit as s0 eqn:E0. revert x.
  induction R as [s|s tr s1 l s2 R IH M]; subst; intros x H.
  - discriminate.
  - specialize (IH eq_refl). clear R. rewrite filter_app.
    step_cases M; red1; try discriminate; cbn [filter remote_call]; rewrite ?app_nil_r;
      try (apply IH; assumption); try (destruct k; rewrite ?app_nil_r; apply IH; assumption).
    all: try (injection H as ->; do 3 eexists; reflexivity).
    all: try solve [subst w; try destruct k; rewrite ?app_nil_r; apply IH; reflexivity].
    all: apply IH; reflexivity.
Qed.

(** The steps that the two threads have before them *)
Definition wpm (w : wpc) : nat :=
  match w with
  | WAfter2 true | WErr2 => 1
  | WAfter true | WErr1 => 2
  | WGet => 3
  | WState2 => 4
  | WState | WPost2 => 5
  | WClear | WPost1 => 6
  | WPost => 7
  | WErr | WRelock None => 8
  | WTop | WErrW | WPosting _ => 9
  | WFullW | WIdleW | WAfter2 false => 10
  | WAfter false => 11
  | WRelock (Some _) => 17
  | WInit => 18
  | _ => 0
  end%nat.
Definition cpm (c : cpc) : nat :=
  match c with
  | CLock _ | CReadyW _ => 8
  | CReady _ | CFlushW _ => 7
  | CRun _ | CPostW _ | CGetW _ => 6
  | CPostB _ | CGetB _ => 5
  | CGetC _ => 4
  | _ => 0
  end%nat.
Definition incall (c : cpc) : nat := match c with CIdle => 0 | _ => 25 end%nat.
Definition todo (s : mstate) : nat :=
  (14 * length (s_post s) + (if s_wsleep s then 0 else wpm (s_w s)) +
   (if s_csleep s then 0 else cpm (s_c s)) + incall (s_c s))%nat.

Lemma wpm_wait : forall w, wwaits w = true -> (wpm w <= 10)%nat.
Proof. destruct w; intros; try discriminate; cbn; lia. Qed.
Lemma wpm_top : forall w, (wpm w <= 18)%nat.
Proof. destruct w as [| | | | | | | | | |[?|]| | | | | | | |[|]|[|]| | |]; cbn; lia. Qed.
Lemma cpm_top : forall c, (cpm c <= 8)%nat.
Proof. destruct c; cbn; lia. Qed.
Lemma incall_top : forall c, (incall c <= 25)%nat.
Proof. destruct c; cbn; lia. Qed.

Lemma todo_step : forall qs s l s', inv qs s -> nothing_closed s -> nothing_closed s' ->
  mstep qs s l s' -> quiet1 l = true -> (todo s' < todo s)%nat.
Proof.
  intros qs s l s' V N N' M Q. pose proof (v_wsleep _ _ V) as HW. pose proof (v_csleep _ _ V) as HC.
  pose proof (v_winit _ _ V) as HI. pose proof (v_post12 _ _ V) as HP. pose proof (v_cpc _ _ V) as HR.
  pose proof (v_exit _ _ V) as HX. pose proof (v_drain _ _ V) as HD. pose proof (ri_true _ _ V) as HT.
  clear V.
  unfold nothing_closed, todo in *.
  step_cases M; norm; try discriminate Q; bools; fwd; subst; try congruence; cbn [wpm incall] in *.
  all: try (pose proof (HT ltac:(discriminate)) as R; clear HT; fwd; try congruence).
  all: try match goal with c : cpc |- _ => pose proof (cpm_top c) end.
  all: try match goal with |- context[wpm ?w] => is_var w; pose proof (wpm_top w); pose proof (wpm_wait w) end.
  all: repeat match goal with |- context[if ?b then _ else _] => is_var b; destruct b end; fwd; cbn [cpm length] in *; rewrite ?app_length in *; cbn [length] in *; try discriminate; try lia.
Qed.

Lemma all_open_app : forall tr tr', all_open (tr ++ tr') -> all_open tr.
Proof. intros tr tr' H l I. apply H, in_or_app. left. exact I. Qed.

Lemma todo_run : forall qs tr s tr' s', (1 <= qs)%nat -> mrun qs minit tr s -> mrun qs s tr' s' ->
  all_open (tr ++ tr') -> quiet tr' -> (length tr' + todo s' <= todo s)%nat.
Proof.
  intros qs tr s tr' s' Q R R'. induction R' as [s|s tr' s1 l s2 R' IH M]; intros A U; [cbn; lia|].
  rewrite app_assoc in A. pose proof (mrun_app _ _ _ _ _ _ R R') as R1.
  assert (I : (length tr' + todo s1 <= todo s)%nat).
  { apply IH; [exact R|exact (all_open_app _ _ A)|]. intros l' I. apply U, in_or_app. left. exact I. }
  pose proof (mrun_tinv _ _ _ Q R1) as T1. pose proof (tinv_step _ _ _ _ _ T1 M) as T2.
  assert (D : (todo s2 < todo s1)%nat).
  { apply (todo_step qs _ l); [exact (t_inv _ _ _ T1)|apply (t_open _ _ _ T1); exact (all_open_app _ _ A)|
      apply (t_open _ _ _ T2); exact A|exact M|].
    apply U, in_or_app. right. left. reflexivity. }
  rewrite app_length. cbn [length]. lia.
Qed.

Lemma todo_bound : forall qs s, inv qs s -> (todo s <= 14 * qs + 51)%nat.
Proof.
  intros qs s V. unfold todo. pose proof (v_post _ _ V). pose proof (wpm_top (s_w s)).
  pose proof (cpm_top (s_c s)). pose proof (incall_top (s_c s)).
  destruct (s_wsleep s), (s_csleep s); lia.
Qed.

(** Runs step by step, for examples *)
Inductive act := AW (r : reply) (cl : bool) | AC | ACall (c : call) | ARaise.

Definition act1 (qs : nat) (s : mstate) (a : act) : option (label * mstate) :=
  match a with
  | AW r cl => wstep qs r cl s
  | AC => cstep qs s
  | ACall c => match s_c s with CIdle => Some (startCall s c) | _ => None end
  | ARaise => match s_owner s with None => Some (LRaise, broadcast s) | _ => None end
  end.

(** An action that is not possible is left out *)
Fixpoint exec (qs : nat) (s : mstate) (l : list act) : list label * mstate :=
  match l with
  | [] => ([], s)
  | a :: l =>
      match act1 qs s a with
      | None => exec qs s l
      | Some (x, s1) => let (tr, s2) := exec qs s1 l in (x :: tr, s2)
      end
  end.

Lemma act1_step : forall qs s a x s', act1 qs s a = Some (x, s') -> mstep qs s x s'.
Proof.
  intros qs s a x s' H. destruct a as [r cl| |c|]; cbn [act1] in H.
  - exact (m_worker _ _ _ _ _ _ H).
  - exact (m_client _ _ _ _ H).
  - destruct (s_c s) eqn:E; try discriminate.
    assert (X : x = fst (startCall s c) /\ s' = snd (startCall s c)) by
      (injection H as H; rewrite H; split; reflexivity).
    destruct X as [-> ->]. apply m_call. exact E.
  - destruct (s_owner s) eqn:E; [discriminate|]. injection H as <- <-. apply m_raise. exact E.
Qed.

Lemma exec_run : forall qs l s, mrun qs s (fst (exec qs s l)) (snd (exec qs s l)).
Proof.
  induction l as [|a l IH]; intros s; cbn [exec]; [constructor|].
  destruct (act1 qs s a) as [[x s1]|] eqn:E; [|apply IH].
  specialize (IH s1). destruct (exec qs s1 l) as [tr s2]. cbn [fst snd] in *.
  change (x :: tr) with ([x] ++ tr). apply (mrun_app _ _ _ s1); [|exact IH].
  change [x] with ([] ++ [x]). econstructor; [constructor|]. exact (act1_step _ _ _ _ _ E).
Qed.

(** Both threads wait, as a test *)
Definition stuck (qs : nat) (s : mstate) : bool :=
  match cstep qs s with
  | Some _ => false
  | None =>
      match s_w s with
      | WDone => true
      | WErrW | WFullW | WDrainW | WIdleW => s_wsleep s
      | _ => false
      end
  end.

Lemma stuck_blocked : forall qs s, stuck qs s = true -> blocked qs s.
Proof.
  intros qs s H. unfold stuck in H. destruct (cstep qs s) eqn:E; [discriminate|].
  apply none_blocked; [|exact E]. intros r cl. unfold wstep, wacquire.
  destruct (s_w s); try discriminate; try rewrite H; reflexivity.
Qed.

Lemma err_post' : forall qs tr s, (1 <= qs)%nat -> mrun qs minit tr s ->
  s_err s <> [] -> s_post s <> [] -> wwaits (s_w s) = false.
Proof.
  intros qs tr s Q R H1 H2. destruct (err_post _ _ _ Q R) as [_ H]. specialize (H H1 H2).
  destruct (s_w s); first [discriminate|reflexivity].
Qed.

Lemma no_errors_after : forall qs tr o s c, (1 <= qs)%nat -> mrun qs minit (tr ++ [LRet o]) s ->
  in_call tr = Some c -> c <> CallFlush -> s_err s = [].
Proof.
  intros qs tr o s c Q R N K. apply mrun_last in R as [s1 [R M]].
  pose proof (mrun_tinv _ _ _ Q R) as T. pose proof (t_inv _ _ _ T) as V.
  pose proof (no_errors_left _ _ _ Q R) as HN. pose proof (t_cur _ _ _ T) as HC. rewrite N in HC.
  clear V T R. remember (LRet o) as l eqn:EL. rename c into c9.
  step_cases M; norm; try discriminate; bools; subst; try reflexivity; try assumption; try congruence.
  apply HN. reflexivity.
Qed.
