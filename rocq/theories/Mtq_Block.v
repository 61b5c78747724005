(** When both threads of the queue channel wait, and calls that never return. *)
From Verif Require Import Base Hiid_Model Mtq_Model Mtq_Spec Mtq_Proofs Mtq_Traces.
From Coq Require Import PeanoNat Lia Bool.

Lemma wstep_inside : forall qs r cl s l s', wstep qs r cl s = Some (l, s') -> outside l = false.
Proof.
  intros qs r cl s l s' H. destruct s as [po ge er ow cs ab ri rc th w ws c cs'].
  unfold wstep, closeRemote, wacquire in H; simp.
  destruct w; try (match type of H with context[r] => destruct r end); ifs;
    try discriminate H; try (injection H; intros; subst); reflexivity.
Qed.

Lemma cstep_inside : forall qs s l s', cstep qs s = Some (l, s') -> outside l = false.
Proof.
  intros qs s l s' H. destruct s as [po ge er ow cs ab ri rc th w ws c cs'].
  unfold cstep, cacquire, throwErrors, ret in H; simp;
  (destruct c as [|t|t|t|t| | | | | |k| | | |]; try destruct t as [| | |[?|]|]);
      [..|destruct w]; ifs; try discriminate H; try (injection H; intros; subst); reflexivity.
Qed.

Lemma blocked_none : forall qs s, blocked qs s ->
  (forall r cl, wstep qs r cl s = None) /\ cstep qs s = None.
Proof.
  intros qs s B. split.
  - intros r cl. destruct (wstep qs r cl s) as [[l s']|] eqn:E; [|reflexivity].
    pose proof (B l s' (m_worker _ _ _ _ _ _ E)). rewrite (wstep_inside _ _ _ _ _ _ E) in H. discriminate.
  - destruct (cstep qs s) as [[l s']|] eqn:E; [|reflexivity].
    pose proof (B l s' (m_client _ _ _ _ E)). rewrite (cstep_inside _ _ _ _ E) in H. discriminate.
Qed.

Lemma none_blocked : forall qs s, (forall r cl, wstep qs r cl s = None) -> cstep qs s = None ->
  blocked qs s.
Proof.
  intros qs s W C l s' M. inversion M as [r cl s0 l0 s0' W0|s0 l0 s0' C0|s0 c0 I|s0 I|s0|s0]; subst.
  - rewrite W in W0. discriminate.
  - rewrite C in C0. discriminate.
  - destruct c0; reflexivity.
  - reflexivity.
  - reflexivity.
  - reflexivity.
Qed.

Lemma both_stuck : forall qs s, inv qs s -> wstep qs ROk false s = None -> cstep qs s = None ->
  (s_w s = WDone \/ (s_wsleep s = true /\ wwaits (s_w s) = true)) /\
  (s_c s = CIdle \/ (s_csleep s = true /\ cwaits (s_c s) = true) \/
   exists k, s_c s = CJoin k /\ s_w s <> WDone).
Proof.
  intros qs s V W C.
  pose proof (v_owner _ _ V) as Ho. pose proof (v_excl _ _ V) as He.
  pose proof (v_post12 _ _ V) as Hp. pose proof (v_cgetc _ _ V) as Hg.
  pose proof (v_wsleep _ _ V) as Hws. pose proof (v_csleep _ _ V) as Hcs. clear V.
  destruct s as [po ge er ow cs ab ri rc th w ws c cs'].
  assert (WW : w = WDone \/ (ws = true /\ wwaits w = true) \/ ow = Some Client).
  { unfold wstep, closeRemote, wacquire in W; simp; subst ow.
    destruct w; red1; ifs; try discriminate; auto; fwd;
      try (right; right; assumption); try (destruct (clocked c); auto; discriminate);
      try (destruct ws; auto; destruct (clocked c); auto; discriminate).
    congruence. }
  assert (CC : c = CIdle \/ (cs' = true /\ cwaits c = true) \/ (exists k, c = CJoin k /\ w <> WDone) \/
               ow = Some Worker).
  { unfold cstep, cacquire, throwErrors, ret in C; simp.
    destruct c as [|t|t|t|t| | | | | |k| | | |]; try destruct t as [| | |[?|]|]; red1; ifs;
      try discriminate; auto; fwd; subst;
      try (destruct (wlocked w); auto; discriminate);
      try (destruct cs'; auto; destruct (wlocked w); auto; discriminate).
    all: try (bools; destruct Hg as [Hg|Hg]; exfalso; apply Hg; congruence).
    all: try (right; right; left; eexists; split; [reflexivity|intros ->; ifs; discriminate]). }
  simp. subst ow. split.
  - destruct WW as [H|[H|H]]; auto.
    destruct (wlocked w) eqn:E1; [discriminate|]. destruct (clocked c) eqn:E2; [|discriminate].
    destruct CC as [->|[[_ CC]|[[k [-> _]]|CC]]]; try discriminate. destruct c; discriminate.
  - destruct CC as [H|[H|[H|H]]]; auto.
    destruct (wlocked w) eqn:E1; [|destruct (clocked c); discriminate].
    destruct WW as [->|[[_ WW]|WW]]; try discriminate. destruct w; discriminate.
Qed.

Lemma app_longer : forall A (l k : list A), k <> [] -> l ++ k <> l.
Proof.
  intros A l k N H. apply N. apply (f_equal (@length A)) in H. rewrite app_length in H.
  destruct k; [reflexivity|cbn in H; lia].
Qed.

Lemma app_not_nil_r : forall A (l k : list A), k <> [] -> l ++ k <> [].
Proof. intros A [|] k N; [exact N|discriminate]. Qed.

(** Nothing is put on the queue while there are errors, and what is there is sent first *)
Definition in_loop (w : wpc) : bool :=
  match w with WPost | WPost1 | WPost2 | WPosting _ | WRelock _ => true | _ => false end.

Lemma err_post : forall qs tr s, (1 <= qs)%nat -> mrun qs minit tr s ->
  (s_rinit s = false -> s_post s = []) /\
  (s_err s <> [] -> s_post s <> [] -> in_loop (s_w s) = true).
Proof.
  intros qs tr s Q R. remember minit as s0 eqn:E0. induction R as [s|s tr s1 l s2 R IH M]; subst.
  - split; [reflexivity|]. intros H. destruct (H eq_refl).
  - specialize (IH eq_refl). pose proof (t_inv _ _ _ (mrun_tinv _ _ _ Q R)) as V.
    pose proof (v_cpc _ _ V) as HC. pose proof (v_clear _ _ V) as HP. pose proof (v_winit _ _ V) as HI.
    clear V R. destruct IH as [H1 H2].
    step_cases M; red1; cbn [in_loop] in *; bools; split; intros; subst; fwd; try congruence;
      try (apply H1; assumption); try (apply H2; assumption); try reflexivity.
Qed.

Section T.
  Variables (qs : nat) (tr : list label) (s : mstate).
  Hypothesis T : tinv qs tr s.

  Lemma unsent : s_post s <> [] -> accepted tr <> sent tr.
  Proof.
    intros H. destruct (t_post _ _ _ T) as [lost [-> _]]. apply app_longer.
    apply app_not_nil_r, app_not_nil_r, H.
  Qed.

  Lemma undelivered : s_get s <> [] -> received tr <> delivered tr.
  Proof.
    intros H. destruct (t_get _ _ _ T) as [lost [-> _]]. apply app_longer.
    destruct (s_get s); [congruence|discriminate].
  Qed.

  Lemma unreported : s_err s <> [] -> raised tr <> thrown tr.
  Proof.
    intros H. rewrite (t_err _ _ _ T). apply app_longer.
    destruct (s_err s); [congruence|discriminate].
  Qed.

  Lemma reported : s_err s = [] -> (s_w s = WDone \/ wwaits (s_w s) = true) -> raised tr = thrown tr.
  Proof.
    intros E W. rewrite (t_err _ _ _ T), E. destruct W as [->|W]; [apply app_nil_r|].
    destruct (s_w s); try discriminate; apply app_nil_r.
  Qed.

  Lemma all_sent : s_post s = [] -> s_closed s = false -> (s_w s = WDone \/ wwaits (s_w s) = true) ->
    gone s \/ accepted tr = sent tr.
  Proof.
    intros E C W. destruct (t_post _ _ _ T) as [lost [-> [->|[D|[D _]]]]].
    - right. rewrite E. destruct W as [->|W]; [apply app_nil_r|].
      destruct (s_w s); try discriminate; apply app_nil_r.
    - left. exact D.
    - rewrite C in D. discriminate.
  Qed.

  Lemma all_delivered : s_get s = [] -> s_closed s = false -> received tr = delivered tr.
  Proof.
    intros E C. destruct (t_get _ _ _ T) as [lost [-> [->|[_ [D _]]]]].
    - rewrite E. apply app_nil_r.
    - rewrite C in D. discriminate.
  Qed.

  Lemma done_shut : s_w s = WDone -> shut tr.
  Proof.
    intros W. apply (t_gone _ _ _ T). split.
    - apply (ri_true _ _ (t_inv _ _ _ T)). rewrite W. discriminate.
    - apply (v_exit _ _ (t_inv _ _ _ T)). right. exact W.
  Qed.

  Lemma rclosed_shut : s_rclosed s = true -> s_w s <> WInit -> shut tr.
  Proof.
    intros H W. apply (t_gone _ _ _ T). split; [|exact H].
    apply (ri_true _ _ (t_inv _ _ _ T) W).
  Qed.

  (** What the worker may be waiting for *)
  Lemma worker_waits : s_w s = WDone \/ (s_wsleep s = true /\ wwaits (s_w s) = true) ->
    (s_w s = WDone /\ shut tr) \/
    (s_w s = WErrW /\ s_err s <> [] /\ s_rclosed s = false) \/
    (s_w s = WFullW /\ s_post s = [] /\ s_get s <> []) \/
    (s_w s = WDrainW /\ shut tr /\ s_get s <> []) \/
    (s_w s = WIdleW /\ s_post s = [] /\ s_rclosed s = false).
  Proof.
    pose proof (t_inv _ _ _ T) as V. intros [H|[H1 H2]].
    - left. split; [exact H|apply done_shut; exact H].
    - right. destruct (s_w s) eqn:W; try discriminate.
      + left. destruct (v_sErr _ _ V H1 W). auto.
      + right. left. destruct (v_sFull _ _ V H1 W) as [A B]. pose proof (v_qs _ _ V).
        split; [reflexivity|]. split; [exact A|]. intros E. rewrite E in B. cbn in B. lia.
      + right. right. left. split; [reflexivity|]. split; [|exact (v_sDrain _ _ V H1 W)].
        apply rclosed_shut; [apply (v_drain _ _ V); right; exact W|rewrite W; discriminate].
      + right. right. right. destruct (v_sIdle _ _ V H1 W) as [A [B _]]. auto.
  Qed.

  Lemma blocked_cases : (s_err s <> [] -> s_post s <> [] -> wwaits (s_w s) = false) -> blocked qs s ->
    match in_call tr with
    | None => shut tr \/ raised tr <> thrown tr \/ accepted tr = sent tr
    | Some c =>
        (exists m, c = CallGet m WAIT /\ received tr = delivered tr /\ raised tr = thrown tr /\
                   (shut tr \/ accepted tr = sent tr)) \/
        (c <> CallAbort /\ shut tr /\ (received tr <> delivered tr \/ accepted tr <> sent tr))
    end.
  Proof.
    intros EP B. apply blocked_none in B as [W C]. pose proof (t_inv _ _ _ T) as V.
    destruct (both_stuck _ _ V (W ROk false) C) as [HW HC]. clear W C.
    pose proof (t_cur _ _ _ T) as HT. pose proof (worker_waits HW) as WW.
    assert (HW' : s_w s = WDone \/ wwaits (s_w s) = true) by (destruct HW as [H|[_ H]]; auto).
    pose proof (v_qs _ _ V) as Q.
    destruct HC as [HC|[[CS HC]|[k [HC ND]]]].
    - (* idle *)
      rewrite HC in HT. cbn in HT. rewrite HT.
      assert (A : s_post s = [] -> shut tr \/ accepted tr = sent tr).
      { intros P. destruct (s_closed s) eqn:CL.
        - left. apply done_shut. apply (v_open _ _ V CL). rewrite HC. reflexivity.
        - destruct (all_sent P CL HW') as [G|G]; [left; apply (t_gone _ _ _ T); exact G|auto]. }
      destruct WW as [[_ H]|[[_ [H _]]|[[_ [H _]]|[[_ [H _]]|[_ [H _]]]]]].
      + left. exact H.
      + right. left. apply unreported. exact H.
      + destruct (A H); auto.
      + left. exact H.
      + destruct (A H); auto.
    - (* asleep *)
      destruct (s_c s) as [|t|t|t|t| |e| |m| |k| | |k|] eqn:EC; try discriminate.
      + (* waits for the initialisation *)
        pose proof (v_cReady _ _ V CS) as H. rewrite EC in H.
        apply (proj2 (v_winit _ _ V)) in H. rewrite H in HW'. destruct HW'; discriminate.
      + (* postEvent *)
        pose proof (v_cPost _ _ V CS) as H. rewrite EC in H. destruct H as [H1 H2].
        cbn in HT. rewrite HT. right. split; [discriminate|].
        destruct WW as [[D S]|[[_ [H _]]|[[D [H G]]|[[D [S G]]|[D [H R]]]]]].
        * split; [exact S|]. right. apply unsent. destruct H2 as [H2|[_ H2]]; [|contradiction].
          intros E. rewrite E in H2. cbn in H2. lia.
        * congruence.
        * destruct H2 as [H2|[H2 _]]; [rewrite H in H2; cbn in H2; lia|].
          split; [|left; apply undelivered; exact G]. apply rclosed_shut; [exact H2|congruence].
        * split; [exact S|left; apply undelivered; exact G].
        * destruct H2 as [H2|[H2 _]]; [rewrite H in H2; cbn in H2; lia|congruence].
      + (* getEvent *)
        pose proof (v_cGet _ _ V CS) as H. rewrite EC in H. destruct H as [H1 H2].
        assert (CL : s_closed s = false) by (apply (v_opencalls _ _ V); rewrite EC; exact Logic.I).
        cbn in HT. rewrite HT. left. exists m. split; [reflexivity|].
        split; [apply all_delivered; assumption|]. split; [apply reported; assumption|].
        destruct WW as [[_ S]|[[_ [H _]]|[[_ [_ G]]|[[_ [_ G]]|[D [H R]]]]]].
        * left. exact S.
        * congruence.
        * congruence.
        * congruence.
        * destruct (all_sent H CL HW') as [G|G]; [left; apply (t_gone _ _ _ T); exact G|right; exact G].
      + (* flush *)
        pose proof (v_cFlush _ _ V CS) as H. rewrite EC in H. destruct H as [H1 H2].
        assert (K : exists c, in_call tr = Some c /\ c <> CallAbort).
        { destruct k as [k|]; cbn in HT.
          - destruct HT as [HT HF]. exists k. split; [exact HT|].
            intros ->. rewrite (t_abort _ _ _ T HT) in H1. discriminate.
          - exists CallFlush. split; [exact HT|discriminate]. }
        destruct K as [c [K1 K2]]. rewrite K1. right. split; [exact K2|].
        destruct WW as [[D S]|[[D [H R]]|[[D [H G]]|[[D [S G]]|[D [H R]]]]]].
        * split; [exact S|]. right. apply unsent.
          destruct H2 as [H2|[_ H2]]; [exact H2|contradiction].
        * destruct H2 as [H2|[H2 _]]; [|congruence]. specialize (EP H H2). rewrite D in EP. discriminate.
        * destruct H2 as [H2|[H2 _]]; [congruence|].
          split; [apply rclosed_shut; [exact H2|congruence]|left; apply undelivered; exact G].
        * split; [exact S|left; apply undelivered; exact G].
        * destruct H2 as [H2|[H2 _]]; congruence.
      + (* close *)
        exfalso. pose proof (v_cClose _ _ V CS) as H. rewrite EC in H.
        destruct (v_emptied _ _ V) as [_ [_ [WS _]]]; [rewrite EC; reflexivity|].
        destruct HW as [D|[D _]]; [|congruence].
        destruct (v_exit _ _ V (or_intror D)) as [R _]. destruct H; congruence.
    - (* join *)
      exfalso. destruct (v_emptied _ _ V) as [_ [_ [WS _]]]; [rewrite HC; reflexivity|].
      destruct HW as [D|[D _]]; congruence.
  Qed.
End T.
