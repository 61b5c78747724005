(** Invariants of the queue channel: who has the lock, what a sleeper waits for. *)
From Verif Require Import Base Hiid_Model Mtq_Model Mtq_Spec.
From Coq Require Import PeanoNat Lia Bool.

Definition wlocked (w : wpc) : bool :=
  match w with
  | WInit | WErrW | WFullW | WDrainW | WIdleW | WPosting _ | WRelock _ | WDone => false
  | _ => true
  end.
Definition clocked (c : cpc) : bool :=
  match c with
  | CReady _ | CRun _ | CPostB _ | CGetB _ | CGetC _ | CClose3 _ => true
  | _ => false
  end.
Definition wwaits (w : wpc) : bool :=
  match w with WErrW | WFullW | WDrainW | WIdleW => true | _ => false end.
Definition cwaits (c : cpc) : bool :=
  match c with CReadyW _ | CPostW _ | CGetW _ | CFlushW _ | CClose3W _ => true | _ => false end.

(** The client is on its way through close() *)
Definition closing (c : cpc) : bool :=
  match c with
  | CLock (TFlush (Some _)) | CReady (TFlush (Some _)) | CReadyW (TFlush (Some _))
  | CRun (TFlush (Some _)) | CFlushW (Some _)
  | CLock (TClose _) | CReady (TClose _) | CReadyW (TClose _) | CRun (TClose _)
  | CClose3 _ | CClose3W _ | CJoin _ => true
  | _ => false
  end.
(** ... and has emptied the queues *)
Definition emptied (c : cpc) : bool :=
  match c with CClose3 _ | CClose3W _ | CJoin _ => true | _ => false end.

(** The worker has seen that the channel is open, and goes by that *)
Definition believes (w : wpc) : bool :=
  match w with WErr2 | WPost2 | WState2 | WGet | WAfter2 _ => true | _ => false end.

Record inv (qs : nat) (s : mstate) : Prop := {
  v_qs : (1 <= qs)%nat;
  v_owner : s_owner s = if wlocked (s_w s) then Some Worker
                        else if clocked (s_c s) then Some Client else None;
  v_excl : wlocked (s_w s) && clocked (s_c s) = false;
  v_wsleep : s_wsleep s = true -> wwaits (s_w s) = true;
  v_csleep : s_csleep s = true -> cwaits (s_c s) = true;
  v_post : (length (s_post s) <= qs)%nat;
  v_get : (length (s_get s) <= qs)%nat;
  (* the program counters *)
  v_winit : s_w s = WInit <-> s_rinit s = false;
  v_init : s_rinit s = false -> s_err s = [] /\ s_get s = [];
  v_err12 : (s_w s = WErr1 \/ s_w s = WErr2) -> s_err s <> [];
  v_post12 : (s_w s = WPost1 \/ s_w s = WPost2) -> s_post s <> [];
  v_clear : match s_w s with WClear | WState | WState2 | WGet | WAfter _ | WAfter2 _ => True
            | _ => False end -> s_post s = [];
  v_room : match s_w s with WState | WState2 | WGet => True | _ => False end ->
           (length (s_get s) < qs)%nat;
  v_wget : s_w s = WGet -> s_rclosed s = false;
  v_drain : (s_w s = WDrain \/ s_w s = WDrainW) -> s_rclosed s = true;
  v_exit : (s_w s = WExit \/ s_w s = WDone) -> s_rclosed s = true /\ s_get s = [];
  v_cgetc : match s_c s with CGetC _ => s_get s <> [] \/ s_err s <> [] | _ => True end;
  v_cpc : match s_c s with
          | CRun _ | CPostB _ | CPostW _ | CGetB _ | CGetW _ | CGetC _ | CFlushW _
          | CClose3 _ | CClose3W _ | CJoin _ => s_rinit s = true
          | _ => True
          end;
  (* closing *)
  v_closing : closing (s_c s) = true -> s_closed s = true /\ s_thread s = true;
  v_open : s_closed s = true -> closing (s_c s) = false ->
           s_w s = WDone /\ s_thread s = false /\ s_post s = [];
  v_thread : s_thread s = false -> s_closed s = true /\ s_w s = WDone;
  v_opencalls : match s_c s with CPostB _ | CPostW _ | CGetB _ | CGetW _ => True | _ => False end ->
                s_closed s = false;
  v_emptied : emptied (s_c s) = true ->
              s_post s = [] /\ s_get s = [] /\ s_wsleep s = false /\
              (s_rclosed s = true \/ believes (s_w s) = false);
  v_join : match s_c s with CJoin _ => s_rclosed s = true | _ => True end;
  (* sleepers *)
  v_sErr : s_wsleep s = true -> s_w s = WErrW -> s_err s <> [] /\ s_rclosed s = false;
  v_sFull : s_wsleep s = true -> s_w s = WFullW -> s_post s = [] /\ (qs <= length (s_get s))%nat;
  v_sDrain : s_wsleep s = true -> s_w s = WDrainW -> s_get s <> [];
  v_sIdle : s_wsleep s = true -> s_w s = WIdleW -> s_post s = [] /\ s_rclosed s = false /\
            (length (s_get s) <= qs)%nat;
  v_cReady : s_csleep s = true ->
             match s_c s with CReadyW _ => s_rinit s = false | _ => True end;
  v_cPost : s_csleep s = true ->
            match s_c s with
            | CPostW _ =>
                s_err s = [] /\
                ((qs <= length (s_post s))%nat \/ (s_rclosed s = true /\ s_w s <> WDone))
            | _ => True
            end;
  v_cGet : s_csleep s = true ->
           match s_c s with CGetW _ => s_get s = [] /\ s_err s = [] | _ => True end;
  v_cFlush : s_csleep s = true ->
             match s_c s with
             | CFlushW _ =>
                 s_aborted s = false /\
                 (s_post s <> [] \/ (s_rclosed s = true /\ s_w s <> WDone))
             | _ => True
             end;
  v_cClose : s_csleep s = true ->
             match s_c s with CClose3W _ => s_rclosed s = false \/ s_w s <> WDone | _ => True end
}.

Lemma isnil_true : forall A (l : list A), isnil l = true -> l = [].
Proof. intros A [|]; [reflexivity|discriminate]. Qed.
Lemma isnil_false : forall A (l : list A), isnil l = false -> l <> [].
Proof. intros A [|]; [discriminate|congruence]. Qed.

Lemma app_not_nil : forall A (l : list A) x, l ++ [x] <> [].
Proof. intros A [|] x; discriminate. Qed.
Lemma app_nil_length : forall A (l : list A), l <> [] -> (1 <= length l)%nat.
Proof. intros A [|] H; cbn; [congruence|lia]. Qed.

Ltac bools :=
  repeat match goal with
  | H : _ && _ = true |- _ => apply andb_true_iff in H; destruct H
  | H : _ && _ = false |- _ => apply andb_false_iff in H
  | H : negb _ = true |- _ => apply negb_true_iff in H
  | H : negb _ = false |- _ => apply negb_false_iff in H
  | H : isnil _ = true |- _ => apply isnil_true in H
  | H : isnil _ = false |- _ => apply isnil_false in H
  | H : Nat.leb _ _ = true |- _ => apply Nat.leb_le in H
  | H : Nat.leb _ _ = false |- _ => apply Nat.leb_gt in H
  end.

Ltac simp :=
  cbn [s_post s_get s_err s_owner s_closed s_aborted s_rinit s_rclosed s_thread s_w s_wsleep
       s_c s_csleep set_w set_c set_owner set_post set_get set_err set_rclosed set_rinit
       set_closed set_aborted end_thread broadcast wsleep csleep fst snd] in *.

Ltac ifs :=
  repeat (simp; match goal with
  | H : context[if ?b then _ else _] |- _ => let E := fresh "E" in destruct b eqn:E
  | H : context[match ?b with Some _ => _ | None => _ end] |- _ =>
      let E := fresh "E" in destruct b eqn:E
  | H : context[match ?b with [] => _ | _ :: _ => _ end] |- _ =>
      let E := fresh "E" in destruct b eqn:E
  end).

(** All steps of the machine, by the place where they happen *)
Ltac step_cases M :=
  inversion M as [r cl s0 l0 s0' W|s0 l0 s0' C|s0 c0 I|s0 I|s0|s0]; subst; clear M;
  [ match goal with H : wstep _ _ _ ?s = _ |- _ =>
      destruct s as [po ge er ow cs ab ri rc th w ws c cs'];
      unfold wstep, closeRemote, wacquire in H; simp;
      destruct w; try (match type of H with context[r] => destruct r end); ifs; try discriminate H; try (injection H; intros; subst); clear H end
  | match goal with H : cstep _ ?s = _ |- _ =>
      destruct s as [po ge er ow cs ab ri rc th w ws c cs'];
      unfold cstep, cacquire, throwErrors, ret in H; simp;
      (destruct c as [|t|t|t|t| | | | | |k| | | |]; try destruct t as [| | |[?|]|]);
      [..|destruct w]; ifs; try discriminate H; try (injection H; intros; subst); clear H end
  | match goal with H : s_c ?s = CIdle |- _ =>
      destruct s as [po ge er ow cs ab ri rc th w ws c cs'] end;
    destruct c0; simp; cbn [startCall fst snd] in *; simp; subst
  | match goal with H : s_owner ?s = None |- _ =>
      destruct s as [po ge er ow cs ab ri rc th w ws c cs'] end; simp; subst
  | match goal with s : mstate |- _ => destruct s as [po ge er ow cs ab ri rc th w ws c cs'] end; simp
  | match goal with s : mstate |- _ => destruct s as [po ge er ow cs ab ri rc th w ws c cs'] end; simp ].

Lemma inv_init : forall qs, (1 <= qs)%nat -> inv qs minit.
Proof.
  intros qs Q. constructor; unfold minit; simp; intros; cbn in *; try discriminate; try reflexivity; try lia; auto;
    try (intuition congruence); try congruence.
Qed.

Ltac red1 :=
  simp; cbn [wlocked clocked wwaits cwaits closing emptied believes andb orb negb length app] in *.

Ltac fwd :=
  repeat match goal with
  | H : ?P -> ?Q |- _ =>
      let p := fresh "p" in
      assert (p : P) by (solve [reflexivity|assumption|left; reflexivity|right; reflexivity|exact Logic.I]);
      specialize (H p); clear p
  | H : _ /\ _ |- _ => destruct H
  | H : _ <-> _ |- _ => destruct H
  | H : ?x = ?x |- _ => clear H
  | H : False |- _ => destruct H
  | H : true = false |- _ => discriminate H
  | H : false = true |- _ => discriminate H
  end.

Ltac fin :=
  red1; intros; subst; bools; fwd; subst;
  repeat match goal with |- _ /\ _ => split | |- _ <-> _ => split; intros end;
  try assumption; try discriminate; try reflexivity; try exact Logic.I;
  try solve [rewrite ?app_length in *; cbn [length] in *; lia];
  try congruence;
  try solve [repeat match goal with
             | H : context[clocked ?c] |- _ => is_var c; let b := fresh "b" in set (b := clocked c) in *; clearbody b; destruct b
             | |- context[clocked ?c] => is_var c; let b := fresh "b" in set (b := clocked c) in *; clearbody b; destruct b
             | H : context[wlocked ?c] |- _ => is_var c; let b := fresh "b" in set (b := wlocked c) in *; clearbody b; destruct b
             | |- context[wlocked ?c] => is_var c; let b := fresh "b" in set (b := wlocked c) in *; clearbody b; destruct b
             end; cbn [andb] in *; fwd; congruence];
  try solve [left; congruence|right; congruence|right; split; congruence|left; lia].

Ltac fin2 :=
  try solve [repeat match goal with H : _ \/ _ |- _ => destruct H end; subst; red1; bools; fwd;
             cbn [isnil length] in *; rewrite ?app_length in *; cbn [length] in *;
             solve [congruence|left; congruence|right; congruence|right; split; congruence|left; lia|lia
                   |apply app_not_nil|left; apply app_not_nil|right; apply app_not_nil]];
  try solve [match goal with c : cpc |- _ => is_var c; destruct c as [|t|t|t|t| | | | | |k| | | |]; fin end];
  try solve [match goal with c : cpc |- _ => is_var c; destruct c as [|t|t|t|t| | | | | |k| | | |] end;
             try exact Logic.I; try discriminate; fwd; repeat split; try assumption;
             repeat match goal with H : _ \/ _ |- _ => destruct H end; fwd; subst;
             cbn [orb length isnil] in *;
             solve [assumption|congruence|left; assumption|left; congruence|left; lia|right; congruence
                   |left; apply app_not_nil|right; apply app_not_nil
                   |right; split; [reflexivity|congruence]|right; split; congruence|lia]];
  try solve [match goal with w : wpc |- _ => is_var w; destruct w; fin end];
  try solve [match goal with cs : bool |- ?cs = false => is_var cs; destruct cs; fin end].

Section S.
  Variables (qs : nat) (s : mstate) (l : label) (s' : mstate).
  Hypothesis V : inv qs s.
  Hypothesis M : mstep qs s l s'.

  Lemma st_owner : s_owner s' = (if wlocked (s_w s') then Some Worker
                        else if clocked (s_c s') then Some Client else None).
  Proof.
    pose proof (v_owner _ _ V) as Howner. pose proof (v_excl _ _ V) as Hexcl. clear V.
    step_cases M; fin; fin2.
  Qed.
  Lemma st_excl : wlocked (s_w s') && clocked (s_c s') = false.
  Proof.
    pose proof (v_owner _ _ V) as Howner. pose proof (v_excl _ _ V) as Hexcl. clear V.
    step_cases M; fin; fin2.
  Qed.
  Lemma st_wsleep : s_wsleep s' = true -> wwaits (s_w s') = true.
  Proof.
    pose proof (v_wsleep _ _ V) as Hwsleep. clear V.
    step_cases M; fin; fin2.
  Qed.
  Lemma st_csleep : s_csleep s' = true -> cwaits (s_c s') = true.
  Proof.
    pose proof (v_csleep _ _ V) as Hcsleep. clear V.
    step_cases M; fin; fin2.
  Qed.
  Lemma st_post : (length (s_post s') <= qs)%nat.
  Proof.
    pose proof (v_post _ _ V) as Hpost. clear V.
    step_cases M; fin; fin2.
  Qed.
  Lemma st_get : (length (s_get s') <= qs)%nat.
  Proof.
    pose proof (v_get _ _ V) as Hget. pose proof (v_room _ _ V) as Hroom. clear V.
    step_cases M; fin; fin2.
  Qed.
  Lemma st_winit : s_w s' = WInit <-> s_rinit s' = false.
  Proof.
    pose proof (v_winit _ _ V) as Hwinit. clear V.
    step_cases M; fin; fin2.
  Qed.
  Lemma st_init : s_rinit s' = false -> s_err s' = [] /\ s_get s' = [].
  Proof.
    pose proof (v_init _ _ V) as Hinit. pose proof (v_winit _ _ V) as Hwinit. clear V.
    step_cases M; fin; fin2.
  Qed.
  Lemma st_err12 : (s_w s' = WErr1 \/ s_w s' = WErr2) -> s_err s' <> [].
  Proof.
    pose proof (v_err12 _ _ V) as Herr12. pose proof (v_excl _ _ V) as Hexcl. clear V.
    step_cases M; fin; fin2.
  Qed.
  Lemma st_post12 : (s_w s' = WPost1 \/ s_w s' = WPost2) -> s_post s' <> [].
  Proof.
    pose proof (v_post12 _ _ V) as Hpost12. pose proof (v_excl _ _ V) as Hexcl. clear V.
    step_cases M; fin; fin2.
  Qed.
  Lemma st_clear : match s_w s' with WClear | WState | WState2 | WGet | WAfter _ | WAfter2 _ => True
            | _ => False end -> s_post s' = [].
  Proof.
    pose proof (v_clear _ _ V) as Hclear. pose proof (v_excl _ _ V) as Hexcl. clear V.
    step_cases M; fin; fin2.
  Qed.
  Lemma st_room : match s_w s' with WState | WState2 | WGet => True | _ => False end ->
           (length (s_get s') < qs)%nat.
  Proof.
    pose proof (v_room _ _ V) as Hroom. pose proof (v_excl _ _ V) as Hexcl. clear V.
    step_cases M; fin; fin2.
  Qed.
  Lemma st_wget : s_w s' = WGet -> s_rclosed s' = false.
  Proof.
    pose proof (v_wget _ _ V) as Hwget. clear V.
    step_cases M; fin; fin2.
  Qed.
  Lemma st_drain : (s_w s' = WDrain \/ s_w s' = WDrainW) -> s_rclosed s' = true.
  Proof.
    pose proof (v_drain _ _ V) as Hdrain. clear V.
    step_cases M; fin; fin2.
  Qed.
  Lemma st_exit : (s_w s' = WExit \/ s_w s' = WDone) -> s_rclosed s' = true /\ s_get s' = [].
  Proof.
    pose proof (v_exit _ _ V) as Hexit. clear V.
    step_cases M; fin; fin2.
  Qed.
  Lemma st_cgetc : match s_c s' with CGetC _ => s_get s' <> [] \/ s_err s' <> [] | _ => True end.
  Proof.
    pose proof (v_cgetc _ _ V) as Hcgetc. pose proof (v_excl _ _ V) as Hexcl. clear V.
    step_cases M; fin; fin2.
  Qed.
  Lemma st_cpc : match s_c s' with
          | CRun _ | CPostB _ | CPostW _ | CGetB _ | CGetW _ | CGetC _ | CFlushW _
          | CClose3 _ | CClose3W _ | CJoin _ => s_rinit s' = true
          | _ => True
          end.
  Proof.
    pose proof (v_cpc _ _ V) as Hcpc. clear V.
    step_cases M; fin; fin2.
  Qed.
  Lemma st_closing : closing (s_c s') = true -> s_closed s' = true /\ s_thread s' = true.
  Proof.
    pose proof (v_closing _ _ V) as Hclosing. clear V.
    step_cases M; fin; fin2.
  Qed.
  Lemma st_open : s_closed s' = true -> closing (s_c s') = false ->
           s_w s' = WDone /\ s_thread s' = false /\ s_post s' = [].
  Proof.
    pose proof (v_closing _ _ V) as Hclosing. pose proof (v_open _ _ V) as Hopen. pose proof (v_thread _ _ V) as Hthread. pose proof (v_opencalls _ _ V) as Hopencalls. pose proof (v_emptied _ _ V) as Hemptied. clear V.
    step_cases M; fin; fin2.
  Qed.
  Lemma st_thread : s_thread s' = false -> s_closed s' = true /\ s_w s' = WDone.
  Proof.
    pose proof (v_thread _ _ V) as Hthread. pose proof (v_closing _ _ V) as Hclosing. clear V.
    step_cases M; fin; fin2.
  Qed.
  Lemma st_opencalls : match s_c s' with CPostB _ | CPostW _ | CGetB _ | CGetW _ => True | _ => False end ->
                s_closed s' = false.
  Proof.
    pose proof (v_opencalls _ _ V) as Hopencalls. pose proof (v_open _ _ V) as Hopen. pose proof (v_exit _ _ V) as Hexit. pose proof (v_thread _ _ V) as Hthread. clear V.
    step_cases M; fin; fin2.
  Qed.
  Lemma st_emptied : emptied (s_c s') = true ->
              s_post s' = [] /\ s_get s' = [] /\ s_wsleep s' = false /\
              (s_rclosed s' = true \/ believes (s_w s') = false).
  Proof.
    pose proof (v_emptied _ _ V) as Hemptied. pose proof (v_excl _ _ V) as Hexcl. pose proof (v_qs _ _ V) as Hqs. pose proof (v_closing _ _ V) as Hclosing. pose proof (v_wget _ _ V) as Hwget. clear V.
    step_cases M; fin; fin2.
  Qed.
  Lemma st_join : match s_c s' with CJoin _ => s_rclosed s' = true | _ => True end.
  Proof.
    pose proof (v_join _ _ V) as Hjoin. pose proof (v_excl _ _ V) as Hexcl. pose proof (v_cpc _ _ V) as Hcpc. pose proof (v_winit _ _ V) as Hwinit. clear V.
    step_cases M; fin; fin2.
  Qed.
  Lemma st_sErr : s_wsleep s' = true -> s_w s' = WErrW -> s_err s' <> [] /\ s_rclosed s' = false.
  Proof.
    pose proof (v_sErr _ _ V) as HsErr. pose proof (v_wsleep _ _ V) as Hwsleep. pose proof (v_err12 _ _ V) as Herr12. clear V.
    step_cases M; fin; fin2.
  Qed.
  Lemma st_sFull : s_wsleep s' = true -> s_w s' = WFullW -> s_post s' = [] /\ (qs <= length (s_get s'))%nat.
  Proof.
    pose proof (v_sFull _ _ V) as HsFull. pose proof (v_wsleep _ _ V) as Hwsleep. pose proof (v_clear _ _ V) as Hclear. clear V.
    step_cases M; fin; fin2.
  Qed.
  Lemma st_sDrain : s_wsleep s' = true -> s_w s' = WDrainW -> s_get s' <> [].
  Proof.
    pose proof (v_sDrain _ _ V) as HsDrain. pose proof (v_wsleep _ _ V) as Hwsleep. clear V.
    step_cases M; fin; fin2.
  Qed.
  Lemma st_sIdle : s_wsleep s' = true -> s_w s' = WIdleW -> s_post s' = [] /\ s_rclosed s' = false /\
            (length (s_get s') <= qs)%nat.
  Proof.
    pose proof (v_sIdle _ _ V) as HsIdle. pose proof (v_wsleep _ _ V) as Hwsleep. pose proof (v_clear _ _ V) as Hclear. pose proof (v_get _ _ V) as Hget. clear V.
    step_cases M; fin; fin2.
  Qed.
  Lemma st_cReady : s_csleep s' = true ->
             match s_c s' with CReadyW _ => s_rinit s' = false | _ => True end.
  Proof.
    pose proof (v_cReady _ _ V) as HcReady. pose proof (v_csleep _ _ V) as Hcsleep. clear V.
    step_cases M; fin; fin2.
  Qed.
  Lemma st_cPost : s_csleep s' = true ->
            match s_c s' with
            | CPostW _ =>
                s_err s' = [] /\
                ((qs <= length (s_post s'))%nat \/ (s_rclosed s' = true /\ s_w s' <> WDone))
            | _ => True
            end.
  Proof.
    pose proof (v_cPost _ _ V) as HcPost. pose proof (v_csleep _ _ V) as Hcsleep. pose proof (v_winit _ _ V) as Hwinit. pose proof (v_cpc _ _ V) as Hcpc. pose proof (v_exit _ _ V) as Hexit. clear V.
    step_cases M; fin; fin2.
  Qed.
  Lemma st_cGet : s_csleep s' = true ->
           match s_c s' with CGetW _ => s_get s' = [] /\ s_err s' = [] | _ => True end.
  Proof.
    pose proof (v_cGet _ _ V) as HcGet. pose proof (v_csleep _ _ V) as Hcsleep. clear V.
    step_cases M; fin; fin2.
  Qed.
  Lemma st_cFlush : s_csleep s' = true ->
             match s_c s' with
             | CFlushW _ =>
                 s_aborted s' = false /\
                 (s_post s' <> [] \/ (s_rclosed s' = true /\ s_w s' <> WDone))
             | _ => True
             end.
  Proof.
    pose proof (v_cFlush _ _ V) as HcFlush. pose proof (v_csleep _ _ V) as Hcsleep. pose proof (v_exit _ _ V) as Hexit. pose proof (v_winit _ _ V) as Hwinit. pose proof (v_cpc _ _ V) as Hcpc. clear V.
    step_cases M; fin; fin2.
  Qed.
  Lemma st_cClose : s_csleep s' = true ->
             match s_c s' with CClose3W _ => s_rclosed s' = false \/ s_w s' <> WDone | _ => True end.
  Proof.
    pose proof (v_cClose _ _ V) as HcClose. pose proof (v_csleep _ _ V) as Hcsleep. pose proof (v_exit _ _ V) as Hexit. clear V.
    step_cases M; fin; fin2.
  Qed.
End S.

Lemma inv_step : forall qs s l s', inv qs s -> mstep qs s l s' -> inv qs s'.
Proof.
  intros qs s l s' V M. constructor; [apply (v_qs _ _ V)|..];
  [exact (st_owner _ _ _ _ V M)
  |exact (st_excl _ _ _ _ V M)
  |exact (st_wsleep _ _ _ _ V M)
  |exact (st_csleep _ _ _ _ V M)
  |exact (st_post _ _ _ _ V M)
  |exact (st_get _ _ _ _ V M)
  |exact (st_winit _ _ _ _ V M)
  |exact (st_init _ _ _ _ V M)
  |exact (st_err12 _ _ _ _ V M)
  |exact (st_post12 _ _ _ _ V M)
  |exact (st_clear _ _ _ _ V M)
  |exact (st_room _ _ _ _ V M)
  |exact (st_wget _ _ _ _ V M)
  |exact (st_drain _ _ _ _ V M)
  |exact (st_exit _ _ _ _ V M)
  |exact (st_cgetc _ _ _ _ V M)
  |exact (st_cpc _ _ _ _ V M)
  |exact (st_closing _ _ _ _ V M)
  |exact (st_open _ _ _ _ V M)
  |exact (st_thread _ _ _ _ V M)
  |exact (st_opencalls _ _ _ _ V M)
  |exact (st_emptied _ _ _ _ V M)
  |exact (st_join _ _ _ _ V M)
  |exact (st_sErr _ _ _ _ V M)
  |exact (st_sFull _ _ _ _ V M)
  |exact (st_sDrain _ _ _ _ V M)
  |exact (st_sIdle _ _ _ _ V M)
  |exact (st_cReady _ _ _ _ V M)
  |exact (st_cPost _ _ _ _ V M)
  |exact (st_cGet _ _ _ _ V M)
  |exact (st_cFlush _ _ _ _ V M)
  |exact (st_cClose _ _ _ _ V M)].
Qed.
