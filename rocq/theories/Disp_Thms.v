(** Property theorems on message routing and polling (C39, C40, C44). *)
From Verif Require Import Base Bytes_Model Hiid_Model Hiid_Spec Subs_Model Wpq_Model Wpq_Spec
  Disp_Model Disp_Spec Disp_Proofs.
Local Open Scope Z_scope.

(** C39: every work process receives one copy if it is addressed and one more if it
    is a gateway that forwards the message; nobody else receives anything. *)
Theorem dispatcher_send_delivers_exactly :
  forall c self s m to, wf_dispatcher c self s -> proper_dest to ->
  forall k w, nth_error (ds_wps s) k = Some w ->
  exists w', nth_error (ds_wps (fst (ds_send c self s m to))) k = Some w' /\ d_addr w' = d_addr w /\
    d_queue w' = insert_copies (copies c self m to w)
                   {| q_msg := m_num m; q_pri := m_pri m; q_tick := ds_tick s |} (d_queue w).
Proof. exact send_delivers. Qed.
Print Assumptions dispatcher_send_delivers_exactly.

Theorem dispatcher_send_counts_deliveries :
  forall c self s m to, wf_dispatcher c self s -> proper_dest to ->
  snd (ds_send c self s m to) =
  fold_right (fun w a => (copies c self m to w + a)%nat) 0%nat (ds_wps s).
Proof. exact send_count. Qed.
Print Assumptions dispatcher_send_counts_deliveries.

(** C44: a message that already crossed a gateway is not forwarded again, except
    server announcements, which are forwarded at most while hops <= 3. *)
Theorem gateway_forwards_once :
  forall c self g m to,
  hiid_matches (m_id m) (MsgGWServerOpen c ++ [AidWildcard]) = false -> m_hops m > 0 ->
  willForward c self g m to = false.
Proof. exact forward_once. Qed.
Print Assumptions gateway_forwards_once.
Theorem gateway_hop_limit :
  forall c self g m to, m_hops m > 3 -> willForward c self g m to = false.
Proof. exact forward_at_most_four. Qed.
Print Assumptions gateway_hop_limit.

(** C40: the waiting work process is polled within (M - p) + N polls if its head is
    not overtaken, and within the larger bound if it is. *)
Theorem dispatcher_polls_within_bound :
  forall M s w h os, ok_state M s -> deliverable s w h ->
  Forall (ok_op M) os -> Forall (quiet_op w (q_pri h)) os -> never_polled w s os ->
  (polls os < Z.to_nat (M - q_pri h) + length (ds_wps s))%nat.
Proof. exact starvation_quiet_bound. Qed.
Print Assumptions dispatcher_polls_within_bound.

Theorem dispatcher_starvation_free :
  forall M s w h os, ok_state M s -> deliverable s w h ->
  Forall (ok_op M) os -> never_polled w s os ->
  let n := (length (ds_wps s) - 1)%nat in
  let k := Z.to_nat (M - q_pri h) in
  (polls os <= (k + n) + overtakes n k)%nat.
Proof. exact starvation_bound. Qed.
Print Assumptions dispatcher_starvation_free.

Theorem dispatcher_loop_goes_on_while_someone_waits :
  forall M s w h o, ok_state M s -> deliverable s w h -> fst (choose s) <> Some w ->
  ds_repoll (ds_poll s o) = true.
Proof. exact loop_continues. Qed.
Print Assumptions dispatcher_loop_goes_on_while_someone_waits.

(** the smaller bound fails when the head of the queue is overtaken *)
Theorem dispatcher_simple_bound_refuted :
  exists M s w h os, ok_state M s /\ deliverable s w h /\ Forall (ok_op M) os /\ never_polled w s os /\
    (polls os >= Z.to_nat (M - q_pri h) + length (ds_wps s))%nat.
Proof.
  exists 2, busy_state, 0%nat, {| q_msg := 1; q_pri := 0; q_tick := 0 |}, busy_run.
  split; [exact busy_ok|]. split; [eexists _, []; repeat split|].
  split; [repeat constructor; discriminate|]. split; [exact busy_never|]. vm_compute. repeat constructor.
Qed.
Print Assumptions dispatcher_simple_bound_refuted.

(** a work process that holds its message while its poll() keeps returning true
    starves the others for ever *)
Theorem dispatcher_busy_holder_starves_others :
  exists s w h o, ok_state 256 s /\ deliverable s w h /\
    forall n, never_polled w s (repeat (DPoll o) n).
Proof.
  exists (hog_state 0), 1%nat, {| q_msg := 2; q_pri := 16; q_tick := 0 |}, hog.
  split; [|split; [eexists _, []; repeat split|exact (fun n => hog_starves n 0 (Z.le_refl 0))]].
  intros x [<-|[<-|[]]]; cbn; unfold ok_entry; cbn; repeat split; repeat constructor; discriminate.
Qed.
Print Assumptions dispatcher_busy_holder_starves_others.

(** examples *)
Definition ex_c : aids := {| AidPublish := -200; MsgGWServerOpen := [-201; -202; -203] |}.
Definition ex_self : addr := {| a_class := -100; a_inst := 0; a_proc := 1; a_host := 2 |}.
Definition ex_wp (cl i : Z) (g : option gateway) (sb : subs) : dwp :=
  {| d_addr := {| a_class := cl; a_inst := i; a_proc := 1; a_host := 2 |}; d_subs := sb; d_gate := g;
     d_queue := [{| q_msg := 9; q_pri := 100; q_tick := 0 |}]; d_repoll := true |}.
Definition ex_gw : gateway :=
  {| g_connected := true; g_rproc := 3; g_rhost := 4;
     g_remote := [([-101; 0; 3; 4], {| s_list := [{| s_mask := [-50; AidWildcard]; s_scope := [AidWildcard] |}]; s_pksize := 0 |})] |}.
Definition ex_state : dstate :=
  {| ds_tick := 3; ds_repoll := false;
     ds_wps := [ex_wp (-101) 0 None subs_init;
                ex_wp (-101) 1 None {| s_list := [{| s_mask := [-50; AidWildcard]; s_scope := [AidWildcard] |}]; s_pksize := 0 |};
                ex_wp (-102) 0 (Some ex_gw) subs_init] |}.
Definition ex_msg : msg :=
  {| m_num := 1; m_id := [-50; 7]; m_from := [-101; 0; 1; 2]; m_pri := 256; m_hops := 0; m_forwarder := [] |}.
Example ex_wf : wf_dispatcher ex_c ex_self ex_state.
Proof.
  split; [|split].
  - intros x Hx. cbn in Hx. unfold AidAny, AidWildcard. lia.
  - intros w Hw. cbn in Hw. destruct Hw as [<-|[<-|[<-|[]]]]; cbn; (split; [|split; [split; reflexivity|split; [auto|split; discriminate]]]);
      intros x Hx; cbn in Hx; unfold AidAny, AidWildcard; lia.
  - repeat constructor; cbn; intuition discriminate.
Qed.
(** published everywhere: one local subscriber, one gateway *)
Example ex_publish :
  let to := {| a_class := -200; a_inst := -200; a_proc := AidAny; a_host := AidAny |} in
  proper_dest to /\
  map (fun w => map q_msg (d_queue w)) (ds_wps (fst (ds_send ex_c ex_self ex_state ex_msg to))) =
    [[9]; [1; 9]; [1; 9]]%nat /\ snd (ds_send ex_c ex_self ex_state ex_msg to) = 2%nat.
Proof. split; [intros H; cbn in H; unfold AidWildcard, AidAny in H; lia|]. vm_compute. auto. Qed.
(** class broadcast, and exact address *)
Example ex_broadcast :
  map (fun w => map q_msg (d_queue w)) (ds_wps (fst (ds_send ex_c ex_self ex_state ex_msg
    {| a_class := -101; a_inst := AidAny; a_proc := 1; a_host := 2 |}))) = [[1; 9]; [1; 9]; [9]]%nat.
Proof. reflexivity. Qed.
Example ex_exact :
  map (fun w => map q_msg (d_queue w)) (ds_wps (fst (ds_send ex_c ex_self ex_state ex_msg
    {| a_class := -101; a_inst := 1; a_proc := 1; a_host := 2 |}))) = [[9]; [1; 9]; [9]]%nat.
Proof. reflexivity. Qed.
(** a message from a gateway is not sent out again *)
Example ex_hops : willForward ex_c ex_self ex_gw
    {| m_num := 1; m_id := [-50; 7]; m_from := [-101; 0; 1; 2]; m_pri := 256; m_hops := 1; m_forwarder := [] |}
    {| a_class := -200; a_inst := -200; a_proc := AidAny; a_host := AidAny |} = false /\
  willForward ex_c ex_self ex_gw ex_msg
    {| a_class := -200; a_inst := -200; a_proc := AidAny; a_host := AidAny |} = true.
Proof. split; reflexivity. Qed.
Example ex_polls : ok_state 2 busy_state /\ Forall (ok_op 2) busy_run /\ polls busy_run = 5%nat /\
  deliverable busy_state 0 {| q_msg := 1; q_pri := 0; q_tick := 0 |} /\
  fst (choose (fold_left dstep busy_run busy_state)) = Some 0%nat.
Proof.
  split; [exact busy_ok|]. split; [repeat constructor; discriminate|].
  split; [reflexivity|]. split; [eexists _, []; repeat split|reflexivity].
Qed.
