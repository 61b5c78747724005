(** Theorems about counted references (C06, C07, C08). *)
From Verif Require Import Base Ref_Model Ref_Spec Ref_Proofs Ref_Proofs2 Ref_Proofs3.
Local Open Scope Z_scope.

(** *** C06 *)

(** the count kept in an object is the number of references to it *)
Theorem ref_counts_exact : forall s o b, reach s -> getobj s o = Some b -> o_cnt b = Z.of_nat (nrefs s o).
Proof. intros s o b R. exact (i_cnt _ _ (reach_inv s R) o b). Qed.
Print Assumptions ref_counts_exact.

(** no reference points to a destroyed object *)
Theorem no_dangling_reference : forall s r rf o, reach s -> getref s r = Some rf -> r_t rf = Some o -> live_obj s o.
Proof. intros s r rf o R H T. destruct (i_tgt _ _ (reach_inv s R) r rf o H T) as (b & E). unfold live_obj. congruence. Qed.
Print Assumptions no_dangling_reference.

(** no operation reads or destroys something already destroyed *)
Theorem reference_operations_defined : forall fuel s a, reach s -> valid_op s a -> step fuel s a <> Undef.
Proof. intros fuel s a R V E. pose proof (step_ok fuel s a (reach_inv s R) V) as G. rewrite E in G. exact G. Qed.
Print Assumptions reference_operations_defined.

(** a reference held by an object is held by that object only, and exists *)
Theorem members_have_one_owner : forall s, reach s -> NoDup (owned (objs s)) /\ forall m, In m (owned (objs s)) -> live_ref s m.
Proof.
  intros s R. split; [exact (i_nd _ _ (reach_inv s R))|].
  intros m H. destruct (i_live _ _ (reach_inv s R) m H) as (rf & E). unfold live_ref. congruence.
Qed.
Print Assumptions members_have_one_owner.

(** an object is destroyed by a reference operation only if it is anonymous and nothing
    refers to it any more *)
Theorem only_anonymous_objects_are_destroyed : forall fuel s a s' o b, reach s -> valid_op s a -> after (step fuel s a) s' ->
  getobj s o = Some b -> getobj s' o = None -> (o_anon b = true \/ a = DeleteObj o) /\ nrefs s' o = 0%nat.
Proof.
  intros fuel s a s' o b R V A Hb Hn. pose proof (reach_inv s R) as I.
  assert (R' : reach s') by (eapply reach_step; eauto). split.
  - destruct a; try (left; match goal with V : valid_op s ?a |- _ => pose proof (step_frame fuel s a I V ltac:(discriminate)) as F end;
      destruct A as [(u & E)|E]; rewrite E in F; destruct F as (_ & _ & _ & _ & F5 & _); exact (F5 o b Hb Hn)).
    destruct (Nat.eq_dec o0 o) as [->|N]; [now right|]. left. destruct V as (b0 & Hb0 & Ha & Hz).
    destruct (delete_frame fuel s o0 b0 I Hb0 Ha Hz) as (s1 & E & _ & F & _). rewrite E in A.
    destruct A as [(u & E')|E']; [injection E' as <- <-|discriminate]. apply (F o b); auto.
  - apply tc_zero. intros x xf Hx Tx. destruct (i_tgt _ _ (reach_inv s' R') x xf o Hx Tx) as (c & Hc). congruence.
Qed.
Print Assumptions only_anonymous_objects_are_destroyed.

(** An anonymous object that exists has a reference: it is destroyed with its last one.
    Partial: for programs that do not privatize deeply an object they alone hold, and do
    not write through read-only references to it; see [privatize_deep_leaks_refuted]. *)
Theorem no_leak_partial : forall s o b, reach_careful s -> getobj s o = Some b -> o_anon b = true -> (1 <= nrefs s o)%nat.
Proof.
  intros s o b R Hb Ha. pose proof (careful_leakfree s R o b Hb Ha) as H.
  rewrite (ref_counts_exact s o b (careful_reach s R) Hb) in H. lia.
Qed.
Print Assumptions no_leak_partial.
(** the same for a class of programs that is recognised by looking at the operations only *)
Theorem no_leak_gentle_partial : forall s o b, reach_gentle s -> getobj s o = Some b -> o_anon b = true ->
  reach s /\ (1 <= nrefs s o)%nat.
Proof.
  intros s o b R Hb Ha. destruct (gentle_reach s R) as (R' & _ & LF). split; [exact R'|]. pose proof (LF o b Hb Ha) as H.
  rewrite (ref_counts_exact s o b R' Hb) in H. lia.
Qed.
Print Assumptions no_leak_gentle_partial.

(** the condition [keeps] of [valid_op] always holds for the program's own references *)
Theorem own_references_can_be_overwritten : forall s r x fl d, reach s -> toplevel s r -> toplevel s x ->
  valid_op s (Copy r x fl d) /\ valid_op s (Xfer r x fl d).
Proof.
  intros s r x fl d R [Lr Nr] [Lx Nx].
  assert (K : r <> x -> keeps s r (fun s1 => live_ref s1 x)).
  { intros N s1 E. destruct (live_get _ _ Lr) as (rf & H). pose proof (detach_ok s r rf (reach_inv s R) H) as D. rewrite E in D.
    destruct D as (_ & D & _). split.
    - destruct (d_r _ _ _ D) as [(rf' & E' & _)|[_ F]]; [unfold live_ref; congruence|contradiction].
    - destruct (d_ref _ _ _ D x (not_eq_sym N)) as [E'|[_ F]]; [unfold live_ref in *; congruence|contradiction]. }
  split; (split; [exact Lr|split; [exact Lx|exact K]]).
Qed.
Print Assumptions own_references_can_be_overwritten.
Theorem own_references_can_be_attached : forall s r o fl, reach s -> toplevel s r ->
  (exists b, getobj s o = Some b /\ o_anon b = false) \/ (exists x xf, toplevel s x /\ x <> r /\ getref s x = Some xf /\ r_t xf = Some o) ->
  valid_op s (Attach r o fl).
Proof.
  intros s r o fl R [Lr Nr] H. assert (I := reach_inv s R). destruct (live_get _ _ Lr) as (rf & Hr).
  split; [exact Lr|]. split.
  - destruct H as [(b & E & _)|(x & xf & _ & _ & Hx & T)]; [unfold live_obj; congruence|].
    destruct (i_tgt _ _ I x xf o Hx T) as (b & E). unfold live_obj; congruence.
  - intros _ s1 E. pose proof (detach_ok s r rf I Hr) as D. rewrite E in D. destruct D as (I1 & D & _). split.
    + destruct (d_r _ _ _ D) as [(rf' & E' & _)|[_ F]]; [unfold live_ref; congruence|contradiction].
    + destruct H as [(b & Hb & Ha)|(x & xf & [_ Nx] & N & Hx & T)].
      * destruct (d_obj _ _ _ D o b Hb) as [(c & E')|[_ F]]; [unfold live_obj; congruence|congruence].
      * destruct (d_ref _ _ _ D x N) as [E'|[_ F]]; [|contradiction]. rewrite Hx in E'.
        destruct (i_tgt _ _ I1 x xf o E' T) as (b & Hb). unfold live_obj; congruence.
Qed.
Print Assumptions own_references_can_be_attached.

(** making a private copy, deep or not, changes nothing that can be seen through any reference *)
Theorem privatize_keeps_contents : forall fuel s r fl d s' x k, reach s -> live_ref s r -> step fuel s (Privatize r fl d) = Done tt s' ->
  live_ref s x -> view k s' x = view k s x.
Proof.
  intros fuel s r fl d s' x k R Lr E Lx. destruct (live_get _ _ Lr) as (rf & H). destruct (live_get _ _ Lx) as (xf & Hx).
  pose proof (priv_ok fuel s r fl d rf (reach_inv s R) H) as P. cbn [step] in E. rewrite E in P.
  destruct P as (_ & _ & _ & V & _). exact (V k x xf Hx).
Qed.
Print Assumptions privatize_keeps_contents.

Definition xanon := fl0.
Definition xext := {| f_ro := false; f_sh := false; f_cow := false; f_lock := false; f_unlock := false; f_deep := false; f_own := OwnExternal |}.
Definition xdeep := {| f_ro := false; f_sh := false; f_cow := false; f_lock := false; f_unlock := false; f_deep := true; f_own := OwnAnon |}.
Definition xsh := {| f_ro := false; f_sh := true; f_cow := false; f_lock := false; f_unlock := false; f_deep := false; f_own := OwnAnon |}.

(** the state after one more operation *)
Ltac ok_op := lazymatch goal with
  | |- True => exact Logic.I
  | |- live_ref _ _ => unfold live_ref; cbn; discriminate
  | |- live_obj _ _ => unfold live_obj; cbn; discriminate
  | |- _ /\ _ => split; ok_op
  | |- toplevel _ _ => split; [cbn; discriminate|cbn; intuition discriminate]
  | |- _ -> keeps _ _ _ => let s1 := fresh in let E := fresh in intros _ s1 E; vm_compute in E; injection E as <-; ok_op
  | |- _ = _ => reflexivity
  | |- _ <= _ => lia
  end.
Ltac after_op R a :=
  lazymatch type of R with
  | reach ?s => let s' := eval vm_compute in (match step 9 s a with Done _ s' => s' | _ => s end) in
      let R' := fresh in assert (R' : reach s') by (apply (reach_step s a 9 s' R); [cbn [valid_op]; ok_op|left; exists tt; vm_compute; reflexivity]); clear R; rename R' into R
  | reach_gentle ?s => let s' := eval vm_compute in (match step 9 s a with Done _ s' => s' | _ => s end) in
      let R' := fresh in assert (R' : reach_gentle s') by (apply (rg_step s a 9 s' R); [cbn [valid_op]; ok_op|cbn; ok_op|left; exists tt; vm_compute; reflexivity]); clear R; rename R' into R
  end.

(** a deep privatize of the only reference to an object leaves that object behind: cloneTarget
    decrements the count of the old target without deleting it *)
Theorem privatize_deep_leaks_refuted : exists s o b, reach s /\ getobj s o = Some b /\ o_anon b = true /\ nrefs s o = 0%nat.
Proof.
  pose proof reach_init as R. after_op R (NewRef). after_op R (NewObj 7 false false 0). after_op R (Attach 0 0 xanon). after_op R (Privatize 0 xdeep 0).
  eexists _, 0%nat, _. split; [exact R|]. repeat split.
Qed.
Print Assumptions privatize_deep_leaks_refuted.

(** Overwriting a reference with one found inside the object it refers to uses a destroyed
    reference: copy() detaches the destination first.  Every reference and object named
    here exists and the state is reachable. *)
Theorem copy_from_own_contents_refuted : exists s r x, reach s /\ live_ref s r /\ live_ref s x /\ step 5 s (Copy r x fl0 0) = Undef.
Proof.
  pose proof reach_init as R. after_op R (NewRef). after_op R (NewObj 7 false false 1). after_op R (Attach 0 0 xanon).
  eexists _, 0%nat, 1%nat. split; [exact R|]. split; [ok_op|]. split; [ok_op|]. reflexivity.
Qed.
Print Assumptions copy_from_own_contents_refuted.

(** destroying an object of one's own that still has references leaves them dangling: the
    destructor checks anonymous objects only (CountedRefTarget.cc:55-84) *)
Theorem delete_external_dangles_refuted : exists s s' rf,
  reach s /\ step 5 s (DeleteObj 0) = Done tt s' /\ getref s' 0 = Some rf /\ r_t rf = Some 0%nat /\ getobj s' 0 = None.
Proof.
  pose proof reach_init as R. after_op R (NewRef). after_op R (NewObj 7 false false 0). after_op R (Attach 0 0 xext).
  eexists _, _, _. split; [exact R|]. repeat split.
Qed.
Print Assumptions delete_external_dangles_refuted.

(** two references to a record holding a reference to a number; both dropped: all is gone *)
Definition ex_prog : list op :=
  [NewRef; NewRef; NewObj 5 false false 1; NewObj 6 false false 0;   (* refs 0 1, record 0 with member 2, number 1 *)
   Attach 0 0 fl0; Attach 2 1 fl0; Copy 1 0 fl0 0].
Example ex_shared : option_map (fun s => (nrefs s 0, nrefs s 1, view 5 s 1)) (run 9 init ex_prog)
  = Some (2%nat, 1%nat, TNode 5 [TNode 6 []]).
Proof. vm_compute. reflexivity. Qed.
Example ex_all_gone : option_map objs (run 9 init (ex_prog ++ [Detach 0; Destroy 1])) = Some [None; None].
Proof. vm_compute. reflexivity. Qed.
Example ex_gentle : exists s, run 9 init ex_prog = Some s /\ reach_gentle s /\ toplevel s 0 /\ toplevel s 1.
Proof.
  eexists. split; [vm_compute; reflexivity|]. pose proof rg_init as R.
  after_op R NewRef. after_op R NewRef. after_op R (NewObj 5 false false 1). after_op R (NewObj 6 false false 0).
  after_op R (Attach 0 0 fl0). after_op R (Attach 2 1 fl0). after_op R (Copy 1 0 fl0 0).
  split; [exact R|]. split; ok_op.
Qed.

(** *** C07 *)
(** Writing through one of the program's own references, at any depth, along references
    that are not shared: nothing changes for any other reference of the program, and the
    reference written through sees exactly the new value at the place written to. *)
Theorem copy_on_write_isolation : forall fuel s r path v s', reach s -> toplevel s r -> cow_path s r path ->
  step fuel s (Write r path v) = Done tt s' ->
  (forall x k, toplevel s x -> x <> r -> view k s' x = view k s x) /\
  (forall k, view k s' r = tset (view k s r) path v).
Proof.
  intros fuel s r path v s' R T C E. pose proof (write_isolated fuel s r path v (reach_inv s R) T C) as W. cbn [step] in E. rewrite E in W.
  destruct W as [A B]. split; [intros; now apply A|exact B].
Qed.
Print Assumptions copy_on_write_isolation.

(** a write that fails changes nothing that can be seen *)
Theorem failed_write_changes_nothing : forall fuel s r path v s', reach s -> toplevel s r -> cow_path s r path ->
  step fuel s (Write r path v) = Threw s' -> forall x k, live_ref s x -> view k s' x = view k s x.
Proof.
  intros fuel s r path v s' R T C E x k Lx. pose proof (write_isolated fuel s r path v (reach_inv s R) T C) as W. cbn [step] in E. rewrite E in W.
  exact (W x Lx k).
Qed.
Print Assumptions failed_write_changes_nothing.

Example ex_cow : option_map (fun s => (view 5 s 0, view 5 s 1)) (run 9 init (ex_prog ++ [Write 0 [0%nat] 9]))
  = Some (TNode 5 [TNode 9 []], TNode 5 [TNode 6 []]).
Proof. vm_compute. reflexivity. Qed.
Example ex_cow_path : exists s, run 9 init ex_prog = Some s /\ cow_path s 0 [0%nat] /\ exists s', step 9 s (Write 0 [0%nat] 9) = Done tt s'.
Proof. eexists. split; [vm_compute; reflexivity|]. split; [cbn; auto|]. eexists. vm_compute. reflexivity. Qed.

(** without [cow_path] isolation fails by design: a reference marked SHARED writes into
    the common object *)
Theorem shared_write_is_seen : forall fuel s r rf o b v, reach s -> getref s r = Some rf -> r_t rf = Some o -> getobj s o = Some b ->
  r_sh rf = true -> step fuel s (Write r [] v) = Done tt (setobj s o (Some (with_data b v))) /\
  forall x xf, getref s x = Some xf -> r_t xf = Some o -> view 1 (setobj s o (Some (with_data b v))) x = TNode v (map (view 0 s) (o_mem b)).
Proof.
  intros fuel s r rf o b v R H T Hb Sh. split.
  - cbn [step write]. unfold get_wr. rewrite H, T, Hb, Sh, orb_true_r. now rewrite H, T, Hb.
  - intros x xf Hx Tx. cbn [view]. rewrite getref_setobj, Hx, Tx, getobj_setobj by (eapply getobj_lt; exact Hb). rewrite Nat.eqb_refl. reflexivity.
Qed.
Print Assumptions shared_write_is_seen.
Example ex_shared_write : option_map (fun s => (view 5 s 0, view 5 s 1)) (run 9 init (ex_prog ++ [Change 0 xsh; Write 0 [] 9]))
  = Some (TNode 9 [TNode 6 []], TNode 9 [TNode 6 []]).
Proof. vm_compute. reflexivity. Qed.

(** *** C08 *)
(** detaching a locked reference, or putting something else in it, fails and changes nothing *)
Theorem locked_reference_is_not_overwritten : forall fuel s r rf o, getref s r = Some rf -> r_t rf = Some o -> r_lock rf = true ->
  step fuel s (Detach r) = Threw s /\
  (forall x fl d, x <> r -> step fuel s (Copy r x fl d) = Threw s /\ step fuel s (Xfer r x fl d) = Threw s) /\
  (forall o' fl, o' <> o -> live_obj s o' -> step fuel s (Attach r o' fl) = Threw s).
Proof.
  intros fuel s r rf o H T L. assert (D : detach s r = Threw s) by (unfold detach; now rewrite H, T, L).
  split; [exact D|]. split.
  - intros x fl d N. cbn [step]. unfold copy, copy_with, xfer. destruct (Nat.eqb_spec r x); [congruence|]. now rewrite D.
  - intros o' fl N Lo. cbn [step]. unfold attach. rewrite H, T. destruct (Nat.eqb_spec o' o); [contradiction|].
    unfold live_obj in Lo. destruct (getobj s o'); [|contradiction]. now rewrite D.
Qed.
Print Assumptions locked_reference_is_not_overwritten.

(** A locked reference of the program keeps its target, its lock and its flags through any
    operation other than those that unlock, change, privatize, write through or destroy it. *)
Theorem locked_reference_stays : forall fuel s a s' x xf, reach s -> valid_op s a -> after (step fuel s a) s' ->
  toplevel s x -> getref s x = Some xf -> r_lock xf = true -> r_t xf <> None ->
  match a with
  | Unlock y | Change y _ | Privatize y _ _ | Write y _ _ | Destroy y => y <> x
  | _ => True
  end -> getref s' x = Some xf.
Proof.
  intros fuel s a s' x xf R V A [Lx Nx] Hx L T C. assert (I := reach_inv s R).
  assert (F : (forall o, a <> DeleteObj o) -> ~ named a x -> getref s' x = Some xf).
  { intros N Nn. pose proof (step_frame fuel s a I V N) as F.
    assert (F' : frame (named a) s s') by (destruct A as [(u & E)|E]; rewrite E in F; exact F).
    destruct F' as (_ & _ & F3 & _). rewrite F3; auto. eapply getref_lt; exact Hx. }
  destruct (r_t xf) as [o|] eqn:Et; [|contradiction]. clear T.
  destruct (locked_reference_is_not_overwritten fuel s x xf o Hx Et L) as (B1 & B2 & B3).
  destruct a; try (apply F; [discriminate|cbn in *; intuition congruence]; fail).
  - (* Attach *) destruct (Nat.eq_dec r x) as [->|N]; [|apply F; [discriminate|cbn; congruence]].
    destruct (Nat.eq_dec o0 o) as [->|No].
    + cbn [step] in A. unfold attach in A. rewrite Hx, Et, Nat.eqb_refl in A. destruct A as [(u & E)|E]; [injection E as <- <-; exact Hx|discriminate].
    + rewrite (B3 o0 fl No (proj1 (proj2 V))) in A. destruct A as [(u & E)|E]; [discriminate|injection E as <-; exact Hx].
  - (* Copy *) destruct (Nat.eq_dec r x) as [->|N]; [|apply F; [discriminate|cbn; congruence]].
    destruct (Nat.eq_dec x0 x) as [->|N0].
    + cbn [step] in A. unfold copy, copy_with in A. rewrite Nat.eqb_refl in A. destruct A as [(u & E)|E]; [injection E as <- <-; exact Hx|discriminate].
    + destruct (B2 x0 fl depth N0) as [E _]. rewrite E in A. destruct A as [(u & E')|E']; [discriminate|injection E' as <-; exact Hx].
  - (* Xfer *) destruct (Nat.eq_dec r x) as [->|N].
    + destruct (Nat.eq_dec x0 x) as [->|N0].
      * cbn [step] in A. unfold xfer in A. rewrite Nat.eqb_refl in A. destruct A as [(u & E)|E]; [injection E as <- <-; exact Hx|discriminate].
      * destruct (B2 x0 fl depth N0) as [_ E]. rewrite E in A. destruct A as [(u & E')|E']; [discriminate|injection E' as <-; exact Hx].
    + destruct (Nat.eq_dec x0 x) as [->|N0]; [|apply F; [discriminate|cbn; intuition congruence]].
      destruct V as (Lr & _ & K). cbn [step] in A. unfold xfer in A. destruct (Nat.eqb_spec r x) as [|_]; [contradiction|].
      destruct (live_get _ _ Lr) as (rf & Hr). pose proof (detach_ok s r rf I Hr) as D.
      pose proof (detach_dest s r _ I Lr (K N)) as DD.
      destruct (detach s r) as [u s1|s1| |]; try tauto.
      2:{ destruct D as (-> & _). destruct A as [(u & E)|E]; [discriminate|injection E as <-; exact Hx]. }
      destruct D as (I1 & D & _). destruct DD as (_ & _ & _ & rf1 & Hr1 & _).
      destruct (d_ref _ _ _ D x (not_eq_sym N)) as [Ex|[_ Ox]]; [|contradiction]. rewrite Hx in Ex. rewrite Ex, Hr1, Et in A.
      destruct (i_tgt _ _ I1 x xf o Ex Et) as (b & Hb). rewrite Hb, L in A.
      destruct A as [(u1 & E)|E]; [discriminate|injection E as <-; exact Ex].
  - (* Detach *) destruct (Nat.eq_dec r x) as [->|N]; [|apply F; [discriminate|cbn; congruence]].
    rewrite B1 in A. destruct A as [(u & E)|E]; [discriminate|injection E as <-; exact Hx].
  - (* Lock *) destruct (Nat.eq_dec r x) as [->|N]; [|apply F; [discriminate|cbn; congruence]].
    cbn [step] in A. rewrite Hx in A. destruct A as [(u & E)|E]; [|discriminate]. injection E as <- <-.
    unfold getref, setref. cbn [refs]. rewrite nth_setn, Nat.eqb_refl. apply getref_lt, Nat.ltb_lt in Hx. rewrite Hx. cbn [andb].
    destruct xf; cbn in L, Et |- *. now rewrite L.
  - (* DeleteObj *) destruct V as (b & Hb & Ha & Hn). destruct (delete_frame fuel s o0 b I Hb Ha Hn) as (s1 & E & F1 & _).
    rewrite E in A. destruct A as [(u & E')|E']; [injection E' as <- <-|discriminate]. rewrite F1; auto.
Qed.
Print Assumptions locked_reference_stays.

(** lock followed by unlock leaves an unlocked reference as it was *)
Theorem unlock_undoes_lock : forall fuel s r rf, getref s r = Some rf -> r_lock rf = false ->
  exists s1, step fuel s (Lock r) = Done tt s1 /\ step fuel s1 (Unlock r) = Done tt s.
Proof.
  intros fuel s r rf H L. eexists. cbn [step]. rewrite H. split; [reflexivity|].
  assert (Lr := getref_lt _ _ _ H).
  assert (E : forall nf, getref (setref s r (Some nf)) r = Some nf).
  { intros nf. unfold getref, setref. cbn [refs]. rewrite nth_setn, Nat.eqb_refl. apply Nat.ltb_lt in Lr. now rewrite Lr. }
  rewrite E. cbn [r_t r_wr r_sh]. unfold setref. cbn [refs objs]. rewrite setn_setn. destruct s as [rs os]. cbn [refs objs] in *.
  do 2 f_equal. clear -H L Lr. unfold getref in H. cbn [refs] in *.
  assert (E : Some {| r_t := r_t rf; r_lock := false; r_wr := r_wr rf; r_sh := r_sh rf |} = nth r rs None) by (rewrite H; destruct rf; cbn in *; now subst).
  rewrite E. clear. revert r. induction rs as [|y l IH]; intros [|r]; cbn; congruence.
Qed.
Print Assumptions unlock_undoes_lock.

(** a locked reference stays locked whatever is written through it: refuted, cloneTarget
    resets the lock, after which detach succeeds *)
Theorem lock_survives_write_refuted : exists s s' rf,
  reach s /\ getref s 0 = Some rf /\ r_lock rf = true /\ step 5 s (Write 0 [] 9) = Done tt s' /\ exists s2, step 5 s' (Detach 0) = Done tt s2.
Proof.
  destruct ex_gentle as (s0 & E0 & R0 & _). apply gentle_reach in R0 as (R & _). vm_compute in E0. injection E0 as <-. after_op R (Lock 0).
  eexists _, _, _. split; [exact R|]. repeat split. eexists. reflexivity.
Qed.
Print Assumptions lock_survives_write_refuted.

(** an xfer that throws changes nothing: refuted when the source is locked, the
    destination has been detached by then *)
Theorem failed_xfer_changes_nothing_refuted : exists s s', reach s /\ toplevel s 0 /\ toplevel s 1 /\
  step 5 s (Xfer 1 0 fl0 0) = Threw s' /\ view 1 s 1 <> view 1 s' 1.
Proof.
  destruct ex_gentle as (s0 & E0 & R0 & _). apply gentle_reach in R0 as (R & _). vm_compute in E0. injection E0 as <-. after_op R (Lock 0).
  eexists _, _. split; [exact R|]. split; [ok_op|]. split; [ok_op|]. split; [reflexivity|]. vm_compute. discriminate.
Qed.
Print Assumptions failed_xfer_changes_nothing_refuted.

Example ex_locked : option_map (fun s => (view 5 s 0, view 5 s 1)) (run 9 init (ex_prog ++ [Lock 0; Detach 0; NewRef; Copy 0 3 fl0 0; Xfer 0 3 fl0 0; Unlock 0; Detach 0]))
  = Some (TNil, TNode 5 [TNode 6 []]).
Proof. vm_compute. reflexivity. Qed.
