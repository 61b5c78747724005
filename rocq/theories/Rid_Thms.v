(** Request riders, and what a call of Node::execute does. *)
From Coq Require Import String.
From Verif Require Import Base Hiid_Model Hiid_Proofs Rqid_Model Poll_Model Ncache_Model Rid_Model Rid_Spec Rid_Proofs Rid_Proofs2 Rid_Proofs3.
Local Open Scope Z_scope.
Open Scope list_scope.

(** ** Examples: atoms, a node, a rider *)
Definition exW : vocab := {| AidCommand := 101; AidAll := 102; AidBy := 103; AidNodeIndex := 104; AidList := 105; AidName := 106; AidUpdate := 107; AidParm := 108 |}.
Definition exNode : nodeid := {| nd_groups := [[102]; [108]]; nd_index := 7; nd_name := "a" |}.
(** 0: the rider; 1: the group "all"; 2: the group "parm"; 3: its commands for all, 4 and 5: a list, 6: by node index; 7: those of node 7 *)
Definition exHeap : list (list (list Z * val)) :=
  [ [([102], VRec 1); ([108], VRec 2); ([300], VOther)];
    [([101; 102], VRec 3)];
    [([101; 103; 105], VList [4; 5; 9]%nat); ([101; 103; 104], VRec 6)];
    [([201], VRec 8)];
    [([106], VStrs ["b"; "c"]%string); ([202], VRec 8)];
    [([106], VStrs ["b"; "a"]%string); ([104], VInts [3]); ([203], VRec 8); ([204], VRec 9)];
    [([6], VRec 3); ([7], VRec 7)];
    [([205], VRec 8)];
    [([400], VOther)];
    [] ].
Definition exQ : rq := {| q_rider := Some 0%nat; q_seen := true; q_shared := false |}.
Definition exPc (log : list call) (x : call) : option Z := match fst x with [n] => Some (2 ^ (n - 200)) | _ => None end.

(** ** Which commands are carried out (C152) *)
Theorem rider_commands W pc h nd q root log code :
  keyed h -> fineRider W h nd root -> q_rider q = Some root -> q_seen q = true ->
  processRequestRider W pc h nd q = (log, Some code) ->
  (forall x, In x log <-> commanded W h nd root x) /\ log = riderCommands W h nd root /\ code = codes pc [] log.
Proof.
  intros K F Hr Hs E. unfold processRequestRider in E. rewrite Hr, Hs in E.
  destruct (groups_does W pc h nd root (nd_groups nd) [] 0) as (l & Hl & _ & H). rewrite E in Hl, H. cbn [fst snd app] in *. subst l.
  destruct H as (H1 & H2 & _). fold (riderCommands W h nd root) in H1, H2.
  split; [|split]; [|exact H1|rewrite Z.lor_0_l in H2; congruence]. intros x. rewrite H1. apply riderCommands_iff; assumption.
Qed.
Print Assumptions rider_commands.
Theorem rider_commands_complete W pc h nd q root :
  fineRider W h nd root -> q_rider q = Some root -> q_seen q = true ->
  (forall l x r, riderCommands W h nd root = l ++ x :: r -> pc l x <> None) ->
  exists code, processRequestRider W pc h nd q = (riderCommands W h nd root, Some code).
Proof.
  intros F Hr Hs N. unfold processRequestRider. rewrite Hr, Hs.
  destruct (groups_does W pc h nd root (nd_groups nd) [] 0) as (l & Hl & (t & Ht) & H). fold (riderCommands W h nd root) in *.
  destruct (groups W pc h nd (deref h root) (nd_groups nd) [] 0) as [log [c|]]; cbn [fst snd app] in *.
  - destruct H as (H & _ & _). exists c. congruence.
  - exfalso. destruct H as [(l0 & x & -> & Hx)|H]; [|exact (H F)]. apply (N l0 x t); [|exact Hx]. rewrite Ht, <- app_assoc. reflexivity.
Qed.
Print Assumptions rider_commands_complete.
Theorem rider_exceptions W pc h nd q root log :
  q_rider q = Some root -> q_seen q = true -> processRequestRider W pc h nd q = (log, None) ->
  (exists rest, riderCommands W h nd root = log ++ rest) /\
  ((exists l x, log = l ++ [x] /\ pc l x = None) \/ ~ fineRider W h nd root).
Proof.
  intros Hr Hs E. unfold processRequestRider in E. rewrite Hr, Hs in E.
  destruct (groups_does W pc h nd root (nd_groups nd) [] 0) as (l & Hl & Ht & H). rewrite E in Hl, H. cbn [fst snd app] in *. subst l.
  split; [exact Ht|]. exact H.
Qed.
Print Assumptions rider_exceptions.
Example rider_commands_ex :
  processRequestRider exW exPc exHeap exNode exQ =
    ([([201], [([400], VOther)]); ([203], [([400], VOther)]); ([204], []); ([205], [([400], VOther)])], Some (2 + 8 + 16 + 32)).
Proof. vm_compute. reflexivity. Qed.
Example rider_exceptions_ex :
  processRequestRider exW (fun _ x => match fst x with [203] => None | _ => Some 1 end) exHeap exNode exQ = ([([201], [([400], VOther)]); ([203], [([400], VOther)])], None).
Proof. vm_compute. reflexivity. Qed.

(** ** Riders made with Rider.cc (C153) *)
Definition cmdrec_facts h q group (f : list Z) flags h' q' b : Prop :=
  exists r g, q_rider q' = Some r /\ look (at_ h' r) group = Some (VRec g) /\ look (at_ h' g) f = Some (VRec b) /\
  (forall x, (x < length h)%nat -> at_ h' x <> at_ h x -> q_rider q = Some x \/ exists r0, q_rider q = Some r0 /\ look (at_ h r0) group = Some (VRec x)) /\
  (Z.land flags 7 <> 0 -> at_ h' b = []) /\
  (Z.land flags 7 = 0 -> forall r0 g0 b0, q_rider q = Some r0 -> look (at_ h r0) group = Some (VRec g0) -> look (at_ h g0) f = Some (VRec b0) -> h' = h /\ q' = q /\ b = b0) /\
  (Z.land flags 1 = 0 -> forall r0, q_rider q = Some r0 -> r = r0 /\ forall k, k <> group -> look (at_ h' r) k = look (at_ h r) k) /\
  (Z.land flags 3 = 0 -> forall r0 g0, q_rider q = Some r0 -> look (at_ h r0) group = Some (VRec g0) -> g = g0 /\ forall k, k <> f -> look (at_ h' g) k = look (at_ h g) k) /\
  sound h' /\ (keyed h -> keyed h').
Lemma getCmd_facts h q group f flags h' q' b : sound h -> (forall r, q_rider q = Some r -> (r < length h)%nat) ->
  getCmd h q group f flags = Ok (h', q', b) -> cmdrec_facts h q group f flags h' q' b.
Proof.
  intros S Hr E. destruct (getCmd_ok _ _ _ _ _ _ _ _ S Hr E) as (r & g & A1 & A2 & A3 & A4 & A5 & A6 & A7 & A8 & A9).
  exists r, g. split; [exact A1|]. split; [exact A2|]. split; [exact A3|]. split; [exact A4|].
  split; [intros H; apply A5, flagged_iff, H|].
  assert (Fl : forall m, Z.land flags m = 0 -> flagged flags m = false) by (intros m Hm; unfold flagged; rewrite Hm; reflexivity).
  split; [intros H; apply A6, Fl, H|]. split; [intros H; apply A7, Fl, H|]. split; [intros H; apply A8, Fl, H|]. exact A9.
Qed.
Theorem rider_command_all W h q group flags h' q' b : sound h -> (forall r, q_rider q = Some r -> (r < length h)%nat) ->
  getCmdRec_All W h q group flags = Ok (h', q', b) -> cmdrec_facts h q group [AidCommand W; AidAll W] flags h' q' b.
Proof. intros S Hr E. exact (getCmd_facts h q group [AidCommand W; AidAll W] flags h' q' b S Hr E). Qed.
Print Assumptions rider_command_all.
Theorem rider_command_by_nodeindex W h q group flags h' q' b : sound h -> (forall r, q_rider q = Some r -> (r < length h)%nat) ->
  getCmdRec_ByNodeIndex W h q group flags = Ok (h', q', b) -> cmdrec_facts h q group [AidCommand W; AidBy W; AidNodeIndex W] flags h' q' b.
Proof. intros S Hr E. exact (getCmd_facts h q group [AidCommand W; AidBy W; AidNodeIndex W] flags h' q' b S Hr E). Qed.
Print Assumptions rider_command_by_nodeindex.
Theorem rider_records_made W h q group flags : sound h -> (forall r, q_rider q = Some r -> (r < length h)%nat) ->
  (q_rider q = None \/ (q_shared q = false /\ (Z.land flags 1 <> 0 -> q_seen q = false))) ->
  (forall r, q_rider q = Some r -> forall v, look (at_ h r) group = Some v -> exists g, v = VRec g /\
     forall f u, look (at_ h g) f = Some u -> exists b, u = VRec b) ->
  (exists h' q' b, getCmdRec_All W h q group flags = Ok (h', q', b)) /\ (exists h' q' b, getCmdRec_ByNodeIndex W h q group flags = Ok (h', q', b)).
Proof.
  intros S Hr Hq Ht.
  assert (X : forall f, exists h' q' b, getCmd h q group f flags = Ok (h', q', b)).
  { intros f. apply getCmd_succeeds; [exact S|exact Hr| |].
    - destruct Hq as [Hq|[H1 H2]]; [left; exact Hq|right]. split; [exact H1|]. intros Hf. apply H2, flagged_iff, Hf.
    - intros r Er v Ev. destruct (Ht r Er v Ev) as (g & E & H). exists g. split; [exact E|]. intros u. apply H. }
  split; apply X.
Qed.
Print Assumptions rider_records_made.
Example rider_command_all_ex :
  exists h', getCmdRec_All exW exHeap exQ [108] NEW_CMDREC = Ok (h', exQ, 10%nat) /\
  h' = firstn 2 exHeap ++ [[([101; 103; 105], VList [4; 5; 9]%nat); ([101; 103; 104], VRec 6); ([101; 102], VRec 10)]] ++ skipn 3 exHeap ++ [[]].
Proof. eexists. split; vm_compute; reflexivity. Qed.
Example rider_records_made_ex : sound exHeap /\ keyed exHeap /\ getCmdRec_ByNodeIndex exW exHeap exQ [108] 0 = Ok (exHeap, exQ, 6%nat).
Proof.
  split; [|split; [|reflexivity]].
  - intros a f b. change (length exHeap) with 10%nat.
    do 10 (destruct a as [|a]; [cbn; intros Hi; repeat (destruct Hi as [Hi|Hi]; [first [discriminate Hi|injection Hi; intros; subst; lia]|]); destruct Hi|]).
    unfold at_. cbn. destruct a; intros [].
  - repeat constructor; cbn; intuition discriminate.
Qed.

Lemma concat_single {A} (x : A) n : concat (repeat [x] n) = repeat x n.
Proof. induction n as [|n IH]; [reflexivity|]. cbn [repeat concat app]. rewrite IH. reflexivity. Qed.
Lemma concat_none {A} n : concat (repeat (@nil A) n) = [].
Proof. induction n as [|n IH]; [reflexivity|exact IH]. Qed.
(** the Solver's updates reach each parm once for every time its group is listed, and nobody else *)
Theorem solver_rider W h q group parms : AidNodeIndex W <> AidList W -> NoDup (map fst parms) ->
  exists H Q, fillRider W h q group parms = Ok (H, Q) /\
  (forall a, (a < length h)%nat -> at_ H a = at_ h a) /\
  forall nd pc, (forall l x, pc l x <> None) -> exists code,
    (forall p, In p parms -> fst p = nd_index nd ->
       processRequestRider W pc H nd Q = (repeat ([AidUpdate W; AidParm W], snd p) (count_occ (list_eq_dec Z.eq_dec) (nd_groups nd) group), Some code)) /\
    ((forall p, In p parms -> fst p <> nd_index nd) -> processRequestRider W pc H nd Q = ([], Some code)).
Proof.
  intros NL N. destruct (fillRider_spec W h q group parms N) as (H & Q & r & g & b & E & Er & Es & Hr & Ar & Ag & [F1 F2] & Ho).
  exists H, Q. split; [exact E|]. split; [exact Ho|]. intros nd pc Hp.
  assert (L1 : forall k, look (at_ H r) k = if same group k then Some (VRec g) else None) by (intros k; rewrite Ar; apply look_cons).
  assert (L2 : look (at_ H g) [AidCommand W; AidAll W] = None) by (rewrite Ag, look_cons; unfold same; destruct (list_eq_dec _ _ _); [discriminate|reflexivity]).
  assert (L4 : look (at_ H g) [AidCommand W; AidBy W; AidNodeIndex W] = Some (VRec b)) by (rewrite Ag, look_cons, same_refl; reflexivity).
  assert (L3 : look (at_ H g) [AidCommand W; AidBy W; AidList W] = None).
  { rewrite Ag, look_cons. destruct (same _ _) eqn:X; [|reflexivity]. apply same_iff in X. congruence. }
  assert (NS : selectionb W (FUpdateParm W) = false) by (unfold selectionb, same, FUpdateParm; destruct (list_eq_dec _ _ _); [discriminate|]; destruct (list_eq_dec _ _ _); [discriminate|reflexivity]).
  assert (GC : groupCommands W H nd g = recCommands W H (look (at_ H b) [nd_index nd])).
  { unfold groupCommands. rewrite L2, L3, L4. reflexivity. }
  assert (FG : fineGroup W H nd g).
  { split; [rewrite L2; intros w; discriminate|]. split; [rewrite L3; intros w; discriminate|]. rewrite L4. intros w [= <-]. exists b. split; [reflexivity|].
    intros w Ew. destruct (in_dec Z.eq_dec (nd_index nd) (map fst parms)) as [i|n].
    - apply in_map_iff in i. destruct i as (p & Ep & Hi). destruct (F1 p Hi) as (t & c & _ & E1 & E2 & E3). rewrite Ep in E1. exists t. split; [congruence|].
      intros k v Hk. rewrite E2 in Hk. destruct Hk as [[= <- <-]|[]]. right. exists c. reflexivity.
    - rewrite (F2 _ n) in Ew. discriminate. }
  assert (FR : fineRider W H nd r).
  { intros k v Hk Ev. rewrite L1 in Ev. destruct (same group k); [|discriminate]. injection Ev as <-. exists g. auto. }
  destruct (rider_commands_complete W pc H nd Q r FR Er Es) as (code & Ec); [intros l x t _; apply Hp|]. exists code.
  assert (RC : forall l, recCommands W H (look (at_ H b) [nd_index nd]) = l ->
    riderCommands W H nd r = concat (repeat l (count_occ (list_eq_dec Z.eq_dec) (nd_groups nd) group))).
  { intros l El. unfold riderCommands. induction (nd_groups nd) as [|k gs IH]; [reflexivity|]. cbn [flat_map count_occ]. rewrite IH, L1. unfold same.
    destruct (list_eq_dec Z.eq_dec group k) as [->|Nk].
    - destruct (list_eq_dec Z.eq_dec k k); [|contradiction]. rewrite GC, El. reflexivity.
    - destruct (list_eq_dec Z.eq_dec k group); [congruence|reflexivity]. }
  split.
  - intros p Hi Ep. rewrite Ec. f_equal. destruct (F1 p Hi) as (t & c & _ & E1 & E2 & E3). rewrite Ep in E1.
    rewrite (RC [(FUpdateParm W, snd p)]).
    + apply concat_single.
    + rewrite E1. cbn [recCommands]. unfold commandsIn. rewrite E2. cbn [flat_map fst snd]. rewrite NS, E3. reflexivity.
  - intros Hn. rewrite Ec. f_equal. rewrite (RC []).
    + apply concat_none.
    + rewrite F2; [reflexivity|]. rewrite in_map_iff. intros (p & Ep & Hi). exact (Hn p Hi Ep).
Qed.
Print Assumptions solver_rider.
Example solver_rider_ex :
  exists H Q, fillRider exW exHeap exQ [108] [(7, [([500], VOther)]); (9, [])] = Ok (H, Q) /\
  processRequestRider exW (fun _ _ => Some 4) H exNode Q = ([([107; 108], [([500], VOther)])], Some 4) /\
  processRequestRider exW (fun _ _ => Some 4) H {| nd_groups := [[102]; [108]]; nd_index := 8; nd_name := "x" |} Q = ([], Some 0).
Proof. eexists. eexists. split; [reflexivity|]. split; vm_compute; reflexivity. Qed.

(** getCmdRec_ByList puts the list where the commands by node index belong: the node throws *)
Theorem rider_by_list_refuted W h q group flags pc nd l : AidNodeIndex W <> AidList W -> q_rider q = None -> In group (nd_groups nd) ->
  exists h' q' a, getCmdRec_ByList W h q group flags = Ok (h', q', a) /\
  processRequestRider W pc (write h' a (put_field (at_ h' a) [AidCommand W; AidBy W; AidNodeIndex W] (VList l))) nd (validateRider q') = ([], None).
Proof.
  intros NL Hq Hg. unfold getCmdRec_ByList, getGroupRec, getRider. rewrite Hq. cbn [bind].
  set (n := length h). set (h0 := h ++ [[]]). assert (L0 : length h0 = S n) by (unfold h0; rewrite app_length; cbn; lia).
  assert (A0 : at_ h0 n = []) by (unfold h0; rewrite at_new; apply at_out; unfold n; lia).
  assert (E1 : forall b, getOrInsert h0 n group b = Ok (put_new h0 n group)).
  { intros b. unfold getOrInsert. rewrite field_look. change (deref h0 n) with (at_ h0 n). rewrite A0, look_nil. destruct b; reflexivity. }
  rewrite E1, (surjective_pairing (put_new h0 n group)), put_new_snd. cbn [bind]. set (h1 := fst (put_new h0 n group)).
  assert (L1 : length h1 = S (S n)) by (unfold h1; rewrite put_new_len, L0; reflexivity). rewrite L0.
  assert (B1 : at_ h1 n = [(group, VRec (S n))]) by (unfold h1; rewrite put_new_self, A0, L0; [reflexivity|lia]).
  assert (B2 : at_ h1 (S n) = []) by (unfold h1; rewrite put_new_other; [apply at_out; lia|lia|lia]).
  set (BI := FCommandByNodeIndex W).
  assert (E2 : forall b, getOrInsertVec h1 (S n) BI b = Ok (write h1 (S n) [(BI, VList [])])).
  { intros b. unfold getOrInsertVec. rewrite field_look. change (deref h1 (S n)) with (at_ h1 (S n)). rewrite B2, look_nil. destruct b; reflexivity. }
  rewrite E2. cbn [bind]. set (h2 := write h1 (S n) [(BI, VList [])]).
  exists h2, {| q_rider := Some n; q_seen := false; q_shared := false |}, (S n). split; [reflexivity|].
  assert (C2 : at_ h2 (S n) = [(BI, VList [])]) by (apply write_same; lia). rewrite C2.
  assert (E3 : put_field [(BI, VList [])] [AidCommand W; AidBy W; AidNodeIndex W] (VList l) = [(BI, VList l)]).
  { cbn [put_field]. rewrite eqb_same. unfold BI at 1, FCommandByNodeIndex. rewrite same_refl. reflexivity. }
  rewrite E3. set (h3 := write h2 (S n) [(BI, VList l)]).
  assert (D1 : at_ h3 n = [(group, VRec (S n))]). { unfold h3, h2. rewrite !write_other; [exact B1|lia|lia]. }
  assert (D2 : at_ h3 (S n) = [(BI, VList l)]). { apply write_same. unfold h2. rewrite write_len. lia. }
  unfold processRequestRider. cbn [validateRider q_rider q_seen]. change (deref h3 n) with (at_ h3 n). rewrite D1. revert Hg. generalize (nd_groups nd) as gs. induction gs as [|k gs IH]; [intros []|].
  intros Hg. cbn [groups]. rewrite field_look, look_cons, look_nil.
  destruct (same group k) eqn:Es.
  - unfold one_group. rewrite !field_look. change (deref h3 (S n)) with (at_ h3 (S n)). rewrite D2, !look_cons, !look_nil.
    assert (X1 : same BI (FCommandAll W) = false) by (unfold same; destruct (list_eq_dec _ _ _); [discriminate|reflexivity]).
    assert (X2 : same BI (FCommandByList W) = false) by (unfold same; destruct (list_eq_dec _ _ _) as [X|]; [unfold BI, FCommandByNodeIndex, FCommandByList in X; congruence|reflexivity]).
    assert (X3 : same BI (FCommandByNodeIndex W) = true) by apply same_refl. rewrite X1, X2, X3. reflexivity.
  - apply IH. destruct Hg as [<-|Hg]; [rewrite same_refl in Es; discriminate|exact Hg].
Qed.
Print Assumptions rider_by_list_refuted.
(** a rider copied with copyRider is not copied on writing: the commands of the other request are gone *)
Theorem rider_copied_refuted W h q other group root pc nd : q_rider other = Some root -> (root < length h)%nat -> q_shared q = false ->
  exists h' g, getGroupRec h (copyRider q other) group NEW_GROUPREC = Ok (h', copyRider q other, g) /\
  ((forall k, In k (nd_groups nd) -> k = group) -> processRequestRider W pc h' nd other = ([], Some 0)).
Proof.
  intros Ho Hr Hs. unfold getGroupRec, copyRider. rewrite Ho. unfold getRider. cbn [validateRider q_rider q_shared q_seen].
  change (flagged NEW_GROUPREC NEW_RIDER) with false. cbv iota. rewrite Hs. cbn [bind]. unfold getOrInsert. change (flagged NEW_GROUPREC (NEW_GROUPREC + NEW_RIDER)) with true. cbv iota.
  rewrite (surjective_pairing (put_new h root group)), put_new_snd. cbn [bind]. eexists. eexists. split; [reflexivity|].
  intros Hk. unfold processRequestRider. rewrite Ho. destruct (q_seen other); [|reflexivity].
  set (h' := fst (put_new h root group)). assert (L : look (at_ h' root) group = Some (VRec (length h))) by (unfold h'; rewrite put_new_self; [apply look_put_same|exact Hr]).
  assert (A : at_ h' (length h) = []) by (unfold h'; rewrite put_new_other; [apply at_out; lia|exact Hr|lia]).
  revert Hk. generalize (nd_groups nd) as gs. induction gs as [|k gs IH]; intros Hk; [reflexivity|]. cbn [groups]. rewrite field_look. change (deref h' root) with (at_ h' root).
  rewrite (Hk k (or_introl eq_refl)), L. change (deref h' (length h)) with (at_ h' (length h)). rewrite A. cbn. apply IH. intros k' Hk'. apply Hk. right. exact Hk'.
Qed.
Print Assumptions rider_copied_refuted.
Definition exParm : nodeid := {| nd_groups := [[108]]; nd_index := 7; nd_name := "a" |}.
Example rider_copied_ex : length (fst (processRequestRider exW exPc exHeap exParm exQ)) = 3%nat.
Proof. vm_compute. reflexivity. Qed.
(** Rider::clear cannot clear a rider, and no rider can be reached through a shared reference *)
Theorem rider_clear_refuted h q flags : q_rider q <> None ->
  clear (validateRider q) = Err /\ getRider h {| q_rider := q_rider q; q_seen := q_seen q; q_shared := true |} flags = Err.
Proof.
  intros Hq. unfold clear, getRider, validateRider. cbn [q_rider q_seen q_shared]. destruct (q_rider q); [|congruence]. split; [reflexivity|].
  rewrite orb_true_r. destruct (flagged flags NEW_RIDER); reflexivity.
Qed.
Print Assumptions rider_clear_refuted.

(** ** When commands are carried out (C154) *)
Section Execute.
Context {R C : Type}.
Variables (re rm rf : R) (hasC : R -> bool) (setC : R -> C -> R) (T : rtypes).
Notation exec := (execute re rm rf hasC setC T).
Lemma commands_only (l : list call) : filter isCommandAct (map (@ACommand R) l) = map ACommand l.
Proof. induction l as [|x l IH]; [reflexivity|]. cbn. rewrite IH. reflexivity. Qed.
Theorem execute_commands (w : world R C) cur q ref :
  (takesRider w cur q -> filter isCommandAct (o_acts (exec w cur q ref)) = map ACommand (fst (w_commands w)) /\
     exists l, o_acts (exec w cur q ref) = map ACommand (fst (w_commands w)) ++ l) /\
  (~ takesRider w cur q -> filter isCommandAct (o_acts (exec w cur q ref)) = []) /\
  (processed w -> o_cur (exec w cur q ref) = Some (a_id q)) /\ (~ processed w -> o_cur (exec w cur q ref) = cur).
Proof.
  assert (RA : filter isCommandAct (o_acts (rest re rm rf hasC setC T w cur q ref)) = []).
  { rewrite rest_acts; [|reflexivity|reflexivity]. destruct (code0 w cur q); [|reflexivity]. destruct (w_active w); [|reflexivity]. cbn [app filter isCommandAct].
    destruct (inEval _ _ _); [|reflexivity]. destruct (0 <=? _); [reflexivity|]. destruct (_ =? _); reflexivity. }
  assert (PA : processed w -> filter isCommandAct (o_acts (exec w cur q ref)) = acts0 w cur q).
  { intros P. rewrite exec_rest; [|exact P]. cbn [plus o_acts]. rewrite filter_app, RA, app_nil_r. unfold acts0. destruct (took w cur q); [apply commands_only|reflexivity]. }
  split; [|split; [|split]].
  - intros Ht. assert (P : processed w) by apply Ht. apply (took_iff w cur q P) in Ht. split.
    + rewrite (PA P). unfold acts0. rewrite Ht. reflexivity.
    + rewrite exec_rest; [|exact P]. cbn [plus o_acts]. unfold acts0. rewrite Ht. eauto.
  - intros Ht. destruct (processed_dec w) as [P|N].
    + rewrite (PA P). unfold acts0. destruct (took w cur q) eqn:E; [|reflexivity]. destruct Ht. apply took_iff; assumption.
    + destruct (exec_not re rm rf hasC setC T w cur q ref N) as [[_ ->]|[(_ & _ & ->)|(k & r & _ & _ & ->)]]; reflexivity.
  - intros P. rewrite exec_rest; [|exact P]. apply rest_cur.
  - intros N. destruct (exec_not re rm rf hasC setC T w cur q ref N) as [[_ ->]|[(_ & _ & ->)|(k & r & _ & _ & ->)]]; reflexivity.
Qed.
(** however often a request is executed, its commands are carried out once *)
Lemma calls_quiet id : id <> [] -> forall (l : list (world R C * ask C * option R)), (forall x, In x l -> a_id (snd (fst x)) = id) ->
  forall o, In o (calls exec (Some id) l) -> filter isCommandAct (o_acts o) = [].
Proof.
  intros Hid. induction l as [|[[w q] ref] l IH]; intros Hl o; [intros []|]. cbn [calls].
  assert (Eq : a_id q = id) by exact (Hl _ (or_introl eq_refl)).
  destruct (execute_commands w (Some id) q ref) as (E1 & E2 & E3 & E4).
  intros [<-|Ho].
  - apply E2. intros (_ & [X|X] & _); congruence.
  - apply IH; [intros x Hx; apply Hl; right; exact Hx|].
    assert (X : o_cur (exec w (Some id) q ref) = Some id); [|rewrite X in Ho; exact Ho].
    destruct (processed_dec w) as [P|N]; [rewrite (E3 P), Eq; reflexivity|exact (E4 N)].
Qed.
Theorem execute_commands_once id (l : list (world R C * ask C * option R)) cur : id <> [] -> (forall x, In x l -> a_id (snd (fst x)) = id) ->
  forall i j a b, (i < j)%nat -> nth_error (calls exec cur l) i = Some a -> nth_error (calls exec cur l) j = Some b ->
  filter isCommandAct (o_acts a) <> [] -> filter isCommandAct (o_acts b) = [].
Proof.
  intros Hid. revert cur. induction l as [|[[w q] ref] l IH]; intros cur Hl i j a b Hij Ha Hb Na; [destruct i; discriminate|]. cbn [calls] in *.
  assert (Eq : a_id q = id) by exact (Hl _ (or_introl eq_refl)).
  destruct j as [|j]; [lia|]. destruct i as [|i]; cbn [nth_error] in Ha, Hb.
  - injection Ha as <-. destruct (execute_commands w cur q ref) as (E1 & E2 & E3 & E4).
    assert (P : processed w). { destruct (processed_dec w) as [P|N]; [exact P|]. destruct Na. apply E2. intros [P _]. contradiction. }
    rewrite (E3 P), Eq in Hb. apply (calls_quiet id Hid l); [intros x Hx; apply Hl; right; exact Hx|]. eapply nth_error_In, Hb.
  - eapply (IH _ (fun x Hx => Hl x (or_intror Hx)) i j a b); [lia|exact Ha|exact Hb|exact Na].
Qed.
(** a new request with a rider which is answered from the cache: the commands are not carried out *)
Theorem rider_cached_refuted (w : world R C) cur q ref k r : w_abort w 0 = false -> w_lookup w = LHit k r -> isNew cur q -> w_rider w = true ->
  o_acts (exec w cur q ref) = [] /\ o_cur (exec w cur q ref) = cur.
Proof. intros A L _ _. unfold execute. rewrite A, L. split; reflexivity. Qed.

(** ** What a call does and returns (C155) *)
Theorem execute_calls (w : world R C) cur q ref :
  (polled w cur q -> filter isPoll (o_acts (exec w cur q ref)) = [APoll]) /\
  (~ polled w cur q -> filter isPoll (o_acts (exec w cur q ref)) = []) /\
  (computes w cur q /\ evaluates T q -> filter isGet (o_acts (exec w cur q ref)) = [AGetResult]) /\
  (~ (computes w cur q /\ evaluates T q) -> filter isGet (o_acts (exec w cur q ref)) = []) /\
  (computes w cur q /\ discovers T q -> filter isDiscover (o_acts (exec w cur q ref)) = [ADiscover]) /\
  (~ (computes w cur q /\ discovers T q) -> filter isDiscover (o_acts (exec w cur q ref)) = []).
Proof.
  destruct (processed_dec w) as [P|N].
  - assert (A : forall p, (forall c, p (ACommand c) = false) -> (forall c r, p (ACache c r) = false) -> p AError = false ->
      filter p (o_acts (exec w cur q ref)) = filter p (o_acts (rest re rm rf hasC setC T w cur q ref))).
    { intros p p1 p2 p3. rewrite exec_rest; [|exact P]. cbn [plus o_acts]. rewrite filter_app. unfold acts0. destruct (took w cur q); [|reflexivity].
      induction (fst (w_commands w)) as [|x l IH]; [reflexivity|]. cbn [map filter]. rewrite p1. exact IH. }
    rewrite !A; try reflexivity. rewrite !rest_acts; try reflexivity.
    destruct (code0 w cur q) as [k|] eqn:Ek.
    + destruct (w_active w) eqn:Ea.
      * pose proof (inEval_iff w cur q k P Ek Ea) as IE. rewrite <- IE, <- (evaluates_iff T q), <- (discovers_iff T q).
        assert (Po : polled w cur q) by (apply polled_iff; eauto).
        destruct (inEval w q k); destruct (0 <=? evalMode T (rq_type (a_id q))); destruct (rq_type (a_id q) =? DISCOVER_SPIDS T); cbn; intuition discriminate.
      * assert (NP : ~ polled w cur q) by (rewrite polled_iff; [intros [_ X]; congruence|exact P]).
        unfold computes. tauto.
    + assert (NP : ~ polled w cur q) by (rewrite polled_iff; [intros [[k X] _]; congruence|exact P]). unfold computes. tauto.
  - assert (NP : ~ polled w cur q) by (intros [X _]; contradiction). unfold computes.
    destruct (exec_not re rm rf hasC setC T w cur q ref N) as [[_ ->]|[(_ & _ & ->)|(k & r & _ & _ & ->)]]; cbn; tauto.
Qed.
Theorem execute_exceptions (w : world R C) cur q ref : (forall c r, w_cache w c r <> None) ->
  (In AError (o_acts (exec w cur q ref)) <-> throws T w cur q) /\
  (throws T w cur q -> exists l k c, o_acts (exec w cur q ref) = l ++ [AError; ACache k (Some rf)] /\ Z.land k RES_FAIL <> 0 /\
     w_cache w k (Some rf) = Some c /\ o_end (exec w cur q ref) = Returned (Z.lor c RES_UPDATED) (Some rf)).
Proof.
  intros H. pose proof (exec_err re rm rf hasC setC T w cur q ref H) as EE. split; [exact EE|]. intros Th.
  apply EE in Th. revert Th.
  assert (B : forall cu l k, exists l0 k0 c, o_acts (failed rf w cu l k) = l0 ++ [AError; ACache k0 (Some rf)] /\ Z.land k0 RES_FAIL <> 0 /\
     w_cache w k0 (Some rf) = Some c /\ o_end (failed rf w cu l k) = Returned (Z.lor c RES_UPDATED) (Some rf)).
  { intros cu l k. cbn [failed o_acts o_end]. destruct (w_cache w (Z.lor k RES_FAIL) (Some rf)) as [c|] eqn:E; [|destruct (H _ _ E)].
    exists l, (Z.lor k RES_FAIL), c. split; [reflexivity|]. split; [|auto]. rewrite Z.land_lor_distr_l. intros X. apply Z.lor_eq_0_iff in X. destruct X as [_ X]. discriminate. }
  pose (G := fun o : done R => In AError (o_acts o) -> exists l k c, o_acts o = l ++ [AError; ACache k (Some rf)] /\ Z.land k RES_FAIL <> 0 /\
     w_cache w k (Some rf) = Some c /\ o_end o = Returned (Z.lor c RES_UPDATED) (Some rf)).
  assert (GB : forall cu l k, G (failed rf w cu l k)) by (intros cu l k _; apply B).
  assert (GF : forall cu l k r, ~ In AError l -> G (finish rf w cu l k r)) by (intros cu l k r Nl X; apply err_fin in X; [contradiction|exact H]).
  assert (GC : forall cu l k r, ~ In AError l -> G (conclude re rf w cu l k r)) by (intros cu l k r Nl X; apply err_con in X; [contradiction|exact H]).
  assert (GS : forall cu l k r, ~ In AError l -> G (stop cu l k r)) by (intros cu l k r Nl X; contradiction).
  change (G (exec w cur q ref)). destruct (processed_dec w) as [P|N].
  - rewrite exec_processed; [|exact P].
    assert (N0 : forall t : list (act R), ~ In AError t -> ~ In AError (acts0 w cur q ++ t)).
    { intros t Nt X. apply in_app_or in X. destruct X as [X|X]; [|contradiction]. revert X. unfold acts0. destruct (took w cur q); [|intros []]. rewrite in_map_iff. intros (x & X & _). discriminate. }
    destruct (code0 w cur q) as [k|]; [|apply GB]. destruct (w_active w); [|apply GF; rewrite <- (app_nil_r (acts0 w cur q)); apply N0; intros []].
    assert (N1 : ~ In AError (acts0 w cur q ++ [APoll])) by (apply N0; intros [X|[]]; discriminate).
    assert (N2 : ~ In AError ((acts0 w cur q ++ [APoll]) ++ [AGetResult])) by (rewrite <- app_assoc; apply N0; intros [X|[X|[]]]; discriminate).
    assert (N3 : ~ In AError ((acts0 w cur q ++ [APoll]) ++ [ADiscover])) by (rewrite <- app_assoc; apply N0; intros [X|[X|[]]]; discriminate).
    unfold evaluate. destruct (w_poll w) as [[p r]|]; [|apply GB]. destruct (w_abort w 1); [apply GS, N1|]. destruct (has _ RES_WAIT); [apply GS, N1|].
    destruct (has _ RES_FAIL); [apply GF, N1|]. destruct (has _ RES_MISSING); [apply GF, N1|]. destruct (a_cells q) as [cl|]; [|apply GC, N1].
    destruct (w_childcells w) as [rc|]; [|apply GB]. destruct (0 <=? _).
    + destruct (w_get w) as [[kc r']|]; [|apply GB]. destruct (has kc RES_WAIT); [apply GS, N2|apply GC, N2].
    + destruct (_ =? _); [|apply GC, N1]. destruct (w_spids w) as [[kc r']|]; [apply GC, N3|apply GB].
  - destruct (exec_not re rm rf hasC setC T w cur q ref N) as [[_ ->]|[(_ & _ & ->)|(k & r & _ & _ & ->)]]; [apply GS; intros []|apply GB|apply GS; intros []].
Qed.
(** whatever is returned was put into the cache just before, or comes from it, or is WAIT or ABORT *)
Theorem execute_cached (w : world R C) cur q ref code r : o_end (exec w cur q ref) = Returned code r ->
  (exists k r', w_lookup w = LHit k r' /\ o_acts (exec w cur q ref) = [] /\ code = k /\ r = newer ref r') \/
  (filter isCache (o_acts (exec w cur q ref)) = [] /\ ((code = RES_ABORT /\ exists n, w_abort w n = true) \/ Z.land code RES_WAIT <> 0)) \/
  (exists l k c, o_acts (exec w cur q ref) = l ++ [ACache k r] /\ w_cache w k r = Some c /\ code = Z.lor c RES_UPDATED).
Proof.
  intros E. destruct (exec_leaves re rm rf hasC setC T w cur q ref) as [(k & r' & A & B & X)|[[U (k & r' & X & Y)]|[(l & k & r' & c & X1 & X2 & X3)|[X _]]]].
  - left. rewrite X in E |- *. injection E as <- <-. exists k, r'. auto.
  - right; left. split; [exact U|]. rewrite X in E. injection E as -> ->. destruct Y as [Y|Y]; [left; exact Y|right].
    unfold has in Y. apply negb_true_iff, Z.eqb_neq in Y. exact Y.
  - right; right. rewrite X3 in E. injection E as <- <-. exists l, k, c. auto.
  - congruence.
Qed.
(** the process is ended only if a fail cannot be put into the cache *)
Theorem execute_terminates (w : world R C) cur q ref : o_end (exec w cur q ref) = Terminated -> exists k, w_cache w k (Some rf) = None.
Proof.
  intros E. destruct (exec_leaves re rm rf hasC setC T w cur q ref) as [(k & r' & A & B & X)|[[U (k & r' & X & Y)]|[(l & k & r' & c & X1 & X2 & X3)|[X Y]]]].
  - rewrite X in E. discriminate.
  - congruence.
  - congruence.
  - exact Y.
Qed.
(** the codes and results of each case; the caller's reference is empty *)
Theorem execute_values (w : world R C) cur q : w_abort w 1 = false -> w_abort w 2 = false -> (forall c r, w_cache w c r <> None) ->
  let returns k r := exists l c, o_acts (exec w cur q None) = l ++ [ACache k r] /\ w_cache w k r = Some c /\ o_end (exec w cur q None) = Returned (Z.lor c RES_UPDATED) r in
  (forall k, processed w -> commandCode w cur q k -> w_active w = false -> returns k (Some re)) /\
  (forall k p r, polled w cur q -> commandCode w cur q k -> w_poll w = Some (p, r) -> let a := Z.lor (kept q k) p in
     (Z.land a RES_WAIT <> 0 -> o_end (exec w cur q None) = Returned a r) /\
     (Z.land a RES_WAIT = 0 -> Z.land a RES_FAIL <> 0 -> returns a r) /\
     (Z.land a RES_WAIT = 0 -> Z.land a RES_FAIL = 0 -> Z.land a RES_MISSING <> 0 -> returns a (Some rm)) /\
     (clean a -> a_cells q = None -> r = None -> returns (Z.lor a (w_deps w)) (Some re))) /\
  (forall p c x cl rc, computes w cur q -> evaluates T q -> w_poll w = Some (p, None) -> w_get w = Some (c, Some x) -> a_cells q = Some cl -> w_childcells w = Some rc ->
     let cells := match rc with Some d => d | None => cl end in
     Z.land c RES_WAIT = 0 -> returns (Z.lor (Z.lor p (w_deps w)) c) (Some (if hasC x then x else setC x cells))) /\
  (forall p c x, computes w cur q -> discovers T q -> w_poll w = Some (p, None) -> w_spids w = Some (c, Some x) ->
     returns (Z.lor (Z.lor p (w_deps w)) (Z.lor c (w_deps w))) (Some x)).
Proof.
  intros A1 A2 H. cbv zeta.
  assert (F : forall l cu m k r, exists l0 c, o_acts (plus l (finish rf w cu m k r)) = l0 ++ [ACache k r] /\ w_cache w k r = Some c /\ o_end (plus l (finish rf w cu m k r)) = Returned (Z.lor c RES_UPDATED) r).
  { intros l cu m k r. unfold finish. destruct (w_cache w k r) as [c|] eqn:E; [|destruct (H _ _ E)]. exists (l ++ m), c. cbn. rewrite app_assoc. auto. }
  assert (HW : forall a b, Z.land a b <> 0 -> has a b = true) by (intros a b X; unfold has; apply negb_true_iff, Z.eqb_neq, X).
  assert (HN : forall a b, Z.land a b = 0 -> has a b = false) by (intros a b X; apply has_iff, X).
  split; [|split; [|split]].
  - intros k P K A. rewrite exec_rest; [|exact P]. unfold rest. apply code0_iff in K; [|exact P]. rewrite K, A. apply F.
  - intros k p r (P & _ & A) K E. apply code0_iff in K; [|exact P]. rewrite exec_rest; [|exact P]. unfold rest. rewrite K, A.
    assert (G : Rid_Spec.kept q k = match a_cells q with Some _ => 0 | None => k end) by reflexivity.
    unfold evaluate. rewrite E, A1, <- G. set (a := Z.lor (Rid_Spec.kept q k) p). cbn [app].
    split; [|split; [|split]].
    + intros W. rewrite (HW _ _ W). cbn. destruct r; reflexivity.
    + intros W X. rewrite (HN _ _ W), (HW _ _ X). destruct r; apply F.
    + intros W X Y. rewrite (HN _ _ W), (HN _ _ X), (HW _ _ Y). apply F.
    + intros (W & X & Y) Ec ->. rewrite (HN _ _ W), (HN _ _ X), (HN _ _ Y), Ec. unfold conclude. rewrite A2. apply F.
  - intros p c x cl rc (Po & _ & _ & _ & p' & r' & E' & (C1 & C2 & C3)) Ev E G Ec Erc W. rewrite E in E'. injection E' as <- <-.
    destruct Po as (P & (k & K) & A). apply code0_iff in K; [|exact P]. rewrite exec_rest; [|exact P]. unfold rest. rewrite K, A. unfold evaluate. rewrite E, A1, Ec, Erc, G, Z.lor_0_l.
    apply evaluates_iff in Ev. rewrite Ev, (HN _ _ C1), (HN _ _ C2), (HN _ _ C3), (HN _ _ W). cbn [newer]. unfold conclude. rewrite A2. apply F.
  - intros p c x (Po & _ & Nc & Ncc & p' & r' & E' & (C1 & C2 & C3)) Dv E G. rewrite E in E'. injection E' as <- <-.
    destruct Po as (P & (k & K) & A). apply code0_iff in K; [|exact P]. rewrite exec_rest; [|exact P]. unfold rest. rewrite K, A. unfold evaluate. rewrite E, A1, G.
    destruct (a_cells q) as [cl|]; [|congruence]. destruct (w_childcells w) as [rc|]; [|congruence]. rewrite Z.lor_0_l.
    apply discovers_iff in Dv. destruct Dv as [D1 D2]. rewrite D1, D2, (HN _ _ C1), (HN _ _ C2), (HN _ _ C3). unfold conclude. rewrite A2. apply F.
Qed.
(** a reference left over by the caller is returned as the result of a request without cells *)
Theorem execute_stale_refuted (w : world R C) cur q p stale : processed w -> commandCode w cur q 0 -> w_active w = true -> a_cells q = None ->
  w_poll w = Some (p, None) -> clean p -> w_abort w 1 = false -> w_abort w 2 = false -> (forall c r, w_cache w c r <> None) ->
  exists code, o_end (exec w cur q (Some stale)) = Returned code (Some stale).
Proof.
  intros P K A Ec E (C1 & C2 & C3) A1 A2 H. apply code0_iff in K; [|exact P]. rewrite exec_rest; [|exact P]. unfold rest. rewrite K, A. unfold evaluate.
  rewrite E, A1, Ec, Z.lor_0_l. apply has_iff in C1, C2, C3. rewrite C1, C2, C3. unfold conclude. rewrite A2. unfold finish.
  destruct (w_cache w _ (full re (newer (Some stale) None))) as [c|] eqn:X; [|destruct (H _ _ X)]. eexists. reflexivity.
Qed.
(** a fail returned by getResult() is not reported *)
Theorem execute_fails_posted_refuted (w : world R C) cur q ref c r : computes w cur q -> evaluates T q -> w_get w = Some (c, r) -> Z.land c RES_FAIL <> 0 ->
  (forall k r, w_cache w k r <> None) -> ~ In AError (o_acts (exec w cur q ref)).
Proof.
  intros Co Ev G _ H X. apply exec_err in X; [|exact H]. destruct Co as (Po & A1 & Nc & Ncc & p & r' & E & Cl). assert (Po' := Po). destruct Po' as ((P1 & P2) & (k & K) & A).
  destruct X as [[_ X]|[[X Y]|[[_ X]|[[_ X]|[(_ & _ & X)|(_ & [X _] & _)]]]]]; try congruence; [|contradiction].
  destruct K as [K _]. rewrite (K X) in Y. discriminate.
Qed.
End Execute.
Print Assumptions execute_commands.
Print Assumptions execute_commands_once.
Print Assumptions rider_cached_refuted.
Print Assumptions execute_calls.
Print Assumptions execute_exceptions.
Print Assumptions execute_cached.
Print Assumptions execute_terminates.
Print Assumptions execute_values.
Print Assumptions execute_stale_refuted.
Print Assumptions execute_fails_posted_refuted.

(** ** A node at work: results are numbers, cells too *)
Definition exT : rtypes := {| EVAL := 11; EVAL_SINGLE := 12; EVAL_DOUBLE := 13; DISCOVER_SPIDS := 14; PARM_UPDATE := 15 |}.
Definition exWorld (get : option (Z * option Z)) : world Z Z :=
  {| w_abort := fun _ => false; w_lookup := LMiss; w_rider := true; w_commands := processRequestRider exW exPc exHeap exNode exQ; w_active := true;
     w_poll := Some (256, None); w_deps := 3; w_childcells := Some None; w_get := get; w_spids := Some (5, Some 60); w_cache := fun c _ => Some c |}.
Definition exRun := execute (R := Z) (C := Z) 0 (-1) (-2) (fun r => r <? 10) (fun r c => 10 * r + c) exT.
Example execute_ex :
  exRun (exWorld (Some (8, Some 42))) None {| a_id := [11; 1]; a_cells := Some 7 |} None =
    {| o_cur := Some [11; 1]; o_acts := map ACommand (fst (processRequestRider exW exPc exHeap exNode exQ)) ++ [APoll; AGetResult; ACache 267 (Some 427)];
       o_end := Returned (267 + RES_UPDATED) (Some 427) |}.
Proof. vm_compute. reflexivity. Qed.
Example execute_ex_throw :
  exRun (exWorld None) (Some [11; 1]) {| a_id := [11; 1]; a_cells := Some 7 |} None =
    {| o_cur := Some [11; 1]; o_acts := [APoll; AGetResult; AError; ACache (259 + RES_FAIL) (Some (-2))]; o_end := Returned (259 + RES_FAIL + RES_UPDATED) (Some (-2)) |}.
Proof. vm_compute. reflexivity. Qed.
Example execute_ex_discover :
  o_acts (exRun (exWorld None) (Some [14; 1]) {| a_id := [14; 1]; a_cells := Some 7 |} None) = [APoll; ADiscover; ACache 263 (Some 60)].
Proof. vm_compute. reflexivity. Qed.
Example execute_ex_once :
  map (fun o => length (filter isCommandAct (o_acts o)))
      (calls exRun None [(exWorld None, {| a_id := [11; 1]; a_cells := None |}, None); (exWorld None, {| a_id := [11; 1]; a_cells := Some 7 |}, None);
                         (exWorld None, {| a_id := [11; 2]; a_cells := Some 7 |}, None)]) = [4; 0; 4]%nat.
Proof. vm_compute. reflexivity. Qed.
