(** ReqSeq and ReqMux: C156-C157. *)
From Verif Require Import Base Hiid_Model Rqid_Model Rqid_Spec Poll_Model Poll_Spec Poll_Proofs Ncache_Model Ncache_Proofs Rid_Model Rid_Spec Rid_Proofs3 Rid_Thms Rsq_Model Rsq_Spec Rsq_Proofs.
Local Open Scope Z_scope.
Open Scope list_scope.

Section Seq.
Context {R C : Type}.
Variables (child : nat -> list Z -> option (Z * option R)) (aborted : nat -> bool).
Notation hasC q := (match a_cells q with Some _ => true | None => false end).

(** which children are asked, with which ids, what is kept, and what pollChildren() returns *)
Theorem seq_polls (cf : seqcfg) std cells id st : 0 <= s_mask cf < 2 ^ 31 -> (s_cellsOnly cf = true -> cells = true) ->
  let p := seq_poll child aborted cf std cells id st in
  let kept k := if cells && Nat.ltb (s_which cf) k then fun ids => match child (s_which cf) (ids (s_which cf)) with Some (_, r) => r | None => t_result st end else fun _ => t_result st in
  exists ids : nat -> list Z, numbered (s_mask cf) id ids /\ (s_mask cf = 0 -> forall i, ids i = id) /\
  ((forall i, (i < s_children cf)%nat -> proceeds child aborted cf ids i) ->
     p_calls p = sent ids (s_children cf) /\ p_code p = Some 0 /\ p_ref p = None /\ p_step p = Some (ids (pred (s_children cf))) /\
     together child cf ids (s_children cf) (t_code (p_st p)) /\ t_result (p_st p) = kept (s_children cf) ids) /\
  (forall k, (k < s_children cf)%nat -> (forall i, (i < k)%nat -> proceeds child aborted cf ids i) -> ~ proceeds child aborted cf ids k ->
     p_step p = None /\ together child cf ids k (t_code (p_st p)) /\ t_result (p_st p) = kept k ids /\
     (child k (ids k) = None -> p_calls p = sent ids k /\ p_code p = None) /\
     (forall c r, child k (ids k) = Some (c, r) -> p_calls p = sent ids (S k) /\
        (aborted k = true -> p_code p = Some RES_ABORT /\ p_ref p = None) /\
        (aborted k = false -> Z.testbit c bWAIT = true -> p_code p = Some (t_code (p_st p)) /\ p_ref p = None) /\
        (aborted k = false -> Z.testbit c bWAIT = false -> s_failIgnore cf = false -> Z.testbit c bFAIL = true ->
           p_code p = Some (Z.lor (t_code (p_st p)) c) /\ p_ref p = r) /\
        (aborted k = false -> Z.testbit c bWAIT = false -> (s_failIgnore cf = true \/ Z.testbit c bFAIL = false) ->
           p_code p = Some (Z.lor (t_code (p_st p)) (if Nat.eqb k (s_which cf) then c else Z.ldiff c RES_FAIL)) /\ p_ref p = r))).
Proof.
  intros Hm Hc p kept. exists (idsOf (s_mask cf) id). set (ids := idsOf (s_mask cf) id).
  split; [apply idsOf_numbered, Hm|]. split; [intros E i; unfold ids; rewrite E; apply idsOf_0|].
  set (st0 := {| t_result := t_result st; t_code := 0 |}).
  assert (Ep : p = seq_loop child aborted cf cells (s_children cf) 0 (ids (pred 0)) st0 []).
  { unfold p, seq_poll. destruct (s_cellsOnly cf) eqn:X; cbn [andb]; [rewrite (Hc eq_refl)|]; reflexivity. }
  assert (K : forall k, t_result (fold_left (after1 child cf cells id) (seq 0 k) st0) = kept k ids).
  { intros k. rewrite after_result. unfold kept. cbn [Nat.leb Nat.add andb]. destruct (cells && Nat.ltb (s_which cf) k); reflexivity. }
  assert (T : forall k, together child cf ids k (t_code (fold_left (after1 child cf cells id) (seq 0 k) st0))).
  { intros k b Hb. rewrite after_code by exact Hb. cbn [st0 t_code]. rewrite Z.bits_0. split.
    - intros [H|(j & c & r & H0 & H)]; [discriminate|]. exists j, c, r. split; [lia|exact H].
    - intros (j & c & r & H0 & H). right. exists j, c, r. split; [lia|exact H]. }
  split.
  - intros H. rewrite Ep. unfold ids.
    assert (L := loop_skip child aborted cf cells id (s_children cf) 0 0 st0 []). rewrite Nat.add_0_r in L. cbn [Nat.add app] in L.
    rewrite L; [|intros j Hj; apply H; lia]. cbn [seq_loop p_calls p_code p_ref p_step p_st].
    split; [reflexivity|]. split; [reflexivity|]. split; [reflexivity|]. split; [reflexivity|]. split; [apply T|apply K].
  - intros k Hk H N. assert (En : s_children cf = (k + S (s_children cf - S k))%nat) by lia.
    rewrite Ep, En. unfold ids. rewrite (loop_skip child aborted cf cells id k); [|intros j Hj; apply H; lia].
    cbn [Nat.add app]. set (st1 := fold_left (after1 child cf cells id) (seq 0 k) st0). cbn [seq_loop]. rewrite idsOf_step. fold ids.
    change (map (fun j : nat => (j, ids j)) (seq 0 k)) with (sent ids k).
    assert (Sk : sent ids (S k) = sent ids k ++ [(k, ids k)]) by (unfold sent; rewrite seq_S, map_app; reflexivity).
    specialize (K k). specialize (T k). fold st1 in K, T. destruct (child k (ids k)) as [[c r]|] eqn:E.
    + assert (Q : forall c0 r0, Some (c, r) = Some (c0, r0) -> c0 = c /\ r0 = r) by (intros ? ? X; injection X; auto).
      destruct (aborted k) eqn:A; [|rewrite wait_bit; destruct (Z.testbit c bWAIT) eqn:W; [|unfold sift; rewrite fail_bit; destruct (Z.testbit c bFAIL) eqn:F; [destruct (s_failIgnore cf) eqn:I|]]].
      1,2,4: cbn [p_step p_st p_code p_calls p_ref]; split; [reflexivity|]; split; [exact T|]; split; [exact K|]; split; [discriminate|]; intros c0 r0 X; destruct (Q _ _ X) as [-> ->];
        split; [symmetry; exact Sk|]; split; [try discriminate; auto|]; split; [try congruence; auto|]; split; [try congruence; auto|]; intros; try congruence; destruct H2; congruence.
      all: set (c1 := if Nat.eqb k (s_which cf) then c else Z.ldiff c RES_FAIL) in *;
        assert (M1 : has c1 RES_MISSING = Z.testbit c bMISSING) by (rewrite miss_bit; unfold c1; destruct (Nat.eqb k (s_which cf)); [reflexivity|]; rewrite Z.ldiff_spec; change (Z.testbit RES_FAIL bMISSING) with false; apply andb_true_r);
        assert (M2 : Z.testbit c bMISSING = true /\ s_missIgnore cf = false) by
          (destruct (Z.testbit c bMISSING) eqn:M; [split; [reflexivity|]; destruct (s_missIgnore cf) eqn:MI; [|reflexivity]|]; destruct N; exists c, r; (split; [exact E|]); (split; [exact A|]); (split; [exact W|]); (split; intros Y; congruence)).
      * rewrite M1. destruct M2 as [-> ->]. cbn [p_step p_st p_code p_calls p_ref].
        split; [reflexivity|]. split; [exact T|]. split; [exact K|]. split; [discriminate|]. intros c0 r0 X. destruct (Q _ _ X) as [-> ->].
        split; [symmetry; exact Sk|]. split; [congruence|]. split; [congruence|]. split; [congruence|]. intros; auto.
      * assert (Ec1 : c1 = c).
        { unfold c1. destruct (Nat.eqb k (s_which cf)); [reflexivity|]. apply Z.bits_inj'. intros n Hn. rewrite Z.ldiff_spec. change RES_FAIL with (2 ^ bFAIL). rewrite Z.pow2_bits_eqb by discriminate.
          destruct (Z.eqb_spec bFAIL n) as [<-|]; [rewrite F; reflexivity|apply andb_true_r]. }
        rewrite Ec1 in *. rewrite M1. destruct M2 as [-> ->]. cbn [p_step p_st p_code p_calls p_ref].
        split; [reflexivity|]. split; [exact T|]. split; [exact K|]. split; [discriminate|]. intros c0 r0 X. destruct (Q _ _ X) as [-> ->].
        fold c1. rewrite Ec1. split; [symmetry; exact Sk|]. split; [congruence|]. split; [congruence|]. split; [congruence|]. intros; auto.
    + cbn [p_step p_st p_code p_calls p_ref]. split; [reflexivity|]. split; [exact T|]. split; [exact K|]. split; [|discriminate].
      intros _. rewrite removelast_last. auto.
Qed.
Variables (re rm rf : R) (hasCl : R -> bool) (setC : R -> C -> R) (T : rtypes).
Notation exec := (seq_execute child aborted re rm rf hasCl setC T).
Lemma exists_filter {A} (f : A -> bool) l : existsb f l = match filter f l with [] => false | _ => true end.
Proof. induction l as [|x l IH]; [reflexivity|]. cbn. destruct (f x); [reflexivity|exact IH]. Qed.
Lemma exec_state cf std st (w : world R C) cur q p : p = seq_poll child aborted cf std (hasC q) (a_id q) st ->
  let o := execute re rm rf hasCl setC T (seq_world w p) cur q None in
  exec cf std st w cur q =
  (o, match filter isGet (o_acts o) with [] => match filter isDiscover (o_acts o) with [] => match filter isPoll (o_acts o) with [] => st | _ => p_st p end
                                               | _ => snd (seq_discoverSpids (p_st p)) end
      | _ => snd (seq_getResult (p_st p)) end).
Proof.
  intros -> o. unfold seq_execute. fold o. f_equal.
  change (fun a : act R => match a with AGetResult => true | _ => false end) with (@isGet R).
  change (fun a : act R => match a with ADiscover => true | _ => false end) with (@isDiscover R).
  change (fun a : act R => match a with APoll => true | _ => false end) with (@isPoll R).
  rewrite !exists_filter. destruct (filter (@isGet R) (o_acts o)), (filter (@isDiscover R) (o_acts o)), (filter (@isPoll R) (o_acts o)); reflexivity.
Qed.
Lemma together_wait cf ids n code : together child cf ids n code -> (forall i, (i < n)%nat -> proceeds child aborted cf ids i) -> Z.land code RES_WAIT = 0.
Proof.
  intros To H. apply has_iff. rewrite wait_bit. destruct (Z.testbit code bWAIT) eqn:E; [|reflexivity].
  apply To in E; [|discriminate]. destruct E as (i & c & r & Hi & Ei & Eb & _). destruct (H i Hi) as (c' & r' & E' & _ & W & _). congruence.
Qed.

(** a request with cells: the result of the selected child, the codes of all *)
Theorem seq_results (cf : seqcfg) std st (w : world R C) cur q cl : 0 <= s_mask cf < 2 ^ 31 -> (s_which cf < s_children cf)%nat ->
  polled w cur q -> w_abort w 1 = false -> w_abort w 2 = false -> (forall c r, w_cache w c r <> None) -> a_cells q = Some cl ->
  exists ids, numbered (s_mask cf) (a_id q) ids /\ (s_mask cf = 0 -> forall i, ids i = a_id q) /\
  forall c x, (forall i, (i < s_children cf)%nat -> proceeds child aborted cf ids i) -> child (s_which cf) (ids (s_which cf)) = Some (c, Some x) ->
  let o := exec cf std st w cur q in
  exists code, together child cf ids (s_children cf) code /\
    let returns k r := exists c, w_cache w k (Some r) = Some c /\ o_end (fst o) = Returned (Z.lor c RES_UPDATED) (Some r) in
    (evaluates T q -> returns (Z.lor (w_deps w) code) (if hasCl x then x else setC x cl) /\ t_result (snd o) = None) /\
    (discovers T q -> returns (Z.lor (w_deps w) code) x /\ t_result (snd o) = None) /\
    (~ evaluates T q -> ~ discovers T q -> returns (w_deps w) re /\ t_result (snd o) = Some x).
Proof.
  intros Hm Hw Po A1 A2 H Ec. set (p := seq_poll child aborted cf std (hasC q) (a_id q) st).
  destruct (seq_polls cf std (hasC q) (a_id q) st Hm ltac:(intros _; rewrite Ec; reflexivity)) as (ids & N & N0 & All & _).
  exists ids. split; [exact N|]. split; [exact N0|]. intros c x G Ex. destruct (All G) as (_ & Pc & Pr & _ & To & Re). fold p in Pc, Pr, To, Re.
  rewrite Ec in Re. cbn [andb] in Re. apply Nat.ltb_lt in Hw. rewrite Hw, Ex in Re.
  cbv zeta. rewrite (exec_state cf std st w cur q p eq_refl). cbn [fst snd]. exists (t_code (p_st p)). split; [exact To|].
  set (w' := seq_world w p).
  assert (Ep : w_poll w' = Some (0, None)) by (cbn [w' seq_world w_poll]; rewrite Pc, Pr; reflexivity).
  assert (Cp : computes w' cur q).
  { split; [exact Po|]. split; [exact A1|]. split; [rewrite Ec; discriminate|]. split; [discriminate|]. exists 0, None. split; [exact Ep|]. repeat split. }
  destruct (execute_values re rm rf hasCl setC T w' cur q A1 A2 H) as (_ & _ & V3 & V4).
  destruct (execute_calls re rm rf hasCl setC T w' cur q None) as (F1 & _ & F3 & F4 & F5 & F6).
  set (o := execute re rm rf hasCl setC T w' cur q None) in *.
  assert (W := together_wait cf ids _ _ To G).
  split; [|split].
  - intros Ev. rewrite (F3 (conj Cp Ev)). unfold seq_getResult. rewrite Re. cbn [snd t_result]. split; [|reflexivity].
    destruct (V3 0 (t_code (p_st p)) x cl None Cp Ev Ep) as (l & k & _ & Ek & Eo); [cbn [w' seq_world w_get]; unfold seq_getResult; rewrite Re; reflexivity|exact Ec|reflexivity|exact W|].
    rewrite Z.lor_0_l in Ek. exists k. split; assumption.
  - intros Di. rewrite F4 by (intros [_ Ev]; apply Di, Ev). rewrite (F5 (conj Cp Di)). unfold seq_discoverSpids. cbn [snd t_result]. split; [|reflexivity].
    destruct (V4 0 (t_code (p_st p)) x Cp Di Ep) as (l & k & _ & Ek & Eo); [cbn [w' seq_world w_spids]; unfold seq_discoverSpids; rewrite Re; reflexivity|].
    rewrite Z.lor_0_l, (Z.lor_comm (t_code _)), Z.lor_assoc, Z.lor_diag in Ek. exists k. split; assumption.
  - intros NE ND. rewrite F4 by (intros [_ Ev]; exact (NE Ev)). rewrite F6 by (intros [_ Di]; exact (ND Di)). rewrite (F1 Po). cbn [snd]. split; [|exact Re].
    clear V3 V4 F1 F3 F4 F5 F6. subst o. destruct Po as (P & (k & K) & A). rewrite exec_rest; [|exact P]. apply code0_iff in K; [|exact P]. unfold rest.
    change (code0 w' cur q) with (code0 w cur q). rewrite K. change (w_active w') with (w_active w). rewrite A. unfold evaluate. rewrite Ep, Ec. change (w_abort w' 1) with (w_abort w 1). rewrite A1. cbn [Z.lor].
    change (has 0 RES_WAIT) with false. change (has 0 RES_FAIL) with false. change (has 0 RES_MISSING) with false. cbn match. cbn [w_childcells w' seq_world].
    destruct (0 <=? evalMode T (rq_type (a_id q))) eqn:E1; [destruct NE; unfold evaluates; apply Z.leb_le, E1|].
    destruct (rq_type (a_id q) =? DISCOVER_SPIDS T) eqn:E2; [destruct ND; split; [exact NE|apply Z.eqb_eq, E2]|].
    unfold conclude. change (w_abort w' 2) with (w_abort w 2). rewrite A2. unfold Rid_Model.finish. cbn [newer full w_cache w' seq_world w_deps].
    destruct (w_cache w (w_deps w) (Some re)) as [k'|] eqn:Ek; [|destruct (H _ _ Ek)]. exists k'. split; [reflexivity|]. reflexivity.
Qed.
(** a request without cells: the codes of the children are lost, even a fail of the selected child *)
Theorem seq_codes_refuted (cf : seqcfg) std st (w : world R C) cur q k : 0 <= s_mask cf < 2 ^ 31 -> s_cellsOnly cf = false ->
  polled w cur q -> commandCode w cur q k -> clean k -> w_abort w 1 = false -> w_abort w 2 = false -> (forall c r, w_cache w c r <> None) -> a_cells q = None ->
  exists ids, numbered (s_mask cf) (a_id q) ids /\
  ((forall i, (i < s_children cf)%nat -> proceeds child aborted cf ids i) ->
   exists c, w_cache w (Z.lor k (w_deps w)) (Some re) = Some c /\ o_end (fst (exec cf std st w cur q)) = Returned (Z.lor c RES_UPDATED) (Some re)).
Proof.
  intros Hm Hc Po K Cl A1 A2 H Ec. set (p := seq_poll child aborted cf std (hasC q) (a_id q) st).
  destruct (seq_polls cf std (hasC q) (a_id q) st Hm ltac:(intros X; congruence)) as (ids & N & _ & All & _).
  exists ids. split; [exact N|]. intros G. destruct (All G) as (_ & Pc & Pr & _). fold p in Pc, Pr.
  rewrite (exec_state cf std st w cur q p eq_refl). cbn [fst]. set (w' := seq_world w p).
  assert (Ep : w_poll w' = Some (0, None)) by (cbn [w' seq_world w_poll]; rewrite Pc, Pr; reflexivity).
  destruct (execute_values re rm rf hasCl setC T w' cur q A1 A2 H) as (_ & V2 & _).
  destruct (V2 k 0 None Po K Ep) as (_ & _ & _ & V). unfold Rid_Spec.kept in V. rewrite Ec, Z.lor_0_r in V.
  destruct (V Cl eq_refl eq_refl) as (l & c & _ & Ek & Eo). exists c. split; [exact Ek|exact Eo].
Qed.
(** a child that asks to wait before the selected one is reached: the node does not wait, but fails, or returns the result of an earlier request *)
Theorem seq_wait_refuted (cf : seqcfg) std st (w : world R C) cur q cl : 0 <= s_mask cf < 2 ^ 31 ->
  polled w cur q -> w_abort w 1 = false -> w_abort w 2 = false -> (forall c r, w_cache w c r <> None) -> a_cells q = Some cl -> evaluates T q ->
  exists ids, numbered (s_mask cf) (a_id q) ids /\
  forall j c r, (j < s_children cf)%nat -> (j <= s_which cf)%nat -> (forall i, (i < j)%nat -> proceeds child aborted cf ids i) ->
    child j (ids j) = Some (c, r) -> aborted j = false -> Z.testbit c bWAIT = true ->
  exists code, match t_result st with
               | Some old => o_end (fst (exec cf std st w cur q)) = Returned code (Some (if hasCl old then old else setC old cl))
               | None => o_end (fst (exec cf std st w cur q)) = Returned code (Some rf)
               end.
Proof.
  intros Hm Po A1 A2 H Ec Ev. set (p := seq_poll child aborted cf std (hasC q) (a_id q) st).
  destruct (seq_polls cf std (hasC q) (a_id q) st Hm ltac:(intros _; rewrite Ec; reflexivity)) as (ids & N & _ & _ & St).
  exists ids. split; [exact N|]. intros j c r Hj Hw G Ej Aj Wj.
  destruct (St j Hj G) as (_ & To & Re & _ & Q); [intros (c' & r' & E' & _ & W' & _); congruence|]. fold p in To, Re, Q.
  destruct (Q c r Ej) as (_ & _ & Q1 & _). destruct (Q1 Aj Wj) as [Pc Pr]. clear Q Q1.
  assert (Hlt : Nat.ltb (s_which cf) j = false) by (apply Nat.ltb_ge; exact Hw). rewrite Hlt, andb_false_r in Re.
  rewrite (exec_state cf std st w cur q p eq_refl). cbn [fst]. set (w' := seq_world w p).
  assert (Ep : w_poll w' = Some (t_code (p_st p), None)) by (cbn [w' seq_world w_poll]; rewrite Pc, Pr; reflexivity).
  assert (W := together_wait cf ids _ _ To G).
  assert (Cl : clean (t_code (p_st p))).
  { split; [exact W|].
    assert (X : forall b, 0 <= b -> b = bFAIL \/ b = bMISSING -> Z.testbit (t_code (p_st p)) b = false).
    { intros b Hb Hbb. destruct (Z.testbit (t_code (p_st p)) b) eqn:E; [|reflexivity]. apply To in E; [|exact Hb].
      destruct E as (i & ci & ri & Hi & _ & _ & Hi'). specialize (Hi' Hbb). lia. }
    split; apply has_iff; [rewrite fail_bit|rewrite miss_bit]; apply X; try discriminate; [left|right]; reflexivity. }
  assert (Cp : computes w' cur q).
  { split; [exact Po|]. split; [exact A1|]. split; [rewrite Ec; discriminate|]. split; [discriminate|]. exists (t_code (p_st p)), None. split; [exact Ep|exact Cl]. }
  destruct (t_result st) as [old|].
  - destruct (execute_values re rm rf hasCl setC T w' cur q A1 A2 H) as (_ & _ & V3 & _).
    destruct (V3 (t_code (p_st p)) (t_code (p_st p)) old cl None Cp Ev Ep) as (l & k & _ & _ & Eo); [cbn [w' seq_world w_get]; unfold seq_getResult; rewrite Re; reflexivity|exact Ec|reflexivity|exact W|].
    eexists. exact Eo.
  - destruct (execute_exceptions re rm rf hasCl setC T w' cur q None H) as [_ X].
    destruct X as (l & k & c' & _ & _ & _ & Eo).
    + right; right; right; right; left. split; [exact Cp|]. split; [exact Ev|]. cbn [w' seq_world w_get]. unfold seq_getResult. rewrite Re. reflexivity.
    + eexists. exact Eo.
Qed.
End Seq.
Print Assumptions seq_polls.
Print Assumptions seq_results.
Print Assumptions seq_codes_refuted.
Print Assumptions seq_wait_refuted.

Section Mux.
Context {R C F : Type}.
Variables (fails_of : R -> list F) (mkfail : list F -> R).
Variables (re rm rf : R) (hasCl : R -> bool) (setC : R -> C -> R) (T : rtypes).
Notation exec w cur q := (execute re rm rf hasCl setC T w cur q None).
Lemma has_or c a b : has c (Z.lor a b) = has c a || has c b.
Proof.
  unfold has. rewrite Z.land_lor_distr_r. destruct (Z.eqb_spec (Z.land c a) 0) as [->|Ha].
  - rewrite Z.lor_0_l. reflexivity.
  - cbn [negb orb]. apply negb_true_iff, Z.eqb_neq. intros X. apply Z.lor_eq_0_iff in X. apply Ha, X.
Qed.
Lemma mux_gets cf (child : nat -> Z * R) g i : Poll_Spec.quiet cf (fun i => fst (child i)) -> In i (c_order cf) ->
  g_code (mux_got cf child g) i = (if c_enabled cf i then fst (child i) else 0) /\
  g_res (mux_got cf child g) i = (if c_enabled cf i then Some (snd (child i)) else g_res g i).
Proof.
  intros Q Hi. unfold mux_got. rewrite st_loop_quiet by exact Q. rewrite loop_code, loop_res. split.
  - assert (X : inb i (c_order cf) = true) by (apply inb_in; exact Hi). rewrite X. reflexivity.
  - destruct (c_enabled cf i) eqn:E.
    + assert (X : inb i (filter (c_enabled cf) (c_order cf)) = true) by (apply inb_in, filter_In; split; assumption). rewrite X. reflexivity.
    + destruct (inb i (filter (c_enabled cf) (c_order cf))) eqn:X; [|reflexivity]. apply inb_in, filter_In in X. destruct X as [_ X]. congruence.
Qed.
Lemma mux_poll_ignore cf which (child : nat -> Z * R) g : c_fail cf = PolIgnore -> c_missing cf = PolIgnore -> Poll_Spec.quiet cf (fun i => fst (child i)) -> In which (c_order cf) ->
  mux_poll fails_of mkfail cf which child g = (if c_enabled cf which then fst (child which) else 0, None).
Proof.
  intros Pf Pm Q Hi. unfold mux_poll, Poll_Model.finish. rewrite Pf, Pm. cbn [is_ignore option_map].
  set (c := Z.ldiff (Z.ldiff _ _) _).
  assert (X : has c (Z.lor RES_FAIL RES_MISSING) = false).
  { rewrite has_or, fail_bit, miss_bit. unfold c. rewrite !Z.ldiff_spec. change (Z.testbit RES_FAIL bFAIL) with true. change (Z.testbit RES_MISSING bMISSING) with true. cbn [negb]. rewrite !andb_false_r. reflexivity. }
  rewrite X. f_equal. apply mux_gets; assumption.
Qed.

(** errors ignored: the answer of the selected child, whatever the others say *)
Theorem mux_results (w : world R C) cf which (child : nat -> Z * R) g cur q cl : c_fail cf = PolIgnore -> c_missing cf = PolIgnore ->
  Poll_Spec.quiet cf (fun i => fst (child i)) -> In which (c_order cf) -> c_enabled cf which = true ->
  polled w cur q -> w_abort w 1 = false -> w_abort w 2 = false -> (forall c r, w_cache w c r <> None) -> a_cells q = Some cl -> w_childcells w <> None ->
  let (code, x) := child which in
  let o := exec (mux_world fails_of mkfail w cf which child g) cur q in
  let returns k r := exists c, w_cache w k (Some r) = Some c /\ o_end o = Returned (Z.lor c RES_UPDATED) (Some r) in
  (clean code -> evaluates T q -> exists cells, w_childcells w = Some cells /\
     returns (Z.lor code (w_deps w)) (if hasCl x then x else setC x (match cells with Some d => d | None => cl end))) /\
  (clean code -> discovers T q -> returns (Z.lor code (w_deps w)) x) /\
  (Z.land code RES_WAIT <> 0 -> o_end o = Returned code None) /\
  (Z.land code RES_WAIT = 0 -> Z.land code RES_FAIL = 0 -> Z.land code RES_MISSING <> 0 -> returns code rm).
Proof.
  intros Pf Pm Q Hi He Po A1 A2 H Ec Cc. destruct (child which) as [code x] eqn:E. cbv zeta.
  set (w' := mux_world fails_of mkfail w cf which child g).
  destruct (mux_gets cf child g which Q Hi) as [_ Er]. rewrite He, E in Er. cbn [snd] in Er.
  assert (Ep : w_poll w' = Some (code, None)) by (cbn [w' mux_world w_poll]; rewrite mux_poll_ignore by assumption; rewrite He, E; reflexivity).
  assert (Eg : w_get w' = Some (0, Some x)) by (cbn [w' mux_world w_get]; rewrite Er; reflexivity).
  assert (Es : w_spids w' = Some (0, Some x)) by (cbn [w' mux_world w_spids]; rewrite Er; reflexivity).
  assert (Cp : clean code -> computes w' cur q).
  { intros Cl. split; [exact Po|]. split; [exact A1|]. split; [rewrite Ec; discriminate|]. split; [exact Cc|]. exists code, None. split; [exact Ep|exact Cl]. }
  destruct (execute_values re rm rf hasCl setC T w' cur q A1 A2 H) as (_ & V2 & V3 & V4).
  destruct Po as (P & (k & K) & A). destruct (V2 k code None (conj P (conj (ex_intro _ k K) A)) K Ep) as (W1 & _ & W3 & _). unfold Rid_Spec.kept in W1, W3. rewrite Ec, Z.lor_0_l in W1, W3.
  split; [|split; [|split]].
  - intros Cl Ev. destruct (w_childcells w) as [rc|] eqn:Erc; [|congruence]. exists rc. split; [reflexivity|].
    destruct (V3 code 0 x cl rc (Cp Cl) Ev Ep Eg Ec Erc eq_refl) as (l & c & _ & Ek & Eo). rewrite Z.lor_0_r in Ek. exists c. split; [exact Ek|exact Eo].
  - intros Cl Di. destruct (V4 code 0 x (Cp Cl) Di Ep Es) as (l & c & _ & Ek & Eo). rewrite Z.lor_0_l, <- Z.lor_assoc, Z.lor_diag in Ek. exists c. split; [exact Ek|exact Eo].
  - exact W1.
  - intros X1 X2 X3. destruct (W3 X1 X2 X3) as (l & c & _ & Ek & Eo). exists c. split; [exact Ek|exact Eo].
Qed.
(** a fail of the selected child is returned without a result: its message is lost *)
Theorem mux_fail_refuted (w : world R C) cf which (child : nat -> Z * R) g cur q cl : c_fail cf = PolIgnore -> c_missing cf = PolIgnore ->
  Poll_Spec.quiet cf (fun i => fst (child i)) -> In which (c_order cf) -> c_enabled cf which = true ->
  polled w cur q -> w_abort w 1 = false -> w_abort w 2 = false -> (forall c r, w_cache w c r <> None) -> a_cells q = Some cl ->
  Z.land (fst (child which)) RES_WAIT = 0 -> Z.land (fst (child which)) RES_FAIL <> 0 ->
  exists c, w_cache w (fst (child which)) None = Some c /\
    o_end (exec (mux_world fails_of mkfail w cf which child g) cur q) = Returned (Z.lor c RES_UPDATED) None.
Proof.
  intros Pf Pm Q Hi He Po A1 A2 H Ec X1 X2. set (w' := mux_world fails_of mkfail w cf which child g).
  assert (Ep : w_poll w' = Some (fst (child which), None)) by (cbn [w' mux_world w_poll]; rewrite mux_poll_ignore by assumption; rewrite He; reflexivity).
  destruct (execute_values re rm rf hasCl setC T w' cur q A1 A2 H) as (_ & V2 & _).
  destruct Po as (P & (k & K) & A). destruct (V2 k (fst (child which)) None (conj P (conj (ex_intro _ k K) A)) K Ep) as (_ & W2 & _). unfold Rid_Spec.kept in W2. rewrite Ec, Z.lor_0_l in W2.
  destruct (W2 X1 X2) as (l & c & _ & Ek & Eo). exists c. split; [exact Ek|exact Eo].
Qed.
(** a selected child that is disabled: an empty result, and no error *)
Theorem mux_disabled (w : world R C) cf which (child : nat -> Z * R) g cur q cl : c_fail cf = PolIgnore -> c_missing cf = PolIgnore ->
  Poll_Spec.quiet cf (fun i => fst (child i)) -> In which (c_order cf) -> c_enabled cf which = false -> g_res g which = None ->
  polled w cur q -> w_abort w 1 = false -> w_abort w 2 = false -> (forall c r, w_cache w c r <> None) -> a_cells q = Some cl -> w_childcells w <> None ->
  exists c, w_cache w (w_deps w) (Some re) = Some c /\
    o_end (exec (mux_world fails_of mkfail w cf which child g) cur q) = Returned (Z.lor c RES_UPDATED) (Some re).
Proof.
  intros Pf Pm Q Hi He Eg (P & (k & K) & A) A1 A2 H Ec Cc. destruct (mux_gets cf child g which Q Hi) as [_ Er]. rewrite He, Eg in Er.
  set (w' := mux_world fails_of mkfail w cf which child g).
  assert (Ep : w_poll w' = Some (0, None)) by (cbn [w' mux_world w_poll]; rewrite mux_poll_ignore by assumption; rewrite He; reflexivity).
  assert (G : w_get w' = Some (0, None) /\ w_spids w' = Some (0, None)) by (cbn [w' mux_world w_get w_spids]; rewrite Er; auto). destruct G as [G1 G2].
  rewrite exec_rest; [|exact P]. apply code0_iff in K; [|exact P]. unfold rest. change (code0 w' cur q) with (code0 w cur q). rewrite K. change (w_active w') with (w_active w). rewrite A.
  unfold evaluate. rewrite Ep, Ec. change (w_abort w' 1) with (w_abort w 1). rewrite A1, G1, G2. cbn [Z.lor newer].
  change (has 0 RES_WAIT) with false. change (has 0 RES_FAIL) with false. change (has 0 RES_MISSING) with false. cbn match.
  change (w_childcells w') with (w_childcells w). destruct (w_childcells w) as [rc|]; [|congruence]. change (w_deps w') with (w_deps w). rewrite !Z.lor_0_r.
  unfold conclude. change (w_abort w' 2) with (w_abort w 2). rewrite A2.
  destruct (w_cache w (w_deps w) (Some re)) as [c|] eqn:Ek; [|destruct (H _ _ Ek)]. exists c. split; [reflexivity|].
  destruct (0 <=? evalMode T (rq_type (a_id q))); [|destruct (rq_type (a_id q) =? DISCOVER_SPIDS T); rewrite ?Z.lor_diag]; unfold Rid_Model.finish; cbn [full w_cache w' mux_world]; rewrite Ek; reflexivity.
Qed.
Lemma mux_cumul cf (child : nat -> Z * R) g : Poll_Spec.quiet cf (fun i => fst (child i)) ->
  forall b, 0 <= b -> Z.testbit (g_cumul (mux_got cf child g)) b = true <-> exists i, In i (c_order cf) /\ c_enabled cf i = true /\ Z.testbit (fst (child i)) b = true.
Proof.
  intros Q.
  assert (L : mux_got cf child g = fold_left (one cf child) (c_order cf) (no_fails g)) by (unfold mux_got; apply st_loop_quiet; exact Q).
  intros b Hb. rewrite L, loop_cumul. cbn [no_fails g_cumul].
    assert (Y : forall l z, Z.testbit (fold_left Z.lor (map (fun i => fst (child i)) l) z) b = true <-> Z.testbit z b = true \/ exists i, In i l /\ Z.testbit (fst (child i)) b = true).
    { induction l as [|i l IH]; intros z; cbn [map fold_left].
      - split; [intros X; left; exact X|]. intros [X|(i & [] & _)]. exact X.
      - rewrite IH, Z.lor_spec, orb_true_iff. split.
        + intros [[X|X]|(i' & X & Y)]; [left; exact X|right; exists i; split; [left; reflexivity|exact X]|right; exists i'; split; [right; exact X|exact Y]].
        + intros [X|(i' & [<-|X] & Y)]; [left; left; exact X|left; right; exact Y|right; exists i'; split; assumption]. }
    rewrite Y, Z.bits_0. split.
    - intros [X|(i & X & Z0)]; [discriminate|]. apply filter_In in X. exists i. split; [apply X|]. split; [apply X|exact Z0].
    - intros (i & X1 & X2 & X3). right. exists i. split; [apply filter_In; split; assumption|exact X3].
Qed.
(** errors collected: if any child fails, all fails are returned, whichever child is selected *)
Theorem mux_collects (w : world R C) cf which (child : nat -> Z * R) g cur q cl j : c_fail cf = PolCollect ->
  Poll_Spec.quiet cf (fun i => fst (child i)) -> In j (c_order cf) -> c_enabled cf j = true -> Z.land (fst (child j)) RES_FAIL <> 0 ->
  (forall i, Z.land (fst (child i)) RES_WAIT = 0) ->
  polled w cur q -> w_abort w 1 = false -> w_abort w 2 = false -> (forall c r, w_cache w c r <> None) -> a_cells q = Some cl ->
  exists code c, Z.land code RES_FAIL <> 0 /\
    let r := mkfail (flat_map (fun i => if c_enabled cf i && negb (Z.land (fst (child i)) RES_FAIL =? 0) then fails_of (snd (child i)) else []) (c_order cf)) in
    w_cache w code (Some r) = Some c /\ o_end (exec (mux_world fails_of mkfail w cf which child g) cur q) = Returned (Z.lor c RES_UPDATED) (Some r).
Proof.
  intros Pf Q Hj He Ef Wn Po A1 A2 H Ec. cbv zeta. set (r := mkfail _). set (w' := mux_world fails_of mkfail w cf which child g).
  assert (L : mux_got cf child g = fold_left (one cf child) (c_order cf) (no_fails g)) by (unfold mux_got; apply st_loop_quiet; exact Q).
  assert (Cu := mux_cumul cf child g Q).
  assert (Ff : flat_map fails_of (g_fails (mux_got cf child g)) = flat_map (fun i => if c_enabled cf i && negb (Z.land (fst (child i)) RES_FAIL =? 0) then fails_of (snd (child i)) else []) (c_order cf) /\ g_fails (mux_got cf child g) <> []).
  { rewrite L, loop_fails. cbn [no_fails g_fails app]. split.
    - clear. induction (c_order cf) as [|i l IH]; [reflexivity|]. cbn [filter flat_map]. destruct (c_enabled cf i); cbn [andb filter app]; [|exact IH].
      unfold has at 1. destruct (negb (Z.land (fst (child i)) RES_FAIL =? 0)); cbn [map flat_map app]; rewrite IH; reflexivity.
    - intros X. assert (In (snd (child j)) []); [|contradiction]. rewrite <- X. apply (in_map (fun i => snd (child i))). apply filter_In. split; [apply filter_In; split; assumption|].
      unfold has. apply negb_true_iff, Z.eqb_neq, Ef. }
  destruct Ff as [Ff Nf].
  assert (Ep : exists code, w_poll w' = Some (code, Some r) /\ has code RES_FAIL = true /\ has code RES_WAIT = false).
  { cbn [w' mux_world w_poll]. unfold mux_poll, Poll_Model.finish. rewrite Pf. cbn [is_ignore]. set (m := mux_got cf child g) in *.
    destruct (g_fails m) as [|x l] eqn:El; [congruence|]. set (c := if is_ignore (c_missing cf) then Z.ldiff (g_cumul m) RES_MISSING else g_cumul m).
    assert (B1 : has c RES_FAIL = true).
    { rewrite fail_bit. assert (Z.testbit (g_cumul m) bFAIL = true).
      { apply Cu; [discriminate|]. exists j. split; [exact Hj|]. split; [exact He|]. rewrite <- fail_bit. unfold has. apply negb_true_iff, Z.eqb_neq, Ef. }
      unfold c. destruct (is_ignore (c_missing cf)); [|assumption]. rewrite Z.ldiff_spec, H0. reflexivity. }
    assert (B2 : has c RES_WAIT = false).
    { rewrite wait_bit. assert (Z.testbit (g_cumul m) bWAIT = false).
      { destruct (Z.testbit (g_cumul m) bWAIT) eqn:X; [|reflexivity]. apply Cu in X; [|discriminate]. destruct X as (i & _ & _ & X). rewrite <- wait_bit in X. unfold has in X. rewrite Wn in X. discriminate. }
      unfold c. destruct (is_ignore (c_missing cf)); [|assumption]. rewrite Z.ldiff_spec, H0. reflexivity. }
    exists c. rewrite has_or, B1. cbn [orb option_map]. split; [|split; [reflexivity|exact B2]]. unfold r. rewrite <- Ff. reflexivity. }
  destruct Ep as (code & Ep & B1 & B2).
  destruct (execute_values re rm rf hasCl setC T w' cur q A1 A2 H) as (_ & V2 & _).
  destruct Po as (P & (k & K) & A). destruct (V2 k code (Some r) (conj P (conj (ex_intro _ k K) A)) K Ep) as (_ & W2 & _). unfold Rid_Spec.kept in W2. rewrite Ec, Z.lor_0_l in W2.
  assert (B3 : Z.land code RES_FAIL <> 0) by (unfold has in B1; apply negb_true_iff, Z.eqb_neq in B1; exact B1).
  apply has_iff in B2. destruct (W2 B2 B3) as (l & c & _ & Ek & Eo). exists code, c. split; [exact B3|]. split; [exact Ek|exact Eo].
Qed.
(** missing data not ignored: if any child has missing data, and none fails, data are missing *)
Theorem mux_missing (w : world R C) cf which (child : nat -> Z * R) g cur q cl j : c_missing cf <> PolIgnore ->
  Poll_Spec.quiet cf (fun i => fst (child i)) -> In j (c_order cf) -> c_enabled cf j = true -> Z.land (fst (child j)) RES_MISSING <> 0 ->
  (forall i, Z.land (fst (child i)) RES_WAIT = 0 /\ Z.land (fst (child i)) RES_FAIL = 0) ->
  polled w cur q -> w_abort w 1 = false -> w_abort w 2 = false -> (forall c r, w_cache w c r <> None) -> a_cells q = Some cl ->
  exists code c, Z.land code RES_MISSING <> 0 /\ w_cache w code (Some rm) = Some c /\
    o_end (exec (mux_world fails_of mkfail w cf which child g) cur q) = Returned (Z.lor c RES_UPDATED) (Some rm).
Proof.
  intros Pm Q Hj He Em Wn Po A1 A2 H Ec. set (w' := mux_world fails_of mkfail w cf which child g).
  assert (Cu := mux_cumul cf child g Q). set (m := mux_got cf child g) in *.
  assert (No : forall b, b = bWAIT \/ b = bFAIL -> Z.testbit (g_cumul m) b = false).
  { intros b Hb. destruct (Z.testbit (g_cumul m) b) eqn:X; [|reflexivity]. apply Cu in X; [|destruct Hb as [->| ->]; discriminate]. destruct X as (i & _ & _ & X).
    destruct (Wn i) as [W F0]. destruct Hb as [->| ->]; [rewrite <- wait_bit in X; unfold has in X; rewrite W in X|rewrite <- fail_bit in X; unfold has in X; rewrite F0 in X]; discriminate. }
  assert (Ep : exists code r, w_poll w' = Some (code, r) /\ has code RES_MISSING = true /\ has code RES_FAIL = false /\ has code RES_WAIT = false).
  { cbn [w' mux_world w_poll]. unfold mux_poll, Poll_Model.finish. fold m. replace (is_ignore (c_missing cf)) with false by (destruct (c_missing cf); [congruence|reflexivity|reflexivity]).
    set (c := if is_ignore (c_fail cf) then Z.ldiff (g_cumul m) RES_FAIL else g_cumul m).
    assert (B1 : has c RES_MISSING = true).
    { rewrite miss_bit. assert (X : Z.testbit (g_cumul m) bMISSING = true).
      { apply Cu; [discriminate|]. exists j. split; [exact Hj|]. split; [exact He|]. rewrite <- miss_bit. unfold has. apply negb_true_iff, Z.eqb_neq, Em. }
      unfold c. destruct (is_ignore (c_fail cf)); [|exact X]. rewrite Z.ldiff_spec, X. reflexivity. }
    assert (B : forall b, b = bWAIT \/ b = bFAIL -> Z.testbit c b = false) by (intros b Hb; unfold c; destruct (is_ignore (c_fail cf)); [rewrite Z.ldiff_spec|]; rewrite (No b Hb); reflexivity).
    eexists c, _. rewrite has_or, B1, orb_true_r. split; [reflexivity|]. split; [reflexivity|]. split; [rewrite fail_bit; apply B; right; reflexivity|rewrite wait_bit; apply B; left; reflexivity]. }
  destruct Ep as (code & r & Ep & B1 & B2 & B3).
  destruct (execute_values re rm rf hasCl setC T w' cur q A1 A2 H) as (_ & V2 & _).
  destruct Po as (P & (k & K) & A). destruct (V2 k code r (conj P (conj (ex_intro _ k K) A)) K Ep) as (_ & _ & W3 & _). unfold Rid_Spec.kept in W3. rewrite Ec, Z.lor_0_l in W3.
  assert (B4 : Z.land code RES_MISSING <> 0) by (unfold has in B1; apply negb_true_iff, Z.eqb_neq in B1; exact B1).
  apply has_iff in B2, B3. destruct (W3 B3 B2 B4) as (l & c & _ & Ek & Eo). exists code, c. split; [exact B4|]. split; [exact Ek|exact Eo].
Qed.
End Mux.
Print Assumptions mux_results.
Print Assumptions mux_fail_refuted.
Print Assumptions mux_disabled.
Print Assumptions mux_collects.
Print Assumptions mux_missing.

(** ** Examples: results are numbers; cells too *)
Definition rsqT : rtypes := {| EVAL := 11; EVAL_SINGLE := 12; EVAL_DOUBLE := 13; DISCOVER_SPIDS := 14; PARM_UPDATE := 15 |}.
Definition rsqW : world Z Z :=
  {| w_abort := fun _ => false; w_lookup := LMiss; w_rider := false; w_commands := ([], Some 0); w_active := true;
     w_poll := None; w_deps := 8; w_childcells := Some None; w_get := None; w_spids := None; w_cache := fun c _ => Some c |}.
Definition rsqCf : seqcfg := {| s_children := 3; s_which := 1; s_cellsOnly := false; s_mask := 2; s_failIgnore := true; s_missIgnore := true |}.
(** the first child fails; the second is selected *)
Definition rsqChild (first : Z) (i : nat) (id : list Z) : option (Z * option Z) :=
  match i with O => Some (first, Some 1) | S O => Some (4, Some (nth 1 id 0)) | _ => Some (1, Some 3) end.
Definition rsqRun first := seq_execute (C := Z) (rsqChild first) (fun _ => false) 0 (-1) (-2) (fun r => r <? 100) (fun r c => 10 * r + c) rsqT rsqCf None.
Example seq_polls_ex :
  let p := seq_poll (rsqChild (RES_FAIL + 2)) (fun _ => false) rsqCf None true [11; 5] {| t_result := None; t_code := 0 |} in
  (p_calls p, p_code p, t_code (p_st p), t_result (p_st p), p_step p) = ([(0%nat, [11; 5]); (1%nat, [11; 6]); (2%nat, [11; 7])], Some 0, 7, Some 6, Some [11; 7]).
Proof. vm_compute. reflexivity. Qed.
Example seq_results_ex :
  let o := rsqRun (RES_FAIL + 2) {| t_result := None; t_code := 0 |} rsqW None {| a_id := [11; 5]; a_cells := Some 7 |} in
  (o_end (fst o), t_result (snd o)) = (Returned (RES_UPDATED + 15) (Some 6), None).
Proof. vm_compute. reflexivity. Qed.
(** a request of another type, and then a child that asks to wait: the result of the first request *)
Example seq_wait_refuted_ex :
  let o := rsqRun 0 {| t_result := None; t_code := 0 |} rsqW None {| a_id := [15; 5]; a_cells := Some 7 |} in
  let o2 := rsqRun RES_WAIT (snd o) rsqW (o_cur (fst o)) {| a_id := [11; 50]; a_cells := Some 7 |} in
  let o3 := rsqRun RES_WAIT (snd o2) rsqW (o_cur (fst o2)) {| a_id := [11; 51]; a_cells := Some 7 |} in
  (t_result (snd o), o_end (fst o2), o_end (fst o3)) = (Some 6, Returned (RES_UPDATED + 8) (Some 6), Returned (RES_FAIL + RES_UPDATED + 8) (Some (-2))).
Proof. vm_compute. reflexivity. Qed.
(** all children fail *)
Example seq_codes_refuted_ex :
  let o := seq_execute (C := Z) (fun _ _ => Some (RES_FAIL, Some 1)) (fun _ => false) 0 (-1) (-2) (fun r => r <? 100) (fun r c => 10 * r + c) rsqT rsqCf None
             {| t_result := None; t_code := 0 |} rsqW None {| a_id := [11; 5]; a_cells := None |} in
  o_end (fst o) = Returned (RES_UPDATED + 8) (Some 0).
Proof. vm_compute. reflexivity. Qed.
Definition muxCf (p : policy) : cfg := {| c_fail := p; c_missing := PolIgnore; c_order := [2; 0; 1]%nat; c_enabled := fun _ => true |}.
Definition muxG : got Z := {| g_res := fun _ => None; g_code := fun _ => 0; g_cumul := 0; g_fails := [] |}.
Definition muxRun p which first := o_end (execute 0 (-1) (-2) (fun r => r <? 100) (fun r c => 10 * r + c) rsqT
  (mux_world (fun r => [r]) (fun l => fold_left Z.add l 1000) rsqW (muxCf p) which
     (fun i => match i with O => (RES_FAIL, 20) | S O => (first, 300) | _ => (RES_FAIL + 1, 40) end) muxG) None {| a_id := [11; 5]; a_cells := Some 7 |} None).
Example mux_results_ex : muxRun PolIgnore 1 2 = Returned (RES_UPDATED + 10) (Some 3007) /\ muxRun PolIgnore 1 RES_MISSING = Returned (RES_UPDATED + RES_MISSING) (Some (-1)).
Proof. vm_compute. split; reflexivity. Qed.
Example mux_fail_refuted_ex : muxRun PolIgnore 0 2 = Returned (RES_FAIL + RES_UPDATED) None.
Proof. vm_compute. reflexivity. Qed.
Example mux_collects_ex : muxRun PolCollect 1 2 = Returned (RES_FAIL + RES_UPDATED + 3) (Some 1060).
Proof. vm_compute. reflexivity. Qed.
Example mux_disabled_ex :
  o_end (execute 0 (-1) (-2) (fun r => r <? 100) (fun r c => 10 * r + c) rsqT
    (mux_world (fun r => [r]) (fun l => fold_left Z.add l 1000) rsqW {| c_fail := PolIgnore; c_missing := PolIgnore; c_order := [0; 1]%nat; c_enabled := fun i => Nat.eqb i 1 |} 0
       (fun _ => (RES_FAIL, 20)) muxG) None {| a_id := [11; 5]; a_cells := Some 7 |} None) = Returned (RES_UPDATED + 8) (Some 0).
Proof. vm_compute. reflexivity. Qed.
Example mux_missing_ex :
  o_end (execute 0 (-1) (-2) (fun r => r <? 100) (fun r c => 10 * r + c) rsqT
    (mux_world (fun r => [r]) (fun l => fold_left Z.add l 1000) rsqW {| c_fail := PolIgnore; c_missing := PolCollect; c_order := [0; 1]%nat; c_enabled := fun _ => true |} 0
       (fun i => match i with O => (1, 20) | _ => (RES_MISSING, 30) end) muxG) None {| a_id := [11; 5]; a_cells := Some 7 |} None) = Returned (RES_UPDATED + RES_MISSING + 1) (Some (-1)).
Proof. vm_compute. reflexivity. Qed.
