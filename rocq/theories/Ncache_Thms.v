From Verif Require Import Base Rqid_Spec Rqid_Model Rqid_Proofs Poll_Model Ncache_Model Ncache_Spec Ncache_Proofs.
Local Open Scope Z_scope.

(** C29: whatever the graph (shared nodes included), the cache policies, the numbers of parents,
    the hints left over and the requests so far, every request is answered as if there were no
    caches: same result, same fail/missing/wait/abort flags.  Partial: for requests whose type
    says whether they have cells, nodes that do not return RES_IGNORE_TYPE, and results whose
    derivatives can be computed apart; the two refutations below show what happens otherwise. *)
Theorem cache_transparent_partial : forall (R : Type) T (r_empty r_missing : R) strip mkfail g fpolicy cells,
  wellfounded g -> declared g -> derivatives_apart T r_empty r_missing strip mkfail g -> plain_masks g ->
  evalMode T (PARM_UPDATE T) = -1 -> PARM_UPDATE T <> DISCOVER_SPIDS T ->
  forall f h s, (forall i rq, In (i, rq) h -> (i < f)%nat /\ typical T cells rq) ->
  (forall i, k_isvalid (s i) = false) ->
  map meaning (snd (serve T r_empty r_missing strip mkfail g fpolicy f s h)) =
  map (fun q => meaning (fresh T r_empty r_missing mkfail g f (snd q) (fst q))) h.
Proof.
  intros R T r_empty r_missing strip mkfail g fp cells WF DEP DER PL PU PD f h s H E.
  apply (serve_good T r_empty r_missing strip mkfail g fp cells WF DEP DER PL PU PD f h H).
  intros i V. rewrite E in V. discriminate V.
Qed.
Print Assumptions cache_transparent_partial.

(** The same request again is answered from the cache of a node that always caches: same result,
    no other node is touched. *)
Lemma land_self_diff id c : Z.land (diffMask id id) c = 0.
Proof. apply agree_iff_diffMask. now intros i _. Qed.

Lemma has_wait_lor a b : has (Z.lor a b) RES_WAIT = has a RES_WAIT || has b RES_WAIT.
Proof. change RES_WAIT with (2 ^ 21). now apply has_lor. Qed.
Lemma execute_hit (R : Type) T (r_empty r_missing : R) strip mkfail g fp f rq s i k c r :
  getCached T r_empty strip (g i) (s i) rq = Hit k c r -> execute T r_empty r_missing strip mkfail g fp (S f) rq s i = (set s i k, (c, r)).
Proof. intros H. cbn [execute]. now rewrite H. Qed.
Lemma set_at (R : Type) (s : state R) i k : set s i k i = k.
Proof. unfold set. now rewrite Nat.eqb_refl. Qed.
Lemma stored_again (R : Type) T (r_empty : R) strip nd rq r : rq_id rq <> [] -> rq_type (rq_id rq) <> PARM_UPDATE T ->
  forall k, k_valid k = true -> k_result k = Some r -> k_rqid k = rq_id rq ->
  exists k', getCached T r_empty strip nd k rq = Hit k' (k_code k) (Some r) /\ k_result k' = k_result k /\ k_rqid k' = k_rqid k /\ k_valid k' = k_valid k.
Proof.
  intros NE NPU k V Rk Q.
  assert (EMP : isempty (rq_id rq) = false) by (destruct (rq_id rq); [easy|reflexivity]).
  assert (PUF : (rq_type (rq_id rq) =? PARM_UPDATE T) = false) by now apply Z.eqb_neq.
  exists (if isnew k rq then with_hints k 0 0 else k). split; [|now destruct (isnew k rq)].
  unfold getCached, k_isvalid. rewrite V, Rk, Q, EMP, PUF. cbn [andb negb orb]. rewrite land_self_diff. reflexivity.
Qed.
Lemma store_always (R : Type) (g : nat -> node R) fp rq i :
  CACHE_ALWAYS <= (if n_policy (g i) =? CACHE_DEFAULT then fp else n_policy (g i)) ->
  forall s2 rc ref s' rc', cacheResult g fp s2 i rq rc ref = (s', rc') ->
  k_valid (s' i) = true /\ k_result (s' i) = ref /\ k_rqid (s' i) = rq_id rq /\ k_code (s' i) = Z.ldiff rc' RES_UPDATED.
Proof.
  intros POL s2 rc ref s' rc' X. unfold cacheResult in X. cbv zeta in X.
  set (pol := if n_policy (g i) =? CACHE_DEFAULT then fp else n_policy (g i)) in *.
  assert (P1 : (pol <=? CACHE_NEVER) = false) by (apply Z.leb_gt; unfold CACHE_ALWAYS, CACHE_NEVER in *; lia).
  assert (P2 : (pol <=? CACHE_MINIMAL) = false) by (apply Z.leb_gt; unfold CACHE_ALWAYS, CACHE_MINIMAL in *; lia).
  assert (P3 : (pol <? CACHE_ALWAYS) = false) by (apply Z.ltb_ge; lia).
  rewrite P1, P2, P3 in X. injection X as <- <-. rewrite set_at.
  replace (if has (if has rc RES_IGNORE_TYPE then rc else Z.lor rc DEPMASK_TYPE) RES_FAIL then true else true) with true by now destruct (has _ RES_FAIL).
  cbn [k_valid k_result k_rqid k_code]. easy.
Qed.

Lemma hit_again (R : Type) T (r_empty : R) strip nd rq k0 k c r : rq_type (rq_id rq) <> PARM_UPDATE T ->
  getCached T r_empty strip nd k0 rq = Hit k c r ->
  exists k2, getCached T r_empty strip nd k rq = Hit k2 c r /\ k_result k2 = k_result k /\ k_rqid k2 = k_rqid k /\ k_valid k2 = k_valid k.
Proof.
  intros NPU GC. assert (PUF : (rq_type (rq_id rq) =? PARM_UPDATE T) = false) by now apply Z.eqb_neq.
  unfold getCached in *. destruct (k_isvalid k0) eqn:V; cbn [negb] in GC; [|discriminate GC].
  destruct (isempty (rq_id rq) || isempty (k_rqid k0)) eqn:Em; [discriminate GC|]. rewrite PUF in GC |- *. rewrite andb_false_l in GC. cbv zeta in GC |- *.
  remember (if isnew k0 rq then with_hints k0 0 0 else k0) as k' eqn:Dk.
  assert (Ek' : k_isvalid k' = true /\ k_rqid k' = k_rqid k0 /\ k_code k' = k_code k0 /\ k_result k' = k_result k0 /\ k_valid k' = k_valid k0) by (subst k'; now destruct (isnew k0 rq)).
  clear Dk. destruct Ek' as (E1 & E2 & E3 & E4 & E5).
  remember (Z.land (diffMask (rq_id rq) (k_rqid k0)) (k_code k0)) as d eqn:Dd.
  remember ((d =? DEPMASK_TYPE) && (evalMode T (rq_type (rq_id rq)) =? 0) && (0 <? evalMode T (rq_type (k_rqid k0)))) as b eqn:Db.
  assert (Hk : k = k' /\ c = k_code k0 /\ (if d =? 0 then k_result k0 else option_map strip (k_result k0)) = r).
  { destruct (d =? 0); [injection GC as <- <- <-; easy|]. destruct b; [|discriminate GC]. injection GC as <- <- <-. easy. }
  destruct Hk as (-> & -> & <-). rewrite E1, E2, E3, E4, Em. rewrite <- Dd, <- Db. clear Dd Db.
  exists (if isnew k' rq then with_hints k' 0 0 else k'). split; [|now rewrite <- E4, <- E2; destruct (isnew k' rq)].
  rewrite andb_false_l. cbn [negb]. destruct (d =? 0); [easy|]. destruct b; [easy|discriminate GC].
Qed.
Lemma conclude_kept (R : Type) T (r_empty r_missing : R) mkfail nd rq l rc ref :
  conclude T r_empty r_missing mkfail nd rq l = (false, (rc, ref)) -> has rc RES_WAIT = true.
Proof.
  intros CC. unfold conclude in CC. cbv zeta in CC.
  destruct (has (pollCode nd l) RES_WAIT) eqn:W; [injection CC as <- _; exact W|].
  destruct (has (pollCode nd l) RES_FAIL); [discriminate CC|]. destruct (has (pollCode nd l) RES_MISSING); [discriminate CC|].
  destruct (rq_cells rq); [|discriminate CC].
  destruct (0 <=? evalMode T (rq_type (rq_id rq))); [|destruct (rq_type (rq_id rq) =? DISCOVER_SPIDS T); discriminate CC].
  destruct (n_eval nd (results l) rq) as [c1 r1]. destruct (has c1 RES_WAIT) eqn:W1; [|discriminate CC]. injection CC as <- _.
  rewrite has_wait_lor, W1. apply orb_true_r.
Qed.
Lemma execute_miss (R : Type) T (r_empty r_missing : R) strip mkfail g fp f rq s i k s1 c r :
  getCached T r_empty strip (g i) (s i) rq = Miss k -> execute T r_empty r_missing strip mkfail g fp (S f) rq s i = (s1, (c, r)) ->
  has c RES_WAIT = true \/ exists s2 rc rc', cacheResult g fp s2 i rq rc r = (s1, rc') /\ c = Z.lor rc' RES_UPDATED.
Proof.
  intros H E. cbn [execute] in E. rewrite H in E. destruct (n_active (g i)); cbn [negb] in E.
  - destruct (pollWith _ (stops (g i)) (n_children (g i)) _) as [s2 l].
    destruct (conclude T r_empty r_missing mkfail (g i) rq l) as [keep [rc ref]] eqn:CC. destruct keep.
    + destruct (cacheResult g fp _ i rq rc ref) as [s4 rc'] eqn:X in E. injection E as <- <- <-. right. eauto.
    + injection E as _ <- _. left. exact (conclude_kept _ _ _ _ _ _ _ _ _ _ CC).
  - destruct (cacheResult g fp _ i rq 0 (Some r_empty)) as [s4 rc'] eqn:X in E. injection E as <- <- <-. right. eauto.
Qed.
Theorem repeated_request_cached : forall (R : Type) T (r_empty r_missing : R) strip mkfail g fpolicy f rq s i s1 c r,
  CACHE_ALWAYS <= (if n_policy (g i) =? CACHE_DEFAULT then fpolicy else n_policy (g i)) ->
  rq_id rq <> [] -> rq_type (rq_id rq) <> PARM_UPDATE T ->
  execute T r_empty r_missing strip mkfail g fpolicy f rq s i = (s1, (c, Some r)) -> has c RES_WAIT = false ->
  exists s2 c2, execute T r_empty r_missing strip mkfail g fpolicy f rq s1 i = (s2, (c2, Some r)) /\
    Z.ldiff c2 RES_UPDATED = Z.ldiff c RES_UPDATED /\ (forall j, j <> i -> s2 j = s1 j) /\
    k_result (s2 i) = k_result (s1 i) /\ k_rqid (s2 i) = k_rqid (s1 i) /\ k_valid (s2 i) = k_valid (s1 i).
Proof.
  intros R T r_empty r_missing strip mkfail g fp f rq s i s1 c r POL NE NPU E NW.
  destruct f as [|f]; [discriminate E|].
  assert (SETN : forall (s : state R) k j, j <> i -> set s i k j = s j) by (intros s0 k j N; unfold set; now apply Nat.eqb_neq in N as ->).
  destruct (getCached T r_empty strip (g i) (s i) rq) as [k c0 r0|k] eqn:GC.
  - rewrite (execute_hit _ _ _ _ _ _ _ _ _ _ _ _ _ _ _ GC) in E. injection E as <- <- ->.
    destruct (hit_again _ _ _ _ _ _ _ _ _ _ NPU GC) as (k2 & G2 & A & B & C). exists (set (set s i k) i k2), c0.
    split; [apply execute_hit; rewrite set_at; exact G2|]. split; [easy|]. split; [intros j N; now rewrite SETN|]. rewrite !set_at. now rewrite A, B, C.
  - destruct (execute_miss _ _ _ _ _ _ _ _ _ _ _ _ _ _ _ _ GC E) as [W|(s2 & rc & rc' & X & ->)]; [congruence|].
    destruct (store_always _ _ _ _ _ POL _ _ _ _ _ X) as (V & Rk & Q & Cd).
    destruct (stored_again _ T r_empty strip (g i) rq r NE NPU (s1 i) V Rk Q) as (k' & E2 & A & B & C). exists (set s1 i k'), (k_code (s1 i)).
    split; [now apply execute_hit|]. split; [|split; [intros j N; now apply SETN|rewrite set_at; easy]].
    rewrite Cd. apply Z.bits_inj'; intros j _. rewrite !Z.ldiff_spec, Z.lor_spec. now destruct (Z.testbit rc' j), (Z.testbit RES_UPDATED j).
Qed.
Print Assumptions repeated_request_cached.

(** ** A small forest: node 0 gives ten times the third position of the request id, node 1 is the
    constant 7, node 2 adds node 0 and node 1, node 3 adds nodes 2 and 1. *)
Definition exT : rtypes := {| EVAL := 101; EVAL_SINGLE := 102; EVAL_DOUBLE := 103; DISCOVER_SPIDS := 104; PARM_UPDATE := 105 |}.
(** a value and its perturbed values *)
Notation xres := (Z * list Z)%type.
Definition xstrip (r : xres) : xres := (fst r, []).
Definition xempty : xres := (-1, []).
Definition xmissing : xres := (-2, []).
Definition xfail (l : list xres) : xres := (-3 - Z.of_nat (length l), []).
Definition pert (rq : request) (x : Z) : list Z := if 0 <? evalMode exT (rq_type (rq_id rq)) then [x + 1] else [].
Definition xnode kids deps (ev : list (option xres) -> request -> Z * option xres) pol : node xres := {| n_children := kids; n_step := []; n_fail := PolCollect; n_missing := PolCollect; n_active := true;
  n_deps := deps; n_eval := ev; n_spids := fun _ => None; n_policy := pol; n_npar := 2; n_nact := 0; n_iter := 8; n_domain := 4 |}.
Definition ev_freq (l : list (option xres)) rq : Z * option xres := (0, Some (10 * nth 2 (rq_id rq) 0, pert rq (10 * nth 2 (rq_id rq) 0))).
Definition ev_const (c : Z) (l : list (option xres)) (rq : request) : Z * option xres := (c, Some (7, [])).
Definition total (l : list (option xres)) : Z := fold_right (fun r a => match r with Some (x, _) => x + a | None => a end) 0 l.
Definition ev_sum (l : list (option xres)) rq : Z * option xres := (0, Some (total l, pert rq (total l))).
Definition xg (i : nat) : node xres :=
  match i with
  | 0%nat => xnode [] 4 ev_freq 20
  | 1%nat => xnode [] 0 (ev_const 0) 20
  | 2%nat => xnode [0; 1]%nat 0 ev_sum 0
  | 3%nat => xnode [2; 1]%nat 0 ev_sum (-10)
  | _ => xnode [] 0 (ev_const 0) 0
  end.
Lemma total_strip l : total (map (option_map xstrip) l) = total l.
Proof. unfold total. induction l as [|[[x p]|] l IH]; cbn; [easy|now rewrite IH|exact IH]. Qed.
Lemma pert_same rq rq' x : type_of rq' = type_of rq -> pert rq' x = pert rq x.
Proof. intros E. unfold pert, type_of in *. now rewrite E. Qed.
Lemma pert_none rq x : mode exT rq = 0 -> pert rq x = [].
Proof. intros E. unfold pert, mode, type_of in *. now rewrite E. Qed.
Lemma agree_pos m (x y : list Z) k : (k < 16)%nat -> Z.testbit m (Z.of_nat k) = true -> agree_under m x y -> nth k x 0 = nth k y 0.
Proof. intros L B A. apply A. unfold selected. apply Nat.ltb_lt in L. now rewrite L, B. Qed.

Lemma freq_declared rq rq' l c r : ev_freq l rq = (c, r) -> type_of rq' = type_of rq -> agree_under (Z.lor 4 c) (rq_id rq) (rq_id rq') -> ev_freq l rq' = (c, r).
Proof.
  unfold ev_freq. intros E Ty A. injection E as <- <-. change (Z.lor 4 0) with 4 in A.
  assert (P := agree_pos 4 _ _ 2 ltac:(lia) eq_refl A). rewrite <- P. do 3 f_equal. now apply pert_same.
Qed.
Lemma sum_declared rq rq' l c r : ev_sum l rq = (c, r) -> type_of rq' = type_of rq -> ev_sum l rq' = (c, r).
Proof. unfold ev_sum. intros E Ty. injection E as <- <-. now rewrite (pert_same rq rq'). Qed.
Lemma xg_declared : declared xg.
Proof.
  intros [|[|[|[|i]]]] l rq rq' c r E Ty A; cbn [xg xnode n_eval n_deps] in *; try exact E.
  - now apply (freq_declared rq).
  - now apply (sum_declared rq).
  - now apply (sum_declared rq).
Qed.
Lemma sum_apart rq rq' l c r : ev_sum l rq = (c, r) -> mode exT rq' = 0 ->
  exists c', ev_sum (map (option_map xstrip) l) rq' = (c', option_map xstrip r) /\ flags c' = flags c.
Proof.
  unfold ev_sum. intros E M'. injection E as <- <-. exists 0. rewrite total_strip, (pert_none rq' _ M'). now split.
Qed.
Lemma xg_apart : derivatives_apart exT xempty xmissing xstrip xfail xg.
Proof.
  split; [easy|]. split; [easy|]. split; [intros l; unfold xstrip, xfail; cbn; now rewrite map_length|].
  intros [|[|[|[|i]]]] l rq rq' c r E M M' A; cbn [xg xnode n_eval n_deps] in *.
  - unfold ev_freq in *. injection E as <- <-. exists 0. split; [|easy].
    assert (P := agree_pos (but_type (Z.lor 4 0)) _ _ 2 ltac:(lia) eq_refl A). rewrite <- P, (pert_none rq' _ M'). reflexivity.
  - injection E as <- <-. now exists 0.
  - now apply (sum_apart rq).
  - now apply (sum_apart rq).
  - injection E as <- <-. now exists 0.
Qed.
Lemma xg_wf : wellfounded xg.
Proof.
  intros [|[|[|[|i]]]] c H; cbn [xg xnode n_children n_step app] in H; cbn in H; repeat (destruct H as [<-|H]; [lia|]); destruct H.
Qed.
Lemma xg_plain : plain_masks xg.
Proof. intros [|[|[|[|i]]]]; repeat split. Qed.

Definition xrq ty a b nx := {| rq_id := [ty; a; b]; rq_next := nx; rq_cells := true |}.
Definition xh : list (nat * request) :=
  [(3%nat, xrq 101 0 5 [101; 0; 5]); (3%nat, xrq 101 0 5 []); (3%nat, xrq 102 0 5 []); (2%nat, xrq 101 0 5 []); (3%nat, xrq 105 0 5 []); (2%nat, xrq 101 0 6 [])].
Definition xserve := serve exT xempty xmissing xstrip xfail xg 20 4 (fun _ => nst0) xh.
(** five answers of the six differ from one another only as they should; node 1 is evaluated once
    per type, node 2 answers the fourth request (values only) from what it computed with
    derivatives for the third *)
Example ex_transparent : map snd (snd xserve) = [Some (64, []); Some (64, []); Some (64, [65]); Some (57, []); Some xempty; Some (67, [])] /\
  map snd (snd xserve) = map (fun q => snd (fresh exT xempty xmissing xfail xg 4 (snd q) (fst q))) xh /\
  k_rqid (fst (serve exT xempty xmissing xstrip xfail xg 20 4 (fun _ => nst0) (firstn 4 xh)) 2%nat) = [102; 0; 5].
Proof. vm_compute. repeat split. Qed.
Example ex_hypotheses : wellfounded xg /\ declared xg /\ derivatives_apart exT xempty xmissing xstrip xfail xg /\ plain_masks xg /\
  evalMode exT (PARM_UPDATE exT) = -1 /\ (forall i rq, In (i, rq) xh -> (i < 4)%nat /\ typical exT (fun _ => true) rq).
Proof.
  split; [exact xg_wf|]. split; [exact xg_declared|]. split; [exact xg_apart|]. split; [exact xg_plain|]. split; [easy|].
  intros i rq H. cbn in H. repeat (destruct H as [H|H]; [injection H as <- <-; repeat split; lia|]). destruct H.
Qed.

(** C29 refuted for requests with and without cells: a node without dependencies answers a
    request that has cells with the empty result it gave to an earlier request without cells. *)
Theorem cache_transparent_cells_refuted : exists (g : nat -> node xres) h f,
  wellfounded g /\ declared g /\ derivatives_apart exT xempty xmissing xstrip xfail g /\ plain_masks g /\
  (forall i rq, In (i, rq) h -> (i < f)%nat) /\
  map meaning (snd (serve exT xempty xmissing xstrip xfail g 20 f (fun _ => nst0) h)) <>
  map (fun q => meaning (fresh exT xempty xmissing xfail g f (snd q) (fst q))) h.
Proof.
  exists xg, [(1%nat, {| rq_id := [101; 0; 5]; rq_next := []; rq_cells := false |}); (1%nat, xrq 101 0 6 [])], 4%nat.
  split; [exact xg_wf|]. split; [exact xg_declared|]. split; [exact xg_apart|]. split; [exact xg_plain|]. split.
  - intros i rq H. cbn in H. repeat (destruct H as [H|H]; [injection H as <- <-; lia|]). destruct H.
  - intros H. vm_compute in H. discriminate H.
Qed.
Print Assumptions cache_transparent_cells_refuted.

(** C29 refuted for nodes returning RES_IGNORE_TYPE: the bit travels up with the child's code and
    the parent, whose result does depend on the type, stops comparing types. *)
Definition ig (i : nat) : node xres :=
  match i with
  | 0%nat => xnode [] 0 (ev_const RES_IGNORE_TYPE) 20
  | _ => xnode [0]%nat 0 ev_sum 20
  end.
Theorem cache_transparent_ignore_type_refuted : exists (g : nat -> node xres) h f,
  wellfounded g /\ declared g /\ derivatives_apart exT xempty xmissing xstrip xfail g /\
  (forall i rq, In (i, rq) h -> (i < f)%nat /\ typical exT (fun _ => true) rq) /\
  map meaning (snd (serve exT xempty xmissing xstrip xfail g 20 f (fun _ => nst0) h)) <>
  map (fun q => meaning (fresh exT xempty xmissing xfail g f (snd q) (fst q))) h.
Proof.
  exists ig, [(1%nat, xrq 101 0 5 []); (1%nat, xrq 102 0 5 [])], 2%nat.
  split; [|split; [|split; [|split]]].
  - intros [|i] c H; cbn in H; [destruct H|]. destruct H as [<-|[]]. lia.
  - intros [|i] l rq rq' c r E Ty A; cbn [ig xnode n_eval n_deps] in *; [exact E|now apply (sum_declared rq)].
  - destruct xg_apart as (E1 & E2 & E3 & _). repeat split; try easy.
    intros [|i] l rq rq' c r E M M' A; cbn [ig xnode n_eval n_deps] in *; [|now apply (sum_apart rq)]. injection E as <- <-. now exists RES_IGNORE_TYPE.
  - intros i rq H. cbn in H. repeat (destruct H as [H|H]; [injection H as <- <-; repeat split; lia|]). destruct H.
  - intros H. vm_compute in H. discriminate H.
Qed.
Print Assumptions cache_transparent_ignore_type_refuted.

(** node 2 asked twice: the second answer is a hit and node 0 does not see the request *)
Definition rep1 := execute exT xempty xmissing xstrip xfail xg 20 4 (xrq 102 0 5 []) (fun _ => nst0) 2.
Definition rep2 := execute exT xempty xmissing xstrip xfail (fun i => if Nat.eqb i 0 then xnode [] 4 (ev_const 0) 20 else xg i) 20 4 (xrq 102 0 5 []) (fst rep1) 2.
Example ex_repeated : snd (snd rep1) = Some (57, [58]) /\ snd (snd rep2) = Some (57, [58]) /\ has (fst (snd rep1)) RES_UPDATED = true /\ has (fst (snd rep2)) RES_UPDATED = false.
Proof. vm_compute. repeat split. Qed.

(** ** Parents' hints.  A node that has just stored a result, then the hints of its parents in turn ([true]: hold).
    The result goes as soon as all parents have given a hint and none of them wants it held. *)
Definition parents {R} (nd : node R) : Z := if n_nact nd =? 0 then n_npar nd else n_nact nd.
Definition hinted {R} (nd : node R) (k : nst R) (hs : list bool) : nst R := fold_left (holdCache nd) hs k.
Definition wants (hs : list bool) : Z := Z.of_nat (length (filter (fun h => h) hs)).
Lemma wants_cons h hs : wants (h :: hs) = (if h then 1 else 0) + wants hs.
Proof. unfold wants. destruct h; cbn [filter length]; lia. Qed.
Lemma holdCache_keeps R (nd : node R) k h : k_ignore (holdCache nd k h) = k_ignore k /\ k_code (holdCache nd k h) = k_code k /\
  k_policy (holdCache nd k h) = k_policy k /\ k_nhint (holdCache nd k h) = k_nhint k + 1 /\
  k_nhold (holdCache nd k h) = k_nhold k + (if h then 1 else 0) /\
  k_valid (holdCache nd k h) = k_valid k && negb (negb (k_ignore k) && has (k_code k) (n_domain nd) && (k_policy k <? CACHE_ALWAYS)
     && (parents nd <=? k_nhint k + 1) && ((k_policy k <=? CACHE_MINIMAL) || (k_nhold k + (if h then 1 else 0) =? 0))) /\
  (k_valid (holdCache nd k h) = true -> k_result (holdCache nd k h) = k_result k).
Proof.
  unfold holdCache, with_hints. cbv zeta. cbn [k_ignore k_code k_policy k_nhint k_nhold]. fold (parents nd).
  replace (if h then k_nhold k + 1 else k_nhold k) with (k_nhold k + (if h then 1 else 0)) by (destruct h; lia).
  destruct (negb (k_ignore k) && _ && _ && _ && _) eqn:C; cbn [clearCache k_ignore k_code k_policy k_nhint k_nhold k_valid k_result];
    repeat split; try easy; now destruct (k_valid k).
Qed.
(** with [hs'] the hints before *)
Definition gone {R} (nd : node R) (k : nst R) (hs : list bool) : bool :=
  negb (k_ignore k) && has (k_code k) (n_domain nd) && (k_policy k <? CACHE_ALWAYS) && (parents nd <=? Z.of_nat (length hs))
  && ((k_policy k <=? CACHE_MINIMAL) || (wants hs =? 0)).
Lemma hinted_valid R (nd : node R) hs : forall k0 k hs', k_ignore k = k_ignore k0 -> k_code k = k_code k0 -> k_policy k = k_policy k0 ->
  k_nhint k = Z.of_nat (length hs') -> k_nhold k = wants hs' ->
  (k_valid (hinted nd k hs) = true <-> k_valid k = true /\ forall a b, hs = a ++ b -> a <> [] -> gone nd k0 (hs' ++ a) = false) /\
  (k_valid (hinted nd k hs) = true -> k_result (hinted nd k hs) = k_result k).
Proof.
  induction hs as [|h hs IH]; intros k0 k hs' E1 E2 E3 E4 E5; cbn [hinted fold_left].
  - split; [|easy]. split; [intros V; split; [exact V|]|tauto]. intros a b E N. destruct a; [easy|discriminate].
  - destruct (holdCache_keeps R nd k h) as (F1 & F2 & F3 & F4 & F5 & F6 & F7). set (k1 := holdCache nd k h) in *.
    destruct (IH k0 k1 (hs' ++ [h])) as [G1 G2]; try congruence.
    { rewrite F4, E4, app_length. cbn [length]. lia. }
    { rewrite F5, E5. unfold wants. rewrite filter_app, app_length. destruct h; cbn [filter length]; lia. }
    fold (hinted nd k1 hs) in *. assert (H1 : k_valid k1 = k_valid k && negb (gone nd k0 (hs' ++ [h]))).
    { rewrite F6. unfold gone. rewrite E1, E2, E3, E4, E5, app_length. cbn [length].
      replace (Z.of_nat (length hs' + 1)%nat) with (Z.of_nat (length hs') + 1) by lia.
      replace (wants (hs' ++ [h])) with (wants hs' + (if h then 1 else 0)); [reflexivity|].
      unfold wants. rewrite filter_app, app_length. destruct h; cbn [filter length]; lia. }
    split.
    + rewrite G1, H1. split.
      * intros [V W]. apply andb_true_iff in V as [V V']. split; [exact V|]. intros a b E N. destruct a as [|x a]; [easy|].
        cbn [app] in E. injection E as <- E. destruct a as [|y a]; [now apply negb_true_iff|].
        specialize (W (y :: a) b E ltac:(discriminate)). now rewrite <- app_assoc in W.
      * intros [V W]. split. { rewrite V, (W [h] hs eq_refl); easy. }
        intros a b E N. rewrite <- app_assoc. apply (W (h :: a) b); [now rewrite E|discriminate].
    + intros V. rewrite (G2 V). apply F7. now apply G1 in V.
Qed.
Theorem cache_released_by_parents : forall R (nd : node R) (k : nst R) r hs, k_valid k = true -> k_result k = Some r ->
  k_nhint k = 0 -> k_nhold k = 0 -> k_ignore k = false -> 0 < parents nd ->
  (k_isvalid (hinted nd k hs) = false <->
   (* the result depends on the domain *) has (k_code k) (n_domain nd) = true /\ k_policy k < CACHE_ALWAYS /\
   (* all parents have checked in *) parents nd <= Z.of_nat (length hs) /\
   (* and none of them holds *) (k_policy k <= CACHE_MINIMAL \/ ~ In true (firstn (Z.to_nat (parents nd)) hs))) /\
  (k_isvalid (hinted nd k hs) = true -> k_result (hinted nd k hs) = Some r).
Proof.
  intros R nd k r hs V Rk N1 N2 Ig Np. destruct (hinted_valid R nd hs k k [] eq_refl eq_refl eq_refl N1 N2) as [G1 G2].
  assert (VV : k_isvalid (hinted nd k hs) = k_valid (hinted nd k hs)).
  { unfold k_isvalid. destruct (k_valid (hinted nd k hs)); [|easy]. now rewrite (G2 eq_refl), Rk. }
  rewrite VV. split; [|intros W; now rewrite (G2 W)].
  assert (WN : forall a b : list bool, wants a = 0 -> ~ In true a).
  { clear. intros a _ W I. unfold wants in W. assert (In true (filter (fun h => h) a)) as J by now apply filter_In.
    destruct (filter (fun h => h) a); [easy|]. cbn [length] in W. lia. }
  assert (NW : forall a : list bool, ~ In true a -> wants a = 0).
  { clear. induction a as [|[] a IH]; intros N; [easy|exfalso; apply N; now left|]. rewrite wants_cons, IH; [easy|]. intros I. apply N. now right. }
  split.
  - intros F. destruct (has (k_code k) (n_domain nd)) eqn:D.
    2: { exfalso. enough (false = true) by discriminate. rewrite <- F. apply G1. split; [exact V|]. intros a b _ _. unfold gone. now rewrite D, andb_false_r. }
    destruct (Z.ltb_spec (k_policy k) CACHE_ALWAYS) as [P|P].
    2: { exfalso. enough (false = true) by discriminate. rewrite <- F. apply G1. split; [exact V|]. intros a b _ _. unfold gone.
         replace (k_policy k <? CACHE_ALWAYS) with false by (symmetry; now apply Z.ltb_ge). now rewrite andb_false_r. }
    split; [easy|]. split; [easy|].
    destruct (Z.leb_spec (parents nd) (Z.of_nat (length hs))) as [L|L].
    2: { exfalso. enough (false = true) by discriminate. rewrite <- F. apply G1. split; [exact V|]. intros a b E _. unfold gone. cbn [app].
         replace (parents nd <=? Z.of_nat (length a)) with false; [now rewrite andb_false_r|]. symmetry. apply Z.leb_gt. subst hs. rewrite app_length in L. lia. }
    split; [easy|]. destruct (Z.leb_spec (k_policy k) CACHE_MINIMAL) as [M|M]; [now left|]. right. intros I.
    enough (false = true) by discriminate. rewrite <- F. apply G1. split; [exact V|]. intros a b E _. unfold gone. cbn [app].
    destruct (Z.leb_spec (parents nd) (Z.of_nat (length a))) as [L'|L']; [|now rewrite andb_false_r].
    replace (k_policy k <=? CACHE_MINIMAL) with false by (symmetry; now apply Z.leb_gt). cbn [orb].
    destruct (Z.eqb_spec (wants a) 0) as [W|W]; [|now rewrite andb_false_r]. exfalso. apply (WN a b W).
    subst hs. rewrite firstn_app in I. apply in_app_or in I as [I|I].
    + rewrite <- (firstn_skipn (Z.to_nat (parents nd)) a). apply in_or_app. now left.
    + replace (Z.to_nat (parents nd) - length a)%nat with 0%nat in I by lia. destruct I.
  - intros (D & P & L & M). destruct (k_valid (hinted nd k hs)) eqn:F; [|easy]. exfalso. destruct (proj1 G1 eq_refl) as [_ W].
    specialize (W (firstn (Z.to_nat (parents nd)) hs) (skipn (Z.to_nat (parents nd)) hs) (eq_sym (firstn_skipn _ _))).
    assert (LN : length (firstn (Z.to_nat (parents nd)) hs) = Z.to_nat (parents nd)) by (rewrite firstn_length; lia).
    assert (gone nd k (firstn (Z.to_nat (parents nd)) hs) = true) as GO.
    { unfold gone. rewrite Ig, D, LN. replace (k_policy k <? CACHE_ALWAYS) with true by (symmetry; now apply Z.ltb_lt).
      replace (parents nd <=? Z.of_nat (Z.to_nat (parents nd))) with true by (symmetry; apply Z.leb_le; lia). cbn [negb andb].
      destruct M as [M|M]; [now replace (k_policy k <=? CACHE_MINIMAL) with true by (symmetry; now apply Z.leb_le)|].
      rewrite (NW _ M). apply orb_true_r. }
    cbn [app] in W. rewrite W in GO; [discriminate|]. intros Z. rewrite Z in LN. cbn [length] in LN. lia.
Qed.
Print Assumptions cache_released_by_parents.
Definition hk : nst xres := {| k_valid := true; k_result := Some (64, []); k_rqid := [101; 0; 5]; k_code := 4; k_ignore := false;
  k_policy := 10; k_nhint := 0; k_nhold := 0; k_cur := None; k_codes := []; k_scodes := [] |}.
(** two parents: the result is kept when one of them holds, until then, and lost otherwise *)
Example ex_released : map (fun hs => k_isvalid (hinted (xg 0) hk hs)) [[false]; [false; true]; [true; false]; [false; false]; [false; false; true]] =
  [true; true; true; false; false].
Proof. reflexivity. Qed.
