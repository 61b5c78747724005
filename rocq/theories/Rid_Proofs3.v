(** Proofs for Rid_Thms: Node::execute. *)
From Coq Require Import String.
From Verif Require Import Base Hiid_Model Hiid_Proofs Rqid_Model Poll_Model Ncache_Model Rid_Model Rid_Spec Rid_Proofs.
Local Open Scope Z_scope.
Open Scope list_scope.

Set Default Proof Using "Type".
Section Execute.
Context {R C : Type}.
Variables (re rm rf : R) (hasC : R -> bool) (setC : R -> C -> R) (T : rtypes).
Notation world := (world R C). Notation ask := (ask C).
Notation exec := (execute re rm rf hasC setC T).
Notation evalu := (evaluate re rm rf hasC setC T).
Notation fin := (finish rf).
Notation bad := (failed rf).

Lemma is_new_iff cur (q : ask) : is_new cur q = true <-> isNew cur q.
Proof.
  unfold is_new, isNew. destruct cur as [id|].
  - destruct (a_id q) as [|x l] eqn:E; [split; auto|]. rewrite negb_true_iff, <- not_true_iff_false, hiid_eqb_iff.
    split; [intros H; right; congruence|intros [H|H]; congruence].
  - split; [right; discriminate|auto].
Qed.
Definition took (w : world) cur (q : ask) : bool := is_new cur q && w_rider w.
Definition acts0 (w : world) cur q : list (act R) := if took w cur q then map ACommand (fst (w_commands w)) else [].
Definition code0 (w : world) cur q : option Z := if took w cur q then snd (w_commands w) else Some 0.
Lemma took_iff (w : world) cur q : processed w -> (took w cur q = true <-> takesRider w cur q).
Proof. intros P. unfold took, takesRider. rewrite andb_true_iff, is_new_iff. split; [intros [A B]; auto|intros (_ & A & B); auto]. Qed.
Lemma code0_iff (w : world) cur q k : processed w -> (code0 w cur q = Some k <-> commandCode w cur q k).
Proof.
  intros P. unfold code0, commandCode. rewrite <- (took_iff w cur q P). destruct (took w cur q).
  - split; [intros H; split; [auto|congruence]|intros [H _]; auto].
  - split; [intros [= <-]; split; [discriminate|auto]|intros [_ H]; rewrite H; congruence].
Qed.
Lemma not_new cur (q : ask) : is_new cur q = false -> cur = Some (a_id q).
Proof.
  unfold is_new. destruct cur as [id|]; [|discriminate]. destruct (a_id q) as [|x l] eqn:E; [discriminate|].
  rewrite negb_false_iff, hiid_eqb_iff. congruence.
Qed.
Lemma exec_processed (w : world) cur q ref : processed w ->
  exec w cur q ref = match code0 w cur q with
                     | None => bad w (Some (a_id q)) (acts0 w cur q) 0
                     | Some k => if w_active w then evalu w q (Some (a_id q)) (acts0 w cur q) k ref else fin w (Some (a_id q)) (acts0 w cur q) k (full re ref)
                     end.
Proof.
  intros [P1 P2]. unfold execute, code0, acts0, took. rewrite P1, P2. destruct (is_new cur q) eqn:En; cbn [andb].
  - destruct (w_rider w); reflexivity.
  - rewrite (not_new _ _ En). reflexivity.
Qed.
Lemma exec_not (w : world) cur q ref : ~ processed w ->
  (w_abort w 0 = true /\ exec w cur q ref = stop cur [] RES_ABORT ref) \/
  (w_abort w 0 = false /\ w_lookup w = LThrow /\ exec w cur q ref = bad w cur [] 0) \/
  (exists k r, w_abort w 0 = false /\ w_lookup w = LHit k r /\ exec w cur q ref = stop cur [] k (newer ref r)).
Proof.
  intros N. unfold execute, processed in *. destruct (w_abort w 0); [left; auto|]. destruct (w_lookup w) as [k r| |].
  - right; right. exists k, r. auto.
  - destruct N. auto.
  - right; left. auto.
Qed.
Lemma processed_dec (w : world) : processed w \/ ~ processed w.
Proof. unfold processed. destruct (w_abort w 0); [right; intros [X _]; discriminate|]. destruct (w_lookup w); [right; intros [_ X]; discriminate|left; auto|right; intros [_ X]; discriminate]. Qed.

(** what is done does not depend on what was done before *)
Definition plus (l : list (act R)) (o : done R) : done R := {| o_cur := o_cur o; o_acts := l ++ o_acts o; o_end := o_end o |}.
Lemma bad_plus w cur l m k : bad w cur (l ++ m) k = plus l (@failed R C rf w cur m k).
Proof. unfold failed, plus. cbn. rewrite app_assoc. reflexivity. Qed.
Lemma fin_plus w cur l m k ref : fin w cur (l ++ m) k ref = plus l (@finish R C rf w cur m k ref).
Proof. unfold finish. destruct (w_cache w k ref); [unfold plus; cbn; rewrite app_assoc; reflexivity|]. rewrite <- app_assoc. apply bad_plus. Qed.
Lemma stop_plus cur l m k ref : stop cur (l ++ m) k ref = plus l (@stop R cur m k ref).
Proof. reflexivity. Qed.
Lemma con_plus w cur l m k ref : conclude re rf w cur (l ++ m) k ref = plus l (@conclude R C re rf w cur m k ref).
Proof. unfold conclude. destruct (w_abort w 2); [reflexivity|apply fin_plus]. Qed.
Lemma eval_plus (w : world) q cur l k ref : evalu w q cur l k ref = plus l (evalu w q cur [] k ref).
Proof.
  unfold evaluate. cbn [app]. destruct (w_poll w) as [[p r]|]; [|apply bad_plus].
  destruct (w_abort w 1); [reflexivity|]. destruct (has _ RES_WAIT); [reflexivity|]. destruct (has _ RES_FAIL); [apply fin_plus|].
  destruct (has _ RES_MISSING); [apply fin_plus|]. destruct (a_cells q); [|apply con_plus]. destruct (w_childcells w); [|apply bad_plus].
  destruct (0 <=? _).
  - destruct (w_get w) as [[kc r']|]; [|rewrite <- app_assoc; apply bad_plus]. destruct (has kc RES_WAIT); rewrite <- app_assoc; [reflexivity|apply con_plus].
  - destruct (_ =? _); [|apply con_plus]. destruct (w_spids w) as [[kc r']|]; rewrite <- app_assoc; [apply con_plus|apply bad_plus].
Qed.
Lemma fin0_plus (w : world) cur l k ref : fin w cur l k ref = plus l (@finish R C rf w cur [] k ref).
Proof. rewrite <- fin_plus, app_nil_r. reflexivity. Qed.
Lemma bad0_plus (w : world) cur l k : bad w cur l k = plus l (@failed R C rf w cur [] k).
Proof. rewrite <- bad_plus, app_nil_r. reflexivity. Qed.
(** after the commands *)
Definition rest (w : world) cur q ref : done R :=
  match code0 w cur q with
  | None => bad w (Some (a_id q)) [] 0
  | Some k => if w_active w then evalu w q (Some (a_id q)) [] k ref else fin w (Some (a_id q)) [] k (full re ref)
  end.
Lemma exec_rest (w : world) cur q ref : processed w -> exec w cur q ref = plus (acts0 w cur q) (rest w cur q ref).
Proof.
  intros P. rewrite exec_processed; [|exact P]. unfold rest. destruct (code0 w cur q); [|apply bad0_plus].
  destruct (w_active w); [apply eval_plus|apply fin0_plus].
Qed.
Lemma fin_cur w cur l k ref : o_cur (@finish R C rf w cur l k ref) = cur.
Proof. unfold finish. destruct (w_cache w k ref); reflexivity. Qed.
Lemma con_cur w cur l k ref : o_cur (@conclude R C re rf w cur l k ref) = cur.
Proof. unfold conclude. destruct (w_abort w 2); [reflexivity|apply fin_cur]. Qed.
Lemma eval_cur (w : world) q cur l k ref : o_cur (evalu w q cur l k ref) = cur.
Proof.
  unfold evaluate. destruct (w_poll w) as [[p r]|]; [|reflexivity].
  destruct (w_abort w 1); [reflexivity|]. destruct (has _ RES_WAIT); [reflexivity|]. destruct (has _ RES_FAIL); [apply fin_cur|].
  destruct (has _ RES_MISSING); [apply fin_cur|]. destruct (a_cells q); [|apply con_cur]. destruct (w_childcells w); [|reflexivity].
  destruct (0 <=? _).
  - destruct (w_get w) as [[kc r']|]; [|reflexivity]. destruct (has kc RES_WAIT); [reflexivity|apply con_cur].
  - destruct (_ =? _); [|apply con_cur]. destruct (w_spids w) as [[kc r']|]; [apply con_cur|reflexivity].
Qed.
Lemma rest_cur w cur q ref : o_cur (rest w cur q ref) = Some (a_id q).
Proof. unfold rest. destruct (code0 w cur q); [|reflexivity]. destruct (w_active w); [apply eval_cur|apply fin_cur]. Qed.

(** how the end of a call looks *)
Definition ends (o : done R) (l : list (act R)) : Prop := exists c r, o_acts o = l ++ [ACache c r] \/ o_acts o = l ++ [ACache c r; AError; ACache (Z.lor c RES_FAIL) (Some rf)].
Lemma fin_ends w cur l k ref : ends (@finish R C rf w cur l k ref) l.
Proof.
  unfold finish, ends. exists k, ref. destruct (w_cache w k ref); cbn [failed o_acts]; [left; reflexivity|]. right. rewrite <- app_assoc. reflexivity.
Qed.
Lemma has_iff k b : has k b = false <-> Z.land k b = 0.
Proof. unfold has. rewrite negb_false_iff. apply Z.eqb_eq. Qed.

(** tails of actions, by what they hold *)
Definition quiet (l : list (act R)) : Prop := filter isCommandAct l = [].
Lemma fin_acts (P : act R -> bool) w cur l k ref : (forall c r, P (ACache c r) = false) -> P AError = false ->
  filter P (o_acts (@finish R C rf w cur l k ref)) = filter P l.
Proof.
  intros P1 P2. unfold finish. destruct (w_cache w k ref); cbn [failed o_acts]; rewrite ?filter_app; cbn [filter]; rewrite ?P1, ?P2, ?app_nil_r; reflexivity.
Qed.
Lemma bad_acts (P : act R -> bool) w cur l k : (forall c r, P (ACache c r) = false) -> P AError = false ->
  filter P (o_acts (@failed R C rf w cur l k)) = filter P l.
Proof. intros P1 P2. cbn [failed o_acts]. rewrite filter_app. cbn [filter]. rewrite P1, P2, app_nil_r. reflexivity. Qed.
Lemma con_acts (P : act R -> bool) w cur l k ref : (forall c r, P (ACache c r) = false) -> P AError = false ->
  filter P (o_acts (@conclude R C re rf w cur l k ref)) = filter P l.
Proof. intros P1 P2. unfold conclude. destruct (w_abort w 2); [reflexivity|apply fin_acts; assumption]. Qed.

Definition goes (w : world) (q : ask) k : bool :=   (* the children's answers let the node go on *)
  match w_poll w with
  | Some (p, _) => negb (w_abort w 1) && negb (has (Z.lor (kept q k) p) RES_WAIT) && negb (has (Z.lor (kept q k) p) RES_FAIL) && negb (has (Z.lor (kept q k) p) RES_MISSING)
  | None => false
  end.
Definition inEval (w : world) (q : ask) k : bool := goes w q k && match a_cells q, w_childcells w with Some _, Some _ => true | _, _ => false end.
Lemma eval_acts (P : act R -> bool) (w : world) q cur k ref : (forall c r, P (ACache c r) = false) -> P AError = false ->
  filter P (o_acts (evalu w q cur [] k ref)) = filter P ([APoll] ++ (if inEval w q k then if 0 <=? evalMode T (rq_type (a_id q)) then [AGetResult] else
     if rq_type (a_id q) =? DISCOVER_SPIDS T then [ADiscover] else [] else [])).
Proof.
  intros P1 P2. unfold evaluate, inEval, goes, kept. cbn [app].
  destruct (w_poll w) as [[p r]|]; [|apply (bad_acts P w cur [APoll] _ P1 P2)].
  destruct (w_abort w 1); [reflexivity|]. destruct (has _ RES_WAIT); [reflexivity|]. destruct (has _ RES_FAIL); [apply (fin_acts P w cur [APoll] _ _ P1 P2)|].
  destruct (has _ RES_MISSING); [apply (fin_acts P w cur [APoll] _ _ P1 P2)|]. cbn [negb andb].
  destruct (a_cells q) as [cl|]; [|apply (con_acts P w cur [APoll] _ _ P1 P2)]. destruct (w_childcells w); [|apply (bad_acts P w cur [APoll] _ P1 P2)].
  destruct (0 <=? _).
  - destruct (w_get w) as [[kc r']|]; [|apply (bad_acts P w cur _ _ P1 P2)]. destruct (has kc RES_WAIT); [reflexivity|apply (con_acts P w cur _ _ _ P1 P2)].
  - destruct (_ =? _); [|apply (con_acts P w cur [APoll] _ _ P1 P2)]. destruct (w_spids w) as [[kc r']|]; [apply (con_acts P w cur _ _ _ P1 P2)|apply (bad_acts P w cur _ _ P1 P2)].
Qed.
Lemma rest_acts (P : act R -> bool) (w : world) cur q ref : (forall c r, P (ACache c r) = false) -> P AError = false ->
  filter P (o_acts (rest w cur q ref)) = match code0 w cur q with
    | Some k => if w_active w then filter P ([APoll] ++ (if inEval w q k then if 0 <=? evalMode T (rq_type (a_id q)) then [AGetResult] else
                   if rq_type (a_id q) =? DISCOVER_SPIDS T then [ADiscover] else [] else [])) else []
    | None => [] end.
Proof.
  intros P1 P2. unfold rest. destruct (code0 w cur q); [|apply (bad_acts P w _ [] _ P1 P2)].
  destruct (w_active w); [apply eval_acts; assumption|apply (fin_acts P w _ [] _ _ P1 P2)].
Qed.
Lemma polled_iff (w : world) cur q : processed w -> (polled w cur q <-> (exists k, code0 w cur q = Some k) /\ w_active w = true).
Proof.
  intros P. unfold polled. split.
  - intros (_ & (k & Hk) & A). split; [|exact A]. exists k. apply code0_iff; assumption.
  - intros ((k & Hk) & A). split; [exact P|]. split; [|exact A]. exists k. apply code0_iff; assumption.
Qed.
Lemma goes_cells (w : world) q k cl : a_cells q = Some cl -> (goes w q k = true <-> w_abort w 1 = false /\ exists p r, w_poll w = Some (p, r) /\ clean p).
Proof.
  intros E. unfold goes, kept, clean. rewrite E. destruct (w_poll w) as [[p r]|].
  - rewrite Z.lor_0_l, !andb_true_iff, !negb_true_iff, !has_iff. split.
    + intros (((A & B) & D) & G). split; [exact A|]. exists p, r. auto.
    + intros (A & p' & r' & [= <- <-] & B & D & G). auto.
  - split; [discriminate|]. intros (_ & p & r & X & _). discriminate.
Qed.
Lemma inEval_iff (w : world) cur q k : processed w -> code0 w cur q = Some k -> w_active w = true -> (inEval w q k = true <-> computes w cur q).
Proof.
  intros P K A. unfold inEval, computes. assert (Po : polled w cur q) by (apply polled_iff; eauto).
  destruct (a_cells q) as [cl|] eqn:E.
  - rewrite andb_true_iff, (goes_cells w q k cl E). split.
    + intros [(G1 & G2) G3]. destruct (w_childcells w); [|discriminate]. split; [exact Po|]. split; [exact G1|]. split; [discriminate|]. split; [discriminate|exact G2].
    + intros (_ & G1 & _ & G2 & G3). destruct (w_childcells w); [auto|congruence].
  - rewrite andb_false_r. split; [discriminate|]. intros (_ & _ & X & _). congruence.
Qed.
Lemma evaluates_iff (q : ask) : 0 <=? evalMode T (rq_type (a_id q)) = true <-> evaluates T q.
Proof. unfold evaluates. apply Z.leb_le. Qed.
Lemma discovers_iff (q : ask) : (0 <=? evalMode T (rq_type (a_id q)) = false /\ (rq_type (a_id q) =? DISCOVER_SPIDS T) = true) <-> discovers T q.
Proof. unfold discovers. rewrite <- evaluates_iff, Z.eqb_eq, not_true_iff_false. reflexivity. Qed.

(** ** exceptions *)
Lemma err_fin w cur l k ref : (forall c r, @w_cache R C w c r <> None) -> (In AError (o_acts (fin w cur l k ref)) <-> In AError l).
Proof. intros H. unfold finish. destruct (w_cache w k ref) eqn:E; [|destruct (H _ _ E)]. cbn. rewrite in_app_iff. cbn. split; [intros [X|[X|[]]]; [exact X|discriminate]|auto]. Qed.
Lemma err_con w cur l k ref : (forall c r, @w_cache R C w c r <> None) -> (In AError (o_acts (conclude re rf w cur l k ref)) <-> In AError l).
Proof. intros H. unfold conclude. destruct (w_abort w 2); [reflexivity|apply err_fin, H]. Qed.
Lemma err_bad (w : world) cur l k : In AError (o_acts (bad w cur l k)).
Proof. cbn. apply in_or_app. right. left. reflexivity. Qed.
Lemma eval_err (w : world) q cur k ref : (forall c r, @w_cache R C w c r <> None) ->
  (In AError (o_acts (evalu w q cur [] k ref)) <->
   w_poll w = None \/ (goes w q k = true /\ a_cells q <> None /\ w_childcells w = None) \/
   (inEval w q k = true /\ (0 <=? evalMode T (rq_type (a_id q))) = true /\ w_get w = None) \/
   (inEval w q k = true /\ ((0 <=? evalMode T (rq_type (a_id q))) = false /\ (rq_type (a_id q) =? DISCOVER_SPIDS T) = true) /\ w_spids w = None)).
Proof.
  intros H. unfold evaluate, inEval, goes, kept. cbn [app].
  assert (N1 : ~ In AError [@APoll R]) by (intros [X|[]]; discriminate).
  assert (N2 : ~ In AError [@APoll R; AGetResult]) by (intros [X|[X|[]]]; discriminate).
  assert (N3 : ~ In AError [@APoll R; ADiscover]) by (intros [X|[X|[]]]; discriminate).
  destruct (w_poll w) as [[p r]|]; [|split; [auto|intros _; apply err_bad]].
  destruct (w_abort w 1); [cbn; intuition discriminate|]. destruct (has _ RES_WAIT); [cbn; intuition discriminate|].
  destruct (has _ RES_FAIL); [rewrite err_fin; [cbn; intuition discriminate|exact H]|].
  destruct (has _ RES_MISSING); [rewrite err_fin; [cbn; intuition discriminate|exact H]|]. cbn [negb andb].
  destruct (a_cells q) as [cl|]; [|rewrite err_con; [intuition congruence|exact H]].
  destruct (w_childcells w) as [rc|]; [|split; [intros _; right; left; repeat split; congruence|intros _; apply err_bad]].
  destruct (0 <=? _).
  - destruct (w_get w) as [[kc r']|]; [|split; [intros _; right; right; left; auto|intros _; apply err_bad]].
    destruct (has kc RES_WAIT); [cbn; intuition discriminate|]. rewrite err_con; [intuition congruence|exact H].
  - destruct (_ =? _); [|rewrite err_con; [intuition congruence|exact H]].
    destruct (w_spids w) as [[kc r']|]; [rewrite err_con; [intuition congruence|exact H]|]. split; [intros _; right; right; right; auto|intros _; apply err_bad].
Qed.
Lemma exec_err (w : world) cur q ref : (forall c r, @w_cache R C w c r <> None) ->
  (In AError (o_acts (exec w cur q ref)) <-> throws T w cur q).
Proof.
  intros H. destruct (processed_dec w) as [P|N].
  - rewrite exec_rest; [|exact P]. cbn [plus o_acts]. rewrite in_app_iff.
    assert (N0 : ~ In AError (acts0 w cur q)).
    { unfold acts0. destruct (took w cur q); [|intros []]. rewrite in_map_iff. intros (x & X & _). discriminate. }
    unfold rest, throws. destruct (code0 w cur q) as [k|] eqn:Ek.
    + assert (NC : takesRider w cur q -> snd (w_commands w) <> None).
      { intros Ht. apply (took_iff w cur q P) in Ht. unfold code0 in Ek. rewrite Ht in Ek. congruence. }
      destruct (w_active w) eqn:Ea.
      * assert (Po : polled w cur q) by (apply polled_iff; eauto).
        rewrite eval_err; [|exact H]. rewrite <- discovers_iff, <- evaluates_iff.
        rewrite <- (inEval_iff w cur q k P Ek Ea). unfold answered.
        assert (G : (goes w q k = true /\ a_cells q <> None /\ w_childcells w = None) <->
                    ((polled w cur q /\ w_abort w 1 = false /\ a_cells q <> None /\ exists p r, w_poll w = Some (p, r) /\ clean p) /\ w_childcells w = None)).
        { destruct (a_cells q) as [cl|] eqn:Ec; [rewrite (goes_cells w q k cl Ec)|]; tauto. }
        rewrite G. destruct P as [P1 P2]. rewrite P2. split.
        -- intros [X|[X|[X|[X|X]]]]; [contradiction|right; right; left; auto|right; right; right; left; exact X|right; right; right; right; left; exact X|right; right; right; right; right; exact X].
        -- intros [[_ X]|[[X Y]|[[_ X]|[X|[X|X]]]]]; [discriminate|destruct (NC X Y)|right; left; exact X|right; right; left; exact X|right; right; right; left; exact X|right; right; right; right; exact X].
      * assert (NP : ~ polled w cur q) by (rewrite polled_iff; [intros [_ X]; congruence|exact P]).
        rewrite err_fin; [|exact H]. destruct P as [P1 P2]. unfold answered, computes. rewrite P2. split.
        -- intros [X|[]]. contradiction.
        -- intros [[_ X]|[[X Y]|[[X _]|[[[X _] _]|[[[X _] _]|[[X _] _]]]]]]; try contradiction; [discriminate|destruct (NC X Y)].
    + split; [|intros _; right; apply err_bad]. intros _. right; left. unfold code0 in Ek. destruct (took w cur q) eqn:Et; [|discriminate].
      split; [apply took_iff; assumption|exact Ek].
  - assert (NT : forall Q : Prop, (w_abort w 0 = false /\ w_lookup w = LThrow -> Q) -> throws T w cur q -> Q).
    { intros Q HQ. unfold throws, answered, computes, polled, takesRider. intros [X|[[[X _] _]|[[[X _] _]|[[[[X _] _] _]|[[[[X _] _] _]|[[[X _] _] _]]]]]]; try contradiction. auto. }
    destruct (exec_not w cur q ref N) as [[A ->]|[(A & B & ->)|(k & r & A & B & ->)]].
    + cbn. split; [intros []|]. apply NT. intros [X _]. congruence.
    + split; [intros _; left; auto|intros _; apply err_bad].
    + cbn. split; [intros []|]. apply NT. intros [_ X]. congruence.
Qed.
(** ** what is returned is what was put into the cache *)
Definition cachedAs (w : world) (o : done R) : Prop :=
  exists l k r c, o_acts o = l ++ [ACache k r] /\ w_cache w k r = Some c /\ o_end o = Returned (Z.lor c RES_UPDATED) r.
Definition uncached (o : done R) : Prop := filter isCache (o_acts o) = [].
Lemma plus_cached w l o : cachedAs w o -> cachedAs w (plus l o).
Proof. intros (m & k & r & c & E1 & E2 & E3). exists (l ++ m), k, r, c. cbn. rewrite E1, app_assoc. auto. Qed.
Lemma bad_cached (w : world) cur l k : cachedAs w (bad w cur l k) \/ (o_end (bad w cur l k) = Terminated /\ w_cache w (Z.lor k RES_FAIL) (Some rf) = None).
Proof.
  unfold cachedAs. cbn [failed o_acts o_end]. destruct (w_cache w (Z.lor k RES_FAIL) (Some rf)) as [c|] eqn:E; [left|right; auto].
  exists (l ++ [AError]), (Z.lor k RES_FAIL), (Some rf), c. rewrite <- app_assoc. cbn. auto.
Qed.
Definition endsWell (w : world) (o : done R) : Prop := cachedAs w o \/ (o_end o = Terminated /\ exists k, w_cache w k (Some rf) = None).
Lemma bad_well (w : world) cur l k : endsWell w (bad w cur l k).
Proof. destruct (bad_cached w cur l k) as [X|[X Y]]; [left; exact X|right; eauto]. Qed.
Lemma fin_well (w : world) cur l k ref : endsWell w (fin w cur l k ref).
Proof.
  unfold finish. destruct (w_cache w k ref) as [c|] eqn:E; [|apply bad_well]. left. exists l, k, ref, c. auto.
Qed.
Lemma plus_well w l o : endsWell w o -> endsWell w (plus l o).
Proof. intros [X|X]; [left; apply plus_cached, X|right; exact X]. Qed.
Definition leaves (w : world) (o : done R) : Prop :=
  (uncached o /\ exists k r, o_end o = Returned k r /\ ((k = RES_ABORT /\ exists n, w_abort w n = true) \/ has k RES_WAIT = true)) \/ endsWell w o.
Lemma con_leaves (w : world) cur l k ref : filter isCache l = [] -> leaves w (conclude re rf w cur l k ref).
Proof.
  intros E. unfold conclude. destruct (w_abort w 2) eqn:A; [|right; apply fin_well]. left. split; [exact E|]. exists RES_ABORT, ref. split; [reflexivity|]. left. eauto.
Qed.
Lemma has_lor_r a b m : has b m = true -> has (Z.lor a b) m = true.
Proof.
  unfold has. rewrite !negb_true_iff, !Z.eqb_neq. intros H X. apply H. rewrite Z.land_lor_distr_l in X. apply Z.lor_eq_0_iff in X. apply X.
Qed.
Lemma has_lor_l a b m : has a m = true -> has (Z.lor a b) m = true.
Proof. rewrite Z.lor_comm. apply has_lor_r. Qed.
Lemma eval_leaves (w : world) q cur k ref : leaves w (evalu w q cur [] k ref).
Proof.
  unfold evaluate. cbn [app]. destruct (w_poll w) as [[p r]|]; [|right; apply bad_well].
  destruct (w_abort w 1) eqn:A. { left. split; [reflexivity|]. eexists. eexists. split; [reflexivity|]. left. eauto. }
  destruct (has _ RES_WAIT) eqn:EW. { left. split; [reflexivity|]. eexists. eexists. split; [reflexivity|]. right. exact EW. }
  destruct (has _ RES_FAIL); [right; apply fin_well|]. destruct (has _ RES_MISSING); [right; apply fin_well|].
  destruct (a_cells q) as [cl|]; [|apply con_leaves; reflexivity]. destruct (w_childcells w) as [rc|]; [|right; apply bad_well].
  destruct (0 <=? _).
  - destruct (w_get w) as [[kc r']|]; [|right; apply bad_well]. destruct (has kc RES_WAIT) eqn:E; [|apply con_leaves; reflexivity].
    left. split; [reflexivity|]. eexists. eexists. split; [reflexivity|]. right. apply has_lor_r, E.
  - destruct (_ =? _); [|apply con_leaves; reflexivity]. destruct (w_spids w) as [[kc r']|]; [apply con_leaves; reflexivity|right; apply bad_well].
Qed.
Lemma plus_leaves w l o : filter isCache l = [] -> leaves w o -> leaves w (plus l o).
Proof.
  intros E [[U X]|X]; [left|right; apply plus_well, X]. split; [|exact X]. unfold uncached in *. cbn. rewrite filter_app, E, U. reflexivity.
Qed.
Lemma acts0_cache (w : world) cur q : filter isCache (acts0 w cur q) = [].
Proof. unfold acts0. destruct (took w cur q); [|reflexivity]. induction (fst (w_commands w)); [reflexivity|assumption]. Qed.
Lemma exec_leaves (w : world) cur q ref : (exists k r, w_abort w 0 = false /\ w_lookup w = LHit k r /\ exec w cur q ref = stop cur [] k (newer ref r)) \/ leaves w (exec w cur q ref).
Proof.
  destruct (processed_dec w) as [P|N].
  - right. rewrite exec_rest; [|exact P]. apply plus_leaves; [apply acts0_cache|]. unfold rest. destruct (code0 w cur q); [|right; apply bad_well].
    destruct (w_active w); [apply eval_leaves|right; apply fin_well].
  - destruct (exec_not w cur q ref N) as [[A ->]|[(A & B & ->)|X]]; [right; left|right; right; apply bad_well|left; exact X].
    split; [reflexivity|]. exists RES_ABORT, ref. split; [reflexivity|]. left. eauto.
Qed.
End Execute.
