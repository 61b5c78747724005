(** Proofs about the multithreaded evaluation of a tree. *)
From Coq Require Import Permutation Sorted.
From Verif Require Import Base Pool_Model Pool_Proofs Mtree_Model Mtree_Spec.

(** ** Counting *)
Definition cnt {A} (P : A -> bool) (l : list A) : nat := length (filter P l).
Lemma cnt_app {A} (P : A -> bool) a b : cnt P (a ++ b) = cnt P a + cnt P b.
Proof. unfold cnt. now rewrite filter_app, app_length. Qed.
Lemma cnt_cons {A} (P : A -> bool) x l : cnt P (x :: l) = (if P x then 1 else 0) + cnt P l.
Proof. unfold cnt. cbn [filter]. destruct (P x); reflexivity. Qed.
Lemma cnt_nil {A} (P : A -> bool) : cnt P [] = 0.
Proof. reflexivity. Qed.
Lemma cnt_perm {A} (P : A -> bool) a b : Permutation a b -> cnt P a = cnt P b.
Proof. induction 1; rewrite ?cnt_cons; auto; lia. Qed.
Lemma cnt_pos {A} (P : A -> bool) l : 0 < cnt P l -> exists x, In x l /\ P x = true.
Proof.
  induction l as [|x l IH]; [cbn; lia|]. rewrite cnt_cons. destruct (P x) eqn:E; [intros _; exists x; split; [now left|auto]|].
  intro H. destruct IH as (y & Hy & Py); [lia|]. exists y. split; [now right|auto].
Qed.
Lemma cnt_zero {A} (P : A -> bool) l : cnt P l = 0 -> forall x, In x l -> P x = false.
Proof. intros H x Hx. destruct (P x) eqn:E; auto. exfalso. induction l as [|y l IH]; [destruct Hx|]. rewrite cnt_cons in H. destruct Hx as [->|Hx]; [rewrite E in H; lia|]. apply IH; [lia|auto]. Qed.
Lemma cnt_ext {A} (P Q : A -> bool) l : (forall x, In x l -> P x = Q x) -> cnt P l = cnt Q l.
Proof. induction l as [|x l IH]; intro H; [reflexivity|]. rewrite !cnt_cons, (H x (or_introl eq_refl)), IH; auto. intros y Hy. apply H. now right. Qed.
Lemma cnt_le {A} (P Q : A -> bool) l : (forall x, In x l -> P x = true -> Q x = true) -> cnt P l <= cnt Q l.
Proof.
  induction l as [|x l IH]; intro H; [reflexivity|]. rewrite !cnt_cons. assert (cnt P l <= cnt Q l) by (apply IH; intros y Hy; apply H; now right).
  pose proof (H x (or_introl eq_refl)) as Hx. destruct (P x); [rewrite Hx by reflexivity|destruct (Q x)]; lia.
Qed.

(** ** Invariant on the queue and the frames *)
Definition oseq (o : order work) : nat := w_seq (o_what o).
Definition opol (o : order work) : nat := w_poll (o_what o).
Definition fseq (f : frame) : nat := oseq (f_order f).
Definition fpol (f : frame) : nat := opol (f_order f).
Definition dep (f : frame) : nat := o_depth (f_order f).
Definition waitp (f : frame) : option (nat * nat) := match f_phase f with PLook p d | PNull p d | PSleep p d => Some (p, d) | _ => None end.
Definition live (f : frame) : bool := match f_phase f with PDelivered => false | _ => true end.
Definition olab (o : order work) : list (nat * nat) := labels (o_depth o) (w_tree (o_what o)).
Definition tlab (x : nat * tree) : list (nat * nat) := labels (fst x) (snd x).
Definition flab (f : frame) : list (nat * nat) := flat_map tlab (f_todo f).
Definition started (d : nat) (f : frame) : bool := Nat.eqb (dep f) d && negb (existsb (fun x => Nat.eqb (fst x) (dep f)) (f_todo f)).
Definition frame_ok (f : frame) : Prop :=
  (forall x, In x (f_todo f) -> dep f <= fst x) /\ (forall p d, waitp f = Some (p, d) -> dep f < d) /\ (f_phase f = PDelivered -> f_todo f = []).

Record FI (t : tree) (q : list (order work)) (F : list frame) (polls : list (nat * nat)) (log : list (nat * nat)) (n : nat) (nthr : nat -> nat) (nlen : nat) : Prop := {
  F_frm : forall f, In f F -> frame_ok f;
  F_nthr : forall d, nthr d = cnt (fun f => Nat.eqb (dep f) d) F;
  F_qlen : forall o, In o q -> o_depth o < nlen;
  F_flen : forall f, In f F -> dep f < nlen;
  F_log : Permutation (log ++ flat_map olab q ++ flat_map flab F) (labels 0 t);
  F_started : forall d, cnt (started d) F <= cnt (fun x => Nat.eqb (fst x) d) log;
  F_polls : forall p ret num, nth_error polls p = Some (ret, num) -> num = ret + cnt (fun o => Nat.eqb (opol o) p) q + cnt (fun f => live f && Nat.eqb (fpol f) p) F;
  F_qpid : forall o, In o q -> opol o < length polls;
  F_fpid : forall f, In f F -> fpol f < length polls;
  F_wpid : forall f p d, In f F -> waitp f = Some (p, d) -> p < length polls;
  F_qown : forall o, In o q -> exists f d, In f F /\ waitp f = Some (opol o, d);
  F_fown : forall g, In g F -> live g = true -> f_order g = root_order t \/ exists f d, In f F /\ waitp f = Some (fpol g, d);
  F_qdep : forall f p d o, In f F -> waitp f = Some (p, d) -> In o q -> opol o = p -> o_depth o = d /\ fseq f < oseq o;
  F_fdep : forall f p d g, In f F -> waitp f = Some (p, d) -> In g F -> fpol g = p -> dep g = d /\ fseq f < fseq g;
  F_qseq : forall o, In o q -> oseq o < n;
  F_fseq : forall f, In f F -> fseq f < n;
  F_sort : StronglySorted (fun a b => oseq b < oseq a) q }.

Lemma flat_map_perm {A B} (f : A -> list B) a b : Permutation a b -> Permutation (flat_map f a) (flat_map f b).
Proof.
  induction 1; cbn [flat_map]; auto.
  - now apply Permutation_app_head. - rewrite !app_assoc. apply Permutation_app_tail, Permutation_app_comm. - eapply Permutation_trans; eauto.
Qed.
Lemma FI_perm t q F F' polls log n nthr nlen : Permutation F F' -> FI t q F polls log n nthr nlen -> FI t q F' polls log n nthr nlen.
Proof.
  intros P I. assert (P' := Permutation_sym P). pose proof (fun f => @Permutation_in _ _ _ f P') as B. pose proof (fun f => @Permutation_in _ _ _ f P) as Fw.
  destruct I. constructor; eauto.
  - intro d. rewrite <- (cnt_perm _ _ _ P). auto.
  - rewrite <- F_log0. apply Permutation_app_head, Permutation_app_head. now apply flat_map_perm.
  - intro d. rewrite <- (cnt_perm _ _ _ P). auto.
  - intros. rewrite <- (cnt_perm _ _ _ P). auto.
  - intros o Ho. destruct (F_qown0 o Ho) as (f & d & H1 & H2). eauto.
  - intros g Hg L. destruct (F_fown0 g (B g Hg) L) as [H|(f & d & H1 & H2)]; [now left|right; exists f, d; auto].
Qed.

(** frames that differ only in their phase, without waking anybody's interest *)
Definition sim (f g : frame) : Prop := f_order g = f_order f /\ f_todo g = f_todo f /\ waitp g = waitp f /\ live g = live f.
Lemma sim_refl f : sim f f.
Proof. repeat split. Qed.
Lemma live_false f : live f = false <-> f_phase f = PDelivered.
Proof. unfold live. destruct (f_phase f); split; congruence. Qed.
Lemma sim_ok f g : sim f g -> frame_ok f -> frame_ok g.
Proof.
  intros (E1 & E2 & E3 & E4) (H1 & H2 & H3). unfold frame_ok, dep in *. rewrite E1, E2, E3. split; [auto|split; [auto|]].
  intro H. apply H3. apply live_false. rewrite <- E4. now apply live_false.
Qed.
Lemma sim_cnt (P : frame -> bool) F G : (forall f g, sim f g -> P g = P f) -> Forall2 sim F G -> cnt P G = cnt P F.
Proof. intros H. induction 1; rewrite ?cnt_cons; auto. rewrite (H x y); auto. Qed.
Lemma sim_in F G g : Forall2 sim F G -> In g G -> exists f, In f F /\ sim f g.
Proof. induction 1; intros []; [subst; eexists; split; [now left|auto]|]. destruct (IHForall2 H1) as (f & ? & ?). exists f. split; [now right|auto]. Qed.
Lemma sim_in' F G f : Forall2 sim F G -> In f F -> exists g, In g G /\ sim f g.
Proof. induction 1; intros []; [subst; eexists; split; [now left|auto]|]. destruct (IHForall2 H1) as (g & ? & ?). exists g. split; [now right|auto]. Qed.
Lemma sim_flab F G : Forall2 sim F G -> flat_map flab G = flat_map flab F.
Proof. induction 1 as [|f g F G (E1 & E2 & E3 & E4) H IH]; cbn [flat_map]; auto. rewrite IH. unfold flab. now rewrite E2. Qed.
Lemma FI_sim t q F G polls log n nthr nlen : Forall2 sim F G -> FI t q F polls log n nthr nlen -> FI t q G polls log n nthr nlen.
Proof.
  intros S I. destruct I. constructor; auto.
  - intros g Hg. destruct (sim_in _ _ _ S Hg) as (f & Hf & Sf). eapply sim_ok; eauto.
  - intro d. rewrite (sim_cnt (fun f => Nat.eqb (dep f) d) F G); auto. intros f g (E & _). unfold dep. now rewrite E.
  - intros g Hg. destruct (sim_in _ _ _ S Hg) as (f & Hf & (E & _)). unfold dep. rewrite E. now apply F_flen0.
  - now rewrite (sim_flab _ _ S).
  - intro d. rewrite (sim_cnt (started d) F G); auto. intros f g (E & E2 & _). unfold started, dep. now rewrite E, E2.
  - intros p ret num H. rewrite (sim_cnt (fun f => live f && Nat.eqb (fpol f) p) F G); auto. intros f g (E & _ & _ & E4). unfold fpol. now rewrite E, E4.
  - intros g Hg. destruct (sim_in _ _ _ S Hg) as (f & Hf & (E & _)). unfold fpol. rewrite E. now apply F_fpid0.
  - intros g p d Hg W. destruct (sim_in _ _ _ S Hg) as (f & Hf & (_ & _ & E3 & _)). rewrite E3 in W. eauto.
  - intros o Ho. destruct (F_qown0 o Ho) as (f & d & H1 & H2). destruct (sim_in' _ _ _ S H1) as (g & Hg & (_ & _ & E3 & _)). exists g, d. split; [auto|congruence].
  - intros g Hg L. destruct (sim_in _ _ _ S Hg) as (f & Hf & (E1 & _ & E3 & E4)). unfold fpol. rewrite E1. rewrite E4 in L. destruct (F_fown0 f Hf L) as [H|(f2 & d & H1 & H2)]; [now left|right].
    destruct (sim_in' _ _ _ S H1) as (g2 & Hg2 & (_ & _ & E3' & _)). exists g2, d. split; [auto|unfold fpol in *; congruence].
  - intros g p d o Hg W Ho Ep. destruct (sim_in _ _ _ S Hg) as (f & Hf & (E1 & _ & E3 & _)). rewrite E3 in W. unfold fseq. rewrite E1. eapply F_qdep0; eauto.
  - intros g p d g2 Hg W Hg2 Ep. destruct (sim_in _ _ _ S Hg) as (f & Hf & (E1 & _ & E3 & _)). destruct (sim_in _ _ _ S Hg2) as (f2 & Hf2 & (E1' & _)). rewrite E3 in W. unfold fseq, dep, fpol in *. rewrite E1, E1' in *. eapply F_fdep0; eauto.
  - intros g Hg. destruct (sim_in _ _ _ S Hg) as (f & Hf & (E & _)). unfold fseq. rewrite E. now apply F_fseq0.
Qed.

(** an order is taken *)
Lemma FI_take t o q F polls log n nthr nthr' nlen : FI t (o :: q) F polls log n nthr nlen ->
  (forall d, nthr' d = nthr d + if Nat.eqb d (o_depth o) then 1 else 0) -> FI t q (begin_frame o :: F) polls log n nthr' nlen.
Proof.
  intros I Hn. destruct I. constructor.
  - intros f [<-|Hf]; [|auto]. split; [|split]; cbn; try discriminate. intros x [<-|[]]. apply le_n.
  - intro d. rewrite cnt_cons, Hn, F_nthr0. cbv beta. change (dep (begin_frame o)) with (o_depth o). rewrite (Nat.eqb_sym d). lia.
  - intros o' Ho. apply F_qlen0. now right.
  - intros f [<-|Hf]; [|auto]. apply F_qlen0. now left.
  - rewrite <- F_log0. apply Permutation_app_head. cbn [flat_map]. unfold flab at 1. cbn [begin_frame f_todo flat_map]. unfold tlab at 1. cbn [fst snd]. rewrite app_nil_r. fold (olab o).
    rewrite !app_assoc. apply Permutation_app_tail, Permutation_app_comm.
  - intro d. rewrite cnt_cons. replace (started d (begin_frame o)) with false; [apply F_started0|]. unfold started. cbn. unfold dep. cbn. rewrite Nat.eqb_refl. cbn. now rewrite andb_false_r.
  - intros p ret num H. specialize (F_polls0 p ret num H). rewrite cnt_cons in F_polls0. rewrite cnt_cons. change (live (begin_frame o)) with true. change (fpol (begin_frame o)) with (opol o). cbn [andb]. lia.
  - intros o' Ho. apply F_qpid0. now right.
  - intros f [<-|Hf]; [|auto]. apply F_qpid0. now left.
  - intros f p d [<-|Hf] W; [discriminate|eauto].
  - intros o' Ho. destruct (F_qown0 o' (or_intror Ho)) as (f & d & H1 & H2). exists f, d. split; [now right|auto].
  - intros g [<-|Hg] L.
    + right. destruct (F_qown0 o (or_introl eq_refl)) as (f & d & H1 & H2). exists f, d. split; [now right|auto].
    + destruct (F_fown0 g Hg L) as [H|(f & d & H1 & H2)]; [now left|right; exists f, d; split; [now right|auto]].
  - intros f p d o' [<-|Hf] W Ho E; [discriminate|]. eapply F_qdep0; eauto. now right.
  - intros f p d g [<-|Hf] W [<-|Hg] E; try discriminate; [|eauto]. eapply (F_qdep0 f p d o); eauto. now left.
  - intros o' Ho. apply F_qseq0. now right.
  - intros f [<-|Hf]; [|auto]. apply F_qseq0. now left.
  - now inversion F_sort0.
Qed.

(** an order is finished with *)
Lemma FI_finish t q f F polls log n nthr nthr' nlen : FI t q (f :: F) polls log n nthr nlen -> f_phase f = PDelivered ->
  (forall d, nthr' d = nthr d - if Nat.eqb d (dep f) then 1 else 0) -> FI t q F polls log n nthr' nlen.
Proof.
  intros I Ph Hn. assert (Lf : live f = false) by now apply live_false. assert (Wf : waitp f = None) by (unfold waitp; now rewrite Ph). destruct I. constructor; auto.
  - intros g Hg. apply F_frm0. now right.
  - intro d. rewrite Hn, F_nthr0, cnt_cons, (Nat.eqb_sym d). destruct (Nat.eqb (dep f) d); lia.
  - intros g Hg. apply F_flen0. now right.
  - rewrite <- F_log0. cbn [flat_map]. destruct (F_frm0 f (or_introl eq_refl)) as (_ & _ & H). unfold flab at 2. rewrite (H Ph). reflexivity.
  - intro d. specialize (F_started0 d). rewrite cnt_cons in F_started0. lia.
  - intros p ret num H. specialize (F_polls0 p ret num H). rewrite cnt_cons, Lf in F_polls0. exact F_polls0.
  - intros g Hg. apply F_fpid0. now right.
  - intros g p d Hg. apply F_wpid0. now right.
  - intros o Ho. destruct (F_qown0 o Ho) as (g & d & [<-|H1] & H2); [congruence|]. eauto.
  - intros g Hg L. destruct (F_fown0 g (or_intror Hg) L) as [H|(f2 & d & [<-|H1] & H2)]; [now left|congruence|]. right. eauto.
  - intros g p d o Hg. apply F_qdep0. now right.
  - intros g p d g2 Hg W Hg2. apply F_fdep0; [now right|auto|now right].
  - intros g Hg. apply F_fseq0. now right.
Qed.

(** a poll is over *)
Lemma FI_resume t q f g F polls log n nthr nlen p d ret num : FI t q (f :: F) polls log n nthr nlen -> waitp f = Some (p, d) -> nth_error polls p = Some (ret, num) -> num <= ret ->
  f_order g = f_order f -> f_todo g = f_todo f -> f_phase g = PRun -> FI t q (g :: F) polls log n nthr nlen.
Proof.
  intros I W Hp L E1 E2 Ph. assert (Wg : waitp g = None) by (unfold waitp; now rewrite Ph). assert (Lg : live g = true) by (unfold live; now rewrite Ph).
  assert (Lf : live f = true) by (unfold waitp in W; unfold live; destruct (f_phase f); congruence).
  assert (Cf : forall P : frame -> bool, P g = P f -> cnt P (g :: F) = cnt P (f :: F)) by (intros P H; now rewrite !cnt_cons, H).
  destruct I. pose proof (F_polls0 p ret num Hp) as Z.
  assert (Zq : cnt (fun o => Nat.eqb (opol o) p) q = 0) by lia. assert (Zf : cnt (fun f => live f && Nat.eqb (fpol f) p) (f :: F) = 0) by lia.
  constructor; auto.
  - intros h [<-|Hh]; [|apply F_frm0; now right]. destruct (F_frm0 f (or_introl eq_refl)) as (H1 & H2 & H3). split; [|split].
    + unfold dep. rewrite E1, E2. exact H1. + congruence. + congruence.
  - intro e. rewrite Cf; auto. unfold dep. now rewrite E1.
  - intros h [<-|Hh]; [|apply F_flen0; now right]. unfold dep. rewrite E1. apply F_flen0. now left.
  - rewrite <- F_log0. cbn [flat_map]. unfold flab at 1 3. now rewrite E2.
  - intro e. rewrite Cf; auto. unfold started, dep. now rewrite E1, E2.
  - intros p' ret' num' H. rewrite Cf; auto. unfold fpol. now rewrite E1, Lf, Lg.
  - intros h [<-|Hh]; [|apply F_fpid0; now right]. unfold fpol. rewrite E1. apply F_fpid0. now left.
  - intros h p' d' [<-|Hh] W'; [congruence|]. eapply F_wpid0; [right; eauto|eauto].
  - intros o Ho. destruct (F_qown0 o Ho) as (h & d' & [<-|H1] & H2).
    + exfalso. rewrite W in H2. injection H2 as E _. pose proof (cnt_zero _ _ Zq o Ho) as X. cbn in X. apply Nat.eqb_neq in X. congruence.
    + exists h, d'. split; [now right|auto].
  - intros h Hh Lh. assert (Hh' : exists h', In h' (f :: F) /\ f_order h' = f_order h /\ live h' = true) by (destruct Hh as [<-|Hh]; [exists f|exists h]; cbn; auto).
    destruct Hh' as (h' & Hh' & Eh & Lh'). destruct (F_fown0 h' Hh' Lh') as [H|(f2 & d' & [<-|H1] & H2)].
    + left. congruence.
    + exfalso. rewrite W in H2. injection H2 as E _. pose proof (cnt_zero _ _ Zf h' Hh') as X. cbn in X. rewrite Lh' in X. cbn in X. apply Nat.eqb_neq in X. congruence.
    + right. exists f2, d'. split; [now right|]. unfold fpol in *. congruence.
  - intros h p' d' o [<-|Hh] W'; [congruence|]. apply F_qdep0; auto. now right.
  - intros h p' d' h2 [<-|Hh] W' [<-|Hh2] E; try congruence.
    + unfold dep, fseq. rewrite E1. apply (F_fdep0 h p' d' f); auto; [now right|now left|]. unfold fpol in *. congruence.
    + apply (F_fdep0 h p' d' h2); auto; now right.
  - intros h [<-|Hh]; [|apply F_fseq0; now right]. unfold fseq. rewrite E1. apply F_fseq0. now left.
Qed.

(** a result is delivered *)
Lemma set_poll_length l p v : length (set_poll l p v) = length l.
Proof. revert p. induction l as [|x l IH]; intros [|p]; cbn; auto. Qed.
Lemma set_poll_nth l p v q : p < length l -> nth_error (set_poll l p v) q = if Nat.eqb q p then Some v else nth_error l q.
Proof.
  revert p q. induction l as [|x l IH]; intros p q H; cbn in H; [lia|]. destruct p, q; cbn; auto. apply IH. lia.
Qed.
Lemma FI_deliver t q f g F polls log n nthr nlen ret num : FI t q (f :: F) polls log n nthr nlen -> f_phase f = PRun -> f_todo f = [] -> nth_error polls (fpol f) = Some (ret, num) ->
  f_order g = f_order f -> f_todo g = [] -> f_phase g = PDelivered -> FI t q (g :: F) (set_poll polls (fpol f) (S ret, num)) log n nthr nlen.
Proof.
  intros I Ph Td Hp E1 E2 Pg. assert (Wf : waitp f = None) by (unfold waitp; now rewrite Ph). assert (Wg : waitp g = None) by (unfold waitp; now rewrite Pg).
  assert (Lg : live g = false) by (unfold live; now rewrite Pg). assert (Lf : live f = true) by (unfold live; now rewrite Ph).
  assert (Cf : forall P : frame -> bool, P g = P f -> cnt P (g :: F) = cnt P (f :: F)) by (intros P H; now rewrite !cnt_cons, H).
  assert (Lp : fpol f < length polls) by (apply nth_error_Some; congruence).
  destruct I. constructor; auto.
  - intros h [<-|Hh]; [|apply F_frm0; now right]. split; [|split]; [rewrite E2; intros x []|congruence|auto].
  - intro e. rewrite Cf; auto. unfold dep. now rewrite E1.
  - intros h [<-|Hh]; [|apply F_flen0; now right]. unfold dep. rewrite E1. apply F_flen0. now left.
  - rewrite <- F_log0. cbn [flat_map]. unfold flab at 1 3. now rewrite E2, Td.
  - intro e. rewrite Cf; auto. unfold started, dep. now rewrite E1, E2, Td.
  - intros p ret' num' H. rewrite set_poll_nth in H by exact Lp. rewrite cnt_cons, Lg. cbn [andb]. destruct (Nat.eqb_spec p (fpol f)) as [->|N].
    + injection H as <- <-. specialize (F_polls0 _ _ _ Hp). rewrite cnt_cons, Lf, Nat.eqb_refl in F_polls0. cbn [andb] in F_polls0. lia.
    + specialize (F_polls0 _ _ _ H). rewrite cnt_cons, Lf in F_polls0. apply not_eq_sym, Nat.eqb_neq in N. rewrite N in F_polls0. exact F_polls0.
  - intros o Ho. rewrite set_poll_length. auto.
  - intros h Hh. rewrite set_poll_length. destruct Hh as [<-|Hh]; [|apply F_fpid0; now right]. unfold fpol. rewrite E1. exact Lp.
  - intros h p d [<-|Hh] W; [congruence|]. rewrite set_poll_length. eapply F_wpid0; [right; eauto|eauto].
  - intros o Ho. destruct (F_qown0 o Ho) as (h & d' & [<-|H1] & H2); [congruence|]. exists h, d'. split; [now right|auto].
  - intros h [<-|Hh] Lh; [congruence|]. destruct (F_fown0 h (or_intror Hh) Lh) as [H|(f2 & d' & [<-|H1] & H2)]; [now left|congruence|]. right. exists f2, d'. split; [now right|auto].
  - intros h p' d' o [<-|Hh] W'; [congruence|]. apply F_qdep0; auto. now right.
  - intros h p' d' h2 [<-|Hh] W' [<-|Hh2] E; try congruence.
    + unfold dep, fseq. rewrite E1. apply (F_fdep0 h p' d' f); auto; [now right|now left|]. unfold fpol in *. congruence.
    + apply (F_fdep0 h p' d' h2); auto; now right.
  - intros h [<-|Hh]; [|apply F_fseq0; now right]. unfold fseq. rewrite E1. apply F_fseq0. now left.
Qed.

(** a node is executed in place *)
Lemma existsb_app' {A} (P : A -> bool) a b : existsb P (a ++ b) = existsb P a || existsb P b.
Proof. apply existsb_app. Qed.
Lemma flat_map_pair d cs : flat_map tlab (map (pair d) cs) = flat_map (labels d) cs.
Proof. induction cs as [|c cs IH]; cbn [map flat_map]; auto. now rewrite IH. Qed.
Lemma started_step f g d l par cs todo e : frame_ok f -> f_todo f = (d, Node l par cs) :: todo -> f_order g = f_order f -> (f_todo g = map (pair (S d)) cs ++ todo \/ f_todo g = todo) ->
  (if started e g then 1 else 0) <= (if started e f then 1 else 0) + (if Nat.eqb d e then 1 else 0).
Proof.
  intros (Ok1 & _) Tf E Tg. assert (Ld : dep f <= d) by (apply (Ok1 (d, Node l par cs)); rewrite Tf; now left).
  assert (Eg : dep g = dep f) by (unfold dep; now rewrite E). unfold started. rewrite Eg, Tf. cbn [existsb fst].
  assert (X : existsb (fun x => Nat.eqb (fst x) (dep f)) (f_todo g) = existsb (fun x => Nat.eqb (fst x) (dep f)) todo).
  { destruct Tg as [->| ->]; [|reflexivity]. rewrite existsb_app. replace (existsb (fun x => Nat.eqb (fst x) (dep f)) (map (pair (S d)) cs)) with false; [reflexivity|].
    symmetry. clear - Ld. induction cs as [|c cs IH]; cbn [map existsb fst]; auto. rewrite IH, orb_false_r. apply Nat.eqb_neq. lia. }
  rewrite X. destruct (Nat.eqb_spec (dep f) e) as [He|He]; cbn [andb]; [|destruct (Nat.eqb d e); lia]. subst e. destruct (Nat.eqb_spec d (dep f)) as [->|N]; [destruct (existsb _ todo); cbn; lia|].
  cbn [orb]. destruct (existsb _ todo); cbn; lia.
Qed.
Lemma FI_inline t q f g F polls log n nthr nlen d l par cs todo : FI t q (f :: F) polls log n nthr nlen -> f_phase f = PRun -> f_todo f = (d, Node l par cs) :: todo ->
  f_order g = f_order f -> f_todo g = map (pair (S d)) cs ++ todo -> f_phase g = PRun -> FI t q (g :: F) polls ((d, l) :: log) n nthr nlen.
Proof.
  intros I Ph Td E1 E2 Pg. assert (Wf : waitp f = None) by (unfold waitp; now rewrite Ph). assert (Wg : waitp g = None) by (unfold waitp; now rewrite Pg).
  assert (Lg : live g = true) by (unfold live; now rewrite Pg). assert (Lf : live f = true) by (unfold live; now rewrite Ph).
  assert (Cf : forall P : frame -> bool, P g = P f -> cnt P (g :: F) = cnt P (f :: F)) by (intros P H; now rewrite !cnt_cons, H).
  destruct I. pose proof (F_frm0 f (or_introl eq_refl)) as Okf. constructor; auto.
  - intros h [<-|Hh]; [|apply F_frm0; now right]. destruct Okf as (H1 & _). split; [|split]; try congruence.
    unfold dep. rewrite E1, E2. fold (dep f). intros x Hx. apply in_app_iff in Hx as [Hx|Hx]; [|apply H1; rewrite Td; now right].
    apply in_map_iff in Hx as (c & <- & _). cbn [fst]. pose proof (H1 (d, Node l par cs)) as X. rewrite Td in X. specialize (X (or_introl eq_refl)). cbn [fst] in X. lia.
  - intro e. rewrite Cf; auto. unfold dep. now rewrite E1.
  - intros h [<-|Hh]; [|apply F_flen0; now right]. unfold dep. rewrite E1. apply F_flen0. now left.
  - rewrite <- F_log0. cbn [flat_map]. unfold flab at 1 3. rewrite E2, Td, flat_map_app, flat_map_pair. cbn [flat_map]. unfold tlab at 2. cbn [fst snd labels]. rewrite <- !app_assoc. cbn [app].
    change ((d, l) :: log ++ ?x) with ((d, l) :: log ++ x). rewrite (app_assoc (flat_map (labels (S d)) cs)). set (A := flat_map (labels (S d)) cs ++ flat_map tlab todo). rewrite app_assoc, (app_assoc log). rewrite <- (Permutation_middle (log ++ flat_map olab q)). cbn [app]. rewrite <- !app_assoc. reflexivity.
  - intro e. pose proof (started_step f g d l par cs todo e Okf Td E1 (or_introl E2)) as X. specialize (F_started0 e). rewrite !cnt_cons in *. cbn [fst]. lia.
  - intros p' ret' num' H. rewrite Cf; auto. unfold fpol. now rewrite E1, Lf, Lg.
  - intros h [<-|Hh]; [|apply F_fpid0; now right]. unfold fpol. rewrite E1. apply F_fpid0. now left.
  - intros h p' d' [<-|Hh] W'; [congruence|]. eapply F_wpid0; [right; eauto|eauto].
  - intros o Ho. destruct (F_qown0 o Ho) as (h & d' & [<-|H1] & H2); [congruence|]. exists h, d'. split; [now right|auto].
  - intros h Hh Lh. assert (Hh' : exists h', In h' (f :: F) /\ f_order h' = f_order h /\ live h' = true) by (destruct Hh as [<-|Hh]; [exists f|exists h]; cbn; auto).
    destruct Hh' as (h' & Hh' & Eh & Lh'). destruct (F_fown0 h' Hh' Lh') as [H|(f2 & d' & [<-|H1] & H2)]; [left; congruence|congruence|].
    right. exists f2, d'. split; [now right|]. unfold fpol in *. congruence.
  - intros h p' d' o [<-|Hh] W'; [congruence|]. apply F_qdep0; auto. now right.
  - intros h p' d' h2 [<-|Hh] W' [<-|Hh2] E; try congruence.
    + unfold dep, fseq. rewrite E1. apply (F_fdep0 h p' d' f); auto; [now right|now left|]. unfold fpol in *. congruence.
    + apply (F_fdep0 h p' d' h2); auto; now right.
  - intros h [<-|Hh]; [|apply F_fseq0; now right]. unfold fseq. rewrite E1. apply F_fseq0. now left.
Qed.

(** a parallel poll is begun *)
Lemma number_in pid n d cs o : In o (number pid n d cs) -> o_depth o = d /\ opol o = pid /\ n <= oseq o < n + length cs.
Proof.
  induction cs as [|c cs IH]; cbn [number]; [intros []|]. intros [<-|H]; [cbn; lia|]. destruct (IH H) as (? & ? & ?). cbn [length]. repeat split; auto; lia.
Qed.
Lemma number_len pid n d cs : length (number pid n d cs) = length cs.
Proof. induction cs; cbn; auto. Qed.
Lemma number_sorted pid n d cs : StronglySorted (fun a b => oseq b < oseq a) (number pid n d cs).
Proof.
  induction cs as [|c cs IH]; cbn [number]; constructor; auto. apply Forall_forall. intros o Ho. apply number_in in Ho as (_ & _ & Ho). cbn. lia.
Qed.
Lemma number_lab pid n d cs : flat_map olab (number pid n d cs) = flat_map (labels d) cs.
Proof. induction cs as [|c cs IH]; cbn [number flat_map]; auto. now rewrite IH. Qed.
Lemma sorted_app {A} (R : A -> A -> Prop) a b : StronglySorted R a -> StronglySorted R b -> (forall x y, In x a -> In y b -> R x y) -> StronglySorted R (a ++ b).
Proof.
  induction a as [|x a IH]; intros Ha Hb H; auto. cbn [app]. inversion_clear Ha. constructor.
  - apply IH; auto. intros y z Hy Hz. apply H; [now right|auto].
  - apply Forall_app. split; auto. apply Forall_forall. intros y Hy. apply H; [now left|auto].
Qed.
Lemma nth_error_snoc {A} (l : list A) x p y : nth_error (l ++ [x]) p = Some y -> nth_error l p = Some y \/ p = length l /\ y = x.
Proof.
  intro H. destruct (Nat.lt_ge_cases p (length l)) as [L|L]; [rewrite nth_error_app1 in H by exact L; now left|]. rewrite nth_error_app2 in H by exact L.
  destruct (p - length l) as [|k] eqn:E; cbn in H; [injection H as <-; right; split; [lia|auto]|]. destruct k; discriminate.
Qed.
Lemma FI_poll t q f g F polls log n nthr nlen nlen' d l par cs todo : FI t q (f :: F) polls log n nthr nlen -> f_phase f = PRun -> f_todo f = (d, Node l par cs) :: todo ->
  f_order g = f_order f -> f_todo g = todo -> f_phase g = PLook (length polls) (S d) -> nlen <= nlen' -> S d < nlen' \/ cs = [] ->
  FI t (number (length polls) n (S d) cs ++ q) (g :: F) (polls ++ [(0, length cs)]) ((d, l) :: log) (n + length cs) nthr nlen'.
Proof.
  intros I Ph Td E1 E2 Pg Ln Ld. assert (Wf : waitp f = None) by (unfold waitp; now rewrite Ph). assert (Wg : waitp g = Some (length polls, S d)) by (unfold waitp; now rewrite Pg).
  assert (Lg : live g = true) by (unfold live; now rewrite Pg). assert (Lf : live f = true) by (unfold live; now rewrite Ph).
  assert (Cf : forall P : frame -> bool, P g = P f -> cnt P (g :: F) = cnt P (f :: F)) by (intros P H; now rewrite !cnt_cons, H).
  destruct I. pose proof (F_frm0 f (or_introl eq_refl)) as Okf. constructor.
  - intros h [<-|Hh]; [|apply F_frm0; now right]. destruct Okf as (H1 & _). pose proof (H1 (d, Node l par cs)) as X. rewrite Td in X. specialize (X (or_introl eq_refl)). cbn [fst] in X. split; [|split].
    + unfold dep. rewrite E1, E2. fold (dep f). intros x Hx. apply H1. rewrite Td. now right.
    + intros p e W. rewrite Wg in W. injection W as <- <-. unfold dep. rewrite E1. fold (dep f). lia.
    + congruence.
  - intro e. rewrite Cf; auto. unfold dep. now rewrite E1.
  - intros o Ho. apply in_app_iff in Ho as [Ho|Ho]; [|specialize (F_qlen0 _ Ho); lia]. destruct Ld as [Ld| ->]; [|destruct Ho]. apply number_in in Ho as (-> & _). exact Ld.
  - intros h [<-|Hh]; [|specialize (F_flen0 h (or_intror Hh)); lia]. unfold dep. rewrite E1. specialize (F_flen0 f (or_introl eq_refl)). unfold dep in F_flen0. lia.
  - rewrite <- F_log0. cbn [flat_map]. unfold flab at 1 3. rewrite E2, Td, flat_map_app, number_lab. cbn [flat_map]. unfold tlab at 2. cbn [fst snd labels].
    set (L := flat_map (labels (S d)) cs). set (Q := flat_map olab q). set (T := flat_map tlab todo). set (Z := flat_map flab F). cbn [app]. rewrite <- !app_assoc.
    rewrite (app_assoc log Q). rewrite <- (Permutation_middle (log ++ Q)). apply perm_skip. rewrite <- !app_assoc. apply Permutation_app_head. rewrite !app_assoc. apply Permutation_app_tail, Permutation_app_tail, Permutation_app_comm.
  - intro e. pose proof (started_step f g d l par cs todo e Okf Td E1 (or_intror E2)) as X. specialize (F_started0 e). rewrite !cnt_cons in *. cbn [fst]. lia.
  - intros p ret num H. rewrite Cf by (unfold fpol; now rewrite E1, Lf, Lg). rewrite cnt_app. apply nth_error_snoc in H as [H|[-> H]].
    + specialize (F_polls0 _ _ _ H). assert (p < length polls) by (apply nth_error_Some; congruence). replace (cnt (fun o => Nat.eqb (opol o) p) (number (length polls) n (S d) cs)) with 0; [lia|].
      symmetry. destruct (cnt _ (number _ _ _ _)) eqn:E; auto. destruct (cnt_pos (fun o => Nat.eqb (opol o) p) (number (length polls) n (S d) cs)) as (o & Ho & Po); [lia|]. apply number_in in Ho as (_ & Ho & _). apply Nat.eqb_eq in Po. lia.
    + injection H as -> ->. assert (C1 : cnt (fun o => Nat.eqb (opol o) (length polls)) (number (length polls) n (S d) cs) = length cs).
      { transitivity (cnt (fun _ : order work => true) (number (length polls) n (S d) cs)).
        - apply cnt_ext. intros o Ho. apply number_in in Ho as (_ & -> & _). apply Nat.eqb_refl.
        - transitivity (length (number (length polls) n (S d) cs)); [|apply number_len]. generalize (number (length polls) n (S d) cs). intro k. unfold cnt. induction k; cbn; auto. }
      assert (C2 : cnt (fun o => Nat.eqb (opol o) (length polls)) q = 0).
      { destruct (cnt _ q) eqn:E; auto. destruct (cnt_pos (fun o => Nat.eqb (opol o) (length polls)) q) as (o & Ho & Po); [lia|]. apply F_qpid0 in Ho. apply Nat.eqb_eq in Po. lia. }
      assert (C3 : cnt (fun h => live h && Nat.eqb (fpol h) (length polls)) (f :: F) = 0).
      { destruct (cnt _ (f :: F)) eqn:E; auto. destruct (cnt_pos (fun h => live h && Nat.eqb (fpol h) (length polls)) (f :: F)) as (o & Ho & Po); [lia|]. apply F_fpid0 in Ho. apply andb_true_iff in Po as [_ Po]. apply Nat.eqb_eq in Po. lia. }
      lia.
  - intros o Ho. rewrite app_length. cbn [length]. apply in_app_iff in Ho as [Ho|Ho]; [apply number_in in Ho as (_ & -> & _); lia|specialize (F_qpid0 _ Ho); lia].
  - intros h Hh. rewrite app_length. cbn [length]. destruct Hh as [<-|Hh]; [|specialize (F_fpid0 h (or_intror Hh)); lia]. unfold fpol. rewrite E1. specialize (F_fpid0 f (or_introl eq_refl)). unfold fpol in F_fpid0. lia.
  - intros h p e Hh W. rewrite app_length. cbn [length]. destruct Hh as [<-|Hh]; [rewrite Wg in W; injection W as <- <-; lia|]. specialize (F_wpid0 h p e (or_intror Hh) W). lia.
  - intros o Ho. apply in_app_iff in Ho as [Ho|Ho].
    + apply number_in in Ho as (_ & -> & _). exists g, (S d). split; [now left|auto].
    + destruct (F_qown0 o Ho) as (h & d' & [<-|H1] & H2); [congruence|]. exists h, d'. split; [now right|auto].
  - intros h Hh Lh. assert (Hh' : exists h', In h' (f :: F) /\ f_order h' = f_order h /\ live h' = true) by (destruct Hh as [<-|Hh]; [exists f|exists h]; cbn; auto).
    destruct Hh' as (h' & Hh' & Eh & Lh'). destruct (F_fown0 h' Hh' Lh') as [H|(f2 & d' & [<-|H1] & H2)]; [left; congruence|congruence|].
    right. exists f2, d'. split; [now right|]. unfold fpol in *. congruence.
  - intros h p e o Hh W Ho E. apply in_app_iff in Ho. destruct Hh as [<-|Hh].
    + rewrite Wg in W. injection W as <- <-. destruct Ho as [Ho|Ho]; [|apply F_qpid0 in Ho; lia]. apply number_in in Ho as (H1 & H2 & H3). split; [exact H1|]. unfold fseq. rewrite E1. specialize (F_fseq0 f (or_introl eq_refl)). unfold fseq in F_fseq0. lia.
    + pose proof (F_wpid0 h p e (or_intror Hh) W). destruct Ho as [Ho|Ho]; [apply number_in in Ho as (_ & Ho & _); lia|]. apply (F_qdep0 h p e o); auto. now right.
  - intros h p e h2 Hh W Hh2 E. assert (P2 : fpol h2 < length polls) by (destruct Hh2 as [<-|Hh2]; [unfold fpol; rewrite E1; apply F_fpid0; now left|apply F_fpid0; now right]).
    destruct Hh as [<-|Hh]; [rewrite Wg in W; injection W as <- <-; lia|]. destruct Hh2 as [<-|Hh2].
    + unfold dep, fseq. rewrite E1. apply (F_fdep0 h p e f); auto; [now right|now left|]. unfold fpol in *. congruence.
    + apply (F_fdep0 h p e h2); auto; now right.
  - intros o Ho. apply in_app_iff in Ho as [Ho|Ho]; [apply number_in in Ho as (_ & _ & Ho); lia|specialize (F_qseq0 _ Ho); lia].
  - intros h [<-|Hh]; [|specialize (F_fseq0 h (or_intror Hh)); lia]. unfold fseq. rewrite E1. specialize (F_fseq0 f (or_introl eq_refl)). unfold fseq in F_fseq0. lia.
  - apply sorted_app; [apply number_sorted|exact F_sort0|]. intros a b Ha Hb. apply number_in in Ha as (_ & _ & Ha). apply F_qseq0 in Hb. lia.
Qed.
