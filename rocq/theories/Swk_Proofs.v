From Coq Require Import Permutation.
From Verif Require Import Base Swk_Model.

(** ** Lists *)
Lemma upd_length {A} (l : list A) i x : length (upd l i x) = length l.
Proof. revert i; induction l as [|y l IH]; intros [|i]; cbn; auto. Qed.
Lemma upd_same {A} (l : list A) i x y : nth_error l i = Some y -> nth_error (upd l i x) i = Some x.
Proof. revert i; induction l as [|z l IH]; intros [|i] E; cbn in *; try discriminate; auto. Qed.
Lemma upd_other {A} (l : list A) i j x : j <> i -> nth_error (upd l i x) j = nth_error l j.
Proof. revert i j; induction l as [|z l IH]; intros [|i] [|j] N; cbn; auto; try lia. Qed.
Lemma upd_split {A} (l : list A) i x y : nth_error l i = Some y -> exists a b, l = a ++ y :: b /\ upd l i x = a ++ x :: b.
Proof.
  revert i; induction l as [|z l IH]; intros [|i] E; cbn in E; try discriminate.
  - injection E as ->. exists [], l. auto.
  - destruct (IH i E) as (a & b & -> & U). exists (z :: a), b. cbn. now rewrite U.
Qed.

Lemma tid_eq_or (a b : tid) : a = b \/ a <> b.
Proof. destruct a as [|i], b as [|j]; [left; reflexivity|right; discriminate|right; discriminate|]. destruct (Nat.eq_dec i j) as [->|N]; [now left|right; congruence]. Qed.

(** ** Fields after goto *)
Definition there (s : state) (t : tid) : Prop := at_pc s t <> None.
Lemma at_goto s t p : there s t -> at_pc (goto t p s) t = Some p.
Proof.
  destruct t as [|i]; [reflexivity|]. unfold there. cbn. destruct (nth_error (workers s) i) as [w|] eqn:E; [|intros H; now destruct H].
  intros _. cbn. now rewrite (upd_same _ _ _ _ E).
Qed.
Lemma at_goto_other s t t' p : t' <> t -> at_pc (goto t p s) t' = at_pc s t'.
Proof.
  intros N. destruct t as [|i], t' as [|j]; cbn; try reflexivity; try congruence.
  - destruct (nth_error (workers s) i); reflexivity.
  - destruct (nth_error (workers s) i); [|reflexivity]. cbn. rewrite upd_other; [reflexivity|congruence].
Qed.
Ltac goto_field := intros; match goal with |- _ (goto ?t _ ?s) = _ => destruct t as [|i]; cbn; [reflexivity|destruct (nth_error (workers s) i); reflexivity] end.
Lemma goto_c t p s : own_c (goto t p s) = own_c s. Proof. goto_field. Qed.
Lemma goto_e t p s : own_e (goto t p s) = own_e s. Proof. goto_field. Qed.
Lemma goto_mt t p s : mt (goto t p s) = mt s. Proof. goto_field. Qed.
Lemma goto_loop t p s : loop (goto t p s) = loop s. Proof. goto_field. Qed.
Lemma goto_jobs t p s : jobs (goto t p s) = jobs s. Proof. goto_field. Qed.
Lemma goto_num t p s : num (goto t p s) = num s. Proof. goto_field. Qed.
Lemma goto_nconv t p s : nconv (goto t p s) = nconv s. Proof. goto_field. Qed.
Lemma goto_exc t p s : exc (goto t p s) = exc s. Proof. goto_field. Qed.
Lemma goto_calls t p s : calls (goto t p s) = calls s. Proof. goto_field. Qed.
Lemma goto_ended t p s : ended (goto t p s) = ended s. Proof. goto_field. Qed.
Lemma goto_main t p s : main (goto t p s) = match t with Main => p | _ => main s end.
Proof. destruct t as [|i]; cbn; [reflexivity|]. destruct (nth_error (workers s) i); reflexivity. Qed.
Global Hint Rewrite goto_c goto_e goto_mt goto_loop goto_jobs goto_num goto_nconv goto_exc goto_calls goto_ended goto_main : goto.

(** ** The invariant: locks *)
Definition holds_c (p : pc) : bool :=
  match p with Loop | Head | After | MLockE | MInit | MExit | MStopping => true | _ => false end.
Definition holds_e (t : tid) (p : pc) : bool :=
  match p with
  | Mark | MInit | MExit | MCheck => true
  | Loop | Solve _ | Back _ => match t with Main => true | _ => false end
  | _ => false
  end.
Definition hc (s : state) (t : tid) : bool := match at_pc s t with Some p => holds_c p | None => false end.
Definition he (s : state) (t : tid) : bool := match at_pc s t with Some p => holds_e t p | None => false end.
Definition owns (o : option tid) (h : tid -> bool) : Prop := forall t, o = Some t <-> h t = true.
Lemma lock_step o o' h h' t : owns o h -> (forall t', t' <> t -> h' t' = h t') ->
  (o' = o /\ h' t = h t) \/ (o = None /\ o' = Some t /\ h' t = true) \/ (h t = true /\ o' = None /\ h' t = false) -> owns o' h'.
Proof.
  intros O K C u. destruct C as [[-> E]|[(-> & -> & E)|(E & -> & E')]].
  - destruct (tid_eq_or u t) as [->|N]; [rewrite E|rewrite K by auto]; apply O.
  - split.
    + intros X. injection X as <-. exact E.
    + intros X. f_equal. destruct (tid_eq_or u t) as [->|N]; [auto|]. rewrite K in X by auto. apply O in X. discriminate.
  - split; [discriminate|]. intros X. destruct (tid_eq_or u t) as [->|N]; [congruence|]. rewrite K in X by auto.
    apply O in X, E. congruence.
Qed.

(** ** The invariant: where threads are *)
Inductive phase := Quiet | Run1 | Run2 | Joining.
Definition ph (m : pc) : phase :=
  match m with Loop | Solve _ | Back _ | MExit => Run1 | MSleep | MWake | MCheck => Run2 | MJoin => Joining | _ => Quiet end.
Definition is_main (m : pc) : bool :=
  match m with CLock | Head | Sleep | Wake | After | ELock | Mark | Exited => false | _ => true end.
Definition okw (f : phase) (mtb : bool) (w : worker) : bool :=
  match f with
  | Quiet => negb (w_active w) && match w_pc w with CLock | Head | Sleep | Wake => true | Exited => negb mtb | _ => false end
  | Joining => negb (w_active w) && match w_pc w with CLock | Head | Wake | Exited => true | _ => false end
  | Run1 => w_active w && match w_pc w with CLock | Head | Wake | Loop | Solve _ | Back _ | After | ELock => true | _ => false end
  | Run2 => if w_active w then match w_pc w with CLock | Head | Wake | Loop | Solve _ | Back _ | After | ELock | Mark => true | _ => false end
            else match w_pc w with CLock | Head | Sleep | Wake => true | _ => false end
  end.
Definition mtok (m : pc) (mtb : bool) : bool :=
  match m with MStop | MStopping | MStopped => true | MJoin => negb mtb | _ => mtb end.
Definition running (m : pc) : Prop := ph m = Run1 \/ ph m = Run2.
Definition past (m : pc) : bool := match m with MExit | MSleep | MWake | MCheck => true | _ => false end.
Definition starting (m : pc) : bool := match m with MStart | MLockE | MInit => true | _ => false end.
Definition complete (s : state) : Prop := num s = length (jobs s) \/ exc s <> 0.

(** ** The invariant: subsolvers *)
Definition hand (p : pc) : list nat := match p with Solve k | Back k => [k] | _ => [] end.
Definition busy (s : state) : list nat := hand (main s) ++ flat_map (fun w => hand (w_pc w)) (workers s).
Definition unconv (js : list job) (k : nat) : bool := negb (j_conv (nojob js k)).
Definition is_conv (o : outcome) : bool := match o with Converges => true | _ => false end.
Definition is_throw (o : outcome) : bool := match o with Throws => true | _ => false end.
Definition count (f : nat -> bool) (l : list nat) : nat := length (filter f l).
Record tally (s : state) : Prop := {
  t_num : num s <= length (jobs s);
  t_calls : calls s = filter (unconv (jobs s)) (seq 0 (num s));
  t_perm : Permutation (calls s) (ended s ++ busy s);
  t_conv : nconv s = count (fun k => j_conv (nojob (jobs s) k)) (seq 0 (num s)) + count (fun k => is_conv (j_out (nojob (jobs s) k))) (ended s);
  t_exc : exc s = count (fun k => is_throw (j_out (nojob (jobs s) k))) (ended s) }.
Record inv (s : state) : Prop := {
  v_c : owns (own_c s) (hc s);
  v_e : owns (own_e s) (he s);
  v_main : is_main (main s) = true;
  v_w : forall i w, nth_error (workers s) i = Some w -> okw (ph (main s)) (mt s) w = true;
  v_mt : mtok (main s) (mt s) = true;
  v_ne : main s <> MStopped -> workers s <> [];
  v_sleep : main s = MSleep -> exists i w, nth_error (workers s) i = Some w /\ w_active w = true;
  v_tally : running (main s) \/ main s = MDone -> tally s;
  v_loop : running (main s) -> loop s = false -> complete s;
  v_past : past (main s) = true -> loop s = false;
  v_done : main s = MDone -> complete s;
  v_fresh : starting (main s) = true -> nconv s = 0;
  v_none : main s = MStopped -> workers s = [] }.

Lemma inv0 : inv state0.
Proof.
  split; cbn [main workers own_c own_e mt loop jobs num state0]; try easy.
  - intros [|[|i]]; cbn; split; discriminate.
  - intros [|[|i]]; cbn; split; discriminate.
  - intros [|i] w E; discriminate.
  - unfold running; cbn. intuition discriminate.
Qed.

(** ** Steps and locks *)
Lemma owns_ext o h h' : owns o h -> (forall t, h' t = h t) -> owns o h'.
Proof. intros O E t. rewrite E. apply O. Qed.
Lemma there_at s t p : at_pc s t = Some p -> there s t.
Proof. unfold there. congruence. Qed.
(** a step of [t] to [p'] with the lock as in the lemma *)
Lemma goto_hc s t p p' o : inv s -> at_pc s t = Some p ->
  (o = own_c s /\ holds_c p' = holds_c p) \/ (own_c s = None /\ o = Some t /\ holds_c p' = true) \/ (holds_c p = true /\ o = None /\ holds_c p' = false) ->
  forall s', own_c s' = o -> at_pc s' t = Some p' -> (forall t', t' <> t -> hc s' t' = hc s t') -> owns (own_c s') (hc s').
Proof.
  intros I A C s' O A' K. apply (lock_step (own_c s) (own_c s') (hc s) (hc s') t); [apply I|exact K|]. rewrite O.
  unfold hc. rewrite A, A'. exact C.
Qed.
Lemma goto_he s t p p' o : inv s -> at_pc s t = Some p ->
  (o = own_e s /\ holds_e t p' = holds_e t p) \/ (own_e s = None /\ o = Some t /\ holds_e t p' = true) \/ (holds_e t p = true /\ o = None /\ holds_e t p' = false) ->
  forall s', own_e s' = o -> at_pc s' t = Some p' -> (forall t', t' <> t -> he s' t' = he s t') -> owns (own_e s') (he s').
Proof.
  intros I A C s' O A' K. apply (lock_step (own_e s) (own_e s') (he s) (he s') t); [apply I|exact K|]. rewrite O.
  unfold he. rewrite A, A'. exact C.
Qed.
(** A step of one thread that only changes its own position and fields other than [workers] *)
Definition alone (t : tid) (p' : pc) (s s' : state) : Prop :=
  main s' = main (goto t p' s) /\ workers s' = workers (goto t p' s).
Lemma alone_at t p' s s' : alone t p' s s' -> there s t -> at_pc s' t = Some p' /\ forall t', t' <> t -> at_pc s' t' = at_pc s t'.
Proof.
  intros [M X] T. split.
  - rewrite <- (at_goto s t p' T). destruct t; cbn [at_pc]; [now rewrite M|now rewrite X].
  - intros t' N. rewrite <- (at_goto_other s t t' p' N). destruct t'; cbn [at_pc]; [now rewrite M|now rewrite X].
Qed.
Lemma alone_locks t p p' s s' oc oe : inv s -> at_pc s t = Some p -> alone t p' s s' -> own_c s' = oc -> own_e s' = oe ->
  (oc = own_c s /\ holds_c p' = holds_c p) \/ (own_c s = None /\ oc = Some t /\ holds_c p' = true) \/ (holds_c p = true /\ oc = None /\ holds_c p' = false) ->
  (oe = own_e s /\ holds_e t p' = holds_e t p) \/ (own_e s = None /\ oe = Some t /\ holds_e t p' = true) \/ (holds_e t p = true /\ oe = None /\ holds_e t p' = false) ->
  owns (own_c s') (hc s') /\ owns (own_e s') (he s').
Proof.
  intros I A L C E HC HE. destruct (alone_at t p' s s' L (there_at _ _ _ A)) as [A' K]. split.
  - apply (goto_hc s t p p' oc); auto. intros t' N. unfold hc. now rewrite K.
  - apply (goto_he s t p p' oe); auto. intros t' N. unfold he. now rewrite K.
Qed.
Lemma alone_refl t p' s f : main (f (goto t p' s)) = main (goto t p' s) -> workers (f (goto t p' s)) = workers (goto t p' s) -> alone t p' s (f (goto t p' s)).
Proof. split; auto. Qed.
Lemma goto_workers_eq t p s s1 : main s1 = main s -> workers s1 = workers s -> alone t p s (goto t p s1).
Proof.
  intros M X. split; destruct t as [|i]; cbn; auto; rewrite X; destruct (nth_error (workers s) i); cbn; auto.
Qed.

Lemma goto_worker i p s w : nth_error (workers s) i = Some w -> goto (W i) p s = set_workers (upd (workers s) i {| w_pc := p; w_active := w_active w |}) s.
Proof. intros E. cbn. now rewrite E. Qed.
(** ** Subsolvers in hand *)
Lemma busy_alone t p p' s s' : at_pc s t = Some p -> alone t p' s s' -> exists r, Permutation (busy s) (hand p ++ r) /\ Permutation (busy s') (hand p' ++ r).
Proof.
  intros A [M X]. unfold busy. rewrite M, X. destruct t as [|i]; cbn [at_pc] in A.
  - injection A as <-. cbn. eauto.
  - destruct (nth_error (workers s) i) as [w|] eqn:E; [|discriminate]. injection A as <-. rewrite (goto_worker _ _ _ _ E). cbn [main workers set_workers].
    destruct (upd_split _ _ {| w_pc := p'; w_active := w_active w |} _ E) as (a & b & Ea & Eb). rewrite Eb. rewrite Ea.
    exists (hand (main s) ++ flat_map (fun w => hand (w_pc w)) a ++ flat_map (fun w => hand (w_pc w)) b).
    rewrite !flat_map_app. cbn [flat_map w_pc]. split; rewrite !app_assoc; apply Permutation_app_tail; rewrite <- (app_assoc _ (hand (main s)) _); apply Permutation_app_comm.
Qed.
Lemma busy_keep t p p' s s' : at_pc s t = Some p -> alone t p' s s' -> hand p' = hand p -> Permutation (busy s) (busy s').
Proof. intros A L E. destruct (busy_alone _ _ _ _ _ A L) as (r & -> & ->). now rewrite E. Qed.
Definition same_jobs (s s' : state) : Prop :=
  jobs s' = jobs s /\ num s' = num s /\ nconv s' = nconv s /\ exc s' = exc s /\ calls s' = calls s /\ ended s' = ended s.
Lemma tally_keep s s' : tally s -> same_jobs s s' -> Permutation (busy s) (busy s') -> tally s'.
Proof.
  intros T (E1 & E2 & E3 & E4 & E5 & E6) P. destruct T as [T1 T2 T3 T4 T5].
  split; rewrite ?E1, ?E2, ?E3, ?E4, ?E5, ?E6; auto. now rewrite <- P.
Qed.
Lemma complete_keep s s' : complete s -> same_jobs s s' -> complete s'.
Proof. intros C (E1 & E2 & E3 & E4 & _). unfold complete. now rewrite E1, E2, E4. Qed.

(** ** A step of a worker *)
Lemma worker_inv i w p' s s' oc oe : inv s -> nth_error (workers s) i = Some w -> alone (W i) p' s s' -> mt s' = mt s -> own_c s' = oc -> own_e s' = oe ->
  (oc = own_c s /\ holds_c p' = holds_c (w_pc w)) \/ (own_c s = None /\ oc = Some (W i) /\ holds_c p' = true) \/ (holds_c (w_pc w) = true /\ oc = None /\ holds_c p' = false) ->
  (oe = own_e s /\ holds_e (W i) p' = holds_e (W i) (w_pc w)) \/ (own_e s = None /\ oe = Some (W i) /\ holds_e (W i) p' = true) \/ (holds_e (W i) (w_pc w) = true /\ oe = None /\ holds_e (W i) p' = false) ->
  okw (ph (main s)) (mt s) {| w_pc := p'; w_active := w_active w |} = true ->
  (running (main s) \/ main s = MDone -> tally s') -> (running (main s) -> loop s' = false -> complete s') ->
  (past (main s) = true -> loop s' = false) -> (main s = MDone -> complete s') -> (starting (main s) = true -> nconv s' = 0) -> inv s'.
Proof.
  intros I E L Emt Ec Ee HC HE OK T1 T2 T3 T4 T5.
  assert (A : at_pc s (W i) = Some (w_pc w)) by (cbn; now rewrite E).
  destruct (alone_locks (W i) (w_pc w) p' s s' oc oe I A L Ec Ee HC HE) as [V1 V2].
  destruct L as [M X]. rewrite (goto_worker _ _ _ _ E) in M, X. cbn [main workers set_workers] in M, X.
  split; auto; rewrite ?M; try apply I.
  - intros j v. rewrite X, Emt. destruct (Nat.eq_dec j i) as [->|N].
    + rewrite (upd_same _ _ _ _ E). intros Q. injection Q as <-. exact OK.
    + rewrite upd_other by auto. apply I.
  - rewrite Emt. apply I.
  - intros N. rewrite X. intros Z. apply (v_ne _ I N). apply length_zero_iff_nil. rewrite <- (upd_length _ i {| w_pc := p'; w_active := w_active w |}), Z. reflexivity.
  - intros N. destruct (v_sleep _ I N) as (j & v & Ej & Av). rewrite X. destruct (Nat.eq_dec j i) as [->|Nj].
    + exists i. rewrite (upd_same _ _ _ _ E). eexists. split; [reflexivity|]. cbn. congruence.
    + exists j, v. rewrite upd_other by auto. auto.
  - exact T1.
  - exact T2.
  - exact T3.
  - exact T4.
  - exact T5.
  - intros Q. rewrite (v_none _ I Q) in E. destruct i; discriminate.
Qed.
(** ... that leaves the subsolvers alone *)
Lemma worker_inv0 i w p' s s' oc oe : inv s -> nth_error (workers s) i = Some w -> alone (W i) p' s s' -> mt s' = mt s -> own_c s' = oc -> own_e s' = oe ->
  (oc = own_c s /\ holds_c p' = holds_c (w_pc w)) \/ (own_c s = None /\ oc = Some (W i) /\ holds_c p' = true) \/ (holds_c (w_pc w) = true /\ oc = None /\ holds_c p' = false) ->
  (oe = own_e s /\ holds_e (W i) p' = holds_e (W i) (w_pc w)) \/ (own_e s = None /\ oe = Some (W i) /\ holds_e (W i) p' = true) \/ (holds_e (W i) (w_pc w) = true /\ oe = None /\ holds_e (W i) p' = false) ->
  okw (ph (main s)) (mt s) {| w_pc := p'; w_active := w_active w |} = true ->
  same_jobs s s' -> loop s' = loop s -> hand p' = hand (w_pc w) -> inv s'.
Proof.
  intros I E L Emt Ec Ee HC HE OK J Lp H.
  assert (A : at_pc s (W i) = Some (w_pc w)) by (cbn; now rewrite E).
  apply (worker_inv i w p' s s' oc oe); auto.
  - intros R. apply (tally_keep s); auto; [apply (v_tally _ I R)|]. now apply (busy_keep (W i) (w_pc w) p').
  - intros R. rewrite Lp. intros Z. apply (complete_keep s); auto. apply (v_loop _ I R Z).
  - rewrite Lp. apply I.
  - intros D. apply (complete_keep s); auto. apply (v_done _ I D).
  - intros Q. destruct J as (_ & _ & J & _). rewrite J. apply (v_fresh _ I Q).
Qed.

(** ** A step of the main thread *)
Lemma main_inv p' s s' oc oe : inv s -> alone Main p' s s' -> own_c s' = oc -> own_e s' = oe ->
  (oc = own_c s /\ holds_c p' = holds_c (main s)) \/ (own_c s = None /\ oc = Some Main /\ holds_c p' = true) \/ (holds_c (main s) = true /\ oc = None /\ holds_c p' = false) ->
  (oe = own_e s /\ holds_e Main p' = holds_e Main (main s)) \/ (own_e s = None /\ oe = Some Main /\ holds_e Main p' = true) \/ (holds_e Main (main s) = true /\ oe = None /\ holds_e Main p' = false) ->
  is_main p' = true -> (forall i w, nth_error (workers s) i = Some w -> okw (ph p') (mt s') w = true) -> mtok p' (mt s') = true -> p' <> MStopped -> workers s <> [] ->
  (p' = MSleep -> exists i w, nth_error (workers s) i = Some w /\ w_active w = true) ->
  (running p' \/ p' = MDone -> tally s') -> (running p' -> loop s' = false -> complete s') ->
  (past p' = true -> loop s' = false) -> (p' = MDone -> complete s') -> (starting p' = true -> nconv s' = 0) -> inv s'.
Proof.
  intros I L Ec Ee HC HE OM OK MT NS NE SL T1 T2 T3 T4 T5.
  destruct (alone_locks Main (main s) p' s s' oc oe I eq_refl L Ec Ee HC HE) as [V1 V2].
  destruct L as [M X]. cbn in M, X. split; auto; rewrite ?M, ?X; auto. intros Q. contradiction.
Qed.
Lemma okw_same f mtb mtb' w : f <> Quiet -> okw f mtb w = okw f mtb' w.
Proof. now destruct f. Qed.

(** ** The steps in the loop, by whatever thread *)
Definition in_loop (p : pc) : bool := match p with Loop | Solve _ | Back _ => true | _ => false end.
Lemma loop_running t p s : inv s -> at_pc s t = Some p -> in_loop p = true -> running (main s) /\ (t = Main -> ph (main s) = Run1).
Proof.
  intros I A L. destruct t as [|i]; cbn in A.
  - injection A as ->. destruct p; try discriminate; split; [now left|auto|now left|auto|now left|auto].
  - split; [|discriminate]. destruct (nth_error (workers s) i) as [w|] eqn:E; [|discriminate]. injection A as <-.
    pose proof (v_w _ I _ _ E) as K. unfold running. destruct (ph (main s)); auto; cbn in K; destruct (w_pc w); try discriminate; rewrite andb_false_r in K; discriminate.
Qed.
(** [p'] is Loop, Solve, Back or the position behind the loop *)
Lemma loop_inv t p p' s s' oc : inv s -> at_pc s t = Some p -> in_loop p = true -> (in_loop p' = true \/ p' = behind t) -> alone t p' s s' -> mt s' = mt s ->
  own_c s' = oc -> own_e s' = own_e s ->
  (oc = own_c s /\ holds_c p' = holds_c p) \/ (own_c s = None /\ oc = Some t /\ holds_c p' = true) \/ (holds_c p = true /\ oc = None /\ holds_c p' = false) ->
  tally s' -> (loop s' = false -> complete s') -> ((loop s = false \/ p' = behind t) -> loop s' = false) -> inv s'.
Proof.
  intros I A L L' AL Emt Ec Ee HC T1 T2 T3. destruct (loop_running t p s I A L) as [R R1]. destruct t as [|i].
  - cbn in A. injection A as A. subst p. pose proof (R1 eq_refl) as P1.
    assert (P' : ph p' = Run1) by (destruct L' as [L'| ->]; [destruct p'; easy|reflexivity]).
    apply (main_inv p' s s' oc (own_e s)); auto.
    + left. split; [auto|]. destruct L' as [L'| ->]; [|cbn; now destruct (main s)]. destruct p'; try discriminate; cbn; destruct (main s); easy.
    + destruct L' as [L'| ->]; [destruct p'; easy|reflexivity].
    + intros i w E. rewrite P', <- P1, Emt. apply (v_w _ I _ _ E).
    + rewrite Emt. pose proof (v_mt _ I) as K. destruct (main s); try discriminate; destruct L' as [L'| ->]; cbn in *; auto; destruct p'; easy.
    + intros ->. discriminate.
    + apply (v_ne _ I). intros Z. rewrite Z in P1. discriminate.
    + intros ->. discriminate.
    + intros Q. apply T3. right. destruct L' as [L'|E]; [destruct p'; easy|auto].
    + intros ->. discriminate.
    + intros Q. destruct p'; discriminate.
  - cbn in A. destruct (nth_error (workers s) i) as [w|] eqn:E; [|discriminate]. injection A as A. subst p.
    apply (worker_inv i w p' s s' oc (own_e s)); auto.
    + left. split; [auto|]. destruct L' as [L'| ->]; [destruct p'; try discriminate|]; destruct (w_pc w); easy.
    + pose proof (v_w _ I _ _ E) as K. destruct R as [R|R]; rewrite R in *; cbn in *.
      * destruct (w_active w); [|discriminate]. destruct L' as [L'| ->]; [destruct p'; easy|reflexivity].
      * destruct (w_active w); [destruct L' as [L'| ->]; [destruct p'; easy|reflexivity]|destruct (w_pc w); discriminate].
    + intros Q. apply T3. left. now apply (v_past _ I).
    + intros Q. rewrite Q in R. destruct R; discriminate.
    + intros Q. destruct R as [R|R]; destruct (main s); discriminate.
Qed.
Lemma upd_id {A} (l : list A) i x : nth_error l i = Some x -> upd l i x = l.
Proof. revert i; induction l as [|y l IH]; intros [|i] E; cbn in *; try discriminate; [congruence|]. f_equal. auto. Qed.
Lemma alone_stay t p s s' : at_pc s t = Some p -> main s' = main s -> workers s' = workers s -> alone t p s s'.
Proof.
  intros A M X. split; destruct t as [|i]; cbn in *.
  - congruence.
  - destruct (nth_error (workers s) i) eqn:E; cbn; auto.
  - auto.
  - destruct (nth_error (workers s) i) as [w|] eqn:E; [|discriminate]. injection A as <-. cbn. rewrite X. symmetry. apply upd_id. rewrite E. now destruct w.
Qed.
Lemma count_app f a b : count f (a ++ b) = count f a + count f b.
Proof. unfold count. now rewrite filter_app, app_length. Qed.
Lemma count_one f k : count f [k] = if f k then 1 else 0.
Proof. unfold count. cbn. now destruct (f k). Qed.
Lemma seq_next n : seq 0 (S n) = seq 0 n ++ [n].
Proof. now rewrite seq_S. Qed.

Lemma complete_more s s' : complete s -> jobs s' = jobs s -> num s <= num s' -> num s' <= length (jobs s') -> exc s <= exc s' -> complete s'.
Proof. unfold complete. intros [C|C] E N L X; [left; rewrite E in *; lia|right; lia]. Qed.
Lemma complete_thrown s : exc s <> 0 -> complete s.
Proof. now right. Qed.
Lemma run_loop t s s' : inv s -> at_pc s t = Some Loop -> run t s = Some s' -> inv s'.
Proof.
  intros I A E. unfold run in E. rewrite A in E. destruct (loop_running t Loop s I A eq_refl) as [R R1].
  pose proof (v_tally _ I (or_introl R)) as T. destruct T as [T1 T2 T3 T4 T5].
  destruct (Nat.ltb_spec (num s) (length (jobs s))) as [N|N].
  - destruct (j_conv (nojob (jobs s) (num s))) eqn:J.
    + injection E as <-. set (s' := set_counts _ _ _ _ _ s). assert (AL : alone t Loop s s') by now apply alone_stay.
      assert (B : busy s' = busy s) by reflexivity.
      apply (loop_inv t Loop Loop s s' (own_c s)); auto.
      * split.
        -- exact N.
        -- cbn [calls jobs num s' set_counts]. rewrite seq_next, filter_app, T2. cbn [filter]. unfold unconv at 3. rewrite J. now rewrite app_nil_r.
        -- rewrite B. exact T3.
        -- cbn [nconv jobs num ended s' set_counts]. rewrite seq_next, count_app, count_one, J. lia.
        -- exact T5.
      * intros Z. apply (complete_more s); cbn; auto. now apply (v_loop _ I R).
      * intros [Z|Z]; [exact Z|]. destruct t; discriminate.
    + injection E as <-. set (s1 := set_c None _). assert (AL : alone t (Solve (num s)) s (goto t (Solve (num s)) s1)) by now apply goto_workers_eq.
      destruct (busy_alone _ _ _ _ _ A AL) as (r & B1 & B2). cbn [hand app] in B1, B2.
      apply (loop_inv t Loop (Solve (num s)) s (goto t (Solve (num s)) s1) None); auto; autorewrite with goto; auto.
      * split; autorewrite with goto; cbn [jobs num nconv exc calls ended s1 set_c set_counts].
        -- exact N.
        -- rewrite seq_next, filter_app, T2. cbn [filter]. unfold unconv at 3. now rewrite J.
        -- rewrite B2, T3, B1. rewrite <- app_assoc. apply Permutation_app_head. change (num s :: r) with ([num s] ++ r). apply Permutation_app_comm.
        -- rewrite seq_next, count_app, count_one, J. lia.
        -- exact T5.
      * intros Z. apply (complete_more s); autorewrite with goto; cbn; auto. now apply (v_loop _ I R).
      * intros [Z|Z]; [exact Z|]. destruct t; discriminate.
  - injection E as <-. unfold leave. set (s1 := set_loop false s). assert (AL : alone t (behind t) s (goto t (behind t) s1)) by now apply goto_workers_eq.
    assert (C : complete (goto t (behind t) s1)) by (left; autorewrite with goto; cbn; lia).
    apply (loop_inv t Loop (behind t) s (goto t (behind t) s1) (own_c s)); auto; autorewrite with goto; auto.
    + left. split; [auto|]. now destruct t.
    + apply (tally_keep s); [now split|repeat split; now autorewrite with goto|]. apply (busy_keep t Loop (behind t)); auto. now destruct t.
Qed.
Lemma run_solve t s s' k : inv s -> at_pc s t = Some (Solve k) -> run t s = Some s' -> inv s'.
Proof.
  intros I A E. unfold run in E. rewrite A in E. injection E as <-. destruct (loop_running t _ s I A eq_refl) as [R R1].
  assert (AL : alone t (Back k) s (goto t (Back k) s)) by now apply goto_workers_eq.
  apply (loop_inv t (Solve k) (Back k) s (goto t (Back k) s) (own_c s)); auto; autorewrite with goto; auto.
  - apply (tally_keep s); [apply (v_tally _ I); auto|repeat split; now autorewrite with goto|]. now apply (busy_keep t (Solve k) (Back k)).
  - intros Z. apply (complete_keep s); [now apply (v_loop _ I)|repeat split; now autorewrite with goto].
  - intros [Z|Z]; [exact Z|]. destruct t; discriminate.
Qed.
Lemma run_back t s s' k : inv s -> at_pc s t = Some (Back k) -> run t s = Some s' -> inv s'.
Proof.
  intros I A E. unfold run in E. rewrite A in E. destruct (own_c s) eqn:Oc; [discriminate|]. destruct (loop_running t _ s I A eq_refl) as [R R1].
  pose proof (v_tally _ I (or_introl R)) as T. destruct T as [T1 T2 T3 T4 T5]. cbn [jobs set_c] in E.
  assert (PM : forall p' s'', alone t p' s s'' -> hand p' = [] -> Permutation (ended s ++ busy s) ((ended s ++ [k]) ++ busy s'')).
  { intros p' s'' AL H. destruct (busy_alone _ _ _ _ _ A AL) as (r & B1 & B2). rewrite B1, B2, H. cbn [hand]. now rewrite <- app_assoc. }
  destruct (j_out (nojob (jobs s) k)) eqn:J; injection E as <-.
  - set (s1 := set_counts _ _ _ _ _ _). assert (AL : alone t Loop s (goto t Loop s1)) by now apply goto_workers_eq.
    apply (loop_inv t (Back k) Loop s (goto t Loop s1) (Some t)); auto; autorewrite with goto; auto.
    + split; autorewrite with goto; cbn [jobs num nconv exc calls ended s1 set_c set_counts]; auto.
      * rewrite T3. now apply (PM Loop).
      * rewrite count_app, count_one, J. cbn [is_conv]. lia.
      * rewrite count_app, count_one, J. cbn [is_throw]. lia.
    + intros Z. apply (complete_more s); autorewrite with goto; cbn; auto. now apply (v_loop _ I R).
    + intros [Z|Z]; [exact Z|]. destruct t; discriminate.
  - set (s1 := set_counts _ _ _ _ _ _). assert (AL : alone t Loop s (goto t Loop s1)) by now apply goto_workers_eq.
    apply (loop_inv t (Back k) Loop s (goto t Loop s1) (Some t)); auto; autorewrite with goto; auto.
    + split; autorewrite with goto; cbn [jobs num nconv exc calls ended s1 set_c set_counts]; auto.
      * rewrite T3. now apply (PM Loop).
      * rewrite count_app, count_one, J. cbn [is_conv]. lia.
      * rewrite count_app, count_one, J. cbn [is_throw]. lia.
    + intros Z. apply (complete_more s); autorewrite with goto; cbn; auto. now apply (v_loop _ I R).
    + intros [Z|Z]; [exact Z|]. destruct t; discriminate.
  - unfold leave. set (s1 := set_loop false _). assert (AL : alone t (behind t) s (goto t (behind t) s1)) by now apply goto_workers_eq.
    apply (loop_inv t (Back k) (behind t) s (goto t (behind t) s1) (Some t)); auto; autorewrite with goto; auto.
    + right; left. split; [auto|]. split; [auto|]. now destruct t.
    + split; autorewrite with goto; cbn [jobs num nconv exc calls ended s1 set_c set_counts set_loop]; auto.
      * rewrite T3. apply (PM (behind t)); [auto|now destruct t].
      * rewrite count_app, count_one, J. cbn [is_conv]. lia.
      * rewrite count_app, count_one, J. cbn [is_throw]. lia.
    + intros _. apply complete_thrown. autorewrite with goto. cbn. lia.
Qed.

(** ** The other steps of a worker *)
Lemma worker_at s i p : at_pc s (W i) = Some p -> exists w, nth_error (workers s) i = Some w /\ w_pc w = p.
Proof. cbn. destruct (nth_error (workers s) i) as [w|]; [|discriminate]. intros E. injection E as <-. eauto. Qed.
Lemma okw_move f mtb w p : okw f mtb w = true ->
  match w_pc w, p with
  | (CLock | Wake), Head => true
  | Head, Sleep => match f with Joining => false | _ => negb (w_active w) end
  | Head, Exited => match f with Joining => true | Quiet => negb mtb | _ => false end
  | Head, (Loop | After) => w_active w
  | After, ELock => true
  | Sleep, Wake => true
  | ELock, Mark => match f with Run2 => true | _ => false end
  | _, _ => false
  end = true -> okw f mtb {| w_pc := p; w_active := w_active w |} = true.
Proof.
  intros H K. destruct (w_pc w) eqn:Pw, p; try discriminate K; destruct f, (w_active w) eqn:Aw; unfold okw in *; rewrite ?Aw, ?Pw in H; cbn in *; try discriminate; auto.
Qed.
Lemma same_jobs_goto t p s s1 : same_jobs s s1 -> same_jobs s (goto t p s1).
Proof. intros (A & B & C & D & E & F). repeat split; autorewrite with goto; auto. Qed.
Ltac wstep s1 :=
  autorewrite with goto; cbn [mt own_c own_e loop set_c set_e]; auto using same_jobs_goto.
Lemma some_inj {A} (a b : A) : Some a = Some b -> b = a.
Proof. congruence. Qed.
Ltac got E := apply some_inj in E; rewrite E; clear E.
Lemma run_worker i s s' p : inv s -> at_pc s (W i) = Some p -> match p with CLock | Wake | Head | After | ELock => True | _ => False end ->
  run (W i) s = Some s' -> inv s'.
Proof.
  intros I A P E. unfold run in E. rewrite A in E. destruct (worker_at s i p A) as (w & Ew & Pw). pose proof (v_w _ I _ _ Ew) as K.
  assert (J0 : same_jobs s s) by now repeat split.
  assert (J : forall o, same_jobs s (set_c o s)) by now repeat split.
  assert (J' : forall o, same_jobs s (set_e o s)) by now repeat split.
  assert (CL : p = CLock \/ p = Wake -> inv s').
  { intros Q. assert (E' : match own_c s with Some _ => None | None => Some (goto (W i) Head (set_c (Some (W i)) s)) end = Some s') by (destruct Q as [Q|Q]; rewrite Q in E; exact E).
    destruct (own_c s) eqn:Oc; [discriminate|]. got E'.
    apply (worker_inv0 i w Head s _ (Some (W i)) (own_e s)); [exact I|exact Ew|now apply goto_workers_eq|..]; wstep s.
    - left. split; [auto|]. rewrite Pw. destruct Q as [Q|Q]; rewrite Q; reflexivity.
    - apply (okw_move _ _ w); auto. rewrite Pw. destruct Q as [Q|Q]; rewrite Q; reflexivity.
    - rewrite Pw. destruct Q as [Q|Q]; rewrite Q; reflexivity. }
  destruct p; try contradiction; auto; clear CL P.
  - (* Head *) rewrite Ew in E. pose proof (v_mt _ I) as V.
    assert (HO : holds_c (w_pc w) = true) by now rewrite Pw.
    destruct (mt s) eqn:Mt; cbn [negb] in E.
    + assert (NJ : ph (main s) <> Joining) by (intros Z; destruct (main s); discriminate).
      destruct (w_active w) eqn:Aw; cbn [negb] in E.
      * assert (RR : running (main s)).
        { unfold running. unfold okw in K. rewrite Aw in K. destruct (ph (main s)); auto; discriminate. }
        destruct (loop s) eqn:Lp; got E.
        -- apply (worker_inv0 i w Loop s _ (own_c s) (own_e s)); [exact I|exact Ew|now apply goto_workers_eq|..]; wstep s; rewrite ?Pw; auto.
           apply (okw_move _ _ w); [now rewrite Mt|now rewrite Pw].
        -- apply (worker_inv0 i w After s _ (own_c s) (own_e s)); [exact I|exact Ew|now apply goto_workers_eq|..]; wstep s; rewrite ?Pw; auto.
           ++ apply (okw_move _ _ w); [now rewrite Mt|now rewrite Pw].
      * got E. apply (worker_inv0 i w Sleep s _ None (own_e s)); [exact I|exact Ew|now apply goto_workers_eq|..]; wstep s; rewrite ?Pw; auto.
        apply (okw_move _ _ w); [now rewrite Mt|]. rewrite Pw, Aw. destruct (ph (main s)); easy.
    + got E. apply (worker_inv0 i w Exited s _ None (own_e s)); [exact I|exact Ew|now apply goto_workers_eq|..]; wstep s; rewrite ?Pw; auto.
      apply (okw_move _ _ w); [now rewrite Mt|]. rewrite Pw, Mt. destruct (main s); easy.
  - (* After *) got E. apply (worker_inv0 i w ELock s _ None (own_e s)); [exact I|exact Ew|now apply goto_workers_eq|..]; wstep s; rewrite ?Pw; auto.
    apply (okw_move _ _ w); [auto|now rewrite Pw].
  - (* ELock *) destruct (own_e s) eqn:Oe; [discriminate|]. got E.
    apply (worker_inv0 i w Mark s _ (own_c s) (Some (W i))); [exact I|exact Ew|now apply goto_workers_eq|..]; wstep s; rewrite ?Pw; auto.
    apply (okw_move _ _ w); auto. rewrite Pw. destruct (ph (main s)) eqn:F; auto; exfalso.
    + unfold okw in K. rewrite Pw, andb_false_r in K. discriminate.
    + (* the main thread has E *)
      assert (he s Main = true) as H. { unfold he. cbn. destruct (main s); try discriminate; reflexivity. }
      apply (v_e _ I) in H. congruence.
    + unfold okw in K. rewrite Pw, andb_false_r in K. discriminate.
Qed.

Lemma run_mark i s s' : inv s -> at_pc s (W i) = Some Mark -> run (W i) s = Some s' -> inv s'.
Proof.
  intros I A E. unfold run in E. rewrite A in E. destruct (worker_at s i _ A) as (w & Ew & Pw). pose proof (v_w _ I _ _ Ew) as K.
  assert (F : ph (main s) = Run2 /\ w_active w = true).
  { unfold okw in K. rewrite Pw in K. destruct (ph (main s)), (w_active w); try discriminate; auto. }
  destruct F as [F Aw]. set (w1 := {| w_pc := CLock; w_active := false |}) in *. set (ws := upd (workers s) i w1) in *.
  set (s1 := set_e None (set_workers ws s)) in *. got E.
  assert (AT : forall t, at_pc s1 t = if match t with W j => Nat.eqb j i | _ => false end then Some CLock else at_pc s t).
  { intros [|j]; [reflexivity|]. cbn [at_pc s1 set_e set_workers workers]. unfold ws. destruct (Nat.eqb_spec j i) as [->|N]; [now rewrite (upd_same _ _ _ _ Ew)|now rewrite upd_other]. }
  assert (V1 : owns (own_c s) (hc s1)).
  { apply (owns_ext _ (hc s)); [apply I|]. intros t. unfold hc. rewrite AT. destruct t as [|j]; [reflexivity|]. destruct (Nat.eqb_spec j i) as [->|N]; [now rewrite A|reflexivity]. }
  assert (V2 : owns None (he s1)).
  { apply (lock_step (own_e s) None (he s) (he s1) (W i)); [apply I| |].
    - intros t N. unfold he. rewrite AT. destruct t as [|j]; [reflexivity|]. destruct (Nat.eqb_spec j i) as [->|Nj]; [congruence|reflexivity].
    - right; right. unfold he. rewrite AT, A, Nat.eqb_refl. auto. }
  assert (VW : forall j v, nth_error ws j = Some v -> okw Run2 (mt s) v = true).
  { intros j v. unfold ws. destruct (Nat.eq_dec j i) as [->|N].
    - rewrite (upd_same _ _ _ _ Ew). intros Q. injection Q as <-. reflexivity.
    - rewrite upd_other by auto. rewrite <- F. apply I. }
  assert (NE : ws <> []).
  { unfold ws. intros Z. apply (f_equal (@length worker)) in Z. rewrite upd_length in Z. cbn in Z. apply length_zero_iff_nil in Z. rewrite Z in Ew. destruct i; discriminate. }
  assert (B : Permutation (busy s) (busy s1)).
  { unfold busy. cbn [main workers s1 set_e set_workers]. apply Permutation_app_head. unfold ws. destruct (upd_split _ _ w1 _ Ew) as (a & b & Ea & Eb). rewrite Eb, Ea.
    rewrite !flat_map_app. cbn [flat_map w1 w_pc]. rewrite Pw. reflexivity. }
  assert (T : tally s1) by (apply (tally_keep s); [apply (v_tally _ I); left; now right|now repeat split|exact B]).
  assert (R : running (main s)) by now right.
  assert (C : loop s = false -> complete s1) by (intros Z; apply (complete_keep s); [now apply (v_loop _ I)|now repeat split]).
  assert (LF : loop s = false) by (apply (v_past _ I); destruct (main s); easy).
  destruct (existsb w_active ws) eqn:X.
  - split; cbn [main workers own_c own_e mt loop s1 set_e set_workers]; auto; try apply I.
    + rewrite F. exact VW.
    + intros _. apply existsb_exists in X as (v & Iv & Av). apply In_nth_error in Iv as (j & Ej). eauto.
    + intros Z. rewrite Z in F. discriminate.
  - unfold broadcast_e. change (main s1) with (main s). destruct (main s) eqn:Ms; try discriminate F.
    + (* the main thread sleeps *)
      assert (HH : forall t, hc (set_main MWake s1) t = hc s1 t /\ he (set_main MWake s1) t = he s1 t).
      { intros [|j]; [|split; reflexivity]. unfold hc, he. rewrite AT. cbn [at_pc set_main main]. rewrite Ms. split; reflexivity. }
      split; cbn [main workers own_c own_e mt loop s1 set_e set_workers set_main]; auto; try discriminate; try easy.
      * apply (owns_ext _ (hc s1)); [exact V1|apply HH].
      * apply (owns_ext _ (he s1)); [exact V2|apply HH].
      * pose proof (v_mt _ I) as Y. rewrite Ms in Y. exact Y.
      * intros _. apply (tally_keep s1); [exact T|now repeat split|]. unfold busy. cbn [main workers s1 set_e set_workers set_main]. rewrite Ms. reflexivity.
    + split; cbn [main workers own_c own_e mt loop s1 set_e set_workers set_main]; rewrite ?Ms; auto; try discriminate; try easy.
      pose proof (v_mt _ I) as Y. rewrite Ms in Y. exact Y.
    + split; cbn [main workers own_c own_e mt loop s1 set_e set_workers set_main]; rewrite ?Ms; auto; try discriminate; try easy.
      pose proof (v_mt _ I) as Y. rewrite Ms in Y. exact Y.
Qed.

(** ** Broadcast on C, and flags *)
Lemma map_at s s' (f : worker -> worker) i p : workers s' = map f (workers s) -> at_pc s (W i) = Some p ->
  exists w, nth_error (workers s) i = Some w /\ w_pc w = p /\ at_pc s' (W i) = Some (w_pc (f w)).
Proof.
  intros E A. destruct (worker_at s i p A) as (w & Ew & Pw). exists w. split; [auto|]. split; [auto|]. cbn. rewrite E, nth_error_map, Ew. reflexivity.
Qed.
Lemma map_locks s s' (f : worker -> worker) i : workers s' = map f (workers s) ->
  (forall w, holds_c (w_pc (f w)) = holds_c (w_pc w)) -> (forall w, holds_e (W i) (w_pc (f w)) = holds_e (W i) (w_pc w)) ->
  hc s' (W i) = hc s (W i) /\ he s' (W i) = he s (W i).
Proof.
  intros E H1 H2. unfold hc, he. cbn [at_pc]. rewrite E, nth_error_map. destruct (nth_error (workers s) i) as [w|]; cbn; auto.
Qed.
Lemma wake_c w : holds_c (w_pc (wake w)) = holds_c (w_pc w).
Proof. destruct w as [[] a]; reflexivity. Qed.
Lemma wake_e t w : holds_e t (w_pc (wake w)) = holds_e t (w_pc w).
Proof. destruct w as [[] a]; reflexivity. Qed.
Lemma main_locks s s' oc oe : inv s -> own_c s' = oc -> own_e s' = oe -> (forall i, hc s' (W i) = hc s (W i) /\ he s' (W i) = he s (W i)) ->
  (oc = own_c s /\ holds_c (main s') = holds_c (main s)) \/ (own_c s = None /\ oc = Some Main /\ holds_c (main s') = true) \/ (holds_c (main s) = true /\ oc = None /\ holds_c (main s') = false) ->
  (oe = own_e s /\ holds_e Main (main s') = holds_e Main (main s)) \/ (own_e s = None /\ oe = Some Main /\ holds_e Main (main s') = true) \/ (holds_e Main (main s) = true /\ oe = None /\ holds_e Main (main s') = false) ->
  owns (own_c s') (hc s') /\ owns (own_e s') (he s').
Proof.
  intros I <- <- K HC HE. split.
  - apply (lock_step (own_c s) _ (hc s) _ Main); [apply I| |exact HC]. intros [|i] N; [congruence|apply K].
  - apply (lock_step (own_e s) _ (he s) _ Main); [apply I| |exact HE]. intros [|i] N; [congruence|apply K].
Qed.
(** no worker in the quiet phase has a subsolver *)
Lemma quiet_busy s : inv s -> ph (main s) = Quiet \/ ph (main s) = Joining -> flat_map (fun w => hand (w_pc w)) (workers s) = [].
Proof.
  intros I F. assert (H : forall w, In w (workers s) -> hand (w_pc w) = []).
  { intros w Iw. apply In_nth_error in Iw as (i & E). pose proof (v_w _ I _ _ E) as K. unfold okw in K.
    destruct F as [F|F]; rewrite F in K; apply andb_true_iff in K as [_ K]; destruct (w_pc w); try discriminate; reflexivity. }
  induction (workers s) as [|w l IH]; [reflexivity|]. cbn. rewrite (H w) by now left. apply IH. intros; apply H. now right.
Qed.
Lemma run_init s s' : inv s -> main s = MInit -> run Main s = Some s' -> inv s'.
Proof.
  intros I M E. unfold run in E. cbn [at_pc] in E. rewrite M in E. got E.
  set (f := fun w => wake {| w_pc := w_pc w; w_active := true |}).
  match goal with |- inv ?x => set (s1 := x) end.
  assert (X : workers s1 = map f (workers s)) by (cbn; now rewrite map_map).
  assert (L : owns (own_c s1) (hc s1) /\ owns (own_e s1) (he s1)).
  { apply (main_locks s s1 (own_c s) (own_e s)); auto.
    - intros i. apply (map_locks s s1 f i X); intros w; unfold f; [now rewrite wake_c|now rewrite wake_e].
    - left. rewrite M. auto.
    - left. rewrite M. auto. }
  assert (Mt : mt s = true) by (pose proof (v_mt _ I) as V; now rewrite M in V).
  assert (TL : tally s1).
  { split; [cbn; lia|reflexivity| |cbn; apply (v_fresh _ I); now rewrite M|reflexivity].
    replace (busy s1) with (@nil nat); [constructor|]. unfold busy. rewrite X. cbn [main s1 set_main hand app].
    pose proof (quiet_busy s I ltac:(rewrite M; now left)) as Q. rewrite <- Q. clear. induction (workers s) as [|[p a] l IH]; [reflexivity|]. cbn [map flat_map].
    rewrite IH. destruct p; reflexivity. }
  split; try apply L; auto; try discriminate; try easy.
  - intros i w. rewrite X, nth_error_map. destruct (nth_error (workers s) i) as [v|] eqn:Ev; [|discriminate]. intros Q. injection Q as <-.
    pose proof (v_w _ I _ _ Ev) as K. rewrite M, Mt in K. cbn in K |- *. unfold f, wake. cbn [w_pc w_active].
    destruct (w_active v); [discriminate|]. destruct (w_pc v); try discriminate; reflexivity.
  - intros _. rewrite X. intros Z. apply map_eq_nil in Z. apply (v_ne _ I); [rewrite M; discriminate|auto].
Qed.
Lemma run_stopping s s' : inv s -> main s = MStopping -> run Main s = Some s' -> inv s'.
Proof.
  intros I M E. unfold run in E. cbn [at_pc] in E. rewrite M in E. got E.
  match goal with |- inv ?x => set (s1 := x) end. assert (X : workers s1 = map wake (workers s)) by reflexivity.
  assert (L : owns (own_c s1) (hc s1) /\ owns (own_e s1) (he s1)).
  { apply (main_locks s s1 None (own_e s)); auto.
    - intros i. apply (map_locks s s1 wake i X); intros w; [apply wake_c|apply wake_e].
    - right; right. rewrite M. auto.
    - left. rewrite M. auto. }
  split; try apply L; auto; try discriminate; try easy.
  - intros i w. rewrite X, nth_error_map. destruct (nth_error (workers s) i) as [v|] eqn:Ev; [|discriminate]. intros Q. injection Q as <-.
    pose proof (v_w _ I _ _ Ev) as K. rewrite M in K. cbn in K |- *. unfold wake. destruct v as [p a]; cbn in *. destruct a; [discriminate|].
    destruct p; try discriminate; reflexivity.
  - intros _. rewrite X. intros Z. apply map_eq_nil in Z. apply (v_ne _ I); [rewrite M; discriminate|auto].
  - intros [[Z|Z]|Z]; discriminate.
  - intros [Z|Z]; discriminate.
Qed.
Lemma okw_after_stop s m' : inv s -> ph m' = ph (main s) -> forall i w, nth_error (workers s) i = Some w -> okw (ph m') (mt s) w = true.
Proof. intros I -> . apply I. Qed.
Lemma existsb_worker f (ws : list worker) : existsb f ws = true -> exists i w, nth_error ws i = Some w /\ f w = true.
Proof. intros X. apply existsb_exists in X as (v & Iv & Av). apply In_nth_error in Iv as (j & Ej). eauto. Qed.
Lemma existsb_none f (ws : list worker) i w : existsb f ws = false -> nth_error ws i = Some w -> f w = false.
Proof. intros X E. apply nth_error_In in E. destruct (f w) eqn:F; [|auto]. rewrite <- X. symmetry. apply existsb_exists. eauto. Qed.
Lemma run_main s s' : inv s -> in_loop (main s) = false -> run Main s = Some s' -> inv s'.
Proof.
  intros I NL E. destruct (main s) eqn:M; try discriminate NL;
    try (pose proof (v_main _ I) as V; rewrite M in V; discriminate V);
    try (unfold run in E; cbn [at_pc] in E; rewrite M in E; discriminate E).
  - (* MStart *) unfold run in E. cbn [at_pc] in E. rewrite M in E. destruct (own_c s) eqn:Oc; [discriminate|]. got E.
    apply (main_inv MLockE s _ (Some Main) (own_e s)); auto; rewrite ?M; try discriminate; try (split; reflexivity); try (now right; left); try (now left).
    + apply (okw_after_stop s MLockE I). now rewrite M.
    + pose proof (v_mt _ I) as V; rewrite M in V; exact V.
    + apply (v_ne _ I). now rewrite M.
    + intros [[Z|Z]|Z]; discriminate.
    + intros [Z|Z]; discriminate.
    + intros _. apply (v_fresh _ I). now rewrite M.
  - (* MLockE *) unfold run in E. cbn [at_pc] in E. rewrite M in E. destruct (own_e s) eqn:Oe; [discriminate|]. got E.
    apply (main_inv MInit s _ (own_c s) (Some Main)); auto; rewrite ?M; try discriminate; try (split; reflexivity); try (now right; left); try (now left).
    + apply (okw_after_stop s MInit I). now rewrite M.
    + pose proof (v_mt _ I) as V; rewrite M in V; exact V.
    + apply (v_ne _ I). now rewrite M.
    + intros [[Z|Z]|Z]; discriminate.
    + intros [Z|Z]; discriminate.
    + intros _. apply (v_fresh _ I). now rewrite M.
  - now apply (run_init s).
  - (* MExit *) unfold run in E. cbn [at_pc] in E. rewrite M in E. got E.
    assert (F : ph (main s) = Run1) by now rewrite M.
    assert (NE : workers s <> []) by (apply (v_ne _ I); now rewrite M).
    assert (ALL : forall i w, nth_error (workers s) i = Some w -> w_active w = true).
    { intros i w Ew. pose proof (v_w _ I _ _ Ew) as K. rewrite F in K. cbn in K. now destruct (w_active w). }
    apply (main_inv MSleep s _ None None); auto; rewrite ?M; try discriminate; try (split; reflexivity); try (now right; right).
    + intros i w Ew. pose proof (v_w _ I _ _ Ew) as K. rewrite F in K. cbn in K |- *. destruct (w_active w); [|discriminate]. destruct (w_pc w); easy.
    + pose proof (v_mt _ I) as V; rewrite M in V; exact V.
    + intros _. destruct (workers s) as [|w l] eqn:W0; [congruence|]. exists 0, w. split; [reflexivity|]. now apply (ALL 0).
    + intros _. apply (tally_keep s); [apply (v_tally _ I); now left; left|now repeat split|]. unfold busy. cbn. now rewrite M.
    + intros _ Z. apply (complete_keep s); [|now repeat split]. apply (v_loop _ I); [now left|exact Z].
    + intros _. cbn. apply (v_past _ I). now rewrite M.
  - (* MWake *) unfold run in E. cbn [at_pc] in E. rewrite M in E. destruct (own_e s) eqn:Oe; [discriminate|]. got E.
    apply (main_inv MCheck s _ (own_c s) (Some Main)); auto; rewrite ?M; try discriminate; try (split; reflexivity); try (now right; left); try (now left).
    + apply (okw_after_stop s MCheck I). now rewrite M.
    + pose proof (v_mt _ I) as V; rewrite M in V; exact V.
    + apply (v_ne _ I). now rewrite M.
    + intros _. apply (tally_keep s); [apply (v_tally _ I); rewrite M; now left; right|now repeat split|]. unfold busy. cbn. now rewrite M.
    + intros _ Z. apply (complete_keep s); [|now repeat split]. apply (v_loop _ I); [rewrite M; now right|exact Z].
    + intros _. cbn. apply (v_past _ I). now rewrite M.
  - (* MCheck *) unfold run in E. cbn [at_pc] in E. rewrite M in E.
    assert (LF : loop s = false) by (apply (v_past _ I); now rewrite M).
    assert (C : complete s) by (apply (v_loop _ I); [rewrite M; now right|exact LF]).
    assert (T : tally s) by (apply (v_tally _ I); rewrite M; now left; right).
    destruct (existsb w_active (workers s)) eqn:X; got E.
    + apply (main_inv MSleep s _ (own_c s) None); auto; rewrite ?M; try discriminate; try (split; reflexivity); try (now right; right); try (now left).
      * apply (okw_after_stop s MSleep I). now rewrite M.
      * pose proof (v_mt _ I) as V; rewrite M in V; exact V.
      * apply (v_ne _ I). now rewrite M.
      * intros _. now apply existsb_worker.
      * intros _. apply (tally_keep s); [exact T|now repeat split|]. unfold busy. cbn. now rewrite M.
    + apply (main_inv MDone s _ (own_c s) None); auto; rewrite ?M; try discriminate; try (split; reflexivity); try (now right; right); try (now left).
      * intros i w Ew. pose proof (v_w _ I _ _ Ew) as K. pose proof (existsb_none _ _ _ _ X Ew) as Aw. rewrite M in K. cbn in K |- *. rewrite Aw in *. cbn. destruct (w_pc w); easy.
      * pose proof (v_mt _ I) as V; rewrite M in V; exact V.
      * apply (v_ne _ I). now rewrite M.
      * intros _. apply (tally_keep s); [exact T|now repeat split|]. unfold busy. cbn. now rewrite M.
  - (* MStop *) unfold run in E. cbn [at_pc] in E. rewrite M in E. destruct (own_c s) eqn:Oc; [discriminate|]. got E.
    apply (main_inv MStopping s _ (Some Main) (own_e s)); auto; rewrite ?M; try discriminate; try (split; reflexivity); try (now right; left); try (now left).
    + apply (okw_after_stop s MStopping I). now rewrite M.
    + apply (v_ne _ I). now rewrite M.
    + intros [[Z|Z]|Z]; discriminate.
    + intros [Z|Z]; discriminate.
  - now apply (run_stopping s).
  - (* MJoin *) unfold run in E. cbn [at_pc] in E. rewrite M in E. destruct (forallb _ (workers s)) eqn:X; [|discriminate]. got E.
    rewrite forallb_forall in X.
    assert (HN : forall i, hc s (W i) = false /\ he s (W i) = false).
    { intros i. unfold hc, he. cbn [at_pc]. destruct (nth_error (workers s) i) as [w|] eqn:Ew; [|auto]. cbn. apply nth_error_In in Ew. specialize (X w Ew). destruct (w_pc w); try discriminate. auto. }
    split; cbn [main workers own_c own_e mt loop set_main set_workers]; auto; try discriminate; try easy.
    + apply (lock_step (own_c s) _ (hc s) _ Main); [apply I| |left; split; [reflexivity|unfold hc; cbn; now rewrite M]].
      intros [|i] N; [congruence|]. destruct (HN i) as [-> _]. unfold hc. cbn. destruct i; reflexivity.
    + apply (lock_step (own_e s) _ (he s) _ Main); [apply I| |left; split; [reflexivity|unfold he; cbn; now rewrite M]].
      intros [|i] N; [congruence|]. destruct (HN i) as [_ ->]. unfold he. cbn. destruct i; reflexivity.
    + intros [|i] w Z; discriminate.
    + intros [[Z|Z]|Z]; discriminate.
    + intros [Z|Z]; discriminate.
Qed.

(** ** Wake-ups without a broadcast, and the steps from outside *)
Lemma spurious_w_inv s i : inv s -> at_pc s (W i) = Some Sleep -> inv (goto (W i) Wake s).
Proof.
  intros I A. destruct (worker_at s i Sleep A) as (w & Ew & Pw). pose proof (v_w _ I _ _ Ew) as K.
  apply (worker_inv0 i w Wake s _ (own_c s) (own_e s)); auto; autorewrite with goto; auto.
  - split; reflexivity.
  - left. now rewrite Pw.
  - left. now rewrite Pw.
  - unfold okw in *. rewrite Pw in K. cbn [w_pc w_active]. destruct (ph (main s)), (w_active w); easy.
  - rewrite (goto_worker _ _ _ _ Ew). now repeat split.
  - now rewrite Pw.
Qed.
Lemma spurious_m_inv s : inv s -> main s = MSleep -> inv (set_main MWake s).
Proof.
  intros I M. assert (LF : loop s = false) by (apply (v_past _ I); now rewrite M).
  apply (main_inv MWake s _ (own_c s) (own_e s)); auto; rewrite ?M; try discriminate; try (split; reflexivity); try (now left).
  - apply (okw_after_stop s MWake I). now rewrite M.
  - pose proof (v_mt _ I) as V; rewrite M in V; exact V.
  - apply (v_ne _ I). now rewrite M.
  - intros _. apply (tally_keep s); [apply (v_tally _ I); rewrite M; now left; right|now repeat split|]. unfold busy. cbn. now rewrite M.
  - intros _ Z. apply (complete_keep s); [|now repeat split]. apply (v_loop _ I); [rewrite M; now right|exact Z].
Qed.
Lemma okw_mt f w : okw f true w = true -> forall b, okw f b w = true.
Proof. intros K b. unfold okw in *. destruct f, (w_active w), (w_pc w), b; easy. Qed.
Lemma idle_facts s : inv s -> main s = MIdle \/ main s = MDone -> ph (main s) = Quiet /\ mt s = true /\ holds_c (main s) = false /\ holds_e Main (main s) = false.
Proof. intros I M. pose proof (v_mt _ I) as V. destruct M as [M|M]; rewrite M in *; now repeat split. Qed.
Lemma activate_inv s js : inv s -> main s = MIdle \/ main s = MDone -> workers s <> [] -> inv (activate js s).
Proof.
  intros I M NE. destruct (idle_facts s I M) as (P & Mt & HC & HE).
  apply (main_inv MStart s _ (own_c s) (own_e s)); auto; try discriminate; try (split; reflexivity).
  - apply (okw_after_stop s MStart I). now rewrite P.
  - intros [[Z|Z]|Z]; discriminate.
  - intros [Z|Z]; discriminate.
Qed.
Lemma stop_inv s b : inv s -> main s = MIdle \/ main s = MDone -> workers s <> [] -> inv (set_main MStop (set_mt b s)).
Proof.
  intros I M NE. destruct (idle_facts s I M) as (P & Mt & HC & HE).
  apply (main_inv MStop s _ (own_c s) (own_e s)); auto; try discriminate; try (split; reflexivity).
  - intros i w E. pose proof (v_w _ I _ _ E) as K. rewrite P, Mt in K. now apply okw_mt.
  - intros [[Z|Z]|Z]; discriminate.
  - intros [Z|Z]; discriminate.
Qed.
Lemma launch_inv s n : inv s -> main s = MStopped -> n <> 0 -> inv (launch n s).
Proof.
  intros I M N. pose proof (v_none _ I M) as W0.
  assert (FW : forall i w, nth_error (repeat fresh_worker n) i = Some w -> w = fresh_worker).
  { intros i w E. apply nth_error_In in E. now apply repeat_spec in E. }
  assert (HH : forall t, hc (launch n s) t = hc s t /\ he (launch n s) t = he s t).
  { intros [|i]; unfold hc, he; cbn [at_pc main workers launch]; [rewrite M; auto|]. rewrite W0.
    replace (nth_error (@nil worker) i) with (@None worker) by now destruct i. cbn.
    destruct (nth_error (repeat fresh_worker n) i) as [w|] eqn:E; [|auto]. rewrite (FW i w E). auto. }
  split; cbn [main workers own_c own_e mt loop launch]; auto; try discriminate; try easy.
  - apply (owns_ext _ (hc s)); [apply I|apply HH].
  - apply (owns_ext _ (he s)); [apply I|apply HH].
  - intros i w E. rewrite (FW i w E). reflexivity.
  - intros _. destruct n; [congruence|discriminate].
  - intros [[Z|Z]|Z]; discriminate.
  - intros [Z|Z]; discriminate.
Qed.
Lemma step_inv s l s' : inv s -> step s l s' -> inv s'.
Proof.
  intros I St. destruct St as [s t s' E|s i A|s M|s js M NE|s b M NE|s n M N].
  - destruct t as [|i].
    + destruct (in_loop (main s)) eqn:L; [|now apply (run_main s)]. destruct (main s) eqn:M; try discriminate.
      * apply (run_loop Main s); auto. cbn. now rewrite M.
      * apply (run_solve Main s s' k); auto. cbn. now rewrite M.
      * apply (run_back Main s s' k); auto. cbn. now rewrite M.
    + destruct (at_pc s (W i)) as [p|] eqn:A; [|unfold run in E; rewrite A in E; discriminate].
      destruct (worker_at s i p A) as (w & Ew & Pw). pose proof (v_w _ I _ _ Ew) as K.
      destruct p; try (now apply (run_loop (W i) s)); try (now apply (run_solve (W i) s s' k)); try (now apply (run_back (W i) s s' k));
        try (now apply (run_worker i s s' _ I A)); try (now apply (run_mark i s));
        try (unfold run in E; rewrite A in E; discriminate);
        exfalso; unfold okw in K; rewrite Pw in K; destruct (ph (main s)), (w_active w); discriminate.
  - now apply spurious_w_inv.
  - now apply spurious_m_inv.
  - now apply activate_inv.
  - now apply stop_inv.
  - now apply launch_inv.
Qed.
Lemma steps_inv s ls s' : inv s -> steps s ls s' -> inv s'.
Proof. intros I St. induction St as [|s l s1 ls s2 St _ IH]; [exact I|]. apply IH. now apply (step_inv s l). Qed.
Lemma reachable_inv s : reachable s -> inv s.
Proof. intros (ls & St). exact (steps_inv _ _ _ inv0 St). Qed.
