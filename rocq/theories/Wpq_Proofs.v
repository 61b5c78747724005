From Coq Require Import Sorting.Permutation.
From Verif Require Import Base Wpq_Model Wpq_Spec.
Local Open Scope Z_scope.



Lemma sortedr_sortedq q : sortedr q -> sortedq q.
Proof.
  intros H l1 e1 l2 e2 l3 ->. induction l1 as [|a l1 IH]; cbn in H.
  - destruct H as [H _]. rewrite Forall_app in H. destruct H as [_ H]. inversion H; subst; lia.
  - apply IH. tauto.
Qed.


Lemma span_ge_spec pri q a b : span_ge pri q = (a, b) ->
  q = a ++ b /\ Forall (fun x => q_pri x >= pri) a /\ (forall h t, b = h :: t -> q_pri h < pri).
Proof.
  revert a b; induction q as [|e q IH]; intros a b H; cbn in H.
  - injection H as <- <-. repeat split; auto. discriminate.
  - destruct (q_pri e >=? pri) eqn:E.
    + destruct (span_ge pri q) as [a' b'] eqn:Es. injection H as <- <-.
      destruct (IH _ _ eq_refl) as (-> & Ha & Hb). repeat split; auto. constructor; auto. lia.
    + injection H as <- <-. repeat split; auto. intros h t [= <- <-]. lia.
Qed.
Lemma span_gt_spec pri q a b : span_gt pri q = (a, b) ->
  q = a ++ b /\ Forall (fun x => q_pri x > pri) a /\ (forall h t, b = h :: t -> q_pri h <= pri).
Proof.
  revert a b; induction q as [|e q IH]; intros a b H; cbn in H.
  - injection H as <- <-. repeat split; auto. discriminate.
  - destruct (q_pri e >? pri) eqn:E.
    + destruct (span_gt pri q) as [a' b'] eqn:Es. injection H as <- <-.
      destruct (IH _ _ eq_refl) as (-> & Ha & Hb). repeat split; auto. constructor; auto. lia.
    + injection H as <- <-. repeat split; auto. intros h t [= <- <-]. lia.
Qed.

Lemma sortedr_app a b : sortedr (a ++ b) <->
  sortedr a /\ sortedr b /\ (forall x y, In x a -> In y b -> q_pri y <= q_pri x).
Proof.
  induction a as [|e a IH]; cbn.
  - split; [intros H; repeat split; auto; intros x y []|tauto].
  - rewrite IH, Forall_app. split.
    + intros [[H1 H2] (H3 & H4 & H5)]. repeat split; auto.
      intros x y [->|Hx] Hy; [|auto]. rewrite Forall_forall in H2. auto.
    + intros ((H1 & H2) & H3 & H4). repeat split; auto.
      apply Forall_forall. intros y Hy. apply H4; auto.
Qed.

Lemma stable_insert_app e a b :
  Forall (fun x => q_pri x >= q_pri e) a -> (forall h t, b = h :: t -> q_pri h < q_pri e) ->
  stable_insert e (a ++ b) = a ++ e :: b.
Proof.
  intros Ha Hb. induction Ha as [|x a Hx Ha IH]; cbn.
  - destruct b as [|h t]; [reflexivity|]. cbn. specialize (Hb h t eq_refl).
    destruct (q_pri h >=? q_pri e) eqn:E; [lia|reflexivity].
  - destruct (q_pri x >=? q_pri e) eqn:E; [now rewrite IH|lia].
Qed.

Lemma sortedr_last h q : sortedr (h :: q) -> Forall (fun x => q_pri x >= q_pri (last (h :: q) h)) (h :: q).
Proof.
  intros H. assert (Hne : h :: q <> []) by discriminate.
  pose proof (app_removelast_last h Hne) as E.
  set (z := last (h :: q) h) in *. set (r := removelast (h :: q)) in *. rewrite E in H |- *.
  apply sortedr_app in H. destruct H as (_ & _ & H).
  apply Forall_app. split.
  - apply Forall_forall. intros x Hx. specialize (H x z Hx (or_introl eq_refl)). lia.
  - constructor; [lia|constructor].
Qed.

Lemma enqueue_stable q e : sortedr q -> fst (enqueue q e) = stable_insert e q.
Proof.
  intros Hs. destruct q as [|h q]; [reflexivity|].
  unfold enqueue. destruct (q_pri e <=? q_pri (last (h :: q) h)) eqn:E1.
  - cbn [fst]. symmetry. rewrite <- (app_nil_r (h :: q)) at 1. apply stable_insert_app; [|discriminate].
    eapply Forall_impl; [|apply sortedr_last, Hs]. cbn beta. intros x Hx. lia.
  - destruct (q_pri e >? q_pri h) eqn:E2.
    + cbn. destruct (q_pri h >=? q_pri e) eqn:E; [lia|reflexivity].
    + destruct (span_ge (q_pri e) (h :: q)) as [a b] eqn:Es.
      destruct (span_ge_spec _ _ _ _ Es) as (Hq & Ha & Hb).
      destruct a as [|x a].
      * exfalso. cbn in Hq. specialize (Hb h q (eq_sym Hq)). lia.
      * cbn [fst]. rewrite Hq. symmetry. now apply stable_insert_app.
Qed.

Lemma enqueue_flag q e : sortedr q ->
  snd (enqueue q e) = match stable_insert e q with
                      | x :: t => match q with [] => true | h :: _ => q_pri h <? q_pri e end
                      | [] => false end.
Proof.
  intros Hs. destruct q as [|h q]; [reflexivity|].
  assert (Hne : exists x t, stable_insert e (h :: q) = x :: t).
  { cbn. destruct (_ >=? _); eauto. }
  destruct Hne as (x & t & ->).
  unfold enqueue.
  pose proof (sortedr_last h q Hs) as Hl. inversion Hl as [|? ? Hh _]; subst.
  destruct (q_pri e <=? q_pri (last (h :: q) h)) eqn:E1.
  - cbn [snd]. lia.
  - destruct (q_pri e >? q_pri h) eqn:E2; [cbn [snd]; lia|].
    destruct (span_ge (q_pri e) (h :: q)) as [a b] eqn:Es.
    destruct (span_ge_spec _ _ _ _ Es) as (Hq & Ha & Hb).
    destruct a as [|y a]; cbn [snd]; [|lia].
    exfalso. cbn in Hq. specialize (Hb h q (eq_sym Hq)). lia.
Qed.

Lemma stable_insert_split e q : exists a b, q = a ++ b /\ stable_insert e q = a ++ e :: b /\
  Forall (fun x => q_pri x >= q_pri e) a /\ (forall h t, b = h :: t -> q_pri h < q_pri e).
Proof.
  destruct (span_ge (q_pri e) q) as [a b] eqn:E. destruct (span_ge_spec _ _ _ _ E) as (-> & Ha & Hb).
  exists a, b. repeat split; auto. now apply stable_insert_app.
Qed.

Lemma sortedr_insert q e a b :
  sortedr q -> q = a ++ b ->
  Forall (fun x => q_pri x >= q_pri e) a -> Forall (fun x => q_pri x <= q_pri e) b ->
  sortedr (a ++ e :: b).
Proof.
  intros Hs -> Ha Hb. apply sortedr_app in Hs. destruct Hs as (H1 & H2 & H3).
  apply sortedr_app. rewrite Forall_forall in Ha. split; [exact H1|]. split; [split; auto|].
  intros x y Hx [<-|Hy]; [specialize (Ha x Hx); lia|auto].
Qed.

Lemma sortedr_head_bound b p : sortedr b -> (forall h t, b = h :: t -> q_pri h <= p) ->
  Forall (fun x => q_pri x <= p) b.
Proof.
  intros Hs H. destruct b as [|h t]; [constructor|]. specialize (H h t eq_refl).
  destruct Hs as [Hs _]. constructor; [lia|]. eapply Forall_impl; [|exact Hs]. cbn; intros; lia.
Qed.

Lemma enqueue_sorted q e : sortedr q -> sortedr (fst (enqueue q e)).
Proof.
  intros Hs. rewrite enqueue_stable by exact Hs.
  destruct (stable_insert_split e q) as (a & b & Hq & -> & Ha & Hb).
  eapply sortedr_insert; eauto. subst q. apply sortedr_app in Hs.
  apply sortedr_head_bound; [tauto|]. intros h t E. specialize (Hb h t E). lia.
Qed.

Lemma enqueueFront_split q e : exists a b, q = a ++ b /\ enqueueFront q e = a ++ e :: b /\
  Forall (fun x => q_pri x > q_pri e) a /\ (forall h t, b = h :: t -> q_pri h <= q_pri e).
Proof.
  unfold enqueueFront. destruct (span_gt (q_pri e) q) as [a b] eqn:E.
  destruct (span_gt_spec _ _ _ _ E) as (-> & Ha & Hb). exists a, b. auto.
Qed.

Lemma enqueueFront_sorted q e : sortedr q -> sortedr (enqueueFront q e).
Proof.
  intros Hs. destruct (enqueueFront_split q e) as (a & b & Hq & -> & Ha & Hb).
  eapply sortedr_insert; eauto.
  - eapply Forall_impl; [|exact Ha]. cbn; intros; lia.
  - subst q. apply sortedr_app in Hs. apply sortedr_head_bound; tauto.
Qed.

Lemma filter_sorted f q : sortedr q -> sortedr (filter f q).
Proof.
  induction q as [|e q IH]; cbn; [auto|]. intros [H1 H2]. specialize (IH H2).
  destruct (f e); [|exact IH]. cbn. split; [|exact IH].
  apply Forall_forall. intros x Hx. apply filter_In in Hx. rewrite Forall_forall in H1. apply H1. tauto.
Qed.

Lemma sortedr_set_tick t h q : sortedr (h :: q) -> sortedr (set_tick t h :: q).
Proof. auto. Qed.

Lemma wstep_sorted s o : sortedr (w_queue s) -> sortedr (w_queue (wstep s o)).
Proof.
  intros Hs. destruct o as [m pri tick| |i r tick|i tick|sel]; cbn [wstep].
  - pose proof (enqueue_sorted (w_queue s) {| q_msg := m; q_pri := pri; q_tick := tick |} Hs) as H.
    destruct (enqueue _ _) as [q top]. exact H.
  - destruct (w_queue s) as [|e q]; cbn in *; tauto.
  - destruct (nth_error (w_workers s) i) as [[e|old]|]; [|exact Hs|exact Hs].
    destruct r; [exact Hs| |].
    + cbn [w_queue]. now apply enqueueFront_sorted.
    + pose proof (enqueue_sorted (w_queue s) (set_tick tick e) Hs) as H.
      destruct (enqueue _ _) as [q top]. exact H.
  - destruct (nth_error (w_workers s) i) as [[e|old]|]; [exact Hs| |exact Hs].
    destruct (w_queue s) as [|h q]; exact Hs.
  - cbn [w_queue]. now apply filter_sorted.
Qed.

Lemma wrun_ind (P : wpq -> Prop) :
  P wpq_init -> (forall s o, P s -> P (wstep s o)) -> forall os, P (wrun os).
Proof.
  intros H0 Hs os. unfold wrun. assert (G : forall s, P s -> P (fold_left wstep os s)).
  { induction os as [|o os IH]; intros s H; cbn; auto. }
  auto.
Qed.

Lemma wrun_sortedr os : sortedr (w_queue (wrun os)).
Proof. apply wrun_ind; [exact I|]. intros; now apply wstep_sorted. Qed.
Lemma wrun_sorted os : sortedq (w_queue (wrun os)).
Proof. apply sortedr_sortedq, wrun_sortedr. Qed.


Lemma ident_set_tick t e : ident (set_tick t e) = ident e.
Proof. reflexivity. Qed.

Lemma run_set_nth i e old ws :
  nth_error ws i = Some (WRun e) ->
  Permutation (e :: flat_map (fun w => match w with WRun e => [e] | WEnd _ => [] end) (set_nth i (WEnd old) ws))
              (flat_map (fun w => match w with WRun e => [e] | WEnd _ => [] end) ws).
Proof.
  revert ws; induction i as [|i IH]; intros [|w ws] H; cbn in H; try discriminate.
  - injection H as ->. cbn. reflexivity.
  - cbn [set_nth flat_map]. specialize (IH ws H).
    rewrite <- IH. destruct w; cbn; [apply perm_swap|reflexivity].
Qed.
Lemma run_remove_nth i old ws :
  nth_error ws i = Some (WEnd old) ->
  flat_map (fun w => match w with WRun e => [e] | WEnd _ => [] end) (remove_nth i ws) =
  flat_map (fun w => match w with WRun e => [e] | WEnd _ => [] end) ws.
Proof.
  revert ws; induction i as [|i IH]; intros [|w ws] H; cbn in H; try discriminate.
  - injection H as ->. reflexivity.
  - cbn [remove_nth flat_map]. now rewrite IH.
Qed.


Lemma filter_perm (f : entry -> bool) l :
  Permutation (filter f l ++ filter (fun x => negb (f x)) l) l.
Proof.
  induction l as [|x l IH]; cbn; [constructor|]. destruct (f x); cbn.
  - now constructor.
  - rewrite <- Permutation_middle. now constructor.
Qed.

Lemma enqueue_perm q e : sortedr q -> Permutation (fst (enqueue q e)) (e :: q).
Proof.
  intros Hs. rewrite enqueue_stable by exact Hs.
  destruct (stable_insert_split e q) as (a & b & -> & -> & _). symmetry. apply Permutation_middle.
Qed.
Lemma enqueueFront_perm q e : Permutation (enqueueFront q e) (e :: q).
Proof.
  destruct (enqueueFront_split q e) as (a & b & -> & -> & _). symmetry. apply Permutation_middle.
Qed.

Lemma wrun_conserves os : let s := wrun os in
  Permutation (map ident (w_arrived s)) (map ident (holdings s)).
Proof.
  cbv zeta.
  assert (G : sortedr (w_queue (wrun os)) /\
    Permutation (map ident (w_arrived (wrun os))) (map ident (holdings (wrun os)))); [|tauto].
  apply (wrun_ind (fun s => sortedr (w_queue s) /\ Permutation (map ident (w_arrived s)) (map ident (holdings s)))).
  { split; [exact I|constructor]. }
  intros s o [Hs HP]. split; [now apply wstep_sorted|].
  unfold holdings, running in *.
  destruct o as [m pri tick| |i r tick|i tick|sel]; cbn [wstep].
  - set (e := {| q_msg := m; q_pri := pri; q_tick := tick |}).
    pose proof (enqueue_perm (w_queue s) e Hs) as H. destruct (enqueue _ _) as [q top]. cbn [fst] in H.
    cbn [w_arrived w_done w_removed w_queue w_workers].
    rewrite map_app, HP. cbn [map].
    rewrite (Permutation_map ident (l := w_done s ++ _ ++ _ ++ q)
      (l' := e :: w_done s ++ w_removed s ++ running s ++ w_queue s)).
    + cbn [map]. rewrite <- Permutation_cons_append. reflexivity.
    + rewrite H. unfold running. rewrite !app_assoc. rewrite <- Permutation_middle. reflexivity.
  - destruct (w_queue s) as [|e q] eqn:Eq; cbn [w_arrived w_done w_removed w_queue w_workers]; [exact HP|].
    rewrite HP. apply Permutation_map. rewrite flat_map_app. cbn. now rewrite <- app_assoc.
  - destruct (nth_error (w_workers s) i) as [[e|old]|] eqn:En; [|exact HP|exact HP].
    destruct r; cbn [w_arrived w_done w_removed w_queue w_workers].
    + rewrite HP. apply Permutation_map. rewrite <- (run_set_nth i e None _ En).
      rewrite <- app_assoc. cbn [app]. apply Permutation_app_head.
      cbn [app]. rewrite <- Permutation_middle. reflexivity.
    + rewrite HP. rewrite !map_app. do 2 apply Permutation_app_head.
      rewrite <- (run_set_nth i e (Some (q_msg e)) _ En). rewrite enqueueFront_perm. cbn [map].
      rewrite ident_set_tick. rewrite <- Permutation_middle. reflexivity.
    + pose proof (enqueue_perm (w_queue s) (set_tick tick e) Hs) as H. destruct (enqueue _ _) as [q top].
      cbn [fst] in H. cbn [w_arrived w_done w_removed w_queue w_workers].
      rewrite HP. rewrite !map_app. do 2 apply Permutation_app_head.
      rewrite <- (run_set_nth i e (Some (q_msg e)) _ En). rewrite H. cbn [map].
      rewrite ident_set_tick. rewrite <- Permutation_middle. reflexivity.
  - destruct (nth_error (w_workers s) i) as [[e|old]|] eqn:En; [exact HP| |exact HP].
    destruct (w_queue s) as [|h q] eqn:Eq; cbn [w_arrived w_done w_removed w_queue w_workers];
      rewrite (run_remove_nth _ _ _ En); rewrite HP, !map_app; reflexivity.
  - cbn [w_arrived w_done w_removed w_queue w_workers]. rewrite HP.
    apply Permutation_map. apply Permutation_app_head. rewrite <- !app_assoc. apply Permutation_app_head.
    rewrite <- (filter_perm (fun e => sel (q_msg e)) (w_queue s)) at 1.
    rewrite app_assoc, (Permutation_app_comm (flat_map _ _)), <- app_assoc. reflexivity.
Qed.


Lemma ids_app p a b : ids p (a ++ b) = ids p a ++ ids p b.
Proof. unfold ids. now rewrite filter_app, map_app. Qed.

Lemma ids_none p l : Forall (fun x => q_pri x <> p) l -> ids p l = [].
Proof.
  induction 1 as [|x l Hx Hl IH]; [reflexivity|]. unfold ids in *. cbn.
  destruct (q_pri x =? p) eqn:E; [lia|exact IH].
Qed.
Lemma ids_cons p e l : ids p (e :: l) = (if q_pri e =? p then [q_msg e] else []) ++ ids p l.
Proof. unfold ids. cbn. now destruct (q_pri e =? p). Qed.

Lemma ids_enqueue p q e : sortedr q -> ids p (fst (enqueue q e)) = ids p q ++ ids p [e].
Proof.
  intros Hs. rewrite enqueue_stable by exact Hs.
  destruct (stable_insert_split e q) as (a & b & Hq & -> & Ha & Hb). subst q.
  rewrite !ids_app, ids_cons. rewrite (ids_cons p e []). cbn [ids filter map]. 
  destruct (q_pri e =? p) eqn:E; [|now rewrite !app_nil_r].
  assert (ids p b = []) as ->; [|now rewrite !app_nil_r].
  apply sortedr_app in Hs. destruct Hs as (_ & Hsb & _). apply ids_none.
  destruct b as [|h t]; [constructor|]. specialize (Hb h t eq_refl). destruct Hsb as [Hsb _].
  constructor; [lia|]. eapply Forall_impl; [|exact Hsb]. cbn; intros; lia.
Qed.

Lemma ids_enqueueFront p q e : sortedr q -> ids p (enqueueFront q e) = ids p [e] ++ ids p q.
Proof.
  intros Hs. destruct (enqueueFront_split q e) as (a & b & Hq & -> & Ha & Hb). subst q.
  rewrite !ids_app, ids_cons, (ids_cons p e []). cbn [ids filter map]. rewrite app_nil_r.
  destruct (q_pri e =? p) eqn:E; [|reflexivity].
  assert (ids p a = []) as ->; [|reflexivity]. apply ids_none.
  eapply Forall_impl; [|exact Ha]. cbn; intros; lia.
Qed.


Definition fifo_inv (s : wpq) : Prop :=
  sortedr (w_queue s) /\ (length (w_workers s) <= 1)%nat /\
  forall p, ids p (w_done s) ++ ids p (running s) ++ ids p (w_queue s) = ids p (w_arrived s).

Lemma fifo_step s o : fifo_inv s -> fifo_op o -> (o = OTake -> w_workers s = []) ->
  fifo_inv (wstep s o).
Proof.
  intros (Hs & Hw & Hp) Ho Ht. split; [now apply wstep_sorted|].
  destruct o as [m pri tick| |i r tick|i tick|sel]; cbn [wstep]; cbn in Ho.
  - set (e := {| q_msg := m; q_pri := pri; q_tick := tick |}).
    pose proof (fun p => ids_enqueue p (w_queue s) e Hs) as H. destruct (enqueue _ _) as [q top]. cbn [fst] in H.
    unfold running. cbn [w_arrived w_done w_removed w_queue w_workers]. split; [exact Hw|].
    intros p. rewrite ids_app, <- Hp, H. now rewrite !app_assoc.
  - rewrite Ht in * by reflexivity. unfold running in Hp. rewrite (Ht eq_refl) in Hp. cbn [flat_map] in Hp.
    destruct (w_queue s) as [|e q] eqn:Eq; unfold running; cbn [w_arrived w_done w_removed w_queue w_workers].
    + split; [cbn; lia|exact Hp].
    + split; [cbn; lia|]. intros p. rewrite <- Hp. cbn [app flat_map].
      rewrite (ids_cons p e q), (ids_cons p e []), <- app_assoc. reflexivity.
  - destruct (nth_error (w_workers s) i) as [[e|old]|] eqn:En; [|repeat split; auto..].
    assert (Hws : w_workers s = [WRun e] /\ i = 0%nat).
    { destruct (w_workers s) as [|w ws]; [destruct i; discriminate|]. cbn in Hw.
      destruct ws; [|cbn in Hw; lia]. destruct i as [|i]; [|destruct i; discriminate].
      cbn in En. injection En as ->. auto. }
    destruct Hws as [Hws ->]. unfold running in *. rewrite Hws in *.
    cbn [flat_map app] in Hp.
    destruct r; [| |destruct Ho]; cbn [w_arrived w_done w_removed w_queue w_workers set_nth flat_map app].
    + split; [cbn; lia|]. intros p. rewrite <- Hp, ids_app. now rewrite <- app_assoc.
    + split; [cbn; lia|]. intros p. rewrite <- Hp, ids_enqueueFront by exact Hs.
      unfold ids at 3 6. cbn. now destruct (q_pri e =? p).
  - destruct (nth_error (w_workers s) i) as [[e|old]|] eqn:En; [repeat split; auto| |repeat split; auto].
    assert (Hr : (length (remove_nth i (w_workers s)) <= 1)%nat).
    { clear -Hw. destruct (w_workers s) as [|w [|]]; [destruct i; cbn; lia| |cbn in Hw; lia].
      destruct i as [|[|i]]; cbn; lia. }
    unfold running in *. destruct (w_queue s) as [|h q] eqn:Eq;
      cbn [w_arrived w_done w_removed w_queue w_workers]; rewrite (run_remove_nth _ _ _ En);
      (split; [exact Hr|]); intros p; rewrite <- Hp; [reflexivity|];
      rewrite !ids_cons; reflexivity.
  - destruct Ho.
Qed.

Lemma fifo_run os : one_worker wpq_init os -> Forall fifo_op os -> fifo_inv (wrun os).
Proof.
  unfold wrun. assert (G : forall s, fifo_inv s -> one_worker s os -> Forall fifo_op os ->
    fifo_inv (fold_left wstep os s)).
  { induction os as [|o os IH]; intros s Hi H1 Hf; cbn; [exact Hi|].
    destruct H1 as [H1 H1']. inversion Hf; subst. apply IH; auto.
    apply fifo_step; auto. intros ->. exact H1. }
  intros H1 Hf. apply G; auto. repeat split; cbn; auto; lia.
Qed.

Lemma fifo_order os p : one_worker wpq_init os -> Forall fifo_op os ->
  let s := wrun os in
  ids p (w_done s) ++ ids p (running s) ++ ids p (w_queue s) = ids p (w_arrived s).
Proof. intros H1 Hf. apply fifo_run; auto. Qed.

(** ** no lost wake-up *)
Definition wake_inv (s : wpq) : Prop :=
  sortedr (w_queue s) /\
  (w_queue s <> [] -> w_repoll s = true \/ w_workers s <> [] \/
     exists h q, w_queue s = h :: q /\ w_held s = Some (q_msg h)).

Lemma set_nth_nonempty {A} i (x : A) l : l <> [] -> set_nth i x l <> [].
Proof. destruct l, i; cbn; congruence. Qed.

Lemma wake_step s o : wake_inv s -> wake_inv (wstep s o).
Proof.
  intros (Hs & Hw). split; [now apply wstep_sorted|].
  destruct o as [m pri tick| |i r tick|i tick|sel]; cbn [wstep].
  - set (e := {| q_msg := m; q_pri := pri; q_tick := tick |}).
    pose proof (enqueue_flag (w_queue s) e Hs) as Hf. pose proof (enqueue_stable (w_queue s) e Hs) as He.
    destruct (enqueue (w_queue s) e) as [q top]. cbn [fst snd] in *. subst q.
    cbn [w_queue w_repoll w_workers w_held]. intros _.
    destruct (w_queue s) as [|h t] eqn:Eq.
    + cbn in Hf. subst top. left. apply orb_true_r.
    + cbn [stable_insert] in *.
      destruct (q_pri h >=? q_pri e) eqn:E.
      * destruct Hw as [H|[H|(h' & q' & [= <- <-] & H)]]; [discriminate|..].
        -- left. now rewrite H.
        -- auto.
        -- right; right. eauto.
      * left. subst top. apply orb_true_iff. right. lia.
  - destruct (w_queue s) as [|e q] eqn:Eq; cbn [w_queue w_repoll w_workers w_held]; [congruence|].
    intros _. right; left. destruct (w_workers s); discriminate.
  - destruct (nth_error (w_workers s) i) as [[e|old]|] eqn:En; [|exact Hw|exact Hw].
    assert (Hne : w_workers s <> []) by (intros E; rewrite E in En; destruct i; discriminate).
    destruct r; [| |destruct (enqueue _ _) as [q top]]; cbn [w_queue w_repoll w_workers w_held];
      intros _; right; left; now apply set_nth_nonempty.
  - destruct (nth_error (w_workers s) i) as [[e|old]|] eqn:En; [exact Hw| |exact Hw].
    destruct (w_queue s) as [|h q] eqn:Eq; cbn [w_queue w_repoll w_workers w_held]; [congruence|].
    intros _. destruct (match old with Some m => Nat.eqb (q_msg h) m | None => false end) eqn:E.
    + right; right. exists (set_tick tick h), q. auto.
    + auto.
  - cbn [w_queue w_repoll w_workers w_held]. destruct (filter _ _); [congruence|]. auto.
Qed.

Lemma wake_run os : wake_inv (wrun os).
Proof. apply wrun_ind; [split; [exact I|cbn; congruence]|]. apply wake_step. Qed.

Lemma no_lost_wakeup os : let s := wrun os in
  w_queue s <> [] -> w_repoll s = false -> w_workers s = [] ->
  exists h q, w_queue s = h :: q /\ w_held s = Some (q_msg h).
Proof.
  cbv zeta. intros Hq Hr Hw. destruct (wake_run os) as [_ H].
  destruct (H Hq) as [E|[E|E]]; [congruence|congruence|exact E].
Qed.

(** ** highest priority first *)
Lemma take_highest os h q : w_queue (wrun os) = h :: q ->
  w_workers (wstep (wrun os) OTake) = w_workers (wrun os) ++ [WRun h] /\
  Forall (fun e => q_pri e <= q_pri h) (w_queue (wrun os)).
Proof.
  intros E. split; [cbn; now rewrite E|]. pose proof (wrun_sortedr os) as H. rewrite E in *.
  destruct H as [H _]. constructor; [lia|exact H].
Qed.

(** ** polled delivery *)
Lemma erase_msg_head h q : erase_msg (q_msg h) (h :: q) = q.
Proof. cbn. now rewrite Nat.eqb_refl. Qed.

Lemma do_poll_accept autocatch receive h q tick :
  fst (receive (q_msg h)) = ACCEPT -> (autocatch = true \/ snd (receive (q_msg h)) = true) ->
  map ident (do_poll autocatch receive (h :: q) tick) = map ident q.
Proof.
  intros H1 H2. unfold do_poll. destruct (receive (q_msg h)) as [r v]. cbn in H1, H2. subst r.
  assert (autocatch || v = true) as -> by (destruct autocatch, v; tauto).
  rewrite erase_msg_head. now destruct q.
Qed.

Lemma do_poll_requeue autocatch receive h q tick : sortedr (h :: q) ->
  fst (receive (q_msg h)) = REQUEUE -> (autocatch = true \/ snd (receive (q_msg h)) = true) ->
  map ident (do_poll autocatch receive (h :: q) tick) = map ident (stable_insert h q).
Proof.
  intros Hs H1 H2. unfold do_poll. destruct (receive (q_msg h)) as [r v]. cbn in H1, H2. subst r.
  assert (autocatch || v = true) as -> by (destruct autocatch, v; tauto).
  rewrite erase_msg_head, enqueue_stable by apply Hs.
  assert (G : forall e l, map ident (stable_insert (set_tick tick e) l) = map ident (stable_insert e l)).
  { intros e l. induction l as [|x l IH]; [reflexivity|]. cbn [stable_insert set_tick q_pri].
    destruct (q_pri x >=? q_pri e); cbn [map]; [now rewrite IH|reflexivity]. }
  rewrite <- G. now destruct (stable_insert (set_tick tick h) q).
Qed.

Lemma do_poll_transferred receive h q tick :
  receive (q_msg h) = (ACCEPT, false) ->
  map ident (do_poll false receive (h :: q) tick) = map ident (h :: q).
Proof. intros H. unfold do_poll. rewrite H. reflexivity. Qed.
