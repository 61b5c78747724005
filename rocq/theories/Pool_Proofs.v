(** Proofs about the worker pool. *)
From Verif Require Import Base Pool_Model Pool_Spec.

Definition occ (d : nat) (l : list nat) : nat := length (filter (Nat.eqb d) l).
Definition occt (d : nat) (l : list gthread) : nat := occ d (concat (map g_runs l)).
Definition idl (l : list gthread) : nat := length (filter (fun t => negb (g_busy t)) l).
Lemma occ_app d a b : occ d (a ++ b) = occ d a + occ d b.
Proof. unfold occ. now rewrite filter_app, app_length. Qed.
Lemma occ_cons d e l : occ d (e :: l) = (if Nat.eqb d e then 1 else 0) + occ d l.
Proof. unfold occ. cbn [filter]. destruct (Nat.eqb d e); reflexivity. Qed.
Lemma occt_app d a b : occt d (a ++ b) = occt d a + occt d b.
Proof. unfold occt. now rewrite map_app, concat_app, occ_app. Qed.
Lemma occt_cons d t l : occt d (t :: l) = occ d (g_runs t) + occt d l.
Proof. unfold occt. cbn [map concat]. apply occ_app. Qed.
Lemma idl_app a b : idl (a ++ b) = idl a + idl b.
Proof. unfold idl. now rewrite filter_app, app_length. Qed.
Lemma idl_cons t l : idl (t :: l) = (if g_busy t then 0 else 1) + idl l.
Proof. unfold idl. cbn [filter]. destruct (g_busy t); reflexivity. Qed.

Record ginv (m : nat) (s : gsys) : Prop := {
  gi_nthr : forall d, q_nthr (g_pool s) d = occt d (g_thr s) + (if Nat.eqb d 0 then 1 else 0);
  gi_bound : forall d, occt d (g_thr s) <= S m;
  gi_idle : q_nidle (g_pool s) = idl (g_thr s);
  gi_pos : 0 < q_nlen (g_pool s);
  gi_queue : forall o, In o (q_orders (g_pool s)) -> o_depth o < q_nlen (g_pool s);
  gi_runs : forall t d, In t (g_thr s) -> In d (g_runs t) -> d < q_nlen (g_pool s) }.

Lemma awaken_same {A} m (p : pool A) a p' : pool_awaken m p = Ok (a, p') ->
  q_orders p' = q_orders p /\ q_nthr p' = q_nthr p /\ q_nlen p' = q_nlen p /\
  q_nidle p' = q_nidle p + match a with ASpawn => 1 | _ => 0 end.
Proof.
  unfold pool_awaken. destruct (q_orders p) as [|o q] eqn:E; [|destruct (Nat.leb _ _); [discriminate|]; destruct (Nat.leb _ _); [|destruct (Nat.eqb _ _)]];
    intro H; injection H as <- <-; cbn; rewrite ?E; repeat split; lia.
Qed.
Lemma awaken_ok {A} m (p : pool A) : (forall o, In o (q_orders p) -> o_depth o < q_nlen p) -> exists a p', pool_awaken m p = Ok (a, p').
Proof.
  intro H. unfold pool_awaken. destruct (q_orders p) as [|o q] eqn:E; [eauto|]. destruct (Nat.leb_spec (q_nlen p) (o_depth o)) as [L|L].
  - specialize (H o (or_introl eq_refl)). lia.
  - destruct (Nat.leb _ _); [eauto|]. destruct (Nat.eqb _ _); eauto.
Qed.
Lemma look_took {A} m b w mind (p : pool A) o a p' : pool_look m b w mind p = Ok (LTook o a p') ->
  exists q, q_orders p = o :: q /\ q_orders p' = q /\ (forall d, q_nthr p' d = q_nthr p d + if Nat.eqb d (o_depth o) then 1 else 0) /\
  q_nlen p' = q_nlen p /\ q_nidle p' = (q_nidle p - (if b then 0 else 1)) + match a with ASpawn => 1 | _ => 0 end /\
  mind <= o_depth o /\ q_nthr p (o_depth o) <= m /\ (b = false -> q_nthr p (o_depth o) < m) /\
  pool_awaken m {| q_orders := q; q_nthr := upd (q_nthr p) (o_depth o) (S (q_nthr p (o_depth o))); q_nlen := q_nlen p; q_nidle := q_nidle p - (if b then 0 else 1) |} = Ok (a, p').
Proof.
  unfold pool_look. destruct (q_orders p) as [|o' q] eqn:E; [destruct w; discriminate|].
  destruct (Nat.ltb_spec (o_depth o') mind) as [L|L]; [discriminate|]. destruct (Nat.leb _ _); [discriminate|].
  assert (X : forall n, n = q_nidle p - (if b then 0 else 1) -> q_nthr p (o_depth o') <= m -> (b = false -> q_nthr p (o_depth o') < m) -> pool_take m o' q n p = Ok (LTook o a p') -> exists q2, o' :: q = o :: q2 /\ q_orders p' = q2 /\ (forall d, q_nthr p' d = q_nthr p d + if Nat.eqb d (o_depth o) then 1 else 0) /\
  q_nlen p' = q_nlen p /\ q_nidle p' = (q_nidle p - (if b then 0 else 1)) + match a with ASpawn => 1 | _ => 0 end /\
  mind <= o_depth o /\ q_nthr p (o_depth o) <= m /\ (b = false -> q_nthr p (o_depth o) < m) /\
  pool_awaken m {| q_orders := q2; q_nthr := upd (q_nthr p) (o_depth o) (S (q_nthr p (o_depth o))); q_nlen := q_nlen p; q_nidle := q_nidle p - (if b then 0 else 1) |} = Ok (a, p')).
  { intros n Hn B1 B2 H. unfold pool_take, bind in H. destruct (pool_awaken _ _) as [[a' p'']| |] eqn:Ea; [|discriminate|discriminate]. cbn [fst snd] in H. injection H as <- <- <-.
    destruct (awaken_same _ _ _ _ Ea) as (H1 & H2 & H3 & H4). cbn in H1, H2, H3, H4. exists q. rewrite H1, H2, H3, H4, Hn. subst n. repeat split; auto.
    intro d. unfold upd. destruct (Nat.eqb_spec d (o_depth o')) as [->|]; lia. }
  destruct b.
  - destruct (Nat.ltb_spec m (q_nthr p (o_depth o'))) as [L2|L2]; [destruct w; discriminate|]. intro H. destruct (X (q_nidle p)) as (q' & Y & Z); auto; [lia|discriminate|]. exists q'. injection Y as Y1 Y2; subst. auto.
  - destruct (Nat.leb_spec m (q_nthr p (o_depth o'))) as [L2|L2]; [destruct w; discriminate|]. intro H. destruct (X (q_nidle p - 1)) as (q' & Y & Z); auto; [lia|]. exists q'. injection Y as Y1 Y2; subst. auto.
Qed.
Lemma look_sleep {A} m b w mind (p : pool A) p' : pool_look m b w mind p = Ok (LSleep p') -> w = true /\ p' = if b then idle_more p else p.
Proof.
  unfold pool_look. destruct (q_orders p) as [|o q]; [destruct w; [|discriminate]; intro H; injection H as <-; now destruct b|].
  destruct (Nat.ltb _ _); [discriminate|]. destruct (Nat.leb _ _); [discriminate|]. unfold pool_take.
  destruct b; [destruct (Nat.ltb _ _)|destruct (Nat.leb _ _)]; try (destruct w; [intro H; injection H as <-; auto|discriminate]); destruct (pool_awaken _ _) as [[? ?]| |]; discriminate.
Qed.

Lemma ginv_start m n : ginv m (gstart n).
Proof.
  assert (R : forall d, occt d (repeat fresh n) = 0) by (intro d; induction n; cbn [repeat]; rewrite ?occt_cons; auto).
  constructor; cbn [gstart g_pool g_thr pool_join pool_start q_nthr q_nlen q_nidle q_orders Nat.leb Nat.ltb Nat.add]; intros.
  - rewrite occt_cons, R. unfold upd. cbn. destruct d; [reflexivity|]. cbn. now destruct (Nat.leb d 98).
  - rewrite occt_cons, R. cbn. lia.
  - rewrite idl_cons. cbn. clear. induction n as [|n IH]; auto. cbn [repeat]. rewrite idl_cons. cbn. now rewrite <- IH.
  - cbn. lia.
  - destruct H.
  - destruct H as [<-|H]; [destruct H0|]. apply repeat_spec in H. subst. destruct H0.
Qed.
Lemma occt_wake d a l : occt d (wake_up a l) = occt d l.
Proof. destruct a; cbn [wake_up]; auto. rewrite occt_app. cbn. lia. Qed.
Lemma idl_wake a l : idl (wake_up a l) = idl l + match a with ASpawn => 1 | _ => 0 end.
Proof. destruct a; cbn [wake_up]; rewrite ?idl_app; cbn; lia. Qed.
Lemma In_wake a l t : In t (wake_up a l) -> In t l \/ t = fresh.
Proof. destruct a; cbn [wake_up]; auto. intro H. apply in_app_iff in H as [H|[H|[]]]; auto. Qed.
Lemma ginv_step m s t : ginv m s -> gstep m s t -> ginv m t.
Proof.
  intros I St. destruct St as [s o|s a p E|s l1 t l2 w mind o a p Et E|s l1 t l2 w mind p Et E|s l1 t l2 r1 d r2 p Et Er E|s mine]; destruct I as [I1 I2 I3 I4 I5 I6].
  - assert (L : q_nlen (g_pool s) <= q_nlen (pool_place o (g_pool s)) /\ o_depth o < q_nlen (pool_place o (g_pool s))).
    { cbn. destruct (Nat.leb_spec (q_nlen (g_pool s)) (o_depth o)); lia. }
    constructor; cbn [g_pool g_thr]; auto; [lia| |].
    + intros o' H. change (In o' (o :: q_orders (g_pool s))) in H. destruct H as [<-|H]; [apply L|]. specialize (I5 _ H). lia.
    + intros t d H1 H2. specialize (I6 _ _ H1 H2). lia.
  - destruct (awaken_same _ _ _ _ E) as (H1 & H2 & H3 & H4). constructor; cbn [g_pool g_thr]; rewrite ?H1, ?H2, ?H3, ?H4; auto.
    + intro d. now rewrite occt_wake.
    + intro d. now rewrite occt_wake.
    + rewrite idl_wake. lia.
    + intros t d Ht Hd. apply In_wake in Ht as [Ht| ->]; [eauto|destruct Hd].
  - destruct (look_took _ _ _ _ _ _ _ _ E) as (q & H1 & H2 & H3 & H4 & H5 & H6 & H7 & H8 & _).
    assert (O : forall d, occt d (l1 ++ {| g_busy := true; g_runs := o_depth o :: g_runs t |} :: l2) = occt d (g_thr s) + if Nat.eqb d (o_depth o) then 1 else 0).
    { intro d. rewrite Et, !occt_app, !occt_cons. cbn [g_runs]. rewrite occ_cons. lia. }
    constructor; cbn [g_pool g_thr]; rewrite ?H2, ?H4, ?H5; auto.
    + intro d. rewrite occt_wake, H3, O, I1. lia.
    + intro d. rewrite occt_wake, O. specialize (I2 d). destruct (Nat.eqb_spec d (o_depth o)) as [->|]; [|lia]. rewrite I1 in H7. lia.
    + rewrite idl_wake, I3, Et, !idl_app, !idl_cons. cbn [g_busy]. destruct (g_busy t); lia.
    + intros o' H. apply I5. rewrite H1. now right.
    + intros t' d Ht Hd. apply In_wake in Ht as [Ht| ->]; [|destruct Hd]. apply in_app_iff in Ht as [Ht|[<-|Ht]].
      * apply (I6 t'); auto. rewrite Et. apply in_app_iff. auto.
      * cbn [g_runs] in Hd. destruct Hd as [<-|Hd]; [apply I5; rewrite H1; now left|]. apply (I6 t); auto. rewrite Et. apply in_app_iff. right. now left.
      * apply (I6 t'); auto. rewrite Et. apply in_app_iff. right. now right.
  - apply look_sleep in E as [_ E].
    assert (O : forall d, occt d (l1 ++ {| g_busy := false; g_runs := g_runs t |} :: l2) = occt d (g_thr s)) by (intro d; now rewrite Et, !occt_app, !occt_cons).
    constructor; cbn [g_pool g_thr].
    + intro d. rewrite O, <- I1, E. now destruct (g_busy t).
    + intro d. now rewrite O.
    + rewrite idl_app, idl_cons. cbn [g_busy]. rewrite Et, idl_app, idl_cons in I3. rewrite E. destruct (g_busy t); cbn [idle_more q_nidle]; lia.
    + rewrite E. now destruct (g_busy t).
    + intros o H. replace (q_nlen p) with (q_nlen (g_pool s)) by (rewrite E; now destruct (g_busy t)). apply I5. rewrite E in H. now destruct (g_busy t).
    + intros t' d Ht Hd. replace (q_nlen p) with (q_nlen (g_pool s)) by (rewrite E; now destruct (g_busy t)). apply in_app_iff in Ht as [Ht|[<-|Ht]].
      * apply (I6 t'); auto. rewrite Et. apply in_app_iff. auto.
      * apply (I6 t); auto. rewrite Et. apply in_app_iff. right. now left.
      * apply (I6 t'); auto. rewrite Et. apply in_app_iff. right. now right.
  - unfold pool_finish in E. destruct (Nat.leb _ _) eqn:El; [discriminate|]. injection E as <-.
    assert (O : forall e, occt e (g_thr s) = occt e (l1 ++ {| g_busy := g_busy t; g_runs := r1 ++ r2 |} :: l2) + if Nat.eqb e d then 1 else 0).
    { intro e. rewrite Et, !occt_app, !occt_cons. cbn [g_runs]. rewrite Er, !occ_app, occ_cons. lia. }
    constructor; cbn [g_pool g_thr q_nthr q_orders q_nlen q_nidle]; auto.
    + intro e. unfold upd. destruct (Nat.eqb_spec e d) as [->|N]; rewrite I1, O; [rewrite Nat.eqb_refl; lia|]. apply Nat.eqb_neq in N. rewrite N. lia.
    + intro e. specialize (I2 e). rewrite O in I2. lia.
    + rewrite I3, Et, !idl_app, !idl_cons. reflexivity.
    + intros t' e Ht He. apply in_app_iff in Ht as [Ht|[<-|Ht]].
      * apply (I6 t'); auto. rewrite Et. apply in_app_iff. auto.
      * apply (I6 t); [rewrite Et; apply in_app_iff; right; now left|]. rewrite Er. cbn [g_runs] in He. apply in_app_iff in He. apply in_app_iff. cbn. tauto.
      * apply (I6 t'); auto. rewrite Et. apply in_app_iff. right. now right.
  - constructor; cbn [g_pool g_thr pool_clear q_nthr q_orders q_nlen q_nidle]; auto. intros o H. apply filter_In in H as [H _]. auto.
Qed.
Lemma ginv_reach m n s : greach m n s -> ginv m s.
Proof. induction 1; [apply ginv_start|eauto using ginv_step]. Qed.
