From Verif Require Import Base Bytes_Model Hiid_Model Hiid_Spec Hiid_Proofs Subs_Model
  Wpq_Model Wpq_Spec Wpq_Proofs Disp_Model Disp_Spec.
Local Open Scope Z_scope.

(** ** list updates *)
Lemma upd_length {A} i (f : A -> A) l : length (upd i f l) = length l.
Proof. revert i; induction l as [|x l IH]; intros [|i]; cbn; auto. Qed.
Lemma nth_upd_same {A} i (f : A -> A) l : nth_error (upd i f l) i = option_map f (nth_error l i).
Proof. revert i; induction l as [|x l IH]; intros [|i]; cbn; auto. Qed.
Lemma nth_upd_other {A} i j (f : A -> A) l : i <> j -> nth_error (upd i f l) j = nth_error l j.
Proof.
  revert i j; induction l as [|x l IH]; intros [|i] [|j] H; cbn; auto; try congruence.
Qed.
Lemma In_upd {A} i (f : A -> A) l y : In y (upd i f l) -> In y l \/ exists x, In x l /\ y = f x.
Proof.
  revert i; induction l as [|x l IH]; intros [|i]; cbn; auto.
  - intros [<-|H]; [right; exists x; auto|auto].
  - intros [<-|H]; [auto|]. destruct (IH i H) as [H'|(z & Hz & ->)]; eauto.
Qed.

(** ** routing *)
Lemma select_from_spec f i l j : In j (select_from f i l) <->
  exists k w, j = (i + k)%nat /\ nth_error l k = Some w /\ f w = true.
Proof.
  revert i; induction l as [|x l IH]; intros i; cbn.
  - split; [intros []|intros (k & w & _ & H & _); destruct k; discriminate].
  - rewrite in_app_iff, IH. split.
    + intros [H|(k & w & -> & H & Hf)].
      * destruct (f x) eqn:E; [|destruct H]. destruct H as [<-|[]]. exists 0%nat, x. repeat split; auto; lia.
      * exists (S k), w. repeat split; auto; lia.
    + intros (k & w & -> & H & Hf). destruct k as [|k]; cbn in H.
      * injection H as ->. rewrite Hf. left; left; lia.
      * right. exists k, w. repeat split; auto; lia.
Qed.
Lemma select_from_ge f i l j : In j (select_from f i l) -> (i <= j)%nat.
Proof. rewrite select_from_spec. intros (k & w & -> & _). lia. Qed.
Lemma select_from_NoDup f i l : NoDup (select_from f i l).
Proof.
  revert i; induction l as [|x l IH]; intros i; cbn; [constructor|].
  destruct (f x); cbn; [|apply IH]. constructor; [|apply IH].
  intros H. apply select_from_ge in H. lia.
Qed.

Definition cnt (i : nat) (l : list nat) : nat := count_occ Nat.eq_dec l i.

Lemma cnt_select f l k w : nth_error l k = Some w ->
  cnt k (select_from f 0 l) = if f w then 1%nat else 0%nat.
Proof.
  intros H. unfold cnt. destruct (f w) eqn:E.
  - apply NoDup_count_occ'; [apply select_from_NoDup|]. apply select_from_spec. exists k, w. auto.
  - apply count_occ_not_In. rewrite select_from_spec. intros (k' & w' & -> & H' & E').
    cbn in H. congruence.
Qed.

Lemma find_from_spec f i l : 
  match find_from f i l with
  | Some j => exists k w, j = (i + k)%nat /\ nth_error l k = Some w /\ f w = true /\
                (forall k' w', (k' < k)%nat -> nth_error l k' = Some w' -> f w' = false)
  | None => forall k w, nth_error l k = Some w -> f w = false
  end.
Proof.
  revert i; induction l as [|x l IH]; intros i; cbn.
  - intros k w H. destruct k; discriminate.
  - destruct (f x) eqn:E.
    + exists 0%nat, x. repeat split; auto; try lia.
    + specialize (IH (S i)). destruct (find_from f (S i) l) as [j|].
      * destruct IH as (k & w & -> & H & Hf & Hl). exists (S k), w. repeat split; auto; try lia.
        intros k' w' Hk Hw. destruct k' as [|k']; cbn in Hw; [congruence|]. apply (Hl k' w'); auto; lia.
      * intros k w H. destruct k as [|k]; cbn in H; [congruence|]. eauto.
Qed.

Lemma cnt_app i a b : cnt i (a ++ b) = (cnt i a + cnt i b)%nat.
Proof. apply count_occ_app. Qed.

Lemma matches4 to a : ~ In AidWildcard (addr_hiid to) ->
  (forall x, In x (addr_hiid a) -> x <> AidAny /\ x <> AidWildcard) ->
  hiid_matches (addr_hiid to) (addr_hiid a) =
  aid_matches (a_class to) (a_class a) && aid_matches (a_inst to) (a_inst a) &&
  (aid_matches (a_proc to) (a_proc a) && aid_matches (a_host to) (a_host a)).
Proof.
  destruct to as [t1 t2 t3 t4], a as [x1 x2 x3 x4]. unfold addr_hiid. cbn [a_class a_inst a_proc a_host].
  intros Ht Ha.
  assert (Hw : forall x, In x [t1;t2;t3;t4] -> isWildcard x = false).
  { intros x Hx. unfold isWildcard. apply Z.eqb_neq. intros ->. apply Ht, Hx. }
  assert (Hw' : forall x, In x [x1;x2;x3;x4] -> isWildcard x = false).
  { intros x Hx. unfold isWildcard. apply Z.eqb_neq. apply Ha, Hx. }
  cbn [hiid_matches].
  repeat match goal with |- context[isWildcard ?z] => first [rewrite (Hw z) by (cbn; auto 6) | rewrite (Hw' z) by (cbn; auto 6)] end. cbn [orb].
  destruct (aid_matches t1 x1), (aid_matches t2 x2), (aid_matches t3 x3), (aid_matches t4 x4); reflexivity.
Qed.
Lemma matches2 to a : ~ In AidWildcard (addr_hiid to) ->
  (forall x, In x (addr_hiid a) -> x <> AidAny /\ x <> AidWildcard) ->
  hiid_matches [a_proc to; a_host to] [a_proc a; a_host a] =
  aid_matches (a_proc to) (a_proc a) && aid_matches (a_host to) (a_host a).
Proof.
  destruct to as [t1 t2 t3 t4], a as [x1 x2 x3 x4]. unfold addr_hiid. cbn [a_class a_inst a_proc a_host].
  intros Ht Ha.
  assert (Hw : forall x, In x [t1;t2;t3;t4] -> isWildcard x = false).
  { intros x Hx. unfold isWildcard. apply Z.eqb_neq. intros ->. apply Ht, Hx. }
  assert (Hw' : forall x, In x [x1;x2;x3;x4] -> isWildcard x = false).
  { intros x Hx. unfold isWildcard. apply Z.eqb_neq. apply Ha, Hx. }
  cbn [hiid_matches].
  repeat match goal with |- context[isWildcard ?z] => first [rewrite (Hw z) by (cbn; auto 6) | rewrite (Hw' z) by (cbn; auto 6)] end. cbn [orb].
  destruct (aid_matches t3 x3), (aid_matches t4 x4); reflexivity.
Qed.

Lemma aid_matches_concrete t x : t <> AidAny -> t <> AidWildcard -> x <> AidAny -> x <> AidWildcard ->
  aid_matches t x = (t =? x).
Proof.
  intros. unfold aid_matches, isAny, isWildcard.
  rewrite !(proj2 (Z.eqb_neq _ _)) by assumption. reflexivity.
Qed.

Section routing.
Context (c : aids) (self : addr) (s : dstate) (m : msg) (to : addr).
Context (Hwf : wf_dispatcher c self s) (Hto : proper_dest to).

Lemma cnt_local k w : nth_error (ds_wps s) k = Some w ->
  cnt k (local_recipients c self s m to) = if addressed c self m to w then 1%nat else 0%nat.
Proof.
  intros Hk. destruct Hwf as (Hself & Hall & Hnd).
  assert (Hin : In w (ds_wps s)) by (eapply nth_error_In; eauto).
  destruct (Hall w Hin) as (Hc & [Hp Hh] & _ & Hnp1 & Hnp2).
  unfold addressed. rewrite (matches4 to (d_addr w)) by auto. rewrite (matches2 to self) by auto.
  rewrite Hp, Hh. unfold local_recipients.
  rewrite (andb_comm (aid_matches (a_host to) _)).
  destruct (aid_matches (a_proc to) (a_proc self) && aid_matches (a_host to) (a_host self)) eqn:El.
  2:{ rewrite !andb_false_r. reflexivity. }
  rewrite !andb_true_r.
  destruct (negb (wildcardAddr c (a_class to)) && negb (wildcardAddr c (a_inst to))) eqn:Ew.
  - apply andb_true_iff in Ew. destruct Ew as [E1 E2]. apply negb_true_iff in E1, E2.
    unfold wildcardAddr in E1, E2. apply orb_false_iff in E1, E2. rewrite !Z.eqb_neq in *.
    destruct E1 as [E1 E1'], E2 as [E2 E2'].
    rewrite (proj2 (Z.eqb_neq _ _) E1). cbn [andb]. rewrite orb_false_r.
    assert (HT : forall x, In x (addr_hiid to) -> x <> AidWildcard) by (intros x Hx ->; exact (Hto Hx)).
    rewrite (aid_matches_concrete (a_class to)), (aid_matches_concrete (a_inst to));
      try (apply Hc; cbn; tauto); try (apply HT; cbn; tauto); auto.
    assert (Heq : (a_class to =? a_class (d_addr w)) && (a_inst to =? a_inst (d_addr w)) = key_eqb w to).
    { unfold key_eqb. now rewrite (Z.eqb_sym (a_class to)), (Z.eqb_sym (a_inst to)). }
    rewrite Heq.
    pose proof (find_from_spec (fun w => key_eqb w to) 0 (ds_wps s)) as Hf.
    destruct (find_from _ 0 (ds_wps s)) as [j|].
    + destruct Hf as (k' & w' & -> & Hk' & Hw' & _). cbn [plus].
      unfold cnt. cbn [count_occ]. destruct (Nat.eq_dec k' k) as [->|Hne].
      * replace w' with w in * by congruence. now rewrite Hw'.
      * destruct (key_eqb w to) eqn:Ek; [|reflexivity]. exfalso. apply Hne.
        unfold key_eqb in *. apply andb_true_iff in Ek, Hw'. rewrite !Z.eqb_eq in *.
        assert (Hlen : (k' < length (map (fun w => (a_class (d_addr w), a_inst (d_addr w))) (ds_wps s)))%nat).
        { rewrite map_length. apply nth_error_Some. congruence. }
        pose proof (proj1 (NoDup_nth_error _) Hnd k' k Hlen) as HH. apply HH.
        rewrite !nth_error_map, Hk, Hk'. cbn. f_equal. f_equal; intuition congruence.
    + cbn. now rewrite (Hf k w Hk).
  - rewrite (cnt_select _ _ _ _ Hk).
    destruct (aid_matches (a_class to) _ && _); reflexivity.
Qed.

Lemma cnt_gateway k w : nth_error (ds_wps s) k = Some w ->
  cnt k (gateway_recipients c self s m to) = if forwarded c self m to w then 1%nat else 0%nat.
Proof.
  intros Hk. unfold gateway_recipients, forwarded.
  assert (E : negb (hiid_eqb [a_proc to; a_host to] [a_proc self; a_host self]) =
              negb (a_host to =? a_host self) || negb (a_proc to =? a_proc self)).
  { destruct (hiid_eqb _ _) eqn:E.
    - apply hiid_eqb_iff in E. injection E as -> ->. now rewrite !Z.eqb_refl.
    - destruct (Z.eqb_spec (a_host to) (a_host self)), (Z.eqb_spec (a_proc to) (a_proc self)); try reflexivity.
      exfalso. rewrite e, e0 in E.
      rewrite (proj2 (hiid_eqb_iff _ _) eq_refl) in E. discriminate. }
  rewrite E. destruct (negb _ || negb _); [|reflexivity]. cbn [andb].
  now rewrite (cnt_select _ _ _ _ Hk).
Qed.
End routing.

(** effect of queueing on the recipients *)
Lemma ds_enqueue_nth s i num pri k w : nth_error (ds_wps s) k = Some w ->
  nth_error (ds_wps (ds_enqueue s i num pri)) k =
  Some (if Nat.eqb i k then fst (enq_wp w {| q_msg := num; q_pri := pri; q_tick := ds_tick s |}) else w).
Proof.
  intros H. cbn. destruct (Nat.eqb_spec i k) as [->|Hne].
  - rewrite nth_upd_same, H. reflexivity.
  - rewrite nth_upd_other by exact Hne. exact H.
Qed.

Lemma enq_wp_queue w e : sortedr (d_queue w) -> d_queue (fst (enq_wp w e)) = stable_insert e (d_queue w).
Proof.
  intros H. rewrite <- enqueue_stable by exact H. unfold enq_wp. now destruct (enqueue _ _).
Qed.
Lemma enq_wp_sorted w e : sortedr (d_queue w) -> sortedr (d_queue (fst (enq_wp w e))).
Proof.
  intros H. rewrite enq_wp_queue by exact H. rewrite <- enqueue_stable by exact H. now apply enqueue_sorted.
Qed.

Lemma sends_effect num pri r s k w : nth_error (ds_wps s) k = Some w -> sortedr (d_queue w) ->
  exists w', nth_error (ds_wps (fold_left (fun s' i => ds_enqueue s' i num pri) r s)) k = Some w' /\
    d_addr w' = d_addr w /\
    d_queue w' = insert_copies (cnt k r) {| q_msg := num; q_pri := pri; q_tick := ds_tick s |} (d_queue w).
Proof.
  revert s w; induction r as [|i r IH]; intros s w Hk Hs.
  - exists w. repeat split; auto.
  - cbn [fold_left].
    pose proof (ds_enqueue_nth s i num pri k w Hk) as H.
    destruct (Nat.eqb_spec i k) as [->|Hne].
    + destruct (IH _ _ H (enq_wp_sorted _ _ Hs)) as (w' & H1 & H2 & H3).
      exists w'. split; [exact H1|]. split.
      * rewrite H2. unfold enq_wp. now destruct (enqueue _ _).
      * rewrite H3. rewrite enq_wp_queue by exact Hs. unfold cnt. cbn [count_occ].
        destruct (Nat.eq_dec k k); [|congruence]. reflexivity.
    + destruct (IH _ _ H Hs) as (w' & H1 & H2 & H3). exists w'. split; [exact H1|]. split; [exact H2|].
      rewrite H3. unfold cnt. cbn [count_occ]. destruct (Nat.eq_dec i k); [congruence|]. reflexivity.
Qed.

Lemma send_delivers c self s m to : wf_dispatcher c self s -> proper_dest to ->
  forall k w, nth_error (ds_wps s) k = Some w ->
  exists w', nth_error (ds_wps (fst (ds_send c self s m to))) k = Some w' /\ d_addr w' = d_addr w /\
    d_queue w' = insert_copies (copies c self m to w)
                   {| q_msg := m_num m; q_pri := m_pri m; q_tick := ds_tick s |} (d_queue w).
Proof.
  intros Hwf Hto k w Hk.
  assert (Hs : sortedr (d_queue w)).
  { destruct Hwf as (_ & H & _). apply H. eapply nth_error_In; eauto. }
  destruct (sends_effect (m_num m) (m_pri m)
              (local_recipients c self s m to ++ gateway_recipients c self s m to) s k w Hk Hs)
    as (w' & H1 & H2 & H3).
  exists w'. split; [exact H1|]. split; [exact H2|]. rewrite H3. f_equal.
  rewrite cnt_app, (cnt_local c self s m to Hwf Hto k w Hk), (cnt_gateway c self s m to k w Hk). reflexivity.
Qed.

Lemma count_sum r n : (forall x, In x r -> (x < n)%nat) ->
  length r = fold_right (fun k a => (cnt k r + a)%nat) 0%nat (seq 0 n).
Proof.
  intros H. assert (G : forall b m, (forall x, In x r -> (b <= x < b + m)%nat) ->
     length r = fold_right (fun k a => (cnt k r + a)%nat) 0%nat (seq b m)).
  2:{ apply G. intros x Hx. specialize (H x Hx). lia. }
  clear H n. induction r as [|x r IH]; intros b m H.
  - cbn. clear H. revert b; induction m as [|m IHm]; intros b; cbn; auto.
  - cbn [length]. rewrite (IH b m) by (intros y Hy; apply H; now right).
    assert (Hx : (b <= x < b + m)%nat) by (apply H; now left). clear -Hx.
    assert (A : forall m b, (x < b)%nat \/ (b + m <= x)%nat ->
      fold_right (fun k a => (cnt k (x :: r) + a)%nat) 0%nat (seq b m) =
      fold_right (fun k a => (cnt k r + a)%nat) 0%nat (seq b m)).
    { clear m b Hx. induction m as [|m IHm]; intros b Hb; cbn [seq fold_right]; [reflexivity|].
      rewrite IHm by lia. f_equal. unfold cnt. cbn [count_occ]. destruct (Nat.eq_dec x b); [lia|reflexivity]. }
    revert b Hx; induction m as [|m IHm]; intros b Hx; [lia|]. cbn [seq fold_right].
    destruct (Nat.eq_dec x b) as [->|Hne].
    + rewrite A by lia. unfold cnt at 3. cbn [count_occ]. destruct (Nat.eq_dec b b); [|congruence]. unfold cnt. lia.
    + specialize (IHm (S b)). assert (E : cnt b (x :: r) = cnt b r).
      { unfold cnt. cbn [count_occ]. destruct (Nat.eq_dec x b); congruence. }
      rewrite E. lia.
Qed.

Lemma fold_right_nth (f : nat -> nat) (g : dwp -> nat) l b :
  (forall k w, nth_error l k = Some w -> f (b + k)%nat = g w) ->
  fold_right (fun k a => (f k + a)%nat) 0%nat (seq b (length l)) =
  fold_right (fun w a => (g w + a)%nat) 0%nat l.
Proof.
  revert b; induction l as [|w l IH]; intros b H; cbn [length seq fold_right]; [reflexivity|].
  rewrite (IH (S b)).
  - f_equal. rewrite <- (H 0%nat w eq_refl). f_equal. lia.
  - intros k w' Hk. rewrite <- (H (S k) w' Hk). f_equal. lia.
Qed.

Lemma send_count c self s m to : wf_dispatcher c self s -> proper_dest to ->
  snd (ds_send c self s m to) =
  fold_right (fun w a => (copies c self m to w + a)%nat) 0%nat (ds_wps s).
Proof.
  intros Hwf Hto. unfold ds_send. cbn [snd].
  rewrite (count_sum _ (length (ds_wps s))).
  - apply fold_right_nth. intros k w Hk. cbn [plus].
    rewrite cnt_app, (cnt_local c self s m to Hwf Hto k w Hk), (cnt_gateway c self s m to k w Hk). reflexivity.
  - intros x Hx. apply in_app_or in Hx. 
    assert (G : forall f, In x (select_from f 0 (ds_wps s)) -> (x < length (ds_wps s))%nat).
    { intros f Hf. apply select_from_spec in Hf. destruct Hf as (k & w & -> & Hk & _). cbn.
      apply nth_error_Some. congruence. }
    destruct Hx as [Hx|Hx].
    + unfold local_recipients in Hx.
      destruct (_ && _); [|destruct Hx]. destruct (_ && _).
      * pose proof (find_from_spec (fun w => key_eqb w to) 0 (ds_wps s)) as Hf.
        destruct (find_from _ 0 (ds_wps s)); [|destruct Hx]. destruct Hx as [<-|[]].
        destruct Hf as (k & w & -> & Hk & _). cbn. apply nth_error_Some. congruence.
      * eapply G; eauto.
    + unfold gateway_recipients in Hx. destruct (_ || _); [eapply G; eauto|destruct Hx].
Qed.

(** ** no forwarding loops *)
Lemma forward_once c self g m to :
  hiid_matches (m_id m) (MsgGWServerOpen c ++ [AidWildcard]) = false -> m_hops m > 0 ->
  willForward c self g m to = false.
Proof.
  intros H1 H2. unfold willForward. rewrite H1. destruct (g_connected g); [|reflexivity].
  cbn [negb]. destruct (m_hops m >? 0) eqn:E; [reflexivity|lia].
Qed.
Lemma forward_at_most_four c self g m to : m_hops m > 3 -> willForward c self g m to = false.
Proof.
  intros H. unfold willForward. destruct (g_connected g); [|reflexivity]. cbn [negb].
  destruct (hiid_matches _ _).
  - destruct (m_hops m >? 3) eqn:E; [|lia]. now rewrite andb_false_r.
  - destruct (m_hops m >? 0) eqn:E; [reflexivity|lia].
Qed.

(** ** polling *)
Definition prio (w : dwp) (t : Z) := getPollPriority w t.

Lemma scan_spec t l : forall i mp mw n,
  let '(mp', mw', n') := scan t i l (mp, mw, n) in
  (n <= n')%nat /\ mp <= mp' /\
  (forall k w, nth_error l k = Some w -> 0 <= prio w t -> prio w t <= mp' /\ (n < n')%nat) /\
  ((mp' = mp /\ mw' = mw) \/
   exists k w, nth_error l k = Some w /\ mw' = Some (i + k)%nat /\ 0 <= prio w t /\ prio w t = mp').
Proof.
  induction l as [|x l IH]; intros i mp mw n; cbn [scan].
  - repeat split; try lia; auto; destruct k; discriminate.
  - set (acc := if 0 <=? prio x t then if prio x t >=? mp then (prio x t, Some i, S n) else (mp, mw, S n)
                else (mp, mw, n)).
    change (let '(mp', mw', n') := scan t (S i) l acc in
      (n <= n')%nat /\ mp <= mp' /\
      (forall k w, nth_error (x :: l) k = Some w -> 0 <= prio w t -> prio w t <= mp' /\ (n < n')%nat) /\
      ((mp' = mp /\ mw' = mw) \/
       exists k w, nth_error (x :: l) k = Some w /\ mw' = Some (i + k)%nat /\ 0 <= prio w t /\ prio w t = mp')).
    destruct (0 <=? prio x t) eqn:E0; [destruct (prio x t >=? mp) eqn:E1|]; subst acc;
      match goal with |- context[scan t (S i) l (?a, ?b, ?cc)] => specialize (IH (S i) a b cc) end;
      destruct (scan t (S i) l _) as [[mp' mw'] n']; destruct IH as (H1 & H2 & H3 & H4);
      (split; [lia|]); (split; [lia|]).
    + split.
      * intros [|k] w Hk Hp; cbn in Hk; [injection Hk as <-; lia|].
        destruct (H3 k w Hk Hp). lia.
      * right. destruct H4 as [[-> ->]|(k & w & Hk & -> & Hp & He)].
        -- exists 0%nat, x. repeat split; auto; try (f_equal; lia); lia.
        -- exists (S k), w. repeat split; auto. f_equal; lia.
    + split.
      * intros [|k] w Hk Hp; cbn in Hk; [injection Hk as <-; lia|].
        destruct (H3 k w Hk Hp). lia.
      * destruct H4 as [[-> ->]|(k & w & Hk & -> & Hp & He)]; [left; auto|].
        right. exists (S k), w. repeat split; auto. f_equal; lia.
    + split.
      * intros [|k] w Hk Hp; cbn in Hk; [injection Hk as <-; lia|]. apply (H3 k w Hk Hp).
      * destruct H4 as [[-> ->]|(k & w & Hk & -> & Hp & He)]; [left; auto|].
        right. exists (S k), w. repeat split; auto. f_equal; lia.
Qed.

Lemma choose_spec s : 
  match fst (choose s) with
  | Some v => exists x, nth_error (ds_wps s) v = Some x /\ 0 <= prio x (ds_tick s + 1) /\
      forall k w, nth_error (ds_wps s) k = Some w -> prio w (ds_tick s + 1) <= prio x (ds_tick s + 1)
  | None => forall k w, nth_error (ds_wps s) k = Some w -> prio w (ds_tick s + 1) < 0
  end.
Proof.
  unfold choose. pose proof (scan_spec (ds_tick s + 1) (ds_wps s) 0 (-1) None 0) as H.
  destruct (scan _ _ _ _) as [[mp mw] n]. destruct H as (H1 & H2 & H3 & H4). cbn [fst].
  destruct H4 as [[-> ->]|(k & x & Hk & -> & Hp & He)].
  - intros k w Hk. destruct (Z.lt_ge_cases (prio w (ds_tick s + 1)) 0) as [|Hge]; [auto|].
    destruct (H3 k w Hk Hge). lia.
  - cbn [plus]. exists x. repeat split; auto. intros k' w' Hk'.
    destruct (Z.lt_ge_cases (prio w' (ds_tick s + 1)) 0) as [|Hge]; [lia|].
    destruct (H3 k' w' Hk' Hge). lia.
Qed.

(** two eligible work processes: the counter forces another round *)
Lemma scan_count t l : forall i acc,
  snd (scan t i l acc) = (snd acc + length (filter (fun w => (0 <=? prio w t)%Z) l))%nat.
Proof.
  induction l as [|x l IH]; intros i acc; cbn [scan].
  - cbn. lia.
  - destruct acc as [[mp mw] n]. rewrite IH. cbn [filter]. unfold prio.
    destruct (0 <=? getPollPriority x t); [destruct (_ >=? _)|]; cbn [snd length]; lia.
Qed.
Lemma filter_two {A} (f : A -> bool) l i j x y : i <> j ->
  nth_error l i = Some x -> nth_error l j = Some y -> f x = true -> f y = true ->
  (1 < length (filter f l))%nat.
Proof.
  revert i j; induction l as [|a l IH]; intros i j Hne Hi Hj Hx Hy; [destruct i; discriminate|].
  assert (one : forall k z, nth_error l k = Some z -> f z = true -> (0 < length (filter f l))%nat).
  { intros k z Hk Hz. assert (In z (filter f l)) by (apply filter_In; split; [eapply nth_error_In; eauto|auto]).
    destruct (filter f l); [contradiction|cbn; lia]. }
  destruct i as [|i], j as [|j]; cbn in Hi, Hj; cbn [filter].
  - congruence.
  - injection Hi as ->. rewrite Hx. cbn. specialize (one j y Hj Hy). lia.
  - injection Hj as ->. rewrite Hy. cbn. specialize (one i x Hi Hx). lia.
  - assert (i <> j) by congruence. specialize (IH i j H Hi Hj Hx Hy). destruct (f a); cbn; lia.
Qed.

(** how a step changes one work process *)
Definition same (x y : dwp) : Prop :=
  d_repoll y = d_repoll x /\ match d_queue x, d_queue y with
                             | [], [] => True
                             | h :: _, h' :: _ => h = h'
                             | _, _ => False end.
Definition fresh (T M : Z) (y : dwp) : Prop :=
  exists h q, d_queue y = h :: q /\ q_tick h = T /\ 0 <= q_pri h <= M.
(** [fresh], overtaking the old head *)
Definition overtake (T M : Z) (x y : dwp) : Prop :=
  fresh T M y /\ forall h q h' q', d_queue x = h :: q -> d_queue y = h' :: q' -> q_pri h < q_pri h'.
Definition chg (T M : Z) (x y : dwp) : Prop := same x y \/ (d_repoll y = true /\ overtake T M x y).
Definition good (T M : Z) (x : dwp) : Prop :=
  sortedr (d_queue x) /\ Forall (fun e => 0 <= q_pri e <= M /\ q_tick e <= T) (d_queue x).

Lemma same_refl x : same x x.
Proof. split; [reflexivity|]. destruct (d_queue x); auto. Qed.
Lemma same_trans x y z : same x y -> same y z -> same x z.
Proof.
  intros [H1 H2] [H3 H4]. split; [congruence|].
  destruct (d_queue x), (d_queue y), (d_queue z); try tauto; congruence.
Qed.
Lemma chg_trans T M x y z : chg T M x y -> chg T M y z -> chg T M x z.
Proof.
  intros [H|[Hr [Hf Ho]]] [H'|[Hr' [Hf' Ho']]].
  - left. eapply same_trans; eauto.
  - right. split; [exact Hr'|]. split; [exact Hf'|]. intros h q h' q' Hx Hz.
    destruct H as [_ H]. rewrite Hx in H. destruct (d_queue y) as [|hy qy] eqn:Ey; [tauto|]. subst hy. eauto.
  - right. destruct H' as [H1 H2]. split; [congruence|].
    destruct Hf as (h & q & Hq & Ht & Hp). rewrite Hq in H2.
    destruct (d_queue z) as [|hz qz] eqn:Ez; [tauto|]. subst hz. split.
    + exists h, qz. rewrite Ez. auto.
    + intros h0 q0 h' q' Hx Hz. rewrite Ez in Hz. injection Hz as <- <-. eapply Ho; eauto.
  - right. split; [exact Hr'|]. split; [exact Hf'|]. intros h q h' q' Hx Hz.
    destruct Hf as (hy & qy & Hq & _). specialize (Ho _ _ _ _ Hx Hq). specialize (Ho' _ _ _ _ Hq Hz). lia.
Qed.

Lemma enq_wp_chg T M x e : good T M x -> 0 <= q_pri e <= M -> q_tick e = T ->
  good T M (fst (enq_wp x e)) /\ chg T M x (fst (enq_wp x e)).
Proof.
  intros [Hs Ha] Hp Ht. split.
  - split; [now apply enq_wp_sorted|]. rewrite enq_wp_queue by exact Hs.
    destruct (stable_insert_split e (d_queue x)) as (a & b & Hq & -> & _).
    rewrite Hq, Forall_app in Ha. apply Forall_app. split; [tauto|]. constructor; [lia|tauto].
  - pose proof (enqueue_stable (d_queue x) e Hs) as He. pose proof (enqueue_flag (d_queue x) e Hs) as Hf.
    unfold enq_wp, chg, same, overtake, fresh. destruct (enqueue (d_queue x) e) as [q top].
    cbn [fst snd] in *. subst q. cbn [d_repoll d_queue].
    destruct (d_queue x) as [|h t] eqn:Eq.
    + cbn in Hf |- *. subst top. right. split; [apply orb_true_r|]. split; [exists e, []; auto|discriminate].
    + cbn [stable_insert] in *. destruct (q_pri h >=? q_pri e) eqn:E.
      * left. subst top. assert (q_pri h <? q_pri e = false) as -> by lia. now rewrite orb_false_r.
      * right. subst top. assert (q_pri h <? q_pri e = true) as -> by lia. split; [apply orb_true_r|].
        split; [exists e, (h :: t); auto|]. intros h0 q0 h' q' E1 E2. injection E1 as <- <-. injection E2 as <- <-. lia.
Qed.

Definition good_state (M : Z) (s : dstate) : Prop :=
  forall k x, nth_error (ds_wps s) k = Some x -> good (ds_tick s) M x.

Lemma ok_good M s : ok_state M s <-> good_state M s.
Proof.
  unfold ok_state, good_state, good, ok_entry. split.
  - intros H k x Hk. apply H. eapply nth_error_In; eauto.
  - intros H x Hx. apply In_nth_error in Hx. destruct Hx as [k Hk]. eauto.
Qed.

(** [s'] is reachable from [s] by queueing messages only *)
Definition arrives (M : Z) (s s' : dstate) : Prop :=
  ds_tick s' = ds_tick s /\ good_state M s' /\ length (ds_wps s') = length (ds_wps s) /\
  forall k x, nth_error (ds_wps s) k = Some x ->
    exists y, nth_error (ds_wps s') k = Some y /\ chg (ds_tick s) M x y.

Lemma arrives_refl M s : good_state M s -> arrives M s s.
Proof.
  intros H. split; [reflexivity|]. split; [exact H|]. split; [reflexivity|].
  intros k x Hk. exists x. split; auto. left. apply same_refl.
Qed.
Lemma arrives_trans M a b c : arrives M a b -> arrives M b c -> arrives M a c.
Proof.
  intros (H1 & H2 & H3 & H4) (H5 & H6 & H7 & H8). split; [congruence|]. split; [exact H6|]. split; [congruence|].
  intros k x Hk. destruct (H4 k x Hk) as (y & Hy & Hc). destruct (H8 k y Hy) as (z & Hz & Hc').
  exists z. split; auto. rewrite H1 in Hc'. eapply chg_trans; eauto.
Qed.

Lemma arrives_enqueue M s i num pri : good_state M s -> 0 <= pri <= M -> arrives M s (ds_enqueue s i num pri).
Proof.
  intros Hg Hp. split; [reflexivity|].
  assert (G : forall k x, nth_error (ds_wps s) k = Some x ->
    exists y, nth_error (ds_wps (ds_enqueue s i num pri)) k = Some y /\ chg (ds_tick s) M x y /\ good (ds_tick s) M y).
  { intros k x Hk. rewrite (ds_enqueue_nth s i num pri k x Hk). eexists. split; [reflexivity|].
    destruct (Nat.eqb i k).
    - destruct (enq_wp_chg (ds_tick s) M x {| q_msg := num; q_pri := pri; q_tick := ds_tick s |}); auto.
      apply (Hg k x Hk).
    - split; [left; apply same_refl|apply (Hg k x Hk)]. }
  assert (Hl : length (ds_wps (ds_enqueue s i num pri)) = length (ds_wps s)) by (cbn; apply upd_length).
  split; [|split; [exact Hl|]].
  - intros k y Hk. destruct (nth_error (ds_wps s) k) as [x|] eqn:E.
    + destruct (G k x E) as (y' & Hy & _ & Hg'). replace y with y' by congruence. exact Hg'.
    + exfalso. apply nth_error_None in E. assert (k < length (ds_wps (ds_enqueue s i num pri)))%nat by
        (apply nth_error_Some; congruence). lia.
  - intros k x Hk. destruct (G k x Hk) as (y & Hy & Hc & _). eauto.
Qed.

Lemma arrives_sends M l : forall s, good_state M s -> Forall (fun y => 0 <= snd y <= M) l ->
  arrives M s (ds_sends s l).
Proof.
  induction l as [|[[i num] pri] l IH]; intros s Hg Hf; [now apply arrives_refl|].
  inversion Hf; subst. cbn [snd] in *. unfold ds_sends. cbn [fold_left].
  pose proof (arrives_enqueue M s i num pri Hg ltac:(assumption)) as HA.
  eapply arrives_trans; [exact HA|]. apply IH; auto. apply HA.
Qed.

(** *** one poll *)
Lemma good_later T T' M x : good T M x -> T <= T' -> good T' M x.
Proof. intros [H1 H2] Hle. split; auto. eapply Forall_impl; [|exact H2]. cbn; intros; lia. Qed.

Lemma head_tick_sorted t q : sortedr q -> sortedr (head_tick t q).
Proof. destruct q; auto. Qed.
Lemma erase_sub m q : forall e, In e (erase_msg m q) -> In e q.
Proof.
  induction q as [|x q IH]; cbn; [auto|]. destruct (Nat.eqb (q_msg x) m); [auto|].
  intros e [->|H]; auto.
Qed.
Lemma erase_sorted m q : sortedr q -> sortedr (erase_msg m q).
Proof.
  induction q as [|x q IH]; cbn; [auto|]. intros [H1 H2]. destruct (Nat.eqb (q_msg x) m); [exact H2|].
  split; [|auto]. apply Forall_forall. intros e He. rewrite Forall_forall in H1. apply H1. eapply erase_sub; eauto.
Qed.
Lemma head_tick_good T M q : Forall (fun e => 0 <= q_pri e <= M /\ q_tick e <= T) q ->
  Forall (fun e => 0 <= q_pri e <= M /\ q_tick e <= T) (head_tick T q).
Proof. destruct 1; cbn; constructor; auto. cbn. lia. Qed.

(** after its poll a work process is not deliverable or its head has age zero *)
Definition settled (T M : Z) (y : dwp) : Prop := d_repoll y = false \/ d_queue y = [] \/ fresh T M y.

Lemma finish_good T M h o x : good T M x -> 0 <= q_pri h <= M -> good T M (finish_poll h T o x).
Proof.
  intros [Hs Ha] Hp. unfold finish_poll.
  set (er := if o_valid o then erase_msg (q_msg h) (d_queue x) else d_queue x).
  assert (Hes : sortedr er) by (subst er; destruct (o_valid o); [now apply erase_sorted|auto]).
  assert (Hea : Forall (fun e => 0 <= q_pri e <= M /\ q_tick e <= T) er).
  { subst er; destruct (o_valid o); auto. apply Forall_forall. intros e He.
    rewrite Forall_forall in Ha. apply Ha. eapply erase_sub; eauto. }
  destruct (o_code o).
  - destruct er as [|e er']; [split; [exact I|constructor]|].
    split; cbn [d_queue with_queue]; [now apply head_tick_sorted|now apply head_tick_good].
  - split; auto.
  - split; cbn [d_queue with_queue].
    + apply head_tick_sorted, enqueue_sorted, Hes.
    + apply head_tick_good. rewrite enqueue_stable by exact Hes.
      destruct (stable_insert_split (set_tick T h) er) as (a & b & Hq & -> & _).
      rewrite Hq, Forall_app in Hea. apply Forall_app. split; [tauto|]. constructor; [cbn; lia|tauto].
Qed.

Lemma finish_settled T M h o x y :
  good T M y -> 0 <= q_pri h <= M ->
  (o_poll o = true -> o_code o <> HOLD) -> d_repoll x = o_poll o -> chg T M x y ->
  settled T M (finish_poll h T o y).
Proof.
  intros Hg Hp Hh Hx Hc. pose proof (finish_good T M h o y Hg Hp) as Hgf.
  unfold finish_poll in *. destruct (o_code o) eqn:Ec.
  - destruct (if o_valid o then _ else _) as [|e er'] eqn:Ee; [right; left; reflexivity|].
    right; right. destruct Hgf as [_ Hgf]. cbn [d_queue with_queue head_tick] in Hgf.
    inversion Hgf; subst. exists (set_tick T e), er'. cbn in *. repeat split; auto; tauto.
  - destruct Hc as [[Hr _]|[_ [Hf _]]].
    + left. rewrite Hr, Hx. destruct (o_poll o); auto. exfalso. now apply Hh.
    + right; right. exact Hf.
  - right; right. destruct Hgf as [_ Hgf]. cbn [d_queue with_queue] in Hgf.
    unfold fresh. cbn [d_queue with_queue].
    destruct (fst (enqueue _ _)) as [|e er'] eqn:Ee.
    + exfalso. revert Ee. rewrite enqueue_stable.
      * destruct (stable_insert_split (set_tick T h) (if o_valid o then erase_msg (q_msg h) (d_queue y) else d_queue y)) as (a & b & _ & -> & _).
        destruct a; discriminate.
      * destruct Hg as [Hs _]. destruct (o_valid o); [now apply erase_sorted|auto].
    + cbn [head_tick] in *. inversion Hgf; subst. exists (set_tick T e), er'. cbn in *. repeat split; auto; tauto.
Qed.

Lemma poll_step M s o v : good_state M s -> ok_op M (DPoll o) -> fst (choose s) = Some v ->
  let s' := ds_poll s o in
  ds_tick s' = ds_tick s + 1 /\ good_state M s' /\ length (ds_wps s') = length (ds_wps s) /\
  (exists y, nth_error (ds_wps s') v = Some y /\ settled (ds_tick s') M y) /\
  (forall k x, k <> v -> nth_error (ds_wps s) k = Some x ->
    exists y, nth_error (ds_wps s') k = Some y /\ chg (ds_tick s') M x y).
Proof.
  intros Hg [Hh Hsd] Hv. cbv zeta. pose proof (choose_spec s) as Hc. rewrite Hv in Hc.
  destruct Hc as (x & Hx & Hp & _).
  unfold ds_poll. destruct (choose s) as [sel n]. cbn [fst] in Hv. subst sel. rewrite Hx.
  unfold prio, getPollPriority in Hp. destruct (d_repoll x) eqn:Er; [|lia].
  destruct (d_queue x) as [|h q] eqn:Eq; [lia|].
  set (T := ds_tick s + 1).
  match goal with |- context[ds_sends ?z _] => set (s2 := z) end.
  assert (Hs2 : good_state M s2).
  { intros k y Hk. cbn in Hk. destruct (Nat.eq_dec v k) as [->|Hne].
    - rewrite nth_upd_same, Hx in Hk. injection Hk as <-.
      apply (good_later (ds_tick s)); [|cbn; lia]. destruct (Hg k x Hx). split; auto.
    - rewrite nth_upd_other in Hk by exact Hne. apply (good_later (ds_tick s)); [|cbn; lia]. apply (Hg k y Hk). }
  destruct (arrives_sends M (o_sends o) s2 Hs2 Hsd) as (A1 & A2 & A3 & A4).
  set (s3 := ds_sends s2 (o_sends o)) in *.
  assert (Hh0 : 0 <= q_pri h <= M).
  { destruct (Hg v x Hx) as [_ Ha]. rewrite Eq in Ha. inversion Ha; subst. tauto. }
  cbn [ds_tick ds_wps]. change (ds_tick s2) with T in *.
  split; [reflexivity|]. split.
  - intros k y Hk. cbn [ds_wps ds_tick] in *. destruct (Nat.eq_dec v k) as [->|Hne].
    + rewrite nth_upd_same in Hk. destruct (nth_error (ds_wps s3) k) as [z|] eqn:Ez; [|discriminate].
      cbn in Hk. injection Hk as <-. apply finish_good; auto. rewrite <- A1. apply (A2 k z Ez).
    + rewrite nth_upd_other in Hk by exact Hne. rewrite <- A1. apply (A2 k y Hk).
  - split; [rewrite upd_length, A3; cbn; apply upd_length|]. split.
    + assert (E2 : nth_error (ds_wps s2) v = Some (with_queue x (d_queue x) (o_poll o))).
      { cbn. now rewrite nth_upd_same, Hx. }
      destruct (A4 v _ E2) as (z & Hz & Hcz). exists (finish_poll h T o z).
      rewrite nth_upd_same, Hz. split; [reflexivity|].
      eapply finish_settled; [rewrite <- A1; apply (A2 v z Hz)|exact Hh0|exact Hh| |exact Hcz]; reflexivity.
    + intros k y Hne Hk. assert (E2 : nth_error (ds_wps s2) k = Some y).
      { cbn. rewrite nth_upd_other by congruence. exact Hk. }
      destruct (A4 k y E2) as (z & Hz & Hcz). exists z. rewrite nth_upd_other by congruence. auto.
Qed.

(** *** the danger set *)
Definition dkey (x : dwp) : option Z :=
  if d_repoll x then match d_queue x with [] => None | h :: _ => Some (q_pri h - q_tick h) end else None.
Definition dangerous (K : Z) (w : nat) (s : dstate) (k : nat) : bool :=
  negb (Nat.eqb k w) &&
  match nth_error (ds_wps s) k with
  | Some x => match dkey x with Some z => K <=? z | None => false end
  | None => false
  end.
Definition ndanger (K : Z) (w : nat) (s : dstate) : nat :=
  length (filter (dangerous K w s) (seq 0 (length (ds_wps s)))).

Lemma filter_le {A} (f g : A -> bool) l : (forall x, In x l -> f x = true -> g x = true) ->
  (length (filter f l) <= length (filter g l))%nat.
Proof.
  induction l as [|x l IH]; cbn; intros H; [lia|]. specialize (IH (fun y Hy => H y (or_intror Hy))).
  specialize (H x (or_introl eq_refl)). destruct (f x), (g x); cbn; try lia; try (specialize (H eq_refl); discriminate).
Qed.
Lemma filter_lt {A} (f g : A -> bool) l v : (forall x, In x l -> f x = true -> g x = true) ->
  In v l -> f v = false -> g v = true -> (length (filter f l) < length (filter g l))%nat.
Proof.
  induction l as [|x l IH]; cbn; intros H Hv Hf Hg; [contradiction|].
  pose proof (H x (or_introl eq_refl)) as Hx.
  destruct Hv as [->|Hv].
  - rewrite Hf, Hg. cbn. apply le_n_S, filter_le. auto.
  - specialize (IH (fun y Hy => H y (or_intror Hy)) Hv Hf Hg).
    destruct (f x), (g x); cbn; try lia; try (specialize (Hx eq_refl); discriminate).
Qed.
Lemma filter_true_len {A} (l : list A) : length (filter (fun _ => true) l) = length l.
Proof. induction l; cbn; auto. Qed.

(** at most the other work processes are dangerous, and one fewer if some other is not *)
Lemma ndanger_max K w s : (w < length (ds_wps s))%nat -> (ndanger K w s < length (ds_wps s))%nat.
Proof.
  intros Hw. unfold ndanger.
  assert (H : (length (filter (dangerous K w s) (seq 0 (length (ds_wps s)))) <
    length (filter (fun _ => true) (seq 0 (length (ds_wps s)))))%nat).
  { apply filter_lt with (v := w); auto.
    - apply in_seq. lia.
    - unfold dangerous. now rewrite Nat.eqb_refl. }
  rewrite filter_true_len, seq_length in H. exact H.
Qed.
Lemma ndanger_max2 K w v s : (w < length (ds_wps s))%nat -> (v < length (ds_wps s))%nat -> v <> w ->
  dangerous K w s v = false -> (ndanger K w s + 1 < length (ds_wps s))%nat.
Proof.
  intros Hw Hv Hne Hd. unfold ndanger.
  assert (H : (length (filter (dangerous K w s) (seq 0 (length (ds_wps s)))) <
    length (filter (fun k => negb (Nat.eqb k w)) (seq 0 (length (ds_wps s)))))%nat).
  { apply filter_lt with (v := v); auto.
    - intros k _ Hk. unfold dangerous in Hk. apply andb_true_iff in Hk. tauto.
    - apply in_seq. lia.
    - apply negb_true_iff. now apply Nat.eqb_neq. }
  assert (H' : (length (filter (fun k => negb (Nat.eqb k w)) (seq 0 (length (ds_wps s)))) <
    length (filter (fun _ => true) (seq 0 (length (ds_wps s)))))%nat).
  { apply filter_lt with (v := w); auto; [apply in_seq; lia|now rewrite Nat.eqb_refl]. }
  rewrite filter_true_len, seq_length in H'. lia.
Qed.

Definition phi (M : Z) (w : nat) (h : entry) (s : dstate) : Z :=
  let star := q_tick h + (M - q_pri h) in
  if ds_tick s <=? star then (star - ds_tick s) + (Z.of_nat (length (ds_wps s)) - 1)
  else Z.of_nat (ndanger (q_pri h - q_tick h) w s).

Lemma phi_bound M w h s : (w < length (ds_wps s))%nat -> q_tick h <= ds_tick s -> 0 <= q_pri h <= M ->
  0 <= phi M w h s <= (M - q_pri h) + (Z.of_nat (length (ds_wps s)) - 1).
Proof.
  intros Hw Ht Hp. unfold phi. pose proof (ndanger_max (q_pri h - q_tick h) w s Hw).
  destruct (_ <=? _) eqn:E; lia.
Qed.

(** arrivals create no danger once the tick is past [star] *)
Lemma chg_danger T M K x y z : K > M - T -> chg T M x y -> dkey y = Some z -> K <= z ->
  exists z', dkey x = Some z' /\ K <= z'.
Proof.
  intros HK [[Hr Hq]|[Hr [(h & q & Hq & Ht & Hp) _]]] Hz Hle; unfold dkey in *.
  - rewrite Hr in Hz. destruct (d_repoll x); [|discriminate].
    destruct (d_queue x), (d_queue y); try tauto; try discriminate. subst. eauto.
  - rewrite Hr, Hq in Hz. injection Hz as <-. lia.
Qed.

Lemma arrives_phi M w h s s' : good_state M s -> arrives M s s' -> phi M w h s' <= phi M w h s.
Proof.
  intros Hg (A1 & A2 & A3 & A4). unfold phi. rewrite A1, A3.
  destruct (ds_tick s <=? _) eqn:E; [lia|]. apply inj_le. unfold ndanger. rewrite A3.
  apply filter_le. intros k Hk Hd. unfold dangerous in *.
  apply andb_true_iff in Hd. destruct Hd as [Hkw Hd]. rewrite Hkw. cbn [andb].
  apply in_seq in Hk. destruct (nth_error (ds_wps s) k) as [x|] eqn:Ex.
  2:{ apply nth_error_None in Ex. lia. }
  destruct (A4 k x Ex) as (y & Hy & Hc). rewrite Hy in Hd. destruct (dkey y) as [z|] eqn:Ez; [|discriminate].
  destruct (chg_danger (ds_tick s) M (q_pri h - q_tick h) x y z) as (z' & -> & Hz'); auto; lia.
Qed.

Lemma deliverable_prio M s w h : good_state M s -> deliverable s w h ->
  exists x, nth_error (ds_wps s) w = Some x /\ prio x (ds_tick s + 1) = q_pri h + (ds_tick s + 1 - q_tick h) /\
    0 <= q_pri h <= M /\ q_tick h <= ds_tick s.
Proof.
  intros Hg (x & q & Hx & Hr & Hq). exists x. split; [exact Hx|].
  destruct (Hg w x Hx) as [_ Ha]. rewrite Hq in Ha. inversion Ha; subst.
  unfold prio, getPollPriority. rewrite Hr, Hq. split; [lia|tauto].
Qed.

Lemma poll_phi M w h s o v : good_state M s -> deliverable s w h -> ok_op M (DPoll o) ->
  fst (choose s) = Some v -> v <> w ->
  phi M w h (ds_poll s o) <= phi M w h s - 1 /\ 1 <= phi M w h s.
Proof.
  intros Hg Hd Ho Hv Hne.
  destruct (poll_step M s o v Hg Ho Hv) as (P1 & P2 & P3 & (y & Hy & Hset) & P5).
  set (s' := ds_poll s o) in *.
  destruct (deliverable_prio M s w h Hg Hd) as (xw & Hxw & Hpw & Hpr & Htk).
  pose proof (choose_spec s) as Hc. rewrite Hv in Hc. destruct Hc as (xv & Hxv & Hpv & Hmax).
  specialize (Hmax w xw Hxw). rewrite Hpw in Hmax.
  assert (Hlw : (w < length (ds_wps s))%nat) by (apply nth_error_Some; congruence).
  assert (Hlv : (v < length (ds_wps s))%nat) by (apply nth_error_Some; congruence).
  set (K := q_pri h - q_tick h) in *.
  assert (Hdv : dangerous K w s v = true).
  { unfold dangerous. rewrite Hxv. apply Nat.eqb_neq in Hne. rewrite Hne. cbn [negb andb].
    unfold prio, getPollPriority in Hmax, Hpv. unfold dkey. destruct (d_repoll xv); [|lia].
    destruct (d_queue xv) as [|hv qv] eqn:Eq; [lia|].
    destruct (Hg v xv Hxv) as [_ Ha]. rewrite Eq in Ha. inversion Ha; subst. lia. }
  unfold phi. rewrite P1, P3. fold K.
  destruct (ds_tick s + 1 <=? q_tick h + (M - q_pri h)) eqn:E1.
  - assert (ds_tick s <=? q_tick h + (M - q_pri h) = true) as -> by lia. lia.
  - assert (Hdv' : dangerous K w s' v = false).
    { unfold dangerous. rewrite Hy. destruct Hset as [H|[H|(h' & q' & Hq & Ht & Hp)]]; unfold dkey.
      - rewrite H. apply andb_false_r.
      - rewrite H. destruct (d_repoll y); apply andb_false_r.
      - rewrite Hq. destruct (d_repoll y); [|apply andb_false_r]. rewrite Ht.
        apply andb_false_intro2. rewrite P1. subst K. lia. }
    destruct (ds_tick s <=? q_tick h + (M - q_pri h)) eqn:E2.
    + pose proof (ndanger_max2 K w v s') as H. rewrite P3 in H. specialize (H Hlw Hlv Hne Hdv'). lia.
    + assert (H : (ndanger K w s' < ndanger K w s)%nat).
      { unfold ndanger. rewrite P3. apply filter_lt with (v := v); auto; [|apply in_seq; lia].
        intros k Hk Hdk. destruct (Nat.eq_dec k v) as [->|Hkv]; [exact Hdv|].
        unfold dangerous in *. apply andb_true_iff in Hdk. destruct Hdk as [Hkw Hdk]. rewrite Hkw. cbn [andb].
        apply in_seq in Hk. destruct (nth_error (ds_wps s) k) as [x|] eqn:Ex.
        2:{ apply nth_error_None in Ex. lia. }
        destruct (P5 k x Hkv Ex) as (z & Hz & Hc). rewrite Hz in Hdk.
        destruct (dkey z) as [kz|] eqn:Ez; [|discriminate].
        destruct (chg_danger (ds_tick s') M K x z kz) as (z' & -> & Hz'); auto; try lia. }
      lia.
Qed.

(** what happens to the waiting work process itself *)
Lemma chg_deliverable T M s s' w h : deliverable s w h ->
  (forall x, nth_error (ds_wps s) w = Some x -> exists y, nth_error (ds_wps s') w = Some y /\ chg T M x y) ->
  deliverable s' w h \/
  (exists h', deliverable s' w h' /\ q_pri h < q_pri h' <= M /\ q_tick h' = T).
Proof.
  intros (x & q & Hx & Hr & Hq) H. destruct (H x Hx) as (y & Hy & [[Hr' Hq']|[Hr' [(h' & q' & Hq' & Ht & Hp) Ho]]]).
  - left. rewrite Hq in Hq'. destruct (d_queue y) as [|hy qy] eqn:Ey; [tauto|]. subst hy.
    exists y, qy. repeat split; auto. congruence.
  - right. exists h'. split; [exists y, q'; auto|]. specialize (Ho _ _ _ _ Hq Hq'). split; [lia|exact Ht].
Qed.

Definition psi (M : Z) (w : nat) (h : entry) (s : dstate) : Z :=
  phi M w h s + Z.of_nat (overtakes (length (ds_wps s) - 1) (Z.to_nat (M - q_pri h))).

Lemma overtakes_mono n a b : (a <= b)%nat -> (overtakes n a <= overtakes n b)%nat.
Proof. intros H. induction H; [lia|]. cbn. lia. Qed.

Lemma psi_overtake M w h h' s' : (w < length (ds_wps s'))%nat ->
  0 <= q_pri h -> q_pri h < q_pri h' <= M -> q_tick h' = ds_tick s' ->
  psi M w h' s' <= Z.of_nat (overtakes (length (ds_wps s') - 1) (Z.to_nat (M - q_pri h))).
Proof.
  intros Hw H0 Hp Ht. unfold psi.
  pose proof (phi_bound M w h' s' Hw ltac:(lia) ltac:(lia)) as Hb.
  pose proof (overtakes_mono (length (ds_wps s') - 1) (S (Z.to_nat (M - q_pri h'))) (Z.to_nat (M - q_pri h)) ltac:(lia)) as Hm.
  cbn [overtakes] in Hm. lia.
Qed.

Lemma step_psi M w h s x : good_state M s -> deliverable s w h -> ok_op M x ->
  (match x with DPoll _ => fst (choose s) <> Some w | _ => True end) ->
  let s' := dstep s x in
  good_state M s' /\ length (ds_wps s') = length (ds_wps s) /\
  ((deliverable s' w h /\ phi M w h s' <= phi M w h s - (if is_poll x then 1 else 0)) \/
   (exists h', deliverable s' w h' /\ q_pri h < q_pri h' <= M /\
      psi M w h' s' <= psi M w h s - (if is_poll x then 1 else 0))).
Proof.
  intros Hg Hd Ho Hn. cbv zeta.
  destruct (deliverable_prio M s w h Hg Hd) as (xw & Hxw & Hpw & Hpr & Htk).
  assert (Hlw : (w < length (ds_wps s))%nat) by (apply nth_error_Some; congruence).
  destruct x as [o|i num pri]; cbn [dstep is_poll].
  - destruct (fst (choose s)) as [v|] eqn:Ev.
    2:{ exfalso. pose proof (choose_spec s) as Hc. rewrite Ev in Hc. specialize (Hc w xw Hxw). lia. }
    assert (Hvw : v <> w) by congruence.
    destruct (poll_step M s o v Hg Ho Ev) as (P1 & P2 & P3 & _ & P5).
    destruct (poll_phi M w h s o v Hg Hd Ho Ev Hvw) as [Q1 Q2].
    split; [exact P2|]. split; [exact P3|].
    destruct (chg_deliverable (ds_tick (ds_poll s o)) M s (ds_poll s o) w h Hd) as [H|(h' & H1 & H2 & H3)].
    { intros y Hy. apply P5; auto. }
    + left. split; auto.
    + right. exists h'. split; [exact H1|]. split; [exact H2|].
      pose proof (psi_overtake M w h h' (ds_poll s o)) as Hps. rewrite P3 in Hps.
      specialize (Hps Hlw ltac:(lia) H2 H3). unfold psi at 2. lia.
  - pose proof (arrives_enqueue M s i num pri Hg Ho) as Ha.
    pose proof (arrives_phi M w h s _ Hg Ha) as Hphi.
    destruct Ha as (A1 & A2 & A3 & A4). split; [exact A2|]. split; [exact A3|].
    destruct (chg_deliverable (ds_tick s) M s (ds_enqueue s i num pri) w h Hd) as [H|(h' & H1 & H2 & H3)].
    { intros y Hy. apply A4; auto. }
    + left. split; auto. lia.
    + right. exists h'. split; [exact H1|]. split; [exact H2|].
      pose proof (psi_overtake M w h h' (ds_enqueue s i num pri)) as Hps. rewrite A3 in Hps.
      specialize (Hps Hlw ltac:(lia) H2 H3).
      pose proof (phi_bound M w h s Hlw Htk Hpr). unfold psi at 2. lia.
Qed.

Lemma polls_cons x os : polls (x :: os) = ((if is_poll x then 1 else 0) + polls os)%nat.
Proof. unfold polls. cbn [filter]. now destruct (is_poll x). Qed.

Lemma deliverable_bound M s w h : good_state M s -> deliverable s w h ->
  0 <= phi M w h s <= (M - q_pri h) + (Z.of_nat (length (ds_wps s)) - 1) /\ (w < length (ds_wps s))%nat.
Proof.
  intros Hg Hd. destruct (deliverable_prio M s w h Hg Hd) as (xw & Hxw & Hpw & Hpr & Htk).
  assert (Hlw : (w < length (ds_wps s))%nat) by (apply nth_error_Some; congruence).
  split; [|exact Hlw]. now apply phi_bound.
Qed.

Lemma starvation_general M w os : forall s h, good_state M s -> deliverable s w h ->
  Forall (ok_op M) os -> never_polled w s os -> Z.of_nat (polls os) <= psi M w h s.
Proof.
  induction os as [|x os IH]; intros s h Hg Hd Hf Hn.
  - destruct (deliverable_bound M s w h Hg Hd). unfold psi. cbn. lia.
  - inversion Hf; subst. destruct Hn as [Hn Hn'].
    destruct (step_psi M w h s x Hg Hd) as (G1 & G2 & G3); auto.
    rewrite polls_cons. destruct G3 as [[G3 G4]|(h' & G3 & _ & G4)].
    + specialize (IH _ h G1 G3 ltac:(assumption) Hn').
      unfold psi in IH |- *. rewrite G2 in IH. destruct (is_poll x); lia.
    + specialize (IH _ h' G1 G3 ltac:(assumption) Hn'). destruct (is_poll x); lia.
Qed.

Lemma starvation_bound M s w h os : ok_state M s -> deliverable s w h ->
  Forall (ok_op M) os -> never_polled w s os ->
  let n := (length (ds_wps s) - 1)%nat in
  let k := Z.to_nat (M - q_pri h) in
  (polls os <= (k + n) + overtakes n k)%nat.
Proof.
  intros Hok Hd Hf Hn. cbv zeta. apply ok_good in Hok.
  pose proof (starvation_general M w os s h Hok Hd Hf Hn) as H.
  destruct (deliverable_bound M s w h Hok Hd). unfold psi in H. lia.
Qed.

(** the waiting head keeps its place *)
Lemma enq_keeps x e h q : d_queue x = h :: q -> d_repoll x = true -> sortedr (d_queue x) -> q_pri e <= q_pri h ->
  exists q', d_queue (fst (enq_wp x e)) = h :: q' /\ d_repoll (fst (enq_wp x e)) = true.
Proof.
  intros Hq Hr Hs Hp. rewrite enq_wp_queue by exact Hs. rewrite Hq. cbn [stable_insert].
  assert (q_pri h >=? q_pri e = true) as -> by lia. eexists. split; [reflexivity|].
  unfold enq_wp. destruct (enqueue _ _). cbn. now rewrite Hr.
Qed.
Lemma deliverable_enqueue M s w h i num pri : good_state M s -> deliverable s w h ->
  (i = w -> pri <= q_pri h) -> deliverable (ds_enqueue s i num pri) w h.
Proof.
  intros Hg (x & q & Hx & Hr & Hq) Hp.
  pose proof (ds_enqueue_nth s i num pri w x Hx) as H. destruct (Nat.eqb_spec i w) as [->|Hne].
  - destruct (enq_keeps x {| q_msg := num; q_pri := pri; q_tick := ds_tick s |} h q Hq Hr) as (q' & H1 & H2).
    { apply (Hg w x Hx). } { cbn. now apply Hp. }
    eexists _, q'. split; [exact H|]. auto.
  - exists x, q. auto.
Qed.
Lemma deliverable_sends M w h l : forall s, good_state M s -> deliverable s w h ->
  Forall (fun y => 0 <= snd y <= M) l -> Forall (fun y => fst (fst y) = w -> snd y <= q_pri h) l ->
  deliverable (ds_sends s l) w h.
Proof.
  induction l as [|[[i num] pri] l IH]; intros s Hg Hd H1 H2; [exact Hd|].
  inversion H1; subst. inversion H2; subst. cbn [snd fst] in *. unfold ds_sends. cbn [fold_left].
  apply IH; auto.
  - apply (arrives_enqueue M s i num pri Hg); auto.
  - eapply deliverable_enqueue; eauto.
Qed.

Lemma deliverable_poll M s w h o v : good_state M s -> deliverable s w h -> ok_op M (DPoll o) ->
  fst (choose s) = Some v -> v <> w -> quiet_op w (q_pri h) (DPoll o) -> deliverable (ds_poll s o) w h.
Proof.
  intros Hg Hd [Hh Hsd] Hv Hne Hq. pose proof (choose_spec s) as Hc. rewrite Hv in Hc.
  destruct Hc as (x & Hx & Hp & _).
  unfold ds_poll. destruct (choose s) as [sel n]. cbn [fst] in Hv. subst sel. rewrite Hx.
  unfold prio, getPollPriority in Hp. destruct (d_repoll x) eqn:Er; [|lia].
  destruct (d_queue x) as [|hx q] eqn:Eq; [lia|].
  set (T := ds_tick s + 1).
  match goal with |- context[ds_sends ?z _] => set (s2 := z) end.
  assert (Hs2 : good_state M s2).
  { intros k y Hk. cbn in Hk. destruct (Nat.eq_dec v k) as [->|Hne'].
    - rewrite nth_upd_same, Hx in Hk. injection Hk as <-.
      apply (good_later (ds_tick s)); [|cbn; lia]. destruct (Hg k x Hx). split; auto.
    - rewrite nth_upd_other in Hk by exact Hne'. apply (good_later (ds_tick s)); [|cbn; lia]. apply (Hg k y Hk). }
  assert (Hd2 : deliverable s2 w h).
  { destruct Hd as (y & qy & Hy & Hry & Hqy). exists y, qy. cbn. rewrite nth_upd_other by exact Hne. auto. }
  pose proof (deliverable_sends M w h (o_sends o) s2 Hs2 Hd2 Hsd Hq) as (y & qy & Hy & Hry & Hqy).
  exists y, qy. cbn [ds_wps]. rewrite nth_upd_other by exact Hne. auto.
Qed.

Lemma starvation_quiet M w h os : forall s, good_state M s -> deliverable s w h ->
  Forall (ok_op M) os -> Forall (quiet_op w (q_pri h)) os -> never_polled w s os ->
  Z.of_nat (polls os) <= phi M w h s.
Proof.
  induction os as [|x os IH]; intros s Hg Hd Hf Hqt Hn.
  - destruct (deliverable_bound M s w h Hg Hd). cbn. lia.
  - inversion Hf; subst. inversion Hqt; subst. destruct Hn as [Hn Hn'].
    destruct (step_psi M w h s x Hg Hd) as (G1 & G2 & _); auto.
    assert (Hd' : deliverable (dstep s x) w h /\
                  phi M w h (dstep s x) <= phi M w h s - (if is_poll x then 1 else 0)).
    { destruct x as [o|i num pri]; cbn [dstep is_poll].
      - destruct (fst (choose s)) as [v|] eqn:Ev.
        2:{ exfalso. pose proof (choose_spec s) as Hc. rewrite Ev in Hc.
            destruct (deliverable_prio M s w h Hg Hd) as (xw & Hxw & Hpw & Hpr & Htk). specialize (Hc w xw Hxw). lia. }
        assert (v <> w) by congruence.
        split; [eapply deliverable_poll; eauto|]. eapply poll_phi; eauto.
      - split; [eapply deliverable_enqueue; eauto|].
        pose proof (arrives_phi M w h s _ Hg (arrives_enqueue M s i num pri Hg ltac:(assumption))). lia. }
    destruct Hd' as [Hd1 Hd2]. rewrite polls_cons.
    specialize (IH _ G1 Hd1 ltac:(assumption) ltac:(assumption) Hn'). destruct (is_poll x); lia.
Qed.

Lemma starvation_quiet_bound M s w h os : ok_state M s -> deliverable s w h ->
  Forall (ok_op M) os -> Forall (quiet_op w (q_pri h)) os -> never_polled w s os ->
  (polls os < Z.to_nat (M - q_pri h) + length (ds_wps s))%nat.
Proof.
  intros Hok Hd Hf Hqt Hn. apply ok_good in Hok.
  pose proof (starvation_quiet M w h os s Hok Hd Hf Hqt Hn) as H.
  destruct (deliverable_bound M s w h Hok Hd).
  destruct (deliverable_prio M s w h Hok Hd) as (xw & _ & _ & Hpr & _). lia.
Qed.

(** the polling loop goes round again while somebody is waiting *)
Lemma sends_repoll l : forall s, ds_repoll s = true -> ds_repoll (ds_sends s l) = true.
Proof.
  induction l as [|[[i num] pri] l IH]; intros s H; [exact H|].
  unfold ds_sends. cbn [fold_left]. apply IH. cbn. now rewrite H.
Qed.
Lemma loop_continues M s w h o : ok_state M s -> deliverable s w h -> fst (choose s) <> Some w ->
  ds_repoll (ds_poll s o) = true.
Proof.
  intros Hok Hd Hn. apply ok_good in Hok.
  destruct (deliverable_prio M s w h Hok Hd) as (xw & Hxw & Hpw & Hpr & Htk).
  pose proof (choose_spec s) as Hc. destruct (fst (choose s)) as [v|] eqn:Ev.
  2:{ specialize (Hc w xw Hxw). lia. }
  destruct Hc as (xv & Hxv & Hpv & _). assert (Hvw : v <> w) by congruence.
  assert (Hcnt : (1 < snd (choose s))%nat).
  { unfold choose in *. pose proof (scan_count (ds_tick s + 1) (ds_wps s) 0 (-1, None, 0%nat)) as Hs.
    destruct (scan _ _ _ _) as [[mp mw] n]. cbn [snd fst] in *. rewrite Hs. cbn [plus].
    eapply filter_two with (i := v) (j := w); eauto; apply Z.leb_le; [lia|]. rewrite Hpw. lia. }
  unfold ds_poll. destruct (choose s) as [sel n]. cbn [fst snd] in *. subst sel.
  assert (Nat.ltb 1 n = true) as -> by (now apply Nat.ltb_lt).
  rewrite Hxv. destruct (d_queue xv) as [|hv qv]; [reflexivity|].
  cbn [ds_repoll]. rewrite sends_repoll by reflexivity. reflexivity.
Qed.

(** a holder that keeps asking for repolls starves everybody else *)
Definition plain_wp (n : Z) (q : list entry) : dwp :=
  {| d_addr := {| a_class := 5; a_inst := n; a_proc := 1; a_host := 1 |}; d_subs := subs_init; d_gate := None;
     d_queue := q; d_repoll := true |}.
Definition hog_state (t : Z) : dstate :=
  {| ds_tick := t; ds_repoll := true;
     ds_wps := [plain_wp 0 [{| q_msg := 1; q_pri := 256; q_tick := 0 |}];
                plain_wp 1 [{| q_msg := 2; q_pri := 16; q_tick := 0 |}]] |}.
Definition hog : outcome := {| o_poll := true; o_sends := []; o_code := HOLD; o_valid := true |}.
Lemma hog_choose t : 0 <= t -> choose (hog_state t) = (Some 0%nat, 2%nat).
Proof.
  intros Ht. unfold choose, hog_state, plain_wp. cbn [ds_tick ds_wps scan].
  unfold getPollPriority. cbn [d_repoll d_queue q_pri q_tick].
  repeat (match goal with |- context[if ?b then _ else _] =>
    first [replace b with true by lia | replace b with false by lia] end). reflexivity.
Qed.
Lemma hog_step t : 0 <= t -> ds_poll (hog_state t) hog = hog_state (t + 1).
Proof.
  intros Ht. unfold ds_poll. rewrite hog_choose by exact Ht. reflexivity.
Qed.
Lemma hog_starves n : forall t, 0 <= t -> never_polled 1 (hog_state t) (repeat (DPoll hog) n).
Proof.
  induction n as [|n IH]; intros t Ht; cbn [repeat never_polled]; [exact I|]. split.
  - rewrite hog_choose by exact Ht. discriminate.
  - cbn [dstep]. rewrite hog_step by exact Ht. apply IH. lia.
Qed.

(** overtaken heads wait longer than (M - p) + N polls *)
Definition busy_state : dstate :=
  {| ds_tick := 0; ds_repoll := true;
     ds_wps := [plain_wp 0 [{| q_msg := 1; q_pri := 0; q_tick := 0 |}];
                plain_wp 1 (repeat {| q_msg := 2; q_pri := 2; q_tick := 0 |} 10)] |}.
Definition acc : dop := DPoll {| o_poll := false; o_sends := []; o_code := ACCEPT; o_valid := true |}.
Definition busy_run : list dop := [acc; acc; acc; DSend 0 7 1; acc; acc].
Lemma busy_ok : ok_state 2 busy_state.
Proof.
  intros x [<-|[<-|[]]]; cbn; unfold ok_entry; cbn; repeat split; repeat constructor; cbn; try lia.
Qed.
Lemma busy_never : never_polled 0 busy_state busy_run.
Proof. vm_compute. repeat split; discriminate. Qed.
