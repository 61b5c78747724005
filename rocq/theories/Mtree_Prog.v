(** Progress of the multithreaded evaluation when no level of the tree is wider than the pool
    allows: every queued order has a thread that will look at it. *)
From Coq Require Import Permutation Sorted.
From Verif Require Import Base Pool_Model Pool_Proofs Mtree_Model Mtree_Spec Mtree_Proofs Mtree_Inv Mtree_Live.

(** [cin]: somewhere in the stack there is a poll loop that will look at [o]: everything above
    it is newer than [o] *)
Definition under (o : order work) (above : option frame) : Prop := match above with None => True | Some g => oseq o < fseq g end.
Fixpoint cin (mn bs : bool) (o : order work) (above : option frame) (st : list frame) : Prop :=
  match st with
  | [] => mn = false /\ bs = true /\ under o above
  | f :: rest => (match f_phase f with PLook _ d => d <= o_depth o /\ under o above | _ => False end) \/ cin mn bs o (Some f) rest
  end.
Definition covers (o : order work) (h : thread) : Prop := cin (h_main h) (h_busy h) o None (h_stack h).
Definition COV (q : list (order work)) (thr : list thread) : Prop := forall o, In o q -> exists h, In h thr /\ covers o h.

Lemma cin_above mn bs o a b st : (under o a -> under o b) -> cin mn bs o a st -> cin mn bs o b st.
Proof. intros U. destruct st as [|f st]; cbn [cin]; [intuition|]. destruct (f_phase f); intuition. Qed.
Lemma cin_mono mn bs o o' a st : o_depth o <= o_depth o' -> oseq o' <= oseq o -> cin mn bs o a st -> cin mn bs o' a st.
Proof.
  intros D Q. revert a. induction st as [|f st IH]; intros a; cbn [cin].
  - intros (H1 & H2 & H3). repeat split; auto. destruct a; cbn in *; [lia|auto].
  - intros [H|H]; [left|right; auto]. destruct (f_phase f); auto. destruct H as [H1 H2]. split; [lia|]. destruct a; cbn in *; [lia|auto].
Qed.
Lemma cin_seq mn bs o f g st : f_order g = f_order f -> cin mn bs o (Some f) st -> cin mn bs o (Some g) st.
Proof. intro E. apply cin_above. cbn. unfold fseq. now rewrite E. Qed.
Lemma cin_wake p mn bs o a st : cin mn bs o a st -> cin mn bs o (option_map (wake_frame p) a) (map (wake_frame p) st).
Proof.
  revert a. induction st as [|f st IH]; intro a; cbn [cin map].
  - intros (H1 & H2 & H3). repeat split; auto. destruct a; cbn in *; auto. unfold fseq. now rewrite wake_order.
  - intros [H|H]; [left|right; exact (IH (Some f) H)]. unfold wake_frame. destruct (f_phase f) as [|r e|r e|r e|] eqn:E; try contradiction. rewrite E. destruct H as [H1 H2]. split; auto. destruct a; cbn in *; auto. fold (wake_frame p f0). unfold fseq. now rewrite wake_order.
Qed.

Lemma COV_mid q q' l1 h h' l2 : COV q (l1 ++ h :: l2) -> (forall o, In o q' -> In o q \/ covers o h') -> (forall o, In o q' -> covers o h -> covers o h') -> COV q' (l1 ++ h' :: l2).
Proof.
  intros C Hq Hh o Ho. destruct (Hq o Ho) as [Hi|Hi]; [|exists h'; split; [apply in_mid_self|auto]].
  destruct (C o Hi) as (x & Hx & Cx). destruct (in_mid _ _ _ _ h' Hx) as [->|Hx']; [|eauto]. exists h'. split; [apply in_mid_self|auto].
Qed.
Lemma COV_awk q l l' : awk l l' -> COV q l -> COV q l'.
Proof.
  intros [x|x|l1 h l2 Ha] C o Ho; destruct (C o Ho) as (y & Hy & Cy); [eauto|exists y; split; [apply in_app_iff; auto|auto]|].
  destruct (in_mid _ _ _ _ {| h_main := h_main h; h_busy := h_busy h; h_asleep := false; h_stack := h_stack h |} Hy) as [->|Hy']; [|eauto]. eexists. split; [apply in_mid_self|]. exact Cy.
Qed.

(** a busy thread is never turned away by the count *)
Definition narrow (m : nat) (t : tree) : Prop := forall d, width t d <= m + 1.
Lemma head_free m t q F polls log n nthr nlen o q' : narrow m t -> FI t q F polls log n nthr nlen -> q = o :: q' -> nthr (o_depth o) <= m.
Proof.
  intros W I ->. rewrite (F_nthr _ _ _ _ _ _ _ _ I). pose proof (frames_width _ _ _ _ _ _ _ _ (o_depth o) I) as X. rewrite cnt_cons, Nat.eqb_refl in X. specialize (W (o_depth o)). lia.
Qed.
Lemma look_busy {A} m w mind (p : pool A) : (forall o, In o (q_orders p) -> o_depth o < q_nlen p) -> (forall o q, q_orders p = o :: q -> q_nthr p (o_depth o) <= m) ->
  match q_orders p with
  | [] => pool_look m true w mind p = Ok (if w then LSleep (idle_more p) else LNothing)
  | o :: q => if Nat.ltb (o_depth o) mind then pool_look m true w mind p = Ok LNothing else exists a p', pool_look m true w mind p = Ok (LTook o a p')
  end.
Proof.
  intros Hl Hc. unfold pool_look. destruct (q_orders p) as [|o q] eqn:E; [reflexivity|]. destruct (Nat.ltb_spec (o_depth o) mind) as [L|L]; [reflexivity|].
  destruct (Nat.leb_spec (q_nlen p) (o_depth o)) as [L2|L2]; [specialize (Hl o (or_introl eq_refl)); lia|].
  destruct (Nat.ltb_spec m (q_nthr p (o_depth o))) as [L3|L3]; [specialize (Hc o q eq_refl); lia|].
  unfold pool_take. edestruct (awaken_ok m {| q_orders := q; q_nthr := upd (q_nthr p) (o_depth o) (S (q_nthr p (o_depth o))); q_nlen := q_nlen p; q_nidle := q_nidle p |}) as (a & p' & X).
  { cbn. intros o' Ho. apply Hl. now right. }
  rewrite X. cbn [bind fst snd]. eauto.
Qed.

Lemma sorted_head o q : StronglySorted (fun a b : order work => oseq b < oseq a) (o :: q) -> forall x, In x q -> oseq x < oseq o.
Proof. intros S0 x Hx. inversion S0 as [|? ? ? HF]; subst. rewrite Forall_forall in HF. auto. Qed.

(** a look from a poll loop, in any state where the invariant holds *)
Lemma cov_look t m q nthr nlen thr polls log n i j h f p d rest s s' l1 l2 :
  narrow m t -> INV t q nthr nlen thr polls log n -> COV q thr ->
  q_orders (s_pool s) = q -> q_nthr (s_pool s) = nthr -> q_nlen (s_pool s) = nlen ->
  thr = l1 ++ with_stack h (f :: rest) :: l2 -> (forall h', set_thr (s_thr s) i h' = l1 ++ h' :: l2) -> h_busy h = true -> f_phase f = PLook p d ->
  look_poll m s i j h f p d rest = Some s' -> COV (q_orders (s_pool s')) (s_thr s').
Proof.
  intros W I C Eq En El Et Es Hb Ph H. pose proof (V_fi _ _ _ _ _ _ _ _ I) as HF.
  assert (LB := look_busy m false d (s_pool s)). rewrite Eq, En, El in LB. specialize (LB (F_qlen _ _ _ _ _ _ _ _ HF) (fun o q' E => head_free _ _ _ _ _ _ _ _ _ o q' W HF E)).
  unfold look_poll in H. rewrite Hb in H. subst thr. destruct q as [|o q].
  - rewrite LB in H. injection H as <-. cbn [s_pool s_thr]. rewrite Eq. intros o [].
  - destruct (Nat.ltb_spec (o_depth o) d) as [L|L].
    + rewrite LB in H. injection H as <-. cbn [s_pool s_thr]. rewrite Eq, Es.
      assert (Sq := F_sort _ _ _ _ _ _ _ _ HF).
      assert (Ho : forall x, In x (o :: q) -> oseq x <= oseq o). { intros x [<-|Hx]; [lia|]. pose proof (sorted_head _ _ Sq x Hx). lia. }
      assert (K : forall x, covers x (with_stack h (f :: rest)) -> (d <= o_depth x) \/ covers x (with_stack h (with_phase f (PNull p d) :: rest))).
      { intros x Cx. unfold covers in *. cbn [with_stack h_main h_busy h_stack cin with_phase f_phase] in *. rewrite Ph in Cx. destruct Cx as [[Cx _]|Cx]; [auto|]. right. right. eapply cin_seq; [|exact Cx]. reflexivity. }
      destruct (C o (or_introl eq_refl)) as (h2 & Hh2 & C2).
      assert (C2' : exists h3, In h3 (l1 ++ with_stack h (with_phase f (PNull p d) :: rest) :: l2) /\ covers o h3).
      { destruct (in_mid _ _ _ _ (with_stack h (with_phase f (PNull p d) :: rest)) Hh2) as [->|Hx]; [|eauto]. destruct (K o C2) as [Kd|Kc]; [lia|]. eexists. split; [apply in_mid_self|exact Kc]. }
      destruct C2' as (h3 & Hh3 & C3). intros x Hx. destruct (C x Hx) as (y & Hy & Cy). destruct (in_mid _ _ _ _ (with_stack h (with_phase f (PNull p d) :: rest)) Hy) as [->|Hy']; [|eauto].
      destruct (K x Cy) as [Kd|Kc]; [|eexists; split; [apply in_mid_self|exact Kc]]. exists h3. split; auto. eapply cin_mono; [| |exact C3]; [lia|apply Ho, Hx].
    + destruct LB as (a & p' & LB). rewrite LB in H. destruct (look_took _ _ _ _ _ _ _ _ LB) as (q2 & H1 & H2 & _). rewrite Eq in H1. injection H1 as <-.
      destruct (awake_thr a j _) as [l|] eqn:Ea; [|discriminate]. injection H as <-. cbn [s_pool s_thr]. rewrite H2, Es in *. eapply COV_awk; [eapply awake_awk; exact Ea|].
      assert (Ef : with_phase f (PLook p d) = f) by (destruct f; cbn in *; now subst). rewrite Ef.
      eapply COV_mid; [exact C| |]; [intros x Hx; left; now right|].
      intros x Hx Cx. unfold covers in *. cbn [with_stack h_main h_busy h_stack] in *. rewrite Hb in Cx. cbn [cin]. right.
      assert (Sx := sorted_head _ _ (F_sort _ _ _ _ _ _ _ _ HF) x Hx). eapply cin_above in Cx; [exact Cx|]. intros _. exact Sx.
Qed.

(** the state in which the children have just been placed satisfies the invariant *)
Lemma inv_place t s h f rest l1 l2 d lab par cs todo : Inv t s -> s_thr s = l1 ++ h :: l2 -> h_stack h = f :: rest -> f_phase f = PRun -> f_todo f = (d, Node lab par cs) :: todo -> 
  let p := place_children (length (s_polls s)) (s_seq s) (S d) cs (s_pool s) in
  INV t (q_orders p) (q_nthr p) (q_nlen p)
    (l1 ++ with_stack h ({| f_order := f_order f; f_todo := todo; f_phase := PLook (length (s_polls s)) (S d) |} :: rest) :: l2)
    (s_polls s ++ [(0, length cs)]) ((d, lab) :: s_log s) (s_seq s + length cs).
Proof.
  intros I Et Est Ph Td p. assert (I' := I). unfold Inv in I'. rewrite Et in I'.
  assert (P : Permutation (frames (l1 ++ h :: l2)) (f :: rest ++ frames (l1 ++ l2))) by (rewrite frames_perm, Est; reflexivity).
  assert (HF : FI t (q_orders (s_pool s)) (f :: rest ++ frames (l1 ++ l2)) (s_polls s) (s_log s) (s_seq s) (q_nthr (s_pool s)) (q_nlen (s_pool s))) by (eapply FI_perm; [exact P|apply I']).
  assert (HS : sleeps (s_polls s) (f :: rest ++ frames (l1 ++ l2))) by (intros x q d' Hx; apply (V_sleep _ _ _ _ _ _ _ _ I'); eapply Permutation_in; [symmetry; exact P|exact Hx]).
  destruct (place_pool (length (s_polls s)) (s_seq s) (S d) cs (s_pool s)) as (P1 & P2 & P3 & P4). fold p in P1, P2, P3, P4.
  eapply INV_top; [exact I'|exact Est|reflexivity| | |].
  - rewrite P1, P2. eapply FI_poll; eauto.
  - intros x p' d' [<-|Hx] Px; [discriminate|]. destruct (HS x p' d' (or_intror Hx) Px) as (r2 & n2 & Hr & Lr). exists r2, n2. split; [|exact Lr]. rewrite nth_error_app1; [exact Hr|]. apply nth_error_Some. congruence.
  - rewrite P1. intros o Ho. apply in_app_iff in Ho as [Ho|Ho]; [right|now left]. intros x Hx. apply number_in in Ho as (_ & _ & Ho). pose proof (F_fseq _ _ _ _ _ _ _ _ (V_fi _ _ _ _ _ _ _ _ I') x Hx). lia.
Qed.

Definition Cov (s : sys) : Prop := COV (q_orders (s_pool s)) (s_thr s).
(** the innermost frame changes without having been in a poll loop *)
Lemma covers_top o h f g rest : h_stack h = f :: rest -> f_order g = f_order f -> (forall p d, f_phase f <> PLook p d) -> covers o h -> covers o (with_stack h (g :: rest)).
Proof.
  intros E Eo N C. unfold covers in *. rewrite E in C. cbn [with_stack h_main h_busy h_stack cin] in *. right. destruct C as [C|C]; [destruct (f_phase f) eqn:Ef; try contradiction; now elim (N p d)|]. eapply cin_seq; eauto.
Qed.
Lemma cov_step t m s i j s' : narrow m t -> Inv t s -> Cov s -> step m s i j = Some s' -> Cov s'.
Proof.
  intros W I C H. unfold step in H. destruct (nth_error (s_thr s) i) as [h|] eqn:Eh; [|discriminate]. destruct (set_thr_split _ _ _ Eh) as (l1 & l2 & Et & El & Es).
  unfold Cov in *. assert (I' := I). unfold Inv in I'. rewrite Et in I', C. pose proof (V_fi _ _ _ _ _ _ _ _ I') as HF. destruct (V_thr _ _ _ _ _ _ _ _ I' h (in_mid_self _ _ _)) as (_ & Hbusy & _).
  destruct (h_stack h) as [|f rest] eqn:Est.
  - destruct (h_asleep h) eqn:Ea; [discriminate|]. unfold look_worker in H. destruct (pool_look m (h_busy h) true 0 (s_pool s)) as [[o a pl| |pl]| |] eqn:Lk; try discriminate.
    + destruct (look_took _ _ _ _ _ _ _ _ Lk) as (q & H1 & H2 & _). destruct (awake_thr a j _) as [l|] eqn:Ew; [|discriminate]. injection H as <-. rewrite Es in Ew. cbn [s_pool s_thr]. rewrite H2.
      eapply COV_awk; [eapply awake_awk; exact Ew|]. rewrite H1 in C, HF. eapply COV_mid; [exact C| |]; [intros x Hx; left; now right|].
      intros x Hx Cx. unfold covers in *. rewrite Est in Cx. cbn [h_main h_busy h_stack cin] in *. right. destruct Cx as (M & _ & _). repeat split; auto. exact (sorted_head _ _ (F_sort _ _ _ _ _ _ _ _ HF) x Hx).
    + injection H as <-. destruct (look_sleep _ _ _ _ _ _ Lk) as [_ Ep]. cbn [s_pool s_thr].
      replace (q_orders pl) with (q_orders (s_pool s)) by (rewrite Ep; now destruct (h_busy h)). rewrite Es. destruct (h_busy h) eqn:Hb.
      * assert (LB := look_busy m true 0 (s_pool s) (F_qlen _ _ _ _ _ _ _ _ HF) (fun o q' E => head_free _ _ _ _ _ _ _ _ _ o q' W HF E)).
        destruct (q_orders (s_pool s)) as [|o q]; [intros o []|]. cbn [Nat.ltb Nat.leb] in LB. destruct LB as (a & p' & LB). congruence.
      * eapply COV_mid; [exact C|auto|]. intros x Hx Cx. unfold covers in *. rewrite Est, Hb in Cx. cbn [cin] in Cx. destruct Cx as (_ & Cx & _). discriminate.
  - destruct Hbusy as [Hb Has]; [discriminate|].
    assert (T : forall q g, (forall x, In x q -> In x (q_orders (s_pool s))) -> f_order g = f_order f -> (forall p d, f_phase f <> PLook p d) -> COV q (l1 ++ with_stack h (g :: rest) :: l2)).
    { intros q g Hq Eg Nl. eapply COV_mid; [exact C|auto|]. intros x Hx Cx. eapply covers_top; eauto. }
    destruct (f_phase f) as [|p d|p d|p d|] eqn:Ph.
    + destruct (f_todo f) as [|[d [lab par cs]] todo] eqn:Td.
      * unfold deliver in H. destruct (nth_error (s_polls s) (w_poll (o_what (f_order f)))) as [[ret num]|] eqn:Ep; [|discriminate]. injection H as <-. cbn [s_pool s_thr]. rewrite Es.
        assert (C' := T (q_orders (s_pool s)) (with_phase f PDelivered) (fun x Hx => Hx) eq_refl ltac:(discriminate)).
        destruct (Nat.leb num (S ret)); [|exact C']. intros o Ho. destruct (C' o Ho) as (x & Hx & Cx). exists (with_stack x (map (wake_frame (w_poll (o_what (f_order f)))) (h_stack x))). split; [unfold wake_poll; apply in_map_iff; eauto|].
        unfold covers in *. cbn [with_stack h_main h_busy h_stack]. exact (cin_wake _ _ _ _ None _ Cx).
      * destruct (par && Nat.leb 2 (length cs)) eqn:Ec.
        { set (g := {| f_order := f_order f; f_todo := todo; f_phase := PLook (length (s_polls s)) (S d) |}) in *.
          destruct (place_pool (length (s_polls s)) (s_seq s) (S d) cs (s_pool s)) as (P1 & P2 & P3 & P4).
          pose proof (inv_place t s h f rest l1 l2 d lab par cs todo I Et Est Ph Td) as Ip. cbv zeta in Ip. fold g in Ip.
          match type of H with look_poll _ ?s0 _ _ _ _ _ _ _ = _ => eapply (cov_look t m) with (s := s0) (i := i) (j := j) (f := g) end; [exact W|exact Ip| | | | | |exact Es|exact Hb| |exact H]; try reflexivity.
          cbn [s_pool]. rewrite P1. eapply COV_mid; [exact C| |].
          - intros x Hx. apply in_app_iff in Hx as [Hx|Hx]; [right|now left]. apply number_in in Hx as (Hx & _ & _). unfold covers. cbn [with_stack h_stack cin g f_phase]. left. split; [lia|exact Logic.I].
          - intros x Hx Cx. eapply covers_top; eauto. rewrite Ph. discriminate. }
        { injection H as <-. cbn [s_pool s_thr]. rewrite Es. apply T; auto. discriminate. }
    + refine (cov_look t m _ _ _ _ _ _ _ i j h f p d rest s s' l1 l2 W I' C eq_refl eq_refl eq_refl _ Es Hb Ph H). f_equal. f_equal. destruct h. cbn in *. now subst.
    + destruct (nth_error (s_polls s) p) as [[ret num]|] eqn:Ep; [|discriminate]. injection H as <-. cbn [s_pool s_thr]. rewrite Es. apply T; auto. discriminate.
    + discriminate.
    + destruct (h_main h && Nat.eqb (length rest) 0) eqn:Em; [discriminate|]. unfold pool_finish in H. destruct (Nat.leb _ _) eqn:Ell in H; [discriminate|]. injection H as <-. cbn [s_pool s_thr q_orders]. rewrite Es.
      eapply COV_mid; [exact C|auto|]. intros x Hx Cx. unfold covers in *. rewrite Est in Cx. cbn [with_stack h_main h_busy h_stack cin] in *. rewrite Ph in Cx. destruct Cx as [[]|Cx]. eapply cin_above; [|exact Cx]. intros _. exact Logic.I.
Qed.
Lemma cov_wake s i s' : Cov s -> wake s i = Some s' -> Cov s'.
Proof.
  intros C H. unfold wake in H. destruct (nth_error (s_thr s) i) as [h|] eqn:Eh; [|discriminate]. destruct (set_thr_split _ _ _ Eh) as (l1 & l2 & Et & El & Es). unfold Cov in *. rewrite Et in C.
  destruct (h_stack h) as [|f rest] eqn:Est.
  - destruct (h_asleep h) eqn:Ea; [|discriminate]. injection H as <-. cbn [s_pool s_thr]. rewrite Es. eapply COV_awk; [|exact C]. rewrite <- Est. now constructor.
  - destruct (f_phase f) as [|p d|p d|p d|] eqn:Ph; try discriminate. injection H as <-. cbn [s_pool s_thr]. rewrite Es. eapply COV_mid; [exact C|auto|]. intros x Hx Cx. eapply covers_top; eauto. rewrite Ph. discriminate.
Qed.
Lemma cov_reach m nwork t s : narrow m t -> reach m nwork t s -> Cov s.
Proof. intro W. induction 1; [intros o []|eauto using cov_step, inv_reach|eauto using cov_wake]. Qed.

(** ** Somebody can move *)
Definition runnable (h : thread) : bool :=
  match h_stack h with
  | [] => negb (h_asleep h)
  | f :: rest => match f_phase f with PSleep _ _ => false | PDelivered => negb (h_main h && Nat.eqb (length rest) 0) | _ => true end
  end.
Lemma awake_some a l : exists j l', awake_thr a j l = Some l'.
Proof.
  destruct a; [exists 0; cbn; eauto| |exists 0; cbn; eauto]. cbn [awake_thr]. destruct (existsb sleeping l) eqn:E; [|exists 0; eauto].
  apply existsb_exists in E as (h & Hh & E). apply In_nth_error in Hh as (j & Hj). exists j. rewrite Hj. unfold sleeping in E. rewrite E. eauto.
Qed.
Lemma look_total {A} m b w mind (p : pool A) : (forall o, In o (q_orders p) -> o_depth o < q_nlen p) -> exists r, pool_look m b w mind p = Ok r.
Proof.
  intro Hl. unfold pool_look. destruct (q_orders p) as [|o q] eqn:E; [eauto|]. destruct (Nat.ltb _ _); [eauto|].
  destruct (Nat.leb_spec (q_nlen p) (o_depth o)) as [L2|L2]; [specialize (Hl o (or_introl eq_refl)); lia|].
  assert (X : forall n, exists r, pool_take m o q n p = Ok r).
  { intro n. unfold pool_take. edestruct (awaken_ok m {| q_orders := q; q_nthr := upd (q_nthr p) (o_depth o) (S (q_nthr p (o_depth o))); q_nlen := q_nlen p; q_nidle := n |}) as (a & p' & X); [cbn; intros o' Ho; apply Hl; now right|]. rewrite X. cbn [bind fst snd]. eauto. }
  destruct b; [destruct (Nat.ltb _ _)|destruct (Nat.leb _ _)]; eauto.
Qed.
Lemma look_wait {A} m b (p : pool A) : pool_look m b true 0 p = Ok LNothing -> False.
Proof.
  unfold pool_look. destruct (q_orders p) as [|o q]; [discriminate|]. destruct (Nat.ltb_spec (o_depth o) 0) as [L|L]; [lia|]. destruct (Nat.leb _ _); [discriminate|]. unfold pool_take.
  destruct b; [destruct (Nat.ltb m _)|destruct (Nat.leb m _)]; try discriminate; destruct (pool_awaken _ _) as [[? ?]| |]; discriminate.
Qed.
Lemma look_poll_some m s i h f p d rest : (forall o, In o (q_orders (s_pool s)) -> o_depth o < q_nlen (s_pool s)) -> exists j s', look_poll m s i j h f p d rest = Some s'.
Proof.
  intro Hl. unfold look_poll. destruct (look_total m (h_busy h) false d (s_pool s) Hl) as (r & E). rewrite E. destruct r as [o a pl| |pl].
  - edestruct (awake_some a (set_thr (s_thr s) i {| h_main := h_main h; h_busy := true; h_asleep := false; h_stack := begin_frame o :: with_phase f (PLook p d) :: rest |})) as (j & l & X). exists j. rewrite X. eauto.
  - exists 0. eauto.
  - destruct (look_sleep _ _ _ _ _ _ E). discriminate.
Qed.
Lemma runnable_step t m s i h : Inv t s -> nth_error (s_thr s) i = Some h -> runnable h = true -> exists j s', step m s i j = Some s'.
Proof.
  intros I Eh R. unfold step. rewrite Eh. pose proof (V_fi _ _ _ _ _ _ _ _ I) as HF. pose proof (F_qlen _ _ _ _ _ _ _ _ HF) as Hl.
  assert (Hin : forall f, In f (h_stack h) -> In f (frames (s_thr s))) by (intros f Hf; apply frames_in; exists h; split; [eapply nth_error_In; eauto|auto]).
  unfold runnable in R. destruct (h_stack h) as [|f rest] eqn:Est.
  - destruct (h_asleep h); [discriminate|]. unfold look_worker. destruct (look_total m (h_busy h) true 0 (s_pool s) Hl) as (r & E). rewrite E. destruct r as [o a pl| |pl].
    + edestruct (awake_some a (set_thr (s_thr s) i {| h_main := h_main h; h_busy := true; h_asleep := false; h_stack := [begin_frame o] |})) as (j & l & X). exists j. rewrite X. eauto.
    + now apply look_wait in E.
    + exists 0. eauto.
  - specialize (Hin f (or_introl eq_refl)). destruct (f_phase f) as [|p d|p d|p d|] eqn:Ph; try discriminate.
    + destruct (f_todo f) as [|[d [lab par cs]] todo].
      * exists 0. unfold deliver. assert (L := F_fpid _ _ _ _ _ _ _ _ HF f Hin). unfold fpol, opol in L. apply nth_error_Some in L. destruct (nth_error (s_polls s) _) as [[ret num]|]; [eauto|congruence].
      * destruct (par && Nat.leb 2 (length cs)) eqn:Ec; [|exists 0; eauto]. apply andb_true_iff in Ec as [_ Ec]. apply Nat.leb_le in Ec.
        apply look_poll_some. cbn [s_pool]. destruct (place_pool (length (s_polls s)) (s_seq s) (S d) cs (s_pool s)) as (P1 & P2 & P3 & P4). rewrite P1. intros o Ho. apply in_app_iff in Ho as [Ho|Ho].
        -- apply number_in in Ho as (-> & _ & _). destruct P4 as [P4| ->]; [exact P4|cbn in Ec; lia].
        -- specialize (Hl o Ho). lia.
    + apply look_poll_some, Hl.
    + exists 0. assert (L : p < length (s_polls s)) by (eapply (F_wpid _ _ _ _ _ _ _ _ HF f p d); auto; unfold waitp; now rewrite Ph). apply nth_error_Some in L. destruct (nth_error (s_polls s) p) as [[ret num]|]; [eauto|congruence].
    + exists 0. destruct (h_main h && Nat.eqb (length rest) 0); [discriminate|]. unfold pool_finish. assert (L := F_flen _ _ _ _ _ _ _ _ HF f Hin). unfold dep in L. destruct (Nat.leb_spec (q_nlen (s_pool s)) (o_depth (f_order f))); [lia|eauto].
Qed.

Lemma adj_top f rest : (forall x, In x rest -> frame_ok x) -> adj (f :: rest) -> forall g, In g rest -> dep g < dep f.
Proof.
  revert f. induction rest as [|g1 rest IH]; intros f Ok A g Hg; [contradiction|]. destruct A as [(p & d & Pg & Ld) A]. destruct (Ok g1 (or_introl eq_refl)) as (_ & Fd & _).
  assert (dep g1 < d) by (apply (Fd p d); unfold waitp; now rewrite Pg). destruct Hg as [<-|Hg]; [lia|]. specialize (IH g1 (fun x Hx => Ok x (or_intror Hx)) A g Hg). lia.
Qed.
Lemma cin_under mn bs o f st : cin mn bs o (Some f) st -> exists g, In g (f :: st) /\ oseq o < fseq g.
Proof.
  revert f. induction st as [|g st IH]; intros f; cbn [cin under].
  - intros (_ & _ & H). exists f. split; [now left|auto].
  - intros [H|H]; [destruct (f_phase g); try contradiction; exists f; split; [now left|apply H]|]. destruct (IH g H) as (x & Hx & L). exists x. split; [now right|auto].
Qed.
Lemma cnt_pos {A} (P : A -> bool) l : 0 < cnt P l -> exists x, In x l /\ P x = true.
Proof. induction l as [|x l IH]; [cbn; lia|]. rewrite cnt_cons. destruct (P x) eqn:E; [intros _; exists x; split; [now left|auto]|intro H; destruct IH as (y & Hy & Py); [lia|]; exists y; split; [now right|auto]]. Qed.

Lemma progress m nwork t s : narrow m t -> reach m nwork t s -> ~ finished s -> exists i j s', step m s i j = Some s'.
Proof.
  intros W R NF. assert (I := inv_reach _ _ _ _ R). assert (C := cov_reach _ _ _ _ W R). destruct (existsb runnable (s_thr s)) eqn:Ex.
  { apply existsb_exists in Ex as (h & Hh & Rh). apply In_nth_error in Hh as (i & Hi). destruct (runnable_step t m s i h I Hi Rh) as (j & s' & X). eauto. }
  exfalso. assert (NR : forall h, In h (s_thr s) -> runnable h = false).
  { intros h Hh. destruct (runnable h) eqn:Rh; [|reflexivity]. rewrite <- Ex. symmetry. apply existsb_exists. eauto. }
  clear Ex. unfold Inv in I. pose proof (V_fi _ _ _ _ _ _ _ _ I) as HF.
  (* whoever has something on the stack sleeps *)
  assert (Top : forall h f rest, In h (s_thr s) -> h_stack h = f :: rest -> exists p d, f_phase f = PSleep p d).
  { intros h f rest Hh Est. specialize (NR h Hh). unfold runnable in NR. rewrite Est in NR. destruct (f_phase f) as [|p d|p d|p d|] eqn:Ph; try discriminate; [eauto|].
    apply negb_false_iff, andb_true_iff in NR as [M L]. apply Nat.eqb_eq in L. destruct rest; [|discriminate]. exfalso. apply NF.
    destruct (V_main _ _ _ _ _ _ _ _ I) as (m0 & r & Et & Mm & Mr & B). rewrite Et in Hh. destruct Hh as [->|Hh]; [|apply Mr in Hh; congruence]. exists h, r, f. auto. }
  set (N := fun f => match q_orders (s_pool s) with [] => True | o :: _ => oseq o < fseq f end).
  assert (UpN : forall h f rest g, In h (s_thr s) -> h_stack h = f :: rest -> In g (f :: rest) -> N g -> N f).
  { intros h f rest g Hh Est [<-|Hg] Ng; [exact Ng|]. unfold N in *. destruct (q_orders (s_pool s)) as [|o q] eqn:Eq; [exact Logic.I|]. pose proof (V_up _ _ _ _ _ _ _ _ I h o Hh (or_introl eq_refl)) as U. rewrite Est in U. destruct U as [U _]. eauto. }
  assert (Fr : forall h f, In h (s_thr s) -> In f (h_stack h) -> In f (frames (s_thr s))) by (intros; apply frames_in; eauto).
  assert (Loop : forall k h f rest, q_nlen (s_pool s) - dep f <= k -> In h (s_thr s) -> h_stack h = f :: rest -> N f -> False).
  { induction k as [|k IH]; intros h f rest Lk Hh Est Nf.
    - assert (In f (h_stack h)) by (rewrite Est; now left). pose proof (F_flen _ _ _ _ _ _ _ _ HF f (Fr h f Hh H)). lia.
    - assert (Hf : In f (frames (s_thr s))) by (apply (Fr h); auto; rewrite Est; now left).
      destruct (Top h f rest Hh Est) as (p & d & Ph). assert (Wf : waitp f = Some (p, d)) by (unfold waitp; now rewrite Ph).
      destruct (V_sleep _ _ _ _ _ _ _ _ I f p d Hf Ph) as (ret & num & Ep & Lr). pose proof (F_polls _ _ _ _ _ _ _ _ HF p ret num Ep) as Hn.
      assert (Cq : cnt (fun o => Nat.eqb (opol o) p) (q_orders (s_pool s)) = 0).
      { destruct (cnt _ (q_orders (s_pool s))) eqn:Ec; [reflexivity|]. exfalso. destruct (cnt_pos (fun o => Nat.eqb (opol o) p) (q_orders (s_pool s))) as (o' & Ho' & Eo); [lia|]. apply Nat.eqb_eq in Eo.
        destruct (F_qdep _ _ _ _ _ _ _ _ HF f p d o' Hf Wf Ho' Eo) as [_ Lq]. unfold N in Nf. pose proof (F_sort _ _ _ _ _ _ _ _ HF) as Srt. destruct (q_orders (s_pool s)) as [|o q]; [contradiction|].
        destruct Ho' as [<-|Ho']; [lia|]. pose proof (sorted_head _ _ Srt o' Ho'). lia. }
      destruct (cnt_pos (fun x => live x && Nat.eqb (fpol x) p) (frames (s_thr s))) as (g & Hg & Pg); [lia|]. apply andb_true_iff in Pg as [_ Pg]. apply Nat.eqb_eq in Pg.
      destruct (F_fdep _ _ _ _ _ _ _ _ HF f p d g Hf Wf Hg Pg) as [Dg Sg]. destruct (F_frm _ _ _ _ _ _ _ _ HF f Hf) as (_ & Fd & _). specialize (Fd p d Wf).
      assert (Ng : N g) by (unfold N in *; destruct (q_orders (s_pool s)); [exact Logic.I|lia]).
      apply frames_in in Hg as (h' & Hh' & Hg). destruct (h_stack h') as [|f' rest'] eqn:Est'; [contradiction|].
      apply (IH h' f' rest'); auto; [|apply (UpN h' f' rest' g); auto].
      assert (dep g <= dep f'); [|lia]. destruct Hg as [<-|Hg]; [lia|]. destruct (V_thr _ _ _ _ _ _ _ _ I h' Hh') as (A & _). rewrite Est' in A.
      apply Nat.lt_le_incl, (adj_top f' rest'); auto. intros x Hx. apply (F_frm _ _ _ _ _ _ _ _ HF). apply (Fr h'); auto. rewrite Est'. now right. }
  destruct (q_orders (s_pool s)) as [|o q] eqn:Eq.
  - destruct (V_main _ _ _ _ _ _ _ _ I) as (h & r & Et & _ & _ & (a & z & Ez & _)). destruct (h_stack h) as [|f rest] eqn:Est; [now destruct a|].
    apply (Loop _ h f rest (le_n _)); auto; [rewrite Et; now left|]. unfold N. exact Logic.I.
  - unfold Cov in C. rewrite Eq in C. destruct (C o (or_introl eq_refl)) as (h & Hh & Ch). unfold covers in Ch. destruct (h_stack h) as [|f rest] eqn:Est.
    + cbn [cin] in Ch. destruct Ch as (_ & Hb & _). specialize (NR h Hh). unfold runnable in NR. rewrite Est in NR. apply negb_false_iff in NR. destruct (V_thr _ _ _ _ _ _ _ _ I h Hh) as (_ & _ & X). rewrite X in Hb; auto. discriminate.
    + cbn [cin] in Ch. destruct (Top h f rest Hh Est) as (p & d & Ph). rewrite Ph in Ch. destruct Ch as [[]|Ch]. apply cin_under in Ch as (g & Hg & Lg).
      apply (Loop _ h f rest (le_n _)); auto. apply (UpN h f rest g); auto. 
Qed.
