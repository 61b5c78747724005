(** The invariant of the threads, and its preservation. *)
From Coq Require Import Permutation Sorted.
From Verif Require Import Base Pool_Model Pool_Proofs Mtree_Model Mtree_Spec Mtree_Proofs.

Definition frames (l : list thread) : list frame := concat (map h_stack l).
Lemma frames_app a b : frames (a ++ b) = frames a ++ frames b.
Proof. unfold frames. now rewrite map_app, concat_app. Qed.
Lemma frames_cons h l : frames (h :: l) = h_stack h ++ frames l.
Proof. reflexivity. Qed.
Lemma frames_perm l1 h l2 : Permutation (frames (l1 ++ h :: l2)) (h_stack h ++ frames (l1 ++ l2)).
Proof. rewrite !frames_app, frames_cons. rewrite !app_assoc. apply Permutation_app_tail, Permutation_app_comm. Qed.
Lemma frames_in l f : In f (frames l) <-> exists h, In h l /\ In f (h_stack h).
Proof. unfold frames. rewrite in_concat. split; [intros (x & Hx & Hf); apply in_map_iff in Hx as (h & <- & Hh); eauto|intros (h & Hh & Hf); exists (h_stack h); split; [now apply in_map|auto]]. Qed.

(** a frame that is not innermost is in a poll loop, and what is above it was taken there *)
Fixpoint adj (st : list frame) : Prop :=
  match st with
  | f' :: ((f :: _) as rest) => (exists p d, f_phase f = PLook p d /\ d <= dep f') /\ adj rest
  | _ => True
  end.
Fixpoint up (o : order work) (st : list frame) : Prop :=
  match st with
  | [] => True
  | f :: rest => (forall g, In g rest -> oseq o < fseq g -> oseq o < fseq f) /\ up o rest
  end.
Definition thread_ok (h : thread) : Prop :=
  adj (h_stack h) /\ (h_stack h <> [] -> h_busy h = true /\ h_asleep h = false) /\ (h_asleep h = true -> h_busy h = false).
Definition bottom (r : order work) (st : list frame) : Prop := exists a z, st = a ++ [z] /\ f_order z = r.
Definition mainp (t : tree) (l : list thread) : Prop :=
  exists h r, l = h :: r /\ h_main h = true /\ (forall x, In x r -> h_main x = false) /\ bottom (root_order t) (h_stack h).
Definition sleeps (polls : list (nat * nat)) (F : list frame) : Prop :=
  forall f p d, In f F -> f_phase f = PSleep p d -> exists ret num, nth_error polls p = Some (ret, num) /\ ret < num.

Record INV (t : tree) (q : list (order work)) (nthr : nat -> nat) (nlen : nat) (thr : list thread) (polls log : list (nat * nat)) (n : nat) : Prop := {
  V_fi : FI t q (frames thr) polls log n nthr nlen;
  V_sleep : sleeps polls (frames thr);
  V_main : mainp t thr;
  V_thr : forall h, In h thr -> thread_ok h;
  V_up : forall h o, In h thr -> In o q -> up o (h_stack h) }.

Lemma bottom_cons r x st : bottom r st -> bottom r (x :: st).
Proof. intros (a & z & -> & H). exists (x :: a), z. auto. Qed.
Lemma bottom_swap r f g st : f_order g = f_order f -> bottom r (f :: st) -> bottom r (g :: st).
Proof. intros E (a & z & H & Hz). destruct a as [|y a]; cbn in H; injection H as -> H; subst; [exists [], g; split; [auto|congruence]|exists (g :: a), z; auto]. Qed.
Lemma bottom_tl r f st : bottom r (f :: st) -> st <> [] -> bottom r st.
Proof. intros (a & z & H & Hz) N. destruct a as [|y a]; cbn in H; injection H as -> H; subst; [contradiction|exists a, z; auto]. Qed.
Lemma mainp_set t l1 h h' l2 : mainp t (l1 ++ h :: l2) -> h_main h' = h_main h -> (h_main h = true -> bottom (root_order t) (h_stack h) -> bottom (root_order t) (h_stack h')) -> mainp t (l1 ++ h' :: l2).
Proof.
  intros (m & r & E & Mm & Mr & B) Eh Hb. destruct l1 as [|x l1]; cbn [app] in E; injection E as -> <-.
  - exists h', l2. repeat split; auto. congruence.
  - exists m, (l1 ++ h' :: l2). repeat split; auto. intros x Hx. apply in_app_iff in Hx as [Hx|[<-|Hx]].
    + apply Mr, in_app_iff. auto.
    + rewrite Eh. apply Mr, in_app_iff. right. now left.
    + apply Mr, in_app_iff. right. now right.
Qed.
Lemma in_mid {A} (l1 : list A) h l2 x y : In x (l1 ++ h :: l2) -> x = h \/ In x (l1 ++ y :: l2).
Proof. intro H. apply in_app_iff in H as [H|[<-|H]]; [right|now left|right]; apply in_app_iff; cbn; auto. Qed.
Lemma in_mid_self {A} (l1 : list A) h l2 : In h (l1 ++ h :: l2).
Proof. apply in_app_iff. right. now left. Qed.
Lemma up_swap o f g st : fseq g = fseq f -> up o (f :: st) -> up o (g :: st).
Proof. intros E [H1 H2]. split; [rewrite E; exact H1|exact H2]. Qed.
Lemma adj_swap f g st : dep g = dep f -> adj (f :: st) -> adj (g :: st).
Proof. intros E H. destruct st; [exact Logic.I|]. cbn [adj] in *. rewrite E. exact H. Qed.

(** the innermost frame of one thread changes *)
Lemma INV_top t q q' nthr nthr' nlen nlen' l1 h l2 polls polls' log log' n n' f g rest :
  INV t q nthr nlen (l1 ++ h :: l2) polls log n -> h_stack h = f :: rest -> f_order g = f_order f ->
  FI t q' (g :: rest ++ frames (l1 ++ l2)) polls' log' n' nthr' nlen' -> sleeps polls' (g :: rest ++ frames (l1 ++ l2)) ->
  (forall o, In o q' -> In o q \/ forall x, In x (frames (l1 ++ h :: l2)) -> fseq x < oseq o) ->
  INV t q' nthr' nlen' (l1 ++ with_stack h (g :: rest) :: l2) polls' log' n'.
Proof.
  intros I Eh Eo HF HS Hq. assert (P : Permutation (g :: rest ++ frames (l1 ++ l2)) (frames (l1 ++ with_stack h (g :: rest) :: l2))) by (symmetry; apply (frames_perm l1 (with_stack h (g :: rest)) l2)).
  destruct I. constructor.
  - eapply FI_perm; eauto.
  - intros x p d Hx. apply HS. eapply Permutation_in; [symmetry; exact P|exact Hx].
  - eapply mainp_set; eauto. intros _ B. rewrite Eh in B. cbn [with_stack h_stack]. eapply bottom_swap; eauto.
  - intros x Hx. apply (in_mid _ _ _ _ h) in Hx as [->|Hx]; [|auto]. destruct (V_thr0 h (in_mid_self _ _ _)) as (A & B & C). rewrite Eh in A, B. split; [|split]; cbn [with_stack h_stack h_busy h_asleep].
    + apply (adj_swap f); [|exact A]. unfold dep. now rewrite Eo.
    + intros _. apply B. discriminate.
    + exact C.
  - intros x o Hx Ho. destruct (Hq o Ho) as [Hold|Hnew].
    + apply (in_mid _ _ _ _ h) in Hx as [->|Hx]; [|auto]. specialize (V_up0 h o (in_mid_self _ _ _) Hold). rewrite Eh in V_up0. cbn [with_stack h_stack]. apply (up_swap o f); [|exact V_up0]. unfold fseq. now rewrite Eo.
    + assert (N : forall y, In y (h_stack x) -> fseq y < oseq o).
      { intros y Hy. apply (in_mid _ _ _ _ h) in Hx as [->|Hx].
        - cbn [with_stack h_stack] in Hy. destruct Hy as [<-|Hy].
          + unfold fseq. rewrite Eo. apply Hnew. apply frames_in. exists h. split; [apply in_mid_self|]. rewrite Eh. now left.
          + apply Hnew. apply frames_in. exists h. split; [apply in_mid_self|]. rewrite Eh. now right.
        - apply Hnew. apply frames_in. eauto. }
      clear - N. induction (h_stack x) as [|y st IH]; [exact Logic.I|]. split; [|apply IH; intros z Hz; apply N; now right]. intros z Hz L. specialize (N z (or_intror Hz)). lia.
Qed.

(** an order is taken *)
Lemma INV_push t o q nthr nthr' nlen l1 h l2 polls log n :
  INV t (o :: q) nthr nlen (l1 ++ h :: l2) polls log n -> (forall d, nthr' d = nthr d + if Nat.eqb d (o_depth o) then 1 else 0) ->
  match h_stack h with [] => True | f :: _ => exists p d, f_phase f = PLook p d /\ d <= o_depth o end ->
  INV t q nthr' nlen (l1 ++ {| h_main := h_main h; h_busy := true; h_asleep := false; h_stack := begin_frame o :: h_stack h |} :: l2) polls log n.
Proof.
  intros I Hn Hs. set (h' := {| h_main := h_main h; h_busy := true; h_asleep := false; h_stack := begin_frame o :: h_stack h |}).
  assert (P : Permutation (begin_frame o :: frames (l1 ++ h :: l2)) (frames (l1 ++ h' :: l2))).
  { symmetry. rewrite (frames_perm l1 h' l2), (frames_perm l1 h l2). cbn [h' h_stack]. reflexivity. }
  destruct I. constructor.
  - eapply FI_perm; [exact P|]. eapply FI_take; eauto.
  - intros f p d Hf Ph. apply (Permutation_in _ (Permutation_sym P)) in Hf as [<-|Hf]; [discriminate|eauto].
  - eapply mainp_set; eauto. intros _ B. cbn [h' h_stack]. now apply bottom_cons.
  - intros x Hx. apply (in_mid _ _ _ _ h) in Hx as [->|Hx]; [|auto]. destruct (V_thr0 h (in_mid_self _ _ _)) as (A & B & C). split; [|split]; cbn [h' h_stack h_busy h_asleep]; [|auto|discriminate].
    destruct (h_stack h) as [|f st] eqn:E; [exact Logic.I|]. cbn [adj]. split; [|exact A]. destruct Hs as (p & d & H1 & H2). exists p, d. auto.
  - intros x o' Hx Ho. apply (in_mid _ _ _ _ h) in Hx as [->|Hx]; [|apply V_up0; [auto|now right]]. split; [|apply V_up0; [apply in_mid_self|now right]].
    intros g _ _. apply F_sort in V_fi0. inversion_clear V_fi0. rewrite Forall_forall in H0. exact (H0 o' Ho).
Qed.

(** an order is finished with *)
Lemma INV_pop t q nthr nthr' nlen l1 h l2 polls log n f rest :
  INV t q nthr nlen (l1 ++ h :: l2) polls log n -> h_stack h = f :: rest -> f_phase f = PDelivered -> (h_main h = true -> rest <> []) ->
  (forall d, nthr' d = nthr d - if Nat.eqb d (dep f) then 1 else 0) ->
  INV t q nthr' nlen (l1 ++ with_stack h rest :: l2) polls log n.
Proof.
  intros I Eh Ph Hm Hn. assert (P1 : Permutation (frames (l1 ++ h :: l2)) (f :: rest ++ frames (l1 ++ l2))) by (rewrite frames_perm, Eh; reflexivity).
  assert (P2 : Permutation (rest ++ frames (l1 ++ l2)) (frames (l1 ++ with_stack h rest :: l2))) by (symmetry; apply (frames_perm l1 (with_stack h rest) l2)).
  destruct I. constructor.
  - eapply FI_perm; [exact P2|]. eapply FI_finish; [eapply FI_perm; [exact P1|exact V_fi0]|auto|auto].
  - intros x p d Hx. apply V_sleep0. eapply Permutation_in; [symmetry; exact P1|]. right. eapply Permutation_in; [symmetry; exact P2|exact Hx].
  - eapply mainp_set; eauto. intros M B. rewrite Eh in B. cbn [with_stack h_stack]. eapply bottom_tl; eauto.
  - intros x Hx. apply (in_mid _ _ _ _ h) in Hx as [->|Hx]; [|auto]. destruct (V_thr0 h (in_mid_self _ _ _)) as (A & B & C). rewrite Eh in A, B. split; [|split]; cbn [with_stack h_stack h_busy h_asleep]; auto.
    + destruct rest; [exact Logic.I|apply A].
    + intros _. apply B. discriminate.
  - intros x o Hx Ho. apply (in_mid _ _ _ _ h) in Hx as [->|Hx]; [|auto]. specialize (V_up0 h o (in_mid_self _ _ _) Ho). rewrite Eh in V_up0. apply V_up0.
Qed.

(** waking the waiting frames of a poll *)
Lemma wake_sim p f : sim f (wake_frame p f).
Proof. unfold wake_frame, sim, waitp, live. destruct (f_phase f) eqn:E; try (rewrite ?E; auto; fail). destruct (Nat.eqb p p0) eqn:Ep; cbn [with_phase f_order f_todo f_phase]; rewrite ?E; auto. Qed.
Lemma wake_order p f : f_order (wake_frame p f) = f_order f.
Proof. apply wake_sim. Qed.
Lemma frames_wake p l : frames (wake_poll p l) = map (wake_frame p) (frames l).
Proof. unfold wake_poll. induction l as [|h l IH]; [reflexivity|]. cbn [map]. rewrite !frames_cons, IH, map_app. reflexivity. Qed.
Lemma adj_wake p st : adj st -> adj (map (wake_frame p) st).
Proof.
  induction st as [|f' [|f st] IH]; auto. intros [(q & d & E & L) H]. cbn [map] in *. split; [|apply IH, H]. exists q, d. unfold dep. rewrite wake_order. split; [|exact L].
  unfold wake_frame. rewrite E. exact E.
Qed.
Lemma up_wake p o st : up o st -> up o (map (wake_frame p) st).
Proof.
  induction st as [|f st IH]; auto. intros [H1 H2]. split; [|apply IH, H2]. intros g Hg. apply in_map_iff in Hg as (g' & <- & Hg). unfold fseq. rewrite !wake_order. exact (H1 g' Hg).
Qed.
Lemma bottom_wake p r st : bottom r st -> bottom r (map (wake_frame p) st).
Proof. intros (a & z & -> & E). exists (map (wake_frame p) a), (wake_frame p z). rewrite map_app. split; [reflexivity|]. now rewrite wake_order. Qed.
Lemma INV_deliver t q nthr nlen l1 h l2 polls log n f rest ret num :
  INV t q nthr nlen (l1 ++ h :: l2) polls log n -> h_stack h = f :: rest -> f_phase f = PRun -> f_todo f = [] -> nth_error polls (fpol f) = Some (ret, num) ->
  let l := l1 ++ with_stack h (with_phase f PDelivered :: rest) :: l2 in
  INV t q nthr nlen (if Nat.leb num (S ret) then wake_poll (fpol f) l else l) (set_poll polls (fpol f) (S ret, num)) log n.
Proof.
  intros I Eh Ph Td Hp l. set (g := with_phase f PDelivered) in *.
  assert (P1 : Permutation (frames (l1 ++ h :: l2)) (f :: rest ++ frames (l1 ++ l2))) by (rewrite frames_perm, Eh; reflexivity).
  assert (HF : FI t q (g :: rest ++ frames (l1 ++ l2)) (set_poll polls (fpol f) (S ret, num)) log n nthr nlen).
  { eapply FI_deliver; eauto. eapply FI_perm; [exact P1|apply I]. }
  assert (Lp : fpol f < length polls) by (apply nth_error_Some; congruence).
  destruct (Nat.leb_spec num (S ret)) as [L|L].
  - (* closing: first without the sleepers *)
    assert (Fl : Permutation (g :: rest ++ frames (l1 ++ l2)) (frames l)) by (symmetry; apply (frames_perm l1 (with_stack h (g :: rest)) l2)).
    destruct I. constructor.
    + rewrite frames_wake. eapply FI_sim; [|eapply FI_perm; [exact Fl|exact HF]]. generalize (frames l). intro k. induction k; constructor; auto using wake_sim.
    + intros x p d Hx Px. rewrite frames_wake in Hx. apply in_map_iff in Hx as (y & <- & Hy). unfold wake_frame in Px. destruct (f_phase y) eqn:Ey; try congruence.
      destruct (Nat.eqb_spec (fpol f) p0) as [E|N]; [discriminate|]. rewrite Ey in Px. injection Px as -> ->.
      assert (Hy' : In y (frames (l1 ++ h :: l2))).
      { eapply Permutation_in; [symmetry; exact P1|]. apply (Permutation_in _ (Permutation_sym Fl)) in Hy. destruct Hy as [<-|Hy]; [discriminate|now right]. }
      destruct (V_sleep0 _ _ _ Hy' Ey) as (r2 & n2 & Hr & Lr). exists r2, n2. split; [|exact Lr]. rewrite set_poll_nth by exact Lp. destruct (Nat.eqb_spec p (fpol f)); [congruence|exact Hr].
    + assert (M : mainp t l). { eapply mainp_set; [exact V_main0|reflexivity|]. intros _ B. rewrite Eh in B. cbn [with_stack h_stack]. eapply bottom_swap; [|exact B]. reflexivity. }
      destruct M as (m & r & E & Mm & Mr & B). rewrite E. exists (with_stack m (map (wake_frame (fpol f)) (h_stack m))), (wake_poll (fpol f) r). repeat split; auto.
      * intros x Hx. unfold wake_poll in Hx. apply in_map_iff in Hx as (y & <- & Hy). exact (Mr y Hy).
      * now apply bottom_wake.
    + intros x Hx. unfold wake_poll in Hx. apply in_map_iff in Hx as (y & <- & Hy).
      assert (T : thread_ok y).
      { apply (in_mid _ _ _ _ h) in Hy as [->|Hy]; [|auto]. destruct (V_thr0 h (in_mid_self _ _ _)) as (A & B & C). rewrite Eh in A, B. split; [|split]; cbn [with_stack h_stack h_busy h_asleep].
        - apply (adj_swap f g rest eq_refl A). - intros _. apply B. discriminate. - exact C. }
      destruct T as (A & B & C). split; [|split]; cbn [with_stack h_stack h_busy h_asleep]; auto; [now apply adj_wake|]. intro N. apply B. intro E. rewrite E in N. apply N. reflexivity.
    + intros x o Hx Ho. unfold wake_poll in Hx. apply in_map_iff in Hx as (y & <- & Hy). cbn [with_stack h_stack]. apply up_wake.
      apply (in_mid _ _ _ _ h) in Hy as [->|Hy]; [|auto]. specialize (V_up0 h o (in_mid_self _ _ _) Ho). rewrite Eh in V_up0. cbn [with_stack h_stack]. apply (up_swap o f g rest eq_refl V_up0).
  - apply (INV_top t q q nthr nthr nlen nlen l1 h l2 polls _ log log n n f g rest I Eh eq_refl HF); [|auto].
    intros x p d Hx Px. destruct Hx as [<-|Hx]; [discriminate|].
    assert (Hx' : In x (frames (l1 ++ h :: l2))) by (eapply Permutation_in; [symmetry; exact P1|now right]).
    destruct (V_sleep _ _ _ _ _ _ _ _ I _ _ _ Hx' Px) as (r2 & n2 & Hr & Lr). rewrite set_poll_nth by exact Lp. destruct (Nat.eqb_spec p (fpol f)) as [->|N]; [|eauto].
    exists (S ret), num. split; [auto|lia].
Qed.

(** what awakenWorker does to the threads *)
Inductive awk : list thread -> list thread -> Prop :=
| awk_same l : awk l l
| awk_new l : awk l (l ++ [worker])
| awk_sig l1 h l2 : h_asleep h = true -> awk (l1 ++ h :: l2) (l1 ++ {| h_main := h_main h; h_busy := h_busy h; h_asleep := false; h_stack := h_stack h |} :: l2).
Lemma set_thr_split l i h : nth_error l i = Some h -> exists l1 l2, l = l1 ++ h :: l2 /\ length l1 = i /\ forall h', set_thr l i h' = l1 ++ h' :: l2.
Proof.
  intro H. exists (firstn i l), (skipn (S i) l). split; [|split; [|reflexivity]].
  - clear -H. revert i H. induction l as [|x l IH]; intros [|i] H; try discriminate; cbn in H; [now injection H as ->|]. cbn [firstn app skipn]. f_equal. exact (IH i H).
  - assert (i < length l) by (apply nth_error_Some; congruence). rewrite firstn_length. lia.
Qed.
Lemma awake_awk a j l l' : awake_thr a j l = Some l' -> awk l l'.
Proof.
  unfold awake_thr. destruct a; [intro H; injection H as <-; constructor| |intro H; injection H as <-; constructor].
  destruct (existsb sleeping l); [|intro H; injection H as <-; constructor]. destruct (nth_error l j) as [h|] eqn:E; [|discriminate]. destruct (h_asleep h) eqn:Ea; [|discriminate].
  intro H. injection H as <-. destruct (set_thr_split _ _ _ E) as (l1 & l2 & -> & _ & Es). rewrite Es. now constructor.
Qed.
Lemma INV_awk t q nthr nlen l l' polls log n : awk l l' -> INV t q nthr nlen l polls log n -> INV t q nthr nlen l' polls log n.
Proof.
  intros A I. destruct A as [l|l|l1 h l2 Ha]; [exact I| |]; destruct I.
  - assert (E : frames (l ++ [worker]) = frames l) by (rewrite frames_app; cbn; apply app_nil_r). constructor; rewrite ?E; auto.
    + destruct V_main0 as (m & r & -> & Mm & Mr & B). exists m, (r ++ [worker]). repeat split; auto. intros x Hx. apply in_app_iff in Hx as [Hx|[<-|[]]]; auto.
    + intros x Hx. apply in_app_iff in Hx as [Hx|[<-|[]]]; auto. split; [exact Logic.I|]. split; [intro X; now elim X|discriminate].
    + intros x o Hx Ho. apply in_app_iff in Hx as [Hx|[<-|[]]]; auto. exact Logic.I.
  - set (h' := {| h_main := h_main h; h_busy := h_busy h; h_asleep := false; h_stack := h_stack h |}).
    assert (E : frames (l1 ++ h' :: l2) = frames (l1 ++ h :: l2)) by (rewrite !frames_app; reflexivity). constructor; rewrite ?E; auto.
    + eapply mainp_set; eauto.
    + intros x Hx. apply (in_mid _ _ _ _ h) in Hx as [->|Hx]; [|auto]. destruct (V_thr0 h (in_mid_self _ _ _)) as (A & B & C). split; [exact A|]. split; cbn [h' h_stack h_busy h_asleep]; [|discriminate]. intro N. split; [apply B, N|auto].
    + intros x o Hx Ho. apply (in_mid _ _ _ _ h) in Hx as [->|Hx]; [|auto]. exact (V_up0 h o (in_mid_self _ _ _) Ho).
Qed.

(** ** Every step keeps the invariant *)
Definition Inv (t : tree) (s : sys) : Prop :=
  INV t (q_orders (s_pool s)) (q_nthr (s_pool s)) (q_nlen (s_pool s)) (s_thr s) (s_polls s) (s_log s) (s_seq s).
Lemma inv_look_poll t m s i j h f p d rest s' l1 l2 :
  s_thr s = l1 ++ h :: l2 -> length l1 = i -> (forall h', set_thr (s_thr s) i h' = l1 ++ h' :: l2) -> f_phase f = PLook p d ->
  INV t (q_orders (s_pool s)) (q_nthr (s_pool s)) (q_nlen (s_pool s)) (l1 ++ with_stack h (f :: rest) :: l2) (s_polls s) (s_log s) (s_seq s) ->
  look_poll m s i j h f p d rest = Some s' -> Inv t s'.
Proof.
  intros Et El Es Ph I H. unfold look_poll in H. destruct (pool_look m (h_busy h) false d (s_pool s)) as [[o a pl| |pl]| |] eqn:Lk; try discriminate.
  - destruct (look_took _ _ _ _ _ _ _ _ Lk) as (q & H1 & H2 & H3 & H4 & H5 & H6 & _).
    destruct (awake_thr a j _) as [l|] eqn:Ea; [|discriminate]. injection H as <-. rewrite Es in Ea. apply awake_awk in Ea. unfold Inv. cbn [s_pool s_thr s_polls s_log s_seq]. rewrite H2, H4.
    eapply INV_awk; [exact Ea|]. rewrite H1 in I.
    assert (Ef : with_phase f (PLook p d) = f) by (destruct f; cbn in *; now subst). rewrite Ef.
    pose proof (INV_push t o q _ (q_nthr pl) _ l1 (with_stack h (f :: rest)) l2 _ _ _ I H3) as X. cbn [with_stack h_stack h_main] in X. apply X. exists p, d. auto.
  - injection H as <-. unfold Inv. cbn [s_pool s_thr s_polls s_log s_seq]. rewrite Es.
    assert (X : with_stack h (with_phase f (PNull p d) :: rest) = with_stack (with_stack h (f :: rest)) (with_phase f (PNull p d) :: rest)) by reflexivity. rewrite X.
    assert (P : Permutation (frames (l1 ++ with_stack h (f :: rest) :: l2)) (f :: rest ++ frames (l1 ++ l2))) by (apply frames_perm).
    eapply INV_top; [exact I|reflexivity|reflexivity| | |auto].
    + eapply FI_sim; [|eapply FI_perm; [exact P|apply I]]. constructor.
      * unfold sim, waitp, live. cbn. rewrite Ph. auto.
      * generalize (rest ++ frames (l1 ++ l2)). intro k. induction k; constructor; auto using sim_refl.
    + intros x p' d' Hx Px. destruct Hx as [<-|Hx]; [discriminate|]. eapply (V_sleep _ _ _ _ _ _ _ _ I); eauto. eapply Permutation_in; [symmetry; exact P|now right].
Qed.
Lemma place_pool pid n d cs p : q_orders (place_children pid n d cs p) = number pid n d cs ++ q_orders p /\ q_nthr (place_children pid n d cs p) = q_nthr p /\
  q_nlen p <= q_nlen (place_children pid n d cs p) /\ (d < q_nlen (place_children pid n d cs p) \/ cs = []).
Proof.
  unfold place_children. induction cs as [|c cs (I1 & I2 & I3 & I4)]; [cbn; auto|]. cbn [number fold_right app]. set (p' := fold_right pool_place p (number pid n d cs)) in *. split; [|split; [|split]].
  - cbn [pool_place q_orders]. now rewrite I1.
  - exact I2.
  - cbn [pool_place q_nlen o_depth]. destruct (Nat.leb_spec (q_nlen p') d); lia.
  - left. cbn [pool_place q_nlen o_depth]. destruct (Nat.leb_spec (q_nlen p') d); lia.
Qed.
Lemma Forall2_sim_refl k : Forall2 sim k k.
Proof. induction k; constructor; auto using sim_refl. Qed.
Lemma inv_step t m s i j s' : Inv t s -> step m s i j = Some s' -> Inv t s'.
Proof.
  intros I H. unfold step in H. destruct (nth_error (s_thr s) i) as [h|] eqn:Eh; [|discriminate]. destruct (set_thr_split _ _ _ Eh) as (l1 & l2 & Et & El & Es).
  assert (I' := I). unfold Inv in I'. rewrite Et in I'. destruct (h_stack h) as [|f rest] eqn:Est.
  - destruct (h_asleep h) eqn:Ea; [discriminate|]. unfold look_worker in H. destruct (pool_look m (h_busy h) true 0 (s_pool s)) as [[o a pl| |pl]| |] eqn:Lk; try discriminate.
    + destruct (look_took _ _ _ _ _ _ _ _ Lk) as (q & H1 & H2 & H3 & H4 & H5 & H6 & _). destruct (awake_thr a j _) as [l|] eqn:Ew; [|discriminate]. injection H as <-. rewrite Es in Ew. apply awake_awk in Ew.
      unfold Inv. cbn [s_pool s_thr s_polls s_log s_seq]. rewrite H2, H4. eapply INV_awk; [exact Ew|]. rewrite H1 in I'. pose proof (INV_push t o q _ (q_nthr pl) _ l1 h l2 _ _ _ I' H3) as X. rewrite Est in X. apply X. exact Logic.I.
    + injection H as <-. destruct (look_sleep _ _ _ _ _ _ Lk) as [_ Ep]. unfold Inv. cbn [s_pool s_thr s_polls s_log s_seq].
      replace (q_orders pl) with (q_orders (s_pool s)) by (rewrite Ep; now destruct (h_busy h)). replace (q_nthr pl) with (q_nthr (s_pool s)) by (rewrite Ep; now destruct (h_busy h)). replace (q_nlen pl) with (q_nlen (s_pool s)) by (rewrite Ep; now destruct (h_busy h)).
      rewrite Es. set (h' := {| h_main := h_main h; h_busy := false; h_asleep := true; h_stack := [] |}).
      assert (E : frames (l1 ++ h' :: l2) = frames (l1 ++ h :: l2)) by (rewrite !frames_app, !frames_cons, Est; reflexivity). destruct I'. constructor; rewrite ?E; auto.
      * eapply mainp_set; eauto. intros _ B. rewrite Est in B. exact B.
      * intros x Hx. apply (in_mid _ _ _ _ h) in Hx as [->|Hx]; [|auto]. split; [exact Logic.I|]. split; [intro N; now elim N|auto].
      * intros x o Hx Ho. apply (in_mid _ _ _ _ h) in Hx as [->|Hx]; [|auto]. exact Logic.I.
  - assert (P : Permutation (frames (l1 ++ h :: l2)) (f :: rest ++ frames (l1 ++ l2))) by (rewrite frames_perm, Est; reflexivity).
    assert (HF : FI t (q_orders (s_pool s)) (f :: rest ++ frames (l1 ++ l2)) (s_polls s) (s_log s) (s_seq s) (q_nthr (s_pool s)) (q_nlen (s_pool s))) by (eapply FI_perm; [exact P|apply I']).
    assert (HS : sleeps (s_polls s) (f :: rest ++ frames (l1 ++ l2))) by (intros x p d Hx; apply (V_sleep _ _ _ _ _ _ _ _ I'); eapply Permutation_in; [symmetry; exact P|exact Hx]).
    assert (HS' : forall g, (forall p d, f_phase g <> PSleep p d) -> sleeps (s_polls s) (g :: rest ++ frames (l1 ++ l2))) by (intros g Hg x p d [<-|Hx] Px; [now elim (Hg p d)|apply (HS x p d); [now right|auto]]).
    destruct (f_phase f) as [|p d|p d|p d|] eqn:Ph.
    + destruct (f_todo f) as [|[d [lab par cs]] todo] eqn:Td.
      * unfold deliver in H. fold (fpol f) in H. destruct (nth_error (s_polls s) (w_poll (o_what (f_order f)))) as [[ret num]|] eqn:Ep; [|discriminate]. injection H as <-.
        unfold Inv. cbn [s_pool s_thr s_polls s_log s_seq]. rewrite Es. exact (INV_deliver t _ _ _ l1 h l2 _ _ _ f rest ret num I' Est Ph Td Ep).
      * destruct (par && Nat.leb 2 (length cs)) eqn:Ec.
        { set (g := {| f_order := f_order f; f_todo := todo; f_phase := PLook (length (s_polls s)) (S d) |}) in *.
          destruct (place_pool (length (s_polls s)) (s_seq s) (S d) cs (s_pool s)) as (P1 & P2 & P3 & P4).
          refine (inv_look_poll t m _ i j h g _ _ rest s' l1 l2 _ El _ _ _ H); [exact Et|exact Es|reflexivity|]. cbn [s_pool s_thr s_polls s_log s_seq].
          eapply INV_top; [exact I'|exact Est|reflexivity| | |].
          - rewrite P1, P2. eapply FI_poll; eauto.
          - intros x p' d' [<-|Hx] Px; [discriminate|]. destruct (HS x p' d' (or_intror Hx) Px) as (r2 & n2 & Hr & Lr). exists r2, n2. split; [|exact Lr]. rewrite nth_error_app1; [exact Hr|]. apply nth_error_Some. congruence.
          - rewrite P1. intros o Ho. apply in_app_iff in Ho as [Ho|Ho]; [right|now left]. intros x Hx. apply number_in in Ho as (_ & _ & Ho). pose proof (F_fseq _ _ _ _ _ _ _ _ (V_fi _ _ _ _ _ _ _ _ I') x Hx). lia. }
        { injection H as <-. unfold Inv. cbn [s_pool s_thr s_polls s_log s_seq]. rewrite Es. set (g := {| f_order := f_order f; f_todo := map (pair (S d)) cs ++ todo; f_phase := PRun |}).
          eapply INV_top; [exact I'|exact Est|reflexivity| | |auto]; [|apply HS'; discriminate]. eapply (FI_inline t _ f g); eauto. }
    + eapply (inv_look_poll t m s i j h f p d rest s' l1 l2 Et El Es Ph); [|exact H]. replace (with_stack h (f :: rest)) with h; [exact I'|]. destruct h. cbn in *. now subst.
    + destruct (nth_error (s_polls s) p) as [[ret num]|] eqn:Ep; [|discriminate]. injection H as <-. unfold Inv. cbn [s_pool s_thr s_polls s_log s_seq]. rewrite Es.
      destruct (Nat.ltb_spec ret num) as [L|L].
      * eapply INV_top; [exact I'|exact Est|reflexivity| | |auto].
        -- eapply FI_sim; [|exact HF]. constructor; [|apply Forall2_sim_refl]. unfold sim, waitp, live. cbn. rewrite Ph. auto.
        -- intros x p' d' [<-|Hx] Px; [cbn in Px; injection Px as <- <-; eauto|apply (HS x p' d'); [now right|auto]].
      * eapply INV_top; [exact I'|exact Est|reflexivity| | |auto]; [|apply HS'; discriminate].
        eapply (FI_resume t _ f (with_phase f PRun)); eauto. unfold waitp. now rewrite Ph.
    + discriminate.
    + destruct (h_main h && Nat.eqb (length rest) 0) eqn:Em; [discriminate|]. unfold pool_finish in H. destruct (Nat.leb _ _) eqn:Ell in H; [discriminate|]. injection H as <-.
      unfold Inv. cbn [s_pool s_thr s_polls s_log s_seq q_orders q_nthr q_nlen]. rewrite Es. eapply INV_pop; [exact I'|exact Est|exact Ph| |].
      * intros M E. rewrite M, E in Em. discriminate.
      * intro e. unfold upd. fold (dep f). destruct (Nat.eqb e (dep f)) eqn:Ee; [apply Nat.eqb_eq in Ee; subst; lia|lia].
Qed.
Lemma inv_wake t s i s' : Inv t s -> wake s i = Some s' -> Inv t s'.
Proof.
  intros I H. unfold wake in H. destruct (nth_error (s_thr s) i) as [h|] eqn:Eh; [|discriminate]. destruct (set_thr_split _ _ _ Eh) as (l1 & l2 & Et & El & Es).
  assert (I' := I). unfold Inv in I'. rewrite Et in I'. destruct (h_stack h) as [|f rest] eqn:Est.
  - destruct (h_asleep h) eqn:Ea; [|discriminate]. injection H as <-. unfold Inv. cbn [s_pool s_thr s_polls s_log s_seq]. rewrite Es. eapply INV_awk; [|exact I']. rewrite <- Est. now constructor.
  - destruct (f_phase f) as [|p d|p d|p d|] eqn:Ph; try discriminate. injection H as <-. unfold Inv. cbn [s_pool s_thr s_polls s_log s_seq]. rewrite Es.
    assert (P : Permutation (frames (l1 ++ h :: l2)) (f :: rest ++ frames (l1 ++ l2))) by (rewrite frames_perm, Est; reflexivity).
    eapply INV_top; [exact I'|exact Est|reflexivity| | |auto].
    + eapply FI_sim; [|eapply FI_perm; [exact P|apply I']]. constructor; [|apply Forall2_sim_refl]. unfold sim, waitp, live. cbn. rewrite Ph. auto.
    + intros x p' d' [<-|Hx] Px; [discriminate|]. apply (V_sleep _ _ _ _ _ _ _ _ I' x p' d'); [eapply Permutation_in; [symmetry; exact P|now right]|auto].
Qed.
Lemma inv_start nwork t : Inv t (sys_start nwork t).
Proof.
  assert (Fr : frames (repeat worker nwork) = []) by (induction nwork; cbn; auto).
  assert (E : frames (s_thr (sys_start nwork t)) = [begin_frame (root_order t)]) by (cbn [sys_start s_thr]; rewrite frames_cons, Fr; reflexivity).
  unfold Inv. constructor; rewrite ?E.
  - cbn [sys_start s_pool s_polls s_log s_seq pool_join pool_start q_orders q_nthr q_nlen]. constructor; try (intros ? []; fail).
    + intros f [<-|[]]. split; [|split]; try discriminate. intros x [<-|[]]. apply le_n.
    + intro d. unfold upd. destruct d; cbn; [reflexivity|]. now destruct (Nat.leb _ _).
    + intros f [<-|[]]. cbn. lia.
    + cbn. now rewrite app_nil_r, app_nil_r.
    + intro d. rewrite cnt_cons. replace (started d (begin_frame (root_order t))) with false; [cbn; lia|]. unfold started. cbn. now rewrite andb_false_r.
    + intros [|[|p]] ret num H; try discriminate. cbn in H. injection H as <- <-. reflexivity.
    + intros f [<-|[]]. cbn. lia.
    + intros f p d [<-|[]] W. discriminate.
    + intros g [<-|[]] _. now left.
    + intros f p d o [<-|[]] W. discriminate.
    + intros f p d g [<-|[]] W. discriminate.
    + intros f [<-|[]]. cbn. lia.
    + constructor.
  - intros f p d [<-|[]] Px. discriminate.
  - exists {| h_main := true; h_busy := true; h_asleep := false; h_stack := [begin_frame (root_order t)] |}, (repeat worker nwork). repeat split.
    + intros x Hx. apply repeat_spec in Hx. now subst.
    + exists [], (begin_frame (root_order t)). auto.
  - intros h Hh. cbn [sys_start s_thr] in Hh. destruct Hh as [<-|Hh]; [split; [exact Logic.I|]; split; [auto|discriminate]|]. apply repeat_spec in Hh. subst. split; [exact Logic.I|]. split; [intro N; now elim N|discriminate].
  - intros h o Hh [].
Qed.
Lemma inv_reach m nwork t s : reach m nwork t s -> Inv t s.
Proof. induction 1; [apply inv_start|eauto using inv_step|eauto using inv_wake]. Qed.
