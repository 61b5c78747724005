(** Exactly-once execution, the bound on the number of steps, and progress. *)
From Coq Require Import Permutation Sorted.
From Verif Require Import Base Pool_Model Pool_Proofs Mtree_Model Mtree_Spec Mtree_Proofs Mtree_Inv.

(** ** Levels of a tree *)
Lemma tree_ind' (P : tree -> Prop) : (forall l par cs, Forall P cs -> P (Node l par cs)) -> forall t, P t.
Proof.
  intro H. fix IH 1. intros [l par cs]. apply H. induction cs as [|c cs IHcs]; constructor; [apply IH|apply IHcs].
Qed.
Definition at_level (d : nat) (x : nat * nat) : bool := Nat.eqb (fst x) d.
Lemma cnt_flat_map {A B} (P : B -> bool) (f : A -> list B) l : cnt P (flat_map f l) = list_sum (map (fun x => cnt P (f x)) l).
Proof. induction l as [|x l IH]; [reflexivity|]. cbn [flat_map map list_sum fold_right]. rewrite cnt_app, IH. reflexivity. Qed.
Lemma labels_width t : forall k d, cnt (at_level d) (labels k t) = if Nat.leb k d then width t (d - k) else 0.
Proof.
  induction t as [l par cs IH] using tree_ind'. intros k d. cbn [labels]. rewrite cnt_cons, cnt_flat_map. unfold at_level at 1. cbn [fst].
  assert (X : map (fun x => cnt (at_level d) (labels (S k) x)) cs = map (fun x => if Nat.leb (S k) d then width x (d - S k) else 0) cs).
  { apply map_ext_in. intros c Hc. rewrite Forall_forall in IH. apply IH, Hc. }
  rewrite X. destruct (Nat.leb_spec k d) as [L|L].
  - destruct (Nat.eqb_spec k d) as [->|N].
    + rewrite Nat.sub_diag. destruct (Nat.leb_spec (S d) d); [lia|]. cbn [width]. replace (list_sum (map (fun _ => 0) cs)) with 0; [reflexivity|]. clear. induction cs; cbn; auto.
    + destruct (Nat.leb_spec (S k) d); [|lia]. replace (d - k) with (S (d - S k)) by lia. reflexivity.
  - destruct (Nat.eqb_spec k d); [lia|]. destruct (Nat.leb_spec (S k) d); [lia|]. clear. induction cs; cbn; auto.
Qed.
Lemma labels_head t d : 1 <= cnt (at_level d) (labels d t).
Proof. destruct t. cbn [labels]. rewrite cnt_cons. unfold at_level at 1. cbn [fst]. rewrite Nat.eqb_refl. lia. Qed.

(** orders and frames of one depth are distinct nodes of that level *)
Lemma frames_width t q F polls log n nthr nlen d : FI t q F polls log n nthr nlen ->
  cnt (fun f => Nat.eqb (dep f) d) F + cnt (fun o => Nat.eqb (o_depth o) d) q <= width t d.
Proof.
  intro I. pose proof (labels_width t 0 d) as W. rewrite Nat.sub_0_r in W. cbn [Nat.leb] in W. rewrite <- W, <- (cnt_perm _ _ _ (F_log _ _ _ _ _ _ _ _ I)), !cnt_app.
  pose proof (F_started _ _ _ _ _ _ _ _ I d) as S1. fold (at_level d) in S1.
  assert (A : cnt (fun f => Nat.eqb (dep f) d) F <= cnt (started d) F + cnt (at_level d) (flat_map flab F)).
  { clear. induction F as [|f F IH]; [cbn; lia|]. cbn [flat_map]. rewrite !cnt_cons, cnt_app.
    assert (X : (if Nat.eqb (dep f) d then 1 else 0) <= (if started d f then 1 else 0) + cnt (at_level d) (flab f)); [|lia].
    unfold started. destruct (Nat.eqb_spec (dep f) d) as [E|N]; [|lia]. cbn [andb]. destruct (existsb (fun x => Nat.eqb (fst x) (dep f)) (f_todo f)) eqn:Ex; cbn [negb]; [|lia].
    apply existsb_exists in Ex as ([e tr] & Hx & Ee). cbn [fst] in Ee. apply Nat.eqb_eq in Ee. subst e. unfold flab. apply in_split in Hx as (a & b & ->). rewrite flat_map_app, cnt_app. cbn [flat_map]. rewrite cnt_app. unfold tlab at 2. cbn [fst snd]. rewrite E. pose proof (labels_head tr d). lia. }
  assert (B : cnt (fun o => Nat.eqb (o_depth o) d) q <= cnt (at_level d) (flat_map olab q)).
  { clear. induction q as [|o q IH]; [cbn; lia|]. cbn [flat_map]. rewrite cnt_cons, cnt_app. destruct (Nat.eqb_spec (o_depth o) d) as [E|N]; [|lia]. unfold olab at 1. rewrite E. pose proof (labels_head (w_tree (o_what o)) d). lia. }
  lia.
Qed.

(** ** When the root is done, everything is *)
Lemma live_case f : live f = true \/ f_phase f = PDelivered.
Proof. unfold live. destruct (f_phase f); auto. Qed.
Lemma finished_nothing t s : Inv t s -> finished s -> q_orders (s_pool s) = [] /\ forall f, In f (frames (s_thr s)) -> live f = false.
Proof.
  intros I (h & l & r & Et & Mh & Sh & Ph). unfold Inv in I. pose proof (V_fi _ _ _ _ _ _ _ _ I) as HF.
  assert (Hr : In r (frames (s_thr s))) by (rewrite Et, frames_cons, Sh; now left).
  assert (Or : f_order r = root_order t).
  { destruct (V_main _ _ _ _ _ _ _ _ I) as (m & rest & E & Mm & Mr & (a & z & Ez & Oz)). rewrite Et in E. injection E as <- <-. rewrite Sh in Ez. destruct a as [|x [|y a]]; try discriminate. injection Ez as ->. exact Oz. }
  assert (W0 : width t 0 = 1) by (destruct t; reflexivity).
  (* a live frame with the root's order would be a second node on level 0 *)
  assert (N0 : forall g, In g (frames (s_thr s)) -> live g = true -> f_order g <> root_order t).
  { intros g Hg Lg Eg. pose proof (frames_width _ _ _ _ _ _ _ _ 0 HF) as X. rewrite W0 in X.
    apply in_split in Hr as (F1 & F2 & Ef). rewrite Ef in Hg, X. rewrite cnt_app, cnt_cons in X. unfold dep in X at 2. rewrite Or in X. cbn in X.
    assert (Hg' : In g F1 \/ In g F2). { apply in_app_iff in Hg as [Hg|[<-|Hg]]; auto. unfold live in Lg. rewrite Ph in Lg. discriminate. }
    assert (C : forall k, In g k -> 1 <= cnt (fun f => Nat.eqb (dep f) 0) k). { intros k Hk. apply in_split in Hk as (k1 & k2 & ->). rewrite cnt_app, cnt_cons. unfold dep at 2. rewrite Eg. cbn. lia. }
    destruct Hg' as [Hg'|Hg']; apply C in Hg'; lia. }
  assert (Wl : forall f p d, waitp f = Some (p, d) -> live f = true) by (intros f p d; unfold waitp, live; destruct (f_phase f); congruence).
  assert (D : forall k g, dep g <= k -> In g (frames (s_thr s)) -> live g = true -> False).
  { induction k as [k IH] using lt_wf_ind. intros g Lk Hg Lg. destruct (F_fown _ _ _ _ _ _ _ _ HF g Hg Lg) as [E|(f & d & Hf & Wf)]; [exact (N0 g Hg Lg E)|].
    destruct (F_fdep _ _ _ _ _ _ _ _ HF f _ d g Hf Wf Hg eq_refl) as [Ed _]. destruct (F_frm _ _ _ _ _ _ _ _ HF f Hf) as (_ & Fd & _). specialize (Fd _ _ Wf).
    apply (IH (dep f)) with (g := f); eauto. lia. }
  split.
  - destruct (q_orders (s_pool s)) as [|o q] eqn:Eq; [reflexivity|]. exfalso. destruct (F_qown _ _ _ _ _ _ _ _ HF o (or_introl eq_refl)) as (f & d & Hf & Wf). exact (D (dep f) f (le_n _) Hf (Wl _ _ _ Wf)).
  - intros f Hf. destruct (live f) eqn:Lf; [|reflexivity]. exfalso. eauto.
Qed.

(** ** Every step uses up some of what there is to do *)
Fixpoint size (t : tree) : nat := match t with Node _ _ cs => S (list_sum (map size cs)) end.
Definition todo_cost (x : nat * tree) : nat := 10 * (size (snd x) - 1) + 6.
Definition open_poll (polls : list (nat * nat)) (p : nat) : bool := match nth_error polls p with Some (ret, num) => Nat.ltb ret num | None => false end.
Definition phase_cost (polls : list (nat * nat)) (ph : phase) : nat :=
  match ph with
  | PRun => 2
  | PLook p _ => if open_poll polls p then 6 else 4
  | PNull p _ => if open_poll polls p then 5 else 3
  | PSleep p _ => 4
  | PDelivered => 1
  end.
Definition frame_cost (polls : list (nat * nat)) (f : frame) : nat := phase_cost polls (f_phase f) + list_sum (map todo_cost (f_todo f)).
Definition thread_cost (polls : list (nat * nat)) (h : thread) : nat :=
  (match h_stack h with [] => if h_asleep h then 0 else 1 | _ => 1 end) + list_sum (map (frame_cost polls) (h_stack h)).
Definition order_cost (o : order work) : nat := 10 * size (w_tree (o_what o)).
Definition cost (s : sys) : nat := list_sum (map order_cost (q_orders (s_pool s))) + list_sum (map (thread_cost (s_polls s)) (s_thr s)).

Lemma sum_app l m : list_sum (l ++ m) = list_sum l + list_sum m.
Proof. apply list_sum_app. Qed.
Lemma sum_cons x l : list_sum (x :: l) = x + list_sum l.
Proof. reflexivity. Qed.
Lemma size_pos t : 1 <= size t.
Proof. destruct t. cbn. lia. Qed.
Lemma sum_le {A} (f g : A -> nat) l : (forall x, In x l -> f x <= g x) -> list_sum (map f l) <= list_sum (map g l).
Proof. induction l as [|x l IH]; intro H; [cbn; lia|]. cbn [map]. rewrite !sum_cons. specialize (IH (fun y Hy => H y (or_intror Hy))). specialize (H x (or_introl eq_refl)). lia. Qed.
Lemma begin_cost polls o : frame_cost polls (begin_frame o) = order_cost o - 2.
Proof. unfold frame_cost, order_cost. cbn [begin_frame f_phase f_todo phase_cost map list_sum fold_right]. unfold todo_cost. cbn [snd]. pose proof (size_pos (w_tree (o_what o))). lia. Qed.
Lemma awk_cost polls l l' : awk l l' -> list_sum (map (thread_cost polls) l') <= S (list_sum (map (thread_cost polls) l)).
Proof.
  intros [x|x|l1 h l2 Ha]; [lia| |]; rewrite !map_app, !sum_app; cbn [map]; rewrite ?sum_cons; [cbn; lia|].
  unfold thread_cost at 2 5. cbn [h_stack h_asleep]. destruct (h_stack h); cbn [map list_sum fold_right]; destruct (h_asleep h); lia.
Qed.
Definition thr_cost polls (l : list thread) := list_sum (map (thread_cost polls) l).
Lemma thr_cost_mid polls l1 h l2 : thr_cost polls (l1 ++ h :: l2) = thread_cost polls h + thr_cost polls (l1 ++ l2).
Proof. unfold thr_cost. rewrite !map_app, !sum_app. cbn [map]. rewrite sum_cons. lia. Qed.
Lemma awk_thr_cost polls l l' : awk l l' -> thr_cost polls l' <= S (thr_cost polls l).
Proof. apply awk_cost. Qed.
Lemma thread_cost_top polls h f rest : h_stack h = f :: rest -> thread_cost polls h = 1 + frame_cost polls f + list_sum (map (frame_cost polls) rest).
Proof. intro E. unfold thread_cost. rewrite E. cbn [map]. rewrite sum_cons. lia. Qed.
Lemma open_app polls p x : open_poll polls p = true -> open_poll (polls ++ [x]) p = true.
Proof. unfold open_poll. intro H. rewrite nth_error_app1; [exact H|]. apply nth_error_Some. destruct (nth_error polls p); congruence. Qed.

(** adding a poll nobody waits for changes no cost *)
Lemma cost_snoc t s x : Inv t s -> forall h, In h (s_thr s) -> thread_cost (s_polls s ++ [x]) h = thread_cost (s_polls s) h.
Proof.
  intros I h Hh. unfold thread_cost. f_equal. f_equal. apply map_ext_in. intros f Hf. unfold frame_cost. f_equal.
  assert (W : forall p d, waitp f = Some (p, d) -> p < length (s_polls s)).
  { intros p d W. eapply (F_wpid _ _ _ _ _ _ _ _ (V_fi _ _ _ _ _ _ _ _ I) f p d); auto. apply frames_in. eauto. }
  unfold waitp in W. destruct (f_phase f); auto; cbn [phase_cost]; unfold open_poll; rewrite nth_error_app1; eauto.
Qed.
Lemma place_cost pid n d cs : list_sum (map order_cost (number pid n d cs)) = 10 * list_sum (map size cs).
Proof. induction cs as [|c cs IH]; [reflexivity|]. cbn [number map]. rewrite !sum_cons, IH. unfold order_cost. cbn [o_what w_tree]. lia. Qed.
Lemma look_poll_cost m s i j h f p d rest s' l1 l2 : s_thr s = l1 ++ h :: l2 -> (forall h', set_thr (s_thr s) i h' = l1 ++ h' :: l2) -> f_phase f = PLook p d ->
  look_poll m s i j h f p d rest = Some s' ->
  cost s' < list_sum (map order_cost (q_orders (s_pool s))) + thr_cost (s_polls s) (l1 ++ with_stack h (f :: rest) :: l2).
Proof.
  intros Et Es Ph H. unfold look_poll in H. destruct (pool_look m (h_busy h) false d (s_pool s)) as [[o a pl| |pl]| |] eqn:Lk; try discriminate.
  - destruct (look_took _ _ _ _ _ _ _ _ Lk) as (q & H1 & H2 & _). destruct (awake_thr a j _) as [l|] eqn:Ea; [|discriminate]. injection H as <-. rewrite Es in Ea. apply awake_awk, (awk_thr_cost (s_polls s)) in Ea.
    unfold cost. cbn [s_pool s_thr s_polls]. fold (thr_cost (s_polls s) l). rewrite H1, H2. cbn [map]. rewrite sum_cons. rewrite thr_cost_mid in *.
    assert (Ef : with_phase f (PLook p d) = f) by (destruct f; cbn in *; now subst). rewrite Ef in Ea.
    rewrite (thread_cost_top _ (with_stack h (f :: rest)) f rest eq_refl). rewrite (thread_cost_top _ {| h_main := h_main h; h_busy := true; h_asleep := false; h_stack := begin_frame o :: f :: rest |} (begin_frame o) (f :: rest) eq_refl) in Ea. cbn [map] in Ea. rewrite sum_cons, begin_cost in Ea.
    assert (10 <= order_cost o) by (unfold order_cost; pose proof (size_pos (w_tree (o_what o))); lia). lia.
  - injection H as <-. unfold cost. cbn [s_pool s_thr s_polls]. rewrite Es. fold (thr_cost (s_polls s) (l1 ++ with_stack h (with_phase f (PNull p d) :: rest) :: l2)). rewrite !thr_cost_mid.
    rewrite (thread_cost_top _ (with_stack h (f :: rest)) f rest eq_refl), (thread_cost_top _ (with_stack h (with_phase f (PNull p d) :: rest)) _ rest eq_refl). unfold frame_cost at 1 3. cbn [with_phase f_phase f_todo]. rewrite Ph. cbn [phase_cost]. destruct (open_poll (s_polls s) p); lia.
Qed.
Lemma set_poll_open polls p ret num q : nth_error polls p = Some (ret, num) -> open_poll (set_poll polls p (S ret, num)) q = true -> open_poll polls q = true.
Proof.
  intros H. unfold open_poll. rewrite set_poll_nth by (apply nth_error_Some; congruence). destruct (Nat.eqb_spec q p) as [->|]; [|auto]. rewrite H. intro L. apply Nat.ltb_lt in L. apply Nat.ltb_lt. lia.
Qed.
Lemma phase_cost_deliver polls p ret num ph : nth_error polls p = Some (ret, num) -> phase_cost (set_poll polls p (S ret, num)) ph <= phase_cost polls ph.
Proof.
  intro H. destruct ph as [|q d|q d|q d|]; cbn [phase_cost]; auto; destruct (open_poll (set_poll polls p (S ret, num)) q) eqn:E; try (rewrite (set_poll_open _ _ _ _ _ H E); lia); destruct (open_poll polls q); lia.
Qed.
Lemma step_cost t m s i j s' : Inv t s -> step m s i j = Some s' -> cost s' < cost s.
Proof.
  intros I H. unfold step in H. destruct (nth_error (s_thr s) i) as [h|] eqn:Eh; [|discriminate]. destruct (set_thr_split _ _ _ Eh) as (l1 & l2 & Et & El & Es).
  assert (C0 : cost s = list_sum (map order_cost (q_orders (s_pool s))) + thr_cost (s_polls s) (l1 ++ h :: l2)) by (unfold cost; now rewrite Et).
  destruct (h_stack h) as [|f rest] eqn:Est.
  - destruct (h_asleep h) eqn:Ea; [discriminate|]. assert (Ch : thread_cost (s_polls s) h = 1) by (unfold thread_cost; rewrite Est, Ea; reflexivity).
    unfold look_worker in H. destruct (pool_look m (h_busy h) true 0 (s_pool s)) as [[o a pl| |pl]| |] eqn:Lk; try discriminate.
    + destruct (look_took _ _ _ _ _ _ _ _ Lk) as (q & H1 & H2 & _). destruct (awake_thr a j _) as [l|] eqn:Ew; [|discriminate]. injection H as <-. rewrite Es in Ew. apply awake_awk, (awk_thr_cost (s_polls s)) in Ew.
      rewrite C0. unfold cost. cbn [s_pool s_thr s_polls]. fold (thr_cost (s_polls s) l). rewrite H1, H2. cbn [map]. rewrite sum_cons. rewrite thr_cost_mid in *. rewrite (thread_cost_top _ {| h_main := h_main h; h_busy := true; h_asleep := false; h_stack := [begin_frame o] |} (begin_frame o) [] eq_refl) in Ew. cbn [map] in Ew. rewrite begin_cost in Ew. change (list_sum []) with 0 in Ew.
      assert (10 <= order_cost o) by (unfold order_cost; pose proof (size_pos (w_tree (o_what o))); lia). lia.
    + injection H as <-. destruct (look_sleep _ _ _ _ _ _ Lk) as [_ Ep]. rewrite C0. unfold cost. cbn [s_pool s_thr s_polls]. replace (q_orders pl) with (q_orders (s_pool s)) by (rewrite Ep; now destruct (h_busy h)). rewrite Es.
      match goal with |- context [list_sum (map (thread_cost ?p) ?l)] => fold (thr_cost p l) end. rewrite !thr_cost_mid, Ch. cbn. lia.
  - pose proof (thread_cost_top (s_polls s) h f rest Est) as Ch. destruct (f_phase f) as [|p d|p d|p d|] eqn:Ph.
    + destruct (f_todo f) as [|[d [lab par cs]] todo] eqn:Td.
      * unfold deliver in H. destruct (nth_error (s_polls s) (w_poll (o_what (f_order f)))) as [[ret num]|] eqn:Ep; [|discriminate]. injection H as <-.
        set (p := w_poll (o_what (f_order f))) in *. set (polls' := set_poll (s_polls s) p (S ret, num)). rewrite C0. unfold cost. cbn [s_pool s_thr s_polls]. apply Nat.add_lt_mono_l. rewrite Es.
        set (l := l1 ++ with_stack h (with_phase f PDelivered :: rest) :: l2).
        assert (L1 : thr_cost polls' l < thr_cost (s_polls s) (l1 ++ h :: l2)).
        { unfold l. rewrite !thr_cost_mid, Ch, (thread_cost_top _ (with_stack h (with_phase f PDelivered :: rest)) _ rest eq_refl).
          assert (Fc : forall x, frame_cost polls' x <= frame_cost (s_polls s) x) by (intro x; unfold frame_cost; pose proof (phase_cost_deliver _ _ _ _ (f_phase x) Ep); unfold polls'; lia).
          assert (Tc : forall x, thread_cost polls' x <= thread_cost (s_polls s) x) by (intro x; unfold thread_cost; apply Nat.add_le_mono_l, sum_le; auto).
          assert (thr_cost polls' (l1 ++ l2) <= thr_cost (s_polls s) (l1 ++ l2)) by (apply sum_le; auto).
          assert (list_sum (map (frame_cost polls') rest) <= list_sum (map (frame_cost (s_polls s)) rest)) by (apply sum_le; auto).
          assert (frame_cost polls' (with_phase f PDelivered) = 1) by (unfold frame_cost; cbn [with_phase f_phase f_todo]; rewrite Td; reflexivity).
          assert (frame_cost (s_polls s) f = 2) by (unfold frame_cost; rewrite Ph, Td; reflexivity). lia. }
        destruct (Nat.leb_spec num (S ret)) as [L|L]; [|exact L1]. fold (thr_cost polls' (wake_poll p l)). eapply Nat.le_lt_trans; [|exact L1].
        unfold thr_cost, wake_poll. rewrite map_map. apply sum_le. intros x _. unfold thread_cost. cbn [with_stack h_stack h_asleep]. destruct (h_stack x) as [|y st]; [apply Nat.le_refl|]. cbn [map]. rewrite !sum_cons. apply le_n_S. change (frame_cost polls' (wake_frame p y) + list_sum (map (frame_cost polls') (map (wake_frame p) st)) <= frame_cost polls' y + list_sum (map (frame_cost polls') st)).
        assert (Wc : forall z, frame_cost polls' (wake_frame p z) <= frame_cost polls' z).
        { intro z. unfold frame_cost, wake_frame. destruct (f_phase z) as [|r e|r e|r e|] eqn:Pz; try (rewrite Pz; lia). destruct (Nat.eqb_spec p r) as [<-|N]; [|rewrite Pz; lia]. cbn [with_phase f_phase f_todo phase_cost].
          replace (open_poll polls' p) with false; [lia|]. unfold polls', open_poll. rewrite set_poll_nth by (apply nth_error_Some; congruence). rewrite Nat.eqb_refl. symmetry. apply Nat.ltb_ge. exact L. }
        pose proof (Wc y). rewrite map_map. pose proof (sum_le (fun z => frame_cost polls' (wake_frame p z)) (frame_cost polls') st (fun z _ => Wc z)). lia.
      * assert (Cf : frame_cost (s_polls s) f = 2 + (6 + 10 * list_sum (map size cs)) + list_sum (map todo_cost todo)).
        { unfold frame_cost. rewrite Ph, Td. cbn [map phase_cost]. rewrite sum_cons. unfold todo_cost at 1. cbn [snd size]. lia. }
        destruct (par && Nat.leb 2 (length cs)) eqn:Ec.
        { apply andb_true_iff in Ec as [_ Ec]. apply Nat.leb_le in Ec.
          destruct (place_pool (length (s_polls s)) (s_seq s) (S d) cs (s_pool s)) as (P1 & _).
          eapply look_poll_cost in H; [|exact Et|exact Es|reflexivity]. cbn [s_pool s_polls] in H. rewrite P1, map_app, sum_app, place_cost in H. rewrite C0. eapply Nat.lt_le_trans; [exact H|]. rewrite !thr_cost_mid, Ch, Cf.
          rewrite (thread_cost_top _ (with_stack h ({| f_order := f_order f; f_todo := todo; f_phase := PLook (length (s_polls s)) (S d) |} :: rest)) _ rest eq_refl).
          unfold frame_cost at 1. cbn [f_phase f_todo phase_cost].
          assert (thr_cost (s_polls s ++ [(0, length cs)]) (l1 ++ l2) = thr_cost (s_polls s) (l1 ++ l2)).
          { unfold thr_cost. f_equal. apply map_ext_in. intros x Hx. eapply cost_snoc; eauto. rewrite Et. apply in_app_iff in Hx. apply in_app_iff. cbn. tauto. }
          assert (list_sum (map (frame_cost (s_polls s ++ [(0, length cs)])) rest) = list_sum (map (frame_cost (s_polls s)) rest)).
          { pose proof (cost_snoc t s (0, length cs) I h) as X. rewrite Et in X. specialize (X (in_mid_self _ _ _)). rewrite !(thread_cost_top _ h f rest Est) in X. unfold frame_cost at 1 3 in X. rewrite Ph in X. cbn [phase_cost] in X. lia. }
          destruct (open_poll _ _); lia. }
        { injection H as <-. rewrite C0. unfold cost. cbn [s_pool s_thr s_polls]. apply Nat.add_lt_mono_l. rewrite Es.
          match goal with |- context [list_sum (map (thread_cost ?p) ?l)] => fold (thr_cost p l) end. rewrite !thr_cost_mid, Ch, Cf.
          rewrite (thread_cost_top _ (with_stack h ({| f_order := f_order f; f_todo := map (pair (S d)) cs ++ todo; f_phase := PRun |} :: rest)) _ rest eq_refl). unfold frame_cost at 1. cbn [f_phase f_todo phase_cost]. rewrite map_app, sum_app, map_map.
          assert (list_sum (map (fun c => todo_cost (S d, c)) cs) <= 10 * list_sum (map size cs)).
          { clear. induction cs as [|c cs IH]; [cbn; lia|]. cbn [map]. rewrite !sum_cons. unfold todo_cost at 1. cbn [snd]. pose proof (size_pos c). lia. }
          lia. }
    + eapply look_poll_cost in H; [|exact Et|exact Es|exact Ph]. rewrite C0. replace (with_stack h (f :: rest)) with h in H; [exact H|]. destruct h. cbn in *. now subst.
    + destruct (nth_error (s_polls s) p) as [[ret num]|] eqn:Ep; [|discriminate]. injection H as <-. rewrite C0. unfold cost. cbn [s_pool s_thr s_polls]. apply Nat.add_lt_mono_l. rewrite Es.
      match goal with |- context [list_sum (map (thread_cost ?p) ?l)] => fold (thr_cost p l) end. rewrite !thr_cost_mid, Ch.
      rewrite (thread_cost_top _ (with_stack h (with_phase f (if Nat.ltb ret num then PSleep p d else PRun) :: rest)) _ rest eq_refl). unfold frame_cost at 1 3. cbn [with_phase f_phase f_todo]. rewrite Ph.
      assert (O : open_poll (s_polls s) p = Nat.ltb ret num) by (unfold open_poll; now rewrite Ep). cbn [phase_cost]. rewrite O. destruct (Nat.ltb ret num); cbn [phase_cost]; lia.
    + discriminate.
    + destruct (h_main h && Nat.eqb (length rest) 0) eqn:Em; [discriminate|]. unfold pool_finish in H. destruct (Nat.leb _ _) eqn:Ell in H; [discriminate|]. injection H as <-.
      rewrite C0. unfold cost. cbn [s_pool s_thr s_polls q_orders]. apply Nat.add_lt_mono_l. rewrite Es. match goal with |- context [list_sum (map (thread_cost ?p) ?l)] => fold (thr_cost p l) end. rewrite !thr_cost_mid, Ch. apply Nat.add_lt_mono_r.
      assert (thread_cost (s_polls s) (with_stack h rest) <= 1 + list_sum (map (frame_cost (s_polls s)) rest)).
      { unfold thread_cost. cbn [with_stack h_stack h_asleep]. destruct rest; [destruct (h_asleep h); cbn; lia|lia]. }
      (* the delivered frame itself is free: the thread must have been charged *)
      assert (frame_cost (s_polls s) f = 1 + list_sum (map todo_cost (f_todo f))) by (unfold frame_cost; rewrite Ph; reflexivity). lia.
Qed.
