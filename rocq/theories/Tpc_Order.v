(** Proofs about tiled parameters: sorting the tiles, marking the axes, and the cells of a tile. *)
From Coq Require Import QArith Qcanon Sorting.Sorted.
From Verif Require Import Base Polc_Model Polc_Proofs Slv_Spec Slv_Proofs Leq_Proofs Tpc_Model Tpc_Spec Tpc_Proofs Tpc_Tiles.
Close Scope Q_scope. Close Scope Qc_scope. Local Open Scope nat_scope.

(** *** the order of points *)
Definition before (p q : list nat) : Prop := exists a, (forall b, b < a -> nth b p 0 = nth b q 0) /\ nth a p 0 < nth a q 0.
Lemma point_before : forall sh j j', j < j' -> j' < box sh -> before (point sh j) (point sh j').
Proof.
  induction sh as [|n sh IH]; intros j j' L B; [cbn in B; lia|]. cbn [point]. change (box (n :: sh)) with (n * box sh) in B.
  assert (P : 0 < box sh) by nia. set (b := box sh) in *.
  pose proof (Nat.div_le_mono j j' b ltac:(lia) ltac:(lia)) as D.
  destruct (Nat.eq_dec (j / b) (j' / b)) as [E|N].
  - pose proof (Nat.div_mod j b ltac:(lia)). pose proof (Nat.div_mod j' b ltac:(lia)). pose proof (Nat.mod_upper_bound j' b ltac:(lia)).
    destruct (IH (j mod b) (j' mod b)) as (a & S1 & L1); [nia|assumption|]. exists (S a). split; [|exact L1].
    intros [|k] Hk; [exact E|]. apply S1. lia.
  - exists 0. split; [lia|]. cbn [nth]. lia.
Qed.
Lemma sorted_seq : forall n a, StronglySorted lt (seq a n).
Proof. induction n as [|n IH]; intros a; cbn; constructor; [apply IH|]. apply Forall_forall. intros x H. apply in_seq in H. lia. Qed.
Lemma points_sorted sh : StronglySorted before (points sh).
Proof.
  unfold points. pose proof (sorted_seq (box sh) 0) as Q. assert (B : Forall (fun j => j < box sh) (seq 0 (box sh))). { apply Forall_forall. intros x H. apply in_seq in H. lia. }
  induction (seq 0 (box sh)) as [|x l IH]; cbn; constructor; apply Forall_cons_iff in B as [B1 B2].
  - apply IH; [|assumption]. inversion Q; assumption.
  - inversion Q as [|? ? ? F]; subst. apply Forall_forall. intros y Hy. apply in_map_iff in Hy as (z & <- & Hz).
    rewrite Forall_forall in F, B2. apply point_before; auto.
Qed.

(** *** sorting *)
Lemma sort_id : forall l, StronglySorted (fun x y => compareDomain y x = false) l -> sort l = l.
Proof.
  induction l as [|x l IH]; intros Q; [reflexivity|]. inversion Q as [|? ? Q' F]; subst. cbn [sort fold_right]. fold (sort l). rewrite (IH Q').
  destruct l as [|y l]; [reflexivity|]. cbn [insert]. apply Forall_cons_iff in F as [F _]. rewrite F. reflexivity.
Qed.
Lemma apart_same x : apart x x = false.
Proof.
  unfold apart. destruct (qltb x x) eqn:E; [apply qltb_true in E; exfalso; qlra|]. apply qltb_false. fold tiny. qlra.
Qed.
Lemma apart_more x y : (y + tiny < x)%Qc -> apart x y = true.
Proof. intros H. unfold apart. rewrite (qltb_false x y) by qlra. apply qltb_true. fold tiny. qlra. Qed.

Section Order.
Variables (c : tcells) (tiling : list nat).
Hypothesis G : grid_ok c.
Let K := counts c tiling 0 MaxAxis.
Let D := dom_of c tiling.

Lemma centers_lt a j k : j < k -> k < ncells c a -> (nth j (k_center c a) q0 < nth k (k_center c a) q0)%Qc.
Proof.
  intros L H. pose proof (ends_before c a (g_sizes c G a) (g_size c G a) (g_order c G a) j k L H).
  destruct (start_center c a (g_sizes c G a) (g_size c G a) (g_order c G a) j ltac:(lia)) as (_ & A & _).
  destruct (start_center c a (g_sizes c G a) (g_size c G a) (g_order c G a) k H) as (B & _ & _). qlra.
Qed.
Lemma later_lower p q x y a : inbox K p -> inbox K q -> before p q -> a <= MaxAxis -> (forall b, b < a -> nth b p 0 = nth b q 0) ->
  t_dom x = D p -> t_dom y = D q -> first_apart lower (t_dom y) (t_dom x) (seq a (MaxAxis - a)) = Some false.
Proof.
  intros Ip Iq (m & S1 & L) La Sa Ex Ey. rewrite Ex, Ey.
  assert (Lm : m < MaxAxis). { destruct (le_lt_dec MaxAxis m) as [X|X]; [|assumption]. exfalso.
    assert (length q = MaxAxis). { clear -Iq. assert (forall sh co, inbox sh co -> length co = length sh) as W by (intros sh co I; induction I; cbn; congruence). rewrite (W _ _ Iq). reflexivity. }
    rewrite (nth_overflow q) in L by lia. lia. }
  assert (Am : a <= m) by (destruct (le_lt_dec a m); [assumption|specialize (Sa m ltac:(lia)); lia]).
  clear La Sa. remember (m - a) as w eqn:W. revert a Am W. induction w as [|w IH]; intros a Am W; destruct (MaxAxis - a) as [|r] eqn:R; try lia; cbn [seq first_apart].
  - assert (a = m) by lia. subst a.
    assert (Cm : cutting c tiling m = true). { destruct (cutting c tiling m) eqn:E; [reflexivity|]. pose proof (coord_count c tiling q m Iq Lm) as X. rewrite (not_cutting c tiling m E) in X. lia. }
    pose proof (coord_count c tiling p m Ip Lm) as Hp. pose proof (coord_count c tiling q m Iq Lm) as Hq.
    unfold is_defined, lower, D. rewrite (dom_nth c tiling G p m Ip Lm), (dom_nth c tiling G q m Iq Lm), Cm. cbn [andb range fst].
    assert (X : (cellStart c m (first c tiling m (nth m p 0%nat)) + tiny < cellStart c m (first c tiling m (nth m q 0%nat)))%Qc).
    { apply (start_lt c m (g_sizes c G m) (g_size c G m) (g_order c G m)).
      - unfold first. pose proof (len_pos c tiling m). nia.
      - destruct (cell_range c tiling m _ Hq) as [A B]. pose proof (cutting_cells c tiling m Cm) as N. apply Nat.eqb_neq in N. unfold extent in B. rewrite N in B. lia. }
    rewrite apart_more by assumption. rewrite qltb_false by qlra. reflexivity.
  - assert (La : a < MaxAxis) by lia. assert (E : nth a (D p) None = nth a (D q) None).
    { unfold D. rewrite (dom_nth c tiling G p a Ip La), (dom_nth c tiling G q a Iq La), (S1 a) by lia. reflexivity. }
    unfold is_defined, lower at 1 2. unfold lower in IH. rewrite E. rewrite apart_same, andb_false_r.
    replace r with (MaxAxis - S a) by lia. apply IH; lia.
Qed.
Lemma tiles_sorted l : map t_dom l = map D (points K) -> sort l = l.
Proof.
  intros E. apply sort_id. pose proof (points_sorted K) as Q. assert (I : Forall (inbox K) (points K)). { apply Forall_forall. intros x H. now apply points_In. }
  revert l E. induction (points K) as [|p ps IH]; intros [|x l] E; try discriminate; [constructor|]. cbn [map] in E. injection E as E1 E2.
  inversion Q as [|? ? Q' F]; subst. apply Forall_cons_iff in I as [I1 I2]. constructor; [now apply IH|].
  clear IH Q Q'. revert ps E2 F I2. induction l as [|y l IH]; intros [|q ps] E2 F I2; try discriminate; constructor.
  - cbn [map] in E2. injection E2 as E2 E3. apply Forall_cons_iff in F as [F _]. apply Forall_cons_iff in I2 as [I2 _].
    unfold compareDomain. pose proof (later_lower p q x y 0 I1 I2 F ltac:(lia) ltac:(intros; lia) E1 E2) as W. rewrite Nat.sub_0_r in W. rewrite W. reflexivity.
  - cbn [map] in E2. injection E2 as E2 E3. apply Forall_cons_iff in F as [_ F]. apply Forall_cons_iff in I2 as [_ I2]. now apply (IH ps).
Qed.
End Order.

(** *** the axes that have shape *)
Definition norm (x y : Qc) : Qc * Qc := if qeqb x y then (Qcminus x (Q2Qc (1 # 1000000)), y) else if qltb y x then (y, x) else (x, y).
Lemma norm_lt x y : (x < y)%Qc -> norm x y = (x, y).
Proof. intros L. unfold norm. destruct (qeqb x y) eqn:E; [apply qeqb_eq in E; subst; exfalso; qlra|]. rewrite qltb_false by qlra. reflexivity. Qed.
Lemma expand_axis_other o d a b : a <> b -> nth b (expand_axis o d a) None = nth b d None.
Proof.
  intros N. unfold expand_axis, defineAxis. destruct (is_defined o a), (is_defined d a); try reflexivity; [destruct (_ || _)|]; try reflexivity; now apply nth_set_other.
Qed.
Lemma expand_axis_length o d a : length (expand_axis o d a) = length d.
Proof. unfold expand_axis, defineAxis. destruct (is_defined o a), (is_defined d a); try reflexivity; [destruct (_ || _)|]; try reflexivity; apply length_set. Qed.
Lemma expand_fold_other o b : forall n a d, (b < a \/ a + n <= b) -> nth b (fold_left (expand_axis o) (seq a n) d) None = nth b d None.
Proof. induction n as [|n IH]; intros a d H; [reflexivity|]. cbn [seq fold_left]. rewrite IH by lia. apply expand_axis_other. lia. Qed.
Lemma expand_fold_length o : forall l d, length (fold_left (expand_axis o) l d) = length d.
Proof. induction l as [|x l IH]; intros d; [reflexivity|]. cbn [fold_left]. rewrite IH. apply expand_axis_length. Qed.
Lemma expand_axis_same o d a r : a < length d -> nth a o None = Some r -> (fst r < snd r)%Qc -> nth a d None = None \/ nth a d None = Some r -> nth a (expand_axis o d a) None = Some r.
Proof.
  intros L O R [E|E]; unfold expand_axis, is_defined; rewrite O, E; unfold lower, upper; rewrite O.
  - rewrite defineAxis_lt by assumption. rewrite nth_set_same by assumption. destruct r; reflexivity.
  - rewrite E. assert (X : qmin (fst r) (fst r) = fst r). { unfold qmin. destruct (qltb _ _); reflexivity. } assert (Y : qmax (snd r) (snd r) = snd r). { unfold qmax. destruct (qltb _ _); reflexivity. }
    rewrite X, Y. rewrite (proj2 (qeqb_eq _ _) eq_refl), (proj2 (qeqb_eq (snd r) _) eq_refl). cbn. exact E.
Qed.
Lemma expand_none o d a : nth a o None = None -> nth a (expand_axis o d a) None = nth a d None.
Proof. intros E. unfold expand_axis, is_defined. rewrite E. reflexivity. Qed.
Lemma envelope_same o d a r : a < MaxAxis -> length d = MaxAxis -> nth a o None = Some r -> (fst r < snd r)%Qc -> nth a d None = None \/ nth a d None = Some r -> nth a (expandToEnvelope d o) None = Some r.
Proof.
  intros L Ld O R E. unfold expandToEnvelope. replace MaxAxis with (a + S (MaxAxis - S a)) by lia. rewrite seq_app, fold_left_app. cbn [seq fold_left Nat.add].
  rewrite expand_fold_other by lia. apply expand_axis_same; try assumption; [rewrite expand_fold_length; lia|]. rewrite expand_fold_other by lia. exact E.
Qed.
Lemma envelope_none o d a : a < MaxAxis -> nth a o None = None -> nth a (expandToEnvelope d o) None = nth a d None.
Proof.
  intros L O. unfold expandToEnvelope. replace MaxAxis with (a + S (MaxAxis - S a)) by lia. rewrite seq_app, fold_left_app. cbn [seq fold_left Nat.add].
  rewrite expand_fold_other by lia. rewrite expand_none by assumption. rewrite expand_fold_other by lia. reflexivity.
Qed.
Lemma envelope_length o d : length (expandToEnvelope d o) = length d.
Proof. apply expand_fold_length. Qed.
Lemma mark_length env t has : length (mark_axes env t has) = length has.
Proof. unfold mark_axes. rewrite map_length, combine_length, seq_length. lia. Qed.
Lemma mark_nth env t has a : a < length has -> nth a (mark_axes env t has) false =
  nth a has false || Nat.ltb 1 (nth a (f_shape (t_funk t)) 0) || (is_defined env a && (negb (qeqb (lower env a) (lower (t_dom t) a)) || negb (qeqb (upper env a) (upper (t_dom t) a)))).
Proof.
  intros L. unfold mark_axes.
  set (f := fun _ : nat * bool => _). rewrite (nth_indep _ false (f (0, false))) by (rewrite map_length, combine_length, seq_length; lia).
  rewrite map_nth, combine_nth by apply seq_length. rewrite seq_nth by assumption. reflexivity.
Qed.
Definition marking l st := fold_left (fun '(env, has) t => (expandToEnvelope env (t_dom t), mark_axes env t has)) l st.
Lemma marking_ok a r0 : forall l env has, a < MaxAxis -> length env = MaxAxis -> length has = MaxAxis ->
  (forall t, In t l -> exists r, nth a (t_dom t) None = Some r /\ (fst r < snd r)%Qc) ->
  (nth a has false = true \/ nth a env None = Some r0) ->
  nth a (snd (marking l (env, has))) false = true \/ forall t, In t l -> nth a (t_dom t) None = Some r0.
Proof.
  induction l as [|t l IH]; intros env has La Le Lh Dt H; [right; intros t []|]. cbn [marking fold_left].
  destruct (Dt t (or_introl eq_refl)) as (r & Et & Rt).
  assert (X : nth a (mark_axes env t has) false = true \/ nth a (expandToEnvelope env (t_dom t)) None = Some r0 /\ r = r0).
  { rewrite mark_nth by lia. destruct H as [H|H]; [left; rewrite H; reflexivity|].
    destruct (Qc_eq_dec (fst r0) (fst r)) as [E1|N1]; [destruct (Qc_eq_dec (snd r0) (snd r)) as [E2|N2]|].
    - right. assert (r = r0) by (destruct r, r0; cbn in *; congruence). subst r0. split; [|reflexivity]. apply envelope_same; auto.
    - left. unfold is_defined, lower, upper. rewrite H, Et. rewrite (qeqb_dec (snd r0)). destruct (Qc_eq_dec (snd r0) (snd r)); [contradiction|]. cbn [negb andb]. rewrite !orb_true_r. reflexivity.
    - left. unfold is_defined, lower, upper. rewrite H, Et. rewrite (qeqb_dec (fst r0)). destruct (Qc_eq_dec (fst r0) (fst r)); [contradiction|]. cbn [negb andb orb]. rewrite !orb_true_r. reflexivity. }
  destruct (IH (expandToEnvelope env (t_dom t)) (mark_axes env t has)) as [A|A]; try assumption.
  - rewrite envelope_length; assumption.
  - rewrite mark_length; assumption.
  - intros t' Ht'. apply Dt. right. assumption.
  - tauto.
  - left. exact A.
  - destruct X as [X|[X ->]]; [|right; intros t' [<-|Ht']; auto].
    left. clear -X La Lh. revert X. assert (W : forall l st, length (snd st) = MaxAxis -> nth a (snd st) false = true -> nth a (snd (marking l st)) false = true).
    { induction l0 as [|y l0 IH]; intros [e h] L E; [exact E|]. cbn [marking fold_left]. apply IH; cbn [snd] in *; [rewrite mark_length; assumption|]. rewrite mark_nth by lia. rewrite E. reflexivity. }
    intros X. apply W; [cbn; rewrite mark_length; assumption|exact X].
Qed.
Lemma marking_cells a : forall l st, a < MaxAxis -> length (snd st) = MaxAxis -> (forall t, In t l -> nth a (t_dom t) None = None /\ nth a (f_shape (t_funk t)) 0 <= 1) ->
  nth a (fst st) None = None -> nth a (snd st) false = false -> nth a (snd (marking l st)) false = false.
Proof.
  induction l as [|t l IH]; intros [env has] La Lh Dt E H; [exact H|]. cbn [marking fold_left]. destruct (Dt t (or_introl eq_refl)) as [E1 E2].
  apply IH; cbn [fst snd] in *; try assumption.
  - rewrite mark_length; assumption.
  - intros t' Ht'. apply Dt. right. assumption.
  - rewrite envelope_none; assumption.
  - rewrite mark_nth by lia. rewrite H. unfold is_defined. rewrite E. cbn [andb]. rewrite orb_false_r. cbn [orb]. apply Nat.ltb_ge. exact E2.
Qed.
