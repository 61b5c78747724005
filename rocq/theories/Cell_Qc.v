(** Proofs about resampling and regular grids in exact arithmetic. *)
From Coq Require Import QArith Qcanon Lqa.
From Verif Require Import Base Flt_Model Flt_Proofs Dom_Model Cell_Model Cell_Spec Cell_Proofs.
Local Close Scope Q_scope.
Local Open Scope Qc_scope.
Local Open Scope nat_scope.

Notation two := (Q2Qc 2).
Notation zero := (Q2Qc 0).
Definition qn (n : nat) : Qc := Q2Qc (inject_Z (Z.of_nat n)).

Lemma qn_S n : qn (S n) = Qcplus (qn n) (Q2Qc 1).
Proof.
  apply Qc_is_canon. unfold qn. cbn [this Q2Qc Qcplus]. rewrite !Qred_correct.
  rewrite Nat2Z.inj_succ. unfold Z.succ. rewrite inject_Z_plus. reflexivity.
Qed.
Lemma qn_0 : qn 0 = zero.
Proof. reflexivity. Qed.
Lemma two_nz : two <> zero.
Proof. intros H. apply (f_equal this) in H. discriminate. Qed.
Lemma qn_nz n : 0 < n -> qn n <> zero.
Proof.
  intros H E. apply (f_equal this) in E. unfold qn in E. cbn [this Q2Qc] in E.
  assert (Q : Qeq (inject_Z (Z.of_nat n)) 0) by (rewrite <- (Qred_correct (inject_Z _)), <- (Qred_correct 0%Q), E; reflexivity).
  unfold Qeq in Q. cbn in Q. lia.
Qed.

Lemma two_eq : two = Qcplus (Q2Qc 1) (Q2Qc 1).
Proof. apply Qc_is_canon. reflexivity. Qed.
Lemma one_one_nz : Qcplus (Q2Qc 1) (Q2Qc 1) <> zero.
Proof. rewrite <- two_eq. exact two_nz. Qed.
Ltac qfield := rewrite ?two_eq; field; exact one_one_nz.

Lemma halves a b : Qcminus (Qcdiv (Qcplus a b) two) (Qcdiv (Qcminus b a) two) = a.
Proof. qfield. Qed.
Lemma halves' a b : Qcplus (Qcdiv (Qcplus a b) two) (Qcdiv (Qcminus b a) two) = b.
Proof. qfield. Qed.

(** ** chains of intervals *)
Lemma chain_fwd (lo hi : nat -> Qc) s m p :
  (forall j, s <= j < s + m -> hi j = lo (S j)) ->
  Qcle (lo s) p -> Qclt p (hi (s + m)) ->
  exists j, s <= j <= s + m /\ Qcle (lo j) p /\ Qclt p (hi j).
Proof.
  induction m as [|m IH]; intros H H1 H2.
  - rewrite Nat.add_0_r in H2. exists s. repeat split; auto; lia.
  - destruct (Qclt_le_dec p (hi (s + m))) as [L|L].
    + destruct IH as (j & Hj & Hp); auto. { intros j Hj. apply H. lia. }
      exists j. split; [lia|exact Hp].
    + exists (s + S m). split; [lia|]. split; [|exact H2].
      rewrite (H (s + m)) in L by lia. replace (S (s + m)) with (s + S m) in L by lia. exact L.
Qed.
Lemma chain_mono (lo hi : nat -> Qc) s m :
  (forall j, s <= j < s + m -> hi j = lo (S j)) ->
  (forall j, s <= j <= s + m -> Qcle (lo j) (hi j)) ->
  forall j, s <= j <= s + m -> Qcle (lo s) (lo j) /\ Qcle (hi j) (hi (s + m)).
Proof.
  intros H P. split.
  - assert (X : forall d, s + d <= s + m -> Qcle (lo s) (lo (s + d))).
    { induction d as [|d IH]; intros L; [rewrite Nat.add_0_r; apply Qcle_refl|].
      eapply Qcle_trans; [apply IH; lia|]. replace (s + S d) with (S (s + d)) by lia.
      rewrite <- H by lia. apply P. lia. }
    replace j with (s + (j - s)) by lia. apply X. lia.
  - assert (X : forall d, d <= m -> Qcle (hi (s + m - d)) (hi (s + m))).
    { induction d as [|d IH]; intros L; [rewrite Nat.sub_0_r; apply Qcle_refl|].
      eapply Qcle_trans; [|apply IH; lia]. rewrite H by lia.
      replace (S (s + m - S d)) with (s + m - d) by lia. apply P. lia. }
    replace j with (s + m - (s + m - j)) by lia. apply X. lia.
Qed.
Lemma chain_cover (lo hi : nat -> Qc) s m p :
  (forall j, s <= j < s + m -> hi j = lo (S j)) ->
  (forall j, s <= j <= s + m -> Qcle (lo j) (hi j)) ->
  (Qcle (lo s) p /\ Qclt p (hi (s + m))) <-> (exists j, s <= j <= s + m /\ Qcle (lo j) p /\ Qclt p (hi j)).
Proof.
  intros H P. split.
  - intros [H1 H2]. now apply chain_fwd.
  - intros (j & Hj & H1 & H2). destruct (chain_mono lo hi s m H P j Hj) as [M1 M2].
    split; [eapply Qcle_trans; eauto|eapply Qclt_le_trans; eauto].
Qed.

Lemma size_cell g h i : Qcminus (cell_hi g h i) (cell_lo g h i) = nth i h zero.
Proof. unfold cell_hi, cell_lo. qfield. Qed.
Lemma center_cell g h i : Qcdiv (Qcplus (cell_lo g h i) (cell_hi g h i)) two = nth i g zero.
Proof. unfold cell_hi, cell_lo. qfield. Qed.

Lemma pos_cell g h i : length g = length h -> sizes_pos h -> i < length g -> Qclt (cell_lo g h i) (cell_hi g h i).
Proof.
  intros L P Hi. assert (Hh : Qclt zero (nth i h zero)) by (apply P, nth_In; lia).
  rewrite <- (size_cell g h i) in Hh. apply Qclt_minus_iff. exact Hh.
Qed.

(** the model's functions, at the type of rationals *)
Definition integ (g h : list Qc) (k : nat) : list Qc * list Qc := integrate qc g h k.
Definition upsam (g h : list Qc) (k : nat) : list Qc * list Qc := upsample qc g h k.
Definition rgrid (x0 x1 : Qc) (n : nat) : list Qc := regular_grid qc x0 x1 n.
Definition rsize (x0 x1 : Qc) (n : nat) : list Qc := regular_size qc x0 x1 n None.

(** ** integration *)
Lemma int_len g h k : length (fst (integ g h k)) = length g / k /\ length (snd (integ g h k)) = length g / k.
Proof. unfold integ, integrate. cbn [fst snd]. now rewrite !map_length, seq_length. Qed.

Lemma nth_map_seq {T} (f : nat -> T) n i d : i < n -> nth i (map f (seq 0 n)) d = f i.
Proof.
  intros H. rewrite (nth_indep _ d (f 0)) by (rewrite map_length, seq_length; exact H).
  rewrite (map_nth f (seq 0 n) 0 i), seq_nth by exact H. reflexivity.
Qed.

Lemma int_cell g h k i : 0 < k -> i < length g / k ->
  cell_lo (fst (integ g h k)) (snd (integ g h k)) i = cell_lo g h (i * k) /\
  cell_hi (fst (integ g h k)) (snd (integ g h k)) i = cell_hi g h (i * k + (k - 1)).
Proof.
  intros Hk Hi. unfold integ, integrate. cbn [fst snd]. rewrite !map_map. unfold cell_lo at 1, cell_hi at 1.
  rewrite !nth_map_seq by exact Hi. cbn [fst snd].
  change (Qcminus (Qcdiv (Qcplus (cell_lo g h (i * k)) (cell_hi g h (i * k + (k - 1)))) two)
            (Qcdiv (Qcminus (cell_hi g h (i * k + (k - 1))) (cell_lo g h (i * k))) two) = cell_lo g h (i * k) /\
          Qcplus (Qcdiv (Qcplus (cell_lo g h (i * k)) (cell_hi g h (i * k + (k - 1)))) two)
            (Qcdiv (Qcminus (cell_hi g h (i * k + (k - 1))) (cell_lo g h (i * k))) two) = cell_hi g h (i * k + (k - 1))).
  split; [apply halves|apply halves'].
Qed.

Lemma div_mul_exact n k : 0 < k -> Nat.divide k n -> (n / k) * k = n.
Proof. intros Hk [q ->]. now rewrite Nat.div_mul by lia. Qed.

Lemma int_cover g h k p : length g = length h -> 0 < k -> Nat.divide k (length g) ->
  contiguous g h -> sizes_pos h ->
  (covered (fst (integ g h k)) (snd (integ g h k)) p <-> covered g h p).
Proof.
  intros L Hk D C P. pose proof (div_mul_exact _ _ Hk D) as E.
  destruct (int_len g h k) as [L1 _]. unfold covered. rewrite L1.
  assert (CH : forall i, i < length g / k ->
     ((Qcle (cell_lo g h (i * k)) p /\ Qclt p (cell_hi g h (i * k + (k - 1)))) <->
      (exists j, i * k <= j <= i * k + (k - 1) /\ Qcle (cell_lo g h j) p /\ Qclt p (cell_hi g h j)))).
  { intros i Hi. assert (i * k + k <= length g) by nia. apply chain_cover.
    - intros j Hj. apply C. lia.
    - intros j Hj. apply Qclt_le_weak, pos_cell; auto. lia. }
  split.
  - intros (i & Hi & H1 & H2). destruct (int_cell g h k i Hk Hi) as [E1 E2]. rewrite E1 in H1. rewrite E2 in H2.
    destruct (proj1 (CH i Hi) (conj H1 H2)) as (j & Hj & Hp). exists j. split; [|exact Hp].
    assert (i * k + k <= length g) by nia. lia.
  - intros (j & Hj & Hp). exists (j / k).
    assert (Hi : j / k < length g / k).
    { apply Nat.div_lt_upper_bound; [lia|]. rewrite Nat.mul_comm, E. exact Hj. }
    split; [exact Hi|]. destruct (int_cell g h k (j / k) Hk Hi) as [E1 E2]. rewrite E1, E2.
    apply CH; [exact Hi|]. exists j. split; [|exact Hp].
    pose proof (Nat.div_mod j k ltac:(lia)). pose proof (Nat.mod_upper_bound j k ltac:(lia)). nia.
Qed.

Lemma int_contiguous g h k : 0 < k -> contiguous g h ->
  contiguous (fst (integ g h k)) (snd (integ g h k)).
Proof.
  intros Hk C i Hi. destruct (int_len g h k) as [L1 _]. rewrite L1 in Hi.
  destruct (int_cell g h k i Hk) as [_ E2]; [lia|]. destruct (int_cell g h k (S i) Hk Hi) as [E1 _].
  rewrite E1, E2. rewrite C.
  - f_equal. nia.
  - pose proof (Nat.div_mod (length g) k ltac:(lia)). nia.
Qed.

(** ** upsampling *)
Lemma subcells_len A x sz k : length (subcells A x sz k) = k.
Proof. revert x. induction k as [|k IH]; intros x; cbn; auto. Qed.
Lemma subcells_nth (x sz : Qc) k j (d : Qc) : j < k -> @eq Qc (@nth Qc j (subcells qc x sz k) d) (Qcplus x (Qcmult (qn j) sz)).
Proof.
  revert x j. induction k as [|k IH]; intros x j Hj; [lia|]. destruct j as [|j]; cbn [subcells nth].
  - rewrite qn_0. change (x = Qcplus x (Qcmult zero sz)). ring.
  - change (nadd qc x sz) with (Qcplus x sz). rewrite IH by lia. rewrite qn_S. ring.
Qed.

Lemma concat_len {T} (l : list (list T)) k : (forall x, In x l -> length x = k) -> length (concat l) = length l * k.
Proof.
  induction l as [|a l IH]; intros H; cbn; auto.
  rewrite app_length, IH, (H a); auto; [now left|]. intros x Hx. apply H. now right.
Qed.
Lemma concat_nth {T} (l : list (list T)) k i j d dd : (forall x, In x l -> length x = k) -> j < k -> i < length l ->
  nth (i * k + j) (concat l) d = nth j (nth i l dd) d.
Proof.
  revert i. induction l as [|a l IH]; intros i H Hj Hi; [cbn in Hi; lia|].
  assert (La : length a = k) by (apply H; now left).
  destruct i as [|i]; cbn [concat nth].
  - rewrite app_nth1 by lia. reflexivity.
  - rewrite app_nth2 by nia. replace (S i * k + j - length a) with (i * k + j) by nia.
    apply IH; auto; [|cbn in Hi; lia]. intros x Hx. apply H. now right.
Qed.

Definition subsize (g h : list Qc) (k i : nat) : Qc :=
  Qcdiv (Qcminus (cell_hi g h i) (cell_lo g h i)) (qn k).

Lemma up_len g h k : length (fst (upsam g h k)) = length g * k /\ length (snd (upsam g h k)) = length g * k.
Proof.
  unfold upsam, upsample. cbn [fst snd]. rewrite !map_map.
  split; (rewrite concat_len with (k := k); [now rewrite map_length, seq_length|]);
    intros x Hx; apply in_map_iff in Hx; destruct Hx as (i & <- & _); cbn [fst snd].
  - apply (subcells_len qc). - apply repeat_length.
Qed.

Lemma up_nth g h k i j : j < k -> i < length g ->
  nth (i * k + j) (fst (upsam g h k)) zero =
    Qcplus (Qcplus (cell_lo g h i) (Qcdiv (subsize g h k i) two)) (Qcmult (qn j) (subsize g h k i)) /\
  nth (i * k + j) (snd (upsam g h k)) zero = subsize g h k i.
Proof.
  intros Hj Hi. unfold upsam, upsample. cbn [fst snd]. rewrite !map_map. cbn [fst snd]. split.
  - rewrite (concat_nth _ k i j zero []); auto.
    + rewrite nth_map_seq by exact Hi. rewrite subcells_nth by exact Hj. reflexivity.
    + intros x Hx. apply in_map_iff in Hx. destruct Hx as (i' & <- & _). apply (subcells_len qc).
    + now rewrite map_length, seq_length.
  - rewrite (concat_nth _ k i j zero []); auto.
    + rewrite nth_map_seq by exact Hi.
      assert (R : forall (x : Qc) m, j < m -> nth j (repeat x m) zero = x).
      { intros x m. clear. revert m. induction j as [|j IH]; intros [|m] Hm; cbn; try lia; auto. apply IH. lia. }
      apply R. exact Hj.
    + intros x Hx. apply in_map_iff in Hx. destruct Hx as (i' & <- & _). apply repeat_length.
    + now rewrite map_length, seq_length.
Qed.

Lemma up_cell g h k i j : j < k -> i < length g ->
  cell_lo (fst (upsam g h k)) (snd (upsam g h k)) (i * k + j) = Qcplus (cell_lo g h i) (Qcmult (qn j) (subsize g h k i)) /\
  cell_hi (fst (upsam g h k)) (snd (upsam g h k)) (i * k + j) = Qcplus (cell_lo g h i) (Qcmult (qn (S j)) (subsize g h k i)).
Proof.
  intros Hj Hi. destruct (up_nth g h k i j Hj Hi) as [E1 E2].
  unfold cell_lo at 1, cell_hi at 1. rewrite E1, E2, qn_S. split; qfield.
Qed.

Lemma up_block g h k i : 0 < k ->
  Qcplus (cell_lo g h i) (Qcmult (qn k) (subsize g h k i)) = cell_hi g h i.
Proof. intros Hk. unfold subsize. field. apply qn_nz. exact Hk. Qed.

Lemma qn_pos k : 0 < k -> Qclt zero (qn k).
Proof.
  intros Hk. unfold Qclt, qn. cbn [this Q2Qc]. rewrite !Qred_correct. unfold Qlt. cbn. lia.
Qed.
Lemma subsize_pos g h k i : length g = length h -> sizes_pos h -> 0 < k -> i < length g -> Qclt zero (subsize g h k i).
Proof.
  intros L P Hk Hi. pose proof (pos_cell g h i L P Hi) as H. apply Qclt_minus_iff in H.
  unfold subsize. destruct (Qclt_le_dec zero (Qcdiv (Qcminus (cell_hi g h i) (cell_lo g h i)) (qn k))) as [X|X]; auto.
  exfalso. apply (Qcmult_le_compat_r _ _ (qn k)) in X; [|apply Qclt_le_weak, qn_pos, Hk].
  replace (Qcmult (Qcdiv (Qcminus (cell_hi g h i) (cell_lo g h i)) (qn k)) (qn k))
    with (Qcminus (cell_hi g h i) (cell_lo g h i)) in X by (field; apply qn_nz, Hk).
  rewrite Qcmult_0_l in X. exact (Qclt_not_le _ _ H X).
Qed.

Lemma up_sub_contig g h k i j : S j < k -> i < length g ->
  cell_hi (fst (upsam g h k)) (snd (upsam g h k)) (i * k + j) =
  cell_lo (fst (upsam g h k)) (snd (upsam g h k)) (S (i * k + j)).
Proof.
  intros Hj Hi. destruct (up_cell g h k i j) as [_ ->]; [lia|exact Hi|].
  replace (S (i * k + j)) with (i * k + S j) by lia.
  destruct (up_cell g h k i (S j)) as [-> _]; [lia|exact Hi|]. reflexivity.
Qed.

Lemma up_cover g h k p : length g = length h -> 0 < k -> sizes_pos h ->
  (covered (fst (upsam g h k)) (snd (upsam g h k)) p <-> covered g h p).
Proof.
  intros L Hk P. destruct (up_len g h k) as [L1 _]. unfold covered. rewrite L1.
  set (lo := cell_lo (fst (upsam g h k)) (snd (upsam g h k))).
  set (hi := cell_hi (fst (upsam g h k)) (snd (upsam g h k))).
  assert (CH : forall i, i < length g ->
     ((Qcle (cell_lo g h i) p /\ Qclt p (cell_hi g h i)) <->
      (exists j, i * k <= j <= i * k + (k - 1) /\ Qcle (lo j) p /\ Qclt p (hi j)))).
  { intros i Hi.
    assert (E1 : cell_lo g h i = lo (i * k)).
    { unfold lo. rewrite <- (Nat.add_0_r (i * k)). destruct (up_cell g h k i 0 Hk Hi) as [-> _]. rewrite qn_0. ring. }
    assert (E2 : cell_hi g h i = hi (i * k + (k - 1))).
    { unfold hi. destruct (up_cell g h k i (k - 1)) as [_ ->]; [lia|exact Hi|].
      replace (S (k - 1)) with k by lia. now rewrite up_block. }
    rewrite E1, E2. apply chain_cover.
    - intros j Hj. unfold lo, hi. replace j with (i * k + (j - i * k)) by lia. apply up_sub_contig; [lia|exact Hi].
    - intros j Hj. unfold lo, hi. replace j with (i * k + (j - i * k)) by lia.
      destruct (up_cell g h k i (j - i * k)) as [-> ->]; [lia|exact Hi|].
      rewrite qn_S. pose proof (subsize_pos g h k i L P Hk Hi) as S0.
      replace (Qcplus (cell_lo g h i) (Qcmult (Qcplus (qn (j - i * k)) (Q2Qc 1)) (subsize g h k i)))
        with (Qcplus (Qcplus (cell_lo g h i) (Qcmult (qn (j - i * k)) (subsize g h k i))) (subsize g h k i)) by ring.
      apply Qcle_minus_iff.
      match goal with |- Qcle _ ?t => replace t with (subsize g h k i) by ring end.
      now apply Qclt_le_weak. }
  split.
  - intros (j & Hj & Hp). exists (j / k).
    assert (Hi : j / k < length g) by (apply Nat.div_lt_upper_bound; [lia|]; rewrite Nat.mul_comm; exact Hj).
    split; [exact Hi|]. apply CH; [exact Hi|]. exists j. split; [|exact Hp].
    pose proof (Nat.div_mod j k ltac:(lia)). pose proof (Nat.mod_upper_bound j k ltac:(lia)). nia.
  - intros (i & Hi & Hp). apply (CH i Hi) in Hp. destruct Hp as (j & Hj & Hp). exists j.
    split; [nia|exact Hp].
Qed.

Lemma up_contiguous g h k : 0 < k -> contiguous g h ->
  contiguous (fst (upsam g h k)) (snd (upsam g h k)).
Proof.
  intros Hk C m Hm. destruct (up_len g h k) as [L1 _]. rewrite L1 in Hm.
  pose proof (Nat.div_mod m k ltac:(lia)) as DM. pose proof (Nat.mod_upper_bound m k ltac:(lia)) as MU.
  set (i := m / k) in *. set (j := m mod k) in *.
  assert (Hi : i < length g) by nia.
  replace m with (i * k + j) by nia.
  destruct (Nat.eq_dec (S j) k) as [Ej|Ej].
  - assert (Hi' : S i < length g) by nia.
    replace (S (i * k + j)) with (S i * k + 0) by nia.
    destruct (up_cell g h k i j MU Hi) as [_ ->]. destruct (up_cell g h k (S i) 0 Hk Hi') as [-> _].
    rewrite Ej, up_block, qn_0 by exact Hk. rewrite (C i Hi'). ring.
  - apply up_sub_contig; [lia|exact Hi].
Qed.

(** ** round trip *)
Lemma list_ext (a b : list Qc) : length a = length b -> (forall i, i < length a -> nth i a zero = nth i b zero) -> a = b.
Proof. intros L H. apply (nth_ext a b zero zero L). exact H. Qed.

Lemma up_int g h k : length g = length h -> 0 < k ->
  integ (fst (upsam g h k)) (snd (upsam g h k)) k = (g, h).
Proof.
  intros L Hk. destruct (up_len g h k) as [L1 L2].
  set (g' := fst (upsam g h k)) in *. set (h' := snd (upsam g h k)) in *.
  destruct (int_len g' h' k) as [M1 M2]. rewrite L1, Nat.div_mul in M1, M2 by lia.
  assert (X : forall i, i < length g ->
     nth i (fst (integ g' h' k)) zero = nth i g zero /\ nth i (snd (integ g' h' k)) zero = nth i h zero).
  { intros i Hi. assert (Hi' : i < length g' / k) by (rewrite L1, Nat.div_mul; lia).
    destruct (int_cell g' h' k i Hk Hi') as [E1 E2].
    rewrite <- (center_cell (fst (integ g' h' k)) (snd (integ g' h' k)) i).
    rewrite <- (size_cell (fst (integ g' h' k)) (snd (integ g' h' k)) i).
    destruct (up_cell g h k i 0 Hk Hi) as [F1 _]. rewrite Nat.add_0_r in F1.
    destruct (up_cell g h k i (k - 1)) as [_ F2]; [lia|exact Hi|].
    replace (S (k - 1)) with k in F2 by lia. rewrite up_block in F2 by exact Hk. rewrite qn_0 in F1.
    replace (Qcplus (cell_lo g h i) (Qcmult zero (subsize g h k i))) with (cell_lo g h i) in F1 by ring.
    fold g' h' in F1, F2. rewrite E1, E2, F1, F2.
    split; [apply center_cell|apply size_cell]. }
  destruct (integ g' h' k) as [gi hi]. cbn [fst snd] in *. f_equal.
  - apply list_ext; [exact M1|]. intros i Hi. rewrite M1 in Hi. now apply X.
  - apply list_ext; [congruence|]. intros i Hi. rewrite M2 in Hi. now apply X.
Qed.

(** ** regular grids *)
Lemma reg_nth x0 x1 n i : i < n ->
  nth i (rgrid x0 x1 n) zero =
    Qcplus (Qcplus x0 (Qcdiv (Qcdiv (Qcminus x1 x0) (qn n)) two)) (Qcmult (Qcdiv (Qcminus x1 x0) (qn n)) (qn i)) /\
  nth i (rsize x0 x1 n) zero = Qcdiv (Qcminus x1 x0) (qn n).
Proof.
  intros Hi. split.
  - unfold rgrid, regular_grid. rewrite nth_map_seq by exact Hi. reflexivity.
  - unfold rsize, regular_size.
    assert (R : forall (x : Qc) m, i < m -> nth i (repeat x m) zero = x).
    { intros x m. clear. revert m. induction i as [|j IH]; intros [|m] Hm; cbn; try lia; auto. apply IH. lia. }
    apply R. exact Hi.
Qed.
Lemma reg_cell x0 x1 n i : i < n ->
  cell_lo (rgrid x0 x1 n) (rsize x0 x1 n) i = Qcplus x0 (Qcmult (Qcdiv (Qcminus x1 x0) (qn n)) (qn i)) /\
  cell_hi (rgrid x0 x1 n) (rsize x0 x1 n) i = Qcplus x0 (Qcmult (Qcdiv (Qcminus x1 x0) (qn n)) (qn (S i))).
Proof.
  intros Hi. destruct (reg_nth x0 x1 n i Hi) as [E1 E2]. unfold cell_lo, cell_hi. rewrite E1, E2, qn_S.
  assert (N : qn n <> zero) by (apply qn_nz; lia).
  set (st := Qcdiv (Qcminus x1 x0) (qn n)). split; qfield.
Qed.

Lemma reg_tiles x0 x1 n : 0 < n ->
  length (rgrid x0 x1 n) = n /\ length (rsize x0 x1 n) = n /\
  contiguous (rgrid x0 x1 n) (rsize x0 x1 n) /\
  cell_lo (rgrid x0 x1 n) (rsize x0 x1 n) 0 = x0 /\
  cell_hi (rgrid x0 x1 n) (rsize x0 x1 n) (n - 1) = x1.
Proof.
  intros Hn. assert (Lg : length (rgrid x0 x1 n) = n) by (unfold rgrid, regular_grid; now rewrite map_length, seq_length).
  assert (Lh : length (rsize x0 x1 n) = n) by (unfold rsize, regular_size; now rewrite repeat_length).
  split; [exact Lg|]. split; [exact Lh|]. split; [|split].
  - intros i Hi. rewrite Lg in Hi. destruct (reg_cell x0 x1 n i) as [_ ->]; [lia|].
    destruct (reg_cell x0 x1 n (S i)) as [-> _]; [lia|]. reflexivity.
  - destruct (reg_cell x0 x1 n 0 Hn) as [-> _]. rewrite qn_0. ring.
  - destruct (reg_cell x0 x1 n (n - 1)) as [_ ->]; [lia|]. replace (S (n - 1)) with n by lia.
    field. apply qn_nz, Hn.
Qed.

Lemma abs_nonneg (x : Qc) : qc_ltb (nabs qc x) zero = false.
Proof.
  cbn [nabs qc]. destruct (qc_ltb x zero) eqn:E; auto.
  apply qc_ltb_lt in E. destruct (qc_ltb (Qcopp x) zero) eqn:F; auto.
  apply qc_ltb_lt in F. exfalso.
  apply Qclt_le_weak in F. apply Qcopp_le_compat in F.
  replace (Qcopp (Qcopp x)) with x in F by ring. replace (Qcopp zero) with zero in F by ring.
  exact (Qclt_not_le _ _ E F).
Qed.

Lemma no_differ (x : list Qc) (a : Qc) : ~ differ qc (tolerance qc x) a a.
Proof.
  unfold differ. cbn [nltb nsub qc]. replace (Qcminus a a) with zero by ring.
  change (nabs qc zero) with zero. unfold tolerance. intros H. apply qc_ltb_lt in H.
  set (d := nsub qc _ _) in H. pose proof (abs_nonneg d) as N.
  cbn [nmul qc n1em10] in H.
  assert (G : Qcle zero (nabs qc d)).
  { destruct (Qclt_le_dec (nabs qc d) zero) as [X|X]; auto. apply qc_ltb_lt in X. congruence. }
  assert (T : Qcle zero (Q2Qc (1 # 10000000000))) by (unfold Qcle; cbn; discriminate).
  pose proof (Qcmult_le_compat_r zero (nabs qc d) (Q2Qc (1 # 10000000000)) G T) as X.
  rewrite Qcmult_0_l in X. exact (Qclt_not_le _ _ H X).
Qed.

Lemma segments_good_qc (x h : list Qc) : @length Qc x = @length Qc h -> 0 < @length Qc x ->
  exists l, segments qc x h = map (fun p => (Z.of_nat (fst p), Z.of_nat (snd p))) l /\
    partition_of (@length Qc x) l /\ (forall p, In p l -> uniform qc (tolerance qc x) x h p) /\
    boundaries_justified qc (tolerance qc x) x h l.
Proof. exact (segments_good qc x h). Qed.

Lemma reg_segments x0 x1 n : 0 < n ->
  segments qc (rgrid x0 x1 n) (rsize x0 x1 n) = [(0, Z.of_nat n - 1)%Z].
Proof.
  intros Hn. destruct (reg_tiles x0 x1 n Hn) as (Lg & Lh & _).
  set (g := rgrid x0 x1 n) in *. set (h := rsize x0 x1 n) in *.
  destruct (segments_good_qc g h) as (l & E & [P1 P2] & _ & J); [congruence|rewrite Lg; exact Hn|].
  rewrite Lg in P1. rewrite E.
  assert (IN : forall p, In p l -> snd p < n).
  { intros p Hp. assert (X : In (snd p) (seq 0 n)).
    { rewrite <- P1. apply in_flat_map. exists p. split; [exact Hp|]. specialize (P2 p Hp). apply in_seq. lia. }
    apply in_seq in X. lia. }
  assert (DX : forall i, 0 < i < n -> spacing qc g i = Qcdiv (Qcminus x1 x0) (qn n)).
  { intros i Hi.
    change (Qcminus (@nth Qc i g zero) (@nth Qc (i - 1) g zero) = Qcdiv (Qcminus x1 x0) (qn n)).
    destruct (reg_nth x0 x1 n i) as [E1 _]; [lia|]. destruct (reg_nth x0 x1 n (i - 1)) as [E2 _]; [lia|].
    unfold g. rewrite E1, E2. replace (qn i) with (Qcplus (qn (i - 1)) (Q2Qc 1)) by (rewrite <- qn_S; f_equal; lia).
    set (st := Qcdiv (Qcminus x1 x0) (qn n)). qfield. }
  assert (HX : forall i, i < n -> at_ qc h i = Qcdiv (Qcminus x1 x0) (qn n)).
  { intros i Hi. destruct (reg_nth x0 x1 n i Hi) as [_ E2]. exact E2. }
  destruct l as [|p [|q l]].
  - cbn in P1. destruct n; [lia|discriminate].
  - cbn [map flat_map] in *. rewrite app_nil_r in P1. pose proof (P2 p (or_introl eq_refl)) as Q.
    assert (LL : S (snd p) - fst p = n) by (rewrite <- (seq_length n 0), <- P1, seq_length; reflexivity).
    assert (F0 : fst p = 0).
    { rewrite LL in P1. destruct n; [lia|]. cbn in P1. congruence. }
    rewrite F0 in *. do 2 f_equal. lia.
  - exfalso. pose proof (J [] p q l eq_refl) as X.
    assert (Hq : fst q < n). { pose proof (P2 q (or_intror (or_introl eq_refl))). pose proof (IN q (or_intror (or_introl eq_refl))). lia. }
    assert (Hp : fst p < n). { pose proof (P2 p (or_introl eq_refl)). pose proof (IN p (or_introl eq_refl)). lia. }
    assert (Hsp : snd p < n) by (apply IN; now left).
    destruct X as [X|[X0 X]].
    + rewrite !HX in X by auto. exact (no_differ g _ X).
    + assert (Hq0 : 0 < fst q).
      { cbn [flat_map] in P1. pose proof (P2 p (or_introl eq_refl)) as Q.
        destruct (S (snd p) - fst p) as [|m] eqn:M; [lia|].
        destruct n; [lia|]. cbn [seq app] in P1. injection P1 as F P1.
        destruct (Nat.eq_dec (fst q) 0) as [Z0|]; [|lia]. exfalso.
        assert (In 0 (seq 1 n)).
        { rewrite <- P1. apply in_or_app. right. apply in_or_app. left. rewrite Z0. apply in_seq. lia. }
        apply in_seq in H. lia. }
      rewrite !DX in X by lia. exact (no_differ g _ X).
Qed.
