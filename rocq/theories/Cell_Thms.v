(** Theorems about Cells (C26-C28, C52-C55). *)
From Coq Require Import QArith Qcanon SpecFloat.
From Verif Require Import Base Flt_Model Dom_Model Dom_Spec Dom_Proofs Dom_Thms Cell_Model Cell_Spec Cell_Proofs Cell_Qc Cell_Hist.
Local Close Scope Qc_scope. Local Close Scope Q_scope.

(** ** C26: segments *)
(** Over any arithmetic (so for binary64 too), after the cells of an axis have
    been set from arrays, the segments are a partition into uniform runs, and
    no boundary is superfluous. *)
Theorem segments_partition_uniform : forall (A : arith) (c c' : cells A) (i : nat) (x h : list (num A)),
  length (c_ax A c) = MaxAxis -> x <> [] -> setCells A c (Z.of_nat i) x h = Ok c' ->
  exists l : list (nat * nat),
    x_ss A (axis_of A c' i) = whole (map (fun p => Z.of_nat (fst p)) l) /\
    x_se A (axis_of A c' i) = whole (map (fun p => Z.of_nat (snd p)) l) /\
    center A c' i = x /\ cellSize A c' i = h /\
    partition_of (length x) l /\
    (forall p, In p l -> uniform A (tolerance A x) x h p) /\
    boundaries_justified A (tolerance A x) x h l.
Proof.
  intros A c c' i x h L N E. unfold setCells in E.
  destruct ((Z.of_nat i <? 0)%Z || (Z.of_nat MaxAxis <=? Z.of_nat i)%Z || negb (length x =? length h)) eqn:C; [discriminate|].
  injection E as <-. rewrite Nat2Z.id.
  apply orb_false_iff in C. destruct C as [C C3]. apply negb_false_iff, Nat.eqb_eq in C3.
  assert (Hi : i < MaxAxis) by (unfold MaxAxis in *; lia).
  destruct (segments_good A x h C3) as (l & E & P & U & J).
  { destruct x; [contradiction|cbn; lia]. }
  exists l. unfold center, cellSize. rewrite (store_ax A c i x h _ i L Hi N), Nat.eqb_refl, E. cbn [x_ss x_se x_grid x_size].
  rewrite !map_map. cbn [fst snd]. auto 10.
Qed.
Print Assumptions segments_partition_uniform.

(** In exact arithmetic a regular grid is a single segment, whichever way it is set. *)
Theorem regular_one_segment : forall (x0 x1 : Qc) (n : nat), 0 < n ->
  segments qc (regular_grid qc x0 x1 n) (regular_size qc x0 x1 n None) = [(0, Z.of_nat n - 1)%Z].
Proof. exact reg_segments. Qed.
Print Assumptions regular_one_segment.

(** Ten cells of 0.1 s at a present-day time (4.8e9 s): in binary64 they are
    split into five segments. *)
Definition g48 := regular_grid b64 (fi 4800000000) (fi 4800000001) 10.
Definition h48 := regular_size b64 (fi 4800000000) (fi 4800000001) 10 None.
Theorem regular_one_segment_refuted : exists (x0 x1 : spec_float) (n : nat), 0 < n /\
  segments b64 (regular_grid b64 x0 x1 n) (regular_size b64 x0 x1 n None) <> [(0, Z.of_nat n - 1)%Z].
Proof.
  exists (fi 4800000000), (fi 4800000001), 10. split; [lia|].
  assert (E : length (segments b64 g48 h48) = 5) by (vm_compute; reflexivity).
  unfold g48, h48 in E. intros X. rewrite X in E. clear X. discriminate E.
Qed.
Print Assumptions regular_one_segment_refuted.

(** The regular setCells declares one segment without looking, so its segment
    is not uniform within the tolerance. *)
Theorem regular_segment_uniform_refuted : exists (x0 x1 : spec_float) (n : nat),
  ~ uniform b64 (tolerance b64 (regular_grid b64 x0 x1 n)) (regular_grid b64 x0 x1 n)
      (regular_size b64 x0 x1 n None) (0, n - 1).
Proof.
  exists (fi 4800000000), (fi 4800000001), 10. intros [_ H].
  apply (H 2); [cbn; lia|]. unfold differ. vm_compute. reflexivity.
Qed.
Print Assumptions regular_segment_uniform_refuted.

Example ex_segments :
  segments b64 [fi 0; fi 1; fi 2; fi 5; fi 6] (repeat (fi 1) 5) = [(0, 2); (3, 4)]%Z /\
  segments b64 [fi 0; fi 1; fi 2; fi 3] [fi 1; fi 1; fi 2; fi 2] = [(0, 1); (2, 3)]%Z.
Proof. vm_compute. split; reflexivity. Qed.

(** ** C27: comparison *)
Lemma sf_bit_sym a b : sf_bit a b = sf_bit b a.
Proof.
  destruct (sf_bit a b) eqn:E, (sf_bit b a) eqn:F; auto.
  - apply sf_bit_eq in E. subst. rewrite (proj2 (sf_bit_eq b b) eq_refl) in F. exact F.
  - apply sf_bit_eq in F. subst. rewrite (proj2 (sf_bit_eq a a) eq_refl) in E. symmetry. exact E.
Qed.
Lemma dom_eqb_refl (d : domain b64) : dom_eqb b64 d d = true.
Proof. unfold dom_eqb. apply forallb_forall. intros i _. apply andb_true_iff. split; now apply sf_bit_eq. Qed.
Lemma dom_eqb_sym (a b : domain b64) : dom_eqb b64 a b = dom_eqb b64 b a.
Proof.
  unfold dom_eqb. induction (seq 0 MaxAxis) as [|i l IH]; [reflexivity|]. cbn [forallb]. rewrite IH. f_equal.
  cbn [nbit b64]. now rewrite (sf_bit_sym (start _ a i)), (sf_bit_sym (stop _ a i)).
Qed.
Lemma zl_refl l : z_list_eqb l l = true.
Proof. induction l; cbn; auto. now rewrite Z.eqb_refl. Qed.
Lemma zl_sym a : forall b, z_list_eqb a b = z_list_eqb b a.
Proof. induction a as [|x a IH]; intros [|y b]; cbn; auto. now rewrite IH, Z.eqb_sym. Qed.

(** For cells that have a domain. *)
Theorem cells_compare_partial : forall a b : cells b64, c_dom b64 a <> None -> c_dom b64 b <> None ->
  compare b64 a a = 0%Z /\ compare b64 a b = compare b64 b a.
Proof.
  intros a b Ha Hb. unfold compare. destruct (c_dom b64 a) as [da|]; [|contradiction].
  destruct (c_dom b64 b) as [db|]; [|contradiction]. split.
  - now rewrite dom_eqb_refl, zl_refl.
  - now rewrite (dom_eqb_sym da), (zl_sym (c_shape b64 a)).
Qed.
Print Assumptions cells_compare_partial.

(** Empty cells: unequal to themselves, "equal" to every non-empty cells, and
    not symmetric. *)
Theorem cells_compare_refuted : forall a b e : cells b64, c_dom b64 a <> None -> c_dom b64 b = None -> c_dom b64 e = None ->
  compare b64 b e = 1%Z /\ compare b64 b a = 0%Z /\ compare b64 a b = (-1)%Z.
Proof.
  intros a b e Ha Hb He. unfold compare. rewrite Hb, He. destruct (c_dom b64 a); [auto|contradiction].
Qed.
Print Assumptions cells_compare_refuted.

(** A result of 0 does not mean the grids agree. *)
Definition mk1 (g h : list spec_float) : res (cells b64) :=
  bind (setCells b64 (cells_new b64) 0 g h) (fun c => Ok (recomputeDomain b64 c)).
Definition cmp_res (r1 r2 : res (cells b64)) : option Z :=
  match r1, r2 with Ok a, Ok b => Some (compare b64 a b) | _, _ => None end.
Definition lo1 (r : res (cells b64)) : option spec_float :=
  match r with Ok a => Some (nth 1 (center b64 a 0) (fi 0)) | _ => None end.
Definition cga := mk1 [fi 1; fi 3; fi 5] [fi 2; fi 2; fi 2].
Definition cgb := mk1 [fi 1; fi 4; fi 5] [fi 2; fi 2; fi 2].
Theorem compare_zero_same_grid_refuted : exists a b : cells b64,
  cbuilt b64 a /\ cbuilt b64 b /\ compare b64 a b = 0%Z /\ center b64 a 0 <> center b64 b 0.
Proof.
  assert (E : cmp_res cga cgb = Some 0%Z) by (vm_compute; reflexivity).
  assert (E1 : lo1 cga = Some (fi 3)) by (vm_compute; reflexivity).
  assert (E2 : lo1 cgb = Some (fi 4)) by (vm_compute; reflexivity).
  unfold cga, cgb, mk1 in *.
  destruct (setCells b64 (cells_new b64) 0 [fi 1; fi 3; fi 5] [fi 2; fi 2; fi 2]) as [a| |] eqn:Ea; try discriminate.
  destruct (setCells b64 (cells_new b64) 0 [fi 1; fi 4; fi 5] [fi 2; fi 2; fi 2]) as [b| |] eqn:Eb; try discriminate.
  cbn [bind cmp_res lo1] in E, E1, E2.
  exists (recomputeDomain b64 a), (recomputeDomain b64 b). repeat split.
  - apply cb_dom. eapply cb_set; [apply cb_new| |exact Ea]. discriminate.
  - apply cb_dom. eapply cb_set; [apply cb_new| |exact Eb]. discriminate.
  - congruence.
  - intros X. rewrite X in E1. assert (Y : Some (fi 3) = Some (fi 4)) by (rewrite <- E1, <- E2; reflexivity).
    vm_compute in Y. discriminate.
Qed.
Print Assumptions compare_zero_same_grid_refuted.

Example ex_compare : cmp_res cga cga = Some 0%Z /\ cmp_res cga (Ok (cells_new b64)) = Some (-1)%Z /\
  cmp_res (Ok (cells_new b64)) cga = Some 0%Z.
Proof. vm_compute. auto. Qed.

(** ** C28: resampling, exact arithmetic *)
Theorem upsample_coverage : forall (g h : list Qc) (k : nat), length g = length h -> 0 < k -> sizes_pos h ->
  let (g', h') := upsam g h k in
  length g' = length g * k /\ length h' = length g * k /\
  (forall p, covered g' h' p <-> covered g h p) /\
  (contiguous g h -> contiguous g' h').
Proof.
  intros g h k L K P. destruct (upsam g h k) as [g' h'] eqn:E.
  destruct (up_len g h k) as [L1 L2]. pose proof (fun p => up_cover g h k p L K P) as C.
  pose proof (up_contiguous g h k K) as Q. rewrite E in *. cbn [fst snd] in *. auto.
Qed.
Print Assumptions upsample_coverage.

Theorem integrate_coverage : forall (g h : list Qc) (k : nat), length g = length h -> 0 < k -> Nat.divide k (length g) ->
  contiguous g h -> sizes_pos h ->
  let (g', h') := integ g h k in
  length g' = length g / k /\ length h' = length g / k /\
  (forall p, covered g' h' p <-> covered g h p) /\ contiguous g' h'.
Proof.
  intros g h k L K D C P. destruct (integ g h k) as [g' h'] eqn:E.
  destruct (int_len g h k) as [L1 L2]. pose proof (fun p => int_cover g h k p L K D C P) as Q.
  pose proof (int_contiguous g h k K C) as R. rewrite E in *. cbn [fst snd] in *. auto.
Qed.
Print Assumptions integrate_coverage.

Theorem upsample_integrate_identity : forall (g h : list Qc) (k : nat), length g = length h -> 0 < k ->
  let (g', h') := upsam g h k in integ g' h' k = (g, h).
Proof.
  intros g h k L K. pose proof (up_int g h k L K) as U. destruct (upsam g h k) as [g' h']. exact U.
Qed.
Print Assumptions upsample_integrate_identity.

(** With binary64 the identity fails: the single cell [0,1], factor 3. *)
Definition sf0 (r : list spec_float * list spec_float) : spec_float := nth 0 (fst r) (fi 0).
Theorem upsample_integrate_identity_refuted : exists (g h : list spec_float) (k : nat), length g = length h /\ 0 < k /\
  integrate b64 (fst (upsample b64 g h k)) (snd (upsample b64 g h k)) k <> (g, h).
Proof.
  exists (regular_grid b64 (fi 0) (fi 1) 1), (regular_size b64 (fi 0) (fi 1) 1 None), 3.
  split; [reflexivity|]. split; [lia|]. intros X. apply (f_equal sf0) in X.
  match type of X with ?l = ?r => assert (Y : sf_bit l r = false) by (vm_compute; reflexivity) end.
  rewrite X in Y. apply Bool.not_true_iff_false in Y. apply Y. now apply sf_bit_eq.
Qed.
Print Assumptions upsample_integrate_identity_refuted.

(** A factor that does not divide the number of cells drops the cells left over. *)
Theorem integrate_remainder_refuted : exists (g h : list Qc) (k : nat) (p : Qc),
  length g = length h /\ 0 < k /\ contiguous g h /\ sizes_pos h /\
  covered g h p /\ ~ covered (fst (integ g h k)) (snd (integ g h k)) p.
Proof.
  destruct (reg_tiles (Q2Qc 0) (Q2Qc 3) 3 ltac:(lia)) as (L1 & L2 & C & _ & _).
  exists (rgrid (Q2Qc 0) (Q2Qc 3) 3), (rsize (Q2Qc 0) (Q2Qc 3) 3), 2, (Q2Qc (5 # 2)).
  split; [congruence|]. split; [lia|]. split; [exact C|]. split.
  { intros x Hx. unfold rsize in Hx. apply repeat_spec in Hx. subst x. vm_compute. reflexivity. }
  split.
  - exists 2. split; [rewrite L1; lia|]. split; vm_compute; [discriminate|reflexivity].
  - intros (i & Hi & _ & H). destruct (int_len (rgrid (Q2Qc 0) (Q2Qc 3) 3) (rsize (Q2Qc 0) (Q2Qc 3) 3) 2) as [M _].
    rewrite M, L1 in Hi. assert (i = 0) by (change (3 / 2) with 1 in Hi; lia). subst i. vm_compute in H. discriminate.
Qed.
Print Assumptions integrate_remainder_refuted.

Example ex_resample : upsam [Q2Qc 1; Q2Qc 3] [Q2Qc 2; Q2Qc 2] 2 =
    ([Q2Qc (1 # 2); Q2Qc (3 # 2); Q2Qc (5 # 2); Q2Qc (7 # 2)], repeat (Q2Qc 1) 4) /\
  integ [Q2Qc 1; Q2Qc 3] [Q2Qc 2; Q2Qc 2] 2 = ([Q2Qc 2], [Q2Qc 4]).
Proof.
  assert (X : forall (a b : list Qc), length a = length b -> forallb (fun p => Qc_eq_bool (fst p) (snd p)) (combine a b) = true -> a = b).
  { induction a as [|x a IH]; intros [|y b] L H; try discriminate; auto. cbn in H. apply andb_true_iff in H. destruct H as [H1 H2].
    apply Qc_eq_bool_correct in H1. f_equal; auto. }
  split; [destruct (upsam _ _ _) as [a b] eqn:E|destruct (integ _ _ _) as [a b] eqn:E];
    injection E as <- <-; f_equal; apply X; vm_compute; reflexivity.
Qed.

(** ** C52: regular grids tile their interval (exact arithmetic) *)
Theorem regular_grid_tiles : forall (x0 x1 : Qc) (n : nat), 0 < n -> Qclt x0 x1 ->
  length (rgrid x0 x1 n) = n /\ length (rsize x0 x1 n) = n /\
  contiguous (rgrid x0 x1 n) (rsize x0 x1 n) /\
  forall p, covered (rgrid x0 x1 n) (rsize x0 x1 n) p <-> Qcle x0 p /\ Qclt p x1.
Proof.
  intros x0 x1 n N LT. destruct (reg_tiles x0 x1 n N) as (L1 & L2 & C & E0 & E1).
  split; [exact L1|]. split; [exact L2|]. split; [exact C|]. intros p.
  set (lo := cell_lo (rgrid x0 x1 n) (rsize x0 x1 n)) in *. set (hi := cell_hi (rgrid x0 x1 n) (rsize x0 x1 n)) in *.
  assert (PS : sizes_pos (rsize x0 x1 n)).
  { intros x Hx. unfold rsize in Hx. apply repeat_spec in Hx. subst x.
    change (Qclt zero (Qcdiv (Qcminus x1 x0) (qn n))).
    apply Qclt_minus_iff in LT. change (Qclt zero (Qcplus x1 (Qcopp x0))) in LT.
    destruct (Qclt_le_dec zero (Qcdiv (Qcminus x1 x0) (qn n))) as [X|X]; auto.
    exfalso. apply (Qcmult_le_compat_r _ _ (qn n)) in X; [|apply Qclt_le_weak, qn_pos, N].
    replace (Qcmult (Qcdiv (Qcminus x1 x0) (qn n)) (qn n)) with (Qcplus x1 (Qcopp x0)) in X by (field; apply qn_nz, N).
    replace (Qcmult zero (qn n)) with zero in X by ring. exact (Qclt_not_le _ _ LT X). }
  pose proof (chain_cover lo hi 0 (n - 1) p) as CC. cbn [plus] in CC. rewrite E0, E1 in CC.
  rewrite CC.
  - unfold covered. rewrite L1. fold lo hi. split; intros (j & Hj & H); exists j; (split; [lia|exact H]).
  - intros j Hj. apply C. rewrite L1. lia.
  - intros j Hj. apply Qclt_le_weak, pos_cell; [congruence|exact PS|rewrite L1; lia].
Qed.
Print Assumptions regular_grid_tiles.
Example ex_tiles : covered (rgrid (Q2Qc 0) (Q2Qc 1) 3) (rsize (Q2Qc 0) (Q2Qc 1) 3) (Q2Qc (1 # 2)) /\
  ~ covered (rgrid (Q2Qc 0) (Q2Qc 1) 3) (rsize (Q2Qc 0) (Q2Qc 1) 3) (Q2Qc 1).
Proof.
  destruct (regular_grid_tiles (Q2Qc 0) (Q2Qc 1) 3 ltac:(lia) ltac:(vm_compute; reflexivity)) as (_ & _ & _ & H).
  rewrite !H. split; [split; vm_compute; [discriminate|reflexivity]|]. intros [_ X]. vm_compute in X. discriminate.
Qed.

(** ** C53: copies *)
(** The grids, sizes, shape and domain of a copy are those of the original... *)
Theorem cells_copy_partial : forall (A : arith) (c : cells A), cbuilt A c ->
  exists c', clone_cells A (recomputeDomain A c) = Ok c' /\
    c_dom A c' = c_dom A (recomputeDomain A c) /\
    forall i, ncells A c' i = ncells A c i /\ c_isDefined A c' i = c_isDefined A c i /\
      center A c' i = center A c i /\ cellSize A c' i = cellSize A c i.
Proof.
  intros A c B. destruct (clone_built A c B) as (c' & E & (_ & _ & D & H)). exists c'. split; [exact E|]. split; [exact D|].
  intros i. destruct (H i) as [H1 H2]. destruct (Nat.ltb_spec i MaxAxis) as [L|L].
  - destruct (H2 L) as (X1 & X2 & X3 & X4 & _). auto.
  - destruct (H1 L) as [X1 X2]. pose proof (cbuilt_inv A c B) as I. pose proof I as (I1 & I2 & I3 & I4).
    assert (Di : c_isDefined A c i = false).
    { unfold c_isDefined. apply nth_overflow. unfold rank, same_len in *. lia. }
    destruct (undef_empty A c i I Di) as (U1 & U2 & U3).
    unfold ncells at 1, center at 1, cellSize at 1. rewrite X1, X2, U1, U2, U3, Di. auto.
Qed.
Print Assumptions cells_copy_partial.

(** ...but whenever an axis has fewer segments than cells, the copy has as many
    segments as cells, and reading the last of them is out of bounds. *)
Theorem cells_copy_segments_refuted : forall (A : arith) (c : cells A) (i : nat), cbuilt A c ->
  numSegments A c i < length (center A c i) ->
  exists c', clone_cells A (recomputeDomain A c) = Ok c' /\
    numSegments A c' i = length (center A c i) /\
    v_get (x_ss A (axis_of A c' i)) (numSegments A c' i - 1) = UB.
Proof.
  intros A c i B N. destruct (clone_built A c B) as (c' & E & (_ & _ & D & H)). exists c'. split; [exact E|].
  pose proof (cbuilt_inv A c B) as I. pose proof I as (I1 & I2 & I3 & I4).
  destruct (I4 i) as [[X _]|(ss & se & _ & Vs & _ & _ & G & _ & Di & _)].
  { unfold center in N. rewrite X in N. cbn in N. lia. }
  destruct (def_nonempty A c i I Di) as (_ & _ & _ & Hi).
  destruct (H i) as [_ H2]. destruct (H2 Hi) as (_ & _ & _ & _ & _ & X5 & X6).
  change (numSegments A c' i = length (center A c i)) in X5.
  split; [exact X5|]. unfold v_get. rewrite X6. change (axis_of A (recomputeDomain A c) i) with (axis_of A c i).
  assert (NE : nth_error (v_data (x_ss A (axis_of A c i))) (numSegments A c' i - 1) = None).
  { apply nth_error_None. rewrite X5. unfold numSegments in N. rewrite Vs in *. cbn [whole v_size v_data] in *. lia. }
  now rewrite NE.
Qed.
Print Assumptions cells_copy_segments_refuted.

Definition c3 := setCells_regular b64 (cells_new b64) 0 (fi 0) (fi 3) 3 None.
Example ex_copy : exists c, cbuilt b64 c /\ numSegments b64 c 0 = 1 /\ length (center b64 c 0) = 3.
Proof.
  destruct c3 as [c| |] eqn:E.
  - exists c. split; [eapply cb_reg; [apply cb_new| |exact E]; lia|].
    unfold c3, setCells_regular in E. cbn [orb Z.ltb Z.compare] in E.
    injection E as <-. split; reflexivity.
  - discriminate.
  - discriminate.
Qed.

(** ** C54: supersets *)
Theorem cells_superset_union : forall (A : arith) (a b : cells A), cbuilt A a -> cbuilt A b ->
  match superset A a b with
  | r_a _ => c_dom A b = None \/ forall i, ncells A b i <> 0%Z -> ncells A a i = ncells A b i
  | r_b _ => c_dom A a = None \/ forall i, ncells A a i <> 0%Z -> ncells A b i = ncells A a i
  | r_new _ c =>
      (forall i, c_isDefined A a i = true -> center A c i = center A a i /\ cellSize A c i = cellSize A a i) /\
      (forall i, c_isDefined A a i = false -> center A c i = center A b i /\ cellSize A c i = cellSize A b i) /\
      (forall i, ncells A a i <> 0%Z -> ncells A b i <> 0%Z -> ncells A a i = ncells A b i)
  | r_none _ => exists da db i, c_dom A a = Some da /\ c_dom A b = Some db /\ ncells A a i <> 0%Z /\ ncells A b i <> 0%Z /\
      (ncells A a i <> ncells A b i \/ neqb A (start A da i) (start A db i) = false \/
       neqb A (stop A da i) (stop A db i) = false)
  end.
Proof.
  intros A a b Ba Bb. pose proof (cbuilt_inv A a Ba) as Ia. pose proof (cbuilt_inv A b Bb) as Ib.
  pose proof (superset_spec A a b Ia Ib) as S. destruct (superset A a b) as [| | |c]; auto.
  destruct S as [S1 S2]. split; [|split; [|exact S2]].
  - intros i D. specialize (S1 i). unfold pick in S1. rewrite D in S1. injection S1 as E1 E2. auto.
  - intros i D. specialize (S1 i). unfold pick in S1. rewrite D in S1.
    destruct (c_isDefined A b i) eqn:Db.
    + injection S1 as E1 E2. auto.
    + destruct (undef_empty A b i Ib Db) as (-> & -> & _). injection S1 as E1 E2. auto.
Qed.
Print Assumptions cells_superset_union.

(** ** C55: resampling that changes nothing *)
(** Already the default construction [resample c (repeat op_none 8)], of cells
    with two axes: the shape becomes rank 8 and compare() says "different". *)
Definition c2 : res (cells b64) :=
  bind (setCells_regular b64 (cells_new b64) 0 (fi 0) (fi 4) 4 None) (fun c =>
  bind (setCells_regular b64 c 1 (fi 0) (fi 2) 2 None) (fun c => Ok (recomputeDomain b64 c))).
Definition c2r : res (cells b64) := bind c2 (fun c => resample b64 c (repeat op_none MaxAxis)).
Theorem resample_noop_refuted : exists c c' : cells b64, cbuilt b64 c /\
  resample b64 c (repeat op_none MaxAxis) = Ok c' /\
  (forall i, center b64 c' i = center b64 c i) /\ compare b64 c c' <> 0%Z.
Proof.
  assert (E : cmp_res c2 c2r = Some 1%Z) by (vm_compute; reflexivity).
  unfold c2r, c2 in E.
  destruct (setCells_regular b64 (cells_new b64) 0 (fi 0) (fi 4) 4 None) as [ca| |] eqn:Ea; try discriminate.
  cbn [bind] in E.
  destruct (setCells_regular b64 ca 1 (fi 0) (fi 2) 2 None) as [cb| |] eqn:Eb; try discriminate.
  cbn [bind cmp_res] in E.
  destruct (resample b64 (recomputeDomain b64 cb) (repeat op_none MaxAxis)) as [c'| |] eqn:Er; try discriminate.
  exists (recomputeDomain b64 cb), c'.
  split. { apply cb_dom. eapply cb_reg; [eapply cb_reg; [apply cb_new| |exact Ea]; lia| |exact Eb]. lia. }
  split; [exact Er|]. split.
  - unfold setCells_regular in Ea, Eb. cbn [orb Z.ltb Z.compare] in Ea, Eb.
    injection Ea as <-. injection Eb as <-. injection Er as <-.
    intros i. do 9 (destruct i as [|i]; [reflexivity|]). reflexivity.
  - injection E as ->. discriminate.
Qed.
Print Assumptions resample_noop_refuted.
