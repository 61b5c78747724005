(** Proofs about the evaluation of Polc. *)
From Coq Require Import QArith Qcanon.
From Verif Require Import Base Polc_Model Polc_Spec Polc_Alg Vel_Spec.
Close Scope Q_scope. Local Open Scope Qc_scope. Local Open Scope nat_scope.

Lemma qltb_false x y : Qcle y x -> qltb x y = false.
Proof. intros H. unfold qltb. destruct (Qccompare x y) eqn:E; try reflexivity. apply Qclt_alt in E. exfalso. apply Qclt_not_le in E. auto. Qed.
Lemma qltb_true x y : qltb x y = true <-> Qclt x y.
Proof. unfold qltb. rewrite Qclt_alt. destruct (Qccompare x y); split; congruence. Qed.
Lemma qeqb_eq x y : qeqb x y = true <-> x = y.
Proof. unfold qeqb. rewrite Qceq_alt. destruct (Qccompare x y); split; congruence. Qed.
Lemma qeqb_dec x y : qeqb x y = if Qc_eq_dec x y then true else false.
Proof.
  destruct (Qc_eq_dec x y) as [E|N]; [apply qeqb_eq, E|]. destruct (qeqb x y) eqn:E; [apply qeqb_eq in E; contradiction|reflexivity].
Qed.

Definition nx (f : funklet) := nth 0 (f_shape f) 1.
Definition ny (f : funklet) := nth 1 (f_shape f) 1.
(** one or two axes, and as many coefficients as the shape says *)
Definition proper_polc (f : funklet) : Prop :=
  (length (f_shape f) = 1 \/ length (f_shape f) = 2) /\ 1 <= nx f /\ 1 <= ny f /\ length (f_coeff f) = nx f * ny f.
Definition rel (f : funklet) (i : nat) (X : Qc) : Qc := relative (nth i (f_off f) q0) (nth i (f_scl f) q0) X.
(** the polynomial as a function of physical coordinates *)
Definition polc_at (f : funklet) (X Y : Qc) : Qc := poly (nx f) (ny f) (f_coeff f) (rel f 0 X) (rel f 1 Y).

Lemma normalise_rel f i x : normalise f i x = rel f i x.
Proof.
  unfold normalise, rel, relative. rewrite qeqb_dec. destruct (Qc_eq_dec _ _) as [E|N].
  - unfold Qcdiv. replace (Qcinv q1) with q1; [reflexivity|]. apply Qc_is_canon. reflexivity.
  - unfold Qcdiv. ring.
Qed.

Definition ctr (c : cells) (a : nat) : list Qc := match c_center c a with Some g => g | None => [] end.
(** axis [i] of the polynomial is an axis of the cells, and the cells are within its domain *)
Definition axis_ok (f : funklet) (c : cells) (i : nat) : Prop :=
  exists a, nth_error (f_axes f) i = Some a /\ a < c_rank c /\ (exists x g, c_center c a = Some (x :: g))
    /\ i < length (f_off f) /\ i < length (f_scl f)
    /\ Qcle (d_start (domain f) i) (c_start c i) /\ Qcle (c_stop c i) (d_stop (domain f) i).
Definition axes_ok (f : funklet) (c : cells) : Prop :=
  (1 < nx f -> axis_ok f c 0) /\ (1 < ny f -> axis_ok f c 1)
  /\ (1 < nx f -> 1 < ny f -> nth 0 (f_axes f) 0 < nth 1 (f_axes f) 0).

Lemma clip_covered f c i g : Qcle (d_start (domain f) i) (c_start c i) -> Qcle (c_stop c i) (d_stop (domain f) i) -> clip f c i g = Ok (Some g).
Proof. intros A B. unfold clip. rewrite (qltb_false _ _ A), (qltb_false _ _ B). reflexivity. Qed.

(** one axis *)
Lemma grids_one axf f c i n cshape sh : 1 < n -> axis_ok f c i ->
  exists a, nth_error (f_axes f) i = Some a /\ a < c_rank c /\ ctr c a <> [] /\
  grids axf f c i (n :: cshape) sh =
  bind (grids axf f c (S i) cshape (set_nth sh a (Z.of_nat (length (ctr c a))))) (fun r =>
    Ok (option_map (fun '(gs, sh) => (map (fun x => rel f i (axf a x)) (ctr c a) :: gs, sh)) r)).
Proof.
  intros N (a & Ea & La & (x & g & Ec) & Lo & Ls & D1 & D2). exists a.
  assert (C : ctr c a = x :: g) by (unfold ctr; rewrite Ec; reflexivity).
  split; [exact Ea|]. split; [exact La|]. split; [rewrite C; discriminate|].
  cbn [grids]. replace (Nat.ltb 1 n) with true by (symmetry; apply Nat.ltb_lt; exact N). rewrite Ea, Ec, (clip_covered f c i _ D1 D2).
  cbn [bind]. replace (Nat.leb (length (f_off f)) i) with false by (symmetry; apply Nat.leb_gt; lia).
  replace (Nat.leb (length (f_scl f)) i) with false by (symmetry; apply Nat.leb_gt; lia).
  replace (Nat.leb (c_rank c) a) with false by (symmetry; apply Nat.leb_gt; lia). cbn [orb].
  rewrite C, !map_length, map_map.
  replace (Z.max (Z.of_nat (length (x :: g))) 1) with (Z.of_nat (length (x :: g))) by (cbn [length]; lia).
  replace (map (fun x0 => normalise f i (axf a x0)) (x :: g)) with (map (fun x0 => rel f i (axf a x0)) (x :: g)); [reflexivity|].
  apply map_ext. intros z. rewrite normalise_rel. reflexivity.
Qed.
Lemma grids_skip axf f c i n cshape sh : n <= 1 ->
  grids axf f c i (n :: cshape) sh = bind (grids axf f c (S i) cshape sh) (fun r => Ok (option_map (fun '(gs, sh) => ([] :: gs, sh)) r)).
Proof. intros N. cbn [grids]. replace (Nat.ltb 1 n) with false by (symmetry; apply Nat.ltb_ge; lia). reflexivity. Qed.

(** ** Positions in arrays that vary along one or two axes *)
Lemma set_nth_length {A} : forall l i (x : A), length (set_nth l i x) = length l.
Proof. induction l as [|y l IH]; intros [|i] x; cbn [set_nth length]; auto. Qed.
Definition co (n : Z) (x : Z) : Z := if (n =? 1)%Z then 0%Z else x.
Lemma pos_ones : forall r idx acc, position_from acc (repeat 1%Z r) idx = acc.
Proof.
  induction r as [|r IH]; intros idx acc; [reflexivity|]. cbn [repeat position_from]. destruct idx as [|x idx]; [reflexivity|].
  rewrite IH. rewrite Z.eqb_refl. lia.
Qed.
Lemma pos_one : forall r a n idx acc, a < r -> length idx = r ->
  position_from acc (set_nth (repeat 1%Z r) a n) idx = (acc * n + co n (nth a idx 0))%Z.
Proof.
  induction r as [|r IH]; intros a n idx acc L Li; [lia|]. destruct idx as [|x idx]; [discriminate|]. cbn [length] in Li.
  destruct a as [|a]; cbn [repeat set_nth position_from nth].
  - rewrite pos_ones. reflexivity.
  - rewrite Z.eqb_refl. rewrite IH by lia. lia.
Qed.
Lemma pos_two : forall r a b n m idx acc, a < b -> b < r -> length idx = r ->
  position_from acc (set_nth (set_nth (repeat 1%Z r) a n) b m) idx = ((acc * n + co n (nth a idx 0)) * m + co m (nth b idx 0))%Z.
Proof.
  induction r as [|r IH]; intros a b n m idx acc L1 L2 Li; [lia|]. destruct idx as [|x idx]; [discriminate|]. cbn [length] in Li.
  destruct b as [|b]; [lia|]. destruct a as [|a]; cbn [repeat set_nth position_from nth].
  - rewrite pos_one by lia. reflexivity.
  - rewrite Z.eqb_refl. rewrite IH by lia. f_equal. f_equal. lia.
Qed.
Lemma prod_ones r : fold_right Z.mul 1%Z (repeat 1%Z r) = 1%Z.
Proof. induction r as [|r IH]; [reflexivity|]. cbn [repeat fold_right]. rewrite IH. reflexivity. Qed.
Lemma prod_one : forall r a n, a < r -> fold_right Z.mul 1%Z (set_nth (repeat 1%Z r) a n) = n.
Proof.
  induction r as [|r IH]; intros a n L; [lia|]. destruct a as [|a]; cbn [repeat set_nth fold_right].
  - rewrite prod_ones. lia.
  - rewrite IH by lia. lia.
Qed.
Lemma prod_two : forall r a b n m, a < b -> b < r -> fold_right Z.mul 1%Z (set_nth (set_nth (repeat 1%Z r) a n) b m) = (n * m)%Z.
Proof.
  induction r as [|r IH]; intros a b n m L1 L2; [lia|]. destruct b as [|b]; [lia|]. destruct a as [|a]; cbn [repeat set_nth fold_right].
  - rewrite prod_one by lia. reflexivity.
  - rewrite IH by lia. lia.
Qed.
Lemma store_full sh vals : length vals = Polc_Model.size sh -> store sh vals = Ok {| v_shape := sh; v_data := vals |}.
Proof.
  intros L. unfold store. rewrite L. replace (Nat.ltb (Polc_Model.size sh) (Polc_Model.size sh)) with false by (symmetry; apply Nat.ltb_ge; lia).
  rewrite Nat.sub_diag. cbn [repeat]. rewrite app_nil_r. reflexivity.
Qed.

Lemma nth_error_pairs {A B} : forall (l : list A) (m : list B) i j x y,
  nth_error l i = Some x -> nth_error m j = Some y -> nth_error (flat_map (fun x => map (fun y => (x, y)) m) l) (i * length m + j) = Some (x, y).
Proof.
  induction l as [|u l IH]; intros m i j x y Hi Hj; [destruct i; discriminate|].
  assert (Lj : j < length m) by (apply nth_error_Some; congruence).
  cbn [flat_map]. destruct i as [|i].
  - injection Hi as ->. cbn [Nat.mul Nat.add]. rewrite nth_error_app1 by (rewrite map_length; exact Lj).
    rewrite nth_error_map, Hj. reflexivity.
  - rewrite nth_error_app2 by (rewrite map_length; cbn [Nat.mul]; lia). rewrite map_length.
    replace (S i * length m + j - length m) with (i * length m + j) by (cbn [Nat.mul]; lia). apply IH; assumption.
Qed.
Lemma length_pairs {A B} : forall (l : list A) (m : list B), length (flat_map (fun x => map (fun y => (x, y)) m) l) = length l * length m.
Proof. induction l as [|u l IH]; intros m; [reflexivity|]. cbn [flat_map]. rewrite app_length, map_length, IH. reflexivity. Qed.

(** ** The points at which the polynomial is evaluated, and the shape of the result *)
Definition axis (f : funklet) (i : nat) : nat := nth i (f_axes f) 0.
Definition along (c : cells) (a : nat) (idx : list Z) : Qc := nth (Z.to_nat (nth a idx 0%Z)) (ctr c a) q0.
(** evaluation produces a Vells [v] for a function [h] of the two relative coordinates *)
Definition shows (axf : axisfun) (f : funklet) (c : cells) (h : Qc -> Qc -> Qc) (v : vells) : Prop :=
  forall idx, cell_index (c_rank c) (fun a => length (ctr c a)) idx ->
    at_index (v_shape v) (v_data v) idx
    = Some (h (rel f 0 (axf (axis f 0) (along c (axis f 0) idx))) (rel f 1 (axf (axis f 1) (along c (axis f 1) idx)))).
Lemma axis_of f i a : nth_error (f_axes f) i = Some a -> axis f i = a.
Proof. intros H. unfold axis. apply nth_error_nth with (d := 0) in H. exact H. Qed.

Lemma nth_error_along c a idx rank : cell_index rank (fun a => length (ctr c a)) idx -> a < rank ->
  nth_error (ctr c a) (Z.to_nat (co (Z.of_nat (length (ctr c a))) (nth a idx 0%Z))) = Some (along c a idx).
Proof.
  intros [Li Hi] L. specialize (Hi a L). unfold along.
  assert (E : co (Z.of_nat (length (ctr c a))) (nth a idx 0%Z) = nth a idx 0%Z).
  { unfold co. destruct (Z.of_nat (length (ctr c a)) =? 1)%Z eqn:E; [apply Z.eqb_eq in E; lia|reflexivity]. }
  rewrite E. apply nth_error_nth'. lia.
Qed.
Lemma show_one axf f c i (h : Qc -> Qc) a :
  a < c_rank c -> axis f i = a ->
  let sh := set_nth (repeat 1%Z (c_rank c)) a (Z.of_nat (length (ctr c a))) in
  let vals := map h (map (fun x => rel f i (axf a x)) (ctr c a)) in
  store sh vals = Ok {| v_shape := sh; v_data := vals |}
  /\ forall idx, cell_index (c_rank c) (fun a => length (ctr c a)) idx ->
       at_index sh vals idx = Some (h (rel f i (axf (axis f i) (along c (axis f i) idx)))).
Proof.
  intros La Ea sh vals. split.
  - apply store_full. unfold vals, Polc_Model.size, sh. rewrite !map_length, prod_one by exact La. lia.
  - intros idx I. unfold at_index, position, sh. rewrite pos_one by (auto; apply I).
    replace (0 * Z.of_nat (length (ctr c a)) + co (Z.of_nat (length (ctr c a))) (nth a idx 0))%Z
      with (co (Z.of_nat (length (ctr c a))) (nth a idx 0%Z)) by lia.
    unfold vals. rewrite !nth_error_map, (nth_error_along c a idx _ I La), Ea. reflexivity.
Qed.
Lemma show_two axf f c (h : Qc * Qc -> Qc) a b :
  a < b -> b < c_rank c -> axis f 0 = a -> axis f 1 = b ->
  let sh := set_nth (set_nth (repeat 1%Z (c_rank c)) a (Z.of_nat (length (ctr c a)))) b (Z.of_nat (length (ctr c b))) in
  let vals := map h (flat_map (fun x => map (fun y => (x, y)) (map (fun x => rel f 1 (axf b x)) (ctr c b))) (map (fun x => rel f 0 (axf a x)) (ctr c a))) in
  store sh vals = Ok {| v_shape := sh; v_data := vals |}
  /\ forall idx, cell_index (c_rank c) (fun a => length (ctr c a)) idx ->
       at_index sh vals idx = Some (h (rel f 0 (axf (axis f 0) (along c (axis f 0) idx)), rel f 1 (axf (axis f 1) (along c (axis f 1) idx)))).
Proof.
  intros L1 L2 Ea Eb sh vals. split.
  - apply store_full. unfold vals, Polc_Model.size, sh. rewrite map_length, length_pairs, !map_length, prod_two by assumption. lia.
  - intros idx I. unfold at_index, position, sh. rewrite pos_two by (auto; apply I).
    pose proof (nth_error_along c a idx _ I ltac:(lia)) as Na. pose proof (nth_error_along c b idx _ I ltac:(lia)) as Nb.
    destruct I as [Li Hi]. pose proof (Hi a ltac:(lia)) as Ha. pose proof (Hi b ltac:(lia)) as Hb.
    assert (Ca : (0 <= co (Z.of_nat (length (ctr c a))) (nth a idx 0))%Z) by (unfold co; destruct (_ =? _)%Z; lia).
    assert (Cb : (0 <= co (Z.of_nat (length (ctr c b))) (nth b idx 0))%Z) by (unfold co; destruct (_ =? _)%Z; lia).
    replace (Z.to_nat ((0 * Z.of_nat (length (ctr c a)) + co (Z.of_nat (length (ctr c a))) (nth a idx 0)) * Z.of_nat (length (ctr c b)) + co (Z.of_nat (length (ctr c b))) (nth b idx 0)))%Z
      with (Z.to_nat (co (Z.of_nat (length (ctr c a))) (nth a idx 0%Z)) * length (map (fun x => rel f 1 (axf b x)) (ctr c b)) + Z.to_nat (co (Z.of_nat (length (ctr c b))) (nth b idx 0%Z))).
    2:{ rewrite map_length. rewrite Z.mul_0_l, Z.add_0_l. rewrite Z2Nat.inj_add by nia. rewrite Z2Nat.inj_mul by lia. rewrite Nat2Z.id. reflexivity. }
    unfold vals. rewrite nth_error_map.
    rewrite (nth_error_pairs _ _ _ _ (rel f 0 (axf a (along c a idx))) (rel f 1 (axf b (along c b idx)))).
    + rewrite Ea, Eb. reflexivity.
    + rewrite nth_error_map, Na. reflexivity.
    + rewrite nth_error_map, Nb. reflexivity.
Qed.

(** ** Perturbed values *)
Definition placed (inx : list (option nat)) (k0 : nat) (mk : nat -> vells) (ip : nat) : list (nat * nat * vells) :=
  flat_map (fun kx => match snd kx with Some s => [(ip, s, mk (fst kx))] | None => [] end) (combine (seq k0 (length inx)) inx).
Lemma pert_store_ok sh vals mk ip : (forall k, store sh (vals k) = Ok (mk k)) ->
  forall inx k, pert_store sh inx k vals ip = Ok (placed inx k mk ip).
Proof.
  intros H. induction inx as [|x inx IH]; intros k; [reflexivity|]. unfold placed in *. cbn [pert_store length seq combine flat_map snd fst].
  destruct x as [s|].
  - rewrite H. cbn [bind]. rewrite IH. reflexivity.
  - rewrite IH. reflexivity.
Qed.
Lemma pert_sets_ok sh inx vals mk : (forall ip k, store sh (vals ip k) = Ok (mk ip k)) ->
  forall n ip, pert_sets sh inx vals ip n = Ok (flat_map (fun ip => placed inx 0 (mk ip) ip) (seq ip n)).
Proof.
  intros H. induction n as [|n IH]; intros ip; [reflexivity|]. cbn [pert_sets seq flat_map].
  rewrite (pert_store_ok sh (vals ip) (mk ip) ip (H ip)). cbn [bind]. rewrite IH. reflexivity.
Qed.

(** the value may only depend on coordinates the polynomial has *)
Definition indep (f : funklet) (h : Qc -> Qc -> Qc) : Prop :=
  (nx f <= 1 -> forall x x' y, h x y = h x' y) /\ (ny f <= 1 -> forall x y y', h x y = h x y').
Definition mk (sh : list Z) (pts : list (Qc * Qc)) (h : Qc -> Qc -> Qc) : vells :=
  {| v_shape := sh; v_data := map (fun p => h (fst p) (snd p)) pts |}.
(** [f'] differs from [f] in its coefficients and in what makes it solvable only *)
Definition same_grid (f f' : funklet) : Prop :=
  f_axes f' = f_axes f /\ f_off f' = f_off f /\ f_scl f' = f_scl f /\ f_dom f' = f_dom f /\ f_shape f' = f_shape f
  /\ length (f_coeff f') = length (f_coeff f).
Definition pert_ready (f : funklet) (mp : nat) : Prop :=
  mp = 0 \/ (length (f_perts f) = length (f_coeff f) /\ length (f_inx f) = length (f_coeff f)
             /\ (1 < nx f -> ny f <= 10) /\ (length (f_coeff f) = 1 -> f_inx f = [Some 0])).
Definition delta (f : funklet) (ip k : nat) (x y : Qc) : Qc :=
  signed ip (Qcmult (Qcmult (nth k (f_perts f) q0) (Qcpower y (k mod ny f))) (Qcpower x (k / ny f))).
Definition hval (f : funklet) (x y : Qc) : Qc := poly (nx f) (ny f) (f_coeff f) x y.
Definition hpert (f : funklet) (ip k : nat) (x y : Qc) : Qc := Qcplus (hval f x y) (delta f ip k x y).
Definition expected (f : funklet) (sh : list Z) (pts : list (Qc * Qc)) (mp : nat) : values :=
  {| o_main := Some (mk sh pts (hval f));
     o_pert := flat_map (fun ip => placed (f_inx f) 0 (fun k => mk sh pts (hpert f ip k)) ip) (seq 0 mp) |}.

Lemma grids_same axf f f' c : same_grid f f' -> forall sh i out, grids axf f' c i sh out = grids axf f c i sh out.
Proof.
  intros (Ea & Eo & Es & Ed & _ & _). assert (D : domain f' = domain f) by (unfold domain; rewrite Ed; reflexivity).
  induction sh as [|n sh IH]; intros i out; [reflexivity|]. cbn [grids]. rewrite Ea. destruct (Nat.ltb 1 n); [|rewrite IH; reflexivity].
  destruct (nth_error (f_axes f) i) as [a|]; [|reflexivity]. destruct (c_center c a) as [g|]; [|reflexivity].
  replace (clip f' c i g) with (clip f c i g) by (unfold clip; rewrite D; reflexivity).
  destruct (clip f c i g) as [[g'|]| |]; try reflexivity. cbn [bind]. rewrite Eo, Es.
  destruct (_ || _ || _); [reflexivity|]. replace (map (normalise f' i) (map (axf a) g')) with (map (normalise f i) (map (axf a) g')).
  2:{ apply map_ext. intros z. unfold normalise. rewrite Eo, Es. reflexivity. }
  rewrite IH. reflexivity.
Qed.
Lemma same_nx f f' : same_grid f f' -> nx f' = nx f /\ ny f' = ny f.
Proof. intros (_ & _ & _ & _ & E & _). unfold nx, ny. rewrite E. auto. Qed.
Lemma same_refl f : same_grid f f.
Proof. repeat split. Qed.

Lemma poly_indep f : indep f (hval f).
Proof.
  unfold indep, hval. split; intros L.
  - intros x x' y. unfold poly. apply Sum_ext. intros i Hi. apply Sum_ext. intros j _. assert (i = 0) as -> by lia. cbn [Qcpower]. reflexivity.
  - intros x y y'. unfold poly. apply Sum_ext. intros i _. apply Sum_ext. intros j Hj. assert (j = 0) as -> by lia. cbn [Qcpower]. reflexivity.
Qed.

Lemma ready_checks f mp : pert_ready f mp -> Nat.ltb 0 mp && (Nat.ltb (length (f_perts f)) (length (f_coeff f)) || Nat.ltb (length (f_inx f)) (length (f_coeff f))) = false.
Proof.
  intros [->|(A & B & _)]; [reflexivity|]. rewrite A, B. replace (Nat.ltb (length (f_coeff f)) (length (f_coeff f))) with false by (symmetry; apply Nat.ltb_ge; lia).
  apply andb_false_r.
Qed.

(** the four shapes of the coefficient array *)
Lemma shape_cases f : proper_polc f ->
  (exists n, f_shape f = [n] /\ nx f = n /\ ny f = 1) \/ (exists n m, f_shape f = [n; m] /\ nx f = n /\ ny f = m).
Proof.
  intros ([L|L] & _). 
  - left. unfold nx, ny. destruct (f_shape f) as [|n [|? ?]]; try discriminate. exists n. auto.
  - right. unfold nx, ny. destruct (f_shape f) as [|n [|m [|? ?]]]; try discriminate. exists n, m. auto.
Qed.

Definition evaluates (axf : axisfun) (f : funklet) (c : cells) (sh : list Z) (pts : list (Qc * Qc)) : Prop :=
  (forall h, indep f h -> shows axf f c h (mk sh pts h)) /\
  forall f', same_grid f f' -> forall mp, pert_ready f' mp -> do_evaluate axf f' c mp = Ok (expected f' sh pts mp).

(** with a single coefficient *)
Lemma eval_constant axf f c : proper_polc f -> axes_ok f c -> nx f = 1 -> ny f = 1 -> evaluates axf f c [1%Z] [(q0, q0)].
Proof.
  intros P A X Y. split.
  - intros h [Ix Iy] idx I. unfold at_index, mk. cbn [v_shape v_data map fst snd].
    assert (E : Z.to_nat (position [1%Z] idx) = 0) by (unfold position; destruct idx as [|z [|? ?]]; reflexivity).
    rewrite E. cbn [nth_error]. f_equal. rewrite (Ix ltac:(lia) q0 (rel f 0 (axf (axis f 0) (along c (axis f 0) idx)))). apply Iy. lia.
  - intros f' Sg mp R. destruct (same_nx _ _ Sg) as [X' Y']. rewrite X in X'. rewrite Y in Y'.
    assert (Ln : length (f_coeff f') = 1).
    { destruct Sg as (_ & _ & _ & _ & _ & ->). destruct P as (_ & _ & _ & ->). rewrite X, Y. reflexivity. }
    unfold do_evaluate. rewrite Ln.
    assert (G : grids axf f' c 0 (f_shape f') (repeat 1%Z (c_rank c)) = Ok (Some (map (fun _ => []) (f_shape f'), repeat 1%Z (c_rank c)))).
    { rewrite (grids_same axf f f' c Sg). replace (f_shape f') with (f_shape f) by (symmetry; apply Sg).
      destruct (shape_cases f P) as [(n & E & En & _)|(n & m & E & En & Em)]; rewrite E.
      - rewrite grids_skip by lia. reflexivity.
      - rewrite grids_skip by lia. rewrite grids_skip by lia. reflexivity. }
    rewrite G. cbn [bind Nat.eqb]. destruct (f_coeff f') as [|c0 [|? ?]] eqn:Ec; try discriminate.
    assert (HV : forall x y, hval f' x y = c0).
    { intros x y. unfold hval, poly. rewrite X', Y', Ec. cbn [Sum Qcpower nth Nat.mul Nat.add]. ring. }
    destruct R as [->|(R1 & R2 & _ & R3)].
    + cbn [Nat.ltb Nat.leb andb seq map]. unfold expected, mk. cbn [seq flat_map map fst snd nth]. rewrite HV. reflexivity.
    + rewrite Ec in R1, R3. cbn [length] in R1, R3. specialize (R3 eq_refl). rewrite R1. cbn [Nat.eqb]. rewrite andb_false_r.
      unfold expected, mk. cbn [map fst snd nth]. rewrite HV. f_equal. f_equal. rewrite R3. unfold placed.
      induction (seq 0 mp) as [|ip l IH]; [reflexivity|]. cbn [map flat_map length seq combine snd fst app].
      rewrite IH. f_equal. f_equal. f_equal. f_equal. unfold hpert. rewrite HV. f_equal. unfold delta. rewrite Y'. cbn [Nat.modulo Nat.div Nat.divmod fst snd Nat.sub Qcpower].
      replace (0 mod 1) with 0 by reflexivity. replace (0 / 1) with 0 by reflexivity. cbn [Qcpower]. unfold signed. destruct (Nat.even ip); ring.
Qed.

Lemma placed_ext ip m m' : forall inx k0, (forall k, k0 <= k < k0 + length inx -> m k = m' k) -> placed inx k0 m ip = placed inx k0 m' ip.
Proof.
  unfold placed. induction inx as [|x inx IH]; intros k0 H; [reflexivity|]. cbn [length seq combine flat_map snd fst].
  rewrite (IH (S k0)). 2:{ intros k L. apply H. cbn [length]. lia. }
  destruct x as [s|]; [|reflexivity]. rewrite (H k0) by (cbn [length]; lia). reflexivity.
Qed.
(** assembling the result from the two loops; the indices of parameters are below [n] *)
Lemma assemble f sh pts tot (dl : nat -> nat -> list Qc) mp :
  store sh tot = Ok (mk sh pts (hval f)) ->
  (forall ip k, exists v, store sh (dl ip k) = Ok v) ->
  (mp <> 0 -> forall ip k, k < length (f_inx f) -> store sh (dl ip k) = Ok (mk sh pts (hpert f ip k))) ->
  bind (store sh tot) (fun v => bind (pert_sets sh (f_inx f) dl 0 mp) (fun p => Ok {| o_main := Some v; o_pert := p |})) = Ok (expected f sh pts mp).
Proof.
  intros E Ex H. rewrite E. cbn [bind].
  destruct mp as [|mp]; [reflexivity|].
  set (m := fun ip k => match store sh (dl ip k) with Ok v => v | _ => mk sh [] (hval f) end).
  rewrite (pert_sets_ok sh (f_inx f) dl m).
  2:{ intros ip k. unfold m. destruct (Ex ip k) as [v ->]. reflexivity. }
  cbn [bind]. unfold expected. f_equal. f_equal. apply flat_map_ext. intros ip. apply placed_ext. intros k L.
  unfold m. rewrite H by lia. reflexivity.
Qed.

Lemma coeff_count f f' : same_grid f f' -> proper_polc f -> length (f_coeff f') = nx f * ny f.
Proof. intros (_ & _ & _ & _ & _ & ->) (_ & _ & _ & ->). reflexivity. Qed.
Lemma ready_inx f mp : pert_ready f mp -> mp <> 0 -> length (f_inx f) = length (f_coeff f).
Proof. intros [->|(_ & B & _)] N; [congruence|exact B]. Qed.

(** one axis: [i] is 0 or 1, the other has one coefficient *)
Lemma eval_x axf f c : proper_polc f -> axes_ok f c -> 1 < nx f -> ny f = 1 -> exists sh pts, evaluates axf f c sh pts.
Proof.
  intros P (A & _ & _) X Y. specialize (A X).
  destruct (grids_one axf f c 0 (nx f) (tl (f_shape f)) (repeat 1%Z (c_rank c)) X A) as (a & Ea & La & Ca & G).
  pose proof (axis_of _ _ _ Ea) as Ax.
  set (sh := set_nth (repeat 1%Z (c_rank c)) a (Z.of_nat (length (ctr c a)))) in *.
  set (g := map (fun x => rel f 0 (axf a x)) (ctr c a)) in *.
  exists sh, (map (fun x => (x, q0)) g). split.
  - intros h [_ Iy] idx I. unfold mk. cbn [v_shape v_data]. rewrite map_map. cbn [fst snd].
    destruct (show_one axf f c 0 (fun x => h x q0) a La Ax) as [_ H]. unfold g. unfold sh.
    specialize (H idx I). cbv zeta in H. rewrite H. f_equal. apply Iy. lia.
  - intros f' Sg mp R. destruct (same_nx _ _ Sg) as [X' Y']. pose proof (coeff_count _ _ Sg P) as Ln. rewrite Y, Nat.mul_1_r in Ln.
    unfold do_evaluate. rewrite (grids_same axf f f' c Sg). assert (Es : f_shape f' = f_shape f) by apply Sg. rewrite Es.
    assert (G' : grids axf f c 0 (f_shape f) (repeat 1%Z (c_rank c)) = Ok (Some (g :: map (fun _ => []) (tl (f_shape f)), sh))).
    { destruct (shape_cases f P) as [(n & E & En & _)|(n & m & E & En & Em)]; rewrite E in *; cbn [tl map] in *; rewrite En in G; rewrite G.
      - reflexivity.
      - rewrite grids_skip by lia. reflexivity. }
    rewrite G'. cbn [bind]. replace (Nat.eqb (length (f_coeff f')) 1) with false by (symmetry; apply Nat.eqb_neq; lia).
    rewrite (ready_checks f' mp R).
    assert (ST : forall h, store sh (map h g) = Ok (mk sh (map (fun x => (x, q0)) g) (fun x _ => h x))).
    { intros h. destruct (show_one axf f c 0 h a La Ax) as [H _]. cbv zeta in H. unfold sh, g. rewrite H. unfold mk. rewrite !map_map. reflexivity. }
    assert (MK : forall h h', (forall x, h x = h' x q0) -> mk sh (map (fun x => (x, q0)) g) (fun x _ => h x) = mk sh (map (fun x => (x, q0)) g) h').
    { intros h h' E. unfold mk. f_equal. rewrite !map_map. apply map_ext. intros x. cbn [fst snd]. apply E. }
    assert (FIN : bind (store sh (map (fun x => horner (f_coeff f') x) g)) (fun v =>
          bind (pert_sets sh (f_inx f') (fun ip k => map (fun x => Qcplus (horner (f_coeff f') x) (signed ip (Qcmult (nth k (f_perts f') q0) (power x k)))) g) 0 mp) (fun p =>
          Ok {| o_main := Some v; o_pert := p |})) = Ok (expected f' sh (map (fun x => (x, q0)) g) mp)).
    { apply assemble.
      - rewrite ST. f_equal. apply MK. intros x. unfold hval. rewrite Y', Y. apply horner_poly_x. lia.
      - intros ip k. rewrite ST. eexists. reflexivity.
      - intros N ip k Lk. rewrite ST. f_equal. apply MK. intros x. unfold hpert, delta, hval. rewrite Y', Y.
        rewrite (horner_poly_x (nx f') (f_coeff f') x q0) by lia. f_equal. f_equal. rewrite power_Qcpower, Nat.mod_1_r, Nat.div_1_r. cbn [Qcpower]. ring. }
    destruct (shape_cases f P) as [(n & E & En & _)|(n & m & E & En & Em)]; rewrite E; cbn [tl map].
    + exact FIN.
    + assert (m = 1) as -> by congruence. cbn [Nat.eqb]. rewrite orb_true_r.
      replace (Nat.ltb 1 n) with true by (symmetry; apply Nat.ltb_lt; lia). exact FIN.
Qed.
Lemma eval_y axf f c : proper_polc f -> axes_ok f c -> nx f = 1 -> 1 < ny f -> exists sh pts, evaluates axf f c sh pts.
Proof.
  intros P (_ & A & _) X Y. specialize (A Y).
  destruct (grids_one axf f c 1 (ny f) [] (repeat 1%Z (c_rank c)) Y A) as (a & Ea & La & Ca & G).
  pose proof (axis_of _ _ _ Ea) as Ax.
  set (sh := set_nth (repeat 1%Z (c_rank c)) a (Z.of_nat (length (ctr c a)))) in *.
  set (g := map (fun x => rel f 1 (axf a x)) (ctr c a)) in *.
  exists sh, (map (fun y => (q0, y)) g). split.
  - intros h [Ix _] idx I. unfold mk. cbn [v_shape v_data]. rewrite map_map. cbn [fst snd].
    destruct (show_one axf f c 1 (fun y => h q0 y) a La Ax) as [_ H]. unfold g. unfold sh.
    specialize (H idx I). cbv zeta in H. rewrite H. f_equal. apply Ix. lia.
  - intros f' Sg mp R. destruct (same_nx _ _ Sg) as [X' Y']. pose proof (coeff_count _ _ Sg P) as Ln. rewrite X, Nat.mul_1_l in Ln.
    unfold do_evaluate. rewrite (grids_same axf f f' c Sg). assert (Es : f_shape f' = f_shape f) by apply Sg. rewrite Es.
    destruct (shape_cases f P) as [(n & E & En & Em)|(n & m & E & En & Em)]; [lia|]. rewrite E.
    assert (n = 1) as -> by congruence. rewrite Em in G. rewrite grids_skip by lia. rewrite G. cbn [grids bind option_map].
    replace (Nat.eqb (length (f_coeff f')) 1) with false by (symmetry; apply Nat.eqb_neq; lia).
    rewrite (ready_checks f' mp R). cbn [Nat.eqb orb]. replace (Nat.ltb 1 1) with false by reflexivity.
    assert (ST : forall h, store sh (map h g) = Ok (mk sh (map (fun y => (q0, y)) g) (fun _ y => h y))).
    { intros h. destruct (show_one axf f c 1 h a La Ax) as [H _]. cbv zeta in H. unfold sh, g. rewrite H. unfold mk. rewrite !map_map. reflexivity. }
    assert (MK : forall h h', (forall y, h y = h' q0 y) -> mk sh (map (fun y => (q0, y)) g) (fun _ y => h y) = mk sh (map (fun y => (q0, y)) g) h').
    { intros h h' EE. unfold mk. f_equal. rewrite !map_map. apply map_ext. intros y. cbn [fst snd]. apply EE. }
    apply assemble.
    + rewrite ST. f_equal. apply MK. intros y. unfold hval. rewrite X', X. apply horner_poly_y. lia.
    + intros ip k. rewrite ST. eexists. reflexivity.
    + intros N ip k Lk. rewrite ST. f_equal. apply MK. intros y. unfold hpert, delta, hval. rewrite X', X.
      rewrite (horner_poly_y (ny f') (f_coeff f') q0 y) by lia. f_equal. f_equal. rewrite (ready_inx f' mp R N) in Lk.
      rewrite power_Qcpower, Nat.mod_small, Nat.div_small by lia. cbn [Qcpower]. ring.
Qed.
Lemma eval_xy axf f c : proper_polc f -> axes_ok f c -> 1 < nx f -> 1 < ny f -> exists sh pts, evaluates axf f c sh pts.
Proof.
  intros P (A & B & O) X Y. specialize (A X). specialize (B Y). specialize (O X Y).
  destruct (grids_one axf f c 0 (nx f) [ny f] (repeat 1%Z (c_rank c)) X A) as (a & Ea & La & Ca & Ga).
  pose proof (axis_of _ _ _ Ea) as Ax.
  destruct (grids_one axf f c 1 (ny f) [] (set_nth (repeat 1%Z (c_rank c)) a (Z.of_nat (length (ctr c a)))) Y B) as (b & Eb & Lb & Cb & Gb).
  pose proof (axis_of _ _ _ Eb) as Bx. assert (AB : a < b) by (unfold axis in *; lia).
  set (sh := set_nth (set_nth (repeat 1%Z (c_rank c)) a (Z.of_nat (length (ctr c a)))) b (Z.of_nat (length (ctr c b)))) in *.
  set (g := map (fun x => rel f 0 (axf a x)) (ctr c a)) in *. set (g' := map (fun x => rel f 1 (axf b x)) (ctr c b)) in *.
  set (pts := flat_map (fun x => map (fun y => (x, y)) g') g).
  exists sh, pts. split.
  - intros h _ idx I. unfold mk. cbn [v_shape v_data].
    destruct (show_two axf f c (fun p => h (fst p) (snd p)) a b AB Lb Ax Bx) as [_ H]. specialize (H idx I). cbv zeta in H. exact H.
  - intros f' Sg mp R. destruct (same_nx _ _ Sg) as [X' Y']. pose proof (coeff_count _ _ Sg P) as Ln.
    unfold do_evaluate. rewrite (grids_same axf f f' c Sg). assert (Es : f_shape f' = f_shape f) by apply Sg. rewrite Es.
    destruct (shape_cases f P) as [(n & E & En & Em)|(n & m & E & En & Em)]; [lia|]. rewrite E.
    rewrite En, Em in Ga. rewrite Em in Gb. rewrite Ga, Gb. cbn [grids bind option_map].
    replace (Nat.eqb (length (f_coeff f')) 1) with false by (symmetry; apply Nat.eqb_neq; nia).
    rewrite (ready_checks f' mp R).
    replace (Nat.eqb n 1) with false by (symmetry; apply Nat.eqb_neq; lia). replace (Nat.eqb m 1) with false by (symmetry; apply Nat.eqb_neq; lia). cbn [orb].
    replace (Nat.ltb 0 mp && Nat.ltb 10 m) with false.
    2:{ destruct R as [->|(_ & _ & R & _)]; [reflexivity|]. specialize (R ltac:(lia)). replace (Nat.ltb 10 m) with false by (symmetry; apply Nat.ltb_ge; lia).
        symmetry. apply andb_false_r. }
    fold pts.
    assert (ST : forall h, store sh (map h pts) = Ok (mk sh pts (fun x y => h (x, y)))).
    { intros h. destruct (show_two axf f c h a b AB Lb Ax Bx) as [H _]. cbv zeta in H. unfold sh, pts, g, g'. rewrite H. unfold mk. f_equal. f_equal.
      apply map_ext. intros []. reflexivity. }
    apply assemble.
    + rewrite ST. f_equal. unfold mk. f_equal. apply map_ext. intros p. cbn [fst snd]. unfold hval. rewrite <- En, <- Em, X', Y'. apply total2_poly. lia.
    + intros ip k. rewrite ST. eexists. reflexivity.
    + intros N ip k Lk. rewrite ST. f_equal. unfold mk. f_equal. apply map_ext. intros p. cbn [fst snd]. unfold hpert, hval, delta. rewrite <- En, <- Em, X', Y'.
      rewrite total2_poly by lia. f_equal. f_equal. rewrite !power_Qcpower. reflexivity.
Qed.
Lemma eval_any axf f c : proper_polc f -> axes_ok f c -> exists sh pts, evaluates axf f c sh pts.
Proof.
  intros P A. assert (L : 1 <= nx f /\ 1 <= ny f) by (split; apply P).
  destruct (Nat.eq_dec (nx f) 1), (Nat.eq_dec (ny f) 1).
  - exists [1%Z], [(q0, q0)]. apply eval_constant; assumption.
  - apply eval_y; auto; lia.
  - apply eval_x; auto; lia.
  - apply eval_xy; auto; lia.
Qed.
