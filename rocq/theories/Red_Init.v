(** Proofs for Red_Model: what the slicers are initialised to. *)
From Coq Require Import Sorted.
From Verif Require Import Base Vel_Model Vel_Spec Vel_Proofs Vel_Sums Red_Model Red_Spec Red_Proofs Red_Slices.
Local Open Scope Z_scope.

Lemma axis_ok : forall k, (k < 8)%nat -> axis_in_range (Z.of_nat k) = Ok k.
Proof. intros k H. unfold axis_in_range. rewrite (proj2 (Z.leb_gt _ _)) by lia. rewrite (proj2 (Z.ltb_ge _ _)) by lia. now rewrite Nat2Z.id. Qed.
Lemma set_nth_length : forall k x l, length (set_nth k x l) = length l.
Proof. induction k as [|k IH]; destruct l as [|y l]; cbn; auto. Qed.
Lemma set_nth_ext : forall k x l i, ext (set_nth k x l) i = if Nat.eqb i k && Nat.ltb i (length l) then x else ext l i.
Proof.
  unfold ext. induction k as [|k IH]; destruct l as [|y l]; intros [|i]; cbn [set_nth nth length]; auto.
  1: now destruct (Nat.eqb (S i) (S k) && Nat.ltb (S i) 0) eqn:E; [apply andb_prop in E as [_ E]|].
  rewrite IH. reflexivity.
Qed.
Lemma wf_dim_eq : forall s st k, wf_dim s st k = if 1 <? ext s k then Some (ext s k, nth k st 0) else None.
Proof.
  intros. unfold wf_dim. change (extent s k) with (ext s k). destruct (Nat.ltb k (length s)) eqn:L; [reflexivity|].
  apply Nat.ltb_ge in L. rewrite ext_over by auto. reflexivity.
Qed.
Lemma member_cons : forall k a ks, member k (a :: ks) = Nat.eqb k a || member k ks.
Proof. reflexivity. Qed.
Lemma wf_loop_eq : forall vs vst fs fst_ ks ns it fit, Forall (fun k => (k < 8)%nat) ks ->
  exists ns' it' fit', wf_loop vs vst fs fst_ (map Z.of_nat ks) ns it fit
      = Ok (map (fun k => dim (wf_dim vs vst k)) ks, map (fun k => dim (wf_dim fs fst_ k)) ks, ns', it', fit') /\
    length ns' = length ns /\
    (forall k, ext ns' k = if member k ks && ((1 <? ext vs k) || (1 <? ext fs k)) && Nat.ltb k (length ns) then 1 else ext ns k) /\
    (forall k, it' k = it k && negb (member k ks && (1 <? ext vs k))) /\
    (forall k, fit' k = fit k && negb (member k ks && (1 <? ext fs k))).
Proof.
  induction ks as [|a ks IH]; intros ns it fit F.
  - cbn [map wf_loop]. exists ns, it, fit. split; [reflexivity|]. split; [reflexivity|]. split; [reflexivity|].
    split; intro k; cbn; now rewrite andb_true_r.
  - apply Forall_cons_iff in F as [Fa F]. cbn [map wf_loop]. rewrite axis_ok by auto. cbn [bind].
    set (ns1 := match wf_dim vs vst a, wf_dim fs fst_ a with None, None => ns | _, _ => set_nth a 1 ns end).
    destruct (IH ns1 (off a (wf_dim vs vst a) it) (off a (wf_dim fs fst_ a) fit) F) as (ns' & it' & fit' & E & L & N & I1 & I2).
    rewrite E. cbn [bind]. exists ns', it', fit'. split; [reflexivity|].
    assert (length ns1 = length ns) as L1 by (unfold ns1; destruct (wf_dim vs vst a), (wf_dim fs fst_ a); auto using set_nth_length).
    split; [congruence|]. split; [|split].
    + intro k. rewrite N, member_cons, L1. unfold ns1. rewrite !wf_dim_eq.
      assert (match (if 1 <? ext vs a then Some (ext vs a, nth a vst 0) else None), (if 1 <? ext fs a then Some (ext fs a, nth a fst_ 0) else None) with
              | None, None => ns | _, _ => set_nth a 1 ns end = if (1 <? ext vs a) || (1 <? ext fs a) then set_nth a 1 ns else ns) as ->
        by (destruct (1 <? ext vs a), (1 <? ext fs a); reflexivity).
      destruct (Nat.eqb k a) eqn:Q.
      * apply Nat.eqb_eq in Q. subst a. cbn [orb andb].
        destruct ((1 <? ext vs k) || (1 <? ext fs k)); rewrite ?andb_false_r; [|reflexivity].
        rewrite set_nth_ext, Nat.eqb_refl. cbn [andb]. rewrite andb_true_r. destruct (Nat.ltb k (length ns)); [destruct (member k ks)|rewrite andb_false_r]; reflexivity.
      * cbn [orb]. destruct ((1 <? ext vs a) || (1 <? ext fs a)); [|reflexivity]. rewrite set_nth_ext, Q. reflexivity.
    + intro k. rewrite I1, member_cons. rewrite wf_dim_eq. unfold off. destruct (1 <? ext vs a) eqn:B; destruct (Nat.eqb k a) eqn:Q; cbn [orb andb].
      * apply Nat.eqb_eq in Q. subst a. rewrite B. cbn. now rewrite andb_false_r.
      * reflexivity.
      * apply Nat.eqb_eq in Q. subst a. rewrite B, !andb_false_r. reflexivity.
      * reflexivity.
    + intro k. rewrite I2, member_cons. rewrite wf_dim_eq. unfold off. destruct (1 <? ext fs a) eqn:B; destruct (Nat.eqb k a) eqn:Q; cbn [orb andb].
      * apply Nat.eqb_eq in Q. subst a. rewrite B. cbn. now rewrite andb_false_r.
      * reflexivity.
      * apply Nat.eqb_eq in Q. subst a. rewrite B, !andb_false_r. reflexivity.
      * reflexivity.
Qed.
Definition fshape (flags : option (list Z)) : list Z := match flags with Some s => s | None => [] end.
Definition wf_rank (vs : list Z) (flags : option (list Z)) : nat := Nat.max (length vs) (length (fshape flags)).
Definition dims_of (s : list Z) (n : nat) (ks : list nat) : list (Z * Z) :=
  map (fun k => if 1 <? ext s k then (ext s k, stride_of (pad s n) k) else (1, 1)) ks.
Definition runs (s : list Z) (ks : list nat) (k : nat) : bool := (1 <? ext s k) && negb (member k ks).
Lemma wf_init_eq : forall vs flags ks, proper vs -> proper (fshape flags) -> Forall (fun k => (k < 8)%nat) ks ->
  (length ks <= wf_rank vs flags)%nat ->
  exists ns, wf_init vs flags (map Z.of_nat ks) = Ok {| wf_dims := dims_of vs (wf_rank vs flags) ks; wf_fdims := dims_of (fshape flags) (wf_rank vs flags) ks;
      wf_ns := ns; wf_axes := axes_of (runs vs ks) (pad vs (wf_rank vs flags)) (wf_rank vs flags);
      wf_faxes := axes_of (runs (fshape flags) ks) (pad (fshape flags) (wf_rank vs flags)) (wf_rank vs flags) |} /\
    length ns = wf_rank vs flags /\ proper ns /\
    forall k, ext ns k = if member k ks then 1 else Z.max (ext vs k) (ext (fshape flags) k).
Proof.
  intros vs flags ks Pv Pf F L. unfold wf_init. fold (fshape flags). set (n := wf_rank vs flags) in *.
  change (Nat.max (length vs) (length (fshape flags))) with n. rewrite map_length, (proj2 (Nat.ltb_ge _ _) L).
  destruct (wf_loop_eq vs (fst (src_strides (pad vs n))) (fshape flags) (fst (src_strides (pad (fshape flags) n))) ks
    (map (fun k => Z.max (extent vs k) (extent (fshape flags) k)) (seq 0 n)) (fun k => 1 <? extent vs k) (fun k => 1 <? extent (fshape flags) k) F)
    as (ns' & it' & fit' & E & Ln & N & I1 & I2).
  rewrite E. cbn [bind]. exists ns'. rewrite map_length, seq_length in *.
  assert (forall k, ext ns' k = if member k ks then 1 else Z.max (ext vs k) (ext (fshape flags) k)) as Q.
  { intro k. rewrite N. pose proof (ext_pos _ Pv k) as P1. pose proof (ext_pos _ Pf k) as P2.
    unfold ext at 3. destruct (Nat.lt_ge_cases k n) as [H|H].
    - rewrite (proj2 (Nat.ltb_lt _ _) H), andb_true_r. rewrite nth_map_seq by auto.
      change (extent vs k) with (ext vs k). change (extent (fshape flags) k) with (ext (fshape flags) k).
      destruct (member k ks); cbn [andb]; [|reflexivity]. destruct (1 <? ext vs k) eqn:B1; [reflexivity|]. destruct (1 <? ext (fshape flags) k) eqn:B2; [reflexivity|].
      apply Z.ltb_ge in B1, B2. cbn [orb]. lia.
    - rewrite (proj2 (Nat.ltb_ge _ _) H), andb_false_r. rewrite nth_overflow by (rewrite map_length, seq_length; lia).
      rewrite !ext_over by (unfold n, wf_rank in H; lia). destruct (member k ks); reflexivity. }
  split; [|split; [congruence|split; [|exact Q]]].
  - f_equal. f_equal.
    + unfold dims_of, stride_of. apply map_ext. intro k. rewrite wf_dim_eq. destruct (1 <? ext vs k); reflexivity.
    + unfold dims_of, stride_of. apply map_ext. intro k. rewrite wf_dim_eq. destruct (1 <? ext (fshape flags) k); reflexivity.
    + unfold axes_of. f_equal. apply map_ext. intro k. rewrite I1. unfold runs. change (extent vs k) with (ext vs k). destruct (1 <? ext vs k); cbn; [rewrite andb_true_r|]; reflexivity.
    + unfold axes_of. f_equal. apply map_ext. intro k. rewrite I2. unfold runs. change (extent (fshape flags) k) with (ext (fshape flags) k). destruct (1 <? ext (fshape flags) k); cbn; [rewrite andb_true_r|]; reflexivity.
  - apply proper_of_ext. intro k. rewrite Q. pose proof (ext_pos _ Pv k) as P1. pose proof (ext_pos _ Pf k) as P2. destruct (member k ks); lia.
Qed.

Lemma dot_base : forall s n ks o, proper s -> (length s <= n)%nat -> length o = n -> dot (axes_of (runs s ks) (pad s n) n) o = base s n ks o.
Proof.
  intros s n ks o P L Lo. rewrite dot_axes by (auto; rewrite pad_length; lia). unfold base. apply zsum_ext. intros k _. unfold runs, sq.
  pose proof (ext_pos _ P k). destruct (1 <? ext s k) eqn:B; destruct (member k ks); cbn [andb negb]; try reflexivity.
  - apply Z.ltb_lt in B. rewrite (proj2 (Z.eqb_neq _ _)) by lia. reflexivity.
  - apply Z.ltb_ge in B. rewrite (proj2 (Z.eqb_eq _ _)) by lia. lia.
Qed.
Lemma dims_shape : forall s n ks, proper s -> map fst (dims_of s n ks) = along ks s.
Proof.
  intros s n ks P. unfold dims_of, along. rewrite map_map. apply map_ext. intro k. pose proof (ext_pos _ P k).
  destruct (1 <? ext s k) eqn:B; [reflexivity|]. apply Z.ltb_ge in B. cbn. lia.
Qed.
Lemma coord_inside : forall s o k, inside s o -> (k < length s)%nat -> 0 <= coord o k < ext s k.
Proof. intros s o k H. revert k. unfold coord, ext. induction H as [|n s x o Hx _ IH]; intros k L; [cbn in L; lia|]. destruct k as [|k]; cbn [nth]; auto. apply IH. cbn in L. lia. Qed.
Lemma coord_over : forall o k, (length o <= k)%nat -> coord o k = 0.
Proof. intros. unfold coord. now apply nth_overflow. Qed.
Lemma inside_coord : forall s o, length o = length s -> (forall k, (k < length s)%nat -> 0 <= coord o k < ext s k) -> inside s o.
Proof.
  induction s as [|n s IH]; destruct o as [|x o]; intros L H; try discriminate; constructor.
  - apply (H 0%nat). cbn. lia.
  - apply IH; [injection L; auto|]. intros k Hk. apply (H (S k)). cbn. lia.
Qed.
Lemma dot_zero : forall l (m : list Z), dot l (map (fun _ => 0) m) = 0.
Proof. induction l as [|[it x] l IH]; intros [|y m]; auto. cbn [map dot]. rewrite IH. destruct it; lia. Qed.
(** where the slices start, in data and flags *)
Lemma wf_starts_eq : forall vs flags ks s ns, proper vs -> proper (fshape flags) -> NoDup ks -> broadcastable vs (fshape flags) ->
  s = {| wf_dims := dims_of vs (wf_rank vs flags) ks; wf_fdims := dims_of (fshape flags) (wf_rank vs flags) ks;
      wf_ns := ns; wf_axes := axes_of (runs vs ks) (pad vs (wf_rank vs flags)) (wf_rank vs flags);
      wf_faxes := axes_of (runs (fshape flags) ks) (pad (fshape flags) (wf_rank vs flags)) (wf_rank vs flags) |} ->
  length ns = wf_rank vs flags -> proper ns -> (forall k, ext ns k = if member k ks then 1 else Z.max (ext vs k) (ext (fshape flags) k)) ->
  exists st, wf_starts s (size vs) (option_map size flags) = Ok st /\ Z.of_nat (length st) = size ns /\
    forall o, inside ns o -> nth_error st (Z.to_nat (position ns o)) = Some (base vs (length ns) ks o, base (fshape flags) (length ns) ks o).
Proof.
  intros vs flags ks s ns Pv Pf ND B -> Ln Pn N. set (n := wf_rank vs flags) in *.
  assert (length vs <= n)%nat as Lv by (unfold n, wf_rank; lia). assert (length (fshape flags) <= n)%nat as Lf by (unfold n, wf_rank; lia).
  unfold wf_starts. cbn [wf_dims wf_fdims wf_ns wf_axes wf_faxes]. rewrite !dims_shape by auto. rewrite map_const_rev.
  pose proof (product_pos _ Pn) as Pp.
  set (A := rev (axes_of (runs vs ks) (pad vs n) n)). set (Af := rev (axes_of (runs (fshape flags) ks) (pad (fshape flags) n) n)).
  assert (forall t o, proper t -> (length t <= n)%nat -> inside (rev ns) o -> dot (rev (axes_of (runs t ks) (pad t n) n)) o = base t n ks (rev o)) as DB.
  { intros t o Pt Lt Ho. rewrite <- dot_base; auto.
    - rewrite <- (rev_involutive o) at 1. apply dot_rev. rewrite axes_of_length by (rewrite pad_length; lia). rewrite rev_length. pose proof (inside_len _ _ Ho) as Q. rewrite rev_length in Q. lia.
    - rewrite rev_length. pose proof (inside_len _ _ Ho) as Q. rewrite rev_length in Q. lia. }
  assert (forall t o, proper t -> (forall k, ext t k = 1 \/ ext t k = Z.max (ext vs k) (ext (fshape flags) k)) -> (length t <= n)%nat -> inside (rev ns) o ->
    base t n ks (rev o) <= size t - product (along ks t)) as BB.
  { intros t o Pt Ft Lt Ho. destruct (base_bound t n ks (rev o) Pt Lt ND) as (_ & _ & C); [|lia].
    intros k Nk Hk E1. apply inside_rev in Ho. rewrite rev_involutive in Ho. pose proof (coord_inside _ _ k Ho ltac:(lia)) as C.
    rewrite N, (proj2 (member_not k ks) Nk) in C. destruct (Ft k) as [Q|Q]; [contradiction|]. rewrite Q. exact C. }
  assert (forall k, ext vs k = 1 \/ ext vs k = Z.max (ext vs k) (ext (fshape flags) k)) as FV.
  { intro k. pose proof (ext_pos _ Pv k). pose proof (ext_pos _ Pf k). destruct (B k) as [Q|[Q|Q]]; rewrite ?Q; lia. }
  assert (forall k, ext (fshape flags) k = 1 \/ ext (fshape flags) k = Z.max (ext vs k) (ext (fshape flags) k)) as FF.
  { intro k. pose proof (ext_pos _ Pv k). pose proof (ext_pos _ Pf k). destruct (B k) as [Q|[Q|Q]]; rewrite ?Q; lia. }
  assert (forall t, proper t -> (forall k, ext t k = 1 \/ ext t k = Z.max (ext vs k) (ext (fshape flags) k)) -> (length t <= n)%nat ->
    chained (rev ns) (rev (axes_of (runs t ks) (pad t n) n))) as CH.
  { intros t Pt Ft Lt. apply chained_axes; auto; [rewrite pad_length; lia|]. intros k Hk R. unfold runs in R. apply andb_prop in R as [R1 R2].
    rewrite pad_ext by auto. rewrite N. apply negb_true_iff in R2. rewrite R2. apply Z.ltb_lt in R1. destruct (Ft k); lia. }
  destruct (wf_run_ok (Z.to_nat (product ns)) (rev ns) A Af (size vs - product (along ks vs))
     (option_map (fun l => l - product (along ks (fshape flags))) (option_map size flags)) (map (fun _ => 0) (rev ns))) as (st & E & L & R).
  - unfold A. rewrite !rev_length, axes_of_length by (rewrite pad_length; lia). auto.
  - unfold Af. rewrite !rev_length, axes_of_length by (rewrite pad_length; lia). auto.
  - apply CH; auto.
  - apply CH; auto.
  - intros c Hc. unfold A. rewrite DB by auto. apply BB; auto.
  - intros l El c Hc. unfold Af. rewrite DB by auto. destruct flags as [fs|]; [|discriminate]. cbn in El. injection El as <-. cbn [fshape] in *. apply BB; auto.
  - apply inside_zero. now apply Forall_rev.
  - rewrite num_zero, product_rev. lia.
  - exists st.
    rewrite !dot_zero in E. split; [exact E|]. split; [change (size ns) with (product ns); lia|].
    intros o Ho. pose proof (position_bound _ _ Ho) as PB. specialize (R (rev o) (inside_rev _ _ Ho)). rewrite num_zero, num_position in R by auto.
    rewrite Z.sub_0_r in R. rewrite R by lia. unfold A, Af. rewrite !DB by (auto; now apply inside_rev). rewrite rev_involutive, Ln. reflexivity.
Qed.
(** the elements of a slice, by index *)
Lemma view_inner : forall s n ks j, proper s -> length ks = length j ->
  fold_right Z.add 0 (map (fun '(x, (_, st)) => x * st) (combine (squeeze (along ks s) j) (dims_of s n ks))) = inner s n ks j.
Proof.
  intros s n ks j P. revert j. induction ks as [|k ks IH]; destruct j as [|x j]; intros L; try discriminate; [reflexivity|]. injection L as L.
  unfold along, dims_of. cbn [map squeeze combine fold_right inner]. fold (along ks s) (dims_of s n ks). rewrite IH by auto. f_equal.
  pose proof (ext_pos _ P k). destruct (ext s k =? 1) eqn:E.
  - destruct (1 <? ext s k); lia.
  - apply Z.eqb_neq in E. rewrite (proj2 (Z.ltb_lt _ _)) by lia. reflexivity.
Qed.
Lemma view_merge : forall (A : Type) (d : list A) s n ks o j, proper s -> NoDup ks -> (length s <= n)%nat -> length ks = length j ->
  view d (base s n ks o) (dims_of s n ks) (squeeze (along ks s) j) = at_index s d (merge n ks o j).
Proof. intros. unfold view, at_index. rewrite view_inner, position_merge by auto. reflexivity. Qed.
Lemma subshape_inside : forall s out j, (length s = length out)%nat -> proper s -> (forall k, ext s k = 1 \/ ext s k = ext out k) -> inside out j -> 0 <= position s j < size s.
Proof.
  intros s out j L P F H.
  assert (inside s (squeeze s j)) as I.
  { revert s L P F. induction H as [|n out x j Hx _ IH]; intros [|m s] L P F; try discriminate; [constructor|]. injection L as L.
    inversion P as [|m' s' Pm Ps]; subst. cbn [squeeze]. constructor.
    - destruct (F 0%nat) as [E|E]; cbn in E; subst; [rewrite Z.eqb_refl; lia|]. destruct (n =? 1) eqn:Q; [apply Z.eqb_eq in Q|]; lia.
    - apply IH; auto. intro k. apply (F (S k)). }
  assert (position s (squeeze s j) = position s j) as <-.
  { pose proof (inside_len _ _ H) as Lj. clear I H F P. unfold position. generalize 0. revert out j L Lj. induction s as [|m s IH]; intros [|n out] [|x j] L Lj a; try discriminate; [reflexivity|].
    cbn [squeeze position_from]. injection L as L. injection Lj as Lj. rewrite (IH out j L Lj). destruct (m =? 1); reflexivity. }
  now apply position_bound.
Qed.
Lemma along_ext : forall ks s i, ext (along ks s) i = if Nat.ltb i (length ks) then ext s (nth i ks 0%nat) else 1.
Proof.
  intros ks s i. unfold ext at 1. destruct (Nat.ltb i (length ks)) eqn:L.
  - apply Nat.ltb_lt in L. unfold along. rewrite (nth_indep _ 1 (ext s 0)) by (now rewrite map_length). apply (map_nth (ext s)).
  - apply Nat.ltb_ge in L. apply nth_overflow. unfold along. now rewrite map_length.
Qed.
Lemma stretch_merge : forall (A : Type) (d : list A) s n ks o j out, proper s -> NoDup ks -> (length s <= n)%nat -> trailing ks s ->
  (forall k, ext s k = 1 \/ ext s k = ext out k) -> inside (along ks out) j -> 0 <= base s n ks o ->
  at_index (along ks s) (stretch d (base s n ks o) (dims_of s n ks)) j = at_index s d (merge n ks o j).
Proof.
  intros A d s n ks o j out P ND L T F H Hb. pose proof (inside_len _ _ H) as Lj. unfold along in Lj. rewrite map_length in Lj.
  unfold at_index. rewrite position_merge by auto. rewrite (inner_position s n ks j L T Lj).
  apply stretch_nth; auto. rewrite dims_shape by auto. change (product (along ks s)) with (size (along ks s)).
  apply (subshape_inside (along ks s) (along ks out)); auto.
  - unfold along. now rewrite !map_length.
  - unfold along. apply Forall_map, Forall_forall. intros. now apply ext_pos.
  - intro i. rewrite !along_ext. destruct (Nat.ltb i (length ks)); auto.
Qed.

(** ** the slicer without flags *)
Lemma firstn_ext : forall k l i, ext (firstn k l) i = if Nat.ltb i k then ext l i else 1.
Proof.
  unfold ext. induction k as [|k IH]; intros l i; [now destruct i|]. destruct l as [|x l]; [cbn [firstn]; destruct (Nat.ltb i (S k)); destruct i; reflexivity|].
  destruct i as [|i]; [reflexivity|]. cbn [firstn nth]. rewrite IH. reflexivity.
Qed.
Lemma sl_loop_eq : forall vs vst ks ns sd, Forall (fun k => (k < 8)%nat) ks -> NoDup ks -> (length ns <= length vs)%nat ->
  (forall k, (length ns <= k < length vs)%nat -> sd k = true) -> (forall k, In k ks -> sd k = false) ->
  exists ns' sd', sl_loop vs vst (map Z.of_nat ks) ns sd = Ok (map (fun k => if Nat.ltb k (length vs) then (nth k vs 0, nth k vst 0) else (1, 1)) ks, ns', sd') /\
    (length ns' <= length ns)%nat /\ (forall k, ext ns' k = if member k ks then 1 else ext ns k) /\
    (forall k, sd' k = sd k || (member k ks && Nat.ltb k (length vs))) /\ (forall k, (length ns' <= k < length vs)%nat -> sd' k = true).
Proof.
  induction ks as [|a ks IH]; intros ns sd F ND L O Q.
  - exists ns, sd. cbn [map sl_loop]. split; [reflexivity|]. split; [lia|]. split; [reflexivity|]. split; [|auto]. intro k. cbn. now rewrite orb_false_r.
  - apply Forall_cons_iff in F as [Fa F]. inversion ND as [|x l Na ND']; subst. cbn [map sl_loop]. rewrite axis_ok by auto. cbn [bind].
    assert (forall k, In k ks -> Nat.eqb k a = false) as NE by (intros k Hk; apply Nat.eqb_neq; intros ->; auto).
    destruct (Nat.ltb a (length vs)) eqn:La.
    + apply Nat.ltb_lt in La.
      assert (a < length ns)%nat as Ha.
      { destruct (Nat.lt_ge_cases a (length ns)) as [H|H]; [exact H|]. pose proof (O a ltac:(lia)) as X. rewrite (Q a) in X; [discriminate|now left]. }
      set (sd1 := fun i => if Nat.eqb i a then true else sd i).
      set (ns1 := if Nat.eqb (S a) (length ns) then firstn a ns else set_nth a 1 ns).
      assert (length ns1 <= length ns /\ (forall k, (length ns1 <= k < length vs)%nat -> sd1 k = true))%nat as [L1 O1].
      { unfold ns1, sd1. destruct (Nat.eqb (S a) (length ns)) eqn:E.
        - apply Nat.eqb_eq in E. rewrite firstn_length. split; [lia|]. intros k Hk. destruct (Nat.eqb k a) eqn:K; [reflexivity|]. apply Nat.eqb_neq in K. apply O. lia.
        - rewrite set_nth_length. split; [lia|]. intros k Hk. destruct (Nat.eqb k a); auto. }
      destruct (IH ns1 sd1 F ND' ltac:(lia) O1) as (ns' & sd' & E & Ln & N & S1 & S2).
      { intros k Hk. unfold sd1. rewrite NE by auto. apply Q. now right. }
      assert ((if Nat.eqb (S a) (length ns) then
          bind (sl_loop vs vst (map Z.of_nat ks) (firstn a ns) sd1) (fun '(ds, ns, sd) => Ok ((nth a vs 0, nth a vst 0) :: ds, ns, sd))
        else bind (sl_loop vs vst (map Z.of_nat ks) (set_nth a 1 ns) sd1) (fun '(ds, ns, sd) => Ok ((nth a vs 0, nth a vst 0) :: ds, ns, sd)))
        = bind (sl_loop vs vst (map Z.of_nat ks) ns1 sd1) (fun '(ds, ns, sd) => Ok ((nth a vs 0, nth a vst 0) :: ds, ns, sd))) as W
        by (unfold ns1; destruct (Nat.eqb (S a) (length ns)); reflexivity).
      rewrite (proj2 (Nat.ltb_lt _ _) Ha). rewrite W, E. cbn [bind]. exists ns', sd'. split; [reflexivity|]. split; [lia|]. split; [|split; [|exact S2]].
      * intro k. rewrite N, member_cons. destruct (Nat.eqb k a) eqn:K; cbn [orb].
        -- apply Nat.eqb_eq in K. subst k. destruct (member a ks); [reflexivity|]. unfold ns1. destruct (Nat.eqb (S a) (length ns)).
           ++ rewrite firstn_ext. now rewrite Nat.ltb_irrefl.
           ++ rewrite set_nth_ext, Nat.eqb_refl, (proj2 (Nat.ltb_lt _ _) Ha). reflexivity.
        -- destruct (member k ks); [reflexivity|]. unfold ns1. destruct (Nat.eqb (S a) (length ns)) eqn:E1.
           ++ rewrite firstn_ext. apply Nat.eqb_eq in E1. apply Nat.eqb_neq in K. destruct (Nat.ltb k a) eqn:M; [reflexivity|]. apply Nat.ltb_ge in M. rewrite ext_over by lia. reflexivity.
           ++ rewrite set_nth_ext, K. reflexivity.
      * intro k. rewrite S1, member_cons. unfold sd1. destruct (Nat.eqb k a) eqn:K; [|reflexivity]. apply Nat.eqb_eq in K. subst k.
        cbn [orb andb]. rewrite (proj2 (Nat.ltb_lt _ _) La). now rewrite orb_true_r.
    + apply Nat.ltb_ge in La. destruct (IH ns sd F ND' L O) as (ns' & sd' & E & Ln & N & S1 & S2); [intros; apply Q; now right|].
      rewrite E. cbn [bind]. exists ns', sd'. split; [reflexivity|]. split; [lia|]. split; [|split; [|exact S2]].
      * intro k. rewrite N, member_cons. destruct (Nat.eqb k a) eqn:K; [|reflexivity]. apply Nat.eqb_eq in K. subst k. cbn [orb]. rewrite ext_over by lia. destruct (member a ks); reflexivity.
      * intro k. rewrite S1, member_cons. destruct (Nat.eqb k a) eqn:K; [|reflexivity]. apply Nat.eqb_eq in K. subst k. rewrite (proj2 (Nat.ltb_ge _ _) La), !andb_false_r. reflexivity.
Qed.
Definition sl_dims_of (s : list Z) (ks : list nat) : list (Z * Z) := map (fun k => if Nat.ltb k (length s) then (ext s k, stride_of s k) else (1, 1)) ks.
Lemma sl_dims_shape : forall s ks, map fst (sl_dims_of s ks) = along ks s.
Proof. intros. unfold sl_dims_of, along. rewrite map_map. apply map_ext. intro k. destruct (Nat.ltb k (length s)) eqn:L; [reflexivity|]. apply Nat.ltb_ge in L. now rewrite ext_over. Qed.
Lemma sl_init_eq : forall vs ks, proper vs -> good_axes ks -> (length ks <= length vs)%nat ->
  exists ns sd, sl_init vs (map Z.of_nat ks) = Ok {| sl_dims := sl_dims_of vs ks; sl_ns := ns; sl_axes := axes_of sd vs (length ns) |} /\
    (length ns <= length vs)%nat /\ proper ns /\ without ks vs ns /\
    (forall k, (k < length vs)%nat -> sd k = member k ks) /\ (forall k, (length ns <= k < length vs)%nat -> member k ks = true).
Proof.
  intros vs ks P [ND F] L. unfold sl_init. rewrite map_length, (proj2 (Nat.ltb_ge _ _) L).
  destruct (sl_loop_eq vs (fst (src_strides vs)) ks vs (fun _ => false) F ND (le_n _)) as (ns & sd & E & Ln & N & S1 & S2); [intros; lia|reflexivity|].
  rewrite E. cbn [bind]. exists ns, sd.
  assert (forall k, (k < length vs)%nat -> sd k = member k ks) as S3 by (intros k Hk; rewrite S1, (proj2 (Nat.ltb_lt _ _) Hk), andb_true_r; reflexivity).
  split; [|split; [exact Ln|split; [|split; [exact N|split; [exact S3|]]]]].
  - f_equal. f_equal. unfold sl_dims_of, stride_of. apply map_ext. intro k. destruct (Nat.ltb k (length vs)) eqn:K; [|reflexivity]. apply Nat.ltb_lt in K.
    f_equal. unfold ext. now apply nth_indep.
  - apply proper_of_ext. intro k. rewrite N. pose proof (ext_pos _ P k). destruct (member k ks); lia.
  - intros k Hk. rewrite <- S3 by lia. auto.
Qed.
Lemma sl_starts_eq : forall vs ks ns sd, proper vs -> (length ns <= length vs)%nat -> proper ns -> without ks vs ns ->
  (forall k, (k < length vs)%nat -> sd k = member k ks) -> (forall k, (length ns <= k < length vs)%nat -> member k ks = true) ->
  exists st, sl_starts {| sl_dims := sl_dims_of vs ks; sl_ns := ns; sl_axes := axes_of sd vs (length ns) |} = Ok st /\ Z.of_nat (length st) = size ns /\
    forall o, inside ns o -> nth_error st (Z.to_nat (position ns o)) = Some (base vs (length vs) ks o).
Proof.
  intros vs ks ns sd P L Pn W S3 M. unfold sl_starts. cbn [sl_dims sl_ns sl_axes]. pose proof (product_pos _ Pn) as Pp. rewrite map_const_rev.
  assert (flip (rev (axes_of sd vs (length ns))) = rev (axes_of (fun k => negb (sd k)) vs (length ns))) as FL.
  { unfold flip. rewrite map_rev. f_equal. unfold axes_of. generalize (fst (src_strides vs)) as l. generalize 0%nat as a. generalize (length ns) as m.
    induction m as [|m IH]; intros a l; [reflexivity|]. destruct l as [|x l]; [reflexivity|]. cbn [seq map combine]. f_equal. apply IH. }
  destruct (sl_run_ok (Z.to_nat (product ns)) (rev ns) (rev (axes_of sd vs (length ns))) (map (fun _ => 0) (rev ns))) as (st & E & Ls & R).
  - rewrite !rev_length, axes_of_length by auto. reflexivity.
  - rewrite FL. apply chained_axes; auto. intros k Hk R. rewrite S3 in R by lia. rewrite W. destruct (member k ks); [discriminate|reflexivity].
  - intros i Hi. set (A := axes_of sd vs (length ns)) in *. assert (length A = length ns) as LA by (apply axes_of_length; auto).
    assert (i < length ns)%nat as Li.
    { destruct (Nat.lt_ge_cases i (length ns)) as [H|H]; [exact H|]. rewrite nth_overflow in Hi by (rewrite map_length, rev_length; lia). discriminate. }
    assert (nth_error (map fst (rev A)) i = Some true) as Ei by (rewrite <- Hi; apply nth_error_nth'; rewrite map_length, rev_length; lia).
    rewrite nth_error_map, nth_error_rev in Ei by lia. unfold A in Ei. fold A in Ei. rewrite LA in Ei. unfold A in Ei. rewrite axes_of_nth in Ei by lia.
    cbn [option_map fst] in Ei. injection Ei as Ei. rewrite rev_nth by lia. fold (ext ns (length ns - S i)). rewrite W. rewrite S3 in Ei by lia. now rewrite Ei.
  - apply inside_zero. now apply Forall_rev.
  - rewrite num_zero, product_rev. lia.
  - exists st. rewrite dot_zero in E. split; [exact E|]. split; [change (size ns) with (product ns); lia|].
    intros o Ho. pose proof (position_bound _ _ Ho) as PB. pose proof (inside_len _ _ Ho) as Lo. specialize (R (rev o) (inside_rev _ _ Ho)). rewrite num_zero, num_position in R by auto.
    rewrite Z.sub_0_r in R. rewrite R by lia. f_equal. rewrite FL, dot_rev by (rewrite axes_of_length by auto; lia).
    rewrite dot_axes by auto. unfold base. rewrite pad_same. replace (length vs) with (length ns + (length vs - length ns))%nat by lia.
    rewrite seq_app. unfold zsum at 2. rewrite map_app, fold_right_app. cbn [Nat.add].
    assert (forall f, (forall k, (length ns <= k < length vs)%nat -> f k = 0) -> fold_right Z.add 0 (map f (seq (length ns) (length vs - length ns))) = 0) as Z0.
    { intros f Hf. apply (zsum_zero _ f). intros k Hk. apply in_seq in Hk. apply Hf. lia. }
    rewrite Z0 by (intros k Hk; rewrite M by lia; reflexivity). apply zsum_ext. intros k Hk. apply in_seq in Hk. rewrite S3 by lia.
    destruct (member k ks) eqn:Mk; cbn [negb]; [reflexivity|]. unfold sq. destruct (ext vs k =? 1) eqn:E1; [|reflexivity].
    apply Z.eqb_eq in E1. pose proof (coord_inside _ _ k Ho ltac:(lia)) as C. rewrite W, Mk in C. replace (coord o k) with 0 by lia. reflexivity.
Qed.
Lemma sl_view_inner : forall s ks j, inside (along ks s) j ->
  fold_right Z.add 0 (map (fun '(x, (_, st)) => x * st) (combine j (sl_dims_of s ks))) = inner s (length s) ks j.
Proof.
  intros s ks j. revert j. induction ks as [|k ks IH]; intros j H; inversion H as [|n s' x j' Hx Hin]; subst; [reflexivity|].
  unfold sl_dims_of. cbn [map combine fold_right inner]. fold (sl_dims_of s ks). rewrite IH by auto. f_equal. rewrite pad_same.
  destruct (Nat.ltb k (length s)) eqn:L.
  - destruct (ext s k =? 1) eqn:E; [|reflexivity]. apply Z.eqb_eq in E. rewrite E in Hx. replace x with 0 by lia. reflexivity.
  - apply Nat.ltb_ge in L. rewrite ext_over in * by auto. replace x with 0 by lia. reflexivity.
Qed.
Lemma sl_view_merge : forall (A : Type) (d : list A) s ks o j, NoDup ks -> inside (along ks s) j ->
  view d (base s (length s) ks o) (sl_dims_of s ks) j = at_index s d (merge (length s) ks o j).
Proof.
  intros A d s ks o j ND H. unfold view, at_index. rewrite sl_view_inner by auto. rewrite position_merge; auto.
  pose proof (inside_len _ _ H) as L. unfold along in L. rewrite map_length in L. auto.
Qed.

(** ** every element is in exactly one slice *)
Lemma find_axis_nth : forall ks k i, find_axis k ks = Some i -> nth_error ks i = Some k.
Proof.
  induction ks as [|a ks IH]; intros k i H; [discriminate|]. cbn [find_axis] in H. destruct (Nat.eqb a k) eqn:E.
  - injection H as <-. apply Nat.eqb_eq in E. subst. reflexivity.
  - destruct (find_axis k ks) as [i'|] eqn:F; [|discriminate]. injection H as <-. cbn. auto.
Qed.
Lemma find_axis_in : forall ks i, NoDup ks -> (i < length ks)%nat -> find_axis (nth i ks 0%nat) ks = Some i.
Proof.
  induction ks as [|a ks IH]; intros i ND L; [cbn in L; lia|]. inversion ND as [|x l Na ND']; subst. destruct i as [|i]; cbn [nth find_axis].
  - now rewrite Nat.eqb_refl.
  - cbn in L. rewrite (proj2 (Nat.eqb_neq _ _)); [rewrite IH by (auto; lia); reflexivity|]. intros ->. apply Na, nth_In. lia.
Qed.
Lemma find_axis_member : forall ks k, member k ks = match find_axis k ks with Some _ => true | None => false end.
Proof.
  induction ks as [|a ks IH]; intro k; [reflexivity|]. rewrite member_cons. cbn [find_axis]. rewrite Nat.eqb_sym. destruct (Nat.eqb a k); [reflexivity|].
  cbn [orb]. rewrite IH. destruct (find_axis k ks); reflexivity.
Qed.
Lemma merge_inside : forall out ks ns o j, good_axes ks -> without ks out ns -> inside ns o -> proper out -> inside (along ks out) j ->
  inside out (merge (length out) ks o j).
Proof.
  intros out ks ns o j [ND _] W Ho P Hj. pose proof (inside_len _ _ Hj) as Lj. unfold along in Lj. rewrite map_length in Lj.
  apply inside_coord; [apply merge_length|]. intros k Hk. rewrite coord_merge by auto. destruct (find_axis k ks) as [i|] eqn:F.
  - apply find_axis_nth in F. assert (i < length ks)%nat as Hi by (apply nth_error_Some; congruence).
    pose proof (coord_inside _ _ i Hj) as C. unfold along in C at 1. rewrite map_length in C. specialize (C Hi).
    rewrite along_ext, (proj2 (Nat.ltb_lt _ _) Hi) in C. rewrite (nth_error_nth _ _ 0%nat F) in C. exact C.
  - pose proof (W k) as Wk. rewrite find_axis_member, F in Wk. destruct (Nat.lt_ge_cases k (length ns)) as [H|H].
    + rewrite <- Wk. now apply coord_inside.
    + rewrite coord_over by (pose proof (inside_len _ _ Ho); lia). pose proof (ext_pos _ P k). lia.
Qed.
Lemma coord_map_seq : forall f n k, (k < n)%nat -> coord (map f (seq 0 n)) k = f k.
Proof. intros. unfold coord. rewrite (nth_indep _ 0 1) by (now rewrite map_length, seq_length). now apply nth_map_seq. Qed.
Lemma merge_onto : forall out ks ns idx, good_axes ks -> without ks out ns -> proper out -> inside out idx -> (length ns <= length out)%nat ->
  exists o j, inside ns o /\ inside (along ks out) j /\ merge (length out) ks o j = idx.
Proof.
  intros out ks ns idx [ND _] W P H L. pose proof (inside_len _ _ H) as Li.
  exists (map (fun k => if member k ks then 0 else coord idx k) (seq 0 (length ns))), (map (coord idx) ks). split; [|split].
  - apply inside_coord; [now rewrite map_length, seq_length|]. intros k Hk. rewrite coord_map_seq by auto. rewrite W.
    destruct (member k ks); [lia|]. apply coord_inside; auto. lia.
  - unfold along. clear W. induction ks as [|k ks IH]; [constructor|]. inversion ND; subst. cbn [map]. constructor; auto.
    destruct (Nat.lt_ge_cases k (length out)); [now apply coord_inside|]. rewrite coord_over by lia. rewrite ext_over by auto. lia.
  - apply (nth_ext _ _ 0 0); [rewrite merge_length; lia|]. rewrite merge_length. intros k Hk. fold (coord idx k).
    change (coord (merge (length out) ks (map (fun k => if member k ks then 0 else coord idx k) (seq 0 (length ns))) (map (coord idx) ks)) k = coord idx k).
    rewrite coord_merge by auto. destruct (find_axis k ks) as [i|] eqn:F.
    + apply find_axis_nth in F. unfold coord at 1. apply (map_nth_error (coord idx)) in F. now apply nth_error_nth.
    + destruct (Nat.lt_ge_cases k (length ns)) as [Hn|Hn].
      * rewrite coord_map_seq by auto. rewrite find_axis_member, F. reflexivity.
      * rewrite coord_over by (rewrite map_length, seq_length; auto). pose proof (coord_inside _ _ k H Hk) as C. pose proof (W k) as Wk. rewrite find_axis_member, F, ext_over in Wk by auto. lia.
Qed.
Lemma merge_once : forall out ks ns o j o' j', good_axes ks -> without ks out ns -> proper out -> (length ns <= length out)%nat ->
  inside ns o -> inside ns o' -> inside (along ks out) j -> inside (along ks out) j' ->
  merge (length out) ks o j = merge (length out) ks o' j' -> o = o' /\ j = j'.
Proof.
  intros out ks ns o j o' j' [ND _] W P L Ho Ho' Hj Hj' E.
  assert (forall k, (k < length out)%nat -> coord (merge (length out) ks o j) k = coord (merge (length out) ks o' j') k) as Ek by (intros; congruence).
  pose proof (inside_len _ _ Ho) as L1. pose proof (inside_len _ _ Ho') as L2. pose proof (inside_len _ _ Hj) as L3. pose proof (inside_len _ _ Hj') as L4.
  split.
  - apply (nth_ext _ _ 0 0); [congruence|]. intros k Hk. fold (coord o k) (coord o' k). specialize (Ek k ltac:(lia)). rewrite !coord_merge in Ek by lia.
    destruct (find_axis k ks) as [i|] eqn:F; [|exact Ek]. pose proof (coord_inside _ _ k Ho ltac:(lia)) as C1. pose proof (coord_inside _ _ k Ho' ltac:(lia)) as C2.
    pose proof (W k) as Wk. rewrite find_axis_member, F in Wk. lia.
  - apply (nth_ext _ _ 0 0); [congruence|]. intros i Hi. fold (coord j i) (coord j' i). unfold along in L3, L4. rewrite map_length in L3, L4.
    assert (i < length ks)%nat as Hi' by lia. destruct (Nat.lt_ge_cases (nth i ks 0%nat) (length out)) as [Hn|Hn].
    + specialize (Ek _ Hn). rewrite !coord_merge, !find_axis_in in Ek by auto. exact Ek.
    + pose proof (coord_inside _ _ i Hj) as C1. pose proof (coord_inside _ _ i Hj') as C2. rewrite along_ext, (proj2 (Nat.ltb_lt _ _) Hi'), ext_over in C1, C2 by auto.
      unfold along in C1, C2. rewrite map_length in C1, C2. specialize (C1 Hi'). specialize (C2 Hi'). lia.
Qed.
