(** Theorems about polynomial funklets. *)
From Coq Require Import QArith Qcanon.
From Verif Require Import Base Polc_Model Polc_Spec Polc_Alg Polc_Proofs Polc_Solve Vel_Spec.
Close Scope Q_scope. Local Open Scope Qc_scope. Local Open Scope nat_scope.

(** ** Values *)
(** The value of a polynomial of one or two axes whose domain covers the cells, the second axis coming
    after the first: at every cell it is the polynomial at the (transformed) cell centre. *)
Theorem polc_values_partial axf f c : proper_polc f -> axes_ok f c ->
  exists v, do_evaluate axf f c 0 = Ok {| o_main := Some v; o_pert := [] |} /\
  forall idx, cell_index (c_rank c) (fun a => length (ctr c a)) idx ->
    at_index (v_shape v) (v_data v) idx = Some (polc_at f (axf (axis f 0) (along c (axis f 0) idx)) (axf (axis f 1) (along c (axis f 1) idx))).
Proof.
  intros P A. destruct (eval_any axf f c P A) as (sh & pts & Sh & EV). eexists. split.
  - rewrite (EV f (same_refl f) 0); [reflexivity|left; reflexivity].
  - intros idx Hi. exact (Sh (hval f) (poly_indep f) idx Hi).
Qed.
Print Assumptions polc_values_partial.

(** ** Cells beyond the domain *)
Lemma qltb_or x y : qltb x y = true /\ Qclt x y \/ qltb x y = false /\ Qcle y x.
Proof.
  destruct (qltb x y) eqn:E; [left; split; [reflexivity|now apply qltb_true]|right; split; [reflexivity|]].
  apply Qcnot_lt_le. intros H. apply qltb_true in H. congruence.
Qed.
Definition within (lo hi x : Qc) : bool := negb (qltb x lo) && negb (qltb hi x).
Lemma first_in_spec lo : forall g, (exists x, In x g /\ Qcle lo x) -> exists a b, g = a ++ b /\ first_in g lo = Ok (length a) /\ Forall (fun x => qltb x lo = true) a /\ (exists x b', b = x :: b' /\ qltb x lo = false).
Proof.
  induction g as [|x g IH]; intros (y & Iy & Ly); [destruct Iy|]. cbn [first_in]. destruct (qltb_or x lo) as [[E L]|[E L]]; rewrite E.
  - destruct IH as (a & b & -> & F & Fa & Fb).
    { destruct Iy as [->|Iy]; [exfalso; exact (Qclt_not_le _ _ L Ly)|eauto]. }
    exists (x :: a), b. rewrite F. cbn. auto.
  - exists [], (x :: g). repeat split; auto. eauto.
Qed.
Lemma last_in_spec hi : forall g, (exists x, In x g /\ Qcle x hi) -> exists a b, g = a ++ b /\ last_in g hi = Ok (length b - 1) /\ Forall (fun x => qltb hi x = true) a /\ (exists x b', b = x :: b' /\ qltb hi x = false).
Proof.
  induction g as [|x g IH]; intros (y & Iy & Ly); [destruct Iy|]. destruct (qltb_or hi x) as [[E L]|[E L]].
  - destruct IH as (a & b & -> & F & Fa & Fb).
    { destruct Iy as [->|Iy]; [exfalso; exact (Qclt_not_le _ _ L Ly)|eauto]. }
    exists (x :: a), b. split; [reflexivity|]. split; [|auto]. destruct (a ++ b) eqn:AB; [destruct Fb as (? & ? & -> & _); now destruct a|].
    cbn [last_in] in *. rewrite E. exact F.
  - exists [], (x :: g). split; [reflexivity|]. split; [|split; [constructor|eauto]]. cbn [last_in length]. destruct g; [reflexivity|]. rewrite E. try (f_equal; cbn; lia).
Qed.
Fixpoint increasing (g : list Qc) : Prop :=
  match g with [] => True | x :: g => Forall (fun y => Qcle x y) g /\ increasing g end.
Lemma increasing_app a b : increasing (a ++ b) -> increasing a /\ increasing b /\ forall x y, In x a -> In y b -> Qcle x y.
Proof.
  induction a as [|z a IH]; cbn; [intros H; repeat split; auto; intros x y []|]. intros [F H]. apply Forall_app in F as [F1 F2]. destruct (IH H) as (A & B & C).
  repeat split; auto. intros x y [->|Ix] Iy; [rewrite Forall_forall in F2; auto|auto].
Qed.
Lemma filter_none {A} (p : A -> bool) l : (forall x, In x l -> p x = false) -> filter p l = [].
Proof. induction l as [|x l IH]; intros H; [reflexivity|]. cbn. rewrite (H x) by now left. apply IH. intros; apply H; now right. Qed.
Lemma filter_all {A} (p : A -> bool) l : (forall x, In x l -> p x = true) -> filter p l = l.
Proof. induction l as [|x l IH]; intros H; [reflexivity|]. cbn. rewrite (H x) by now left. f_equal. apply IH. intros; apply H; now right. Qed.
Lemma clip_within f c i g : increasing g -> (exists x, In x g /\ Qcle (d_start (domain f) i) x /\ Qcle x (d_stop (domain f) i)) ->
  Qclt (c_start c i) (d_start (domain f) i) \/ Qclt (d_stop (domain f) i) (c_stop c i) ->
  clip f c i g = Ok (Some (filter (within (d_start (domain f) i) (d_stop (domain f) i)) g)).
Proof.
  intros IG (y & Iy & L1 & L2) C. unfold clip. set (lo := d_start (domain f) i) in *. set (hi := d_stop (domain f) i) in *.
  replace (qltb (c_start c i) lo || qltb hi (c_stop c i)) with true by (symmetry; apply orb_true_iff; destruct C as [C|C]; apply qltb_true in C; auto).
  destruct (first_in_spec lo g) as (a & b & Eab & F1 & Fa & (xb & b' & Eb & Hb)); [eauto|]. rewrite F1. cbn [bind].
  destruct (last_in_spec hi (rev g)) as (d & e & Ede & F2 & Fd & (xe & e' & Ee & He)); [exists y; split; [now apply in_rev in Iy|exact L2]|]. rewrite F2. cbn [bind].
  assert (Eg : g = rev e ++ rev d) by (rewrite <- rev_app_distr, <- Ede; now rewrite rev_involutive).
  (* the element found lies in both parts *)
  assert (Lab : length a < length (rev e)).
  { destruct (Nat.lt_ge_cases (length a) (length (rev e))) as [L|L]; [exact L|exfalso]. apply In_nth_error in Iy as (n & En). destruct (Nat.lt_ge_cases n (length a)) as [N|N].
    - rewrite Eab, nth_error_app1 in En by auto. apply nth_error_In in En. rewrite Forall_forall in Fa. apply Fa, qltb_true in En. exact (Qclt_not_le _ _ En L1).
    - rewrite Eg, nth_error_app2 in En by lia. apply nth_error_In in En. apply in_rev in En. rewrite Forall_forall in Fd. apply Fd, qltb_true in En. exact (Qclt_not_le _ _ En L2). }
  rewrite rev_length in Lab. replace (Nat.ltb (length e - 1) (length a)) with false by (symmetry; apply Nat.ltb_ge; lia).
  do 2 f_equal. replace (length e - 1 - length a + 1) with (length e - length a) by lia. rewrite Eab at 1. rewrite skipn_app, skipn_all, Nat.sub_diag. cbn [app skipn].
  (* b is the rest of rev e and rev d *)
  set (m := firstn (length e - length a) b). assert (Em : b = m ++ rev d).
  { rewrite <- (firstn_skipn (length e - length a) b). fold m. f_equal.
    assert (H : skipn (length e) g = rev d) by (rewrite Eg, skipn_app, skipn_all2 by (rewrite rev_length; lia); rewrite rev_length, Nat.sub_diag; reflexivity).
    rewrite <- H, Eab, skipn_app, (skipn_all2 a) by lia. reflexivity. }
  rewrite Eab, Em, !filter_app. rewrite (filter_none _ a), (filter_none _ (rev d)).
  - rewrite app_nil_r. cbn [app]. symmetry. apply filter_all. intros x Ix. rewrite Eab in IG. destruct (increasing_app _ _ IG) as (_ & IB & _).
    assert (H1 : qltb x lo = false).
    { destruct (qltb_or x lo) as [[E L]|[E _]]; [exfalso|exact E]. assert (Qcle xb x).
      { rewrite Em in Eb. rewrite Eb in Em. destruct m as [|z m']; [destruct Ix|]. cbn in Eb. injection Eb as <- Eb. destruct Ix as [->|Ix]; [apply Qcle_refl|].
        rewrite Em in IB. cbn in IB. destruct IB as [IB _]. rewrite Forall_forall in IB. apply IB. rewrite <- Eb. apply in_app_iff. auto. }
      destruct (qltb_or xb lo) as [[E' _]|[_ L']]; [congruence|]. exact (Qclt_not_le _ _ L (Qcle_trans _ _ _ L' H)). }
    assert (H2 : qltb hi x = false).
    { destruct (qltb_or hi x) as [[E L]|[E _]]; [exfalso|exact E]. assert (Ixe : In x (rev e)).
      { assert (Eam : rev e = a ++ m). { apply (app_inv_tail (rev d)). rewrite <- Eg, Eab, Em. now rewrite app_assoc. } rewrite Eam. apply in_app_iff. auto. }
      rewrite Ee in Ixe. cbn [rev] in Ixe. assert (Qcle x xe).
      { apply in_app_iff in Ixe as [Ixe|[->|[]]]; [|apply Qcle_refl]. assert (IGe : increasing (rev e)) by (rewrite <- Eab in IG; rewrite Eg in IG; now apply increasing_app in IG).
        rewrite Ee in IGe. cbn [rev] in IGe. destruct (increasing_app _ _ IGe) as (_ & _ & H). apply H; [exact Ixe|now left]. }
      destruct (qltb_or hi xe) as [[E' _]|[_ L']]; [congruence|]. exact (Qclt_not_le _ _ L (Qcle_trans _ _ _ H L')). }
    unfold within. now rewrite H1, H2.
  - intros x Ix. apply in_rev in Ix. rewrite Forall_forall in Fd. unfold within. rewrite (Fd x Ix). apply andb_false_r.
  - intros x Ix. rewrite Forall_forall in Fa. unfold within. rewrite (Fa x Ix). reflexivity.
Qed.
(** A polynomial in the first axis on increasing cells that are not all in its domain: the value covers the cells whose
    centres are in the domain, and only those (their place among the cells is lost). *)
Theorem polc_clipped_values axf f c n g : f_axes f = [0] -> f_shape f = [n] -> length (f_coeff f) = n -> 1 < n -> f_off f <> [] -> f_scl f <> [] ->
  0 < c_rank c -> c_center c 0 = Some g -> increasing g ->
  let lo := d_start (domain f) 0 in let hi := d_stop (domain f) 0 in
  Qclt (c_start c 0) lo \/ Qclt hi (c_stop c 0) -> (exists x, In x g /\ Qcle lo x /\ Qcle x hi) ->
  exists v l, do_evaluate axf f c 0 = Ok {| o_main := Some v; o_pert := [] |} /\ (forall x, In x l <-> In x g /\ Qcle lo x /\ Qcle x hi) /\ increasing l /\
    length l = length (filter (within lo hi) g) /\
    v_shape v = Z.of_nat (length l) :: repeat 1%Z (c_rank c - 1) /\ v_data v = map (fun x => polc_at f (axf 0 x) q0) l.
Proof.
  intros Ea Es El N No Ns R0 Ec IG lo hi C EX. pose proof (clip_within f c 0 g IG EX C) as K. fold lo hi in K.
  set (l := filter (within lo hi) g) in *. set (gg := map (normalise f 0) (map (axf 0) l)).
  assert (L1 : 1 <= length l).
  { destruct EX as (x & Ix & A & B). assert (H : In x l) by (apply filter_In; split; [exact Ix|]; unfold within; now rewrite (qltb_false _ _ A), (qltb_false _ _ B)).
    destruct l; [destruct H|cbn; lia]. }
  assert (Lg : length gg = length l) by (unfold gg; now rewrite !map_length).
  destruct (c_rank c) as [|r] eqn:Rk; [lia|].
  assert (G : grids axf f c 0 [n] (repeat 1%Z (S r)) = Ok (Some ([gg], Z.of_nat (length l) :: repeat 1%Z r))).
  { cbn [grids]. replace (Nat.ltb 1 n) with true by (symmetry; now apply Nat.ltb_lt). rewrite Ea. cbn [nth_error]. rewrite Ec, K. cbn [bind].
    destruct (f_off f) as [|o os]; [congruence|]. destruct (f_scl f) as [|s ss] eqn:Fs; [congruence|]. rewrite Rk. cbn [length Nat.leb orb repeat set_nth bind option_map].
    fold gg. rewrite Lg. rewrite Z.max_l by lia. reflexivity. }
  exists {| v_shape := Z.of_nat (length l) :: repeat 1%Z r; v_data := map (horner (f_coeff f)) gg |}, l. split; [|split; [|split; [|split; [|split]]]].
  - unfold do_evaluate. rewrite Es, Rk, G. cbn [bind]. rewrite El. replace (Nat.eqb n 1) with false by (symmetry; apply Nat.eqb_neq; lia). cbn [Nat.ltb Nat.leb andb].
    rewrite store_full; [reflexivity|]. rewrite map_length, Lg. unfold Polc_Model.size. cbn [fold_right]. rewrite prod_ones. lia.
  - intros x. unfold l. rewrite filter_In. unfold within. split.
    + intros [Ix H]. apply andb_true_iff in H as [H1 H2]. split; [exact Ix|]. destruct (qltb_or x lo) as [[E _]|[_ L]]; [rewrite E in H1; discriminate|]. destruct (qltb_or hi x) as [[E _]|[_ L']]; [rewrite E in H2; discriminate|]. auto.
    + intros (Ix & A & B). split; [exact Ix|]. now rewrite (qltb_false _ _ A), (qltb_false _ _ B).
  - unfold l. clear -IG. induction g as [|x g IH]; [exact Logic.I|]. cbn in IG. destruct IG as [F IG]. cbn. destruct (within lo hi x); [|auto]. split; [|auto].
    rewrite Forall_forall in *. intros y Iy. apply filter_In in Iy. apply F. apply Iy.
  - reflexivity.
  - cbn [v_shape]. now replace (S r - 1) with r by lia.
  - cbn [v_data]. unfold gg. rewrite !map_map. apply map_ext. intros x. rewrite normalise_rel. unfold polc_at, nx, ny. rewrite Es. cbn [nth]. now apply horner_poly_x.
Qed.
Print Assumptions polc_clipped_values.
(** cells at 1, 3, 5, 7; domain 2 to 6: values at 3 and 5 *)
Example ex_clipped : do_evaluate (fun _ x => x)
    {| f_axes := [0]; f_off := [q0]; f_scl := [q1]; f_dom := Some {| d_start := fun _ => Q2Qc 2; d_stop := fun _ => Q2Qc 6 |};
       f_shape := [2]; f_coeff := [Q2Qc 10; q1]; f_pert := q1; f_mask := None; f_spids := []; f_inx := []; f_perts := []; f_spid_perts := [] |}
    {| c_rank := 2; c_center := fun a => Some (map (fun z => Q2Qc (inject_Z z)) [1; 3; 5; 7]%Z); c_start := fun _ => q0; c_stop := fun _ => Q2Qc 8 |} 0
  = Ok {| o_main := Some {| v_shape := [2; 1]%Z; v_data := [Q2Qc 13; Q2Qc 15] |}; o_pert := [] |}.
Proof. vm_compute. reflexivity. Qed.

(** A funklet that is not to be solved for has no spids, whatever it had before, and gives no perturbed values. *)
Theorem parm_not_solvable i f d axf c mp : exists f', initSolvable i false f d = Ok f' /\ f_spids f' = [] /\ f_coeff f' = f_coeff f /\
  (forall out, evaluate axf f' c mp = Ok out -> e_spids out = [] /\ e_perts out = []).
Proof.
  eexists. split; [reflexivity|]. split; [reflexivity|]. split; [reflexivity|]. intros out E. unfold evaluate in E. cbn [f_spids clearSolvable with_solvable] in E.
  destruct (do_evaluate _ _ c 0); try discriminate. cbn [bind] in E. injection E as <-. auto.
Qed.
Print Assumptions parm_not_solvable.

(** ** Perturbed values *)
(** A solvable funklet hands out, for spid number [s] and perturbation set [ip], exactly one perturbed
    value: what the funklet evaluates to when the coefficient of that spid is changed by the
    perturbation reported for it (and by its opposite in the second set). *)
Theorem polc_perturbed_values axf f0 f c spid mp :
  proper_polc f0 -> axes_ok f0 c -> makeSolvable f0 spid = Ok f -> f_spids f <> [] -> (1 < nx f0 -> ny f0 <= 10) -> mp <= 2 ->
  exists out, evaluate axf f c mp = Ok out /\
    forall k s ip, nth_error (f_inx f) k = Some (Some s) -> ip < mp ->
      exists d v, d = (if Nat.eqb ip 0 then f_pert f0 else Qcopp (f_pert f0)) /\ nth_error (nth ip (e_perts out) []) s = Some d
        /\ nth_error (e_spids out) s = Some (spid + Z.of_nat s)%Z
        /\ (forall v', In (ip, s, v') (o_pert (e_values out)) <-> v' = v)
        /\ do_evaluate axf (with_coeff f (f_shape f) (bumped (f_coeff f) k d)) c 0 = Ok {| o_main := Some v; o_pert := [] |}.
Proof.
  intros P A M NE N10 M2. destruct (polc_solved _ _ _ M) as ((mask & Sv) & Sg & Ep & _). destruct (same_nx _ _ Sg) as [X Y].
  destruct (perturbed_values_aux axf f c spid mask mp (same_proper _ _ Sg P) (same_axes_ok _ _ _ Sg A) Sv NE) as (out & v0 & E & _ & H).
  - rewrite X, Y. exact N10.
  - exact M2.
  - exists out. split; [exact E|]. rewrite <- Ep. intros k s ip Ek Lip. destruct (H k s ip Ek Lip) as (d & v & Ed & R). exists d, v. split; [|exact R].
    rewrite Ed. destruct ip as [|[|ip]]; [reflexivity|reflexivity|lia].
Qed.
Print Assumptions polc_perturbed_values.

(** Taking the step that a perturbation stands for gives the perturbed value. *)
Theorem polc_update_reaches_perturbed_value axf f0 f c spid mp k s ip :
  proper_polc f0 -> axes_ok f0 c -> makeSolvable f0 spid = Ok f -> (1 < nx f0 -> ny f0 <= 10) -> mp <= 2 ->
  nth_error (f_inx f) k = Some (Some s) -> ip < mp ->
  exists out v d f', evaluate axf f c mp = Ok out /\ In (ip, s, v) (o_pert (e_values out))
    /\ nth_error (nth ip (e_perts out) []) s = Some d
    /\ update f (unit_step (length (f_spids f)) s d) = Ok f'
    /\ do_evaluate axf f' c 0 = Ok {| o_main := Some v; o_pert := [] |}.
Proof.
  intros P A M N10 M2 Ek Lip. destruct (polc_solved _ _ _ M) as ((mask & Sv) & Sg & Ep & _).
  assert (NE : f_spids f <> []).
  { destruct (solved_inx _ _ _ _ _ Sv Ek) as (_ & _ & _ & L). destruct Sv as (_ & _ & Es & _). intros H. rewrite H in Es.
    destruct (rank_of mask (length (f_coeff f))); [lia|discriminate]. }
  destruct (polc_perturbed_values axf f0 f c spid mp P A M NE N10 M2) as (out & E & H).
  destruct (H k s ip Ek Lip) as (d & v & Ed & Epd & Esp & Iv & EV).
  exists out, v, d, (with_coeff f (f_shape f) (bumped (f_coeff f) k d)). split; [exact E|]. split; [apply Iv; reflexivity|]. split; [exact Epd|].
  split; [exact (update_unit f spid mask k s d Sv Ek)|exact EV].
Qed.
Print Assumptions polc_update_reaches_perturbed_value.

(** an update adds to each solvable coefficient the value given for its spid, and changes no other *)
Theorem polc_update f0 f spid vals : makeSolvable f0 spid = Ok f -> length vals = length (f_spids f) ->
  exists f', update f vals = Ok f' /\ f_spids f' = f_spids f /\ f_shape f' = f_shape f /\ length (f_coeff f') = length (f_coeff f)
    /\ forall k, k < length (f_coeff f) ->
         nth k (f_coeff f') q0 = Qcplus (nth k (f_coeff f) q0) (match nth k (f_inx f) None with Some s => nth s vals q0 | None => q0 end).
Proof.
  intros M L. destruct (polc_solved _ _ _ M) as ((mask & Sv) & _). pose proof Sv as (_ & _ & Es & _ & Ei).
  destruct (add_updates_ok vals (f_inx f) (f_coeff f)) as (cs & E & Lc & N).
  - rewrite Ei, map_length, seq_length. reflexivity.
  - intros s H. apply In_nth_error in H. destruct H as [k H]. destruct (solved_inx _ _ _ _ _ Sv H) as (_ & _ & _ & X). rewrite L, Es, map_length, seq_length. exact X.
  - exists (with_coeff f (f_shape f) cs). unfold update. rewrite E. cbn [bind]. split; [reflexivity|]. split; [reflexivity|]. split; [reflexivity|]. split; [exact Lc|exact N].
Qed.
Print Assumptions polc_update.

(** ** Spids *)
(** Spids are consecutive from the one given; every spid belongs to exactly one coefficient, in the
    order of the coefficients, and getCoeffIndex finds it. *)
Theorem polc_spids f0 f spid : makeSolvable f0 spid = Ok f ->
  f_spids f = map (fun i => (spid + Z.of_nat i)%Z) (seq 0 (length (f_spids f)))
  /\ length (f_inx f) = length (f_coeff f) /\ length (f_spid_perts f) = length (f_spids f)
  /\ (forall k s, nth_error (f_inx f) k = Some (Some s) -> s < length (f_spids f) /\ getCoeffIndex f s = (k / ny f0, k mod ny f0))
  /\ (forall s, s < length (f_spids f) -> exists k, nth_error (f_inx f) k = Some (Some s))
  /\ (forall k k' s s', nth_error (f_inx f) k = Some (Some s) -> nth_error (f_inx f) k' = Some (Some s') -> (k < k' <-> s < s')).
Proof.
  intros M. destruct (polc_solved _ _ _ M) as ((mask & Sv) & Sg & Ep & _). destruct (same_nx _ _ Sg) as [X Y]. pose proof Sv as (Lm & Eps & Es & Esp & Ei).
  assert (LS : length (f_spids f) = rank_of mask (length (f_coeff f))) by (rewrite Es, map_length, seq_length; reflexivity).
  split; [rewrite LS; exact Es|]. split; [rewrite Ei, map_length, seq_length; reflexivity|]. split; [rewrite Esp, repeat_length; symmetry; exact LS|].
  split; [|split].
  - intros k s H. rewrite <- Y. split; [|exact (coeff_index_aux f spid mask k s Sv H)]. destruct (solved_inx _ _ _ _ _ Sv H) as (_ & _ & _ & L). rewrite LS. exact L.
  - intros s L. rewrite LS, <- Lm in L. destruct (rank_onto mask s L) as (k & A & B & C). exists k.
    apply (solved_inx_iff f spid mask k s Sv); [lia|exact B|symmetry; exact C].
  - intros k k' s s' H H'. destruct (solved_inx _ _ _ _ _ Sv H) as (A & B & C & _). destruct (solved_inx _ _ _ _ _ Sv H') as (A' & B' & C' & _). subst s s'. split; intros L.
    + apply rank_lt; [exact L|lia|exact B].
    + destruct (le_lt_dec k' k) as [G|G]; [|exact G]. pose proof (rank_mono mask k' k G ltac:(lia)). lia.
Qed.
Print Assumptions polc_spids.

(** Making a funklet solvable leaves the polynomial alone if every coefficient of a total degree
    beyond the longer axis is zero, or a coefficient mask of the right length was given. *)
Theorem polc_solvable_value_partial f0 f spid : proper_polc f0 -> makeSolvable f0 spid = Ok f ->
  (forall k, nth k (f_coeff f0) q0 <> q0 -> k / ny f0 + k mod ny f0 < Nat.max (nx f0) (ny f0)) ->
  forall X Y, polc_at f X Y = polc_at f0 X Y.
Proof.
  intros P M Z X Y. destruct (polc_solved _ _ _ M) as (_ & Sg & _ & C). destruct (same_nx _ _ Sg) as [Ex Ey].
  destruct Sg as (Ea & Eo & Es & Ed & Eh & El). unfold polc_at, rel. rewrite Ex, Ey, Eo, Es. f_equal.
  destruct C as [C|C]; [exact C|]. rewrite C. destruct P as (_ & Nx & Ny & Ln). apply list_ext_nth.
  - unfold cut. rewrite map_length, combine_length, seq_length. apply Nat.min_id.
  - intros k K. unfold cut in *. rewrite map_length, combine_length, seq_length in K. unfold ncoeff in *. rewrite Nat.min_id in K.
    assert (E : nth_error (combine (seq 0 (length (f_coeff f0))) (f_coeff f0)) k = Some (k, nth k (f_coeff f0) q0)).
    { clear - K. assert (G : forall l a k, k < length l -> nth_error (combine (seq a (length l)) l) k = Some (a + k, nth k l q0)).
      { induction l as [|x l IH]; intros a [|j] H; cbn [length seq combine nth_error nth] in *; try lia.
        - rewrite Nat.add_0_r. reflexivity.
        - rewrite IH by lia. rewrite Nat.add_succ_r. reflexivity. }
      apply (G _ 0 k K). }
    apply (nth_error_nth _ _ q0). rewrite nth_error_map, E. cbn [option_map fst snd]. f_equal. unfold keep_cell.
    destruct (Nat.leb_spec (k / ny f0 + k mod ny f0) (Nat.max (nx f0) (ny f0) - 1)) as [L|G]; [reflexivity|].
    destruct (Qc_eq_dec (nth k (f_coeff f0) q0) q0) as [E0|N]; [symmetry; exact E0|]. specialize (Z k N). lia.
Qed.
Print Assumptions polc_solvable_value_partial.

(** ** Rescaling *)
(** Changing the solve domain rescales the axes, so that the validity domain becomes the solve domain,
    and leaves the polynomial the same function of physical coordinates. *)
Theorem polc_solve_domain_partial f d s0 s1 : proper_polc f -> two_axes f -> f_dom f = Some d ->
  d_start d 0 <> d_stop d 0 -> d_start d 1 <> d_stop d 1 -> s0 <> s1 ->
  exists f', changeSolveDomain f s0 s1 = Ok f'
    /\ (forall X Y, polc_at f' X Y = polc_at f X Y)
    /\ forall i, i < 2 -> rel f' i (d_start d i) = s0 /\ rel f' i (d_stop d i) = s1.
Proof.
  intros P T Ed N0 N1 Ns. unfold changeSolveDomain. rewrite Ed.
  pose proof (solve_ends d s0 s1 0 N0 Ns) as H0. pose proof (solve_ends d s0 s1 1 N1 Ns) as H1.
  destruct (solve_axis d s0 s1 0) as [o0 sc0]. destruct (solve_axis d s0 s1 1) as [o1 sc1]. destruct H0 as (Z0 & A0 & B0). destruct H1 as (Z1 & A1 & B1).
  destruct (transform_aux f o0 sc0 o1 sc1 P T Z0 Z1) as (f' & E & _ & _ & _ & R0 & R1 & V). exists f'. split; [exact E|]. split; [exact V|].
  intros [|[|i]] L; [| |lia].
  - rewrite !R0. auto.
  - rewrite !R1. auto.
Qed.
Print Assumptions polc_solve_domain_partial.

(** ** Another coefficient shape *)
(** With as many axes as before, the coefficients both shapes have are kept and the new ones are zero. *)
Theorem polc_set_shape f shape : proper_polc f -> length (f_axes f) = length (f_shape f) -> length shape = length (f_shape f) ->
  Forall (fun n => 1 <= n) shape ->
  let f' := setCoeffShape f shape in
  f_shape f' = shape /\ length (f_coeff f') = ncoef shape 0 * ncoef shape 1 /\
  (forall i j, i < ncoef shape 0 -> j < ncoef shape 1 ->
     nth (i * ncoef shape 1 + j) (f_coeff f') q0 = if Nat.ltb i (nx f) && Nat.ltb j (ny f) then nth (i * ny f + j) (f_coeff f) q0 else q0) /\
  (nx f <= ncoef shape 0 -> ny f <= ncoef shape 1 -> forall X Y, polc_at f' X Y = polc_at f X Y).
Proof.
  intros P La Ls Fp f'. destruct (shape_set_aux f shape P La Ls Fp) as (A & B & C & D). fold f' in A, B, C, D.
  split; [exact A|]. split; [exact B|]. split; [exact D|]. intros Gx Gy X Y. unfold polc_at. rewrite !C.
  assert (nx f' = ncoef shape 0 /\ ny f' = ncoef shape 1) as [-> ->] by (unfold nx, ny, ncoef; rewrite A; auto).
  apply poly_grown; assumption.
Qed.
Print Assumptions polc_set_shape.

(** ** Solvable parameters of several Parm nodes *)
(** Two Parm nodes of different node index never share a spid while each has at most 256 of them. *)
Theorem parm_spids_disjoint_partial i j f g d e f' g' : initSolvable i true f d = Ok f' -> initSolvable j true g e = Ok g' -> i <> j ->
  length (f_spids f') <= 256 -> length (f_spids g') <= 256 -> forall s, In s (f_spids f') -> ~ In s (f_spids g').
Proof.
  assert (G : forall i f d f', initSolvable i true f d = Ok f' -> length (f_spids f') <= 256 -> forall s, In s (f_spids f') -> (256 * i <= s < 256 * (i + 1))%Z).
  { clear. intros i f d f' H L s Hs. unfold initSolvable in H. destruct (makeSolvable _ _) as [f1| |] eqn:M; try discriminate. cbn [bind] in H. injection H as H.
    assert (E : f_spids f' = f_spids f1) by (rewrite <- H; destruct (qeqb (f_pert f1) q0); reflexivity). rewrite E in *.
    destruct (polc_spids _ _ _ M) as (Sp & _). rewrite Sp in Hs. apply in_map_iff in Hs. destruct Hs as (k & <- & Hk). apply in_seq in Hk. lia. }
  intros Hf Hg N Lf Lg s Sf Sg. specialize (G i f d f' Hf Lf s Sf) as A. specialize (G j g e g' Hg Lg s Sg) as B. lia.
Qed.
Print Assumptions parm_spids_disjoint_partial.

(** ** Examples *)
Definition z (n : Z) : Qc := Q2Qc (inject_Z n).
Definition qdom (l : list (Z * Z)) : dom := {| d_start := fun i => z (fst (nth i l (0, 0)%Z)); d_stop := fun i => z (snd (nth i l (0, 0)%Z)) |}.
Definition qcells (cs : list (list Z)) (l : list (Z * Z)) : cells :=
  {| c_rank := length cs; c_center := fun i => option_map (map z) (nth_error cs i);
     c_start := fun i => z (fst (nth i l (0, 0)%Z)); c_stop := fun i => z (snd (nth i l (0, 0)%Z)) |}.
Definition polc (axes : list nat) (d : option dom) (shape : list nat) (cs : list Z) : funklet :=
  {| f_axes := axes; f_off := map (fun _ => q0) axes; f_scl := map (fun _ => q1) axes; f_dom := d; f_shape := shape; f_coeff := map z cs;
     f_pert := q1; f_mask := None; f_spids := []; f_inx := []; f_perts := []; f_spid_perts := [] |}.
Definition nax : axisfun := fun _ x => x.
Definition qs (l : list Qc) : list Q := map this l.
Definition shown (r : res values) : res (option (list Z * list Q) * list (nat * nat * (list Z * list Q))) :=
  bind r (fun v => Ok (option_map (fun v => (v_shape v, qs (v_data v))) (o_main v), map (fun '(i, s, v) => (i, s, (v_shape v, qs (v_data v)))) (o_pert v))).

(** 1 + 2y + 3x + 4xy on a grid of 3 times and 2 frequencies *)
Definition f22 := polc [0; 1] (Some (qdom [(0, 6); (0, 4)]%Z)) [2; 2] [1; 2; 3; 4]%Z.
Definition c32 := qcells [[1; 3; 5]; [1; 3]]%Z [(0, 6); (0, 4)]%Z.
Lemma decide_le x y : match Qccompare x y with Gt => False | _ => True end -> Qcle x y.
Proof. intros H. apply Qcle_alt. intros E. rewrite E in H. exact H. Qed.
Lemma axis_ok_f22 i : i < 2 -> axis_ok f22 c32 i.
Proof.
  intros L. destruct i as [|[|i]]; [exists 0|exists 1|lia].
  all: repeat split; try (cbn; lia); try (eexists _, _; reflexivity); apply decide_le; vm_compute; exact Logic.I.
Qed.
Example ex_values : proper_polc f22 /\ axes_ok f22 c32 /\
  shown (do_evaluate nax f22 c32 0) = Ok (Some ([3; 2]%Z, [10; 22; 24; 52; 38; 82]%Q), []).
Proof.
  split; [|split].
  - unfold proper_polc. cbn. auto.
  - split; [intros _; apply axis_ok_f22; lia|]. split; [intros _; apply axis_ok_f22; lia|]. intros _ _. cbn. lia.
  - vm_compute. reflexivity.
Qed.
(** perturbing: spids 512, 513, 514 for the coefficients 1, 2, 3; the last coefficient is not solvable *)
Definition s22 := makeSolvable f22 512.
Definition perturbed : res (list Z * list (list Q) * (option (list Z * list Q) * list (nat * nat * (list Z * list Q)))) :=
  bind s22 (fun f => bind (evaluate nax f c32 2) (fun o => bind (shown (Ok (e_values o))) (fun v => Ok (e_spids o, map qs (e_perts o), v)))).
Example ex_perturbed : perturbed =
  Ok ([512; 513; 514]%Z, [[1; 1; 1]; [-1; -1; -1]]%Q,
      (Some ([3; 2]%Z, [6; 10; 12; 16; 18; 22]%Q),
       [(0, 0, ([3; 2]%Z, [7; 11; 13; 17; 19; 23]%Q)); (0, 1, ([3; 2]%Z, [7; 13; 13; 19; 19; 25]%Q)); (0, 2, ([3; 2]%Z, [7; 11; 15; 19; 23; 27]%Q));
        (1, 0, ([3; 2]%Z, [5; 9; 11; 15; 17; 21]%Q)); (1, 1, ([3; 2]%Z, [5; 7; 11; 13; 17; 19]%Q)); (1, 2, ([3; 2]%Z, [5; 9; 9; 13; 13; 17]%Q))])).
Proof. vm_compute. reflexivity. Qed.
Example ex_spids : bind s22 (fun f => Ok (f_spids f, f_inx f, map (getCoeffIndex f) [0; 1; 2])) =
  Ok ([512; 513; 514]%Z, [Some 0; Some 1; Some 2; None], [(0, 0); (0, 1); (1, 0)]).
Proof. vm_compute. reflexivity. Qed.
Example ex_update : bind s22 (fun f => bind (update f (map z [10; 20; 30]%Z)) (fun f => Ok (qs (f_coeff f)))) = Ok [11; 22; 33; 0]%Q.
Proof. vm_compute. reflexivity. Qed.
Example ex_step : bind s22 (fun f => bind (update f (unit_step 3 1 (z 1))) (fun f => shown (do_evaluate nax f c32 0))) = Ok (Some ([3; 2]%Z, [7; 13; 13; 19; 19; 25]%Q), []).
Proof. vm_compute. reflexivity. Qed.
(** the domain [0,6]x[0,4] becomes [0,2]x[0,2]: x = 3x', y = 2y' *)
Example ex_solve_domain : bind (changeSolveDomain f22 (z 0) (z 2)) (fun f => Ok (qs (f_coeff f), qs (f_off f), qs (f_scl f))) = Ok ([1; 4; 9; 24]%Q, [0; 0]%Q, [3; 2]%Q).
Proof. vm_compute. reflexivity. Qed.
Example ex_solve_domain2 : bind (changeSolveDomain f22 (z (-1)) (z 1)) (fun f => Ok (qs (f_coeff f), qs (f_off f), qs (f_scl f))) = Ok ([38; 28; 33; 24]%Q, [3; 2]%Q, [3; 2]%Q).
Proof. vm_compute. reflexivity. Qed.
Example ex_set_shape : qs (f_coeff (setCoeffShape f22 [3; 3])) = [1; 2; 0; 3; 4; 0; 0; 0; 0]%Q /\ qs (f_coeff (setCoeffShape f22 [1; 3])) = [1; 2; 0]%Q.
Proof. vm_compute. auto. Qed.
Example ex_parms : bind (initSolvable 2 true f22 (qdom [])) (fun f => Ok (f_spids f)) = Ok [512; 513; 514]%Z
  /\ bind (initSolvable 3 true f22 (qdom [])) (fun f => Ok (f_spids f)) = Ok [768; 769; 770]%Z.
Proof. vm_compute. auto. Qed.

(** ** What does not hold *)
(** the Vells read at an index, as a plain fraction *)
Definition read (r : res values) (idx : list Z) : option Q :=
  match r with Ok {| o_main := Some v; o_pert := _ |} => option_map this (at_index (v_shape v) (v_data v) idx) | _ => None end.
Definition right_at axf f c idx : Prop :=
  exists v, do_evaluate axf f c 0 = Ok {| o_main := Some v; o_pert := [] |} /\
    at_index (v_shape v) (v_data v) idx = Some (polc_at f (axf (axis f 0) (along c (axis f 0) idx)) (axf (axis f 1) (along c (axis f 1) idx))).
Lemma right_read axf f c idx : right_at axf f c idx ->
  read (do_evaluate axf f c 0) idx = Some (this (polc_at f (axf (axis f 0) (along c (axis f 0) idx)) (axf (axis f 1) (along c (axis f 1) idx)))).
Proof. intros (v & E & A). rewrite E. cbn [read]. rewrite A. reflexivity. Qed.

(** axes in decreasing order: values are stored transposed *)
Theorem polc_axes_order_refuted :
  ~ (forall axf f c idx, proper_polc f -> axis_ok f c 0 -> axis_ok f c 1 -> axis f 0 <> axis f 1 ->
       cell_index (c_rank c) (fun a => length (ctr c a)) idx -> right_at axf f c idx).
Proof.
  intros H. specialize (H nax (polc [1; 0] (Some (qdom [(0, 9); (0, 9)]%Z)) [2; 2] [0; 1; 0; 0]%Z) (qcells [[1; 3]; [5; 7]]%Z [(0, 4); (4, 8)]%Z) [0; 1]%Z).
  apply right_read in H.
  - vm_compute in H. discriminate.
  - unfold proper_polc. cbn. auto.
  - exists 1. repeat split; try (cbn; lia); try (eexists _, _; reflexivity); apply decide_le; vm_compute; exact Logic.I.
  - exists 0. repeat split; try (cbn; lia); try (eexists _, _; reflexivity); apply decide_le; vm_compute; exact Logic.I.
  - cbn. lia.
  - split; [reflexivity|]. intros [|[|a]] L; cbn in *; lia.
Qed.
Print Assumptions polc_axes_order_refuted.
(** the same axis twice: values are written past the end *)
Theorem polc_same_axis_refuted :
  ~ (forall axf f c, proper_polc f -> axis_ok f c 0 -> axis_ok f c 1 -> do_evaluate axf f c 0 <> UB).
Proof.
  intros H. apply (H nax (polc [0; 0] (Some (qdom [(0, 9); (0, 9)]%Z)) [2; 2] [0; 1; 0; 0]%Z) (qcells [[1; 3]; [5; 7]]%Z [(0, 4); (4, 8)]%Z)).
  - unfold proper_polc. cbn. auto.
  - exists 0. repeat split; try (cbn; lia); try (eexists _, _; reflexivity); apply decide_le; vm_compute; exact Logic.I.
  - exists 0. repeat split; try (cbn; lia); try (eexists _, _; reflexivity); apply decide_le; vm_compute; exact Logic.I.
  - vm_compute. reflexivity.
Qed.
Print Assumptions polc_same_axis_refuted.
(** a funklet without a domain is not valid everywhere: all cells get the value of the first *)
Theorem polc_no_domain_refuted :
  ~ (forall axf f c idx, proper_polc f -> f_dom f = None -> f_axes f = [0] -> c_rank c = 1 -> ctr c 0 <> [] ->
       cell_index (c_rank c) (fun a => length (ctr c a)) idx -> right_at axf f c idx).
Proof.
  intros H. specialize (H nax (polc [0] None [2] [0; 1]%Z) (qcells [[1; 3]]%Z [(0, 4)]%Z) [1]%Z).
  apply right_read in H.
  - vm_compute in H. discriminate.
  - unfold proper_polc. cbn. auto.
  - reflexivity.
  - reflexivity.
  - reflexivity.
  - discriminate.
  - split; [reflexivity|]. intros [|a] L; cbn in *; lia.
Qed.
Print Assumptions polc_no_domain_refuted.
(** The domain is looked at under the number of the polynomial's axis, not of the axis of the cells: a
    polynomial in frequency within its frequency range, but with cells beyond its time range. *)
Theorem polc_clipped_axis_refuted :
  ~ (forall axf f c idx, proper_polc f -> nx f > 1 -> ny f = 1 -> axis f 0 < c_rank c ->
       Qcle (d_start (domain f) (axis f 0)) (c_start c (axis f 0)) -> Qcle (c_stop c (axis f 0)) (d_stop (domain f) (axis f 0)) ->
       cell_index (c_rank c) (fun a => length (ctr c a)) idx -> right_at axf f c idx).
Proof.
  intros H. specialize (H nax (polc [1] (Some (qdom [(0, 10); (100, 200)]%Z)) [2] [0; 1]%Z) (qcells [[5; 15]; [125; 175]]%Z [(0, 20); (100, 200)]%Z) [0; 1]%Z).
  apply right_read in H.
  - vm_compute in H. discriminate.
  - unfold proper_polc. cbn. auto.
  - cbn. lia.
  - reflexivity.
  - cbn. lia.
  - apply decide_le. vm_compute. exact Logic.I.
  - apply decide_le. vm_compute. exact Logic.I.
  - split; [reflexivity|]. intros [|[|a]] L; cbn in *; lia.
Qed.
Print Assumptions polc_clipped_axis_refuted.
(** cells entirely before the domain: the search for the first cell reads past the grid *)
Theorem polc_before_domain_refuted :
  ~ (forall axf f c, proper_polc f -> f_axes f = [0] -> c_rank c = 1 -> ctr c 0 <> [] -> do_evaluate axf f c 0 <> UB).
Proof.
  intros H. apply (H nax (polc [0] (Some (qdom [(10, 20)]%Z)) [2] [0; 1]%Z) (qcells [[1; 3]]%Z [(0, 4)]%Z)); try reflexivity.
  - unfold proper_polc. cbn. auto.
  - discriminate.
Qed.
Print Assumptions polc_before_domain_refuted.
(** more than ten coefficients along the second axis: the powers overrun their array *)
Theorem polc_perturbed_order_refuted :
  ~ (forall axf f0 f c spid, proper_polc f0 -> axes_ok f0 c -> makeSolvable f0 spid = Ok f -> evaluate axf f c 1 <> UB).
Proof.
  intros H. set (f0 := polc [0; 1] (Some (qdom [(0, 9); (0, 9)]%Z)) [2; 11] (repeat 0%Z 22)). set (c := qcells [[1; 3]; [5; 7]]%Z [(0, 4); (4, 8)]%Z).
  destruct (makeSolvable f0 0) as [f| |] eqn:M; [|vm_compute in M; discriminate|vm_compute in M; discriminate].
  apply (H nax f0 f c 0%Z); [| |exact M|].
  - split; [right; reflexivity|]. split; [cbn; lia|]. split; [cbn; lia|reflexivity].
  - split; [intros _; exists 0|split; [intros _; exists 1|]].
    + repeat split; try (cbn; lia); try (eexists _, _; reflexivity); apply decide_le; vm_compute; exact Logic.I.
    + repeat split; try (cbn; lia); try (eexists _, _; reflexivity); apply decide_le; vm_compute; exact Logic.I.
    + intros _ _. cbn. lia.
  - assert (G : bind (makeSolvable f0 0) (fun f => evaluate nax f c 1) = UB) by (vm_compute; reflexivity). rewrite M in G. exact G.
Qed.
Print Assumptions polc_perturbed_order_refuted.
(** making a 2x2 polynomial solvable drops its cross term *)
Theorem polc_solvable_value_refuted :
  ~ (forall f0 f spid X Y, proper_polc f0 -> makeSolvable f0 spid = Ok f -> polc_at f X Y = polc_at f0 X Y).
Proof.
  intros H. destruct (makeSolvable f22 0) as [f| |] eqn:M; [|vm_compute in M; discriminate|vm_compute in M; discriminate].
  specialize (H f22 f 0%Z q1 q1 (proj1 ex_values) M). apply (f_equal this) in H.
  assert (G : bind (makeSolvable f22 0) (fun f => Ok (this (polc_at f q1 q1))) = Ok 6%Q) by (vm_compute; reflexivity). rewrite M in G. cbn [bind] in G.
  injection G as G. rewrite G in H. vm_compute in H. discriminate.
Qed.
Print Assumptions polc_solvable_value_refuted.
(** A domain without the second axis: the first axis is rescaled but the coefficients are not, since
    the function leaves when it finds the second axis of zero length. *)
Theorem polc_solve_domain_refuted :
  ~ (forall f d s0 s1 f' X Y, proper_polc f -> two_axes f -> f_dom f = Some d -> d_start d 0 <> d_stop d 0 -> s0 <> s1 ->
       changeSolveDomain f s0 s1 = Ok f' -> polc_at f' X Y = polc_at f X Y).
Proof.
  intros H. set (f := polc [0; 1] (Some (qdom [(0, 6)]%Z)) [2; 1] [1; 3]%Z).
  destruct (changeSolveDomain f (z 0) (z 2)) as [f'| |] eqn:M; [|vm_compute in M; discriminate|vm_compute in M; discriminate].
  assert (P : proper_polc f) by (unfold proper_polc; cbn; auto).
  assert (T : two_axes f) by (split; cbn; lia).
  specialize (H f _ (z 0) (z 2) f' q1 q1 P T eq_refl ltac:(cbn; discriminate) ltac:(discriminate) M). apply (f_equal this) in H.
  assert (G : bind (changeSolveDomain f (z 0) (z 2)) (fun f => Ok (this (polc_at f q1 q1))) = Ok 2%Q) by (vm_compute; reflexivity). rewrite M in G. cbn [bind] in G.
  injection G as G. rewrite G in H. vm_compute in H. discriminate.
Qed.
Print Assumptions polc_solve_domain_refuted.
(** a polynomial of one axis has one offset; the second is read all the same *)
Theorem polc_solve_domain_one_axis_refuted :
  ~ (forall f s0 s1, proper_polc f -> length (f_axes f) = 1 -> f_dom f <> None -> s0 <> s1 -> changeSolveDomain f s0 s1 <> UB).
Proof.
  intros H. apply (H (polc [0] (Some (qdom [(0, 6); (0, 6)]%Z)) [2] [1; 3]%Z) (z 0) (z 2)); try discriminate.
  - unfold proper_polc. cbn. auto.
  - reflexivity.
  - vm_compute. reflexivity.
Qed.
Print Assumptions polc_solve_domain_one_axis_refuted.
(** a second axis added: the coefficients of the first axis become those of the second *)
Theorem polc_set_shape_refuted :
  ~ (forall f n m X Y, proper_polc f -> length (f_shape f) = 1 -> nx f <= n -> 1 <= m -> polc_at (setCoeffShape f [n; m]) X Y = polc_at f X Y).
Proof.
  intros H. specialize (H (polc [0] None [2] [1; 3]%Z) 2 2 q1 q0 ltac:(unfold proper_polc; cbn; auto) eq_refl ltac:(cbn; lia) ltac:(lia)).
  apply (f_equal this) in H. vm_compute in H. discriminate.
Qed.
Print Assumptions polc_set_shape_refuted.
(** 300 coefficients: the spids of the first parameter run into those of the next *)
Theorem parm_spids_disjoint_refuted :
  ~ (forall i j f g d e f' g' s, initSolvable i true f d = Ok f' -> initSolvable j true g e = Ok g' -> i <> j -> In s (f_spids f') -> ~ In s (f_spids g')).
Proof.
  intros H. set (f := polc [0] None [300] (repeat 0%Z 300)). set (d := qdom []).
  assert (A : forall i, exists f', initSolvable i true f d = Ok f' /\ f_spids f' = map (fun k => (256 * i + Z.of_nat k)%Z) (seq 0 300)) by (intros i; eexists; split; reflexivity).
  destruct (A 0%Z) as (f' & E & Sf). destruct (A 1%Z) as (g' & E' & Sg).
  apply (H 0%Z 1%Z f f d d f' g' 256%Z E E'); [lia| |].
  - rewrite Sf. apply in_map_iff. exists 256. split; [reflexivity|]. apply in_seq. lia.
  - rewrite Sg. apply in_map_iff. exists 0. split; [reflexivity|]. apply in_seq. lia.
Qed.
Print Assumptions parm_spids_disjoint_refuted.
(** a zero perturbation is replaced too late: the perturbations handed out stay zero *)
Theorem parm_perturbation_refuted :
  ~ (forall i f d f' p, initSolvable i true f d = Ok f' -> In p (f_spid_perts f') -> p <> q0).
Proof.
  intros H. set (f := with_pert f22 q0).
  assert (A : exists f', initSolvable 0 true f (qdom []) = Ok f' /\ f_spid_perts f' = [q0; q0; q0]) by (eexists; split; reflexivity).
  destruct A as (f' & E & Sp). apply (H 0%Z f (qdom []) f' q0 E); [rewrite Sp; left; reflexivity|reflexivity].
Qed.
Print Assumptions parm_perturbation_refuted.
