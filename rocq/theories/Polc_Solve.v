(** Proofs about making a Polc solvable, its spids, updates and rescaling. *)
From Coq Require Import QArith Qcanon.
From Verif Require Import Base Polc_Model Polc_Spec Polc_Alg Polc_Proofs Vel_Spec.
Close Scope Q_scope. Local Open Scope Qc_scope. Local Open Scope nat_scope.

(** ** Spids *)
(** what makeSolvable leaves behind, in terms of the parameters chosen *)
Definition solved (f : funklet) (spid : Z) (mask : list bool) : Prop :=
  let n := length (f_coeff f) in
  length mask = n /\ f_perts f = repeat (f_pert f) n
  /\ f_spids f = map (fun i => (spid + Z.of_nat i)%Z) (seq 0 (rank_of mask n))
  /\ f_spid_perts f = repeat (f_pert f) (rank_of mask n)
  /\ f_inx f = map (fun k => if nth k mask false then Some (rank_of mask k) else None) (seq 0 n).

Lemma rank_of_cons b mask k : rank_of (b :: mask) (S k) = (if b then 1 else 0) + rank_of mask k.
Proof. unfold rank_of. cbn [firstn filter]. destruct b; reflexivity. Qed.
Lemma map_seq_shift {A} (F : nat -> A) a n : map F (seq (S a) n) = map (fun i => F (S i)) (seq a n).
Proof. rewrite <- seq_shift, map_map. reflexivity. Qed.
Lemma assign_spec p : forall mask spid isp,
  let n := length mask in
  assign_spids mask (repeat p n) spid isp
  = (map (fun i => (spid + Z.of_nat i)%Z) (seq 0 (rank_of mask n)), repeat p (rank_of mask n),
     map (fun k => if nth k mask false then Some (isp + rank_of mask k) else None) (seq 0 n)).
Proof.
  induction mask as [|b mask IH]; intros spid isp; [reflexivity|]. cbn [length repeat assign_spids seq map nth].
  rewrite rank_of_cons. cbv zeta in IH. destruct b; rewrite IH.
  - cbn [Nat.add seq map repeat]. rewrite !map_seq_shift. cbn [nth].
    replace (spid + Z.of_nat 0)%Z with spid by lia. replace (isp + rank_of (true :: mask) 0) with isp by (unfold rank_of; cbn; lia).
    f_equal; [f_equal|].
    + f_equal. apply map_ext. intros i. lia.
    + f_equal. apply map_ext. intros i. rewrite rank_of_cons. destruct (nth i mask false); [f_equal; cbn; lia|reflexivity].
  - cbn [Nat.add]. rewrite map_seq_shift. reflexivity.
Qed.
Lemma rank_true : forall n k, k <= n -> rank_of (repeat true n) k = k.
Proof.
  induction n as [|n IH]; intros k L; [assert (k = 0) as -> by lia; reflexivity|]. destruct k as [|k]; [reflexivity|].
  cbn [repeat]. rewrite rank_of_cons, IH by lia. reflexivity.
Qed.
Lemma rank_S mask k : k < length mask -> rank_of mask (S k) = rank_of mask k + (if nth k mask false then 1 else 0).
Proof.
  revert k. induction mask as [|b mask IH]; intros k L; [cbn in L; lia|]. destruct k as [|k].
  - rewrite rank_of_cons. unfold rank_of. cbn. lia.
  - rewrite !rank_of_cons. rewrite IH by (cbn in L; lia). cbn [nth]. lia.
Qed.
Lemma rank_mono mask a b : a <= b -> b <= length mask -> rank_of mask a <= rank_of mask b.
Proof. intros L. induction L as [|b L IH]; intros M; [lia|]. rewrite rank_S by lia. specialize (IH ltac:(lia)). lia. Qed.
Lemma rank_lt mask a b : a < b -> b <= length mask -> nth a mask false = true -> rank_of mask a < rank_of mask b.
Proof. intros L M E. pose proof (rank_mono mask (S a) b L M) as R. rewrite rank_S in R by lia. rewrite E in R. lia. Qed.
Lemma rank_inj mask a b : a < length mask -> b < length mask -> nth a mask false = true -> nth b mask false = true -> rank_of mask a = rank_of mask b -> a = b.
Proof.
  intros La Lb Ea Eb E. destruct (Nat.lt_trichotomy a b) as [L|[->|L]]; [|reflexivity|].
  - pose proof (rank_lt mask a b L ltac:(lia) Ea). lia.
  - pose proof (rank_lt mask b a L ltac:(lia) Eb). lia.
Qed.
Lemma rank_le mask k : rank_of mask k <= k.
Proof.
  unfold rank_of. revert k. induction mask as [|b mask IH]; intros [|k]; cbn [firstn filter length]; try lia. specialize (IH k). destruct b; cbn [length]; lia.
Qed.
(** the [s]-th chosen parameter exists *)
Lemma rank_onto mask s : s < rank_of mask (length mask) -> exists k, k < length mask /\ nth k mask false = true /\ rank_of mask k = s.
Proof.
  revert s. induction mask as [|b mask IH]; intros s L; [unfold rank_of in L; cbn in L; lia|].
  cbn [length] in L. rewrite rank_of_cons in L. destruct b.
  - destruct s as [|s].
    + exists 0. cbn [length nth]. repeat split; try lia.
    + destruct (IH s ltac:(lia)) as (k & A & B & C). exists (S k). cbn [length nth]. rewrite rank_of_cons. repeat split; try lia; auto.
  - destruct (IH s ltac:(lia)) as (k & A & B & C). exists (S k). cbn [length nth]. rewrite rank_of_cons. repeat split; try lia; auto.
Qed.

Lemma mask_solved f spid mask f' : makeSolvable_mask f spid mask = Ok f' ->
  solved f' spid mask /\ f_coeff f' = f_coeff f /\ f_shape f' = f_shape f /\ f_axes f' = f_axes f /\ f_off f' = f_off f /\ f_scl f' = f_scl f /\ f_dom f' = f_dom f
  /\ f_pert f' = f_pert f /\ f_mask f' = f_mask f.
Proof.
  unfold makeSolvable_mask. destruct (Nat.eqb (length mask) (ncoeff f)) eqn:E; [|discriminate]. apply Nat.eqb_eq in E. cbn [negb].
  unfold ncoeff in *. rewrite <- E. pose proof (assign_spec (f_pert f) mask spid 0) as A. cbv zeta in A. rewrite A. intros [= <-].
  split; [|repeat split]. unfold solved, with_solvable. cbn [f_coeff f_perts f_pert f_spids f_spid_perts f_inx]. rewrite <- E.
  repeat split.
Qed.
Lemma base_solved f spid f' : makeSolvable_base f spid = Ok f' ->
  (exists mask, solved f' spid mask) /\ f_coeff f' = f_coeff f /\ f_shape f' = f_shape f /\ f_axes f' = f_axes f /\ f_off f' = f_off f /\ f_scl f' = f_scl f /\ f_dom f' = f_dom f
  /\ f_pert f' = f_pert f.
Proof.
  unfold makeSolvable_base. destruct (f_mask f) as [m|] eqn:M.
  - intros H. destruct (mask_solved _ _ _ _ H) as (A & B & C & D & E & F & G & K & _). split; [exists m; exact A|]. auto 10.
  - intros [= <-]. split; [|repeat split]. exists (repeat true (ncoeff f)). unfold solved, with_solvable, ncoeff. cbn [f_coeff f_perts f_pert f_spids f_spid_perts f_inx].
    rewrite repeat_length, rank_true by lia. repeat split. apply map_ext_in. intros k K. apply in_seq in K.
    rewrite rank_true by lia. replace (nth k (repeat true (length (f_coeff f))) false) with true; [reflexivity|].
    symmetry. apply (repeat_spec (length (f_coeff f)) true). apply nth_In. rewrite repeat_length. lia.
Qed.
(** what becomes of the coefficients *)
Definition cut (f : funklet) : list Qc :=
  map (fun kx => if keep_cell (nx f) (ny f) (fst kx) then snd kx else q0) (combine (seq 0 (ncoeff f)) (f_coeff f)).
Lemma polc_solved f spid f' : makeSolvable f spid = Ok f' ->
  (exists mask, solved f' spid mask) /\ same_grid f f' /\ f_pert f' = f_pert f /\ (f_coeff f' = f_coeff f \/ f_coeff f' = cut f).
Proof.
  unfold makeSolvable.
  assert (B : makeSolvable_base f spid = Ok f' -> (exists mask, solved f' spid mask) /\ same_grid f f' /\ f_pert f' = f_pert f /\ (f_coeff f' = f_coeff f \/ f_coeff f' = cut f)).
  { intros H. destruct (base_solved _ _ _ H) as (A & B & C & D & E & F & G & K). split; [exact A|]. unfold same_grid. rewrite B. auto 12. }
  destruct (Nat.ltb (ncoeff f) 4); [exact B|]. destruct (f_shape f) as [|n [|m sh]] eqn:S; try exact B.
  destruct (match f_mask f with Some m => _ | None => _ end) as [mk|].
  - intros H. destruct (mask_solved _ _ _ _ H) as (A & B' & C & D & E & F & G & K & _). split; [exists mk; exact A|]. unfold same_grid. rewrite B'. auto 12.
  - intros H. destruct (mask_solved _ _ _ _ H) as (A & B' & C & D & E & F & G & K & _). cbn [f_coeff f_shape f_axes f_off f_scl f_dom f_pert with_mask with_coeff] in *.
    split; [eexists; exact A|]. split; [|split; [exact K|]].
    + unfold same_grid. rewrite B', map_length, combine_length, seq_length. unfold ncoeff. rewrite Nat.min_id. rewrite S. auto 12.
    + right. rewrite B'. unfold cut, nx, ny. rewrite S. reflexivity.
Qed.

(** ** Perturbed values of a solvable funklet *)
Lemma signed_mul ip d x : signed ip (Qcmult d x) = Qcmult (signed ip d) x.
Proof. unfold signed. destruct (Nat.even ip); ring. Qed.
Lemma in_placed inx mk ip : forall k0 e, In e (placed inx k0 mk ip) <-> exists k s, nth_error inx k = Some (Some s) /\ e = (ip, s, mk (k0 + k)).
Proof.
  unfold placed. induction inx as [|x inx IH]; intros k0 e; cbn [length seq combine flat_map].
  - split; [intros []|intros (k & s & E & _); destruct k; discriminate].
  - rewrite in_app_iff, IH. cbn [snd fst]. split.
    + intros [H|(k & s & E & ->)].
      * destruct x as [s|]; [|destruct H]. destruct H as [<-|[]]. exists 0, s. split; [reflexivity|]. rewrite Nat.add_0_r. reflexivity.
      * exists (S k), s. split; [exact E|]. rewrite Nat.add_succ_r. reflexivity.
    + intros ([|k] & s & E & ->).
      * cbn in E. injection E as ->. left. rewrite Nat.add_0_r. left. reflexivity.
      * right. exists k, s. split; [exact E|]. rewrite Nat.add_succ_r. reflexivity.
Qed.
Lemma same_bumped f k d : same_grid f (with_coeff f (f_shape f) (bumped (f_coeff f) k d)).
Proof. unfold same_grid, with_coeff. cbn. rewrite length_bumped. auto 10. Qed.
Lemma mk_ext sh pts h h' : (forall x y, h x y = h' x y) -> mk sh pts h = mk sh pts h'.
Proof. intros E. unfold mk. f_equal. apply map_ext. intros []. apply E. Qed.
Lemma same_axes_ok f f' c : same_grid f f' -> axes_ok f c -> axes_ok f' c.
Proof.
  intros Sg. destruct (same_nx _ _ Sg) as [X Y]. destruct Sg as (Ea & Eo & Es & Ed & _ & _).
  unfold axes_ok, axis_ok. rewrite X, Y, Ea, Eo, Es. unfold domain. rewrite Ed. auto.
Qed.
Lemma same_proper f f' : same_grid f f' -> proper_polc f -> proper_polc f'.
Proof.
  intros Sg (A & B & C & D). destruct (same_nx _ _ Sg) as [X Y]. destruct Sg as (_ & _ & _ & _ & Es & El). unfold proper_polc. rewrite X, Y, Es, El. auto.
Qed.

Lemma solved_inx f spid mask k s : solved f spid mask -> nth_error (f_inx f) k = Some (Some s) ->
  k < length (f_coeff f) /\ nth k mask false = true /\ s = rank_of mask k /\ s < rank_of mask (length (f_coeff f)).
Proof.
  intros (L & _ & _ & _ & Ei) E. assert (K : k < length (f_coeff f)).
  { rewrite Ei in E. assert (X : nth_error (map (fun k => if nth k mask false then Some (rank_of mask k) else None) (seq 0 (length (f_coeff f)))) k <> None) by congruence.
    apply nth_error_Some in X. rewrite map_length, seq_length in X. exact X. }
  split; [exact K|]. rewrite Ei, nth_error_map in E.
  rewrite (nth_error_nth' _ 0) in E by (rewrite seq_length; exact K). rewrite seq_nth in E by exact K. cbn [option_map Nat.add] in E.
  destruct (nth k mask false) eqn:M; [|discriminate]. injection E as <-. split; [reflexivity|]. split; [reflexivity|]. apply rank_lt; [exact K|lia|exact M].
Qed.
Lemma solved_inx_iff f spid mask k s : solved f spid mask -> k < length (f_coeff f) -> nth k mask false = true -> s = rank_of mask k -> nth_error (f_inx f) k = Some (Some s).
Proof.
  intros (L & _ & _ & _ & Ei) K M ->. rewrite Ei, nth_error_map. rewrite (nth_error_nth' _ 0) by (rewrite seq_length; exact K). rewrite seq_nth by exact K.
  cbn [option_map Nat.add]. rewrite M. reflexivity.
Qed.
Lemma nth_repeat_lt {A} (x d : A) n k : k < n -> nth k (repeat x n) d = x.
Proof. revert k. induction n as [|n IH]; intros [|k] L; cbn [repeat nth]; try lia; [reflexivity|apply IH; lia]. Qed.
Lemma solved_ready f spid mask mp : solved f spid mask -> (1 < nx f -> ny f <= 10) -> f_spids f <> [] -> pert_ready f mp.
Proof.
  intros (L & Ep & Es & Esp & Ei) N NE. right. rewrite Ep, repeat_length, Ei, map_length, seq_length. repeat split; [exact N|].
  intros E. rewrite E in *. cbn [seq map]. destruct mask as [|b [|? ?]]; try discriminate. cbn [nth].
  destruct b; [reflexivity|]. exfalso. apply NE. rewrite Es. reflexivity.
Qed.

Theorem perturbed_values_aux axf f c spid mask mp :
  proper_polc f -> axes_ok f c -> solved f spid mask -> f_spids f <> [] -> (1 < nx f -> ny f <= 10) -> mp <= 2 ->
  exists out v0, evaluate axf f c mp = Ok out /\ o_main (e_values out) = Some v0 /\
    forall k s ip, nth_error (f_inx f) k = Some (Some s) -> ip < mp ->
      exists d v, d = signed ip (f_pert f) /\ nth_error (nth ip (e_perts out) []) s = Some d
        /\ nth_error (e_spids out) s = Some (spid + Z.of_nat s)%Z
        /\ (forall v', In (ip, s, v') (o_pert (e_values out)) <-> v' = v)
        /\ do_evaluate axf (with_coeff f (f_shape f) (bumped (f_coeff f) k d)) c 0 = Ok {| o_main := Some v; o_pert := [] |}.
Proof.
  intros P A Sv NE N10 M2. destruct (eval_any axf f c P A) as (sh & pts & _ & EV).
  pose proof (solved_ready f spid mask mp Sv N10 NE) as R.
  unfold evaluate. destruct (f_spids f) as [|s0 sl] eqn:ES; [congruence|].
  replace (Nat.ltb 2 mp) with false by (symmetry; apply Nat.ltb_ge; lia).
  rewrite (EV f (same_refl f) mp R). cbn [bind]. eexists _, _. split; [reflexivity|]. cbn [e_values e_perts e_spids]. split; [reflexivity|].
  intros k s ip Ek Lip. destruct (solved_inx _ _ _ _ _ Sv Ek) as (Kn & Mk & Er & Sn).
  pose proof Sv as (Lm & Ep & Es & Esp & Ei). set (d := signed ip (f_pert f)).
  exists d, (mk sh pts (hval (with_coeff f (f_shape f) (bumped (f_coeff f) k d)))).
  split; [reflexivity|]. split.
  { rewrite nth_map_seq by exact Lip. rewrite Esp, nth_error_map. rewrite (nth_error_nth' _ q0) by (rewrite repeat_length; exact Sn).
    rewrite nth_repeat_lt by exact Sn. reflexivity. }
  split.
  { replace (Nat.eqb mp 0) with false by (symmetry; apply Nat.eqb_neq; lia). rewrite <- ES, Es, nth_error_map.
    rewrite (nth_error_nth' _ 0) by (rewrite seq_length; exact Sn). rewrite seq_nth by exact Sn. reflexivity. }
  split.
  - intros v'. unfold expected. cbn [o_pert]. rewrite in_flat_map. split.
    + intros (ip' & _ & H). apply in_placed in H. destruct H as (k' & s' & Ek' & E). injection E as <- <- ->.
      destruct (solved_inx _ _ _ _ _ Sv Ek') as (Kn' & Mk' & Er' & _).
      assert (k' = k) as -> by (apply (rank_inj mask); try lia; assumption).
      apply mk_ext. intros x y. unfold hpert, hval, delta. cbn [Nat.add nx ny with_coeff f_shape f_coeff].
      change (nx (with_coeff f (f_shape f) (bumped (f_coeff f) k d))) with (nx f). change (ny (with_coeff f (f_shape f) (bumped (f_coeff f) k d))) with (ny f).
      destruct P as (_ & _ & _ & Ln). rewrite poly_bumped by lia. f_equal. rewrite Ep, nth_repeat_lt by exact Kn. rewrite !signed_mul. reflexivity.
    + intros ->. exists ip. split; [apply in_seq; lia|]. apply in_placed. exists k, s. split; [exact Ek|]. f_equal.
      apply mk_ext. intros x y. unfold hpert, hval, delta. cbn [Nat.add].
      change (nx (with_coeff f (f_shape f) (bumped (f_coeff f) k d))) with (nx f). change (ny (with_coeff f (f_shape f) (bumped (f_coeff f) k d))) with (ny f).
      cbn [with_coeff f_coeff]. destruct P as (_ & _ & _ & Ln). rewrite poly_bumped by lia. f_equal. rewrite Ep, nth_repeat_lt by exact Kn. rewrite !signed_mul. reflexivity.
  - rewrite (EV _ (same_bumped f k d) 0); [reflexivity|]. left. reflexivity.
Qed.

(** ** The place of a spid's coefficient *)
Lemma find_inx_spec s : forall inx i j, find_inx inx i s = Some j -> i <= j /\ nth_error inx (j - i) = Some (Some s).
Proof.
  induction inx as [|x inx IH]; intros i j; cbn [find_inx]; [discriminate|]. destruct (match x with Some y => Nat.eqb y s | None => false end) eqn:E.
  - intros [= <-]. rewrite Nat.sub_diag. destruct x as [y|]; [|discriminate]. apply Nat.eqb_eq in E. subst y. split; [lia|reflexivity].
  - intros H. apply IH in H. destruct H as [L H]. split; [lia|]. replace (j - i) with (S (j - S i)) by lia. exact H.
Qed.
Lemma find_inx_none s : forall inx i, find_inx inx i s = None -> forall j, nth_error inx j <> Some (Some s).
Proof.
  induction inx as [|x inx IH]; intros i; cbn [find_inx]; [intros _ [|j]; discriminate|]. destruct (match x with Some y => Nat.eqb y s | None => false end) eqn:E; [discriminate|].
  intros H [|j]; cbn [nth_error]; [|eapply IH, H]. intros [= ->]. rewrite Nat.eqb_refl in E. discriminate.
Qed.
Lemma nth_error_skipn {A} : forall n (l : list A) k, nth_error (skipn n l) k = nth_error l (n + k).
Proof. induction n as [|n IH]; intros [|x l] k; cbn [skipn Nat.add nth_error]; try reflexivity; [destruct k; reflexivity|apply IH]. Qed.
Lemma coeff_index_aux f spid mask k s : solved f spid mask -> nth_error (f_inx f) k = Some (Some s) -> getCoeffIndex f s = (k / ny f, k mod ny f).
Proof.
  intros Sv Ek. destruct (solved_inx _ _ _ _ _ Sv Ek) as (Kn & Mk & Er & _). unfold getCoeffIndex. fold (ny f).
  assert (L : s <= k) by (rewrite Er; apply rank_le).
  destruct (find_inx (skipn s (f_inx f)) s s) as [j|] eqn:F.
  - apply find_inx_spec in F. destruct F as [Lj F]. rewrite nth_error_skipn in F. replace (s + (j - s)) with j in F by lia.
    destruct (solved_inx _ _ _ _ _ Sv F) as (Jn & Mj & Erj & _). pose proof Sv as (Lm & _).
    assert (j = k) as -> by (apply (rank_inj mask); try lia; assumption). reflexivity.
  - exfalso. apply (find_inx_none _ _ _ F (k - s)). rewrite nth_error_skipn. replace (s + (k - s)) with k by lia. exact Ek.
Qed.

(** ** Updates *)
Lemma add_updates_ok vals : forall inx cs, length inx = length cs -> (forall s, In (Some s) inx -> s < length vals) ->
  exists cs', add_updates cs inx vals = Ok cs' /\ length cs' = length cs
    /\ forall k, k < length cs -> nth k cs' q0 = Qcplus (nth k cs q0) (match nth k inx None with Some s => nth s vals q0 | None => q0 end).
Proof.
  induction inx as [|x inx IH]; intros cs L V.
  - destruct cs; [|discriminate]. exists []. split; [reflexivity|]. split; [reflexivity|]. intros k K. cbn [length] in K. lia.
  - destruct cs as [|c cs]; [discriminate|]. cbn [length] in L.
    destruct (IH cs ltac:(lia)) as (cs' & E & Lc & N); [intros s H; apply V; right; exact H|].
    destruct x as [s|]; cbn [add_updates].
    + rewrite (nth_error_nth' vals q0) by (apply V; left; reflexivity). rewrite E. cbn [bind]. eexists. split; [reflexivity|].
      split; [cbn [length]; lia|]. intros [|k] K; cbn [nth]; [reflexivity|]. apply N. cbn [length] in K. lia.
    + rewrite E. cbn [bind]. eexists. split; [reflexivity|]. split; [cbn [length]; lia|].
      intros [|k] K; cbn [nth]; [ring|]. apply N. cbn [length] in K. lia.
Qed.
Lemma list_ext_nth (l m : list Qc) : length l = length m -> (forall k, k < length l -> nth k l q0 = nth k m q0) -> l = m.
Proof. intros L H. apply (nth_ext l m q0 q0 L H). Qed.
(** as many values as spids, all zero but [d] for number [s] *)
Definition unit_step (n s : nat) (d : Qc) : list Qc := map (fun i => if Nat.eqb i s then d else q0) (seq 0 n).
Lemma update_unit f spid mask k s d : solved f spid mask -> nth_error (f_inx f) k = Some (Some s) ->
  update f (unit_step (length (f_spids f)) s d) = Ok (with_coeff f (f_shape f) (bumped (f_coeff f) k d)).
Proof.
  intros Sv Ek. destruct (solved_inx _ _ _ _ _ Sv Ek) as (Kn & Mk & Er & Sn). pose proof Sv as (Lm & Ep & Es & Esp & Ei).
  assert (LS : length (f_spids f) = rank_of mask (length (f_coeff f))) by (rewrite Es, map_length, seq_length; reflexivity).
  assert (LI : length (f_inx f) = length (f_coeff f)) by (rewrite Ei, map_length, seq_length; reflexivity).
  destruct (add_updates_ok (unit_step (length (f_spids f)) s d) (f_inx f) (f_coeff f) LI) as (cs & E & Lc & N).
  { intros s' H. unfold unit_step. rewrite map_length, seq_length. apply In_nth_error in H. destruct H as [k' H].
    destruct (solved_inx _ _ _ _ _ Sv H) as (_ & _ & _ & X). rewrite LS. exact X. }
  unfold update. rewrite E. cbn [bind]. do 2 f_equal. apply list_ext_nth; [rewrite length_bumped; exact Lc|].
  intros j J. rewrite Lc in J. rewrite N by exact J. rewrite nth_bumped by exact Kn.
  destruct (nth j (f_inx f) None) as [s'|] eqn:X.
  - assert (Ej : nth_error (f_inx f) j = Some (Some s')) by (rewrite (nth_error_nth' _ None) by lia; rewrite X; reflexivity).
    destruct (solved_inx _ _ _ _ _ Sv Ej) as (_ & Mj & Erj & Sj). unfold unit_step. rewrite nth_map_seq by (rewrite LS; exact Sj).
    destruct (Nat.eqb_spec j k) as [->|NE].
    + assert (s' = s) as -> by congruence. rewrite Nat.eqb_refl. reflexivity.
    + destruct (Nat.eqb_spec s' s) as [->|]; [|ring]. exfalso. apply NE. apply (rank_inj mask); try lia; assumption.
  - destruct (Nat.eqb_spec j k) as [->|NE]; [|ring]. exfalso. apply (nth_error_nth _ _ None) in Ek. congruence.
Qed.

(** ** Rescaling *)
Definition scale_of (s : Qc) : Qc := if qeqb s q0 then q1 else s.
Lemma scale_of_nz s : scale_of s <> q0.
Proof. unfold scale_of. destruct (qeqb s q0) eqn:E; [discriminate|]. intros ->. rewrite (proj2 (qeqb_eq q0 q0) eq_refl) in E. discriminate. Qed.
Lemma relative_scale o s X : relative o s X = Qcdiv (Qcminus X o) (scale_of s).
Proof. unfold relative, scale_of. rewrite qeqb_dec. destruct (Qc_eq_dec s (Q2Qc 0)) as [E|N]; destruct (Qc_eq_dec s q0) as [E'|N']; try reflexivity; contradiction. Qed.
Lemma scale_of_nonzero s : s <> q0 -> scale_of s = s.
Proof. intros N. unfold scale_of. destruct (qeqb s q0) eqn:E; [apply qeqb_eq in E; contradiction|reflexivity]. Qed.
Lemma rescaled oo os o s X : s <> q0 ->
  relative oo os X = Qcmult (Qcdiv s (scale_of os)) (Qcplus (Qcdiv (Qcminus o oo) s) (relative o s X)).
Proof. intros N. rewrite !relative_scale, (scale_of_nonzero s N). pose proof (scale_of_nz os) as N'. change q0 with (Q2Qc 0) in *. field. auto. Qed.
Lemma poly_const_tail nx ny c cs x y x' y' : 1 <= nx -> 1 <= ny -> forallb (fun z => qeqb z q0) cs = true ->
  poly nx ny (c :: cs) x y = poly nx ny (c :: cs) x' y'.
Proof.
  intros Lx Ly Z. assert (T : forall k, nth (S k) (c :: cs) q0 = q0).
  { intros k. cbn [nth]. destruct (lt_dec k (length cs)) as [L|G]; [|apply nth_overflow; lia].
    rewrite forallb_forall in Z. apply qeqb_eq, Z, nth_In, L. }
  unfold poly. apply Sum_ext. intros i Hi. apply Sum_ext. intros j Hj. destruct (i * ny + j) as [|k] eqn:E.
  - assert (j = 0) as -> by lia. assert (i = 0) as -> by (destruct i; [reflexivity|nia]). reflexivity.
  - change (Q2Qc 0) with q0. rewrite T. change q0 with (Q2Qc 0). ring.
Qed.
Lemma poly_single cs x y x' y' : poly 1 1 cs x y = poly 1 1 cs x' y'.
Proof. reflexivity. Qed.
Definition two_axes (f : funklet) : Prop := 2 <= length (f_off f) /\ 2 <= length (f_scl f).
Lemma transform_aux f o0 s0 o1 s1 : proper_polc f -> two_axes f -> s0 <> q0 -> s1 <> q0 ->
  exists f', transformCoeff f [(o0, s0); (o1, s1)] = Ok f' /\ f_shape f' = f_shape f /\ length (f_coeff f') = length (f_coeff f)
    /\ f_dom f' = f_dom f
    /\ (forall X, rel f' 0 X = relative o0 s0 X) /\ (forall X, rel f' 1 X = relative o1 s1 X)
    /\ forall X Y, polc_at f' X Y = polc_at f X Y.
Proof.
  intros (_ & Nx & Ny & Ln) [Lo Ls] N0 N1.
  destruct (f_off f) as [|oo0 [|oo1 off]] eqn:Eo; cbn [length] in Lo; try lia.
  destruct (f_scl f) as [|os0 [|os1 scl]] eqn:Es; cbn [length] in Ls; try lia.
  unfold transformCoeff. cbn [set_axes with_axes f_off f_scl set_nth nth_error]. rewrite Eo, Es. cbn [set_nth nth_error].
  assert (Q0 : qeqb s0 q0 = false) by (destruct (qeqb s0 q0) eqn:E; [apply qeqb_eq in E; contradiction|reflexivity]).
  assert (Q1 : qeqb s1 q0 = false) by (destruct (qeqb s1 q0) eqn:E; [apply qeqb_eq in E; contradiction|reflexivity]).
  rewrite Q0, Q1. cbn [set_nth bind set_axes option_map f_coeff with_axes]. fold (nx f) (ny f). fold (scale_of os0) (scale_of os1).
  set (g := with_axes (with_axes f _ _) _ _).
  assert (RX : forall X, rel g 0 X = relative o0 s0 X) by reflexivity.
  assert (RY : forall X, rel g 1 X = relative o1 s1 X) by reflexivity.
  assert (FX : forall X, rel f 0 X = relative oo0 os0 X) by (intros X; unfold rel; rewrite Eo, Es; reflexivity).
  assert (FY : forall X, rel f 1 X = relative oo1 os1 X) by (intros X; unfold rel; rewrite Eo, Es; reflexivity).
  assert (Same : forall h, (forall X Y, poly (nx f) (ny f) (f_coeff f) (rel g 0 X) (rel g 1 Y) = poly (nx f) (ny f) (f_coeff f) (rel f 0 X) (rel f 1 Y)) ->
     h = g -> exists f', Ok h = Ok f' /\ f_shape f' = f_shape f /\ length (f_coeff f') = length (f_coeff f) /\ f_dom f' = f_dom f
       /\ (forall X, rel f' 0 X = relative o0 s0 X) /\ (forall X, rel f' 1 X = relative o1 s1 X) /\ forall X Y, polc_at f' X Y = polc_at f X Y).
  { intros h P ->. exists g. split; [reflexivity|]. split; [reflexivity|]. split; [reflexivity|]. split; [reflexivity|].
    split; [exact RX|]. split; [exact RY|]. intros X Y. exact (P X Y). }
  destruct (Nat.leb (nx f) 1 && Nat.leb (ny f) 1) eqn:B1.
  { apply andb_true_iff in B1. destruct B1 as [B1 B2]. apply Nat.leb_le in B1, B2. apply Same; [|reflexivity].
    intros X Y. replace (nx f) with 1 by lia. replace (ny f) with 1 by lia. apply poly_single. }
  cbn [forallb]. destruct (_ && (_ && true))%bool eqn:B2.
  { apply Same; [|reflexivity]. cbn [fst snd] in B2. rewrite !andb_true_iff in B2. destruct B2 as [[D0 S0] [[D1 S1] _]].
    apply qeqb_eq in D0, S0, D1, S1. intros X Y. rewrite RX, RY, FX, FY.
    rewrite (rescaled oo0 os0 o0 s0 X N0), (rescaled oo1 os1 o1 s1 Y N1), D0, S0, D1, S1. f_equal; change q0 with (Q2Qc 0); change q1 with (Q2Qc 1); ring. }
  destruct (forallb (fun x => qeqb x q0) (tl (f_coeff f))) eqn:B3.
  { apply Same; [|reflexivity]. intros X Y. destruct (f_coeff f) as [|c cs] eqn:Ec; [cbn in Ln; nia|]. apply poly_const_tail; assumption. }
  eexists. split; [reflexivity|]. split; [reflexivity|]. split; [cbn [with_coeff f_coeff]; rewrite map_length, seq_length, Ln; reflexivity|]. split; [reflexivity|].
  split; [exact RX|]. split; [exact RY|]. intros X Y. unfold polc_at.
  match goal with |- poly ?a ?b ?c ?d ?e = _ => change a with (nx f); change b with (ny f); change d with (rel g 0 X); change e with (rel g 1 Y) end.
  cbn [with_coeff f_coeff]. rewrite poly_shift. rewrite RX, RY, FX, FY.
  rewrite (rescaled oo0 os0 o0 s0 X N0), (rescaled oo1 os1 o1 s1 Y N1). reflexivity.
Qed.
Lemma solve_ends d s0 s1 i : d_start d i <> d_stop d i -> s0 <> s1 ->
  let '(o, s) := solve_axis d s0 s1 i in s <> q0 /\ relative o s (d_start d i) = s0 /\ relative o s (d_stop d i) = s1.
Proof.
  intros Nd Ns. unfold solve_axis.
  set (st := d_start d i) in *. set (e := d_stop d i) in *.
  assert (A : Qcminus s0 s1 <> Q2Qc 0) by (intros H; apply Ns; replace s0 with (Qcplus (Qcminus s0 s1) s1) by ring; rewrite H; ring).
  assert (A' : Qcminus s1 s0 <> Q2Qc 0) by (intros H; apply Ns; replace s1 with (Qcplus (Qcminus s1 s0) s0) by ring; rewrite H; ring).
  assert (B : Qcminus e st <> Q2Qc 0) by (intros H; apply Nd; replace e with (Qcplus (Qcminus e st) st) by ring; rewrite H; ring).
  assert (N : Qcdiv (Qcminus e st) (Qcminus s1 s0) <> q0).
  { intros H. apply B. replace (Qcminus e st) with (Qcmult (Qcdiv (Qcminus e st) (Qcminus s1 s0)) (Qcminus s1 s0)) by (field; exact A'). rewrite H. change q0 with (Q2Qc 0). ring. }
  split; [exact N|]. rewrite !relative_scale, (scale_of_nonzero _ N). split; field; auto.
Qed.

(** ** Another shape *)
Lemma nth_set_nth (d : Qc) : forall l i x k, nth k (set_nth l i x) d = if Nat.eqb k i && Nat.ltb i (length l) then x else nth k l d.
Proof.
  induction l as [|y l IH]; intros [|i] x [|k]; cbn [set_nth nth length Nat.eqb andb]; try reflexivity.
  - rewrite andb_false_r. reflexivity.
  - rewrite IH. reflexivity.
Qed.
Lemma place_all_length shape old nnew : forall cs k acc, length (place_all shape old nnew k cs acc) = length acc.
Proof.
  induction cs as [|x cs IH]; intros k acc; [reflexivity|]. cbn [place_all]. rewrite IH.
  destruct (Nat.ltb _ nnew); [apply set_nth_length|reflexivity].
Qed.
Lemma place_none shape old nnew e : forall cs k acc, (forall j, k <= j < k + length cs -> place shape (coords old j) nnew 0 <> e) ->
  nth e (place_all shape old nnew k cs acc) q0 = nth e acc q0.
Proof.
  induction cs as [|x cs IH]; intros k acc H; [reflexivity|]. cbn [place_all]. rewrite IH.
  - destruct (Nat.ltb _ nnew); [|reflexivity]. rewrite nth_set_nth. destruct (Nat.eqb_spec e (place shape (coords old k) nnew 0)) as [E|]; [|reflexivity].
    exfalso. apply (H k); [cbn [length]; lia|symmetry; exact E].
  - intros j J. apply H. cbn [length]. lia.
Qed.
Lemma place_some shape old nnew e : forall cs k acc j, e < nnew -> length acc = nnew -> k <= j < k + length cs -> place shape (coords old j) nnew 0 = e ->
  (forall j', k <= j' < k + length cs -> place shape (coords old j') nnew 0 = e -> j' = j) ->
  nth e (place_all shape old nnew k cs acc) q0 = nth (j - k) cs q0.
Proof.
  induction cs as [|x cs IH]; intros k acc j He La J E U; [cbn [length] in J; lia|]. cbn [place_all].
  destruct (Nat.eq_dec j k) as [->|N].
  - rewrite Nat.sub_diag. cbn [nth]. rewrite place_none.
    + rewrite E. rewrite (proj2 (Nat.ltb_lt e nnew) He). rewrite nth_set_nth, Nat.eqb_refl, La, (proj2 (Nat.ltb_lt e nnew) He). reflexivity.
    + intros j' J' E'. assert (j' = k); [apply U; [cbn [length]; lia|exact E']|lia].
  - rewrite (IH (S k) _ j); [| exact He | | cbn [length] in J; lia | exact E |].
    + replace (j - k) with (S (j - S k)) by lia. reflexivity.
    + destruct (Nat.ltb _ nnew); [rewrite set_nth_length|]; exact La.
    + intros j' J' E'. apply U; [cbn [length]; lia|exact E'].
Qed.
Lemma place2 n' m' n m j : 1 <= n' -> 1 <= m' -> 1 <= m -> j < n * m ->
  place [n'; m'] (coords [n; m] j) (n' * m') 0 =
  if Nat.ltb (j mod m) m' then (if Nat.ltb (j / m) n' then (j / m) * m' + j mod m else n' * m' * m' + j mod m) else n' * m'.
Proof.
  intros A B C J. cbn [coords fold_right place]. rewrite !Nat.mul_1_r, Nat.div_1_r. rewrite Nat.mul_0_l, Nat.add_0_l.
  destruct (Nat.ltb_spec (j mod m) m') as [L|G].
  - replace (Nat.leb m' (j mod m)) with false by (symmetry; apply Nat.leb_gt; lia). cbn [andb].
    destruct (Nat.ltb_spec (j / m) n') as [L2|G2].
    + replace (Nat.leb n' (j / m)) with false by (symmetry; apply Nat.leb_gt; lia). reflexivity.
    + replace (Nat.leb n' (j / m)) with true by (symmetry; apply Nat.leb_le; lia). replace (Nat.ltb 0 (j / m)) with true by (symmetry; apply Nat.ltb_lt; lia). reflexivity.
  - replace (Nat.leb m' (j mod m)) with true by (symmetry; apply Nat.leb_le; lia). replace (Nat.ltb 0 (j mod m)) with true by (symmetry; apply Nat.ltb_lt; lia). reflexivity.
Qed.
Lemma reshaped_2 n' m' n m cs i j : 1 <= n' -> 1 <= m' -> 1 <= m -> length cs = n * m -> i < n' -> j < m' ->
  nth (i * m' + j) (place_all [n'; m'] [n; m] (n' * m') 0 cs (repeat q0 (n' * m'))) q0 = if Nat.ltb i n && Nat.ltb j m then nth (i * m + j) cs q0 else q0.
Proof.
  intros A B C L I J. assert (E : i * m' + j < n' * m') by nia.
  assert (P : forall k, k < n * m -> place [n'; m'] (coords [n; m] k) (n' * m') 0 = i * m' + j -> k / m = i /\ k mod m = j).
  { intros k K H. rewrite (place2 n' m' n m k A B C K) in H. pose proof (Nat.mod_upper_bound k m ltac:(lia)).
    destruct (Nat.ltb_spec (k mod m) m') as [L1|G1]; [|lia]. destruct (Nat.ltb_spec (k / m) n') as [L2|G2]; [|exfalso; nia].
    destruct (Nat.lt_trichotomy (k / m) i) as [T|[T|T]]; [exfalso; nia| |exfalso; nia]. split; [exact T|]. rewrite T in H. lia. }
  destruct (Nat.ltb_spec i n) as [Hi|Hi]; destruct (Nat.ltb_spec j m) as [Hj|Hj]; cbn [andb].
  1: { rewrite (place_some _ _ _ _ cs 0 _ (i * m + j)).
       - rewrite Nat.sub_0_r. reflexivity.
       - exact E.
       - apply repeat_length.
       - rewrite L. nia.
       - rewrite place2 by (try assumption; nia).
         rewrite Nat.div_add_l, Nat.div_small, Nat.add_0_r by lia. rewrite Nat.add_comm, Nat.mod_add, Nat.mod_small by lia.
         rewrite (proj2 (Nat.ltb_lt i n') I), (proj2 (Nat.ltb_lt j m') J). reflexivity.
       - intros k K H. rewrite L in K. destruct (P k ltac:(lia) H) as [<- <-]. rewrite (Nat.div_mod k m) at 1 by lia. lia. }
  all: rewrite place_none by (intros k K H; rewrite L in K; destruct (P k ltac:(lia) H) as [X Y];
         pose proof (Nat.mod_upper_bound k m ltac:(lia)); assert (k / m < n) by (apply Nat.div_lt_upper_bound; lia); lia);
       apply nth_repeat_lt; exact E.
Qed.
Lemma Sum_extend n n' F : n <= n' -> (forall i, n <= i < n' -> F i = q0) -> Sum n' F = Sum n F.
Proof.
  intros L. induction L as [|n' L IH]; intros Z; [reflexivity|]. cbn [Sum]. rewrite Z by lia. rewrite IH by (intros; apply Z; lia). change q0 with (Q2Qc 0). ring.
Qed.
Lemma poly_grown n m n' m' cs cs' x y : n <= n' -> m <= m' ->
  (forall i j, i < n' -> j < m' -> nth (i * m' + j) cs' q0 = if Nat.ltb i n && Nat.ltb j m then nth (i * m + j) cs q0 else q0) ->
  poly n' m' cs' x y = poly n m cs x y.
Proof.
  intros Ln Lm H. unfold poly. change (Q2Qc 0) with q0.
  assert (Z : forall z, Qcmult q0 z = q0) by (intros; change q0 with (Q2Qc 0); ring).
  rewrite (Sum_extend n n').
  - apply Sum_ext. intros i Hi. rewrite (Sum_extend m m').
    + apply Sum_ext. intros j Hj. rewrite H by lia. rewrite (proj2 (Nat.ltb_lt i n) Hi), (proj2 (Nat.ltb_lt j m) Hj). reflexivity.
    + exact Lm.
    + intros j Hj. rewrite H by lia. replace (Nat.ltb j m) with false by (symmetry; apply Nat.ltb_ge; lia). rewrite andb_false_r, !Z. reflexivity.
  - exact Ln.
  - intros i Hi. rewrite (Sum_ext m' _ (fun _ => q0)).
    + clear. induction m' as [|m' IH]; [reflexivity|]. cbn [Sum]. rewrite IH. change q0 with (Q2Qc 0). ring.
    + intros j Hj. rewrite H by lia. replace (Nat.ltb i n) with false by (symmetry; apply Nat.ltb_ge; lia). cbn [andb]. rewrite !Z. reflexivity.
Qed.
Lemma setRank_same f n : length (f_axes f) = n -> setRank f n = f.
Proof. intros E. unfold setRank. rewrite E, Nat.sub_diag. reflexivity. Qed.
Lemma reshaped_1 n' n cs i : length cs = n -> i < n' ->
  nth i (place_all [n'] [n] n' 0 cs (repeat q0 n')) q0 = if Nat.ltb i n then nth i cs q0 else q0.
Proof.
  intros L I.
  assert (P : forall k, place [n'] (coords [n] k) n' 0 = if Nat.ltb k n' then k else n').
  { intros k. cbn [coords fold_right place]. rewrite Nat.div_1_r, Nat.mul_0_l, Nat.add_0_l. destruct (Nat.ltb_spec k n') as [A|A].
    - replace (Nat.leb n' k) with false by (symmetry; apply Nat.leb_gt; lia). reflexivity.
    - replace (Nat.leb n' k) with true by (symmetry; apply Nat.leb_le; lia). replace (Nat.ltb 0 k) with true by (symmetry; apply Nat.ltb_lt; lia). reflexivity. }
  destruct (Nat.ltb_spec i n) as [Hi|Hi].
  - rewrite (place_some _ _ _ _ cs 0 _ i); [rewrite Nat.sub_0_r; reflexivity|exact I|apply repeat_length|lia| |].
    + rewrite P, (proj2 (Nat.ltb_lt i n') I). reflexivity.
    + intros k _ H. rewrite P in H. destruct (Nat.ltb_spec k n'); lia.
  - rewrite place_none; [apply nth_repeat_lt; exact I|]. intros k K H. rewrite P in H. destruct (Nat.ltb_spec k n'); lia.
Qed.
(** the number of coefficients along axis [i] *)
Definition ncoef (sh : list nat) (i : nat) : nat := nth i sh 1.
Lemma shape_set_aux f shape : proper_polc f -> length (f_axes f) = length (f_shape f) -> length shape = length (f_shape f) ->
  Forall (fun n => 1 <= n) shape ->
  let f' := setCoeffShape f shape in
  f_shape f' = shape /\ length (f_coeff f') = ncoef shape 0 * ncoef shape 1 /\ (forall i X, rel f' i X = rel f i X) /\
  forall i j, i < ncoef shape 0 -> j < ncoef shape 1 ->
    nth (i * ncoef shape 1 + j) (f_coeff f') q0
    = if Nat.ltb i (nx f) && Nat.ltb j (ny f) then nth (i * ny f + j) (f_coeff f) q0 else q0.
Proof.
  intros P La Ls Fp f'. subst f'. pose proof P as (_ & Nx & Ny & Ln). unfold setCoeffShape. destruct (list_eq_dec Nat.eq_dec (f_shape f) shape) as [<-|NE].
  - split; [reflexivity|]. split; [exact Ln|]. split; [reflexivity|]. intros i j Hi Hj. fold (nx f) in Hi. fold (ny f) in Hj.
    unfold ncoef in *. fold (nx f) (ny f) in *. rewrite (proj2 (Nat.ltb_lt _ _) Hi), (proj2 (Nat.ltb_lt _ _) Hj). reflexivity.
  - rewrite setRank_same by lia. destruct (shape_cases f P) as [(n & Es & En & Em)|(n & m & Es & En & Em)]; rewrite Es in *; cbn [length] in Ls.
    + destruct shape as [|n' [|? ?]]; try discriminate. inversion Fp as [|? ? F1 _]; subst. cbn [with_coeff f_shape f_coeff fold_right ncoef nth].
      rewrite !Nat.mul_1_r. split; [reflexivity|]. split; [rewrite place_all_length, repeat_length; reflexivity|]. split; [reflexivity|].
      intros i j Hi Hj. assert (j = 0) as -> by lia. rewrite Em in *. rewrite !Nat.mul_1_r, !Nat.add_0_r, andb_true_r in *.
      rewrite reshaped_1 by lia. reflexivity.
    + destruct shape as [|n' [|m' [|? ?]]]; try discriminate. inversion Fp as [|? ? F1 F2]; subst. inversion F2 as [|? ? F3 _]; subst.
      cbn [with_coeff f_shape f_coeff fold_right ncoef nth]. rewrite !Nat.mul_1_r. split; [reflexivity|].
      split; [rewrite place_all_length, repeat_length; reflexivity|]. split; [reflexivity|].
      intros i j Hi Hj. apply reshaped_2; assumption.
Qed.
