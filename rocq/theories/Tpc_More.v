(** More about tiled parameters: the domain of a composed funklet, proper domains, and when the tiles start all over. *)
From Coq Require Import QArith Qcanon Lqa.
From Verif Require Import Base Polc_Model Polc_Spec Polc_Proofs Slv_Spec Slv_Proofs Leq_Proofs Tpc_Model Tpc_Spec Tpc_Proofs Tpc_Tiles Tpc_Order Tpc_Values Tpc_Thms.
Import Polc_Thms(z, qs, nax, polc).
Close Scope Q_scope. Close Scope Qc_scope. Local Open Scope nat_scope.

(** a domain whose defined axes have a range from below to above *)
Definition proper (d : tdom) : Prop := forall a r, nth a d None = Some r -> (fst r < snd r)%Qc.

(** ** The domain of a composed funklet is the smallest one with the domains of all its funklets in it. *)
Lemma in_insert x t : forall l, In x (insert t l) <-> x = t \/ In x l.
Proof.
  induction l as [|y l IH]; [cbn; intuition|]. cbn [insert]. destruct (compareDomain y t); cbn [In]; [rewrite IH|]; intuition.
Qed.
Lemma in_sort x : forall l, In x (sort l) <-> In x l.
Proof. induction l as [|y l IH]; [reflexivity|]. cbn [sort fold_right]. fold (sort l). rewrite in_insert, IH. cbn. intuition. Qed.
Definition covers (a : nat) (l : list tile) (env : tdom) : Prop :=
  match nth a env None with
  | None => forall t, In t l -> nth a (t_dom t) None = None
  | Some e => (fst e < snd e)%Qc /\ (forall t r, In t l -> nth a (t_dom t) None = Some r -> (fst e <= fst r)%Qc /\ (snd r <= snd e)%Qc) /\
              (exists t r, In t l /\ nth a (t_dom t) None = Some r /\ fst e = fst r) /\ (exists t r, In t l /\ nth a (t_dom t) None = Some r /\ snd e = snd r)
  end.
Lemma qmin_cases x y : (qmin x y = x /\ x <= y)%Qc \/ (qmin x y = y /\ y < x)%Qc.
Proof. unfold qmin. destruct (qltb y x) eqn:E; [right; split; [reflexivity|now apply qltb_true]|left; split; [reflexivity|]]. apply Qcnot_lt_le. intros H. apply qltb_true in H. congruence. Qed.
Lemma qmax_cases x y : (qmax x y = x /\ y <= x)%Qc \/ (qmax x y = y /\ x < y)%Qc.
Proof. unfold qmax. destruct (qltb x y) eqn:E; [right; split; [reflexivity|now apply qltb_true]|left; split; [reflexivity|]]. apply Qcnot_lt_le. intros H. apply qltb_true in H. congruence. Qed.
Lemma expand_axis_here o d d' a : length d = length d' -> nth a d None = nth a d' None -> nth a (expand_axis o d a) None = nth a (expand_axis o d' a) None.
Proof.
  intros L Y. unfold expand_axis, is_defined, lower, upper. rewrite Y. destruct (nth a o None); [|exact Y].
  assert (S : forall v, nth a (set_nth d a v) None = nth a (set_nth d' a v) None).
  { intros v. destruct (le_lt_dec (length d) a); [rewrite !nth_overflow by (rewrite length_set; lia); reflexivity|rewrite !nth_set_same by lia; reflexivity]. }
  unfold defineAxis. destruct (nth a d' None) eqn:E; [destruct (_ || _); [apply S|congruence]|apply S].
Qed.
Lemma expand_covers a l env t : a < MaxAxis -> length env = MaxAxis -> proper (t_dom t) -> covers a l env -> covers a (l ++ [t]) (expandToEnvelope env (t_dom t)).
Proof.
  intros La Le Pt C. unfold covers in *.
  assert (I : forall x, In x (l ++ [t]) <-> In x l \/ x = t) by (intros x; rewrite in_app_iff; cbn; intuition).
  destruct (nth a (t_dom t) None) as [r|] eqn:Et.
  2:{ rewrite envelope_none by assumption. destruct (nth a env None) as [e|].
      - destruct C as (C0 & C1 & (t1 & r1 & I1 & E1 & F1) & (t2 & r2 & I2 & E2 & F2)). split; [exact C0|]. split; [|split].
        + intros x rx Hx Ex. apply I in Hx as [Hx| ->]; [eauto|congruence].
        + exists t1, r1. rewrite I. auto.
        + exists t2, r2. rewrite I. auto.
      - intros x Hx. apply I in Hx as [Hx| ->]; auto. }
  pose proof (Pt a r Et) as Pr.
  assert (X : nth a (expandToEnvelope env (t_dom t)) None = nth a (expand_axis (t_dom t) env a) None).
  { unfold expandToEnvelope. replace MaxAxis with (a + S (MaxAxis - S a)) by lia. rewrite seq_app, fold_left_app. cbn [seq fold_left Nat.add]. rewrite expand_fold_other by lia.
    apply expand_axis_here; rewrite ?expand_fold_length; auto. apply expand_fold_other. lia. }
  rewrite X. unfold expand_axis, is_defined, lower, upper. rewrite Et. destruct (nth a env None) as [e|] eqn:Ee.
  - destruct C as (C0 & C1 & (t1 & r1 & I1 & E1 & F1) & (t2 & r2 & I2 & E2 & F2)).
    set (x := qmin (fst e) (fst r)). set (y := qmax (snd e) (snd r)).
    assert (Lx : (x < y)%Qc). { unfold x, y. destruct (qmin_cases (fst e) (fst r)) as [[-> ?]|[-> ?]], (qmax_cases (snd e) (snd r)) as [[-> ?]|[-> ?]]; qlra. }
    assert (N : nth a (if negb (qeqb x (fst e)) || negb (qeqb y (snd e)) then defineAxis env a x y else env) None = Some (x, y)).
    { destruct (negb (qeqb x (fst e)) || negb (qeqb y (snd e))) eqn:Q.
      - rewrite defineAxis_lt by assumption. apply nth_set_same. lia.
      - apply orb_false_iff in Q as [Q1 Q2]. apply negb_false_iff, qeqb_eq in Q1. apply negb_false_iff, qeqb_eq in Q2. rewrite Ee. f_equal. destruct e. cbn in Q1, Q2 |- *. congruence. }
    rewrite N. cbn [fst snd]. split; [exact Lx|]. split; [|split].
    + intros u ru Hu Eu. assert (Bx : (x <= fst e)%Qc /\ (x <= fst r)%Qc /\ (snd e <= y)%Qc /\ (snd r <= y)%Qc).
      { unfold x, y. destruct (qmin_cases (fst e) (fst r)) as [[-> ?]|[-> ?]], (qmax_cases (snd e) (snd r)) as [[-> ?]|[-> ?]]; repeat split; qlra. }
      apply I in Hu as [Hu| ->].
      * destruct (C1 u ru Hu Eu). split; qlra.
      * rewrite Et in Eu. assert (ru = r) by congruence. subst ru. split; apply Bx.
    + unfold x. destruct (qmin_cases (fst e) (fst r)) as [[-> _]|[-> _]]; [exists t1, r1|exists t, r]; rewrite I; auto.
    + unfold y. destruct (qmax_cases (snd e) (snd r)) as [[-> _]|[-> _]]; [exists t2, r2|exists t, r]; rewrite I; auto.
  - rewrite defineAxis_lt by assumption. rewrite nth_set_same by lia. cbn [fst snd]. split; [exact Pr|]. split; [|split].
    + intros u ru Hu Eu. apply I in Hu as [Hu| ->]; [rewrite (C u Hu) in Eu; discriminate|]. rewrite Et in Eu. assert (ru = r) by congruence. subst ru. split; qlra.
    + exists t, r. rewrite I. auto.
    + exists t, r. rewrite I. auto.
Qed.
Lemma marking_covers a : forall l k env has, a < MaxAxis -> length env = MaxAxis -> Forall (fun t => proper (t_dom t)) l -> covers a k env -> covers a (k ++ l) (fst (marking l (env, has))).
Proof.
  induction l as [|t l IH]; intros k env has La Le F C; [now rewrite app_nil_r|]. apply Forall_cons_iff in F as [Ft F]. cbn [marking fold_left].
  replace (k ++ t :: l) with ((k ++ [t]) ++ l) by now rewrite <- app_assoc. apply IH; try assumption; [now rewrite envelope_length|]. now apply expand_covers.
Qed.
Theorem composed_domain l default p a : Forall (fun t => proper (t_dom t)) l -> compose l default = Ok p -> a < MaxAxis ->
  let lo := d_start (domain (p_base p)) a in let hi := d_stop (domain (p_base p)) a in
  (forall t r, In t l -> nth a (t_dom t) None = Some r -> (lo <= fst r)%Qc /\ (snd r <= hi)%Qc) /\
  ((exists t, In t l /\ nth a (t_dom t) None <> None) ->
     (exists t r, In t l /\ nth a (t_dom t) None = Some r /\ fst r = lo) /\ (exists t r, In t l /\ nth a (t_dom t) None = Some r /\ snd r = hi)) /\
  ((forall t, In t l -> nth a (t_dom t) None = None) -> lo = q0 /\ hi = q0).
Proof.
  intros F E La. unfold compose in E. destruct l as [|t0 l0]; [discriminate|]. set (l := t0 :: l0) in *. unfold initFunklets in E.
  fold (marking (sort l) (undefined, repeat false MaxAxis)) in E.
  assert (C : covers a ([] ++ sort l) (fst (marking (sort l) (undefined, repeat false MaxAxis)))).
  { apply marking_covers; [exact La|reflexivity| |].
    - apply Forall_forall. intros t Ht. rewrite in_sort in Ht. rewrite Forall_forall in F. now apply F.
    - unfold covers. assert (U : nth a undefined None = None) by apply nth_repeat. rewrite U. intros t []. }
  cbn [app] in C. destruct (marking (sort l) (undefined, repeat false MaxAxis)) as [env has]. cbn [fst] in C. cbn zeta.
  assert (Ed : domain (p_base p) = to_dom env). { assert (X : forall u v : composed, Ok u = Ok v -> p_base u = p_base v) by (intros u v Q; now inversion Q). apply X in E. cbn [p_base] in E. rewrite <- E. reflexivity. }
  rewrite Ed. cbn [to_dom d_start d_stop]. unfold lower, upper, covers in *. destruct (nth a env None) as [e|].
  - destruct C as (C0 & C1 & (t1 & r1 & I1 & E1 & F1) & (t2 & r2 & I2 & E2 & F2)). split; [intros t r Ht; apply C1; now apply in_sort|]. split.
    + intros _. split; [exists t1, r1|exists t2, r2]; (split; [now apply in_sort|auto]).
    + intros N. rewrite N in E1 by now apply in_sort. discriminate.
  - split; [intros t r Ht Et; rewrite C in Et by (now apply in_sort); discriminate|]. split; [|auto].
    intros (t & Ht & Nt). exfalso. apply Nt, C. now apply in_sort.
Qed.
Print Assumptions composed_domain.

(** ** The domains of tiles have axes with a range from below to above, whatever the cells are. *)
Lemma norm_proper x y : (fst (norm x y) < snd (norm x y))%Qc.
Proof.
  unfold norm. destruct (qeqb x y) eqn:E; cbn [fst snd].
  - apply qeqb_eq in E. subst y. unfold Qclt. rewrite this_minus. change (this (Q2Qc (1 # 1000000))) with (1 # 1000000)%Q. lra.
  - assert (x <> y) by (intros ->; rewrite (proj2 (qeqb_eq y y) eq_refl) in E; discriminate).
    destruct (qltb y x) eqn:Q; cbn [fst snd]; [now apply qltb_true|].
    assert (L : (x <= y)%Qc) by (apply Qcnot_lt_le; intros H'; apply qltb_true in H'; congruence). apply Qcle_lt_or_eq in L as [L|L]; [exact L|contradiction].
Qed.
Lemma define_proper d a x y : proper d -> proper (defineAxis d a x y).
Proof.
  intros P b r E. unfold defineAxis in E. fold (norm x y) in E. destruct (Nat.eq_dec a b) as [<-|N].
  - destruct (le_lt_dec (length d) a) as [L|L].
    + rewrite nth_overflow in E; [discriminate|]. now rewrite length_set.
    + rewrite nth_set_same in E by exact L. assert (X : r = norm x y) by congruence. rewrite X. apply norm_proper.
  - rewrite nth_set_other in E by exact N. now apply (P b).
Qed.
Theorem tile_domains_proper d c tiling : proper d -> Forall proper (GetTiledDomains d c tiling).
Proof.
  intros P. unfold GetTiledDomains. assert (X : Forall proper [d]) by auto. revert X. generalize [d] as ds. generalize (seq 0 MaxAxis) as axes.
  induction axes as [|a axes IH]; intros ds X; [exact X|]. cbn [fold_left]. apply IH. unfold split_axis.
  destruct (Nat.eqb (nth a tiling 0) 0); [exact X|]. destruct (Nat.eqb (ncells c a) 0); [exact X|].
  apply Forall_forall. intros e He. apply in_flat_map in He as (d' & Hd & He). apply in_map_iff in He as (i & <- & _).
  rewrite Forall_forall in X. now apply define_proper, X.
Qed.
Print Assumptions tile_domains_proper.

(** ** Tiles whose ranges differ by more than 1e-16 start all over from the first tile. *)
Definition far (x y : Qc) : Prop := (x + tiny < y)%Qc \/ (y + tiny < x)%Qc.
Lemma far_apart x y : far x y -> close x y = false.
Proof.
  intros [H|H]; unfold close; [|now rewrite apart_more].
  unfold apart. pose proof tiny_pos. rewrite (proj2 (qltb_true x y)) by qlra. rewrite (proj2 (qltb_true _ _)); [reflexivity|]. fold tiny. qlra.
Qed.
Theorem tiled_restart p c0 tiling0 c tiling default : grid_ok c -> tiled_over p c0 tiling0 -> 1 < tiles (nc_of c) tiling ->
  (exists k d t a, nth_error (GetTiledDomains (k_dom c) c tiling) k = Some d /\ nth_error (p_tiles p) k = Some t /\ a < MaxAxis /\
     (far (lower d a) (lower (t_dom t) a) \/ far (upper d a) (upper (t_dom t) a))) ->
  forall t0, nth_error (p_tiles p) 0 = Some t0 -> (forall a, k_center c a = [] -> nth a (f_shape (t_funk t0)) 0 <= 1) ->
  exists q, initTiledFunklet (Tiled p) (k_dom c) c tiling default = Ok (Tiled q) /\ tiled_over q c tiling /\
    Forall (fun t => f_coeff (t_funk t) = f_coeff (t_funk t0)) (p_tiles q).
Proof.
  intros G O T (k & d & t & a & Ek & Et & La & Df) t0 E0 Sh. destruct (tile_domains c tiling G) as [Ln _].
  set (ds := GetTiledDomains (k_dom c) c tiling) in *. unfold initTiledFunklet. fold ds. rewrite (proj2 (Nat.leb_gt _ 1)) by lia.
  unfold checkTiledFunklet. destruct (p_tiles p) as [|t0' l] eqn:Ep; [discriminate|]. cbn [nth_error] in E0. injection E0 as ->.
  assert (Fb : forallb (fun '(d, t) => same_range d (t_dom t) && Nat.eqb (ncoeff (t_funk t)) (ncoeff (t_funk t0))) (combine ds (t0 :: l)) = false).
  { assert (Hin : In (d, t) (combine ds (t0 :: l))).
    { revert Ek Et. generalize ds, (t0 :: l). clear. intros x. revert k. induction x as [|y x IH]; intros [|k] [|u w] A B; try discriminate; cbn in *; [left; congruence|right; eapply IH; eauto]. }
    destruct (forallb _ (combine ds (t0 :: l))) eqn:Q; [|reflexivity]. rewrite forallb_forall in Q. specialize (Q _ Hin). cbn beta iota in Q.
    apply andb_true_iff in Q as [Q _]. unfold same_range in Q. rewrite forallb_forall in Q. specialize (Q a). rewrite in_seq in Q. specialize (Q ltac:(lia)).
    apply andb_true_iff in Q as [Q1 Q2]. destruct Df as [Df|Df]; apply far_apart in Df; congruence. }
  rewrite Fb, andb_false_r. cbn [bind].
  destruct (init_new (t_funk t0) c tiling default G T Sh) as (q & E & Oq & F & _). fold ds in E. rewrite E. cbn [bind]. exists q. split; [reflexivity|]. split; [exact Oq|].
  apply Forall_forall. intros u Hu. rewrite Forall_forall in F. rewrite (F u Hu). reflexivity.
Qed.
Print Assumptions tiled_restart.

(** ** Examples *)
(** 6 cells, then 5, in tiles of 2: the last tile ends earlier; the tiles start all over from the first *)
Example ex_restart : again (even_grid [5; 2]) [2] = Ok (3, [[11]; [11]; [11]]%Q).
Proof. vm_compute. reflexivity. Qed.
(** the domain of two funklets that overlap on one axis, and are apart on the other *)
Definition box2 (x y u v : Z) : tile := {| t_dom := Some (z x, z y) :: Some (z u, z v) :: repeat None 6; t_funk := ten |}.
Example ex_envelope : match compose [box2 0 4 5 6; box2 1 9 2 3] (z 0) with
  | Ok p => map (fun a => (this (d_start (domain (p_base p)) a), this (d_stop (domain (p_base p)) a))) [0; 1; 2] = [(0, 9); (2, 6); (0, 0)]%Q
  | _ => False end /\ proper (t_dom (box2 0 4 5 6)).
Proof. split; [vm_compute; reflexivity|]. intros [|[|a]] r E; [injection E as <-; reflexivity|injection E as <-; reflexivity|]. cbn [box2 t_dom nth] in E. rewrite nth_repeat in E. discriminate. Qed.
(** a cell without extent: its tile gets a domain a millionth wide *)
Example ex_thin : map (fun d => (this (lower d 0), this (upper d 0)))
  (GetTiledDomains undefined {| k_rank := 1; k_center := fun a => match a with 0 => [z 1; z 2] | _ => [] end; k_size := fun _ => [z 0; z 2]; k_dom := undefined |} [1]) =
  [(999999 # 1000000, 1); (1, 3)]%Q.
Proof. vm_compute. reflexivity. Qed.
