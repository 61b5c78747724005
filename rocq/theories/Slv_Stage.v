(** Proofs about Slv_Model: the loop over the spid map, the tiles of the solver, the super-tiles. *)
From Coq Require Import Permutation Sorted.
From Verif Require Import Base Slv_Model Slv_Spec Slv_Proofs Slv_Map.

Record asks (nc : list nat) (rs : list spidrec) : Prop := {
  as_fits : forall r, In r rs -> fits nc (r_tiles r);
  as_chain : forall r r', In r rs -> In r' rs -> finer nc (r_tiles r) (r_tiles r') \/ finer nc (r_tiles r') (r_tiles r);
  as_spids : NoDup (map r_spid rs) }.

Lemma NoDup_snoc {A} (l : list A) x : NoDup l -> ~ In x l -> NoDup (l ++ [x]).
Proof.
  intros N H. apply NoDup_rev in N. rewrite <- (rev_involutive (l ++ [x])). apply NoDup_rev. rewrite rev_app_distr. cbn.
  constructor; auto. now rewrite <- in_rev.
Qed.
Definition spid_lt (a b : spinfo) : Prop := (i_spid a < i_spid b)%Z.
Lemma put_perm s l : (forall x, In x l -> i_spid x <> i_spid s) -> Permutation (put_spid s l) (s :: l).
Proof.
  induction l as [|x l IH]; intros H; cbn; [reflexivity|].
  destruct (Z.ltb_spec (i_spid s) (i_spid x)); [reflexivity|].
  destruct (Z.eqb_spec (i_spid s) (i_spid x)) as [E|E]. { elim (H x); [now left|auto]. }
  rewrite IH by (intros y Y; apply H; now right). apply perm_swap.
Qed.
Lemma put_sorted s l : StronglySorted spid_lt l -> (forall x, In x l -> i_spid x <> i_spid s) -> StronglySorted spid_lt (put_spid s l).
Proof.
  intros S H. induction S as [|x l S IH F]; cbn. { repeat constructor. }
  destruct (Z.ltb_spec (i_spid s) (i_spid x)).
  - constructor; [now constructor|]. constructor; [assumption|]. eapply Forall_impl; [|exact F]. unfold spid_lt. intros; lia.
  - destruct (Z.eqb_spec (i_spid s) (i_spid x)) as [E|E]. { elim (H x); [now left|auto]. }
    constructor. { apply IH. intros y Y. apply H. now right. }
    apply (Permutation_Forall (Permutation_sym (put_perm s l (fun y Y => H y (or_intror Y))))).
    constructor; [|exact F]. unfold spid_lt. lia.
Qed.

Definition matches (nc : list nat) (ks : list (list nat)) (gs : list Z) (r : spidrec) (s : spinfo) : Prop :=
  i_spid s = r_spid r /\ i_node s = r_node r /\ nth_error gs (i_group s) = Some (r_group r) /\
  nth_error ks (i_tiling s) = Some (key nc (r_tiles r)) /\ i_nuk s = tiles nc (r_tiles r).
Lemma nth_error_app_l {A} (l x : list A) i a : nth_error l i = Some a -> nth_error (l ++ x) i = Some a.
Proof. intros H. rewrite nth_error_app1; auto. apply nth_error_Some. congruence. Qed.
Lemma matches_grow nc ks gs x y r s : matches nc ks gs r s -> matches nc (ks ++ x) (gs ++ y) r s.
Proof. intros (A & B & C & D & E). repeat split; auto using nth_error_app_l. Qed.

Definition total (nc : list nat) (rs : list spidrec) : nat := list_sum (map (fun r => tiles nc (r_tiles r)) rs).
Record inv1 (nc : list nat) (rs : list spidrec) (p : stage1) (ks : list (list nat)) (ss : list spinfo) : Prop := {
  v_til : p_tilings p = tab nc ks;
  v_once : NoDup ks;
  v_keys : forall k, In k ks -> exists r, In r rs /\ k = key nc (r_tiles r);
  v_recs : forall r, In r rs -> In (key nc (r_tiles r)) ks;
  v_groups : NoDup (p_groups p);
  v_perm : Permutation (p_spids p) ss;
  v_match : Forall2 (matches nc ks (p_groups p)) rs ss;
  v_sort : StronglySorted spid_lt (p_spids p);
  v_tsz : length (p_tsz p) = length nc;
  v_tsz0 : forall i, nth i nc 0 = 0 -> nth i (p_tsz p) 0 = 0;
  v_tszk : rs <> [] -> forall i, nth i nc 0 <> 0 -> exists k, In k ks /\ nth i k 0 = nth i (p_tsz p) 0;
  v_tsze : rs = [] -> forall i, nth i (p_tsz p) 0 = 0;
  v_nuk : p_nuk p = total nc rs }.

Lemma max_tiles_length nc p st : length st = length nc -> length (max_tiles nc p st) = length nc.
Proof. revert p st. induction nc as [|n nc IH]; intros p [|s st] L; try discriminate; [reflexivity|]. cbn in *. now rewrite IH by lia. Qed.
Lemma max_tiles_nth nc p st i : length st = length nc -> fits nc p -> nth i (max_tiles nc p st) 0 =
  if nth i nc 0 =? 0 then nth i st 0 else if nth i p 0 =? 0 then nth i nc 0 else Nat.max (nth i st 0) (nth i p 0).
Proof.
  revert p st i. induction nc as [|n nc IH]; intros p [|s st] i L F; try discriminate; [destruct i; reflexivity|].
  apply fits_tl in F as [F0 F]. cbn [max_tiles]. destruct i as [|i].
  - cbn [nth]. destruct p; reflexivity.
  - cbn [nth]. rewrite IH by (auto; cbn in L; lia). destruct p as [|x p]; cbn [tl nth]; [destruct i|]; reflexivity.
Qed.
Lemma nc_lt nc i : nth i nc 0 <> 0 -> i < length nc.
Proof. intros H. destruct (Nat.lt_ge_cases i (length nc)); auto. elim H. now apply nth_overflow. Qed.
Lemma key_nth' nc p i : nth i nc 0 <> 0 -> nth i (key nc p) 0 = if nth i p 0 =? 0 then nth i nc 0 else nth i p 0.
Proof.
  intros H. rewrite key_nth. destruct (Nat.eqb_spec (nth i nc 0) 0); [lia|]. unfold len_at, tile_len, extent.
  destruct (Nat.eqb_spec (nth i nc 0) 0); [lia|]. reflexivity.
Qed.
Lemma total_snoc nc rs r : total nc (rs ++ [r]) = total nc rs + tiles nc (r_tiles r).
Proof. unfold total. rewrite map_app, list_sum_app. cbn. lia. Qed.

Lemma add_spid_inv nc rs r p ks ss : asks nc (rs ++ [r]) -> inv1 nc rs p ks ss ->
  exists p' ks' s, add_spid nc r p = Ok p' /\ inv1 nc (rs ++ [r]) p' ks' (ss ++ [s]).
Proof.
  intros A V. assert (R : In r (rs ++ [r])) by (apply in_or_app; right; now left).
  assert (Fr : fits nc (r_tiles r)) by (now apply (as_fits _ _ A)).
  unfold add_spid. destruct (get_group_ok (r_group r) (p_groups p) (v_groups _ _ _ _ _ V)) as (g & gs' & -> & G1 & G2 & gx & G3).
  rewrite norm_tiles_ok by auto. cbn [bind]. rewrite (v_til _ _ _ _ _ V).
  destruct (get_ok nc (key nc (r_tiles r)) ks) as (i & ks' & -> & K1 & K2 & K3).
  { intros k' Hk. destruct (v_keys _ _ _ _ _ V _ Hk) as (r' & R' & ->).
    assert (R'' : In r' (rs ++ [r])) by (apply in_or_app; now left).
    destruct (as_chain _ _ A r r' R R'') as [Q|Q]; [left|right]; apply finer_key; auto; now apply (as_fits _ _ A). }
  fold (tiling_at (tab nc ks') i). rewrite (tab_at nc ks' i _ K1), key_total by auto.
  set (s := {| i_spid := r_spid r; i_node := r_node r; i_group := g; i_tiling := i; i_nuk := tiles nc (r_tiles r) |}).
  eexists _, ks', s. split; [reflexivity|].
  assert (KX : exists x, ks' = ks ++ x) by (destruct K2 as [->| ->]; [exists []; now rewrite app_nil_r|eauto]).
  destruct KX as [kx KX].
  assert (Fresh : forall x, In x (p_spids p) -> i_spid x <> i_spid s).
  { intros x X. apply (Permutation_in _ (v_perm _ _ _ _ _ V)) in X. cbn.
    pose proof (as_spids _ _ A) as N. rewrite map_app in N. cbn in N. apply NoDup_remove_2 in N. rewrite app_nil_r in N.
    assert (Q : map i_spid ss = map r_spid rs).
    { pose proof (v_match _ _ _ _ _ V) as M. clear -M. induction M as [|a b l l' H M IH]; [reflexivity|]. cbn. rewrite IH.
      destruct H as [-> _]. reflexivity. }
    intros E. apply N. rewrite <- E, <- Q. now apply in_map. }
  constructor; cbn.
  - reflexivity.
  - destruct K2 as [->| ->]; [apply (v_once _ _ _ _ _ V)|]. apply NoDup_snoc; [apply (v_once _ _ _ _ _ V)|].
    intros I. specialize (K3 I). apply (f_equal (@length _)) in K3. rewrite app_length in K3. cbn in K3. lia.
  - intros k Hk. assert (Hk' : In k ks \/ k = key nc (r_tiles r)).
    { destruct K2 as [->| ->]; [now left|]. apply in_app_or in Hk as [?|[?|[]]]; auto. }
    destruct Hk' as [Hk'| ->]. { destruct (v_keys _ _ _ _ _ V _ Hk') as (r' & R' & ->). exists r'. split; auto. apply in_or_app; now left. }
    exists r. auto.
  - intros r' R'. apply in_app_or in R' as [R'|[<-|[]]].
    + rewrite KX. apply in_or_app. left. now apply (v_recs _ _ _ _ _ V).
    + eapply nth_error_In, K1.
  - auto.
  - rewrite put_perm by auto. rewrite (v_perm _ _ _ _ _ V). apply Permutation_cons_append.
  - apply Forall2_app.
    + pose proof (v_match _ _ _ _ _ V) as M. rewrite KX, G3. clear -M. induction M; constructor; auto using matches_grow.
    + constructor; [|constructor]. repeat split; auto.
  - apply put_sorted; auto. apply (v_sort _ _ _ _ _ V).
  - apply max_tiles_length, (v_tsz _ _ _ _ _ V).
  - intros j J. rewrite max_tiles_nth by (auto; apply (v_tsz _ _ _ _ _ V)). rewrite J. cbn. now apply (v_tsz0 _ _ _ _ _ V).
  - intros _ j J. rewrite max_tiles_nth by (auto; apply (v_tsz _ _ _ _ _ V)).
    destruct (Nat.eqb_spec (nth j nc 0) 0) as [|NZ]; [contradiction|].
    assert (Own : In (key nc (r_tiles r)) ks') by (eapply nth_error_In, K1).
    destruct (Nat.eqb_spec (nth j (r_tiles r) 0) 0) as [E|E].
    + exists (key nc (r_tiles r)). split; auto. rewrite key_nth' by auto. rewrite E. reflexivity.
    + destruct (Nat.le_gt_cases (nth j (p_tsz p) 0) (nth j (r_tiles r) 0)) as [L|L].
      * exists (key nc (r_tiles r)). split; auto. rewrite key_nth' by auto. destruct (Nat.eqb_spec (nth j (r_tiles r) 0) 0); lia.
      * assert (RN : rs <> []).
        { intros E0. rewrite (v_tsze _ _ _ _ _ V E0) in L. lia. }
        destruct (v_tszk _ _ _ _ _ V RN j J) as (k & Hk & E1). exists k. split; [rewrite KX; apply in_or_app; now left|]. lia.
  - intros E. destruct rs; discriminate.
  - rewrite total_snoc, (v_nuk _ _ _ _ _ V). reflexivity.
Qed.

Lemma asks_app nc a b : asks nc (a ++ b) -> asks nc a.
Proof.
  intros [F C N]. split.
  - intros r R. apply F. apply in_or_app; now left.
  - intros r r' R R'. apply C; apply in_or_app; now left.
  - rewrite map_app in N. revert N. generalize (map r_spid b). induction (map r_spid a) as [|x l IH]; intros y N; [constructor|].
    inversion N as [|? ? X Y]; subst. constructor; [|now apply (IH y)]. intros H. apply X. apply in_or_app; now left.
Qed.
Lemma add_spids_inv nc rest rs p ks ss : asks nc (rs ++ rest) -> inv1 nc rs p ks ss ->
  exists p' ks' ss', add_spids nc rest p = Ok p' /\ inv1 nc (rs ++ rest) p' ks' ss'.
Proof.
  revert rs p ks ss. induction rest as [|r rest IH]; intros rs p ks ss A V.
  - exists p, ks, ss. rewrite app_nil_r. auto.
  - replace (rs ++ r :: rest) with ((rs ++ [r]) ++ rest) in * by (now rewrite <- app_assoc).
    destruct (add_spid_inv nc rs r p ks ss (asks_app _ _ _ A) V) as (p1 & ks1 & s & E & V1).
    cbn. rewrite E. cbn. exact (IH _ _ _ _ A V1).
Qed.
Lemma start_inv nc : inv1 nc [] (start nc) [] [].
Proof.
  assert (Z : forall i, nth i (map (fun _ : nat => 0) nc) 0 = 0) by (intros i; revert i; induction nc; intros [|i]; cbn; auto).
  constructor; cbn; auto; try contradiction; try congruence; try constructor.
  apply map_length.
Qed.

(** ** The tiles of the solver *)
Lemma lcm_go_ok fuel s n ks lcm : 0 < s -> 0 < lcm -> Nat.divide s lcm -> n <= fuel + lcm ->
  (forall x, 0 < x < lcm -> Nat.divide s x -> exists t, In t ks /\ ~ Nat.divide t x) -> Forall (fun t => 0 < t) ks ->
  let m := lcm_go fuel s n ks lcm in
  0 < m /\ (n <= m \/ forall t, In t ks -> Nat.divide t m) /\ forall x, 0 < x < m -> Nat.divide s x -> exists t, In t ks /\ ~ Nat.divide t x.
Proof.
  intros S. revert lcm. induction fuel as [|fuel IH]; intros lcm P D E T K; cbv zeta; cbn [lcm_go].
  - split; [auto|]. split; [left; lia|auto].
  - destruct (Nat.ltb_spec lcm n); [|split; [auto|]; split; [left; lia|auto]].
    destruct (forallb (fun t => lcm mod t =? 0) ks) eqn:B.
    + split; [auto|]. split; [right|auto]. intros t Ht. rewrite forallb_forall in B. specialize (B t Ht). apply Nat.eqb_eq in B.
      apply Nat.mod_divide; auto. rewrite Forall_forall in K. specialize (K t Ht). lia.
    + apply IH; auto; try lia. { apply Nat.divide_add_r; auto. apply Nat.divide_refl. }
      intros x X Dx. destruct (Nat.lt_ge_cases x lcm) as [L|L]; [apply T; auto; lia|].
      assert (x = lcm).
      { destruct D as [a ->]. destruct Dx as [b ->]. assert (b = a) by nia. now subst. }
      subst x. assert (Q : exists t, In t ks /\ (lcm mod t =? 0) = false).
      { clear -B. induction ks as [|t ks IH]; [discriminate|]. cbn in B. destruct (lcm mod t =? 0) eqn:E.
        - destruct (IH B) as (t' & A & C). exists t'. split; [now right|auto].
        - exists t. split; [now left|auto]. }
      destruct Q as (t & Ht & Q). exists t. split; auto. intros Dt. apply Nat.eqb_neq in Q. apply Q. apply Nat.mod_divide; auto.
      rewrite Forall_forall in K. specialize (K t Ht). lia.
Qed.
Lemma lcm_least s n ks : 0 < n -> 0 < s -> In s ks -> Forall (fun t => 0 < t) ks -> least_common n ks (Nat.min (lcm_go n s n ks s) n).
Proof.
  intros N S I K. destruct (lcm_go_ok n s n ks s) as (A & B & C); auto; try lia.
  - apply Nat.divide_refl.
  - intros x X D. apply Nat.divide_pos_le in D; lia.
  - set (m := lcm_go n s n ks s) in *. split; [lia|]. split.
    + destruct (Nat.le_gt_cases n m); [left; lia|]. replace (Nat.min m n) with m by lia. destruct B as [B|B]; [lia|now right].
    + intros x X. assert (Ds : Nat.divide s x \/ ~ Nat.divide s x).
      { destruct (Nat.eq_dec (x mod s) 0) as [Z|Z]; [left|right]; rewrite <- Nat.mod_divide by lia; auto. }
      destruct Ds as [Ds|Ds]; [apply C; auto; lia|eauto].
Qed.
Lemma solver_tiles_nth i j nc st ks : length st = length nc -> nth i (solver_tiles j nc st ks) 0 =
  if nth i nc 0 =? 0 then nth i st 0
  else Nat.min (lcm_go (nth i nc 0) (nth i st 0) (nth i nc 0) (map (fun k => nth (j + i) k 0) ks) (nth i st 0)) (nth i nc 0).
Proof.
  revert i j st. induction nc as [|n nc IH]; intros i j [|s st] L; try discriminate; [destruct i; reflexivity|].
  cbn [solver_tiles]. destruct i as [|i]; cbn [nth].
  - rewrite Nat.add_0_r. reflexivity.
  - rewrite IH by (cbn in L; lia). replace (S j + i) with (j + S i) by lia. reflexivity.
Qed.
Lemma solver_tiles_length j nc st ks : length st = length nc -> length (solver_tiles j nc st ks) = length nc.
Proof.
  revert j st. induction nc as [|n nc IH]; intros j [|s st] L; try discriminate; [reflexivity|]. cbn in *. now rewrite IH by lia.
Qed.

(** The tile sizes of the solver, as a list *)
Definition common (nc : list nat) (rs : list spidrec) (S : list nat) : Prop :=
  length S = length nc /\ forall i, if nth i nc 0 =? 0 then nth i S 0 = 0
    else least_common (nth i nc 0) (map (fun r => len_at nc (r_tiles r) i) rs) (nth i S 0).
Lemma least_common_ext n l l' m : (forall t, In t l <-> In t l') -> least_common n l m -> least_common n l' m.
Proof.
  intros E (A & B & C). split; auto. split. { destruct B; [now left|right]. intros t T. apply H. now apply E. }
  intros x X. destruct (C x X) as (t & T & D). exists t. split; auto. now apply E.
Qed.
Lemma stage2 nc rs p ks ss : asks nc rs -> rs <> [] -> inv1 nc rs p ks ss ->
  common nc rs (solver_tiles 0 nc (p_tsz p) ks).
Proof.
  intros A N V. split; [apply solver_tiles_length, (v_tsz _ _ _ _ _ V)|]. intros i.
  rewrite solver_tiles_nth by apply (v_tsz _ _ _ _ _ V). destruct (Nat.eqb_spec (nth i nc 0) 0) as [E|E].
  - now apply (v_tsz0 _ _ _ _ _ V).
  - destruct (v_tszk _ _ _ _ _ V N i E) as (k & Hk & Ek). cbn [Nat.add].
    assert (EQ : forall t, In t (map (fun k => nth i k 0) ks) <-> In t (map (fun r => len_at nc (r_tiles r) i) rs)).
    { intros t. rewrite !in_map_iff. split.
      - intros (k' & <- & K'). destruct (v_keys _ _ _ _ _ V _ K') as (r & R & ->). exists r. split; auto.
        rewrite key_nth. destruct (Nat.eqb_spec (nth i nc 0) 0); [contradiction|reflexivity].
      - intros (r & <- & R). exists (key nc (r_tiles r)). split; [|now apply (v_recs _ _ _ _ _ V)].
        rewrite key_nth. destruct (Nat.eqb_spec (nth i nc 0) 0); [contradiction|reflexivity]. }
    apply (least_common_ext _ _ _ _ EQ).
    assert (I : In (nth i (p_tsz p) 0) (map (fun k => nth i k 0) ks)) by (rewrite <- Ek; apply (in_map (fun k => nth i k 0)); auto).
    assert (F : Forall (fun t => 0 < t) (map (fun k => nth i k 0) ks)).
    { apply Forall_forall. intros t T. apply EQ in T. apply in_map_iff in T as (r & <- & _). apply tile_len_pos. }
    apply lcm_least; auto; [lia|]. rewrite Forall_forall in F. now apply F.
Qed.
Lemma common_ge nc rs S r : asks nc rs -> common nc rs S -> In r rs -> Forall2 le (key nc (r_tiles r)) S.
Proof.
  intros A [L C] R. apply Forall2_nth_le; [now rewrite key_length|]. intros i. specialize (C i). rewrite key_nth.
  pose proof (as_fits _ _ A r R i) as F.
  destruct (Nat.eqb_spec (nth i nc 0) 0) as [E|E]. { destruct (i <? length nc); lia. }
  destruct C as (A1 & A2 & _). destruct A2 as [->|A2].
  - unfold len_at, tile_len, extent. destruct (Nat.eqb_spec (nth i nc 0) 0); [lia|]. destruct (nth i (r_tiles r) 0 =? 0); lia.
  - apply Nat.divide_pos_le; [lia|]. apply A2. apply in_map_iff. eauto.
Qed.
Lemma common_tidy nc rs S : common nc rs S -> tidy nc S.
Proof. intros [L C]. split; auto. intros i E. specialize (C i). rewrite E in C. exact C. Qed.
