(** Theorems about spigots and sinks. *)
From Verif Require Import Base Hiid_Model Hiid_Proofs Rqid_Model Rqid_Proofs.
From Verif Require Import Vis_Model Vis_Spec Vis_Proofs Vis_Sink.
Local Open Scope Z_scope.

(** The column is delivered as values over correlation, frequency and time: it is a cube,
    and not the UVW column *)
Definition is_cube {F D} (p : spigot D) (T : tile F D) (np nf : nat) : Prop :=
  c_shape (t_cols T (p_col p)) = [np; nf] /\
  (p_uvw p = true -> forall a, c_data (t_cols T (p_col p)) <> CDouble a).

(* ---------------------------------------------------------------- *)
(** ** What a spigot delivers *)

(** The queued result has, for every entry of the correlation index, a VellSet with
    exactly the visibilities of that correlation at the rows of the range; a negative
    entry gives a VellSet without value. *)
Theorem spigot_values : forall F D (N : num F D) p cur rqid cells (T : tile F D) r np nf p',
  is_cube p T np nf -> deliverTile N p cur rqid cells T r = Ok p' ->
  exists res,
    p' = with_queue p (p_queue p ++ [(rqid, res)]) /\ r_cells res = Some cells /\
    length (r_sets res) = p_ndims p /\
    forall i ic, nth_error (p_corr p) i = Some ic ->
    exists s, nth_error (r_sets res) i = Some s /\ s_fail s = false /\
      (ic < 0 -> s_value s = None) /\
      (0 <= ic -> ic < Z.of_nat np /\
       exists v, s_value s = Some v /\ v_shape v = [rcount r (t_nrow T); nf] /\
       forall row f, in_range r (t_nrow T) row -> (f < nf)%nat ->
         Some (value v (row - rfirst r) f)
         = sample N (c_data (t_cols T (p_col p))) (Z.to_nat ic) f row).
Proof.
  intros F D N p cur rqid cells T r np nf p' [S0 U] H.
  destruct (deliver_cube N p cur rqid cells T r np nf p' S0 U H) as (_ & l & C & L & E).
  pose proof (cube_sets N T p _ np nf _ _ l C L) as (LN & _ & K). cbn zeta in *.
  eexists. split; [exact E|]. split; [reflexivity|]. split; [exact LN|].
  intros i ic I. destruct (K _ _ I) as [[Z0 E0]|[Z0 (vals & P & E0)]].
  - exists emptySet. split; [exact E0|]. split; [reflexivity|]. split; [reflexivity|lia].
  - eexists. split; [exact E0|]. split; [reflexivity|]. split; [lia|]. intros _. split; [lia|].
    eexists. split; [reflexivity|]. split; [reflexivity|]. intros row f R F0.
    apply in_range_iff in R.
    rewrite (plane_value N _ _ _ _ (rcount r (t_nrow T)) nf _ (row - rfirst r) f P ltac:(lia) F0).
    f_equal. lia.
Qed.

(** A delivery succeeds unless it comes for the request being processed, an entry of the
    correlation index is beyond the tile, or the column has a type that cannot be read. *)
Theorem spigot_accepts : forall F D (N : num F D) p cur rqid cells (T : tile F D) r np nf,
  is_cube p T np nf -> (length (p_corr p) <= p_ndims p)%nat ->
  ((exists p', deliverTile N p cur rqid cells T r = Ok p') <->
   cur <> rqid /\ Forall (fun ic => ic < Z.of_nat np) (p_corr p) /\
   (c_data (t_cols T (p_col p)) = COther -> Forall (fun ic => ic < 0) (p_corr p))).
Proof.
  intros F D N p cur rqid cells T r np nf [S0 U] L. split.
  - intros (p' & H).
    destruct (deliver_cube N p cur rqid cells T r np nf p' S0 U H) as (NE & l & C & _ & _).
    split; [exact NE|]. split.
    + apply Forall_forall. intros ic I. destruct (Z.lt_ge_cases ic (Z.of_nat np)); [assumption|].
      rewrite (cubeSets_bad N _ np nf _ _ _ ic I) in C by assumption. discriminate.
    + intros O. rewrite O in C. apply Forall_forall. intros ic I.
      destruct (Z.lt_ge_cases ic 0); [assumption|].
      rewrite (cubeSets_other N np nf _ _ _ ic I) in C by assumption. discriminate.
  - intros (NE & A & O).
    assert (X : exists l, cubeSets N (c_data (t_cols T (p_col p))) np nf (rcount r (t_nrow T))
                 (rfirst r) (p_corr p) = Ok l).
    { destruct (c_data (t_cols T (p_col p))) as [a|a|a|] eqn:CD;
        try (apply cubeSets_ok; [congruence|exact A]).
      specialize (O eq_refl). clear -O. induction (p_corr p) as [|x l IH]; cbn [cubeSets]; [eauto|].
      apply Forall_cons_iff in O as [O1 O2]. destruct (IH O2) as [l' ->].
      destruct (Z.ltb_spec x 0); [eauto|lia]. }
    destruct X as [l X]. pose proof (cubeSets_nth N _ _ _ _ _ _ _ X) as [LL _].
    unfold deliverTile. destruct (hiid_eqb cur rqid) eqn:E.
    { apply hiid_eqb_iff in E. congruence. }
    rewrite S0. destruct (c_data (t_cols T (p_col p))) as [a|a|a|] eqn:CD;
      [destruct (p_uvw p); [exfalso; eapply U; reflexivity|]| | |]; rewrite X;
      (destruct (Nat.leb_spec (length l) (p_ndims p)); [eauto|lia]).
Qed.

(** With a flag mask, a visibility is flagged if and only if it is bad. *)
Theorem spigot_flags_partial : forall F D (N : num F D) p cur rqid cells (T : tile F D) r np nf p' res i ic s v,
  is_cube p T np nf -> p_flag_mask p <> 0 -> deliverTile N p cur rqid cells T r = Ok p' ->
  p_queue p' = p_queue p ++ [(rqid, res)] ->
  nth_error (p_corr p) i = Some ic -> 0 <= ic ->
  nth_error (r_sets res) i = Some s -> s_value s = Some v ->
  forall row f, in_range r (t_nrow T) row -> (f < nf)%nat ->
    (flag v (row - rfirst r) f <> 0 <-> bad p T (Z.to_nat ic) f row) /\
    flag v (row - rfirst r) f =
      with_bit (p_flag_bit p)
        (Z.lor (Z.land (t_flags T (Z.to_nat ic) f row) (p_flag_mask p))
           (Z.lor (Z.land (t_rowflag T row) (p_row_mask p))
              (if t_rowflag T row =? -1 then 1 else 0))).
Proof.
  intros F D N p cur rqid cells T r np nf p' res i ic s v [S0 U] FM H Q I IC ES EV row f R F0.
  destruct (deliver_cube N p cur rqid cells T r np nf p' S0 U H) as (_ & l & C & L & E).
  pose proof (cube_sets N T p _ np nf _ _ l C L) as (_ & _ & K). cbn zeta in *.
  subst p'. cbn [with_queue p_queue] in Q. apply app_inv_head in Q. injection Q as <-.
  cbn [r_sets] in ES.
  destruct (K _ _ I) as [[Z0 E0]|[Z0 (vals & P & E0)]]; [lia|].
  rewrite E0 in ES. injection ES as <-. cbn [s_value] in EV. injection EV as <-.
  apply in_range_iff in R. set (t := (row - rfirst r)%nat). set (n := rcount r (t_nrow T)) in *.
  assert (T0 : (t < n)%nat) by (unfold t; lia).
  assert (RT : (rfirst r + t)%nat = row) by (unfold t; lia).
  set (g := corrFlags T p (Z.to_nat ic) nf n (rfirst r)) in *.
  assert (GS : g_shape g = [n; nf]).
  { unfold g, corrFlags. destruct (Z.eqb_spec (p_flag_mask p) 0); [congruence|reflexivity]. }
  set (x := Z.lor (Z.land (t_flags T (Z.to_nat ic) f row) (p_flag_mask p))
           (Z.lor (Z.land (t_rowflag T row) (p_row_mask p))
              (if t_rowflag T row =? -1 then 1 else 0))).
  assert (GA : g_at g t f = x).
  { unfold g, corrFlags, x. destruct (Z.eqb_spec (p_flag_mask p) 0); [congruence|].
    cbn [negb g_at]. rewrite RT. reflexivity. }
  assert (FE : flag (mkVells [n; nf] vals (if anyFlag n (nth 1 (g_shape g) 1%nat) (g_at g)
      then Some (mkFvells (g_shape g) (override (p_flag_bit p) (g_at g))) else None)) t f
      = with_bit (p_flag_bit p) x).
  { rewrite GS. cbn [nth]. destruct (anyFlag n nf (g_at g)) eqn:AF.
    - unfold flag. cbn [v_flags g_shape g_at].
      replace (along [n; nf] 0 t) with t by (unfold along; cbn; destruct (Nat.eqb_spec n 1); lia).
      replace (along [n; nf] 1 f) with f by (unfold along; cbn; destruct (Nat.eqb_spec nf 1); lia).
      rewrite override_with_bit, GA. reflexivity.
    - cbn [flag v_flags]. pose proof (anyFlag_false _ _ _ AF t f T0 F0) as Z1.
      rewrite GA in Z1. rewrite Z1. unfold with_bit. destruct (_ =? 0); reflexivity. }
  split; [|exact FE]. rewrite FE.
  assert (XZ : with_bit (p_flag_bit p) x <> 0 <-> x <> 0).
  { unfold with_bit. destruct (Z.eqb_spec (p_flag_bit p) 0); [tauto|].
    destruct (Z.eqb_spec x 0); [tauto|]. tauto. }
  rewrite XZ. unfold x, bad. rewrite !lor_nonzero.
  destruct (Z.eqb_spec (t_rowflag T row) (-1)) as [->|NM].
  - split; intros; [|right; right; discriminate]. right; right; reflexivity.
  - split; intros [A|[A|A]]; auto; congruence.
Qed.

(** Without a flag mask ("apply row flags only") just the first row of the range is ever
    flagged. *)
Theorem spigot_rowflags_partial : forall F D (N : num F D) p cur rqid cells (T : tile F D) r np nf p' res i ic s v,
  is_cube p T np nf -> p_flag_mask p = 0 -> deliverTile N p cur rqid cells T r = Ok p' ->
  p_queue p' = p_queue p ++ [(rqid, res)] ->
  nth_error (p_corr p) i = Some ic -> 0 <= ic ->
  nth_error (r_sets res) i = Some s -> s_value s = Some v ->
  forall row f, in_range r (t_nrow T) row -> (f < nf)%nat ->
    (flag v (row - rfirst r) f <> 0 <-> row = rfirst r /\ bad_row p T row).
Proof.
  intros F D N p cur rqid cells T r np nf p' res i ic s v [S0 U] FM H Q I IC ES EV row f R F0.
  destruct (deliver_cube N p cur rqid cells T r np nf p' S0 U H) as (_ & l & C & L & E).
  pose proof (cube_sets N T p _ np nf _ _ l C L) as (_ & _ & K). cbn zeta in *.
  subst p'. cbn [with_queue p_queue] in Q. apply app_inv_head in Q. injection Q as <-.
  cbn [r_sets] in ES.
  destruct (K _ _ I) as [[Z0 E0]|[Z0 (vals & P & E0)]]; [lia|].
  rewrite E0 in ES. injection ES as <-. cbn [s_value] in EV. injection EV as <-.
  apply in_range_iff in R. set (t := (row - rfirst r)%nat). set (n := rcount r (t_nrow T)) in *.
  assert (T0 : (t < n)%nat) by (unfold t; lia).
  set (g := corrFlags T p (Z.to_nat ic) nf n (rfirst r)) in *.
  set (rowf := fun j => Z.lor (Z.land (t_rowflag T (rfirst r + j)%nat) (p_row_mask p))
                     (bool_int (t_rowflag T (rfirst r + j)%nat =? FlagMissing))).
  assert (GG : g = mkFvells [n; 1%nat] (fun t f => if (t =? 0)%nat then Z.lor 0 (rowf f) else 0)).
  { unfold g, corrFlags. rewrite FM. reflexivity. }
  assert (BR : rowf 0%nat <> 0 <-> bad_row p T (rfirst r)).
  { unfold rowf, bad_row. rewrite Nat.add_0_r, lor_nonzero. unfold FlagMissing, bool_int.
    destruct (Z.eqb_spec (t_rowflag T (rfirst r)) (-1)); intuition congruence. }
  assert (TT : t = 0%nat <-> row = rfirst r) by (unfold t; lia).
  rewrite GG. cbn [g_shape g_at nth].
  destruct (anyFlag n 1 _) eqn:AF.
  - unfold flag. cbn [v_flags g_shape g_at].
    assert (A1 : along [n; 1%nat] 0 t = t) by (unfold along; cbn; destruct (Nat.eqb_spec n 1); lia).
    assert (A2 : along [n; 1%nat] 1 f = 0%nat) by reflexivity.
    rewrite A1, A2, override_zero. destruct (Nat.eqb_spec t 0) as [E1|E1].
    + rewrite Z.lor_0_l, BR. rewrite (proj1 TT E1). tauto.
    + split; [tauto|]. intros [E2 _]. exfalso. apply E1, TT, E2.
  - cbn [flag v_flags]. split; [tauto|]. intros [E2 B]. rewrite E2 in B. apply BR in B.
    pose proof (anyFlag_false _ _ _ AF 0%nat 0%nat ltac:(lia) ltac:(lia)) as Z1.
    cbn in Z1. rewrite ?Z.lor_0_l in Z1. contradiction.
Qed.

(* ---------------------------------------------------------------- *)
(** ** Examples of tiles *)

(** Numbers for the examples: single and double precision are both integers *)
Definition znum : num Z Z := mkNum _ _ (fun x => x) (fun x => x) 0 0 (Z.eqb 0).

(** A tile with two correlations, one frequency and three rows; the visibility at
    correlation [c] and row [r] is 10 c + r + i *)
Definition ex_tile (fl : nat -> nat -> nat -> Z) (rf : nat -> Z) : tile Z Z :=
  mkTile 3 2
    (fun i => match i with
              | 0%nat => mkColumn [2; 1]%nat (CComplex (fun c f r => (Z.of_nat (10 * c + r), 1)))
              | 1%nat => mkColumn [1]%nat (CDouble (fun c f r => Z.of_nat r))
              | _ => mkColumn [3]%nat (CDouble (fun _ i r => Z.of_nat (100 * i + r)))
              end)
    (fun i r => Z.of_nat (1000 * i + r)) fl rf.
Definition ex_spigot (mask rowmask bit : Z) : spigot Z :=
  mkSpigot false 0 mask rowmask bit 4 [0; -1; -1; 1] false [].
Definition ex_flags (c f r : nat) : Z := if Nat.eqb r 1 then 6 else 0.
Definition ex_rowflag (r : nat) : Z := if Nat.eqb r 2 then -1 else 0.

(** The VellSets of the last result in the queue, at the given rows and one frequency *)
Definition show (n : nat) (v : vells Z) : list (number Z * Z) :=
  map (fun t => (value v t 0, flag v t 0)) (seq 0 n).
Definition shown (n : nat) (x : res (spigot Z)) : list (list (number Z * Z)) :=
  match x with
  | Fail => []
  | Ok p => match rev (p_queue p) with
            | (_, r) :: _ => map (fun s => match s_value s with Some v => show n v | None => [] end)
                               (r_sets r)
            | [] => []
            end
  end.

Example spigot_values_ex :
  shown 3 (deliverTile znum (ex_spigot 2 0 0) [] [1] 0 (ex_tile ex_flags ex_rowflag) None) =
    [[(Cx 0 1, 0); (Cx 1 1, 2); (Cx 2 1, 1)]; []; []; [(Cx 10 1, 0); (Cx 11 1, 2); (Cx 12 1, 1)]] /\
  shown 2 (deliverTile znum (ex_spigot (-1) (-1) 8) [] [1] 0 (ex_tile ex_flags ex_rowflag) (Some (1, 2)%nat)) =
    [[(Cx 1 1, 8); (Cx 2 1, 8)]; []; []; [(Cx 11 1, 8); (Cx 12 1, 8)]] /\
  deliverTile znum (ex_spigot 2 0 0) [1] [1] 0 (ex_tile ex_flags ex_rowflag) None = Fail.
Proof. split; [|split]; vm_compute; reflexivity. Qed.

(** "apply row flags only (according to mask, and unconditionally for missing data)"
    (Spigot.cc:391): missing rows other than the first are not flagged. *)
Theorem spigot_rowflags_refuted : ~ (forall F D (N : num F D) p cur rqid cells (T : tile F D) r np nf p' res i ic s v,
  is_cube p T np nf -> deliverTile N p cur rqid cells T r = Ok p' ->
  p_queue p' = p_queue p ++ [(rqid, res)] ->
  nth_error (p_corr p) i = Some ic -> 0 <= ic ->
  nth_error (r_sets res) i = Some s -> s_value s = Some v ->
  forall row f, in_range r (t_nrow T) row -> (f < nf)%nat ->
    (flag v (row - rfirst r) f <> 0 <-> bad p T (Z.to_nat ic) f row)).
Proof.
  intros H.
  set (T := ex_tile ex_flags ex_rowflag). set (p := ex_spigot 0 (-1) 1).
  assert (C : is_cube p T 2 1) by (split; [reflexivity|discriminate]).
  destruct (proj2 (spigot_accepts Z Z znum p [] [1] 0%nat T None 2 1 C ltac:(cbn; lia))) as [p' E].
  { split; [discriminate|]. split; [repeat constructor; cbn; lia|discriminate]. }
  destruct (spigot_values _ _ znum p [] [1] 0%nat T None 2%nat 1%nat p' C E) as (res & Q & _ & _ & K).
  destruct (K 0%nat 0 eq_refl) as (s & ES & _ & _ & V). destruct (V ltac:(lia)) as (_ & v & EV & _).
  assert (PQ : p_queue p' = p_queue p ++ [([1], res)]) by (rewrite Q; reflexivity).
  pose proof (H Z Z znum p [] [1] 0%nat T None 2%nat 1%nat p' res 0%nat 0 s v C E PQ eq_refl ltac:(lia) ES EV
                2%nat 0%nat ltac:(cbn; lia) ltac:(lia)) as [_ X].
  pose proof (spigot_rowflags_partial Z Z znum p [] [1] 0%nat T None 2%nat 1%nat p' res 0%nat 0 s v C eq_refl E PQ eq_refl
                ltac:(lia) ES EV 2%nat 0%nat ltac:(cbn; lia) ltac:(lia)) as [Y _].
  destruct (Y (X (or_intror (or_intror eq_refl)))) as [Z1 _]. discriminate.
Qed.

(* ---------------------------------------------------------------- *)
(** ** The UVW column *)

Theorem spigot_uvw : forall F D (N : num F D) p cur rqid cells (T : tile F D) r a p',
  p_uvw p = true -> c_data (t_cols T (p_col p)) = CDouble a ->
  p_ndims p = (if p_derivs p then 6 else 3)%nat ->
  deliverTile N p cur rqid cells T r = Ok p' ->
  exists res,
    p' = with_queue p (p_queue p ++ [(rqid, res)]) /\ length (r_sets res) = p_ndims p /\
    forall i s, nth_error (r_sets res) i = Some s ->
    exists v, s_value s = Some v /\
      forall row f, in_range r (t_nrow T) row ->
        value v (row - rfirst r) f = Re (if (i <? 3)%nat then a 0%nat i row else t_duvw T (i - 3) row) /\
        (flag v (row - rfirst r) f <> 0 <-> bad_row p T row).
Proof.
  intros F D N p cur rqid cells T r a p' U CD ND H.
  unfold deliverTile in H. destruct (hiid_eqb cur rqid); [discriminate|].
  rewrite CD, U in H. injection H as <-. eexists. split; [reflexivity|].
  cbn [r_sets]. set (n := rcount r (t_nrow T)). set (r0 := rfirst r).
  set (base := fun i => mkVells [n] (VReal (fun t _ =>
                 if (i <? 3)%nat then a 0%nat i (r0 + t)%nat else t_duvw T (i - 3) (r0 + t)%nat)) None).
  set (g := rowFlags T p r0). set (af := anyFlag n 1 g).
  set (fl := if af then Some (mkFvells [n; 1%nat] (override (p_flag_bit p) g)) else None).
  assert (E : uvwSets T p a n r0 =
    map (fun i => mkVellset false 0 (Some (mkVells [n] (v_vals (base i)) fl))) (seq 0 (p_ndims p))).
  { unfold uvwSets. fold g. fold af. unfold fl. rewrite ND.
    destruct (p_derivs p), af; reflexivity. }
  rewrite E. split; [rewrite map_length, seq_length; reflexivity|].
  intros i s I. rewrite nth_error_map in I.
  destruct (nth_error (seq 0 (p_ndims p)) i) as [j|] eqn:S0; [|discriminate].
  assert (j = i).
  { assert (L : (i < length (seq 0 (p_ndims p)))%nat) by (apply nth_error_Some; congruence).
    apply (nth_error_nth _ _ 0%nat) in S0. rewrite seq_length in L. rewrite seq_nth in S0 by exact L. lia. }
  subst j. cbn in I. injection I as <-. eexists. split; [reflexivity|].
  intros row f R. apply in_range_iff in R. fold r0 n in R. set (t := (row - r0)%nat).
  assert (T0 : (t < n)%nat) by (unfold t; lia). assert (RT : (r0 + t)%nat = row) by (unfold t; lia).
  assert (A1 : forall l, along (n :: l) 0 t = t)
    by (intros l; unfold along; cbn; destruct (Nat.eqb_spec n 1); lia).
  split.
  - unfold value. cbn [v_shape v_vals base]. rewrite A1, RT. reflexivity.
  - assert (G : g t 0%nat <> 0 <-> bad_row p T row).
    { unfold g, rowFlags, bad_row, FlagMissing. rewrite RT.
      destruct (Z.eqb_spec (t_rowflag T row) (-1)); intuition (try congruence; try lia). }
    unfold flag. cbn [v_flags]. unfold fl. destruct af eqn:AF.
    + cbn [g_shape g_at]. rewrite A1.
      replace (along [n; 1%nat] 1 f) with 0%nat by reflexivity. rewrite override_zero. exact G.
    + rewrite <- G. split; [tauto|]. intros X. exfalso. apply X.
      exact (anyFlag_false _ _ _ AF t 0%nat T0 ltac:(lia)).
Qed.

Example spigot_uvw_ex :
  shown 2 (deliverTile znum (mkSpigot true 2 0 4 0 6 [] true []) [] [1] 0
             (ex_tile ex_flags (fun r => if Nat.eqb r 1 then 7 else 0)) (Some (0, 1)%nat)) =
    [[(Re 0, 0); (Re 1, 4)]; [(Re 100, 0); (Re 101, 4)]; [(Re 200, 0); (Re 201, 4)];
     [(Re 0, 0); (Re 1, 4)]; [(Re 1000, 0); (Re 1001, 4)]; [(Re 2000, 0); (Re 2001, 4)]].
Proof. vm_compute. reflexivity. Qed.

(* ---------------------------------------------------------------- *)
(** ** The queue of a spigot *)

(** Whatever has happened, a request is answered by the first of the results delivered
    and not yet dropped that matches it; results before it are dropped.  When none
    matches all are dropped. *)
Theorem spigot_queue : forall D mask (p : spigot D) l id,
  p_queue p = [] ->
  let all := arrived l in
  let q := after mask p l in
  exists k, (k <= length all)%nat /\ p_queue q = skipn k all /\
    ((exists j x r, (k <= j)%nat /\ nth_error all j = Some (x, r) /\
        maskedCompare id x mask = true /\
        (forall i x' r', (k <= i < j)%nat -> nth_error all i = Some (x', r') ->
           maskedCompare id x' mask = false) /\
        snd (spigotResult q mask id) = (0, r) /\
        p_queue (fst (spigotResult q mask id)) = skipn j all)
     \/ ((forall i x r, (k <= i)%nat -> nth_error all i = Some (x, r) ->
            maskedCompare id x mask = false) /\
         fst (snd (spigotResult q mask id)) = RES_MISSING /\
         p_queue (fst (spigotResult q mask id)) = [])).
Proof.
  intros D mask p l id P all q.
  destruct (queue_suffix mask p l [] ) as (k & K & E).
  { exists 0%nat. split; [cbn; lia|]. rewrite P. reflexivity. }
  cbn [app] in K, E. fold all q in K, E. exists k. split; [exact K|]. split; [exact E|].
  destruct (discard_suffix id mask (p_queue q)) as (j & J & Ej & B & M).
  rewrite E, skipn_length in J.
  assert (Q : p_queue (fst (spigotResult q mask id)) = skipn (k + j) all).
  { cbn. rewrite Ej, E, skipn_add. reflexivity. }
  destruct (nth_error all (k + j)) as [[x r]|] eqn:NX.
  - left. exists (k + j)%nat, x, r. split; [lia|]. split; [exact NX|]. split; [|split; [|split]].
    + eapply M. rewrite E, nth_skipn. exact NX.
    + intros i x' r' I H. apply (B (i - k)%nat x' r'); [lia|]. rewrite E, nth_skipn.
      replace (k + (i - k))%nat with i by lia. exact H.
    + cbn. rewrite Ej, E, skipn_add. destruct (skipn (k + j) all) as [|y t] eqn:S1.
      * assert (X : nth_error (skipn (k + j) all) 0 = Some (x, r)) by (rewrite nth_skipn, Nat.add_0_r; exact NX).
        rewrite S1 in X. discriminate.
      * assert (X : nth_error (skipn (k + j) all) 0 = Some (x, r)) by (rewrite nth_skipn, Nat.add_0_r; exact NX).
        rewrite S1 in X. injection X as ->. reflexivity.
    + exact Q.
  - right. apply nth_error_None in NX.
    assert (S1 : skipn (k + j) all = []) by (apply skipn_all2; exact NX).
    split; [|split].
    + intros i x r I H. assert (i < length all)%nat by (apply nth_error_Some; congruence).
      apply (B (i - k)%nat x r); [lia|]. rewrite E, nth_skipn.
      replace (k + (i - k))%nat with i by lia. exact H.
    + cbn. rewrite Ej, E, skipn_add, S1. reflexivity.
    + rewrite Q. exact S1.
Qed.

(** Asking again gives the same answer. *)
Theorem spigot_repeat : forall D mask (p : spigot D) id,
  snd (spigotResult (fst (spigotResult p mask id)) mask id) = snd (spigotResult p mask id).
Proof.
  intros D mask p id.
  assert (X : discard id mask (discard id mask (p_queue p)) = discard id mask (p_queue p)).
  { induction (p_queue p) as [|[x r] q IH]; [reflexivity|]. cbn [discard].
    destruct (maskedCompare id x mask) eqn:E; [|exact IH]. cbn [discard]. rewrite E. reflexivity. }
  unfold spigotResult. cbn [fst snd with_queue p_queue]. rewrite X. reflexivity.
Qed.

(** A result just delivered is the answer to its own request, unless an earlier one that
    matches the request is still there. *)
Theorem spigot_fresh : forall D mask (p : spigot D) id r,
  id <> [] -> (forall x r', In (x, r') (p_queue p) -> maskedCompare id x mask = false) ->
  snd (spigotResult (after mask p [Arrive id r]) mask id) = (0, r).
Proof.
  intros D mask p id r NE A. cbn [after fold_left after_event]. unfold spigotResult.
  cbn [snd with_queue p_queue].
  assert (X : discard id mask (p_queue p ++ [(id, r)]) = [(id, r)]).
  { revert A. induction (p_queue p) as [|[x r'] q IH]; intros A; cbn [app discard].
    - rewrite (proj1 (maskedCompare_equiv mask) id NE). reflexivity.
    - rewrite (A x r') by (left; reflexivity). apply IH. intros y r'' I. apply (A y r''). right. exact I. }
  rewrite X. reflexivity.
Qed.

Definition rA : result Z := mkResult [mkVellset false 0 (Some (mkVells [1%nat] (VReal (fun _ _ => 5)) None))] None.
Definition rB : result Z := mkResult [mkVellset false 0 (Some (mkVells [1%nat] (VReal (fun _ _ => 6)) None))] None.

(** A result that has been delivered is not there for the asking until it has been asked
    for: a request for something else drops it. *)
Theorem spigot_queue_refuted : ~ (forall D mask (p : spigot D) l id r,
  p_queue p = [] -> mask <> 0 -> In (Arrive id r) l -> id <> [] ->
  (forall x r', In (Arrive x r') l -> maskedCompare id x mask = true -> r' = r) ->
  (forall x, In (Ask x) l -> x <> []) ->
  snd (spigotResult (after mask p l) mask id) = (0, r)).
Proof.
  intros H.
  pose proof (H Z (-1) (ex_spigot 0 0 0) [Arrive [1] rA; Arrive [2] rB; Ask [2]] [1] rA eq_refl ltac:(discriminate)
    ltac:(left; reflexivity) ltac:(discriminate)) as X.
  assert (Y : snd (spigotResult (after (-1) (ex_spigot 0 0 0) [Arrive [1] rA; Arrive [2] rB; Ask [2]]) (-1) [1]) = (0, rA)).
  { apply X.
    - intros x r' [I|[I|[I|[]]]] M; [injection I as <- <-; reflexivity|injection I as <- <-; vm_compute in M; discriminate|discriminate].
    - intros x [I|[I|[I|[]]]]; try discriminate. injection I as <-. discriminate. }
  apply (f_equal fst) in Y. vm_compute in Y. discriminate.
Qed.

Example spigot_queue_ex :
  let p := ex_spigot 0 0 0 in
  let l := [Arrive [1] rA; Arrive [2] rB; Ask [1]; Ask [1]] in
  snd (spigotResult (after (-1) p l) (-1) [2]) = (0, rB) /\
  length (p_queue (after (-1) p l)) = 2%nat /\
  (* a request that matches nothing empties the queue *)
  p_queue (after (-1) p (l ++ [Ask [7]])) = [] /\
  fst (snd (spigotResult (after (-1) p (l ++ [Ask [7]])) (-1) [2])) = RES_MISSING.
Proof. split; [|split; [|split]]; vm_compute; reflexivity. Qed.

Print Assumptions spigot_values.
Print Assumptions spigot_accepts.
Print Assumptions spigot_flags_partial.
Print Assumptions spigot_rowflags_partial.
Print Assumptions spigot_rowflags_refuted.
Print Assumptions spigot_uvw.
Print Assumptions spigot_queue.
Print Assumptions spigot_repeat.
Print Assumptions spigot_fresh.
Print Assumptions spigot_queue_refuted.
