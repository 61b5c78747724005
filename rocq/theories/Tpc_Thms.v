(** Theorems about tiled parameters. *)
From Coq Require Import QArith Qcanon.
From Verif Require Import Base Polc_Model Polc_Spec Polc_Proofs Slv_Spec Slv_Proofs Leq_Proofs Tpc_Model Tpc_Spec Tpc_Proofs Tpc_Tiles Tpc_Order Tpc_Values.
From Verif Require Vel_Spec Polc_Thms.
Import Vel_Spec(position_from, position, at_index). Import Polc_Thms(z, qs, nax, polc).
Close Scope Q_scope. Close Scope Qc_scope. Local Open Scope nat_scope.

(** ** Domains of the tiles *)
Lemma domains_points c tiling : GetTiledDomains (k_dom c) c tiling = map (dom_of c tiling) (points (counts c tiling 0 MaxAxis)).
Proof. apply domains_are. Qed.
(** There is a domain for every tile of the Solver's tiling, in the same order, and the centre of a cell is in the domain of its
    own tile and of no other. *)
Theorem tile_domains c tiling : grid_ok c ->
  length (GetTiledDomains (k_dom c) c tiling) = tiles (nc_of c) tiling /\
  forall idx t d, In idx (cells_of c) -> nth_error (GetTiledDomains (k_dom c) c tiling) t = Some d ->
    (within d (centre c idx) <-> t = tile_of (nc_of c) tiling idx).
Proof.
  intros G. set (K := counts c tiling 0 MaxAxis). rewrite domains_points. fold K. split.
  - rewrite map_length. unfold points. rewrite map_length, seq_length. unfold tiles. rewrite (K_is c tiling). reflexivity.
  - intros idx t d Hi E. assert (L : t < box K). { rewrite <- (seq_length (box K) 0), <- (map_length (point K)), <- (map_length (dom_of c tiling)). fold (points K). apply nth_error_Some. congruence. }
    assert (X : d = dom_of c tiling (point K t)).
    { unfold points in E. rewrite map_map, nth_error_map in E. rewrite (nth_error_nth' _ 0) in E by (rewrite seq_length; exact L). rewrite seq_nth in E by exact L. cbn [option_map Nat.add] in E. congruence. }
    subst d. destruct (point_inbox K t L) as [I R]. pose proof (tile_is c tiling G idx (point K t) Hi I) as TI. fold K in TI. rewrite R in TI. rewrite TI. destruct (idx_ok c tiling idx Hi) as [Li Bi]. split.
    + intros W a La. destruct (Nat.eq_dec (ncells c a) 0) as [Z0|N].
      * pose proof (Bi a) as Ba. rewrite Z0 in Ba. cbn in Ba. pose proof (coord_count c tiling _ a I La) as CC.
        assert (Cf : cutting c tiling a = false) by (unfold cutting; rewrite Z0; apply andb_false_r). rewrite (not_cutting c tiling a Cf) in CC.
        replace (nth a idx 0) with 0 by lia. rewrite Nat.div_0_l by (pose proof (len_pos c tiling a); lia). lia.
      * assert (Ba : nth a idx 0 < ncells c a). { pose proof (Bi a) as Ba. unfold extent in Ba. apply Nat.eqb_neq in N. rewrite N in Ba. exact Ba. }
        destruct (within_axis c tiling G (point K t) a (nth a idx 0) I La N Ba) as (r & Er & _ & Wr). apply Wr. exact (W a r Er).
    + intros W a r Er. assert (La : a < MaxAxis). { destruct (le_lt_dec MaxAxis a); [|assumption]. rewrite nth_overflow in Er; [discriminate|]. unfold dom_of. rewrite cut_length, (g_dom c G). assumption. }
      destruct (Nat.eq_dec (ncells c a) 0) as [Z0|N].
      * exfalso. rewrite (dom_nth c tiling G _ a I La) in Er. assert (Cf : cutting c tiling a = false) by (unfold cutting; rewrite Z0; apply andb_false_r). rewrite Cf in Er.
        rewrite (proj2 (g_axes c G a La)) in Er; [discriminate|]. unfold ncells in Z0. destruct (k_center c a); [reflexivity|discriminate].
      * assert (Ba : nth a idx 0 < ncells c a). { pose proof (Bi a) as Ba. unfold extent in Ba. apply Nat.eqb_neq in N. rewrite N in Ba. exact Ba. }
        destruct (within_axis c tiling G (point K t) a (nth a idx 0) I La N Ba) as (r' & Er' & _ & Wr). rewrite Er in Er'. injection Er' as <-. apply Wr. apply W, La.
Qed.
Print Assumptions tile_domains.

(** ** Values *)
(** The value of a tiled parameter whose funklets are constants is, in every cell, the coefficient of the cell's tile; so are the perturbed
    values with the tile's perturbation. *)
Theorem tiled_constants p c tiling axf mp : grid_ok c -> tiled_over p c tiling -> Forall (fun t => length (f_coeff (t_funk t)) = 1) (p_tiles p) ->
  length (f_spids (p_base p)) <= 1 -> mp <= 2 ->
  exists w, evaluate_composed axf p c mp = Ok w /\
  w_spids w = (if Nat.eqb mp 0 then [] else f_spids (p_base p)) /\
  forall idx, In idx (cells_of c) -> exists t, nth_error (p_tiles p) (tile_of (nc_of c) tiling idx) = Some t /\
    at_index (v_shape (w_main w)) (v_data (w_main w)) (index idx) = Some (hd q0 (f_coeff (t_funk t))) /\
    (f_spids (p_base p) <> [] -> forall ip, ip < mp -> exists v, nth_error (w_pert w) ip = Some [v] /\
       at_index (v_shape v) (v_data v) (index idx) = Some (hd q0 (f_coeff (t_funk t)) + signed ip (f_pert (t_funk t)))%Qc).
Proof.
  intros G O Ac Sp Mp. destruct O as [Od Os Oh]. rewrite domains_points in Od. set (K := counts c tiling 0 MaxAxis) in *.
  set (mp' := match f_spids (p_base p) with [] => 0 | _ => mp end).
  assert (X : mp' = 0 \/ length (f_spids (p_base p)) = 1). { unfold mp'. destruct (f_spids (p_base p)) as [|s [|s' l]]; cbn in *; auto; lia. }
  destruct (all_steps c tiling G (p_has p) Os Oh (p_default p) axf mp' (p_tiles p) Od Ac _ X) as (s & E & (M & _ & Lp & P)).
  exists {| w_spids := if Nat.eqb mp' 0 then [] else f_spids (p_base p); w_perts := map (fun ip => map (signed ip) (f_spid_perts (p_base p))) (seq 0 mp');
            w_main := {| v_shape := res_shape c (p_has p); v_data := s_main s |}; w_pert := map (map (fun d => {| v_shape := res_shape c (p_has p); v_data := d |})) (s_pert s) |}.
  split; [|split].
  - unfold evaluate_composed. fold mp'. assert (mp' <= 2) by (unfold mp'; destruct (f_spids (p_base p)); lia). rewrite (proj2 (Nat.ltb_ge 2 mp')) by assumption.
    unfold do_compose. rewrite E. cbn [bind]. reflexivity.
  - cbn [w_spids]. unfold mp'. destruct (f_spids (p_base p)); [destruct (mp =? 0); reflexivity|reflexivity].
  - intros idx Hi. destruct (tile_exists c tiling G (p_has p) Os Oh mp (p_tiles p) Od idx Hi) as [t Et]. exists t. split; [exact Et|]. split.
    + cbn [w_main v_shape v_data]. rewrite (stage_end c tiling G (p_has p) _ _ _ idx M Hi). unfold main_val. rewrite Et. reflexivity.
    + intros N ip Hip. assert (Em : mp' = mp) by (unfold mp'; destruct (f_spids (p_base p)); [contradiction|reflexivity]).
      destruct (nth_error (s_pert s) ip) as [set|] eqn:Es; [|apply nth_error_None in Es; lia]. destruct (P ip set Es) as (v & -> & St).
      exists {| v_shape := res_shape c (p_has p); v_data := v |}. cbn [w_pert]. rewrite (map_nth_error _ _ _ Es). split; [reflexivity|]. cbn [v_shape v_data].
      rewrite (stage_end c tiling G (p_has p) _ _ _ idx St Hi). unfold pert_val. rewrite Et. reflexivity.
Qed.
Print Assumptions tiled_constants.

(** ** Cutting a funklet into tiles *)
Lemma marked c tiling l : grid_ok c -> map t_dom l = map (dom_of c tiling) (points (counts c tiling 0 MaxAxis)) ->
  (forall a t, In t l -> k_center c a = [] -> nth a (f_shape (t_funk t)) 0 <= 1) ->
  let has := snd (marking l (undefined, repeat false MaxAxis)) in
  (forall a, 1 < nth a (tile_counts (nc_of c) tiling) 0 -> nth a has false = true) /\ (forall a, nth a has false = true -> k_center c a <> []).
Proof.
  intros G E Sh has. set (K := counts c tiling 0 MaxAxis) in *.
  assert (Lh : length has = MaxAxis). { unfold has. assert (W : forall l st, length (snd (marking l st)) = length (snd st)). { induction l0 as [|t l0 IH]; intros [e h]; [reflexivity|]. cbn [marking fold_left]. rewrite IH. cbn [snd]. apply mark_length. } rewrite W. reflexivity. }
  assert (In_dom : forall t, In t l -> exists co, inbox K co /\ t_dom t = dom_of c tiling co).
  { intros t Ht. apply (in_map t_dom) in Ht. rewrite E in Ht. apply in_map_iff in Ht as (co & Eq & Hc). exists co. split; [now apply points_In|auto]. }
  split.
  - intros a Ha. rewrite (K_is c tiling) in Ha. fold K in Ha.
    assert (La : a < MaxAxis). { destruct (le_lt_dec MaxAxis a); [|assumption]. rewrite nth_overflow in Ha; [lia|]. unfold K, counts. rewrite map_length, seq_length. assumption. }
    unfold K in Ha. rewrite (counts_nth c tiling a La) in Ha. assert (Ct : cutting c tiling a = true). { destruct (cutting c tiling a) eqn:X; [reflexivity|]. rewrite (not_cutting c tiling a X) in Ha. lia. }
    assert (Rs : forall t, In t l -> exists r, nth a (t_dom t) None = Some r /\ (fst r < snd r)%Qc).
    { intros t Ht. destruct (In_dom t Ht) as (co & I & ->). rewrite (dom_nth c tiling G co a I La), Ct. eexists. split; [reflexivity|]. apply (range_lt c tiling G); [now apply coord_count|]. exact (cutting_cells c tiling a Ct). }
    (* two tiles that differ along the axis *)
    assert (Two : exists t t', In t l /\ In t' l /\ nth a (t_dom t) None <> nth a (t_dom t') None).
    { set (co i := map (fun b => if b =? a then i else 0) (seq 0 MaxAxis)).
      assert (Ic : forall i, i < count c tiling a -> inbox K (co i)).
      { intros i Hi. unfold K, counts, co. clear -Hi. induction (seq 0 MaxAxis) as [|b s IH]; cbn; constructor; [|exact IH]. destruct (Nat.eqb_spec b a); [subst; exact Hi|apply count_pos]. }
      assert (Nc : forall i, nth a (co i) 0 = i). { intros i. unfold co. set (f := fun b : nat => if b =? a then i else 0). rewrite (nth_indep _ 0 (f 0)) by (rewrite map_length, seq_length; exact La). rewrite map_nth, seq_nth by exact La. unfold f. cbn. rewrite Nat.eqb_refl. reflexivity. }
      assert (Ex : forall i, i < count c tiling a -> exists t, In t l /\ t_dom t = dom_of c tiling (co i)).
      { intros i Hi. assert (X : In (dom_of c tiling (co i)) (map t_dom l)). { rewrite E. apply in_map. apply points_In. now apply Ic. } apply in_map_iff in X as (t & Et & Ht). eauto. }
      destruct (Ex 0 ltac:(lia)) as (t & Ht & Et). destruct (Ex 1 ltac:(lia)) as (t' & Ht' & Et'). exists t, t'. split; [assumption|]. split; [assumption|].
      rewrite Et, Et'. rewrite (dom_nth c tiling G _ a (Ic 0 ltac:(lia)) La), (dom_nth c tiling G _ a (Ic 1 ltac:(lia)) La), Ct, !Nc.
      intros X. apply (f_equal (fun o => match o with Some r => this (fst r) | None => 0%Q end)) in X. cbn [range fst] in X.
      assert (Y : (cellStart c a (first c tiling a 0%nat) + tiny < cellStart c a (first c tiling a 1%nat))%Qc).
      { apply (start_lt c a (g_sizes c G a) (g_size c G a) (g_order c G a)); [unfold first; pose proof (len_pos c tiling a); lia|].
        destruct (cell_range c tiling a 1 ltac:(lia)) as [A B]. pose proof (cutting_cells c tiling a Ct) as N. apply Nat.eqb_neq in N. unfold extent in B. rewrite N in B. lia. }
      pose proof tiny_pos. unfold Qclt in Y. rewrite this_plus, X in Y. clear -Y H. apply Qlt_not_le in Y. apply Y. rewrite <- (Qplus_0_r (this _)) at 1. apply Qplus_le_compat; [apply Qle_refl|apply Qlt_le_weak, H]. }
    destruct l as [|t0 l']; [destruct Two as (t & _ & [] & _)|]. destruct (Rs t0 (or_introl eq_refl)) as (r0 & E0 & R0).
    unfold has. cbn [marking fold_left]. fold (marking l' (expandToEnvelope undefined (t_dom t0), mark_axes undefined t0 (repeat false MaxAxis))).
    destruct (marking_ok a r0 l' (expandToEnvelope undefined (t_dom t0)) (mark_axes undefined t0 (repeat false MaxAxis))) as [A|A]; try assumption.
    + rewrite envelope_length. reflexivity.
    + rewrite mark_length. reflexivity.
    + intros t Ht. apply Rs. right. assumption.
    + right. apply envelope_same; try assumption; [reflexivity|]. left. unfold undefined. apply nth_repeat.
    + exfalso. assert (All : forall t, In t (t0 :: l') -> nth a (t_dom t) None = Some r0) by (intros t [<-|Ht]; auto).
      destruct Two as (t & t' & Ht & Ht' & N). apply N. rewrite (All t Ht), (All t' Ht'). reflexivity.
  - intros a Ha X. assert (La : a < MaxAxis). { rewrite <- Lh. destruct (le_lt_dec (length has) a); [|assumption]. rewrite nth_overflow in Ha by assumption. discriminate. }
    unfold has in Ha. rewrite marking_cells in Ha; [discriminate|assumption|reflexivity| | |].
    + intros t Ht. split; [|now apply Sh]. destruct (In_dom t Ht) as (co & I & ->). rewrite (dom_nth c tiling G co a I La).
      assert (Cf : cutting c tiling a = false) by (unfold cutting, ncells; rewrite X; apply andb_false_r). rewrite Cf. now apply (g_axes c G a La).
    + cbn [fst]. unfold undefined. apply nth_repeat.
    + cbn [snd]. apply nth_repeat.
Qed.
Lemma init_new f c tiling default : grid_ok c -> 1 < tiles (nc_of c) tiling -> (forall a, k_center c a = [] -> nth a (f_shape f) 0 <= 1) ->
  exists p, compose (map (fun d => {| t_dom := d; t_funk := with_dom f (to_dom d) |}) (GetTiledDomains (k_dom c) c tiling)) default = Ok p /\
  tiled_over p c tiling /\ Forall (fun t => t_funk t = with_dom f (to_dom (t_dom t))) (p_tiles p) /\ (exists d, p_base p = with_dom f d) /\ p_default p = default.
Proof.
  intros G T Sh. set (ds := GetTiledDomains (k_dom c) c tiling). set (l := map (fun d => {| t_dom := d; t_funk := with_dom f (to_dom d) |}) ds).
  assert (El : map t_dom l = ds). { unfold l. rewrite map_map. apply map_id. }
  assert (Ed : map t_dom l = map (dom_of c tiling) (points (counts c tiling 0 MaxAxis))). { rewrite El. apply domains_points. }
  destruct (tile_domains c tiling G) as [Ln _]. fold ds in Ln.
  assert (So : sort l = l) by (apply (tiles_sorted c tiling G); exact Ed).
  assert (Sl : forall a t, In t l -> k_center c a = [] -> nth a (f_shape (t_funk t)) 0 <= 1). { intros a t Ht. unfold l in Ht. apply in_map_iff in Ht as (d & <- & _). cbn. apply Sh. }
  destruct (marked c tiling l G Ed Sl) as [M1 M2].
  assert (Fl : Forall (fun t => t_funk t = with_dom f (to_dom (t_dom t))) l). { unfold l. apply Forall_forall. intros t Ht. apply in_map_iff in Ht as (d & <- & _). reflexivity. }
  clearbody l. unfold compose, initFunklets. destruct l as [|t0 l']; [exfalso; rewrite <- El in Ln; cbn [map length] in Ln; rewrite <- Ln in T; lia|].
  rewrite So. fold (marking (t0 :: l') (undefined, repeat false MaxAxis)). destruct (marking (t0 :: l') (undefined, repeat false MaxAxis)) as [env has] eqn:Em. cbn [snd] in M1, M2.
  eexists. split; [reflexivity|]. cbn [p_tiles p_has p_default p_base]. split; [|split; [|split; [|reflexivity]]].
  - constructor; cbn [p_tiles p_has]; [exact El|exact M1|exact M2].
  - exact Fl.
  - apply Forall_cons_iff in Fl as [Fl _]. exists (to_dom env). rewrite Fl. destruct f. reflexivity.
Qed.
(** A Parm cut into more than one tile gets a funklet per tile, all with the coefficients of the funklet it started from. *)
Theorem tiled_init f c tiling default : grid_ok c -> 1 < tiles (nc_of c) tiling -> (forall a, k_center c a = [] -> nth a (f_shape f) 0 <= 1) ->
  exists p, initTiledFunklet (Single f) (k_dom c) c tiling default = Ok (Tiled p) /\ tiled_over p c tiling /\
  length (p_tiles p) = tiles (nc_of c) tiling /\ Forall (fun t => t_funk t = with_dom f (to_dom (t_dom t))) (p_tiles p) /\ (exists d, p_base p = with_dom f d) /\ p_default p = default.
Proof.
  intros G T Sh. destruct (init_new f c tiling default G T Sh) as (p & E & O & F & B & Df). exists p. destruct (tile_domains c tiling G) as [Ln _].
  split; [|split; [exact O|split; [|auto]]].
  - unfold initTiledFunklet. rewrite (proj2 (Nat.leb_gt _ 1)) by lia. cbn [checkTiledFunklet bind]. rewrite E. reflexivity.
  - rewrite <- Ln, <- (o_doms _ _ _ O). rewrite map_length. reflexivity.
Qed.
Print Assumptions tiled_init.

(** ** The next request *)
Lemma close_same x : close x x = true.
Proof. unfold close. rewrite apart_same. reflexivity. Qed.
Lemma range_same d : same_range d d = true.
Proof. unfold same_range. apply forallb_forall. intros a _. rewrite !close_same. reflexivity. Qed.
(** The tiles stay as they are, solutions and all, for cells that give the same domains, if the funklets are alike in size; for another
    number of tiles every tile starts from the coefficients of the first; a single tile or none leaves the old tiles in place. *)
Theorem tiled_reuse p c0 tiling0 c tiling default : grid_ok c -> tiled_over p c0 tiling0 -> p_tiles p <> [] ->
  let ds := GetTiledDomains (k_dom c) c tiling in
  (ds = GetTiledDomains (k_dom c0) c0 tiling0 -> Forall (fun t => ncoeff (t_funk t) = ncoeff (p_base p)) (p_tiles p) ->
     initTiledFunklet (Tiled p) (k_dom c) c tiling default = Ok (Tiled p)) /\
  (tiles (nc_of c) tiling <= 1 -> initTiledFunklet (Tiled p) (k_dom c) c tiling default = Ok (Tiled p)) /\
  (1 < tiles (nc_of c) tiling -> tiles (nc_of c) tiling <> length (p_tiles p) ->
     forall t0, nth_error (p_tiles p) 0 = Some t0 -> (forall a, k_center c a = [] -> nth a (f_shape (t_funk t0)) 0 <= 1) ->
     exists q, initTiledFunklet (Tiled p) (k_dom c) c tiling default = Ok (Tiled q) /\ tiled_over q c tiling /\
     Forall (fun t => f_coeff (t_funk t) = f_coeff (t_funk t0)) (p_tiles q)).
Proof.
  intros G O N ds. destruct (tile_domains c tiling G) as [Ln _]. fold ds in Ln. unfold initTiledFunklet. fold ds. split; [|split].
  - intros E A. destruct (length ds <=? 1); [reflexivity|]. unfold checkTiledFunklet. destruct (p_tiles p) as [|t0 l] eqn:Et; [contradiction|].
    assert (Ed : ds = map t_dom (t0 :: l)). { rewrite <- Et, (o_doms _ _ _ O). exact E. }
    assert (Fb : forallb (fun '(d, t) => same_range d (t_dom t) && Nat.eqb (ncoeff (t_funk t)) (ncoeff (t_funk t0))) (combine ds (t0 :: l)) = true).
    { rewrite Ed. apply forallb_forall. intros [d t] Hin.
      assert (W : forall l, In (d, t) (combine (map t_dom l) l) -> d = t_dom t /\ In t l). { induction l0 as [|x l0 IH]; intros Hx; [destruct Hx|]. destruct Hx as [Hx|Hx]; [injection Hx as <- <-; cbn; auto|]. destruct (IH Hx). cbn. auto. }
      destruct (W _ Hin) as [-> Ht]. rewrite range_same. rewrite Forall_forall in A. rewrite (A t Ht), (A t0 (or_introl eq_refl)), Nat.eqb_refl. reflexivity. }
    rewrite Fb. assert (El : length ds = length (t0 :: l)) by (rewrite Ed; apply map_length). rewrite El, Nat.eqb_refl. cbn [andb bind]. reflexivity.
  - intros T. rewrite (proj2 (Nat.leb_le _ 1)) by lia. reflexivity.
  - intros T Dn t0 E0 Sh. rewrite (proj2 (Nat.leb_gt _ 1)) by lia. unfold checkTiledFunklet. destruct (p_tiles p) as [|t0' l] eqn:Et; [contradiction|]. cbn in E0. injection E0 as ->.
    rewrite (proj2 (Nat.eqb_neq (length ds) (length (t0 :: l)))) by lia. cbn [andb bind].
    destruct (init_new (t_funk t0) c tiling default G T Sh) as (q & E & Oq & F & _). fold ds in E. rewrite E. cbn [bind]. exists q. split; [reflexivity|]. split; [exact Oq|].
    apply Forall_forall. intros t Ht. rewrite Forall_forall in F. rewrite (F t Ht). reflexivity.
Qed.
Print Assumptions tiled_reuse.

(** ** Solving *)
(** the coefficients after an update: coefficient [k] of tile [t] takes the value that the Solver has for its spid and tile *)
Lemma add_part_ok vals n t : forall inx cs, length inx = length cs -> (forall s, In (Some s) inx -> s * n + t < length vals) ->
  exists cs', add_part cs inx vals n t = Ok cs' /\ length cs' = length cs /\
  forall k x, nth_error cs k = Some x -> nth_error cs' k = Some (match nth k inx None with Some s => x + nth (s * n + t) vals q0 | None => x end)%Qc.
Proof.
  induction inx as [|o inx IH]; intros [|x cs] L B; try discriminate.
  - exists []. cbn. repeat split. intros [|k] y X; discriminate.
  - cbn [add_part]. destruct (IH cs) as (cs' & E & L' & V); [cbn in L; lia|intros s Hs; apply B; right; exact Hs|]. destruct o as [s|].
    + pose proof (B s (or_introl eq_refl)) as Bs. destruct (nth_error vals (s * n + t)) as [v|] eqn:Ev; [|apply nth_error_None in Ev; lia]. rewrite E. cbn [bind].
      eexists. split; [reflexivity|]. split; [cbn; lia|]. intros [|k] y X; cbn in X |- *; [injection X as <-; rewrite (nth_error_nth _ _ _ Ev); reflexivity|now apply V].
    + rewrite E. cbn [bind]. eexists. split; [reflexivity|]. split; [cbn; lia|]. intros [|k] y X; cbn in X |- *; [congruence|now apply V].
Qed.
Theorem tiled_update p c tiling vals : tiled_over p c tiling -> Forall (fun t => ncoeff (t_funk t) = length (f_inx (p_base p))) (p_tiles p) ->
  (forall s, In (Some s) (f_inx (p_base p)) -> S s * length (p_tiles p) <= length vals) ->
  exists q, update_composed p vals = Ok q /\ tiled_over q c tiling /\ p_base q = p_base p /\ length (p_tiles q) = length (p_tiles p) /\
  forall t u u', nth_error (p_tiles p) t = Some u -> nth_error (p_tiles q) t = Some u' -> t_dom u' = t_dom u /\ f_pert (t_funk u') = f_pert (t_funk u) /\ ncoeff (t_funk u') = ncoeff (t_funk u) /\
    forall k x, nth_error (f_coeff (t_funk u)) k = Some x ->
      nth_error (f_coeff (t_funk u')) k = Some (match nth k (f_inx (p_base p)) None with Some s => x + nth (s * length (p_tiles p) + t) vals q0 | None => x end)%Qc.
Proof.
  intros O A B. unfold update_composed. set (n := length (p_tiles p)) in *. set (f := fun (k : nat) (t : tile) => _).
  destruct (each_ok f (fun t u' => exists u, nth_error (p_tiles p) t = Some u /\ t_dom u' = t_dom u /\ f_pert (t_funk u') = f_pert (t_funk u) /\ ncoeff (t_funk u') = ncoeff (t_funk u) /\
     forall k x, nth_error (f_coeff (t_funk u)) k = Some x -> nth_error (f_coeff (t_funk u')) k = Some (match nth k (f_inx (p_base p)) None with Some s => x + nth (s * n + t) vals q0 | None => x end)%Qc) (p_tiles p) 0)
    as (l & E & Ll & P).
  { intros t u Hu. cbn [Nat.add]. rewrite Forall_forall in A. pose proof (A u (nth_error_In _ _ Hu)) as Lu. unfold ncoeff in Lu.
    assert (Lt : t < n) by (apply nth_error_Some; congruence).
    destruct (add_part_ok vals n t (f_inx (p_base p)) (f_coeff (t_funk u))) as (cs & Ec & Lc & V); [lia|intros s Hs; specialize (B s Hs); nia|].
    unfold f. rewrite Ec. cbn [bind]. eexists. split; [reflexivity|]. exists u. split; [exact Hu|]. split; [reflexivity|]. split; [reflexivity|]. split; [exact Lc|exact V]. }
  rewrite E. cbn [bind]. eexists. split; [reflexivity|]. cbn [p_tiles p_base p_has]. cbn [Nat.add] in P.
  assert (Md : map t_dom l = map t_dom (p_tiles p)).
  { apply (nth_ext _ _ (t_dom {| t_dom := []; t_funk := p_base p |}) (t_dom {| t_dom := []; t_funk := p_base p |})); [rewrite !map_length; exact Ll|]. intros i Hi. rewrite !map_nth. rewrite map_length in Hi.
    destruct (nth_error l i) as [u'|] eqn:El; [|apply nth_error_None in El; lia]. destruct (P i u' El) as (u & Eu & Du & _).
    rewrite (nth_error_nth _ _ _ El), (nth_error_nth _ _ _ Eu). exact Du. }
  split; [|split; [reflexivity|split; [exact Ll|]]].
  - destruct O as [O1 O2 O3]. constructor; cbn [p_tiles p_has]; [rewrite Md; exact O1|exact O2|exact O3].
  - intros t u u' Eu Eu'. destruct (P t u' Eu') as (u2 & Eu2 & R). rewrite Eu in Eu2. injection Eu2 as <-. exact R.
Qed.
Print Assumptions tiled_update.

Lemma solvable_dom f spid g : makeSolvable f spid = Ok g -> f_pert g = f_pert f /\ ncoeff g = ncoeff f.
Proof.
  unfold makeSolvable, makeSolvable_base, makeSolvable_mask. intros E.
  repeat match type of E with
         | context [if ?b then _ else _] => destruct b
         | context [match f_mask ?f with _ => _ end] => destruct (f_mask f)
         | context [match f_shape ?f with _ => _ end] => destruct (f_shape f)
         | context [match ?l with [] => _ | _ :: _ => _ end] => destruct l
         | context [let '(_, _) := ?x in _] => destruct x as [[? ?] ?]
         end; try discriminate; injection E as <-; unfold ncoeff; cbn; try (split; reflexivity).
  all: rewrite map_length, combine_length, seq_length; unfold ncoeff; split; [reflexivity|lia].
Qed.
Lemma const_solvable f spid : length (f_coeff f) = 1 -> f_mask f = None ->
  exists g, makeSolvable f spid = Ok g /\ f_coeff g = f_coeff f /\ f_pert g = f_pert f /\ f_spids g = [spid] /\ f_inx g = [Some 0].
Proof.
  intros L M. unfold makeSolvable, ncoeff. rewrite L. cbn [Nat.ltb Nat.leb]. unfold makeSolvable_base, ncoeff. rewrite M, L. eexists. split; [reflexivity|]. cbn. rewrite Z.add_0_r. auto.
Qed.
(** A constant Parm that is tiled, made solvable and given a solution: the value in a cell is the old one plus what the solution has for the
    tile of the cell. *)
Theorem tiled_solution f c tiling default spid vals axf mp : grid_ok c -> 1 < tiles (nc_of c) tiling ->
  length (f_coeff f) = 1 -> (forall a, nth a (f_shape f) 0 <= 1) -> f_mask f = None -> tiles (nc_of c) tiling <= length vals -> mp <= 2 ->
  exists p p' q w, initTiledFunklet (Single f) (k_dom c) c tiling default = Ok (Tiled p) /\ make_solvable p spid = Ok p' /\ update_composed p' vals = Ok q /\
  evaluate_composed axf q c mp = Ok w /\ w_spids w = (if Nat.eqb mp 0 then [] else [spid]) /\
  forall idx, In idx (cells_of c) ->
    let x := (hd q0 (f_coeff f) + nth (tile_of (nc_of c) tiling idx) vals q0)%Qc in
    at_index (v_shape (w_main w)) (v_data (w_main w)) (index idx) = Some x /\
    forall ip, ip < mp -> exists v, nth_error (w_pert w) ip = Some [v] /\ at_index (v_shape v) (v_data v) (index idx) = Some (x + signed ip (f_pert f))%Qc.
Proof.
  intros G T L1 Sh Mk Lv Mp. destruct (tiled_init f c tiling default G T ltac:(auto)) as (p & E & O & Ln & F & (bd & Bd) & _).
  destruct (const_solvable (p_base p) spid) as (b & Eb & _ & _ & Sb & Ib); [rewrite Bd; exact L1|rewrite Bd; exact Mk|].
  set (g := fun (_ : nat) (t : tile) => bind (makeSolvable (t_funk t) spid) (fun f => Ok (with_funk t f))).
  destruct (each_ok g (fun i t' => exists t, nth_error (p_tiles p) i = Some t /\ t_dom t' = t_dom t /\ f_coeff (t_funk t') = f_coeff f /\ f_pert (t_funk t') = f_pert f) (p_tiles p) 0) as (l & El & Ll & Pl).
  { intros i t Ht. rewrite Forall_forall in F. pose proof (F t (nth_error_In _ _ Ht)) as Ft.
    destruct (const_solvable (t_funk t) spid) as (g' & Eg & Cg & Pg & _); [rewrite Ft; exact L1|rewrite Ft; exact Mk|].
    exists (with_funk t g'). unfold g. rewrite Eg. split; [reflexivity|]. exists t. rewrite Ft in Cg, Pg. cbn. auto. }
  set (p' := {| p_base := b; p_tiles := l; p_has := p_has p; p_default := p_default p |}).
  assert (Es : make_solvable p spid = Ok p'). { unfold make_solvable. rewrite Eb. cbn [bind]. fold g. rewrite El. reflexivity. }
  cbn [Nat.add] in Pl. assert (Md : map t_dom l = map t_dom (p_tiles p)).
  { apply (nth_ext _ _ (t_dom {| t_dom := []; t_funk := f |}) (t_dom {| t_dom := []; t_funk := f |})); [rewrite !map_length; exact Ll|]. intros i Hi. rewrite !map_nth. rewrite map_length in Hi.
    destruct (nth_error l i) as [u'|] eqn:Ei; [|apply nth_error_None in Ei; lia]. destruct (Pl i u' Ei) as (u & Eu & Du & _).
    rewrite (nth_error_nth _ _ _ Ei), (nth_error_nth _ _ _ Eu). exact Du. }
  assert (O' : tiled_over p' c tiling). { destruct O as [O1 O2 O3]. constructor; cbn [p' p_tiles p_has]; [rewrite Md; exact O1|exact O2|exact O3]. }
  destruct (tiled_update p' c tiling vals O') as (q & Eq & Oq & Bq & Lq & Uq).
  { cbn [p' p_tiles p_base]. rewrite Ib. apply Forall_forall. intros t Ht. apply In_nth_error in Ht as (i & Hi). destruct (Pl i t Hi) as (_ & _ & _ & C & _). unfold ncoeff. rewrite C, L1. reflexivity. }
  { cbn [p' p_tiles p_base]. rewrite Ib. intros s [X|[]]. injection X as <-. lia. }
  assert (Cq : forall i t, nth_error (p_tiles q) i = Some t -> f_coeff (t_funk t) = [(hd q0 (f_coeff f) + nth i vals q0)%Qc] /\ f_pert (t_funk t) = f_pert f).
  { intros i t Hi. destruct (nth_error l i) as [u|] eqn:Eu; [|apply nth_error_None in Eu; assert (i < length (p_tiles q)) by (apply nth_error_Some; congruence); cbn [p' p_tiles] in Lq; lia].
    destruct (Uq i u t Eu Hi) as (_ & Pt & Nt & V). destruct (Pl i u Eu) as (_ & _ & _ & Cu & Pu). destruct (f_coeff f) as [|x [|y r]] eqn:Ef; try discriminate.
    specialize (V 0 x). rewrite Cu in V. specialize (V eq_refl). cbn [p' p_base] in V. rewrite Ib in V. cbn [nth] in V. rewrite Nat.mul_0_l, Nat.add_0_l in V.
    unfold ncoeff in Nt. rewrite Cu in Nt. destruct (f_coeff (t_funk t)) as [|y [|y' r']]; try discriminate. cbn in V. injection V as ->. split; [reflexivity|congruence]. }
  destruct (tiled_constants q c tiling axf mp G Oq) as (w & Ew & Sw & Vw).
  { apply Forall_forall. intros t Ht. apply In_nth_error in Ht as (i & Hi). destruct (Cq i t Hi) as [X _]. rewrite X. reflexivity. }
  { rewrite Bq. cbn [p' p_base]. rewrite Sb. cbn. lia. }
  { exact Mp. }
  exists p, p', q, w. split; [exact E|]. split; [exact Es|]. split; [exact Eq|]. split; [exact Ew|]. split; [rewrite Sw, Bq; cbn [p' p_base]; rewrite Sb; reflexivity|].
  intros idx Hi x. destruct (Vw idx Hi) as (t & Et & V1 & V2). destruct (Cq _ t Et) as [C1 P1]. rewrite C1, P1 in *. cbn [hd] in *. split; [exact V1|]. apply V2. rewrite Bq. cbn [p' p_base]. rewrite Sb. discriminate.
Qed.
Print Assumptions tiled_solution.

(** ** Examples *)
(** [ns]: number of cells per axis; cells are 2 wide, the domain starts at 0 *)
Definition even_grid (ns : list nat) : tcells :=
  {| k_rank := length ns; k_center := fun a => map (fun k => z (2 * Z.of_nat k + 1)) (seq 0 (nth a ns 0));
     k_size := fun a => repeat (z 2) (nth a ns 0);
     k_dom := map (fun a => if nth a ns 0 =? 0 then None else Some (z 0, z (2 * Z.of_nat (nth a ns 0)))) (seq 0 MaxAxis) |}.
Lemma this_z n : (this (z n) == inject_Z n)%Q.
Proof. unfold z, Q2Qc. cbn [this]. apply Qred_correct. Qed.
Lemma even_ok ns : 1 <= length ns <= MaxAxis -> grid_ok (even_grid ns).
Proof.
  intros L.
  assert (Ct : forall a k, k < nth a ns 0 -> nth k (k_center (even_grid ns) a) q0 = z (2 * Z.of_nat k + 1)).
  { intros a k H. cbn [even_grid k_center]. set (f := fun k => z (2 * Z.of_nat k + 1)). rewrite (nth_indep _ q0 (f 0)) by (rewrite map_length, seq_length; exact H). rewrite map_nth, seq_nth by exact H. reflexivity. }
  assert (Sz : forall a k, k < nth a ns 0 -> nth k (k_size (even_grid ns) a) q0 = z 2).
  { intros a k H. cbn [even_grid k_size]. rewrite (nth_indep _ q0 (z 2)) by (rewrite repeat_length; exact H). apply nth_repeat. }
  assert (Nc : forall a, ncells (even_grid ns) a = nth a ns 0). { intros a. unfold ncells. cbn [even_grid k_center]. rewrite map_length, seq_length. reflexivity. }
  assert (Dm : forall a, a < MaxAxis -> nth a (k_dom (even_grid ns)) None = if nth a ns 0 =? 0 then None else Some (z 0, z (2 * Z.of_nat (nth a ns 0%nat)))).
  { intros a H. cbn [even_grid k_dom]. set (f := fun a => if nth a ns 0 =? 0 then None else Some (z 0, z (2 * Z.of_nat (nth a ns 0%nat)))). rewrite (nth_indep _ None (f 0)) by (rewrite map_length, seq_length; exact H). rewrite map_nth, seq_nth by exact H. reflexivity. }
  constructor.
  - exact L.
  - intros a H. cbn [even_grid k_center k_rank] in *. rewrite nth_overflow by exact H. reflexivity.
  - intros a. cbn [even_grid k_center k_size]. rewrite map_length, seq_length. apply repeat_length.
  - intros a x H. cbn [even_grid k_size] in H. apply repeat_spec in H. subst x. reflexivity.
  - intros a k H. rewrite Nc in H. unfold cellEnd, cellStart. rewrite !Ct, !Sz by lia. unfold Qcle. rewrite this_plus, this_minus, !this_half, !this_z.
    rewrite Nat2Z.inj_succ. rewrite !inject_Z_plus, !inject_Z_mult. unfold Z.succ. rewrite inject_Z_plus.
    set (x := inject_Z (Z.of_nat k)). change (inject_Z 1) with 1%Q. change (inject_Z 2) with 2%Q. apply Qle_minus_iff. setoid_replace (2 * (x + 1) + 1 - 2 * (1 # 2) + - (2 * x + 1 + 2 * (1 # 2)))%Q with 0%Q by ring. discriminate.
  - cbn [even_grid k_dom]. rewrite map_length, seq_length. reflexivity.
  - intros a La. rewrite Dm by exact La. cbn [even_grid k_center]. destruct (nth a ns 0); cbn; split; congruence.
  - intros a r E. assert (La : a < MaxAxis). { destruct (le_lt_dec MaxAxis a) as [X|X]; [|assumption]. rewrite nth_overflow in E; [discriminate|]. cbn [even_grid k_dom]. rewrite map_length, seq_length. exact X. }
    rewrite Dm in E by exact La. destruct (Nat.eqb_spec (nth a ns 0) 0) as [|N]; [discriminate|].
    assert (Er : r = (z 0, z (2 * Z.of_nat (nth a ns 0%nat)))) by congruence. rewrite Er. cbn [fst snd]. unfold Qclt, Qcle. rewrite !this_z. split; [rewrite <- Zlt_Qlt; lia|].
    intros x H. cbn [even_grid k_center] in H. apply in_map_iff in H as (k & <- & Hk). apply in_seq in Hk. rewrite !this_z, <- !Zle_Qle. lia.
Qed.
Definition seen (w : tiled_values) := (w_spids w, (v_shape (w_main w), qs (v_data (w_main w))), map (map (fun v => qs (v_data v))) (w_pert w)).
Definition solved (f : funklet) (c : tcells) (tiling : list nat) (d : Qc) (vals : list Qc) : res composed :=
  bind (initTiledFunklet (Single f) (k_dom c) c tiling d) (fun h => match h with Single _ => Err | Tiled p =>
  bind (make_solvable p 256) (fun p => update_composed p vals) end).
Definition run f c tiling d vals mp := bind (solved f c tiling d vals) (fun p => bind (evaluate_composed nax p c mp) (fun w => Ok (seen w))).
Definition ten := polc [0; 1] None [1; 1] [10]%Z.
(** 5 x 2 cells in tiles of 2 x 1: three by two tiles *)
Example ex_domains : tiles (nc_of (even_grid [5; 2])) [2; 1] = 6 /\
  map (fun d => (this (lower d 0), this (upper d 0), this (lower d 1), this (upper d 1))) (GetTiledDomains (k_dom (even_grid [5; 2])) (even_grid [5; 2]) [2; 1]) =
  [(0, 4, 0, 2); (0, 4, 2, 4); (4, 8, 0, 2); (4, 8, 2, 4); (8, 10, 0, 2); (8, 10, 2, 4)]%Q /\ tile_of (nc_of (even_grid [5; 2])) [2; 1] [3; 1] = 3.
Proof. vm_compute. auto. Qed.
Example ex_solution : run ten (even_grid [5; 2]) [2; 1] (z 0) (map z [1; 2; 3; 4; 5; 6]%Z) 2 =
  Ok ([256]%Z, ([5; 2]%Z, [11; 12; 11; 12; 13; 14; 13; 14; 15; 16]%Q),
      [[[12; 13; 12; 13; 14; 15; 14; 15; 16; 17]%Q]; [[10; 11; 10; 11; 12; 13; 12; 13; 14; 15]%Q]]).
Proof. vm_compute. reflexivity. Qed.
Example ex_grid : grid_ok (even_grid [5; 2]) /\ grid_ok (even_grid [4]) /\ length (cells_of (even_grid [5; 2])) = 10.
Proof. split; [apply even_ok; unfold MaxAxis; cbn; lia|]. split; [apply even_ok; unfold MaxAxis; cbn; lia|reflexivity]. Qed.
(** an axis that is not tiled has no shape: 5 x 1 values for 5 x 2 cells *)
Example ex_one_axis : run ten (even_grid [5; 2]) [2] (z 0) (map z [1; 2; 3]%Z) 0 = Ok ([], ([5; 1]%Z, [11; 11; 12; 12; 13]%Q), []).
Proof. vm_compute. reflexivity. Qed.
(** the same tiles for another resolution of the other axis; another tiling starts all over from the first tile *)
Definition again (c : tcells) (tiling : list nat) : res (nat * list (list Q)) :=
  bind (solved ten (even_grid [6; 2]) [2] (z 0) (map z [1; 2; 3]%Z)) (fun p =>
  bind (initTiledFunklet (Tiled p) (k_dom c) c tiling (z 0)) (fun h => match h with Single f => Ok (0, [qs (f_coeff f)]) | Tiled p => Ok (length (p_tiles p), map (fun t => qs (f_coeff (t_funk t))) (p_tiles p)) end)).
Example ex_reuse : again (even_grid [6; 2]) [2] = Ok (3, [[11]; [12]; [13]]%Q) /\ again (even_grid [6; 2]) [3] = Ok (2, [[11]; [11]]%Q) /\
  again (even_grid [6; 2]) [] = Ok (3, [[11]; [12]; [13]]%Q).
Proof. vm_compute. auto. Qed.

(** ** What does not hold *)
(** Perturbed values of a tiled polynomial: where a tile is a single cell, only the first coefficient's are set.  Here 5 cells in tiles of 2 with
    10 + 3x, default value 7: the value with the second coefficient perturbed is 7 in the last cell, instead of 37 + 9. *)
Definition line := polc [0] None [2] [10; 3]%Z.
Theorem tiled_perturbation_refuted : ~ (forall f c tiling default spid axf p p' w, grid_ok c -> 1 < tiles (nc_of c) tiling -> f_mask f = None ->
  f_axes f = [0] -> f_shape f = [2] -> length (f_coeff f) = 2 -> 2 <= k_rank c ->
  initTiledFunklet (Single f) (k_dom c) c tiling default = Ok (Tiled p) -> make_solvable p spid = Ok p' -> evaluate_composed axf p' c 1 = Ok w ->
  forall idx set v x, In idx (cells_of c) -> nth_error (w_pert w) 0 = Some set -> nth_error set 1 = Some v -> at_index (v_shape v) (v_data v) (index idx) = Some x ->
    x = polc_at (with_coeff f (f_shape f) (bumped (f_coeff f) 1 (f_pert f))) (axf 0 (centre c idx 0)) (axf 1 (centre c idx 1))).
Proof.
  intros H. set (c := even_grid [5; 2]). assert (G : grid_ok c) by (apply even_ok; unfold MaxAxis; cbn; lia).
  assert (X : bind (initTiledFunklet (Single line) (k_dom c) c [2] (z 7)) (fun h => match h with Single _ => Err | Tiled p => bind (make_solvable p 256) (fun p =>
      bind (evaluate_composed nax p c 1) (fun w => Ok (map (map (fun v => (v_shape v, qs (v_data v)))) (w_pert w)))) end) =
    Ok [[([5; 1]%Z, [14; 20; 26; 32; 38]%Q); ([5; 1]%Z, [14; 22; 30; 38; 7]%Q)]]) by (vm_compute; reflexivity).
  destruct (initTiledFunklet (Single line) (k_dom c) c [2] (z 7)) as [[f|p]| | ] eqn:E; try discriminate. cbn [bind] in X.
  destruct (make_solvable p 256) as [p'| | ] eqn:E1; try discriminate. cbn [bind] in X.
  destruct (evaluate_composed nax p' c 1) as [w| | ] eqn:E2; try discriminate. cbn [bind] in X.
  injection X as X. destruct (w_pert w) as [|[|v0 [|v1 [|v2 r]]] r'] eqn:Ew; try discriminate. cbn [map] in X. injection X as _ _ Sh Dt _.
  assert (W : exists x, at_index (v_shape v1) (v_data v1) (index [4; 0]) = Some x /\ this x = 7%Q).
  { rewrite Sh. destruct (v_data v1) as [|x0 [|x1 [|x2 [|x3 [|x4 r4]]]]]; try discriminate. cbn [qs map] in Dt. pose proof (f_equal (fun l => nth 4 l 0%Q) Dt) as D4. exists x4. split; [reflexivity|exact D4]. }
  destruct W as (x & Ex & Tx).
  specialize (H line c [2] (z 7) 256%Z nax p p' w G ltac:(apply Nat.leb_le; vm_compute; reflexivity) eq_refl eq_refl eq_refl eq_refl (Nat.le_refl 2) E E1 E2 [4; 0] [v0; v1] v1 x).
  assert (I : In [4; 0] (cells_of c)) by (vm_compute; tauto).
  specialize (H I ltac:(rewrite Ew; reflexivity) eq_refl Ex). rewrite H in Tx. revert Tx. vm_compute. discriminate.
Qed.
Print Assumptions tiled_perturbation_refuted.

(** Cells outside all the domains should have the default value.  A funklet for a domain before the first cell sets that cell, and a copy of
    the ComposedPolc has 0 for the default value. *)
Definition part (lo hi x : Z) : tile := {| t_dom := set_nth undefined 0 (Some (z lo, z hi)); t_funk := polc [0] None [1] [x] |}.
Theorem composed_outside_refuted : ~ (forall l default p axf c w, grid_ok c -> Forall (fun t => length (f_coeff (t_funk t)) = 1) l -> compose l default = Ok p ->
  evaluate_composed axf p c 0 = Ok w -> forall idx x, In idx (cells_of c) -> (forall t, In t l -> ~ within (t_dom t) (centre c idx)) ->
  at_index (v_shape (w_main w)) (v_data (w_main w)) (index idx) = Some x -> x = default).
Proof.
  intros H. set (c := even_grid [3]). assert (G : grid_ok c) by (apply even_ok; unfold MaxAxis; cbn; lia). set (l := [part (-20) (-10) 5; part 2 4 6]).
  assert (X : bind (compose l (z 7)) (fun p => bind (evaluate_composed nax p c 0) (fun w => Ok (v_shape (w_main w), qs (v_data (w_main w))))) = Ok ([3]%Z, [5; 6; 7]%Q)) by (vm_compute; reflexivity).
  destruct (compose l (z 7)) as [p| | ] eqn:E; try discriminate. cbn [bind] in X. destruct (evaluate_composed nax p c 0) as [w| | ] eqn:E2; try discriminate. cbn [bind] in X.
  injection X as Sh Dt. destruct (v_data (w_main w)) as [|x0 [|x1 [|x2 r]]] eqn:Ed; try discriminate.
  specialize (H l (z 7) p nax c w G ltac:(repeat constructor) E E2 [0] x0 ltac:(vm_compute; tauto)).
  assert (Tx : this x0 = 5%Q) by exact (f_equal (fun l => nth 0 l 0%Q) Dt). rewrite H in Tx; [revert Tx; vm_compute; discriminate| |].
  - intros t [<-|[<-|[]]] W; destruct (W 0 _ eq_refl) as [A B]; [apply (Qle_bool_iff _ _) in B; vm_compute in B; discriminate|apply (Qle_bool_iff _ _) in A; vm_compute in A; discriminate].
  - rewrite Sh, Ed. reflexivity.
Qed.
Print Assumptions composed_outside_refuted.
Theorem composed_copy_refuted : ~ (forall l default p axf c w w', grid_ok c -> compose l default = Ok p ->
  evaluate_composed axf p c 0 = Ok w -> evaluate_composed axf (copied p) c 0 = Ok w' -> v_data (w_main w') = v_data (w_main w)).
Proof.
  intros H. set (c := even_grid [3]). assert (G : grid_ok c) by (apply even_ok; unfold MaxAxis; cbn; lia). set (l := [part 0 2 5; part 2 4 6]).
  assert (X : bind (compose l (z 7)) (fun p => bind (evaluate_composed nax p c 0) (fun w => bind (evaluate_composed nax (copied p) c 0) (fun w' => Ok (qs (v_data (w_main w)), qs (v_data (w_main w')))))) = Ok ([5; 6; 7]%Q, [5; 6; 0]%Q)) by (vm_compute; reflexivity).
  destruct (compose l (z 7)) as [p| | ] eqn:E; try discriminate. cbn [bind] in X. destruct (evaluate_composed nax p c 0) as [w| | ] eqn:E2; try discriminate. cbn [bind] in X.
  destruct (evaluate_composed nax (copied p) c 0) as [w'| | ] eqn:E3; try discriminate. cbn [bind] in X. injection X as D1 D2. rewrite (H l (z 7) p nax c w w' G E E2 E3), D1 in D2. discriminate.
Qed.
Print Assumptions composed_copy_refuted.
