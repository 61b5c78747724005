(** Flags of reductions, what the reductions miss, and where their axes come from: theorems. *)
From Coq Require Import Sorted QArith Qcanon.
From Verif Require Import Base Vel_Model Vel_Spec Vel_Proofs Vel_Sums Vel_Thms Fun_Flags Red_Model Red_Spec Red_Proofs Red_Slices Red_Init Red_Thms Red_Flags.
Close Scope Q_scope. Close Scope Qc_scope.
Local Open Scope Z_scope.

(** ** C120 and C121: examples, and what goes wrong *)
Definition zsum_node : list Z -> vells Z -> list Z -> Z -> res (vells Z) := reducedWS (reduceWS 0 (fun n v => nfold Z.add 0 (Z.to_nat n) v) Z.add 0).
Example ex_sum_along :
  zsum_node [1] (plain [2; 3] [1; 2; 3; 10; 20; 30]) [2; 3] 1 = Ok (plain [2; 1] [6; 60]) /\
  zsum_node [1; 2] (plain [2; 2; 2] [1; 2; 3; 4; 10; 20; 30; 40]) [2; 2; 2] 1 = Ok (plain [2; 1; 1] [10; 100]) /\
  zsum_node [1] (plain [2; 1] [7; 8]) [2; 5] 1 = Ok (plain [2; 1] [35; 40]).
Proof. split; [vm_compute; reflexivity|]. split; vm_compute; reflexivity. Qed.
Example ex_mean_along : bind (reduced qmean [1] {| v_shape := [2; 3]; v_data := map qz [1; 2; 3; 10; 20; 30]; v_flags := Some ([2; 3], [0; 0; 1; 0; 0; 0]) |} 1)
  (fun r => Ok (v_shape r, map this (v_data r))) = Ok ([2; 1], [(3 # 2)%Q; (20 # 1)%Q]).
Proof. vm_compute. reflexivity. Qed.
(** Over an axis other than the last the reduction is not over the slice: the sums over the first axis of ((1 2) (3 4)) should be 4 and 6 *)
Theorem sum_along_first_axis_refuted : ~ (forall (x : vells Z) mask ks r, spreads x (v_shape x) -> v_flags x = None -> good_axes ks ->
  (1 <= length ks <= length (v_shape x))%nat -> zsum_node (map Z.of_nat ks) x (v_shape x) mask = Ok r ->
  forall o, inside (v_shape r) o -> at_index (v_shape r) (v_data r) o = Some (total Z.add 0 (value_at 0 x) (map (merge (length (v_shape x)) ks o) (indices (along ks (v_shape x)))))).
Proof.
  intro H. specialize (H (plain [2; 2] [1; 2; 3; 4]) 1 [0%nat] (plain [1; 2] [3; 5])).
  pose proof (H ltac:(split; [split; [split; [repeat constructor; lia|reflexivity]|cbn; lia]|split; [split; [cbn; lia|auto]|exact Logic.I]]) eq_refl
    ltac:(split; [repeat constructor; cbn; tauto|repeat constructor; lia]) ltac:(cbn; lia) ltac:(vm_compute; reflexivity) [0; 0] ltac:(repeat constructor; lia)) as X.
  vm_compute in X. discriminate.
Qed.
(** A child that does not vary along some axis that remains is counted too often: with a value per frequency only, on cells of 3 times and
    2 frequencies, the sum over frequency should be 3 at each time *)
Theorem sum_collapsed_refuted :
  let x := plain [1; 2] [1; 2] in let spread := plain [3; 2] [1; 2; 1; 2; 1; 2] in
  spreads x [3; 2] /\ (forall idx, inside [3; 2] idx -> value_at 0 x idx = value_at 0 spread idx) /\
  zsum_node [1] x [3; 2] 1 = Ok (plain [1; 1] [9]) /\ zsum_node [1] spread [3; 2] 1 = Ok (plain [3; 1] [3; 3; 3]).
Proof.
  split; [split; [split; [split; [repeat constructor; lia|reflexivity]|cbn; lia]|split; [split; [cbn; lia|intros [|[|k]]; cbn; auto]|exact Logic.I]]|].
  split; [|split; vm_compute; reflexivity]. intros idx H. inversion H as [|s out x' i Hx H1]; subst. inversion H1 as [|s out y i' Hy H2]; subst. inversion H2; subst.
  assert (x' = 0 \/ x' = 1 \/ x' = 2) as [-> | [-> | ->]] by lia; assert (y = 0 \/ y = 1) as [-> | ->] by lia; reflexivity.
Qed.
(** a child with fewer axes than are to be reduced over makes the node fail, for instance a scalar *)
Theorem reduction_of_scalar_refuted : forall (V : Type) func (v : V) a b axes mask, apply func (a :: b :: axes) (plain [1] [v]) mask = Err.
Proof. reflexivity. Qed.
(** Rms and StdDev: the mean of the squares does not leave out what is flagged *)
Theorem rms_flags_refuted :
  let x := {| v_shape := [2]; v_data := map qz [1; 3]; v_flags := Some ([2], [0; 1]) |} in
  filter (counted x 1) (indices [2]) = [[0]] /\
  bind (reduced qmean [] x 1) (fun r => Ok (map this (v_data r))) = Ok [(1 # 1)%Q] /\
  bind (mean_square qmean (fun v => v * v)%Qc [] x 1) (fun r => Ok (map this (v_data r))) = Ok [(5 # 1)%Q].
Proof. split; [vm_compute; reflexivity|]. split; vm_compute; reflexivity. Qed.

(** ** C122: flags of a reduction along axes *)
(** With an odd flag mask, and axes as above, the result is flagged where all of the slice has flags (any flags, whether in the mask or
    not), and nowhere else. *)
Theorem flags_along_axes_partial : forall c fl ks mask out full, rc_flags c = Some fl -> usable (v_shape fl) (v_data fl) -> good_axes ks ->
  (1 <= length ks <= length (v_shape fl))%nat -> (2 <= length (v_shape fl))%nat -> trailing ks (v_shape fl) -> Z.odd mask = true ->
  without ks (v_shape fl) full -> length full = length (v_shape fl) -> match out with Some g => good full g | None => True end ->
  exists r, flags_along (map Z.of_nat ks) mask (Some c) out = Ok r /\ match r with Some g => good full g | None => True end /\
    forall o, inside full o ->
      let all := forall j, inside (along ks (v_shape fl)) j -> flag_at (v_shape fl) (v_data fl) (merge (length (v_shape fl)) ks o j) <> 0 in
      (all -> flags_at r o = Z.lor (flags_at out o) mask) /\ (~ all -> flags_at r o = flags_at out o).
Proof.
  intros c fl ks mask out full Ec U G L L2 T O Wf Lf Go. unfold flags_along.
  assert (mask <> 0) as Nm by (intros ->; discriminate). rewrite (proj2 (Z.eqb_neq _ _) Nm), Ec.
  assert (proper (v_shape fl)) as P by (destruct U as [[P _] _]; exact P).
  destruct (sl_init_eq (v_shape fl) ks P G ltac:(lia)) as (ns & sd & E & Ln & Pn & W & S3 & M). pose proof (sl_rank _ _ _ G (proj1 T) E) as Rk. cbn [sl_ns] in Rk.
  destruct (sl_starts_eq (v_shape fl) ks ns sd P Ln Pn W S3 M) as (st & Es & Ls & R). rewrite E. cbn [bind sl_ns]. unfold can_make.
  rewrite (proj2 (Nat.eqb_neq _ _)) by lia. cbn [negb]. rewrite Es. cbn [bind sl_dims].
  set (d := map _ st).
  assert (Pfull : proper full) by (apply proper_of_ext; intro k; rewrite Wf; pose proof (ext_pos _ P k); destruct (member k ks); lia).
  assert (Sns : subshape ns full) by (split; [lia|]; intro k; right; rewrite W, Wf; reflexivity).
  assert (G1 : good full (plain ns d)).
  { split; [|exact Sns]. cbn. split; [split; [exact Pn|]|destruct U; lia]. unfold d. rewrite map_length. exact Ls. }
  (* flags at a position *)
  assert (At : forall o, inside full o -> let all := forall j, inside (along ks (v_shape fl)) j -> flag_at (v_shape fl) (v_data fl) (merge (length (v_shape fl)) ks o j) <> 0 in
     (all -> flag_at ns d o = mask) /\ (~ all -> flag_at ns d o = 0)).
  { intros o Ho. destruct (restrict ns full o Pn Sns Ho) as (o' & Ho' & Hp).
    assert (Mo : forall j, merge (length (v_shape fl)) ks o j = merge (length (v_shape fl)) ks o' j).
    { intro j. unfold merge. apply map_ext_in. intros k Hk. apply in_seq in Hk. destruct (find_axis k ks) as [i|] eqn:Fk; [reflexivity|].
      destruct (Nat.lt_ge_cases k (length ns)) as [Hn|Hn]; [|specialize (M k ltac:(lia)); rewrite find_axis_member, Fk in M; discriminate].
      (* o and o' agree on axis k *)
      assert (inside ns (firstn (length ns) o)) as If.
      { apply inside_coord; [rewrite firstn_length; pose proof (inside_len _ _ Ho); lia|]. intros i Hi.
        assert (coord (firstn (length ns) o) i = coord o i) as ->.
        { unfold coord. rewrite <- (firstn_skipn (length ns) o) at 2. rewrite app_nth1; [reflexivity|]. rewrite firstn_length. pose proof (inside_len _ _ Ho). lia. }
        pose proof (coord_inside _ _ i Ho ltac:(lia)) as C. rewrite Wf, <- W in C. exact C. }
      specialize (Hp ns 0 (le_n _) (fun _ H => H)).
      assert (position ns o = position ns (firstn (length ns) o)) as Q.
      { unfold position. rewrite <- (firstn_skipn (length ns) o) at 1. apply position_app. rewrite firstn_length. pose proof (inside_len _ _ Ho). lia. }
      fold (position ns o) (position ns o') in Hp. rewrite Q in Hp.
      assert (firstn (length ns) o = o') as <-.
      { assert (Some (firstn (length ns) o) = Some o') as X by (rewrite <- (indices_nth _ _ If), <- (indices_nth _ _ Ho'), Hp; reflexivity). congruence. }
      unfold coord. rewrite <- (firstn_skipn (length ns) o) at 1. rewrite app_nth1; [reflexivity|]. rewrite firstn_length. pose proof (inside_len _ _ Ho). lia. }
    assert (flag_at ns d o = isAllFlagged (stretch (v_data fl) (base (v_shape fl) (length (v_shape fl)) ks o') (sl_dims_of (v_shape fl) ks)) mask) as ->.
    { unfold flag_at, at_index, position. rewrite (Hp ns 0 (le_n _) (fun _ H => H)). fold (position ns o'). unfold d. rewrite nth_error_map, R by auto. reflexivity. }
    rewrite all_flagged_eq by auto. pose proof (part_plain (v_data fl) (v_shape fl) ks o' ns U G T W Ln M Ho') as Pt. pose proof (part_all _ _ _ _ _ _ _ Pt P) as A.
    cbv zeta. destruct (forallb _ _) eqn:B.
    - split; [reflexivity|]. intro N. exfalso. apply N. intros j Hj. rewrite Mo. now apply A.
    - split; [|reflexivity]. intro Y. assert (false = true) as X; [|discriminate]. apply A. intros j Hj. rewrite <- Mo. now apply Y. }
  destruct (fold_left Z.lor d 0 =? 0) eqn:Z0.
  - exists out. split; [reflexivity|]. split; [exact Go|]. intros o Ho. cbv zeta. destruct (At o Ho) as [A1 _]. split; [|reflexivity]. intro Y. specialize (A1 Y).
    apply Z.eqb_eq, fold_lor_zero in Z0 as [_ Z0]. rewrite Forall_forall in Z0. unfold flag_at in A1. destruct (at_index ns d o) as [x|] eqn:X; [|congruence].
    rewrite (Z0 x) in A1 by (eapply nth_error_In; exact X). congruence.
  - destruct (mergeFlags_spread out (plain ns d) mask full G1 Go) as (r & Er & Gr & _ & Ar). exists r. split; [exact Er|]. split; [exact Gr|].
    intros o Ho. cbv zeta. rewrite Ar by auto. cbn [plain v_shape v_data]. destruct (At o Ho) as [A1 A2]. split; intro Y.
    + rewrite (A1 Y), Z.land_diag. reflexivity.
    + rewrite (A2 Y), Z.land_0_l, Z.lor_0_r. reflexivity.
Qed.
Definition rc (s d : list Z) : option rchild := Some {| rc_null := false; rc_flags := Some (plain s d) |}.
Example ex_flags_along : flags_along [1] (-1) (rc [2; 3] [1; 2; 4; 1; 0; 1]) None = Ok (Some (plain [2] [-1; 0])) /\
  flags_along [1] (-1) (rc [2; 3] [1; 0; 4; 1; 0; 1]) None = Ok None /\
  flags_along [1] 5 (rc [2; 3] [1; 2; 4; 1; 0; 1]) (Some (plain [1] [8])) = Ok (Some (plain [2] [13; 8])).
Proof. split; [vm_compute; reflexivity|]. split; vm_compute; reflexivity. Qed.
(** A slice is not what decides when the mask is even (then all is flagged), has other flags than the mask, or is not along the last axis;
    the flags of a vector cannot be reduced at all. *)
Theorem flags_along_axes_refuted :
  flags_along [1] 2 (rc [2; 2] [0; 0; 0; 0]) None = Ok (Some (plain [2] [2; 2])) /\
  flags_along [1] 1 (rc [2; 2] [2; 2; 0; 0]) None = Ok (Some (plain [2] [1; 0])) /\
  flags_along [0] (-1) (rc [3; 2] [0; 1; 0; 1; 0; 1]) None = Ok None /\
  (forall n d mask out, mask <> 0 -> flags_along [0] mask (rc [n] d) out = Err).
Proof.
  split; [vm_compute; reflexivity|]. split; [vm_compute; reflexivity|]. split; [vm_compute; reflexivity|]. intros n d mask out Nm. unfold flags_along, rc. rewrite (proj2 (Z.eqb_neq _ _) Nm). reflexivity.
Qed.
(** to a single value: flagged if everything is *)
Theorem flags_single_partial : forall c fl m out full, rc_flags c = Some fl -> Z.odd m = true -> full <> [] -> proper full -> match out with Some g => good full g | None => True end ->
  exists r, evaluateFlags [] [m] [Some c] out = Ok r /\ match r with Some g => good full g | None => True end /\
    forall idx, inside full idx ->
      (Forall (fun f => f <> 0) (v_data fl) -> flags_at r idx = Z.lor (flags_at out idx) m) /\ (Exists (fun f => f = 0) (v_data fl) -> flags_at r idx = flags_at out idx).
Proof.
  intros c fl m out full Ec O Nf Pf Go. cbn [evaluateFlags]. unfold flags_single. assert (m <> 0) as Nm by (intros ->; discriminate). rewrite (proj2 (Z.eqb_neq _ _) Nm), Ec.
  rewrite all_flagged_eq by auto. destruct (forallb (fun f => negb (f =? 0)) (v_data fl)) eqn:B.
  - rewrite (proj2 (Z.eqb_neq _ _) Nm).
    assert (good full (plain [1] [m])) as G1.
    { split; [split; [split; [repeat constructor; lia|reflexivity]|cbn; lia]|]. destruct full as [|n full]; [congruence|]. split; [cbn; lia|]. intros [|k]; [left; reflexivity|left; now apply ext_over; cbn; lia]. }
    assert (forall idx, flag_at [1] [m] idx = m) as Am by (intros [|x idx]; reflexivity).
    assert (Forall (fun f => f <> 0) (v_data fl)) as Fa. { rewrite forallb_forall in B. apply Forall_forall. intros f Hf. specialize (B f Hf). apply negb_true_iff, Z.eqb_neq in B. exact B. }
    assert (~ Exists (fun f => f = 0) (v_data fl)) as Ne. { rewrite Exists_exists, Forall_forall in *. intros (f & Hf & E). exact (Fa f Hf E). }
    destruct out as [g|].
    + destruct (mergeFlags_spread (Some g) (plain [1] [m]) m full G1 Go) as (r & Er & Gr & _ & Ar). exists r. split; [exact Er|]. split; [exact Gr|].
      intros idx Hi. split; [intros _|contradiction]. rewrite Ar by auto. cbn [plain v_shape v_data]. rewrite Am, Z.land_diag. reflexivity.
    + exists (Some (plain [1] [m])). split; [reflexivity|]. split; [exact G1|]. intros idx Hi. split; [intros _|contradiction]. cbn [flags_at plain v_shape v_data]. now rewrite Am, Z.lor_0_l.
  - exists out. split; [reflexivity|]. split; [exact Go|]. intros idx Hi. split; [|reflexivity]. intro Fa. exfalso.
    assert (forallb (fun f => negb (f =? 0)) (v_data fl) = true) as X; [|congruence]. apply forallb_forall. intros f Hf. rewrite Forall_forall in Fa. apply negb_true_iff, Z.eqb_neq. auto.
Qed.
Example ex_flags_single : evaluateFlags [] [3] [rc [2] [1; 4]] None = Ok (Some (plain [1] [3])) /\ evaluateFlags [] [3] [rc [2] [1; 0]] None = Ok None.
Proof. split; reflexivity. Qed.

(** ** C123: flags of a reduction across children *)
(** [idx] is flagged in a child's VellSet *)
Definition flagged_in (m : Z) (vs : option rchild) (idx : list Z) : Prop :=
  exists c fl, vs = Some c /\ rc_null c = false /\ rc_flags c = Some fl /\ Z.land (flag_at (v_shape fl) (v_data fl) idx) m <> 0.
Lemma hit_flagged : forall m vs idx, hit m vs idx = true <-> flagged_in m vs idx.
Proof.
  intros m vs idx. unfold hit, active, flagged_in. destruct (Z.eqb_spec m 0) as [->|Nm].
  - split; [discriminate|]. intros (c & fl & _ & _ & _ & H). rewrite Z.land_0_r in H. congruence.
  - destruct vs as [c|]; [|split; [discriminate|intros (c & fl & H & _); discriminate]]. destruct (rc_null c) eqn:N.
    + split; [discriminate|]. intros (c' & fl & H & N' & _). injection H as <-. congruence.
    + destruct (rc_flags c) as [fl|] eqn:F; [|split; [discriminate|intros (c' & fl & H & _ & F' & _); injection H as <-; congruence]].
      rewrite negb_true_iff, Z.eqb_neq. split; [intro H; exists c, fl; auto|]. intros (c' & fl' & H & _ & F' & K). injection H as <-. rewrite F in F'. injection F' as <-. exact K.
Qed.
(** A point of the result is flagged, with all masks together, where every child is flagged, and nowhere else; with up to 30 children. *)
Theorem flags_across_children_partial : forall full masks pvs out, full <> [] -> length masks = length pvs -> (2 <= length pvs <= 30)%nat ->
  (forall c fl, In (Some c) pvs -> rc_flags c = Some fl -> good full fl) -> match out with Some g => good full g | None => True end ->
  exists r, evaluateFlags [] masks pvs out = Ok r /\ match r with Some g => good full g | None => True end /\
    forall idx, inside full idx ->
      let all := forall k m vs, nth_error masks k = Some m -> nth_error pvs k = Some vs -> flagged_in m vs idx in
      (all -> flags_at r idx = Z.lor (flags_at out idx) (fold_left Z.lor masks 0)) /\ (~ all -> flags_at r idx = flags_at out idx).
Proof.
  intros full masks pvs out Nf Lm Lp Gf Go.
  assert (evaluateFlags [] masks pvs out = flags_across masks pvs out) as -> by (destruct pvs as [|a [|b l]]; cbn in Lp; [lia|lia|reflexivity]).
  assert (good full (plain [1] [0])) as G0.
  { split; [split; [split; [repeat constructor; lia|reflexivity]|cbn; lia]|]. destruct full as [|n full]; [congruence|]. split; [cbn; lia|]. intros [|k]; [left; reflexivity|left; now apply ext_over; cbn; lia]. }
  unfold flags_across. destruct (rf_children_ok full pvs masks 0 0 (plain [1] [0]) Lm ltac:(lia) G0) as (acc & E & Ga & At).
  { intros m vs fl Hin A. unfold active in A. destruct (m =? 0); [discriminate|]. destruct vs as [c|]; [|discriminate]. destruct (rc_null c); [discriminate|]. eapply Gf; eauto. }
  rewrite E. cbn [bind]. clear E. set (l := combine masks pvs) in *. set (tot := fold_left Z.lor (map (fun mv => used (fst mv) (snd mv)) l) 0).
  assert (Nl : forall k m vs, nth_error l k = Some (m, vs) <-> nth_error masks k = Some m /\ nth_error pvs k = Some vs).
  { unfold l. clear. revert pvs. induction masks as [|a masks IH]; intros [|b pvs] [|k] m vs; cbn; try (split; [discriminate|intros [X Y]; discriminate]).
    - split; [intro H; injection H as -> ->; auto|intros [X Y]; congruence].
    - apply IH. }
  assert (Ll : length l = length pvs) by (unfold l; rewrite combine_length; lia).
  assert (At' : forall idx b, inside full idx -> Z.testbit (flag_at (v_shape acc) (v_data acc) idx) (Z.of_nat b) = match nth_error l b with Some (m, vs) => hit m vs idx | None => false end).
  { intros idx b Hi. rewrite At by auto. rewrite Nat.sub_0_r. assert (flag_at (v_shape (plain [1] [0])) (v_data (plain [1] [0])) idx = 0) as -> by (destruct idx; reflexivity).
    rewrite Z.testbit_0_l. reflexivity. }
  assert (Full : forall idx, inside full idx -> let all := forall k m vs, nth_error masks k = Some m -> nth_error pvs k = Some vs -> flagged_in m vs idx in
    (flag_at (v_shape acc) (v_data acc) idx = 2 ^ Z.of_nat (length pvs) - 1 <-> all)).
  { intros idx Hi. cbv zeta. rewrite ones_iff.
    - split.
      + intros H k m vs Hm Hv. apply hit_flagged. assert (nth_error l k = Some (m, vs)) as Q by (apply Nl; auto).
        specialize (H k). rewrite At', Q in H by auto. apply H. rewrite <- Ll. apply nth_error_Some. congruence.
      + intros H b Hb. rewrite At' by auto. destruct (nth_error l b) as [[m vs]|] eqn:Q; [|apply nth_error_None in Q; lia]. apply hit_flagged. apply Nl in Q as [Q1 Q2]. eapply H; eauto.
    - intros b Hb. rewrite At' by auto. destruct (nth_error l b) as [[m vs]|] eqn:Q; [|reflexivity]. assert (b < length l)%nat by (apply nth_error_Some; congruence). lia. }
  assert (Tall : forall idx, (forall k m vs, nth_error masks k = Some m -> nth_error pvs k = Some vs -> flagged_in m vs idx) -> tot = fold_left Z.lor masks 0 /\ tot <> 0).
  { intros idx H. assert (forall m vs, In (m, vs) l -> hit m vs idx = true) as Hh.
    { intros m vs Hin. apply In_nth_error in Hin as (k & Hk). apply Nl in Hk as [H1 H2]. apply hit_flagged. eapply H; eauto. }
    split; [unfold tot; rewrite (used_all l 0 idx Hh); f_equal; unfold l; clear -Lm; revert pvs Lm; induction masks as [|a masks IH]; intros [|b pvs] Lm; try discriminate; [reflexivity|]; cbn; f_equal; apply IH; injection Lm; auto|].
    intro T0. destruct l as [|[m vs] l']; [cbn in Ll; lia|]. pose proof (used_zero _ _ T0 m vs idx (or_introl eq_refl)) as X. rewrite (Hh m vs (or_introl eq_refl)) in X. discriminate. }
  destruct (tot =? 0) eqn:T0.
  - apply Z.eqb_eq in T0. exists out. split; [reflexivity|]. split; [exact Go|]. intros idx Hi. cbv zeta. split; [|reflexivity]. intro Y. destruct (Tall idx Y). contradiction.
  - unfold bit. rewrite (proj2 (Nat.ltb_lt _ _)) by lia. cbn [bind]. unfold whereEq.
    set (w := fun f => if f =? 2 ^ Z.of_nat (length pvs) - 1 then tot else 0). set (rf := plain (v_shape acc) (map w (v_data acc))).
    assert (w 0 = 0) as W0. { unfold w. rewrite (proj2 (Z.eqb_neq _ _)); [reflexivity|]. pose proof (Z.pow_gt_1 2 (Z.of_nat (length pvs)) ltac:(lia)). lia. }
    assert (good full rf) as Gr by (unfold rf; apply mapped_good; auto).
    assert (Ar : forall idx, inside full idx -> flag_at (v_shape rf) (v_data rf) idx = if flag_at (v_shape acc) (v_data acc) idx =? 2 ^ Z.of_nat (length pvs) - 1 then tot else 0).
    { intros idx Hi. unfold rf. cbn [plain v_shape v_data]. now rewrite mapped_at. }
    set (hitb := existsb (fun f => f =? 2 ^ Z.of_nat (length pvs) - 1) (v_data acc)). set (miss := existsb _ (v_data acc)).
    destruct ((if hitb && negb miss then 1 else if miss && negb hitb then -1 else 0) <? 0) eqn:C.
    + exists out. split; [reflexivity|]. split; [exact Go|]. intros idx Hi. cbv zeta. split; [|reflexivity]. intro Y. exfalso. apply (Full idx Hi) in Y.
      assert (hitb = true) as Hb. { destruct (at_full _ _ _ Ga Hi) as (x & Ax & Ix). unfold flag_at in Y. rewrite Ax in Y. apply existsb_exists. exists x. split; [exact Ix|now apply Z.eqb_eq]. }
      rewrite Hb in C. destruct miss; discriminate.
    + assert (Final : forall idx r, inside full idx -> flags_at r idx = Z.lor (flags_at out idx) (flag_at (v_shape rf) (v_data rf) idx) ->
        let all := forall k m vs, nth_error masks k = Some m -> nth_error pvs k = Some vs -> flagged_in m vs idx in
        (all -> flags_at r idx = Z.lor (flags_at out idx) (fold_left Z.lor masks 0)) /\ (~ all -> flags_at r idx = flags_at out idx)).
      { intros idx r Hi Er. cbv zeta. rewrite Er, Ar by auto. destruct (Z.eqb_spec (flag_at (v_shape acc) (v_data acc) idx) (2 ^ Z.of_nat (length pvs) - 1)) as [Q|Q]; rewrite (Full idx Hi) in Q.
        - split; [|contradiction]. intros _. destruct (Tall idx Q) as [<- _]. reflexivity.
        - split; [contradiction|]. intros _. apply Z.lor_0_r. }
      destruct out as [g|].
      * destruct (mergeFlags_spread (Some g) rf VellsFullFlagMask full Gr Go) as (r & Er & Gr' & _ & Arr). exists r. split; [exact Er|]. split; [exact Gr'|].
        intros idx Hi. apply Final; auto. rewrite Arr by auto. unfold VellsFullFlagMask. now rewrite Z.land_m1_r.
      * exists (Some rf). split; [reflexivity|]. split; [exact Gr|]. intros idx Hi. apply Final; auto.
Qed.
Example ex_flags_across : evaluateFlags [] [1; 2] [rc [2] [1; 1]; rc [1; 2] [2; 4]] None = Ok (Some (plain [2; 2] [3; 0; 3; 0])) /\
  evaluateFlags [] [1; 2] [rc [2] [1; 1]; Some {| rc_null := true; rc_flags := Some (plain [1] [2]) |}] None = Ok None /\
  evaluateFlags [] [-1; -1] [rc [2] [1; 0]; rc [1] [1]] (Some (plain [2] [0; 4])) = Ok (Some (plain [2] [-1; 4])).
Proof. split; [vm_compute; reflexivity|]. split; vm_compute; reflexivity. Qed.
(** with 31 flagged children a bit is shifted out of an int *)
Theorem flags_across_many_refuted : evaluateFlags [] (repeat 1 31) (repeat (rc [1] [1]) 31) None = UB /\
  evaluateFlags [] (repeat 1 30) (repeat (rc [1] [1]) 30) None = Ok (Some (plain [1] [1])).
Proof. split; vm_compute; reflexivity. Qed.

(** ** C124: where the axes come from *)
Section AxesHistory.
Context {Id : Type}.
Variable axis : Id -> option Z.
(** The node uses the axes last given, whatever was given before; ids are looked up when they are used, and an unknown one is an error. *)
Definition last_axes (f : option (@axes_field Id)) : res (list Z) :=
  match f with
  | None => Ok []
  | Some (Indices l) => Ok l
  | Some (Ids l) => if existsb (fun i => match axis i with None => true | Some _ => false end) l then Err else Ok (map (fun i => match axis i with Some a => a | None => 0 end) l)
  end.
Fixpoint last_given (l : list (option (@axes_field Id))) (d : option (@axes_field Id)) : option (@axes_field Id) :=
  match l with [] => d | None :: l => last_given l d | Some f :: l => last_given l (Some f) end.
(** states before and after requests *)
Inductive event := Given (f : option (@axes_field Id)) | Request.
Definition step (nchildren : nat) (e : event) (s : @axes_state Id) : @axes_state Id :=
  match e with Given f => fst (set_axes nchildren f s) | Request => match use_axes axis s with Ok s' => s' | _ => s end end.
Definition given (l : list event) : list (option (@axes_field Id)) := flat_map (fun e => match e with Given f => [f] | Request => [] end) l.
Lemma each_axis : forall l, each_slice (fun i => match axis i with Some a => Ok a | None => Err end) l = last_axes (Some (Ids l)).
Proof.
  induction l as [|i l IH]; [reflexivity|]. cbn [each_slice last_axes existsb map]. rewrite IH. cbn [last_axes]. destruct (axis i); cbn [bind orb]; [|reflexivity].
  destruct (existsb _ l); reflexivity.
Qed.
Definition holds (f : option (@axes_field Id)) (s : @axes_state Id) : Prop :=
  match f with
  | None => as_ids_given s = false /\ as_axes s = []
  | Some (Indices l) => as_ids_given s = false /\ as_axes s = l
  | Some (Ids l) => as_ids_given s = true /\ as_ids s = l /\ (l = [] -> as_axes s = [])
  end.
Lemma step_holds : forall n e s f, holds f s -> holds (last_given (given [e]) f) (step n e s).
Proof.
  intros n [g|] s f H; cbn [given flat_map app step].
  - destruct g as [[l|l]|]; cbn [last_given set_axes fst holds]; cbn; auto.
  - cbn [last_given]. unfold use_axes. destruct (as_ids_given s && negb (Nat.eqb (length (as_ids s)) 0)) eqn:B; [|exact H].
    destruct (each_slice _ (as_ids s)) as [r| |] eqn:E; cbn [bind]; auto. destruct f as [[l|l]|]; cbn [holds] in *; cbn.
    + destruct H as [H _]. rewrite H in B. discriminate.
    + destruct H as (H1 & H2 & H3). split; [reflexivity|]. split; [exact H2|]. intros ->. rewrite H2 in B. apply andb_prop in B as [_ B]. discriminate.
    + destruct H as [H _]. rewrite H in B. discriminate.
Qed.
Theorem axes_last_given : forall n l, let s := fold_left (fun s e => step n e s) l as_new in
  bind (use_axes axis s) (fun s => Ok (as_axes s)) = last_axes (last_given (given l) None).
Proof.
  intros n l. cbv zeta.
  assert (forall l s f, holds f s -> holds (last_given (given l) f) (fold_left (fun s e => step n e s) l s)) as H.
  { clear l. induction l as [|e l IH]; intros s f H; [exact H|]. cbn [fold_left]. apply (step_holds n e) in H. apply IH in H.
    replace (last_given (given (e :: l)) f) with (last_given (given l) (last_given (given [e]) f)); [exact H|]. destruct e as [[g|]|]; reflexivity. }
  specialize (H l as_new None (conj eq_refl eq_refl)). set (s := fold_left _ l as_new) in *. unfold use_axes.
  destruct (last_given (given l) None) as [[x|x]|]; cbn [holds] in H.
  - destruct H as [-> E]. cbn [andb bind]. now rewrite E.
  - destruct H as (-> & -> & E). destruct x as [|i x]; [cbn; now rewrite E|]. cbn [andb length Nat.eqb negb]. rewrite each_axis.
    destruct (last_axes (Some (Ids (i :: x)))); reflexivity.
  - destruct H as [-> E]. cbn [andb bind]. now rewrite E.
Qed.
End AxesHistory.
Example ex_axes : let axis i := nth_error [0; 1] i in
  bind (use_axes axis (fold_left (fun s e => step axis 1 e s) [Given (Some (Ids [1%nat])); Request; Given None; Given (Some (Indices [3])); Request; Given (Some (Ids [1%nat; 0%nat]))] as_new)) (fun s => Ok (as_axes s)) = Ok [1; 0] /\
  bind (use_axes axis (fst (set_axes 1 (Some (Ids [5%nat])) as_new))) (fun s => Ok (as_axes s)) = Err.
Proof. split; reflexivity. Qed.
(** Axes make no sense with several children: they are refused when given by id, but not when given by number *)
Theorem axes_with_children_refuted : forall (Id : Type) (i : Id) n a s, (2 <= n)%nat ->
  snd (set_axes n (Some (Ids [i])) s) = true /\ snd (set_axes n (Some (@Indices Id [a])) s) = false.
Proof. intros Id i n a s H. split; [|reflexivity]. destruct n as [|[|n]]; [lia|lia|reflexivity]. Qed.

Print Assumptions sum_along_first_axis_refuted.
Print Assumptions sum_collapsed_refuted.
Print Assumptions reduction_of_scalar_refuted.
Print Assumptions rms_flags_refuted.
Print Assumptions flags_along_axes_partial.
Print Assumptions flags_along_axes_refuted.
Print Assumptions flags_single_partial.
Print Assumptions flags_across_children_partial.
Print Assumptions flags_across_many_refuted.
Print Assumptions axes_last_given.
Print Assumptions axes_with_children_refuted.
