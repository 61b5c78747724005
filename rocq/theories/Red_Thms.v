(** Slices and reductions along axes: theorems. *)
From Coq Require Import Sorted QArith Qcanon.
From Verif Require Import Base Vel_Model Vel_Spec Vel_Proofs Vel_Sums Vel_Thms Red_Model Red_Spec Red_Proofs Red_Slices Red_Init.
Close Scope Q_scope. Close Scope Qc_scope.
Local Open Scope Z_scope.

(** ** C119: slices *)
Section Visit.
Context {V : Type}.
Lemma joint_rank : forall (x : vells V) out, joint_shape x out -> wf_rank (v_shape x) (option_map fst (v_flags x)) = length out /\
  (forall k, proper (v_shape x) -> ext out k = Z.max (ext (v_shape x) k) (ext (fshape (option_map fst (v_flags x))) k)).
Proof.
  intros x out J. unfold joint_shape, wf_rank in *. destruct (v_flags x) as [[fs fd]|]; cbn [option_map fst fshape].
  - destruct J as [L E]. split; [lia|auto].
  - subst out. split; [cbn; lia|]. intros k P. rewrite (ext_over []) by (cbn; lia). pose proof (ext_pos _ P k). lia.
Qed.
Lemma flags_proper : forall (x : vells V) full, spreads x full -> proper (fshape (option_map fst (v_flags x))).
Proof. intros x full (_ & _ & F). destruct (v_flags x) as [[fs fd]|]; [|constructor]. destruct F as [[[P _] _] _]. exact P. Qed.
Lemma flags_sub : forall (x : vells V) full, spreads x full -> subshape (fshape (option_map fst (v_flags x))) full.
Proof. intros x full (_ & _ & F). destruct (v_flags x) as [[fs fd]|]; [apply F|]. split; [cbn; lia|]. intro k. left. now apply ext_over; cbn; lia. Qed.
Lemma flen : forall (x : vells V) full, spreads x full ->
  option_map (fun f => Z.of_nat (length (snd f))) (v_flags x) = option_map size (option_map fst (v_flags x)).
Proof. intros x full (_ & _ & F). destruct (v_flags x) as [[fs fd]|]; [|reflexivity]. destruct F as [[[_ L] _] _]. cbn. now rewrite L. Qed.
(** everything about the slicer with flags *)
Lemma wf_facts : forall (x : vells V) full out ks, spreads x full -> joint_shape x out -> good_axes ks -> (length ks <= length out)%nat ->
  exists ns st, let s := {| wf_dims := dims_of (v_shape x) (length out) ks; wf_fdims := dims_of (fshape (option_map fst (v_flags x))) (length out) ks;
      wf_ns := ns; wf_axes := axes_of (runs (v_shape x) ks) (pad (v_shape x) (length out)) (length out);
      wf_faxes := axes_of (runs (fshape (option_map fst (v_flags x))) ks) (pad (fshape (option_map fst (v_flags x))) (length out)) (length out) |} in
    wf_init (v_shape x) (option_map fst (v_flags x)) (map Z.of_nat ks) = Ok s /\
    wf_starts s (nelements x) (option_map (fun f => Z.of_nat (length (snd f))) (v_flags x)) = Ok st /\
    length ns = length out /\ proper ns /\ without ks out ns /\ Z.of_nat (length st) = size ns /\
    forall o, inside ns o -> nth_error st (Z.to_nat (position ns o)) = Some (base (v_shape x) (length out) ks o, base (fshape (option_map fst (v_flags x))) (length out) ks o).
Proof.
  intros x full out ks Sp J [ND F] L. pose proof (flags_proper _ _ Sp) as Pf. pose proof (flags_sub _ _ Sp) as Sf. pose proof (flen _ _ Sp) as Fl.
  destruct Sp as ([[Pv Lv] _] & Sv & _). destruct (joint_rank x out J) as [Er Ee]. specialize (fun k => Ee k Pv).
  destruct (wf_init_eq (v_shape x) (option_map fst (v_flags x)) ks Pv Pf F ltac:(lia)) as (ns & Ei & Ln & Pn & N). rewrite Er in *.
  pose proof (subshape_broadcast _ _ _ Sv Sf) as B.
  edestruct (wf_starts_eq (v_shape x) (option_map fst (v_flags x)) ks _ ns Pv Pf ND B eq_refl ltac:(lia) Pn N) as (st & Es & Ls & R).
  rewrite Er in Es. exists ns, st. cbv zeta. split; [exact Ei|].
  assert (nelements x = size (v_shape x)) as -> by exact Lv. rewrite Fl. split; [exact Es|]. split; [exact Ln|]. split; [exact Pn|].
  split; [intro k; rewrite N, Ee; reflexivity|]. split; [exact Ls|]. intros o Ho. rewrite R by auto. now rewrite Ln.
Qed.
(** Slices along any set of different axes: one for every position in what remains of the joint shape of data and flags when those axes
    are collapsed, and each made up of the elements (and flags) at that position. *)
Theorem flagged_slices : forall (x : vells V) full out ks, spreads x full -> joint_shape x out -> good_axes ks ->
  if Nat.ltb (length out) (length ks) then wf_init (v_shape x) (option_map fst (v_flags x)) (map Z.of_nat ks) = Err else
  exists s st, wf_init (v_shape x) (option_map fst (v_flags x)) (map Z.of_nat ks) = Ok s /\
    wf_starts s (nelements x) (option_map (fun f => Z.of_nat (length (snd f))) (v_flags x)) = Ok st /\
    length (wf_ns s) = length out /\ without ks out (wf_ns s) /\ Z.of_nat (length st) = size (wf_ns s) /\
    map fst (wf_dims s) = along ks (v_shape x) /\
    forall o, inside (wf_ns s) o -> exists p f, nth_error st (Z.to_nat (position (wf_ns s) o)) = Some (p, f) /\
      forall j, inside (along ks full) j ->
        view (v_data x) p (wf_dims s) (squeeze (along ks (v_shape x)) j) = at_index (v_shape x) (v_data x) (merge (length out) ks o j) /\
        match v_flags x with
        | Some (fs, fd) => map fst (wf_fdims s) = along ks fs /\ view fd f (wf_fdims s) (squeeze (along ks fs) j) = at_index fs fd (merge (length out) ks o j)
        | None => True
        end.
Proof.
  intros x full out ks Sp J G. destruct (Nat.ltb (length out) (length ks)) eqn:L.
  - unfold wf_init. change (match option_map fst (v_flags x) with Some s => s | None => [] end) with (fshape (option_map fst (v_flags x))).
    destruct (joint_rank x out J) as [E _]. unfold wf_rank in E. rewrite E, map_length, L. reflexivity.
  - apply Nat.ltb_ge in L. destruct (wf_facts x full out ks Sp J G L) as (ns & st & Ei & Es & Ln & Pn & W & Ls & R). cbv zeta in *.
    eexists; exists st. split; [exact Ei|]. split; [exact Es|]. cbn [wf_ns wf_dims wf_fdims]. split; [exact Ln|]. split; [exact W|]. split; [exact Ls|].
    destruct G as [ND F]. pose proof (flags_proper _ _ Sp) as Pf. destruct Sp as ([[Pv Lv] _] & Sv & Fv). split; [now apply dims_shape|].
    assert (length (v_shape x) <= length out /\ length (fshape (option_map fst (v_flags x))) <= length out)%nat as [L1 L2].
    { destruct (joint_rank x out J) as [E _]. unfold wf_rank in E. lia. }
    intros o Ho. do 2 eexists. split; [apply R; exact Ho|]. intros j Hj.
    assert (length ks = length j) as Lj by (pose proof (inside_len _ _ Hj) as Q; unfold along in Q; rewrite map_length in Q; exact Q).
    split; [apply view_merge; auto|]. destruct (v_flags x) as [[fs fd]|]; [|exact Logic.I]. cbn [option_map fst fshape] in *.
    split; [now apply dims_shape|]. apply view_merge; auto.
Qed.
(** Every element is in exactly one slice, in one place. *)
Theorem slices_partition : forall out ks ns, proper out -> good_axes ks -> without ks out ns -> (length ns <= length out)%nat ->
  (forall o j, inside ns o -> inside (along ks out) j -> inside out (merge (length out) ks o j)) /\
  forall idx, inside out idx -> exists o j, inside ns o /\ inside (along ks out) j /\ merge (length out) ks o j = idx /\
    forall o' j', inside ns o' -> inside (along ks out) j' -> merge (length out) ks o' j' = idx -> o' = o /\ j' = j.
Proof.
  intros out ks ns P G W L. split; [intros; eapply merge_inside; eauto|]. intros idx H.
  destruct (merge_onto out ks ns idx G W P H L) as (o & j & Ho & Hj & E). exists o, j. split; [exact Ho|]. split; [exact Hj|]. split; [exact E|].
  intros o' j' Ho' Hj' E'. apply (merge_once out ks ns o' j' o j G W P L Ho' Ho Hj' Hj). congruence.
Qed.
(** The slicer without flags. *)
Theorem plain_slices : forall s (d : list V) ks, filled s d -> good_axes ks ->
  if Nat.ltb (length s) (length ks) then sl_init s (map Z.of_nat ks) = Err else
  exists sl st, sl_init s (map Z.of_nat ks) = Ok sl /\ sl_starts sl = Ok st /\
    without ks s (sl_ns sl) /\ (length (sl_ns sl) <= length s)%nat /\ map fst (sl_dims sl) = along ks s /\ Z.of_nat (length st) = size (sl_ns sl) /\
    forall o, inside (sl_ns sl) o -> exists p, nth_error st (Z.to_nat (position (sl_ns sl) o)) = Some p /\
      forall j, inside (along ks s) j -> view d p (sl_dims sl) j = at_index s d (merge (length s) ks o j).
Proof.
  intros s d ks [P Ld] G. destruct (Nat.ltb (length s) (length ks)) eqn:L; [unfold sl_init; now rewrite map_length, L|]. apply Nat.ltb_ge in L.
  destruct (sl_init_eq s ks P G L) as (ns & sd & E & Ln & Pn & W & S3 & M).
  destruct (sl_starts_eq s ks ns sd P Ln Pn W S3 M) as (st & Es & Ls & R).
  eexists; exists st. split; [exact E|]. split; [exact Es|]. cbn [sl_ns sl_dims]. split; [exact W|]. split; [exact Ln|]. split; [apply sl_dims_shape|]. split; [exact Ls|].
  intros o Ho. eexists. split; [apply R; exact Ho|]. intros j Hj. destruct G as [ND _]. now apply sl_view_merge.
Qed.
End Visit.
Definition cube : list Z := [10; 11; 12; 20; 21; 22; 30; 31; 32; 40; 41; 42].
(** a 2x2x3 array sliced along its middle axis, and along the last and first (in that order) *)
Example ex_slices :
  bind (sl_init [2; 2; 3] [1]) (fun s => bind (sl_starts s) (fun st => Ok (sl_ns s, map (fun p => (view cube p (sl_dims s) [0], view cube p (sl_dims s) [1])) st)))
    = Ok ([2; 1; 3], [(Some 10, Some 20); (Some 11, Some 21); (Some 12, Some 22); (Some 30, Some 40); (Some 31, Some 41); (Some 32, Some 42)]) /\
  bind (sl_init [2; 2; 3] [2; 0]) (fun s => bind (sl_starts s) (fun st => Ok (sl_ns s, map (fun p => (view cube p (sl_dims s) [2; 0], view cube p (sl_dims s) [0; 1])) st)))
    = Ok ([1; 2], [(Some 12, Some 30); (Some 22, Some 40)]) /\
  bind (wf_init [2] (Some [2; 3]) [0]) (fun s => bind (wf_starts s 2 (Some 6)) (fun st => Ok (wf_ns s,
      map (fun '(p, f) => (view [7; 8] p (wf_dims s) [1], view [1; 2; 3; 4; 5; 6] f (wf_fdims s) [1])) st)))
    = Ok ([1; 3], [(Some 8, Some 4); (Some 8, Some 5); (Some 8, Some 6)]) /\
  sl_init [3] [0; 1] = Err /\ merge 3 [2; 0]%nat [5; 6; 7] [8; 9] = [9; 6; 8].
Proof. split; [vm_compute; reflexivity|]. split; [vm_compute; reflexivity|]. split; [vm_compute; reflexivity|]. split; vm_compute; reflexivity. Qed.
(** the axes must be different ones: naming the last axis twice writes past the end of the shape *)
Theorem slices_same_axis_refuted : exists s ks, proper s /\ Forall (fun k => (k < length s)%nat) ks /\ (length ks <= length s)%nat /\ sl_init s (map Z.of_nat ks) = UB.
Proof. exists [2; 3], [1; 1]%nat. split; [repeat constructor; lia|]. split; [repeat constructor; cbn; lia|]. split; [cbn; lia|reflexivity]. Qed.

(** ** C120: reductions along axes *)
Lemma each_slice_cases : forall {A B} (f : A -> res B) l,
  match each_slice f l with
  | Ok r => length r = length l /\ forall i a, nth_error l i = Some a -> exists b, f a = Ok b /\ nth_error r i = Some b
  | Err => exists i a, nth_error l i = Some a /\ f a = Err
  | UB => exists i a, nth_error l i = Some a /\ f a = UB
  end.
Proof.
  induction l as [|a l IH]; cbn [each_slice]; [split; [reflexivity|]; intros [|i] a H; discriminate|].
  destruct (f a) as [b| |] eqn:E; cbn [bind]; [|exists 0%nat, a; auto|exists 0%nat, a; auto].
  destruct (each_slice f l) as [r| |]; cbn [bind].
  - destruct IH as [L IH]. split; [cbn; congruence|]. intros [|i] a' H; cbn [nth_error] in *; [injection H as <-; eauto|auto].
  - destruct IH as (i & a' & H & F). exists (S i), a'. auto.
  - destruct IH as (i & a' & H & F). exists (S i), a'. auto.
Qed.
Lemma stretch_length : forall (A : Type) (d : list A) p dims, 0 <= p -> 0 <= product (map fst dims) -> p + product (map fst dims) <= Z.of_nat (length d) ->
  Z.of_nat (length (stretch d p dims)) = product (map fst dims).
Proof. intros. unfold stretch. rewrite firstn_length, skipn_length. lia. Qed.
Lemma along_proper : forall ks s, proper s -> proper (along ks s).
Proof. intros. unfold along. apply Forall_map, Forall_forall. intros. now apply ext_pos. Qed.
Lemma along_sub : forall ks s full, (forall k, ext s k = 1 \/ ext s k = ext full k) -> subshape (along ks s) (along ks full).
Proof. intros. split; [unfold along; now rewrite !map_length|]. intro i. rewrite !along_ext. destruct (Nat.ltb i (length ks)); auto. Qed.
Section Reduce.
Context {V : Type}.
(** For axes past which nothing varies, given in ascending order, the reduction is applied to the slice at each position.  If it throws
    for one, so does the node. *)
Lemma part_ok : forall (A : Type) (d : list A) s n ks o ns out full, usable s d -> good_axes ks -> (length s <= n)%nat -> trailing ks s -> subshape s full ->
  (forall k, ext s k = 1 \/ ext s k = ext out k) -> length out = n -> without ks out ns -> length ns = n -> inside ns o ->
  part_of n ks full s d o (along ks s) (stretch d (base s n ks o) (dims_of s n ks)).
Proof.
  intros A d s n ks o ns out full [[P Ld] _] [ND F] L T Sf So Lo W Ln Ho.
  destruct (base_bound s n ks o P L ND) as (B0 & B1 & B2).
  { intros k Nk Hk E1. pose proof (coord_inside _ _ k Ho ltac:(lia)) as C. rewrite W, (proj2 (member_not k ks) Nk) in C. destruct (So k) as [Q|Q]; [contradiction|]. rewrite Q. exact C. }
  split; [split; [now apply along_proper|]|split; [reflexivity|]].
  - rewrite stretch_length; rewrite ?dims_shape by auto; auto; lia.
  - intros j Hj. apply (stretch_merge A d s n ks o j full); auto. apply Sf.
Qed.
Theorem reduction_along_axes_partial : forall func (x : vells V) mask full out ks, spreads x full -> joint_shape x out -> good_axes ks ->
  (1 <= length ks <= length out)%nat -> trailing_in ks x ->
  exists ns, length ns = length out /\ proper ns /\ without ks out ns /\
  match apply func (map Z.of_nat ks) x mask with
  | Ok r => v_shape r = ns /\ filled ns (v_data r) /\ v_flags r = None /\
      forall o, inside ns o -> exists sl v, is_slice (length out) ks full x o sl /\ func sl mask = Ok v /\ at_index ns (v_data r) o = Some v
  | Err => exists o sl, inside ns o /\ is_slice (length out) ks full x o sl /\ func sl mask = Err
  | UB => exists o sl, inside ns o /\ is_slice (length out) ks full x o sl /\ func sl mask = UB
  end.
Proof.
  intros func x mask full out ks Sp J G L [T Tf]. destruct (wf_facts x full out ks Sp J G ltac:(lia)) as (ns & st & Ei & Es & Ln & Pn & W & Ls & R). cbv zeta in *.
  exists ns. split; [exact Ln|]. split; [exact Pn|]. split; [exact W|]. unfold apply. rewrite Ei. cbn [bind]. rewrite Es. cbn [bind wf_ns].
  unfold can_make. rewrite (proj2 (Nat.eqb_neq _ _)) by lia. cbn [negb].
  set (s := {| wf_dims := _; wf_fdims := _; wf_ns := ns; wf_axes := _; wf_faxes := _ |}).
  pose proof (flags_proper _ _ Sp) as Pf. destruct (joint_rank x out J) as [Er Ee]. unfold wf_rank in Er.
  destruct Sp as (U & Sv & Fv). assert (proper (v_shape x)) as Pv by (destruct U as [[P _] _]; exact P). specialize (fun k => Ee k Pv).
  assert (forall o, inside ns o -> is_slice (length out) ks full x o (slice_vells x s (base (v_shape x) (length out) ks o, base (fshape (option_map fst (v_flags x))) (length out) ks o))) as SL.
  { intros o Ho. unfold is_slice, slice_vells, s. cbn [wf_dims wf_fdims fst snd v_shape v_data v_flags]. rewrite dims_shape by auto. split.
    - apply (part_ok V (v_data x) (v_shape x) (length out) ks o ns out full); auto; [lia|]. intro k. rewrite Ee. pose proof (ext_pos _ Pf k).
      destruct (v_flags x) as [[fs fd]|]; cbn [option_map fst fshape] in *; [|rewrite (ext_over []) by (cbn; lia); pose proof (ext_pos _ Pv k); lia].
      destruct Fv as [_ Sf]. pose proof (subshape_broadcast _ _ _ Sv Sf k). pose proof (ext_pos _ Pv k). lia.
    - destruct (v_flags x) as [[fs fd]|]; [|exact Logic.I]. cbn [option_map fst fshape] in *. rewrite dims_shape by auto. destruct Fv as [Uf Sf].
      apply (part_ok Z fd fs (length out) ks o ns out full); auto; [lia|]. intro k. rewrite Ee. pose proof (ext_pos _ Pf k). pose proof (subshape_broadcast _ _ _ Sv Sf k). pose proof (ext_pos _ Pv k). lia. }
  assert (forall i a, nth_error st i = Some a -> exists o, inside ns o /\ i = Z.to_nat (position ns o) /\
    a = (base (v_shape x) (length out) ks o, base (fshape (option_map fst (v_flags x))) (length out) ks o)) as Back.
  { intros i a H. assert (i < length (indices ns))%nat as Hi.
    { pose proof (indices_length _ Pn) as Li. assert (i < length st)%nat by (apply nth_error_Some; congruence). lia. }
    destruct (nth_error (indices ns) i) as [o|] eqn:Eo; [|apply nth_error_None in Eo; lia].
    exists o. pose proof (indices_inside _ _ (nth_error_In _ _ Eo)) as Ho. pose proof (indices_pos _ _ _ Pn Eo) as Ep. split; [exact Ho|]. split; [exact Ep|].
    rewrite Ep, R in H by auto. congruence. }
  pose proof (each_slice_cases (fun pf => func (slice_vells x s pf) mask) st) as C.
  destruct (each_slice (fun pf => func (slice_vells x s pf) mask) st) as [r| |]; cbn [bind].
  - destruct C as [Lr C]. cbn [plain v_shape v_data v_flags]. split; [reflexivity|]. split; [split; [exact Pn|lia]|]. split; [reflexivity|].
    intros o Ho. destruct (C _ _ (R o Ho)) as (v & Fv' & Nv). eexists; exists v. split; [apply SL; exact Ho|]. auto.
  - destruct C as (i & a & H & F). destruct (Back _ _ H) as (o & Ho & _ & ->). exists o. eexists. split; [exact Ho|]. split; [apply SL; exact Ho|exact F].
  - destruct C as (i & a & H & F). destruct (Back _ _ H) as (o & Ho & _ & ->). exists o. eexists. split; [exact Ho|]. split; [apply SL; exact Ho|exact F].
Qed.
End Reduce.

(** the mean along axes: at each position the average of what is not flagged there *)
Lemma counted_slice : forall (V : Type) (x sl : vells V) n ks full o mask j, is_slice n ks full x o sl -> inside (along ks full) j -> counted sl mask j = counted x mask (merge n ks o j).
Proof.
  intros V x sl n ks full o mask j [_ Fl] Hj. unfold counted. destruct (v_flags x) as [[fs fd]|], (v_flags sl) as [[fs' fd']|]; try contradiction; [|reflexivity].
  destruct (mask =? 0); [reflexivity|]. destruct Fl as (_ & _ & Fl). unfold clear, flag_at. now rewrite Fl.
Qed.
Lemma value_slice : forall (V : Type) (dv : V) (x sl : vells V) n ks full o j, is_slice n ks full x o sl -> inside (along ks full) j -> value_at dv sl j = value_at dv x (merge n ks o j).
Proof. intros V dv x sl n ks full o j [(_ & _ & D) _] Hj. unfold value_at. now rewrite D. Qed.
Lemma slice_spreads : forall (V : Type) (x sl : vells V) n ks full o, is_slice n ks full x o sl -> spreads x full -> (length ks <= 8)%nat ->
  usable (v_shape sl) (v_data sl) /\ subshape (v_shape sl) (along ks full) /\ good_flags sl (along ks full).
Proof.
  intros V x sl n ks full o [(F & E & _) Fl] (_ & [_ Sv] & Fv) L.
  assert (forall s, length (along ks s) = length ks) as La by (intro; unfold along; now rewrite map_length).
  split; [split; [exact F|rewrite E, La; exact L]|]. split; [rewrite E; now apply along_sub|]. unfold good_flags.
  destruct (v_flags sl) as [[fs' fd']|]; [|exact Logic.I]. destruct (v_flags x) as [[fs fd]|]; [|contradiction]. destruct Fl as (Ff & Ef & _). destruct Fv as [_ [_ Sf]].
  split; [split; [exact Ff|rewrite Ef, La; exact L]|]. rewrite Ef. now apply along_sub.
Qed.
Lemma axes_few : forall ks, good_axes ks -> (length ks <= 8)%nat.
Proof.
  intros ks [ND F]. change 8%nat with (length (seq 0 8)). apply NoDup_incl_length; auto. intros k Hk. rewrite Forall_forall in F. specialize (F k Hk). apply in_seq. lia.
Qed.
Theorem mean_along_axes_partial : forall (x : vells Qc) mask full out ks, spreads x full -> proper full -> joint_shape x out -> good_axes ks ->
  (1 <= length ks <= length out)%nat -> trailing_in ks x ->
  exists r, reduced qmean (map Z.of_nat ks) x mask = Ok r /\ length (v_shape r) = length out /\ without ks out (v_shape r) /\ filled (v_shape r) (v_data r) /\
    forall o, inside (v_shape r) o ->
      let counting := filter (counted x mask) (map (merge (length out) ks o) (indices (along ks full))) in
      at_index (v_shape r) (v_data r) o = Some (match counting with
        | [] => Q2Qc 0
        | _ => (total Qcplus (Q2Qc 0) (value_at (Q2Qc 0) x) counting / qz (Z.of_nat (length counting)))%Qc end).
Proof.
  intros x mask full out ks Sp Pf J G L T.
  destruct (reduction_along_axes_partial qmean x mask full out ks Sp J G L T) as (ns & Ln & Pn & W & C).
  assert (forall o sl, is_slice (length out) ks full x o sl -> let counting := filter (counted x mask) (map (merge (length out) ks o) (indices (along ks full))) in
    qmean sl mask = Ok (match counting with [] => Q2Qc 0 | _ => (total Qcplus (Q2Qc 0) (value_at (Q2Qc 0) x) counting / qz (Z.of_nat (length counting)))%Qc end)) as M.
  { intros o sl Hs. cbv zeta. destruct (slice_spreads _ x sl _ ks full o Hs Sp (axes_few _ G)) as (U & Su & Gf).
    rewrite (mean_is_average sl (along ks full) mask U (along_proper _ _ Pf) Su Gf). cbv zeta. rewrite filter_map.
    rewrite (filter_ext_in' _ (counted sl mask) (fun j => counted x mask (merge (length out) ks o j))) by (intros j Hj; apply (counted_slice _ x sl _ ks full o mask j Hs); now apply indices_inside).
    set (js := filter _ _). rewrite total_map, map_length.
    rewrite (total_ext Qcplus (Q2Qc 0) _ (value_at (Q2Qc 0) sl) (fun j => value_at (Q2Qc 0) x (merge (length out) ks o j))).
    2:{ intros j Hj. apply (value_slice _ _ x sl _ ks full o j Hs). apply indices_inside. unfold js in Hj. apply filter_In in Hj. apply Hj. }
    destruct js; reflexivity. }
  unfold reduced. destruct (map Z.of_nat ks) as [|a l] eqn:Ek; [destruct ks; [cbn in L; lia|discriminate]|]. rewrite <- Ek in *.
  destruct (apply qmean (map Z.of_nat ks) x mask) as [r| |].
  - destruct C as (Sr & Fr & _ & At). exists r. split; [reflexivity|]. rewrite Sr. split; [exact Ln|]. split; [exact W|]. split; [exact Fr|].
    intros o Ho. destruct (At o Ho) as (sl & v & Hs & Ev & Av). cbv zeta. rewrite Av. specialize (M o sl Hs). cbv zeta in M. congruence.
  - destruct C as (o & sl & _ & Hs & E). specialize (M o sl Hs). cbv zeta in M. congruence.
  - destruct C as (o & sl & _ & Hs & E). specialize (M o sl Hs). cbv zeta in M. congruence.
Qed.
(** sums (or products) along axes of data that vary wherever they should, without flags: everything at that position is counted, also
    along axes that the data do not vary over *)
Section Sums.
Context {V : Type}.
Variable dv : V.
Variable op : V -> V -> V.
Variable e0 : V.
Hypothesis op_assoc : forall a b c, op a (op b c) = op (op a b) c.
Hypothesis op_comm : forall a b, op a b = op b a.
Hypothesis op_unit : forall a, op e0 a = a.
Notation times := (fun n v => nfold op e0 (Z.to_nat n) v).
Lemma slice_shape_product : forall ks full ns vs, without ks vs ns -> proper vs -> good_axes ks -> (forall k, ~ In k ks -> ext vs k = ext full k) ->
  product (slice_shape full ns) = product (along ks full).
Proof.
  clear. intros ks full ns vs W P [ND _] H. rewrite <- (zprod_members ks (length full) full (le_n _) ND). unfold slice_shape, zprod, product. f_equal. apply map_ext_in. intros k _.
  change (extent ns k) with (ext ns k). change (extent full k) with (ext full k). specialize (W k). pose proof (ext_pos _ P k).
  destruct (member k ks) eqn:M.
  - rewrite W. change (1 <? 1) with false. now rewrite andb_false_r.
  - apply member_not in M. rewrite (H k M) in W, H0. destruct (1 <? ext ns k) eqn:B.
    + destruct (Nat.ltb k (length ns)) eqn:K; [reflexivity|]. apply Nat.ltb_ge in K. rewrite ext_over in B by auto. discriminate.
    + apply Z.ltb_ge in B. rewrite andb_false_r. lia.
Qed.
Theorem sum_along_axes_partial : forall (x : vells V) mask full ks, spreads x full -> proper full -> v_flags x = None -> good_axes ks ->
  (1 <= length ks <= length (v_shape x))%nat -> trailing ks (v_shape x) -> (forall k, ~ In k ks -> ext (v_shape x) k = ext full k) ->
  exists r, reducedWS (reduceWS dv times op e0) (map Z.of_nat ks) x full mask = Ok r /\ length (v_shape r) = length (v_shape x) /\ without ks full (v_shape r) /\
    filled (v_shape r) (v_data r) /\
    forall o, inside (v_shape r) o ->
      at_index (v_shape r) (v_data r) o = Some (total op e0 (value_at dv x) (map (merge (length (v_shape x)) ks o) (indices (along ks full)))).
Proof.
  intros x mask full ks Sp Pf Nf G L T H.
  assert (joint_shape x (v_shape x)) as J by (unfold joint_shape; rewrite Nf; reflexivity).
  assert (trailing_in ks x) as T' by (split; [exact T|rewrite Nf; exact Logic.I]).
  unfold reducedWS. destruct (map Z.of_nat ks) as [|a l] eqn:Ek; [destruct ks; [cbn in L; lia|discriminate]|]. rewrite <- Ek in *. clear a l Ek.
  unfold applyWS. destruct (wf_facts x full (v_shape x) ks Sp J G ltac:(lia)) as (ns0 & st & Ei & _ & L0 & _ & W0 & _). cbv zeta in Ei. rewrite Ei. cbn [bind wf_ns].
  set (func := fun (v : vells V) (m : Z) => reduceWS dv times op e0 v (slice_shape full ns0) m).
  destruct (reduction_along_axes_partial func x mask full (v_shape x) ks Sp J G L T') as (ns & Ln & Pn & W & C).
  assert (proper (v_shape x)) as Pv by (destruct Sp as [[[P _] _] _]; exact P).
  assert (forall o sl, is_slice (length (v_shape x)) ks full x o sl ->
    func sl mask = Ok (total op e0 (value_at dv x) (map (merge (length (v_shape x)) ks o) (indices (along ks full))))) as M.
  { intros o sl Hs. destruct (slice_spreads _ x sl _ ks full o Hs Sp (axes_few _ G)) as (U & Su & Gf).
    assert (v_flags sl = None) as Nl by (destruct Hs as [_ Q]; rewrite Nf in Q; destruct (v_flags sl); [contradiction|reflexivity]).
    unfold func. transitivity (reduceWS dv times op e0 sl (along ks full) mask).
    { unfold reduceWS. now rewrite (slice_shape_product ks full ns0 (v_shape x) W0 Pv G H). }
    rewrite (reduction_over_shape_partial dv op e0 op_assoc op_comm op_unit sl (along ks full) mask U (along_proper _ _ Pf) Su Nl).
    f_equal. rewrite total_map. apply total_ext. intros j Hj. apply (value_slice _ _ x sl _ ks full o j Hs). now apply indices_inside. }
  destruct (apply func (map Z.of_nat ks) x mask) as [r| |].
  - destruct C as (Sr & Fr & _ & At). exists r. split; [reflexivity|]. rewrite Sr. split; [exact Ln|]. split; [|split; [exact Fr|]].
    + intro k. rewrite W. destruct (member k ks) eqn:Mk; [reflexivity|]. apply H. now apply member_not.
    + intros o Ho. destruct (At o Ho) as (sl & v & Hs & Ev & Av). rewrite Av. rewrite (M o sl Hs) in Ev. congruence.
  - destruct C as (o & sl & _ & Hs & E). rewrite (M o sl Hs) in E. discriminate.
  - destruct C as (o & sl & _ & Hs & E). rewrite (M o sl Hs) in E. discriminate.
Qed.
End Sums.

Print Assumptions flagged_slices.
Print Assumptions slices_partition.
Print Assumptions plain_slices.
Print Assumptions slices_same_axis_refuted.
Print Assumptions reduction_along_axes_partial.
Print Assumptions mean_along_axes_partial.
Print Assumptions sum_along_axes_partial.
