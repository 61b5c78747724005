(** Proofs for Red_Model: flags of reductions. *)
From Coq Require Import Sorted.
From Verif Require Import Base Vel_Model Vel_Spec Vel_Proofs Vel_Sums Fun_Flags Red_Model Red_Spec Red_Proofs Red_Slices Red_Init Red_Thms.
Local Open Scope Z_scope.

(** ** along axes *)
Lemma all_flagged_eq : forall l mask, Z.odd mask = true -> isAllFlagged l mask = if forallb (fun f => negb (f =? 0)) l then mask else 0.
Proof.
  intros l mask O. unfold isAllFlagged.
  assert (existsb (fun f => negb (Z.land (if f =? 0 then 1 else 0) mask =? 0)) l = negb (forallb (fun f => negb (f =? 0)) l)) as ->.
  { induction l as [|f l IH]; [reflexivity|]. cbn [existsb forallb]. rewrite IH. destruct (f =? 0); cbn [negb andb orb].
    - rewrite (proj2 (Z.eqb_neq (Z.land 1 mask) 0)); [reflexivity|]. intro H. assert (Z.testbit (Z.land 1 mask) 0 = true) as T by (rewrite Z.land_spec, !Z.bit0_odd, O; reflexivity).
      rewrite H in T. discriminate.
    - rewrite Z.land_0_l. reflexivity. }
  destruct (forallb _ l); reflexivity.
Qed.
Lemma fold_lor_zero : forall l z, fold_left Z.lor l z = 0 <-> z = 0 /\ Forall (fun x => x = 0) l.
Proof.
  induction l as [|x l IH]; intro z; cbn [fold_left]; [split; [auto|tauto]|]. rewrite IH, Z.lor_eq_0_iff, Forall_cons_iff. tauto.
Qed.
Lemma sl_loop_past : forall vs vst ks ns sd, Forall (fun k => (length vs <= k < 8)%nat) ks -> exists ds sd', sl_loop vs vst (map Z.of_nat ks) ns sd = Ok (ds, ns, sd').
Proof.
  induction ks as [|a ks IH]; intros ns sd F; [cbn; eauto|]. apply Forall_cons_iff in F as [Fa F]. cbn [map sl_loop]. rewrite axis_ok by lia. cbn [bind].
  rewrite (proj2 (Nat.ltb_ge _ _)) by lia. destruct (IH ns sd F) as (ds & sd' & E). rewrite E. cbn [bind]. eauto.
Qed.
Lemma sl_loop_rank : forall vs vst ks ns sd r, Forall (fun k => (k < 8)%nat) ks -> StronglySorted lt ks -> length ns = length vs ->
  sl_loop vs vst (map Z.of_nat ks) ns sd = Ok r -> (length vs <= S (length (snd (fst r))))%nat.
Proof.
  induction ks as [|a ks IH]; intros ns sd r F St L E; [cbn in E; injection E as <-; cbn; lia|]. apply Forall_cons_iff in F as [Fa F]. inversion St as [|x l St' Fl]; subst.
  cbn [map sl_loop] in E. rewrite axis_ok in E by auto. cbn [bind] in E. destruct (Nat.ltb a (length vs)) eqn:La.
  - apply Nat.ltb_lt in La. destruct (Nat.eqb (S a) (length ns)) eqn:S1.
    + apply Nat.eqb_eq in S1. destruct (sl_loop_past vs vst ks (firstn a ns) (fun i => if Nat.eqb i a then true else sd i)) as (ds & sd' & Q).
      { rewrite Forall_forall in *. intros k Hk. specialize (Fl k Hk). specialize (F k Hk). cbn beta in *. lia. }
      rewrite Q in E. cbn [bind] in E. injection E as <-. cbn. rewrite firstn_length. lia.
    + rewrite (proj2 (Nat.ltb_lt _ _)) in E by lia.
      destruct (sl_loop vs vst (map Z.of_nat ks) (set_nth a 1 ns) _) as [[[ds n'] sd']| |] eqn:Q; try discriminate. cbn [bind] in E. injection E as <-.
      apply IH in Q; auto. now rewrite set_nth_length.
  - destruct (sl_loop vs vst (map Z.of_nat ks) ns sd) as [[[ds n'] sd']| |] eqn:Q; try discriminate. cbn [bind] in E. injection E as <-. apply IH in Q; auto.
Qed.
Lemma sl_rank : forall s ks sl, good_axes ks -> StronglySorted lt ks -> sl_init s (map Z.of_nat ks) = Ok sl -> (length s <= S (length (sl_ns sl)))%nat.
Proof.
  intros s ks sl [_ F] St E. unfold sl_init in E. destruct (Nat.ltb (length s) (length (map Z.of_nat ks))); [discriminate|].
  destruct (sl_loop s (fst (src_strides s)) (map Z.of_nat ks) s (fun _ => false)) as [[[ds n'] sd']| |] eqn:Q; try discriminate. cbn [bind] in E. injection E as <-.
  apply sl_loop_rank in Q; auto.
Qed.
Lemma part_all : forall n ks s (d : list Z) o s' d', part_of n ks s s d o s' d' -> proper s ->
  forallb (fun f => negb (f =? 0)) d' = true <-> forall j, inside (along ks s) j -> flag_at s d (merge n ks o j) <> 0.
Proof.
  intros n ks s d o s' d' ((P' & L') & E & At) P. rewrite forallb_forall. subst s'. split.
  - intros H j Hj. unfold flag_at. rewrite <- At by auto. unfold at_index. pose proof (position_bound _ _ Hj) as B.
    destruct (nth_error d' (Z.to_nat (position (along ks s) j))) as [f|] eqn:N; [|apply nth_error_None in N; lia].
    specialize (H f (nth_error_In _ _ N)). apply negb_true_iff, Z.eqb_neq in H. exact H.
  - intros H f Hf. apply In_nth_error in Hf as (i & Hi). assert (i < length d')%nat by (apply nth_error_Some; congruence).
    pose proof (indices_length _ P') as Li. destruct (nth_error (indices (along ks s)) i) as [j|] eqn:Ej; [|apply nth_error_None in Ej; lia].
    pose proof (indices_inside _ _ (nth_error_In _ _ Ej)) as Hj. pose proof (indices_pos _ _ _ P' Ej) as Ep.
    specialize (H j Hj). unfold flag_at in H. rewrite <- At in H by auto. unfold at_index in H. rewrite <- Ep, Hi in H. apply negb_true_iff, Z.eqb_neq. exact H.
Qed.
Lemma part_plain : forall (d : list Z) s ks o ns, usable s d -> good_axes ks -> trailing ks s -> without ks s ns -> (length ns <= length s)%nat ->
  (forall k, (length ns <= k < length s)%nat -> member k ks = true) -> inside ns o ->
  part_of (length s) ks s s d o (along ks s) (stretch d (base s (length s) ks o) (sl_dims_of s ks)).
Proof.
  intros d s ks o ns [[P Ld] _] [ND F] T W Ln M Ho.
  assert (stretch d (base s (length s) ks o) (sl_dims_of s ks) = stretch d (base s (length s) ks o) (dims_of s (length s) ks)) as ->.
  { unfold stretch. now rewrite sl_dims_shape, dims_shape. }
  destruct (base_bound s (length s) ks o P (le_n _) ND) as (B0 & B1 & B2).
  { intros k Nk Hk E1. destruct (Nat.lt_ge_cases k (length ns)) as [H|H].
    - pose proof (coord_inside _ _ k Ho H) as C. rewrite W, (proj2 (member_not k ks) Nk) in C. exact C.
    - rewrite coord_over by (pose proof (inside_len _ _ Ho); lia). pose proof (ext_pos _ P k). lia. }
  split; [split; [now apply along_proper|]|split; [reflexivity|]].
  - rewrite stretch_length; rewrite ?dims_shape by auto; auto; lia.
  - intros j Hj. apply (stretch_merge Z d s (length s) ks o j s); auto.
Qed.

(** ** across children *)
Lemma at_full : forall full f idx, good full f -> inside full idx -> exists x, at_index (v_shape f) (v_data f) idx = Some x /\ In x (v_data f).
Proof.
  intros full f idx [[[P L] _] S1] Hi. destruct (restrict _ _ _ P S1 Hi) as (idx' & H1 & H2). pose proof (position_bound _ _ H1) as B.
  unfold at_index, position in *. rewrite (H2 (v_shape f) 0) by auto.
  destruct (nth_error (v_data f) (Z.to_nat (position_from 0 (v_shape f) idx'))) as [x|] eqn:E; [|apply nth_error_None in E; lia]. exists x. split; [reflexivity|]. eapply nth_error_In; eauto.
Qed.
Lemma mapped_at : forall (f : Z -> Z) s d idx, f 0 = 0 -> flag_at s (map f d) idx = f (flag_at s d idx).
Proof. intros f s d idx H. unfold flag_at, at_index. rewrite nth_error_map. destruct (nth_error d _); cbn; auto. Qed.
Lemma mapped_good : forall full s (f : Z -> Z) x, good full x -> s = v_shape x -> good full (plain s (map f (v_data x))).
Proof. intros full s f x [[[P L] R] S1] ->. split; [|exact S1]. cbn. split; [split; [exact P|now rewrite map_length]|exact R]. Qed.
(** a child's flags that count *)
Definition active (m : Z) (vs : option rchild) : option (vells Z) :=
  if m =? 0 then None else match vs with Some c => if rc_null c then None else rc_flags c | None => None end.
Definition hit (m : Z) (vs : option rchild) (idx : list Z) : bool :=
  match active m vs with Some fl => negb (Z.land (flag_at (v_shape fl) (v_data fl) idx) m =? 0) | None => false end.
Definition used (m : Z) (vs : option rchild) : Z := match active m vs with Some _ => m | None => 0 end.
Lemma rf_children_ok : forall full pvs masks i tot acc, length masks = length pvs -> (i + length pvs <= 31)%nat -> good full acc ->
  (forall m vs fl, In vs pvs -> active m vs = Some fl -> good full fl) ->
  exists acc', rf_children i masks pvs tot acc = Ok (fold_left Z.lor (map (fun mv => used (fst mv) (snd mv)) (combine masks pvs)) tot, acc') /\ good full acc' /\
    forall idx b, inside full idx -> Z.testbit (flag_at (v_shape acc') (v_data acc') idx) (Z.of_nat b) =
      Z.testbit (flag_at (v_shape acc) (v_data acc) idx) (Z.of_nat b) ||
      (Nat.leb i b && match nth_error (combine masks pvs) (b - i) with Some (m, vs) => hit m vs idx | None => false end).
Proof.
  induction pvs as [|vs pvs IH]; intros masks i tot acc Lm Li Ga G; destruct masks as [|m masks]; try discriminate.
  - exists acc. split; [reflexivity|]. split; [exact Ga|]. intros idx b _. cbn [combine]. destruct (b - i)%nat; cbn; now rewrite andb_false_r, orb_false_r.
  - injection Lm as Lm. cbn [length] in Li. cbn [rf_children combine map fold_left fst snd].
    fold (active m vs).
    assert (forall m vs fl, In vs pvs -> active m vs = Some fl -> good full fl) as G' by (intros m' vs' fl' H; apply (G m' vs'); now right).
    assert (forall (X : bool) idx b, (X || (Nat.leb (S i) b && match nth_error (combine masks pvs) (b - S i) with Some (m, vs) => hit m vs idx | None => false end) =
      if Nat.eqb b i then X else X || (Nat.leb i b && match nth_error ((m, vs) :: combine masks pvs) (b - i) with Some (m, vs) => hit m vs idx | None => false end))) as Shift.
    { intros X idx b. destruct (Nat.eqb_spec b i) as [->|Nb]; [rewrite (proj2 (Nat.leb_gt _ _)) by lia; apply orb_false_r|].
      destruct (Nat.leb_spec (S i) b); [rewrite (proj2 (Nat.leb_le _ _)) by lia; replace (b - i)%nat with (S (b - S i)) by lia; reflexivity|rewrite (proj2 (Nat.leb_gt _ _)) by lia; reflexivity]. }
    destruct (active m vs) as [fl|] eqn:A.
    + assert (used m vs = m) as -> by (unfold used; now rewrite A).
      assert (good full fl) as Gf by (apply (G m vs); [now left|exact A]). unfold bit. rewrite (proj2 (Nat.ltb_lt _ _)) by lia. cbn [bind].
      set (w := fun f => if f =? 0 then 0 else 2 ^ Z.of_nat i). unfold whereEq. cbn [unary plain v_data v_shape]. fold w.
      set (vf := plain (v_shape fl) (map w (map (fun f => Z.land f m) (v_data fl)))).
      assert (good full vf) as Gv by (unfold vf; rewrite map_map; apply mapped_good; auto).
      assert (forall idx, flag_at (v_shape vf) (v_data vf) idx = if hit m vs idx then 2 ^ Z.of_nat i else 0) as Av.
      { intro idx. unfold vf. cbn [plain v_shape v_data]. rewrite map_map, mapped_at by (rewrite Z.land_0_l; reflexivity). unfold hit, w. rewrite A. destruct (Z.land _ m =? 0); reflexivity. }
      set (code := if existsb (fun f => f =? 0) (map (fun f => Z.land f m) (v_data fl)) && negb (existsb (fun f => negb (f =? 0)) (map (fun f => Z.land f m) (v_data fl))) then 1
        else if existsb (fun f => negb (f =? 0)) (map (fun f => Z.land f m) (v_data fl)) && negb (existsb (fun f => f =? 0) (map (fun f => Z.land f m) (v_data fl))) then -1 else 0).
      assert (exists acc1, (if code =? 1 then rf_children (S i) masks pvs (Z.lor tot m) acc else bind (flagOr acc vf) (rf_children (S i) masks pvs (Z.lor tot m))) =
          rf_children (S i) masks pvs (Z.lor tot m) acc1 /\ good full acc1 /\
          forall idx, inside full idx -> flag_at (v_shape acc1) (v_data acc1) idx = Z.lor (flag_at (v_shape acc) (v_data acc) idx) (if hit m vs idx then 2 ^ Z.of_nat i else 0)) as (acc1 & E1 & G1 & A1).
      { destruct (code =? 1) eqn:C.
        - exists acc. split; [reflexivity|]. split; [exact Ga|]. intros idx Hi.
          assert (hit m vs idx = false) as ->; [|now rewrite Z.lor_0_r].
          unfold hit. rewrite A. unfold code in C.
          destruct (existsb (fun f => f =? 0) _ && negb (existsb (fun f => negb (f =? 0)) (map (fun f => Z.land f m) (v_data fl)))) eqn:C1.
          + apply andb_prop in C1 as [_ C1]. apply negb_true_iff in C1. destruct (at_full _ _ _ Gf Hi) as (x & Ax & Ix). unfold flag_at. rewrite Ax.
            destruct (negb (Z.land x m =? 0)) eqn:X; [|reflexivity]. exfalso. assert (existsb (fun f => negb (f =? 0)) (map (fun f => Z.land f m) (v_data fl)) = true) as Y; [|congruence].
            apply existsb_exists. exists (Z.land x m). split; [now apply (in_map (fun f => Z.land f m))|exact X].
          + destruct (_ && _) in C; discriminate.
        - destruct Ga as [U1 S1], Gv as [U2 S2]. destruct (flagOr_spread acc vf full U1 U2 S1 S2) as (acc1 & E & U & Sr & At). exists acc1. rewrite E. split; [reflexivity|]. split; [split; auto|].
          intros idx Hi. rewrite At by auto. now rewrite Av. }
      rewrite E1. destruct (IH masks (S i) (Z.lor tot m) acc1 Lm ltac:(lia) G1 G') as (acc' & E & Gr & At). exists acc'. split; [exact E|]. split; [exact Gr|].
      intros idx b Hi. rewrite At, A1, Z.lor_spec, Shift by auto. destruct (Nat.eqb_spec b i) as [->|Nb].
      * rewrite Nat.leb_refl, Nat.sub_diag. cbn [andb nth_error]. f_equal. destruct (hit m vs idx); [apply Z.pow2_bits_true; lia|apply Z.testbit_0_l].
      * f_equal. assert (Z.testbit (if hit m vs idx then 2 ^ Z.of_nat i else 0) (Z.of_nat b) = false) as ->; [|apply orb_false_r].
        destruct (hit m vs idx); [apply Z.pow2_bits_false; lia|apply Z.testbit_0_l].
    + assert (used m vs = 0) as -> by (unfold used; now rewrite A). rewrite Z.lor_0_r. destruct (IH masks (S i) tot acc Lm ltac:(lia) Ga G') as (acc' & E & Gr & At). exists acc'. split; [exact E|]. split; [exact Gr|].
      intros idx b Hi. rewrite At, Shift by auto. destruct (Nat.eqb_spec b i) as [->|Nb]; [|reflexivity].
      rewrite Nat.leb_refl, Nat.sub_diag. cbn [andb nth_error]. unfold hit. rewrite A. now rewrite orb_false_r.
Qed.
Lemma ones_iff : forall n x, (forall b, (n <= b)%nat -> Z.testbit x (Z.of_nat b) = false) ->
  (x = 2 ^ Z.of_nat n - 1 <-> forall b, (b < n)%nat -> Z.testbit x (Z.of_nat b) = true).
Proof.
  intros n x H. replace (2 ^ Z.of_nat n - 1) with (Z.ones (Z.of_nat n)) by (rewrite Z.ones_equiv; lia). split.
  - intros -> b Hb. apply Z.ones_spec_low. lia.
  - intros K. apply Z.bits_inj'. intros b Hb. replace b with (Z.of_nat (Z.to_nat b)) by lia. destruct (Nat.lt_ge_cases (Z.to_nat b) n) as [L|L].
    + rewrite K by auto. symmetry. apply Z.ones_spec_low. lia.
    + rewrite H by auto. symmetry. apply Z.ones_spec_high. lia.
Qed.
Lemma used_zero : forall l z, fold_left Z.lor (map (fun mv : Z * option rchild => used (fst mv) (snd mv)) l) z = 0 -> forall m vs idx, In (m, vs) l -> hit m vs idx = false.
Proof.
  intros l z H m vs idx Hin. apply fold_lor_zero in H as [_ H]. rewrite Forall_map, Forall_forall in H. specialize (H _ Hin). cbn in H.
  unfold hit, used, active in *. destruct (m =? 0) eqn:M; [reflexivity|]. apply Z.eqb_neq in M. destruct (match vs with Some c => _ | None => None end); [contradiction|reflexivity].
Qed.
Lemma used_all : forall l z idx, (forall m vs, In (m, vs) l -> hit m vs idx = true) ->
  fold_left Z.lor (map (fun mv : Z * option rchild => used (fst mv) (snd mv)) l) z = fold_left Z.lor (map fst l) z.
Proof.
  induction l as [|[m vs] l IH]; intros z idx H; [reflexivity|]. cbn [map fold_left fst snd].
  assert (used m vs = m) as ->. { specialize (H m vs (or_introl eq_refl)). unfold hit, used in *. destruct (active m vs); [reflexivity|discriminate]. }
  apply (IH _ idx). intros. apply H. now right.
Qed.
