(** Theorems about tensors of VellSets: Transpose, Selector, Paster and Composer. *)
From Verif Require Import Base Poll_Model Poll_Proofs Vel_Model Fun_Model Tns_Model Tns_Spec Tns_Proofs Tns_Slice.

Section Tensors.
Context {V P F : Type}.
Notation tres := (tres V P F).
Notation vset := (vset V P F).
Notation composing := (@composing V P F).
Variable conj : V -> V.
Variable bad_index : list F.

(** ** Results *)
(** A Result that is made for given dimensions has a VellSet per index, all of them empty; a copy of it has the same dimensions, except for a
    tensor of rank two and up with a single element. *)
Theorem result_dims_sound d : 1 <= prod d -> (prod d = 1 -> length d <= 1) ->
  sound (result_dims d : tres) /\ t_dims (result_dims d : tres) = (if Nat.eqb (prod d) 1 then [] else d) /\
  forall ix, within (t_dims (result_dims d : tres)) ix -> elem (result_dims d : tres) ix = Some (VData no_data).
Proof.
  intros Pd H1. unfold result_dims, new_vec. rewrite !volume_prod. cbn [t_dims].
  assert (L : Nat.max (prod d) 1 = prod d) by lia. rewrite L.
  assert (S : sound ({| t_vs := repeat (VData no_data) (prod d); t_dims := if prod d =? 1 then [] else d;
                        t_field := if 1 <? length d then Some d else None |} : tres)).
  { unfold sound. cbn [t_vs t_dims t_field]. rewrite repeat_length. split; [apply length_pos; rewrite repeat_length; lia|].
    destruct (Nat.eqb_spec (prod d) 1) as [E|E].
    - specialize (H1 E). rewrite E. cbn [length]. rewrite (proj2 (Nat.ltb_ge 1 (length d)) H1). repeat split; cbn; lia.
    - repeat split. intros _. lia. }
  split; [exact S|]. split; [reflexivity|]. intros ix W. unfold elem. cbn [t_vs t_dims].
  assert (L2 : place (if prod d =? 1 then [] else d) ix < prod d).
  { apply place_lt in W. destruct (Nat.eqb_spec (prod d) 1) as [E|E]; [rewrite E; exact W|exact W]. }
  rewrite (nth_error_nth' _ (VData no_data)) by (rewrite repeat_length; exact L2). f_equal. apply nth_repeat.
Qed.
(** The comment in Result.h:88-89 says that a Result with a single VellSet has rank 0 always.  A copy of it need not. *)
Theorem scalar_rank_refuted : exists r r' : tres, r = result_dims [1; 1] /\ rank r = 0 /\ clone r = Ok r' /\ numVellSets r' = 1 /\ rank r' = 2.
Proof. exists (result_dims [1; 1]). eexists. repeat split. Qed.

(** ** Transpose *)
Lemma conjugate_correct (v : vset) : tidy v -> conjugate_of conj v (conjugate conj v).
Proof.
  destruct v as [l|d]; cbn; [reflexivity|]. intros T. destruct (d_value d) as [x|]; cbn; [|reflexivity].
  repeat split. destruct (d_spids d) as [|s ss] eqn:Es.
  - revert T. generalize (d_psets d). intros l T. induction T as [|p l T0 T IH]; constructor; [|exact IH].
    split; [reflexivity|]. apply length_zero_iff_nil in T0. rewrite T0. constructor.
  - clear T. generalize (d_psets d). intros l. induction l as [|p l IH]; constructor; [|exact IH]. split; [reflexivity|]. cbn.
    induction (ps_val p); constructor; auto.
Qed.
Lemma transpose_split tensor c (ch : tres) r b : transposed tensor ch = Ok (r, b) -> sound r ->
  transpose conj tensor c ch = Ok (if c then with_vs r (map (conjugate conj) (t_vs r)) else r).
Proof.
  intros E S. unfold transpose. rewrite E. cbn [bind]. destruct c; [|reflexivity].
  replace (if b then Ok r else clone r) with (Ok r) by (destruct b; [reflexivity|now rewrite clone_sound]). reflexivity.
Qed.
Lemma sound_map f (r : tres) : sound r -> sound (with_vs r (map f (t_vs r))).
Proof.
  intros (N & L & E & W). unfold sound, with_vs. cbn [t_vs t_dims t_field]. rewrite map_length. repeat split; auto.
  destruct (t_vs r); [easy|discriminate].
Qed.
Lemma corresponds_map c (l : list vset) n x : Forall tidy l -> nth_error l n = x ->
  corresponds conj c x (nth_error (if c then map (conjugate conj) l else l) n).
Proof.
  intros T E. destruct c.
  - rewrite nth_error_map, E. destruct x as [v|]; [|exact I]. cbn. apply conjugate_correct.
    rewrite Forall_forall in T. apply T. eapply nth_error_In, E.
  - rewrite E. destruct x; cbn; auto.
Qed.
Lemma if_vs (c : bool) (r : tres) f : t_vs (if c then with_vs r (f (t_vs r)) else r) = if c then f (t_vs r) else t_vs r.
Proof. now destruct c. Qed.
Lemma if_dims (c : bool) (r : tres) l : t_dims (if c then with_vs r l else r) = t_dims r.
Proof. now destruct c. Qed.

(** Element (..., i, j) of the transpose is element (..., j, i) of the argument, conjugated if so asked.  Rows of length one
    are left out of the dimensions when there is one row: then the last axis but one goes.  In tensor mode, a matrix of one column is left
    alone. *)
Theorem transpose_elements tensor c (ch : tres) d nx ny :
  sound ch -> Forall tidy (t_vs ch) -> t_dims ch = d ++ [nx; ny] -> (d = [] -> tensor = true -> ny <> 1) ->
  exists r, transpose conj tensor c ch = Ok r /\ sound r /\ length (t_vs r) = length (t_vs ch) /\
    t_dims r = (if Nat.eqb nx 1 then if Nat.eqb (prod (t_dims ch)) 1 then [] else d ++ [ny] else d ++ [ny; nx]) /\
    forall jx i j, within d jx -> i < ny -> j < nx ->
      corresponds conj c (elem ch (jx ++ [j; i])) (nth_error (t_vs r) (place (d ++ [ny; nx]) (jx ++ [i; j]))).
Proof.
  intros S T D C. destruct (transposed_matrix tensor ch d nx ny S D C) as (vs & E & S' & L & H).
  rewrite (transpose_split _ c _ _ _ E S'). eexists. split; [reflexivity|].
  pose proof (sound_length _ S) as Lc. pose proof (sound_pos _ S) as Pos.
  assert (PL : prod (d ++ [ny; nx]) = prod (t_dims ch)) by (rewrite D, !prod_app, !prod_two; lia).
  split; [destruct c; [now apply sound_map|exact S']|].
  split; [rewrite if_vs; cbn [shaped t_vs]; destruct c; rewrite ?map_length; lia|].
  split.
  - rewrite if_dims. cbn [shaped t_dims]. unfold flipped. destruct (Nat.eqb_spec nx 1) as [->|N1]; [|reflexivity].
    unfold squeezed. replace (prod (d ++ [ny])) with (prod (t_dims ch)) by (rewrite D, !prod_app, prod_two, prod_one; lia).
    destruct (Nat.ltb_spec 1 (prod (t_dims ch))), (Nat.eqb_spec (prod (t_dims ch)) 1); try lia; reflexivity.
  - intros jx i j W Hi Hj. rewrite if_vs. apply corresponds_map; [|now apply H].
    (* every element of vs is one of ch *)
    apply Forall_forall. intros v I. apply In_nth_error in I as (p & Ep). cbn [shaped t_vs] in Ep.
    assert (Hp : p < prod (d ++ [ny; nx])) by (rewrite <- L; apply nth_error_Some; congruence).
    destruct (place_surj _ _ Hp) as (ix & Wx & <-).
    apply Forall2_app_inv_r in Wx as (ix1 & ix2 & W1 & W2 & ->).
    inversion W2 as [|i' ? ? ? Hi' W3]; subst. inversion W3 as [|j' ? ? ? Hj' W4]; subst. inversion W4; subst.
    rewrite (H ix1 i' j' W1 Hi' Hj') in Ep. unfold elem in Ep. rewrite Forall_forall in T. apply T. eapply nth_error_In, Ep.
Qed.
(** A vector becomes a matrix of one row, and stays as it is in tensor mode; nothing happens to a scalar. *)
Theorem transpose_vector tensor c (ch : tres) n : sound ch -> Forall tidy (t_vs ch) -> t_dims ch = [n] ->
  exists r, transpose conj tensor c ch = Ok r /\ sound r /\ t_dims r = (if tensor then [n] else [1; n]) /\
    forall i, i < n -> corresponds conj c (elem ch [i]) (elem r (if tensor then [i] else [0; i])).
Proof.
  intros S T D. pose proof (sound_length _ S) as L. rewrite D, prod_one in L.
  assert (N1 : 1 < n) by (rewrite <- L; destruct S as (_ & _ & _ & W); apply W; now rewrite D).
  assert (E : exists b, transposed tensor ch = Ok (if tensor then ch else shaped (t_vs ch) [1; n], b)).
  { unfold transposed. rewrite D. cbn [rev app]. destruct tensor; [now exists false|]. exists true.
    rewrite (clone_sound _ S). cbn [bind]. unfold numVellSets. rewrite L. rewrite setDims_ok; [|apply (sound_vs _ S)|rewrite prod_two; lia].
    unfold squeezed. replace (prod [1; n]) with n by (rewrite prod_two; lia). apply Nat.ltb_lt in N1. now rewrite N1. }
  destruct E as (b & E).
  assert (S' : sound (if tensor then ch else shaped (t_vs ch) [1; n])).
  { destruct tensor; [exact S|]. apply shaped_sound; [apply (sound_vs _ S)|rewrite prod_two; lia|cbn; lia]. }
  rewrite (transpose_split _ c _ _ _ E S'). eexists. split; [reflexivity|].
  split; [destruct c; [now apply sound_map|exact S']|]. split; [rewrite if_dims; now destruct tensor|].
  intros i Hi. unfold elem at 2. rewrite if_dims, if_vs.
  replace (t_vs (if tensor then ch else shaped (t_vs ch) [1; n])) with (t_vs ch) by now destruct tensor.
  replace (place _ _) with i; [apply corresponds_map; auto; unfold elem; rewrite D; f_equal; cbn; lia|].
  destruct tensor; [rewrite D|]; cbn; lia.
Qed.
Theorem transpose_scalar tensor (ch : tres) : t_dims ch = [] -> transpose conj tensor false ch = Ok ch.
Proof. intros D. unfold transpose, transposed. now rewrite D. Qed.

(** Transposing twice gives the Result itself, if neither of the last two axes has length one. *)
Theorem transpose_twice tensor c (ch : tres) d nx ny : (forall x, conj (conj x) = x) ->
  sound ch -> t_dims ch = d ++ [nx; ny] -> nx <> 1 -> ny <> 1 ->
  exists r, transpose conj tensor c ch = Ok r /\ transpose conj tensor c r = Ok ch.
Proof.
  intros CC S D Nx Ny.
  destruct (transposed_matrix tensor ch d nx ny S D ltac:(auto)) as (vs & E & S' & L & H).
  unfold flipped in E, S'. rewrite (proj2 (Nat.eqb_neq nx 1) Nx) in E, S'.
  rewrite (transpose_split _ c _ _ _ E S'). eexists. split; [reflexivity|].
  set (r := if c then _ else _).
  assert (Sr : sound r) by (unfold r; destruct c; [now apply sound_map|exact S']).
  assert (Dr : t_dims r = d ++ [ny; nx]) by (unfold r; rewrite if_dims; reflexivity).
  destruct (transposed_matrix tensor r d ny nx Sr Dr ltac:(auto)) as (ws & E2 & S2 & L2 & H2).
  unfold flipped in E2, S2. rewrite (proj2 (Nat.eqb_neq ny 1) Ny) in E2, S2.
  rewrite (transpose_split _ c _ _ _ E2 S2). f_equal.
  assert (K : ws = if c then map (conjugate conj) (t_vs ch) else t_vs ch).
  { apply nth_ext_lt; [destruct c; rewrite ?map_length, (sound_length _ S), D; lia|].
    intros p Hp. rewrite L2 in Hp. destruct (place_surj _ _ Hp) as (ix & Wx & <-).
    apply Forall2_app_inv_r in Wx as (ix1 & ix2 & W1 & W2 & ->).
    inversion W2 as [|i' ? ? ? Hi' W3]; subst. inversion W3 as [|j' ? ? ? Hj' W4]; subst. inversion W4; subst.
    rewrite (H2 ix1 i' j' W1 Hi' Hj'). unfold elem. rewrite Dr. unfold r. rewrite if_vs. cbn [shaped t_vs].
    specialize (H ix1 j' i' W1 Hj' Hi'). unfold elem in H. rewrite D in H.
    destruct c; [rewrite !nth_error_map|]; now rewrite H. }
  destruct c.
  - assert (Inv : forall v : vset, conjugate conj (conjugate conj v) = v).
    { intros [l|v]; cbn; [reflexivity|]. destruct (d_value v) as [x|] eqn:Ev; cbn; [|now rewrite Ev].
      destruct v as [dv df ds dp]; cbn in *. subst dv. f_equal. f_equal; [now rewrite CC|].
      destruct ds; [reflexivity|]. rewrite map_map. rewrite <- (map_id dp) at 2. apply map_ext. intros [pp pv]. cbn. f_equal.
      rewrite map_map. rewrite <- (map_id pv) at 2. apply map_ext. exact CC. }
    rewrite (sound_shaped ch S), D. unfold with_vs, shaped. cbn [t_vs t_dims t_field]. f_equal.
    rewrite K, map_map. rewrite <- (map_id (t_vs ch)) at 2. apply map_ext. exact Inv.
  - rewrite (sound_shaped ch S), D, K. reflexivity.
Qed.
(** But for one row in a tensor of rank three an axis is lost, and transposing again swaps other axes. *)
Theorem transpose_twice_refuted (v : vset) : exists ch r r' : tres, sound ch /\ t_dims ch = [2; 1; 3] /\
  transpose conj false false ch = Ok r /\ transpose conj false false r = Ok r' /\ t_dims r = [2; 3] /\ t_dims r' = [3; 2].
Proof.
  exists (shaped (repeat v 6) [2; 1; 3]), (shaped (repeat v 6) [2; 3]), (shaped (repeat v 6) [3; 2]).
  split; [apply shaped_sound; [discriminate|reflexivity|discriminate]|]. repeat match goal with |- _ /\ _ => split end; vm_compute; reflexivity.
Qed.
(** And a column vector that has rank two comes back with rank one. *)
Theorem transpose_column_refuted (v : vset) : exists ch r r' : tres, sound ch /\ t_dims ch = [2; 1] /\
  transpose conj false false ch = Ok r /\ transpose conj false false r = Ok r' /\ t_dims r = [1; 2] /\ t_dims r' = [2].
Proof.
  exists (shaped (repeat v 2) [2; 1]), (shaped (repeat v 2) [1; 2]), (shaped (repeat v 2) [2]).
  split; [apply shaped_sound; [discriminate|reflexivity|discriminate]|]. repeat match goal with |- _ /\ _ => split end; vm_compute; reflexivity.
Qed.

(** ** Selector *)
Lemma isFail_failed (v : vset) : isFail v = true <-> failed v.
Proof. unfold failed. destruct v; cbn; split; intros H; try discriminate; eauto. now destruct H. Qed.
Lemma isEmpty_without (v : vset) : isEmpty v = true <-> without_data v.
Proof.
  unfold without_data. destruct v as [l|d]; cbn.
  - split; [intros _; left; now exists l|reflexivity].
  - split.
    + intros H. right. exists d. destruct (d_value d), (d_spids d); try discriminate. auto.
    + intros [(l & H)|(d' & H & A & B)]; [discriminate|]. injection H as <-. now rewrite A, B.
Qed.
Lemma forallb_iff {A} (f : A -> bool) (Q : A -> Prop) l : (forall x, f x = true <-> Q x) -> forallb f l = true <-> Forall Q l.
Proof. intros H. rewrite forallb_forall, Forall_forall. split; intros K x I; apply H, K, I. Qed.
Lemma code_tells (l : list vset) : tells_state l (code_of l).
Proof.
  unfold tells_state, code_of.
  pose proof (forallb_iff isFail failed l isFail_failed) as A. pose proof (forallb_iff isEmpty without_data l isEmpty_without) as B.
  assert (RES_FAIL <> RES_MISSING /\ RES_FAIL <> 0 /\ RES_MISSING <> 0)%Z as (R1 & R2 & R3) by (repeat split; discriminate).
  destruct (forallb isFail l).
  - assert (FA : Forall failed l) by now apply A.
    split; [split; auto|]. split; [|auto]. split; [intros H; now destruct R1|]. intros [_ H]. contradiction.
  - assert (NA : ~ Forall failed l) by (intros H; apply A in H; discriminate).
    destruct (forallb isEmpty l).
    + assert (FB : Forall without_data l) by now apply B.
      split; [split; [intros H; symmetry in H; contradiction|contradiction]|]. split; [|auto]. split; auto.
    + assert (NB : ~ Forall without_data l) by (intros H; apply B in H; discriminate).
      split; [split; [intros H; symmetry in H; contradiction|contradiction]|]. split; [|auto].
      split; [intros H; symmetry in H; contradiction|]. intros [H _]. contradiction.
Qed.

Lemma result_n_length n : 1 <= n -> length (t_vs (result_n n : tres)) = n.
Proof. intros H. destruct n as [|n]; [lia|]. unfold result_n, new_vec. cbn [t_vs]. rewrite repeat_length. lia. Qed.
(** Selecting VellSets by their number *)
Theorem select_numbers multi sel (ch : tres) : sel <> [] -> multi = true \/ length sel = 1 ->
  exists r code, select bad_index multi sel ch = Ok (r, code) /\ sound r /\ length (t_vs r) = length sel /\ tells_state (t_vs r) code /\
    forall i s, nth_error sel i = Some s ->
      nth_error (t_vs r) i = if Z.ltb s 0 || Z.leb (Z.of_nat (length (t_vs ch))) s then Some (VFail bad_index) else nth_error (t_vs ch) (Z.to_nat s).
Proof.
  intros N M. unfold select. destruct sel as [|s0 sel0]; [easy|]. set (sel := s0 :: sel0) in *.
  replace (multi || (length sel =? 1)) with true by (destruct M as [->|E]; [reflexivity|apply Nat.eqb_eq in E; now rewrite E, orb_true_r]).
  set (g := fun s => if Z.ltb s 0 || Z.leb (Z.of_nat (length (t_vs ch))) s then VFail bad_index else nth (Z.to_nat s) (t_vs ch) (VData no_data)).
  assert (L0 : length (t_vs (result_n (length sel) : tres)) = length sel) by (apply result_n_length; cbn; lia).
  assert (N0 : t_vs (result_n (length sel) : tres) <> []) by (apply length_pos; rewrite L0; cbn; lia).
  unfold enum. rewrite (over_ext _ (fun is out => setVellSet (fst is) (g (snd is)) out)).
  2:{ intros [i s] out _. unfold select_one, g, numVellSets. cbn [fst snd].
      destruct (Z.ltb_spec s 0); cbn [orb]; [reflexivity|]. destruct (Z.leb_spec (Z.of_nat (length (t_vs ch))) s); [reflexivity|].
      rewrite (vellSet_nth ch (Z.to_nat s) (nth (Z.to_nat s) (t_vs ch) (VData no_data))); [reflexivity|]. apply nth_error_nth'. lia. }
  rewrite (over_put _ g); [|reflexivity|exact N0|lia]. cbn [bind].
  rewrite put_from_all by (rewrite map_length; lia). set (r := with_vs _ _).
  exists r, (code_of (t_vs r)).
  assert (Lr : length (t_vs r) = length sel) by (unfold r; cbn [with_vs t_vs]; now rewrite map_length).
  split; [|split; [|split; [exact Lr|split; [apply code_tells|]]]].
  - do 2 f_equal. f_equal. apply firstn_all2. lia.
  - unfold sound. unfold r, with_vs. cbn [t_vs t_dims t_field]. rewrite map_length. split; [apply length_pos; rewrite map_length; cbn; lia|].
    cbn [result_n sel length t_dims t_field]. destruct sel0 as [|s1 sel1].
    + cbn. repeat split; lia.
    + cbn [length Nat.ltb Nat.leb]. rewrite prod_one. repeat split; cbn; lia.
  - intros i s E. unfold r. cbn [with_vs t_vs]. rewrite nth_error_map, E. cbn [option_map]. unfold g.
    destruct (Z.ltb_spec s 0); cbn [orb]; [reflexivity|]. destruct (Z.leb_spec (Z.of_nat (length (t_vs ch))) s); [reflexivity|].
    symmetry. apply nth_error_nth'. lia.
Qed.

Lemma copying (ch : tres) offs (r : tres) : (forall o, In o offs -> o < length (t_vs ch)) -> length (t_vs r) = length offs -> t_vs r <> [] ->
  over (copy_from ch) (enum offs) r = Ok (with_vs r (map (fun o => nth o (t_vs ch) (VData no_data)) offs)).
Proof.
  intros H L N. unfold enum. rewrite (over_ext _ (fun io out => setVellSet (fst io) (nth (snd io) (t_vs ch) (VData no_data)) out)).
  - rewrite (over_put _ (fun o => nth o (t_vs ch) (VData no_data))); [|reflexivity|exact N|lia].
    rewrite put_from_all; [reflexivity|]. rewrite map_length. lia.
  - intros [i o] out I. unfold copy_from. cbn [fst snd]. rewrite (vellSet_nth ch o (nth o (t_vs ch) (VData no_data))); [reflexivity|].
    apply nth_error_nth', H. eapply in_combine_r, I.
Qed.
(** what the walk over a slice does when it goes right *)
Lemma slice_walk d sel : selects d sel -> Forall (fun n => 1 <= n) d -> lone_slice d sel -> Exists sliced sel ->
  exists x n st, slicing_of d sel = Ok x /\ s_rank x <> 0 /\ slice_shape x = slice_dims d sel /\ 1 <= n /\
    prod (slice_dims d sel) = n /\ slice_offsets x = map (fun i => s_offset x + i * st) (seq 0 n) /\
    (forall jx, within (slice_dims d sel) jx -> place d (source sel jx) = s_offset x + place (slice_dims d sel) jx * st /\ place d (source sel jx) < prod d) /\
    (forall i, i < n -> exists jx, within (slice_dims d sel) jx /\ place (slice_dims d sel) jx = i).
Proof.
  intros Hs Hp Hl Hx. pose proof (selects_length _ _ Hs) as L.
  destruct (slicing_cut d sel Hs) as (x & E & E1 & E2 & E3 & E4 & E5 & E6 & E7).
  destruct (cut_split d sel Hx L) as (c & n & st & C). pose proof (lone_prefix _ _ _ _ L Hl C) as O.
  assert (SD : slice_dims d sel = map a_shp c ++ [n]) by (rewrite slice_dims_cut, C, map_app; reflexivity).
  assert (Pn : prod (slice_dims d sel) = n) by (rewrite SD, prod_app, prod_ones, prod_one by (now apply Forall_shp); lia).
  assert (Hn : 1 <= n).
  { pose proof (slice_dims_pos d sel Hp) as G.
    rewrite SD in G. apply Forall_app in G as [_ G]. now apply Forall_cons_iff in G as [G _]. }
  exists x, n, st. split; [exact E|]. split; [rewrite E3, C, app_length; cbn; lia|].
  assert (Sh : slice_shape x = slice_dims d sel) by (unfold slice_shape; now rewrite E4, slice_dims_cut).
  split; [exact Sh|]. split; [exact Hn|]. split; [exact Pn|].
  split.
  - unfold slice_offsets. rewrite volume_prod, Sh, Pn. rewrite E5, E6, slice_dims_cut, C. rewrite (map_app a_cnt). cbn [map a_cnt].
    apply offsets_row; [now rewrite map_length|lia].
  - split.
    + intros jx W. assert (B : place d (source sel jx) < prod d) by (apply place_lt, within_source; auto).
      split; [|exact B]. rewrite SD in W. destruct (within_ones _ _ _ (Forall_shp _ O) W) as (i & Hi & ->).
      rewrite SD, place_zeros. rewrite map_length, (cut_place _ _ _ _ _ i C), E7. reflexivity.
    + intros i Hi. apply place_surj. lia.
Qed.
(** Slices of tensors: with one axis sliced, or several of which all but the last have one element, the Selector gives the slice. *)
Theorem select_slice sel (ch : tres) : sound ch -> 1 < length sel -> selects (t_dims ch) sel -> lone_slice (t_dims ch) sel ->
  exists r code, select bad_index false sel ch = Ok (r, code) /\ slice_of ch sel r /\ tells_state (t_vs r) code /\
    (prod (slice_dims (t_dims ch) sel) <> 1 \/ length (slice_dims (t_dims ch) sel) <= 1 -> sound r).
Proof.
  intros S L1 Hs Hl. pose proof (selects_length _ _ Hs) as L.
  pose proof (prod_pos _ (sound_pos _ S)) as Hp. pose proof (sound_length _ S) as Lc.
  unfold select. destruct sel as [|s0 sel0]; [cbn in L1; lia|]. set (sel := s0 :: sel0) in *.
  replace (false || (length sel =? 1)) with false by (symmetry; cbn [orb]; apply Nat.eqb_neq; lia).
  unfold rank. rewrite <- L, Nat.eqb_refl. cbn [negb].
  destruct (Exists_dec sliced sel (fun x => Z_lt_dec x 0)) as [Hx|Hx].
  - destruct (slice_walk _ _ Hs Hp Hl Hx) as (x & n & st & E & Er & Sh & Hn & Pn & Eo & Hpl & Hsurj).
    rewrite E. cbn [bind]. destruct (s_rank x) as [|k]; [easy|]. rewrite Sh, Eo.
    assert (Bound : forall o, In o (map (fun i => s_offset x + i * st) (seq 0 n)) -> o < length (t_vs ch)).
    { intros o I. apply in_map_iff in I as (i & <- & I). apply in_seq in I. destruct (Hsurj i) as (jx & W & <-); [lia|].
      destruct (Hpl _ W) as [<- B]. lia. }
    rewrite copying.
    2:{ exact Bound. }
    2:{ rewrite map_length, seq_length. cbn [result_dims t_vs]. unfold new_vec. rewrite repeat_length, volume_prod, Pn. lia. }
    2:{ cbn [result_dims t_vs]. unfold new_vec. apply length_pos. rewrite repeat_length. lia. }
    cbn [bind]. set (r := with_vs _ _).
    assert (Lr : length (t_vs r) = n) by (unfold r; cbn [with_vs t_vs]; now rewrite !map_length, seq_length).
    exists r, (code_of (t_vs r)). split; [|split; [|split; [apply code_tells|]]].
    + do 2 f_equal. f_equal. apply firstn_all2. rewrite volume_prod, Pn. lia.
    + unfold slice_of. split; [unfold r; cbn [with_vs t_dims result_dims]; now rewrite volume_prod|]. split; [lia|].
      intros jx W. pose proof (place_lt _ _ W) as B. rewrite Pn in B. destruct (Hpl _ W) as [E1 B1].
      unfold r. cbn [with_vs t_vs]. rewrite map_map, nth_error_map.
      rewrite (nth_error_nth' (seq 0 n) 0) by (rewrite seq_length; exact B). rewrite seq_nth by exact B. cbn [option_map Nat.add].
      unfold elem. rewrite E1. symmetry. apply nth_error_nth'. lia.
    + intros Sd. unfold sound, r. cbn [with_vs t_vs t_dims t_field result_dims]. rewrite volume_prod, !map_length, seq_length.
      split; [apply length_pos; rewrite !map_length, seq_length; exact Hn|]. rewrite Pn in *.
      destruct (Nat.eqb_spec n 1) as [->|Nn].
      * split; [reflexivity|]. split; [|cbn; lia]. cbn [length Nat.ltb]. destruct Sd as [Sd|Sd]; [lia|]. now rewrite (proj2 (Nat.ltb_ge _ _) Sd).
      * split; [congruence|]. split; [reflexivity|]. intros _. lia.
  - (* one element *)
    destruct (slicing_cut _ _ Hs) as (x & E & _ & _ & E3 & _ & _ & _ & E7).
    apply (cut_nil _ _ L) in Hx. rewrite Hx in E3. rewrite E. cbn [bind]. rewrite E3. cbn [length].
    assert (SD : slice_dims (t_dims ch) sel = []) by (rewrite slice_dims_cut, Hx; reflexivity).
    assert (W : within (t_dims ch) (source sel [])) by (apply within_source; auto; rewrite SD; constructor).
    pose proof (place_lt _ _ W) as B.
    assert (Ev : nth_error (t_vs ch) (s_offset x) = Some (nth (s_offset x) (t_vs ch) (VData no_data))) by (apply nth_error_nth'; lia).
    rewrite (vellSet_nth _ _ _ Ev). cbn [bind]. rewrite setVellSet_ok; [|discriminate|cbn; lia]. cbn [bind].
    eexists _, _. split; [reflexivity|]. split; [|split; [apply code_tells|]].
    + unfold slice_of. rewrite SD. split; [reflexivity|]. split; [reflexivity|]. intros jx Wj. inversion Wj; subst.
      cbn [t_vs]. unfold elem. rewrite <- E7, Ev. reflexivity.
    + intros _. unfold sound. cbn. repeat split; try discriminate; lia.
Qed.
(** With two axes of more than one element sliced, the Selector never gives the slice (it gives other VellSets, or throws), as long as the
    VellSets can be told apart. *)
Theorem select_slice_wrong sel (ch : tres) : sound ch -> NoDup (t_vs ch) -> 1 < length sel -> selects (t_dims ch) sel -> ~ lone_slice (t_dims ch) sel ->
  forall r code, select bad_index false sel ch = Ok (r, code) -> ~ slice_of ch sel r.
Proof.
  intros S ND L1 Hs Hl r code Hsel Hsl. pose proof (selects_length _ _ Hs) as L.
  pose proof (prod_pos _ (sound_pos _ S)) as Hp. pose proof (sound_length _ S) as Lc.
  unfold select in Hsel. destruct sel as [|s0 sel0]; [cbn in L1; lia|]. set (sel := s0 :: sel0) in *.
  replace (false || (length sel =? 1)) with false in Hsel by (symmetry; cbn [orb]; apply Nat.eqb_neq; lia).
  unfold rank in Hsel. rewrite <- L, Nat.eqb_refl in Hsel. cbn [negb] in Hsel.
  assert (Hx : Exists sliced sel).
  { destruct (Exists_dec sliced sel (fun x => Z_lt_dec x 0)) as [X|X]; [exact X|]. exfalso. apply Hl, lone_without; auto. now apply cut_nil. }
  destruct (slicing_cut _ _ Hs) as (x & E & E1 & E2 & E3 & E4 & E5 & E6 & E7).
  destruct (cut_split _ _ Hx L) as (c & n & st & C).
  rewrite E in Hsel. cbn [bind] in Hsel.
  assert (SD : slice_dims (t_dims ch) sel = map a_shp c ++ [n]) by (rewrite slice_dims_cut, C, map_app; reflexivity).
  assert (Sh : slice_shape x = slice_dims (t_dims ch) sel) by (unfold slice_shape; now rewrite E4, slice_dims_cut).
  assert (Gp : Forall (fun n => 1 <= n) (slice_dims (t_dims ch) sel)) by now apply slice_dims_pos.
  assert (Hn : 1 <= n) by (rewrite SD in Gp; apply Forall_app in Gp as [_ G]; now apply Forall_cons_iff in G as [G _]).
  assert (Hst : 1 <= st) by exact (cut_stride _ _ _ _ _ _ Hp C).
  destruct (wrong_place _ _ _ _ _ Hs Hp Hl C Hn) as (jx & so & W & Pl & Ps & Hc).
  assert (Wr : within (t_dims ch) (source sel jx)) by (apply within_source; auto).
  pose proof (place_lt _ _ Wr) as Bx. rewrite Ps in Bx.
  pose proof (place_lt _ _ W) as Bn. rewrite Pl in Bn.
  destruct (s_rank x) as [|k] eqn:Ek; [rewrite C, app_length in E3; cbn in E3; lia|].
  assert (On : nth_error (slice_offsets x) n = Some (s_offset x + n * st + fst (fst (carry c (map a_cnt c))))).
  { unfold slice_offsets. rewrite volume_prod, Sh, Ek, E5, E6, slice_dims_cut, C, (map_app a_cnt). cbn [map a_cnt].
    apply offsets_next; [now rewrite map_length|exact Hn|]. rewrite <- C, <- slice_dims_cut. exact Bn. }
  set (o := s_offset x + n * st + _) in On.
  (* the loop has read that place *)
  assert (Key : forall offs r0 r', t_vs r0 <> [] -> length (t_vs r0) = length offs -> over (copy_from ch) (enum offs) r0 = Ok r' ->
     forall i o, nth_error offs i = Some o -> o < length (t_vs ch) /\ nth_error (t_vs r') i = nth_error (t_vs ch) o).
  { clear. intros offs r0 r' N0 L0 Hov.
    assert (A : forall o, In o offs -> o < length (t_vs ch)).
    { clear N0 L0. unfold enum in Hov. revert Hov. generalize 0 as k. revert r0. induction offs as [|o offs IH]; intros r0 k Hov o' I; [easy|].
      cbn [length seq combine over] in Hov. unfold copy_from in Hov at 1. cbn [fst snd] in Hov.
      destruct (vellSet ch o) as [v| |] eqn:Ev; cbn [bind] in Hov; try discriminate.
      destruct (setVellSet k v r0) as [r1| |]; cbn [bind] in Hov; try discriminate.
      destruct I as [<-|I]; [|eapply IH; eassumption]. apply vellSet_ok in Ev. apply nth_error_Some. congruence. }
    rewrite (copying ch offs r0 A L0 N0) in Hov. injection Hov as <-. intros i o E. pose proof (A o (nth_error_In _ _ E)) as B. split; [exact B|].
    cbn [with_vs t_vs]. rewrite nth_error_map, E. cbn [option_map]. symmetry. now apply nth_error_nth'. }
  destruct (over (copy_from ch) _ _) as [r0| |] eqn:Eov; cbn [bind] in Hsel; try discriminate.
  injection Hsel as <- _.
  assert (N0 : t_vs (result_dims (slice_shape x) : tres) <> []).
  { cbn [result_dims t_vs]. unfold new_vec. apply length_pos. rewrite repeat_length. lia. }
  assert (L0 : length (t_vs (result_dims (slice_shape x) : tres)) = length (slice_offsets x)).
  { unfold slice_offsets. rewrite offsets_length. cbn [result_dims t_vs]. unfold new_vec. rewrite repeat_length, volume_prod, Sh. lia. }
  destruct (Key _ _ _ N0 L0 Eov n o On) as [Bo En].
  destruct Hsl as (_ & _ & Hel). specialize (Hel jx W). rewrite Pl, En in Hel. unfold elem in Hel. rewrite Ps in Hel.
  assert (Eq : o = place (t_dims ch) (source sel []) + so).
  { rewrite NoDup_nth_error in ND. apply ND; [exact Bo|exact Hel]. }
  unfold o in Eq. rewrite E7 in Eq. nia.
Qed.
Lemma selects_dec : forall d sel, selects d sel \/ ~ selects d sel.
Proof.
  induction d as [|n d IH]; intros [|s sel]; [left; constructor|right; intros H; inversion H|right; intros H; inversion H|].
  destruct (IH sel) as [H|H]; [|right; intros K; inversion K; subst; contradiction].
  destruct (Z_lt_dec s (Z.of_nat n)); [left; constructor; auto|right; intros K; inversion K; subst; contradiction].
Qed.
(** A number that is too large for its axis, or a selection whose length is not the rank, is refused. *)
Theorem select_refused sel (ch : tres) : 1 < length sel -> ~ selects (t_dims ch) sel -> select bad_index false sel ch = Err.
Proof.
  intros L1 Hs. unfold select. destruct sel as [|s0 sel0]; [cbn in L1; lia|]. set (sel := s0 :: sel0) in *.
  replace (false || (length sel =? 1)) with false by (symmetry; cbn [orb]; apply Nat.eqb_neq; lia).
  unfold rank. destruct (Nat.eqb_spec (length (t_dims ch)) (length sel)) as [L|L]; [|reflexivity]. cbn [negb].
  replace (slicing_of (t_dims ch) sel) with (@Err slicing); [reflexivity|]. symmetry. clear - L Hs.
  revert L Hs. generalize (t_dims ch), sel. intros d. induction d as [|n d IH]; intros [|s sel'] L Hs; try discriminate L.
  - exfalso. apply Hs. constructor.
  - cbn in L. injection L as L. cbn [slicing_of].
    destruct (selects_dec d sel') as [H|H].
    + destruct (slicing_cut d sel' H) as (x & E & _). rewrite E. cbn [bind].
      destruct (Z.leb_spec (Z.of_nat n) s); [reflexivity|]. exfalso. apply Hs. constructor; [lia|exact H].
    + rewrite (IH sel' L H). reflexivity.
Qed.

(** ** Paster *)
Lemma enum_nth {A} : forall (l : list A) k i a, In (i, a) (combine (seq k (length l)) l) <-> k <= i /\ nth_error l (i - k) = Some a.
Proof.
  induction l as [|x l IH]; intros k i a; cbn [length seq combine].
  - split; [easy|]. intros [_ H]. destruct (i - k); discriminate.
  - cbn [In]. rewrite IH. split.
    + intros [E|[H1 H2]]; [injection E as <- <-; split; [lia|now rewrite Nat.sub_diag]|]. split; [lia|].
      replace (i - k) with (S (i - S k)) by lia. exact H2.
    + intros [H1 H2]. destruct (Nat.eq_dec i k) as [->|N]; [left; rewrite Nat.sub_diag in H2; cbn in H2; congruence|]. right. split; [lia|].
      replace (i - k) with (S (i - S k)) in H2 by lia. exact H2.
Qed.
Lemma in_enum {A} (l : list A) i a : In (i, a) (enum l) <-> nth_error l i = Some a.
Proof. unfold enum. rewrite enum_nth, Nat.sub_0_r. split; [now intros [_ H]|]. intros H. split; [lia|exact H]. Qed.
Lemma map_snd_enum {A B} (f : A -> B) l : map (fun x => f (snd x)) (enum l) = map f l.
Proof.
  unfold enum. generalize 0. induction l as [|x l IH]; intros k; [reflexivity|]. cbn [length seq combine map snd]. f_equal. apply IH.
Qed.
Lemma belongs_source : forall d sel jx, selects d sel -> belongs sel (source sel jx).
Proof.
  intros d sel jx H. revert jx. induction H as [|s n sel d Hs H IH]; intros jx; cbn [source]; [constructor|].
  constructor; [|apply IH]. destruct (Z.ltb_spec s 0); [now left|]. right. lia.
Qed.
Lemma sound_with (r : tres) vs : sound r -> length vs = length (t_vs r) -> sound (with_vs r vs).
Proof.
  intros (N & L & E & W) Lv. unfold sound, with_vs. cbn [t_vs t_dims t_field]. repeat split; auto; [|lia|intros K; rewrite Lv; auto].
  apply length_pos. rewrite Lv. now apply length_pos.
Qed.
(** Pasting into a slice: the slice becomes the pasted Result, all else stays. *)
Theorem paste_slice sel (into ch : tres) : sound into -> 1 < length sel -> selects (t_dims into) sel -> lone_slice (t_dims into) sel ->
  t_dims ch = slice_dims (t_dims into) sel -> length (t_vs ch) = prod (slice_dims (t_dims into) sel) ->
  exists r, paste false sel into ch = Ok r /\ sound r /\ t_dims r = t_dims into /\
    (forall jx, within (slice_dims (t_dims into) sel) jx -> elem r (source sel jx) = elem ch jx) /\
    forall ix, within (t_dims into) ix -> ~ belongs sel ix -> elem r ix = elem into ix.
Proof.
  intros S L1 Hs Hl Dc Lc. pose proof (selects_length _ _ Hs) as L.
  pose proof (prod_pos _ (sound_pos _ S)) as Hp. pose proof (sound_length _ S) as Li.
  unfold paste. destruct sel as [|s0 sel0]; [cbn in L1; lia|]. set (sel := s0 :: sel0) in *.
  replace (false || (length sel =? 1)) with false by (symmetry; cbn [orb]; apply Nat.eqb_neq; lia).
  unfold rank. rewrite <- L, Nat.eqb_refl. cbn [negb].
  destruct (Exists_dec sliced sel (fun x => Z_lt_dec x 0)) as [Hx|Hx].
  - destruct (slice_walk _ _ Hs Hp Hl Hx) as (x & n & st & E & Er & Sh & Hn & Pn & Eo & Hpl & Hsurj).
    rewrite E. cbn [bind]. destruct (s_rank x) as [|k]; [easy|]. rewrite Sh, Dc.
    destruct (list_eq_dec Nat.eq_dec _ _) as [_|X]; [|easy]. cbn [negb]. rewrite (clone_sound _ S), Eo. cbn [bind]. rewrite Pn in Lc.
    set (offs := map (fun i => s_offset x + i * st) (seq 0 n)).
    assert (Io : forall i o, In (i, o) (enum offs) <-> i < n /\ o = s_offset x + i * st).
    { intros i o. rewrite in_enum. unfold offs. rewrite nth_error_map. split.
      - intros H. destruct (nth_error (seq 0 n) i) as [j|] eqn:Ej; [|discriminate]. injection H as <-.
        assert (Hi : i < n) by (rewrite <- (seq_length n 0); apply nth_error_Some; congruence). split; [exact Hi|].
        rewrite (nth_error_nth' _ 0) in Ej by (rewrite seq_length; exact Hi). rewrite seq_nth in Ej by exact Hi. cbn in Ej. congruence.
      - intros [Hi ->]. rewrite (nth_error_nth' _ 0) by (rewrite seq_length; exact Hi). now rewrite seq_nth. }
    assert (Bd : forall i, i < n -> s_offset x + i * st < length (t_vs into)).
    { intros i Hi. destruct (Hsurj i Hi) as (jx & W & <-). destruct (Hpl _ W) as [<- B]. lia. }
    assert (St : n = 1 \/ 1 <= st).
    { destruct (Nat.eq_dec n 1) as [->|Nn]; [now left|right]. destruct st as [|st]; [exfalso|lia].
      destruct (Hsurj 0) as (j0 & W0 & P0); [lia|]. destruct (Hsurj 1) as (j1 & W1 & P1); [lia|].
      destruct (Hpl _ W0) as [Q0 _]. destruct (Hpl _ W1) as [Q1 _]. rewrite Nat.mul_0_r in Q0, Q1. rewrite <- Q0 in Q1.
      apply place_inj in Q1; [|apply within_source; auto|apply within_source; auto].
      destruct (cut_split _ _ Hx L) as (c & n' & st' & C). pose proof (lone_prefix _ _ _ _ L Hl C) as O.
      assert (SD : slice_dims (t_dims into) sel = map a_shp c ++ [n']) by (rewrite slice_dims_cut, C, map_app; reflexivity).
      rewrite SD in W0, W1, P0, P1.
      destruct (within_ones _ _ _ (Forall_shp _ O) W0) as (i0 & Hi0 & ->). destruct (within_ones _ _ _ (Forall_shp _ O) W1) as (i1 & Hi1 & ->).
      rewrite place_zeros in P0, P1. subst i0 i1. rewrite map_length in Q1.
      pose proof (cut_place _ _ _ _ _ 0 C) as A0. pose proof (cut_place _ _ _ _ _ 1 C) as A1.
      rewrite <- Q1 in A0. pose proof (cut_stride _ _ _ _ _ _ Hp C). lia. }
    destruct (over_scatter (paste_to ch) (fun io => snd io) (fun io => nth (fst io) (t_vs ch) (VData no_data)) (length (t_vs into)) (enum offs) into) as (vs & E' & Lv & H1 & H2).
    { intros [i o] r I _. apply Io in I as [Hi ->]. unfold paste_to. cbn [fst snd].
      rewrite (vellSet_nth ch i (nth i (t_vs ch) (VData no_data))); [reflexivity|]. apply nth_error_nth'. lia. }
    { intros [i o] I. apply Io in I as [Hi ->]. cbn [snd]. now apply Bd. }
    { rewrite (map_snd_enum (fun o => o)), map_id. unfold offs. apply NoDup_map_inj; [apply seq_NoDup|].
      intros a b Ia Ib Eab. apply in_seq in Ia, Ib. nia. }
    { reflexivity. } { apply (sound_vs _ S). }
    rewrite E'. exists (with_vs into vs). split; [reflexivity|]. split; [now apply sound_with|]. split; [reflexivity|]. split.
    + intros jx W. destruct (Hpl _ W) as [Q B]. pose proof (place_lt _ _ W) as Bj. rewrite Pn in Bj.
      unfold elem. cbn [with_vs t_vs t_dims]. rewrite Q. specialize (H1 (place (slice_dims (t_dims into) sel) jx, s_offset x + place (slice_dims (t_dims into) sel) jx * st)).
      cbn [fst snd] in H1. rewrite H1 by (apply Io; split; [exact Bj|reflexivity]). rewrite Dc. symmetry. apply nth_error_nth'. lia.
    + intros ix W NB. unfold elem. cbn [with_vs t_vs t_dims]. apply H2. intros I. apply NB.
      rewrite (map_snd_enum (fun o => o)), map_id in I. unfold offs in I. apply in_map_iff in I as (i & Ei & I). apply in_seq in I.
      destruct (Hsurj i) as (jx & Wj & <-); [lia|]. destruct (Hpl _ Wj) as [Q _]. rewrite <- Q in Ei.
      apply place_inj in Ei; [|apply within_source; auto|exact W]. subst ix. eapply belongs_source, Hs.
  - destruct (slicing_cut _ _ Hs) as (x & E & _ & _ & E3 & _ & _ & _ & E7).
    apply (cut_nil _ _ L) in Hx. rewrite Hx in E3. rewrite E. cbn [bind]. rewrite E3. cbn [length].
    assert (SD : slice_dims (t_dims into) sel = []) by (rewrite slice_dims_cut, Hx; reflexivity). rewrite SD in *.
    cbn in Lc. unfold numVellSets. rewrite Lc. cbn [Nat.eqb negb].
    destruct (t_vs ch) as [|v [|? ?]] eqn:Ev; try discriminate Lc. rewrite (vellSet_nth ch 0 v) by now rewrite Ev.
    cbn [bind]. rewrite (clone_sound _ S). cbn [bind].
    assert (W : within (t_dims into) (source sel [])) by (apply within_source; auto; rewrite SD; constructor).
    pose proof (place_lt _ _ W) as B.
    rewrite setVellSet_ok; [|apply (sound_vs _ S)|lia]. exists (with_vs into (put_at (t_vs into) (s_offset x) v)).
    split; [reflexivity|]. split; [apply sound_with; [exact S|apply put_at_length; lia]|]. split; [reflexivity|]. split.
    + intros jx Wj. inversion Wj; subst. unfold elem. cbn [with_vs t_vs t_dims]. rewrite E7, nth_put_same by lia. now rewrite Dc, Ev.
    + intros ix Wi NB. unfold elem. cbn [with_vs t_vs t_dims]. apply nth_put_other; [lia|]. intros Ei. apply NB.
      rewrite E7 in Ei. apply place_inj in Ei; auto. subst ix. eapply belongs_source, Hs.
Qed.
(** So selecting what has been pasted gives it back. *)
Theorem paste_select sel (into ch : tres) : sound into -> sound ch -> 1 < length sel -> selects (t_dims into) sel -> lone_slice (t_dims into) sel ->
  t_dims ch = slice_dims (t_dims into) sel -> prod (t_dims ch) <> 1 \/ t_dims ch = [] ->
  exists r code, paste false sel into ch = Ok r /\ select bad_index false sel r = Ok (ch, code).
Proof.
  intros S Sc L1 Hs Hl Dc Nc.
  destruct (paste_slice sel into ch S L1 Hs Hl Dc) as (r & E & Sr & Dr & H1 & _); [rewrite <- Dc; apply (sound_length _ Sc)|].
  destruct (select_slice sel r Sr L1) as (r' & code & E' & Sl & _ & Sr'); try now rewrite Dr.
  exists r, code. split; [exact E|]. rewrite E'. do 2 f_equal. rewrite Dr, <- Dc in *.
  destruct Sl as (D' & L' & H'). rewrite Dr, <- Dc in *.
  assert (Srr : sound r') by (apply Sr'; destruct Nc as [Nc|Nc]; [now left|right; rewrite Nc; cbn; lia]).
  assert (Dd : t_dims r' = t_dims ch) by (rewrite D'; destruct Nc as [Nc|Nc]; [now rewrite (proj2 (Nat.eqb_neq _ 1) Nc)|now rewrite Nc]).
  rewrite (sound_shaped r' Srr), (sound_shaped ch Sc), Dd. f_equal.
  apply nth_ext_lt; [rewrite L', (sound_length _ Sc); reflexivity|].
  intros p Hp. rewrite L' in Hp. destruct (place_surj _ _ Hp) as (jx & W & <-). rewrite (H' jx W). now apply H1.
Qed.
(** And pasting a slice back where it has been selected changes nothing, *)
Theorem select_paste sel (into : tres) : sound into -> 1 < length sel -> selects (t_dims into) sel -> lone_slice (t_dims into) sel ->
  prod (slice_dims (t_dims into) sel) <> 1 \/ slice_dims (t_dims into) sel = [] ->
  exists r code, select bad_index false sel into = Ok (r, code) /\ paste false sel into r = Ok into.
Proof.
  intros S L1 Hs Hl Nc.
  destruct (select_slice sel into S L1 Hs Hl) as (r & code & E & (D & L & H) & _ & _). exists r, code. split; [exact E|].
  assert (Dd : t_dims r = slice_dims (t_dims into) sel) by (rewrite D; destruct Nc as [Nc|Nc]; [now rewrite (proj2 (Nat.eqb_neq _ 1) Nc)|now rewrite Nc]).
  destruct (paste_slice sel into r S L1 Hs Hl Dd L) as (r' & E' & S' & D' & H1 & H2). rewrite E'. f_equal.
  rewrite (sound_shaped r' S'), (sound_shaped into S), D'. f_equal.
  apply nth_ext_lt; [rewrite (sound_length _ S'), (sound_length _ S), D'; reflexivity|].
  intros p Hp. rewrite (sound_length _ S'), D' in Hp. destruct (place_surj _ _ Hp) as (ix & W & <-).
  assert (Dec : belongs sel ix \/ ~ belongs sel ix).
  { clear. revert ix. induction sel as [|s sel IH]; intros [|i ix]; [left; constructor|right; intros H; inversion H|right; intros H; inversion H|].
    destruct (IH ix) as [H|H]; [|right; intros K; inversion K; subst; contradiction].
    destruct (Z_lt_dec s 0); [left; constructor; auto; now left|]. destruct (Z.eq_dec s (Z.of_nat i)); [left; constructor; auto|].
    right. intros K. inversion K; subst. unfold sliced in *. tauto. }
  destruct Dec as [B|B].
  - assert (exists jx, within (slice_dims (t_dims into) sel) jx /\ source sel jx = ix) as (jx & Wj & <-).
    { clear - W B. revert W. generalize (t_dims into). intros d W. revert d W. induction B as [|s i sel ix Hs B IH]; intros d W; inversion W as [|i' n ix' d' Hi Wx]; subst.
      - exists []. split; [constructor|reflexivity].
      - destruct (IH _ Wx) as (jx & Wj & <-). cbn [slice_dims source]. destruct (Z.ltb_spec s 0) as [K|K].
        + exists (i :: jx). split; [constructor; auto|reflexivity].
        + destruct Hs as [Hs|Hs]; [unfold sliced in Hs; lia|]. destruct (slice_dims d' sel) as [|m l] eqn:Sd.
          * inversion Wj; subst. exists []. split; [constructor|]. cbn [tl]. f_equal. lia.
          * exists (0 :: jx). split; [constructor; [lia|exact Wj]|]. cbn [tl]. f_equal. lia. }
    pose proof (H1 jx Wj) as Q. unfold elem in Q. rewrite D', Dd in Q. rewrite Q. now apply H.
  - specialize (H2 ix W B). unfold elem in H2. rewrite D' in H2. exact H2.
Qed.
(** except for a slice along an axis of one element: the Selector gives a Result without dimensions, and the Paster wants one of dimension one. *)
Theorem select_paste_refuted (v w : vset) : exists into r code, sound into /\ t_dims into = [1; 2] /\
  select bad_index false [-1; 0]%Z into = Ok (r, code) /\ t_vs r = [v] /\ paste false [-1; 0]%Z into r = Err.
Proof.
  exists (shaped [v; w] [1; 2]), {| t_vs := [v]; t_dims := []; t_field := None |}, (code_of [v]).
  split; [apply shaped_sound; [discriminate|reflexivity|discriminate]|]. repeat split.
Qed.
(** Pasting by number *)
Theorem paste_numbers multi sel (into ch : tres) : sound into -> sel <> [] -> multi = true \/ length sel = 1 ->
  NoDup sel -> Forall (fun s => 0 <= s < Z.of_nat (length (t_vs into)))%Z sel -> length (t_vs ch) = length sel ->
  exists r, paste multi sel into ch = Ok r /\ sound r /\ t_dims r = t_dims into /\
    (forall i s, nth_error sel i = Some s -> nth_error (t_vs r) (Z.to_nat s) = nth_error (t_vs ch) i) /\
    forall p, ~ In (Z.of_nat p) sel -> nth_error (t_vs r) p = nth_error (t_vs into) p.
Proof.
  intros S N M ND R Lc. unfold paste. destruct sel as [|s0 sel0]; [easy|]. set (sel := s0 :: sel0) in *.
  replace (multi || (length sel =? 1)) with true by (destruct M as [->|E]; [reflexivity|apply Nat.eqb_eq in E; now rewrite E, orb_true_r]).
  unfold numVellSets. rewrite Lc, Nat.eqb_refl. cbn [negb]. rewrite (clone_sound _ S). cbn [bind].
  rewrite Forall_forall in R.
  destruct (over_scatter (paste_one ch) (fun io => Z.to_nat (snd io)) (fun io => nth (fst io) (t_vs ch) (VData no_data)) (length (t_vs into)) (enum sel) into) as (vs & E' & Lv & H1 & H2).
  { intros [i s] r I Lr. apply in_enum in I. unfold paste_one, numVellSets. rewrite Lr. cbn [fst snd].
    pose proof (R s (nth_error_In _ _ I)) as B. rewrite (proj2 (Z.ltb_ge s 0)), (proj2 (Z.leb_gt _ s)) by lia. cbn [orb].
    rewrite (vellSet_nth ch i (nth i (t_vs ch) (VData no_data))); [reflexivity|]. apply nth_error_nth'. rewrite Lc. apply nth_error_Some. congruence. }
  { intros [i s] I. apply in_enum in I. cbn [snd]. pose proof (R s (nth_error_In _ _ I)). lia. }
  { rewrite (map_snd_enum Z.to_nat). apply NoDup_map_inj; [exact ND|]. intros a b Ia Ib Eab. pose proof (R _ Ia). pose proof (R _ Ib). lia. }
  { reflexivity. } { apply (sound_vs _ S). }
  rewrite E'. exists (with_vs into vs). split; [reflexivity|]. split; [now apply sound_with|]. split; [reflexivity|]. split.
  - intros i s E. cbn [with_vs t_vs]. specialize (H1 (i, s)). cbn [fst snd] in H1. rewrite H1 by now apply in_enum.
    symmetry. apply nth_error_nth'. rewrite Lc. apply nth_error_Some. congruence.
  - intros p NI. cbn [with_vs t_vs]. apply H2. rewrite (map_snd_enum Z.to_nat). intros I. apply in_map_iff in I as (s & Es & I).
    apply NI. pose proof (R _ I). subst p. now rewrite Z2Nat.id by lia.
Qed.
(** Pasting is refused when sizes or shapes differ, or a number is out of range. *)
Theorem paste_refused multi sel (into ch : tres) : sound into -> sel <> [] ->
  (if multi || Nat.eqb (length sel) 1 then length (t_vs ch) <> length sel \/ Exists (fun s => s < 0 \/ Z.of_nat (length (t_vs into)) <= s)%Z sel
   else ~ selects (t_dims into) sel \/ (Exists sliced sel /\ t_dims ch <> slice_dims (t_dims into) sel) \/ (~ Exists sliced sel /\ length (t_vs ch) <> 1)) ->
  paste multi sel into ch = Err.
Proof.
  intros S N H. unfold paste. destruct sel as [|s0 sel0]; [easy|]. set (sel := s0 :: sel0) in *. unfold numVellSets, rank.
  destruct (multi || (length sel =? 1)).
  - destruct (Nat.eqb_spec (length (t_vs ch)) (length sel)) as [L|L]; [|reflexivity]. cbn [negb].
    destruct H as [H|H]; [contradiction|]. rewrite (clone_sound _ S). cbn [bind].
    (* every put before the wrong number succeeds *)
    assert (G : forall l k (r : tres), length (t_vs r) = length (t_vs into) -> k + length l = length (t_vs ch) ->
      Exists (fun s => s < 0 \/ Z.of_nat (length (t_vs into)) <= s)%Z l -> over (paste_one ch) (combine (seq k (length l)) l) r = Err).
    { induction l as [|s l IH]; intros k r Lr Lk Ex; [inversion Ex|]. cbn [length seq combine over]. unfold paste_one at 1. unfold numVellSets. rewrite Lr.
      cbn [length] in Lk. destruct (Z.ltb_spec s 0); cbn [orb]; [reflexivity|]. destruct (Z.leb_spec (Z.of_nat (length (t_vs into))) s); [reflexivity|].
      rewrite (vellSet_nth ch k (nth k (t_vs ch) (VData no_data))) by (apply nth_error_nth'; lia). cbn [bind].
      rewrite setVellSet_ok; [|apply length_pos; rewrite Lr; apply length_pos, (sound_vs _ S)|lia]. cbn [bind]. apply IH.
      - cbn [t_vs]. rewrite put_at_length; lia.
      - lia.
      - apply Exists_cons in Ex as [Ex|Ex]; [lia|exact Ex]. }
    apply G; auto.
  - destruct (Nat.eqb_spec (length (t_dims into)) (length sel)) as [L|L]; [|reflexivity]. cbn [negb].
    destruct (selects_dec (t_dims into) sel) as [Hs|Hs].
    + destruct (slicing_cut _ _ Hs) as (x & E & _ & _ & E3 & E4 & _ & _ & _). rewrite E. cbn [bind].
      symmetry in L. destruct H as [H|[[Hx H]|[Hx H]]]; [contradiction| |].
      * destruct (s_rank x) as [|k] eqn:Ek; [exfalso; apply (cut_nil _ _ L); [|exact Hx]; symmetry in E3; now apply length_zero_iff_nil in E3|].
        unfold slice_shape. rewrite Ek, E4, <- slice_dims_cut. destruct (list_eq_dec Nat.eq_dec _ _); [contradiction|reflexivity].
      * apply (cut_nil _ _ L) in Hx. rewrite E3, Hx. cbn [length]. now rewrite (proj2 (Nat.eqb_neq _ 1) H).
    + assert (X : slicing_of (t_dims into) sel = Err).
      { clear - L Hs. revert L Hs. generalize (t_dims into), sel. intros d. induction d as [|n d IH]; intros [|s sel'] L Hs; try discriminate L.
        - exfalso. apply Hs. constructor.
        - cbn in L. injection L as L. cbn [slicing_of]. destruct (selects_dec d sel') as [H|H].
          + destruct (slicing_cut d sel' H) as (x & E & _). rewrite E. cbn [bind].
            destruct (Z.leb_spec (Z.of_nat n) s); [reflexivity|]. exfalso. apply Hs. constructor; [lia|exact H].
          + rewrite (IH sel' L H). reflexivity. }
      now rewrite X.
Qed.

(** ** Composer *)
Definition count (f : vset -> bool) (l : list vset) : nat := length (filter f l).
Definition lost (v : vset) : bool := negb (isFail v) && isEmpty v.
Lemma appending : forall l (o : composing), t_vs (o_res o) <> [] -> o_ires o <= length (t_vs (o_res o)) ->
  over append_vs l o = Ok {| o_res := with_vs (o_res o) (put_from (t_vs (o_res o)) (o_ires o) l); o_ires := o_ires o + length l;
                             o_fails := o_fails o + count isFail l; o_missing := o_missing o + count lost l |}.
Proof.
  induction l as [|v l IH]; intros o N L.
  - cbn [over]. rewrite put_from_nil. destruct o as [r a b c]. cbn in *. f_equal. unfold count. cbn. f_equal; [now destruct r|lia|lia|lia].
  - cbn [over]. unfold append_vs at 1. rewrite setVellSet_ok by assumption. cbn [bind].
    rewrite IH; cbn [o_res o_ires o_fails o_missing t_vs].
    + f_equal. unfold with_vs. cbn [t_vs t_dims t_field]. rewrite put_from_cons by exact L. unfold count. cbn [filter]. unfold lost.
      f_equal; [cbn; lia|destruct (isFail v); cbn; lia|destruct (negb (isFail v) && isEmpty v); cbn; lia].
    + apply put_at_nonempty.
    + unfold put_at. rewrite app_length, firstn_length. cbn [length]. lia.
Qed.
Lemma compose_plain_all : forall cs (o : composing), over compose_plain cs o = over append_vs (all_vs cs) o.
Proof.
  induction cs as [|c cs IH]; intros o; [reflexivity|]. cbn [over]. unfold all_vs. cbn [map concat]. rewrite over_app. unfold compose_plain at 1.
  destruct (over append_vs (t_vs c) o); cbn [bind]; auto.
Qed.
Lemma count_all f (l : list vset) (Q : vset -> Prop) : (forall v, f v = true <-> Q v) -> count f l = length l <-> Forall Q l.
Proof.
  intros H. unfold count. induction l as [|v l IH]; [split; [constructor|reflexivity]|]. cbn [filter]. rewrite Forall_cons_iff, <- (H v).
  assert (B : forall l, length (filter f l) <= length l) by (clear; induction l as [|v l IH]; cbn; [lia|destruct (f v); cbn; lia]).
  specialize (B l). destruct (f v); cbn [length]; split; intros K.
  - split; [reflexivity|]. apply IH. lia.
  - destruct K as [_ K]. apply IH in K. lia.
  - lia.
  - destruct K. discriminate.
Qed.
Lemma lost_missing (v : vset) : lost v = true <-> missing v.
Proof.
  unfold lost, missing. rewrite andb_true_iff, negb_true_iff, <- isEmpty_without. split.
  - intros [A B]. split; [exact B|]. rewrite <- isFail_failed. congruence.
  - intros [A B]. split; [|exact A]. rewrite <- isFail_failed in B. now destruct (isFail v).
Qed.
Definition code_by_count (n fails lost : nat) : Z :=
  if Nat.eqb n 0 then 0%Z else if Nat.eqb fails n then RES_FAIL else if Nat.eqb lost n then RES_MISSING else 0%Z.
Lemma count_tells (l : list vset) : l <> [] -> tells_state_strictly l (code_by_count (length l) (count isFail l) (count lost l)).
Proof.
  intros N. unfold tells_state_strictly, code_by_count.
  pose proof (count_all isFail l failed isFail_failed) as A. pose proof (count_all lost l missing lost_missing) as B.
  assert (RES_FAIL <> RES_MISSING /\ RES_FAIL <> 0 /\ RES_MISSING <> 0)%Z as (R1 & R2 & R3) by (repeat split; discriminate).
  destruct (Nat.eqb_spec (length l) 0) as [E|_]; [now apply length_zero_iff_nil in E|].
  destruct (Nat.eqb_spec (count isFail l) (length l)) as [Ea|Ea].
  - apply A in Ea. split; [split; auto|]. split; [|auto]. split; [intros H; now destruct R1|]. intros H. exfalso.
    destruct l as [|v l]; [easy|]. apply Forall_cons_iff in Ea as [Ea _]. apply Forall_cons_iff in H as [H _]. now apply H.
  - assert (NA : ~ Forall failed l) by (intros H; apply Ea, A, H).
    split; [split; [|contradiction]|].
    + destruct (Nat.eqb (count lost l) (length l)); intros H; symmetry in H; contradiction.
    + destruct (Nat.eqb_spec (count lost l) (length l)) as [Eb|Eb].
      * split; [|auto]. split; [|auto]. intros _. now apply B.
      * split; [|auto]. split; [intros H; symmetry in H; contradiction|]. intros H. exfalso. now apply Eb, B.
Qed.
Lemma all_vs_length (cs : list tres) : length (all_vs cs) = list_sum (map numVellSets cs).
Proof. unfold all_vs. induction cs as [|c cs IH]; [reflexivity|]. cbn [map concat list_sum]. rewrite app_length, IH. reflexivity. Qed.

(** Without dimensions: the VellSets of the children one after the other, and the return code tells whether all have failed, or all are missing *)
Theorem compose_list (cs : list tres) : exists r code, compose [] cs = Ok (r, code) /\ t_vs r = all_vs cs /\
  (all_vs cs <> [] -> sound r /\ length (t_dims r) <= 1 /\ tells_state_strictly (t_vs r) code) /\ (all_vs cs = [] -> code = 0%Z).
Proof.
  unfold compose. rewrite compose_plain_all, <- all_vs_length. destruct (all_vs cs) as [|v l] eqn:E.
  - cbn. eexists _, _. split; [reflexivity|]. split; [reflexivity|]. split; [easy|reflexivity].
  - rewrite <- E. assert (L : 1 <= length (all_vs cs)) by (rewrite E; cbn; lia).
    pose proof (result_n_length _ L) as L0.
    rewrite appending; cbn [o_res o_ires o_fails o_missing]; [|apply length_pos; lia|lia]. cbn [bind o_res o_fails o_missing Nat.add].
    rewrite put_from_all by lia. eexists _, _. split; [reflexivity|]. split; [reflexivity|]. split; [|intros Ea; rewrite Ea in E; discriminate].
    intros N. split; [|split].
    + unfold sound. cbn [with_vs t_vs t_dims t_field]. destruct (length (all_vs cs)) as [|[|n]] eqn:En; [lia| |].
      * cbn. repeat split; auto; lia.
      * cbn [result_n t_dims t_field Nat.ltb Nat.leb length]. rewrite prod_one. repeat split; auto; lia.
    + cbn [with_vs t_dims]. destruct (length (all_vs cs)) as [|[|n]]; cbn; lia.
    + cbn [with_vs t_vs]. exact (count_tells _ N).
Qed.
Lemma compose_else d (cs : list tres) : d <> [] -> d <> [0] ->
  compose d cs = bind (over compose_plain cs {| o_res := result_dims d; o_ires := 0; o_fails := 0; o_missing := 0 |})
    (fun o => Ok (o_res o, code_by_count (list_sum (map numVellSets cs)) (o_fails o) (o_missing o))).
Proof. intros D0 D1. unfold compose, code_by_count. destruct d as [|[|n] [|m d]]; easy. Qed.
(** With dimensions: the same VellSets.  If they are too few, empty ones follow; if they are too many, the Result has more VellSets than its dimensions
    say. *)
Theorem compose_dims d (cs : list tres) : d <> [] -> d <> [0] ->
  exists r code, compose d cs = Ok (r, code) /\ t_vs r = all_vs cs ++ repeat (VData no_data) (Nat.max (prod d) 1 - length (all_vs cs)) /\
    t_dims r = (if Nat.eqb (prod d) 1 then [] else d) /\ (all_vs cs <> [] -> tells_state_strictly (all_vs cs) code) /\
    (length (all_vs cs) = prod d -> prod d <> 1 \/ length d <= 1 -> all_vs cs <> [] -> sound r).
Proof.
  intros D0 D1.
  rewrite (compose_else d cs D0 D1), compose_plain_all, <- all_vs_length.
  assert (L0 : length (t_vs (result_dims d : tres)) = Nat.max (prod d) 1) by (cbn [result_dims t_vs]; unfold new_vec; now rewrite repeat_length, volume_prod).
  rewrite appending; cbn [o_res o_ires o_fails o_missing]; [|apply length_pos; lia|lia]. cbn [bind o_res o_fails o_missing Nat.add].
  assert (Ev : put_from (t_vs (result_dims d : tres)) 0 (all_vs cs) = all_vs cs ++ repeat (VData no_data) (Nat.max (prod d) 1 - length (all_vs cs))).
  { unfold put_from. cbn [firstn app Nat.add]. f_equal. cbn [result_dims t_vs]. unfold new_vec. rewrite volume_prod. generalize (Nat.max (prod d) 1), (length (all_vs cs)).
    clear. induction n as [|n IH]; intros [|m]; cbn; auto. }
  rewrite Ev. eexists _, _. split; [reflexivity|]. split; [reflexivity|]. split; [cbn [with_vs t_dims result_dims]; now rewrite volume_prod|]. split.
  - apply count_tells.
  - intros L P1 N. assert (1 <= length (all_vs cs)) by now apply length_pos.
    unfold sound. cbn [with_vs t_vs t_dims t_field result_dims]. rewrite volume_prod, app_length, repeat_length.
    split; [apply length_pos; rewrite app_length; lia|].
    destruct (Nat.eqb_spec (prod d) 1) as [Ed|Ed].
    + destruct P1 as [P1|P1]; [lia|]. rewrite (proj2 (Nat.ltb_ge _ _) P1). cbn. repeat split; lia.
    + repeat split; lia.
Qed.
(** As a tensor of tensors *)
Lemma big_dims (c : tres) : sound c -> 1 < length (t_vs c) -> t_dims c <> [].
Proof. intros S L E. rewrite (sound_length _ S), E in L. cbn in L. lia. Qed.
Lemma common_dims_some d : d <> [] -> forall cs : list tres, alike d cs -> common_dims cs d (prod d) = Ok (d, prod d).
Proof.
  intros D. induction cs as [|c cs IH]; intros A; [reflexivity|]. apply Forall_cons_iff in A as [A B]. cbn [common_dims]. unfold numVellSets.
  destruct (Nat.ltb_spec (length (t_vs c)) 2) as [L|L].
  - destruct d; [easy|]. now apply IH.
  - destruct A as [A|[S E]]; [lia|]. destruct d as [|n d]; [easy|]. rewrite E. destruct (list_eq_dec Nat.eq_dec (n :: d) (n :: d)); [now apply IH|easy].
Qed.
Lemma common_dims_alike d : forall (cs : list tres) n, alike d cs -> cs <> [] \/ n = 1 ->
  common_dims cs [] n = Ok (inner_dims d cs, prod (inner_dims d cs)).
Proof.
  induction cs as [|c cs IH]; intros n A N; [destruct N as [N| ->]; [easy|reflexivity]|]. apply Forall_cons_iff in A as [A B]. cbn [common_dims].
  unfold inner_dims. cbn [existsb]. unfold numVellSets.
  destruct (Nat.ltb_spec (length (t_vs c)) 2) as [L|L].
  - rewrite (proj2 (Nat.ltb_ge 1 (length (t_vs c)))) by lia. cbn [orb]. fold (inner_dims d cs). apply IH; auto.
  - rewrite (proj2 (Nat.ltb_lt 1 (length (t_vs c)))) by lia. cbn [orb]. destruct A as [A|[S E]]; [lia|].
    rewrite volume_prod, E. apply common_dims_some; [|exact B]. rewrite <- E. apply big_dims; [exact S|lia].
Qed.
Definition padded (n : nat) (c : tres) : list vset :=
  if Nat.eqb (length (t_vs c)) n then t_vs c else match t_vs c with [v] => repeat v n | _ => repeat (VData no_data) n end.
Lemma repeating v n (o : composing) : t_vs (o_res o) <> [] -> o_ires o <= length (t_vs (o_res o)) ->
  repeat_vs v n o = Ok {| o_res := with_vs (o_res o) (put_from (t_vs (o_res o)) (o_ires o) (repeat v n)); o_ires := o_ires o + n;
                          o_fails := o_fails o; o_missing := o_missing o |}.
Proof.
  unfold repeat_vs. revert o. induction n as [|n IH]; intros o N L.
  - cbn [repeat over]. rewrite put_from_nil. destruct o as [r a b c]. cbn in *. f_equal. f_equal; [now destruct r|lia].
  - cbn [repeat over]. rewrite setVellSet_ok by assumption. cbn [bind]. rewrite IH; cbn [o_res o_ires o_fails o_missing t_vs].
    + f_equal. unfold with_vs. cbn [t_vs t_dims t_field]. rewrite put_from_cons by exact L. f_equal. lia.
    + apply put_at_nonempty.
    + unfold put_at. rewrite app_length, firstn_length. cbn [length]. lia.
Qed.
Lemma put_from_app (l : list vset) k a b : k + length a <= length l -> put_from (put_from l k a) (k + length a) b = put_from l k (a ++ b).
Proof.
  intros L. unfold put_from. set (x := firstn k l ++ a). assert (Lx : length x = k + length a) by (unfold x; rewrite app_length, firstn_length; lia).
  assert (E : firstn k l ++ a ++ skipn (k + length a) l = x ++ skipn (k + length a) l) by (unfold x; now rewrite <- app_assoc). rewrite E.
  rewrite firstn_app, Lx, Nat.sub_diag, firstn_all2 by lia. cbn [firstn]. rewrite app_nil_r. unfold x at 1. rewrite <- !app_assoc. do 3 f_equal.
  apply nth_ext_some. intros i. rewrite !nth_skipn, nth_error_app2, nth_skipn by lia. rewrite app_length, Lx. f_equal. lia.
Qed.
Lemma padded_length n (c : tres) : length (padded n c) = n.
Proof.
  unfold padded. destruct (Nat.eqb_spec (length (t_vs c)) n); [assumption|]. destruct (t_vs c) as [|v [|w l]]; apply repeat_length.
Qed.
Lemma composing_tensors n : forall (cs : list tres) (o : composing), Forall (fun c => length (t_vs c) <= 1 \/ length (t_vs c) = n) cs ->
  t_vs (o_res o) <> [] -> o_ires o + length cs * n <= length (t_vs (o_res o)) ->
  exists f m, over (compose_tensor n) cs o =
    Ok {| o_res := with_vs (o_res o) (put_from (t_vs (o_res o)) (o_ires o) (concat (map (padded n) cs))); o_ires := o_ires o + length cs * n;
          o_fails := f; o_missing := m |} /\
    (Forall (fun c => length (t_vs c) = n) cs -> f = o_fails o + count isFail (all_vs cs) /\ m = o_missing o + count lost (all_vs cs)).
Proof.
  induction cs as [|c cs IH]; intros o A N L.
  - exists (o_fails o), (o_missing o). cbn [over map concat length Nat.mul]. rewrite put_from_nil, Nat.add_0_r. split.
    + destruct o as [r a b c]. cbn. f_equal. f_equal. now destruct r.
    + intros _. unfold all_vs, count. cbn. lia.
  - apply Forall_cons_iff in A as [A B]. cbn [over length Nat.mul] in *.
    assert (X : exists f m, compose_tensor n c o = Ok {| o_res := with_vs (o_res o) (put_from (t_vs (o_res o)) (o_ires o) (padded n c)); o_ires := o_ires o + n;
                 o_fails := f; o_missing := m |} /\ (length (t_vs c) = n -> f = o_fails o + count isFail (t_vs c) /\ m = o_missing o + count lost (t_vs c))).
    { unfold compose_tensor, padded, numVellSets. destruct (Nat.eqb_spec (length (t_vs c)) n) as [E|E].
      - rewrite appending by (auto; lia). eexists _, _. split; [rewrite E; reflexivity|]. auto.
      - destruct (t_vs c) as [|v [|w l]] eqn:Ec; [| |cbn in A; destruct A; [lia|easy]];
          rewrite repeating by (cbn [count_more o_res o_ires]; auto; lia); cbn [count_more o_res o_ires o_fails o_missing]; eexists _, _; (split; [reflexivity|easy]). }
    destruct X as (f1 & m1 & E1 & C1). rewrite E1. cbn [bind].
    assert (Lp : length (put_from (t_vs (o_res o)) (o_ires o) (padded n c)) = length (t_vs (o_res o))) by (apply put_from_length; rewrite padded_length; lia).
    edestruct (IH {| o_res := with_vs (o_res o) (put_from (t_vs (o_res o)) (o_ires o) (padded n c)); o_ires := o_ires o + n; o_fails := f1; o_missing := m1 |} B)
      as (f2 & m2 & E2 & C2).
    + cbn [o_res with_vs t_vs]. apply length_pos. rewrite Lp. now apply length_pos.
    + cbn [o_res o_ires with_vs t_vs]. rewrite Lp. lia.
    + cbn [o_res o_ires o_fails o_missing with_vs t_vs t_dims t_field] in E2, C2. exists f2, m2. split.
      * rewrite E2. f_equal. cbn [map concat]. unfold with_vs. cbn [t_vs t_dims t_field]. f_equal; [|lia]. f_equal.
        rewrite <- put_from_app by (rewrite padded_length; lia). now rewrite padded_length.
      * intros Al. apply Forall_cons_iff in Al as [A1 A2]. destruct (C1 A1) as [-> ->]. destruct (C2 A2) as [-> ->].
        unfold all_vs. cbn [map concat]. unfold count. rewrite !filter_app, !app_length. lia.
Qed.
Lemma concat_padded n : forall (cs : list tres), length (concat (map (padded n) cs)) = length cs * n.
Proof. induction cs as [|c cs IH]; [reflexivity|]. cbn [map concat length Nat.mul]. rewrite app_length, IH, padded_length. reflexivity. Qed.
Lemma nth_padded n : forall (cs : list tres) c k i, nth_error cs k = Some c -> i < n ->
  nth_error (concat (map (padded n) cs)) (k * n + i) = nth_error (padded n c) i.
Proof.
  induction cs as [|c0 cs IH]; intros c k i E L; [now destruct k|]. cbn [map concat]. destruct k as [|k]; cbn [nth_error] in E.
  - injection E as ->. cbn [Nat.mul Nat.add]. apply nth_error_app1. now rewrite padded_length.
  - rewrite nth_error_app2 by (rewrite padded_length; lia). rewrite padded_length. replace (S k * n + i - n) with (k * n + i) by lia. now apply IH.
Qed.
Lemma nth_repeat_some {A} (v : A) n i : i < n -> nth_error (repeat v n) i = Some v.
Proof. revert i. induction n as [|n IH]; intros [|i] L; cbn; try lia; [reflexivity|]. apply IH. lia. Qed.

Theorem compose_tensors d (cs : list tres) : cs <> [] -> alike d cs ->
  exists r code, compose [0] cs = Ok (r, code) /\ sound r /\ prod (t_dims r) = length cs * prod (inner_dims d cs) /\
    t_dims r = (if Nat.eqb (prod (t_dims r)) 1 then [] else length cs :: inner_dims d cs) /\
    (forall k c ix, nth_error cs k = Some c -> within (inner_dims d cs) ix -> elem r (k :: ix) = part_of c ix) /\
    (Forall (fun c => length (t_vs c) = prod (inner_dims d cs)) cs -> tells_state_strictly (t_vs r) code).
Proof.
  intros N A. unfold compose. rewrite (common_dims_alike d cs 0 A) by auto. cbn [bind]. set (d' := inner_dims d cs).
  assert (D : 1 <= prod d' /\ Forall (fun c => length (t_vs c) <= 1 \/ (t_dims c = d' /\ length (t_vs c) = prod d')) cs /\ (prod d' = 1 -> d' = [])).
  { unfold d', inner_dims. destruct (existsb _ cs) eqn:Ex.
    - apply existsb_exists in Ex as (c & I & L). apply Nat.ltb_lt in L. unfold alike in A. rewrite Forall_forall in A. destruct (A c I) as [Hc|[Sc Ec]]; [lia|].
      rewrite (sound_length _ Sc), Ec in L. split; [lia|]. split; [|lia]. apply Forall_forall. intros c' I'. destruct (A c' I') as [H|[S E]]; [auto|right].
      split; [exact E|]. now rewrite (sound_length _ S), E.
    - split; [cbn; lia|]. split; [|auto]. apply Forall_forall. intros c I. left.
      destruct (Nat.ltb_spec 1 (length (t_vs c))) as [L|L]; [|exact L]. exfalso. assert (existsb (fun c : tres => 1 <? length (t_vs c)) cs = true); [|congruence].
      apply existsb_exists. exists c. split; [exact I|now apply Nat.ltb_lt]. }
  clearbody d'. destruct D as (D1 & D2 & D3). assert (Lc : 1 <= length cs) by now apply length_pos.
  assert (L0 : length (t_vs (result_dims (length cs :: d') : tres)) = length cs * prod d').
  { cbn [result_dims t_vs]. unfold new_vec. rewrite repeat_length, volume_prod, prod_cons. nia. }
  destruct (composing_tensors (prod d') cs {| o_res := result_dims (length cs :: d'); o_ires := 0; o_fails := 0; o_missing := 0 |}) as (f & m & E & C).
  { eapply Forall_impl; [|exact D2]. cbn. intros c [H|[_ H]]; auto. }
  { cbn [o_res]. apply length_pos. rewrite L0. nia. }
  { cbn [o_res o_ires]. rewrite L0. lia. }
  cbn [o_res o_ires o_fails o_missing Nat.add] in E, C. rewrite E. cbn [bind o_res o_fails o_missing].
  rewrite put_from_all by (rewrite L0, concat_padded; lia). eexists _, _. split; [reflexivity|].
  assert (Pr : forall b, prod (if Nat.eqb (volume (length cs :: d')) 1 then [] else length cs :: d') = b -> b = length cs * prod d').
  { intros b <-. rewrite volume_prod, prod_cons. destruct (Nat.eqb_spec (length cs * prod d') 1) as [E1|E1]; [now rewrite E1|reflexivity]. }
  split; [|split; [|split; [|split]]].
  - unfold sound. cbn [with_vs t_vs t_dims t_field result_dims]. rewrite (Pr _ eq_refl), concat_padded.
    split; [apply length_pos; rewrite concat_padded; nia|]. split; [reflexivity|]. rewrite volume_prod, prod_cons.
    destruct (Nat.eqb_spec (length cs * prod d') 1) as [E1|E1].
    + rewrite D3 by nia. cbn. split; [reflexivity|lia].
    + split; [reflexivity|]. intros _. nia.
  - cbn [with_vs t_dims result_dims]. now apply Pr.
  - cbn [with_vs t_dims result_dims]. rewrite (Pr _ eq_refl). now rewrite volume_prod, prod_cons.
  - intros k c ix Ek W. unfold elem. cbn [with_vs t_vs t_dims result_dims].
    replace (place (if volume (length cs :: d') =? 1 then [] else length cs :: d') (k :: ix)) with (k * prod d' + place d' ix).
    2:{ rewrite volume_prod, prod_cons. destruct (Nat.eqb_spec (length cs * prod d') 1) as [E1|E1]; [|reflexivity]. cbn [place].
        assert (k < length cs) by (apply nth_error_Some; congruence). rewrite D3 by nia. cbn. nia. }
    pose proof (place_lt _ _ W) as Lt. rewrite (nth_padded _ cs c) by assumption. rewrite Forall_forall in D2. specialize (D2 c (nth_error_In _ _ Ek)).
    unfold part_of, padded, elem. destruct (Nat.eqb_spec (length (t_vs c)) (prod d')) as [El|El].
    + destruct (t_vs c) as [|v [|w l]] eqn:Ec.
      * cbn in El. lia.
      * cbn [length] in El. rewrite (D3 (eq_sym El)). reflexivity.
      * destruct D2 as [D2|[D2 _]]; [cbn in D2; lia|]. now rewrite D2.
    + destruct (t_vs c) as [|v [|w l]] eqn:Ec; [now apply nth_repeat_some|now apply nth_repeat_some|].
      destruct D2 as [D2|[_ D2]]; [cbn in D2; lia|contradiction].
  - intros Al. destruct (C Al) as [-> ->]. cbn [with_vs t_vs].
    assert (Ea : concat (map (padded (prod d')) cs) = all_vs cs).
    { unfold all_vs. f_equal. apply map_ext_in. intros c I. rewrite Forall_forall in Al. unfold padded. now rewrite (Al c I), Nat.eqb_refl. }
    rewrite Ea, <- all_vs_length. apply count_tells. apply length_pos. rewrite <- Ea, concat_padded. nia.
Qed.
(** Tensors of different dimensions are refused, *)
Theorem compose_refused (cs : list tres) a b : Forall (fun c => length (t_vs c) <= 1 \/ sound c) cs -> In a cs -> In b cs ->
  1 < length (t_vs a) -> 1 < length (t_vs b) -> t_dims a <> t_dims b -> compose [0] cs = Err.
Proof.
  intros A Ia Ib La Lb D. unfold compose.
  assert (G1 : forall (cs : list tres) d n x, d <> [] -> In x cs -> 1 < length (t_vs x) -> t_dims x <> d -> common_dims cs d n = Err).
  { clear. induction cs as [|c cs IH]; intros d n x D I L Dx; [easy|]. cbn [common_dims]. unfold numVellSets.
    destruct (Nat.ltb_spec (length (t_vs c)) 2) as [Lc|Lc].
    - destruct I as [-> |I]; [lia|]. destruct d; [easy|]. eapply IH; eauto.
    - destruct d as [|n0 d]; [easy|]. destruct (list_eq_dec Nat.eq_dec (n0 :: d) (t_dims c)) as [E|E]; [|reflexivity].
      destruct I as [-> |I]; [congruence|]. eapply IH; eauto. }
  assert (G : forall (cs : list tres) n, Forall (fun c => length (t_vs c) <= 1 \/ sound c) cs -> In a cs -> In b cs -> common_dims cs [] n = Err).
  { clear cs A Ia Ib. induction cs as [|c cs IH]; intros n A Ia Ib; [easy|]. apply Forall_cons_iff in A as [A B]. cbn [common_dims]. unfold numVellSets.
    destruct (Nat.ltb_spec (length (t_vs c)) 2) as [Lc|Lc].
    - destruct Ia as [-> |Ia]; [lia|]. destruct Ib as [-> |Ib]; [lia|]. now apply IH.
    - assert (t_dims c <> []) by (destruct A as [A|A]; [lia|apply big_dims; [exact A|lia]]).
      destruct Ia as [-> |Ia], Ib as [-> |Ib]; [easy| | |]; [eapply G1; eauto|eapply G1; eauto|].
      destruct (list_eq_dec Nat.eq_dec (t_dims a) (t_dims c)) as [E|E]; [|eapply G1 with (x := a); eauto].
      eapply G1 with (x := b); eauto. congruence. }
  now rewrite G.
Qed.
(** The return code of a tensor of tensors need not tell the state of its VellSets.  A missing child counts as many times as its neighbours have
    elements, but is not counted among the VellSets: one good tensor of two elements beside a missing child is "missing", *)
Theorem compose_code_refuted (v w : vset) (l : list F) : ~ without_data v -> ~ without_data w ->
  let tensor := shaped [v; w] [2] in let none := result_n 0 : tres in let scalar x := shaped [x] [] : tres in
  (exists r, compose [0] [tensor; none] = Ok (r, RES_MISSING) /\ t_vs r = [v; w; VData no_data; VData no_data]) /\
  (** so is one good scalar; *)
  (exists r, compose [0] [scalar v; none] = Ok (r, RES_MISSING) /\ t_vs r = [v; VData no_data]) /\
  (** with two failed scalars beside it, the tensor is a fail; *)
  (exists r, compose [0] [scalar (VFail l); tensor; scalar (VFail l)] = Ok (r, RES_FAIL) /\ t_vs r = [VFail l; VFail l; v; w; VFail l; VFail l]) /\
  (** and when every child is missing, all is well. *)
  exists r, compose [0] [none; none] = Ok (r, 0%Z) /\ t_vs r = [VData no_data; VData no_data].
Proof.
  intros Nv Nw.
  assert (E : forall x : vset, ~ without_data x -> exists d, x = VData d /\ match d_value d, d_spids d with None, [] => False | _, _ => True end).
  { intros [l'|d] H; [exfalso; apply H; left; now exists l'|]. exists d. split; [reflexivity|].
    destruct (d_value d) eqn:Ev; [exact Logic.I|]. destruct (d_spids d) eqn:Es; [|exact Logic.I]. exfalso. apply H. right. now exists d. }
  destruct (E v Nv) as ([v1 v2 v3 v4] & -> & Hv), (E w Nw) as ([w1 w2 w3 w4] & -> & Hw). cbn [d_value d_spids] in Hv, Hw. cbn zeta. clear E Nv Nw.
  split; [|split; [|split]];
    [exists (shaped [VData {| d_value := v1; d_flags := v2; d_spids := v3; d_psets := v4 |}; VData {| d_value := w1; d_flags := w2; d_spids := w3; d_psets := w4 |};
             VData no_data; VData no_data] [2; 2])
    |exists (shaped [VData {| d_value := v1; d_flags := v2; d_spids := v3; d_psets := v4 |}; VData no_data] [2])
    |exists (shaped [VFail l; VFail l; VData {| d_value := v1; d_flags := v2; d_spids := v3; d_psets := v4 |};
             VData {| d_value := w1; d_flags := w2; d_spids := w3; d_psets := w4 |}; VFail l; VFail l] [3; 2])
    |exists (shaped [VData no_data; VData no_data] [2])];
    destruct v1, v3, w1, w3; try contradiction; split; vm_compute; reflexivity.
Qed.
(** Given more VellSets than its dimensions, a Composer makes a Result that cannot be copied; *)
Theorem compose_excess_refuted d (cs : list tres) : 1 < length d -> 1 < prod d < length (all_vs cs) ->
  exists r code, compose d cs = Ok (r, code) /\ t_dims r = d /\ t_vs r = all_vs cs /\ clone r = Err.
Proof.
  intros L1 L2. assert (D0 : d <> [] /\ d <> [0]) by (split; intros ->; cbn in L1; lia).
  destruct (compose_dims d cs (proj1 D0) (proj2 D0)) as (r & code & E & Ev & Ed & _). exists r, code. split; [exact E|].
  rewrite (proj2 (Nat.eqb_neq (prod d) 1)) in Ed by lia. rewrite (proj2 (Nat.sub_0_le (Nat.max (prod d) 1) _)) in Ev by lia. cbn [repeat] in Ev.
  rewrite app_nil_r in Ev. split; [exact Ed|]. split; [exact Ev|].
  assert (Ef : t_field r = Some d).
  { revert E. rewrite (compose_else d cs (proj1 D0) (proj2 D0)), compose_plain_all.
    rewrite appending; cbn [o_res o_ires o_fails o_missing]; [|apply length_pos; cbn [result_dims t_vs]; unfold new_vec; rewrite repeat_length; lia|lia].
    cbn [bind o_res]. intros E. assert (X : forall (a b : tres * Z), Ok a = Ok b -> fst a = fst b) by (intros ? ? Q; now inversion Q).
    apply X in E. cbn [fst] in E. rewrite <- E. cbn [with_vs t_field result_dims]. now rewrite (proj2 (Nat.ltb_lt _ _) L1). }
  unfold clone, numVellSets. rewrite Ef, Ev, volume_prod, (proj2 (Nat.eqb_neq _ _)) by lia. reflexivity.
Qed.
End Tensors.

(** ** Examples *)
Section Examples.
Local Notation tensor := (tres Z nat nat).
Definition num (z : Z) : vset Z nat nat := VData {| d_value := Some z; d_flags := None; d_spids := []; d_psets := [] |}.
Definition pert (z p : Z) : vset Z nat nat := VData {| d_value := Some z; d_flags := None; d_spids := [7%Z]; d_psets := [{| ps_pert := [1]; ps_val := [p] |}] |}.
Definition nums (d : list nat) (l : list Z) : tensor := {| t_vs := map num l; t_dims := d; t_field := if Nat.ltb 1 (length d) then Some d else None |}.

(** a matrix, its transpose, and its conjugate transpose (negation plays the conjugate) *)
Definition m23 := nums [2; 3] [11; 12; 13; 21; 22; 23]%Z.
Example ex_transpose : sound m23 /\ transpose Z.opp true false m23 = Ok (nums [3; 2] [11; 21; 12; 22; 13; 23]%Z).
Proof. split; [apply (shaped_sound (t_vs m23) [2; 3]); [discriminate|reflexivity|discriminate]|reflexivity]. Qed.
Example ex_conj : let ch := shaped [pert 1 2; num 3; VFail [5]; VData no_data] [2; 2] in
  Forall tidy (t_vs ch) /\ transpose Z.opp false true ch = Ok (shaped [pert (-1) (-2); VFail [5]; num (-3); VData no_data] [2; 2]).
Proof. split; [repeat constructor|reflexivity]. Qed.
(** a stack of two matrices: each is transposed *)
Example ex_stack : transpose Z.opp true false (nums [2; 2; 2] [1; 2; 3; 4; 5; 6; 7; 8]%Z) = Ok (nums [2; 2; 2] [1; 3; 2; 4; 5; 7; 6; 8]%Z).
Proof. reflexivity. Qed.
(** a vector as a column is transposed to a row, and the row back to the vector *)
Example ex_vector : transpose Z.opp false false (nums [3] [1; 2; 3]%Z) = Ok (nums [1; 3] [1; 2; 3]%Z) /\
  transpose Z.opp false false (nums [1; 3] [1; 2; 3]%Z) = Ok (nums [3] [1; 2; 3]%Z).
Proof. split; reflexivity. Qed.
Example ex_twice : bind (transpose Z.opp true true m23) (transpose Z.opp true true) = Ok m23.
Proof. reflexivity. Qed.
(** numbers, among them a wrong one *)
Example ex_numbers : select [9] true [5; 0; 6]%Z m23 = Ok (shaped [num 23; num 11; VFail [9]] [3], 0%Z) /\
  select [9] false [-1]%Z m23 = Ok (shaped [VFail [9]] [], RES_FAIL).
Proof. split; reflexivity. Qed.
(** a row, a column, an element, an element that is not there *)
Example ex_slices : select [9] false [1; -1]%Z m23 = Ok (nums [1; 3] [21; 22; 23]%Z, 0%Z) /\
  select [9] false [-1; 1]%Z m23 = Ok (nums [2] [12; 22]%Z, 0%Z) /\
  select [9] false [1; 0]%Z m23 = Ok (nums [] [21]%Z, 0%Z) /\ select [9] false [2; 0]%Z m23 = Err.
Proof. repeat split. Qed.
Example ex_lone : sound m23 /\ selects (t_dims m23) [-1; 1]%Z /\ lone_slice (t_dims m23) [-1; 1]%Z /\
  slice_dims (t_dims m23) [-1; 1]%Z = [2] /\ source [-1; 1]%Z [1] = [1; 1].
Proof.
  split; [apply (shaped_sound (t_vs m23) [2; 3]); [discriminate|reflexivity|discriminate]|]. split; [repeat constructor|]. split; [|split; reflexivity].
  cbn. split; [|split; [|exact Logic.I]]; intros _ H; [apply Exists_cons in H as [H|H]; [discriminate H|]|]; inversion H.
Qed.
(** A matrix out of a stack of two: the second row is taken from the other matrix. *)
Example ex_two_axes : let ch := nums [2; 2; 2] [1; 2; 3; 4; 5; 6; 7; 8]%Z in
  NoDup (t_vs ch) /\ selects (t_dims ch) [0; -1; -1]%Z /\ ~ lone_slice (t_dims ch) [0; -1; -1]%Z /\
  select [9] false [0; -1; -1]%Z ch = Ok (nums [1; 2; 2] [1; 2; 5; 6]%Z, 0%Z).
Proof.
  cbn zeta. split; [|split; [repeat constructor|split; [|reflexivity]]].
  - repeat constructor; cbn; intros H; repeat (destruct H as [H|H]; [discriminate H|]); exact H.
  - cbn. intros (_ & H & _). specialize (H ltac:(reflexivity) ltac:(constructor; reflexivity)). discriminate H.
Qed.
Example ex_paste : paste false [-1; 1]%Z m23 (nums [2] [7; 8]%Z) = Ok (nums [2; 3] [11; 7; 13; 21; 8; 23]%Z) /\
  paste true [5; 0]%Z m23 (nums [2] [7; 8]%Z) = Ok (nums [2; 3] [8; 12; 13; 21; 22; 7]%Z) /\
  paste false [-1; 1]%Z m23 (nums [3] [7; 8; 9]%Z) = Err /\ paste true [5; 6]%Z m23 (nums [2] [7; 8]%Z) = Err /\
  paste true [5; 0]%Z m23 (nums [3] [7; 8; 9]%Z) = Err.
Proof. repeat split. Qed.
(** the slice [[-1;-1]] of a matrix is not pasted in place: its second row goes beyond the end, where it adds two elements *)
Example ex_paste_two_axes : paste false [-1; -1]%Z (nums [2; 2] [0; 0; 0; 0]%Z) (nums [2; 2] [1; 2; 3; 4]%Z) = Ok (nums [2; 2] [1; 2; 0; 0; 3; 4]%Z).
Proof. reflexivity. Qed.
Example ex_list : compose [] [nums [2] [1; 2]%Z; result_n 0; nums [] [3]%Z] = Ok (nums [3] [1; 2; 3]%Z, 0%Z) /\
  compose [] [shaped [VFail [1]] []; shaped [VFail [2]] []] = Ok (shaped [VFail [1]; VFail [2]] [2] : tensor, RES_FAIL) /\
  compose [] [shaped [VData no_data] []] = Ok (shaped [VData no_data] [] : tensor, RES_MISSING).
Proof. repeat split. Qed.
Example ex_dims : compose [2; 2] [nums [2] [1; 2]%Z; nums [] [3]%Z; nums [] [4]%Z] = Ok (nums [2; 2] [1; 2; 3; 4]%Z, 0%Z) /\
  compose [2; 2] [nums [2] [1; 2]%Z; nums [] [3]%Z] = Ok (shaped [num 1; num 2; num 3; VData no_data] [2; 2], 0%Z).
Proof. split; reflexivity. Qed.
Example ex_tensors : let cs := [nums [2] [1; 2]%Z; nums [] [3]%Z; result_n 0] in
  alike [2] cs /\ inner_dims [2] cs = [2] /\
  compose [0] cs = Ok (shaped [num 1; num 2; num 3; num 3; VData no_data; VData no_data] [3; 2], 0%Z).
Proof.
  cbn zeta. split; [|split; [reflexivity|]].
  - constructor; [right; split; [repeat split; try discriminate; cbn; lia|reflexivity]|]. constructor; [left; cbn; lia|]. constructor; [left; cbn; lia|constructor].
  - vm_compute. reflexivity.
Qed.
Example ex_compose_refused : compose [0] [nums [2] [1; 2]%Z; nums [3] [1; 2; 3]%Z] = Err.
Proof. reflexivity. Qed.
Example ex_excess : exists r, compose [2; 2] [nums [3] [1; 2; 3]%Z; nums [2] [4; 5]%Z] = Ok (r, 0%Z) /\ length (t_vs r) = 5 /\ t_dims r = [2; 2] /\ clone r = Err.
Proof. exists {| t_vs := map num [1; 2; 3; 4; 5]%Z; t_dims := [2; 2]; t_field := Some [2; 2] |}. repeat split. Qed.
End Examples.

Print Assumptions result_dims_sound.
Print Assumptions scalar_rank_refuted.
Print Assumptions transpose_elements.
Print Assumptions transpose_vector.
Print Assumptions transpose_scalar.
Print Assumptions transpose_twice.
Print Assumptions transpose_twice_refuted.
Print Assumptions transpose_column_refuted.
Print Assumptions select_numbers.
Print Assumptions select_slice.
Print Assumptions select_slice_wrong.
Print Assumptions select_refused.
Print Assumptions paste_slice.
Print Assumptions paste_select.
Print Assumptions select_paste.
Print Assumptions select_paste_refuted.
Print Assumptions paste_numbers.
Print Assumptions paste_refused.
Print Assumptions compose_list.
Print Assumptions compose_dims.
Print Assumptions compose_tensors.
Print Assumptions compose_refused.
Print Assumptions compose_code_refuted.
Print Assumptions compose_excess_refuted.
