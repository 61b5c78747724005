(** The names of axes: what can be relied on, and what cannot. *)
From Verif Require Import Base Axm_Model Axm_Spec Axm_Proofs.
Local Open Scope Z_scope.

(** After any calls, the constants TIME and FREQ are the axes called Time and
    Freq, the published ids are the names, and a named axis has a number. *)
Theorem axm_time_freq cs :
  let s := after cs in
  axis [AidTime] s = Some (Z.of_nat (a_time s)) /\ axis [AidFreq] s = Some (Z.of_nat (a_freq s)) /\
  getAxisIds s = map (fun i => axisId i s) (seq 0 NAxis) /\
  (forall i, (axisId i s = [Z.of_nat i] /\ (4 <= i)%nat) \/ isName (axisId i s)) /\
  (forall i, axis (axisId i s) s <> None) /\
  (forall n k, numeral n k -> axis n s = Some k).
Proof.
  intros s. destruct (sound_after cs) as (H1 & H2 & H3 & H4 & H5 & H6). fold s in H1, H2, H3, H4, H5, H6.
  split; [|split; [|split; [|split; [|split]]]].
  - rewrite axis_name by apply name_Time. now rewrite H3.
  - rewrite axis_name by apply name_Freq. now rewrite H4.
  - apply map_ext. exact H2.
  - exact H1.
  - intros i. destruct (H1 i) as [[E _]|N].
    + unfold axisId. rewrite E. rewrite (axis_numeral _ (Z.of_nat i)); [discriminate|]. split; [reflexivity|lia].
    + unfold axisId. rewrite axis_name by exact N. specialize (H6 i N). destruct (a_num s (a_name s i)); [discriminate|contradiction].
  - intros n k. apply axis_numeral.
Qed.

(** Both forms of setAxisMap, for a list that fits: each name in the list becomes
    the name of its axis and leads to the last axis it stands at; axes and names
    that are not in the list are as before. *)
Theorem axm_set cs l (how : list hiid -> axmap -> axmap * bool) :
  how = setAxisMap \/ how = setAxisMap_vec -> fitting l -> (length l <= NAxis)%nat ->
  let s := after cs in let s' := fst (how l s) in
  snd (how l s) = true /\
  (forall i n, nth_error l i = Some n -> isName n -> axisId i s' = n) /\
  (forall i, (forall n, nth_error l i = Some n -> ~ isName n) -> axisId i s' = axisId i s) /\
  (forall n i, isName n -> last_place l n i -> axis n s' = Some (Z.of_nat i)) /\
  (forall n, ~ In n l -> axis n s' = axis n s) /\
  a_default s' = false.
Proof.
  intros W F L s s'.
  assert (E : how l s = ended (defs 0 l s)).
  { destruct W as [-> | ->].
    - now apply from_defs.
    - unfold setAxisMap_vec. destruct (Nat.ltb_spec NAxis (length l)); [lia|]. apply define_all_defs. }
  apply (proj2 (fits_0 l)) in F. unfold ended in E. rewrite (defs_ok l 0 s F) in E.
  unfold s'. rewrite E. cbn [fst snd].
  destruct (defs_name l 0 s F) as [N1 N2]. destruct (defs_num l 0 s F) as [M1 M2].
  split; [reflexivity|]. split; [exact N1|]. split; [|split; [|split]].
  - intros i H. unfold axisId. cbn [not_default a_name]. apply N2. intros j n -> . exact (H n).
  - intros n i N P. rewrite axis_name by exact N. cbn [not_default a_num]. now rewrite (M1 n i N P).
  - intros n I. destruct n as [|a n]; [|destruct (isName_dec (a :: n)) as [N|N]].
    + cbn [axis not_default a_num]. f_equal. apply M2. now left.
    + rewrite !axis_name by exact N. cbn [not_default a_num]. f_equal. apply M2. now left.
    + destruct (numeral_dec (a :: n)) as [[k K]|K].
      * now rewrite !(axis_numeral _ k _ K).
      * exfalso. apply N. split; [discriminate|exact K].
  - reflexivity.
Qed.

(** A list in which a number stands at a wrong place is refused, but what comes
    before it has been done, as if the list had been cut off there; and whether
    the map counts as the default one has not changed.  A list that is too long
    is refused: a vector at once, an array after its first eight names. *)
Theorem axm_refused cs l :
  let s := after cs in
  (forall k n j, nth_error l k = Some n -> numeral n j -> j <> Z.of_nat k -> fitting (firstn k l) -> (length l <= NAxis)%nat ->
     let cut := fst (setAxisMap_vec (firstn k l) s) in
     (forall how, how = setAxisMap \/ how = setAxisMap_vec ->
       snd (how l s) = false /\ a_default (fst (how l s)) = a_default s /\
       (forall i, axisId i (fst (how l s)) = axisId i cut) /\ (forall m, axis m (fst (how l s)) = axis m cut))) /\
  ((NAxis < length l)%nat ->
     setAxisMap_vec l s = (s, false) /\
     (fitting (firstn NAxis l) ->
      let cut := fst (setAxisMap (firstn NAxis l) s) in
      snd (setAxisMap l s) = false /\ a_default (fst (setAxisMap l s)) = a_default s /\
      (forall i, axisId i (fst (setAxisMap l s)) = axisId i cut) /\ (forall m, axis m (fst (setAxisMap l s)) = axis m cut))).
Proof.
  intros s. split.
  - intros k n j E N D F L cut how W.
    assert (K : (k < length l)%nat) by (apply nth_error_Some; congruence).
    assert (E1 : how l s = ended (defs 0 l s)).
    { destruct W as [-> | ->].
      - now apply from_defs.
      - unfold setAxisMap_vec. destruct (Nat.ltb_spec NAxis (length l)); [lia|]. apply define_all_defs. }
    rewrite (defs_unfit l 0 s k n j E N D F) in E1. rewrite E1. cbn [ended fst snd].
    assert (C : cut = not_default (fst (defs 0 (firstn k l) s))).
    { unfold cut, setAxisMap_vec. rewrite firstn_length. destruct (Nat.ltb_spec NAxis (Nat.min k (length l))); [lia|].
      rewrite define_all_defs. unfold ended. rewrite defs_ok by exact F. reflexivity. }
    rewrite C. split; [reflexivity|]. split; [apply defs_default|]. split; reflexivity.
  - intros L. split.
    + unfold setAxisMap_vec. destruct (Nat.ltb_spec NAxis (length l)); [reflexivity|lia].
    + intros F cut. assert (E : setAxisMap l s = (fst (defs 0 (firstn NAxis l) s), false)).
      { unfold setAxisMap. rewrite from_long by lia. now rewrite Nat.sub_0_r. }
      assert (C : cut = not_default (fst (defs 0 (firstn NAxis l) s))).
      { unfold cut, setAxisMap. rewrite from_defs by (rewrite firstn_length; lia).
        unfold ended. rewrite defs_ok by exact F. reflexivity. }
      rewrite E, C. cbn [fst snd]. split; [reflexivity|]. split; [apply defs_default|]. split; reflexivity.
Qed.

(** addAxis: nothing happens for a number or a name that leads to an axis.
    Otherwise the first axis without a name gets it; nothing else changes.
    Without such an axis there is an exception and no change. *)
Theorem axm_add cs n :
  let s := after cs in let s' := fst (addAxis n s) in
  (axis n s <> None -> addAxis n s = (s, true)) /\
  (axis n s = None -> isName n ->
    (exists i, (i < NAxis)%nat /\ axisId i s = [Z.of_nat i] /\ (forall j, (j < i)%nat -> isName (axisId j s)) /\
       snd (addAxis n s) = true /\ a_default s' = false /\
       axisId i s' = n /\ (forall j, j <> i -> axisId j s' = axisId j s) /\
       axis n s' = Some (Z.of_nat i) /\ (forall m, m <> n -> axis m s' = axis m s))
    \/ ((forall i, (i < NAxis)%nat -> isName (axisId i s)) /\ addAxis n s = (s, false))).
Proof.
  intros s s'. destruct (sound_after cs) as (H1 & _). fold s in H1. split.
  - intros H. unfold addAxis. destruct axis; [reflexivity|contradiction].
  - intros H N. unfold s', addAxis. rewrite H.
    destruct (allocate_spec n s N NAxis 0) as [(k & K1 & K2 & K3 & K4)|(K1 & K2)].
    + left. exists k. cbn [Nat.add] in *. rewrite K4. cbn [fst snd].
      split; [exact K1|]. split; [exact K2|]. split.
      { intros j J. destruct (H1 j) as [[X _]|X]; [|exact X]. exfalso. exact (K3 j J X). }
      split; [reflexivity|]. split; [reflexivity|]. split; [|split; [|split]].
      * unfold axisId. cbn [not_default defined a_name]. now rewrite Nat.eqb_refl.
      * intros j J. unfold axisId. cbn [not_default defined a_name]. destruct (Nat.eqb_spec j k); congruence.
      * rewrite axis_name by exact N. cbn [not_default defined a_num]. now rewrite same_refl.
      * intros m M. destruct m as [|a m]; [|destruct (isName_dec (a :: m)) as [N1|N1]].
        -- cbn [axis not_default defined a_num]. now rewrite same_false by exact M.
        -- rewrite !axis_name by exact N1. cbn [not_default defined a_num]. now rewrite same_false by exact M.
        -- destruct (numeral_dec (a :: m)) as [[j J]|J].
           ++ now rewrite !(axis_numeral _ j _ J).
           ++ exfalso. apply N1. split; [discriminate|exact J].
    + right. split; [|exact K2]. intros i I. destruct (H1 i) as [[X _]|X]; [|exact X]. exfalso. exact (K1 i I X).
Qed.

(** If the map is only ever added to, names and axes correspond one to one, and
    an axis keeps its name, a name its axis. *)
Definition one_to_one (s : axmap) : Prop :=
  (forall i, (i < NAxis)%nat -> axis (axisId i s) s = Some (Z.of_nat i)) /\
  (forall n k, isName n -> axis n s = Some k -> exists i, (i < NAxis)%nat /\ k = Z.of_nat i /\ axisId i s = n).
Lemma one_start : one_to_one start.
Proof.
  destruct (reset_names {| a_name := fun _ => []; a_num := fun _ => None; a_time := 0; a_freq := 1; a_default := true; a_ids := fun _ => [] |}) as (H1 & _ & H3 & _ & _).
  fold start in H1, H3. split.
  - intros i I. unfold axisId. rewrite H1. destruct i as [|[|[|[|i]]]].
    1-4: rewrite axis_name by (first [apply name_Time|apply name_Freq|apply name_L|apply name_M]); rewrite H3; reflexivity.
    apply axis_numeral. split; [reflexivity|lia].
  - intros n k N. rewrite axis_name by exact N. rewrite H3. unfold NAxis, axisId.
    destruct (same n [AidM]) eqn:E1; [apply same_true in E1; intros X; injection X as <-; exists 3%nat; rewrite H1; repeat split; [lia|now subst]|].
    destruct (same n [AidL]) eqn:E2; [apply same_true in E2; intros X; injection X as <-; exists 2%nat; rewrite H1; repeat split; [lia|now subst]|].
    destruct (same n [AidFreq]) eqn:E3; [apply same_true in E3; intros X; injection X as <-; exists 1%nat; rewrite H1; repeat split; [lia|now subst]|].
    destruct (same n [AidTime]) eqn:E4; [apply same_true in E4; intros X; injection X as <-; exists 0%nat; rewrite H1; repeat split; [lia|now subst]|].
    discriminate.
Qed.
Lemma after_snoc cs c : after (cs ++ [c]) = fst (perform c (after cs)).
Proof. unfold after. now rewrite fold_left_app. Qed.
Lemma add_empty s : sound s -> (forall i, axisId i (fst (addAxis [] s)) = axisId i s) /\ (forall m, axis m (fst (addAxis [] s)) = axis m s).
Proof.
  intros S. unfold addAxis. cbn [axis]. destruct (a_num s []); [now split|]. cbn [option_map].
  assert (A : forall n i, (forall j, axisId j (fst (allocate n i [] s)) = axisId j s) /\ (forall m, axis m (fst (allocate n i [] s)) = axis m s)).
  { induction n as [|n IH]; intros i; cbn [allocate]; [now split|]. destruct same; [|apply IH]. rewrite define_empty. now split. }
  apply A.
Qed.
Theorem axm_adds_only ns :
  let s := after (map Add ns) in
  one_to_one s /\
  (forall more i, axisId i s <> [Z.of_nat i] -> axisId i (after (map Add (ns ++ more))) = axisId i s) /\
  (forall more n k, axis n s = Some k -> axis n (after (map Add (ns ++ more))) = Some k).
Proof.
  assert (Step : forall ns n, one_to_one (after (map Add ns)) ->
    one_to_one (after (map Add (ns ++ [n]))) /\
    (forall i, axisId i (after (map Add ns)) <> [Z.of_nat i] -> axisId i (after (map Add (ns ++ [n]))) = axisId i (after (map Add ns))) /\
    (forall m k, axis m (after (map Add ns)) = Some k -> axis m (after (map Add (ns ++ [n]))) = Some k)).
  { intros l n. rewrite map_app. cbn [map]. rewrite after_snoc. cbn [perform]. set (s := after (map Add l)). intros [O1 O2].
    assert (Same : forall s', (forall i, axisId i s' = axisId i s) -> (forall m, axis m s' = axis m s) -> one_to_one s' /\
      (forall i, axisId i s <> [Z.of_nat i] -> axisId i s' = axisId i s) /\ (forall m k, axis m s = Some k -> axis m s' = Some k)).
    { intros s' E1 E2. split; [split|split].
      - intros i I. rewrite E1, E2. now apply O1.
      - intros m k N K. rewrite E2 in K. destruct (O2 m k N K) as (i & I & -> & J). exists i. now rewrite E1.
      - intros i _. apply E1.
      - intros m k. now rewrite E2. }
    destruct (axm_add (map Add l) n) as [A1 A2]. fold s in A1, A2.
    destruct (axis n s) eqn:X.
    - rewrite A1 by discriminate. apply Same; reflexivity.
    - destruct (isName_dec n) as [N|N].
      + destruct (A2 eq_refl N) as [(i & I & B1 & B2 & _ & _ & B3 & B4 & B5 & B6)|[_ B]].
        * set (s' := fst (addAxis n s)) in *.
          assert (Fresh : forall m, axis m s <> None -> m <> n) by (intros m M ->; congruence).
          split; [split|split].
          -- intros j J. destruct (Nat.eq_dec j i) as [->|D]; [now rewrite B3, B5|].
             rewrite B4 by exact D. rewrite B6; [now apply O1|]. apply Fresh. rewrite O1 by exact J. discriminate.
          -- intros m k M K. destruct (list_eq_dec Z.eq_dec m n) as [->|D].
             ++ rewrite B5 in K. injection K as <-. now exists i.
             ++ rewrite B6 in K by exact D. destruct (O2 m k M K) as (j & J & -> & E). exists j.
                split; [exact J|]. split; [reflexivity|]. rewrite B4; [exact E|]. intros ->. rewrite B1 in E. subst m.
                apply (proj2 M (Z.of_nat i)). split; [reflexivity|lia].
          -- intros j J. apply B4. intros ->. contradiction.
          -- intros m k K. rewrite B6; [exact K|]. apply Fresh. rewrite K. discriminate.
        * rewrite B. apply Same; reflexivity.
      + assert (n = []) as ->.
        { destruct n as [|a n]; [reflexivity|]. exfalso. destruct (numeral_dec (a :: n)) as [[k K]|K].
          - rewrite (axis_numeral _ k _ K) in X. discriminate.
          - apply N. split; [discriminate|exact K]. }
        destruct (add_empty s (sound_after _)) as [E1 E2]. now apply Same. }
  assert (All : forall ns, one_to_one (after (map Add ns))).
  { intros l. induction l as [|n l IH] using rev_ind; [exact one_start|]. apply Step. exact IH. }
  intros s. split; [apply All|]. split.
  - intros more. induction more as [|n more IH] using rev_ind; intros i I; [now rewrite app_nil_r|].
    rewrite app_assoc. rewrite (proj1 (proj2 (Step (ns ++ more) n (All _)))); [now apply IH|]. now rewrite IH.
  - intros more. induction more as [|n more IH] using rev_ind; intros m k K; [now rewrite app_nil_r|].
    rewrite app_assoc. apply (proj2 (proj2 (Step (ns ++ more) n (All _)))). now apply IH.
Qed.

(** A domain carries the ids of the axes; a process that still has the default
    map and receives them has the same names.  If no two axes have the same name
    every name leads to its axis there. *)
Theorem axm_copy cs :
  let s := after cs in let r := setAxisMap_vec (getAxisIds s) start in
  snd r = true /\
  (forall i, (i < NAxis)%nat -> axisId i (fst r) = axisId i s) /\
  ((forall i j, (i < NAxis)%nat -> (j < NAxis)%nat -> axisId i s = axisId j s -> i = j) ->
   forall i, (i < NAxis)%nat -> isName (axisId i s) -> axis (axisId i s) (fst r) = Some (Z.of_nat i)).
Proof.
  intros s r. destruct (sound_after cs) as (H1 & H2 & _). fold s in H1, H2.
  assert (Nth : forall i, (i < NAxis)%nat -> nth_error (getAxisIds s) i = Some (axisId i s)).
  { intros i I. unfold getAxisIds. rewrite nth_error_map.
    assert (E : nth_error (seq 0 NAxis) i = Some i).
    { rewrite (nth_error_nth' _ 0%nat) by now rewrite seq_length. now rewrite seq_nth. }
    rewrite E. cbn [option_map]. now rewrite H2. }
  assert (Len : length (getAxisIds s) = NAxis) by (unfold getAxisIds; now rewrite map_length, seq_length).
  assert (F : fitting (getAxisIds s)).
  { intros i n k E K. assert (I : (i < NAxis)%nat) by (rewrite <- Len; apply nth_error_Some; congruence).
    rewrite (Nth i I) in E. injection E as <-. unfold axisId in K. destruct (H1 i) as [[X _]|X].
    - rewrite X in K. destruct K as [K _]. now injection K as ->.
    - exfalso. exact (proj2 X k K). }
  destruct (axm_set [] (getAxisIds s) setAxisMap_vec (or_intror eq_refl) F) as (A1 & A2 & A3 & A4 & _); [lia|].
  change (after []) with start in *. fold r in A1, A2, A3, A4.
  split; [exact A1|]. split.
  - intros i I.
    { destruct (H1 i) as [[X G]|X].
      * rewrite A3.
        -- unfold axisId. rewrite X. destruct i as [|[|[|[|i]]]]; try lia. unfold start. rewrite (proj1 (reset_names _)). reflexivity.
        -- intros n E. rewrite (Nth i I) in E. injection E as <-. unfold axisId. rewrite X. intros [_ Y]. apply (Y (Z.of_nat i)). split; [reflexivity|lia].
      * apply A2; [|exact X]. now apply Nth. }
  - intros D i I N. apply A4; [exact N|]. split; [now apply Nth|].
    intros j E. assert (J : (j < NAxis)%nat) by (rewrite <- Len; apply nth_error_Some; congruence).
    rewrite (Nth j J) in E. injection E as E. rewrite (D j i J I E). lia.
Qed.

Definition U : hiid := [-1006].
Definition V : hiid := [-1014].

(** A replaced name still leads to its old axis, so that name and number no longer
    belong together, TIME is an axis with another name, and addAxis cannot make
    an axis for the old name. *)
Theorem axm_stale_refuted : exists cs,
  let s := after cs in
  (exists l, cs = [SetVec l] /\ fitting l /\ NoDup l) /\
  axis [AidTime] s = Some 0 /\ a_time s = 0%nat /\ axisId 0 s = U /\
  addAxis [AidTime] s = (s, true) /\ forall i, (i < NAxis)%nat -> axisId i s <> [AidTime].
Proof.
  exists [SetVec [U; V]]. intros s. split.
  { exists [U; V]. split; [reflexivity|]. split.
    - intros [|[|i]] n k E [-> K]; cbn [nth_error] in E; [injection E as <-; lia|injection E as <-; lia|destruct i; discriminate].
    - constructor; [|constructor; [intros []|constructor]]. intros [E|[]]. discriminate. }
  split; [reflexivity|]. split; [reflexivity|]. split; [reflexivity|]. split; [reflexivity|].
  intros i I. do 8 (destruct i as [|i]; [intros X; vm_compute in X; discriminate|]). unfold NAxis in I. lia.
Qed.

(** A refused map is partly in force, and the map still counts as the default
    one, so that domains will not carry it. *)
Theorem axm_refused_refuted : exists l s,
  s = after [] /\ snd (setAxisMap_vec l s) = false /\ let s' := fst (setAxisMap_vec l s) in
  axisId 0 s' = U /\ axisId 0 s = [AidTime] /\ a_default s' = true.
Proof. exists [U; [7]], (after []). repeat split; reflexivity. Qed.

(** A receiver with other names of its own keeps those at axes the sender has not
    named; and where two axes of the sender have one name, the name can lead to
    another axis at the receiver. *)
Theorem axm_copy_refuted :
  (exists cs cs', let s := after cs in let r := fst (setAxisMap_vec (getAxisIds s) (after cs')) in
     axisId 4 s = [4] /\ axisId 4 r = U) /\
  (exists cs, let s := after cs in let r := fst (setAxisMap_vec (getAxisIds s) start) in
     axis [AidFreq] s = Some 0 /\ axis [AidFreq] r = Some 1 /\ forall i, (i < NAxis)%nat -> axisId i r = axisId i s).
Proof.
  split.
  - exists [], [Add U]. split; reflexivity.
  - exists [SetVec [[AidFreq]]]. split; [reflexivity|]. split; [reflexivity|].
    intros i I. do 8 (destruct i as [|i]; [reflexivity|]). unfold NAxis in I. lia.
Qed.

(** U and V are added after the default axes, whichever is asked for again *)
Example axm_ex : let s := after [Add U; Add [AidTime]; Add V; Add U; Add [6]] in
  axis U s = Some 4 /\ axis V s = Some 5 /\ axisId 5 s = V /\ axisId 6 s = [6] /\ a_default s = false /\
  getAxisIds s = [[AidTime]; [AidFreq]; [AidL]; [AidM]; U; V; [6]; [7]].
Proof. repeat split; reflexivity. Qed.
(** frequency first *)
Example axm_swap_ex : let s := after [SetArr [[AidFreq]; [AidTime]; []; [3]]] in
  a_time s = 1%nat /\ a_freq s = 0%nat /\ axisId 0 s = [AidFreq] /\ axisId 2 s = [AidL].
Proof. repeat split; reflexivity. Qed.
(** five more names do not fit *)
Example axm_full_ex : let s := after [Add U; Add V; Add [-1001]; Add [-1002; 7]] in
  addAxis [-1003] s = (s, false) /\ axis [-1002; 7] s = Some 7 /\ axis [12] s = Some 12.
Proof. repeat split; reflexivity. Qed.

Print Assumptions axm_time_freq.
Print Assumptions axm_set.
Print Assumptions axm_refused.
Print Assumptions axm_add.
Print Assumptions axm_adds_only.
Print Assumptions axm_copy.
Print Assumptions axm_stale_refuted.
Print Assumptions axm_refused_refuted.
Print Assumptions axm_copy_refuted.
