(** Theorems about VellSets (C42, C43, C47, C48). *)
From Coq Require Import Permutation.
From Verif Require Import Base Vset_Model Vset_Spec Vset_Proofs.

Lemma varying_vary v : wf_vells v -> varying v = vary v.
Proof.
  destruct v as [s|]; [|reflexivity]. cbn. intro P. pose proof (scalar_iff s P) as X. destruct (isScalar s) eqn:E, (existsb (Nat.ltb 1) s) eqn:Ex; auto.
  - apply existsb_exists in Ex as (x & Hx & L). apply Nat.ltb_lt in L. apply (In_nth _ _ 1) in Hx as (i & _ & <-). pose proof (proj1 X eq_refl i) as Y. unfold extent in Y. lia.
  - exfalso. assert (false = true); [|discriminate]. apply X. intro i. pose proof (pos_extent s i P). destruct (Nat.eq_dec (extent s i) 1); auto. exfalso. rewrite <- not_true_iff_false in Ex. apply Ex, existsb_exists. exists (extent s i).
    split; [|apply Nat.ltb_lt; lia]. unfold extent in *. destruct (nth_in_or_default i s 1); [auto|lia].
Qed.
Lemma proper_wf o : proper o -> wf_vells (array o).
Proof. intro H. destruct (array o) as [s|] eqn:E; [|exact I]. intros x Hx. eapply H; eauto. Qed.
(** a setter is adjustShape and a change elsewhere *)
Lemma do_set_adjust o s : match do_set o s with
  | Ok s' => exists s1, (adjustShape (array o) s = Ok s1 /\ vs_shape s' = vs_shape s1)
  | Err => adjustShape (array o) s = Err
  | UB => (exists i k v, o = SPert i k v) \/ adjustShape (array o) s = UB
  end.
Proof.
  destruct o as [v|v|v|i k v| |]; cbn [do_set array]; unfold setValue, setDataFlags, setDataWeights, setPerturbedValue; try (destruct (adjustShape v s) as [s1| |]; cbn [bind]; [exists s1; auto|reflexivity|auto]; fail); try (exists s; auto; fail).
  destruct (nth_error (vs_pert s) k) as [ps|]; [|left; eauto]. destruct (Nat.leb _ _); [left; eauto|]. destruct (adjustShape v s) as [s1| |]; cbn [bind]; [exists s1; auto|reflexivity|left; eauto].
Qed.
Lemma adjustShape_not_ub v s : pos (vs_shape s) -> wf_vells v -> adjustShape v s <> UB.
Proof.
  intros P W. pose proof (adjustShape_cases v s P W) as X. destruct (vary v) as [|vs l]; [congruence|]. destruct X as [X1 X2]. intro E.
  destruct (disagree (vs_shape s) vs) as (i & H1 & H2 & H3). - intro A. destruct (X1 A) as (s' & Y & _). congruence. - rewrite (X2 i H1 H2 H3) in E. discriminate.
Qed.
Lemma history_max nspid nset s l : history nspid nset s l -> conforming l /\ is_max l (vs_shape s).
Proof.
  induction 1 as [|s l o s' _ [C M] W E]; [split; [intros a b i []|apply is_max_nil]|]. pose proof (is_max_pos _ _ M) as P. pose proof (proper_wf o W) as Wv. rewrite (varying_vary _ Wv).
  pose proof (do_set_adjust o s) as D. rewrite E in D. destruct D as (s1 & D & Es). rewrite Es. pose proof (adjustShape_cases _ s P Wv) as X. destruct (vary (array o)) as [|vs k] eqn:Ev.
  - rewrite X in D. injection D as <-. auto.
  - assert (k = []) as -> by (destruct (array o) as [z|]; [cbn in Ev; destruct (isScalar z); congruence|discriminate]). destruct X as [X1 X2].
    assert (A : agree (vs_shape s) vs). { intros i H1 H2. destruct (Nat.eq_dec (extent (vs_shape s) i) (extent vs i)) as [|Ne]; auto. rewrite (X2 i H1 H2 Ne) in D. discriminate. }
    destruct (X1 A) as (s2 & Y & L & Ex). rewrite Y in D. injection D as <-. cbn [vs_shape with_shape app]. split; [eapply agree_conf; eauto|]. eapply is_max_cons; eauto.
Qed.

Lemma upd_nth_length {A} (l : list A) i f : length (upd_nth l i f) = length l.
Proof. revert i. induction l as [|x l IH]; intros [|i]; cbn; auto. Qed.
Lemma upd_nth_Forall {A} (P : A -> Prop) l k f : (forall x, P x -> P (f x)) -> (forall x, In x l -> P x) -> forall x, In x (upd_nth l k f) -> P x.
Proof.
  intro Hf. revert k. induction l as [|y l IH]; intros [|k] H x Hx; cbn [upd_nth] in Hx; try contradiction.
  - destruct Hx as [<-|Hx]; [apply Hf|]; apply H; [now left|now right].
  - destruct Hx as [<-|Hx]; [apply H; now left|]. apply (IH k); auto. intros z Hz. apply H. now right.
Qed.
(** C42.  The shape is the per-axis maximum of the shapes of all varying arrays accepted; a
    setter (called with an index that exists) refuses an array exactly when it does not conform
    to those accepted before.  Modelled as an exception before anything is stored. *)
Theorem vellset_shape_is_max : forall nspid nset s l, history nspid nset s l ->
  conforming l /\ is_max l (vs_shape s) /\
  forall o, proper o -> match o with SPert i iset _ => i < nspid /\ iset < nset | _ => True end ->
    (do_set o s = Err <-> ~ conforming (varying (array o) ++ l)) /\ (conforming (varying (array o) ++ l) -> exists s', do_set o s = Ok s').
Proof.
  intros nspid nset s l H. destruct (history_max _ _ _ _ H) as [C M]. split; [auto|split; [auto|]]. intros o W Ix. pose proof (is_max_pos _ _ M) as P. pose proof (proper_wf o W) as Wv. rewrite (varying_vary _ Wv).
  assert (Pt : length (vs_pert s) = nset /\ forall ps, In ps (vs_pert s) -> length ps = nspid).
  { clear - H. induction H as [|s l o s' _ [IH1 IH2] _ E]; cbn [vset_new vs_pert].
    - rewrite repeat_length. split; [reflexivity|]. intros ps Hp. apply repeat_spec in Hp. subst. apply repeat_length.
    - assert (K : vs_pert s' = vs_pert s \/ exists i k v, vs_pert s' = upd_nth (vs_pert s) k (fun ps => upd_nth ps i (fun _ => v))).
      { assert (A : forall v s1, adjustShape v s = Ok s1 -> vs_pert s1 = vs_pert s).
        { intros v s1. unfold adjustShape. destruct (adjust _ _) as [[c sh]| |]; cbn [bind fst snd]; try discriminate. destruct c; [|congruence]. unfold setShape. destruct (vs_shape s); [|destruct (isCompatible _ _); [|discriminate]]; intro X; injection X as <-; reflexivity. }
        destruct o as [v|v|v|i k v| |]; cbn [do_set] in E; unfold setValue, setDataFlags, setDataWeights, setPerturbedValue in E; try (destruct (adjustShape v s) as [s1| |] eqn:Ea; cbn [bind] in E; try discriminate; injection E as <-; left; cbn [vs_pert]; exact (A _ _ Ea)); try (injection E as <-; now left).
        destruct (nth_error (vs_pert s) k); [|discriminate]. destruct (Nat.leb _ _); [discriminate|]. destruct (adjustShape v s) as [s1| |] eqn:Ea; cbn [bind] in E; try discriminate. injection E as <-. cbn [vs_pert]. rewrite (A _ _ Ea). right. eauto. }
      destruct K as [->|(i & k & v & ->)]; [auto|]. rewrite upd_nth_length. split; [auto|]. apply upd_nth_Forall; auto. intros ps Hp. now rewrite upd_nth_length. }
  assert (NU : do_set o s <> UB).
  { pose proof (do_set_adjust o s) as D. intro E. rewrite E in D. pose proof (adjustShape_not_ub _ _ P Wv) as NU. destruct D as [(i & k & v & ->)|D]; [|congruence]. cbn [do_set array] in *. unfold setPerturbedValue in E. destruct Pt as [P1 P2].
    destruct (nth_error (vs_pert s) k) as [ps|] eqn:Ek; [|apply nth_error_None in Ek; lia]. rewrite (P2 ps (nth_error_In _ _ Ek)) in E. destruct (Nat.leb_spec nspid i); [lia|]. destruct (adjustShape v s); try discriminate. now apply NU. }
  pose proof (adjustShape_cases _ s P Wv) as X. pose proof (do_set_adjust o s) as D. destruct (vary (array o)) as [|vs k] eqn:Ev; cbn [app].
  - split; [split; [|contradiction]; intro E; rewrite E in D; congruence|]. intros _. destruct (do_set o s); [eauto|congruence|contradiction].
  - assert (k = []) as -> by (destruct (array o) as [z|]; [cbn in Ev; destruct (isScalar z); congruence|discriminate]). destruct X as [X1 X2]. cbn [app]. split; [split|].
    + intros E Cf. rewrite E in D. destruct (X1 (conf_agree _ _ _ M Cf)) as (s' & Y & _). congruence.
    + intro N. destruct (disagree (vs_shape s) vs) as (i & H1 & H2 & H3). { intro A. apply N. eapply agree_conf; eauto. } specialize (X2 i H1 H2 H3).
      destruct (do_set o s) as [s'| |] eqn:E; [destruct D as (s1 & D & _); congruence|reflexivity|contradiction].
    + intro Cf. destruct (X1 (conf_agree _ _ _ M Cf)) as (s' & Y & _). destruct (do_set o s) as [s2| |]; [eauto|congruence|contradiction].
Qed.
Print Assumptions vellset_shape_is_max.
(** the order in which the arrays were set does not matter, nor how often *)
Theorem vellset_shape_order : forall n1 n2 m1 m2 s1 s2 l1 l2, history n1 m1 s1 l1 -> history n2 m2 s2 l2 -> (forall a, In a l1 <-> In a l2) -> vs_shape s1 = vs_shape s2.
Proof.
  intros n1 n2 m1 m2 s1 s2 l1 l2 H1 H2 E. destruct (history_max _ _ _ _ H1) as [_ [L1 E1]]. destruct (history_max _ _ _ _ H2) as [_ [L2 E2]].
  assert (F : forall (f : list nat -> nat) b (l l' : list (list nat)), (forall a, In a l -> In a l') -> fold_right Nat.max b (map f l) <= fold_right Nat.max b (map f l')).
  { clear. intros f b l l'. induction l as [|x l IH]; intro H; cbn [map fold_right].
    - clear. induction l'; cbn; lia.
    - apply Nat.max_lub; [|apply IH; intros a Ha; apply H; now right]. specialize (H x (or_introl eq_refl)). clear - H. induction l' as [|y l' IH]; [contradiction|]. cbn. destruct H as [->|H]; [lia|]. specialize (IH H). lia. }
  apply shape_eq; [rewrite L1, L2|intro i; rewrite E1, E2]; apply Nat.le_antisymm; apply F; intros a Ha; apply E; exact Ha.
Qed.
Print Assumptions vellset_shape_order.
(** setShape (VellSet.h:101: "will throw exception if a non-conformant shape is already set,
    although the new shape may have more axes of variability") also accepts shapes with fewer
    axes, so that the shape no longer covers the value. *)
Theorem vellset_setShape_refuted : exists s l s', history 0 1 s l /\ setShape [3] s = Ok s' /\ vs_value s' = Some (Some [3; 4]) /\ vs_shape s' = [3] /\ ~ conforming ([[3; 5]] ++ [[3; 4]]) /\
  exists s'', setDataWeights (Some [3; 5]) s' = Ok s''.
Proof.
  destruct (do_set (SValue (Some [3; 4])) (vset_new 0 1)) as [s| |] eqn:E; try discriminate. vm_compute in E. injection E as <-.
  do 3 eexists. split; [eapply (h_set 0 1 _ _ (SValue (Some [3; 4]))); [apply h_new| |reflexivity]|].
  - intros z x H Hx. injection H as <-. cbn in Hx. intuition lia.
  - split; [reflexivity|]. split; [reflexivity|]. split; [reflexivity|]. split; [|eexists; reflexivity].
    intro C. specialize (C [3; 5] [3; 4] 1 (or_introl eq_refl) (or_intror (or_introl eq_refl))). cbn in C. lia.
Qed.
Print Assumptions vellset_setShape_refuted.

(** C47.  verifyShape() on any history: if it does not throw and some array varies, the shape is
    recomputed.  Missing: it should never throw and should also forget the shape when no array
    varies any more. *)
Definition stored (s : vellset) : list (list nat) := flat_map varying (contents s).
Lemma adjust_all_max : forall l c shp k r, (forall v, In v l -> wf_vells v) -> is_max k shp -> conforming k -> adjust_all (c, shp) l = Ok r ->
  is_max (rev (flat_map varying l) ++ k) (snd r) /\ (c = true -> fst r = true) /\ (shp = [] -> flat_map varying l <> [] -> fst r = true).
Proof.
  induction l as [|v l IH]; intros c shp k r W M C E; cbn [adjust_all] in E; [injection E as <-; cbn; split; [auto|]; split; [auto|]; intros _ N; now elim N|].
  pose proof (is_max_pos _ _ M) as P. assert (Wv := W v (or_introl eq_refl)). assert (Wl : forall v, In v l -> wf_vells v) by (intros; apply W; now right). cbn [flat_map]. rewrite (varying_vary v Wv). cbn [fst snd] in E. destruct v as [vs|]; [|cbn in E; rewrite orb_false_r in E; exact (IH _ _ _ _ Wl M C E)].
  cbn [vary] in *. destruct (isScalar vs) eqn:Sc.
  { unfold adjust in E. rewrite Sc in E. cbn [bind fst snd] in E. rewrite orb_false_r in E. exact (IH _ _ _ _ Wl M C E). }
  assert (A : agree shp vs). { intros i H1 H2. destruct (Nat.eq_dec (extent shp i) (extent vs i)) as [|Ne]; auto. rewrite (adjust_err _ _ i P Wv Sc H1 H2 Ne) in E. discriminate. }
  destruct (adjust_ok _ _ P Wv Sc A) as (c' & s' & Ea & L & Ex & Ec). rewrite Ea in E. cbn [bind fst snd] in E.
  apply (IH _ s' (vs :: k)) in E; [|auto|eapply is_max_cons; eauto|eapply agree_conf; eauto]. destruct E as (E1 & E2 & E3). split; [|split].
  - cbn [app rev]. rewrite <- app_assoc. exact E1.
  - intros ->. apply E2. reflexivity.
  - intros -> _. apply E2. unfold adjust in Ea. rewrite Sc in Ea. injection Ea as <- <-. apply orb_true_r.
Qed.
Lemma is_max_rev l s : is_max (rev l) s -> is_max l s.
Proof.
  assert (F : forall (f : list nat -> nat) b l, fold_right Nat.max b (map f (rev l)) = fold_right Nat.max b (map f l)).
  { intros f b. assert (G : forall l x, fold_right Nat.max b (l ++ [x]) = Nat.max x (fold_right Nat.max b l)) by (induction l0 as [|y l0 IH]; intro x; cbn; [lia|rewrite IH; lia]).
    induction l0 as [|y l0 IH]; [reflexivity|]. cbn [rev map]. rewrite map_app. cbn [map]. rewrite G, IH. reflexivity. }
  intros [L E]. rewrite F in L. split; [exact L|]. intro i. rewrite E. apply F.
Qed.
Lemma history_contents nspid nset s l : history nspid nset s l -> (forall v, In v (contents s) -> wf_vells v) /\ vs_weights s <> WDangling.
Proof.
  assert (B : forall v s s1, adjustShape v s = Ok s1 -> vs_value s1 = vs_value s /\ vs_flags s1 = vs_flags s /\ vs_weights s1 = vs_weights s /\ vs_pert s1 = vs_pert s).
  { intros v s0 s1. unfold adjustShape. destruct (adjust _ _) as [[c sh]| |]; cbn [bind fst snd]; try discriminate. destruct c; [|intro X; injection X as <-; auto]. unfold setShape. destruct (vs_shape s0); [|destruct (isCompatible _ _); [|discriminate]]; intro X; injection X as <-; auto. }
  assert (Inc : forall v s, In v (contents s) <-> vs_value s = Some v \/ vs_flags s = Some v \/ vs_weights s = WTo v \/ exists ps, In ps (vs_pert s) /\ In v ps).
  { intros v s0. unfold contents. rewrite !in_app_iff, in_concat. assert (O : forall o : option vells, In v (opt_list o) <-> o = Some v) by (intros [x|]; cbn; split; intuition congruence). rewrite !O.
    assert (Wt : In v (weights_list (vs_weights s0)) <-> vs_weights s0 = WTo v) by (destruct (vs_weights s0); cbn; split; intuition congruence). rewrite Wt. tauto. }
  induction 1 as [|s l o s' _ [IH1 IH2] Pr E].
  - split; [|discriminate]. intros v Hv. apply Inc in Hv as [Hv|[Hv|[Hv|(ps & Hp & Hv)]]]; try discriminate. cbn in Hp. apply repeat_spec in Hp. subst. apply repeat_spec in Hv. subst. exact I.
  - pose proof (proper_wf o Pr) as Wo. assert (IH : forall v, vs_value s = Some v \/ vs_flags s = Some v \/ vs_weights s = WTo v \/ (exists ps, In ps (vs_pert s) /\ In v ps) -> wf_vells v) by (intros v Hv; apply IH1, Inc, Hv).
    destruct o as [v|v|v|i k v| |]; cbn [do_set array] in *; unfold setValue, setDataFlags, setDataWeights, setPerturbedValue in E.
    1,2,3: destruct (adjustShape v s) as [s1| |] eqn:Ea; cbn [bind] in E; try discriminate; injection E as <-; destruct (B _ _ _ Ea) as (B1 & B2 & B3 & B4); cbn [vs_weights]; rewrite ?B3; split; [|first [exact IH2|discriminate]]; intros x Hx; apply Inc in Hx; cbn [vs_value vs_flags vs_weights vs_pert] in Hx; rewrite ?B1, ?B2, ?B3, ?B4 in Hx; destruct Hx as [Hx|[Hx|[Hx|Hx]]]; try (injection Hx as <-; exact Wo); apply IH; tauto.
    + destruct (nth_error (vs_pert s) k) as [ps0|] eqn:Ek; [|discriminate]. destruct (Nat.leb _ _); [discriminate|]. destruct (adjustShape v s) as [s1| |] eqn:Ea; cbn [bind] in E; try discriminate; injection E as <-; destruct (B _ _ _ Ea) as (B1 & B2 & B3 & B4); cbn [vs_weights]; rewrite ?B3; split; [|exact IH2].
      intros x Hx. apply Inc in Hx. cbn [vs_value vs_flags vs_weights vs_pert] in Hx. rewrite ?B1, ?B2, ?B3, ?B4 in Hx. destruct Hx as [Hx|[Hx|[Hx|(ps & Hp & Hx)]]]; try (apply IH; tauto).
      revert ps Hp x Hx. apply (upd_nth_Forall (fun ps => forall x, In x ps -> wf_vells x)); [|intros ps Hp x Hx; apply IH; right; right; right; eauto].
      intros ps Hp. apply upd_nth_Forall; auto.
    + injection E as <-. cbn. split; [|exact IH2]. intros x Hx. apply Inc in Hx. cbn in Hx. apply IH. intuition discriminate.
    + injection E as <-. cbn. split; [|discriminate]. intros x Hx. apply Inc in Hx. cbn in Hx. apply IH. intuition discriminate.
Qed.
Theorem verifyShape_recomputes_partial : forall nspid nset s l s', history nspid nset s l -> verifyShape true s = Ok s' -> stored s <> [] -> is_max (stored s) (vs_shape s').
Proof.
  intros nspid nset s l s' H E N. destruct (history_contents _ _ _ _ H) as [W Wd]. unfold verifyShape in E.
  assert (E' : bind (adjust_all (false, []) (contents s)) (fun r => if fst r then setShape (snd r) s else Ok s) = Ok s') by (destruct (vs_weights s); [exact E|exact E|contradiction]).
  destruct (adjust_all (false, []) (contents s)) as [r| |] eqn:Ea; cbn [bind] in E'; try discriminate.
  destruct (adjust_all_max _ _ _ [] _ W is_max_nil ltac:(intros ? ? ? []) Ea) as (M & _ & F). rewrite (F eq_refl N) in E'. rewrite app_nil_r in M. apply is_max_rev in M.
  unfold setShape in E'. destruct (vs_shape s); [|destruct (isCompatible _ _); [|discriminate]]; injection E' as <-; exact M.
Qed.
Print Assumptions verifyShape_recomputes_partial.
(** VellSet.h:91-95 tells callers to call verifyShape() after the shape of a stored array has
    changed.  After replacing an array by one that varies less it throws, or keeps the old shape. *)
Theorem verifyShape_recomputes_refuted :
  (exists s l, history 0 1 s l /\ stored s = [[3; 1]] /\ vs_shape s = [3; 4] /\ verifyShape true s = Err) /\
  (exists s l, history 0 1 s l /\ stored s = [] /\ vs_shape s = [3; 4] /\ verifyShape true s = Ok s).
Proof.
  assert (H0 : exists s, history 0 1 s [[3; 4]] /\ do_set (SValue (Some [3; 4])) (vset_new 0 1) = Ok s).
  { eexists. split; [|reflexivity]. eapply (h_set 0 1 _ _ (SValue (Some [3; 4]))); [apply h_new| |reflexivity]. intros z x H Hx. injection H as <-. cbn in Hx. intuition lia. }
  destruct H0 as (s0 & H0 & E0). vm_compute in E0. injection E0 as <-. split.
  - do 2 eexists. split; [eapply (h_set 0 1 _ _ (SValue (Some [3; 1]))); [exact H0| |reflexivity]|auto]. intros z x H Hx. injection H as <-. cbn in Hx. intuition lia.
  - do 2 eexists. split; [eapply (h_set 0 1 _ _ (SValue (Some [1; 1]))); [exact H0| |reflexivity]|auto]. intros z x H Hx. injection H as <-. cbn in Hx. intuition lia.
Qed.
Print Assumptions verifyShape_recomputes_refuted.

(** C43.  addFail forgets the fails recorded before, on every VellSet. *)
Definition fails_of (a : failarg) : list nat := match a with FOne n => [n] | FList l => l end.
Theorem fails_accumulate_refuted : forall s a b, vs_fails (addFail b (addFail a s)) = Some (fails_of b).
Proof. intros s a [n|l]; reflexivity. Qed.
Print Assumptions fails_accumulate_refuted.
(** What is left of the property: the VellSet is a fail and holds the fails of the last call. *)
Theorem add_fail_last_partial : forall s a, let s' := addFail a s in
  vs_is_fail s' = true /\ numFails s' = length (fails_of a) /\ forall i, getFail s' i = nth_error (fails_of a) i.
Proof. intros s [n|l]; repeat split. Qed.
Print Assumptions add_fail_last_partial.

(** C48.  A fail holds no value, flags or perturbed values... *)
Theorem failed_vellset_empty_partial : forall s a, let s' := addFail a s in vs_value s' = None /\ vs_flags s' = None /\ concat (vs_pert s') = [] /\ vs_shape s' = [].
Proof. intros s a. repeat split. Qed.
Print Assumptions failed_vellset_empty_partial.
(** ... but if it had weights, it still claims to have them, and asking for them reads memory
    that has been freed. *)
Theorem failed_vellset_empty_refuted : forall nspid nset s l a, history nspid nset s l -> hasDataWeights s = true -> hasDataWeights (addFail a s) = true /\ dataWeights (addFail a s) = UB.
Proof. intros nspid nset s l a _ H. unfold hasDataWeights, dataWeights, addFail, clear in *. cbn [vs_weights]. destruct (vs_weights s); [discriminate|auto|auto]. Qed.
Print Assumptions failed_vellset_empty_refuted.

(** Axis::mergeShape is the same maximum, and fails exactly for shapes that do not conform *)
Theorem mergeShape_is_max : forall a b : list nat, (forall x, In x a -> 1 <= x) -> (forall x, In x b -> 1 <= x) -> match mergeShape a b with Some s => conforming [a; b] /\ is_max [a; b] s | None => ~ conforming [a; b] end.
Proof.
  assert (K : forall b a, pos a -> pos b -> length b <= length a -> match merge_loop a b with
     | Some s => agree a b /\ length s = length a /\ forall i, extent s i = Nat.max (extent a i) (extent b i) | None => ~ agree a b end).
  { induction b as [|y b IH]; intros a Pa Pb L.
    - cbn [merge_loop]. split; [intros i _ H; rewrite extent_nil in H; lia|]. split; [reflexivity|]. intro i. rewrite extent_nil. pose proof (pos_extent a i Pa). lia.
    - destruct a as [|x a]; [cbn in L; lia|]. apply pos_cons in Pa as [Px Pa], Pb as [Py Pb]. cbn [length] in L. specialize (IH a Pa Pb ltac:(lia)). cbn [merge_loop].
      assert (Tl : agree (x :: a) (y :: b) -> agree a b) by (intros H i; exact (H (S i))).
      assert (Hd : agree a b -> (1 < x -> 1 < y -> x = y) -> agree (x :: a) (y :: b)) by (intros H1 H2 [|i]; [exact H2|exact (H1 i)]).
      assert (Ex : forall z s, z = Nat.max x y -> (forall i, extent s i = Nat.max (extent a i) (extent b i)) -> forall i, extent (z :: s) i = Nat.max (extent (x :: a) i) (extent (y :: b) i)) by (intros z s H1 H2 [|i]; [exact H1|exact (H2 i)]).
      destruct (merge_loop a b) as [s|]; cbn [option_map].
      + destruct IH as (A & Ls & E). destruct (Nat.eqb_spec y 1) as [->|Ny]; [|destruct (Nat.eqb_spec x 1) as [->|Nx]; [|destruct (Nat.eqb_spec x y) as [->|Nxy]]].
        * split; [apply Hd; auto; lia|]. split; [cbn; lia|]. apply Ex; auto. lia.
        * split; [apply Hd; auto; lia|]. split; [cbn; lia|]. apply Ex; auto. lia.
        * split; [apply Hd; auto; lia|]. split; [cbn; lia|]. apply Ex; auto. lia.
        * intro H. specialize (H 0). cbn in H. lia.
      + destruct (Nat.eqb_spec y 1); [auto|destruct (Nat.eqb_spec x 1); [auto|destruct (Nat.eqb_spec x y); auto]]. }
  intros a b Pa Pb. unfold mergeShape.
  set (a' := if Nat.ltb (length a) (length b) then resize a (length b) 1 else a).
  assert (La : length a' = Nat.max (length a) (length b)) by (unfold a'; destruct (Nat.ltb_spec (length a) (length b)); [rewrite resize_length; lia|lia]).
  assert (Ea : forall i, extent a' i = extent a i).
  { intro i. unfold a'. destruct (Nat.ltb_spec (length a) (length b)); [|reflexivity]. unfold extent at 1. rewrite resize_nth by lia. destruct (Nat.ltb_spec i (length a)); [reflexivity|]. rewrite (extent_beyond a i) by lia. now destruct (Nat.ltb _ _). }
  assert (Pa' : pos a') by (intros x Hx; apply (In_nth _ _ 1) in Hx as (i & _ & <-); change (nth i a' 1) with (extent a' i); rewrite Ea; now apply pos_extent).
  specialize (K b a' Pa' Pb ltac:(lia)).
  assert (Ag : agree a' b <-> conforming [a; b]).
  { split.
    - intros H x y i Hx Hy. assert (Q : 1 < extent a i -> 1 < extent b i -> extent a i = extent b i) by (intros; rewrite <- Ea; apply H; rewrite ?Ea; auto). destruct Hx as [<-|[<-|[]]], Hy as [<-|[<-|[]]]; auto. intros. symmetry. auto.
    - intros H i. rewrite Ea. apply H; [now left|right; now left]. }
  destruct (merge_loop a' b) as [s|]; [|rewrite <- Ag; exact K]. destruct K as (A & L & E). split; [apply Ag; exact A|]. split; [cbn; lia|]. intro i. cbn. rewrite E, Ea. pose proof (pos_extent b i Pb). lia.
Qed.
Print Assumptions mergeShape_is_max.

(** value, flags and weights of different rank *)
Example ex_history : exists s, history 1 1 s [[1; 1; 2]; [3]; [1; 4]] /\ vs_shape s = [3; 4; 2] /\ do_set (SPert 0 0 (Some [3; 5])) s = Err.
Proof.
  eexists. split; [|split].
  - eapply (h_set 1 1 _ _ (SWeights (Some [1; 1; 2]))); [eapply (h_set 1 1 _ _ (SFlags (Some [3]))); [eapply (h_set 1 1 _ [] (SValue (Some [1; 4]))); [apply h_new| |reflexivity]| |reflexivity]| |reflexivity]; intros z x H Hx; injection H as <-; cbn in Hx; intuition lia.
  - reflexivity.
  - reflexivity.
Qed.
Example ex_verify : exists s, history 0 1 s [[1; 4]; [3]] /\ stored s = [[3]; [1; 4]] /\ exists s', verifyShape true s = Ok s' /\ vs_shape s' = [3; 4].
Proof.
  eexists. split; [|split].
  - eapply (h_set 0 1 _ _ (SFlags (Some [1; 4]))); [eapply (h_set 0 1 _ [] (SValue (Some [3]))); [apply h_new| |reflexivity]| |reflexivity]; intros z x H Hx; injection H as <-; cbn in Hx; intuition lia.
  - reflexivity.
  - eexists. split; reflexivity.
Qed.
