(** Proofs about sinks. *)
From Verif Require Import Base Hiid_Model Hiid_Proofs Vis_Model Vis_Spec Vis_Proofs.
Local Open Scope Z_scope.

Lemma shape_eqb_iff a b : shape_eqb a b = true <-> a = b.
Proof.
  unfold shape_eqb. revert b. induction a as [|x a IH]; intros [|y b];
    cbn [length Nat.eqb combine forallb andb];
    try (split; [reflexivity|reflexivity]); try (split; [discriminate|discriminate]).
  specialize (IH b). rewrite !andb_true_iff, !Nat.eqb_eq in *. split.
  - intros (L & -> & E). f_equal. apply IH. auto.
  - intros E. injection E as -> ->. destruct (proj2 IH eq_refl) as [L E]. auto.
Qed.

Lemma nelem_single s : nelem s = 1%nat <-> Forall (eq 1%nat) s.
Proof.
  induction s as [|x s IH]; cbn [nelem fold_right].
  - split; constructor.
  - fold (nelem s). rewrite Forall_cons_iff, <- IH. split.
    + intros H. apply Nat.eq_mul_1 in H. lia.
    + intros [<- H]. lia.
Qed.

Lemma single_along s a i : Forall (eq 1%nat) s -> along s a i = 0%nat.
Proof.
  intros H. unfold along. replace (nth a s 1%nat) with 1%nat; [reflexivity|].
  revert a. induction H as [|x s <- H IH]; intros [|a]; cbn; auto.
Qed.

Lemma isScalar_single {D} (v : vells D) : isScalar v = true <-> single v.
Proof. unfold isScalar, single. rewrite Nat.eqb_eq. apply nelem_single. Qed.

Section Sink.
Context {F D : Type} (N : num F D).

Lemma isNullSet_zero (s : vellset D) : isNullSet N s = true <-> zero N s.
Proof.
  unfold isNullSet, zero. destruct (s_value s) as [v|]; [|tauto].
  rewrite andb_true_iff, Nat.eqb_eq. unfold isNullVells. rewrite andb_true_iff, isScalar_single.
  split.
  - intros (A & B & C). right. exists v. split; [reflexivity|]. split; [exact A|]. split; [exact B|].
    unfold value. rewrite !(single_along _ _ _ B). destruct (v_vals v); [exact C|].
    now apply andb_true_iff in C.
  - intros [|(v' & E & A & B & C)]; [discriminate|]. injection E as <-.
    split; [exact A|]. split; [exact B|]. unfold value in C.
    rewrite !(single_along _ _ _ B) in C. destruct (v_vals v); [exact C|].
    now apply andb_true_iff.
Qed.

(** The value a sink writes agrees with the meaning of the Vells *)
Lemma written_value (v : vells D) nrows nf t f :
  isScalar v = true \/ v_shape v = [nrows; nf] -> (t < nrows)%nat -> (f < nf)%nat ->
  value v t f =
  match v_vals v with
  | VReal a => Re (if isScalar v then a 0%nat 0%nat else a t f)
  | VCplx a => let '(x, y) := if isScalar v then a 0%nat 0%nat else a t f in Cx x y
  end.
Proof.
  intros H T0 F0. unfold value. destruct (isScalar v) eqn:S0.
  - apply isScalar_single in S0. rewrite !(single_along _ _ _ S0).
    destruct (v_vals v); [reflexivity|]. destruct (a 0%nat 0%nat); reflexivity.
  - destruct H as [|H]; [discriminate|]. rewrite H.
    replace (along [nrows; nf] 0 t) with t
      by (unfold along; cbn; destruct (Nat.eqb_spec nrows 1); lia).
    replace (along [nrows; nf] 1 f) with f
      by (unfold along; cbn; destruct (Nat.eqb_spec nf 1); lia).
    destruct (v_vals v); [reflexivity|]. destruct (a t f); reflexivity.
Qed.

(** Whether a place is written for a VellSet going to [icorr] *)
Definition hits (rank3 : bool) (icorr r0 nrows c row : nat) : bool :=
  ((c =? (if rank3 then icorr else 0))%nat && (r0 <=? row)%nat && (row <? r0 + nrows)%nat).

Definition nullopt (s : option (vellset D)) : bool :=
  match s with None => true | Some s => isNullSet N s end.

(** What ends up at a place written for a VellSet *)
Definition holds_set (c : content F D) (s : option (vellset D)) (corr f row r0 : nat) : Prop :=
  if nullopt s then stored_zero N c corr f row
  else exists s' v, s = Some s' /\ s_value s' = Some v /\
       stored N c corr f row (value v (row - r0) f).

Definition kind (c : content F D) : nat :=
  match c with CDouble _ => 0%nat | CFloat _ => 1%nat | CComplex _ => 2%nat | COther => 3%nat end.

Lemma same_at_refl (c : content F D) corr f row : same_at c c corr f row.
Proof. destruct c; cbn; auto. Qed.

Lemma same_at_trans (a b c : content F D) corr f row :
  same_at a b corr f row -> same_at b c corr f row -> same_at a c corr f row.
Proof. destruct a, b; cbn; try contradiction; destruct c; cbn; try contradiction; try congruence; auto. Qed.

Lemma stored_same (c c' : content F D) corr f row x :
  same_at c c' corr f row -> stored N c' corr f row x -> stored N c corr f row x.
Proof. destruct c, c'; cbn; try contradiction; destruct x; try contradiction; congruence. Qed.

Lemma stored_zero_same (c c' : content F D) corr f row :
  same_at c c' corr f row -> stored_zero N c' corr f row -> stored_zero N c corr f row.
Proof. destruct c, c'; cbn; try contradiction; congruence. Qed.

Lemma holds_set_same (c c' : content F D) s corr f row r0 :
  same_at c c' corr f row -> holds_set c' s corr f row r0 -> holds_set c s corr f row r0.
Proof.
  intros S0. unfold holds_set. destruct (nullopt s).
  - now apply stored_zero_same.
  - intros (s' & v & A & B & C). exists s', v. split; [exact A|]. split; [exact B|].
    eapply stored_same; eassumption.
Qed.

Lemma writeData_at c rank3 nf icorr r0 nrows s c' corr f row :
  writeData N c rank3 nf icorr r0 nrows s = Ok c' -> (f < nf)%nat ->
  kind c' = kind c /\
  (if hits rank3 icorr r0 nrows corr row then holds_set c' s corr f row r0
   else same_at c' c corr f row).
Proof.
  intros H F0. unfold writeData in H. fold (nullopt s) in H. unfold holds_set.
  destruct (nullopt s) eqn:Z0.
  - destruct c; try discriminate; injection H as <-; (split; [reflexivity|]);
      cbn [stored_zero same_at]; unfold store; fold (hits rank3 icorr r0 nrows corr row);
      destruct (hits rank3 icorr r0 nrows corr row); reflexivity.
  - destruct s as [s|]; [|discriminate]. destruct (s_value s) as [v|] eqn:V; [|discriminate].
    destruct (negb (isScalar v) && negb (shape_eqb (v_shape v) [nrows; nf])) eqn:G; [discriminate|].
    assert (W : isScalar v = true \/ v_shape v = [nrows; nf]).
    { destruct (isScalar v); [auto|]. right. apply shape_eqb_iff.
      destruct (shape_eqb (v_shape v) [nrows; nf]); [reflexivity|discriminate]. }
    destruct (hits rank3 icorr r0 nrows corr row) eqn:HH.
    + assert (R : (r0 <= row < r0 + nrows)%nat).
      { unfold hits in HH. apply andb_true_iff in HH as [HH1 HH2].
        apply andb_true_iff in HH1 as [_ HH1].
        apply Nat.leb_le in HH1. apply Nat.ltb_lt in HH2. lia. }
      pose proof (written_value v nrows nf (row - r0) f W ltac:(lia) F0) as E.
      enough (X : kind c' = kind c /\ stored N c' corr f row (value v (row - r0) f))
        by (destruct X as [X1 X2]; split; [exact X1|]; exists s, v; auto).
      rewrite E. clear E.
      destruct (v_vals v) as [b|b], c as [a|a|a|]; try discriminate;
        injection H as <-; (split; [reflexivity|]).
      * cbn [stored]. unfold store. fold (hits rank3 icorr r0 nrows corr row). rewrite HH.
        destruct (isScalar v); reflexivity.
      * cbn [stored]. unfold store. fold (hits rank3 icorr r0 nrows corr row). rewrite HH.
        destruct (isScalar v); reflexivity.
      * destruct (if isScalar v then b 0%nat 0%nat else b (row - r0)%nat f) as [x y] eqn:B.
        cbn [stored]. unfold store. fold (hits rank3 icorr r0 nrows corr row). rewrite HH, B.
        reflexivity.
    + destruct (v_vals v) as [b|b], c as [a|a|a|]; try discriminate;
        injection H as <-; (split; [reflexivity|]);
        cbn [same_at]; unfold store; fold (hits rank3 icorr r0 nrows corr row); rewrite HH;
        reflexivity.
Qed.

(** What is written into the flags at a place *)
Definition new_flag (k : sink F D) (tnrow nf r0 nrows : nat) (s : option (vellset D)) (f row : nat)
    (old : Z) : Z :=
  if nullopt s || (k_flag_mask k =? 0) then old
  else match s with
       | Some s' =>
           match s_value s' with
           | Some v =>
               match v_flags v with
               | None => 0
               | Some g =>
                   if isCompatible (g_shape g) [tnrow; nf]
                   then with_bit (k_flag_bit k) (Z.land (flag v (row - r0) f) (k_flag_mask k))
                   else old
               end
           | None => old
           end
       | None => old
       end.

Lemma isCompatible_refl s : isCompatible s s = true.
Proof. induction s as [|x s IH]; cbn; [reflexivity|]. rewrite Nat.eqb_refl, orb_true_r, IH. reflexivity. Qed.

Lemma writeFlags_at k tnrow nf icorr r0 nrows s fl fl' corr f row :
  writeFlags N k tnrow nf icorr r0 nrows s fl = Ok fl' -> (f < nf)%nat ->
  (nrows <= tnrow)%nat ->
  fl' corr f row =
  if hits true icorr r0 nrows corr row then new_flag k tnrow nf r0 nrows s f row (fl corr f row)
  else fl corr f row.
Proof.
  intros H F0 L. unfold writeFlags in H. fold (nullopt s) in H. unfold new_flag.
  destruct (nullopt s || (k_flag_mask k =? 0)).
  { injection H as <-. destruct (hits _ _ _ _ _ _); reflexivity. }
  destruct s as [s|]; [|injection H as <-; destruct (hits _ _ _ _ _ _); reflexivity].
  destruct (s_value s) as [v|]; [|injection H as <-; destruct (hits _ _ _ _ _ _); reflexivity].
  unfold flag.
  destruct (v_flags v) as [g|].
  2:{ injection H as <-. unfold store. fold (hits true icorr r0 nrows corr row).
      destruct (hits _ _ _ _ _ _); reflexivity. }
  destruct (shape_eqb (g_shape g) [tnrow; nf]) eqn:E.
  - apply shape_eqb_iff in E. rewrite E, isCompatible_refl. injection H as <-.
    unfold store. fold (hits true icorr r0 nrows corr row).
    destruct (hits true icorr r0 nrows corr row) eqn:HH; [|reflexivity].
    assert (R : (r0 <= row < r0 + nrows)%nat).
    { unfold hits in HH. apply andb_true_iff in HH as [HH1 HH2].
      apply andb_true_iff in HH1 as [_ HH1].
      apply Nat.leb_le in HH1. apply Nat.ltb_lt in HH2. lia. }
    replace (along [tnrow; nf] 0 (row - r0)) with (row - r0)%nat
      by (unfold along; cbn; destruct (Nat.eqb_spec tnrow 1); lia).
    replace (along [tnrow; nf] 1 f) with f
      by (unfold along; cbn; destruct (Nat.eqb_spec nf 1); lia).
    reflexivity.
  - destruct (isCompatible (g_shape g) [tnrow; nf]) eqn:C.
    + destruct (2 <? length (g_shape g))%nat; [discriminate|]. injection H as <-.
      unfold store. fold (hits true icorr r0 nrows corr row).
      destruct (hits _ _ _ _ _ _); [|reflexivity].
      unfold with_bit, along. rewrite Z.land_comm. reflexivity.
    + injection H as <-. destruct (hits _ _ _ _ _ _); reflexivity.
Qed.

(** The loop over VellSets *)
Definition target (k : sink F D) (ncorr ivs : nat) : option nat :=
  let icorr := mapOutputCorr (k_corrs k) ivs in
  if (icorr <? 0) || (Z.of_nat ncorr <=? icorr) then None else Some (Z.to_nat icorr).

Fixpoint lastw (k : sink F D) (ncorr : nat) (rank3 : bool) (r0 nrows c row ivs : nat)
    (l : list (option (vellset D))) (acc : option (option (vellset D)))
    : option (option (vellset D)) :=
  match l with
  | [] => acc
  | s :: l' =>
      lastw k ncorr rank3 r0 nrows c row (S ivs) l'
        (match target k ncorr ivs with
         | Some ic => if hits rank3 ic r0 nrows c row then Some s else acc
         | None => acc
         end)
  end.

Lemma writeSets_data k T rank3 nf r0 nrows corr f row : (f < nf)%nat ->
  forall l ivs c fl b c' fl' b' c0 acc,
  writeSets N k T rank3 nf r0 nrows ivs l (c, fl, b) = Ok (c', fl', b') ->
  kind c = kind c0 ->
  match acc with Some s => holds_set c s corr f row r0 | None => same_at c c0 corr f row end ->
  kind c' = kind c0 /\
  match lastw k (t_ncorr T) rank3 r0 nrows corr row ivs l acc with
  | Some s => holds_set c' s corr f row r0
  | None => same_at c' c0 corr f row
  end.
Proof.
  intros F0. induction l as [|s l IH]; intros ivs c fl b c' fl' b' c0 acc H K A.
  - cbn [writeSets] in H. injection H as <- _ _. cbn [lastw]. auto.
  - cbn [writeSets] in H. cbn [lastw]. unfold target.
    destruct ((mapOutputCorr (k_corrs k) ivs <? 0)
              || (Z.of_nat (t_ncorr T) <=? mapOutputCorr (k_corrs k) ivs)).
    + eapply IH; eassumption.
    + destruct (writeData N c rank3 nf _ r0 nrows s) as [c1|] eqn:W; [|discriminate].
      destruct (writeFlags N k _ nf _ r0 nrows s fl) as [fl1|] eqn:G; [|discriminate].
      pose proof (writeData_at _ _ _ _ _ _ _ _ corr f row W F0) as [K1 B1].
      apply (IH _ _ _ _ _ _ _ c0 _ H); [congruence|].
      destruct (hits rank3 _ r0 nrows corr row); [exact B1|].
      destruct acc as [s0|].
      * eapply holds_set_same; eassumption.
      * eapply same_at_trans; eassumption.
Qed.

(** The flags: an accumulated value *)
Fixpoint foldw (k : sink F D) (ncorr tnrow nf r0 nrows c f row ivs : nat)
    (l : list (option (vellset D))) (acc : Z) : Z :=
  match l with
  | [] => acc
  | s :: l' =>
      foldw k ncorr tnrow nf r0 nrows c f row (S ivs) l'
        (match target k ncorr ivs with
         | Some ic => if hits true ic r0 nrows c row
                      then new_flag k tnrow nf r0 nrows s f row acc else acc
         | None => acc
         end)
  end.

Lemma writeSets_flags k T rank3 nf r0 nrows corr f row :
  (f < nf)%nat -> (nrows <= t_nrow T)%nat ->
  forall l ivs c fl b c' fl' b',
  writeSets N k T rank3 nf r0 nrows ivs l (c, fl, b) = Ok (c', fl', b') ->
  fl' corr f row = foldw k (t_ncorr T) (t_nrow T) nf r0 nrows corr f row ivs l (fl corr f row).
Proof.
  intros F0 L. induction l as [|s l IH]; intros ivs c fl b c' fl' b' H.
  - cbn [writeSets] in H. injection H as _ <- _. reflexivity.
  - cbn [writeSets] in H. cbn [foldw]. unfold target.
    destruct ((mapOutputCorr (k_corrs k) ivs <? 0)
              || (Z.of_nat (t_ncorr T) <=? mapOutputCorr (k_corrs k) ivs)).
    + eapply IH; eassumption.
    + destruct (writeData N c rank3 nf _ r0 nrows s) as [c1|] eqn:W; [|discriminate].
      destruct (writeFlags N k _ nf _ r0 nrows s fl) as [fl1|] eqn:G; [|discriminate].
      rewrite (IH _ _ _ _ _ _ _ H).
      rewrite (writeFlags_at _ _ _ _ _ _ _ _ _ corr f row G F0 L). reflexivity.
Qed.

(* ---------------------------------------------------------------- *)
(** * Which VellSet is the last *)

Lemma target_goes k ncorr ivs c :
  (c < ncorr)%nat -> (target k ncorr ivs = Some c <-> goes_to (k_corrs k) ivs c).
Proof.
  intros C. unfold target, mapOutputCorr, goes_to. destruct (k_corrs k) as [|x l].
  - destruct (Z.ltb_spec (Z.of_nat ivs) 0); [lia|]. cbn [orb].
    destruct (Z.leb_spec (Z.of_nat ncorr) (Z.of_nat ivs)).
    + split; [discriminate|lia].
    + rewrite Nat2Z.id. split; [intros E; now injection E|intros ->; reflexivity].
  - set (q := x :: l). clearbody q. destruct (nth_error q ivs) as [y|] eqn:E.
    + rewrite (nth_error_nth _ _ _ E).
      destruct (Z.ltb_spec y 0); cbn [orb]; [split; [discriminate|intros K; injection K as ->; lia]|].
      destruct (Z.leb_spec (Z.of_nat ncorr) y).
      * split; [discriminate|intros K; injection K as ->; lia].
      * split; [intros K; injection K as <-; f_equal; lia|intros K; injection K as ->; f_equal; lia].
    + apply nth_error_None in E. rewrite nth_overflow by exact E. cbn. split; discriminate.
Qed.

Lemma target_bound k ncorr ivs ic : target k ncorr ivs = Some ic -> (ic < ncorr)%nat.
Proof.
  unfold target. destruct (Z.ltb_spec (mapOutputCorr (k_corrs k) ivs) 0); [discriminate|].
  cbn [orb]. destruct (Z.leb_spec (Z.of_nat ncorr) (mapOutputCorr (k_corrs k) ivs)); [discriminate|].
  intros E. injection E as <-. lia.
Qed.

Lemma hits3 ic r0 nrows c row :
  (r0 <= row < r0 + nrows)%nat -> hits true ic r0 nrows c row = (c =? ic)%nat.
Proof.
  intros R. unfold hits. destruct (Nat.leb_spec r0 row); [|lia].
  destruct (Nat.ltb_spec row (r0 + nrows)); [|lia]. rewrite !andb_true_r. reflexivity.
Qed.

Lemma hits_out rank3 ic r0 nrows c row :
  ~ (r0 <= row < r0 + nrows)%nat -> hits rank3 ic r0 nrows c row = false.
Proof.
  intros R. unfold hits. destruct (Nat.leb_spec r0 row); [|rewrite andb_false_r; reflexivity].
  destruct (Nat.ltb_spec row (r0 + nrows)); [lia|]. apply andb_false_r.
Qed.

Lemma lastw_out k ncorr rank3 r0 nrows c row l : ~ (r0 <= row < r0 + nrows)%nat ->
  forall ivs acc, lastw k ncorr rank3 r0 nrows c row ivs l acc = acc.
Proof.
  intros R. induction l as [|s l IH]; intros ivs acc; cbn [lastw]; [reflexivity|].
  rewrite IH. destruct (target k ncorr ivs); [|reflexivity]. rewrite hits_out by exact R. reflexivity.
Qed.

Lemma foldw_out k ncorr tn nf r0 nrows c f row l : ~ (r0 <= row < r0 + nrows)%nat ->
  forall ivs acc, foldw k ncorr tn nf r0 nrows c f row ivs l acc = acc.
Proof.
  intros R. induction l as [|s l IH]; intros ivs acc; cbn [foldw]; [reflexivity|].
  rewrite IH. destruct (target k ncorr ivs); [|reflexivity]. rewrite hits_out by exact R. reflexivity.
Qed.

Lemma step_hit k ncorr r0 nrows c row ivs (A : Type) (x y : A) :
  (c < ncorr)%nat -> (r0 <= row < r0 + nrows)%nat -> goes_to (k_corrs k) ivs c ->
  match target k ncorr ivs with
  | Some ic => if hits true ic r0 nrows c row then x else y
  | None => y
  end = x.
Proof.
  intros C R G. apply (target_goes k ncorr ivs c C) in G. rewrite G, (hits3 _ _ _ _ _ R), Nat.eqb_refl.
  reflexivity.
Qed.

Lemma step_miss k ncorr r0 nrows c row ivs (A : Type) (x y : A) :
  (c < ncorr)%nat -> (r0 <= row < r0 + nrows)%nat -> ~ goes_to (k_corrs k) ivs c ->
  match target k ncorr ivs with
  | Some ic => if hits true ic r0 nrows c row then x else y
  | None => y
  end = y.
Proof.
  intros C R G. destruct (target k ncorr ivs) as [ic|] eqn:E; [|reflexivity].
  rewrite (hits3 _ _ _ _ _ R). destruct (Nat.eqb_spec c ic) as [->|]; [|reflexivity].
  exfalso. apply G. eapply (target_goes k ncorr ivs ic C). exact E.
Qed.

Lemma lastw_none k ncorr r0 nrows c row l : (c < ncorr)%nat -> (r0 <= row < r0 + nrows)%nat ->
  forall ivs acc, (forall j, (ivs <= j < ivs + length l)%nat -> ~ goes_to (k_corrs k) j c) ->
  lastw k ncorr true r0 nrows c row ivs l acc = acc.
Proof.
  intros C R. induction l as [|s l IH]; intros ivs acc A; cbn [lastw]; [reflexivity|].
  rewrite step_miss; [|exact C|exact R|apply A; cbn; lia].
  apply IH. intros j J. apply A. cbn [length]. lia.
Qed.

Lemma lastw_last k ncorr r0 nrows c row l : (c < ncorr)%nat -> (r0 <= row < r0 + nrows)%nat ->
  forall ivs acc i s, nth_error l i = Some s -> goes_to (k_corrs k) (ivs + i) c ->
  (forall j, (ivs + i < j < ivs + length l)%nat -> ~ goes_to (k_corrs k) j c) ->
  lastw k ncorr true r0 nrows c row ivs l acc = Some s.
Proof.
  intros C R. induction l as [|s0 l IH]; intros ivs acc [|i] s E G A; try discriminate; cbn [lastw].
  - cbn in E. injection E as ->. rewrite Nat.add_0_r in *.
    rewrite step_hit; [|exact C|exact R|exact G].
    apply lastw_none; [exact C|exact R|]. intros j J. apply A. cbn [length]. lia.
  - cbn in E. eapply IH; [exact E| |].
    + replace (S ivs + i)%nat with (ivs + S i)%nat by lia. exact G.
    + intros j J. apply A. cbn [length]. lia.
Qed.

Lemma foldw_none k ncorr tn nf r0 nrows c f row l : (c < ncorr)%nat -> (r0 <= row < r0 + nrows)%nat ->
  forall ivs acc, (forall j, (ivs <= j < ivs + length l)%nat -> ~ goes_to (k_corrs k) j c) ->
  foldw k ncorr tn nf r0 nrows c f row ivs l acc = acc.
Proof.
  intros C R. induction l as [|s l IH]; intros ivs acc A; cbn [foldw]; [reflexivity|].
  rewrite step_miss; [|exact C|exact R|apply A; cbn; lia].
  apply IH. intros j J. apply A. cbn [length]. lia.
Qed.

(** At the last VellSet for a correlation; the flags before it are unknown *)
Lemma foldw_last k ncorr tn nf r0 nrows c f row l : (c < ncorr)%nat -> (r0 <= row < r0 + nrows)%nat ->
  forall ivs acc i s, nth_error l i = Some s -> goes_to (k_corrs k) (ivs + i) c ->
  (forall j, (ivs + i < j < ivs + length l)%nat -> ~ goes_to (k_corrs k) j c) ->
  exists old, foldw k ncorr tn nf r0 nrows c f row ivs l acc = new_flag k tn nf r0 nrows s f row old /\
    ((forall j, (ivs <= j < ivs + i)%nat -> ~ goes_to (k_corrs k) j c) -> old = acc).
Proof.
  intros C R. induction l as [|s0 l IH]; intros ivs acc [|i] s E G A; try discriminate; cbn [foldw].
  - cbn in E. injection E as ->. rewrite Nat.add_0_r in *.
    rewrite step_hit; [|exact C|exact R|exact G]. exists acc. split; [|auto].
    apply foldw_none; [exact C|exact R|]. intros j J. apply A. cbn [length]. lia.
  - cbn in E. edestruct (IH (S ivs)) as (old & E1 & E2); [exact E| | |exists old; split; [exact E1|]].
    + replace (S ivs + i)%nat with (ivs + S i)%nat by lia. exact G.
    + intros j J. apply A. cbn [length]. lia.
    + intros Q. rewrite E2 by (intros j J; apply Q; lia).
      rewrite step_miss; [reflexivity|exact C|exact R|]. apply Q. lia.
Qed.

(* ---------------------------------------------------------------- *)
(** * The VellSets of a result *)

Lemma sinkSets_length (r : result D) : length (sinkSets r) = nsets r.
Proof.
  unfold sinkSets, nsets. destruct (r_sets r) as [|a [|b l]]; try reflexivity.
  cbn [length Nat.eqb]. rewrite map_length. reflexivity.
Qed.

Lemma sinkSets_nth (r : result D) i : (i < nsets r)%nat ->
  nth_error (sinkSets r) i = Some (set_of r i).
Proof.
  unfold sinkSets, nsets, set_of. destruct (r_sets r) as [|a [|b l]].
  - cbn. lia.
  - cbn [length Nat.eqb]. intros L. destruct i as [|[|[|[|i]]]]; try reflexivity; lia.
  - cbn [length Nat.eqb]. intros L. rewrite nth_error_map.
    destruct (nth_error (a :: b :: l) i) as [s|] eqn:E; [reflexivity|].
    apply nth_error_None in E. cbn [length] in E. lia.
Qed.

(** Inversion of a successful write *)
Lemma sink_write k rqid child code r' T' :
  snd (sinkResult N k rqid child) = Ok (code, r', Some T') ->
  exists T col rank3 nf c fl b,
    rqid = k_rqid k /\ k_tile k = Some T /\ k_col k = Some col /\
    existsb s_fail (r_sets child) = false /\ code = RES_UPDATED /\ r' = child /\
    c_shape (t_cols T col) = (if rank3 : bool then [nth 0 (c_shape (t_cols T col)) 0%nat; nf] else [nf]) /\
    writeSets N k T rank3 nf (rfirst (k_range k)) (rcount (k_range k) (t_nrow T)) 0
      (sinkSets child) (c_data (t_cols T col), t_flags T, false) = Ok (c, fl, b) /\
    T' = with_data T col c fl.
Proof.
  unfold sinkResult. destruct (hiid_eqb rqid (k_rqid k)) eqn:E; cbn [negb]; [|discriminate].
  apply hiid_eqb_iff in E.
  destruct (k_tile k) as [T|]; [|discriminate]. cbn [snd].
  destruct (k_col k) as [col|]; [|discriminate].
  destruct (existsb s_fail (r_sets child)); [discriminate|].
  destruct (opens k T (length (sinkSets child))); cbn [negb]; [|discriminate].
  destruct (c_shape (t_cols T col)) as [|a [|a' [|? ?]]] eqn:S0; try discriminate.
  - destruct (writeSets _ _ _ _ _ _ _ _ _ _) as [[[c fl] b]|] eqn:W; [|discriminate].
    intros H. injection H as <- <- <-. exists T, col, false, a, c, fl, b. rewrite S0. auto 10.
  - destruct (writeSets _ _ _ _ _ _ _ _ _ _) as [[[c fl] b]|] eqn:W; [|discriminate].
    intros H. injection H as <- <- <-. exists T, col, true, a', c, fl, b. rewrite S0. auto 10.
Qed.
End Sink.

(* ---------------------------------------------------------------- *)
(** * Two-dimensional columns, correlations beyond those of the tile, success *)
Section Sink2.
Context {F D : Type} (N : num F D).

Lemma lastw_beyond (k : sink F D) ncorr r0 nrows c row l : (ncorr <= c)%nat ->
  forall ivs acc, lastw k ncorr true r0 nrows c row ivs l acc = acc.
Proof.
  intros C. induction l as [|s l IH]; intros ivs acc; cbn [lastw]; [reflexivity|].
  rewrite IH. destruct (target k ncorr ivs) as [ic|] eqn:E; [|reflexivity].
  apply target_bound in E. unfold hits. destruct (Nat.eqb_spec c ic); [lia|reflexivity].
Qed.

Lemma foldw_beyond (k : sink F D) ncorr tn nf r0 nrows c f row l : (ncorr <= c)%nat ->
  forall ivs acc, foldw N k ncorr tn nf r0 nrows c f row ivs l acc = acc.
Proof.
  intros C. induction l as [|s l IH]; intros ivs acc; cbn [foldw]; [reflexivity|].
  rewrite IH. destruct (target k ncorr ivs) as [ic|] eqn:E; [|reflexivity].
  apply target_bound in E. unfold hits. destruct (Nat.eqb_spec c ic); [lia|reflexivity].
Qed.

Lemma foldw_mask0 (k : sink F D) ncorr tn nf r0 nrows c f row l : k_flag_mask k = 0 ->
  forall ivs acc, foldw N k ncorr tn nf r0 nrows c f row ivs l acc = acc.
Proof.
  intros M. induction l as [|s l IH]; intros ivs acc; cbn [foldw]; [reflexivity|].
  rewrite IH. destruct (target k ncorr ivs) as [ic|]; [|reflexivity].
  unfold new_flag. rewrite M, Z.eqb_refl, orb_true_r. destruct (hits _ _ _ _ _ _); reflexivity.
Qed.

Lemma target_available (k : sink F D) ncorr i :
  target k ncorr i = None <-> ~ available (k_corrs k) ncorr i.
Proof.
  split.
  - intros E (c & C & G). apply (target_goes k ncorr i c C) in G. congruence.
  - intros A. destruct (target k ncorr i) as [c|] eqn:E; [|reflexivity].
    exfalso. apply A. exists c. pose proof (target_bound _ _ _ _ E) as B. split; [exact B|].
    now apply (target_goes k ncorr i c B).
Qed.

Lemma hits2 ic r0 nrows row :
  (r0 <= row < r0 + nrows)%nat -> hits false ic r0 nrows 0 row = true.
Proof.
  intros R. unfold hits. destruct (Nat.leb_spec r0 row); [|lia].
  destruct (Nat.ltb_spec row (r0 + nrows)); [reflexivity|lia].
Qed.

Lemma lastw2_none (k : sink F D) ncorr r0 nrows row l :
  forall ivs acc, (forall j, (ivs <= j < ivs + length l)%nat -> ~ available (k_corrs k) ncorr j) ->
  lastw k ncorr false r0 nrows 0 row ivs l acc = acc.
Proof.
  induction l as [|s l IH]; intros ivs acc A; cbn [lastw]; [reflexivity|].
  rewrite (proj2 (target_available k ncorr ivs)) by (apply A; cbn; lia).
  apply IH. intros j J. apply A. cbn [length]. lia.
Qed.

Lemma lastw2_last (k : sink F D) ncorr r0 nrows row l : (r0 <= row < r0 + nrows)%nat ->
  forall ivs acc i s, nth_error l i = Some s -> available (k_corrs k) ncorr (ivs + i) ->
  (forall j, (ivs + i < j < ivs + length l)%nat -> ~ available (k_corrs k) ncorr j) ->
  lastw k ncorr false r0 nrows 0 row ivs l acc = Some s.
Proof.
  intros R. induction l as [|s0 l IH]; intros ivs acc [|i] s E G A; try discriminate; cbn [lastw].
  - cbn in E. injection E as ->. rewrite Nat.add_0_r in *.
    destruct (target k ncorr ivs) as [ic|] eqn:T0.
    + rewrite hits2 by exact R. apply lastw2_none. intros j J. apply A. cbn [length]. lia.
    + exfalso. exact (proj1 (target_available k ncorr ivs) T0 G).
  - cbn in E. eapply IH; [exact E| |].
    + replace (S ivs + i)%nat with (ivs + S i)%nat by lia. exact G.
    + intros j J. apply A. cbn [length]. lia.
Qed.

(** ** Success *)

Lemma writeData_ok c rank3 nf icorr r0 nrows s :
  (forall a, c <> CFloat a) -> c <> COther ->
  writable N c nrows nf s -> exists c', writeData N c rank3 nf icorr r0 nrows s = Ok c' /\ kind c' = kind c.
Proof.
  intros A B W. unfold writeData.
  destruct (match s with None => true | Some s => isNullSet N s end) eqn:E.
  - destruct c; [eauto|exfalso; eapply A; reflexivity|eauto|congruence].
  - destruct s as [s|]; [|discriminate]. cbn [writable] in W.
    destruct W as [W|(v & V & SH & FL & TY)].
    { apply isNullSet_zero in W. congruence. }
    rewrite V.
    assert (G : negb (isScalar v) && negb (shape_eqb (v_shape v) [nrows; nf]) = false).
    { destruct SH as [SH|SH].
      - apply isScalar_single in SH. rewrite SH. reflexivity.
      - rewrite (proj2 (shape_eqb_iff _ _) SH). apply andb_false_r. }
    rewrite G. destruct c, (v_vals v); try contradiction; eauto.
Qed.

Lemma writeFlags_ok (k : sink F D) tn nf icorr r0 nrows c s fl :
  writable N c nrows nf s -> exists fl', writeFlags N k tn nf icorr r0 nrows s fl = Ok fl'.
Proof.
  intros W. unfold writeFlags.
  destruct (match s with None => true | Some s => isNullSet N s end || (k_flag_mask k =? 0)) eqn:E; [eauto|].
  apply orb_false_iff in E as [E _].
  destruct s as [s|]; [|discriminate]. cbn [writable] in W.
  destruct W as [W|(v & V & SH & FL & TY)].
  { apply isNullSet_zero in W. congruence. }
  rewrite V. destruct (v_flags v) as [g|]; [|eauto]. specialize (FL g eq_refl).
  destruct (shape_eqb _ _); [eauto|]. destruct (isCompatible _ _); [|eauto].
  destruct (Nat.ltb_spec 2 (length (g_shape g))); [lia|eauto].
Qed.

Lemma writable_kind (c c' : content F D) nt nf s :
  kind c' = kind c -> writable N c nt nf s -> writable N c' nt nf s.
Proof.
  intros K. destruct s as [s|]; [|auto]. cbn [writable]. intros [W|(v & A & B & C & E)]; [auto|].
  right. exists v. split; [exact A|]. split; [exact B|]. split; [exact C|].
  destruct c, c'; try discriminate; destruct (v_vals v); auto.
Qed.

Lemma writeSets_ok (k : sink F D) T rank3 nf r0 nrows : forall l ivs c fl b,
  (forall a, c <> CFloat a) -> c <> COther ->
  (forall i s, nth_error l i = Some s -> available (k_corrs k) (t_ncorr T) (ivs + i) -> writable N c nrows nf s) ->
  exists c' fl' b', writeSets N k T rank3 nf r0 nrows ivs l (c, fl, b) = Ok (c', fl', b').
Proof.
  induction l as [|s l IH]; intros ivs c fl b A B W; cbn [writeSets]; [eauto|].
  assert (W' : forall c1, kind c1 = kind c -> forall i s0, nth_error l i = Some s0 ->
    available (k_corrs k) (t_ncorr T) (S ivs + i) -> writable N c1 nrows nf s0).
  { intros c1 K i s0 E G. eapply writable_kind; [exact K|]. apply (W (S i)); [exact E|].
    replace (ivs + S i)%nat with (S ivs + i)%nat by lia. exact G. }
  assert (TG : target k (t_ncorr T) ivs =
    if (mapOutputCorr (k_corrs k) ivs <? 0) || (Z.of_nat (t_ncorr T) <=? mapOutputCorr (k_corrs k) ivs)
    then None else Some (Z.to_nat (mapOutputCorr (k_corrs k) ivs))) by reflexivity.
  destruct ((mapOutputCorr (k_corrs k) ivs <? 0)
            || (Z.of_nat (t_ncorr T) <=? mapOutputCorr (k_corrs k) ivs)).
  - apply IH; [exact A|exact B|]. exact (W' c eq_refl).
  - assert (W0 : writable N c nrows nf s).
    { apply (W 0%nat); [reflexivity|]. rewrite Nat.add_0_r.
      destruct (target k (t_ncorr T) ivs) as [ic|] eqn:TT; [|discriminate].
      exists ic. pose proof (target_bound _ _ _ _ TT) as L. split; [exact L|].
      now apply (target_goes k _ _ ic L). }
    destruct (writeData_ok c rank3 nf (Z.to_nat (mapOutputCorr (k_corrs k) ivs)) r0 nrows s A B W0)
      as (c1 & -> & K1).
    destruct (writeFlags_ok k (t_nrow T) nf (Z.to_nat (mapOutputCorr (k_corrs k) ivs)) r0 nrows c s fl W0)
      as (fl1 & ->).
    apply IH.
    + intros a ->. destruct c; try discriminate. eapply A. reflexivity.
    + intros ->. destruct c; try discriminate. congruence.
    + exact (W' c1 K1).
Qed.

Lemma opens_iff (k : sink F D) T n :
  opens k T n = true <-> exists i, (i < n)%nat /\ available (k_corrs k) (t_ncorr T) i.
Proof.
  unfold opens. rewrite existsb_exists. split.
  - intros (i & I & H). apply in_seq in I. exists i. split; [lia|].
    apply andb_true_iff in H as [H1 H2]. apply Z.leb_le in H1. apply Z.ltb_lt in H2.
    exists (Z.to_nat (mapOutputCorr (k_corrs k) i)). split; [lia|].
    apply (target_goes k (t_ncorr T)); [lia|]. unfold target.
    destruct (Z.ltb_spec (mapOutputCorr (k_corrs k) i) 0); [lia|].
    destruct (Z.leb_spec (Z.of_nat (t_ncorr T)) (mapOutputCorr (k_corrs k) i)); [lia|]. reflexivity.
  - intros (i & I & c & C & G). exists i. split; [apply in_seq; lia|].
    apply (target_goes k (t_ncorr T) i c C) in G. unfold target in G.
    destruct (Z.ltb_spec (mapOutputCorr (k_corrs k) i) 0); [discriminate|].
    destruct (Z.leb_spec (Z.of_nat (t_ncorr T)) (mapOutputCorr (k_corrs k) i)); [discriminate|].
    apply andb_true_iff. split; [apply Z.leb_le; lia|apply Z.ltb_lt; lia].
Qed.

Lemma compatible_conforms s nt nf :
  conforms s nt nf -> isCompatible s [nt; nf] = true.
Proof.
  intros (L & A & B). destruct s as [|x [|y [|z s]]]; cbn in L; try lia; cbn in *; try reflexivity.
  - destruct (Nat.eqb_spec x 1), (Nat.eqb_spec x nt); try reflexivity. lia.
  - destruct (Nat.eqb_spec x 1), (Nat.eqb_spec x nt), (Nat.eqb_spec y 1), (Nat.eqb_spec y nf);
      try reflexivity; lia.
Qed.
End Sink2.
