(** Proofs about spigots. *)
From Verif Require Import Base Hiid_Model Hiid_Proofs Rqid_Model Vis_Model Vis_Spec.
Local Open Scope Z_scope.

(* ---------------------------------------------------------------- *)
(** * Row ranges *)

Lemma in_range_offset r nrow t :
  (t < rcount r nrow)%nat -> in_range r nrow (rfirst r + t).
Proof. destruct r as [[a b]|]; cbn; lia. Qed.

Lemma in_range_iff r nrow row :
  in_range r nrow row <-> (rfirst r <= row < rfirst r + rcount r nrow)%nat.
Proof. destruct r as [[a b]|]; cbn; lia. Qed.

(* ---------------------------------------------------------------- *)
(** * Lists of VellSets *)

Lemma setAll_length {D} (l base : list (vellset D)) : length (setAll l base) = length base.
Proof.
  revert base. induction l as [|v l IH]; intros [|b base]; cbn [setAll length]; auto.
Qed.

Lemma setAll_nth {D} (l base : list (vellset D)) i s :
  (length l <= length base)%nat -> nth_error l i = Some s ->
  nth_error (setAll l base) i = Some s.
Proof.
  revert base i. induction l as [|v l IH]; intros [|b base] [|i]; cbn [setAll length nth_error]; intros L H;
    try discriminate; try lia; auto.
  apply IH; [lia|exact H].
Qed.

Lemma setAll_rest {D} (l base : list (vellset D)) i :
  (length l <= i)%nat -> nth_error (setAll l base) i = nth_error base i.
Proof.
  revert base i. induction l as [|v l IH]; intros base i L; [destruct base; reflexivity|].
  destruct base as [|b base]; [reflexivity|]. destruct i as [|i]; cbn [length] in L; [lia|].
  cbn [setAll nth_error]. apply IH. lia.
Qed.

Lemma nth_repeat_empty {D} n i (s : vellset D) :
  nth_error (repeat emptySet n) i = Some s -> s = emptySet.
Proof. intros H. apply nth_error_In in H. now apply repeat_spec in H. Qed.

Section Spigot.
Context {F D : Type} (N : num F D).

Lemma cubeSets_nth c np nf nrows r0 corr l :
  cubeSets N c np nf nrows r0 corr = Ok l ->
  length l = length corr /\
  forall i ic, nth_error corr i = Some ic ->
    (ic < 0 /\ nth_error l i = Some emptySet)
    \/ (0 <= ic < Z.of_nat np /\ exists v, plane N c (Z.to_nat ic) r0 = Some v /\
          nth_error l i = Some (mkVellset false 0 (Some (mkVells [nrows; nf] v None)))).
Proof.
  revert l. induction corr as [|x corr IH]; intros l H; cbn [cubeSets] in H.
  - injection H as <-. split; [reflexivity|]. intros [|i] ic; discriminate.
  - destruct (Z.ltb_spec x 0) as [X|X].
    + destruct (cubeSets N c np nf nrows r0 corr) as [l0|] eqn:E; [|discriminate].
      injection H as <-. destruct (IH _ eq_refl) as [L K]. split; [cbn; lia|].
      intros [|i] ic I; cbn [nth_error] in *.
      * injection I as ->. left. auto.
      * auto.
    + destruct (Z.leb_spec (Z.of_nat np) x) as [Y|Y]; [discriminate|].
      destruct (plane N c (Z.to_nat x) r0) as [v|] eqn:P; [|discriminate].
      destruct (cubeSets N c np nf nrows r0 corr) as [l0|] eqn:E; [|discriminate].
      injection H as <-. destruct (IH _ eq_refl) as [L K]. split; [cbn; lia|].
      intros [|i] ic I; cbn [nth_error] in *.
      * injection I as ->. right. split; [lia|]. eauto.
      * auto.
Qed.

Lemma cubeSets_ok c np nf nrows r0 corr :
  c <> COther -> Forall (fun ic => ic < Z.of_nat np) corr ->
  exists l, cubeSets N c np nf nrows r0 corr = Ok l.
Proof.
  intros C. induction corr as [|x corr IH]; intros A; cbn [cubeSets]; [eauto|].
  apply Forall_cons_iff in A as [A1 A2]. destruct (IH A2) as [l ->].
  destruct (x <? 0); [eauto|].
  destruct (Z.leb_spec (Z.of_nat np) x); [lia|].
  destruct c; cbn [plane]; eauto. congruence.
Qed.

Lemma cubeSets_bad c np nf nrows r0 corr ic :
  In ic corr -> Z.of_nat np <= ic -> cubeSets N c np nf nrows r0 corr = Fail.
Proof.
  intros I B. induction corr as [|x corr IH]; [easy|]. cbn [cubeSets].
  destruct I as [->|I].
  - destruct (Z.ltb_spec ic 0); [lia|]. destruct (Z.leb_spec (Z.of_nat np) ic); [reflexivity|lia].
  - rewrite (IH I). destruct (x <? 0); [reflexivity|].
    destruct (Z.of_nat np <=? x); [reflexivity|]. destruct (plane N c (Z.to_nat x) r0); reflexivity.
Qed.

Lemma cubeSets_other np nf nrows r0 corr ic :
  In ic corr -> 0 <= ic -> cubeSets N (@COther F D) np nf nrows r0 corr = Fail.
Proof.
  intros I B. induction corr as [|x corr IH]; [easy|]. cbn [cubeSets plane].
  destruct I as [->|I].
  - destruct (Z.ltb_spec ic 0); [lia|]. destruct (_ <=? ic); reflexivity.
  - rewrite (IH I). destruct (x <? 0); [reflexivity|].
    destruct (_ <=? x); reflexivity.
Qed.

(** The value part of a plane *)
Lemma plane_value c ic r0 vals nrows nf g t f :
  plane N c ic r0 = Some vals -> (t < nrows)%nat -> (f < nf)%nat ->
  Some (value (mkVells [nrows; nf] vals g) t f) = sample N c ic f (r0 + t).
Proof.
  intros P T0 F0.
  assert (A1 : along [nrows; nf] 0 t = t).
  { unfold along. cbn. destruct (Nat.eqb_spec nrows 1); lia. }
  assert (A2 : along [nrows; nf] 1 f = f).
  { unfold along. cbn. destruct (Nat.eqb_spec nf 1); lia. }
  destruct c; cbn [plane] in P; try discriminate; injection P as <-;
    unfold value; cbn [v_shape v_vals sample]; rewrite A1, A2; try reflexivity.
  destruct (a ic f (r0 + t)%nat); reflexivity.
Qed.

(* ---------------------------------------------------------------- *)
(** * Flags *)

Lemma anyFlag_spec nt nf g :
  anyFlag nt nf g = true <-> exists t f, (t < nt)%nat /\ (f < nf)%nat /\ g t f <> 0.
Proof.
  unfold anyFlag. rewrite existsb_exists. split.
  - intros (t & I & H). apply existsb_exists in H as (f & J & K).
    apply in_seq in I. apply in_seq in J. exists t, f.
    destruct (Z.eqb_spec (g t f) 0); [discriminate|]. split; [lia|]. split; [lia|assumption].
  - intros (t & f & I & J & K). exists t. split; [apply in_seq; lia|].
    apply existsb_exists. exists f. split; [apply in_seq; lia|].
    destruct (Z.eqb_spec (g t f) 0); [contradiction|reflexivity].
Qed.

Lemma anyFlag_false nt nf g :
  anyFlag nt nf g = false -> forall t f, (t < nt)%nat -> (f < nf)%nat -> g t f = 0.
Proof.
  intros H t f T0 F0. destruct (Z.eq_dec (g t f) 0) as [E|E]; [exact E|].
  assert (anyFlag nt nf g = true) by (apply anyFlag_spec; eauto). congruence.
Qed.

Lemma override_zero bit g t f : override bit g t f = 0 <-> g t f = 0.
Proof.
  unfold override. destruct (Z.eqb_spec bit 0); [tauto|].
  destruct (Z.eqb_spec (g t f) 0); [tauto|]. split; intros; congruence.
Qed.

Lemma override_bit bit g t f :
  bit <> 0 -> override bit g t f = 0 \/ override bit g t f = bit.
Proof.
  intros B. unfold override. destruct (Z.eqb_spec bit 0); [congruence|].
  destruct (g t f =? 0); auto.
Qed.

Lemma override_with_bit bit g t f : override bit g t f = with_bit bit (g t f).
Proof. unfold override, with_bit. destruct (bit =? 0); reflexivity. Qed.

Lemma lor_nonzero a b : Z.lor a b <> 0 <-> a <> 0 \/ b <> 0.
Proof.
  rewrite Z.lor_eq_0_iff. lia.
Qed.

Lemma flagSets_length (T : tile F D) p nf nrows r0 corr sets :
  length (flagSets T p nf nrows r0 corr sets) = length sets.
Proof.
  revert sets. induction corr as [|x corr IH]; intros [|s sets]; cbn [flagSets length]; auto.
Qed.

Lemma flagSets_nth (T : tile F D) p nf nrows r0 corr sets i ic s :
  nth_error corr i = Some ic -> nth_error sets i = Some s ->
  nth_error (flagSets T p nf nrows r0 corr sets) i =
  Some (if ic <? 0 then s
        else let g := corrFlags T p (Z.to_nat ic) nf nrows r0 in
             if anyFlag nrows (nth 1 (g_shape g) 1%nat) (g_at g)
             then attach (mkFvells (g_shape g) (override (p_flag_bit p) (g_at g))) s else s).
Proof.
  revert sets i. induction corr as [|x corr IH]; intros sets [|i] C H; try discriminate;
    destruct sets as [|y sets]; try discriminate; cbn [nth_error] in C, H; cbn [flagSets nth_error].
  - injection C as ->. injection H as ->. reflexivity.
  - now apply IH.
Qed.

Lemma flagSets_rest (T : tile F D) p nf nrows r0 corr sets i :
  (length corr <= i)%nat ->
  nth_error (flagSets T p nf nrows r0 corr sets) i = nth_error sets i.
Proof.
  revert sets i. induction corr as [|x corr IH]; intros sets i L; [destruct sets; reflexivity|].
  destruct sets as [|y sets]; [reflexivity|]. destruct i as [|i]; cbn [length] in L; [lia|].
  cbn [flagSets nth_error]. apply IH. lia.
Qed.

(** The VellSets made from a cube column *)
Lemma cube_sets (T : tile F D) p c np nf nrows r0 l :
  cubeSets N c np nf nrows r0 (p_corr p) = Ok l -> (length l <= p_ndims p)%nat ->
  let sets := flagSets T p nf nrows r0 (p_corr p) (setAll l (repeat emptySet (p_ndims p))) in
  length sets = p_ndims p /\
  (forall i s, nth_error sets i = Some s -> (length (p_corr p) <= i)%nat -> s = emptySet) /\
  forall i ic, nth_error (p_corr p) i = Some ic ->
    (ic < 0 /\ nth_error sets i = Some emptySet)
    \/ (0 <= ic < Z.of_nat np /\ exists vals, plane N c (Z.to_nat ic) r0 = Some vals /\
        let g := corrFlags T p (Z.to_nat ic) nf nrows r0 in
        nth_error sets i = Some (mkVellset false 0 (Some (mkVells [nrows; nf] vals
          (if anyFlag nrows (nth 1 (g_shape g) 1%nat) (g_at g)
           then Some (mkFvells (g_shape g) (override (p_flag_bit p) (g_at g))) else None))))).
Proof.
  intros C L sets. apply cubeSets_nth in C as [LL K].
  split; [|split].
  - unfold sets. rewrite flagSets_length, setAll_length, repeat_length. reflexivity.
  - intros i s I G. unfold sets in I. rewrite flagSets_rest in I by exact G.
    rewrite setAll_rest in I by lia. now apply nth_repeat_empty in I.
  - intros i ic I. destruct (K _ _ I) as [[Z0 E]|[Z0 (v & P & E)]].
    + left. split; [exact Z0|]. unfold sets.
      erewrite flagSets_nth; [|exact I|].
      2:{ apply setAll_nth; [rewrite repeat_length; exact L|exact E]. }
      destruct (Z.ltb_spec ic 0); [reflexivity|lia].
    + right. split; [exact Z0|]. exists v. split; [exact P|]. intros g. unfold sets.
      erewrite flagSets_nth; [|exact I|].
      2:{ apply setAll_nth; [rewrite repeat_length; exact L|exact E]. }
      destruct (Z.ltb_spec ic 0); [lia|]. cbn zeta. fold g.
      destruct (anyFlag nrows (nth 1 (g_shape g) 1%nat) (g_at g)); reflexivity.
Qed.

(** What a delivery to a cube column does *)
Lemma deliver_cube (p : spigot D) cur rqid cells (T : tile F D) r np nf p' :
  c_shape (t_cols T (p_col p)) = [np; nf] ->
  (p_uvw p = true -> forall a, c_data (t_cols T (p_col p)) <> CDouble a) ->
  deliverTile N p cur rqid cells T r = Ok p' ->
  cur <> rqid /\
  exists l, cubeSets N (c_data (t_cols T (p_col p))) np nf (rcount r (t_nrow T)) (rfirst r)
              (p_corr p) = Ok l /\ (length l <= p_ndims p)%nat /\
  p' = with_queue p (p_queue p ++ [(rqid, mkResult
         (flagSets T p nf (rcount r (t_nrow T)) (rfirst r) (p_corr p)
            (setAll l (repeat emptySet (p_ndims p)))) (Some cells))]).
Proof.
  intros S0 U H. unfold deliverTile in H. rewrite S0 in H.
  destruct (hiid_eqb cur rqid) eqn:E; [discriminate|].
  split.
  { intros ->. assert (hiid_eqb rqid rqid = true).
    { now apply hiid_eqb_iff. }
    congruence. }
  destruct (cubeSets N (c_data (t_cols T (p_col p))) np nf (rcount r (t_nrow T)) (rfirst r)
              (p_corr p)) as [l|] eqn:C.
  - exists l. split; [reflexivity|].
    destruct (c_data (t_cols T (p_col p))) as [a|a|a|];
      [destruct (p_uvw p); [exfalso; eapply U; reflexivity|]| | |]; rewrite C in H;
      destruct (Nat.leb_spec (length l) (p_ndims p)); try discriminate;
      (split; [assumption|]); injection H as <-; reflexivity.
  - destruct (c_data (t_cols T (p_col p))) as [a|a|a|];
      [destruct (p_uvw p); [exfalso; eapply U; reflexivity|]| | |]; rewrite C in H; discriminate.
Qed.

(* ---------------------------------------------------------------- *)
(** * The queue *)

Lemma discard_suffix rqid mask (q : list (list Z * result D)) :
  exists k, (k <= length q)%nat /\ discard rqid mask q = skipn k q /\
    (forall i id x, (i < k)%nat -> nth_error q i = Some (id, x) ->
       maskedCompare rqid id mask = false) /\
    (forall id x, nth_error q k = Some (id, x) -> maskedCompare rqid id mask = true).
Proof.
  induction q as [|[id x] q (k & K & E & B & M)].
  - exists 0%nat. split; [cbn; lia|]. split; [reflexivity|]. split; [lia|]. intros; discriminate.
  - cbn [discard]. destruct (maskedCompare rqid id mask) eqn:C.
    + exists 0%nat. split; [cbn; lia|]. split; [reflexivity|]. split; [lia|].
      intros id' x' I. cbn in I. injection I as <- <-. exact C.
    + exists (S k). split; [cbn; lia|]. split; [exact E|]. split.
      * intros [|i] id' x' L I; cbn in I; [injection I as <- <-; exact C|].
        eapply B; [|exact I]. lia.
      * intros id' x' I. cbn in I. eapply M. exact I.
Qed.
End Spigot.

Lemma skipn_add {A} (l : list A) a b : skipn a (skipn b l) = skipn (b + a) l.
Proof.
  revert l. induction b as [|b IH]; intros l; [reflexivity|].
  destruct l as [|x l]; [rewrite !skipn_nil; reflexivity|]. cbn [skipn Nat.add]. apply IH.
Qed.

Lemma nth_skipn {A} (l : list A) k i : nth_error (skipn k l) i = nth_error l (k + i).
Proof.
  revert l. induction k as [|k IH]; intros l; [reflexivity|].
  destruct l as [|x l]; [destruct i; reflexivity|]. cbn [skipn Nat.add nth_error]. apply IH.
Qed.

Section Queue.
Context {D : Type}.
Variable mask : Z.

(** The state of a spigot after some events *)
Definition after_event (p : spigot D) (e : event D) : spigot D :=
  match e with
  | Arrive id r => with_queue p (p_queue p ++ [(id, r)])
  | Ask id => fst (spigotResult p mask id)
  end.
Definition after (p : spigot D) (l : list (event D)) : spigot D :=
  fold_left after_event l p.

Lemma queue_suffix p l base :
  (exists k, (k <= length base)%nat /\ p_queue p = skipn k base) ->
  exists k, (k <= length (base ++ arrived l))%nat /\
    p_queue (after p l) = skipn k (base ++ arrived l).
Proof.
  revert p base. induction l as [|e l IH]; intros p base (k & K & E).
  - exists k. cbn. rewrite app_nil_r. auto.
  - unfold after. cbn [fold_left]. destruct e as [id r|id]; cbn [arrived flat_map].
    + destruct (IH (after_event p (Arrive id r)) (base ++ [(id, r)])) as (k' & K' & E').
      { exists k. split; [rewrite app_length; lia|]. cbn. rewrite E, skipn_app.
        replace (k - length base)%nat with 0%nat by lia. reflexivity. }
      exists k'. rewrite <- !app_assoc in *. auto.
    + destruct (IH (after_event p (Ask id)) base) as (k' & K' & E').
      { cbn. destruct (discard_suffix id mask (p_queue p)) as (j & J & Ej & _).
        rewrite Ej, E, skipn_add. exists (k + j)%nat. split; [|reflexivity].
        rewrite E, skipn_length in J. lia. }
      exists k'. auto.
Qed.
End Queue.
