(** Proofs about Cells: segments. *)
From Verif Require Import Base Flt_Model Dom_Model Cell_Model Cell_Spec.

Lemma skipn_at (A : arith) (l : list (num A)) i : i < length l -> skipn i l = at_ A l i :: skipn (S i) l.
Proof.
  unfold at_. revert i. induction l as [|y l IH]; intros [|i] H; cbn in *; try lia; [reflexivity|].
  rewrite IH by lia. reflexivity.
Qed.

Section Seg.
Variable A : arith.
Notation vec := (list (num A)).
Variables x h : vec.
Variable eps : num A.
Hypothesis Hlen : length x = length h.

Definition good (n : nat) (st : nat) (l : list (nat * nat)) : Prop :=
  flat_map (fun p => seq (fst p) (S (snd p) - fst p)) l = seq st (n - st) /\
  (forall p, In p l -> fst p <= snd p) /\
  (forall p, In p l -> uniform A eps x h p) /\
  (forall l1 p q l2, l = l1 ++ p :: q :: l2 -> justified A eps x h p q) /\
  exists e l', l = (st, e) :: l'.

Lemma not_true b : b = false -> b <> true.
Proof. intros ->. discriminate. Qed.

Lemma seg_loop_good rest : forall i xp st en dx0 h0 ins,
  length x = i + length rest ->
  rest = combine (skipn i x) (skipn i h) ->
  0 < i -> en = i - 1 -> st <= en -> xp = at_ A x (i - 1) -> h0 = at_ A h st ->
  ins = (st <? en) ->
  (ins = true -> dx0 = spacing A x (i - 1)) ->
  uniform A eps x h (st, en) ->
  good (length x) st (seg_loop A eps i xp rest st en dx0 h0 ins).
Proof.
  induction rest as [|[xi hi] rest IH]; intros i xp st en dx0 h0 ins L R Hi He Hs Hx Hh Hins Hd HU; cbn [seg_loop].
  - cbn [length] in L. unfold good. cbn [flat_map fst snd]. rewrite app_nil_r. repeat split.
    + f_equal. lia.
    + intros p [<-|[]]. cbn. lia.
    + intros j Hj. destruct H as [<-|[]]. apply HU. exact Hj.
    + intros j Hj. destruct H as [<-|[]]. apply HU. exact Hj.
    + intros l1 p q l2 E. destruct l1 as [|? [|]]; discriminate.
    + exists en, []. reflexivity.
  - cbn [length] in L.
    assert (HX : skipn i x = at_ A x i :: skipn (S i) x).
    { apply skipn_at. lia. }
    assert (HH : skipn i h = at_ A h i :: skipn (S i) h).
    { apply skipn_at. lia. }
    rewrite HX, HH in R. cbn [combine] in R. injection R as Rx Rh Rr. subst xi hi.
    destruct ((ins && nltb A eps (nabs A (nsub A (nsub A (at_ A x i) xp) dx0))) ||
              nltb A eps (nabs A (nsub A (at_ A h i) h0))) eqn:C.
    + (* a new segment *)
      assert (G : good (length x) i (seg_loop A eps (S i) (at_ A x i) rest i i dx0 (at_ A h i) false)).
      { apply IH; [lia|exact Rr|lia|lia|lia| |reflexivity| | |].
        - f_equal. lia.
        - symmetry. apply Nat.ltb_irrefl.
        - discriminate.
        - split; cbn; intros j Hj; lia. }
      destruct G as (G1 & G2 & G3 & G4 & (e & l' & G5)).
      unfold good. cbn [flat_map fst snd]. rewrite G1. split; [|split; [|split; [|split]]].
      * replace (length x - st) with ((S en - st) + (length x - i)) by lia. rewrite seq_app. f_equal. f_equal. lia.
      * intros p [<-|Hp]; [cbn; lia|auto].
      * intros p [<-|Hp]; [exact HU|auto].
      * intros l1 p q l2 E. destruct l1 as [|y l1].
        -- injection E as <- E. rewrite G5 in E. injection E as <- _. unfold justified. cbn [fst snd].
           apply orb_true_iff in C. destruct C as [C|C].
           ++ right. apply andb_true_iff in C. destruct C as [C1 C2]. subst ins.
              split; [apply Nat.ltb_lt; exact C1|]. unfold differ. rewrite He. rewrite <- (Hd C1).
              unfold spacing at 1. rewrite <- Hx. exact C2.
           ++ left. unfold differ. rewrite <- Hh. exact C.
        -- injection E as _ E. eapply G4; eauto.
      * exists en. eexists. reflexivity.
    + (* extend the current segment *)
      apply orb_false_iff in C. destruct C as [C1 C2].
      apply IH; [lia|exact Rr|lia|lia|lia| |exact Hh| | |].
      * f_equal. lia.
      * symmetry. apply Nat.ltb_lt. lia.
      * intros _. rewrite Hx. replace (S i - 1) with i by lia. reflexivity.
      * destruct HU as [U1 U2]. cbn [fst snd] in U1, U2. split; cbn [fst snd]; intros j Hj.
        -- destruct (Nat.eq_dec j i) as [->|]; [|apply U1; lia].
           unfold differ. rewrite <- Hh. now apply not_true.
        -- destruct (Nat.eq_dec j i) as [->|]; [|apply U2; lia].
           assert (I : ins = true) by (rewrite Hins; apply Nat.ltb_lt; lia).
           rewrite I in C1. cbn [andb] in C1. unfold differ.
           rewrite <- (Hd I). unfold spacing at 1. rewrite <- Hx. now apply not_true.
Qed.
End Seg.

Lemma last_nth {T} (l : list T) d : last l d = nth (length l - 1) l d.
Proof.
  induction l as [|a [|b l] IH]; [reflexivity|reflexivity|].
  cbn [last length] in *. rewrite IH. cbn [length]. replace (S (S (length l)) - 1) with (S (S (length l) - 1)) by lia.
  reflexivity.
Qed.

Lemma segments_good (A : arith) (x h : list (num A)) : length x = length h -> 0 < length x ->
  exists l, segments A x h = map (fun p => (Z.of_nat (fst p), Z.of_nat (snd p))) l /\
    partition_of (length x) l /\ (forall p, In p l -> uniform A (tolerance A x) x h p) /\
    boundaries_justified A (tolerance A x) x h l.
Proof.
  intros L P. destruct x as [|x0 x']; [cbn in P; lia|]. destruct h as [|h0 h']; [discriminate|].
  cbn [segments].
  assert (T : epsilon A (x0 :: x') = tolerance A (x0 :: x')).
  { unfold epsilon, tolerance, at_. rewrite last_nth. reflexivity. }
  destruct x' as [|x1 x''].
  - exists [(0, 0)]. split; [reflexivity|]. split; [|split].
    + split; [reflexivity|]. intros p [<-|[]]. cbn. lia.
    + intros p [<-|[]]. split; cbn; intros i Hi; lia.
    + intros l1 p q l2 E. destruct l1 as [|? [|]]; discriminate.
  - eexists. split; [reflexivity|].
    destruct (seg_loop_good A (x0 :: x1 :: x'') (h0 :: h') (epsilon A (x0 :: x1 :: x'')) L
                (combine (x1 :: x'') h') 1 x0 0 0 (n0 A) h0 false) as (G1 & G2 & G3 & G4 & _);
      try reflexivity; try lia.
    + rewrite combine_length. cbn [length] in *. lia.
    + split; cbn; intros i Hi; lia.
    + rewrite T in *. split; [split|split]; auto.
Qed.
