(** Proofs about weighted sums. *)
From Coq Require Import QArith Qcanon.
From Verif Require Import Base Wsm_Model Wsm_Spec.
Close Scope Q_scope. Close Scope Qc_scope. Local Open Scope nat_scope.

Lemma iszero_spec x : if iszero x then x = 0%Qc else x <> 0%Qc.
Proof. unfold iszero. now destruct (Qc_eq_dec x 0%Qc). Qed.
Lemma add_same w0 : forall vs ws acc, add_up true w0 ws vs acc = Ok (acc + weighted (repeat w0 (length vs)) vs)%Qc.
Proof.
  induction vs as [|v vs IH]; intros ws acc; cbn [add_up length repeat weighted]; [f_equal; ring|]. rewrite IH. f_equal.
  pose proof (iszero_spec w0) as Z. destruct (iszero w0); [rewrite Z|]; ring.
Qed.
Lemma add_each w0 : forall vs ws acc, length ws = length vs -> add_up false w0 ws vs acc = Ok (acc + weighted ws vs)%Qc.
Proof.
  induction vs as [|v vs IH]; intros [|w ws] acc L; try discriminate; cbn [add_up weighted hd_error tl]; [f_equal; ring|]. injection L as L. rewrite IH by exact L. f_equal.
  pose proof (iszero_spec w) as Z. destruct (iszero w); [rewrite Z|]; ring.
Qed.
Lemma first_term (w v : Qc) : (if iszero w then 0 else v * w)%Qc = (w * v)%Qc.
Proof. pose proof (iszero_spec w) as Z. destruct (iszero w); [rewrite Z|]; ring. Qed.
Lemma eval_one w vs : evaluate [w] vs = Ok (weighted (repeat w (length vs)) vs).
Proof. unfold evaluate. destruct vs as [|v vs]; [reflexivity|]. cbn [length Nat.eqb repeat weighted]. now rewrite add_same, first_term. Qed.
Lemma eval_each ws vs : length ws = length vs -> evaluate ws vs = Ok (weighted ws vs).
Proof.
  intros L. destruct ws as [|w [|w' ws]].
  - destruct vs; [reflexivity|discriminate].
  - rewrite eval_one. now rewrite <- L.
  - destruct vs as [|v vs]; [discriminate|]. unfold evaluate. cbn [length Nat.eqb]. injection L as L. rewrite add_each by exact L. cbn [weighted]. now rewrite first_term.
Qed.
Lemma poll_all : forall n vs, length vs = n -> all_there (map (fun ev : bool * Qc => if fst ev then Some (snd ev) else None) (combine (repeat true n) vs)) = Ok vs.
Proof. induction n as [|n IH]; intros [|v vs] L; try discriminate; [reflexivity|]. injection L as L. cbn [repeat combine map fst snd all_there]. now rewrite IH. Qed.
Lemma enabled_all ws : Forall (fun w => w <> 0%Qc) ws -> map (fun w => negb (iszero w)) ws = repeat true (length ws).
Proof. induction 1 as [|w ws H F IH]; [reflexivity|]. cbn [map length repeat]. rewrite IH. pose proof (iszero_spec w) as Z. destruct (iszero w); [contradiction|reflexivity]. Qed.
Lemma poll_gone : forall es vs, length es = length vs -> In false es -> all_there (map (fun ev : bool * Qc => if fst ev then Some (snd ev) else None) (combine es vs)) = Err.
Proof.
  induction es as [|e es IH]; intros [|v vs] L I; try discriminate; [contradiction|]. injection L as L. cbn [combine map fst snd]. destruct e; cbn [all_there]; [|reflexivity].
  destruct I as [I|I]; [discriminate|]. now rewrite (IH vs L I).
Qed.
Lemma resize_len n l : length (resize n l) = n.
Proof. unfold resize. rewrite app_length, firstn_length, repeat_length. lia. Qed.
Lemma resize_nth n l : resize n l = map (fun i => nth i l 0%Qc) (seq 0 n).
Proof.
  apply (nth_ext _ _ 0%Qc (nth 0 l 0%Qc)); [now rewrite resize_len, map_length, seq_length|]. intros i H. rewrite resize_len in H.
  rewrite (map_nth (fun i => nth i l 0%Qc)), seq_nth by exact H. cbn [Nat.add]. unfold resize. destruct (Nat.lt_ge_cases i (length (firstn n l))) as [C|C].
  - rewrite app_nth1 by exact C. rewrite firstn_length in C. rewrite <- (firstn_skipn n l) at 2. rewrite app_nth1 by (rewrite firstn_length; lia). reflexivity.
  - rewrite app_nth2 by exact C. rewrite nth_repeat. rewrite firstn_length in C. rewrite nth_overflow by lia. reflexivity.
Qed.
Lemma qsum_total l : qsum l = total l.
Proof.
  unfold qsum. cut (forall a, fold_left Qcplus l a = (a + total l)%Qc); [intros H; rewrite H; ring|]. induction l as [|x l IH]; intros a; cbn [fold_left total]; [ring|]. rewrite IH. ring.
Qed.
Lemma scaled c ws : forall vs, weighted (map (fun w => w / c)%Qc ws) vs = (weighted ws vs / c)%Qc.
Proof. induction ws as [|w ws IH]; intros [|v vs]; cbn [map weighted]; try (unfold Qcdiv; ring). rewrite IH. unfold Qcdiv. ring. Qed.
Lemma total_scaled c ws : total (map (fun w => w / c)%Qc ws) = (total ws / c)%Qc.
Proof. induction ws as [|w ws IH]; cbn [map total]; [unfold Qcdiv; ring|]. rewrite IH. unfold Qcdiv. ring. Qed.
Lemma count_S n : count (S n) = (1 + count n)%Qc.
Proof. unfold count. apply Qc_is_canon. cbn [this Q2Qc Qcplus]. rewrite !Qred_correct. rewrite Nat2Z.inj_succ, <- Z.add_1_l, inject_Z_plus. reflexivity. Qed.
Lemma total_repeat w n : total (repeat w n) = (w * count n)%Qc.
Proof. induction n as [|n IH]; cbn [repeat total]; [replace (count 0) with 0%Qc by (apply Qc_is_canon; reflexivity); ring|]. rewrite IH, count_S. ring. Qed.
Lemma weighted_repeat w n : forall vs, length vs = n -> weighted (repeat w n) vs = (w * total vs)%Qc.
Proof. induction n as [|n IH]; intros [|v vs] L; try discriminate; cbn [repeat weighted total]; [ring|]. injection L as L. rewrite IH by exact L. ring. Qed.
Lemma count_nz n : n <> 0 -> count n <> 0%Qc.
Proof.
  intros H E. apply (f_equal this) in E. assert (X : (inject_Z (Z.of_nat n) == 0)%Q) by (rewrite <- (Qred_correct (inject_Z (Z.of_nat n))); unfold count in E; cbn [this Q2Qc] in E; rewrite E; reflexivity).
  unfold Qeq in X. cbn in X. lia.
Qed.
