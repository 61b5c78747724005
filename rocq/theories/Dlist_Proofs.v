From Verif Require Import Base Dlist_Model Dlist_Spec.
Local Open Scope Z_scope.

Lemma walk_up_spec len : forall n s, n <= 0 ->
  walk_up n len s = if Z.of_nat len <? - n then (n + Z.of_nat len, (s + len)%nat) else (0, (s + Z.to_nat (- n))%nat).
Proof.
  induction len as [|len IH]; intros n s H; cbn [walk_up].
  - destruct (Z.ltb_spec n 0), (Z.ltb_spec (Z.of_nat 0) (- n)); try lia; f_equal; lia.
  - destruct (Z.ltb_spec n 0).
    + rewrite IH by lia. destruct (Z.ltb_spec (Z.of_nat len) (- (n + 1))), (Z.ltb_spec (Z.of_nat (S len)) (- n)); try lia; f_equal; lia.
    + destruct (Z.ltb_spec (Z.of_nat (S len)) (- n)); [lia|]. f_equal; lia.
Qed.
Lemma walk_down_spec len : forall n s, 0 <= n ->
  walk_down n len s = if Z.of_nat len <? n then (n - Z.of_nat len, (s + len)%nat) else (0, (s + Z.to_nat n)%nat).
Proof.
  induction len as [|len IH]; intros n s H; cbn [walk_down].
  - destruct (Z.ltb_spec 0 n), (Z.ltb_spec (Z.of_nat 0) n); try lia; f_equal; lia.
  - destruct (Z.ltb_spec 0 n).
    + rewrite IH by lia. destruct (Z.ltb_spec (Z.of_nat len) (n - 1)), (Z.ltb_spec (Z.of_nat (S len)) n); try lia; f_equal; lia.
    + destruct (Z.ltb_spec (Z.of_nat (S len)) n); [lia|]. f_equal; lia.
Qed.
Lemma walk_const_spec rest : forall n p, 0 <= n -> (0 < rest)%nat ->
  walk_const n rest p = if n <? Z.of_nat rest then Ok (p + Z.to_nat n)%nat else Err.
Proof.
  induction rest as [|rest IH]; intros n p H R; [lia|]. cbn [walk_const]. destruct (Z.ltb_spec 0 n).
  - destruct rest as [|rest].
    + destruct (Z.ltb_spec n (Z.of_nat 1)); [lia|reflexivity].
    + rewrite IH by lia. destruct (Z.ltb_spec (n - 1) (Z.of_nat (S rest))), (Z.ltb_spec n (Z.of_nat (S (S rest)))); try lia; f_equal; lia.
  - destruct (Z.ltb_spec n (Z.of_nat (S rest))); [f_equal; lia|lia].
Qed.

Section L.
Context {V : Type}.
Implicit Type l : list (option V).

Lemma applyIndex_elem n l : match applyIndex n false l with
  | Ok p => elem_at (length l) n p | Err => forall p, ~ elem_at (length l) n p | UB => False end.
Proof.
  unfold applyIndex, elem_at. destruct (Z.ltb_spec n 0).
  - rewrite walk_up_spec by lia. destruct (Z.ltb_spec (Z.of_nat (length l)) (- n)).
    + destruct (Z.eqb_spec (n + Z.of_nat (length l)) 0); [lia|]. cbn. intros p. lia.
    + cbn. lia.
  - rewrite walk_down_spec by lia. destruct (Z.ltb_spec (Z.of_nat (length l)) n).
    + destruct (Z.eqb_spec (n - Z.of_nat (length l)) 0); [lia|]. cbn. intros p. lia.
    + destruct (Nat.eqb_spec (0 + Z.to_nat n) (length l)); cbn [negb Z.eqb orb andb]; [intros p; lia|lia].
Qed.
Lemma applyIndex_gap n l : match applyIndex n true l with
  | Ok p => gap_at (length l) n p | Err => forall p, ~ gap_at (length l) n p | UB => False end.
Proof.
  unfold applyIndex, gap_at. destruct (Z.ltb_spec n 0).
  - rewrite walk_up_spec by lia. destruct (Z.ltb_spec (Z.of_nat (length l)) (- (n + 1))).
    + destruct (Z.eqb_spec (n + 1 + Z.of_nat (length l)) 0); [lia|]. cbn. intros p. lia.
    + cbn. lia.
  - rewrite walk_down_spec by lia. destruct (Z.ltb_spec (Z.of_nat (length l)) n).
    + destruct (Z.eqb_spec (n - Z.of_nat (length l)) 0); [lia|]. cbn. intros p. lia.
    + cbn [negb Z.eqb orb andb]. lia.
Qed.
Lemma gap_unique len n p q : gap_at len n p -> gap_at len n q -> p = q.
Proof. unfold gap_at. lia. Qed.
Lemma elem_unique len n p q : elem_at len n p -> elem_at len n q -> p = q.
Proof. unfold elem_at. lia. Qed.

Lemma nth_split' l p v : nth_error l p = Some v -> l = firstn p l ++ v :: skipn (S p) l.
Proof.
  revert p; induction l as [|x l IH]; intros [|p] H; try discriminate; cbn in *.
  - now injection H as ->.
  - f_equal. now apply IH.
Qed.
Lemma set_replaced l p v : (p < length l)%nat -> replaced p v l (firstn p l ++ v :: skipn (S p) l).
Proof.
  intros H. destruct (nth_error l p) as [o|] eqn:E; [|apply nth_error_None in E; lia].
  exists (firstn p l), o, (skipn (S p) l). split; [now apply nth_split'|]. split; [rewrite firstn_length; lia|reflexivity].
Qed.
Lemma ins_inserted l p v : (p <= length l)%nat -> inserted p v l (firstn p l ++ v :: skipn p l).
Proof.
  intros H. exists (firstn p l), (skipn p l). split; [now rewrite firstn_skipn|]. split; [rewrite firstn_length; lia|reflexivity].
Qed.
End L.
