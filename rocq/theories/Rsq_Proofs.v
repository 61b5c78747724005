From Verif Require Import Base Hiid_Model Rqid_Model Rqid_Spec Rqid_Proofs Poll_Model Ncache_Model Ncache_Proofs Rid_Model Rsq_Model Rsq_Spec.
Local Open Scope Z_scope.
Open Scope list_scope.

Lemma wait_bit c : has c RES_WAIT = Z.testbit c bWAIT.
Proof. change RES_WAIT with (2 ^ 21). apply has_bit. discriminate. Qed.
Lemma fail_bit c : has c RES_FAIL = Z.testbit c bFAIL.
Proof. change RES_FAIL with (2 ^ 23). apply has_bit. discriminate. Qed.
Lemma miss_bit c : has c RES_MISSING = Z.testbit c bMISSING.
Proof. change RES_MISSING with (2 ^ 18). apply has_bit. discriminate. Qed.

(** ** the ids *)
Definition idsOf (mask : Z) (id : list Z) (i : nat) : list Z := Nat.iter i (nextId mask) id.
Lemma nextId_at mask id p : 0 <= mask < 2 ^ 31 -> at_pos (nextId mask id) p = at_pos id p + (if selected mask p then 1 else 0).
Proof. intros H. unfold nextId. destruct (incrSubId_spec 31 id mask H) as (id' & -> & E). apply E. Qed.
Lemma nextId_0 id : nextId 0 id = id.
Proof. reflexivity. Qed.
Lemma idsOf_numbered mask id : 0 <= mask < 2 ^ 31 -> numbered mask id (idsOf mask id).
Proof.
  intros H. split; [reflexivity|]. induction i as [|i IH]; intros p; [change (idsOf mask id 0) with id; destruct (selected mask p); lia|].
  unfold idsOf in *. cbn [Nat.iter]. change (Nat.iter (S i) (nextId mask) id) with (nextId mask (Nat.iter i (nextId mask) id)).
  rewrite nextId_at by exact H. rewrite IH. destruct (selected mask p); lia.
Qed.
Lemma idsOf_0 id i : idsOf 0 id i = id.
Proof. unfold idsOf. induction i as [|i IH]; [reflexivity|]. change (Nat.iter (S i) (nextId 0) id) with (nextId 0 (Nat.iter i (nextId 0) id)). rewrite nextId_0. exact IH. Qed.
Lemma idsOf_step mask id i :
  (if Nat.eqb i 0 || (mask =? 0) then idsOf mask id (pred i) else nextId mask (idsOf mask id (pred i))) = idsOf mask id i.
Proof.
  destruct i as [|i]; [reflexivity|]. cbn [Nat.eqb orb pred]. destruct (mask =? 0) eqn:E; [|reflexivity].
  apply Z.eqb_eq in E. subst. rewrite !idsOf_0. reflexivity.
Qed.

Set Default Proof Using "Type".
Section Loop.
Context {R : Type}.
Variables (child : nat -> list Z -> option (Z * option R)) (aborted : nat -> bool) (cf : seqcfg) (cells : bool) (id : list Z).
Notation ids := (idsOf (s_mask cf) id).
Notation loop := (seq_loop child aborted cf cells).
(** what a child that proceeds contributes *)
Definition part (i : nat) (c : Z) : Z :=
  if Nat.eqb i (s_which cf) then c else Z.ldiff (Z.ldiff c (2 ^ bFAIL)) (2 ^ bMISSING).
Definition after1 (st : seqst R) (i : nat) : seqst R :=
  match child i (ids i) with
  | Some (c, r) => {| t_result := if Nat.eqb i (s_which cf) && cells then r else t_result st; t_code := Z.lor (t_code st) (part i c) |}
  | None => st
  end.
Lemma sift_go ig b sel c : 0 <= b -> (ig = false -> Z.testbit c b = false) -> sift ig (2 ^ b) sel c = Some (if sel then c else Z.ldiff c (2 ^ b)).
Proof.
  intros Hb H. unfold sift. rewrite has_bit by exact Hb. destruct (Z.testbit c b) eqn:E.
  - destruct ig; [reflexivity|]. discriminate (H eq_refl).
  - destruct sel; [reflexivity|]. f_equal. apply Z.bits_inj'. intros n Hn. rewrite Z.ldiff_spec, Z.pow2_bits_eqb by exact Hb.
    destruct (Z.eqb_spec b n) as [->|]; [rewrite E; reflexivity|rewrite andb_true_r; reflexivity].
Qed.
Lemma loop_one n i st cs : proceeds child aborted cf ids i ->
  loop (S n) i (ids (pred i)) st cs = loop n (S i) (ids i) (after1 st i) (cs ++ [(i, ids i)]).
Proof.
  intros (c & r & E & A & W & F & M). cbn [seq_loop]. rewrite idsOf_step. unfold after1. rewrite E, A, wait_bit, W.
  change RES_FAIL with (2 ^ bFAIL). rewrite (sift_go _ bFAIL); [|unfold bFAIL; lia|exact F].
  change RES_MISSING with (2 ^ bMISSING). rewrite (sift_go _ bMISSING); [|unfold bMISSING; lia|].
  - unfold part. destruct (Nat.eqb i (s_which cf)); reflexivity.
  - intros Hm. specialize (M Hm). destruct (Nat.eqb i (s_which cf)); [exact M|]. rewrite Z.ldiff_spec, M. reflexivity.
Qed.
Lemma loop_skip m : forall n i st cs, (forall j, (i <= j < i + m)%nat -> proceeds child aborted cf ids j) ->
  loop (m + n) i (ids (pred i)) st cs =
  loop n (i + m) (ids (pred (i + m))) (fold_left after1 (seq i m) st) (cs ++ map (fun j => (j, ids j)) (seq i m)).
Proof.
  induction m as [|m IH]; intros n i st cs H.
  - cbn [Nat.add seq fold_left map]. rewrite Nat.add_0_r, app_nil_r. reflexivity.
  - cbn [Nat.add]. rewrite loop_one by (apply H; lia). replace (ids i) with (ids (pred (S i))) at 1 by reflexivity.
    rewrite IH by (intros j Hj; apply H; lia). cbn [seq fold_left map]. rewrite <- app_assoc. cbn [app]. rewrite Nat.add_succ_r. reflexivity.
Qed.
Lemma part_bit i c b : 0 <= b -> Z.testbit (part i c) b = true <-> Z.testbit c b = true /\ (b = bFAIL \/ b = bMISSING -> i = s_which cf).
Proof.
  intros Hb. clear -Hb. unfold part. destruct (Nat.eqb_spec i (s_which cf)) as [E|E].
  - split; [intros H; split; [exact H|intros _; exact E]|intros H; apply H].
  - rewrite !Z.ldiff_spec, !Z.pow2_bits_eqb by (unfold bFAIL, bMISSING; lia). rewrite !andb_true_iff, !negb_true_iff, !Z.eqb_neq. split.
    + intros [[H1 H2] H3]. split; [exact H1|]. intros [X|X]; congruence.
    + intros [H1 H2]. split; [split; [exact H1|]|]; intros X; apply E, H2; [left|right]; congruence.
Qed.
Lemma after_code m : forall i st b, 0 <= b -> Z.testbit (t_code (fold_left after1 (seq i m) st)) b = true <->
  Z.testbit (t_code st) b = true \/ exists j c r, (i <= j < i + m)%nat /\ child j (ids j) = Some (c, r) /\ Z.testbit c b = true /\ (b = bFAIL \/ b = bMISSING -> j = s_which cf).
Proof.
  clear aborted.
  induction m as [|m IH]; intros i st b Hb.
  - cbn [seq fold_left]. split; [intros H; left; exact H|]. intros [H|(j & c & r & H & _)]; [exact H|lia].
  - cbn [seq fold_left]. rewrite (IH (S i) (after1 st i) b Hb). unfold after1 at 1. destruct (child i (ids i)) as [[c r]|] eqn:E.
    + cbn [t_code]. rewrite Z.lor_spec, orb_true_iff, (part_bit i c b Hb). split.
      * intros [[H|[H1 H2]]|(j & c' & r' & H)]; [left; exact H| |].
        -- right. exists i, c, r. split; [lia|]. split; [exact E|]. split; assumption.
        -- right. exists j, c', r'. destruct H as (H0 & H). split; [lia|exact H].
      * intros [H|(j & c' & r' & H0 & E' & H)]; [left; left; exact H|]. destruct (Nat.eq_dec j i) as [->|Hne].
        -- rewrite E in E'. injection E' as <- <-. left. right. exact H.
        -- right. exists j, c', r'. split; [lia|]. split; [exact E'|exact H].
    + split.
      * intros [H|(j & c' & r' & H0 & H)]; [left; exact H|]. right. exists j, c', r'. split; [lia|exact H].
      * intros [H|(j & c' & r' & H0 & E' & H)]; [left; exact H|]. destruct (Nat.eq_dec j i) as [->|Hne]; [congruence|].
        right. exists j, c', r'. split; [lia|]. split; [exact E'|exact H].
Qed.
Lemma after_result m : forall i st, t_result (fold_left after1 (seq i m) st) =
  if cells && (Nat.leb i (s_which cf) && Nat.ltb (s_which cf) (i + m)) then
    match child (s_which cf) (ids (s_which cf)) with Some (_, r) => r | None => t_result st end
  else t_result st.
Proof.
  clear aborted.
  induction m as [|m IH]; intros i st; cbn [seq fold_left].
  - destruct (Nat.leb_spec i (s_which cf)), (Nat.ltb_spec (s_which cf) (i + 0)); try lia; rewrite ?andb_false_r; reflexivity.
  - rewrite IH. unfold after1.
    destruct (Nat.leb_spec i (s_which cf)), (Nat.ltb_spec (s_which cf) (i + S m)), (Nat.leb_spec (S i) (s_which cf)), (Nat.ltb_spec (s_which cf) (S i + m)); try lia; cbn [andb]; rewrite ?andb_false_r, ?andb_true_r;
      destruct (child i (ids i)) as [[c r]|] eqn:E; cbn [t_result]; destruct (Nat.eqb_spec i (s_which cf)) as [Q|Q]; try lia; try reflexivity; rewrite ?Q in E; rewrite ?E; destruct cells; reflexivity.
Qed.
End Loop.
