From Verif Require Import Base Bset_Model Bset_Spec.
Local Open Scope nat_scope.

Lemma skipn_skipn {A} : forall n m (l : list A), skipn n (skipn m l) = skipn (n + m) l.
Proof.
  intros n m. induction m as [|m IH]; intros l; [now rewrite Nat.add_0_r|]. rewrite Nat.add_succ_r. destruct l; [now rewrite !skipn_nil|]. exact (IH l).
Qed.

Lemma cursor_loop_ok l : forall off n, off <= length (hd [] l) -> (l = [] -> off = 0) ->
  match cursor_loop l off n with
  | (Some c, CAt d off') => exists l1 l2, l = l1 ++ l2 /\ d = length l2 /\ l2 <> [] /\ off' <= length (hd [] l2) /\
      c ++ skipn off' (concat l2) = skipn off (concat l) /\ length c <= n /\ (0 < n -> c <> [])
  | (None, CAt d off') => d = 0 /\ skipn off (concat l) = []
  | (_, CNone) => False
  end.
Proof.
  induction l as [|b l IH]; intros off n H H0.
  - cbn. split; [reflexivity|]. now rewrite H0.
  - cbn [cursor_loop hd] in *. destruct (Nat.eqb_spec (length b - off) 0) as [E|E].
    + assert (off = length b) by lia. subst off.
      specialize (IH 0 n (Nat.le_0_l _) (fun _ => eq_refl)). cbn [skipn] in IH.
      assert (S : skipn (length b) (concat (b :: l)) = concat l) by (cbn; now rewrite skipn_app, skipn_all, Nat.sub_diag).
      rewrite S. destruct (cursor_loop l 0 n) as [[c|] [|d off']]; auto.
      destruct IH as (l1 & l2 & -> & R). exists (b :: l1), l2. auto.
    + exists [], (b :: l). split; [reflexivity|]. split; [reflexivity|]. split; [discriminate|]. set (k := Nat.min n (length b - off)).
      assert (Hk : k <= length b - off) by (unfold k; lia).
      split; [cbn [hd]; lia|]. split; [|split].
      * cbn [concat]. rewrite !skipn_app. replace (off - length b) with 0 by lia. replace (off + k - length b) with 0 by lia. cbn [skipn].
        rewrite app_assoc. f_equal. replace (off + k) with (k + off) by lia. rewrite <- skipn_skipn. apply firstn_skipn.
      * rewrite firstn_length. unfold k. lia.
      * intros Hn Hc. apply (f_equal (@length Z)) in Hc. rewrite firstn_length, skipn_length in Hc. cbn in Hc. unfold k in Hc. lia.
Qed.
Lemma ahead_length s d : d <= length (blocks s) -> length (ahead s d) = d.
Proof. intros H. unfold ahead. rewrite skipn_length. lia. Qed.
Lemma ahead_suffix s d l1 l2 : d <= length (blocks s) -> ahead s d = l1 ++ l2 -> ahead s (length l2) = l2.
Proof.
  intros H E. assert (L := ahead_length s d H). rewrite E, app_length in L.
  unfold ahead in *. replace (length (blocks s) - length l2) with (length l1 + (length (blocks s) - d)) by lia.
  rewrite <- skipn_skipn, E, skipn_app, skipn_all, Nat.sub_diag. reflexivity.
Qed.
Lemma ahead_0 s : ahead s 0 = [].
Proof. unfold ahead. rewrite Nat.sub_0_r. apply skipn_all. Qed.

Lemma ahead_same s' s d : blocks s' = blocks s -> ahead s' d = ahead s d.
Proof. unfold ahead. now intros ->. Qed.

Ltac ah s := match goal with |- context [ahead {| blocks := ?a; cursize := ?b; cur := ?c |} ?k] => change (ahead {| blocks := a; cursize := b; cur := c |} k) with (ahead s k) end.

Lemma get_ok s n : cursor_ok s -> exists o s', bs_getCursorData s n = Ok (o, s') /\ cursor_ok s' /\ blocks s' = blocks s /\ cursize s' = cursize s /\
  match o with
  | Some c => c ++ rest s' = rest s /\ length c <= n /\ (0 < n -> c <> [])
  | None => rest s = [] /\ rest s' = []
  end.
Proof.
  intros Ok0. unfold bs_getCursorData, cursor_ok, rest in *. destruct (cur s) as [|d off]; [destruct Ok0|].
  destruct d as [|d'].
  - rewrite ahead_0. cbn [cursor_loop]. eexists _, _. split; [reflexivity|]. cbn [cur blocks cursize]. repeat split; auto; rewrite ?ahead_0; destruct off; reflexivity.
  - remember (S d') as d. destruct Ok0 as [Hd Ho].
    assert (L := ahead_length s d Hd).
    pose proof (cursor_loop_ok (ahead s d) off n Ho) as C. specialize (C ltac:(intros E; rewrite E in L; cbn in L; lia)).
    destruct (cursor_loop (ahead s d) off n) as [[c|] [|d2 off2]]; try tauto.
    + destruct C as (l1 & l2 & E & -> & N & Ho2 & Ec & Lc & Pc). eexists _, _. split; [reflexivity|]. cbn [cur blocks cursize].
      assert (A2 := ahead_suffix s d l1 l2 Hd E). split.
      * destruct l2 as [|b l2]; [contradiction|]. cbn [length]. change (S (length l2)) with (length (b :: l2)). split.
        -- rewrite E, app_length in L. cbn [length] in *. lia.
        -- ah s. rewrite A2. exact Ho2.
      * split; [reflexivity|]. split; [reflexivity|]. split; [|auto]. ah s. rewrite A2. exact Ec.
    + destruct C as [-> Er]. eexists _, _. split; [reflexivity|]. cbn [cur blocks cursize]. split; [exact I|]. split; [reflexivity|]. split; [reflexivity|].
      split; [exact Er|]. ah s. rewrite ahead_0. cbn. now destruct off2.
Qed.

Lemma advance_ok l : forall off, off <= length (hd [] l) -> (l = [] -> off = 0) ->
  match advance l off with
  | CAt d off' => exists l1 l2, l = l1 ++ l2 /\ d = length l2 /\ (l2 <> [] -> off' < length (hd [] l2)) /\ (l2 = [] -> off' = 0) /\
      skipn off' (concat l2) = skipn off (concat l)
  | CNone => False
  end.
Proof.
  induction l as [|b l IH]; intros off H H0.
  - cbn. exists [], []. rewrite H0 by reflexivity. repeat split; auto. intros F; now destruct F.
  - cbn [advance hd] in *. destruct (Nat.leb_spec (length b) off) as [E|E].
    + assert (off = length b) by lia. subst off.
      specialize (IH 0 (Nat.le_0_l _) (fun _ => eq_refl)). cbn [skipn] in IH.
      assert (S : skipn (length b) (concat (b :: l)) = concat l) by (cbn; now rewrite skipn_app, skipn_all, Nat.sub_diag).
      rewrite S. destruct (advance l 0) as [|d off']; auto.
      destruct IH as (l1 & l2 & -> & R). exists (b :: l1), l2. auto.
    + exists [], (b :: l). repeat split; auto; discriminate.
Qed.
Lemma flush_ok s : cursor_ok s -> exists s' dropped, bs_flushToCursor s = Ok (cursize s, s') /\ cursor_ok s' /\ blocks s = dropped ++ blocks s' /\
  rest s' = rest s /\ cursize s' = cursize s /\
  (exists off, cur s' = CAt (length (blocks s')) off /\ (blocks s' <> [] -> off < length (hd [] (blocks s')))).
Proof.
  intros Ok0. unfold bs_flushToCursor, cursor_ok, rest in *. destruct (cur s) as [|d off]; [destruct Ok0|].
  assert (LE : d <= length (blocks s)) by (destruct d; [lia|apply Ok0]).
  destruct d as [|d'].
  - rewrite ahead_0. cbn [advance]. rewrite Nat.sub_0_r, skipn_all. eexists _, (blocks s). split; [reflexivity|]. cbn [cur blocks cursize].
    split; [exact I|]. split; [now rewrite app_nil_r|]. split; [reflexivity|]. split; [reflexivity|]. exists off. split; [reflexivity|]. intros F; now destruct F.
  - remember (S d') as d. destruct Ok0 as [Hd Ho].
    assert (L := ahead_length s d Hd).
    pose proof (advance_ok (ahead s d) off Ho) as C. specialize (C ltac:(intros E; rewrite E in L; cbn in L; lia)).
    destruct (advance (ahead s d) off) as [|d2 off2]; [tauto|]. destruct C as (l1 & l2 & E & -> & N & N0 & Ec).
    assert (A2 := ahead_suffix s d l1 l2 LE E). fold (ahead s (length l2)). rewrite A2.
    eexists _, (firstn (length (blocks s) - length l2) (blocks s)). split; [reflexivity|]. cbn [cur blocks cursize].
    assert (AA : ahead {| blocks := l2; cursize := cursize s; cur := CAt (length l2) off2 |} (length l2) = l2) by (unfold ahead; cbn; now rewrite Nat.sub_diag).
    split.
    + destruct l2 as [|b l2]; [exact I|]. cbn [length] in *. rewrite AA. split; [lia|]. specialize (N ltac:(discriminate)). lia.
    + split; [|split; [|split; [reflexivity|]]].
      * rewrite <- (firstn_skipn (length (blocks s) - length l2) (blocks s)) at 1. f_equal. exact A2.
      * rewrite AA. exact Ec.
      * exists off2. split; [reflexivity|]. exact N.
Qed.

Lemma skipn_app_le {A} n (a b : list A) : n <= length a -> skipn n (a ++ b) = skipn n a ++ b.
Proof. intros H. rewrite skipn_app. replace (n - length a) with 0 by lia. reflexivity. Qed.

Lemma fold_sum (l : list (list Z)) : forall k, fold_left (fun t b => t + length b) l k = k + length (concat l).
Proof. induction l as [|b l IH]; intros k; cbn; [lia|]. rewrite IH, app_length. lia. Qed.

Lemma init_ok s : cursor_ok (snd (bs_initCursor s)) /\ rest (snd (bs_initCursor s)) = concat (blocks s) /\ fst (bs_initCursor s) = length (concat (blocks s)).
Proof.
  unfold bs_initCursor, cursor_ok, rest. cbn [fst snd cur blocks]. ah s.
  assert (A : ahead s (length (blocks s)) = blocks s) by (unfold ahead; now rewrite Nat.sub_diag).
  rewrite A. split; [|split; [reflexivity|apply (fold_sum (blocks s) 0)]].
  destruct (length (blocks s)) eqn:E; [exact I|]. change (ahead {| blocks := blocks s; cursize := cursize s; cur := CAt (S n) 0 |} (S n)) with (ahead s (S n)). split; lia.
Qed.

Lemma reads_ok ns : forall s, cursor_ok s -> exists outs s', reads s ns = Ok (outs, s') /\ cursor_ok s' /\ blocks s' = blocks s /\
  concat (somes outs) ++ rest s' = rest s /\
  Forall2 (fun n o => match o with Some c => length c <= n /\ (0 < n -> c <> []) | None => True end) ns outs /\
  (In None outs -> rest s' = []) /\ (Forall (fun n => 0 < n) ns -> length (rest s) < length ns -> In None outs).
Proof.
  induction ns as [|n ns IH]; intros s H.
  - exists [], s. cbn. split; [reflexivity|]. split; [exact H|]. repeat split; auto. intros []. intros _ F; lia.
  - cbn [reads]. destruct (get_ok s n H) as (o & s1 & E & C1 & B1 & _ & R1). rewrite E.
    destruct (IH s1 C1) as (outs & s2 & E2 & C2 & B2 & R2 & F2 & N2 & P2). rewrite E2. exists (o :: outs), s2.
    split; [reflexivity|]. split; [exact C2|]. split; [congruence|]. destruct o as [c|].
    + destruct R1 as (R1 & L1 & P1). cbn [somes concat]. split; [rewrite <- app_assoc, R2; exact R1|]. split; [constructor; auto|].
      split; [intros [F|F]; [discriminate|auto]|]. intros Fn Hl. inversion_clear Fn as [|? ? Hn Fn']. right. apply P2; [exact Fn'|].
      rewrite <- R1, app_length in Hl. cbn in Hl. specialize (P1 Hn). destruct c; [contradiction|]. cbn in Hl. lia.
    + destruct R1 as [R0 R1]. cbn [somes]. rewrite R1 in R2. split; [now rewrite R2, R0|]. split; [constructor; auto|].
      apply app_eq_nil in R2 as [_ R2]. split; [auto|]. intros _ _. now left.
Qed.

Lemma qrun_ok l : forall s, pops l <= length (blocks s) -> exists outs s', qrun s l = Ok (outs, s') /\ outs ++ blocks s' = blocks s ++ pushed l /\
  length outs = pops l.
Proof.
  unfold pops, pushed. induction l as [|[b|] l IH]; intros s H; cbn in *.
  - exists [], s. rewrite app_nil_r. auto.
  - destruct (IH (bs_push s b)) as (outs & s' & E & A & L); [cbn; rewrite app_length; lia|]. exists outs, s'. split; [exact E|]. split; [|exact L].
    rewrite A. cbn. now rewrite <- app_assoc.
  - unfold bs_pop. destruct (blocks s) as [|b bs] eqn:Eb; [cbn in H; lia|].
    match goal with |- context [qrun ?x l] => destruct (IH x) as (outs & s' & E & A & L) end; [cbn in *; lia|]. rewrite E.
    exists (b :: outs), s'. split; [reflexivity|]. cbn in A |- *. split; [now rewrite A|lia].
Qed.
