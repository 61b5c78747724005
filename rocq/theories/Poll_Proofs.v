(** Proofs about child polling. *)
From Coq Require Import String Permutation Sorted.
From Verif Require Import Base Poll_Model Poll_Spec.
Local Open Scope Z_scope.

Lemma NoDup_app_iff_local {A} (l m : list A) : NoDup (l ++ m) <-> NoDup l /\ NoDup m /\ forall x, In x l -> In x m -> False.
Proof.
  induction l as [|a l IH]; cbn [app].
  - split; [intro H; split; [constructor|split; [exact H|intros x []]]|tauto].
  - rewrite !NoDup_cons_iff, IH, in_app_iff. split.
    + intros (H1 & H2 & H3 & H4). repeat split; auto. intros x [<-|Hx] Hy; [tauto|eauto].
    + intros ((H1 & H2) & H3 & H4). repeat split; auto; [|intros x Hx Hy; apply (H4 x); [now right|exact Hy]]. intros [H|H]; [tauto|]. apply (H4 a); [now left|exact H].
Qed.
(** ** poll order *)
Lemma set_nat_app {A} (pre : list A) y x tail : set_nat (length pre) x (pre ++ y :: tail) = pre ++ x :: tail.
Proof. induction pre; cbn; congruence. Qed.
Lemma set_nat_len {A} n (x : A) l : length (set_nat n x l) = length l.
Proof. revert n; induction l; intros [|n]; cbn; auto. Qed.
Lemma set_nat_nth {A} n (x d : A) l m : (n < length l)%nat -> nth m (set_nat n x l) d = if Nat.eqb m n then x else nth m l d.
Proof. revert n m; induction l as [|y l IH]; intros [|n] [|m] H; cbn in *; try lia; auto. apply IH. lia. Qed.
Lemma find_child_some nm ch : forall i j, find_child nm i ch = Some j -> (i <= j)%nat /\ nth_error ch (j - i) = Some (Some nm) /\ forall k, (i <= k < j)%nat -> nth_error ch (k - i) <> Some (Some nm).
Proof.
  induction ch as [|[s|] ch IH]; intros i j H; cbn [find_child] in H; [discriminate| |].
  - destruct (String.eqb_spec s nm) as [->|N].
    + injection H as <-. split; [lia|]. rewrite Nat.sub_diag. split; [reflexivity|]. intros; lia.
    + destruct (IH _ _ H) as (L & E & U). split; [lia|]. replace (j - i)%nat with (S (j - S i)) by lia. split; [exact E|].
      intros k Hk. destruct (Nat.eq_dec k i) as [->|]; [rewrite Nat.sub_diag; cbn; congruence|]. replace (k - i)%nat with (S (k - S i)) by lia. apply U. lia.
  - destruct (IH _ _ H) as (L & E & U). split; [lia|]. replace (j - i)%nat with (S (j - S i)) by lia. split; [exact E|].
    intros k Hk. destruct (Nat.eq_dec k i) as [->|]; [rewrite Nat.sub_diag; cbn; congruence|]. replace (k - i)%nat with (S (k - S i)) by lia. apply U. lia.
Qed.
Lemma find_child_none nm ch : forall i, find_child nm i ch = None -> forall k, nth_error ch k <> Some (Some nm).
Proof.
  induction ch as [|[s|] ch IH]; intros i H k; cbn [find_child] in H; [destruct k; discriminate| |].
  - destruct (String.eqb_spec s nm) as [->|N]; [discriminate|]. destruct k; cbn; [congruence|]. exact (IH _ H k).
  - destruct k; cbn; [discriminate|]. exact (IH _ H k).
Qed.

Lemma order_names_ok ch names : forall first tail spec, (length first + length tail = length ch)%nat -> length spec = length ch ->
  (forall i, nth i spec false = true <-> In i first) -> NoDup first -> (forall i, In i first -> (i < length ch)%nat) -> (length names <= length tail)%nat ->
  match order_names ch names (first ++ tail) spec (length first) with
  | (ord', Ok (spec', nord')) => exists idx tail', Forall2 (fun nm i => find_child nm 0 ch = Some i) names idx /\ ord' = (first ++ idx) ++ tail' /\
      nord' = length (first ++ idx) /\ (length (first ++ idx) + length tail' = length ch)%nat /\ length spec' = length ch /\
      (forall i, nth i spec' false = true <-> In i (first ++ idx)) /\ NoDup (first ++ idx) /\ (forall i, In i (first ++ idx) -> (i < length ch)%nat)
  | (_, Err) => exists p nm q, names = p ++ nm :: q /\ (find_child nm 0 ch = None \/ exists i, find_child nm 0 ch = Some i /\ (In i first \/ exists n2, In n2 p /\ find_child n2 0 ch = Some i))
  | (_, UB) => False
  end.
Proof.
  induction names as [|nm names IH]; intros first tail spec L Ls Sp Nd Rg Ln; cbn [order_names].
  - exists [], tail. rewrite app_nil_r. repeat split; auto. apply Sp. apply Sp.
  - destruct (find_child nm 0 ch) as [ich|] eqn:F; [|exists [], nm, names; auto].
    destruct (nth ich spec false) eqn:N.
    + exists [], nm, names. split; [reflexivity|]. right. exists ich. split; [exact F|]. left. now apply Sp.
    + destruct tail as [|y tail]; [cbn in Ln; lia|]. cbn [length] in *. rewrite set_nat_app.
      destruct (find_child_some _ _ _ _ F) as (_ & Ei & _). rewrite Nat.sub_0_r in Ei.
      assert (Hi : (ich < length ch)%nat) by (apply nth_error_Some; congruence).
      assert (Hf : ~ In ich first) by (intro H; apply Sp in H; congruence).
      assert (Hr : forall i, In i (first ++ [ich]) -> (i < length ch)%nat) by (intros i; rewrite in_app_iff; intros [H|[<-|[]]]; auto).
      assert (Hs : forall i, nth i (set_nat ich true spec) false = true <-> In i (first ++ [ich])).
      { intro i. rewrite set_nat_nth by lia. rewrite in_app_iff. cbn [In]. destruct (Nat.eqb_spec i ich) as [->|Ne]; [tauto|]. rewrite Sp. split; [auto|]. intros [H|[H|[]]]; [exact H|congruence]. }
      assert (Hn : NoDup (first ++ [ich])) by (apply NoDup_Add with (a := ich) (l := first); [rewrite <- (app_nil_r first) at 1; apply Add_app|split; assumption]).
      specialize (IH (first ++ [ich]) tail (set_nat ich true spec)). rewrite app_length in IH. cbn [length] in IH. rewrite <- app_assoc in IH. cbn [app] in IH.
      replace (length first + 1)%nat with (S (length first)) in IH by lia.
      specialize (IH ltac:(lia)). rewrite set_nat_len in IH. specialize (IH Ls Hs Hn Hr ltac:(lia)).
      destruct (order_names ch names (first ++ ich :: tail) (set_nat ich true spec) (S (length first))) as [ord' [[spec' nord']| |]].
      * destruct IH as (idx & tail' & H1 & H2 & H3 & H4 & H5 & H6 & H7 & H8). rewrite <- !app_assoc in *. exists (ich :: idx), tail'. rewrite <- app_assoc. cbn [app] in *. split; [constructor; assumption|]. auto 10.
      * destruct IH as (p & n2 & q & -> & H). exists (nm :: p), n2, q. split; [reflexivity|]. destruct H as [H|(i & Hi2 & H)]; [auto|]. right. exists i. split; [exact Hi2|].
        destruct H as [H|(n3 & H3 & H4)]; [|right; exists n3; split; [right; exact H3|exact H4]]. apply in_app_iff in H as [H|[<-|[]]]; [auto|]. right. exists nm. split; [now left|exact F].
      * exact IH.
Qed.

Fixpoint unspec (i : nat) (spec : list bool) : list nat :=
  match spec with [] => [] | true :: s => unspec (S i) s | false :: s => i :: unspec (S i) s end.
Lemma unspec_in spec : forall i j, In j (unspec i spec) <-> (i <= j < i + length spec)%nat /\ nth (j - i) spec true = false.
Proof.
  induction spec as [|b spec IH]; intros i j; cbn [unspec length].
  - split; [intros []|]. intros [H _]; cbn in H; lia.
  - assert (Q : In j (unspec (S i) spec) <-> (i < j < i + S (length spec))%nat /\ nth (j - i) (b :: spec) true = false).
    { rewrite IH. split; intros [H1 H2]; (split; [lia|]); replace (j - i)%nat with (S (j - S i)) in * by lia; exact H2. }
    destruct b; cbn [In]; rewrite Q; split.
    + intros [H1 H2]. split; [lia|exact H2].
    + intros [H1 H2]. split; [|exact H2]. destruct (Nat.eq_dec i j) as [->|]; [rewrite Nat.sub_diag in H2; discriminate|lia].
    + intros [<-|[H1 H2]]; [rewrite Nat.sub_diag; split; [lia|reflexivity]|split; [lia|exact H2]].
    + intros [H1 H2]. destruct (Nat.eq_dec i j); [auto|right]. split; [lia|exact H2].
Qed.
Lemma unspec_sorted spec : forall i, StronglySorted lt (unspec i spec).
Proof.
  induction spec as [|[|] spec IH]; intro i; cbn [unspec]; [constructor|apply IH|]. constructor; [apply IH|]. apply Forall_forall. intros j H. apply unspec_in in H. lia.
Qed.
Lemma sorted_nodup l : StronglySorted lt l -> NoDup l.
Proof. induction 1 as [|a l S IH F]; constructor; auto. intro H. rewrite Forall_forall in F. specialize (F _ H). lia. Qed.
Lemma order_rest_ok spec : forall i pre tail, (length (unspec i spec) <= length tail)%nat ->
  order_rest i spec (pre ++ tail) (length pre) = (pre ++ unspec i spec ++ skipn (length (unspec i spec)) tail, (length pre + length (unspec i spec))%nat).
Proof.
  induction spec as [|[|] spec IH]; intros i pre tail H; cbn [order_rest unspec length] in *.
  - cbn. f_equal. lia.
  - now apply IH.
  - destruct tail as [|y tail]; [cbn in H; lia|]. cbn [length] in H. rewrite set_nat_app. specialize (IH (S i) (pre ++ [i]) tail ltac:(lia)).
    rewrite <- app_assoc in IH. cbn [app] in IH. rewrite app_length in IH. cbn [length] in IH. replace (length pre + 1)%nat with (S (length pre)) in IH by lia. rewrite IH. rewrite <- app_assoc. cbn [app skipn]. f_equal. lia.
Qed.
Lemma sorted_nth l : StronglySorted lt l -> forall i j, (i < j < length l)%nat -> (nth i l 0 < nth j l 0)%nat.
Proof.
  induction 1 as [|a l S IH F]; intros i j H; cbn in H; [lia|]. destruct j; [lia|]. destruct i.
  - cbn. rewrite Forall_forall in F. apply F. apply nth_In. lia.
  - cbn. apply IH. lia.
Qed.

Lemma set_order_ok ch ord names : length ord = length ch ->
  match setChildPollOrder ch ord names with
  | (ord', Ok _) => exists idx, Forall2 (fun nm i => find_child nm 0 ch = Some i) names idx /\ NoDup idx /\ good_order (length ch) idx ord'
  | (_, Err) => (length ch < length names)%nat \/ exists p nm q, names = p ++ nm :: q /\ (find_child nm 0 ch = None \/ exists i n2, find_child nm 0 ch = Some i /\ In n2 p /\ find_child n2 0 ch = Some i)
  | (_, UB) => False
  end.
Proof.
  intro L. unfold setChildPollOrder. destruct (Nat.ltb_spec (length ch) (length names)) as [G|G]; [auto|].
  pose proof (order_names_ok ch names [] ord (repeat false (length ch)) L (repeat_length _ _)) as H.
  assert (R : forall i, nth i (repeat false (length ch)) false = true <-> In i []).
  { intro i. split; [|intros []]. intro E. exfalso. revert E. generalize (length ch). intro n. revert i. induction n; intros [|i]; cbn; intro E; try discriminate; eauto. }
  specialize (H R (NoDup_nil _) ltac:(intros i []) ltac:(lia)). cbn [app length] in H.
  destruct (order_names ch names ord (repeat false (length ch)) 0) as [ord' [[spec nord]| |]]; [| |destruct H].
  - destruct H as (idx & tail & H1 & -> & -> & H4 & H5 & H6 & H7 & H8). cbn [app] in *.
    assert (P : Permutation (idx ++ unspec 0 spec) (seq 0 (length ch))).
    { apply NoDup_Permutation.
      - apply NoDup_app_iff_local. split; [exact H7|]. split; [apply sorted_nodup, unspec_sorted|]. intros x Hx Hy. apply H6 in Hx. apply unspec_in in Hy as [Hy1 Hy2]. rewrite Nat.sub_0_r in Hy2. rewrite (nth_indep spec true false) in Hy2 by lia. congruence.
      - apply seq_NoDup.
      - intro x. rewrite in_app_iff, in_seq, unspec_in, Nat.sub_0_r. split.
        + intros [H|[H _]]; [apply H8 in H; lia|lia].
        + intro H. destruct (nth x spec false) eqn:E; [left; now apply H6|right]. split; [lia|]. rewrite (nth_indep spec true false) by lia. exact E. }
    pose proof (Permutation_length P) as PL. rewrite app_length, seq_length in PL.
    assert (E : length (unspec 0 spec) = length tail) by lia. rewrite order_rest_ok by lia. rewrite E, skipn_all, app_nil_r.
    destruct (Nat.eqb_spec (length idx + length tail) (length ch)) as [_|]; [|lia]. exists idx. split; [exact H1|]. split; [exact H7|]. exists (unspec 0 spec). split; [reflexivity|]. split; [exact P|]. apply sorted_nth, unspec_sorted.
  - right. destruct H as (p & nm & q & -> & H). exists p, nm, q. split; [reflexivity|]. destruct H as [H|(i & H1 & [[]|(n2 & H2 & H3)])]; [auto|]. right. eauto.
Qed.

(** ** single-threaded polls that are not cut short *)
Section Quiet.
Context {R : Type}.
Implicit Types (g : got R) (exec : nat -> Z * R).

Definition one (cf : cfg) exec g (i : nat) : got R :=
  if c_enabled cf i then store g i (fst (exec i)) (snd (exec i)) (has (fst (exec i)) RES_FAIL) else zero_code g i.
Definition stores exec (D : list nat) g : got R := fold_left (fun g i => store g i (fst (exec i)) (snd (exec i)) (has (fst (exec i)) RES_FAIL)) D g.
Lemma st_loop_quiet cf exec ord : forall g, (forall i, In i ord -> c_enabled cf i = true -> has (fst (exec i)) RES_ABORT = false /\
    (c_fail cf = PolAbandon -> has (fst (exec i)) RES_FAIL = false) /\ (c_missing cf = PolAbandon -> has (fst (exec i)) RES_MISSING = false)) ->
  st_loop cf exec ord g = fold_left (one cf exec) ord g.
Proof.
  induction ord as [|i ord IH]; intros g Q; [reflexivity|]. cbn [st_loop fold_left]. unfold one at 2. pose proof (Q i (or_introl eq_refl)) as Qi. destruct (exec i) as [c r] eqn:E. cbn [fst snd] in *.
  assert (Q' : forall i, In i ord -> c_enabled cf i = true -> has (fst (exec i)) RES_ABORT = false /\
    (c_fail cf = PolAbandon -> has (fst (exec i)) RES_FAIL = false) /\ (c_missing cf = PolAbandon -> has (fst (exec i)) RES_MISSING = false)) by (intros j Hj; apply Q; now right).
  destruct (c_enabled cf i); [|apply IH; exact Q']. destruct (Qi eq_refl) as (A & B & C). rewrite A. destruct (has c RES_FAIL) eqn:HF.
  - destruct (c_fail cf); cbn [is_abandon]; try (apply IH; exact Q'). discriminate (B eq_refl).
  - destruct (c_missing cf); cbn [is_abandon]; rewrite ?andb_false_r; try (apply IH; exact Q'). rewrite (C eq_refl). apply IH; exact Q'.
Qed.

Definition inb (i : nat) (l : list nat) : bool := existsb (Nat.eqb i) l.
Lemma inb_in i l : inb i l = true <-> In i l.
Proof. unfold inb. rewrite existsb_exists. split; [intros (x & H & E); apply Nat.eqb_eq in E as ->; exact H|intro H; exists i; split; [exact H|apply Nat.eqb_refl]]. Qed.
Lemma inb_perm i l m : Permutation l m -> inb i l = inb i m.
Proof. intro P. destruct (inb i l) eqn:A, (inb i m) eqn:B; auto. - apply inb_in in A. apply (Permutation_in _ P) in A. apply inb_in in A. congruence. - apply inb_in in B. apply (Permutation_in _ (Permutation_sym P)) in B. apply inb_in in B. congruence. Qed.

Lemma stores_res exec D : forall g i, g_res (stores exec D g) i = if inb i D then Some (snd (exec i)) else g_res g i.
Proof.
  induction D as [|d D IH]; intros g i; [reflexivity|]. change (stores exec (d :: D) g) with (stores exec D (store g d (fst (exec d)) (snd (exec d)) (has (fst (exec d)) RES_FAIL))).
  rewrite IH. cbn [store g_res]. unfold put, inb. cbn [existsb]. destruct (Nat.eqb_spec i d) as [->|N]; cbn [orb]; [destruct (existsb _ D); reflexivity|reflexivity].
Qed.
Lemma stores_code exec D : forall g i, g_code (stores exec D g) i = if inb i D then fst (exec i) else g_code g i.
Proof.
  induction D as [|d D IH]; intros g i; [reflexivity|]. change (stores exec (d :: D) g) with (stores exec D (store g d (fst (exec d)) (snd (exec d)) (has (fst (exec d)) RES_FAIL))).
  rewrite IH. cbn [store g_code]. unfold put, inb. cbn [existsb]. destruct (Nat.eqb_spec i d) as [->|N]; cbn [orb]; [destruct (existsb _ D); reflexivity|reflexivity].
Qed.
Lemma stores_cumul exec D : forall g, g_cumul (stores exec D g) = fold_left Z.lor (map (fun i => fst (exec i)) D) (g_cumul g).
Proof. induction D as [|d D IH]; intro g; [reflexivity|]. cbn [map fold_left]. change (stores exec (d :: D) g) with (stores exec D (store g d (fst (exec d)) (snd (exec d)) (has (fst (exec d)) RES_FAIL))). rewrite IH. reflexivity. Qed.
Lemma stores_fails exec D : forall g, g_fails (stores exec D g) = g_fails g ++ map (fun i => snd (exec i)) (filter (fun i => has (fst (exec i)) RES_FAIL) D).
Proof.
  induction D as [|d D IH]; intro g; [symmetry; apply app_nil_r|]. change (stores exec (d :: D) g) with (stores exec D (store g d (fst (exec d)) (snd (exec d)) (has (fst (exec d)) RES_FAIL))).
  rewrite IH. cbn [store g_fails filter]. destruct (has (fst (exec d)) RES_FAIL); [|reflexivity]. rewrite <- app_assoc. reflexivity.
Qed.
Lemma filter_perm {A} (f : A -> bool) l m : Permutation l m -> Permutation (filter f l) (filter f m).
Proof.
  induction 1 as [|x l m P IH|x y l|l m k P1 IH1 P2 IH2]; cbn [filter]; auto.
  - destruct (f x); auto.
  - destruct (f x), (f y); auto. apply perm_swap.
  - eapply Permutation_trans; eauto.
Qed.
Lemma lor_perm l m : Permutation l m -> forall z, fold_left Z.lor l z = fold_left Z.lor m z.
Proof.
  induction 1 as [|x l m P IH|x y l|l m k P1 IH1 P2 IH2]; intro z; cbn [fold_left]; auto.
  - f_equal. rewrite <- !Z.lor_assoc. f_equal. apply Z.lor_comm.
  - rewrite IH1. apply IH2.
Qed.

Definition en (cf : cfg) : list nat := filter (c_enabled cf) (c_order cf).
(** what the loop over the poll order leaves *)
Lemma loop_res cf exec ord : forall g i, g_res (fold_left (one cf exec) ord g) i = if inb i (filter (c_enabled cf) ord) then Some (snd (exec i)) else g_res g i.
Proof.
  induction ord as [|d ord IH]; intros g i; [reflexivity|]. cbn [fold_left filter]. rewrite IH. unfold one. destruct (c_enabled cf d); [|reflexivity].
  cbn [store g_res]. unfold put, inb. cbn [existsb]. destruct (Nat.eqb_spec i d) as [->|N]; cbn [orb]; [destruct (existsb _ _); reflexivity|reflexivity].
Qed.
Lemma loop_code cf exec ord : forall g i, g_code (fold_left (one cf exec) ord g) i = if inb i ord then (if c_enabled cf i then fst (exec i) else 0) else g_code g i.
Proof.
  induction ord as [|d ord IH]; intros g i; [reflexivity|]. cbn [fold_left]. rewrite IH. unfold inb. cbn [existsb]. destruct (existsb (Nat.eqb i) ord); [rewrite orb_true_r; reflexivity|]. rewrite orb_false_r.
  unfold one. destruct (Nat.eqb_spec i d) as [->|N].
  - destruct (c_enabled cf d); cbn; unfold put; rewrite Nat.eqb_refl; reflexivity.
  - destruct (c_enabled cf d); cbn; unfold put; destruct (Nat.eqb_spec i d); try contradiction; reflexivity.
Qed.
Lemma loop_cumul cf exec ord : forall g, g_cumul (fold_left (one cf exec) ord g) = fold_left Z.lor (map (fun i => fst (exec i)) (filter (c_enabled cf) ord)) (g_cumul g).
Proof. induction ord as [|d ord IH]; intro g; [reflexivity|]. cbn [fold_left filter]. rewrite IH. unfold one. destruct (c_enabled cf d); reflexivity. Qed.
Lemma loop_fails cf exec ord : forall g, g_fails (fold_left (one cf exec) ord g) = g_fails g ++ map (fun i => snd (exec i)) (filter (fun i => has (fst (exec i)) RES_FAIL) (filter (c_enabled cf) ord)).
Proof.
  induction ord as [|d ord IH]; intro g; [symmetry; apply app_nil_r|]. cbn [fold_left filter]. rewrite IH. unfold one. destruct (c_enabled cf d); [|reflexivity].
  cbn [store g_fails filter]. destruct (has (fst (exec d)) RES_FAIL); [|reflexivity]. rewrite <- app_assoc. reflexivity.
Qed.
Lemma zero_codes_spec cf g : g_res (zero_codes cf g) = g_res g /\ g_cumul (zero_codes cf g) = g_cumul g /\ g_fails (zero_codes cf g) = g_fails g /\
  forall i, g_code (zero_codes cf g) i = if inb i (c_order cf) && negb (c_enabled cf i) then 0 else g_code g i.
Proof.
  unfold zero_codes. induction (c_order cf) as [|d ord IH]; [cbn; auto|]. destruct IH as (H1 & H2 & H3 & H4). cbn [fold_right]. unfold inb in *. cbn [existsb].
  destruct (c_enabled cf d) eqn:E; cbn [zero_code g_res g_cumul g_fails g_code]; repeat split; auto; intro i; unfold put; destruct (Nat.eqb_spec i d) as [->|N]; cbn [orb]; rewrite ?E; cbn [negb andb]; auto.
  rewrite H4, E, andb_false_r. reflexivity.
Qed.

(** collecting in any order gives what the loop gives *)
Lemma collect_same cf exec g g' D : (forall i, g_res g i = g_res g' i) -> (forall i, g_code g i = g_code g' i) -> Permutation D (en cf) ->
  same_poll (stores exec D (zero_codes cf (no_fails g))) (fold_left (one cf exec) (c_order cf) (no_fails g')).
Proof.
  intros Er Ec P. destruct (zero_codes_spec cf (no_fails g)) as (Z1 & Z2 & Z3 & Z4).
  assert (Ein : forall i, inb i D = inb i (c_order cf) && c_enabled cf i).
  { intro i. rewrite (inb_perm i _ _ P). unfold en. destruct (inb i (filter (c_enabled cf) (c_order cf))) eqn:A.
    - apply inb_in in A. apply filter_In in A as [A1 A2]. apply inb_in in A1. now rewrite A1, A2.
    - destruct (inb i (c_order cf)) eqn:B, (c_enabled cf i) eqn:C; auto. apply inb_in in B. assert (inb i (filter (c_enabled cf) (c_order cf)) = true); [|congruence]. apply inb_in, filter_In; auto. }
  split; [|split; [|split]].
  - intro i. rewrite stores_res, loop_res, Z1. fold (en cf). rewrite (inb_perm i _ _ P). destruct (inb i (en cf)); [reflexivity|apply Er].
  - intro i. rewrite stores_code, loop_code, Z4, Ein. cbn [no_fails g_code]. destruct (inb i (c_order cf)), (c_enabled cf i); cbn [andb negb]; auto.
  - rewrite stores_cumul, loop_cumul, Z2. cbn [no_fails g_cumul]. fold (en cf). apply lor_perm. apply Permutation_map. exact P.
  - rewrite stores_fails, loop_fails, Z3. cbn [no_fails g_fails app]. fold (en cf). apply Permutation_map. apply filter_perm. exact P.
Qed.

(** ** the multithreaded poll *)
Variable cf : cfg.
Variable exec : nat -> nat -> Z * R.
Hypothesis Q : forall k, quiet cf (fun i => fst (exec k i)).
Variable g0 : got R.
(** the polls done one after the other in a single thread: what is there before the [k]-th *)
Fixpoint before (k : nat) : got R := match k with O => g0 | S j => st_loop cf (exec j) (c_order cf) (no_fails (before j)) end.
Lemma before_S j : before (S j) = fold_left (one cf (exec j)) (c_order cf) (no_fails (before j)).
Proof. cbn [before]. apply st_loop_quiet. exact (Q j). Qed.

Record inv (s : mt R) : Prop := {
  i_clear : m_clear s = O;
  i_abandon : m_abandon s = false;
  i_num : m_num s = length (en cf);
  i_state : exists D g, (forall i, g_res g i = g_res (before (m_k s)) i) /\ (forall i, g_code g i = g_code (before (m_k s)) i) /\
      m_got s = stores (exec (m_k s)) D (zero_codes cf (no_fails g)) /\ m_ret s = length D /\
      Permutation (map fst (m_queue s) ++ map fst (m_busy s) ++ D) (en cf) /\
      Forall (fun w => snd w = m_k s) (m_queue s) /\ Forall (fun w => snd w = m_k s) (m_busy s);
  i_sleep : m_parent s = PSleep -> (m_ret s < m_num s)%nat;
  i_done : m_parent s = PDone -> m_ret s = m_num s
}.
Lemma place_fst k : map fst (place cf k) = en cf.
Proof. unfold place. rewrite map_map. cbn. apply map_id. Qed.
Lemma inv_start k g : (forall i, g_res g i = g_res (before k) i) -> (forall i, g_code g i = g_code (before k) i) -> inv (start cf k [] [] 0 g).
Proof.
  intros Er Ec. constructor; cbn [start m_clear m_abandon m_num m_parent]; try reflexivity; try discriminate.
  - unfold place. rewrite map_length. reflexivity.
  - exists [], g. cbn [start m_k m_got m_ret m_queue m_busy]. rewrite app_nil_r. repeat split; auto.
    + cbn [map]. rewrite !app_nil_r, place_fst. reflexivity.
    + rewrite ?app_nil_r. unfold place. apply Forall_forall. intros w H. apply in_map_iff in H as (i & <- & _). reflexivity.
Qed.
Lemma abandons_quiet k i : In i (en cf) -> abandons cf (fst (exec k i)) = false.
Proof.
  intro H. apply filter_In in H as [H1 H2]. destruct (Q k i H1 H2) as (A & B & C). unfold abandons.
  destruct (has (fst (exec k i)) RES_FAIL) eqn:F.
  - destruct (c_fail cf) eqn:E; auto.
  - destruct (has (fst (exec k i)) RES_MISSING) eqn:M; [|exact A]. destruct (c_missing cf) eqn:E; auto.
Qed.
Lemma inv_done s : inv s -> m_parent s = PDone -> m_queue s = [] /\ m_busy s = [] /\ same_poll (m_got s) (before (S (m_k s))).
Proof.
  intros I H. destruct (i_state s I) as (D & g & Er & Ec & G & Rt & P & F1 & F2). pose proof (i_done s I H) as E. rewrite (i_num s I), Rt in E.
  pose proof (Permutation_length P) as L. rewrite !app_length, !map_length in L. assert (m_queue s = []) as Eq by (destruct (m_queue s); [reflexivity|cbn in L; lia]). assert (m_busy s = []) as Eb by (destruct (m_busy s); [reflexivity|cbn in L; lia]).
  split; [exact Eq|]. split; [exact Eb|]. rewrite Eq, Eb in P. cbn [map app] in P. rewrite G, before_S. now apply collect_same.
Qed.
Lemma stores_snoc ex D d g : stores ex (D ++ [d]) g = store (stores ex D g) d (fst (ex d)) (snd (ex d)) (has (fst (ex d)) RES_FAIL).
Proof. unfold stores. rewrite fold_left_app. reflexivity. Qed.
Lemma inv_step s t : inv s -> mstep cf exec s t \/ mwake s t \/ mnext cf s t -> inv t.
Proof.
  intros I St. destruct (i_state s I) as (D & g & Er & Ec & G & Rt & P & F1 & F2). destruct St as [St|[St|St]].
  - destruct St as [s w q Eq|s b1 b2 i k c r Eb Ex|s n Ec2|s Hp Hr Ha|s Hp Hd].
    + constructor; cbn [m_clear m_abandon m_num m_parent m_ret m_k]; try apply I. exists D, g. cbn [m_queue m_busy m_got m_k m_ret]. rewrite Eq in *. inversion_clear F1. repeat split; auto.
      eapply Permutation_trans; [|exact P]. cbn [map app]. apply Permutation_sym, Permutation_middle.
    + rewrite Eb in *. assert (Hk : k = m_k s) by (apply Forall_app in F2 as [_ F2]; inversion F2; auto). subst k.
      assert (Hi : In i (en cf)). { eapply Permutation_in; [exact P|]. rewrite !in_app_iff, map_app. right. left. apply in_app_iff. right. now left. }
      assert (Hc : abandons cf c = false) by (pose proof (abandons_quiet (m_k s) i Hi) as A; rewrite Ex in A; exact A).
      unfold receive. rewrite (i_abandon s I), Hc. constructor; cbn [m_clear m_abandon m_num m_parent m_ret m_k]; try apply I; try reflexivity.
      * exists (D ++ [i]), g. cbn [m_queue m_busy m_got m_k m_ret]. repeat split; auto.
        -- rewrite stores_snoc, Ex, G. reflexivity.
        -- rewrite app_length. cbn. lia.
        -- eapply Permutation_trans; [|exact P]. apply Permutation_app_head. rewrite !map_app. cbn [map fst]. rewrite <- !app_assoc. apply Permutation_app_head. cbn [app]. rewrite app_assoc. apply Permutation_sym, Permutation_cons_append.
        -- apply Forall_app in F2 as [A B]. inversion_clear B. apply Forall_app. auto.
      * destruct (Nat.leb_spec (m_num s) (S (m_ret s))) as [L|L]; [destruct (m_parent s); discriminate|]. intro; lia.
      * pose proof (Permutation_length P) as PL. rewrite !app_length, !map_length, app_length in PL. cbn [length] in PL. rewrite (i_num s I) in *. intro H.
        assert (B : m_parent s = PDone) by (destruct (_ <=? _)%nat; [destruct (m_parent s); auto; discriminate|exact H]). pose proof (i_done s I B) as B2. rewrite (i_num s I) in B2. lia.
    + rewrite (i_clear s I) in Ec2. discriminate.
    + constructor; cbn [m_clear m_abandon m_num m_parent m_ret m_k]; try apply I; auto; try discriminate.
    + constructor; cbn [m_clear m_abandon m_num m_parent m_ret m_k]; try apply I; auto; try discriminate.
      intros _. destruct Hd as [Hd|Hd]; [|rewrite (i_abandon s I) in Hd; discriminate]. pose proof (Permutation_length P) as PL. rewrite !app_length in PL. rewrite (i_num s I) in *. lia.
  - destruct St as [s Hp]. constructor; cbn [m_clear m_abandon m_num m_parent m_ret m_k]; try apply I; auto; try discriminate.
  - destruct St as [s Hp]. destruct (inv_done s I Hp) as (Eq & Eb & S1 & S2 & _). rewrite Eq, Eb, (i_clear s I). apply inv_start; assumption.
Qed.
Lemma inv_reach s : msteps cf exec (start cf 0 [] [] 0 g0) s -> inv s.
Proof.
  assert (G : forall a b, msteps cf exec a b -> inv a -> inv b) by (induction 1; auto; intro; apply IHmsteps; eapply inv_step; eauto).
  intro H. eapply G; [exact H|]. apply inv_start; reflexivity.
Qed.
End Quiet.

(** how much is left to do *)
Definition left_to_do {R} (s : mt R) : nat :=
  (4 * length (m_queue s) + 3 * length (m_busy s) + m_clear s + match m_parent s with PRun => 2 | PSleep => 1 | PDone => 0 end)%nat.
Lemma mstep_less {R} cf exec (s t : mt R) : mstep cf exec s t -> (left_to_do t < left_to_do s)%nat.
Proof.
  intros [s' w q E|s' b1 b2 i k c r E _|s' n E|s' Hp _ _|s' Hp _]; unfold left_to_do; cbn [m_queue m_busy m_clear m_parent]; rewrite ?E, ?Hp; cbn [length]; try lia.
  - assert (length (b1 ++ (i, k) :: b2) = S (length (b1 ++ b2))) as -> by (rewrite !app_length; cbn; lia).
    unfold receive. destruct (m_abandon s'); cbn [m_queue m_busy m_clear m_parent]; [lia|]. destruct (abandons cf c), (_ <=? _)%nat, (m_parent s'); lia.
Qed.
