(** Theorems about Lists as sequences (C14). *)
From Verif Require Import Base Dlist_Model Dlist_Spec Dlist_Proofs.
Local Open Scope Z_scope.

(** insert (also addFront: gap 0, addBack: gap -1).  It succeeds exactly if the gap exists
    and a transferred reference is not locked; otherwise nothing changes. *)
Theorem list_insert_as_sequence : forall V (l : list (option V)) n r xfer, let out := l_insert n r xfer l in
  (forall i, gap_at (length l) n i -> (xfer = true -> a_locked r = false) ->
     p_ok out = true /\ inserted i (a_obj r) l (p_list out)) /\
  (p_ok out = true -> exists i, gap_at (length l) n i /\ inserted i (a_obj r) l (p_list out)) /\
  (p_ok out = false -> p_list out = l /\ p_ref out = r).
Proof.
  intros V l n r xfer. cbv zeta. unfold l_insert, l_put. pose proof (applyIndex_gap n l) as H. cbn [negb] in *.
  destruct (applyIndex n true l) as [p| |].
  - assert (Hp : (p <= length l)%nat) by (unfold gap_at in H; lia). set (bl := xfer && a_locked r && _).
    assert (Hb : (xfer = true -> a_locked r = false) -> bl = false) by (intros X; unfold bl; destruct xfer; [rewrite (X eq_refl)|]; reflexivity).
    split; [|split].
    + intros i Hi Hx. rewrite (gap_unique _ _ _ _ Hi H), (Hb Hx). cbn. split; auto. now apply ins_inserted.
    + destruct bl; cbn; [discriminate|]. intros _. exists p. split; [exact H|now apply ins_inserted].
    + destruct bl; cbn; [auto|discriminate].
  - cbn. split; [intros i Hi; exfalso; exact (H i Hi)|]. split; [discriminate|auto].
  - contradiction.
Qed.
Print Assumptions list_insert_as_sequence.

(** replace *)
Theorem list_replace_as_sequence : forall V (l : list (option V)) n r xfer, let out := l_replace n r xfer l in
  (forall i, elem_at (length l) n i -> (xfer = true -> a_locked r = false) ->
     p_ok out = true /\ replaced i (a_obj r) l (p_list out)) /\
  (p_ok out = true -> exists i, elem_at (length l) n i /\ replaced i (a_obj r) l (p_list out)) /\
  (p_ok out = false -> (xfer = true -> a_locked r = false) -> p_list out = l) /\
  (p_ok out = false -> p_ref out = r).
Proof.
  intros V l n r xfer. cbv zeta. unfold l_replace, l_put. pose proof (applyIndex_elem n l) as H. cbn [negb] in *.
  destruct (applyIndex n false l) as [p| |].
  - assert (Hp : (p < length l)%nat) by (unfold elem_at in H; lia). set (bl := xfer && a_locked r && _).
    assert (Hb : (xfer = true -> a_locked r = false) -> bl = false) by (intros X; unfold bl; destruct xfer; [rewrite (X eq_refl)|]; reflexivity).
    split; [|split; [|split]].
    + intros i Hi Hx. rewrite (elem_unique _ _ _ _ Hi H), (Hb Hx). cbn. split; auto. now apply set_replaced.
    + destruct bl; cbn; [discriminate|]. intros _. exists p. split; [exact H|now apply set_replaced].
    + intros F Hx. rewrite (Hb Hx) in *. discriminate.
    + destruct bl; cbn; [auto|discriminate].
  - cbn. split; [intros i Hi; exfalso; exact (H i Hi)|]. split; [discriminate|auto].
  - contradiction.
Qed.
Print Assumptions list_replace_as_sequence.

(** a replace that is refused because the reference is locked has already dropped the old object *)
Theorem list_failed_replace_unchanged_refuted : forall V (l : list (option V)) n i r, elem_at (length l) n i -> a_locked r = true -> a_obj r <> None ->
  p_ok (l_replace n r true l) = false /\ replaced i None l (p_list (l_replace n r true l)).
Proof.
  intros V l n i r Hi L O. unfold l_replace, l_put. pose proof (applyIndex_elem n l) as H. cbn [negb] in *.
  destruct (applyIndex n false l) as [p| |]; [|exfalso; exact (H i Hi)|contradiction].
  rewrite L. destruct (a_obj r) eqn:E; [|contradiction]. cbn. split; auto. rewrite (elem_unique _ _ _ _ Hi H). apply set_replaced. unfold elem_at in H. lia.
Qed.
Print Assumptions list_failed_replace_unchanged_refuted.

(** the argument after a successful put: emptied by a transfer, otherwise kept *)
Theorem list_put_argument : forall V (l : list (option V)) n r replace xfer, p_ok (l_put n r replace xfer l) = true ->
  a_obj (p_ref (l_put n r replace xfer l)) = if xfer then None else a_obj r.
Proof.
  intros V l n r replace xfer. unfold l_put. destruct (applyIndex n (negb replace) l); cbn; try discriminate.
  destruct xfer, (a_locked r), (a_obj r) eqn:E, replace; cbn; try discriminate; auto.
Qed.
Print Assumptions list_put_argument.

(** remove, out of range, and what it returns *)
Theorem list_remove_as_sequence : forall V (l : list (option V)) n,
  match l_remove n l with
  | Ok (v, l') => exists i, elem_at (length l) n i /\ dropped i v l l'
  | Err => forall i, ~ elem_at (length l) n i
  | UB => False
  end.
Proof.
  intros V l n. unfold l_remove. pose proof (applyIndex_elem n l) as H. destruct (applyIndex n false l) as [p| |]; cbn [bind]; auto.
  destruct (nth_error l p) as [v|] eqn:E.
  - exists p. split; [exact H|]. exists (firstn p l), (skipn (S p) l). split; [now apply nth_split'|]. split; [rewrite firstn_length; unfold elem_at in H; lia|reflexivity].
  - apply nth_error_None in E. unfold elem_at in H. lia.
Qed.
Print Assumptions list_remove_as_sequence.

Theorem list_append_as_sequence : forall V (l other : list (option V)), l_append other l = l ++ other.
Proof.
  intros V l other. unfold l_append. revert l. induction other as [|v other IH]; intros l; cbn; [now rewrite app_nil_r|]. rewrite IH, <- app_assoc. reflexivity.
Qed.
Print Assumptions list_append_as_sequence.

(** appending a non-empty list to itself does not end *)
Theorem list_append_self_refuted : forall V (l : list (option V)), l <> [] -> forall k, exists s,
  Nat.iter k (fun o => match o with Some s => append_self_step s | None => None end) (Some (l, 0%nat)) = Some s.
Proof.
  intros V l Hl k. assert (G : exists l', Nat.iter k (fun o => match o with Some s => append_self_step s | None => None end) (Some (l, 0%nat)) = Some (l', k) /\ (k < length l')%nat).
  { induction k as [|k (l' & E & L)]; [exists l; cbn; destruct l; [contradiction|cbn; split; [reflexivity|lia]]|].
    set (f := fun o : option (list (option V) * nat) => _) in *. change (Nat.iter (S k) f (Some (l, 0%nat))) with (f (Nat.iter k f (Some (l, 0%nat)))). rewrite E.
    unfold f, append_self_step. cbn [fst snd]. destruct (nth_error l' k) as [v|] eqn:N; [|apply nth_error_None in N; lia].
    exists (l' ++ [v]). split; [reflexivity|]. rewrite app_length. cbn. lia. }
  destruct G as (l' & E & _). eauto.
Qed.
Print Assumptions list_append_self_refuted.

(** get from the front is right, except that index 0 of an empty list is not refused *)
Theorem list_get_front_partial : forall V (l : list (option V)) n, 0 <= n ->
  (l <> [] -> match l_get n l with Ok v => nth_error l (Z.to_nat n) = Some v | Err => Z.of_nat (length l) <= n | UB => False end) /\
  (l = [] -> l_get n l = UB).
Proof.
  intros V l n Hn. split.
  - intros Hl. unfold l_get, applyIndexConst. destruct (Z.ltb_spec n 0); [lia|]. assert (0 < length l)%nat by (destruct l; [contradiction|cbn; lia]).
    rewrite walk_const_spec by lia. destruct (Z.ltb_spec n (Z.of_nat (length l))); cbn [bind]; [|auto]. cbn [plus].
    destruct (nth_error l (Z.to_nat n)) eqn:E; [reflexivity|]. apply nth_error_None in E. lia.
  - intros ->. unfold l_get, applyIndexConst. destruct (Z.ltb_spec n 0); [lia|]. cbn. destruct (0 <? n); reflexivity.
Qed.
Print Assumptions list_get_front_partial.

(** get from the end is off by one: -1 is undefined, -k-1 gives the element -k names *)
Theorem list_get_negative_refuted : forall V (l : list (option V)),
  l_get (-1) l = UB /\
  (forall n i, elem_at (length l) n i -> n < 0 -> l_get (n - 1) l = match nth_error l i with Some v => Ok v | None => UB end) /\
  (forall n, n < - Z.of_nat (length l) - 1 -> l_get n l = Err).
Proof.
  intros V l.
  assert (G : forall n, n < 0 -> l_get n l = if Z.of_nat (length l) <? - (n + 1) then Err else
                match nth_error l (length l - Z.to_nat (- (n + 1)))%nat with Some v => Ok v | None => UB end).
  { intros n Hn. unfold l_get, applyIndexConst. destruct (Z.ltb_spec n 0); [|lia]. rewrite walk_up_spec by lia.
    destruct (Z.ltb_spec (Z.of_nat (length l)) (- (n + 1))); [|reflexivity]. destruct (Z.eqb_spec (n + 1 + Z.of_nat (length l)) 0); [lia|reflexivity]. }
  split; [|split].
  - rewrite G by lia. change (- (-1 + 1)) with 0. destruct (Z.ltb_spec (Z.of_nat (length l)) 0); [lia|]. cbn [Z.to_nat]. rewrite Nat.sub_0_r.
    destruct (nth_error l (length l)) eqn:E; [|reflexivity]. assert (nth_error l (length l) <> None) by congruence. apply nth_error_Some in H0. lia.
  - intros n i [Hi H] Hn. rewrite G by lia. destruct (Z.ltb_spec (Z.of_nat (length l)) (- (n - 1 + 1))); [lia|].
    replace (length l - Z.to_nat (- (n - 1 + 1)))%nat with i by lia. reflexivity.
  - intros n Hn. rewrite G by lia. destruct (Z.ltb_spec (Z.of_nat (length l)) (- (n + 1))); [reflexivity|lia].
Qed.
Print Assumptions list_get_negative_refuted.

(** so get does not read what replace at the same negative index wrote *)
Theorem list_get_after_replace_refuted : exists (l : list (option nat)) r, p_ok (l_replace (-2) r false l) = true /\
  l_get (-2) (p_list (l_replace (-2) r false l)) <> Ok (a_obj r).
Proof. exists [Some 1; Some 2; Some 3]%nat, {| a_obj := Some 9%nat; a_locked := false |}. split; [reflexivity|discriminate]. Qed.
Print Assumptions list_get_after_replace_refuted.
(** ... but does for indices from the front *)
Theorem list_get_after_put : forall V (l : list (option V)) n r xfer rep, 0 <= n ->
  p_ok (l_put n r rep xfer l) = true -> l_get n (p_list (l_put n r rep xfer l)) = Ok (a_obj r).
Proof.
  intros V l n r xfer rep Hn Ok1.
  assert (G : exists i, Z.of_nat i = n /\ nth_error (p_list (l_put n r rep xfer l)) i = Some (a_obj r)).
  { destruct rep.
    - destruct (list_replace_as_sequence V l n r xfer) as (_ & H & _). destruct (H Ok1) as (i & [Hi He] & a & o & b & E & L & E').
      exists i. unfold l_replace in E'. rewrite E'. split; [lia|]. rewrite nth_error_app2 by lia. now rewrite L, Nat.sub_diag.
    - destruct (list_insert_as_sequence V l n r xfer) as (_ & H & _). destruct (H Ok1) as (i & [Hi He] & a & b & E & L & E').
      exists i. unfold l_insert in E'. rewrite E'. split; [lia|]. rewrite nth_error_app2 by lia. now rewrite L, Nat.sub_diag. }
  destruct G as (i & <- & E). set (l' := p_list _) in *. assert (Nl : l' <> []) by (intros X; rewrite X in E; destruct i; discriminate).
  destruct (list_get_front_partial V l' (Z.of_nat i) ltac:(lia)) as [G _]. specialize (G Nl). rewrite Nat2Z.id in G.
  destruct (l_get (Z.of_nat i) l') as [v| |]; [congruence| |contradiction]. assert (nth_error l' i <> None) by congruence. apply nth_error_Some in H. lia.
Qed.
Print Assumptions list_get_after_put.

(** access by a name: the name's id is taken as an index from the end *)
Theorem list_get_by_name_refuted : exists (l : list (option nat)) id, id = [-5] /\ l_get_id id l = Ok (Some (Some 7%nat)).
Proof. exists [Some 7; Some 8; Some 9; Some 10]%nat, [-5]. split; reflexivity. Qed.
Print Assumptions list_get_by_name_refuted.

Definition ex_l : list (option nat) := [Some 1; Some 2; None; Some 4]%nat.
Definition ex_r : aref nat := {| a_obj := Some 9%nat; a_locked := false |}.
Example ex_insert : p_list (l_insert (-2) ex_r true ex_l) = [Some 1; Some 2; None; Some 9; Some 4]%nat /\ gap_at 4 (-2) 3.
Proof. split; [reflexivity|unfold gap_at; lia]. Qed.
Example ex_replace : p_list (l_replace (-4) ex_r false ex_l) = [Some 9; Some 2; None; Some 4]%nat /\ p_ok (l_replace (-5) ex_r false ex_l) = false.
Proof. split; reflexivity. Qed.
Example ex_remove : l_remove (-1) ex_l = Ok (Some 4, [Some 1; Some 2; None])%nat /\ l_remove 4 ex_l = Err.
Proof. split; reflexivity. Qed.
Example ex_get : l_get 3 ex_l = Ok (Some 4%nat) /\ l_get (-2) ex_l = Ok (Some 4%nat) /\ l_get (-1) ex_l = UB.
Proof. repeat split; reflexivity. Qed.
