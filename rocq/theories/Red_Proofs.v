(** Proofs for Red_Model: where slices start and what they contain. *)
From Coq Require Import Sorted.
From Verif Require Import Base Vel_Model Vel_Spec Vel_Proofs Vel_Sums Red_Model Red_Spec.
Local Open Scope Z_scope.

(** ** Sums over axes *)
Definition zsum (f : nat -> Z) (l : list nat) : Z := fold_right Z.add 0 (map f l).
Lemma zsum_ext : forall l f g, (forall k, In k l -> f k = g k) -> zsum f l = zsum g l.
Proof. induction l as [|a l IH]; intros f g H; [reflexivity|]. unfold zsum in *. cbn [map fold_right]. rewrite (H a), (IH f g); cbn; auto. intros; apply H; cbn; auto. Qed.
Lemma zsum_add : forall l f g, zsum (fun k => f k + g k) l = zsum f l + zsum g l.
Proof. induction l as [|a l IH]; intros f g; [reflexivity|]. unfold zsum in *. cbn [map fold_right]. rewrite IH. lia. Qed.
Lemma zsum_zero : forall l f, (forall k, In k l -> f k = 0) -> zsum f l = 0.
Proof. induction l as [|a l IH]; intros f H; [reflexivity|]. unfold zsum in *. cbn [map fold_right]. rewrite (H a), IH; cbn; auto. intros; apply H; cbn; auto. Qed.
Lemma zsum_shift : forall n f, zsum f (seq 1 n) = zsum (fun k => f (S k)) (seq 0 n).
Proof. intros. unfold zsum. rewrite <- seq_shift, map_map. reflexivity. Qed.
Lemma zsum_S : forall n f, zsum f (seq 0 (S n)) = f 0%nat + zsum (fun k => f (S k)) (seq 0 n).
Proof. intros. rewrite <- zsum_shift. reflexivity. Qed.
Lemma zsum_one : forall l a v f, NoDup l ->
  zsum (fun k => if Nat.eqb a k then v else f k) l = (if member a l then v else 0) + zsum (fun k => if Nat.eqb a k then 0 else f k) l.
Proof.
  induction l as [|b l IH]; intros a v f ND; [reflexivity|]. inversion ND as [|b' l' Nb ND']; subst.
  unfold zsum, member in *. cbn [map fold_right existsb]. rewrite (IH a v f ND').
  destruct (Nat.eqb a b) eqn:E; cbn [orb]; [|lia]. apply Nat.eqb_eq in E. subst b.
  assert (existsb (Nat.eqb a) l = false) as ->.
  { destruct (existsb (Nat.eqb a) l) eqn:X; auto. apply existsb_exists in X as (y & Hy & Q). apply Nat.eqb_eq in Q. subst y. contradiction. }
  lia.
Qed.
(** one term per axis of [ks] that is in [l] *)
Fixpoint asum (l ks : list nat) (g : nat -> nat -> Z) : Z :=
  match ks with [] => 0 | a :: r => (if member a l then g 0%nat a else 0) + asum l r (fun i => g (S i)) end.
Lemma member_In : forall k l, member k l = true <-> In k l.
Proof. intros. unfold member. rewrite existsb_exists. split; [intros (y & H & E); apply Nat.eqb_eq in E; now subst|]. intro H. exists k. split; auto. apply Nat.eqb_refl. Qed.
Lemma member_not : forall k l, member k l = false <-> ~ In k l.
Proof. intros. rewrite <- member_In. destruct (member k l); split; intros; congruence. Qed.
Lemma zsum_axes : forall ks l g h, NoDup l -> NoDup ks ->
  zsum (fun k => match find_axis k ks with Some i => g i k | None => h k end) l
  = zsum (fun k => if member k ks then 0 else h k) l + asum l ks g.
Proof.
  induction ks as [|a r IH]; intros l g h NL NK; cbn [find_axis asum].
  - rewrite Z.add_0_r. apply zsum_ext. reflexivity.
  - inversion NK as [|a' r' Na NR]; subst.
    rewrite (zsum_ext l _ (fun k => if Nat.eqb a k then g 0%nat a else match find_axis k r with Some i => g (S i) k | None => h k end)).
    2:{ intros k _. destruct (Nat.eqb a k) eqn:E; [apply Nat.eqb_eq in E; now subst|]. destruct (find_axis k r); reflexivity. }
    rewrite zsum_one by auto.
    rewrite (zsum_ext l _ (fun k => match find_axis k r with Some i => g (S i) k | None => if Nat.eqb a k then 0 else h k end)).
    2:{ intros k _. destruct (Nat.eqb a k) eqn:E; [apply Nat.eqb_eq in E; subst k|destruct (find_axis k r); reflexivity].
        assert (find_axis a r = None) as ->; [|reflexivity].
        clear -Na. induction r as [|b r IH]; [reflexivity|]. cbn [find_axis]. destruct (Nat.eqb b a) eqn:E; [apply Nat.eqb_eq in E; subst; destruct Na; cbn; auto|].
        rewrite IH; auto. intro; apply Na; cbn; auto. }
    rewrite (IH l (fun i => g (S i)) _ NL NR).
    rewrite (zsum_ext l (fun k => if member k r then 0 else if Nat.eqb a k then 0 else h k) (fun k => if member k (a :: r) then 0 else h k)).
    2:{ intros k _. unfold member. cbn [existsb]. rewrite (Nat.eqb_sym k a). destruct (Nat.eqb a k), (existsb (Nat.eqb k) r); reflexivity. }
    lia.
Qed.

(** ** Strides and positions *)
Definition stride_of (s : list Z) (k : nat) : Z := nth k (fst (src_strides s)) 0.
Lemma src_strides_cons : forall n s, src_strides (n :: s) = (product s :: fst (src_strides s), product (n :: s)).
Proof.
  intros n s. assert (forall s, snd (src_strides s) = product s) as P.
  { induction s0 as [|m s0 IH]; [reflexivity|]. cbn [src_strides]. destruct (src_strides s0) as [st sz]. cbn [snd] in *. subst. unfold product. cbn [fold_right]. lia. }
  cbn [src_strides]. specialize (P s). destruct (src_strides s) as [st sz]. cbn [fst snd] in *. subst. f_equal. unfold product. cbn [fold_right]. lia.
Qed.
Lemma src_strides_length : forall s, length (fst (src_strides s)) = length s.
Proof. induction s as [|n s IH]; [reflexivity|]. rewrite src_strides_cons. cbn. congruence. Qed.
Lemma stride_S : forall n s k, stride_of (n :: s) (S k) = stride_of s k.
Proof. intros. unfold stride_of. rewrite src_strides_cons. reflexivity. Qed.
Lemma stride_0 : forall n s, stride_of (n :: s) 0 = product s.
Proof. intros. unfold stride_of. rewrite src_strides_cons. reflexivity. Qed.
Definition sq (s idx : list Z) (k : nat) : Z := if ext s k =? 1 then 0 else coord idx k.
Lemma position_dot_same : forall s idx, length s = length idx ->
  position s idx = zsum (fun k => sq s idx k * stride_of s k) (seq 0 (length idx)).
Proof.
  induction s as [|n s IH]; destruct idx as [|x idx]; intros L; try discriminate; [reflexivity|].
  injection L as L. rewrite position_cons by auto. cbn [length]. rewrite zsum_S, stride_0, (IH _ L).
  change (size s) with (product s). unfold sq at 2. cbn [ext nth coord]. f_equal.
  apply zsum_ext. intros k _. rewrite stride_S. reflexivity.
Qed.
Lemma pad_length : forall s n, length (pad s n) = n.
Proof. intros. unfold pad. now rewrite map_length, seq_length. Qed.
Lemma pad_ext : forall s n k, (length s <= n)%nat -> ext (pad s n) k = ext s k.
Proof.
  intros s n k L. unfold ext, pad. destruct (Nat.lt_ge_cases k n) as [H|H].
  - now rewrite nth_map_seq.
  - rewrite !nth_overflow; auto; [lia|]. rewrite map_length, seq_length. lia.
Qed.
Lemma pad_same : forall s, pad s (length s) = s.
Proof.
  intro s. apply nth_ext with (d := 1) (d' := 1); [apply pad_length|]. intros k _. apply (pad_ext s (length s)). lia.
Qed.
Lemma position_pad' : forall s idx, (length s <= length idx)%nat -> position s idx = position (pad s (length idx)) idx.
Proof. intros. unfold position. now apply position_pad. Qed.
Lemma position_dot : forall s idx, (length s <= length idx)%nat ->
  position s idx = zsum (fun k => sq s idx k * stride_of (pad s (length idx)) k) (seq 0 (length idx)).
Proof.
  intros s idx L. rewrite position_pad' by auto. rewrite position_dot_same by (now rewrite pad_length).
  apply zsum_ext. intros k _. unfold sq. now rewrite pad_ext.
Qed.
Lemma merge_length : forall n ks o j, length (merge n ks o j) = n.
Proof. intros. unfold merge. now rewrite map_length, seq_length. Qed.
Lemma coord_merge : forall n ks o j k, (k < n)%nat ->
  coord (merge n ks o j) k = match find_axis k ks with Some i => coord j i | None => coord o k end.
Proof.
  intros n ks o j k H. unfold coord at 1, merge.
  rewrite nth_indep with (d' := match find_axis 0 ks with Some i => coord j i | None => coord o 0 end) by (now rewrite map_length, seq_length).
  rewrite (map_nth (fun k => match find_axis k ks with Some i => coord j i | None => coord o k end)), seq_nth by auto. reflexivity.
Qed.

(** what the coordinates outside the axes [ks] contribute to the position, and what those along them do *)
Definition base (s : list Z) (n : nat) (ks : list nat) (o : list Z) : Z :=
  zsum (fun k => if member k ks then 0 else sq s o k * stride_of (pad s n) k) (seq 0 n).
Fixpoint inner (s : list Z) (n : nat) (ks : list nat) (j : list Z) : Z :=
  match ks, j with
  | k :: ks, x :: j => (if ext s k =? 1 then 0 else x) * stride_of (pad s n) k + inner s n ks j
  | _, _ => 0
  end.
Lemma asum_inner : forall s n ks j, (length s <= n)%nat -> length ks = length j ->
  asum (seq 0 n) ks (fun i k => (if ext s k =? 1 then 0 else coord j i) * stride_of (pad s n) k) = inner s n ks j.
Proof.
  intros s n ks j Ln. revert j. induction ks as [|k ks IH]; destruct j as [|x j]; intros L; try discriminate; [reflexivity|].
  injection L as L. cbn [asum inner coord nth]. rewrite <- (IH j L). f_equal.
  destruct (member k (seq 0 n)) eqn:M; [reflexivity|]. apply member_not in M. rewrite in_seq in M.
  rewrite ext_over by lia. reflexivity.
Qed.
Lemma position_merge : forall s n ks o j, (length s <= n)%nat -> NoDup ks -> length ks = length j ->
  position s (merge n ks o j) = base s n ks o + inner s n ks j.
Proof.
  intros s n ks o j Ln ND L. rewrite position_dot by (now rewrite merge_length). rewrite merge_length.
  rewrite (zsum_ext _ _ (fun k => match find_axis k ks with
     | Some i => (if ext s k =? 1 then 0 else coord j i) * stride_of (pad s n) k
     | None => sq s o k * stride_of (pad s n) k end)).
  2:{ intros k Hk. apply in_seq in Hk. unfold sq. rewrite coord_merge by lia. destruct (find_axis k ks); reflexivity. }
  rewrite zsum_axes by (auto; apply seq_NoDup). unfold base. f_equal. apply asum_inner; auto.
Qed.

(** ** The pointers *)
(** offset of the counters [c], over (moves, stride) *)
Fixpoint dot (axes : list (bool * Z)) (c : list Z) : Z :=
  match axes, c with (it, st) :: axes, x :: c => (if it : bool then x * st else 0) + dot axes c | _, _ => 0 end.
Lemma dc_incr_range : forall sh c c' n, inside sh c -> dc_incr sh c = (c', Some n) -> (1 <= n <= length sh)%nat.
Proof.
  intros sh c c' n H. revert c' n. induction H as [|s sh x c Hx Hin IH]; intros c' n E; cbn [dc_incr] in E; [discriminate|].
  destruct (s <=? x + 1).
  - destruct (dc_incr sh c) as [c2 [m|]]; cbn [option_map] in E; [|discriminate]. injection E as <- <-. specialize (IH _ _ eq_refl). cbn [length]. lia.
  - injection E as <- <-. cbn [length]. lia.
Qed.
(** the next slower axis steps over all of this one *)
Fixpoint chained (sh : list Z) (axes : list (bool * Z)) : Prop :=
  match sh, axes with
  | s :: sh, (it, st) :: axes => (it = true -> match axes with (_, st') :: _ => st' = st * s | [] => True end) /\ chained sh axes
  | _, _ => True
  end.
Lemma wf_move_0 : forall axes p, wf_move axes 0 p = p.
Proof. destruct axes; reflexivity. Qed.
Lemma wf_move_dot : forall sh c, inside sh c -> forall axes n c' p, length axes = length sh -> chained sh axes ->
  dc_incr sh c = (c', Some n) -> wf_move axes n p = p + dot axes c' - dot axes c.
Proof.
  induction 1 as [|s sh x c Hx Hin IH]; intros axes n c' p La Ch E; cbn [dc_incr] in E; [discriminate|].
  destruct axes as [|[it st] axes]; [discriminate|]. injection La as La. cbn [chained] in Ch. destruct Ch as [Ch0 Ch].
  destruct (s <=? x + 1) eqn:L.
  - apply Z.leb_le in L. destruct (dc_incr sh c) as [c2 [m|]] eqn:E2; cbn [option_map] in E; [|discriminate].
    injection E as <- <-. pose proof (dc_incr_range _ _ _ _ Hin E2) as R.
    cbn [wf_move dot]. rewrite (IH _ _ _ _ La Ch eq_refl).
    destruct axes as [|[it' st'] axes]; [cbn [length] in La; lia|].
    destruct m as [|m]; [lia|]. destruct it; [|lia]. specialize (Ch0 eq_refl). subst st'. replace x with (s - 1) by lia. ring.
  - injection E as <- <-. cbn [wf_move dot]. rewrite wf_move_0. destruct it; ring.
Qed.
(** the same for the slicer without flags, which remembers whether the previous axis was sliced *)
Definition flip (axes : list (bool * Z)) : list (bool * Z) := map (fun a => (negb (fst a), snd a)) axes.
Lemma sl_move_dot : forall sh c, inside sh c -> forall axes n c' p (prev : bool), length axes = length sh -> chained sh (flip axes) ->
  (forall i, nth i (map fst axes) false = true -> nth i sh 1 = 1) ->
  dc_incr sh c = (c', Some n) ->
  sl_move (firstn n axes) prev p = p + dot (flip axes) c' - dot (flip axes) c - (if prev then 0 else match axes with (_, st) :: _ => st | [] => 0 end).
Proof.
  induction 1 as [|s sh x c Hx Hin IH]; intros axes n c' p prev La Ch One E; cbn [dc_incr] in E; [discriminate|].
  destruct axes as [|[sd st] axes]; [discriminate|]. injection La as La. cbn [flip map fst snd chained] in Ch. destruct Ch as [Ch0 Ch]. fold (flip axes) in *.
  assert (sd = true -> s = 1) as S1 by (intro; apply (One 0%nat); cbn; auto).
  assert (forall i, nth i (map fst axes) false = true -> nth i sh 1 = 1) as One' by (intros i; apply (One (S i))).
  destruct (s <=? x + 1) eqn:L.
  - apply Z.leb_le in L. destruct (dc_incr sh c) as [c2 [m|]] eqn:E2; cbn [option_map] in E; [|discriminate].
    injection E as <- <-. pose proof (dc_incr_range _ _ _ _ Hin E2) as R.
    cbn [firstn sl_move]. change (flip ((sd, st) :: axes)) with ((negb sd, st) :: flip axes). cbn [dot].
    destruct sd; cbn [negb].
    + rewrite (IH _ _ _ _ true La Ch One' eq_refl). destruct prev; lia.
    + rewrite (IH _ _ _ _ false La Ch One' eq_refl). destruct axes as [|[sd' st'] axes]; [cbn [length] in La; lia|].
      specialize (Ch0 eq_refl). cbn [flip map fst snd] in Ch0. subst st'. replace x with (s - 1) by lia. destruct prev; ring.
  - apply Z.leb_gt in L. injection E as <- <-. cbn [firstn sl_move]. change (flip ((sd, st) :: axes)) with ((negb sd, st) :: flip axes). cbn [dot].
    destruct sd; cbn [negb]; [specialize (S1 eq_refl); lia|]. destruct prev; ring.
Qed.

Lemma wf_run_ok : forall fuel sh axes faxes lim flim c, length axes = length sh -> length faxes = length sh ->
  chained sh axes -> chained sh faxes ->
  (forall c, inside sh c -> dot axes c <= lim) -> (forall l, flim = Some l -> forall c, inside sh c -> dot faxes c <= l) ->
  inside sh c -> num sh c + Z.of_nat fuel = product sh ->
  exists r, wf_run fuel sh c axes faxes lim flim (dot axes c) (dot faxes c) = Ok r /\ length r = fuel /\
    forall c2, inside sh c2 -> num sh c <= num sh c2 ->
      nth_error r (Z.to_nat (num sh c2 - num sh c)) = Some (dot axes c2, dot faxes c2).
Proof.
  induction fuel as [|f IH]; intros sh axes faxes lim flim c La Lf Ca Cf Hl Hf Hc N.
  - pose proof (num_bound _ _ Hc). lia.
  - cbn [wf_run]. rewrite (proj2 (Z.ltb_ge _ _) (Hl c Hc)).
    assert (match flim with Some l => l <? dot faxes c | None => false end = false) as ->.
    { destruct flim as [l|]; auto. apply Z.ltb_ge. eapply Hf; eauto. }
    destruct (dc_incr sh c) as [c' [n|]] eqn:E.
    + destruct (dc_incr_next _ _ Hc _ _ E) as [Hc' N'].
      rewrite (wf_move_dot _ _ Hc axes n c' _ La Ca E), (wf_move_dot _ _ Hc faxes n c' _ Lf Cf E).
      replace (dot axes c + dot axes c' - dot axes c) with (dot axes c') by lia.
      replace (dot faxes c + dot faxes c' - dot faxes c) with (dot faxes c') by lia.
      destruct (IH sh axes faxes lim flim c' La Lf Ca Cf Hl Hf Hc') as (r & W & L & R); [lia|].
      rewrite W. cbn [bind]. eexists; split; [reflexivity|]. split; [cbn; congruence|].
      intros c2 H2 Le. destruct (Z.eq_dec (num sh c2) (num sh c)) as [Q|Q].
      * apply (num_inj _ _ H2 _ Hc) in Q. subst c2. rewrite Z.sub_diag. reflexivity.
      * replace (Z.to_nat (num sh c2 - num sh c)) with (S (Z.to_nat (num sh c2 - num sh c'))) by lia.
        cbn [nth_error]. apply R; auto. lia.
    + pose proof (dc_incr_last _ _ Hc _ E) as N'. assert (f = O) as -> by lia.
      eexists; split; [reflexivity|]. split; [reflexivity|].
      intros c2 H2 Le. pose proof (num_bound _ _ H2).
      assert (num sh c2 = num sh c) as Q by lia. rewrite Q. apply (num_inj _ _ H2 _ Hc) in Q. subst c2.
      rewrite Z.sub_diag. reflexivity.
Qed.
Lemma sl_run_ok : forall fuel sh axes c, length axes = length sh -> chained sh (flip axes) ->
  (forall i, nth i (map fst axes) false = true -> nth i sh 1 = 1) ->
  inside sh c -> num sh c + Z.of_nat fuel = product sh ->
  exists r, sl_run fuel sh c axes (dot (flip axes) c) = Ok r /\ length r = fuel /\
    forall c2, inside sh c2 -> num sh c <= num sh c2 ->
      nth_error r (Z.to_nat (num sh c2 - num sh c)) = Some (dot (flip axes) c2).
Proof.
  induction fuel as [|f IH]; intros sh axes c La Ca One Hc N.
  - pose proof (num_bound _ _ Hc). lia.
  - cbn [sl_run]. destruct (dc_incr sh c) as [c' [n|]] eqn:E.
    + destruct (dc_incr_next _ _ Hc _ _ E) as [Hc' N'].
      rewrite (sl_move_dot _ _ Hc axes n c' _ true La Ca One E).
      replace (dot (flip axes) c + dot (flip axes) c' - dot (flip axes) c - 0) with (dot (flip axes) c') by lia.
      destruct (IH sh axes c' La Ca One Hc') as (r & W & L & R); [lia|].
      rewrite W. cbn [bind]. eexists; split; [reflexivity|]. split; [cbn; congruence|].
      intros c2 H2 Le. destruct (Z.eq_dec (num sh c2) (num sh c)) as [Q|Q].
      * apply (num_inj _ _ H2 _ Hc) in Q. subst c2. rewrite Z.sub_diag. reflexivity.
      * replace (Z.to_nat (num sh c2 - num sh c)) with (S (Z.to_nat (num sh c2 - num sh c'))) by lia.
        cbn [nth_error]. apply R; auto. lia.
    + pose proof (dc_incr_last _ _ Hc _ E) as N'. assert (f = O) as -> by lia.
      eexists; split; [reflexivity|]. split; [reflexivity|].
      intros c2 H2 Le. pose proof (num_bound _ _ H2).
      assert (num sh c2 = num sh c) as Q by lia. rewrite Q. apply (num_inj _ _ H2 _ Hc) in Q. subst c2.
      rewrite Z.sub_diag. reflexivity.
Qed.
