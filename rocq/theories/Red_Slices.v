(** Proofs for Red_Model: the slicers visit every slice, and what a slice is. *)
From Coq Require Import Sorted.
From Verif Require Import Base Vel_Model Vel_Spec Vel_Proofs Vel_Sums Red_Model Red_Spec Red_Proofs.
Local Open Scope Z_scope.

Lemma stride_step : forall s k, (S k < length s)%nat -> stride_of s k = stride_of s (S k) * ext s (S k).
Proof.
  induction s as [|n s IH]; intros k L; [cbn in L; lia|]. cbn [length] in L. rewrite stride_S.
  destruct k as [|k].
  - rewrite stride_0. destruct s as [|m s]; [cbn in L; lia|]. rewrite stride_0. unfold product, ext. cbn [fold_right nth]. lia.
  - rewrite stride_S. rewrite IH by lia. reflexivity.
Qed.
Lemma chained_nth : forall sh axes, length axes = length sh ->
  (forall i st it' st', nth_error axes i = Some (true, st) -> nth_error axes (S i) = Some (it', st') -> st' = st * nth i sh 1) -> chained sh axes.
Proof.
  induction sh as [|s sh IH]; intros axes L H; [exact Logic.I|]. destruct axes as [|[it st] axes]; [discriminate|]. injection L as L.
  cbn [chained]. split.
  - intros ->. destruct axes as [|[it' st'] axes]; auto. apply (H 0%nat st it' st'); reflexivity.
  - apply IH; auto. intros i st0 it' st' A B. apply (H (S i) st0 it' st'); auto.
Qed.
Lemma nth_error_rev : forall (A : Type) (l : list A) i, (i < length l)%nat -> nth_error (rev l) i = nth_error l (length l - S i).
Proof.
  intros A l i H. destruct l as [|d l0]; [cbn in H; lia|]. set (l := d :: l0) in *. clearbody l.
  rewrite (nth_error_nth' (rev l) d) by (now rewrite rev_length). rewrite rev_nth by auto. symmetry. apply nth_error_nth'. lia.
Qed.
Lemma dot_app : forall a b x y, length a = length x -> dot (a ++ b) (x ++ y) = dot a x + dot b y.
Proof. induction a as [|[it st] a IH]; destruct x as [|z x]; intros y L; cbn [app dot length] in *; try discriminate; [lia|]. injection L as L. rewrite IH by auto. lia. Qed.
Lemma dot_rev : forall a x, length a = length x -> dot (rev a) (rev x) = dot a x.
Proof.
  induction a as [|[it st] a IH]; destruct x as [|z x]; intros L; cbn [length] in L; try discriminate; [reflexivity|]. injection L as L.
  cbn [rev]. rewrite dot_app by (now rewrite !rev_length). rewrite IH by auto. cbn [dot]. lia.
Qed.
(** axes with their strides *)
Definition axes_of (it : nat -> bool) (s : list Z) (n : nat) : list (bool * Z) := combine (map it (seq 0 n)) (fst (src_strides s)).
Lemma axes_of_length : forall it s n, (n <= length s)%nat -> length (axes_of it s n) = n.
Proof. intros. unfold axes_of. rewrite combine_length, map_length, seq_length, src_strides_length. lia. Qed.
Lemma axes_of_nth : forall it s n k, (n <= length s)%nat -> (k < n)%nat -> nth_error (axes_of it s n) k = Some (it k, stride_of s k).
Proof.
  intros it s n k L H. rewrite nth_error_nth' with (d := (false, 0)) by (now rewrite axes_of_length).
  f_equal. unfold axes_of.
  assert (forall (a : list bool) (b : list Z) k, (k < length a)%nat -> (k < length b)%nat -> nth k (combine a b) (false, 0) = (nth k a false, nth k b 0)) as N.
  { induction a as [|x a IH]; destruct b as [|y b]; intros [|i] A B; cbn in *; try lia; auto. apply IH; lia. }
  rewrite N by (rewrite ?map_length, ?seq_length, ?src_strides_length; lia). f_equal.
  rewrite nth_indep with (d' := it 0%nat) by (now rewrite map_length, seq_length). rewrite map_nth, seq_nth by auto. reflexivity.
Qed.
Lemma axes_of_S : forall it n m s, axes_of it (m :: s) (S n) = (it 0%nat, product s) :: axes_of (fun k => it (S k)) s n.
Proof. intros. unfold axes_of. rewrite src_strides_cons. cbn [seq map fst combine]. rewrite <- seq_shift, map_map. reflexivity. Qed.
Lemma dot_axes : forall n s it o, (n <= length s)%nat -> length o = n ->
  dot (axes_of it s n) o = zsum (fun k => if it k then coord o k * stride_of s k else 0) (seq 0 n).
Proof.
  induction n as [|n IH]; intros s it o L Lo; [reflexivity|].
  destruct s as [|m s]; [cbn in L; lia|]. destruct o as [|x o]; [discriminate|]. injection Lo as Lo. cbn [length] in L.
  rewrite axes_of_S. cbn [dot].
  rewrite (IH s (fun k => it (S k)) o) by (auto; lia). rewrite zsum_S, stride_0. cbn [coord nth]. f_equal.
  apply zsum_ext. intros k _. rewrite stride_S. reflexivity.
Qed.
Lemma chained_axes : forall it s n ns, (n <= length s)%nat -> length ns = n ->
  (forall k, (k < n)%nat -> it k = true -> ext ns k = ext s k) -> chained (rev ns) (rev (axes_of it s n)).
Proof.
  intros it s n ns L Ln H. apply chained_nth; [rewrite !rev_length, axes_of_length; auto|].
  intros i st it' st' A B. pose proof (axes_of_length it s n L) as La.
  assert (S i < n)%nat as Hi. { rewrite <- La, <- rev_length. apply nth_error_Some. congruence. }
  rewrite nth_error_rev, La in A by lia. rewrite nth_error_rev, La in B by lia.
  rewrite axes_of_nth in A by lia. rewrite axes_of_nth in B by lia.
  replace (n - S i)%nat with (S (n - S (S i))) in A by lia.
  injection A as A1 A2. injection B as B1 B2. subst st st'.
  rewrite stride_step by lia. f_equal. rewrite rev_nth by lia. rewrite Ln. replace (n - S i)%nat with (S (n - S (S i))) by lia.
  symmetry. apply (H (S (n - S (S i)))); auto. lia.
Qed.

(** ** Bounds *)
Definition zprod (f : nat -> Z) (l : list nat) : Z := fold_right Z.mul 1 (map f l).
Lemma zprod_S : forall n f, zprod f (seq 0 (S n)) = f 0%nat * zprod (fun k => f (S k)) (seq 0 n).
Proof. intros. unfold zprod. cbn [seq map fold_right]. rewrite <- seq_shift, map_map. reflexivity. Qed.
Lemma zprod_ext : forall l f g, (forall k, In k l -> f k = g k) -> zprod f l = zprod g l.
Proof. induction l as [|a l IH]; intros f g H; [reflexivity|]. unfold zprod in *. cbn [map fold_right]. rewrite (H a), (IH f g); cbn; auto. intros; apply H; cbn; auto. Qed.
Lemma zprod_one : forall l a (v : Z) f, NoDup l ->
  zprod (fun k => if Nat.eqb a k then v else f k) l = (if member a l then v else 1) * zprod (fun k => if Nat.eqb a k then 1 else f k) l.
Proof.
  induction l as [|b l IH]; intros a v f ND; [reflexivity|]. inversion ND as [|b' l' Nb ND']; subst.
  unfold zprod, member in *. cbn [map fold_right existsb]. rewrite (IH a v f ND').
  destruct (Nat.eqb a b) eqn:E; cbn [orb]; [|lia]. apply Nat.eqb_eq in E. subst b.
  assert (existsb (Nat.eqb a) l = false) as ->.
  { destruct (existsb (Nat.eqb a) l) eqn:X; auto. apply existsb_exists in X as (y & Hy & Q). apply Nat.eqb_eq in Q. subst y. contradiction. }
  lia.
Qed.
Lemma zprod_members : forall ks n s, (length s <= n)%nat -> NoDup ks ->
  zprod (fun k => if member k ks then ext s k else 1) (seq 0 n) = product (along ks s).
Proof.
  intros ks n s L. induction ks as [|a ks IH]; intros ND.
  - unfold along. cbn [map]. change (product []) with 1. clear. induction (seq 0 n) as [|k l I]; [reflexivity|]. unfold zprod in *. cbn [map fold_right]. rewrite I. reflexivity.
  - inversion ND as [|a' k' Na ND']; subst.
    rewrite (zprod_ext _ _ (fun k => if Nat.eqb a k then ext s a else if member k ks then ext s k else 1)).
    2:{ intros k _. unfold member. cbn [existsb]. rewrite (Nat.eqb_sym k a). destruct (Nat.eqb a k) eqn:E; [apply Nat.eqb_eq in E; now subst|reflexivity]. }
    rewrite zprod_one by apply seq_NoDup.
    rewrite (zprod_ext _ _ (fun k => if member k ks then ext s k else 1)).
    2:{ intros k _. destruct (Nat.eqb a k) eqn:E; [apply Nat.eqb_eq in E; subst k|reflexivity]. rewrite (proj2 (member_not a ks) Na). reflexivity. }
    rewrite IH by auto. unfold along, product. cbn [map fold_right]. f_equal.
    destruct (member a (seq 0 n)) eqn:M; [reflexivity|]. apply member_not in M. rewrite in_seq in M. symmetry. apply ext_over. lia.
Qed.
Lemma span_bound : forall s (m : nat -> bool) (q : nat -> Z), proper s ->
  (forall k, m k = false -> (k < length s)%nat -> 0 <= q k <= ext s k - 1) ->
  0 <= zsum (fun k => if m k then 0 else q k * stride_of s k) (seq 0 (length s)) /\
  1 <= zprod (fun k => if m k then ext s k else 1) (seq 0 (length s)) /\
  zsum (fun k => if m k then 0 else q k * stride_of s k) (seq 0 (length s)) + zprod (fun k => if m k then ext s k else 1) (seq 0 (length s)) <= product s.
Proof.
  induction s as [|n s IH]; intros m q P H.
  - cbn. lia.
  - inversion P as [|n' s' Pn Ps]; subst. cbn [length]. rewrite zsum_S, zprod_S, stride_0.
    rewrite (zsum_ext _ _ (fun k => if m (S k) then 0 else q (S k) * stride_of s k)) by (intros k _; now rewrite stride_S).
    destruct (IH (fun k => m (S k)) (fun k => q (S k)) Ps) as (A & B & C).
    { intros k Hm Hk. apply (H (S k) Hm). cbn. lia. }
    cbn beta in *. rewrite (zprod_ext _ (fun k => if m (S k) then ext (n :: s) (S k) else 1) (fun k => if m (S k) then ext s k else 1)) by reflexivity.
    set (Z0 := zsum _ _) in *. set (P0 := zprod _ _) in *. clearbody Z0 P0.
    pose proof (product_pos _ Ps) as Pp. change (product (n :: s)) with (n * product s).
    change (ext (n :: s) 0) with n. destruct (m 0%nat) eqn:M; [nia|].
    specialize (H 0%nat M ltac:(cbn; lia)). change (ext (n :: s) 0) with n in H. nia.
Qed.
Lemma pad_proper : forall s n, proper s -> proper (pad s n).
Proof. intros s n P. unfold pad. apply Forall_map, Forall_forall. intros k _. now apply ext_pos. Qed.
Lemma pad_product : forall s n, (length s <= n)%nat -> product (pad s n) = product s.
Proof. intros. now apply product_pad. Qed.
Lemma base_bound : forall s n ks o, proper s -> (length s <= n)%nat -> NoDup ks ->
  (forall k, ~ In k ks -> (k < n)%nat -> ext s k <> 1 -> 0 <= coord o k < ext s k) ->
  0 <= base s n ks o /\ 1 <= product (along ks s) /\ base s n ks o + product (along ks s) <= size s.
Proof.
  intros s n ks o P L ND H.
  destruct (span_bound (pad s n) (fun k => member k ks) (fun k => sq s o k) (pad_proper s n P)) as (A & B & C).
  { intros k M Hk. rewrite pad_length in Hk. rewrite pad_ext by auto. apply member_not in M. unfold sq.
    destruct (ext s k =? 1) eqn:E; [apply Z.eqb_eq in E; lia|]. apply Z.eqb_neq in E. specialize (H k M Hk E). lia. }
  rewrite pad_length in *. rewrite pad_product in C by auto.
  rewrite (zprod_ext _ _ (fun k => if member k ks then ext s k else 1)) in B, C by (intros; now rewrite pad_ext).
  rewrite zprod_members in B, C by auto. unfold base. split; [exact A|]. split; [exact B|exact C].
Qed.

(** ** Slices of trailing axes are contiguous *)
Lemma tail_product : forall ks s b n, (length s <= n)%nat -> StronglySorted lt ks -> Forall (fun k => b <= k)%nat ks ->
  (forall l, (b <= l)%nat -> In l ks \/ ext s l = 1) -> zprod (ext s) (seq b (n - b)) = product (along ks s).
Proof.
  intros ks s b n L. revert b. induction ks as [|k ks IH]; intros b So F H.
  - unfold along. cbn [map]. change (product []) with 1.
    assert (forall l, (forall k, In k l -> ext s k = 1) -> zprod (ext s) l = 1) as E.
    { induction l as [|a l I]; intro X; [reflexivity|]. unfold zprod in *. cbn [map fold_right]. rewrite (X a), I; cbn; auto. intros; apply X; cbn; auto. }
    apply E. intros a Ha. apply in_seq in Ha. destruct (H a) as [[]|]; auto; lia.
  - apply StronglySorted_inv in So as [So Fk]. apply Forall_cons_iff in F as [Fb F].
    assert (zprod (ext s) (seq b (n - b)) = zprod (ext s) (seq k (n - k))) as ->.
    { clear IH. remember (k - b)%nat as m eqn:M. revert b M Fb F H. induction m as [|m IHm]; intros b M Fb F H.
      - replace k with b by lia. reflexivity.
      - assert (ext s b = 1) as Eb.
        { destruct (H b) as [[<-|Hi]|]; auto; try lia. rewrite Forall_forall in Fk. specialize (Fk _ Hi). lia. }
        rewrite <- (IHm (S b)); try lia.
        + destruct (Nat.le_gt_cases n b) as [Q|Q].
          * replace (n - b)%nat with 0%nat by lia. replace (n - S b)%nat with 0%nat by lia. reflexivity.
          * replace (n - b)%nat with (S (n - S b)) by lia. unfold zprod. cbn [seq map fold_right]. rewrite Eb. lia.
        + eapply Forall_impl; [|exact Fk]. cbv beta. intros a Ha. lia.
        + intros l Hl. apply H. lia. }
    unfold along, product. cbn [map fold_right]. change (fold_right Z.mul 1 (map (ext s) ks)) with (product (along ks s)).
    rewrite <- (IH (S k)); auto.
    + destruct (Nat.le_gt_cases n k) as [Q|Q].
      * replace (n - k)%nat with 0%nat by lia. replace (n - S k)%nat with 0%nat by lia. rewrite ext_over by lia. reflexivity.
      * replace (n - k)%nat with (S (n - S k)) by lia. reflexivity.
    + intros l Hl. destruct (H l) as [[E|Hi]|]; auto; lia.
Qed.
Lemma stride_product : forall s k, (k < length s)%nat -> stride_of s k = zprod (ext s) (seq (S k) (length s - S k)).
Proof.
  induction s as [|n s IH]; intros k H; [cbn in H; lia|]. cbn [length] in *. destruct k as [|k].
  - rewrite stride_0. replace (S (length s) - 1)%nat with (length s) by lia. unfold zprod. rewrite <- seq_shift, map_map.
    change (fun x => ext (n :: s) (S x)) with (ext s). change (map (ext s) (seq 0 (length s))) with (pad s (length s)). now rewrite pad_same.
  - rewrite stride_S, IH by lia. replace (S (length s) - S (S k))%nat with (length s - S k)%nat by lia.
    unfold zprod. rewrite <- (seq_shift _ (S k)), map_map. reflexivity.
Qed.
Lemma inner_position : forall s n ks j, (length s <= n)%nat -> trailing ks s -> length ks = length j ->
  inner s n ks j = position (along ks s) j.
Proof.
  intros s n ks j L [So T]. revert j. induction ks as [|k ks IH]; destruct j as [|x j]; intros Lj; try discriminate; [reflexivity|].
  injection Lj as Lj. apply StronglySorted_inv in So as [So Fk]. cbn [inner]. unfold along. cbn [map]. fold (along ks s).
  rewrite position_cons by (unfold along; now rewrite map_length).
  rewrite IH; auto.
  2:{ intros k0 k1 H0 H1 H2. destruct (T k0 k1) as [[E|Hi]|]; cbn; auto. subst k1. rewrite Forall_forall in Fk. specialize (Fk _ H0). lia. }
  f_equal. destruct (ext s k =? 1) eqn:E; [lia|]. apply Z.eqb_neq in E. f_equal.
  assert (k < length s)%nat as Hk. { destruct (Nat.lt_ge_cases k (length s)); auto. rewrite ext_over in E by auto. lia. }
  rewrite stride_product by (rewrite pad_length; lia). rewrite pad_length.
  rewrite (zprod_ext _ _ (ext s)) by (intros; now rewrite pad_ext).
  change (size (along ks s)) with (product (along ks s)). apply tail_product; auto.
  intros l Hl. destruct (T k l) as [[->|Hi]|]; cbn; auto; lia.
Qed.
Lemma stretch_nth : forall (A : Type) (d : list A) p dims q, 0 <= p -> 0 <= q < product (map fst dims) ->
  nth_error (stretch d p dims) (Z.to_nat q) = nth_error d (Z.to_nat (p + q)).
Proof.
  intros A d p dims q Hp Hq. unfold stretch.
  assert (forall (l : list A) n i, (i < n)%nat -> nth_error (firstn n l) i = nth_error l i) as F.
  { induction l as [|a l IH]; destruct n as [|n]; intros i Hi; try lia; cbn [firstn]; [destruct i; reflexivity|]. destruct i; [reflexivity|]. cbn. apply IH. lia. }
  rewrite F by lia.
  assert (forall (l : list A) n i, nth_error (skipn n l) i = nth_error l (n + i)) as K.
  { induction l as [|a l IH]; destruct n as [|n]; intros i; cbn [skipn]; try reflexivity; [destruct i; reflexivity|]. cbn. apply IH. }
  rewrite K. f_equal. lia.
Qed.
