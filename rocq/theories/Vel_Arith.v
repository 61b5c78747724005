(** Proofs for Vel_Model: element-wise functions, in-place operators, flags. *)
From Verif Require Import Base Vel_Model Vel_Spec Vel_Proofs.
Local Open Scope Z_scope.

Section V.
Context {V : Type}.
Notation vells := (vells V).
Variable dv : V.
Definition wf (v : vells) : Prop := filled (v_shape v) (v_data v) /\ (length (v_shape v) <= MaxAxis)%nat.

Lemma position_small : forall s out idx, Forall2 fits (rext s (length out)) (rev out) -> (length s <= length out)%nat -> inside out idx ->
  0 <= position s idx < size s.
Proof.
  intros s out idx F L H. pose proof (inside_len _ _ H) as Li.
  rewrite position_rext by lia. rewrite <- Li. change (size s) with (product s). rewrite <- (product_rext (length out)) by auto.
  apply off_bound with (sh := rev out); auto. now apply inside_rev.
Qed.
Lemma get_at : forall s (d : list V) p, Z.of_nat (length d) = size s -> 0 <= p < size s -> nth_error d (Z.to_nat p) = Some (get dv d p).
Proof. intros s d p L H. unfold get. apply nth_error_nth'. lia. Qed.

(** shapes of a computeStrides call *)
Lemma strides_shapes : forall shapes out, (forall j s, nth_error shapes j = Some s -> Forall2 fits (rext s (length out)) (rev out)) ->
  length out = ranks shapes -> Forall (fun s => Forall2 fits (rext s (length out)) (rev out) /\ (length s <= length out)%nat) shapes.
Proof.
  intros shapes out H L. apply Forall_forall. intros s Hs. split.
  - apply In_nth_error in Hs as [j Hj]. eapply H; eauto.
  - rewrite L. now apply ranks_le.
Qed.
Lemma max_ext2 : forall a b k, proper a -> proper b -> max_ext [a; b] k = Z.max (ext a k) (ext b k).
Proof. intros a b k Pa Pb. unfold max_ext. cbn [map fold_right]. pose proof (ext_pos _ Pa k). pose proof (ext_pos _ Pb k). lia. Qed.
Lemma ranks2 : forall a b : list Z, ranks [a; b] = Nat.max (length a) (length b).
Proof. intros. unfold ranks. cbn [fold_right]. lia. Qed.
Lemma all2 : forall a b, broadcastable a b -> all_broadcastable [a; b].
Proof.
  intros a b H x y Hx Hy k. specialize (H k).
  destruct Hx as [<-|[<-|[]]], Hy as [<-|[<-|[]]]; auto; destruct H as [|[|]]; auto.
Qed.
Lemma size_one : forall s, proper s -> size s = 1 -> forall k, ext s k = 1.
Proof.
  intros s P E k. unfold ext, size in *. revert k. induction P as [|n s Hn P IH]; intros k; [now destruct k|].
  cbn [fold_right] in E. pose proof (product_pos _ P) as Q. unfold product in Q.
  assert (fold_right Z.mul 1 s = 1) as E' by nia. specialize (IH E').
  destruct k as [|k]; cbn [nth]; [nia|apply IH].
Qed.
Lemma ones_size : forall s, (forall k, ext s k = 1) -> size s = 1.
Proof.
  unfold ext, size. induction s as [|n s IH]; intro H; cbn [fold_right]; [reflexivity|].
  rewrite IH by (intro k; apply (H (S k))). specialize (H 0%nat). cbn in H. lia.
Qed.

Lemma binary_eq : forall op a b, wf a -> wf b -> broadcastable (v_shape a) (v_shape b) ->
  exists out, joint (v_shape a) (v_shape b) out /\ proper out /\
    Forall (fun s => Forall2 fits (rext s (length out)) (rev out) /\ (length s <= length out)%nat) [v_shape a; v_shape b] /\
    binary dv op a b = Ok (plain out (map (fun idx => op (get dv (v_data a) (position (v_shape a) idx)) (get dv (v_data b) (position (v_shape b) idx))) (indices out))).
Proof.
  intros op a b [[Pa La] Ra] [[Pb Lb] Rb] B.
  destruct (computeStrides_ok [v_shape a; v_shape b]) as (out & st & E & L & X & Po & S1).
  - repeat constructor; auto.
  - rewrite ranks2. lia.
  - now apply all2.
  - exists out.
    assert (Forall (fun s => Forall2 fits (rext s (length out)) (rev out) /\ (length s <= length out)%nat) [v_shape a; v_shape b]) as F.
    { apply strides_shapes; auto. intros j s Hj. now destruct (S1 j s Hj). }
    assert (joint (v_shape a) (v_shape b) out) as J.
    { split; [rewrite L; apply ranks2|]. intro k. rewrite X. now apply max_ext2. }
    split; [exact J|]. split; [exact Po|]. split; [exact F|].
    unfold binary. rewrite E. cbn [bind].
    destruct (isScalar a && isScalar b) eqn:Sc.
    + apply andb_prop in Sc as [Sa Sb]. unfold isScalar, nelements in Sa, Sb. apply Z.eqb_eq in Sa, Sb.
      assert (size out = 1) as So.
      { apply ones_size. intro k. destruct J as [_ J]. rewrite J.
        rewrite (size_one _ Pa) by lia. rewrite (size_one _ Pb) by lia. reflexivity. }
      pose proof (indices_length _ Po) as Li. rewrite So in Li.
      destruct (indices out) as [|i [|i2 l]] eqn:Ei; cbn [length] in Li; try lia.
      assert (inside out i) as Hi by (apply indices_inside; rewrite Ei; cbn; auto).
      inversion F as [|? ? [Fa La'] F']; subst. inversion F' as [|? ? [Fb Lb'] _]; subst.
      pose proof (position_small _ _ _ Fa La' Hi). pose proof (position_small _ _ _ Fb Lb' Hi).
      cbn [map]. replace (position (v_shape a) i) with 0 by lia. replace (position (v_shape b) i) with 0 by lia.
      reflexivity.
    + destruct (S1 0%nat (v_shape a) eq_refl) as [Na _]. destruct (S1 1%nat (v_shape b) eq_refl) as [Nb _].
      rewrite Na, Nb. unfold nelements. rewrite La, Lb.
      pose proof (run_indices out [v_shape a; v_shape b] Po F) as R. cbn [map] in R. rewrite R. cbn [bind].
      f_equal. f_equal. rewrite map_map. reflexivity.
Qed.
Lemma not_all2 : forall a b, ~ broadcastable a b -> ~ all_broadcastable [a; b].
Proof. intros a b N H. apply N. apply H; cbn; auto. Qed.
Lemma binary_err : forall op a b, wf a -> wf b -> ~ broadcastable (v_shape a) (v_shape b) -> binary dv op a b = Err.
Proof.
  intros op a b [[Pa La] Ra] [[Pb Lb] Rb] N. unfold binary. rewrite computeStrides_err; [reflexivity| | |].
  - repeat constructor; auto.
  - rewrite ranks2. lia.
  - now apply not_all2.
Qed.
Lemma filled_map : forall (A : Type) out (f : list Z -> A), proper out -> filled out (map f (indices out)).
Proof. intros. split; auto. rewrite map_length. now apply indices_length. Qed.
Lemma at_map : forall (A : Type) out (f : list Z -> A) idx, inside out idx -> at_index out (map f (indices out)) idx = Some (f idx).
Proof. intros. unfold at_index. rewrite nth_error_map, indices_nth by auto. reflexivity. Qed.

(** ** in place *)
Lemma cip_spec : forall dims ours other tot deg, proper ours -> proper other ->
  match cip_loop dims ours other tot deg with
  | Ok (Some st) => st = strides1 (map (ext other) dims) tot deg /\ Forall2 fits (map (ext other) dims) (map (ext ours) dims)
  | Ok None => exists k, In k dims /\ ext ours k = 1 /\ ext other k <> 1
  | Err => exists k, In k dims /\ ext ours k <> 1 /\ ext other k <> 1 /\ ext ours k <> ext other k
  | UB => False
  end.
Proof.
  induction dims as [|k dims IH]; intros ours other tot deg Po Pt; cbn [cip_loop].
  - split; [reflexivity|constructor].
  - change (extent ours k) with (ext ours k). change (extent other k) with (ext other k).
    pose proof (ext_pos _ Pt k) as Et.
    destruct (ext other k =? 1) eqn:E1; [apply Z.eqb_eq in E1|apply Z.eqb_neq in E1].
    + destruct (degenerateAxis tot deg) as [d deg'] eqn:Ed.
      specialize (IH ours other (tot * ext other k) deg' Po Pt).
      destruct (cip_loop dims ours other (tot * ext other k) deg') as [[st|]| |]; cbn [bind option_map]; auto.
      * destruct IH as [-> F]. split.
        -- cbn [map strides1]. rewrite (proj2 (Z.ltb_ge 1 (ext other k))) by lia. rewrite Ed. reflexivity.
        -- constructor; auto. split; auto.
      * destruct IH as (k' & I & R). exists k'. cbn. auto.
      * destruct IH as (k' & I & R). exists k'. cbn. auto.
    + destruct (ext ours k =? ext other k) eqn:E2; [apply Z.eqb_eq in E2|apply Z.eqb_neq in E2].
      * destruct (normalAxis tot deg) as [d deg'] eqn:Ed.
        specialize (IH ours other (tot * ext other k) deg' Po Pt).
        destruct (cip_loop dims ours other (tot * ext other k) deg') as [[st|]| |]; cbn [bind option_map]; auto.
        -- destruct IH as [-> F]. split.
           ++ cbn [map strides1]. rewrite (proj2 (Z.ltb_lt 1 (ext other k))) by lia. rewrite Ed. reflexivity.
           ++ constructor; auto. split; auto.
        -- destruct IH as (k' & I & R). exists k'. cbn. auto.
        -- destruct IH as (k' & I & R). exists k'. cbn. auto.
      * destruct (ext ours k =? 1) eqn:E3; [apply Z.eqb_eq in E3|apply Z.eqb_neq in E3]; exists k; cbn; auto.
Qed.
Lemma map_ext_self : forall s, map (ext s) (seq 0 (length s)) = s.
Proof.
  induction s as [|n s IH]; [reflexivity|]. cbn [length]. rewrite map_ext_seq. now rewrite IH.
Qed.
Lemma rext_self : forall s, rext s (length s) = rev s.
Proof. intro s. unfold rext. rewrite map_rev, map_ext_self. reflexivity. Qed.
Lemma shape_eq : forall a b : list Z, length a = length b -> (forall k, ext a k = ext b k) -> a = b.
Proof. intros a b L H. rewrite <- (map_ext_self a), <- (map_ext_self b), L. apply map_ext. auto. Qed.
Lemma combine_map_map : forall (A B C D : Type) (h : B * C -> D) (f : A -> B) (g : A -> C) l,
  map h (combine (map f l) (map g l)) = map (fun x => h (f x, g x)) l.
Proof. induction l; cbn; congruence. Qed.
(** the elements of an array, listed by index *)
Lemma data_by_indices : forall s (d : list V), filled s d -> d = map (fun idx => get dv d (position s idx)) (indices s).
Proof.
  intros s d [P L]. apply by_indices; auto. intros idx H. eapply get_at; eauto. now apply position_bound.
Qed.

Variable narrower : vells -> vells -> bool.
Lemma inplace_eq : forall op a b, wf a -> wf b -> broadcastable (v_shape a) (v_shape b) ->
  exists r, binary dv op a b = Ok r /\ v_flags r = None /\
    (inplace dv narrower op a b = Ok r \/ inplace dv narrower op a b = Ok {| v_shape := v_shape r; v_data := v_data r; v_flags := v_flags a |}).
Proof.
  intros op a b Wa Wb B. destruct (binary_eq op a b Wa Wb B) as (out & J & Po & F & E).
  destruct Wa as [[Pa La] Ra], Wb as [[Pb Lb] Rb].
  eexists. split; [exact E|]. split; [reflexivity|].
  unfold inplace, canApplyInPlace.
  destruct (narrower a b || Nat.ltb (length (v_shape a)) (length (v_shape b))) eqn:Q; cbn [bind]; [left; exact E|].
  apply orb_false_iff in Q as [_ Q]. apply Nat.ltb_ge in Q.
  rewrite (proj2 (Nat.ltb_ge _ _) Ra).
  pose proof (cip_spec (rev (seq 0 (length (v_shape a)))) (v_shape a) (v_shape b) 1 true Pa Pb) as C.
  destruct (cip_loop _ _ _ _ _) as [[st|]| |]; cbn [bind]; [|left; exact E| |contradiction].
  - right. destruct C as [-> C]. fold (rext (v_shape b) (length (v_shape a))) in *. fold (rext (v_shape a) (length (v_shape a))) in C.
    rewrite rext_self in C.
    assert (forall k, ext (v_shape b) k = 1 \/ ext (v_shape b) k = ext (v_shape a) k) as G.
    { intro k. destruct (Nat.lt_ge_cases k (length (v_shape a))) as [Hk|Hk].
      - rewrite <- rext_self in C. unfold rext in C. rewrite !map_rev in C. apply Forall2_rev' in C. rewrite !rev_involutive in C.
        assert (forall l l' : list Z, Forall2 fits l l' -> forall n, (n < length l)%nat -> fits (nth n l 1) (nth n l' 1)) as N.
        { clear. induction 1; intros [|n] H1; cbn in *; auto; try lia. apply IHForall2. lia. }
        specialize (N _ _ C k). rewrite map_length, seq_length in N. specialize (N Hk). rewrite !nth_map_seq in N by auto.
        destruct N as [_ N]. exact N.
      - left. apply ext_over. lia. }
    assert (out = v_shape a) as ->.
    { destruct J as [J1 J2]. apply shape_eq; [lia|]. intro k. rewrite J2. pose proof (ext_pos _ Pa k). destruct (G k) as [->| ->]; lia. }
    cbn [v_shape v_data plain].
    destruct (isScalar a && isScalar b) eqn:Sc.
    + unfold binary in E. rewrite Sc in E.
      destruct (computeStrides [v_shape a; v_shape b]) as [[o st]| |]; cbn [bind] in E; try discriminate.
      injection E as Eo Ed. rewrite <- Ed. reflexivity.
    + unfold nelements. rewrite Lb.
      pose proof (run_indices (v_shape a) [v_shape b] Pa ltac:(repeat constructor; auto)) as R. cbn [map] in R. rewrite R. cbn [bind].
      f_equal. f_equal. rewrite (data_by_indices (v_shape a) (v_data a) (conj Pa La)) at 1.
      rewrite combine_map_map. reflexivity.
  - exfalso. destruct C as (k & _ & N1 & N2 & D). destruct (B k) as [|[|]]; contradiction.
Qed.
Lemma inplace_err : forall op a b, wf a -> wf b -> ~ broadcastable (v_shape a) (v_shape b) -> inplace dv narrower op a b = Err.
Proof.
  intros op a b Wa Wb N. pose proof (binary_err op a b Wa Wb N) as E.
  destruct Wa as [[Pa La] Ra], Wb as [[Pb Lb] Rb].
  unfold inplace, canApplyInPlace.
  destruct (narrower a b || Nat.ltb (length (v_shape a)) (length (v_shape b))) eqn:Q; cbn [bind]; [exact E|].
  apply orb_false_iff in Q as [_ Q]. apply Nat.ltb_ge in Q.
  rewrite (proj2 (Nat.ltb_ge _ _) Ra).
  pose proof (cip_spec (rev (seq 0 (length (v_shape a)))) (v_shape a) (v_shape b) 1 true Pa Pb) as C.
  destruct (cip_loop _ _ _ _ _) as [[st|]| |]; cbn [bind]; [exfalso|exact E|reflexivity|contradiction].
  apply N. destruct C as [_ C]. intro k. destruct (Nat.lt_ge_cases k (length (v_shape a))) as [Hk|Hk].
  - rewrite !map_rev in C. apply Forall2_rev' in C. rewrite !rev_involutive in C.
    assert (forall l l' : list Z, Forall2 fits l l' -> forall n, (n < length l)%nat -> fits (nth n l 1) (nth n l' 1)) as M.
    { clear. induction 1; intros [|n] H1; cbn in *; auto; try lia. apply IHForall2. lia. }
    specialize (M _ _ C k). rewrite map_length, seq_length in M. specialize (M Hk). rewrite !nth_map_seq in M by auto.
    destruct M as [_ [M|M]]; auto.
  - right. right. apply ext_over. lia.
Qed.

End V.
Section F.
Context {V : Type}.
Notation vells := (vells V).
Variable dv : V.
(** ** with flags *)
Lemma replaceFlagged_eq : forall x fs fd value mask, wf x -> filled fs fd -> (length fs <= MaxAxis)%nat ->
  broadcastable (v_shape x) fs ->
  replaceFlagged x fs fd value mask =
  if list_eq_dec Z.eq_dec (v_shape x) (map (fun k => Z.max (ext (v_shape x) k) (ext fs k)) (seq 0 (Nat.max (length (v_shape x)) (length fs)))) then
    Ok {| v_shape := v_shape x;
          v_data := map (fun idx => if Z.land (getf fd (position fs idx)) mask =? 0 then get dv (v_data x) (position (v_shape x) idx) else value) (indices (v_shape x));
          v_flags := v_flags x |}
  else Err.
Proof.
  intros x fs fd value mask [[Px Lx] Rx] [Pf Lf] Rf B.
  destruct (computeStrides_ok [v_shape x; fs]) as (out & st & E & L & X & Po & S1).
  - repeat constructor; auto.
  - rewrite ranks2. lia.
  - now apply all2.
  - assert (out = map (fun k => Z.max (ext (v_shape x) k) (ext fs k)) (seq 0 (Nat.max (length (v_shape x)) (length fs)))) as Eo.
    { rewrite <- (map_ext_self out). rewrite L, ranks2. apply map_ext. intro k. rewrite X. now apply max_ext2. }
    rewrite <- Eo. unfold replaceFlagged. rewrite E. cbn [bind].
    destruct (list_eq_dec Z.eq_dec (v_shape x) out) as [Q|Q]; cbn [negb]; [|reflexivity].
    assert (Forall (fun s => Forall2 fits (rext s (length out)) (rev out) /\ (length s <= length out)%nat) [fs]) as F.
    { pose proof (strides_shapes [v_shape x; fs] out) as F. specialize (F (fun j s Hj => proj2 (S1 j s Hj)) L).
      inversion F; subst; auto. }
    destruct (S1 1%nat fs eq_refl) as [N _]. rewrite N, Lf.
    pose proof (run_indices out [fs] Po F) as R. cbn [map] in R. rewrite R. cbn [bind].
    f_equal. f_equal. rewrite <- Q.
    rewrite (data_by_indices dv (v_shape x) (v_data x) (conj Px Lx)) at 1. rewrite combine_map_map. reflexivity.
Qed.
End F.
