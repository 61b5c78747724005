(** Proofs for Vel_Model: reductions, and spreading sums over a larger shape. *)
From Verif Require Import Base Vel_Model Vel_Spec Vel_Proofs Vel_Arith.
Local Open Scope Z_scope.

(** ** spreading *)
Fixpoint clamp (es idx : list Z) : list Z :=
  match es, idx with
  | e :: es', x :: idx' => (if e =? 1 then 0 else x) :: clamp es' idx'
  | _, _ => []
  end.
Fixpoint extra (es full : list Z) : Z :=
  match es, full with
  | e :: es', n :: full' => (if e =? 1 then n else 1) * extra es' full'
  | _, _ => 1
  end.
Lemma extra_pos : forall es full, Forall2 fits es full -> Forall (fun n => 1 <= n) full -> 1 <= extra es full.
Proof. induction 1; intro F; cbn [extra]; [lia|]. inversion F; subst. specialize (IHForall2 H4). destruct (x =? 1); nia. Qed.
Section Monoid.
Context {B : Type}.
Variables (op : B -> B -> B) (e0 : B).
Hypothesis op_assoc : forall a b c, op a (op b c) = op (op a b) c.
Hypothesis op_comm : forall a b, op a b = op b a.
Hypothesis op_unit : forall a, op e0 a = a.
Fixpoint nfold (n : nat) (v : B) : B := match n with O => e0 | S k => op v (nfold k v) end.
Lemma op_unit_r : forall a, op a e0 = a. Proof. intro a. rewrite op_comm. apply op_unit. Qed.
Lemma total_app : forall (A : Type) (f : A -> B) l l', total op e0 f (l ++ l') = op (total op e0 f l) (total op e0 f l').
Proof. induction l as [|x l IH]; intro l'; cbn [app total]; [now rewrite op_unit|]. rewrite IH. apply op_assoc. Qed.
Lemma total_map : forall (A C : Type) (f : A -> B) (g : C -> A) l, total op e0 f (map g l) = total op e0 (fun x => f (g x)) l.
Proof. induction l; cbn; congruence. Qed.
Lemma total_ext : forall (A : Type) (f g : A -> B) l, (forall x, In x l -> f x = g x) -> total op e0 f l = total op e0 g l.
Proof. induction l as [|x l IH]; intro H; cbn; auto. rewrite (H x), IH; cbn; auto. intros; apply H; cbn; auto. Qed.
Lemma total_flat_map : forall (A C : Type) (f : A -> B) (g : C -> list A) l,
  total op e0 f (flat_map g l) = total op e0 (fun x => total op e0 f (g x)) l.
Proof. induction l as [|x l IH]; cbn [flat_map total]; auto. now rewrite total_app, IH. Qed.
Lemma total_const : forall (A : Type) (v : B) (l : list A), total op e0 (fun _ => v) l = nfold (length l) v.
Proof. induction l; cbn; congruence. Qed.
Lemma nfold_add : forall n m v, nfold (n + m) v = op (nfold n v) (nfold m v).
Proof. induction n as [|n IH]; intros; cbn [Nat.add nfold]; [now rewrite op_unit|]. rewrite IH. apply op_assoc. Qed.
Lemma nfold_mul : forall n m v, nfold (n * m) v = nfold n (nfold m v).
Proof. induction n as [|n IH]; intros; [reflexivity|]. cbn [nfold]. replace (S n * m)%nat with (m + n * m)%nat by lia. now rewrite nfold_add, IH. Qed.
Lemma nfold_op : forall n v w, nfold n (op v w) = op (nfold n v) (nfold n w).
Proof.
  induction n as [|n IH]; intros; cbn [nfold]; [now rewrite op_unit|]. rewrite IH.
  rewrite <- !op_assoc. f_equal. rewrite !op_assoc. f_equal. apply op_comm.
Qed.
Lemma nfold_e0 : forall n, nfold n e0 = e0.
Proof. induction n; cbn [nfold]; auto. now rewrite op_unit. Qed.
Lemma total_nfold : forall (A : Type) n (f : A -> B) l, total op e0 (fun x => nfold n (f x)) l = nfold n (total op e0 f l).
Proof. induction l as [|x l IH]; cbn [total]; [symmetry; apply nfold_e0|]. rewrite IH. symmetry. apply nfold_op. Qed.
Lemma total_filter : forall (A : Type) (f : A -> B) (p : A -> bool) l,
  total op e0 f (filter p l) = total op e0 (fun x => if p x then f x else e0) l.
Proof. induction l as [|x l IH]; cbn [filter total]; auto. destruct (p x); cbn [total]; rewrite IH; auto. Qed.
Lemma fold_left_total : forall (A : Type) (f : A -> B) l z, fold_left (fun y x => op y (f x)) l z = op z (total op e0 f l).
Proof.
  induction l as [|x l IH]; intro z; cbn [fold_left total]; [symmetry; apply op_unit_r|]. rewrite IH. symmetry. apply op_assoc.
Qed.
Lemma total_spread : forall es full, Forall2 fits es full -> Forall (fun n => 1 <= n) full -> forall g : list Z -> B,
  total op e0 (fun idx => g (clamp es idx)) (indices full) = nfold (Z.to_nat (extra es full)) (total op e0 g (indices es)).
Proof.
  induction 1 as [|e n es full [Pe F] H IH]; intros P g.
  - cbn [indices total clamp extra]. change (Z.to_nat 1) with 1%nat. cbn [nfold]. rewrite !op_unit_r. reflexivity.
  - inversion P as [|? ? Pn P']; subst. specialize (IH P'). pose proof (extra_pos _ _ H P') as Px.
    cbn [indices extra]. rewrite total_flat_map.
    rewrite (total_ext _ _ (fun x => nfold (Z.to_nat (extra es full)) (total op e0 (fun idx => g ((if e =? 1 then 0 else Z.of_nat x) :: idx)) (indices es)))).
    2:{ intros x _. rewrite total_map. cbn [clamp]. apply (IH (fun idx => g (_ :: idx))). }
    rewrite total_nfold.
    destruct (e =? 1) eqn:E; [apply Z.eqb_eq in E; subst e|apply Z.eqb_neq in E].
    + change (Z.to_nat 1) with 1%nat. cbn [seq flat_map]. rewrite app_nil_r, total_map. cbn [Z.of_nat].
      rewrite total_const, seq_length. rewrite <- nfold_mul. f_equal. nia.
    + destruct F as [F|F]; [contradiction|subst n]. rewrite Z.mul_1_l. f_equal.
      rewrite total_flat_map. apply total_ext. intros x _. now rewrite total_map.
Qed.
End Monoid.

(** positions do not see clamped coordinates *)
Lemma position_clamp : forall idx s es acc, length es = length idx -> (forall k, ext es k = 1 -> ext s k = 1) ->
  position_from acc s (clamp es idx) = position_from acc s idx.
Proof.
  induction idx as [|x idx IH]; intros s es acc L H; destruct es as [|e es]; cbn [length] in L; try discriminate; [reflexivity|].
  injection L as L. destruct s as [|n s]; [reflexivity|]. cbn [clamp position_from].
  rewrite IH; auto.
  - f_equal. f_equal. destruct (n =? 1) eqn:En; auto. apply Z.eqb_neq in En.
    destruct (e =? 1) eqn:E; auto. apply Z.eqb_eq in E. specialize (H 0%nat). cbn in H. now apply H in E.
  - intros k Hk. apply (H (S k)). exact Hk.
Qed.
Lemma position_app : forall s i z acc, (length s <= length i)%nat -> position_from acc s (i ++ z) = position_from acc s i.
Proof.
  induction s as [|n s IH]; intros [|x i] z acc L; cbn [length] in L; try lia; cbn [app position_from]; auto.
  apply IH. lia.
Qed.
Definition pad (s : list Z) (n : nat) : list Z := map (ext s) (seq 0 n).
Lemma pad_app : forall n s, (length s <= n)%nat -> pad s n = s ++ repeat 1 (n - length s).
Proof.
  unfold pad. induction n as [|n IH]; intros s L.
  - destruct s; [reflexivity|cbn in L; lia].
  - rewrite map_ext_seq. destruct s as [|e s].
    + rewrite IH by (cbn; lia). cbn [length app]. rewrite !Nat.sub_0_r. reflexivity.
    + cbn [length] in *. rewrite IH by lia. reflexivity.
Qed.
Lemma indices_ones : forall s n, indices (s ++ repeat 1 n) = map (fun i => i ++ repeat 0 n) (indices s).
Proof.
  induction s as [|m s IH]; intro n.
  - cbn [app indices map]. induction n as [|n IH]; [reflexivity|]. cbn [repeat indices]. rewrite IH.
    change (Z.to_nat 1) with 1%nat. reflexivity.
  - cbn [app indices]. generalize (seq 0 (Z.to_nat m)). intro l. induction l as [|x l IHl]; [reflexivity|].
    cbn [flat_map]. rewrite map_app, IHl, IH, !map_map. reflexivity.
Qed.
Lemma total_pad : forall (B : Type) (op : B -> B -> B) e0 out n (g : list Z -> B), (length out <= n)%nat ->
  (forall i z, length i = length out -> g (i ++ z) = g i) ->
  total op e0 g (indices (pad out n)) = total op e0 g (indices out).
Proof.
  intros B op e0 out n g L H. rewrite pad_app, indices_ones by auto. rewrite total_map. apply total_ext.
  intros i Hi. apply H. symmetry. apply inside_len. now apply indices_inside.
Qed.
Lemma subshape_fits : forall s full, proper s -> subshape s full -> Forall2 fits (pad s (length full)) full.
Proof.
  intros s full P [L H]. rewrite <- (map_ext_self full) at 2. unfold pad.
  induction (seq 0 (length full)) as [|k l IH]; cbn [map]; constructor; auto.
  split; [now apply ext_pos|apply H].
Qed.
Lemma indices_total_Z : forall (A : Type) (l : list A), total Z.add 0 (fun _ => 1) l = Z.of_nat (length l).
Proof. induction l; cbn [total length]; lia. Qed.
Lemma nfold_Z : forall n v, nfold Z.add 0 n v = Z.of_nat n * v.
Proof. induction n as [|n IH]; intro v; cbn [nfold]; [lia|]. rewrite IH. lia. Qed.
Lemma size_extra : forall es full, Forall2 fits es full -> size full = extra es full * size es.
Proof.
  unfold size. induction 1 as [|e n es full [P F] _ IH]; cbn [extra fold_right]; [lia|]. rewrite IH.
  destruct (e =? 1) eqn:E; [apply Z.eqb_eq in E; subst; lia|apply Z.eqb_neq in E]. destruct F as [F|F]; [contradiction|subst; lia].
Qed.
Lemma size_pad : forall s n, (length s <= n)%nat -> size (pad s n) = size s.
Proof. intros. apply product_pad. auto. Qed.

(** totals over [full] of something that only depends on arrays varying no more than [out] *)
Lemma total_over_full : forall (B : Type) (op : B -> B -> B) e0,
  (forall a b c, op a (op b c) = op (op a b) c) -> (forall a b, op a b = op b a) -> (forall a, op e0 a = a) ->
  forall out full (g : list Z -> B), proper out -> proper full -> subshape out full ->
  (forall idx, length idx = length full -> g (clamp (pad out (length full)) idx) = g idx) ->
  (forall i z, length i = length out -> g (i ++ z) = g i) ->
  total op e0 g (indices full) = nfold op e0 (Z.to_nat (extra (pad out (length full)) full)) (total op e0 g (indices out)).
Proof.
  intros B op e0 Ha Hc Hu out full g Po Pf Sub Hg Hz.
  rewrite <- (total_pad _ op e0 out (length full) g (proj1 Sub) Hz).
  rewrite <- (total_spread op e0 Ha Hc Hu (pad out (length full)) full (subshape_fits _ _ Po Sub) Pf g).
  apply total_ext. intros idx Hi. symmetry. apply Hg. symmetry. apply inside_len. now apply indices_inside.
Qed.

Section V.
Context {V : Type}.
Variable dv : V.
Lemma getf_flag : forall fs fd out idx, filled fs fd -> Forall2 fits (rext fs (length out)) (rev out) -> (length fs <= length out)%nat -> inside out idx ->
  getf fd (position fs idx) = flag_at fs fd idx.
Proof.
  intros fs fd out idx [P L] F Le H. pose proof (position_small _ _ _ F Le H) as B. unfold flag_at, at_index, getf.
  rewrite (nth_error_nth' fd 0) by lia. reflexivity.
Qed.
Lemma fold_left_map : forall (A B C : Type) (f : A -> B -> A) (g : C -> B) l a, fold_left f (map g l) a = fold_left (fun y x => f y (g x)) l a.
Proof. induction l; intro; cbn; auto. Qed.
Lemma filter_map : forall (A B : Type) (p : B -> bool) (g : A -> B) l, filter p (map g l) = map g (filter (fun x => p (g x)) l).
Proof. induction l as [|x l IH]; cbn; auto. rewrite IH. destruct (p (g x)); reflexivity. Qed.
Lemma filter_ext_in' : forall (A : Type) (p q : A -> bool) l, (forall x, In x l -> p x = q x) -> filter p l = filter q l.
Proof. induction l as [|x l IH]; intro H; cbn; auto. rewrite (H x), IH; cbn; auto. intros; apply H; cbn; auto. Qed.

Lemma reduce_flags : forall (step : V -> V -> V) init x mask fs fd, wf x -> v_flags x = Some (fs, fd) -> filled fs fd -> (length fs <= MaxAxis)%nat ->
  mask <> 0 -> broadcastable (v_shape x) fs ->
  exists out, joint (v_shape x) fs out /\ proper out /\
    reduce dv step init x mask =
    Ok (fold_left (fun y idx => step y (get dv (v_data x) (position (v_shape x) idx))) (filter (clear fs fd mask) (indices out)) init,
        Z.of_nat (length (filter (clear fs fd mask) (indices out)))).
Proof.
  intros step init x mask fs fd [[Px Lx] Rx] Ef [Pf Lf] Rf Nm B.
  destruct (computeStrides_ok [v_shape x; fs]) as (out & st & E & L & X & Po & S1).
  - repeat constructor; auto.
  - rewrite ranks2. lia.
  - now apply all2.
  - exists out. split; [split; [rewrite L; apply ranks2|intro k; rewrite X; now apply max_ext2]|]. split; [exact Po|].
    unfold reduce. rewrite (proj2 (Z.eqb_neq mask 0) Nm), Ef, E. cbn [bind].
    assert (Forall (fun s => Forall2 fits (rext s (length out)) (rev out) /\ (length s <= length out)%nat) [v_shape x; fs]) as F.
    { apply strides_shapes; auto. intros j s Hj. now destruct (S1 j s Hj). }
    destruct (S1 0%nat (v_shape x) eq_refl) as [Na _]. destruct (S1 1%nat fs eq_refl) as [Nb _].
    rewrite Na, Nb. unfold nelements. rewrite Lx, Lf.
    pose proof (run_indices out [v_shape x; fs] Po F) as R. cbn [map] in R. rewrite R. cbn [bind].
    rewrite filter_map. cbn [nth].
    rewrite (filter_ext_in' _ _ (clear fs fd mask)).
    2:{ intros idx Hi. unfold clear. inversion F as [|? ? _ F']; subst. inversion F' as [|? ? [Fb Lb'] _]; subst.
        rewrite (getf_flag fs fd out idx); auto. split; auto. now apply indices_inside. }
    rewrite fold_left_map, map_length. reflexivity.
Qed.
End V.
Lemma joint_subshape : forall a b out full, proper a -> proper b -> joint a b out -> subshape a full -> subshape b full -> subshape out full.
Proof.
  intros a b out full Pa Pb [L X] [La Ha] [Lb Hb]. split; [lia|]. intro k. rewrite X.
  pose proof (ext_pos _ Pa k). pose proof (ext_pos _ Pb k). specialize (Ha k). specialize (Hb k). lia.
Qed.
Lemma subshape_broadcast : forall a b full, subshape a full -> subshape b full -> broadcastable a b.
Proof. intros a b full [_ Ha] [_ Hb] k. destruct (Ha k) as [|Ea], (Hb k) as [|Eb]; auto. left. congruence. Qed.
Lemma joint_ones : forall a b out k, proper a -> proper b -> joint a b out -> (ext out k = 1 <-> ext a k = 1 /\ ext b k = 1).
Proof. intros a b out k Pa Pb [_ X]. rewrite X. pose proof (ext_pos _ Pa k). pose proof (ext_pos _ Pb k). lia. Qed.
Lemma ext_pad : forall s n k, (length s <= n)%nat -> ext (pad s n) k = ext s k.
Proof.
  intros s n k L. unfold pad. destruct (Nat.lt_ge_cases k n) as [H|H].
  - unfold ext at 1. now apply nth_map_seq.
  - rewrite !ext_over; auto; [lia|]. now rewrite map_length, seq_length.
Qed.
Lemma clamp_position : forall s out (full idx : list Z), (length out <= length full)%nat -> length idx = length full ->
  (forall k, ext out k = 1 -> ext s k = 1) -> position s (clamp (pad out (length full)) idx) = position s idx.
Proof.
  intros s out full idx L Li H. unfold position. apply position_clamp.
  - unfold pad. now rewrite map_length, seq_length.
  - intros k Hk. apply H. now rewrite ext_pad in Hk.
Qed.
Lemma fold_extra : forall (o f : nat -> Z) ks nel, (forall k, 1 <= f k) ->
  fold_left (fun n k => if (1 <? f k) && (o k =? 1) then n * f k else n) ks nel = nel * extra (map o ks) (map f ks).
Proof.
  intros o f ks. induction ks as [|k ks IH]; intros nel P; cbn [fold_left map extra]; [lia|]. rewrite IH by auto. specialize (P k).
  destruct (o k =? 1); [rewrite andb_true_r|rewrite andb_false_r; lia].
  destruct (1 <? f k) eqn:E; [lia|]. apply Z.ltb_ge in E. replace (f k) with 1 by lia. lia.
Qed.
Lemma extra_ext : forall out full, extra (pad out (length full)) full = extra (map (ext out) (seq 0 (length full))) (map (ext full) (seq 0 (length full))).
Proof. intros. now rewrite map_ext_self. Qed.
Lemma count_total : forall (A : Type) (p : A -> bool) l, Z.of_nat (length (filter p l)) = total Z.add 0 (fun x => if p x then 1 else 0) l.
Proof. induction l as [|x l IH]; cbn [filter total]; auto. destruct (p x); cbn [length]; lia. Qed.
Lemma total_over_full_Z : forall out full (g : list Z -> Z), proper out -> proper full -> subshape out full ->
  (forall idx, length idx = length full -> g (clamp (pad out (length full)) idx) = g idx) ->
  (forall i z, length i = length out -> g (i ++ z) = g i) ->
  total Z.add 0 g (indices full) = extra (pad out (length full)) full * total Z.add 0 g (indices out).
Proof.
  intros out full g Po Pf Sub H1 H2.
  rewrite (total_over_full _ Z.add 0 ltac:(intros; lia) ltac:(intros; lia) ltac:(intros; lia) out full g Po Pf Sub H1 H2).
  rewrite nfold_Z. rewrite Z2Nat.id; [reflexivity|].
  pose proof (extra_pos _ _ (subshape_fits _ _ Po Sub) Pf). lia.
Qed.
Lemma clear_clamp : forall fs fd mask out (full idx : list Z), (length out <= length full)%nat -> length idx = length full ->
  (forall k, ext out k = 1 -> ext fs k = 1) -> clear fs fd mask (clamp (pad out (length full)) idx) = clear fs fd mask idx.
Proof. intros. unfold clear, flag_at, at_index. rewrite clamp_position; auto. Qed.
Lemma clear_app : forall fs fd mask i z, (length fs <= length i)%nat -> clear fs fd mask (i ++ z) = clear fs fd mask i.
Proof. intros. unfold clear, flag_at, at_index, position. rewrite position_app; auto. Qed.

Section V2.
Context {V : Type}.
Variable dv : V.
Lemma nelementsWS_eq : forall (x : vells V) mask fs fd full, wf x -> v_flags x = Some (fs, fd) -> filled fs fd -> (length fs <= MaxAxis)%nat ->
  mask <> 0 -> proper full -> subshape (v_shape x) full -> subshape fs full ->
  nelementsWS dv x full mask = Ok (Z.of_nat (length (filter (clear fs fd mask) (indices full)))).
Proof.
  intros x mask fs fd full Wx Ef Ff Rf Nm Pf Sx Sf.
  destruct (reduce_flags dv (fun y _ => y) dv x mask fs fd Wx Ef Ff Rf Nm (subshape_broadcast _ _ _ Sx Sf)) as (out & J & Po & R).
  assert (proper (v_shape x)) as Px by (destruct Wx as [[P _] _]; exact P).
  assert (proper fs) as Pfs by (destruct Ff; auto).
  pose proof (joint_subshape _ _ _ _ Px Pfs J Sx Sf) as So.
  unfold nelementsWS. rewrite (proj2 (Z.eqb_neq mask 0) Nm), Ef, R. cbn [bind]. f_equal.
  rewrite (count_total _ _ (indices full)).
  rewrite (total_over_full_Z out full); auto.
  - rewrite count_total, extra_ext.
    set (nel := total Z.add 0 _ _).
    transitivity (fold_left (fun n k => if (1 <? ext full k) && (ext out k =? 1) then n * ext full k else n) (seq 0 (length full)) nel).
    + clear R. generalize (seq 0 (length full)) nel. intros ks. induction ks as [|k ks IH]; intro z; cbn [fold_left]; auto. rewrite IH. f_equal.
      change (extent full k) with (ext full k). change (extent (v_shape x) k) with (ext (v_shape x) k). change (extent fs k) with (ext fs k).
      rewrite <- andb_assoc.
      assert ((ext (v_shape x) k =? 1) && (ext fs k =? 1) = (ext out k =? 1)) as ->; [|reflexivity].
      pose proof (joint_ones _ _ _ k Px Pfs J) as Q.
      destruct (ext out k =? 1) eqn:E1; [apply Z.eqb_eq in E1|apply Z.eqb_neq in E1].
      * apply Q in E1 as [-> ->]. reflexivity.
      * apply andb_false_iff. rewrite !Z.eqb_neq. lia.
    + rewrite fold_extra by (intro; now apply ext_pos). lia.
  - intros idx Hi. rewrite (clear_clamp fs fd mask out full idx); auto; [apply So|].
    intros k Hk. now apply (joint_ones _ _ _ k Px Pfs J) in Hk.
  - intros i z Hi. rewrite clear_app; auto. destruct J as [J _]. lia.
Qed.
Definition value_at (x : vells V) (idx : list Z) : V := match at_index (v_shape x) (v_data x) idx with Some v => v | None => dv end.
Lemma get_value : forall (x : vells V) idx out, wf x -> subshape (v_shape x) out -> inside out idx ->
  get dv (v_data x) (position (v_shape x) idx) = value_at x idx.
Proof.
  intros x idx out [[P L] R] S1 H. unfold value_at, at_index, get.
  assert (0 <= position (v_shape x) idx < size (v_shape x)) as B.
  { apply position_small with (out := out); auto; [|apply S1].
    pose proof (subshape_fits _ _ P S1) as F. apply Forall2_rev' in F. unfold pad in F. rewrite <- map_rev in F. exact F. }
  rewrite (nth_error_nth' (v_data x) dv) by lia. reflexivity.
Qed.
Lemma joint_sub_l : forall a b out, proper a -> proper b -> broadcastable a b -> joint a b out -> subshape a out.
Proof.
  intros a b out Pa Pb B [L X]. split; [lia|]. intro k. rewrite X. specialize (B k).
  pose proof (ext_pos _ Pa k). pose proof (ext_pos _ Pb k). lia.
Qed.
End V2.
