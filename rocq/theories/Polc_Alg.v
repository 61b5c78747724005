(** Algebra behind the polynomial theorems: sums, Horner's rule, binomial theorem. *)
From Coq Require Import QArith Qcanon.
From Verif Require Import Base Polc_Model Polc_Spec.
Close Scope Q_scope. Local Open Scope Qc_scope. Local Open Scope nat_scope.

Lemma Sum_ext n F G : (forall k, k < n -> F k = G k) -> Sum n F = Sum n G.
Proof. induction n as [|n IH]; intros H; [reflexivity|]. cbn [Sum]. rewrite IH, H by auto. reflexivity. Qed.
Lemma Sum_shift n F : Sum (S n) F = Qcplus (F 0) (Sum n (fun k => F (S k))).
Proof. induction n as [|n IH]; [cbn [Sum]; ring|]. cbn [Sum] in *. rewrite IH. ring. Qed.
Lemma Sum_plus n F G : Sum n (fun k => Qcplus (F k) (G k)) = Qcplus (Sum n F) (Sum n G).
Proof. induction n as [|n IH]; cbn [Sum]; [ring|rewrite IH; ring]. Qed.
Lemma Sum_mul n a F : Sum n (fun k => Qcmult a (F k)) = Qcmult a (Sum n F).
Proof. induction n as [|n IH]; cbn [Sum]; [ring|rewrite IH; ring]. Qed.
Lemma Sum_mulr n a F : Sum n (fun k => Qcmult (F k) a) = Qcmult (Sum n F) a.
Proof. induction n as [|n IH]; cbn [Sum]; [ring|rewrite IH; ring]. Qed.
Lemma Sum_zero n F : (forall k, k < n -> F k = q0) -> Sum n F = q0.
Proof. intros H. rewrite (Sum_ext n F (fun _ => q0) H). induction n; cbn [Sum]; [reflexivity|rewrite IHn; [ring|auto]]. Qed.
Lemma Sum_one n k F : k < n -> (forall j, j < n -> j <> k -> F j = q0) -> Sum n F = F k.
Proof.
  induction n as [|n IH]; intros L H; [lia|]. cbn [Sum]. destruct (Nat.eq_dec k n) as [->|N].
  - rewrite Sum_zero; [ring|]. intros j J. apply H; lia.
  - rewrite IH; [rewrite (H n); [ring|lia|lia]|lia|]. intros j J1 J2. apply H; lia.
Qed.
Lemma Sum_swap n m F : Sum n (fun i => Sum m (fun j => F i j)) = Sum m (fun j => Sum n (fun i => F i j)).
Proof.
  induction n as [|n IH]; cbn [Sum].
  - symmetry. apply Sum_zero. reflexivity.
  - rewrite IH, <- Sum_plus. reflexivity.
Qed.
(** a sum over the first terms only *)
Lemma Sum_upto n m F : m <= n -> Sum n (fun k => if Nat.ltb k m then F k else q0) = Sum m F.
Proof.
  intros L. induction n as [|n IH].
  - assert (m = 0) as -> by lia. reflexivity.
  - cbn [Sum]. destruct (Nat.eq_dec m (S n)) as [->|N].
    + cbn [Sum]. replace (Nat.ltb n (S n)) with true by (symmetry; apply Nat.ltb_lt; lia).
      f_equal. apply Sum_ext. intros k K. replace (Nat.ltb k (S n)) with true by (symmetry; apply Nat.ltb_lt; lia). reflexivity.
    + rewrite IH by lia. replace (Nat.ltb n m) with false by (symmetry; apply Nat.ltb_ge; lia). ring.
Qed.

Lemma power_Qcpower x n : power x n = Qcpower x n.
Proof. induction n as [|n IH]; [reflexivity|]. cbn [power Qcpower]. rewrite IH. ring. Qed.
Lemma Qcpower_S x n : Qcpower x (S n) = Qcmult x (Qcpower x n).
Proof. reflexivity. Qed.
Lemma Qcpower_add x n m : Qcpower x (n + m) = Qcmult (Qcpower x n) (Qcpower x m).
Proof. induction n as [|n IH]; [cbn; ring|]. cbn [Nat.add]. rewrite !Qcpower_S, IH. ring. Qed.
Lemma Qcpower_mul x y n : Qcpower (Qcmult x y) n = Qcmult (Qcpower x n) (Qcpower y n).
Proof. induction n as [|n IH]; [cbn; ring|]. rewrite !Qcpower_S, IH. ring. Qed.

Lemma horner_cons c cs x : horner (c :: cs) x = Qcplus c (Qcmult x (horner cs x)).
Proof.
  unfold horner. cbn [rev]. destruct (rev cs) as [|l r] eqn:E; cbn [app].
  - cbn [fold_left]. ring.
  - rewrite fold_left_app. cbn [fold_left]. ring.
Qed.
Lemma horner_sum cs x : horner cs x = Sum (length cs) (fun k => Qcmult (nth k cs q0) (Qcpower x k)).
Proof.
  induction cs as [|c cs IH]; [reflexivity|]. rewrite horner_cons, IH. cbn [length]. rewrite Sum_shift.
  cbn [nth Qcpower]. rewrite <- Sum_mul. f_equal; [ring|]. apply Sum_ext. intros k _. cbn [Qcpower]. ring.
Qed.

Lemma rows_length n m cs : length (rows n m cs) = n.
Proof. revert cs. induction n as [|n IH]; intros cs; cbn [rows length]; [reflexivity|rewrite IH; reflexivity]. Qed.
Lemma total2_fold x y l : forall p t,
  fold_left (fun '(powx, total) row => (Qcmult powx x, Qcplus total (Qcmult (horner row y) powx))) l (p, t)
  = (Qcmult p (Qcpower x (length l)), Qcplus t (Sum (length l) (fun i => Qcmult (horner (nth i l []) y) (Qcmult p (Qcpower x i))))).
Proof.
  induction l as [|row l IH]; intros p t; cbn [fold_left length].
  - cbn [Sum Qcpower]. f_equal; ring.
  - rewrite IH, Sum_shift. cbn [nth Qcpower]. f_equal; [ring|]. rewrite (Sum_ext (length l) _ (fun k => Qcmult (horner (nth k l []) y) (Qcmult p (Qcmult x (Qcpower x k))))).
    2: intros k _; ring. ring.
Qed.
Lemma nth_rows m : forall n cs i, i < n -> nth i (rows n m cs) [] = firstn m (skipn (i * m) cs).
Proof.
  induction n as [|n IH]; intros cs i L; [lia|]. cbn [rows]. destruct i as [|i]; [reflexivity|].
  cbn [nth]. rewrite IH by lia. f_equal. cbn [Nat.mul]. clear.
  revert cs. induction m as [|m IHm]; intros cs; [reflexivity|]. destruct cs as [|c cs]; [rewrite !skipn_nil; reflexivity|].
  cbn [skipn Nat.add]. clear IHm.
  generalize (i * S m). intros k. revert cs. clear c. induction m as [|m IHm]; intros cs; [reflexivity|].
  destruct cs as [|c cs]; [rewrite !skipn_nil; reflexivity|]. cbn [skipn Nat.add]. apply IHm.
Qed.
Lemma nth_firstn {A} (d : A) : forall n l i, i < n -> nth i (firstn n l) d = nth i l d.
Proof.
  induction n as [|n IH]; intros l i L; [lia|]. destruct l as [|x l]; [reflexivity|]. destruct i as [|i]; [reflexivity|].
  cbn [firstn nth]. apply IH. lia.
Qed.
Lemma nth_skipn {A} (d : A) : forall k l i, nth i (skipn k l) d = nth (k + i) l d.
Proof. induction k as [|k IH]; intros [|x l] i; cbn [skipn Nat.add nth]; try reflexivity; [destruct i; reflexivity|apply IH]. Qed.

Lemma total2_poly nx ny cs x y : length cs = nx * ny -> total2 nx ny cs x y = poly nx ny cs x y.
Proof.
  intros L. unfold total2. rewrite total2_fold, rows_length. cbn [snd]. unfold poly.
  rewrite (Sum_ext nx _ (fun i => Sum ny (fun j => Qcmult (Qcmult (nth (i * ny + j) cs q0) (Qcpower x i)) (Qcpower y j)))); [ring|].
  intros i Hi. rewrite nth_rows by exact Hi. rewrite horner_sum.
  rewrite firstn_length, skipn_length. replace (Nat.min ny (length cs - i * ny)) with ny.
  2:{ rewrite L. symmetry. apply Nat.min_l. nia. }
  rewrite <- Sum_mulr. apply Sum_ext. intros j Hj. rewrite nth_firstn, nth_skipn by exact Hj. ring.
Qed.
Lemma horner_poly_x nx cs x y : length cs = nx -> horner cs x = poly nx 1 cs x y.
Proof.
  intros L. rewrite horner_sum, L. unfold poly. apply Sum_ext. intros k _. cbn [Sum Qcpower].
  replace (k * 1 + 0) with k by lia. ring.
Qed.
Lemma horner_poly_y ny cs x y : length cs = ny -> horner cs y = poly 1 ny cs x y.
Proof.
  intros L. rewrite horner_sum, L. unfold poly. cbn [Sum].
  rewrite (Sum_ext ny (fun j => Qcmult (Qcmult (nth (0 * ny + j) cs q0) (Qcpower x 0)) (Qcpower y j)) (fun k => Qcmult (nth k cs q0) (Qcpower y k))); [ring|].
  intros k _. cbn [Nat.mul Nat.add Qcpower]. ring.
Qed.

Lemma length_bumped d : forall cs k, length (bumped cs k d) = length cs.
Proof. induction cs as [|c cs IH]; intros [|k]; cbn [bumped length]; auto. Qed.
Lemma nth_bumped d : forall cs k i, k < length cs -> nth i (bumped cs k d) q0 = if Nat.eqb i k then Qcplus (nth i cs q0) d else nth i cs q0.
Proof.
  induction cs as [|c cs IH]; intros k i L; [cbn in L; lia|]. destruct k as [|k], i as [|i]; cbn [bumped nth Nat.eqb]; try reflexivity.
  apply IH. cbn in L. lia.
Qed.
Lemma poly_bumped nx ny cs x y k d : length cs = nx * ny -> k < nx * ny ->
  poly nx ny (bumped cs k d) x y = Qcplus (poly nx ny cs x y) (Qcmult (Qcmult d (Qcpower y (k mod ny))) (Qcpower x (k / ny))).
Proof.
  intros L K. assert (NY : 0 < ny) by nia.
  pose proof (Nat.div_mod k ny ltac:(lia)) as DM. pose proof (Nat.mod_upper_bound k ny ltac:(lia)) as MB.
  assert (DB : k / ny < nx) by (apply Nat.div_lt_upper_bound; lia).
  unfold poly.
  rewrite (Sum_ext nx _ (fun i => Qcplus (Sum ny (fun j => Qcmult (Qcmult (nth (i * ny + j) cs q0) (Qcpower x i)) (Qcpower y j)))
     (if Nat.eqb i (k / ny) then Qcmult (Qcmult d (Qcpower y (k mod ny))) (Qcpower x (k / ny)) else q0))).
  - rewrite Sum_plus. f_equal. rewrite (Sum_one nx (k / ny)); [rewrite Nat.eqb_refl; reflexivity|exact DB|].
    intros j _ N. apply Nat.eqb_neq in N. rewrite N. reflexivity.
  - intros i Hi. rewrite (Sum_ext ny _ (fun j => Qcplus (Qcmult (Qcmult (nth (i * ny + j) cs q0) (Qcpower x i)) (Qcpower y j))
       (if Nat.eqb (i * ny + j) k then Qcmult (Qcmult d (Qcpower x i)) (Qcpower y j) else q0))).
    + rewrite Sum_plus. f_equal. destruct (Nat.eqb i (k / ny)) eqn:E.
      * apply Nat.eqb_eq in E. subst i. rewrite (Sum_one ny (k mod ny)).
        -- replace (Nat.eqb (k / ny * ny + k mod ny) k) with true; [ring|]. symmetry. apply Nat.eqb_eq. lia.
        -- exact MB.
        -- intros j J N. replace (Nat.eqb (k / ny * ny + j) k) with false; [reflexivity|]. symmetry. apply Nat.eqb_neq. lia.
      * apply Nat.eqb_neq in E. apply Sum_zero. intros j J. replace (Nat.eqb (i * ny + j) k) with false; [reflexivity|].
        symmetry. apply Nat.eqb_neq. intros X. apply E. apply (Nat.div_unique k ny i j); [exact J|lia].
    + intros j J. rewrite nth_bumped by lia. destruct (Nat.eqb (i * ny + j) k); ring.
Qed.

(** ** The binomial theorem *)
Lemma binom_gt : forall n m, n < m -> binom n m = 0.
Proof. induction n as [|n IH]; intros [|m] L; cbn [binom]; try lia. rewrite !IH by lia. reflexivity. Qed.
Lemma binom_0 n : binom n 0 = 1.
Proof. destruct n; reflexivity. Qed.
Lemma qn_plus a b : qn (a + b) = Qcplus (qn a) (qn b).
Proof.
  apply Qc_is_canon. unfold qn. cbn [this Q2Qc Qcplus]. rewrite !Qred_correct, Nat2Z.inj_add, inject_Z_plus. reflexivity.
Qed.
Lemma qn_0 : qn 0 = q0. Proof. apply Qc_is_canon. reflexivity. Qed.
Lemma qn_1 : qn 1 = q1. Proof. apply Qc_is_canon. reflexivity. Qed.
Lemma binomial a b n : Qcpower (Qcplus a b) n = Sum (S n) (fun r => Qcmult (Qcmult (qn (binom n r)) (Qcpower a (n - r))) (Qcpower b r)).
Proof.
  induction n as [|n IH].
  - cbn [Qcpower Sum binom Nat.sub]. rewrite qn_1. ring.
  - rewrite Qcpower_S, IH.
    transitivity (Qcplus (Qcmult a (Sum (S n) (fun r => Qcmult (Qcmult (qn (binom n r)) (Qcpower a (n - r))) (Qcpower b r))))
                         (Qcmult b (Sum (S n) (fun r => Qcmult (Qcmult (qn (binom n r)) (Qcpower a (n - r))) (Qcpower b r))))); [ring|].
    rewrite <- !Sum_mul.
    rewrite (Sum_shift (S n) (fun r => Qcmult (Qcmult (qn (binom (S n) r)) (Qcpower a (S n - r))) (Qcpower b r))).
    rewrite (Sum_ext (S n) (fun k => Qcmult (Qcmult (qn (binom (S n) (S k))) (Qcpower a (S n - S k))) (Qcpower b (S k)))
       (fun k => Qcplus (Qcmult b (Qcmult (Qcmult (qn (binom n k)) (Qcpower a (n - k))) (Qcpower b k)))
                        (Qcmult (Qcmult (qn (binom n (S k))) (Qcpower a (n - k))) (Qcpower b (S k))))).
    2:{ intros k _. cbn [binom Nat.sub]. rewrite qn_plus, Qcpower_S. ring. }
    rewrite Sum_plus.
    assert (E : Sum (S n) (fun k => Qcmult a (Qcmult (Qcmult (qn (binom n k)) (Qcpower a (n - k))) (Qcpower b k)))
                = Qcplus (Qcmult (Qcmult (qn (binom (S n) 0)) (Qcpower a (S n - 0))) (Qcpower b 0))
                         (Sum (S n) (fun k => Qcmult (Qcmult (qn (binom n (S k))) (Qcpower a (n - k))) (Qcpower b (S k))))).
    { rewrite Sum_shift. cbn [Sum]. rewrite (binom_gt n (S n)) by lia. rewrite qn_0, !binom_0, !Nat.sub_0_r, Qcpower_S.
      rewrite (Sum_ext n (fun k => Qcmult a (Qcmult (Qcmult (qn (binom n (S k))) (Qcpower a (n - S k))) (Qcpower b (S k))))
                 (fun k => Qcmult (Qcmult (qn (binom n (S k))) (Qcpower a (n - k))) (Qcpower b (S k)))); [ring|].
      intros k K. replace (n - k) with (S (n - S k)) by lia. rewrite !Qcpower_S. ring. }
    rewrite E. ring.
Qed.

(** ** Changing the variable of a polynomial *)
Lemma qsum_app a b : qsum (a ++ b) = Qcplus (qsum a) (qsum b).
Proof. induction a as [|x a IH]; cbn [qsum app fold_right] in *; [unfold qsum; ring|]. unfold qsum in *. cbn [fold_right]. rewrite IH. ring. Qed.
Lemma qsum_seq n F : qsum (map F (seq 0 n)) = Sum n F.
Proof.
  induction n as [|n IH]; [reflexivity|]. rewrite seq_S, map_app, qsum_app, IH. cbn [Nat.add map qsum fold_right Sum]. ring.
Qed.
Lemma qsum_flat n (F : nat -> list Qc) : qsum (flat_map F (seq 0 n)) = Sum n (fun i => qsum (F i)).
Proof.
  induction n as [|n IH]; [reflexivity|]. rewrite seq_S, flat_map_app, qsum_app, IH. cbn [Nat.add flat_map Sum]. rewrite app_nil_r. reflexivity.
Qed.
Lemma nth_map_seq {A} (F : nat -> A) d n k : k < n -> nth k (map F (seq 0 n)) d = F k.
Proof. intros K. rewrite (nth_indep _ d (F 0)) by (rewrite map_length, seq_length; lia). rewrite map_nth, seq_nth by lia. reflexivity. Qed.

Lemma poly_shift nx ny cs dx sx dy sy x y :
  poly nx ny (map (fun k => new_coeff nx ny cs dx sx dy sy (k / ny) (k mod ny)) (seq 0 (nx * ny))) x y
  = poly nx ny cs (Qcmult sx (Qcplus dx x)) (Qcmult sy (Qcplus dy y)).
Proof.
  unfold poly.
  set (B := fun n d z N => Sum N (fun r => if Nat.ltb r (S n) then Qcmult (Qcmult (qn (binom n r)) (Qcpower d (n - r))) (Qcpower z r) else q0)).
  assert (HB : forall n d z N, n < N -> B n d z N = Qcpower (Qcplus d z) n).
  { intros n d z N L. unfold B. rewrite Sum_upto by lia. symmetry. apply binomial. }
  rewrite (Sum_ext nx _ (fun rx => Sum ny (fun ry => Sum nx (fun xi => Sum ny (fun yi =>
     Qcmult (Qcmult (nth (xi * ny + yi) cs q0) (Qcmult (Qcpower sx xi) (Qcpower sy yi)))
       (Qcmult (if Nat.ltb rx (S xi) then Qcmult (Qcmult (qn (binom xi rx)) (Qcpower dx (xi - rx))) (Qcpower x rx) else q0)
               (if Nat.ltb ry (S yi) then Qcmult (Qcmult (qn (binom yi ry)) (Qcpower dy (yi - ry))) (Qcpower y ry) else q0))))))).
  2:{ intros rx Hx. apply Sum_ext. intros ry Hy.
      rewrite nth_map_seq by nia.
      replace ((rx * ny + ry) / ny) with rx by (apply (Nat.div_unique _ ny rx ry); lia).
      replace ((rx * ny + ry) mod ny) with ry by (apply (Nat.mod_unique _ ny rx ry); lia).
      unfold new_coeff. rewrite qsum_flat. rewrite <- !Sum_mulr. apply Sum_ext. intros xi Hxi.
      rewrite qsum_seq, <- !Sum_mulr. apply Sum_ext. intros yi Hyi.
      replace (Nat.ltb rx (S xi)) with (Nat.leb rx xi) by reflexivity.
      replace (Nat.ltb ry (S yi)) with (Nat.leb ry yi) by reflexivity.
      rewrite !power_Qcpower. destruct (Nat.leb rx xi), (Nat.leb ry yi); cbn [andb]; ring. }
  rewrite (Sum_ext nx _ (fun rx => Sum nx (fun xi => Sum ny (fun ry => Sum ny (fun yi =>
     Qcmult (Qcmult (nth (xi * ny + yi) cs q0) (Qcmult (Qcpower sx xi) (Qcpower sy yi)))
       (Qcmult (if Nat.ltb rx (S xi) then Qcmult (Qcmult (qn (binom xi rx)) (Qcpower dx (xi - rx))) (Qcpower x rx) else q0)
               (if Nat.ltb ry (S yi) then Qcmult (Qcmult (qn (binom yi ry)) (Qcpower dy (yi - ry))) (Qcpower y ry) else q0)))))))
    by (intros rx _; apply Sum_swap).
  rewrite Sum_swap. apply Sum_ext. intros xi Hxi.
  rewrite (Sum_ext nx _ (fun rx => Sum ny (fun yi => Sum ny (fun ry =>
     Qcmult (Qcmult (nth (xi * ny + yi) cs q0) (Qcmult (Qcpower sx xi) (Qcpower sy yi)))
       (Qcmult (if Nat.ltb rx (S xi) then Qcmult (Qcmult (qn (binom xi rx)) (Qcpower dx (xi - rx))) (Qcpower x rx) else q0)
               (if Nat.ltb ry (S yi) then Qcmult (Qcmult (qn (binom yi ry)) (Qcpower dy (yi - ry))) (Qcpower y ry) else q0))))))
    by (intros rx _; apply Sum_swap).
  rewrite Sum_swap. apply Sum_ext. intros yi Hyi.
  rewrite (Sum_ext nx _ (fun rx => Qcmult (Qcmult (Qcmult (nth (xi * ny + yi) cs q0) (Qcmult (Qcpower sx xi) (Qcpower sy yi)))
        (if Nat.ltb rx (S xi) then Qcmult (Qcmult (qn (binom xi rx)) (Qcpower dx (xi - rx))) (Qcpower x rx) else q0)) (B yi dy y ny))).
  2:{ intros rx _. unfold B. rewrite <- Sum_mul. apply Sum_ext. intros ry _. ring. }
  rewrite Sum_mulr, Sum_mul. fold (B xi dx x nx). rewrite !HB by assumption. rewrite !Qcpower_mul. ring.
Qed.
