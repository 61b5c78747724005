(** Proofs about Condeq: arithmetic on Vells that stand for fields, and the loop over the spids. *)
From Coq Require Import QArith Qround Qcanon Sorted Lqa.
From Verif Require Import Base Vel_Model Vel_Spec Vel_Proofs Vel_Arith Vel_Sums Vel_Thms Fun_Model Fun_Spec Fun_Proofs Fun_Flags Ceq_Model Ceq_Spec.
Close Scope Q_scope. Local Open Scope Qc_scope. Local Open Scope nat_scope.

(** ** Arithmetic *)
Section Arith.
Variable full : list Z.
Lemma elementwise op a b x y : stands full a x -> stands full b y ->
  exists r, binary c0 op (c_arr a) (c_arr b) = Ok r /\ usable (v_shape r) (v_data r) /\ subshape (v_shape r) full /\
    forall idx, inside full idx -> at_index (v_shape r) (v_data r) idx = Some (op (x idx) (y idx)).
Proof.
  intros (Wa & Sa & Aa & _) (Wb & Sb & Ab & _). pose proof (subshape_broadcast _ _ _ Sa Sb) as B.
  destruct (elementwise_broadcasts _ c0 op (c_arr a) (c_arr b) Wa Wb B) as (r & E & J & U & At).
  exists r. split; [exact E|]. split; [exact U|].
  assert (Pa : proper (v_shape (c_arr a))) by apply Wa. assert (Pb : proper (v_shape (c_arr b))) by apply Wb. assert (Pr : proper (v_shape r)) by apply U.
  assert (Sr : subshape (v_shape r) full) by (eapply joint_subshape; [exact Pa|exact Pb|exact J|exact Sa|exact Sb]).
  split; [exact Sr|]. intros idx Hi. specialize (Aa idx Hi). specialize (Ab idx Hi).
  destruct (restrict _ _ _ Pr Sr Hi) as (idx' & H1 & H2). destruct (At idx' H1) as (u & v & Au & Av & Ar).
  unfold at_index in *. unfold position in *.
  assert (Lr : (length (v_shape (c_arr a)) <= length (v_shape r))%nat /\ (length (v_shape (c_arr b)) <= length (v_shape r))%nat) by (destruct J as [J _]; lia).
  rewrite (H2 (v_shape r)), Ar by auto.
  rewrite (H2 (v_shape (c_arr a))), Au in Aa by (try apply Lr; intros k Hk; now apply (joint_ones _ _ _ k Pa Pb J) in Hk).
  rewrite (H2 (v_shape (c_arr b))), Av in Ab by (try apply Lr; intros k Hk; now apply (joint_ones _ _ _ k Pa Pb J) in Hk).
  congruence.
Qed.
Lemma elementwise_inplace nw op a b x y : stands full a x -> stands full b y ->
  exists r, inplace c0 nw op (c_arr a) (c_arr b) = Ok r /\ usable (v_shape r) (v_data r) /\ subshape (v_shape r) full /\
    forall idx, inside full idx -> at_index (v_shape r) (v_data r) idx = Some (op (x idx) (y idx)).
Proof.
  intros Ha Hb. destruct (elementwise op a b x y Ha Hb) as (r & E & R). destruct Ha as (Wa & _), Hb as (Wb & _).
  pose proof (inplace_same_values _ c0 nw op (c_arr a) (c_arr b) Wa Wb) as I. rewrite E in I. destruct I as (r' & I & I1 & I2).
  exists r'. rewrite I1, I2. split; [exact I|exact R].
Qed.
Hypothesis Hfull : (1 <= length full)%nat.
Lemma stands_scalar x : stands full {| c_cx := false; c_arr := scalar x |} (fun _ => (x, 0%Qc)).
Proof.
  unfold stands, scalar, plain. cbn [c_arr v_shape v_data c_cx]. split; [|split; [|split]].
  - split; [split; [repeat constructor; lia|reflexivity]|cbn; lia].
  - split; [cbn; lia|]. intros [|[|k]]; left; reflexivity.
  - intros idx Hi. destruct idx as [|i idx]; [inversion Hi; subst; cbn in Hfull; lia|]. reflexivity.
  - reflexivity.
Qed.
Lemma stands_ext v x y : stands full v x -> (forall idx, inside full idx -> x idx = y idx) -> stands full v y.
Proof. intros (A & B & C & D) H. split; [exact A|]. split; [exact B|]. split; [intros idx Hi; rewrite <- H by exact Hi; auto|intros Hc idx Hi; rewrite <- H by exact Hi; auto]. Qed.
Lemma minus_ok a b x y : stands full a x -> stands full b y ->
  exists r, minus a b = Ok r /\ c_cx r = c_cx a || c_cx b /\ stands full r (fun idx => minusC (x idx) (y idx)).
Proof.
  intros Ha Hb. destruct (elementwise csub a b x y Ha Hb) as (r & E & U & S1 & A). unfold minus. rewrite E. cbn [lift bind].
  eexists. split; [reflexivity|]. split; [reflexivity|]. split; [exact U|]. split; [exact S1|]. split; [exact A|].
  cbn [c_cx]. intros Hc idx Hi. apply orb_false_iff in Hc as [Ca Cb]. cbn. destruct Ha as (_ & _ & _ & Ia), Hb as (_ & _ & _ & Ib).
  rewrite (Ia Ca idx Hi), (Ib Cb idx Hi). ring.
Qed.
Lemma minus_eq_ok a b x y : stands full a x -> stands full b y ->
  exists r, minus_eq a b = Ok r /\ c_cx r = c_cx a || c_cx b /\ stands full r (fun idx => minusC (x idx) (y idx)).
Proof.
  intros Ha Hb. destruct (elementwise_inplace (fun _ _ => negb (c_cx a) && c_cx b) csub a b x y Ha Hb) as (r & E & U & S1 & A). unfold minus_eq. rewrite E. cbn [lift bind].
  eexists. split; [reflexivity|]. split; [reflexivity|]. split; [exact U|]. split; [exact S1|]. split; [exact A|].
  cbn [c_cx]. intros Hc idx Hi. apply orb_false_iff in Hc as [Ca Cb]. cbn. destruct Ha as (_ & _ & _ & Ia), Hb as (_ & _ & _ & Ib).
  rewrite (Ia Ca idx Hi), (Ib Cb idx Hi). ring.
Qed.
Lemma cdiv_real z p : p <> 0%Qc -> cdiv z (p, 0%Qc) = timesR (/ p)%Qc z.
Proof.
  intro N. unfold cdiv, timesR. cbn [fst snd].
  assert (N2 : (p * p + 0 * 0)%Qc <> 0%Qc).
  { replace (p * p + 0 * 0)%Qc with (p * p)%Qc by ring. intro X. apply Qcmult_integral in X as [X|X]; contradiction. }
  f_equal; field; repeat split; auto; replace (p ^ 2 + 0)%Qc with (p * p + 0 * 0)%Qc by ring; auto.
Qed.
Lemma over_eq_ok a p x : p <> 0%Qc -> stands full a x ->
  exists r, over_eq a p = Ok r /\ c_cx r = c_cx a /\ stands full r (fun idx => timesR (/ p)%Qc (x idx)).
Proof.
  intros N Ha. destruct (elementwise_inplace (fun _ _ => false) cdiv a _ x _ Ha (stands_scalar p)) as (r & E & U & S1 & A). unfold over_eq. cbn [c_arr] in E. rewrite E. cbn [lift bind].
  eexists. split; [reflexivity|]. split; [reflexivity|]. split; [exact U|]. split; [exact S1|]. split.
  - intros idx Hi. cbn [c_arr]. rewrite (A idx Hi). now rewrite cdiv_real.
  - cbn [c_cx]. intros Hc idx Hi. destruct Ha as (_ & _ & _ & Ia). cbn. rewrite (Ia Hc idx Hi). ring.
Qed.
Lemma tocomplex_ok a x : c_cx a = false -> stands full a x -> exists r, tocomplex a = Ok r /\ c_cx r = true /\ stands full r x.
Proof.
  intros Hc Ha. unfold tocomplex. rewrite Hc.
  destruct (elementwise (fun u v => (fst u, fst v)) a _ x _ Ha (stands_scalar 0%Qc)) as (r & E & U & S1 & A). cbn [c_arr] in E. rewrite E. cbn [lift bind].
  eexists. split; [reflexivity|]. split; [reflexivity|]. split; [exact U|]. split; [exact S1|]. split; [|discriminate].
  intros idx Hi. cbn [c_arr]. rewrite (A idx Hi). cbn. destruct Ha as (_ & _ & _ & Ia). specialize (Ia Hc idx Hi). destruct (x idx) as [u v]. cbn in *. now rewrite Ia.
Qed.
Definition wrap (m : option Qc) (z : cplx) : cplx := match m with Some m => (remainder (fst z) m, 0%Qc) | None => z end.
Lemma wrapped_ok m a x : (m = None \/ c_cx a = false) -> stands full a x ->
  exists r, wrapped m a = Ok r /\ c_cx r = c_cx a /\ stands full r (fun idx => wrap m (x idx)).
Proof.
  intros Hm Ha. destruct m as [m|]; [|exists a; split; [reflexivity|split; [reflexivity|exact Ha]]].
  destruct Hm as [Hm|Hc]; [discriminate|]. unfold wrapped, vremainder. rewrite Hc.
  destruct (elementwise (fun u v => (remainder (fst u) (fst v), 0%Qc)) a _ x _ Ha (stands_scalar m)) as (r & E & U & S1 & A). cbn [c_arr] in E. rewrite E. cbn [lift bind].
  eexists. split; [reflexivity|]. split; [reflexivity|]. split; [exact U|]. split; [exact S1|]. split; [exact A|reflexivity].
Qed.
End Arith.

(** ** remainder *)
Local Open Scope Q_scope.
Definition near (q : Q) (k : Z) : Prop :=
  q - inject_Z k <= 1 # 2 /\ - (1 # 2) <= q - inject_Z k /\ (q - inject_Z k == 1 # 2 \/ q - inject_Z k == - (1 # 2) -> Z.even k = true).
Lemma succ_q k : inject_Z (k + 1) == inject_Z k + 1.
Proof. rewrite inject_Z_plus. reflexivity. Qed.
Lemma even_succ k : Z.even k = false -> Z.even (k + 1) = true.
Proof. intro H. rewrite Z.even_add, H. reflexivity. Qed.
Lemma nearest_near (q : Qc) : near q (nearest q).
Proof.
  unfold near, nearest. pose proof (Qfloor_le q) as L. pose proof (Qlt_floor q) as U. set (f := Qfloor q) in *. rewrite succ_q in U.
  destruct (q - Q2Qc (inject_Z f) ?= Q2Qc (1 # 2))%Qc eqn:C; unfold Qccompare in C; cbn [this Q2Qc Qcminus Qcplus Qcopp] in C;
    rewrite !Qred_correct in C.
  - apply Qeq_alt in C. destruct (Z.even f) eqn:Ev.
    + split; [lra|]. split; [lra|]. auto.
    + rewrite succ_q. split; [lra|]. split; [lra|]. intros _. now apply even_succ.
  - apply Qlt_alt in C. split; [lra|]. split; [lra|]. intros [X|X]; lra.
  - apply Qgt_alt in C. rewrite succ_q. split; [lra|]. split; [lra|]. intros [X|X]; lra.
Qed.
Lemma inject_lt a b : inject_Z a < inject_Z b -> (a < b)%Z.
Proof. rewrite <- Zlt_Qlt. auto. Qed.
Lemma near_unique q k k' : near q k -> near q k' -> k = k'.
Proof.
  assert (G : forall k k', near q k -> near q k' -> (k < k')%Z -> False).
  { clear. intros k k' (A & B & C) (A' & B' & C') L.
    assert (D : inject_Z (k + 1) <= inject_Z k') by (rewrite <- Zle_Qle; lia). rewrite succ_q in D.
    assert (E : inject_Z k' == inject_Z k + 1) by lra.
    assert (k' = k + 1)%Z by (rewrite <- succ_q in E; unfold inject_Z, Qeq in E; cbn in E; lia). subst k'.
    assert (Z.even k = true) by (apply C; left; lra). assert (Z.even (k + 1) = true) by (apply C'; right; lra).
    rewrite Z.even_add, H in H0. discriminate. }
  intros H H'. destruct (Z.lt_trichotomy k k') as [L|[L|L]]; auto; exfalso; eauto.
Qed.
Lemma near_opp q k : near q k -> near (- q) (- k).
Proof.
  intros (A & B & C). unfold near. rewrite inject_Z_opp. split; [lra|]. split; [lra|]. intros [X|X]; rewrite Z.even_opp; apply C; [right|left]; lra.
Qed.
Lemma near_ext q q' k : q == q' -> near q k -> near q' k.
Proof. intros E (A & B & C). unfold near. rewrite <- E. auto. Qed.
Local Open Scope Qc_scope.
Notation zq k := (Q2Qc (inject_Z k)).
Lemma nearest_opp q : nearest (- q) = (- nearest q)%Z.
Proof.
  apply (near_unique (- q)%Q); [|apply near_opp, nearest_near]. eapply near_ext; [|apply nearest_near].
  cbn [this Q2Qc Qcopp]. apply Qred_correct.
Qed.
Lemma zq_opp k : zq (- k) = - zq k.
Proof. apply Qc_is_canon. cbn [this Q2Qc Qcopp]. rewrite !Qred_correct, inject_Z_opp. reflexivity. Qed.
Lemma remainder_opp x m : remainder (- x) m = - remainder x m.
Proof.
  unfold remainder. replace (- x / m) with (- (x / m)) by (unfold Qcdiv; ring). rewrite nearest_opp, zq_opp. ring.
Qed.
Lemma remainder_0 m : remainder 0 m = 0.
Proof. assert (H : remainder (- 0) m = - remainder 0 m) by apply remainder_opp. replace (- (0)) with 0 in H by ring.
  assert (D : remainder 0 m + remainder 0 m = 0) by (replace (remainder 0 m + remainder 0 m) with (remainder 0 m - - remainder 0 m) by ring; rewrite <- H; ring).
  assert (D2 : (1 + 1) * remainder 0 m = 0) by (transitivity (remainder 0 m + remainder 0 m); [ring|exact D]). apply Qcmult_integral in D2 as [D2|D2]; [discriminate|exact D2].
Qed.
(** the difference is a multiple of [m] *)
Lemma remainder_cong x m : exists k : Z, remainder x m = x - zq k * m.
Proof. exists (nearest (x / m)). reflexivity. Qed.
Lemma this_minus x y : (this (x - y) == this x - this y)%Q.
Proof. cbn [this Q2Qc Qcminus Qcplus Qcopp]. now rewrite !Qred_correct. Qed.
Lemma this_times x y : (this (x * y) == this x * this y)%Q.
Proof. cbn [this Q2Qc Qcmult]. now rewrite !Qred_correct. Qed.
Lemma remainder_range x m : m <> 0 -> (1 + 1) * (1 + 1) * (remainder x m * remainder x m) <= m * m.
Proof.
  intros N. unfold remainder. pose proof (nearest_near (x / m)) as (A & B & _). set (q := x / m) in *. set (k := nearest q) in *.
  assert (Ex : x = q * m) by (unfold q; field; auto). rewrite Ex. clearbody q k. clear Ex x.
  set (d := q - zq k). assert (Ed : (this d == this q - inject_Z k)%Q) by (unfold d; rewrite this_minus; cbn [this Q2Qc]; now rewrite Qred_correct).
  replace (q * m - zq k * m) with (d * m) by (unfold d; ring). rewrite <- Ed in A, B.
  unfold Qcle. rewrite !this_times. cbn [this Q2Qc Qcplus]. clearbody d. clear Ed q k N.
  assert (S0 : (0 <= this m * this m)%Q) by nra.
  assert (S1 : (0 <= (1 # 2) - this d)%Q) by lra. assert (S2 : (0 <= (1 # 2) + this d)%Q) by lra.
  assert (S3 : (this d * this d <= 1 # 4)%Q) by nra.
  assert (S4 : (this d * this d * (this m * this m) <= (1 # 4) * (this m * this m))%Q) by (apply Qmult_le_compat_r; auto).
  change (Qred (Qred 1 + Qred 1)) with (2 # 1)%Q. nra.
Qed.
Lemma remainder_small x m : (1 + 1) * (1 + 1) * (x * x) < m * m -> remainder x m = x.
Proof.
  intros H. assert (N : m <> 0).
  { intros ->. revert H. replace (0 * 0) with 0 by ring. unfold Qclt. rewrite !this_times. cbn [this Q2Qc Qcplus]. intro H. assert (P2 : (0 <= this x * this x)%Q) by nra. change (Qred (Qred 1 + Qred 1)) with (2 # 1)%Q in H.
    change (Qred 0) with 0%Q in H. lra. }
  unfold remainder. assert (K : nearest (x / m) = 0%Z).
  { apply (near_unique (this (x / m))); [apply nearest_near|]. set (q := x / m). assert (Ex : x = q * m) by (unfold q; field; auto). rewrite Ex in H. clearbody q. clear Ex x.
    unfold Qclt in H. rewrite !this_times in H. cbn [this Q2Qc Qcplus] in H. change (Qred (Qred 1 + Qred 1)) with (2 # 1)%Q in H.
    assert (M : (0 < this m * this m)%Q).
    { assert (Nm : ~ (this m == 0)%Q) by (intro X; apply N; apply Qc_is_canon; exact X). nra. }
    assert (Q4 : (this q * this q < 1 # 4)%Q).
    { apply Qnot_le_lt. intro X. assert ((1 # 4) * (this m * this m) <= this q * this q * (this m * this m))%Q by (apply Qmult_le_compat_r; lra). nra. }
    assert (R1 : (this q < 1 # 2)%Q) by nra. assert (R2 : (- (1 # 2) < this q)%Q) by nra.
    unfold near. change (inject_Z 0) with 0%Q. split; [lra|]. split; [lra|]. intros [X|X]; lra. }
  rewrite K. change (zq 0) with 0. ring.
Qed.
