From Coq Require Import QArith Qcanon Sorted Lqa.
From Verif Require Import Base Poll_Model Vel_Model Vel_Spec Vel_Proofs Vel_Arith Vel_Sums Vel_Thms Fun_Model Fun_Spec Fun_Proofs Fun_Flags Fun_Pert.
From Verif Require Import Ceq_Model Ceq_Spec Ceq_Proofs Mmul_Model Mmul_Spec Mmul_Proofs Mmul_Step Inv_Model Inv_Spec.
Close Scope Q_scope. Close Scope Qc_scope. Local Open Scope nat_scope.
Set Default Proof Using "Type".

(** ** Complex numbers *)
Lemma squares (a b : Qc) : (a * a + b * b = 0)%Qc -> a = 0%Qc /\ b = 0%Qc.
Proof.
  intros H. assert (H' : (this a * this a + this b * this b == 0)%Q).
  { apply (f_equal this) in H. unfold Qcplus, Qcmult in H. cbn [this Q2Qc] in H. 
    assert (X : (Qred (Qred (a * a) + Qred (b * b)) == 0)%Q) by (rewrite H; reflexivity).
    rewrite Qred_correct, !Qred_correct in X. exact X. }
  split; apply Qc_is_canon; cbn [this Q2Qc].
  - change (this a == 0)%Q. destruct (Q_dec (this a) 0) as [[L|L]|E]; [exfalso; nra|exfalso; nra|exact E].
  - change (this b == 0)%Q. destruct (Q_dec (this b) 0) as [[L|L]|E]; [exfalso; nra|exfalso; nra|exact E].
Qed.
Definition invC (x : cplx) : cplx := cdiv (1%Qc, 0%Qc) x.
Lemma inv_times x : x <> zeroC -> timesC x (invC x) = oneC.
Proof.
  intros H. assert (N : (fst x * fst x + snd x * snd x)%Qc <> 0%Qc).
  { intros E. apply squares in E as [E1 E2]. apply H. destruct x. cbn in *. now subst. }
  apply cplx_ext; cbn.
  - field. exact N.
  - field. exact N.
Qed.
Definition negC (x : cplx) : cplx := ((- fst x)%Qc, (- snd x)%Qc).
Definition detC (x : nat -> nat -> cplx) : cplx := minusC (timesC (x 0 0) (x 1 1)) (timesC (x 0 1) (x 1 0)).
Lemma det_zero x : detC x = zeroC <-> singular x.
Proof.
  unfold detC, singular. split; intros H.
  - set (u := timesC (x 0 0) (x 1 1)) in *. set (v := timesC (x 0 1) (x 1 0)) in *.
    apply cplx_ext.
    + apply (f_equal fst) in H. cbn [minusC fst] in H. change (fst zeroC) with 0%Qc in H. rewrite <- (Qcplus_0_l (fst v)). rewrite <- H. ring.
    + apply (f_equal snd) in H. cbn [minusC snd] in H. change (snd zeroC) with 0%Qc in H. rewrite <- (Qcplus_0_l (snd v)). rewrite <- H. ring.
  - rewrite H. apply cplx_ext; cbn; ring.
Qed.
(** the inverse, element by element *)
Definition inverse (x : nat -> nat -> cplx) (i k : nat) : cplx :=
  let det := invC (detC x) in
  match i, k with
  | 0, 0 => timesC (x 1 1) det
  | 0, _ => timesC (x 0 1) (negC det)
  | _, 0 => timesC (x 1 0) (negC det)
  | _, _ => timesC (x 0 0) det
  end.
Lemma inverse_ok x : ~ singular x -> inverse_of x (inverse x).
Proof.
  intros H. assert (D : timesC (detC x) (invC (detC x)) = oneC) by (apply inv_times; now rewrite det_zero).
  set (t := invC (detC x)) in *. 
  assert (A : forall u, u = timesC u oneC) by (intros u; apply cplx_ext; cbn; ring).
  intros i k Hi Hk. unfold inverse, rowcol, unit_element. fold t.
  destruct i as [|[|i]]; [| |lia]; destruct k as [|[|k]]; try lia; cbn [Nat.eqb]; rewrite <- ?D; unfold detC; split; apply cplx_ext; cbn; ring.
Qed.

Section Arith.
Variable full : list Z.
Hypothesis Hfull : 1 <= length full.
Notation stands := (Ceq_Spec.stands full).
Lemma recip_ok a x : stands a x -> exists r, recip a = Ok r /\ stands r (fun idx => invC (x idx)).
Proof using Hfull.
  intros Ha. destruct (elementwise full cdiv _ a _ x (stands_scalar full Hfull 1%Qc) Ha) as (r & E & U & S1 & A).
  unfold recip. cbn [c_arr] in E. rewrite E. cbn [lift bind]. eexists. split; [reflexivity|]. split; [exact U|]. split; [exact S1|]. split; [exact A|].
  cbn [c_cx]. intros Hc idx Hi. destruct Ha as (_ & _ & _ & Ia). unfold invC, cdiv. cbn [fst snd]. rewrite (Ia Hc idx Hi). unfold Qcdiv. ring.
Qed.
Lemma negate_ok a x : stands a x -> stands (negate a) (fun idx => negC (x idx)).
Proof.
  intros ([W P] & S1 & A & I). unfold negate. split; [|split; [|split]]; cbn [c_arr c_cx unary plain v_shape v_data].
  - destruct W as [W1 W2]. split; [split; [exact W1|now rewrite map_length]|]. exact P.
  - exact S1.
  - intros idx Hi. specialize (A idx Hi). unfold at_index in *. rewrite nth_error_map. rewrite A. reflexivity.
  - intros Hc idx Hi. cbn. rewrite (I Hc idx Hi). ring.
Qed.
Lemma value_stands o x : gives full o x -> stands (value_of o) x.
Proof using Hfull.
  destruct o as [v|]; cbn [gives value_of]; [auto|]. intros H. eapply stands_ext; [exact (null_stands full Hfull)|]. intros idx Hi. symmetry. now apply H.
Qed.
Lemma element_ok (o : nat -> option cvells) (x : nat -> nat -> list Z -> cplx) i k : i < 2 -> k < 2 ->
  (forall i k, i < 2 -> k < 2 -> gives full (o (i * 2 + k)) (x i k)) ->
  exists v, inverse_element (i * 2 + k) [o 0; o 1; o 2; o 3] = Ok v /\ stands v (fun idx => inverse (fun i k => x i k idx) i k).
Proof using Hfull.
  intros Hi Hk G.
  pose proof (value_stands _ _ (G 0 0 ltac:(lia) ltac:(lia))) as Sa. pose proof (value_stands _ _ (G 0 1 ltac:(lia) ltac:(lia))) as Sb.
  pose proof (value_stands _ _ (G 1 0 ltac:(lia) ltac:(lia))) as Sc. pose proof (value_stands _ _ (G 1 1 ltac:(lia) ltac:(lia))) as Sd.
  cbn [Nat.mul Nat.add] in Sa, Sb, Sc, Sd. unfold inverse_element.
  destruct (mult_ok full Hfull _ _ _ _ Sa Sd) as (ad & -> & Sad). cbn [bind].
  destruct (mult_ok full Hfull _ _ _ _ Sb Sc) as (bc & -> & Sbc). cbn [bind].
  destruct (minus_ok full _ _ _ _ Sad Sbc) as (y & -> & _ & Sy). cbn [bind].
  destruct (recip_ok _ _ Sy) as (det & -> & Sdet). cbn [bind]. pose proof (negate_ok _ _ Sdet) as Sm.
  destruct i as [|[|i]]; [| |lia]; destruct k as [|[|k]]; try lia; cbn [Nat.mul Nat.add].
  - exact (mult_ok full Hfull _ _ _ _ Sd Sdet).
  - exact (mult_ok full Hfull _ _ _ _ Sb Sm).
  - exact (mult_ok full Hfull _ _ _ _ Sc Sm).
  - exact (mult_ok full Hfull _ _ _ _ Sa Sdet).
Qed.
End Arith.
