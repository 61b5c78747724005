(** Theorems about MatrixMultiply. *)
From Coq Require Import QArith Qcanon Sorted.
From Verif Require Import Base Poll_Model Vel_Model Vel_Spec Vel_Proofs Vel_Arith Vel_Sums Vel_Thms Fun_Model Fun_Spec Fun_Proofs Fun_Flags Fun_Pert.
From Verif Require Import Ceq_Model Ceq_Spec Ceq_Proofs Mmul_Model Mmul_Spec Mmul_Proofs Mmul_Step.
Close Scope Q_scope. Close Scope Qc_scope. Local Open Scope nat_scope.

Lemma some_eq {A} (x y : A) : Some x = Some y -> y = x.
Proof. congruence. Qed.
(** ** Sums *)
Lemma sumC_ext f g : forall m, (forall j, j < m -> f j = g j) -> sumC m f = sumC m g.
Proof. induction m as [|m IH]; intro H; [reflexivity|]. cbn [sumC]. rewrite IH by (intros j Hj; apply H; lia). now rewrite H by lia. Qed.
Lemma sumC_zero f : forall m, (forall j, j < m -> f j = zeroC) -> sumC m f = zeroC.
Proof. intros m H. rewrite (sumC_ext f (fun _ => zeroC) m H). clear. induction m as [|m IH]; [reflexivity|]. cbn [sumC]. rewrite IH. apply plus_0_r. Qed.
Lemma sumC_plus f g : forall m, sumC m (fun j => plusC (f j) (g j)) = plusC (sumC m f) (sumC m g).
Proof. induction m as [|m IH]; cbn [sumC]; [now rewrite plus_0_l|]. rewrite IH. apply cplx_ext; cbn; ring. Qed.
Lemma sumC_times f z : forall m, timesC (sumC m f) z = sumC m (fun j => timesC (f j) z).
Proof. induction m as [|m IH]; cbn [sumC]; [apply times_0_l|]. rewrite <- IH. apply cplx_ext; cbn; ring. Qed.
Lemma sumC_times_l f z : forall m, timesC z (sumC m f) = sumC m (fun j => timesC z (f j)).
Proof. intro m. rewrite times_comm, sumC_times. apply sumC_ext. intros j _. apply times_comm. Qed.
Lemma sumC_swap (f : nat -> nat -> cplx) m : forall q, sumC m (fun j => sumC q (fun l => f j l)) = sumC q (fun l => sumC m (fun j => f j l)).
Proof. induction q as [|q IH]; cbn [sumC]; [now apply sumC_zero|]. now rewrite sumC_plus, IH. Qed.

Section Thms.
Context {F E : Type}.
Variable full : list Z.
Variable perturb : E -> Z -> Qc -> E.
Variable delta : nat -> Z -> Qc.
Variable n : nat.
Variable e : E.
Variable accepts : option (vells Z) -> list cvells -> cvells -> bool.
Variable pert_eqb : Qc -> Qc -> bool.
Hypothesis Hfull : 1 <= length full.
Hypothesis Ha : forall f l v, accepts f l v = true.
Hypothesis Hp : forall p, pert_eqb p p = true.
Notation tensor := (tensor E).
Notation result := (result cvells Qc F).
Notation vdata := (vdata cvells Qc).
Notation seen := (Mmul_Spec.seen perturb delta n e).
Notation tells_of := (Mmul_Spec.tells_of full perturb delta n e).
Notation flags_go := (Mmul_Spec.flags_go full).
Notation denotes := (@Mmul_Spec.denotes F E full perturb delta n e).
Notation denotes_or_fails := (@Mmul_Spec.denotes_or_fails F E full perturb delta n e).
Notation zero := (@Mmul_Spec.stands_for_zero F E full perturb delta n e).
Notation scalarMultiply := (@scalarMultiply cvells Qc F null_vells is_null is_unity mult_eq accepts pert_eqb).
Notation matrixMultiply := (@matrixMultiply cvells Qc F null_vells is_null mult add_eq accepts pert_eqb).
Notation multiply := (@multiply cvells Qc F null_vells is_null is_unity mult mult_eq add_eq accepts pert_eqb).
Notation product_loop := (@product_loop cvells Qc F null_vells is_null is_unity mult mult_eq add_eq accepts pert_eqb).
Notation getResult := (@getResult cvells Qc F null_vells is_null is_unity mult mult_eq add_eq accepts pert_eqb).
Notation null d := (vs_isNull is_null d).

Lemma out_dims_ok p r (m : nat -> nat -> E -> list Z -> cplx) : 1 <= p -> 1 <= r -> has_dims (shrink (Matrix p r m)) (out_dims p r).
Proof.
  intros Hp' Hr. unfold out_dims. destruct (Nat.eqb_spec r 1) as [->|Nr].
  - destruct (Nat.ltb_spec 1 p) as [Lp|Lp].
    + destruct p as [|[|p]]; [lia|lia|]. cbn [shrink has_dims]. split; [lia|]. split; [lia|]. split; [lia|]. right. auto.
    + replace p with 1 by lia. reflexivity.
  - assert (N : p * r <> 1) by nia. unfold kept_dims, num_planes. cbn [fold_right]. rewrite Nat.mul_1_r. destruct (Nat.eqb_spec (p * r) 1); [contradiction|].
    destruct p as [|[|p]], r as [|[|r]]; try lia; cbn [shrink has_dims]; repeat (split; [lia|]); now left.
Qed.
Definition mproduct (q : nat) (a b : nat -> nat -> E -> list Z -> cplx) : nat -> nat -> E -> list Z -> cplx :=
  fun i k e idx => sumC q (fun j => timesC (a i j e idx) (b j k e idx)).
(** the flags of a VellSet at a cell *)
Definition flag (d : vdata) (idx : list Z) (b : Z) : Prop := Z.testbit (flags_at (d_flags d) idx) b = true.

(** two matrices, some of whose elements may have failed *)
Lemma matrix_step a b p q r ma mb fm : denotes_or_fails a (Matrix p q ma) -> denotes_or_fails b (Matrix q r mb) ->
  exists res, matrixMultiply a b fm = Ok res /\ denotes_or_fails res (shrink (Matrix p r (mproduct q ma mb))) /\
    forall i k, i < p -> k < r -> exists vs, nth_error (r_vs res) (i * r + k) = Some vs /\
      match vs with
      | VFail l => exists x j l', l = [x] /\ j < q /\ (failed a (Matrix p q ma) i j l' \/ failed b (Matrix q r mb) j k l') /\ In x l'
      | VData d => (forall j, j < q -> (exists da, has_data a (Matrix p q ma) i j da) /\ (exists db, has_data b (Matrix q r mb) j k db)) /\
          forall idx bit, inside full idx -> (0 <= bit)%Z ->
            (flag d idx bit <-> exists j da db, j < q /\ has_data a (Matrix p q ma) i j da /\ has_data b (Matrix q r mb) j k db /\ null da = false /\ null db = false /\
               (flag da idx bit \/ flag db idx bit /\ Z.testbit fm bit = true))
      end.
Proof.
  intros (A1 & A2 & A3) (B1 & B2 & B3). unfold Mmul_Model.matrixMultiply.
  assert (Da : mat_dims a = Ok (p, q)).
  { unfold mat_dims. destruct A1 as (_ & _ & _ & [->|[-> ->]]); [reflexivity|]. rewrite A2. cbn. f_equal. f_equal. lia. }
  assert (Db : mat_dims b = Ok (q, r)).
  { unfold mat_dims. destruct B1 as (_ & _ & _ & [->|[-> ->]]); [reflexivity|]. rewrite B2. cbn. f_equal. f_equal. lia. }
  rewrite Da, Db. cbn [bind]. rewrite Nat.eqb_refl. cbn [negb]. destruct A1 as (Lp & Lq & _). destruct B1 as (_ & Lr & _).
  set (dflt := VFail [] : vset cvells Qc F).
  set (mp := matrix_plane null_vells is_null mult add_eq accepts pert_eqb (r_vs a) (r_vs b) q r fm).
  assert (Pl : forall i k, i < p -> k < r -> exists vs, mp (i, k) = Ok vs /\
    match vs with VFail l => l <> [] | VData d => tells_of d (mproduct q ma mb i k) /\ flags_go d end /\
      match vs with
      | VFail l => exists x j l', l = [x] /\ j < q /\ (failed a (Matrix p q ma) i j l' \/ failed b (Matrix q r mb) j k l') /\ In x l'
      | VData d => (forall j, j < q -> (exists da, has_data a (Matrix p q ma) i j da) /\ (exists db, has_data b (Matrix q r mb) j k db)) /\
          forall idx bit, inside full idx -> (0 <= bit)%Z ->
            (flag d idx bit <-> exists j da db, j < q /\ has_data a (Matrix p q ma) i j da /\ has_data b (Matrix q r mb) j k db /\ null da = false /\ null db = false /\
               (flag da idx bit \/ flag db idx bit /\ Z.testbit fm bit = true))
      end).
  { intros i k Hi Hk. set (va := fun j => nth (i * q + j) (r_vs a) dflt). set (vb := fun j => nth (j * r + k) (r_vs b) dflt).
    assert (Ea : forall j, j < q -> nth_error (r_vs a) (i * q + j) = Some (va j) /\ match va j with VFail l => l <> [] | VData d => tells_of d (ma i j) /\ flags_go d end).
    { intros j Hj. destruct (A3 i j (conj Hi Hj)) as (vs & E1 & E2). cbn [offset] in E1. assert (X : va j = vs) by (unfold va; now apply nth_error_nth). rewrite X. auto. }
    assert (Eb : forall j, j < q -> nth_error (r_vs b) (j * r + k) = Some (vb j) /\ match vb j with VFail l => l <> [] | VData d => tells_of d (mb j k) /\ flags_go d end).
    { intros j Hj. destruct (B3 j k (conj Hj Hk)) as (vs & E1 & E2). cbn [offset] in E1. assert (X : vb j = vs) by (unfold vb; now apply nth_error_nth). rewrite X. auto. }
    assert (Dec : (exists j, j < q /\ fails_of (va j) ++ fails_of (vb j) <> []) \/ forall j, j < q -> fails_of (va j) ++ fails_of (vb j) = []).
    { clearbody va vb. clear. induction q as [|q' IH]; [right; lia|]. destruct IH as [(j & Hj & X)|X]; [left; exists j; split; [lia|exact X]|].
      destruct (fails_of (va q') ++ fails_of (vb q')) as [|z l] eqn:El; [right|left; exists q'; split; [lia|rewrite El; discriminate]].
      intros j Hj. destruct (Nat.eq_dec j q') as [->|]; [exact El|apply X; lia]. }
    destruct Dec as [Fl|Nf].
    - destruct (@plane_fail F E full perturb delta e accepts pert_eqb Hfull Ha Hp (r_vs a) (r_vs b) q r fm i k va vb) as (x & Ex & j & Hj & Ix).
      { intros j Hj. destruct (Ea j Hj) as [X1 X2]. destruct (Eb j Hj) as [Y1 Y2]. split; [exact X1|]. split; [exact Y1|].
        split; [destruct (va j); [exact Logic.I|]; cbn; rewrite <- fok_go; apply X2|destruct (vb j); [exact Logic.I|]; cbn; rewrite <- fok_go; apply Y2]. }
      { exact Fl. }
      exists (VFail [x]). split; [exact Ex|]. split; [discriminate|]. destruct (Ea j Hj) as [X1 _]. destruct (Eb j Hj) as [Y1 _]. unfold failed. cbn [offset].
      destruct Ix as [Ix|Ix].
      + exists x, j, (fails_of (va j)). split; [reflexivity|]. split; [exact Hj|]. split; [left|exact Ix]. rewrite X1. destruct (va j); [reflexivity|contradiction].
      + exists x, j, (fails_of (vb j)). split; [reflexivity|]. split; [exact Hj|]. split; [right|exact Ix]. rewrite Y1. destruct (vb j); [reflexivity|contradiction].
    - set (da := fun j => match va j with VData d => d | VFail _ => no_data end). set (db := fun j => match vb j with VData d => d | VFail _ => no_data end).
      assert (Xa : forall j, j < q -> va j = VData (da j) /\ tells_of (da j) (ma i j) /\ flags_go (da j)).
      { intros j Hj. destruct (Ea j Hj) as [_ X]. specialize (Nf j Hj). unfold da. destruct (va j) as [l|d]; [apply app_eq_nil in Nf as [Nf _]; contradiction|]. auto. }
      assert (Xb : forall j, j < q -> vb j = VData (db j) /\ tells_of (db j) (mb j k) /\ flags_go (db j)).
      { intros j Hj. destruct (Eb j Hj) as [_ X]. specialize (Nf j Hj). unfold db. destruct (vb j) as [l|d]; [apply app_eq_nil in Nf as [_ Nf]; contradiction|]. auto. }
      destruct (@plane_data F E full perturb delta n e accepts pert_eqb Hfull Ha Hp (r_vs a) (r_vs b) q r fm i k da db (ma i) (fun j => mb j k)) as (d & Ed & Td & Fd & Bd).
      { intros j Hj. destruct (Ea j Hj) as [E1 _]. destruct (Eb j Hj) as [E2 _]. destruct (Xa j Hj) as (X1 & X2 & X3). destruct (Xb j Hj) as (Y1 & Y2 & Y3). rewrite X1 in E1. rewrite Y1 in E2. auto 10. }
      assert (Ha' : forall j, j < q -> has_data a (Matrix p q ma) i j (da j)) by (intros j Hj; unfold has_data; cbn [offset]; rewrite (proj1 (Ea j Hj)); f_equal; apply Xa, Hj).
      assert (Hb' : forall j, j < q -> has_data b (Matrix q r mb) j k (db j)) by (intros j Hj; unfold has_data; cbn [offset]; rewrite (proj1 (Eb j Hj)); f_equal; apply Xb, Hj).
      exists (VData d). split; [exact Ed|]. split; [split; [exact Td|exact Fd]|]. split; [intros j Hj; split; eauto|].
      intros idx bit Hidx Hb. unfold flag. rewrite (Bd idx bit Hidx Hb). unfold raised. split.
      + intros (j & Hj & N1 & N2 & X). exists j, (da j), (db j). auto 10.
      + intros (j & da' & db' & Hj & H1 & H2 & N1 & N2 & X). exists j. pose proof (Ha' j Hj) as H1'. pose proof (Hb' j Hj) as H2'. unfold has_data in *. rewrite H1 in H1'. rewrite H2 in H2'.
        injection H1' as <-. injection H2' as <-. auto. }
  destruct (each_ok mp (list_prod (seq 0 p) (seq 0 r))) as (ys & Ey).
  { intros [i k] Hik. apply in_prod_iff in Hik as [Hi Hk]. apply in_seq in Hi. apply in_seq in Hk. destruct (Pl i k ltac:(lia) ltac:(lia)) as (vs & -> & _). eauto. }
  rewrite Ey. cbn [bind]. destruct (each_nth _ _ _ Ey) as [Ly Ny].
  assert (Nth : forall i k, i < p -> k < r -> exists vs, nth_error ys (i * r + k) = Some vs /\ mp (i, k) = Ok vs).
  { intros i k Hi Hk. destruct (Ny _ _ (nth_seq_prod r p 0 i k Hi Hk)) as (y & Y1 & Y2). cbn [plus] in Y2. eauto. }
  eexists. split; [reflexivity|]. split; [split; [|split]|]; cbn [r_dims r_vs].
  - now apply out_dims_ok.
  - rewrite Ly, prod_length, !seq_length, shrink_planes. reflexivity.
  - intros i k Hr. destruct (shrink_range _ _ _ Hr) as ([Hi Hk] & -> & ->). cbn [offset entry]. destruct (Nth i k Hi Hk) as (vs & N1 & N2). destruct (Pl i k Hi Hk) as (vs' & P1 & P2 & _).
    rewrite P1 in N2. injection N2 as ->. eauto.
  - intros i k Hi Hk. destruct (Nth i k Hi Hk) as (vs & N1 & N2). destruct (Pl i k Hi Hk) as (vs' & P1 & _ & P2). rewrite P1 in N2. injection N2 as ->. eauto.
Qed.
Lemma denotes_may_fail r t : denotes r t -> denotes_or_fails r t.
Proof. intros (A & B & C). split; [exact A|]. split; [exact B|]. intros i k Hr. destruct (C i k Hr) as (d & E1 & T & G). exists (VData d). auto. Qed.
Lemma matrix_denotes a b p q r ma mb fm : denotes a (Matrix p q ma) -> denotes b (Matrix q r mb) ->
  exists res, matrixMultiply a b fm = Ok res /\ denotes res (shrink (Matrix p r (mproduct q ma mb))).
Proof.
  intros A B. destruct (matrix_step a b p q r ma mb fm (denotes_may_fail _ _ A) (denotes_may_fail _ _ B)) as (res & E1 & (D1 & D2 & D3) & N). exists res. split; [exact E1|].
  split; [exact D1|]. split; [exact D2|]. intros i k Hr. destruct (D3 i k Hr) as (vs & V1 & V2). destruct vs as [l|d]; [|eauto].
  exfalso. destruct (shrink_range _ _ _ Hr) as ([Hi Hk] & _ & Eo). rewrite Eo in V1. destruct (N i k Hi Hk) as (vs & W1 & W2). cbn [offset] in V1. rewrite V1 in W1. injection W1 as <-.
  destruct W2 as (x & j & l' & _ & Hj & [X|X] & _); unfold failed in X.
  - destruct A as (_ & _ & A). destruct (A i j (conj Hi Hj)) as (d & X' & _). congruence.
  - destruct B as (_ & _ & B). destruct (B j k (conj Hj Hk)) as (d & X' & _). congruence.
Qed.
Lemma denotes_ext r s t : denotes r s -> (forall dims, has_dims s dims -> has_dims t dims) -> planes s = planes t -> (forall i k, in_range t i k -> in_range s i k /\ offset s i k = offset t i k /\
  forall e' idx, entry s i k e' idx = entry t i k e' idx) -> denotes r t.
Proof.
  intros (A & B & C) H1 H2 H3. split; [auto|]. split; [congruence|]. intros i k Hr. destruct (H3 i k Hr) as (Hr' & Ho & He). destruct (C i k Hr') as (d & E1 & T & G). rewrite <- Ho. exists d. split; [exact E1|].
  split; [|exact G]. eapply tells_of_ext; [exact T|]. intros. apply He.
Qed.
Hypothesis Hex : exists idx, inside full idx.
Lemma zero_null v : stands full v (fun _ => zeroC) -> length (v_data (c_arr v)) = 1 -> is_null v = true.
Proof.
  intros (((_ & L) & _) & _ & A & _) N. destruct Hex as (idx & Hi). specialize (A idx Hi). unfold is_null, Vel_Model.isNull. destruct (v_data (c_arr v)) as [|z [|y l]] eqn:Ed; [reflexivity| |discriminate].
  unfold at_index in A. destruct (Z.to_nat _) as [|k]; [|destruct k; discriminate]. injection A as ->. unfold isScalar. cbn [length] in L.
  apply andb_true_intro. split; [|apply ceqb_refl]. unfold nelements. now rewrite Ed.
Qed.
Lemma product_zero t u w : product t u = Some w -> (forall i k, in_range t i k -> forall e' idx, seen e' -> inside full idx -> entry t i k e' idx = zeroC) ->
  forall i k, in_range w i k -> forall e' idx, seen e' -> inside full idx -> entry w i k e' idx = zeroC.
Proof.
  intros P Z0 i k Hr e' idx He Hi. destruct t as [x|p q m], u as [y|p' q' m']; cbn [product] in P.
  - apply some_eq in P; subst. cbn in *. rewrite (Z0 0 0 ltac:(auto) e' idx He Hi). apply times_0_l.
  - apply some_eq in P; subst. cbn in *. rewrite (Z0 0 0 ltac:(auto) e' idx He Hi). apply times_0_r.
  - apply some_eq in P; subst. cbn in *. rewrite (Z0 i k Hr e' idx He Hi). apply times_0_l.
  - destruct (Nat.eqb q p'); [|discriminate]. apply some_eq in P; subst. destruct (shrink_range _ _ _ Hr) as ([H1 H2] & -> & _). cbn [entry]. apply sumC_zero. intros j Hj. cbn in Z0.
    rewrite (Z0 i j (conj H1 Hj) e' idx He Hi). apply times_0_l.
Qed.
Lemma multiply_step a b t u w m : denotes a t \/ zero a t -> denotes b u -> product t u = Some w ->
  exists r, multiply a b m = Ok r /\ (denotes r w \/ zero r w).
Proof.
  intros [A|A] B P; unfold Mmul_Model.multiply.
  - pose proof A as (A1 & _). destruct (dims_rank t _ A1) as [_ Ra]. pose proof B as (B1 & _). destruct (dims_rank u _ B1) as [_ Rb]. unfold tensorRank.
    destruct t as [x|p q ma].
    + destruct (Nat.eqb_spec (length (r_dims a)) 0) as [_|X]; [|exfalso; apply X, Ra; eauto].
      destruct (scalar_step full perturb delta n e accepts pert_eqb Hfull Ha Hp a b x u VellsFullFlagMask m A B) as (r & Er & Dr). exists r. split; [exact Er|].
      destruct u as [y|p q mb]; cbn [product scaled] in *; apply some_eq in P; subst; [|exact Dr].
      destruct Dr as [Dr|(d & D1 & D2 & D3 & D4 & D45 & D5 & D6)]; [left|right].
      * eapply denotes_ext; [exact Dr|auto|reflexivity|]. intros i k Hr. split; [exact Hr|]. split; [reflexivity|]. intros. cbn. apply times_comm.
      * exists d. repeat (split; [assumption|]). intros i k Hr e' idx He Hi. specialize (D6 i k Hr e' idx He Hi). cbn in *. now rewrite times_comm.
    + destruct (Nat.eqb_spec (length (r_dims a)) 0) as [X|_]; [apply Ra in X as (x & X); discriminate|]. destruct u as [y|p' q' mb].
      * destruct (Nat.eqb_spec (length (r_dims b)) 0) as [_|X]; [|exfalso; apply X, Rb; eauto]. cbn [product] in P. apply some_eq in P; subst.
        exact (scalar_step full perturb delta n e accepts pert_eqb Hfull Ha Hp b a y (Matrix p q ma) m VellsFullFlagMask B A).
      * destruct (Nat.eqb_spec (length (r_dims b)) 0) as [X|_]; [apply Rb in X as (x & X); discriminate|]. cbn [product] in P. destruct (Nat.eqb_spec q p') as [->|]; [|discriminate]. apply some_eq in P; subst.
        destruct (matrix_denotes a b p p' q' ma mb m A B) as (r & Er & Dr). exists r. split; [exact Er|]. now left.
  - destruct A as (d & A1 & A2 & A3 & A4 & _ & A5 & A6). unfold tensorRank. rewrite A1. cbn [length Nat.eqb]. unfold Mmul_Model.scalarMultiply. pose proof B as (B1 & _). destruct (dims_rank u _ B1) as [Rb _].
    unfold tensorRank. destruct (Nat.ltb_spec 2 (length (r_dims b))) as [|_]; [lia|]. rewrite A2. pose proof (product_zero t u w P A6) as Zw. destruct A5 as [A5|(v & A5 & L & S0)].
    + rewrite A5. eexists. split; [reflexivity|]. right. exists no_data. repeat (split; [reflexivity|]). split; [now left|exact Zw].
    + rewrite A5. unfold no_spids. rewrite A3, (zero_null v S0 L). cbn [andb]. eexists. split; [reflexivity|]. right. eexists. split; [reflexivity|]. split; [reflexivity|]. split; [reflexivity|]. split; [reflexivity|]. split; [reflexivity|].
      split; [right; exists null_vells; split; [reflexivity|]; split; [reflexivity|]; now apply null_stands|exact Zw].
Qed.
Lemma some_data r t : denotes r t \/ zero r t -> numFails r <> length (r_vs r).
Proof.
  intros [(A & B & C)|(d & _ & A & _)].
  - destruct (some_entry t _ A) as [Hr Ho]. destruct (C 0 0 Hr) as (d & E1 & _). apply (filter_less _ (VData d)); [|reflexivity]. eapply nth_error_In, E1.
  - unfold numFails. rewrite A. discriminate.
Qed.
Lemma loop_ok : forall us cs masks a t w, denotes a t \/ zero a t -> Forall2 denotes cs us -> length masks = length cs -> products t us = Some w ->
  exists r, product_loop a cs masks = Ok (r, 0%Z) /\ (denotes r w \/ zero r w).
Proof.
  induction us as [|u us IH]; intros cs masks a t w A Fc L P.
  - inversion Fc; subst. cbn in P. apply some_eq in P; subst. exists a. destruct masks; cbn; auto.
  - inversion Fc as [|c ? cs' ? Hc Fc']; subst. destruct masks as [|m masks]; [discriminate|]. cbn [products] in P. destruct (product t u) as [v|] eqn:Ev; [|discriminate].
    destruct (multiply_step a c t u v m A Hc Ev) as (r & Er & Dr). cbn [Mmul_Model.product_loop]. rewrite Er. cbn [bind]. destruct (Nat.eqb_spec (numFails r) (length (r_vs r))) as [X|_]; [now destruct (some_data r v Dr)|].
    apply (IH cs' masks r v w Dr Fc'); [cbn in L; lia|exact P].
Qed.
Lemma masked_denotes m a t : denotes a t -> denotes (masked m a) t.
Proof.
  intros (A & B & C). unfold masked. destruct (Z.eqb m VellsFullFlagMask); [split; auto|]. split; [exact A|]. split; [cbn; now rewrite map_length|].
  intros i k Hr. destruct (C i k Hr) as (d & E1 & T & G). eexists. cbn [r_vs]. rewrite nth_error_map, E1. split; [reflexivity|]. split; [exact T|].
  intros f Hf. cbn in Hf. destruct (d_flags d) as [g|] eqn:Eg; [|discriminate]. injection Hf as <-. destruct (G g Eg) as [[[P1 P2] P3] S1]. cbn. split; [|exact S1]. split; [split; [exact P1|now rewrite map_length]|exact P3].
Qed.
Lemma masked_at m (a : result) o : match nth_error (r_vs a) o, nth_error (r_vs (masked m a)) o with
  | Some (VFail l), Some (VFail l') => l' = l
  | Some (VData d), Some (VData d') => null d' = null d /\ forall idx, flags_at (d_flags d') idx = Z.land (flags_at (d_flags d) idx) m
  | None, None => True
  | _, _ => False
  end.
Proof.
  unfold masked. destruct (Z.eqb_spec m VellsFullFlagMask) as [->|].
  - destruct (nth_error (r_vs a) o) as [[l|d]|]; auto. split; [reflexivity|]. intro idx. unfold VellsFullFlagMask. now rewrite Z.land_m1_r.
  - cbn [r_vs]. rewrite nth_error_map. destruct (nth_error (r_vs a) o) as [[l|d]|]; cbn [option_map]; auto. split; [reflexivity|]. intro idx. cbn [with_flags d_flags].
    destruct (d_flags d) as [f|]; cbn [option_map flags_at]; [|now rewrite Z.land_0_l]. cbn [unary plain v_shape v_data]. apply Fun_Flags.masked_at.
Qed.
Lemma masked_may_fail m a t : denotes_or_fails a t -> denotes_or_fails (masked m a) t.
Proof.
  intros (A & B & C). unfold masked. destruct (Z.eqb m VellsFullFlagMask); [split; auto|]. split; [exact A|]. split; [cbn; now rewrite map_length|].
  intros i k Hr. destruct (C i k Hr) as (vs & E1 & T). cbn [r_vs]. rewrite nth_error_map, E1. eexists. split; [reflexivity|]. destruct vs as [l|d]; [exact T|]. destruct T as [T G]. split; [exact T|].
  intros f Hf. cbn in Hf. destruct (d_flags d) as [g|] eqn:Eg; [|discriminate]. injection Hf as <-. destruct (G g Eg) as [[[P1 P2] P3] S1]. cbn. split; [|exact S1]. split; [split; [exact P1|now rewrite map_length]|exact P3].
Qed.

(** ** C100: the product *)
(** Children that are scalars, vectors and matrices give the product, or a lone zero if the product is zero throughout. *)
Theorem matrix_product : forall c0 cs t0 us m0 masks w, denotes c0 t0 -> Forall2 denotes cs us -> length masks = length cs -> cs <> [] -> products t0 us = Some w ->
  exists r, getResult (m0 :: masks) (c0 :: cs) = Ok (r, 0%Z) /\ (denotes r w \/ zero r w).
Proof.
  intros c0 cs t0 us m0 masks w D0 Dc L N P. unfold Mmul_Model.getResult. cbn [length]. rewrite L, Nat.eqb_refl. cbn [negb]. destruct cs as [|c1 cs]; [contradiction|].
  apply (loop_ok us (c1 :: cs) masks (masked m0 c0) t0 w); try assumption. left. now apply masked_denotes.
Qed.

(** ** C101: flags and fails of the product of two matrices *)
Definition all_failed (r : result) : Prop := forall vs, In vs (r_vs r) -> exists l, vs = VFail l.
Theorem matrix_pair : forall a b p q r ma mb m0 m1, denotes_or_fails a (Matrix p q ma) -> denotes_or_fails b (Matrix q r mb) ->
  exists res code, getResult [m0; m1] [a; b] = Ok (res, code) /\ denotes_or_fails res (shrink (Matrix p r (mproduct q ma mb))) /\
    (code = RES_FAIL /\ all_failed res \/ code = 0%Z /\ ~ all_failed res) /\
    forall i k, i < p -> k < r -> exists vs, nth_error (r_vs res) (i * r + k) = Some vs /\
      match vs with
      | VFail l => exists x j l', l = [x] /\ j < q /\ (failed a (Matrix p q ma) i j l' \/ failed b (Matrix q r mb) j k l') /\ In x l'
      | VData d => (forall j, j < q -> (exists da, has_data a (Matrix p q ma) i j da) /\ (exists db, has_data b (Matrix q r mb) j k db)) /\
          forall idx bit, inside full idx -> (0 <= bit)%Z ->
            (flag d idx bit <-> exists j da db, j < q /\ has_data a (Matrix p q ma) i j da /\ has_data b (Matrix q r mb) j k db /\ null da = false /\ null db = false /\
               (flag da idx bit /\ Z.testbit m0 bit = true \/ flag db idx bit /\ Z.testbit m1 bit = true))
      end.
Proof.
  intros a b p q r ma mb m0 m1 A B. pose proof (masked_may_fail m0 a _ A) as A'. destruct (matrix_step (masked m0 a) b p q r ma mb m1 A' B) as (res & Er & Dr & N).
  unfold Mmul_Model.getResult. cbn [length Nat.eqb negb Mmul_Model.product_loop]. unfold Mmul_Model.multiply, tensorRank.
  assert (Ra : length (r_dims (masked m0 a)) <> 0) by (destruct A' as ((_ & _ & _ & [-> |[_ ->]]) & _); cbn; lia). assert (Rb : length (r_dims b) <> 0) by (destruct B as ((_ & _ & _ & [-> |[_ ->]]) & _); cbn; lia).
  destruct (Nat.eqb_spec (length (r_dims (masked m0 a))) 0); [contradiction|]. destruct (Nat.eqb_spec (length (r_dims b)) 0); [contradiction|]. rewrite Er. cbn [bind].
  assert (Code : Nat.eqb (numFails res) (length (r_vs res)) = true <-> all_failed res).
  { unfold numFails, all_failed. rewrite Nat.eqb_eq. clear. induction (r_vs res) as [|v l IH]; [cbn; split; [intros _ vs []|reflexivity]|].
    assert (Le : length (filter (fun vs : vset cvells Qc F => match vs with VFail _ => true | _ => false end) l) <= length l) by (clear; induction l as [|v l IH]; cbn; [lia|destruct v; cbn; lia]).
    cbn [filter]. destruct v as [f|d]; cbn [length].
    - split; [intros X vs [<-|Hv]; [eauto|]; apply IH; [lia|exact Hv]|]. intro X. f_equal. apply IH. intros vs Hv. apply X. now right.
    - split; [intro X; lia|]. intro X. destruct (X (VData d) (or_introl eq_refl)) as (f & Hf). discriminate. }
  exists res, (if Nat.eqb (numFails res) (length (r_vs res)) then RES_FAIL else 0%Z). split; [now destruct (Nat.eqb (numFails res) (length (r_vs res)))|]. split; [exact Dr|].
  split; [destruct (Nat.eqb (numFails res) (length (r_vs res))); [left|right]; (split; [reflexivity|]); [now apply Code|intro X; apply Code in X; discriminate]|].
  intros i k Hi Hk. destruct (N i k Hi Hk) as (vs & V1 & V2). exists vs. split; [exact V1|]. destruct vs as [l|d].
  - destruct V2 as (x & j & l' & -> & Hj & X & Hx). exists x, j, l'. split; [reflexivity|]. split; [exact Hj|]. split; [|exact Hx]. destruct X as [X|X]; [left|now right].
    unfold failed in *. pose proof (masked_at m0 a (offset (Matrix p q ma) i j)) as M. rewrite X in M. destruct (nth_error (r_vs a) _) as [[l0|d0]|]; try contradiction. now subst.
  - destruct V2 as [H1 H2]. unfold has_data in *. split.
    + intros j Hj. destruct (H1 j Hj) as [(da & Hda) Hb]. split; [|exact Hb]. pose proof (masked_at m0 a (offset (Matrix p q ma) i j)) as M. rewrite Hda in M. destruct (nth_error (r_vs a) _) as [[l0|d0]|]; try contradiction. eauto.
    + intros idx bit Hidx Hb. rewrite (H2 idx bit Hidx Hb). unfold flag. split.
      * intros (j & da & db & Hj & E1 & E2 & N1 & N2 & X). pose proof (masked_at m0 a (offset (Matrix p q ma) i j)) as M. rewrite E1 in M. destruct (nth_error (r_vs a) (offset (Matrix p q ma) i j)) as [[l0|d0]|] eqn:E0; try contradiction.
        destruct M as [M1 M2]. rewrite M2, Z.land_spec, andb_true_iff in X. exists j, d0, db. repeat (split; [first [assumption|congruence]|]). exact X.
      * intros (j & da & db & Hj & E1 & E2 & N1 & N2 & X). pose proof (masked_at m0 a (offset (Matrix p q ma) i j)) as M. rewrite E1 in M. destruct (nth_error (r_vs (masked m0 a)) (offset (Matrix p q ma) i j)) as [[l0|d0]|] eqn:E0; try contradiction.
        destruct M as [M1 M2]. exists j, d0, db. repeat (split; [first [assumption|congruence]|]). rewrite M2, Z.land_spec, andb_true_iff. exact X.
Qed.
(** ** C101: flags of a scalar times a tensor *)
Theorem scalar_flags : forall a x b u m0 m1 s sv, denotes a (Scalar x) -> denotes b u -> has_data a (Scalar x) 0 0 s -> d_value s = Some sv -> d_spids s <> [] \/ is_null sv = false /\ is_unity sv = false ->
  exists r, getResult [m0; m1] [a; b] = Ok (r, 0%Z) /\ r_dims r = r_dims b /\ forall i k t, has_data b u i k t -> in_range u i k -> d_value t <> None ->
    exists d, has_data r u i k d /\ d_value d <> None /\ forall idx bit, inside full idx -> (0 <= bit)%Z ->
      (flag d idx bit <-> null t = false /\ (flag s idx bit /\ Z.testbit m0 bit = true \/ flag t idx bit /\ Z.testbit m1 bit = true)).
Proof.
  intros a x b u m0 m1 s sv Da Db Hs Es Hn. pose proof (masked_denotes m0 a _ Da) as Da'. pose proof (masked_at m0 a 0) as M. unfold has_data in Hs. cbn [offset] in Hs. rewrite Hs in M.
  destruct (nth_error (r_vs (masked m0 a)) 0) as [[l|s']|] eqn:E0; try contradiction. destruct M as [M1 M2].
  assert (Same : d_value s' = Some sv /\ d_spids s' = d_spids s).
  { unfold masked in E0. destruct (Z.eqb m0 VellsFullFlagMask); [rewrite Hs in E0; injection E0 as <-; auto|]. cbn [r_vs] in E0. rewrite nth_error_map, Hs in E0. injection E0 as <-. auto. }
  destruct Same as [Es' Sp]. destruct Da' as (A1 & A2 & A3). destruct (A3 0 0 ltac:(split; reflexivity)) as (s2 & E2 & Ts & Fs). cbn [offset entry] in E2, Ts. rewrite E0 in E2. injection E2 as <-.
  pose proof Db as (B1 & B2 & B3). destruct (dims_rank u _ B1) as [R2 _].
  assert (Pl : forall i k t, in_range u i k -> has_data b u i k t -> exists d, scalar_plane is_null mult_eq accepts pert_eqb s' b VellsFullFlagMask m1 (offset u i k) = Ok (VData d) /\
    (d_value t <> None -> d_value d <> None /\ forall idx bit, inside full idx -> (0 <= bit)%Z ->
      (flag d idx bit <-> null t = false /\ (flag s idx bit /\ Z.testbit m0 bit = true \/ flag t idx bit /\ Z.testbit m1 bit = true)))).
  { intros i k t Hr Ht. unfold has_data in Ht. destruct (B3 i k Hr) as (t2 & Et & Tt & Ft). rewrite Ht in Et. injection Et as <-. unfold scalar_plane. rewrite Ht. destruct (d_value t) as [tv|] eqn:Ev; [|exists t; split; [reflexivity|congruence]].
    rewrite fok_go in Fs, Ft. assert (Ns : null s' = false).
    { unfold vs_isNull. rewrite Es', Sp. destruct (d_spids s); [|reflexivity]. destruct Hn as [X|[X _]]; [contradiction|exact X]. }
    assert (Mg : exists fl, (if null s' || null t then Ok None else bind (merge_from s' VellsFullFlagMask None) (merge_from t m1)) = Ok fl /\
      forall idx bit, inside full idx -> (0 <= bit)%Z -> (Z.testbit (flags_at fl idx) bit = true <-> null t = false /\ (flag s idx bit /\ Z.testbit m0 bit = true \/ flag t idx bit /\ Z.testbit m1 bit = true))).
    { rewrite Ns. cbn [orb]. destruct (null t); [exists None; split; [reflexivity|]; intros idx bit _ _; cbn [flags_at]; rewrite Z.testbit_0_l; split; [discriminate|intros [X _]; discriminate]|].
      destruct (merge_from_ok full s' VellsFullFlagMask None Fs Logic.I) as (f1 & -> & G1 & F1). cbn [bind]. destruct (merge_from_ok full t m1 f1 Ft G1) as (f2 & -> & G2 & F2). exists f2. split; [reflexivity|].
      intros idx bit Hi Hb. rewrite (F2 idx Hi), (F1 idx Hi). cbn [flags_at]. unfold VellsFullFlagMask. rewrite Z.lor_0_l, Z.land_m1_r, M2, Z.lor_spec, !Z.land_spec, orb_true_iff, !andb_true_iff. unfold flag. tauto. }
    destruct Mg as (fl & -> & Bf). cbn [bind]. destruct (product_plane full perturb delta n e accepts pert_eqb Hfull Ha Hp s' t x (entry u i k) fl Ts Tt ltac:(congruence) ltac:(congruence)) as (d & -> & _ & Fd & Nd). cbn [bind].
    exists d. split; [reflexivity|]. intros _. split; [exact Nd|]. intros idx bit Hi Hb. unfold flag at 1. rewrite Fd. now apply Bf. }
  destruct (each_ok (scalar_plane is_null mult_eq accepts pert_eqb s' b VellsFullFlagMask m1) (seq 0 (planes u))) as (ys & Ey).
  { intros o Ho. apply in_seq in Ho. destruct (onto u _ B1 o ltac:(lia)) as (i & k & Hr & <-). destruct (B3 i k Hr) as (t & Et & _). destruct (Pl i k t Hr Et) as (d & -> & _). eauto. }
  destruct (each_nth _ _ _ Ey) as [Ly Ny]. rewrite seq_length in Ly.
  assert (G : scalarMultiply (masked m0 a) b VellsFullFlagMask m1 = Ok {| r_dims := r_dims b; r_vs := ys |}).
  { unfold Mmul_Model.scalarMultiply, tensorRank. destruct (Nat.ltb_spec 2 (length (r_dims b))) as [|_]; [lia|]. cbn in A2. destruct (r_vs (masked m0 a)) as [|v0 l]; [discriminate|]. cbn in E0. injection E0 as ->.
    rewrite Es'. rewrite (dims_kept u _ B1), (dims_planes u _ B1). assert (Nn : no_spids s' = true -> d_spids s = []) by (unfold no_spids; rewrite Sp; now destruct (d_spids s)).
    destruct (no_spids s') eqn:Esp; cbn [andb]; [|rewrite Ey; reflexivity]. specialize (Nn eq_refl). destruct Hn as [X|[X Y]]; [contradiction|]. rewrite X, Y, Ey. reflexivity. }
  exists {| r_dims := r_dims b; r_vs := ys |}. split; [|split; [reflexivity|]].
  - unfold Mmul_Model.getResult. cbn [length Nat.eqb negb Mmul_Model.product_loop]. unfold Mmul_Model.multiply, tensorRank. cbn [has_dims] in A1. rewrite A1. cbn [length Nat.eqb]. rewrite G. cbn [bind r_vs].
    assert (Nf : numFails {| r_dims := r_dims b; r_vs := ys |} <> length ys); [|destruct (Nat.eqb_spec (numFails {| r_dims := r_dims b; r_vs := ys |}) (length ys)); [contradiction|reflexivity]].
    destruct (some_entry u _ B1) as [Hr Ho]. destruct (B3 0 0 Hr) as (t & Et & _). destruct (Pl 0 0 t Hr Et) as (d & Ed & _). destruct (Ny _ _ (nth_seq _ _ (within u 0 0 Hr))) as (y & Y1 & Y2). rewrite Ed in Y2. injection Y2 as <-.
    apply (filter_less _ (VData d)); [|reflexivity]. eapply nth_error_In, Y1.
  - intros i k t Ht Hr Nt. destruct (Pl i k t Hr Ht) as (d & Ed & Kd). destruct (Ny _ _ (nth_seq _ _ (within u i k Hr))) as (y & Y1 & Y2). rewrite Ed in Y2. injection Y2 as <-. exists d. split; [exact Y1|]. now apply Kd.
Qed.
End Thms.

(** ** C102: grouping *)
Section Grouping.
Context {E : Type}.
Notation tensor := (tensor E).
Lemma shrink_cases p r (m : nat -> nat -> E -> list Z -> cplx) : p = 1 /\ r = 1 /\ shrink (Matrix p r m) = Scalar (m 0 0) \/ ~ (p = 1 /\ r = 1) /\ shrink (Matrix p r m) = Matrix p r m.
Proof. destruct p as [|[|p]], r as [|[|r]]; auto; right; (split; [lia|reflexivity]). Qed.
Lemma same_matrix p r (m m' : nat -> nat -> E -> list Z -> cplx) : (forall i k, i < p -> k < r -> forall e' idx, m i k e' idx = m' i k e' idx) -> same_tensor (Matrix p r m) (Matrix p r m').
Proof. intro H. split; [intro dims; reflexivity|]. intros i k [Hi Hk]. split; [split; assumption|]. intros e' idx. cbn. now apply H. Qed.
Lemma same_shrink p r (m m' : nat -> nat -> E -> list Z -> cplx) : (forall i k, i < p -> k < r -> forall e' idx, m i k e' idx = m' i k e' idx) -> same_tensor (shrink (Matrix p r m)) (shrink (Matrix p r m')).
Proof.
  intro H. destruct (shrink_cases p r m) as [(-> & -> & _)|[N ->]].
  - cbn. split; [intro; reflexivity|]. intros i k [-> ->]. split; [split; reflexivity|]. intros. cbn. apply H; lia.
  - destruct (shrink_cases p r m') as [(X & Y & _)|[_ ->]]; [tauto|]. now apply same_matrix.
Qed.
(** Products do not depend on grouping, when the dimensions fit both ways. *)
Theorem product_grouping : forall (a b c : tensor) da db dc ab abc bc abc', has_dims a da -> has_dims b db -> has_dims c dc ->
  product a b = Some ab -> product ab c = Some abc -> product b c = Some bc -> product a bc = Some abc' -> same_tensor abc abc'.
Proof.
  intros a b c da db dc ab abc bc abc' Da Db Dc P1 P2 P3 P4. destruct a as [x|p q ma], b as [y|p2 q2 mb], c as [z|p3 q3 mc]; cbn [product] in P1, P3;
    try (apply some_eq in P1; subst); try (apply some_eq in P3; subst); cbn [product] in P2, P4; try (apply some_eq in P2; subst); try (apply some_eq in P4; subst).
  - split; [intro; reflexivity|]. intros i k H. split; [exact H|]. intros. cbn. now rewrite times_assoc.
  - apply same_matrix. intros. rewrite times_assoc, (times_comm (timesC (mc i k e' idx) (x e' idx))), times_assoc. f_equal. apply times_comm.
  - apply same_matrix. intros. rewrite <- !times_assoc. f_equal. apply times_comm.
  - destruct (Nat.eqb q2 p3); [|discriminate]. apply some_eq in P2; subst. apply some_eq in P3; subst. destruct (shrink_cases p2 q3 (fun i k e0 idx => sumC q2 (fun j => timesC (mb i j e0 idx) (mc j k e0 idx)))) as [(-> & -> & X)|[N X]]; rewrite X in P4; cbn [product] in P4; apply some_eq in P4; subst.
    + split; [intro; reflexivity|]. intros i k H. split; [exact H|]. destruct H as [-> ->]. intros. cbn [entry shrink]. rewrite sumC_times_l. apply sumC_ext. intros j _.
      rewrite (times_comm (mb 0 j e' idx)), times_assoc. reflexivity.
    + destruct (shrink_cases p2 q3 (fun i k e0 idx => sumC q2 (fun j => timesC (timesC (mb i j e0 idx) (x e0 idx)) (mc j k e0 idx)))) as [(-> & -> & _)|[_ ->]]; [tauto|].
      apply same_matrix. intros. rewrite sumC_times. apply sumC_ext. intros j _. rewrite <- !times_assoc. f_equal. apply times_comm.
  - apply same_matrix. intros. now rewrite <- times_assoc.
  - destruct (Nat.eqb q p3); [|discriminate]. apply some_eq in P2; subst. apply some_eq in P4; subst. apply same_shrink. intros. apply sumC_ext. intros j _. rewrite <- times_assoc. f_equal. apply times_comm.
  - destruct (Nat.eqb q p2); [|discriminate]. apply some_eq in P1; subst. apply some_eq in P4; subst. destruct (shrink_cases p q2 (fun i k e0 idx => sumC q (fun j => timesC (ma i j e0 idx) (mb j k e0 idx)))) as [(-> & -> & X)|[N X]]; rewrite X in P2; cbn [product] in P2; apply some_eq in P2; subst.
    + split; [intro; reflexivity|]. intros i k H. split; [exact H|]. destruct H as [-> ->]. intros. cbn [entry shrink]. rewrite sumC_times. apply sumC_ext. intros j _. now rewrite times_assoc.
    + destruct (shrink_cases p q2 (fun i k e0 idx => sumC q (fun j => timesC (ma i j e0 idx) (timesC (mb j k e0 idx) (z e0 idx))))) as [(-> & -> & _)|[_ ->]]; [tauto|].
      apply same_matrix. intros. rewrite sumC_times. apply sumC_ext. intros j _. now rewrite times_assoc.
  - destruct (Nat.eqb_spec q p2) as [->|]; [|discriminate]. destruct (Nat.eqb_spec q2 p3) as [->|]; [|discriminate]. apply some_eq in P1; subst. apply some_eq in P3; subst.
    destruct (shrink_cases p p3 (fun i k e0 idx => sumC p2 (fun j => timesC (ma i j e0 idx) (mb j k e0 idx)))) as [(-> & -> & X)|[N X]]; rewrite X in P2; cbn [product] in P2.
    + apply some_eq in P2; subst. cbn [has_dims] in Dc. assert (N3 : q3 <> 1) by lia.
      match type of P4 with match shrink (Matrix p2 q3 ?m) with _ => _ end = _ => destruct (shrink_cases p2 q3 m) as [(_ & Y & _)|[_ Y]]; [contradiction|]; rewrite Y in P4 end.
      rewrite Nat.eqb_refl in P4. apply some_eq in P4; subst. match goal with |- same_tensor _ (shrink (Matrix 1 q3 ?m)) => destruct (shrink_cases 1 q3 m) as [(_ & Z3 & _)|[_ ->]]; [contradiction|] end.
      apply same_matrix. intros i k Hi Hk e' idx. assert (i = 0) by lia. subst i. rewrite times_comm, sumC_times. apply sumC_ext. intros j _. cbn [sumC]. rewrite plus_0_l. now rewrite times_assoc.
    + rewrite Nat.eqb_refl in P2. apply some_eq in P2; subst.
      match type of P4 with match shrink (Matrix p2 q3 ?m) with _ => _ end = _ => destruct (shrink_cases p2 q3 m) as [(-> & -> & Y)|[_ Y]]; rewrite Y in P4 end.
      * apply some_eq in P4; subst. cbn [has_dims] in Da. match goal with |- same_tensor (shrink (Matrix p 1 ?m)) _ => destruct (shrink_cases p 1 m) as [(X1 & _ & _)|[_ ->]]; [lia|] end.
        apply same_matrix. intros i k Hi Hk e' idx. assert (k = 0) by lia. subst k. rewrite sumC_times_l. apply sumC_ext. intros j _. cbn [sumC]. rewrite plus_0_l. now rewrite times_assoc.
      * rewrite Nat.eqb_refl in P4. apply some_eq in P4; subst. apply same_shrink. intros i k Hi Hk e' idx.
        rewrite (sumC_ext _ (fun j => sumC p2 (fun l => timesC (timesC (ma i l e' idx) (mb l j e' idx)) (mc j k e' idx)))) by (intros j _; apply sumC_times).
        rewrite sumC_swap. apply sumC_ext. intros l _. rewrite sumC_times_l. apply sumC_ext. intros j _. now rewrite times_assoc.
Qed.
End Grouping.

Lemma zero_scalar F E full perturb delta n (e : E) (r : result cvells Qc F) x : stands_for_zero full perturb delta n e r (Scalar x) -> denotes full perturb delta n e r (Scalar x).
Proof.
  intros (d & D1 & D2 & D3 & D4 & D5 & D6 & D7). split; [exact D1|]. split; [now rewrite D2|]. intros i k [-> ->]. exists d. rewrite D2. split; [reflexivity|]. split; [|intros f Hf; congruence].
  cbn [entry]. exists (fun _ => d_value d). split.
  - split; [reflexivity|]. rewrite D3, D4. split; [constructor|]. split; [constructor|]. split; [cbn; lia|]. split; [contradiction|]. split; [intros [|k] ps X; discriminate|reflexivity].
  - intros e' He. assert (Z0 : forall idx, inside full idx -> x e' idx = zeroC) by (intros idx Hi; exact (D7 0 0 ltac:(split; reflexivity) e' idx He Hi)).
    destruct D6 as [->|(v & -> & _ & Sv)]; [exact Z0|]. eapply stands_ext; [exact Sv|]. intros idx Hi. now rewrite Z0.
Qed.
(** Nested nodes: (a b) c as one node, or a (b c) with b c computed by another. *)
Theorem matrix_grouping : forall F E full perturb delta n (e : E) accepts pert_eqb, 1 <= length full -> (exists idx, inside full idx) -> (forall f l v, accepts f l v = true) -> (forall p, pert_eqb p p = true) ->
  forall (A B C R : result cvells Qc F) a b c ab abc bc abc' m0 m1 m2 m3,
  let node := Mmul_Model.getResult null_vells is_null is_unity mult mult_eq add_eq accepts pert_eqb in
  let means r t := denotes full perturb delta n e r t \/ stands_for_zero full perturb delta n e r t in
  denotes full perturb delta n e A a -> denotes full perturb delta n e B b -> denotes full perturb delta n e C c ->
  product a b = Some ab -> product ab c = Some abc -> product b c = Some bc -> product a bc = Some abc' ->
  node [m1; m2] [B; C] = Ok (R, 0%Z) -> r_dims R <> [] \/ (exists x, bc = Scalar x) ->
  exists r r', node [m0; m1; m2] [A; B; C] = Ok (r, 0%Z) /\ node [m0; m3] [A; R] = Ok (r', 0%Z) /\ means r abc /\ means r' abc'.
Proof.
  intros F E full perturb delta n e accepts pert_eqb Hfull Hex Ha Hp A B C R a b c ab abc bc abc' m0 m1 m2 m3 node means HA HB HC P1 P2 P3 P4 HR Sh.
  destruct (matrix_product full perturb delta n e accepts pert_eqb Hfull Ha Hp Hex A [B; C] a [b; c] m0 [m1; m2] abc) as (r & Er & Mr); try assumption; try reflexivity; try discriminate.
  { repeat (constructor; [assumption|]). constructor. }
  { cbn [products]. now rewrite P1, P2. }
  destruct (matrix_product full perturb delta n e accepts pert_eqb Hfull Ha Hp Hex B [C] b [c] m1 [m2] bc) as (R' & ER & MR); try assumption; try reflexivity; try discriminate.
  { repeat (constructor; [assumption|]). constructor. }
  { cbn [products]. now rewrite P3. }
  unfold node in HR. rewrite ER in HR. assert (R' = R) by congruence. subst R'. clear ER.
  assert (DR : denotes full perturb delta n e R bc).
  { destruct MR as [MR|MR]; [exact MR|]. destruct Sh as [X|(x & ->)]; [destruct MR as (d & Y & _); contradiction|]. now apply zero_scalar. }
  destruct (matrix_product full perturb delta n e accepts pert_eqb Hfull Ha Hp Hex A [R] a [bc] m0 [m3] abc') as (r' & Er' & Mr'); try assumption; try reflexivity; try discriminate.
  { repeat (constructor; [assumption|]). constructor. }
  { cbn [products]. now rewrite P4. }
  exists r, r'. auto.
Qed.

(** ** What does not hold *)
Definition node {F} := @Mmul_Model.getResult cvells Qc F null_vells is_null is_unity mult mult_eq add_eq (fun _ _ _ => true) Qc_eq_bool.
Definition lone (v : cvells) (fl : option (vells Z)) : vdata cvells Qc := {| d_value := Some v; d_flags := fl; d_spids := []; d_psets := [] |}.
Definition real (x : Q) : cvells := {| c_cx := false; c_arr := scalar (Q2Qc x) |}.
Lemma lone_denotes F (x : Q) fl : (forall f, fl = Some f -> usable (v_shape f) (v_data f) /\ subshape (v_shape f) [1%Z]) ->
  tells_of [1%Z] (fun (u : unit) _ _ => u) (fun _ _ => 0%Qc) 0 tt (lone (real x) fl) (fun _ _ => (Q2Qc x, 0%Qc)) /\ flags_go [1%Z] (lone (real x) fl) /\
  denotes [1%Z] (fun (u : unit) _ _ => u) (fun _ _ => 0%Qc) 0 tt {| r_dims := []; r_vs := [VData (lone (real x) fl) : vset cvells Qc F] |} (Scalar (fun _ _ => (Q2Qc x, 0%Qc))).
Proof.
  intro Hf. assert (T : tells_of [1%Z] (fun (u : unit) _ _ => u) (fun _ _ => 0%Qc) 0 tt (lone (real x) fl) (fun _ _ => (Q2Qc x, 0%Qc))).
  { exists (fun _ => Some (real x)). split; [|intros e' _; apply stands_scalar; cbn; lia]. split; [reflexivity|]. split; [constructor|]. split; [constructor|]. split; [cbn; lia|]. split; [contradiction|]. split; [intros [|k] ps X; discriminate|reflexivity]. }
  split; [exact T|]. split; [exact Hf|]. split; [reflexivity|]. split; [reflexivity|]. intros i k [-> ->]. eexists. split; [reflexivity|]. split; [exact T|exact Hf].
Qed.
Lemma no_flags : forall f : vells Z, None = Some f -> usable (v_shape f) (v_data f) /\ subshape (v_shape f) [1%Z].
Proof. discriminate. Qed.
Definition two_vector {F} : result cvells Qc F := {| r_dims := [2]; r_vs := [VData (lone (real 1) None); VData (lone (real 1) None)] |}.
Lemma two_denotes F : denotes [1%Z] (fun (u : unit) _ _ => u) (fun _ _ => 0%Qc) 0 tt (two_vector (F := F)) (Matrix 2 1 (fun _ _ _ _ => (Q2Qc 1, 0%Qc))).
Proof.
  split; [cbn; repeat split; try lia; now right|]. split; [reflexivity|]. intros i k [Hi Hk]. destruct (lone_denotes F 1 None no_flags) as (T & G & _).
  exists (lone (real 1) None). split; [|split; [exact T|exact G]]. destruct i as [|[|i]]; [| |lia]; destruct k as [|k]; try lia; reflexivity.
Qed.
(** The dimensions of the product depend on values: a null scalar times a vector is a scalar. *)
Theorem product_dims_refuted : ~ forall F E full perturb delta n (e : E) (a b : result cvells Qc F) t u w r code, denotes full perturb delta n e a t -> denotes full perturb delta n e b u ->
  product t u = Some w -> node [VellsFullFlagMask; VellsFullFlagMask] [a; b] = Ok (r, code) -> has_dims w (r_dims r).
Proof.
  intro H. specialize (H unit unit [1%Z] (fun u _ _ => u) (fun _ _ => 0%Qc) 0 tt _ _ _ _ _ {| r_dims := []; r_vs := [VData (lone null_vells None)] |} 0%Z (proj2 (proj2 (lone_denotes unit 0 None no_flags))) (two_denotes unit) eq_refl).
  destruct H as (_ & _ & _ & [X|[_ X]]); [reflexivity|discriminate|discriminate].
Qed.
(** Matrices whose dimensions do not fit are not refused after a null scalar. *)
Theorem mismatch_refused_refuted : ~ forall F (c a b : result cvells Qc F) p q q' r masks, r_dims a = [p; q] -> r_dims b = [q'; r] -> length (r_vs a) = p * q -> length (r_vs b) = q' * r -> q <> q' -> length masks = 3 ->
  node masks [c; a; b] = Err.
Proof.
  intro H. pose (v := VData (lone (real 1) None) : vset cvells Qc unit).
  specialize (H unit {| r_dims := []; r_vs := [VData (lone null_vells None)] |} {| r_dims := [2; 2]; r_vs := [v; v; v; v] |} {| r_dims := [3; 1]; r_vs := [v; v; v] |} 2 2 3 1 [1%Z; 1%Z; 1%Z] eq_refl eq_refl eq_refl eq_refl ltac:(lia) eq_refl). discriminate H.
Qed.
(** Fails disappear when multiplied by a null scalar. *)
Theorem fails_kept_refuted : ~ forall F (s t r : result cvells Qc F) d l code, r_dims s = [] -> r_vs s = [VData d] -> In (VFail l) (r_vs t) -> node [VellsFullFlagMask; VellsFullFlagMask] [s; t] = Ok (r, code) -> exists l', In (VFail l') (r_vs r).
Proof.
  intro H. destruct (H unit {| r_dims := []; r_vs := [VData (lone (real 0) None)] |} {| r_dims := [2]; r_vs := [VFail [tt]; VFail [tt]] |} {| r_dims := []; r_vs := [VData (lone null_vells None)] |} (lone (real 0) None) [tt] 0%Z) as (l' & [X|[]]);
    try reflexivity; [now left|discriminate X].
Qed.
(** Flags that a mask of 0 should take away stay when the other factor is a scalar 1. *)
Theorem masked_flags_refuted : ~ forall F (s t r : result cvells Qc F) ds dt code d f, r_dims s = [] -> r_vs s = [VData ds] -> d_flags ds = None -> d_value ds <> None -> r_dims t = [] -> r_vs t = [VData dt] ->
  node [VellsFullFlagMask; 0%Z] [s; t] = Ok (r, code) -> In (VData d) (r_vs r) -> d_flags d = Some f -> Forall (eq 0%Z) (v_data f).
Proof.
  intro H. pose (f := plain [1%Z] [1%Z]).
  specialize (H unit {| r_dims := []; r_vs := [VData (lone (real 1) None)] |} {| r_dims := []; r_vs := [VData (lone (real 3) (Some f))] |} {| r_dims := []; r_vs := [VData (lone (real 3) (Some f))] |} (lone (real 1) None) (lone (real 3) (Some f)) 0%Z
    (lone (real 3) (Some f)) f eq_refl eq_refl eq_refl ltac:(discriminate) eq_refl eq_refl eq_refl (or_introl eq_refl) eq_refl). inversion H. discriminate.
Qed.
(** A scalar times a Result without VellSets reads past its end. *)
Theorem empty_child_refuted : ~ forall F (s t : result cvells Qc F), r_dims s = [] -> length (r_vs s) = 1 -> r_dims t = [] -> r_vs t = [] -> node [VellsFullFlagMask; VellsFullFlagMask] [s; t] <> UB.
Proof. intro H. apply (H unit {| r_dims := []; r_vs := [VData (lone (real 2) None)] |} {| r_dims := []; r_vs := [] |}); reflexivity. Qed.

(** ** Examples *)
Definition show_v (v : cvells) := (c_cx v, v_shape (c_arr v), map (fun z : cplx => (this (fst z), this (snd z))) (v_data (c_arr v))).
Definition show_r {F} (x : res (result cvells Qc F * Z)) :=
  match x with
  | Ok (r, code) => Some (r_dims r, map (fun vs => match vs with
                                                   | VData d => inl (option_map show_v (d_value d), option_map (fun f => v_data f) (d_flags d), d_spids d, map (fun ps => (map this (ps_pert ps), map show_v (ps_val ps))) (d_psets d))
                                                   | VFail l => inr l
                                                   end) (r_vs r), code)
  | _ => None
  end.
(** [[1 2] [3 i]] times (p, 1) with parameter p (number 5), 10 now and 11 when perturbed; flags of 3 and of p *)
Definition ex_i : cvells := {| c_cx := true; c_arr := plain [1%Z] [(0%Qc, 1%Qc)] |}.
Definition ex_p : vdata cvells Qc := {| d_value := Some (real 10); d_flags := Some (plain [1%Z] [4%Z]); d_spids := [5%Z]; d_psets := [{| ps_pert := [Q2Qc 1]; ps_val := [real 11] |}] |}.
Definition ex_m : result cvells Qc unit :=
  {| r_dims := [2; 2]; r_vs := [VData (lone (real 1) None); VData (lone (real 2) None); VData (lone (real 3) (Some (plain [1%Z] [3%Z]))); VData (lone ex_i None)] |}.
Definition ex_x : result cvells Qc unit := {| r_dims := [2]; r_vs := [VData ex_p; VData (lone (real 1) None)] |}.
Example ex_product : show_r (node [2%Z; VellsFullFlagMask] [ex_m; ex_x]) =
  Some ([2%nat], [inl (Some (false, [1%Z], [(12, 0)]), Some [4%Z], [5%Z], [([1], [(false, [1%Z], [(13, 0)])])]);
              inl (Some (true, [1%Z], [(30, 1)]), Some [6%Z], [5%Z], [([1], [(true, [1%Z], [(33, 1)])])])], 0%Z)%Q.
Proof. vm_compute. reflexivity. Qed.
(** 2 times that; and a fail in one element *)
Example ex_scalar : show_r (node [VellsFullFlagMask; VellsFullFlagMask] [{| r_dims := []; r_vs := [VData (lone (real 2) None)] |}; ex_x]) =
  Some ([2%nat], [inl (Some (false, [1%Z], [(20, 0)]), Some [4%Z], [5%Z], [([1], [(false, [1%Z], [(22, 0)])])]); inl (Some (false, [1%Z], [(2, 0)]), None, [], [])], 0%Z)%Q.
Proof. vm_compute. reflexivity. Qed.
Example ex_fail : show_r (node [VellsFullFlagMask; VellsFullFlagMask] [{| r_dims := [2; 2]; r_vs := [VData (lone (real 1) None); VData (lone (real 2) None); VFail [7]; VData (lone (real 1) None)] |}; {| r_dims := [2]; r_vs := [VData ex_p; VData (lone (real 1) None)] |}]) =
  Some ([2%nat], [inl (Some (false, [1%Z], [(12, 0)]), Some [4%Z], [5%Z], [([1], [(false, [1%Z], [(13, 0)])])]); inr [7%nat]], 0%Z)%Q.
Proof. vm_compute. reflexivity. Qed.
(** the hypotheses of the theorems can be met *)
Example ex_denotes : exists r, node (F := unit) [VellsFullFlagMask; VellsFullFlagMask] [{| r_dims := []; r_vs := [VData (lone (real 3) None)] |}; two_vector] = Ok (r, 0%Z) /\
  denotes [1%Z] (fun (u : unit) _ _ => u) (fun _ _ => 0%Qc) 0 tt r (Matrix 2 1 (fun _ _ _ _ => timesC (Q2Qc 1, 0%Qc) (Q2Qc 3, 0%Qc))).
Proof.
  destruct (matrix_product (F := unit) [1%Z] (fun (u : unit) _ _ => u) (fun _ _ => 0%Qc) 0 tt (fun _ _ _ => true) Qc_eq_bool ltac:(cbn; lia) ltac:(reflexivity) ltac:(intro p; unfold Qc_eq_bool; now destruct (Qc_eq_dec p p))
    ltac:(exists [0%Z]; repeat constructor; lia) _ [two_vector] _ [_] VellsFullFlagMask [VellsFullFlagMask] _ (proj2 (proj2 (lone_denotes unit 3 None no_flags))) (Forall2_cons _ _ (two_denotes unit) (Forall2_nil _)) eq_refl ltac:(discriminate) eq_refl) as (r & Er & [D|(d & _ & _ & _ & _ & _ & _ & Z0)]).
  - exists r. split; [exact Er|exact D].
  - specialize (Z0 0 0 ltac:(split; lia) tt [0%Z] (or_introl eq_refl) ltac:(repeat constructor; lia)). apply (f_equal (fun z : cplx => this (fst z))) in Z0. discriminate Z0.
Qed.
Print Assumptions matrix_product.
Print Assumptions matrix_pair.
Print Assumptions scalar_flags.
Print Assumptions product_grouping.
Print Assumptions matrix_grouping.
Print Assumptions product_dims_refuted.
Print Assumptions mismatch_refused_refuted.
Print Assumptions fails_kept_refuted.
Print Assumptions masked_flags_refuted.
Print Assumptions empty_child_refuted.
