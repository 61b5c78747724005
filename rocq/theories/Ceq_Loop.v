(** Proofs about Condeq: derivatives, the VellSet of a plane. *)
From Coq Require Import QArith Qcanon Sorted.
From Verif Require Import Base Vel_Model Vel_Spec Vel_Proofs Vel_Arith Vel_Sums Vel_Thms Fun_Model Fun_Spec Fun_Proofs Fun_Flags Ceq_Model Ceq_Spec Ceq_Proofs.
Close Scope Q_scope. Local Open Scope Qc_scope. Local Open Scope nat_scope.

Definition oppC (z : cplx) : cplx := minusC c0 z.
Lemma cplx_eq (a b c d : Qc) : a = c -> b = d -> (a, b) = (c, d).
Proof. now intros -> ->. Qed.
Ltac cring := unfold oppC, minusC, plusC, timesR, c0; cbn [fst snd]; apply cplx_eq; ring.
Lemma wrap_opp m z : wrap m (oppC z) = oppC (wrap m z).
Proof.
  destruct m as [m|]; [|reflexivity]. unfold wrap, oppC, minusC, c0. cbn [fst snd]. replace (0 - fst z)%Qc with (- fst z)%Qc by ring.
  rewrite remainder_opp. apply cplx_eq; ring.
Qed.
Lemma wrap_0 m : wrap m c0 = c0.
Proof. destruct m as [m|]; [|reflexivity]. unfold wrap, c0. cbn [fst]. now rewrite remainder_0. Qed.

Section Loop.
Context {E : Type}.
Variable full : list Z.
Hypothesis Hfull : (1 <= length full)%nat.
Variable perturb : E -> Z -> Qc -> E.
Variable delta : nat -> Z -> Qc.
Variable n : nat.
Hypothesis Hn : n = 1 \/ n = 2.
Variable e : E.
Variable fits : list (list Z) -> list Z -> bool.
Hypothesis Hfits : forall have s, Forall (fun h => subshape h full) have -> subshape s full -> fits have s = true.
Variable modulo : option Qc.
Notation vdata := (vdata cvells Qc).
Notation stands := (stands full).
Notation tells := (tells perturb delta n e).
Notation stp := (step delta n).
(** a function of the parameters that gives Vells, and the field it stands for *)
Definition reads (f : E -> option cvells) (X : E -> list Z -> cplx) : Prop :=
  forall e', exists v, f e' = Some v /\ stands v (X e') /\ (modulo = None \/ c_cx v = false).
Definition chg (X : E -> list Z -> cplx) (s : Z) (idx : list Z) : cplx := change perturb delta e n (fun e' => X e' idx) s.

Lemma stands_unique v x y idx : stands v x -> stands v y -> inside full idx -> x idx = y idx.
Proof. intros (_ & _ & A & _) (_ & _ & B & _) Hi. specialize (A idx Hi). rewrite (B idx Hi) in A. congruence. Qed.
Lemma calc_ok d f X i s neg : tells d f -> reads f X -> nth_error (d_spids d) i = Some s -> stp s <> 0%Qc ->
  exists x, calcDerivative modulo d i neg = Ok (x, stp s) /\ (modulo = None \/ c_cx x = false) /\
    stands x (fun idx => timesR (/ stp s)%Qc (wrap modulo (if neg then oppC (chg X s idx) else chg X s idx))).
Proof.
  intros (T1 & _ & _ & _ & T5 & T6 & _) R Hs Hp.
  assert (Ns : d_spids d <> []) by (intro X0; rewrite X0 in Hs; destruct i; discriminate).
  destruct (T5 Ns) as [Ln _].
  assert (PS : forall k ps, nth_error (d_psets d) k = Some ps -> nth_error (ps_pert ps) i = Some (delta k s) /\
    exists v, nth_error (ps_val ps) i = Some v /\ stands v (X (perturb e s (delta k s))) /\ (modulo = None \/ c_cx v = false)).
  { intros k ps Hk. destruct (T6 k ps Hk) as [P1 P2]. split; [rewrite P1, nth_error_map, Hs; reflexivity|].
    assert (Q : nth_error (map Some (ps_val ps)) i = Some (f (perturb e s (delta k s)))) by (rewrite P2, nth_error_map, Hs; reflexivity).
    destruct (R (perturb e s (delta k s))) as (v & Ev & Sv & Cv). rewrite Ev in Q. rewrite nth_error_map in Q. destruct (nth_error (ps_val ps) i) as [v'|]; [|discriminate].
    exists v. split; [cbn in Q; congruence|]. auto. }
  assert (G : forall a b xa xb p, stands a xa -> stands b xb -> (modulo = None \/ c_cx a = false) -> (modulo = None \/ c_cx b = false) -> p <> 0%Qc ->
    exists x, bind (bind (if neg then minus b a else minus a b) (fun x => Ok (x, p))) (fun '(x, p) => bind (wrapped modulo x) (fun x => bind (over_eq x p) (fun x => Ok (x, p)))) = Ok (x, p) /\
      (modulo = None \/ c_cx x = false) /\ stands x (fun idx => timesR (/ p)%Qc (wrap modulo (if neg then oppC (minusC (xa idx) (xb idx)) else minusC (xa idx) (xb idx))))).
  { intros a b xa xb p Sa Sb Ca Cb Np.
    assert (M : exists x, (if neg then minus b a else minus a b) = Ok x /\ c_cx x = c_cx a || c_cx b /\
       stands x (fun idx => if neg then oppC (minusC (xa idx) (xb idx)) else minusC (xa idx) (xb idx))).
    { destruct neg; [destruct (minus_ok full b a xb xa Sb Sa) as (x & E1 & E2 & E3)|destruct (minus_ok full a b xa xb Sa Sb) as (x & E1 & E2 & E3)];
        exists x; (split; [exact E1|]); (split; [rewrite E2; auto using orb_comm|]); [|exact E3].
      eapply stands_ext; [exact E3|]. intros idx _. cbn beta. cring. }
    destruct M as (x & -> & C1 & S1). cbn [bind].
    assert (Cx : modulo = None \/ c_cx x = false) by (destruct Ca as [Ca|Ca]; [now left|]; destruct Cb as [Cb|Cb]; [now left|]; right; now rewrite C1, Ca, Cb).
    destruct (wrapped_ok full Hfull modulo x _ Cx S1) as (y & -> & C2 & S2). cbn [bind].
    destruct (over_eq_ok full Hfull y p _ Np S2) as (z & -> & C3 & S3). cbn [bind].
    exists z. split; [reflexivity|]. split; [rewrite C3, C2; exact Cx|exact S3]. }
  destruct (R e) as (v & Ev & Sv & Cv). assert (Dv : d_value d = Some v) by congruence.
  unfold calcDerivative. destruct Hn as [Hn1|Hn2].
  - rewrite Hn1 in Ln. destruct (d_psets d) as [|ps [|? ?]] eqn:Ep; try discriminate.
    destruct (PS 0 ps eq_refl) as (P1 & pv & P2 & P3 & P4). rewrite P1, P2, Dv.
    unfold chg, change, stp. rewrite Hn1. apply G; auto. unfold stp in Hp. now rewrite Hn1 in Hp.
  - rewrite Hn2 in Ln. destruct (d_psets d) as [|ps0 [|ps1 [|? ?]]] eqn:Ep; try discriminate.
    destruct (PS 0 ps0 eq_refl) as (P1 & pv0 & P2 & P3 & P4). destruct (PS 1 ps1 eq_refl) as (Q1 & pv1 & Q2 & Q3 & Q4). rewrite P1, P2, Q1, Q2.
    unfold chg, change, stp. rewrite Hn2. apply G; auto. unfold stp in Hp. now rewrite Hn2 in Hp.
Qed.
Lemma chg_0 d f X s idx : tells d f -> reads f X -> ~ In s (d_spids d) -> inside full idx -> chg X s idx = c0.
Proof.
  intros (_ & _ & _ & _ & _ & _ & T7) R N Hi.
  assert (Q : forall k, (k < n)%nat -> X (perturb e s (delta k s)) idx = X e idx).
  { intros k Hk. destruct (R (perturb e s (delta k s))) as (v & Ev & Sv & _), (R e) as (w & Ew & Sw & _). rewrite (T7 k s Hk N), Ew in Ev. injection Ev as <-. now apply (stands_unique w). }
  unfold chg, change. destruct Hn as [Hn1|Hn2].
  - rewrite Hn1. rewrite (Q 0%nat) by lia. cring.
  - rewrite Hn2. rewrite (Q 0%nat), (Q 1%nat) by lia. cring.
Qed.

Variables l r : vdata.
Variables f0 f1 : E -> option cvells.
Variables X0 X1 : E -> list Z -> cplx.
Hypothesis T0 : tells l f0.
Hypothesis T1 : tells r f1.
Hypothesis R0 : reads f0 X0.
Hypothesis R1 : reads f1 X1.
Hypothesis Hstep : forall s, In s (d_spids l) \/ In s (d_spids r) -> stp s <> 0%Qc.
Definition slope (s : Z) (idx : list Z) : cplx := timesR (/ stp s)%Qc (minusC (wrap modulo (chg X0 s idx)) (wrap modulo (chg X1 s idx))).
Definition found (d : vdata) (s : Z) (inx : option nat) : Prop :=
  match inx with Some i => nth_error (d_spids d) i = Some s | None => ~ In s (d_spids d) end.
Lemma derivative_ok s inx0 inx1 : found l s inx0 -> found r s inx1 -> In s (d_spids l) \/ In s (d_spids r) ->
  exists x, derivative modulo l r inx0 inx1 = Ok (x, stp s) /\ (modulo = None \/ c_cx x = false) /\ stands x (slope s).
Proof.
  intros F0 F1 U. pose proof (Hstep s U) as Np. unfold slope, derivative. destruct inx1 as [i1|], inx0 as [i0|]; cbn [found] in *.
  - destruct (calc_ok r f1 X1 i1 s true T1 R1 F1 Np) as (x & Ex & Cx & Sx). destruct (calc_ok l f0 X0 i0 s true T0 R0 F0 Np) as (y & Ey & Cy & Sy).
    rewrite Ex. cbn [bind]. rewrite Ey. cbn [bind]. destruct (minus_eq_ok full x y _ _ Sx Sy) as (z & -> & Cz & Sz). cbn [bind]. exists z. split; [reflexivity|].
    split; [destruct Cx as [Cx|Cx]; [now left|]; destruct Cy as [Cy|Cy]; [now left|]; right; now rewrite Cz, Cx, Cy|].
    eapply stands_ext; [exact Sz|]. intros idx Hi. cbn beta. rewrite !wrap_opp. cring.
  - destruct (calc_ok r f1 X1 i1 s true T1 R1 F1 Np) as (x & Ex & Cx & Sx). exists x. split; [exact Ex|]. split; [exact Cx|].
    eapply stands_ext; [exact Sx|]. intros idx Hi. cbn beta. rewrite (chg_0 l f0 X0 s idx T0 R0 F0 Hi), wrap_0, wrap_opp. reflexivity.
  - destruct (calc_ok l f0 X0 i0 s false T0 R0 F0 Np) as (x & Ex & Cx & Sx). exists x. split; [exact Ex|]. split; [exact Cx|].
    eapply stands_ext; [exact Sx|]. intros idx Hi. cbn beta. rewrite (chg_0 r f1 X1 s idx T1 R1 F1 Hi), wrap_0. cring.
  - destruct U; contradiction.
Qed.

(** the indices follow the spids *)
Definition aligned (d : vdata) (i : nat) (rest : list Z) : Prop :=
  (forall x, In x (skipn i (d_spids d)) -> In x rest) /\ (forall x, In x rest -> In x (d_spids d) -> In x (skipn i (d_spids d))).
Lemma skipn_cons {A} (a : list A) i x : nth_error a i = Some x -> skipn i a = x :: skipn (S i) a.
Proof. revert i. induction a as [|y a IH]; intros [|i] H; try discriminate; [injection H as ->; reflexivity|]. cbn [nth_error] in H. cbn [skipn]. rewrite (IH i H). reflexivity. Qed.
Lemma skipn_inc (a : list Z) : forall i, increasing a -> increasing (skipn i a).
Proof. intros i. revert a. induction i as [|i IH]; intros a H; [exact H|]. destruct a as [|x a]; [exact H|]. cbn. apply IH. now inversion H. Qed.
Lemma aligned_step d i s rest : increasing (d_spids d) -> increasing (s :: rest) -> aligned d i (s :: rest) ->
  exists inx i', isDefined (d_spids d) s i = (inx, i') /\ found d s inx /\ aligned d i' rest.
Proof.
  intros Id Ir [A B]. assert (Lt : forall x, In x rest -> (s < x)%Z) by (inversion Ir as [|? ? _ Fr]; subst; now rewrite Forall_forall in Fr).
  pose proof (skipn_inc (d_spids d) i Id) as Is. unfold isDefined. destruct (nth_error (d_spids d) i) as [z|] eqn:Ez.
  - rewrite (skipn_cons _ _ _ Ez) in A, B, Is. assert (Ls : forall x, In x (skipn (S i) (d_spids d)) -> (z < x)%Z) by (inversion Is as [|? ? _ Fz]; subst; now rewrite Forall_forall in Fz).
    destruct (Z.eqb_spec s z) as [<-|N].
    + do 2 eexists. split; [reflexivity|]. split; [exact Ez|]. split.
      * intros x Hx. destruct (A x (or_intror Hx)) as [<-|Hr]; [|exact Hr]. specialize (Ls s Hx). lia.
      * intros x Hx Hd. destruct (B x (or_intror Hx) Hd) as [<-|Hr]; [|exact Hr]. specialize (Lt s Hx). lia.
    + assert (Hz : In z rest) by (destruct (A z (or_introl eq_refl)) as [X|X]; [congruence|exact X]).
      assert (Ns : ~ In s (d_spids d)).
      { intro X. destruct (B s (or_introl eq_refl) X) as [Y|Y]; [congruence|]. specialize (Ls s Y). specialize (Lt z Hz). lia. }
      do 2 eexists. split; [reflexivity|]. split; [exact Ns|]. split; rewrite (skipn_cons _ _ _ Ez).
      * intros x Hx. destruct (A x Hx) as [<-|Hr]; [|exact Hr]. exfalso. destruct Hx as [Y|Y]; [congruence|]. specialize (Ls s Y). specialize (Lt z Hz). lia.
      * intros x Hx Hd. apply B; [now right|exact Hd].
  - assert (En : skipn i (d_spids d) = []) by (apply nth_error_None in Ez; now apply skipn_all2). rewrite En in *.
    do 2 eexists. split; [reflexivity|]. split; [intro X; exact (B s (or_introl eq_refl) X)|]. split; rewrite En; [intros x []|]. intros x Hx Hd. exact (B x (or_intror Hx) Hd).
Qed.
Lemma increasing_spids : increasing (d_spids l) /\ increasing (d_spids r).
Proof. split; [apply T0|apply T1]. Qed.

Definition good_der (s : Z) (vp : cvells * Qc) : Prop := stands (fst vp) (slope s) /\ snd vp = stp s.
Lemma all_complex_ok : forall done sp, Forall (fun vp => c_cx (fst vp) = false) done -> Forall2 good_der sp done ->
  exists done', all_complex done = Ok done' /\ Forall (fun vp => c_cx (fst vp) = true) done' /\ Forall2 good_der sp done'.
Proof.
  induction done as [|[v p] done IH]; intros sp C G; inversion G as [|s ? sp' ? [G1 G2] G']; subst; [exists []; split; [reflexivity|split; [constructor|exact G]]|].
  inversion C as [|? ? C1 C2]; subst. cbn [fst snd] in *. cbn [all_complex]. destruct (tocomplex_ok full Hfull v _ C1 G1) as (w & -> & Cw & Sw). cbn [bind].
  destruct (IH sp' C2 G') as (done' & -> & D1 & D2). cbn [bind]. eexists. split; [reflexivity|]. split; [constructor; assumption|]. constructor; [|exact D2]. split; [exact Sw|exact G2].
Qed.
Lemma loop_ok XM : forall spids i0 i1 cx mainval main done have sp,
  increasing spids -> aligned l i0 spids -> aligned r i1 spids -> (forall s, In s spids -> In s (d_spids l) \/ In s (d_spids r)) ->
  stands mainval XM -> stands main XM -> c_cx main = cx -> (cx = false -> c_cx mainval = false) ->
  Forall (fun vp => c_cx (fst vp) = cx) done -> Forall2 good_der sp done -> Forall (fun h => subshape h full) have ->
  exists main' ders have' cx', spids_loop fits modulo l r spids i0 i1 cx mainval main done have = Ok (main', ders, have') /\
    stands main' XM /\ c_cx main' = cx' /\ Forall (fun vp => c_cx (fst vp) = cx') ders /\ Forall2 good_der (sp ++ spids) ders /\ Forall (fun h => subshape h full) have'.
Proof.
  induction spids as [|s spids IH]; intros i0 i1 cx mainval main done have sp Inc A0 A1 U SV SM Cm Cv Cd Gd Hh; cbn [spids_loop].
  - exists main, done, have, cx. rewrite app_nil_r. repeat split; auto; apply SM.
  - destruct increasing_spids as [Il Ir].
    destruct (aligned_step l i0 s spids Il Inc A0) as (inx0 & i0' & -> & F0 & A0'). destruct (aligned_step r i1 s spids Ir Inc A1) as (inx1 & i1' & -> & F1 & A1').
    destruct (derivative_ok s inx0 inx1 F0 F1 (U s (or_introl eq_refl))) as (x & -> & Cx & Sx). cbn [bind].
    assert (Inc' : increasing spids) by now inversion Inc. assert (U' : forall y, In y spids -> In y (d_spids l) \/ In y (d_spids r)) by (intros; apply U; now right).
    assert (Go : forall cx' x' main' done', c_cx x' = cx' -> c_cx main' = cx' -> stands x' (slope s) -> stands main' XM -> (cx' = false -> c_cx mainval = false) ->
      Forall (fun vp => c_cx (fst vp) = cx') done' -> Forall2 good_der sp done' ->
      exists main2 ders have2 cx2, checked fits have x' (spids_loop fits modulo l r spids i0' i1' cx' mainval main' (done' ++ [(x', stp s)]) (shape_of x' :: have)) = Ok (main2, ders, have2) /\
        stands main2 XM /\ c_cx main2 = cx2 /\ Forall (fun vp => c_cx (fst vp) = cx2) ders /\ Forall2 good_der (sp ++ s :: spids) ders /\ Forall (fun h => subshape h full) have2).
    { intros cx' x' main' done' H1 H2 H3 H4 H5 H6 H7. unfold checked. rewrite Hfits; [|exact Hh|apply H3].
      replace (sp ++ s :: spids) with ((sp ++ [s]) ++ spids) by (rewrite <- app_assoc; reflexivity).
      apply IH; auto.
      - apply Forall_app. split; [exact H6|]. constructor; [exact H1|constructor].
      - apply Forall2_app; [exact H7|]. constructor; [|constructor]. split; [exact H3|reflexivity].
      - constructor; [apply H3|exact Hh]. }
    destruct cx.
    + destruct (c_cx x) eqn:Ecx.
      * cbn [bind]. apply Go; auto.
      * destruct (tocomplex_ok full Hfull x _ Ecx Sx) as (y & -> & Cy & Sy). cbn [bind]. apply Go; auto.
    + destruct (c_cx x) eqn:Ecx.
      * destruct (tocomplex_ok full Hfull mainval _ (Cv eq_refl) SV) as (y & -> & Cy & Sy). cbn [bind].
        destruct (all_complex_ok done sp Cd Gd) as (done' & -> & D1 & D2). cbn [bind]. apply Go; auto.
      * apply Go; auto.
Qed.
End Loop.
