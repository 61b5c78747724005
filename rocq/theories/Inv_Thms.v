(** Theorems about MatrixInvert22. *)
From Coq Require Import QArith Qcanon Sorted.
From Verif Require Import Base Poll_Model Vel_Model Vel_Spec Vel_Proofs Vel_Arith Vel_Sums Vel_Thms Fun_Model Fun_Spec Fun_Proofs Fun_Flags Fun_Pert.
From Verif Require Import Ceq_Model Ceq_Spec Ceq_Proofs Mmul_Model Mmul_Spec Mmul_Proofs Mmul_Step Mmul_Thms Inv_Model Inv_Spec Inv_Proofs.
Close Scope Q_scope. Close Scope Qc_scope. Local Open Scope nat_scope.
Set Default Proof Using "Type".

Section Thms.
Context {F E : Type}.
Variable full : list Z.
Variable perturb : E -> Z -> Qc -> E.
Variable delta : nat -> Z -> Qc.
Variable n : nat.
Variable e : E.
Variable accepts : option (vells Z) -> list cvells -> cvells -> bool.
Variable pert_eqb : Qc -> Qc -> bool.
Hypothesis Hfull : 1 <= length full.
Hypothesis Ha : forall f l v, accepts f l v = true.
Hypothesis Hp : forall p, pert_eqb p p = true.
Notation result := (result cvells Qc F).
Notation vset := (vset cvells Qc F).
Notation vdata := (vdata cvells Qc).
Notation stands := (Ceq_Spec.stands full).
Notation seen := (Mmul_Spec.seen perturb delta n e).
Notation tells := (@Fun_Spec.tells cvells Qc E perturb delta n e).
Notation tells_of := (Mmul_Spec.tells_of full perturb delta n e).
Notation flags_go := (Mmul_Spec.flags_go full).
Notation denotes := (@Mmul_Spec.denotes F E full perturb delta n e).
Notation denotes_or_fails := (@Mmul_Spec.denotes_or_fails F E full perturb delta n e).
Notation getResult := (@Inv_Model.getResult F accepts pert_eqb).
Notation mask_of masks := (match masks with [m] => m | _ => VellsFullFlagMask end).
(** bit [b] of the flags of [d] at a cell *)
Definition flagged (d : vdata) (idx : list Z) (b : Z) : Prop := Z.testbit (flags_at (d_flags d) idx) b = true.

Lemma gather_data m : forall (ds : list vdata) vs fl, Forall (fun d => fok full (d_flags d)) ds -> fok full fl ->
  exists fl', @gather F m (map VData ds) [] vs fl = Ok ([], vs ++ ds, fl') /\ fok full fl' /\
    forall idx b, inside full idx -> (0 <= b)%Z ->
      (Z.testbit (flags_at fl' idx) b = true <-> Z.testbit (flags_at fl idx) b = true \/ exists d, In d ds /\ flagged d idx b /\ Z.testbit m b = true).
Proof.
  induction ds as [|d ds IH]; intros vs fl H Hf.
  - exists fl. cbn [map gather]. rewrite app_nil_r. split; [reflexivity|]. split; [exact Hf|]. intros idx b _ _. split; [now left|]. intros [X|(d & [] & _)]. exact X.
  - inversion H as [|? ? Hd Hds]; subst. cbn [map gather fails_of app].
    destruct (merge_from_ok full d m fl Hd Hf) as (f1 & -> & G1 & A1). cbn [bind].
    destruct (IH (vs ++ [d]) f1 Hds G1) as (fl' & -> & G & A). exists fl'. rewrite <- app_assoc. split; [reflexivity|]. split; [exact G|].
    intros idx b Hi Hb. rewrite (A idx b Hi Hb), (A1 idx Hi), Z.lor_spec, Z.land_spec, orb_true_iff, andb_true_iff. unfold flagged. split.
    + intros [[X|X]|(d' & I & X)]; [now left|right; exists d; split; [now left|exact X]|right; exists d'; split; [now right|exact X]].
    + intros [X|(d' & [<-|I] & X)]; [now left; left|left; right; exact X|right; exists d'; auto].
Qed.
Lemma four {A} (l : list A) : length l = 4 -> exists a b c d, l = [a; b; c; d].
Proof. destruct l as [|a [|b [|c [|d [|? l]]]]]; try discriminate. intros _. now exists a, b, c, d. Qed.

(** ** The inverse of a 2x2 matrix: for the current values of the parameters and for every perturbed one, wherever the
    matrix of the child has an inverse the Result has that inverse.  The flags of every element are those of all
    elements of the child, masked. *)
Theorem invert_denotes c m masks : denotes c (Matrix 2 2 m) -> r_dims c = [2; 2] -> length masks <= 1 ->
  exists r w, getResult masks [c] = Ok (r, 0%Z) /\ r_dims r = [2; 2] /\ denotes r (Matrix 2 2 w) /\
    (forall e' idx, seen e' -> inside full idx -> ~ singular (fun i k => m i k e' idx) -> inverse_of (fun i k => m i k e' idx) (fun i k => w i k e' idx)) /\
    (forall i k d, has_data r (Matrix 2 2 w) i k d -> i < 2 -> k < 2 -> forall idx b, inside full idx -> (0 <= b)%Z ->
       (flagged d idx b <-> exists i' k' d', i' < 2 /\ k' < 2 /\ has_data c (Matrix 2 2 m) i' k' d' /\ flagged d' idx b /\ Z.testbit (mask_of masks) b = true)).
Proof using Hfull Ha Hp.
  intros (_ & L & D) Ed Lm. cbn [planes Nat.mul Nat.add] in L. destruct (four _ L) as (v0 & v1 & v2 & v3 & El).
  assert (X : forall i k, i < 2 -> k < 2 -> exists d, nth_error [v0; v1; v2; v3] (i * 2 + k) = Some (VData d) /\ tells_of d (m i k) /\ flags_go d).
  { intros i k Hi Hk. destruct (D i k (conj Hi Hk)) as (d & Y). rewrite El in Y. eauto. }
  destruct (X 0 0 ltac:(lia) ltac:(lia)) as (d0 & Y0 & (f0 & T0 & R0) & G0). destruct (X 0 1 ltac:(lia) ltac:(lia)) as (d1 & Y1 & (f1 & T1 & R1) & G1).
  destruct (X 1 0 ltac:(lia) ltac:(lia)) as (d2 & Y2 & (f2 & T2 & R2) & G2). destruct (X 1 1 ltac:(lia) ltac:(lia)) as (d3 & Y3 & (f3 & T3 & R3) & G3).
  cbn [Nat.mul Nat.add nth_error] in Y0, Y1, Y2, Y3. injection Y0 as ->. injection Y1 as ->. injection Y2 as ->. injection Y3 as ->. clear X.
  set (ds := [d0; d1; d2; d3]). set (fs := [f0; f1; f2; f3]).
  assert (Fall : Forall (fun d => fok full (d_flags d)) ds) by (repeat (constructor; [now apply fok_go|]); constructor).
  assert (T : Forall2 tells ds fs) by (repeat (constructor; [assumption|]); constructor).
  destruct (gather_data (mask_of masks) ds [] None Fall Logic.I) as (fl & Eg & Gf & Af). cbn [app] in Eg.
  set (w := fun i k e' idx => inverse (fun i k => m i k e' idx) i k).
  assert (V : forall i k, i < 2 -> k < 2 -> forall e', seen e' -> exists v, inverse_element (i * 2 + k) (map (fun f => f e') fs) = Ok v /\ stands v (w i k e')).
  { intros i k Hi Hk e' He. set (o := fun j : nat => match j with 0 => f0 e' | 1 => f1 e' | 2 => f2 e' | _ => f3 e' end).
    change (map (fun f => f e') fs) with [o 0; o 1; o 2; o 3].
    apply (element_ok full Hfull o (fun i k => m i k e') i k Hi Hk).
    intros i' k' Hi' Hk'. destruct i' as [|[|i']]; [| |lia]; destruct k' as [|[|k']]; try lia; cbn [Nat.mul Nat.add o].
    - exact (R0 e' He).
    - exact (R1 e' He).
    - exact (R2 e' He).
    - exact (R3 e' He). }
  assert (C : forall i k, i < 2 -> k < 2 -> exists d, Mmul_Model.compute accepts pert_eqb (inverse_element (i * 2 + k)) ds fl = Ok d /\ tells_of d (w i k) /\ flags_go d /\ d_flags d = fl).
  { intros i k Hi Hk. destruct (compute_total perturb delta n e accepts pert_eqb Ha Hp (inverse_element (i * 2 + k)) ds fs fl T) as (d & E1 & Td & _ & Fd).
    - intros e' He. destruct (V i k Hi Hk e' He) as (v & Ev & _). eauto.
    - exists d. split; [exact E1|]. split; [|split; [now rewrite fok_go, Fd|exact Fd]]. exists (made (inverse_element (i * 2 + k)) fs). split; [exact Td|].
      intros e' He. unfold made. destruct (V i k Hi Hk e' He) as (v & -> & Sv). exact Sv. }
  destruct (C 0 0 ltac:(lia) ltac:(lia)) as (u0 & C0 & U0 & V0 & W0). destruct (C 0 1 ltac:(lia) ltac:(lia)) as (u1 & C1 & U1 & V1 & W1).
  destruct (C 1 0 ltac:(lia) ltac:(lia)) as (u2 & C2 & U2 & V2 & W2). destruct (C 1 1 ltac:(lia) ltac:(lia)) as (u3 & C3 & U3 & V3 & W3).
  cbn [Nat.mul Nat.add] in C0, C1, C2, C3.
  exists {| r_dims := [2; 2]; r_vs := [VData u0; VData u1; VData u2; VData u3] |}, w. split; [|split; [|split; [|split]]].
  - unfold Inv_Model.getResult.
    assert (Em : (match masks with [] => Ok VellsFullFlagMask | [m] => Ok m | _ => Err end) = Ok (mask_of masks)) by (destruct masks as [|? [|? ?]]; [reflexivity|reflexivity|cbn in Lm; lia]).
    rewrite Em. cbn [bind]. rewrite Ed. unfold invert_matrix. rewrite El. cbn [length Nat.eqb negb].
    change [VData d0; VData d1; VData d2; VData d3] with (map (@VData cvells Qc F) ds). rewrite Eg. cbn [bind]. unfold addFails. cbn [rev].
    cbn [each]. rewrite C0, C1, C2, C3. cbn [bind]. now rewrite Ed.
  - reflexivity.
  - split; [|split; [reflexivity|]].
    + cbn. repeat (split; [lia|]). now left.
    + cbn [in_range]. intros i k [Hi Hk]. destruct i as [|[|i]]; [| |lia]; destruct k as [|[|k]]; try lia; cbn [offset Nat.mul Nat.add r_vs nth_error entry]; eauto.
  - intros e' idx He Hi Ns. unfold w. apply (inverse_ok _ Ns).
  - intros i k d H Hi Hk idx b Hidx Hb.
    assert (Fd : d_flags d = fl).
    { unfold has_data in H. destruct i as [|[|i]]; [| |lia]; destruct k as [|[|k]]; try lia; cbn [offset Nat.mul Nat.add r_vs nth_error] in H; injection H as <-; assumption. }
    unfold flagged at 1. rewrite Fd, (Af idx b Hidx Hb). cbn [flags_at]. rewrite Z.testbit_0_l. unfold has_data. cbn [offset]. rewrite El. split.
    + intros [X|(d' & I & Y)]; [discriminate|]. destruct I as [<-|[<-|[<-|[<-|[]]]]].
      * exists 0, 0, d0. repeat (split; [lia|]). now split.
      * exists 0, 1, d1. repeat (split; [lia|]). now split.
      * exists 1, 0, d2. repeat (split; [lia|]). now split.
      * exists 1, 1, d3. repeat (split; [lia|]). now split.
    + intros (i' & k' & d' & Hi' & Hk' & N & Y). right. exists d'. split; [|exact Y].
      destruct i' as [|[|i']]; [| |lia]; destruct k' as [|[|k']]; try lia; cbn [Nat.mul Nat.add nth_error] in N; injection N as <-; cbn; tauto.
Qed.

(** ** The inverse of a scalar; its flags stay as they are, whatever the mask. *)
Lemma each_recip (g : E -> option cvells) (x : E -> list Z -> cplx) : (forall e', seen e' -> match g e' with Some v => stands v (x e') | None => True end) ->
  forall (es : list E) vs, Forall seen es -> map Some vs = map g es ->
  exists ws, each recip vs = Ok ws /\ map Some ws = map (fun e' => match g e' with Some v => match recip v with Ok w => Some w | _ => None end | None => None end) es.
Proof using Hfull.
  intros R. induction es as [|e' es IH]; intros [|v vs] S M; try discriminate.
  - exists []. now split.
  - inversion S as [|? ? S1 S2]; subst. cbn [map] in M. injection M as M1 M2. destruct (IH vs S2 M2) as (ws & E1 & E2).
    specialize (R e' S1). rewrite <- M1 in R. destruct (recip_ok full Hfull v (x e') R) as (w & Ew & _).
    exists (w :: ws). cbn [each map]. rewrite Ew, E1. cbn [bind]. split; [reflexivity|]. rewrite E2, <- M1, Ew. reflexivity.
Qed.
Theorem invert_scalar_denotes c x masks : denotes c (Scalar x) -> length masks <= 1 -> (exists idx, inside full idx /\ x e idx <> zeroC) ->
  exists r y, getResult masks [c] = Ok (r, 0%Z) /\ denotes r (Scalar y) /\
    (forall e' idx, seen e' -> inside full idx -> x e' idx <> zeroC -> timesC (x e' idx) (y e' idx) = oneC) /\
    (forall d d', has_data c (Scalar x) 0 0 d -> has_data r (Scalar y) 0 0 d' -> d_flags d' = d_flags d /\ d_spids d' = d_spids d).
Proof using Hfull.
  intros (Ed & L & D) Lm (idx0 & Hidx0 & Nz). cbn [planes has_dims] in L, Ed. destruct (D 0 0 ltac:(now split)) as (d & Y & (f & T & R) & G). cbn [offset entry] in Y, R.
  destruct (r_vs c) as [|v [|? ?]] eqn:El; try discriminate. cbn [nth_error] in Y. injection Y as ->.
  assert (He : seen e) by now left.
  pose proof T as (T1 & T2 & T3 & T4 & T5 & T6 & T7).
  destruct (f e) as [v|] eqn:Fe.
  2:{ exfalso. apply Nz. specialize (R e He). rewrite Fe in R. now apply R. }
  pose proof (R e He) as Rv. rewrite Fe in Rv. destruct (recip_ok full Hfull v (x e) Rv) as (v' & Ev & Sv).
  set (g := fun e' => match f e' with Some v => match recip v with Ok w => Some w | _ => None end | None => None end).
  assert (Rf : forall e', seen e' -> match f e' with Some v => stands v (x e') | None => True end).
  { intros e' S. specialize (R e' S). destruct (f e'); [exact R|exact Logic.I]. }
  assert (P : exists pss, each invert_pset (d_psets d) = Ok pss /\ length pss = length (d_psets d) /\
     forall k ps, nth_error pss k = Some ps -> ps_pert ps = map (delta k) (d_spids d) /\ map Some (ps_val ps) = map (fun s => g (perturb e s (delta k s))) (d_spids d)).
  { assert (One : forall k ps, nth_error (d_psets d) k = Some ps -> exists ps', invert_pset ps = Ok ps' /\ ps_pert ps' = map (delta k) (d_spids d) /\ map Some (ps_val ps') = map (fun s => g (perturb e s (delta k s))) (d_spids d)).
    { intros k ps Hk. destruct (T6 k ps Hk) as [P1 P2].
      assert (K : k < n) by (assert (k < length (d_psets d)) by (apply nth_error_Some; congruence); lia).
      destruct (each_recip f x Rf (map (fun s => perturb e s (delta k s)) (d_spids d)) (ps_val ps)) as (ws & E1 & E2).
      - apply Forall_forall. intros e' I. apply in_map_iff in I as (s & <- & _). right. now exists k, s.
      - now rewrite map_map.
      - rewrite map_map in E2. unfold invert_pset. rewrite E1. cbn [bind]. eexists. split; [reflexivity|]. cbn [ps_pert ps_val]. split; [exact P1|exact E2]. }
    destruct (each_ok invert_pset (d_psets d)) as (pss & Ep).
    { intros ps I. apply In_nth_error in I as (k & Hk). destruct (One k ps Hk) as (ps' & E1 & _). eauto. }
    exists pss. destruct (each_nth _ _ _ Ep) as [Ly Ny]. split; [exact Ep|]. split; [exact Ly|].
    intros k ps Hk. assert (K : k < length (d_psets d)) by (rewrite <- Ly; apply nth_error_Some; congruence).
    destruct (nth_error (d_psets d) k) as [ps0|] eqn:E0; [|apply nth_error_None in E0; lia].
    destruct (Ny k ps0 E0) as (y & Y1 & Y2). rewrite Hk in Y1. injection Y1 as <-.
    destruct (One k ps0 E0) as (ps' & E1 & E2). rewrite E1 in Y2. injection Y2 as <-. exact E2. }
  destruct P as (pss & Ep & Lp & Pp).
  set (d' := {| d_value := Some v'; d_flags := d_flags d; d_spids := d_spids d; d_psets := pss |} : vdata).
  assert (Ge : g e = Some v') by (unfold g; now rewrite Fe, Ev).
  exists {| r_dims := []; r_vs := [VData d'] |}, (fun e' idx => invC (x e' idx)). split; [|split; [|split]].
  - unfold Inv_Model.getResult.
    assert (Em : (match masks with [] => Ok VellsFullFlagMask | [m] => Ok m | _ => Err end) = Ok (mask_of masks)) by (destruct masks as [|? [|? ?]]; [reflexivity|reflexivity|cbn in Lm; lia]).
    rewrite Em. cbn [bind]. rewrite Ed, El. unfold invert_scalar. rewrite T1, Ev. cbn [bind]. rewrite Ep. reflexivity.
  - split; [reflexivity|]. split; [reflexivity|]. intros i k [-> ->]. exists d'. cbn [offset r_vs nth_error entry]. split; [reflexivity|]. split; [|exact G].
    exists g. split.
    + unfold Fun_Spec.tells. cbn [d_value d_spids d_psets d']. rewrite Ge. split; [reflexivity|]. split; [exact T2|]. split; [exact T3|]. split; [rewrite Lp; exact T4|].
      split; [intros N; split; [rewrite Lp; apply T5; exact N|discriminate]|]. split; [exact Pp|].
      intros k s Hk Hs. unfold g. rewrite (T7 k s Hk Hs). now rewrite Ev.
    + intros e' S. specialize (R e' S). unfold g. destruct (f e') as [u|] eqn:Fu.
      * destruct (recip_ok full Hfull u (x e') R) as (u' & -> & Su). exact Su.
      * intros idx Hi. rewrite (R idx Hi). unfold invC. apply cplx_ext; cbn; unfold Qcdiv; ring.
  - intros e' idx _ _ N. now apply inv_times.
  - intros d1 d2 H1 H2. unfold has_data in *. cbn [offset] in *. rewrite El in H1. cbn [nth_error r_vs] in H1, H2. injection H1 as <-. injection H2 as <-. split; reflexivity.
Qed.

(** ** A matrix times its inverse, by the two nodes, is the unit matrix. *)
Theorem invert_product c m masks m0 m1 : (exists idx, inside full idx) ->
  denotes c (Matrix 2 2 m) -> r_dims c = [2; 2] -> length masks <= 1 ->
  (forall e' idx, seen e' -> inside full idx -> ~ singular (fun i k => m i k e' idx)) ->
  exists r, getResult masks [c] = Ok (r, 0%Z) /\
    forall l, l = [c; r] \/ l = [r; c] ->
    exists p, Mmul_Model.getResult null_vells is_null is_unity mult mult_eq add_eq accepts pert_eqb [m0; m1] l = Ok (p, 0%Z) /\
      denotes p (Matrix 2 2 (fun i k _ _ => unit_element i k)).
Proof using Hfull Ha Hp.
  intros Hex Dc Ed Lm Ns. destruct (invert_denotes c m masks Dc Ed Lm) as (r & w & Er & Er2 & Dr & I & _). exists r. split; [exact Er|].
  assert (One : forall a b (ma mb : nat -> nat -> E -> list Z -> cplx), denotes a (Matrix 2 2 ma) -> denotes b (Matrix 2 2 mb) ->
    (forall e' idx i k, seen e' -> inside full idx -> i < 2 -> k < 2 -> rowcol (fun i k => ma i k e' idx) (fun i k => mb i k e' idx) i k = unit_element i k) ->
    exists p, Mmul_Model.getResult null_vells is_null is_unity mult mult_eq add_eq accepts pert_eqb [m0; m1] [a; b] = Ok (p, 0%Z) /\
      denotes p (Matrix 2 2 (fun i k _ _ => unit_element i k))).
  { intros a b ma mb Da Db U.
    destruct (matrix_product full perturb delta n e accepts pert_eqb Hfull Ha Hp Hex a [b] (Matrix 2 2 ma) [Matrix 2 2 mb] m0 [m1] _ Da (Forall2_cons _ _ Db (Forall2_nil _)) eq_refl ltac:(discriminate) eq_refl) as (p & Ep & Dp).
    exists p. split; [exact Ep|].
    assert (Same : forall i k e' idx, seen e' -> inside full idx -> i < 2 -> k < 2 -> sumC 2 (fun j => timesC (ma i j e' idx) (mb j k e' idx)) = unit_element i k).
    { intros i k e' idx He Hi Hi2 Hk2. rewrite <- (U e' idx i k He Hi Hi2 Hk2). cbn [sumC]. now rewrite plus_0_l. }
    cbn [shrink] in Dp. destruct Dp as [(D1 & D2 & D3)|(d & _ & _ & _ & _ & _ & _ & Z0)].
    - split; [exact D1|]. split; [exact D2|]. intros i k H. destruct (D3 i k H) as (d & Y & Td & G). exists d. split; [exact Y|]. split; [|exact G].
      eapply tells_of_ext; [exact Td|]. intros e' idx He Hi. cbn [in_range] in H. destruct H as [H1 H2]. exact (Same i k e' idx He Hi H1 H2).
    - exfalso. destruct Hex as (idx & Hi). assert (He : seen e) by now left. specialize (Z0 0 0 ltac:(split; lia) e idx He Hi). cbn [entry] in Z0.
      rewrite (Same 0 0 e idx He Hi ltac:(lia) ltac:(lia)) in Z0. cbn [unit_element Nat.eqb] in Z0. apply (f_equal (fun z : cplx => this (fst z))) in Z0. discriminate Z0. }
  intros l [-> | ->].
  - apply (One c r m w Dc Dr). intros e' idx i k He Hi H1 H2. exact (proj1 (I e' idx He Hi (Ns e' idx He Hi) i k H1 H2)).
  - apply (One r c w m Dr Dc). intros e' idx i k He Hi H1 H2. exact (proj2 (I e' idx He Hi (Ns e' idx He Hi) i k H1 H2)).
Qed.
End Thms.

(** ** Fails and refusals *)
Section Fails.
Context {F : Type}.
Variable accepts : option (vells Z) -> list cvells -> cvells -> bool.
Variable pert_eqb : Qc -> Qc -> bool.
Notation result := (result cvells Qc F).
Notation getResult := (@Inv_Model.getResult F accepts pert_eqb).
Notation vset := (vset cvells Qc F).
(** every flag array fits the grid *)
Definition flags_fit (full : list Z) (v : vset) : Prop := match v with VFail l => l <> [] | VData d => Mmul_Spec.flags_go full d end.
Lemma gather_fails full m : forall (vss : list vset) fails vs fl, Forall (flags_fit full) vss -> fok full fl ->
  exists vs' fl', gather m vss fails vs fl = Ok (fails ++ flat_map (fun v => fails_of v) vss, vs', fl').
Proof.
  induction vss as [|v vss IH]; intros fails vs fl H Hf.
  - exists vs, fl. cbn. now rewrite app_nil_r.
  - inversion H as [|? ? H1 H2]; subst. cbn [gather flat_map]. rewrite app_assoc. set (fails' := fails ++ fails_of v).
    destruct fails' as [|x l] eqn:E1; [destruct v as [l|d]|].
    + destruct (IH [] vs fl H2 Hf) as (vs' & fl' & X). eauto.
    + cbn [flags_fit] in H1. rewrite fok_go in H1. destruct (merge_from_ok full d m fl H1 Hf) as (f1 & -> & G1 & _). cbn [bind].
      destruct (IH [] (vs ++ [d]) f1 H2 G1) as (vs' & fl' & X). eauto.
    + destruct (IH (x :: l) vs fl H2 Hf) as (vs' & fl' & X). eauto.
Qed.
(** A failed element makes the whole Result a fail, with one of the records.  Nothing but scalars and 2x2 matrices is inverted. *)
Theorem invert_fails full masks (c : result) : length masks <= 1 -> Forall (flags_fit full) (r_vs c) ->
  (r_dims c = [2; 2] -> length (r_vs c) = 4 -> (exists l, In (VFail l) (r_vs c)) ->
     exists x l, getResult masks [c] = Ok ({| r_dims := []; r_vs := [VFail [x]] |}, RES_FAIL) /\ In (VFail l) (r_vs c) /\ In x l) /\
  (forall l, r_dims c = [] -> r_vs c = [VFail l] -> getResult masks [c] = Ok ({| r_dims := []; r_vs := [VFail l] |}, RES_FAIL)) /\
  (r_dims c <> [] -> r_dims c <> [2; 2] -> getResult masks [c] = Err) /\
  (forall l, length l <> 1 -> getResult masks l = Err).
Proof.
  intros Lm H. assert (Em : exists m, (match masks with [] => Ok VellsFullFlagMask | [m] => Ok m | _ => Err end) = Ok m) by (destruct masks as [|? [|? ?]]; [eauto|eauto|cbn in Lm; lia]).
  destruct Em as (m & Em). unfold Inv_Model.getResult. rewrite Em. cbn [bind]. split; [|split; [|split]].
  - intros Ed L (l & I). rewrite Ed. unfold invert_matrix. rewrite L. cbn [Nat.eqb negb].
    destruct (gather_fails full m (r_vs c) [] [] None H Logic.I) as (vs' & fl' & ->). cbn [bind app].
    assert (N : flat_map (fun v : vset => fails_of v) (r_vs c) <> []).
    { pose proof (proj1 (Forall_forall _ _) H _ I) as Q. cbn in Q. destruct l as [|x l]; [contradiction|]. intros X.
      assert (Y : In x (flat_map (fun v : vset => fails_of v) (r_vs c))) by (apply in_flat_map; exists (VFail (x :: l)); split; [exact I|now left]). rewrite X in Y. destruct Y. }
    destruct (exists_last N) as (l' & x & El). unfold addFails. rewrite El, rev_unit.
    assert (Y : In x (flat_map (fun v : vset => fails_of v) (r_vs c))) by (rewrite El; apply in_or_app; right; now left).
    apply in_flat_map in Y as (v & Iv & Ix). destruct v as [lv|d]; [|destruct Ix]. exists x, lv. split; [reflexivity|]. now split.
  - intros l -> ->. reflexivity.
  - intros N1 N2. destruct (r_dims c) as [|[|[|[|a]]] [|[|[|[|b]]] [|q dims]]]; try reflexivity; [now destruct N1|now destruct N2].
  - intros l Nl. destruct l as [|a [|b l]]; [reflexivity|now destruct Nl|reflexivity].
Qed.
End Fails.

Notation inode := (fun F => @Inv_Model.getResult F (fun _ _ _ => true) Qc_eq_bool).
(** A mask takes flags away from a matrix, but not from a scalar. *)
Theorem invert_mask_refuted : ~ forall (c r : result cvells Qc unit) d f code, inode unit [0%Z] [c] = Ok (r, code) -> In (VData d) (r_vs r) -> d_flags d = Some f -> Forall (eq 0%Z) (v_data f).
Proof.
  intros H. pose (f := plain [1%Z] [1%Z]).
  specialize (H {| r_dims := []; r_vs := [VData (lone (real 3) (Some f))] |}).
  assert (X : exists r d, inode unit [0%Z] [{| r_dims := []; r_vs := [VData (lone (real 3) (Some f))] |}] = Ok (r, 0%Z) /\ In (VData d) (r_vs r) /\ d_flags d = Some f).
  { eexists. eexists. split; [reflexivity|]. split; [now left|reflexivity]. }
  destruct X as (r & d & X1 & X2 & X3). specialize (H r d f 0%Z X1 X2 X3). inversion H. discriminate.
Qed.
(** Of several fails only one is kept. *)
Theorem invert_fails_kept_refuted : ~ forall (c r : result cvells Qc nat) code x l, In (VFail l) (r_vs c) -> In x l -> r_dims c = [2; 2] -> length (r_vs c) = 4 ->
  inode nat [] [c] = Ok (r, code) -> exists l', In (VFail l') (r_vs r) /\ In x l'.
Proof.
  intros H. destruct (H {| r_dims := [2; 2]; r_vs := [VFail [1]; VFail [2]; VData (lone (real 1) None); VData (lone (real 1) None)] |} {| r_dims := []; r_vs := [VFail [2]] |} RES_FAIL 1 [1] (or_introl eq_refl) (or_introl eq_refl) eq_refl eq_refl eq_refl) as (l' & [X|[]] & Y).
  injection X as <-. destruct Y as [Y|[]]. discriminate.
Qed.

(** [[p 2] [3 i]] with parameter p (number 5), 10 now and 11 when perturbed, flags of p and of 3 *)
Example invert_ex : show_r (inode unit [6%Z] [{| r_dims := [2; 2]; r_vs := [VData ex_p; VData (lone (real 2) None); VData (lone (real 3) (Some (plain [1%Z] [3%Z]))); VData (lone (real 1) None)] |}]) =
  Some ([2; 2]%nat, let out a b := inl (Some (false, [1%Z], [(a, 0)]), Some [6%Z], [5%Z], [([1], [(false, [1%Z], [(b, 0)])])]) in
     [out (1#4) (1#5); out (-1#2) (-2#5); out (-3#4) (-3#5); out (5#2) (11#5)], 0%Z)%Q.
Proof. vm_compute. reflexivity. Qed.
(** 1/i, and a vector that is refused *)
Example invert_scalar_ex : show_r (inode unit [] [{| r_dims := []; r_vs := [VData (lone ex_i None)] |}]) = Some ([], [inl (Some (true, [1%Z], [(0, -1)]), None, [], [])], 0%Z)%Q /\
  inode unit [] [ex_x] = Err.
Proof. split; [vm_compute; reflexivity|reflexivity]. Qed.

Print Assumptions invert_denotes.
Print Assumptions invert_scalar_denotes.
Print Assumptions invert_product.
Print Assumptions invert_fails.
Print Assumptions invert_mask_refuted.
Print Assumptions invert_fails_kept_refuted.
