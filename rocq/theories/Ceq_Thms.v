(** Theorems about Condeq (MeqNodes/src/Condeq.cc). *)
From Coq Require Import QArith Qcanon Sorted.
From Verif Require Import Base Poll_Model Vel_Model Vel_Spec Vel_Proofs Vel_Arith Vel_Sums Vel_Thms Fun_Model Fun_Spec Fun_Proofs Fun_Flags Fun_Pert Fun_Node.
From Verif Require Import Ceq_Model Ceq_Spec Ceq_Proofs Ceq_Loop.
Close Scope Q_scope. Local Open Scope Qc_scope. Local Open Scope nat_scope.

Section Thms.
Context {F E : Type}.
Variable full : list Z.
Variable perturb : E -> Z -> Qc -> E.
Variable delta : nat -> Z -> Qc.
Variable n : nat.
Variable e : E.
Variable fits : list (list Z) -> list Z -> bool.
Notation vdata := (vdata cvells Qc).
Notation result := (result cvells Qc F).
Notation tells := (tells perturb delta n e).
(** shapes that go with the grid are accepted *)
Definition fits_grid : Prop := forall have s, Forall (fun h => subshape h full) have -> subshape s full -> fits have s = true.
Definition good_flags (o : option (vells Z)) : Prop := match o with Some f => good full f | None => True end.
(** weights are real *)
Definition good_weights (w : option cvells) : Prop := match w with Some w => c_cx w = false /\ subshape (v_shape (c_arr w)) full | None => True end.

Lemma or_flags_ok a b : good_flags a -> good_flags b -> exists f, or_flags a b = Ok f /\ good_flags f /\ (f = None <-> a = None /\ b = None) /\
  forall idx, inside full idx -> flags_at f idx = Z.lor (flags_at a idx) (flags_at b idx).
Proof.
  intros Ga Gb. destruct a as [a|], b as [b|]; cbn [or_flags].
  - destruct Ga as [Wa Sa], Gb as [Wb Sb]. destruct (flagOr_spread a b full Wa Wb Sa Sb) as (f & -> & U & S1 & A). cbn [bind]. exists (Some f).
    split; [reflexivity|]. split; [split; assumption|]. split; [split; [discriminate|intros [X _]; discriminate]|]. exact A.
  - exists (Some a). split; [reflexivity|]. split; [exact Ga|]. split; [split; [discriminate|intros [X _]; discriminate]|]. intros idx _. cbn. now rewrite Z.lor_0_r.
  - exists (Some b). split; [reflexivity|]. split; [exact Gb|]. split; [split; [discriminate|intros [_ X]; discriminate]|]. intros idx _. cbn. reflexivity.
  - exists None. repeat split; auto.
Qed.
Lemma union_spids (l r : vdata) f0 f1 : tells l f0 -> tells r f1 ->
  let s := snd (findSpids [Some l; Some r]) in increasing s /\ forall x, In x s <-> In x (d_spids l) \/ In x (d_spids r).
Proof.
  intros T0 T1 s. assert (Es : s = merged_spids [d_spids l; d_spids r]).
  { unfold s, findSpids. cbn [map concat]. destruct (d_spids l ++ d_spids r ++ []) eqn:Ec; [|reflexivity].
    apply app_eq_nil in Ec as [-> Ec]. apply app_eq_nil in Ec as [-> _]. reflexivity. }
  rewrite Es. destruct (merged_spids_spec [d_spids l; d_spids r]) as [I M].
  - constructor; [apply T0|]. constructor; [apply T1|constructor].
  - intros x Hx. cbn [concat] in Hx. rewrite app_nil_r in Hx. apply in_app_or in Hx as [Hx|Hx].
    + destruct T0 as (_ & _ & P & _). rewrite Forall_forall in P. auto.
    + destruct T1 as (_ & _ & P & _). rewrite Forall_forall in P. auto.
  - split; [exact I|]. intro x. rewrite M. cbn [concat]. rewrite app_nil_r. apply in_app_iff.
Qed.

Section Plane.
Variable modulo : option Qc.
Hypothesis Hfull : (1 <= length full)%nat.
Hypothesis Hn : n = 1 \/ n = 2.
Hypothesis Hfits : fits_grid.
Variables (l r : vdata) (f0 f1 : E -> option cvells) (X0 X1 : E -> list Z -> cplx).
Hypothesis T0 : tells l f0.
Hypothesis T1 : tells r f1.
Hypothesis R0 : reads full modulo f0 X0.
Hypothesis R1 : reads full modulo f1 X1.
Hypothesis Hstep : forall s, In s (d_spids l) \/ In s (d_spids r) -> step delta n s <> 0%Qc.
Lemma equation_ok v0 v1 w : d_value l = Some v0 -> d_value r = Some v1 -> good_flags (d_flags l) -> good_flags (d_flags r) -> good_weights w ->
  exists q v ders, equation fits modulo l r v0 v1 w = Ok q /\ q_weights q = w /\
    d_value (q_data q) = Some v /\ stands full v (fun idx => wrap modulo (minusC (X1 e idx) (X0 e idx))) /\
    increasing (d_spids (q_data q)) /\ (forall s, In s (d_spids (q_data q)) <-> In s (d_spids l) \/ In s (d_spids r)) /\
    d_psets (q_data q) = [{| ps_pert := map (step delta n) (d_spids (q_data q)); ps_val := ders |}] /\
    Forall2 (fun s x => c_cx x = c_cx v /\ stands full x (slope perturb delta n e modulo X0 X1 s)) (d_spids (q_data q)) ders /\
    good_flags (d_flags (q_data q)) /\ (d_flags (q_data q) = None <-> d_flags l = None /\ d_flags r = None) /\
    forall idx, inside full idx -> flags_at (d_flags (q_data q)) idx = Z.lor (flags_at (d_flags l) idx) (flags_at (d_flags r) idx).
Proof.
  intros V0 V1 Gl Gr Gw. unfold equation. destruct (or_flags_ok _ _ Gl Gr) as (fl & -> & Gf & Nf & Af). cbn [bind].
  destruct (union_spids l r f0 f1 T0 T1) as [Us Um]. set (spids := snd (findSpids [Some l; Some r])) in *.
  destruct (R0 e) as (v0' & E0 & S0 & C0), (R1 e) as (v1' & E1 & S1 & C1).
  assert (v0' = v0) by (destruct T0 as [T _]; congruence). assert (v1' = v1) by (destruct T1 as [T _]; congruence). subst v0' v1'.
  destruct (minus_ok full v1 v0 _ _ S1 S0) as (m & -> & Cm & Sm). cbn [bind].
  assert (Cm' : modulo = None \/ c_cx m = false) by (destruct C0 as [C0|C0]; [now left|]; destruct C1 as [C1|C1]; [now left|]; right; now rewrite Cm, C0, C1).
  destruct (wrapped_ok full Hfull modulo m _ Cm' Sm) as (mv & -> & Cv & Sv). cbn [bind]. unfold checked. rewrite Hfits; [|constructor|apply Sv].
  assert (Ff : match fl with Some f => fits [shape_of mv] (v_shape f) | None => true end = true).
  { destruct fl as [f|]; [|reflexivity]. apply Hfits; [constructor; [apply Sv|constructor]|apply Gf]. }
  rewrite Ff. cbn [negb].
  destruct (loop_ok full Hfull perturb delta n Hn e fits Hfits modulo l r f0 f1 X0 X1 T0 T1 R0 R1 Hstep
    (fun idx => wrap modulo (minusC (X1 e idx) (X0 e idx))) spids 0 0 (c_cx mv) mv mv [] (flag_shape fl ++ [shape_of mv]) []) as (main & ders & have & cx & EL & SM & CM & CD & GD & HH); auto.
  - split; [intros x Hx; apply Um; now left|auto].
  - split; [intros x Hx; apply Um; now right|auto].
  - intros s Hs. now apply Um.
  - apply Forall_app. split; [destruct fl as [f|]; constructor; [apply Gf|constructor]|]. constructor; [apply Sv|constructor].
  - rewrite EL. cbn [bind app] in *.
    assert (Wc : match w with Some w => c_cx w || negb (fits have (shape_of w)) | None => false end = false).
    { destruct w as [w|]; [|reflexivity]. destruct Gw as [W1 W2]. rewrite W1, Hfits; auto. }
    rewrite Wc. eexists. exists main, (map fst ders). split; [reflexivity|]. cbn [q_weights q_data d_value d_flags d_spids d_psets]. split; [reflexivity|]. split; [reflexivity|].
    split; [exact SM|]. split; [exact Us|]. split; [exact Um|]. split.
    + f_equal. f_equal. clear - GD. induction GD as [|s [x p] sp ders [_ Hp] G IH]; [reflexivity|]. cbn in *. now rewrite Hp, IH.
    + split; [|split; [exact Gf|split; [exact Nf|exact Af]]]. rewrite CM. clear - GD CD. induction GD as [|s [x p] sp ders [Hx _] G IH]; [constructor|].
      apply Forall_cons_iff in CD as [Cx Cr]. cbn in *. constructor; [split; [exact Cx|exact Hx]|now apply IH].
Qed.
End Plane.

(** ** The result *)
Lemma plane_is p c : plane (F := F) p c = match plane_of c p with None => UB | Some (VFail _) => Ok None | Some (VData d) => Ok (match d_value d with Some _ => Some d | None => None end) end.
Proof. unfold plane. rewrite plane_rank. reflexivity. Qed.
Lemma do_planes_nth modulo l r w : forall ps xs, Ceq_Model.do_planes (F := F) fits modulo l r w ps = Ok xs ->
  length xs = length ps /\ forall i x, nth_error xs i = Some x -> exists p, nth_error ps i = Some p /\ Ceq_Model.do_plane fits modulo l r w p = Ok x.
Proof.
  induction ps as [|p ps IH]; intros xs H; cbn [Ceq_Model.do_planes] in H; [injection H as <-; split; [reflexivity|intros [|i]; discriminate]|].
  destruct (Ceq_Model.do_plane fits modulo l r w p) as [x| |] eqn:Ex; cbn [bind] in H; try discriminate.
  destruct (Ceq_Model.do_planes fits modulo l r w ps) as [xs'| |] eqn:Er; cbn [bind] in H; try discriminate.
  injection H as <-. destruct (IH xs' eq_refl) as [L N]. split; [cbn; congruence|]. intros [|i] y Hy; [injection Hy as <-; exists p; auto|]. apply N. exact Hy.
Qed.
Lemma do_planes_total modulo l r w : forall ps, (forall p, In p ps -> exists x, Ceq_Model.do_plane (F := F) fits modulo l r w p = Ok x) ->
  exists xs, Ceq_Model.do_planes fits modulo l r w ps = Ok xs.
Proof.
  induction ps as [|p ps IH]; intro H; [exists []; reflexivity|]. cbn [Ceq_Model.do_planes]. destruct (H p (or_introl eq_refl)) as (x & ->). cbn [bind].
  destruct IH as (xs & ->); [intros q Hq; apply H; now right|]. cbn [bind]. eexists; reflexivity.
Qed.
Lemma merge1_ok out (c : result) dims : (out = [] \/ out = dims) -> r_vs c <> [] -> (r_dims c = [] \/ r_dims c = dims) -> exists o, merge1 out c = Ok o /\ (o = [] \/ o = dims).
Proof.
  intros Ho V D. unfold merge1. destruct (r_vs c) as [|v vs]; [contradiction|]. destruct (r_dims c) as [|x d]; [exists out; auto|].
  destruct D as [D|D]; [discriminate|]. destruct out as [|y out]; [eexists; split; [reflexivity|now right]|]. destruct Ho as [Ho|Ho]; [discriminate|].
  assert (Q : dims_equal (y :: out) (x :: d) = true) by (apply dims_equal_eq; congruence). rewrite Q. eexists. split; [reflexivity|]. now right.
Qed.
(** what a child gives for each plane *)
Definition side (modulo : option Qc) (c : result) (p : nat) (X : E -> list Z -> cplx) (d : vdata) : Prop :=
  plane_of c p = Some (VData d) /\ (exists f, tells d f /\ reads full modulo f X) /\ good_flags (d_flags d).
Definition weight_of (w : option result) (p : nat) : option cvells :=
  match w with
  | Some w => match plane_of w p with Some (VData d) => d_value d | _ => None end
  | None => None
  end.
Definition fits_dims (dims : list nat) (c : result) : Prop := r_vs c <> [] /\ (r_dims c = [] \/ r_dims c = dims).
Lemma tells_value d f X modulo : tells d f -> reads full modulo f X -> exists v, d_value d = Some v.
Proof. intros [T _] R. destruct (R e) as (v & Ev & _). exists v. congruence. Qed.
Lemma getResult_ok modulo l r w dims (X0 X1 : nat -> E -> list Z -> cplx) (dl dr : nat -> vdata) :
  (1 <= length full)%nat -> (n = 1 \/ n = 2) -> fits_grid -> fits_dims dims l -> fits_dims dims r -> (forall c, w = Some c -> fits_dims dims c) ->
  (forall p, (p < num_planes dims)%nat -> side modulo l p (X0 p) (dl p) /\ side modulo r p (X1 p) (dr p) /\
     (forall s, In s (d_spids (dl p)) \/ In s (d_spids (dr p)) -> step delta n s <> 0%Qc) /\
     (forall c, w = Some c -> plane_of c p <> None) /\ good_weights (weight_of w p)) ->
  num_planes dims <> 0%nat ->
  exists dims' planes, getResult fits modulo (Some l) (Some r) w = Ok (Some (kept_dims dims', planes), 0%Z) /\ (dims' = [] \/ dims' = dims) /\ length planes = num_planes dims' /\
    forall p x, nth_error planes p = Some x -> (p < num_planes dims)%nat /\ exists q, x = Some q /\ q_weights q = weight_of w p /\ exists v ders,
    d_value (q_data q) = Some v /\ stands full v (fun idx => wrap modulo (minusC (X1 p e idx) (X0 p e idx))) /\
    increasing (d_spids (q_data q)) /\ (forall s, In s (d_spids (q_data q)) <-> In s (d_spids (dl p)) \/ In s (d_spids (dr p))) /\
    d_psets (q_data q) = [{| ps_pert := map (step delta n) (d_spids (q_data q)); ps_val := ders |}] /\
    Forall2 (fun s x => c_cx x = c_cx v /\ stands full x (slope perturb delta n e modulo (X0 p) (X1 p) s)) (d_spids (q_data q)) ders /\
    good_flags (d_flags (q_data q)) /\ (d_flags (q_data q) = None <-> d_flags (dl p) = None /\ d_flags (dr p) = None) /\
    forall idx, inside full idx -> flags_at (d_flags (q_data q)) idx = Z.lor (flags_at (d_flags (dl p)) idx) (flags_at (d_flags (dr p)) idx).
Proof.
  intros Hfull Hn Hfits Dl Dr Dw H Nz. unfold getResult, cond_dims. destruct Dl as [Vl Dl], (Dr) as [Vr Dr'].
  destruct (r_vs l) as [|vl vls] eqn:Evl; [contradiction|]. clear Vl.
  destruct (merge1_ok (r_dims l) r dims Dl Vr Dr') as (o1 & E1 & O1). rewrite E1. cbn [bind].
  assert (M2 : exists o2, match w with Some w => merge1 o1 w | None => Ok o1 end = Ok o2 /\ (o2 = [] \/ o2 = dims)).
  { destruct w as [w|]; [|eauto]. destruct (Dw w eq_refl) as [V D]. now apply merge1_ok. }
  destruct M2 as (o2 & -> & O2). cbn [bind].
  assert (Le : (num_planes o2 <= num_planes dims)%nat) by (destruct O2 as [->| ->]; [cbn; lia|lia]).
  assert (P : forall p, (p < num_planes dims)%nat -> exists q, Ceq_Model.do_plane fits modulo l r w p = Ok (Some q) /\ q_weights q = weight_of w p /\ exists v ders,
    d_value (q_data q) = Some v /\ stands full v (fun idx => wrap modulo (minusC (X1 p e idx) (X0 p e idx))) /\
    increasing (d_spids (q_data q)) /\ (forall s, In s (d_spids (q_data q)) <-> In s (d_spids (dl p)) \/ In s (d_spids (dr p))) /\
    d_psets (q_data q) = [{| ps_pert := map (step delta n) (d_spids (q_data q)); ps_val := ders |}] /\
    Forall2 (fun s x => c_cx x = c_cx v /\ stands full x (slope perturb delta n e modulo (X0 p) (X1 p) s)) (d_spids (q_data q)) ders /\
    good_flags (d_flags (q_data q)) /\ (d_flags (q_data q) = None <-> d_flags (dl p) = None /\ d_flags (dr p) = None) /\
    forall idx, inside full idx -> flags_at (d_flags (q_data q)) idx = Z.lor (flags_at (d_flags (dl p)) idx) (flags_at (d_flags (dr p)) idx)).
  { intros p Hp. destruct (H p Hp) as (Sl & Sr & Hs & Hw & Gw). unfold Ceq_Model.do_plane. rewrite !plane_is.
    destruct Sl as (Pl & (f0 & Tl & Rl) & Gl), Sr as (Pr & (f1 & Tr & Rr) & Gr). rewrite Pl, Pr.
    destruct (tells_value _ _ _ _ Tl Rl) as (v0 & Ev0), (tells_value _ _ _ _ Tr Rr) as (v1 & Ev1). rewrite Ev0, Ev1. cbn [bind].
    assert (Ew : exists dw, match w with Some w => plane p w | None => Ok None end = Ok dw /\ match dw with Some d => d_value d | None => None end = weight_of w p).
    { destruct w as [w|]; [|exists None; auto]. rewrite plane_is. cbn [weight_of]. specialize (Hw w eq_refl). destruct (plane_of w p) as [[fl|d]|]; [exists None; auto| |contradiction].
      destruct (d_value d) as [vw|] eqn:Evw; [exists (Some d); auto|exists None; auto]. }
    destruct Ew as (dw & -> & Ew). cbn [bind]. rewrite Ev0, Ev1, Ew.
    destruct (equation_ok modulo Hfull Hn Hfits (dl p) (dr p) f0 f1 (X0 p) (X1 p) Tl Tr Rl Rr Hs v0 v1 (weight_of w p) Ev0 Ev1 Gl Gr Gw) as (q & v & ders & -> & K1 & K). cbn [bind].
    exists q. split; [reflexivity|]. split; [exact K1|]. exists v, ders. exact K. }
  destruct (do_planes_total modulo l r w (seq 0 (num_planes o2))) as (xs & Exs).
  { intros p Hp. apply in_seq in Hp. destruct (P p ltac:(lia)) as (q & Eq & _). eauto. }
  rewrite Exs. cbn [bind]. exists o2, xs. split; [reflexivity|]. split; [exact O2|]. apply do_planes_nth in Exs as [L N]. rewrite seq_length in L. split; [exact L|].
  intros p x Hx. destruct (N p x Hx) as (p' & Hp' & D). assert (Lp : (p < num_planes o2)%nat) by (rewrite <- L; apply nth_error_Some; rewrite Hx; discriminate).
  rewrite (nth_error_nth' _ 0%nat) in Hp' by (rewrite seq_length; lia). rewrite seq_nth in Hp' by lia. injection Hp' as <-. cbn in D.
  split; [lia|]. destruct (P p ltac:(lia)) as (q & Eq & K). exists q. split; [congruence|exact K].
Qed.

(** ** C86: the equation at every cell *)
(** What the children have to give: the same dimensions (or none); on every plane a value for each side, with spids
    and perturbed values that tell how it depends on the parameters; steps that are not zero; flags and real weights that can be spread over
    the grid. *)
Definition gives_equation (modulo : option Qc) (l r : result) (w : option result) (dims : list nat) (X0 X1 : nat -> E -> list Z -> cplx) (dl dr : nat -> vdata) : Prop :=
  (1 <= length full)%nat /\ (n = 1 \/ n = 2) /\ fits_grid /\ fits_dims dims l /\ fits_dims dims r /\ (forall c, w = Some c -> fits_dims dims c) /\ num_planes dims <> 0%nat /\
  forall p, (p < num_planes dims)%nat -> side modulo l p (X0 p) (dl p) /\ side modulo r p (X1 p) (dr p) /\
     (forall s, In s (d_spids (dl p)) \/ In s (d_spids (dr p)) -> step delta n s <> 0%Qc) /\
     (forall c, w = Some c -> plane_of c p <> None) /\ good_weights (weight_of w p).
Lemma Forall2_imp' {A B} (P Q : A -> B -> Prop) : (forall a b, P a b -> Q a b) -> forall xs ys, Forall2 P xs ys -> Forall2 Q xs ys.
Proof. intros H xs ys F2. induction F2; constructor; auto. Qed.
Lemma Forall2_at {A B} (P : A -> B -> Prop) : forall xs ys, Forall2 P xs ys -> forall i x, nth_error xs i = Some x -> exists y, nth_error ys i = Some y /\ P x y.
Proof. intros xs ys F2. induction F2 as [|a b xs ys H F2 IH]; intros [|i] x Hx; try discriminate; [injection Hx as <-; exists b; auto|]. apply IH. exact Hx. Qed.
Lemma rate_slope (X0 X1 : E -> list Z -> cplx) s idx : slope perturb delta n e None X0 X1 s idx = rate perturb delta e n (fun e' => minusC (X0 e' idx) (X1 e' idx)) s.
Proof.
  unfold slope, rate, chg, change, wrap. f_equal. destruct n as [|[|k]]; unfold minusC; cbn [fst snd]; apply cplx_eq; ring.
Qed.
Theorem condeq_equations : forall l r w dims X0 X1 dl dr, gives_equation None l r w dims X0 X1 dl dr ->
  exists dims' planes, getResult fits None (Some l) (Some r) w = Ok (Some (kept_dims dims', planes), 0%Z) /\ (dims' = [] \/ dims' = dims) /\ length planes = num_planes dims' /\
    forall p x, nth_error planes p = Some x -> exists q, x = Some q /\ states_equation full perturb delta n e (X0 p) (X1 p) (q_data q) /\
      increasing (d_spids (q_data q)) /\ forall s, In s (d_spids (q_data q)) <-> In s (d_spids (dl p)) \/ In s (d_spids (dr p)).
Proof.
  intros l r w dims X0 X1 dl dr (H1 & H2 & H3 & H4 & H5 & H6 & H7 & H8). destruct (getResult_ok None l r w dims X0 X1 dl dr) as (dims' & planes & E1 & E2 & E3 & K); auto.
  exists dims', planes. split; [exact E1|]. split; [exact E2|]. split; [exact E3|]. intros p x Hx. destruct (K p x Hx) as (_ & q & -> & _ & v & ders & V1 & V2 & V3 & V4 & V5 & V6 & _).
  exists q. split; [reflexivity|]. split; [|split; [exact V3|exact V4]]. exists v, ders. split; [exact V1|]. split; [exact V2|]. split; [exact V5|].
  eapply Forall2_imp'; [|exact V6]. intros s y [C S1]. split; [exact C|]. eapply stands_ext; [exact S1|]. intros idx _. apply rate_slope.
Qed.

(** ** C87: derivatives of simple equations *)
(** If the difference of the two sides at a cell is affine in a parameter, the perturbed value is its exact coefficient,
    so that the equation is satisfied at this cell when the parameter is changed by d just if d times it equals the main
    value; if it is quadratic, it is exact if there are two sets of perturbations, up and down by the same amount. *)
Definition derivative_at (d : vdata) (i : nat) (idx : list Z) : option cplx :=
  match d_psets d with
  | [ps] => match nth_error (ps_val ps) i with Some x => at_index (v_shape (c_arr x)) (v_data (c_arr x)) idx | None => None end
  | _ => None
  end.
Definition value_at (d : vdata) (idx : list Z) : option cplx :=
  match d_value d with Some v => at_index (v_shape (c_arr v)) (v_data (c_arr v)) idx | None => None end.
Lemma states_derivative X0 X1 d i s idx : states_equation full perturb delta n e X0 X1 d -> nth_error (d_spids d) i = Some s -> inside full idx ->
  value_at d idx = Some (minusC (X1 e idx) (X0 e idx)) /\ derivative_at d i idx = Some (rate perturb delta e n (fun e' => minusC (X0 e' idx) (X1 e' idx)) s).
Proof.
  intros (v & ders & Ev & Sv & Ep & Ed) Hi Hx. unfold value_at, derivative_at. rewrite Ev, Ep. cbn [ps_val]. split; [now apply Sv|].
  destruct (Forall2_at _ _ _ Ed i s Hi) as (x & -> & _ & Sx). now apply Sx.
Qed.
Theorem condeq_affine : forall l r w dims X0 X1 dl dr dims' planes p q i s idx A, gives_equation None l r w dims X0 X1 dl dr ->
  getResult fits None (Some l) (Some r) w = Ok (Some (dims', planes), 0%Z) -> nth_error planes p = Some (Some q) -> nth_error (d_spids (q_data q)) i = Some s -> inside full idx ->
  (forall d, minusC (X0 p (perturb e s d) idx) (X1 p (perturb e s d) idx) = plusC (minusC (X0 p e idx) (X1 p e idx)) (timesR d A)) ->
  derivative_at (q_data q) i idx = Some A /\ exists v, value_at (q_data q) idx = Some v /\
    forall d, minusC (X1 p (perturb e s d) idx) (X0 p (perturb e s d) idx) = minusC v (timesR d A).
Proof.
  intros l r w dims X0 X1 dl dr dims' planes p q i s idx A G R Hp Hs Hi Ha. pose proof G as (_ & Hn & _ & _ & _ & _ & _ & G8).
  destruct (condeq_equations l r w dims X0 X1 dl dr G) as (dims2 & planes2 & E1 & E2 & E3 & K). rewrite R in E1. injection E1 as -> <-.
  destruct (K p _ Hp) as (q2 & Eq & Sq & _ & Sp). injection Eq as <-.
  assert (Lp : (p < num_planes dims)%nat).
  { assert (p < length planes)%nat by (apply nth_error_Some; rewrite Hp; discriminate). rewrite E3 in H. destruct E2 as [->| ->]; [|lia]. cbn in H. destruct G as (_ & _ & _ & _ & _ & _ & G7 & _). lia. }
  destruct (G8 p Lp) as (_ & _ & Hstep & _). assert (Np : step delta n s <> 0%Qc) by (apply Hstep, Sp; eapply nth_error_In; exact Hs).
  destruct (states_derivative _ _ _ i s idx Sq Hs Hi) as [V D]. rewrite V, D. split.
  - f_equal. unfold rate, change, step in *. destruct Hn as [->| ->]; rewrite !Ha; unfold plusC, minusC, timesR; cbn [fst snd]; destruct A as [a b]; apply cplx_eq; cbn [fst snd]; field; exact Np.
  - eexists. split; [reflexivity|]. intro d. specialize (Ha d).
    assert (Hf : forall x y z t : cplx, minusC x y = plusC z t -> minusC y x = minusC (minusC (0%Qc, 0%Qc) z) t).
    { intros [x1 x2] [y1 y2] [z1 z2] [t1 t2] H. unfold minusC, plusC in *. cbn [fst snd] in *. pose proof (f_equal fst H) as Ha1. pose proof (f_equal snd H) as Ha2. cbn [fst snd] in Ha1, Ha2. apply cplx_eq.
      - replace (y1 - x1)%Qc with (- (x1 - y1))%Qc by ring. rewrite Ha1. ring.
      - replace (y2 - x2)%Qc with (- (x2 - y2))%Qc by ring. rewrite Ha2. ring. }
    rewrite (Hf _ _ _ _ Ha). f_equal. unfold minusC. cbn [fst snd]. apply cplx_eq; ring.
Qed.
Theorem condeq_quadratic : forall l r w dims X0 X1 dl dr dims' planes p q i s idx A B, gives_equation None l r w dims X0 X1 dl dr ->
  getResult fits None (Some l) (Some r) w = Ok (Some (dims', planes), 0%Z) -> nth_error planes p = Some (Some q) -> nth_error (d_spids (q_data q)) i = Some s -> inside full idx ->
  (forall d, minusC (X0 p (perturb e s d) idx) (X1 p (perturb e s d) idx) = plusC (plusC (minusC (X0 p e idx) (X1 p e idx)) (timesR d A)) (timesR (d * d)%Qc B)) ->
  (n = 2 -> delta 1 s = (- delta 0 s)%Qc -> derivative_at (q_data q) i idx = Some A) /\
  (n = 1 -> derivative_at (q_data q) i idx = Some (plusC A (timesR (delta 0 s) B))).
Proof.
  intros l r w dims X0 X1 dl dr dims' planes p q i s idx A B G R Hp Hs Hi Ha. pose proof G as (_ & _ & _ & _ & _ & _ & _ & G8).
  destruct (condeq_equations l r w dims X0 X1 dl dr G) as (dims2 & planes2 & E1 & E2 & E3 & K). rewrite R in E1. injection E1 as -> <-.
  destruct (K p _ Hp) as (q2 & Eq & Sq & _ & Sp). injection Eq as <-.
  assert (Lp : (p < num_planes dims)%nat).
  { assert (p < length planes)%nat by (apply nth_error_Some; rewrite Hp; discriminate). rewrite E3 in H. destruct E2 as [->| ->]; [|lia]. cbn in H. destruct G as (_ & _ & _ & _ & _ & _ & G7 & _). lia. }
  destruct (G8 p Lp) as (_ & _ & Hstep & _). assert (Np : step delta n s <> 0%Qc) by (apply Hstep, Sp; eapply nth_error_In; exact Hs).
  destruct (states_derivative _ _ _ i s idx Sq Hs Hi) as [_ D]. rewrite D. split.
  - intros Hn Hd. f_equal. unfold rate, change, step in *. rewrite Hn in *. rewrite !Ha, Hd in *. unfold plusC, minusC, timesR; cbn [fst snd]; destruct A as [a b]; apply cplx_eq; cbn [fst snd]; field; intro Z0; apply Np; rewrite <- Z0; ring.
  - intros Hn. f_equal. unfold rate, change, step in *. rewrite Hn in *. rewrite !Ha in *. unfold plusC, minusC, timesR; cbn [fst snd]; destruct A as [a b]; apply cplx_eq; cbn [fst snd]; field; exact Np.
Qed.

(** ** C88: flags and weights *)
Theorem condeq_flags_weights : forall modulo l r w dims X0 X1 dl dr, gives_equation modulo l r w dims X0 X1 dl dr ->
  exists dims' planes, getResult fits modulo (Some l) (Some r) w = Ok (Some (dims', planes), 0%Z) /\
    forall p x, nth_error planes p = Some x -> exists q, x = Some q /\ q_weights q = weight_of w p /\
    (d_flags (q_data q) = None <-> d_flags (dl p) = None /\ d_flags (dr p) = None) /\
    forall idx, inside full idx -> flags_at (d_flags (q_data q)) idx = Z.lor (flags_at (d_flags (dl p)) idx) (flags_at (d_flags (dr p)) idx).
Proof.
  intros modulo l r w dims X0 X1 dl dr (H1 & H2 & H3 & H4 & H5 & H6 & H7 & H8). destruct (getResult_ok modulo l r w dims X0 X1 dl dr) as (dims' & planes & E1 & E2 & E3 & K); auto.
  exists (kept_dims dims'), planes. split; [exact E1|]. intros p x Hx. destruct (K p x Hx) as (_ & q & -> & Hw & v & ders & _ & _ & _ & _ & _ & _ & _ & N & A).
  exists q. split; [reflexivity|]. split; [exact Hw|]. split; [exact N|exact A].
Qed.

(** ** C89: equations modulo a number *)
(** With modulo [m] (both sides real), the main value is the difference brought into [-m/2, m/2] by a multiple of m, and
    derivatives are not affected by crossing a border as long as perturbations change each side by less than m/2. *)
Definition small (m : Qc) (X : E -> list Z -> cplx) (s : Z) (idx : list Z) : Prop :=
  let c := fst (change perturb delta e n (fun e' => X e' idx) s) in ((1 + 1) * (1 + 1) * (c * c) < m * m)%Qc.
Theorem condeq_modulo : forall m l r w dims X0 X1 dl dr, m <> 0%Qc -> gives_equation (Some m) l r w dims X0 X1 dl dr ->
  exists dims' planes, getResult fits (Some m) (Some l) (Some r) w = Ok (Some (dims', planes), 0%Z) /\
    forall p x, nth_error planes p = Some x -> exists q, x = Some q /\ (forall s, In s (d_spids (q_data q)) <-> In s (d_spids (dl p)) \/ In s (d_spids (dr p))) /\
    forall idx, inside full idx ->
      (exists v k, value_at (q_data q) idx = Some (v, 0%Qc) /\ v = (fst (X1 p e idx) - fst (X0 p e idx) - zq k * m)%Qc /\ ((1 + 1) * (1 + 1) * (v * v) <= m * m)%Qc) /\
      forall i s, nth_error (d_spids (q_data q)) i = Some s -> small m (X0 p) s idx -> small m (X1 p) s idx ->
        derivative_at (q_data q) i idx = Some (rate perturb delta e n (fun e' => (fst (X0 p e' idx) - fst (X1 p e' idx), 0)%Qc) s).
Proof.
  intros m l r w dims X0 X1 dl dr Nm (H1 & H2 & H3 & H4 & H5 & H6 & H7 & H8). destruct (getResult_ok (Some m) l r w dims X0 X1 dl dr) as (dims' & planes & E1 & E2 & E3 & K); auto.
  exists (kept_dims dims'), planes. split; [exact E1|]. intros p x Hx. destruct (K p x Hx) as (_ & q & -> & _ & v & ders & V1 & V2 & V3 & V4 & V5 & V6 & _).
  exists q. split; [reflexivity|]. split; [exact V4|]. intros idx Hi. split.
  - unfold value_at. rewrite V1. destruct V2 as (_ & _ & A & _). rewrite (A idx Hi). unfold wrap, minusC. cbn [fst].
    destruct (remainder_cong (fst (X1 p e idx) - fst (X0 p e idx)) m) as (k & Ek). eexists. exists k. split; [reflexivity|]. split; [exact Ek|]. now apply remainder_range.
  - intros i s Hs S0 S1. unfold derivative_at. rewrite V5. cbn [ps_val]. destruct (Forall2_at _ _ _ V6 i s Hs) as (y & -> & _ & Sy). destruct Sy as (_ & _ & A & _). rewrite (A idx Hi). f_equal.
    unfold slope, wrap, chg, small in *. cbn zeta in *. rewrite (remainder_small _ _ S0), (remainder_small _ _ S1). unfold rate. f_equal. unfold change.
    destruct n as [|[|k]]; unfold minusC; cbn [fst snd]; apply cplx_eq; ring.
Qed.
End Thms.

(** ** C90: planes without an equation *)
Definition no_value {V P F} (vs : option (vset V P F)) : Prop := match vs with Some (VFail _) => True | Some (VData d) => d_value d = None | None => False end.
Theorem condeq_missing : forall F fits modulo (l r : result cvells Qc F) w dims planes code, getResult fits modulo (Some l) (Some r) w = Ok (Some (dims, planes), code) ->
  code = 0%Z /\ forall p x, nth_error planes p = Some x -> (x = None <-> no_value (plane_of l p) \/ no_value (plane_of r p)).
Proof.
  intros F fits modulo l r w dims planes code H. unfold getResult in H. destruct (r_vs l) eqn:Evl; [discriminate|]. destruct (cond_dims l r w) as [d| |]; cbn [bind] in H; try discriminate.
  destruct (Ceq_Model.do_planes fits modulo l r w (seq 0 (num_planes d))) as [pl| |] eqn:Ep; cbn [bind] in H; try discriminate. injection H as <- <- <-. split; [reflexivity|].
  intros p x Hx. apply do_planes_nth in Ep as [L N]. destruct (N p x Hx) as (p' & Hp' & D). rewrite seq_length in L. assert (Lp : (p < num_planes d)%nat) by (rewrite <- L; apply nth_error_Some; rewrite Hx; discriminate).
  rewrite (nth_error_nth' _ 0%nat) in Hp' by (rewrite seq_length; lia). rewrite seq_nth in Hp' by lia. injection Hp' as <-. cbn [plus] in D.
  unfold Ceq_Model.do_plane in D. rewrite !plane_is in D. destruct (plane_of l p) as [[fl|dl]|]; cbn [bind no_value] in *; try discriminate; [injection D as <-; cbn; split; auto|].
  destruct (d_value dl) as [v0|] eqn:E0; cbn [bind] in D; [|injection D as <-; cbn; split; auto].
  destruct (plane_of r p) as [[fr|dr]|]; cbn [bind] in *; try discriminate; [injection D as <-; cbn; split; auto|].
  destruct (d_value dr) as [v1|] eqn:E1; cbn [bind] in D; [|injection D as <-; cbn; split; auto].
  destruct (match w with Some w => plane p w | None => Ok None end) as [dw| |]; cbn [bind] in D; try discriminate. rewrite E0, E1 in D.
  destruct (equation fits modulo dl dr v0 v1 match dw with Some d0 => d_value d0 | None => None end) as [q| |]; cbn [bind] in D; try discriminate. injection D as <-.
  cbn [no_value]. split; [discriminate|]. intros [X|X]; rewrite ?E0, ?E1 in X; discriminate X.
Qed.
(** With a modulo, both sides of every equation that is made are real; a complex side is refused with an exception. *)
Theorem condeq_modulo_real : forall F fits m (l r : result cvells Qc F) w dims planes code, getResult fits (Some m) (Some l) (Some r) w = Ok (Some (dims, planes), code) ->
  forall p q dl dr v0 v1, nth_error planes p = Some (Some q) -> plane_of l p = Some (VData dl) -> plane_of r p = Some (VData dr) ->
  d_value dl = Some v0 -> d_value dr = Some v1 -> c_cx v0 = false /\ c_cx v1 = false.
Proof.
  intros F fits m l r w dims planes code H p q dl dr v0 v1 Hx Pl Pr E0 E1. unfold getResult in H. destruct (r_vs l) eqn:Evl; [discriminate|]. destruct (cond_dims l r w) as [d| |]; cbn [bind] in H; try discriminate.
  destruct (Ceq_Model.do_planes fits (Some m) l r w (seq 0 (num_planes d))) as [pl| |] eqn:Ep; cbn [bind] in H; try discriminate. injection H as <- <- <-.
  apply do_planes_nth in Ep as [L N]. destruct (N p _ Hx) as (p' & Hp' & D). rewrite seq_length in L. assert (Lp : (p < num_planes d)%nat) by (rewrite <- L; apply nth_error_Some; rewrite Hx; discriminate).
  rewrite (nth_error_nth' _ 0%nat) in Hp' by (rewrite seq_length; lia). rewrite seq_nth in Hp' by lia. injection Hp' as <-. cbn [plus] in D.
  unfold Ceq_Model.do_plane in D. rewrite !plane_is, Pl, Pr in D. cbn [bind] in D. rewrite E0, E1 in D. cbn [bind] in D.
  destruct (match w with Some w => plane p w | None => Ok None end) as [dw| |]; cbn [bind] in D; try discriminate. rewrite E0, E1 in D.
  destruct (equation fits (Some m) dl dr v0 v1 match dw with Some d0 => d_value d0 | None => None end) as [q'| |] eqn:Eq; cbn [bind] in D; try discriminate.
  unfold equation in Eq. destruct (or_flags (d_flags dl) (d_flags dr)) as [fl| |]; cbn [bind] in Eq; try discriminate.
  destruct (minus v1 v0) as [x| |] eqn:Em; cbn [bind] in Eq; try discriminate. cbn [wrapped] in Eq. unfold vremainder in Eq.
  unfold minus in Em. destruct (binary c0 csub (c_arr v1) (c_arr v0)) as [y| |]; cbn [lift bind] in Em; try discriminate. injection Em as <-. cbn [c_cx] in Eq.
  destruct (c_cx v0), (c_cx v1); cbn in Eq; try discriminate; auto.
Qed.
(** A fail in a plane of a child is not passed on: the result is the same as if the plane had no data. *)
Theorem condeq_fail_lost_refuted : ~ forall F fits modulo (l l' r : result cvells Qc F) w, proper_result l -> proper_result l' -> proper_result r ->
  (exists fl, In (VFail fl) (r_vs l)) -> (forall vs, In vs (r_vs l') -> exists d, vs = VData d) -> getResult fits modulo (Some l) (Some r) w <> getResult fits modulo (Some l') (Some r) w.
Proof.
  intro H. pose (one := {| c_cx := false; c_arr := scalar 1%Qc |}). pose (d := fun v => {| d_value := v; d_flags := None; d_spids := []; d_psets := [] |} : vdata cvells Qc).
  apply (H unit (fun _ _ => true) None {| r_dims := [2]; r_vs := [VData (d (Some one)); VFail [tt]] |} {| r_dims := [2]; r_vs := [VData (d (Some one)); VData (d None)] |}
    {| r_dims := []; r_vs := [VData (d (Some one))] |} None).
  - split; [reflexivity|right; discriminate].
  - split; [reflexivity|right; discriminate].
  - split; [reflexivity|now left].
  - exists [tt]. right. now left.
  - intros vs [<-|[<-|[]]]; eexists; reflexivity.
  - reflexivity.
Qed.
(** With more than two sets of perturbations there is no equation. *)
Theorem condeq_three_sets_refuted : ~ forall F fits (l r : result cvells Qc F) dl dr, r_dims l = [] -> r_dims r = [] -> r_vs l = [VData dl] -> r_vs r = [VData dr] ->
  (forall have s, fits have s = true) -> length (d_psets dl) = 3 -> d_psets dr = [] -> d_spids dr = [] -> d_value dr <> None -> d_value dl <> None -> exists x, getResult fits None (Some l) (Some r) None = Ok x.
Proof.
  intro H. pose (one := {| c_cx := false; c_arr := scalar 1%Qc |}). pose (ps := {| ps_pert := [1%Qc]; ps_val := [one] |}).
  pose (dl := {| d_value := Some one; d_flags := None; d_spids := [5%Z]; d_psets := [ps; ps; ps] |}).
  pose (dr := {| d_value := Some one; d_flags := None; d_spids := []; d_psets := [] |} : vdata cvells Qc).
  destruct (H unit (fun _ _ => true) {| r_dims := []; r_vs := [VData dl] |} {| r_dims := []; r_vs := [VData dr] |} dl dr) as (x & Hx); try reflexivity; try discriminate.
Qed.

(** ** Examples *)
Definition qc (x : Q) : Qc := Q2Qc x.
Definition real_array (shape : list Z) (xs : list Q) : cvells := {| c_cx := false; c_arr := plain shape (map (fun x => (qc x, 0%Qc)) xs) |}.
Definition show_cplx (z : cplx) : Q * Q := (this (fst z), this (snd z)).
Definition show_vells (v : cvells) := (c_cx v, v_shape (c_arr v), map show_cplx (v_data (c_arr v))).
Definition show_equation (o : option cdata) :=
  match o with
  | None => None
  | Some q => Some (option_map show_vells (d_value (q_data q)), d_flags (q_data q), d_spids (q_data q),
                    map (fun ps => (map this (ps_pert ps), map show_vells (ps_val ps))) (d_psets (q_data q)), option_map show_vells (q_weights q))
  end.
Definition show_result (x : res (option (list nat * list (option cdata)) * Z)) :=
  match x with Ok (Some (dims, planes), code) => Ok (Some (dims, map show_equation planes), code) | Ok (None, code) => Ok (None, code) | Err => Err | UB => UB end.
(** 3a + b = c * t at three times, where a = 2, b = 1/2, c = 4: spids 1, 2 and 3, perturbed by 1/10, 1/10 and 1/2 *)
Definition ex_lhs : result cvells Qc unit := {| r_dims := []; r_vs := [VData {| d_value := Some (real_array [1%Z] [13#2]%Q); d_flags := Some (plain [3%Z] [0; 4; 0]%Z);
  d_spids := [1; 2]%Z; d_psets := [{| ps_pert := [qc (1#10)%Q; qc (1#10)%Q]; ps_val := [real_array [1%Z] [68#10]%Q; real_array [1%Z] [66#10]%Q] |}] |}] |}.
Definition ex_rhs : result cvells Qc unit := {| r_dims := []; r_vs := [VData {| d_value := Some (real_array [3%Z] [0; 4; 8]%Q); d_flags := Some (plain [3%Z] [1; 1; 0]%Z);
  d_spids := [3]%Z; d_psets := [{| ps_pert := [qc (1#2)%Q]; ps_val := [real_array [3%Z] [0; 9#2; 9]%Q] |}] |}] |}.
Definition ex_w : result cvells Qc unit := {| r_dims := []; r_vs := [VData {| d_value := Some (real_array [3%Z] [1; 2; 1]%Q); d_flags := None; d_spids := []; d_psets := [] |}] |}.
(** RHS - LHS, derivatives 3, 1 and -t, flags 1, 5 and 0 *)
Example ex_condeq : show_result (getResult (fun _ _ => true) None (Some ex_lhs) (Some ex_rhs) (Some ex_w)) =
  Ok (Some ([], [Some (Some (false, [3%Z], [(-13#2, 0); (-5#2, 0); (3#2, 0)]%Q), Some (plain [3%Z] [1; 5; 0]%Z), [1; 2; 3]%Z,
    [([1#10; 1#10; 1#2]%Q, [(false, [1%Z], [(3, 0)]%Q); (false, [1%Z], [(1, 0)]%Q); (false, [3%Z], [(0, 0); (-1, 0); (-2, 0)]%Q)])],
    Some (false, [3%Z], [(1, 0); (2, 0); (1, 0)]%Q))]), 0%Z).
Proof. vm_compute. reflexivity. Qed.
(** modulo 3: the differences -13/2, -5/2 and 3/2 become -1/2, 1/2 and 3/2 (a tie goes to the even multiple) *)
Example ex_modulo : match getResult (fun _ _ => true) (Some (qc 3)) (Some ex_lhs) (Some ex_rhs) None with
  | Ok (Some (_, [Some q]), _) => option_map show_vells (d_value (q_data q)) = Some (false, [3%Z], [(-1#2, 0); (1#2, 0); (3#2, 0)]%Q)
  | _ => False end.
Proof. vm_compute. reflexivity. Qed.

(** The hypotheses hold of something: LHS = x * t + 2, RHS = y, over three times t = 1, 2, 3; parameters x = 1 (spid 0) and y = 5 (spid 7). *)
Definition ex_perturb (e : Qc * Qc) (s : Z) (d : Qc) : Qc * Qc := if Z.eqb s 0 then ((fst e + d)%Qc, snd e) else if Z.eqb s 7 then (fst e, (snd e + d)%Qc) else e.
Definition ex_delta (k : nat) (s : Z) : Qc := if Nat.eqb k 0 then qc (1#10)%Q else qc (-1#10)%Q.
Definition ex_e : Qc * Qc := (qc 1, qc 5).
Definition ex_v0 (e : Qc * Qc) : cvells := {| c_cx := false; c_arr := plain [3%Z] (map (fun t => ((fst e * qc t + qc 2)%Qc, 0%Qc)) [1; 2; 3]%Q) |}.
Definition ex_v1 (e : Qc * Qc) : cvells := {| c_cx := false; c_arr := plain [1%Z] [(snd e, 0%Qc)] |}.
Definition ex_d0 : vdata cvells Qc := {| d_value := Some (ex_v0 ex_e); d_flags := None; d_spids := [0%Z]; d_psets :=
  map (fun k => {| ps_pert := [ex_delta k 0]; ps_val := [ex_v0 (ex_perturb ex_e 0 (ex_delta k 0))] |}) [0; 1]%nat |}.
Definition ex_d1 : vdata cvells Qc := {| d_value := Some (ex_v1 ex_e); d_flags := None; d_spids := [7%Z]; d_psets :=
  map (fun k => {| ps_pert := [ex_delta k 7]; ps_val := [ex_v1 (ex_perturb ex_e 7 (ex_delta k 7))] |}) [0; 1]%nat |}.
Definition ex_t (idx : list Z) : Qc := match idx with [0%Z] => qc 1 | [1%Z] => qc 2 | _ => qc 3 end.
Example ex_gives : gives_equation (F := unit) [3%Z] ex_perturb ex_delta 2 ex_e (fun _ _ => true) None
  {| r_dims := []; r_vs := [VData ex_d0] |} {| r_dims := []; r_vs := [VData ex_d1] |} None []
  (fun _ e idx => ((fst e * ex_t idx + qc 2)%Qc, 0%Qc)) (fun _ e _ => (snd e, 0%Qc)) (fun _ => ex_d0) (fun _ => ex_d1).
Proof.
  assert (Hin : forall idx, inside [3%Z] idx -> idx = [0%Z] \/ idx = [1%Z] \/ idx = [2%Z]).
  { intros idx Hi. inversion Hi as [|s out x idx' Hx Hr]; subst. inversion Hr; subst. assert (x = 0 \/ x = 1 \/ x = 2)%Z as [->|[->| ->]] by lia; auto. }
  split; [cbn; lia|]. split; [now right|]. split; [intros h s _ _; reflexivity|]. split; [split; [discriminate|now left]|]. split; [split; [discriminate|now left]|]. split; [discriminate|]. split; [discriminate|].
  intros p _. split; [|split; [|split; [|split; [discriminate|exact Logic.I]]]].
  - split; [reflexivity|]. split; [|exact Logic.I]. exists (fun e => Some (ex_v0 e)). split.
    + split; [reflexivity|]. split; [repeat constructor|]. split; [repeat constructor; lia|]. split; [cbn; lia|]. split; [intros _; split; [reflexivity|discriminate]|]. split.
      * intros [|[|[|k]]] ps Hk; try discriminate; injection Hk as <-; split; reflexivity.
      * intros k s _ Hs. unfold ex_perturb. destruct (Z.eqb_spec s 0) as [->|]; [exfalso; apply Hs; now left|]. destruct (Z.eqb s 7); reflexivity.
    + intro e'. exists (ex_v0 e'). split; [reflexivity|]. split; [|now left]. split; [vm_compute; repeat split; repeat constructor; discriminate|]. split; [split; [cbn; lia|intros [|[|k]]; unfold ext; cbn; auto]|]. split; [|reflexivity].
      intros idx Hi. destruct (Hin idx Hi) as [->|[->| ->]]; reflexivity.
  - split; [reflexivity|]. split; [|exact Logic.I]. exists (fun e => Some (ex_v1 e)). split.
    + split; [reflexivity|]. split; [repeat constructor|]. split; [repeat constructor; lia|]. split; [cbn; lia|]. split; [intros _; split; [reflexivity|discriminate]|]. split.
      * intros [|[|[|k]]] ps Hk; try discriminate; injection Hk as <-; split; reflexivity.
      * intros k s _ Hs. unfold ex_perturb. destruct (Z.eqb_spec s 7) as [->|]; [exfalso; apply Hs; now left|]. destruct (Z.eqb s 0); reflexivity.
    + intro e'. exists (ex_v1 e'). split; [reflexivity|]. split; [|now left]. split; [vm_compute; repeat split; repeat constructor; discriminate|]. split; [split; [cbn; lia|intros [|[|k]]; unfold ext; cbn; auto]|]. split; [|reflexivity].
      intros idx Hi. destruct (Hin idx Hi) as [->|[->| ->]]; reflexivity.
  - intros s _ X. discriminate (f_equal this X).
Qed.
(** a complex side with a modulo is an exception *)
Example ex_modulo_complex : let d v := {| d_value := Some v; d_flags := None; d_spids := []; d_psets := [] |} : vdata cvells Qc in
  let i := {| c_cx := true; c_arr := plain [1%Z] [(0%Qc, 1%Qc)] |} in let one := real_array [1%Z] [1%Q] in
  let go m x y := getResult (F := unit) (fun _ _ => true) m (Some {| r_dims := []; r_vs := [VData (d x)] |}) (Some {| r_dims := []; r_vs := [VData (d y)] |}) None in
  (match go None one i with Ok _ => true | _ => false end) = true /\ go (Some 1%Qc) one i = Err /\ go (Some 1%Qc) i one = Err /\ (match go (Some 1%Qc) one one with Ok _ => true | _ => false end) = true.
Proof. repeat split; vm_compute; reflexivity. Qed.
Print Assumptions condeq_equations.
Print Assumptions condeq_affine.
Print Assumptions condeq_quadratic.
Print Assumptions condeq_flags_weights.
Print Assumptions condeq_modulo.
Print Assumptions condeq_missing.
Print Assumptions condeq_modulo_real.
Print Assumptions condeq_fail_lost_refuted.
Print Assumptions condeq_three_sets_refuted.
