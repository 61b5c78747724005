(** Proofs about MatrixMultiply: Vells arithmetic on fields, and the VellSets made of factors. *)
From Coq Require Import QArith Qcanon Sorted.
From Verif Require Import Base Poll_Model Vel_Model Vel_Spec Vel_Proofs Vel_Arith Vel_Sums Vel_Thms Fun_Model Fun_Spec Fun_Proofs Fun_Flags Fun_Pert.
From Verif Require Import Ceq_Model Ceq_Spec Ceq_Proofs Mmul_Model Mmul_Spec.
Close Scope Q_scope. Close Scope Qc_scope. Local Open Scope nat_scope.

(** ** Complex numbers *)
Lemma cplx_ext (x y : cplx) : fst x = fst y -> snd x = snd y -> x = y.
Proof. destruct x, y. cbn. congruence. Qed.
Lemma ceqb_eq x y : ceqb x y = true -> x = y.
Proof. unfold ceqb. intro H. apply andb_prop in H as [A B]. apply Qc_eq_bool_correct in A. apply Qc_eq_bool_correct in B. now apply cplx_ext. Qed.
Lemma ceqb_refl x : ceqb x x = true.
Proof. unfold ceqb, Qc_eq_bool. destruct (Qc_eq_dec (fst x) (fst x)); [|contradiction]. destruct (Qc_eq_dec (snd x) (snd x)); [reflexivity|contradiction]. Qed.
Lemma times_0_l x : timesC zeroC x = zeroC.
Proof. apply cplx_ext; cbn; ring. Qed.
Lemma times_0_r x : timesC x zeroC = zeroC.
Proof. apply cplx_ext; cbn; ring. Qed.
Lemma times_1_l x : timesC c1 x = x.
Proof. apply cplx_ext; cbn; ring. Qed.
Lemma times_1_r x : timesC x c1 = x.
Proof. apply cplx_ext; cbn; ring. Qed.
Lemma times_comm x y : timesC x y = timesC y x.
Proof. apply cplx_ext; cbn; ring. Qed.
Lemma times_assoc x y z : timesC x (timesC y z) = timesC (timesC x y) z.
Proof. apply cplx_ext; cbn; ring. Qed.
Lemma plus_0_l x : plusC zeroC x = x.
Proof. apply cplx_ext; cbn; ring. Qed.
Lemma plus_0_r x : plusC x zeroC = x.
Proof. apply cplx_ext; cbn; ring. Qed.

(** ** Arithmetic *)
Section Arith.
Variable full : list Z.
Notation stands := (Ceq_Spec.stands full).
Lemma scalar_is v x w : stands v x -> isScalar (c_arr v) = true -> get c0 (v_data (c_arr v)) 0 = w -> forall idx, inside full idx -> x idx = w.
Proof. intros (_ & _ & A & _) Sc G idx Hi. rewrite <- G. now apply (@scalar_value _ c0 (c_arr v) idx (x idx) Sc), A. Qed.
Lemma null_is v x : stands v x -> is_null v = true -> forall idx, inside full idx -> x idx = zeroC.
Proof.
  intros H N. destruct (@null_value _ c0 c0 c0 ceqb cplus cplus (c_arr v) ceqb_eq (proj1 H) N) as [Sc G]. exact (scalar_is v x _ H Sc G).
Qed.
Lemma unity_is v x : stands v x -> is_unity v = true -> forall idx, inside full idx -> x idx = c1.
Proof. intros H N. destruct (@one_value _ c0 c1 ceqb (c_arr v) ceqb_eq N) as [Sc G]. exact (scalar_is v x _ H Sc G). Qed.
Lemma real_times a b x y : stands a x -> stands b y -> c_cx a || c_cx b = false -> forall idx, inside full idx -> snd (timesC (x idx) (y idx)) = 0%Qc.
Proof.
  intros (_ & _ & _ & Ia) (_ & _ & _ & Ib) Hc idx Hi. apply orb_false_iff in Hc as [Ca Cb]. cbn. rewrite (Ia Ca idx Hi), (Ib Cb idx Hi). ring.
Qed.
Lemma real_plus a b x y : stands a x -> stands b y -> c_cx a || c_cx b = false -> forall idx, inside full idx -> snd (plusC (x idx) (y idx)) = 0%Qc.
Proof.
  intros (_ & _ & _ & Ia) (_ & _ & _ & Ib) Hc idx Hi. apply orb_false_iff in Hc as [Ca Cb]. cbn. rewrite (Ia Ca idx Hi), (Ib Cb idx Hi). ring.
Qed.
Lemma add_eq_ok a b x y : stands a x -> stands b y -> exists r, add_eq a b = Ok r /\ stands r (fun idx => plusC (x idx) (y idx)).
Proof.
  intros Ha Hb. unfold add_eq. destruct (is_null b) eqn:Nb.
  { exists a. split; [reflexivity|]. eapply stands_ext; [exact Ha|]. intros idx Hi. cbn beta. now rewrite (null_is b y Hb Nb idx Hi), plus_0_r. }
  destruct (is_null a) eqn:Na.
  { exists b. split; [reflexivity|]. eapply stands_ext; [exact Hb|]. intros idx Hi. cbn beta. now rewrite (null_is a x Ha Na idx Hi), plus_0_l. }
  destruct (elementwise_inplace full (fun _ _ => negb (c_cx a) && c_cx b) cplus a b x y Ha Hb) as (r & -> & U & S1 & A). cbn [lift bind].
  eexists. split; [reflexivity|]. split; [exact U|]. split; [exact S1|]. split; [exact A|]. cbn [c_cx]. apply (real_plus a b x y Ha Hb).
Qed.
Hypothesis Hfull : 1 <= length full.
Lemma null_stands : stands null_vells (fun _ => zeroC).
Proof. exact (stands_scalar full Hfull 0%Qc). Qed.
Lemma mult_short a b x y : stands a x -> stands b y -> (is_null a || is_null b = true -> stands null_vells (fun idx => timesC (x idx) (y idx))) /\
  (is_unity a = true -> stands b (fun idx => timesC (x idx) (y idx))) /\ (is_unity b = true -> stands a (fun idx => timesC (x idx) (y idx))).
Proof.
  intros Ha Hb. split; [|split].
  - intro N. eapply stands_ext; [exact null_stands|]. intros idx Hi. cbn beta. apply orb_prop in N as [N|N].
    + now rewrite (null_is a x Ha N idx Hi), times_0_l.
    + now rewrite (null_is b y Hb N idx Hi), times_0_r.
  - intro N. eapply stands_ext; [exact Hb|]. intros idx Hi. cbn beta. now rewrite (unity_is a x Ha N idx Hi), times_1_l.
  - intro N. eapply stands_ext; [exact Ha|]. intros idx Hi. cbn beta. now rewrite (unity_is b y Hb N idx Hi), times_1_r.
Qed.
Lemma mult_ok a b x y : stands a x -> stands b y -> exists r, mult a b = Ok r /\ stands r (fun idx => timesC (x idx) (y idx)).
Proof.
  intros Ha Hb. destruct (mult_short a b x y Ha Hb) as (H1 & H2 & H3). unfold mult.
  destruct (is_null a || is_null b); [eauto|]. destruct (is_unity a); [eauto|]. destruct (is_unity b); [eauto|].
  destruct (elementwise full cmult a b x y Ha Hb) as (r & -> & U & S1 & A). cbn [lift bind].
  eexists. split; [reflexivity|]. split; [exact U|]. split; [exact S1|]. split; [exact A|]. cbn [c_cx]. apply (real_times a b x y Ha Hb).
Qed.
Lemma mult_eq_ok a b x y : stands a x -> stands b y -> exists r, mult_eq a b = Ok r /\ stands r (fun idx => timesC (x idx) (y idx)).
Proof.
  intros Ha Hb. destruct (mult_short a b x y Ha Hb) as (H1 & H2 & H3). unfold mult_eq.
  destruct (is_null a || is_null b); [eauto|]. destruct (is_unity a); [eauto|]. destruct (is_unity b); [eauto|].
  destruct (elementwise_inplace full (fun _ _ => negb (c_cx a) && c_cx b) cmult a b x y Ha Hb) as (r & -> & U & S1 & A). cbn [lift bind].
  eexists. split; [reflexivity|]. split; [exact U|]. split; [exact S1|]. split; [exact A|]. cbn [c_cx]. apply (real_times a b x y Ha Hb).
Qed.

(** a value, or nothing for zero *)
Definition gives (o : option cvells) (x : list Z -> cplx) : Prop :=
  match o with Some v => stands v x | None => forall idx, inside full idx -> x idx = zeroC end.
Notation csum := (computeSum mult add_eq).
Lemma csum_ok (a b : nat -> option cvells) (x y : nat -> list Z -> cplx) : forall q j0 out,
  (forall j, j0 <= j < j0 + q -> gives (a j) (x j) /\ gives (b j) (y j)) ->
  stands out (fun idx => sumC j0 (fun j => timesC (x j idx) (y j idx))) ->
  exists r, csum out (flat_map (fun j => [a j; b j]) (seq j0 q)) = Ok r /\ stands r (fun idx => sumC (j0 + q) (fun j => timesC (x j idx) (y j idx))).
Proof.
  induction q as [|q IH]; intros j0 out H Ho.
  - exists out. split; [reflexivity|]. now rewrite Nat.add_0_r.
  - cbn [seq flat_map app computeSum]. destruct (H j0 ltac:(lia)) as [Ga Gb]. rewrite <- Nat.add_succ_comm.
    assert (H' : forall j, S j0 <= j < S j0 + q -> gives (a j) (x j) /\ gives (b j) (y j)) by (intros j Hj; apply H; lia).
    destruct (a j0) as [va|]; [destruct (b j0) as [vb|]|].
    + destruct (mult_ok va vb _ _ Ga Gb) as (p & -> & Sp). cbn [bind]. destruct (add_eq_ok out p _ _ Ho Sp) as (o & -> & So). cbn [bind]. apply IH; [exact H'|exact So].
    + apply IH; [exact H'|]. eapply stands_ext; [exact Ho|]. intros idx Hi. cbn [sumC]. cbn in Gb. now rewrite (Gb idx Hi), times_0_r, plus_0_r.
    + apply IH; [exact H'|]. eapply stands_ext; [exact Ho|]. intros idx Hi. cbn [sumC]. cbn in Ga. now rewrite (Ga idx Hi), times_0_l, plus_0_r.
Qed.
End Arith.

(** ** VellSets *)
Section Compute.
Context {V P E : Type}.
Variable perturb : E -> Z -> P -> E.
Variable delta : nat -> Z -> P.
Variable n : nat.
Variable e : E.
Variable accepts : option (vells Z) -> list V -> V -> bool.
Variable pert_eqb : P -> P -> bool.
Hypothesis Ha : forall f l v, accepts f l v = true.
Hypothesis Hp : forall p, pert_eqb p p = true.
Notation tells := (Fun_Spec.tells perturb delta n e).
Definition seenV (e' : E) : Prop := e' = e \/ exists k s, k < n /\ e' = perturb e s (delta k s).

Lemma tells_spids (d : vdata V P) f : tells d f -> d_value d = None -> d_spids d = [].
Proof. intros (_ & _ & _ & _ & T & _) N. destruct (d_spids d) as [|s l]; [reflexivity|]. destruct (T ltac:(discriminate)) as [_ X]. contradiction. Qed.
Lemma tells_const (d : vdata V P) f : tells d f -> d_spids d = [] -> forall e', seenV e' -> f e' = d_value d.
Proof. intros (T1 & _ & _ & _ & _ & _ & T7) N e' [->|(k & s & Hk & ->)]; [now symmetry|]. rewrite T7; [now symmetry|exact Hk|]. rewrite N. easy. Qed.
Lemma tells_rel (d : vdata V P) f : tells d f -> rel perturb delta n e (valued d) f.
Proof.
  intro T. unfold valued. destruct (d_value d) as [v|] eqn:Ev; [split; [exact T|rewrite Ev; discriminate]|].
  pose proof (tells_const d f T (tells_spids d f T Ev)) as C. split; [rewrite C, Ev; [reflexivity|now left]|]. intros k s Hk. rewrite C, Ev; [reflexivity|]. right. eauto.
Qed.
Lemma tells_some (d : vdata V P) f : tells d f -> d_value d <> None -> forall e', seenV e' -> exists v, f e' = Some v.
Proof.
  intros (T1 & _ & _ & _ & T5 & T6 & T7) N. assert (N' : f e <> None) by congruence.
  assert (B : exists v, f e = Some v) by (destruct (f e) as [v|]; [eauto|contradiction]).
  intros e' [->|(k & s & Hk & ->)]; [exact B|]. destruct (in_dec Z.eq_dec s (d_spids d)) as [Hs|Hs]; [|rewrite T7; assumption].
  destruct T5 as [T5 _]; [intro X; rewrite X in Hs; contradiction|]. destruct (nth_error (d_psets d) k) as [ps|] eqn:Ep; [|apply nth_error_None in Ep; lia].
  destruct (T6 k ps Ep) as [_ Tv]. apply In_nth_error in Hs as (i & Hs). destruct (nth_map_some _ _ _ _ _ Tv Hs) as (y & _ & Y). eauto.
Qed.
Lemma findSpids_valued (vs : list (vdata V P)) fs : Forall2 tells vs fs -> findSpids (map Some vs) = findSpids (map valued vs).
Proof.
  intro T. unfold findSpids.
  assert (E1 : map (fun c : option (vdata V P) => match c with Some d => d_spids d | None => [] end) (map valued vs) =
               map (fun c : option (vdata V P) => match c with Some d => d_spids d | None => [] end) (map Some vs)).
  { rewrite !map_map. induction T as [|d f vs fs Td T IH]; [reflexivity|]. cbn [map]. f_equal; [|exact IH].
    unfold valued. destruct (d_value d) eqn:Ev; [reflexivity|]. symmetry. exact (tells_spids d f Td Ev). }
  rewrite E1. set (spids := map _ (map Some vs)) in *.
  destruct (concat spids) as [|x l] eqn:Ec; [reflexivity|]. f_equal.
  assert (In : forall d, In d vs -> exists f, tells d f) by (clear - T; induction T as [|d0 f0 vs fs T0 T IH]; [easy|]; intros d [<-|H]; eauto).
  assert (Hx : exists d, List.In d vs /\ List.In x (d_spids d)).
  { assert (Hx : List.In x (concat spids)) by (rewrite Ec; now left). apply in_concat in Hx as (m & Hm & Hx). unfold spids in Hm. rewrite map_map in Hm. apply in_map_iff in Hm as (d & <- & Hd). eauto. }
  destruct Hx as (d & Hd & Hx). destruct (In d Hd) as (f & Td).
  assert (Nd : numPertSets d = n /\ d_value d <> None) by (destruct Td as (_ & _ & _ & _ & T5 & _); apply T5; intro X; rewrite X in Hx; contradiction).
  assert (B : forall d', List.In d' vs -> numPertSets d' <= n) by (intros d' H'; destruct (In d' H') as (f' & (_ & _ & _ & T4 & _)); exact T4).
  assert (B1 : Forall (fun c : option (vdata V P) => match c with Some d => numPertSets d <= n | None => True end) (map Some vs)).
  { apply Forall_forall. intros c Hc. apply in_map_iff in Hc as (d' & <- & Hd'). auto. }
  assert (B2 : Forall (fun c : option (vdata V P) => match c with Some d => numPertSets d <= n | None => True end) (map valued vs)).
  { apply Forall_forall. intros c Hc. apply in_map_iff in Hc as (d' & <- & Hd'). unfold valued. destruct (d_value d'); auto. }
  destruct (fold_max True pert_eqb perturb delta n e (fun _ => Hp) (map Some vs) 0 ltac:(lia) B1) as [L1 M1]. destruct (fold_max True pert_eqb perturb delta n e (fun _ => Hp) (map valued vs) 0 ltac:(lia) B2) as [L2 M2].
  specialize (M1 d ltac:(now apply in_map)). specialize (M2 d). assert (Hv : List.In (Some d) (map valued vs)).
  { apply in_map_iff. exists d. split; [|exact Hd]. unfold valued. destruct (d_value d); [reflexivity|]. now destruct (proj2 Nd). }
  specialize (M2 Hv). lia.
Qed.
Lemma tells_values (vs : list (vdata V P)) fs : Forall2 tells vs fs -> map d_value vs = map (fun f => f e) fs.
Proof. induction 1 as [|d f vs fs Td T IH]; [reflexivity|]. cbn [map]. rewrite IH. f_equal. apply Td. Qed.
Lemma compute_total evaluate (vs : list (vdata V P)) fs flags : Forall2 tells vs fs ->
  (forall e', seenV e' -> exists v, evaluate (map (fun f => f e') fs) = Ok v) ->
  exists d, Mmul_Model.compute accepts pert_eqb evaluate vs flags = Ok d /\ tells d (made evaluate fs) /\ d_value d <> None /\ d_flags d = flags.
Proof.
  intros T Ev.
  assert (R : Forall2 (rel perturb delta n e) (map valued vs) fs) by (clear - T; induction T; cbn [map]; constructor; [now apply tells_rel|assumption]).
  assert (EQ : Mmul_Model.compute accepts pert_eqb evaluate vs flags = compute_with (fun _ => true) accepts pert_eqb evaluate (map valued vs) (map (fun f => f e) fs) flags).
  { unfold Mmul_Model.compute, compute_with. rewrite (findSpids_valued vs fs T), (tells_values vs fs T), map_map. destruct (findSpids (map valued vs)) as [npert spids]. reflexivity. }
  rewrite EQ.
  assert (S : forall e', seenV e' -> spec True False (evaluate (map (fun f => f e') fs)) (fun _ => True)) by (intros e' He; destruct (Ev e' He) as (v & ->); exact Logic.I).
  pose proof (compute_with_ok True False (fun _ => true) (fun _ => true) accepts pert_eqb evaluate perturb delta n e ltac:(reflexivity) ltac:(intros _; exact Hp) ltac:(intros _; exact Ha)
    flags (map valued vs) fs R (S e ltac:(now left)) ltac:(intros s k Hk; apply S; right; eauto)) as K.
  destruct (compute_with _ _ _ _ _ _ _) as [d| |]; cbn in K; [eauto|tauto|contradiction].
Qed.
End Compute.
