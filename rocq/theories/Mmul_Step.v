(** Proofs about MatrixMultiply: the product of two tensors. *)
From Coq Require Import QArith Qcanon Sorted.
From Verif Require Import Base Poll_Model Vel_Model Vel_Spec Vel_Proofs Vel_Arith Vel_Sums Vel_Thms Fun_Model Fun_Spec Fun_Proofs Fun_Flags Fun_Pert.
From Verif Require Import Ceq_Model Ceq_Spec Ceq_Proofs Mmul_Model Mmul_Spec Mmul_Proofs.
Close Scope Q_scope. Close Scope Qc_scope. Local Open Scope nat_scope.

(** ** Lists *)
Lemma each_ok {A B} (f : A -> res B) : forall l, (forall x, In x l -> exists y, f x = Ok y) -> exists ys, each f l = Ok ys.
Proof.
  induction l as [|x l IH]; intro H; cbn [each]; [eauto|]. destruct (H x (or_introl eq_refl)) as (y & ->). destruct IH as (ys & ->); [intros z Hz; apply H; now right|]. cbn [bind]. eauto.
Qed.
Lemma each_nth {A B} (f : A -> res B) : forall l ys, each f l = Ok ys -> length ys = length l /\ forall i x, nth_error l i = Some x -> exists y, nth_error ys i = Some y /\ f x = Ok y.
Proof.
  induction l as [|x l IH]; intros ys H; cbn [each] in H.
  - injection H as <-. split; [reflexivity|]. intros [|i]; discriminate.
  - destruct (f x) as [y| |] eqn:Ey; cbn [bind] in H; try discriminate. destruct (each f l) as [zs| |]; cbn [bind] in H; try discriminate. injection H as <-.
    destruct (IH zs eq_refl) as [L N]. split; [cbn; now rewrite L|]. intros [|i] z Hz; cbn in *; [injection Hz as <-; eauto|auto].
Qed.
Lemma finite_choice {T} (d : T) (Q : nat -> T -> Prop) : forall q, (forall j, j < q -> exists t, Q j t) -> exists g, forall j, j < q -> Q j (g j).
Proof.
  induction q as [|q IH]; intro H; [exists (fun _ => d); lia|]. destruct IH as (g & Hg); [intros j Hj; apply H; lia|]. destruct (H q ltac:(lia)) as (t & Ht).
  exists (fun j => if Nat.eqb j q then t else g j). intros j Hj. destruct (Nat.eqb_spec j q) as [->|]; [exact Ht|apply Hg; lia].
Qed.
Lemma nth_seq m i : i < m -> nth_error (seq 0 m) i = Some i.
Proof. intro H. rewrite (nth_error_nth' _ 0%nat) by now rewrite seq_length. now rewrite seq_nth by lia. Qed.
Lemma nth_seq_prod r : forall p s i k, i < p -> k < r -> nth_error (list_prod (seq s p) (seq 0 r)) (i * r + k) = Some (s + i, k).
Proof.
  induction p as [|p IH]; intros s i k Hi Hk; [lia|]. cbn [seq list_prod]. destruct i as [|i].
  - rewrite nth_error_app1 by (rewrite map_length, seq_length; lia). rewrite nth_error_map, nth_seq by lia. cbn. do 2 f_equal. lia.
  - rewrite nth_error_app2 by (rewrite map_length, seq_length; cbn; lia). rewrite map_length, seq_length. replace (S i * r + k - r) with (i * r + k) by (cbn; lia).
    rewrite IH by lia. do 2 f_equal. lia.
Qed.
Lemma filter_less {A} (f : A -> bool) x : forall l, In x l -> f x = false -> length (filter f l) <> length l.
Proof.
  assert (Le : forall l, length (filter f l) <= length l) by (induction l as [|y l IH]; cbn; [lia|destruct (f y); cbn; lia]).
  induction l as [|y l IH]; intros Hi Hf; [easy|]. cbn. destruct Hi as [->|Hi].
  - rewrite Hf. specialize (Le l). lia.
  - specialize (IH Hi Hf). specialize (Le l). destruct (f y); cbn; lia.
Qed.

(** ** Tensors *)
Section Shapes.
Context {E : Type}.
Notation tensor := (tensor E).
Lemma shrink_range (t : tensor) i k : in_range (shrink t) i k -> in_range t i k /\ entry (shrink t) i k = entry t i k /\ offset (shrink t) i k = offset t i k.
Proof. destruct t as [x|[|[|p]] [|[|q]] m]; cbn; auto. intros [-> ->]. auto. Qed.
Lemma shrink_planes (t : tensor) : planes (shrink t) = planes t.
Proof. destruct t as [x|[|[|p]] [|[|q]] m]; reflexivity. Qed.
Lemma onto (t : tensor) dims : has_dims t dims -> forall o, o < planes t -> exists i k, in_range t i k /\ offset t i k = o.
Proof.
  destruct t as [x|p q m]; cbn; intros H o Ho; [exists 0, 0; lia|]. destruct H as (_ & Hq & _). exists (o / q), (o mod q).
  pose proof (Nat.div_mod o q ltac:(lia)). pose proof (Nat.mod_upper_bound o q ltac:(lia)). assert (o / q < p) by (apply Nat.div_lt_upper_bound; lia). split; [lia|]. lia.
Qed.
Lemma within (t : tensor) i k : in_range t i k -> offset t i k < planes t.
Proof. destruct t as [x|p q m]; cbn; [lia|]. intros [Hi Hk]. nia. Qed.
Lemma some_entry (t : tensor) dims : has_dims t dims -> in_range t 0 0 /\ offset t 0 0 = 0.
Proof. destruct t as [x|p q m]; cbn; intro H; lia. Qed.
Lemma dims_planes (t : tensor) dims : has_dims t dims -> num_planes dims = planes t.
Proof. destruct t as [x|p q m]; cbn; [intros ->; reflexivity|]. intros (_ & _ & _ & [->|[-> ->]]); cbn; lia. Qed.
Lemma dims_kept (t : tensor) dims : has_dims t dims -> kept_dims dims = dims.
Proof.
  intro H. unfold kept_dims. rewrite (dims_planes t dims H). destruct t as [x|p q m]; cbn in *; [now subst|]. destruct H as (_ & _ & H & _). destruct (Nat.eqb_spec (p * q) 1); [lia|reflexivity].
Qed.
Lemma dims_rank (t : tensor) dims : has_dims t dims -> length dims <= 2 /\ (length dims = 0 <-> exists x, t = Scalar x).
Proof.
  destruct t as [x|p q m]; cbn; [intros ->; cbn; split; [lia|]; split; eauto|]. intros (_ & _ & _ & [->|[_ ->]]); cbn; (split; [lia|]); (split; [lia|intros (x & X); discriminate]).
Qed.
End Shapes.

Section Step.
Context {F E : Type}.
Variable full : list Z.
Variable perturb : E -> Z -> Qc -> E.
Variable delta : nat -> Z -> Qc.
Variable n : nat.
Variable e : E.
Variable accepts : option (vells Z) -> list cvells -> cvells -> bool.
Variable pert_eqb : Qc -> Qc -> bool.
Hypothesis Hfull : 1 <= length full.
Hypothesis Ha : forall f l v, accepts f l v = true.
Hypothesis Hp : forall p, pert_eqb p p = true.
Notation tensor := (tensor E).
Notation result := (result cvells Qc F).
Notation vdata := (vdata cvells Qc).
Notation stands := (Ceq_Spec.stands full).
Notation gives := (gives full).
Notation seen := (Mmul_Spec.seen perturb delta n e).
Notation reads := (Mmul_Spec.reads full perturb delta n e).
Notation tells := (@Fun_Spec.tells cvells Qc E perturb delta n e).
Notation tells_of := (Mmul_Spec.tells_of full perturb delta n e).
Notation flags_go := (Mmul_Spec.flags_go full).
Notation denotes := (@Mmul_Spec.denotes F E full perturb delta n e).
Notation zero := (@Mmul_Spec.stands_for_zero F E full perturb delta n e).
Notation compute := (Mmul_Model.compute accepts pert_eqb).
Notation scalarMultiply := (@scalarMultiply cvells Qc F null_vells is_null is_unity mult_eq accepts pert_eqb).
Notation matrixMultiply := (@matrixMultiply cvells Qc F null_vells is_null mult add_eq accepts pert_eqb).
Notation multiply := (@multiply cvells Qc F null_vells is_null is_unity mult mult_eq add_eq accepts pert_eqb).

Definition fok (o : option (vells Z)) : Prop := match o with Some g => good full g | None => True end.
Lemma fok_go d : flags_go d <-> fok (d_flags d).
Proof. unfold flags_go, fok, good. destruct (d_flags d) as [f|]; [split; [intro H; now apply H|intros H g [= <-]; exact H]|split; [auto|discriminate]]. Qed.
Lemma merge_from_ok (d : vdata) m o : fok (d_flags d) -> fok o ->
  exists r, merge_from d m o = Ok r /\ fok r /\ forall idx, inside full idx -> flags_at r idx = Z.lor (flags_at o idx) (Z.land (flags_at (d_flags d) idx) m).
Proof.
  unfold merge_from. destruct (d_flags d) as [f|]; intros Gf Go.
  - destruct (mergeFlags_spread o f m full Gf Go) as (r & E1 & Gr & _ & At). exists r. split; [exact E1|]. split; [exact Gr|]. exact At.
  - exists o. split; [reflexivity|]. split; [exact Go|]. intros idx _. cbn [flags_at]. now rewrite Z.land_0_l, Z.lor_0_r.
Qed.
Lemma seen_is e' : seen e' <-> seenV perturb delta n e e'.
Proof. reflexivity. Qed.
Lemma reads_ext f x y : reads f x -> (forall e' idx, seen e' -> inside full idx -> x e' idx = y e' idx) -> reads f y.
Proof.
  intros R H e' He. specialize (R e' He). destruct (f e') as [v|]; [eapply stands_ext; [exact R|]; auto|]. intros idx Hi. rewrite <- H by assumption. auto.
Qed.
Lemma tells_of_ext d x y : tells_of d x -> (forall e' idx, seen e' -> inside full idx -> x e' idx = y e' idx) -> tells_of d y.
Proof. intros (f & T & R) H. exists f. split; [exact T|]. eapply reads_ext; eassumption. Qed.
Lemma tells_flags d f fl : tells d f -> tells (with_flags d fl) f.
Proof. intro H. exact H. Qed.

Definition scaled (x : E -> list Z -> cplx) (t : tensor) : tensor :=
  match t with
  | Scalar y => Scalar (fun e idx => timesC (y e idx) (x e idx))
  | Matrix p q m => Matrix p q (fun i k e idx => timesC (m i k e idx) (x e idx))
  end.
Lemma scaled_entry x t i k : entry (scaled x t) i k = fun e idx => timesC (entry t i k e idx) (x e idx).
Proof. now destruct t. Qed.
Lemma scaled_like x t : (forall dims, has_dims (scaled x t) dims <-> has_dims t dims) /\ planes (scaled x t) = planes t /\
  (forall i k, in_range (scaled x t) i k <-> in_range t i k) /\ forall i k, offset (scaled x t) i k = offset t i k.
Proof. destruct t; cbn; repeat split; tauto. Qed.
(** the planes one by one *)
Lemma denotes_planes (r : result) t : has_dims t (r_dims r) -> length (r_vs r) = planes t ->
  (forall i k, in_range t i k -> exists d, nth_error (r_vs r) (offset t i k) = Some (VData d) /\ tells_of d (entry t i k) /\ flags_go d) -> denotes r t.
Proof. intros. split; [assumption|]. split; assumption. Qed.

Lemma product_plane s t x y flags : tells_of s x -> tells_of t y -> d_value s <> None -> d_value t <> None ->
  exists d, compute (computeProduct mult_eq) [t; s] flags = Ok d /\ tells_of d (fun e' idx => timesC (y e' idx) (x e' idx)) /\ d_flags d = flags /\ d_value d <> None.
Proof.
  intros (fs & Ts & Rs) (ft & Tt & Rt) Ns Nt.
  assert (V : forall e', seen e' -> exists v, computeProduct mult_eq (map (fun f => f e') [ft; fs]) = Ok v /\ stands v (fun idx => timesC (y e' idx) (x e' idx))).
  { intros e' He. destruct (tells_some perturb delta n e s fs Ts Ns e' He) as (vs & Es). destruct (tells_some perturb delta n e t ft Tt Nt e' He) as (vt & Et).
    pose proof (Rs e' He) as Rs'. pose proof (Rt e' He) as Rt'. cbn [map computeProduct]. rewrite Es, Et in *. now apply mult_eq_ok. }
  destruct (compute_total perturb delta n e accepts pert_eqb Ha Hp (computeProduct mult_eq) [t; s] [ft; fs] flags) as (d & Ed & Td & Nd & Fd).
  - constructor; [exact Tt|]. constructor; [exact Ts|constructor].
  - intros e' He. destruct (V e' He) as (v & Ev & _). eauto.
  - exists d. split; [exact Ed|]. split; [|split; assumption]. exists (made (computeProduct mult_eq) [ft; fs]). split; [exact Td|].
    intros e' He. unfold made. destruct (V e' He) as (v & -> & Sv). exact Sv.
Qed.
Lemma scalar_plane_ok s ten u x fms fmt i k : tells_of s x -> d_value s <> None -> flags_go s -> denotes ten u -> in_range u i k ->
  exists d, scalar_plane is_null mult_eq accepts pert_eqb s ten fms fmt (offset u i k) = Ok (VData d) /\ tells_of d (fun e' idx => timesC (entry u i k e' idx) (x e' idx)) /\ flags_go d.
Proof.
  intros Ts Ns Fs (_ & _ & D) Hr. destruct (D i k Hr) as (t & Et & Tt & Ft). unfold scalar_plane. rewrite Et. destruct (d_value t) as [v|] eqn:Ev.
  - rewrite fok_go in Fs, Ft.
    assert (M : exists fl, (if vs_isNull is_null s || vs_isNull is_null t then Ok None else bind (merge_from s fms None) (merge_from t fmt)) = Ok fl /\ fok fl).
    { destruct (vs_isNull is_null s || vs_isNull is_null t); [exists None; split; [reflexivity|exact Logic.I]|].
      destruct (merge_from_ok s fms None Fs Logic.I) as (r & -> & Gr & _). cbn [bind]. destruct (merge_from_ok t fmt r Ft Gr) as (r2 & -> & G2 & _). eauto. }
    destruct M as (fl & -> & Gf). cbn [bind]. destruct (product_plane s t x (entry u i k) fl Ts Tt Ns ltac:(congruence)) as (d & -> & Td & Fd & _). cbn [bind].
    exists d. split; [reflexivity|]. split; [exact Td|]. rewrite fok_go, Fd. exact Gf.
  - exists t. split; [reflexivity|]. split; [|exact Ft]. destruct Tt as (f & T & R). exists f. split; [exact T|]. eapply reads_ext; [exact R|].
    intros e' idx He Hi. specialize (R e' He). rewrite (tells_const perturb delta n e t f T (tells_spids perturb delta n e t f T Ev) e' He), Ev in R. rewrite (R idx Hi). now rewrite times_0_l.
Qed.
Lemma unity_plane_ok s d x fms fmt y : flags_go s -> tells_of d y -> flags_go d -> (forall e' idx, seen e' -> inside full idx -> x e' idx = c1) ->
  exists d', @unity_plane cvells Qc F is_null accepts s fms fmt (VData d) = Ok (VData d') /\ tells_of d' (fun e' idx => timesC (y e' idx) (x e' idx)) /\ flags_go d'.
Proof.
  intros Fs T Fd One. rewrite fok_go in Fs, Fd. cbn [unity_plane].
  assert (T' : tells_of d (fun e' idx => timesC (y e' idx) (x e' idx))).
  { eapply tells_of_ext; [exact T|]. intros e' idx He Hi. cbn beta. rewrite (One e' idx He Hi). now rewrite times_1_r. }
  assert (M : exists fl, (if vs_isNull is_null d then Ok None else merge_from d fmt None) = Ok fl /\ fok fl).
  { destruct (vs_isNull is_null d); [exists None; split; [reflexivity|exact Logic.I]|]. destruct (merge_from_ok d fmt None Fd Logic.I) as (r & -> & Gr & _). eauto. }
  destruct M as (fl & -> & Gf). cbn [bind]. destruct (merge_from_ok s fms fl Fs Gf) as (r & -> & Gr & _). cbn [bind]. destruct r as [f|].
  - exists (with_flags d (Some f)). split; [destruct (d_value d); [rewrite Ha|]; reflexivity|]. split; [exact T'|]. rewrite fok_go. exact Gr.
  - exists d. split; [reflexivity|]. split; [exact T'|]. now rewrite fok_go.
Qed.
Lemma scalar_step sca ten x u fms fmt : denotes sca (Scalar x) -> denotes ten u ->
  exists r, scalarMultiply sca ten fms fmt = Ok r /\ (denotes r (scaled x u) \/ zero r (scaled x u)).
Proof.
  intros (D1 & D2 & D3) Du. pose proof Du as (U1 & U2 & U3). destruct (dims_rank u _ U1) as [R2 _]. destruct (scaled_like x u) as (L1 & L2 & L3 & L4).
  unfold Mmul_Model.scalarMultiply. unfold tensorRank. destruct (Nat.ltb_spec 2 (length (r_dims ten))) as [|_]; [lia|].
  destruct (D3 0 0 ltac:(split; reflexivity)) as (s & Es & Ts & Fs). cbn in Es, Ts, D2. destruct (r_vs sca) as [|v0 [|v1 l]] eqn:Ev; cbn in Es, D2; try discriminate. injection Es as ->.
  pose proof Ts as (f & T & R).
  destruct (d_value s) as [sv|] eqn:Es.
  2:{ eexists. split; [reflexivity|]. right. exists no_data. repeat (split; [reflexivity|]). split; [now left|]. intros i k Hr e' idx He Hi. rewrite scaled_entry.
      specialize (R e' He). rewrite (tells_const perturb delta n e s f T (tells_spids perturb delta n e s f T Es) e' He), Es in R. rewrite (R idx Hi). apply times_0_r. }
  assert (C : no_spids s = true -> forall e', seen e' -> stands sv (x e')).
  { intros N e' He. specialize (R e' He). assert (Sp : d_spids s = []) by (unfold no_spids in N; destruct (d_spids s); [reflexivity|discriminate]).
    rewrite (tells_const perturb delta n e s f T Sp e' He), Es in R. exact R. }
  destruct (no_spids s && is_null sv) eqn:N1.
  { apply andb_prop in N1 as [N1 N2]. eexists. split; [reflexivity|]. right. eexists. split; [reflexivity|]. split; [reflexivity|]. split; [reflexivity|]. split; [reflexivity|]. split; [reflexivity|].
    split; [right; exists null_vells; split; [reflexivity|]; split; [reflexivity|]; now apply null_stands|]. intros i k Hr e' idx He Hi. rewrite scaled_entry.
    rewrite (null_is full sv (x e') (C N1 e' He) N2 idx Hi). apply times_0_r. }
  destruct (no_spids s && is_unity sv) eqn:N2.
  { apply andb_prop in N2 as [N2 N3]. assert (One : forall e' idx, seen e' -> inside full idx -> x e' idx = c1) by (intros e' idx He Hi; exact (unity_is full sv (x e') (C N2 e' He) N3 idx Hi)).
    unfold unity_result. destruct (_ || _).
    - destruct (each_ok (unity_plane is_null accepts s fms fmt) (r_vs ten)) as (ys & Ey).
      { intros v Hv. apply In_nth_error in Hv as (o & Ho). assert (Lo : o < planes u) by (rewrite <- U2; apply nth_error_Some; congruence). destruct (onto u _ U1 o Lo) as (i & k & Hr & Eo). subst o.
        destruct (U3 i k Hr) as (d & Ed & Td & Fd). rewrite Ed in Ho. injection Ho as <-. destruct (unity_plane_ok s d x fms fmt (entry u i k) Fs Td Fd One) as (d' & E' & _). eauto. }
      rewrite Ey. cbn [bind]. destruct (each_nth _ _ _ Ey) as [Ly Ny]. eexists. split; [reflexivity|]. left. apply denotes_planes; cbn [r_dims r_vs].
      + now apply L1.
      + now rewrite Ly, L2.
      + intros i k Hr. apply L3 in Hr. rewrite L4, scaled_entry. destruct (U3 i k Hr) as (d & Ed & Td & Fd). destruct (Ny _ _ Ed) as (y & Y1 & Y2).
        destruct (unity_plane_ok s d x fms fmt (entry u i k) Fs Td Fd One) as (d' & E' & T' & F'). rewrite E' in Y2. injection Y2 as <-. eauto.
    - exists ten. split; [reflexivity|]. left. apply denotes_planes; [now apply L1|now rewrite L2|]. intros i k Hr. apply L3 in Hr. rewrite L4, scaled_entry. destruct (U3 i k Hr) as (d & Ed & Td & Fd).
      exists d. split; [exact Ed|]. split; [|exact Fd]. eapply tells_of_ext; [exact Td|]. intros e' idx He Hi. cbn beta. rewrite (One e' idx He Hi). now rewrite times_1_r. }
  rewrite (dims_kept u _ U1), (dims_planes u _ U1).
  assert (Pl : forall i k, in_range u i k -> exists d, scalar_plane is_null mult_eq accepts pert_eqb s ten fms fmt (offset u i k) = Ok (VData d) /\ tells_of d (fun e' idx => timesC (entry u i k e' idx) (x e' idx)) /\ flags_go d).
  { intros i k Hr. apply scalar_plane_ok; try assumption. congruence. }
  destruct (each_ok (scalar_plane is_null mult_eq accepts pert_eqb s ten fms fmt) (seq 0 (planes u))) as (ys & Ey).
  { intros o Ho. apply in_seq in Ho. destruct (onto u _ U1 o ltac:(lia)) as (i & k & Hr & <-). destruct (Pl i k Hr) as (d & -> & _). eauto. }
  rewrite Ey. cbn [bind]. destruct (each_nth _ _ _ Ey) as [Ly Ny]. rewrite seq_length in Ly. eexists. split; [reflexivity|]. left. apply denotes_planes; cbn [r_dims r_vs].
  - now apply L1.
  - now rewrite Ly, L2.
  - intros i k Hr. apply L3 in Hr. rewrite L4, scaled_entry. destruct (Ny (offset u i k) _ (nth_seq _ _ (within u i k Hr))) as (y & Y1 & Y2). destruct (Pl i k Hr) as (d & E' & T' & F').
    rewrite E' in Y2. injection Y2 as <-. eauto.
Qed.

(** ** Matrices *)
Notation vset := (vset cvells Qc F).
Notation null d := (vs_isNull is_null d).
Notation sum_loop := (@sum_loop cvells Qc F is_null).
Notation matrix_plane := (@matrix_plane cvells Qc F null_vells is_null mult add_eq accepts pert_eqb).
Definition vfok (v : vset) : Prop := match v with VFail _ => True | VData d => fok (d_flags d) end.
(** a flag bit of element (i,k): raised by a term neither of whose factors is null *)
Definition raised (fm : Z) (da db : nat -> vdata) (idx : list Z) (b : Z) (j : nat) : Prop :=
  null (da j) = false /\ null (db j) = false /\
  (Z.testbit (flags_at (d_flags (da j)) idx) b = true \/ Z.testbit (flags_at (d_flags (db j)) idx) b = true /\ Z.testbit fm b = true).
Lemma sum_loop_data A B cols fm base k0 (da db : nat -> vdata) : forall m j0 vs flags,
  (forall j, j0 <= j < j0 + m -> nth_error A (base + j) = Some (VData (da j)) /\ nth_error B (k0 + j * cols) = Some (VData (db j)) /\ fok (d_flags (da j)) /\ fok (d_flags (db j))) -> fok flags ->
  exists fl, sum_loop A B cols fm m (base + j0) (k0 + j0 * cols) [] vs flags = Ok ([], vs ++ flat_map (fun j => [da j; db j]) (seq j0 m), fl) /\ fok fl /\
    forall idx b, inside full idx -> (0 <= b)%Z ->
      (Z.testbit (flags_at fl idx) b = true <-> Z.testbit (flags_at flags idx) b = true \/ exists j, j0 <= j < j0 + m /\ raised fm da db idx b j).
Proof.
  induction m as [|m IH]; intros j0 vs flags H Hf.
  - exists flags. split; [cbn; now rewrite app_nil_r|]. split; [exact Hf|]. intros idx b _ _. split; [now left|]. intros [X|(j & Hj & _)]; [exact X|lia].
  - destruct (H j0 ltac:(lia)) as (Ea & Eb & Fa & Fb). cbn [Mmul_Model.sum_loop]. rewrite Ea, Eb. cbn [fails_of app].
    replace (S (base + j0)) with (base + S j0) by lia. replace (k0 + j0 * cols + cols) with (k0 + S j0 * cols) by (cbn; lia).
    assert (M : exists f1, (if null (da j0) || null (db j0) then Ok flags else bind (merge_from (da j0) VellsFullFlagMask flags) (merge_from (db j0) fm)) = Ok f1 /\ fok f1 /\
      forall idx b, inside full idx -> (0 <= b)%Z -> (Z.testbit (flags_at f1 idx) b = true <-> Z.testbit (flags_at flags idx) b = true \/ raised fm da db idx b j0)).
    { unfold raised. destruct (null (da j0)), (null (db j0)); cbn [orb].
      1-3: exists flags; split; [reflexivity|]; split; [exact Hf|]; intros idx b _ _; split; [now left|]; intros [X|(X & Y & _)]; [exact X|discriminate].
      destruct (merge_from_ok (da j0) VellsFullFlagMask flags Fa Hf) as (r1 & -> & G1 & A1). cbn [bind]. destruct (merge_from_ok (db j0) fm r1 Fb G1) as (r2 & -> & G2 & A2).
      exists r2. split; [reflexivity|]. split; [exact G2|]. intros idx b Hi Hb. rewrite (A2 idx Hi), (A1 idx Hi). unfold VellsFullFlagMask. rewrite Z.land_m1_r, !Z.lor_spec, Z.land_spec, !orb_true_iff, andb_true_iff. tauto. }
    destruct M as (f1 & -> & G1 & A1). cbn [bind]. destruct (IH (S j0) (vs ++ [da j0; db j0]) f1) as (fl & -> & Gl & Al); [intros j Hj; apply H; lia|exact G1|].
    exists fl. split; [cbn [seq flat_map]; now rewrite <- app_assoc|]. split; [exact Gl|]. intros idx b Hi Hb. rewrite (Al idx b Hi Hb), (A1 idx b Hi Hb). split.
    + intros [[X|X]|(j & Hj & X)]; [now left|right; exists j0; split; [lia|exact X]|right; exists j; split; [lia|exact X]].
    + intros [X|(j & Hj & X)]; [tauto|]. destruct (Nat.eq_dec j j0) as [->|]; [tauto|]. right. exists j. split; [lia|exact X].
Qed.
Lemma sum_loop_fails A B cols fm base k0 (a b : nat -> vset) : forall m j0 fails vs flags,
  (forall j, j0 <= j < j0 + m -> nth_error A (base + j) = Some (a j) /\ nth_error B (k0 + j * cols) = Some (b j) /\ vfok (a j) /\ vfok (b j)) -> fok flags ->
  exists vs' fl, sum_loop A B cols fm m (base + j0) (k0 + j0 * cols) fails vs flags = Ok (fails ++ flat_map (fun j => fails_of (a j) ++ fails_of (b j)) (seq j0 m), vs', fl).
Proof.
  induction m as [|m IH]; intros j0 fails vs flags H Hf.
  - exists vs, flags. cbn. now rewrite app_nil_r.
  - destruct (H j0 ltac:(lia)) as (Ea & Eb & Fa & Fb). cbn [Mmul_Model.sum_loop]. rewrite Ea, Eb.
    replace (S (base + j0)) with (base + S j0) by lia. replace (k0 + j0 * cols + cols) with (k0 + S j0 * cols) by (cbn; lia). cbn [seq flat_map]. rewrite (app_assoc fails (fails_of (a j0) ++ fails_of (b j0)) (flat_map _ _)).
    assert (H' : forall j, S j0 <= j < S j0 + m -> nth_error A (base + j) = Some (a j) /\ nth_error B (k0 + j * cols) = Some (b j) /\ vfok (a j) /\ vfok (b j)) by (intros j Hj; apply H; lia).
    destruct (fails ++ fails_of (a j0) ++ fails_of (b j0)) as [|x l] eqn:El; [|now apply IH].
    destruct (a j0) as [l1|x]; [now apply IH|]. destruct (b j0) as [l2|y]; [now apply IH|].
    cbn [vfok] in Fa, Fb. assert (M : exists f1, (if null x || null y then Ok flags else bind (merge_from x VellsFullFlagMask flags) (merge_from y fm)) = Ok f1 /\ fok f1).
    { destruct (null x || null y); [eauto|]. destruct (merge_from_ok x VellsFullFlagMask flags Fa Hf) as (r1 & -> & G1 & _). cbn [bind]. destruct (merge_from_ok y fm r1 Fb G1) as (r2 & -> & G2 & _). eauto. }
    destruct M as (f1 & -> & G1). cbn [bind]. now apply IH.
Qed.
Lemma plane_data A B q cols fm i k (da db : nat -> vdata) (x y : nat -> E -> list Z -> cplx) :
  (forall j, j < q -> nth_error A (i * q + j) = Some (VData (da j)) /\ nth_error B (j * cols + k) = Some (VData (db j)) /\ tells_of (da j) (x j) /\ tells_of (db j) (y j) /\ flags_go (da j) /\ flags_go (db j)) ->
  exists d, matrix_plane A B q cols fm (i, k) = Ok (VData d) /\ tells_of d (fun e' idx => sumC q (fun j => timesC (x j e' idx) (y j e' idx))) /\ flags_go d /\
    forall idx b, inside full idx -> (0 <= b)%Z -> (Z.testbit (flags_at (d_flags d) idx) b = true <-> exists j, j < q /\ raised fm da db idx b j).
Proof.
  intro H. unfold Mmul_Model.matrix_plane. destruct (sum_loop_data A B cols fm (i * q) k da db q 0 [] None) as (fl & S1 & G1 & A1).
  { intros j Hj. destruct (H j ltac:(lia)) as (H1 & H2 & _ & _ & H3 & H4). rewrite fok_go in H3, H4. replace (k + j * cols) with (j * cols + k) by lia. auto. }
  { exact Logic.I. }
  rewrite Nat.add_0_r in S1. cbn [Nat.mul] in S1. rewrite Nat.add_0_r in S1. rewrite S1. cbn [bind app].
  destruct (finite_choice (fun _ => None) (fun j f => tells (da j) f /\ reads f (x j)) q) as (fa & Hfa); [intros j Hj; apply (H j Hj)|].
  destruct (finite_choice (fun _ => None) (fun j f => tells (db j) f /\ reads f (y j)) q) as (fb & Hfb); [intros j Hj; apply (H j Hj)|].
  set (fs := flat_map (fun j => [fa j; fb j]) (seq 0 q)).
  assert (Ms : forall e', map (fun f => f e') fs = flat_map (fun j => [fa j e'; fb j e']) (seq 0 q)).
  { intro e'. unfold fs. generalize (seq 0 q). induction l as [|j l IH]; [reflexivity|]. cbn [flat_map app map]. now rewrite IH. }
  assert (V : forall e', seen e' -> exists v, computeSum mult add_eq null_vells (map (fun f => f e') fs) = Ok v /\ stands v (fun idx => sumC q (fun j => timesC (x j e' idx) (y j e' idx)))).
  { intros e' He. rewrite Ms. apply (csum_ok full Hfull (fun j => fa j e') (fun j => fb j e') (fun j => x j e') (fun j => y j e') q 0 null_vells).
    - intros j Hj. destruct (Hfa j ltac:(lia)) as [_ Ra]. destruct (Hfb j ltac:(lia)) as [_ Rb]. split; [exact (Ra e' He)|exact (Rb e' He)].
    - now apply null_stands. }
  destruct (compute_total perturb delta n e accepts pert_eqb Ha Hp (computeSum mult add_eq null_vells) (flat_map (fun j => [da j; db j]) (seq 0 q)) fs fl) as (d & Ed & Td & Nd & Fd).
  - unfold fs. assert (L : forall j, In j (seq 0 q) -> j < q) by (intros j Hj; apply in_seq in Hj; lia). revert L. generalize (seq 0 q). induction l as [|j l IH]; intro L; [constructor|].
    cbn [flat_map app]. constructor; [apply (Hfa j), L; now left|]. constructor; [apply (Hfb j), L; now left|]. apply IH. intros j' Hj'. apply L. now right.
  - intros e' He. destruct (V e' He) as (v & Ev & _). eauto.
  - rewrite Ed. cbn [bind]. exists d. split; [reflexivity|]. split; [|split].
    + exists (made (computeSum mult add_eq null_vells) fs). split; [exact Td|]. intros e' He. unfold made. destruct (V e' He) as (v & -> & Sv). exact Sv.
    + rewrite fok_go, Fd. exact G1.
    + intros idx b Hi Hb. rewrite Fd, (A1 idx b Hi Hb). cbn [flags_at]. rewrite Z.testbit_0_l. split.
      * intros [X|(j & Hj & X)]; [discriminate|]. exists j. split; [lia|exact X].
      * intros (j & Hj & X). right. exists j. split; [lia|exact X].
Qed.
Lemma plane_fail A B q cols fm i k (a b : nat -> vset) :
  (forall j, j < q -> nth_error A (i * q + j) = Some (a j) /\ nth_error B (j * cols + k) = Some (b j) /\ vfok (a j) /\ vfok (b j)) ->
  (exists j, j < q /\ fails_of (a j) ++ fails_of (b j) <> []) ->
  exists x, matrix_plane A B q cols fm (i, k) = Ok (VFail [x]) /\ exists j, j < q /\ (In x (fails_of (a j)) \/ In x (fails_of (b j))).
Proof.
  intros H (j & Hj & N). unfold Mmul_Model.matrix_plane. destruct (sum_loop_fails A B cols fm (i * q) k a b q 0 [] [] None) as (vs & fl & S1).
  { intros j' Hj'. destruct (H j' ltac:(lia)) as (H1 & H2 & H3 & H4). replace (k + j' * cols) with (j' * cols + k) by lia. auto. }
  { exact Logic.I. }
  rewrite Nat.add_0_r in S1. cbn [Nat.mul] in S1. rewrite Nat.add_0_r in S1. rewrite S1. cbn [bind app].
  set (l := flat_map _ _). assert (Nl : l <> []).
  { intro X. destruct (fails_of (a j) ++ fails_of (b j)) as [|x m] eqn:Em; [contradiction|]. assert (Hx : In x l).
    { unfold l. apply in_flat_map. exists j. split; [apply in_seq; lia|]. rewrite Em. now left. }
    rewrite X in Hx. exact Hx. }
  assert (Hl : exists x, addFails (V := cvells) (P := Qc) l = VFail [x] /\ In x l).
  { unfold addFails. destruct (rev l) as [|x m] eqn:Er; [apply (f_equal (@rev F)) in Er; rewrite rev_involutive in Er; contradiction|]. exists x. split; [reflexivity|]. apply in_rev. rewrite Er. now left. }
  destruct Hl as (x & Hx & Ix). exists x. split; [destruct l; [contradiction|]; now rewrite Hx|]. unfold l in Ix. apply in_flat_map in Ix as (j' & Hj' & Ix). apply in_seq in Hj'. apply in_app_or in Ix. exists j'. split; [lia|exact Ix].
Qed.
End Step.
