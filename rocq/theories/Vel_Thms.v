(** Vells arithmetic: broadcasting, in-place operators, shortcuts, reductions, flags. *)
From Coq Require Import QArith Qcanon SpecFloat.
From Verif Require Import Base Vel_Model Vel_Spec Vel_Proofs Vel_Arith Vel_Sums.
Local Open Scope Z_scope.

(** ** C59: element-wise functions broadcast *)
Theorem elementwise_broadcasts : forall (V : Type) (dv : V) op (a b : vells V),
  usable (v_shape a) (v_data a) -> usable (v_shape b) (v_data b) -> broadcastable (v_shape a) (v_shape b) ->
  exists r, binary dv op a b = Ok r /\ joint (v_shape a) (v_shape b) (v_shape r) /\ usable (v_shape r) (v_data r) /\
    forall idx, inside (v_shape r) idx ->
      exists x y, at_index (v_shape a) (v_data a) idx = Some x /\ at_index (v_shape b) (v_data b) idx = Some y /\
        at_index (v_shape r) (v_data r) idx = Some (op x y).
Proof.
  intros V dv op a b Wa Wb B. destruct (binary_eq dv op a b Wa Wb B) as (out & J & Po & F & E).
  eexists. split; [exact E|]. cbn [v_shape v_data plain]. split; [exact J|]. split.
  - split; [now apply filled_map|]. destruct J as [J _], Wa as [_ Ra], Wb as [_ Rb]. unfold MaxAxis in *. lia.
  - intros idx H. inversion F as [|? ? [Fa La] F']; subst. inversion F' as [|? ? [Fb Lb] _]; subst.
    destruct Wa as [[Pa Da] _], Wb as [[Pb Db] _].
    do 2 eexists. split; [|split].
    + eapply get_at; eauto. eapply position_small; eauto.
    + eapply get_at; eauto. eapply position_small; eauto.
    + now rewrite at_map.
Qed.
Theorem incompatible_shapes_rejected : forall (V : Type) (dv : V) op (a b : vells V),
  usable (v_shape a) (v_data a) -> usable (v_shape b) (v_data b) -> ~ broadcastable (v_shape a) (v_shape b) ->
  binary dv op a b = Err.
Proof. intros V dv op a b Wa Wb N. now apply binary_err. Qed.

Definition col : vells Z := plain [3; 1] [10; 20; 30].
Definition row : vells Z := plain [1; 2] [1; 2].
(** a column plus a row; a rank-1 array varies along the first axis *)
Example ex_broadcast :
  binary 0 Z.add col row = Ok (plain [3; 2] [11; 12; 21; 22; 31; 32]) /\
  binary 0 Z.sub (plain [3; 2] [1; 2; 3; 4; 5; 6]) (plain [3] [1; 2; 3]) = Ok (plain [3; 2] [0; 1; 1; 2; 2; 3]) /\
  binary 0 Z.add (plain [3; 2] [1; 2; 3; 4; 5; 6]) (plain [2] [1; 2]) = Err.
Proof. vm_compute. auto. Qed.

(** Nine axes: an array can be made with them, arithmetic on it writes past the stride arrays. *)
Theorem arithmetic_rank_checked_refuted :
  exists a : vells Z, filled (v_shape a) (v_data a) /\ binary 0 Z.add a a = UB.
Proof.
  exists (plain [1; 1; 1; 1; 1; 1; 1; 1; 2] [5; 6]). split; [split; [repeat constructor; lia|reflexivity]|reflexivity].
Qed.

(** ** C60: in-place operators *)
Theorem inplace_same_values : forall (V : Type) (dv : V) narrower op (a b : vells V),
  usable (v_shape a) (v_data a) -> usable (v_shape b) (v_data b) ->
  match binary dv op a b with
  | Ok r => exists r', inplace dv narrower op a b = Ok r' /\ v_shape r' = v_shape r /\ v_data r' = v_data r
  | _ => inplace dv narrower op a b = Err
  end.
Proof.
  intros V dv narrower op a b Wa Wb.
  destruct (binary dv op a b) as [r| |] eqn:E.
  - assert (broadcastable (v_shape a) (v_shape b)) as B.
    { destruct (computeStrides [v_shape a; v_shape b]) as [[o st]| |] eqn:C.
      - assert (~ ~ broadcastable (v_shape a) (v_shape b)) as NN.
        { intro N. rewrite (binary_err dv op a b Wa Wb N) in E. discriminate. }
        intro k. destruct (Z.eq_dec (ext (v_shape a) k) (ext (v_shape b) k)) as [|N1]; [auto|].
        destruct (Z.eq_dec (ext (v_shape a) k) 1) as [|N2]; [auto|].
        destruct (Z.eq_dec (ext (v_shape b) k) 1) as [|N3]; [auto|].
        exfalso. apply NN. intro H. destruct (H k) as [|[|]]; contradiction.
      - unfold binary in E. rewrite C in E. discriminate.
      - unfold binary in E. rewrite C in E. discriminate. }
    destruct (inplace_eq dv narrower op a b Wa Wb B) as (r0 & E0 & _ & I).
    rewrite E in E0. injection E0 as <-. destruct I as [I|I]; rewrite I; eexists; split; reflexivity || split; reflexivity.
  - apply inplace_err; auto. intro B. destruct (binary_eq dv op a b Wa Wb B) as (? & _ & _ & _ & E0). rewrite E in E0. discriminate.
  - exfalso. assert (~ ~ broadcastable (v_shape a) (v_shape b)) as NN.
    { intro N. rewrite (binary_err dv op a b Wa Wb N) in E. discriminate. }
    apply NN. intro B. destruct (binary_eq dv op a b Wa Wb B) as (? & _ & _ & _ & E0). rewrite E in E0. discriminate.
Qed.
(** A real array never takes a complex argument in place: then [a OP= b] is [a = a OP b] with everything that comes
    with it *)
Theorem inplace_not_narrowed : forall (V : Type) (dv : V) narrower op (a b : vells V), narrower a b = true ->
  canApplyInPlace narrower a b = Ok None /\ inplace dv narrower op a b = binary dv op a b.
Proof. intros V dv narrower op a b N. unfold inplace, canApplyInPlace. rewrite N. split; reflexivity. Qed.
Example ex_narrowed : canApplyInPlace (fun a b => forallb Z.even (v_data a) && negb (forallb Z.even (v_data b))) (plain [2] [2; 4]) (plain [2] [1; 2]) = Ok None.
Proof. reflexivity. Qed.
(** not so the flags: applied in place they stay, otherwise they go *)
Theorem inplace_same_flags_refuted : exists (a b : vells Z) r r',
  usable (v_shape a) (v_data a) /\ usable (v_shape b) (v_data b) /\
  binary 0 Z.sub a b = Ok r /\ inplace 0 (fun _ _ => false) Z.sub a b = Ok r' /\ v_flags r = None /\ v_flags r' = Some ([2], [0; 1]).
Proof.
  exists {| v_shape := [2]; v_data := [5; 7]; v_flags := Some ([2], [0; 1]) |}, (plain [1] [1]). do 2 eexists.
  repeat split; try reflexivity; try (repeat constructor; lia); cbn; lia.
Qed.
Example ex_inplace : inplace 0 (fun _ _ => false) Z.add (plain [3; 2] [1; 2; 3; 4; 5; 6]) (plain [3] [10; 20; 30]) = Ok (plain [3; 2] [11; 12; 23; 24; 35; 36])
  /\ inplace 0 (fun _ _ => false) Z.add col row = Ok (plain [3; 2] [11; 12; 21; 22; 31; 32]).
Proof. vm_compute. auto. Qed.

(** ** C61: shortcuts for zero and one *)
Section Shortcuts.
Context {V : Type}.
Variable dv : V.
(** what every index of the joint shape must show *)
Definition pointwise (op : V -> V -> V) (a b r : vells V) : Prop :=
  forall out idx, joint (v_shape a) (v_shape b) out -> inside out idx ->
    exists x y, at_index (v_shape a) (v_data a) idx = Some x /\ at_index (v_shape b) (v_data b) idx = Some y /\
      at_index (v_shape r) (v_data r) idx = Some (op x y).
Lemma at_sub : forall (x : vells V) out idx, usable (v_shape x) (v_data x) -> subshape (v_shape x) out -> inside out idx ->
  at_index (v_shape x) (v_data x) idx = Some (value_at dv x idx).
Proof.
  intros x out idx [[P L] R] S1 H. unfold value_at, at_index.
  assert (0 <= position (v_shape x) idx < size (v_shape x)) as B.
  { apply position_small with (out := out); auto; [|apply S1].
    pose proof (subshape_fits _ _ P S1) as F. apply Forall2_rev' in F. unfold pad in F. rewrite <- map_rev in F. exact F. }
  rewrite (nth_error_nth' (v_data x) dv) by lia. reflexivity.
Qed.
Lemma joint_comm : forall a b out, joint a b out -> joint b a out.
Proof. intros a b out [L X]. split; [lia|]. intro k. rewrite X. lia. Qed.
Lemma broadcastable_comm : forall a b, broadcastable a b -> broadcastable b a.
Proof. intros a b H k. destruct (H k) as [|[|]]; auto. Qed.
Lemma at_both : forall (a b : vells V) out idx, usable (v_shape a) (v_data a) -> usable (v_shape b) (v_data b) -> broadcastable (v_shape a) (v_shape b) ->
  joint (v_shape a) (v_shape b) out -> inside out idx ->
  at_index (v_shape a) (v_data a) idx = Some (value_at dv a idx) /\ at_index (v_shape b) (v_data b) idx = Some (value_at dv b idx).
Proof.
  intros a b out idx Wa Wb B J H. split; (eapply at_sub; [assumption| |exact H]).
  - destruct Wa as [[Pa _] _], Wb as [[Pb _] _]. eapply joint_sub_l; [exact Pa|exact Pb|exact B|exact J].
  - destruct Wa as [[Pa _] _], Wb as [[Pb _] _].
    eapply joint_sub_l; [exact Pb|exact Pa|now apply broadcastable_comm|now apply joint_comm].
Qed.
Lemma scalar_value : forall (a : vells V) idx v, isScalar a = true -> at_index (v_shape a) (v_data a) idx = Some v -> v = get dv (v_data a) 0.
Proof.
  intros a idx v Hs E. unfold isScalar, nelements in Hs. apply Z.eqb_eq in Hs. unfold at_index in E.
  destruct (v_data a) as [|z [|z2 l]]; cbn [length] in Hs; try lia.
  destruct (Z.to_nat (position (v_shape a) idx)) as [|[|n]]; cbn in E; try discriminate. injection E as ->. reflexivity.
Qed.
Lemma binary_pointwise : forall op (a b : vells V), usable (v_shape a) (v_data a) -> usable (v_shape b) (v_data b) -> broadcastable (v_shape a) (v_shape b) ->
  exists r, binary dv op a b = Ok r /\ usable (v_shape r) (v_data r) /\ pointwise op a b r.
Proof.
  intros op a b Wa Wb B. destruct (elementwise_broadcasts V dv op a b Wa Wb B) as (r & E & J & U & H).
  exists r. split; [exact E|]. split; [exact U|]. intros out idx Jo Hi.
  assert (out = v_shape r) as ->.
  { destruct J as [J1 J2], Jo as [K1 K2]. apply shape_eq; [congruence|]. intro k. now rewrite J2, K2. }
  now apply H.
Qed.
Variables (zero one : V) (veqb : V -> V -> bool) (add mul : V -> V -> V).
Lemma null_value : forall (a : vells V), (forall x y, veqb x y = true -> x = y) -> usable (v_shape a) (v_data a) -> isNull dv zero veqb a = true ->
  isScalar a = true /\ get dv (v_data a) 0 = zero.
Proof.
  intros a Q [[P L] _] N. pose proof (product_pos _ P) as S1. change (product (v_shape a)) with (size (v_shape a)) in S1.
  unfold isNull in N. destruct (v_data a) as [|z l] eqn:D; [cbn in L; lia|].
  apply andb_prop in N as [N1 N2]. rewrite <- D in *. auto.
Qed.
Lemma null_usable : usable (v_shape (nullVells zero)) (v_data (nullVells zero)).
Proof. repeat split; cbn; repeat constructor; lia. Qed.
Lemma at_null : forall idx, at_index (v_shape (nullVells zero)) (v_data (nullVells zero)) idx = Some zero.
Proof. intros [|x idx]; reflexivity. Qed.
Lemma null_left_add : forall a b, (forall x y, veqb x y = true -> x = y) -> (forall x, add zero x = x) ->
  usable (v_shape a) (v_data a) -> usable (v_shape b) (v_data b) -> broadcastable (v_shape a) (v_shape b) ->
  isNull dv zero veqb a = true -> pointwise add a b b.
Proof.
  intros a b Q Z0 Wa Wb B N out idx J H. destruct (at_both a b out idx Wa Wb B J H) as [A1 A2].
  do 2 eexists. split; [exact A1|]. split; [exact A2|].
  destruct (null_value a Q Wa N) as [S1 G]. pose proof (scalar_value a idx _ S1 A1) as V1. rewrite V1, G, Z0. exact A2.
Qed.
Lemma null_right_add : forall a b, (forall x y, veqb x y = true -> x = y) -> (forall x, add x zero = x) ->
  usable (v_shape a) (v_data a) -> usable (v_shape b) (v_data b) -> broadcastable (v_shape a) (v_shape b) ->
  isNull dv zero veqb b = true -> pointwise add a b a.
Proof.
  intros a b Q Z0 Wa Wb B N out idx J H. destruct (at_both a b out idx Wa Wb B J H) as [A1 A2].
  do 2 eexists. split; [exact A1|]. split; [exact A2|].
  destruct (null_value b Q Wb N) as [S1 G]. pose proof (scalar_value b idx _ S1 A2) as V1. rewrite V1, G, Z0. exact A1.
Qed.

(** In exact arithmetic [a + b] and [a += b] show the sum at every index, shortcuts or not. *)
Theorem sum_at_every_index : forall narrower a b,
  (forall x y, veqb x y = true -> x = y) -> (forall x, add zero x = x) -> (forall x, add x zero = x) ->
  usable (v_shape a) (v_data a) -> usable (v_shape b) (v_data b) -> broadcastable (v_shape a) (v_shape b) ->
  (exists r, vadd dv zero veqb add a b = Ok r /\ usable (v_shape r) (v_data r) /\ pointwise add a b r) /\
  (exists r, vadd_inplace dv narrower zero veqb add a b = Ok r /\ usable (v_shape r) (v_data r) /\ pointwise add a b r).
Proof.
  intros narrower a b Q Z1 Z2 Wa Wb B.
  destruct (binary_pointwise add a b Wa Wb B) as (r & E & U & P).
  assert (exists r, vadd dv zero veqb add a b = Ok r /\ usable (v_shape r) (v_data r) /\ pointwise add a b r) as A.
  { unfold vadd. destruct (isNull dv zero veqb a) eqn:Na.
    - exists b. split; [reflexivity|]. split; [exact Wb|]. now apply null_left_add.
    - destruct (isNull dv zero veqb b) eqn:Nb.
      + exists a. split; [reflexivity|]. split; [exact Wa|]. now apply null_right_add.
      + eauto. }
  split; [exact A|]. unfold vadd_inplace.
  destruct (isNull dv zero veqb b) eqn:Nb.
  - exists a. split; [reflexivity|]. split; [exact Wa|]. now apply null_right_add.
  - destruct (isNull dv zero veqb a) eqn:Na.
    + exists b. split; [reflexivity|]. split; [exact Wb|]. now apply null_left_add.
    + pose proof (inplace_same_values V dv narrower add a b Wa Wb) as I. rewrite E in I. destruct I as (r' & I & I1 & I2).
      destruct (canApplyInPlace narrower a b) as [[st|]| |] eqn:C; cbn [bind].
      * exists r'. split; [exact I|]. unfold pointwise. rewrite I1, I2. split; assumption.
      * exact A.
      * unfold inplace in I. rewrite C in I. discriminate.
      * unfold inplace in I. rewrite C in I. discriminate.
Qed.

Lemma one_value : forall (a : vells V), (forall x y, veqb x y = true -> x = y) -> isUnity dv one veqb a = true ->
  isScalar a = true /\ get dv (v_data a) 0 = one.
Proof. intros a Q N. unfold isUnity in N. apply andb_prop in N as [N1 N2]. auto. Qed.
Theorem product_at_every_index : forall narrower a b,
  (forall x y, veqb x y = true -> x = y) -> (forall x, mul zero x = zero) -> (forall x, mul x zero = zero) ->
  (forall x, mul one x = x) -> (forall x, mul x one = x) ->
  usable (v_shape a) (v_data a) -> usable (v_shape b) (v_data b) -> broadcastable (v_shape a) (v_shape b) ->
  (exists r, vmul dv zero one veqb mul a b = Ok r /\ usable (v_shape r) (v_data r) /\ pointwise mul a b r) /\
  (exists r, vmul_inplace dv narrower zero one veqb mul a b = Ok r /\ usable (v_shape r) (v_data r) /\ pointwise mul a b r).
Proof.
  intros narrower a b Q Z1 Z2 O1 O2 Wa Wb B.
  destruct (binary_pointwise mul a b Wa Wb B) as (r & E & U & P).
  assert (isNull dv zero veqb a || isNull dv zero veqb b = true -> pointwise mul a b (nullVells zero)) as PN.
  { intros N out idx J H. destruct (at_both a b out idx Wa Wb B J H) as [A1 A2].
    do 2 eexists. split; [exact A1|]. split; [exact A2|]. rewrite at_null. f_equal. symmetry. apply orb_prop in N as [N|N].
    - destruct (null_value a Q Wa N) as [S1 G]. rewrite (scalar_value a idx _ S1 A1), G. apply Z1.
    - destruct (null_value b Q Wb N) as [S1 G]. rewrite (scalar_value b idx _ S1 A2), G. apply Z2. }
  assert (isUnity dv one veqb a = true -> pointwise mul a b b) as PA.
  { intros N out idx J H. destruct (at_both a b out idx Wa Wb B J H) as [A1 A2].
    do 2 eexists. split; [exact A1|]. split; [exact A2|].
    destruct (one_value a Q N) as [S1 G]. rewrite (scalar_value a idx _ S1 A1), G, O1. exact A2. }
  assert (isUnity dv one veqb b = true -> pointwise mul a b a) as PB.
  { intros N out idx J H. destruct (at_both a b out idx Wa Wb B J H) as [A1 A2].
    do 2 eexists. split; [exact A1|]. split; [exact A2|].
    destruct (one_value b Q N) as [S1 G]. rewrite (scalar_value b idx _ S1 A2), G, O2. exact A1. }
  assert (exists r, vmul dv zero one veqb mul a b = Ok r /\ usable (v_shape r) (v_data r) /\ pointwise mul a b r) as A.
  { unfold vmul. destruct (isNull dv zero veqb a || isNull dv zero veqb b) eqn:N.
    - eexists. split; [reflexivity|]. split; [apply null_usable|auto].
    - destruct (isUnity dv one veqb a) eqn:Ua; [eauto|]. destruct (isUnity dv one veqb b) eqn:Ub; eauto. }
  split; [exact A|]. unfold vmul_inplace.
  destruct (isNull dv zero veqb a || isNull dv zero veqb b) eqn:N.
  - eexists. split; [reflexivity|]. split; [apply null_usable|auto].
  - destruct (isUnity dv one veqb a) eqn:Ua; [eauto|]. destruct (isUnity dv one veqb b) eqn:Ub; [eauto|].
    pose proof (inplace_same_values V dv narrower mul a b Wa Wb) as I. rewrite E in I. destruct I as (r' & I & I1 & I2).
    destruct (canApplyInPlace narrower a b) as [[st|]| |] eqn:C; cbn [bind].
    + exists r'. split; [exact I|]. unfold pointwise. rewrite I1, I2. split; assumption.
    + exact A.
    + unfold inplace in I. rewrite C in I. discriminate.
    + unfold inplace in I. rewrite C in I. discriminate.
Qed.
End Shortcuts.
Example ex_shortcuts :
  vadd 0 0 Z.eqb Z.add (plain [1] [0]) col = Ok col /\ vmul 0 0 1 Z.eqb Z.mul col (plain [1] [0]) = Ok (plain [1] [0]) /\ vmul 0 0 1 Z.eqb Z.mul col row = Ok (plain [3; 2] [10; 20; 20; 40; 30; 60]).
Proof. vm_compute. auto. Qed.
(** In binary64 the shortcut changes the product: zero times infinity is not a number, but the
    operator answers zero. *)
Definition inf64 : spec_float := S754_infinity false.
Definition zero64 : spec_float := S754_zero false.
Definition one64 : spec_float := S754_finite false (2 ^ 52)%positive (-52).
Theorem product_shortcut_exact_refuted :
  binary zero64 (SFmul 53 1024) (plain [1] [zero64]) (plain [2] [inf64; one64]) = Ok (plain [2] [S754_nan; zero64]) /\ vmul zero64 zero64 one64 SFeqb (SFmul 53 1024) (plain [1] [zero64]) (plain [2] [inf64; one64]) = Ok (plain [1] [zero64]).
Proof. vm_compute. auto. Qed.

(** ** C62: reductions *)
(** positions that count: all of them without flags or with an empty mask *)
Definition counted {V} (x : vells V) (mask : Z) (idx : list Z) : bool :=
  match v_flags x with None => true | Some (fs, fd) => if mask =? 0 then true else clear fs fd mask idx end.
Definition good_flags {V} (x : vells V) (full : list Z) : Prop :=
  match v_flags x with None => True | Some (fs, fd) => usable fs fd /\ subshape fs full end.
Theorem nelements_counts_unflagged : forall (V : Type) (dv : V) (x : vells V) full mask,
  usable (v_shape x) (v_data x) -> proper full -> subshape (v_shape x) full -> good_flags x full ->
  nelementsWS dv x full mask = Ok (Z.of_nat (length (filter (counted x mask) (indices full)))).
Proof.
  intros V dv x full mask Wx Pf Sx G. unfold counted, good_flags in *.
  assert (forall l : list (list Z), filter (fun _ => true) l = l) as FT by (induction l; cbn; congruence).
  destruct (v_flags x) as [[fs fd]|] eqn:Ef.
  - destruct (Z.eq_dec mask 0) as [->|Nm].
    + unfold nelementsWS. change (0 =? 0) with true. cbv iota. rewrite FT. f_equal. symmetry. now apply indices_length.
    + destruct G as [[Ff Rf] Sf]. rewrite (proj2 (Z.eqb_neq mask 0) Nm).
      now apply (nelementsWS_eq dv x mask fs fd full).
  - unfold nelementsWS. rewrite Ef. destruct (mask =? 0); rewrite FT; f_equal; symmetry; now apply indices_length.
Qed.

Section Reductions.
Context {V : Type}.
Variables (dv : V) (op : V -> V -> V) (e0 : V).
Hypothesis op_assoc : forall a b c, op a (op b c) = op (op a b) c.
Hypothesis op_comm : forall a b, op a b = op b a.
Hypothesis op_unit : forall a, op e0 a = a.
Notation times := (fun n v => nfold op e0 (Z.to_nat n) v).
(** Without flags, sum and product (repeated addition, or multiplication) run over all points of the
    full shape. *)
Theorem reduction_over_shape_partial : forall (x : vells V) full mask,
  usable (v_shape x) (v_data x) -> proper full -> subshape (v_shape x) full -> v_flags x = None ->
  reduceWS dv times op e0 x full mask = Ok (total op e0 (value_at dv x) (indices full)).
Proof.
  intros x full mask Wx Pf Sx Ef. unfold reduceWS, reduce.
  replace (if mask =? 0 then None else v_flags x) with (@None (list Z * list Z)) by (rewrite Ef; destruct (mask =? 0); reflexivity).
  cbn [bind]. f_equal. assert (proper (v_shape x)) as Px by (destruct Wx as [[P _] _]; exact P).
  rewrite (total_over_full V op e0 op_assoc op_comm op_unit (v_shape x) full (value_at dv x) Px Pf Sx).
  - assert (nelements x = size (v_shape x)) as -> by (destruct Wx as [[_ L] _]; exact L).
    change (product full) with (size full). rewrite (size_extra _ _ (subshape_fits _ _ Px Sx)).
    rewrite size_pad by (apply Sx).
    pose proof (product_pos _ Px) as P1. change (product (v_shape x)) with (size (v_shape x)) in P1.
    rewrite Z.div_mul by lia. f_equal.
    rewrite (data_by_indices dv (v_shape x) (v_data x) (proj1 Wx)) at 1.
    rewrite fold_left_map, (fold_left_total op e0 op_assoc op_comm op_unit), op_unit.
    apply total_ext. intros idx Hi. apply (get_value dv x idx (v_shape x)); auto.
    + split; [lia|auto].
    + now apply indices_inside.
  - intros idx Li. unfold value_at, at_index. rewrite clamp_position; auto. apply Sx.
  - intros i z Li. unfold value_at, at_index, position. rewrite position_app by lia. reflexivity.
Qed.
End Reductions.
(** With flags that vary along an axis the data does not, points are counted twice: the sum of the
    constant 1 over two points, none flagged, is 4. *)
Theorem sum_with_flags_refuted :
  let x := {| v_shape := [1]; v_data := [1]; v_flags := Some ([2], [0; 0]) |} in
  good_flags x [2] /\
  reduceWS 0 (fun n v => n * v) Z.add 0 x [2] 1 = Ok 4 /\
  total Z.add 0 (value_at 0 x) (filter (counted x 1) (indices [2])) = 2.
Proof.
  split; [|vm_compute; auto]. split; [split; [split; [repeat constructor; lia|reflexivity]|cbn; lia]|].
  split; [cbn; lia|]. intros [|k]; auto.
Qed.
Example ex_sum : reduceWS 0 (fun n v => n * v) Z.add 0 col [3; 4] 1 = Ok 240 /\
  nelementsWS 0 {| v_shape := [1]; v_data := [1]; v_flags := Some ([2], [0; 1]) |} [2; 5] 1 = Ok 5.
Proof. vm_compute. auto. Qed.

(** *** mean *)
Definition qz (n : Z) : Qc := Q2Qc (inject_Z n).
Lemma qz_add : forall a b, qz (a + b) = (qz a + qz b)%Qc.
Proof. intros. apply Qc_is_canon. unfold qz. cbn [this Q2Qc Qcplus]. rewrite !Qred_correct, inject_Z_plus. reflexivity. Qed.
Lemma qz_mul : forall a b, qz (a * b) = (qz a * qz b)%Qc.
Proof. intros. apply Qc_is_canon. unfold qz. cbn [this Q2Qc Qcmult]. rewrite !Qred_correct, inject_Z_mult. reflexivity. Qed.
Lemma qz_nonzero : forall n, n <> 0 -> qz n <> Q2Qc 0.
Proof.
  intros n N E. apply N. unfold qz in E. apply Qc_is_canon in E || idtac.
  assert (inject_Z n == 0)%Q as E2.
  { apply (f_equal this) in E. cbn [this Q2Qc] in E. rewrite <- (Qred_correct (inject_Z n)), E. reflexivity. }
  unfold Qeq in E2. cbn in E2. lia.
Qed.
Lemma nfold_Qc : forall n v, nfold Qcplus (Q2Qc 0) n v = (qz (Z.of_nat n) * v)%Qc.
Proof.
  induction n as [|n IH]; intro v; cbn [nfold].
  - change (qz (Z.of_nat 0)) with (Q2Qc 0). ring.
  - rewrite IH. rewrite Nat2Z.inj_succ. unfold Z.succ. rewrite qz_add. change (qz 1) with (Q2Qc 1). ring.
Qed.
Definition qmean (x : vells Qc) (mask : Z) : res Qc := mean (Q2Qc 0) (Q2Qc 0) Qcplus (fun y n => (y / qz n)%Qc) x mask.
Lemma reduce_spread : forall (x : vells Qc) full mask,
  usable (v_shape x) (v_data x) -> proper full -> subshape (v_shape x) full -> good_flags x full ->
  exists y n k, reduce (Q2Qc 0) Qcplus (Q2Qc 0) x mask = Ok (y, n) /\ 0 <> k /\
    total Qcplus (Q2Qc 0) (value_at (Q2Qc 0) x) (filter (counted x mask) (indices full)) = (qz k * y)%Qc /\
    Z.of_nat (length (filter (counted x mask) (indices full))) = k * n.
Proof.
  intros x full mask Wx Pf Sx G. assert (proper (v_shape x)) as Px by (destruct Wx as [[P _] _]; exact P).
  assert (forall l : list (list Z), filter (fun _ => true) l = l) as FT by (induction l; cbn; congruence).
  assert (v_flags x = None \/ mask = 0 \/ exists fs fd, v_flags x = Some (fs, fd) /\ mask <> 0) as Cases.
  { destruct (v_flags x) as [[fs fd]|]; [|auto]. destruct (Z.eq_dec mask 0); eauto 6. }
  assert (v_flags x = None \/ mask = 0 ->
    exists y n k, reduce (Q2Qc 0) Qcplus (Q2Qc 0) x mask = Ok (y, n) /\ 0 <> k /\
    total Qcplus (Q2Qc 0) (value_at (Q2Qc 0) x) (filter (counted x mask) (indices full)) = (qz k * y)%Qc /\
    Z.of_nat (length (filter (counted x mask) (indices full))) = k * n) as Plain.
  { intro H.
    assert (filter (counted x mask) (indices full) = indices full) as ->.
    { rewrite <- (FT (indices full)) at 2. apply filter_ext_in'. intros idx _. unfold counted. destruct H as [->| ->]; [reflexivity|].
      destruct (v_flags x) as [[fs fd]|]; reflexivity. }
    exists (total Qcplus (Q2Qc 0) (value_at (Q2Qc 0) x) (indices (v_shape x))), (size (v_shape x)), (extra (pad (v_shape x) (length full)) full).
    pose proof (extra_pos _ _ (subshape_fits _ _ Px Sx) Pf) as Ep.
    split; [|split; [lia|split]].
    - unfold reduce. replace (if mask =? 0 then None else v_flags x) with (@None (list Z * list Z)).
      2:{ destruct H as [->| ->]; [destruct (mask =? 0); reflexivity|reflexivity]. }
      f_equal. f_equal.
      + rewrite (data_by_indices (Q2Qc 0) (v_shape x) (v_data x) (proj1 Wx)) at 1.
        rewrite fold_left_map, (fold_left_total Qcplus (Q2Qc 0) Qcplus_assoc Qcplus_comm Qcplus_0_l), Qcplus_0_l.
        apply total_ext. intros idx Hi. apply (get_value (Q2Qc 0) x idx (v_shape x)); auto.
        * split; [lia|auto].
        * now apply indices_inside.
      + destruct Wx as [[_ L] _]; exact L.
    - rewrite (total_over_full Qc Qcplus (Q2Qc 0) Qcplus_assoc Qcplus_comm Qcplus_0_l (v_shape x) full (value_at (Q2Qc 0) x) Px Pf Sx).
      + rewrite nfold_Qc, Z2Nat.id by lia. reflexivity.
      + intros idx Li. unfold value_at, at_index. rewrite clamp_position; auto. apply Sx.
      + intros i z Li. unfold value_at, at_index, position. rewrite position_app by lia. reflexivity.
    - rewrite indices_length by auto. rewrite (size_extra _ _ (subshape_fits _ _ Px Sx)).
      rewrite size_pad by (apply Sx). reflexivity. }
  destruct Cases as [C|[C|(fs & fd & Ef & Nm)]]; [auto|auto|]. clear Plain.
  unfold good_flags in G. rewrite Ef in G. destruct G as [[Ff Rf] Sf].
  destruct (reduce_flags (Q2Qc 0) Qcplus (Q2Qc 0) x mask fs fd Wx Ef Ff Rf Nm (subshape_broadcast _ _ _ Sx Sf)) as (out & J & Po & R).
  assert (proper fs) as Pfs by (destruct Ff; auto).
  pose proof (joint_subshape _ _ _ _ Px Pfs J Sx Sf) as So.
  pose proof (extra_pos _ _ (subshape_fits _ _ Po So) Pf) as Ep.
  assert (forall l, filter (counted x mask) l = filter (clear fs fd mask) l) as FC.
  { intro l. apply filter_ext_in'. intros idx _. unfold counted. rewrite Ef, (proj2 (Z.eqb_neq mask 0) Nm). reflexivity. }
  rewrite !FC. do 2 eexists. exists (extra (pad out (length full)) full). split; [exact R|]. split; [lia|].
  assert (forall idx, length idx = length full -> clear fs fd mask (clamp (pad out (length full)) idx) = clear fs fd mask idx) as C1.
  { intros idx Li. apply clear_clamp; auto; [apply So|]. intros k Hk. now apply (joint_ones _ _ _ k Px Pfs J) in Hk. }
  assert (forall i z, length i = length out -> clear fs fd mask (i ++ z) = clear fs fd mask i) as C2.
  { intros i z Li. apply clear_app. destruct J as [J _]. lia. }
  split.
  - rewrite (fold_left_total Qcplus (Q2Qc 0) Qcplus_assoc Qcplus_comm Qcplus_0_l), Qcplus_0_l.
    rewrite (total_filter Qcplus (Q2Qc 0) Qcplus_0_l), (total_filter Qcplus (Q2Qc 0) Qcplus_0_l).
    rewrite (total_over_full Qc Qcplus (Q2Qc 0) Qcplus_assoc Qcplus_comm Qcplus_0_l out full _ Po Pf So).
    + rewrite nfold_Qc, Z2Nat.id by lia. f_equal. apply total_ext. intros idx Hi.
      destruct (clear fs fd mask idx); [|reflexivity]. symmetry.
      apply (get_value (Q2Qc 0) x idx out); auto.
      * eapply joint_sub_l; [exact Px|exact Pfs|exact (subshape_broadcast _ _ _ Sx Sf)|exact J].
      * now apply indices_inside.
    + intros idx Li. rewrite C1 by auto. destruct (clear fs fd mask idx); [|reflexivity].
      unfold value_at, at_index. rewrite clamp_position; auto; [apply So|].
      intros k Hk. now apply (joint_ones _ _ _ k Px Pfs J) in Hk.
    + intros i z Li. rewrite C2 by auto. destruct (clear fs fd mask i); [|reflexivity].
      unfold value_at, at_index, position. rewrite position_app by (destruct J as [J _]; lia). reflexivity.
  - rewrite (count_total _ _ (indices full)), (count_total _ _ (indices out)).
    apply total_over_full_Z; auto.
    + intros idx Li. now rewrite C1.
    + intros i z Li. now rewrite C2.
Qed.
(** The mean is the average of the unflagged values over any shape that data and flags can be spread
    over (zero when everything is flagged). *)
Theorem mean_is_average : forall (x : vells Qc) full mask,
  usable (v_shape x) (v_data x) -> proper full -> subshape (v_shape x) full -> good_flags x full ->
  let counting := filter (counted x mask) (indices full) in
  qmean x mask = Ok (match counting with
                     | [] => Q2Qc 0
                     | _ => (total Qcplus (Q2Qc 0) (value_at (Q2Qc 0) x) counting / qz (Z.of_nat (length counting)))%Qc end).
Proof.
  intros x full mask Wx Pf Sx G. destruct (reduce_spread x full mask Wx Pf Sx G) as (y & n & k & R & Nk & T & C). cbv zeta.
  unfold qmean, mean. rewrite R. cbn [bind]. f_equal. rewrite T, C.
  destruct (filter (counted x mask) (indices full)) as [|i l].
  - cbn [length] in C. assert (n = 0) as -> by nia. reflexivity.
  - cbn [length] in C. assert (n <> 0) as Nn by nia. rewrite (proj2 (Z.eqb_neq n 0) Nn).
    rewrite qz_mul. pose proof (qz_nonzero k ltac:(lia)). pose proof (qz_nonzero n Nn). field. auto.
Qed.
Example ex_mean : qmean {| v_shape := [2]; v_data := [qz 3; qz 7]; v_flags := Some ([2; 2], [0; 1; 0; 0]) |} 1 = Ok (Q2Qc (17 # 3)).
Proof. vm_compute. f_equal. Qed.

(** *** min and max *)
Definition qmin (y x : Qc) : Qc := if Qclt_le_dec y x then y else x.
Definition qmax (y x : Qc) : Qc := if Qclt_le_dec y x then x else y.
(** numeric_limits<double>::max() and ::min(): the latter is the smallest positive normal number *)
Definition DBL_MAX : Qc := Q2Qc (inject_Z ((2 ^ 53 - 1) * 2 ^ 971)).
Definition DBL_MIN : Qc := Q2Qc (1 # (2 ^ 1022)).
(** Vells.cc:843-848 *)
Definition vmin (x : vells Qc) (mask : Z) : res Qc := bind (reduce (Q2Qc 0) qmin DBL_MAX x mask) (fun p => Ok (fst p)).
Definition vmax (x : vells Qc) (mask : Z) : res Qc := bind (reduce (Q2Qc 0) qmax DBL_MIN x mask) (fun p => Ok (fst p)).
(** max() of an array of negative numbers is not one of them: it is the smallest positive number *)
Theorem max_of_negatives_refuted : vmax (plain [2] [qz (-3); qz (-2)]) 1 = Ok DBL_MIN.
Proof.
  reflexivity.
Qed.
(** A reduction picking the better of two: no better counted value exists, and the result is a counted
    value if one is at least as good as the initial value. *)
Lemma pick_spec : forall (A : Type) (R : Qc -> Qc -> Prop) (f : A -> Qc) sel,
  (forall a, R a a) -> (forall a b c, R a b -> R b c -> R a c) ->
  (forall y x, R (sel y x) y /\ R (sel y x) x /\ (sel y x = y \/ sel y x = x)) -> forall l init,
  let m := fold_left (fun y i => sel y (f i)) l init in
  R m init /\ (forall i, In i l -> R m (f i)) /\ (m = init \/ exists i, In i l /\ m = f i).
Proof.
  intros A R f sel Rr Rt Hs. induction l as [|i l IH]; intro init; cbn [fold_left].
  - cbn zeta. split; [apply Rr|]. split; [intros i []|left; reflexivity].
  - destruct (IH (sel init (f i))) as (I1 & I2 & I3). cbv zeta. destruct (Hs init (f i)) as (S1 & S2 & S3).
    split; [eapply Rt; eauto|]. split.
    + intros j [<-|Hj]; [eapply Rt; eauto|auto].
    + destruct I3 as [I3|(j & Hj & Ej)]; [|right; exists j; cbn; auto].
      destruct S3 as [S3|S3]; [left|right; exists i; split; [left; reflexivity|]]; etransitivity; eauto.
Qed.
(** what min() and max() range over: the joint shape of data and flags *)
Definition spans (x : vells Qc) (mask : Z) (out : list Z) : Prop :=
  match v_flags x with None => out = v_shape x | Some (fs, fd) => if mask =? 0 then out = v_shape x else joint (v_shape x) fs out end.
Definition flags_fit (x : vells Qc) : Prop :=
  match v_flags x with None => True | Some (fs, fd) => usable fs fd /\ broadcastable (v_shape x) fs end.
Lemma reduce_counted : forall (x : vells Qc) mask step init, usable (v_shape x) (v_data x) -> flags_fit x ->
  exists out, spans x mask out /\ proper out /\
    reduce (Q2Qc 0) step init x mask =
    Ok (fold_left (fun y idx => step y (value_at (Q2Qc 0) x idx)) (filter (counted x mask) (indices out)) init,
        Z.of_nat (length (filter (counted x mask) (indices out)))).
Proof.
  intros x mask step init Wx G. assert (proper (v_shape x)) as Px by (destruct Wx as [[P _] _]; exact P).
  assert (forall l : list (list Z), filter (fun _ => true) l = l) as FT by (induction l; cbn; congruence).
  unfold spans, flags_fit, counted in *.
  assert (fold_left step (v_data x) init = fold_left (fun y idx => step y (value_at (Q2Qc 0) x idx)) (indices (v_shape x)) init) as D.
  { rewrite (data_by_indices (Q2Qc 0) (v_shape x) (v_data x) (proj1 Wx)) at 1. rewrite fold_left_map.
    assert (forall l init, (forall idx, In idx l -> inside (v_shape x) idx) ->
      fold_left (fun y idx => step y (get (Q2Qc 0) (v_data x) (position (v_shape x) idx))) l init = fold_left (fun y idx => step y (value_at (Q2Qc 0) x idx)) l init) as Q.
    { induction l as [|i l IH]; intros z H; cbn [fold_left]; auto. rewrite IH by (intros; apply H; cbn; auto).
      rewrite (get_value (Q2Qc 0) x i (v_shape x)); auto; [split; [lia|auto]|apply H; cbn; auto]. }
    apply Q. intros. now apply indices_inside. }
  destruct (v_flags x) as [[fs fd]|] eqn:Ef.
  - destruct (mask =? 0) eqn:Em.
    + exists (v_shape x). split; [reflexivity|]. split; [exact Px|]. unfold reduce. rewrite Em, FT, D. f_equal. f_equal.
      rewrite indices_length by auto. destruct Wx as [[_ L] _]; exact L.
    + apply Z.eqb_neq in Em. destruct G as [[Ff Rf] B].
      destruct (reduce_flags (Q2Qc 0) step init x mask fs fd Wx Ef Ff Rf Em B) as (out & J & Po & R).
      exists out. split; [exact J|]. split; [exact Po|]. rewrite R. f_equal. f_equal.
      assert (forall l z, (forall idx, In idx l -> inside out idx) ->
        fold_left (fun y idx => step y (get (Q2Qc 0) (v_data x) (position (v_shape x) idx))) l z = fold_left (fun y idx => step y (value_at (Q2Qc 0) x idx)) l z) as Q.
      { induction l as [|i l IH]; intros z H; cbn [fold_left]; auto. rewrite IH by (intros; apply H; cbn; auto).
        rewrite (get_value (Q2Qc 0) x i out); auto; [|apply H; cbn; auto].
        eapply joint_sub_l; [exact Px| |exact B|exact J]. destruct Ff; auto. }
      apply Q. intros idx Hi. apply filter_In in Hi as [Hi _]. now apply indices_inside.
  - exists (v_shape x). split; [reflexivity|]. split; [exact Px|]. unfold reduce. rewrite Ef, FT.
    replace (if mask =? 0 then None else None) with (@None (list Z * list Z)) by (destruct (mask =? 0); reflexivity).
    rewrite D. f_equal. f_equal. rewrite indices_length by auto. destruct Wx as [[_ L] _]; exact L.
Qed.
Theorem min_of_counted : forall x mask, usable (v_shape x) (v_data x) -> flags_fit x ->
  exists out m, spans x mask out /\ vmin x mask = Ok m /\
    (forall idx, inside out idx -> counted x mask idx = true -> (m <= value_at (Q2Qc 0) x idx)%Qc) /\
    ((exists idx, inside out idx /\ counted x mask idx = true /\ (value_at (Q2Qc 0) x idx <= DBL_MAX)%Qc) ->
     exists idx, inside out idx /\ counted x mask idx = true /\ m = value_at (Q2Qc 0) x idx).
Proof.
  intros x mask Wx G. destruct (reduce_counted x mask qmin DBL_MAX Wx G) as (out & Sp & Po & R).
  unfold vmin. rewrite R. cbn [bind fst]. exists out. eexists. split; [exact Sp|]. split; [reflexivity|].
  destruct (pick_spec (list Z) Qcle (value_at (Q2Qc 0) x) qmin Qcle_refl Qcle_trans) with (l := filter (counted x mask) (indices out)) (init := DBL_MAX)
    as (P1 & P2 & P3).
  { intros y v. unfold qmin. destruct (Qclt_le_dec y v) as [L|L]; repeat split; auto using Qcle_refl, Qclt_le_weak. }
  split.
  - intros idx H C. apply P2. apply filter_In. split; auto. now apply inside_indices.
  - intros (idx & H & C & L). destruct P3 as [P3|(i & Hi & Ei)].
    + exists idx. split; [exact H|]. split; [exact C|]. apply Qcle_antisym.
      * apply P2. apply filter_In. split; auto. now apply inside_indices.
      * rewrite P3. exact L.
    + apply filter_In in Hi as [Hi Ci]. exists i. split; [now apply indices_inside|]. auto.
Qed.
Theorem max_of_counted_partial : forall x mask, usable (v_shape x) (v_data x) -> flags_fit x ->
  exists out m, spans x mask out /\ vmax x mask = Ok m /\
    (forall idx, inside out idx -> counted x mask idx = true -> (value_at (Q2Qc 0) x idx <= m)%Qc) /\
    ((exists idx, inside out idx /\ counted x mask idx = true /\ (DBL_MIN <= value_at (Q2Qc 0) x idx)%Qc) ->
     exists idx, inside out idx /\ counted x mask idx = true /\ m = value_at (Q2Qc 0) x idx).
Proof.
  intros x mask Wx G. destruct (reduce_counted x mask qmax DBL_MIN Wx G) as (out & Sp & Po & R).
  unfold vmax. rewrite R. cbn [bind fst]. exists out. eexists. split; [exact Sp|]. split; [reflexivity|].
  destruct (pick_spec (list Z) (fun a b => Qcle b a) (value_at (Q2Qc 0) x) qmax) with (l := filter (counted x mask) (indices out)) (init := DBL_MIN)
    as (P1 & P2 & P3).
  { apply Qcle_refl. }
  { intros a b c H1 H2. eapply Qcle_trans; eauto. }
  { intros y v. unfold qmax. destruct (Qclt_le_dec y v) as [L|L]; repeat split; auto using Qcle_refl, Qclt_le_weak. }
  split.
  - intros idx H C. apply P2. apply filter_In. split; auto. now apply inside_indices.
  - intros (idx & H & C & L). destruct P3 as [P3|(i & Hi & Ei)].
    + exists idx. split; [exact H|]. split; [exact C|]. apply Qcle_antisym.
      * rewrite P3. exact L.
      * apply P2. apply filter_In. split; auto. now apply inside_indices.
    + apply filter_In in Hi as [Hi Ci]. exists i. split; [now apply indices_inside|]. auto.
Qed.
Example ex_min_max :
  vmin {| v_shape := [3]; v_data := [qz 3; qz 7; qz (-5)]; v_flags := Some ([3], [0; 2; 1]) |} 1 = Ok (qz 3) /\
  vmax {| v_shape := [3]; v_data := [qz 3; qz 7; qz (-5)]; v_flags := Some ([3], [0; 2; 1]) |} 1 = Ok (qz 7).
Proof. split; reflexivity. Qed.

(** ** C63: flags *)
(** Merging flags: at every index the old bits and the selected new ones, nothing else. *)
Theorem merged_flags : forall f0 f1 fm, usable (v_shape f1) (v_data f1) ->
  match f0 with None => True | Some f => usable (v_shape f) (v_data f) /\ broadcastable (v_shape f) (v_shape f1) end ->
  exists r, mergeFlags f0 f1 fm = Ok r /\
    match f0, r with
    | None, None => fm = 0
    | None, Some g => v_shape g = v_shape f1 /\ forall idx, at_index (v_shape g) (v_data g) idx = option_map (fun b => Z.land b fm) (at_index (v_shape f1) (v_data f1) idx)
    | Some f, None => False
    | Some f, Some g => forall out idx, joint (v_shape f) (v_shape f1) out -> inside out idx ->
        exists x y, at_index (v_shape f) (v_data f) idx = Some x /\ at_index (v_shape f1) (v_data f1) idx = Some y /\
          at_index (v_shape g) (v_data g) idx = Some (Z.lor x (Z.land y fm))
    end.
Proof.
  intros f0 f1 fm W1 W0. unfold mergeFlags.
  set (g := if fm =? VellsFullFlagMask then f1 else unary (fun f => Z.land f fm) f1).
  assert (usable (v_shape g) (v_data g) /\ v_shape g = v_shape f1) as [Wg Sg].
  { unfold g. destruct (fm =? VellsFullFlagMask); [auto|]. split; [|reflexivity]. cbn [unary plain v_shape v_data].
    destruct W1 as [[P L] R]. split; [split; [exact P|now rewrite map_length]|exact R]. }
  assert (forall idx, at_index (v_shape g) (v_data g) idx = option_map (fun b => Z.land b fm) (at_index (v_shape f1) (v_data f1) idx)) as Ag.
  { intro idx. unfold g. destruct (fm =? VellsFullFlagMask) eqn:E.
    - apply Z.eqb_eq in E. subst fm. destruct (at_index (v_shape f1) (v_data f1) idx); [|reflexivity].
      cbn [option_map]. f_equal. symmetry. apply Z.land_m1_r.
    - unfold at_index. cbn [unary plain v_shape v_data]. apply nth_error_map. }
  destruct (fm =? 0) eqn:Ez.
  - apply Z.eqb_eq in Ez. subst fm. exists f0. split; [reflexivity|]. destruct f0 as [f|]; [|reflexivity].
    destruct W0 as [Wf B]. intros out idx J H. destruct (at_both 0 f f1 out idx Wf W1 B J H) as [A1 A2].
    do 2 eexists. split; [exact A1|]. split; [exact A2|]. rewrite Z.land_0_r, Z.lor_0_r. exact A1.
  - destruct f0 as [f|].
    + destruct W0 as [Wf B]. rewrite <- Sg in B.
      destruct (binary_pointwise 0 Z.lor f g Wf Wg B) as (r & E & U & P).
      pose proof (inplace_same_values Z 0 (fun _ _ => false) Z.lor f g Wf Wg) as I. rewrite E in I. destruct I as (r' & I & I1 & I2).
      unfold flagOr. fold g. rewrite I. cbn [bind]. eexists. split; [reflexivity|]. cbv beta iota.
      intros out idx J H. rewrite <- Sg in J. destruct (P out idx J H) as (x & y & A1 & A2 & A3). rewrite Ag in A2.
      destruct (at_index (v_shape f1) (v_data f1) idx) as [y1|]; [|discriminate]. cbn [option_map] in A2. injection A2 as <-.
      exists x, y1. rewrite I1, I2. auto.
    + eexists. split; [reflexivity|]. split; [exact Sg|exact Ag].
Qed.
Example ex_merge : mergeFlags (Some (plain [2; 1] [1; 0])) (plain [1; 3] [0; 2; 7]) 2 = Ok (Some (plain [2; 3] [1; 3; 3; 0; 2; 2])) /\
  mergeFlags None (plain [3] [0; 2; 7]) 2 = Ok (Some (plain [3] [0; 2; 2])).
Proof. vm_compute. auto. Qed.

(** Replacing flagged values: flagged elements, and only they, get the value; flags varying along an
    axis the data does not are refused. *)
Theorem flagged_values_replaced : forall (V : Type) (x : vells V) fs fd value mask,
  usable (v_shape x) (v_data x) -> usable fs fd -> broadcastable (v_shape x) fs ->
  (subshape fs (v_shape x) ->
   exists r, replaceFlagged x fs fd value mask = Ok r /\ v_shape r = v_shape x /\ v_flags r = v_flags x /\ usable (v_shape r) (v_data r) /\
     forall idx, inside (v_shape x) idx ->
       at_index (v_shape r) (v_data r) idx = if clear fs fd mask idx then at_index (v_shape x) (v_data x) idx else Some value) /\
  (~ subshape fs (v_shape x) -> replaceFlagged x fs fd value mask = Err).
Proof.
  intros V x fs fd value mask Wx [Ff Rf] B. pose proof (fun dv => replaceFlagged_eq dv x fs fd value mask Wx Ff Rf B) as E.
  assert (proper (v_shape x)) as Px by (destruct Wx as [[P _] _]; exact P). assert (proper fs) as Pf by (destruct Ff; auto).
  split.
  - intros [Lf Sf].
    set (r := {| v_shape := v_shape x;
                 v_data := map (fun idx => if clear fs fd mask idx then match at_index (v_shape x) (v_data x) idx with Some v => v | None => value end else value) (indices (v_shape x));
                 v_flags := v_flags x |}).
    exists r. specialize (E value).
    assert (v_shape x = map (fun k => Z.max (ext (v_shape x) k) (ext fs k)) (seq 0 (Nat.max (length (v_shape x)) (length fs)))) as Q.
    { rewrite Nat.max_l by auto. rewrite <- (map_ext_self (v_shape x)) at 1. apply map_ext. intro k.
      pose proof (ext_pos _ Px k). destruct (Sf k) as [->| ->]; lia. }
    assert (subshape fs (v_shape x)) as Sub by (split; auto).
    assert (Forall2 fits (rext fs (length (v_shape x))) (rev (v_shape x))) as F.
    { pose proof (subshape_fits _ _ Pf Sub) as F. apply Forall2_rev' in F. unfold pad in F. rewrite <- map_rev in F. exact F. }
    destruct (list_eq_dec Z.eq_dec (v_shape x) _) as [_|N] in E; [|contradiction].
    split; [|split; [reflexivity|split; [reflexivity|split]]].
    + rewrite E. f_equal. unfold r. f_equal. apply map_ext_in. intros idx Hi. apply indices_inside in Hi.
      unfold clear. rewrite (getf_flag fs fd (v_shape x) idx Ff F Lf Hi).
      destruct (Z.land (flag_at fs fd idx) mask =? 0); [|reflexivity].
      rewrite (get_value value x idx (v_shape x)); auto. split; auto.
    + split; [now apply filled_map|]. destruct Wx as [_ R]. exact R.
    + intros idx Hi. cbn [r v_shape v_data]. unfold r. cbn [v_shape v_data]. rewrite at_map by auto.
      destruct (clear fs fd mask idx); [|reflexivity].
      rewrite (at_sub value x (v_shape x) idx); auto. split; auto.
  - intro N. destruct (v_data x) as [|v l] eqn:D.
    + exfalso. destruct Wx as [[_ L] _]. pose proof (product_pos _ Px) as P1. unfold product, size in *. cbn [length] in L. lia.
    + rewrite (E v). destruct (list_eq_dec Z.eq_dec (v_shape x) _) as [Q|_]; [|reflexivity].
      exfalso. apply N. assert (length fs <= length (v_shape x))%nat as Lf.
      { apply (f_equal (@length Z)) in Q. rewrite map_length, seq_length in Q. lia. }
      split; [exact Lf|]. intro k. destruct (B k) as [H|[H|H]]; auto.
      destruct (Nat.lt_ge_cases k (length (v_shape x))) as [Hk|Hk]; [|left; apply ext_over; lia].
      right. pose proof (f_equal (fun s => ext s k) Q) as Qk. cbv beta in Qk.
      unfold ext at 2 in Qk. rewrite (nth_map_seq (fun k => Z.max (ext (v_shape x) k) (ext fs k))) in Qk by lia.
      pose proof (ext_pos _ Pf k). lia.
Qed.
Example ex_replace : replaceFlagged (plain [2; 2] [1; 2; 3; 4]) [1; 2] [0; 4] 9 4 = Ok (plain [2; 2] [1; 9; 3; 9]) /\
  replaceFlagged (plain [2] [1; 2]) [2; 2] [0; 0; 0; 4] 9 4 = Err.
Proof. vm_compute. auto. Qed.

(** The complement of flags is not the complement of the flags: it is that of the new array's memory. *)
Theorem flag_complement_refuted : exists fresh x, usable (v_shape x) (v_data x) /\ (forall n, length (fresh n) = n) /\
  v_data (flagNot fresh x) <> map Z.lnot (v_data x).
Proof.
  exists (fun n => repeat 0 n), (plain [1] [1]). split; [repeat split; cbn; repeat constructor; lia|].
  split; [apply repeat_length|]. discriminate.
Qed.

(** Binary min and max with flags: an unflagged operand wins over a flagged one at every index. *)
Definition flags_of {V} (v : vells V) : list Z * list Z := match v_flags v with Some f => f | None => ([1], [0]) end.
Theorem binary_with_flags : forall (V : Type) (dv : V) sel (a b : vells V) ma mb,
  let fa := flags_of a in let fb := flags_of b in
  usable (v_shape a) (v_data a) -> usable (v_shape b) (v_data b) -> usable (fst fa) (snd fa) -> usable (fst fb) (snd fb) ->
  all_broadcastable [v_shape a; v_shape b; fst fa; fst fb] ->
  exists r, binaryWF dv sel a b ma mb = Ok r /\ usable (v_shape r) (v_data r) /\
    (forall k, ext (v_shape r) k = Z.max (Z.max (ext (v_shape a) k) (ext (v_shape b) k)) (Z.max (ext (fst fa) k) (ext (fst fb) k))) /\
    forall idx, inside (v_shape r) idx ->
      exists x y, at_index (v_shape a) (v_data a) idx = Some x /\ at_index (v_shape b) (v_data b) idx = Some y /\
        at_index (v_shape r) (v_data r) idx =
        Some (match clear (fst fa) (snd fa) ma idx, clear (fst fb) (snd fb) mb idx with
              | true, true => sel x y | true, false => x | false, true => y | false, false => x end).
Proof.
  intros V dv sel a b ma mb fa fb Wa Wb Wfa Wfb B.
  destruct (computeStrides_ok [v_shape a; v_shape b; fst fa; fst fb]) as (out & st & E & L & X & Po & S1).
  - repeat constructor; [apply Wa|apply Wb|apply Wfa|apply Wfb].
  - unfold ranks. cbn [fold_right]. destruct Wa as [_ R1], Wb as [_ R2], Wfa as [_ R3], Wfb as [_ R4]. unfold MaxAxis. lia.
  - exact B.
  - assert (Forall (fun s => Forall2 fits (rext s (length out)) (rev out) /\ (length s <= length out)%nat) [v_shape a; v_shape b; fst fa; fst fb]) as F.
    { apply strides_shapes; auto. intros j s Hj. now destruct (S1 j s Hj). }
    destruct (S1 0%nat _ eq_refl) as [N0 _]. destruct (S1 1%nat _ eq_refl) as [N1 _].
    destruct (S1 2%nat _ eq_refl) as [N2 _]. destruct (S1 3%nat _ eq_refl) as [N3 _].
    pose proof (run_indices out [v_shape a; v_shape b; fst fa; fst fb] Po F) as R. cbn [map] in R.
    unfold binaryWF. change (flagsOf a) with fa. change (flagsOf b) with fb. cbv zeta. rewrite E. cbn [bind].
    rewrite N0, N1, N2, N3. unfold nelements.
    replace (Z.of_nat (length (v_data a))) with (size (v_shape a)) by (destruct Wa as [[_ D] _]; congruence).
    replace (Z.of_nat (length (v_data b))) with (size (v_shape b)) by (destruct Wb as [[_ D] _]; congruence).
    replace (Z.of_nat (length (snd fa))) with (size (fst fa)) by (destruct Wfa as [[_ D] _]; congruence).
    replace (Z.of_nat (length (snd fb))) with (size (fst fb)) by (destruct Wfb as [[_ D] _]; congruence).
    rewrite R. cbn [bind]. eexists. split; [reflexivity|]. cbn [plain v_shape v_data]. rewrite map_map.
    split; [|split].
    + split; [now apply filled_map|]. rewrite L. unfold ranks. cbn [fold_right].
      destruct Wa as [_ R1], Wb as [_ R2], Wfa as [_ R3], Wfb as [_ R4]. lia.
    + intro k. rewrite X. unfold max_ext. cbn [map fold_right].
      pose proof (ext_pos _ (proj1 (proj1 Wa)) k). lia.
    + intros idx H. rewrite at_map by auto. cbn [nth].
      inversion F as [|? ? [F0 L0] F']; subst. inversion F' as [|? ? [F1 L1] F'']; subst.
      inversion F'' as [|? ? [F2 L2] F3']; subst. inversion F3' as [|? ? [F3 L3] _]; subst.
      exists (get dv (v_data a) (position (v_shape a) idx)), (get dv (v_data b) (position (v_shape b) idx)).
      split; [|split].
      * eapply get_at; [apply Wa|]. eapply position_small; eauto.
      * eapply get_at; [apply Wb|]. eapply position_small; eauto.
      * f_equal. unfold clear.
        rewrite (getf_flag (fst fa) (snd fa) out idx (proj1 Wfa) F2 L2 H), (getf_flag (fst fb) (snd fb) out idx (proj1 Wfb) F3 L3 H).
        destruct (Z.land (flag_at (fst fa) (snd fa) idx) ma =? 0), (Z.land (flag_at (fst fb) (snd fb) idx) mb =? 0); reflexivity.
Qed.
Example ex_binary_flags :
  binaryWF 0 Z.min {| v_shape := [2]; v_data := [1; 2]; v_flags := Some ([2], [1; 0]) |} (plain [1; 2] [5; 0]) 1 1 = Ok (plain [2; 2] [5; 0; 2; 0]).
Proof. reflexivity. Qed.

Print Assumptions elementwise_broadcasts.
Print Assumptions incompatible_shapes_rejected.
Print Assumptions arithmetic_rank_checked_refuted.
Print Assumptions inplace_same_values.
Print Assumptions inplace_same_flags_refuted.
Print Assumptions sum_at_every_index.
Print Assumptions product_at_every_index.
Print Assumptions product_shortcut_exact_refuted.
Print Assumptions nelements_counts_unflagged.
Print Assumptions reduction_over_shape_partial.
Print Assumptions sum_with_flags_refuted.
Print Assumptions mean_is_average.
Print Assumptions max_of_negatives_refuted.
Print Assumptions min_of_counted.
Print Assumptions max_of_counted_partial.
Print Assumptions merged_flags.
Print Assumptions flagged_values_replaced.
Print Assumptions flag_complement_refuted.
Print Assumptions binary_with_flags.
