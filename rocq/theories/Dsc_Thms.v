(** Theorems about the discovery of solvable parameters. *)
From Coq Require Import QArith Qcanon Sorted.
From Verif Require Import Base Polc_Model Polc_Spec Polc_Alg Polc_Proofs Polc_Solve Polc_Thms Slv_Model Slv_Spec Slv_Thms Dsc_Model Dsc_Spec Dsc_Proofs.
Close Scope Q_scope. Close Scope Qc_scope. Local Open Scope nat_scope.

Lemma axes_spids : forall n f k, f_spids (add_axes f k n) = f_spids f.
Proof. induction n as [|n IH]; intros f k; [reflexivity|]. cbn [add_axes]. now rewrite IH. Qed.
Lemma shape_spids f s : f_spids (setCoeffShape f s) = f_spids f.
Proof. unfold setCoeffShape. destruct (list_eq_dec _ _ _); [reflexivity|]. cbn [with_coeff f_spids]. apply axes_spids. Qed.
Lemma init_solved i f d f' : initSolvable i true f d = Ok f' ->
  exists f1, makeSolvable (clearSolvable (with_dom f d)) (256 * i) = Ok f1 /\ f_spids f' = f_spids f1 /\ f_inx f' = f_inx f1 /\ f_shape f' = f_shape f1 /\ getCoeffIndex f' = getCoeffIndex f1.
Proof.
  unfold initSolvable. destruct (makeSolvable _ _) as [f1| |]; try discriminate. cbn [bind]. intros H. injection H as <-. exists f1. split; [reflexivity|]. destruct (qeqb (f_pert f1) q0); repeat split.
Qed.
Lemma init_spids i f d f' : initSolvable i true f d = Ok f' -> f_spids f' = map (fun k => (256 * i + Z.of_nat k)%Z) (seq 0 (length (f_spids f'))).
Proof. intros H. destruct (init_solved i f d f' H) as (f1 & M & -> & _). exact (proj1 (polc_spids _ _ _ M)). Qed.
Lemma own_spids p f : own_funklet p -> ready p = Ok f -> f_spids f = map (fun k => (256 * p_node p + Z.of_nat k)%Z) (seq 0 (length (f_spids f))).
Proof.
  intros O H. unfold ready in H. destruct (match f_spids (p_funklet p) with [] => _ | _ => _ end) as [f1| |] eqn:E; try discriminate. cbn [bind] in H. injection H as <-.
  assert (X : f_spids (match p_shape p with Some s => setCoeffShape f1 s | None => f1 end) = f_spids f1) by (destruct (p_shape p); [apply shape_spids|reflexivity]). rewrite X.
  destruct O as [O|(f0 & d & O)].
  - rewrite O in E. exact (init_spids _ _ _ _ E).
  - destruct (f_spids (p_funklet p)) eqn:S; [exact (init_spids _ _ _ _ E)|]. injection E as <-. exact (init_spids _ _ _ _ O).
Qed.
Lemma numbered_NoDup b n : NoDup (map (fun k => (b + Z.of_nat k)%Z) (seq 0 n)).
Proof. apply FinFun.Injective_map_NoDup; [|apply seq_NoDup]. intros x y H. lia. Qed.
Lemma numbered_nth b n i s : nth_error (map (fun k => (b + Z.of_nat k)%Z) (seq 0 n)) i = Some s -> s = (b + Z.of_nat i)%Z /\ i < n.
Proof.
  intros H. assert (L : i < n) by (rewrite <- (seq_length n 0), <- (map_length (fun k => (b + Z.of_nat k)%Z)); apply nth_error_Some; congruence).
  split; [|exact L]. apply (nth_error_nth _ _ 0%Z) in H. rewrite <- H, (nth_indep _ 0%Z (b + Z.of_nat 0)%Z) by (rewrite map_length, seq_length; exact L).
  rewrite (map_nth (fun k => (b + Z.of_nat k)%Z)), seq_nth by exact L. lia.
Qed.
Definition own (t : tree) : Prop := forall p, below t p -> own_funklet p.
Lemma own_distinct t : own t -> forall p f, below t p -> p_solvable p = true -> ready p = Ok f -> NoDup (f_spids f).
Proof. intros O p f Hb _ Hr. rewrite (own_spids p f (O p Hb) Hr). apply numbered_NoDup. Qed.

(** ** A node reports exactly the spids of the solvable Parms below it, each once, and every entry describes such a Parm. *)
Theorem discover_exactly t a : own t -> discover t = Ok a ->
  StronglySorted Z.lt (keys (map_of a)) /\
  (forall s, In s (keys (map_of a)) <-> exists p i, below t p /\ unknown_of p i s) /\
  (forall s e, lookup s (map_of a) = Some e -> exists p i f, below t p /\ unknown_of p i s /\ ready p = Ok f /\
     e_node e = p_node p /\ e_group e = p_group p /\ e_tiles e = p_tiles p /\ e_coeff e = getCoeffIndex f i).
Proof.
  intros O H. destruct (discover_ok t a (own_distinct t O) H) as (A & B & C). split; [exact A|]. split; [exact B|].
  intros s e E. destruct (C s e E) as (p & i & f & Hb & U & R & ->). exists p, i, f. repeat (split; [assumption|]). repeat split.
Qed.
Lemma unknown_number p i s : own_funklet p -> unknown_of p i s -> s = (256 * p_node p + Z.of_nat i)%Z /\ exists f, ready p = Ok f /\ i < length (f_spids f).
Proof.
  intros O (_ & f & R & N). rewrite (own_spids p f O R) in N. destruct (numbered_nth _ _ _ _ N) as [-> L]. split; [reflexivity|]. exists f. now split.
Qed.
(** While no Parm has more than 256 unknowns each unknown is described as what it is: its node, group, tiles and
    the place of its coefficient. *)
Theorem discover_describes t a p i s : own t -> one_per_node t -> (forall q, below t q -> small q) -> discover t = Ok a ->
  below t p -> unknown_of p i s ->
  exists e f, lookup s (map_of a) = Some e /\ ready p = Ok f /\ nth_error (f_spids f) i = Some s /\ e_node e = p_node p /\ e_group e = p_group p /\ e_tiles e = p_tiles p /\
    (in_shape p -> exists k, nth_error (f_inx f) k = Some (Some i) /\ e_coeff e = (k / ny f, k mod ny f)).
Proof.
  intros O N S H Hb U. destruct (discover_ok t a (own_distinct t O) H) as (A & B & C).
  assert (K : In s (keys (map_of a))) by (apply B; eauto). apply lookup_In in K as (e & E). destruct (C s e E) as (q & j & f & Hq & Uq & R & ->).
  destruct (unknown_number p i s (O p Hb) U) as (E1 & f1 & R1 & L1). destruct (unknown_number q j s (O q Hq) Uq) as (E2 & f2 & R2 & L2).
  pose proof (S p Hb f1 R1) as S1. pose proof (S q Hq f2 R2) as S2.
  assert (p = q) as <- by (apply N; auto; lia). assert (i = j) as <- by lia.
  exists (describe p f i), f. split; [exact E|]. split; [exact R|]. split; [destruct U as (_ & f' & R' & X); rewrite R in R'; now injection R' as <-|]. repeat (split; [reflexivity|]).
  intros Sh. cbn [describe e_coeff].
  assert (M : exists f0 d, initSolvable (p_node p) true f0 d = Ok f).
  { unfold ready in R. destruct (match f_spids (p_funklet p) with [] => _ | _ => _ end) as [f3| |] eqn:E3; try discriminate. cbn [bind] in R. injection R as <-.
    assert (I : (exists f0 d, initSolvable (p_node p) true f0 d = Ok f3) /\ f_shape f3 = f_shape (p_funklet p)).
    { destruct (f_spids (p_funklet p)) eqn:Sp.
      - split; [eauto|]. destruct (init_solved _ _ _ _ E3) as (f4 & M & _ & _ & -> & _). destruct (polc_solved _ _ _ M) as (_ & (_ & _ & _ & _ & G & _) & _). exact G.
      - injection E3 as <-. split; [|reflexivity]. destruct (O p Hb) as [X|X]; [congruence|exact X]. }
    destruct I as [I Is]. destruct (p_shape p) as [sh|] eqn:Ep; [|exact I]. unfold setCoeffShape. rewrite Is, (Sh sh Ep). destruct (list_eq_dec _ sh sh); [exact I|congruence]. }
  destruct M as (f0 & d & M). destruct (init_solved _ _ _ _ M) as (f4 & M4 & Es & Ei & Eh & ->). destruct (polc_spids _ _ _ M4) as (_ & _ & _ & P1 & P2 & _).
  assert (L : i < length (f_spids f4)) by (rewrite <- Es; rewrite R in R1; injection R1 as <-; exact L1).
  destruct (P2 i L) as (k & Hk). exists k. rewrite Ei. split; [exact Hk|]. rewrite (proj2 (P1 k i Hk)).
  destruct (polc_solved _ _ _ M4) as (_ & G & _). rewrite <- (proj2 (same_nx _ _ G)). unfold ny. now rewrite Eh.
Qed.
(** The map depends on nothing but the Parms below: not on the order of children, nor on how often a Parm is reached. *)
Lemma order_ext : forall m m', in_order m -> in_order m' -> (forall s, lookup s m = lookup s m') -> m = m'.
Proof.
  unfold in_order. induction m as [|(k, x) m IH]; intros [|(k', x') m'] H H' E.
  - reflexivity.
  - specialize (E k'). cbn [lookup] in E. rewrite Z.eqb_refl in E. discriminate.
  - specialize (E k). cbn [lookup] in E. rewrite Z.eqb_refl in E. discriminate.
  - cbn [keys map fst] in H, H'. inversion H as [|? ? H1 H2]; subst. inversion H' as [|? ? H1' H2']; subst.
    assert (k = k').
    { pose proof (E k) as E1. pose proof (E k') as E2. cbn [lookup] in E1, E2. rewrite Z.eqb_refl in E1, E2.
      destruct (Z.eqb_spec k k'); [assumption|]. destruct (Z.eqb_spec k' k); [congruence|]. exfalso.
      assert (I1 : In k (keys m')) by (apply lookup_In; eauto). assert (I2 : In k' (keys m)) by (apply lookup_In; eauto).
      apply (proj1 (Forall_forall _ _) H2') in I1. apply (proj1 (Forall_forall _ _) H2) in I2. lia. }
    subst k'. assert (x = x') as <- by (specialize (E k); cbn [lookup] in E; rewrite Z.eqb_refl in E; congruence). f_equal. apply IH; [assumption|assumption|].
    intros s. specialize (E s). cbn [lookup] in E. destruct (Z.eqb_spec s k); [|exact E]. subst. now rewrite (lookup_low k m H2), (lookup_low k m' H2').
Qed.
Theorem discover_order t t' a a' : own t -> one_per_node t -> (forall q, below t q -> small q) -> (forall p, below t p <-> below t' p) ->
  discover t = Ok a -> discover t' = Ok a' -> map_of a = map_of a'.
Proof.
  intros O N S Same H H'. assert (O' : own t') by (intros p X; apply O; now apply Same). assert (N' : one_per_node t') by (intros p q X Y; apply N; now apply Same).
  destruct (discover_ok t a (own_distinct t O) H) as (A & B & C). destruct (discover_ok t' a' (own_distinct t' O') H') as (A' & B' & C').
  apply order_ext; [exact A|exact A'|]. intros s.
  destruct (lookup s (map_of a)) as [e|] eqn:E; destruct (lookup s (map_of a')) as [e'|] eqn:E'; try reflexivity.
  - f_equal. destruct (C s e E) as (p & i & f & Hp & U & R & ->). destruct (C' s e' E') as (q & j & g & Hq & V & R' & ->). apply Same in Hq.
    destruct (unknown_number p i s (O p Hp) U) as (E1 & f1 & R1 & L1). destruct (unknown_number q j s (O q Hq) V) as (E2 & f2 & R2 & L2).
    pose proof (S p Hp f1 R1) as S1. pose proof (S q Hq f2 R2) as S2. assert (p = q) as <- by (apply N; auto; lia). assert (i = j) as <- by lia. congruence.
  - exfalso. assert (X : In s (keys (map_of a'))); [|apply lookup_In in X as (x & X); congruence]. apply B'. assert (Y : In s (keys (map_of a))) by (apply lookup_In; eauto).
    apply B in Y as (p & i & Hp & U). exists p, i. split; [now apply Same|exact U].
  - exfalso. assert (X : In s (keys (map_of a))); [|apply lookup_In in X as (x & X); congruence]. apply B. assert (Y : In s (keys (map_of a'))) by (apply lookup_In; eauto).
    apply B' in Y as (p & i & Hp & U). exists p, i. split; [now apply Same|exact U].
Qed.
(** Nothing stops discovery as long as the Parms below can be made solvable. *)
Theorem discover_succeeds t : selected t -> (forall p, below t p -> p_solvable p = true -> exists f, ready p = Ok f) -> exists a, discover t = Ok a.
Proof.
  induction t as [p|l IH|k l IH|l] using tree_ind'; intros S R.
  - cbn [discover]. unfold discover_parm. destruct (p_solvable p) eqn:E; [|eauto]. destruct (R p (below_parm p) E) as (f & ->). cbn [bind]. eauto.
  - rewrite discover_Node. assert (X : exists r, discover_all l = Ok r); [|destruct X as (r & ->); cbn [bind]; eauto].
    assert (S' : forall t, In (Some t) l -> selected t) by (inversion S; subst; assumption). assert (R' : forall t p, In (Some t) l -> below t p -> p_solvable p = true -> exists f, ready p = Ok f) by (intros t p I Hb; apply R; econstructor; eassumption). clear S R.
    induction l as [|[t|] l IHl]; cbn [discover_all].
    + eauto.
    + destruct (IH t (or_introl eq_refl) (S' t (or_introl eq_refl)) (fun p => R' t p (or_introl eq_refl))) as (a & ->). cbn [bind].
      destruct IHl as (r & ->); [intros t' I; exact (IH t' (or_intror I))|intros t' I; exact (S' t' (or_intror I))|intros t' p I; exact (R' t' p (or_intror I))|]. cbn [bind]. eauto.
    + destruct IHl as (r & ->); [intros t' I; exact (IH t' (or_intror I))|intros t' I; exact (S' t' (or_intror I))|intros t' p I; exact (R' t' p (or_intror I))|]. cbn [bind]. eauto.
  - rewrite discover_Pick. inversion S as [| |k' l' c E Sc|]; subst. rewrite E. destruct c as [t|]; [|eauto].
    apply (IH t (nth_error_In _ _ E) (Sc t eq_refl)). intros p Hb. apply R. econstructor; eassumption.
  - cbn [discover]. eauto.
Qed.
(** Whatever spids the Results of a node have later, the node has reported them. *)
Theorem discover_covers t l a : own t -> carries t l -> discover t = Ok a -> forall s, In s l -> In s (keys (map_of a)).
Proof.
  intros O Hc H s I. apply (discover_ok t a (own_distinct t O) H). clear O H. revert t l Hc s I.
  fix IH 3. intros t l Hc s I. destruct Hc as [p l Hl|l s0 Hl|k l t s0 E Hc|l].
  - destruct (Hl s I) as (i & U). exists p, i. split; [constructor|exact U].
  - destruct (Hl s I) as (t & s' & It & Ht & Is). destruct (IH t s' Ht s Is) as (p & i & Hb & U). exists p, i. split; [econstructor; eassumption|exact U].
  - destruct (IH t s0 Hc s I) as (p & i & Hb & U). exists p, i. split; [econstructor; eassumption|exact U].
  - destruct I.
Qed.

(** ** The table of a Solver has a line for every unknown of every solvable Parm below its children, and no other. *)
Theorem discover_solver nc l a s0 p0 i0 : let t := Node l in let rs := map spid_rec (map_of a) in
  own t -> one_per_node t -> (forall q, below t q -> small q) -> discover t = Ok a -> below t p0 -> unknown_of p0 i0 s0 ->
  all_fit nc rs -> chain nc rs -> has_axis nc -> dense nc \/ alike nc rs ->
  exists sv, solver_spids nc l = Ok sv /\
    (forall p i s, below t p -> unknown_of p i s -> exists u, In u (s_spids sv) /\ i_spid (u_info u) = s /\ i_node (u_info u) = p_node p /\ i_nuk (u_info u) = tiles nc (p_tiles p)) /\
    (forall u, In u (s_spids sv) -> exists p i, below t p /\ unknown_of p i (i_spid (u_info u)) /\ i_node (u_info u) = p_node p).
Proof.
  intros t rs O N S H Hb0 U0 F Ch Ax D. destruct (discover_ok t a (own_distinct t O) H) as (A & B & C).
  assert (K0 : In s0 (keys (map_of a))) by (apply B; eauto).
  assert (Dis : distinct rs).
  { unfold distinct, rs. rewrite map_map. cbn [spid_rec r_spid]. change (NoDup (keys (map_of a))). clear -A. induction A as [|x l A IH X]; constructor; [|exact IH]. intros I. apply (proj1 (Forall_forall _ _) X) in I. lia. }
  assert (Ne : rs <> []) by (unfold rs; destruct (map_of a); [destruct K0|discriminate]).
  destruct (solver_tiles_partial nc rs F Ch Dis Ne Ax D) as (_ & sz & _ & Sz & _).
  destruct (solver_unknowns_partial nc rs sz F Ch Dis Ne Ax D Sz) as (sv & P & _ & T1 & T2 & _).
  assert (In_lookup : forall x, In x (map_of a) -> lookup (fst x) (map_of a) = Some (snd x)).
  { clear -A. unfold in_order in A. induction (map_of a) as [|(k, y) m IH]; intros x I; [destruct I|]. cbn [keys map fst] in A. inversion A as [|? ? A1 A2]; subst. cbn [lookup].
    destruct I as [<-|I]; [cbn [fst snd]; now rewrite Z.eqb_refl|]. destruct (Z.eqb_spec (fst x) k); [|now apply IH]. exfalso.
    assert (Y : In (fst x) (keys m)) by (apply in_map; exact I). apply (proj1 (Forall_forall _ _) A2) in Y. lia. }
  exists sv. split; [|split].
  - unfold solver_spids, solver_map. fold t. rewrite H. cbn [bind].
    destruct a as [[m|]|]; cbn [map_of bind] in *; [|destruct K0|destruct K0]. destruct m; [destruct K0|exact P].
  - intros p i s Hb U. destruct (discover_describes t a p i s O N S H Hb U) as (e & f & E & _ & _ & E1 & E2 & E3 & _).
    assert (I : In (s, e) (map_of a)).
    { clear -E. induction (map_of a) as [|(k, x) m IH]; [discriminate|]. cbn [lookup] in E. destruct (Z.eqb_spec s k); [left; congruence|right; now apply IH]. }
    destruct (T1 (spid_rec (s, e)) (in_map _ _ _ I)) as (u & Iu & X1 & X2 & X3). cbn [spid_rec r_spid r_node r_tiles fst snd] in X1, X2, X3. exists u. rewrite X1, X2, X3, E1, E3. split; [exact Iu|]. split; [reflexivity|]. split; reflexivity.
  - intros u Iu. destruct (T2 u Iu) as (r & Ir & _ & X1 & X2 & _). unfold rs in Ir. apply in_map_iff in Ir as ((s, e) & <- & Ix). apply In_lookup in Ix. cbn [fst snd] in Ix.
    destruct (C s e Ix) as (p & i & f & Hb & U & _ & ->). exists p, i. rewrite X1, X2. cbn [spid_rec r_spid r_node fst snd describe e_node]. split; [exact Hb|]. split; [exact U|reflexivity].
Qed.

(** ** Examples.  A Parm with three coefficients of four (a 2x2 polynomial), one with one, one that is not solvable *)
Definition ex_parm (solvable : bool) (node group : Z) (tiles : list nat) (axes shape : list nat) (cs : list Z) : parm :=
  {| p_solvable := solvable; p_node := node; p_group := group; p_tiles := tiles; p_funklet := polc axes None shape cs; p_dom := qdom []; p_shape := None |}.
Definition ex_a : parm := ex_parm true 2 0 [] [0; 1] [2; 2] [1; 2; 3; 4]%Z.
Definition ex_b : parm := ex_parm true 1 7 [5] [] [1] [1]%Z.
Definition ex_c : parm := ex_parm false 3 0 [] [] [1] [1]%Z.
(** a Condeq-like node that reaches the first Parm twice, a ReqSeq that gives its second child, and a Solver *)
Definition ex_tree : tree := Node [Some (Node [Some (Parm ex_a); None; Some (Parm ex_c)]); Some (Pick 1 [Some (Parm ex_c); Some (Node [Some (Parm ex_b); Some (Parm ex_a)])]); Some (SolverNode [Some (Parm (ex_parm true 9 0 [] [] [1] [1]%Z))])].
Example discover_ex : let out n g t c := {| e_node := n; e_group := g; e_tiles := t; e_coeff := c |} in
  discover ex_tree = Ok (Some (Some [(256%Z, out 1%Z 7%Z [5] (0, 0)); (512%Z, out 2%Z 0%Z [] (0, 0)); (513%Z, out 2%Z 0%Z [] (0, 1)); (514%Z, out 2%Z 0%Z [] (1, 0))])).
Proof. vm_compute. reflexivity. Qed.
Example discover_none_ex : discover (Node [Some (Parm ex_c); Some (SolverNode [Some (Parm ex_a)])]) = Ok None.
Proof. reflexivity. Qed.
Example discover_solver_ex : match solver_spids [10; 4] [Some ex_tree] with Ok sv => map (fun u => (i_spid (u_info u), i_node (u_info u), i_nuk (u_info u))) (s_spids sv) | _ => [] end =
  [(256, 1, 2%nat); (512, 2, 1%nat); (513, 2, 1%nat); (514, 2, 1%nat)]%Z.
Proof. vm_compute. reflexivity. Qed.
(** With 300 unknowns a Parm takes spids of the next one: its unknowns are lost. *)
Definition ex_big : parm := ex_parm true 0 0 [] [0] [300] (repeat 0%Z 300).
Theorem discover_clash_refuted : ~ forall t a p i s, own t -> one_per_node t -> discover t = Ok a -> below t p -> unknown_of p i s ->
  exists e, lookup s (map_of a) = Some e /\ e_node e = p_node p.
Proof.
  intros H. set (t := Node [Some (Parm ex_big); Some (Parm ex_b)]).
  assert (Two : forall p, below t p -> p = ex_big \/ p = ex_b).
  { intros p Hb. apply below_Node in Hb as (t' & [E|[E|[]]] & Hb); injection E as <-; apply below_Parm in Hb; auto. }
  assert (X : exists a, discover t = Ok a /\ option_map e_node (lookup 256 (map_of a)) = Some 0%Z) by (eexists; split; [reflexivity|vm_compute; reflexivity]).
  destruct X as (a & Ha & L). destruct (H t a ex_b 0 256%Z) as (e & E & En).
  - intros p Hb. destruct (Two p Hb) as [-> | ->]; left; reflexivity.
  - intros p q Hp Hq. destruct (Two p Hp) as [-> | ->], (Two q Hq) as [-> | ->]; try reflexivity; intros X; discriminate X.
  - exact Ha.
  - apply below_node with (t := Parm ex_b); [right; now left|constructor].
  - split; [reflexivity|]. eexists. split; reflexivity.
  - rewrite E in L. cbn [option_map] in L. rewrite En in L. discriminate L.
Qed.

Print Assumptions discover_exactly.
Print Assumptions discover_describes.
Print Assumptions discover_order.
Print Assumptions discover_succeeds.
Print Assumptions discover_covers.
Print Assumptions discover_solver.
Print Assumptions discover_clash_refuted.
