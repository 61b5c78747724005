(** Theorems about the equations of the Solver (MeqNodes/src/Solver.cc, fillEquations). *)
From Coq Require Import QArith Qcanon Sorted.
From Verif Require Import Base Vel_Model Vel_Spec Slv_Model Slv_Spec Slv_Proofs Slv_Map Slv_Stage Slv_Super Slv_Alloc Slv_Thms.
From Verif Require Import Ceq_Model Ceq_Spec Ceq_Proofs Ceq_Thms Leq_Model Leq_Spec Leq_Proofs.
Close Scope Q_scope. Local Open Scope Qc_scope. Local Open Scope nat_scope.

(** ** Lemmas *)
Lemma grid_one nc : Forall (fun n => 1 <= n) (grid nc).
Proof.
  induction nc as [|n nc IH]; [constructor|]. cbn [grid]. destruct (grid nc) as [|g gs] eqn:Eg.
  - destruct (Nat.eqb_spec n 0); constructor; [lia|constructor].
  - constructor; [unfold extent; destruct (Nat.eqb_spec n 0); lia|exact IH].
Qed.
Lemma grid_len nc : length (grid nc) <= length nc.
Proof. induction nc as [|n nc IH]; [cbn; lia|]. cbn [grid]. destruct (grid nc) as [|g gs]; [destruct (n =? 0); cbn; lia|cbn in *; lia]. Qed.
Lemma grid_some nc : has_axis nc -> 1 <= length (grid nc).
Proof.
  induction nc as [|n nc IH]; intros (i & Hi); [destruct i; cbn in Hi; lia|]. cbn [grid]. destruct (grid nc) as [|g gs] eqn:Eg; [|cbn; lia].
  destruct i as [|i]; cbn in Hi; [destruct (Nat.eqb_spec n 0); [lia|cbn; lia]|]. specialize (IH (ex_intro _ i Hi)). cbn in IH. lia.
Qed.
Lemma map_same {A B} (f g : A -> B) : forall l, map f l = map g l -> forall x, In x l -> f x = g x.
Proof. induction l as [|a l IH]; intros H x Hx; [contradiction|]. injection H as H1 H2. destruct Hx as [<-|Hx]; auto. Qed.

(** ** C91: the equations *)
(** unknown and solve group by spid; the hypotheses on [unk] and [group] in the theorems say what they are *)
Definition unk_of (nc p : list nat) (s : solver) (x : Z) (c : list nat) : nat * nat :=
  match find_spid s x with Some u => (psubsolver s (tile_of nc p c) (i_group (u_info u)), nth (tile_of nc p c) (u_ssuki u) 0) | None => (0, 0) end.
Definition group_of (s : solver) (x : Z) : nat := match find_spid s x with Some u => i_group (u_info u) | None => 0 end.

Section Prepared.
Variables (nc : list nat) (rs : list spidrec).
Hypothesis F : all_fit nc rs.
Hypothesis U : alike nc rs.
Hypothesis D0 : distinct rs.
Hypothesis N : rs <> [].
Hypothesis H : has_axis nc.
Lemma same_tile r r' c : In r rs -> In r' rs -> tile_of nc (r_tiles r) c = tile_of nc (r_tiles r') c.
Proof.
  intros R R'. assert (C : chain nc rs) by (intros a b Ra Rb; left; intros i; rewrite (U a b i Ra Rb); auto). assert (A : asks nc rs) by (constructor; auto).
  destruct (populate_ok nc rs A N H (or_intror U)) as (s & ks & gs & sz & E & P).
  rewrite <- (key_tile_of nc (r_tiles r)), <- (key_tile_of nc (r_tiles r')) by auto.
  rewrite <- (uniform_common nc rs sz r A U (q_common _ _ _ _ _ _ P) R), <- (uniform_common nc rs sz r' A U (q_common _ _ _ _ _ _ P) R'). reflexivity.
Qed.
Lemma prepared : exists s, populate nc rs = Ok s /\
  (forall r u, In r rs -> entry nc s r u -> find_spid s (r_spid r) = Some u) /\
  (forall r, In r rs -> walk (tiling_at (s_tilings s) (s_isolver s)) nc = map (fun c => (c, Z.of_nat (tile_of nc (r_tiles r) c))) (points (grid nc))) /\
  (forall r u c, In r rs -> entry nc s r u -> In c (points (grid nc)) -> eq_unknown s (Z.of_nat (tile_of nc (r_tiles r) c)) u = Some (unknown nc (r_tiles r) s r u c)) /\
  (forall r, In r rs -> exists u, entry nc s r u) /\ length (s_spids s) = length rs /\
  (forall r u r' u', In r rs -> In r' rs -> entry nc s r u -> entry nc s r' u' -> i_group (u_info u) = i_group (u_info u') <-> r_group r = r_group r') /\
  (forall r u, In r rs -> entry nc s r u -> i_group (u_info u) < s_groups s) /\ s_nc s = nc.
Proof.
  assert (C : chain nc rs) by (intros a b Ra Rb; left; intros i; rewrite (U a b i Ra Rb); auto). assert (A : asks nc rs) by (constructor; auto).
  destruct (populate_ok nc rs A N H (or_intror U)) as (s & ks & gs & sz & E & P). exists s. split; [exact E|].
  pose proof (table nc rs s ks gs sz P) as (T1 & T2 & T3 & T4 & _).
  assert (SZ : forall r, In r rs -> sz = key nc (r_tiles r)) by (intros r R; apply (uniform_common nc rs); auto; apply (q_common _ _ _ _ _ _ P)).
  assert (W : forall r, In r rs -> walk (tiling_at (s_tilings s) (s_isolver s)) nc = map (fun c => (c, Z.of_nat (tile_of nc (r_tiles r) c))) (points (grid nc))).
  { intros r R. rewrite (q_til _ _ _ _ _ _ P), (tab_at _ _ _ _ (q_iso _ _ _ _ _ _ P)). rewrite walk_ok; [|apply (common_tidy _ _ _ (q_common _ _ _ _ _ _ P))|exact H].
    apply map_ext. intro c. rewrite (SZ r R), key_tile_of by auto. reflexivity. }
  split; [|split; [exact W|split; [|split; [|split; [|split; [|split]]]]]].
  - intros r u R Eu. unfold find_spid. destruct (List.find (fun u0 => Z.eqb (i_spid (u_info u0)) (r_spid r)) (s_spids s)) as [v|] eqn:Ef.
    + apply find_some in Ef as [Iv Ev]. apply Z.eqb_eq in Ev. f_equal. destruct (T2 v Iv) as (r' & R' & M').
      assert (r' = r) by (apply (recs_unique nc rs A); auto; destruct M' as [_ [M' _]]; congruence). subst r'.
      apply (match_unique _ _ _ _ _ _ P r); [exact M'|]. now apply (entry_match _ _ _ _ _ _ _ _ A P R).
    + exfalso. destruct Eu as (Iu & Es & _). apply (find_none _ _ Ef) in Iu. cbn in Iu. rewrite Es, Z.eqb_refl in Iu. discriminate.
  - intros r u c R Eu Hc. pose proof (entry_match _ _ _ _ _ _ _ _ A P R Eu) as M. apply grid_cells in Hc.
    destruct (match_ssuki _ _ _ _ _ _ A P r u c R M Hc) as (k & K1 & _). unfold eq_unknown. rewrite Nat2Z.id, K1. unfold unknown. now rewrite (nth_error_nth _ _ _ K1).
  - intros r R. destruct (T1 r R) as (u & M). exists u. now apply match_entry with ks gs.
  - destruct (q_spids _ _ _ _ _ _ P) as (spids & ss & Pm & M & So & AL).
    assert (L : forall ntiles super spids0 nuk l nuk', alloc_all ntiles super spids0 nuk = (l, nuk') -> length l = length spids0).
    { clear. intros ntiles super spids0. induction spids0 as [|x spids0 IH]; intros nuk l nuk' Hl; cbn [alloc_all] in Hl; [injection Hl as <- <-; reflexivity|].
      destruct (alloc (nth (i_tiling x) super []) (nth (i_group x) nuk [])) as [uks n1]. destruct (alloc_all ntiles super spids0 (put_group nuk (i_group x) n1)) as [l1 nuk1] eqn:E1.
      injection Hl as <- <-. cbn. f_equal. eapply IH. exact E1. }
    rewrite (L _ _ _ _ _ _ AL), (Permutation.Permutation_length Pm). symmetry. apply (Forall2_len _ _ _ M).
  - intros r u r' u' R R' Eu Eu'. apply (groups_iff _ _ _ _ _ _ P); now apply (entry_match _ _ _ _ _ _ _ _ A P).
  - intros r u R Eu. rewrite (proj1 (q_groups _ _ _ _ _ _ P)). apply (T4 u). apply Eu.
  - apply (q_nc _ _ _ _ _ _ P).
Qed.
End Prepared.

(** Each cell that is not flagged (as to the mask) and has a positive weight gives one equation (two if values are complex:
    real and imaginary parts) for each solve group that the VellSet has spids of, unless its subsolver has converged; with the
    residual as right hand side, the weight, and the derivatives as the coefficients of the unknowns for the cell. *)
Theorem solver_equations : forall nc rs, all_fit nc rs -> alike nc rs -> distinct rs -> rs <> [] -> has_axis nc -> length nc <= 8 ->
  exists s unk group, populate nc rs = Ok s /\
    (forall r u c, In r rs -> entry nc s r u -> unk (r_spid r) c = unknown nc (r_tiles r) s r u c) /\
    (forall r, In r rs -> group (r_spid r) < s_groups s) /\ (forall r r', In r rs -> In r' rs -> group (r_spid r) = group (r_spid r') <-> r_group r = r_group r') /\
    forall converged mask e V flag wt D, describes (index (grid nc)) e V flag wt D -> NoDup (e_spids e) -> (forall x, In x (e_spids e) -> In x (map r_spid rs)) ->
      exists qs, fillEquations s converged (index (grid nc)) mask e = Ok qs /\
        map view qs = flat_map (fun c => if used mask (flag (index c)) (wt (index c))
          then flat_map (lines converged (c_cx (e_value e)) (V (index c)) (wt (index c)) (map (fun x => (group x, unk x c, D x (index c))) (e_spids e))) (seq 0 (s_groups s))
          else []) (points (grid nc)).
Proof.
  intros nc rs F U D0 N H L8. destruct (prepared nc rs F U D0 N H) as (s & E & P1 & P2 & P3 & P4 & P5 & P6 & P7 & P8).
  assert (Hr : exists r0, In r0 rs) by (destruct rs as [|r0 rs]; [contradiction|exists r0; now left]). destruct Hr as (r0 & R0). set (p := r_tiles r0) in *.
  assert (ST : forall r c, In r rs -> tile_of nc (r_tiles r) c = tile_of nc p c) by (intros r c R; now apply (same_tile nc rs)).
  exists s, (unk_of nc p s), (group_of s). split; [exact E|]. split; [|split; [|split]].
  - intros r u c R Eu. unfold unk_of. rewrite (P1 r u R Eu). unfold unknown. now rewrite (ST r c R).
  - intros r R. destruct (P4 r R) as (u & Eu). unfold group_of. rewrite (P1 r u R Eu). now apply (P7 r).
  - intros r r' R R'. destruct (P4 r R) as (u & Eu), (P4 r' R') as (u' & Eu'). unfold group_of. rewrite (P1 r u R Eu), (P1 r' u' R' Eu'). now apply P6.
  - intros converged mask e V flag wt D De Nd Hin.
    assert (Hus : exists us, Forall2 (fun x u => find_spid s x = Some u /\ exists r, In r rs /\ entry nc s r u) (e_spids e) us).
    { clear De Nd. induction (e_spids e) as [|x l IH]; [exists []; constructor|]. destruct IH as (us & Hus); [intros; apply Hin; now right|].
      destruct (proj1 (in_map_iff _ _ _) (Hin x (or_introl eq_refl))) as (r & Er & R). destruct (P4 r R) as (u & Eu). exists (u :: us). constructor; [|exact Hus].
      rewrite <- Er. split; [now apply P1|]. exists r. auto. }
    destruct Hus as (us & Hus).
    destruct (fill_ok s converged mask e us V flag wt D (fun c => Z.of_nat (tile_of nc p c)) (fun c u => (psubsolver s (tile_of nc p c) (i_group (u_info u)), nth (tile_of nc p c) (u_ssuki u) 0)) (grid nc)) as (qs & Eq & Vq).
    + apply grid_one.
    + pose proof (grid_some nc H). pose proof (grid_len nc). lia.
    + exact De.
    + clear - Hus. induction Hus as [|x u l us [A _] Hus IH]; constructor; auto.
    + intros u c Hu Hc. assert (exists r, In r rs /\ entry nc s r u) as (r & R & Eu).
      { clear - Hus Hu. induction Hus as [|x u0 l us [_ A] Hus IH]; [contradiction|]. destruct Hu as [<-|Hu]; auto. }
      rewrite <- (ST r c R). rewrite (P3 r u c R Eu Hc). unfold unknown. now rewrite (ST r c R).
    + pose proof (P2 r0 R0) as W. unfold walk in W. cbv zeta in W. rewrite cells_shape_grid in W by exact H. exact W.
    + rewrite P5. rewrite <- (map_length r_spid rs). apply NoDup_incl_length; [exact Nd|]. intros x Hx. now apply Hin.
    + exists qs. split; [exact Eq|]. rewrite Vq. apply flat_map_ext. intro c. unfold cell_lines. cbv zeta. destruct (used mask (flag (index c)) (wt (index c))); [|reflexivity].
      apply flat_map_ext. intro g. f_equal. clear - Hus. induction Hus as [|x u l us [A _] Hus IH]; [reflexivity|]. cbn [combine map fst snd]. f_equal; [|exact IH].
      unfold group_of, unk_of. rewrite A. reflexivity.
Qed.
Print Assumptions solver_equations.

(** ** C92: what solving them means *)
Definition meets (x : nat * nat -> Qc) (l : list ((nat * nat) * Qc) * Qc * Qc) : Prop := total_of (map (fun t => (snd t * x (fst t))%Qc) (fst (fst l))) = snd l.
Lemma solves_meets x q : solves x q <-> meets x (view q).
Proof. unfold solves, meets, view. cbn [fst snd]. rewrite map_map. cbn [fst snd]. reflexivity. Qed.
Lemma Forall_views x qs : Forall (solves x) qs <-> Forall (meets x) (map view qs).
Proof. rewrite !Forall_forall. split; intros H q Hq; [apply in_map_iff in Hq as (q0 & <- & Hq); now apply solves_meets, H|apply solves_meets, H, in_map, Hq]. Qed.
Lemma total_parts (x : nat * nat -> Qc) (t : list ((nat * nat) * cplx)) :
  sumC (map (fun u => timesR (x (fst u)) (snd u)) t) =
  (total_of (map (fun t => (snd t * x (fst t))%Qc) (map (fun t => (fst t, fst (snd t))) t)), total_of (map (fun t => (snd t * x (fst t))%Qc) (map (fun t => (fst t, snd (snd t))) t))).
Proof. induction t as [|[u d] t IH]; [reflexivity|]. cbn [map sumC total_of fst snd]. rewrite IH. unfold plusC, timesR. cbn [fst snd]. f_equal; ring. Qed.
Lemma lines_meet x conv cx v w terms g : (cx = false -> snd v = 0%Qc /\ forall t, In t terms -> snd (snd t) = 0%Qc) -> (forall u, conv u = false) ->
  Forall (meets x) (lines conv cx v w terms g) <-> (terms_of g terms <> [] -> v = sumC (map (fun u => timesR (x (fst u)) (snd u)) (terms_of g terms))).
Proof.
  intros R Nc. unfold lines. cbv zeta.
  assert (Z : cx = false -> total_of (map (fun t => (snd t * x (fst t))%Qc) (map (fun t => (fst t, snd (snd t))) (terms_of g terms))) = 0%Qc).
  { intro Cx. specialize (proj2 (R Cx)). unfold terms_of. generalize terms. clear. induction terms as [|t l IH]; intros Hz; [reflexivity|]. cbn [filter]. destruct (fst (fst t) =? g); [|apply IH; intros; apply Hz; now right].
    cbn [map total_of fst snd]. rewrite IH by (intros; apply Hz; now right). rewrite (Hz t (or_introl eq_refl)). ring. }
  rewrite total_parts. destruct (terms_of g terms) as [|[u d] t] eqn:Et; [split; [congruence|constructor]|]. rewrite Nc. destruct v as [a b]. cbn [fst snd].
  set (T1 := total_of (map (fun t : nat * nat * Qc => (snd t * x (fst t))%Qc) (map (fun t : nat * nat * cplx => (fst t, fst (snd t))) ((u, d) :: t)))).
  set (T2 := total_of (map (fun t : nat * nat * Qc => (snd t * x (fst t))%Qc) (map (fun t : nat * nat * cplx => (fst t, snd (snd t))) ((u, d) :: t)))) in *. split.
  - intros F _. apply Forall_cons_iff in F as [M1 F2]. unfold meets in M1. cbn [fst snd] in M1. fold T1 in M1. destruct cx.
    + apply Forall_cons_iff in F2 as [M2 _]. unfold meets in M2. cbn [fst snd] in M2. fold T2 in M2. now rewrite M1, M2.
    + destruct (R eq_refl) as [Rb _]. cbn in Rb. rewrite (Z eq_refl), M1, Rb. reflexivity.
  - intros E. specialize (E ltac:(discriminate)). pose proof (f_equal fst E) as E1. pose proof (f_equal snd E) as E2. cbn [fst snd] in E1, E2. constructor; [symmetry; exact E1|]. destruct cx; constructor; [symmetry; exact E2|constructor].
Qed.
Lemma used_terms (group : Z -> nat) (unk : Z -> nat * nat) (D : Z -> cplx) g l :
  terms_of g (map (fun x => (group x, unk x, D x)) l) = map (fun x => (unk x, D x)) (filter (fun x => group x =? g) l).
Proof. unfold terms_of. induction l as [|a l IH]; [reflexivity|]. cbn [map filter fst snd]. destruct (group a =? g); cbn [map fst snd]; [f_equal; exact IH|exact IH]. Qed.

(** Numbers solve the equations just if at every cell in use, for every solve group that the VellSet has spids of, the
    residual is the sum of the derivatives times the numbers for the unknowns of the cell *)
Theorem solver_solutions : forall nc rs, all_fit nc rs -> alike nc rs -> distinct rs -> rs <> [] -> has_axis nc -> length nc <= 8 ->
  exists s unk, populate nc rs = Ok s /\
    (forall r u c, In r rs -> entry nc s r u -> unk (r_spid r) c = unknown nc (r_tiles r) s r u c) /\
    forall mask V flag wt D l,
      (forall e, In (Some e) l -> describes (index (grid nc)) e (V e) (flag e) (wt e) (D e) /\ NoDup (e_spids e) /\ forall x, In x (e_spids e) -> In x (map r_spid rs)) ->
      exists qs, fillAll s (fun _ => false) (index (grid nc)) mask l = Ok qs /\
        forall x, Forall (solves x) qs <->
          forall e c G, In (Some e) l -> In c (points (grid nc)) -> used mask (flag e (index c)) (wt e (index c)) = true ->
            let of_group := filter (fun y => existsb (fun r => Z.eqb (r_spid r) y && Z.eqb (r_group r) G) rs) (e_spids e) in
            of_group <> [] -> V e (index c) = sumC (map (fun y => timesR (x (unk y c)) (D e y (index c))) of_group).
Proof.
  intros nc rs F U D0 N H L8. destruct (solver_equations nc rs F U D0 N H L8) as (s & unk & group & E & P1 & P2 & P3 & K).
  exists s, unk. split; [exact E|]. split; [exact P1|]. intros mask V flag wt D l Hl.
  assert (One : forall e, In (Some e) l -> exists qs, fillEquations s (fun _ => false) (index (grid nc)) mask e = Ok qs /\
     forall x, Forall (solves x) qs <-> forall c G, In c (points (grid nc)) -> used mask (flag e (index c)) (wt e (index c)) = true ->
            let of_group := filter (fun y => existsb (fun r => Z.eqb (r_spid r) y && Z.eqb (r_group r) G) rs) (e_spids e) in
            of_group <> [] -> V e (index c) = sumC (map (fun y => timesR (x (unk y c)) (D e y (index c))) of_group)).
  { intros e He. destruct (Hl e He) as (De & Nd & Hin). destruct (K (fun _ => false) mask e (V e) (flag e) (wt e) (D e) De Nd Hin) as (qs & Eq & Vq).
    exists qs. split; [exact Eq|]. intro x. rewrite Forall_views, Vq.
    assert (Real : forall c, In c (points (grid nc)) -> c_cx (e_value e) = false -> snd (V e (index c)) = 0%Qc /\
       forall t, In t (map (fun y => (group y, unk y c, D e y (index c))) (e_spids e)) -> snd (snd t) = 0%Qc).
    { intros c Hc Cx. assert (Ic : inside (index (grid nc)) (index c)).
      { apply points_In in Hc. unfold index. clear - Hc. induction Hc as [|? ? ? ? A B IH]; constructor; [lia|exact IH]. }
      destruct De as (Sv & _ & _ & Sd). split; [apply Sv; auto|]. intros t Ht. apply in_map_iff in Ht as (y & <- & Hy). cbn [snd].
      clear - Sd Hy Cx Ic. induction Sd as [|a d la ld [A1 A2] Sd IH]; [contradiction|]. destruct Hy as [<-|Hy]; [|auto]. apply A2; [congruence|exact Ic]. }
    assert (Same : forall r, In r rs -> filter (fun y => existsb (fun r' => Z.eqb (r_spid r') y && Z.eqb (r_group r') (r_group r)) rs) (e_spids e) = filter (fun y => group y =? group (r_spid r)) (e_spids e)).
    { intros r R. apply filter_ext_in. intros y Hy. destruct (proj1 (in_map_iff _ _ _) (Hin y Hy)) as (ry & <- & Ry). apply Bool.eq_iff_eq_true. rewrite existsb_exists, Nat.eqb_eq. split.
      - intros (r' & R' & B). apply Bool.andb_true_iff in B as [B1 B2]. apply Z.eqb_eq in B1, B2. rewrite <- B1. now apply P3.
      - intros B. exists ry. split; [exact Ry|]. rewrite Z.eqb_refl. cbn. apply Z.eqb_eq. now apply P3. }
    split.
    - intros Fa c G Hc Uc og Nog. rewrite Forall_forall in Fa.
      assert (HG : exists r, In r rs /\ r_group r = G).
      { destruct og as [|y og'] eqn:Eo; [contradiction|]. assert (In y og) as Hy by (rewrite Eo; now left). apply filter_In in Hy as [_ Hy]. apply existsb_exists in Hy as (r & R & B). apply Bool.andb_true_iff in B as [_ B]. apply Z.eqb_eq in B. eauto. }
      destruct HG as (r & R & <-). unfold og in *. rewrite (Same r R) in *.
      assert (Fg : Forall (meets x) (lines (fun _ => false) (c_cx (e_value e)) (V e (index c)) (wt e (index c)) (map (fun y => (group y, unk y c, D e y (index c))) (e_spids e)) (group (r_spid r)))).
      { apply Forall_forall. intros q Hq. apply Fa. apply in_flat_map. exists c. split; [exact Hc|]. rewrite Uc. apply in_flat_map. exists (group (r_spid r)). split; [apply in_seq; specialize (P2 r R); lia|exact Hq]. }
      apply lines_meet in Fg; [|apply (Real c Hc)|reflexivity|].
      + rewrite Fg, (used_terms group (fun y => unk y c) (fun y => D e y (index c))), map_map. reflexivity.
      + rewrite (used_terms group (fun y => unk y c) (fun y => D e y (index c))). intro Z0. apply map_eq_nil in Z0. contradiction.
    - intros Ha. apply Forall_forall. intros q Hq. apply in_flat_map in Hq as (c & Hc & Hq). destruct (used mask (flag e (index c)) (wt e (index c))) eqn:Uc; [|contradiction].
      apply in_flat_map in Hq as (g & _ & Hq). revert q Hq. apply Forall_forall. apply lines_meet; [apply (Real c Hc)|reflexivity|].
      rewrite (used_terms group (fun y => unk y c) (fun y => D e y (index c))). intros Nt. rewrite map_map. cbn [fst snd].
      destruct (filter (fun y => group y =? g) (e_spids e)) as [|y0 ys] eqn:Ef; [contradiction|].
      assert (Hy0 : In y0 (e_spids e) /\ group y0 = g). { assert (In y0 (filter (fun y => group y =? g) (e_spids e))) as I by (rewrite Ef; now left). apply filter_In in I as [I1 I2]. apply Nat.eqb_eq in I2. auto. }
      destruct Hy0 as [I0 G0]. destruct (proj1 (in_map_iff _ _ _) (Hin y0 I0)) as (r & Er & R). specialize (Ha c (r_group r) Hc Uc). cbv zeta in Ha. rewrite (Same r R), Er, G0, Ef in Ha. apply Ha. discriminate. }
  clear Hl. induction l as [|[e|] l IH].
  - exists []. split; [reflexivity|]. intro x. split; [intros _ e c G []|constructor].
  - destruct IH as (qs2 & E2 & S2); [intros; apply One; now right|]. destruct (One e (or_introl eq_refl)) as (qs1 & E1 & S1).
    exists (qs1 ++ qs2). cbn [fillAll]. rewrite E1, E2. split; [reflexivity|]. intro x. rewrite Forall_app, S1, S2. split.
    + intros [A B] e' c G [Ee|He]; [injection Ee as <-; apply A|now apply B].
    + intros A. split; [intros c G; apply A; now left|intros e' c G He; apply A; now right].
  - destruct IH as (qs2 & E2 & S2); [intros; apply One; now right|]. exists qs2. cbn [fillAll]. split; [exact E2|]. intro x. rewrite S2. split.
    + intros A e c G [He|He]; [discriminate|now apply A].
    + intros A e c G He. apply A. now right.
Qed.
Print Assumptions solver_solutions.

(** ** C93: solving and updating *)
(** With one solve group: numbers solve the equations just if, after every parm has added the numbers sent to it, in
    the places for spid and tile, to the coefficients of its tiles, the residuals, linear in them, are zero at every cell in use. *)
Definition sent (x : nat * nat -> Qc) (s : solver) (node : Z) (n a t : nat) : Qc := nth (a * n + t) (map x (updates s node)) 0%Qc.
(** residual at a cell when parameter [y] is changed by [d y] *)
Definition residual (V : list Z -> cplx) (D : Z -> list Z -> cplx) (spids : list Z) (d : Z -> Qc) (idx : list Z) : cplx :=
  minusC (V idx) (sumC (map (fun y => timesR (d y) (D y idx)) spids)).
Theorem solver_meets_parms : forall nc rs, all_fit nc rs -> alike nc rs -> distinct rs -> rs <> [] -> has_axis nc -> length nc <= 8 ->
  (forall r r', In r rs -> In r' rs -> r_group r = r_group r') ->
  exists s place, populate nc rs = Ok s /\
    (forall r, In r rs -> exists u, entry nc s r u /\ nth_error (node_spids s (r_node r)) (place (r_spid r)) = Some u) /\
    (forall r, In r rs -> StronglySorted Z.lt (map (fun v => i_spid (u_info v)) (node_spids s (r_node r)))) /\
    forall mask V flag wt D l,
      (forall e, In (Some e) l -> describes (index (grid nc)) e (V e) (flag e) (wt e) (D e) /\ NoDup (e_spids e) /\ forall x, In x (e_spids e) -> In x (map r_spid rs)) ->
      exists qs, fillAll s (fun _ => false) (index (grid nc)) mask l = Ok qs /\
        forall x (d : Z -> list nat -> Qc), (forall r c, In r rs -> d (r_spid r) c = sent x s (r_node r) (tiles nc (r_tiles r)) (place (r_spid r)) (tile_of nc (r_tiles r) c)) ->
          (Forall (solves x) qs <-> forall e c, In (Some e) l -> e_spids e <> [] -> In c (points (grid nc)) -> used mask (flag e (index c)) (wt e (index c)) = true ->
            residual (V e) (D e) (e_spids e) (fun y => d y c) (index c) = c0).
Proof.
  intros nc rs F U D0 N H L8 One. destruct (solver_solutions nc rs F U D0 N H L8) as (s & unk & E & P1 & K).
  destruct (solver_alike nc rs F U D0 N H) as (s' & E' & A1 & A2). rewrite E in E'. injection E' as <-.
  assert (Pl : exists place : Z -> nat, forall r, In r rs -> exists u, entry nc s r u /\ nth_error (node_spids s (r_node r)) (place (r_spid r)) = Some u).
  { exists (fun y => match List.find (fun r => Z.eqb (r_spid r) y) rs with Some r =>
       match find (fun u => Z.eqb (i_spid (u_info (snd u))) y) (combine (seq 0 (length (node_spids s (r_node r)))) (node_spids s (r_node r))) with Some (a, _) => a | None => 0 end | None => 0 end).
    intros r R. destruct (A1 r R) as (u & Eu). destruct (A2 r u R Eu) as (_ & So & Iu & _). exists u. split; [exact Eu|].
    destruct (List.find (fun r0 => Z.eqb (r_spid r0) (r_spid r)) rs) as [r'|] eqn:Ef; [|exfalso; apply (find_none _ _ Ef) in R; rewrite Z.eqb_refl in R; discriminate].
    apply find_some in Ef as [R' Er]. apply Z.eqb_eq in Er. assert (r' = r) as ->.
    { assert (C : chain nc rs) by (intros a b Ra Rb; left; intros i; rewrite (U a b i Ra Rb); auto). apply (recs_unique nc rs (ltac:(constructor; auto))); auto. }
    clear Er R'. destruct Eu as (_ & Es & _). revert So Iu. generalize (node_spids s (r_node r)). intros l So Iu.
    assert (G : forall k, match find (fun u0 => Z.eqb (i_spid (u_info (snd u0))) (r_spid r)) (combine (seq k (length l)) l) with Some (a, _) => k <= a /\ nth_error l (a - k) = Some u | None => False end).
    { induction l as [|v l IH]; intro k; [contradiction|]. cbn [length seq combine find snd]. cbn [map] in So. apply StronglySorted_inv in So as [So1 So2]. destruct (Z.eqb_spec (i_spid (u_info v)) (r_spid r)) as [Ev|Ev].
      - split; [lia|]. rewrite Nat.sub_diag. cbn. destruct Iu as [->|Iu]; [reflexivity|]. exfalso. rewrite Forall_forall in So2. specialize (So2 _ (in_map _ _ _ Iu)). cbn in So2. lia.
      - destruct Iu as [->|Iu]; [congruence|]. specialize (IH So1 Iu (Datatypes.S k)). destruct (find _ _) as [[a w]|]; [|contradiction]. destruct IH as [I1 I2]. split; [lia|]. replace (a - k) with (Datatypes.S (a - Datatypes.S k)) by lia. exact I2. }
    specialize (G 0). destruct (find _ _) as [[a w]|]; [|contradiction]. destruct G as [_ G]. now rewrite Nat.sub_0_r in G. }
  destruct Pl as (place & Pl). exists s, place. split; [exact E|]. split; [exact Pl|]. split.
  { intros r R. destruct (A1 r R) as (u & Eu). apply (A2 r u R Eu). }
  intros mask V flag wt D l Hl. destruct (K mask V flag wt D l Hl) as (qs & Eq & Sq). exists qs. split; [exact Eq|]. intros x d Hd. rewrite Sq.
  destruct rs as [|r0 rs0] eqn:Ers; [contradiction|]. rewrite <- Ers in *. assert (R0 : In r0 rs) by (rewrite Ers; now left).
  assert (Xd : forall r c, In r rs -> In c (points (grid nc)) -> x (unk (r_spid r) c) = d (r_spid r) c).
  { intros r c R Hc. rewrite (Hd r c R). destruct (Pl r R) as (u & Eu & Pu). destruct (A2 r u R Eu) as (_ & _ & _ & At). specialize (At _ c Pu (grid_cells _ _ Hc)).
    unfold sent. rewrite (P1 r u c R Eu). symmetry. apply nth_error_nth. now rewrite nth_error_map, At. }
  assert (All : forall e, In (Some e) l -> filter (fun y => existsb (fun r => Z.eqb (r_spid r) y && Z.eqb (r_group r) (r_group r0)) rs) (e_spids e) = e_spids e).
  { intros e He. destruct (Hl e He) as (_ & _ & Hin). clear - Hin One R0. induction (e_spids e) as [|y ys IH]; [reflexivity|]. cbn [filter].
    destruct (proj1 (in_map_iff _ _ _) (Hin y (or_introl eq_refl))) as (r & Er & R).
    replace (existsb _ rs) with true; [f_equal; apply IH; intros; apply Hin; now right|]. symmetry. apply existsb_exists. exists r. split; [exact R|]. rewrite Er, Z.eqb_refl. cbn. apply Z.eqb_eq. now apply One. }
  assert (Same : forall e c, In (Some e) l -> In c (points (grid nc)) -> map (fun y => timesR (x (unk y c)) (D e y (index c))) (e_spids e) = map (fun y => timesR (d y c) (D e y (index c))) (e_spids e)).
  { intros e c He Hc. destruct (Hl e He) as (_ & _ & Hin). apply map_ext_in. intros y Hy. destruct (proj1 (in_map_iff _ _ _) (Hin y Hy)) as (r & <- & R). f_equal. now apply Xd. }
  split.
  - intros A e c He Ne Hc Uc. specialize (A e c (r_group r0) He Hc Uc). cbv zeta in A. rewrite (All e He) in A. unfold residual. rewrite (A Ne), (Same e c He Hc). unfold minusC, c0. f_equal; ring.
  - intros A e c G He Hc Uc og Nog. assert (G = r_group r0) as ->.
    { destruct og as [|y og'] eqn:Eo; [contradiction|]. assert (In y og) as Hy by (rewrite Eo; now left). apply filter_In in Hy as [_ Hy]. apply existsb_exists in Hy as (r & R & B). apply Bool.andb_true_iff in B as [_ B]. apply Z.eqb_eq in B. rewrite <- B. now apply One. }
    unfold og in *. rewrite (All e He) in *. specialize (A e c He Nog Hc Uc). unfold residual in A. rewrite (Same e c He Hc).
    set (t := sumC _) in *. pose proof (f_equal fst A) as A1'. pose proof (f_equal snd A) as A2'. unfold minusC, c0 in A1', A2'. cbn [fst snd] in A1', A2'.
    destruct (V e (index c)) as [a b], t as [a' b']. cbn [fst snd] in *. f_equal; [transitivity (a - a' + a')%Qc|transitivity (b - b' + b')%Qc]; try ring; [rewrite A1'|rewrite A2']; ring.
Qed.
Print Assumptions solver_meets_parms.

(** With several solve groups the equations of each ask for the whole residual to go: solved at once and all added, the changes
    overshoot. *)
Definition constant (x : Qc) : cvells := {| c_cx := false; c_arr := scalar x |}.
Lemma constant_stands full x : full <> [] -> stands full (constant x) (fun _ => (x, 0%Qc)).
Proof.
  intros Nf. destruct full as [|f full]; [contradiction|]. split; [|split; [|split]].
  - split; [split; [repeat constructor; lia|reflexivity]|cbn; lia].
  - split; [cbn; lia|]. intros [|[|k]]; now left.
  - intros idx Hi. inversion Hi as [|i f0 is_ fs Hi1 Hi2]; subst. unfold at_index. cbn. reflexivity.
  - reflexivity.
Qed.
Definition pair_rs : list spidrec := [rec 1 10 0 [1]; rec 2 11 1 [1]].
Definition pair_e : eqset := {| e_value := constant 1; e_flags := None; e_weights := None; e_spids := [1; 2]%Z; e_ders := [constant 1; constant 1] |}.
Theorem solver_groups_overshoot_refuted : ~ forall nc rs s place mask e V flag wt D qs x d, all_fit nc rs -> alike nc rs -> distinct rs -> rs <> [] -> has_axis nc -> length nc <= 8 ->
  populate nc rs = Ok s -> (forall r, In r rs -> exists u, entry nc s r u /\ nth_error (node_spids s (r_node r)) (place (r_spid r)) = Some u) ->
  describes (index (grid nc)) e V flag wt D -> NoDup (e_spids e) -> (forall y, In y (e_spids e) -> In y (map r_spid rs)) ->
  fillEquations s (fun _ => false) (index (grid nc)) mask e = Ok qs -> Forall (solves x) qs ->
  (forall r c, In r rs -> d (r_spid r) c = sent x s (r_node r) (tiles nc (r_tiles r)) (place (r_spid r)) (tile_of nc (r_tiles r) c)) ->
  forall c, In c (points (grid nc)) -> used mask (flag (index c)) (wt (index c)) = true -> residual V D (e_spids e) (fun y => d y c) (index c) = c0.
Proof.
  intro H. destruct (fillEquations (made [1] pair_rs) (fun _ => false) (index (grid [1])) 1 pair_e) as [qs| |] eqn:Eq; try (vm_compute in Eq; discriminate Eq).
  specialize (H [1] pair_rs (made [1] pair_rs) (fun _ => 0) 1%Z pair_e (fun _ => (1%Qc, 0%Qc)) (fun _ => 0%Z) (fun _ => 1%Qc) (fun _ _ => (1%Qc, 0%Qc)) qs (fun _ => 1%Qc)
    (fun y c => sent (fun _ => 1%Qc) (made [1] pair_rs) (if Z.eqb y 1 then 10 else 11) 1 0 (tile_of [1] [1] c))).
  assert (Hf : all_fit [1] pair_rs) by (intros r [<-|[<-|[]]]; now apply fits_dec).
  assert (Ha : alike [1] pair_rs) by (intros r r' i [<-|[<-|[]]] [<-|[<-|[]]]; reflexivity).
  assert (Hd : distinct pair_rs) by (repeat constructor; cbn; intuition discriminate).
  specialize (H Hf Ha Hd ltac:(discriminate) ltac:(exists 0; discriminate) ltac:(cbn; lia) eq_refl).
  assert (Z : residual (fun _ => (1%Qc, 0%Qc)) (fun _ _ => (1%Qc, 0%Qc)) (e_spids pair_e)
    (fun y => sent (fun _ => 1%Qc) (made [1] pair_rs) (if Z.eqb y 1 then 10 else 11) 1 0 (tile_of [1] [1] [0])) (index [0]) = c0).
  { apply H with (c := [0]).
    - intros r [<-|[<-|[]]]; [exists (line (made [1] pair_rs) 0)|exists (line (made [1] pair_rs) 1)]; (split; [|reflexivity]); repeat split; try reflexivity; [now left|right; now left].
    - split; [now apply constant_stands|]. split; [intro; reflexivity|]. split; [intro; reflexivity|]. constructor; [split; [reflexivity|now apply constant_stands]|constructor; [split; [reflexivity|now apply constant_stands]|constructor]].
    - repeat constructor; cbn; intuition discriminate.
    - cbn. tauto.
    - exact Eq.
    - vm_compute in Eq. injection Eq as <-. repeat constructor; apply Qc_is_canon; reflexivity.
    - intros r c [<-|[<-|[]]]; reflexivity.
    - now left.
    - reflexivity. }
  pose proof (f_equal (fun z => this (fst z)) Z) as Z1. vm_compute in Z1. discriminate Z1.
Qed.
Print Assumptions solver_groups_overshoot_refuted.

(** ** C94: spids the Solver does not know *)
(** A VellSet with a spid that no parm reported makes the whole request fail: no equations are lost or made up. *)
Theorem solver_unknown_spid : forall s converged cells mask e x, In x (e_spids e) -> (forall u, In u (s_spids s) -> i_spid (u_info u) <> x) ->
  fillEquations s converged cells mask e = Err.
Proof.
  intros s converged cells mask e x Hx Nx. unfold fillEquations. destruct (length (s_spids s) <? length (e_spids e)); [reflexivity|].
  assert (find_spids s (e_spids e) = Err) as ->; [|reflexivity].
  induction (e_spids e) as [|y l IH]; [contradiction|]. cbn [find_spids]. destruct (Z.eq_dec y x) as [->|Ny].
  - replace (find_spid s x) with (@None uktable); [reflexivity|]. symmetry. unfold find_spid. destruct (find _ _) as [u|] eqn:Ef; [|reflexivity]. apply find_some in Ef as [I E]. apply Z.eqb_eq in E. exfalso. now apply (Nx u).
  - destruct Hx as [Hx|Hx]; [congruence|]. destruct (find_spid s y); [|reflexivity]. now rewrite IH.
Qed.
Print Assumptions solver_unknown_spid.

(** ** Examples *)
Definition show_linear (q : equation) := (q_sub q, map (fun t => (fst t, this (snd t))) (q_coefs q), this (q_weight q), this (q_rhs q)).
Definition show_equations (x : res (list equation)) := match x with Ok l => Ok (map show_linear l) | Err => Err | UB => UB end.
(** 4 by 3 cells, tiles of 2 by 2, spids 3 and 5 in one group and 4 in another; the residual varies with the first axis,
    derivatives are constant or vary with the second; the first row is flagged, so is cell (1,2) but not by the mask; cell (2,.)
    has no weight *)
Definition ex_eq : eqset := {| e_value := real_array [4; 1]%Z [1; 2; 3; 4]%Q; e_flags := Some (plain [4; 3]%Z [1;1;1; 0;0;2; 0;0;0; 0;0;1]%Z);
  e_weights := Some (plain [4; 1]%Z (map qc [1; 1#2; 0; 3]%Q)); e_spids := [3; 4; 5]%Z; e_ders := [real_array [1]%Z [7]%Q; real_array [1]%Z [9]%Q; real_array [1; 3]%Z [10; 20; 30]%Q] |}.
Example ex_fill : show_equations (fillEquations (made nc0 trio) (fun i => Nat.eqb i 7) (index (grid nc0)) 1 ex_eq) =
  Ok [(0, [(0, 7%Q); (1, 10%Q)], (1#2)%Q, 2%Q); (4, [(0, 9%Q)], (1#2)%Q, 2%Q); (0, [(0, 7%Q); (1, 20%Q)], (1#2)%Q, 2%Q); (4, [(0, 9%Q)], (1#2)%Q, 2%Q);
      (1, [(0, 7%Q); (1, 30%Q)], (1#2)%Q, 2%Q); (5, [(0, 9%Q)], (1#2)%Q, 2%Q);
      (2, [(0, 7%Q); (1, 10%Q)], 3%Q, 4%Q); (6, [(0, 9%Q)], 3%Q, 4%Q); (2, [(0, 7%Q); (1, 20%Q)], 3%Q, 4%Q); (6, [(0, 9%Q)], 3%Q, 4%Q)].
Proof. vm_compute. reflexivity. Qed.
(** complex values give two equations per cell *)
Example ex_fill_cx : let z a b := {| c_cx := true; c_arr := plain [1%Z] [(qc a, qc b)] |} in
  show_equations (fillAll (made [2] [rec 1 10 0 [1]; rec 2 10 0 [1]]) (fun _ => false) [2]%Z 1
    [None; Some {| e_value := z 1%Q 2%Q; e_flags := None; e_weights := None; e_spids := [2]%Z; e_ders := [z 3%Q 4%Q] |}]) =
  Ok [(0, [(1, 3%Q)], 1%Q, 1%Q); (0, [(1, 4%Q)], 1%Q, 2%Q); (1, [(1, 3%Q)], 1%Q, 1%Q); (1, [(1, 4%Q)], 1%Q, 2%Q)].
Proof. vm_compute. reflexivity. Qed.
(** The hypotheses of the theorems hold of something *)
Definition ex_one : eqset := {| e_value := constant (qc 3); e_flags := None; e_weights := None; e_spids := [5; 3]%Z; e_ders := [constant (qc 2); constant (qc 1)] |}.
Example ex_hyps : all_fit nc0 trio /\ alike nc0 trio /\ distinct trio /\ has_axis nc0 /\ length nc0 <= 8 /\
  describes (index (grid nc0)) ex_one (fun _ => (qc 3, 0%Qc)) (fun _ => 0%Z) (fun _ => 1%Qc) (fun y _ => (if Z.eqb y 5 then qc 2 else qc 1, 0%Qc)) /\
  NoDup (e_spids ex_one) /\ forall x, In x (e_spids ex_one) -> In x (map r_spid trio).
Proof.
  destruct ex_hyp as (A & B & C & D & _). split; [exact A|]. split; [exact B|]. split; [exact C|]. split; [exact D|]. split; [cbn; lia|]. split; [|split].
  - split; [now apply constant_stands|]. split; [intro; reflexivity|]. split; [intro; reflexivity|]. constructor; [split; [reflexivity|cbn [Z.eqb Pos.eqb]; now apply constant_stands]|constructor; [split; [reflexivity|cbn [Z.eqb Pos.eqb]; now apply constant_stands]|constructor]].
  - repeat constructor; cbn; intuition discriminate.
  - cbn. tauto.
Qed.
