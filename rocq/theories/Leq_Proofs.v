(** The equations of the Solver: positions of the iterators, the loop over the cells. *)
From Coq Require Import QArith Qcanon.
From Verif Require Import Base Vel_Model Vel_Spec Vel_Proofs Vel_Arith Vel_Sums Slv_Model Slv_Spec Slv_Proofs Slv_Map Ceq_Model Ceq_Spec Ceq_Proofs Leq_Model Leq_Spec.
Close Scope Q_scope. Local Open Scope Qc_scope. Local Open Scope nat_scope.

(** ** Points and indices *)
Lemma seq_add k : forall n a, map (fun y => k + y) (seq a n) = seq (k + a) n.
Proof. induction n as [|n IH]; intro a; [reflexivity|]. cbn [seq map]. f_equal. rewrite IH. f_equal. lia. Qed.
Lemma seq_flat : forall n b, seq 0 (n * b) = flat_map (fun x => map (fun y => x * b + y) (seq 0 b)) (seq 0 n).
Proof.
  intros n b. induction n as [|n IH]; [reflexivity|]. rewrite seq_S, flat_map_app, <- IH. cbn [flat_map]. rewrite app_nil_r. replace (S n * b) with (n * b + b) by lia.
  rewrite seq_app. f_equal. cbn [plus]. rewrite (seq_add (n * b)). f_equal. lia.
Qed.
Lemma points_cons n sh : points (n :: sh) = flat_map (fun x => map (cons x) (points sh)) (seq 0 n).
Proof.
  unfold points. cbn [box fold_right]. fold (box sh). rewrite seq_flat, flat_map_concat_map, concat_map, map_map, <- flat_map_concat_map.
  apply flat_map_ext. intro x. rewrite !map_map. apply map_ext_in. intros y Hy. apply in_seq in Hy. cbn [point].
  rewrite Nat.div_add_l by lia. rewrite Nat.div_small by lia. rewrite (Nat.add_comm (x * box sh) y), Nat.mod_add by lia. rewrite Nat.mod_small by lia. f_equal. lia.
Qed.
Lemma indices_points : forall sh, indices (index sh) = map index (points sh).
Proof.
  induction sh as [|n sh IH]; [reflexivity|]. rewrite points_cons. cbn [index map indices]. fold (index sh). rewrite Nat2Z.id, IH.
  rewrite !flat_map_concat_map, concat_map, map_map. f_equal. apply map_ext. intro x. rewrite !map_map. apply map_ext. reflexivity.
Qed.

(** ** Positions *)
Lemma strides_one : forall es tot deg, Forall (fun e => e = 1%Z) es -> (deg = true \/ tot = 0%Z) -> strides1 es tot deg = map (fun _ => 0%Z) es.
Proof.
  induction es as [|e es IH]; intros tot deg F D; [reflexivity|]. inversion F as [|? ? -> F']; subst. cbn [strides1 map]. replace (1 <? 1)%Z with false by reflexivity. unfold degenerateAxis.
  destruct D as [-> | ->].
  - f_equal. apply IH; auto.
  - destruct deg; f_equal; apply IH; auto.
Qed.
Lemma rext_one n : strides1 (rext [1%Z] n) 1 true = map (fun _ => 0%Z) (rext [1%Z] n).
Proof. apply strides_one; [|now left]. unfold rext. apply Forall_forall. intros x Hx. apply in_map_iff in Hx as (k & <- & _). unfold ext. destruct k as [|[|k]]; reflexivity. Qed.
Lemma zeros_same {A B} : forall (a : list A) (b : list B), length a = length b -> map (fun _ => 0%Z) a = map (fun _ => 0%Z) b.
Proof. induction a as [|x a IH]; intros [|y b] L; try discriminate; [reflexivity|]. cbn. f_equal. apply IH. now injection L. Qed.
Lemma one_sub full : (1 <= length full) -> subshape [1%Z] full.
Proof. intro L. split; [exact L|]. intros [|[|k]]; left; reflexivity. Qed.
Lemma shape_ext (a b : list Z) : length a = length b -> (forall k, ext a k = ext b k) -> a = b.
Proof. revert b. induction a as [|x a IH]; intros [|y b] L H; try discriminate; [reflexivity|]. f_equal; [exact (H 0)|]. apply IH; [now injection L|]. intro k. exact (H (S k)). Qed.
Lemma ranks_max full : forall ss, Forall (fun s => subshape s full) ss -> ranks (full :: ss) = length full.
Proof.
  intros ss F. unfold ranks. cbn [fold_right]. assert (fold_right (fun s n => Nat.max (length s) n) 0 ss <= length full); [|lia].
  induction F as [|s ss [L _] F IH]; cbn [fold_right]; lia.
Qed.
Lemma max_full full : forall ss, proper full -> Forall proper ss -> Forall (fun s => subshape s full) ss -> forall k, max_ext (full :: ss) k = ext full k.
Proof.
  intros ss P Ps F k. unfold max_ext. cbn [map fold_right]. pose proof (ext_pos _ P k).
  assert (fold_right Z.max 1 (map (fun s => ext s k) ss) <= ext full k)%Z; [|lia].
  induction F as [|s ss [_ X] F IH]; cbn [map fold_right]; [lia|]. inversion Ps; subst. specialize (IH ltac:(assumption)). destruct (X k) as [-> | ->]; lia.
Qed.
Lemma all_sub full : forall ss, Forall (fun s => subshape s full) ss -> all_broadcastable (full :: ss).
Proof.
  intros ss F. assert (G : forall s, In s (full :: ss) -> subshape s full).
  { intros s [<-|Hs]; [split; [lia|intro; now right]|]. rewrite Forall_forall in F. auto. }
  intros a b Ha Hb. apply (subshape_broadcast a b full); auto.
Qed.
Lemma strides_full full ss : proper full -> length full <= Vel_Model.MaxAxis -> Forall proper ss -> Forall (fun s => subshape s full) ss ->
  exists st, computeStrides (full :: ss) = Ok (full, st) /\
    (forall j s, nth_error ss j = Some s -> nth (S j) st [] = strides1 (rext s (length full)) 1 true /\ Forall2 Vel_Proofs.fits (rext s (length full)) (rev full)).
Proof.
  intros P L Ps F. destruct (computeStrides_ok (full :: ss)) as (out & st & E & Lo & X & Po & N).
  - constructor; auto.
  - rewrite ranks_max by auto. exact L.
  - now apply all_sub.
  - assert (out = full) as ->.
    { apply shape_ext; [now rewrite Lo, ranks_max|]. intro k. rewrite X. now apply max_full. }
    exists st. split; [exact E|]. intros j s Hs. apply (N (S j) s). exact Hs.
Qed.
Lemma run_sub full : forall ss, proper full -> Forall (fun s => Forall2 Vel_Proofs.fits (rext s (length full)) (rev full) /\ length s <= length full) ss ->
  run full (map (fun s => (strides1 (rext s (length full)) 1 true, 0%Z, size s)) ss) = Ok (map (fun idx => map (fun s => position s idx) ss) (indices full)).
Proof. intros. now apply run_indices. Qed.

(** ** Equations of a cell *)
Lemma Forall2_len {A B} (P : A -> B -> Prop) : forall a b, Forall2 P a b -> length a = length b.
Proof. intros a b F. induction F; cbn; congruence. Qed.
Lemma filter_map {A B} (f : A -> B) (p : B -> bool) : forall l, filter p (map f l) = map f (filter (fun x => p (f x)) l).
Proof. induction l as [|x l IH]; [reflexivity|]. cbn. rewrite IH. now destruct (p (f x)). Qed.
Section Cell.
Variable s : solver.
Variable converged : nat -> bool.
Variable z : Z.
Variable unk : uktable -> nat * nat.
Definition term (x : uktable * cplx) : nat * (nat * nat) * cplx := (i_group (u_info (fst x)), unk (fst x), snd x).
Lemma unk_sub u : eq_unknown s z u = Some (unk u) -> fst (unk u) = psubsolver s (Z.to_nat z) (i_group (u_info u)) /\ nth_error (u_ssuki u) (Z.to_nat z) = Some (snd (unk u)).
Proof. unfold eq_unknown. destruct (nth_error (u_ssuki u) (Z.to_nat z)) as [k|]; [|discriminate]. intro H. injection H as <-. auto. Qed.
Lemma derivs_ok : forall us ds, Forall (fun u => eq_unknown s z u = Some (unk u)) us -> length us = length ds ->
  derivs z us ds = Ok (map (fun x => (i_group (u_info (fst x)), snd (unk (fst x)), snd x)) (combine us ds)).
Proof.
  induction us as [|u us IH]; intros [|d ds] F L; try discriminate; [reflexivity|]. inversion F as [|? ? F1 F2]; subst. cbn [derivs combine map fst snd].
  rewrite (proj2 (unk_sub u F1)), (IH ds F2) by (now injection L). reflexivity.
Qed.
Lemma group_ok us ds cx v w g : Forall (fun u => eq_unknown s z u = Some (unk u)) us ->
  map view (group_equations s converged z cx v w (map (fun x => (i_group (u_info (fst x)), snd (unk (fst x)), snd x)) (combine us ds)) g) =
  lines converged cx v w (map term (combine us ds)) g.
Proof.
  intro F. unfold group_equations, lines, of_group, terms_of. rewrite !filter_map, !map_map. cbn [fst snd term].
  set (f := filter (fun x => Nat.eqb (i_group (u_info (fst x))) g) (combine us ds)).
  assert (Hf : forall x, In x f -> fst (unk (fst x)) = psubsolver s (Z.to_nat z) g).
  { intros [u d] Hx. apply filter_In in Hx as [Hx Hg]. apply Nat.eqb_eq in Hg. cbn [fst] in *. rewrite <- Hg. apply in_combine_l in Hx. rewrite Forall_forall in F. apply unk_sub. auto. }
  clearbody f. destruct f as [|[u d] f]; [reflexivity|]. cbn [map]. rewrite (Hf (u, d) (or_introl eq_refl)). cbn [fst] in *.
  destruct (converged (psubsolver s (Z.to_nat z) g)); [reflexivity|]. assert (Q : forall (part : cplx -> Qc),
    map (fun x => ((psubsolver s (Z.to_nat z) g, fst x), snd x)) (map (fun x => (snd (unk (fst x)), part (snd x))) ((u, d) :: f)) =
    map (fun x => (unk (fst x), part (snd x))) ((u, d) :: f)).
  { intro part. rewrite map_map. apply map_ext_in. intros x Hx. cbn [fst snd]. rewrite <- (Hf x Hx). now destruct (unk (fst x)). }
  pose proof (Q fst) as Q1. pose proof (Q snd) as Q2. cbn [map fst snd] in Q1, Q2.
  cbn [map]. unfold view. cbn [q_sub q_coefs q_weight q_rhs map fst snd]. rewrite Q1. f_equal. destruct cx; [|reflexivity]. cbn [map q_sub q_coefs q_weight q_rhs fst snd]. rewrite Q2. reflexivity.
Qed.
Lemma cell_ok us ds cx v w : Forall (fun u => eq_unknown s z u = Some (unk u)) us -> length us = length ds ->
  exists qs, fillEqVectors s converged z us cx v ds w = Ok qs /\ map view qs = flat_map (lines converged cx v w (map term (combine us ds))) (seq 0 (s_groups s)).
Proof.
  intros F L. unfold fillEqVectors. rewrite (derivs_ok us ds F L). cbn [bind]. eexists. split; [reflexivity|]. rewrite concat_map, map_map, flat_map_concat_map. f_equal. apply map_ext. intro g. now apply group_ok.
Qed.
End Cell.

(** ** All cells *)
Section Fill.
Variable s : solver.
Variable converged : nat -> bool.
Variable mask : Z.
Variable e : eqset.
Variable us : list uktable.
Variables (V : list Z -> cplx) (flag : list Z -> Z) (wt : list Z -> Qc) (D : Z -> list Z -> cplx).
Variable tl : list nat -> Z.
Variable unk : list nat -> uktable -> nat * nat.
Variable sh : list nat.
Notation full := (index sh).
Hypothesis Hsh : Forall (fun n => 1 <= n) sh.
Hypothesis Lsh : 1 <= length sh <= 8.
Hypothesis De : describes full e V flag wt D.
Hypothesis Hspids : Forall2 (fun x u => find_spid s x = Some u) (e_spids e) us.
Hypothesis Hunk : forall u c, In u us -> In c (points sh) -> eq_unknown s (tl c) u = Some (unk c u).
Definition cell_lines (c : list nat) :=
  let idx := index c in
  if used mask (flag idx) (wt idx)
  then flat_map (lines converged (c_cx (e_value e)) (V idx) (wt idx) (map (fun x => (i_group (u_info (snd x)), unk c (snd x), D (fst x) idx)) (combine (e_spids e) us))) (seq 0 (s_groups s))
  else [].
Definition shapes_of : list (list Z) :=
  v_shape (c_arr (e_value e)) :: match e_flags e with Some f => v_shape f | None => [1%Z] end :: match e_weights e with Some w => v_shape w | None => [1%Z] end ::
  map (fun d => v_shape (c_arr d)) (e_ders e).
Lemma full_proper : proper full.
Proof. unfold proper, index. apply Forall_map. eapply Forall_impl; [|exact Hsh]. cbn. intros n Hn. lia. Qed.
Lemma full_len : length full = length sh.
Proof. unfold index. now rewrite map_length. Qed.
Lemma inside_points c : In c (points sh) -> inside full (index c).
Proof. intro H. apply indices_inside. rewrite indices_points. now apply in_map. Qed.
Lemma get_at_index {A} (dv : A) sp d idx x : at_index sp d idx = Some x -> get dv d (position sp idx) = x.
Proof. unfold at_index, get. intro H. now apply nth_error_nth. Qed.
Lemma ders_values c : In c (points sh) ->
  map (fun '(d, q) => get c0 (v_data (c_arr d)) q) (combine (e_ders e) (map (fun s0 => position s0 (index c)) (map (fun d => v_shape (c_arr d)) (e_ders e)))) = map (fun x => D x (index c)) (e_spids e).
Proof.
  intro Hc. destruct De as (_ & _ & _ & Dd). clear De Hspids. induction Dd as [|x d spids ders [_ Sd] Dd IH]; [reflexivity|]. cbn [map combine]. f_equal; [|exact IH].
  apply get_at_index. apply Sd. now apply inside_points.
Qed.
Lemma terms_same c : map (term (unk c)) (combine us (map (fun x => D x (index c)) (e_spids e))) =
  map (fun x => (i_group (u_info (snd x)), unk c (snd x), D (fst x) (index c))) (combine (e_spids e) us).
Proof. clear - Hspids. induction Hspids as [|x u spids us' _ H IH]; [reflexivity|]. cbn [map combine]. f_equal. now apply IH. Qed.
Lemma fill_cells_ok : forall cs, (forall c, In c cs -> In c (points sh)) ->
  exists qs, fill_cells s converged mask e us (map (fun c => map (fun s0 => position s0 (index c)) shapes_of) cs) (map tl cs) = Ok qs /\ map view qs = flat_map cell_lines cs.
Proof.
  induction cs as [|c cs IH]; intro Hcs; [exists []; auto|]. destruct IH as (qs & Eq & Vq); [intros; apply Hcs; now right|]. assert (Hc : In c (points sh)) by (apply Hcs; now left).
  cbn [map fill_cells]. rewrite Eq. cbn [shapes_of map nth skipn].
  assert (EV : get c0 (v_data (c_arr (e_value e))) (position (v_shape (c_arr (e_value e))) (index c)) = V (index c)).
  { apply get_at_index. destruct De as (Sv & _). apply Sv. now apply inside_points. }
  assert (EF : match e_flags e with Some f => getf (v_data f) (position match e_flags e with Some f => v_shape f | None => [1%Z] end (index c)) | None => 0%Z end = flag (index c)).
  { destruct De as (_ & Df & _). destruct (e_flags e) as [f|]; [|now rewrite Df]. unfold getf. apply nth_error_nth. apply Df. now apply inside_points. }
  assert (EW : match e_weights e with Some w => get 0%Qc (v_data w) (position match e_weights e with Some w => v_shape w | None => [1%Z] end (index c)) | None => 1%Qc end = wt (index c)).
  { destruct De as (_ & _ & Dw & _). destruct (e_weights e) as [w|]; [|now rewrite Dw]. apply get_at_index. apply Dw. now apply inside_points. }
  assert (EF' : match e_flags e with Some f => getf (v_data f) (position match e_flags e with Some f0 => v_shape f0 | None => [1%Z] end (index c)) | None => 0%Z end = flag (index c)) by exact EF.
  rewrite EV, EF', EW. rewrite ders_values by exact Hc. change (Z.eqb (Z.land (flag (index c)) mask) 0 && match (wt (index c) ?= 0)%Qc with Gt => true | _ => false end) with (used mask (flag (index c)) (wt (index c))).
  cbn [flat_map]. unfold cell_lines at 1. cbv zeta. destruct (used mask (flag (index c)) (wt (index c))).
  - destruct (cell_ok s converged (tl c) (unk c) us (map (fun x => D x (index c)) (e_spids e)) (c_cx (e_value e)) (V (index c)) (wt (index c))) as (q1 & E1 & V1).
    + apply Forall_forall. intros u Hu. now apply Hunk.
    + rewrite map_length. symmetry. apply (Forall2_len _ _ _ Hspids).
    + rewrite E1. cbn [bind]. eexists. split; [reflexivity|]. rewrite map_app, V1, Vq, terms_same. reflexivity.
  - cbn [bind]. eexists. split; [reflexivity|]. exact Vq.
Qed.
Lemma find_spids_ok : forall spids us', Forall2 (fun x u => find_spid s x = Some u) spids us' -> find_spids s spids = Ok us'.
Proof. intros spids us' F. induction F as [|x u spids us' Hx F IH]; [reflexivity|]. cbn [find_spids]. rewrite Hx, IH. reflexivity. Qed.
Lemma shapes_good : Forall proper shapes_of /\ Forall (fun h => subshape h full) shapes_of.
Proof.
  assert (L1 : 1 <= length full) by (rewrite full_len; lia). destruct De as (Sv & Df & Dw & Dd). unfold shapes_of. split.
  - constructor; [apply Sv|]. constructor; [destruct (e_flags e); [apply Df|repeat constructor; lia]|]. constructor; [destruct (e_weights e); [apply Dw|repeat constructor; lia]|].
    clear - Dd. induction Dd as [|x d spids ders [_ Sd] Dd IH]; constructor; [apply Sd|exact IH].
  - constructor; [apply Sv|]. constructor; [destruct (e_flags e); [apply Df|now apply one_sub]|]. constructor; [destruct (e_weights e); [apply Dw|now apply one_sub]|].
    clear - Dd. induction Dd as [|x d spids ders [_ Sd] Dd IH]; constructor; [apply Sd|exact IH].
Qed.
Lemma ders_iters st : forall ders k, (forall i d, nth_error ders i = Some d -> nth (k + i) st [] = strides1 (rext (v_shape (c_arr d)) (length full)) 1 true) ->
  Forall (fun d => filled (v_shape (c_arr d)) (v_data (c_arr d))) ders ->
  map (fun '(d, j) => (nth j st [], 0%Z, nelements (c_arr d))) (combine ders (seq k (length ders))) =
  map (fun h => (strides1 (rext h (length full)) 1 true, 0%Z, size h)) (map (fun d => v_shape (c_arr d)) ders).
Proof.
  induction ders as [|d ders IH]; intros k H F; [reflexivity|]. inversion F as [|? ? [_ F1] F2]; subst. cbn [length seq combine map]. f_equal.
  - pose proof (H 0 d eq_refl) as H0. rewrite Nat.add_0_r in H0. rewrite H0. unfold nelements. now rewrite F1.
  - apply IH; [|exact F2]. intros i d' Hd. specialize (H (S i) d' Hd). now rewrite Nat.add_succ_r in H.
Qed.
Lemma fill_ok : Slv_Model.walk_go (volume sh) (tiling_at (s_tilings s) (s_isolver s)) sh (map (fun _ => 0) sh) (fresh (tiling_at (s_tilings s) (s_isolver s))) 0 = map (fun c => (c, tl c)) (points sh) ->
  length (e_spids e) <= length (s_spids s) ->
  exists qs, fillEquations s converged full mask e = Ok qs /\ map view qs = flat_map cell_lines (points sh).
Proof.
  intros W Ls. unfold fillEquations. rewrite (proj2 (Nat.ltb_ge _ _) Ls). rewrite (find_spids_ok _ _ Hspids). cbn [bind].
  destruct shapes_good as [Ps Ss]. destruct (strides_full full shapes_of full_proper) as (st & E & N); auto; [rewrite full_len; unfold Vel_Model.MaxAxis; lia|].
  unfold shapes_of in E. rewrite E. cbn [bind]. pose proof De as (Sv & Df & Dw & Dd).
  assert (Cx : forallb (fun d => Bool.eqb (c_cx d) (c_cx (e_value e))) (e_ders e) = true).
  { clear - Dd. induction Dd as [|x d spids ders [Cd _] Dd IH]; [reflexivity|]. cbn [forallb]. rewrite Cd, IH. now destruct (c_cx (e_value e)). }
  rewrite Cx. cbn [negb].
  assert (I : forall a b c d a' b' c' d' : list Z * Z * Z, forall x y, a = a' -> b = b' -> c = c' -> x = y -> a :: b :: c :: x = a' :: b' :: c' :: y) by (intros; congruence).
  erewrite (I _ _ _ ([],0%Z,0%Z) (strides1 (rext (nth 0 shapes_of []) (length full)) 1 true, 0%Z, size (nth 0 shapes_of [])) (strides1 (rext (nth 1 shapes_of []) (length full)) 1 true, 0%Z, size (nth 1 shapes_of []))
      (strides1 (rext (nth 2 shapes_of []) (length full)) 1 true, 0%Z, size (nth 2 shapes_of [])) ([],0%Z,0%Z) _ (map (fun h => (strides1 (rext h (length full)) 1 true, 0%Z, size h)) (map (fun d => v_shape (c_arr d)) (e_ders e)))).
  - pose proof (run_sub full shapes_of full_proper) as R. unfold shapes_of at 2 in R. cbn [map] in R. cbn [shapes_of nth] in R |- *. rewrite R; clear R.
    + cbn [bind]. rewrite indices_points, map_map.
      assert (Es : map Z.to_nat full = sh) by (unfold index; rewrite map_map; rewrite <- (map_id sh) at 2; apply map_ext; intro n; apply Nat2Z.id).
      rewrite Es, W, map_map. cbn [snd]. apply fill_cells_ok. auto.
    + apply Forall_forall. intros h Hh. apply In_nth_error in Hh as (j & Hj). split; [apply (N j h Hj)|]. apply nth_error_In in Hj. rewrite Forall_forall in Ss. apply (Ss h Hj).
  - cbn [shapes_of nth]. rewrite (proj1 (N 0 _ eq_refl)). unfold nelements. f_equal. apply Sv.
  - cbn [shapes_of nth]. destruct (e_flags e) as [f|] eqn:Ef.
    + assert (N1 : nth_error shapes_of 1 = Some (v_shape f)) by (unfold shapes_of; rewrite Ef; reflexivity). rewrite (proj1 (N 1 _ N1)). unfold nelements. f_equal. apply Df.
    + rewrite rext_one. f_equal. f_equal. apply zeros_same. unfold rext. now rewrite map_length, rev_length, seq_length.
  - cbn [shapes_of nth]. destruct (e_weights e) as [w|] eqn:Ew.
    + assert (N1 : nth_error shapes_of 2 = Some (v_shape w)) by (unfold shapes_of; rewrite Ew; reflexivity). rewrite (proj1 (N 2 _ N1)). unfold nelements. f_equal. apply Dw.
    + assert (N1 : nth_error shapes_of 2 = Some [1%Z]) by (unfold shapes_of; rewrite Ew; reflexivity). rewrite (proj1 (N 2 _ N1)). reflexivity.
  - apply ders_iters.
    + intros i d Hd. apply (N (3 + i)). cbn [plus shapes_of nth_error]. now rewrite nth_error_map, Hd.
    + clear - Dd. induction Dd as [|x d spids ders [_ Sd] Dd IH]; constructor; [apply Sd|exact IH].
Qed.
End Fill.
