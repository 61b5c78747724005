(** The perturbed values and flags of a tensor node. *)
From Coq Require Import Sorted.
From Verif Require Import Base Poll_Model Vel_Model Vel_Spec Fun_Model Fun_Spec Fun_Proofs Fun_Pert Fun_Flags Tfn_Model Tfn_Spec.
Local Open Scope Z_scope.

Lemma group_concat {A} : forall ls : list (list A), group (map (@length A) ls) (concat ls) = ls.
Proof.
  induction ls as [|l ls IH]; [reflexivity|]. cbn [map group concat].
  rewrite firstn_app, Nat.sub_diag, firstn_all. cbn [firstn]. rewrite app_nil_r. f_equal.
  rewrite skipn_app, Nat.sub_diag, skipn_all. exact IH.
Qed.
Lemma group_map {A B} (f : A -> B) (ls : list (list A)) : group (map (@length A) ls) (map f (concat ls)) = map (map f) ls.
Proof.
  rewrite concat_map. rewrite <- (group_concat (map (map f) ls)) at 2. f_equal. rewrite map_map. apply map_ext. intro l. now rewrite map_length.
Qed.
Lemma outputs_len {V} nres (out vs : list V) : outputs nres out = Ok vs -> length vs = nres /\ forall j, (j < nres)%nat -> nth_error vs j = nth_error out j.
Proof.
  unfold outputs. destruct (Nat.ltb_spec (length out) nres); [discriminate|]. intro H'. injection H' as <-. split; [apply firstn_length_le; lia|].
  intros j Hj. clear H. revert nres j Hj. induction out as [|x out IH]; intros [|m] j Hj; try lia; [now destruct j|]. destruct j as [|j]; [reflexivity|]. cbn. apply IH. lia.
Qed.

Section TensorPert.
Context {V P F C E : Type}.
Variable clean ub : Prop.
Variable isNull : V -> bool.
Variable accepts : option (vells Z) -> list V -> V -> bool.
Variable pert_eqb : P -> P -> bool.
Variable getResultDims : list (list nat) -> res (list nat).
Variable evaluateTensors : list (list (option V)) -> res (list V).
Variable perturb : E -> Z -> P -> E.
Variable delta : nat -> Z -> P.
Variable n : nat.
Variable e : E.
Hypothesis Ce : clean -> forall p, pert_eqb p p = true.
Hypothesis Ca : clean -> forall f l v, accepts f l v = true.
Variable sizes : list nat.
Variable nres : nat.
Notation tev := (evaluate_all evaluateTensors sizes nres).

Lemma accept_all_clean flags held vs : clean -> accept_all accepts flags held vs = true.
Proof. intro Cl. apply forallb_forall. intros x _. now apply Ca. Qed.
Lemma eval_tensor_rows_ok flags s (row : nat -> list (option V)) : forall ks held,
  (forall k, In k ks -> spec clean ub (tev (row k)) (fun _ => True)) ->
  spec clean ub (eval_tensor_rows accepts evaluateTensors sizes nres flags (map (fun k => (row k, Some (delta k s))) ks) held)
    (fun '(r, _) => map fst r = map (fun k => delta k s) ks /\ map (fun pv => Ok (snd pv)) r = map (fun k => tev (row k)) ks).
Proof.
  induction ks as [|k ks IH]; intros held H; [split; reflexivity|]. cbn [map eval_tensor_rows].
  pose proof (H k (or_introl eq_refl)) as Hk. destruct (tev (row k)) as [v| |] eqn:Ev; cbn [bind]; [|exact Hk|exact Hk].
  destruct (accept_all accepts flags held v) eqn:Ac; [|intro Cl; rewrite accept_all_clean in Ac by exact Cl; discriminate].
  eapply spec_bind; [apply IH; intros k' Hk'; apply H; now right|]. intros [r h] [H1 H2]. cbn. now rewrite H1, H2.
Qed.
Lemma tensor_spid_loop_ok flags cs fs : Forall2 (rel perturb delta n e) cs fs ->
  (forall s k, (k < n)%nat -> spec clean ub (tev (row_at perturb delta e fs s k)) (fun _ => True)) ->
  forall l indices held, increasing l -> (forall s, In s l -> existsb (has_spid s) cs = true) -> Forall2 (idx_inv l) cs indices ->
  spec clean ub (tensor_spid_loop accepts pert_eqb evaluateTensors cs (map (fun f => f e) fs) sizes nres n flags l indices held)
    (fun r => Forall2 (fun s x => map fst x = map (fun k => delta k s) (seq 0 n) /\ map (fun pv => Ok (snd pv)) x = map (fun k => tev (row_at perturb delta e fs s k)) (seq 0 n)) l r).
Proof.
  intros R Cev. induction l as [|s l IH]; intros indices held Inc Hs Hi; [constructor|]. cbn [tensor_spid_loop].
  eapply spec_bind.
  { assert (X : repeat (map (fun f => f e) fs, None) n = rows perturb delta n e s [] fs false).
    { unfold rows. cbn [map app]. generalize 0%nat. generalize n. induction n0 as [|m IHm]; intro k; [reflexivity|]. cbn. now rewrite <- IHm. }
    rewrite X. apply (child_loop_ok clean ub (fun _ => false) (fun _ => true) pert_eqb perturb delta n e (fun _ _ => eq_refl) Ce s l Inc cs fs R indices [] false Hi). }
  intros [ind' rws] [I1 I2]. cbn [fst snd] in *. cbn [app orb] in I2. rewrite (Hs s (or_introl eq_refl)) in I2. subst rws. eapply spec_bind.
  { unfold rows. cbn [map]. replace (map _ (seq 0 n)) with (map (fun k => (row_at perturb delta e fs s k, Some (delta k s))) (seq 0 n)) by (apply map_ext; intro k; unfold row_at; now rewrite app_nil_r).
    apply eval_tensor_rows_ok. intros k Hk. apply in_seq in Hk. apply Cev. lia. }
  intros [r h] Hr. eapply spec_bind.
  { inversion Inc; subst. apply IH; [assumption|intros x Hx; apply Hs; now right|exact I1]. }
  intros rest Hrest. cbn. constructor; auto.
Qed.
(** output [j] *)
Definition tev_at (j : nat) (vals : list (option V)) : option V := match tev vals with Ok vs => nth_error vs j | _ => None end.
Lemma picked j fs s x : (j < nres)%nat -> map fst x = map (fun k => delta k s) (seq 0 n) -> map (fun pv => Ok (snd pv)) x = map (fun k => tev (row_at perturb delta e fs s k)) (seq 0 n) ->
  exists y, flat_map (pick j) x = y /\ length y = n /\ forall k p v, nth_error y k = Some (p, v) -> p = delta k s /\ tev_at j (row_at perturb delta e fs s k) = Some v.
Proof.
  intros Hj H1 H2. exists (flat_map (pick j) x). split; [reflexivity|].
  assert (G : forall m (x : list (P * list V)) a, map fst x = map (fun k => delta k s) (seq a m) -> map (fun pv => Ok (snd pv)) x = map (fun k => tev (row_at perturb delta e fs s k)) (seq a m) ->
    length (flat_map (pick j) x) = m /\ forall k p v, nth_error (flat_map (pick j) x) k = Some (p, v) -> p = delta (a + k)%nat s /\ tev_at j (row_at perturb delta e fs s (a + k)%nat) = Some v).
  { clear - Hj. induction m as [|m IH]; intros x a H1 H2; destruct x as [|[p vs] x]; cbn [seq map] in *; try discriminate.
    - split; [reflexivity|]. intros [|k] p v Hk; discriminate.
    - injection H1 as H1 H1'. injection H2 as H2 H2'. destruct (IH x (S a) H1' H2') as [I1 I2]. cbn [snd] in H2. cbn [flat_map]. unfold pick at 1 3. cbn [fst snd].
      assert (L : length vs = nres).
      { symmetry in H2. unfold evaluate_all in H2. destruct (evaluateTensors _) as [out| |]; cbn [bind] in H2; try discriminate. now apply outputs_len in H2. }
      destruct (nth_error vs j) as [w|] eqn:Ew; [|apply nth_error_None in Ew; lia]. cbn [app length]. split; [now rewrite I1|].
      intros [|k] q v Hk; cbn [nth_error] in Hk.
      + injection Hk as <- <-. rewrite Nat.add_0_r. split; [cbn in H1; congruence|]. unfold tev_at. rewrite <- H2. exact Ew.
      + specialize (I2 k q v Hk). now rewrite Nat.add_succ_comm in I2. }
  destruct (G n x 0%nat H1 H2) as [G1 G2]. split; [exact G1|]. intros k p v Hk. exact (G2 k p v Hk).
Qed.
Lemma tensor_psets j fs k : (j < nres)%nat -> (k < n)%nat -> forall l rws,
  Forall2 (fun s x => map fst x = map (fun k => delta k s) (seq 0 n) /\ map (fun pv => Ok (snd pv)) x = map (fun k => tev (row_at perturb delta e fs s k)) (seq 0 n)) l rws ->
  let ps := pset_of (map (flat_map (pick j)) rws) k in
  ps_pert ps = map (delta k) l /\ map Some (ps_val ps) = map (fun s => tev_at j (row_at perturb delta e fs s k)) l.
Proof.
  intros Hj Hk. induction 1 as [|s x l rws [H1 H2] H IH]; [split; reflexivity|]. unfold pset_of in *. cbn [ps_pert ps_val flat_map map] in *.
  destruct (picked j fs s x Hj H1 H2) as (y & -> & Ly & Hy).
  destruct (nth_error y k) as [[p v]|] eqn:Ey; [|apply nth_error_None in Ey; lia]. destruct (Hy k p v Ey) as [-> Hv].
  destruct IH as [I1 I2]. cbn [app map]. now rewrite I1, I2, Hv.
Qed.
End TensorPert.

Section TensorNode.
Context {V P F C E : Type}.
Variable clean ub : Prop.
Variable isNull : V -> bool.
Variable accepts : option (vells Z) -> list V -> V -> bool.
Variable pert_eqb : P -> P -> bool.
Variable getResultDims : list (list nat) -> res (list nat).
Variable evaluateTensors : list (list (option V)) -> res (list V).
Variable perturb : E -> Z -> P -> E.
Variable delta : nat -> Z -> P.
Variable n : nat.
Variable e : E.
Notation rel := (rel perturb delta n e).

Lemma findSpids_ok (cs : list (option (vdata V P))) fs npert merged : Forall2 rel cs fs -> findSpids cs = (npert, merged) ->
  increasing merged /\ (forall s, In s merged <-> existsb (has_spid s) cs = true) /\ (forall s, In s merged -> 0 <= s) /\
  (merged <> [] -> npert = n) /\ (npert <= n)%nat.
Proof.
  intros R Ef.
  set (spids := map (fun c : option (vdata V P) => match c with Some d => d_spids d | None => [] end) cs).
  assert (Inc : Forall increasing spids).
  { unfold spids. apply Forall_map, Forall_forall. intros [d|] Hd; [|constructor]. destruct (rel_in _ _ _ _ _ _ _ R Hd) as (f & T & _). apply T. }
  assert (Pos : forall x, In x (concat spids) -> 0 <= x).
  { intros x Hx. apply in_concat in Hx as (l & Hl & Hx). unfold spids in Hl. apply in_map_iff in Hl as ([d|] & <- & Hd); [|contradiction].
    destruct (rel_in _ _ _ _ _ _ _ R Hd) as (f & T & _). destruct T as (_ & _ & T & _). rewrite Forall_forall in T. now apply T. }
  destruct (merged_spids_spec spids Inc Pos) as [Minc Min].
  assert (Cs : forall s, In s (concat spids) <-> existsb (has_spid s) cs = true) by (intro s; apply (concat_spids perturb delta n e)).
  unfold findSpids in Ef. fold spids in Ef. destruct (concat spids) as [|x l] eqn:Ec.
  - injection Ef as <- <-. split; [constructor|]. split; [intro s; rewrite <- Cs; reflexivity|]. split; [easy|]. split; [easy|lia].
  - injection Ef as <- <-. split; [exact Minc|]. split; [intro s; rewrite Min; apply Cs|]. split; [intros s Hs; apply Pos; now apply Min|].
    assert (Bd : Forall (fun c : option (vdata V P) => match c with Some d => (numPertSets d <= n)%nat | None => True end) cs).
    { apply Forall_forall. intros [d|] Hd; [|exact Logic.I]. destruct (rel_in _ _ _ _ _ _ _ R Hd) as (f & T & _). apply T. }
    destruct (fold_max False pert_eqb perturb delta n e (fun X => match X with end) cs 0%nat ltac:(lia) Bd) as [I1 I2]. split; [|lia]. intros _.
    assert (Hx : existsb (has_spid x) cs = true) by (apply Cs; now left).
    apply existsb_exists in Hx as ([d|] & Hd & Hx); [|discriminate]. apply has_spid_in in Hx. specialize (I2 d Hd).
    destruct (rel_in _ _ _ _ _ _ _ R Hd) as (f & T & _). destruct T as (_ & _ & _ & _ & T & _). destruct T as [T _]; [intro X; rewrite X in Hx; contradiction|]. unfold numPertSets in *. lia.
Qed.

(** the VellSets of the children *)
Definition all_of (cs : list (tresult V P F C)) : list (list (vdata V P)) :=
  map (fun c => flat_map (fun v => match v with VData d => [d] | VFail _ => [] end) (r_vs (t_res c))) cs.
Lemma collect_stands cs fs : Forall2 (stands_for perturb delta n e) cs fs ->
  collect_children cs = Ok (all_of cs) /\ Forall2 (Forall2 (fun d f => tells perturb delta n e d f /\ d_value d <> None)) (all_of cs) fs.
Proof.
  induction 1 as [|c f cs fs Hc H [IH1 IH2]]; [split; [reflexivity|constructor]|]. cbn [collect_children all_of map].
  assert (X : with_values (r_vs (t_res c)) = Ok (flat_map (fun v => match v with VData d => [d] | VFail _ => [] end) (r_vs (t_res c))) /\
    Forall2 (fun d f => tells perturb delta n e d f /\ d_value d <> None) (flat_map (fun v => match v with VData d => [d] | VFail _ => [] end) (r_vs (t_res c))) f).
  { unfold stands_for in Hc. induction Hc as [|v g vs gs (d & -> & T & Nv) Hv [I1 I2]]; [split; [reflexivity|constructor]|]. cbn [with_values flat_map app].
    destruct (d_value d) eqn:Ed; [|contradiction]. rewrite I1. cbn [bind]. split; [reflexivity|]. constructor; [split; [exact T|congruence]|exact I2]. }
  destruct X as [X1 X2]. rewrite X1. cbn [bind]. rewrite IH1. cbn [bind]. split; [reflexivity|]. constructor; [exact X2|exact IH2].
Qed.
Lemma rel_concat (pvs : list (list (vdata V P))) fs : Forall2 (Forall2 (fun d f => tells perturb delta n e d f /\ d_value d <> None)) pvs fs ->
  Forall2 rel (map Some (concat pvs)) (concat fs).
Proof.
  induction 1 as [|l f ls fs Hl H IH]; [constructor|]. cbn [concat]. rewrite map_app. apply Forall2_app; [|exact IH].
  clear -Hl. induction Hl as [|d g ds gs Hd H IH]; [constructor|]. cbn [map]. constructor; [exact Hd|exact IH].
Qed.
Lemma values_concat (pvs : list (list (vdata V P))) fs : Forall2 (Forall2 (fun d f => tells perturb delta n e d f /\ d_value d <> None)) pvs fs ->
  map d_value (concat pvs) = map (fun f => f e) (concat fs) /\ map (@length _) pvs = map (@length _) fs.
Proof.
  induction 1 as [|l f ls fs Hl H [IH1 IH2]]; [split; reflexivity|]. cbn [concat map]. rewrite !map_app, IH1, IH2.
  assert (X : map d_value l = map (fun f => f e) f /\ length l = length f).
  { clear -Hl. induction Hl as [|d g ds gs [Hd _] H [I1 I2]]; [split; reflexivity|]. cbn [map length]. rewrite I1, I2. destruct Hd as (-> & _). split; reflexivity. }
  destruct X as [-> ->]. split; reflexivity.
Qed.

(** element [j] of the result, of an evaluation that is cut to size *)
Lemma element_cut fs nres j e' : (j < nres)%nat -> tev_at evaluateTensors (map (@length _) fs) nres j (map (fun f => f e') (concat fs)) = match evaluate_all evaluateTensors (map (@length _) fs) nres (map (fun f : E -> option V => f e') (concat fs)) with Ok _ => element evaluateTensors fs j e' | _ => None end.
Proof.
  intro Hj. unfold tev_at, evaluate_all, element. rewrite group_map. destruct (evaluateTensors _) as [out| |]; cbn [bind]; try reflexivity.
  destruct (outputs nres out) as [vs| |] eqn:Eo; try reflexivity. apply outputs_len in Eo as [_ Eo]. now rewrite Eo.
Qed.
Lemma element_at fs nres j e' v : (j < nres)%nat -> tev_at evaluateTensors (map (@length _) fs) nres j (map (fun f : E -> option V => f e') (concat fs)) = Some v -> element evaluateTensors fs j e' = Some v.
Proof. intros Hj H. rewrite element_cut in H by exact Hj. destruct (evaluate_all _ _ _ _); [exact H|discriminate|discriminate]. Qed.
Lemma same_args (pvs : list (list (vdata V P))) fs k s : (k < n)%nat -> Forall2 (Forall2 (fun d f => tells perturb delta n e d f /\ d_value d <> None)) pvs fs ->
  existsb (has_spid s) (map Some (concat pvs)) = false -> map (map (fun f => f (perturb e s (delta k s)))) fs = map (map (fun f => f e)) fs.
Proof.
  intros Hk. induction 1 as [|l f ls fs Hl H IH]; intro Hs; [reflexivity|]. cbn [concat] in Hs. rewrite map_app, existsb_app in Hs. apply orb_false_iff in Hs as [H1 H2].
  cbn [map]. f_equal; [|exact (IH H2)]. clear -Hl H1 Hk. induction Hl as [|d g ds gs [Hd _] H IH]; [reflexivity|]. cbn [map existsb] in *. apply orb_false_iff in H1 as [H1 H2].
  f_equal; [|exact (IH H2)]. destruct Hd as (_ & _ & _ & _ & _ & _ & T). apply T; [exact Hk|]. intro X. apply has_spid_in in X. congruence.
Qed.

Hypothesis Ce : clean -> forall p, pert_eqb p p = true.
Hypothesis Ca : clean -> forall f l v, accepts f l v = true.
Lemma compute_tensor_ok flagmask cs fs dims flags :
  Forall2 (stands_for perturb delta n e) cs fs ->
  getResultDims (map (fun c : tresult V P F C => r_dims (t_res c)) cs) = Ok dims -> evaluateTensorFlags isNull flagmask (all_of cs) = Ok flags ->
  spec clean ub (evaluate_all evaluateTensors (map (@length _) fs) (num_planes dims) (map (fun f => f e) (concat fs))) (fun _ => True) ->
  (forall s k, (k < n)%nat -> spec clean ub (evaluate_all evaluateTensors (map (@length _) fs) (num_planes dims) (row_at perturb delta e (concat fs) s k)) (fun _ => True)) ->
  spec clean ub (computeTensorResult isNull accepts pert_eqb getResultDims evaluateTensors flagmask cs)
    (fun r => r_dims r = kept_dims dims /\ length (r_vs r) = num_planes dims /\
       forall j vs, nth_error (r_vs r) j = Some vs -> exists d, vs = VData d /\ tells perturb delta n e d (element evaluateTensors fs j) /\ d_value d <> None /\ d_flags d = flags).
Proof.
  intros St Gd Gf Cv Cp. destruct (collect_stands cs fs St) as [Ec Rc]. unfold computeTensorResult. rewrite Ec. cbn [bind]. rewrite Gd. cbn [bind].
  pose proof (rel_concat _ _ Rc) as R. destruct (values_concat _ _ Rc) as [Ev El]. rewrite Ev, El.
  set (nres := num_planes dims) in *.
  unfold evaluate_all in Cv. destruct (evaluateTensors (group (map (length (A:=E -> option V)) fs) (map (fun f => f e) (concat fs)))) as [out| |] eqn:Eo; cbn [bind] in Cv |- *; [|exact Cv|exact Cv].
  rewrite Gf. cbn [bind]. destruct (findSpids (map Some (concat (all_of cs)))) as [npert merged] eqn:Ef.
  destruct (findSpids_ok _ _ _ _ R Ef) as (Minc & Min & Mpos & Mn & Mle).
  destruct (outputs nres out) as [vs| |] eqn:Eout; cbn [bind]; [|exact Cv|exact Cv].
  destruct (outputs_len _ _ _ Eout) as [Lvs Nvs].
  destruct (accept_all accepts flags (repeat [] nres) vs) eqn:Ac; [|intro Cl; rewrite (accept_all_clean clean accepts Ca) in Ac by exact Cl; discriminate].
  assert (Main : forall j v, nth_error vs j = Some v -> element evaluateTensors fs j e = Some v).
  { intros j v Hv. assert (Hj : (j < nres)%nat) by (rewrite <- Lvs; apply nth_error_Some; congruence). unfold element. rewrite <- group_map, Eo, <- Nvs by exact Hj. exact Hv. }
  assert (Ind : forall j k s, (k < n)%nat -> ~ In s merged -> element evaluateTensors fs j (perturb e s (delta k s)) = element evaluateTensors fs j e).
  { intros j k s Hk Hs. unfold element. rewrite (same_args _ _ _ _ Hk Rc); [reflexivity|]. destruct (existsb (has_spid s) _) eqn:X; [|reflexivity]. apply Min in X. contradiction. }
  destruct merged as [|x0 l0] eqn:Em.
  - cbn [tensor_spid_loop bind spec]. split; [reflexivity|]. cbn [r_vs]. split; [rewrite map_length, combine_length, seq_length; lia|].
    intros j w Hj. rewrite nth_error_map in Hj. destruct (nth_error (combine (seq 0 nres) vs) j) as [[j' v]|] eqn:Ej; [|discriminate]. injection Hj as <-. cbn [fst snd].
    assert (Hv : nth_error vs j = Some v /\ j' = j).
    { clear - Ej. assert (G : forall (l : list V) a m i, nth_error (combine (seq a m) l) i = Some (j', v) -> nth_error l i = Some v /\ j' = (a + i)%nat).
      { induction l as [|y l IH]; intros a [|m] [|i] X; cbn in X; try discriminate; [injection X as -> ->; split; [reflexivity|lia]|]. apply IH in X as [X1 X2]. split; [exact X1|lia]. }
      apply G in Ej as [G1 G2]. split; [exact G1|exact G2]. }
    destruct Hv as [Hv ->]. eexists. split; [reflexivity|]. split; [|split; [discriminate|reflexivity]].
    split; [cbn [d_value]; symmetry; now apply Main|]. cbn [d_spids d_psets]. split; [constructor|]. split; [constructor|]. rewrite map_length, seq_length. split; [exact Mle|]. split; [easy|]. split.
    + intros k ps Hps. rewrite nth_error_map in Hps. destruct (nth_error (seq 0 npert) k) as [i|]; [|discriminate]. injection Hps as <-. split; reflexivity.
    + intros k s Hk Hs. now apply Ind.
  - rewrite <- Em in *. assert (Nn : merged <> []) by (rewrite Em; discriminate). clear x0 l0 Em. rewrite (Mn Nn) in *. eapply spec_bind.
    { apply (tensor_spid_loop_ok clean ub accepts pert_eqb evaluateTensors perturb delta n e Ce Ca (map (@length _) fs) nres flags _ _ R Cp merged); [exact Minc|intros s Hs; now apply Min|].
      assert (M2 : forall c, In c (map Some (concat (all_of cs))) -> idx_inv merged c 0%nat).
      { intros [d|] Hc; [|exact Logic.I]. exists [], (d_spids d). split; [reflexivity|]. split; [reflexivity|]. split; [|easy]. intros s Hs. apply Min. apply existsb_exists. exists (Some d). split; [exact Hc|now apply has_spid_in]. }
      revert M2. generalize (map Some (concat (all_of cs))). intros l M2. induction l as [|c l IH]; [constructor|]. constructor; [apply M2; now left|apply IH; intros c' Hc'; apply M2; now right]. }
    intros rws Hr. cbn [spec r_dims r_vs]. split; [reflexivity|]. split; [rewrite map_length, combine_length, seq_length; lia|].
    intros j w Hj. rewrite nth_error_map in Hj. destruct (nth_error (combine (seq 0 nres) vs) j) as [[j' v]|] eqn:Ej; [|discriminate]. injection Hj as <-. cbn [fst snd].
    assert (Hv : nth_error vs j = Some v /\ j' = j).
    { clear - Ej. assert (G : forall (l : list V) a m i, nth_error (combine (seq a m) l) i = Some (j', v) -> nth_error l i = Some v /\ j' = (a + i)%nat).
      { induction l as [|y l IH]; intros a [|m] [|i] X; cbn in X; try discriminate; [injection X as -> ->; split; [reflexivity|lia]|]. apply IH in X as [X1 X2]. split; [exact X1|lia]. }
      apply G in Ej as [G1 G2]. split; [exact G1|exact G2]. }
    destruct Hv as [Hv ->]. assert (Hj : (j < nres)%nat) by (rewrite <- Lvs; apply nth_error_Some; congruence).
    eexists. split; [reflexivity|]. split; [|split; [discriminate|reflexivity]].
    split; [cbn [d_value]; symmetry; now apply Main|]. cbn [d_spids d_psets d_value]. split; [exact Minc|]. split; [apply Forall_forall; exact Mpos|].
    rewrite map_length, seq_length. split; [lia|]. split; [split; [reflexivity|discriminate]|]. split.
    + intros k ps Hps. assert (Hk : (k < n)%nat) by (rewrite <- (seq_length n 0), <- (map_length (pset_of (map (flat_map (pick j)) rws))); apply nth_error_Some; rewrite Hps; discriminate).
      rewrite nth_error_map, (nth_error_nth' _ 0%nat) in Hps by (rewrite seq_length; exact Hk). rewrite seq_nth in Hps by exact Hk. cbn in Hps. injection Hps as <-.
      destruct (tensor_psets evaluateTensors perturb delta n e (map (@length _) fs) nres j (concat fs) k Hj Hk _ _ Hr) as [P1 P2]. split; [exact P1|].
      clear - P2 Hj. revert P2. cbv zeta. generalize (ps_val (pset_of (map (flat_map (pick j)) rws) k)). induction merged as [|s l IH]; intros [|y m] P2; try discriminate; [reflexivity|].
      cbn [map] in *. injection P2 as P2 P3. rewrite (IH m P3). f_equal. symmetry. apply (element_at fs nres j _ _ Hj). symmetry. exact P2.
    + intros k s Hk Hs. now apply Ind.
Qed.
End TensorNode.

Section TensorFlags.
Context {V P F C : Type}.
Variable isNull : V -> bool.
Notation counts := (counts (V := V) (P := P) isNull).
Lemma merge_child_spread full m : m <> 0 -> forall vs o,
  (forall d f, In d vs -> d_flags d = Some f -> counts d -> good full f) -> match o with Some g => good full g | None => True end ->
  exists r, merge_child isNull vs m o = Ok r /\ match r with Some g => good full g | None => True end /\
    (r = None <-> o = None /\ forall d f, In d vs -> d_flags d = Some f -> ~ counts d) /\
    forall idx b, inside full idx -> 0 <= b ->
      (Z.testbit (flags_at r idx) b = true <-> Z.testbit (flags_at o idx) b = true \/
       exists d f, In d vs /\ d_flags d = Some f /\ counts d /\ Z.testbit m b = true /\ Z.testbit (flag_at (v_shape f) (v_data f) idx) b = true).
Proof.
  intro Nm. induction vs as [|d vs IH]; intros o Hg Go.
  - exists o. split; [reflexivity|]. split; [exact Go|]. split; [split; [intro H; split; [exact H|easy]|now intros [H _]]|]. intros idx b _ _. split; [now left|intros [H|(d & f & [] & _)]; exact H].
  - assert (Hg' : forall d' f, In d' vs -> d_flags d' = Some f -> counts d' -> good full f) by (intros d' f H; apply Hg; now right).
    cbn [merge_child]. destruct (d_flags d) as [f|] eqn:Ef.
    + destruct (vs_isNull isNull d) eqn:En.
      * assert (Nc : ~ counts d) by (rewrite counts_null; congruence).
        destruct (IH o Hg' Go) as (r & E & G & N & At). exists r. split; [exact E|]. split; [exact G|]. split.
        -- rewrite N. split; intros [A B]; (split; [exact A|]); intros d' f' H1 H2; [destruct H1 as [<-|H1]; [exact Nc|exact (B d' f' H1 H2)]|apply (B d' f'); [now right|exact H2]].
        -- intros idx b Hi Hb. rewrite (At idx b Hi Hb). split; (intros [H|(d' & f' & H1 & H2 & H3 & H4)]; [now left|right]).
           ++ exists d', f'. split; [now right|auto].
           ++ destruct H1 as [<-|H1]; [contradiction|]. exists d', f'. auto.
      * assert (Cd : counts d) by (rewrite counts_null; exact En).
        destruct (mergeFlags_spread o f m full (Hg d f (or_introl eq_refl) Ef Cd) Go) as (o' & Eo & Go' & No' & Ao). rewrite Eo. cbn [bind].
        destruct (IH o' Hg' Go') as (r & E & G & N & At). exists r. split; [exact E|]. split; [exact G|]. split.
        -- rewrite N, No'. split; [intros [[_ A] _]; contradiction|]. intros [_ B]. exfalso. apply (B d f (or_introl eq_refl) Ef Cd).
        -- intros idx b Hi Hb. rewrite (At idx b Hi Hb), (Ao idx Hi), Z.lor_spec, Z.land_spec, orb_true_iff, andb_true_iff. split.
           ++ intros [[H|[H1 H2]]|(d' & f' & H1 & H2)]; [now left|right; exists d, f; split; [now left|auto]|right; exists d', f'; split; [now right|exact H2]].
           ++ intros [H|(d' & f' & [<-|H1] & H2 & H3 & H4 & H5)]; [left; now left| |right; exists d', f'; auto]. rewrite Ef in H2. injection H2 as ->. left. right. auto.
    + destruct (IH o Hg' Go) as (r & E & G & N & At). exists r. split; [exact E|]. split; [exact G|]. split.
      * rewrite N. split; intros [A B]; (split; [exact A|]); intros d' f' H1 H2; [destruct H1 as [<-|H1]; [congruence|exact (B d' f' H1 H2)]|apply (B d' f'); [now right|exact H2]].
      * intros idx b Hi Hb. rewrite (At idx b Hi Hb). split; (intros [H|(d' & f' & H1 & H2 & H3 & H4)]; [now left|right]).
        -- exists d', f'. split; [now right|auto].
        -- destruct H1 as [<-|H1]; [congruence|]. exists d', f'. auto.
Qed.
(** VellSet [i] of child [c] lets its flags through mask [m] *)
Definition lets (pvs : list (list (vdata V P))) (masks : list Z) (c : nat) (f : vells Z) (m : Z) : Prop :=
  exists vs d, nth_error pvs c = Some vs /\ In d vs /\ d_flags d = Some f /\ counts d /\ nth_error masks c = Some m.
Lemma merge_flags_spread full : forall pvs masks o, (length pvs <= length masks)%nat ->
  (forall vs d f, In vs pvs -> In d vs -> d_flags d = Some f -> counts d -> good full f) -> match o with Some g => good full g | None => True end ->
  exists r, merge_flags isNull pvs masks o = Ok r /\ match r with Some g => good full g | None => True end /\
    (r = None <-> o = None /\ forall c f m, lets pvs masks c f m -> m = 0) /\
    forall idx b, inside full idx -> 0 <= b ->
      (Z.testbit (flags_at r idx) b = true <-> Z.testbit (flags_at o idx) b = true \/
       exists c f m, lets pvs masks c f m /\ Z.testbit m b = true /\ Z.testbit (flag_at (v_shape f) (v_data f) idx) b = true).
Proof.
  induction pvs as [|vs pvs IH]; intros masks o Lm Hg Go.
  - exists o. split; [reflexivity|]. split; [exact Go|]. assert (Nl : forall c f m, ~ lets [] masks c f m) by (intros [|c] f m (vs & d & X & _); discriminate).
    split; [split; [intro H; split; [exact H|intros c f m H'; now apply Nl in H']|now intros [H _]]|].
    intros idx b _ _. split; [now left|intros [H|(c & f & m & H & _)]; [exact H|now apply Nl in H]].
  - destruct masks as [|m masks]; [cbn in Lm; lia|]. cbn [merge_flags].
    assert (Lc : forall c f m', lets (vs :: pvs) (m :: masks) c f m' <-> (c = 0%nat /\ m' = m /\ exists d, In d vs /\ d_flags d = Some f /\ counts d) \/ exists c', c = S c' /\ lets pvs masks c' f m').
    { intros c f m'. unfold lets. split.
      - intros (vs' & d & H1 & H2 & H3 & H4 & H5). destruct c as [|c]; cbn in H1, H5; [left; injection H1 as ->; injection H5 as ->; split; [reflexivity|split; [reflexivity|eauto]]|right; exists c; split; [reflexivity|exists vs', d; auto]].
      - intros [(-> & -> & d & H1 & H2 & H3)|(c' & -> & vs' & d & H)]; [exists vs, d; auto|exists vs', d; exact H]. }
    assert (Hg' : forall vs' d f, In vs' pvs -> In d vs' -> d_flags d = Some f -> counts d -> good full f) by (intros vs' d f H; apply Hg; now right).
    assert (Step : exists cf, (if m =? 0 then Ok None else merge_child isNull vs m None) = Ok cf /\ match cf with Some g => good full g | None => True end /\
      (cf = None <-> m = 0 \/ forall d f, In d vs -> d_flags d = Some f -> ~ counts d) /\
      forall idx b, inside full idx -> 0 <= b -> (Z.testbit (flags_at cf idx) b = true <->
         exists d f, In d vs /\ d_flags d = Some f /\ counts d /\ Z.testbit m b = true /\ Z.testbit (flag_at (v_shape f) (v_data f) idx) b = true)).
    { destruct (Z.eqb_spec m 0) as [->|Nm].
      - exists None. split; [reflexivity|]. split; [exact Logic.I|]. split; [split; [now left|reflexivity]|]. intros idx b _ _. cbn [flags_at]. rewrite Z.bits_0. split; [discriminate|intros (d & f & _ & _ & _ & X & _); discriminate].
      - destruct (merge_child_spread full m Nm vs None (fun d f => Hg vs d f (or_introl eq_refl)) Logic.I) as (cf & E & G & N & At). exists cf. split; [exact E|]. split; [exact G|]. split; [rewrite N; tauto|].
        intros idx b Hi Hb. rewrite (At idx b Hi Hb). cbn [flags_at]. rewrite Z.bits_0. split; [intros [H|H]; [discriminate|exact H]|now right]. }
    destruct Step as (cf & Ecf & Gcf & Ncf & Acf). rewrite Ecf. cbn [bind]. cbn [length] in Lm.
    assert (Next : exists o', (match cf with None => merge_flags isNull pvs masks o | Some f => match o with Some o0 => bind (flagOr o0 f) (fun o0 => merge_flags isNull pvs masks (Some o0)) | None => merge_flags isNull pvs masks (Some f) end end) = merge_flags isNull pvs masks o' /\
      match o' with Some g => good full g | None => True end /\ (o' = None <-> o = None /\ cf = None) /\
      forall idx, inside full idx -> flags_at o' idx = Z.lor (flags_at o idx) (flags_at cf idx)).
    { destruct cf as [f|].
      - destruct o as [o0|].
        + destruct Go as [W0 S0], Gcf as [Wf Sf]. destruct (flagOr_spread o0 f full W0 Wf S0 Sf) as (r & E & U & Sr & At). exists (Some r). rewrite E. cbn [bind]. split; [reflexivity|]. split; [split; assumption|]. split; [split; [discriminate|intros [X _]; discriminate]|]. exact At.
        + exists (Some f). split; [reflexivity|]. split; [exact Gcf|]. split; [split; [discriminate|intros [_ X]; discriminate]|]. intros idx _. cbn [flags_at]. now rewrite Z.lor_0_l.
      - exists o. split; [reflexivity|]. split; [exact Go|]. split; [tauto|]. intros idx _. cbn [flags_at]. now rewrite Z.lor_0_r. }
    destruct Next as (o' & -> & Go' & No' & Ao').
    destruct (IH masks o' ltac:(lia) Hg' Go') as (r & E & G & N & At). exists r. split; [exact E|]. split; [exact G|]. split.
    + rewrite N, No', Ncf. split.
      * intros [[A B] D]. split; [exact A|]. intros c f m' H. apply Lc in H as [(-> & -> & d & H1 & H2 & H3)|(c' & -> & H)]; [|exact (D c' f m' H)]. destruct B as [B|B]; [exact B|exfalso; exact (B d f H1 H2 H3)].
      * intros [A D]. split; [|intros c f m' H; apply (D (S c) f m'); apply Lc; right; eauto]. split; [exact A|]. destruct (Z.eq_dec m 0) as [|Nm]; [now left|right]. intros d f H1 H2 H3. apply Nm. apply (D 0%nat f m). apply Lc. left. eauto 10.
    + intros idx b Hi Hb. rewrite (At idx b Hi Hb), (Ao' idx Hi), Z.lor_spec, orb_true_iff, (Acf idx b Hi Hb). split.
      * intros [[H|(d & f & H1 & H2 & H3 & H4 & H5)]|(c & f & m' & H1 & H2)]; [now left| |]; right.
        -- exists 0%nat, f, m. split; [apply Lc; left; eauto 10|auto].
        -- exists (S c), f, m'. split; [apply Lc; right; eauto|exact H2].
      * intros [H|(c & f & m' & H1 & H2 & H3)]; [left; now left|]. apply Lc in H1 as [(-> & -> & d & H4 & H5 & H6)|(c' & -> & H1)]; [left; right; exists d, f; auto|right; exists c', f, m'; auto].
Qed.
Lemma no_masks : forall (pvs : list (list (vdata V P))), merge_flags isNull pvs (repeat 0 (length pvs)) None = Ok None.
Proof. induction pvs as [|vs pvs IH]; [reflexivity|]. cbn [length repeat merge_flags]. rewrite Z.eqb_refl. cbn [bind]. exact IH. Qed.
End TensorFlags.
