(** From a plane's children to the plane, the result and the tree. *)
From Coq Require Import Sorted.
From Verif Require Import Base Poll_Model Vel_Model Fun_Model Fun_Spec Fun_Proofs Fun_Pert.
Local Open Scope Z_scope.

Lemma plane_rank {V P F : Type} (c : result V P F) p :
  nth_error (r_vs c) (if Nat.ltb 0 (tensorRank c) then p else 0) = plane_of c p.
Proof. unfold plane_of, tensorRank. destruct (r_dims c); reflexivity. Qed.

Section Node.
Context {V P F E : Type}.
Variable clean ub : Prop.
Variable exc : F.
Variable isNull : V -> bool.
Variable compat : V -> bool.
Variable accepts : option (vells Z) -> list V -> V -> bool.
Variable pert_eqb : P -> P -> bool.
Variable evaluate : list (option V) -> res V.
Variable perturb : E -> Z -> P -> E.
Variable delta : nat -> Z -> P.
Variable n : nat.
Variable e : E.
Hypothesis Cc : clean -> forall v, compat v = true.
Hypothesis Ce : clean -> forall p, pert_eqb p p = true.
Hypothesis Ca : clean -> forall f l v, accepts f l v = true.
Hypothesis Uev : forall xs, evaluate xs = UB -> ub.

Let shows_f := shows (V := V) (F := F) perturb delta n e.
Let relf := rel (V := V) (P := P) (E := E) perturb delta n e.
Definition at_plane (p : nat) (c : result V P F) (f : E -> option V) : Prop := exists vs, plane_of c p = Some vs /\ shows_f vs f.
Definition data_of (c : result V P F) (p : nat) : option (vdata V P) :=
  match plane_of c p with Some (VData d) => match d_value d with Some _ => Some d | None => None end | _ => None end.
Definition failing (c : result V P F) (p : nat) : Prop := exists l, plane_of c p = Some (VFail l).

Lemma collect_ok p : forall cs fs, Forall2 (at_plane p) cs fs ->
  spec clean ub (collect compat p cs) (fun x => fst x = map (fun c => data_of c p) cs /\
    (snd x = [] -> Forall2 relf (fst x) fs) /\ ((forall c, In c cs -> ~ failing c p) -> snd x = [])).
Proof.
  induction 1 as [|c f cs fs (vs & Ep & Sh) H IH]; [split; [reflexivity|split; [constructor|reflexivity]]|]. cbn [collect].
  eapply spec_bind with (Q := fun x => fst x = data_of c p /\ (snd x = [] -> relf (fst x) f) /\ (~ failing c p -> snd x = [])).
  - assert (Nv : r_vs c <> []) by (intro X; unfold plane_of in Ep; rewrite X in Ep; destruct (match r_dims c with [] => 0%nat | _ => p end); discriminate).
    destruct (r_vs c) as [|v0 l0] eqn:Ev; [contradiction|]. rewrite <- Ev in *. rewrite plane_rank, Ep. unfold data_of, failing. rewrite Ep. destruct vs as [l|d].
    + cbn. split; [reflexivity|]. split; [intro X; subst l; cbn in Sh; contradiction|]. intro X. exfalso. apply X. eauto.
    + unfold shows_f in Sh. cbn in Sh. destruct (d_value d) as [v|] eqn:Edv.
      * destruct (compat v) eqn:Ec; [|intro Cl; rewrite (Cc Cl) in Ec; discriminate]. cbn. split; [reflexivity|]. split; [|reflexivity]. intros _. split; [exact Sh|]. rewrite Edv. discriminate.
      * cbn. split; [reflexivity|]. split; [|reflexivity]. intros _. destruct Sh as (T1 & _ & _ & _ & T5 & _ & T7). rewrite Edv in T1. split; [now symmetry|].
        intros k s Hk. rewrite T7; [now symmetry|exact Hk|]. intro X. destruct T5 as [_ T5]; [intro Y; rewrite Y in X; contradiction|]. now apply T5.
  - intros [d l] (H1 & H2 & H3). cbn [fst snd] in *. eapply spec_bind; [exact IH|]. intros [ds ls] (I1 & I2 & I3). cbn [fst snd spec map] in *. split; [now rewrite H1, I1|]. split.
    + intro X. apply app_eq_nil in X as [-> ->]. constructor; auto.
    + intro X. rewrite H3, I3; [reflexivity| |]; intros; apply X; [now right|now left].
Qed.

Lemma rel_values : forall ds fs, Forall2 relf ds fs -> map (fun d => match d with Some d => d_value d | None => None end) ds = map (fun f => f e) fs.
Proof.
  induction 1 as [|d f ds fs R H IH]; [reflexivity|]. cbn [map]. rewrite IH. f_equal. destruct d as [d|]; [destruct R as [T _]; apply T|destruct R as [R _]; now symmetry].
Qed.
Lemma rel_missing : forall ds fs, Forall2 relf ds fs -> map missing (map (fun f => f e) fs) = map (fun d : option (vdata V P) => match d with None => true | _ => false end) ds.
Proof.
  induction 1 as [|d f ds fs R H IH]; [reflexivity|]. cbn [map]. rewrite IH. f_equal. destruct d as [d|]; [|destruct R as [-> _]; reflexivity].
  destruct R as [(T & _) N]. rewrite <- T. destruct (d_value d); [reflexivity|contradiction].
Qed.
Lemma count_cut allow : forall bs, Nat.ltb 0 (length (filter (fun b : bool => b) bs)) && (Nat.eqb (length (filter (fun b => b) bs)) (length bs) || negb allow) = cut allow bs.
Proof.
  intro bs. unfold cut.
  assert (H1 : Nat.ltb 0 (length (filter (fun b : bool => b) bs)) = existsb (fun b => b) bs) by (induction bs as [|[] bs IH]; [reflexivity|reflexivity|exact IH]).
  assert (H2 : Nat.eqb (length (filter (fun b : bool => b) bs)) (length bs) = forallb (fun b => b) bs).
  { assert (L : forall l : list bool, (length (filter (fun b => b) l) <= length l)%nat) by (induction l as [|[] l IHl]; cbn; lia).
    clear H1.     induction bs as [|[] bs IH]; [reflexivity|exact IH|]. cbn. apply Nat.eqb_neq. specialize (L bs). lia. }
  now rewrite H1, H2.
Qed.
Lemma filter_count {A} (q : A -> bool) l : length (filter q l) = length (filter (fun b : bool => b) (map q l)).
Proof. induction l as [|x l IH]; [reflexivity|]. cbn. destruct (q x); cbn; now rewrite IH. Qed.

Lemma do_plane_ok allow masks p cs fs : Forall2 (at_plane p) cs fs ->
  (evaluateFlags isNull (map (fun c => data_of c p) cs) masks None = UB -> ub) ->
  (clean -> exists fl, evaluateFlags isNull (map (fun c => data_of c p) cs) masks None = Ok fl) ->
  (clean -> node_fun evaluate allow fs e = None -> cut allow (map missing (map (fun f => f e) fs)) = true) ->
  (clean -> cut allow (map missing (map (fun f => f e) fs)) = false -> forall s k, (k < n)%nat -> exists v, evaluate (row_at perturb delta e fs s k) = Ok v) ->
  spec clean ub (do_plane exc isNull compat accepts pert_eqb evaluate allow masks cs p)
    (fun x => shows_f (fst x) (node_fun evaluate allow fs) /\
      ((forall c, In c cs -> ~ failing c p) ->
         (clean -> exists d, fst x = VData d) /\
         (snd x = Failed <-> exists l, fst x = VFail l) /\ (snd x = Missing <-> exists d, fst x = VData d /\ d_value d = None)) /\
      (forall d, fst x = VData d -> d_value d <> None -> evaluateFlags isNull (map (fun c => data_of c p) cs) masks None = Ok (d_flags d))).
Proof.
  intros H Uf Cf Cv Cp. unfold do_plane. eapply spec_bind; [exact (collect_ok p cs fs H)|]. intros [ds fails] (H1 & H2 & H3). cbn [fst snd] in *.
  assert (Ld : length ds = length cs) by (rewrite H1; apply map_length). rewrite <- Ld. rewrite filter_count.
  replace (length ds) with (length (map (fun d : option (vdata V P) => match d with None => true | _ => false end) ds)) by apply map_length. rewrite count_cut.
  destruct (rev fails) as [|x l] eqn:Ef.
  - assert (fails = []) as -> by (rewrite <- (rev_involutive fails), Ef; reflexivity). specialize (H2 eq_refl).
    rewrite <- (rel_missing _ _ H2). unfold addFails. cbn [rev]. destruct (cut allow (map missing (map (fun f => f e) fs))) eqn:Ec.
    + cbn [spec fst snd]. split; [|split; [|intros d X; injection X as <-; contradiction]].
      * assert (N0 : node_fun evaluate allow fs e = None) by (unfold node_fun; rewrite node_value_cut, Ec; reflexivity).
        split; [symmetry; exact N0|]. cbn. split; [constructor|]. split; [constructor|]. split; [lia|]. split; [contradiction|]. split; [intros [|k]; discriminate|].
        intros k s Hk _. rewrite N0. unfold node_fun. rewrite node_value_cut, (missing_same perturb delta n e ds fs k s H2 Hk), Ec. reflexivity.
      * intros _. split; [intros _; eauto|]. split; [split; [discriminate|intros (l & X); discriminate]|]. split; [intros _; eauto|reflexivity].
    + rewrite (rel_values _ _ H2).
      pose proof (compute_ok clean ub isNull compat accepts pert_eqb evaluate perturb delta n e Cc Ce Ca Uev allow masks ds fs H2 Ec) as C.
      rewrite <- H1 in Uf, Cf. specialize (C Uf Cf).
      assert (Cv' : clean -> exists v, evaluate (map (fun f => f e) fs) = Ok v).
      { intro Cl. specialize (Cv Cl). unfold node_fun in Cv. rewrite node_value_cut, Ec in Cv. destruct (evaluate (map (fun f => f e) fs)) as [v| |]; [eauto| |]; specialize (Cv eq_refl); discriminate. }
      specialize (C Cv' (fun Cl => Cp Cl eq_refl)).
      assert (Fl : forall d, compute isNull compat accepts pert_eqb evaluate ds (map (fun f => f e) fs) masks = Ok d -> evaluateFlags isNull ds masks None = Ok (d_flags d)).
      { intros d X. unfold compute in X. destruct (findSpids ds) as [a b]. destruct (evaluateFlags isNull ds masks None) as [fl| |]; cbn [bind] in X; try discriminate.
        destruct (evaluate (map (fun f => f e) fs)) as [v| |]; cbn [bind] in X; try discriminate. destruct (accepts fl [] v); [|discriminate].
        destruct (spid_loop _ _ _ _ _ _ _ _ _ _ _) as [r| |]; cbn [bind] in X; try discriminate. injection X as <-. reflexivity. }
      destruct (compute isNull compat accepts pert_eqb evaluate ds (map (fun f => f e) fs) masks) as [d| |] eqn:Ecm; cbn [spec fst snd] in *.
      * destruct C as [C1 C2]. split; [exact C1|]. split; [|intros d0 X _; injection X as <-; rewrite <- H1; now apply Fl].
        intros _. split; [eauto|]. split; [split; [discriminate|intros (l & X); discriminate]|]. split; [discriminate|]. intros (d' & X & Y). injection X as <-. contradiction.
      * split; [discriminate|]. split; [|discriminate]. intros _. split; [intro X; exfalso; exact (C X)|]. split; [split; [eauto|reflexivity]|]. split; [discriminate|]. intros (d' & X & Y). discriminate.
      * exact C.
  - unfold addFails. rewrite Ef.
    assert (Nf : (forall c, In c cs -> ~ failing c p) -> False) by (intro X; rewrite (H3 X) in Ef; discriminate).
    match goal with |- context [cut allow ?b] => destruct (cut allow b) end; unfold spec; cbn [fst snd]; (split; [discriminate|split; [intro X; exfalso; exact (Nf X)|discriminate]]).
Qed.

End Node.

Section Planes.
Context {V P F : Type}.
Variable exc : F.
Variable isNull : V -> bool.
Variable compat : V -> bool.
Variable accepts : option (vells Z) -> list V -> V -> bool.
Variable pert_eqb : P -> P -> bool.
Variable evaluate : list (option V) -> res V.
Lemma do_planes_nth allow masks cs : forall ps r, do_planes exc isNull compat accepts pert_eqb evaluate allow masks cs ps = Ok r ->
  length r = length ps /\ forall i x, nth_error r i = Some x -> exists p, nth_error ps i = Some p /\ do_plane exc isNull compat accepts pert_eqb evaluate allow masks cs p = Ok x.
Proof.
  induction ps as [|p ps IH]; intros r H; cbn [do_planes] in H; [injection H as <-; split; [reflexivity|intros [|i]; discriminate]|].
  destruct (do_plane exc isNull compat accepts pert_eqb evaluate allow masks cs p) as [x| |] eqn:Ex; cbn [bind] in H; try discriminate.
  destruct (do_planes exc isNull compat accepts pert_eqb evaluate allow masks cs ps) as [r'| |] eqn:Er; cbn [bind] in H; try discriminate.
  injection H as <-. destruct (IH r' eq_refl) as [I1 I2]. split; [cbn; now rewrite I1|]. intros [|i] y Hy; cbn in Hy; [injection Hy as <-; exists p; auto|]. apply I2. exact Hy.
Qed.
Lemma do_planes_ok allow masks cs : forall ps, (forall p, In p ps -> exists x, do_plane exc isNull compat accepts pert_eqb evaluate allow masks cs p = Ok x) ->
  exists r, do_planes exc isNull compat accepts pert_eqb evaluate allow masks cs ps = Ok r.
Proof.
  induction ps as [|p ps IH]; intro H; [exists []; reflexivity|]. cbn [do_planes]. destruct (H p (or_introl eq_refl)) as (x & ->). cbn [bind].
  destruct IH as (r & ->); [intros q Hq; apply H; now right|]. cbn [bind]. eexists; reflexivity.
Qed.
End Planes.

Section Dims.
Context {V P F : Type}.
Lemma dims_equal_eq : forall a b, dims_equal a b = true <-> a = b.
Proof.
  induction a as [|x a IH]; intros [|y b]; cbn; try (split; [discriminate|discriminate]); [tauto|]. rewrite andb_true_iff, IH, Nat.eqb_eq. split; [intros [-> ->]; reflexivity|intro X; injection X; auto].
Qed.
Lemma merge_dims_ok : forall (cs : list (result V P F)) out dims, merge_dims cs out = Ok dims ->
  (out = [] \/ dims = out) /\ Forall (fun c => r_vs c <> [] /\ (r_dims c = [] \/ r_dims c = dims)) cs.
Proof.
  induction cs as [|c cs IH]; intros out dims H; cbn [merge_dims] in H; [injection H as <-; split; [now right|constructor]|].
  destruct (r_vs c) as [|v l] eqn:Ev; [discriminate|]. destruct (r_dims c) as [|x d] eqn:Ed.
  - destruct (IH out dims H) as [I1 I2]. split; [exact I1|]. constructor; [|exact I2]. split; [now rewrite Ev|now left].
  - destruct out as [|y out].
    + destruct (IH _ dims H) as [[I1|I1] I2]; [discriminate|]. split; [now left|]. constructor; [|exact I2]. split; [now rewrite Ev|right; now rewrite Ed].
    + destruct (dims_equal (x :: d) (y :: out)) eqn:Eq; [|discriminate]. apply dims_equal_eq in Eq. destruct (IH _ dims H) as [[I1|I1] I2]; [discriminate|]. split; [now right|].
      constructor; [|exact I2]. split; [now rewrite Ev|right; rewrite Ed; congruence].
Qed.
Lemma out_dims_ok : forall (cs : list (result V P F)) dims, out_dims cs = Ok dims -> Forall (fun c => r_vs c <> [] /\ (r_dims c = [] \/ r_dims c = dims)) cs.
Proof.
  intros [|c cs] dims H; [constructor|]. cbn in H. destruct (r_vs c) as [|v l] eqn:Ev; [discriminate|]. apply merge_dims_ok in H as [H1 H2].
  constructor; [|exact H2]. split; [now rewrite Ev|]. destruct H1 as [H1|H1]; [now left|now right].
Qed.
Lemma merge_dims_total : forall (cs : list (result V P F)) out dims, (out = [] \/ out = dims) -> Forall (fun c => r_vs c <> [] /\ (r_dims c = [] \/ r_dims c = dims)) cs ->
  exists r, merge_dims cs out = Ok r /\ (r = [] \/ r = dims).
Proof.
  induction cs as [|c cs IH]; intros out dims Ho H; [exists out; auto|]. inversion H as [|? ? [H1 H2] H3]; subst. cbn [merge_dims].
  destruct (r_vs c) as [|v l]; [contradiction|]. destruct (r_dims c) as [|x d] eqn:Ed; [now apply IH|]. destruct H2 as [H2|H2]; [discriminate|].
  destruct out as [|y out]; [apply IH; auto|]. destruct Ho as [Ho|Ho]; [discriminate|].
  replace (dims_equal (x :: d) (y :: out)) with true by (symmetry; apply dims_equal_eq; congruence). apply IH; auto.
Qed.
Lemma out_dims_in : forall (cs : list (result V P F)) dims, out_dims cs = Ok dims -> dims = [] \/ exists c, In c cs /\ r_dims c = dims.
Proof.
  assert (M : forall (cs : list (result V P F)) out dims, merge_dims cs out = Ok dims -> dims = out \/ exists c, In c cs /\ r_dims c = dims).
  { induction cs as [|c cs IH]; intros out dims H; cbn [merge_dims] in H; [injection H as <-; now left|].
    destruct (r_vs c) as [|v l]; [discriminate|]. destruct (r_dims c) as [|x d] eqn:Ed.
    - destruct (IH _ _ H) as [->|(c' & H1 & H2)]; [now left|right; exists c'; split; [now right|exact H2]].
    - destruct out as [|y out].
      + destruct (IH _ _ H) as [->|(c' & H1 & H2)]; right; [exists c; split; [now left|exact Ed]|exists c'; split; [now right|exact H2]].
      + destruct (dims_equal (x :: d) (y :: out)); [|discriminate]. destruct (IH _ _ H) as [->|(c' & H1 & H2)]; [now left|right; exists c'; split; [now right|exact H2]]. }
  intros [|c cs] dims H; [cbn in H; injection H as <-; now left|]. cbn in H. destruct (r_vs c) as [|v l]; [discriminate|].
  destruct (M _ _ _ H) as [->|(c' & H1 & H2)]; right; [exists c; split; [now left|reflexivity]|exists c'; split; [now right|exact H2]].
Qed.
End Dims.
