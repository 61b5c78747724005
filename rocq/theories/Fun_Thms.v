(** Function nodes: spids, perturbed values, flags, fails, missing data and return codes. *)
From Coq Require Import Sorted.
From Verif Require Import Base Poll_Model Vel_Model Vel_Spec Fun_Model Fun_Spec Fun_Proofs Fun_Pert Fun_Flags Fun_Node.
Local Open Scope Z_scope.

(** ** C64: the spids of the result are those of the children, each once, in order *)
Theorem function_spids_merged : forall cs, Forall increasing cs -> (forall x, In x (concat cs) -> 0 <= x) ->
  increasing (merged_spids cs) /\ forall x, In x (merged_spids cs) <-> exists l, In l cs /\ In x l.
Proof. intros cs H1 H2. destruct (merged_spids_spec cs H1 H2) as [A B]. split; [exact A|]. intro x. rewrite B. apply in_concat. Qed.
Example ex_spids : merged_spids [[1; 4; 9]; []; [0; 4; 7; 12]; [9; 10]] = [0; 1; 4; 7; 9; 10; 12].
Proof. reflexivity. Qed.
(** a negative spid can be lost *)
Theorem negative_spid_refuted : ~ forall cs, Forall increasing cs -> forall x, In x (merged_spids cs) <-> In x (concat cs).
Proof. intro H. specialize (H [[-1; 3]] ltac:(repeat constructor)). destruct (H (-1)) as [_ X]. specialize (X ltac:(now left)). vm_compute in X. intuition discriminate. Qed.

Section Thms.
Context {V P F E : Type}.
Variable perturb : E -> Z -> P -> E.
Variable delta : nat -> Z -> P.
Variable n : nat.
Variable e : E.
Variable exc : F.
Variable isNull : V -> bool.
Variable compat : V -> bool.
Variable accepts : option (vells Z) -> list V -> V -> bool.
Variable pert_eqb : P -> P -> bool.
Notation shows' := (shows (V := V) (P := P) (F := F) perturb delta n e).
Notation run evaluate := (getResult exc isNull compat accepts pert_eqb evaluate).

Lemma getResult_inv evaluate allow masks cs r code : run evaluate allow masks cs = Ok (r, code) ->
  length masks = length cs /\ exists dims planes, out_dims cs = Ok dims /\
  do_planes exc isNull compat accepts pert_eqb evaluate allow masks cs (seq 0 (num_planes dims)) = Ok planes /\
  r = {| r_dims := kept_dims dims; r_vs := map fst planes |} /\
  code = (if forallb (fun x => is_failed (snd x)) planes then RES_FAIL else if forallb (fun x => is_missing (snd x)) planes then RES_MISSING else 0).
Proof.
  unfold getResult. destruct (Nat.eqb_spec (length masks) (length cs)) as [Lm|]; cbn [negb]; [|discriminate]. destruct (out_dims cs) as [dims| |]; cbn [bind]; try discriminate.
  destruct (do_planes exc isNull compat accepts pert_eqb evaluate allow masks cs (seq 0 (num_planes dims))) as [planes| |] eqn:Ep; cbn [bind]; try discriminate.
  intro H. injection H as <- <-. split; [exact Lm|]. exists dims, planes. split; [reflexivity|]. split; [exact Ep|]. split; reflexivity.
Qed.
Lemma do_planes_at evaluate allow masks cs m planes p x : do_planes exc isNull compat accepts pert_eqb evaluate allow masks cs (seq 0 m) = Ok planes -> nth_error planes p = Some x ->
  (p < m)%nat /\ do_plane exc isNull compat accepts pert_eqb evaluate allow masks cs p = Ok x.
Proof using exc isNull compat accepts pert_eqb.
  clear perturb delta n e. intros H Hx. apply do_planes_nth in H as [L H]. destruct (H p x Hx) as (q & Hq & D). rewrite seq_length in L.
  assert (p < m)%nat by (rewrite <- L; apply nth_error_Some; rewrite Hx; discriminate).
  rewrite (nth_error_nth' _ 0%nat) in Hq by (rewrite seq_length; lia). rewrite seq_nth in Hq by lia. injection Hq as <-. auto.
Qed.

(** ** C65: perturbed values are the values at perturbed parameters *)
(** If every child VellSet tells a function of the parameters, then every VellSet of the result is a fail
    or tells the node's function of them: its main value at the current parameters, and each perturbed
    value is what the node would give with that one parameter perturbed; a parameter whose spid is
    absent does not change the value. *)
Theorem function_perturbed_values : forall evaluate allow masks cs r code (fs : nat -> list (E -> option V)),
  run evaluate allow masks cs = Ok (r, code) ->
  (forall p, (p < length (r_vs r))%nat -> Forall2 (fun c f => exists vs, plane_of c p = Some vs /\ shows' vs f) cs (fs p)) ->
  forall p vs, nth_error (r_vs r) p = Some vs -> shows' vs (fun e' => node_value allow evaluate (map (fun f => f e') (fs p))).
Proof.
  intros evaluate allow masks cs r code fs H Hc p vs Hp. apply getResult_inv in H as (_ & dims & planes & _ & Hd & -> & _). cbn [r_vs] in *.
  assert (Hl : (p < length (map fst planes))%nat) by (apply nth_error_Some; rewrite Hp; discriminate).
  rewrite nth_error_map in Hp. destruct (nth_error planes p) as [x|] eqn:Ex; [|discriminate]. injection Hp as <-.
  destruct (do_planes_at _ _ _ _ _ _ _ _ Hd Ex) as [_ D].
  pose proof (do_plane_ok False True exc isNull compat accepts pert_eqb evaluate perturb delta n e ltac:(easy) ltac:(easy) ltac:(easy) ltac:(easy)
    allow masks p cs (fs p) (Hc p Hl) ltac:(easy) ltac:(easy) ltac:(easy) ltac:(easy)) as K.
  rewrite D in K. apply K.
Qed.

(** The same for whole trees of Function nodes. *)
Inductive runs : tree (V := V) (P := P) (F := F) (E := E) -> result V P F -> Prop :=
| runs_leaf r g : runs (Leaf r g) r
| runs_node ev allow masks ts rs r code : Forall2 runs ts rs -> run ev allow masks rs = Ok (r, code) -> runs (Node ev allow masks ts) r.

Fixpoint runs_strong (Q : tree -> result V P F -> Prop)
  (HL : forall r g, Q (Leaf r g) r)
  (HN : forall ev allow masks ts rs r code, Forall2 runs ts rs -> Forall2 Q ts rs -> run ev allow masks rs = Ok (r, code) -> Q (Node ev allow masks ts) r)
  t r (H : runs t r) {struct H} : Q t r :=
  match H with
  | runs_leaf r g => HL r g
  | runs_node ev allow masks ts rs r code Hc Hr =>
      HN ev allow masks ts rs r code Hc
        ((fix go ts rs (Hf : Forall2 runs ts rs) : Forall2 Q ts rs :=
            match Hf with Forall2_nil _ => Forall2_nil _ | Forall2_cons x y H1 H2 => Forall2_cons _ _ (runs_strong Q HL HN x y H1) (go _ _ H2) end) ts rs Hc) Hr
  end.
Lemma shows_ext (vs : vset V P F) f g : (forall e', f e' = g e') -> shows' vs f -> shows' vs g.
Proof.
  intros H. destruct vs as [l|d]; [auto|]. intros (T1 & T2 & T3 & T4 & T5 & T6 & T7). split; [now rewrite <- H|]. split; [exact T2|]. split; [exact T3|]. split; [exact T4|]. split; [exact T5|]. split.
  - intros k ps Hk. destruct (T6 k ps Hk) as [A B]. split; [exact A|]. rewrite B. apply map_ext. intro s. apply H.
  - intros k s Hk Hs. rewrite <- !H. now apply T7.
Qed.
Lemma num_zero : forall dims, num_planes dims = fold_right Nat.mul 1%nat dims. Proof. reflexivity. Qed.
Lemma run_proper evaluate allow masks cs r code : run evaluate allow masks cs = Ok (r, code) -> proper_result r.
Proof.
  intro H. apply getResult_inv in H as (_ & dims & planes & _ & Hd & -> & _). apply do_planes_nth in Hd as [L _]. rewrite seq_length in L. unfold proper_result. cbn [r_dims r_vs].
  rewrite map_length, L. unfold kept_dims. destruct (Nat.eqb_spec (num_planes dims) 1) as [E1|N1]; [rewrite E1; auto|]. split; [reflexivity|now right].
Qed.
Lemma runs_proper t r : leaves (good_leaf perturb delta n e) t -> runs t r -> proper_result r.
Proof. intros L R. destruct R as [r g|ev allow masks ts rs r code _ H]; [|eapply run_proper; exact H]. inversion L as [? ? [Hp _]|]; subst. exact Hp. Qed.
Lemma meaning_scalar : forall t r, runs t r -> leaves (good_leaf perturb delta n e) t -> r_dims r = [] -> forall p e', meaning t p e' = meaning t 0 e'.
Proof.
  apply (runs_strong (fun t r => leaves (good_leaf perturb delta n e) t -> r_dims r = [] -> forall p e', meaning t p e' = meaning t 0 e')).
  - intros r g _ Hd p e'. cbn. now rewrite Hd.
  - intros ev allow masks ts rs r code Hr IH Hrun Hl Hd p e'. cbn [meaning]. f_equal.
    inversion Hl as [|? ? ? ? Hl']; subst. clear Hl. apply getResult_inv in Hrun as (_ & dims & planes & Ho & _ & -> & _). cbn [r_dims] in Hd.
    assert (D0 : Forall (fun c => r_dims c = []) rs).
    { pose proof (out_dims_ok _ _ Ho) as Hall. pose proof (out_dims_in _ _ Ho) as Hin. unfold kept_dims in Hd.
      assert (dims = []).
      { destruct (Nat.eqb_spec (num_planes dims) 1) as [E1|N1]; [|exact Hd]. destruct Hin as [->|(c & Hc & <-)]; [reflexivity|].
        assert (Pc : proper_result c).
        { clear - Hr Hl' Hc. induction Hr as [|t r ts rs R Hr IH]; [contradiction|]. inversion Hl'; subst. destruct Hc as [<-|Hc]; [eapply runs_proper; eassumption|now apply IH]. }
        destruct Pc as [P1 [P2|P2]]; [exact P2|]. rewrite P1 in P2. contradiction. }
      subst dims. eapply Forall_impl; [|exact Hall]. intros c [_ [X|X]]; exact X. }
    clear - IH Hl' D0. induction IH as [|t r ts rs R IH1 IH2]; [reflexivity|]. inversion Hl'; subst. inversion D0; subst. cbn [map]. f_equal; [now apply R|now apply IH2].
Qed.
Theorem tree_perturbed_values : forall t r, runs t r -> leaves (good_leaf perturb delta n e) t ->
  forall p vs, nth_error (r_vs r) p = Some vs -> shows' vs (meaning t p).
Proof.
  apply (runs_strong (fun t r => leaves (good_leaf perturb delta n e) t -> forall p vs, nth_error (r_vs r) p = Some vs -> shows' vs (meaning t p))).
  - intros r g Hl p vs Hp. inversion Hl as [? ? [Pr Hg]|]; subst. destruct Pr as [Pl _]. cbn [meaning]. destruct (r_dims r) as [|d l] eqn:Ed; [|now apply Hg].
    destruct p as [|p]; [now apply Hg|]. cbn in Pl. assert (Hlt : (S p < length (r_vs r))%nat) by (apply nth_error_Some; rewrite Hp; discriminate). lia.
  - intros ev allow masks ts rs r code Hr IH Hrun Hl p vs Hp. inversion Hl as [|? ? ? ? Hl']; subst. clear Hl.
    pose proof (function_perturbed_values ev allow masks rs r code (fun p => map (fun t => meaning t p) ts) Hrun) as K.
    eapply shows_ext; [|apply K; [|exact Hp]]; [intro e'; cbn [meaning]; rewrite map_map; reflexivity|].
    intros q Hq. apply getResult_inv in Hrun as (_ & dims & planes & Ho & Hd & -> & _). cbn [r_vs] in Hq. rewrite map_length in Hq. apply do_planes_nth in Hd as [Ld _]. rewrite seq_length in Ld. rewrite Ld in Hq.
    apply out_dims_ok in Ho. clear K Hp Ld. induction Hr as [|t r ts rs R Hr IHr]; [constructor|]. inversion IH as [|? ? ? ? I1 I2]; subst. inversion Hl' as [|? ? L1 L2]; subst. inversion Ho as [|? ? [O1 O2] O3]; subst. cbn [map]. constructor; [|now apply IHr].
    unfold plane_of. destruct (r_dims r) as [|d l] eqn:Ed.
    + destruct (r_vs r) as [|v0 l0] eqn:Ev; [contradiction|]. exists v0. split; [reflexivity|]. apply (shows_ext v0 (meaning t 0)); [intro e'; symmetry; now apply (meaning_scalar t r R)|]. apply I1; [exact L1|reflexivity].
    + destruct O2 as [O2|O2]; [discriminate|]. destruct (runs_proper t r L1 R) as [Pl _]. rewrite Ed in Pl. rewrite O2 in Pl.
      destruct (nth_error (r_vs r) q) as [v|] eqn:Ev; [|apply nth_error_None in Ev; unfold num_planes in Hq; lia]. exists v. split; [reflexivity|]. now apply I1.
Qed.

(** ** C66: when nothing is wrong, nothing fails *)
(** With compatible shapes, flags that can be spread over a common shape, no failing child and a node
    class that can evaluate what it is given, getResult succeeds, no plane is a fail, and a plane has no
    value exactly if too many arguments are missing. *)
Theorem function_succeeds : forall evaluate allow masks cs dims full (fs : nat -> list (E -> option V)),
  (forall v, compat v = true) -> (forall f l v, accepts f l v = true) -> (forall p, pert_eqb p p = true) ->
  length masks = length cs -> cs <> [] ->
  Forall (fun c => r_vs c <> [] /\ (r_dims c = [] \/ r_dims c = dims)) cs ->
  (forall c p d f, In c cs -> plane_of c p = Some (VData d) -> d_flags d = Some f -> usable (v_shape f) (v_data f) /\ subshape (v_shape f) full) ->
  (forall p, (p < num_planes dims)%nat -> Forall2 (fun c f => exists d, plane_of c p = Some (VData d) /\ shows' (VData d) f) cs (fs p)) ->
  (forall xs, (exists x, In x xs /\ x <> None) -> (allow = true \/ ~ In None xs) -> length xs = length cs -> exists v, evaluate xs = Ok v) ->
  (forall xs, evaluate xs <> UB) ->
  num_planes dims <> 0%nat ->
  exists r code, run evaluate allow masks cs = Ok (r, code) /\ length (r_vs r) <> 0%nat /\
    forall p vs, nth_error (r_vs r) p = Some vs -> exists d, vs = VData d /\
      (d_value d = None <-> Forall (fun f => f e = None) (fs p) \/ allow = false /\ Exists (fun f => f e = None) (fs p)).
Proof.
  intros evaluate allow masks cs dims full fs Cc Ca Ce Lm Nc Hd Gf Hs Hev Hub Nz.
  assert (Ho : exists dims', out_dims cs = Ok dims' /\ (dims' = [] \/ dims' = dims)).
  { destruct cs as [|c cs]; [contradiction|]. inversion Hd as [|? ? [D1 D2] D3]; subst. cbn [out_dims]. destruct (r_vs c) as [|v l]; [contradiction|].
    apply (merge_dims_total cs (r_dims c) dims D2 D3). }
  destruct Ho as (dims' & Ho & Hdims).
  assert (Nz' : num_planes dims' <> 0%nat) by (destruct Hdims as [->| ->]; [discriminate|exact Nz]).
  assert (Le : (num_planes dims' <= num_planes dims)%nat) by (destruct Hdims as [->| ->]; [cbn; lia|lia]).
  assert (Pl : forall p, (p < num_planes dims')%nat -> spec True False (do_plane exc isNull compat accepts pert_eqb evaluate allow masks cs p)
    (fun x => exists d, fst x = VData d /\ (d_value d = None <-> Forall (fun f => f e = None) (fs p) \/ allow = false /\ Exists (fun f => f e = None) (fs p)))).
  { intros p Hp. specialize (Hs p ltac:(lia)).
    assert (Ha : Forall2 (at_plane perturb delta n e p) cs (fs p)).
    { clear - Hs. induction Hs as [|c f cs fs0 (d & A & B) H IH]; constructor; [exists (VData d); auto|exact IH]. }
    assert (Lf : length (fs p) = length cs) by (symmetry; eapply Forall2_len; exact Hs).
    assert (Nf : forall c, In c cs -> ~ failing c p).
    { intros c Hc (l & X). clear - Hs Hc X. induction Hs as [|c' f cs fs0 (d & A & B) H IH]; [contradiction|]. destruct Hc as [->|Hc]; [congruence|now apply IH]. }
    assert (Fl : exists fl, evaluateFlags isNull (map (fun c => data_of c p) cs) masks None = Ok fl).
    { destruct (evaluateFlags_spread isNull full (map (fun c => data_of c p) cs) masks None) as (fl & X & _); [rewrite map_length; lia| |exact Logic.I|eauto].
      intros d f Hin Hf _. apply in_map_iff in Hin as (c & Hc & Hin). unfold data_of in Hc. destruct (plane_of c p) as [[l|d']|] eqn:Ep; try discriminate. destruct (d_value d'); [|discriminate]. injection Hc as ->. exact (Gf c p d f Hin Ep Hf). }
    assert (Ev : forall xs, length xs = length cs -> cut allow (map missing xs) = false -> exists v, evaluate xs = Ok v).
    { intros xs Lx Hc. apply Hev; [| |exact Lx].
      - destruct (forallb missing xs) eqn:Ef.
        + exfalso. destruct xs as [|x xs]; [destruct cs; [contradiction|discriminate]|]. unfold cut in Hc. cbn [map existsb forallb] in Hc. cbn in Ef. apply andb_true_iff in Ef as [E1 E2]. rewrite E1 in Hc.
          assert (E3 : forallb (fun b : bool => b) (map missing xs) = true) by (clear - E2; induction xs as [|y ys IH]; [reflexivity|]; cbn in *; apply andb_true_iff in E2 as [A B]; now rewrite A, IH).
          rewrite E3 in Hc. discriminate.
        + clear - Ef. induction xs as [|x xs IH]; [discriminate|]. cbn in Ef. destruct x as [v|]; [exists (Some v); split; [now left|discriminate]|]. destruct (IH Ef) as (y & A & B). exists y. split; [now right|exact B].
      - destruct allow; [now left|right]. intro X. unfold cut in Hc. rewrite orb_true_r, andb_true_r in Hc.
        assert (E3 : existsb (fun b : bool => b) (map missing xs) = true); [|congruence]. apply existsb_exists. exists true. split; [|reflexivity]. apply in_map_iff. exists None. auto. }
    assert (Rel : exists ds, Forall2 (rel perturb delta n e) ds (fs p)).
    { clear - Hs. induction Hs as [|c f cs fs0 (d & A & B) H (ds & IH)]; [exists []; constructor|]. cbn in B. destruct (d_value d) as [v|] eqn:Edv.
      - exists (Some d :: ds). constructor; [|exact IH]. split; [exact B|rewrite Edv; discriminate].
      - exists (None :: ds). constructor; [|exact IH]. destruct B as (T1 & _ & _ & _ & T5 & _ & T7). split; [congruence|]. intros k s Hk. rewrite T7; [congruence|exact Hk|]. intro X. destruct T5 as [_ T5]; [intro Y; rewrite Y in X; contradiction|]. congruence. }
    destruct Rel as (ds & Rel).
    pose proof (do_plane_ok True False exc isNull compat accepts pert_eqb evaluate perturb delta n e (fun _ => Cc) (fun _ => Ce) (fun _ => Ca) Hub allow masks p cs (fs p) Ha) as K.
    assert (Cv : True -> node_fun evaluate allow (fs p) e = None -> cut allow (map missing (map (fun f => f e) (fs p))) = true).
    { intros _ X. unfold node_fun in X. rewrite node_value_cut in X. destruct (cut allow _) eqn:Ec in X; [exact Ec|].
      destruct (Ev (map (fun f => f e) (fs p))) as (v & Y); [rewrite map_length; exact Lf|exact Ec|]. rewrite Y in X. discriminate. }
    eapply spec_imp; [apply K|].
    - destruct Fl as (fl & ->). discriminate.
    - intros _. exact Fl.
    - exact Cv.
    - intros _ Hc s k Hk. apply Ev; [unfold row_at; rewrite map_length; exact Lf|]. unfold row_at. rewrite (missing_same perturb delta n e ds (fs p) k s Rel Hk). exact Hc.
    - intros x (K1 & K2 & _). destruct (K2 Nf) as (K3 & _ & _). destruct (K3 Logic.I) as (d & Ed). exists d. split; [exact Ed|]. rewrite Ed in K1. destruct K1 as [K1 _]. rewrite K1.
      transitivity (cut allow (map missing (map (fun f => f e) (fs p))) = true).
      + split; [now apply Cv|]. intro X. unfold node_fun. rewrite node_value_cut, X. reflexivity.
      + unfold cut. rewrite andb_true_iff, orb_true_iff, negb_true_iff, existsb_exists, forallb_forall.
        assert (Q1 : (exists x0, In x0 (map missing (map (fun f => f e) (fs p))) /\ x0 = true) <-> Exists (fun f => f e = None) (fs p)).
        { rewrite Exists_exists. split.
          - intros (b & Hb & ->). apply in_map_iff in Hb as (y & Hy & Hb). apply in_map_iff in Hb as (f & <- & Hf). exists f. split; [exact Hf|]. destruct (f e); [discriminate|reflexivity].
          - intros (f & Hf & X). exists true. split; [|reflexivity]. apply in_map_iff. exists (f e). split; [now rewrite X|]. apply in_map_iff. exists f. auto. }
        assert (Q2 : (forall x0, In x0 (map missing (map (fun f => f e) (fs p))) -> x0 = true) <-> Forall (fun f => f e = None) (fs p)).
        { rewrite Forall_forall. split.
          - intros A f Hf. specialize (A (missing (f e)) (in_map missing _ _ (in_map (fun f => f e) _ _ Hf))). destruct (f e); [discriminate|reflexivity].
          - intros A b Hb. apply in_map_iff in Hb as (y & <- & Hb). apply in_map_iff in Hb as (f & <- & Hf). now rewrite (A f Hf). }
        rewrite Q1, Q2. split; [tauto|]. intros [A|[A1 A2]]; [|tauto]. split; [|now left].
        destruct (fs p) as [|f l]; [destruct cs; [contradiction|discriminate]|]. inversion A; subst. now left. }
  destruct (do_planes_ok exc isNull compat accepts pert_eqb evaluate allow masks cs (seq 0 (num_planes dims'))) as (planes & Hpl).
  { intros p Hp. apply in_seq in Hp. specialize (Pl p ltac:(lia)). destruct (do_plane exc isNull compat accepts pert_eqb evaluate allow masks cs p) as [x| |]; [eauto|exfalso; now apply Pl|contradiction]. }
  unfold getResult. rewrite Lm, Nat.eqb_refl, Ho. cbn [negb bind]. rewrite Hpl. cbn [bind]. do 2 eexists. split; [reflexivity|]. cbn [r_vs]. split.
  { rewrite map_length. apply do_planes_nth in Hpl as [L _]. rewrite L, seq_length. exact Nz'. }
  intros p vs Hp. rewrite nth_error_map in Hp. destruct (nth_error planes p) as [x|] eqn:Ex; [|discriminate]. injection Hp as <-.
  destruct (do_planes_at _ _ _ _ _ _ _ _ Hpl Ex) as [Hlt D]. specialize (Pl p Hlt). rewrite D in Pl. exact Pl.
Qed.

(** ** C67: flags *)
(** A flag bit of the result is set exactly where a child with a value that is not identically zero, or
    with spids, has it set and its mask lets it through; no flags are made if there is nothing to let
    through. *)
Theorem function_flags : forall evaluate allow masks cs r code p d full,
  run evaluate allow masks cs = Ok (r, code) -> nth_error (r_vs r) p = Some (VData d) -> d_value d <> None ->
  (forall c d' f, In c cs -> plane_of c p = Some (VData d') -> d_flags d' = Some f -> usable (v_shape f) (v_data f) /\ subshape (v_shape f) full) ->
  let letting i f m := exists c d' v, nth_error cs i = Some c /\ nth_error masks i = Some m /\ plane_of c p = Some (VData d') /\
     d_value d' = Some v /\ (isNull v = false \/ d_spids d' <> []) /\ d_flags d' = Some f in
  (d_flags d = None <-> forall i f m, letting i f m -> m = 0) /\
  forall g, d_flags d = Some g -> usable (v_shape g) (v_data g) /\ subshape (v_shape g) full /\
    forall idx b, inside full idx -> 0 <= b ->
      (Z.testbit (flag_at (v_shape g) (v_data g) idx) b = true <->
       exists i f m, letting i f m /\ Z.testbit m b = true /\ Z.testbit (flag_at (v_shape f) (v_data f) idx) b = true).
Proof.
  intros evaluate allow masks cs r code p d full H Hp Nv Gf letting.
  apply getResult_inv in H as (Lm & dims & planes & _ & Hd & -> & _). cbn [r_vs] in Hp.
  rewrite nth_error_map in Hp. destruct (nth_error planes p) as [x|] eqn:Ex; [|discriminate]. injection Hp as Hp.
  destruct (do_planes_at _ _ _ _ _ _ _ _ Hd Ex) as [_ D].
  assert (Hfl : evaluateFlags isNull (map (fun c => data_of c p) cs) masks None = Ok (d_flags d)).
  { unfold do_plane in D. destruct (collect compat p cs) as [[ds fails]| |] eqn:Ec; cbn [bind] in D; try discriminate.
    assert (Eds : ds = map (fun c => data_of c p) cs).
    { clear - Ec. revert ds fails Ec. induction cs as [|c cs IH]; intros ds fails Ec; cbn [collect] in Ec; [injection Ec as <- <-; reflexivity|].
      rewrite plane_rank in Ec.
      match type of Ec with bind ?a _ = _ => destruct a as [[d l]| |] eqn:Ea end; cbn [bind] in Ec; try discriminate.
      assert (Hd : d = data_of c p).
      { unfold data_of. destruct (r_vs c) as [|v0 l0] eqn:Ev.
        - injection Ea as <- <-. unfold plane_of. rewrite Ev. destruct (match r_dims c with [] => 0%nat | _ => p end); reflexivity.
        - destruct (plane_of c p) as [[l1|d1]|]; [injection Ea as <- <-; reflexivity| |discriminate].
          destruct (d_value d1) as [v|]; [destruct (compat v); [injection Ea as <- <-; reflexivity|discriminate]|injection Ea as <- <-; reflexivity]. }
      destruct (collect compat p cs) as [[ds' ls]| |] eqn:Ecs; cbn [bind] in Ec; try discriminate. injection Ec as <- <-. cbn [map]. rewrite Hd. f_equal. now apply (IH ds' ls). }
    subst ds. destruct (_ && _); [injection D as <-; cbn in Hp; unfold addFails in Hp; destruct (rev fails); [injection Hp as <-; contradiction|discriminate]|].
    destruct (addFails fails); [injection D as <-; discriminate|].
    destruct (compute isNull compat accepts pert_eqb evaluate _ _ masks) as [d'| |] eqn:Ecm; try discriminate; injection D as <-; [|discriminate]. cbn in Hp. injection Hp as ->.
    unfold compute in Ecm. destruct (findSpids _) as [a b]. destruct (evaluateFlags isNull _ masks None) as [fl| |]; cbn [bind] in Ecm; try discriminate.
    destruct (evaluate _) as [v| |]; cbn [bind] in Ecm; try discriminate. destruct (accepts fl [] v); [|discriminate].
    destruct (spid_loop _ _ _ _ _ _ _ _ _ _ _) as [rr| |]; cbn [bind] in Ecm; try discriminate. injection Ecm as <-. reflexivity. }
  assert (Let : forall i f m, letting i f m <-> exists d', nth_error (map (fun c => data_of c p) cs) i = Some (Some d') /\ d_flags d' = Some f /\ counts isNull d' /\ nth_error masks i = Some m).
  { intros i f m. unfold letting, counts. rewrite nth_error_map. split.
    - intros (c & d' & v & H1 & H2 & H3 & H4 & H5 & H6). exists d'. rewrite H1. cbn. unfold data_of. rewrite H3, H4. split; [reflexivity|]. split; [exact H6|]. split; [exists v; auto|exact H2].
    - intros (d' & H1 & H2 & (v & H3 & H4) & H5). destruct (nth_error cs i) as [c|]; [|discriminate]. cbn in H1. injection H1 as H1. unfold data_of in H1.
      destruct (plane_of c p) as [[l|d1]|] eqn:Ep; try discriminate. destruct (d_value d1) as [v1|] eqn:E1; [|discriminate]. injection H1 as ->. exists c, d', v. auto 10. }
  destruct (evaluateFlags_spread isNull full (map (fun c => data_of c p) cs) masks None) as (fl & X & G & N & At); [rewrite map_length; lia| |exact Logic.I|].
  { intros d' f Hin Hf _. apply in_map_iff in Hin as (c & Hc & Hin). unfold data_of in Hc. destruct (plane_of c p) as [[l|d1]|] eqn:Ep; try discriminate. destruct (d_value d1); [|discriminate]. injection Hc as ->. exact (Gf c d' f Hin Ep Hf). }
  rewrite Hfl in X. injection X as <-. split.
  - rewrite N. split.
    + intros [_ H] i f m Hl. apply Let in Hl as (d' & H1 & H2 & H3 & H4). exact (H i d' f m H1 H2 H3 H4).
    + intro H. split; [reflexivity|]. intros i d' f m H1 H2 H3 H4. apply (H i f m). apply Let. exists d'. auto.
  - intros g Eg. rewrite Eg in G, At. destruct G as [G1 G2]. split; [exact G1|]. split; [exact G2|]. intros idx b Hi Hb. specialize (At idx b Hi Hb). cbn [flags_at] in At. rewrite At, Z.bits_0. split.
    + intros [Hf|(i & d' & f & m & H1 & H2 & H3 & H4 & H5 & H6)]; [discriminate|]. exists i, f, m. split; [|auto]. apply Let. exists d'. auto.
    + intros (i & f & m & Hl & H5 & H6). right. apply Let in Hl as (d' & H1 & H2 & H3 & H4). exists i, d', f, m. auto 10.
Qed.

(** ** C68: return codes *)
(** Where no child VellSet is a fail, the code is RES_FAIL if all planes are fails, RES_MISSING if all are
    without value, and 0 otherwise.  Missing from the full property: failing children (refuted below). *)
Theorem function_code_partial : forall evaluate allow masks cs r code (fs : nat -> list (E -> option V)),
  run evaluate allow masks cs = Ok (r, code) -> r_vs r <> [] ->
  (forall p, (p < length (r_vs r))%nat -> Forall2 (fun c f => exists d, plane_of c p = Some (VData d) /\ shows' (VData d) f) cs (fs p)) ->
  (code = RES_FAIL /\ forall vs, In vs (r_vs r) -> exists l, vs = VFail l) \/
  (code = RES_MISSING /\ forall vs, In vs (r_vs r) -> exists d, vs = VData d /\ d_value d = None) \/
  (code = 0 /\ (exists vs, In vs (r_vs r) /\ forall l, vs <> VFail l) /\
               (exists vs, In vs (r_vs r) /\ forall d, vs = VData d -> d_value d <> None)).
Proof.
  intros evaluate allow masks cs r code fs H Ne Hs. apply getResult_inv in H as (_ & dims & planes & _ & Hd & -> & ->). cbn [r_vs] in *.
  assert (Fate : forall x, In x planes -> (snd x = Failed <-> exists l, fst x = VFail l) /\ (snd x = Missing <-> exists d, fst x = VData d /\ d_value d = None)).
  { intros x Hx. apply In_nth_error in Hx as (p & Hx). destruct (do_planes_at _ _ _ _ _ _ _ _ Hd Hx) as [_ D].
    assert (Hl : (p < length (map fst planes))%nat) by (rewrite map_length; apply nth_error_Some; rewrite Hx; discriminate). specialize (Hs p Hl).
    assert (Ha : Forall2 (at_plane perturb delta n e p) cs (fs p)).
    { clear - Hs. induction Hs as [|c f cs fs0 (d & A & B) H IH]; constructor; [exists (VData d); auto|exact IH]. }
    assert (Nf : forall c, In c cs -> ~ failing c p).
    { intros c Hc (l & X). clear - Hs Hc X. induction Hs as [|c' f cs fs0 (d & A & B) H IH]; [contradiction|]. destruct Hc as [->|Hc]; [congruence|now apply IH]. }
    pose proof (do_plane_ok False True exc isNull compat accepts pert_eqb evaluate perturb delta n e ltac:(easy) ltac:(easy) ltac:(easy) ltac:(easy)
      allow masks p cs (fs p) Ha ltac:(easy) ltac:(easy) ltac:(easy) ltac:(easy)) as K.
    rewrite D in K. destruct K as (_ & K & _). destruct (K Nf) as (_ & K2 & K3). auto. }
  destruct (forallb (fun x => is_failed (snd x)) planes) eqn:Ef.
  - left. split; [reflexivity|]. intros vs Hv. apply in_map_iff in Hv as (x & <- & Hx). rewrite forallb_forall in Ef. specialize (Ef x Hx). apply (Fate x Hx). destruct (snd x); [discriminate|reflexivity|discriminate].
  - assert (E1 : exists vs, In vs (map fst planes) /\ forall l, vs <> VFail l).
    { assert (X : exists x, In x planes /\ is_failed (snd x) = false).
      { clear - Ef. induction planes as [|x l IH]; [discriminate|]. cbn in Ef. apply andb_false_iff in Ef as [Ef|Ef]; [exists x; split; [now left|exact Ef]|]. destruct (IH Ef) as (y & A & B). exists y. split; [now right|exact B]. }
      destruct X as (x & Hx & Fx). exists (fst x). split; [now apply in_map|]. intros l X. assert (snd x = Failed) as Y by (apply (Fate x Hx); eauto). rewrite Y in Fx. discriminate. }
    destruct (forallb (fun x => is_missing (snd x)) planes) eqn:Em.
    + right. left. split; [reflexivity|]. intros vs Hv. apply in_map_iff in Hv as (x & <- & Hx). rewrite forallb_forall in Em. specialize (Em x Hx). apply (Fate x Hx). destruct (snd x); [reflexivity|discriminate|discriminate].
    + right. right. split; [reflexivity|]. split; [exact E1|].
      assert (X : exists x, In x planes /\ is_missing (snd x) = false).
      { clear - Em. induction planes as [|x l IH]; [discriminate|]. cbn in Em. apply andb_false_iff in Em as [Em|Em]; [exists x; split; [now left|exact Em]|]. destruct (IH Em) as (y & A & B). exists y. split; [now right|exact B]. }
      destruct X as (x & Hx & Fx). exists (fst x). split; [now apply in_map|]. intros d X Y. assert (snd x = Missing) as Z0 by (apply (Fate x Hx); eauto). rewrite Z0 in Fx. discriminate.
Qed.
End Thms.

(** ** A concrete node: the sum of its children, over integers; parameters are a function from spids *)
Module Ex.
Definition ev (xs : list (option Z)) : res Z := Ok (fold_right (fun x a => match x with Some v => v + a | None => a end) 0 xs).
Definition perturb (e : Z -> Z) (s p : Z) : Z -> Z := fun t => if t =? s then e t + p else e t.
Definition delta (k : nat) (s : Z) : Z := if Nat.eqb k 0 then 1 else -1.
Definition e0 (t : Z) : Z := 10 * t.
Definition go := getResult (V := Z) (P := Z) (F := Z) 99 (Z.eqb 0) (fun _ => true) (fun _ _ _ => true) Z.eqb ev.
Definition one (d : vdata Z Z) : result Z Z Z := {| r_dims := []; r_vs := [VData d] |}.
Definition ps p v : pset Z Z := {| ps_pert := p; ps_val := v |}.
(** parameter 3, and three times parameter 3 plus parameter 5; both with two perturbation sets *)
Definition par3 : vdata Z Z := {| d_value := Some 30; d_flags := None; d_spids := [3]; d_psets := [ps [1] [31]; ps [-1] [29]] |}.
Definition both : vdata Z Z := {| d_value := Some 140; d_flags := Some (plain [2] [1; 6]); d_spids := [3; 5]; d_psets := [ps [1; 1] [143; 141]; ps [-1; -1] [137; 139]] |}.
Definition f3 (e : Z -> Z) : option Z := Some (e 3).
Definition f35 (e : Z -> Z) : option Z := Some (3 * e 3 + e 5).
Lemma par3_tells : tells perturb delta 2 e0 par3 f3.
Proof.
  split; [reflexivity|]. split; [repeat constructor|]. split; [repeat constructor; discriminate|]. split; [cbn; lia|]. split; [intros _; split; [reflexivity|discriminate]|]. split.
  - intros [|[|[|k]]] q H; try discriminate; injection H as <-; split; reflexivity.
  - intros k s _ Hs. unfold f3, perturb. destruct (Z.eqb_spec 3 s) as [<-|]; [destruct Hs; now left|reflexivity].
Qed.
Lemma both_tells : tells perturb delta 2 e0 both f35.
Proof.
  split; [reflexivity|]. split; [repeat constructor|]. split; [repeat constructor; discriminate|]. split; [cbn; lia|]. split; [intros _; split; [reflexivity|discriminate]|]. split.
  - intros [|[|[|k]]] q H; try discriminate; injection H as <-; split; reflexivity.
  - intros k s _ Hs. unfold f35, perturb. destruct (Z.eqb_spec 3 s) as [<-|]; [destruct Hs; now left|]. destruct (Z.eqb_spec 5 s) as [<-|]; [destruct Hs; right; now left|reflexivity].
Qed.
Example ex_sum : go false [-1; 6] [one par3; one both] =
  Ok (one {| d_value := Some 170; d_flags := Some (plain [2] [0; 6]); d_spids := [3; 5]; d_psets := [ps [1; 1] [174; 171]; ps [-1; -1] [166; 169]] |}, 0).
Proof. reflexivity. Qed.
(** the hypotheses of the theorems above hold for these two children *)
Example ex_children : forall p, Forall2 (fun c f => exists d, plane_of c p = Some (VData d) /\ shows (F := Z) perturb delta 2 e0 (VData d) f) [one par3; one both] [f3; f35].
Proof. intro p. repeat constructor; eexists; (split; [reflexivity|]); [exact par3_tells|exact both_tells]. Qed.
Example ex_leaf : good_leaf perturb delta 2 e0 (one both) (fun _ => f35) /\
  runs 99 (Z.eqb 0) (fun _ => true) (fun _ _ _ => true) Z.eqb (Node ev false [-1; 6] [Leaf (one par3) (fun _ => f3); Leaf (one both) (fun _ => f35)])
    (one {| d_value := Some 170; d_flags := Some (plain [2] [0; 6]); d_spids := [3; 5]; d_psets := [ps [1; 1] [174; 171]; ps [-1; -1] [166; 169]] |}).
Proof.
  split.
  - split; [split; [reflexivity|now left]|]. intros [|[|p]] vs H; try discriminate. injection H as <-. exact both_tells.
  - eapply runs_node; [|exact ex_sum]. repeat constructor.
Qed.
(** an allowed missing child; a missing child that is not allowed *)
Example ex_missing : go true [-1; 0] [one par3; one no_data] = Ok (one par3, 0) /\ go false [-1; -1] [one par3; one no_data] = Ok (one no_data, RES_MISSING).
Proof. split; reflexivity. Qed.

(** All planes fail, yet the code says that data is missing. *)
Definition failed (x : Z) : result Z Z Z := {| r_dims := []; r_vs := [VFail [x]] |}.
Example ex_fail : go false [-1; -1] [failed 7; one par3] = Ok (failed 7, RES_MISSING).
Proof. reflexivity. Qed.
(** Only the last of several fails is kept. *)
Example ex_fails : go false [-1; -1; -1] [failed 7; one par3; failed 8] = Ok (failed 8, RES_MISSING).
Proof. reflexivity. Qed.
(** A child with one perturbation set beside one with two, both depending on parameter 3. *)
Definition short : vdata Z Z := {| d_value := Some 30; d_flags := None; d_spids := [3]; d_psets := [ps [1] [31]] |}.
Example ex_short : go false [-1; -1] [one short; one par3] = UB.
Proof. reflexivity. Qed.
(** A child that depends on a parameter with spid -1. *)
Definition neg : vdata Z Z := {| d_value := Some (-10); d_flags := None; d_spids := [-1]; d_psets := [ps [1] [-9]] |}.
Example ex_neg : go false [-1] [one neg] = Ok (one {| d_value := Some (-10); d_flags := None; d_spids := []; d_psets := [ps [] []] |}, 0).
Proof. reflexivity. Qed.
End Ex.
Theorem function_code_refuted : ~ forall (V P F : Type) (exc : F) isNull compat accepts pert_eqb evaluate allow masks cs (r : result V P F) code,
  getResult exc isNull compat accepts pert_eqb evaluate allow masks cs = Ok (r, code) -> r_vs r <> [] -> (forall vs, In vs (r_vs r) -> exists l, vs = VFail l) -> code = RES_FAIL.
Proof.
  intro H. specialize (H _ _ _ _ _ _ _ _ _ _ _ _ _ _ Ex.ex_fail ltac:(discriminate)). assert (X : RES_MISSING = RES_FAIL); [|discriminate].
  apply H. intros vs [<-|[]]. eauto.
Qed.
Theorem function_fails_refuted : ~ forall (V P F : Type) (exc : F) isNull compat accepts pert_eqb evaluate allow masks cs (r : result V P F) code,
  getResult exc isNull compat accepts pert_eqb evaluate allow masks cs = Ok (r, code) -> forall p vs c l, nth_error (r_vs r) p = Some vs -> In c cs -> plane_of c p = Some (VFail l) ->
  exists l', vs = VFail l' /\ incl l l'.
Proof.
  intro H. specialize (H _ _ _ _ _ _ _ _ _ _ _ _ _ _ Ex.ex_fails 0%nat _ (Ex.failed 7) [7] eq_refl (or_introl eq_refl) eq_refl) as (l' & E & I). injection E as <-. destruct (I 7 (or_introl eq_refl)) as [X|[]]. discriminate.
Qed.
(** what does hold for fails: a plane with a failing child is a fail, and its fail is that of a child *)
Theorem function_fails_partial : forall (V P F : Type) (exc : F) isNull compat accepts pert_eqb evaluate allow masks cs (r : result V P F) code,
  getResult exc isNull compat accepts pert_eqb evaluate allow masks cs = Ok (r, code) -> forall p vs c x l, nth_error (r_vs r) p = Some vs -> In c cs -> plane_of c p = Some (VFail (x :: l)) ->
  exists y c' l', vs = VFail [y] /\ In c' cs /\ plane_of c' p = Some (VFail l') /\ In y l'.
Proof.
  intros V P F exc isNull compat accepts pert_eqb evaluate allow masks cs r code H p vs c x l Hp Hc Hx.
  apply getResult_inv in H as (_ & dims & planes & _ & Hd & -> & _). cbn [r_vs] in Hp.
  rewrite nth_error_map in Hp. destruct (nth_error planes p) as [y|] eqn:Ey; [|discriminate]. injection Hp as <-.
  destruct (do_planes_at exc isNull compat accepts pert_eqb _ _ _ _ _ _ _ _ Hd Ey) as [_ D]. unfold do_plane in D.
  destruct (collect compat p cs) as [[ds fails]| |] eqn:Ec; cbn [bind] in D; try discriminate.
  assert (Col : In x fails /\ forall y, In y fails -> exists c' l', In c' cs /\ plane_of c' p = Some (VFail l') /\ In y l').
  { clear D. assert (G : forall (cs : list (result V P F)) (ds : list (option (vdata V P))) (fails : list F), collect compat p cs = Ok (ds, fails) -> (forall c x l, In c cs -> plane_of c p = Some (VFail (x :: l)) -> In x fails) /\
      forall y, In y fails -> exists c' l', In c' cs /\ plane_of c' p = Some (VFail l') /\ In y l').
    { clear. induction cs as [|c cs IH]; intros ds fails Ec; cbn [collect] in Ec; [injection Ec as <- <-; split; [contradiction|contradiction]|].
      rewrite plane_rank in Ec.
      match type of Ec with bind ?a _ = _ => destruct a as [[d l]| |] eqn:Ea end; cbn [bind] in Ec; try discriminate.
      destruct (collect compat p cs) as [[ds' ls]| |] eqn:Ecs; cbn [bind] in Ec; try discriminate. injection Ec as <- <-. destruct (IH ds' ls eq_refl) as [I1 I2].
      assert (Hl : (forall x l0, plane_of c p = Some (VFail (x :: l0)) -> In x l) /\ forall y, In y l -> plane_of c p = Some (VFail l)).
      { destruct (r_vs c) as [|v0 l0] eqn:Ev.
        - injection Ea as <- <-. split; [|contradiction]. intros x l1 X. unfold plane_of in X. rewrite Ev in X. destruct (match r_dims c with [] => 0%nat | _ => p end); discriminate.
        - destruct (plane_of c p) as [[l1|d1]|]; [injection Ea as <- <-; split; [intros x l2 X; injection X as ->; now left|reflexivity]| |discriminate].
          destruct (d_value d1) as [v|]; [destruct (compat v); [|discriminate]|]; injection Ea as <- <-; (split; [discriminate|contradiction]). }
      destruct Hl as [L1 L2]. split.
      - intros c' x l' [<-|Hc] Hx; apply in_or_app; [left; eapply L1; exact Hx|right; eapply I1; eassumption].
      - intros y Hy. apply in_app_or in Hy as [Hy|Hy]; [exists c, l; split; [now left|split; [eapply L2; exact Hy|exact Hy]]|]. destruct (I2 y Hy) as (c' & l' & A & B & C). exists c', l'. split; [now right|auto]. }
    destruct (G cs ds fails Ec) as [G1 G2]. split; [eapply G1; eassumption|exact G2]. }
  destruct Col as [C1 C2]. unfold addFails in D. destruct (rev fails) as [|z rl] eqn:Er; [apply in_rev in C1; rewrite Er in C1; contradiction|].
  destruct (C2 z) as (c' & l' & A & B & C); [apply in_rev; rewrite Er; now left|]. exists z, c', l'. split; [|auto]. destruct (_ && _); injection D as <-; reflexivity.
Qed.
Example ex_fails_kept : plane_of (Ex.failed 8) 0 = Some (VFail [8]) /\ nth_error (r_vs (Ex.failed 8)) 0 = Some (VFail [8]).
Proof. split; reflexivity. Qed.
(** perturbation sets: children need not have equally many (VellSet::setNumPertSets is per VellSet), but
    the code then reads past the end of the shorter list *)
Theorem unequal_pertsets_refuted : ~ forall (V P F : Type) (exc : F) isNull compat accepts pert_eqb (evaluate : list (option V) -> res V) allow masks (cs : list (result V P F)),
  (forall xs, evaluate xs <> UB) -> Forall proper_result cs ->
  (forall c vs, In c cs -> In vs (r_vs c) -> exists d, vs = VData d /\ Forall (fun q => length (ps_pert q) = length (d_spids d) /\ length (ps_val q) = length (d_spids d)) (d_psets d)) ->
  getResult exc isNull compat accepts pert_eqb evaluate allow masks cs <> UB.
Proof.
  intro H. apply (H _ _ _ 99 (Z.eqb 0) (fun _ => true) (fun _ _ _ => true) Z.eqb Ex.ev false [-1; -1] [Ex.one Ex.short; Ex.one Ex.par3]); [discriminate| | |exact Ex.ex_short].
  - repeat constructor.
  - intros c vs [<-|[<-|[]]] [<-|[]]; eexists; (split; [reflexivity|repeat constructor]).
Qed.
Print Assumptions function_spids_merged.
Print Assumptions negative_spid_refuted.
Print Assumptions function_perturbed_values.
Print Assumptions tree_perturbed_values.
Print Assumptions function_succeeds.
Print Assumptions function_flags.
Print Assumptions function_code_partial.
Print Assumptions function_code_refuted.
Print Assumptions function_fails_refuted.
Print Assumptions function_fails_partial.
Print Assumptions unequal_pertsets_refuted.
