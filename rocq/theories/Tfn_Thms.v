(** Tensor nodes: values, perturbed values, perturbations, flags, cells and exceptions. *)
From Coq Require Import Sorted.
From Verif Require Import Base Poll_Model Vel_Model Vel_Spec Fun_Model Fun_Spec Fun_Proofs Fun_Pert Fun_Flags Fun_Thms Tfn_Model Tfn_Spec Tfn_Proofs Tfn_Perts Tfn_Table.
Local Open Scope Z_scope.

Lemma anything {A} (r : res A) : spec False True r (fun _ => True).
Proof. destruct r; cbn; tauto. Qed.
Section Thms.
Context {V P F C E : Type}.
Variable perturb : E -> Z -> P -> E.
Variable delta : nat -> Z -> P.
Variable n : nat.
Variable e : E.
Variable isNull : V -> bool.
Variable accepts : option (vells Z) -> list V -> V -> bool.
Variable pert_eqb : P -> P -> bool.
Variable getResultDims : list (list nat) -> res (list nat).
Variable ev : list (list (option V)) -> res (list V).
Variable pzero : P.
Notation stands := (stands_for (V := V) (P := P) (F := F) (C := C) perturb delta n e).
Notation run := (tensor_getResult (F := F) (C := C) isNull accepts pert_eqb getResultDims ev).
Notation run_pert := (pert_getResult (F := F) (C := C) isNull accepts pert_eqb getResultDims ev pzero).
Notation dims_of cs := (map (fun c : tresult V P F C => r_dims (t_res c)) cs).

Lemma run_inv flagmask cs req r : run flagmask cs req = Ok r -> exists pvs dims out flags, collect_children cs = Ok pvs /\ getResultDims (dims_of cs) = Ok dims /\
  ev (group (map (@length _) pvs) (map d_value (concat pvs))) = Ok out /\ evaluateTensorFlags isNull flagmask pvs = Ok flags /\ t_cells r = computeResultCells cs req /\
  computeTensorResult isNull accepts pert_eqb getResultDims ev flagmask cs = Ok (t_res r).
Proof.
  unfold tensor_getResult. destruct (computeTensorResult _ _ _ _ _ flagmask cs) as [x| |] eqn:Ec; cbn [bind]; try discriminate. intro H. injection H as <-.
  pose proof Ec as Ec'. unfold computeTensorResult in Ec'. destruct (collect_children cs) as [pvs| |]; cbn [bind] in Ec'; try discriminate.
  destruct (getResultDims _) as [dims| |]; cbn [bind] in Ec'; try discriminate. destruct (ev _) as [out| |] eqn:Eo; cbn [bind] in Ec'; try discriminate.
  destruct (evaluateTensorFlags isNull flagmask pvs) as [flags| |] eqn:Ef; cbn [bind] in Ec'; try discriminate. exists pvs, dims, out, flags. auto 10.
Qed.
Lemma run_pert_inv old flagmask cs req r : run_pert old flagmask cs req = Ok r -> exists dims, getResultDims (dims_of cs) = Ok dims /\ t_cells r = computeResultCells cs req /\
  computeTensorResultPert isNull accepts pert_eqb getResultDims ev pzero old flagmask cs = Ok (t_res r) /\ exists pvs flags, collect_children cs = Ok pvs /\ evaluateTensorFlags isNull flagmask pvs = Ok flags.
Proof.
  unfold pert_getResult. destruct (computeTensorResultPert _ _ _ _ _ _ old flagmask cs) as [x| |] eqn:Ec; cbn [bind]; try discriminate. intro H. injection H as <-.
  pose proof Ec as Ec'. unfold computeTensorResultPert in Ec'. destruct (findSpids _) as [np sp]. destruct (Nat.eqb np 2); [discriminate|].
  destruct (fill _ _ _ _ _ _) as [[vp perts]| |]; cbn [bind] in Ec'; try discriminate.
  destruct (getResultDims _) as [dims| |]; cbn [bind] in Ec'; try discriminate. destruct (each _ _) as [rows| |]; cbn [bind] in Ec'; try discriminate.
  destruct (collect_children cs) as [pvs| |] eqn:Ep; cbn [bind] in Ec'; try discriminate. destruct (evaluateTensorFlags isNull flagmask pvs) as [flags| |] eqn:Ef; cbn [bind] in Ec'; try discriminate.
  exists dims. split; [reflexivity|]. split; [reflexivity|]. split; [reflexivity|]. eauto.
Qed.

(** ** C147: the tensor of functions *)
(** If the VellSets of the children stand for functions of the solvable parameters, the VellSets of the
    result stand for the tensor of functions that evaluateTensors makes of them: the main values, spids, perturbations
    and perturbed values are all right.  The result has the dimensions that the node class says, or none if it has one
    element. *)
Theorem tensor_perturbed_values : forall flagmask cs req fs r, Forall2 stands cs fs -> run flagmask cs req = Ok r ->
  exists dims, getResultDims (dims_of cs) = Ok dims /\ let size := fold_right Nat.mul 1%nat dims in
    r_dims (t_res r) = (if Nat.eqb size 1 then [] else dims) /\ length (r_vs (t_res r)) = size /\
    forall j vs, nth_error (r_vs (t_res r)) j = Some vs -> exists d, vs = VData d /\ d_value d <> None /\ tells perturb delta n e d (element ev fs j).
Proof.
  intros flagmask cs req fs r St H. apply run_inv in H as (pvs & dims & out & flags & Ec & Ed & _ & Ef & _ & Er). exists dims. split; [exact Ed|]. cbv zeta.
  rewrite (proj1 (collect_stands perturb delta n e cs fs St)) in Ec. injection Ec as <-.
  pose proof (compute_tensor_ok False True isNull accepts pert_eqb getResultDims ev perturb delta n e (fun X => match X with end) (fun X => match X with end) flagmask cs fs dims flags St Ed Ef (anything _) (fun s k _ => anything _)) as K.
  rewrite Er in K. destruct K as (K1 & K2 & K3). split; [exact K1|]. split; [exact K2|]. intros j vs Hj. destruct (K3 j vs Hj) as (d & H1 & H2 & H3 & _). exists d. auto.
Qed.
(** such a result can be given to other nodes: it is a good leaf of a tree of Function nodes *)
Theorem tensor_feeds_functions : forall flagmask cs req fs r, Forall2 stands cs fs -> run flagmask cs req = Ok r -> good_leaf perturb delta n e (t_res r) (element ev fs).
Proof.
  intros flagmask cs req fs r St H. destruct (tensor_perturbed_values _ _ _ _ _ St H) as (dims & _ & K1 & K2 & K3). cbv zeta in K1, K2. split.
  - unfold proper_result. rewrite K1, K2. destruct (Nat.eqb_spec (fold_right Nat.mul 1%nat dims) 1) as [X|X]; [split; [rewrite X; reflexivity|now left]|split; [reflexivity|now right]].
  - intros p vs Hp. destruct (K3 p vs Hp) as (d & -> & _ & T). exact T.
Qed.
Lemma told_value (d : vdata V P) f k s : tells perturb delta n e d f -> d_value d <> None -> (k < n)%nat -> f (perturb e s (delta k s)) <> None.
Proof.
  intros (Tv & _ & _ & _ & Tlen & Tps & Tind) Nv Hk. destruct (in_dec Z.eq_dec s (d_spids d)) as [Hs|Hs]; [|rewrite Tind by assumption; congruence].
  destruct Tlen as [Tlen _]; [intro X; rewrite X in Hs; contradiction|]. destruct (nth_error (d_psets d) k) as [ps|] eqn:Ep; [|apply nth_error_None in Ep; lia].
  destruct (Tps k ps Ep) as [_ Tv2]. apply In_nth_error in Hs as (i & Hs). destruct (nth_map_some _ _ _ _ _ Tv2 Hs) as (y & _ & Y). congruence.
Qed.
Lemma flags_total full flagmask (cs : list (tresult V P F C)) : (flagmask = [] \/ length flagmask = length cs) ->
  (forall c i f, flagging isNull cs c i f -> usable (v_shape f) (v_data f) /\ subshape (v_shape f) full) -> forall pvs, collect_children cs = Ok pvs ->
  exists flags, evaluateTensorFlags isNull flagmask pvs = Ok flags.
Proof.
  intros Lm Hf pvs Hc. pose proof (collect_inv cs pvs Hc) as [Ei _]. assert (Lp : length pvs = length cs) by (rewrite <- (map_length (fun c => r_vs (t_res c)) cs), Ei, map_length; reflexivity).
  unfold evaluateTensorFlags. destruct flagmask as [|m masks]; [rewrite no_masks; eauto|]. destruct Lm as [X|Lm]; [discriminate|]. rewrite Lm, Lp, Nat.eqb_refl.
  destruct (merge_flags_spread isNull full pvs (m :: masks) None) as (fl & X & _); [lia| |exact Logic.I|eauto].
  intros vs d f H1 H2 H3 (v & H4 & H5). apply In_nth_error in H1 as (c & H1). apply In_nth_error in H2 as (i & H2). apply (Hf c i f). unfold flagging.
  pose proof (map_nth_error (map (@VData V P F)) c pvs H1) as X. rewrite <- Ei, nth_error_map in X. destruct (nth_error cs c) as [r|] eqn:Er; [|discriminate]. cbn in X. injection X as X.
  exists r, d, v. split; [reflexivity|]. split; [rewrite X; exact (map_nth_error _ i vs H2)|]. auto.
Qed.
(** ** C148: when nothing is wrong, nothing fails *)
Theorem tensor_succeeds : forall flagmask cs req fs dims full, (forall f l v, accepts f l v = true) -> (forall p, pert_eqb p p = true) -> (flagmask = [] \/ length flagmask = length cs) ->
  (forall c i f, flagging isNull cs c i f -> usable (v_shape f) (v_data f) /\ subshape (v_shape f) full) ->
  Forall2 stands cs fs -> getResultDims (dims_of cs) = Ok dims ->
  (forall args, map (@length _) args = map (@length _) fs -> Forall (Forall (fun x => x <> None)) args -> exists out, ev args = Ok out /\ (fold_right Nat.mul 1%nat dims <= length out)%nat) ->
  exists r, run flagmask cs req = Ok r.
Proof.
  intros flagmask cs req fs dims full Ca Ce Lm Hf St Hd Hev. destruct (collect_stands perturb delta n e cs fs St) as [Ec Rc].
  destruct (flags_total full flagmask cs Lm Hf _ Ec) as (flags & Efl).
  assert (Tot : forall e', (forall gs g, In gs fs -> In g gs -> g e' <> None) -> spec True False (evaluate_all ev (map (@length _) fs) (num_planes dims) (map (fun f => f e') (concat fs))) (fun _ => True)).
  { intros e' He. unfold evaluate_all. rewrite group_map. destruct (Hev (map (map (fun f => f e')) fs)) as (out & Eo & Lo).
    - rewrite map_map. apply map_ext. intro l. apply map_length.
    - apply Forall_forall. intros a Ha. apply in_map_iff in Ha as (gs & <- & Hg). apply Forall_forall. intros x Hx. apply in_map_iff in Hx as (g & <- & Hx). exact (He gs g Hg Hx).
    - rewrite Eo. cbn [bind]. unfold outputs. change (num_planes dims) with (fold_right Nat.mul 1%nat dims). destruct (Nat.ltb_spec (length out) (fold_right Nat.mul 1%nat dims)); [lia|exact Logic.I]. }
  assert (Val : forall gs g, In gs fs -> In g gs -> exists d, tells perturb delta n e d g /\ d_value d <> None).
  { clear - Rc. induction Rc as [|l f ls fs Hl H IH]; intros gs g H1 H2; [contradiction|]. destruct H1 as [<-|H1]; [|exact (IH gs g H1 H2)].
    clear - Hl H2. induction Hl as [|d g' ds gs' Hd H IH]; [contradiction|]. destruct H2 as [<-|H2]; [eauto|exact (IH H2)]. }
  pose proof (compute_tensor_ok True False isNull accepts pert_eqb getResultDims ev perturb delta n e (fun _ => Ce) (fun _ => Ca) flagmask cs fs dims flags St Hd Efl) as K.
  unfold tensor_getResult. destruct (computeTensorResult _ _ _ _ _ flagmask cs) as [r| |]; [cbn; eauto| |].
  - exfalso. apply K; [| |exact Logic.I].
    + apply Tot. intros gs g H1 H2. destruct (Val gs g H1 H2) as (d & (T & _) & Nv). congruence.
    + intros s k Hk. apply Tot. intros gs g H1 H2. destruct (Val gs g H1 H2) as (d & T & Nv). exact (told_value d g k s T Nv Hk).
  - exfalso. apply K.
    + apply Tot. intros gs g H1 H2. destruct (Val gs g H1 H2) as (d & (T & _) & Nv). congruence.
    + intros s k Hk. apply Tot. intros gs g H1 H2. destruct (Val gs g H1 H2) as (d & T & Nv). exact (told_value d g k s T Nv Hk).
Qed.
(** a child VellSet without a value makes the node throw an exception *)
Theorem tensor_needs_values : forall flagmask cs req c vs, In c cs -> In vs (r_vs (t_res c)) -> (forall d, vs = VData d -> d_value d = None) -> run flagmask cs req = Err.
Proof.
  intros flagmask cs req c vs Hc Hv Hn.
  assert (W : forall l : list (vset V P F), with_values l <> UB) by (induction l as [|[x|d] l IH]; cbn; try discriminate; destruct (d_value d); [|discriminate]; destruct (with_values l); cbn; congruence).
  assert (X : collect_children cs = Err).
  { induction cs as [|c' cs IH]; [contradiction|]. cbn [collect_children]. destruct Hc as [->|Hc].
    - assert (Y : with_values (r_vs (t_res c)) = Err); [|now rewrite Y]. clear IH. revert Hv. generalize (r_vs (t_res c)). induction l as [|w l IH]; intro Hv; [contradiction|]. cbn [with_values]. destruct Hv as [->|Hv].
      + destruct vs as [x|d]; [reflexivity|]. now rewrite (Hn d eq_refl).
      + destruct w as [x|d]; [reflexivity|]. destruct (d_value d); [|reflexivity]. now rewrite (IH Hv).
    - specialize (W (r_vs (t_res c'))). destruct (with_values (r_vs (t_res c'))); [|reflexivity|contradiction]. cbn [bind]. now rewrite (IH Hc). }
  unfold tensor_getResult, computeTensorResult. now rewrite X.
Qed.
(** ** C149: flags *)
(** All VellSets of the result have the same flags.  Without flag masks there are none; otherwise there is one mask per
    child, and a bit is set exactly where a VellSet of a child, with flags that count, has it set and the mask of
    the child lets it through. *)
Theorem tensor_flags : forall flagmask cs req r full, run flagmask cs req = Ok r ->
  (forall c i f, flagging isNull cs c i f -> usable (v_shape f) (v_data f) /\ subshape (v_shape f) full) ->
  exists flags, (forall vs, In vs (r_vs (t_res r)) -> exists d, vs = VData d /\ d_flags d = flags) /\
    (flagmask = [] -> flags = None) /\ (flagmask <> [] -> length flagmask = length cs) /\
    (flags = None <-> forall c i f m, flagging isNull cs c i f -> nth_error flagmask c = Some m -> m = 0) /\
    forall g, flags = Some g -> usable (v_shape g) (v_data g) /\ subshape (v_shape g) full /\
      forall idx b, inside full idx -> 0 <= b ->
        (Z.testbit (flag_at (v_shape g) (v_data g) idx) b = true <->
         exists c i f m, flagging isNull cs c i f /\ nth_error flagmask c = Some m /\ Z.testbit m b = true /\ Z.testbit (flag_at (v_shape f) (v_data f) idx) b = true).
Proof.
  intros flagmask cs req r full H Hf. apply run_inv in H as (pvs & dims & out & flags & Ec & Ed & Eo & Ef & _ & Er). pose proof (collect_inv cs pvs Ec) as [Ei Ev].
  assert (Lp : length pvs = length cs) by (rewrite <- (map_length (fun c => r_vs (t_res c)) cs), Ei, map_length; reflexivity).
  exists flags. split.
  { unfold computeTensorResult in Er. rewrite Ec in Er. cbn [bind] in Er. rewrite Ed in Er. cbn [bind] in Er. rewrite Eo in Er. cbn [bind] in Er. rewrite Ef in Er. cbn [bind] in Er.
    destruct (findSpids _) as [np sp]. destruct (outputs _ out) as [vs| |]; cbn [bind] in Er; try discriminate. destruct (accept_all _ _ _ _); [|discriminate].
    destruct (tensor_spid_loop _ _ _ _ _ _ _ _ _ _ _ _) as [rws| |]; cbn [bind] in Er; try discriminate. injection Er as Er. rewrite <- Er. cbn [r_vs].
    intros w Hw. apply in_map_iff in Hw as (jv & <- & _). eexists. split; reflexivity. }
  assert (Fl : forall c i f m, flagging isNull cs c i f /\ nth_error flagmask c = Some m -> lets isNull pvs flagmask c f m).
  { intros c i f m [(r0 & d & v & H1 & H2 & H3 & H4 & H5) H6]. pose proof (map_nth_error (fun c => r_vs (t_res c)) c cs H1) as X. rewrite Ei, nth_error_map in X. destruct (nth_error pvs c) as [vs|] eqn:Ep; [|discriminate]. cbn in X. injection X as X.
    rewrite <- X in H2. rewrite nth_error_map in H2. destruct (nth_error vs i) as [d'|] eqn:Ed'; [|discriminate]. cbn in H2. injection H2 as ->. exists vs, d. split; [exact Ep|]. split; [eapply nth_error_In; exact Ed'|]. split; [exact H5|]. split; [exists v; auto|exact H6]. }
  assert (Lf : forall c f m, lets isNull pvs flagmask c f m -> exists i, flagging isNull cs c i f /\ nth_error flagmask c = Some m).
  { intros c f m (vs & d & H1 & H2 & H3 & (v & H4 & H5) & H6). apply In_nth_error in H2 as (i & H2). exists i. split; [|exact H6].
    pose proof (map_nth_error (map (@VData V P F)) c pvs H1) as X. rewrite <- Ei, nth_error_map in X. destruct (nth_error cs c) as [r0|] eqn:Er0; [|discriminate]. cbn in X. injection X as X.
    exists r0, d, v. split; [exact Er0|]. split; [rewrite X; exact (map_nth_error _ i vs H2)|]. auto. }
  unfold evaluateTensorFlags in Ef. destruct flagmask as [|m masks].
  - rewrite no_masks in Ef. injection Ef as <-. split; [reflexivity|]. split; [contradiction|]. split; [split; [intros _ c i f m _ X; destruct c; discriminate|reflexivity]|discriminate].
  - destruct (Nat.eqb_spec (length (m :: masks)) (length pvs)) as [L|]; [|discriminate]. split; [discriminate|]. split; [intros _; congruence|].
    destruct (merge_flags_spread isNull full pvs (m :: masks) None) as (fl & X & G & N & At); [lia| |exact Logic.I|].
    { intros vs d f H1 H2 H3 H4. apply In_nth_error in H1 as (c & H1). destruct (nth_error (m :: masks) c) as [m'|] eqn:Em; [|apply nth_error_None in Em; assert (c < length pvs)%nat by (apply nth_error_Some; congruence); lia].
      destruct (Lf c f m') as (i & Hi & _); [exists vs, d; auto|]. exact (Hf c i f Hi). }
    rewrite Ef in X. injection X as <-. split.
    + rewrite N. split.
      * intros [_ H] c i f m' H1 H2. exact (H c f m' (Fl c i f m' (conj H1 H2))).
      * intro H. split; [reflexivity|]. intros c f m' Hl. apply Lf in Hl as (i & H1 & H2). exact (H c i f m' H1 H2).
    + intros g Eg. rewrite Eg in G, At. destruct G as [G1 G2]. split; [exact G1|]. split; [exact G2|]. intros idx b Hi Hb. specialize (At idx b Hi Hb). cbn [flags_at] in At. rewrite At, Z.bits_0. split.
      * intros [X|(c & f & m' & H1 & H2 & H3)]; [discriminate|]. apply Lf in H1 as (i & H1 & H4). exists c, i, f, m'. auto.
      * intros (c & i & f & m' & H1 & H2 & H3 & H4). right. exists c, f, m'. split; [exact (Fl c i f m' (conj H1 H2))|auto].
Qed.
(** ** C150: perturbations and cells *)
(** If the node succeeds, each VellSet that gives a perturbation of a spid gives the same one, which is that of every VellSet
    of the result: children that disagree make the node throw an exception. *)
Theorem tensor_perturbations_agree : forall flagmask cs req r d k s p, (forall p q, pert_eqb p q = true -> p = q) -> (forall d, among cs d -> orderly d) -> run flagmask cs req = Ok r ->
  among cs d -> gives d k s p -> forall vs, In vs (r_vs (t_res r)) -> exists d', vs = VData d' /\ gives d' k s p.
Proof.
  intros flagmask cs req r d k s p Eq Or H Hd Hg. apply run_inv in H as (pvs & dims & out & flags & Ec & Ed & Eo & Ef & _ & Er).
  unfold computeTensorResult in Er. rewrite Ec in Er. cbn [bind] in Er. rewrite Ed in Er. cbn [bind] in Er. rewrite Eo in Er. cbn [bind] in Er. rewrite Ef in Er. cbn [bind] in Er.
  destruct (findSpids (map Some (concat pvs))) as [np sp] eqn:Es. destruct (outputs _ out) as [vs| |] eqn:Eout; cbn [bind] in Er; try discriminate. destruct (accept_all _ _ _ _); [|discriminate].
  destruct (tensor_spid_loop _ _ _ _ _ _ _ _ _ _ _ _) as [rws| |] eqn:El; cbn [bind] in Er; try discriminate. injection Er as Er. rewrite <- Er. cbn [r_vs]. clear Er.
  assert (Or' : forall d0, In (Some d0) (map Some (concat pvs)) -> orderly d0) by (intros d0 H; apply in_map_iff in H as (d1 & X & H); injection X as <-; apply Or; now apply (among_concat cs pvs d1 Ec)).
  destruct (orderly_spids _ _ _ Or' Es) as (Inc & Min & Mx).
  assert (Hin : In (Some d) (map Some (concat pvs))) by (apply in_map; now apply (among_concat cs pvs d Ec)).
  assert (Ix : Forall2 (idx_inv sp) (map Some (concat pvs)) (map (fun _ => 0%nat) (map Some (concat pvs)))).
  { assert (M2 : forall c, In c (map Some (concat pvs)) -> idx_inv sp c 0%nat).
    { intros [d0|] Hc; [|exact Logic.I]. exists [], (d_spids d0). split; [reflexivity|]. split; [reflexivity|]. split; [|easy]. intros x Hx. apply Min. eauto. }
    revert M2. generalize (map Some (concat pvs)). intros l M2. induction l as [|c l IH]; [constructor|]. constructor; [apply M2; now left|apply IH; intros c' Hc'; apply M2; now right]. }
  pose proof (tensor_spid_loop_perts accepts pert_eqb ev Eq _ _ _ _ _ _ Or' _ _ _ _ Inc Ix El) as K. pose proof Hg as (ps & i & G1 & G2 & G3). assert (Hs : In s sp) by (apply Min; exists d; split; [exact Hin|eapply nth_error_In; exact G2]).
  assert (Hk : (k < np)%nat). { assert (k < numPertSets d)%nat by (apply nth_error_Some; congruence). assert (d_spids d <> []) by (intro X; rewrite X in G2; destruct i; discriminate). specialize (Mx d Hin H0). lia. }
  destruct (outputs_len _ _ _ Eout) as [Lvs _]. intros w Hw. apply in_map_iff in Hw as ([j v] & <- & Hjv). eexists. split; [reflexivity|]. cbn [fst snd]. unfold gives. cbn [d_psets d_spids].
  assert (Hj : (j < num_planes dims)%nat) by (apply in_combine_l, in_seq in Hjv; lia).
  rewrite nth_error_map, (nth_error_nth' (seq 0 np) 0%nat) by (rewrite seq_length; exact Hk). rewrite seq_nth by exact Hk. cbn [option_map plus].
  eexists. cbn [pset_of ps_pert]. apply In_nth_error in Hs as (i1 & Hs). exists i1. split; [reflexivity|]. split; [exact Hs|]. cbn [ps_pert].
  clear - K Hs Hk Hj Hin Hg. revert i1 Hs. induction K as [|s0 x sp rws (L1 & L2 & L3) K IH]; intros i1 Hs; [destruct i1; discriminate|].
  assert (Pk : forall k p vs, nth_error x k = Some (p, vs) -> exists v, nth_error (flat_map (pick j) x) k = Some (p, v)).
  { clear - L2 Hj. induction L2 as [|[q ws] x Hx Hr IH]; intros k p vs H; [destruct k; discriminate|]. cbn [flat_map]. unfold pick at 1. cbn [fst snd] in *. destruct (nth_error ws j) as [u|] eqn:Eu; [|apply nth_error_None in Eu; lia]. cbn [app].
    destruct k as [|k]; cbn [nth_error] in *; [injection H as -> ->; eauto|exact (IH k p vs H)]. }
  assert (Hx : exists p0 v0, nth_error (flat_map (pick j) x) k = Some (p0, v0)).
  { destruct (nth_error x k) as [[p0 vs0]|] eqn:Ex; [|apply nth_error_None in Ex; lia]. destruct (Pk k p0 vs0 Ex) as (v0 & Hv0). eauto. }
  destruct Hx as (p0 & v0 & Hx). unfold pset_of. cbn [ps_pert map flat_map]. rewrite Hx. cbn [app]. destruct i1 as [|i1]; cbn [nth_error] in *; [|exact (IH i1 Hs)].
  injection Hs as ->. destruct (L3 d k p Hin Hg Hk) as (vs0 & Hv). destruct (Pk k p vs0 Hv) as (v1 & Hv1). rewrite Hx in Hv1. congruence.
Qed.
(** the cells are those of the first child that has cells, or else those of the request *)
Theorem tensor_cells : forall flagmask cs req r, run flagmask cs req = Ok r ->
  (forall pre c post x, cs = pre ++ c :: post -> Forall (fun c => t_cells c = None) pre -> t_cells c = Some x -> t_cells r = Some x) /\
  (Forall (fun c => t_cells c = None) cs -> t_cells r = req).
Proof.
  intros flagmask cs req r H. apply run_inv in H as (_ & _ & _ & _ & _ & _ & _ & _ & -> & _). split.
  - intros pre c post x -> Hp Hc. induction Hp as [|a pre Ha Hp IH]; cbn [app computeResultCells]; [now rewrite Hc|now rewrite Ha].
  - intro Hp. induction Hp as [|a l Ha Hl IH]; [reflexivity|]. cbn [computeResultCells]. now rewrite Ha.
Qed.
(** ** C151: TensorFunctionPert *)
(** The other base class gives the same tensor of functions, but only for one perturbation set. *)
Theorem tensorpert_perturbed_values : forall old flagmask cs req fs r, n = 1%nat -> Forall2 stands cs fs -> run_pert old flagmask cs req = Ok r ->
  exists dims, getResultDims (dims_of cs) = Ok dims /\ let size := fold_right Nat.mul 1%nat dims in
    r_dims (t_res r) = (if Nat.eqb size 1 then [] else dims) /\ length (r_vs (t_res r)) = size /\
    forall j vs, nth_error (r_vs (t_res r)) j = Some vs -> exists d, vs = VData d /\ d_value d <> None /\ tells perturb delta n e d (element ev fs j).
Proof.
  intros old flagmask cs req fs r Hn St H. subst n. apply run_pert_inv in H as (dims & Ed & _ & Er & pvs & flags & Ec & Ef). exists dims. split; [exact Ed|]. cbv zeta.
  rewrite (proj1 (collect_stands perturb delta 1 e cs fs St)) in Ec. injection Ec as <-.
  pose proof (compute_pert_ok False True isNull accepts pert_eqb getResultDims ev pzero perturb delta e (fun X => match X with end) (fun X => match X with end) old flagmask cs fs dims flags St Ed Ef (fun _ _ => anything _)) as K.
  rewrite Er in K. destruct K as (K1 & K2 & K3). split; [exact K1|]. split; [exact K2|]. intros j vs Hj. destruct (K3 j vs Hj) as (d & H1 & H2 & H3 & _). exists d. auto.
Qed.
(** When nothing is wrong it does not fail: in particular it never reads or writes outside its table of pointers,
    however large the table was before. *)
Theorem tensorpert_succeeds : forall old flagmask cs req fs dims full, n = 1%nat -> (forall f l v, accepts f l v = true) -> (forall p, pert_eqb p p = true) -> (flagmask = [] \/ length flagmask = length cs) ->
  (forall c i f, flagging isNull cs c i f -> usable (v_shape f) (v_data f) /\ subshape (v_shape f) full) ->
  Forall2 stands cs fs -> getResultDims (dims_of cs) = Ok dims ->
  (forall args, map (@length _) args = map (@length _) fs -> Forall (Forall (fun x => x <> None)) args -> exists out, ev args = Ok out /\ (fold_right Nat.mul 1%nat dims <= length out)%nat) ->
  exists r, run_pert old flagmask cs req = Ok r.
Proof.
  intros old flagmask cs req fs dims full Hn Ca Ce Lm Hf St Hd Hev. destruct (collect_stands perturb delta n e cs fs St) as [Ec Rc].
  destruct (flags_total full flagmask cs Lm Hf _ Ec) as (flags & Efl).
  assert (Tot : forall e', (forall gs g, In gs fs -> In g gs -> g e' <> None) -> spec True False (bind (ev (map (map (fun f => f e')) fs)) (outputs (num_planes dims))) (fun _ => True)).
  { intros e' He. destruct (Hev (map (map (fun f => f e')) fs)) as (out & Eo & Lo).
    - rewrite map_map. apply map_ext. intro l. apply map_length.
    - apply Forall_forall. intros a Ha. apply in_map_iff in Ha as (gs & <- & Hg). apply Forall_forall. intros x Hx. apply in_map_iff in Hx as (g & <- & Hx). exact (He gs g Hg Hx).
    - rewrite Eo. cbn [bind]. unfold outputs. change (num_planes dims) with (fold_right Nat.mul 1%nat dims). destruct (Nat.ltb_spec (length out) (fold_right Nat.mul 1%nat dims)); [lia|exact Logic.I]. }
  assert (Val : forall gs g, In gs fs -> In g gs -> exists d, tells perturb delta n e d g /\ d_value d <> None).
  { clear - Rc. induction Rc as [|l f ls fs Hl H IH]; intros gs g H1 H2; [contradiction|]. destruct H1 as [<-|H1]; [|exact (IH gs g H1 H2)].
    clear - Hl H2. induction Hl as [|d g' ds gs' Hd H IH]; [contradiction|]. destruct H2 as [<-|H2]; [eauto|exact (IH H2)]. }
  assert (St' : Forall2 (stands_for (C := C) perturb delta 1 e) cs fs) by (rewrite <- Hn; exact St).
  pose proof (compute_pert_ok True False isNull accepts pert_eqb getResultDims ev pzero perturb delta e (fun _ => Ce) (fun _ => Ca) old flagmask cs fs dims flags St' Hd Efl) as K.
  assert (Cv : forall e', e' = e \/ (exists s, e' = perturb e s (delta 0%nat s)) -> spec True False (bind (ev (map (map (fun f => f e')) fs)) (outputs (num_planes dims))) (fun _ => True)).
  { intros e' [->|(s & ->)]; apply Tot; intros gs g H1 H2; destruct (Val gs g H1 H2) as (d & T & Nv).
    - destruct T as (T & _). congruence.
    - apply (told_value d g 0%nat s T Nv). lia. }
  specialize (K Cv). unfold pert_getResult. destruct (computeTensorResultPert _ _ _ _ _ _ old flagmask cs) as [r| |]; [cbn; eauto| |]; exfalso; [now apply K|exact K].
Qed.
(** A child with two perturbation sets (double differencing) makes it throw an exception. *)
Theorem tensorpert_two_sets : forall old flagmask cs req d, among cs d -> d_spids d <> [] -> length (d_psets d) = 2%nat -> (forall d, among cs d -> (length (d_psets d) <= 2)%nat) ->
  run_pert old flagmask cs req = Err.
Proof.
  intros old flagmask cs req d Hd Hs H2 Hle. unfold pert_getResult, computeTensorResultPert.
  assert (In' : forall d, In (Some d) (map vset_data (flat_map (fun c : tresult V P F C => r_vs (t_res c)) cs)) <-> among cs d).
  { intro d'. rewrite in_map_iff. split.
    - intros ([f|d1] & X & H); [discriminate|]. injection X as ->. apply in_flat_map in H as (c & H1 & H3). exists c. auto.
    - intros (c & H1 & H3). exists (VData d'). split; [reflexivity|]. apply in_flat_map. eauto. }
  assert (X : fst (findSpids (map vset_data (flat_map (fun c : tresult V P F C => r_vs (t_res c)) cs))) = 2%nat).
  { unfold findSpids. set (all := map vset_data _) in *. destruct (concat _) as [|x l] eqn:Ec.
    - exfalso. apply In' in Hd. destruct (d_spids d) as [|s sp] eqn:Es; [contradiction|]. assert (In s []) as []. rewrite <- Ec. apply in_concat. exists (s :: sp). split; [|now left]. apply in_map_iff. exists (Some d). rewrite Es. auto.
    - cbn [fst]. assert (A : forall (l : list (option (vdata V P))) m, (m <= fold_left (fun n c => match c with Some d => Nat.max n (numPertSets d) | None => n end) l m)%nat).
      { intro l0. induction l0 as [|[d0|] l0 IH]; intro m; cbn; [lia| |apply IH]. specialize (IH (Nat.max m (numPertSets d0))). lia. }
      assert (B : forall l m, In (Some d) l -> (2 <= fold_left (fun n c => match c with Some d => Nat.max n (numPertSets d) | None => n end) l m)%nat).
      { intro l0. induction l0 as [|c l0 IH]; intros m Hc; [contradiction|]. cbn. destruct Hc as [->|Hc]; [|now apply IH]. specialize (A l0 (Nat.max m (numPertSets d))). unfold numPertSets in *. lia. }
      assert (D : forall (l : list (option (vdata V P))) m, (m <= 2)%nat -> (forall d0, In (Some d0) l -> (length (d_psets d0) <= 2)%nat) -> (fold_left (fun n c => match c with Some d => Nat.max n (numPertSets d) | None => n end) l m <= 2)%nat).
      { intro l0. induction l0 as [|[d0|] l0 IH]; intros m Hm Hl; cbn; [lia| |apply IH; [lia|intros; apply Hl; now right]]. apply IH; [|intros; apply Hl; now right]. specialize (Hl d0 (or_introl eq_refl)). unfold numPertSets. lia. }
      specialize (B all 0%nat (proj2 (In' d) Hd)). specialize (D all 0%nat ltac:(lia) (fun d0 H0 => Hle d0 (proj1 (In' d0) H0))). lia. }
  destruct (findSpids _) as [np sp]. cbn [fst] in X. subst np. reflexivity.
Qed.
End Thms.

(** ** A concrete node: of a vector (x,y) and a scalar z it makes (x*z, y*z, x+y) *)
Module TfnEx.
Import Fun_Thms.Ex.
Definition cell (d : list (vdata Z Z)) (dims : list nat) (c : option Z) : tresult Z Z Z Z := {| t_res := {| r_dims := dims; r_vs := map (@VData Z Z Z) d |}; t_cells := c |}.
Definition rdims (l : list (list nat)) : res (list nat) := match l with [[2%nat]; []] => Ok [3%nat] | _ => Err end.
Definition tev (l : list (list (option Z))) : res (list Z) := match l with [[Some x; Some y]; [Some z]] => Ok [x * z; y * z; x + y] | _ => UB end.
Definition node := tensor_getResult (V := Z) (P := Z) (F := Z) (C := Z) (Z.eqb 0) (fun _ _ _ => true) Z.eqb rdims tev.
Definition pnode := pert_getResult (V := Z) (P := Z) (F := Z) (C := Z) (Z.eqb 0) (fun _ _ _ => true) Z.eqb rdims tev 0 5.
Definition vec := cell [par3; both] [2%nat] None.
Definition scal := cell [par3] [] (Some 77).
Definition out (masks : list Z) : res (tresult Z Z Z Z) := Ok (let fl := match masks with [] => None | _ => Some (plain [2] [1; 2]) end in
  cell [{| d_value := Some 900; d_flags := fl; d_spids := [3; 5]; d_psets := [ps [1; 1] [961; 900]; ps [-1; -1] [841; 900]] |};
        {| d_value := Some 4200; d_flags := fl; d_spids := [3; 5]; d_psets := [ps [1; 1] [4433; 4230]; ps [-1; -1] [3973; 4170]] |};
        {| d_value := Some 170; d_flags := fl; d_spids := [3; 5]; d_psets := [ps [1; 1] [174; 171]; ps [-1; -1] [166; 169]] |}] [3%nat] (Some 77)).
Example ex_values : node [] [vec; scal] None = out [] /\ node [3; 3] [vec; scal] None = out [3; 3] /\ node [3] [vec; scal] None = Err.
Proof. split; [reflexivity|split; reflexivity]. Qed.
(** the hypotheses of [tensor_perturbed_values] and [tensor_succeeds] *)
Example ex_stand : Forall2 (stands_for (C := Z) perturb delta 2 e0) [vec; scal] [[f3; f35]; [f3]].
Proof.
  repeat constructor; eexists; (split; [reflexivity|]); (split; [|discriminate]); first [exact par3_tells|exact both_tells].
Qed.
Example ex_total : forall args, map (@length _) args = map (@length _) [[f3; f35]; [f3]] -> Forall (Forall (fun x => x <> None)) args ->
  exists o, tev args = Ok o /\ (fold_right Nat.mul 1%nat [3%nat] <= length o)%nat.
Proof.
  intros [|[|x [|y [|? ?]]] [|[|z [|? ?]] [|? ?]]] L H; try discriminate. apply Forall_cons_iff in H as [H1 H2]. apply Forall_cons_iff in H1 as [Hx H1]. apply Forall_cons_iff in H1 as [Hy _]. apply Forall_cons_iff in H2 as [H2 _]. apply Forall_cons_iff in H2 as [Hz _].
  destruct x as [x|]; [|contradiction]. destruct y as [y|]; [|contradiction]. destruct z as [z|]; [|contradiction]. eexists. split; [reflexivity|cbn; lia].
Qed.
Example ex_flagging : forall c i f, flagging (Z.eqb 0) [vec; scal] c i f -> usable (v_shape f) (v_data f) /\ subshape (v_shape f) [2].
Proof.
  intros c i f (r & d & v & H1 & H2 & _ & _ & H5). destruct c as [|[|c]]; cbn in H1; try (destruct c; discriminate); injection H1 as <-; destruct i as [|[|i]]; cbn in H2; try discriminate; try (destruct i; discriminate); injection H2 as <-; cbn in H5; try discriminate.
  injection H5 as <-. split; [split; [split; [repeat constructor; lia|reflexivity]|cbn; lia]|]. split; [cbn; lia|]. intro k. now right.
Qed.
(** a missing value; perturbations that disagree; numbers of perturbation sets that differ *)
Definition nothing : vdata Z Z := {| d_value := None; d_flags := None; d_spids := []; d_psets := [] |}.
Definition half : vdata Z Z := {| d_value := Some 30; d_flags := None; d_spids := [3]; d_psets := [ps [2] [32]; ps [-2] [28]] |}.
Example ex_missing : node [] [vec; cell [nothing] [] None] None = Err /\ node [] [vec; {| t_res := failed 4; t_cells := None |}] None = Err.
Proof. split; reflexivity. Qed.
Example ex_disagree : node [] [vec; cell [half] [] None] None = Err /\ node [] [vec; cell [short] [] None] None = UB.
Proof. split; reflexivity. Qed.
Example ex_cells : node [] [vec; cell [par3] [] None] (Some 5) = (match out [] with Ok r => Ok {| t_res := t_res r; t_cells := Some 5 |} | x => x end).
Proof. reflexivity. Qed.
(** the other base class *)
Definition p3 : vdata Z Z := {| d_value := Some 30; d_flags := None; d_spids := [3]; d_psets := [ps [1] [31]] |}.
Definition p35 : vdata Z Z := {| d_value := Some 140; d_flags := None; d_spids := [3; 5]; d_psets := [ps [1; 1] [143; 141]] |}.
Definition c30 : vdata Z Z := {| d_value := Some 30; d_flags := None; d_spids := []; d_psets := [] |}.
Example ex_pert : pnode [] [cell [c30; p35] [2%nat] None; cell [p3] [] None] (Some 6) =
  Ok (cell [{| d_value := Some 900; d_flags := None; d_spids := [3; 5]; d_psets := [ps [1; 1] [930; 900]] |};
            {| d_value := Some 4200; d_flags := None; d_spids := [3; 5]; d_psets := [ps [1; 1] [4433; 4230]] |};
            {| d_value := Some 170; d_flags := None; d_spids := [3; 5]; d_psets := [ps [1; 1] [173; 171]] |}] [3%nat] (Some 6)).
Proof. reflexivity. Qed.
Example ex_pert_two : pnode [] [vec; scal] None = Err.
Proof. reflexivity. Qed.
Definition three : vdata Z Z := {| d_value := Some 30; d_flags := None; d_spids := [3]; d_psets := [ps [1] [31]; ps [-1] [29]; ps [2] [32]] |}.
Example ex_pert_three : pnode [] [cell [three; three] [2%nat] None; cell [three] [] None] None =
  Ok (cell [{| d_value := Some 900; d_flags := None; d_spids := [3]; d_psets := [ps [1] [961]] |};
            {| d_value := Some 900; d_flags := None; d_spids := [3]; d_psets := [ps [1] [961]] |};
            {| d_value := Some 60; d_flags := None; d_spids := [3]; d_psets := [ps [1] [62]] |}] [3%nat] None).
Proof. reflexivity. Qed.
End TfnEx.

(** A node whose flag masks were never set does not pass on the flags of its children; a Function node then lets
    all flags through (Function.cc:109-110). *)
Theorem tensor_default_mask_refuted : ~ forall (V P F C : Type) isNull accepts pert_eqb getResultDims ev (cs : list (tresult V P F C)) req r, tensor_getResult isNull accepts pert_eqb getResultDims ev [] cs req = Ok r ->
  forall c i f, flagging isNull cs c i f -> forall vs, In vs (r_vs (t_res r)) -> exists d, vs = VData d /\ d_flags d <> None.
Proof.
  intro H. specialize (H _ _ _ _ _ _ _ _ _ _ _ _ (proj1 TfnEx.ex_values) 0%nat 1%nat (plain [2] [1; 6])).
  destruct (H (ltac:(exists TfnEx.vec, Fun_Thms.Ex.both, 140; repeat split; now left)) _ (or_introl eq_refl)) as (d & X & Y). injection X as <-. now apply Y.
Qed.
(** Children may have different numbers of perturbation sets, but then the node reads past the end of the shorter list. *)
Theorem tensor_unequal_sets_refuted : ~ forall (V P F C : Type) isNull accepts pert_eqb getResultDims ev flagmask (cs : list (tresult V P F C)) req,
  (forall d, among cs d -> orderly d /\ d_value d <> None) -> (forall l, getResultDims l <> UB) -> (forall args, length args = length cs -> ev args <> UB) -> tensor_getResult isNull accepts pert_eqb getResultDims ev flagmask cs req <> UB.
Proof.
  intro H. pose (e2 := fun l : list (list (option Z)) => match TfnEx.tev l with UB => Err | r => r end).
  apply (H _ _ _ _ (Z.eqb 0) (fun _ _ _ => true) Z.eqb TfnEx.rdims e2 [] [TfnEx.vec; TfnEx.cell [Fun_Thms.Ex.short] [] None] None).
  - intros d (c & [<-|[<-|[]]] & Hc); cbn in Hc; repeat destruct Hc as [Hc|Hc]; try contradiction; injection Hc as <-; (split; [|discriminate]); (split; [repeat constructor|split; repeat constructor; discriminate]).
  - intros l. unfold TfnEx.rdims. destruct l as [|[|[|[|[|?]]] [|? ?]] [|[|? ?] [|? ?]]]; discriminate.
  - intros args _. unfold e2. destruct (TfnEx.tev args); discriminate.
  - reflexivity.
Qed.
(** More than two perturbation sets are not refused: all but the first are dropped. *)
Theorem tensorpert_more_sets_refuted : ~ forall (V P F C : Type) isNull accepts pert_eqb getResultDims ev pzero old flagmask (cs : list (tresult V P F C)) req r, pert_getResult isNull accepts pert_eqb getResultDims ev pzero old flagmask cs req = Ok r ->
  forall d k s p, among cs d -> gives d k s p -> forall vs, In vs (r_vs (t_res r)) -> exists d', vs = VData d' /\ gives d' k s p.
Proof.
  intro H. specialize (H _ _ _ _ _ _ _ _ _ _ _ _ _ _ _ TfnEx.ex_pert_three TfnEx.three 1%nat 3 (-1)).
  destruct (H (ltac:(eexists; split; [left; reflexivity|now left])) (ltac:(eexists _, 0%nat; repeat split)) _ (or_introl eq_refl)) as (d & X & ps & i & Y & _). injection X as <-. discriminate.
Qed.
Print Assumptions tensor_perturbed_values.
Print Assumptions tensor_feeds_functions.
Print Assumptions tensor_succeeds.
Print Assumptions tensor_needs_values.
Print Assumptions tensor_flags.
Print Assumptions tensor_default_mask_refuted.
Print Assumptions tensor_perturbations_agree.
Print Assumptions tensor_unequal_sets_refuted.
Print Assumptions tensor_cells.
Print Assumptions tensorpert_perturbed_values.
Print Assumptions tensorpert_succeeds.
Print Assumptions tensorpert_two_sets.
Print Assumptions tensorpert_more_sets_refuted.
