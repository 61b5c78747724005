(** Perturbations of a tensor node: if the node succeeds, all VellSets that define a spid agree with the result. *)
From Coq Require Import Sorted.
From Verif Require Import Base Poll_Model Vel_Model Vel_Spec Fun_Model Fun_Spec Fun_Proofs Fun_Pert Tfn_Model Tfn_Spec Tfn_Proofs.
Local Open Scope Z_scope.

Section Perts.
Context {V P F C : Type}.
Variable isNull : V -> bool.
Variable accepts : option (vells Z) -> list V -> V -> bool.
Variable pert_eqb : P -> P -> bool.
Variable getResultDims : list (list nat) -> res (list nat).
Variable evaluateTensors : list (list (option V)) -> res (list V).
Hypothesis Eq : forall p q, pert_eqb p q = true -> p = q.

Lemma idx_step s l (d : vdata V P) i : increasing (s :: l) -> increasing (d_spids d) -> idx_inv (s :: l) (Some d) i ->
  match isDefined (d_spids d) s i with
  | (Some k, i') => nth_error (d_spids d) k = Some s /\ idx_inv l (Some d) i'
  | (None, i') => ~ In s (d_spids d) /\ idx_inv l (Some d) i'
  end.
Proof.
  intros Inc Tinc (past & todo & Ed & -> & Hin & Hp). inversion Inc as [|? ? Incl Fl]; subst. rewrite Forall_forall in Fl.
  assert (N0 : nth_error (d_spids d) (length past) = nth_error todo 0) by (rewrite Ed, nth_error_app2 by lia; now rewrite Nat.sub_diag). unfold isDefined. rewrite N0. destruct todo as [|t todo']; cbn [nth_error].
  - split; [rewrite Ed, app_nil_r; intro H; apply (Hp s H); now left|]. exists past, []. rewrite Ed. split; [reflexivity|]. split; [reflexivity|]. split; [easy|]. intros x Hx Hl. apply (Hp x Hx). now right.
  - destruct (Z.eqb_spec s t) as [<-|N].
    + split; [rewrite Ed, nth_error_app2 by lia; now rewrite Nat.sub_diag|]. exists (past ++ [s]), todo'. split; [rewrite <- app_assoc; exact Ed|]. split; [rewrite app_length; cbn; lia|]. split.
      * intros x Hx. destruct (Hin x (or_intror Hx)) as [->|H]; [|exact H].
        rewrite Ed in Tinc. apply sorted_app in Tinc as [_ Tinc]. inversion Tinc as [|? ? _ Ft]; subst. rewrite Forall_forall in Ft. specialize (Ft x Hx). lia.
      * intros x Hx Hl. apply in_app_or in Hx as [Hx|[<-|[]]]; [apply (Hp x Hx); now right|]. specialize (Fl s Hl). lia.
    + assert (Ns : ~ In s (d_spids d)).
      { rewrite Ed. intro H. apply in_app_or in H as [H|[H|H]]; [apply (Hp s H); now left|congruence|].
        assert (t < s). { rewrite Ed in Tinc. apply sorted_app in Tinc as [_ Tinc]. inversion Tinc as [|? ? _ Ft]; subst. rewrite Forall_forall in Ft. now apply Ft. }
        destruct (Hin t (or_introl eq_refl)) as [->|Ht]; [lia|]. specialize (Fl t Ht). lia. }
      split; [exact Ns|]. exists past, (t :: todo'). split; [exact Ed|]. split; [reflexivity|]. split.
      * intros x Hx. destruct (Hin x Hx) as [->|H]; [|exact H]. exfalso. apply Ns. rewrite Ed. apply in_or_app. now right.
      * intros x Hx Hl. apply (Hp x Hx). now right.
Qed.
Lemma pert_loop_perts ich inx : forall (psets : list (pset V P)) (rows rows' : list (list (option V) * option P)),
  pert_loop (fun _ => true) pert_eqb ich inx psets rows = Ok rows' ->
  length rows' = length rows /\
  (forall k vals q, nth_error rows k = Some (vals, Some q) -> exists vals', nth_error rows' k = Some (vals', Some q)) /\
  forall k vals found, nth_error rows k = Some (vals, found) -> exists vals' ps p, nth_error psets k = Some ps /\ nth_error (ps_pert ps) inx = Some p /\ nth_error rows' k = Some (vals', Some p).
Proof.
  intros psets rows. revert psets. induction rows as [|[vals found] rows IH]; intros psets rows' H.
  - assert (X : rows' = []) by (destruct psets; cbn [pert_loop] in H; congruence). subst rows'. split; [reflexivity|]. split; intros [|k]; discriminate.
  - destruct psets as [|ps psets]; [discriminate|]. cbn [pert_loop] in H. destruct (nth_error (ps_val ps) inx) as [pvv|]; [|discriminate]. destruct (nth_error (ps_pert ps) inx) as [p|] eqn:Ep; [|discriminate]. cbn [negb] in H.
    assert (X : exists r, pert_loop (fun _ => true) pert_eqb ich inx psets rows = Ok r /\ rows' = (put_opt vals ich pvv, Some p) :: r /\ (forall q, found = Some q -> q = p)).
    { destruct found as [q|].
      - destruct (pert_eqb q p) eqn:Eqp; [|discriminate]. destruct (pert_loop _ _ _ _ psets rows) as [r| |]; cbn [bind] in H; try discriminate. injection H as <-. exists r. apply Eq in Eqp as ->. split; [reflexivity|]. split; [reflexivity|]. intros q X. congruence.
      - destruct (pert_loop _ _ _ _ psets rows) as [r| |]; cbn [bind] in H; try discriminate. injection H as <-. exists r. split; [reflexivity|]. split; [reflexivity|]. discriminate. }
    destruct X as (r & Er & -> & Hq). destruct (IH psets r Er) as (I1 & I2 & I3). split; [cbn; now rewrite I1|]. split.
    + intros [|k] vals0 q Hk; cbn [nth_error] in *; [|exact (I2 k vals0 q Hk)]. injection Hk as -> ->. rewrite (Hq q eq_refl). eauto.
    + intros [|k] vals0 found0 Hk; cbn [nth_error] in *; [|exact (I3 k vals0 found0 Hk)]. injection Hk as -> ->. exists (put_opt vals0 ich pvv), ps, p. auto.
Qed.
Lemma child_loop_perts s l : increasing (s :: l) -> forall (cs : list (option (vdata V P))) ich indices rows ind' rows',
  (forall d, In (Some d) cs -> orderly d) -> Forall2 (idx_inv (s :: l)) cs indices ->
  child_loop (fun _ => true) pert_eqb ich cs indices s rows = Ok (ind', rows') ->
  Forall2 (idx_inv l) cs ind' /\ length rows' = length rows /\
  (forall k vals q, nth_error rows k = Some (vals, Some q) -> exists vals', nth_error rows' k = Some (vals', Some q)) /\
  forall d k p, In (Some d) cs -> gives d k s p -> (k < length rows)%nat -> exists vals', nth_error rows' k = Some (vals', Some p).
Proof.
  intro Inc. induction cs as [|c cs IH]; intros ich indices rows ind' rows' Or Hi H; inversion Hi as [|? i ? indices' Hi1 Hi2]; subst; cbn [child_loop] in H.
  - injection H as <- <-. split; [constructor|]. split; [reflexivity|]. split; [eauto|]. intros d k p [].
  - assert (Or' : forall d, In (Some d) cs -> orderly d) by (intros d Hd; apply Or; now right). destruct c as [d|].
    + destruct (Or d (or_introl eq_refl)) as (Tinc & _ & Tps). pose proof (idx_step s l d i Inc Tinc Hi1) as St.
      destruct (isDefined (d_spids d) s i) as [[k0|] i'] eqn:Ed.
      * destruct St as [Sk Si]. destruct (pert_loop (fun _ => true) pert_eqb ich k0 (d_psets d) rows) as [rows1| |] eqn:Ep; cbn [bind] in H; try discriminate.
        destruct (child_loop _ _ (S ich) cs indices' s rows1) as [[ind1 rows2]| |] eqn:Ec; cbn [bind fst snd] in H; try discriminate. injection H as <- <-.
        destruct (pert_loop_perts ich k0 (d_psets d) rows rows1 Ep) as (Q1 & Q2 & Q3). destruct (IH _ _ _ _ _ Or' Hi2 Ec) as (J1 & J2 & J3 & J4).
        split; [constructor; [exact Si|exact J1]|]. split; [congruence|]. split.
        -- intros k vals q Hk. destruct (Q2 k vals q Hk) as (vals' & Hk'). exact (J3 k vals' q Hk').
        -- intros d' k p [X|X] Hg Hk; [|apply (J4 d' k p X Hg); now rewrite Q1]. injection X as <-.
           destruct (nth_error rows k) as [[vals found]|] eqn:Er; [|apply nth_error_None in Er; lia]. destruct (Q3 k vals found Er) as (vals' & ps & p' & H1 & H2 & H3).
           destruct Hg as (ps' & i0 & G1 & G2 & G3). rewrite H1 in G1. injection G1 as <-.
           assert (i0 = k0) as ->.
           { clear - Tinc Sk G2. assert (ND : NoDup (d_spids d)) by (clear - Tinc; induction Tinc as [|a l0 Hl IH Ha]; constructor; [intro X; rewrite Forall_forall in Ha; specialize (Ha a X); lia|exact IH]).
             rewrite NoDup_nth_error in ND. apply ND; [apply nth_error_Some; congruence|congruence]. }
           rewrite H2 in G3. injection G3 as ->. exact (J3 k vals' p H3).
      * destruct St as [Sn Si]. cbn [bind] in H. destruct (child_loop _ _ (S ich) cs indices' s rows) as [[ind1 rows2]| |] eqn:Ec; cbn [bind fst snd] in H; try discriminate. injection H as <- <-.
        destruct (IH _ _ _ _ _ Or' Hi2 Ec) as (J1 & J2 & J3 & J4). split; [constructor; [exact Si|exact J1]|]. split; [exact J2|]. split; [exact J3|].
        intros d' k p [X|X] Hg Hk; [|exact (J4 d' k p X Hg Hk)]. injection X as <-. destruct Hg as (ps & i0 & _ & G2 & _). apply nth_error_In in G2. contradiction.
    + destruct (child_loop _ _ (S ich) cs indices' s rows) as [[ind1 rows2]| |] eqn:Ec; cbn [bind fst snd] in H; try discriminate. injection H as <- <-.
      destruct (IH _ _ _ _ _ Or' Hi2 Ec) as (J1 & J2 & J3 & J4). split; [constructor; [exact Logic.I|exact J1]|]. split; [exact J2|]. split; [exact J3|].
      intros d' k p [X|X] Hg Hk; [discriminate|exact (J4 d' k p X Hg Hk)].
Qed.
Lemma eval_tensor_rows_perts sizes nres flags : forall rows held r held', eval_tensor_rows accepts evaluateTensors sizes nres flags rows held = Ok (r, held') ->
  map (fun x => Some (fst x)) r = map snd rows /\ Forall (fun x : P * list V => length (snd x) = nres) r.
Proof.
  induction rows as [|[vals found] rows IH]; intros held r held' H; cbn [eval_tensor_rows] in H; [injection H as <- <-; split; [reflexivity|constructor]|].
  destruct found as [p|]; [|discriminate]. destruct (evaluate_all evaluateTensors sizes nres vals) as [vs| |] eqn:Ev; cbn [bind] in H; try discriminate.
  destruct (accept_all _ _ _ _); [|discriminate]. destruct (eval_tensor_rows _ _ _ _ _ rows (hold held vs)) as [[r' h']| |] eqn:Er; cbn [bind] in H; try discriminate. injection H as <- <-.
  destruct (IH _ _ _ Er) as [I1 I2]. cbn [map]. rewrite I1. split; [reflexivity|]. constructor; [|exact I2]. cbn [snd].
  unfold evaluate_all in Ev. destruct (evaluateTensors _) as [out| |]; cbn [bind] in Ev; try discriminate. now apply outputs_len in Ev.
Qed.
Lemma tensor_spid_loop_perts (all : list (option (vdata V P))) values sizes nres npert flags : (forall d, In (Some d) all -> orderly d) ->
  forall spids indices held rws, increasing spids -> Forall2 (idx_inv spids) all indices ->
  tensor_spid_loop accepts pert_eqb evaluateTensors all values sizes nres npert flags spids indices held = Ok rws ->
  Forall2 (fun s x => length x = npert /\ Forall (fun y => length (snd y) = nres) x /\ forall d k p, In (Some d) all -> gives d k s p -> (k < npert)%nat -> exists vs, nth_error x k = Some (p, vs)) spids rws.
Proof.
  intro Or. induction spids as [|s spids IH]; intros indices held rws Inc Hi H; cbn [tensor_spid_loop] in H; [injection H as <-; constructor|].
  destruct (child_loop _ _ _ _ _ _ _) as [[ind' rows']| |] eqn:Ec; cbn [bind] in H; try discriminate.
  destruct (eval_tensor_rows _ _ _ _ _ _ _) as [[r held']| |] eqn:Er; cbn [bind] in H; try discriminate.
  destruct (tensor_spid_loop _ _ _ _ _ _ _ _ _ spids _ _) as [rest| |] eqn:Es; cbn [bind] in H; try discriminate. injection H as <-.
  destruct (child_loop_perts s spids Inc all 0%nat indices _ ind' rows' Or Hi Ec) as (J1 & J2 & _ & J4). rewrite repeat_length in J2, J4.
  destruct (eval_tensor_rows_perts _ _ _ _ _ _ _ Er) as [K1 K2]. constructor.
  - assert (Lr : length r = npert) by (rewrite <- J2, <- (map_length snd rows'), <- K1; now rewrite map_length). split; [exact Lr|]. split; [exact K2|].
    intros d k p Hd Hg Hk. destruct (J4 d k p Hd Hg Hk) as (vals' & Hr). apply (map_nth_error snd) in Hr. rewrite <- K1, nth_error_map in Hr. cbn [snd] in Hr. destruct (nth_error r k) as [[p' vs]|]; [|discriminate]. cbn in Hr. injection Hr as ->. eauto.
  - inversion Inc as [|? ? Inc' _]; subst. exact (IH ind' held' rest Inc' J1 Es).
Qed.
Lemma with_values_inv : forall (vs : list (vset V P F)) r, with_values vs = Ok r -> map VData r = vs /\ Forall (fun d => d_value d <> None) r.
Proof.
  induction vs as [|[l|d] vs IH]; intros r H; cbn [with_values] in H; [injection H as <-; split; [reflexivity|constructor]|discriminate|].
  destruct (d_value d) as [v|] eqn:Ed; [|discriminate]. destruct (with_values vs) as [r'| |]; cbn [bind] in H; try discriminate. injection H as <-. destruct (IH r' eq_refl) as [<- I2].
  split; [reflexivity|]. constructor; [congruence|exact I2].
Qed.
Lemma collect_inv : forall (cs : list (tresult V P F C)) pvs, collect_children cs = Ok pvs ->
  map (fun c => r_vs (t_res c)) cs = map (map VData) pvs /\ Forall (Forall (fun d => d_value d <> None)) pvs.
Proof.
  induction cs as [|c cs IH]; intros pvs H; cbn [collect_children] in H; [injection H as <-; split; [reflexivity|constructor]|].
  destruct (with_values (r_vs (t_res c))) as [vs| |] eqn:Ev; cbn [bind] in H; try discriminate. destruct (collect_children cs) as [r| |]; cbn [bind] in H; try discriminate. injection H as <-.
  destruct (IH r eq_refl) as [I1 I2]. apply with_values_inv in Ev as [E1 E2]. cbn [map]. rewrite I1, E1. split; [reflexivity|constructor; assumption].
Qed.
Lemma among_concat (cs : list (tresult V P F C)) pvs d : collect_children cs = Ok pvs -> (among cs d <-> In d (concat pvs)).
Proof.
  intro H. apply collect_inv in H as [H _]. unfold among. rewrite in_concat. split.
  - intros (c & Hc & Hd). apply (in_map (fun c => r_vs (t_res c))) in Hc. rewrite H in Hc. apply in_map_iff in Hc as (l & Hl & Hc). rewrite <- Hl in Hd. apply in_map_iff in Hd as (d' & X & Hd). injection X as <-. eauto.
  - intros (l & Hl & Hd). apply (in_map (map (@VData V P F))) in Hl. rewrite <- H in Hl. apply in_map_iff in Hl as (c & Hc & Hin). exists c. split; [exact Hin|]. rewrite Hc. now apply in_map.
Qed.
Lemma max_ge : forall (cs : list (option (vdata V P))) a, (a <= fold_left (fun m c => match c with Some d => Nat.max m (numPertSets d) | None => m end) cs a)%nat /\
  forall d, In (Some d) cs -> (numPertSets d <= fold_left (fun m c => match c with Some d => Nat.max m (numPertSets d) | None => m end) cs a)%nat.
Proof.
  induction cs as [|c cs IH]; intro a; cbn [fold_left]; [split; [lia|easy]|]. destruct c as [d|].
  - destruct (IH (Nat.max a (numPertSets d))) as [I1 I2]. split; [lia|]. intros d' [X|X]; [injection X as <-; lia|now apply I2].
  - destruct (IH a) as [I1 I2]. split; [lia|]. intros d' [X|X]; [discriminate|now apply I2].
Qed.
Lemma orderly_spids (cs : list (option (vdata V P))) npert merged : (forall d, In (Some d) cs -> orderly d) -> findSpids cs = (npert, merged) ->
  increasing merged /\ (forall s, In s merged <-> exists d, In (Some d) cs /\ In s (d_spids d)) /\ forall d, In (Some d) cs -> d_spids d <> [] -> (numPertSets d <= npert)%nat.
Proof.
  intros Or Ef. set (spids := map (fun c : option (vdata V P) => match c with Some d => d_spids d | None => [] end) cs).
  assert (Inc : Forall increasing spids) by (unfold spids; apply Forall_map, Forall_forall; intros [d|] Hd; [apply (Or d Hd)|constructor]).
  assert (Cs : forall x, In x (concat spids) <-> exists d, In (Some d) cs /\ In x (d_spids d)).
  { intro x. rewrite in_concat. unfold spids. split.
    - intros (l & Hl & Hx). apply in_map_iff in Hl as ([d|] & <- & Hd); [eauto|contradiction].
    - intros (d & Hd & Hx). exists (d_spids d). split; [|exact Hx]. apply in_map_iff. exists (Some d). auto. }
  assert (Pos : forall x, In x (concat spids) -> 0 <= x) by (intros x Hx; apply Cs in Hx as (d & Hd & Hx); destruct (Or d Hd) as (_ & T & _); rewrite Forall_forall in T; now apply T).
  destruct (merged_spids_spec spids Inc Pos) as [Minc Min]. unfold findSpids in Ef. fold spids in Ef. destruct (concat spids) as [|x l] eqn:Ec.
  - injection Ef as <- <-. split; [constructor|]. split; [exact Cs|]. intros d Hd Hs. destruct (d_spids d) as [|s0 l0] eqn:Ed; [contradiction|]. destruct (proj2 (Cs s0)). exists d. split; [exact Hd|rewrite Ed; now left].
  - injection Ef as <- <-. split; [exact Minc|]. split; [intro s; rewrite Min; apply Cs|]. intros d Hd _. now apply (proj2 (max_ge cs 0%nat)).
Qed.
End Perts.
