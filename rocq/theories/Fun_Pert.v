(** The perturbed values of a Function node. *)
From Coq Require Import Sorted.
From Verif Require Import Base Poll_Model Vel_Model Fun_Model Fun_Spec Fun_Proofs.
Local Open Scope Z_scope.

(** what a result must satisfy; errors only if things are not [clean], undefined behaviour only if [ub] *)
Definition spec {A} (clean ub : Prop) (r : res A) (Q : A -> Prop) : Prop := match r with Ok a => Q a | Err => ~ clean | UB => ub end.
Lemma spec_bind {A B} clean ub (r : res A) (k : A -> res B) Q R : spec clean ub r Q -> (forall a, Q a -> spec clean ub (k a) R) -> spec clean ub (bind r k) R.
Proof. destruct r; cbn; auto. Qed.
Lemma spec_imp {A} clean ub (r : res A) (Q R : A -> Prop) : spec clean ub r Q -> (forall a, Q a -> R a) -> spec clean ub r R.
Proof. destruct r; cbn; auto. Qed.

Lemma put_opt_app {V} (a : list (option V)) x b y : put_opt (a ++ x :: b) (length a) y = a ++ Some y :: b.
Proof. induction a as [|z a IH]; cbn; [reflexivity|]. now rewrite IH. Qed.
Lemma Forall2_len {A B} (R : A -> B -> Prop) l m : Forall2 R l m -> length l = length m.
Proof. induction 1; cbn; auto. Qed.

Section Pert.
Context {V P F E : Type}.
Variable clean ub : Prop.
Variable isNull : V -> bool.
Variable compat : V -> bool.
Variable accepts : option (vells Z) -> list V -> V -> bool.
Variable pert_eqb : P -> P -> bool.
Variable evaluate : list (option V) -> res V.
Variable perturb : E -> Z -> P -> E.
Variable delta : nat -> Z -> P.
Variable n : nat.
Variable e : E.
Hypothesis Cc : clean -> forall v, compat v = true.
Hypothesis Ce : clean -> forall p, pert_eqb p p = true.
Hypothesis Ca : clean -> forall f l v, accepts f l v = true.

Definition rel (c : option (vdata V P)) (f : E -> option V) : Prop :=
  match c with
  | Some d => tells perturb delta n e d f /\ d_value d <> None
  | None => f e = None /\ forall k s, (k < n)%nat -> f (perturb e s (delta k s)) = None
  end.
Definition has_spid (s : Z) (c : option (vdata V P)) : bool := match c with Some d => existsb (Z.eqb s) (d_spids d) | None => false end.
Lemma has_spid_in s d : has_spid s (Some d) = true <-> In s (d_spids d).
Proof. cbn. rewrite existsb_exists. split; [intros (x & H & E0); apply Z.eqb_eq in E0 as ->; exact H|intro H; exists s; split; [exact H|apply Z.eqb_refl]]. Qed.

Lemma pert_loop_ok s ich inx (w : nat -> V) (vals : nat -> list (option V)) (fd : nat -> option P) :
  (forall k, fd k = None \/ fd k = Some (delta k s)) -> forall psets k0,
  (forall i ps, nth_error psets i = Some ps -> nth_error (ps_pert ps) inx = Some (delta (k0 + i)%nat s) /\ nth_error (ps_val ps) inx = Some (w (k0 + i)%nat)) ->
  spec clean ub (pert_loop compat pert_eqb ich inx psets (map (fun k => (vals k, fd k)) (seq k0 (length psets))))
    (fun r => r = map (fun k => (put_opt (vals k) ich (w k), Some (delta k s))) (seq k0 (length psets))).
Proof.
  intros Hf. induction psets as [|ps psets IH]; intros k0 H; [reflexivity|]. cbn [length seq map pert_loop].
  destruct (H O ps eq_refl) as [E1 E2]. rewrite Nat.add_0_r in E1, E2. rewrite E1, E2.
  destruct (compat (w k0)) eqn:Cw; cbn [negb]; [|intro Cl; rewrite (Cc Cl) in Cw; discriminate].
  assert (H' : forall i q, nth_error psets i = Some q -> nth_error (ps_pert q) inx = Some (delta (S k0 + i)%nat s) /\ nth_error (ps_val q) inx = Some (w (S k0 + i)%nat)).
  { intros i q Hq. specialize (H (S i) q Hq). now rewrite Nat.add_succ_comm. }
  destruct (Hf k0) as [-> | ->].
  - eapply spec_bind; [exact (IH (S k0) H')|]. intros r ->. reflexivity.
  - destruct (pert_eqb (delta k0 s) (delta k0 s)) eqn:Ee; [|intro Cl; rewrite (Ce Cl) in Ee; discriminate].
    eapply spec_bind; [exact (IH (S k0) H')|]. intros r ->. reflexivity.
Qed.

Definition rows (s : Z) (pre suf : list (E -> option V)) (any : bool) : list (list (option V) * option P) :=
  map (fun k => (map (fun f => f (perturb e s (delta k s))) pre ++ map (fun f => f e) suf, if any then Some (delta k s) else None)) (seq 0 n).
Definition idx_inv (l : list Z) (c : option (vdata V P)) (i : nat) : Prop :=
  match c with
  | None => True
  | Some d => exists past todo, d_spids d = past ++ todo /\ i = length past /\ incl todo l /\ forall x, In x past -> ~ In x l
  end.
Lemma rows_shift s pre f fs any : (forall k, (k < n)%nat -> f (perturb e s (delta k s)) = f e) -> rows s pre (f :: fs) any = rows s (pre ++ [f]) fs any.
Proof. intro H. unfold rows. apply map_ext_in. intros k Hk. apply in_seq in Hk. rewrite map_app, <- app_assoc. cbn. rewrite H by lia. reflexivity. Qed.

Lemma nth_map_some {A B} (g : A -> option B) : forall l m i x, map Some m = map g l -> nth_error l i = Some x -> exists y, nth_error m i = Some y /\ g x = Some y.
Proof.
  induction l as [|a l IH]; intros [|b m] i x Em Hi; try discriminate; [destruct i; discriminate|]. cbn in Em. injection Em as E1 E2.
  destruct i as [|i]; cbn in *; [injection Hi as <-; eauto|eauto].
Qed.
Lemma child_loop_ok s l : increasing (s :: l) -> forall cs fs, Forall2 rel cs fs -> forall indices pre any,
  Forall2 (idx_inv (s :: l)) cs indices ->
  spec clean ub (child_loop compat pert_eqb (length pre) cs indices s (rows s pre fs any))
    (fun r => Forall2 (idx_inv l) cs (fst r) /\ snd r = rows s (pre ++ fs) [] (any || existsb (has_spid s) cs)).
Proof.
  intro Inc. induction 1 as [|c f cs fs Rc R IH]; intros indices pre any Hi.
  - inversion Hi; subst. cbn. split; [constructor|]. now rewrite app_nil_r, orb_false_r.
  - inversion Hi as [|? i ? indices' Hi1 Hi2]; subst. destruct c as [d|].
    + destruct Rc as [T Nv]. destruct Hi1 as (past & todo & Ed & -> & Hin & Hp). cbn [child_loop].
      inversion Inc as [|? ? Incl Fl]; subst. rewrite Forall_forall in Fl.
      destruct T as (Tv & Tinc & Tpos & Tle & Tlen & Tps & Tind).
      unfold isDefined. rewrite Ed, nth_error_app2 by lia. rewrite Nat.sub_diag.
      assert (Case : (exists todo', todo = s :: todo') \/ ~ In s (d_spids d) /\ match todo with t :: _ => t <> s | [] => True end).
      { destruct todo as [|t todo'].
        - right. split; [|exact Logic.I]. rewrite Ed, app_nil_r. intro H. apply (Hp s H). now left.
        - destruct (Z.eq_dec t s) as [->|N]; [left; eauto|]. right. split; [|exact N].
          rewrite Ed. intro H. apply in_app_or in H as [H|[H|H]]; [apply (Hp s H); now left|congruence|].
          assert (t < s). { rewrite Ed in Tinc. apply sorted_app in Tinc as [_ Tinc]. inversion Tinc as [|? ? _ Ft]; subst. rewrite Forall_forall in Ft. now apply Ft. }
          destruct (Hin t (or_introl eq_refl)) as [->|Ht]; [lia|]. specialize (Fl t Ht). lia. }
      destruct Case as [(todo' & ->)|[Ns Nt]].
      * cbn [nth_error]. rewrite Z.eqb_refl.
        assert (Sin : In s (d_spids d)) by (rewrite Ed; apply in_or_app; right; now left).
        destruct Tlen as [Tlen _]; [intro X; rewrite X in Sin; contradiction|].
        assert (Ni : nth_error (d_spids d) (length past) = Some s) by (rewrite Ed, nth_error_app2 by lia; rewrite Nat.sub_diag; reflexivity).
        (* the perturbed values *)
        assert (W : exists w, forall k, (k < n)%nat -> f (perturb e s (delta k s)) = Some (w k)).
        { destruct (d_value d) as [v0|] eqn:Ev; [|contradiction].
          exists (fun k => match f (perturb e s (delta k s)) with Some v => v | None => v0 end). intros k Hk.
          destruct (nth_error (d_psets d) k) as [ps|] eqn:Ep; [|apply nth_error_None in Ep; lia].
          destruct (Tps k ps Ep) as [_ Tv2]. destruct (nth_map_some _ _ _ _ _ Tv2 Ni) as (y & _ & Y). now rewrite Y. }
        destruct W as (w & W).
        eapply spec_bind.
        { unfold rows. rewrite <- Tlen. apply pert_loop_ok with (s := s) (w := w).
          - intro k. destruct any; auto.
          - intros j ps Ep. cbn [plus]. destruct (Tps j ps Ep) as [Tp Tv2].
            assert (j < n)%nat by (rewrite <- Tlen; apply nth_error_Some; rewrite Ep; discriminate).
            split; [rewrite Tp; now apply map_nth_error|]. destruct (nth_map_some _ _ _ _ _ Tv2 Ni) as (y & Y1 & Y2). rewrite Y1. rewrite W in Y2 by assumption. congruence. }
        intros r ->. eapply spec_bind.
        { specialize (IH indices' (pre ++ [f]) true Hi2). rewrite app_length in IH. cbn [length] in IH. rewrite Nat.add_1_r in IH.
          replace (map _ (seq 0 (length (d_psets d)))) with (rows s (pre ++ [f]) fs true); [exact IH|].
          unfold rows. rewrite Tlen. apply map_ext_in. intros k Hk. apply in_seq in Hk. f_equal. cbn [map]. rewrite map_app, <- app_assoc. cbn [map app].
          rewrite W by lia.
          replace (length pre) with (length (map (fun f0 : E -> option V => f0 (perturb e s (delta k s))) pre)) by apply map_length. rewrite put_opt_app. reflexivity. }
        intros [ind' rows'] [I1 I2]. cbn [fst snd spec] in *. split.
        -- constructor; [|exact I1]. cbn. exists (past ++ [s]), todo'. split; [rewrite <- app_assoc; exact Ed|]. split; [rewrite app_length; cbn; lia|]. split.
           ++ intros x Hx. destruct (Hin x (or_intror Hx)) as [->|H]; [|exact H].
              rewrite Ed in Tinc. apply sorted_app in Tinc as [_ Tinc]. inversion Tinc as [|? ? _ Ft]; subst. rewrite Forall_forall in Ft. specialize (Ft x Hx). lia.
           ++ intros x Hx Hl. apply in_app_or in Hx as [Hx|[<-|[]]]; [apply (Hp x Hx); now right|]. specialize (Fl s Hl). lia.
        -- rewrite I2, <- app_assoc. cbn [app existsb]. replace (has_spid s (Some d)) with true by (symmetry; apply has_spid_in; exact Sin). now rewrite orb_true_r.
      * assert (D : isDefined (past ++ todo) s (length past) = (None, length past)).
        { unfold isDefined. rewrite nth_error_app2 by lia. rewrite Nat.sub_diag. destruct todo as [|t todo']; [reflexivity|]. cbn. destruct (Z.eqb_spec s t); [congruence|reflexivity]. }
        unfold isDefined in D. rewrite nth_error_app2 in D by lia. rewrite Nat.sub_diag in D. rewrite D. cbn [bind].
        assert (Hs : has_spid s (Some d) = false) by (destruct (has_spid s (Some d)) eqn:X; [apply has_spid_in in X; contradiction|reflexivity]).
        eapply spec_bind.
        { rewrite rows_shift by (intros k Hk; now apply Tind). specialize (IH indices' (pre ++ [f]) any Hi2). rewrite app_length in IH. cbn [length] in IH. rewrite Nat.add_1_r in IH. exact IH. }
        intros [ind' rows'] [I1 I2]. cbn [fst snd spec] in *. split.
        -- constructor; [|exact I1]. cbn. exists past, todo. split; [exact Ed|]. split; [reflexivity|]. split.
           ++ intros x Hx. destruct (Hin x Hx) as [->|H]; [|exact H]. exfalso. apply Ns. rewrite Ed. apply in_or_app. now right.
           ++ intros x Hx Hl. apply (Hp x Hx). now right.
        -- rewrite I2, <- app_assoc. cbn [app existsb]. now rewrite Hs.
    + destruct Rc as [R1 R2]. cbn [child_loop]. eapply spec_bind.
      { rewrite rows_shift by (intros k Hk; rewrite R1; now apply R2). specialize (IH indices' (pre ++ [f]) any Hi2). rewrite app_length in IH. cbn [length] in IH. rewrite Nat.add_1_r in IH. exact IH. }
      intros [ind' rows'] [I1 I2]. cbn [fst snd spec] in *. split; [constructor; [exact Logic.I|exact I1]|]. rewrite I2, <- app_assoc. reflexivity.
Qed.

Lemma eval_rows_ok flags s (row : nat -> list (option V)) : forall ks held,
  (forall k, In k ks -> spec clean ub (evaluate (row k)) (fun _ => True)) ->
  spec clean ub (eval_rows accepts evaluate flags (map (fun k => (row k, Some (delta k s))) ks) held)
    (fun r => map fst r = map (fun k => delta k s) ks /\ map (fun pv => Ok (snd pv)) r = map (fun k => evaluate (row k)) ks).
Proof.
  induction ks as [|k ks IH]; intros held H; [split; reflexivity|]. cbn [map eval_rows].
  pose proof (H k (or_introl eq_refl)) as Hk. destruct (evaluate (row k)) as [v| |] eqn:Ev; cbn [bind]; [|exact Hk|exact Hk].
  destruct (accepts flags held v) eqn:Ac; [|intro Cl; rewrite (Ca Cl) in Ac; discriminate].
  eapply spec_bind; [apply IH; intros k' Hk'; apply H; now right|]. intros r [H1 H2]. cbn. now rewrite H1, H2.
Qed.
Definition row_at (fs : list (E -> option V)) (s : Z) (k : nat) : list (option V) := map (fun f => f (perturb e s (delta k s))) fs.
Lemma spid_loop_ok flags cs fs : Forall2 rel cs fs ->
  (forall s k, (k < n)%nat -> spec clean ub (evaluate (row_at fs s k)) (fun _ => True)) ->
  forall l indices held, increasing l -> (forall s, In s l -> existsb (has_spid s) cs = true) -> Forall2 (idx_inv l) cs indices ->
  spec clean ub (spid_loop compat accepts pert_eqb evaluate cs (map (fun f => f e) fs) n flags l indices held)
    (fun r => Forall2 (fun s x => map fst x = map (fun k => delta k s) (seq 0 n) /\ map (fun pv => Ok (snd pv)) x = map (fun k => evaluate (row_at fs s k)) (seq 0 n)) l r).
Proof.
  intros R Cev. induction l as [|s l IH]; intros indices held Inc Hs Hi; [constructor|]. cbn [spid_loop].
  eapply spec_bind.
  { assert (X : repeat (map (fun f => f e) fs, None) n = rows s [] fs false).
    { unfold rows. cbn [map app]. generalize 0%nat. generalize n. induction n0 as [|m IHm]; intro k; [reflexivity|]. cbn. now rewrite <- IHm. }
    rewrite X. apply (child_loop_ok s l Inc cs fs R indices [] false Hi). }
  intros [ind' rws] [I1 I2]. cbn [fst snd] in *. cbn [app orb] in I2. rewrite (Hs s (or_introl eq_refl)) in I2. subst rws. eapply spec_bind.
  { unfold rows. cbn [map]. replace (map _ (seq 0 n)) with (map (fun k => (row_at fs s k, Some (delta k s))) (seq 0 n)) by (apply map_ext; intro k; unfold row_at; now rewrite app_nil_r).
    apply eval_rows_ok. intros k Hk. apply in_seq in Hk. apply Cev. lia. }
  intros r Hr. eapply spec_bind.
  { inversion Inc; subst. apply IH; [assumption|intros x Hx; apply Hs; now right|exact I1]. }
  intros rest Hrest. cbn. constructor; auto.
Qed.

(** the node as a function of the parameters *)
Definition node_fun (allow : bool) (fs : list (E -> option V)) (e' : E) : option V := node_value allow evaluate (map (fun f => f e') fs).
Definition missing (x : option V) : bool := match x with None => true | Some _ => false end.
Lemma missing_same cs fs k s : Forall2 rel cs fs -> (k < n)%nat -> map missing (map (fun f => f (perturb e s (delta k s))) fs) = map missing (map (fun f => f e) fs).
Proof.
  intros R Hk. induction R as [|c f cs fs Rc R IH]; [reflexivity|]. cbn [map]. f_equal; [|exact IH]. destruct c as [d|].
  - destruct Rc as [(Tv & _ & _ & Tle & Tlen & Tps & Tind) Nv]. destruct (in_dec Z.eq_dec s (d_spids d)) as [Hs|Hs]; [|now rewrite Tind].
    destruct Tlen as [Tlen _]; [intro X; rewrite X in Hs; contradiction|]. destruct (nth_error (d_psets d) k) as [ps|] eqn:Ep; [|apply nth_error_None in Ep; lia].
    destruct (Tps k ps Ep) as [_ Tv2]. apply In_nth_error in Hs as (i & Hs). destruct (nth_map_some _ _ _ _ _ Tv2 Hs) as (y & _ & Y). rewrite Y, <- Tv. destruct (d_value d); [reflexivity|contradiction].
  - destruct Rc as [R1 R2]. now rewrite R1, R2.
Qed.
Definition cut (allow : bool) (ms : list bool) : bool := existsb (fun b => b) ms && (forallb (fun b => b) ms || negb allow).
Lemma node_value_cut allow xs : node_value allow evaluate xs = if cut allow (map missing xs) then None else match evaluate xs with Ok v => Some v | _ => None end.
Proof.
  unfold node_value, cut. assert (E1 : existsb (fun b : bool => b) (map missing xs) = existsb missing xs) by (induction xs as [|x xs IH]; [reflexivity|]; cbn; now rewrite IH).
  assert (E2 : forallb (fun b : bool => b) (map missing xs) = forallb missing xs) by (clear E1; induction xs as [|x xs IH]; [reflexivity|]; cbn; now rewrite IH).
  rewrite E1, E2. reflexivity.
Qed.
Lemma psets_ok fs k : (k < n)%nat -> forall l rws,
  Forall2 (fun s x => map fst x = map (fun k => delta k s) (seq 0 n) /\ map (fun pv => Ok (snd pv)) x = map (fun k => evaluate (row_at fs s k)) (seq 0 n)) l rws ->
  ps_pert (pset_of rws k) = map (delta k) l /\ map (fun v => Ok v) (ps_val (pset_of rws k)) = map (fun s => evaluate (row_at fs s k)) l.
Proof.
  intro Hk. induction 1 as [|s x l rws [H1 H2] H IH]; [split; reflexivity|]. unfold pset_of in *. cbn [ps_pert ps_val flat_map map] in *.
  assert (Lx : length x = n) by (rewrite <- (map_length fst x), H1, map_length, seq_length; reflexivity).
  destruct (nth_error x k) as [[p v]|] eqn:Ex; [|apply nth_error_None in Ex; lia].
  pose proof (map_nth_error fst k x Ex) as A1. rewrite H1 in A1. rewrite nth_error_map, (nth_error_nth' _ 0%nat) in A1 by (rewrite seq_length; exact Hk). rewrite seq_nth in A1 by exact Hk. cbn in A1. injection A1 as A1.
  pose proof (map_nth_error (fun pv => Ok (snd pv)) k x Ex) as A2. rewrite H2 in A2. rewrite nth_error_map, (nth_error_nth' _ 0%nat) in A2 by (rewrite seq_length; exact Hk). rewrite seq_nth in A2 by exact Hk. cbn in A2. injection A2 as A2.
  destruct IH as [I1 I2]. split; [cbn; now rewrite I1, A1|]. cbn. now rewrite I2, A2.
Qed.
Lemma concat_spids (cs : list (option (vdata V P))) s : In s (concat (map (fun c => match c with Some d => d_spids d | None => [] end) cs)) <-> existsb (has_spid s) cs = true.
Proof.
  induction cs as [|c cs IH]; [cbn; split; [easy|discriminate]|]. cbn [map concat existsb]. rewrite in_app_iff, IH, orb_true_iff. destruct c as [d|]; [rewrite has_spid_in; tauto|]. cbn. intuition discriminate.
Qed.
Lemma fold_max (cs : list (option (vdata V P))) : forall a, (a <= n)%nat -> Forall (fun c => match c with Some d => (numPertSets d <= n)%nat | None => True end) cs ->
  let r := fold_left (fun m c => match c with Some d => Nat.max m (numPertSets d) | None => m end) cs a in
  (a <= r <= n)%nat /\ forall d, In (Some d) cs -> (numPertSets d <= r)%nat.
Proof.
  induction cs as [|c cs IH]; intros a Ha H; [cbn; split; [lia|easy]|]. inversion H as [|? ? H1 H2]; subst. cbn [fold_left]. destruct c as [d|].
  - destruct (IH (Nat.max a (numPertSets d)) ltac:(lia) H2) as [I1 I2]. cbv zeta. split; [lia|]. intros d' [X|X]; [injection X as <-; lia|now apply I2].
  - destruct (IH a Ha H2) as [I1 I2]. cbv zeta. split; [lia|]. intros d' [X|X]; [discriminate|now apply I2].
Qed.
Lemma rel_in cs fs d : Forall2 rel cs fs -> In (Some d) cs -> exists f, tells perturb delta n e d f /\ d_value d <> None.
Proof. induction 1 as [|c f cs fs Rc R IH]; [easy|]. intros [->|H]; [exists f; exact Rc|now apply IH]. Qed.

(** the VellSet, once the flags are known *)
Definition compute_with (cs : list (option (vdata V P))) (values : list (option V)) (flags : option (vells Z)) : res (vdata V P) :=
  let (npert, spids) := findSpids cs in
  bind (evaluate values) (fun v =>
  if accepts flags [] v then
    bind (spid_loop compat accepts pert_eqb evaluate cs values npert flags spids (map (fun _ => O) cs) [v]) (fun rows =>
    Ok {| d_value := Some v; d_flags := flags; d_spids := spids; d_psets := map (pset_of rows) (seq 0 npert) |})
  else Err).
Lemma compute_split cs values masks : compute isNull compat accepts pert_eqb evaluate cs values masks = bind (evaluateFlags isNull cs masks None) (compute_with cs values).
Proof. unfold compute, compute_with. destruct (findSpids cs) as [npert spids]. reflexivity. Qed.
(** the function that [evaluate] makes of the functions of the children *)
Definition made (fs : list (E -> option V)) (e' : E) : option V := match evaluate (map (fun f => f e') fs) with Ok v => Some v | _ => None end.
Lemma compute_with_ok flags cs fs : Forall2 rel cs fs ->
  spec clean ub (evaluate (map (fun f => f e) fs)) (fun _ => True) ->
  (forall s k, (k < n)%nat -> spec clean ub (evaluate (row_at fs s k)) (fun _ => True)) ->
  spec clean ub (compute_with cs (map (fun f => f e) fs) flags)
    (fun d => tells perturb delta n e d (made fs) /\ d_value d <> None /\ d_flags d = flags).
Proof.
  intros R Cv Cp. unfold compute_with.
  set (spids := map (fun c : option (vdata V P) => match c with Some d => d_spids d | None => [] end) cs).
  assert (Inc : Forall increasing spids).
  { unfold spids. apply Forall_map, Forall_forall. intros [d|] Hd; [|constructor]. destruct (rel_in _ _ _ R Hd) as (f & T & _). apply T. }
  assert (Pos : forall x, In x (concat spids) -> 0 <= x).
  { intros x Hx. apply in_concat in Hx as (l & Hl & Hx). unfold spids in Hl. apply in_map_iff in Hl as ([d|] & <- & Hd); [|contradiction].
    destruct (rel_in _ _ _ R Hd) as (f & T & _). destruct T as (_ & _ & T & _). rewrite Forall_forall in T. now apply T. }
  destruct (merged_spids_spec spids Inc Pos) as [Minc Min].
  (* parameters no child depends on *)
  assert (Ind : forall k s, (k < n)%nat -> ~ In s (concat spids) -> made fs (perturb e s (delta k s)) = made fs e).
  { intros k s Hk Hs. unfold made. assert (X : map (fun f => f (perturb e s (delta k s))) fs = map (fun f => f e) fs); [|now rewrite X].
    assert (Q : forall d, In (Some d) cs -> ~ In s (d_spids d)).
    { intros d Hd X. apply Hs. apply in_concat. exists (d_spids d). split; [|exact X]. unfold spids. apply in_map_iff. exists (Some d). auto. }
    clear - R Q Hk. induction R as [|c f cs fs Rc R IH]; [reflexivity|]. cbn [map]. f_equal; [|apply IH; intros d Hd; apply Q; now right].
    destruct c as [d|]; [destruct Rc as [T _]; apply T; [exact Hk|apply Q; now left]|]. destruct Rc as [R1 R2]. rewrite R1. now apply R2. }
  destruct (findSpids cs) as [npert merged] eqn:Ef.
  assert (Fs : merged = merged_spids spids /\ (merged <> [] -> npert = n) /\ (npert <= n)%nat).
  { unfold findSpids in Ef. fold spids in Ef. destruct (concat spids) as [|x l] eqn:Ec.
    - injection Ef as <- <-. split; [|split; [easy|lia]]. destruct (merged_spids spids) as [|y m] eqn:Em; [reflexivity|]. destruct (proj1 (Min y) (or_introl eq_refl)).
    - injection Ef as <- <-. split; [reflexivity|].
      assert (Bd : Forall (fun c : option (vdata V P) => match c with Some d => (numPertSets d <= n)%nat | None => True end) cs).
      { apply Forall_forall. intros [d|] Hd; [|exact Logic.I]. destruct (rel_in _ _ _ R Hd) as (f & T & _). apply T. }
      destruct (fold_max cs 0%nat ltac:(lia) Bd) as [I1 I2]. split; [|lia]. intros _.
      assert (Hx : existsb (has_spid x) cs = true) by (apply concat_spids; fold spids; rewrite Ec; now left).
      apply existsb_exists in Hx as ([d|] & Hd & Hx); [|discriminate]. apply has_spid_in in Hx. specialize (I2 d Hd).
      destruct (rel_in _ _ _ R Hd) as (f & T & _). destruct T as (_ & _ & _ & _ & T & _). destruct T as [T _]; [intro X; rewrite X in Hx; contradiction|]. unfold numPertSets in *. lia. }
  destruct Fs as (-> & Fn & Fle).
  destruct (evaluate (map (fun f => f e) fs)) as [v| |] eqn:Ev; cbn [bind]; [|exact Cv|exact Cv].
  destruct (accepts flags [] v) eqn:Ac; [|intro Cl; rewrite (Ca Cl) in Ac; discriminate].
  destruct (merged_spids spids) as [|x0 l0] eqn:Em.
  - cbn [spid_loop bind spec]. split; [|split; [discriminate|reflexivity]]. split; [unfold made; cbn [d_value]; now rewrite Ev|]. split; [constructor|]. split; [constructor|]. cbn [d_spids d_psets]. rewrite map_length, seq_length. split; [exact Fle|]. split; [easy|]. split.
    + intros k ps Hps. rewrite nth_error_map in Hps. destruct (nth_error (seq 0 npert) k) as [j|]; [|discriminate]. injection Hps as <-. split; reflexivity.
    + intros k s Hk _. apply Ind; [exact Hk|]. intro X. apply Min in X. exact X.
  - rewrite <- Em in *. assert (Nn : merged_spids spids <> []) by (rewrite Em; discriminate). rewrite (Fn Nn) in *. eapply spec_bind.
    { apply spid_loop_ok; [exact R|exact Cp|exact Minc| |].
      - intros s Hs. apply concat_spids. fold spids. now apply Min.
      - assert (M2 : forall c, In c cs -> idx_inv (merged_spids spids) c 0%nat).
        { intros [d|] Hc; [|exact Logic.I]. exists [], (d_spids d). split; [reflexivity|]. split; [reflexivity|]. split; [|easy]. intros s Hs. apply Min. apply in_concat. exists (d_spids d). split; [|exact Hs]. unfold spids. apply in_map_iff. exists (Some d). auto. }
        revert M2. generalize (merged_spids spids). clear. intros ms M2. induction cs as [|c cs IH]; [constructor|]. constructor; [apply M2; now left|apply IH; intros c' Hc'; apply M2; now right]. }
    intros rws Hr. cbn [spec]. split; [|split; [discriminate|reflexivity]]. split; [unfold made; cbn [d_value]; now rewrite Ev|]. cbn [d_spids d_psets d_value]. split; [exact Minc|]. split; [apply Forall_forall; intros s Hs; apply Pos; now apply Min|].
    rewrite map_length, seq_length. split; [lia|]. split; [split; [reflexivity|discriminate]|]. split.
    + intros k ps Hps. assert (Hk : (k < n)%nat) by (rewrite <- (seq_length n 0), <- (map_length (pset_of rws)); apply nth_error_Some; rewrite Hps; discriminate).
      rewrite nth_error_map, (nth_error_nth' _ 0%nat) in Hps by (rewrite seq_length; exact Hk). rewrite seq_nth in Hps by exact Hk. cbn in Hps. injection Hps as <-.
      destruct (psets_ok fs k Hk _ _ Hr) as [P1 P2]. split; [exact P1|]. clear - P2 Hk. revert P2. generalize (ps_val (pset_of rws k)). induction (merged_spids spids) as [|s l IH]; intros [|y m] P2; try discriminate; [reflexivity|].
      cbn [map] in *. injection P2 as P2 P3. rewrite (IH m P3). f_equal. unfold made. unfold row_at in P2. now rewrite <- P2.
    + intros k s Hk Hs. apply Ind; [exact Hk|]. intro X. apply Hs. now apply Min.
Qed.
Lemma tells_seen (d : vdata V P) f g : f e = g e -> (forall k s, (k < n)%nat -> f (perturb e s (delta k s)) = g (perturb e s (delta k s))) ->
  tells perturb delta n e d f -> tells perturb delta n e d g.
Proof.
  intros H0 H1 (T1 & T2 & T3 & T4 & T5 & T6 & T7). split; [congruence|]. split; [exact T2|]. split; [exact T3|]. split; [exact T4|]. split; [exact T5|]. split.
  - intros k ps Hps. destruct (T6 k ps Hps) as [A B]. split; [exact A|]. rewrite B. apply map_ext. intro s. apply H1.
    assert (k < length (d_psets d))%nat by (apply nth_error_Some; rewrite Hps; discriminate). lia.
  - intros k s Hk Hs. rewrite <- H1, <- H0 by exact Hk. now apply T7.
Qed.
Hypothesis Uev : forall xs, evaluate xs = UB -> ub.
Lemma evaluate_spec xs : (clean -> exists v, evaluate xs = Ok v) -> spec clean ub (evaluate xs) (fun _ => True).
Proof. intro H. destruct (evaluate xs) eqn:X; cbn; [exact Logic.I|intro Cl; destruct (H Cl); discriminate|exact (Uev _ X)]. Qed.
Lemma compute_ok allow masks cs fs : Forall2 rel cs fs -> cut allow (map missing (map (fun f => f e) fs)) = false ->
  (evaluateFlags isNull cs masks None = UB -> ub) -> (clean -> exists fl, evaluateFlags isNull cs masks None = Ok fl) ->
  (clean -> exists v, evaluate (map (fun f => f e) fs) = Ok v) ->
  (clean -> forall s k, (k < n)%nat -> exists v, evaluate (row_at fs s k) = Ok v) ->
  spec clean ub (compute isNull compat accepts pert_eqb evaluate cs (map (fun f => f e) fs) masks)
    (fun d => tells perturb delta n e d (node_fun allow fs) /\ d_value d <> None).
Proof.
  intros R Hcut Uf Cf Cv Cp. rewrite compute_split.
  destruct (evaluateFlags isNull cs masks None) as [flags| |]; cbn [bind]; [|intro Cl; destruct (Cf Cl) as (x & X); discriminate|exact (Uf eq_refl)].
  eapply spec_imp; [exact (compute_with_ok flags cs fs R (evaluate_spec _ Cv) (fun s k Hk => evaluate_spec _ (fun Cl => Cp Cl s k Hk)))|]. intros d (T & N & _). split; [|exact N]. revert T. apply tells_seen.
  - unfold made, node_fun. rewrite node_value_cut, Hcut. reflexivity.
  - intros k s Hk. unfold made, node_fun. rewrite node_value_cut, (missing_same cs fs k s R Hk), Hcut. reflexivity.
Qed.
End Pert.
