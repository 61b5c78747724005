(** Theorems about the table of parameter values. *)
From Coq Require Import QArith Qcanon Sorted.
From Verif Require Import Base Bytes_Model Bytes_Proofs Ptab_Model Ptab_Spec Ptab_Proofs Ptab_Table.
Close Scope Q_scope. Close Scope Qc_scope. Local Open Scope nat_scope.
Notation domain := (list (option (num * num))) (only parsing).
Notation bytes := (list Z) (only parsing).

Section Table.
Variable as_num : list bool -> num.
Variable as_flags : num -> list bool.
Variable rest : Type.
Variable tp : Z.
Variable pert weight : bytes.
Variable r0 : rest.
Variable enc : funk rest -> list bytes.
Variable dec : list bytes -> res (funk rest).
Notation putCoeff := (putCoeff rest enc).
Notation run := (run as_num as_flags rest enc).
Notation getFunklet := (getFunklet rest tp pert weight r0 dec).
Notation getFunklets := (getFunklets rest tp pert weight r0 dec).
Notation getFunkletFromDB := (getFunkletFromDB rest tp pert weight r0 dec).
Notation all_storable := (all_storable enc dec).
Notation restored := (restored tp pert weight r0).
Notation history := (history rest).

(** ** What a table gives back *)

(** After any history, asking for a name and a domain gives the funklets last
    saved under that name (and not erased since) for the domains that meet the
    one asked for: each once, in the order in which the domains first appeared. *)
Theorem table_funklets (h : history) : all_storable h -> told_apart h -> legal h ->
  exists t, run h = Ok t /\
  forall n dom, proper dom ->
  exists sel gs, getFunklets t n dom = Ok gs
    /\ Forall2 (fun x g => restored (fst x) (snd x) g) sel gs
    /\ StronglySorted lt (map fst sel)
    /\ (forall i f, In (i, f) sel <->
          exists d, nth_error (domains_of h) i = Some d /\ kept h n d = Some f /\ meet d dom).
Proof.
  intros S T L. destruct (run_good as_num as_flags rest enc dec h S T L) as [t [R G]].
  exists t. split; [exact R|]. intros n dom P.
  destruct (getFunklets_good rest tp pert weight r0 enc dec t h n dom G S) as [sel [gs [E [F [O I]]]]].
  exists sel, gs. split; [exact E|]. split; [exact F|]. split; [exact O|].
  intros i f. rewrite I. unfold chosen. cbn [fst snd].
  split; intros [d [A [B C]]]; exists d; (split; [exact A|split; [exact B|]]).
  - apply overlaps_meet; [|exact P|exact C]. apply kept_saved in B as [B <-].
    destruct S as [S _]. apply (S _ _ B).
  - apply overlaps_meet; [|exact P|exact C]. apply kept_saved in B as [B <-].
    destruct S as [S _]. apply (S _ _ B).
Qed.

(** The same by the number of a domain; and the number that saving returns is
    the place of the funklet's domain in the list of domains. *)
Theorem table_funklet (h : history) : all_storable h -> told_apart h -> legal h ->
  exists t, run h = Ok t /\ t_list t = domains_of h /\
  forall n i d, nth_error (domains_of h) i = Some d ->
  match kept h n d with
  | Some f => exists g, getFunklet t n i = Ok (Some g) /\ restored i f g
  | None => getFunklet t n i = Ok None /\ deleteFunklet t n i = Err
  end.
Proof.
  intros S T L. destruct (run_good as_num as_flags rest enc dec h S T L) as [t [R G]].
  exists t. split; [exact R|]. split; [apply (g_list _ _ _ _ G)|]. intros n i d N.
  assert (Hi : (Z.of_nat i < 2 ^ 31)%Z).
  { destruct S as [_ B]. assert (i < length (domains_of h)) by (apply nth_error_Some; congruence). lia. }
  pose proof (getFunklet_good rest tp pert weight r0 enc dec t h n i G S Hi) as Q. rewrite N in Q.
  destruct (kept h n d) as [f|] eqn:K; [exact Q|]. split; [exact Q|].
  unfold deleteFunklet. rewrite (g_db _ _ _ _ G) by exact Hi. rewrite N, K. reflexivity.
Qed.

Theorem table_put (h : history) n f : all_storable (h ++ [Saved n f]) -> told_apart (h ++ [Saved n f]) -> legal h ->
  exists t t' i, run h = Ok t /\ putCoeff t n f = Ok (t', i)
    /\ nth_error (domains_of (h ++ [Saved n f])) i = Some (f_dom f)
    /\ nth_error (t_list t') i = Some (f_dom f).
Proof.
  intros S T L.
  destruct (run_good as_num as_flags rest enc dec h (storable_before _ _ _ _ _ S) (told_before _ _ T) L) as [t [R G]].
  destruct (step_saved rest enc dec t h n f G S T) as [t' [i [E [G' N]]]].
  exists t, t', i. split; [exact R|]. split; [exact E|]. split; [exact N|].
  rewrite (g_list _ _ _ _ G'). exact N.
Qed.

(** What is left of an entry that was not written completely is not seen when
    the table is opened again. *)
Theorem table_torn_open (h : history) more : all_storable h -> told_apart h -> legal h ->
  length more < entry_size ->
  exists t, run h = Ok t /\
  let t' := open_table as_num as_flags {| k_file := k_file (t_disk t) ++ more; k_db := k_db (t_disk t) |} in
  t_list t' = domains_of h /\ forall n dom, getFunklets t' n dom = getFunklets t n dom.
Proof.
  intros S T L M. destruct (run_good as_num as_flags rest enc dec h S T L) as [t [R G]].
  exists t. split; [exact R|]. cbn zeta. unfold open_table. cbn [k_file t_list].
  assert (E : read_file as_num as_flags (k_file (t_disk t) ++ more) = domains_of h).
  { rewrite (g_file _ _ _ _ G). apply read_file_chunks; [|exact M].
    apply Forall_forall. intros d I. apply domains_in in I as [n [f [I <-]]].
    destruct S as [S _]. apply (S n f I). }
  rewrite E. split; [reflexivity|]. intros n dom. unfold Ptab_Model.getFunklets. cbn [t_list].
  rewrite (g_list _ _ _ _ G).
  assert (K : forall es i, get_from rest tp pert weight r0 dec
      {| t_list := domains_of h; t_disk := {| k_file := k_file (t_disk t) ++ more; k_db := k_db (t_disk t) |} |} n dom i es
    = get_from rest tp pert weight r0 dec t n dom i es).
  { induction es as [|e es IH]; intros i; [reflexivity|]. cbn [get_from]. rewrite IH.
    unfold Ptab_Model.getFunklet, get_value. cbn [t_disk k_db t_list]. rewrite (g_list _ _ _ _ G). reflexivity. }
  apply K.
Qed.

(** ** Parameters *)

Lemma putAll_run n : forall fs t t' fs', putAll rest enc t n fs = Ok (t', fs') ->
  run_from as_num as_flags rest enc t (map (Saved n) fs) = Ok t'.
Proof.
  induction fs as [|f fs IH]; intros t t' fs' H; cbn [putAll] in H.
  - cbn. congruence.
  - unfold putCoeff1 in H. cbn [map Ptab_Spec.run_from Ptab_Spec.step].
    destruct (putCoeff t n f) as [[t1 i]| |]; cbn [bind fst snd] in *; try discriminate.
    destruct (putAll rest enc t1 n fs) as [[t2 fs2]| |] eqn:E; cbn [bind fst snd] in *; try discriminate.
    rewrite (IH _ _ _ E). congruence.
Qed.

Lemma putAll_good fs : forall h t n, good rest enc t h -> all_storable (h ++ map (Saved n) fs) ->
  told_apart (h ++ map (Saved n) fs) -> exists t' fs', putAll rest enc t n fs = Ok (t', fs').
Proof.
  induction fs as [|f fs IH]; intros h t n G S T; [eexists; eexists; reflexivity|].
  cbn [map] in S, T.
  replace (h ++ Saved n f :: map (Saved n) fs) with ((h ++ [Saved n f]) ++ map (Saved n) fs) in S, T
    by (rewrite <- app_assoc; reflexivity).
  assert (S0 : all_storable (h ++ [Saved n f]) /\ told_apart (h ++ [Saved n f])).
  { revert S T. generalize (h ++ [Saved n f]). clear. intros h.
    induction fs as [|f fs IH] using rev_ind; [cbn; rewrite app_nil_r; tauto|].
    rewrite map_app, app_assoc. cbn [map]. intros S T. apply IH.
    - eapply storable_before, S.
    - eapply told_before, T. }
  destruct (step_saved rest enc dec t h n f G (proj1 S0) (proj2 S0)) as [t1 [i [E [G1 _]]]].
  destruct (IH (h ++ [Saved n f]) t1 n G1 S T) as [t' [fs' E']].
  exists t', (set_id rest f (Z.of_nat i) :: fs'). cbn [putAll]. unfold putCoeff1. rewrite E. cbn [bind fst snd].
  rewrite E'. reflexivity.
Qed.

Lemma legal_snocs (h : history) n fs : legal h -> legal (h ++ map (Saved n) fs).
Proof.
  revert h. induction fs as [|f fs IH]; intros h L; cbn [map]; [rewrite app_nil_r; exact L|].
  replace (h ++ Saved n f :: map (Saved n) fs) with ((h ++ [Saved n f]) ++ map (Saved n) fs)
    by (rewrite <- app_assoc; reflexivity).
  apply IH. intros b m d a E.
  destruct a as [|x a _] using rev_ind.
  - exfalso. apply app_inj_tail in E as [_ E]. discriminate.
  - replace (b ++ Erased m d :: a ++ [x]) with ((b ++ Erased m d :: a) ++ [x]) in E
      by (rewrite <- app_assoc; reflexivity).
    apply app_inj_tail in E as [E _]. eapply L. exact E.
Qed.
Lemma kept_snocs n d fs : forall (h : history), NoDup (map f_dom fs) ->
  kept (h ++ map (Saved n) fs) n d
  = match find (fun f => if dom_dec (f_dom f) d then true else false) fs with
    | Some f => Some f | None => kept h n d end.
Proof.
  induction fs as [|f fs IH]; intros h N; cbn [map find]; [rewrite app_nil_r; reflexivity|].
  replace (h ++ Saved n f :: map (Saved n) fs) with ((h ++ [Saved n f]) ++ map (Saved n) fs)
    by (rewrite <- app_assoc; reflexivity).
  cbn [map] in N. apply NoDup_cons_iff in N as [A N]. rewrite IH by exact N.
  rewrite kept_snoc. cbn [keep]. destruct (name_dec n n); [|congruence].
  destruct (dom_dec (f_dom f) d) as [E|E]; [|reflexivity].
  destruct (find _ fs) as [g|] eqn:F; [|reflexivity].
  apply List.find_some in F as [Ig Dg]. destruct (dom_dec (f_dom g) d) as [E'|]; [|discriminate].
  exfalso. apply A. rewrite E, <- E'. apply in_map, Ig.
Qed.
Lemma find_dom fs (f : funk rest) : NoDup (map f_dom fs) -> In f fs ->
  find (fun g => if dom_dec (f_dom g) (f_dom f) then true else false) fs = Some f.
Proof.
  induction fs as [|g fs IH]; intros N I; [destruct I|]. cbn [find]. cbn [map] in N.
  apply NoDup_cons_iff in N as [A N]. destruct I as [->|I].
  - destruct (dom_dec (f_dom f) (f_dom f)); [reflexivity|congruence].
  - destruct (dom_dec (f_dom g) (f_dom f)) as [E|E]; [|apply IH; assumption].
    exfalso. apply A. rewrite E. apply in_map, I.
Qed.
Lemma apart_refl a : apart a a = false.
Proof. apply apart_near, near_num_refl. Qed.

(** What a parameter saves for a domain is what it, or another parameter of
    that name, loads for that domain, provided no other funklet of that name is
    stored for a domain that meets it. *)
Theorem parm_reload_partial (h : history) n f : all_storable (h ++ [Saved n f]) ->
  told_apart (h ++ [Saved n f]) -> legal h ->
  (forall d, d <> f_dom f -> meet d (f_dom f) -> kept h n d = None) ->
  exists t t' f', run h = Ok t /\ save rest enc t n (Single rest f) = Ok (t', Single rest f')
    /\ forall solvable tiled reset, exists i g,
       getFunkletFromDB t' n solvable tiled reset (f_dom f) = Ok (Some (Single rest g))
       /\ restored i f g /\ nth_error (t_list t') i = Some (f_dom f).
Proof.
  intros S T L U.
  destruct (run_good as_num as_flags rest enc dec h (storable_before _ _ _ _ _ S) (told_before _ _ T) L) as [t [R G]].
  destruct (step_saved rest enc dec t h n f G S T) as [t' [i [E [G' N]]]].
  exists t, t', (set_id rest f (Z.of_nat i)). split; [exact R|].
  split; [unfold save, putCoeff1; rewrite E; reflexivity|]. intros sv ti re.
  exists i. rewrite (g_list _ _ _ _ G').
  destruct (getFunklets_good rest tp pert weight r0 enc dec t' _ n (f_dom f) G' S) as [sel [gs [Eg [F [O I]]]]].
  assert (Sf : proper (f_dom f)).
  { destruct S as [S _]. apply (S n f), in_app_iff. right. left. reflexivity. }
  assert (C : forall x, In x sel <-> x = (i, f)).
  { intros [j g]. rewrite I. unfold chosen. cbn [fst snd]. split.
    - intros [d [A [B D]]]. rewrite kept_snoc in B. cbn [keep] in B.
      destruct (name_dec n n); [|congruence]. destruct (dom_dec (f_dom f) d) as [Ed|Nd].
      + assert (j = i) by (apply (nodup_place (domains_of (h ++ [Saved n f])) j i (f_dom f)); [apply domains_nodup|congruence|exact N]).
        congruence.
      + exfalso. assert (Pd : proper d).
        { apply kept_saved in B as [B <-]. destruct S as [S _]. apply (S n g), in_app_iff. left. exact B. }
        rewrite U in B; [discriminate|congruence|]. apply overlaps_meet; assumption.
    - intros X. assert (j = i) by congruence. assert (g = f) by congruence. subst.
      exists (f_dom f). split; [exact N|]. split.
      + rewrite kept_snoc. cbn [keep]. destruct (name_dec n n); [|congruence].
        destruct (dom_dec (f_dom f) (f_dom f)); [reflexivity|congruence].
      + apply overlaps_meet; [exact Sf|exact Sf|].
        exists (fun i => pick (nth i (f_dom f) None) None). destruct Sf as [_ P].
        split; intros k a b Ek; unfold pick; rewrite Ek; apply between_ok, (P k), Ek. }
  assert (Sel : sel = [(i, f)]).
  { destruct sel as [|x [|y sel]].
    - exfalso. destruct (C (i, f)) as [_ C2]. destruct (C2 eq_refl).
    - f_equal. apply C. left. reflexivity.
    - exfalso. assert (x = (i, f)) by (apply C; left; reflexivity).
      assert (y = (i, f)) by (apply C; right; left; reflexivity). subst.
      cbn [map fst] in O. apply StronglySorted_inv in O as [_ O]. apply Forall_cons_iff in O as [O _]. lia. }
  subst sel. destruct gs as [|g gs]; [inversion F|].
  inversion F as [|? ? ? ? Rg F' E1 E2]; subst. inversion F'; subst. cbn [fst snd] in Rg.
  exists g. split; [|split; [exact Rg|exact N]].
  unfold Ptab_Model.getFunkletFromDB. rewrite Eg. cbn [bind length Nat.ltb Nat.leb andb].
  assert (Dg : f_dom g = f_dom f).
  { destruct Rg as [R1 R2].
    destruct (f_polc f && (length (f_coeff f) <=? 1)) eqn:Ec.
    - apply constant_test in Ec. apply R1 in Ec. tauto.
    - rewrite R2; [reflexivity|]. intros X. apply constant_test in X. congruence. }
  rewrite Dg, !apart_refl. reflexivity.
Qed.

(** The tiles of a tiled parameter: saving them and loading for a domain that
    meets all of them gives a composed funklet of exactly these. *)
Theorem parm_tiles_partial (h : history) n fs dom D : all_storable (h ++ map (Saved n) fs) ->
  told_apart (h ++ map (Saved n) fs) -> legal h -> proper D ->
  2 <= length fs -> NoDup (map f_dom fs) -> (forall f, In f fs -> meet (f_dom f) D) ->
  (forall d, ~ In d (map f_dom fs) -> meet d D -> kept h n d = None) ->
  exists t t' h', run h = Ok t /\ save rest enc t n (Composed rest fs dom) = Ok (t', h') /\
  forall solvable tiled, tiled = true \/ solvable = false ->
  exists gs, getFunkletFromDB t' n solvable tiled false D = Ok (Some (Composed rest gs D))
    /\ length gs = length fs
    /\ (forall g, In g gs -> exists i f, In f fs /\ restored i f g)
    /\ (forall f, In f fs -> exists i g, In g gs /\ restored i f g).
Proof.
  intros S T L PD Len N M U.
  assert (S0 : all_storable h /\ told_apart h).
  { clear - S T. revert S T. induction fs as [|f fs IH] using rev_ind; [cbn; rewrite app_nil_r; tauto|].
    rewrite map_app, app_assoc. cbn [map]. intros S T. apply IH.
    - eapply storable_before, S.
    - eapply told_before, T. }
  destruct (run_good as_num as_flags rest enc dec h (proj1 S0) (proj2 S0) L) as [t [R G]].
  destruct (putAll_good fs h t n G S T) as [t' [fs' Pa]].
  assert (Sv : save rest enc t n (Composed rest fs dom) = Ok (t', Composed rest fs' dom))
    by (unfold save; rewrite Pa; reflexivity).
  exists t, t', (Composed rest fs' dom). split; [exact R|]. split; [exact Sv|]. intros sv ti Or.
  assert (R' : run (h ++ map (Saved n) fs) = Ok t').
  { unfold save in Sv. destruct (putAll rest enc t n fs) as [[t2 fs2]| |] eqn:E; cbn [bind fst snd] in Sv; try discriminate.
    assert (t2 = t') by congruence. subst t2. unfold Ptab_Spec.run in *. rewrite run_from_app, R. cbn [bind].
    eapply putAll_run; eassumption. }
  destruct (run_good as_num as_flags rest enc dec (h ++ map (Saved n) fs) S T (legal_snocs h n fs L)) as [t2 [R2 G2]].
  assert (t2 = t') by congruence. subst t2.
  destruct (getFunklets_good rest tp pert weight r0 enc dec t' _ n D G2 S) as [sel [gs [Eg [F [O I]]]]].
  assert (Kf : forall f, In f fs -> kept (h ++ map (Saved n) fs) n (f_dom f) = Some f).
  { intros f If. rewrite kept_snocs by exact N. rewrite (find_dom fs f N If). reflexivity. }
  assert (Pf : forall f, In f fs -> proper (f_dom f)).
  { intros f If. destruct S as [S _]. apply (S n f), in_app_iff. right. apply in_map, If. }
  assert (A1 : forall x, In x sel -> In (snd x) fs /\ nth_error (domains_of (h ++ map (Saved n) fs)) (fst x) = Some (f_dom (snd x))).
  { intros x Hx. apply I in Hx as [d [A [B C]]].
    rewrite kept_snocs in B by exact N.
    destruct (find (fun f => if dom_dec (f_dom f) d then true else false) fs) as [f|] eqn:Fd.
    - apply List.find_some in Fd as [If Df]. destruct (dom_dec (f_dom f) d) as [E|]; [|discriminate].
      assert (f = snd x) by congruence. subst f. rewrite E. tauto.
    - exfalso. assert (Pd : proper d).
      { apply kept_saved in B as [B <-]. destruct S as [S _]. apply (S n (snd x)), in_app_iff. left. exact B. }
      rewrite U in B; [discriminate| |apply overlaps_meet; assumption].
      intros X. apply in_map_iff in X as [f [E If]].
      apply (List.find_none _ _ Fd) in If. destruct (dom_dec (f_dom f) d); [discriminate|contradiction]. }
  assert (A2 : forall f, In f fs -> exists i, In (i, f) sel).
  { intros f If. pose proof (Kf f If) as K. pose proof (kept_in _ _ _ _ K) as Ki.
    apply In_nth_error in Ki as [i Ni]. exists i. apply I. exists (f_dom f). cbn [fst snd].
    split; [exact Ni|]. split; [exact K|]. apply overlaps_meet; [apply Pf, If|exact PD|apply M, If]. }
  assert (Nd : NoDup sel).
  { clear - O. induction sel as [|x sel IH]; [constructor|]. cbn [map] in O. apply StronglySorted_inv in O as [O1 O2].
    constructor; [|apply IH, O1]. intros X. rewrite Forall_forall in O2. specialize (O2 (fst x) (in_map fst _ _ X)). lia. }
  assert (Ns : NoDup (map snd sel)).
  { clear - Nd A1. induction sel as [|x sel IH]; [constructor|]. apply NoDup_cons_iff in Nd as [X Nd]. cbn [map].
    constructor; [|apply IH; [intros y Hy; apply A1; right; exact Hy|exact Nd]].
    intros Y. apply in_map_iff in Y as [y [Ey Iy]]. apply X.
    assert (x = y); [|subst; exact Iy]. destruct (A1 x (or_introl eq_refl)) as [_ Nx].
    destruct (A1 y (or_intror Iy)) as [_ Ny]. rewrite Ey in Ny.
    assert (fst x = fst y) by (exact (nodup_place _ _ _ _ (domains_nodup (h ++ map (Saved n) fs)) Nx Ny)).
    destruct x, y. cbn in *. congruence. }
  assert (Lg : length gs = length fs).
  { assert (L1 : length sel = length gs) by (clear - F; induction F; cbn; congruence).
    assert (Nf : NoDup fs) by (clear - N; apply NoDup_map_inv in N; exact N).
    assert (L2 : length (map snd sel) = length fs).
    { apply Nat.le_antisymm; apply NoDup_incl_length; [exact Ns| |exact Nf|].
      - intros f Hf. apply in_map_iff in Hf as [x [<- Hx]]. apply A1, Hx.
      - intros f Hf. destruct (A2 f Hf) as [i Hi]. apply in_map_iff. exists (i, f). tauto. }
    rewrite map_length in L2. lia. }
  exists gs. split; [|split; [exact Lg|split]].
  - unfold Ptab_Model.getFunkletFromDB. rewrite Eg. cbn [bind].
    destruct gs as [|g gs']; [cbn in Lg; lia|].
    replace (1 <? length (g :: gs')) with true by (symmetry; apply Nat.ltb_lt; lia).
    replace (ti || negb sv) with true by (destruct Or as [->| ->]; [reflexivity|destruct ti; reflexivity]).
    reflexivity.
  - intros g Ig. clear - F Ig A1. induction F as [|x g' sel gs Rx F IH]; [destruct Ig|].
    destruct Ig as [<-|Ig].
    + exists (fst x), (snd x). split; [apply A1; left; reflexivity|exact Rx].
    + apply IH; [intros y Hy; apply A1; right; exact Hy|exact Ig].
  - intros f If. destruct (A2 f If) as [i Hi]. exists i. clear - F Hi.
    induction F as [|x g' sel gs Rx F IH]; [destruct Hi|]. destruct Hi as [->|Hi].
    + exists g'. split; [left; reflexivity|exact Rx].
    + destruct (IH Hi) as [g [A B]]. exists g. split; [right; exact A|exact B].
Qed.
End Table.

(** ** Values *)

(** A set of blocks stored in a table is read back as the same blocks. *)
Theorem blocks_round_trip (bs : list bytes) :
  (Z.of_nat (8 + 8 * length bs + length (concat bs)) < 2 ^ 31)%Z -> unflatten (flatten bs) = Ok bs.
Proof. apply unflatten_flatten. Qed.

(** A value from a damaged table is refused or is the form of the blocks that
    are made from it, and is never read beyond its end, as long as the number of
    blocks in it is less than 2^28-1 and the sizes in it add up to less than 2^32. *)
Theorem blocks_checked_partial (v : bytes) : Forall (fun b => byte_ok b = true) v ->
  8 <= length v -> (Z.of_nat (length v) < 2 ^ 31)%Z ->
  (dec_u64 (firstn 8 v) < 2 ^ 28 - 1)%Z ->
  (forall n, Z.of_nat n = dec_u64 (firstn 8 v) -> 8 + 8 * n <= length v ->
     (8 * (Z.of_nat n + 1) + fold_right Z.add 0 (dec_u64s n (skipn 8 v)) < 2 ^ 32)%Z) ->
  unflatten v <> UB /\ (forall bs, unflatten v = Ok bs -> v = flatten bs).
Proof.
  intros B L8 L31 Cn Cs.
  assert (C0 : (0 <= dec_u64 (firstn 8 v))%Z) by (unfold dec_u64; apply le_val_bound, Forall_firstn', B).
  unfold unflatten. replace (length v <? 8) with false by (symmetry; apply Nat.ltb_ge; lia).
  remember (dec_u64 (firstn 8 v)) as c eqn:Ec.
  rewrite (to_int_small c) by lia. replace (c =? 2 ^ 31 - 1)%Z with false by lia.
  rewrite Z.mod_small by lia. rewrite (to_int_small (8 * (c + 1))) by lia.
  destruct (Z.ltb_spec (Z.of_nat (length v)) (8 * (c + 1))) as [H|H].
  { split; [discriminate|]. intros bs X. discriminate. }
  specialize (Cs (Z.to_nat c) ltac:(lia) ltac:(lia)).
  fold (ztotal (dec_u64s (Z.to_nat c) (skipn 8 v))) in Cs.
  destruct (add_sizes_read (Z.to_nat c) v 8 (8 * (c + 1))%Z ltac:(lia) ltac:(lia) ltac:(lia) B) as [E F].
  rewrite E. cbn [bind].
  set (szs := dec_u64s (Z.to_nat c) (skipn 8 v)) in *.
  assert (T0 : (0 <= ztotal szs)%Z) by (apply ztotal_nonneg, F).
  destruct (Z.eqb_spec (Z.of_nat (length v)) (to_int (8 * (c + 1) + ztotal szs))) as [G|G]; cbn [negb].
  2:{ split; [discriminate|]. intros bs X. discriminate. }
  rewrite to_int_cases in G by lia.
  destruct (Z.ltb_spec (8 * (c + 1) + ztotal szs) (2 ^ 31)) as [G1|G1]; [|lia].
  assert (Ld : Z.of_nat (length (skipn (8 + 8 * Z.to_nat c) v)) = ztotal szs) by (rewrite skipn_length; lia).
  destruct (copy_blocks_exact szs (skipn (8 + 8 * Z.to_nat c) v) F Ld) as [bs [K [M C]]].
  rewrite K. split; [discriminate|]. intros bs' X. assert (bs' = bs) by congruence. subst bs'.
  unfold flatten. fold (sizes bs). rewrite M, C.
  assert (Lb : length bs = Z.to_nat c).
  { assert (X1 : length (sizes bs) = length szs) by (rewrite M; reflexivity).
    unfold sizes in X1. rewrite map_length in X1. unfold szs in X1. rewrite dec_u64s_length in X1. exact X1. }
  rewrite Lb, Z2Nat.id by lia. rewrite Ec. rewrite enc_dec_u64; [|rewrite firstn_length; lia|apply Forall_firstn', B].
  unfold szs. rewrite enc_dec_u64s_firstn; [|rewrite skipn_length; lia|apply Forall_skipn', B].
  rewrite <- Ec, skipn_add, firstn_skipn, firstn_skipn. reflexivity.
Qed.

(** Other damaged values are read beyond their end: one whose number of blocks
    is so large that the size computed for the header is 0, and one whose single
    block has a size of 2^32 bytes. *)
Theorem blocks_damaged_refuted :
  exists v w, length v = 16 /\ length w = 16
    /\ Forall (fun b => byte_ok b = true) v /\ Forall (fun b => byte_ok b = true) w
    /\ unflatten v = UB /\ unflatten w = UB.
Proof.
  exists (enc_u64 (2 ^ 29 - 1) ++ repeat 0%Z 8), (enc_u64 1 ++ enc_u64 (2 ^ 32)).
  split; [reflexivity|]. split; [reflexivity|].
  split; [apply Forall_app; split; [apply enc_u64_byte|cbn; repeat constructor]|].
  split; [apply Forall_app; split; apply enc_u64_byte|].
  split; [|vm_compute; reflexivity].
  unfold unflatten.
  replace (length (enc_u64 (2 ^ 29 - 1) ++ repeat 0%Z 8) <? 8) with false by reflexivity.
  rewrite firstn_app_len by reflexivity. rewrite dec_enc_u64 by reflexivity.
  replace (to_int (2 ^ 29 - 1)) with (2 ^ 29 - 1)%Z by reflexivity.
  replace (2 ^ 29 - 1 =? 2 ^ 31 - 1)%Z with false by reflexivity.
  replace (8 * (2 ^ 29 - 1 + 1) mod 2 ^ 64)%Z with (2 ^ 32)%Z by reflexivity.
  match goal with |- context[if ?c then Err else _] => replace c with false by reflexivity end.
  replace (Z.to_nat (2 ^ 29 - 1)) with (2 + Z.to_nat (2 ^ 29 - 3)) by lia.
  cbn [Nat.add add_sizes].
  match goal with |- context[if ?c then _ else UB] => replace c with true by reflexivity end.
  match goal with |- context[if ?c then _ else UB] => replace c with false by reflexivity end.
  reflexivity.
Qed.

Print Assumptions table_funklets.
Print Assumptions table_funklet.
Print Assumptions table_put.
Print Assumptions table_torn_open.
Print Assumptions parm_reload_partial.
Print Assumptions parm_tiles_partial.
Print Assumptions blocks_round_trip.
Print Assumptions blocks_checked_partial.
Print Assumptions blocks_damaged_refuted.
