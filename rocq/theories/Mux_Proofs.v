(** Lemmas about VisDataMux. *)
From Coq Require Import Permutation.
From Verif Require Import Base Vis_Model Mux_Model Mux_Spec.
Local Open Scope Z_scope.

(** The state with another log and another cached header *)
Definition with_lc (l : list action) (c : bool) (m : mux) : mux :=
  mkMux (handlers m) (kids m) (have m) (cur m) (next m) (now m) (rows m) (ntiles m) c l.

Lemma with_lc_id m : with_lc (log m) (cached m) m = m.
Proof. destruct m. reflexivity. Qed.
Lemma with_lc_lc l c l' c' m : with_lc l c (with_lc l' c' m) = with_lc l c m.
Proof. reflexivity. Qed.

(** *** Logs *)
Section Logs.
Variable E : env.

Lemma clean_nil pre : clean E pre [].
Proof. intros [|x l1] b l2 H; discriminate. Qed.

Lemma clean_cons pre a l : clean E pre (a :: l) <-> ~ fails E pre a /\ clean E (pre ++ [a]) l.
Proof.
  split.
  - intros H. split.
    + specialize (H [] a l eq_refl). rewrite app_nil_r in H. exact H.
    + intros l1 b l2 Q. rewrite <- app_assoc. apply (H (a :: l1) b l2). cbn. congruence.
  - intros [A B] [|x l1] b l2 Q; injection Q as <- Q.
    + rewrite app_nil_r. exact A.
    + specialize (B l1 b l2 Q). rewrite <- app_assoc in B. exact B.
Qed.

Lemma clean_app pre l l' : clean E pre (l ++ l') <-> clean E pre l /\ clean E (pre ++ l) l'.
Proof.
  revert pre. induction l as [|a l IH]; intros pre; cbn [app].
  - rewrite app_nil_r. split; [intros H; split; [apply clean_nil|exact H]|tauto].
  - rewrite !clean_cons, IH, <- app_assoc. cbn [app]. tauto.
Qed.

Lemma returned_app pre l l' : returned E pre (l ++ l') = returned E pre l ++ returned E (pre ++ l) l'.
Proof.
  revert pre. induction l as [|a l IH]; intros pre; cbn [app returned].
  - rewrite app_nil_r. reflexivity.
  - rewrite IH, <- !app_assoc. reflexivity.
Qed.

Lemma tree_app l l' : tree_part (l ++ l') = tree_part l ++ tree_part l'.
Proof. apply filter_app. Qed.
Lemma out_app l l' : out_part (l ++ l') = out_part l ++ out_part l'.
Proof. apply filter_app. Qed.

(** What goes to the output when the tiles [d] are returned *)
Definition outs (c : bool) (d : list nat) : list action :=
  if e_output E then
    match d with [] => [] | _ => (if c then [OHeader] else []) ++ map OData d end
  else [].
Definition still (c : bool) (d : list nat) : bool :=
  if e_output E then match d with [] => c | _ => false end else c.

Lemma outs_app c d d' : outs c (d ++ d') = outs c d ++ outs (still c d) d'.
Proof.
  unfold outs, still. destruct (e_output E); [|reflexivity].
  destruct d as [|x d]; [reflexivity|]. cbn [app]. destruct d' as [|y d'].
  - rewrite !app_nil_r. reflexivity.
  - rewrite <- app_assoc. cbn [map app]. rewrite map_app. reflexivity.
Qed.
Lemma still_app c d d' : still c (d ++ d') = still (still c d) d'.
Proof. unfold still. destruct (e_output E), d, d'; reflexivity. Qed.

(** A piece of the log that takes the state [m] to [m'] *)
Definition emits (m : mux) (new : list action) (m' : mux) : Prop :=
  log m' = log m ++ new /\
  out_part new = outs (cached m) (returned E (log m) new) /\
  cached m' = still (cached m) (returned E (log m) new).

Lemma emits_nil m m' : log m' = log m -> cached m' = cached m -> emits m [] m'.
Proof.
  intros A B. unfold emits. cbn. rewrite A, B, app_nil_r. unfold outs, still.
  destruct (e_output E); auto.
Qed.

Lemma emits_app m1 m2 m3 a b : emits m1 a m2 -> emits m2 b m3 -> emits m1 (a ++ b) m3.
Proof.
  intros (A1 & A2 & A3) (B1 & B2 & B3). split; [|split].
  - rewrite B1, A1, app_assoc. reflexivity.
  - rewrite out_app, returned_app, outs_app, A2, B2, A3, <- A1. reflexivity.
  - rewrite returned_app, still_app, B3, A3, <- A1. reflexivity.
Qed.

(** Calls of handlers and children other than sinks *)
Definition plain (a : action) : Prop :=
  match a with AHeader _ | ATile _ _ _ _ _ | AFooter _ | ARun _ _ => True | _ => False end.

Lemma plain_tree l : Forall plain l -> tree_part l = l.
Proof.
  induction 1 as [|a l P _ IH]; [reflexivity|]. unfold tree_part in *. cbn [filter].
  destruct a; cbn in P |- *; try contradiction; congruence.
Qed.
Lemma plain_out l : Forall plain l -> out_part l = [].
Proof.
  induction 1 as [|a l P _ IH]; [reflexivity|]. unfold out_part in *. cbn [filter].
  destruct a; cbn in P |- *; try contradiction; congruence.
Qed.
Lemma plain_returned l pre : Forall plain l -> returned E pre l = [].
Proof.
  intros F. revert pre. induction F as [|a l P _ IH]; intros pre; [reflexivity|]. cbn [returned].
  rewrite IH. destruct a; cbn in P; try contradiction; reflexivity.
Qed.
Lemma plain_emits m l : Forall plain l -> emits m l (with_lc (log m ++ l) (cached m) m).
Proof.
  intros F. unfold emits. rewrite plain_out, plain_returned by exact F. cbn. unfold outs, still.
  destruct (e_output E); auto.
Qed.

(** *** The calls *)
Lemma callAll_eq f l m :
  (forall h, match f h with AHeader _ | ATile _ _ _ _ _ | AFooter _ => True | _ => False end) ->
  fst (callAll E f l m) = with_lc (log m ++ map f l) (cached m) m /\
  (snd (callAll E f l m) = true <-> clean E (log m) (map f l)).
Proof.
  intros K. revert m. induction l as [|h l IH]; intros m; cbn [callAll map].
  - rewrite app_nil_r, with_lc_id. split; [reflexivity|]. split; [intros _; apply clean_nil|reflexivity].
  - destruct (IH (say (f h) m)) as [A B]. destruct (callAll E f l (say (f h) m)) as [m2 ok2].
    cbn [fst snd] in *. split.
    + rewrite A. cbn [say log cached]. rewrite <- app_assoc. reflexivity.
    + rewrite clean_cons, andb_true_iff, B. cbn [say log]. specialize (K h).
      assert (X : fails E (log m) (f h) <-> e_handler E (log m ++ [f h]) = false).
      { destruct (f h); cbn in K; try contradiction; reflexivity. }
      rewrite X, not_false_iff_true. reflexivity.
Qed.

Lemma runChild_eq n r m :
  fst (runChild E n r m) = with_lc (log m ++ run_of E n r) (cached m) m /\
  (snd (runChild E n r m) = true <-> clean E (log m) (run_of E n r)).
Proof.
  unfold runChild, run_of. destruct (e_valid E n); cbn [fst snd].
  - split; [reflexivity|]. rewrite clean_cons. cbn [fails say log].
    destruct (e_child E (log m ++ [ARun n r])); (split; [|intros [A _]]); try congruence.
    + intros _. split; [discriminate|apply clean_nil].
    + intros _. split; [discriminate|apply clean_nil].
  - rewrite app_nil_r, with_lc_id. split; [reflexivity|].
    split; [intros _; apply clean_nil|reflexivity].
Qed.

Lemma run_plain n r : Forall plain (run_of E n r).
Proof. unfold run_of. destruct (e_valid E n); repeat constructor. Qed.

Lemma output_emits t i r m : e_child E (log m ++ [APoll i r]) = CDone (Some t) ->
  exists new c, output E t (say (APoll i r) m) = with_lc (log m ++ new) c m /\
    emits m new (with_lc (log m ++ new) c m) /\ tree_part new = [APoll i r] /\
    (clean E (log m) new).
Proof.
  intros A. unfold output. destruct (e_output E) eqn:O.
  - cbn [say cached]. destruct (cached m) eqn:CA.
    + exists [APoll i r; OHeader; OData t], false.
      split; [unfold say, with_cached, with_lc; cbn; rewrite <- !app_assoc; reflexivity|]. split; [|split; [reflexivity|]].
      * split; [reflexivity|]. cbn [returned]. rewrite A, CA. cbn. unfold outs, still. rewrite O. auto.
      * rewrite !clean_cons. cbn [fails]. rewrite A. split; [discriminate|]. split; [tauto|]. split; [tauto|apply clean_nil].
    + exists [APoll i r; OData t], false.
      split; [unfold say, with_lc; cbn; rewrite <- !app_assoc, CA; reflexivity|]. split; [|split; [reflexivity|]].
      * split; [reflexivity|]. cbn [returned]. rewrite A, CA. cbn. unfold outs, still. rewrite O. auto.
      * rewrite !clean_cons. cbn [fails]. rewrite A. split; [discriminate|]. split; [tauto|apply clean_nil].
  - exists [APoll i r], (cached m). split; [reflexivity|]. split; [|split; [reflexivity|]].
    + split; [reflexivity|]. cbn [returned]. rewrite A. cbn. unfold outs, still. rewrite O. auto.
    + rewrite clean_cons. cbn [fails]. rewrite A. split; [discriminate|apply clean_nil].
Qed.

Lemma pollAll_eq r l : forall m, exists new c,
  fst (pollAll E r l m) = with_lc (log m ++ new) c m /\
  emits m new (with_lc (log m ++ new) c m) /\
  tree_part new = map (fun i => APoll i r) l /\
  (snd (pollAll E r l m) = true <-> clean E (log m) new).
Proof.
  induction l as [|i l IH]; intros m; cbn [pollAll map].
  - exists [], (cached m). cbn [fst snd]. rewrite app_nil_r, with_lc_id.
    split; [reflexivity|]. split; [apply emits_nil; reflexivity|]. split; [reflexivity|].
    split; [intros _; apply clean_nil|reflexivity].
  - assert (STEP : forall m1 new1 c1 ok1,
      m1 = with_lc (log m ++ new1) c1 m -> emits m new1 m1 -> tree_part new1 = [APoll i r] ->
      (ok1 = true <-> clean E (log m) new1) ->
      exists new c, fst (pollAll E r l m1) = with_lc (log m ++ new) c m /\
        emits m new (with_lc (log m ++ new) c m) /\
        tree_part new = APoll i r :: map (fun i => APoll i r) l /\
        (ok1 && snd (pollAll E r l m1) = true <-> clean E (log m) new)).
    { intros m1 new1 c1 ok1 E1 EM TP CL. destruct (IH m1) as (new & c & A & B & C & D).
      exists (new1 ++ new), c.
      assert (L1 : log m1 = log m ++ new1) by (subst m1; reflexivity).
      assert (W : with_lc (log m1 ++ new) c m1 = with_lc (log m ++ new1 ++ new) c m)
        by (rewrite L1, <- app_assoc; subst m1; reflexivity).
      split; [rewrite A; exact W|]. split; [|split].
      - apply (emits_app _ m1); [exact EM|]. rewrite <- W. exact B.
      - rewrite tree_app, TP, C. reflexivity.
      - rewrite andb_true_iff, CL, D, clean_app, L1. reflexivity. }
    assert (SAY : forall a, e_child E (log m ++ [APoll i r]) = a -> (forall t, a <> CDone (Some t)) ->
              emits m [APoll i r] (say (APoll i r) m)).
    { intros a A NT. split; [reflexivity|]. cbn [returned]. rewrite A.
      destruct a as [| |[t|]]; try (exfalso; eapply NT; reflexivity); cbn; unfold outs, still; destruct (e_output E); auto. }
    cbn [say log]. destruct (e_child E (log m ++ [APoll i r])) as [| |[t|]] eqn:A.
    + destruct (STEP (say (APoll i r) m) [APoll i r] (cached m) false eq_refl) as (new & c & P & Q & R & T).
      * apply (SAY CFail eq_refl). discriminate.
      * reflexivity.
      * split; [discriminate|]. rewrite clean_cons. cbn [fails]. rewrite A. intros [X _]. contradiction.
      * exists new, c. cbn [andb] in T. destruct (pollAll E r l (say (APoll i r) m)). cbn [fst snd] in *.
        split; [exact P|]. split; [exact Q|]. split; [exact R|exact T].
    + apply (STEP (say (APoll i r) m) [APoll i r] (cached m) true eq_refl).
      * apply (SAY CWait eq_refl). discriminate.
      * reflexivity.
      * split; [intros _|reflexivity]. rewrite clean_cons. cbn [fails]. rewrite A. split; [discriminate|apply clean_nil].
    + destruct (output_emits t i r m A) as (new1 & c1 & P & Q & R & T).
      apply (STEP _ new1 c1 true P); [rewrite P; exact Q|exact R|].
      split; [intros _; exact T|reflexivity].
    + apply (STEP (say (APoll i r) m) [APoll i r] (cached m) true eq_refl).
      * apply (SAY (CDone None) eq_refl). discriminate.
      * reflexivity.
      * split; [intros _|reflexivity]. rewrite clean_cons. cbn [fails]. rewrite A. split; [discriminate|apply clean_nil].
Qed.

Lemma endSnippet_eq m r : now m = Some r -> exists new c polls,
  fst (endSnippet E m) = with_lc (log m ++ new) c m /\
  emits m new (with_lc (log m ++ new) c m) /\
  polls = e_order E (log m ++ run_of E 1 r) (enabled m) /\
  tree_part new = run_of E 1 r ++ map (fun i => APoll i r) polls ++ run_of E 2 r /\
  (snd (endSnippet E m) = true <-> clean E (log m) new).
Proof.
  intros N. unfold endSnippet. rewrite N.
  destruct (runChild_eq 1 r m) as [A1 A2]. destruct (runChild E 1 r m) as [m1 ok1]. cbn [fst snd] in A1, A2.
  assert (L1 : log m1 = log m ++ run_of E 1 r) by (subst m1; reflexivity).
  assert (EN : enabled m1 = enabled m) by (subst m1; reflexivity).
  rewrite EN, L1. set (polls := e_order E (log m ++ run_of E 1 r) (enabled m)).
  destruct (pollAll_eq r polls m1) as (n2 & c2 & B1 & B2 & B3 & B4).
  destruct (pollAll E r polls m1) as [m2 ok2]. cbn [fst snd] in B1, B4.
  destruct (runChild_eq 2 r m2) as [C1 C2]. destruct (runChild E 2 r m2) as [m3 ok3]. cbn [fst snd] in C1, C2.
  cbn [fst snd].
  assert (L2 : log m2 = log m ++ run_of E 1 r ++ n2) by (subst m2; cbn [with_lc log]; rewrite L1, <- app_assoc; reflexivity).
  exists (run_of E 1 r ++ n2 ++ run_of E 2 r), c2, polls.
  assert (W : m3 = with_lc (log m ++ run_of E 1 r ++ n2 ++ run_of E 2 r) c2 m).
  { rewrite C1, L2, <- !app_assoc. subst m2 m1. reflexivity. }
  split; [exact W|]. split; [|split; [reflexivity|split]].
  - rewrite <- W. apply (emits_app _ m1); [subst m1; apply plain_emits, run_plain|].
    apply (emits_app _ m2); [rewrite B1; exact B2|]. rewrite C1. apply plain_emits, run_plain.
  - rewrite !tree_app, B3, !plain_tree by apply run_plain. reflexivity.
  - rewrite !andb_true_iff, A2, B4, C2, !clean_app, L1, L2, <- app_assoc. tauto.
Qed.
End Logs.
