(** Lemmas about VisDataMux: what happens to the tiles of a dataset. *)
From Coq Require Import Permutation.
From Verif Require Import Base Vis_Model Vis_Sink_Thms Mux_Model Mux_Spec Mux_Proofs.
Local Open Scope Z_scope.

(** *** Lists *)
Lemma nth_resize {A} n (d : A) l i : (i < n)%nat -> nth i (resize n d l) d = nth i l d.
Proof.
  intros L. unfold resize. destruct (le_lt_dec (length l) i) as [G|G].
  - rewrite (nth_overflow l) by exact G.
    rewrite app_nth2 by (rewrite firstn_length; lia). apply nth_repeat.
  - rewrite app_nth1 by (rewrite firstn_length; lia).
    rewrite <- (firstn_skipn n l) at 2. rewrite app_nth1 by (rewrite firstn_length; lia). reflexivity.
Qed.
Lemma length_resize {A} n (d : A) l : length (resize n d l) = n.
Proof. unfold resize. rewrite app_length, firstn_length, repeat_length. lia. Qed.

Lemma length_set_nth {A} i (x : A) l : length (set_nth i x l) = length l.
Proof.
  unfold set_nth. rewrite app_length, firstn_length. pose proof (skipn_length i l) as S.
  destruct (skipn i l); cbn [length] in *; lia.
Qed.
Lemma nth_set_nth {A} i (x d : A) l j : (i < length l)%nat ->
  nth j (set_nth i x l) d = if Nat.eqb j i then x else nth j l d.
Proof.
  revert i j. induction l as [|y l IH]; intros [|i] [|j] L; cbn [length] in L; try lia; try reflexivity.
  unfold set_nth. cbn [firstn skipn app nth]. fold (set_nth i x l). rewrite IH by lia. reflexivity.
Qed.

Lemma firstValid_spec l : In true l -> exists a, firstValid l = Some a /\ nth_error l a = Some true /\
  forall i, nth_error l i = Some true -> (a <= i)%nat.
Proof.
  induction l as [|[|] l IH]; intros I; [destruct I| |].
  - exists 0%nat. cbn. split; [reflexivity|]. split; [reflexivity|]. intros; lia.
  - destruct I as [I|I]; [discriminate|]. destruct (IH I) as (a & A & B & C). exists (S a). cbn. rewrite A.
    split; [reflexivity|]. split; [exact B|]. intros [|i] X; [discriminate|]. specialize (C i X). lia.
Qed.
Lemma firstValid_none l : ~ In true l -> firstValid l = None.
Proof.
  induction l as [|[|] l IH]; intros I; [reflexivity| |].
  - exfalso. apply I. left. reflexivity.
  - cbn. rewrite IH; [reflexivity|]. intros X. apply I. right. exact X.
Qed.

Lemma nth_error_rev {A} (l : list A) i : (i < length l)%nat ->
  nth_error (rev l) i = nth_error l (length l - 1 - i).
Proof.
  intros L. destruct l as [|x l]; [cbn in L; lia|]. set (k := x :: l) in *.
  rewrite (nth_error_nth' (rev k) x) by (rewrite rev_length; exact L).
  rewrite (nth_error_nth' k x) by lia. rewrite rev_nth by exact L. do 2 f_equal. lia.
Qed.

Lemma validRange_spec l : In true l -> exists a b, validRange l = Some (a, b) /\ first_last l a b.
Proof.
  intros I. destruct (firstValid_spec l I) as (a & A & B & C).
  destruct (firstValid_spec (rev l)) as (b & A' & B' & C'); [apply -> in_rev; exact I|].
  assert (LB : (b < length l)%nat).
  { rewrite <- (rev_length l). apply nth_error_Some. congruence. }
  unfold validRange. rewrite A, A'. exists a, (length l - 1 - b)%nat. split; [reflexivity|].
  split; [exact B|]. split; [rewrite nth_error_rev in B' by exact LB; exact B'|].
  intros i X. split; [apply C, X|].
  assert (LI : (i < length l)%nat) by (apply nth_error_Some; congruence).
  specialize (C' (length l - 1 - i)%nat). rewrite nth_error_rev in C' by lia.
  replace (length l - 1 - (length l - 1 - i))%nat with i in C' by lia. specialize (C' X). lia.
Qed.
Lemma validRange_none l : ~ In true l -> validRange l = None.
Proof. intros I. unfold validRange. rewrite firstValid_none by exact I. reflexivity. Qed.

(** *** Cutting a stream into snippets from the left *)
Fixpoint cut (s : Z) (g l : list chunk) : list (list chunk) :=
  match l with
  | [] => [g]
  | c :: l' => if m_seq c =? s then cut s (g ++ [c]) l' else g :: cut (m_seq c) [c] l'
  end.

Lemma snippets_head l : forall c, exists g gs, snippets (c :: l) = (c :: g) :: gs.
Proof.
  intros c. cbn [snippets]. destruct (snippets l) as [|[|d g] gs]; eauto.
  destruct (m_seq c =? m_seq d); eauto.
Qed.

Lemma snippets_cut c l : snippets (c :: l) = cut (m_seq c) [c] l.
Proof.
  assert (X : forall l c p, (forall d, In d p -> m_seq d = m_seq c) ->
    cut (m_seq c) (p ++ [c]) l =
    match snippets (c :: l) with [] => [] | g :: gs => (p ++ g) :: gs end).
  { clear. intros l. induction l as [|d l IH]; intros c p P; [reflexivity|].
    cbn [cut]. destruct (snippets_head l d) as (g & gs & E).
    assert (E2 : snippets (c :: d :: l) =
      if m_seq c =? m_seq d then (c :: d :: g) :: gs else [c] :: (d :: g) :: gs).
    { change (snippets (c :: d :: l)) with
        (match snippets (d :: l) with
         | (d :: g) :: gs => if m_seq c =? m_seq d then (c :: d :: g) :: gs else [c] :: (d :: g) :: gs
         | gs => [c] :: gs end). rewrite E. reflexivity. }
    rewrite E2. rewrite (Z.eqb_sym (m_seq c)). destruct (Z.eqb_spec (m_seq d) (m_seq c)) as [S|S].
    - rewrite <- S. rewrite IH.
      + rewrite E, <- app_assoc. reflexivity.
      + intros x I. apply in_app_or in I as [I|[<-|[]]]; [rewrite P by exact I|]; congruence.
    - specialize (IH d [] ltac:(intros x [])). cbn [app] in IH. rewrite IH, E. reflexivity. }
  specialize (X l c [] ltac:(intros x [])). cbn [app] in X. rewrite X.
  destruct (snippets_head l c) as (g & gs & ->). reflexivity.
Qed.

Lemma cut_head s l : forall g, exists h gs, cut s g l = (g ++ h) :: gs.
Proof.
  induction l as [|c l IH]; intros g; cbn [cut].
  - exists [], []. rewrite app_nil_r. reflexivity.
  - destruct (m_seq c =? s).
    + destruct (IH (g ++ [c])) as (h & gs & E). exists (c :: h), gs. rewrite E, <- app_assoc. reflexivity.
    + exists [], (cut (m_seq c) [c] l). rewrite app_nil_r. reflexivity.
Qed.

(** *** The tiles of a dataset *)
Section Feed.
Variable E : env.
Hypothesis order : forall l x, Permutation (e_order E l x) x.
Variables (H K : list (list nat)) (ds : nat).
Hypothesis lens : length K = length H.

Definition did (c : chunk) : nat := Z.to_nat (formDataId (m_ant1 c) (m_ant2 c)).
Definition fine (c : chunk) : Prop :=
  0 <= m_seq c /\ (did c < length H)%nat /\ formDataId (m_ant1 c) (m_ant2 c) <= Z.of_nat (length H).
Definition tiles (r : rq) (a b : nat) (g : list chunk) : list action :=
  flat_map (fun c => map (fun h => ATile h r c a b) (for_tile H c)) g.

Lemma tiles_plain r a b g : Forall plain (tiles r a b g).
Proof.
  unfold tiles. apply Forall_forall. intros x I. apply in_flat_map in I as (c & _ & I).
  apply in_map_iff in I as (h & <- & _). exact Logic.I.
Qed.
Lemma tiles_app r a b g g' : tiles r a b (g ++ g') = tiles r a b g ++ tiles r a b g'.
Proof. apply flat_map_app. Qed.

(** The state in the middle of a snippet *)
Record inv (m : mux) (k : nat) (g : list chunk) (a b : nat) : Prop := mkInv {
  i_handlers : handlers m = H;
  i_kids : kids m = K;
  i_len : length (have m) = length H;
  i_have : forall d, nth d (have m) false = true <-> exists c, In c g /\ did c = d;
  i_now : now m = Some (ds, k);
  i_next : next m = (ds, S k);
  i_rows : rows m = (a, b);
  i_ntiles : ntiles m = Z.of_nat (S k);
  i_over : over E m = false;
  i_cur : 0 <= cur m }.

Lemma handOut_inv m k g a b c ok : inv m k g a b -> (did c < length H)%nat -> exists m' ok',
  handOut E c ok m = (m', ok && ok') /\ inv m' k (g ++ [c]) a b /\ cur m' = cur m /\
  log m' = log m ++ tiles (ds, k) a b [c] /\ cached m' = cached m /\
  (ok' = true <-> clean E (log m) (tiles (ds, k) a b [c])).
Proof.
  intros [A1 A2 A3 A4 A5 A6 A7 A8 A9 A10] L. unfold handOut. fold (did c).
  cbn [with_have now handlers rows]. rewrite A5, A7, A1. cbn [fst snd].
  set (m1 := with_have (set_nth (did c) true (have m)) m).
  destruct (callAll_eq E (fun h => ATile h (ds, k) c a b) (nth (did c) H []) m1 ltac:(intros; exact Logic.I)) as [B1 B2].
  destruct (callAll E (fun h => ATile h (ds, k) c a b) (nth (did c) H []) m1) as [m2 ok2]. cbn [fst snd] in *.
  assert (T : map (fun h => ATile h (ds, k) c a b) (nth (did c) H []) = tiles (ds, k) a b [c]).
  { unfold tiles, for_tile. cbn [flat_map]. rewrite app_nil_r. reflexivity. }
  rewrite T in B1, B2. exists m2, ok2. split; [reflexivity|]. subst m2. unfold m1 in *.
  split; [|split; [reflexivity|split; [reflexivity|split; [reflexivity|exact B2]]]].
  constructor; cbn [with_lc with_have handlers kids have now next rows ntiles cur]; try assumption.
  - rewrite length_set_nth. exact A3.
  - intros d. rewrite nth_set_nth by (rewrite A3; exact L).
    destruct (Nat.eqb_spec d (did c)) as [->|NE].
    + split; [intros _|reflexivity]. exists c. split; [apply in_or_app; right; left; reflexivity|reflexivity].
    + rewrite A4. split; intros (x & I & D).
      * exists x. split; [apply in_or_app; left; exact I|exact D].
      * apply in_app_or in I as [I|[<-|[]]]; [eauto|congruence].
Qed.

Lemma enabled_iff m k g a b i : inv m k g a b -> (forall c, In c g -> (did c < length H)%nat) ->
  (In i (enabled m) <-> exists c, In c g /\ In i (for_tile K c)).
Proof.
  intros [A1 A2 A3 A4 A5 A6 A7 A8 A9 A10] L. unfold enabled. rewrite nodup_In, in_flat_map, A2.
  split.
  - intros ([kk bb] & I & X). destruct bb; [|destruct X].
    apply (In_nth _ _ ([], false)) in I as (d & D & Q).
    rewrite combine_nth in Q by congruence. injection Q as Q1 Q2.
    apply A4 in Q2 as (c & C & Q2). exists c. split; [exact C|]. change (for_tile K c) with (nth (did c) K []). rewrite Q2, Q1. exact X.
  - intros (c & C & X). exists (nth (did c) K [], nth (did c) (have m) false). split.
    + rewrite <- combine_nth by congruence. apply nth_In. rewrite combine_length, A3, lens.
      specialize (L c C). lia.
    + rewrite (proj2 (A4 (did c))) by eauto. exact X.
Qed.

Lemma end_inv m k g a b : inv m k g a b -> (forall c, In c g -> (did c < length H)%nat) ->
  exists new c, fst (endSnippet E m) = with_lc (log m ++ new) c m /\
    emits E m new (with_lc (log m ++ new) c m) /\
    ended E K (ds, k) g (tree_part new) /\
    (snd (endSnippet E m) = true <-> clean E (log m) new).
Proof.
  intros V L. destruct (endSnippet_eq E m (ds, k) (i_now _ _ _ _ _ V)) as (new & c & polls & A & B & P & T & C).
  exists new, c. split; [exact A|]. split; [exact B|]. split; [|exact C].
  assert (PM : Permutation polls (enabled m)) by (subst polls; apply order).
  exists polls. split; [|split; [|exact T]].
  - apply (Permutation_NoDup (Permutation_sym PM)). unfold enabled. apply NoDup_nodup.
  - intros i. rewrite <- (enabled_iff m k g a b i V L).
    split; intros I; [apply (Permutation_in _ PM), I|apply (Permutation_in _ (Permutation_sym PM)), I].
Qed.

(** A new snippet *)
Definition newSnippet (c : chunk) (ok1 : bool) (m1 : mux) : mux * bool :=
  let m2 := with_ntiles (ntiles m1 + 1) m1 in
  if over E m2 then (m2, true)
  else
    let '(m3, ok3) := startSnippet E c (with_cur (m_seq c) m2) in
    handOut E c (ok1 && ok3) m3.

Lemma new_inv m k c ok1 :
  handlers m = H -> kids m = K -> next m = (ds, k) -> ntiles m = Z.of_nat k -> fine c -> startable E c ->
  over E (with_ntiles (ntiles m + 1) m) = false ->
  exists m' ok' a b, newSnippet c ok1 m = (m', ok1 && ok') /\ inv m' k [c] a b /\ cur m' = m_seq c /\
    first_last (m_rows c) a b /\
    log m' = log m ++ run_of E 0 (ds, k) ++ tiles (ds, k) a b [c] /\ cached m' = cached m /\
    (ok' = true <-> clean E (log m) (run_of E 0 (ds, k) ++ tiles (ds, k) a b [c])).
Proof.
  intros A1 A2 A3 A4 (F1 & F2 & F3) [S1 S2] O. unfold newSnippet. rewrite O.
  destruct (validRange_spec _ S1) as (a & b & V & FL). unfold startSnippet. rewrite V, S2.
  cbn [with_cur with_ntiles handlers kids have cur next now rows ntiles cached log]. rewrite A1, A2, A3. cbn [fst snd].
  set (m1 := mkMux H K (repeat false (length H)) (m_seq c) (ds, S k) (Some (ds, k)) (a, b) (ntiles m + 1)
               (cached m) (log m)).
  match goal with |- context [runChild E 0 (ds, k) ?x] => change x with m1 end.
  destruct (runChild_eq E 0 (ds, k) m1) as [B1 B2]. destruct (runChild E 0 (ds, k) m1) as [m3 ok3]. cbn [fst snd] in B1, B2.
  assert (V3 : inv m3 k [] a b).
  { subst m3. constructor; cbn [with_lc m1 handlers kids have now next rows ntiles cur]; try reflexivity.
    - apply repeat_length.
    - intros d. split.
      + intros X. exfalso. rewrite nth_repeat in X. discriminate.
      + intros (x & [] & _).
    - rewrite A4. lia.
    - exact O.
    - exact F1. }
  destruct (handOut_inv m3 k [] a b c (ok1 && ok3) V3 F2) as (m' & ok' & C1 & C2 & C3 & C4 & C5 & C6).
  exists m', (ok3 && ok'), a, b. split; [rewrite C1, andb_assoc; reflexivity|]. split; [exact C2|].
  assert (L3 : log m3 = log m ++ run_of E 0 (ds, k)) by (subst m3; reflexivity).
  split; [rewrite C3; subst m3; reflexivity|]. split; [exact FL|]. split; [rewrite C4, L3, <- app_assoc; reflexivity|].
  split; [rewrite C5; subst m3; reflexivity|].
  rewrite andb_true_iff, clean_app, B2, C6, L3. reflexivity.
Qed.

Fixpoint feed (l : list chunk) (m : mux) : mux * bool :=
  match l with
  | [] => (m, true)
  | c :: l' =>
      let '(m1, ok1) := deliverTile E c m in
      let '(m2, ok2) := feed l' m1 in
      (m2, ok1 && ok2)
  end.
Definition finish (m : mux) : mux * bool :=
  if over E m then (m, true)
  else if 0 <=? cur m then endSnippet E m else (m, true).
Definition through (l : list chunk) (m : mux) : mux * bool :=
  let '(m1, ok1) := feed l m in
  let '(m2, ok2) := finish m1 in
  (m2, ok1 && ok2).

Lemma through_cons c l m :
  through (c :: l) m =
  let '(m1, ok1) := deliverTile E c m in
  let '(m2, ok2) := through l m1 in (m2, ok1 && ok2).
Proof.
  unfold through. cbn [feed]. destruct (deliverTile E c m) as [m1 ok1]. destruct (feed l m1) as [m2 ok2].
  destruct (finish m2) as [m3 ok3]. rewrite andb_assoc. reflexivity.
Qed.

Lemma through_over l m : over E m = true -> through l m = (m, true).
Proof.
  intros O. assert (F : feed l m = (m, true)).
  { induction l as [|c l IH]; [reflexivity|]. cbn [feed]. unfold deliverTile. rewrite O, IH. reflexivity. }
  unfold through. rewrite F. unfold finish. rewrite O. reflexivity.
Qed.

Lemma deliver_same m k g a b c : inv m k g a b -> fine c -> m_seq c = cur m ->
  deliverTile E c m = handOut E c true m.
Proof.
  intros V (F1 & F2 & F3) S. unfold deliverTile. rewrite (i_over _ _ _ _ _ V), (i_handlers _ _ _ _ _ V).
  destruct (Z.ltb_spec (Z.of_nat (length H)) (formDataId (m_ant1 c) (m_ant2 c))); [lia|].
  rewrite S, Z.eqb_refl. reflexivity.
Qed.

Lemma deliver_new m c : handlers m = H -> over E m = false -> fine c -> m_seq c <> cur m ->
  deliverTile E c m =
  let '(m1, ok1) := if 0 <=? cur m then endSnippet E m else (m, true) in newSnippet c ok1 m1.
Proof.
  intros HH O (F1 & F2 & F3) S. unfold deliverTile. rewrite O, HH.
  destruct (Z.ltb_spec (Z.of_nat (length H)) (formDataId (m_ant1 c) (m_ant2 c))); [lia|].
  destruct (Z.eqb_spec (m_seq c) (cur m)); [contradiction|]. reflexivity.
Qed.

(** The snippets that are still let through when [k] have begun *)
Definition rest (k : nat) (gs : list (list chunk)) : list (list chunk) :=
  if e_max E <? 0 then gs else firstn (Z.to_nat (e_max E) - k) gs.
Definition rest_all (k : nat) (gs : list (list chunk)) : bool :=
  (e_max E <? 0) || (Z.of_nat (k + length gs) <=? e_max E).

Lemma over_iff m k : ntiles m = Z.of_nat k -> over E m = negb ((e_max E <? 0) || (Z.of_nat k <=? e_max E)).
Proof.
  intros N. unfold over. rewrite N. destruct (Z.ltb_spec (e_max E) 0), (Z.leb_spec 0 (e_max E)),
    (Z.leb_spec (Z.of_nat k) (e_max E)), (Z.ltb_spec (e_max E) (Z.of_nat k)); cbn; try reflexivity; lia.
Qed.

Definition kept_state (m m' : mux) : Prop := handlers m' = handlers m /\ kids m' = kids m /\ fst (next m') = fst (next m).

Lemma feed_snippet : forall l m k g a b,
  inv m k g a b -> (forall c, In c g -> (did c < length H)%nat) -> Forall fine l ->
  (forall c0 g', In (c0 :: g') (tl (cut (cur m) g l)) -> startable E c0) ->
  exists m' ok new h gs t2 t3,
    through l m = (m', ok) /\ kept_state m m' /\ cut (cur m) g l = (g ++ h) :: gs /\ emits E m new m' /\
    tree_part new = tiles (ds, k) a b h ++ t2 ++ t3 /\
    ended E K (ds, k) (g ++ h) t2 /\ processed E H K ds (S k) (rest (S k) gs) t3 /\
    over E m' = negb (rest_all (S k) gs) /\
    (clean E (log m) new -> ok = true) /\
    (rest_all (S k) gs = true -> ok = true -> clean E (log m) new).
Proof.
  induction l as [|c l IH]; intros m k g a b V L F ST.
  - (* the last snippet ends *)
    destruct (end_inv m k g a b V L) as (new & c & A & B & C & D).
    unfold through. cbn [feed]. unfold finish. rewrite (i_over _ _ _ _ _ V), (proj2 (Z.leb_le _ _) (i_cur _ _ _ _ _ V)).
    destruct (endSnippet E m) as [m1 ok1]. cbn [fst snd] in A, D. cbn [andb]. subst m1.
    exists (with_lc (log m ++ new) c m), ok1, new, [], [], (tree_part new), [].
    split; [reflexivity|]. split; [split; [|split]; reflexivity|]. rewrite app_nil_r. split; [reflexivity|]. split; [exact B|].
    split; [cbn; rewrite app_nil_r; reflexivity|]. split; [exact C|].
    split; [unfold rest; destruct (e_max E <? 0); rewrite ?firstn_nil; constructor|].
    split; [|split; [apply (proj2 D)|intros _; apply (proj1 D)]].
    unfold rest_all. cbn [length]. rewrite Nat.add_0_r. apply over_iff. cbn [with_lc ntiles]. apply (i_ntiles _ _ _ _ _ V).
  - apply Forall_cons_iff in F as [F0 F]. rewrite through_cons. cbn [cut] in ST |- *.
    destruct (Z.eqb_spec (m_seq c) (cur m)) as [S|S].
    + (* the snippet goes on *)
      rewrite (deliver_same m k g a b c V F0 S).
      destruct (handOut_inv m k g a b c true V (proj1 (proj2 F0))) as (m1 & ok1 & A1 & A2 & A3 & A4 & A5 & A6).
      rewrite A1. rewrite <- A3 in ST.
      destruct (IH m1 k (g ++ [c]) a b A2) as (m' & ok & new & h & gs & t2 & t3 & B1 & BK & B2 & B3 & B4 & B5 & B6 & B7 & B8 & B9).
      { intros x I. apply in_app_or in I as [I|[<-|[]]]; [apply L, I|apply F0]. }
      { exact F. }
      { exact ST. }
      rewrite B1. cbn [andb].
      exists m', (ok1 && ok), (tiles (ds, k) a b [c] ++ new), (c :: h), gs, t2, t3.
      split; [reflexivity|].
      split. { destruct BK as (K1 & K2 & K3). split; [|split]; rewrite ?K1, ?K2, ?K3;
                 [rewrite (i_handlers _ _ _ _ _ A2), (i_handlers _ _ _ _ _ V)|rewrite (i_kids _ _ _ _ _ A2), (i_kids _ _ _ _ _ V)
                 |rewrite (i_next _ _ _ _ _ A2), (i_next _ _ _ _ _ V)]; reflexivity. }
      split; [rewrite <- A3, B2, <- app_assoc; reflexivity|].
      split.
      { apply (emits_app E m m1); [|exact B3]. unfold emits. rewrite A4, A5, plain_out, plain_returned by apply tiles_plain.
        unfold outs, still. destruct (e_output E); auto. }
      split; [rewrite tree_app, plain_tree by apply tiles_plain; rewrite B4, app_assoc, <- tiles_app; reflexivity|].
      split; [rewrite <- app_assoc in B5; exact B5|]. split; [exact B6|]. split; [exact B7|].
      split.
      * rewrite clean_app, <- A4. intros [C1 C2]. rewrite (proj2 A6 C1), (B8 C2). reflexivity.
      * intros R X. apply andb_true_iff in X as [X1 X2]. rewrite clean_app, <- A4. split; [apply A6, X1|apply B9; assumption].
    + (* the snippet ends *)
      rewrite (deliver_new m c (i_handlers _ _ _ _ _ V) (i_over _ _ _ _ _ V) F0 S).
      rewrite (proj2 (Z.leb_le _ _) (i_cur _ _ _ _ _ V)).
      destruct (end_inv m k g a b V L) as (new1 & c1 & A & B & C & D).
      destruct (endSnippet E m) as [m1 ok1]. cbn [fst snd] in A, D.
      cbn [tl] in ST. destruct (cut_head (m_seq c) l [c]) as (h' & gs' & CH). cbn [app] in CH.
      assert (STC : startable E c) by (apply (ST c h'); rewrite CH; left; reflexivity).
      assert (N1 : ntiles m1 = Z.of_nat (Datatypes.S k)) by (subst m1; apply (i_ntiles _ _ _ _ _ V)).
      assert (N2 : ntiles (with_ntiles (ntiles m1 + 1) m1) = Z.of_nat (Datatypes.S (Datatypes.S k))).
      { cbn [with_ntiles ntiles]. rewrite N1. lia. }
      destruct (over E (with_ntiles (ntiles m1 + 1) m1)) eqn:O.
      * (* the limit *)
        unfold newSnippet. rewrite O. rewrite through_over by exact O. cbn [andb].
        pose proof (over_iff _ _ N2) as OI. rewrite O in OI. symmetry in OI. apply negb_true_iff in OI.
        apply orb_false_iff in OI as [O1 O2]. apply Z.ltb_ge in O1. apply Z.leb_gt in O2.
        exists (with_ntiles (ntiles m1 + 1) m1), true, new1, [], (cut (m_seq c) [c] l), (tree_part new1), [].
        split; [reflexivity|]. split; [subst m1; split; [|split]; reflexivity|]. rewrite app_nil_r. split; [reflexivity|].
        split; [destruct B as (B1 & B2 & B3); subst m1; split; [exact B1|split; assumption]|].
        split; [cbn; rewrite app_nil_r; reflexivity|]. split; [exact C|].
        split.
        { unfold rest. destruct (Z.ltb_spec (e_max E) 0); [lia|].
          replace (Z.to_nat (e_max E) - Datatypes.S k)%nat with 0%nat by lia. constructor. }
        assert (RF : rest_all (Datatypes.S k) (cut (m_seq c) [c] l) = false).
        { unfold rest_all. rewrite CH. cbn [length]. apply orb_false_iff. split; [apply Z.ltb_ge; lia|apply Z.leb_gt; lia]. }
        rewrite RF. split; [exact O|]. split; [reflexivity|discriminate].
      * destruct (new_inv m1 (Datatypes.S k) c ok1) as (m2 & ok2 & a2 & b2 & P1 & P2 & P3 & P4 & P5 & P6 & P7).
        { subst m1. apply (i_handlers _ _ _ _ _ V). }
        { subst m1. apply (i_kids _ _ _ _ _ V). }
        { subst m1. apply (i_next _ _ _ _ _ V). }
        { exact N1. }
        { exact F0. }
        { exact STC. }
        { exact O. }
        rewrite P1. rewrite <- P3 in ST.
        destruct (IH m2 (Datatypes.S k) [c] a2 b2 P2) as (m' & ok & new & h & gs & t2 & t3 & B1 & BK & B2 & B3 & B4 & B5 & B6 & B7 & B8 & B9).
        { intros x [<-|[]]. apply F0. }
        { exact F. }
        { intros c0 g' I. apply (ST c0 g'). destruct (cut (cur m2) [c] l); [destruct I|right; exact I]. }
        rewrite B1.
        pose proof (over_iff _ _ N2) as OI. rewrite O in OI. symmetry in OI. apply negb_false_iff in OI.
        assert (LG : log m1 = log m ++ new1) by (subst m1; reflexivity).
        set (new2 := run_of E 0 (ds, Datatypes.S k) ++ tiles (ds, Datatypes.S k) a2 b2 [c]) in *.
        assert (PL : Forall plain new2) by (apply Forall_app; split; [apply run_plain|apply tiles_plain]).
        assert (EM2 : emits E m1 new2 m2).
        { unfold emits. rewrite P5, P6, plain_out, plain_returned by exact PL. unfold outs, still. destruct (e_output E); auto. }
        exists m', (ok1 && ok2 && ok), (new1 ++ new2 ++ new), [], (cut (m_seq c) [c] l), (tree_part new1),
          (run_of E 0 (ds, Datatypes.S k) ++ tiles (ds, Datatypes.S k) a2 b2 ([c] ++ h) ++ t2 ++ t3).
        split; [reflexivity|].
        split. { destruct BK as (K1 & K2 & K3). split; [|split]; rewrite ?K1, ?K2, ?K3;
                   [rewrite (i_handlers _ _ _ _ _ P2), (i_handlers _ _ _ _ _ V)|rewrite (i_kids _ _ _ _ _ P2), (i_kids _ _ _ _ _ V)
                   |rewrite (i_next _ _ _ _ _ P2), (i_next _ _ _ _ _ V)]; reflexivity. }
        rewrite app_nil_r. split; [reflexivity|].
        split.
        { apply (emits_app E m m1); [subst m1; exact B|]. apply (emits_app E m1 m2); [exact EM2|exact B3]. }
        split.
        { rewrite !tree_app, (plain_tree new2), B4 by exact PL. unfold new2.
          rewrite (tiles_app _ _ _ [c] h), <- !app_assoc. reflexivity. }
        split; [exact C|].
        rewrite P3 in B2. rewrite B2.
        assert (RR : rest (Datatypes.S k) (([c] ++ h) :: gs) = ([c] ++ h) :: rest (Datatypes.S (Datatypes.S k)) gs).
        { unfold rest. destruct (Z.ltb_spec (e_max E) 0); [reflexivity|]. cbn [orb] in OI. apply Z.leb_le in OI.
          replace (Z.to_nat (e_max E) - Datatypes.S k)%nat with (Datatypes.S (Z.to_nat (e_max E) - Datatypes.S (Datatypes.S k))) by lia.
          reflexivity. }
        split.
        { rewrite RR. rewrite app_assoc. apply P_cons; [|exact B5|exact B6].
          exists c, h. split; [reflexivity|]. exists a2, b2. split; [exact P4|]. reflexivity. }
        assert (RA : rest_all (Datatypes.S k) (([c] ++ h) :: gs) = rest_all (Datatypes.S (Datatypes.S k)) gs).
        { unfold rest_all. cbn [length]. rewrite Nat.add_succ_r. reflexivity. }
        rewrite RA. split; [exact B7|].
        assert (L2 : log m2 = (log m ++ new1) ++ new2) by (rewrite P5, LG; reflexivity).
        split.
        -- rewrite !clean_app, <- L2. intros (X1 & X2 & X3). rewrite <- LG in X2.
           rewrite (proj2 D X1), (proj2 P7 X2), (B8 X3). reflexivity.
        -- intros R X. apply andb_true_iff in X as [X X3]. apply andb_true_iff in X as [X1 X2].
           rewrite !clean_app, <- L2. split; [apply D, X1|]. split; [rewrite <- LG; apply P7, X2|apply B9; assumption].
Qed.
End Feed.
