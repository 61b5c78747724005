(** Lemmas about VisDataMux: a dataset from the header to the footer. *)
From Coq Require Import Permutation.
From Verif Require Import Base Vis_Model Vis_Sink_Thms Mux_Model Mux_Spec Mux_Proofs Mux_Feed.
Local Open Scope Z_scope.

Section Data.
Variable E : env.
Hypothesis order : forall l x, Permutation (e_order E l x) x.

Lemma endSnippet_kept m : kept_state m (fst (endSnippet E m)) /\ ntiles (fst (endSnippet E m)) = ntiles m.
Proof.
  destruct (now m) as [r|] eqn:N.
  - destruct (endSnippet_eq E m r N) as (new & c & polls & A & _). rewrite A. repeat split.
  - unfold endSnippet. rewrite N. repeat split.
Qed.

Lemma handOut_handlers c ok m : handlers (fst (handOut E c ok m)) = handlers m.
Proof.
  unfold handOut. set (m1 := with_have _ m). destruct (now m1) as [r|]; [|reflexivity].
  match goal with |- context [callAll E ?f ?l m1] =>
    destruct (callAll_eq E f l m1 ltac:(intros; exact Logic.I)) as [A _]; destruct (callAll E f l m1) as [m2 ok2] end.
  cbn [fst] in *. subst m2. reflexivity.
Qed.

Lemma startSnippet_handlers c m : handlers (fst (startSnippet E c m)) = handlers m.
Proof.
  unfold startSnippet. destruct (validRange (m_rows c)); [|reflexivity].
  destruct (e_cells E c); [|reflexivity].
  match goal with |- context [runChild E 0 ?r ?x] => destruct (runChild_eq E 0 r x) as [A _]; rewrite A end.
  reflexivity.
Qed.

Lemma deliver_handlers c m : handlers (fst (deliverTile E c m)) = handlers m.
Proof.
  unfold deliverTile. destruct (over E m); [reflexivity|]. destruct (_ <? _); [reflexivity|].
  destruct (m_seq c =? cur m); [apply handOut_handlers|].
  assert (A : handlers (fst (if 0 <=? cur m then endSnippet E m else (m, true))) = handlers m).
  { destruct (0 <=? cur m); [apply endSnippet_kept|reflexivity]. }
  destruct (if 0 <=? cur m then endSnippet E m else (m, true)) as [m1 ok1]. cbn [fst] in A.
  destruct (over E (with_ntiles (ntiles m1 + 1) m1)); [exact A|].
  pose proof (startSnippet_handlers c (with_cur (m_seq c) (with_ntiles (ntiles m1 + 1) m1))) as B.
  destruct (startSnippet E c (with_cur (m_seq c) (with_ntiles (ntiles m1 + 1) m1))) as [m3 ok3]. cbn [fst] in B.
  rewrite handOut_handlers, B. exact A.
Qed.

Definition table_size (n : Z) : nat := Z.to_nat (ifrNumber (n - 1) (n - 1) + 1).
Definition sane (c : chunk) : Prop := 0 <= m_seq c /\ 0 <= m_ant1 c /\ 0 <= m_ant2 c.

Lemma table_size_Z n : 1 <= n -> Z.of_nat (table_size n) = ifrNumber (n - 1) (n - 1) + 1.
Proof.
  intros N. unfold table_size. destruct (ifr_numbers (n - 1) (n - 1) ltac:(lia) ltac:(lia)) as (A & _). lia.
Qed.

Lemma between_fine H n c : 1 <= n -> length H = table_size n -> sane c -> between n c = true -> fine H c.
Proof.
  intros N L (S1 & S2 & S3) B. unfold between in B. apply andb_true_iff in B as [B1 B2].
  apply Z.ltb_lt in B1, B2. destruct (ifr_table n (m_ant1 c) (m_ant2 c) N S2 S3) as (A & _ & _).
  destruct A as [_ A]. specialize (A (conj B1 B2)). pose proof (table_size_Z n N).
  destruct (ifr_numbers (m_ant1 c) (m_ant2 c) S2 S3) as (A0 & _).
  unfold fine, did, formDataId. rewrite L. split; [exact S1|]. lia.
Qed.

Lemma not_between n c m : 1 <= n -> length (handlers m) = table_size n -> sane c -> between n c = false ->
  deliverTile E c m = (m, true).
Proof.
  intros N L (S1 & S2 & S3) B. unfold deliverTile. destruct (over E m); [reflexivity|].
  pose proof (table_size_Z n N) as TS.
  assert (G : Z.of_nat (length (handlers m)) < formDataId (m_ant1 c) (m_ant2 c)).
  { rewrite L, TS. unfold formDataId. destruct (ifr_table n (m_ant1 c) (m_ant2 c) N S2 S3) as (A & A1 & _).
    unfold between in B. apply andb_false_iff in B.
    assert (NB : ~ (m_ant1 c < n /\ m_ant2 c < n)).
    { intros [X Y]. destruct B as [B|B]; apply Z.ltb_ge in B; lia. }
    cbn zeta in *. rewrite <- A in NB. lia. }
  destruct (Z.ltb_spec (Z.of_nat (length (handlers m))) (formDataId (m_ant1 c) (m_ant2 c))); [reflexivity|lia].
Qed.

Lemma feed_between n l : 1 <= n -> Forall sane l -> forall m, length (handlers m) = table_size n ->
  feed E l m = feed E (filter (between n) l) m.
Proof.
  intros N F. induction F as [|c l S F IH]; intros m L; [reflexivity|]. cbn [filter feed].
  destruct (between n c) eqn:B; cbn [feed].
  - pose proof (deliver_handlers c m) as D. destruct (deliverTile E c m) as [m1 ok1]. cbn [fst] in D.
    rewrite IH by (rewrite D; exact L). reflexivity.
  - rewrite (not_between n c m N L S B), IH by exact L. destruct (feed E (filter (between n) l) m). reflexivity.
Qed.

(** All tiles between header and footer *)
Lemma feed_all (H K : list (list nat)) ds : length K = length H -> forall l m,
  Forall (fine H) l -> (forall c0 g, In (c0 :: g) (snippets l) -> startable E c0) ->
  handlers m = H -> kids m = K -> next m = (ds, 0%nat) -> cur m = -1 -> ntiles m = 0 ->
  exists m' ok new,
    through E l m = (m', ok) /\ kept_state m m' /\ emits E m new m' /\
    processed E H K ds 0 (kept (e_max E) (snippets l)) (tree_part new) /\
    over E m' = negb (all_kept (e_max E) (snippets l)) /\
    (clean E (log m) new -> ok = true) /\
    (all_kept (e_max E) (snippets l) = true -> ok = true -> clean E (log m) new).
Proof.
  intros LN [|c l] m F ST HH HK NX CU NT.
  - assert (O : over E m = false).
    { unfold over. rewrite NT. destruct (Z.leb_spec 0 (e_max E)), (Z.ltb_spec (e_max E) 0); try reflexivity; lia. }
    exists m, true, []. unfold through, finish. cbn [feed]. rewrite O, CU.
    change (0 <=? -1) with false. cbn [andb snippets tree_part filter].
    split; [reflexivity|]. split; [repeat split|]. split; [apply emits_nil; reflexivity|].
    split; [unfold kept; rewrite firstn_nil; destruct (e_max E <? 0); constructor|].
    split; [|split; [reflexivity|intros _ _; apply clean_nil]].
    unfold all_kept. cbn [length Z.of_nat]. destruct (Z.ltb_spec (e_max E) 0), (Z.leb_spec 0 (e_max E)); try reflexivity; lia.
  - apply Forall_cons_iff in F as [F0 F]. rewrite through_cons.
    assert (O0 : over E m = false).
    { unfold over. rewrite NT. destruct (Z.leb_spec 0 (e_max E)), (Z.ltb_spec (e_max E) 0); try reflexivity; lia. }
    rewrite (deliver_new E H K LN m c HH O0 F0) by (destruct F0; lia). rewrite CU. cbn [Z.leb Z.compare].
    change (0 <=? -1) with false. cbn iota beta.
    rewrite (snippets_cut c l) in *. destruct (cut_head (m_seq c) l [c]) as (h' & gs' & CH). cbn [app] in CH.
    assert (N2 : ntiles (with_ntiles (ntiles m + 1) m) = Z.of_nat 1) by (cbn [with_ntiles ntiles]; lia).
    pose proof (over_iff E H K LN _ _ N2) as OI.
    destruct (over E (with_ntiles (ntiles m + 1) m)) eqn:O.
    + unfold newSnippet. rewrite O, through_over by exact O. cbn [andb].
      symmetry in OI. apply negb_true_iff in OI. apply orb_false_iff in OI as [O1 O2].
      apply Z.ltb_ge in O1. apply Z.leb_gt in O2. assert (MX : e_max E = 0) by lia.
      exists (with_ntiles (ntiles m + 1) m), true, []. split; [reflexivity|]. split; [repeat split|].
      split; [apply emits_nil; reflexivity|]. unfold kept, all_kept. rewrite MX, O, CH.
      split; [constructor|]. split; [reflexivity|]. split; [reflexivity|discriminate].
    + symmetry in OI. apply negb_false_iff in OI.
      destruct (new_inv E H K ds LN m 0 c true HH HK NX) as (m2 & ok2 & a & b & P1 & P2 & P3 & P4 & P5 & P6 & P7).
      { exact NT. }
      { exact F0. }
      { apply (ST c h'). rewrite CH. left. reflexivity. }
      { exact O. }
      rewrite P1. cbn [andb]. rewrite <- P3 in ST.
      destruct (feed_snippet E order H K ds LN l m2 0 [c] a b P2) as
        (m' & ok & new & h & gs & t2 & t3 & B1 & BK & B2 & B3 & B4 & B5 & B6 & B7 & B8 & B9).
      { intros x [<-|[]]. apply F0. }
      { exact F. }
      { intros c0 g' I. apply (ST c0 g'). destruct (cut (cur m2) [c] l); [destruct I|right; exact I]. }
      rewrite B1.
      set (new1 := run_of E 0 (ds, 0%nat) ++ tiles H (ds, 0%nat) a b [c]) in *.
      assert (PL : Forall plain new1) by (apply Forall_app; split; [apply run_plain|apply tiles_plain]).
      exists m', (ok2 && ok), (new1 ++ new). split; [reflexivity|].
      split. { destruct BK as (K1 & K2 & K3). split; [|split]; rewrite ?K1, ?K2, ?K3;
                 [rewrite (i_handlers _ _ _ _ _ _ _ _ _ P2)|rewrite (i_kids _ _ _ _ _ _ _ _ _ P2)
                 |rewrite (i_next _ _ _ _ _ _ _ _ _ P2)]; try (symmetry; assumption). rewrite NX. reflexivity. }
      split.
      { apply (emits_app E m m2); [|exact B3]. unfold emits. rewrite P5, P6, plain_out, plain_returned by exact PL.
        unfold outs, still. destruct (e_output E); auto. }
      rewrite P3 in B2. rewrite B2.
      assert (KP : kept (e_max E) (([c] ++ h) :: gs) = ([c] ++ h) :: rest E 1 gs).
      { unfold kept, rest. destruct (Z.ltb_spec (e_max E) 0); [reflexivity|]. cbn [orb] in OI. apply Z.leb_le in OI.
        replace (Z.to_nat (e_max E)) with (S (Z.to_nat (e_max E) - 1)) at 1 by lia. reflexivity. }
      assert (AK : all_kept (e_max E) (([c] ++ h) :: gs) = rest_all E 1 gs) by reflexivity.
      rewrite KP, AK. split.
      { rewrite tree_app, plain_tree, B4 by exact PL. unfold new1.
        replace ((run_of E 0 (ds, 0%nat) ++ tiles H (ds, 0%nat) a b [c]) ++ tiles H (ds, 0%nat) a b h ++ t2 ++ t3)
          with ((run_of E 0 (ds, 0%nat) ++ tiles H (ds, 0%nat) a b ([c] ++ h)) ++ t2 ++ t3)
          by (rewrite (tiles_app _ _ _ _ [c] h), <- !app_assoc; reflexivity).
        apply P_cons; [|exact B5|exact B6].
        exists c, h. split; [reflexivity|]. exists a, b. split; [exact P4|reflexivity]. }
      split; [exact B7|]. split.
      * rewrite clean_app, <- P5. intros [X1 X2]. rewrite (proj2 P7 X1), (B8 X2). reflexivity.
      * intros R X. apply andb_true_iff in X as [X1 X2]. rewrite clean_app, <- P5.
        split; [apply P7, X1|apply B9; assumption].
Qed.

Lemma finish_over m : over E (fst (finish E m)) = over E m.
Proof.
  unfold finish. destruct (over E m) eqn:O; [exact O|]. destruct (0 <=? cur m); [|exact O].
  unfold over in *. rewrite (proj2 (endSnippet_kept m)). exact O.
Qed.

Lemma footer_eq m :
  deliverFooter E m =
  let '(m2, ok2) := finish E m in
  let '(m3, ok3) := if over E m2 then (m2, true) else callAll E AFooter (concat (handlers m2)) m2 in
  (if e_output E then say OFooter m3 else m3, ok2 && ok3).
Proof.
  unfold deliverFooter. pose proof (finish_over m) as FO. unfold finish in *.
  destruct (over E m) eqn:O.
  - rewrite O. cbn. destruct (e_output E); reflexivity.
  - destruct (if 0 <=? cur m then endSnippet E m else (m, true)) as [m1 ok1] eqn:Q.
    cbn [fst] in FO. rewrite FO. destruct (callAll E AFooter (concat (handlers m1)) m1) as [m2 ok2]. reflexivity.
Qed.

Lemma loop_data l : forall tl had failed m,
  pollLoop E (map EData l ++ tl) true had failed m =
  pollLoop E tl true had (failed || negb (snd (feed E l m))) (fst (feed E l m)).
Proof.
  induction l as [|c l IH]; intros tl had failed m; cbn [map app].
  - cbn [feed fst snd]. rewrite orb_false_r. reflexivity.
  - cbn [pollLoop feed]. destruct (deliverTile E c m) as [m1 ok1]. rewrite IH.
    destruct (feed E l m1) as [m2 ok2]. cbn [fst snd]. f_equal. rewrite <- orb_assoc. f_equal.
    destruct ok1, ok2; reflexivity.
Qed.

Lemma concat_resize {A} n (l : list (list A)) : concat (resize n [] l) = concat (firstn n l).
Proof.
  unfold resize. rewrite concat_app. assert (X : forall k, concat (repeat ([] : list A) k) = []).
  { induction k; [reflexivity|assumption]. }
  rewrite X, app_nil_r. reflexivity.
Qed.

Lemma concat_snippets l : concat (snippets l) = l.
Proof.
  induction l as [|c l IH]; [reflexivity|]. cbn [snippets].
  destruct (snippets l) as [|[|d g] gs]; cbn in *; try congruence.
  destruct (m_seq c =? m_seq d); cbn; congruence.
Qed.
Lemma kept_in mx gs g : In g (kept mx gs) -> In g gs.
Proof.
  unfold kept. destruct (mx <? 0); [auto|]. intros I. rewrite <- (firstn_skipn (Z.to_nat mx) gs).
  apply in_or_app. left. exact I.
Qed.

Lemma processed_ext H K H' K' ds gs : (forall g c, In g gs -> In c g -> for_tile H c = for_tile H' c /\ for_tile K c = for_tile K' c) ->
  forall n tr, processed E H K ds n gs tr -> processed E H' K' ds n gs tr.
Proof.
  intros X n tr P. induction P as [n|n g gs t1 t2 t3 P1 P2 P3 IH]; [constructor|].
  constructor.
  - destruct P1 as (c0 & g' & Q & a & b & FL & T). exists c0, g'. split; [exact Q|]. exists a, b. split; [exact FL|].
    rewrite T. f_equal. rewrite !flat_map_concat_map. f_equal. apply map_ext_in. intros c I.
    rewrite (proj1 (X g c (or_introl eq_refl) I)). reflexivity.
  - destruct P2 as (polls & ND & PI & T). exists polls. split; [exact ND|]. split; [|exact T].
    intros i. rewrite PI. split; intros (c & I & Y); exists c; (split; [exact I|]);
      pose proof (proj2 (X g c (or_introl eq_refl) I)); congruence.
  - apply IH. intros g' c I. apply X. right. exact I.
Qed.

Definition stations (n : Z) : Z := if 0 <? n then n else 30.

(** A dataset, whatever follows *)
Lemma dataset n chunks m : Forall sane chunks ->
  (forall c0 g, In (c0 :: g) (snippets (filter (between (stations n)) chunks)) -> startable E c0) ->
  let size := table_size (stations n) in
  let gs := snippets (filter (between (stations n)) chunks) in
  let hs := concat (firstn size (handlers m)) in
  exists m' ok new tr,
    (forall l had failed,
       pollLoop E (EHeader n true :: map EData chunks ++ EFooter :: l) false had failed m
       = pollLoop E l false true (failed || negb ok) m') /\
    log m' = log m ++ new /\
    tree_part new = map AHeader hs ++ tr ++ (if all_kept (e_max E) gs then map AFooter hs else []) /\
    processed E (handlers m) (kids m) (S (fst (next m))) 0 (kept (e_max E) gs) tr /\
    out_part new = (if e_output E
                    then match returned E (log m) new with [] => [] | d => OHeader :: map OData d end ++ [OFooter]
                    else []) /\
    (clean E (log m) new -> ok = true) /\
    (all_kept (e_max E) gs = true -> ok = true -> clean E (log m) new) /\
    fst (next m') = S (fst (next m)) /\
    handlers m' = resize size [] (handlers m) /\ kids m' = resize size [] (kids m).
Proof.
  intros SA ST size gs hs.
  assert (N1 : 1 <= stations n) by (unfold stations; destruct (Z.ltb_spec 0 n); lia).
  (* the header *)
  set (H := resize size [] (handlers m)). set (K := resize size [] (kids m)).
  set (m0 := mkMux H K (repeat false size) (-1) (S (fst (next m)), 0%nat) (now m) (rows m) (ntiles m) (cached m) (log m)).
  assert (CH : concat H = hs) by apply concat_resize.
  destruct (callAll_eq E AHeader hs m0 ltac:(intros; exact Logic.I)) as [A1 A2].
  assert (DH : deliverHeader E n true m = (with_cached true (fst (callAll E AHeader hs m0)), snd (callAll E AHeader hs m0))).
  { unfold deliverHeader. fold (stations n). unfold formDataId. fold (table_size (stations n)). fold size. fold H. fold K.
    fold m0. cbn [handlers m0]. rewrite CH. destruct (callAll E AHeader hs m0). reflexivity. }
  set (okh := snd (callAll E AHeader hs m0)) in *.
  set (m1 := with_ntiles 0 (with_cached true (fst (callAll E AHeader hs m0)))).
  assert (L1 : log m1 = log m ++ map AHeader hs) by (unfold m1; rewrite A1; reflexivity).
  assert (LH : length H = size) by apply length_resize.
  assert (LK : length K = length H) by (unfold K; rewrite length_resize, LH; reflexivity).
  (* the tiles *)
  destruct (feed_all H K (S (fst (next m))) LK (filter (between (stations n)) chunks) m1) as
    (m2 & ok2 & new2 & B1 & BK & B2 & B3 & B4 & B5 & B6).
  { apply Forall_forall. intros c I. apply filter_In in I as [I B].
    apply (between_fine H (stations n) c N1 LH); [|exact B]. rewrite Forall_forall in SA. apply SA, I. }
  { exact ST. }
  { unfold m1. rewrite A1. reflexivity. }
  { unfold m1. rewrite A1. reflexivity. }
  { unfold m1. rewrite A1. reflexivity. }
  { unfold m1. rewrite A1. reflexivity. }
  { reflexivity. }
  fold gs in B3, B4, B6.
  assert (H1 : handlers m1 = H) by (unfold m1; rewrite A1; reflexivity).
  assert (K1 : kids m1 = K) by (unfold m1; rewrite A1; reflexivity).
  assert (X1 : fst (next m1) = S (fst (next m))) by (unfold m1; rewrite A1; reflexivity).
  destruct BK as (H2 & K2 & X2). rewrite H1 in H2. rewrite K1 in K2. rewrite X1 in X2.
  unfold through in B1.
  rewrite <- (feed_between (stations n) chunks N1 SA m1) in B1 by (rewrite H1, LH; reflexivity).
  destruct (feed E chunks m1) as [mf okf] eqn:FE. destruct (finish E mf) as [mg okg] eqn:FI. injection B1 as <- <-.
  (* the footer *)
  destruct (callAll_eq E AFooter (concat (handlers mg)) mg ltac:(intros; exact Logic.I)) as [C1 C2].
  rewrite H2, CH in *.
  set (foot := if all_kept (e_max E) gs then map AFooter hs else []).
  set (m3ok := if over E mg then (mg, true) else callAll E AFooter hs mg) in *.
  assert (M3 : fst m3ok = with_lc (log mg ++ foot) (cached mg) mg /\ (snd m3ok = true <-> clean E (log mg) foot)).
  { unfold m3ok, foot. rewrite B4. destruct (all_kept (e_max E) gs); cbn [negb fst snd]; [split; assumption|].
    rewrite app_nil_r, with_lc_id. split; [reflexivity|]. split; [intros _; apply clean_nil|reflexivity]. }
  destruct M3 as [M31 M32].
  set (m' := if e_output E then say OFooter (fst m3ok) else fst m3ok).
  set (last := if e_output E then [OFooter] else []).
  destruct B2 as (E1 & E2 & E3).
  assert (C1' : cached m1 = true) by reflexivity.
  exists m', (okh && (okf && okg) && snd m3ok), (map AHeader hs ++ new2 ++ foot ++ last), (tree_part new2).
  assert (PH : Forall plain (map AHeader hs)).
  { apply Forall_forall. intros x I. apply in_map_iff in I as (h & <- & _). exact Logic.I. }
  assert (PF : Forall plain foot).
  { unfold foot. destruct (all_kept (e_max E) gs); [|constructor].
    apply Forall_forall. intros x I. apply in_map_iff in I as (h & <- & _). exact Logic.I. }
  assert (LM : log m' = log m ++ map AHeader hs ++ new2 ++ foot ++ last).
  { unfold m', last. destruct (e_output E); cbn [say log]; rewrite M31; cbn [with_lc log]; rewrite E1, L1, <- !app_assoc, ?app_nil_r; reflexivity. }
  assert (RET : returned E (log m) (map AHeader hs ++ new2 ++ foot ++ last) = returned E (log m1) new2).
  { rewrite !returned_app, plain_returned, (plain_returned E foot) by assumption. rewrite <- L1. cbn [app].
    unfold last. destruct (e_output E); cbn [returned]; rewrite !app_nil_r; reflexivity. }
  split.
  { intros l had failed. cbn [pollLoop]. rewrite DH. fold m1. rewrite loop_data, FE. cbn [fst snd pollLoop].
    rewrite footer_eq, FI, H2, CH. fold m3ok. destruct m3ok as [m3 ok3]. cbn [fst snd] in *. fold m'.
    f_equal. destruct failed, okh, okf, okg, ok3; reflexivity. }
  split; [exact LM|]. split.
  { rewrite !tree_app, plain_tree, (plain_tree foot) by assumption. fold foot. f_equal. f_equal.
    unfold last. destruct (e_output E); cbn; rewrite app_nil_r; reflexivity. }
  split.
  { apply (processed_ext H K); [|exact B3]. intros g c GI CI. apply kept_in in GI.
    assert (IC : In c (filter (between (stations n)) chunks)).
    { rewrite <- concat_snippets. apply in_concat. exists g. split; [exact GI|exact CI]. }
    apply filter_In in IC as [IC B]. rewrite Forall_forall in SA.
    destruct (between_fine H (stations n) c N1 LH (SA c IC) B) as (_ & D & _). rewrite LH in D.
    unfold for_tile. fold (formDataId (m_ant1 c) (m_ant2 c)). fold (did c). unfold H, K.
    rewrite !nth_resize by exact D. split; reflexivity. }
  split.
  { rewrite RET, !out_app, plain_out, (plain_out foot), E2, C1' by assumption. cbn [app]. unfold outs, last.
    destruct (e_output E); [|reflexivity]. cbn [out_part filter is_output].
    destruct (returned E (log m1) new2); reflexivity. }
  assert (CL : clean E (log m) (map AHeader hs ++ new2 ++ foot ++ last) <->
               okh = true /\ clean E (log m1) new2 /\ snd m3ok = true).
  { rewrite !clean_app, <- L1, <- E1. cbn [log m0] in A2. rewrite A2, M32.
    assert (LC : forall p, clean E p last).
    { intros p. unfold last. destruct (e_output E); [|apply clean_nil]. rewrite clean_cons. split; [intros []|apply clean_nil]. }
    split; [tauto|]. intros (Y1 & Y2 & Y3). split; [exact Y1|]. split; [exact Y2|]. split; [exact Y3|apply LC]. }
  split. { rewrite CL. intros (Y1 & Y2 & Y3). rewrite Y1, Y3, (B5 Y2). reflexivity. }
  split. { intros AK X. apply andb_true_iff in X as [X Y3]. apply andb_true_iff in X as [Y1 Y2].
           rewrite CL. split; [exact Y1|]. split; [apply B6; assumption|exact Y3]. }
  assert (MM : fst (next m') = fst (next mg) /\ handlers m' = handlers mg /\ kids m' = kids mg).
  { unfold m'. destruct (e_output E); rewrite M31; repeat split. }
  destruct MM as (-> & -> & ->). rewrite X2, H2, K2. repeat split.
Qed.
End Data.
