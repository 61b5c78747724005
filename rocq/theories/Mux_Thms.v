(** Theorems about the node that runs a stream of visibilities through a tree. *)
From Coq Require Import Permutation.
From Verif Require Import Base Vis_Model Vis_Sink_Thms Mux_Model Mux_Spec Mux_Proofs Mux_Feed Mux_Data.
Local Open Scope Z_scope.

(** The results of the sinks come in some order, each once *)
Definition any_order (E : env) : Prop := forall l x, Permutation (e_order E l x) x.
(** The snippets of a dataset: of the tiles between the stations the header announces
    (30 if it does not) *)
Definition dataset_snippets (n : Z) (chunks : list chunk) : list (list chunk) :=
  snippets (filter (between (if 0 <? n then n else 30)) chunks).
(** A dataset that can be processed: numbers are not negative, and cells can be made
    from the first tile of every snippet *)
Definition good_dataset (E : env) (n : Z) (chunks : list chunk) : Prop :=
  Forall (fun c => 0 <= m_seq c /\ 0 <= m_ant1 c /\ 0 <= m_ant2 c) chunks /\
  forall c0 g, In (c0 :: g) (dataset_snippets n chunks) -> startable E c0.
(** The handlers of the baselines between [n] stations *)
Definition all_handlers (n : Z) (m : mux) : list nat :=
  let n := if 0 <? n then n else 30 in
  concat (firstn (Z.to_nat (ifrNumber (n - 1) (n - 1) + 1)) (handlers m)).

(** What happens to the tree while a dataset goes through, whatever the handlers and
    children answer: every handler gets the header; the snippets are processed one after
    the other with successive requests, up to the limit if there is one; if the limit
    was not exceeded every handler gets the footer. *)
Theorem mux_dataset : forall E m n chunks l m' f,
  any_order E -> good_dataset E n chunks ->
  l = EHeader n true :: map EData chunks ++ [EFooter] ->
  pollChildren E l m = (m', f) ->
  let gs := dataset_snippets n chunks in
  exists new tr,
    log m' = log m ++ new /\
    processed E (handlers m) (kids m) (S (fst (next m))) 0 (kept (e_max E) gs) tr /\
    tree_part new = map AHeader (all_handlers n m) ++ tr ++
                    (if all_kept (e_max E) gs then map AFooter (all_handlers n m) else []).
Proof.
  intros E m n chunks l m' f O [SA ST] -> P gs.
  destruct (dataset E O n chunks (with_cached false m) SA ST) as (m1 & ok & new & tr & A & B & C & D & _).
  unfold pollChildren in P. rewrite A in P. cbn [pollLoop] in P. injection P as <- _.
  exists new, tr. split; [exact B|]. split; [exact D|exact C].
Qed.

(** What goes to the output: the tiles the sinks return, in the order in which they
    answer; before the first of them the header, and at the end the footer. *)
Theorem mux_output : forall E m n chunks l m' f,
  any_order E -> good_dataset E n chunks ->
  l = EHeader n true :: map EData chunks ++ [EFooter] ->
  pollChildren E l m = (m', f) ->
  exists new, log m' = log m ++ new /\
    out_part new =
      (if e_output E
       then match returned E (log m) new with [] => [] | d => OHeader :: map OData d end ++ [OFooter]
       else []).
Proof.
  intros E m n chunks l m' f O [SA ST] -> P.
  destruct (dataset E O n chunks (with_cached false m) SA ST) as (m1 & ok & new & tr & A & B & C & D & F & _).
  unfold pollChildren in P. rewrite A in P. cbn [pollLoop] in P. injection P as <- _.
  exists new. split; [exact B|exact F].
Qed.

(** Several datasets *)
Definition dataset_events (d : Z * list chunk) : list event :=
  EHeader (fst d) true :: map EData (snd d) ++ [EFooter].

Lemma loop_datasets E : any_order E -> forall ds m had failed,
  Forall (fun d => good_dataset E (fst d) (snd d)) ds ->
  exists m' ok new, pollLoop E (concat (map dataset_events ds)) false had failed m =
    (m', failed || negb ok || negb (match ds with [] => had | _ => true end)) /\
    log m' = log m ++ new /\ (clean E (log m) new -> ok = true) /\
    ((forall d, In d ds -> all_kept (e_max E) (dataset_snippets (fst d) (snd d)) = true) ->
     ok = true -> clean E (log m) new).
Proof.
  intros O. induction ds as [|[n chunks] ds IH]; intros m had failed G.
  - exists m, true, []. cbn [map concat pollLoop negb]. rewrite !orb_false_r, app_nil_r.
    split; [reflexivity|]. split; [reflexivity|]. split; [reflexivity|]. intros _ _. apply clean_nil.
  - apply Forall_cons_iff in G as [[SA ST] G]. cbn [fst snd] in SA, ST.
    destruct (dataset E O n chunks m SA ST) as (m1 & ok1 & new1 & tr & A & B & _ & _ & _ & C & D & _).
    cbn [map concat]. unfold dataset_events at 1. cbn [fst snd app]. rewrite <- app_assoc. cbn [app]. rewrite A.
    destruct (IH m1 true (failed || negb ok1) G) as (m' & ok & new & P & Q & R & S).
    exists m', (ok1 && ok), (new1 ++ new). rewrite P. split.
    { f_equal. destruct failed, ok1, ok, ds; reflexivity. }
    split; [rewrite Q, B, app_assoc; reflexivity|]. rewrite clean_app, <- B. split.
    + intros [X Y]. rewrite (C X), (R Y). reflexivity.
    + intros AK X. apply andb_true_iff in X as [X Y]. split.
      * apply D; [|exact X]. apply (AK (n, chunks)). left. reflexivity.
      * apply S; [|exact Y]. intros d I. apply AK. right. exact I.
Qed.

(** Errors: without one the node succeeds; and if it succeeds there was none, provided
    that the limit on the number of snippets was not exceeded. *)
Theorem mux_errors_partial : forall E m ds m' f,
  any_order E -> ds <> [] -> Forall (fun d => good_dataset E (fst d) (snd d)) ds ->
  pollChildren E (concat (map dataset_events ds)) m = (m', f) ->
  exists new, log m' = log m ++ new /\ (clean E (log m) new -> f = false) /\
    ((forall d, In d ds -> all_kept (e_max E) (dataset_snippets (fst d) (snd d)) = true) ->
     f = false -> clean E (log m) new).
Proof.
  intros E m ds m' f O NE G P. unfold pollChildren in P.
  destruct (loop_datasets E O ds (with_cached false m) false false G) as (m1 & ok & new & A & B & C & D).
  rewrite A in P. injection P as <- <-. exists new. split; [exact B|].
  destruct ds as [|d ds]; [congruence|]. cbn [orb negb]. rewrite orb_false_r. split.
  - intros X. rewrite (C X). reflexivity.
  - intros AK X. apply D; [exact AK|]. destruct ok; [reflexivity|discriminate].
Qed.

(** Success means that the stream was complete and in order. *)
Definition known (e : event) : bool := match e with EOther => false | _ => true end.

Lemma loop_order E : forall l op had failed m m',
  pollLoop E l op had failed m = (m', false) ->
  failed = false /\ (had = true \/ filter known l <> []) /\
  if op then exists b l', filter known l = b ++ l' /\ body b /\ stream l' else stream (filter known l).
Proof.
  induction l as [|e l IH]; intros op had failed m m' P; cbn [pollLoop] in P.
  - injection P as _ P. apply orb_false_iff in P as [P P3]. apply orb_false_iff in P as [P1 P2].
    apply negb_false_iff in P3. subst. split; [reflexivity|]. split; [left; reflexivity|constructor].
  - destruct e as [n complete|c| |]; cbn [filter known].
    + destruct op; [discriminate|]. destruct (deliverHeader E n complete m) as [m1 ok] eqn:D.
      apply IH in P as (A & _ & b & l' & B1 & B2 & B3). apply orb_false_iff in A as [A1 A2].
      apply negb_false_iff in A2. split; [exact A1|]. split; [right; discriminate|]. rewrite B1.
      destruct complete; [constructor; assumption|]. unfold deliverHeader in D. injection D as _ <-. discriminate.
    + destruct op; [|discriminate]. destruct (deliverTile E c m) as [m1 ok].
      apply IH in P as (A & _ & b & l' & B1 & B2 & B3). apply orb_false_iff in A as [A1 A2].
      split; [exact A1|]. split; [right; discriminate|]. exists (EData c :: b), l'. rewrite B1.
      split; [reflexivity|]. split; [constructor; exact B2|exact B3].
    + destruct op; [|discriminate]. destruct (deliverFooter E m) as [m1 ok].
      apply IH in P as (A & _ & B). apply orb_false_iff in A as [A1 A2].
      split; [exact A1|]. split; [right; discriminate|]. exists [EFooter], (filter known l).
      split; [reflexivity|]. split; [constructor|exact B].
    + apply IH in P. exact P.
Qed.

Theorem mux_order : forall E l m m',
  pollChildren E l m = (m', false) -> wellformed l.
Proof.
  intros E l m m' P. apply loop_order in P as (_ & [A|A] & B); [discriminate|]. split; assumption.
Qed.

(* ---------------------------------------------------------------- *)
(** ** Examples and what does not hold *)

(** Handlers 10 (a spigot) and 20 (sink number 3) on the baseline 0-1, 11 and 21 (sink
    number 4) on the baseline 0-2 *)
Definition put_at {A} (d : A) (l : list (nat * A)) (n : nat) : list A :=
  map (fun i => match find (fun p => Nat.eqb (fst p) i) l with Some p => snd p | None => d end) (seq 0 n).
Definition ex_mux : mux :=
  mkMux (put_at [] [(3, [10; 20]); (7, [11; 21])]%nat 20) (put_at [] [(3, [3]); (7, [4])]%nat 8)
    [] (-1) (0, 0)%nat None (0, 0)%nat 0 false [].
Definition ex_env (fail : rq -> bool) (tiles : bool) (mx : Z) : env :=
  mkEnv (fun _ => true)
    (fun l => match last l OFooter with
              | APoll i r => if fail r then CFail else CDone (if tiles then Some i else None)
              | _ => CDone None
              end)
    (fun _ => true) (fun _ x => x) (fun n => Nat.eqb n 1) true mx.
Definition never (r : rq) : bool := false.

Lemma ex_any f t mx : any_order (ex_env f t mx).
Proof. intros l x. apply Permutation_refl. Qed.

Definition tA := mkChunk 0 1 5 [false; true; true] 100.
Definition tB := mkChunk 0 2 5 [true; true; false] 101.
Definition tC := mkChunk 0 1 6 [true; true] 102.
Definition tD := mkChunk 7 8 6 [true; true] 103.
Definition tX := mkChunk 0 1 6 [false; false] 104.
Definition ex_stream (n : Z) (l : list chunk) : list event := EHeader n true :: map EData l ++ [EFooter].

Example mux_dataset_ex :
  log (fst (pollChildren (ex_env never true (-1)) (ex_stream 3 [tA; tB; tC; tD]) ex_mux)) =
    [AHeader 10; AHeader 20; AHeader 11; AHeader 21;
     ATile 10 (1, 0)%nat tA 1 2; ATile 20 (1, 0)%nat tA 1 2;
     ATile 11 (1, 0)%nat tB 1 2; ATile 21 (1, 0)%nat tB 1 2;
     ARun 1 (1, 0)%nat; APoll 3 (1, 0)%nat; OHeader; OData 3; APoll 4 (1, 0)%nat; OData 4;
     ATile 10 (1, 1)%nat tC 0 1; ATile 20 (1, 1)%nat tC 0 1;
     ARun 1 (1, 1)%nat; APoll 3 (1, 1)%nat; OData 3;
     AFooter 10; AFooter 20; AFooter 11; AFooter 21; OFooter] /\
  snd (pollChildren (ex_env never true (-1)) (ex_stream 3 [tA; tB; tC; tD]) ex_mux) = false /\
  log (fst (pollChildren (ex_env never true 1) (ex_stream 3 [tA; tB; tC; tD]) ex_mux)) =
    [AHeader 10; AHeader 20; AHeader 11; AHeader 21;
     ATile 10 (1, 0)%nat tA 1 2; ATile 20 (1, 0)%nat tA 1 2;
     ATile 11 (1, 0)%nat tB 1 2; ATile 21 (1, 0)%nat tB 1 2;
     ARun 1 (1, 0)%nat; APoll 3 (1, 0)%nat; OHeader; OData 3; APoll 4 (1, 0)%nat; OData 4; OFooter] /\
  snd (pollChildren (ex_env (fun r => Nat.eqb (snd r) 0) true (-1)) (ex_stream 3 [tA; tB]) ex_mux) = true /\
  snd (pollChildren (ex_env never true (-1)) [EHeader 3 true; EData tA] ex_mux) = true /\
  snd (pollChildren (ex_env never true (-1)) [] ex_mux) = true.
Proof. vm_compute. repeat split. Qed.

Lemma sane_ex l : forallb (fun c => (0 <=? m_seq c) && (0 <=? m_ant1 c) && (0 <=? m_ant2 c)) l = true ->
  Forall (fun c => 0 <= m_seq c /\ 0 <= m_ant1 c /\ 0 <= m_ant2 c) l.
Proof.
  intros A. apply Forall_forall. intros c I. rewrite forallb_forall in A. specialize (A c I). lia.
Qed.
Lemma good_ex f t mx l : forallb (fun c => (0 <=? m_seq c) && (0 <=? m_ant1 c) && (0 <=? m_ant2 c)) l = true ->
  forallb (fun c => existsb (fun b => b) (m_rows c)) l = true -> forall n, good_dataset (ex_env f t mx) n l.
Proof.
  intros A B n. split; [apply sane_ex, A|]. intros c0 g I.
  assert (IC : In c0 (concat (dataset_snippets n l))).
  { apply in_concat. exists (c0 :: g). split; [exact I|left; reflexivity]. }
  unfold dataset_snippets in IC. rewrite concat_snippets in IC. apply filter_In in IC as [IC _].
  rewrite forallb_forall in B. specialize (B c0 IC). apply existsb_exists in B as (x & X & ->).
  split; [exact X|reflexivity].
Qed.

(** When the limit stops the stream, a fail of the last snippet is dropped: the node
    succeeds. *)
Theorem mux_errors_refuted : ~ (forall E m ds m',
  any_order E -> ds <> [] -> Forall (fun d => good_dataset E (fst d) (snd d)) ds ->
  pollChildren E (concat (map dataset_events ds)) m = (m', false) -> log m = [] -> clean E [] (log m')).
Proof.
  intros H. set (E := ex_env (fun r => Nat.eqb (snd r) 0) true 1).
  set (m' := fst (pollChildren E (ex_stream 3 [tA; tC]) ex_mux)).
  assert (G : good_dataset E 3 [tA; tC]).
  { apply good_ex; reflexivity. }
  assert (P : pollChildren E (concat (map dataset_events [(3, [tA; tC])])) ex_mux = (m', false)).
  { change (concat (map dataset_events [(3, [tA; tC])])) with (ex_stream 3 [tA; tC]).
    assert (Q : snd (pollChildren E (ex_stream 3 [tA; tC]) ex_mux) = false) by (vm_compute; reflexivity).
    rewrite <- Q. apply surjective_pairing. }
  specialize (H E ex_mux [(3, [tA; tC])] m' (ex_any _ _ _) ltac:(discriminate)
    ltac:(constructor; [exact G|constructor]) P eq_refl).
  assert (L : log m' = [AHeader 10; AHeader 20; AHeader 11; AHeader 21;
     ATile 10 (1, 0)%nat tA 1 2; ATile 20 (1, 0)%nat tA 1 2; ARun 1 (1, 0)%nat] ++ APoll 3 (1, 0)%nat :: [OFooter])
    by (vm_compute; reflexivity).
  apply (H _ _ _ L). reflexivity.
Qed.

(** The output need not start with a header: if no tile is written the footer comes
    alone. *)
Theorem mux_output_refuted : ~ (forall E m n chunks m' f,
  any_order E -> good_dataset E n chunks -> log m = [] ->
  pollChildren E (EHeader n true :: map EData chunks ++ [EFooter]) m = (m', f) ->
  In OFooter (log m') -> In OHeader (log m')).
Proof.
  intros H. set (E := ex_env never false (-1)). set (m' := fst (pollChildren E (ex_stream 3 [tA]) ex_mux)).
  assert (G : good_dataset E 3 [tA]) by (apply good_ex; reflexivity).
  specialize (H E ex_mux 3 [tA] m' _ (ex_any _ _ _) G eq_refl (surjective_pairing _)).
  assert (L : log m' = [AHeader 10; AHeader 20; AHeader 11; AHeader 21;
     ATile 10 (1, 0)%nat tA 1 2; ATile 20 (1, 0)%nat tA 1 2; ARun 1 (1, 0)%nat; APoll 3 (1, 0)%nat;
     AFooter 10; AFooter 20; AFooter 11; AFooter 21; OFooter]) by (vm_compute; reflexivity).
  rewrite L in H. clear L. clearbody m'. cbn [In] in H.
  repeat destruct H as [H|H]; try discriminate H; try contradiction. tauto.
Qed.

(** A snippet that starts with a tile without valid rows goes to the handlers with the
    request of the snippet before it. *)
Theorem mux_start_refuted : ~ (forall E m n chunks m' f h1 h2 r c1 c2 a1 b1 a2 b2,
  any_order E -> Forall (fun c => 0 <= m_seq c /\ 0 <= m_ant1 c /\ 0 <= m_ant2 c) chunks -> log m = [] ->
  pollChildren E (EHeader n true :: map EData chunks ++ [EFooter]) m = (m', f) ->
  In (ATile h1 r c1 a1 b1) (log m') -> In (ATile h2 r c2 a2 b2) (log m') -> m_seq c1 = m_seq c2).
Proof.
  intros H. set (E := ex_env never true (-1)). set (m' := fst (pollChildren E (ex_stream 3 [tA; tX]) ex_mux)).
  assert (G : Forall (fun c => 0 <= m_seq c /\ 0 <= m_ant1 c /\ 0 <= m_ant2 c) [tA; tX]) by (apply sane_ex; reflexivity).
  assert (L : exists l1 l2 l3, log m' = l1 ++ ATile 10 (1, 0)%nat tA 1 2 :: l2 ++ ATile 10 (1, 0)%nat tX 1 2 :: l3).
  { exists [AHeader 10; AHeader 20; AHeader 11; AHeader 21].
    exists [ATile 20 (1, 0)%nat tA 1 2; ARun 1 (1, 0)%nat; APoll 3 (1, 0)%nat; OHeader; OData 3].
    exists [ATile 20 (1, 0)%nat tX 1 2; ARun 1 (1, 0)%nat; APoll 3 (1, 0)%nat; OData 3;
      AFooter 10; AFooter 20; AFooter 11; AFooter 21; OFooter]. vm_compute. reflexivity. }
  destruct L as (l1 & l2 & l3 & L).
  specialize (H E ex_mux 3 [tA; tX] m' _ 10%nat 10%nat (1, 0)%nat tA tX 1%nat 2%nat 1%nat 2%nat (ex_any _ _ _) G eq_refl (surjective_pairing _)).
  rewrite L in H. discriminate H.
  - apply in_or_app. right. left. reflexivity.
  - apply in_or_app. right. right. apply in_or_app. right. left. reflexivity.
Qed.

(** The range of valid rows that goes with a tile is not that of the tile: within a
    snippet all tiles go with that of the first. *)
Theorem mux_range_refuted : ~ (forall E m n chunks m' f h r c a b,
  any_order E -> good_dataset E n chunks -> log m = [] ->
  pollChildren E (EHeader n true :: map EData chunks ++ [EFooter]) m = (m', f) ->
  In (ATile h r c a b) (log m') -> first_last (m_rows c) a b).
Proof.
  intros H. set (E := ex_env never true (-1)). set (m' := fst (pollChildren E (ex_stream 3 [tA; tB]) ex_mux)).
  assert (G : good_dataset E 3 [tA; tB]) by (apply good_ex; reflexivity).
  assert (L : exists l1 l2, log m' = l1 ++ ATile 11 (1, 0)%nat tB 1 2 :: l2).
  { exists [AHeader 10; AHeader 20; AHeader 11; AHeader 21; ATile 10 (1, 0)%nat tA 1 2; ATile 20 (1, 0)%nat tA 1 2].
    exists [ATile 21 (1, 0)%nat tB 1 2; ARun 1 (1, 0)%nat; APoll 3 (1, 0)%nat; OHeader; OData 3; APoll 4 (1, 0)%nat; OData 4;
      AFooter 10; AFooter 20; AFooter 11; AFooter 21; OFooter]. vm_compute. reflexivity. }
  destruct L as (l1 & l2 & L).
  specialize (H E ex_mux 3 [tA; tB] m' _ 11%nat (1, 0)%nat tB 1%nat 2%nat (ex_any _ _ _) G eq_refl (surjective_pairing _)).
  rewrite L in H. destruct H as (_ & X & _); [apply in_or_app; right; left; reflexivity|]. discriminate.
Qed.

(** The handlers of a baseline beyond the stations of a dataset are forgotten: a later
    dataset with more stations does not reach them. *)
Theorem mux_next_dataset_refuted : ~ (forall E m n1 n2 l1 l2 m' f c h,
  any_order E -> good_dataset E n1 l1 -> good_dataset E n2 l2 -> log m = [] -> e_max E < 0 -> 0 < n2 ->
  pollChildren E (concat (map dataset_events [(n1, l1); (n2, l2)])) m = (m', f) ->
  In c l2 -> between n2 c = true -> In h (for_tile (handlers m) c) ->
  exists r a b, In (ATile h r c a b) (log m')).
Proof.
  intros H. set (E := ex_env never true (-1)).
  set (m' := fst (pollChildren E (concat (map dataset_events [(2, [tA]); (3, [tB])])) ex_mux)).
  assert (G1 : good_dataset E 2 [tA]) by (apply good_ex; reflexivity).
  assert (G2 : good_dataset E 3 [tB]) by (apply good_ex; reflexivity).
  assert (L : forallb (fun a => match a with ATile h _ _ _ _ => negb (Nat.eqb h 11) | _ => true end) (log m') = true)
    by (vm_compute; reflexivity).
  destruct (H E ex_mux 2 3 [tA] [tB] m' _ tB 11%nat (ex_any _ _ _) G1 G2 eq_refl eq_refl eq_refl (surjective_pairing _)) as (r & a & b & X).
  - left. reflexivity.
  - reflexivity.
  - left. reflexivity.
  - clearbody m'. rewrite forallb_forall in L. specialize (L _ X). discriminate L.
Qed.

Print Assumptions mux_dataset.
Print Assumptions mux_output.
Print Assumptions mux_errors_partial.
Print Assumptions mux_order.
Print Assumptions mux_errors_refuted.
Print Assumptions mux_output_refuted.
Print Assumptions mux_start_refuted.
Print Assumptions mux_range_refuted.
Print Assumptions mux_next_dataset_refuted.
