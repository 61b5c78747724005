(** Theorems about block sets (C09). *)
From Verif Require Import Base Bset_Model Bset_Spec Bset_Proofs.
Local Open Scope Z_scope.

(** blocks come out in the order they went in (as long as no pop is made on an empty set:
    then the code reads the front of an empty list) *)
Theorem blockset_fifo : forall s l, (pops l <= length (blocks s))%nat ->
  exists outs s', qrun s l = Ok (outs, s') /\ outs ++ blocks s' = blocks s ++ pushed l /\ length outs = pops l.
Proof. intros s l. exact (qrun_ok l s). Qed.
Print Assumptions blockset_fifo.
Theorem blockset_pop_empty_refuted : forall c n, bs_pop {| blocks := []; cursize := n; cur := c |} = UB.
Proof. reflexivity. Qed.
Print Assumptions blockset_pop_empty_refuted.

(** popMove moves the first blocks, in order; pushCopy and copyAll append, replace *)
Theorem blockset_popMove : forall s out n, size_ok s -> size_ok out -> (0 <= n)%Z ->
  match bs_popMove s out n with
  | Ok (s', out') => blocks s = firstn (Z.to_nat n) (blocks s) ++ blocks s' /\ blocks out' = blocks out ++ firstn (Z.to_nat n) (blocks s) /\
                     n <= Z.of_nat (length (blocks s)) /\ size_ok s' /\ size_ok out'
  | Err => Z.of_nat (length (blocks s)) < n
  | UB => False
  end.
Proof.
  intros s out n S1 S2 Hn. unfold bs_popMove, size_ok in *. rewrite S1. destruct (Z.ltb_spec (Z.of_nat (length (blocks s))) n); [assumption|].
  destruct (Nat.ltb_spec (length (blocks s)) (Z.to_nat n)); [lia|]. cbn [blocks cursize]. split; [symmetry; apply firstn_skipn|]. split; [reflexivity|].
  split; [assumption|]. rewrite skipn_length, app_length, firstn_length. split; lia.
Qed.
Print Assumptions blockset_popMove.
Theorem blockset_copies : forall s other, blocks (bs_pushCopy s other) = blocks s ++ blocks other /\ blocks (bs_copyAll other s) = blocks other /\
  (size_ok s -> size_ok other -> size_ok (bs_pushCopy s other)) /\ (size_ok other -> size_ok (bs_copyAll other s)).
Proof.
  intros s other. unfold size_ok, bs_copyAll, bs_pushCopy. cbn [blocks cursize bs_clear]. rewrite app_length. cbn [app]. repeat split; lia.
Qed.
Print Assumptions blockset_copies.

(** size() is right after every operation but flushToCursor *)
Theorem blockset_size : forall s b, size_ok s ->
  size_ok (bs_push s b) /\ size_ok (bs_pushFront s b) /\ size_ok (bs_clear s) /\ size_ok (snd (bs_initCursor s)) /\
  (forall x s', bs_pop s = Ok (x, s') -> size_ok s') /\ (forall n o s', bs_getCursorData s n = Ok (o, s') -> size_ok s').
Proof.
  intros s b H. unfold size_ok in *. cbn [bs_push bs_pushFront bs_clear bs_initCursor snd blocks cursize]. rewrite app_length. cbn [length].
  repeat split; try lia.
  - unfold bs_pop. destruct (blocks s) as [|y l] eqn:E; [discriminate|]. intros x s' F. injection F as <- <-. cbn [cursize blocks]. cbn in H. lia.
  - unfold bs_getCursorData. destruct (cur s); [discriminate|]. intros n o s'. destruct (cursor_loop _ _ _). intros F. injection F as <- <-. exact H.
Qed.
Print Assumptions blockset_size.

(** Reading from the start with any chunk sizes: what is read so far is the start of the
    data; "no more" is said only when all has been read, and is said after at most one
    call per byte; no chunk is longer than asked for. *)
Theorem cursor_reads_every_byte_once : forall s ns, let (total, s0) := bs_initCursor s in total = length (concat (blocks s)) /\
  exists outs s', reads s0 ns = Ok (outs, s') /\ blocks s' = blocks s /\
  concat (somes outs) = firstn (length (concat (somes outs))) (concat (blocks s)) /\
  Forall2 (fun n o => match o with Some c => (length c <= n)%nat /\ ((0 < n)%nat -> c <> []) | None => True end) ns outs /\
  (In None outs -> concat (somes outs) = concat (blocks s)) /\
  (Forall (fun n => 0 < n)%nat ns -> (length (concat (blocks s)) < length ns)%nat -> In None outs).
Proof.
  intros s ns. destruct (bs_initCursor s) as [total s0] eqn:E0. destruct (init_ok s) as (C & R & T). rewrite E0 in *. cbn [fst snd] in *.
  split; [exact T|]. destruct (reads_ok ns s0 C) as (outs & s' & E & C' & B & RR & F & N & P). exists outs, s'.
  split; [exact E|]. split; [rewrite B; unfold bs_initCursor in E0; injection E0 as _ <-; reflexivity|]. rewrite R in *. split; [|split; [exact F|split]].
  - rewrite <- RR. rewrite firstn_app, firstn_all, Nat.sub_diag. cbn. now rewrite app_nil_r.
  - intros H. rewrite <- RR, (N H), app_nil_r. reflexivity.
  - exact P.
Qed.
Print Assumptions cursor_reads_every_byte_once.

(** one read, from any position, with other operations in between *)
Theorem cursor_read_step : forall s n, cursor_ok s -> exists o s', bs_getCursorData s n = Ok (o, s') /\ cursor_ok s' /\ blocks s' = blocks s /\
  match o with
  | Some c => c ++ rest s' = rest s /\ (length c <= n)%nat
  | None => rest s = [] /\ rest s' = []
  end.
Proof.
  intros s n H. destruct (get_ok s n H) as (o & s' & E & C & B & _ & R). exists o, s'. repeat (split; [assumption|]). destruct o; [split; apply R|exact R].
Qed.
Print Assumptions cursor_read_step.
Theorem cursor_survives_pushes : forall s b d off, cursor_ok s -> cur s = CAt (S d) off ->
  (cursor_ok (bs_push s b) /\ rest (bs_push s b) = rest s ++ b) /\ (cursor_ok (bs_pushFront s b) /\ rest (bs_pushFront s b) = rest s).
Proof.
  intros s b d off C E. unfold cursor_ok, rest in *. cbn [bs_push bs_pushFront cur cur_back blocks]. rewrite E in *. cbn [cur_back].
  destruct C as [Hd Ho]. assert (A1 : ahead (bs_push s b) (S d + 1) = ahead s (S d) ++ [b]).
  { unfold ahead. cbn [bs_push blocks]. rewrite app_length. cbn [length]. replace (length (blocks s) + 1 - (S d + 1))%nat with (length (blocks s) - S d)%nat by lia.
    apply skipn_app_le. lia. }
  assert (A2 : ahead (bs_pushFront s b) (S d) = ahead s (S d)).
  { unfold ahead. cbn [bs_pushFront blocks length]. replace (S (length (blocks s)) - S d)%nat with (S (length (blocks s) - S d)) by lia. reflexivity. }
  assert (Ln := ahead_length s (S d) Hd).
  split; split.
  - replace (S d + 1)%nat with (S (d + 1)) in * by lia. rewrite A1, app_length. cbn [length]. split; [lia|]. destruct (ahead s (S d)); [cbn in *; discriminate|exact Ho].
  - rewrite A1, concat_app. cbn [concat]. rewrite app_nil_r. apply skipn_app_le. destruct (ahead s (S d)) as [|x l]; [cbn in *; discriminate|]. cbn in *. rewrite app_length. lia.
  - rewrite A2. cbn [length]. split; [lia|exact Ho].
  - now rewrite A2.
Qed.
Print Assumptions cursor_survives_pushes.
(** a cursor that has reached the end does not see blocks added later *)
Theorem cursor_after_end_refuted : exists s b, cursor_ok s /\ rest s = [] /\ b <> [] /\ blocks s <> [] /\ rest (bs_push s b) = [].
Proof. exists {| blocks := [[1]]; cursize := 1; cur := CAt 0 0 |}, [2]. repeat split; discriminate. Qed.
Print Assumptions cursor_after_end_refuted.

(** flushToCursor: drops blocks that have been read completely, and all of those; what is
    still to be read is unchanged *)
Theorem flush_drops_what_was_read : forall s, cursor_ok s -> exists n s' dropped off, bs_flushToCursor s = Ok (n, s') /\ cursor_ok s' /\
  blocks s = dropped ++ blocks s' /\ rest s' = rest s /\ cur s' = CAt (length (blocks s')) off /\
  (blocks s' <> [] -> (off < length (hd [] (blocks s')))%nat).
Proof.
  intros s H. destruct (flush_ok s H) as (s' & dr & E & C & B & R & _ & off & Ec & O). exists (cursize s), s', dr, off. auto 10.
Qed.
Print Assumptions flush_drops_what_was_read.
(** ... but size() is not updated: it is wrong afterwards, the return value is neither the
    number of blocks destroyed (as documented) nor the number left, and popMove of size()
    blocks takes blocks that are not there *)
Theorem flush_size_refuted : exists s n s', size_ok s /\ bs_flushToCursor s = Ok (n, s') /\ ~ size_ok s' /\
  n <> Z.of_nat (length (blocks s')) /\ n <> Z.of_nat (length (blocks s) - length (blocks s')) /\ bs_popMove s' bs_empty (cursize s') = UB.
Proof.
  exists {| blocks := [[1];[2];[3]]; cursize := 3; cur := CAt 2 0 |}. eexists _, _. split; [reflexivity|]. split; [reflexivity|].
  repeat split; discriminate.
Qed.
Print Assumptions flush_size_refuted.

Example ex_reads : reads (snd (bs_initCursor {| blocks := [[1;2;3];[];[4;5]]; cursize := 3; cur := CNone |})) [2;2;2;0;1;1]%nat
  = Ok ([Some [1;2]; Some [3]; Some [4;5]; None; None; None], {| blocks := [[1;2;3];[];[4;5]]; cursize := 3; cur := CAt 0 0 |}).
Proof. reflexivity. Qed.
Example ex_fifo : qrun bs_empty [QPush [1]; QPush [2]] = Ok ([], {| blocks := [[1];[2]]; cursize := 2; cur := CNone |}) /\
  (pops [QPop; QPush [3%Z]; QPop] <= length [[1%Z];[2%Z]])%nat.
Proof. split; [reflexivity|cbn; lia]. Qed.
