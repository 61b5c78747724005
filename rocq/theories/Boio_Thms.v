(** Theorems about object files (C10, C11). *)
From Verif Require Import Base Bytes_Model Ser_Model Ser_Spec Ser_Proofs Ser_Thms Boio_Model Boio_Spec Boio_Proofs.
Local Open Scope Z_scope.

(** Reading back gives what was written, in order, then the end of the file, however often
    one asks.  Writes that threw (an item without blocks, or with an empty block) make the
    corresponding read throw and do not affect the others.  [h0]: the uninitialised header. *)
Theorem object_file_round_trip : forall l n h0, Forall item_ok l -> length h0 = 8%nat ->
  read_n (length l + n) (boio_open (file_of l) h0) = map expected l ++ repeat REof n.
Proof. intros l n h0 H L. apply read_all; [exact H|repeat split; exact L|reflexivity]. Qed.
Print Assumptions object_file_round_trip.

(** which writes succeed: those of items with blocks, none of them empty *)
Theorem object_file_write_succeeds : forall i, solid i = true <-> snd (boio_write (fst i) (snd i)) <> None.
Proof.
  intros [t bs]. cbn [fst snd]. split.
  - intros H. apply solid_iff in H as [N F]. cbn in *. unfold boio_write. rewrite (write_blocks_ok bs F). destruct bs; [contradiction|]. discriminate.
  - intros H. destruct (solid (t, bs)) eqn:E; [reflexivity|]. exfalso. apply H. unfold boio_write. destruct bs as [|b bs]; [reflexivity|].
    unfold solid in E. cbn [snd] in E. cbn [length Nat.eqb negb andb] in E. apply solid_false in E.
    destruct (read_blocks_empty (b :: bs) [] false E) as [_ W]. destruct (write_blocks (b :: bs)). cbn in *. now rewrite W.
Qed.
Print Assumptions object_file_write_succeeds.

(** the documented return value of write ("number of bytes actually written") leaves out
    the array of sizes *)
Theorem object_file_write_count_refuted : forall t bs n, snd (boio_write t bs) = Some n ->
  length (fst (boio_write t bs)) = (n + 8 * length bs)%nat /\ n <> length (fst (boio_write t bs)).
Proof.
  intros t bs n H. assert (S : solid (t, bs) = true) by (apply object_file_write_succeeds; cbn [fst snd]; rewrite H; discriminate).
  apply solid_iff in S as [N F]. cbn [snd] in *. unfold boio_write in *. rewrite (write_blocks_ok bs F) in *. destruct bs as [|b bs]; [contradiction|]. remember (b :: bs) as l. assert (1 <= length l)%nat by (subst; cbn; lia). cbn [snd fst option_map] in *. apply (f_equal (option_map Z.of_nat)) in H. cbn [option_map] in H. injection H as H.
  rewrite !app_length, enc_hdr_length, enc_u64s_len, map_length. split; lia.
Qed.
Print Assumptions object_file_write_count_refuted.

(** a data block of size zero cannot be stored: a message with an empty block, say *)
Theorem object_file_empty_block_refuted : exists i, item_ok i /\ snd (boio_write (fst i) (snd i)) = None /\
  forall h0, length h0 = 8%nat -> read_n 1 (boio_open (file_of [i]) h0) = [RThrow].
Proof.
  exists (-100, [[1;2];[];[3]]). split; [repeat split; try discriminate; cbn [fst snd length]; try lia; repeat constructor; cbn [length]; lia|].
  split; [reflexivity|]. intros h0 H. apply (object_file_round_trip [(-100, [[1;2];[];[3]])] 0 h0); [|exact H].
  constructor; [|constructor]. repeat split; try discriminate; cbn [fst snd length]; try lia; repeat constructor; cbn [length]; lia.
Qed.
Print Assumptions object_file_empty_block_refuted.

(** ... for objects: what is built from what readAny finds has the contents of the object
    written ([plain]: an object with nothing left in blocks inside, as built in memory) *)
Definition obj_item (o : obj) : item := (type_of o, toBlock o).
Definition build (e : tenv) (r : rout) : option obj :=
  match r with RObj t bs => match construct e t bs with POk o [] => Some o | _ => None end | _ => None end.
Theorem object_file_objects : forall e os n h0, wf_env e -> length h0 = 8%nat ->
  Forall (fun o => storable e o /\ plain o /\ Forall (fun b => Z.of_nat (length b) < 2 ^ 64) (toBlock o)) os ->
  let outs := read_n (length os + n) (boio_open (file_of (map obj_item os)) h0) in
  exists os', map (build e) outs = map Some os' ++ repeat None n /\ skipn (length os) outs = repeat REof n /\
    Forall2 (fun o o' => reads e o' o /\ forall t, reads e o' t -> t = o) os os'.
Proof.
  intros e os n h0 He L H. cbv zeta.
  assert (HI : Forall item_ok (map obj_item os)).
  { apply Forall_map. eapply Forall_impl; [|exact H]. intros o ((Hw & Hs) & Hp & Hb). unfold obj_item, item_ok. cbn [fst snd].
    destruct (head_ok e o He Hw) as (b & r & k & _ & _ & _ & _ & Hz & Hi). auto. }
  pose proof (object_file_round_trip (map obj_item os) n h0 HI L) as R. rewrite map_length in R. rewrite R. clear R HI.
  assert (G : map expected (map obj_item os) = map (fun o => RObj (type_of o) (toBlock o)) os).
  { rewrite map_map. apply map_ext_in. intros o Ho. rewrite Forall_forall in H. destruct (H o Ho) as ((Hw & Hs) & Hp & Hb).
    unfold expected, obj_item. cbn [fst snd]. assert (S : solid (type_of o, toBlock o) = true).
    { apply solid_iff. cbn [snd]. split; [destruct (head_ok e o He Hw) as (b & r & k & -> & _); discriminate|]. exact (toBlock_nonempty o Hp). }
    now rewrite S. }
  rewrite G. clear G.
  assert (G : exists os', map (build e) (map (fun o => RObj (type_of o) (toBlock o)) os) = map Some os' /\
     Forall2 (fun o o' => reads e o' o /\ forall t, reads e o' t -> t = o) os os').
  { induction H as [|o os ((Hw & Hs) & Hp & Hb) H IH]; [exists []; auto|]. destruct IH as (os' & E & F).
    destruct (rt_all e He o Hw Hs (S (length (toBlock o ++ []))) (type_of o) []) as (o' & E1 & E2); [auto|lia|].
    exists (o' :: os'). split.
    - cbn [map build]. rewrite app_nil_r in E1. unfold construct. rewrite E1, E. reflexivity.
    - constructor; [|exact F]. assert (R := E2 o (plain_reads e o Hp)). split; [exact R|]. intros t Ht. exact (reads_det e o' t Ht o R). }
  destruct G as (os' & E & F). exists os'. rewrite map_app, E. split; [f_equal; clear; induction n; cbn; [reflexivity|now f_equal]|]. split; [|exact F].
  rewrite skipn_app, map_length, Nat.sub_diag, skipn_all2 by (rewrite map_length; lia). reflexivity.
Qed.
Print Assumptions object_file_objects.

(** *** C11 *)
(** A file cut anywhere: reading gives the first [k] items, then end of file or an
    exception, and no item after that; [k] items fit before the cut; without a cut all come. *)
Theorem object_file_truncated : forall l cut n h0, Forall item_ok l -> Forall (fun i => solid i = true) l -> length h0 = 8%nat ->
  exists k tail, read_n n (boio_open (firstn cut (file_of l)) h0) = map (fun i => RObj (fst i) (snd i)) (firstn k l) ++ tail /\
    (k <= length l)%nat /\ forallb (fun o => negb (is_obj o)) tail = true /\ (length (file_of (firstn k l)) <= cut)%nat /\
    ((k < n)%nat -> exists o tl, tail = o :: tl /\ (o = REof \/ o = RThrow)) /\
    ((length l < n)%nat -> (length (file_of l) <= cut)%nat -> k = length l).
Proof.
  intros l cut n h0 H S L. destruct (read_truncated l (boio_open (firstn cut (file_of l)) h0) cut n H S) as (k & tail & E & R); [repeat split; exact L|reflexivity|].
  exists k, tail. split; [|exact R]. rewrite E. f_equal. apply map_ext_in. intros i Hi. unfold expected.
  rewrite Forall_forall in S. rewrite (S i); [reflexivity|]. rewrite <- (firstn_skipn k l). apply in_or_app. now left.
Qed.
Print Assumptions object_file_truncated.

(** after the end of a file cut inside a header has been reported, the next call reports a
    type again; reading it throws, or is undefined if the stale count is negative *)
Theorem object_file_stale_header_refuted : exists file h0, length h0 = 8%nat /\
  (let (t1, r1) := boio_nextType (boio_open file h0) in t1 = 0 /\ fst (boio_nextType r1) = -100 /\ fst (boio_readAny r1) = RThrow) /\
  exists h1, length h1 = 8%nat /\ read_n 2 (boio_open file h1) = [REof; RUB].
Proof.
  exists (firstn 5 (fst (boio_write (-100) [[7]]))), [0;0;0;0;0;0;0;0]. split; [reflexivity|]. split; [vm_compute; auto|].
  exists [0;0;0;0;0;0;0;255]. split; reflexivity.
Qed.
Print Assumptions object_file_stale_header_refuted.

(** rewind() after the end has been reached does not make the objects readable again *)
Theorem object_file_rewind_refuted : forall l h0, Forall item_ok l -> length h0 = 8%nat ->
  forall r, (exists n, r = Nat.iter n (fun r => snd (boio_readAny r)) (boio_open (file_of l) h0) /\ (length l < n)%nat) ->
  fst (boio_readAny (boio_rewind r)) = REof.
Proof.
  intros l h0 H L r (n & -> & Hn).
  assert (G : forall l r0, Forall item_ok l -> fresh r0 -> rd_rem r0 = file_of l -> forall m, (length l < m)%nat ->
     let r' := Nat.iter m (fun r => snd (boio_readAny r)) r0 in quiet r' /\ rd_have r' = true).
  { assert (IT : forall m r0, Nat.iter (S m) (fun r => snd (boio_readAny r)) r0 = Nat.iter m (fun r => snd (boio_readAny r)) (snd (boio_readAny r0))).
    { induction m as [|m IH]; intros r0; [reflexivity|]. set (f := fun r => snd (boio_readAny r)) in *. change (f (Nat.iter (S m) f r0) = f (Nat.iter m f (f r0))). now rewrite IH. }
    assert (Q : forall m r0, quiet r0 -> rd_have r0 = true -> let r' := Nat.iter m (fun r => snd (boio_readAny r)) r0 in quiet r' /\ rd_have r' = true).
    { induction m as [|m IH]; intros r0 Q0 H0; [auto|]. cbv zeta. rewrite IT. apply IH.
      - destruct (read_quiet r0 Q0) as (r1 & E1 & Q1). rewrite E1. exact Q1.
      - destruct Q0 as [_ [F|T]]; [congruence|]. unfold boio_readAny, boio_nextType. rewrite H0, T. exact H0. }
    intros l0. induction l0 as [|i l0 IH]; intros r0 Hi F E m Hm; (destruct m as [|m]; [cbn in Hm; lia|]); cbv zeta; rewrite IT.
    - apply Q.
      + destruct (read_end r0 F E) as (r1 & E1 & Q1). rewrite E1. exact Q1.
      + destruct F as (F1 & F2 & F3). unfold boio_readAny, boio_nextType. rewrite F1, F2, E. reflexivity.
    - inversion_clear Hi as [|? ? Hii Hl]. destruct (read_item i r0 (file_of l0) Hii F E) as (r1 & E1 & F1 & R1). rewrite E1. cbn [snd].
      apply IH; auto. cbn in Hm. lia. }
  destruct (G l (boio_open (file_of l) h0) H ltac:(repeat split; exact L) eq_refl n Hn) as [[_ [F|T]] Hh]; [congruence|]. set (q := Nat.iter n _ _) in *. clearbody q.
  unfold boio_readAny, boio_nextType, boio_rewind. cbn [rd_have rd_hdr]. rewrite Hh, T. reflexivity.
Qed.
Print Assumptions object_file_rewind_refuted.

Definition ex_items : list item := [(-100, [[1;2;3];[4]]); (-101, [[5]])].
Example ex_items_ok : Forall item_ok ex_items /\ Forall (fun i => solid i = true) ex_items.
Proof. split; repeat constructor; try discriminate; cbn [fst snd length]; lia. Qed.
Example ex_file : length (file_of ex_items) = 45%nat /\
  read_n 4 (boio_open (file_of ex_items) [9;9;9;9;9;9;9;9]) = [RObj (-100) [[1;2;3];[4]]; RObj (-101) [[5]]; REof; REof].
Proof. split; reflexivity. Qed.
Example ex_cut : read_n 3 (boio_open (firstn 44 (file_of ex_items)) [9;9;9;9;9;9;9;9]) = [RObj (-100) [[1;2;3];[4]]; RThrow; REof].
Proof. reflexivity. Qed.

Definition ex_vec : obj := OVecBin (-100) (-37) true 1 [7;0;0;0].
Lemma small_blocks (bs : list (list Z)) : forallb (fun b => Nat.leb (length b) 1000) bs = true -> Forall (fun b => Z.of_nat (length b) < 2 ^ 64) bs.
Proof. rewrite forallb_forall, Forall_forall. intros H b Hb. specialize (H b Hb). apply Nat.leb_le in H. lia. Qed.
Example ex_objs : Forall (fun o => storable ex_env o /\ plain o /\ Forall (fun b => Z.of_nat (length b) < 2 ^ 64) (toBlock o)) [ex_obj; ex_vec].
Proof.
  constructor; [split; [exact ex_obj_wf|split; [cbn; tauto|]]|constructor; [split; [split; [|reflexivity]|split; [exact I|]]|constructor]].
  - now apply small_blocks.
  - unfold ex_vec. wf_go.
  - now apply small_blocks.
Qed.
Example ex_objs_file : length (file_of (map obj_item [ex_obj; ex_vec])) = 410%nat /\
  build ex_env (nth 1 (read_n 2 (boio_open (file_of (map obj_item [ex_obj; ex_vec])) [0;0;0;0;0;0;0;0])) REof) = Some ex_vec.
Proof. split; vm_compute; reflexivity. Qed.
