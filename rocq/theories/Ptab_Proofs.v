(** Proofs about the table of parameter values. *)
From Coq Require Import QArith Qcanon Lqa Sorted.
From Verif Require Import Base Bytes_Model Bytes_Proofs Ptab_Model Ptab_Spec.
Close Scope Q_scope. Close Scope Qc_scope. Local Open Scope nat_scope.
Notation domain := (list (option (num * num))) (only parsing).
Notation bytes := (list Z) (only parsing).

(** ** Numbers *)
Lemma qltb_true x y : qltb x y = true <-> (x < y)%Qc.
Proof. unfold qltb. destruct (Qclt_le_dec x y) as [H|H]; split; intros G; auto; try discriminate.
  exfalso. apply (Qclt_not_le _ _ G H). Qed.
Lemma qltb_false x y : qltb x y = false <-> (y <= x)%Qc.
Proof. unfold qltb. destruct (Qclt_le_dec x y) as [H|H]; split; intros G; auto; try discriminate.
  exfalso. apply (Qclt_not_le _ _ H G). Qed.

Ltac toQ := unfold Qcle, Qclt, Qcminus, Qcplus, Qcopp in *;
  cbn [this Q2Qc] in *; rewrite ?Qred_correct in *.

Lemma apart_near a b : apart a b = false <-> near_num a b.
Proof.
  destruct a as [x|], b as [y|]; cbn [apart near_num]; try (split; [discriminate|tauto]); [|tauto].
  rewrite qltb_false. unfold qabs.
  destruct (qltb (x - y) (Q2Qc 0)) eqn:E.
  - apply qltb_true in E. unfold tiny. split.
    + intros H. split; toQ; lra.
    + intros [H1 H2]. toQ; lra.
  - apply qltb_false in E. unfold tiny. split.
    + intros H. split; toQ; lra.
    + intros [H1 H2]. toQ; lra.
Qed.

Lemma axis_match_iff e d : axis_match e d = true <->
  match e, d with
  | None, None => True
  | Some (a, b), Some (x, y) => near_num a x /\ near_num b y
  | _, _ => False
  end.
Proof.
  destruct e as [[a b]|], d as [[x y]|]; cbn [axis_match]; try (split; [discriminate|tauto]); [|tauto].
  rewrite negb_true_iff, orb_false_iff, !apart_near. reflexivity.
Qed.
Lemma match_near e d : match_ e d = true <-> near e d.
Proof.
  unfold match_, near, axis. rewrite forallb_forall. setoid_rewrite in_seq. unfold MaxAxis.
  split; intros H i Hi.
  - apply axis_match_iff, H. lia.
  - apply axis_match_iff, H. lia.
Qed.
Lemma near_num_refl a : near_num a a.
Proof. destruct a as [x|]; cbn; [|exact Logic.I]. split; toQ; lra. Qed.
Lemma near_refl d : near d d.
Proof. intros i _. destruct (nth i d None) as [[a b]|]; [|exact Logic.I]. split; apply near_num_refl. Qed.

(** ** Overlapping *)
Lemma ge_lt a b : ge a b = false <-> lt_num a b.
Proof.
  destruct a as [x|], b as [y|]; cbn [ge lt_num]; try tauto; try (split; [discriminate|tauto]).
  rewrite negb_false_iff. apply qltb_true.
Qed.
Definition nmax (a x : num) : num := if ge a x then a else x.
Definition nmin (b y : num) : num := if ge b y then y else b.
Definition between (a b : num) : Qc :=
  match a, b with
  | Fin x, Fin y => ((x + y) * Q2Qc (1 # 2))%Qc
  | Fin x, Inf => (x + 1)%Qc
  | _, _ => Q2Qc 0
  end.
Lemma between_ok a b : lt_num a b -> lt_num a (Fin (between a b)) /\ lt_num (Fin (between a b)) b.
Proof.
  destruct a as [x|], b as [y|]; cbn [lt_num between]; try tauto; intros H.
  - unfold Qclt, Qcmult, Qcplus in *; cbn [this Q2Qc] in *; rewrite ?Qred_correct in *. split; lra.
  - split; [|exact Logic.I]. unfold Qclt, Qcplus in *. cbn [this Q2Qc] in *. rewrite ?Qred_correct. cbn. lra.
Qed.
Lemma lt_trans_num a b c : lt_num a b -> lt_num b c -> lt_num a c.
Proof.
  destruct a as [x|], b as [y|], c as [z|]; cbn [lt_num]; try tauto. apply Qclt_trans.
Qed.
Lemma max_lt a x c : lt_num a c -> lt_num x c -> lt_num (nmax a x) c.
Proof. unfold nmax. destruct (ge a x); auto. Qed.
Lemma lt_min c b y : lt_num c b -> lt_num c y -> lt_num c (nmin b y).
Proof. unfold nmin. destruct (ge b y); auto. Qed.
Lemma ge_true a b : ge a b = true -> forall c, lt_num a (Fin c) -> lt_num b (Fin c).
Proof.
  destruct a as [x|], b as [y|]; cbn [ge lt_num]; try tauto; try discriminate.
  rewrite negb_true_iff, qltb_false. intros H c L. eapply Qcle_lt_trans; eassumption.
Qed.
Lemma max_lt_inv a x c : lt_num (nmax a x) (Fin c) -> lt_num a (Fin c) /\ lt_num x (Fin c).
Proof.
  unfold nmax. destruct (ge a x) eqn:E; intros H.
  - split; [exact H|]. eapply ge_true; eassumption.
  - split; [|exact H]. apply ge_lt in E. eapply lt_trans_num; eassumption.
Qed.
Lemma lt_min_inv c b y : lt_num (Fin c) (nmin b y) -> lt_num (Fin c) b /\ lt_num (Fin c) y.
Proof.
  unfold nmin. destruct (ge b y) eqn:E; intros H.
  - split; [|exact H]. destruct b as [u|], y as [v|]; cbn [ge lt_num] in *; try tauto; try discriminate.
    apply negb_true_iff, qltb_false in E. eapply Qclt_le_trans; eassumption.
  - split; [exact H|]. apply ge_lt in E. eapply lt_trans_num; eassumption.
Qed.

Definition pick (e d : option (num * num)) : Qc :=
  match e, d with
  | Some (a, b), Some (x, y) => between (nmax a x) (nmin b y)
  | Some (a, b), None => between a b
  | None, Some (x, y) => between x y
  | None, None => Q2Qc 0
  end.

Lemma overlaps_meet e d : proper e -> proper d -> (overlaps e d = true <-> meet e d).
Proof.
  intros [Le Pe] [Ld Pd]. unfold overlaps, axis. rewrite forallb_forall. setoid_rewrite in_seq.
  split.
  - intros H. exists (fun i => pick (nth i e None) (nth i d None)).
    assert (K : forall i a b x y, nth i e None = Some (a, b) -> nth i d None = Some (x, y) ->
                lt_num (nmax a x) (nmin b y)).
    { intros i a b x y E1 E2. assert (i < 8).
      { destruct (Nat.lt_ge_cases i 8); [assumption|]. rewrite nth_overflow in E1 by lia. discriminate. }
      assert (O : axis_overlaps (nth i e None) (nth i d None) = true) by (apply H; unfold MaxAxis; lia).
      rewrite E1, E2 in O. cbn [axis_overlaps] in O.
      apply negb_true_iff, orb_false_iff in O as [O1 O2]. apply ge_lt in O1, O2.
      specialize (Pe _ _ _ E1). specialize (Pd _ _ _ E2).
      apply max_lt; apply lt_min; assumption. }
    split.
    + intros i a b E1. unfold pick. rewrite E1. destruct (nth i d None) as [[x y]|] eqn:E2.
      * destruct (between_ok _ _ (K _ _ _ _ _ E1 E2)) as [A B].
        apply max_lt_inv in A. apply lt_min_inv in B. tauto.
      * apply between_ok. eapply Pe; eassumption.
    + intros i x y E2. unfold pick. rewrite E2. destruct (nth i e None) as [[a b]|] eqn:E1.
      * destruct (between_ok _ _ (K _ _ _ _ _ E1 E2)) as [A B].
        apply max_lt_inv in A. apply lt_min_inv in B. tauto.
      * apply between_ok. eapply Pd; eassumption.
  - intros [p [I1 I2]] i _.
    destruct (nth i e None) as [[a b]|] eqn:E1; [|reflexivity].
    destruct (nth i d None) as [[x y]|] eqn:E2; [|reflexivity].
    cbn [axis_overlaps]. apply negb_true_iff, orb_false_iff. rewrite !ge_lt.
    destruct (I1 _ _ _ E1), (I2 _ _ _ E2). split; eapply lt_trans_num; eassumption.
Qed.

(** ** Domains made from entries *)
Lemma map_nth_seq {A} (l : list A) (d : A) n : length l = n -> map (fun i => nth i l d) (seq 0 n) = l.
Proof.
  intros <-. apply nth_ext with (d := d) (d' := d); [rewrite map_length, seq_length; reflexivity|].
  intros i Hi. rewrite map_length, seq_length in Hi.
  rewrite (nth_indep _ d (nth 0 l d)) by (rewrite map_length, seq_length; exact Hi).
  rewrite (map_nth (fun i => nth i l d) (seq 0 (length l)) 0), seq_nth by exact Hi. reflexivity.
Qed.
Lemma norm_proper a b : lt_num a b -> norm_range a b = (a, b).
Proof.
  destruct a as [x|], b as [y|]; cbn [lt_num norm_range]; try tauto. intros H.
  destruct (Qc_eq_dec x y) as [E|E]; [subst; exfalso; apply (Qclt_not_eq _ _ H); reflexivity|].
  replace (qltb y x) with false; [reflexivity|]. symmetry. apply qltb_false. apply Qclt_le_weak, H.
Qed.
Lemma makeDomain_proper d : proper d -> makeDomain d = d.
Proof.
  intros [L P]. unfold makeDomain. transitivity (map (fun i => nth i d None) (seq 0 MaxAxis)); [|apply map_nth_seq, L].
  apply map_ext_in. intros i _. unfold axis. destruct (nth i d None) as [[a b]|] eqn:E; [|reflexivity].
  rewrite norm_proper by (eapply P; eassumption). reflexivity.
Qed.

(** ** The file *)
Section File.
Variable as_num : list bool -> num.
Variable as_flags : num -> list bool.
Notation read_entry := (read_entry as_num as_flags).
Notation read_entries := (read_entries as_num as_flags).
Notation read_file := (read_file as_num as_flags).

Lemma entry_chunks_length d : length (entry_chunks d) = entry_size.
Proof. reflexivity. Qed.
Lemma read_entry_chunks d : length d = 8 -> read_entry (entry_chunks d) = d.
Proof.
  intros L. unfold Ptab_Model.read_entry. transitivity (map (fun i => nth i d None) (seq 0 MaxAxis)); [|apply map_nth_seq, L].
  apply map_ext_in. intros i Hi. apply in_seq in Hi. unfold MaxAxis in Hi.
  do 8 (destruct i as [|i]; [unfold flags_at, num_at, entry_chunks, axis; cbn;
    match goal with |- context[match ?x with Some _ => true | None => false end] =>
      destruct x as [[? ?]|]; reflexivity end|]). lia.
Qed.
Lemma read_entries_chunks ds more : Forall (fun d => length d = 8) ds ->
  read_entries (length ds) (flat_map entry_chunks ds ++ more) = ds.
Proof.
  induction 1 as [|d ds L F IH]; [reflexivity|].
  cbn [length flat_map Ptab_Model.read_entries]. rewrite <- app_assoc.
  rewrite firstn_app_len by apply entry_chunks_length.
  rewrite skipn_app_len by apply entry_chunks_length.
  rewrite read_entry_chunks by exact L. f_equal. exact IH.
Qed.
Lemma flat_chunks_length ds : length (flat_map entry_chunks ds) = length ds * entry_size.
Proof. induction ds as [|d ds IH]; [reflexivity|].
  cbn [flat_map length]. rewrite app_length, IH, entry_chunks_length. lia. Qed.
Lemma read_file_chunks ds more : Forall (fun d => length d = 8) ds -> length more < entry_size ->
  read_file (flat_map entry_chunks ds ++ more) = ds.
Proof.
  intros F M. unfold Ptab_Model.read_file. rewrite app_length, flat_chunks_length.
  replace ((length ds * entry_size + length more) / entry_size) with (length ds).
  - apply read_entries_chunks, F.
  - symmetry. rewrite Nat.add_comm, Nat.div_add by (unfold entry_size; lia).
    rewrite Nat.div_small by exact M. reflexivity.
Qed.
End File.

(** ** The depot *)
Lemma beq_iff a b : beq a b = true <-> a = b.
Proof.
  revert b. induction a as [|x a IH]; intros [|y b]; cbn [beq]; try (split; congruence).
  rewrite andb_true_iff, IH, Z.eqb_eq. split; [intros [-> ->]; reflexivity|]. intros E. split; congruence.
Qed.
Lemma beq_refl a : beq a a = true. Proof. apply beq_iff. reflexivity. Qed.
Lemma beq_neq a b : a <> b -> beq a b = false.
Proof. intros H. destruct (beq a b) eqn:E; [|reflexivity]. apply beq_iff in E. contradiction. Qed.
Lemma get_out_same db k : db_get (db_out db k) k = None.
Proof. induction db as [|[k' v] r IH]; cbn [db_out]; [reflexivity|].
  destruct (beq k' k) eqn:E; [exact IH|]. cbn [db_get]. rewrite E. exact IH. Qed.
Lemma get_out_other db k k' : k <> k' -> db_get (db_out db k) k' = db_get db k'.
Proof. intros N. induction db as [|[k2 v] r IH]; cbn [db_out db_get]; [reflexivity|].
  destruct (beq k2 k) eqn:E.
  - apply beq_iff in E. subst. rewrite (beq_neq k k') by exact N. exact IH.
  - cbn [db_get]. destruct (beq k2 k'); [reflexivity|exact IH]. Qed.
Lemma get_put_same db k v : db_get (db_put db k v) k = Some v.
Proof. unfold db_put. cbn [db_get]. rewrite beq_refl. reflexivity. Qed.
Lemma get_put_other db k v k' : k <> k' -> db_get (db_put db k v) k' = db_get db k'.
Proof. intros N. unfold db_put. cbn [db_get]. rewrite (beq_neq k k') by exact N. apply get_out_other, N. Qed.

Lemma app_inj_len {A} (a b c d : list A) : length a = length c -> a ++ b = c ++ d -> a = c /\ b = d.
Proof.
  revert c. induction a as [|x a IH]; intros [|y c] L E; try discriminate L; [split; [reflexivity|exact E]|].
  cbn in E. injection E as -> E. cbn in L. destruct (IH c ltac:(lia) E) as [-> ->]. split; reflexivity.
Qed.
Lemma makeKey_inj n i m j : (Z.of_nat i < 2 ^ 31)%Z -> (Z.of_nat j < 2 ^ 31)%Z ->
  makeKey n i = makeKey m j -> n = m /\ i = j.
Proof.
  intros Hi Hj E. unfold makeKey in E.
  apply app_inj_len in E as [E1 E2]; [|rewrite !enc_i32_length; reflexivity].
  apply app_inj_tail in E2 as [-> _]. split; [reflexivity|].
  assert (D : dec_i32 (enc_i32 (Z.of_nat i)) = dec_i32 (enc_i32 (Z.of_nat j))) by (f_equal; exact E1).
  rewrite !dec_enc_i32 in D by (unfold i32_ok; lia). lia.
Qed.

(** ** Values *)
Definition sizes (bs : list bytes) : list Z := map (fun b => Z.of_nat (length b)) bs.
Definition ztotal (l : list Z) : Z := fold_right Z.add 0%Z l.
Lemma ztotal_sizes bs : ztotal (sizes bs) = Z.of_nat (length (concat bs)).
Proof. induction bs as [|b bs IH]; [reflexivity|]. cbn [sizes map ztotal fold_right concat] in *.
  rewrite app_length. unfold ztotal, sizes in IH. rewrite IH. lia. Qed.

Lemma dec_enc_u64s' zs more : Forall (fun z => u64_ok z = true) zs ->
  dec_u64s (length zs) (enc_u64s zs ++ more) = zs.
Proof.
  induction 1 as [|z zs O F IH]; [reflexivity|].
  rewrite enc_u64s_cons, <- app_assoc. cbn [length dec_u64s].
  rewrite firstn_app_len, skipn_app_len by apply enc_u64_length.
  rewrite dec_enc_u64 by exact O. rewrite IH. reflexivity.
Qed.
Lemma to_int_small z : (0 <= z < 2 ^ 31)%Z -> to_int z = z.
Proof.
  intros H. unfold to_int, to_signed. rewrite Z.mod_small by lia.
  destruct (Z.ltb_spec z (2 ^ (8 * Z.of_nat 4 - 1))) as [G|G]; [reflexivity|].
  exfalso. revert G. change (2 ^ (8 * Z.of_nat 4 - 1))%Z with (2 ^ 31)%Z. lia.
Qed.
Lemma add_sizes_ok zs : forall pre more tot, Forall (fun z => (0 <= z)%Z) zs ->
  (0 <= tot)%Z -> (tot + ztotal zs < 2 ^ 64)%Z ->
  add_sizes (length zs) (pre ++ enc_u64s zs ++ more) (length pre) tot = Ok (tot + ztotal zs)%Z.
Proof.
  induction zs as [|z zs IH]; intros pre more tot F P L.
  - cbn [length add_sizes ztotal fold_right]. f_equal. lia.
  - apply Forall_cons_iff in F as [Z0 F].
    assert (T0 : (0 <= ztotal zs)%Z).
    { clear - F. induction F as [|y ys Y G IH]; cbn [ztotal fold_right] in *; [lia|].
      fold (ztotal ys) in *. lia. }
    change (ztotal (z :: zs)) with (z + ztotal zs)%Z in *.
    cbn [length add_sizes]. rewrite enc_u64s_cons.
    replace (length pre + 8 <=? length (pre ++ (enc_u64 z ++ enc_u64s zs) ++ more)) with true.
    2:{ symmetry. apply Nat.leb_le. rewrite !app_length, enc_u64_length. lia. }
    rewrite (skipn_app_len pre) by reflexivity. rewrite <- !app_assoc.
    rewrite (firstn_app_len (enc_u64 z)) by apply enc_u64_length.
    rewrite dec_enc_u64 by (unfold u64_ok; lia).
    rewrite Z.mod_small by lia.
    specialize (IH (pre ++ enc_u64 z) more (tot + z)%Z F ltac:(lia) ltac:(lia)).
    rewrite app_length, enc_u64_length, <- app_assoc in IH. rewrite IH. f_equal. lia.
Qed.
Lemma copy_blocks_ok bs more : copy_blocks (sizes bs) (concat bs ++ more) = Ok bs.
Proof.
  induction bs as [|b bs IH]; [reflexivity|].
  cbn [sizes map copy_blocks concat]. fold (sizes bs). rewrite <- app_assoc.
  replace (Z.of_nat (length b) <=? Z.of_nat (length (b ++ concat bs ++ more)))%Z with true
    by (symmetry; rewrite app_length; lia).
  rewrite Nat2Z.id. rewrite skipn_app_len, firstn_app_len by reflexivity. rewrite IH. reflexivity.
Qed.
Lemma sizes_ok bs B : (Z.of_nat (length (concat bs)) < B)%Z -> Forall (fun z => (0 <= z < B)%Z) (sizes bs).
Proof.
  induction bs as [|b bs IH]; intros H; [constructor|]. cbn [concat] in H. rewrite app_length in H.
  constructor; [lia|]. apply IH. lia.
Qed.
Lemma flatten_length bs : length (flatten bs) = 8 + 8 * length bs + length (concat bs).
Proof. unfold flatten. rewrite !app_length, enc_u64_length, enc_u64s_length, map_length. lia. Qed.
Lemma unflatten_flatten bs :
  (Z.of_nat (8 + 8 * length bs + length (concat bs)) < 2 ^ 31)%Z -> unflatten (flatten bs) = Ok bs.
Proof.
  intros H. unfold unflatten. rewrite flatten_length.
  replace (8 + 8 * length bs + length (concat bs) <? 8) with false by (symmetry; apply Nat.ltb_ge; lia).
  assert (F8 : firstn 8 (flatten bs) = enc_u64 (Z.of_nat (length bs))).
  { unfold flatten. apply firstn_app_len, enc_u64_length. }
  rewrite F8. rewrite dec_enc_u64 by (unfold u64_ok; lia).
  rewrite to_int_small by lia.
  replace (Z.of_nat (length bs) =? 2 ^ 31 - 1)%Z with false by lia.
  rewrite Z.mod_small by lia. rewrite to_int_small by lia.
  match goal with |- context[if ?c then _ else _] => replace c with false by lia end.
  rewrite Nat2Z.id.
  assert (A : add_sizes (length bs) (flatten bs) 8 (8 * (Z.of_nat (length bs) + 1))
              = Ok (8 * (Z.of_nat (length bs) + 1) + ztotal (sizes bs))%Z).
  { pose proof (add_sizes_ok (sizes bs) (enc_u64 (Z.of_nat (length bs))) (concat bs)
                  (8 * (Z.of_nat (length bs) + 1))%Z) as G.
    rewrite enc_u64_length in G.
    replace (length (sizes bs)) with (length bs) in G by (unfold sizes; symmetry; apply map_length).
    unfold flatten. fold (sizes bs). rewrite G; [reflexivity| |lia|].
    - eapply Forall_impl; [|apply sizes_ok with (B := (2 ^ 31)%Z); lia]. cbn. intros; lia.
    - rewrite ztotal_sizes. lia. }
  rewrite A. cbn [bind]. rewrite ztotal_sizes. rewrite to_int_small by lia.
  match goal with |- context[if ?c then _ else _] => replace c with false by lia end.
  assert (S8 : skipn 8 (flatten bs) = enc_u64s (sizes bs) ++ concat bs).
  { unfold flatten. apply skipn_app_len, enc_u64_length. }
  assert (S9 : skipn (8 + 8 * length bs) (flatten bs) = concat bs).
  { unfold flatten. rewrite app_assoc. apply skipn_app_len.
    rewrite app_length, enc_u64_length, enc_u64s_length, map_length. reflexivity. }
  rewrite S8, S9.
  replace (length bs) with (length (sizes bs)) by (unfold sizes; apply map_length).
  rewrite dec_enc_u64s'.
  2:{ eapply Forall_impl; [|apply sizes_ok with (B := (2 ^ 31)%Z); lia]. cbn. unfold u64_ok. intros; lia. }
  rewrite <- (app_nil_r (concat bs)). apply copy_blocks_ok.
Qed.

Lemma skipn_add {A} a b (l : list A) : skipn (a + b) l = skipn b (skipn a l).
Proof.
  revert l. induction a as [|a IH]; intros l; [reflexivity|].
  destruct l as [|x l]; [cbn; rewrite !skipn_nil; reflexivity|]. apply IH.
Qed.
Lemma ztotal_nonneg l : Forall (fun z => (0 <= z)%Z) l -> (0 <= ztotal l)%Z.
Proof. induction 1 as [|z l P F IH]; [cbn; lia|]. change (ztotal (z :: l)) with (z + ztotal l)%Z. lia. Qed.
Lemma dec_u64s_nonneg n : forall l, Forall (fun b => byte_ok b = true) l ->
  Forall (fun z => (0 <= z)%Z) (dec_u64s n l).
Proof.
  induction n as [|n IH]; intros l F; cbn [dec_u64s]; constructor.
  - unfold dec_u64. apply le_val_bound, Forall_firstn', F.
  - apply IH, Forall_skipn', F.
Qed.
Lemma add_sizes_read n : forall v off tot, off + 8 * n <= length v ->
  (0 <= tot)%Z -> (tot + ztotal (dec_u64s n (skipn off v)) < 2 ^ 64)%Z ->
  Forall (fun b => byte_ok b = true) v ->
  add_sizes n v off tot = Ok (tot + ztotal (dec_u64s n (skipn off v)))%Z
  /\ Forall (fun z => (0 <= z)%Z) (dec_u64s n (skipn off v)).
Proof.
  induction n as [|n IH]; intros v off tot L P B F.
  - cbn [add_sizes dec_u64s ztotal fold_right]. split; [f_equal; lia|constructor].
  - split; [|apply dec_u64s_nonneg, Forall_skipn', F].
    cbn [add_sizes dec_u64s] in *.
    change (ztotal (dec_u64 (firstn 8 (skipn off v)) :: dec_u64s n (skipn 8 (skipn off v))))
      with (dec_u64 (firstn 8 (skipn off v)) + ztotal (dec_u64s n (skipn 8 (skipn off v))))%Z in *.
    replace (off + 8 <=? length v) with true by (symmetry; apply Nat.leb_le; lia).
    assert (D0 : (0 <= dec_u64 (firstn 8 (skipn off v)))%Z)
      by (unfold dec_u64; apply le_val_bound, Forall_firstn', Forall_skipn', F).
    rewrite <- skipn_add in *.
    assert (T0 : (0 <= ztotal (dec_u64s n (skipn (off + 8) v)))%Z)
      by (apply ztotal_nonneg, dec_u64s_nonneg, Forall_skipn', F).
    rewrite Z.mod_small by lia.
    destruct (IH v (off + 8) (tot + dec_u64 (firstn 8 (skipn off v)))%Z ltac:(lia) ltac:(lia) ltac:(lia) F) as [E _].
    rewrite E. f_equal. lia.
Qed.
Lemma to_int_cases z : (0 <= z < 2 ^ 32)%Z -> to_int z = if (z <? 2 ^ 31)%Z then z else (z - 2 ^ 32)%Z.
Proof. intros H. unfold to_int, to_signed. rewrite Z.mod_small by lia. reflexivity. Qed.
Lemma copy_blocks_exact szs : forall data, Forall (fun z => (0 <= z)%Z) szs ->
  Z.of_nat (length data) = ztotal szs ->
  exists bs, copy_blocks szs data = Ok bs /\ sizes bs = szs /\ concat bs = data.
Proof.
  induction szs as [|s szs IH]; intros data F L.
  - exists []. split; [reflexivity|]. split; [reflexivity|]. destruct data; [reflexivity|cbn in L; lia].
  - apply Forall_cons_iff in F as [P F]. change (ztotal (s :: szs)) with (s + ztotal szs)%Z in L.
    pose proof (ztotal_nonneg _ F). cbn [copy_blocks].
    replace (s <=? Z.of_nat (length data))%Z with true by lia.
    destruct (IH (skipn (Z.to_nat s) data) F) as [bs [E [M C]]]; [rewrite skipn_length; lia|].
    rewrite E. cbn [bind]. exists (firstn (Z.to_nat s) data :: bs). split; [reflexivity|].
    cbn [sizes map concat]. fold (sizes bs). rewrite M, C, firstn_length, firstn_skipn.
    split; [f_equal; lia|reflexivity].
Qed.
Lemma enc_dec_u64s_firstn n : forall l, 8 * n <= length l -> Forall (fun b => byte_ok b = true) l ->
  enc_u64s (dec_u64s n l) = firstn (8 * n) l.
Proof.
  induction n as [|n IH]; intros l L F; [reflexivity|].
  cbn [dec_u64s]. rewrite enc_u64s_cons, IH; [|rewrite skipn_length; lia|apply Forall_skipn', F].
  rewrite enc_dec_u64; [|rewrite firstn_length; lia|apply Forall_firstn', F].
  replace (8 * S n) with (8 + 8 * n) by lia.
  rewrite <- (firstn_skipn 8 l) at 3. rewrite firstn_app, firstn_length.
  replace (Nat.min 8 (length l)) with 8 by lia.
  rewrite firstn_firstn. replace (Nat.min (8 + 8 * n) 8) with 8 by lia.
  f_equal. f_equal. lia.
Qed.

(** ** Deciding the premises, for examples *)
Definition properb (d : domain) : bool :=
  (length d =? 8) && forallb (fun o => match o with Some (a, b) => negb (ge a b) | None => true end) d.
Lemma properb_ok d : properb d = true -> proper d.
Proof.
  unfold properb. rewrite andb_true_iff, Nat.eqb_eq, forallb_forall. intros [L F]. split; [exact L|].
  intros i a b N. assert (I : In (Some (a, b)) d).
  { rewrite <- N. apply nth_In. destruct (Nat.lt_ge_cases i (length d)); [assumption|].
    rewrite nth_overflow in N by assumption. discriminate. }
  specialize (F _ I). cbn in F. apply negb_true_iff, ge_lt in F. exact F.
Qed.
Definition told_apartb (ds : list domain) : bool :=
  forallb (fun d => forallb (fun e => implb (match_ d e) (if dom_dec d e then true else false)) ds) ds.
Lemma told_apartb_ok {rest} (h : history rest) : told_apartb (domains_of h) = true -> told_apart h.
Proof.
  unfold told_apartb. rewrite forallb_forall. intros F d e D E N.
  specialize (F d D). rewrite forallb_forall in F. specialize (F e E). apply match_near in N.
  rewrite N in F. cbn in F. destruct (dom_dec d e); [assumption|discriminate].
Qed.
Definition no_erasure {rest} (h : history rest) : bool :=
  forallb (fun e => match e with Erased _ _ => false | _ => true end) h.
Lemma no_erasure_ok {rest} (h : history rest) : no_erasure h = true -> legal h.
Proof.
  unfold no_erasure. rewrite forallb_forall. intros F b n d a ->.
  specialize (F (Erased n d)). cbn in F. discriminate F. apply in_app_iff. right. left. reflexivity.
Qed.
