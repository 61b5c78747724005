From Verif Require Import Base Bytes_Model Bytes_Proofs Hiid_Model Pack_Model Upk_Model.
Local Open Scope Z_scope.

(** Safe: with all of its declared size in memory the element is unpacked or refused. *)
Definition reads_within {T} (p : upk T) : Prop := forall mem sz,
  Forall (fun b => byte_ok b = true) mem -> 0 <= sz <= zlen mem -> zlen mem < 2 ^ 62 -> up_un p mem sz <> UB.
(** ... and sizes nothing can have are refused before reading. *)
Definition refuses_huge {T} (p : upk T) : Prop := forall mem sz, 2 ^ 63 <= sz < 2 ^ 64 -> up_un p mem sz <> UB.

Lemma readn_ok mem n : n <= zlen mem -> readn mem n = Ok (firstn (Z.to_nat n) mem).
Proof. intros H. unfold readn. now apply Z.leb_le in H as ->. Qed.

Lemma useq_loop_safe {T} (p : upk T) mem sz : reads_within p -> refuses_huge p ->
  Forall (fun b => byte_ok b = true) mem -> 0 <= sz <= zlen mem -> zlen mem < 2 ^ 62 -> Z.of_nat (up_bin p) < 2 ^ 62 ->
  forall n szs sz0, Forall (fun z => u64_ok z = true) szs -> 0 <= sz0 <= sz -> useq_loop p n szs mem sz sz0 <> UB.
Proof.
  intros RW RH BY SZ M KB. induction n as [|n IH]; intros szs sz0 US S0; [easy|]. cbn [useq_loop].
  set (s1 := if Nat.eqb (up_bin p) 0 then hd 0 szs else Z.of_nat (up_bin p)).
  assert (B : 0 <= s1 < 2 ^ 64).
  { subst s1. destruct (Nat.eqb_spec (up_bin p) 0) as [E|E].
    - destruct szs as [|z szs]; [cbn; lia|]. inversion US as [|z' l Hz Hl]; subst. unfold u64_ok in Hz. cbn [hd].
      apply andb_prop in Hz as [H1 H2]. apply Z.leb_le in H1. apply Z.ltb_lt in H2. lia.
    - lia. }
  destruct (Z.ltb_spec sz (W64 (sz0 + s1))) as [|LE]; [easy|]. cbv zeta.
  assert (DL : zlen (skipn (Z.to_nat sz0) mem) = zlen mem - sz0) by (rewrite skipn_length; lia).
  assert (DB : Forall (fun b => byte_ok b = true) (skipn (Z.to_nat sz0) mem)) by now apply Forall_skipn'.
  assert (NX : 0 <= W64 (sz0 + s1) <= sz) by (split; [apply Z.mod_pos_bound; lia|exact LE]).
  assert (TS : Forall (fun z => u64_ok z = true) (tl szs)) by (destruct US; [constructor|assumption]).
  assert (NU : (if Nat.eqb (up_bin p) 0 then up_un p (skipn (Z.to_nat sz0) mem) s1 else bind (readn (skipn (Z.to_nat sz0) mem) s1) (fun b => Ok (up_raw p b))) <> UB).
  { destruct (Z.lt_ge_cases (sz0 + s1) (2 ^ 64)) as [NW|WR].
    - unfold W64 in LE. rewrite Z.mod_small in LE by lia. destruct (Nat.eqb (up_bin p) 0).
      + apply RW; [exact DB|lia|lia].
      + rewrite readn_ok by lia. easy.
    - destruct (Nat.eqb_spec (up_bin p) 0) as [E|E].
      + apply RH. lia.
      + exfalso. subst s1. lia. }
  match type of NU with ?x <> UB => destruct x as [v| |] end; cbn [bind]; [|discriminate|exfalso; apply NU; reflexivity].
  specialize (IH (tl szs) _ TS NX). destruct (useq_loop p n (tl szs) mem sz (W64 (sz0 + s1))) as [[vs e]| |]; cbn [bind]; [discriminate|discriminate|exfalso; apply IH; reflexivity].
Qed.
Lemma dec_u64s_u64 n bs : Forall (fun b => byte_ok b = true) bs -> (8 * n <= length bs)%nat -> Forall (fun z => u64_ok z = true) (dec_u64s n bs).
Proof.
  revert bs. induction n as [|n IH]; intros bs B L; cbn [dec_u64s]; constructor.
  - unfold u64_ok, dec_u64. assert (H := le_val_bound (firstn 8 bs) (Forall_firstn' _ _ _ B)).
    rewrite firstn_length_le in H by lia. apply andb_true_intro. split; [apply Z.leb_le|apply Z.ltb_lt]; change (2 ^ 64) with (2 ^ (8 * Z.of_nat 8)); lia.
  - apply IH; [now apply Forall_skipn'|rewrite skipn_length; lia].
Qed.
Lemma vector_reads_within {T} (p : upk T) : reads_within p -> refuses_huge p -> Z.of_nat (up_bin p) < 2 ^ 62 -> reads_within (up_vector p).
Proof.
  intros RW RH KB mem sz B SZ M. cbn [up_vector up_un]. unfold useq.
  destruct (Z.ltb_spec sz 8) as [|L8]; [easy|]. rewrite readn_ok by lia. cbn [bind]. cbv zeta.
  set (n := dec_u64 (firstn (Z.to_nat 8) mem)). set (t := if Nat.eqb (up_bin p) 0 then n else 0).
  assert (N : 0 <= n < 2 ^ 64).
  { assert (H := le_val_bound (firstn 8 mem) (Forall_firstn' _ _ _ B)). rewrite firstn_length_le in H by lia. exact H. }
  assert (Tb : 0 <= t < 2 ^ 64) by (subst t; destruct (Nat.eqb (up_bin p) 0); lia).
  destruct (Z.ltb_spec sz (W64 (8 * (1 + t)))) as [|LE]; [easy|]. destruct (Z.leb_spec (2 ^ 60) t) as [|T60]; [easy|].
  unfold W64 in *. rewrite Z.mod_small in LE |- * by lia. rewrite readn_ok by lia. cbn [bind].
  assert (L := useq_loop_safe p mem sz RW RH B SZ M KB (Z.to_nat n) (dec_u64s (Z.to_nat t) (skipn 8 (firstn (Z.to_nat (8 * (1 + t))) mem))) (8 * (1 + t))).
  destruct (useq_loop _ _ _ _ _ _) as [[vs e]| |]; cbn [bind]; [destruct (sz =? e); easy|easy|]. exfalso. refine (L _ _ eq_refl); [|lia].
  apply dec_u64s_u64; [now apply Forall_skipn', Forall_firstn'|]. rewrite skipn_length, firstn_length_le by lia. lia.
Qed.

Lemma string_within : reads_within up_string /\ refuses_huge up_string.
Proof.
  split; intros mem sz; cbn [up_string up_un].
  - intros _ H M. destruct (2 ^ 62 <=? sz); [easy|]. now rewrite readn_ok by lia.
  - intros H. destruct (Z.leb_spec (2 ^ 62) sz); [easy|lia].
Qed.
Lemma hiid_within : reads_within up_hiid /\ refuses_huge up_hiid.
Proof.
  split; intros mem sz; cbn [up_hiid up_un].
  - intros _ H M. destruct (negb _); [easy|]. destruct (2 ^ 62 <=? sz); [easy|]. now rewrite readn_ok by lia.
  - intros H. destruct (negb _); [easy|]. destruct (Z.leb_spec (2 ^ 62) sz); [easy|lia].
Qed.
Lemma fixed_within k : Z.of_nat k < 2 ^ 62 -> reads_within (up_fixed k) /\ refuses_huge (up_fixed k).
Proof.
  intros K. split; intros mem sz; cbn [up_fixed up_un].
  - intros _ H M. destruct (sz =? _); [|easy]. now rewrite readn_ok by lia.
  - intros H. destruct (Z.eqb_spec sz (Z.of_nat k)); [lia|easy].
Qed.

(** C58 (partial): any bytes whatsoever, unpacked as a vector of strings, of ids or of fixed-size
    elements, give a vector or an exception; nothing outside the block is read. *)
Theorem unpack_stays_inside_partial : forall block k,
  Forall (fun b => byte_ok b = true) block -> zlen block < 2 ^ 62 -> Z.of_nat k < 2 ^ 62 ->
  useq up_string block (zlen block) <> UB /\ useq up_hiid block (zlen block) <> UB /\ useq (up_fixed k) block (zlen block) <> UB.
Proof.
  intros block k B M K. destruct string_within as [S1 S2]. destruct hiid_within as [H1 H2]. destruct (fixed_within k K) as [F1 F2].
  repeat split.
  - apply (vector_reads_within up_string S1 S2); [cbn; lia|exact B|lia|exact M].
  - apply (vector_reads_within up_hiid H1 H2); [cbn; lia|exact B|lia|exact M].
  - apply (vector_reads_within (up_fixed k) F1 F2); [cbn; lia|exact B|lia|exact M].
Qed.
Print Assumptions unpack_stays_inside_partial.
(** a block with a wrapping element size: refused *)
Example ex_wrap : useq up_string (enc_u64 2 ++ enc_u64 (2 ^ 64 - 8) ++ enc_u64 3 ++ [65; 66]) 26 = Err /\
  useq up_string (enc_u64 2 ++ enc_u64 1 ++ enc_u64 3 ++ [65; 66; 67; 68]) 28 = Ok [[65]; [66; 67; 68]].
Proof. split; vm_compute; reflexivity. Qed.

(** C58 refuted for nested vectors: the size of an inner vector wraps around the check of the outer
    one, and the inner one then trusts sizes far beyond the block. *)
Theorem unpack_stays_inside_refuted : exists block,
  Forall (fun b => byte_ok b = true) block /\ zlen block < 64 /\ useq (up_vector up_string) block (zlen block) = UB.
Proof.
  exists (enc_u64 1 ++ enc_u64 (2 ^ 64 - 1) ++ enc_u64 1 ++ enc_u64 1000 ++ [65]).
  split; [repeat constructor|]. split; [reflexivity|vm_compute; reflexivity].
Qed.
Print Assumptions unpack_stays_inside_refuted.
(** ... and for maps: the size of a value is not checked at all (Packer.h:561 adds the key's) *)
Theorem map_unpack_stays_inside_refuted : exists block,
  Forall (fun b => byte_ok b = true) block /\ (length block < 64)%nat /\
  map_unpack hiid_eqb string_packer string_packer [] block = UB.
Proof.
  exists (enc_u64 1 ++ enc_u64 1 ++ enc_u64 1000 ++ [65; 66]).
  split; [repeat constructor|]. split; [cbn; lia|vm_compute; reflexivity].
Qed.
Print Assumptions map_unpack_stays_inside_refuted.

(** ** Both models of sequences agree on what is accepted *)
Definition same_elem {T} (p : epacker T) (q : upk T) : Prop :=
  ep_bin p = up_bin q /\ (forall b, ep_unraw p b = up_raw q b) /\
  (forall mem s v, 0 <= s -> zlen mem < 2 ^ 62 -> up_un q mem s = Ok v <-> s <= zlen mem /\ s < 2 ^ 62 /\ ep_unpack p (firstn (Z.to_nat s) mem) = Ok v).

Lemma same_string : same_elem string_packer up_string.
Proof.
  split; [easy|]. split; [easy|]. intros mem s v S0 M. cbn. unfold readn.
  destruct (Z.leb_spec (2 ^ 62) s); [split; [easy|intros (? & ? & ?); lia]|].
  destruct (Z.leb_spec s (zlen mem)); [tauto|split; [easy|intros (? & ? & ?); lia]].
Qed.
Lemma loops_agree {T} (p : epacker T) (q : upk T) mem : same_elem p q -> zlen mem < 2 ^ 62 -> Z.of_nat (ep_bin p) < 2 ^ 62 ->
  forall n szs sz0 vs, Forall (fun z => u64_ok z = true) szs -> 0 <= sz0 <= zlen mem ->
  (useq_loop q n szs mem (zlen mem) sz0 = Ok (vs, zlen mem) <-> unpack_elems p n szs (skipn (Z.to_nat sz0) mem) = Ok (vs, [])).
Proof.
  intros (SB & SR & SU) M KB. induction n as [|n IH]; intros szs sz0 vs US S0.
  - cbn. split; intros H.
    + injection H as <- E. f_equal. f_equal. apply skipn_all2. lia.
    + injection H as <- E. apply (f_equal (@length Z)) in E. rewrite skipn_length in E. cbn in E. do 2 f_equal. lia.
  - cbn [useq_loop unpack_elems]. rewrite <- SB.
    set (s1 := if Nat.eqb (ep_bin p) 0 then hd 0 szs else Z.of_nat (ep_bin p)).
    assert (B : 0 <= s1 < 2 ^ 64).
    { subst s1. destruct (Nat.eqb_spec (ep_bin p) 0) as [E|E]; [|lia].
      destruct szs as [|z szs]; [cbn; lia|]. inversion US as [|z' l Hz Hl]; subst. unfold u64_ok in Hz. cbn [hd].
      apply andb_prop in Hz as [H1 H2]. apply Z.leb_le in H1. apply Z.ltb_lt in H2. lia. }
    replace (if Nat.eqb (ep_bin p) 0 then Z.to_nat (hd 0 szs) else ep_bin p) with (Z.to_nat s1) by (subst s1; destruct (Nat.eqb (ep_bin p) 0); lia).
    assert (DL : zlen (skipn (Z.to_nat sz0) mem) = zlen mem - sz0) by (rewrite skipn_length; lia).
    assert (TS : Forall (fun z => u64_ok z = true) (tl szs)) by (destruct US; [constructor|assumption]).
    cbv zeta. destruct (Z.le_gt_cases (sz0 + s1) (zlen mem)) as [FITS|BIG].
    + unfold W64. rewrite Z.mod_small by lia. destruct (Z.ltb_spec (zlen mem) (sz0 + s1)); [lia|].
      destruct (Nat.ltb_spec (length (skipn (Z.to_nat sz0) mem)) (Z.to_nat s1)); [lia|].
      assert (SK : skipn (Z.to_nat s1) (skipn (Z.to_nat sz0) mem) = skipn (Z.to_nat (sz0 + s1)) mem).
      { rewrite Z2Nat.inj_add by lia. generalize (Z.to_nat sz0) (Z.to_nat s1) mem. intros a b l. revert l. induction a as [|a IHa]; intros [|x l]; cbn; rewrite ?skipn_nil; auto. }
      rewrite SK.
      assert (EL : forall v, (if Nat.eqb (ep_bin p) 0 then up_un q (skipn (Z.to_nat sz0) mem) s1 else bind (readn (skipn (Z.to_nat sz0) mem) s1) (fun b => Ok (up_raw q b))) = Ok v <->
                (if Nat.eqb (ep_bin p) 0 then ep_unpack p (firstn (Z.to_nat s1) (skipn (Z.to_nat sz0) mem)) else Ok (ep_unraw p (firstn (Z.to_nat s1) (skipn (Z.to_nat sz0) mem)))) = Ok v).
      { intros v. destruct (Nat.eqb (ep_bin p) 0).
        - rewrite SU by lia. split; [tauto|]. intros E. repeat split; [lia|lia|exact E].
        - rewrite readn_ok by lia. cbn [bind]. now rewrite SR. }
      specialize (IH (tl szs) (sz0 + s1)).
      destruct (if Nat.eqb (ep_bin p) 0 then up_un q _ _ else _) as [v| |] eqn:E1.
      * assert (E2 := proj1 (EL v) eq_refl). rewrite E2. cbn [bind]. split; intros H1.
        -- destruct (useq_loop q n (tl szs) mem (zlen mem) (sz0 + s1)) as [[vs' e]| |] eqn:E3; try discriminate H1. injection H1 as <- ->.
           now rewrite (proj1 (IH vs' TS ltac:(lia)) eq_refl).
        -- destruct (unpack_elems p n (tl szs) (skipn (Z.to_nat (sz0 + s1)) mem)) as [[vs' d]| |] eqn:E3; try discriminate H1. injection H1 as <- ->.
           now rewrite (proj2 (IH vs' TS ltac:(lia)) eq_refl).
      * split; [discriminate|]. destruct (if Nat.eqb (ep_bin p) 0 then ep_unpack p _ else _) as [v| |]; try discriminate. now destruct (proj2 (EL v) eq_refl).
      * split; [discriminate|]. destruct (if Nat.eqb (ep_bin p) 0 then ep_unpack p _ else _) as [v| |]; try discriminate. now destruct (proj2 (EL v) eq_refl).
    + destruct (Nat.ltb_spec (length (skipn (Z.to_nat sz0) mem)) (Z.to_nat s1)); [|lia]. split; [|discriminate].
      destruct (_ <? _); [discriminate|]. intros H1. exfalso.
      destruct (Nat.eqb_spec (ep_bin p) 0) as [E|E].
      * destruct (up_un q (skipn (Z.to_nat sz0) mem) s1) as [v| |] eqn:E1; try discriminate H1. apply SU in E1; lia.
      * unfold readn in H1. destruct (Z.leb_spec s1 (zlen (skipn (Z.to_nat sz0) mem))); [lia|discriminate H1].
Qed.
Theorem sequence_models_agree : forall T (p : epacker T) (q : upk T) block xs,
  same_elem p q -> Z.of_nat (ep_bin p) < 2 ^ 62 -> Forall (fun b => byte_ok b = true) block -> zlen block < 2 ^ 62 ->
  (useq q block (zlen block) = Ok xs <-> seq_unpack p block = Ok xs).
Proof.
  intros T p q block xs SE KB B M. assert (SB := proj1 SE). unfold useq, seq_unpack.
  destruct (Z.ltb_spec (zlen block) 8) as [|L8]; destruct (Nat.ltb_spec (length block) 8); try lia; [easy|].
  rewrite readn_ok by lia. cbn [bind]. change (Z.to_nat 8) with 8%nat. set (n := dec_u64 (firstn 8 block)). cbv zeta. unfold tab. rewrite <- SB.
  assert (N : 0 <= n < 2 ^ 64).
  { assert (H1 := le_val_bound (firstn 8 block) (Forall_firstn' _ _ _ B)). rewrite firstn_length_le in H1 by lia. exact H1. }
  set (t := if Nat.eqb (ep_bin p) 0 then n else 0). assert (Tb : 0 <= t < 2 ^ 64) by (subst t; destruct (Nat.eqb (ep_bin p) 0); lia).
  replace (if Nat.eqb (ep_bin p) 0 then Z.to_nat n else 0%nat) with (Z.to_nat t) by (subst t; now destruct (Nat.eqb (ep_bin p) 0)).
  destruct (Z.le_gt_cases (2 ^ 60) t) as [T60|T60].
  - destruct (Z.leb_spec (2 ^ 60) t); [|lia]. destruct (Nat.ltb_spec (length block) (8 * (1 + Z.to_nat t))); [|lia]. now destruct (_ <? _).
  - unfold W64. rewrite Z.mod_small by lia. destruct (Z.ltb_spec (zlen block) (8 * (1 + t))); destruct (Nat.ltb_spec (length block) (8 * (1 + Z.to_nat t))); try lia; [easy|].
    destruct (Z.leb_spec (2 ^ 60) t); [lia|]. rewrite readn_ok by lia. cbn [bind].
    replace (8 * (1 + Z.to_nat t))%nat with (Z.to_nat (8 * (1 + t))) by lia.
    assert (DT : dec_u64s (Z.to_nat t) (skipn 8 (firstn (Z.to_nat (8 * (1 + t))) block)) = dec_u64s (Z.to_nat t) (skipn 8 block)).
    { replace (Z.to_nat (8 * (1 + t))) with (8 + 8 * Z.to_nat t)%nat by lia. rewrite skipn_firstn_comm. replace (8 + 8 * Z.to_nat t - 8)%nat with (8 * Z.to_nat t)%nat by lia. generalize (skipn 8 block) (Z.to_nat t). clear.
      intros l k. revert l. induction k as [|k IH]; intros l; [easy|]. cbn [dec_u64s]. replace (8 * S k)%nat with (8 + 8 * k)%nat by lia.
      rewrite firstn_firstn, Nat.min_l by lia. f_equal. rewrite skipn_firstn_comm. replace (8 + 8 * k - 8)%nat with (8 * k)%nat by lia. apply IH. }
    rewrite DT.
    assert (A := loops_agree p q block SE M KB (Z.to_nat n) (dec_u64s (Z.to_nat t) (skipn 8 block)) (8 * (1 + t)) xs).
    assert (US : Forall (fun z => u64_ok z = true) (dec_u64s (Z.to_nat t) (skipn 8 block))) by (apply dec_u64s_u64; [now apply Forall_skipn'|rewrite skipn_length; lia]).
    specialize (A US ltac:(lia)). split; intros H4.
    + destruct (useq_loop _ _ _ _ _ _) as [[vs e]| |] eqn:E; try discriminate H4. cbn [bind] in H4. destruct (Z.eqb_spec (zlen block) e) as [<-|]; [|discriminate H4].
      injection H4 as ->. rewrite (proj1 A eq_refl). reflexivity.
    + destruct (unpack_elems _ _ _ _) as [[vs d]| |] eqn:E; try discriminate H4. cbn [bind] in H4. destruct d; cbn in H4; [|discriminate H4].
      injection H4 as ->. rewrite (proj2 A eq_refl). cbn [bind]. now rewrite Z.eqb_refl.
Qed.
Print Assumptions sequence_models_agree.
