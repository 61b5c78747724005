(** Property theorems on packers (C20). *)
From Verif Require Import Base Bytes_Model Hiid_Model Hiid_Spec Hiid_Proofs Pack_Model Pack_Spec Pack_Proofs.
Local Open Scope Z_scope.

(** element packers the code base uses *)
Theorem string_packer_correct : forall s, packs string_packer s.
Proof. exact string_packs. Qed.
Print Assumptions string_packer_correct.
Theorem hiid_packer_correct : forall x, hiid_ok x -> packs hiid_packer x.
Proof. exact hiid_packs. Qed.
Print Assumptions hiid_packer_correct.
Theorem binary_packer_correct : forall k x, k <> 0%nat -> length x = k -> packs (bin_packer k) x.
Proof. exact bin_packs. Qed.
Print Assumptions binary_packer_correct.

(** C20, sequences: a vector of correctly packed elements (bitwise or variable-length,
    and, by iterating the theorem, vectors of vectors to any depth) packs correctly *)
Theorem sequence_packer_correct :
  forall T (p : epacker T) xs,
  Forall (packs p) xs -> Z.of_nat (seq_packSize p xs) < 2 ^ 64 -> Z.of_nat (length xs) < 2 ^ 64 ->
  packs (vector_packer p) xs.
Proof. exact @seq_packs. Qed.
Print Assumptions sequence_packer_correct.

Example seq_ex :
  let v := [[[72;105];[]];[[1;2;3]]] in
  packs (vector_packer (vector_packer string_packer)) v /\
  exists b, ep_pack (vector_packer (vector_packer string_packer)) v 100 = Ok (b, (100 - 69)%nat).
Proof.
  assert (H : packs (vector_packer (vector_packer string_packer)) [[[72;105];[]];[[1;2;3]]]).
  { apply sequence_packer_correct; [|reflexivity..].
    repeat constructor; (apply sequence_packer_correct; [|reflexivity..]); repeat constructor;
    apply string_packer_correct. }
  split; [exact H|]. destruct H as (b & _ & H & _ & _). exists b. apply (H 100%nat).
  apply Nat.leb_le. reflexivity.
Qed.

(** C20, arrays of variable-length elements *)
Theorem array_packer_round_trip :
  forall T (p : epacker T) xs nleft,
  ep_bin p = 0%nat -> Forall (packs p) xs ->
  Z.of_nat (seq_packSize p xs) < 2 ^ 64 -> Z.of_nat (length xs) < 2 ^ 64 ->
  (arr_packSize p xs <= nleft)%nat ->
  exists bytes, arr_pack p xs nleft = Ok (bytes, (nleft - arr_packSize p xs)%nat) /\
    length bytes = arr_packSize p xs /\
    arr_unpack p (length xs) bytes = Ok xs /\ arr_allocate p bytes = Ok xs.
Proof. exact @arr_round. Qed.
Print Assumptions array_packer_round_trip.

Example arr_ex :
  match arr_pack string_packer [[72;105];[33]] 100 with
  | Ok (b, n) => length b = 27%nat /\ n = 73%nat /\ arr_allocate string_packer b = Ok [[72;105];[33]]
  | _ => False end.
Proof. vm_compute. auto. Qed.

(** arrays of bitwise elements: unpack returns the bytes of the header instead *)
Theorem array_packer_binary_refuted :
  exists xs bytes n, Forall (packs (bin_packer 4)) xs /\
    arr_pack (bin_packer 4) xs 100 = Ok (bytes, n) /\
    arr_unpack (bin_packer 4) (length xs) bytes = Ok [[2;0;0;0];[0;0;0;0]] /\
    xs = [[7;0;0;0];[8;0;0;0]].
Proof.
  exists [[7;0;0;0];[8;0;0;0]]. eexists _, _. split; [|split; [vm_compute; reflexivity|split; [vm_compute; reflexivity|reflexivity]]].
  repeat constructor.
Qed.
Print Assumptions array_packer_binary_refuted.

(** C20, maps with bitwise values: round trip, but the space needed is not packSize *)
Lemma counted_bin {K V} (pk : epacker K) (pv : epacker V) m : ep_bin pv <> 0%nat ->
  counted pk pv m = mtotal pk pv m.
Proof. intros E. unfold counted, mtotal. destruct (Nat.eqb_spec (ep_bin pv) 0); [lia|reflexivity]. Qed.

Theorem map_packer_binary_values_round_trip_partial :
  forall K V (eqb : K -> K -> bool) (pk : epacker K) (pv : epacker V) m nleft,
  (forall a b, eqb a b = true <-> a = b) ->
  ep_bin pv <> 0%nat ->
  Forall (packs pk) (map fst m) -> Forall (packs pv) (map snd m) -> NoDup (map fst m) ->
  Z.of_nat (length m) < 2 ^ 64 -> Z.of_nat (total pk (map fst m) + total pv (map snd m)) < 2 ^ 64 ->
  let need := (8 * (1 + tab pk (length m) + tab pv (length m)) +
               (total pk (map fst m) + total pv (map snd m)))%nat in
  (need <= nleft)%nat ->
  exists bytes, map_pack pk pv m nleft = Ok (bytes, (nleft - need)%nat) /\ length bytes = need /\
    map_unpack eqb pk pv [] bytes = Ok m.
Proof.
  intros K V eqb pk pv m nleft He Hb Hk Hv Hnd Hn Ht need Hl.
  destruct (map_block eqb pk pv He m nleft Hk Hv Hnd Hn Ht Hl) as (b & H1 & H2 & H3).
  exists b. rewrite counted_bin, Nat.eqb_refl in H3 by exact Hb. auto.
Qed.
Print Assumptions map_packer_binary_values_round_trip_partial.

(** maps with variable-length values: the packed block is refused whenever the keys'
    total size differs from the values' *)
Theorem map_packer_variable_values_refuted :
  forall K V (eqb : K -> K -> bool) (pk : epacker K) (pv : epacker V) m nleft,
  (forall a b, eqb a b = true <-> a = b) ->
  ep_bin pv = 0%nat -> total pk (map fst m) <> total pv (map snd m) ->
  Forall (packs pk) (map fst m) -> Forall (packs pv) (map snd m) -> NoDup (map fst m) ->
  Z.of_nat (length m) < 2 ^ 64 -> Z.of_nat (total pk (map fst m) + total pv (map snd m)) < 2 ^ 64 ->
  let need := (8 * (1 + tab pk (length m) + tab pv (length m)) +
               (total pk (map fst m) + total pv (map snd m)))%nat in
  (need <= nleft)%nat ->
  exists bytes, map_pack pk pv m nleft = Ok (bytes, (nleft - need)%nat) /\
    map_unpack eqb pk pv [] bytes = Err.
Proof.
  intros K V eqb pk pv m nleft He Hb Hne Hk Hv Hnd Hn Ht need Hl.
  destruct (map_block eqb pk pv He m nleft Hk Hv Hnd Hn Ht Hl) as (b & H1 & H2 & H3).
  exists b. split; [exact H1|]. rewrite H3. unfold counted, mtotal. rewrite Hb. cbn [Nat.eqb].
  destruct (Nat.eqb_spec (total pk (map fst m) + total pk (map fst m))
                         (total pk (map fst m) + total pv (map snd m))); [lia|reflexivity].
Qed.
Print Assumptions map_packer_variable_values_refuted.

Definition zs_eqb (a b : list Z) : bool := if list_eq_dec Z.eq_dec a b then true else false.
Lemma zs_eqb_iff a b : zs_eqb a b = true <-> a = b.
Proof. unfold zs_eqb. destruct (list_eq_dec Z.eq_dec a b); split; congruence. Qed.
Example map_ex :
  (exists b n, map_pack string_packer (bin_packer 2) [([65;66],[1;0]);([67],[2;0])] 100 = Ok (b, n) /\
     map_unpack zs_eqb string_packer (bin_packer 2) [] b = Ok [([65;66],[1;0]);([67],[2;0])]) /\
  (exists b n, map_pack string_packer string_packer [([65;66],[1]);([67],[2;0;5])] 100 = Ok (b, n) /\
     map_unpack zs_eqb string_packer string_packer [] b = Err).
Proof. split; eexists _, _; (split; [vm_compute; reflexivity|vm_compute; reflexivity]). Qed.

(** packSize of a map is smaller than what pack writes *)
Theorem map_packer_size_refuted :
  exists m bytes n, map_pack string_packer string_packer m 1000 = Ok (bytes, n) /\
    (map_packSize string_packer string_packer m < length bytes)%nat /\
    map_pack string_packer string_packer m (map_packSize string_packer string_packer m) = Err.
Proof.
  exists [([65;66],[1]);([67],[2;0;5])]. eexists _, _. split; [vm_compute; reflexivity|].
  split; [apply Nat.ltb_lt; vm_compute; reflexivity|vm_compute; reflexivity].
Qed.
Print Assumptions map_packer_size_refuted.

(** with fewer than 8 bytes of space a sequence is written past the end of the buffer
    (the count is stored before the space is checked) *)
Theorem sequence_packer_tiny_buffer_refuted :
  forall T (p : epacker T) xs nleft, (nleft < 8)%nat -> seq_pack p xs nleft = UB.
Proof. intros T p xs nleft H. unfold seq_pack. destruct (Nat.ltb_spec nleft 8); [reflexivity|lia]. Qed.
Print Assumptions sequence_packer_tiny_buffer_refuted.
