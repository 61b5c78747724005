(** Property theorems on subscriptions (C36, C37). *)
From Verif Require Import Base Bytes_Model Hiid_Model Hiid_Spec Hiid_Proofs Subs_Model Subs_Proofs.
Local Open Scope Z_scope.

(** C36 *)
Theorem subscriptions_add_is_union :
  forall s id scope mid from,
    subs_matches (snd (subs_add s id scope)) mid from =
    subs_matches s mid from || (hiid_matches mid id && hiid_matches from scope).
Proof. exact subs_add_matches. Qed.
Print Assumptions subscriptions_add_is_union.

Theorem subscriptions_add_idempotent :
  forall s id scope, let s' := snd (subs_add s id scope) in subs_add s' id scope = (false, s').
Proof. exact subs_add_idempotent. Qed.
Print Assumptions subscriptions_add_idempotent.

Theorem subscriptions_add_unchanged_when_false :
  forall s id scope s', subs_add s id scope = (false, s') -> s_list s' = s_list s.
Proof. exact subs_add_false. Qed.
Print Assumptions subscriptions_add_unchanged_when_false.

Theorem subscriptions_merge_is_union :
  forall s other mid from,
    subs_matches (snd (subs_merge s other)) mid from =
    subs_matches s mid from || subs_matches other mid from.
Proof. exact subs_merge_matches. Qed.
Print Assumptions subscriptions_merge_is_union.

Theorem subscriptions_remove_never_adds :
  forall s id mid from,
    subs_matches (snd (subs_remove s id)) mid from = true -> subs_matches s mid from = true.
Proof. exact subs_remove_sound. Qed.
Print Assumptions subscriptions_remove_never_adds.

Theorem subscriptions_remove_exact :
  forall s id mid from,
  subs_matches (snd (subs_remove s id)) mid from = true <->
  exists e, In e (s_list s) /\
            (hiid_matches mid (s_mask e) && hiid_matches from (s_scope e) = true) /\
            ~ (forall x, concrete x -> denotes (s_mask e) x -> denotes id x).
Proof. exact subs_remove_matches. Qed.
Print Assumptions subscriptions_remove_exact.

Example subs_ex :
  let s := snd (subs_add (snd (subs_add subs_init [7;8] [1;2;3;4])) [7;AidWildcard] [AidWildcard]) in
  length (s_list s) = 1%nat /\ subs_matches s [7;9] [5] = true /\ subs_matches s [8] [5] = false /\
  subs_matches (snd (subs_remove s [AidWildcard])) [7;9] [5] = false.
Proof. repeat split. Qed.

(** C37 *)
Theorem subscriptions_pack_size_exact :
  forall os nleft, let s := fold_left subs_step os subs_init in
    s_pksize s <= Z.of_nat nleft ->
    exists bytes n, subs_pack s nleft = Ok (bytes, s_pksize s, n) /\
      Z.of_nat (length bytes) = s_pksize s /\ Z.of_nat n = Z.of_nat nleft - s_pksize s.
Proof.
  exact (fun os nleft H =>
    match subs_pack_ok _ nleft (subs_run_size os) H with
    | ex_intro _ n (conj E Hn) =>
        ex_intro _ _ (ex_intro _ n (conj E (conj (eq_trans (packed_length _) (eq_sym (subs_run_size os))) Hn)))
    end).
Qed.
Print Assumptions subscriptions_pack_size_exact.

Lemma subs_round_trip_lemma os nleft bytes sz n : let s := fold_left subs_step os subs_init in
  Forall sub_ok (s_list s) -> s_pksize s < 2 ^ 30 ->
  subs_pack s nleft = Ok (bytes, sz, n) -> subs_unpack bytes = Ok s.
Proof.
  intros s Hok Hlim H.
  assert (Hs : size_ok s) by apply subs_run_size.
  assert (bytes = packed (s_list s)) as ->; [|now apply subs_unpack_packed].
  destruct (Z_le_dec (s_pksize s) (Z.of_nat nleft)) as [Hle|Hgt].
  - destruct (subs_pack_ok s nleft Hs Hle) as (n' & E & _). congruence.
  - exfalso. unfold subs_pack in H.
    destruct (negb _); [discriminate|]. destruct (Nat.ltb_spec nleft (8 * (1 + 2 * length (s_list s)))); [discriminate|].
    assert (G : forall l nl r, pack_elems l nl = Ok r ->
      size_of l - 8 - 16 * Z.of_nat (length l) <= Z.of_nat nl).
    { clear. induction l as [|e l IH]; intros nl r E; [rewrite ?size_of_nil; cbn; lia|].
      cbn [pack_elems] in E. unfold hiid_pack in E.
      destruct (Nat.ltb_spec nl (4 * length (s_mask e))); [discriminate|]. cbn [bind] in E.
      destruct (Nat.ltb_spec (nl - 4 * length (s_mask e)) (4 * length (s_scope e))); [discriminate|]. cbn [bind] in E.
      destruct (pack_elems l _) as [r'| |] eqn:E'; [|discriminate|discriminate].
      apply IH in E'. rewrite size_of_cons. unfold elem_size, pksz, hiid_packSize. cbn [length]. lia. }
    destruct (pack_elems (s_list s) _) as [r| |] eqn:E; [|discriminate|discriminate].
    apply G in E. unfold size_ok in Hs. lia.
Qed.
Theorem subscriptions_pack_unpack :
  forall os nleft bytes sz n, let s := fold_left subs_step os subs_init in
  Forall sub_ok (s_list s) -> s_pksize s < 2 ^ 30 ->
  subs_pack s nleft = Ok (bytes, sz, n) -> subs_unpack bytes = Ok s.
Proof. exact subs_round_trip_lemma. Qed.
Print Assumptions subscriptions_pack_unpack.

(** Unpacking arbitrary bytes is not memory safe (size arithmetic wraps). *)
Theorem subscriptions_unpack_safe_refuted :
  exists block, Forall (fun b => byte_ok b = true) block /\ subs_unpack block = UB.
Proof. exact subs_unpack_unsafe_ex. Qed.
Print Assumptions subscriptions_unpack_safe_refuted.

Example subs_pack_ex :
  let s := fold_left subs_step [SubAdd [7;8] [1;2;3;4]; SubAdd [9] [-2]; SubRemove [7;-2]; SubAdd [5;5] [6]] subs_init in
  s_pksize s = 60 /\ (exists b, subs_pack s 100 = Ok (b, 60, 40%nat) /\ subs_unpack b = Ok s) /\
  Forall sub_ok (s_list s).
Proof. split; [reflexivity|]. split; [eexists; split; reflexivity|]. repeat constructor. Qed.
