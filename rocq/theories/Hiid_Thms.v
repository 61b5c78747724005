(** Property theorems on hierarchical identifiers (C01-C05). *)
From Verif Require Import Base Bytes_Model Hiid_Model Hiid_Spec Hiid_Proofs.
Local Open Scope Z_scope.

(** C01 *)
Theorem hiid_matches_is_intersection :
  forall (same : bool) (x y : hiid), (same = true -> x = y) ->
    (hiid_matches_obj same x y = true <->
     exists s, concrete s /\ denotes x s /\ denotes y s).
Proof. exact matches_obj_iff. Qed.
Print Assumptions hiid_matches_is_intersection.

Theorem hiid_matches_symmetric : forall x y, hiid_matches x y = hiid_matches y x.
Proof. exact matches_sym. Qed.
Print Assumptions hiid_matches_symmetric.

Theorem hiid_matches_concrete_id :
  forall p s, concrete s -> (hiid_matches p s = true <-> denotes p s).
Proof. exact matches_concrete. Qed.
Print Assumptions hiid_matches_concrete_id.

Theorem hiid_prefixedBy_is_prefix :
  forall x p, hiid_prefixedBy x p = true <->
    exists t u, concrete (t ++ u) /\ denotes x (t ++ u) /\ denotes p t.
Proof. exact prefixedBy_iff. Qed.
Print Assumptions hiid_prefixedBy_is_prefix.

Example matches_ex1 :
  hiid_matches [7; AidAny; AidWildcard] [7; 3; 4; 5] = true /\
  concrete [7;3;4;5] /\ denotes [7;-1;-2] [7;3;4;5].
Proof.
  split; [reflexivity|]. split; [repeat constructor; lia|].
  apply den_atom; [lia|lia|]. apply den_any. apply den_star.
Qed.
Example matches_ex2 : hiid_matches [7; AidAny] [7; 3; 4] = false.
Proof. reflexivity. Qed.
Example prefixedBy_ex : hiid_prefixedBy [7;3;4] [7;AidAny] = true /\ hiid_prefixedBy [7] [7;AidAny] = false.
Proof. split; reflexivity. Qed.

(** C02 *)
Theorem hiid_subset_is_inclusion :
  forall (same : bool) (x y : hiid), (same = true -> x = y) ->
    (hiid_subset_obj same x y = true <->
     forall s, concrete s -> denotes x s -> denotes y s).
Proof. exact subset_obj_iff. Qed.
Print Assumptions hiid_subset_is_inclusion.

Theorem hiid_subset_preorder :
  (forall x, hiid_subset x x = true) /\
  (forall x y z, hiid_subset x y = true -> hiid_subset y z = true -> hiid_subset x z = true).
Proof. exact (conj subset_refl subset_trans). Qed.
Print Assumptions hiid_subset_preorder.

Theorem hiid_subset_matches :
  forall x y z, hiid_subset x y = true -> hiid_matches x z = true -> hiid_matches y z = true.
Proof. exact subset_matches_mono. Qed.
Print Assumptions hiid_subset_matches.

Example subset_ex :
  hiid_subset [7; 3; AidWildcard] [7; AidAny; AidWildcard] = true /\
  hiid_subset [7; AidAny] [7; 3] = false /\ hiid_matches [7;3;AidWildcard] [AidAny;3] = true.
Proof. repeat split; reflexivity. Qed.

(** C03 *)
Theorem hiid_order_is_strict_total_order :
  (forall x, hiid_ltb x x = false) /\
  (forall x y z, hiid_ltb x y = true -> hiid_ltb y z = true -> hiid_ltb x z = true) /\
  (forall x y,
     (hiid_ltb x y = true /\ hiid_eqb x y = false /\ hiid_ltb y x = false) \/
     (hiid_ltb x y = false /\ hiid_eqb x y = true /\ hiid_ltb y x = false) \/
     (hiid_ltb x y = false /\ hiid_eqb x y = false /\ hiid_ltb y x = true)).
Proof. exact hiid_order_strict_total. Qed.
Print Assumptions hiid_order_is_strict_total_order.

Theorem hiid_order_is_lexicographic : forall x y, hiid_ltb x y = true <-> lex_lt x y.
Proof. exact hiid_ltb_iff. Qed.
Print Assumptions hiid_order_is_lexicographic.

Theorem hiid_equality_is_equality : forall x y, hiid_eqb x y = true <-> x = y.
Proof. exact hiid_eqb_iff. Qed.
Print Assumptions hiid_equality_is_equality.

Example order_ex : hiid_ltb [1;2] [1;2;-5] = true /\ hiid_ltb [1;2;-5] [1;3] = true /\ hiid_ltb [1;2] [1;3] = true.
Proof. repeat split. Qed.

(** C04 *)
Theorem hiid_pack_then_unpack :
  forall x nleft bs n nl rest,
    hiid_ok x -> hiid_pack x nleft = Ok (bs, n, nl) -> hiid_unpack (bs ++ rest) n = Ok x.
Proof. exact hiid_pack_unpack. Qed.
Print Assumptions hiid_pack_then_unpack.

Theorem hiid_unpack_then_pack :
  forall block x, Forall (fun b => byte_ok b = true) block ->
    hiid_unpack block (length block) = Ok x ->
    hiid_ok x /\ hiid_pack x (length block) = Ok (block, length block, O).
Proof. exact hiid_unpack_pack. Qed.
Print Assumptions hiid_unpack_then_pack.

Theorem hiid_pack_accounts_space :
  forall x nleft, (hiid_packSize x <= nleft)%nat ->
    exists bs, hiid_pack x nleft = Ok (bs, hiid_packSize x, (nleft - hiid_packSize x)%nat) /\
               length bs = hiid_packSize x.
Proof. exact hiid_pack_ok. Qed.
Print Assumptions hiid_pack_accounts_space.

Lemma hiid_pack_short_lemma x nleft : (nleft < hiid_packSize x)%nat -> hiid_pack x nleft = Err.
Proof. unfold hiid_pack, hiid_packSize. destruct (Nat.ltb_spec nleft (4 * length x)); [reflexivity|lia]. Qed.
Theorem hiid_pack_refuses_short_buffer :
  forall x nleft, (nleft < hiid_packSize x)%nat -> hiid_pack x nleft = Err.
Proof. exact hiid_pack_short_lemma. Qed.
Print Assumptions hiid_pack_refuses_short_buffer.

Lemma hiid_unpack_bad_lemma block sz : (sz mod 4 <> 0)%nat -> hiid_unpack block sz = Err.
Proof. unfold hiid_unpack. intros H. apply Nat.eqb_neq in H. now rewrite H. Qed.
Theorem hiid_unpack_refuses_bad_size :
  forall block sz, (sz mod 4 <> 0)%nat -> hiid_unpack block sz = Err.
Proof. exact hiid_unpack_bad_lemma. Qed.
Print Assumptions hiid_unpack_refuses_bad_size.

Example pack_ex : exists bs,
  hiid_pack [1000; -2; 5] 20 = Ok (bs, 12%nat, 8%nat) /\ hiid_unpack (bs ++ [9;9]) 12 = Ok [1000;-2;5] /\
  hiid_ok [1000;-2;5].
Proof. eexists. split; [reflexivity|]. split; [reflexivity|]. repeat constructor. Qed.

(** C05 *)
Theorem hiid_splitAtSlash_splits :
  forall x,
    (~ In AidSlash x /\ splitAtSlash x = (x, [])) \/
    (exists pre post, x = pre ++ AidSlash :: post /\ ~ In AidSlash pre /\
                      splitAtSlash x = (pre, post)).
Proof. exact splitAtSlash_spec. Qed.
Print Assumptions hiid_splitAtSlash_splits.

Theorem hiid_repeated_split_enumerates_components :
  forall comps fuel,
    Forall (fun c => ~ In AidSlash c) comps -> last comps [1] <> [] ->
    (length comps <= fuel)%nat -> split_all fuel (joined comps) = comps.
Proof. exact split_all_joined. Qed.
Print Assumptions hiid_repeated_split_enumerates_components.

Theorem hiid_pop_front_drops : forall x n, pop_front x n = skipn n x.
Proof. exact pop_front_skipn. Qed.
Print Assumptions hiid_pop_front_drops.

Theorem hiid_popLeadSlashes_strips :
  forall x, exists r, x = repeat AidSlash (fst (popLeadSlashes x)) ++ r /\
            snd (popLeadSlashes x) = r /\ (forall s, r <> AidSlash :: s).
Proof. exact popLeadSlashes_spec. Qed.
Print Assumptions hiid_popLeadSlashes_strips.

Theorem hiid_popLeadIndex_pops :
  forall x,
  (exists i r, x = i :: r /\ 0 <= i /\ popLeadIndex x = (i, r)) \/
  ((forall i r, x = i :: r -> i < 0) /\ popLeadIndex x = (0, x)).
Proof. exact popLeadIndex_spec. Qed.
Print Assumptions hiid_popLeadIndex_pops.

Theorem hiid_popTrailIndex_pops :
  forall x,
  (exists r i, x = r ++ [i] /\ 0 <= i /\ popTrailIndex x = (i, r)) \/
  ((forall r i, x = r ++ [i] -> i < 0) /\ popTrailIndex x = (0, x)).
Proof. exact popTrailIndex_spec. Qed.
Print Assumptions hiid_popTrailIndex_pops.

(** [push_front(a,n)] does not in general prepend: HIID.h:414 moves too few bytes. *)
Theorem hiid_push_front_prepends_refuted :
  exists x a n, hiid_ok x /\ push_front x a n <> push_front_expected x a n.
Proof. exact push_front_refuted_lemma. Qed.
Print Assumptions hiid_push_front_prepends_refuted.

(** What remains true: prepending to an empty id, or to one small index. *)
Theorem hiid_push_front_empty_partial :
  forall a n, push_front [] a n = push_front_expected [] a n.
Proof. exact push_front_empty. Qed.
Print Assumptions hiid_push_front_empty_partial.
Theorem hiid_push_front_single_partial :
  forall b a n, 0 <= b < 256 -> push_front [b] a n = push_front_expected [b] a n.
Proof. exact push_front_single. Qed.
Print Assumptions hiid_push_front_single_partial.

Example split_ex :
  split_all 5 (joined [[1;2];[];[3]]) = [[1;2];[];[3]] /\ joined [[1;2];[];[3]] = [1;2;-3;-3;3].
Proof. split; reflexivity. Qed.
