(** What a ModRes node asks of its child. *)
From Coq Require Import QArith Qcanon.
From Verif Require Import Base Rqid_Model Rqid_Spec Rqid_Proofs Mrs_Model Mrs_Spec Mrs_Proofs.
Close Scope Q_scope. Close Scope Qc_scope. Local Open Scope nat_scope.

Lemma up_divided k ax : 1 <= k -> divided k ax (upsample k ax).
Proof. intros H. split; [apply up_len|]. intros i j a b Hj X. now apply up_cell. Qed.
Lemma divided_fun k ax ax' : 1 <= k -> divided k ax ax' -> ax' = upsample k ax.
Proof.
  intros Hk (L & H). apply axis_ext; [now rewrite up_len|]. intros i a b X. pose proof (cell_lt _ _ _ _ X) as Li. rewrite up_len in Li.
  destruct (up_index k i Hk) as (q & j & -> & Hj). destruct (cell_any ax q ltac:(nia)) as (x & y & XY). destruct (cell_fun _ _ _ _ _ _ X (up_cell k ax q j x y Hj XY)) as (-> & ->). now apply H.
Qed.
Lemma self_divided ax : divided 1 ax ax.
Proof. split; [lia|]. intros i j a b Hj X. replace j with 0 by lia. rewrite between_0, between_k by lia. now replace (i * 1 + 0) with i by lia. Qed.
Lemma down_grouped d ax : 1 <= d -> ax <> [] -> grouped d ax (downsample d ax).
Proof.
  intros H Hn. assert (Hl : 1 <= length ax) by (destruct ax; [congruence|cbn; lia]). destruct (groups_spec d ax H Hl) as (G1 & G2 & G3). split; [rewrite down_len; nia|].
  intros i a b a' b' X X'. pose proof (cell_lt _ _ _ _ X) as L. eapply down_cell; [exact H|exact Hl|nia|exact X|exact X'].
Qed.
Lemma cut_grouped d ax : 1 <= d -> ax <> [] -> grouped d ax (downsample (Nat.min d (length ax)) ax).
Proof.
  intros H Hn. destruct (Nat.le_gt_cases d (length ax)) as [L|L]; [rewrite Nat.min_l by exact L; now apply down_grouped|]. rewrite Nat.min_r by lia.
  assert (Hl : 1 <= length ax) by (destruct ax; [congruence|cbn; lia]). destruct (down_grouped (length ax) ax Hl Hn) as ((G1 & G2) & G).
  assert (M : length (downsample (length ax) ax) = 1).
  { set (m := length (downsample (length ax) ax)) in *. destruct m as [|[|m]]; [lia|reflexivity|]. cbn [Nat.mul] in G2. lia. }
  split; [rewrite M; lia|].
  intros i a b a' b' X X'. pose proof (cell_lt _ _ _ _ X) as Li. assert (i = 0) as -> by (destruct i; [reflexivity|cbn [Nat.mul] in Li; lia]). apply (G 0 a b a' b'); [exact X|]. rewrite Nat.min_r in * by lia. exact X'.
Qed.
Lemma self_grouped ax : grouped 1 ax ax.
Proof. split; [lia|]. intros i a b a' b' X X'. pose proof (cell_lt _ _ _ _ X) as L. rewrite Nat.min_l in X' by lia. replace (i * 1) with i in X by lia. replace ((i + 1) * 1 - 1) with i in X' by lia. destruct (cell_fun _ _ _ _ _ _ X X') as (-> & ->). exact X'. Qed.
Lemma grouped_fun d ax ax' : 1 <= d -> ax <> [] -> grouped d ax ax' -> ax' = downsample d ax.
Proof.
  intros Hd Hn ((L1 & L2) & H). assert (Hl : 1 <= length ax) by (destruct ax; [congruence|cbn; lia]). destruct (groups_spec d ax Hd Hl) as (G1 & G2 & G3).
  apply axis_ext; [rewrite down_len; nia|]. intros i a b X. pose proof (cell_lt _ _ _ _ X) as Li. rewrite down_len in Li. destruct (down_ex d ax i Hd Li Hl) as (A1 & A2).
  destruct (cell_any ax _ A1) as (x & y & XY). destruct (cell_any ax _ A2) as (u & v & UV). destruct (cell_fun _ _ _ _ _ _ X (down_cell d ax i x y u v Hd Hl Li XY UV)) as (-> & ->). exact (H i x y u v XY UV).
Qed.

(** Without gaps before, without gaps after; and the two ends are where they were. *)
Theorem mrs_seamless : forall k ax ax', 1 <= k -> (divided k ax ax' \/ (ax <> [] /\ grouped k ax ax')) ->
  (contiguous ax -> contiguous ax') /\ (forall a b, runs ax a b -> runs ax' a b).
Proof.
  intros k ax ax' Hk [H|(Hn & H)]; [rewrite (divided_fun k ax ax' Hk H)|rewrite (grouped_fun k ax ax' Hk Hn H)]; (split; [intros C|intros a b R]).
  - now apply up_contig.
  - now apply up_runs.
  - now apply down_contig.
  - now apply down_runs.
Qed.
Print Assumptions mrs_seamless.
Theorem mrs_even : forall n a b ax, 1 <= n -> evenly n a b ax -> contiguous ax /\ runs ax a b.
Proof.
  intros n a b ax Hn (L & H). split.
  - intros i x y x' y' X X'. pose proof (cell_lt _ _ _ _ X') as Li. destruct (cell_fun _ _ _ _ _ _ X (H i ltac:(lia))) as (_ & ->). now destruct (cell_fun _ _ _ _ _ _ X' (H (S i) ltac:(lia))) as (-> & _).
  - pose proof (H 0 ltac:(lia)) as A. pose proof (H (n - 1) ltac:(lia)) as B. rewrite between_0 in A. replace (S (n - 1)) with n in B by lia. rewrite between_k in B by lia. rewrite <- L in B at 1. split; eexists; [exact A|exact B].
Qed.
Print Assumptions mrs_even.

Lemma new_id_some s mask id : (0 <= mask < 2 ^ 31)%Z -> exists id', new_id s mask id = Some id' /\
  forall i, at_pos id' i = if selected mask i then if (m_index s =? 0)%Z then (at_pos id i + 1)%Z else m_index s else at_pos id i.
Proof.
  intros H. unfold new_id. destruct (m_index s =? 0)%Z.
  - destruct (incrSubId_spec 31 id mask H) as (id' & E & A). exists id'. split; [exact E|]. intros i. rewrite A. destruct (selected mask i); lia.
  - destruct (setSubId_spec 31 id mask (m_index s) H) as (id' & E & A). exists id'. split; [exact E|]. exact A.
Qed.
(** Which request id the child sees. *)
Theorem mrs_id : forall s mask c id s' c' id', (0 <= mask < 2 ^ 31)%Z -> ask_child s mask c id = Ok (s', c', id') ->
  if (match c with Some _ => m_resample s | None => false end)
  then forall i, at_pos id' i = if selected mask i then if (m_index s =? 0)%Z then (at_pos id i + 1)%Z else m_index s else at_pos id i
  else s' = s /\ c' = c /\ id' = id.
Proof.
  intros s mask c id s' c' id' Hm E. unfold ask_child in E. destruct c as [c|]; [|injection E as <- <- <-; auto]. destruct (m_resample s) eqn:R; [|injection E as <- <- <-; auto].
  destruct (new_cells s c) as [(s1, c1)| |] eqn:N; try discriminate. cbn [bind] in E. destruct (new_id_some s1 mask id Hm) as (id1 & I & A). rewrite I in E. injection E as <- <- <-.
  assert (X : m_index s1 = m_index s); [|now rewrite X in A]. clear A I. unfold new_cells in N. destruct (negb (m_up s || m_down s)).
  - destruct (m_nx s); [|discriminate]. destruct (m_ny s); [|discriminate]. destruct (nth 0 (k_dom c) None) as [(x0, x1)|]; [|discriminate]. destruct (nth 1 (k_dom c) None) as [(y0, y1)|]; [|discriminate]. now injection N as <- _.
  - destruct (change_axis s 0 _ _) as [(xa, d1)| |]; try discriminate. cbn [bind] in N. destruct (change_axis s 1 _ _) as [(ya, d2)| |]; try discriminate. cbn [bind] in N. now injection N as <- _.
Qed.
Print Assumptions mrs_id.

(** a node with a factor for each of the two axes, or a number of cells for each *)
Definition up_node (kx ky : nat) (index : Z) : mstate := set_state None (Some [Z.of_nat kx; Z.of_nat ky]) None (Some index) created.
Definition down_node (dx dy : nat) (index : Z) : mstate := set_state None None (Some [Z.of_nat dx; Z.of_nat dy]) (Some index) created.
Definition even_node (nx ny : nat) (index : Z) : mstate := set_state (Some [Z.of_nat nx; Z.of_nat ny]) None None (Some index) created.

Lemma change_up_node kx ky index i ax k dv : nth_error [kx; ky] i = Some k -> 1 <= k -> exists ax', change_axis (up_node kx ky index) i ax dv = Ok (ax', dv) /\ divided k ax ax'.
Proof.
  intros E H. assert (E' : nth_error (m_upv (up_node kx ky index)) i = Some (Z.of_nat k)).
  { cbn [up_node set_state set_index set_down set_up set_num created m_upv]. change [Z.of_nat kx; Z.of_nat ky] with (map Z.of_nat [kx; ky]). now rewrite nth_error_map, E. }
  destruct (Nat.eq_dec k 1) as [->|K].
  - exists ax. split; [|apply self_divided]. apply change_none; [right; exists 1%Z; split; [exact E'|lia]|left; reflexivity].
  - exists (upsample k ax). split; [|now apply up_divided]. rewrite (change_up _ i ax dv (Z.of_nat k)) by (reflexivity || exact E' || lia). now rewrite Nat2Z.id.
Qed.
(** Each cell becomes as many as the factor says. *)
Theorem mrs_up : forall kx ky index mask c id, 1 <= kx -> 1 <= ky -> (0 <= mask < 2 ^ 31)%Z ->
  exists c' id', ask_child (up_node kx ky index) mask (Some c) id = Ok (up_node kx ky index, Some c', id') /\
    k_dom c' = k_dom c /\ length (k_axes c') = 2 /\ divided kx (axis_at c 0) (axis_at c' 0) /\ divided ky (axis_at c 1) (axis_at c' 1).
Proof.
  intros kx ky index mask c id Hx Hy Hm.
  destruct (change_up_node kx ky index 0 (axis_at c 0) kx (m_downv (up_node kx ky index)) eq_refl Hx) as (xa & X & DX). destruct (change_up_node kx ky index 1 (axis_at c 1) ky (m_downv (up_node kx ky index)) eq_refl Hy) as (ya & Y & DY).
  destruct (new_id_some (up_node kx ky index) mask id Hm) as (id' & I & _). exists {| k_dom := k_dom c; k_axes := [xa; ya] |}, id'.
  split; [|split; [reflexivity|split; [reflexivity|split; [exact DX|exact DY]]]].
  unfold ask_child. change (m_resample (up_node kx ky index)) with true. cbv iota. unfold new_cells. change (negb (m_up (up_node kx ky index) || m_down (up_node kx ky index))) with false. cbv iota.
  rewrite X. cbn [bind]. rewrite Y. cbn [bind]. change (with_down (up_node kx ky index) (m_downv (up_node kx ky index))) with (up_node kx ky index). now rewrite I.
Qed.
Print Assumptions mrs_up.

Lemma change_down_node s i ax dv d : m_up s = false -> m_down s = true -> nth_error dv i = Some (Z.of_nat d) -> 1 <= d -> ax <> [] ->
  exists ax', change_axis s i ax dv = Ok (ax', replace dv i (Z.of_nat (Nat.min d (length ax)))) /\ grouped d ax ax'.
Proof.
  intros U D E H Hn. destruct (Nat.eq_dec d 1) as [->|K].
  - exists ax. split; [|apply self_grouped]. rewrite Nat.min_l by (destruct ax; [congruence|cbn; lia]). rewrite (replace_same _ _ _ E). apply change_none; [now left|right; exists 1%Z; split; [exact E|lia]].
  - exists (downsample (Nat.min d (length ax)) ax). split; [|apply cut_grouped; [exact H|exact Hn]]. rewrite (change_down s i ax dv (Z.of_nat d)) by (exact D || exact E || exact Hn || lia || (now left)).
    rewrite <- Nat2Z.inj_min, Nat2Z.id. reflexivity.
Qed.
Lemma down_node_step dx dy index mask c id : 1 <= dx -> 1 <= dy -> (0 <= mask < 2 ^ 31)%Z -> axis_at c 0 <> [] -> axis_at c 1 <> [] ->
  exists c' id', ask_child (down_node dx dy index) mask (Some c) id = Ok (down_node (smallest dx 0 [c]) (smallest dy 1 [c]) index, Some c', id') /\
    k_dom c' = k_dom c /\ length (k_axes c') = 2 /\ grouped dx (axis_at c 0) (axis_at c' 0) /\ grouped dy (axis_at c 1) (axis_at c' 1).
Proof.
  intros Hx Hy Hm Nx Ny. set (s := down_node dx dy index).
  destruct (change_down_node s 0 (axis_at c 0) [Z.of_nat dx; Z.of_nat dy] dx eq_refl eq_refl eq_refl Hx Nx) as (xa & X & DX). cbn [replace] in X.
  destruct (change_down_node s 1 (axis_at c 1) [Z.of_nat (Nat.min dx (length (axis_at c 0))); Z.of_nat dy] dy eq_refl eq_refl eq_refl Hy Ny) as (ya & Y & DY). cbn [replace] in Y.
  destruct (new_id_some (down_node (smallest dx 0 [c]) (smallest dy 1 [c]) index) mask id Hm) as (id' & I & _). exists {| k_dom := k_dom c; k_axes := [xa; ya] |}, id'.
  split; [|split; [reflexivity|split; [reflexivity|split; [exact DX|exact DY]]]].
  unfold ask_child. change (m_resample s) with true. cbv iota. unfold new_cells. change (negb (m_up s || m_down s)) with false. cbv iota. change (m_downv s) with [Z.of_nat dx; Z.of_nat dy].
  rewrite X. cbn [bind]. rewrite Y. cbn [bind].
  change (with_down s [Z.of_nat (Nat.min dx (length (axis_at c 0))); Z.of_nat (Nat.min dy (length (axis_at c 1)))]) with (down_node (smallest dx 0 [c]) (smallest dy 1 [c]) index). now rewrite I.
Qed.
(** the state after some requests *)
Fixpoint after (s : mstate) (mask : Z) (reqs : list (mcells * list Z)) : res mstate :=
  match reqs with [] => Ok s | (c, id) :: reqs => bind (ask_child s mask (Some c) id) (fun '(s, _, _) => after s mask reqs) end.
Lemma smallest_pos d i cs : 1 <= d -> Forall (fun c => axis_at c i <> []) cs -> 1 <= smallest d i cs.
Proof. unfold smallest. revert d. induction cs as [|c cs IH]; intros d H F; [exact H|]. cbn [fold_left]. apply IH; [|now inversion F]. inversion F; subst. destruct (axis_at c i); [congruence|cbn [length]; lia]. Qed.
Lemma after_down mask index : (0 <= mask < 2 ^ 31)%Z -> forall reqs dx dy, 1 <= dx -> 1 <= dy -> Forall (fun c => axis_at c 0 <> []) (map fst reqs) -> Forall (fun c => axis_at c 1 <> []) (map fst reqs) ->
  after (down_node dx dy index) mask reqs = Ok (down_node (smallest dx 0 (map fst reqs)) (smallest dy 1 (map fst reqs)) index).
Proof.
  intros Hm. induction reqs as [|(c, id) reqs IH]; intros dx dy Hx Hy Fx Fy; [reflexivity|]. cbn [map fst] in *. inversion Fx; subst. inversion Fy; subst.
  destruct (down_node_step dx dy index mask c id Hx Hy Hm) as (c' & id' & E & _); try assumption. cbn [after]. rewrite E. cbn [bind].
  rewrite IH; [reflexivity| | |assumption|assumption]; apply smallest_pos; auto.
Qed.
(** Downsampling groups as many cells as the factor says, but at most as many as the smallest request so far has had. *)
Theorem mrs_down : forall dx dy index mask earlier c id, 1 <= dx -> 1 <= dy -> (0 <= mask < 2 ^ 31)%Z ->
  Forall (fun c => axis_at c 0 <> []) (map fst earlier) -> Forall (fun c => axis_at c 1 <> []) (map fst earlier) -> axis_at c 0 <> [] -> axis_at c 1 <> [] ->
  exists s s' c' id', after (down_node dx dy index) mask earlier = Ok s /\ ask_child s mask (Some c) id = Ok (s', Some c', id') /\
    k_dom c' = k_dom c /\ length (k_axes c') = 2 /\
    grouped (smallest dx 0 (map fst earlier)) (axis_at c 0) (axis_at c' 0) /\ grouped (smallest dy 1 (map fst earlier)) (axis_at c 1) (axis_at c' 1).
Proof.
  intros dx dy index mask earlier c id Hx Hy Hm Fx Fy Nx Ny. pose proof (after_down mask index Hm earlier dx dy Hx Hy Fx Fy) as A.
  destruct (down_node_step _ _ index mask c id (smallest_pos dx 0 _ Hx Fx) (smallest_pos dy 1 _ Hy Fy) Hm Nx Ny) as (c' & id' & E & P). eexists. eexists. exists c', id'. split; [exact A|]. split; [exact E|exact P].
Qed.
Print Assumptions mrs_down.
(** A number of cells: the domain in that many equal cells; zero leaves the number as it is. *)
Theorem mrs_num : forall nx ny index mask c id x0 x1 y0 y1, (0 <= mask < 2 ^ 31)%Z ->
  nth 0 (k_dom c) None = Some (x0, x1) -> nth 1 (k_dom c) None = Some (y0, y1) ->
  exists c' id', ask_child (even_node nx ny index) mask (Some c) id = Ok (even_node nx ny index, Some c', id') /\
    k_dom c' = k_dom c /\ length (k_axes c') = 2 /\
    evenly (if Nat.eqb nx 0 then length (axis_at c 0) else nx) x0 x1 (axis_at c' 0) /\ evenly (if Nat.eqb ny 0 then length (axis_at c 1) else ny) y0 y1 (axis_at c' 1).
Proof.
  intros nx ny index mask c id x0 x1 y0 y1 Hm Dx Dy. set (s := even_node nx ny index). destruct (new_id_some s mask id Hm) as (id' & I & _).
  assert (Z0 : forall n i, (if (Z.of_nat n <? 1)%Z then length (axis_at c i) else Z.to_nat (Z.of_nat n)) = if Nat.eqb n 0 then length (axis_at c i) else n).
  { intros n i. rewrite Nat2Z.id. destruct (Z.ltb_spec (Z.of_nat n) 1), (Nat.eqb_spec n 0); try reflexivity; lia. }
  assert (U : forall n a b, evenly n a b (uniform a b n)) by (intros n a b; split; [apply uni_len|]; intros i; apply uni_cell).
  eexists {| k_dom := k_dom c; k_axes := [uniform x0 x1 _; uniform y0 y1 _] |}, id'. split; [|split; [reflexivity|split; [reflexivity|split; [apply U|apply U]]]].
  unfold ask_child. change (m_resample s) with true. cbv iota. unfold new_cells. change (negb (m_up s || m_down s)) with true. cbv iota.
  change (m_nx s) with (Some (Z.of_nat nx)). change (m_ny s) with (Some (Z.of_nat ny)). cbv iota zeta. rewrite Dx, Dy, !Z0. cbn [bind]. now rewrite I.
Qed.
Print Assumptions mrs_num.
(** Down again by the same factors: the cells there were at first. *)
Theorem mrs_round : forall kx ky i1 i2 mask c id s1 c1 id1 s2 c2 id2, 1 <= kx -> 1 <= ky -> (0 <= mask < 2 ^ 31)%Z -> axis_at c 0 <> [] -> axis_at c 1 <> [] ->
  ask_child (up_node kx ky i1) mask (Some c) id = Ok (s1, Some c1, id1) -> ask_child (down_node kx ky i2) mask (Some c1) id1 = Ok (s2, Some c2, id2) ->
  axis_at c2 0 = axis_at c 0 /\ axis_at c2 1 = axis_at c 1.
Proof.
  intros kx ky i1 i2 mask c id s1 c1 id1 s2 c2 id2 Hx Hy Hm Nx Ny E1 E2. destruct (mrs_up kx ky i1 mask c id Hx Hy Hm) as (c' & id' & E & _ & _ & DX & DY). rewrite E in E1. injection E1 as _ -> _.
  assert (NE : forall k i, 1 <= k -> axis_at c i <> [] -> divided k (axis_at c i) (axis_at c1 i) -> axis_at c1 i <> []).
  { intros k i Hk Hn (L & _) Z. rewrite Z in L. destruct (axis_at c i); [congruence|]. cbn [length] in L. nia. }
  destruct (down_node_step kx ky i2 mask c1 id1 Hx Hy Hm (NE kx 0 Hx Nx DX) (NE ky 1 Hy Ny DY)) as (c3 & id3 & E3 & _ & _ & GX & GY). rewrite E3 in E2. injection E2 as _ -> _.
  rewrite (grouped_fun kx _ _ Hx (NE kx 0 Hx Nx DX) GX), (grouped_fun ky _ _ Hy (NE ky 1 Hy Ny DY) GY), (divided_fun kx _ _ Hx DX), (divided_fun ky _ _ Hy DY), !up_down by assumption. now split.
Qed.
Print Assumptions mrs_round.

(** *** Examples and what is not so *)
Definition ax_ex (n : nat) : axis := uniform (Q2Qc 0) (number n) n.
Definition cells_ex (nx ny : nat) : mcells := {| k_dom := [Some (Q2Qc 0, number nx); Some (Q2Qc 0, number ny)]; k_axes := [ax_ex nx; ax_ex ny] |}.
Definition shown (a : res (mstate * option mcells * list Z)) : option (list (list (Q * Q)) * list Z) :=
  match a with Ok (_, Some c, id) => Some (map (map (fun x => (this (fst x), this (snd x)))) (k_axes c), id) | _ => None end.
Example mrs_up_ex : shown (ask_child (up_node 2 1 0) 5 (Some (cells_ex 2 1)) [1; 1; 1]%Z) =
  Some ([[(1 # 4, 1 # 2); (3 # 4, 1 # 2); (5 # 4, 1 # 2); (7 # 4, 1 # 2)]; [(1 # 2, 1 # 1)]]%Q, [2; 1; 2]%Z).
Proof. vm_compute. reflexivity. Qed.
Example mrs_down_ex : shown (ask_child (down_node 2 2 7) 1 (Some (cells_ex 5 1)) [3]%Z) =
  Some ([[(1 # 1, 2 # 1); (3 # 1, 2 # 1); (9 # 2, 1 # 1)]; [(1 # 2, 1 # 1)]]%Q, [7]%Z).
Proof. vm_compute. reflexivity. Qed.
Example mrs_num_ex : shown (ask_child (even_node 3 0 0) 0 (Some (cells_ex 6 2)) [3]%Z) = Some ([[(1 # 1, 2 # 1); (3 # 1, 2 # 1); (5 # 1, 2 # 1)]; [(1 # 2, 1 # 1); (3 # 2, 1 # 1)]]%Q, [3]%Z).
Proof. vm_compute. reflexivity. Qed.
Example mrs_seamless_ex : forall x y, contiguous (upsample 3 (uniform x y 2)) /\ runs (upsample 3 (uniform x y 2)) x y.
Proof.
  intros x y. assert (E : evenly 2 x y (uniform x y 2)) by (split; [apply uni_len|intros i; apply uni_cell]). assert (K : 1 <= 3) by lia. assert (K' : 1 <= 2) by lia.
  destruct (mrs_even 2 x y _ K' E) as (C & R). revert C R. generalize (uniform x y 2). intros ax C R.
  destruct (mrs_seamless 3 ax (upsample 3 ax) K (or_introl (up_divided 3 ax K))) as (A & B). split; [exact (A C)|exact (B x y R)].
Qed.
Example mrs_round_ex : match ask_child (up_node 3 2 0) 1 (Some (cells_ex 2 3)) [1]%Z with
  | Ok (_, c1, id1) => shown (ask_child (down_node 3 2 0) 1 c1 id1) | _ => None end = shown (Ok (created, Some (cells_ex 2 3), [3]%Z)).
Proof. vm_compute. reflexivity. Qed.
Example mrs_pass_ex : ask_child created 1 (Some (cells_ex 2 3)) [1]%Z = Ok (created, Some (cells_ex 2 3), [1]%Z) /\ ask_child (up_node 2 2 0) 1 None [1]%Z = Ok (up_node 2 2 0, None, [1]%Z).
Proof. split; reflexivity. Qed.
(** The same request does not always lead to the same cells: an earlier request with fewer cells cuts the factor down for good. *)
Theorem mrs_history_refuted : ~ (forall s mask c0 id0 c id s' r, ask_child s mask (Some c0) id0 = Ok (s', fst r, snd r) ->
  forall s1 c1 id1 s2 c2 id2, ask_child s mask (Some c) id = Ok (s1, c1, id1) -> ask_child s' mask (Some c) id = Ok (s2, c2, id2) -> c1 = c2).
Proof.
  intros H. destruct (down_node_step 4 1 0 1 (cells_ex 2 1) [1%Z] ltac:(lia) ltac:(lia) ltac:(lia) ltac:(discriminate) ltac:(discriminate)) as (c0 & i0 & E0 & _).
  destruct (down_node_step 4 1 0 1 (cells_ex 4 1) [2%Z] ltac:(lia) ltac:(lia) ltac:(lia) ltac:(discriminate) ltac:(discriminate)) as (c1 & i1 & E1 & _ & _ & G1 & _).
  destruct (down_node_step 2 1 0 1 (cells_ex 4 1) [2%Z] ltac:(lia) ltac:(lia) ltac:(lia) ltac:(discriminate) ltac:(discriminate)) as (c2 & i2 & E2 & _ & _ & G2 & _).
  pose proof (H _ _ _ _ (cells_ex 4 1) [2%Z] _ (Some c0, i0) E0 _ _ _ _ _ _ E1 E2) as X. injection X as <-. destruct G1 as ((L1 & L1') & _), G2 as ((L2 & L2') & _).
  change (length (axis_at (cells_ex 4 1) 0)) with 4 in *. lia.
Qed.
Print Assumptions mrs_history_refuted.
(** Two such nodes can ask for different cells under one request id. *)
Theorem mrs_same_id_refuted : ~ (forall s s' mask c id s1 c1 id1 s2 c2 id2, (0 < mask)%Z -> m_resample s = true -> m_resample s' = true ->
  ask_child s mask (Some c) id = Ok (s1, c1, id1) -> ask_child s' mask (Some c) id = Ok (s2, c2, id2) -> c1 <> c2 -> id1 <> id2).
Proof.
  intros H. pose proof (H (up_node 2 1 0) (up_node 3 1 0) 1%Z (cells_ex 1 1) [1%Z]) as X.
  destruct (ask_child (up_node 2 1 0) 1%Z (Some (cells_ex 1 1)) [1%Z]) as [((s1, c1), id1)| |] eqn:E1; [|discriminate E1|discriminate E1].
  destruct (ask_child (up_node 3 1 0) 1%Z (Some (cells_ex 1 1)) [1%Z]) as [((s2, c2), id2)| |] eqn:E2; [|discriminate E2|discriminate E2].
  refine (X _ _ _ _ _ _ eq_refl eq_refl eq_refl eq_refl eq_refl _ _); cbv in E1, E2; congruence.
Qed.
Print Assumptions mrs_same_id_refuted.
(** Axes past the first two are lost. *)
Theorem mrs_axes_refuted : ~ (forall kx ky index mask c id s' c' id', ask_child (up_node kx ky index) mask (Some c) id = Ok (s', Some c', id') -> axis_at c' 2 = axis_at c 2).
Proof.
  intros H. set (c := {| k_dom := [None; None; None]; k_axes := [ax_ex 1; ax_ex 1; ax_ex 1] |}). destruct (mrs_up 2 2 0 1 c [1%Z] ltac:(lia) ltac:(lia) ltac:(lia)) as (c' & id' & E & _ & L & _).
  pose proof (H _ _ _ _ _ _ _ _ _ E) as X. unfold axis_at in X at 1. rewrite nth_overflow in X by lia. discriminate X.
Qed.
Print Assumptions mrs_axes_refuted.
(** One number of cells only: the other is read without having been set. *)
Example mrs_unset_ex : ask_child (set_state (Some [3%Z]) None None None created) 1 (Some (cells_ex 2 2)) [1%Z] = UB.
Proof. reflexivity. Qed.
