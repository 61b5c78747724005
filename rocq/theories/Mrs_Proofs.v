(** Proofs about resampled axes. *)
From Coq Require Import QArith Qcanon.
From Verif Require Import Base Mrs_Model Mrs_Spec.
Close Scope Q_scope. Close Scope Qc_scope. Local Open Scope nat_scope.

Lemma two_half : (Q2Qc 2 * half = 1)%Qc.
Proof. apply Qc_is_canon. reflexivity. Qed.
Lemma two_nz : Q2Qc 2 <> 0%Qc.
Proof. intros H. apply (f_equal this) in H. discriminate. Qed.
Lemma halved x : (x / Q2Qc 2 = x * half)%Qc.
Proof. transitivity (x / Q2Qc 2 * (Q2Qc 2 * half))%Qc; [rewrite two_half; ring|]. field. exact two_nz. Qed.
Lemma half_half x : (x * half + x * half = x)%Qc.
Proof. transitivity (x * (Q2Qc 2 * half))%Qc; [|rewrite two_half; ring]. replace (Q2Qc 2) with (1 + 1)%Qc by (apply Qc_is_canon; reflexivity). ring. Qed.
Lemma cell_edges ax i a b : cell_from_to ax i a b <-> exists c, nth_error ax i = Some c /\ low c = a /\ high c = b.
Proof. unfold cell_from_to, low, high. split; intros (c & H & A & B); exists c; rewrite ?halved in *; auto. Qed.
Lemma number_S n : number (S n) = (1 + number n)%Qc.
Proof. unfold number. apply Qc_is_canon. cbn [this Q2Qc Qcplus]. rewrite !Qred_correct. rewrite Nat2Z.inj_succ, <- Z.add_1_l, inject_Z_plus. reflexivity. Qed.
Lemma number_nz n : n <> 0 -> number n <> 0%Qc.
Proof.
  intros H E. apply (f_equal this) in E. assert (X : (inject_Z (Z.of_nat n) == 0)%Q) by (rewrite <- (Qred_correct (inject_Z (Z.of_nat n))); unfold number in E; cbn [this Q2Qc] in E; rewrite E; reflexivity).
  unfold Qeq in X. cbn in X. lia.
Qed.
Lemma low_high c : high c = (low c + snd c)%Qc.
Proof. unfold high, low. transitivity (fst c + (snd c * half + snd c * half) - snd c * half)%Qc; [ring|]. rewrite half_half. ring. Qed.
Lemma cell_ext c c' : low c = low c' -> high c = high c' -> c = c'.
Proof.
  intros L H. destruct c as [x s], c' as [x' s']. assert (s = s') as <-.
  { pose proof (low_high (x, s)) as A. pose proof (low_high (x', s')) as B. cbn [snd] in A, B.
    transitivity (high (x, s) - low (x, s))%Qc; [rewrite A; ring|]. rewrite L, H, B. ring. }
  f_equal. unfold low in L. cbn [fst snd] in L. transitivity (x - s * half + s * half)%Qc; [ring|]. rewrite L. ring.
Qed.
Lemma joined_edges a b : low (joined a b) = low a /\ high (joined a b) = high b.
Proof.
  unfold joined. generalize (low a) (high b). intros x y. unfold low, high. cbn [fst snd]. split.
  - transitivity (x * half + x * half)%Qc; [ring|apply half_half].
  - transitivity (y * half + y * half)%Qc; [ring|apply half_half].
Qed.

Lemma steps_len : forall n x x1, length (steps n x x1) = n.
Proof. induction n as [|n IH]; intros x x1; [reflexivity|]. cbn. now rewrite IH. Qed.
Lemma steps_nth : forall n x x1 j, j < n -> nth_error (steps n x x1) j = Some ((x + x1 * number j)%Qc, x1).
Proof.
  induction n as [|n IH]; intros x x1 j H; [lia|]. destruct j as [|j]; cbn [steps nth_error].
  - do 2 f_equal. replace (number 0) with 0%Qc by (apply Qc_is_canon; reflexivity). ring.
  - rewrite IH by lia. do 2 f_equal. rewrite number_S. ring.
Qed.
Lemma flat_len {A B} (f : A -> list B) k : (forall a, length (f a) = k) -> forall l, length (flat_map f l) = length l * k.
Proof. intros H. induction l as [|a l IH]; [reflexivity|]. cbn [flat_map length]. rewrite app_length, H, IH. lia. Qed.
Lemma flat_nth {A B} (f : A -> list B) k : (forall a, length (f a) = k) -> forall l i j a, j < k -> nth_error l i = Some a -> nth_error (flat_map f l) (i * k + j) = nth_error (f a) j.
Proof.
  intros H. induction l as [|x l IH]; intros [|i] j a Hj E; try discriminate; cbn [flat_map].
  - injection E as <-. rewrite nth_error_app1 by (rewrite H; lia). reflexivity.
  - cbn [nth_error] in E. rewrite nth_error_app2 by (rewrite H; lia). rewrite H. replace (S i * k + j - k) with (i * k + j) by lia. now apply IH.
Qed.
Lemma up_len k ax : length (upsample k ax) = length ax * k.
Proof. unfold upsample. apply flat_len. intros a. apply steps_len. Qed.
Lemma up_nth k ax i j c : j < k -> nth_error ax i = Some c -> exists c', nth_error (upsample k ax) (i * k + j) = Some c' /\
  low c' = (low c + snd c / number k * number j)%Qc /\ snd c' = (snd c / number k)%Qc.
Proof.
  intros Hj E. unfold upsample. rewrite (flat_nth _ k (fun a => steps_len _ _ _) ax i j c Hj E). rewrite steps_nth by exact Hj. eexists. split; [reflexivity|]. cbn [snd].
  split; [|reflexivity]. unfold low at 1. cbn [fst snd]. ring.
Qed.
Lemma up_cell k ax i j a b : j < k -> cell_from_to ax i a b -> cell_from_to (upsample k ax) (i * k + j) (between a b j k) (between a b (S j) k).
Proof.
  intros Hj H. apply (proj1 (cell_edges _ _ _ _)) in H as (c & E & <- & <-). destruct (up_nth k ax i j c Hj E) as (c' & E' & L & S). apply (proj2 (cell_edges _ _ _ _)). exists c'. split; [exact E'|].
  assert (K : number k <> 0%Qc) by (apply number_nz; lia).
  pose proof (low_high c) as Hc. pose proof (low_high c') as Hc'. pose proof (number_S j) as Nj. unfold between. fold (number j) (number (Datatypes.S j)) (number k).
  generalize dependent (high c). intros hc ->. generalize dependent (high c'). intros hc' ->. rewrite L, S, Nj. split; field; exact K.
Qed.
Lemma between_0 a b k : between a b 0 k = a.
Proof. unfold between. replace (Q2Qc (inject_Z (Z.of_nat 0))) with 0%Qc by (apply Qc_is_canon; reflexivity). unfold Qcdiv. ring. Qed.
Lemma between_k a b k : k <> 0 -> between a b k k = b.
Proof. intros H. unfold between. fold (number k). field. now apply number_nz. Qed.
Lemma cell_fun ax i a b a' b' : cell_from_to ax i a b -> cell_from_to ax i a' b' -> a = a' /\ b = b'.
Proof. intros (c & E & A & B) (c' & E' & A' & B'). assert (c = c') as <- by congruence. now subst. Qed.
Lemma cell_lt ax i a b : cell_from_to ax i a b -> i < length ax.
Proof. intros (c & E & _). apply nth_error_Some. congruence. Qed.
Lemma cell_any ax i : i < length ax -> exists a b, cell_from_to ax i a b.
Proof. intros H. destruct (nth_error ax i) as [c|] eqn:E; [|apply nth_error_None in E; lia]. eexists. eexists. exists c. split; [exact E|split; reflexivity]. Qed.

(** groups of cells *)
Lemma groups_spec d ax : 1 <= d -> 1 <= length ax -> 1 <= groups d ax /\ (groups d ax - 1) * d < length ax /\ length ax <= groups d ax * d.
Proof.
  intros Hd Hn. unfold groups. set (n := length ax) in *. pose proof (Nat.div_mod (n + d - 1) d ltac:(lia)) as E. pose proof (Nat.mod_upper_bound (n + d - 1) d ltac:(lia)) as U.
  set (q := (n + d - 1) / d) in *. assert (1 <= q) by (unfold q; apply Nat.div_le_lower_bound; lia). split; [assumption|]. split; nia.
Qed.
Lemma down_len d ax : length (downsample d ax) = groups d ax.
Proof. unfold downsample. now rewrite map_length, seq_length. Qed.
Definition last_of (d : nat) (ax : axis) (i : nat) : nat := Nat.min ((i + 1) * d) (length ax) - 1.
Lemma down_cell d ax i a b a' b' : 1 <= d -> 1 <= length ax -> i < groups d ax -> cell_from_to ax (i * d) a b -> cell_from_to ax (last_of d ax i) a' b' ->
  cell_from_to (downsample d ax) i a b'.
Proof.
  intros Hd Hn Hi H H'. destruct (groups_spec d ax Hd Hn) as (G1 & G2 & G3). apply (proj1 (cell_edges _ _ _ _)) in H as (c & E & <- & <-). apply (proj1 (cell_edges _ _ _ _)) in H' as (c' & E' & <- & <-). apply (proj2 (cell_edges _ _ _ _)).
  unfold downsample. rewrite nth_error_map. rewrite (nth_error_nth' _ 0) by (rewrite seq_length; exact Hi). rewrite seq_nth by exact Hi. cbn [option_map Nat.add].
  eexists. split; [reflexivity|].
  assert (L : (if Nat.eqb (S i) (groups d ax) then length ax - 1 else (i + 1) * d - 1) = last_of d ax i).
  { unfold last_of. destruct (Nat.eqb_spec (S i) (groups d ax)) as [X|X]; [rewrite Nat.min_r by nia; reflexivity|]. rewrite Nat.min_l by nia. reflexivity. }
  rewrite L, (nth_error_nth _ _ nocell E), (nth_error_nth _ _ nocell E'). apply joined_edges.
Qed.
Lemma up_index k i : 1 <= k -> exists q j, i = q * k + j /\ j < k.
Proof. intros H. exists (i / k), (i mod k). split; [pose proof (Nat.div_mod i k); lia|apply Nat.mod_upper_bound; lia]. Qed.
Lemma up_contig k ax : 1 <= k -> contiguous ax -> contiguous (upsample k ax).
Proof.
  intros Hk C i a b a' b' H H'. pose proof (cell_lt _ _ _ _ H) as L. pose proof (cell_lt _ _ _ _ H') as L'. rewrite up_len in L, L'.
  destruct (up_index k i Hk) as (q & j & -> & Hj). assert (Lq : q < length ax) by nia.
  destruct (cell_any ax q Lq) as (x & y & X). pose proof (up_cell k ax q j x y Hj X) as Y. destruct (cell_fun _ _ _ _ _ _ H Y) as (_ & ->).
  destruct (Nat.eq_dec (S j) k) as [E|E].
  - replace (S (q * k + j)) with (S q * k + 0) in H' by lia. assert (Lq' : S q < length ax) by nia. destruct (cell_any ax (S q) Lq') as (x' & y' & X').
    pose proof (up_cell k ax (S q) 0 x' y' ltac:(lia) X') as Y'. destruct (cell_fun _ _ _ _ _ _ H' Y') as (-> & _). rewrite E, between_0, between_k by lia. exact (C q x y x' y' X X').
  - replace (S (q * k + j)) with (q * k + S j) in H' by lia. pose proof (up_cell k ax q (S j) x y ltac:(lia) X) as Y'. now destruct (cell_fun _ _ _ _ _ _ H' Y') as (-> & _).
Qed.
Lemma up_runs k ax a b : 1 <= k -> runs ax a b -> runs (upsample k ax) a b.
Proof.
  intros Hk ((x & X) & (y & Y)). pose proof (cell_lt _ _ _ _ X) as L. split.
  - pose proof (up_cell k ax 0 0 a x ltac:(lia) X) as H. rewrite between_0 in H. eexists. exact H.
  - pose proof (up_cell k ax (length ax - 1) (k - 1) y b ltac:(lia) Y) as H. replace (S (k - 1)) with k in H by lia. rewrite between_k in H by lia.
    rewrite up_len. replace (length ax * k - 1) with ((length ax - 1) * k + (k - 1)) by nia. eexists. exact H.
Qed.
Lemma down_ex d ax i : 1 <= d -> i < groups d ax -> 1 <= length ax -> i * d < length ax /\ last_of d ax i < length ax.
Proof. intros Hd Hi Hn. destruct (groups_spec d ax Hd Hn) as (G1 & G2 & G3). unfold last_of. split; [nia|]. pose proof (Nat.le_min_r ((i + 1) * d) (length ax)). lia. Qed.
Lemma groups_0 d ax : 1 <= d -> length ax = 0 -> groups d ax = 0.
Proof. intros H E. unfold groups. rewrite E. apply Nat.div_small. lia. Qed.
Lemma down_contig d ax : 1 <= d -> contiguous ax -> contiguous (downsample d ax).
Proof.
  intros Hd C i a b a' b' H H'. pose proof (cell_lt _ _ _ _ H') as L'. rewrite down_len in L'. assert (Hn : 1 <= length ax).
  { destruct (length ax) eqn:E; [|lia]. rewrite (groups_0 d ax Hd E) in L'. lia. }
  destruct (groups_spec d ax Hd Hn) as (G1 & G2 & G3).
  destruct (down_ex d ax i Hd ltac:(lia) Hn) as (A1 & A2). destruct (down_ex d ax (S i) Hd L' Hn) as (B1 & B2).
  destruct (cell_any ax _ A1) as (x & y & X). destruct (cell_any ax _ A2) as (u & v & V). destruct (cell_any ax _ B1) as (x' & y' & X'). destruct (cell_any ax _ B2) as (u' & v' & V').
  destruct (cell_fun _ _ _ _ _ _ H (down_cell d ax i _ _ _ _ Hd Hn ltac:(lia) X V)) as (_ & ->). destruct (cell_fun _ _ _ _ _ _ H' (down_cell d ax (S i) _ _ _ _ Hd Hn L' X' V')) as (-> & _).
  refine (C (last_of d ax i) u v x' y' V _). replace (S (last_of d ax i)) with (S i * d); [exact X'|]. unfold last_of. rewrite Nat.min_l by nia. nia.
Qed.
Lemma down_runs d ax a b : 1 <= d -> runs ax a b -> runs (downsample d ax) a b.
Proof.
  intros Hd ((x & X) & (y & Y)). pose proof (cell_lt _ _ _ _ X) as L. destruct (groups_spec d ax Hd ltac:(lia)) as (G1 & G2 & G3). split.
  - destruct (down_ex d ax 0 Hd ltac:(lia) ltac:(lia)) as (_ & A2). destruct (cell_any ax _ A2) as (u & v & V). eexists. exact (down_cell d ax 0 a x u v Hd ltac:(lia) ltac:(lia) X V).
  - rewrite down_len. destruct (down_ex d ax (groups d ax - 1) Hd ltac:(lia) ltac:(lia)) as (A1 & _). destruct (cell_any ax _ A1) as (u & v & V).
    eexists. eapply (down_cell d ax (groups d ax - 1) u v y b Hd); [lia|lia|exact V|]. replace (last_of d ax (groups d ax - 1)) with (length ax - 1); [exact Y|]. unfold last_of. rewrite Nat.min_r by nia. reflexivity.
Qed.
Lemma axis_ext (l l' : axis) : length l = length l' -> (forall i a b, cell_from_to l' i a b -> cell_from_to l i a b) -> l = l'.
Proof.
  intros E H. apply (nth_ext _ _ nocell nocell E). intros i Hi. destruct (nth_error l' i) as [c'|] eqn:N'; [|apply nth_error_None in N'; lia].
  assert (X : cell_from_to l' i (low c') (high c')) by (apply (proj2 (cell_edges _ _ _ _)); eauto). apply H in X; apply (proj1 (cell_edges _ _ _ _)) in X as (c & N & A & B). rewrite (nth_error_nth _ _ nocell N), (nth_error_nth _ _ nocell N'). now apply cell_ext.
Qed.
Lemma up_down k ax : 1 <= k -> downsample k (upsample k ax) = ax.
Proof.
  intros Hk. assert (G : groups k (upsample k ax) = length ax).
  { unfold groups. rewrite up_len. replace (length ax * k + k - 1) with (k - 1 + length ax * k) by lia. rewrite Nat.div_add, Nat.div_small by lia. reflexivity. }
  apply axis_ext; [now rewrite down_len, G|]. intros i a b H. pose proof (cell_lt _ _ _ _ H) as L.
  pose proof (up_cell k ax i 0 a b ltac:(lia) H) as A. pose proof (up_cell k ax i (k - 1) a b ltac:(lia) H) as B. rewrite between_0 in A. replace (S (k - 1)) with k in B by lia. rewrite between_k in B by lia.
  rewrite Nat.add_0_r in A. eapply down_cell; [exact Hk|rewrite up_len; nia|rewrite G; exact L|exact A|]. replace (last_of k (upsample k ax) i) with (i * k + (k - 1)); [exact B|]. unfold last_of. rewrite up_len, Nat.min_l by nia. nia.
Qed.
(** uniform cells *)
Lemma uni_len x0 x1 n : length (uniform x0 x1 n) = n.
Proof. unfold uniform. now rewrite map_length, seq_length. Qed.
Lemma uni_cell x0 x1 n i : i < n -> cell_from_to (uniform x0 x1 n) i (between x0 x1 i n) (between x0 x1 (S i) n).
Proof.
  intros H. apply (proj2 (cell_edges _ _ _ _)). unfold uniform. rewrite nth_error_map. rewrite (nth_error_nth' _ 0) by (rewrite seq_length; exact H). rewrite seq_nth by exact H. cbn [option_map Nat.add].
  eexists. split; [reflexivity|]. assert (K : number n <> 0%Qc) by (apply number_nz; lia). unfold between. fold (number i) (number (S i)) (number n). rewrite low_high, number_S. unfold low. cbn [fst snd]. split; field; exact K.
Qed.

(** the factor that is in force *)
Lemma change_up s i ax dv k : m_up s = true -> nth_error (m_upv s) i = Some k -> (1 < k)%Z -> change_axis s i ax dv = Ok (upsample (Z.to_nat k) ax, dv).
Proof. intros U E H. unfold change_axis, elem. rewrite U, E. cbn [bind]. apply Z.ltb_lt in H. now rewrite H. Qed.
Definition no_up (s : mstate) (i : nat) : Prop := m_up s = false \/ exists k, nth_error (m_upv s) i = Some k /\ (k <= 1)%Z.
Lemma no_up_k s i : no_up s i -> exists k, (if m_up s then elem (m_upv s) i else Ok 0%Z) = Ok k /\ (k <= 1)%Z.
Proof. intros [U|(k & E & H)]; [rewrite U; exists 0%Z; split; [reflexivity|lia]|]. unfold elem. rewrite E. destruct (m_up s); [exists k|exists 0%Z]; split; (reflexivity || lia). Qed.
Lemma change_down s i ax dv d : no_up s i -> m_down s = true -> nth_error dv i = Some d -> (1 < d)%Z -> ax <> [] ->
  change_axis s i ax dv = Ok (downsample (Z.to_nat (Z.min d (Z.of_nat (length ax)))) ax, replace dv i (Z.min d (Z.of_nat (length ax)))).
Proof.
  intros NU D E H Hn. destruct (no_up_k s i NU) as (k & K & Hk). unfold change_axis. rewrite K. cbn [bind]. destruct (Z.ltb_spec 1 k); [lia|]. rewrite D. unfold elem. rewrite E. cbn [bind].
  apply Z.ltb_lt in H as H'. rewrite H'. destruct (Z.eqb_spec (Z.min d (Z.of_nat (length ax))) 0); [|reflexivity]. destruct ax; [congruence|]. cbn [length] in *. lia.
Qed.
Lemma change_none s i ax dv : no_up s i -> (m_down s = false \/ exists d, nth_error dv i = Some d /\ (d <= 1)%Z) -> change_axis s i ax dv = Ok (ax, dv).
Proof.
  intros NU H. destruct (no_up_k s i NU) as (k & K & Hk). unfold change_axis. rewrite K. cbn [bind]. destruct (Z.ltb_spec 1 k); [lia|].
  destruct H as [H|(d & E & H)]; [now rewrite H|]. unfold elem. rewrite E. destruct (m_down s); [|reflexivity]. cbn [bind]. now destruct (Z.ltb_spec 1 d); [lia|].
Qed.
Lemma replace_same l i z : nth_error l i = Some z -> replace l i z = l.
Proof. revert i. induction l as [|x l IH]; intros [|i] E; try discriminate; cbn in *; [congruence|]. f_equal. now apply IH. Qed.
