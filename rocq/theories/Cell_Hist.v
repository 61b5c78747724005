(** Proofs about Cells: histories, copies, comparison, supersets. *)
From Verif Require Import Base Flt_Model Dom_Model Dom_Proofs Cell_Model Cell_Spec.

Lemma put_length {T} (l : list T) i x : length (put l i x) = length l.
Proof. revert i. induction l as [|y l IH]; intros [|i]; cbn; auto. Qed.
Lemma put_nth {T} (l : list T) i x j d : i < length l -> nth j (put l i x) d = if i =? j then x else nth j l d.
Proof.
  revert i j. induction l as [|y l IH]; intros [|i] [|j] H; cbn in *; try lia; auto. apply IH. lia.
Qed.
Lemma nth_repeat_at {T} (x d : T) n i : nth i (repeat x n) d = if i <? n then x else d.
Proof.
  revert i. induction n as [|n IH]; intros [|i]; cbn; auto. rewrite IH. reflexivity.
Qed.

Section Hist.
Variable A : arith.
Notation cells := (Cell_Model.cells A).
Notation cells_new := (Cell_Model.cells_new A).
Notation axis_of := (Cell_Model.axis_of A).
Notation isDef := (Cell_Model.c_isDefined A).
Notation ncells := (Cell_Model.ncells A).
Notation center := (Cell_Model.center A).
Notation cellSize := (Cell_Model.cellSize A).
Notation numSegments := (Cell_Model.numSegments A).
Notation store := (Cell_Model.store A).
Notation setAxisShape := (Cell_Model.setAxisShape A).
Notation set_axis := (Cell_Model.set_axis A).

(** Cells made by setting cells along axes (at least one cell each time) and
    refreshing the domain. *)
Inductive cbuilt : cells -> Prop :=
| cb_new : cbuilt cells_new
| cb_set c i cen size c' : cbuilt c -> cen <> [] -> setCells A c i cen size = Ok c' -> cbuilt c'
| cb_reg c i x0 x1 n sz c' : cbuilt c -> 0 < n -> setCells_regular A c i x0 x1 n sz = Ok c' -> cbuilt c'
| cb_dom c : cbuilt c -> cbuilt (recomputeDomain A c).

Definition same_len (c : cells) : Prop := length (c_shape A c) = length (c_def A c).

Lemma sas_len c i n : same_len c -> same_len (setAxisShape c i n).
Proof.
  unfold same_len, Cell_Model.setAxisShape. cbn [c_shape c_def]. rewrite !put_length. intros H.
  destruct (length (c_shape A c) <=? i) eqn:E; auto.
  rewrite !app_length, !repeat_length, firstn_length. lia.
Qed.
Lemma sas_ax c i n j : axis_of (setAxisShape c i n) j = axis_of c j.
Proof. reflexivity. Qed.
Lemma sas_def c i n j : same_len c -> isDef (setAxisShape c i n) j = if i =? j then negb (n =? 0)%Z else isDef c j.
Proof.
  unfold same_len. intros H. unfold Cell_Model.c_isDefined, Cell_Model.setAxisShape. cbn [c_def].
  destruct (Nat.leb_spec (length (c_shape A c)) i) as [E|E].
  - rewrite put_nth.
    2:{ rewrite app_length, firstn_length, repeat_length. lia. }
    destruct (Nat.eqb_spec i j) as [->|N]; auto.
    rewrite firstn_all2 by lia.
    destruct (Nat.ltb_spec j (length (c_def A c))) as [L|L].
    + now rewrite app_nth1 by lia.
    + rewrite app_nth2 by lia. rewrite nth_repeat_at.
      rewrite (nth_overflow (c_def A c)) by lia. now destruct (j - length (c_def A c) <? _).
  - rewrite put_nth by lia. reflexivity.
Qed.
Lemma sas_shape c i n j : same_len c -> i <> j -> isDef c j = true ->
  nth j (c_shape A (setAxisShape c i n)) 0%Z = nth j (c_shape A c) 0%Z.
Proof.
  unfold same_len. intros H N D. unfold Cell_Model.setAxisShape. cbn [c_shape].
  assert (Lj : j < length (c_shape A c)).
  { unfold Cell_Model.c_isDefined in D. destruct (Nat.ltb_spec j (length (c_shape A c))); auto.
    rewrite nth_overflow in D by lia. discriminate. }
  destruct (Nat.leb_spec (length (c_shape A c)) i) as [E|E].
  - rewrite put_nth by (rewrite app_length, repeat_length; lia).
    destruct (Nat.eqb_spec i j); [contradiction|]. now rewrite app_nth1 by lia.
  - rewrite put_nth by lia. destruct (Nat.eqb_spec i j); [contradiction|]. reflexivity.
Qed.
Lemma sas_shape_i c i n : nth i (c_shape A (setAxisShape c i n)) 0%Z = if (n =? 0)%Z then 1%Z else n.
Proof.
  unfold Cell_Model.setAxisShape. cbn [c_shape].
  destruct (Nat.leb_spec (length (c_shape A c)) i) as [E|E].
  - rewrite put_nth by (rewrite app_length, repeat_length; lia). now rewrite Nat.eqb_refl.
  - rewrite put_nth by lia. now rewrite Nat.eqb_refl.
Qed.
Lemma sas_ncells c i n j : same_len c -> ncells (setAxisShape c i n) j = if i =? j then n else ncells c j.
Proof.
  intros H. unfold Cell_Model.ncells. rewrite sas_def by exact H.
  destruct (Nat.eqb_spec i j) as [->|N].
  - rewrite sas_shape_i. destruct (Z.eqb_spec n 0); subst; reflexivity.
  - destruct (isDef c j) eqn:D; auto. now apply sas_shape.
Qed.

Lemma set_axis_at c i x j : i < length (c_ax A c) -> axis_of (set_axis c i x) j = if i =? j then x else axis_of c j.
Proof. intros H. unfold Cell_Model.axis_of, Cell_Model.set_axis. cbn [c_ax]. now rewrite put_nth. Qed.

(** ** invariant of built cells *)
Definition ax_inv (c : cells) (i : nat) : Prop :=
  (axis_of c i = no_axis A /\ isDef c i = false) \/
  (exists ss se, x_fld A (axis_of c i) = Some (center c i, cellSize c i, ss, se) /\
     x_ss A (axis_of c i) = whole ss /\ x_se A (axis_of c i) = whole se /\
     length ss = length se /\
     center c i <> [] /\ length (cellSize c i) = length (center c i) /\
     isDef c i = true /\ ncells c i = Z.of_nat (length (center c i))).
Definition cinv (c : cells) : Prop :=
  same_len c /\ length (c_ax A c) = MaxAxis /\ rank A c <= MaxAxis /\ forall i, ax_inv c i.

Lemma store_ax c i g h s j : length (c_ax A c) = MaxAxis -> i < MaxAxis -> g <> [] ->
  axis_of (store c i g h s) j = if i =? j
    then {| x_grid := g; x_size := h; x_ss := whole (map fst s); x_se := whole (map snd s);
            x_fld := Some (g, h, map fst s, map snd s) |}
    else axis_of c j.
Proof.
  intros L Hi Hg. unfold Cell_Model.store. cbn zeta. rewrite set_axis_at by (cbn; rewrite L; exact Hi).
  rewrite sas_ax. destruct (i =? j); auto. destruct g; [contradiction|reflexivity].
Qed.
Lemma store_pair c i g h s j : length (c_ax A c) = MaxAxis -> i < MaxAxis -> g <> [] ->
  (center (store c i g h s) j, cellSize (store c i g h s) j) = if i =? j then (g, h) else (center c j, cellSize c j).
Proof.
  intros L Hi Hg. unfold Cell_Model.center, Cell_Model.cellSize. rewrite (store_ax c i g h s j L Hi Hg).
  now destruct (i =? j).
Qed.
Lemma store_def c i g h s j : same_len c -> isDef (store c i g h s) j = if i =? j then negb (Z.of_nat (length g) =? 0)%Z else isDef c j.
Proof. intros H. exact (sas_def c i _ j H). Qed.
Lemma store_ncells c i g h s j : same_len c -> ncells (store c i g h s) j = if i =? j then Z.of_nat (length g) else ncells c j.
Proof. intros H. exact (sas_ncells c i _ j H). Qed.
Lemma store_len c i g h s : same_len c -> same_len (store c i g h s).
Proof. intros H. exact (sas_len c i _ H). Qed.
Lemma store_rank c i g h s : rank A (store c i g h s) = Nat.max (rank A c) (S i).
Proof.
  unfold Cell_Model.rank, Cell_Model.store. cbn [Cell_Model.set_axis c_shape Cell_Model.setAxisShape].
  rewrite put_length. destruct (Nat.leb_spec (length (c_shape A c)) i).
  - rewrite app_length, repeat_length. lia.
  - lia.
Qed.

Lemma store_inv c i g h s : cinv c -> i < MaxAxis -> g <> [] -> length h = length g -> cinv (store c i g h s).
Proof.
  intros (S1 & S2 & S3 & S4) Hi Hg Hh. split; [now apply store_len|].
  split; [unfold Cell_Model.store; cbn; now rewrite put_length|].
  split; [rewrite store_rank; lia|].
  intros j. unfold ax_inv, Cell_Model.center, Cell_Model.cellSize.
  rewrite (store_ax c i g h s j S2 Hi Hg), store_def, store_ncells by exact S1.
  destruct (Nat.eqb_spec i j) as [->|N]; [|apply S4].
  right. exists (map fst s), (map snd s). cbn. rewrite !map_length. repeat split; auto.
  destruct g; [contradiction|reflexivity].
Qed.

Lemma new_inv : cinv cells_new.
Proof.
  split; [reflexivity|]. split; [reflexivity|]. split; [cbn; lia|].
  intros i. left. split.
  - unfold Cell_Model.axis_of, Cell_Model.cells_new. cbn [c_ax]. rewrite nth_repeat_at. now destruct (i <? MaxAxis).
  - unfold Cell_Model.c_isDefined. cbn. now destruct i.
Qed.

Lemma cbuilt_inv c : cbuilt c -> cinv c.
Proof.
  induction 1 as [|c i cen size c' _ IH N E|c i x0 x1 n sz c' _ IH N E|c _ IH].
  - apply new_inv.
  - unfold setCells in E.
    destruct ((i <? 0)%Z || (Z.of_nat MaxAxis <=? i)%Z || negb (length cen =? length size)) eqn:C; [discriminate|].
    injection E as <-. apply orb_false_iff in C. destruct C as [C C3]. apply negb_false_iff, Nat.eqb_eq in C3.
    apply store_inv; auto. unfold MaxAxis in *. lia.
  - unfold setCells_regular in E.
    destruct ((i <? 0)%Z || (Z.of_nat MaxAxis <=? i)%Z) eqn:C; [discriminate|]. injection E as <-.
    apply store_inv; auto.
    + unfold MaxAxis in *. lia.
    + intros X. apply (f_equal (@length _)) in X. unfold regular_grid in X. rewrite map_length, seq_length in X. cbn in X. lia.
    + unfold regular_grid, regular_size. now rewrite map_length, seq_length, repeat_length.
  - destruct IH as (S1 & S2 & S3 & S4). split; [exact S1|]. split; [exact S2|]. split; [exact S3|exact S4].
Qed.

(** ** copies *)
Definition start_of (d : Dom_Model.domain A) : cells :=
  {| c_dom := Some d; c_shape := []; c_def := []; c_ax := repeat (no_axis A) MaxAxis |}.

Definition loaded (c c' : cells) (k : nat) : Prop :=
  same_len c' /\ length (c_ax A c') = MaxAxis /\ c_dom A c' = c_dom A c /\
  forall i, (k <= i -> axis_of c' i = no_axis A /\ isDef c' i = false) /\
    (i < k -> ncells c' i = ncells c i /\ isDef c' i = isDef c i /\ center c' i = center c i /\ cellSize c' i = cellSize c i /\
       x_fld A (axis_of c' i) = x_fld A (axis_of c i) /\
       numSegments c' i = length (center c i) /\
       v_data (x_ss A (axis_of c' i)) = v_data (x_ss A (axis_of c i))).

Lemma combine_seq_map {T} (l : list T) d : forall n s, n = length l ->
  combine (seq s n) l = map (fun i => (i, nth (i - s) l d)) (seq s n).
Proof.
  induction l as [|y l IH]; intros n s ->; cbn [length]; [reflexivity|].
  cbn [seq combine map]. rewrite Nat.sub_diag. cbn [nth]. f_equal.
  rewrite (IH (length l) (S s) eq_refl). apply map_ext_in. intros i Hi. apply in_seq in Hi.
  replace (i - s) with (S (i - S s)) by lia. reflexivity.
Qed.

Lemma load_inv c d k : cinv c -> c_dom A c = Some d ->
  (forall i, isDef c i = true -> Dom_Model.isDefined A d i = true) -> k <= MaxAxis ->
  exists c', fold_left (load_axis A d) (map (fun i => (i, axis_of c i)) (seq 0 k)) (Ok (start_of d)) = Ok c' /\ loaded c c' k.
Proof.
  intros (S1 & S2 & S3 & S4) D HD. induction k as [|k IH]; intros Hk.
  - exists (start_of d). split; [reflexivity|]. split; [reflexivity|]. split; [reflexivity|]. split; [symmetry; exact D|].
    intros i. split; [|lia]. intros _. split.
    + unfold Cell_Model.axis_of, start_of. cbn [c_ax]. rewrite nth_repeat_at. now destruct (i <? MaxAxis).
    + unfold Cell_Model.c_isDefined. cbn. now destruct i.
  - destruct IH as (c1 & E1 & (L1 & L2 & L3 & L4)); [lia|].
    rewrite seq_S, map_app, fold_left_app, E1. cbn [map fold_left load_axis bind fst snd plus].
    unfold load_axis. cbn [bind fst snd].
    destruct (S4 k) as [[Nk Dk]|(ss & se & F & Vs & Ve & Ls & G & H & Dk & NC)].
    + rewrite Nk. cbn [no_axis x_fld]. exists c1. split; [reflexivity|]. split; [exact L1|]. split; [exact L2|].
      split; [exact L3|]. intros i. destruct (L4 i) as [La Lb]. split; [intros; apply La; lia|].
      intros Hi. destruct (Nat.eq_dec i k) as [->|]; [|apply Lb; lia].
      destruct (La (le_n k)) as [X Y].
      unfold Cell_Model.ncells, Cell_Model.center, Cell_Model.cellSize, Cell_Model.numSegments. rewrite X, Y, Dk, Nk.
      cbn. repeat split; auto.
    + rewrite F. rewrite (HD k Dk). cbn [negb].
      rewrite H, Nat.eqb_refl, Ls, Nat.eqb_refl. cbn [negb].
      set (x := {| x_grid := center c k; x_size := cellSize c k; x_ss := {| v_size := length (center c k); v_data := ss |};
           x_se := {| v_size := length (center c k); v_data := se |}; x_fld := Some (center c k, cellSize c k, ss, se) |}).
      set (c0 := setAxisShape c1 k (Z.of_nat (length (center c k)))).
      exists (set_axis c0 k x). split; [reflexivity|].
      assert (Lk : k < length (c_ax A c0)) by (cbn; rewrite L2; lia).
      split; [exact (sas_len c1 k _ L1)|]. split; [cbn; now rewrite put_length|]. split; [exact L3|].
      intros i. destruct (L4 i) as [La Lb].
      pose proof (set_axis_at c0 k x i Lk) as Hax.
      assert (Hd : isDef (set_axis c0 k x) i = if k =? i then negb (Z.of_nat (length (center c k)) =? 0)%Z else isDef c1 i)
        by exact (sas_def c1 k _ i L1).
      assert (Hn : ncells (set_axis c0 k x) i = if k =? i then Z.of_nat (length (center c k)) else ncells c1 i)
        by exact (sas_ncells c1 k _ i L1).
      rewrite Hd, Hn. unfold Cell_Model.numSegments.
      change (center (set_axis c0 k x) i) with (x_grid A (axis_of (set_axis c0 k x) i)).
      change (cellSize (set_axis c0 k x) i) with (x_size A (axis_of (set_axis c0 k x) i)).
      rewrite Hax.
      split.
      * intros Hi. destruct (Nat.eqb_spec k i); [lia|]. apply La. lia.
      * intros Hi. destruct (Nat.eqb_spec k i) as [<-|Ne].
        -- subst x. cbn [x_grid x_size x_fld x_ss v_size v_data]. rewrite Vs. cbn [whole v_data].
           split; [now rewrite NC|]. split; [|repeat split; auto].
           rewrite Dk. destruct (center c k); [contradiction|]. reflexivity.
        -- apply Lb. lia.
Qed.

Lemma dom_step_at c : forall n s d i, s + n <= length d ->
  Dom_Model.isDefined A (fold_left (dom_step A c) (seq s n) d) i =
  if (s <=? i) && (i <? s + n) && negb (ncells c i =? 0)%Z then true else Dom_Model.isDefined A d i.
Proof.
  induction n as [|n IH]; intros s d i H; cbn [seq fold_left].
  - replace ((s <=? i) && (i <? s + 0)) with false by lia. reflexivity.
  - rewrite IH.
    2:{ unfold dom_step. destruct (ncells c s =? 0)%Z; [lia|]. rewrite define_mk, set_ax_length. lia. }
    unfold dom_step. destruct (ncells c s =? 0)%Z eqn:Z0.
    + destruct (Nat.eqb_spec s i) as [<-|Ne].
      * rewrite Z0, !andb_false_r. reflexivity.
      * replace ((S s <=? i) && (i <? S s + n)) with ((s <=? i) && (i <? s + S n)) by lia. reflexivity.
    + rewrite define_mk. unfold Dom_Model.isDefined. rewrite ax_set by lia.
      destruct (Nat.eqb_spec s i) as [<-|Ne].
      * rewrite Z0. replace ((s <=? s) && (s <? s + S n)) with true by lia.
        cbn [andb negb]. destruct ((S s <=? s) && (s <? S s + n) && true); auto.
        unfold mk. now destruct (norm_range A _ _).
      * replace ((S s <=? i) && (i <? S s + n)) with ((s <=? i) && (i <? s + S n)) by lia. reflexivity.
Qed.

Lemma clone_built c : cbuilt c ->
  exists c', clone_cells A (recomputeDomain A c) = Ok c' /\ loaded (recomputeDomain A c) c' MaxAxis.
Proof.
  intros B. pose proof (cbuilt_inv _ (cb_dom _ B)) as I. pose proof I as (I1 & I2 & I3 & I4).
  set (c1 := recomputeDomain A c) in *.
  set (d := fold_left (dom_step A c) (seq 0 MaxAxis) (dom_new A)).
  assert (Hd : c_dom A c1 = Some d) by reflexivity.
  destruct (load_inv c1 d MaxAxis I Hd) as (c' & E & L).
  - intros i Di. unfold d. rewrite dom_step_at by exact (Nat.le_refl 8).
    destruct (I4 i) as [[_ X]|(ss & se & _ & _ & _ & _ & G & _ & _ & NC)]; [congruence|].
    assert (Hi : i < MaxAxis).
    { destruct (Nat.ltb_spec i MaxAxis); auto. exfalso. apply G. unfold Cell_Model.center, Cell_Model.axis_of.
      rewrite nth_overflow by lia. reflexivity. }
    assert (NZ : (ncells c i =? 0)%Z = false).
    { change (ncells c i) with (ncells c1 i). rewrite NC. destruct (center c1 i); [contradiction|]. reflexivity. }
    rewrite NZ. replace ((0 <=? i) && (i <? 0 + MaxAxis)) with true by lia. reflexivity.
  - lia.
  - exists c'. split; [|exact L]. unfold clone_cells. rewrite Hd.
    rewrite (combine_seq_map (c_ax A c1) (no_axis A) MaxAxis 0 (eq_sym I2)).
    rewrite <- E. reflexivity.
Qed.

(** ** superset *)
Lemma sup_scan_some a b da db is : forall t u t' u', sup_scan A a b da db is t u = Some (t', u') ->
  (forall i, In i is -> ncells a i <> 0%Z -> ncells b i <> 0%Z ->
      ncells a i = ncells b i /\ neqb A (start A da i) (start A db i) = true /\ neqb A (stop A da i) (stop A db i) = true) /\
  (t' = true -> t = true /\ forall i, In i is -> ncells b i <> 0%Z -> ncells a i <> 0%Z) /\
  (u' = true -> u = true /\ forall i, In i is -> ncells a i <> 0%Z -> ncells b i <> 0%Z).
Proof.
  induction is as [|i is IH]; intros t u t' u' E; cbn [sup_scan] in E.
  - injection E as <- <-. split; [intros ? []|]. split; intros T; split; auto; intros ? [].  
  - destruct (Z.eqb_spec (ncells a i) 0) as [Za|Za], (Z.eqb_spec (ncells b i) 0) as [Zb|Zb]; cbn [negb] in E.
    + destruct (IH _ _ _ _ E) as (H1 & H2 & H3). split; [|split].
      * intros j [<-|Hj] X Y; [contradiction|auto].
      * intros T. destruct (H2 T) as [T1 T2]. split; auto. intros j [<-|Hj] X; [contradiction|auto].
      * intros T. destruct (H3 T) as [T1 T2]. split; auto. intros j [<-|Hj] X; [contradiction|auto].
    + destruct (IH _ _ _ _ E) as (H1 & H2 & H3). split; [|split].
      * intros j [<-|Hj] X Y; [contradiction|auto].
      * intros T. destruct (H2 T) as [T1 T2]. discriminate.
      * intros T. destruct (H3 T) as [T1 T2]. split; auto. intros j [<-|Hj] X; [contradiction|auto].
    + destruct (IH _ _ _ _ E) as (H1 & H2 & H3). split; [|split].
      * intros j [<-|Hj] X Y; [contradiction|auto].
      * intros T. destruct (H2 T) as [T1 T2]. split; auto. intros j [<-|Hj] X; [contradiction|auto].
      * intros T. destruct (H3 T) as [T1 T2]. discriminate.
    + destruct (negb (ncells a i =? ncells b i)%Z || negb (neqb A (start A da i) (start A db i)) ||
                negb (neqb A (stop A da i) (stop A db i))) eqn:C; [discriminate|].
      apply orb_false_iff in C. destruct C as [C C3]. apply orb_false_iff in C. destruct C as [C1 C2].
      apply negb_false_iff in C1, C2, C3. apply Z.eqb_eq in C1.
      destruct (IH _ _ _ _ E) as (H1 & H2 & H3). split; [|split].
      * intros j [<-|Hj] X Y; auto.
      * intros T. destruct (H2 T) as [T1 T2]. split; auto. intros j [<-|Hj] X; auto.
      * intros T. destruct (H3 T) as [T1 T2]. split; auto. intros j [<-|Hj] X; auto.
Qed.
Lemma sup_scan_none a b da db is : forall t u, sup_scan A a b da db is t u = None ->
  exists i, In i is /\ ncells a i <> 0%Z /\ ncells b i <> 0%Z /\
    (ncells a i <> ncells b i \/ neqb A (start A da i) (start A db i) = false \/ neqb A (stop A da i) (stop A db i) = false).
Proof.
  induction is as [|i is IH]; intros t u E; cbn [sup_scan] in E; [discriminate|].
  destruct (Z.eqb_spec (ncells a i) 0) as [Za|Za], (Z.eqb_spec (ncells b i) 0) as [Zb|Zb]; cbn [negb] in E;
    try (destruct (IH _ _ E) as (j & Hj & R); exists j; split; [now right|exact R]).
  destruct (negb (ncells a i =? ncells b i)%Z || negb (neqb A (start A da i) (start A db i)) ||
            negb (neqb A (stop A da i) (stop A db i))) eqn:C.
  - exists i. split; [now left|]. split; auto. split; auto.
    apply orb_true_iff in C. destruct C as [C|C]; [apply orb_true_iff in C; destruct C as [C|C]|].
    + left. apply negb_true_iff, Z.eqb_neq in C. exact C.
    + right. left. now apply negb_true_iff in C.
    + right. right. now apply negb_true_iff in C.
  - destruct (IH _ _ E) as (j & Hj & R). exists j. split; [now right|exact R].
Qed.

Definition pick (a b : cells) (i : nat) : list (num A) * list (num A) :=
  if isDef a i then (center a i, cellSize a i) else if isDef b i then (center b i, cellSize b i) else ([], []).

Lemma def_nonempty c i : cinv c -> isDef c i = true -> center c i <> [] /\ length (cellSize c i) = length (center c i) /\
  ncells c i = Z.of_nat (length (center c i)) /\ i < MaxAxis.
Proof.
  intros (S1 & S2 & S3 & S4) D. destruct (S4 i) as [[_ X]|(ss & se & _ & _ & _ & _ & G & H & _ & NC)]; [congruence|].
  split; [exact G|]. split; [exact H|]. split; [exact NC|].
  destruct (Nat.ltb_spec i MaxAxis); auto. exfalso. apply G. unfold Cell_Model.center, Cell_Model.axis_of.
  rewrite nth_overflow by lia. reflexivity.
Qed.
Lemma undef_empty c i : cinv c -> isDef c i = false -> center c i = [] /\ cellSize c i = [] /\ ncells c i = 0%Z.
Proof.
  intros (S1 & S2 & S3 & S4) D. destruct (S4 i) as [[X _]|(ss & se & _ & _ & _ & _ & _ & _ & Y & _)]; [|congruence].
  unfold Cell_Model.center, Cell_Model.cellSize, Cell_Model.ncells. rewrite X, D. auto.
Qed.

Lemma sup_fold a b : cinv a -> cinv b -> forall n s c, cinv c -> s + n <= MaxAxis ->
  (forall i, s <= i -> isDef c i = false) ->
  cinv (fold_left (sup_step A a b) (seq s n) c) /\
  forall i, (center (fold_left (sup_step A a b) (seq s n) c) i, cellSize (fold_left (sup_step A a b) (seq s n) c) i) =
    if (s <=? i) && (i <? s + n) then pick a b i else (center c i, cellSize c i).
Proof.
  intros Ia Ib. induction n as [|n IH]; intros s c Ic Hs Hu; cbn [seq fold_left].
  - split; [exact Ic|]. intros i. replace ((s <=? i) && (i <? s + 0)) with false by lia. reflexivity.
  - assert (X : cinv (sup_step A a b c s) /\ (forall i, S s <= i -> isDef (sup_step A a b c s) i = false) /\
       forall i, (center (sup_step A a b c s) i, cellSize (sup_step A a b c s) i) =
                 if s =? i then pick a b i else (center c i, cellSize c i)).
    { pose proof Ic as (C1 & C2 & C3 & C4). unfold sup_step, pick.
      destruct (isDef a s) eqn:Da; [|destruct (isDef b s) eqn:Db].
      - destruct (def_nonempty a s Ia Da) as (N & L & _ & _). split; [apply store_inv; auto; lia|]. split.
        + intros i Hi. rewrite store_def by exact C1. destruct (Nat.eqb_spec s i); [lia|]. apply Hu. lia.
        + intros i. rewrite store_pair by (auto; lia). destruct (Nat.eqb_spec s i) as [<-|]; [rewrite Da|]; reflexivity.
      - destruct (def_nonempty b s Ib Db) as (N & L & _ & _). split; [apply store_inv; auto; lia|]. split.
        + intros i Hi. rewrite store_def by exact C1. destruct (Nat.eqb_spec s i); [lia|]. apply Hu. lia.
        + intros i. rewrite store_pair by (auto; lia). destruct (Nat.eqb_spec s i) as [<-|]; [rewrite Da, Db|]; reflexivity.
      - split; [exact Ic|]. split; [intros i Hi; apply Hu; lia|]. intros i.
        destruct (Nat.eqb_spec s i) as [<-|]; auto. rewrite Da, Db.
        destruct (undef_empty c s Ic (Hu s (le_n s))) as (-> & -> & _). reflexivity. }
    destruct X as (X1 & X2 & X3). destruct (IH (S s) _ X1 ltac:(lia) X2) as [Y1 Y2]. split; [exact Y1|].
    intros i. rewrite Y2, X3. destruct (Nat.eqb_spec s i) as [<-|Ne].
    + replace ((S s <=? s) && (s <? S s + n)) with false by lia.
      replace ((s <=? s) && (s <? s + S n)) with true by lia. reflexivity.
    + replace ((S s <=? i) && (i <? S s + n)) with ((s <=? i) && (i <? s + S n)) by lia. reflexivity.
Qed.

Lemma ncells_rank c i : same_len c -> ncells c i <> 0%Z -> i < rank A c.
Proof.
  unfold Cell_Model.ncells, Cell_Model.rank, same_len, Cell_Model.c_isDefined. intros S1 H.
  destruct (Nat.ltb_spec i (length (c_shape A c))); auto. exfalso. apply H.
  rewrite (nth_overflow (c_def A c)) by lia. reflexivity.
Qed.

Lemma superset_spec a b : cinv a -> cinv b ->
  match superset A a b with
  | r_a _ => c_dom A b = None \/ forall i, ncells b i <> 0%Z -> ncells a i = ncells b i
  | r_b _ => c_dom A a = None \/ forall i, ncells a i <> 0%Z -> ncells b i = ncells a i
  | r_new _ c => (forall i, (center c i, cellSize c i) = pick a b i) /\
                 (forall i, ncells a i <> 0%Z -> ncells b i <> 0%Z -> ncells a i = ncells b i)
  | r_none _ => exists da db i, c_dom A a = Some da /\ c_dom A b = Some db /\ ncells a i <> 0%Z /\ ncells b i <> 0%Z /\
      (ncells a i <> ncells b i \/ neqb A (start A da i) (start A db i) = false \/ neqb A (stop A da i) (stop A db i) = false)
  end.
Proof.
  intros Ia Ib. pose proof Ia as (A1 & A2 & A3 & A4). pose proof Ib as (B1 & B2 & B3 & B4).
  unfold superset. destruct (c_dom A a) as [da|]; [|now left]. destruct (c_dom A b) as [db|]; [|now left].
  destruct (sup_scan A a b da db (seq 0 (Nat.min (rank A a) (rank A b))) true true) as [[t u]|] eqn:E.
  - destruct (sup_scan_some a b da db _ _ _ _ _ E) as (H1 & H2 & H3).
    assert (HB : forall i, ncells a i <> 0%Z -> ncells b i <> 0%Z -> ncells a i = ncells b i).
    { intros i Na Nb. apply H1; auto. apply in_seq.
      pose proof (ncells_rank a i A1 Na). pose proof (ncells_rank b i B1 Nb). lia. }
    destruct (t && (rank A b <=? rank A a)) eqn:T.
    + right. intros i Nb. apply andb_true_iff in T. destruct T as [T1 T2]. apply Nat.leb_le in T2.
      apply HB; auto. apply (H2 T1); auto. apply in_seq. pose proof (ncells_rank b i B1 Nb). lia.
    + destruct (u && (rank A a <=? rank A b)) eqn:U.
      * right. intros i Na. apply andb_true_iff in U. destruct U as [T1 T2]. apply Nat.leb_le in T2.
        symmetry. apply HB; auto. apply (H3 T1); auto. apply in_seq. pose proof (ncells_rank a i A1 Na). lia.
      * split; [|exact HB].
        destruct (sup_fold a b Ia Ib (Nat.max (rank A a) (rank A b)) 0 cells_new new_inv) as [_ F].
        { lia. } { intros i _. unfold Cell_Model.c_isDefined. cbn. now destruct i. }
        intros i. specialize (F i).
        change (center (recomputeDomain A ?x) i) with (center x i).
        unfold Cell_Model.center, Cell_Model.cellSize, Cell_Model.axis_of in F |- *. cbn [recomputeDomain c_ax].
        rewrite F. destruct ((0 <=? i) && (i <? 0 + Nat.max (rank A a) (rank A b))) eqn:R; auto.
        unfold pick.
        assert (Xa : isDef a i = false).
        { unfold Cell_Model.c_isDefined. apply nth_overflow. unfold Cell_Model.rank, same_len in *. lia. }
        assert (Xb : isDef b i = false).
        { unfold Cell_Model.c_isDefined. apply nth_overflow. unfold Cell_Model.rank, same_len in *. lia. }
        rewrite Xa, Xb. cbn [c_ax Cell_Model.cells_new]. rewrite nth_repeat_at. now destruct (i <? MaxAxis).
  - destruct (sup_scan_none a b da db _ _ _ E) as (i & Hi & R). exists da, db, i. auto.
Qed.
End Hist.
