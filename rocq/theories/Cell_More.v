(** More about Cells: stored segments, no-op resampling, equality; an example for supersets. *)
From Coq Require Import QArith Qcanon SpecFloat.
From Verif Require Import Base Flt_Model Dom_Model Dom_Spec Dom_Proofs Dom_Thms Cell_Model Cell_Spec Cell_Proofs Cell_Qc Cell_Hist Cell_Thms.
Local Close Scope Qc_scope. Local Close Scope Q_scope.

(** ** C56: the segment that is stored *)
Theorem regular_segments_stored : forall (c c' : cells qc) (i : Z) (x0 x1 : Qc) (n : nat), length (c_ax qc c) = MaxAxis -> 0 < n ->
  setCells_regular qc c i x0 x1 n None = Ok c' ->
  exists c'', setCells qc c i (center qc c' (Z.to_nat i)) (cellSize qc c' (Z.to_nat i)) = Ok c'' /\
    axis_of qc c'' (Z.to_nat i) = axis_of qc c' (Z.to_nat i) /\ numSegments qc c' (Z.to_nat i) = 1.
Proof.
  intros c c' i x0 x1 n L N E. unfold setCells_regular in E. destruct ((i <? 0)%Z || (Z.of_nat MaxAxis <=? i)%Z) eqn:C; [discriminate|]. injection E as <-.
  assert (Hi : Z.to_nat i < MaxAxis) by (unfold MaxAxis in *; lia).
  assert (Ng : regular_grid qc x0 x1 n <> []).
  { intros X. apply (f_equal (@length _)) in X. unfold regular_grid in X. rewrite map_length, seq_length in X. cbn [length] in X. lia. }
  assert (P : forall s, axis_of qc (store qc c (Z.to_nat i) (regular_grid qc x0 x1 n) (regular_size qc x0 x1 n None) s) (Z.to_nat i) =
     {| x_grid := regular_grid qc x0 x1 n; x_size := regular_size qc x0 x1 n None; x_ss := whole (map fst s); x_se := whole (map snd s);
        x_fld := Some (regular_grid qc x0 x1 n, regular_size qc x0 x1 n None, map fst s, map snd s) |}).
  { intro s. rewrite (store_ax qc c (Z.to_nat i) _ _ s (Z.to_nat i) L Hi Ng), Nat.eqb_refl. reflexivity. }
  unfold center, cellSize. rewrite P. cbn [x_grid x_size]. unfold setCells. rewrite C. cbn [orb].
  assert (Q : (length (regular_grid qc x0 x1 n) =? length (regular_size qc x0 x1 n None)) = true).
  { apply Nat.eqb_eq. unfold regular_grid, regular_size. now rewrite map_length, seq_length, repeat_length. }
  rewrite Q. cbn [negb]. eexists. split; [reflexivity|]. unfold numSegments. rewrite !P, (regular_one_segment x0 x1 n N). split; reflexivity.
Qed.
Print Assumptions regular_segments_stored.

(** ** C55: resampling without operations *)
Lemma nth_over_seq (f : nat -> Z) n i d : i < n -> nth i (map f (seq 0 n)) d = f i.
Proof. intro H. rewrite (nth_indep _ d (f 0)) by (rewrite map_length, seq_length; exact H). rewrite map_nth, seq_nth by exact H. reflexivity. Qed.
Section Noop.
Variable A : arith.
Notation isDef := (Cell_Model.c_isDefined A).
Lemma sas_rank (c : cells A) i n : rank A (setAxisShape A c i n) = Nat.max (rank A c) (S i).
Proof.
  unfold rank, setAxisShape. cbn [c_shape]. rewrite put_length. destruct (Nat.leb_spec (length (c_shape A c)) i); [rewrite app_length, repeat_length|]; lia.
Qed.
(** undefined axes have extent 1 *)
Definition ones (c : cells A) : Prop := forall j, j < rank A c -> isDef c j = false -> nth j (c_shape A c) 0%Z = 1%Z.
Lemma sas_nth (c : cells A) i n j : j < rank A (setAxisShape A c i n) ->
  nth j (c_shape A (setAxisShape A c i n)) 0%Z = if i =? j then (if (n =? 0)%Z then 1%Z else n) else if j <? rank A c then nth j (c_shape A c) 0%Z else 1%Z.
Proof.
  intro H. rewrite sas_rank in H. destruct (Nat.eqb_spec i j) as [<-|Nj]; [apply sas_shape_i|].
  unfold setAxisShape, rank in *. cbn [c_shape].
  destruct (Nat.leb_spec (length (c_shape A c)) i) as [E|E].
  - rewrite put_nth by (rewrite app_length, repeat_length; lia). destruct (Nat.eqb_spec i j); [contradiction|].
    destruct (Nat.ltb_spec j (length (c_shape A c))); [now rewrite app_nth1 by lia|]. rewrite app_nth2 by lia. rewrite nth_repeat_at.
    destruct (Nat.ltb_spec (j - length (c_shape A c)) (S i - length (c_shape A c))); [reflexivity|lia].
  - rewrite put_nth by lia. destruct (Nat.eqb_spec i j); [contradiction|]. destruct (Nat.ltb_spec j (length (c_shape A c))); [reflexivity|lia].
Qed.
Lemma sas_ones (c : cells A) i n : same_len A c -> ones c -> ones (setAxisShape A c i n).
Proof.
  intros S1 O j Hj D. rewrite sas_nth by exact Hj. rewrite sas_def in D by exact S1. destruct (Nat.eqb_spec i j) as [_|_].
  - apply negb_false_iff in D. now rewrite D.
  - destruct (Nat.ltb_spec j (rank A c)); [now apply O|reflexivity].
Qed.
Lemma cbuilt_ones c : cbuilt A c -> ones c.
Proof.
  induction 1 as [|c i cen size c' B IH N E|c i x0 x1 n sz c' B IH N E|c B IH].
  - intros j H. cbn in H. lia.
  - unfold setCells in E. destruct (_ || _ || _); [discriminate|]. injection E as <-. pose proof (cbuilt_inv A c B) as (S1 & _).
    intros j Hj Dj. apply (sas_ones c (Z.to_nat i) (Z.of_nat (length cen)) S1 IH j Hj Dj).
  - unfold setCells_regular in E. destruct (_ || _); [discriminate|]. injection E as <-. pose proof (cbuilt_inv A c B) as (S1 & _).
    intros j Hj Dj. exact (sas_ones c (Z.to_nat i) _ S1 IH j Hj Dj).
  - exact IH.
Qed.
Definition begun (c : cells A) (d : domain A) : cells A :=
  {| c_dom := Some d; c_shape := repeat 0%Z (rank A c); c_def := c_def A c; c_ax := repeat (no_axis A) MaxAxis |}.
Definition done (c c' : cells A) (k : nat) : Prop :=
  same_len A c' /\ length (c_ax A c') = MaxAxis /\ c_dom A c' = c_dom A c /\ rank A c' = Nat.max (rank A c) k /\
  (forall i, axis_of A c' i = if i <? k then axis_of A c i else no_axis A) /\ (forall i, isDef c' i = isDef c i) /\
  forall i, i < k -> nth i (c_shape A c') 0%Z = if isDef c i then ncells A c i else 1%Z.
Lemma noop_inv c d : cinv A c -> c_dom A c = Some d -> forall k, k <= MaxAxis ->
  exists c', fold_left (resample_axis A c) (map (fun i => (i, op_none)) (seq 0 k)) (Ok (begun c d)) = Ok c' /\ done c c' k.
Proof.
  intros (S1 & S2 & S3 & S4) D. induction k as [|k IH]; intros Hk.
  - exists (begun c d). split; [reflexivity|]. split; [|split; [|split; [|split; [|split; [|split]]]]].
    + unfold same_len in *. cbn. now rewrite repeat_length.
    + reflexivity.
    + now symmetry.
    + unfold rank, begun. cbn. rewrite repeat_length. unfold rank. lia.
    + intro i. unfold axis_of, begun. cbn [c_ax]. rewrite nth_repeat_at. now destruct (i <? MaxAxis).
    + reflexivity.
    + intros i Hi. lia.
  - destruct IH as (c1 & E1 & (D1 & D2 & D3 & D4 & D5 & D6 & D7)); [lia|].
    rewrite seq_S, map_app, fold_left_app, E1. cbn [map fold_left resample_axis bind fst snd plus]. unfold resample_axis. cbn [bind fst snd].
    destruct (S4 k) as [[Nk Dk]|(ss & se & F & Vs & Ve & Ls & G & H & Dk & NC)].
    + assert (N0 : ncells A c k = 0%Z) by (unfold ncells; now rewrite Dk). rewrite N0. cbn [Z.eqb].
      exists (setAxisShape A c1 k 0). split; [reflexivity|]. split; [now apply sas_len|]. split; [exact D2|]. split; [exact D3|]. split; [rewrite sas_rank; lia|]. split; [|split].
      * intro i. rewrite sas_ax, D5. destruct (Nat.ltb_spec i k), (Nat.ltb_spec i (S k)); try lia; auto. replace i with k by lia. now symmetry.
      * intro i. rewrite sas_def by exact D1. destruct (Nat.eqb_spec k i) as [<-|]; [now rewrite Dk|apply D6].
      * intros i Hi. rewrite sas_nth by (rewrite sas_rank; lia). destruct (Nat.eqb_spec k i) as [<-|]; [rewrite Dk; reflexivity|].
        replace (i <? rank A c1) with true by (symmetry; apply Nat.ltb_lt; lia). apply D7. lia.
    + assert (Zn : (ncells A c k =? 0)%Z = false) by (rewrite NC; destruct (center A c k); [contradiction|reflexivity]). rewrite Zn. cbn [map_set bind].
      rewrite Vs, Ve. cbn [whole v_size v_data]. rewrite Nat.leb_refl. cbn [negb].
      set (x := {| x_grid := center A c k; x_size := cellSize A c k; x_ss := whole ss; x_se := whole se; x_fld := Some (center A c k, cellSize A c k, ss, se) |}).
      assert (Ex : x = axis_of A c k).
      { unfold x. rewrite <- Vs, <- Ve, <- F. unfold center, cellSize. destruct (axis_of A c k); reflexivity. }
      set (c0 := setAxisShape A c1 k (Z.of_nat (length (center A c k)))). exists (set_axis A c0 k x). split; [reflexivity|].
      split; [exact (sas_len A c1 k _ D1)|]. split; [cbn; now rewrite put_length|]. split; [exact D3|]. split; [change (rank A (set_axis A c0 k x)) with (rank A c0); unfold c0; rewrite sas_rank; lia|]. split; [|split].
      * intro i. rewrite set_axis_at by (cbn; rewrite D2; lia). rewrite Ex. destruct (Nat.eqb_spec k i) as [<-|Ne].
        -- destruct (Nat.ltb_spec k (S k)); [reflexivity|lia].
        -- unfold c0. rewrite sas_ax, D5. destruct (Nat.ltb_spec i k), (Nat.ltb_spec i (S k)); try lia; reflexivity.
      * intro i. pose proof (sas_def A c1 k (Z.of_nat (length (center A c k))) i D1) as Y. fold c0 in Y. change (isDef (set_axis A c0 k x) i) with (isDef c0 i). rewrite Y. clear Y.
        destruct (Nat.eqb_spec k i) as [Ek|]; [rewrite <- Ek, Dk; destruct (center A c k); [contradiction|reflexivity]|apply D6].
      * intros i Hi. change (c_shape A (set_axis A c0 k x)) with (c_shape A c0). unfold c0. rewrite sas_nth by (rewrite sas_rank; lia). destruct (Nat.eqb_spec k i) as [<-|].
        -- rewrite Dk, NC. destruct (center A c k); [contradiction|reflexivity].
        -- replace (i <? rank A c1) with true by (symmetry; apply Nat.ltb_lt; lia). apply D7. lia.
Qed.
End Noop.
(** Everything but the shape is kept; the shape gets rank 8, with extent 1 along undefined axes.
    Missing from the full property: the comparison of cells of lower rank (refuted above). *)
Theorem resample_noop_partial : forall (A : arith) (c : cells A), cbuilt A c -> c_dom A c <> None ->
  exists c', resample A c (repeat op_none MaxAxis) = Ok c' /\ c_dom A c' = c_dom A c /\
    (forall i, axis_of A c' i = axis_of A c i /\ c_isDefined A c' i = c_isDefined A c i /\ ncells A c' i = ncells A c i) /\
    c_shape A c' = map (fun i => if c_isDefined A c i then ncells A c i else 1%Z) (seq 0 MaxAxis) /\
    (rank A c = MaxAxis -> c_shape A c' = c_shape A c).
Proof.
  intros A c B Nd. pose proof (cbuilt_inv A c B) as I. pose proof I as (S1 & S2 & S3 & S4). destruct (c_dom A c) as [d|] eqn:D; [|contradiction].
  destruct (noop_inv A c d I D MaxAxis (le_n _)) as (c' & E & (D1 & D2 & D3 & D4 & D5 & D6 & D7)). exists c'.
  assert (Sh : c_shape A c' = map (fun i => if c_isDefined A c i then ncells A c i else 1%Z) (seq 0 MaxAxis)).
  { apply nth_ext with (d := 0%Z) (d' := 0%Z); [rewrite map_length, seq_length; unfold rank in *; lia|]. intros i Hi.
    assert (i < MaxAxis) by (unfold rank in *; lia). rewrite D7 by assumption.
    rewrite nth_over_seq by assumption. reflexivity. }
  split; [|split; [|split; [|split]]].
  - unfold resample. rewrite D. rewrite <- E. reflexivity.
  - now rewrite D3.
  - intro i. assert (Ea : axis_of A c' i = axis_of A c i).
    { rewrite D5. destruct (Nat.ltb_spec i MaxAxis); [reflexivity|]. unfold axis_of. rewrite nth_overflow by lia. reflexivity. }
    split; [exact Ea|]. split; [apply D6|]. unfold ncells. rewrite D6. destruct (c_isDefined A c i) eqn:Di; [|reflexivity].
    destruct (def_nonempty A c i I Di) as (_ & _ & NC & Hi). rewrite D7 by exact Hi. rewrite Di. unfold ncells. now rewrite Di.
  - exact Sh.
  - intro R. rewrite Sh. apply nth_ext with (d := 0%Z) (d' := 0%Z); [rewrite map_length, seq_length; now symmetry|]. intros i Hi. rewrite map_length, seq_length in Hi.
    rewrite nth_over_seq by exact Hi.
    destruct (c_isDefined A c i) eqn:Di; [unfold ncells; now rewrite Di|]. symmetry. apply (cbuilt_ones A c B); [lia|exact Di].
Qed.
Print Assumptions resample_noop_partial.
Example ex_noop : exists c c' : cells b64, cbuilt b64 c /\ c_dom b64 c <> None /\ resample b64 c (repeat op_none MaxAxis) = Ok c' /\ c_shape b64 c' = [4; 2; 1; 1; 1; 1; 1; 1]%Z.
Proof.
  destruct (setCells_regular b64 (cells_new b64) 0 (fi 0) (fi 4) 4 None) as [ca| |] eqn:Ea; [|discriminate|discriminate].
  destruct (setCells_regular b64 ca 1 (fi 0) (fi 2) 2 None) as [cb| |] eqn:Eb; [|unfold setCells_regular in Eb; discriminate|unfold setCells_regular in Eb; discriminate].
  assert (B : cbuilt b64 (recomputeDomain b64 cb)) by (apply cb_dom; eapply cb_reg; [eapply cb_reg; [apply cb_new| |exact Ea]; lia| |exact Eb]; lia).
  destruct (resample_noop_partial b64 _ B ltac:(discriminate)) as (c' & E & _ & _ & S & _). exists (recomputeDomain b64 cb), c'. split; [exact B|]. split; [discriminate|]. split; [exact E|]. rewrite S.
  unfold setCells_regular in Ea, Eb. cbn [orb Z.ltb Z.compare] in Ea, Eb. injection Ea as <-. injection Eb as <-. reflexivity.
Qed.

(** ** C27: equality *)
(** [==] is true exactly if the domains are equal, the shapes are, and all centers and sizes are;
    where two axes have different numbers of cells it is not defined (the code compares the arrays all
    the same). *)
Theorem cells_equal_iff : forall (A : arith) (a b : cells A),
  let same (u v : list (num A)) := length u = length v /\ forall k x y, nth_error u k = Some x -> nth_error v k = Some y -> neqb A x y = true in
  cells_eqb A a b = Ok true <->
  compare A a b = 0%Z /\ forall i, i < MaxAxis -> same (center A a i) (center A b i) /\ same (cellSize A a i) (cellSize A b i).
Proof.
  intros A a b same.
  assert (V : forall u v : list (num A), vec_eqb A u v = Ok true <-> same u v).
  { intros u v. unfold vec_eqb, same. destruct (Nat.eqb_spec (length u) (length v)) as [E|N]; [|split; [discriminate|tauto]].
    assert (W : forallb (fun p => neqb A (fst p) (snd p)) (combine u v) = true <-> forall k x y, nth_error u k = Some x -> nth_error v k = Some y -> neqb A x y = true).
    { clear - E. revert v E. induction u as [|x u IH]; intros [|y v] E; try discriminate; [split; [intros _ [|k]; discriminate|reflexivity]|].
      cbn [combine forallb fst snd]. rewrite andb_true_iff, (IH v) by (injection E; auto). split.
      - intros [H1 H2] [|k] p q Hp Hq; cbn in Hp, Hq; [congruence|exact (H2 k p q Hp Hq)].
      - intro H. split; [exact (H 0 x y eq_refl eq_refl)|]. intros k p q Hp Hq. exact (H (S k) p q Hp Hq). }
    split; [intro X; injection X as X; split; [exact E|now apply W]|intros [_ X]; f_equal; now apply W]. }
  unfold cells_eqb. destruct (Z.eqb_spec (compare A a b) 0) as [C|C]; cbn [negb]; [|split; [discriminate|tauto]].
  set (step := fun (r : res bool) i => bind r (fun t => if negb t then Ok false else
     bind (vec_eqb A (center A a i) (center A b i)) (fun t1 => if negb t1 then Ok false else vec_eqb A (cellSize A a i) (cellSize A b i)))).
  assert (L : forall l, fold_left step l (Ok true) = Ok true <-> forall i, In i l -> same (center A a i) (center A b i) /\ same (cellSize A a i) (cellSize A b i)).
  { intro l. assert (G : forall l r, fold_left step l r = Ok true -> r = Ok true).
    { clear l. induction l as [|i l IH]; intros r H; [exact H|]. cbn [fold_left] in H. apply IH in H. unfold step in H. destruct r as [[]| |]; [reflexivity|discriminate|discriminate|discriminate]. }
    assert (S1 : forall i, step (Ok true) i = Ok true <-> same (center A a i) (center A b i) /\ same (cellSize A a i) (cellSize A b i)).
    { intro i. unfold step. cbn [bind negb]. rewrite <- !V. destruct (vec_eqb A (center A a i) (center A b i)) as [[]| |]; cbn [bind negb]; split; try tauto; try discriminate; intros [X _]; discriminate. }
    induction l as [|i l IH]; [split; [intros _ i []|reflexivity]|]. cbn [fold_left]. split.
    - intro H. pose proof (G l _ H) as H1. rewrite H1 in H.  intros j [<-|Hj]; [now apply S1|]. exact (proj1 IH H j Hj).
    - intro H. rewrite (proj2 (S1 i) (H i (or_introl eq_refl))). apply IH. intros j Hj. apply H. now right. }
  rewrite (L (seq 0 MaxAxis)). split; [intro H; split; [exact C|intros i Hi; apply H; apply in_seq; lia]|intros [_ H] i Hi; apply H; apply in_seq in Hi; lia].
Qed.
Print Assumptions cells_equal_iff.
Definition eqb_res (a b : res (cells b64)) : option (res bool) := match a, b with Ok a, Ok b => Some (cells_eqb b64 a b) | _, _ => None end.
(** equal; different centers; different sizes only (the same domain and shape) *)
Definition sized (h : Z) : res (cells b64) :=
  bind (setCells b64 (cells_new b64) 0 [fi 1; fi 5; fi 9] [fi 2; fi h; fi 2]) (fun c => Ok (recomputeDomain b64 c)).
Example ex_equal : eqb_res c2 c2 = Some (Ok true) /\ eqb_res cga cgb = Some (Ok false) /\ eqb_res (sized 2) (sized 6) = Some (Ok false) /\ cmp_res (sized 2) (sized 6) = Some 0%Z.
Proof. vm_compute. auto. Qed.

(** ** C54: a superset made of two *)
Definition along (i : Z) (n : nat) : res (cells b64) := bind (setCells_regular b64 (cells_new b64) i (fi 0) (fi 4) n None) (fun c => Ok (recomputeDomain b64 c)).
Example ex_superset : match along 0 4, along 1 2 with
  | Ok a, Ok b => match superset b64 a b with r_new _ c => Some (c_shape b64 c, length (center b64 c 0), length (center b64 c 1)) | _ => None end
  | _, _ => None end = Some ([4; 2]%Z, 4, 2).
Proof. vm_compute. reflexivity. Qed.
