(** Theorems about sinks, about the way from a spigot to a sink, and about the numbering
    of baselines. *)
From Verif Require Import Base Hiid_Model Hiid_Proofs Rqid_Model.
From Verif Require Import Vis_Model Vis_Spec Vis_Proofs Vis_Sink Vis_Thms.
Local Open Scope Z_scope.

(* ---------------------------------------------------------------- *)
(** ** What a sink writes *)

(** What is stored for VellSet [i] of the child's result *)
Definition stored_for {F D} (N : num F D) (child : result D) (i : nat) (c' : content F D)
    (c f row first : nat) : Prop :=
  match set_of child i with
  | None => stored_zero N c' c f row
  | Some s =>
      (zero N s -> stored_zero N c' c f row) /\
      (~ zero N s -> exists v, s_value s = Some v /\ stored N c' c f row (value v (row - first) f))
  end.

Lemma stored_for_holds {F D} (N : num F D) child i c' c f row first :
  holds_set N c' (set_of child i) c f row first -> stored_for N child i c' c f row first.
Proof.
  unfold holds_set, stored_for, nullopt. destruct (set_of child i) as [s|]; [|auto].
  destruct (isNullSet N s) eqn:E.
  - intros H. split; [auto|]. intros NZ. exfalso. apply NZ, isNullSet_zero, E.
  - intros (s' & v & A & B & C). injection A as <-. split.
    + intros Z0. apply isNullSet_zero in Z0. congruence.
    + intros _. eauto.
Qed.

(** In a cube column, every place of the rows of the range holds what the last VellSet
    going to its correlation says; every other place, every other column and the row
    flags are as before. *)
Theorem sink_values : forall F D (N : num F D) k rqid child code r' T' T col np nf,
  k_tile k = Some T -> k_col k = Some col -> c_shape (t_cols T col) = [np; nf] ->
  snd (sinkResult N k rqid child) = Ok (code, r', Some T') ->
  let old := c_data (t_cols T col) in
  let new := c_data (t_cols T' col) in
  rqid = k_rqid k /\ code = RES_UPDATED /\ r' = child /\
  t_nrow T' = t_nrow T /\ t_ncorr T' = t_ncorr T /\ t_rowflag T' = t_rowflag T /\
  (forall j, j <> col -> t_cols T' j = t_cols T j) /\
  c_shape (t_cols T' col) = [np; nf] /\
  forall c f row, (f < nf)%nat ->
    (forall i, (c < t_ncorr T)%nat -> in_range (k_range k) (t_nrow T) row ->
       last_for (k_corrs k) (nsets child) i c ->
       stored_for N child i new c f row (rfirst (k_range k))) /\
    (~ in_range (k_range k) (t_nrow T) row \/ (t_ncorr T <= c)%nat
       \/ nothing_for (k_corrs k) (nsets child) c ->
     same_at new old c f row).
Proof.
  intros F D N k rqid child code r' T' T col np nf KT KC S0 H old new.
  destruct (sink_write N k rqid child code r' T' H)
    as (T1 & col1 & rank3 & nf1 & c1 & fl1 & b1 & RQ & E1 & E2 & _ & CO & RR & S1 & W & ET).
  rewrite KT in E1. injection E1 as <-. rewrite KC in E2. injection E2 as <-.
  rewrite S0 in S1. destruct rank3; [|discriminate]. injection S1 as <-.
  split; [exact RQ|]. split; [exact CO|]. split; [exact RR|].
  subst T'. cbn [with_data t_nrow t_ncorr t_rowflag t_cols].
  split; [reflexivity|]. split; [reflexivity|]. split; [reflexivity|].
  assert (NW : new = c1) by (unfold new; cbn [with_data t_cols]; rewrite Nat.eqb_refl; reflexivity).
  split; [intros j J; destruct (Nat.eqb_spec j col); [contradiction|reflexivity]|].
  split; [rewrite Nat.eqb_refl; exact S0|].
  intros c f row F0. rewrite NW.
  pose proof (writeSets_data N k T true nf (rfirst (k_range k)) (rcount (k_range k) (t_nrow T))
                c f row F0 _ _ _ _ _ _ _ _ old None W eq_refl (same_at_refl _ _ _ _)) as [_ X].
  split.
  - intros i C R (I & G & LA). apply in_range_iff in R.
    rewrite (lastw_last k (t_ncorr T) _ _ c row _ C R 0%nat None i (set_of child i)) in X.
    + apply stored_for_holds. exact X.
    + apply sinkSets_nth. exact I.
    + exact G.
    + rewrite sinkSets_length. exact LA.
  - intros [R|[R|R]].
    + rewrite in_range_iff in R. rewrite lastw_out in X by exact R. exact X.
    + rewrite lastw_beyond in X by exact R. exact X.
    + destruct (le_lt_dec (t_ncorr T) c) as [B|C].
      { rewrite lastw_beyond in X by exact B. exact X. }
      destruct (le_lt_dec (rfirst (k_range k)) row) as [A1|A1].
      2:{ rewrite lastw_out in X by lia. exact X. }
      destruct (le_lt_dec (rfirst (k_range k) + rcount (k_range k) (t_nrow T)) row) as [A2|A2].
      { rewrite lastw_out in X by lia. exact X. }
      rewrite lastw_none in X; [exact X|exact C|lia|]. rewrite sinkSets_length.
      intros j J. apply R. lia.
Qed.

(** In a two-dimensional column the VellSets going to any correlation of the tile all
    end up in the same place, so that the last one stays. *)
Theorem sink_values_2d_partial : forall F D (N : num F D) k rqid child code r' T' T col nf,
  k_tile k = Some T -> k_col k = Some col -> c_shape (t_cols T col) = [nf] ->
  snd (sinkResult N k rqid child) = Ok (code, r', Some T') ->
  forall f row i, (f < nf)%nat -> in_range (k_range k) (t_nrow T) row ->
    last_available (k_corrs k) (t_ncorr T) (nsets child) i ->
    stored_for N child i (c_data (t_cols T' col)) 0 f row (rfirst (k_range k)).
Proof.
  intros F D N k rqid child code r' T' T col nf KT KC S0 H f row i F0 R (I & G & LA).
  destruct (sink_write N k rqid child code r' T' H)
    as (T1 & col1 & rank3 & nf1 & c1 & fl1 & b1 & RQ & E1 & E2 & _ & CO & RR & S1 & W & ET).
  rewrite KT in E1. injection E1 as <-. rewrite KC in E2. injection E2 as <-.
  rewrite S0 in S1. destruct rank3; [discriminate|]. injection S1 as <-.
  subst T'. cbn [with_data t_cols]. rewrite Nat.eqb_refl. cbn [c_data].
  pose proof (writeSets_data N k T false nf (rfirst (k_range k)) (rcount (k_range k) (t_nrow T))
                0 f row F0 _ _ _ _ _ _ _ _ (c_data (t_cols T col)) None W eq_refl (same_at_refl _ _ _ _)) as [_ X].
  apply in_range_iff in R.
  rewrite (lastw2_last k (t_ncorr T) _ _ row _ R 0%nat None i (set_of child i)) in X.
  - apply stored_for_holds. exact X.
  - apply sinkSets_nth. exact I.
  - exact G.
  - rewrite sinkSets_length. exact LA.
Qed.

(** When a sink writes: it has a tile for the request and an output column of doubles or
    complex numbers, the child's result has no fails, some VellSet goes to a correlation
    of the tile, and all those that do can be written. *)
Theorem sink_accepts : forall F D (N : num F D) k child T col nf,
  k_tile k = Some T -> k_col k = Some col ->
  (exists np, c_shape (t_cols T col) = [np; nf]) \/ c_shape (t_cols T col) = [nf] ->
  (forall a, c_data (t_cols T col) <> CFloat a) -> c_data (t_cols T col) <> COther ->
  (forall s, In s (r_sets child) -> s_fail s = false) ->
  (exists i, (i < nsets child)%nat /\ available (k_corrs k) (t_ncorr T) i) ->
  (forall i, (i < nsets child)%nat -> available (k_corrs k) (t_ncorr T) i ->
     writable N (c_data (t_cols T col)) (rcount (k_range k) (t_nrow T)) nf (set_of child i)) ->
  exists T', snd (sinkResult N k (k_rqid k) child) = Ok (RES_UPDATED, child, Some T').
Proof.
  intros F D N k child T col nf KT KC SH NF NO FA OP W.
  assert (X : forall rank3, exists c fl b, writeSets N k T rank3 nf (rfirst (k_range k))
     (rcount (k_range k) (t_nrow T)) 0 (sinkSets child) (c_data (t_cols T col), t_flags T, false) = Ok (c, fl, b)).
  { intros rank3. apply writeSets_ok; [exact NF|exact NO|]. intros i s E A.
    assert (L : (i < nsets child)%nat) by (rewrite <- sinkSets_length; apply nth_error_Some; congruence).
    rewrite (sinkSets_nth child i L) in E. injection E as <-. apply W; assumption. }
  unfold sinkResult. rewrite (proj2 (hiid_eqb_iff _ _) eq_refl). cbn [negb]. rewrite KT. cbn [snd]. rewrite KC.
  assert (FA' : existsb s_fail (r_sets child) = false).
  { apply not_true_iff_false. intros E. apply existsb_exists in E as (s & I & E). rewrite (FA s I) in E. discriminate. }
  rewrite FA', (proj2 (opens_iff k T (length (sinkSets child)))) by (rewrite sinkSets_length; exact OP).
  cbn [negb]. destruct SH as [[np SH]|SH]; rewrite SH.
  - destruct (X true) as (c & fl & b & ->). eauto.
  - destruct (X false) as (c & fl & b & ->). eauto.
Qed.

(** A tile is written once: asked again for the same request the sink fails. *)
Theorem sink_once : forall F D (N : num F D) k rqid child child' x,
  snd (sinkResult N k rqid child) = Ok x ->
  snd (sinkResult N (fst (sinkResult N k rqid child)) rqid child') = Fail.
Proof.
  intros F D N k rqid child child' x H. unfold sinkResult in *.
  destruct (hiid_eqb rqid (k_rqid k)) eqn:E; cbn [negb snd] in H; [|discriminate].
  destruct (k_tile k) as [T|]; cbn [snd] in H; [|discriminate].
  cbn [negb fst]. cbn [k_rqid k_tile]. rewrite E. reflexivity.
Qed.

(* ---------------------------------------------------------------- *)
(** ** Flags *)

(** A VellSet that does not stand for zero: its flags, restricted to the mask, are the
    flags of the places it is written to, provided that all rows of the tile are written
    or the flags do not depend on time; a value without flags clears them; without a
    mask the flags of the tile stay; and elsewhere they stay. *)
Theorem sink_flags_partial : forall F D (N : num F D) k rqid child code r' T' T col np nf,
  k_tile k = Some T -> k_col k = Some col -> c_shape (t_cols T col) = [np; nf] ->
  (rcount (k_range k) (t_nrow T) <= t_nrow T)%nat ->
  snd (sinkResult N k rqid child) = Ok (code, r', Some T') ->
  forall c f row, (f < nf)%nat ->
    (forall i s v, (c < t_ncorr T)%nat -> in_range (k_range k) (t_nrow T) row ->
       last_for (k_corrs k) (nsets child) i c -> set_of child i = Some s -> ~ zero N s ->
       s_value s = Some v -> k_flag_mask k <> 0 ->
       (forall g, v_flags v = Some g -> conforms (g_shape g) (rcount (k_range k) (t_nrow T)) nf /\
          (nth 0 (g_shape g) 1%nat = 1%nat \/ rcount (k_range k) (t_nrow T) = t_nrow T)) ->
       t_flags T' c f row =
         with_bit (k_flag_bit k) (Z.land (flag v (row - rfirst (k_range k)) f) (k_flag_mask k))) /\
    (~ in_range (k_range k) (t_nrow T) row \/ (t_ncorr T <= c)%nat \/ k_flag_mask k = 0
       \/ nothing_for (k_corrs k) (nsets child) c ->
     t_flags T' c f row = t_flags T c f row).
Proof.
  intros F D N k rqid child code r' T' T col np nf KT KC S0 LE H c f row F0.
  destruct (sink_write N k rqid child code r' T' H)
    as (T1 & col1 & rank3 & nf1 & c1 & fl1 & b1 & RQ & E1 & E2 & _ & CO & RR & S1 & W & ET).
  rewrite KT in E1. injection E1 as <-. rewrite KC in E2. injection E2 as <-.
  rewrite S0 in S1. destruct rank3; [|discriminate]. injection S1 as <-.
  subst T'. cbn [with_data t_flags].
  pose proof (writeSets_flags N k T true nf (rfirst (k_range k)) (rcount (k_range k) (t_nrow T))
                c f row F0 LE _ _ _ _ _ _ _ _ W) as X.
  split.
  - intros i s v C R (I & G & LA) ES NZ EV FM FL. apply in_range_iff in R.
    destruct (foldw_last N k (t_ncorr T) (t_nrow T) nf _ _ c f row (sinkSets child) C R 0%nat (t_flags T c f row) i (set_of child i))
      as (old & Y & _).
    + apply sinkSets_nth. exact I.
    + exact G.
    + rewrite sinkSets_length. exact LA.
    + rewrite X, Y, ES. unfold new_flag. cbn [nullopt].
      destruct (isNullSet N s) eqn:NS; [exfalso; apply NZ, isNullSet_zero, NS|].
      destruct (Z.eqb_spec (k_flag_mask k) 0); [contradiction|]. cbn [orb]. rewrite EV.
      destruct (v_flags v) as [g|] eqn:VF.
      * destruct (FL g eq_refl) as [CF AL].
        assert (CP : isCompatible (g_shape g) [t_nrow T; nf] = true).
        { apply compatible_conforms. destruct CF as (L & A & B). split; [exact L|]. split; [|exact B].
          destruct AL as [AL|AL]; [auto|]. rewrite <- AL. exact A. }
        rewrite CP. reflexivity.
      * unfold flag. rewrite VF, Z.land_0_l. unfold with_bit. destruct (_ =? 0); reflexivity.
  - intros R. rewrite X. destruct R as [R|[R|[R|R]]].
    + rewrite in_range_iff in R. apply foldw_out. exact R.
    + apply foldw_beyond. exact R.
    + apply foldw_mask0. exact R.
    + destruct (le_lt_dec (t_ncorr T) c) as [B|C]; [apply foldw_beyond; exact B|].
      destruct (le_lt_dec (rfirst (k_range k)) row) as [A1|A1]; [|apply foldw_out; lia].
      destruct (le_lt_dec (rfirst (k_range k) + rcount (k_range k) (t_nrow T)) row) as [A2|A2];
        [apply foldw_out; lia|].
      apply foldw_none; [exact C|lia|]. rewrite sinkSets_length. intros j J. apply R. lia.
Qed.

(* ---------------------------------------------------------------- *)
(** ** Examples and what does not hold *)

Definition vs1 (v : vells Z) : vellset Z := mkVellset false 0 (Some v).
Definition scalar (x : Z) (g : option fvells) : vellset Z := vs1 (mkVells [1%nat] (VReal (fun _ _ => x)) g).
Definition ex_sink (T : tile Z Z) (r : range) (col : nat) (corrs : list Z) (mask bit : Z) : sink Z Z :=
  mkSink [1] (Some T) r (Some col) corrs mask bit.
Definition column_of {F D} (T : tile F D) (col : nat) (nc nr : nat) : list (list (F * F)) :=
  match c_data (t_cols T col) with
  | CComplex a => map (fun c => map (fun r => a c 0%nat r) (seq 0 nr)) (seq 0 nc)
  | _ => []
  end.
Definition dcolumn_of {F D} (T : tile F D) (col : nat) (nr : nat) : list D :=
  match c_data (t_cols T col) with CDouble a => map (fun r => a 0%nat 0%nat r) (seq 0 nr) | _ => [] end.
Definition flags_of {F D} (T : tile F D) (nc nr : nat) : list (list Z) :=
  map (fun c => map (fun r => t_flags T c 0%nat r) (seq 0 nr)) (seq 0 nc).
Definition written {A} (f : tile Z Z -> A) (x : sink Z Z * res (Z * result Z * option (tile Z Z))) : option A :=
  match snd x with Ok (_, _, Some T) => Some (f T) | _ => None end.

Definition no_flags (c f r : nat) : Z := 0.
Definition no_rowflag (r : nat) : Z := 0.
Definition set_flags (c f r : nat) : Z := 4.

Example sink_values_ex :
  let T := ex_tile set_flags no_rowflag in
  let a := vs1 (mkVells [3; 1]%nat (VCplx (fun t _ => (Z.of_nat t + 50, 2)))
                  (Some (mkFvells [3; 1]%nat (fun t _ => Z.of_nat t)))) in
  let res := mkResult [a; scalar 7 None] None in
  written (fun T => (column_of T 0 2 3, flags_of T 2 3)) (sinkResult znum (ex_sink T None 0 [] (-1) 0) [1] res)
    = Some ([[(50, 2); (51, 2); (52, 2)]; [(7, 0); (7, 0); (7, 0)]], [[0; 1; 2]; [0; 0; 0]]) /\
  written (fun T => (column_of T 0 2 3, flags_of T 2 3)) (sinkResult znum (ex_sink T None 0 [1; -1] 2 8) [1] res)
    = Some ([[(0, 1); (1, 1); (2, 1)]; [(50, 2); (51, 2); (52, 2)]], [[4; 4; 4]; [0; 0; 8]]) /\
  (* a single VellSet is the diagonal of a matrix *)
  written (fun T => column_of T 0 2 3) (sinkResult znum (ex_sink T (Some (1, 2)%nat) 0 [0; -1; -1; 1] 0 0) [1]
     (mkResult [scalar 7 None] None))
    = Some [[(0, 1); (7, 0); (7, 0)]; [(10, 1); (7, 0); (7, 0)]] /\
  snd (sinkResult znum (ex_sink T None 0 [] 0 0) [2] res) = Fail.
Proof. split; [|split; [|split]]; vm_compute; reflexivity. Qed.

Lemma written_tile k rq child A (f : tile Z Z -> A) x :
  written f (sinkResult znum k rq child) = Some x ->
  exists code r' T', snd (sinkResult znum k rq child) = Ok (code, r', Some T') /\ f T' = x.
Proof.
  unfold written. destruct (snd (sinkResult znum k rq child)) as [[[code r'] [T'|]]|]; try discriminate.
  intros E. injection E as E. eauto.
Qed.

(** The scalar is not what ends up in a two-dimensional column: with two correlations in
    the tile the zero of an off-diagonal element overwrites it. *)
Theorem sink_scalar_2d_refuted : ~ (forall F D (N : num F D) k rqid child code r' T' T col nf s v f row,
  k_tile k = Some T -> k_col k = Some col -> c_shape (t_cols T col) = [nf] -> (0 < t_ncorr T)%nat ->
  k_corrs k = [] -> r_sets child = [s] -> s_value s = Some v -> ~ zero N s ->
  snd (sinkResult N k rqid child) = Ok (code, r', Some T') ->
  (f < nf)%nat -> in_range (k_range k) (t_nrow T) row ->
  stored N (c_data (t_cols T' col)) 0 f row (value v (row - rfirst (k_range k)) f)).
Proof.
  intros H. set (T := ex_tile no_flags no_rowflag).
  set (k := ex_sink T None 1 [] 0 0). set (child := mkResult [scalar 7 None] None).
  destruct (written_tile k [1] child _ (fun T => dcolumn_of T 1 3) [0; 0; 0] ltac:(vm_compute; reflexivity))
    as (code & r' & T' & E & EV).
  pose proof (H Z Z znum k [1] child code r' T' T 1%nat 1%nat (scalar 7 None) _ 0%nat 0%nat eq_refl eq_refl eq_refl
    ltac:(cbn; lia) eq_refl eq_refl eq_refl) as X.
  assert (NZ : ~ zero znum (scalar 7 None)).
  { intros [Y|(v & Y & _ & _ & Z0)]; [discriminate|]. injection Y as <-. discriminate. }
  specialize (X NZ E ltac:(lia) ltac:(cbn; lia)). unfold dcolumn_of in EV.
  destruct (c_data (t_cols T' 1)); try discriminate. cbn in EV, X. injection EV as E0 _ _. congruence.
Qed.

(** "no flags on Vells -- simply clear the tile's flags" (Sink.cc:273): not where a zero is
    written. *)
Theorem sink_zero_flags_refuted : ~ (forall F D (N : num F D) k rqid child code r' T' T col np nf i s v c f row,
  k_tile k = Some T -> k_col k = Some col -> c_shape (t_cols T col) = [np; nf] ->
  snd (sinkResult N k rqid child) = Ok (code, r', Some T') ->
  (f < nf)%nat -> (c < t_ncorr T)%nat -> in_range (k_range k) (t_nrow T) row ->
  last_for (k_corrs k) (nsets child) i c -> set_of child i = Some s -> s_value s = Some v ->
  v_flags v = None -> k_flag_mask k <> 0 -> t_flags T' c f row = 0).
Proof.
  intros H. set (T := ex_tile set_flags no_rowflag).
  set (k := ex_sink T None 0 [] (-1) 0). set (child := mkResult [scalar 0 None; scalar 7 None] None).
  destruct (written_tile k [1] child _ (fun T => flags_of T 2 3) [[4; 4; 4]; [0; 0; 0]] ltac:(vm_compute; reflexivity))
    as (code & r' & T' & E & EV).
  assert (LF : last_for (k_corrs k) (nsets child) 0 0).
  { split; [cbn; lia|]. split; [reflexivity|]. intros j J. cbn. lia. }
  pose proof (H Z Z znum k [1] child code r' T' T 0%nat 2%nat 1%nat 0%nat (scalar 0 None) _ 0%nat 0%nat 0%nat
    eq_refl eq_refl eq_refl E ltac:(lia) ltac:(cbn; lia) ltac:(cbn; lia) LF eq_refl eq_refl eq_refl ltac:(discriminate)) as X.
  unfold flags_of in EV. cbn [seq map] in EV. injection EV as E0 _. congruence.
Qed.

(** When a tile has rows before or after the range, flags that depend on time are not
    written. *)
Theorem sink_range_flags_refuted : ~ (forall F D (N : num F D) k rqid child code r' T' T col np nf i s v g c f row,
  k_tile k = Some T -> k_col k = Some col -> c_shape (t_cols T col) = [np; nf] ->
  (rcount (k_range k) (t_nrow T) <= t_nrow T)%nat ->
  snd (sinkResult N k rqid child) = Ok (code, r', Some T') ->
  (f < nf)%nat -> (c < t_ncorr T)%nat -> in_range (k_range k) (t_nrow T) row ->
  last_for (k_corrs k) (nsets child) i c -> set_of child i = Some s -> s_value s = Some v -> ~ zero N s ->
  v_flags v = Some g -> conforms (g_shape g) (rcount (k_range k) (t_nrow T)) nf -> k_flag_mask k <> 0 ->
  t_flags T' c f row =
    with_bit (k_flag_bit k) (Z.land (flag v (row - rfirst (k_range k)) f) (k_flag_mask k))).
Proof.
  intros H. set (T := ex_tile no_flags no_rowflag).
  set (k := ex_sink T (Some (0, 1)%nat) 0 [] (-1) 0).
  set (g := mkFvells [2; 1]%nat (fun _ _ => 1)).
  set (s := vs1 (mkVells [2; 1]%nat (VReal (fun _ _ => 7)) (Some g))).
  set (child := mkResult [s; s] None).
  destruct (written_tile k [1] child _ (fun T => flags_of T 2 3) [[0; 0; 0]; [0; 0; 0]] ltac:(vm_compute; reflexivity))
    as (code & r' & T' & E & EV).
  assert (LF : last_for (k_corrs k) (nsets child) 0 0).
  { split; [cbn; lia|]. split; [reflexivity|]. intros j J. cbn. lia. }
  assert (NZ : ~ zero znum s).
  { intros [Y|(v & Y & _ & SG & Z0)]; [discriminate|]. injection Y as <-. cbn in Z0. discriminate. }
  assert (CF : conforms (g_shape g) 2 1) by (split; [cbn; lia|]; split; [right|left]; reflexivity).
  pose proof (H Z Z znum k [1] child code r' T' T 0%nat 2%nat 1%nat 0%nat s _ g 0%nat 0%nat 0%nat
    eq_refl eq_refl eq_refl ltac:(cbn; lia) E ltac:(lia) ltac:(cbn; lia) ltac:(cbn; lia) LF eq_refl eq_refl NZ eq_refl CF ltac:(discriminate)) as X.
  unfold flags_of in EV. cbn [seq map] in EV. injection EV as E0 _. rewrite E0 in X. vm_compute in X. discriminate.
Qed.

(* ---------------------------------------------------------------- *)
(** ** From a spigot to a sink *)

Lemma with_bit_nonzero bit x : with_bit bit x <> 0 <-> x <> 0.
Proof.
  unfold with_bit. destruct (Z.eqb_spec bit 0); [tauto|]. destruct (Z.eqb_spec x 0); [|tauto].
  subst x. tauto.
Qed.

Lemma corr_id n i : (i < n)%nat -> nth_error (map Z.of_nat (seq 0 n)) i = Some (Z.of_nat i).
Proof.
  intros L. apply map_nth_error. rewrite (nth_error_nth' _ 0%nat) by (rewrite seq_length; exact L).
  rewrite seq_nth by exact L. reflexivity.
Qed.

(** A tree consisting of a spigot and a sink for the same column, with the correlations
    in the order of the tile, leaves the visibilities in the tile as they are: single
    precision numbers survive the conversion to double precision and back.  If all rows
    are processed, what the spigot regards as bad is what the sink flags. *)
Theorem spigot_sink_round_trip : forall F D (N : num F D) p cur rqid cells T r nf p' res k,
  (forall x, narrow N (widen N x) = x) ->
  is_cube p T (t_ncorr T) nf ->
  (exists a, c_data (t_cols T (p_col p)) = CComplex a) \/ (exists a, c_data (t_cols T (p_col p)) = CDouble a) ->
  (0 < t_ncorr T)%nat -> p_ndims p = t_ncorr T -> p_corr p = map Z.of_nat (seq 0 (t_ncorr T)) ->
  (1 < rcount r (t_nrow T) * nf)%nat -> (rcount r (t_nrow T) <= t_nrow T)%nat ->
  deliverTile N p cur rqid cells T r = Ok p' -> p_queue p' = p_queue p ++ [(rqid, res)] ->
  k_col k = Some (p_col p) -> k_corrs k = [] ->
  exists T', snd (sinkResult N (sinkDeliver k rqid T r) rqid res) = Ok (RES_UPDATED, res, Some T') /\
    forall c f row, (f < nf)%nat ->
      same_at (c_data (t_cols T' (p_col p))) (c_data (t_cols T (p_col p))) c f row /\
      ((c < t_ncorr T)%nat -> rcount r (t_nrow T) = t_nrow T -> in_range r (t_nrow T) row ->
       p_flag_mask p <> 0 -> k_flag_mask k = -1 ->
       (t_flags T' c f row <> 0 <-> bad p T c f row)).
Proof.
  intros F D N p cur rqid cells T r nf p' res k WN CU KIND NC ND PC BIG LE DT Q KC KR.
  pose proof CU as [S0 U].
  destruct (deliver_cube N p cur rqid cells T r _ nf p' S0 U DT) as (_ & l & C & L & E).
  pose proof (cube_sets N T p _ _ nf _ _ l C L) as (LN & _ & K). cbn zeta in *.
  set (sets := flagSets T p nf (rcount r (t_nrow T)) (rfirst r) (p_corr p)
                 (setAll l (repeat emptySet (p_ndims p)))) in *.
  assert (RS : res = mkResult sets (Some cells)).
  { rewrite E in Q. cbn [with_queue p_queue] in Q. apply app_inv_head in Q. injection Q as <-. reflexivity. }
  assert (LR : length (r_sets res) = t_ncorr T) by (rewrite RS; cbn [r_sets]; congruence).
  assert (SO : forall i, (i < t_ncorr T)%nat -> set_of res i = nth_error (r_sets res) i).
  { intros i I. unfold set_of. rewrite LR. destruct (Nat.eqb_spec (t_ncorr T) 1); [|reflexivity].
    assert (i = 0%nat) by lia. subst i. reflexivity. }
  assert (NS : (t_ncorr T <= nsets res)%nat).
  { unfold nsets. rewrite LR. destruct (Nat.eqb_spec (t_ncorr T) 1); lia. }
  assert (KK : forall i, (i < t_ncorr T)%nat -> exists vals gg,
    plane N (c_data (t_cols T (p_col p))) i (rfirst r) = Some vals /\
    (forall g, gg = Some g -> length (g_shape g) = 2%nat /\
        (p_flag_mask p <> 0 -> g_shape g = [rcount r (t_nrow T); nf])) /\
    set_of res i = Some (mkVellset false 0 (Some (mkVells [rcount r (t_nrow T); nf] vals gg)))).
  { intros i I. destruct (K i (Z.of_nat i)) as [[X _]|[_ (vals & P & X)]].
    - rewrite PC. apply corr_id. exact I.
    - lia.
    - rewrite Nat2Z.id in *. exists vals. eexists. split; [exact P|]. split; [|rewrite SO by exact I; rewrite RS; exact X].
      intros g G. destruct (anyFlag _ _ _); [|discriminate]. injection G as <-. cbn [g_shape].
      unfold corrFlags. destruct (Z.eqb_spec (p_flag_mask p) 0); cbn [negb]; cbn [g_shape length]; split; auto.
      intros FM; contradiction. }
  assert (NZ : forall s vals gg, s = mkVellset false 0 (Some (mkVells [rcount r (t_nrow T); nf] vals gg)) ->
             ~ zero N s).
  { intros s vals gg -> [X|(v & X & _ & SG & _)]; [discriminate|]. cbn [s_value] in X. injection X as <-.
    unfold single in SG. cbn [v_shape] in SG. apply Forall_cons_iff in SG as [A SG].
    apply Forall_cons_iff in SG as [B _]. rewrite <- A, <- B in BIG. lia. }
  set (k' := sinkDeliver k rqid T r).
  assert (AV : forall i, available (k_corrs k') (t_ncorr T) i -> (i < t_ncorr T)%nat).
  { intros i (c & CC & G). unfold k' in G. cbn [sinkDeliver k_corrs] in G. rewrite KR in G.
    unfold goes_to in G. lia. }
  destruct (sink_accepts F D N k' res T (p_col p) nf) as (T' & W).
  - reflexivity.
  - exact KC.
  - left. eauto.
  - intros a A. destruct KIND as [[b B]|[b B]]; congruence.
  - intros A. destruct KIND as [[b B]|[b B]]; congruence.
  - intros s I. apply In_nth_error in I as [i I].
    assert (IL : (i < t_ncorr T)%nat) by (rewrite <- LR; apply nth_error_Some; congruence).
    destruct (KK i IL) as (vals & gg & _ & _ & X). rewrite SO in X by exact IL. rewrite I in X. injection X as ->. reflexivity.
  - exists 0%nat. split; [lia|]. exists 0%nat. split; [exact NC|]. cbn [sinkDeliver k_corrs k']. rewrite KR. reflexivity.
  - intros i _ A. apply AV in A. destruct (KK i A) as (vals & gg & P & G & ->). right.
    eexists. split; [reflexivity|]. cbn [v_shape v_flags v_vals]. split; [right; reflexivity|].
    split; [intros g X; rewrite (proj1 (G g X)); lia|].
    destruct KIND as [[b B]|[b B]]; rewrite B in *; cbn [plane] in P; injection P as <-; exact Logic.I.
  - change (k_rqid k') with rqid in W. exists T'. split; [exact W|]. intros c f row F0.
    assert (LF : (c < t_ncorr T)%nat -> last_for (k_corrs k') (nsets res) c c).
    { intros CC. cbn [sinkDeliver k_corrs k']. rewrite KR. split; [lia|]. split; [reflexivity|].
      intros j J G. unfold goes_to in G. lia. }
    destruct (sink_values F D N k' rqid res _ _ T' T (p_col p) _ nf eq_refl KC S0 W)
      as (_ & _ & _ & _ & _ & _ & _ & _ & V). cbn zeta in V.
    destruct (V c f row F0) as [V1 V2]. cbn [sinkDeliver k_range k'] in V1, V2.
    split.
    + destruct (le_lt_dec (t_ncorr T) c) as [B|CC]; [apply V2; auto|].
      assert (DR : in_range r (t_nrow T) row \/ ~ in_range r (t_nrow T) row).
      { rewrite in_range_iff. lia. }
      destruct DR as [R|R]; [|apply V2; auto].
      specialize (V1 c CC R (LF CC)). destruct (KK c CC) as (vals & gg & P & _ & X).
      unfold stored_for in V1. rewrite X in V1. destruct V1 as [_ V1].
      destruct (V1 (NZ _ _ _ eq_refl)) as (v & EV & ST). cbn [s_value] in EV. injection EV as <-.
      apply in_range_iff in R.
      pose proof (plane_value N _ c (rfirst r) vals (rcount r (t_nrow T)) nf gg (row - rfirst r) f P ltac:(lia) F0) as PV.
      replace (rfirst r + (row - rfirst r))%nat with row in PV by lia.
      pose proof (proj2 (V (t_ncorr T) f row F0) (or_intror (or_introl (le_n _)))) as SK.
      destruct KIND as [[b B]|[b B]]; rewrite B in *; cbn [sample] in PV; injection PV as PV; rewrite PV in ST;
        destruct (c_data (t_cols T' (p_col p))); cbn [stored same_at] in *; try contradiction.
      * rewrite !WN in ST. rewrite ST. symmetry. apply surjective_pairing.
      * exact ST.
    + intros CC FULL R FM KM. destruct (KK c CC) as (vals & gg & P & G & X).
      destruct (sink_flags_partial F D N k' rqid res _ _ T' T (p_col p) _ nf eq_refl KC S0 LE W c f row F0) as [FL _].
      cbn [sinkDeliver k_range k_flag_mask k_flag_bit k'] in FL.
      rewrite (FL c _ _ CC R (LF CC) X (NZ _ _ _ eq_refl) eq_refl).
      * rewrite with_bit_nonzero, KM, Z.land_m1_r.
        assert (I : nth_error (p_corr p) c = Some (Z.of_nat c)) by (rewrite PC; apply corr_id; exact CC).
        assert (ES : nth_error (r_sets res) c = set_of res c) by (symmetry; apply SO; exact CC). rewrite X in ES.
        destruct (spigot_flags_partial F D N p cur rqid cells T r _ nf p' res c (Z.of_nat c) _ _ CU FM DT Q I
          ltac:(lia) ES eq_refl row f R F0) as [Y _].
        rewrite Nat2Z.id in Y. exact Y.
      * rewrite KM. discriminate.
      * cbn [v_flags]. intros g GG. destruct (G g GG) as [_ G2]. specialize (G2 FM). rewrite G2.
        split; [split; [cbn; lia|]; split; right; reflexivity|]. right. exact FULL.
Qed.

Example spigot_sink_round_trip_ex :
  let T := ex_tile (fun c f r => if (c =? 1)%nat && (r =? 2)%nat then 4 else 0) no_rowflag in
  let p := mkSpigot false 0 (-1) (-1) 1 2 [0; 1] false [] in
  match deliverTile znum p [9] [1] 5 T None with
  | Ok p' =>
      let res := snd (snd (spigotResult p' (-1) [1])) in
      written (fun T' => (column_of T' 0 2 3, flags_of T' 2 3))
        (sinkResult znum (sinkDeliver (mkSink [] None None (Some 0%nat) [] (-1) 0) [1] T None) [1] res)
      = Some (column_of T 0 2 3, [[0; 0; 0]; [0; 0; 1]])
  | Fail => False
  end.
Proof. vm_compute. reflexivity. Qed.

(* ---------------------------------------------------------------- *)
(** ** The numbers of baselines *)

Lemma ifr0_eq a b : 0 <= a -> ifrNumber0 a b = a * (a + 1) + 2 * b.
Proof.
  intros A. unfold ifrNumber0. rewrite Z.quot_div_nonneg by nia.
  assert (E : (a * (a + 1)) mod 2 = 0).
  { rewrite Z.mul_mod, Z.add_mod by lia. destruct (Z.mod_pos_bound a 2) as [B C]; [lia|].
    assert (H : a mod 2 = 0 \/ a mod 2 = 1) by lia. destruct H as [-> | ->]; reflexivity. }
  pose proof (Z.div_mod (a * (a + 1)) 2 ltac:(lia)). lia.
Qed.

(** What VisVocabulary.h:172-175 says: odd numbers for the first antenna below the
    second, even ones otherwise, and the same half for the two orders. *)
Theorem ifr_numbers : forall a b, 0 <= a -> 0 <= b ->
  0 <= ifrNumber a b /\
  (Z.Odd (ifrNumber a b) <-> a < b) /\
  ifrNumber a b / 2 = ifrNumber b a / 2.
Proof.
  intros a b A B. unfold ifrNumber.
  assert (EV : forall x, 0 <= x -> exists h, x * (x + 1) = 2 * h).
  { intros x X. pose proof (ifr0_eq x 0 X) as E. unfold ifrNumber0 in E. eexists. rewrite Z.add_0_r in E.
    rewrite Z.mul_0_r, Z.add_0_r in E. symmetry. exact E. }
  destruct (EV a A) as [ha HA]. destruct (EV b B) as [hb HB].
  destruct (Z.ltb_spec a b), (Z.ltb_spec b a); try lia; rewrite !ifr0_eq by lia; rewrite ?HA, ?HB.
  - split; [nia|]. split; [split; [lia|intros _; exists (hb + a); lia]|].
    replace (2 * hb + 2 * a + 1) with (1 + (hb + a) * 2) by lia. replace (2 * hb + 2 * a) with ((hb + a) * 2) by lia.
    rewrite Z.div_add, Z.div_mul by lia. reflexivity.
  - split; [nia|]. split; [split; [intros [q Q]; lia|lia]|].
    replace (2 * ha + 2 * b + 1) with (1 + (ha + b) * 2) by lia. replace (2 * ha + 2 * b) with ((ha + b) * 2) by lia.
    rewrite Z.div_add, Z.div_mul by lia. reflexivity.
  - assert (a = b) by lia. subst b. split; [nia|]. split; [split; [intros [q Q]; lia|lia]|replace ha with hb by lia; reflexivity].
Qed.

(** Different pairs of antennas have different numbers. *)
Theorem ifr_injective : forall a b c d, 0 <= a -> 0 <= b -> 0 <= c -> 0 <= d ->
  ifrNumber a b = ifrNumber c d -> a = c /\ b = d.
Proof.
  intros a b c d A B C D E.
  destruct (ifr_numbers a b A B) as (_ & O1 & _). destruct (ifr_numbers c d C D) as (_ & O2 & _).
  rewrite E, O2 in O1. unfold ifrNumber in E.
  destruct (Z.ltb_spec a b), (Z.ltb_spec c d); try lia; rewrite !ifr0_eq in E by lia.
  - assert (b = d) by nia. subst. lia.
  - assert (a = c) by nia. subst. lia.
Qed.

(** The tables of VisDataMux for [n] antennas (VisDataMux.cc:272, 275: one more than the number
    of the last pair) have room for exactly the pairs of those antennas; no pair at
    all has the number that is the size of the tables, so that the comparison of
    VisDataMux.cc:351 never lets a number through that is out of bounds. *)
Theorem ifr_table : forall n a b, 1 <= n -> 0 <= a -> 0 <= b ->
  let size := ifrNumber (n - 1) (n - 1) + 1 in
  (ifrNumber a b < size <-> a < n /\ b < n) /\ ifrNumber a b <> size /\
  (~ ifrNumber a b > size <-> ifrNumber a b < size).
Proof.
  intros n a b NN A B size.
  assert (SZ : size = (n - 1) * n + 2 * (n - 1) + 1).
  { unfold size, ifrNumber. rewrite Z.ltb_irrefl, ifr0_eq by lia. lia. }
  assert (X : ifrNumber a b < size /\ a < n /\ b < n \/ ifrNumber a b > size /\ ~ (a < n /\ b < n)).
  { rewrite SZ. unfold ifrNumber. destruct (Z.ltb_spec a b); rewrite ifr0_eq by lia.
    - destruct (Z.lt_ge_cases b n); [left; split; [nia|lia]|right; split; [nia|lia]].
    - destruct (Z.lt_ge_cases a n); [left; split; [nia|lia]|right; split; [nia|lia]]. }
  clearbody size. lia.
Qed.

Example ifr_ex : map (fun '(a, b) => ifrNumber a b) [(0, 0); (0, 1); (1, 0); (1, 1); (2, 1); (1, 2); (2, 2); (3, 0)]
  = [0; 3; 2; 4; 8; 9; 10; 12].
Proof. vm_compute. reflexivity. Qed.

Print Assumptions sink_values.
Print Assumptions sink_values_2d_partial.
Print Assumptions sink_accepts.
Print Assumptions sink_once.
Print Assumptions sink_flags_partial.
Print Assumptions sink_scalar_2d_refuted.
Print Assumptions sink_zero_flags_refuted.
Print Assumptions sink_range_flags_refuted.
Print Assumptions spigot_sink_round_trip.
Print Assumptions ifr_numbers.
Print Assumptions ifr_injective.
Print Assumptions ifr_table.
