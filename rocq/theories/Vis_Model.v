(** Model of the nodes through which visibilities enter and leave a tree:
    MeqServer/src/Spigot.cc, MeqServer/src/Sink.cc, MeqServer/src/VisHandlerNode.cc
    and [ifrNumber] of VisCube/src/VisVocabulary.h.

    Simplifications.
    - An array is a function of its indices together with its shape, and the storage
      order is not modelled.  A tile column is a function of correlation, frequency
      and row; a two-dimensional column (frequency and row) uses correlation 0, a
      one-dimensional column uses correlation and frequency 0.
    - Reading and writing a tile is modelled as computing a new tile; the reference
      counting of tiles and the copying on write are not modelled.
    - The time axis is axis 0 and the frequency axis is axis 1 (asserted at
      Spigot.cc:164).
    - Single precision numbers [F] and double precision numbers [D] are arbitrary
      types, with the conversions between them given by a record.
    - When the two sides of a blitz assignment have different extents, the extents of
      the left hand side are used (blitz compares them only in debugging builds).
    - The output column is already present in the tile (Sink.cc:164-171 adds it
      otherwise).
    - Debug state (Spigot.cc:419, 432-450, 472) is left out. *)
From Verif Require Import Base Hiid_Model Rqid_Model.
Local Open Scope Z_scope.

(** VisVocabulary.h:176-181 *)
Definition ifrNumber0 (a b : Z) : Z := 2 * (Z.quot (a * (a + 1)) 2 + b).
Definition ifrNumber (ant1 ant2 : Z) : Z :=
  if ant1 <? ant2 then ifrNumber0 ant2 ant1 + 1 else ifrNumber0 ant1 ant2.

(** VisVocabulary.h:169 *)
Definition FlagMissing : Z := -1.

(** The numbers: [blitz::cast<double>] of a float, [blitz::cast] or [static_cast] of a
    double to float, the two zeroes, and the comparison with zero of Vells.h:313-315. *)
Record num (F D : Type) := mkNum {
  widen : F -> D;
  narrow : D -> F;
  f0 : F;
  d0 : D;
  is0 : D -> bool }.
Arguments widen {F D}.
Arguments narrow {F D}.
Arguments f0 {F D}.
Arguments d0 {F D}.
Arguments is0 {F D}.

(** The contents of a tile column, by its type; the indices are correlation, frequency
    and row.  [COther]: a type for which there is no code *)
Inductive content (F D : Type) : Type :=
| CDouble (a : nat -> nat -> nat -> D)
| CFloat (a : nat -> nat -> nat -> F)
| CComplex (a : nat -> nat -> nat -> F * F)
| COther.
Arguments CDouble {F D}.
Arguments CFloat {F D}.
Arguments CComplex {F D}.
Arguments COther {F D}.

(** A column: the shape of one cell ([VTile::Format::shape]) and the contents *)
Record column (F D : Type) := mkColumn { c_shape : list nat; c_data : content F D }.
Arguments mkColumn {F D}.
Arguments c_shape {F D}.
Arguments c_data {F D}.

Record tile (F D : Type) := mkTile {
  t_nrow : nat;
  t_ncorr : nat;
  t_cols : nat -> column F D;
  t_duvw : nat -> nat -> D;          (* coordinate, row *)
  t_flags : nat -> nat -> nat -> Z;  (* correlation, frequency, row *)
  t_rowflag : nat -> Z }.
Arguments mkTile {F D}.
Arguments t_nrow {F D}.
Arguments t_ncorr {F D}.
Arguments t_cols {F D}.
Arguments t_duvw {F D}.
Arguments t_flags {F D}.
Arguments t_rowflag {F D}.

(** An array of flags over time and frequency *)
Record fvells := mkFvells { g_shape : list nat; g_at : nat -> nat -> Z }.

(** Values over time and frequency, with flags or without *)
Inductive values (D : Type) : Type :=
| VReal (a : nat -> nat -> D)
| VCplx (a : nat -> nat -> D * D).
Arguments VReal {D}.
Arguments VCplx {D}.
Record vells (D : Type) := mkVells {
  v_shape : list nat;
  v_vals : values D;
  v_flags : option fvells }.
Arguments mkVells {D}.
Arguments v_shape {D}.
Arguments v_vals {D}.
Arguments v_flags {D}.

Record vellset (D : Type) := mkVellset {
  s_fail : bool;
  s_spids : nat;
  s_value : option (vells D) }.
Arguments mkVellset {D}.
Arguments s_fail {D}.
Arguments s_spids {D}.
Arguments s_value {D}.

Record result (D : Type) := mkResult { r_sets : list (vellset D); r_cells : option nat }.
Arguments mkResult {D}.
Arguments r_sets {D}.
Arguments r_cells {D}.

Definition emptySet {D} : vellset D := mkVellset false 0 None.

(** A row range: all rows, or from the first to the last (makeLoRange,
    Lorrays-Blitz.h:395).  Spigot.cc:182 *)
Definition range := option (nat * nat).
Definition rfirst (r : range) : nat := match r with Some (a, _) => a | None => 0%nat end.
Definition rcount (r : range) (nrow : nat) : nat :=
  match r with Some (a, b) => (b + 1 - a)%nat | None => nrow end.

(** Either a value or an exception *)
Inductive res (A : Type) : Type := Ok (a : A) | Fail.
Arguments Ok {A}.
Arguments Fail {A}.

(* ---------------------------------------------------------------- *)
(** * Spigot *)

(** Spigot.h: the state of the node; [p_uvw] is [colname_=="UVW"] *)
Record spigot (D : Type) := mkSpigot {
  p_uvw : bool;
  p_col : nat;
  p_flag_mask : Z;
  p_row_mask : Z;
  p_flag_bit : Z;
  p_ndims : nat;             (* the product of dims_ *)
  p_corr : list Z;
  p_derivs : bool;
  p_queue : list (list Z * result D) }.
Arguments mkSpigot {D}.
Arguments p_uvw {D}.
Arguments p_col {D}.
Arguments p_flag_mask {D}.
Arguments p_row_mask {D}.
Arguments p_flag_bit {D}.
Arguments p_ndims {D}.
Arguments p_corr {D}.
Arguments p_derivs {D}.
Arguments p_queue {D}.

(** The state with another queue *)
Definition with_queue {D} (p : spigot D) (q : list (list Z * result D)) : spigot D :=
  mkSpigot (p_uvw p) (p_col p) (p_flag_mask p) (p_row_mask p) (p_flag_bit p)
    (p_ndims p) (p_corr p) (p_derivs p) q.

(** Result::setVellSet in a result of [n] VellSets *)
Fixpoint setSet {D} (i : nat) (v : vellset D) (l : list (vellset D)) : list (vellset D) :=
  match l, i with
  | [], _ => []
  | _ :: l', O => v :: l'
  | x :: l', S i' => x :: setSet i' v l'
  end.

(** The assignment of a plane of a column to new Vells: setReal for doubles
    (Spigot.cc:252) and floats (294), setComplex for complex numbers (334-335);
    [None]: an invalid column type (361). *)
Definition plane {F D} (N : num F D) (c : content F D) (icorr r0 : nat) : option (values D) :=
  match c with
  | CDouble a => Some (VReal (fun t f => a icorr f (r0 + t)%nat))
  | CFloat a => Some (VReal (fun t f => widen N (a icorr f (r0 + t)%nat)))
  | CComplex a => Some (VCplx (fun t f => let '(x, y) := a icorr f (r0 + t)%nat in
                                          (widen N x, widen N y)))
  | COther => None
  end.

(** Spigot.cc:245-255, 286-297, 327-338: a VellSet for every entry of the correlation
    index; a negative entry leaves the VellSet empty, one beyond the planes of the tile
    is an error. *)
Fixpoint cubeSets {F D} (N : num F D) (c : content F D) (nplanes nfreq nrows r0 : nat)
    (corr : list Z) : res (list (vellset D)) :=
  match corr with
  | [] => Ok []
  | icorr :: corr' =>
      if icorr <? 0 then
        match cubeSets N c nplanes nfreq nrows r0 corr' with
        | Ok l => Ok (emptySet :: l)
        | Fail => Fail
        end
      else if Z.of_nat nplanes <=? icorr then Fail
      else match plane N c (Z.to_nat icorr) r0 with
           | None => Fail
           | Some v =>
               match cubeSets N c nplanes nfreq nrows r0 corr' with
               | Ok l => Ok (mkVellset false 0 (Some (mkVells [nrows; nfreq] v None)) :: l)
               | Fail => Fail
               end
           end
  end.

(** [blitz::any] of an array of flags with the given extents *)
Definition anyFlag (nt nf : nat) (g : nat -> nat -> Z) : bool :=
  existsb (fun t => existsb (fun f => negb (g t f =? 0)) (seq 0 nf)) (seq 0 nt).

(** Spigot.cc:402-403 and 232-233 *)
Definition override (bit : Z) (g : nat -> nat -> Z) : nat -> nat -> Z :=
  if bit =? 0 then g else fun t f => if g t f =? 0 then 0 else bit.

(** C++: a comparison used as an integer *)
Definition bool_int (b : bool) : Z := if b then 1 else 0.

(** Spigot.cc:381-398: the flags of one correlation.  With a flag mask the array has
    the shape of the data (383) and the flags of every row are merged in (387-389).
    Without, it has one element per row (394), and the row flags are assigned to the
    part [(0,LoRange::all())] of it (396-397): the first index of the array is time and
    the second frequency, so that this part is the single element of the first row. *)
Definition corrFlags {F D} (T : tile F D) (p : spigot D) (icorr nfreq nrows r0 : nat)
    : fvells :=
  let row j := Z.lor (Z.land (t_rowflag T (r0 + j)%nat) (p_row_mask p))
                     (bool_int (t_rowflag T (r0 + j)%nat =? FlagMissing)) in
  if negb (p_flag_mask p =? 0) then
    mkFvells [nrows; nfreq]
      (fun t f => Z.lor (Z.land (t_flags T icorr f (r0 + t)%nat) (p_flag_mask p)) (row t))
  else
    mkFvells [nrows; 1%nat]
      (fun t f => if (t =? 0)%nat then Z.lor 0 (row f) else 0).

(** Attaching flags to a VellSet with a value (VellSet::setDataFlags,
    VellSet.cc:500-509) *)
Definition attach {D} (g : fvells) (s : vellset D) : vellset D :=
  match s_value s with
  | Some v => mkVellset (s_fail s) (s_spids s) (Some (mkVells (v_shape v) (v_vals v) (Some g)))
  | None => s
  end.

(** Spigot.cc:373-408 *)
Fixpoint flagSets {F D} (T : tile F D) (p : spigot D) (nfreq nrows r0 : nat)
    (corr : list Z) (sets : list (vellset D)) : list (vellset D) :=
  match corr, sets with
  | icorr :: corr', s :: sets' =>
      (if icorr <? 0 then s
       else let g := corrFlags T p (Z.to_nat icorr) nfreq nrows r0 in
            let nf := nth 1 (g_shape g) 1%nat in
            if anyFlag nrows nf (g_at g)
            then attach (mkFvells (g_shape g) (override (p_flag_bit p) (g_at g))) s
            else s) :: flagSets T p nfreq nrows r0 corr' sets'
  | _, _ => sets
  end.

(** Spigot.cc:150-158 *)
Definition rowFlags {F D} (T : tile F D) (p : spigot D) (r0 : nat) : nat -> nat -> Z :=
  fun t _ => if t_rowflag T (r0 + t)%nat =? FlagMissing then FlagMissing
             else Z.land (t_rowflag T (r0 + t)%nat) (p_row_mask p).

(** Spigot.cc:199-237: the UVW column *)
Definition uvwSets {F D} (T : tile F D) (p : spigot D) (a : nat -> nat -> nat -> D)
    (nrows r0 : nat) : list (vellset D) :=
  let new v := mkVellset false 0 (Some (mkVells [nrows] v None)) in
  let base := repeat emptySet (p_ndims p) in
  let s1 := fold_left (fun l i => setSet i (new (VReal (fun t _ => a 0%nat i (r0 + t)%nat))) l)
              (seq 0 3) base in
  let s2 := if p_derivs p then
              fold_left (fun l i => setSet (i + 3)
                           (new (VReal (fun t _ => t_duvw T i (r0 + t)%nat))) l) (seq 0 3) s1
            else s1 in
  let g := rowFlags T p r0 in
  if anyFlag nrows 1 g
  then map (attach (mkFvells [nrows; 1%nat] (override (p_flag_bit p) g))) s2
  else s2.

(** Spigot.cc:245-408 for the VellSets of a result: the first VellSets of the
    result are those of [l] *)
Fixpoint setAll {D} (l base : list (vellset D)) : list (vellset D) :=
  match l, base with
  | v :: l', _ :: base' => v :: setAll l' base'
  | _, _ => base
  end.

(** Spigot.cc:162-430.  [cur] is [currentRequestId()]; [Fail]: an exception.  In a
    result whose dimensions are too small for the correlation index, setNewVellSet
    fails. *)
Definition deliverTile {F D} (N : num F D) (p : spigot D) (cur rqid : list Z) (cells : nat)
    (T : tile F D) (r : range) : res (spigot D) :=
  if hiid_eqb cur rqid then Fail
  else
    let col := t_cols T (p_col p) in
    let r0 := rfirst r in
    let nrows := rcount r (t_nrow T) in
    let base := repeat emptySet (p_ndims p) in
    let add sets := Ok (with_queue p (p_queue p ++ [(rqid, mkResult sets (Some cells))])) in
    match c_data col, p_uvw p with
    | CDouble a, true => add (uvwSets T p a nrows r0)
    | c, _ =>
        match c_shape col with
        | [nplanes; nfreq] =>
            match cubeSets N c nplanes nfreq nrows r0 (p_corr p) with
            | Fail => Fail
            | Ok l =>
                if (length l <=? p_ndims p)%nat then
                  add (flagSets T p nfreq nrows r0 (p_corr p) (setAll l base))
                else Fail
            end
        | [nfreq] =>
            match plane N c 0 r0 with
            | None => Fail
            | Some v => add (setAll [mkVellset false 0 (Some (mkVells [nrows; nfreq] v None))] base)
            end
        | [] =>
            match plane N c 0 r0 with
            | None => Fail
            | Some v => add (setAll [mkVellset false 0 (Some (mkVells [nrows] v None))] base)
            end
        | _ => Fail
        end
    end.

(** Spigot.cc:460-462 *)
Fixpoint discard {D} (rqid : list Z) (mask : Z) (q : list (list Z * result D))
    : list (list Z * result D) :=
  match q with
  | [] => []
  | (id, r) :: q' => if maskedCompare rqid id mask then q else discard rqid mask q'
  end.

(** NodeFace.h:62, 71, 79: the result codes used here *)
Definition RES_MISSING : Z := 0x040000.
Definition RES_UPDATED : Z := 0x010000.
Definition RES_FAIL : Z := 0x800000.

(** Spigot.cc:454-474.  [mask] is [getDependMask()]. *)
Definition spigotResult {D} (p : spigot D) (mask : Z) (rqid : list Z)
    : spigot D * (Z * result D) :=
  let q := discard rqid mask (p_queue p) in
  (with_queue p q,
   match q with
   | [] => (RES_MISSING, mkResult [emptySet] None)
   | (_, r) :: _ => (0, r)
   end).

(* ---------------------------------------------------------------- *)
(** * Sink *)

Record sink (F D : Type) := mkSink {
  k_rqid : list Z;
  k_tile : option (tile F D);
  k_range : range;
  k_col : option nat;         (* output_col; None: -1 *)
  k_corrs : list Z;           (* output_icorrs *)
  k_flag_mask : Z;
  k_flag_bit : Z }.
Arguments mkSink {F D}.
Arguments k_rqid {F D}.
Arguments k_tile {F D}.
Arguments k_range {F D}.
Arguments k_col {F D}.
Arguments k_corrs {F D}.
Arguments k_flag_mask {F D}.
Arguments k_flag_bit {F D}.

(** Sink.cc:50-57, for [iplane >= 0] *)
Definition mapOutputCorr (icorrs : list Z) (iplane : nat) : Z :=
  match icorrs with
  | [] => Z.of_nat iplane
  | _ => nth iplane icorrs (-1)
  end.

(** Sink.cc:130-145 *)
Definition sinkSets {D} (r : result D) : list (option (vellset D)) :=
  match r_sets r with
  | [s] => [Some s; None; None; Some s]
  | l => map Some l
  end.

(** Vells.h:350, 313-315 *)
Definition nelem (shape : list nat) : nat := fold_right Nat.mul 1%nat shape.
Definition isScalar {D} (v : vells D) : bool := (nelem (v_shape v) =? 1)%nat.
Definition isNullVells {F D} (N : num F D) (v : vells D) : bool :=
  isScalar v && match v_vals v with
                | VReal a => is0 N (a 0%nat 0%nat)
                | VCplx a => is0 N (fst (a 0%nat 0%nat)) && is0 N (snd (a 0%nat 0%nat))
                end.
(** VellSet.h:175-176 *)
Definition isNullSet {F D} (N : num F D) (s : vellset D) : bool :=
  match s_value s with
  | None => true
  | Some v => (s_spids s =? 0)%nat && isNullVells N v
  end.

(** Vells.h:368-378 *)
Fixpoint isCompatible (sub main : list nat) : bool :=
  match sub, main with
  | a :: sub', b :: main' => ((a =? 1)%nat || (a =? b)%nat) && isCompatible sub' main'
  | _, _ => true
  end.

Definition shape_eqb (a b : list nat) : bool :=
  (length a =? length b)%nat && forallb (fun '(x, y) => (x =? y)%nat) (combine a b).

(** Writing the values [w] (row within the range, frequency) into the rows of the range,
    at one correlation of a cube or in a two-dimensional column *)
Definition store {A} (rank3 : bool) (icorr r0 nrows : nat) (w : nat -> nat -> A)
    (a : nat -> nat -> nat -> A) : nat -> nat -> nat -> A :=
  fun c f row =>
    if ((c =? (if rank3 then icorr else 0))%nat && (r0 <=? row)%nat
        && (row <? r0 + nrows)%nat)%bool
    then w (row - r0)%nat f else a c f row.

(** What is written into the column for one VellSet, Sink.cc:184-237; [Fail]: an
    exception, or (184-190, for a null VellSet and a column that holds neither doubles nor
    complex numbers) complex zeroes stored into a column of some other type. *)
Definition writeData {F D} (N : num F D) (c : content F D) (rank3 : bool) (nfreq icorr : nat)
    (r0 nrows : nat) (s : option (vellset D)) : res (content F D) :=
  let null := match s with None => true | Some s => isNullSet N s end in
  let put_d w a := Ok (CDouble (store rank3 icorr r0 nrows w a)) in
  let put_c w a := Ok (CComplex (store rank3 icorr r0 nrows w a)) in
  if null then
    match c with
    | CDouble a => put_d (fun _ _ => d0 N) a
    | CComplex a => put_c (fun _ _ => (f0 N, f0 N)) a
    | _ => Fail
    end
  else
    match match s with Some s => s_value s | None => None end with
    | None => Fail
    | Some v =>
        let scalar := isScalar v in
        if negb scalar && negb (shape_eqb (v_shape v) [nrows; nfreq]) then Fail
        else
          match v_vals v, c with
          | VReal b, CDouble a =>
              put_d (fun t f => if scalar then b 0%nat 0%nat else b t f) a
          | VReal b, CComplex a =>
              put_c (fun t f => (narrow N (if scalar then b 0%nat 0%nat else b t f), f0 N)) a
          | VCplx b, CComplex a =>
              put_c (fun t f => let '(x, y) := if scalar then b 0%nat 0%nat else b t f in
                                (narrow N x, narrow N y)) a
          | _, _ => Fail
          end
    end.

(** What is written into the flags for one VellSet, Sink.cc:239-276.  [tnrow] and
    [nfreq] make up [colshape2] (179-180). *)
Definition writeFlags {F D} (N : num F D) (k : sink F D) (tnrow nfreq icorr r0 nrows : nat)
    (s : option (vellset D)) (fl : nat -> nat -> nat -> Z) : res (nat -> nat -> nat -> Z) :=
  let null := match s with None => true | Some s => isNullSet N s end in
  if null || (k_flag_mask k =? 0) then Ok fl
  else
    match match s with Some s => s_value s | None => None end with
    | None => Ok fl
    | Some v =>
        match v_flags v with
        | None => Ok (store true icorr r0 nrows (fun _ _ => 0) fl)
        | Some g =>
            let full := [tnrow; nfreq] in
            let out w := Ok (store true icorr r0 nrows
                           (fun t f => if k_flag_bit k =? 0 then w t f
                                       else if w t f =? 0 then 0 else k_flag_bit k) fl) in
            if shape_eqb (g_shape g) full then
              out (fun t f => Z.land (g_at g t f) (k_flag_mask k))
            else if isCompatible (g_shape g) full then
              if (2 <? length (g_shape g))%nat then Fail
              else
                let e i x := if (nth i (g_shape g) 1 =? 1)%nat then 0%nat else x in
                out (fun t f => Z.land (k_flag_mask k) (g_at g (e 0%nat t) (e 1%nat f)))
            else Ok fl
        end
    end.

(** Sink.cc:146-279: the loop over VellSets.  The state is the column contents, the
    flags, and whether anything was written. *)
Fixpoint writeSets {F D} (N : num F D) (k : sink F D) (T : tile F D) (rank3 : bool)
    (nfreq r0 nrows ivs : nat) (l : list (option (vellset D)))
    (st : content F D * (nat -> nat -> nat -> Z) * bool)
    : res (content F D * (nat -> nat -> nat -> Z) * bool) :=
  match l with
  | [] => Ok st
  | s :: l' =>
      let icorr := mapOutputCorr (k_corrs k) ivs in
      if (icorr <? 0) || (Z.of_nat (t_ncorr T) <=? icorr)
      then writeSets N k T rank3 nfreq r0 nrows (S ivs) l' st
      else
        let '(c, fl, _) := st in
        match writeData N c rank3 nfreq (Z.to_nat icorr) r0 nrows s with
        | Fail => Fail
        | Ok c' =>
            match writeFlags N k (t_nrow T) nfreq (Z.to_nat icorr) r0 nrows s fl with
            | Fail => Fail
            | Ok fl' => writeSets N k T rank3 nfreq r0 nrows (S ivs) l' (c', fl', true)
            end
        end
  end.

(** A tile with another output column and other flags *)
Definition with_data {F D} (T : tile F D) (col : nat) (c : content F D)
    (fl : nat -> nat -> nat -> Z) : tile F D :=
  mkTile (t_nrow T) (t_ncorr T)
    (fun i => if (i =? col)%nat then mkColumn (c_shape (t_cols T col)) c else t_cols T i)
    (t_duvw T) fl (t_rowflag T).

(** Whether any VellSet is to be written (Sink.cc:159: the tile is opened, and the shape
    of the column examined, when the first one is) *)
Definition opens {F D} (k : sink F D) (T : tile F D) (n : nat) : bool :=
  existsb (fun ivs => let icorr := mapOutputCorr (k_corrs k) ivs in
                      (0 <=? icorr) && (icorr <? Z.of_nat (t_ncorr T))) (seq 0 n).

(** Sink.cc:91-288: the result code, the child's result, and the tile attached to it *)
Definition sinkResult {F D} (N : num F D) (k : sink F D) (rqid : list Z) (child : result D)
    : sink F D * res (Z * result D * option (tile F D)) :=
  if negb (hiid_eqb rqid (k_rqid k)) then (k, Fail)
  else match k_tile k with
  | None => (k, Fail)
  | Some T =>
      let k' := mkSink (k_rqid k) None (k_range k) (k_col k) (k_corrs k)
                       (k_flag_mask k) (k_flag_bit k) in
      (k',
       match k_col k with
       | None => Ok (0, child, None)
       | Some col =>
           if existsb s_fail (r_sets child) then Ok (RES_FAIL, child, None)
           else
             let sets := sinkSets child in
             if negb (opens k T (length sets)) then Ok (0, child, None)
             else
               let write rank3 nfreq :=
                 match writeSets N k T rank3 nfreq (rfirst (k_range k))
                         (rcount (k_range k) (t_nrow T)) 0 sets
                         (c_data (t_cols T col), t_flags T, false) with
                 | Fail => Fail
                 | Ok (c, fl, _) => Ok (RES_UPDATED, child, Some (with_data T col c fl))
                 end in
               match c_shape (t_cols T col) with
               | [_; nfreq] => write true nfreq
               | [nfreq] => write false nfreq
               | _ => Fail
               end
       end)
  end.

(** Sink.cc:346-352 *)
Definition sinkDeliver {F D} (k : sink F D) (rqid : list Z) (T : tile F D) (r : range)
    : sink F D :=
  mkSink rqid (Some T) r (k_col k) (k_corrs k) (k_flag_mask k) (k_flag_bit k).
