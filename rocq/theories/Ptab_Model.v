(** Model of the table of parameter values: Meq::FastParmTable
    (MEQ/src/FastParmTable.h, MEQ/src/FastParmTable.cc) and the two functions
    of Meq::Parm that use it (MeqNodes/src/ParmDBInterface.cc:323-407).

    The table is a file of domains and a QDBM depot, which is a map from byte
    strings to byte strings.  Keys and values are modelled byte for byte.

    Simplified:
    - ends of domains are rationals or plus infinity (the upper end used when a
      parameter ignores time); the differences taken by [match_] are exact.
    - a double that is stored as such is its 8 bytes.
    - the domain file is a list of 8-byte chunks: the 8 flags of an entry, and
      each of its 16 doubles (DomainEntry is 136 bytes, FastParmTable.h:62-64).
    - the cache of domain objects (domain_ref_list_) is left out: the object is
      always made from the entry, which has the same ends.
    - errors of the file system and of QDBM are left out, except for a missing key.
    - iteration over the keys (firstFunklet, nextFunklet), locking and
      getInitCoeff are left out. *)
From Coq Require Import QArith Qcanon.
From Verif Require Import Base Bytes_Model.
Close Scope Q_scope. Close Scope Qc_scope. Local Open Scope nat_scope.

(** An end of a domain. *)
Inductive num := Fin (q : Qc) | Inf.

(** Axis::MaxAxis, MEQ/src/Axis.h:46 *)
Definition MaxAxis : nat := 8.

(** A Domain, as far as the table looks at it, and a DomainEntry
    (FastParmTable.h:62-64): for each axis its range, if defined. *)
Notation domain := (list (option (num * num))) (only parsing).
Notation bytes := (list Z) (only parsing).

Definition axis (d : domain) (i : nat) : option (num * num) := nth i d None.

Definition qltb (x y : Qc) : bool := if Qclt_le_dec x y then true else false.
Definition qabs (x : Qc) : Qc := if qltb x (Q2Qc 0) then (- x)%Qc else x.

(** 1e-16, FastParmTable.cc:515-516 *)
Definition tiny : Qc := Q2Qc (1 # 10000000000000000).

(** [fabs(a-b) > 1e-16]; infinity minus infinity is not a number, for which the
    comparison is false *)
Definition apart (a b : num) : bool :=
  match a, b with
  | Fin x, Fin y => qltb tiny (qabs (x - y)%Qc)
  | Inf, Inf => false
  | _, _ => true
  end.

(** [a >= b] *)
Definition ge (a b : num) : bool :=
  match a, b with
  | Inf, _ => true
  | Fin _, Inf => false
  | Fin x, Fin y => negb (qltb x y)
  end.

(** DomainEntry::match, FastParmTable.cc:507-520 *)
Definition axis_match (e d : option (num * num)) : bool :=
  match e, d with
  | None, None => true
  | Some (a, b), Some (x, y) => negb (apart a x || apart b y)
  | _, _ => false
  end.
Definition match_ (e d : domain) : bool :=
  forallb (fun i => axis_match (axis e i) (axis d i)) (seq 0 MaxAxis).

(** DomainEntry::overlaps, FastParmTable.cc:522-535 *)
Definition axis_overlaps (e d : option (num * num)) : bool :=
  match e, d with
  | Some (a, b), Some (x, y) => negb (ge a y || ge x b)
  | _, _ => true
  end.
Definition overlaps (e d : domain) : bool :=
  forallb (fun i => axis_overlaps (axis e i) (axis d i)) (seq 0 MaxAxis).

(** The range kept by Domain::defineAxis, MEQ/src/Domain.cc:67-72 *)
Definition norm_range (a b : num) : num * num :=
  match a, b with
  | Fin x, Fin y => if Qc_eq_dec x y then (Fin (x - Q2Qc (1 # 1000000))%Qc, Fin y)
                    else if qltb y x then (b, a) else (a, b)
  | Inf, Fin _ => (b, a)
  | _, _ => (a, b)
  end.
(** DomainEntry::makeDomain, FastParmTable.cc:537-544 *)
Definition makeDomain (e : domain) : domain :=
  map (fun i => match axis e i with Some (a, b) => Some (norm_range a b) | None => None end)
      (seq 0 MaxAxis).

(** ** The file of domains *)

(** 8 bytes of the file: the 8 flags of an entry or one of its doubles *)
Inductive chunk := Cb (fl : list bool) | Cn (x : num).

(** DomainEntry::DomainEntry(domain), FastParmTable.cc:492-506, and the order of
    the members, FastParmTable.h:62-64 *)
Definition zero : num := Fin (Q2Qc 0).
Definition entry_chunks (d : domain) : list chunk :=
  Cb (map (fun i => match axis d i with Some _ => true | None => false end) (seq 0 MaxAxis))
  :: map (fun i => Cn (match axis d i with Some (a, _) => a | None => zero end)) (seq 0 MaxAxis)
  ++ map (fun i => Cn (match axis d i with Some (_, b) => b | None => zero end)) (seq 0 MaxAxis).
(** sizeof(DomainEntry), in chunks *)
Definition entry_size : nat := 17.

Section File.
(** What 8 flags look like when read as a double, and the other way round. *)
Variable as_num : list bool -> num.
Variable as_flags : num -> list bool.

Definition num_at (cs : list chunk) (i : nat) : num :=
  match nth i cs (Cn zero) with Cn x => x | Cb fl => as_num fl end.
Definition flags_at (cs : list chunk) (i : nat) : list bool :=
  match nth i cs (Cn zero) with Cb fl => fl | Cn x => as_flags x end.
(** one DomainEntry as read by fread *)
Definition read_entry (cs : list chunk) : domain :=
  map (fun i => if nth i (flags_at cs 0) false
                then Some (num_at cs (1 + i), num_at cs (1 + MaxAxis + i)) else None)
      (seq 0 MaxAxis).
(** FastParmTable::FastParmTable, FastParmTable.cc:73-84: as many entries as the
    file has room for *)
Fixpoint read_entries (n : nat) (cs : list chunk) : list domain :=
  match n with
  | O => []
  | S m => read_entry (firstn entry_size cs) :: read_entries m (skipn entry_size cs)
  end.
Definition read_file (cs : list chunk) : list domain :=
  read_entries (length cs / entry_size) cs.

(** ** The depot *)

Fixpoint beq (a b : bytes) : bool :=
  match a, b with
  | [], [] => true
  | x :: a', y :: b' => (x =? y)%Z && beq a' b'
  | _, _ => false
  end.
Notation depot := (list (bytes * bytes)) (only parsing).
(** dpget, dpvsiz *)
Fixpoint db_get (db : depot) (k : bytes) : option bytes :=
  match db with
  | [] => None
  | (k', v) :: r => if beq k' k then Some v else db_get r k
  end.
(** dpout *)
Fixpoint db_out (db : depot) (k : bytes) : depot :=
  match db with
  | [] => []
  | (k', v) :: r => if beq k' k then db_out r k else (k', v) :: db_out r k
  end.
(** dpput with DP_DOVER *)
Definition db_put (db : depot) (k v : bytes) : depot := (k, v) :: db_out db k.

(** FastParmTable::makeKey and keySize, FastParmTable.cc:187-193,
    FastParmTable.h:147-149 *)
Definition makeKey (name : bytes) (idom : nat) : bytes :=
  enc_i32 (Z.of_nat idom) ++ name ++ [0%Z].

(** ** Funklets *)

(** A Funklet: whether it is a Polc (or of a class derived from Polc) and of
    which class; its coefficients, its perturbation and weight, its domain and
    database id; and the rest of its record. *)
Variable rest : Type.
Record funk := { f_polc : bool;            (* dynamic_cast<const Polc*> *)
                 f_class : Z;              (* objectType() *)
                 f_coeff : list bytes;     (* 8 bytes each *)
                 f_pert : bytes; f_weight : bytes;
                 f_rest : rest;            (* axes, offsets, scales, ... *)
                 f_dom : domain;
                 f_id : Z }.

Definition set_id (f : funk) (i : Z) : funk :=
  {| f_polc := f_polc f; f_class := f_class f; f_coeff := f_coeff f; f_pert := f_pert f;
     f_weight := f_weight f; f_rest := f_rest f; f_dom := f_dom f; f_id := i |}.
(** Funklet::setDomain, MEQ/src/Funklet.cc:213-221: resets the id of a funklet
    that had a domain *)
Definition set_dom (f : funk) (d : domain) : funk :=
  {| f_polc := f_polc f; f_class := f_class f; f_coeff := f_coeff f; f_pert := f_pert f;
     f_weight := f_weight f; f_rest := f_rest f; f_dom := d; f_id := (-1)%Z |}.

(** TpMeqPolc, defaultPolcPerturbation, defaultPolcWeight (MEQ/src/Polc.h:42-43)
    and the rest of the record of a Polc made from one number *)
Variable tp_polc : Z.
Variable dflt_pert dflt_weight : bytes.
Variable dflt_rest : rest.
(** new Polc(c00,...) with a domain and id, FastParmTable.cc:213-222 *)
Definition new_polc (c00 : bytes) (d : domain) (i : Z) : funk :=
  {| f_polc := true; f_class := tp_polc; f_coeff := [c00]; f_pert := dflt_pert;
     f_weight := dflt_weight; f_rest := dflt_rest; f_dom := d; f_id := i |}.

(** Funklet::toBlock and DynamicTypeManager::construct (modelled elsewhere) *)
Variable enc : funk -> list bytes.
Variable dec : list bytes -> res funk.

(** ** Values *)

(** FastParmTable::putCoeff, FastParmTable.cc:392-412: the blocks, preceded by
    their number and sizes *)
Definition flatten (bs : list bytes) : bytes :=
  enc_u64 (Z.of_nat (length bs)) ++ enc_u64s (map (fun b => Z.of_nat (length b)) bs) ++ concat bs.

(** FastParmTable::putCoeff, FastParmTable.cc:381-418: the value stored *)
Definition value_of (f : funk) : res bytes :=
  if f_polc f && (length (f_coeff f) <=? 1) then       (* Polc::isConstant, Polc.h:99-100 *)
    match f_coeff f with
    | c00 :: _ => Ok c00
    | [] => UB                                          (* null pcoeff_ *)
    end
  else Ok (flatten (enc f)).

(** an int made from a size_t *)
Definition to_int (z : Z) : Z := to_signed 4 (z mod 2 ^ 32)%Z.

(** the sum of the sizes, FastParmTable.cc:238-240; size_t arithmetic, and the
    sizes are read without a check *)
Fixpoint add_sizes (n : nat) (v : bytes) (off : nat) (tot : Z) : res Z :=
  match n with
  | O => Ok tot
  | S m => if off + 8 <=? length v
           then add_sizes m v (off + 8) ((tot + dec_u64 (firstn 8 (skipn off v))) mod 2 ^ 64)%Z
           else UB
  end.
(** copying of the blocks, FastParmTable.cc:243-252 *)
Fixpoint copy_blocks (szs : list Z) (data : bytes) : res (list bytes) :=
  match szs with
  | [] => Ok []
  | s :: r => if (s <=? Z.of_nat (length data))%Z
              then bind (copy_blocks r (skipn (Z.to_nat s) data)) (fun bs =>
                   Ok (firstn (Z.to_nat s) data :: bs))
              else UB
  end.
(** FastParmTable::getFunklet, FastParmTable.cc:228-252: the blocks of a value *)
Definition unflatten (v : bytes) : res (list bytes) :=
  if length v <? 8 then UB                               (* dptr[0], 232 *)
  else
    let nblocks := to_int (dec_u64 (firstn 8 v)) in
    if (nblocks =? 2 ^ 31 - 1)%Z then UB                 (* nblocks+1 overflows, 235 *)
    else
      let hdr := ((8 * (nblocks + 1)) mod 2 ^ 64)%Z in
      if (Z.of_nat (length v) <? to_int hdr)%Z then Err  (* 236-237 *)
      else
        bind (add_sizes (Z.to_nat nblocks) v 8 hdr) (fun tot =>
        if negb (Z.of_nat (length v) =? to_int tot)%Z then Err   (* 241-242 *)
        else copy_blocks (dec_u64s (Z.to_nat nblocks) (skipn 8 v))
                         (skipn (8 + 8 * Z.to_nat nblocks) v)).

(** ** The table *)

(** What is on disk. *)
Record disk := { k_file : list chunk; k_db : depot }.
(** An open table: domain_list_, and what it has written. *)
Record table := { t_list : list domain; t_disk : disk }.

(** FastParmTable::FastParmTable, FastParmTable.cc:41-115 *)
Definition open_table (k : disk) : table :=
  {| t_list := read_file (k_file k); t_disk := k |}.
Definition new_disk : disk := {| k_file := []; k_db := [] |}.

(** FastParmTable::getFunklet, FastParmTable.cc:195-268 *)
Definition get_value (t : table) (idom : nat) (v : bytes) : res funk :=
  if length v =? 8 then                                  (* 211 *)
    match nth_error (t_list t) idom with
    | Some e => Ok (new_polc v (makeDomain e) (Z.of_nat idom))
    | None => UB
    end
  else bind (unflatten v) dec.
(** FastParmTable::getFunklet, FastParmTable.cc:270-277 *)
Definition getFunklet (t : table) (name : bytes) (idom : nat) : res (option funk) :=
  match db_get (k_db (t_disk t)) (makeKey name idom) with
  | None => Ok None
  | Some v => bind (get_value t idom v) (fun f => Ok (Some f))
  end.

(** FastParmTable::getFunklets, FastParmTable.cc:279-328 *)
Fixpoint get_from (t : table) (name : bytes) (dom : domain) (i : nat) (es : list domain)
  : res (list funk) :=
  match es with
  | [] => Ok []
  | e :: r =>
      if overlaps e dom then
        bind (getFunklet t name i) (fun o =>
        bind (get_from t name dom (S i) r) (fun fs =>
        Ok (match o with Some f => f :: fs | None => fs end)))
      else get_from t name dom (S i) r
  end.
Definition getFunklets (t : table) (name : bytes) (dom : domain) : res (list funk) :=
  get_from t name dom 0 (t_list t).

(** the search through the list of domains, backwards, FastParmTable.cc:349-357 *)
Fixpoint search (d : domain) (i : nat) (es : list domain) : option nat :=
  match es with
  | [] => None
  | e :: r => match search d (S i) r with
              | Some j => Some j
              | None => if match_ e d then Some i else None
              end
  end.
(** FastParmTable.cc:340-358: the entry a funklet belongs to *)
Definition find_domain (es : list domain) (d : domain) (dbid : Z) : option nat :=
  let hit := if ((0 <=? dbid) && (dbid <? Z.of_nat (length es)))%Z
             then match nth_error es (Z.to_nat dbid) with
                  | Some e => match_ e d | None => false end
             else false in
  if hit then Some (Z.to_nat dbid) else search d 0 es.

(** FastParmTable::putCoeff, FastParmTable.cc:330-420.  The file is open in
    append mode (70, 135), so that the entry is written at its end. *)
Definition putCoeff (t : table) (name : bytes) (f : funk) : res (table * nat) :=
  let d := f_dom f in
  let '(t1, i) :=
    match find_domain (t_list t) d (f_id f) with
    | Some i => (t, i)
    | None => ({| t_list := t_list t ++ [d];
                  t_disk := {| k_file := k_file (t_disk t) ++ entry_chunks d;
                               k_db := k_db (t_disk t) |} |}, length (t_list t))
    end in
  bind (value_of f) (fun v =>
  Ok ({| t_list := t_list t1;
         t_disk := {| k_file := k_file (t_disk t1);
                      k_db := db_put (k_db (t_disk t1)) (makeKey name i) v |} |}, i)).

Definition with_db (t : table) (db : depot) : table :=
  {| t_list := t_list t; t_disk := {| k_file := k_file (t_disk t); k_db := db |} |}.
(** FastParmTable::deleteFunklet, FastParmTable.cc:422-432 *)
Definition deleteFunklet (t : table) (name : bytes) (idom : nat) : res table :=
  match db_get (k_db (t_disk t)) (makeKey name idom) with
  | Some _ => Ok (with_db t (db_out (k_db (t_disk t)) (makeKey name idom)))
  | None => Err
  end.
(** FastParmTable::deleteAllFunklets, FastParmTable.cc:434-451 *)
Definition deleteAllFunklets (t : table) (name : bytes) : table :=
  with_db t (fold_left (fun db i => db_out db (makeKey name i))
                       (seq 0 (length (t_list t))) (k_db (t_disk t))).

(** ** Meq::Parm *)

(** What a parameter holds: a funklet or a ComposedPolc of several, with its domain *)
Inductive held := Single (f : funk) | Composed (fs : list funk) (d : domain).

(** ParmTable::putCoeff1, MEQ/src/ParmTable.h:58-59 *)
Definition putCoeff1 (t : table) (name : bytes) (f : funk) : res (table * funk) :=
  bind (putCoeff t name f) (fun r => Ok (fst r, set_id f (Z.of_nat (snd r)))).
Fixpoint putAll (t : table) (name : bytes) (fs : list funk) : res (table * list funk) :=
  match fs with
  | [] => Ok (t, [])
  | f :: r => bind (putCoeff1 t name f) (fun a =>
              bind (putAll (fst a) name r) (fun b => Ok (fst b, snd a :: snd b)))
  end.
(** Parm::save, ParmDBInterface.cc:323-346 *)
Definition save (t : table) (name : bytes) (h : held) : res (table * held) :=
  match h with
  | Single f => bind (putCoeff1 t name f) (fun a => Ok (fst a, Single (snd a)))
  | Composed fs d => bind (putAll t name fs) (fun a => Ok (fst a, Composed (snd a) d))
  end.

(** start and end of an axis, MEQ/src/Domain.h:73-83; both 0 for one not defined *)
Definition dstart (d : domain) (i : nat) : num :=
  match axis d i with Some (a, _) => a | None => zero end.
Definition dend (d : domain) (i : nat) : num :=
  match axis d i with Some (_, b) => b | None => zero end.

(** Parm::getFunkletFromDB, ParmDBInterface.cc:359-407, for a parameter without
    force_shape; [solvable], [tiled] and [reset] are isSolvable(), tiled_ and
    reset_funklet_ *)
Definition getFunkletFromDB (t : table) (name : bytes) (solvable tiled reset : bool) (dom : domain)
  : res (option held) :=
  bind (getFunklets t name dom) (fun fs =>
  match fs with
  | [] => Ok None
  | f :: r =>
      if (1 <? length fs) && (negb reset && (tiled || negb solvable))
      then Ok (Some (Composed fs dom))
      else
        let fd := f_dom f in
        if apart (dstart fd 0) (dstart dom 0) || apart (dstart fd 1) (dstart dom 1)
           || apart (dend fd 0) (dend dom 0) || apart (dend fd 1) (dend dom 1)
        then Ok (Some (Single (set_dom f dom)))
        else Ok (Some (Single f))
  end).

End File.

Arguments f_polc {rest} f.
Arguments f_class {rest} f.
Arguments f_coeff {rest} f.
Arguments f_pert {rest} f.
Arguments f_weight {rest} f.
Arguments f_rest {rest} f.
Arguments f_dom {rest} f.
Arguments f_id {rest} f.
