(** Model of the text form of identifiers: the registry of atomic names
    (DMI/src/Registry.h, DMI/src/AtomicID.cc), reading an identifier from a
    string and printing one (DMI/src/HIID.cc:31-35, 158-214, 291-377), and the
    two places of OCTOPython/src/DataConv.cc that turn Python record keys into
    identifiers and back (lines 228-232 and 757).

    A [std::string] is the list of its bytes, each a [Z] in [0,256). *)
From Verif Require Import Base Bytes_Model Hiid_Model.
Local Open Scope Z_scope.

Notation str := (list Z) (only parsing).

Definition str_eqb (a b : str) : bool := if list_eq_dec Z.eq_dec a b then true else false.

(** ** Characters.  C locale; a byte of 128 or more is left alone by [tolower]
    (the code passes it as a negative [char], which the C standard leaves
    undefined and glibc answers with the same value). *)
Definition tolower (c : Z) : Z := if (65 <=? c) && (c <=? 90) then c + 32 else c.
Definition isdigit (c : Z) : bool := (48 <=? c) && (c <=? 57).

(** AtomicID.cc:28-34 *)
Definition strlowercase (s : str) : str := map tolower s.

(** ** The registry.  AtomicID.cc:51 [DefineBiRegistry(AtomicID,0,"")]: a map from
    ids to names and a reverse map from names to ids, with 0 and "" standing for
    "not found". *)
Record registry := MkReg { r_map : list (Z * str); r_rmap : list (str * Z) }.
Definition reg_empty : registry := MkReg [] [].

Fixpoint map_find (k : Z) (m : list (Z * str)) : option str :=
  match m with
  | [] => None
  | (k', v) :: m' => if k =? k' then Some v else map_find k m'
  end.
Fixpoint rmap_find (s : str) (m : list (str * Z)) : option Z :=
  match m with
  | [] => None
  | (s', k) :: m' => if str_eqb s s' then Some k else rmap_find s m'
  end.
Fixpoint map_set (k : Z) (v : str) (m : list (Z * str)) : list (Z * str) :=
  match m with
  | [] => []
  | (k', v') :: m' => if k =? k' then (k', v) :: m' else (k', v') :: map_set k v m'
  end.

(** Registry.h:278-300 [UniRegistry::add] *)
Definition uni_add (key : Z) (v : str) (overwrite : bool) (m : list (Z * str))
  : res (list (Z * str)) :=
  match map_find key m with
  | None => Ok (m ++ [(key, v)])
  | Some v0 =>
      if str_eqb v0 v then Ok m
      else if overwrite then Ok (map_set key v m)
      else Err
  end.

(** Registry.h:352-360 [BiRegistry::add]; [std::map::insert] at line 359 leaves
    an existing entry alone.  An exception from line 355 leaves both maps as they were. *)
Definition bi_add (key : Z) (v rv : str) (overwrite : bool) (r : registry) : res registry :=
  bind (uni_add key v overwrite (r_map r)) (fun m =>
  Ok (MkReg m (match rmap_find rv (r_rmap r) with
               | None => r_rmap r ++ [(rv, key)]
               | Some _ => r_rmap r
               end))).

(** Registry.h:304-313 and 364-374; the defaults are those of AtomicID.cc:51 *)
Definition reg_find (r : registry) (key : Z) : str :=
  match map_find key (r_map r) with Some v => v | None => [] end.
Definition reg_rfind (r : registry) (s : str) : Z :=
  match rmap_find s (r_rmap r) with Some k => k | None => 0 end.

(** AtomicID.cc:111-114 (a static [Register] object, no overwriting) and
    127-133 ([registerId], with overwriting) *)
Definition register (key : Z) (v : str) (r : registry) : res registry :=
  bi_add key v (strlowercase v) false r.
Definition registerId (key : Z) (v : str) (r : registry) : res registry :=
  bi_add key v (strlowercase v) true r.

(** ** Decimal numbers *)
(** [sprintf("%d")] of a non-negative int: ten digits are enough *)
Fixpoint dec_fuel (fuel : nat) (n : Z) : str :=
  match fuel with
  | O => []
  | S f => if n <? 10 then [48 + n] else dec_fuel f (n / 10) ++ [48 + n mod 10]
  end.
Definition sprintf_d (n : Z) : str :=
  if n <? 0 then 45 :: dec_fuel 10 (- n) else dec_fuel 10 n.

(** [atoi] of a string of digits; a value outside [int] is undefined behaviour *)
Fixpoint digits_val (acc : Z) (s : str) : Z :=
  match s with
  | [] => acc
  | c :: s' => digits_val (10 * acc + (c - 48)) s'
  end.
Definition atoi (s : str) : res Z :=
  let v := digits_val 0 s in if v <? 2^31 then Ok v else UB.

(** AtomicID.cc:54-70.  [[?%d]] for an id nobody registered. *)
Definition aid_toString (r : registry) (a : Z) : str :=
  let idx := aid_index a in
  if 0 <=? idx then sprintf_d idx
  else
    let name := reg_find r a in
    if negb (Nat.eqb (length name) 0) then name
    else [91; 63] ++ sprintf_d a ++ [93].

(** AtomicID.cc:81-98.  [Ok None]: no such name. *)
Definition findName (r : registry) (s : str) : res (option Z) :=
  if forallb isdigit s then bind (atoi s) (fun a => Ok (Some a))
  else
    let a := reg_rfind r (strlowercase s) in
    Ok (if negb (a =? 0) then Some a else None).

(** ** Literal strings inside identifiers.  HIID.cc:32-35; the second constant is
    the [int] with the bits 0xFFFF0000. *)
Definition LITERAL_MARKER : Z := 2147418112.
Definition LITERAL_MASK : Z := -65536.
Definition LITERAL_LENGTH_MASK : Z := 65535.
Definition LITERAL_RATIO : nat := 4.

(** HIID.cc:291-306: the marker, with the length or'ed into it, then the bytes of
    the string padded with 0xFF to whole atoms (the [memset] of line 305; its
    comment says nulls).  Only called with [ipos = size()], so [resize] appends. *)
Definition makeLiteral (s : str) (h : hiid) : hiid :=
  let len := length s in
  let size := ((len + LITERAL_RATIO - 1) / LITERAL_RATIO)%nat in
  let bufsize := (size * LITERAL_RATIO)%nat in
  h ++ dec_i32 (enc_i32 (Z.lor LITERAL_MARKER (Z.of_nat len)))
    :: dec_i32s size (s ++ repeat 255 (bufsize - len)).

(** ** Reading.  [find_first_of]: the part before the first separator, and, if
    there is one, that separator and the part after it. *)
Fixpoint split_first (seps : list Z) (s : str) : str * option (Z * str) :=
  match s with
  | [] => ([], None)
  | c :: s' =>
      if existsb (Z.eqb c) seps then ([], Some (c, s'))
      else let '(n, r) := split_first seps s' in (c :: n, r)
  end.

(** HIID.cc:339-351 and 363-372, the treatment of one non-empty field; returns the
    identifier so far.  A leading '$' (36) makes a literal. *)
Definition add_field (r : registry) (allow : bool) (name : str) (h : hiid) : res hiid :=
  match name with
  | 36 :: rest => Ok (makeLiteral (strlowercase rest) h)
  | _ =>
      bind (findName r name) (fun f =>
      match f with
      | Some a => Ok (h ++ [a])
      | None => if allow then Ok (makeLiteral (strlowercase name) h) else Err
      end)
  end.

(** line 343: a field with a '$' allows literals from then on (only inside the
    loop; the last field, lines 365-366, does not need it) *)
Definition allow_after (allow : bool) (name : str) : bool :=
  match name with 36 :: _ => true | _ => allow end.

(** HIID.cc:325-376.  [s] is the part of the string from [p0] on.  One unit of
    fuel per field; [addString] gives enough. *)
Fixpoint add_loop (fuel : nat) (r : registry) (seps : list Z) (allow : bool)
    (s : str) (h : hiid) : res hiid :=
  match fuel with
  | O => UB
  | S fuel' =>
      match s with
      | [] => Ok (h ++ [AidEmpty])                                  (* 327-331 *)
      | _ =>
          match split_first seps s with
          | (name, Some (c, s')) =>                                  (* 335-360 *)
              bind (match name with
                    | [] => Ok (h ++ [AidEmpty])
                    | _ => add_field r allow name h
                    end) (fun h1 =>
              let h2 := if c =? 47 then h1 ++ [AidSlash]
                        else if c =? 58 then h1 ++ [AidRange] else h1 in
              add_loop fuel' r seps (allow_after allow name) s' h2)
          | (name, None) => add_field r allow name h                 (* 361-374 *)
          end
      end
  end.

(** HIID.cc:309-377; [sepset] gets "/:" appended (line 324) *)
Definition addString (r : registry) (s : str) (sepset : list Z) (allow : bool) (h : hiid)
  : res hiid :=
  match s with
  | [] => Ok h
  | _ => add_loop (S (length s)) r (sepset ++ [47; 58]) allow s h
  end.

(** HIID.h:333-351: the constructors.  "._" is the default set of separators. *)
Definition hiid_of_string (r : registry) (s : str) : res hiid :=
  addString r s [46; 95] false [].
Definition hiid_of_string_sep (r : registry) (s : str) (allow : bool) (sepset : list Z)
  : res hiid :=
  addString r s sepset allow [].

(** ** Printing.  HIID.cc:189-214, the atoms from [iter] on.  A literal whose
    length says more atoms than are left makes the code read past the end of the
    vector (202) and step over [end()] (203): undefined.  A literal of length 0
    takes no atoms beyond its marker (line 203 steps back by one). *)
Fixpoint print_loop (fuel : nat) (r : registry) (separator : Z) (mark_lit : bool)
    (h : hiid) (sep : bool) : res str :=
  match fuel with
  | O => UB
  | S fuel' =>
      match h with
      | [] => Ok []
      | a :: h' =>
          if Z.land a LITERAL_MASK =? LITERAL_MARKER then
            let len := Z.to_nat (Z.land a LITERAL_LENGTH_MASK) in
            let size := ((len + LITERAL_RATIO - 1) / LITERAL_RATIO)%nat in
            if Nat.ltb (length h') size then UB
            else
              bind (print_loop fuel' r separator mark_lit (skipn size h') false) (fun t =>
              Ok ((if sep then [] else [separator])
                  ++ (if mark_lit then [36] else [])
                  ++ firstn len (enc_i32s (firstn size h')) ++ t))
          else
            let newsep := (a =? AidSlash) || (a =? AidRange) in
            bind (print_loop fuel' r separator mark_lit h' newsep) (fun t =>
            Ok ((if negb sep && negb newsep then [separator] else [])
                ++ aid_toString r a ++ t))
      end
  end.

(** HIID.cc:158-216; an empty identifier prints as "(null)" *)
Definition toString (r : registry) (separator : Z) (mark_lit : bool) (h : hiid) : res str :=
  match h with
  | [] => Ok [40; 110; 117; 108; 108; 41]
  | _ => print_loop (S (length h)) r separator mark_lit h true
  end.

(** ** Record keys crossing between Python and C++.
    DataConv.cc:231: literals allowed, separators "._" *)
Definition key_of_python (r : registry) (s : str) : res hiid :=
  hiid_of_string_sep r s true [46; 95].
(** DataConv.cc:757: separator '_', literals not marked, lower case *)
Definition python_of_key (r : registry) (h : hiid) : res str :=
  bind (toString r 95 false h) (fun s => Ok (strlowercase s)).

(** ** Several registrations in a row.  An exception from one leaves the registry
    as it was (see [bi_add]). *)
Definition reg_step (r : registry) (key : Z) (v : str) (overwrite : bool) : registry :=
  match (if overwrite then registerId key v r else register key v r) with
  | Ok r' => r'
  | _ => r
  end.
(** AtomicID.cc:117-124: "0" "?" "*" "/" ":" "_" "#" *)
Definition reg_basic : registry :=
  fold_left (fun r kv => reg_step r (fst kv) (snd kv) true)
    [(AidNull, [48]); (AidAny, [63]); (AidWildcard, [42]); (AidSlash, [47]);
     (AidRange, [58]); (AidEmpty, [95]); (AidHash, [35])] reg_empty.
