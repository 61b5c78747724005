(** What the text form of identifiers should mean, stated without the code:
    strings made of fields and separators, what a field stands for, what a
    history of registrations makes known. *)
From Verif Require Import Base.
Local Open Scope Z_scope.

(** a string as fields [f0 c0 f1 c1 ... f], the [c]s being separators *)
Fixpoint join (fcs : list (list Z * Z)) (f : list Z) : list Z :=
  match fcs with
  | [] => f
  | (g, c) :: fcs' => g ++ c :: join fcs' f
  end.

Definition free_of (seps f : list Z) : Prop := forall c, In c f -> ~ In c seps.
Definition splits (seps : list Z) (fcs : list (list Z * Z)) (f : list Z) : Prop :=
  free_of seps f /\ Forall (fun gc => free_of seps (fst gc) /\ In (snd gc) seps) fcs.

(** letter case *)
Definition lower (c : Z) : Z := if (65 <=? c) && (c <=? 90) then c + 32 else c.
Definition lower_str (s : list Z) : list Z := map lower s.
Definition upper_letter (c : Z) : Prop := 65 <= c <= 90.
Definition lower_letter (c : Z) : Prop := 97 <= c <= 122.
(** the same but for the case of letters *)
Definition same_but_case (s t : list Z) : Prop := lower_str s = lower_str t.

(** decimal numbers *)
Definition digit (c : Z) : Prop := 48 <= c <= 57.
Fixpoint decimal (s : list Z) : Z :=
  match s with
  | [] => 0
  | c :: s' => (c - 48) * 10 ^ Z.of_nat (length s') + decimal s'
  end.

(** four bytes of a 32-bit two's complement integer, least significant first *)
Definition word (a b0 b1 b2 b3 : Z) : Prop :=
  - 2^31 <= a < 2^31 /\
  a mod 2^32 = b0 + 256 * b1 + 65536 * b2 + 16777216 * b3.

(** the string kept inside an identifier: a marker with the length, then the
    bytes four to an atom, with 0xFF filling up the last one *)
Inductive packed : list Z -> list Z -> Prop :=
| packed_nil : packed [] []
| packed_1 : forall a b0, word a b0 255 255 255 -> packed [b0] [a]
| packed_2 : forall a b0 b1, word a b0 b1 255 255 -> packed [b0; b1] [a]
| packed_3 : forall a b0 b1 b2, word a b0 b1 b2 255 -> packed [b0; b1; b2] [a]
| packed_4 : forall a b0 b1 b2 b3 s h,
    word a b0 b1 b2 b3 -> packed s h -> packed (b0 :: b1 :: b2 :: b3 :: s) (a :: h).
Definition literal (s : list Z) (h : list Z) : Prop :=
  exists h', h = (2147418112 + Z.of_nat (length s)) :: h' /\ packed s h'.

Definition byte (c : Z) : Prop := 0 <= c < 256.
Definition ascii (c : Z) : Prop := 0 <= c < 128.

(** what a field stands for, given the names known ([named s k]: the lower case
    name [s] belongs to the id [k]) *)
Inductive field_means (named : list Z -> Z -> Prop) (allow : bool) : list Z -> list Z -> Prop :=
| fm_empty : field_means named allow [] [-5]
| fm_dollar : forall s h, literal (lower_str s) h -> field_means named allow (36 :: s) h
| fm_number : forall s, s <> [] -> Forall digit s -> decimal s < 2^31 ->
    field_means named allow s [decimal s]
| fm_name : forall s k, ~ Forall digit s -> hd_error s <> Some 36 -> named (lower_str s) k ->
    field_means named allow s [k]
| fm_other : forall s h, allow = true -> ~ Forall digit s -> hd_error s <> Some 36 ->
    (forall k, ~ named (lower_str s) k) -> literal (lower_str s) h ->
    field_means named allow s h.

Definition sep_atoms (c : Z) : list Z :=
  if c =? 47 then [-3] else if c =? 58 then [-4] else [].

(** a field whose bytes, if they are to be kept as a literal, can be counted in
    16 bits; the '$' in front is not one of them *)
Definition payload (s : list Z) : list Z := match s with 36 :: t => t | _ => s end.
Definition short (s : list Z) : Prop := Z.of_nat (length (payload s)) < 65536.
Definition fits (s : list Z) : Prop := Forall byte s /\ short s.
Definition fields_fit (fcs : list (list Z * Z)) (f : list Z) : Prop :=
  Forall (fun gc => fits (fst gc)) fcs /\ fits f.

(** what a string of fields stands for: a '$' field lets the later ones be
    literal, too *)
Inductive reads (named : list Z -> Z -> Prop) : bool -> list (list Z * Z) -> list Z -> list Z -> Prop :=
| reads_last : forall allow f h, field_means named allow f h -> reads named allow [] f h
| reads_more : forall allow g c fcs f h1 h2,
    field_means named allow g h1 ->
    reads named (match g with 36 :: _ => true | _ => allow end) fcs f h2 ->
    reads named allow ((g, c) :: fcs) f (h1 ++ sep_atoms c ++ h2).

(** ** Registrations *)
Record reg_event := MkEv { ev_key : Z; ev_name : list Z; ev_over : bool }.
(** the latest name given to an id, the first id to take a name *)
Fixpoint latest (l : list reg_event) (k : Z) : option (list Z) :=
  match l with
  | [] => None
  | e :: l' => match latest l' k with
               | Some s => Some s
               | None => if ev_key e =? k then Some (ev_name e) else None
               end
  end.
Definition first_with (l : list reg_event) (s : list Z) : option Z :=
  option_map ev_key
    (find (fun e => if list_eq_dec Z.eq_dec (lower_str (ev_name e)) s then true else false) l).
(** the registrations that take effect: all but those that would, without leave to
    overwrite, give a new name to an id that has one *)
Inductive takes_effect : list reg_event -> list reg_event -> Prop :=
| te_nil : takes_effect [] []
| te_yes : forall H A e, takes_effect H A ->
    ev_over e = true \/ latest A (ev_key e) = None \/ latest A (ev_key e) = Some (ev_name e) ->
    takes_effect (H ++ [e]) (A ++ [e])
| te_no : forall H A e s, takes_effect H A ->
    ev_over e = false -> latest A (ev_key e) = Some s -> s <> ev_name e ->
    takes_effect (H ++ [e]) A.

(** ** Identifiers that have a text form *)
Inductive item := Idx (n : Z) | Nm (k : Z) (name : list Z) | Lit (s : list Z).
Inductive item_atoms : item -> list Z -> Prop :=
| ia_idx : forall n, item_atoms (Idx n) [n]
| ia_nm : forall k s, item_atoms (Nm k s) [k]
| ia_lit : forall s h, literal s h -> item_atoms (Lit s) h.
(** the decimal numeral of [n]: digits of value [n], without leading zeros *)
Definition numeral (n : Z) (s : list Z) : Prop :=
  s <> [] /\ Forall digit s /\ decimal s = n /\ (hd_error s = Some 48 -> s = [48]).
Inductive item_text (mark : bool) : item -> list Z -> Prop :=
| it_idx : forall n s, numeral n s -> item_text mark (Idx n) s
| it_nm : forall k s, item_text mark (Nm k s) s
| it_lit : forall s, item_text mark (Lit s) (if mark then 36 :: s else s).

(** items following one another with '.', '/' or ':' between; [sep] is how '.' is
    written *)
Inductive chain_atoms : item -> list (Z * item) -> list Z -> Prop :=
| ca_one : forall i h, item_atoms i h -> chain_atoms i [] h
| ca_more : forall i c j l h1 h2, item_atoms i h1 -> chain_atoms j l h2 ->
    chain_atoms i ((c, j) :: l) (h1 ++ sep_atoms c ++ h2).
Inductive chain_text (mark : bool) : item -> list (Z * item) -> list Z -> Prop :=
| ct_one : forall i s, item_text mark i s -> chain_text mark i [] s
| ct_more : forall i c j l s1 s2, item_text mark i s1 -> chain_text mark j l s2 ->
    chain_text mark i ((c, j) :: l) (s1 ++ c :: s2).

(** an item that its text identifies: an index below the range of the literal
    markers; an id whose name leads back to it and has no separators in it; a
    literal in lower case, short enough, without separators, and, when literals
    are not marked, not to be taken for something else *)
Inductive item_ok (named : list Z -> Z -> Prop) (name_of : Z -> list Z) (seps : list Z) (mark : bool)
  : item -> Prop :=
| ok_idx : forall n, 0 <= n < 2147418112 -> item_ok named name_of seps mark (Idx n)
| ok_nm : forall k s, k < 0 -> k <> -3 -> k <> -4 ->
    name_of k = s -> named (lower_str s) k ->
    ~ Forall digit s -> hd_error s <> Some 36 -> free_of seps s ->
    Forall byte s -> Z.of_nat (length s) < 65536 ->
    item_ok named name_of seps mark (Nm k s)
| ok_lit : forall s, Forall byte s -> lower_str s = s -> free_of seps s ->
    Z.of_nat (length s) < 65536 ->
    (mark = false -> ~ Forall digit s /\ hd_error s <> Some 36 /\ forall k, ~ named s k) ->
    item_ok named name_of seps mark (Lit s).

(** separators that can be neither part of a number nor the sign of a literal *)
Definition plain_seps (seps : list Z) : Prop := forall c, In c seps -> ~ digit c /\ c <> 36.
(** an identifier all of whose items can be told from their text, with [sep]
    written for '.' *)
Definition chain_ok (named : list Z -> Z -> Prop) (name_of : Z -> list Z) (seps : list Z)
    (mark : bool) (sep : Z) (i : item) (l : list (Z * item)) : Prop :=
  item_ok named name_of seps mark i /\
  Forall (fun cj => (fst cj = sep \/ fst cj = 47 \/ fst cj = 58) /\
                    item_ok named name_of seps mark (snd cj)) l.

(** '.' written as '_' *)
Definition dot_us (c : Z) : Z := if c =? 46 then 95 else c.
