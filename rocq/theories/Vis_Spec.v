(** What the data path between tiles and trees is supposed to do, in terms of tiles and
    results only. *)
From Verif Require Import Base Vis_Model.
Local Open Scope Z_scope.

(** A number as users see it *)
Inductive number (D : Type) : Type := Re (x : D) | Cx (x y : D).
Arguments Re {D}.
Arguments Cx {D}.

(** The number in a tile column at a correlation, frequency and row *)
Definition sample {F D} (N : num F D) (c : content F D) (corr f row : nat)
    : option (number D) :=
  match c with
  | CDouble a => Some (Re (a corr f row))
  | CFloat a => Some (Re (widen N (a corr f row)))
  | CComplex a => Some (Cx (widen N (fst (a corr f row))) (widen N (snd (a corr f row))))
  | COther => None
  end.

(** An axis of extent one stands for a constant along the axis *)
Definition along (shape : list nat) (axis i : nat) : nat :=
  if Nat.eqb (nth axis shape 1%nat) 1 then 0%nat else i.

(** The value and the flags of a Vells at a time and frequency *)
Definition value {D} (v : vells D) (t f : nat) : number D :=
  let t := along (v_shape v) 0 t in
  let f := along (v_shape v) 1 f in
  match v_vals v with
  | VReal a => Re (a t f)
  | VCplx a => Cx (fst (a t f)) (snd (a t f))
  end.
Definition flag {D} (v : vells D) (t f : nat) : Z :=
  match v_flags v with
  | None => 0
  | Some g => g_at g (along (g_shape g) 0 t) (along (g_shape g) 1 f)
  end.

(** The rows of a range in a tile of [nrow] rows *)
Definition in_range (r : range) (nrow row : nat) : Prop :=
  match r with
  | None => (row < nrow)%nat
  | Some (a, b) => (a <= row <= b)%nat
  end.

(** A spigot is asked to regard a visibility as bad: one of the chosen bits of its flag
    or of the flag of its row is set, or its row is missing *)
Definition bad {F D} (p : spigot D) (T : tile F D) (corr f row : nat) : Prop :=
  Z.land (t_flags T corr f row) (p_flag_mask p) <> 0
  \/ Z.land (t_rowflag T row) (p_row_mask p) <> 0
  \/ t_rowflag T row = -1.
Definition bad_row {F D} (p : spigot D) (T : tile F D) (row : nat) : Prop :=
  Z.land (t_rowflag T row) (p_row_mask p) <> 0 \/ t_rowflag T row = -1.

(** VellSet [i] of a result goes to correlation [c] of the tile *)
Definition goes_to (corrs : list Z) (i c : nat) : Prop :=
  match corrs with
  | [] => i = c
  | _ => nth_error corrs i = Some (Z.of_nat c)
  end.

(** Of the [n] VellSets of a result, number [i] is the last that goes to correlation [c] *)
Definition last_for (corrs : list Z) (n i c : nat) : Prop :=
  (i < n)%nat /\ goes_to corrs i c /\
  forall j, (i < j < n)%nat -> ~ goes_to corrs j c.
Definition nothing_for (corrs : list Z) (n c : nat) : Prop :=
  forall j, (j < n)%nat -> ~ goes_to corrs j c.

(** The VellSets of a result as seen by a sink: a single one stands for the diagonal of a
    two by two matrix *)
Definition set_of {D} (r : result D) (i : nat) : option (vellset D) :=
  if Nat.eqb (length (r_sets r)) 1 then
    (if Nat.eqb i 0 || Nat.eqb i 3 then nth_error (r_sets r) 0 else None)%bool
  else nth_error (r_sets r) i.
Definition nsets {D} (r : result D) : nat :=
  if Nat.eqb (length (r_sets r)) 1 then 4%nat else length (r_sets r).

(** A VellSet that stands for zero: it has no value, or it has no perturbed values and
    its value is a single zero *)
Definition single {D} (v : vells D) : Prop := Forall (eq 1%nat) (v_shape v).
Definition zero {F D} (N : num F D) (s : vellset D) : Prop :=
  s_value s = None
  \/ exists v, s_value s = Some v /\ s_spids s = 0%nat /\ single v /\
       match value v 0 0 with
       | Re x => is0 N x = true
       | Cx x y => is0 N x = true /\ is0 N y = true
       end.

(** The number [x] is stored in the column of a tile *)
Definition stored {F D} (N : num F D) (c : content F D) (corr f row : nat) (x : number D)
    : Prop :=
  match c, x with
  | CDouble a, Re x => a corr f row = x
  | CComplex a, Re x => a corr f row = (narrow N x, f0 N)
  | CComplex a, Cx x y => a corr f row = (narrow N x, narrow N y)
  | _, _ => False
  end.
Definition stored_zero {F D} (N : num F D) (c : content F D) (corr f row : nat) : Prop :=
  match c with
  | CDouble a => a corr f row = d0 N
  | CComplex a => a corr f row = (f0 N, f0 N)
  | _ => False
  end.
(** Two columns hold the same at a place *)
Definition same_at {F D} (c c' : content F D) (corr f row : nat) : Prop :=
  match c, c' with
  | CDouble a, CDouble b => a corr f row = b corr f row
  | CFloat a, CFloat b => a corr f row = b corr f row
  | CComplex a, CComplex b => a corr f row = b corr f row
  | COther, COther => True
  | _, _ => False
  end.

(** A sink with a flag bit turns every flag into that bit *)
Definition with_bit (bit x : Z) : Z :=
  if Z.eqb bit 0 then x else if Z.eqb x 0 then 0 else bit.

(** What happens to a spigot: a tile is turned into a result that is queued, or a
    result is asked for *)
Inductive event (D : Type) : Type :=
| Arrive (id : list Z) (r : result D)
| Ask (id : list Z).
Arguments Arrive {D}.
Arguments Ask {D}.

Definition arrived {D} (l : list (event D)) : list (list Z * result D) :=
  flat_map (fun e => match e with Arrive id r => [(id, r)] | Ask _ => [] end) l.

(** An array of flags fits values of the given extents: along each axis it has the same
    extent, or is constant *)
Definition conforms (shape : list nat) (nt nf : nat) : Prop :=
  (length shape <= 2)%nat
  /\ (nth 0 shape 1%nat = 1%nat \/ nth 0 shape 1%nat = nt)
  /\ (nth 1 shape 1%nat = 1%nat \/ nth 1 shape 1%nat = nf).

(** A VellSet that can be written into a column: it stands for zero, or its value is a
    single number or an array over the rows and frequencies; complex numbers do not go
    into a column of doubles *)
Definition writable {F D} (N : num F D) (c : content F D) (nt nf : nat)
    (s : option (vellset D)) : Prop :=
  match s with
  | None => True
  | Some s =>
      zero N s \/
      exists v, s_value s = Some v /\ (single v \/ v_shape v = [nt; nf]) /\
        (forall g, v_flags v = Some g -> (length (g_shape g) <= 2)%nat) /\
        match c, v_vals v with
        | CDouble _, VReal _ => True
        | CComplex _, _ => True
        | _, _ => False
        end
  end.

(** For a two-dimensional column, every VellSet that goes to a correlation of the tile is
    written to the same place *)
Definition available (corrs : list Z) (ncorr i : nat) : Prop :=
  exists c, (c < ncorr)%nat /\ goes_to corrs i c.
Definition last_available (corrs : list Z) (ncorr n i : nat) : Prop :=
  (i < n)%nat /\ available corrs ncorr i /\
  forall j, (i < j < n)%nat -> ~ available corrs ncorr j.
