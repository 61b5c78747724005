(** What users mean by tiles, independently of the code: the cells of a grid cut into blocks, blocks and cells
    numbered with the last axis running fastest. *)
From Verif Require Import Base.

(** Row-major numbering of the points of a box *)
Definition box (shape : list nat) : nat := fold_right Nat.mul 1 shape.
Fixpoint row_major (shape idx : list nat) : nat :=
  match shape, idx with n :: shape, i :: idx => i * box shape + row_major shape idx | _, _ => 0 end.
Fixpoint point (shape : list nat) (j : nat) : list nat :=
  match shape with [] => [] | n :: shape => j / box shape :: point shape (j mod box shape) end.
Definition points (shape : list nat) : list (list nat) := map (point shape) (seq 0 (box shape)).

(** [nc]: number of cells per axis, 0 for an axis that the grid does not have.  [p]: tile sizes; 0, or nothing at
    the end of the list, for "not tiled". *)
Definition extent (n : nat) : nat := if n =? 0 then 1 else n.
Fixpoint is_cell (nc idx : list nat) : Prop :=
  match nc with [] => idx = [] | n :: nc => hd 0 idx < extent n /\ is_cell nc (tl idx) end.
(** the size of a tile along one axis *)
Definition tile_len (n p : nat) : nat := if p =? 0 then extent n else p.
Fixpoint tile_counts (nc p : list nat) : list nat :=
  match nc with
  | [] => []
  | n :: nc => let t := tile_len n (hd 0 p) in (extent n + t - 1) / t :: tile_counts nc (tl p)
  end.
Fixpoint tile_coords (nc p idx : list nat) : list nat :=
  match nc with
  | [] => []
  | n :: nc => hd 0 idx / tile_len n (hd 0 p) :: tile_coords nc (tl p) (tl idx)
  end.
(** the number of the tile with cell [idx], and the number of tiles *)
Definition tile_of (nc p idx : list nat) : nat := row_major (tile_counts nc p) (tile_coords nc p idx).
Definition tiles (nc p : list nat) : nat := box (tile_counts nc p).

(** No tile is larger than the grid, no axis is tiled that the grid does not have *)
Definition fits (nc p : list nat) : Prop := forall i, nth i p 0 <= nth i nc 0.
(** The grid has all the axes up to its last *)
Definition dense (nc : list nat) : Prop := forall i j, i < j -> nth i nc 0 = 0 -> nth j nc 0 = 0.
(** One tiling is at least as fine as the other along every axis *)
Definition len_at (nc p : list nat) (i : nat) : nat := tile_len (nth i nc 0) (nth i p 0).
Definition finer (nc p q : list nat) : Prop := forall i, len_at nc p i <= len_at nc q i.
(** the least tile length along an axis of [n] cells that is made of whole tiles of all these lengths, or has all
    the cells *)
Definition least_common (n : nat) (lens : list nat) (m : nat) : Prop :=
  0 < m <= n /\ (m = n \/ forall t, In t lens -> Nat.divide t m) /\
  forall m', 0 < m' < m -> exists t, In t lens /\ ~ Nat.divide t m'.
(** The grid without the axes after its last: the shape of the cells *)
Fixpoint grid (nc : list nat) : list nat :=
  match nc with
  | [] => []
  | n :: nc => match grid nc with [] => if n =? 0 then [] else [n] | g => extent n :: g end
  end.
