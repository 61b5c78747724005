(** What tiled parameters mean, independently of the code: the cells are cut into tiles as for the Solver (Slv_Spec),
    and each tile has coefficients of its own. *)
From Coq Require Import QArith Qcanon.
From Verif Require Import Base Slv_Spec Vel_Spec Tpc_Model.
Close Scope Q_scope. Close Scope Qc_scope. Local Open Scope nat_scope.

(** number of cells along every axis, and the cells *)
Definition nc_of (c : tcells) : list nat := map (ncells c) (seq 0 MaxAxis).
Definition shape_of (c : tcells) : list nat := map (fun a => extent (ncells c a)) (seq 0 (k_rank c)).
Definition cells_of (c : tcells) : list (list nat) := points (shape_of c).
Definition index (idx : list nat) : list Z := map Z.of_nat idx.

(** A grid: cells of a size that counts, in order, without overlap, inside the domain; axes from the rank on have no
    cells; the domain has the axes that have cells *)
Definition tiny : Qc := Q2Qc (1 # 10000000000000000).
Record grid_ok (c : tcells) : Prop := {
  g_rank : 1 <= k_rank c <= MaxAxis;
  g_none : forall a, k_rank c <= a -> k_center c a = [];
  g_sizes : forall a, length (k_size c a) = length (k_center c a);
  g_size : forall a x, In x (k_size c a) -> (tiny < x)%Qc;
  g_order : forall a k, S k < ncells c a -> (cellEnd c a k <= cellStart c a (S k))%Qc;
  g_dom : length (k_dom c) = MaxAxis;
  g_axes : forall a, a < MaxAxis -> nth a (k_dom c) None = None <-> k_center c a = [];
  g_range : forall a r, nth a (k_dom c) None = Some r -> (fst r < snd r)%Qc /\ forall x, In x (k_center c a) -> (fst r <= x)%Qc /\ (x <= snd r)%Qc }.

(** A point is in a domain *)
Definition within (d : list (option (Qc * Qc))) (x : nat -> Qc) : Prop :=
  forall a r, nth a d None = Some r -> (fst r <= x a)%Qc /\ (x a <= snd r)%Qc.
(** the centre of a cell *)
Definition centre (c : tcells) (idx : list nat) (a : nat) : Qc := nth (nth a idx 0) (k_center c a) (Q2Qc 0).

(** A tiled parameter that was made for these cells and tile sizes: one funklet per tile, in the order of the tiles, and
    values that vary along every axis with more than one tile, and along no axis without cells *)
Record tiled_over (p : composed) (c : tcells) (tiling : list nat) : Prop := {
  o_doms : map t_dom (p_tiles p) = GetTiledDomains (k_dom c) c tiling;
  o_shape : forall a, 1 < nth a (tile_counts (nc_of c) tiling) 0 -> nth a (p_has p) false = true;
  o_has : forall a, nth a (p_has p) false = true -> k_center c a <> [] }.
