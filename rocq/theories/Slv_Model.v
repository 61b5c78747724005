(** MeqNodes/src/Solver.cc, Solver.h: tilings, the table of unknowns, which unknown an equation is about, and
    the order of the updates sent back to the parms.

    Left out: the numbers (derivatives, weights, flags, the least-squares solver itself), the debug records, and
    convergence.  A subsolver is its number; an unknown is a subsolver with an index into its solution vector.
    [int] is [nat] or [Z] (no overflow); tile sizes of parms are not negative. *)
From Verif Require Import Base.

(** MEQ/src/Axis.h:46 *)
Definition MaxAxis : nat := 8.

(** ** DimVector, Solver.h:196-249: an int per axis *)
Notation dims := (list nat) (only parsing).
Definition at0 (l : list nat) (i : nat) : nat := nth i l 0.
(** operator<, Solver.h:210-219 *)
Fixpoint dv_lt_go (equal : bool) (a b : dims) : bool :=
  match a, b with
  | x :: a, y :: b => if y <? x then false else dv_lt_go (if x <? y then false else equal) a b
  | _, _ => negb equal
  end.
Definition dv_lt (a b : dims) : bool := dv_lt_go true a b.

(** ** Tiling, Solver.h:258-311 *)
Record axis := { a_num : nat; a_size : nat; a_stride : nat }. (* num_tiles[i], tile_size[i], tile_stride[i] *)
Record tiling := { t_axes : list axis; t_total : nat }.
(** init, Solver.cc:204-228; the loop runs from the last axis to the first *)
Fixpoint init_axes (tsz shape : dims) : list axis * nat :=
  match tsz, shape with
  | t :: tsz, n :: shape =>
      let '(l, total) := init_axes tsz shape in
      if n =? 0 then ({| a_num := 0; a_size := t; a_stride := 0 |} :: l, total)
      else if t =? 0 then ({| a_num := 1; a_size := n; a_stride := total |} :: l, total * 1)
      else let k := n / t + (if n mod t =? 0 then 0 else 1) in
           ({| a_num := k; a_size := t; a_stride := total |} :: l, total * k)
  | _, _ => ([], 1)
  end.
Definition init (tsz shape : dims) : tiling := let '(l, total) := init_axes tsz shape in {| t_axes := l; t_total := total |}.
(** activate, Solver.h:288-296: dimcount.clear() and cur_tile = 0 *)
Definition fresh (t : tiling) : list nat := map (fun _ => 0) (t_axes t).
(** advance, Solver.cc:230-256: the new dimcount and by how much cur_tile changes *)
Fixpoint advance_axes (l : list axis) (dc : list nat) (idim : nat) : list nat * Z :=
  match l, dc with
  | a :: l, c :: dc =>
      match idim with
      | O => if a_size a <=? S c then (0 :: map (fun _ => 0) dc, 1%Z)
             else (S c :: map (fun _ => 0) dc, (- (Z.of_nat (a_stride a) - 1))%Z)
      | S idim => let '(dc, d) := advance_axes l dc idim in (c :: dc, d)
      end
  | _, _ => (dc, 0%Z)
  end.
Definition advance (t : tiling) (dc : list nat) (cur : Z) (idim : nat) : list nat * Z :=
  let '(dc, d) := advance_axes (t_axes t) dc idim in (dc, (cur + d)%Z).

(** ** Vells::DimCounter, MEQ/src/Vells.h:700-762.  The last index runs fastest.  incr() gives the number [ndim]
    of indices it changed, counted from the end; here the first of them, rank - ndim, or [None] at the end *)
Fixpoint incr (shape idx : list nat) : list nat * option nat :=
  match shape, idx with
  | n :: shape, i :: idx =>
      match incr shape idx with
      | (idx, Some d) => (i :: idx, Some (S d))
      | (idx, None) => if n <=? S i then (0 :: idx, None) else (S i :: idx, Some 0)
      end
  | _, _ => (idx, None)
  end.

(** ** populateSpidMap, Solver.cc:279-541 *)
(** An entry of the spid map: spid, index of the node, solve group, tile sizes *)
Record spidrec := { r_spid : Z; r_node : Z; r_group : Z; r_tiles : dims }.
Record spinfo := { i_spid : Z; i_node : Z; i_group : nat; i_tiling : nat; i_nuk : nat }. (* SpidInfo; ptiling is an index here *)

(** lines 322-348: the tile sizes asked for, per axis.  [ptsz[i]] beyond the end of the vector counts as 0 *)
Fixpoint norm_tiles (nc ptsz : dims) : res dims :=
  match nc with
  | [] => Ok []
  | n :: nc =>
      let p := hd 0 ptsz in
      if (n =? 0) && negb (p =? 0) then Err
      else bind (norm_tiles nc (tl ptsz)) (fun l => Ok ((if (n =? 0) || (p =? 0) then n else p) :: l))
  end.
Fixpoint max_tiles (nc ptsz st : dims) : dims :=
  match nc, st with
  | n :: nc, s :: st =>
      let p := hd 0 ptsz in
      (if n =? 0 then s else if p =? 0 then n else Nat.max s p) :: max_tiles nc (tl ptsz) st
  | _, _ => st
  end.
(** lines 350-358: find or insert.  std::map treats two keys as the same if neither is less.  The operator above
    is no strict weak order, so that C++ promises nothing once two keys are incomparable; the first equivalent key
    in the order of insertion is what is found in a map with one key. *)
Definition same_key (a b : dims) : bool := negb (dv_lt a b) && negb (dv_lt b a).
Fixpoint find_tiling (k : dims) (l : list (dims * tiling)) : option nat :=
  match l with
  | [] => None
  | (k', _) :: l => if same_key k k' then Some 0 else option_map S (find_tiling k l)
  end.
Definition get_tiling (k nc : dims) (l : list (dims * tiling)) : nat * list (dims * tiling) :=
  match find_tiling k l with Some i => (i, l) | None => (length l, l ++ [(k, init k nc)]) end.
(** lines 310-320 *)
Fixpoint find_group (g : Z) (l : list Z) : option nat :=
  match l with [] => None | h :: l => if (g =? h)%Z then Some 0 else option_map S (find_group g l) end.
Definition get_group (g : Z) (l : list Z) : nat * list Z :=
  match find_group g l with Some i => (i, l) | None => (length l, l ++ [g]) end.
(** spids_, a std::map by spid *)
Fixpoint put_spid (s : spinfo) (l : list spinfo) : list spinfo :=
  match l with
  | [] => [s]
  | x :: l => if (i_spid s <? i_spid x)%Z then s :: x :: l else if (i_spid s =? i_spid x)%Z then s :: l else x :: put_spid s l
  end.
Record stage1 := { p_spids : list spinfo; p_tilings : list (dims * tiling); p_groups : list Z; p_tsz : dims; p_nuk : nat }.
(** lines 301-367, one entry *)
Definition add_spid (nc : dims) (r : spidrec) (p : stage1) : res stage1 :=
  let '(g, groups) := get_group (r_group r) (p_groups p) in
  bind (norm_tiles nc (r_tiles r)) (fun k =>
  let '(i, tilings) := get_tiling k nc (p_tilings p) in
  let nuk := t_total (snd (nth i tilings ([], init [] []))) in
  Ok {| p_spids := put_spid {| i_spid := r_spid r; i_node := r_node r; i_group := g; i_tiling := i; i_nuk := nuk |} (p_spids p);
        p_tilings := tilings; p_groups := groups; p_tsz := max_tiles nc (r_tiles r) (p_tsz p); p_nuk := p_nuk p + nuk |}).
Fixpoint add_spids (nc : dims) (rs : list spidrec) (p : stage1) : res stage1 :=
  match rs with [] => Ok p | r :: rs => bind (add_spid nc r p) (add_spids nc rs) end.
Definition start (nc : dims) : stage1 :=
  {| p_spids := []; p_tilings := []; p_groups := []; p_tsz := map (fun _ => 0) nc; p_nuk := 0 |}.

(** lines 387-404: from [lcm] on, in steps of [maxtile], while less than [nc] *)
Fixpoint lcm_go (fuel maxtile nc : nat) (keys : list nat) (lcm : nat) : nat :=
  match fuel with
  | O => lcm
  | S fuel => if lcm <? nc
              then if forallb (fun t => lcm mod t =? 0) keys then lcm else lcm_go fuel maxtile nc keys (lcm + maxtile)
              else lcm
  end.
(** lines 379-407.  [keys] has the keys of all tilings *)
Fixpoint solver_tiles (i : nat) (nc st : dims) (keys : list dims) : dims :=
  match nc, st with
  | n :: nc, s :: st =>
      (if n =? 0 then s else Nat.min (lcm_go n s n (map (fun k => at0 k i) keys) s) n) :: solver_tiles (S i) nc st keys
  | _, _ => st
  end.
(** lines 292-296: the rank of the cells is maxrank+1 *)
Fixpoint last_defined (nc : dims) : nat :=
  match nc with
  | [] => 0
  | n :: nc => match last_defined nc with O => if n =? 0 then 0 else 1 | S k => S (S k) end
  end.
Definition rank_of (nc : dims) : nat := Nat.max 1 (last_defined nc).
(** lines 436-438: division by zero if one of the first axes is not defined *)
Fixpoint subtile_sizes (rank : nat) (st : dims) (l : list axis) : res dims :=
  match st, l with
  | s :: st, a :: l =>
      match rank with
      | O => bind (subtile_sizes 0 st l) (fun q => Ok (0 :: q))
      | S rank => if a_size a =? 0 then UB
                  else bind (subtile_sizes rank st l) (fun q =>
                       Ok ((s / a_size a + (if s mod a_size a =? 0 then 0 else 1)) :: q))
      end
  | _, _ => Ok []
  end.
(** lines 448-460 *)
Fixpoint super_go (fuel : nat) (t : tiling) (shape idx dc : list nat) (cur : Z) : list Z :=
  match fuel with
  | O => []
  | S fuel => cur :: match incr shape idx with
                     | (idx, Some d) => let '(dc, cur) := advance t dc cur d in super_go fuel t shape idx dc cur
                     | (idx, None) => super_go fuel t shape idx dc cur
                     end
  end.
(** lines 423-461 *)
Definition super_tiles (rank : nat) (st : dims) (isolver i : nat) (t : tiling) : res (list Z) :=
  if i =? isolver then Ok (map Z.of_nat (seq 0 (t_total t)))
  else bind (subtile_sizes rank st (t_axes t)) (fun sub =>
       let subtiling := init sub (map a_num (t_axes t)) in
       let shape := firstn rank (map a_num (t_axes t)) in
       Ok (super_go (t_total t) subtiling shape (map (fun _ => 0) shape) (fresh subtiling) 0)).
Fixpoint all_super (rank : nat) (st : dims) (isolver i : nat) (l : list (dims * tiling)) : res (list (list Z)) :=
  match l with
  | [] => Ok []
  | (_, t) :: l => bind (super_tiles rank st isolver i t) (fun s =>
                   bind (all_super rank st isolver (S i) l) (fun ss => Ok (s :: ss)))
  end.

(** lines 484-515: the unknowns of one spid.  [nuk] holds the unknowns per tile of the subsolvers of its group;
    the result has ssuki.  An entry of super_tile outside the solver's tiles would be a write out of bounds; the
    theorems show that there is none *)
Fixpoint bump (l : list nat) (i : nat) : list nat :=
  match l, i with [], _ => [] | x :: l, O => S x :: l | x :: l, S i => x :: bump l i end.
Fixpoint alloc (super : list Z) (nuk : list nat) : list nat * list nat :=
  match super with
  | [] => ([], nuk)
  | z :: super => let i := Z.to_nat z in
                  let '(uks, nuk') := alloc super (bump nuk i) in (at0 nuk i :: uks, nuk')
  end.
(** uk0[i] and uk0[i]+nuk[i]; both are -1 (here: an empty range) if no tile of the spid is in solver tile [i] *)
Definition slices (n : nat) (nuk nuk' : list nat) : list (nat * nat) := map (fun i => (at0 nuk i, at0 nuk' i)) (seq 0 n).

(** The table after populateSpidMap *)
Record uktable := { u_info : spinfo; u_ssuki : list nat; u_slices : list (nat * nat) }.
Record solver := { s_nc : dims;           (* num_cells *)
                   s_tilings : list (dims * tiling);
                   s_isolver : nat;       (* psolver_tiling_ *)
                   s_super : list (list Z);
                   s_groups : nat;        (* numSolveGroups() *)
                   s_spids : list uktable; (* spids_ with spidset *)
                   s_nuk : list (list nat); (* subsolvers_[sg*numSubtiles()+i].nuk is element i of element sg *)
                   s_num : nat }.         (* num_unknowns_ *)
Fixpoint put_group (l : list (list nat)) (g : nat) (x : list nat) : list (list nat) :=
  match l, g with [], _ => [] | _ :: l, O => x :: l | y :: l, S g => y :: put_group l g x end.
Fixpoint alloc_all (ntiles : nat) (super : list (list Z)) (spids : list spinfo) (nuk : list (list nat)) :
    list uktable * list (list nat) :=
  match spids with
  | [] => ([], nuk)
  | s :: spids =>
      let n0 := nth (i_group s) nuk [] in
      let '(uks, n1) := alloc (nth (i_tiling s) super []) n0 in
      let '(l, nuk') := alloc_all ntiles super spids (put_group nuk (i_group s) n1) in
      ({| u_info := s; u_ssuki := uks; u_slices := slices ntiles n0 n1 |} :: l, nuk')
  end.
Definition tiling_at (l : list (dims * tiling)) (i : nat) : tiling := snd (nth i l ([], init [] [])).
Definition populate (nc : dims) (rs : list spidrec) : res solver :=
  bind (add_spids nc rs (start nc)) (fun p =>
  if p_nuk p =? 0 then Err else
  let st := solver_tiles 0 nc (p_tsz p) (map fst (p_tilings p)) in
  let '(isolver, tilings) := get_tiling st nc (p_tilings p) in
  let ntiles := t_total (tiling_at tilings isolver) in
  let ngroups := length (p_groups p) in
  bind (all_super (rank_of nc) st isolver 0 tilings) (fun super =>
  let '(spids, nuk) := alloc_all ntiles super (p_spids p) (repeat (repeat 0 ntiles) ngroups) in
  Ok {| s_nc := nc; s_tilings := tilings; s_isolver := isolver; s_super := super; s_groups := ngroups;
        s_spids := spids; s_nuk := nuk; s_num := p_nuk p |})).
(** numSubtiles, Solver.h:447-448; psubsolver, Solver.h:453-454 *)
Definition ntiles (s : solver) : nat := t_total (tiling_at (s_tilings s) (s_isolver s)).
Definition psubsolver (s : solver) (itile group : nat) : nat := group * ntiles s + itile.

(** ** fillEquations, Solver.cc:657-783: the cells in turn, with the current tile of tiling [t].  The output shape
    is the shape of the cells (Cells.cc:218-230: 1 along an axis that is not defined) *)
Definition cells_shape (nc : dims) : list nat := map (Nat.max 1) (firstn (rank_of nc) nc).
Fixpoint walk_go (fuel : nat) (t : tiling) (shape idx dc : list nat) (cur : Z) : list (list nat * Z) :=
  match fuel with
  | O => []
  | S fuel => (idx, cur) :: match incr shape idx with
                            | (idx, Some d) => let '(dc, cur) := advance t dc cur d in walk_go fuel t shape idx dc cur
                            | (_, None) => []
                            end
  end.
Definition volume (shape : list nat) : nat := fold_right Nat.mul 1 shape.
Definition walk (t : tiling) (nc : dims) : list (list nat * Z) :=
  let shape := cells_shape nc in walk_go (volume shape) t shape (map (fun _ => 0) shape) (fresh t) 0.
(** fillEqVectors, Solver.cc:561-655: the unknown whose derivative is that of spid [u], at a cell where the
    solver's tiling stands at tile [itile]: the subsolver and the index *)
Definition eq_unknown (s : solver) (itile : Z) (u : uktable) : option (nat * nat) :=
  match nth_error (u_ssuki u) (Z.to_nat itile) with
  | Some k => Some (psubsolver s (Z.to_nat itile) (i_group (u_info u)), k)
  | None => None
  end.
(** All derivatives of spid [u]: the cell and the unknown *)
Definition derivatives (s : solver) (u : uktable) : list (list nat * option (nat * nat)) :=
  map (fun c => (fst c, eq_unknown s (snd c) u)) (walk (tiling_at (s_tilings s) (s_isolver s)) (s_nc s)).

(** ** fillRider, Solver.cc:1450-1491: where the updates of a node come from, in order *)
Definition spid_updates (s : solver) (u : uktable) : list (nat * nat) :=
  concat (map (fun '(itile, (a, b)) => map (fun i => (psubsolver s itile (i_group (u_info u)), i)) (seq a (b - a)))
              (combine (seq 0 (ntiles s)) (u_slices u))).
Definition node_spids (s : solver) (node : Z) : list uktable := filter (fun u => (i_node (u_info u) =? node)%Z) (s_spids s).
Definition updates (s : solver) (node : Z) : list (nat * nat) := concat (map (spid_updates s) (node_spids s node)).
