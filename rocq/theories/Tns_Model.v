(** Tensors of VellSets: the dimensions of a Result (MEQ/src/Result.h, Result.cc), and the nodes that move VellSets about without computing
    anything: MeqNodes/src/Transpose.cc, Selector.cc, Paster.cc and Composer.cc.

    VellSets are those of Fun_Model.  Left out: cells (and with them verifyShape and setCells), locks, and the messages of fails.  Dimensions
    are natural numbers and there is no overflow; the ints are 32 bits wide in the code, and the dimensions given to a Composer may be
    negative there.  An exception is [Err].  Use of a null pointer is [UB]. *)
From Verif Require Import Base Poll_Model Vel_Model Fun_Model.

Section Tensors.
Context {V P F : Type}.
Notation vset := (vset V P F).

(** ** Result *)
(** The VellSets, dims_ (Result.h:279) and the field Dims of the record, from which validateContent reads dims_ again.  No VellSets stands
    for a null [pvellsets_]: a DMI::Vec is never empty once it is initialized (DMI/src/Vec.cc:123). *)
Record tres := { t_vs : list vset; t_dims : list nat; t_field : option (list nat) }.
(** VariVector::product, TimBase/src/Lorrays-Blitz.h:282-288 *)
Definition volume (d : list nat) : nat := fold_left Nat.mul d 1.
(** Result.h:199-200 *)
Definition numVellSets (r : tres) : nat := length (t_vs r).
(** Result.h:93-94 *)
Definition rank (r : tres) : nat := length (t_dims r).
(** A new DMI::Vec of [n] VellSets, Vec.cc:86-126: its elements are made on first access (Vec.cc:513-528), as empty VellSets *)
Definition new_vec (n : nat) : list vset := repeat (VData no_data) (Nat.max n 1).
(** Result(int), Result.cc:36-41 with 206-220 *)
Definition result_n (n : nat) : tres :=
  match n with
  | O => {| t_vs := []; t_dims := []; t_field := None |}
  | _ => {| t_vs := new_vec n; t_dims := if Nat.ltb 1 n then [n] else []; t_field := None |}
  end.
(** Result(const Dims &), Result.cc:43-47 with 222-243 *)
Definition result_dims (d : list nat) : tres :=
  {| t_vs := new_vec (volume d); t_dims := if Nat.eqb (volume d) 1 then [] else d;
     t_field := if Nat.ltb 1 (length d) then Some d else None |}.
(** setDims, Result.cc:245-268 *)
Definition setDims (d : list nat) (r : tres) : res tres :=
  match t_vs r with
  | [] => Ok (result_dims d)
  | _ =>
      if negb (Nat.eqb (volume d) (numVellSets r)) then Err else
      let d' := if Nat.ltb 1 (volume d) then d else [] in
      Ok {| t_vs := t_vs r; t_dims := d'; t_field := if Nat.ltb 1 (length d') then Some d' else None |}
  end.
(** Write access to a shared Result makes a copy of the record (Result.cc:50-56), which validateContent looks at again: lines 158-183 *)
Definition clone (r : tres) : res tres :=
  match t_field r with
  | Some d => if Nat.eqb (volume d) (numVellSets r) then Ok {| t_vs := t_vs r; t_dims := d; t_field := Some d |} else Err
  | None => Ok {| t_vs := t_vs r; t_dims := if Nat.ltb 1 (numVellSets r) then [numVellSets r] else []; t_field := None |}
  end.
(** Result.h:203-204 with Vec.cc:641-711: there is nothing at or beyond the end *)
Definition vellSet (r : tres) (i : nat) : res vset :=
  match t_vs r with
  | [] => UB
  | l => match nth_error l i with Some v => Ok v | None => Err end
  end.
(** Result.h:214-228 with Vec.cc:802-824: putting just beyond the end adds an element *)
Definition put_vs (l : list vset) (i : nat) (v : vset) : res (list vset) :=
  match l with
  | [] => UB
  | _ => if Nat.eqb i (length l) then Ok (l ++ [v])
         else if Nat.ltb i (length l) then Ok (firstn i l ++ v :: skipn (S i) l)
         else Err
  end.
Definition setVellSet (i : nat) (v : vset) (r : tres) : res tres :=
  bind (put_vs (t_vs r) i v) (fun l => Ok {| t_vs := l; t_dims := t_dims r; t_field := t_field r |}).
(** VellSet.h:170-171 and 357-358; a fail has neither value nor spids (VellSet.cc, addFail) *)
Definition isFail (v : vset) : bool := match v with VFail _ => true | _ => false end.
Definition isEmpty (v : vset) : bool :=
  match v with VFail _ => true | VData d => match d_value d, d_spids d with None, [] => true | _, _ => false end end.
(** a loop over [l] that changes a Result *)
Fixpoint over {A B} (f : A -> B -> res B) (l : list A) (b : B) : res B :=
  match l with [] => Ok b | a :: l => bind (f a b) (over f l) end.

(** ** Transpose *)
Variable conj : V -> V.
(** Transpose.cc:53-67 *)
Definition conjugate (v : vset) : vset :=
  match v with
  | VFail l => VFail l
  | VData d =>
      match d_value d with
      | None => VData d
      | Some x =>
          VData {| d_value := Some (conj x); d_flags := d_flags d; d_spids := d_spids d;
                   d_psets := match d_spids d with
                              | [] => d_psets d
                              | _ => map (fun p => {| ps_pert := ps_pert p; ps_val := map conj (ps_val p) |}) (d_psets d)
                              end |}
      end
  end.
(** lines 106-108 and 133-139: matrix number [k] *)
Definition transpose_matrix (ch : tres) (nx ny k : nat) (out : tres) : res tres :=
  over (fun ij out => bind (vellSet ch (k * (nx * ny) + snd ij * ny + fst ij)) (fun v =>
                      setVellSet (k * (nx * ny) + fst ij * nx + snd ij) v out))
       (list_prod (seq 0 ny) (seq 0 nx)) out.
(** lines 74-141: the Result, and whether it has been copied.  The division on line 131 is not reached with a zero: setDims has refused. *)
Definition transposed (tensor : bool) (ch : tres) : res (tres * bool) :=
  let wr (r : res tres) := bind r (fun r => Ok (r, true)) in
  match rev (t_dims ch) with
  | [] => Ok (ch, false)
  | [_] => if tensor then Ok (ch, false) else wr (bind (clone ch) (setDims [1; numVellSets ch]))
  | [ny; nx] =>
      if tensor && Nat.eqb ny 1 then Ok (ch, false)
      else if Nat.eqb nx 1 then wr (bind (clone ch) (setDims [ny]))
      else wr (bind (bind (clone ch) (setDims [ny; nx])) (transpose_matrix ch nx ny 0))
  | ny :: nx :: d =>
      if Nat.eqb nx 1 then wr (bind (clone ch) (setDims (rev d ++ [ny])))
      else wr (bind (bind (clone ch) (setDims (rev d ++ [ny; nx])))
                    (over (transpose_matrix ch nx ny) (seq 0 (Nat.div (numVellSets ch) (nx * ny)))))
  end.
(** getResult, lines 70-152 *)
Definition transpose (tensor conj_ : bool) (ch : tres) : res tres :=
  bind (transposed tensor ch) (fun '(r, copied) =>
  if conj_ then
    bind (if (copied : bool) then Ok r else clone r) (fun r =>
    Ok {| t_vs := map conjugate (t_vs r); t_dims := t_dims r; t_field := t_field r |})
  else Ok r).

(** ** Slices: Selector.cc:96-120 and 146-164, Paster.cc:93-117 and 140-153 (the same code) *)
(** what the loop over the axes has worked out; from the end, so that [s_rank] counts from the current axis on *)
Record slicing := { s_shp : list nat; s_shp0 : list nat; s_strides : list nat; s_strd : nat; s_slice : bool; s_rank : nat; s_offset : nat }.
Fixpoint slicing_of (dims : list nat) (sel : list Z) : res slicing :=
  match dims, sel with
  | [], _ => Ok {| s_shp := []; s_shp0 := []; s_strides := []; s_strd := 1; s_slice := false; s_rank := 0; s_offset := 0 |}
  | d :: dims, s :: sel =>
      bind (slicing_of dims sel) (fun x =>
      if Z.leb (Z.of_nat d) s then Err else
      if Z.ltb s 0 then
        Ok {| s_shp := d :: s_shp x; s_shp0 := d :: s_shp0 x; s_strides := s_strd x :: s_strides x; s_strd := s_strd x * d;
              s_slice := true; s_rank := S (s_rank x); s_offset := s_offset x |}
      else
        Ok {| s_shp := 1 :: s_shp x; s_shp0 := 0 :: s_shp0 x; s_strides := s_strd x :: s_strides x; s_strd := s_strd x * d;
              s_slice := s_slice x; s_rank := if s_slice x then S (s_rank x) else 0; s_offset := s_offset x + Z.to_nat s * s_strd x |})
  | _ :: _, [] => UB
  end.
(** Selector.cc:155-163, from the last axis to the first: what is added to the offset, the counters, and whether the loop goes on *)
Fixpoint advance (shp strides shp0 : list nat) {struct shp0} : nat * list nat * bool :=
  match shp, strides, shp0 with
  | n :: shp, st :: strides, k :: shp0 =>
      let '(a, ks, on) := advance shp strides shp0 in
      if negb on then (a, k :: ks, false)
      else match k with
           | O => (a, O :: ks, true)
           | S O => (a + st, n :: ks, true)
           | S k => (a + st, k :: ks, false)
           end
  | _, _, _ => (0, [], true)
  end.
(** the offsets that the loop visits *)
Fixpoint offsets (shp strides shp0 : list nat) (offset n : nat) : list nat :=
  match n with
  | O => []
  | S n => let '(a, shp0, _) := advance shp strides shp0 in offset :: offsets shp strides shp0 (offset + a) n
  end.
Definition slice_shape (x : slicing) : list nat := firstn (s_rank x) (s_shp x).
Definition slice_offsets (x : slicing) : list nat :=
  offsets (slice_shape x) (firstn (s_rank x) (s_strides x)) (firstn (s_rank x) (s_shp0 x)) (s_offset x) (volume (slice_shape x)).

(** ** Selector *)
Variable bad_index : list F.                            (* the fail made on lines 77-79 *)
(** lines 167-171, for the VellSets that have been selected *)
Definition code_of (l : list vset) : Z :=
  if forallb isFail l then RES_FAIL else if forallb isEmpty l then RES_MISSING else 0%Z.
(** lines 72-90 *)
Definition select_one (ch : tres) (is : nat * Z) (out : tres) : res tres :=
  let (i, s) := is in
  if Z.ltb s 0 || Z.leb (Z.of_nat (numVellSets ch)) s then setVellSet i (VFail bad_index) out
  else bind (vellSet ch (Z.to_nat s)) (fun v => setVellSet i v out).
Definition copy_from (ch : tres) (io : nat * nat) (out : tres) : res tres :=
  bind (vellSet ch (snd io)) (fun v => setVellSet (fst io) v out).
Definition enum {A} (l : list A) : list (nat * A) := combine (seq 0 (length l)) l.
(** getResult, lines 53-178 *)
Definition select (multi : bool) (sel : list Z) (ch : tres) : res (tres * Z) :=
  match sel with
  | [] => Ok (ch, 0%Z)
  | _ =>
      bind
        (if multi || Nat.eqb (length sel) 1 then bind (over (select_one ch) (enum sel) (result_n (length sel))) (fun r => Ok (r, length sel))
         else if negb (Nat.eqb (rank ch) (length sel)) then Err
         else bind (slicing_of (t_dims ch) sel) (fun x =>
              match s_rank x with
              | O => bind (vellSet ch (s_offset x)) (fun v => bind (setVellSet 0 v (result_n 1)) (fun r => Ok (r, 1)))
              | _ => bind (over (copy_from ch) (enum (slice_offsets x)) (result_dims (slice_shape x))) (fun r =>
                     Ok (r, volume (slice_shape x)))
              end))
        (fun '(r, n) => Ok (r, code_of (firstn n (t_vs r))))
  end.

(** ** Paster *)
Definition paste_one (ch : tres) (is : nat * Z) (out : tres) : res tres :=
  let (i, s) := is in
  if Z.ltb s 0 || Z.leb (Z.of_nat (numVellSets out)) s then Err
  else bind (vellSet ch i) (fun v => setVellSet (Z.to_nat s) v out).
Definition paste_to (ch : tres) (io : nat * nat) (out : tres) : res tres :=
  bind (vellSet ch (fst io)) (fun v => setVellSet (snd io) v out).
(** getResult, lines 54-161, without verifyShape *)
Definition paste (multi : bool) (sel : list Z) (into ch : tres) : res tres :=
  match sel with
  | [] => Ok into
  | _ =>
      if multi || Nat.eqb (length sel) 1 then
        if negb (Nat.eqb (numVellSets ch) (length sel)) then Err
        else bind (clone into) (over (paste_one ch) (enum sel))
      else if negb (Nat.eqb (rank into) (length sel)) then Err
      else bind (slicing_of (t_dims into) sel) (fun x =>
           match s_rank x with
           | O => if negb (Nat.eqb (numVellSets ch) 1) then Err
                  else bind (vellSet ch 0) (fun v => bind (clone into) (setVellSet (s_offset x) v))
           | _ => if negb (if list_eq_dec Nat.eq_dec (t_dims ch) (slice_shape x) then true else false) then Err
                  else bind (clone into) (over (paste_to ch) (enum (slice_offsets x)))
           end)
  end.

(** ** Composer *)
(** lines 69-96: dimensions of the tensors among the children, and the number of VellSets per child *)
Fixpoint common_dims (cs : list tres) (d0 : list nat) (n0 : nat) : res (list nat * nat) :=
  match cs with
  | [] => Ok (d0, n0)
  | c :: cs =>
      if Nat.ltb (numVellSets c) 2 then common_dims cs d0 (match d0 with [] => 1 | _ => n0 end)
      else match d0 with
           | [] => common_dims cs (t_dims c) (volume (t_dims c))
           | _ => if list_eq_dec Nat.eq_dec d0 (t_dims c) then common_dims cs d0 n0 else Err
           end
  end.
(** what the loop over the children changes: the Result, ires, nfails and nmissing *)
Record composing := { o_res : tres; o_ires : nat; o_fails : nat; o_missing : nat }.
(** lines 128-136 and 162-170 *)
Definition append_vs (v : vset) (o : composing) : res composing :=
  bind (setVellSet (o_ires o) v (o_res o)) (fun r =>
  Ok {| o_res := r; o_ires := S (o_ires o); o_fails := if isFail v then S (o_fails o) else o_fails o;
        o_missing := if negb (isFail v) && isEmpty v then S (o_missing o) else o_missing o |}).
(** lines 153-154 *)
Definition repeat_vs (v : vset) (n : nat) (o : composing) : res composing :=
  over (fun v o => bind (setVellSet (o_ires o) v (o_res o)) (fun r =>
                   Ok {| o_res := r; o_ires := S (o_ires o); o_fails := o_fails o; o_missing := o_missing o |}))
       (repeat v n) o.
Definition count_more (fails missing : nat) (o : composing) : composing :=
  {| o_res := o_res o; o_ires := o_ires o; o_fails := o_fails o + fails; o_missing := o_missing o + missing |}.
(** lines 123-158 *)
Definition compose_tensor (n0 : nat) (c : tres) (o : composing) : res composing :=
  if Nat.eqb (numVellSets c) n0 then over append_vs (t_vs c) o
  else match t_vs c with
       | [] => repeat_vs (VData no_data) n0 (count_more 0 n0 o)
       | [v] => repeat_vs v n0 (count_more (if isFail v then n0 else 0) 0 o)
       | _ => Err
       end.
(** lines 160-171 *)
Definition compose_plain (c : tres) (o : composing) : res composing := over append_vs (t_vs c) o.
(** getResult, lines 59-187 *)
Definition compose (dims : list nat) (cs : list tres) : res (tres * Z) :=
  let nres := list_sum (map numVellSets cs) in
  let start r := {| o_res := r; o_ires := 0; o_fails := 0; o_missing := 0 |} in
  let finish o :=
    (o_res o, if Nat.eqb nres 0 then 0%Z
              else if Nat.eqb (o_fails o) nres then RES_FAIL
              else if Nat.eqb (o_missing o) nres then RES_MISSING else 0%Z) in
  match dims with
  | [O] =>
      bind (common_dims cs [] 0) (fun '(d0, n0) =>
      bind (over (compose_tensor n0) cs (start (result_dims (length cs :: d0)))) (fun o => Ok (finish o)))
  | [] => bind (over compose_plain cs (start (result_n nres))) (fun o => Ok (finish o))
  | _ => bind (over compose_plain cs (start (result_dims dims))) (fun o => Ok (finish o))
  end.
End Tensors.
Arguments tres : clear implicits.
