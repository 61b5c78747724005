(** The nodes ReqSeq and ReqMux: MeqNodes/src/ReqSeq.cc:71-175, ReqMux.cc:58-87, within Node::execute (Rid_Model).
    Simplified: locks and timers are left out; symdeps().getMask() is given; [child i id] is what child i does with a request of
    that id, None if there is no such child (NodeNursery.h:149-153 throws). *)
From Verif Require Import Base Hiid_Model Rqid_Model Poll_Model Ncache_Model Rid_Model.
Local Open Scope Z_scope.
Open Scope list_scope.

Section Nodes.
Context {R C : Type}.

(** ** ReqSeq *)
(** number of children, result_index, cells_only, the mask of sequence_symdeps, and whether the policies are Ignore *)
Record seqcfg := { s_children : nat; s_which : nat; s_cellsOnly : bool; s_mask : Z; s_failIgnore : bool; s_missIgnore : bool }.
(** result_, result_code_ *)
Record seqst := { t_result : option R; t_code : Z }.
(** pollChildren: its code (None is an exception), the result put into resref, the node's members, the calls of execute() on children,
    and the id with which the stepchildren are polled *)
Record polled_ := { p_code : option Z; p_ref : option R; p_st : seqst; p_calls : list (nat * list Z); p_step : option (list Z) }.

(** RqId::incrSubId, lines 90-94; masks of symdeps are not negative *)
Definition nextId (mask : Z) (id : list Z) : list Z := match incrSubId 31 id mask with Some i => i | None => id end.
(** lines 108-123, 124-139: the code of a child to be merged, or None if it is returned directly *)
Definition sift (ignore : bool) (bit : Z) (selected : bool) (code : Z) : option Z :=
  if has code bit then if ignore then Some (if selected then code else Z.ldiff code bit) else None else Some code.

Variable child : nat -> list Z -> option (Z * option R).
Variable aborted : nat -> bool.                         (* forest().abortFlag() after child i *)
(** lines 86-154; [n] children are left, [i] is the next *)
Fixpoint seq_loop (cf : seqcfg) (cells : bool) (n i : nat) (id : list Z) (st : seqst) (calls : list (nat * list Z)) : polled_ :=
  match n with
  | O => {| p_code := Some 0; p_ref := None; p_st := st; p_calls := calls; p_step := Some id |}
  | S n =>
      let id := if Nat.eqb i 0 || (s_mask cf =? 0) then id else nextId (s_mask cf) id in
      let calls := calls ++ [(i, id)] in
      let leave c r := {| p_code := c; p_ref := r; p_st := st; p_calls := calls; p_step := None |} in
      match child i id with
      | None => {| p_code := None; p_ref := None; p_st := st; p_calls := removelast calls; p_step := None |}
      | Some (code, r) =>
          if aborted i then leave (Some RES_ABORT) None
          else if has code RES_WAIT then leave (Some (t_code st)) None
          else match sift (s_failIgnore cf) RES_FAIL (Nat.eqb i (s_which cf)) code with
               | None => leave (Some (Z.lor (t_code st) code)) r
               | Some code =>
                   match sift (s_missIgnore cf) RES_MISSING (Nat.eqb i (s_which cf)) code with
                   | None => leave (Some (Z.lor (t_code st) code)) r
                   | Some code =>
                       seq_loop cf cells n (S i) id
                         {| t_result := if Nat.eqb i (s_which cf) && cells then r else t_result st; t_code := Z.lor (t_code st) code |} calls
                   end
               end
      end
  end.
(** lines 71-155; [std] is what Node::pollChildren does *)
Definition seq_poll (cf : seqcfg) (std : option (Z * option R)) (cells : bool) (id : list Z) (st : seqst) : polled_ :=
  if s_cellsOnly cf && negb cells then
    {| p_code := option_map fst std; p_ref := match std with Some (_, r) => r | None => None end; p_st := st; p_calls := []; p_step := None |}
  else seq_loop cf cells (s_children cf) 0 id {| t_result := t_result st; t_code := 0 |} [].
(** lines 167-175 *)
Definition seq_getResult (st : seqst) : option (Z * option R) * seqst :=
  match t_result st with
  | Some r => (Some (t_code st, Some r), {| t_result := None; t_code := t_code st |})
  | None => (None, st)
  end.
(** lines 157-165 *)
Definition seq_discoverSpids (st : seqst) : option (Z * option R) * seqst :=
  (Some (t_code st, t_result st), {| t_result := None; t_code := t_code st |}).

(** a ReqSeq within Node::execute.  Its child results are never set, or detached (Node.cc:620), so that checkChildCells finds no cells. *)
Definition seq_world (w : world R C) (p : polled_) : world R C :=
  {| w_abort := w_abort w; w_lookup := w_lookup w; w_rider := w_rider w; w_commands := w_commands w; w_active := w_active w;
     w_poll := match p_code p with Some c => Some (c, p_ref p) | None => None end; w_deps := w_deps w; w_childcells := Some None;
     w_get := fst (seq_getResult (p_st p)); w_spids := fst (seq_discoverSpids (p_st p)); w_cache := w_cache w |}.

(** execute(), and the members afterwards *)
Definition seq_execute (re rm rf : R) (hasC : R -> bool) (setC : R -> C -> R) (T : rtypes) (cf : seqcfg) (std : option (Z * option R)) (st : seqst)
    (w : world R C) (cur : option (list Z)) (q : ask C) : done R * seqst :=
  let p := seq_poll cf std (match a_cells q with Some _ => true | None => false end) (a_id q) st in
  let o := execute re rm rf hasC setC T (seq_world w p) cur q None in
  let does (f : act R -> bool) := existsb f (o_acts o) in
  (o, if does (fun a => match a with AGetResult => true | _ => false end) then snd (seq_getResult (p_st p))
      else if does (fun a => match a with ADiscover => true | _ => false end) then snd (seq_discoverSpids (p_st p))
      else if does (fun a => match a with APoll => true | _ => false end) then p_st p else st).

(** ** ReqMux *)
Context {F : Type}.
Variables (fails_of : R -> list F) (mkfail : list F -> R).
(** what the children return, in Node::pollChildren *)
Definition mux_got (cf : cfg) (exec : nat -> Z * R) (g : got R) : got R := st_loop cf exec (c_order cf) (no_fails g).
(** ReqMux.cc:58-70 *)
Definition mux_poll (cf : cfg) (which : nat) (exec : nat -> Z * R) (g : got R) : Z * option R :=
  let g := mux_got cf exec g in
  let (c, fails) := Poll_Model.finish fails_of cf g in
  (if has c (Z.lor RES_FAIL RES_MISSING) then c else g_code g which, option_map mkfail fails).
(** ReqMux.cc:72-87 *)
Definition mux_world (w : world R C) (cf : cfg) (which : nat) (exec : nat -> Z * R) (g : got R) : world R C :=
  let mine := Some (0, g_res (mux_got cf exec g) which) in
  {| w_abort := w_abort w; w_lookup := w_lookup w; w_rider := w_rider w; w_commands := w_commands w; w_active := w_active w;
     w_poll := Some (mux_poll cf which exec g); w_deps := w_deps w; w_childcells := w_childcells w;
     w_get := mine; w_spids := mine; w_cache := w_cache w |}.
End Nodes.
Arguments seqst : clear implicits.
Arguments polled_ : clear implicits.
