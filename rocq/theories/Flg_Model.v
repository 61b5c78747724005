(** Nodes that work on flags: MeqNodes/src/MergeFlags.cc, ZeroFlagger.cc and ReplaceFlaggedValues.cc, with the flag masks of
    MEQ/src/Function.cc:58-94 and VellSet::setDataFlags of MEQ/src/VellSet.cc:500-520.

    Flags and values are the Vells of Vel_Model.  Cells, locks and the state record other than the fields named are left out.  What a
    VellSet holds beside its shape, flags, main value and perturbed values (spids, perturbations, weights, fails) is [x_rest], which
    none of the code below touches.  Ints are unbounded.  Arrays are values: copy-on-write is not modelled. *)
From Verif Require Import Base Poll_Model Vel_Model Fun_Model.
Local Open Scope Z_scope.

(** ** Flag masks, Function.cc:63-93: [fm] is the field flag_mask if given, [n] the number of children, [cur] flagmask_ *)
Definition set_masks (fm : option (list Z)) (initializing : bool) (n : nat) (cur : list Z) : res (list Z) :=
  match fm with
  | Some [f] => if f =? -1 then Ok (repeat VellsFullFlagMask n) else if f =? 0 then Ok (repeat 0 n) else Ok (repeat f n)
  | Some fm => if Nat.eqb (length fm) n then Ok fm else Err
  | None => if initializing then Ok (repeat VellsFullFlagMask n) else Ok cur
  end.
(** MergeFlags.cc:62-67 (and Function.cc:109-114) *)
Definition use_masks (cur : list Z) (n : nat) : res (list Z) :=
  match cur with [] => Ok (repeat VellsFullFlagMask n) | _ => if Nat.eqb (length cur) n then Ok cur else Err end.

Section Flags.
Context {D C R : Type}.                       (* double, dcomplex, and the rest of a VellSet *)
(** an array of real or complex values *)
Inductive val := Re (v : vells D) | Cx (v : vells C).
Record vellset := { x_shape : list Z; x_flags : option (vells Z); x_main : option val; x_pert : list val; x_rest : R }.
(** a Result *)
Record fres := { f_dims : list nat; f_vs : list vellset }.

(** ** VellSet::setDataFlags *)
(** VellSet.cc:193-207; the shape was resized to the rank of the array, new extents being 0 (190-192) *)
Fixpoint fit (shp vs : list Z) : res (list Z) :=
  match vs with
  | [] => Ok shp
  | v :: vs =>
      let s := hd 0 shp in
      if 1 <? v then
        if s <=? 1 then bind (fit (tl shp) vs) (fun r => Ok (v :: r))
        else if s =? v then bind (fit (tl shp) vs) (fun r => Ok (s :: r)) else Err
      else bind (fit (tl shp) vs) (fun r => Ok ((if s =? 0 then 1 else s) :: r))
  end.
(** VellSet.cc:178-219.  A shape that is not changed is not set again, which makes no difference; isCompatible (149) cannot refuse it. *)
Definition adjustShape (shp : list Z) (f : vells Z) : res (list Z) :=
  if isScalar f then Ok shp else match shp with [] => Ok (v_shape f) | _ => fit shp (v_shape f) end.
(** Vells.h:330-331 *)
Definition carry_v {A} (f : vells Z) (v : vells A) : vells A := {| v_shape := v_shape v; v_data := v_data v; v_flags := Some (v_shape f, v_data f) |}.
Definition carry (f : vells Z) (v : val) : val := match v with Re v => Re (carry_v f v) | Cx v => Cx (carry_v f v) end.
(** VellSet.cc:500-520 *)
Definition setDataFlags (f : vells Z) (x : vellset) : res vellset :=
  bind (adjustShape (x_shape x) f) (fun s =>
  Ok {| x_shape := s; x_flags := Some f; x_main := option_map (carry f) (x_main x); x_pert := map (carry f) (x_pert x); x_rest := x_rest x |}).

(** ** MergeFlags *)
(** a loop over a list, with a state *)
Fixpoint floop {A S} (f : A -> S -> res S) (l : list A) (s : S) : res S :=
  match l with [] => Ok s | a :: l => bind (f a s) (floop f l) end.
Fixpoint put {A} (l : list A) (i : nat) (x : A) : list A :=
  match l, i with [], _ => [] | _ :: l, O => x :: l | y :: l, S i => y :: put l i x end.
(** mergeChildFlags, MergeFlags.cc:46-55, with the test for flags made by all callers *)
Definition mergeChildFlags (fm : Z) (i : nat) (vs1 : vellset) (vs : list vellset) : res (list vellset) :=
  match x_flags vs1 with
  | None => Ok vs
  | Some f =>
      match nth_error vs i with
      | None => UB
      | Some x =>
          bind (mergeFlags (x_flags x) f fm) (fun r =>
          match r with Some g => bind (setDataFlags g x) (fun x => Ok (put vs i x)) | None => Ok vs end)
      end
  end.
(** lines 137-151 *)
Definition mergeScalar (fm : Z) (vs1 vs : list vellset) : res (list vellset) :=
  match nth_error vs 0 with
  | None => UB
  | Some x =>
      bind (floop (fun y r => match x_flags y with Some f => mergeFlags r f fm | None => Ok r end) vs1 (x_flags x)) (fun r =>
      match r with Some g => bind (setDataFlags g x) (fun x => Ok (put vs 0 x)) | None => Ok vs end)
  end.
Definition dims_eqb (a b : list nat) : bool := if list_eq_dec Nat.eq_dec a b then true else false.
(** lines 100-156: one child *)
Definition merge_child (all : bool) (dims : list nat) (mc : Z * fres) (vs : list vellset) : res (list vellset) :=
  let (fm, ch) := mc in
  let all_i := seq 0 (length vs) in
  if fm =? 0 then Ok vs else
  match f_vs ch with
  | [] => Ok vs
  | vs1_0 :: _ =>
      if all then floop (fun i => floop (mergeChildFlags fm i) (f_vs ch)) all_i vs
      else if dims_eqb dims (f_dims ch) then
        floop (fun i vs => match nth_error (f_vs ch) i with Some y => mergeChildFlags fm i y vs | None => UB end) all_i vs
      else match f_dims ch with
           | [] => floop (fun i => mergeChildFlags fm i vs1_0) all_i vs
           | _ => match dims with [] => mergeScalar fm (f_vs ch) vs | _ => Err end
           end
  end.
(** getResult, MergeFlags.cc:57-160 *)
Definition merge_getResult (masks : list Z) (all : bool) (cs : list fres) : res fres :=
  bind (use_masks masks (length cs)) (fun masks =>
  match cs, masks with
  | [c], m :: _ =>
      if Nat.leb (length (f_vs c)) 1 then Ok c else
      bind (floop (fun x r => match x_flags x with Some f => mergeFlags r f m | None => Ok r end) (f_vs c) None) (fun r =>
      match r with
      | None => Ok c
      | Some g => bind (floop (fun i vs => match nth_error vs i with Some x => bind (setDataFlags g x) (fun x => Ok (put vs i x)) | None => UB end)
                          (seq 0 (length (f_vs c))) (f_vs c)) (fun vs => Ok {| f_dims := f_dims c; f_vs := vs |})
      end)
  | c :: cs, _ :: masks =>
      match f_vs c with
      | [] => Ok c
      | _ => bind (floop (merge_child all (f_dims c)) (combine masks cs) (f_vs c)) (fun vs => Ok {| f_dims := f_dims c; f_vs := vs |})
      end
  | _, _ => UB
  end).

(** ** ZeroFlagger *)
(** how a double compares with 0; [None] for a NaN *)
Variable sign : D -> option comparison.
(** the operators, ZeroFlagger.cc:102-130 *)
Inductive oper := EQ | NE | LT | GT | LE | GE | Other.
Definition compares (op : oper) (d : D) : bool :=
  match op, sign d with
  | EQ, Some Eq | LT, Some Lt | GT, Some Gt => true
  | LE, Some Eq | LE, Some Lt | GE, Some Eq | GE, Some Gt => true
  | NE, Some Eq => false
  | NE, _ => true
  | _, _ => false
  end.
(** lines 36-39 *)
Definition null_flags : vells Z := plain [1] [0].
(** lines 83-135: one VellSet *)
Definition zero_flag (op : oper) (flagbit : Z) (force : bool) (x : vellset) : res vellset :=
  match x_main x with
  | None => Ok x
  | Some (Cx _) => Err
  | Some (Re v) =>
      match op with
      | Other => Err
      | _ =>
          let fl := map (fun d => if compares op d then flagbit else 0) (v_data v) in
          if negb (fold_left Z.lor fl 0 =? 0) then setDataFlags (plain (v_shape v) fl) x
          else if force then setDataFlags null_flags x else Ok x
      end
  end.
Fixpoint mapr {A B} (f : A -> res B) (l : list A) : res (list B) :=
  match l with [] => Ok [] | a :: l => bind (f a) (fun b => bind (mapr f l) (fun r => Ok (b :: r))) end.
(** getResult, lines 71-138 *)
Definition zero_getResult (op : oper) (flagbit : Z) (force : bool) (c : fres) : res fres :=
  bind (mapr (zero_flag op flagbit force) (f_vs c)) (fun vs => Ok {| f_dims := f_dims c; f_vs := vs |}).

(** ** ReplaceFlaggedValues; VellSets are those of Fun_Model *)
Section Replace.
Context {P : Type}.
Notation vdata := (vdata val P).
Variable isNull : val -> bool.
(** evaluateFlags, ReplaceFlaggedValues.cc:50-61: the flags passed out, and flags_ *)
Definition replace_flags (cs : list (option vdata)) (masks : list Z) : res (option (vells Z) * option (vells Z)) :=
  match cs, masks with
  | Some d :: cs, _ :: masks => bind (evaluateFlags isNull cs masks None) (fun fl => Ok (d_flags d, fl))
  | _, _ => UB
  end.
(** lines 64-77: [re] and [cx] are the real part of value_ and value_ *)
Definition replace_eval (re : D) (cx : C) (fl : option (vells Z)) (values : list (option val)) : res val :=
  match values with
  | Some v :: _ =>
      match fl with
      | None => Ok v
      | Some f =>
          match v with
          | Re v => bind (replaceFlagged v (v_shape f) (v_data f) re VellsFullFlagMask) (fun v => Ok (Re (plain (v_shape v) (v_data v))))
          | Cx v => bind (replaceFlagged v (v_shape f) (v_data f) cx VellsFullFlagMask) (fun v => Ok (Cx (plain (v_shape v) (v_data v))))
          end
      end
  | _ => UB
  end.
(** Function.cc:214-283 with these: the VellSet of a plane (Fun_Model.compute is the same with the functions of class Function) *)
Variable compat : val -> bool.
Variable accepts : option (vells Z) -> list val -> val -> bool.
Variable pert_eqb : P -> P -> bool.
Definition replace_compute (re : D) (cx : C) (cs : list (option vdata)) (values : list (option val)) (masks : list Z) : res vdata :=
  let (npert, spids) := findSpids cs in
  bind (replace_flags cs masks) (fun '(out, fl) =>
  bind (replace_eval re cx fl values) (fun v =>
  if accepts out [] v then
    bind (spid_loop compat accepts pert_eqb (replace_eval re cx fl) cs values npert out spids (map (fun _ => O) cs) [v]) (fun rows =>
    Ok {| d_value := Some v; d_flags := out; d_spids := spids; d_psets := map (pset_of rows) (seq 0 npert) |})
  else Err)).
End Replace.
End Flags.
Arguments val : clear implicits.
Arguments vellset : clear implicits.
Arguments fres : clear implicits.
