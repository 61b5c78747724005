(** Model of Meq::Domain (MEQ/src/Domain.h, MEQ/src/Domain.cc).

    A domain is the arrays [range_], [defined_] (Domain.h:139-140) together
    with the axis fields of the underlying record, which is what a copy or a
    deserialised domain is rebuilt from.  Simplified: the axis map is fixed
    and gives every axis its own field name;
    the domain id, the axis map field and locking are left out. *)
From Verif Require Import Base Flt_Model.

Section Domain.
Variable A : arith.

(** Axis::MaxAxis, MEQ/src/Axis.h:46 *)
Definition MaxAxis : nat := 8.

Record axis_rng := { a_def : bool;                (* defined_[i] *)
                     a_lo : num A; a_hi : num A;  (* range_[i] *)
                     a_fld : option (list (num A))   (* record field of axis i *) }.
Definition domain := list axis_rng.

Definition ax_undef : axis_rng := {| a_def := false; a_lo := n0 A; a_hi := n0 A; a_fld := None |}.

(** Domain::Domain(), Domain.cc:38-43: ranges and flags zeroed *)
Definition dom_new : domain := repeat ax_undef MaxAxis.

Definition ax (d : domain) (i : nat) : axis_rng := nth i d ax_undef.

(** start, end, isDefined, Domain.h:73-89 (the argument check is a debug check) *)
Definition start (d : domain) i := a_lo (ax d i).
Definition stop  (d : domain) i := a_hi (ax d i).
Definition isDefined (d : domain) i := a_def (ax d i).

Fixpoint set_ax (d : domain) (i : nat) (x : axis_rng) : domain :=
  match d, i with
  | [], _ => []
  | _ :: r, 0 => x :: r
  | y :: r, S j => y :: set_ax r j x
  end.

(** The range stored by defineAxis, Domain.cc:67-72: equal ends are moved
    apart, ends in the wrong order are exchanged. *)
Definition norm_range (a1 a2 : num A) : num A * num A :=
  if neqb A a1 a2 then (nsub A a1 (n1em6 A), a2)
  else if nltb A a2 a1 then (a2, a1)
  else (a1, a2).

(** Domain::defineAxis, Domain.cc:63-85; the check of the argument is at 66 *)
Definition defineAxis (d : domain) (iaxis : Z) (a1 a2 : num A) : res domain :=
  if (iaxis <? 0)%Z || (Z.of_nat MaxAxis <=? iaxis)%Z then Err
  else let (lo, hi) := norm_range a1 a2 in
       Ok (set_ax d (Z.to_nat iaxis)
             {| a_def := true; a_lo := lo; a_hi := hi; a_fld := Some [lo; hi] |}).

(** the same for an index already known to be legal *)
Definition define (d : domain) (i : nat) (a1 a2 : num A) : domain :=
  let (lo, hi) := norm_range a1 a2 in
  set_ax d i {| a_def := true; a_lo := lo; a_hi := hi; a_fld := Some [lo; hi] |}.

(** Domain::Domain (double,double,double,double), Domain.cc:54-61 *)
Definition dom_2d (x1 x2 y1 y2 : num A) : domain := define (define dom_new 0 x1 x2) 1 y1 y2.

(** Domain::validateContent, Domain.cc:118-182, reached from the constructor
    from a record (46-51), from clone() (Domain.h:65-66) and when a domain is
    received: the ranges are rebuilt from the axis fields.  A record is the
    list of its axis fields; a field carries the axis number its name stands
    for (150-152: the number itself for a name "n", else the axis map) and its
    values.  The axis number is not checked before it indexes the arrays. *)
Definition record := list (Z * list (num A)).
Definition validate_field (d : domain) (f : Z * list (num A)) : res domain :=
  match snd f with
  | [a; b] =>
      if nleb A b a then Err                   (* "segment start must be < end", 156 *)
      else if (fst f <? 0)%Z || (Z.of_nat MaxAxis <=? fst f)%Z then UB   (* 157-159 *)
      else Ok (set_ax d (Z.to_nat (fst f))
                 {| a_def := true; a_lo := a; a_hi := b; a_fld := Some [a; b] |})
  | _ => Err                                   (* 155 *)
  end.
Fixpoint validate_from (d : domain) (fs : record) : res domain :=
  match fs with
  | [] => Ok d
  | f :: r => bind (validate_field d f) (fun d' => validate_from d' r)
  end.
Definition validate (fs : record) : res domain := validate_from dom_new fs.
Definition fields (d : domain) : record :=
  flat_map (fun i => match a_fld (ax d i) with Some v => [(Z.of_nat i, v)] | None => [] end)
           (seq 0 MaxAxis).
Definition clone (d : domain) : res domain := validate (fields d).

(** Domain::operator==, Domain.h:96-99: memcmp of range_ *)
Definition dom_eqb (a b : domain) : bool :=
  forallb (fun i => nbit A (start a i) (start b i) && nbit A (stop a i) (stop b i)) (seq 0 MaxAxis).

(** Domain::supersetOfProj, Domain.cc:184-194 *)
Definition supersetOfProj (a b : domain) : bool :=
  forallb (fun i => negb (isDefined a i &&
     (negb (isDefined b i) || nltb A (start b i) (start a i) || nltb A (stop a i) (stop b i))))
    (seq 0 MaxAxis).

(** Domain::envelope, Domain.cc:196-217 *)
Definition env_step (a b : domain) (out : domain) (i : nat) : domain :=
  if isDefined a i then
    if isDefined b i then
      define out i (nmin A (start a i) (start b i)) (nmax A (stop a i) (stop b i))
    else define out i (start a i) (stop a i)
  else if isDefined b i then define out i (start b i) (stop b i)
  else out.
Definition envelope (a b : domain) : domain := fold_left (env_step a b) (seq 0 MaxAxis) dom_new.

(** Domain::expandToEnvelope, Domain.cc:219-242 *)
Definition expand_step (other : domain) (d : domain) (i : nat) : domain :=
  if isDefined other i then
    if isDefined d i then
      let x1 := nmin A (start d i) (start other i) in
      let x2 := nmax A (stop d i) (stop other i) in
      if negb (neqb A x1 (start d i)) || negb (neqb A x2 (stop d i)) then define d i x1 x2 else d
    else define d i (start other i) (stop other i)
  else d.
Definition expandToEnvelope (d other : domain) : domain :=
  fold_left (expand_step other) (seq 0 MaxAxis) d.

(** Histories: everything that yields a domain. *)
Inductive reach : domain -> Prop :=
| r_new : reach dom_new
| r_def d i a1 a2 d' : reach d -> defineAxis d i a1 a2 = Ok d' -> reach d'
| r_clone d d' : reach d -> clone d = Ok d' -> reach d'
| r_rec fs d' : validate fs = Ok d' -> reach d'
| r_env a b : reach a -> reach b -> reach (envelope a b)
| r_exp a b : reach a -> reach b -> reach (expandToEnvelope a b).

End Domain.
