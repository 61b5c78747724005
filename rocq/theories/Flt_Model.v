(** Arithmetic used by the MEQ models.

    The code computes with C++ [double].  The models of Domain and Cells are
    written once, over a record of operations, and used with two instances:
    - [b64]: IEEE-754 binary64 with round-to-nearest-even, taken from Coq's
      [Floats.SpecFloat] (an executable definition, no axioms).  Simplified:
      there is a single NaN (payloads and the sign of NaN are dropped).
    - [qc]: exact rationals, used for the properties that are stated in exact
      arithmetic.                                                            *)
From Coq Require Import SpecFloat.
From Coq Require Import QArith Qcanon.
From Verif Require Import Base.
Local Close Scope Qc_scope.

Record arith := {
  num  : Type;
  n0   : num;                        (* 0.0 *)
  nadd : num -> num -> num;
  nsub : num -> num -> num;
  nmul : num -> num -> num;
  ndiv : num -> num -> num;
  nabs : num -> num;                 (* std::fabs *)
  nltb : num -> num -> bool;         (* a < b *)
  nleb : num -> num -> bool;         (* a <= b *)
  neqb : num -> num -> bool;         (* a == b *)
  nbit : num -> num -> bool;         (* same representation, as memcmp sees it *)
  nofZ : Z -> num;                   (* int converted to double *)
  n1em6 : num;                       (* the literal 1e-6 *)
  n1em10 : num                       (* the literal 1e-10 *)
}.

(** std::min(a,b): [b<a ? b : a]; std::max(a,b): [a<b ? b : a]
    (used in MEQ/src/Domain.cc:209, 232-233). *)
Definition nmin (A : arith) (a b : num A) : num A := if nltb A b a then b else a.
Definition nmax (A : arith) (a b : num A) : num A := if nltb A a b then b else a.

(** ** binary64 *)
Definition sf_bit (a b : spec_float) : bool :=
  match a, b with
  | S754_zero s, S754_zero t => Bool.eqb s t
  | S754_infinity s, S754_infinity t => Bool.eqb s t
  | S754_nan, S754_nan => true
  | S754_finite s m e, S754_finite t n f => Bool.eqb s t && Pos.eqb m n && Z.eqb e f
  | _, _ => false
  end.

(** 1e-6 = 0x1.0c6f7a0b5ed8dp-20, 1e-10 = 0x1.b7cdfd9d7bdbbp-34. *)
Definition b64 : arith := {|
  num := spec_float;
  n0 := S754_zero false;
  nadd := SFadd 53 1024; nsub := SFsub 53 1024;
  nmul := SFmul 53 1024; ndiv := SFdiv 53 1024;
  nabs := SFabs;
  nltb := SFltb; nleb := SFleb; neqb := SFeqb;
  nbit := sf_bit;
  nofZ := fun z => binary_normalize 53 1024 z 0 false;
  n1em6 := S754_finite false 4722366482869645 (-72);
  n1em10 := S754_finite false 7737125245533627 (-86)
|}.

(** ** exact rationals *)
Definition qc_ltb (a b : Qc) : bool := match Qccompare a b with Lt => true | _ => false end.
Definition qc_leb (a b : Qc) : bool := match Qccompare a b with Gt => false | _ => true end.
Definition qc_eqb (a b : Qc) : bool := match Qccompare a b with Eq => true | _ => false end.

Definition qc : arith := {|
  num := Qc;
  n0 := Q2Qc 0;
  nadd := Qcplus; nsub := Qcminus; nmul := Qcmult; ndiv := Qcdiv;
  nabs := fun x => if qc_ltb x (Q2Qc 0) then Qcopp x else x;
  nltb := qc_ltb; nleb := qc_leb; neqb := qc_eqb; nbit := qc_eqb;
  nofZ := fun z => Q2Qc (inject_Z z);
  n1em6 := Q2Qc (1 # 1000000);
  n1em10 := Q2Qc (1 # 10000000000)
|}.
