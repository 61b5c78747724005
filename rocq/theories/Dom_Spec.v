(** Vocabulary for the properties of Domain, independent of the code. *)
From Verif Require Import Base Flt_Model Dom_Model.

Section Spec.
Variable A : arith.
Notation domain := (Dom_Model.domain A).
Notation isDefined := (Dom_Model.isDefined A).
Notation start := (Dom_Model.start A).
Notation stop := (Dom_Model.stop A).

(** Every axis the domain defines is a non-empty interval (this also excludes NaN). *)
Definition proper (d : domain) : Prop :=
  forall i, isDefined d i = true -> nltb A (start d i) (stop d i) = true.

(** [a] contains [b]: along every axis that [b] defines. *)
Definition contains (a b : domain) : Prop :=
  forall i, isDefined b i = true ->
    isDefined a i = true /\ nleb A (start a i) (start b i) = true /\ nleb A (stop b i) (stop a i) = true.

(** The same axes, with ranges that compare equal as numbers. *)
Definition same_domain (a b : domain) : Prop :=
  forall i, isDefined a i = isDefined b i /\
    (isDefined a i = true -> neqb A (start a i) (start b i) = true /\ neqb A (stop a i) (stop b i) = true).

(** The same axes, with identical ranges. *)
Definition identical (a b : domain) : Prop :=
  forall i, isDefined a i = isDefined b i /\ start a i = start b i /\ stop a i = stop b i.

(** [a] covers the projection of [b] onto the axes of [a]
    (documentation of supersetOfProj, Domain.h:115-118). *)
Definition covers_projection (a b : domain) : Prop :=
  forall i, isDefined a i = true ->
    isDefined b i = true /\ nleb A (start a i) (start b i) = true /\ nleb A (stop b i) (stop a i) = true.

(** Laws of comparison that the proofs use; [ok] says which numbers are ordered (not NaN). *)
Record ordered (ok : num A -> Prop) : Prop := {
  o_refl : forall a, ok a -> nleb A a a = true;
  o_trans : forall a b c, nleb A a b = true -> nleb A b c = true -> nleb A a c = true;
  o_lt : forall a b, ok a -> ok b -> nltb A b a = negb (nleb A a b);
  o_eq : forall a b, ok a -> ok b -> neqb A a b = nleb A a b && nleb A b a;
  o_total : forall a b, ok a -> ok b -> nleb A a b = true \/ nleb A b a = true;
  o_ltok : forall a b, nltb A a b = true -> ok a /\ ok b;
  o_leok : forall a b, nleb A a b = true -> ok a /\ ok b
}.
End Spec.
