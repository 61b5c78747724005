(** Common vocabulary of all model files. *)
From Coq Require Export List Arith ZArith Bool Lia.
From Coq Require Export ZifyBool ZifyNat.
Export ListNotations.

(** Outcome of a C++ operation.
    - [Ok]  : normal return;
    - [Err] : the operation throws (FailWhen / Throw macros, TimBase Debug.h);
    - [UB]  : undefined behaviour in C++ (read past the end of a container,
              null dereference, ...).  Never identified with a normal result. *)
Inductive res (A : Type) : Type :=
| Ok (a : A)
| Err
| UB.
Arguments Ok {A} a.
Arguments Err {A}.
Arguments UB {A}.

Definition bind {A B} (r : res A) (f : A -> res B) : res B :=
  match r with Ok a => f a | Err => Err | UB => UB end.

Definition is_ok {A} (r : res A) : bool :=
  match r with Ok _ => true | _ => false end.

Arguments Nat.div : simpl never.
Arguments Nat.modulo : simpl never.
Arguments Z.mul : simpl never.
Arguments Z.pow : simpl never.
Arguments Z.div : simpl never.
Arguments Z.modulo : simpl never.
Arguments Z.add : simpl never.
Arguments Z.sub : simpl never.
