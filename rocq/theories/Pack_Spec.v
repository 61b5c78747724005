(** What it means for a packer to be correct. *)
From Verif Require Import Base Bytes_Model Pack_Model.
Local Open Scope Z_scope.

(** on every object satisfying [P]: packSize tells the exact number of bytes, pack
    succeeds when there is that much space and takes exactly that much from it, fails
    when there is less, and unpack gives the object back.  For bitwise types the same
    of memcpy. *)
Definition packs {T} (p : epacker T) (x : T) : Prop :=
  if Nat.eqb (ep_bin p) 0 then
    exists bytes, length bytes = ep_size p x /\
      (forall nleft, (ep_size p x <= nleft)%nat ->
         ep_pack p x nleft = Ok (bytes, (nleft - ep_size p x)%nat)) /\
      (forall nleft, (nleft < ep_size p x)%nat -> is_ok (ep_pack p x nleft) = false) /\
      ep_unpack p bytes = Ok x
  else
    length (ep_raw p x) = ep_bin p /\ ep_unraw p (ep_raw p x) = x /\ ep_size p x = ep_bin p.

(** total number of bytes needed for the elements themselves *)
Definition total {T} (p : epacker T) (xs : list T) : nat :=
  fold_right (fun x a => (ep_size p x + a)%nat) 0%nat xs.
