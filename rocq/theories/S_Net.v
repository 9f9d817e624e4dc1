(** Specification vocabulary for message transport. *)
From Coq Require Import List Arith Bool NArith Lia.
From Verif Require Import M_Bytes M_Net.
Import ListNotations.
Local Open Scope N_scope.

(** A message a program may send to a side that handles the types [known]: its second byte is its size, its third says whether there is
    a payload, and everything fits in 32 bits (in 31 if the receiver runs Windows). *)
Definition good_message (windows : bool) (known : list N) (m : message) : Prop :=
  In (nth 0 (body m) 0) known /\ 4 <= blen (body m) < 256 /\ nth 1 (body m) 0 = blen (body m) /\
  nth 2 (body m) 0 = (match payload m with None => 0 | Some _ => 1 end) /\
  match payload m with None => True | Some pl => blen pl <= recv_max windows - 264 end.

Definition prefix {A} (a b : list A) : Prop := exists t, b = a ++ t.
