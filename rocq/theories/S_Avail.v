(** Vocabulary of property C83. *)

From Coq Require Import List Bool Arith.
From Verif Require Import M_Avail.
Import ListNotations.

(** The figure the worker goes by once everything that waits to be sent has
    arrived: the status that waits comes last, before it the greeting, before
    that what was sent already.  0 when there is nothing: a worker takes a
    client it has not heard of to have no jobs (Server.h, ClientState). *)
Definition belief (c : conn) : nat :=
  match status c with
  | Some n => n
  | None =>
      match at_ c with
      | Counted n | Noted n => n
      | _ => match got c with n :: _ => n | [] => 0 end
      end
  end.

(** The client's loop left the connection alone until it had been greeted
    with a figure: no [Tell] before the [Note]. *)
Definition undisturbed (h : list act) : Prop :=
  forall before late n after,
    h = before ++ Tell late n :: after -> In Note before.
