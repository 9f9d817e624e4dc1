(** Words used in the send queue theorems. *)
From Coq Require Import List Arith Bool.
From Verif Require Import M_SendQ.
Import ListNotations.

Definition msgs {A} (l : list (item A)) : list A := flat_map (fun x => match x with Msg a => [a] | Status _ => [] end) l.
Definition statuses {A} (l : list (item A)) : list A := flat_map (fun x => match x with Status a => [a] | Msg _ => [] end) l.
Definition last_of {A} (l : list A) : option A := match rev l with a :: _ => Some a | [] => None end.
(** [a] is [b] with some elements left out. *)
Inductive sub {A} : list A -> list A -> Prop :=
| sub_nil b : sub [] b
| sub_keep x a b : sub a b -> sub (x :: a) (x :: b)
| sub_skip x a b : sub a b -> sub a (x :: b).
