(** Vocabulary of property C82. *)

From Coq Require Import List Bool Arith.
From Verif Require Import M_Needy.
Import ListNotations.

(** The jobs a worker has let itself in for with one client: requests not
    answered, jobs that came and are not done, and the one being received. *)
Definition burden1 (c : client) : nat :=
  owed c + held c + (if mid c then 1 else 0).

(** With all its clients. *)
Definition burden (s : state) : nat := list_sum (map burden1 (clients s)).

(** The number of processors the latest round of asking went by. *)
Fixpoint cpus (h : list label) (n : nat) : nat :=
  match h with
  | [] => n
  | Start m :: r => cpus r m
  | _ :: r => cpus r n
  end.

(** The step sends a request. *)
Definition asks (a : label) : bool := match a with Lock true => true | _ => false end.

(** The steps of the server's own thread in a round of asking. *)
Definition own (a : label) : bool :=
  match a with Go | Sort _ | Lock _ => true | _ => false end.

(** The order is by the number of jobs the clients have, most first. *)
Definition neediest_first (l : list client) (ord : list nat) : Prop :=
  forall x i y j z ci cj, ord = x ++ i :: y ++ j :: z ->
    nth_error l i = Some ci -> nth_error l j = Some cj -> avail cj <= avail ci.
