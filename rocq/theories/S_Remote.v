(** Words used in the worker queue theorems. *)
From Coq Require Import List NArith.
From Verif Require Import M_Remote.
Import ListNotations.

(** Connection [k] is up in state [s] and its client state is at address [a]. *)
Definition up (s : state) (k : nat) (a : N) : Prop :=
  exists c, In c (clients s) /\ c_conn c = k /\ c_addr c = a /\ ~ In a (map fst (closing s)).
(** Connection [k] was made and its disconnection has been dealt with. *)
Definition gone (s : state) (k : nat) : Prop := k < next_conn s /\ forall c, In c (clients s) -> c_conn c <> k.
(** The addresses given to client states over a run. *)
Definition addresses (es : list event) : list N := flat_map (fun e => match e with Connect a => [a] | _ => [] end) es.
(** Jobs accepted from connection [k], results sent to it. *)
Definition accepted (s : state) (k : nat) : list (nat * nat) := filter (fun x => Nat.eqb (snd x) k) (born s).
Definition answered (s : state) (k : nat) : list (nat * nat * bool) := filter (fun x => Nat.eqb (snd (fst x)) k) (sent s).
