(** What is expected of a pool of threads, in terms of what is seen of it. *)
From Coq Require Import List.
From Verif Require Import M_TPool.
Import ListNotations.

Definition submitted (l : list obs) : list job := flat_map (fun o => match o with Submitted j => [j] | _ => [] end) l.
(** A thread with the job that it begins or ends. *)
Definition began (l : list obs) : list (nat * job) := flat_map (fun o => match o with Began t j => [(t, j)] | _ => [] end) l.
Definition ended (l : list obs) : list (nat * job) := flat_map (fun o => match o with Ended t j => [(t, j)] | _ => [] end) l.
(** The pool moves on by itself: no job is added and the destructor is not called. *)
Definition internal (e : event) : Prop := match e with Enqueue _ | Submit _ _ | Destroy => False | _ => True end.
(** Some thread ends its job. *)
Definition ends_job (l l' : list obs) : Prop := exists t j, l' = l ++ [Ended t j].
