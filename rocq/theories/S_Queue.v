(** Specification vocabulary for C11 and C12. *)
From Coq Require Import List Arith Bool NArith.
From Verif Require Import M_Queue.
Import ListNotations.

(** All jobs ever added by a history. *)
Fixpoint added (ops : list qop) : list job :=
  match ops with [] => [] | QAdd l :: r => l ++ added r | QTake :: r => added r end.

(** C11: jobs of group [g] made available and not yet finalised. *)
Definition in_flight (s : gsys) (g : nat) : nat :=
  length (filter (fun j => f_group j =? g) (s_fly s)).
(** Jobs of group [g] running on this machine's worker threads. *)
Definition running_here (s : gsys) (g : nat) : nat :=
  length (filter (fun j => on_thread j && (f_group j =? g)) (s_fly s)).
(** Jobs of group [g] being built here or on remote workers. *)
Definition running_anywhere (s : gsys) (g : nat) : nat :=
  length (filter (fun j => match f_phase j with
                           | JLocal | JDistLocal | JRace | JRemote => true | _ => false end
                           && (f_group j =? g)) (s_fly s)).

(** (id, group) of the jobs held back in staging. *)
Definition staged_from (i : nat) (gs : list gstate) : list (nat * nat) :=
  concat (map (fun p => map (fun id => (id, fst p)) (g_staging (snd p))) (combine (seq i (length gs)) gs)).
Definition staged (s : gsys) : list (nat * nat) := staged_from 0 (s_groups s).

(** (id, group) of all jobs a history submits. *)
Fixpoint submitted (evs : list gev) : list (nat * nat) :=
  match evs with [] => [] | GAdd id g :: r => (id, g) :: submitted r | _ :: r => submitted r end.

(** Limits as SettingsNode::InitializeConcurrencyGroups leaves them: at least 1, at most "unlimited". *)
Definition good_limits (limits : nat -> N) : Prop := forall g, (1 <= limits g <= eUnlimited)%N.
