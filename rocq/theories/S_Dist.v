(** Words for the properties of distributable jobs.  C10, C37 *)
From Coq Require Import List Arith Bool NArith.
From Verif Require Import M_Dist.
Import ListNotations.

(** How often a number is in a list. *)
Definition cnt (x : nat) (l : list nat) : nat := count_occ Nat.eq_dec l x.
(** The local runs of a job, its results waiting to be finalized, the connections that have it. *)
Definition runs (j : nat) (l : list (nat * lkind)) := map snd (filter (is_run j) l).
Definition ends (j : nat) (l : list (nat * result)) := map snd (filter (fun x => fst x =? j) l).
Definition holds (j : nat) (l : list (nat * nat * hstage)) := map (fun x => (fst (fst x), snd x)) (filter (fun x => snd (fst x) =? j) l).
(** How often a job was finalized, deleted, returned with a system error, put back because of one. *)
Definition finals (j : nat) (l : list entry) := List.length (filter (fun e => match e with LFinal i _ => i =? j | _ => false end) l).
Definition frees (j : nat) (l : list entry) := List.length (filter (fun e => match e with LFreed i => i =? j | _ => false end) l).
Definition errors (j : nat) (l : list entry) := List.length (filter (fun e => match e with LSys _ i => i =? j | _ => false end) l).
Definition retries (j : nat) (l : list entry) := List.length (filter (fun e => match e with LRetry i => i =? j | _ => false end) l).
(** The workers on which a job had a system error. *)
Fixpoint error_workers (j : nat) (l : list entry) : list nat :=
  match l with [] => [] | LSys w i :: r => if i =? j then w :: error_workers j r else error_workers j r | _ :: r => error_workers j r end.
(** Some thread has the job and it has neither a result nor was it finalized. *)
Definition worked_on (s : state) (j : nat) : nat :=
  match ends j (done s ++ done2 s), finals j (log s), runs j (local s), holds j (hold s) with
  | [], 0, [], [] => 0
  | [], 0, _, _ => 1
  | _, _, _, _ => 0
  end.
(** Nothing is going on. *)
Definition quiet (s : state) : Prop :=
  queue s = [] /\ avail s = [] /\ local s = [] /\ hold s = [] /\ done s = [] /\ done2 s = [].

(** A finished local race, not yet finalized, meets the end of its remote counterpart: a system error or a lost connection, or any
    result when the local race did not end well. *)
Definition late (s : state) (e : event) : Prop :=
  match e with
  | EReturn w j => exists ok sys r, In (w, j, Got ok sys) (hold s) /\ In (j, r) (done s ++ done2 s) /\ (sys = true \/ r <> ROk)
  | EDrop w j => In w (closing s) /\ In (w, j, InFlight) (hold s) /\ exists r, In (j, r) (done s ++ done2 s)
  | _ => False
  end.
(** Whether a history has no late event. *)
Fixpoint timely (s : state) (es : list event) : Prop :=
  match es with [] => True | e :: r => ~ late s e /\ match step s e with Some s' => timely s' r | None => True end end.
