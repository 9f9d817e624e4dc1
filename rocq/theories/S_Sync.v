(** What it means that nobody waits in vain for a tool chain on a worker. *)
From Coq Require Import List.
Import ListNotations.
From Verif Require Import M_Sync.

(** A connection that is there and whose loss has not been noticed. *)
Definition connected (c : nat) (s : state) : Prop := In c (clients s) /\ forall l, stages s c <> Dropping l.

(** Something will still happen for the tool chain [t]: a connected client has been asked for it and has not answered; or the thread
    of a connection is on its way to start the jobs that wait for it, or to ask for its files, or to handle its own loss. *)
Definition moving (t : nat) (s : state) : Prop :=
  exists c, In c (clients s) /\
    ((connected c s /\ exists r, In (c, t, r) (reqs s)) \/
     stages s c = Checking t \/ stages s c = Requesting t \/ stages s c = Doomed \/ exists l, stages s c = Dropping l /\ In t l).

(** Nothing is going on any more: every request has been answered and no thread has anything left to do. *)
Definition at_rest (s : state) : Prop := reqs s = [] /\ forall c, In c (clients s) -> stages s c = Idle.

(** Connections are lost only after the manifests they were asked for have arrived, and one at a time. *)
Definition orderly_loss (s : state) (e : event) : Prop :=
  match e with
  | WDrop c => (forall t m, tools s t = Some m -> synced m = false -> user m = Some c -> files m <> []) /\
               (forall c' l, In c' (clients s) -> stages s c' <> Dropping l)
  | _ => True
  end.
Fixpoint orderly (s : state) (es : list event) : Prop :=
  match es with [] => True | e :: r => orderly_loss s e /\ orderly (step s e) r end.
