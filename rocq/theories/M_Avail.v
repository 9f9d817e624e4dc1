(** What a client tells a worker about the number of jobs it has to give
    away.

    Models Code/Tools/FBuild/FBuildCore/Protocol/Client.cpp.  One connection
    of the client to one worker is followed.  Three threads of the client
    touch it: the client's own loop (CommunicateJobAvailability), the thread
    that connects and then sends (SendQueueThreadFunc, SendQueueMainLoop),
    and the thread that receives (Process of MsgRequestJob).

    Simplified: the number of jobs to give away changes all the time, so
    every step that reads it carries the number it read.  Messages with jobs
    and manifests are left out, they do not carry the number (their order is
    property C35).  The 32 bit counters are natural numbers: nothing is
    added to them. *)

From Coq Require Import List Bool Arith.
Import ListNotations.

(** Client.cpp:1214-1250: how far the connecting thread is: still in
    [Connect]; it has read the number of jobs (line 1239); it has noted it
    in m_NumJobsAvailableSentToClient (line 1240); it has sent MsgConnection
    and runs SendQueueMainLoop (lines 1241-1245). *)
Inductive phase := Connecting | Counted (n : nat) | Noted (n : nat) | Up.

(** Client.cpp:87-137: the part of ClientToWorkerConnection that matters.
    [sent] is m_NumJobsAvailableSentToClient (line 104, starts at 0) and
    [status] is m_MsgStatus, the one status message that waits to be sent.
    [got] is not in the code: the figures that were sent to the worker, the
    latest first. *)
Record conn := mkC { at_ : phase; sent : nat; status : option nat; got : list nat }.

(** Client.cpp:377-381, 104: a new connection. *)
Definition fresh : conn := mkC Connecting 0 None [].

(** Client.cpp:439-456: is the worker to be told?  [late] is timerExpired. *)
Definition to_tell (late : bool) (n sent : nat) : bool :=
  (late && negb (sent =? n)) || (negb (n =? 0) && (sent =? 0)).

(** Client.cpp:1187-1197: EnqueueSendJobAvailability. *)
Definition enqueue (n : nat) (c : conn) : conn := mkC (at_ c) n (Some n) (got c).

(** Client.cpp:419-469: CommunicateJobAvailability for this connection, with
    the early return of lines 431-435. *)
Definition communicate (late : bool) (n : nat) (c : conn) : conn :=
  if negb late && (n =? 0) then c
  else if to_tell late n (sent c) then enqueue n c else c.

(** What can happen on the connection. *)
Inductive act :=
| Count (n : nat)               (* line 1239 *)
| Note                          (* line 1240 *)
| Hello                         (* lines 1241-1242: MsgConnection is sent *)
| Tell (late : bool) (n : nat)  (* CommunicateJobAvailability *)
| Flush                         (* lines 1270-1290: the status is sent *)
| Give.                         (* lines 578-602: a job is given to the worker *)

(** Client.cpp:1214-1305, 419-469, 563-602: one step; [None]: it cannot
    happen now. *)
Definition step (a : act) (c : conn) : option conn :=
  match a, at_ c with
  | Count n, Connecting => Some (mkC (Counted n) (sent c) (status c) (got c))
  | Note, Counted n => Some (mkC (Noted n) n (status c) (got c))
  | Hello, Noted n => Some (mkC Up (sent c) (status c) (n :: got c))
  | Tell late n, _ => Some (communicate late n c)
  | Flush, Up =>
      match status c with
      | Some n => Some (mkC Up (sent c) None (n :: got c))
      | None => None
      end
  | Give, Up => Some (mkC Up 0 (status c) (got c))
  | _, _ => None
  end.

(** A history of steps. *)
Fixpoint run (h : list act) (c : conn) : option conn :=
  match h with
  | [] => Some c
  | a :: r => match step a c with Some c' => run r c' | None => None end
  end.
