(** Model of the pool of threads that runs everything: Code/Core/Process/ThreadPool.cpp, and the Signal and Wait of Semaphore.cpp that it uses.
    Between two steps of a thread any other may run.  What a job does is left open but for its end and that it may add jobs. *)
From Coq Require Import List Arith Bool.
Import ListNotations.

(** ThreadJob, ThreadPool.h 36-41: a function that is not null, and its data. *)
Definition job := nat.
(** Where a thread is in ThreadPoolThread::ThreadFunc 138-173 and ThreadPool::ThreadFunc 77-116.
    [Create]: the first thread starts the others, 142-152.  [Take]: about to lock and look into the queue, 81-94.  [Run]: in the job, 97-105.
    [Told]: in the job, and between the two parts of EnqueueJob.  [Check]: found nothing, about to read m_WantToQuit, 108-111.
    [Wait]: in the semaphore, 114.  [Join]: the first thread waits for the others, 157-171.  [Gone]: ended. *)
Inductive pc := Create | Take | Run (j : job) | Told (j : job) | Check | Wait | Join | Gone.
(** How far ~ThreadPool 35-48 is: not called; m_WantToQuit is set and [k] signals are missing; finished. *)
Inductive phase := Open | Closing (k : nat) | Closed.
Record pool := Pool { queue : list job; sem : nat; mid : nat; ph : phase; threads : list pc }.   (* [mid]: callers between the two parts of EnqueueJob *)

(** What can be seen from outside. *)
Inductive obs := Submitted (j : job) | Began (t : nat) (j : job) | Ended (t : nat) (j : job) | Destroyed | Returned.
(** Who moves: a caller of EnqueueJob, its second part, the caller of the destructor, its signals and its end, a thread, a job that adds a job. *)
Inductive event := Enqueue (j : job) | Notify | Destroy | Post | Return | Step (t : nat) | Submit (t : nat) (j : job).

Fixpoint set (t : nat) (c : pc) (l : list pc) : list pc :=
  match t, l with _, [] => [] | 0, _ :: r => c :: r | S k, x :: r => x :: set k c r end.
Definition gone (c : pc) : bool := match c with Gone => true | _ => false end.
Definition closing (f : phase) : bool := match f with Open => false | _ => true end.

(** ThreadPool.cpp 14-32: one thread, a semaphore at 0 (Semaphore.cpp 25-48). *)
Definition start : pool := Pool [] 0 0 Open [Create].

Section P.
(** The number of threads; whether the semaphore has a maximum, which is that number: on Windows, ThreadPool.cpp 16-21. *)
Context (n : nat) (max : bool).
(** Semaphore.cpp 65-79: at the maximum a signal is lost. *)
Definition signal (s : nat) : nat := if max && (n <=? s) then s else S s.

Definition step (p : pool) (e : event) : option (pool * list obs) :=
  match e with
  | Enqueue j =>                                           (* ThreadPool.cpp 53-60; not once the destructor was called *)
      match ph p with Open => Some (Pool (queue p ++ [j]) (sem p) (S (mid p)) Open (threads p), [Submitted j]) | _ => None end
  | Notify => match mid p with 0 => None | S m => Some (Pool (queue p) (signal (sem p)) m (ph p) (threads p), []) end   (* 63 *)
  | Destroy =>                                             (* 40; not while someone is in EnqueueJob *)
      match ph p, mid p with Open, 0 => Some (Pool (queue p) (sem p) 0 (Closing n) (threads p), [Destroyed]) | _, _ => None end
  | Post => match ph p with Closing (S k) => Some (Pool (queue p) (signal (sem p)) (mid p) (Closing k) (threads p), []) | _ => None end   (* 41; Semaphore.cpp 83-102 *)
  | Return =>                                              (* 44: joins the first thread, 131-135 *)
      match ph p, threads p with Closing 0, Gone :: _ => Some (Pool (queue p) (sem p) (mid p) Closed (threads p), [Returned]) | _, _ => None end
  | Submit t k =>                                          (* EnqueueJob 53-60 in a job *)
      match nth_error (threads p) t with
      | Some (Run j) => Some (Pool (queue p ++ [k]) (sem p) (mid p) (ph p) (set t (Told j) (threads p)), [Submitted k])
      | _ => None
      end
  | Step t =>
      let go c := Pool (queue p) (sem p) (mid p) (ph p) (set t c (threads p)) in
      match nth_error (threads p) t with
      | None | Some Gone => None
      | Some Create => if length (threads p) <? n then Some (Pool (queue p) (sem p) (mid p) (ph p) (threads p ++ [Take]), []) else Some (go Take, [])
      | Some Take => match queue p with
                     | [] => Some (go Check, [])
                     | j :: q => Some (Pool q (sem p) (mid p) (ph p) (set t (Run j) (threads p)), [Began t j])
                     end
      | Some (Run j) => Some (go Take, [Ended t j])
      | Some (Told j) => Some (Pool (queue p) (signal (sem p)) (mid p) (ph p) (set t (Run j) (threads p)), [])
      | Some Check => if closing (ph p) then Some (go (if t =? 0 then Join else Gone), []) else Some (go Wait, [])
      | Some Wait => match sem p with 0 => None | S s => Some (Pool (queue p) s (mid p) (ph p) (set t Take (threads p)), []) end
      | Some Join => if forallb gone (tl (threads p)) then Some (go Gone, []) else None
      end
  end.

(** What happens up to now, in order. *)
Fixpoint run (p : pool) (es : list event) : option (pool * list obs) :=
  match es with
  | [] => Some (p, [])
  | e :: r => match step p e with
              | None => None
              | Some (q, o) => match run q r with None => None | Some (z, o') => Some (z, o ++ o') end
              end
  end.
Definition history (es : list event) : option (pool * list obs) := run start es.
End P.
