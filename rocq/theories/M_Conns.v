(** How a client connects to the workers of its pool, and what its profile
    says about them.

    Models Tools/FBuild/FBuildCore/Protocol/Client.cpp (FindPotentialWorkers,
    RegisterFoundWorkers, ConnectToWorkers, SendQueueThreadFunc and the deny
    list) and Tools/FBuild/FBuildCore/Helpers/BuildProfiler.cpp
    (RecordRemote). *)

From Coq Require Import List Bool Arith ZArith.
From Verif Require Import M_Path.
Import ListNotations.

(** One worker of the pool (Client.cpp lines 38-53, ClientWorkerInfo): its
    address, m_InUse, m_DenyListed and the moment at which
    m_ConnectionDelayTimer was started.  Time is counted in milliseconds; the
    code measures it as a float of seconds.  m_UniqueId is modelled by
    [unique_id]. *)
Record worker := mkW { address : str; in_use : bool; denied : bool; since : Z }.

(** What the thread of a connection is doing (lines 1200-1256): it is in
    Connect, it has connected, or it has stored m_Complete. *)
Inductive stage := Connecting | Up | Over.

(** Where the client's own thread is in ConnectToWorkers (lines 338-415): not
    in it, in the loop over the connections with so many still to look at, or
    in the loop over the workers with so many rounds left. *)
Inductive place := Outside | Reaping (i : nat) | Looking (k : nat).

(** A connection is modelled by the position of its worker in the pool
    (m_Worker) and its stage; [conns] is m_ActiveConnections, [next]
    m_NextWorkerIndex. *)
Record state := mkS {
  pool : list worker; conns : list (nat * stage); next : nat; now : Z; at_ : place }.

Inductive outcome := Next (s : state) | Blocked | Failed.

(** CONNECTION_REATTEMPT_DELAY_TIME, line 33. *)
Definition delay : Z := 10000%Z.

(** RegisterFoundWorkers, lines 305-335: SetElapsed makes the timer look as if
    it had been started [delay] ago.  The random index of line 334 is a
    parameter. *)
Definition found (t : Z) (l : list str) : list worker :=
  map (fun a => mkW a false false (t - delay)) l.
Definition start (l : list str) (first : nat) (t : Z) : state :=
  mkS (found t l) [] first t Outside.

(** Replace one element. *)
Fixpoint upd {A} (i : nat) (f : A -> A) (l : list A) : list A :=
  match l, i with
  | [], _ => []
  | x :: r, 0 => f x :: r
  | x :: r, S i' => x :: upd i' f r
  end.
(** Array::Erase of one element. *)
Fixpoint drop {A} (i : nat) (l : list A) : list A :=
  match l, i with
  | [], _ => []
  | _ :: r, 0 => r
  | x :: r, S i' => x :: drop i' r
  end.

Definition use (b : bool) (w : worker) := mkW (address w) b (denied w) (since w).
Definition deny (w : worker) := mkW (address w) (in_use w) true (since w).
Definition restart (t : Z) (w : worker) := mkW (address w) (in_use w) (denied w) t.

(** Lines 345-365, one round of the loop over the connections, which goes from
    the last to the first. *)
Definition reap (i : nat) (s : state) : outcome :=
  match nth_error (conns s) i with
  | None => Failed
  | Some (w, Over) =>
      match nth_error (pool s) w with
      | None => Failed
      | Some _ => Next (mkS (upd w (use false) (pool s)) (drop i (conns s)) (next s) (now s) (Reaping i))
      end
  | Some _ => Next (mkS (pool s) (conns s) (next s) (now s) (Reaping i))
  end.

(** Lines 368-414, one round of the loop over the workers.  numConnections is
    the number of active connections: only this thread changes them. *)
Definition look (limit k : nat) (s : state) : outcome :=
  let n := length (conns s) in
  let skip p c x q := Next (mkS p c x (now s) q) in
  if limit <=? n then skip (pool s) (conns s) (next s) Outside
  else if length (pool s) <=? n then skip (pool s) (conns s) (next s) Outside
  else
    match nth_error (pool s) (next s) with
    | None => Failed
    | Some w =>
        let x := S (next s) mod length (pool s) in
        if in_use w then skip (pool s) (conns s) x (Looking k)
        else if denied w then skip (pool s) (conns s) x (Looking k)
        else if (now s - since w <? delay)%Z then skip (pool s) (conns s) x (Looking k)
        else skip (upd (next s) (use true) (pool s)) (conns s ++ [(next s, Connecting)]) x (Looking k)
    end.

(** What can happen.  [Own] is the client's thread going on in
    ConnectToWorkers; the others happen at any time on the threads of
    connections, named by their position. *)
Inductive label :=
| Own                  (* the client's thread takes its next step *)
| Tick (d : N)         (* time passes *)
| Accept (i : nat)     (* lines 1221-1235: the connection is made *)
| Refuse (i : nat)     (* lines 1225-1231, 1207: the attempt failed *)
| Lose (i : nat)       (* lines 1237-1255, 1207: the connection has ended *)
| Misbehave (i : nat). (* lines 771-773: a system error on the worker *)

Definition step (limit : nat) (a : label) (s : state) : outcome :=
  match a with
  | Own =>
      match at_ s with
      | Outside => Next (mkS (pool s) (conns s) (next s) (now s) (Reaping (length (conns s))))
      | Reaping 0 => Next (mkS (pool s) (conns s) (next s) (now s) (Looking (length (pool s))))
      | Reaping (S i) => reap i s
      | Looking 0 => Next (mkS (pool s) (conns s) (next s) (now s) Outside)
      | Looking (S k) => look limit k s
      end
  | Tick d => Next (mkS (pool s) (conns s) (next s) (now s + Z.of_N d) (at_ s))
  | Accept i =>
      match nth_error (conns s) i with
      | Some (_, Connecting) =>
          Next (mkS (pool s) (upd i (fun c => (fst c, Up)) (conns s)) (next s) (now s) (at_ s))
      | _ => Blocked
      end
  | Refuse i =>
      match nth_error (conns s) i with
      | Some (w, Connecting) =>
          Next (mkS (upd w (restart (now s)) (pool s)) (upd i (fun c => (fst c, Over)) (conns s))
                    (next s) (now s) (at_ s))
      | _ => Blocked
      end
  | Lose i =>
      match nth_error (conns s) i with
      | Some (_, Up) =>
          Next (mkS (pool s) (upd i (fun c => (fst c, Over)) (conns s)) (next s) (now s) (at_ s))
      | _ => Blocked
      end
  | Misbehave i =>
      match nth_error (conns s) i with
      | Some (w, Up) | Some (w, Over) =>
          Next (mkS (upd w deny (pool s)) (conns s) (next s) (now s) (at_ s))
      | _ => Blocked
      end
  end.

(** A history. *)
Fixpoint run (limit : nat) (h : list label) (s : state) : outcome :=
  match h with
  | [] => Next s
  | a :: r => match step limit a s with Next t => run limit r t | o => o end
  end.

(** * The profile *)

(** What BuildProfiler keeps of workers and remote jobs (BuildProfiler.h lines
    67-125): names and highest threads, and events with a machine and a
    thread.  Times and texts of events are not modelled, the target's name
    is. *)
Record profile := mkP { infos : list (str * nat); events : list (nat * nat * str) }.

(** RegisterFoundWorkers, line 327: m_UniqueId of each worker. *)
Definition unique_id (l : list str) (w : nat) : nat := length l.

(** Array::SetSize with default elements. *)
Definition set_size (n : nat) (l : list (str * nat)) : list (str * nat) :=
  firstn n l ++ repeat ([], 0) (n - length l).

(** BuildProfiler.cpp lines 74-106, RecordRemote. *)
Definition record_remote (id : nat) (name : str) (thread : nat) (target : str) (p : profile) : profile :=
  mkP (if length (infos p) <=? id
       then upd id (fun _ => (name, thread)) (set_size (S id) (infos p))
       else upd id (fun q => (fst q, Nat.max (snd q) thread)) (infos p))
      (events p ++ [(id, thread, target)]).

(** A job done by a worker of the pool, Client.cpp lines 828-837. *)
Record remote := mkR { by_worker : nat; on_thread : nat; of_target : str }.

Definition record_job (ids : nat -> nat) (l : list str) (p : profile) (r : remote) : profile :=
  record_remote (ids (by_worker r)) (nth (by_worker r) l []) (on_thread r) (of_target r) p.

Definition profile_of (ids : nat -> nat) (l : list str) (rs : list remote) : profile :=
  fold_left (record_job ids l) rs (mkP [] []).
