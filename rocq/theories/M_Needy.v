(** How a worker asks its clients for jobs.

    Models Code/Tools/FBuild/FBuildCore/Protocol/Server.cpp: OnConnected,
    OnDisconnected, the handlers of MsgConnection, MsgStatus,
    MsgNoJobAvailable and MsgJob, FindNeedyClients and FinalizeCompletedJobs,
    as steps of threads that interleave.  The server's own thread runs
    FinalizeCompletedJobs and FindNeedyClients in turn; every connection has
    a thread that handles its messages one after the other.

    Simplified: the 32 bit counters are natural numbers; the exit flag is
    left out (a worker that is told to exit just starts no further round);
    the order SortDeref leaves is any order of the clients, since the figures
    it compares change while it sorts (that it sorts is property C26). *)

From Coq Require Import List Bool Arith.
Import ListNotations.

(** Server.h:63-87 ClientState: [req], [act] and [avail] are
    m_NumJobsRequested, m_NumJobsActive and m_NumJobsAvailable; [mid] says
    that the connection's thread is in Process( MsgJob ) between lines 340
    and 341.  [owed] and [held] are not in the code: the requests the client
    has not answered, and the jobs that came and whose results were not sent
    back. *)
Record client := mkCl
  { req : nat; act : nat; avail : nat; mid : bool; owed : nat; held : nat }.

(** Server.cpp:106-113: a client that just connected. *)
Definition new_client : client := mkCl 0 0 0 false 0 0.

(** Server.cpp:631-713: where the server's thread is in FindNeedyClients.
    [Idle]: not in it (m_ClientListMutex is free).  [Count i acc]: at line
    652 with client [i] next.  [CountA i r acc]: between lines 655 and 656.
    [Pass ord todo acc any]: in the loop of line 676.  [Seen]: between lines
    678 and 680.  [Try]: at line 688.  [acc] is availableJobs, [any] is
    anyJobsRequested, [ord] the order of m_ClientList after line 668. *)
Inductive server :=
| Idle
| Count (i acc : nat)
| CountA (i r acc : nat)
| Pass (ord todo : list nat) (acc : nat) (any : bool)
| Seen (ord : list nat) (i r : nat) (todo : list nat) (acc : nat) (any : bool)
| Try (ord : list nat) (i : nat) (todo : list nat) (acc : nat) (any : bool).

(** Server.h:93-94: m_ClientList and the server's thread. *)
Record state := mkS { clients : list client; srv : server }.

(** Server.cpp:20-40: a worker nobody is connected to. *)
Definition start : state := mkS [] Idle.

(** What can happen. *)
Inductive label :=
| Start (n : nat)          (* FindNeedyClients is called, GetNumCPUsToUse is [n] *)
| Go                       (* the server's thread reads the next counter *)
| Sort (ord : list nat)    (* line 668 *)
| Lock (ok : bool)         (* lines 688-694: the try-lock succeeds or not *)
| Finish (i : nat)         (* FinalizeCompletedJobs: a job of client [i] *)
| Connect                  (* OnConnected *)
| Leave (i : nat)          (* OnDisconnected *)
| Status (i n : nat)       (* MsgConnection or MsgStatus *)
| NoJob (i : nat)          (* MsgNoJobAvailable *)
| JobIn (i : nat)          (* MsgJob, line 340 *)
| JobQueued (i : nat).     (* MsgJob, line 341 and on *)

(** The outcome of a step: it cannot happen now, an ASSERT fails, or it leads
    to a state. *)
Inductive outcome := Blocked | Failed | Next (s : state).

(** Change of one entry of the list of clients. *)
Fixpoint upd (i : nat) (c : client) (l : list client) : list client :=
  match l, i with
  | [], _ => []
  | _ :: r, 0 => c :: r
  | x :: r, S j => x :: upd j c r
  end.

(** Array::FindAndErase (OnDisconnected): the entry is taken out. *)
Fixpoint drop (i : nat) (l : list client) : list client :=
  match l, i with
  | [], _ => []
  | _ :: r, 0 => r
  | x :: r, S j => x :: drop j r
  end.

(** [ord] holds every position of a list of length [n] once. *)
Definition is_order (ord : list nat) (n : nat) : bool :=
  (length ord =? n) &&
  forallb (fun i => count_occ Nat.eq_dec ord i =? 1) (seq 0 n).

(** Server.cpp:631-713: the next read of the server's thread. *)
Definition go (l : list client) (p : server) : option server :=
  match p with
  | Count i acc =>
      (* lines 652-655 *)
      match nth_error l i with
      | Some c => Some (CountA i (req c) acc)
      | None => None
      end
  | CountA i r acc =>
      (* lines 656-662 *)
      match nth_error l i with
      | Some c =>
          if acc <=? r + act c then Some Idle
          else Some (Count (S i) (acc - (r + act c)))
      | None => None
      end
  | Pass ord [] acc any =>
      (* lines 672, 707-710 *)
      if any then Some (Pass ord ord acc false) else Some Idle
  | Pass ord (i :: todo) acc any =>
      (* lines 676-678 *)
      match nth_error l i with
      | Some c => Some (Seen ord i (req c) todo acc any)
      | None => None
      end
  | Seen ord i r todo acc any =>
      (* lines 680-683 *)
      match nth_error l i with
      | Some c =>
          if avail c <=? r then Some (Pass ord todo acc any)
          else Some (Try ord i todo acc any)
      | None => None
      end
  | _ => None
  end.

(** Server.cpp:693: m_NumJobsRequested.Increment and the request is sent. *)
Definition ask (c : client) : client :=
  mkCl (S (req c)) (act c) (avail c) (mid c) (S (owed c)) (held c).

(** One step. *)
Definition step (a : label) (s : state) : outcome :=
  let l := clients s in
  match a with
  | Start n =>
      (* lines 641-646 *)
      match srv s with
      | Idle => if n =? 0 then Next s else Next (mkS l (Count 0 (n + 1)))
      | _ => Blocked
      end
  | Go =>
      match go l (srv s) with Some p => Next (mkS l p) | None => Blocked end
  | Sort ord =>
      (* lines 664-676 *)
      match srv s with
      | Count i acc =>
          if (i =? length l) && is_order ord (length l)
          then Next (mkS l (Pass ord ord acc false)) else Blocked
      | _ => Blocked
      end
  | Lock ok =>
      (* lines 686-703 *)
      match srv s with
      | Try ord i todo acc any =>
          match nth_error l i with
          | Some c =>
              if ok then
                Next (mkS (upd i (ask c) l)
                        (if acc - 1 =? 0 then Idle else Pass ord todo (acc - 1) true))
              else Next (mkS l (Pass ord todo acc any))
          | None => Blocked
          end
      | _ => Blocked
      end
  | Finish i =>
      (* lines 717-775: a job the client sent is done *)
      match srv s, nth_error l i with
      | Idle, Some c =>
          if held c =? 0 then Blocked
          else if act c =? 0 then Failed
          else Next (mkS (upd i (mkCl (req c) (act c - 1) (avail c) (mid c) (owed c) (held c - 1)) l) Idle)
      | _, _ => Blocked
      end
  | Connect =>
      (* lines 106-113: waits for m_ClientListMutex *)
      match srv s with Idle => Next (mkS (l ++ [new_client]) Idle) | _ => Blocked end
  | Leave i =>
      (* lines 116-175: likewise, on the thread of the connection *)
      match srv s, nth_error l i with
      | Idle, Some c => if mid c then Blocked else Next (mkS (drop i l) Idle)
      | _, _ => Blocked
      end
  | Status i n =>
      (* lines 298, 313-321 *)
      match nth_error l i with
      | Some c =>
          if mid c then Blocked
          else Next (mkS (upd i (mkCl (req c) (act c) n (mid c) (owed c) (held c)) l) (srv s))
      | None => Blocked
      end
  | NoJob i =>
      (* lines 325-331: a client answers each request once *)
      match nth_error l i with
      | Some c =>
          if mid c || (owed c =? 0) then Blocked
          else if req c =? 0 then Failed
          else Next (mkS (upd i (mkCl (req c - 1) (act c) (avail c) (mid c) (owed c - 1) (held c)) l) (srv s))
      | None => Blocked
      end
  | JobIn i =>
      (* lines 337-340 *)
      match nth_error l i with
      | Some c =>
          if mid c || (owed c =? 0) then Blocked
          else if req c =? 0 then Failed
          else Next (mkS (upd i (mkCl (req c - 1) (act c) (avail c) true (owed c - 1) (held c)) l) (srv s))
      | None => Blocked
      end
  | JobQueued i =>
      (* line 341 and on *)
      match nth_error l i with
      | Some c =>
          if mid c
          then Next (mkS (upd i (mkCl (req c) (S (act c)) (avail c) false (owed c) (S (held c))) l) (srv s))
          else Blocked
      | None => Blocked
      end
  end.

(** A history. *)
Fixpoint run (h : list label) (s : state) : outcome :=
  match h with
  | [] => Next s
  | a :: r => match step a s with Next t => run r t | o => o end
  end.
