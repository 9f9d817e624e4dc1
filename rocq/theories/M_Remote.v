(** Model of the life of jobs on a worker: arrival, waiting for a tool chain, queue, build threads, report, and what
    happens when a client disconnects.  Sources: WorkerPool/JobQueueRemote.cpp 140-296, WorkerPool/WorkerThreadRemote.cpp
    38-75, Protocol/Server.cpp 104-181, 335-428, 563-600, 717-779.
    Every critical section is one step, so an event list is an interleaving of the network threads, the worker threads and
    the server thread.  A job is named by a number (its address is never compared after it is freed); a client state is
    named by its address, which the allocator may hand out again after FDELETE. *)
From Coq Require Import List Arith Bool NArith.
Import ListNotations.

Inductive result := ROk | RFailed | RAborted.
(** Job.  [j_conn]: the connection it came from, counted from 0 (not in the code); [j_user]: m_UserData. *)
Record job := mkJob { j_id : nat; j_conn : nat; j_user : option N }.
(** ClientState, Server.h: address and m_NumJobsActive.  [c_conn]: the connection (not in the code). *)
Record client := mkCl { c_conn : nat; c_addr : N; c_active : N }.

Record state := mkSt {
  clients : list client;             (* m_ClientList *)
  waiting : list job;                (* m_WaitingJobs of all clients *)
  pending : list job;                (* m_PendingJobs *)
  flight : list job;                 (* m_InFlightJobs *)
  leaving : list (job * result);     (* worker threads between the two halves of FinishedProcessingJob, user data not yet looked at *)
  pushing : list (job * result);     (* ... user data was not null *)
  done : list job; failed : list job; aborted : list job;   (* m_CompletedJobs, m_CompletedJobsFailed, m_CompletedJobsAborted *)
  hand : option (job * result);      (* the job FinalizeCompletedJobs holds *)
  closing : list (N * nat);          (* OnDisconnected calls in progress: client, sections of CancelJobsWithUserData done *)
  next_conn : nat; next_job : nat;
  (* history, not in the code: all connections, all jobs with their connection, deleted jobs, results sent
     (job, receiving connection, success), aborted jobs *)
  conns : list (nat * N); born : list (nat * nat); freed : list nat; sent : list (nat * nat * bool); dropped : list nat }.

Definition init : state := mkSt [] [] [] [] [] [] [] [] [] None [] 0 0 [] [] [] [] [].

Definition user_is (a : N) (j : job) : bool := match j_user j with Some b => N.eqb b a | None => false end.
Definition unhook (a : N) (j : job) : job := if user_is a j then mkJob (j_id j) (j_conn j) None else j.
(** The first element that satisfies [f], and the list without it. *)
Fixpoint take {A} (f : A -> bool) (l : list A) : option (A * list A) :=
  match l with
  | [] => None
  | x :: r => if f x then Some (x, r) else match take f r with Some (y, r') => Some (y, x :: r') | None => None end
  end.
(** Increment and Decrement of m_NumJobsActive of the client at [a]; 32-bit wrap. *)
Definition bump (f : N -> N) (a : N) (cs : list client) : list client :=
  map (fun c => if N.eqb (c_addr c) a then mkCl (c_conn c) (c_addr c) (f (c_active c)) else c) cs.
Definition inc32 (n : N) : N := (n + 1) mod 4294967296.
Definition dec32 (n : N) : N := (n + 4294967295) mod 4294967296.
Definition find_client (a : N) (cs : list client) : option client := find (fun c => N.eqb (c_addr c) a) cs.
Definition phase (a : N) (cl : list (N * nat)) : option nat :=
  match find (fun x => N.eqb (fst x) a) cl with Some (_, p) => Some p | None => None end.
Definition set_phase (a : N) (p : nat) (cl : list (N * nat)) : list (N * nat) :=
  map (fun x => if N.eqb (fst x) a then (a, p) else x) cl.
Definition ids := map j_id.

Inductive event :=
| Connect (a : N)                    (* a connection; its ClientState is allocated at [a] *)
| Arrive (a : N) (ready : bool)      (* MsgJob from the client at [a]; its tool chain is [ready] or not *)
| Ready (id : nat)                   (* CheckWaitingJobs starts a waiting job *)
| Get                                (* a worker thread takes a job *)
| Leave (id : nat) (r : result)      (* it has built it: first half of FinishedProcessingJob *)
| Look (id : nat)                    (* it looks at the user data *)
| Push (id : nat)                    (* second half of FinishedProcessingJob *)
| Pop                                (* the server thread takes a completed job *)
| Report                             (* and reports and deletes it *)
| Close (a : N)                      (* the connection is lost: OnDisconnected, next section *)
.

Definition step (s : state) (e : event) : option state :=
  match e with
  (* Server::OnConnected, Server.cpp 104-112.  The address of a live object is not handed out. *)
  | Connect a =>
      match find_client a (clients s) with
      | Some _ => None
      | None => Some (mkSt (clients s ++ [mkCl (next_conn s) a 0]) (waiting s) (pending s) (flight s) (leaving s) (pushing s)
                  (done s) (failed s) (aborted s) (hand s) (closing s) (S (next_conn s)) (next_job s)
                  (conns s ++ [(next_conn s, a)]) (born s) (freed s) (sent s) (dropped s))
      end
  (* Process( MsgJob ), Server.cpp 335-428, on the thread of the connection, so not once OnDisconnected has started *)
  | Arrive a ready =>
      match find_client a (clients s), phase a (closing s) with
      | Some c, None =>
          let j := mkJob (next_job s) (c_conn c) (Some a) in
          Some (mkSt (bump inc32 a (clients s)) (if ready then waiting s else waiting s ++ [j]) (if ready then pending s ++ [j] else pending s)
                (flight s) (leaving s) (pushing s) (done s) (failed s) (aborted s) (hand s) (closing s) (next_conn s) (S (next_job s))
                (conns s) (born s ++ [(next_job s, c_conn c)]) (freed s) (sent s) (dropped s))
      | _, _ => None
      end
  (* CheckWaitingJobs, Server.cpp 563-600, one job of one client; QueueJob, JobQueueRemote.cpp 142-151 *)
  | Ready id =>
      match take (fun j => Nat.eqb (j_id j) id) (waiting s) with
      | Some (j, w) => Some (mkSt (clients s) w (pending s ++ [j]) (flight s) (leaving s) (pushing s) (done s) (failed s) (aborted s)
                        (hand s) (closing s) (next_conn s) (next_job s) (conns s) (born s) (freed s) (sent s) (dropped s))
      | None => None
      end
  (* GetJobToProcess, JobQueueRemote.cpp 244-262 *)
  | Get =>
      match pending s with
      | j :: r => Some (mkSt (clients s) (waiting s) r (flight s ++ [j]) (leaving s) (pushing s) (done s) (failed s) (aborted s)
                        (hand s) (closing s) (next_conn s) (next_job s) (conns s) (born s) (freed s) (sent s) (dropped s))
      | [] => None
      end
  (* FinishedProcessingJob, JobQueueRemote.cpp 268-274 *)
  | Leave id r =>
      match take (fun j => Nat.eqb (j_id j) id) (flight s) with
      | Some (j, f) => Some (mkSt (clients s) (waiting s) (pending s) f (leaving s ++ [(j, r)]) (pushing s) (done s) (failed s) (aborted s)
                        (hand s) (closing s) (next_conn s) (next_job s) (conns s) (born s) (freed s) (sent s) (dropped s))
      | None => None
      end
  (* JobQueueRemote.cpp 276-281 *)
  | Look id =>
      match take (fun x => Nat.eqb (j_id (fst x)) id) (leaving s) with
      | Some (x, l) =>
          match j_user (fst x) with
          | None => Some (mkSt (clients s) (waiting s) (pending s) (flight s) l (pushing s) (done s) (failed s) (aborted s)
                        (hand s) (closing s) (next_conn s) (next_job s) (conns s) (born s) (freed s ++ [j_id (fst x)]) (sent s) (dropped s))
          | Some _ => Some (mkSt (clients s) (waiting s) (pending s) (flight s) l (pushing s ++ [x]) (done s) (failed s) (aborted s)
                        (hand s) (closing s) (next_conn s) (next_job s) (conns s) (born s) (freed s) (sent s) (dropped s))
          end
      | None => None
      end
  (* JobQueueRemote.cpp 283-293 *)
  | Push id =>
      match take (fun x => Nat.eqb (j_id (fst x)) id) (pushing s) with
      | Some ((j, r), l) =>
          Some (mkSt (clients s) (waiting s) (pending s) (flight s) (leaving s) l
                (match r with ROk => done s ++ [j] | _ => done s end) (match r with RFailed => failed s ++ [j] | _ => failed s end)
                (match r with RAborted => aborted s ++ [j] | _ => aborted s end)
                (hand s) (closing s) (next_conn s) (next_job s) (conns s) (born s) (freed s) (sent s) (dropped s))
      | None => None
      end
  (* GetCompletedJob, JobQueueRemote.cpp 157-191 *)
  | Pop =>
      match hand s with
      | Some _ => None
      | None =>
          match done s, failed s, aborted s with
          | j :: r, _, _ => Some (mkSt (clients s) (waiting s) (pending s) (flight s) (leaving s) (pushing s) r (failed s) (aborted s)
                              (Some (j, ROk)) (closing s) (next_conn s) (next_job s) (conns s) (born s) (freed s) (sent s) (dropped s))
          | [], j :: r, _ => Some (mkSt (clients s) (waiting s) (pending s) (flight s) (leaving s) (pushing s) (done s) r (aborted s)
                              (Some (j, RFailed)) (closing s) (next_conn s) (next_job s) (conns s) (born s) (freed s) (sent s) (dropped s))
          | [], [], j :: r => Some (mkSt (clients s) (waiting s) (pending s) (flight s) (leaving s) (pushing s) (done s) (failed s) r
                              (Some (j, RAborted)) (closing s) (next_conn s) (next_job s) (conns s) (born s) (freed s) (sent s) (dropped s))
          | [], [], [] => None
          end
      end
  (* The body of FinalizeCompletedJobs, Server.cpp 726-777 *)
  | Report =>
      match hand s with
      | None => None
      | Some (j, r) =>
          let target := match r, j_user j with
                        | RAborted, _ | _, None => None
                        | _, Some a => find_client a (clients s)
                        end in
          Some (mkSt (match target with Some c => bump dec32 (c_addr c) (clients s) | None => clients s end)
                (waiting s) (pending s) (flight s) (leaving s) (pushing s) (done s) (failed s) (aborted s)
                None (closing s) (next_conn s) (next_job s) (conns s) (born s) (freed s ++ [j_id j])
                (match target with Some c => sent s ++ [(j_id j, c_conn c, match r with ROk => true | _ => false end)] | None => sent s end)
                (match r with RAborted => dropped s ++ [j_id j] | _ => dropped s end))
      end
  (* Server::OnDisconnected, Server.cpp 116-181: the three sections of CancelJobsWithUserData, JobQueueRemote.cpp 195-240,
     then removal from the client list with the jobs still waiting for a tool chain *)
  | Close a =>
      match find_client a (clients s) with
      | None => None
      | Some _ =>
          match phase a (closing s) with
          | None =>
              Some (mkSt (clients s) (waiting s) (filter (fun j => negb (user_is a j)) (pending s)) (flight s) (leaving s) (pushing s)
                    (done s) (failed s) (aborted s) (hand s) (closing s ++ [(a, 1)]) (next_conn s) (next_job s)
                    (conns s) (born s) (freed s ++ ids (filter (user_is a) (pending s))) (sent s) (dropped s))
          | Some 1 =>
              Some (mkSt (clients s) (waiting s) (pending s) (flight s) (leaving s) (pushing s)
                    (filter (fun j => negb (user_is a j)) (done s)) (failed s) (aborted s) (hand s) (set_phase a 2 (closing s)) (next_conn s) (next_job s)
                    (conns s) (born s) (freed s ++ ids (filter (user_is a) (done s))) (sent s) (dropped s))
          | Some 2 =>
              Some (mkSt (clients s) (waiting s) (pending s) (map (unhook a) (flight s)) (leaving s) (pushing s)
                    (done s) (failed s) (aborted s) (hand s) (set_phase a 3 (closing s)) (next_conn s) (next_job s)
                    (conns s) (born s) (freed s) (sent s) (dropped s))
          | Some _ =>
              Some (mkSt (filter (fun c => negb (N.eqb (c_addr c) a)) (clients s)) (filter (fun j => negb (user_is a j)) (waiting s))
                    (pending s) (flight s) (leaving s) (pushing s) (done s) (failed s) (aborted s) (hand s)
                    (filter (fun x => negb (N.eqb (fst x) a)) (closing s)) (next_conn s) (next_job s)
                    (conns s) (born s) (freed s ++ ids (filter (user_is a) (waiting s))) (sent s) (dropped s))
          end
      end
  end.

Fixpoint run (s : state) (es : list event) : option state :=
  match es with
  | [] => Some s
  | e :: r => match step s e with Some s' => run s' r | None => None end
  end.

(** Every job object the worker still has. *)
Definition live (s : state) : list job :=
  waiting s ++ pending s ++ flight s ++ map fst (leaving s) ++ map fst (pushing s) ++ done s ++ failed s ++ aborted s ++
  match hand s with Some (j, _) => [j] | None => [] end.
