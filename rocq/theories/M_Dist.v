(** The life of distributable jobs on the client, modelled from Code/Tools/FBuild/FBuildCore/WorkerPool/JobQueue.cpp, Job.h,
    WorkerThread.cpp and Protocol/Client.cpp.

    The atomic steps are the critical sections of the code: what is done under m_DistributedJobsMutex, m_CompletedJobsMutex or the
    queue's own mutex.  Between two steps of one thread any steps of the others may happen.

    Simplified: which of the jobs in a queue is taken is left open (it is decided by cost); what a compilation does is left open, only
    its result counts; a node is its job; job numbers do not wrap; the abort flag, set together with the state
    DIST_RACE_WON_REMOTELY_CANCEL_LOCAL, is not a separate field; a worker returns only jobs it was given (m_Jobs, Client.cpp 720). *)
From Coq Require Import List Arith Bool NArith.
Import ListNotations.

(** Job.h: enum DistributionState. *)
Inductive dstate :=
  DNone | DAvailable | DBuildingRemotely | DCompletedRemotely | DBuildingLocally | DCompletedLocally |
  DRacing | DRaceWonLocally | DRaceWonRemotelyCancelLocal | DRaceWonRemotely.

(** Node::BuildResult without eNeedSecondPass, Node.h. *)
Inductive result := ROk | RAborted | RFailed.

(** Job.h: m_DistributionState and m_SystemErrorCount (8 bits). *)
Record job := { ds : dstate; errs : N }.

(** What a local worker thread is running: WorkerThread::Update, WorkerThread.cpp 147-224: the first pass of any job, a distributable
    job taken for itself, or a race. *)
Inductive lkind := First | Own | Race.

(** Where the thread of a connection is with a job.  Process( MsgRequestJob ), Client.cpp 563-638: [Taking]: taken, not yet in
    m_Jobs; [InFlight]: in m_Jobs.  ProcessJobResultCommon, Client.cpp 685-1047: [Got]: result read and job removed from m_Jobs;
    [Waiting]: in the loop of OnReturnRemoteJob, JobQueue.cpp 592-605; [Owned]: OnReturnRemoteJob returned the job and the count of
    system errors. *)
Inductive hstage := Taking | InFlight | Got (ok sys : bool) | Waiting (ok : bool) (n : N) | Owned (ok sys : bool) (n : N).

(** What an observer sees. *)
Inductive entry := LFinal (j : nat) (r : result) | LFreed (j : nat) | LSys (w j : nat) | LAttempt (w j : nat) | LRetry (j : nat).

Record state := {
  next : nat;                            (* s_LastJobId *)
  heap : nat -> option job;              (* None: never made, or deleted *)
  queue : list nat;                      (* m_LocalJobs_Available *)
  avail : list nat;                      (* m_DistributableJobs_Available *)
  inprog : list nat;                     (* m_DistributableJobs_InProgress *)
  local : list (nat * lkind);            (* local worker threads *)
  hold : list (nat * nat * hstage);      (* connection threads and m_Jobs: worker, job, stage *)
  done : list (nat * result);            (* m_CompletedJobs, m_CompletedJobsAborted, m_CompletedJobsFailed *)
  done2 : list (nat * result);           (* the same with suffix 2: being finalized *)
  up : list nat;                         (* workers connected to *)
  closing : list nat;                    (* workers whose OnDisconnected is running *)
  deny : list nat;                       (* workers with m_DenyListed *)
  asserts : bool;                        (* every ASSERT and VERIFY held so far *)
  log : list entry }.                    (* newest first *)

Definition init : state :=
  {| next := 0; heap := fun _ => None; queue := []; avail := []; inprog := []; local := []; hold := []; done := []; done2 := [];
     up := []; closing := []; deny := []; asserts := true; log := [] |}.

Definition set_heap h s := {| next := next s; heap := h; queue := queue s; avail := avail s; inprog := inprog s; local := local s;
  hold := hold s; done := done s; done2 := done2 s; up := up s; closing := closing s; deny := deny s; asserts := asserts s; log := log s |}.
Definition set_queue q s := {| next := next s; heap := heap s; queue := q; avail := avail s; inprog := inprog s; local := local s;
  hold := hold s; done := done s; done2 := done2 s; up := up s; closing := closing s; deny := deny s; asserts := asserts s; log := log s |}.
Definition set_avail a s := {| next := next s; heap := heap s; queue := queue s; avail := a; inprog := inprog s; local := local s;
  hold := hold s; done := done s; done2 := done2 s; up := up s; closing := closing s; deny := deny s; asserts := asserts s; log := log s |}.
Definition set_inprog i s := {| next := next s; heap := heap s; queue := queue s; avail := avail s; inprog := i; local := local s;
  hold := hold s; done := done s; done2 := done2 s; up := up s; closing := closing s; deny := deny s; asserts := asserts s; log := log s |}.
Definition set_local l s := {| next := next s; heap := heap s; queue := queue s; avail := avail s; inprog := inprog s; local := l;
  hold := hold s; done := done s; done2 := done2 s; up := up s; closing := closing s; deny := deny s; asserts := asserts s; log := log s |}.
Definition set_hold h s := {| next := next s; heap := heap s; queue := queue s; avail := avail s; inprog := inprog s; local := local s;
  hold := h; done := done s; done2 := done2 s; up := up s; closing := closing s; deny := deny s; asserts := asserts s; log := log s |}.
Definition set_done d s := {| next := next s; heap := heap s; queue := queue s; avail := avail s; inprog := inprog s; local := local s;
  hold := hold s; done := d; done2 := done2 s; up := up s; closing := closing s; deny := deny s; asserts := asserts s; log := log s |}.
Definition set_done2 d s := {| next := next s; heap := heap s; queue := queue s; avail := avail s; inprog := inprog s; local := local s;
  hold := hold s; done := done s; done2 := d; up := up s; closing := closing s; deny := deny s; asserts := asserts s; log := log s |}.
Definition set_net u c d s := {| next := next s; heap := heap s; queue := queue s; avail := avail s; inprog := inprog s; local := local s;
  hold := hold s; done := done s; done2 := done2 s; up := u; closing := c; deny := d; asserts := asserts s; log := log s |}.
Definition set_next n s := {| next := n; heap := heap s; queue := queue s; avail := avail s; inprog := inprog s; local := local s;
  hold := hold s; done := done s; done2 := done2 s; up := up s; closing := closing s; deny := deny s; asserts := asserts s; log := log s |}.
(** An ASSERT or VERIFY.  In release builds nothing happens when it does not hold (Core/Env/Assert.h 100-124). *)
Definition assert (b : bool) s := {| next := next s; heap := heap s; queue := queue s; avail := avail s; inprog := inprog s; local := local s;
  hold := hold s; done := done s; done2 := done2 s; up := up s; closing := closing s; deny := deny s; asserts := b && asserts s; log := log s |}.
Definition note e s := {| next := next s; heap := heap s; queue := queue s; avail := avail s; inprog := inprog s; local := local s;
  hold := hold s; done := done s; done2 := done2 s; up := up s; closing := closing s; deny := deny s; asserts := asserts s; log := e :: log s |}.

Definition put (j : nat) (b : option job) (h : nat -> option job) : nat -> option job := fun i => if i =? j then b else h i.
Definition mem (j : nat) (l : list nat) : bool := existsb (Nat.eqb j) l.
Definition is_result (r r' : result) : bool := match r, r' with ROk, ROk | RAborted, RAborted | RFailed, RFailed => true | _, _ => false end.

(** The first element with a property, and the others. *)
Fixpoint pull {A} (p : A -> bool) (l : list A) : option (A * list A) :=
  match l with
  | [] => None
  | x :: r => if p x then Some (x, r) else match pull p r with Some (y, r') => Some (y, x :: r') | None => None end
  end.
Definition erase (j : nat) (l : list nat) : list nat := match pull (Nat.eqb j) l with Some (_, r) => r | None => l end.

(** SetDistributionState, Job.h, on a job that must exist. *)
Definition set_ds (j : nat) (d : dstate) (s : state) : option state :=
  match heap s j with None => None | Some b => Some (set_heap (put j (Some {| ds := d; errs := errs b |}) (heap s)) s) end.
(** FDELETE job. *)
Definition free (j : nat) (s : state) : option state :=
  match heap s j with None => None | Some _ => Some (note (LFreed j) (set_heap (put j None (heap s)) s)) end.

Definition bind {A B} (x : option A) (f : A -> option B) : option B := match x with Some a => f a | None => None end.

(** FinishedProcessingJob, JobQueue.cpp 807-886, last part (lines 869-885): hand the job to the main thread. *)
Definition complete (j : nat) (r : result) (s : state) : state := set_done (done s ++ [(j, r)]) s.

(** FinishedProcessingJob, JobQueue.cpp 807-886, with wasARemoteJob.  Erasing needs the job in the list. *)
Definition finished_remote (j : nat) (r : result) (s : state) : option state :=
  match heap s j with
  | None => None
  | Some b =>
      let s := assert (mem j (inprog s)) s in
      match ds b with
      | DRaceWonRemotelyCancelLocal =>
          if negb (is_result r ROk) then set_ds j DRaceWonRemotely s
          else if mem j (inprog s) then
                 bind (set_ds j DCompletedLocally (set_inprog (erase j (inprog s)) s)) (fun s => Some (complete j r s))
               else None
      | DCompletedRemotely | DRaceWonRemotely =>
          if mem j (inprog s) then Some (complete j r (set_inprog (erase j (inprog s)) s)) else None
      | DBuildingLocally =>
          if mem j (inprog s) then
            bind (set_ds j DCompletedLocally (set_inprog (erase j (inprog s)) s)) (fun s => Some (complete j r s))
          else None
      | DRacing => Some (complete j r s)
      | _ => Some (complete j r (assert false s))
      end
  end.

(** ReturnUnfinishedDistributableJob, JobQueue.cpp 629-673. *)
Definition return_unfinished (j : nat) (s : state) : option state :=
  match heap s j with
  | None => None
  | Some b =>
      match ds b with
      | DRacing => set_ds j DBuildingLocally s
      | d =>
          let s := set_inprog (erase j (inprog s)) (assert (mem j (inprog s)) s) in
          match d with
          | DRaceWonLocally => free j s
          | _ =>
              let s := assert (match d with DCompletedRemotely => (0 <? errs b)%N | DBuildingRemotely => true | _ => false end) s in
              set_ds j DAvailable (set_avail (avail s ++ [j]) s)
          end
      end
  end.

(** OnReturnRemoteJob, JobQueue.cpp 532-625, up to its end or to the first pass of the waiting loop, and the marking of the worker
    (m_DenyListed, Client.cpp 771-775).  If the job is not found the caller is left with a null node. *)
Definition on_return (w j : nat) (ok sys : bool) (s : state) : option (state * option hstage) :=
  if negb (mem j (inprog s)) then None
  else match heap s j with
  | None => None
  | Some b =>
      let n := (if sys then (errs b + 1) mod 256 else errs b)%N in
      let s := if sys then note (LSys w j) (set_net (up s) (closing s) (w :: deny s) (set_heap (put j (Some {| ds := ds b; errs := n |}) (heap s)) s)) else s in
      if sys && match ds b with DRacing => true | _ => false end then bind (set_ds j DBuildingLocally s) (fun s => Some (s, None))
      else match ds b with
      | DBuildingRemotely => bind (set_ds j DCompletedRemotely s) (fun s => Some (s, Some (Owned ok sys n)))
      | DRaceWonLocally => bind (free j (set_inprog (erase j (inprog s)) s)) (fun s => Some (s, None))
      | DRacing => bind (set_ds j DRaceWonRemotelyCancelLocal s) (fun s => Some (s, Some (Waiting ok n)))
      | _ => Some (assert false s, None)
      end
  end.

(** One turn of the loop in OnReturnRemoteJob and what follows it, JobQueue.cpp 592-617. *)
Definition wait_turn (j : nat) (ok : bool) (n : N) (s : state) : option (option hstage) :=
  if negb (mem j (inprog s)) then Some None
  else match heap s j with
  | None => None
  | Some b => Some match ds b with
              | DRaceWonRemotelyCancelLocal => Some (Waiting ok n)
              | DRaceWonRemotely => Some (Owned ok false n)
              | _ => None
              end
  end.

(** #define SYSTEM_ERROR_ATTEMPT_COUNT, Client.cpp 34. *)
Definition attempt_count : N := 3.

(** ProcessJobResultCommon after OnReturnRemoteJob, Client.cpp 880-1047.  [disk]: whether the results could be written. *)
Definition process_result (j : nat) (ok sys : bool) (n : N) (disk : bool) (s : state) : option state :=
  if ok then finished_remote j (if disk then ROk else RFailed) s
  else if sys && (n <? attempt_count)%N then return_unfinished j (note (LRetry j) s)
  else finished_remote j RFailed s.

(** One job of FinalizeCompletedJobs, JobQueue.cpp 694-770. *)
Definition finalize_one (j : nat) (r : result) (s : state) : option state :=
  match heap s j with
  | None => None
  | Some b =>
      let s := note (LFinal j r) s in
      match ds b with
      | DNone | DCompletedLocally | DCompletedRemotely | DRaceWonRemotely => free j s
      | d =>
          if is_result r ROk && match d with DRaceWonRemotelyCancelLocal => true | _ => false end then
            free j (set_inprog (erase j (inprog s)) (assert (mem j (inprog s)) s))
          else set_ds j DRaceWonLocally (assert match d with DRacing => true | _ => false end s)
      end
  end.

Inductive event :=
  | EAdd                               (* a job is made and queued *)
  | ETake (j : nat)                    (* a local thread takes it *)
  | EFirst (j : nat) (r : option result)  (* the first pass ends; None: a second one is needed *)
  | ETakeOwn (j : nat)                 (* a local thread takes a distributable job *)
  | ERace (j : nat)                    (* a local thread starts to race a remote one *)
  | EFinish (j : nat) (r : result)     (* a local thread ends such a job *)
  | EConnect (w : nat)
  | ERequest (w j : nat)               (* a worker asks for a job and gets it *)
  | ESent (w j : nat)
  | EResult (w j : nat) (ok sys : bool)   (* a worker's result arrives *)
  | EReturn (w j : nat)
  | EWait (w j : nat)
  | EProcess (w j : nat) (disk : bool)
  | EDisconnect (w : nat)
  | EDrop (w j : nat)
  | EClosed (w : nat)
  | ESwap                              (* the main thread starts to finalize *)
  | EFinalize.                         (* one job *)

Definition is_hold (w j : nat) (x : nat * nat * hstage) : bool := (fst (fst x) =? w) && (snd (fst x) =? j).
(** The thread of a connection is in the middle of a message. *)
Definition busy (w : nat) (s : state) : bool :=
  existsb (fun x => (fst (fst x) =? w) && match snd x with InFlight => false | _ => true end) (hold s).
Definition is_run (j : nat) (x : nat * lkind) : bool := fst x =? j.

(** One step.  None: a job is used after it was deleted, or a null pointer is used.  An event that cannot happen now changes nothing. *)
Definition step (s : state) (e : event) : option state :=
  match e with
  | EAdd =>  (* JobSubQueue::QueueJobs, JobQueue.cpp 62-118; Job::Job, Job.cpp 34-43 *)
      Some (set_queue (queue s ++ [next s]) (set_next (S (next s)) (set_heap (put (next s) (Some {| ds := DNone; errs := 0 |}) (heap s)) s)))
  | ETake j =>  (* GetJobToProcess, JobQueue.cpp 793-803 *)
      if mem j (queue s) then Some (set_local ((j, First) :: local s) (set_queue (erase j (queue s)) s)) else Some s
  | EFirst j r =>  (* WorkerThread.cpp 152-178; QueueDistributableJob, JobQueue.cpp 409-434 *)
      match pull (fun x => is_run j x && match snd x with First => true | _ => false end) (local s) with
      | None => Some s
      | Some (_, rest) =>
          let s := set_local rest s in
          match heap s j with
          | None => None
          | Some b =>
              match r with
              | None => set_ds j DAvailable (set_avail (avail s ++ [j]) (assert match ds b with DNone => true | _ => false end s))
              | Some r => Some (complete j r s)
              end
          end
      end
  | ETakeOwn j =>  (* GetDistributableJobToProcess( false ), JobQueue.cpp 438-499 *)
      if mem j (avail s) then
        match heap s j with
        | None => None
        | Some b => set_ds j DBuildingLocally (set_local ((j, Own) :: local s) (set_inprog (inprog s ++ [j])
                      (set_avail (erase j (avail s)) (assert match ds b with DAvailable => true | _ => false end s))))
        end
      else Some s
  | ERace j =>  (* GetDistributableJobToRace, JobQueue.cpp 503-528 *)
      if mem j (inprog s) then
        match heap s j with
        | None => None
        | Some b => match ds b with
                    | DBuildingRemotely => set_ds j DRacing (set_local ((j, Race) :: local s) s)
                    | _ => Some s
                    end
        end
      else Some s
  | EFinish j r =>  (* WorkerThread.cpp 186-221 *)
      match pull (fun x => is_run j x && match snd x with First => false | _ => true end) (local s) with
      | None => Some s
      | Some (_, rest) => finished_remote j r (set_local rest s)
      end
  | EConnect w =>  (* Client::ConnectToWorkers, Client.cpp 338-415 *)
      if mem w (up s) || mem w (deny s) then Some s else Some (set_net (w :: up s) (closing s) (deny s) s)
  | ERequest w j =>  (* Client.cpp 563-592; GetDistributableJobToProcess( true ), JobQueue.cpp 438-499 *)
      if mem w (up s) && negb (mem w (closing s)) && negb (busy w s) && negb (mem w (deny s)) && mem j (avail s) then
        match heap s j with
        | None => None
        | Some b => set_ds j DBuildingRemotely (note (LAttempt w j) (set_hold ((w, j, Taking) :: hold s) (set_inprog (inprog s ++ [j])
                      (set_avail (erase j (avail s)) (assert match ds b with DAvailable => true | _ => false end s)))))
        end
      else Some s
  | ESent w j =>  (* Client.cpp 588-637: uses the job *)
      match pull (fun x => is_hold w j x && match snd x with Taking => true | _ => false end) (hold s) with
      | None => Some s
      | Some (_, rest) => match heap s j with None => None | Some _ => Some (set_hold ((w, j, InFlight) :: rest) s) end
      end
  | EResult w j ok sys =>  (* Client.cpp 685-727 *)
      if busy w s || mem w (closing s) then Some s
      else match pull (fun x => is_hold w j x && match snd x with InFlight => true | _ => false end) (hold s) with
      | None => Some s
      | Some (_, rest) => Some (set_hold ((w, j, Got ok sys) :: rest) s)
      end
  | EReturn w j =>
      match pull (fun x => is_hold w j x && match snd x with Got _ _ => true | _ => false end) (hold s) with
      | Some (_, Got ok sys, rest) =>
          bind (on_return w j ok sys (set_hold rest s)) (fun p =>
            Some match snd p with Some h => set_hold ((w, j, h) :: rest) (fst p) | None => fst p end)
      | _ => Some s
      end
  | EWait w j =>
      match pull (fun x => is_hold w j x && match snd x with Waiting _ _ => true | _ => false end) (hold s) with
      | Some (_, Waiting ok n, rest) =>
          bind (wait_turn j ok n s) (fun h => Some (set_hold match h with Some h => (w, j, h) :: rest | None => rest end s))
      | _ => Some s
      end
  | EProcess w j disk =>
      match pull (fun x => is_hold w j x && match snd x with Owned _ _ _ => true | _ => false end) (hold s) with
      | Some (_, Owned ok sys n, rest) => process_result j ok sys n disk (set_hold rest s)
      | _ => Some s
      end
  | EDisconnect w =>  (* OnDisconnected starts, Client.cpp 192-224 *)
      if mem w (up s) && negb (mem w (closing s)) && negb (busy w s) then Some (set_net (up s) (w :: closing s) (deny s) s) else Some s
  | EDrop w j =>  (* one turn of its loop, Client.cpp 198-204 *)
      if mem w (closing s) then
        match pull (fun x => is_hold w j x && match snd x with InFlight => true | _ => false end) (hold s) with
        | None => Some s
        | Some (_, rest) => return_unfinished j (set_hold rest s)
        end
      else Some s
  | EClosed w =>  (* and its end; Client.cpp 345-362 *)
      if mem w (closing s) && negb (existsb (fun x => fst (fst x) =? w) (hold s)) then
        Some (set_net (erase w (up s)) (erase w (closing s)) (deny s) s)
      else Some s
  | ESwap =>  (* JobQueue.cpp 681-692 *)
      match done2 s with
      | [] => Some (set_done [] (set_done2 (filter (fun x => is_result ROk (snd x)) (done s) ++
                filter (fun x => is_result RAborted (snd x)) (done s) ++ filter (fun x => is_result RFailed (snd x)) (done s)) s))
      | _ => Some s
      end
  | EFinalize =>
      match done2 s with
      | [] => Some s
      | (j, r) :: rest => finalize_one j r (set_done2 rest s)
      end
  end.

Fixpoint run (s : state) (es : list event) : option state :=
  match es with [] => Some s | e :: r => match step s e with Some s' => run s' r | None => None end end.
