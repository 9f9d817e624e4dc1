(** Model of JobSubQueue and of the concurrency-group staging of JobQueue.
    Sources: WorkerPool/JobQueue.cpp JobCostSorter 26-33, JobSubQueue::QueueJobs 60-118,
    RemoveJob 122-145, AddJobToBatch 302-321, FlushJobBatch 325-392, FinalizeCompletedJobs 700-704.
    Each mutex-protected section is one atomic step. *)
From Coq Require Import List Arith Bool NArith.
From Verif Require Import M_Array M_Sort.
Import ListNotations.

Definition u32 (x : N) : N := (x mod 4294967296)%N.

(** ** JobSubQueue *)

(** A Job wraps a Node: only identity and recursive cost matter here. *)
Record job := mkJob { j_id : nat; j_cost : N }.

(** JobCostSorter, JobQueue.cpp 26-33. *)
Definition cost_lt (a b : job) : bool := (j_cost a <? j_cost b)%N.

Record subqueue := mkQ { q_jobs : list job; q_count : N }.
Definition q_empty : subqueue := mkQ [] 0.

(** The merge loop, JobQueue.cpp 88-116.  [src1] are the queued jobs, [src2] the new ones. *)
Fixpoint merge (src1 : list job) : list job -> list job :=
  fix go (src2 : list job) : list job :=
    match src1, src2 with
    | [], _ => src2
    | _, [] => src1
    | a :: r1, b :: r2 => if cost_lt a b then a :: merge r1 (b :: r2) else b :: go r2
    end.

(** QueueJobs, JobQueue.cpp 60-118. *)
Definition queue_jobs (q : subqueue) (new : list job) : option subqueue :=
  match shell_sort cost_lt new with
  | None => None
  | Some jobs =>
      let count := u32 (q_count q + N.of_nat (length jobs)) in
      match q_jobs q with
      | [] => Some (mkQ jobs count)
      | old => Some (mkQ (merge old jobs) count)
      end
  end.

(** Top and Pop of the array. *)
Fixpoint pop_last {A} (l : list A) : option (list A * A) :=
  match l with
  | [] => None
  | [x] => Some ([], x)
  | x :: r => match pop_last r with None => None | Some (r', y) => Some (x :: r', y) end
  end.

(** RemoveJob, JobQueue.cpp 122-145. *)
Definition remove_job (q : subqueue) : subqueue * option job :=
  if (q_count q =? 0)%N then (q, None)
  else match pop_last (q_jobs q) with
       | None => (q, None)
       | Some (r, j) => (mkQ r (u32 (q_count q + 4294967295)), Some j)
       end.

Inductive qop := QAdd (new : list job) | QTake.
(** A history of queue operations; the second component lists the jobs handed out, newest first. *)
Fixpoint q_run (ops : list qop) (q : subqueue) (out : list job) : option (subqueue * list job) :=
  match ops with
  | [] => Some (q, out)
  | QAdd new :: r => match queue_jobs q new with None => None | Some q' => q_run r q' out end
  | QTake :: r => let (q', o) := remove_job q in
                  q_run r q' (match o with None => out | Some j => j :: out end)
  end.

(** ** Concurrency groups *)

(** ConcurrencyGroupState, JobQueue.h: staged node ids and the number of active jobs. *)
Record gstate := mkG { g_staging : list nat; g_active : N }.

(** Where a flushed job is.  JQueued: in m_LocalJobs_Available.  JLocal: first pass on a worker thread.
    JAvail: waiting for distribution.  JDistLocal: second pass on a worker thread.  JRemote: on a remote
    worker.  JRace: remote and on a worker thread.  JDone: in one of the completed lists. *)
Inductive phase := JQueued | JLocal | JAvail | JDistLocal | JRemote | JRace | JDone.
Record fjob := mkF { f_id : nat; f_group : nat; f_phase : phase }.

Record gsys := mkS { s_groups : list gstate; s_fly : list fjob; s_final : list (nat * nat) }.
Definition s_init : gsys := mkS [] [] [].

Definition eUnlimited : N := 4294967295.
(** The throttle, FlushJobBatch 345-357. *)
Definition max_jobs (workers limit : N) : N := if (workers <=? limit)%N then eUnlimited else limit.

(** SetSize( groupIndex + 1 ), AddJobToBatch 314-317. *)
Definition grow (gs : list gstate) (g : nat) : list gstate :=
  gs ++ repeat (mkG [] 0) (S g - length gs).

(** AddJobToBatch, JobQueue.cpp 302-321 (node state is not modelled here). *)
Definition add_to_batch (s : gsys) (id g : nat) : option gsys :=
  let gs := grow (s_groups s) g in
  match get gs g with
  | None => None
  | Some st => match set gs g (mkG (g_staging st ++ [id]) (g_active st)) with
               | None => None
               | Some gs' => Some (mkS gs' (s_fly s) (s_final s))
               end
  end.

(** One group of FlushJobBatch, JobQueue.cpp 331-391: the new group state and the flushed ids. *)
Definition flush_group (workers limit : N) (st : gstate) : gstate * list nat :=
  match g_staging st with
  | [] => (st, [])
  | staged =>
      let maxj := max_jobs workers limit in
      if (maxj <=? g_active st)%N then (st, [])
      else
        let room := (maxj - g_active st)%N in
        let size := N.of_nat (length staged) in
        if (size <=? room)%N
        then (mkG [] (u32 (g_active st + size)), staged)
        else let keep := N.to_nat (size - room) in
             (mkG (firstn keep staged) (u32 (g_active st + room)), skipn keep staged)
  end.

(** The loop over the groups.  Queueing order inside JobSubQueue is the subject of C12. *)
Fixpoint flush_groups (workers : N) (limits : nat -> N) (i : nat) (gs : list gstate)
  : list gstate * list fjob :=
  match gs with
  | [] => ([], [])
  | st :: r =>
      let (st', out) := flush_group workers (limits i) st in
      let (r', fl) := flush_groups workers limits (S i) r in
      (st' :: r', map (fun id => mkF id i JQueued) out ++ fl)
  end.

(** The decrement for one finished job, FinalizeCompletedJobs 702-704. *)
Definition dec_group (gs : list gstate) (g : nat) : option (list gstate) :=
  match get gs g with
  | None => None
  | Some st => set gs g (mkG (g_staging st) (u32 (g_active st + 4294967295)))
  end.
Fixpoint dec_all (gs : list gstate) (l : list fjob) : option (list gstate) :=
  match l with
  | [] => Some gs
  | j :: r => match dec_group gs (f_group j) with None => None | Some gs' => dec_all gs' r end
  end.

Definition is_done (j : fjob) : bool := match f_phase j with JDone => true | _ => false end.
Definition on_thread (j : fjob) : bool :=
  match f_phase j with JLocal | JDistLocal | JRace => true | _ => false end.

(** Worker threads: numWorkerThreads of them, or the main thread alone when there are none
    (FBuild.cpp Build: WorkerThread::Update on the main thread). *)
Definition threads (workers : N) : N := N.max 1 workers.

Inductive gev :=
| GAdd (id g : nat)          (* main thread, during a pass *)
| GFlush                     (* main thread *)
| GFinal                     (* main thread: FinalizeCompletedJobs *)
| GMove (k : nat) (p : phase). (* a worker or the network moves the k-th flushed job *)

(** The moves made by WorkerThread::Update (WorkerThread.cpp 150-224) and by the client's network
    threads.  A move that puts a job on a worker thread needs a free one. *)
Definition move_ok (workers : N) (fly : list fjob) (a b : phase) : bool :=
  let free := (N.of_nat (length (filter on_thread fly)) <? threads workers)%N in
  match a, b with
  | JQueued, JLocal => free
  | JLocal, JAvail => true
  | JLocal, JDone => true
  | JAvail, JDistLocal => free
  | JAvail, JRemote => true
  | JRemote, JRace => free
  | JRemote, JAvail => true
  | JRemote, JDone => true
  | JRace, JDistLocal => true
  | JRace, JDone => true
  | JDistLocal, JDone => true
  | _, _ => false
  end.

(** Impossible moves leave the state alone; [None] is an out-of-bounds access. *)
Definition g_step (workers : N) (limits : nat -> N) (s : gsys) (e : gev) : option gsys :=
  match e with
  | GAdd id g => add_to_batch s id g
  | GFlush => let (gs, fl) := flush_groups workers limits 0 (s_groups s) in
              Some (mkS gs (s_fly s ++ fl) (s_final s))
  | GFinal =>
      let d := filter is_done (s_fly s) in
      match dec_all (s_groups s) d with
      | None => None
      | Some gs => Some (mkS gs (filter (fun j => negb (is_done j)) (s_fly s))
                             (map (fun j => (f_id j, f_group j)) d ++ s_final s))
      end
  | GMove k p =>
      match get (s_fly s) k with
      | None => Some s
      | Some j =>
          if move_ok workers (s_fly s) (f_phase j) p
          then match set (s_fly s) k (mkF (f_id j) (f_group j) p) with
               | None => None
               | Some fl => Some (mkS (s_groups s) fl (s_final s))
               end
          else Some s
      end
  end.
Fixpoint g_run (workers : N) (limits : nat -> N) (evs : list gev) (s : gsys) : option gsys :=
  match evs with
  | [] => Some s
  | e :: r => match g_step workers limits s e with None => None | Some s' => g_run workers limits r s' end
  end.
