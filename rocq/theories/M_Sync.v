(** Synchronisation of tool chains on a worker, modelled from Code/Tools/FBuild/FBuildCore/Protocol/Server.cpp and
    Helpers/ToolManifest.cpp.

    The atomic steps are the parts done under m_ToolManifestsMutex or m_ClientListMutex.  Each connection has one thread, which
    delivers its messages and its loss one after the other; between two steps of one thread any steps of the others may happen.

    Simplified: a job is a number; connections are numbered and a number is not used again; sending never fails (it does only on a
    connection about to be lost); a client answers only what it was asked; the loop over the other clients in OnDisconnected is one
    step; queued jobs are never looked at again (their life is in M_Remote). *)
From Coq Require Import List Arith Bool.
Import ListNotations.

(** ToolManifest.h: enum SyncState. *)
Inductive fstate := NotSynchronized | Synchronizing | Synchronized.
(** ToolManifest.h: m_Synchronized, the sync states of m_Files (empty until the manifest has arrived), m_UserData (the connection). *)
Record tool := { synced : bool; files : list fstate; user : option nat }.
(** What a client was asked for. *)
Inductive req := RManifest | RFile (i : nat).
(** What the thread of a connection is doing: nothing; about to call CheckWaitingJobs (Server.cpp 478, 558) or RequestMissingFiles
    (482) for a tool; Disconnect was called (460, 537); between the two parts of OnDisconnected (139), with its cancelledManifests. *)
Inductive stage := Idle | Checking (t : nat) | Requesting (t : nat) | Doomed | Dropping (cancelled : list nat).

Record state := {
  ids : list nat;                       (* m_Tools *)
  tools : nat -> option tool;
  clients : list nat;                   (* m_ClientList *)
  used : list nat;                      (* all connections ever *)
  stages : nat -> stage;
  waiting : list (nat * nat * nat);     (* m_WaitingJobs of all clients: connection, tool, job *)
  queued : list (nat * nat);            (* given to the job queue: tool, job *)
  reqs : list (nat * nat * req) }.      (* requests not yet answered: connection, tool *)

Definition init : state :=
  {| ids := []; tools := fun _ => None; clients := []; used := []; stages := fun _ => Idle; waiting := []; queued := []; reqs := [] |}.

Definition put {A} (k : nat) (v : A) (f : nat -> A) : nat -> A := fun i => if i =? k then v else f i.
Definition mem (x : nat) (l : list nat) : bool := existsb (Nat.eqb x) l.
Definition is_sync (f : fstate) : bool := match f with Synchronized => true | _ => false end.
Definition is_not (f : fstate) : bool := match f with NotSynchronized => true | _ => false end.

Definition set_tool t m s := {| ids := ids s; tools := put t (Some m) (tools s); clients := clients s; used := used s; stages := stages s;
  waiting := waiting s; queued := queued s; reqs := reqs s |}.
Definition set_stage c g s := {| ids := ids s; tools := tools s; clients := clients s; used := used s; stages := put c g (stages s);
  waiting := waiting s; queued := queued s; reqs := reqs s |}.
Definition set_reqs r s := {| ids := ids s; tools := tools s; clients := clients s; used := used s; stages := stages s;
  waiting := waiting s; queued := queued s; reqs := r |}.
Definition set_waiting w s := {| ids := ids s; tools := tools s; clients := clients s; used := used s; stages := stages s;
  waiting := w; queued := queued s; reqs := reqs s |}.
Definition set_queued q s := {| ids := ids s; tools := tools s; clients := clients s; used := used s; stages := stages s;
  waiting := waiting s; queued := q; reqs := reqs s |}.
Definition set_ids i s := {| ids := i; tools := tools s; clients := clients s; used := used s; stages := stages s;
  waiting := waiting s; queued := queued s; reqs := reqs s |}.
Definition set_clients l u s := {| ids := ids s; tools := tools s; clients := l; used := u; stages := stages s;
  waiting := waiting s; queued := queued s; reqs := reqs s |}.

(** The files of a list that are not synchronized: their numbers, from [i]. *)
Fixpoint missing (i : nat) (l : list fstate) : list nat :=
  match l with [] => [] | f :: r => if is_not f then i :: missing (S i) r else missing (S i) r end.

(** RequestMissingFiles, Server.cpp 804-829; MarkFileAsSynchronizing, ToolManifest.h. *)
Definition request_missing (c t : nat) (s : state) : state :=
  match tools s t with
  | None => s
  | Some m =>
      match missing 0 (files m) with
      | [] => s
      | l => set_reqs (reqs s ++ map (fun i => (c, t, RFile i)) l)
               (set_tool t {| synced := synced m; files := map (fun f => if is_not f then Synchronizing else f) (files m); user := Some c |} s)
      end
  end.

Definition same_req (c t : nat) (r : req) (x : nat * nat * req) : bool :=
  (fst (fst x) =? c) && (snd (fst x) =? t) && match r, snd x with RManifest, RManifest => true | RFile i, RFile k => i =? k | _, _ => false end.
(** The answer to a request. *)
Definition asked (c t : nat) (r : req) (s : state) : bool := existsb (same_req c t r) (reqs s).
Definition answered (c t : nat) (r : req) (s : state) : state := set_reqs (filter (fun x => negb (same_req c t r x)) (reqs s)) s.

Inductive event :=
  | WConnect (c : nat)
  | WJob (c t j : nat)
  | WManifest (c t : nat) (present : list bool)   (* which files are there from earlier *)
  | WManifestBad (c t : nat)
  | WRequest (c : nat)
  | WFile (c t i : nat) (stored : bool)
  | WCheck (c : nat)
  | WDrop (c : nat)          (* the connection is lost: first part *)
  | WDropped (c : nat).      (* second part *)

Definition idle (c : nat) (s : state) : bool := mem c (clients s) && match stages s c with Idle => true | _ => false end.
Fixpoint set_nth (i : nat) (x : fstate) (l : list fstate) : list fstate :=
  match l, i with [], _ => [] | _ :: r, 0 => x :: r | y :: r, S i => y :: set_nth i x r end.
Definition owns (c : nat) (s : state) (t : nat) : bool :=
  match tools s t with Some m => negb (synced m) && match user m with Some o => o =? c | None => false end | None => false end.
(** CancelSynchronizingFiles, ToolManifest.cpp 514-548, and SetUserData( nullptr ), Server.cpp 135. *)
Definition cancel (m : tool) : tool :=
  {| synced := synced m; files := map (fun f => match f with Synchronizing => NotSynchronized | _ => f end) (files m); user := None |}.

(** One step; an event that cannot happen now changes nothing. *)
Definition step (s : state) (e : event) : state :=
  match e with
  | WConnect c =>  (* OnConnected, Server.cpp 105-113 *)
      if mem c (used s) then s else set_stage c Idle (set_clients (clients s ++ [c]) (c :: used s) s)
  | WJob c t j =>  (* Process( MsgJob ), Server.cpp 338-430 *)
      if idle c s then
        match tools s t with
        | Some m =>
            if synced m then set_queued ((t, j) :: queued s) s
            else
              let s' := match user m with
                        | Some _ => s
                        | None => let s1 := set_tool t {| synced := synced m; files := files m; user := Some c |} s in
                                  match files m with
                                  | [] => set_reqs (reqs s ++ [(c, t, RManifest)]) s1
                                  | _ => request_missing c t s1
                                  end
                        end in
              set_waiting (waiting s ++ [(c, t, j)]) s'
        | None =>
            set_waiting (waiting s ++ [(c, t, j)]) (set_reqs (reqs s ++ [(c, t, RManifest)])
              (set_ids (ids s ++ [t]) (set_tool t {| synced := false; files := []; user := Some c |} s)))
        end
      else s
  | WManifest c t present =>  (* Process( MsgManifest ), Server.cpp 432-470; DeserializeFromRemote, ToolManifest.cpp 280-482: at least one file *)
      if idle c s && asked c t RManifest s then
        match tools s t, present with
        | Some m, _ :: _ =>
            let fs := map (fun b : bool => if b then Synchronized else NotSynchronized) present in
            let ok := forallb is_sync fs in
            set_stage c (if ok then Checking t else Requesting t)
              (set_tool t {| synced := ok; files := fs; user := user m |} (answered c t RManifest s))
        | _, _ => s
        end
      else s
  | WManifestBad c t =>  (* Server.cpp 444-469 *)
      if idle c s && asked c t RManifest s then set_stage c Doomed (answered c t RManifest s) else s
  | WRequest c =>
      if mem c (clients s) then
        match stages s c with Requesting t => set_stage c Idle (request_missing c t s) | _ => s end
      else s
  | WFile c t i stored =>  (* Process( MsgFile ), Server.cpp 487-559; ReceiveFileData, ToolManifest.cpp 577-665 *)
      if idle c s && asked c t (RFile i) s then
        let s := answered c t (RFile i) s in
        if stored then
          match tools s t with
          | Some m =>
              let fs := set_nth i Synchronized (files m) in
              let ok := forallb is_sync fs in
              set_stage c (if ok then Checking t else Idle)
                (set_tool t {| synced := ok; files := fs; user := if ok then None else user m |} s)
          | None => s
          end
        else set_stage c Doomed s
      else s
  | WCheck c =>  (* CheckWaitingJobs, Server.cpp 563-600 *)
      if mem c (clients s) then
        match stages s c with
        | Checking t => set_stage c Idle (set_queued (map (fun x => (t, snd x)) (filter (fun x => snd (fst x) =? t) (waiting s)) ++ queued s)
                          (set_waiting (filter (fun x => negb (snd (fst x) =? t)) (waiting s)) s))
        | _ => s
        end
      else s
  | WDrop c =>  (* OnDisconnected, Server.cpp 116-139 *)
      if mem c (clients s) && match stages s c with Idle | Doomed => true | _ => false end then
        let l := filter (owns c s) (ids s) in
        set_stage c (Dropping l) (set_reqs (filter (fun x => negb (fst (fst x) =? c)) (reqs s))
          {| ids := ids s; tools := fun t => if owns c s t then option_map cancel (tools s t) else tools s t; clients := clients s; used := used s;
             stages := stages s; waiting := waiting s; queued := queued s; reqs := reqs s |})
      else s
  | WDropped c =>  (* OnDisconnected, Server.cpp 141-181 *)
      if mem c (clients s) then
        match stages s c with
        | Dropping l =>
            let others := filter (fun x => negb (x =? c)) (clients s) in
            let asks := flat_map (fun c' => map (fun x => (c', snd (fst x))) (filter (fun x => (fst (fst x) =? c') && mem (snd (fst x)) l) (waiting s))) others in
            let s1 := set_reqs (filter (fun x => negb (fst (fst x) =? c)) (reqs s))  (* what was asked on a lost connection is never answered *)
                        (set_waiting (filter (fun x => negb (fst (fst x) =? c)) (waiting s)) (set_clients others (used s) (set_stage c Idle s))) in
            fold_left (fun s x => request_missing (fst x) (snd x) s) asks s1
        | _ => s
        end
      else s
  end.

Fixpoint run (s : state) (es : list event) : state := match es with [] => s | e :: r => run (step s e) r end.
