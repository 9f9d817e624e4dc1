(** Model of the build scheduler.
    Sources (all under /repo/Code/Tools/FBuild/FBuildCore):
      Graph/NodeGraph.cpp  DoBuildPass 970-1024, BuildRecurse 1028-1134, CheckDependencies 1138-1214
      Graph/Node.cpp       DetermineNeedToBuildStatic 174-215, ...Dynamic 219-227,
                           DetermineNeedToBuild 231-263, Finalize 283-301
      Graph/ObjectNode.cpp Finalize 237-272
      WorkerPool/JobQueue.cpp AddJobToBatch 302-321, FinalizeCompletedJobs 677-772,
                           FinishedProcessingJob 807-886
    Simplifications common to the whole file:
      - nodes are numbered by [nat]; a node created during the build (by dynamic
        dependencies or by an include) is a table entry nobody referred to before;
      - costs (m_RecursiveCost) are not tracked here, see M_Queue;
      - pass tags are unbounded (uint32_t in the code);
      - the queueing of started jobs on worker threads is M_JobQueue / M_Dist; here a started
        job may finish at any later moment, in any order, with any result. *)
From Coq Require Import List Arith NArith Bool Lia.
Import ListNotations.

(** Node::State, Graph/Node.h 135-143. *)
Inductive nstate := NotProcessed | StaticDeps | DynamicDeps | Building | Failed | UpToDate.

(** [state < Node::BUILDING], NodeGraph.cpp 984, 1009, 1156. *)
Definition before_building (s : nstate) : bool :=
  match s with NotProcessed | StaticDeps | DynamicDeps => true | _ => false end.

Definition is_uptodate (s : nstate) : bool := match s with UpToDate => true | _ => false end.
Definition is_failed (s : nstate) : bool := match s with Failed => true | _ => false end.

(** class Dependency, Graph/Dependencies.h: node, stamp recorded at last build, weak flag. *)
Record dep := mkDep { d_node : nat; d_stamp : N; d_weak : bool }.

(** class Node, Graph/Node.h 270-300 (the members used by the scheduler).
    [n_force]: FLAG_ALWAYS_BUILD, or a type specific override of DetermineNeedToBuildStatic that
    answers true (ExecNode.cpp 178-186, UnityNode.cpp 251-287, TextFileNode.cpp 58-66).
    [n_isfile]: IsAFile(); [n_filenode]: type FILE_NODE; [n_built]: STATS_BUILT. *)
Record node := mkNode {
  n_state : nstate; n_stamp : N; n_tag : N;
  n_proxy : bool; n_force : bool; n_isfile : bool; n_filenode : bool; n_built : bool;
  n_pre : list dep; n_static : list dep; n_dyn : list dep }.

Definition set_state (s : nstate) (n : node) : node :=
  mkNode s (n_stamp n) (n_tag n) (n_proxy n) (n_force n) (n_isfile n) (n_filenode n) (n_built n)
         (n_pre n) (n_static n) (n_dyn n).
Definition set_stamp (s : N) (n : node) : node :=
  mkNode (n_state n) s (n_tag n) (n_proxy n) (n_force n) (n_isfile n) (n_filenode n) (n_built n)
         (n_pre n) (n_static n) (n_dyn n).
Definition set_tag (t : N) (n : node) : node :=
  mkNode (n_state n) (n_stamp n) t (n_proxy n) (n_force n) (n_isfile n) (n_filenode n) (n_built n)
         (n_pre n) (n_static n) (n_dyn n).
Definition set_built (b : bool) (n : node) : node :=
  mkNode (n_state n) (n_stamp n) (n_tag n) (n_proxy n) (n_force n) (n_isfile n) (n_filenode n) b
         (n_pre n) (n_static n) (n_dyn n).
Definition set_static (l : list dep) (n : node) : node :=
  mkNode (n_state n) (n_stamp n) (n_tag n) (n_proxy n) (n_force n) (n_isfile n) (n_filenode n) (n_built n)
         (n_pre n) l (n_dyn n).
Definition set_dyn (l : list dep) (n : node) : node :=
  mkNode (n_state n) (n_stamp n) (n_tag n) (n_proxy n) (n_force n) (n_isfile n) (n_filenode n) (n_built n)
         (n_pre n) (n_static n) l.

(** Ghost log of observable scheduling events, newest first.  Not in the code.
    [EvStart n ds]: a job for [n] is handed to the job queue while its dependencies are [ds].
    [EvSkip n ds]: [n] is found up to date without building.  [EvBuilt n]: its job succeeded.
    [EvFailed n c]: it is marked failed for cause [c]: a failed dependency, a failed
    DoDynamicDependencies, or its own job.  [EvProxy n ds]: the proxy root is up to date. *)
Inductive cause := CDeps | CDyn | CJob.
Inductive ev :=
| EvStart (n : nat) (ds : list nat)
| EvSkip (n : nat) (ds : list nat)
| EvBuilt (n : nat)
| EvFailed (n : nat) (c : cause)
| EvProxy (n : nat) (ds : list nat).

(** Results of a job, Node::BuildResult (Graph/Node.h) as passed to FinishedProcessingJob.
    [ROk st incl]: DoBuild set m_Stamp to [st]; [incl] is [Some l] for an ObjectNode whose
    compilation reported the include files [l] (m_Includes).
    [RFailed zero]: failed; [zero] says that DoBuild cleared the stamp (CopyFileNode.cpp 84,
    or the output is missing, Node.cpp 1271); no failing DoBuild leaves a new stamp. *)
Inductive result := ROk (st : N) (incl : option (list nat)) | RFailed (zero : bool) | RAborted.

(** NodeGraph + JobQueue.  [g_disk]: GetFileLastWriteTime of each node's file (0: missing).
    [g_active]: started jobs not finished; [g_done]: m_CompletedJobs, ...Failed, ...Aborted. *)
Record graph := mkGraph {
  g_nodes : nat -> node; g_disk : nat -> N; g_pass : N;
  g_active : list nat; g_done : list (nat * result); g_log : list ev }.

Definition upd {A} (f : nat -> A) (k : nat) (v : A) : nat -> A :=
  fun i => if Nat.eqb i k then v else f i.

Definition upd_node (g : graph) (k : nat) (f : node -> node) : graph :=
  mkGraph (upd (g_nodes g) k (f (g_nodes g k))) (g_disk g) (g_pass g)
          (g_active g) (g_done g) (g_log g).
Definition add_log (e : ev) (g : graph) : graph :=
  mkGraph (g_nodes g) (g_disk g) (g_pass g) (g_active g) (g_done g) (e :: g_log g).
Definition add_active (k : nat) (g : graph) : graph :=
  mkGraph (g_nodes g) (g_disk g) (g_pass g) (k :: g_active g) (g_done g) (g_log g).

Definition st (g : graph) (k : nat) : nstate := n_state (g_nodes g k).
Definition stampof (g : graph) (k : nat) : N := n_stamp (g_nodes g k).

(** SetState(FAILED) with its ghost event. *)
Definition mark_failed (c : cause) (k : nat) (g : graph) : graph :=
  add_log (EvFailed k c) (upd_node g k (set_state Failed)).

(** Build options used here: -forceclean (m_ForceCleanBuild), m_StopOnFirstError. *)
Record opts := mkOpts { o_clean : bool; o_stopfirst : bool }.

(** Node::DetermineNeedToBuild, Node.cpp 231-263. *)
Fixpoint need_deps (stamps : nat -> N) (ds : list dep) : bool :=
  match ds with
  | [] => false
  | d :: r =>
      if d_weak d then need_deps stamps r
      else if N.eqb (stamps (d_node d)) 0 then true
      else if negb (N.eqb (stamps (d_node d)) (d_stamp d)) then true
      else need_deps stamps r
  end.

(** Node::DetermineNeedToBuildStatic, Node.cpp 174-215 (overrides folded in [n_force]). *)
Definition need_static (g : graph) (k : nat) : bool :=
  let n := g_nodes g k in
  if n_force n then true
  else if N.eqb (n_stamp n) 0 then true
  else if n_isfile n && (N.eqb (g_disk g k) 0 || negb (N.eqb (g_disk g k) (n_stamp n))) then true
  else need_deps (stampof g) (n_static n).

(** Node::DetermineNeedToBuildDynamic, Node.cpp 219-227. *)
Definition need_dyn (g : graph) (k : nat) : bool :=
  need_deps (stampof g) (n_dyn (g_nodes g k)).

Definition dep_ids (n : node) : list nat :=
  map d_node (n_pre n) ++ map d_node (n_static n) ++ map d_node (n_dyn n).

(** JobQueue::AddJobToBatch, JobQueue.cpp 302-321. *)
Definition start_job (k : nat) (g : graph) : graph :=
  add_log (EvStart k (dep_ids (g_nodes g k)))
    (add_active k (upd_node g k (set_state Building))).

(** The loop of NodeGraph::CheckDependencies, NodeGraph.cpp 1150-1198.  [rec] is BuildRecurse.
    Returns the graph, allDependenciesUpToDate, numberNodesUpToDate, numberNodesFailed and
    whether the loop was left by the [break] at 1193. *)
Fixpoint check_loop (o : opts) (rec : graph -> nat -> option graph)
         (g : graph) (k : nat) (ds : list dep) : option (graph * bool * nat * nat * bool) :=
  match ds with
  | [] => Some (g, true, 0, 0, false)
  | d :: r =>
      let c := d_node d in
      let og :=
        if before_building (st g c) then
          if negb (N.eqb (n_tag (g_nodes g c)) (g_pass g)) then
            rec (upd_node g c (set_tag (g_pass g))) c
          else Some g
        else Some g in
      match og with
      | None => None
      | Some g1 =>
          if is_uptodate (st g1 c) then
            match check_loop o rec g1 k r with
            | Some (g2, b, u, f, brk) => Some (g2, b, S u, f, brk)
            | None => None
            end
          else if is_failed (st g1 c) && o_stopfirst o then
            Some (mark_failed CDeps k g1, false, 0, 1, true)
          else
            match check_loop o rec g1 k r with
            | Some (g2, _, u, f, brk) =>
                Some (g2, false, u, (if is_failed (st g1 c) then S f else f), brk)
            | None => None
            end
      end
  end.

(** NodeGraph::CheckDependencies, NodeGraph.cpp 1138-1214. *)
Definition check_deps (o : opts) (rec : graph -> nat -> option graph)
           (g : graph) (k : nat) (ds : list dep) : option (graph * bool) :=
  match check_loop o rec g k ds with
  | None => None
  | Some (g1, b, u, f, _) =>
      if negb (o_stopfirst o) && Nat.eqb (f + u) (length ds) && negb (Nat.eqb f 0)
      then Some (mark_failed CDeps k g1, b)
      else Some (g1, b)
  end.

(** DoDynamicDependencies (virtual, Node.cpp 167): an arbitrary outcome per node;
    [None]: it returned false.  Newly added dependencies carry stamp 0 (Dependencies::Add). *)
Definition dyn_oracle := nat -> option (list dep).

(** case Node::DYNAMIC_DEPS of BuildRecurse, NodeGraph.cpp 1091-1119. *)
Definition recurse_dynamic (o : opts) (rec : graph -> nat -> option graph)
           (g : graph) (k : nat) : option graph :=
  match check_deps o rec g k (n_dyn (g_nodes g k)) with
  | None => None
  | Some (g1, false) => Some g1
  | Some (g1, true) =>
      if N.eqb (stampof g1 k) 0 || need_dyn g1 k
      then Some (start_job k g1)
      else Some (add_log (EvSkip k (dep_ids (g_nodes g1 k))) (upd_node g1 k (set_state UpToDate)))
  end.

(** case Node::STATIC_DEPS of BuildRecurse, NodeGraph.cpp 1054-1090. *)
Definition recurse_static (o : opts) (dyn : dyn_oracle) (rec : graph -> nat -> option graph)
           (g : graph) (k : nat) : option graph :=
  match check_deps o rec g k (n_static (g_nodes g k)) with
  | None => None
  | Some (g1, false) => Some g1
  | Some (g1, true) =>
      if o_clean o || need_static g1 k then
        let g2 := upd_node g1 k (fun n => set_dyn [] (set_stamp 0 n)) in
        match dyn k with
        | None => Some (mark_failed CDyn k g2)
        | Some ds =>
            recurse_dynamic o rec
              (upd_node g2 k (fun n => set_state DynamicDeps (set_dyn ds n))) k
        end
      else recurse_dynamic o rec (upd_node g1 k (set_state DynamicDeps)) k
  end.

(** NodeGraph::BuildRecurse, NodeGraph.cpp 1028-1134.  [fuel] bounds the recursion depth;
    running out gives [None] (shown impossible in P_BuildLive).
    Recursing into the proxy root also gives [None]: ASSERT at 1140; the proxy is created by
    FBuild::Build (FBuild.cpp), is not in the node map, and no node depends on it. *)
Fixpoint build_recurse (fuel : nat) (o : opts) (dyn : dyn_oracle) (g : graph) (k : nat)
  : option graph :=
  match fuel with
  | O => None
  | S f =>
      if n_proxy (g_nodes g k) then None else
      let rec := build_recurse f o dyn in
      match st g k with
      | NotProcessed =>
          match check_deps o rec g k (n_pre (g_nodes g k)) with
          | None => None
          | Some (g1, false) => Some g1
          | Some (g1, true) => recurse_static o dyn rec (upd_node g1 k (set_state StaticDeps)) k
          end
      | StaticDeps => recurse_static o dyn rec g k
      | DynamicDeps => recurse_dynamic o rec g k
      | _ => Some g
      end
  end.

(** The loop over the proxy's targets, NodeGraph.cpp 981-1000. *)
Fixpoint proxy_loop (fuel : nat) (o : opts) (dyn : dyn_oracle) (g : graph) (ds : list dep)
  : option (graph * nat * nat) :=
  match ds with
  | [] => Some (g, 0, 0)
  | d :: r =>
      let c := d_node d in
      match (if before_building (st g c) then build_recurse fuel o dyn g c else Some g) with
      | None => None
      | Some g1 =>
          match proxy_loop fuel o dyn g1 r with
          | None => None
          | Some (g2, u, f) =>
              if is_uptodate (st g1 c) then Some (g2, S u, f)
              else if is_failed (st g1 c) then Some (g2, u, S f)
              else Some (g2, u, f)
          end
      end
  end.

(** NodeGraph::DoBuildPass, NodeGraph.cpp 970-1024, without the cyclic dependency check
    (M_Cycle) and the flush of the job batch (M_JobQueue). *)
Definition build_pass (fuel : nat) (o : opts) (dyn : dyn_oracle) (g0 : graph) (root : nat)
  : option graph :=
  let g := mkGraph (g_nodes g0) (g_disk g0) (g_pass g0 + 1)
                   (g_active g0) (g_done g0) (g_log g0) in
  if n_proxy (g_nodes g root) then
    let ds := n_static (g_nodes g root) in
    match proxy_loop fuel o dyn g ds with
    | None => None
    | Some (g1, u, f) =>
        if Nat.eqb (u + f) (length ds) then
          if Nat.eqb f 0
          then Some (add_log (EvProxy root (map d_node ds)) (upd_node g1 root (set_state UpToDate)))
          else Some (mark_failed CDeps root g1)
        else Some g1
    end
  else if before_building (st g root) then build_recurse fuel o dyn g root
  else Some g.

(** A worker thread finishes a job: DoBuild (JobQueue.cpp 890-1023) stores the stamp, then
    FinishedProcessingJob (807-886) puts the job in a completed list. *)
Definition finish (k : nat) (r : result) (g : graph) : graph :=
  if in_dec Nat.eq_dec k (g_active g) then
    let nodes' := match r with
                  | ROk s _ => upd (g_nodes g) k (set_built true (set_stamp s (g_nodes g k)))
                  | RFailed true => upd (g_nodes g) k (set_stamp 0 (g_nodes g k))
                  | _ => g_nodes g
                  end in
    mkGraph nodes' (g_disk g) (g_pass g)
            (remove Nat.eq_dec k (g_active g)) (g_done g ++ [(k, r)]) (g_log g)
  else g.

(** Node::Finalize, Node.cpp 283-301. *)
Definition stamp_deps (stamps : nat -> N) (ds : list dep) : list dep :=
  map (fun d => mkDep (d_node d) (stamps (d_node d)) (d_weak d)) ds.
Definition finalize_node (g : graph) (k : nat) : graph :=
  upd_node g k (fun n => set_dyn (stamp_deps (stampof g) (n_dyn n))
                          (set_static (stamp_deps (stampof g) (n_static n)) n)).

(** The include loop of ObjectNode::Finalize, ObjectNode.cpp 244-267.  FindNode/CreateNode are
    the identity on node numbers.  Returns [false] if some include is not a file. *)
Fixpoint finalize_includes (g : graph) (k : nat) (incl : list nat) : graph * bool :=
  match incl with
  | [] => (g, true)
  | i :: r =>
      if n_isfile (g_nodes g i) then
        let g1 :=
          if n_filenode (g_nodes g i) && N.eqb (stampof g i) 0 && negb (n_built (g_nodes g i))
          then upd_node g i (set_stamp (g_disk g i))
          else g in
        finalize_includes
          (upd_node g1 k (fun n => set_dyn (n_dyn n ++ [mkDep i 0 false]) n)) k r
      else (g, false)
  end.

(** ObjectNode::Finalize, ObjectNode.cpp 237-272. *)
Definition finalize_object (g : graph) (k : nat) (incl : list nat) : graph * bool :=
  match finalize_includes (upd_node g k (set_dyn [])) k incl with
  | (g1, true) => (finalize_node g1 k, true)
  | (g1, false) => (g1, false)
  end.

(** One job of FinalizeCompletedJobs, JobQueue.cpp 702-724. *)
Definition finalize_job (g : graph) (jr : nat * result) : graph :=
  let (k, r) := jr in
  match r with
  | ROk _ None => add_log (EvBuilt k) (upd_node (finalize_node g k) k (set_state UpToDate))
  | ROk _ (Some incl) =>
      match finalize_object g k incl with
      | (g1, true) => add_log (EvBuilt k) (upd_node g1 k (set_state UpToDate))
      | (g1, false) => mark_failed CJob k g1
      end
  | RFailed _ => mark_failed CJob k g
  | RAborted => g
  end.

Definition is_ok (jr : nat * result) := match snd jr with ROk _ _ => true | _ => false end.
Definition is_fail (jr : nat * result) := match snd jr with RFailed _ => true | _ => false end.

(** JobQueue::FinalizeCompletedJobs, JobQueue.cpp 677-772: completed, (aborted,) failed. *)
Definition finalize_jobs (g : graph) : graph :=
  let done := g_done g in
  let g1 := mkGraph (g_nodes g) (g_disk g) (g_pass g) (g_active g) [] (g_log g) in
  fold_left finalize_job (filter is_ok done ++ filter is_fail done) g1.

(** The main loop (FBuild.cpp Build) interleaved with worker threads and the outside world.
    [OFinish] is a worker thread; [ODisk] an external edit, or a file written by a job. *)
Inductive op :=
| OPass
| OFinish (k : nat) (r : result)
| OFinalize
| ODisk (k : nat) (t : N).

Definition step (fuel : nat) (o : opts) (dyn : dyn_oracle) (root : nat) (g : graph) (e : op)
  : option graph :=
  match e with
  | OPass => build_pass fuel o dyn g root
  | OFinish k r => Some (finish k r g)
  | OFinalize => Some (finalize_jobs g)
  | ODisk k t => Some (mkGraph (g_nodes g) (upd (g_disk g) k t) (g_pass g)
                               (g_active g) (g_done g) (g_log g))
  end.

Fixpoint run (fuel : nat) (o : opts) (dyn : dyn_oracle) (root : nat) (g : graph) (es : list op)
  : option graph :=
  match es with
  | [] => Some g
  | e :: r => match step fuel o dyn root g e with
              | None => None
              | Some g1 => run fuel o dyn root g1 r
              end
  end.

(** Start of a build on a loaded graph: every node is NOT_PROCESSED and no job exists. *)
Definition fresh (g : graph) : Prop :=
  (forall k, st g k = NotProcessed) /\ g_active g = [] /\ g_done g = [] /\ g_log g = [].

(** Saving and reloading the database between builds keeps stamps and dependencies and
    resets the rest (Node.cpp Load 356-430: state and stats are not saved). *)
Definition reload (g : graph) : graph :=
  mkGraph (fun k => set_built false (set_tag 0 (set_state NotProcessed (g_nodes g k))))
          (g_disk g) 0 [] [] [].
