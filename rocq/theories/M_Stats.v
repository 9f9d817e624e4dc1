(** The numbers of a build: Code/Tools/FBuild/FBuildCore/Helpers/FBuildStats.cpp, lines 23-130 and
    244-335, and Graph/ObjectNode.cpp for the flags they are made from. *)
From Coq Require Import List Arith Bool NArith.
From Verif Require Import M_Sort.
Import ListNotations.

(** Graph/Node.h, lines 77-106: the types that matter here; the others are numbers too. *)
Definition PROXY := 0.
Definition FILE := 4.
Definition COMPILER := 12.
Definition NUM_TYPES := 25.

(** Graph/Node.h, lines 114-125: the flags of a node that the statistics look at. *)
Record flags := Flags { built : bool; failed : bool; hit : bool; miss : bool; store : bool; light : bool; remote : bool }.
(** Graph/Node.h, lines 163-166 and 294-295: times in milliseconds, of this build, of the last build and
    of the cache; and the three lists of dependencies.  Nodes are known by their numbers. *)
Record node := Node { type : nat; time : N; last_time : N; caching : N; flag : flags; pre : list nat; static : list nat; dynamic : list nat }.
Definition graph := list node.

(** FBuildStats.h, lines 57-73. *)
Record stats := Stats { processed : N; s_built : N; hits : N; misses : N; stores : N; light_hits : N; light_misses : N; light_stores : N; cpu : N; s_failed : N; cache_time : N }.
Definition zero := Stats 0 0 0 0 0 0 0 0 0 0 0.
(** Additions of uint32_t. *)
Definition add (a b : N) : N := N.modulo (a + b) (2 ^ 32).
Definition inc (b : bool) (a : N) : N := if b then add a 1 else a.

(** Lines 257-313: what one node adds to the numbers of its type. *)
Definition note (d : node) (s : stats) : stats :=
  let f := flag d in
  Stats (add (processed s) 1) (inc (built f) (s_built s)) (inc (hit f) (hits s)) (inc (miss f) (misses s)) (inc (store f) (stores s))
    (inc (light f && hit f) (light_hits s))
    (inc (light f && negb (hit f) && negb (store f)) (light_misses s))
    (inc (light f && negb (hit f) && store f) (light_stores s))
    (add (cpu s) (time d)) (inc (failed f) (s_failed s))
    (if store f then add (cache_time s) (caching d) else cache_time s).

(** The members of FBuildStats: the numbers of each type, the processor times and the nodes by time. *)
Record tally := Tally { per_type : nat -> stats; local : N; far : N; by_time : list nat }.
Definition start := Tally (fun _ => zero) 0 0 [].

(** Lines 257-313 with the tally: proxies are not counted; files are not among the nodes by time. *)
Definition count_node (n : nat) (d : node) (t : tally) : tally :=
  if Nat.eqb (type d) PROXY then t
  else Tally (fun k => if Nat.eqb k (type d) then note d (per_type t k) else per_type t k)
         (add (local t) (time d))
         (if remote (flag d) then add (far t) (last_time d) else far t)
         (if N.ltb 0 (time d) && negb (Nat.eqb (type d) FILE) then by_time t ++ [n] else by_time t).

Definition mem (n : nat) (l : list nat) : bool := existsb (Nat.eqb n) l.

(** Lines 328-335. *)
Definition each (rec : nat -> list nat * tally -> option (list nat * tally)) :=
  fix go (deps : list nat) (st : list nat * tally) : option (list nat * tally) :=
    match deps with
    | [] => Some st
    | n :: r => match rec n st with Some st' => go r st' | None => None end
    end.
(** GatherPostBuildStatisticsRecurse, lines 244-326.  [fst st]: the nodes with the tag eTagStatsProcessed.
    [skip]: s_IgnoreCompilerNodeDeps, which only the tests of the program set.  [None]: the stack (fuel)
    is at its end, or a dependency is not in the graph. *)
Fixpoint gather (fuel : nat) (skip : bool) (g : graph) (n : nat) (st : list nat * tally) : option (list nat * tally) :=
  let '(seen, t) := st in
  if mem n seen then Some st
  else match fuel with
       | 0 => None
       | S f =>
           match nth_error g n with
           | None => None
           | Some d =>
               let st1 := (n :: seen, count_node n d t) in
               if skip && Nat.eqb (type d) COMPILER then Some st1
               else match each (gather f skip g) (pre d) st1 with
                    | None => None
                    | Some st2 =>
                        match each (gather f skip g) (static d) st2 with
                        | None => None
                        | Some st3 => each (gather f skip g) (dynamic d) st3
                        end
                    end
           end
       end.

(** Lines 23-32: NodeCostSorter. *)
Definition time_of (g : graph) (n : nat) : N := match nth_error g n with Some d => time d | None => 0%N end.
Definition dearer (g : graph) (a b : nat) : bool := N.ltb (time_of g b) (time_of g a).

(** Lines 111-123: the totals; the processor time and the failures are not among them. *)
Definition add_up (t s : stats) : stats :=
  Stats (add (processed t) (processed s)) (add (s_built t) (s_built s)) (add (hits t) (hits s)) (add (misses t) (misses s)) (add (stores t) (stores s))
    (add (light_hits t) (light_hits s)) (add (light_misses t) (light_misses s)) (add (light_stores t) (light_stores s)) (cpu t) (s_failed t)
    (add (cache_time t) (cache_time s)).
Definition totals (t : tally) : stats := fold_left (fun s k => add_up s (per_type t k)) (seq 0 NUM_TYPES) zero.

(** GatherPostBuildStatistics, lines 97-124, for a build of [root]: every node has lost its tag (line 102);
    the tally, the nodes by time in order, the totals. *)
Definition gathered (skip : bool) (g : graph) (root : nat) : option (tally * list nat * stats) :=
  match gather (S (length g)) skip g root ([], start) with
  | None => None
  | Some (_, t) => match shell_sort (dearer g) (by_time t) with
                   | None => None
                   | Some l => Some (t, l, totals t)
                   end
  end.
(** Lines 135-147: the most expensive nodes that the summary shows. *)
Definition shown (l : list nat) : list nat := firstn 20 l.

(** ObjectNode.cpp, lines 404-412 and 1411-1531 (RetrieveFromCache), 1536-1634 (WriteToCache): the flags of
    an object whose key was made by the light cache and that cannot be distributed (lines 417-427; otherwise
    the cache is asked a second time); what is found can be extracted; [read], [write]: the options of the cache; [found]: it is
    in the cache; [ok]: it compiles; [kept]: the cache takes it.  JobQueue.cpp, lines 950-974: the flags
    of success and of failure. *)
Definition light_object (read write found ok kept : bool) : flags :=
  if read && found then Flags false false true false false true false
  else Flags ok (negb ok) false read (ok && write && kept) true false.
