(** What a user expects when the BFF changed and the old dependency DB is carried over.
    Vocabulary only: nothing here uses the migration itself. *)
From Coq Require Import List NArith Bool.
From Verif Require Import M_Path M_Names M_Migrate.
Import ListNotations.
Open Scope nat_scope.

(** Two settings of a target mean the same: equal, apart from the members that are results of a build
    and not settings. *)
Inductive agree : pval -> pval -> Prop :=
| agree_str : forall s, agree (PStr s) (PStr s)
| agree_strs : forall l, agree (PStrs l) (PStrs l)
| agree_num : forall n, agree (PNum n) (PNum n)
| agree_bool : forall b, agree (PBool b) (PBool b)
| agree_struct : forall f f', agree_fields f f' -> agree (PStruct f) (PStruct f')
| agree_structs : forall l l', agree_structs_list l l' -> agree (PStructs l) (PStructs l')
| agree_node : forall n, agree (PNode n) (PNode n)
| agree_nodes : forall l, agree (PNodes l) (PNodes l)
with agree_fields : fields -> fields -> Prop :=
| agree_nil : agree_fields FNil FNil
| agree_setting : forall v v' r r', agree v v' -> agree_fields r r' ->
    agree_fields (FCons false v r) (FCons false v' r')
| agree_result : forall v v' r r', agree_fields r r' -> agree_fields (FCons true v r) (FCons true v' r')
with agree_structs_list : list_fields -> list_fields -> Prop :=
| agree_snil : agree_structs_list SNil SNil
| agree_scons : forall f f' r r', agree_fields f f' -> agree_structs_list r r' ->
    agree_structs_list (SCons f r) (SCons f' r').

(** The members that are results of a build are the same (top level members). *)
Inductive same_results : fields -> fields -> Prop :=
| results_nil : same_results FNil FNil
| results_setting : forall v v' r r', same_results r r' -> same_results (FCons false v r) (FCons false v' r')
| results_result : forall v r r', same_results r r' -> same_results (FCons true v r) (FCons true v r').

(** The target has no recorded build: it will be built. *)
Definition fresh (n : node) : Prop := stamp n = 0%N /\ dyn n = [].

(** [d'] of graph [g] and [d] of graph [old] are dependencies on targets of the same name and type. *)
Definition same_target (old g : graph) (d' d : dep) : Prop :=
  exists m' m, nth_error g (to d') = Some m' /\ nth_error old (to d) = Some m /\
    name m' = name m /\ type m' = type m.
(** ... which moreover are in the same state. *)
Definition same_state (old g : graph) (d' d : dep) : Prop :=
  exists m' m, nth_error g (to d') = Some m' /\ nth_error old (to d) = Some m /\
    name m' = name m /\ type m' = type m /\ stamp m' = stamp m.
(** Dependencies found by the last build: names up to case. *)
Definition same_found (old g : graph) (d' d : dep) : Prop :=
  exists m' m, nth_error g (to d') = Some m' /\ nth_error old (to d) = Some m /\
    equals_i (name m') (name m) = true /\ type m' = type m.

(** Target [n] of the new graph [g] is target [o] of the old graph, unchanged, with the recorded
    result of its last build. *)
Record carried (old g : graph) (o n : node) : Prop := {
  c_name : equals_i (name n) (name o) = true;
  c_type : type n = type o;
  c_settings : agree_fields (props o) (props n);
  c_results : same_results (props n) (props o);
  c_pre : Forall2 (same_state old g) (pre n) (pre o);
  c_stat : Forall2 (fun d' d => same_state old g d' d /\ seen d' = seen d) (stat n) (stat o);
  c_dyn : Forall2 (fun d' d => same_found old g d' d /\ seen d' = seen d /\ weak d' = weak d) (dyn n) (dyn o);
  c_stamp : stamp n = stamp o;
  c_cost : cost n = cost o }.

(** All dependencies known before the build lead to nodes, of a lower rank. *)
Definition ordered (R : str -> nat) (g : graph) : Prop :=
  forall i n, nth_error g i = Some n -> forall d, In d (pre n ++ stat n) ->
    exists m, nth_error g (to d) = Some m /\ R (name m) < R (name n).
(** The same for those found by a build. *)
Definition ordered_dyn (R : str -> nat) (g : graph) : Prop :=
  forall i n, nth_error g i = Some n -> forall d, In d (dyn n) ->
    exists m, nth_error g (to d) = Some m /\ R (name m) < R (name n).
(** A rank does not look at upper and lower case. *)
Definition caseless (R : str -> nat) : Prop := forall a b, equals_i a b = true -> R a = R b.

(** The dependencies by which a build decides if a target is out of date: one that counts has never
    been built, or is not what it was when the target was built. *)
Definition stale (now : nat -> N) (ds : list dep) : Prop :=
  exists d, In d ds /\ weak d = false /\ (now (to d) = 0%N \/ now (to d) <> seen d).

(** What preparing a new node (its last one) may do to a graph: give the node dependencies and
    settings, and add source files.  The node has the name and type of a node of
    the old graph, the only ones that a migration creates. *)
Definition from_old (old : graph) (n : node) : Prop :=
  exists h o, nth_error old h = Some o /\ type o <> file_type /\ name n = name o /\ type n = type o /\
    fresh n /\ pre n = [] /\ stat n = [].
Record prepares (R : str -> nat) (old : graph) (init : initialiser) : Prop := {
  p_others : forall g n j m, from_old old n -> nth_error g j = Some m ->
      nth_error (init (g ++ [n]) (length g)) j = Some m;
  p_node : forall g n, from_old old n -> exists n', nth_error (init (g ++ [n]) (length g)) (length g) = Some n' /\
      name n' = name n /\ type n' = type n /\ fresh n';
  p_added : forall g n j m, from_old old n -> nth_error (init (g ++ [n]) (length g)) j = Some m ->
      length g < j -> fresh m /\ type m = file_type;
  p_ordered : forall g n, from_old old n -> ordered R g -> ordered R (init (g ++ [n]) (length g)) }.

(** Node [n] of [g] is defined as some node of the old graph: same name, type and settings, and the same
    dependencies known before the build. *)
Definition defined_as (old g : graph) (n o : node) : Prop :=
  name n = name o /\ type n = type o /\
  (type n <> file_type -> agree_fields (props o) (props n)) /\
  Forall2 (same_target old g) (pre n) (pre o) /\ Forall2 (same_target old g) (stat n) (stat o).
Definition unchanged (old g : graph) : Prop :=
  forall i n, nth_error g i = Some n -> exists h o, nth_error old h = Some o /\ defined_as old g n o.
(** No two nodes have the same name. *)
Definition unique (g : graph) : Prop :=
  forall i j n m, nth_error g i = Some n -> nth_error g j = Some m -> equals_i (name n) (name m) = true -> i = j.
(** What is known of a source file is not kept in the DB. *)
Definition files_bare (g : graph) : Prop :=
  forall i n, nth_error g i = Some n -> type n = file_type -> stamp n = 0%N /\ pre n = [] /\ stat n = [].
(** Preparing a copy of a node of the old graph gives a node defined as that one, if the new graph has a node
    on whose behalf the old one was found. *)
Definition wanted (old g : graph) (h : nat) : Prop :=
  exists k o d i n, nth_error old k = Some o /\ In d (dyn o) /\ to d = h /\ nth_error g i = Some n /\ name n = name o.
Definition recreates (old : graph) (init : initialiser) : Prop :=
  forall g h o, nth_error old h = Some o -> type o <> file_type -> unchanged old g ->
    find_node g (name o) = None -> wanted old g h ->
    exists p, copy_fields (g ++ [created o FNil]) (props o) = Some p /\
      unchanged old (init (g ++ [created o p]) (length g)).
