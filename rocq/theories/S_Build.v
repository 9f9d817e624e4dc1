(** Specification vocabulary for the scheduler properties: what the event log says. *)
From Coq Require Import List Arith NArith Bool.
From Verif Require Import M_Build.
Import ListNotations.

(** Events are newest first. *)
Definition completed (l : list ev) (k : nat) : Prop :=
  (exists ds, In (EvSkip k ds) l) \/ In (EvBuilt k) l \/ (exists ds, In (EvProxy k ds) l).
Definition started (l : list ev) (k : nat) : Prop := exists ds, In (EvStart k ds) l.

(** The targets for which a job was started, newest first. *)
Definition starts (l : list ev) : list nat :=
  flat_map (fun e => match e with EvStart k _ => [k] | _ => [] end) l.

(** Facts about loaded graphs: the proxy root is not a file; every FileNode carries
    FLAG_ALWAYS_BUILD (NodeGraph.cpp 878). *)
Definition wf (g : graph) : Prop :=
  (forall k, n_proxy (g_nodes g k) = true -> n_filenode (g_nodes g k) = false) /\
  (forall k, n_filenode (g_nodes g k) = true -> n_force (g_nodes g k) = true).

(** The dependency stamps recorded when a target was last built, compared with the present:
    weak dependencies never matter. *)
Definition dep_current (g : graph) (d : dep) : Prop :=
  d_weak d = false -> st g (d_node d) = UpToDate /\ stampof g (d_node d) = d_stamp d /\
                      stampof g (d_node d) <> 0%N.
Definition dep_changed (g : graph) (d : dep) : Prop :=
  d_weak d = false /\ st g (d_node d) = UpToDate /\
  (stampof g (d_node d) = 0%N \/ stampof g (d_node d) <> d_stamp d).

(** The values a file's time takes on disk during the build. *)
Definition disk_seen (g0 : graph) (es : list op) (k : nat) (t : N) : Prop :=
  t = g_disk g0 k \/ In (ODisk k t) es.

(** [k] may come to depend on [d] in this build. *)
Definition may_need (g : graph) (dyn : dyn_oracle) (k d : nat) : Prop :=
  (exists x, In x (n_pre (g_nodes g k) ++ n_static (g_nodes g k) ++ n_dyn (g_nodes g k)) /\ d_node x = d) \/
  (exists ds x, dyn k = Some ds /\ In x ds /\ d_node x = d).

(** A finite acyclic graph with node numbers below [n]; only the requested root may be the proxy. *)
Definition acyclic (g : graph) (dyn : dyn_oracle) (n : nat) : Prop :=
  (exists rk : nat -> nat, forall k d, may_need g dyn k d -> d < n /\ rk d < rk k) /\
  (forall k d, may_need g dyn k d -> n_proxy (g_nodes g d) = false).

(** Every job reports a result (no cancellation). *)
Definition no_abort (es : list op) : Prop := forall k, ~ In (OFinish k RAborted) es.

(** Logged dependencies of a target that was started, skipped or is the proxy. *)
Definition logged_dep (l : list ev) (a b : nat) : Prop :=
  exists ds, (In (EvStart a ds) l \/ In (EvSkip a ds) l \/ In (EvProxy a ds) l) /\ In b ds.

Definition finished (s : nstate) : Prop := s = UpToDate \/ s = Failed.

(** A job exists for [y]: running, or finished and waiting to be finalised. *)
Definition busy (g : graph) (y : nat) : Prop := In y (g_active g) \/ In y (map fst (g_done g)).

(** [n] rounds of the main loop: each is a pass followed by anything at all, up to a moment when
    every job that existed after the pass has been finalised. *)
Inductive rounds (fuel : nat) (o : opts) (dyn : dyn_oracle) (root : nat) : nat -> graph -> graph -> Prop :=
| rounds_0 g : rounds fuel o dyn root 0 g g
| rounds_S n g gp es g1 g2 :
    build_pass fuel o dyn g root = Some gp ->
    run fuel o dyn root gp es = Some g1 -> no_abort es ->
    (forall y, busy gp y -> finished (st g1 y)) ->
    rounds fuel o dyn root n g1 g2 -> rounds fuel o dyn root (S n) g g2.
