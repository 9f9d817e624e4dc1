(** Specification vocabulary for C100. *)
From Coq Require Import List Arith Bool NArith.
From Verif Require Import M_Stats.
Import ListNotations.

(** What a node depends on; the tests of the program can ask for compilers to be looked at alone. *)
Definition deps (skip : bool) (d : node) : list nat := if skip && Nat.eqb (type d) COMPILER then [] else pre d ++ static d ++ dynamic d.
(** Dependencies are nodes of the graph. *)
Definition sound (g : graph) : Prop := forall d, In d g -> forall m, In m (pre d ++ static d ++ dynamic d) -> m < length g.
(** The nodes that a build of [root] is about. *)
Inductive needs (skip : bool) (g : graph) (root : nat) : nat -> Prop :=
| needs_itself : needs skip g root root
| needs_dep n d m : needs skip g root n -> nth_error g n = Some d -> In m (deps skip d) -> needs skip g root m.
(** [ds] are the nodes that the build is about, each once; [ns] their numbers. *)
Definition of_build (skip : bool) (g : graph) (root : nat) (ns : list nat) (ds : list node) : Prop :=
  NoDup ns /\ (forall n, In n ns <-> needs skip g root n) /\ map (fun n => nth_error g n) ns = map Some ds.

(** How many of them, and how much of them, in numbers of 32 bits. *)
Definition many (p : node -> bool) (ds : list node) : N := N.modulo (N.of_nat (length (filter p ds))) (2 ^ 32).
Definition sum (v : node -> N) (p : node -> bool) (ds : list node) : N := N.modulo (fold_right N.add 0%N (map v (filter p ds))) (2 ^ 32).
