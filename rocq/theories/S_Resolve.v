(** Specification vocabulary for building by source file. *)
From Coq Require Import List Arith.
From Verif Require Import M_Resolve.
Import ListNotations.

Definition depends (g : graph) (t d : nat) : Prop := In d (static_deps g t) \/ In d (dynamic_deps g t).

(** [under g t d]: d is t or something t depends on, directly or not. *)
Inductive under (g : graph) : nat -> nat -> Prop :=
| U_here t : under g t t
| U_dep t d e : depends g t d -> under g d e -> under g t e.

(** As [under], along dependencies none of whose sources directly uses [s]. *)
Inductive under_free (g : graph) (s : nat) : nat -> nat -> Prop :=
| F_here t : under_free g s t t
| F_dep t d e : ~ depends g t s -> depends g t d -> under_free g s d e -> under_free g s t e.

(** All nodes are below n. *)
Definition bounded (g : graph) (n : nat) : Prop := forall t d, depends g t d -> d < n.
