(** Specification vocabulary for C07 and C08: paths in the dependency graph. *)
From Coq Require Import List Arith Bool Relations.
From Verif Require Import M_Build M_Cycle.
Import ListNotations.

Definition dep_edge (g : cgraph) (a b : nat) : Prop :=
  In b (c_pre g a) \/ In b (c_static g a) \/ In b (c_dyn g a).

Definition unfinished (g : cgraph) (k : nat) : Prop :=
  c_st g k = NotProcessed \/ c_st g k = StaticDeps \/ c_st g k = DynamicDeps.

(** Both ends unfinished. *)
Definition open_edge (g : cgraph) (a b : nat) : Prop :=
  dep_edge g a b /\ unfinished g a /\ unfinished g b.

(** Some cycle of unfinished targets is reachable from [root] through unfinished targets. *)
Definition has_cycle (g : cgraph) (root : nat) : Prop :=
  unfinished g root /\
  exists x, clos_refl_trans nat (open_edge g) root x /\ clos_trans nat (open_edge g) x x.

(** A failed dependency can be reached from [a] through targets neither up to date nor failed. *)
Inductive reaches_failure (g : cgraph) : nat -> Prop :=
| rf_here a b : dep_edge g a b -> c_st g b = Failed -> reaches_failure g a
| rf_step a b : dep_edge g a b -> c_st g b <> UpToDate -> reaches_failure g b -> reaches_failure g a.

(** Finite graph: every dependency number is below [n]. *)
Definition bounded (g : cgraph) (n : nat) : Prop := forall a b, dep_edge g a b -> b < n.
