(** What is expected of Copy(). *)
From Coq Require Import String Ascii List.
From Verif Require Import M_Path M_Names M_Copy.
Import ListNotations.
Local Open Scope list_scope.

(** The file [f] is what the node stands for, or one of them. *)
Inductive stands_for (f : str) : node -> Prop :=
| for_file : stands_for f (File f)
| for_alias n ts y : In y ts -> stands_for f y -> stands_for f (Alias n ts).
(** Something that is not a file is among what the node stands for. *)
Inductive unsupported : node -> Prop :=
| no_file n : unsupported (Other n)
| no_alias n ts y : In y ts -> unsupported y -> unsupported (Alias n ts).
(** What aliases stand for is in the graph. *)
Definition whole (g : list node) : Prop := forall x f, In x g -> stands_for f x -> exists y, In y g /\ name y = f.
(** No node has this name, but for case. *)
Definition unused (g : list node) (n : str) : Prop := forall x, In x g -> lower (name x) <> lower n.
(** A node is known by the name or, if none is, by the name as a full path. *)
Definition knows (clean : str -> str) (g : list node) (n : str) (x : node) : Prop :=
  In x g /\ (lower (name x) = lower n \/ (unused g n /\ lower (name x) = lower (clean n))).
(** Not so: an external file. *)
Definition external (clean : str -> str) (g : list node) (n : str) : Prop := unused g n /\ unused g (clean n).
(** Names differ in more than case. *)
Definition differ (g : list node) : Prop := forall x y, In x g -> In y g -> lower (name x) = lower (name y) -> x = y.
(** [r] is the file name of [f]. *)
Definition file_name (p : plat) (f r : str) : Prop := (~ In (native p) f /\ r = f) \/ (~ In (native p) r /\ exists d, f = d ++ native p :: r).
(** [r] is what follows in [f] after [b]; case does not count on Windows. *)
Definition below (p : plat) (b f r : str) : Prop := exists h, f = h ++ r /\ (if windows p then lower h = lower b else h = b).
