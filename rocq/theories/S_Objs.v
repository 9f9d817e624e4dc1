(** Specification vocabulary: names of nodes, and the nodes made for input files. *)
From Coq Require Import String List Ascii Bool.
From Verif Require Import M_Path M_Names M_Objs.
Import ListNotations.
Open Scope list_scope.

(** The same name but for case. *)
Definition akin (a b : str) : Prop := lower a = lower b.
(** No two nodes have names that differ only in case. *)
Definition unique (g : list gnode) : Prop := ForallOrdPairs (fun a b => ~ akin (nname a) (nname b)) g.
(** The node [d] compiles [src] for the list [own]; the node [d] is a copy of [src]. *)
Definition compiles (g : list gnode) (d src own : str) : Prop := In (mkN d (KObj src own)) g.
Definition copies (g : list gnode) (d src : str) : Prop := In (mkN d (KCopy src)) g.
(** A file name taken apart: the directory with its slash, the stem and the extension with its dot (or nothing). *)
Definition parts (p : plat) (f dir st e : str) : Prop :=
  f = dir ++ st ++ e /\ (dir = [] \/ exists d, dir = d ++ [native p]) /\ ~ In (native p) (st ++ e) /\
  ((exists e', e = "."%char :: e' /\ ~ In "."%char e' /\ st <> []) \/ e = [] /\ (~ In "."%char st \/ exists x, st = "."%char :: x /\ ~ In "."%char x)).
