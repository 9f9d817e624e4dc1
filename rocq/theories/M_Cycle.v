(** Model of the cyclic dependency check and of the final status report.
    Sources: Graph/NodeGraph.cpp CheckForCyclicDependencies 1593-1644 and
    CheckForCyclicDependenciesRecurse 1648-1711; FBuild.cpp GetFinalStatus 971-1003 and
    GetFinalStatusFailure 1007-1049.
    Nodes are numbered; the build pass tag of a node is membership in the list [seen]
    (the tag of the current sweep: s_BuildPassTag++ at 1641 untags every node;
    SetBuildPassTagForAllNodes in GetFinalStatus). *)
From Coq Require Import List Arith Bool Lia.
From Verif Require Import M_Build.
Import ListNotations.

(** The parts of the graph these functions read: state and the three dependency lists. *)
Record cgraph := mkC {
  c_st : nat -> nstate;
  c_pre : nat -> list nat; c_static : nat -> list nat; c_dyn : nat -> list nat }.

(** state >= BUILDING, NodeGraph.cpp 1652. *)
Definition c_done (g : cgraph) (k : nat) : bool := negb (before_building (c_st g k)).

Definition mem (k : nat) (l : list nat) : bool := existsb (Nat.eqb k) l.

(** The overload for a Dependencies list, NodeGraph.cpp 1698-1711. *)
Fixpoint cyc_list (rec : list nat -> nat -> option (bool * list nat)) (seen : list nat) (ds : list nat)
  : option (bool * list nat) :=
  match ds with
  | [] => Some (false, seen)
  | d :: r =>
      match rec seen d with
      | None => None
      | Some (true, s) => Some (true, s)
      | Some (false, s) => cyc_list rec s r
      end
  end.

(** [a || b] on results: the second call is made only if the first answered false. *)
Definition orelse (a : option (bool * list nat)) (b : list nat -> option (bool * list nat))
  : option (bool * list nat) :=
  match a with
  | None => None
  | Some (true, s) => Some (true, s)
  | Some (false, s) => b s
  end.

(** CheckForCyclicDependenciesRecurse, NodeGraph.cpp 1648-1694.  [stack]: dependencyStack, newest
    first.  The error text is not modelled.  [fuel] bounds the recursion depth. *)
Fixpoint cyc (fuel : nat) (g : cgraph) (stack seen : list nat) (k : nat) : option (bool * list nat) :=
  match fuel with
  | O => None
  | S f =>
      if c_done g k then Some (false, seen)
      else if mem k stack then Some (true, seen)
      else if mem k seen then Some (false, seen)
      else
        let rec := cyc f g (k :: stack) in
        orelse (cyc_list rec (k :: seen) (c_pre g k)) (fun s1 =>
        orelse (cyc_list rec s1 (c_static g k)) (fun s2 =>
        cyc_list rec s2 (c_dyn g k)))
  end.

(** The condition under which the check runs, NodeGraph.cpp 1606-1638: no job exists anywhere.
    The check itself, 1641-1643. *)
Definition check_cyclic (fuel : nat) (g : cgraph) (jobs : bool) (root : nat) : option bool :=
  if c_done g root then Some false
  else if jobs then Some false
  else option_map fst (cyc fuel g [] [] root).

(** GetFinalStatusFailure, FBuild.cpp 1007-1049. *)
Fixpoint fail_list (rec : list nat -> nat -> option (bool * list nat)) (g : cgraph)
         (seen : list nat) (ds : list nat) : option (bool * list nat) :=
  match ds with
  | [] => Some (false, seen)
  | d :: r =>
      if mem d seen then fail_list rec g seen r
      else
        let seen1 := d :: seen in
        if is_failed (c_st g d) then Some (true, seen1)
        else if is_uptodate (c_st g d) then fail_list rec g seen1 r
        else match rec seen1 d with
             | None => None
             | Some (true, s) => Some (true, s)
             | Some (false, s) => fail_list rec g s r
             end
  end.
(** The three calls on one node's lists, FBuild.cpp 990-992 and 1040-1042. *)
Fixpoint fail_node (fuel : nat) (g : cgraph) (seen : list nat) (k : nat) : option (bool * list nat) :=
  match fuel with
  | O => None
  | S f =>
      let go := fail_list (fail_node f g) g in
      orelse (go seen (c_pre g k)) (fun s1 =>
      orelse (go s1 (c_static g k)) (fun s2 => go s2 (c_dyn g k)))
  end.

Inductive status := SOk | SFailed | SIncomplete.
(** GetFinalStatus, FBuild.cpp 971-1003. *)
Definition final_status (fuel : nat) (g : cgraph) (k : nat) : option status :=
  match c_st g k with
  | UpToDate => Some SOk
  | Failed => Some SFailed
  | _ => match fail_node fuel g [] k with
         | None => None
         | Some (true, _) => Some SFailed
         | Some (false, _) => Some SIncomplete
         end
  end.
