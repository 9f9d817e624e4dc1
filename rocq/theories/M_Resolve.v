(** Model of building by source file, Helpers/SourceFileTargetResolver.cpp. *)
From Coq Require Import List Arith Bool.
Import ListNotations.

(** Nodes are numbered.  A node has static and dynamic dependencies (Node.h, GetStaticDependencies and GetDynamicDependencies). *)
Record graph := { static_deps : nat -> list nat; dynamic_deps : nat -> list nat }.

Definition mem (x : nat) (l : list nat) : bool := existsb (Nat.eqb x) l.

Section Find.
Variable g : graph.
Variable source : nat.

(** FindTargetsRecurse, SourceFileTargetResolver.cpp 95-142: the nodes carrying the visited tag, and the targets found, in order.
    Fuel bounds the depth of the recursion; running out of it is None. *)
Fixpoint find_targets (fuel : nat) (t : nat) (st : list nat * list nat) : option (list nat * list nat) :=
  match fuel with
  | O => None
  | S fuel' =>
      let (visited, out) := st in
      if mem t visited then Some st
      else
        let visited' := t :: visited in
        if mem source (static_deps g t) || mem source (dynamic_deps g t) then Some (visited', out ++ [t])
        else
          let all := fix all (l : list nat) (st : list nat * list nat) : option (list nat * list nat) :=
                 match l with [] => Some st | d :: r => match find_targets fuel' d st with Some st' => all r st' | None => None end end in
          match all (static_deps g t) (visited', out) with Some st' => all (dynamic_deps g t) st' | None => None end
  end.
End Find.

Section Resolve.
Variable g : graph.
Variable fuel : nat.

(** The loop over the hint targets, SourceFileTargetResolver.cpp 55-58. *)
Fixpoint over_hints (source : nat) (hints : list nat) (st : list nat * list nat) : option (list nat * list nat) :=
  match hints with
  | [] => Some st
  | h :: r => match find_targets g source fuel h st with Some st' => over_hints source r st' | None => None end
  end.

(** The loop over the source files, SourceFileTargetResolver.cpp 42-70: a source file is the node found for its canonical path, if any.
    Result: the targets, and whether some file had none. *)
Fixpoint over_files (hints : list nat) (files : list (option nat)) (visited final : list nat) (failed : bool) : option (list nat * bool) :=
  match files with
  | [] => Some (final, failed)
  | f :: r =>
      match (match f with Some s => over_hints s hints (visited, []) | None => Some (visited, []) end) with
      | Some (visited', []) => over_files hints r visited' final true
      | Some (visited', new) => over_files hints r visited' (final ++ new) failed
      | None => None
      end
  end.

(** Resolve, SourceFileTargetResolver.cpp 24-92. *)
Definition resolve (hints : list nat) (files : list (option nat)) : option (list nat) :=
  match over_files hints files [] [] false with
  | Some (final, failed) => Some (if failed then hints else final)
  | None => None
  end.
End Resolve.
