(** Model of ListDependencies(): Code/Tools/FBuild/FBuildCore/Graph/ListDependenciesNode.cpp 36-89 and 118-190. *)
From Coq Require Import List Arith Bool Ascii.
From Verif Require Import M_Path M_Names M_Dir M_Drv M_Sort.
Import ListNotations.

(** A dependency: the number of a node, and IsWeak. *)
Definition dep := (nat * bool)%type.
Record node := Node { name : str; is_a_file : bool; static : list dep; dynamic : list dep }.
Definition graph := list node.

Section L.
(** PathUtils::IsWildcardMatch( pattern, name ); [windows]: the system. *)
Context (matches : str -> str -> bool) (windows : bool) (g : graph) (patterns : list str).

(** FilterFileDependencies, 36-72: the nodes whose names were appended; Find compares the addresses of names.
    [None]: a dependency is not in the graph. *)
Fixpoint filter_files (acc : list nat) (ds : list dep) : option (list nat) :=
  match ds with
  | [] => Some acc
  | (n, weak) :: r =>
      if weak then filter_files acc r
      else match nth_error g n with
           | None => None
           | Some d =>
               if negb (is_a_file d) then filter_files acc r
               else if existsb (Nat.eqb n) acc then filter_files acc r
               else if match patterns with [] => true | _ => existsb (fun p => matches p (name d)) patterns end then filter_files (acc ++ [n]) r
               else filter_files acc r
           end
  end.
(** The two loops of 134-150. *)
Fixpoint each_dep (acc : list nat) (ds : list dep) : option (list nat) :=
  match ds with
  | [] => Some acc
  | (n, weak) :: r =>
      if weak then each_dep acc r
      else match nth_error g n with
           | None => None
           | Some d => match filter_files acc (static d) with
                       | None => None
                       | Some acc1 => match filter_files acc1 (dynamic d) with None => None | Some acc2 => each_dep acc2 r end
                       end
           end
  end.
(** DoBuild, 127-151: [sources] are the static dependencies of the node. *)
Fixpoint collect (acc : list nat) (sources : list dep) : option (list nat) :=
  match sources with
  | [] => Some acc
  | (n, weak) :: r =>
      if weak then collect acc r
      else match nth_error g n with
           | None => None
           | Some d => match each_dep acc (static d) with
                       | None => None
                       | Some acc1 => match each_dep acc1 (dynamic d) with None => None | Some acc2 => collect acc2 r end
                       end
           end
  end.
(** DependencyAscendingCompareIDeref, 76-89. *)
Definition earlier (a b : str) : bool := if windows then less (lower a) (lower b) else less a b.
Definition name_of (n : nat) : str := match nth_error g n with Some d => name d | None => [] end.
(** 159-167: an entry that is equal to the last that was written is left out. *)
Fixpoint without_repeats (prev : option str) (l : list str) : list str :=
  match l with
  | [] => []
  | s :: r => if match prev with Some p => teq p s | None => false end then without_repeats prev r else s :: without_repeats (Some s) r
  end.
(** DoBuild, 118-175: the lines of the file. *)
Definition lines (sources : list dep) : option (list str) :=
  match collect [] sources with
  | None => None
  | Some ns => match shell_sort earlier (map name_of ns) with None => None | Some l => Some (without_repeats None l) end
  end.
End L.
(** 168-174: the text. *)
Definition text (windows : bool) (l : list str) : str := flat_map (fun s => s ++ if windows then ["013"%char; "010"%char] else ["010"%char]) l.
