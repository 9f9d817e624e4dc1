(** Model of Copy(): Code/Tools/FBuild/FBuildCore/BFF/Functions/FunctionCopy.cpp 36-200.  Reading the properties, .PreBuildDependencies and the alias
    for the function are not modelled. *)
From Coq Require Import String Ascii List Arith Bool.
From Verif Require Import M_Path M_Names M_Dir M_Drv M_Xcode.
Import ListNotations.
Local Open Scope list_scope.

(** A node of the graph: something that results in a file, an alias with what it stands for, or anything else.  Aliases hold their targets
    here, which are nodes that were there before. *)
Inductive node := File (n : str) | Alias (n : str) (targets : list node) | Other (n : str).
Definition name (x : node) : str := match x with File n | Alias n _ | Other n => n end.

(** GetSourceNodes, 173-200. *)
Fixpoint files (x : node) : option (list str) :=
  match x with
  | File n => Some [n]
  | Alias _ ts =>
      (fix all (l : list node) : option (list str) :=
         match l with
         | [] => Some []
         | y :: r => match files y with None => None | Some a => match all r with None => None | Some b => Some (a ++ b) end end
         end) ts
  | Other _ => None
  end.

Section C.
(** NodeGraph::CleanPath (C01). *)
Context (p : plat) (clean : str -> str).
(** FindNode (C18), NodeGraph.cpp 776-789: names, which have no NUL, are compared without case; first as given and then as a full path. *)
Definition lookup (g : list node) (n : str) : option node := List.find (fun x => teq (lower (name x)) (lower n)) g.
Definition find (g : list node) (n : str) : option node := match lookup g n with Some x => Some x | None => lookup g (clean n) end.

(** Get source nodes, 89-109: the graph and the files.  CreateNode cleans the name of a file. *)
Fixpoint gather (g : list node) (ss : list str) : option (list node * list str) :=
  match ss with
  | [] => Some (g, [])
  | s :: r =>
      match find g s with
      | Some x => match files x with
                  | None => None
                  | Some a => match gather g r with None => None | Some (g', b) => Some (g', a ++ b) end
                  end
      | None => match gather (g ++ [File (clean s)]) r with None => None | Some (g', b) => Some (g', clean s :: b) end
      end
  end.
(** The part of the name of a source that is added to a destination that is a folder, 132-148. *)
Definition part (base f : str) : str :=
  if negb (match base with [] => true | _ => false end) && begins_with p f base then skipn (length base) f
  else match last_at (native p) f with Some k => skipn (S k) f | None => f end.
(** Make all the nodes for copies, 123-166. *)
Fixpoint copies (base d : str) (g : list node) (fs : list str) : option (list (str * str)) :=
  match fs with
  | [] => Some []
  | f :: r =>
      let dst := if is_folder p d then d ++ part base f else d in
      match find g dst with
      | Some _ => None
      | None => match copies base d (g ++ [File (clean dst)]) r with None => None | Some t => Some ((f, clean dst) :: t) end
      end
  end.
(** Commit, 36-170: what is copied to where. *)
Definition copy (g : list node) (sources : list str) (base dest : str) : option (list (str * str)) :=
  let b := match base with [] => [] | _ => ensure_trailing p (clean base) end in
  if existsb (is_folder p) sources then None else
  match gather g sources with
  | None => None
  | Some (g', fs) =>
      if (1 <? length fs) && negb (is_folder p (clean dest)) then None else copies b (clean dest) g' fs
  end.
End C.
