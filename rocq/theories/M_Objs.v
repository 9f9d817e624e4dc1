(** Model of how an object list makes its objects and CopyDir its copies.  Sources: Code/Tools/FBuild/FBuildCore/Graph/ObjectListNode.cpp
    GatherDynamicDependencies 396-556, GetObjectFileName 702-738, CreateDynamicObjectNode 765-829, CreateObjectNode 833-871;
    ObjectNode.cpp Initialize 92-151; CopyDirNode.cpp DoDynamicDependencies 84-150; NodeGraph.cpp FindNode 776-789. *)
From Coq Require Import String List Arith Bool Ascii.
From Verif Require Import M_Path M_Names M_Dir.
Import ListNotations.
Open Scope list_scope.

(** The nodes that matter here: files, objects with the name of their source and their owner, copies with the name of their
    source, and the rest, which are files in the sense of IsAFile() or are not. *)
Inductive nkind := KFile | KObj (src owner : str) | KCopy (src : str) | KOther (is_file : bool).
Record gnode := mkN { nname : str; kind : nkind }.
Definition is_a_file (n : gnode) : bool := match kind n with KOther b => b | _ => true end.
(** NodeGraph::FindNode: names are compared without regard to case (for names without NUL this is strcasecmp, C18).  All names given here are clean full paths, so the
    second try after CleanPath finds nothing new (C19). *)
Definition same_name (a b : str) : bool := same (lower a) (lower b).
Definition find_n (g : list gnode) (s : str) : option gnode := find (fun n => same_name (nname n) s) g.

(** The settings of an object list that matter. *)
Record ocfg := mkC { out_path : str; root : str; prefix : str; ext : str; keep_ext : bool; owner : str; pch_cpp : str; pch : list str }.

Section P.
Context (p : plat).
(** The file name after the last slash, and the path up to it and with it, 706-707. *)
Fixpoint after_slash (s : str) : option str :=
  match s with
  | [] => None
  | c :: r => match after_slash r with Some x => Some x | None => if Ascii.eqb c (native p) then Some r else None end
  end.
Definition file_part (f : str) : str := match after_slash f with Some x => x | None => f end.
Definition dir_part (f : str) : str := firstn (List.length f - List.length (file_part f)) f.
(** The name without extension, 708-709: a dot at the very beginning of the name does not begin an extension. *)
Fixpoint before_dot (s : str) : option str :=
  match s with
  | [] => None
  | c :: r => match before_dot r with Some x => Some (c :: x) | None => if Ascii.eqb c "." then Some [] else None end
  end.
Definition stem (keep : bool) (n : str) : str := if keep then n else match before_dot n with Some (c :: x) => c :: x | _ => n end.
(** GetObjectFileName, 702-738.  Paths given as [base] and [root] end with a slash. *)
Definition sub_path (c : ocfg) (f base : str) : str :=
  match base with
  | _ :: _ => if begins_with p f base then skipn (List.length base) (dir_part f) else []
  | [] => match root c with
          | _ :: _ => if begins_with p f (root c) then skipn (List.length (root c)) (dir_part f) else []
          | [] => []
          end
  end.
Definition obj_ext (c : ocfg) : str := match ext c with [] => if windows p then L ".obj" else L ".o" | x => x end.
Definition obj_name (c : ocfg) (f base : str) : str := out_path c ++ sub_path c f base ++ prefix c ++ stem (keep_ext c) (file_part f) ++ obj_ext c.

(** CreateObjectNode 833-856 with the part of ObjectNode::Initialize that finds the source (Function::GetFileNode): the object
    comes into the graph first. *)
Definition create_obj (c : ocfg) (g : list gnode) (obj input : str) : option (list gnode) :=
  match find_n g input with
  | Some n => if is_a_file n then Some (g ++ [mkN obj (KObj (nname n) (owner c))]) else None
  | None => if same_name obj input then Some (g ++ [mkN obj (KObj obj (owner c))])
            else Some (g ++ [mkN obj (KObj input (owner c)); mkN input KFile])
  end.
(** CreateDynamicObjectNode, 765-829: the graph and the name of the node that the list depends on; [None] is an error. *)
Definition create_dyn (c : ocfg) (g : list gnode) (input base : str) : option (list gnode * str) :=
  let obj := obj_name c input base in
  match find_n g obj with
  | None => match create_obj c g obj input with Some g' => Some (g', obj) | None => None end
  | Some n =>
      match kind n with
      | KObj src own => if same input src && same (owner c) own then Some (g, nname n) else None
      | _ => None
      end
  end.

(** Inputs, in the order of the loops: files of a directory list, files of a Unity, objects of another list, and files given by
    name. *)
Inductive from := FromDir | FromUnity | FromList | Loose.
Record input := mkI { how : from; file : str; base : str }.
(** Finding or creating the node of an input, 413-424, 452-461, 495-505. *)
Definition find_or_make (g : list gnode) (s : str) : option (list gnode * str) :=
  match find_n g s with
  | None => Some (g ++ [mkN s KFile], s)
  | Some n => if is_a_file n then Some (g, nname n) else None
  end.
Definition gather_one (c : ocfg) (g : list gnode) (i : input) : option (list gnode * list str) :=
  let go g' n := match create_dyn c g' n (base i) with Some (g'', d) => Some (g'', [d]) | None => None end in
  match how i with
  | Loose => go g (file i)
  | FromDir => match find_or_make g (file i) with Some (g', n) => if windows p && same n (pch_cpp c) then Some (g', []) else go g' n | None => None end
  | FromUnity => match find_or_make g (file i) with Some (g', n) => go g' n | None => None end
  | FromList => match find_n g (file i) with Some n => if is_a_file n then go g (nname n) else None | None => None end
  end.
Fixpoint gather_all (c : ocfg) (g : list gnode) (l : list input) : option (list gnode * list str) :=
  match l with
  | [] => Some (g, [])
  | i :: r => match gather_one c g i with
              | Some (g1, d) => match gather_all c g1 r with Some (g2, ds) => Some (g2, d ++ ds) | None => None end
              | None => None
              end
  end.
(** The precompiled header at the end, 542-552. *)
Definition gather (c : ocfg) (g : list gnode) (l : list input) : option (list gnode * list str) :=
  match gather_all c g l with Some (g', ds) => Some (g', ds ++ pch c) | None => None end.

(** CopyDirNode::DoDynamicDependencies, 84-150, for one file [s] of the list of the directory [path]. *)
Definition copy_one (dest : str) (g : list gnode) (path s : str) : option (list gnode * str) :=
  match find_or_make g s with
  | None => None
  | Some (g', src) =>
      let dst := dest ++ skipn (List.length path) s in
      match find_n g' dst with
      | None => Some (g' ++ [mkN dst (KCopy src)], dst)
      | Some n => match kind n with KCopy src' => if same src src' then Some (g', nname n) else None | _ => None end
      end
  end.
Fixpoint copy_all (dest : str) (g : list gnode) (l : list (str * str)) : option (list gnode * list str) :=
  match l with
  | [] => Some (g, [])
  | (path, s) :: r => match copy_one dest g path s with
                      | Some (g1, d) => match copy_all dest g1 r with Some (g2, ds) => Some (g2, d :: ds) | None => None end
                      | None => None
                      end
  end.
End P.
