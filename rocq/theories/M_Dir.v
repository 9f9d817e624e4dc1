(** Model of directory listings and of RemoveDir().  Sources: Code/Core/FileIO/FileIO.cpp GetFilesRecurse 1022-1163 and IsMatch 1797-1816;
    Code/Tools/FBuild/FBuildCore/Graph/DirectoryListNode.cpp 34-108 (the filter) and DoBuild 226-316;
    Code/Tools/FBuild/FBuildCore/Graph/RemoveDirNode.cpp DoBuild 84-130. *)
From Coq Require Import String List Arith Bool Ascii NArith.
From Verif Require Import M_Path M_Names M_Glob M_Sort M_Cond.
Import ListNotations.
Open Scope list_scope.

(** What a directory holds, in the order in which the system returns it.  Symbolic links are files here: d_type is not DT_DIR, and lstat is used
    when it is unknown. *)
Inductive entry := EFile (n : str) (read_only : bool) | EDir (n : str) (es : list entry).

(** The settings of a DirectoryListNode. *)
Record opts := mkO { patterns : list str; excl_paths : list str; excl_files : list str; excl_patterns : list str; recurse : bool; include_dirs : bool;
                     hash_read_only : bool }.

Section P.
Context (p : plat).
(** PathUtils::IsWildcardMatch, PathUtils.cpp 58-67; PathBeginsWith, 71-80.  Here [windows] stands for "not Linux".  [Match_] always
    answers (C20). *)
Definition wild (pat s : str) : bool := match (if windows p then MatchI_ pat s else Match_ pat s) with Some b => b | None => false end.
Definition begins_with (path sub : str) : bool := if windows p then starts_with (lower sub) (lower path) else starts_with sub path.
(** PathEndsWithFile, 84-114. *)
Definition ends_with_file (path file : str) : bool := if windows p then path_ends_with_file p (lower path) (lower file) else path_ends_with_file p path file.

(** FileIO::IsMatch, FileIO.cpp 1797-1816. *)
Definition matches (o : opts) (n : str) : bool := match patterns o with [] => true | l => existsb (fun q => wild q n) l end.
(** OnDirectory, DirectoryListNode.cpp 54-76: is the directory entered? *)
Definition enters (o : opts) (d : str) : bool := recurse o && negb (existsb (begins_with d) (excl_paths o)).
(** OnFile, 79-101: is the file kept? *)
Definition keeps (o : opts) (f : str) : bool := negb (existsb (ends_with_file f) (excl_files o)) && negb (existsb (fun q => wild q f) (excl_patterns o)).
(** The test for '.' and '..', FileIO.cpp 1101-1105. *)
Definition magic (n : str) : bool := Ascii.eqb (nth 0 n nul) "." && (Ascii.eqb (nth 1 n nul) "." || Ascii.eqb (nth 1 n nul) nul).

(** GetFilesRecurse, 1044-1155, the two lists that the helper collects. *)
Fixpoint files_of (o : opts) (path : str) (e : entry) : list (str * bool) :=
  match e with
  | EFile n ro => if matches o n && keeps o (path ++ n) then [(path ++ n, ro)] else []
  | EDir n es =>
      if magic n then []
      else let d := path ++ n ++ [native p] in if enters o d then flat_map (files_of o d) es else []
  end.
Fixpoint dirs_of (o : opts) (path : str) (e : entry) : list str :=
  match e with
  | EFile _ _ => []
  | EDir n es =>
      if magic n then []
      else let d := path ++ n ++ [native p] in
           (if include_dirs o then [d] else []) ++ (if enters o d then flat_map (dirs_of o d) es else [])
  end.

(** FileSorter, DirectoryListNode.cpp 249-256, and the sort of the directories, 258-259. *)
Definition less (a b : str) : bool := match scmp a b with Lt => true | _ => false end.
Definition less_file (a b : str * bool) : bool := less (fst a) (fst b).
(** DoBuild, 226-260.  [None] for the root: it is not there, cannot be opened, or is a symbolic link (not followed, 1031-1043). *)
Definition list_dir (o : opts) (path : str) (root : option (list entry)) : option (list (str * bool) * list str) :=
  let es := match root with Some es => es | None => [] end in
  match shell_sort less_file (flat_map (files_of o path) es), shell_sort less (flat_map (dirs_of o path) es) with
  | Some fs, Some ds => Some (fs, ds)
  | _, _ => None
  end.
(** The stamp, 287-315: what is given to the hash. *)
Definition stamp_text (o : opts) (l : list (str * bool) * list str) : str :=
  flat_map (fun f : str * bool => fst f ++ if hash_read_only o then [if snd f then ascii_of_nat 1 else nul] else []) (fst l) ++ concat (snd l).
Definition stamp (hash : str -> N) (o : opts) (l : list (str * bool) * list str) : N :=
  match l with
  | ([], []) => 1%N
  | _ => hash (stamp_text o l)
  end.

(** * Removing.  The file system below is the set of files and the set of directories (with a slash at the end). *)
Record disk := mkD { ffiles : list str; fdirs : list str }.
Definition same (a b : str) : bool := if list_eq_dec ascii_dec a b then true else false.
Definition without (s : str) (l : list str) : list str := filter (fun x => negb (same s x)) l.
(** FileIO::FileDelete (unlink), DirectoryDelete (rmdir), FileIO.cpp 109-150: a directory must be empty. *)
Definition unlink (f : str) (k : disk) : option disk := if existsb (same f) (ffiles k) then Some (mkD (without f (ffiles k)) (fdirs k)) else None.
Definition below (d x : str) : bool := starts_with d x && negb (same d x).
Definition rmdir (d : str) (k : disk) : option disk :=
  if existsb (same d) (fdirs k) && negb (existsb (below d) (ffiles k)) && negb (existsb (below d) (fdirs k))
  then Some (mkD (ffiles k) (without d (fdirs k))) else None.
(** The loops stop at the first failure; what was removed before stays removed. *)
Fixpoint each_ (op : str -> disk -> option disk) (l : list str) (k : disk) : disk * bool :=
  match l with
  | [] => (k, true)
  | x :: r => match op x k with Some k' => each_ op r k' | None => (k, false) end
  end.
(** RemoveDirNode::DoBuild, 84-130, for one directory list, then for all. *)
Definition remove_one (dirs root : bool) (path : str) (l : list (str * bool) * list str) (k : disk) : disk * bool :=
  match each_ unlink (map fst (fst l)) k with
  | (k1, false) => (k1, false)
  | (k1, true) =>
      match (if dirs then each_ rmdir (rev (snd l)) k1 else (k1, true)) with
      | (k2, false) => (k2, false)
      | (k2, true) =>
          if dirs && root && existsb (same path) (fdirs k2) then match rmdir path k2 with Some k3 => (k3, true) | None => (k2, false) end
          else (k2, true)
      end
  end.
Fixpoint remove_all (dirs root : bool) (ls : list (str * (list (str * bool) * list str))) (k : disk) : disk * bool :=
  match ls with
  | [] => (k, true)
  | (path, l) :: r => match remove_one dirs root path l k with (k', true) => remove_all dirs root r k' | x => x end
  end.
End P.
