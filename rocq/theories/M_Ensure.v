(** Folders are made: Code/Core/FileIO/FileIO.cpp, EnsurePathExists 596-656, EnsurePathExistsForFile 660-668,
    DirectoryCreate 535-567 and DirectoryExists 571-592, on Linux, for full clean paths (C01).  A path is the
    list of its parts, without the slashes; the root folder is the empty list. *)
From Coq Require Import List Arith Bool String.
Import ListNotations.

Definition path := list string.
(** [Special]: a socket or a block device.  Links are not modelled. *)
Inductive entry := Folder | File | Special.
(** What is on disk; the root is always a folder. *)
Definition disk := path -> option entry.
Definition path_eqb (a b : path) : bool := if list_eq_dec string_dec a b then true else false.
Definition at_ (d : disk) (p : path) : option entry := match p with [] => Some Folder | _ => d p end.
Definition put (d : disk) (p : path) : disk := fun q => if path_eqb q p then Some Folder else d q.

(** DirectoryExists, 571-592: the test of line 584, ( st_mode & S_IFDIR ) != 0, is also true of the modes of sockets (0140000)
    and of block devices (0060000), as S_IFDIR is 0040000. *)
Definition exists_dir (d : disk) (p : path) : bool := match at_ d p with Some Folder | Some Special => true | _ => false end.
(** What the system takes for a folder. *)
Definition is_folder (d : disk) (p : path) : bool := match at_ d p with Some Folder => true | _ => false end.
(** mkdir: it needs the parent to be a folder and may be refused ([allowed]); errno is EEXIST if anything has the name. *)
Inductive made := Made | Exists | Refused.
Definition mkdir (allowed : path -> bool) (d : disk) (p : path) : made * disk :=
  match at_ d p with
  | Some _ => (Exists, d)
  | None => if is_folder d (removelast p) && allowed p then (Made, put d p) else (Refused, d)
  end.
(** DirectoryCreate, 548-566. *)
Definition create (allowed : path -> bool) (d : disk) (p : path) : bool * disk :=
  let '(m, d') := mkdir allowed d p in (match m with Refused => false | _ => true end, d').

(** Others work on the disk at the same time: [others] are what they make of it before each call of this program. *)
Definition world := list (disk -> disk).
Definition tick (o : world) (d : disk) : disk * world := match o with [] => (d, []) | f :: r => (f d, r) end.

(** The loop of 640-656: [done] are the parts before the slash, [todo] those after it. *)
Fixpoint walk (allowed : path -> bool) (o : world) (d : disk) (done todo : path) : bool * disk :=
  match todo with
  | [] => (true, d)
  | c :: r =>
      let p := done ++ [c] in
      let '(d1, o1) := tick o d in
      if exists_dir d1 p then walk allowed o1 d1 p r
      else let '(d2, o2) := tick o1 d1 in
           let '(ok, d3) := create allowed d2 p in
           if ok then walk allowed o2 d3 p r else (false, d3)
  end.
(** EnsurePathExists, 596-656.  For the root itself the first test answers. *)
Definition ensure (allowed : path -> bool) (o : world) (d : disk) (p : path) : bool * disk :=
  let '(d1, o1) := tick o d in if exists_dir d1 p then (true, d1) else walk allowed o1 d1 [] p.
(** EnsurePathExistsForFile, 660-668.  For a file in the root the path before the last slash is the empty text: lstat of it fails
    (no such file), FixupFolderPath makes the root of it, and as no slash follows the first, the result is false (633-637). *)
Definition ensure_for_file (allowed : path -> bool) (o : world) (d : disk) (f : path) : bool * disk :=
  match removelast f with [] => (false, fst (tick o d)) | p => ensure allowed o d p end.
