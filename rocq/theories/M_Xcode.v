(** Model of the XCode project that XCodeProject() writes: the tree of folders and files, the objects of the project, their identifiers and
    the text of their values.  Sources: Code/Tools/FBuild/FBuildCore/Helpers/ProjectGeneratorBase.cpp and XCodeProjectGenerator.cpp;
    Code/Tools/FBuild/FBuildCore/Graph/XCodeProjectNode.cpp DoBuild 162-175. *)
From Coq Require Import String Ascii List Arith Bool NArith DecimalString.
From Verif Require Import M_Path M_Names M_Array M_Sort M_Dir M_Drv.
Import ListNotations.
Local Open Scope list_scope.

(** AString::FindLast: the index of the last [c]. *)
Fixpoint last_at (c : ascii) (s : str) : option nat :=
  match s with
  | [] => None
  | d :: r => match last_at c r with Some i => Some (S i) | None => if Ascii.eqb d c then Some 0 else None end
  end.

(** ProjectGeneratorBase.h 86-105.  A Folder or a File is denoted by the order of its creation. *)
Record folder := Folder { fpath : str; ffiles : list nat; fsubs : list nat }.
Record file := File { fname : str; ffull : str; ffolder : nat }.
Record tree := Tree { folders : list folder; files : list file }.

(** The constructor, ProjectGeneratorBase.cpp 112-118: the root folder is the first. *)
Definition start : tree := Tree [Folder [] [] []] [].

Section P.
Context (p : plat) (bases : list str).

(** GetProjectRelativePath_Deprecated 140-160: the longest of the base paths with which the name begins, and what follows it.  [windows] stands
    for "not Linux", as in M_Dir. *)
Fixpoint best (f : str) (l : list str) (b : str) : str :=
  match l with
  | [] => b
  | x :: r => if length x <=? length b then best f r b else if begins_with p f x then best f r x else best f r b
  end.
Definition relative (f : str) : str := skipn (length (best f bases [])) f.

(** The search among the folders, 174-181. *)
Fixpoint index_of {A} (t : A -> bool) (l : list A) : option nat :=
  match l with [] => None | x :: r => if t x then Some 0 else match index_of t r with Some i => Some (S i) | None => None end end.
(** parentFolder->m_Folders.Append and folder->m_Files.Append. *)
Definition add_sub (g n : nat) (l : list folder) : option (list folder) :=
  match get l g with None => None | Some x => set l g (Folder (fpath x) (ffiles x) (fsubs x ++ [n])) end.
Definition add_to (g n : nat) (l : list folder) : option (list folder) :=
  match get l g with None => None | Some x => set l g (Folder (fpath x) (ffiles x ++ [n]) (fsubs x)) end.

(** GetFolderFor 164-195.  [None] only when the fuel is used up or a folder does not exist. *)
Fixpoint folder_for (fuel : nat) (path : str) (s : tree) : option (nat * tree) :=
  match fuel with
  | O => None
  | S k =>
      match last_at (native p) path with
      | None | Some O => Some (0, s)
      | Some i =>
          let q := firstn i path in
          match index_of (fun x => teq (fpath x) q) (folders s) with
          | Some j => Some (j, s)
          | None =>
              match folder_for k q s with
              | None => None
              | Some (g, s1) =>
                  let n := length (folders s1) in
                  match add_sub g n (folders s1 ++ [Folder q [] []]) with
                  | None => None
                  | Some l => Some (n, Tree l (files s1))
                  end
              end
          end
      end
  end.

(** The name without its path, 233-236. *)
Definition after (i : option nat) (s : str) : option str := match i with Some k => Some (skipn (S k) s) | None => None end.
Definition short_name (r : str) : str :=
  match after (last_at "/"%char r) r with
  | Some n => n
  | None => match after (last_at "\"%char r) r with Some n => n | None => r end
  end.
(** AddFile 224-247. *)
Definition add_file (f : str) (s : tree) : option tree :=
  let r := relative f in
  match folder_for (S (length r)) r s with
  | None => None
  | Some (g, s1) =>
      let n := length (files s1) in
      match add_to g n (folders s1) with
      | None => None
      | Some l => Some (Tree l (files s1 ++ [File (short_name r) f g]))
      end
  end.
Fixpoint add_files (l : list str) (s : tree) : option tree :=
  match l with [] => Some s | f :: r => match add_file f s with None => None | Some s1 => add_files r s1 end end.

(** SortFilesAndFolders 199-220: arrays of pointers are sorted by the name of what they point to (File::operator< and Folder::operator<,
    ProjectGeneratorBase.h 95 and 104). *)
Definition file_name (s : tree) (i : nat) : str := match get (files s) i with Some x => fname x | None => [] end.
Definition folder_path (s : tree) (i : nat) : str := match get (folders s) i with Some x => fpath x | None => [] end.
Definition sort_files (s : tree) (l : list nat) : option (list nat) := shell_sort (fun i j => less (file_name s i) (file_name s j)) l.
Definition sort_folders (s : tree) (l : list nat) : option (list nat) := shell_sort (fun i j => less (folder_path s i) (folder_path s j)) l.
(** m_SortedIndex. *)
Definition position (order : list nat) (i : nat) : N := match index_of (Nat.eqb i) order with Some k => N.of_nat k | None => 0%N end.

(** Identifiers.  "%08u" and "%08X" of a uint32_t. *)
Definition dec8 (n : N) : str :=
  let u := N.to_uint n in L (NilEmpty.string_of_uint (Nat.iter (8 - Decimal.nb_digits u) Decimal.D0 u)).
Definition hex_digit (n : N) : ascii := nth (N.to_nat (n mod 16)) (L "0123456789ABCDEF") "0"%char.
Definition hex8 (n : N) : str :=
  map hex_digit [n / 268435456; n / 16777216; n / 1048576; n / 65536; n / 4096; n / 256; n / 16; n]%N.
(** XCodeProjectGenerator.cpp, WriteFiles 321-380, and GetGUID_... 249-303. *)
Definition build_id (n : N) : str := L "1111111100000000" ++ dec8 n.
Definition ref_id (n : N) : str := L "1111111111111111" ++ dec8 n.
Definition group_id (n : N) : str := L "2222222222222222" ++ hex8 n.
Definition legacy_id (n : N) : str := L "3333333333333333" ++ hex8 n.
Definition native_id (n : N) : str := L "3333333300000000" ++ hex8 n.
Definition project_id (n : N) : str := L "4444444444444444" ++ hex8 n.
Definition list_id (n : N) : str := L "5555555555555555" ++ hex8 n.
Definition config_id (n : N) : str := L "6666666666666666" ++ hex8 n.
Definition phase_id (n : N) : str := L "7777777777777777" ++ hex8 n.

(** ProcessString 907-962. *)
Definition between (a b c : ascii) : bool := (nat_of_ascii a <=? nat_of_ascii c) && (nat_of_ascii c <=? nat_of_ascii b).
Definition safe (c : ascii) : bool :=
  between "a" "z" c || between "A" "Z" c || between "0" "9" c || Ascii.eqb c "$" || Ascii.eqb c "_" || Ascii.eqb c "." || Ascii.eqb c "/".
Definition quote_ : ascii := ascii_of_nat 34.
Definition escaped (c : ascii) : str := if Ascii.eqb c "\" || Ascii.eqb c quote_ then ["\"%char; c] else [c].
Definition process_string (s : str) : str :=
  match s with
  | [] => [quote_; quote_]
  | _ => if forallb safe s then s else [quote_] ++ flat_map escaped s ++ [quote_]
  end.
(** EscapeArgument 884-903. *)
Definition escape_char (c : ascii) : str :=
  if Ascii.eqb c ">" then L "&gt;" else if Ascii.eqb c "<" then L "&lt;" else if Ascii.eqb c quote_ then L "&quot;"
  else if Ascii.eqb c "&" then L "&amp;" else [c].
Definition escape_argument (s : str) : str := flat_map escape_char s.

(** The objects of the project, with the texts of those of their values that are modelled. *)
Inductive object :=
| BuildFile (ref : str)
| FileRef (name path : str)
| Group (name : option str) (children : list str)
| LegacyTarget (configs : str) (phases : list str)
| NativeTarget (configs : str) (phases : list str)
| Project (configs main : str) (targets : list str)
| Sources (built : list str)
| Config (name : str)
| ConfigList (configs : list str) (default : str).

(** folderName, WriteFolders 394-400. *)
Definition group_name (path : str) : option str :=
  match path with [] => None | _ => match after (last_at (native p) path) path with Some n => Some n | None => Some path end end.
(** One group, WriteFolders 384-447. *)
Definition write_group (s : tree) (fo go : list nat) (g : nat) : option (str * object) :=
  match get (folders s) g with
  | None => None
  | Some x =>
      match sort_files s (ffiles x), sort_folders s (fsubs x) with
      | Some a, Some b =>
          Some (group_id (position go g), Group (group_name (fpath x)) (map (fun i => ref_id (position fo i)) a ++ map (fun i => group_id (position go i)) b))
      | _, _ => None
      end
  end.
Fixpoint each {A B} (f : A -> option B) (l : list A) : option (list B) :=
  match l with [] => Some [] | x :: r => match f x, each f r with Some y, Some t => Some (y :: t) | _, _ => None end end.
(** WriteFiles: the section of built files, and the section of references. *)
Definition write_build (fo : list nat) (i : nat) : str * object := (build_id (position fo i), BuildFile (ref_id (position fo i))).
Definition write_ref (s : tree) (fo : list nat) (i : nat) : option (str * object) :=
  match get (files s) i with
  | None => None
  | Some x => Some (ref_id (position fo i), FileRef (process_string (fname x)) (process_string (ffull x)))
  end.
(** [configId] runs from a given start over the configurations, WriteBuildConfiguration 617-779. *)
Fixpoint numbered {A} (n : N) (l : list A) : list (N * A) := match l with [] => [] | x :: r => (n, x) :: numbered (n + 1) r end.
Definition write_config (c : N * str) : str * object := (config_id (fst c), Config (snd c)).

(** GeneratePBXProj 27-47 (WriteFiles, WriteFolders, WriteBuildCommand 451-516, WriteGeneralSettings 520-574, WritePBXSourcesBuildPhase 578-606,
    WriteBuildConfiguration 610-779 and WriteConfigurationList 783-814) after the files and configurations were added.  m_Configs[ 0 ] must exist. *)
Definition write (s : tree) (configs : list str) : option (list (str * object)) :=
  match configs with
  | [] => None
  | c0 :: _ =>
      match sort_files s (seq 0 (length (files s))), sort_folders s (seq 0 (length (folders s))) with
      | Some fo, Some go =>
          match each (write_ref s fo) fo, each (write_group s fo go) go with
          | Some refs, Some groups =>
              Some (map (write_build fo) fo ++ refs ++ groups
                    ++ [(legacy_id 0, LegacyTarget (list_id 1) [phase_id 0]); (native_id 0, NativeTarget (list_id 2) [phase_id 0]);
                        (project_id 0, Project (list_id 0) (group_id 0) [legacy_id 0; native_id 0]);
                        (phase_id 0, Sources (map (fun i => build_id (position fo i)) fo))]
                    ++ map write_config (numbered 0 configs) ++ map write_config (numbered 100 configs) ++ map write_config (numbered 200 configs)
                    ++ map (fun k => (list_id (fst k), ConfigList (map (fun c => config_id (fst c)) (numbered (snd k) configs)) c0)) [(0, 0); (1, 100); (2, 200)]%N)
          | _, _ => None
          end
      | _, _ => None
      end
  end.
Definition generate (adds configs : list str) : option (list (str * object)) :=
  match add_files adds start with None => None | Some s => write s configs end.

(** XCodeProjectNode::DoBuild 162-175: the name of the project.  [None]: the new length wraps, or the end of the name comes before its start. *)
Definition project_name (m : str) : option str :=
  match last_at (native p) m with
  | Some O => None
  | o =>
      let tmp := match o with Some k => firstn (k - 1) m | None => m end in
      let b := match last_at (native p) tmp with Some k => S k | None => 0 end in
      let e := match last_at dot tmp with Some k => k | None => length tmp end in
      if e <? b then None else Some (firstn (e - b) (skipn b tmp))
  end.
End P.
