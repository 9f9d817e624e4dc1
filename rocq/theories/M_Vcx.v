(** Model of the project that VCXProject() writes: its list of files, the folders ("filters") in which they are shown, and the text of its
    settings.  Source: Code/Tools/FBuild/FBuildCore/Helpers/VSProjectGenerator.cpp. *)
From Coq Require Import String Ascii List Arith Bool NArith.
From Verif Require Import M_Path M_Names M_Sort M_Dir M_Drv M_Xcode.
Import ListNotations.
Local Open Scope list_scope.

Definition back : ascii := "\"%char.
(** Replace( FORWARD_SLASH, BACK_SLASH ). *)
Definition to_back (s : str) : str := map (fun c => if Ascii.eqb c "/" then back else c) s.
(** VSProjectFilePair. *)
Record pair := Pair { absolute : str; shown : str }.

Section G.
(** ProjectGeneratorBase::GetRelativePath to the directory of the project (M_Path), any function here; xxHash::Calc32, any function. *)
Context (p : plat) (rel : str -> str) (hash : str -> N).

(** AddFile 61-68, and the loop of CanonicalizeFilePaths, 699-706: on Windows what GetRelativePath returns is kept as it is. *)
Definition pair_of (f : str) : pair := let a := to_back f in Pair a (if windows p then rel a else to_back (rel a)).
(** FileAscendingCompareIDeref 25-32. *)
Definition pair_less (a b : pair) : bool := less (lower (shown a)) (lower (shown b)).
(** 712-730: a file that differs at most in case from the last one kept is dropped. *)
Fixpoint uniques (prev : pair) (l : list pair) : list pair :=
  match l with
  | [] => []
  | x :: r => if teq (lower (shown x)) (lower (shown prev)) then uniques prev r else x :: uniques x r
  end.
(** CanonicalizeFilePaths 677-738. *)
Definition project_files (adds : list str) : option (list pair) :=
  match adds with
  | [] => Some []
  | _ => match shell_sort pair_less (map pair_of adds) with
         | None => None
         | Some [] => None
         | Some (x :: r) => Some (x :: uniques x r)
         end
  end.
(** The base paths as they are used, 686-691. *)
Definition base_paths (bases : list str) : list str := if windows p then bases else map to_back bases.

(** GetFolderPath 651-673. *)
Fixpoint folder_path (bases : list str) (f : str) : str :=
  match bases with
  | [] => []
  | b :: r =>
      if starts_with (lower b) (lower f) then
        let e := match last_at back f with Some i => i | None => length f end in
        if length b <? e then firstn (e - length b) (skipn (length b) f) else folder_path r f
      else folder_path r f
  end.

(** GenerateVCXProjFilters 510-536: the folder and the folders in which it is. *)
Fixpoint add_folder (fuel : nat) (f : str) (st : list str * list N) : option (list str * list N) :=
  match fuel with
  | O => None
  | S k =>
      if existsb (N.eqb (hash f)) (snd st) then Some st
      else
        let st1 := (fst st ++ [f], snd st ++ [hash f]) in
        match last_at back f with
        | None => Some st1
        | Some i => add_folder k (firstn i f) st1
        end
  end.
(** The loop over the files, 488-537; [prev] is lastFolder. *)
Fixpoint add_all (bases : list str) (l : list pair) (prev : str) (st : list str * list N) : option (list str * list N) :=
  match l with
  | [] => Some st
  | x :: r =>
      let f := folder_path bases (absolute x) in
      if negb (teq f []) && negb (teq f prev)
      then match add_folder (S (length f)) f st with None => None | Some st1 => add_all bases r f st1 end
      else add_all bases r prev st
  end.
(** What the .filters file says: each file with its folder, 488-503, and each folder with the hash from which its identifier is made,
    541-554. *)
Definition filters (bases : list str) (l : list pair) : option (list (str * option str) * list (str * N)) :=
  match add_all (base_paths bases) l [] ([], []) with
  | None => None
  | Some (fs, hs) =>
      Some (map (fun x => (shown x, match folder_path (base_paths bases) (absolute x) with [] => None | f => Some f end)) l, combine fs hs)
  end.
Definition project (bases adds : list str) : option (list (str * option str) * list (str * N)) :=
  match project_files adds with None => None | Some l => filters bases l end.
End G.

(** WritePGItem 625-647. *)
Definition pg_char (c : ascii) : str :=
  if Ascii.eqb c ">" then L "&gt;" else if Ascii.eqb c "<" then L "&lt;" else if Ascii.eqb c "&" then L "&amp;" else [c].
Definition pg_item (tag value : str) : str :=
  match value with
  | [] => []
  | _ => L "    <" ++ tag ++ L ">" ++ flat_map pg_char value ++ L "</" ++ tag ++ L ">" ++ [ascii_of_nat 10]
  end.
(** The start of the element of a file, 493: the name is written as it is. *)
Definition file_item (name : str) : str := L "    <CustomBuild Include=" ++ [ascii_of_nat 34] ++ name ++ [ascii_of_nat 34] ++ L ">" ++ [ascii_of_nat 10].
