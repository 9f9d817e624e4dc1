(** Model of path handling.  Sources: Graph/NodeGraph.cpp CleanPath 1252-1407; Core/FileIO/PathUtils.cpp;
    FBuildOptions.cpp SetWorkingDir 554-566.
    Strings are lists of characters; the terminating NUL is read by [peek] at the end of a string. *)
From Coq Require Import List Arith Bool Ascii String NArith.
Import ListNotations.

Definition str := list ascii.
(** Literals. *)
Definition L (s : string) : str := list_ascii_of_string s.

Definition nul : ascii := Ascii.zero.
Definition dot : ascii := "."%char.

(** NATIVE_SLASH, OTHER_SLASH, PathUtils.h 11-21. *)
Record plat := mkP { native : ascii; other : ascii; windows : bool }.
Definition posix : plat := mkP "/"%char "\"%char false.
Definition win : plat := mkP "\"%char "/"%char true.

Definition peek (s : str) : ascii := match s with [] => nul | c :: _ => c end.

Section P.
Context (p : plat).

Definition is_slash (c : ascii) : bool := Ascii.eqb c (native p) || Ascii.eqb c (other p).
Definition slash_or_nul (c : ascii) : bool := is_slash c || Ascii.eqb c nul.

(** BeginsWith( NATIVE_DOUBLE_SLASH ). *)
Definition begins_double (s : str) : bool :=
  match s with a :: b :: _ => Ascii.eqb a (native p) && Ascii.eqb b (native p) | _ => false end.

(** PathUtils::IsFullPath, PathUtils.cpp 30-40. *)
Definition is_full (s : str) : bool :=
  if windows p
  then match s with _ :: b :: _ => Ascii.eqb b ":"%char | _ => false end || begins_double s
  else match s with a :: _ => Ascii.eqb a (native p) | [] => false end.

(** while ( *src == slash ) ++src *)
Fixpoint skip_slashes (s : str) : str :=
  match s with c :: r => if is_slash c then skip_slashes r else s | [] => [] end.

(** The loop removing the last directory, NodeGraph.cpp 1366-1374.  [rdst] is the output written so
    far, last character first, so [dst] is its length. *)
Fixpoint back (rdst : str) (lowest : nat) : str :=
  if lowest <? List.length rdst then
    match rdst with
    | c :: r => if Ascii.eqb c (native p) then rdst else back r lowest
    | [] => []
    end
  else rdst.

(** The main loop, NodeGraph.cpp 1319-1396.  [full]: isFullPath.  [lowest]: lowestRemovableChar as an
    offset.  [cap]: size of the output buffer, terminator included; a write at or after [cap] is [None],
    and so is running out of the iteration allowance [fuel]. *)
Fixpoint clean_loop (cap fuel : nat) (full : bool) (src rdst : str) (lowest : nat) (lastc : ascii) : option str :=
  match fuel with
  | O => None
  | S f =>
      match src with
      | [] => Some rdst
      | c :: r =>
          let write := if List.length rdst <? cap then clean_loop cap f full r (c :: rdst) lowest c else None in
          if is_slash c then
            if List.length rdst <? cap
            then clean_loop cap f full (skip_slashes src) (native p :: rdst) lowest (native p) else None
          else if Ascii.eqb c dot && Ascii.eqb lastc (native p) then
            if slash_or_nul (peek r) then clean_loop cap f full (skip_slashes r) rdst lowest lastc
            else if Ascii.eqb (peek r) dot && slash_or_nul (peek (tl r)) then
              let src' := skip_slashes (tl r) in
              if lowest <? List.length rdst then clean_loop cap f full src' (back (tl rdst) lowest) lowest lastc
              else if negb full then
                let rdst' := native p :: dot :: dot :: rdst in
                if List.length rdst + 2 <? cap then clean_loop cap f full src' rdst' (List.length rdst') lastc else None
              else clean_loop cap f full src' rdst lowest lastc
            else write
          else write
      end
  end.

Definition root_len : nat := if windows p then 3 else 1.

(** CleanPath, NodeGraph.cpp 1252-1407.  [wd]: the working directory.  The final length is truncated to
    16 bits by the cast at 1400. *)
Definition clean_path (wd name : str) (make_full : bool) : option str :=
  let full0 := is_full name in
  let start := if negb full0 && make_full
               then (match wd with [] => [] | _ => wd ++ [native p] end)
               else [] in
  let full := full0 || make_full in
  let src := if windows p then skip_slashes name else name in
  let lowest := if full then root_len else 0 in
  let cap := List.length start + List.length name + 1 in
  match clean_loop cap (S (List.length src)) full src (rev start) lowest (native p) with
  | None => None
  | Some rdst => let out := rev rdst in
                 Some (firstn (N.to_nat (N.of_nat (List.length out) mod 65536)%N) out)
  end.

(** PathUtils::IsFolderPath, PathUtils.cpp 11-26. *)
Definition is_folder (s : str) : bool :=
  match rev s with c :: _ => is_slash c | [] => false end.

(** PathUtils::EnsureTrailingSlash, PathUtils.cpp 118-140. *)
Definition ensure_trailing (s : str) : str :=
  match rev s with
  | c :: r => if Ascii.eqb c (native p) then s
              else if Ascii.eqb c (other p) then rev (native p :: r)
              else s ++ [native p]
  | [] => s ++ [native p]
  end.

(** PathUtils::PathEndsWithFile, PathUtils.cpp 85-114 (Linux: case sensitive). *)
Definition starts_with (pre s : str) : bool :=
  if Nat.leb (List.length pre) (List.length s) then
    forallb (fun q => Ascii.eqb (fst q) (snd q)) (combine pre s) else false.
Definition ends_with (s suf : str) : bool := starts_with (rev suf) (rev s).
Definition path_ends_with_file (path file : str) : bool :=
  if ends_with path file then
    if List.length path =? List.length file then true
    else match nth_error path (List.length path - List.length file - 1) with
         | Some c => Ascii.eqb c (native p)
         | None => false
         end
  else false.

(** PathUtils::StripFileExtension, PathUtils.cpp 191-199: cut at the last '.'. *)
Fixpoint cut_at_dot (rs : str) : option str :=
  match rs with [] => None | c :: r => if Ascii.eqb c dot then Some r else cut_at_dot r end.
Definition strip_ext (s : str) : str :=
  match cut_at_dot (rev s) with Some r => rev r | None => s end.

(** PathUtils::GetRelativePath, PathUtils.cpp 203-309 (Linux: no case folding).
    The scan for the common sub-path: [a],[b] are itA,itB; [pa],[pb] are pathA,pathB;
    [moved]: whether pathA has left the start. *)
Definition any_slash (c : ascii) : bool := Ascii.eqb c "/"%char || Ascii.eqb c "\"%char.
Fixpoint common (a b pa pb : str) (moved : bool) : str * str * bool :=
  match a, b with
  | x :: ra, y :: rb =>
      if Ascii.eqb x y && negb (Ascii.eqb x nul) then
        if any_slash x then common ra rb ra rb true else common ra rb pa pb moved
      else (pa, pb, moved)
  | _, _ => (pa, pb, moved)
  end.
Definition count_slashes (s : str) : nat := List.length (filter any_slash s).
Definition relative_path (base file : str) : str :=
  let base' := match rev base with
               | c :: _ => if Ascii.eqb c (native p) then base else base ++ [native p]
               | [] => base ++ [native p]
               end in
  match common base' file base' file false with
  | (_, _, false) => file
  | (pa, pb, true) => List.concat (repeat [dot; dot; native p] (count_slashes pa)) ++ pb
  end.
End P.
