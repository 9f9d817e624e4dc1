(** Model of unity file generation, Graph/UnityNode.cpp. *)
From Coq Require Import List Arith ZArith NArith Bool Ascii String.
From Coq.Floats Require Import SpecFloat.
From Coq.Numbers Require Import DecimalString.
From Verif Require Import M_Path M_Names M_Sort M_Array.
Import ListNotations.

(** An input file: UnityFileAndOrigin, UnityNode.h 64-84 and FileIO::FileInfo.  [origin] is the path of the directory list the file came
    from, empty if none. *)
Record source := { sname : str; read_only : bool; origin : str }.

(** * Order of the files *)
Section Order.
Variable p : plat.
(** Whether char is signed on the machine. *)
Variable signed : bool.

(** The position of the last native slash, 0 if there is none: constructor, UnityNode.cpp 81-92. *)
Fixpoint last_slash_from (i : nat) (s : str) (best : nat) : nat :=
  match s with [] => best | c :: r => last_slash_from (S i) r (if Ascii.eqb c (native p) then i else best) end.
Definition last_slash (s : str) : nat := last_slash_from 0 s 0.

(** The value of a char. *)
Definition char_val (c : ascii) : Z :=
  let n := Z.of_nat (nat_of_ascii c) in if signed && (128 <=? n)%Z then (n - 256)%Z else n.

(** AString::StrNCmpI, AString.cpp 1556-1588.  Past the end of a string its terminator is read. *)
Fixpoint ncmp_i (a b : str) (num : nat) : Z :=
  match num with
  | O => 0%Z
  | S k =>
      let a1 := lower_char (hd nul a) in
      let b1 := lower_char (hd nul b) in
      if Ascii.eqb a1 b1 then if Ascii.eqb a1 nul then 0%Z else ncmp_i (tl a) (tl b) k
      else (char_val a1 - char_val b1)%Z
  end.

(** operator <, UnityNode.cpp 96-157. *)
Definition by_file_name (a b : str) : bool :=
  let sa := last_slash a in
  let sb := last_slash b in
  let la := List.length a - sa in
  let lb := List.length b - sb in
  let o := ncmp_i (skipn sa a) (skipn sb b) (Nat.min la lb) in
  if (o =? 0)%Z then (if la =? lb then false else la <? lb) else (o <? 0)%Z.
Definition name_lt (a b : str) : bool :=
  let sa := last_slash a in
  let sb := last_slash b in
  if 0 <? sa then
    if sb =? 0 then false
    else
      let o := ncmp_i a b (S (Nat.min sa sb)) in
      if (o =? 0)%Z then (if sa =? sb then by_file_name a b else sa <? sb) else (o <? 0)%Z
  else if 0 <? sb then true
  else by_file_name a b.
Definition source_lt (a b : source) : bool := name_lt (sname a) (sname b).

(** * Collecting the files *)

(** A dependency of the node: Initialize, UnityNode.cpp 225-228. *)
Inductive dep :=
| DirList (path : str) (files : list (str * bool))  (** names found, and whether they are read only *)
| ObjList (files : list str)
| AFile (name : str) (info : option bool).          (** None: the file is missing *)

Variable pch : str.             (** .UnityPCH, empty if none *)
Variable list_file : str.       (** .UnityInputIsolateListFile *)

(** The .cpp file of a precompiled header, UnityNode.cpp 636-644. *)
Definition ends_with_h (s : str) : bool :=
  match rev s with h :: d :: _ => Ascii.eqb (lower_char h) "h"%char && Ascii.eqb d "."%char | _ => false end.
Definition pch_cpp : str := if ends_with_h pch then firstn (List.length pch - 1) pch ++ L "cpp" else [].

(** The loop of GetFiles, UnityNode.cpp 646-714: nothing on a missing file. *)
Fixpoint get_files (deps : list dep) : option (list source) :=
  match deps with
  | [] => Some []
  | d :: r =>
      match get_files r with
      | None => None
      | Some l =>
          match d with
          | DirList path fs =>
              Some (map (fun f => {| sname := fst f; read_only := snd f; origin := path |})
                     (filter (fun f => match pch_cpp with [] => true | _ => negb (path_ends_with_file p (fst f) pch_cpp) end) fs) ++ l)
          | ObjList fs => Some (map (fun f => {| sname := f; read_only := true; origin := [] |}) fs ++ l)
          | AFile name info =>
              if list_eq_dec ascii_dec name list_file then Some l
              else match info with Some ro => Some ({| sname := name; read_only := ro; origin := [] |} :: l) | None => None end
          end
      end
  end.

(** FilterForceIsolated, UnityNode.cpp 722-765: one array, a reading and a writing position. *)
Variable to_isolate : list str.  (** .UnityInputIsolatedFiles *)
Definition forced (f : source) : bool := existsb (path_ends_with_file p (sname f)) to_isolate.
Fixpoint filter_loop (n : nat) (files : list source) (rd wr : nat) (iso : list source) : option (list source * list source) :=
  match n with
  | O => Some (firstn wr files, iso)
  | S n' =>
      match get files rd with
      | None => None
      | Some f =>
          if forced f then filter_loop n' files (S rd) wr (iso ++ [f])
          else if wr =? rd then filter_loop n' files (S rd) (S wr) iso
          else match set files wr f with
               | Some files' => filter_loop n' files' (S rd) (S wr) iso
               | None => None
               end
      end
  end.
Definition filter_force_isolated (files : list source) : option (list source * list source) :=
  match to_isolate with
  | [] => Some (files, [])
  | _ => filter_loop (List.length files) files 0 0 []
  end.
End Order.

(** * Distributing the files *)

(** float: binary32. *)
Definition fadd := SFadd 24 128.
Definition fsub := SFsub 24 128.
Definition fdiv := SFdiv 24 128.
Definition of_int (n : nat) : spec_float := binary_normalize 24 128 (Z.of_nat n) 0 false.
Definition fzero : spec_float := S754_zero false.
Definition positive_float (x : spec_float) : bool := SFltb fzero x.

(** The loop filling one unity file, UnityNode.cpp 396-436: (files taken, files left, allocation left). *)
Fixpoint fill (last : bool) (rem : spec_float) (files : list source) : list source * list source * spec_float :=
  if positive_float rem || last then
    let rem' := fsub rem (of_int 1) in
    match files with
    | [] => ([], [], rem')
    | f :: r => match fill last rem' r with (t, rest, rem'') => (f :: t, rest, rem'') end
    end
  else ([], files, rem).

(** The loop over the unity files, UnityNode.cpp 364-436, for [k] more unity files. *)
Fixpoint distribute (per : spec_float) (k : nat) (rem : spec_float) (files : list source) : list (list source) :=
  match k with
  | O => []
  | S k' =>
      match fill (k' =? 0) (fadd rem per) files with
      | (t, rest, rem') => t :: distribute per k' rem' rest
      end
  end.
Definition allocation (num : nat) (files : list source) : list (list source) :=
  distribute (fdiv (of_int (List.length files)) (of_int num)) num fzero files.

(** * Writing the unity files *)
Record settings := {
  isolate_writable : bool;        (** .UnityInputIsolateWritableFiles *)
  max_isolated : nat;             (** .UnityInputIsolateWritableFilesLimit *)
  isolate_list : list str;        (** the contents of .UnityInputIsolateListFile *)
  no_unity : bool;                (** -nounity *)
  pch_name : str;                 (** .UnityPCH, as written in the unity file; empty if none *)
  shown : str -> str;             (** GetRelativePath if .UseRelativePaths_Experimental, else nothing is changed *)
  linux : bool;
  output : str;                   (** .UnityOutputPath and .UnityOutputPattern *)
}.

Definition crlf : str := ["013"; "010"]%char.
Definition quote : ascii := "034"%char.

Section Write.
Variable st : settings.

(** UnityNode.cpp 407-424. *)
Definition flagged (f : source) : bool :=
  (isolate_writable st && negb (read_only f)) || existsb (fun n => if list_eq_dec ascii_dec n (sname f) then true else false) (isolate_list st).
(** UnityNode.cpp 441-451; [all] is the files of this unity. *)
Definition isolated_here (all : list source) (f : source) : bool :=
  ((max_isolated st =? 0) || (List.length (filter flagged all) <=? max_isolated st)) && flagged f.

(** UnityNode.cpp 466-509. *)
Definition to_forward (s : str) : str := map (fun c => if Ascii.eqb c "092"%char then "/"%char else c) s.
Definition file_text (all : list source) (f : source) : str :=
  let iso := isolated_here all f in
  (if linux st || iso then L "//" else []) ++ L "#pragma message( " ++ quote :: to_forward (shown st (sname f)) ++ quote :: L " )" ++ crlf ++
  (if iso then L "//" else []) ++ L "#include " ++ quote :: shown st (sname f) ++ quote :: crlf ++ crlf.
(** UnityNode.cpp 369-387 and 509. *)
Definition text (all : list source) : str :=
  L "// Auto-generated Unity file - do not modify" ++ crlf ++ crlf ++
  (match pch_name st with [] => [] | n => L "#include " ++ quote :: n ++ quote :: crlf ++ crlf end) ++
  flat_map (file_text all) all ++ crlf.

(** tmp.Format( "%u" ) and unityName.Replace( "*", tmp ), UnityNode.cpp 512-518. *)
Definition decimal (i : nat) : str := L (NilEmpty.string_of_uint (Nat.to_uint i)).
Definition unity_name (i : nat) : str := flat_map (fun c => if Ascii.eqb c "*"%char then decimal i else [c]) (output st).

(** UnityNode.cpp 452-462: the files of a unity that are compiled on their own. *)
Definition alone (all : list source) : list source := filter (fun f => isolated_here all f || no_unity st) all.
(** UnityNode.cpp 522-526. *)
Definition tracked (all : list source) : bool :=
  negb (List.length all =? List.length (filter (isolated_here all) all)) && negb (no_unity st).

(** What DoBuild leaves: the files written in order, the unity files to compile and the files to compile on their own, UnityNode.cpp
    364-590.  Simplified: a file is always rewritten (the code skips it when the content is the same), and does not fail. *)
Record result := { written : list (str * str); to_compile : list str; on_their_own : list source }.
Fixpoint write_all (i : nat) (parts : list (list source)) : result :=
  match parts with
  | [] => {| written := []; to_compile := []; on_their_own := [] |}
  | all :: r =>
      let w := write_all (S i) r in
      {| written := (unity_name i, text all) :: written w;
         to_compile := (if tracked all then [unity_name i] else []) ++ to_compile w;
         on_their_own := alone all ++ on_their_own w |}
  end.
End Write.

(** The content of a file after the writes: the last one wins. *)
Definition content (w : list (str * str)) (n : str) : option str :=
  match find (fun x => if list_eq_dec ascii_dec n (fst x) then true else false) (rev w) with Some x => Some (snd x) | None => None end.

(** DoBuild, UnityNode.cpp 289-620, given what GetFiles found. *)
Definition do_build (p : plat) (signed : bool) (to_isolate : list str) (num : nat) (st : settings) (found : list source) : option result :=
  match shell_sort (source_lt p signed) found with
  | None => None
  | Some files =>
      match filter_force_isolated p to_isolate files with
      | None => None
      | Some (files', forced_out) =>
          let w := write_all st 1 (allocation num files') in
          Some {| written := written w; to_compile := to_compile w; on_their_own := forced_out ++ on_their_own w |}
      end
  end.
