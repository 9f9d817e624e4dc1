(** Model of Helpers/CIncludeParser.cpp: the files named in compiler or preprocessor output.
    Output is a string without NUL characters (it is read as a C string). *)
From Coq Require Import List Arith NArith Bool Ascii String.
From Verif Require Import M_Path M_Names.
Import ListNotations.

Definition LF : ascii := "010"%char.
Definition CR : ascii := "013"%char.
Definition TAB : ascii := "009"%char.
Definition Q : ascii := "034"%char.
Definition hash : ascii := "#"%char.
Definition sp : ascii := " "%char.
Definition is_nl (c : ascii) : bool := Ascii.eqb c LF || Ascii.eqb c CR.
Definition is_digit (c : ascii) : bool := let n := nat_of_ascii c in (48 <=? n) && (n <=? 57).
Definition bad_slash (c : ascii) : bool := Ascii.eqb c "/"%char || Ascii.eqb c "092"%char.

(** strncmp( pos, pre, length ) == 0, and the position after it. *)
Fixpoint strip (pre s : str) : option str :=
  match pre, s with
  | [], _ => Some s
  | x :: pre', y :: s' => if Ascii.eqb x y then strip pre' s' else None
  | _, [] => None
  end.
(** strchr for a double quote: what precedes the quote, and what follows it. *)
Fixpoint to_quote (s : str) : option (str * str) :=
  match s with
  | [] => None
  | c :: r => if Ascii.eqb c Q then Some ([], r)
              else match to_quote r with Some (a, b) => Some (c :: a, b) | None => None end
  end.

(** * ParseGCC_Preprocessed *)

(** ParseToNextLineStartingWithHash, CIncludeParser.cpp 230-249: what follows the next '#' that is preceded by a line end.  [prev] is the
    character before the current position. *)
Fixpoint next_hash (prev : ascii) (s : str) : option str :=
  match s with
  | [] => None
  | c :: r => if Ascii.eqb c hash && is_nl prev then Some r else next_hash c r
  end.

(** Where parsing goes on: hasFlags, the previous character, what follows, and the file added if any. *)
Inductive outcome := Fail | Go (has_flags : bool) (prev : ascii) (rest : str) (added : option str).

Fixpoint skip_digits (prev : ascii) (s : str) : ascii * str :=
  match s with c :: r => if is_digit c then skip_digits c r else (prev, s) | [] => (prev, s) end.

(** From foundInclude, CIncludeParser.cpp 295-354. *)
Definition found_include (hf : bool) (prev : ascii) (s : str) : outcome :=
  let (p1, s1) := skip_digits prev s in
  match s1 with
  | c1 :: s2 =>
      if Ascii.eqb c1 sp then
        match s2 with
        | c2 :: s3 =>
            if Ascii.eqb c2 Q then
              match s3 with
              | c3 :: _ =>
                  if Ascii.eqb c3 "<"%char then Go hf Q s3 None
                  else match to_quote s3 with
                       | None => Fail
                       | Some (name, s4) =>
                           let last := last name Q in
                           if bad_slash last then Go hf last (Q :: s4) None
                           else Go hf Q s4 (match strip [sp; "1"%char] s4 with
                                            | Some _ => Some name
                                            | None => if hf then None else Some name
                                            end)
                       end
              | [] => Fail
              end
            else Go hf sp s2 None
        | [] => Go hf sp s2 None
        end
      else Go hf p1 s1 None
  | [] => Go hf p1 s1 None
  end.

(** From possibleInclude, CIncludeParser.cpp 281-293; [s] follows a '#'. *)
Definition after_hash (hf : bool) (s : str) : outcome :=
  match strip [sp] s with
  | Some r => found_include hf sp r
  | None => match strip (L "line ") s with
            | Some r => found_include false sp r
            | None => Go hf hash s None
            end
  end.

Definition add1 (o : option str) (l : list str) : list str := match o with Some n => n :: l | None => l end.

(** The loop, CIncludeParser.cpp 273-355, with the names handed to AddInclude in order; None if parsing fails.  Fuel bounds the number of
    rounds (a round consumes at least a '#'); running out of it is also None. *)
Fixpoint gcc_loop (fuel : nat) (hf : bool) (prev : ascii) (s : str) : option (list str) :=
  match fuel with
  | O => None
  | S fuel' =>
      match next_hash prev s with
      | None => Some []
      | Some r => match after_hash hf r with
                  | Fail => None
                  | Go hf' prev' s' added => option_map (add1 added) (gcc_loop fuel' hf' prev' s')
                  end
      end
  end.
(** ParseGCC_Preprocessed, CIncludeParser.cpp 255-358: a '#' at the very start is like one after a line end. *)
Definition gcc_names (s : str) : option (list str) := gcc_loop (S (List.length s)) true LF s.

(** * ParseMSCL_Output, CIncludeParser.cpp 35-153 *)

(** The first colon of a line: what precedes it and what follows it. *)
Fixpoint to_colon (s : str) : option (str * str) :=
  match s with
  | [] => None
  | c :: r => if Ascii.eqb c ":"%char then Some ([], r)
              else match to_colon r with Some (a, b) => Some (c :: a, b) | None => None end
  end.
Fixpoint skip_spaces (s : str) : str := match s with c :: r => if Ascii.eqb c sp then skip_spaces r else s | [] => s end.
(** CIncludeParser.cpp 105-145. *)
Definition forbidden (c : ascii) : bool := existsb (Ascii.eqb c) ["<"; ">"; "034"; "|"; "?"; "*"]%char.
Definition valid_path (s : str) : bool :=
  negb (existsb forbidden s) && (List.length (filter (Ascii.eqb ":"%char) s) <=? 1).
Definition letter (c : ascii) : bool := let n := nat_of_ascii c in ((65 <=? n) && (n <=? 90)) || ((97 <=? n) && (n <=? 122)).
(** One line, without its end: the file it names, if any. *)
Definition mscl_line (l : str) : option str :=
  match to_colon l with
  | Some ((_ :: _) as a, r) =>
      match to_colon r with
      | Some ((_ :: _) as b, r2) =>
          let path := skip_spaces r2 in
          match path with
          | [] => None
          | c1 :: rest => if valid_path path && letter c1 && match rest with c2 :: _ => Ascii.eqb c2 ":"%char | [] => false end then Some path else None
          end
      | _ => None
      end
  | _ => None
  end.
Definition drop_cr (l : str) : str := match rev l with c :: r => if Ascii.eqb c CR then rev r else l | [] => l end.
(** The loop over lines: a line is what precedes a LF.  What follows the last LF is not looked at. *)
Fixpoint mscl_loop (line s : str) : list str :=
  match s with
  | [] => []
  | c :: r => if Ascii.eqb c LF then add1 (mscl_line (drop_cr (rev line))) (mscl_loop [] r) else mscl_loop (c :: line) r
  end.
Definition mscl_names (s : str) : list str := mscl_loop [] s.

(** * ParseMSCL_Preprocessed, CIncludeParser.cpp 157-226 *)
Definition line1 : str := L "#line 1 ".
(** strstr( pos, "#line 1 " ): the text before it, last character first, and what follows it. *)
Fixpoint find_line1 (before s : str) : option (str * str) :=
  match strip line1 s with
  | Some r => Some (before, r)
  | None => match s with [] => None | c :: r => find_line1 (c :: before) r end
  end.
(** Whether only blanks precede on the line. *)
Fixpoint at_line_start (before : str) : bool :=
  match before with
  | [] => true
  | c :: r => if Ascii.eqb c sp || Ascii.eqb c TAB then at_line_start r else Ascii.eqb c LF
  end.
Fixpoint pre_loop (fuel : nat) (before s : str) : option (list str) :=
  match fuel with
  | O => None
  | S fuel' =>
      match find_line1 before s with
      | None => Some []
      | Some (b, r) =>
          if at_line_start b then
            match to_quote r with
            | None => None
            | Some (x, r1) =>
                match to_quote r1 with
                | None => None
                | Some (name, r2) => option_map (cons name) (pre_loop fuel' (rev name ++ Q :: rev x ++ rev line1 ++ b) (Q :: r2))
                end
            end
          else pre_loop fuel' (rev line1 ++ b) r
      end
  end.
Definition pre_names (s : str) : option (list str) := pre_loop (S (List.length s)) [] s.

(** * AddInclude, CIncludeParser.cpp 370-412 *)
Section Add.
(** xxHash3::Calc32 and NodeGraph::CleanPath. *)
Variable hash32 : str -> N.
Variable cleaned : str -> str.
(** Windows and OSX compare in lower case. *)
Variable fold_case : bool.

(** m_LastCRC1, m_CRCs1, m_LastCRC2, m_CRCs2, m_Includes. *)
Record parser := { last1 : N; crcs1 : list N; last2 : N; crcs2 : list N; recorded : list str }.
Definition new_parser : parser := {| last1 := 0; crcs1 := []; last2 := 0; crcs2 := []; recorded := [] |}.

Definition nmem (x : N) (l : list N) : bool := existsb (N.eqb x) l.
Definition add_include (q : parser) (name : str) : parser :=
  let crc1 := hash32 name in
  if (crc1 =? last1 q)%N then q
  else if nmem crc1 (crcs1 q) then {| last1 := crc1; crcs1 := crcs1 q; last2 := last2 q; crcs2 := crcs2 q; recorded := recorded q |}
  else
    let c := cleaned name in
    let crc2 := hash32 (if fold_case then lower c else c) in
    let l1 := crcs1 q ++ [crc1] in
    if (crc2 =? last2 q)%N then {| last1 := crc1; crcs1 := l1; last2 := last2 q; crcs2 := crcs2 q; recorded := recorded q |}
    else if nmem crc2 (crcs2 q) then {| last1 := crc1; crcs1 := l1; last2 := crc2; crcs2 := crcs2 q; recorded := recorded q |}
    else {| last1 := crc1; crcs1 := l1; last2 := crc2; crcs2 := crcs2 q ++ [crc2]; recorded := recorded q ++ [c] |}.
Definition add_all (names : list str) : list str := recorded (fold_left add_include names new_parser).
End Add.
