(** Model of the include scanner of the light cache, Tools/FBuild/FBuildCore/Cache/LightCache.cpp: Parse and what it calls (364-654, 1002-1089),
    ProcessInclude and what it calls (658-897), FileExists (901-963) and Hash (262-350).

    A position in a file is the text from there on, up to the first NUL.
    Simplified: files do not change during the build and can be read when they exist; error messages are only counted; names are compared
    with case (Linux).  The options that name include paths and forced includes (ExtractIncludePaths) are given as lists. *)
From Coq Require Import String List Arith NArith Bool Ascii.
From Verif Require Import M_Path.
From Verif Require M_Tok.
Import ListNotations.
Import M_Tok(seqb, span, blank, LF, CR, TAB, DQ, id_start, id_char, res, Done, Fail, NoFuel, bind).
Open Scope nat_scope.

(** IsAtEndOfLine, 1019-1023; SkipWhitespace, 1003-1015; SkipLineEnd, 1027-1034; SkipToEndOfLine, 1038-1050. *)
Definition at_eol (c : ascii) : bool := (Ascii.eqb c CR || Ascii.eqb c LF)%char.
Definition skip_ws (s : str) : str := snd (span blank s).
Definition skip_eol (s : str) : str := snd (span at_eol s).
Definition to_eol (s : str) : str := snd (span (fun c => negb (at_eol c)) s).
(** IsCommentBlockStart, 559-562; SkipCommentBlock, 566-593. *)
Definition comment_start (s : str) : bool := (Ascii.eqb (peek s) "/" && Ascii.eqb (peek (tl s)) "*")%char.
Fixpoint to_close (s : str) : str :=
  match s with
  | [] => []
  | c :: r => if (Ascii.eqb c "*" && Ascii.eqb (peek r) "/")%char then tl r else to_close r
  end.
Definition skip_comment (s : str) : str := to_close (tl (tl s)).
(** The white space, a comment, and white space, as in 433-440 and 483-490. *)
Definition skip_gap (s : str) : str :=
  let s := skip_ws s in if comment_start s then skip_ws (skip_comment s) else s.

Inductive itype := Angle | Quote | Macro.
(** SkipToEndOfQuotedString, 1054-1089: the text up to the end character, and what follows it. *)
Fixpoint to_end (q : ascii) (s : str) : option (str * str) :=
  match s with
  | [] => None
  | c :: r =>
      if Ascii.eqb c q then Some ([], r)
      else if at_eol c then None
      else match to_end q r with Some (b, t) => Some (c :: b, t) | None => None end
  end.
(** ParseIncludeString, 597-618. *)
Definition include_string (s : str) : option (str * itype * str) :=
  match s with
  | c :: r =>
      if Ascii.eqb c DQ then match to_end DQ r with Some (b, t) => Some (b, Quote, t) | None => None end
      else if Ascii.eqb c "<" then match to_end ">" r with Some (b, t) => Some (b, Angle, t) | None => None end
      else None
  | [] => None
  end.
(** ParseMacroName, 622-654. *)
Definition macro_name (s : str) : option (str * str) := if id_start (peek s) then Some (span id_char s) else None.

(** What is noted of a file: m_Includes, m_IncludeDefines and m_NonIncludeDefines, in the order in which they are met. *)
Inductive event :=
| Include (n : str) (t : itype)
| Define (m n : str) (t : itype)
| Other (m : str).

(** StrNCmp( pos, w, length of w ) == 0: w, and what follows it. *)
Fixpoint after (w s : str) : option str :=
  match w, s with
  | [], _ => Some s
  | c :: w, d :: s => if Ascii.eqb c d then after w s else None
  | _, [] => None
  end.
(** ParseDirective_Include, 453-496. *)
Definition include_line (s : str) : option (list event * str) :=
  let s := skip_gap s in
  if (Ascii.eqb (peek s) DQ || Ascii.eqb (peek s) "<")%char then
    match include_string s with Some (n, t, r) => Some ([Include n t], r) | None => None end
  else match macro_name s with Some (m, r) => Some ([Include m Macro], r) | None => None end.
(** ParseDirective_Define, 500-547.  A string that is not closed leaves [pos] at the end of the line. *)
Definition define_line (s : str) : option (list event * str) :=
  match macro_name (skip_gap s) with
  | None => None
  | Some (m, r) =>
      let r := skip_gap r in
      match include_string r with
      | Some (n, t, r') => Some ([Define m n t], r')
      | None => Some ([Other m], if (Ascii.eqb (peek r) DQ || Ascii.eqb (peek r) "<")%char then to_eol r else r)
      end
  end.
(** ParseDirective, 426-449, after the '#'; ParseDirective_Import, 551-556.  None: an error. *)
Definition directive (s : str) : option (list event * str) :=
  let s := skip_ws s in
  match after (L "include") s with
  | Some r => include_line r
  | None =>
      match after (L "define") s with
      | Some r => define_line r
      | None => match after (L "import") s with Some _ => None | None => Some ([], s) end
      end
  end.
(** The loop of Parse, 364-422: the events, and whether there was an error. *)
Fixpoint loop (fuel : nat) (s : str) : list event * bool :=
  match fuel with
  | O => ([], false)   (* not reached, see P_Light *)
  | S f =>
      let s := skip_ws s in
      match s with
      | [] => ([], false)
      | c :: r =>
          if at_eol c then loop f (skip_eol s)
          else
            match (if Ascii.eqb c "#" then directive r else Some ([], s)) with
            | None => ([], true)
            | Some (ev, p) =>
                let p := if comment_start p then skip_comment p else p in
                let x := loop f (skip_eol (to_eol p)) in (ev ++ fst x, snd x)
            end
      end
  end.
Definition upto_nul (s : str) : str := fst (span (fun c => negb (Ascii.eqb c nul)) s).
Definition parse (s : str) : list event * bool := let t := upto_nul s in loop (S (List.length t)) t.

(** What is asked of the outside: the contents of files, NodeGraph::CleanPath, PathUtils::GetRelativePath to the working directory, and xxHash3. *)
Record world := { text : str -> option str; clean : str -> str; relative : str -> str; h64 : str -> N; hash : list N -> N }.
(** m_Includes of a file. *)
Definition includes_of (ev : list event) : list (str * itype) :=
  flat_map (fun e => match e with Include n t => [(n, t)] | _ => [] end) ev.
Definition defines_of (ev : list event) : list (str * (str * itype)) :=
  flat_map (fun e => match e with Define m n t => [(m, (n, t))] | _ => [] end) ev.
Definition others_of (ev : list event) : list str := flat_map (fun e => match e with Other m => [m] | _ => [] end) ev.
Definition events (w : world) (f : str) : list event := match text w f with Some s => fst (parse s) | None => [] end.
Definition bad (w : world) (f : str) : bool := match text w f with Some s => snd (parse s) | None => false end.
Definition exists_ (w : world) (f : str) : bool := match text w f with Some _ => true | None => false end.

(** m_AllIncludedFiles; m_IncludeStack, the last one first; m_IncludeDefines; whether m_Errors is not empty; the records in g_AllIncludedFiles
    that this compilation has found or made, with whether their m_RelativePathHash was set; the number of calls of FileExists. *)
Record state := { all : list str; stack : list str; defs : list (str * (str * itype)); errs : bool; known : list (str * bool); calls : nat }.
(** The other compilations: whether a record for the file of the n-th call is there already although this compilation has not met the file, and
    whether its maker was using relative paths. *)
Definition others := nat -> option bool.
Definition mem (f : str) (l : list str) : bool := M_Tok.among l f.

(** FileExists, 901-963.  An error is noted only by the compilation that parses the file.  [rel]: m_BasePath is set. *)
Definition file_exists (w : world) (o : others) (rel : bool) (st : state) (f : str) : state :=
  let '(k, e) :=
    match M_Tok.lookup (known st) f with
    | Some _ => (known st, errs st)
    | None => match o (calls st) with
              | Some b => (known st ++ [(f, b)], errs st)
              | None => (known st ++ [(f, rel)], errs st || bad w f)
              end
    end in
  {| all := all st; stack := stack st; defs := defs st ++ defines_of (events w f); errs := e; known := k; calls := S (calls st) |}.

Definition slash (c : ascii) : bool := (Ascii.eqb c "/" || Ascii.eqb c "\")%char.
(** The name up to its last slash, 830-838. *)
Fixpoint dir (f : str) : str :=
  match f with [] => [] | c :: r => if existsb slash f then c :: dir r else [] end.

Inductive found := Nothing | Cyclic | Found (f : str).
(** The loops of ProcessIncludeFromIncludeStack, 823-863, and ProcessIncludeFromIncludePath, 867-897, over the names to try. *)
Fixpoint search (w : world) (o : others) (rel : bool) (st : state) (l : list str) : found * state :=
  match l with
  | [] => (Nothing, st)
  | p :: r =>
      if mem p (stack st) then (Cyclic, st)
      else let st := file_exists w o rel st p in if exists_ w p then (Found p, st) else search w o rel st r
  end.
Definition from_stack (w : world) (st : state) (n : str) : list str := map (fun f => clean w (dir f ++ n)) (stack st).
Definition from_paths (w : world) (paths : list str) (n : str) : list str := map (fun d => clean w (d ++ n)) paths.

Definition add_error (st : state) : state :=
  {| all := all st; stack := stack st; defs := defs st; errs := true; known := known st; calls := calls st |}.
Definition push (f : str) (st : state) : state :=
  {| all := all st ++ [f]; stack := f :: stack st; defs := defs st; errs := errs st; known := known st; calls := calls st |}.
Definition pop (st : state) : state :=
  {| all := all st; stack := tl (stack st); defs := defs st; errs := errs st; known := known st; calls := calls st |}.
Fixpoint each (rec : str -> itype -> state -> res state) (l : list (str * itype)) (st : state) : res state :=
  match l with
  | [] => Done st
  | (n, t) :: r => bind (rec n t st) (each rec r)
  end.
(** The end of ProcessInclude, 764-800. *)
Definition visit (rec : str -> itype -> state -> res state) (w : world) (x : found * state) : res state :=
  match x with
  | (Found f, st) =>
      if negb (exists_ w f) || mem f (all st) then Done st
      else bind (each rec (includes_of (events w f)) (push f st)) (fun st => Done (pop st))
  | (_, st) => Done st
  end.
Definition full (n : str) : bool := Ascii.eqb (peek n) "/".
(** ProcessInclude, 658-800; ProcessIncludeFromFullPath, 804-819. *)
Definition process_body (rec : str -> itype -> state -> res state) (w : world) (o : others) (rel : bool) (paths : list str) (n : str) (t : itype) (st : state)
    : res state :=
  if full n then visit rec w (if mem n (stack st) then (Cyclic, st) else (Found n, file_exists w o rel st n))
  else
    match t with
    | Macro =>
        match M_Tok.lookup (defs st) n with
        | Some (n', t') => rec n' t' st
        | None =>
            if existsb (fun f => existsb (fun m => N.eqb (h64 w m) (h64 w n)) (others_of (events w f))) (all st) then Done (add_error st) else Done st
        end
    | Angle => visit rec w (search w o rel st (from_paths w paths n))
    | Quote =>
        match search w o rel st (from_stack w st n) with
        | (Nothing, st) => visit rec w (search w o rel st (from_paths w paths n))
        | x => visit rec w x
        end
    end.
Fixpoint process (fuel : nat) (w : world) (o : others) (rel : bool) (paths : list str) (n : str) (t : itype) (st : state) : res state :=
  match fuel with
  | O => NoFuel
  | S f => process_body (process f w o rel paths) w o rel paths n t st
  end.

(** Hash, 262-350, after the options have been looked at: the key and the names, no result, or the use of a hash that was never set. *)
Inductive outcome := Key (k : N) (names : list str) | Refused | Undefined.
Definition start : state := {| all := []; stack := []; defs := []; errs := false; known := []; calls := 0 |}.
Definition name_hash (w : world) (rel : bool) (f : str) : N := h64 w (if rel then relative w f else f).
Definition content_hash (w : world) (f : str) : N := match text w f with Some s => h64 w s | None => 0%N end.
Definition finish (w : world) (rel : bool) (st : state) : outcome :=
  match all st with
  | [] => Refused
  | _ =>
      if errs st then Refused
      else if rel && existsb (fun f => match M_Tok.lookup (known st) f with Some b => negb b | None => true end) (all st) then Undefined
      else Key (hash w (flat_map (fun f => [name_hash w rel f; content_hash w f]) (all st))) (all st)
  end.
Definition light_hash (fuel : nat) (w : world) (o : others) (rel : bool) (paths forced : list str) (root : str) : res outcome :=
  bind (each (process fuel w o rel paths) (map (fun n => (n, Quote)) (forced ++ [root])) start) (fun st => Done (finish w rel st)).
