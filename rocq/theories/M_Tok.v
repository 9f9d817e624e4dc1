(** Model of the tokenizer of BFF files and of its directives, Tools/FBuild/FBuildCore/BFF/Tokenizer/BFFTokenizer.cpp, with
    BFF/BFFMacros.cpp, BFF/BFFFileExists.cpp 22-43 and FBuild::ImportEnvironmentVar.

    A position in a file is the text from there on; the NUL after the file is the end of the list.  The end of a range is the number of
    characters that follow it, so [pos < end] is [e < length s].

    Simplified: the files, variables and answers about existence do not change during the parse (M_Conf has changes); a token has no source
    position; error messages are not told apart; file names are compared with case (Linux); an ASSERT does nothing (release build). *)
From Coq Require Import String List Arith NArith ZArith Bool Ascii.
From Verif Require Import M_Path M_Cond.
Import ListNotations.
Open Scope nat_scope.

Definition LF : ascii := "010"%char.
Definition CR : ascii := "013"%char.
Definition TAB : ascii := "009"%char.
Definition SQ : ascii := "039"%char.
Definition DQ : ascii := "034"%char.

Definition seqb (a b : str) : bool := if list_eq_dec ascii_dec a b then true else false.
Definition among (l : list str) (s : str) : bool := existsb (seqb s) l.

(** Character classes, 25-91. *)
Definition within (a b c : ascii) : bool := (N_of_ascii a <=? N_of_ascii c)%N && (N_of_ascii c <=? N_of_ascii b)%N.
Definition at_eol (c : ascii) : bool := (Ascii.eqb c CR || Ascii.eqb c LF || Ascii.eqb c nul)%char.
Definition white (c : ascii) : bool := Ascii.eqb c " " || Ascii.eqb c CR || Ascii.eqb c LF || Ascii.eqb c TAB.
Definition blank (c : ascii) : bool := Ascii.eqb c " " || Ascii.eqb c TAB.
Definition upper_ (c : ascii) : bool := within "A" "Z" c.
Definition lower_ (c : ascii) : bool := within "a" "z" c.
Definition under (c : ascii) : bool := Ascii.eqb c "_".
Definition digit (c : ascii) : bool := within "0" "9" c.
Definition id_start (c : ascii) : bool := upper_ c || lower_ c || under c.
(** IsIdentifier, 59-62, and IsVariable, 76-79. *)
Definition id_char (c : ascii) : bool := upper_ c || lower_ c || under c || digit c.
Definition str_start (c : ascii) : bool := Ascii.eqb c SQ || Ascii.eqb c DQ.
Definition var_start (c : ascii) : bool := Ascii.eqb c "." || Ascii.eqb c "^".
Definition op_char (c : ascii) : bool :=
  (Ascii.eqb c "+" || Ascii.eqb c "-" || Ascii.eqb c "=" || Ascii.eqb c "!" || Ascii.eqb c "<" || Ascii.eqb c ">" || Ascii.eqb c "&" || Ascii.eqb c "|")%char.
Definition brace_char (c : ascii) : bool :=
  (Ascii.eqb c "(" || Ascii.eqb c ")" || Ascii.eqb c "{" || Ascii.eqb c "}" || Ascii.eqb c "[" || Ascii.eqb c "]")%char.

(** while ( p( *pos ) ) ++pos: what was passed over, and what follows. *)
Fixpoint span (p : ascii -> bool) (s : str) : str * str :=
  match s with
  | [] => ([], [])
  | c :: r => if p c then let x := span p r in (c :: fst x, snd x) else ([], s)
  end.
(** SkipWhitespace, 92-98; SkipWhitespaceOnCurrentLine, 99-105. *)
Definition skip_white (s : str) : str := snd (span white s).
Definition skip_blank (s : str) : str := snd (span blank s).
(** IsAtCommentStart, 106-118. *)
Definition at_comment (s : str) : bool :=
  match s with
  | c :: r => (Ascii.eqb c "/" && Ascii.eqb (peek r) "/") || Ascii.eqb c ";"
  | [] => false
  end.
(** SkipToStartOfNextLine, 119-130. *)
Fixpoint next_line (e : nat) (s : str) : str :=
  match s with
  | [] => []
  | c :: r => if List.length s <=? e then s else if Ascii.eqb c LF then r else next_line e r
  end.

(** BFFToken, BFFToken.h.  A keyword is its text. *)
Inductive token :=
| TBool (b : bool) | TKw (k : str) | TFun (s : str) | TId (s : str) | TVar (s : str) | TStr (s : str)
| TOp (o : oper) | TNum (z : Z) | TComma | TBrace (c : ascii).

(** 492-504. *)
Definition keywords : list str :=
  map L ["define"; "elif"; "else"; "exists"; "file_exists"; "function"; "if"; "import"; "include"; "in"; "not"; "once"; "undef"]%string.
(** Functions/Function.cpp 98-122, and the constructors of the functions. *)
Definition functions : list str :=
  map L ["Alias"; "Compiler"; "Copy"; "CopyDir"; "CSAssembly"; "DLL"; "Error"; "Exec"; "Executable"; "ForEach"; "If"; "Library";
         "ListDependencies"; "ObjectList"; "Print"; "RemoveDir"; "Settings"; "Test"; "TextFile"; "Unity"; "Using"; "VCXProject";
         "VSProjectExternal"; "VSSolution"; "XCodeProject"]%string.
(** HandleIdentifier, 471-516. *)
Definition word_token (w : str) : token :=
  if seqb w (L "true") then TBool true
  else if seqb w (L "false") then TBool false
  else if among keywords w then TKw w
  else if among functions w then TFun w
  else TId w.

(** GetQuotedString, 1333-1381, after the opening quote: the text, and what follows the closing quote. *)
Fixpoint quoted (q : ascii) (esc : bool) (s : str) : option (str * str) :=
  match s with
  | [] => None
  | c :: r =>
      if at_eol c then None
      else if negb esc && Ascii.eqb c q then Some ([], r)
      else match quoted q (negb esc && Ascii.eqb c "^") r with
           | Some (b, t) => Some (c :: b, t)
           | None => None
           end
  end.

(** sscanf( "%i" ), 405, as in the GNU C library: a leading 0x means hexadecimal, another leading 0 octal; the value is limited to 64 bits
    and its low 32 bits are stored. *)
Definition hex_digit (c : ascii) : bool := digit c || within "a" "f" c || within "A" "F" c.
Definition oct_digit (c : ascii) : bool := within "0" "7" c.
Definition digit_value (c : ascii) : Z :=
  let n := Z.of_N (N_of_ascii c) in
  if digit c then (n - 48)%Z else if within "a" "f" c then (n - 87)%Z else (n - 55)%Z.
Definition base_value (b : Z) (w : str) : Z := fold_left (fun a c => (a * b + digit_value c)%Z) w 0%Z.
Definition magnitude (s : str) : Z :=
  match s with
  | c :: r =>
      if Ascii.eqb c "0" then
        if Ascii.eqb (peek r) "x" || Ascii.eqb (peek r) "X" then base_value 16 (fst (span hex_digit (tl r)))
        else base_value 8 (fst (span oct_digit r))
      else base_value 10 (fst (span digit s))
  | [] => 0%Z
  end.
Definition to_i32 (v : Z) : Z := ((v + 2 ^ 31) mod 2 ^ 32 - 2 ^ 31)%Z.
Definition scan_i (s : str) : Z :=
  match s with
  | c :: r => if Ascii.eqb c "-" then to_i32 (Z.max (- 2 ^ 63) (- magnitude r)) else to_i32 (Z.min (2 ^ 63 - 1) (magnitude s))
  | [] => 0%Z
  end.

(** 320-365. *)
Definition op2 (a b : ascii) : option oper :=
  if Ascii.eqb b "=" then
    if Ascii.eqb a "=" then Some OEq else if Ascii.eqb a "!" then Some ONe
    else if Ascii.eqb a "<" then Some OLe else if Ascii.eqb a ">" then Some OGe else None
  else if Ascii.eqb a "&" && Ascii.eqb b "&" then Some OAnd
  else if Ascii.eqb a "|" && Ascii.eqb b "|" then Some OOr
  else None.
(** 377-387: '&' and '|' fall to the ASSERT and leave the type as it was set up. *)
Definition op1 (c : ascii) : oper :=
  if Ascii.eqb c ">" then OGt else if Ascii.eqb c "<" then OLt else if Ascii.eqb c "!" then ONot
  else if Ascii.eqb c "+" then OPlus else if Ascii.eqb c "-" then OMinus else OAssign.

(** One turn of the loop of Tokenize, 267-445, up to the handling of directives; [s] starts at [pos] and [pos < end]. *)
Inductive lexed :=
| Skipped (r : str)                 (* white space or a comment *)
| Lexeme (t : token) (r : str)
| Directive (r : str)               (* a '#', with what follows it *)
| Bad.
Definition lex (e : nat) (s : str) : lexed :=
  match s with
  | [] => Bad
  | c :: r =>
      if white c then Skipped (skip_white s)
      else if at_comment s then Skipped (next_line e s)
      else if id_start c then Lexeme (word_token (c :: fst (span id_char r))) (snd (span id_char r))
      else if var_start c then
        (** HandleVariable, 521-559. *)
        match r with
        | q :: r' =>
            if str_start q then
              match quoted q false r' with
              | None => Bad
              | Some (b, t) => Lexeme (TVar (c :: q :: b ++ [q])) t
              end
            else if id_char q then Lexeme (TVar (c :: fst (span id_char r))) (snd (span id_char r))
            else Bad
        | [] => Bad
        end
      else if str_start c then
        match quoted c false r with
        | None => Bad
        | Some (b, t) => Lexeme (TStr b) t
        end
      else
        match (if e <? List.length r then op2 c (peek r) else None) with
        | Some o => Lexeme (TOp o) (tl r)
        | None =>
            if op_char c && negb (Ascii.eqb c "-" && digit (peek r)) then Lexeme (TOp (op1 c)) r
            else if digit c || Ascii.eqb c "-" then Lexeme (TNum (scan_i s)) (snd (span digit r))
            else if Ascii.eqb c "," then Lexeme TComma r
            else if brace_char c then Lexeme (TBrace c) r
            else if Ascii.eqb c "#" then Directive r
            else Bad
        end
  end.

Inductive res (A : Type) := Done (a : A) | Fail | NoFuel.
Arguments Done {A} a. Arguments Fail {A}. Arguments NoFuel {A}.
Definition bind {A B} (x : res A) (f : A -> res B) : res B := match x with Done a => f a | Fail => Fail | NoFuel => NoFuel end.

(** ParseDirectiveLine, 657-690: the tokens of a line, with m_ParsingDirective set. *)
Fixpoint line (fuel : nat) (e : nat) (s : str) : res (list token) :=
  if List.length s <=? e then Done []
  else match fuel with
       | O => NoFuel
       | S f =>
           match lex e s with
           | Skipped r => line f e r
           | Lexeme t r => bind (line f e r) (fun ts => Done (t :: ts))
           | _ => Fail
           end
       end.

(** What the parse asks of the outside: environment variables, contents of files, whether a file exists, clean names of files
    (NodeGraph::CleanPath), the 32-bit hash, and the predefined tokens (BFFMacros.cpp 35-66). *)
Record world := { env : str -> option str; content : str -> option str; present : str -> bool; clean : str -> str; h32 : str -> N; predef : list str }.
(** BFFMacros::m_Tokens; FBuild::m_ImportedEnvironmentVars; FBuild::m_FileExistsInfo; BFFTokenizer::m_Files, with m_Once. *)
Record state := { macros : list str; imported : list (str * N); checked : list (str * bool); files : list (str * bool) }.

Fixpoint lookup {A} (l : list (str * A)) (n : str) : option A :=
  match l with [] => None | (k, v) :: r => if seqb k n then Some v else lookup r n end.

(** BFFMacros.cpp 29-67, 71-83, 87-100. *)
Definition defined (w : world) (st : state) (m : str) : bool := among (macros st) m || among (predef w) m.
Fixpoint remove_first (m : str) (l : list str) : list str :=
  match l with [] => [] | x :: r => if seqb m x then r else x :: remove_first m r end.
Definition set_macros (l : list str) (st : state) : state := {| macros := l; imported := imported st; checked := checked st; files := files st |}.

(** ImportEnvironmentVar, FBuild.cpp 571-614: whether it succeeds, the hash, and the state. *)
Definition import_var (w : world) (st : state) (v : str) (optional : bool) : bool * N * state :=
  match env w v, optional with
  | None, false => (false, 0%N, st)
  | x, _ =>
      let h := match x with Some s => h32 w s | None => 0%N end in
      match lookup (imported st) v with
      | Some h0 => (N.eqb h0 h, h, st)
      | None => (true, h, {| macros := macros st; imported := imported st ++ [(v, h)]; checked := checked st; files := files st |})
      end
  end.
(** CheckFile, BFFFileExists.cpp 22-43. *)
Definition check_file (w : world) (st : state) (f : str) : bool * state :=
  match lookup (checked st) f with
  | Some b => (b, st)
  | None => (present w f, {| macros := macros st; imported := imported st; checked := checked st ++ [(f, present w f)]; files := files st |})
  end.

(** FindLast, as used in 1426-1428: the text up to and with the last slash. *)
Fixpoint upto_last (c : ascii) (s : str) : option str :=
  match s with
  | [] => None
  | x :: r => match upto_last c r with Some t => Some (x :: t) | None => if Ascii.eqb x c then Some [x] else None end
  end.
(** ExpandIncludePath, 1419-1433, on Linux. *)
Definition expand_path (file : str) (p : str) : str :=
  if Ascii.eqb (peek p) "/" then p
  else match upto_last "/" file with
       | Some d => d ++ p
       | None => match upto_last "\" file with Some d => d ++ p | None => p end
       end.

(** IsRoundLeftBracket and IsRoundRightBracket, BFFToken.h 108-109: the brace shares its byte with the number. *)
Definition is_left (t : token) : bool := match t with TBrace c => Ascii.eqb c "(" | TNum z => (z mod 256 =? 40)%Z | _ => false end.
Definition is_right (t : token) : bool := match t with TBrace c => Ascii.eqb c ")" | TNum z => (z mod 256 =? 41)%Z | _ => false end.

(** One operand of an #if: HandleDirective_IfExists, _IfFileExists and _IfDefined, 907-935 and 997-1092.  [ev]: whether it is evaluated. *)
Definition operand (w : world) (file : str) (ev : bool) (st : state) (ts : list token) : option (bool * list token * state) :=
  match ts with
  | TKw k :: r =>
      if seqb k (L "exists") then
        match r with
        | a :: TId v :: b :: r' =>
            if is_left a && is_right b then
              if ev then let '(_, h, st') := import_var w st v true in Some (negb (N.eqb h 0), r', st') else Some (false, r', st)
            else None
        | _ => None
        end
      else if seqb k (L "file_exists") then
        match r with
        | a :: TStr p :: b :: r' =>
            if is_left a && is_right b then
              if ev then let '(x, st') := check_file w st (expand_path file p) in Some (x, r', st') else Some (false, r', st)
            else None
        | _ => None
        end
      else None
  | TId m :: r => Some (ev && defined w st m, r, st)
  | _ => None
  end.

Definition is_and (ts : list token) : bool := match ts with TOp OAnd :: _ => true | _ => false end.
Definition is_or (ts : list token) : bool := match ts with TOp OOr :: _ => true | _ => false end.
(** The loop of HandleDirective_IfExpression, 877-968; [hist] is operatorHistory and [first] is [!ranOnce]. *)
Definition max_history : nat := 256.
Fixpoint history (fuel : nat) (w : world) (file : str) (ev first : bool) (st : state) (ts : list token) (hist : list N)
    : res (list N * list token * state) :=
  match fuel with
  | O => NoFuel
  | S f =>
      if first || is_and ts || is_or ts then
        if first && (is_and ts || is_or ts) then Fail
        else
          let op := (if is_and ts then 2 else 4)%N in
          let ts := if is_and ts || is_or ts then tl ts else ts in
          let '(neg, ts) := match ts with TOp ONot :: r => (true, r) | _ => (false, ts) end in
          match operand w file ev st ts with
          | None => Fail
          | Some (x, ts, st) =>
              let x := if ev && neg then negb x else x in
              let bit := (if x then 1 else 0)%N in
              if first then history f w file ev false st ts (hist ++ [bit])
              else
                let hist := hist ++ [N.lor op bit] in
                if List.length hist =? max_history then Fail else history f w file ev false st ts hist
          end
      else Done (hist, ts, st)
  end.
(** 972-988: the && are applied from left to right, [x] being the entry to the left. *)
Fixpoint apply_and (x : N) (hist : list N) : list N :=
  match hist with
  | [] => [x]
  | y :: r => if N.testbit y 1 then 0%N :: apply_and (N.land x y) r else x :: apply_and y r
  end.
Definition verdict (hist : list N) : bool :=
  match hist with
  | [] => false
  | x :: r => fold_left (fun b y => b || N.testbit y 0) (apply_and x r) false
  end.
(** HandleDirective_IfExpression, 864-993. *)
Definition if_expr (w : world) (file : str) (ev : bool) (st : state) (ts : list token) : res (bool * list token * state) :=
  bind (history (S (List.length ts)) w file ev true st ts []) (fun x => let '(h, r, st') := x in Done (verdict h, r, st')).

(** GetDirective, 1385-1415. *)
Definition directive_name (s : str) : option (str * str) :=
  if lower_ (peek s) then Some (span (fun c => lower_ c || under c) s) else None.

Inductive kind := KEndif | KElse | KElif.
(** ParseToEndIf, 1096-1186: what follows, the end of the block, and how it ended. *)
Fixpoint to_endif (fuel : nat) (allow : bool) (depth : nat) (s : str) (e : nat) : res (str * nat * kind) :=
  match fuel with
  | O => NoFuel
  | S f =>
      let s := skip_blank s in
      if List.length s =? e then Fail
      else if Ascii.eqb (peek s) "#" then
        match directive_name (skip_blank (tl s)) with
        | None => Fail
        | Some (name, r) =>
            if seqb name (L "endif") then
              if depth =? 1 then Done (next_line e r, List.length s, KEndif) else to_endif f allow (depth - 1) (next_line e r) e
            else if seqb name (L "if") then to_endif f allow (S depth) (next_line e r) e
            else if (depth =? 1) && seqb name (L "elif") then if allow then Done (r, List.length s, KElif) else Fail
            else if (depth =? 1) && seqb name (L "else") then if allow then Done (r, List.length s, KElse) else Fail
            else to_endif f allow depth (next_line e r) e
        end
      else to_endif f allow depth (next_line e s) e
  end.
Definition find_endif (allow : bool) (s : str) (e : nat) : res (str * nat * kind) := to_endif (S (List.length s)) allow 1 s e.

(** The loop over #elif and the #else, 791-849: the block to be tokenized, what follows, and the state. *)
Fixpoint branches (fuel : nat) (w : world) (file : str) (e : nat) (k : kind) (result : bool) (block : option (str * nat)) (s : str) (st : state)
    : res (option (str * nat) * str * state) :=
  match fuel with
  | O => NoFuel
  | S f =>
      match k with
      | KEndif => Done (block, s, st)
      | KElse =>
          bind (find_endif false s e) (fun x => let '(r, be, _) := x in Done (if result then block else Some (s, be), r, st))
      | KElif =>
          let after := next_line e s in
          bind (line (List.length s) (List.length after) s) (fun args =>
          bind (if_expr w file (negb result) st args) (fun x => let '(b, rest, st') := x in
          bind (find_endif true after e) (fun y => let '(r, be, k') := y in
            match rest with
            | _ :: _ => Fail
            | [] => branches f w file e k' (result || b) (if negb result && b then Some (after, be) else block) r st'
            end)))
      end
  end.

(** varValue.Replace( "^", "^^" ); Replace( "$", "^$" ), 1223-1225. *)
Definition escape (s : str) : str :=
  flat_map (fun c => if Ascii.eqb c "$" then ["^"; "$"]%char else [c]) (flat_map (fun c => if Ascii.eqb c "^" then ["^"; "^"]%char else [c]) s).

Definition emit (ts : list token) (x : res (list token * state)) : res (list token * state) :=
  bind x (fun y => Done (ts ++ fst y, snd y)).
Definition mark_once (f : str) (l : list (str * bool)) : list (str * bool) := map (fun x => if seqb (fst x) f then (fst x, true) else x) l.
Definition set_files (l : list (str * bool)) (st : state) : state :=
  {| macros := macros st; imported := imported st; checked := checked st; files := l |}.

(** Tokenize( file, pos, end ), 265-448, HandleDirective, 563-653, and the directives; Tokenize( fileName, token ), 173-220.
    [rec]: the same with less fuel.  [depth] is m_Depth.  The check for tokens after a directive, 638, comes after the directive has been
    carried out. *)
Definition none_left (r : list token) (x : res (list token * state)) : res (list token * state) :=
  match r with [] => x | _ => Fail end.
Definition open_file (rec : nat -> str -> state -> str -> nat -> res (list token * state)) (w : world) (depth : nat) (st : state) (f : str)
    : res (list token * state) :=
  let f := clean w f in
  match lookup (files st) f, content w f with
  | Some true, _ => Done ([], st)
  | Some false, Some t => rec depth f st t 0
  | Some false, None => Fail   (* not possible: the contents are kept *)
  | None, None => Fail
  | None, Some t => rec depth f (set_files (files st ++ [(f, false)]) st) t 0
  end.
Definition direct (rec : nat -> str -> state -> str -> nat -> res (list token * state)) (w : world) (depth : nat) (file : str) (st : state)
    (args : list token) (s : str) (e : nat) : res (list token * state) :=
  match args with
  | TKw k :: a =>
      if seqb k (L "define") then
        match a with
        | TId m :: r => if defined w st m then Fail else none_left r (rec depth file (set_macros (macros st ++ [m]) st) s e)
        | _ => Fail
        end
      else if seqb k (L "undef") then
        match a with
        | TId m :: r => if among (macros st) m then none_left r (rec depth file (set_macros (remove_first m (macros st)) st) s e) else Fail
        | _ => Fail
        end
      else if seqb k (L "once") then none_left a (rec depth file (set_files (mark_once file (files st)) st) s e)
      else if seqb k (L "import") then
        match a with
        | TId v :: r =>
            match import_var w st v false with
            | (true, _, st') =>
                none_left r (emit [TVar ("."%char :: v); TOp OAssign; TStr (escape (match env w v with Some x => x | None => [] end))] (rec depth file st' s e))
            | _ => Fail
            end
        | _ => Fail
        end
      else if seqb k (L "include") then
        if 128 <=? S depth then Fail
        else match a with
             | TStr p :: r =>
                 bind (open_file rec w (S depth) st (expand_path file p)) (fun x => none_left r (emit (fst x) (rec depth file (snd x) s e)))
             | _ => Fail
             end
      else if seqb k (L "if") then
        bind (if_expr w file true st a) (fun x => let '(b, rest, st1) := x in
        bind (find_endif true s e) (fun y => let '(r, be, k1) := y in
        bind (branches (S (List.length r)) w file e k1 b (if b then Some (s, be) else None) r st1) (fun z => let '(block, r2, st2) := z in
        bind (match block with Some (t, te) => rec depth file st2 t te | None => Done ([], st2) end) (fun v =>
          none_left rest (emit (fst v) (rec depth file (snd v) r2 e))))))
      else Fail
  | _ => Fail
  end.
Definition tok_body (rec : nat -> str -> state -> str -> nat -> res (list token * state)) (w : world) (depth : nat) (file : str) (st : state)
    (s : str) (e : nat) : res (list token * state) :=
  if List.length s <=? e then Done ([], st)
  else match lex e s with
       | Bad => Fail
       | Skipped r => rec depth file st r e
       | Lexeme t r => emit [t] (rec depth file st r e)
       | Directive r =>
           let after := next_line e r in
           bind (line (List.length r) (List.length after) r) (fun args => direct rec w depth file st args after e)
       end.
Fixpoint tok (fuel : nat) (w : world) (depth : nat) (file : str) (st : state) (s : str) (e : nat) : res (list token * state) :=
  match fuel with
  | O => NoFuel
  | S f => tok_body (tok f w) w depth file st s e
  end.
(** TokenizeFromFile, 154-169, without the token that marks the end. *)
Definition start : state := {| macros := []; imported := []; checked := []; files := [] |}.
Definition tokenize (fuel : nat) (w : world) (root : str) : res (list token * state) := open_file (tok fuel w) w 0 start root.
