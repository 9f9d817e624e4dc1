(** What a BFF file means before it is parsed: its lexical grammar, conditions and directives.  Written without the tokenizer. *)
From Coq Require Import String List Arith NArith ZArith Bool Ascii.
From Verif Require Import M_Path M_Cond.
From Verif Require M_Tok.
Import ListNotations.
Import M_Tok(token, TBool, TKw, TFun, TId, TVar, TStr, TOp, TNum, TComma, TBrace, LF, CR, TAB, SQ, DQ).
Open Scope char_scope.
Open Scope nat_scope.

(** * Characters *)
Definition from_to (a b c : ascii) : Prop := nat_of_ascii a <= nat_of_ascii c <= nat_of_ascii b.
Definition is_digit (c : ascii) : Prop := from_to "0" "9" c.
Definition letter (c : ascii) : Prop := from_to "a" "z" c \/ from_to "A" "Z" c \/ c = "_".
Definition name_char (c : ascii) : Prop := letter c \/ is_digit c.
Definition space (c : ascii) : Prop := c = " " \/ c = TAB \/ c = CR \/ c = LF.
Definition line_end (c : ascii) : Prop := c = CR \/ c = LF \/ c = nul.
Definition quote (c : ascii) : Prop := c = SQ \/ c = DQ.
Definition bracket (c : ascii) : Prop := In c ["("; ")"; "{"; "}"; "["; "]"].
(** The next character, if any, is not in the class. *)
Definition not_next (P : ascii -> Prop) (s : str) : Prop := match s with [] => True | c :: _ => ~ P c end.

(** * Words *)
Definition word (w : str) : Prop := exists c r, w = c :: r /\ letter c /\ Forall name_char r.
Definition keyword_list : list str :=
  map L ["define"; "elif"; "else"; "exists"; "file_exists"; "function"; "if"; "import"; "in"; "include"; "not"; "once"; "undef"]%string.
Definition function_list : list str :=
  map L ["Alias"; "CSAssembly"; "Compiler"; "Copy"; "CopyDir"; "DLL"; "Error"; "Exec"; "Executable"; "ForEach"; "If"; "Library";
         "ListDependencies"; "ObjectList"; "Print"; "RemoveDir"; "Settings"; "Test"; "TextFile"; "Unity"; "Using"; "VCXProject";
         "VSProjectExternal"; "VSSolution"; "XCodeProject"]%string.
Inductive word_means (w : str) : token -> Prop :=
| w_true : w = L "true" -> word_means w (TBool true)
| w_false : w = L "false" -> word_means w (TBool false)
| w_keyword : In w keyword_list -> word_means w (TKw w)
| w_function : In w function_list -> word_means w (TFun w)
| w_other : ~ In w (L "true" :: L "false" :: keyword_list ++ function_list) -> word_means w (TId w).

(** * Strings: the text between two equal quote marks on one line; '^' takes the next character with it. *)
Inductive body (q : ascii) : str -> Prop :=
| b_nil : body q []
| b_char c s : c <> q -> c <> "^" -> ~ line_end c -> body q s -> body q (c :: s)
| b_escape c s : ~ line_end c -> body q s -> body q ("^" :: c :: s).

(** * Operators *)
Definition two_char : list (ascii * ascii * oper) :=
  [(("=", "="), OEq); (("!", "="), ONe); (("<", "="), OLe); ((">", "="), OGe); (("&", "&"), OAnd); (("|", "|"), OOr)].
Definition one_char : list (ascii * oper) := [("=", OAssign); (">", OGt); ("<", OLt); ("!", ONot); ("+", OPlus); ("-", OMinus)].
Definition no_pair (c : ascii) (s : str) : Prop := match s with [] => True | d :: _ => forall o, ~ In ((c, d), o) two_char end.

(** * Numbers: digits, perhaps after a minus sign.  The value is what scanf's %i makes of the text. *)
Definition dval (c : ascii) : Z := Z.of_nat (nat_of_ascii c) - 48.
Fixpoint decimal (a : Z) (w : str) : Z := match w with [] => a | c :: r => decimal (a * 10 + dval c)%Z r end.
Definition fits (z : Z) : Prop := (- 2147483648 <= z <= 2147483647)%Z.
(** Decimal digits without a superfluous 0 in front. *)
Definition proper (w : str) : Prop := w <> [] /\ Forall is_digit w /\ (w = ["0"] \/ hd "0" w <> "0").
(** A number as a user means it. *)
Inductive number : str -> Z -> Prop :=
| n_plain w : proper w -> fits (decimal 0 w) -> number w (decimal 0 w)
| n_minus w : proper w -> fits (- decimal 0 w) -> number ("-" :: w) (- decimal 0 w).

(** * Text.  [reads s ts r]: the text s up to r stands for the tokens ts; r is empty, or starts with a '#'.
    White space and comments stand for nothing, a word or number ends where it cannot go on, and the longer operator is preferred.
    [odd]: what else the tokenizer accepts: a number not written as above, and a single '&' or '|'. *)
Section Reads.
Variable odd_number : str -> str -> Z -> Prop.   (* digits, what follows, value *)
Variable odd_operator : ascii -> oper -> Prop.

Inductive reads : str -> list token -> str -> Prop :=
| r_end r : r = [] \/ hd " " r = "#" -> reads r [] r
| r_space c s ts r : space c -> reads s ts r -> reads (c :: s) ts r
| r_comment h b s ts r : h = L "//" \/ h = L ";" -> ~ In LF b -> reads s ts r -> reads (h ++ b ++ LF :: s) ts r
| r_comment_end h b : h = L "//" \/ h = L ";" -> ~ In LF b -> reads (h ++ b) [] []
| r_word w t s ts r : word w -> not_next name_char s -> word_means w t -> reads s ts r -> reads (w ++ s) (t :: ts) r
| r_variable p w s ts r : p = "." \/ p = "^" -> w <> [] -> Forall name_char w -> not_next name_char s -> reads s ts r ->
    reads (p :: w ++ s) (TVar (p :: w) :: ts) r
| r_quoted_variable p q b s ts r : p = "." \/ p = "^" -> quote q -> body q b -> reads s ts r ->
    reads (p :: q :: b ++ q :: s) (TVar (p :: q :: b ++ [q]) :: ts) r
| r_string q b s ts r : quote q -> body q b -> reads s ts r -> reads (q :: b ++ q :: s) (TStr b :: ts) r
| r_pair a b o s ts r : In ((a, b), o) two_char -> reads s ts r -> reads (a :: b :: s) (TOp o :: ts) r
| r_operator a o s ts r : In (a, o) one_char -> no_pair a s -> (a = "-" -> not_next is_digit s) -> reads s ts r -> reads (a :: s) (TOp o :: ts) r
| r_number w z s ts r : number w z -> not_next is_digit s -> (w = ["0"] \/ w = ["-"; "0"] -> not_next (fun c => c = "x" \/ c = "X") s) ->
    reads s ts r -> reads (w ++ s) (TNum z :: ts) r
| r_comma s ts r : reads s ts r -> reads ("," :: s) (TComma :: ts) r
| r_bracket c s ts r : bracket c -> reads s ts r -> reads (c :: s) (TBrace c :: ts) r
| r_odd_number w z s ts r : odd_number w s z -> not_next is_digit s -> reads s ts r -> reads (w ++ s) (TNum z :: ts) r
| r_odd_operator a o s ts r : odd_operator a o -> no_pair a s -> reads s ts r -> reads (a :: s) (TOp o :: ts) r.
End Reads.

(** The language as documented. *)
Definition means : str -> list token -> str -> Prop := reads (fun _ _ _ => False) (fun _ _ => False).
(** What is accepted besides: single '&' and '|' stand for '=', and other digits have some value. *)
Definition other_number (w s : str) (z : Z) : Prop :=
  exists d, (w = d \/ w = "-" :: d) /\ d <> [] /\ Forall is_digit d /\
    (~ number w z \/ ((w = ["0"] \/ w = ["-"; "0"]) /\ (hd " " s = "x" \/ hd " " s = "X"))).
Definition accepts : str -> list token -> str -> Prop := reads other_number (fun a o => (a = "&" \/ a = "|") /\ o = OAssign).
