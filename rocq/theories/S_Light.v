(** The lines of a C source that matter for what it includes, and how a compiler finds an included file.  Written without the scanner. *)
From Coq Require Import String List Arith NArith Bool Ascii.
From Verif Require Import M_Path.
From Verif Require M_Tok S_Tok M_Light.
Import ListNotations.
Import M_Tok(LF, CR, TAB, DQ, SQ).
Import S_Tok(letter, name_char).
Import M_Light(itype, Angle, Quote, Macro, event, Include, Define, Other, world, text, clean, relative, h64).
Open Scope char_scope.
Open Scope nat_scope.

Definition newline (c : ascii) : Prop := c = CR \/ c = LF.
Definition one_line (s : str) : Prop := Forall (fun c => ~ newline c) s.
Definition blanks (s : str) : Prop := Forall (fun c => c = " " \/ c = TAB) s.
Definition starts (p s : str) : Prop := exists r, s = p ++ r.
Definition inside (p s : str) : Prop := exists a b, s = a ++ p ++ b.
(** An identifier that is not followed by more of it. *)
Definition identifier (m r : str) : Prop := (exists c x, m = c :: x /\ letter c /\ Forall name_char x) /\ (forall c, starts [c] r -> ~ name_char c).

(** The inside of a comment that starts after something else on its line: none of its further lines starts with '#' or a slash. *)
Definition calm (b : str) : Prop := forall x c u z, b = x ++ c :: u ++ z -> newline c -> blanks u -> ~ starts ["#"] z /\ ~ starts ["/"] z.
(** [rest r s]: r is the remainder of a line that has begun, and s is what follows that line.  A comment goes over line ends. *)
Inductive rest : str -> str -> Prop :=
| e_end : rest [] []
| e_newline c s : newline c -> rest (c :: s) s
| e_char c r s : ~ newline c -> c <> DQ -> c <> SQ -> ~ starts (L "//") (c :: r) -> ~ starts (L "/*") (c :: r) -> rest r s -> rest (c :: r) s
| e_string q b r s : q = DQ \/ q = SQ -> one_line b -> (forall x y, b = x ++ q :: y -> exists z, x = z ++ ["\"]) -> rest r s -> rest (q :: b ++ q :: r) s
| e_open q b r s : q = DQ \/ q = SQ -> one_line b -> ~ In q b -> (r = [] \/ exists c, newline c /\ starts [c] r) -> rest r s -> rest (q :: b ++ r) s
| e_line_comment b r s : one_line b -> (r = [] \/ exists c, newline c /\ starts [c] r) -> rest r s -> rest (L "//" ++ b ++ r) s
| e_comment b r s : ~ inside (L "*/") b -> calm b -> rest r s -> rest (L "/*" ++ b ++ L "*/" ++ r) s.

(** Between the words of a directive: white space, with at most one comment in it. *)
Definition gap (x : str) : Prop := blanks x \/ exists u b v, x = u ++ L "/*" ++ b ++ L "*/" ++ v /\ blanks u /\ blanks v /\ ~ inside (L "*/") b.
Inductive header : str -> str -> itype -> Prop :=
| h_quote n : one_line n -> ~ In DQ n -> header (DQ :: n ++ [DQ]) n Quote
| h_angle n : one_line n -> ~ In ">" n -> header ("<" :: n ++ [">"]) n Angle.

(** [lines s l]: the text s, at the start of a line, includes and defines l.  Parts under #if count whatever the condition. *)
Inductive lines : str -> list event -> Prop :=
| l_end u : blanks u -> lines u []
| l_blank u c s l : blanks u -> newline c -> lines s l -> lines (u ++ c :: s) l
| l_code u c r s l : blanks u -> ~ newline c -> c <> "#" -> ~ blanks [c] -> ~ starts (L "/*") (c :: r) -> rest (c :: r) s -> lines s l -> lines (u ++ c :: r) l
| l_comment u b r s l : blanks u -> ~ inside (L "*/") b -> rest r s -> lines s l -> lines (u ++ L "/*" ++ b ++ L "*/" ++ r) l
| l_include u v x h n t r s l : blanks u -> blanks v -> gap x -> header h n t -> rest r s -> lines s l ->
    lines (u ++ "#" :: v ++ L "include" ++ x ++ h ++ r) (Include n t :: l)
| l_include_macro u v x m r s l : blanks u -> blanks v -> gap x -> x <> [] -> identifier m r -> rest r s -> lines s l ->
    lines (u ++ "#" :: v ++ L "include" ++ x ++ m ++ r) (Include m Macro :: l)
| l_define_path u v x m y h n t r s l : blanks u -> blanks v -> gap x -> x <> [] -> identifier m (y ++ h ++ r) -> gap y -> header h n t -> ~ In "\" n ->
    rest r s -> lines s l -> lines (u ++ "#" :: v ++ L "define" ++ x ++ m ++ y ++ h ++ r) (Define m n t :: l)
| l_define_other u v x m y r s l : blanks u -> blanks v -> gap x -> x <> [] -> identifier m (y ++ r) -> gap y ->
    (forall h n t, header h n t -> ~ starts h r) -> ~ starts [" "] r -> ~ starts [TAB] r -> ~ starts (L "/*") r ->
    rest r s -> lines s l -> lines (u ++ "#" :: v ++ L "define" ++ x ++ m ++ y ++ r) (Other m :: l)
| l_directive u v r s l : blanks u -> blanks v -> ~ starts (L "include") r -> ~ starts (L "define") r -> ~ starts (L "import") r ->
    ~ starts [" "] r -> ~ starts [TAB] r -> ~ starts (L "/*") r -> rest r s -> lines s l -> lines (u ++ "#" :: v ++ r) l.

(** * Finding files.  The directory of a file is its name up to the last slash. *)
Definition directory (f d : str) : Prop :=
  exists n, f = d ++ n /\ ~ In "/" n /\ ~ In "\" n /\ (d = [] \/ exists e, d = e ++ ["/"] \/ d = e ++ ["\"]).
Definition there (w : world) (f : str) : Prop := text w f <> None.
(** The first of several names that is there. *)
Definition first_of (w : world) (l : list str) (g : str) : Prop := exists a b, l = a ++ g :: b /\ there w g /\ Forall (fun p => ~ there w p) a.
(** The file that a compiler takes for #include "n" or #include <n> in the file f: n itself if it is a full path, else what is found beside f
    (not for <n>), else what is found on the include paths. *)
Inductive leads (w : world) (paths : list str) (f : str) : str -> itype -> str -> Prop :=
| f_full n t : t <> Macro -> starts ["/"] n -> there w n -> leads w paths f n t n
| f_angle n g : ~ starts ["/"] n -> first_of w (map (fun d => clean w (d ++ n)) paths) g -> leads w paths f n Angle g
| f_quote n d g : ~ starts ["/"] n -> directory f d -> first_of w (clean w (d ++ n) :: map (fun d => clean w (d ++ n)) paths) g -> leads w paths f n Quote g.

(** * The list of files and the key *)
(** The file f is of the form above, and says e. *)
Definition plain (w : world) (f : str) : Prop := exists s l, text w f = Some s /\ ~ In nul s /\ lines s l.
Definition says (w : world) (f : str) (e : event) : Prop := exists s l, text w f = Some s /\ ~ In nul s /\ lines s l /\ In e l.
(** Unless there is an n beside f, there is none beside any file of l. *)
Definition alone (w : world) (l : list str) (f n : str) : Prop :=
  forall d, directory f d -> ~ there w (clean w (d ++ n)) -> forall f' d', In f' l -> directory f' d' -> ~ there w (clean w (d' ++ n)).
(** What is hashed: for each file its name (its name relative to the working directory, if the compiler is given relative paths) and its text. *)
Definition shown (w : world) (rel : bool) (f : str) : str := if rel then relative w f else f.
Definition numbers (w : world) (rel : bool) (l : list str) : list N :=
  flat_map (fun f => [h64 w (shown w rel f); match text w f with Some s => h64 w s | None => 0%N end]) l.
Definition hashed (w : world) (rel : bool) (l : list str) (x : str) : Prop := exists f, In f l /\ (x = shown w rel f \/ text w f = Some x).
(** The files that are read from root on, by includes that name a file. *)
Inductive reads (w : world) (paths : list str) (root : str) : str -> Prop :=
| r_root : reads w paths root root
| r_next f n t g : reads w paths root f -> says w f (Include n t) -> leads w paths f n t g -> reads w paths root g.
