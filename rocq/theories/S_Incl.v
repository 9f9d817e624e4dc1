(** Specification vocabulary for include recording: what lines of output announce. *)
From Coq Require Import List Arith NArith Bool Ascii String.
From Verif Require Import M_Path M_Names M_Incl.
Import ListNotations.

Definition no_nl (s : str) : Prop := ~ In LF s /\ ~ In CR s.
Definition no_lf (s : str) : Prop := ~ In LF s.
Definition digits (s : str) : Prop := forall c, In c s -> exists d, d < 10 /\ c = ascii_of_nat (48 + d).
Definition has_prefix (pre s : str) : Prop := exists r, s = pre ++ r.

(** A file name as written between quotes in a line marker: not one of the compiler's own in angle brackets, not a directory. *)
Definition file_name (n : str) : Prop :=
  ~ In Q n /\ ~ has_prefix (L "<") n /\ (forall d c, n = d ++ [c] -> c <> "/"%char /\ c <> "092"%char).

(** [marker kw line name tail]: line is: kw, a number, a blank, the name in quotes, tail. *)
Definition marker (kw : str) (line name tail : str) : Prop :=
  exists ds, digits ds /\ file_name name /\ line = kw ++ ds ++ sp :: Q :: name ++ Q :: tail.

(** The quotes of a line marker are closed on its line. *)
Definition quotes_closed (line : str) : Prop :=
  forall kw ds rest, kw = L "# " \/ kw = L "#line " -> digits ds -> line = kw ++ ds ++ sp :: Q :: rest -> has_prefix (L "<") rest \/ In Q rest.

(** A text as the lines it is made of: each line with the character ending it, and a last one. *)
Fixpoint text_of (ls : list (str * ascii)) (last : str) : str :=
  match ls with [] => last | (l, c) :: r => l ++ c :: text_of r last end.

(** [by_preprocessor lines n]: some line announces file n as included.  A line starting with "#line " means that the preprocessor
    writes no flags, from there on. *)
Definition by_preprocessor (lines : list str) (n : str) : Prop :=
  exists before l after tail, lines = before ++ l :: after /\
    (marker (L "#line ") l n tail \/
     (marker (L "# ") l n tail /\ (has_prefix (L " 1") tail \/ exists l', In l' before /\ has_prefix (L "#line ") l'))).

(** A full Windows path: a drive, and no character that Windows forbids in a name. *)
Definition drive_path (n : str) : Prop :=
  exists d rest, n = d :: ":"%char :: rest /\
    (exists i, i < 26 /\ (d = ascii_of_nat (65 + i) \/ d = ascii_of_nat (97 + i))) /\
    forall c, In c rest -> ~ In c (L "<>|?*:") /\ c <> Q.

(** [by_show_includes lines n]: some line is "text: text: path", as cl.exe writes for included files. *)
Definition by_show_includes (lines : list str) (n : str) : Prop :=
  exists l a b k, (In l lines /\ (forall x, l <> x ++ [CR]) \/ In (l ++ [CR]) lines) /\
    a <> [] /\ b <> [] /\ ~ In ":"%char a /\ ~ In ":"%char b /\ drive_path n /\
    l = a ++ ":"%char :: b ++ ":"%char :: repeat sp k ++ n.

Definition blanks (s : str) : Prop := forall c, In c s -> c = sp \/ c = TAB.
(** [by_line_one lines n]: some line is: blanks, "#line 1 ", and then the name in quotes. *)
Definition by_line_one (lines : list str) (n : str) : Prop :=
  exists b x tail, blanks b /\ ~ In Q x /\ ~ In Q n /\ In (b ++ L "#line 1 " ++ x ++ Q :: n ++ Q :: tail) lines.
(** Such a line has its two quotes. *)
Definition two_quotes (l : str) : Prop :=
  forall b rest, blanks b -> l = b ++ L "#line 1 " ++ rest -> exists x y z, rest = x ++ Q :: y ++ Q :: z.
