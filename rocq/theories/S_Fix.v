(** Specification vocabulary: the preprocessed text of a unity file. *)
From Coq Require Import String List Ascii.
From Verif Require Import M_Path M_Args M_Drv S_Drv.
Import ListNotations.
Open Scope list_scope.

(** The line marker that begins a file, up to the name; the end of a marker that returns to [unity]. *)
Definition begins : str := ascii_of_nat 10 :: L "# 1 " ++ [quote].
Definition returns (unity : str) (flag : ascii) : str := L " " ++ [quote] ++ unity ++ [quote] ++ L " " ++ [flag].
(** No [o] begins in [x] when [x] is followed by [o]. *)
Definition clear_of (o x : str) : Prop := forall a b, x ++ o = a ++ o ++ b -> b = [].

(** Pieces of the text, each with the code of the unity file that follows it: a marker for something that is not a file, like
    <built-in>; a marker for a file that does not begin there; and a file that the unity file includes, from the marker of its
    beginning to that of the return.  What is inside [body] is free, it may have markers of files that this file includes. *)
Inductive part :=
| Builtin (code : str)
| Marker (name code : str)
| File (name body code : str).
Definition part_ok (unity : str) (p : part) : Prop :=
  match p with
  | Builtin x => clear_of begins ("<"%char :: x)
  | Marker name x => ~ In quote name /\ hd nul name <> "<"%char /\ (forall y, x <> L " 1" ++ y) /\ clear_of begins x
  | File name body x => ~ In quote name /\ hd nul name <> "<"%char /\ clear_of (returns unity "2") body /\ clear_of begins x
  end.
(** The text, given the flags that say that a file begins and that the unity file goes on. *)
Definition written (unity : str) (push pop : ascii) (p : part) : str :=
  match p with
  | Builtin x => begins ++ "<"%char :: x
  | Marker name x => begins ++ name ++ [quote] ++ x
  | File name body x => begins ++ name ++ [quote] ++ L " " ++ [push] ++ body ++ returns unity pop ++ x
  end.
Definition page (unity : str) (push pop : ascii) (ps : list part) : str := flat_map (written unity push pop) ps.
(** A character is kept, or a flag is replaced with a space. *)
Definition blanked (a b : ascii) : Prop := b = a \/ b = " "%char /\ (a = "1"%char \/ a = "2"%char).
(** A file name as it is spelled in a line marker: on Windows with each backslash doubled. *)
Fixpoint spelled (p : plat) (n : str) : str :=
  match n with
  | [] => []
  | c :: r => if andb (windows p) (Ascii.eqb c (ascii_of_nat 92)) then c :: c :: spelled p r else c :: spelled p r
  end.
