(** Specification vocabulary for unity files: what a compiler sees in one. *)
From Coq Require Import List Arith Bool Ascii String.
From Verif Require Import M_Path M_Names.
Import ListNotations.

(** The lines of a text. *)
Fixpoint lines (s : str) : list str :=
  match s with
  | [] => [[]]
  | c :: r => if Ascii.eqb c "010"%char then [] :: lines r
              else match lines r with l :: ls => (c :: l) :: ls | [] => [[c]] end
  end.
(** What follows a prefix. *)
Fixpoint after (pre s : str) : option str :=
  match pre, s with
  | [], _ => Some s
  | x :: pre', y :: s' => if Ascii.eqb x y then after pre' s' else None
  | _, [] => None
  end.
Fixpoint until_quote (s : str) : str :=
  match s with [] => [] | c :: r => if Ascii.eqb c "034"%char then [] else c :: until_quote r end.

Definition include_start : str := L "#include " ++ ["034"%char].
(** The file a line includes. *)
Definition included (line : str) : list str := match after include_start line with Some r => [until_quote r] | None => [] end.
(** The same, also when the line is commented out. *)
Definition mentioned (line : str) : list str := match after (L "//") line with Some r => included r | None => included line end.

(** The files a text includes, and those it mentions in an include line that may be commented out. *)
Definition includes (text : str) : list str := flat_map included (lines text).
Definition mentions (text : str) : list str := flat_map mentioned (lines text).

(** A name that can be written between quotes on one line. *)
Definition plain (n : str) : Prop := ~ In "034"%char n /\ ~ In "010"%char n.
(** Two names that differ in more than case. *)
Definition same_but_case (a b : str) : Prop := lower a = lower b.
