(** What is expected of a project for Visual Studio.  Written without the generator. *)
From Coq Require Import String Ascii List Arith Bool.
From Verif Require Import M_Path M_Names.
Import ListNotations.
Local Open Scope list_scope.

(** A path with the slashes of Windows, and how a file is named in the project: [rel] gives its path from the directory of the project. *)
Definition slashes (s : str) : str := map (fun c => if Ascii.eqb c "/" then "\"%char else c) s.
Definition name (p : plat) (rel : str -> str) (f : str) : str := if windows p then rel (slashes f) else slashes (rel (slashes f)).
Definition bases_of (p : plat) (bases : list str) : list str := if windows p then bases else map slashes bases.
(** The folder [a] is [f] or one of the folders in which [f] is. *)
Definition within (a f : str) : Prop := f = a \/ exists r, f = a ++ "\"%char :: r.
(** Seen from the base path [b], the file [f] is in the folder [d], which is not the base path itself.  Case does not matter. *)
Definition below (b f d : str) : Prop := exists h n, f = h ++ d ++ "\"%char :: n /\ lower h = lower b /\ d <> [] /\ ~ In "\"%char n.

(** The text of an XML element up to the next tag, and what follows. *)
Fixpoint text (fuel : nat) (s : str) : option (str * str) :=
  match fuel, s with
  | O, _ | _, [] => None
  | S k, c :: r =>
      let more (d : ascii) (t : str) := match text k t with Some (v, u) => Some (d :: v, u) | None => None end in
      if Ascii.eqb c "<" then Some ([], s)
      else if Ascii.eqb c "&" then
        if starts_with (L "gt;") r then more ">"%char (skipn 3 r)
        else if starts_with (L "lt;") r then more "<"%char (skipn 3 r)
        else if starts_with (L "amp;") r then more "&"%char (skipn 4 r)
        else None
      else more c r
  end.
(** Where a file is shown: below the first base path that has a folder for it. *)
Definition placed (bases : list str) (f : str) (o : option str) : Prop :=
  match o with
  | Some d => exists l b r, bases = l ++ b :: r /\ below b f d /\ forall b' d', In b' l -> ~ below b' f d'
  | None => forall b d, In b bases -> ~ below b f d
  end.
