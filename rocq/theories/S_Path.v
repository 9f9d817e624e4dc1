(** Specification vocabulary for paths: components and locations. *)
From Coq Require Import List Arith Bool Ascii String NArith.
From Verif Require Import M_Path.
Import ListNotations.

Section P.
Context (p : plat).
(** Cut a string at every slash, of either kind. *)
Fixpoint components (s : str) : list str :=
  match s with
  | [] => [[]]
  | c :: r => if Ascii.eqb c (native p) || Ascii.eqb c (other p) then [] :: components r
              else match components r with [] => [[c]] | h :: t => (c :: h) :: t end
  end.

(** Walk from a directory (outermost name first): "" and "." stay, ".." goes up (and stays at the
    root), any other name goes down. *)
Definition go (dir : list str) (c : str) : list str :=
  match c with
  | [] => dir
  | ["."%char] => dir
  | ["."%char; "."%char] => removelast dir
  | _ => dir ++ [c]
  end.
Definition walk (dir : list str) (cs : list str) : list str := fold_left go cs dir.

(** Drive part: "C:" on Windows, empty elsewhere. *)
Definition drive_len : nat := if windows p then 2 else 0.
Definition drive (s : str) : str := firstn drive_len s.

(** An absolute path: drive (Windows) then a slash. *)
Definition absolute (s : str) : Prop :=
  exists d r, s = d ++ r /\ List.length d = drive_len /\ (windows p = true -> nth_error d 1 = Some ":"%char /\
     (forall c, nth_error d 0 = Some c -> c <> native p /\ c <> other p)) /\
  exists c r', r = c :: r' /\ (c = native p \/ (windows p = true /\ c = other p)).

(** Where an absolute path leads: its drive and the list of names from the root. *)
Definition location (s : str) : str * list str :=
  (drive s, walk [] (components (skipn drive_len s))).

(** A clean absolute path: a drive, then names separated by single native slashes (a trailing slash is
    allowed), no "." or ".." among the names. *)
Definition clean (s : str) : Prop :=
  absolute s /\ ~ In (other p) s /\
  exists dirs lastc, components (skipn drive_len s) = [] :: dirs ++ [lastc] /\
    Forall (fun c => c <> []) dirs /\ Forall (fun c => c <> L "." /\ c <> L "..") (dirs ++ [lastc]).

(** A relative name: no drive and no leading "\\" on Windows, no leading slash (of either kind) elsewhere. *)
Definition relative_name (s : str) : Prop :=
  if windows p then nth_error s 1 <> Some ":"%char /\ firstn 2 s <> [native p; native p]
  else forall c, nth_error s 0 = Some c -> c <> native p /\ c <> other p.

(** Strings that C++ string functions see whole. *)
Definition no_nul (s : str) : Prop := ~ In nul s.

End P.
