(** Model of wildcard matching.  Sources: Core/Strings/AString.cpp Match 1364-1423, MatchI 1428-1489. *)
From Coq Require Import List Arith Bool Ascii.
From Verif Require Import M_Path M_Names.
Import ListNotations.

Notation star := "*"%char.
Notation qmark := "?"%char.

Section M.
(** Character normalisation: identity for Match, lower case for MatchI. *)
Context (norm : ascii -> ascii).

Inductive seg_result :=
| AtStar (pat s : str)   (* pat[i] == '*': pat += i, str += i *)
| AtEnd (s : str)        (* the pattern ended; s is str + i *)
| OutOfText              (* str[i] == 0 at a mismatch: return false *)
| Mismatch.

(** The for loop, AString.cpp 1380-1402.  [] stands for the terminating NUL of either string. *)
Fixpoint seg (pat s : str) : seg_result :=
  match pat with
  | [] => AtEnd s
  | b :: pat' =>
      if Ascii.eqb b star then AtStar pat s
      else match s with
           | [] => OutOfText
           | a :: s' =>
               if Ascii.eqb (norm a) (norm b) then seg pat' s'
               else if Ascii.eqb b qmark && negb (Ascii.eqb a dot) then seg pat' s'
               else Mismatch
           end
  end.

(** test_match and what follows, AString.cpp 1378-1422.  [None]: reading past the end of the string;
    [Some (inl b)]: return b; [Some (inr (pat, s))]: goto new_segment. *)
Fixpoint try (has_star : bool) (pat s : str) : option (bool + str * str) :=
  match seg pat s with
  | AtStar p' s' => Some (inr (p', s'))
  | OutOfText => Some (inl false)
  | AtEnd [] => Some (inl true)
  | AtEnd (_ :: _) | Mismatch =>
      if has_star then match s with _ :: s' => try has_star pat s' | [] => None end
      else Some (inl false)
  end.

Fixpoint skip_stars (pat : str) : str :=
  match pat with c :: r => if Ascii.eqb c star then skip_stars r else pat | [] => [] end.

(** new_segment, AString.cpp 1368-1377; [fuel] bounds the number of segments. *)
Fixpoint match_from (fuel : nat) (pat s : str) : option bool :=
  match fuel with
  | O => None
  | S f =>
      let has_star := match pat with c :: _ => Ascii.eqb c star | [] => false end in
      match try has_star (skip_stars pat) s with
      | None => None
      | Some (inl b) => Some b
      | Some (inr (p', s')) => match_from f p' s'
      end
  end.
Definition wild_match (pat s : str) : option bool := match_from (S (List.length pat)) pat s.
End M.

Definition Match_ (pat s : str) : option bool := wild_match (fun c => c) pat s.
Definition MatchI_ (pat s : str) : option bool := wild_match lower_char pat s.
