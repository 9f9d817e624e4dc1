(** Model of the message filter for MSBuild.  Source: FBuildCore/Graph/Node.cpp 1140-1203
    (CleanMessageToPreventMSBuildFailure), Core/Strings/AString.h 204-208, AString.cpp 1025-1050 (FindI).
    Messages hold no NUL character; the terminating NUL read by the scan is the end of the list. *)
From Coq Require Import List Arith Bool Ascii String NArith.
From Verif Require Import M_Path M_Names.
Import ListNotations.

Definition between (a b c : ascii) : bool := (N_of_ascii a <=? N_of_ascii c)%N && (N_of_ascii c <=? N_of_ascii b)%N.
(** AString.h 204-208. *)
Definition is_ws (c : ascii) : bool :=
  (Ascii.eqb c " " || Ascii.eqb c "013" || Ascii.eqb c "010" || Ascii.eqb c "009")%char.
Definition is_letter (c : ascii) : bool := between "A" "Z" c || between "a" "z" c.
Definition is_number (c : ascii) : bool := between "0" "9" c.
Definition is_alnum (c : ascii) : bool := is_letter c || is_number c.

(** StrNCmpI( pos, subString, subStrLen ) == 0 for a position with enough characters left. *)
Fixpoint begins_i (tok l : str) : bool :=
  match tok, l with
  | [], _ => true
  | a :: t, b :: r => Ascii.eqb (lower_char a) (lower_char b) && begins_i t r
  | _ :: _, [] => false
  end.
(** FindI, AString.cpp 1025-1050: the text before the first occurrence, and the text from there on. *)
Fixpoint find_i (tok l : str) : option (str * str) :=
  if begins_i tok l then Some ([], l)
  else match l with
       | [] => None
       | a :: r => match find_i tok r with Some (p, q) => Some (a :: p, q) | None => None end
       end.
(** while ( f( *pos ) ) ++pos; *)
Fixpoint span (f : ascii -> bool) (l : str) : str * str :=
  match l with
  | [] => ([], [])
  | a :: r => if f a then let '(p, q) := span f r in (a :: p, q) else ([], l)
  end.
Definition ERROR : str := L "error ".
Definition WARNING : str := L "warning ".
(** Node.cpp 1155-1156: an "error " anywhere is preferred to an earlier "warning ". *)
Definition find_token (l : str) : option (str * str) :=
  match find_i ERROR l with Some r => Some r | None => find_i WARNING l end.
(** The loop of CleanMessageToPreventMSBuildFailure, Node.cpp 1151-1202; [fuel] bounds it. *)
Fixpoint clean_loop (fuel : nat) (l : str) : option str :=
  match fuel with
  | O => None
  | S f =>
      match find_token l with
      | None => Some l
      | Some (pre, tok) =>
          let '(a, r1) := span is_letter tok in
          let '(b, r2) := span is_ws r1 in
          let '(c, r3) := span is_alnum r2 in
          let '(d, r4) := span is_ws r3 in
          let '(fill, rest) := match r4 with (":"%char) :: r5 => ([" "%char], r5) | _ => ([], r4) end in
          match clean_loop f rest with
          | Some o => Some (pre ++ a ++ b ++ c ++ d ++ fill ++ o)
          | None => None
          end
      end
  end.
Definition clean (l : str) : option str := clean_loop (S (List.length l)) l.
