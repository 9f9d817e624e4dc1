(** How an XCode project is read, and where a file belongs in it.  Written without the generator; only the shape of an object is shared with
    the model. *)
From Coq Require Import String Ascii List Arith Bool NArith.
From Verif Require Import M_Path M_Names M_Xcode.
Import ListNotations.
Local Open Scope list_scope.

(** *** Values in the text of a project (the property list format of the format's owner) *)
(** The letters of a string without quotes. *)
Definition bareb (c : ascii) : bool :=
  let n := nat_of_ascii c in
  (97 <=? n) && (n <=? 122) || (65 <=? n) && (n <=? 90) || (48 <=? n) && (n <=? 57)
  || Ascii.eqb c "_" || Ascii.eqb c "$" || Ascii.eqb c "/" || Ascii.eqb c ":" || Ascii.eqb c "." || Ascii.eqb c "-".
(** What follows an opening quote: the string up to the closing quote, and the rest.  A backslash makes the next quote or backslash stand for
    itself; other escapes are not needed here. *)
Fixpoint quoted (s : str) : option (str * str) :=
  match s with
  | [] => None
  | c :: r =>
      if Ascii.eqb c (ascii_of_nat 34) then Some ([], r)
      else if Ascii.eqb c "\" then
        match r with
        | d :: t => if Ascii.eqb d (ascii_of_nat 34) || Ascii.eqb d "\" then match quoted t with Some (v, u) => Some (d :: v, u) | None => None end else None
        | [] => None
        end
      else match quoted r with Some (v, u) => Some (c :: v, u) | None => None end
  end.
Fixpoint unquoted (s : str) : str * str :=
  match s with
  | [] => ([], [])
  | c :: r => if bareb c then (c :: fst (unquoted r), snd (unquoted r)) else ([], s)
  end.
(** The value at the start of a text, and the rest of the text. *)
Definition value (s : str) : option (str * str) :=
  match s with
  | [] => None
  | c :: r => if Ascii.eqb c (ascii_of_nat 34) then quoted r else match unquoted s with ([], _) => None | x => Some x end
  end.
(** The text [t] of a setting "name = t;" stands for [v]. *)
Definition denotes (t v : str) : Prop := forall rest, value (t ++ L ";" ++ rest) = Some (v, L ";" ++ rest).

(** *** Walking through a project *)
(** From the group [m] one comes to the group [g] through groups with the names [ns]. *)
Inductive reach (prj : list (str * object)) (m : str) : list str -> str -> Prop :=
| reach_here : reach prj m [] m
| reach_below ns g nm ch c t n nch : reach prj m ns g -> In (g, Group nm ch) prj -> In c ch -> In (c, Group (Some t) nch) prj -> denotes t n ->
    reach prj m (ns ++ [n]) c.
(** Under the groups [ns] there is a file with this name and this path. *)
Definition listed (prj : list (str * object)) (m : str) (ns : list str) (name path : str) : Prop :=
  exists g nm ch r tn tp, reach prj m ns g /\ In (g, Group nm ch) prj /\ In r ch /\ In (r, FileRef tn tp) prj /\ denotes tn name /\ denotes tp path.
Definition ids (prj : list (str * object)) : list str := map fst prj.
Definition children (prj : list (str * object)) : list str := flat_map (fun x => match snd x with Group _ ch => ch | _ => [] end) prj.
Definition is_group (x : str * object) : bool := match snd x with Group _ _ => true | _ => false end.
Definition is_ref (x : str * object) : bool := match snd x with FileRef _ _ => true | _ => false end.
Definition is_build (x : str * object) : bool := match snd x with BuildFile _ => true | _ => false end.

(** *** Where a file belongs *)
Fixpoint parts (c : ascii) (s : str) : list str :=
  match s with
  | [] => [[]]
  | d :: r => if Ascii.eqb d c then [] :: parts c r else match parts c r with x :: t => (d :: x) :: t | [] => [[d]] end
  end.
(** The folders of a path: its parts but the last.  A slash at the very start has no folder before it. *)
Definition folders_of (c : ascii) (r : str) : list str := match removelast (parts c r) with [] :: t => t | t => t end.
Definition name_of (c : ascii) (r : str) : str := last (parts c r) [].
(** [f] begins with [b]; upper and lower case letters are different on Linux only. *)
Definition Begins (p : plat) (f b r : str) : Prop := exists h, f = h ++ r /\ if windows p then lower h = lower b else h = b.
(** [r] is what follows the longest base path of [f], or the whole of [f]. *)
Definition Relative (p : plat) (bases : list str) (f r : str) : Prop :=
  exists b, (b = [] \/ In b bases) /\ Begins p f b r /\ forall b' r', In b' bases -> Begins p f b' r' -> length b' <= length b.

(** *** Arguments in the scheme: the value of an XML attribute up to the closing quote, and what follows *)
Fixpoint attribute (fuel : nat) (s : str) : option (str * str) :=
  match fuel, s with
  | O, _ | _, [] => None
  | S k, c :: r =>
      let more (d : ascii) (t : str) := match attribute k t with Some (v, u) => Some (d :: v, u) | None => None end in
      if Ascii.eqb c (ascii_of_nat 34) then Some ([], r)
      else if Ascii.eqb c "<" then None
      else if Ascii.eqb c "&" then
        if starts_with (L "gt;") r then more ">"%char (skipn 3 r)
        else if starts_with (L "lt;") r then more "<"%char (skipn 3 r)
        else if starts_with (L "amp;") r then more "&"%char (skipn 4 r)
        else if starts_with (L "quot;") r then more (ascii_of_nat 34) (skipn 5 r)
        else None
      else if nat_of_ascii c <? 32 then more " "%char r
      else more c r
  end.
(** The identifiers an object mentions. *)
Definition mentions (o : object) : list str :=
  match o with
  | BuildFile r => [r] | FileRef _ _ => [] | Group _ ch => ch | LegacyTarget c ph | NativeTarget c ph => c :: ph
  | Project c m ts => c :: m :: ts | Sources l => l | Config _ => [] | ConfigList cs _ => cs
  end.
(** A name that needs no quotes. *)
Definition plain (n : str) : Prop := n <> [] /\ forall c, In c n -> bareb c = true.
