(** Model of name suggestions.  Sources: Core/Strings/LevenshteinDistance.cpp 40-98;
    Graph/NodeGraph.cpp FindNearestNodesInternal 1436-1519. *)
From Coq Require Import List Arith Bool Ascii NArith.
From Verif Require Import M_Path M_Names M_Array.
Import ListNotations.

Section M.
(** Identity for Distance, lower case for DistanceI. *)
Context (norm : ascii -> ascii).
(** CharEqual ? 0 : 1 *)
Definition cost (c d : ascii) : nat := if Ascii.eqb (norm c) (norm d) then 0 else 1.
(** ( a < b ) ? ( a < c ? a : c ) : ( b < c ? b : c ), LevenshteinDistance.cpp 90. *)
Definition min3 (a b c : nat) : nat := if a <? b then (if a <? c then a else c) else (if b <? c then b else c).

(** The loop over y, LevenshteinDistance.cpp 82-94: [old] is what is left of the old column above y,
    [left_] the value just stored at y-1.  Values stay below 2^32 because they are bounded by the longer
    length plus one, so 32-bit arithmetic is not modelled. *)
Fixpoint inner (s1 : str) (old : list nat) (last_diag left_ : nat) (d : ascii) : list nat :=
  match s1, old with
  | c :: s1', o :: old' =>
      let v := min3 (o + 1) (left_ + 1) (last_diag + cost c d) in
      v :: inner s1' old' o v d
  | _, _ => []
  end.
(** The loop over x, LevenshteinDistance.cpp 79-95. *)
Fixpoint outer (s1 s2 : str) (x : nat) (column : list nat) : list nat :=
  match s2 with
  | [] => column
  | d :: r => outer s1 r (x + 1) (x :: inner s1 (tl column) (x - 1) x d)
  end.

Definition capacity : nat := N.to_nat 1024.
(** LevenshteinDistanceImpl, LevenshteinDistance.cpp 40-98.  The column array holds [capacity] entries and
    y <= len1 < capacity. *)
Definition distance (a b : str) : nat :=
  if List.length a =? 0 then List.length b
  else if List.length b =? 0 then List.length a
  else let '(s1, s2) := if List.length b <? List.length a then (b, a) else (a, b) in
       if capacity <=? List.length s1 then List.length s2
       else nth (List.length s1) (outer s1 s2 1 (0 :: seq 1 (List.length s1))) 0.
End M.

(** FindNearestNodesInternal.  [nodes] is the list found so far with distances; [cap] its capacity. *)
Section N.
Context {A : Type}.
(** The shifting loop, NodeGraph.cpp 1500-1511: returns the array and the final pos. *)
Fixpoint shift (nodes : list (A * nat)) (d pos : nat) : option (list (A * nat) * nat) :=
  match pos with
  | O => Some (nodes, 0)
  | S q => match get nodes q with
           | None => None
           | Some e => if snd e <=? d then Some (nodes, pos)
                       else if pos <? List.length nodes
                            then match set nodes pos e with
                                 | Some nodes' => shift nodes' d q
                                 | None => None
                                 end
                            else shift nodes d q
           end
  end.
(** One candidate, NodeGraph.cpp 1478-1517; [worst] is worstMinDistance. *)
Definition offer (cap : nat) (st : list (A * nat) * nat) (x : A) (d : nat) : option (list (A * nat) * nat) :=
  let '(nodes, worst) := st in
  let top l := match rev l with (_, dd) :: _ => dd | [] => 0 end in
  match nodes with
  | [] => Some ([(x, d)], d)
  | _ =>
      if worst <=? d then
        if List.length nodes <? cap then Some (nodes ++ [(x, d)], d) else Some (nodes, worst)
      else
        let count := List.length nodes in
        let nodes1 := if count <? cap then nodes ++ [(x, d)] (* EmplaceBack(): a slot whose value is overwritten *) else nodes in
        match shift nodes1 d count with
        | None => None
        | Some (nodes2, pos) => match set nodes2 pos (x, d) with
                                | Some nodes3 => Some (nodes3, top nodes3)
                                | None => None
                                end
        end
  end.
End N.

(** The tests at 1457-1476: too far, or not reachable by insertions only or deletions only. *)
Definition eligible (full name : str) (max : N) (d : nat) : bool :=
  if (max <? N.of_nat d)%N then false
  else if List.length full <? List.length name
       then negb (List.length name - List.length full <? d)
       else negb (List.length full - List.length name <? d).

(** FindNearestNodesInternal over the names in table order. *)
Fixpoint nearest_loop (full : str) (max : N) (cap : nat) (names : list str) (st : list (str * nat) * nat) : option (list (str * nat) * nat) :=
  match names with
  | [] => Some st
  | n :: r =>
      let d := distance lower_char full n in
      if eligible full n max d then
        match offer cap st n d with Some st' => nearest_loop full max cap r st' | None => None end
      else nearest_loop full max cap r st
  end.
Definition nearest (full : str) (max : N) (cap : nat) (names : list str) : option (list (str * nat)) :=
  match full with
  | [] => Some []
  | _ => match nearest_loop full max cap names ([], List.length full + 1) with Some st => Some (fst st) | None => None end
  end.
