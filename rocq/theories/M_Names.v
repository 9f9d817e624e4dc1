(** Model of the name table of the node graph.  Sources: Graph/NodeGraph.cpp AddNode 950-966,
    FindNodeInternal 1411-1432, FindNode 776-789, FindNodeExact 793-797, CreateNode 924-946,
    constructor 84-99; Graph/Node.cpp CalcNameHash 1130-1136; Core/Strings/AString.cpp ToLower 764-778,
    CompareI 188-197. *)
From Coq Require Import List Arith Bool Ascii NArith.
From Verif Require Import M_Path.
Import ListNotations.

(** ToLower of one character, AString.cpp 771-775. *)
Definition lower_char (c : ascii) : ascii :=
  let n := nat_of_ascii c in if (65 <=? n) && (n <=? 90) then ascii_of_nat (97 + (n - 65)) else c.
Definition lower (s : str) : str := map lower_char s.

(** strcasecmp( a, b ) == 0 in the "C" locale: compare until both end (or both have a NUL). *)
Fixpoint equals_i (a b : str) : bool :=
  match a, b with
  | [], [] => true
  | [], y :: _ => Ascii.eqb y nul
  | x :: _, [] => Ascii.eqb x nul
  | x :: a', y :: b' => if Ascii.eqb (lower_char x) (lower_char y) then
                          if Ascii.eqb x nul then true else equals_i a' b'
                        else false
  end.

Section G.
(** xxHash3::Calc64: any function of the string. *)
Context (hash64 : str -> N).
(** CleanPath (modelled in M_Path), here any function. *)
Context (clean : str -> str).

(** CalcNameHash, Node.cpp 1130-1136. *)
Definition name_hash (s : str) : N := (hash64 (lower s) mod 4294967296)%N.

Record node := mkN { nname : str; nhash : N }.
(** [buckets k] is the chain at slot k, newest first; [maxkey] is m_NodeMapMaxKey. *)
Record graph := mkG { maxkey : N; buckets : N -> list node; all : list node }.

(** Constructor, NodeGraph.cpp 84-99: 2^bits slots. *)
Definition new_graph (bits : N) : graph := mkG (2 ^ bits - 1)%N (fun _ => []) [].

(** Slot access; outside the array is [None]. *)
Definition chain (g : graph) (k : N) : option (list node) :=
  if (k <=? maxkey g)%N then Some (buckets g k) else None.

(** FindNodeInternal's loop, NodeGraph.cpp 1419-1430. *)
Fixpoint find_chain (h : N) (name : str) (l : list node) : option node :=
  match l with
  | [] => None
  | n :: r => if (nhash n =? h)%N then if equals_i (nname n) name then Some n else find_chain h name r
              else find_chain h name r
  end.
(** FindNodeInternal, NodeGraph.cpp 1411-1432 (no hint).  The outer [None] is an access out of bounds. *)
Definition find_exact (g : graph) (name : str) : option (option node) :=
  let h := name_hash name in
  match chain g (N.land h (maxkey g)) with
  | Some l => Some (find_chain h name l)
  | None => None
  end.

(** FindNode, NodeGraph.cpp 776-789. *)
Definition find_node (g : graph) (name : str) : option (option node) :=
  match find_exact g name with
  | Some None => find_exact g (clean name)
  | r => r
  end.

(** AddNode, NodeGraph.cpp 950-966 (the ASSERTs are not part of release builds). *)
Definition add_node (g : graph) (n : node) : option graph :=
  let k := N.land (nhash n) (maxkey g) in
  match chain g k with
  | Some l => Some (mkG (maxkey g) (fun k' => if (k' =? k)%N then n :: l else buckets g k') (all g ++ [n]))
  | None => None
  end.

(** CreateNode, NodeGraph.cpp 924-946. *)
Definition create_node (g : graph) (is_file : bool) (name : str) : option graph :=
  let nm := if is_file then clean name else name in
  add_node g (mkN nm (name_hash nm)).

(** What callers do: look the name up and create a node only when there is none (Function.cpp 334, 582;
    ObjectNode.cpp 246; ObjectListNode.cpp 776).  File nodes are created under their cleaned name, others
    under the name given. *)
Definition declare (g : graph) (is_file : bool) (name : str) : option graph :=
  match find_node g name with
  | Some (Some _) => Some g
  | Some None => create_node g is_file name
  | None => None
  end.

Fixpoint run (g : graph) (ops : list (bool * str)) : option graph :=
  match ops with
  | [] => Some g
  | (f, n) :: r => match declare g f n with Some g' => run g' r | None => None end
  end.
End G.
