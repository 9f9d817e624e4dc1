(** Model of the migration of the dependency DB to the graph of a changed BFF.
    Sources: Code/Tools/FBuild/FBuildCore/Graph/NodeGraph.cpp
      Migrate 1829-1846, MigrateNode 1848-1991, MigrateProperties 1995-2008,
      MigrateProperty 2012-2116, AreNodesTheSame 2122-2309, DoDependenciesMatch 2313-2340,
      FindNodeInternal 1411-1432 (see M_Names; here the answer is the node of that name),
      Node::Migrate Graph/Node.cpp 656-663, ObjectNode.cpp 276-286, UnityNode.cpp 619-628, CompilerInfoNode.cpp 254-262, CompilerNode.cpp 382-389.
    Simplifications:
      - a graph is the list m_AllNodes and a node is its position there (nodes are never removed);
      - a node type is a number, [file_type] being FILE_NODE; nodes of one type have the same
        reflection info, and only those;
      - the reflected members of a node (with those of its parent classes) are one list of fields
        in the order of reflection;
      - Node::Initialize depends on the type of node and is a parameter [init]. *)
From Coq Require Import List Arith NArith Bool Ascii Lia.
From Verif Require Import M_Path M_Names.
Import ListNotations.
Open Scope nat_scope.

(** Values of reflected properties, Reflection/PropertyType.h.  A pointer to a node (PT_CUSTOM_1) is the
    name of that node, or [None] for null.  A field of a structure is the pair of its
    Meta_IgnoreForComparison flag and its value.
    Simplified: the integer types are one. *)
Inductive pval :=
| PStr (s : str)
| PStrs (l : list str)
| PNum (n : N)
| PBool (b : bool)
| PStruct (fs : fields)
| PStructs (l : list_fields)
| PNode (n : option str)
| PNodes (l : list str)
with fields := FNil | FCons (ignore : bool) (v : pval) (r : fields)
with list_fields := SNil | SCons (f : fields) (r : list_fields).

(** class Dependency, Graph/Dependencies.h. *)
Record dep := Dep { to : nat; seen : N; weak : bool }.

(** class Node, Graph/Node.h 270-300: the members saved in the DB. [cost] is m_LastBuildTimeMs. *)
Record node := Node {
  name : str; type : N; props : fields;
  pre : list dep; stat : list dep; dyn : list dep;
  stamp : N; cost : N }.

Definition graph := list node.
Definition file_type : N := 0%N.

(** AString::operator == *)
Fixpoint str_eqb (a b : str) : bool :=
  match a, b with
  | [], [] => true
  | x :: a', y :: b' => Ascii.eqb x y && str_eqb a' b'
  | _, _ => false
  end.

(** the loops over arrays of strings and of nodes, 2159-2171 and 2270-2284. *)
Fixpoint strs_eqb (a b : list str) : bool :=
  match a, b with
  | [], [] => true
  | x :: a', y :: b' => if str_eqb x y then strs_eqb a' b' else false
  | _, _ => false
  end.

(** AreNodesTheSame (one property), 2146-2309, and AreNodesTheSame (all of them), 2122-2142.
    Two values of different kinds cannot meet (same reflection info); the model answers false. *)
Fixpoint val_same (a b : pval) {struct a} : bool :=
  match a, b with
  | PStr x, PStr y => str_eqb x y
  | PStrs x, PStrs y => strs_eqb x y
  | PNum x, PNum y => N.eqb x y
  | PBool x, PBool y => Bool.eqb x y
  | PStruct x, PStruct y => fields_same x y
  | PStructs x, PStructs y => structs_same x y
  | PNode x, PNode y =>
      match x, y with
      | Some u, Some v => str_eqb u v
      | None, None => true
      | _, _ => false
      end
  | PNodes x, PNodes y => strs_eqb x y
  | _, _ => false
  end
with fields_same (a b : fields) {struct a} : bool :=
  match a, b with
  | FNil, FNil => true
  | FCons i x r, FCons j y s =>
      if Bool.eqb i j then
        if (if i then true else val_same x y) then fields_same r s else false
      else false
  | _, _ => false
  end
with structs_same (a b : list_fields) {struct a} : bool :=
  match a, b with
  | SNil, SNil => true
  | SCons x r, SCons y s => if fields_same x y then structs_same r s else false
  | _, _ => false
  end.

(** FindNodeInternal, 1411-1432: the first node of that name. *)
Fixpoint find_from (k : nat) (g : graph) (nm : str) : option nat :=
  match g with
  | [] => None
  | n :: r => if equals_i (name n) nm then Some k else find_from (S k) r nm
  end.
Definition find_node (g : graph) (nm : str) : option nat := find_from 0 g nm.

(** DoDependenciesMatch, 2313-2340.  A dependency on no node at all would be a wild pointer; the
    model answers false. *)
Fixpoint deps_match (old g : graph) (a b : list dep) : bool :=
  match a, b with
  | [], [] => true
  | x :: a', y :: b' =>
      match nth_error old (to x), nth_error g (to y) with
      | Some m, Some n =>
          if N.eqb (type m) (type n) then
            if N.eqb (stamp m) (stamp n) then
              if str_eqb (name m) (name n) then deps_match old g a' b' else false
            else false
          else false
      | _, _ => false
      end
  | _, _ => false
  end.

(** the loop 1927-1932: dep.Stamp( oldDep.GetNodeStamp() ). *)
Fixpoint restamp (olds news : list dep) : list dep :=
  match news, olds with
  | d :: r, o :: s => Dep (to d) (seen o) (weak d) :: restamp s r
  | l, _ => l
  end.

Inductive res (A : Type) :=
| Done (a : A)
| Crash                 (* a null node is followed *)
| NoFuel.
Arguments Done {A} a. Arguments Crash {A}. Arguments NoFuel {A}.

Definition bind {A B} (r : res A) (f : A -> res B) : res B :=
  match r with Done a => f a | Crash => Crash | NoFuel => NoFuel end.

(** MigrateProperty, 2012-2116, and MigrateProperties, 1995-2008: [None] is the use of a null node:
    2104 for a null pointer of the old node, 2096-2098 for a node of an array that is not found.
    A single node that is not found becomes null (2105-2107). *)
Fixpoint all_found (g : graph) (l : list str) : bool :=
  match l with
  | [] => true
  | x :: r => match find_node g x with Some _ => all_found g r | None => false end
  end.

Definition name_of (g : graph) (i : nat) : option str := option_map name (nth_error g i).

Fixpoint names_found (g : graph) (l : list str) : list str :=
  match l with
  | [] => []
  | x :: r => match find_node g x with
              | Some i => match name_of g i with Some n => n :: names_found g r | None => names_found g r end
              | None => names_found g r
              end
  end.

Fixpoint copy_val (g : graph) (v : pval) {struct v} : option pval :=
  match v with
  | PStruct f => option_map PStruct (copy_fields g f)
  | PStructs l => option_map PStructs (copy_structs g l)
  | PNode None => None
  | PNode (Some x) =>
      Some (PNode (match find_node g x with Some i => name_of g i | None => None end))
  | PNodes l => if all_found g l then Some (PNodes (names_found g l)) else None
  | _ => Some v
  end
with copy_fields (g : graph) (f : fields) {struct f} : option fields :=
  match f with
  | FNil => Some FNil
  | FCons i v r =>
      match copy_val g v, copy_fields g r with
      | Some v', Some r' => Some (FCons i v' r')
      | _, _ => None
      end
  end
with copy_structs (g : graph) (l : list_fields) {struct l} : option list_fields :=
  match l with
  | SNil => Some SNil
  | SCons f r =>
      match copy_fields g f, copy_structs g r with
      | Some f', Some r' => Some (SCons f' r')
      | _, _ => None
      end
  end.

(** The type specific parts of Node::Migrate: ObjectNode.cpp (m_PCHCacheKey), UnityNode.cpp
    (m_IsolatedFiles, m_UnityFileNames), CompilerInfoNode.cpp (m_BuiltinIncludePaths), CompilerNode.cpp
    (m_Manifest): the members that are ignored by the comparison take the old values.
    Simplified: of the tool manifest the code takes the times, hashes and id, the rest being
    the same by the other members of the compiler. *)
Fixpoint take_ignored (new old : fields) : fields :=
  match new, old with
  | FCons i v r, FCons _ w s => FCons i (if i then w else v) (take_ignored r s)
  | f, _ => f
  end.

Fixpoint set_nth {A} (k : nat) (x : A) (l : list A) : list A :=
  match l, k with
  | [], _ => []
  | _ :: r, O => x :: r
  | y :: r, S k' => y :: set_nth k' x r
  end.

Definition set_stat (l : list dep) (n : node) : node :=
  Node (name n) (type n) (props n) (pre n) l (dyn n) (stamp n) (cost n).

(** m_DynamicDependencies.Add( newDeps ), 1982-1985, and Node::Migrate, Node.cpp (m_Stamp,
    m_LastBuildTimeMs). *)
Definition finish (ds : list dep) (o n : node) : node :=
  Node (name n) (type n) (take_ignored (props n) (props o)) (pre n) (stat n) (dyn n ++ ds) (stamp o) (cost o).

(** CreateNode, 861-915: a node just made, with the properties of [o] copied. *)
Definition created (o : node) (p : fields) : node := Node (name o) (type o) p [] [] [] 0%N 0%N.

(** The state of a migration: the new graph and the nodes that carry this build pass tag. *)
Definition mst := (graph * list nat)%type.

(** Node::Initialize of node [k]: the graph afterwards. *)
Definition initialiser := graph -> nat -> graph.

Definition memb (k : nat) (l : list nat) : bool := existsb (Nat.eqb k) l.

Fixpoint each (rec : mst -> nat -> option nat -> res mst) (ds : list dep) (s : mst) : res mst :=
  match ds with
  | [] => Done s
  | d :: r => bind (rec s (to d) None) (each rec r)
  end.

(** the loop over the dynamic dependencies of the old node, 1941-1981.  [None]: the early return
    of 1949-1952. *)
Fixpoint dynamics (rec : mst -> nat -> option nat -> res mst) (init : initialiser) (old : graph)
    (ds : list dep) (s : mst) (acc : list dep) : res (mst * option (list dep)) :=
  match ds with
  | [] => Done (s, Some acc)
  | d :: r =>
      match nth_error old (to d) with
      | None => Crash
      | Some o =>
          match find_node (fst s) (name o) with
          | Some j =>
              match nth_error (fst s) j with
              | None => Crash
              | Some n =>
                  if negb (N.eqb (type n) (type o)) then Done (s, None)
                  else dynamics rec init old r s (acc ++ [Dep j (seen d) (weak d)])
              end
          | None =>
              let j := length (fst s) in
              let acc' := acc ++ [Dep j (seen d) (weak d)] in
              if N.eqb (type o) file_type then
                dynamics rec init old r (fst s ++ [created o FNil], snd s) acc'
              else
                match copy_fields (fst s ++ [created o FNil]) (props o) with
                | None => Crash
                | Some p =>
                    bind (rec (init (fst s ++ [created o p]) j, snd s) j (Some (to d)))
                         (fun s' => dynamics rec init old r s' acc')
                end
          end
      end
  end.

(** MigrateNode, 1848-1991. *)
Fixpoint migrate_node (fuel : nat) (init : initialiser) (old : graph)
    (s : mst) (i : nat) (hint : option nat) {struct fuel} : res mst :=
  match fuel with
  | O => NoFuel
  | S fuel' =>
      if memb i (snd s) then Done s
      else
        match nth_error (fst s) i with
        | None => Crash
        | Some n =>
            let s0 := (fst s, i :: snd s) in
            if N.eqb (type n) file_type then Done s0
            else
              bind (each (migrate_node fuel' init old) (pre n) s0) (fun s1 =>
              bind (each (migrate_node fuel' init old) (stat n) s1) (fun s2 =>
                match (match hint with Some h => Some h | None => find_node old (name n) end) with
                | None => Done s2
                | Some h =>
                    match nth_error old h, nth_error (fst s2) i with
                    | Some o, Some n2 =>
                        if negb (N.eqb (type o) (type n2)) then Done s2
                        else if negb (fields_same (props o) (props n2)) then Done s2
                        else if negb (deps_match old (fst s2) (pre o) (pre n2)) then Done s2
                        else if negb (deps_match old (fst s2) (stat o) (stat n2)) then Done s2
                        else
                          let n3 := set_stat (restamp (stat o) (stat n2)) n2 in
                          bind (dynamics (migrate_node fuel' init old) init old (dyn o)
                                  (set_nth i n3 (fst s2), snd s2) []) (fun r =>
                            match snd r with
                            | None => Done (fst r)
                            | Some ds =>
                                match nth_error (fst (fst r)) i with
                                | None => Crash
                                | Some n4 => Done (set_nth i (finish ds o n4) (fst (fst r)), snd (fst r))
                                end
                            end)
                    | _, _ => Crash
                    end
                end))
        end
  end.

(** Migrate, 1829-1846: every node of the new graph, in order. *)
Fixpoint migrate_all (fuel : nat) (init : initialiser) (old : graph) (is : list nat) (s : mst) : res mst :=
  match is with
  | [] => Done s
  | i :: r => bind (migrate_node fuel init old s i None) (migrate_all fuel init old r)
  end.
Definition migrate (fuel : nat) (init : initialiser) (old new : graph) : res graph :=
  bind (migrate_all fuel init old (seq 0 (length new)) (new, [])) (fun s => Done (fst s)).
