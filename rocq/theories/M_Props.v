(** Model of how a function of the BFF language makes a target: the name, the settings from the variables in
    scope, lists of other targets, aliases.  Sources: FBuildCore/BFF/Functions/Function.cpp ParseFunction
    177-290, Commit 295-366, GetNodeList 470-531 and 760-860, GetNodeListInternal 845-969, ProcessAlias
    1004-1037, GetNameForNode 1041-1097, PopulateProperties and what it calls 1100-1705;
    Graph/AliasNode.cpp 34-39; Graph/NodeGraph.cpp FindNode 776-789, CreateNode 918-946;
    Core/FileIO/PathUtils.cpp FixupFolderPath, FixupFilePath 144-186.
    Error messages are not modelled: an error is [None]. *)
From Coq Require Import String List Arith Bool Ascii ZArith.
From Verif Require Import M_Path M_Names M_Dir.
Import ListNotations.
Open Scope list_scope.

(** Types of nodes, as far as these functions tell them apart. *)
Inductive nty := TyFile | TyObjectList | TyCopyDir | TyRemoveDir | TyUnity | TyCompiler | TyAlias | TyOther (n : nat).
Definition nty_eqb (a b : nty) : bool :=
  match a, b with
  | TyFile, TyFile | TyObjectList, TyObjectList | TyCopyDir, TyCopyDir | TyRemoveDir, TyRemoveDir
  | TyUnity, TyUnity | TyCompiler, TyCompiler | TyAlias, TyAlias => true
  | TyOther n, TyOther m => n =? m
  | _, _ => false
  end.
(** A node: its name, its type, IsAFile(), and the nodes it stands for if it is an alias, by their places in
    the list of all nodes. *)
Record node := mkNode { nname : str; ntype : nty; is_file : bool; aliased : list nat }.
Definition graph := list node.

Fixpoint find_from (k : nat) (f : node -> bool) (g : graph) : option nat :=
  match g with [] => None | n :: r => if f n then Some k else find_from (S k) f r end.
(** FindNodeInternal (C18: the table finds what a search of the list finds; names are compared without regard
    to case). *)
Definition find_as_is (g : graph) (s : str) : option nat :=
  find_from 0 (fun n => same (lower (nname n)) (lower s)) g.

Section Cleaner.
(** NodeGraph::CleanPath( name ), modelled and proved in C17. *)
Context (p : plat) (cp : str -> str).

(** NodeGraph::FindNode, NodeGraph.cpp 776-789. *)
Definition find_node (g : graph) (s : str) : option nat :=
  match find_as_is g s with Some k => Some k | None => find_as_is g (cp s) end.
(** CreateNode<FileNode>, NodeGraph.cpp 918-946. *)
Definition file_node (s : str) : node := mkNode (cp s) TyFile true [].

(** ** Strings *)
(** One pass of Replace( "//", "/" ) (C78) and the loop of them, PathUtils.cpp 149-156 and 177-181: every
    pass that replaces something makes the text shorter. *)
Fixpoint halve (s : str) : str * bool :=
  match s with
  | a :: t =>
      match t with
      | b :: u => if Ascii.eqb a (native p) && Ascii.eqb b (native p)
                  then let '(x, _) := halve u in (native p :: x, true)
                  else let '(x, c) := halve t in (a :: x, c)
      | [] => ([a], false)
      end
  | [] => ([], false)
  end.
Fixpoint squeeze (fuel : nat) (s : str) : str :=
  match fuel with
  | 0 => s
  | S f => let '(x, c) := halve s in if c then squeeze f x else x
  end.
Definition native_only (s : str) : str := map (fun c => if Ascii.eqb c (other p) then native p else c) s.
(** FixupFilePath, PathUtils.cpp 174-186. *)
Definition fixup_file (s : str) : str := squeeze (S (List.length s)) (native_only s).
(** FixupFolderPath, PathUtils.cpp 144-170: on Windows a path that begins with two slashes keeps them. *)
Definition fixup_folder (s : str) : str :=
  let n := native_only s in
  let q := squeeze (S (List.length s)) n in
  let q := if windows p && starts_with [native p; native p] n then native p :: q else q in
  if ends_with q [native p] then q else q ++ [native p].

(** What is known about the strings of a property: MetaPath or MetaFile (with: relative), never both
    (Function.cpp 1335-1336), and MetaAllowNonFile (with the one type it is limited to, if any). *)
Inductive skind := Free | Folder (relative : bool) | File (relative : bool).
Record smeta := mkS { kind : skind; nonfile : option (option nty) }.
Definition path (m : smeta) : option bool := match kind m with Folder r => Some r | _ => None end.
Definition file (m : smeta) : option bool := match kind m with File r => Some r | _ => None end.

(** PopulatePathAndFileHelper, Function.cpp 1326-1375. *)
Definition fix_path (m : smeta) (s : str) : option str :=
  let s := match path m with
           | Some true => fixup_folder s
           | Some false => ensure_trailing p (cp s)
           | None => s
           end in
  match file m with
  | Some r => let t := if r then fixup_file s else cp s in if is_folder p t then None else Some t
  | None => Some s
  end.

Fixpoint all_of {A B} (f : A -> option (list B)) (l : list A) : option (list B) :=
  match l with
  | [] => Some []
  | x :: r => match f x with
              | Some a => match all_of f r with Some b => Some (a ++ b) | None => None end
              | None => None
              end
  end.

(** PopulateStringHelper for one string, Function.cpp 1252-1322.  The fuel bounds the aliases of aliases. *)
Fixpoint strings (fuel : nat) (g : graph) (m : smeta) (s : str) : option (list str) :=
  match fuel with
  | 0 => None
  | S f =>
      let plain := match fix_path m s with Some r => Some [r] | None => None end in
      match s with
      | [] => Some [[]]
      | _ =>
          match file m with
          | Some false =>
              match find_node g s with
              | None => plain
              | Some k =>
                  match nth_error g k with
                  | None => None
                  | Some n =>
                      if nty_eqb (ntype n) TyAlias then
                        all_of (fun t => match nth_error g t with Some x => strings f g m (nname x) | None => None end) (aliased n)
                      else if is_file n then plain
                      else match nonfile m with
                           | None => None
                           | Some None => Some [s]
                           | Some (Some ty) => if nty_eqb ty (ntype n) then Some [s] else None
                           end
                  end
              end
          | _ => plain
          end
      end
  end.

(** ** Lists of nodes *)
(** GetNodeListOptions; the types that are taken besides files and object lists. *)
Record nopts := mkO { copydir : bool; removedir : bool; unity : bool; compiler : bool; no_dups : bool }.
Definition taken (o : nopts) (n : node) : bool :=
  is_file n ||
  match ntype n with
  | TyObjectList => true | TyCopyDir => copydir o | TyRemoveDir => removedir o
  | TyUnity => unity o | TyCompiler => compiler o | _ => false
  end.

(** GetNodeListInternal for a node, Function.cpp 867-969.  The state is the list made so far and the nodes
    that are tagged. *)
Fixpoint visit (fuel : nat) (o : nopts) (g : graph) (k : nat) (st : list nat * list nat)
  : option (list nat * list nat) :=
  match fuel with
  | 0 => None
  | S f =>
      match nth_error g k with
      | None => None
      | Some n =>
          let '(l, tags) := st in
          if no_dups o && existsb (Nat.eqb k) tags then Some (l, tags) else
          let tags := if no_dups o then k :: tags else tags in
          if taken o n then Some (l ++ [k], tags)
          else if nty_eqb (ntype n) TyAlias then
            (fix go (ts : list nat) (st : list nat * list nat) : option (list nat * list nat) :=
               match ts with
               | [] => Some st
               | t :: r => match visit f o g t st with Some st' => go r st' | None => None end
               end) (aliased n) (l, tags)
          else None
      end
  end.
(** GetNodeListInternal for a name, Function.cpp 845-863. *)
Definition visit_name (o : nopts) (g : graph) (s : str) (st : list nat * list nat)
  : option (graph * (list nat * list nat)) :=
  match find_node g s with
  | None => Some (g ++ [file_node s], (fst st ++ [List.length g], List.length g :: snd st))
  | Some k => match visit (S (S (List.length g))) o g k st with Some st' => Some (g, st') | None => None end
  end.
(** GetNodeList for one name, Function.cpp 829-841: the tags of earlier sweeps are forgotten. *)
Definition list_one (o : nopts) (g : graph) (s : str) (l : list nat) : option (graph * list nat) :=
  match visit_name o g s (l, []) with Some (g', (l', _)) => Some (g', l') | None => None end.
(** GetNodeList for the value of a variable, Function.cpp 486-531: one sweep for each name. *)
Fixpoint list_names (o : nopts) (g : graph) (ss : list str) (l : list nat) : option (graph * list nat) :=
  match ss with
  | [] => Some (g, l)
  | [] :: _ => None
  | s :: r => match list_one o g s l with Some (g', l') => list_names o g' r l' | None => None end
  end.
(** GetNodeList for an array of names, Function.cpp 781-803: one sweep for all. *)
Fixpoint list_sweep (o : nopts) (g : graph) (ss : list str) (st : list nat * list nat)
  : option (graph * (list nat * list nat)) :=
  match ss with
  | [] => Some (g, st)
  | s :: r => match visit_name o g s st with Some (g', st') => list_sweep o g' r st' | None => None end
  end.

(** ** Properties *)
(** A variable of the BFF file. *)
Inductive var :=
| VStr (s : str) | VStrs (l : list str) | VBool (b : bool) | VInt (z : Z)
| VStruct (m : list (str * var)) | VStructs (l : list (list (str * var))).
(** A property of a class: its name, its type and its metadata.  The properties of a class are listed with
    those of its base classes after them. *)
Inductive ptype :=
| PStr (arr : bool) (m : smeta) | PBool | PInt (range : option (Z * Z)) | PUInt (range : option (Z * Z))
| PStructs (cls : list prop) | PEmbed (cls : list prop) | PNodes (arr : bool)
with prop := mkProp (name : str) (ty : ptype) (hide req inh : bool).
Definition pname (q : prop) : str := let '(mkProp n _ _ _ _) := q in n.
(** MetaHidden, MetaRequired, MetaInheritFromOwner. *)
Definition hidden (q : prop) : bool := let '(mkProp _ _ b _ _) := q in b.
Definition required (q : prop) : bool := let '(mkProp _ _ _ b _) := q in b.
Definition inherit (q : prop) : bool := let '(mkProp _ _ _ _ b) := q in b.

(** What a property is set to. *)
Inductive value :=
| SetStr (s : str) | SetStrs (l : list str) | SetBool (b : bool) | SetInt (z : Z) | SetUInt (z : Z)
| SetStructs (l : list (list (str * value))) | SetEmbed (l : list (str * value))
| SetNodes (l : list nat) | SetNode (o : option nat).

Definition dotted (s : str) : str := "."%char :: s.
Fixpoint member (ms : list (str * var)) (n : str) : option var :=
  match ms with [] => None | (m, v) :: r => if same m n then Some v else member r n end.
Definition in_range (r : option (Z * Z)) (z : Z) : bool :=
  match r with Some (a, b) => (a <=? z)%Z && (z <=? b)%Z | None => true end.

(** PopulateStringHelper for a variable, Function.cpp 1223-1248. *)
Definition var_strings (g : graph) (m : smeta) (v : var) : option (list str) :=
  let one := strings (S (S (List.length g))) g m in
  match v with VStr s => one s | VStrs l => all_of one l | _ => None end.
(** PopulateArrayOfStrings, Function.cpp 1379-1412. *)
Definition pop_strs (g : graph) (m : smeta) (req : bool) (v : var) : option (list str) :=
  match var_strings g m v with
  | None => None
  | Some l => if (match l with [] => true | _ => false end) && req then None
              else if existsb (fun s => match s with [] => true | _ => false end) l then None else Some l
  end.
(** PopulateString, Function.cpp 1416-1460. *)
Definition pop_str (g : graph) (m : smeta) (req : bool) (v : var) : option str :=
  match var_strings g m v with
  | None => None
  | Some l =>
      match v with
      | VStr _ => match l with
                  | [] | [] :: _ => if req then None else Some []
                  | [s] => Some s
                  | _ => None
                  end
      | _ => None
      end
  end.
(** PopulateCustom, Function.cpp 1587-1647: looks the variable up again, in the frame. *)
Definition all_opts : nopts := mkO true true true true true.
Definition pop_nodes (g : graph) (arr req : bool) (v : option var) : option (graph * value) :=
  match (match v with
         | None => if req then None else Some (g, [])
         | Some (VStrs l) => list_names all_opts g l []
         | Some (VStr s) => list_names all_opts g [s] []
         | Some _ => None
         end) with
  | None => None
  | Some (g', l) =>
      if arr then Some (g', SetNodes l)
      else match l with [] => Some (g', SetNode None) | [k] => Some (g', SetNode (Some k)) | _ => None end
  end.

(** The variable for a property of an element of an array of structs, Function.cpp 1676-1692. *)
Definition for_member (env : str -> option var) (ms : list (str * var)) (q : prop) : option var :=
  match member ms (dotted (pname q)) with
  | Some w => Some w
  | None => if inherit q then env (dotted (pname q)) else None
  end.
(** Does [f] for each struct, with the graph handed on. *)
Fixpoint each {A B} (f : A -> graph -> option (graph * B)) (l : list A) (g : graph) : option (graph * list B) :=
  match l with
  | [] => Some (g, [])
  | x :: r => match f x g with
              | None => None
              | Some (g1, y) => match each f r g1 with Some (g2, ys) => Some (g2, y :: ys) | None => None end
              end
  end.
(** PopulateProperty, Function.cpp 1145-1219, for the variable [v] that was found ([None]: there is none);
    [env] are the variables in scope.  Gives the value set, [None] if the property is left alone.  The inner
    loop is that of PopulateProperties, 1108-1141, and of PopulateArrayOfStructsElement, 1660-1702, with [look]
    for the variable of a property; PopulateArrayOfStructs, 1535-1583. *)
Fixpoint pop_prop (env : str -> option var) (pr : prop) (v : option var) (g : graph) {struct pr}
  : option (graph * option value) :=
  match pr with
  | mkProp name ty _ req _ =>
      let pop_list look := fix pop_list (l : list prop) (g : graph) {struct l} : option (graph * list (str * value)) :=
        match l with
        | [] => Some (g, [])
        | q :: r =>
            if hidden q then pop_list r g else
            match pop_prop env q (look q) g with
            | None => None
            | Some (g1, x) =>
                match pop_list r g1 with
                | None => None
                | Some (g2, y) => Some (g2, match x with Some a => (pname q, a) :: y | None => y end)
                end
            end
        end in
      match ty with
      | PEmbed cls =>
          match pop_list (fun q => env (dotted (pname q))) cls g with
          | Some (g', l) => Some (g', Some (SetEmbed l)) | None => None end
      | _ =>
          match v with
          | None => if req then None else Some (g, None)
          | Some x =>
              match ty with
              | PStr true m => match pop_strs g m req x with Some l => Some (g, Some (SetStrs l)) | None => None end
              | PStr false m => match pop_str g m req x with Some s => Some (g, Some (SetStr s)) | None => None end
              | PBool => match x with VBool b => Some (g, Some (SetBool b)) | _ => None end
              | PInt r => match x with VInt z => if in_range r z then Some (g, Some (SetInt z)) else None | _ => None end
              | PUInt r =>
                  match x with
                  | VInt z => if in_range r z then Some (g, Some (SetUInt (z mod 4294967296)%Z)) else None
                  | _ => None
                  end
              | PStructs cls =>
                  match x with
                  | VStructs l =>
                      match each (fun ms => pop_list (for_member env ms) cls) l g with
                      | Some (g', y) => Some (g', Some (SetStructs y)) | None => None end
                  | VStruct ms =>
                      match each (fun ms => pop_list (for_member env ms) cls) [ms] g with
                      | Some (g', y) => Some (g', Some (SetStructs y)) | None => None end
                  | _ => None
                  end
              | PNodes arr =>
                  match pop_nodes g arr req (env (dotted name)) with
                  | Some (g', y) => Some (g', Some y) | None => None end
              | PEmbed _ => None
              end
          end
      end
  end.
(** PopulateProperties and PopulateArrayOfStructsElement. *)
Definition pop_class (env : str -> option var) (look : prop -> option var) :=
  fix pop_list (l : list prop) (g : graph) {struct l} : option (graph * list (str * value)) :=
  match l with
  | [] => Some (g, [])
  | q :: r =>
      if hidden q then pop_list r g else
      match pop_prop env q (look q) g with
      | None => None
      | Some (g1, x) =>
          match pop_list r g1 with
          | None => None
          | Some (g2, y) => Some (g2, match x with Some a => (pname q, a) :: y | None => y end)
          end
      end
  end.
Definition populate (env : str -> option var) (cls : list prop) (g : graph) : option (graph * list (str * value)) :=
  pop_class env (fun q => env (dotted (pname q))) cls g.

(** ** Functions *)
(** One call of a function: which one, the name in its header (empty: none), the calls in its body, and for
    functions whose targets are named by a property (MetaName), the name that GetNameForNode finds.  Of the
    node only what matters to names is kept. *)
Inductive call := Call (fn : nat) (header : str) (body : list call) (named : option str).
(** m_AliasForFunction of each function. *)
Definition headers := nat -> str.
Definition put (h : headers) (k : nat) (s : str) : headers := fun j => if j =? k then s else h j.

(** Commit, Function.cpp 295-366 with ProcessAlias, 1013-1037.  Property values are left out; the new node is
    no file (its type does not matter here), an alias for it is.  An empty name registers a node without a name
    (the ASSERTs at 318 and RegisterNode are for debug builds). *)
Definition commit (h : headers) (g : graph) (fn : nat) (named : option str) : option (headers * graph) :=
  match named with
  | None =>
      match find_node g (h fn) with
      | Some _ => None
      | None => Some (put h fn [], g ++ [mkNode (h fn) (TyOther fn) false []])
      end
  | Some s =>
      match find_node g s with
      | Some _ => None
      | None =>
          let g1 := g ++ [mkNode s (TyOther fn) true []] in
          match h fn with
          | [] => Some (h, g1)
          | a => match find_node g1 a with
                 | Some _ => None
                 | None => Some (put h fn [], g1 ++ [mkNode a TyAlias false [List.length g]])
                 end
          end
      end
  end.
(** ParseFunction, Function.cpp 177-254: the header is stored in the function, then the body is parsed, then the
    stored header is used. *)
Fixpoint do_call (c : call) (h : headers) (g : graph) {struct c} : option (headers * graph) :=
  match c with
  | Call fn header body named =>
      let fix do_calls (l : list call) (h : headers) (g : graph) : option (headers * graph) :=
        match l with
        | [] => Some (h, g)
        | x :: r => match do_call x h g with Some (h1, g1) => do_calls r h1 g1 | None => None end
        end in
      match do_calls body (put h fn header) g with
      | Some (h1, g1) => commit h1 g1 fn named
      | None => None
      end
  end.
End Cleaner.
