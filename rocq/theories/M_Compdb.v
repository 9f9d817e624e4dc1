(** The compilation database (compile_commands.json).

    Models Tools/FBuild/FBuildCore/Helpers/CompilationDatabase.cpp lines 25-233,
    with ObjectListNode::EnumerateInputFiles (Graph/ObjectListNode.cpp lines
    873-913) and UnityNode::EnumerateInputFiles (Graph/UnityNode.cpp lines
    777-810).  An ASSERT is taken for what it is in a release build: nothing. *)

From Coq Require Import String List Bool Arith Ascii.
From Verif Require Import M_Path M_Args M_Drv.
From Verif Require M_Objs.
Import ListNotations.
Local Open Scope list_scope.

(** What matters of an object list or a library: the executable of its compiler
    and whether it is that of MSVC, its options, its settings for names of
    objects, its loose files (m_CompilerInputFiles), and which of its static
    dependencies are inputs (m_ObjectListInputStartIndex and ...EndIndex). *)
Record olist := { compiler : str; msvc : bool; options : str; cfg : M_Objs.ocfg; loose : list str; first : nat; last : nat; library : bool }.

(** Kinds of nodes: a directory listing has a path and, once it has been built,
    its files; a unity may have a static dependency that is its list of isolated
    files (UnityNode.cpp lines 213-231); others are files or are not (IsAFile). *)
Inductive nkind := DirList (path : str) (files : list str) | ObjList (o : olist) | Unity (isolate : option nat) | Plain (is_file : bool).
Record node := { name : str; pre : list nat; static : list nat; dynamic : list nat; kind : nkind }.
(** Node::IsAFile: directory listings, object lists and unities are not files, libraries are. *)
Definition is_a_file (n : node) : bool :=
  match kind n with Plain b => b | ObjList o => library o | _ => false end.
Definition graph := list node.

Definition mem (n : nat) (l : list nat) : bool := existsb (Nat.eqb n) l.

(** VisitNodes, lines 74-114: [seen] are the nodes with the tag, [out] the nodes
    that reached the switch of line 92, in order.  [None]: the stack (fuel) is at
    its end, or a dependency is not in the graph. *)
Definition visits (rec : nat -> list nat * list nat -> option (list nat * list nat)) :=
  fix go (deps : list nat) (st : list nat * list nat) : option (list nat * list nat) :=
    match deps with
    | [] => Some st
    | n :: r => match rec n st with Some st' => go r st' | None => None end
    end.
Fixpoint visit (fuel : nat) (g : graph) (n : nat) (st : list nat * list nat) : option (list nat * list nat) :=
  let '(seen, out) := st in
  if mem n seen then Some st
  else match fuel with
       | 0 => None
       | S f =>
           match nth_error g n with
           | None => None
           | Some nd =>
               match visits (visit f g) (pre nd) (n :: seen, out) with
               | None => None
               | Some st1 =>
                   match visits (visit f g) (static nd) st1 with
                   | None => None
                   | Some st2 =>
                       match visits (visit f g) (dynamic nd) st2 with
                       | None => None
                       | Some (seen3, out3) => Some (seen3, out3 ++ [n])
                       end
                   end
               end
           end
       end.

(** Concatenation of results, [None] if one is missing. *)
Fixpoint all_of {A} (l : list (option (list A))) : option (list A) :=
  match l with
  | [] => Some []
  | None :: _ => None
  | Some x :: r => option_map (app x) (all_of r)
  end.

(** The static dependencies of an object list that are inputs. *)
Definition inputs (nd : node) (o : olist) : list nat := firstn (last o - first o) (skipn (first o) (static nd)).

(** The files of one input of an object list ([unity = false], ObjectListNode.cpp
    lines 884-912) or of a unity ([unity = true], UnityNode.cpp lines 781-809), each
    with the base directory; [built] are the directory listings that have been
    built, the others have no files yet. *)
Fixpoint input_files (fuel : nat) (g : graph) (built : list nat) (unity : bool) (n : nat) : option (list (str * str)) :=
  match fuel with
  | 0 => None
  | S f =>
      match nth_error g n with
      | None => None
      | Some nd =>
          let file := Some (if is_a_file nd then [(name nd, [])] else []) in
          match kind nd with
          | DirList path files => Some (if mem n built then map (fun x => (x, path)) files else [])
          | Unity _ => if unity then file else all_of (map (input_files f g built true) (static nd))
          | ObjList o =>
              if unity && negb (library o)
              then option_map (app (map (fun x => (x, [])) (loose o))) (all_of (map (input_files f g built false) (inputs nd o)))
              else file
          | Plain _ => file
          end
      end
  end.
(** ObjectListNode::EnumerateInputFiles. *)
Definition enumerate (fuel : nat) (g : graph) (built : list nat) (nd : node) (o : olist) : option (list (str * str)) :=
  option_map (app (map (fun x => (x, [])) (loose o))) (all_of (map (input_files fuel g built false) (inputs nd o))).

Section Platform.
Context (p : plat).

Definition q : str := [quote].
Definition nl : str := [newline].

(** The arguments, lines 147-164. *)
Definition escaped_args (o : olist) : list str :=
  map json_escape (filter (fun a => negb (msvc o && is_start a (L "analyze"))) (map remove_quotes (tokenize space (options o)))).

(** Lines 197-232, one argument. *)
Definition arg_text (fin fout a : str) : str :=
  L ", " ++ q ++
  match find (L "%1") a with
  | Some (x, y) => x ++ fin ++ y
  | None => match find (L "%2") a with
            | Some (x, y) => x ++ fout ++ y
            | None => a
            end
  end ++ q.

(** HandleInputFile, lines 178-233. *)
Definition entry_text (dir : str) (o : olist) (f base : str) : str :=
  let fin := json_escape f in
  let fout := json_escape (M_Objs.obj_name p (cfg o) f base) in
  L "  {" ++ nl ++ L "    " ++ q ++ L "directory" ++ q ++ L ": " ++ q ++ json_escape dir ++
  q ++ L "," ++ nl ++ L "    " ++ q ++ L "file" ++ q ++ L ": " ++ q ++ fin ++
  q ++ L "," ++ nl ++ L "    " ++ q ++ L "output" ++ q ++ L ": " ++ q ++ fout ++
  q ++ L "," ++ nl ++ L "    " ++ q ++ L "arguments" ++ q ++ L ": [" ++ q ++ json_escape (compiler o) ++ q ++
  flat_map (arg_text fin fout) (escaped_args o) ++ L "]" ++ nl ++ L "  }," ++ nl.

(** The switch of lines 92-111 for the nodes in the order in which they reach it. *)
Fixpoint emit (fuel : nat) (g : graph) (dir : str) (built : list nat) (out : list nat) : option str :=
  match out with
  | [] => Some []
  | n :: r =>
      match nth_error g n with
      | None => None
      | Some nd =>
          match kind nd with
          | DirList _ _ => emit fuel g dir (n :: built) r
          | ObjList o =>
              match enumerate fuel g built nd o with
              | None => None
              | Some l => option_map (app (flat_map (fun x => entry_text dir o (fst x) (snd x)) l)) (emit fuel g dir built r)
              end
          | _ => emit fuel g dir built r
          end
      end
  end.

(** Lines 49-64: the last comma becomes the end of a line, and what follows it goes.  The text backwards. *)
Definition white (c : ascii) : bool :=
  Ascii.eqb c newline || Ascii.eqb c (ascii_of_nat 13) || Ascii.eqb c space || Ascii.eqb c (ascii_of_nat 9).
Fixpoint drop_comma (back : str) : option str :=
  match back with
  | [] | [_] => None
  | c :: r => if Ascii.eqb c ","%char then Some (newline :: r) else if white c then drop_comma r else None
  end.

(** Generate, lines 38-70. *)
Definition generate (fuel : nat) (g : graph) (dir : str) (roots : list nat) : option str :=
  match visits (visit fuel g) roots ([], []) with
  | None => None
  | Some (_, out) =>
      match emit fuel g dir [] out with
      | None => None
      | Some body =>
          let t := L "[" ++ nl ++ body in
          Some (match drop_comma (rev t) with Some b => rev b | None => t end ++ L "]" ++ nl)
      end
  end.
End Platform.
