(** Model of the dependency database file: what NodeGraph::Save writes, what NodeGraph::Load makes of a file, and how
    FBuild::SaveDependencyGraph puts it on disk.  Sources: Graph/NodeGraph.h 55-85, Graph/NodeGraph.cpp 68-80, 115-201,
    243-575, 1712-1804, Graph/Node.cpp 97-117, 358-785, Graph/Dependencies.cpp 14-87, BFF/BFFFileExists.cpp 44-60,
    FBuild.cpp 346-400.
    Node pointers are addresses ([ptr]); the objects' reflected members are typed by the reflection tables.  Members that
    are not reflected, and the PostLoad callbacks of the project generators, are not modelled. *)
From Coq Require Import List Arith Bool NArith ZArith.
From Verif Require Import M_Bytes M_Stream M_Codec M_Conf.
Import ListNotations.
Local Open Scope N_scope.

Definition ptr := N.

(** ** Reflection tables.  ReflectionInfo: own properties, then those of the superclass ([RSuper]). *)
Inductive ptype :=
| TStr | TStrs | TBool | TU8 | TI32 | TU32 | TU64   (* PT_ASTRING, array of it, PT_BOOL .. PT_UINT64 *)
| TStruct (r : rinfo) | TStructs (r : rinfo)       (* PT_STRUCT, array of it *)
| TNode | TNodes                                   (* PT_CUSTOM_1: Node *, array of it *)
with rinfo := REnd | RProp (p : ptype) (r : rinfo) | RSuper (r : rinfo).
Fixpoint val (t : ptype) : Set :=
  match t with
  | TStr => bytes | TStrs => list bytes | TBool => bool | TU8 => N | TI32 => Z | TU32 => N | TU64 => N
  | TStruct r => vals r | TStructs r => list (vals r)
  | TNode => option ptr | TNodes => list ptr
  end
with vals (r : rinfo) : Set :=
  match r with
  | REnd => unit
  | RProp p q => (val p * vals q)%type
  | RSuper q => vals q
  end.

(** Dependency, Dependencies.h 18-46. *)
Record dep := mkD { dep_node : ptr; dep_stamp : N; dep_weak : bool }.

Section Schema.
(** The reflection table of each node type ([None]: no such type, CreateNode 832-912). *)
Variable schema : N -> option rinfo.
Definition FILE_NODE : N := 4.
Definition SETTINGS_NODE : N := 20.
(** The reflected members of a node; those of a FileNode are never saved. *)
Definition members (file : bool) (o : option rinfo) : Set := if file then unit else match o with Some r => vals r | None => unit end.
Definition props (ty : N) : Set := members (ty =? FILE_NODE) (schema ty).
Record node := mkN { n_name : bytes; n_hash : N; n_kind : {ty : N & props ty}; n_stamp : N; n_time : N; n_pre : list dep; n_static : list dep; n_dyn : list dep }.
Definition n_type (n : node) : N := projT1 (n_kind n).
(** m_AllNodes, with the address of each node. *)
Definition graph := list (ptr * node).

(** ** Writing *)
Definition u32s (x : N) : bytes := le_bytes 4 (u32 x).
Definition count {A} (l : list A) : bytes := u32s (N.of_nat (List.length l)).
Definition wr_bool (b : bool) : bytes := [if b then 1 else 0].
Definition wr_i32 (z : Z) : bytes := le_bytes 4 (Z.to_N (z mod 4294967296)).
Definition INVALID : N := 4294967295.

Section Tag.
(** Node::m_BuildPassTag of the node at an address. *)
Variable tag : ptr -> N.
(** Serialize( ReflectedProperty ), Node.cpp 521-640, and Serialize( ReflectionInfo ), 500-517. *)
Fixpoint wr_val (t : ptype) : val t -> bytes :=
  match t return val t -> bytes with
  | TStr => fun v => wr_str v
  | TStrs => fun v => wr_strs v
  | TBool => fun v => wr_bool v
  | TU8 => fun v => le_bytes 1 v
  | TI32 => fun v => wr_i32 v
  | TU32 => fun v => le_bytes 4 v
  | TU64 => fun v => le_bytes 8 v
  | TStruct r => fun v => wr_vals r v
  | TStructs r => fun v => count v ++ flat_map (wr_vals r) v
  | TNode => fun v => le_bytes 4 (match v with Some p => tag p | None => INVALID end)
  | TNodes => fun v => count v ++ flat_map (fun p => le_bytes 4 (tag p)) v
  end
with wr_vals (r : rinfo) : vals r -> bytes :=
  match r return vals r -> bytes with
  | REnd => fun _ => []
  | RProp p q => fun v => wr_val p (fst v) ++ wr_vals q (snd v)
  | RSuper q => fun v => wr_vals q v
  end.
Definition wr_members (file : bool) (o : option rinfo) : members file o -> bytes :=
  match file, o return members file o -> bytes with
  | true, _ => fun _ => []
  | false, Some r => wr_vals r
  | false, None => fun _ => []
  end.
Definition wr_props (ty : N) : props ty -> bytes := wr_members (ty =? FILE_NODE) (schema ty).
(** Dependencies::Save, Dependencies.cpp 33-56: packed u32 index, u64 stamp, bool weak. *)
Definition wr_dep (d : dep) : bytes := le_bytes 4 (tag (dep_node d)) ++ le_bytes 8 (dep_stamp d) ++ wr_bool (dep_weak d).
Definition wr_deps (l : list dep) : bytes := flat_map wr_dep l.
(** Node::Save, Node.cpp 413-426: name, u8 type, u32 name hash. *)
Definition wr_basic (n : node) : bytes := wr_str (n_name n) ++ le_bytes 1 (n_type n) ++ le_bytes 4 (n_hash n).
(** Node::SaveExtended, Node.cpp 429-454: u64 stamp, u32 build time, three u32 counts, properties, dependencies. *)
Definition wr_ext (n : node) : bytes :=
  le_bytes 8 (n_stamp n) ++ le_bytes 4 (n_time n) ++ count (n_pre n) ++ count (n_static n) ++ count (n_dyn n) ++
  wr_props _ (projT2 (n_kind n)) ++ wr_deps (n_pre n) ++ wr_deps (n_static n) ++ wr_deps (n_dyn n).
End Tag.

(** SetBuildPassTag( index++ ) over all nodes, NodeGraph.cpp 531-538; [t] holds the tags before. *)
Fixpoint set_tags (i : N) (ps : list ptr) (t : ptr -> N) : ptr -> N :=
  match ps with
  | [] => t
  | p :: r => set_tags (i + 1) r (fun q => if q =? p then u32 i else t q)
  end.
Definition wr_nodes (stale : ptr -> N) (g : graph) : bytes :=
  let t := set_tags 0 (map fst g) stale in
  count g ++ flat_map (fun pn => wr_basic (snd pn)) g ++
  flat_map (fun pn => if n_type (snd pn) =? FILE_NODE then [] else wr_ext t (snd pn)) g.
(** The configuration part, NodeGraph.cpp 482-527. *)
Definition wr_used (u : bytes * N * N) : bytes := let '(f, st, h) := u in wr_str f ++ le_bytes 8 st ++ le_bytes 8 h.
Definition wr_over (o : option (bytes * bytes)) : bytes :=
  match o with
  | None => u32s 0
  | Some (e, lib) => u32s (blen e) ++ (if blen e =? 0 then [] else e ++ wr_str lib)
  end.
Definition wr_conf (d : db) : bytes :=
  (count (db_used d) ++ flat_map wr_used (db_used d)) ++
  wr_over (db_over d) ++
  (count (db_env d) ++ flat_map (fun v => wr_str (fst v) ++ le_bytes 4 (snd v)) (db_env d)) ++
  le_bytes 4 (db_lib d) ++
  wr_strs (map fst (db_fx d)) ++ (count (db_fx d) ++ flat_map (fun x => wr_bool (snd x)) (db_fx d)).

Section Hashes.
Variables (h32 h64 : bytes -> N).
(** NodeGraph::CleanPath and PathUtils::ArePathsEqual: any functions. *)
Variables (clean : bytes -> bytes) (same_path : bytes -> bytes -> bool).

(** NodeGraphHeader, NodeGraph.h 55-85: 'N' 'G' 'D', version 194, u32 padding, u64 content hash. *)
Definition VERSION : N := 194.
Definition header (h : N) : bytes := [78; 71; 68; VERSION; 0; 0; 0; 0] ++ le_bytes 8 h.
Definition HEADER : N := 16.
(** Everything after the header, NodeGraph.cpp 478-549. *)
Definition body (stale : ptr -> N) (path : bytes) (d : db) (g : graph) : bytes := wr_str (clean path) ++ wr_conf d ++ wr_nodes stale g.
(** What GetPage gives for every page in turn. *)
Definition page_list (s : cstream) : option (list bytes) :=
  fold_right (fun i acc => match cs_get_page s i, acc with
                           | Some (pg, n), Some l => if n <=? blen pg then Some (firstn (N.to_nat n) pg :: l) else None
                           | _, _ => None
                           end) (Some []) (seq 0 (List.length (cs_pages s))).
(** NodeGraph::Save, NodeGraph.cpp 472-575: the pages of the stream.  The writes between the header and the hash are given
    as one; the accumulator over the pages is taken to be the hash of their concatenation. *)
Definition save_pages (page : N) (stale : ptr -> N) (path : bytes) (d : db) (g : graph) : option (list bytes) :=
  match cs_writes (cs_new page) [header 0; body stale path d g] with
  | None => None
  | Some s =>
      match page_list s with
      | Some (p0 :: rest) =>
          if blen p0 <? HEADER then None
          else let h := h64 (concat (skipn (N.to_nat HEADER) p0 :: rest)) in
               Some ((firstn 8 p0 ++ le_bytes 8 h ++ skipn (N.to_nat HEADER) p0) :: rest)
      | _ => None
      end
  end.

(** ** Reading *)
(** A read that the code does not check (VERIFY in a release build, or a direct use of the buffer): failing is a memory error. *)
Definition must {A} (r : reader A) : reader A := fun s => match r s with Some (Some x, s') => Some (Some x, s') | _ => None end.
Definition r_bool : reader bool :=
  fun s => match r_int 1 s with
           | Some (Some v, s') => if v =? 0 then Some (Some false, s') else if v =? 1 then Some (Some true, s') else None
           | Some (None, s') => Some (None, s')
           | None => None
           end.
Definition r_i32 : reader Z := bind (r_int 4) (fun v => ret (if v <? 2147483648 then Z.of_N v else (Z.of_N v - 4294967296)%Z)).
Definition r_counted {A} (r : reader A) : reader (list A) := bind (r_int 4) (fun n => r_rep (N.to_nat n) r).

Section Ptrs.
(** The addresses of the nodes created so far; GetNodeByIndex, NodeGraph.cpp 801-806. *)
Variable ps : list ptr.
Definition at_index (i : N) : reader ptr := fun s => match nth_error ps (N.to_nat i) with Some p => Some (Some p, s) | None => None end.
(** Deserialize( ReflectedProperty ), Node.cpp 676-785, and Deserialize( ReflectionInfo ), 644-660. *)
Fixpoint r_val (t : ptype) : reader (val t) :=
  match t return reader (val t) with
  | TStr => r_str
  | TStrs => r_counted r_str
  | TBool => r_bool
  | TU8 => r_int 1
  | TI32 => r_i32
  | TU32 => r_int 4
  | TU64 => r_int 8
  | TStruct r => r_vals r
  | TStructs r => r_counted (r_vals r)
  | TNode => bind (r_int 4) (fun i => if i =? INVALID then ret None else bind (at_index i) (fun p => ret (Some p)))
  | TNodes => r_counted (bind (r_int 4) at_index)
  end
with r_vals (r : rinfo) : reader (vals r) :=
  match r return reader (vals r) with
  | REnd => ret tt
  | RProp p q => bind (r_val p) (fun a => bind (r_vals q) (fun b => ret (a, b)))
  | RSuper q => r_vals q
  end.
Definition r_members (file : bool) (o : option rinfo) : reader (members file o) :=
  match file, o return reader (members file o) with
  | true, _ => ret tt
  | false, Some r => r_vals r
  | false, None => ret tt
  end.
Definition r_props (ty : N) : reader (props ty) := r_members (ty =? FILE_NODE) (schema ty).
(** Dependencies::Load, Dependencies.cpp 60-87. *)
Definition r_dep : reader dep :=
  bind (r_int 4) (fun i => bind (at_index i) (fun p => bind (r_int 8) (fun st => bind r_bool (fun w => ret (mkD p st w))))).
Definition r_deps (n : N) : reader (list dep) := r_rep (N.to_nat n) r_dep.
(** Node::LoadExtended, Node.cpp 377-405.  A FileNode keeps the values its constructor gave it. *)
Definition r_ext (b : bytes * N * N) : reader node :=
  let '(name, ty, hash) := b in
  if ty =? FILE_NODE then bind (r_props ty) (fun v => ret (mkN name hash (existT _ ty v) 0 0 [] [] []))
  else
  bind (r_int 8) (fun stamp => bind (r_int 4) (fun time =>
  bind (r_int 4) (fun npre => bind (r_int 4) (fun nstat => bind (r_int 4) (fun ndyn =>
  bind (r_props ty) (fun v =>
  bind (r_deps npre) (fun pre => bind (r_deps nstat) (fun stat => bind (r_deps ndyn) (fun dyn =>
  ret (mkN name hash (existT _ ty v) stamp time pre stat dyn)))))))))).
End Ptrs.

(** Node::Load, Node.cpp 358-374.  CreateNode with an unknown type has no node to initialise; the hash 0 means the name is hashed again,
    Node.cpp 788-794 ([rehash]: CalcNameHash). *)
Variable rehash : bytes -> N.
Definition r_basic : reader (bytes * N * N) :=
  bind r_str (fun name => bind (r_int 1) (fun ty => bind (r_int 4) (fun hash => fun s =>
  if (ty =? FILE_NODE) || match schema ty with Some _ => true | None => false end
  then Some (Some (name, ty, if hash =? 0 then rehash name else hash), s) else None))).
(** The node part, NodeGraph.cpp 425-438; [alloc i] is the address of the [i]-th node created. *)
Definition r_nodes (alloc : nat -> ptr) : reader graph :=
  bind (r_counted r_basic) (fun bs =>
  let ps := map alloc (seq 0 (List.length bs)) in
  bind (r_each bs (r_ext ps)) (fun ns => ret (combine ps ns))).

(** "$$Settings$$" *)
Definition settings_name : bytes := [36; 36; 83; 101; 116; 116; 105; 110; 103; 115; 36; 36].
(** m_Settings = FindNode( "$$Settings$$" )->CastTo<SettingsNode>(), NodeGraph.cpp 447-448. *)
Definition has_settings (g : graph) : bool := existsb (fun pn => beq (n_name (snd pn)) settings_name && (n_type (snd pn) =? SETTINGS_NODE)) g.

(** Environment part of Load, NodeGraph.cpp 337-423. *)
Definition r_used : reader (bytes * N * N) := bind r_str (fun f => bind (r_int 8) (fun st => bind (r_int 8) (fun h => ret (f, st, h)))).
Definition r_over : reader (option (bytes * bytes)) :=
  bind (r_int 4) (fun n => if n =? 0 then ret None else bind (r_raw n) (fun e => bind r_str (fun lib => ret (Some (e, lib))))).
Definition r_var : reader (bytes * N) := bind r_str (fun f => bind (r_int 4) (fun h => ret (f, h))).
Definition r_fx : reader (list (bytes * bool)) :=
  bind (r_counted r_str) (fun fs => bind (r_counted r_bool) (fun bs => fun s =>
  if (List.length fs =? List.length bs)%nat then Some (Some (combine fs bs), s) else None)).
Definition r_rest (used : list (bytes * N * N)) (alloc : nat -> ptr) : reader (db * graph) :=
  bind r_over (fun o => bind (r_counted r_var) (fun vars => bind (r_int 4) (fun lib => bind r_fx (fun fx =>
  bind (r_nodes alloc) (fun g => ret (mkDB used o vars lib fx, g)))))).

(** LoadResult, with what was loaded. *)
Inductive lresult :=
| MISSING_OR_INCOMPATIBLE | LOAD_ERROR | LOAD_ERROR_MOVED
| REPARSE (d : db) (g : graph) (reg : list (bytes * N))
| OK (d : db) (g : graph) (reg : list (bytes * N)).

(** A file whose stamp changed but not its content gets its stamp refreshed, NodeGraph.cpp 294-331. *)
Definition refresh (w : world) (d : db) : db :=
  mkDB (map (fun u => let '(f, st, h) := u in
                      if w_stamp w f =? st then u
                      else match w_file w f with
                           | Some c => if h64 c =? h then (f, w_stamp w f, h) else u
                           | None => u
                           end) (db_used d)) (db_over d) (db_env d) (db_lib d) (db_fx d).

(** ReadHeaderAndUsedFiles, NodeGraph.cpp 1714-1804, followed by Load, 270-468, on the contents [f] of the file.
    [cont]: Options::m_ContinueAfterDBMove.  [None]: a memory error. *)
Definition load_bytes (cont : bool) (w : world) (reg : list (bytes * N)) (alloc : nat -> ptr) (path : bytes) (f : bytes) : option lresult :=
  match r_raw HEADER (ks_new f) with
  | None => None
  | Some (None, _) => Some LOAD_ERROR
  | Some (Some hd, s) =>
      if negb (beq (firstn 3 hd) [78; 71; 68]) then Some LOAD_ERROR
      else if negb (nth 3 hd 0 =? VERSION) then Some MISSING_OR_INCOMPATIBLE
      else if negb (h64 (skipn (N.to_nat HEADER) f) =? le_value (skipn 8 hd)) then Some LOAD_ERROR
      else match r_str s with
           | None => None
           | Some (None, _) => Some LOAD_ERROR
           | Some (Some orig, s1) =>
               if negb (same_path orig (clean path)) then Some (if cont then MISSING_OR_INCOMPATIBLE else LOAD_ERROR_MOVED)
               else match r_counted r_used s1 with
                    | None => None
                    | Some (None, _) => Some LOAD_ERROR
                    | Some (Some used, s2) =>
                        match must (r_rest used alloc) s2 with
                        | Some (Some (d, g), _) =>
                            if has_settings g
                            then let '(again, reg') := load h32 h64 w d reg in
                                 Some (if again then REPARSE (refresh w d) g reg' else OK (refresh w d) g reg')
                            else None
                        | _ => None
                        end
                    end
           end
  end.
(** Load( fileName ), NodeGraph.cpp 243-268: [None] for a file that cannot be opened. *)
Definition load_file (cont : bool) (w : world) (reg : list (bytes * N)) (alloc : nat -> ptr) (path : bytes) (f : option bytes) : option lresult :=
  match f with None => Some MISSING_OR_INCOMPATIBLE | Some b => load_bytes cont w reg alloc path b end.

(** What Initialize goes on with, NodeGraph.cpp 115-201. *)
Inductive start_with := Fatal | FreshParse | FreshParseKeepingCorrupt | ParseAndMigrate (g : graph) | UseGraph (g : graph).
Definition initialize (cont : bool) (r : lresult) : start_with :=
  match r with
  | MISSING_OR_INCOMPATIBLE => FreshParse
  | LOAD_ERROR => FreshParseKeepingCorrupt
  | LOAD_ERROR_MOVED => if cont then FreshParse else Fatal
  | REPARSE _ g _ => ParseAndMigrate g
  | OK _ g _ => UseGraph g
  end.
End Hashes.
End Schema.

(** ** Putting the pages on disk, FBuild.cpp 375-396.  The file is opened without truncation and written from the start;
    every byte counts as one step, and the final Truncate as one more. *)
Inductive fstep := PutByte (b : N) | Trunc.
Definition save_steps (pages : list bytes) : list fstep := flat_map (fun pg => map PutByte pg) pages ++ [Trunc].
(** The file and the position of the handle. *)
Definition put (st : bytes * nat) (x : fstep) : bytes * nat :=
  let '(f, pos) := st in
  match x with
  | PutByte b => (firstn pos f ++ b :: skipn (S pos) f, S pos)
  | Trunc => (firstn pos f, pos)
  end.
(** The file after [n] steps; a missing file is created empty. *)
Definition file_after (old : option bytes) (pages : list bytes) (n : nat) : bytes :=
  fst (fold_left put (firstn n (save_steps pages)) (match old with Some f => f | None => [] end, 0%nat)).
