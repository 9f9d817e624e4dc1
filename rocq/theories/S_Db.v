(** Vocabulary for the properties of the dependency database: what it means for a loaded graph to be the saved one, which
    graphs can exist, and what a file header must look like. *)
From Coq Require Import List Arith Bool NArith ZArith.
From Verif Require Import M_Bytes M_Stream M_Codec M_Conf M_Db.
Import ListNotations.
Local Open Scope N_scope.

Section Schema.
Variable schema : N -> option rinfo.
Notation node := (node schema).
Notation graph := (graph schema).

(** ** Renaming of addresses: everything else stays as it is *)
Fixpoint ren_val (f : ptr -> ptr) (t : ptype) : val t -> val t :=
  match t return val t -> val t with
  | TStruct r => fun v => ren_vals f r v
  | TStructs r => fun v => map (ren_vals f r) v
  | TNode => fun v => match v with Some p => Some (f p) | None => None end
  | TNodes => fun v => map f v
  | _ => fun v => v
  end
with ren_vals (f : ptr -> ptr) (r : rinfo) : vals r -> vals r :=
  match r return vals r -> vals r with
  | REnd => fun v => v
  | RProp p q => fun v => (ren_val f p (fst v), ren_vals f q (snd v))
  | RSuper q => fun v => ren_vals f q v
  end.
Definition ren_members (f : ptr -> ptr) (file : bool) (o : option rinfo) : members file o -> members file o :=
  match file, o return members file o -> members file o with
  | true, _ => fun v => v
  | false, Some r => ren_vals f r
  | false, None => fun v => v
  end.
Definition ren_kind (f : ptr -> ptr) (k : {ty : N & props schema ty}) : {ty : N & props schema ty} :=
  existT _ (projT1 k) (ren_members f (projT1 k =? FILE_NODE) (schema (projT1 k)) (projT2 k)).

(** The same dependency: on the corresponding node, same recorded stamp, same weak flag. *)
Definition same_dep (f : ptr -> ptr) (d d' : dep) : Prop := dep_node d' = f (dep_node d) /\ dep_stamp d' = dep_stamp d /\ dep_weak d' = dep_weak d.
(** The same target.  Source files (FileNodes) carry only their name: their stamp is taken anew in every build. *)
Definition same_node (f : ptr -> ptr) (n n' : node) : Prop :=
  n_name _ n' = n_name _ n /\ n_hash _ n' = n_hash _ n /\ n_type _ n' = n_type _ n /\ n_kind _ n' = ren_kind f (n_kind _ n) /\
  (n_type _ n <> FILE_NODE ->
   n_stamp _ n' = n_stamp _ n /\ n_time _ n' = n_time _ n /\
   Forall2 (same_dep f) (n_pre _ n) (n_pre _ n') /\ Forall2 (same_dep f) (n_static _ n) (n_static _ n') /\ Forall2 (same_dep f) (n_dyn _ n) (n_dyn _ n')).
(** The same graph: the same targets in the same order; [f] gives the new address of each. *)
Definition same_graph (g g' : graph) : Prop :=
  exists f : ptr -> ptr,
    (forall p q, In p (map fst g) -> In q (map fst g) -> f p = f q -> p = q) /\
    Forall2 (fun a b => fst b = f (fst a) /\ same_node f (snd a) (snd b)) g g'.

(** ** Graphs that can exist: numbers fit their C++ types, every node pointer points to a node of the graph *)
Definition small {A} (l : list A) : Prop := N.of_nat (List.length l) < 4294967296.
Fixpoint fits_val (ps : list ptr) (t : ptype) : val t -> Prop :=
  match t return val t -> Prop with
  | TStr => fun v => small v
  | TStrs => fun v => small v /\ Forall small v
  | TBool => fun _ => True
  | TU8 => fun v => v < 256
  | TI32 => fun v => (-2147483648 <= v < 2147483648)%Z
  | TU32 => fun v => v < 4294967296
  | TU64 => fun v => v < 18446744073709551616
  | TStruct r => fun v => fits_vals ps r v
  | TStructs r => fun v => small v /\ Forall (fits_vals ps r) v
  | TNode => fun v => match v with Some p => In p ps | None => True end
  | TNodes => fun v => small v /\ Forall (fun p => In p ps) v
  end
with fits_vals (ps : list ptr) (r : rinfo) : vals r -> Prop :=
  match r return vals r -> Prop with
  | REnd => fun _ => True
  | RProp p q => fun v => fits_val ps p (fst v) /\ fits_vals ps q (snd v)
  | RSuper q => fun v => fits_vals ps q v
  end.
Definition fits_members (ps : list ptr) (file : bool) (o : option rinfo) : members file o -> Prop :=
  match file, o return members file o -> Prop with
  | true, _ => fun _ => True
  | false, Some r => fits_vals ps r
  | false, None => fun _ => False
  end.
Definition fits_deps (ps : list ptr) (l : list dep) : Prop := small l /\ Forall (fun d => In (dep_node d) ps /\ dep_stamp d < 18446744073709551616) l.
Definition fits_node (rehash : bytes -> N) (ps : list ptr) (n : node) : Prop :=
  small (n_name _ n) /\ n_hash _ n < 4294967296 /\ n_hash _ n = rehash (n_name _ n) /\ n_type _ n < 256 /\
  fits_members ps (n_type _ n =? FILE_NODE) (schema (n_type _ n)) (projT2 (n_kind _ n)) /\
  n_stamp _ n < 18446744073709551616 /\ n_time _ n < 4294967296 /\
  fits_deps ps (n_pre _ n) /\ fits_deps ps (n_static _ n) /\ fits_deps ps (n_dyn _ n).
Definition real_graph (rehash : bytes -> N) (g : graph) : Prop :=
  NoDup (map fst g) /\ N.of_nat (List.length g) < 4294967295 /\ Forall (fun pn => fits_node rehash (map fst g) (snd pn)) g /\
  (exists pn, In pn g /\ n_name _ (snd pn) = settings_name /\ n_type _ (snd pn) = SETTINGS_NODE).
(** The configuration part. *)
Definition real_db (d : db) : Prop :=
  (small (db_used d) /\ Forall (fun u => small (fst (fst u)) /\ snd (fst u) < 18446744073709551616 /\ snd u < 18446744073709551616) (db_used d)) /\
  (match db_over d with None => True | Some (e, lib) => e <> [] /\ small e /\ small lib end) /\
  (small (db_env d) /\ Forall (fun v => small (fst v) /\ snd v < 4294967296) (db_env d)) /\
  db_lib d < 4294967296 /\
  (small (db_fx d) /\ Forall (fun x => small (fst x)) (db_fx d)).

End Schema.

(** ** File headers *)
(** Sixteen bytes at least, the identifier, the version, and a content hash that is the hash of the rest. *)
Definition header_ok (h64 : bytes -> N) (f : bytes) : Prop :=
  16 <= blen f /\ firstn 4 f = [78; 71; 68; 194] /\ le_value (firstn 8 (skipn 8 f)) = h64 (skipn 16 f).
(** Two different contents with the same content hash. *)
Definition collide (h64 : bytes -> N) (a b : bytes) : Prop := a <> b /\ h64 a = h64 b.
