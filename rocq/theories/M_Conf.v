(** Model of what a configuration parse observes, what the database records of it, and how a later start decides whether
    the database can be reused.  Sources: FBuild.cpp 560-645, BFF/BFFFileExists.cpp, BFF/BFFFile.cpp 35-75,
    BFF/Tokenizer/BFFTokenizer.cpp 174-216, 997-1080, 1191-1234, Graph/NodeGraph.cpp 215-239, 270-468, 472-527. *)
From Coq Require Import List Arith Bool NArith.
From Verif Require Import M_Bytes.
Import ListNotations.
Local Open Scope N_scope.

(** The outside world: environment variables, file stamps (0 when missing, FileIO::GetFileLastWriteTime), file contents
    ([None]: cannot be opened) and file existence.  Read errors after a successful open are not modelled. *)
Record world := mkW { w_env : bytes -> option bytes; w_stamp : bytes -> N; w_file : bytes -> option bytes; w_exists : bytes -> bool }.

(** A configuration, as the sequence of things its parse asks for; the continuation is everything the parser computes in
    between.  [Inc]: #include or the root file; [Imp]: #import; [IfEnv]: #if exists(..); [IfFile]: #if file_exists(..);
    [Lib]: FBuild::GetLibEnvVar (used when a linker target is set up); [SetEnv]: Settings with .Environment. *)
Inductive conf (R : Type) : Type :=
| Done (r : R)
| Err
| Inc (file : bytes) (k : bytes -> conf R)
| Imp (var : bytes) (k : bytes -> conf R)
| IfEnv (var : bytes) (k : bool -> conf R)
| IfFile (file : bytes) (k : bool -> conf R)
| Lib (k : bytes -> conf R)
| SetEnv (env lib : bytes) (k : conf R).
Arguments Done {R}. Arguments Err {R}. Arguments Inc {R}. Arguments Imp {R}. Arguments IfEnv {R}. Arguments IfFile {R}. Arguments Lib {R}. Arguments SetEnv {R}.

Fixpoint beq (a b : bytes) : bool :=
  match a, b with
  | [], [] => true
  | x :: a', y :: b' => (x =? y) && beq a' b'
  | _, _ => false
  end.
Fixpoint assoc {A} (l : list (bytes * A)) (n : bytes) : option A :=
  match l with [] => None | (m, x) :: r => if beq m n then Some x else assoc r n end.

Section Hashes.
(** xxHash::Calc32 and xxHash3::Calc64Big: any functions. *)
Variables (h32 h64 : bytes -> N).

(** FBuild::m_ImportedEnvironmentVars, m_FileExistsInfo, BFFTokenizer::m_Files (name, contents, stamp, hash),
    FBuild::m_EnvironmentString with m_LibEnvVar.  [st_real]: whether LIB was taken from the real environment (not in the
    code; used only to state theorems). *)
Record state := mkS { st_env : list (bytes * N); st_fx : list (bytes * bool); st_used : list (bytes * (bytes * N * N)); st_over : option (bytes * bytes); st_real : bool }.

(** The hash of a variable: 0 when missing, FBuild.cpp 573-590. *)
Definition ehash (v : option bytes) : N := match v with None => 0 | Some s => h32 s end.
Definition value (v : option bytes) : bytes := match v with None => [] | Some s => s end.
(** ImportEnvironmentVar, FBuild.cpp 571-614: whether it succeeds, the hash handed back ([None]: left as it was), the registry. *)
Definition import_var (reg : list (bytes * N)) (cur : option bytes) (name : bytes) (optional : bool) : bool * option N * list (bytes * N) :=
  match cur, optional with
  | None, false => (false, None, reg)
  | _, _ =>
      let h := ehash cur in
      match assoc reg name with
      | Some h0 => ((h0 =? h), Some h, reg)
      | None => (true, Some h, reg ++ [(name, h)])
      end
  end.
(** CheckFile, BFFFileExists.cpp 22-43. *)
Definition check_file (fx : list (bytes * bool)) (now : bool) (f : bytes) : bool * list (bytes * bool) :=
  match assoc fx f with Some b => (b, fx) | None => (now, fx ++ [(f, now)]) end.
(** GetLibEnvVar, FBuild.cpp 625-638.  "LIB" is 76,73,66. *)
Definition LIB : bytes := [76; 73; 66].
Definition get_lib (over : option (bytes * bytes)) (w : world) : bytes :=
  match over with Some (_, lib) => lib | None => value (w_env w LIB) end.
(** SetEnvironmentString is only called with a non-empty string list by Settings; an empty block leaves the pointer
    non-null but the size 0.  [SetEnv] models the call with a non-empty block. *)

(** The parse.  The world may change between observations: [ws t] is the world at the [t]-th observation.  A file is read
    first and its stamp taken afterwards, BFFFile.cpp 35-75. *)
Fixpoint parse {R} (p : conf R) (ws : nat -> world) (t : nat) (s : state) : option (R * state) :=
  match p with
  | Done r => Some (r, s)
  | Err => None
  | Inc f k =>
      match assoc (st_used s) f with
      | Some (c, _, _) => parse (k c) ws t s
      | None =>
          match w_file (ws t) f with
          | None => None
          | Some c => parse (k c) ws (S (S t))
                       (mkS (st_env s) (st_fx s) (st_used s ++ [(f, (c, w_stamp (ws (S t)) f, h64 c))]) (st_over s) (st_real s))
          end
      end
  | Imp v k =>
      let cur := w_env (ws t) v in
      match import_var (st_env s) cur v false with
      | (true, _, reg) => parse (k (value cur)) ws (S t) (mkS reg (st_fx s) (st_used s) (st_over s) (st_real s))
      | (false, _, _) => None
      end
  | IfEnv v k =>
      (* the result of the call is ignored; the hash variable was initialised to 0 *)
      let '(_, h, reg) := import_var (st_env s) (w_env (ws t) v) v true in
      parse (k (negb (match h with Some x => x | None => 0 end =? 0))) ws (S t) (mkS reg (st_fx s) (st_used s) (st_over s) (st_real s))
  | IfFile f k =>
      let '(b, fx) := check_file (st_fx s) (w_exists (ws t) f) f in
      parse (k b) ws (S t) (mkS (st_env s) fx (st_used s) (st_over s) (st_real s))
  | Lib k =>
      parse (k (get_lib (st_over s) (ws t))) ws (S t)
        (mkS (st_env s) (st_fx s) (st_used s) (st_over s) (match st_over s with None => true | Some _ => st_real s end))
  | SetEnv e l k => parse k ws t (mkS (st_env s) (st_fx s) (st_used s) (Some (e, l)) (st_real s))
  end.

(** What NodeGraph::Save writes before the nodes, NodeGraph.cpp 480-525. *)
Record db := mkDB { db_used : list (bytes * N * N); db_over : option (bytes * bytes); db_env : list (bytes * N); db_lib : N; db_fx : list (bytes * bool) }.
Definition save (w : world) (s : state) : db :=
  mkDB (map (fun u => let '(f, (_, st, h)) := u in (f, st, h)) (st_used s)) (st_over s) (st_env s) (h32 (get_lib (st_over s) w)) (st_fx s).

(** NodeGraph::Load up to the nodes, NodeGraph.cpp 290-423: does the configuration need parsing again, and the registry of
    imported variables afterwards.  [reg] is the registry before. *)
Definition used_changed (w : world) (u : bytes * N * N) : bool :=
  let '(f, st, h) := u in
  if w_stamp w f =? st then false
  else match w_file w f with
       | None => true
       | Some c => negb (h64 c =? h)
       end.
(** The loop over the variables, NodeGraph.cpp 351-386; [last] is importedVarHash, which keeps its value when the import fails. *)
Fixpoint load_vars (w : world) (saved : list (bytes * N)) (last : N) (reg : list (bytes * N)) : bool * list (bytes * N) :=
  match saved with
  | [] => (false, reg)
  | (n, h) :: r =>
      let '(ok, nh, reg1) := import_var reg (w_env w n) n (h =? 0) in
      let last1 := match nh with Some x => x | None => last end in
      let '(rest, reg2) := load_vars w r last1 reg1 in
      (negb ok || negb (last1 =? h) || rest, reg2)
  end.
Definition load (w : world) (d : db) (reg : list (bytes * N)) : bool * list (bytes * N) :=
  let '(ev, reg1) := load_vars w (db_env d) 0 reg in
  let libnow := match db_over d with Some (_, lib) => h32 lib | None => h32 (get_lib None w) end in
  (existsb (used_changed w) (db_used d) || ev || negb (db_lib d =? libnow) || existsb (fun x => negb (Bool.eqb (w_exists w (fst x)) (snd x))) (db_fx d), reg1).

(** The state a parse starts from after a database was loaded (or not) in the same process, NodeGraph.cpp 115-201. *)
Definition start (reg : list (bytes * N)) : state := mkS reg [] [] None false.
End Hashes.
