(** How workers say in a shared folder that they can be used, and how a
    client finds them there.

    Models Tools/FBuild/FBuildCore/WorkerPool/WorkerBrokerage.cpp,
    WorkerBrokerageServer.cpp and WorkerBrokerageClient.cpp, with
    TCPConnectionPool::GetAddressAsString of
    Core/Network/TCPConnectionPool.cpp (lines 199-208).

    Simplified: time is counted in whole seconds, where the code has floats;
    all machines and the file server have the same clock; a call takes no
    time; the text inside of a token is left out, as no client reads it. *)

From Coq Require Import String Ascii List Bool Arith NArith ZArith.
From Coq Require Import DecimalString.
From Verif Require Import M_Path M_Args.
Import ListNotations.
Local Open Scope list_scope.
Local Open Scope Z_scope.

(** AString::operator ==. *)
Definition str_eqb (a b : str) : bool := if list_eq_dec ascii_dec a b then true else false.

(** %u of printf. *)
Definition number (n : N) : str := L (NilEmpty.string_of_uint (N.to_uint n)).

(** TCPConnectionPool::GetAddressAsString, lines 199-208. *)
Definition dotted (a : N) : str :=
  (number (a mod 256) ++ L "." ++ number ((a / 256) mod 256) ++ L "." ++ number ((a / 65536) mod 256) ++ L "." ++
   number ((a / 16777216) mod 256))%N.

(** The files of the folder, each with the time of its last change. *)
Definition files := list (str * Z).
Definition here (f : files) (p : str) : bool := existsb (fun x => str_eqb (fst x) p) f.
(** FileIO::FileDelete; [ok]: whether the file server did as it was told.  A
    file that does not exist is not an error for the callers. *)
Definition remove (ok : bool) (f : files) (p : str) : files := if ok then filter (fun x => negb (str_eqb (fst x) p)) f else f.
(** A file that is written, or the time of which is set, at [t]. *)
Definition write (ok : bool) (f : files) (p : str) (t : Z) : files := if ok then (p, t) :: remove true f p else f.

(** WorkerBrokerageServer, WorkerBrokerageServer.h lines 31-39.  A timer is
    modelled by the moment at which it was started. *)
Record server := Server {
  avail : bool; host : str; domain : str; ip : str; token : str;
  t_update : Z; t_ip : Z; t_clean : Z; settings : Z
}.

(** Lines 20-26, sBrokerage... *)
Definition between_cleans : Z := 12 * 60 * 60.
Definition clean_older : Z := 24 * 60 * 60.
Definition between_updates : Z := 10.
Definition between_lookups : Z := 5 * 60.

(** WorkerBrokerageServer::WorkerBrokerageServer, lines 28-35. *)
Definition fresh (now : Z) : server := Server false [] [] [] [] now now (now - between_cleans) 0.

(** What a call finds: its argument, the names and the address of the machine
    (zero if the name has none), the time of the settings, and whether the
    file server does as it is told. *)
Record call := Call_ {
  want : bool; my_host : str; my_domain : str; my_ip : N; my_settings : Z;
  can_remove : bool; can_touch : bool; can_write : bool; can_list : bool
}.

Section Folder.
(** m_BrokerageRoots[ 0 ], which ends in a slash. *)
Variable root : str.

(** WorkerBrokerageServer::UpdateBrokerageFilePath, lines 228-242. *)
Definition token_path (s : server) : str := root ++ match ip s with [] => host s | _ => ip s end.
Definition set_token (s : server) : server :=
  Server (avail s) (host s) (domain s) (ip s) (token_path s) (t_update s) (t_ip s) (t_clean s) (settings s).

(** Lines 87-92. *)
Definition address (a : N) : str := if (N.eqb a 0 || N.eqb a 16777343)%bool then [] else dotted a.

(** Lines 75-113: the names are looked up if they are not known or were
    looked up long ago; when they have changed, the old token goes. *)
Definition look_up (now : Z) (c : call) (s : server) (f : files) : server * files * bool :=
  if (match host s with [] => true | _ => false end || match ip s with [] => true | _ => false end ||
      (between_lookups <=? now - t_ip s))%bool
  then
    let a := address (my_ip c) in
    if (negb (str_eqb (my_host c) (host s)) || negb (str_eqb (my_domain c) (domain s)) || negb (str_eqb a (ip s)))%bool
    then (set_token (Server (avail s) (my_host c) (my_domain c) a (token s) (t_update s) now (t_clean s) (settings s)),
          remove (can_remove c) f (token s), true)
    else (Server (avail s) (host s) (domain s) (ip s) (token s) (t_update s) now (t_clean s) (settings s), f, false)
  else (s, f, false).

(** Lines 63-186. *)
Definition publish (now : Z) (c : call) (s : server) (f : files) : server * files :=
  if between_updates <=? now - t_update s
  then
    let '(s1, f1, changed) := look_up now c s f in
    let create := ((settings s <? my_settings c) || changed)%bool in
    (* lines 115-124 *)
    let touched := (negb create && can_touch c && here f1 (token s1))%bool in
    let f2 := write touched f1 (token s1) now in
    (* lines 126-183 *)
    let f3 := if touched then f2 else write (can_write c) f2 (token s1) now in
    let written := (negb touched && can_write c)%bool in
    (Server (avail s1) (host s1) (domain s1) (ip s1) (token s1) now (t_ip s1) (t_clean s1)
            (if written then my_settings c else settings s1), f3)
  else (s, f).

(** Lines 187-195. *)
Definition withdraw (now : Z) (c : call) (s : server) (f : files) : server * files :=
  if avail s
  then (Server (avail s) (host s) (domain s) (ip s) (token s) now (t_ip s) (t_clean s) (settings s),
        remove (can_remove c) f (token s))
  else (s, f).

(** Lines 198-225. *)
Definition clean (now : Z) (c : call) (s : server) (f : files) : server * files :=
  if between_cleans <=? now - t_clean s
  then (Server (avail s) (host s) (domain s) (ip s) (token s) (t_update s) (t_ip s) now (settings s),
        if can_list c
        then filter (fun x => negb ((snd x <? now) && (clean_older <? now - snd x) && can_remove c)) f
        else f)
  else (s, f).

(** WorkerBrokerageServer::SetAvailability, lines 48-226, when there is a
    folder. *)
Definition set_availability (now : Z) (c : call) (s : server) (f : files) : server * files :=
  let s0 := set_token s in
  let '(s1, f1) := if want c then publish now c s0 f else withdraw now c s0 f in
  let s2 := Server (want c) (host s1) (domain s1) (ip s1) (token s1) (t_update s1) (t_ip s1) (t_clean s1) (settings s1) in
  clean now c s2 f1.

(** WorkerBrokerageServer::~WorkerBrokerageServer, lines 37-46. *)
Definition stop (ok : bool) (s : server) (f : files) : files := if avail s then remove ok f (token s) else f.

(** Many workers that share the folder.  A worker that crashes or stops is
    started again at once; it can stay silent as long as it likes. *)
Record world := World { clock : Z; folder : files; servers : nat -> server }.
Inductive event := Tick (d : N) | Call (i : nat) (c : call) | Crash (i : nat) | Stop (i : nat) (ok : bool).

Definition upd (f : nat -> server) (i : nat) (s : server) : nat -> server := fun j => if Nat.eqb j i then s else f j.

Definition step (w : world) (e : event) : world :=
  match e with
  | Tick d => World (clock w + Z.of_N d) (folder w) (servers w)
  | Call i c =>
      let '(s, f) := set_availability (clock w) c (servers w i) (folder w) in
      World (clock w) f (upd (servers w) i s)
  | Crash i => World (clock w) (folder w) (upd (servers w) i (fresh (clock w)))
  | Stop i ok => World (clock w) (stop ok (servers w i) (folder w)) (upd (servers w) i (fresh (clock w)))
  end.

Definition start (now : Z) (f : files) : world := World now f (fun _ => fresh now).
Definition run (w : world) (h : list event) : world := fold_left step h w.
End Folder.

(** WorkerBrokerage::InitBrokerage, WorkerBrokerage.cpp lines 22-87: the
    folders that FASTBUILD_BROKERAGE_PATH names; [cur] is the piece at hand,
    last character first.  The version is the one of Protocol.h line 34. *)
Fixpoint drop_spaces (s : str) : str :=
  match s with
  | c :: r => if Ascii.eqb c " " then drop_spaces r else s
  | [] => []
  end.
Definition trim (s : str) : str := rev (drop_spaces (rev (drop_spaces s))).
Fixpoint pieces (cur s : str) : list str :=
  match s with
  | [] => [rev cur]
  | c :: r => if Ascii.eqb c ";" then rev cur :: pieces [] r else pieces (c :: cur) r
  end.
Definition roots (env : str) : list str := map (fun p => trim p ++ L "/main/22.linux/") (pieces [] env).

(** What comes after the last slash; the code is undefined if there is none,
    WorkerBrokerageClient.cpp lines 89-90. *)
Fixpoint after_slash (cur : option str) (s : str) : option str :=
  match s with
  | [] => cur
  | c :: r => if Ascii.eqb c "/" then after_slash (Some r) r else after_slash cur r
  end.

(** WorkerBrokerageClient::FindWorkers, WorkerBrokerageClient.cpp lines
    26-101.  [workers] and [path]: the variables FASTBUILD_WORKERS and
    FASTBUILD_BROKERAGE_PATH; [list_dir]: the paths of the files of a
    folder, none if it cannot be read; [mine]: the addresses of the machine.
    None: undefined. *)
Fixpoint names (mine : list str) (ps : list str) : option (list str) :=
  match ps with
  | [] => Some []
  | p :: r =>
      match after_slash None p, names mine r with
      | Some n, Some l => Some (if existsb (str_eqb n) mine then l else n :: l)
      | _, _ => None
      end
  end.
Definition find_workers (workers path : option str) (list_dir : str -> list str) (mine : list str) : option (list str) :=
  match match workers with Some w => tokenize ";" w | None => [] end with
  | [] => match path with
          | None => Some []
          | Some p => names mine (flat_map list_dir (roots p))
          end
  | l => Some l
  end.
