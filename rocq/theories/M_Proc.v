(** Model of running a program and reading what it prints: Code/Core/Process/Process.cpp as compiled for Linux and macOS, and of what Exec() and
    Test() make of it: Code/Tools/FBuild/FBuildCore/Graph/ExecNode.cpp and TestNode.cpp.  Reader, program and the processes it starts take
    steps in any order; a pipe holds at most [cap] bytes, and who writes to a full pipe waits. *)
From Coq Require Import String Ascii List Arith Bool ZArith Lia.
From Verif Require Import M_Path M_Args.
Import ListNotations.
Local Open Scope list_scope.

(** What a program does: it writes to its output ([true]) or its error output ([false]), byte after byte, and ends with a status. *)
Definition act : Type := bool * ascii.

(** Where the reader is in ReadAllData, lines 748-830, and Read, 871-908.  [ReadOut o e]: select has found data in the pipes as [o] and [e] say.
    A pipe whose writers are gone is found ready too, but nothing is read from it: it is the same as one in which select finds nothing. *)
Inductive place := Top | Choose | ReadOut (o e : bool) | ReadErr (e : bool) | Check | Done (whole : bool).

Record world := World {
  todo : list act; ended : option Z;           (* the program: what it will still do; its status once it has ended *)
  pipe_o : str; pipe_e : str;                   (* what has been written and not read *)
  wrote_o : str; wrote_e : str;                 (* all that has been written, by the program and by processes it has started *)
  clock : nat; abort : bool;                    (* milliseconds since the start of ReadAllData; the abort flag *)
  at_ : place; got_o : str; got_e : str; prev_o : nat; prev_e : nat; exited : bool    (* the reader *)
}.

(** Process::Spawn to the start of ReadAllData, lines 748-755. *)
Definition spawned (script : list act) : world := World script None [] [] [] [] 0 false Top [] [] 0 0 false.

Inductive event :=
| Run                             (* the program takes a step *)
| Child (o : bool) (b : ascii)    (* a process that the program has started writes *)
| Tick (ms : nat)
| Cancel
| Step (n : nat).                 (* the reader takes a step; a read gives [n + 1] bytes, or what there is *)

Section Run.
Context (cap limit : nat) (code : Z).      (* [limit] is timeOutMS, [code] the status with which the program ends by itself *)

(** The system: a write to a pipe. *)
Definition put (o : bool) (b : ascii) (w : world) : option world :=
  if o
  then if length (pipe_o w) <? cap
       then Some (World (todo w) (ended w) (pipe_o w ++ [b]) (pipe_e w) (wrote_o w ++ [b]) (wrote_e w) (clock w) (abort w) (at_ w) (got_o w) (got_e w) (prev_o w) (prev_e w) (exited w))
       else None
  else if length (pipe_e w) <? cap
       then Some (World (todo w) (ended w) (pipe_o w) (pipe_e w ++ [b]) (wrote_o w) (wrote_e w ++ [b]) (clock w) (abort w) (at_ w) (got_o w) (got_e w) (prev_o w) (prev_e w) (exited w))
       else None.
Definition set_program (t : list act) (e : option Z) (w : world) : world :=
  World t e (pipe_o w) (pipe_e w) (wrote_o w) (wrote_e w) (clock w) (abort w) (at_ w) (got_o w) (got_e w) (prev_o w) (prev_e w) (exited w).
Definition go (p : place) (w : world) : world :=
  World (todo w) (ended w) (pipe_o w) (pipe_e w) (wrote_o w) (wrote_e w) (clock w) (abort w) p (got_o w) (got_e w) (prev_o w) (prev_e w) (exited w).
Definition run_program (w : world) : world :=
  match ended w with
  | Some _ => w
  | None =>
      match todo w with
      | [] => set_program [] (Some code) w
      | (o, b) :: r => match put o b w with Some w' => set_program r None w' | None => w end
      end
  end.
(** kill( m_ChildPID, SIGKILL ), 964-973, and KillProcessTree: a process that is killed by signal 9 has the status -9, lines 618-621. *)
Definition kill (w : world) : world := match ended w with Some _ => w | None => set_program (todo w) (Some (-9)%Z) w end.

(** ReadCommon, lines 912-935: what is read is appended. *)
Definition read_o (n : nat) (w : world) : world :=
  World (todo w) (ended w) (skipn (S n) (pipe_o w)) (pipe_e w) (wrote_o w) (wrote_e w) (clock w) (abort w) (at_ w)
        (got_o w ++ firstn (S n) (pipe_o w)) (got_e w) (prev_o w) (prev_e w) (exited w).
Definition read_e (n : nat) (w : world) : world :=
  World (todo w) (ended w) (pipe_o w) (skipn (S n) (pipe_e w)) (wrote_o w) (wrote_e w) (clock w) (abort w) (at_ w)
        (got_o w) (got_e w ++ firstn (S n) (pipe_e w)) (prev_o w) (prev_e w) (exited w).
(** Lines 764-765. *)
Definition note (w : world) : world :=
  World (todo w) (ended w) (pipe_o w) (pipe_e w) (wrote_o w) (wrote_e w) (clock w) (abort w) Choose (got_o w) (got_e w) (length (got_o w)) (length (got_e w)) (exited w).
Definition see_exit (w : world) : world :=
  World (todo w) (ended w) (pipe_o w) (pipe_e w) (wrote_o w) (wrote_e w) (clock w) (abort w) Top (got_o w) (got_e w) (prev_o w) (prev_e w) true.
Definition is_empty (s : str) : bool := match s with [] => true | _ => false end.

(** The body of the loop, lines 755-827, one system call at a time. *)
Definition read_step (n : nat) (w : world) : world :=
  match at_ w with
  | Top => if abort w then go (Done true) (kill w) else note w
  | Choose => go (ReadOut (negb (is_empty (pipe_o w))) (negb (is_empty (pipe_e w)))) w
  | ReadOut o e => go (ReadErr e) (if o then read_o n w else w)
  | ReadErr e => go Check (if e then read_e n w else w)
  | Check =>
      if negb (prev_o w =? length (got_o w)) || negb (prev_e w =? length (got_e w)) then go Top w
      else match ended w with
           | None => if (0 <? limit) && (limit <=? clock w) then go (Done false) (kill w) else go Top w
           | Some _ => if exited w then go (Done true) w else see_exit w
           end
  | Done _ => w
  end.

Definition step (w : world) (e : event) : world :=
  match e with
  | Run => run_program w
  | Child o b => match put o b w with Some w' => w' | None => w end
  | Tick d => World (todo w) (ended w) (pipe_o w) (pipe_e w) (wrote_o w) (wrote_e w) (clock w + d) (abort w) (at_ w) (got_o w) (got_e w) (prev_o w) (prev_e w) (exited w)
  | Cancel => World (todo w) (ended w) (pipe_o w) (pipe_e w) (wrote_o w) (wrote_e w) (clock w) true (at_ w) (got_o w) (got_e w) (prev_o w) (prev_e w) (exited w)
  | Step n => read_step n w
  end.
Definition run (w : world) (h : list event) : world := fold_left step h w.
End Run.

(** *** What the nodes make of it *)
(** What is found when the program has been run: whether it could be started, whether the build was aborted, whether its output was read to
    the end (ReadAllData), its status and its output. *)
Record outcome := Outcome { started : bool; aborted : bool; whole : bool; status : Z; out : str; err : str }.
Inductive result := Ok_ | Failed_ | Aborted_.
(** The file of the node: what a write leaves in it when [room] bytes fit on the disk; [None] if it cannot be opened. *)
Definition written (openable : bool) (room : nat) (s : str) : option str := if openable then Some (firstn room s) else None.

(** ExecNode::DoBuild, ExecNode.cpp 190-264; [code] is m_ExecReturnCode, [std] is m_ExecUseStdOutAsOutput.  The result, what is done to the
    file and whether the output is shown ([show]: m_ExecAlwaysShowOutput or m_ShowCommandOutput). *)
Definition exec (code : Z) (std show openable : bool) (room : nat) (r : outcome) (old : option str) : result * option str * bool :=
  if negb (started r) then (if aborted r then Aborted_ else Failed_, old, false)
  else if aborted r then (Aborted_, old, false)
  else
    let failed := negb (Z.eqb (status r) code) in
    if failed then (Failed_, old, true)
    else if std then (Ok_, match written openable room (out r) with Some s => Some s | None => old end, show)
    else (Ok_, old, show).

(** TestNode::DoBuild, TestNode.cpp 183-267. *)
Definition test (show openable : bool) (room : nat) (r : outcome) (old : option str) : result * option str * bool :=
  if negb (started r) then (if aborted r then Aborted_ else Failed_, old, false)
  else if aborted r then (Aborted_, old, false)
  else
    let timed := negb (whole r) in
    let bad := timed || negb (Z.eqb (status r) 0) in
    let shown := bad || show in
    match written openable room (out r ++ err r) with
    | None => (Failed_, old, shown)
    | Some s =>
        if length s <? length (out r ++ err r) then (Failed_, Some s, shown)
        else (if bad then Failed_ else Ok_, Some s, shown)
    end.

(** WaitForExit, Process.cpp 639-712, after ReadAllData. *)
Definition outcome_of (w : world) : outcome :=
  Outcome true (abort w) (match at_ w with Done b => b | _ => false end) (match ended w with Some s => s | None => 0%Z end) (got_o w) (got_e w).

(** *** The arguments of Exec() *)
Definition pct1 : str := L "%1".
Definition pct2 : str := L "%2".
Definition q1 : str := quote :: L "%1" ++ [quote].
Definition q2 : str := quote :: L "%2" ++ [quote].
(** A static dependency after the first: a file, or a directory list with its files. *)
Inductive input := File (name : str) | Dir (names : list str).
Definition sep (first : bool) (s : str) : str := if first then s else s ++ [space].
(** ExecNode::GetInputFiles, 371-402. *)
Fixpoint add_names (pre post : str) (l : list str) (first : bool) (s : str) : bool * str :=
  match l with [] => (first, s) | x :: r => add_names pre post r false (sep first s ++ pre ++ x ++ post) end.
Fixpoint input_files (pre post : str) (l : list input) (first : bool) (s : str) : str :=
  match l with
  | [] => s
  | File x :: r => input_files pre post r false (sep first s ++ pre ++ x ++ post)
  | Dir xs :: r => let '(f, t) := add_names pre post xs first s in input_files pre post r f t
  end.
Definition drop_end (n : nat) (s : str) : str := firstn (length s - n) s.
(** ExecNode::GetFullArgs, 312-367. *)
Definition exec_token (nm : str) (ins : list input) (t s : str) : str :=
  (if ends_with t pct1 then input_files (drop_end 2 t) [] ins true s
   else if ends_with t q1 then input_files (drop_end 3 t) [quote] ins true s
   else if ends_with t pct2 then s ++ drop_end 2 t ++ nm
   else if ends_with t q2 then s ++ drop_end 3 t ++ nm ++ [quote]
   else s ++ t) ++ [space].
Definition exec_args (nm : str) (ins : list input) (options : str) : str := fold_left (fun s t => exec_token nm ins t s) (tokenize space options) [].
(** Process::Spawn, Process.cpp 328-364: the arguments that the program is given. *)
Definition argv (args : str) : list str := map remove_quotes (tokenize space args).
