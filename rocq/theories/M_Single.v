(** Processes that build in one folder: Code/Tools/FBuild/FBuild/Main.cpp, Main 107-170 and 250-267, WrapperMainProcess 272-322,
    WrapperIntermediateProcess 326-342, and Code/Core/Process/SystemMutex.cpp, TryLock 40-78 and Unlock 95-108, on Linux.
    All processes have the same folder, and so the same names of locks (FBuildOptions.cpp 632-635).  The lock of a process that ends,
    however it ends, is free again: flock belongs to the handle, which no program it starts inherits (O_CLOEXEC).
    The intermediate process only starts the final one: one step here.  What is built is not modelled. *)
From Coq Require Import List Arith Bool.
Import ListNotations.

(** Where a process is.  Without wrapper: [NTry] before 118, [NBuild] after it.  Main process of a wrapper: [MTry] before 118, [MRun] in
    WrapperMainProcess with the shared memory made, [MWait c] from 304 on, with the final process [c].  Final process: [FTry] in the loop of 149,
    [FLocked] before 169, [FBuild] after it. *)
Inductive phase := Absent | NTry | NBuild | MTry | MRun | MWait (c : nat) | FTry | FLocked | FBuild | Gone.
(** The two locks, with their owners, and Started in the shared memory. *)
Record state := State { main_lock : option nat; final_lock : option nat; started : bool; at_ : nat -> phase }.
Definition start : state := State None None false (fun _ => Absent).

Definition upd (f : nat -> phase) (p : nat) (x : phase) : nat -> phase := fun q => if q =? p then x else f q.
Definition free (l : option nat) (p : nat) : option nat := match l with Some q => if q =? p then None else l | None => None end.
(** A process ends: its destructors, or the system, release its locks. *)
Definition gone (s : state) (p : nat) : state := State (free (main_lock s) p) (free (final_lock s) p) (started s) (upd (at_ s) p Gone).
Definition go (s : state) (p : nat) (x : phase) : state := State (main_lock s) (final_lock s) (started s) (upd (at_ s) p x).

(** [Begin p w]: the user starts process [p], with a wrapper or without.  [Step p]: [p] makes its next step, if it does not have to wait.
    [GiveUp p]: without -wait, or stopped.  [Spawn p c]: [p] starts the final process [c].  [Kill p]: [p] is killed, crashes or fails otherwise. *)
Inductive event := Begin (p : nat) (wrapper : bool) | Step (p : nat) | GiveUp (p : nat) | Spawn (p c : nat) | Kill (p : nat).
Definition step (s : state) (e : event) : option state :=
  match e with
  | Begin p w => match at_ s p with Absent => Some (go s p (if w then MTry else NTry)) | _ => None end
  | Step p =>
      match at_ s p with
      | NTry => match main_lock s with None => Some (State (Some p) (final_lock s) (started s) (upd (at_ s) p NBuild)) | Some _ => Some s end (* 118, 127 *)
      | MTry => match main_lock s with None => Some (State (Some p) (final_lock s) false (upd (at_ s) p MRun)) | Some _ => Some s end (* 118, 127; 276-279 *)
      | FTry => match final_lock s with
                | None => Some (State (main_lock s) (Some p) (started s) (upd (at_ s) p FLocked)) (* 149 *)
                | Some _ => match main_lock s with None => Some (gone s p) | Some _ => Some s end (* 152-156 *)
                end
      | FLocked => Some (State (main_lock s) (final_lock s) true (upd (at_ s) p FBuild)) (* 160-169 *)
      | MWait c => if started s then match final_lock s with None => Some (gone s p) | Some _ => Some s end else Some s (* 305-321 *)
      | NBuild | FBuild => Some (gone s p) (* 267 *)
      | _ => None
      end
  | GiveUp p => match at_ s p with NTry | MTry => match main_lock s with Some _ => Some (gone s p) | None => None end | _ => None end (* 120-124, 130-133 *)
  | Spawn p c => match at_ s p, at_ s c with MRun, Absent => Some (State (main_lock s) (final_lock s) (started s) (upd (upd (at_ s) p (MWait c)) c FTry)) | _, _ => None end (* 282-302, 326-342 *)
  | Kill p => match at_ s p with Absent | Gone => None | _ => Some (gone s p) end
  end.
Fixpoint run (s : state) (es : list event) : option state :=
  match es with [] => Some s | e :: r => match step s e with None => None | Some s' => run s' r end end.
