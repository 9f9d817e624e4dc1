(** How much of a worker is offered: Code/Tools/FBuild/FBuildWorker/Worker/IdleDetection.cpp 68-111,
    Worker/Worker.cpp 306-363, Worker/WorkerSettings.cpp, and FBuildCore/WorkerPool/WorkerThreadRemote.cpp 113-122. *)
From Coq Require Import List Arith Bool NArith ZArith QArith Qround.
From Verif Require Import M_Bytes.
Import ListNotations.
Local Open Scope N_scope.

(** The members of IdleDetection that Update changes (IdleDetection.h).  Shares are floats there and exact
    fractions here; [None] is a float that is no number. *)
Record detect := Detect { idle : bool; share : option Q; smooth : Z; share_smooth : Z }.
(** The constructor, lines 42-60. *)
Definition fresh : detect := Detect false (Some 0%Q) 0 0.
(** What IsIdleInternal, lines 115-172, finds each time: less used than the threshold, and the share that is free.
    How it finds them is not modelled. *)
Record reading := Reading { quiet : bool; free : option Q }.
(** Core/Math: Clamp( x, 0, 10 ). *)
Definition clamp (x : Z) : Z := Z.max 0 (Z.min 10 x).
(** Operator >= of floats. *)
Definition at_least (a b : option Q) : bool := match a, b with Some x, Some y => Qle_bool y x | _, _ => false end.
(** Update, lines 68-111. *)
Definition update (r : reading) (d : detect) : detect :=
  let s := clamp (if quiet r then smooth d + 1 else smooth d - 2)%Z in
  let i := if Z.eqb s 10 then true else idle d in
  let i' := if Z.eqb s 0 then false else i in
  let f := clamp (if at_least (free r) (share d) then share_smooth d + 1 else share_smooth d - 2)%Z in
  Detect i' (if Z.eqb f 10 || Z.eqb f 0 then free r else share d) s f.
Definition updates (l : list reading) (d : detect) : detect := fold_left (fun d r => update r d) l d.

(** WorkerSettings.h, lines 21-27. *)
Definition DISABLED : N := 0.
Definition WHEN_IDLE : N := 1.
Definition DEDICATED : N := 2.
Definition PROPORTIONAL : N := 3.
(** UpdateAvailability, Worker.cpp 306-363, after the update of the idle detection: the CPUs that are offered.
    The mode is the number it is stored as: the switch has no default. *)
Definition offered (mode cpus : N) (restart disk memory : bool) (d : detect) : N :=
  let n := if N.eqb mode WHEN_IDLE then (if idle d then cpus else 0)
           else if N.eqb mode PROPORTIONAL then
             match share d with
             | Some q => if Qle_bool 0 q && Qle_bool q 1 then Z.to_N (Qfloor (inject_Z (Z.of_N cpus) * q)) else 0
             | None => 0
             end
           else if N.eqb mode DISABLED then 0
           else cpus in
  if restart || negb disk || negb memory then 0 else n.
(** IsEnabled, WorkerThreadRemote.cpp 113-122: the threads are numbered from 1. *)
Definition enabled (offer : N) (id : nat) : bool := N.leb (N.of_nat id) offer.

(** WorkerSettings.h, lines 50-58. *)
Record settings := Settings { s_mode : N; threshold : N; s_cpus : N; minimized : N; free_memory : N }.
(** FileStream::Read of a value of [n] bytes: the bytes that there are, over those of the old value. *)
Definition read (n : nat) (old : N) (f : bytes) : N * bytes :=
  let b := firstn n f in (le_value (b ++ skipn (List.length b) (le_bytes n old)), skipn n f).
(** Load, WorkerSettings.cpp 92-120; [None]: there is no file.  [junk]: what the variable of line 107 holds,
    which is not initialized. *)
Definition load (junk : N) (f : option bytes) (s : settings) : settings :=
  match f with
  | None => s
  | Some f =>
      let '(header, f) := read 4 0 f in
      let version := header / 16777216 in
      if N.ltb version 1 || N.ltb 4 version then s
      else
        let '(mode, f) := read 4 junk f in
        let '(t, f) := if N.leb 4 version then read 4 (threshold s) f else (threshold s, f) in
        let '(c, f) := read 4 (s_cpus s) f in
        let '(m, f) := read 1 (minimized s) f in
        Settings mode t c m (free_memory s)
  end.
(** Save, lines 124-157: what the file has. *)
Definition save (s : settings) : bytes :=
  [70; 87; 83; 4] ++ le_bytes 4 (s_mode s) ++ le_bytes 4 (threshold s) ++ le_bytes 4 (s_cpus s) ++ le_bytes 1 (minimized s).
(** The constructor, lines 27-43; [cores]: GetNumUsefulCores. *)
Definition construct (junk cores : N) (f : option bytes) : settings :=
  let s := load junk f (Settings WHEN_IDLE 20 (N.max 1 (cores / 2)) 0 1024) in
  Settings (s_mode s) (threshold s) (N.min cores (s_cpus s)) (minimized s) (free_memory s).
