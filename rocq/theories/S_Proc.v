(** What is said about programs that are run. *)
From Coq Require Import String Ascii List Arith Bool ZArith.
From Verif Require Import M_Path M_Args M_Proc.
Import ListNotations.
Local Open Scope list_scope.

(** What a program writes to its output ([true]) or error output. *)
Definition prints (o : bool) (script : list act) : str := map snd (filter (fun a => Bool.eqb (fst a) o) script).
(** No other process writes to the program's output, and the build is not aborted. *)
Definition alone (h : list event) : Prop := forall o b, ~ In (Child o b) h.
Definition undisturbed (h : list event) : Prop := ~ In Cancel h.
(** The program and the reader both get [k] turns, in any order within each round and with any other turns in between. *)
Definition turn (g : list event) : Prop := In Run g /\ exists n, In (Step n) g.
Definition turns (k : nat) (h : list event) : Prop := exists gs, h = concat gs /\ length gs = k /\ Forall turn gs.
(** From now on the program hangs, and the reader gets [k] turns. *)
Definition hangs (h : list event) : Prop := forall e, In e h -> (exists n, e = Step n) \/ exists d, e = Tick d.
Definition steps (h : list event) : nat := length (filter (fun e => match e with Step _ => true | _ => false end) h).
Definition lasts (h : list event) : nat := fold_right (fun e n => match e with Tick d => d + n | _ => n end) 0 h.
Definition finished (w : world) : Prop := exists b, at_ w = Done b.

(** *** Arguments *)
Definition names (ins : list input) : list str := flat_map (fun i => match i with File x => [x] | Dir xs => xs end) ins.
(** What an argument in the options of Exec() stands for. *)
Inductive stands_for (nm : str) (ins : list input) : str -> list str -> Prop :=
| for_inputs pre : stands_for nm ins (pre ++ L "%1") (map (fun x => pre ++ x) (names ins))
| for_quoted_inputs pre : stands_for nm ins (pre ++ [quote] ++ L "%1" ++ [quote]) (map (fun x => pre ++ [quote] ++ x ++ [quote]) (names ins))
| for_output pre : stands_for nm ins (pre ++ L "%2") [pre ++ nm]
| for_quoted_output pre : stands_for nm ins (pre ++ [quote] ++ L "%2" ++ [quote]) [pre ++ [quote] ++ nm ++ [quote]]
| for_itself t : (forall pre e, t = pre ++ e -> ~ In e [L "%1"; L "%2"; [quote] ++ L "%1" ++ [quote]; [quote] ++ L "%2" ++ [quote]]) -> stands_for nm ins t [t].
