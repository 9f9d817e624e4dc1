(** Specification vocabulary for the cache. *)
From Coq Require Import List Arith NArith Bool Ascii.
From Verif Require Import M_Path M_Cache.
Import ListNotations.
Open Scope nat_scope.

(** Size of a set of files. *)
Fixpoint bytes (l : list file) : N := match l with [] => 0 | f :: r => size f + bytes r end%N.

(** The publisher an event belongs to, and whether a publisher has started and not yet ended. *)
Definition actor (e : event) : nat :=
  match e with Open p _ | Write p _ | WriteFails p | Close p | Rename p _ | Delete p _ | Crash p => p end.
Definition busy (c : pc) : Prop := match c with Start | Returned _ | Dead => False | _ => True end.

(** No publisher acts while another one is busy. *)
Fixpoint one_at_a_time (payload : nat -> list ascii) (w : world) (es : list event) : Prop :=
  match es with
  | [] => True
  | e :: r => (forall q, q <> actor e -> ~ busy (at_ w q)) /\
              match step payload e w with Some w' => one_at_a_time payload w' r | None => True end
  end.

(** Nobody has started; the cache may hold an entry and a temporary file left by someone else. *)
Definition initial (w : world) : Prop :=
  (forall p, at_ w p = Start) /\
  (forall i, tmp (dsk w) = Some i -> i < fresh (dsk w)) /\
  (forall i, entry (dsk w) = Some i -> i < fresh (dsk w)) /\
  (forall i, tmp (dsk w) = Some i -> entry (dsk w) <> Some i).

Definition is_hex (c : ascii) : Prop := exists d, (d < 16)%N /\ c = M_Args.hex_digit (N.to_nat d).
