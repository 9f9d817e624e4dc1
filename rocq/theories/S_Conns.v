(** Vocabulary of properties C87 and C88. *)

From Coq Require Import List Bool Arith ZArith.
From Verif Require Import M_Path M_Conns.
Import ListNotations.

(** The workers to which there is a connection, made, being made or awaiting
    its end. *)
Definition connected (s : state) : list nat := map fst (conns s).

(** The time that passes in a history. *)
Fixpoint elapsed (h : list label) : Z :=
  match h with
  | [] => 0
  | Tick d :: r => Z.of_N d + elapsed r
  | _ :: r => elapsed r
  end%Z.

(** The workers to which connections are opened in a history, in order. *)
Fixpoint attempts (limit : nat) (h : list label) (s : state) : list nat :=
  match h with
  | [] => []
  | a :: r =>
      match step limit a s with
      | Next t => skipn (length (conns s)) (connected t) ++ attempts limit r t
      | _ => []
      end
  end.

(** In the history [h] from [s0] the worker had a system error. *)
Definition misbehaved (limit : nat) (s0 : state) (h : list label) (w : nat) : Prop :=
  exists h1 i h2 s1, h = h1 ++ Misbehave i :: h2 /\ run limit h1 s0 = Next s1 /\
                     nth_error (connected s1) i = Some w.

(** In the history [h] from [s0] an attempt to connect to the worker failed,
    and since then the time [d] has passed. *)
Definition refused_ago (limit : nat) (s0 : state) (h : list label) (w : nat) (d : Z) : Prop :=
  exists h1 i h2 s1, h = h1 ++ Refuse i :: h2 /\ run limit h1 s0 = Next s1 /\
                     nth_error (connected s1) i = Some w /\ d = elapsed h2.

(** After the history [h] from [s0], which has led to [s], the worker is one to
    connect to: there is no connection to it, it has never had a system error
    and no attempt has failed within the last ten seconds. *)
Definition ready (limit : nat) (s0 : state) (h : list label) (s : state) (w : nat) : Prop :=
  w < length (pool s0) /\ ~ In w (connected s) /\ ~ misbehaved limit s0 h w /\
  forall d, refused_ago limit s0 h w d -> (10000 <= d)%Z.

(** The client's thread is within the loop over the workers until the last
    step of [h]. *)
Definition within_pass (limit : nat) (h : list label) (s : state) : Prop :=
  forall h1 h2 u, h = h1 ++ h2 -> h2 <> [] -> run limit h1 s = Next u -> exists k, at_ u = Looking k.

(** The name of the worker under which the profile shows events of the machine
    [id]. *)
Definition heading (p : profile) (id : nat) : option str := option_map fst (nth_error (infos p) id).

(** Each worker, when it turns up first, has a higher number than those seen
    before it. *)
Definition in_order (ids : nat -> nat) (rs : list remote) : Prop :=
  forall a r b, rs = a ++ r :: b ->
    (exists q, In q a /\ by_worker q = by_worker r) \/ (forall q, In q a -> ids (by_worker q) < ids (by_worker r)).
