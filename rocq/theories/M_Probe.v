(** Model of the shared table of file records of the light cache, class IncludedFileHashSet, Tools/FBuild/FBuildCore/Cache/LightCache.cpp 74-192.

    A record is its m_FileNameHash and m_FileName; nullptr is None.  Simplified: size_t does not overflow, which makes no difference to an index
    since the number of buckets divides 2^64; an allocation that fails is not modelled. *)
From Coq Require Import String List Arith NArith Bool Ascii.
From Verif Require Import M_Path.
From Verif Require M_Tok.
Import ListNotations.
Import M_Tok(seqb, res, Done, Fail, NoFuel, bind).
Open Scope N_scope.

Definition item : Type := N * str.
(** m_Buckets and m_Elts, 189-191. *)
Record set := { buckets : list (option item); elts : N }.
Definition empty : set := {| buckets := []; elts := 0 |}.
Definition size (b : list (option item)) : N := N.of_nat (List.length b).
(** Next, 150-158, and the start index, 136-137: the bucket of the p-th probe, from 0 on. *)
Definition slot (sz start p : N) : N := N.land (start + p * p) (sz - 1).
Definition start_of (sz h : N) : N := N.land h (sz - 1).
Definition at_ (b : list (option item)) (i : N) : option item := nth (N.to_nat i) b None.
Fixpoint update (b : list (option item)) (i : nat) (x : item) : list (option item) :=
  match b, i with
  | [], _ => []
  | _ :: r, O => Some x :: r
  | y :: r, S i => y :: update r i x
  end.
Definition put (b : list (option item)) (i : N) (x : item) : list (option item) := update b (N.to_nat i) x.

(** The loop of InternalFind, 138-147: the bucket with the name, or the first free one. *)
Fixpoint probe (fuel : nat) (b : list (option item)) (start p h : N) (n : str) : res N :=
  match fuel with
  | O => NoFuel
  | S f =>
      let i := slot (size b) start p in
      match at_ b i with
      | None => Done i
      | Some (h', n') => if (h' =? h) && seqb n' n then Done i else probe f b start (p + 1) h n
      end
  end.
(** The inner loop of Grow, 176-182. *)
Fixpoint free_slot (fuel : nat) (b : list (option item)) (start p : N) : res N :=
  match fuel with
  | O => NoFuel
  | S f => let i := slot (size b) start p in match at_ b i with None => Done i | Some _ => free_slot f b start (p + 1) end
  end.
(** Find, 89-97, with InternalFind, 129-148. *)
Definition find (fuel : nat) (s : set) (h : N) (n : str) : res (option item) :=
  match buckets s with
  | [] => Done None
  | b => bind (probe fuel b (start_of (size b) h) 0 h n) (fun i => Done (at_ b i))
  end.
(** Grow, 159-187. *)
Fixpoint refill (fuel : nat) (old new : list (option item)) : res (list (option item)) :=
  match old with
  | [] => Done new
  | None :: r => refill fuel r new
  | Some x :: r => bind (free_slot fuel new (start_of (size new) (fst x)) 0) (fun i => refill fuel r (put new i x))
  end.
Definition grow (fuel : nat) (sz : N) (s : set) : res set :=
  bind (refill fuel (buckets s) (repeat None (N.to_nat sz))) (fun b => Done {| buckets := b; elts := elts s |}).
(** Insert, 100-117.  Fail: the assertion that the item is not there does not hold. *)
Definition insert (fuel : nat) (s : set) (h : N) (n : str) : res set :=
  let sz := size (buckets s) in
  bind (if sz / 2 <=? elts s then grow fuel (if sz <? 1024 then 1024 else sz * 2) s else Done s) (fun s =>
  let b := buckets s in
  bind (probe fuel b (start_of (size b) h) 0 h n) (fun i =>
  match at_ b i with
  | Some _ => Fail
  | None => Done {| buckets := put b i (h, n); elts := elts s + 1 |}
  end)).
Fixpoint inserts (fuel : nat) (h : str -> N) (l : list str) (s : set) : res set :=
  match l with
  | [] => Done s
  | n :: r => bind (insert fuel s (h n) n) (inserts fuel h r)
  end.
