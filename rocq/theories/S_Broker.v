(** What users of the brokerage are promised: the words of C91. *)
From Coq Require Import String Ascii List Bool Arith NArith ZArith Lia.
From Verif Require Import M_Path M_Broker.
Import ListNotations.
Local Open Scope list_scope.
Local Open Scope Z_scope.

(** The name under which a machine can be reached: its address in dotted
    notation or, if it has no address but the local one (127.0.0.1), its
    host name. *)
Definition identity (c : call) : str :=
  if N.eqb (my_ip c) 0 then my_host c else if N.eqb (my_ip c) 16777343 then my_host c else dotted (my_ip c).

(** The file server does as it is told, and the machine has a name. *)
Definition served (c : call) : Prop :=
  can_remove c = true /\ can_touch c = true /\ can_write c = true /\ can_list c = true /\ my_host c <> [].
Definition obeyed (e : event) : Prop :=
  match e with Call _ c => served c | Stop _ ok => ok = true | _ => True end.
(** No two workers are ever reached by the same name: [owner] tells whose
    name it is. *)
Definition owned (owner : str -> nat) (e : event) : Prop :=
  match e with Call i c => owner (identity c) = i | _ => True end.

(** Worker [i] offers itself: the last that was heard of it was a call with
    [true]. *)
Fixpoint offered (i : nat) (h : list event) (before : bool) : bool :=
  match h with
  | [] => before
  | Call j c :: r => offered i r (if Nat.eqb j i then want c else before)
  | Crash j :: r | Stop j _ :: r => offered i r (if Nat.eqb j i then false else before)
  | Tick _ :: r => offered i r before
  end.

(** Worker [i] goes on offering itself, and is heard of at least every [gap]
    seconds; it was last heard of [d] seconds ago. *)
Fixpoint steady (i : nat) (gap d : Z) (h : list event) : Prop :=
  match h with
  | [] => True
  | Tick k :: r => d + Z.of_N k <= gap /\ steady i gap (d + Z.of_N k) r
  | Call j c :: r => if Nat.eqb j i then want c = true /\ steady i gap 0 r else steady i gap d r
  | Crash j :: r | Stop j _ :: r => j <> i /\ steady i gap d r
  end.

Fixpoint lasts (h : list event) : Z :=
  match h with [] => 0 | Tick k :: r => Z.of_N k + lasts r | _ :: r => lasts r end.

(** A token of worker [i], last changed at [t]. *)
Definition has_token (root : str) (owner : str -> nat) (f : files) (i : nat) (name : str) (t : Z) : Prop :=
  In (root ++ name, t) f /\ owner name = i.

(** In [h], which starts at [t0], worker [i] makes a call at [t] when its
    machine is reached by [name]. *)
Definition reached (t0 : Z) (h : list event) (i : nat) (name : str) (t : Z) : Prop :=
  exists a c b, h = a ++ Call i c :: b /\ t = t0 + lasts a /\ identity c = name.

(** A folder as others left it, before [t]. *)
Definition left_by_others (root : str) (owner : str -> nat) (f : files) (t : Z) (i : nat) : Prop :=
  forall p s, In (p, s) f -> s <= t /\ forall n, p = root ++ n -> owner n <> i.

(** A list of paths in which each piece may have spaces around it. *)
Definition spaces (n : nat) : str := repeat " "%char n.
Fixpoint semicolons (l : list str) : str :=
  match l with [] => [] | [x] => x | x :: r => x ++ L ";" ++ semicolons r end.
Definition path_text (p : str) : Prop :=
  ~ In ";"%char p /\ p <> [] /\ (forall r, p <> " "%char :: r) /\ (forall r, p <> r ++ [" "%char]).
(** A name of a worker in FASTBUILD_WORKERS. *)
Definition plain_name (p : str) : Prop := ~ In ";"%char p /\ ~ In (ascii_of_nat 34) p.
Definition not_empty (p : str) : bool := match p with [] => false | _ => true end.
(** Not one of the addresses of the client's machine. *)
Definition not_mine (mine : list str) (n : str) : bool := if in_dec (list_eq_dec ascii_dec) n mine then false else true.
(** A path with spaces before and after it. *)
Definition pad (x : nat * str * nat) : str := let '(a, p, b) := x in spaces a ++ p ++ spaces b.
