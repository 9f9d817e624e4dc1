(** Model of tool manifests on the wire and of the environment block made from them.
    Source: Tools/FBuild/FBuildCore/Helpers/ToolManifest.cpp. *)
From Coq Require Import List Arith Bool NArith.
From Verif Require Import M_Bytes M_Stream M_Codec.
Import ListNotations.
Local Open Scope N_scope.

(** ToolManifestFile, ToolManifest.h 62-68: the members sent to a worker. *)
Record mfile := mkMF { mf_name : bytes; mf_stamp : N; mf_hash : N; mf_size : N }.
(** ToolManifest, ToolManifest.h 128-134. *)
Record manifest := mkMan { man_id : N; man_root : bytes; man_files : list mfile; man_env : list bytes }.

(** SerializeForRemote, ToolManifest.cpp 266-292. *)
Definition wr_mfile (f : mfile) : bytes :=
  wr_str (mf_name f) ++ le_bytes 8 (mf_stamp f) ++ le_bytes 4 (mf_hash f) ++ le_bytes 4 (mf_size f).
Definition man_head (m : manifest) : bytes :=
  le_bytes 8 (man_id m) ++ wr_str (man_root m) ++ le_bytes 4 (u32 (N.of_nat (List.length (man_files m)))) ++ flat_map wr_mfile (man_files m).
Definition man_write (m : manifest) : bytes :=
  man_head m ++ le_bytes 4 (u32 (N.of_nat (List.length (man_env m)))) ++ flat_map wr_str (man_env m).

(** AString::StrLen( s.Get() ) == s.GetLength(), ToolManifest.cpp 318, 341, 358: no NUL before the terminator. *)
Definition no_nul (s : bytes) : bool := forallb (fun c => negb (c =? 0)) s.
(** One file, ToolManifest.cpp 330-347. *)
Definition rd_mfile : reader mfile :=
  bind r_str (fun name => bind (r_int 8) (fun stamp => bind (r_int 4) (fun hash => bind (r_int 4) (fun size =>
  bind (guard (no_nul name && negb (stamp =? 0) && negb (hash =? 0))) (fun _ => ret (mkMF name stamp hash size)))))).
(** One environment variable, ToolManifest.cpp 354-363. *)
Definition rd_evar : reader bytes := bind r_str (fun v => bind (guard (no_nul v)) (fun _ => ret v)).
(** DeserializeFromRemote, ToolManifest.cpp 296-368: [id] is the identifier the worker asked for.  The result of reading
    the number of variables (line 351) is not tested.  Memory for a huge count is assumed to be available. *)
Definition man_read (id : N) : reader manifest :=
  bind (r_int 8) (fun tid => bind r_str (fun root => bind (r_int 4) (fun n =>
  bind (guard (no_nul root && negb (n =? 0) && (tid =? id))) (fun _ =>
  bind (r_rep (N.to_nat n) rd_mfile) (fun files =>
  bind (r_int_ignored 4) (fun ne =>
  bind (r_rep (N.to_nat ne) rd_evar) (fun env => ret (mkMan tid root files env)))))))).

(** ** The environment block, ToolManifest.cpp 408-489.  Memory cells are [None] until written. *)
Definition mem := list (option N).
Definition mem_write (m : mem) (p : nat) (bs : bytes) : option mem :=
  if (p + List.length bs <=? List.length m)%nat then Some (firstn p m ++ map Some bs ++ skipn (p + List.length bs) m) else None.
(** AString::Copy( src, dst, len ), AString.cpp 1510-1514: [src] is the string from its start, without its terminator. *)
Definition mem_copy (m : mem) (p : nat) (src : bytes) (n : nat) : option mem :=
  if (n <=? List.length src + 1)%nat then mem_write m p (firstn n (src ++ [0]) ++ [0]) else None.
(** AString::Find( "%1" ), AString.cpp 930-955: the offset of the first occurrence. *)
Fixpoint find_tok (s : bytes) : option nat :=
  match s with
  | a :: ((b :: _) as t) => if (a =? 37) && (b =? 49) then Some O else match find_tok t with Some i => Some (S i) | None => None end
  | _ => None
  end.
(** Length pass, ToolManifest.cpp 427-448.  [heads] are PATH= and, on Windows, TMP= and SystemRoot=.  The sums do not wrap: all strings are in memory. *)
Definition env_len (base : bytes) (v : bytes) : nat :=
  match find_tok v with
  | Some _ => List.length v - 2 + List.length base + 1
  | None => List.length v + 1
  end.
Definition block_len (heads : list bytes) (base : bytes) (vars : list bytes) : nat :=
  (list_sum (map (fun h => (List.length h + 1)%nat) heads) + list_sum (map (env_len base) vars) + 1)%nat.
(** One copy of a whole string with its terminator, lines 454-463 and 482-483. *)
Definition put_plain (st : mem * nat) (v : bytes) : option (mem * nat) :=
  let '(m, p) := st in
  match mem_copy m p v (List.length v + 1) with Some m' => Some (m', (p + (List.length v + 1))%nat) | None => None end.
(** One variable, lines 466-485. *)
Definition put_var (base : bytes) (st : mem * nat) (v : bytes) : option (mem * nat) :=
  match find_tok v with
  | None => put_plain st v
  | Some t =>
      let '(m, p) := st in
      match mem_copy m p v t with
      | None => None
      | Some m1 =>
          match mem_copy m1 (p + t) base (List.length base) with
          | None => None
          | Some m2 =>
              let p2 := (p + t + List.length base)%nat in
              let n := (List.length v - 2 - t + 1)%nat in
              match mem_copy m2 p2 (skipn (t + 2) v) n with
              | None => None
              | Some m3 => Some (m3, (p2 + n)%nat)
              end
          end
      end
  end.
Fixpoint puts {A} (f : A -> bytes -> option A) (st : A) (l : list bytes) : option A :=
  match l with [] => Some st | v :: r => match f st v with Some st' => puts f st' r | None => None end end.
(** The whole block, lines 450-489: [None] when a write leaves the allocation. *)
Definition env_block (heads : list bytes) (base : bytes) (vars : list bytes) : option mem :=
  match puts put_plain (repeat None (block_len heads base vars), O) heads with
  | None => None
  | Some st => match puts (put_var base) st vars with
               | None => None
               | Some (m, p) => mem_write m p [0]
               end
  end.
(** The fixed variables, lines 408-424: "PATH=" base, and on Windows "TMP=" and "SystemRoot=C:\Windows". *)
Definition env_heads (windows : bool) (base tmp : bytes) : list bytes :=
  ([80;65;84;72;61] ++ base) ::
  (if windows then [[84;77;80;61] ++ tmp; [83;121;115;116;101;109;82;111;111;116;61;67;58;92;87;105;110;100;111;119;115]] else []).
