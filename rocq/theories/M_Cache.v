(** Model of the file cache, Cache/Cache.cpp and Cache/ICache.cpp. *)
From Coq Require Import List Arith NArith Bool Ascii.
From Verif Require Import M_Path M_Args M_Sort.
Import ListNotations.
Open Scope N_scope.

(** * Trimming *)

(** FileIO::FileInfo, FileIO.h: name, last write time, size. *)
Record file := { name : str; time : N; size : N }.

Definition w64 (n : N) : N := n mod 2 ^ 64.

(** OldestFileTimeSorter, Cache.cpp 34-41. *)
Definition older (a b : file) : bool := time a <? time b.

(** GetCacheFiles, totals, Cache.cpp 358-363: uint64_t additions. *)
Fixpoint total (l : list file) : N :=
  match l with [] => 0 | f :: r => w64 (size f + total r) end.

Section Trim.
(** FileIO::FileDelete, FileIO.cpp: whether a file can be deleted is up to the system. *)
Variable deletable : file -> bool.

(** The loop of Trim, Cache.cpp 273-306: (files deleted in order, total kept). *)
Fixpoint trim_loop (limit : N) (l : list file) (tot : N) : list file * N :=
  match l with
  | [] => ([], tot)
  | f :: r =>
      if deletable f then
        let tot' := w64 (tot + (2 ^ 64 - size f)) in
        if tot' <=? limit then ([f], tot')
        else let (d, t) := trim_loop limit r tot' in (f :: d, t)
      else trim_loop limit r tot
  end.

(** Trim, Cache.cpp 246-316, on the files found: (files deleted in order, total reported, count reported). *)
Definition trim (sizeMiB : N) (found : list file) : option (list file * N * N) :=
  match shell_sort older found with
  | None => None
  | Some l =>
      let limit := sizeMiB * 1048576 in
      let tot := total found in
      if limit <? tot then
        let (d, t) := trim_loop limit l tot in
        Some (d, t, N.of_nat (length found) - N.of_nat (length d))
      else Some ([], tot, N.of_nat (length found))
  end.
End Trim.

(** * Names of entries *)

(** printf "%0<w>X" of a number of at most [w] hexadecimal digits. *)
Fixpoint hexw (w : nat) (n : N) : str :=
  match w with
  | O => []
  | S w' => hexw w' (n / 16) ++ [hex_digit (N.to_nat (n mod 16))]
  end.

(** ICache::GetCacheId, ICache.cpp 12-29. *)
Definition cache_id (source : N) (cmdline : N) (tool : N) (pch : N) : str :=
  hexw 16 source ++ "_"%char :: hexw 8 cmdline ++ "_"%char :: hexw 16 tool ++ "-"%char :: hexw 16 pch ++ ["."%char; "I"%char].

(** GetFullPathForCacheEntry, Cache.cpp 373-386: nothing if the identifier is too short. *)
Definition full_path (sl : ascii) (cachePath : str) (id : str) : option str :=
  match id with
  | a :: b :: c :: d :: _ => Some (cachePath ++ [a; b; sl; c; d; sl] ++ id)
  | _ => None
  end.

(** The directories GetCacheFiles looks into, Cache.cpp 329-342. *)
Definition scanned (sl : ascii) (cachePath : str) (i j : N) : str :=
  cachePath ++ hexw 2 i ++ [sl] ++ hexw 2 j ++ [sl].

(** OutputInfo, Cache.cpp 193-211: the row of the table a file is counted in (uint64_t and uint32_t arithmetic). *)
Definition row (oneDay now : N) (f : file) : N :=
  let age := w64 (now + (2 ^ 64 - time f)) in
  let days := (age / oneDay) mod 2 ^ 32 in
  if 30 <=? days then 29 else days.

(** * Publishing *)

(** One publisher of an entry, between the system calls of Cache::Publish, Cache.cpp 97-143.  [i] is the file its handle is
    open on and [n] the number of bytes written.  Simplified: EnsurePathExistsForFile is part of opening the file. *)
Inductive pc :=
| Start | Writing (i : nat) (n : nat) | Written (ok : bool) | CleanUp | Retry1 | Retry2 | Returned (ok : bool) | Dead.

(** The two names in the cache directory, the contents of files, and the publishers with their data. *)
Record disk := { tmp : option nat; entry : option nat; content : nat -> list ascii; fresh : nat }.
Record world := { dsk : disk; at_ : nat -> pc }.

Definition updn {A} (f : nat -> A) (k : nat) (v : A) : nat -> A := fun x => if Nat.eqb x k then v else f x.
(** write() at an offset: bytes beyond the end read as zero. *)
Definition splice (old : list ascii) (off : nat) (s : list ascii) : list ascii :=
  firstn off (old ++ repeat Ascii.zero (off - length old)) ++ s ++ skipn (off + length s) old.

Inductive event :=
| Open (p : nat) (ok : bool)              (** FileStream::Open, WRITE_ONLY: creates or truncates (O_CREAT, O_TRUNC) *)
| Write (p : nat) (k : nat)               (** write() takes k bytes, FileStream.cpp WriteBuffer *)
| WriteFails (p : nat)
| Close (p : nat)                         (** all bytes were taken *)
| Rename (p : nat) (ok : bool)            (** FileIO::FileMove: replaces the destination, or does nothing *)
| Delete (p : nat) (ok : bool)            (** FileIO::FileDelete *)
| Crash (p : nat).

Section Publish.
Variable payload : nat -> list ascii.

Definition set_dsk d w := {| dsk := d; at_ := at_ w |}.
Definition set_at p x w := {| dsk := dsk w; at_ := updn (at_ w) p x |}.

Definition step (e : event) (w : world) : option world :=
  let d := dsk w in
  match e with
  | Open p ok =>
      match at_ w p with
      | Start =>
          if ok then
            match tmp d with
            | Some i => Some (set_at p (Writing i 0) (set_dsk {| tmp := tmp d; entry := entry d; content := updn (content d) i []; fresh := fresh d |} w))
            | None => Some (set_at p (Writing (fresh d) 0)
                             (set_dsk {| tmp := Some (fresh d); entry := entry d; content := updn (content d) (fresh d) []; fresh := S (fresh d) |} w))
            end
          else Some (set_at p (Returned false) w)
      | _ => None
      end
  | Write p k =>
      match at_ w p with
      | Writing i n =>
          let s := firstn k (skipn n (payload p)) in
          Some (set_at p (Writing i (n + length s))
                 (set_dsk {| tmp := tmp d; entry := entry d; content := updn (content d) i (splice (content d i) n s); fresh := fresh d |} w))
      | _ => None
      end
  | WriteFails p => match at_ w p with Writing _ _ => Some (set_at p (Written false) w) | _ => None end
  | Close p => match at_ w p with
               | Writing _ n => if Nat.eqb n (length (payload p)) then Some (set_at p (Written true) w) else None
               | _ => None
               end
  | Rename p ok =>
      let next := match at_ w p with
                  | Written true => Some (if ok then Returned true else Retry1)
                  | Retry2 => Some (if ok then Returned true else CleanUp)
                  | _ => None
                  end in
      match next with
      | Some q =>
          if ok then match tmp d with
                     | Some i => Some (set_at p q (set_dsk {| tmp := None; entry := Some i; content := content d; fresh := fresh d |} w))
                     | None => None
                     end
          else Some (set_at p q w)
      | None => None
      end
  | Delete p ok =>
      match at_ w p with
      | Retry1 => let w' := set_at p Retry2 w in
                  Some (if ok then set_dsk {| tmp := tmp d; entry := None; content := content d; fresh := fresh d |} w' else w')
      | Written false | CleanUp =>
                  let w' := set_at p (Returned false) w in
                  Some (if ok then set_dsk {| tmp := None; entry := entry d; content := content d; fresh := fresh d |} w' else w')
      | _ => None
      end
  | Crash p => Some (set_at p Dead w)
  end.

Fixpoint run (w : world) (es : list event) : option world :=
  match es with [] => Some w | e :: r => match step e w with Some w' => run w' r | None => None end end.

(** Retrieve, Cache.cpp 148-170: the content of the entry. *)
Definition retrieve (w : world) : option (list ascii) := option_map (content (dsk w)) (entry (dsk w)).
End Publish.
