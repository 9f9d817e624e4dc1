(** Model of the block pool and of the small block allocator.
    Sources: Core/Mem/MemPoolBlock.cpp, MemPoolBlock.h, SmallBlockAllocator.cpp, SmallBlockAllocator.h, Core/Math/Conversions.h 14-17.
    Addresses are [N]; 0 is the null pointer.  Memory is modelled only as far as the pool reads it: [m a] is the pointer
    stored in the eight bytes at [a].  The debug counters and the debug fill patterns are left out. *)
From Coq Require Import List Arith Bool NArith.
From Verif Require Import M_Bytes M_Stream.
Import ListNotations.
Local Open Scope N_scope.

Definition mem := N -> N.
Definition upd {A} (m : N -> A) (a : N) (v : A) : N -> A := fun x => if x =? a then v else m x.

(** MemPoolBlock.h 22: kMemPoolBlockPageSize. *)
Definition PAGE : N := 65536.
(** MemPoolBlock.h 36-52: the members that matter. *)
Record pool := mkPool { p_size : N; p_align : N; p_head : N }.
(** Constructor, MemPoolBlock.cpp 11-19. *)
Definition pool_new (size align : N) : pool := mkPool (u32 size) (u32 align) 0.
(** MemPoolBlock.cpp 97-98. *)
Definition stride (p : pool) : N := round_up (p_size p) (p_align p).
Definition per_page (p : pool) : N := PAGE / stride p.
(** The loop of AllocPage, MemPoolBlock.cpp 103-108; the result is the last block. *)
Fixpoint link (k : nat) (m : mem) (block sz : N) : mem * N :=
  match k with
  | O => (m, block)
  | S k' => let next := u64 (block + sz) in link k' (upd m block next) next sz
  end.
(** AllocPage, MemPoolBlock.cpp 82-115, after the system returned [page]. *)
Definition add_page (p : pool) (m : mem) (page : N) : pool * mem :=
  let '(m1, last) := link (N.to_nat (u64 (per_page p + 18446744073709551615))) m page (stride p) in
  (mkPool (p_size p) (p_align p) page, upd m1 last (p_head p)).
(** Alloc, MemPoolBlock.cpp 60-63: take the first block of the chain. *)
Definition pop_block (p : pool) (m : mem) : pool * N := (mkPool (p_size p) (p_align p) (m (p_head p)), p_head p).
(** Alloc, MemPoolBlock.cpp 37-64.  [page] is what AllocateMemoryForPage returns if it is called (0: no memory). *)
Definition pool_alloc (p : pool) (m : mem) (page : N) : pool * mem * N :=
  if p_head p =? 0 then
    if page =? 0 then (p, m, 0)
    else let '(p1, m1) := add_page p m page in let '(p2, b) := pop_block p1 m1 in (p2, m1, b)
  else let '(p2, b) := pop_block p m in (p2, m, b).
(** Free, MemPoolBlock.cpp 68-80. *)
Definition pool_free (p : pool) (m : mem) (ptr : N) : pool * mem :=
  (mkPool (p_size p) (p_align p) ptr, upd m ptr (p_head p)).

(** ** The small block allocator. *)
(** SmallBlockAllocator.h 48-53. *)
Definition MAX_ALLOC : N := 256.
Definition ALIGN : N := 16.
Definition NUM_BUCKETS : N := MAX_ALLOC / ALIGN.
Definition NUM_PAGES : N := (200 * 1024 * 1024) / PAGE.
(** Static data, SmallBlockAllocator.cpp 36-40.  [sb_wait b]: a thread holds the mutex of bucket [b] inside
    AllocateMemoryForPage between the test of the page counter and the atomic increment; it asked for that many bytes. *)
Record sba := mkSBA { sb_base : N; sb_next : N; sb_table : N -> N; sb_pool : N -> pool; sb_wait : N -> option N; sb_mem : mem }.
(** MEM_BUCKETS_NOT_INITIALIZED, SmallBlockAllocator.cpp 31. *)
Definition NOT_INIT : N := 9223372036854775808.
(** InitBuckets, SmallBlockAllocator.cpp 44-75; [base] is the reserved address range. *)
Definition sba_init (base : N) (m : mem) : sba :=
  mkSBA base 0 (fun _ => 0) (fun i => pool_new (ALIGN * (i + 1)) ALIGN) (fun _ => None) m.

Inductive sout := SPtr (ptr size : N) | SNull | SPending | SFreed | SNotOurs | SBlocked.

Definition with_pool (s : sba) (b : N) (p : pool) (m : mem) : sba :=
  mkSBA (sb_base s) (sb_next s) (sb_table s) (upd (sb_pool s) b p) (sb_wait s) m.
(** SmallBlockAllocator.cpp 139-144: the bucket of a request. *)
Definition bucket_of (size : N) : N := round_up (N.max size ALIGN) ALIGN / ALIGN - 1.
(** Alloc, SmallBlockAllocator.cpp 126-166, up to the atomic increment of the page counter when a page is needed
    (186-190).  [SBlocked]: another thread holds the mutex of the bucket, so the call has not started yet. *)
Definition sba_alloc (s : sba) (size align : N) : sba * sout :=
  if MAX_ALLOC <? size then (s, SNull) else
  let b := bucket_of size in
  let p := sb_pool s b in
  if p_align p <? align then (s, SNull) else
  match sb_wait s b with
  | Some _ => (s, SBlocked)
  | None =>
      if p_head p =? 0 then
        if NUM_PAGES <=? sb_next s then (s, SNull)
        else (mkSBA (sb_base s) (sb_next s) (sb_table s) (sb_pool s) (upd (sb_wait s) b (Some size)) (sb_mem s), SPending)
      else let '(p1, m1, r) := pool_alloc p (sb_mem s) 0 in (with_pool s b p1 m1, SPtr r size)
  end.
(** AllocateMemoryForPage from the atomic increment on, then the rest of MemPoolBlock::Alloc,
    SmallBlockAllocator.cpp 192-217.  [SBlocked]: no thread is at that point. *)
Definition sba_grab (s : sba) (b : N) : sba * sout :=
  match sb_wait s b with
  | None => (s, SBlocked)
  | Some size =>
      let i := sb_next s in
      let next := u32 (i + 1) in
      if NUM_PAGES <=? i
      then (mkSBA (sb_base s) next (sb_table s) (sb_pool s) (upd (sb_wait s) b None) (sb_mem s), SNull)
      else
        let page := u64 (sb_base s + i * PAGE) in
        let '(p1, m1, r) := pool_alloc (sb_pool s b) (sb_mem s) page in
        (mkSBA (sb_base s) next (upd (sb_table s) i (b mod 256)) (upd (sb_pool s) b p1) (upd (sb_wait s) b None) m1, SPtr r size)
  end.
(** The page a pointer lies in, SmallBlockAllocator.cpp 176. *)
Definition page_index (base ptr : N) : N := u64 (ptr + 18446744073709551616 - base) / PAGE.
(** Free, SmallBlockAllocator.cpp 170-200. *)
Definition sba_free (s : sba) (ptr : N) : sba * sout :=
  let i := page_index (sb_base s) ptr in
  if NUM_PAGES <=? i then (s, SNotOurs) else
  let b := sb_table s i in
  match sb_wait s b with
  | Some _ => (s, SBlocked)
  | None => let '(p1, m1) := pool_free (sb_pool s b) (sb_mem s) ptr in (with_pool s b p1 m1, SFreed)
  end.
