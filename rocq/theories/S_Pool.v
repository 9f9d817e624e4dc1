(** Specification vocabulary for the allocators: what a well-behaved caller does, and what it may expect. *)
From Coq Require Import List Arith Bool NArith.
From Verif Require Import M_Pool.
Import ListNotations.
Local Open Scope N_scope.

(** A block of memory: its first byte and its size. *)
Definition block : Type := N * N.
Definition apart (x y : block) : Prop := fst x + snd x <= fst y \/ fst y + snd y <= fst x.
Definition all_apart (l : list block) : Prop := ForallOrdPairs apart l.
Definition within (x y : block) : Prop := fst y <= fst x /\ fst x + snd x <= fst y + snd y.
(** Writing only inside the blocks [l] leaves every pointer stored elsewhere alone. *)
Definition writes_only (l : list block) (m m' : mem) : Prop :=
  forall a, (forall x, In x l -> apart (a, 8) x) -> m' a = m a.

(** ** One pool. *)
Inductive pev := PAlloc (page : N) | PFree (ptr : N) | PWrite (m' : mem).
Record pst := mkPst { ps_pool : pool; ps_mem : mem; ps_live : list N; ps_pages : list N }.
Definition remove1 (x : N) (l : list N) : list N := remove N.eq_dec x l.
(** One call, and the caller's book-keeping: which pointers it was given and has not freed, which pages it supplied. *)
Definition pdo (s : pst) (e : pev) : pst :=
  match e with
  | PAlloc page =>
      let '(p, m, r) := pool_alloc (ps_pool s) (ps_mem s) page in
      mkPst p m (if r =? 0 then ps_live s else r :: ps_live s)
            (if (p_head (ps_pool s) =? 0) && negb (page =? 0) then page :: ps_pages s else ps_pages s)
  | PFree ptr => let '(p, m) := pool_free (ps_pool s) (ps_mem s) ptr in mkPst p m (remove1 ptr (ps_live s)) (ps_pages s)
  | PWrite m' => mkPst (ps_pool s) m' (ps_live s) (ps_pages s)
  end.
(** The system hands out fresh pages, aligned as the pool asserts; the caller frees only what it holds and writes only there. *)
Definition pok (s : pst) (e : pev) : Prop :=
  match e with
  | PAlloc page => page = 0 \/ (page mod p_align (ps_pool s) = 0 /\ page + PAGE <= 18446744073709551616 /\
                               Forall (fun q => apart (page, PAGE) (q, PAGE)) (ps_pages s))
  | PFree ptr => In ptr (ps_live s)
  | PWrite m' => writes_only (map (fun a => (a, p_size (ps_pool s))) (ps_live s)) (ps_mem s) m'
  end.
Fixpoint pruns (s : pst) (l : list pev) (s' : pst) : Prop :=
  match l with [] => s' = s | e :: r => pok s e /\ pruns (pdo s e) r s' end.

(** ** The small block allocator. *)
Inductive sev := SAlloc (size align : N) | SGrab (bucket : N) | SFree (ptr : N) | SWrite (m' : mem).
Definition sdo (s : sba) (e : sev) : sba * sout :=
  match e with
  | SAlloc size align => sba_alloc s size align
  | SGrab b => sba_grab s b
  | SFree ptr => sba_free s ptr
  | SWrite m' => (mkSBA (sb_base s) (sb_next s) (sb_table s) (sb_pool s) (sb_wait s) m', SNull)
  end.
(** The caller's book-keeping: the blocks it holds, with the size it asked for. *)
Definition held (l : list block) (e : sev) (o : sout) : list block :=
  match o, e with
  | SPtr r size, _ => (r, size) :: l
  | SFreed, SFree ptr => filter (fun x => negb (fst x =? ptr)) l
  | _, _ => l
  end.
Definition sok (s : sba) (l : list block) (e : sev) : Prop :=
  match e with
  | SAlloc _ _ => True
  | SGrab b => True
  | SFree ptr => (exists size, In (ptr, size) l) \/ ptr < sb_base s \/ sb_base s + NUM_PAGES * PAGE <= ptr < 18446744073709551616
  | SWrite m' => writes_only l (sb_mem s) m'
  end.
(** [sruns s l evs s' l']: the calls [evs] of all threads in the order in which their atomic parts happen. *)
Fixpoint sruns (s : sba) (l : list block) (evs : list sev) (s' : sba) (l' : list block) : Prop :=
  match evs with
  | [] => s' = s /\ l' = l
  | e :: r => sok s l e /\ sruns (fst (sdo s e)) (held l e (snd (sdo s e))) r s' l'
  end.
