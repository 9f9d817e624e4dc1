(** C34: the block allocators. *)
From Coq Require Import List Arith Bool NArith Lia Permutation.
From Verif Require Import M_Bytes M_Stream P_Stream M_Pool S_Pool P_Pool P_Sba.
Import ListNotations.
Local Open Scope N_scope.

(** For every block size and power-of-two alignment the constructor accepts, and every history of calls by a caller that
    frees and writes only what it holds: all blocks in use are aligned, lie inside a page the pool was given, are not
    null and do not overlap. *)
Theorem C34_pool_blocks size k m evs s :
  8 <= size <= PAGE -> 4 <= 2 ^ k <= PAGE ->
  pruns (mkPst (pool_new size (2 ^ k)) m [] []) evs s ->
  all_apart (map (fun a => (a, size)) (ps_live s)) /\
  forall a, In a (ps_live s) -> a <> 0 /\ a mod 2 ^ k = 0 /\ exists g, In g (ps_pages s) /\ within (a, size) (g, PAGE).
Proof.
  intros SZ AL R.
  assert (E1 : u32 size = size) by (unfold u32, PAGE in *; apply N.mod_small; lia).
  assert (E2 : u32 (2 ^ k) = 2 ^ k) by (unfold u32, PAGE in *; apply N.mod_small; lia).
  assert (I0 : gen_inv (size, 2 ^ k) (mkPst (pool_new size (2 ^ k)) m [] [])).
  { unfold gen_inv, pool_new. cbn [ps_pool ps_mem ps_live ps_pages p_size p_align fst snd]. rewrite E1, E2.
    split; [auto|]. split; [auto|]. split; [split; [auto|exists k; auto]|]. split; [exists []; cbn; split; [reflexivity|constructor]|].
    split; [constructor|constructor]. }
  pose proof (gen_runs _ _ _ _ I0 R) as (K1 & K2 & W & (fl & C & Pm) & PO & A). cbn [fst snd] in *.
  pose proof (stride_ok _ W) as ((S1 & S2) & S3). split.
  - eapply (fop_map_impl _ (fun a => (a, stride (ps_pool s)))).
    + intros x y _ _. unfold apart. cbn [fst snd]. lia.
    + pose proof (slots_apart _ _ W A) as AA. eapply fop_perm in AA; [|exact apart_sym|apply Permutation_map, Permutation_sym; exact Pm].
      rewrite map_app in AA. now apply fop_app_r in AA.
  - intros a I. assert (J : In a (slots (ps_pool s) (ps_pages s))) by (eapply Permutation_in; [exact Pm|apply in_or_app; now right]).
    apply in_flat_map in J. destruct J as (g & G & J). pose proof (cells_in _ _ _ W J) as Wn. rewrite Forall_forall in PO. destruct (PO g G) as ((Z & B) & M).
    unfold within in *. cbn [fst snd] in *. split; [lia|]. split; [|exists g; split; [auto|lia]].
    apply in_cells in J. destruct J as (j & _ & ->). rewrite K2 in *.
    assert (N0 : 2 ^ k <> 0) by (apply N.pow_nonzero; lia).
    apply N.mod_divide in S3, M; auto. apply N.mod_divide; auto. apply N.divide_add_r; auto. now apply N.divide_mul_r.
Qed.
Print Assumptions C34_pool_blocks.

(** Nothing is lost: when a call makes the pool take a page from the system, every block of every page it has is in use. *)
Theorem C34_no_block_lost size k m evs s :
  8 <= size <= PAGE -> 4 <= 2 ^ k <= PAGE ->
  pruns (mkPst (pool_new size (2 ^ k)) m [] []) evs s ->
  p_head (ps_pool s) = 0 ->
  N.of_nat (List.length (ps_live s)) = N.of_nat (List.length (ps_pages s)) * (PAGE / round_up size (2 ^ k)).
Proof.
  intros SZ AL R H.
  assert (E1 : u32 size = size) by (unfold u32, PAGE in *; apply N.mod_small; lia).
  assert (E2 : u32 (2 ^ k) = 2 ^ k) by (unfold u32, PAGE in *; apply N.mod_small; lia).
  assert (I0 : gen_inv (size, 2 ^ k) (mkPst (pool_new size (2 ^ k)) m [] [])).
  { unfold gen_inv, pool_new. cbn [ps_pool ps_mem ps_live ps_pages p_size p_align fst snd]. rewrite E1, E2.
    split; [auto|]. split; [auto|]. split; [split; [auto|exists k; auto]|]. split; [exists []; cbn; split; [reflexivity|constructor]|].
    split; [constructor|constructor]. }
  pose proof (gen_runs _ _ _ _ I0 R) as (K1 & K2 & W & (fl & C & Pm) & PO & A). cbn [fst snd] in *.
  rewrite H in C. destruct fl as [|x r]; [|cbn in C; destruct C as (<- & Z & _); now elim Z]. cbn [app] in Pm. apply Permutation_length in Pm. rewrite Pm.
  replace (PAGE / round_up size (2 ^ k)) with (per_page (ps_pool s)) by (unfold per_page, stride; now rewrite K1, K2).
  unfold slots. induction (ps_pages s) as [|g gs IH]; [reflexivity|]. cbn [flat_map List.length]. rewrite app_length. unfold cells at 1. rewrite map_length, seq_length.
  unfold npp at 1. clear - IH. assert (E : N.of_nat (List.length (flat_map (fun g => cells g (stride (ps_pool s)) (npp (ps_pool s))) gs)) = N.of_nat (List.length gs) * per_page (ps_pool s)).
  { clear. induction gs as [|g gs IH]; [reflexivity|]. cbn [flat_map List.length]. rewrite app_length. unfold cells at 1. rewrite map_length, seq_length. unfold npp at 1. lia. }
  lia.
Qed.
Print Assumptions C34_no_block_lost.

(** The small block allocator: for every interleaving of the calls of all threads, the blocks in use are 16-byte aligned,
    lie in the reserved range, are as large as was asked for, and no two of them share a byte (a request of zero bytes
    still gets an address of its own). *)
Theorem C34_small_blocks base m evs s l :
  base <> 0 -> base mod 16 = 0 -> base + NUM_PAGES * PAGE <= NOT_INIT ->
  sruns (sba_init base m) [] evs s l ->
  all_apart (map (fun x => (fst x, N.max 1 (snd x))) l) /\
  forall x, In x l -> fst x <> 0 /\ fst x mod 16 = 0 /\ within (fst x, N.max 1 (snd x)) (base, NUM_PAGES * PAGE).
Proof.
  intros B1 B2 B3 R. assert (BO : base_ok base) by (repeat split; auto).
  pose proof (sruns_inv _ _ _ _ _ _ BO (sinit_inv base m BO) R) as I. split.
  - now apply (held_all_apart base s).
  - intros x X. now apply (held_places base s l).
Qed.
Print Assumptions C34_small_blocks.

(** Freeing a pointer the allocator does not own is reported and changes nothing, also before the first allocation;
    freeing one it owns always succeeds (or waits for the mutex of its bucket). *)
Theorem C34_free_decides base m evs s l ptr :
  base <> 0 -> base mod 16 = 0 -> base + NUM_PAGES * PAGE <= NOT_INIT ->
  sruns (sba_init base m) [] evs s l ->
  (ptr < base \/ base + NUM_PAGES * PAGE <= ptr < 18446744073709551616 -> sba_free s ptr = (s, SNotOurs)) /\
  ((exists size, In (ptr, size) l) -> snd (sba_free s ptr) = SFreed \/ snd (sba_free s ptr) = SBlocked).
Proof.
  intros B1 B2 B3 R. assert (BO : base_ok base) by (repeat split; auto).
  pose proof (sruns_inv _ _ _ _ _ _ BO (sinit_inv base m BO) R) as I. split.
  - intros O. unfold sba_free. rewrite (si_base _ _ _ I). pose proof (free_not_ours base ptr BO O) as Q. apply N.leb_le in Q. now rewrite Q.
  - intros (size & X). destruct (routing _ _ _ _ _ BO I X) as (R1 & R2 & _). unfold sba_free. rewrite (si_base _ _ _ I).
    apply N.leb_gt in R1. rewrite R1, R2. destruct (sb_wait s (bucket_of size)); cbn; auto.
Qed.
Print Assumptions C34_free_decides.
Theorem C34_free_before_init s ptr : sb_base s = NOT_INIT -> ptr < NOT_INIT -> sba_free s ptr = (s, SNotOurs).
Proof.
  intros E L. unfold sba_free, page_index, u64. rewrite E. unfold NOT_INIT in *. rewrite N.mod_small by lia.
  assert (Q : NUM_PAGES <= (ptr + 18446744073709551616 - 9223372036854775808) / PAGE) by (unfold PAGE; rewrite NP_val; apply N.div_le_lower_bound; lia).
  apply N.leb_le in Q. now rewrite Q.
Qed.
Print Assumptions C34_free_before_init.

(** A new page is taken for a size class only when every block of that class is in use, so freed memory is reused. *)
Theorem C34_small_reuse base m evs s l size align s' :
  base <> 0 -> base mod 16 = 0 -> base + NUM_PAGES * PAGE <= NOT_INIT ->
  sruns (sba_init base m) [] evs s l -> sba_alloc s size align = (s', SPending) ->
  exists pages, NoDup pages /\ (forall i, In i pages <-> i < N.min (sb_next s) NUM_PAGES /\ sb_table s i = bucket_of size) /\
    N.of_nat (List.length (filter (fun x => bucket_of (snd x) =? bucket_of size) l)) =
    N.of_nat (List.length pages) * (PAGE / (16 * (bucket_of size + 1))).
Proof.
  intros B1 B2 B3 R H. assert (BO : base_ok base) by (repeat split; auto).
  pose proof (sruns_inv _ _ _ _ _ _ BO (sinit_inv base m BO) R) as I.
  unfold sba_alloc in H. destruct (N.ltb_spec MAX_ALLOC size) as [|SZ]; [discriminate|]. unfold MAX_ALLOC in SZ. destruct (bucket_spec _ SZ) as (B & _).
  set (b := bucket_of size) in *. destruct (p_align (sb_pool s b) <? align); [discriminate|]. destruct (sb_wait s b); [discriminate|].
  destruct (N.eqb_spec (p_head (sb_pool s b)) 0) as [H0|H0]; [|destruct (pool_alloc _ _ _) as [[? ?] ?]; discriminate].
  destruct (si_inv _ _ _ I b B) as (fl & C & Pm). rewrite H0 in C. destruct fl as [|x r]; [|cbn in C; destruct C as (<- & Z & _); now elim Z].
  cbn [app] in Pm. apply Permutation_length in Pm. unfold held_in in Pm. rewrite map_length in Pm.
  exists (map (fun i => N.of_nat i) (filter (fun i => sb_table s (N.of_nat i) =? b) (seq 0 (npages s)))). split; [|split].
  - apply FinFun.Injective_map_NoDup; [intros x y; apply Nat2N.inj|]. apply NoDup_filter, seq_NoDup.
  - intros i. rewrite in_map_iff. split.
    + intros (j & <- & J). apply filter_In in J. destruct J as (J & T). apply in_seq in J. apply N.eqb_eq in T. unfold npages in J. split; [lia|auto].
    + intros (L & T). exists (N.to_nat i). split; [lia|]. apply filter_In. split; [apply in_seq; unfold npages; lia|]. rewrite N2Nat.id. now apply N.eqb_eq.
  - change (filter (fun x : block => bucket_of (snd x) =? b) l) with (filter (fun x : N * N => bucket_of (snd x) =? b) l). rewrite Pm, map_length.
    pose proof (si_pool _ _ _ I b B) as BP. replace (PAGE / (16 * (b + 1))) with (per_page (sb_pool s b)) by (unfold per_page; now rewrite (bpool_stride b)).
    assert (E : List.length (pages_of base (sb_table s) b (npages s)) = List.length (filter (fun i => sb_table s (N.of_nat i) =? b) (seq 0 (npages s)))).
    { clear. induction (npages s) as [|n IH]; [reflexivity|]. rewrite seq_S, filter_app, app_length, <- IH. cbn [pages_of filter plus].
      destruct (sb_table s (N.of_nat n) =? b); cbn [List.length]; lia. }
    rewrite <- E. generalize (pages_of base (sb_table s) b (npages s)). intros pg. clear. unfold slots.
    induction pg as [|g gs IH]; [reflexivity|]. cbn [flat_map List.length]. rewrite app_length. unfold cells at 1. rewrite map_length, seq_length. unfold npp at 1. lia.
Qed.
Print Assumptions C34_small_reuse.

(** Concrete histories. *)
Example C34_pool_case :
  let s0 := mkPst (pool_new 20000 8) (fun _ => 0) [] [] in
  let evs := [PAlloc 131072; PAlloc 0; PFree 131072; PAlloc 0; PAlloc 0; PAlloc 65536] in
  exists s, pruns s0 evs s /\ ps_live s = [65536; 171072; 131072; 151072] /\ ps_pages s = [65536; 131072].
Proof.
  cbn [pruns pok]. eexists. split; [|split].
  - split; [right; split; [reflexivity|split; [unfold PAGE; lia|constructor]]|]. split; [now left|]. split; [vm_compute; tauto|].
    split; [now left|]. split; [now left|]. split; [|reflexivity].
    right. split; [reflexivity|]. split; [unfold PAGE; lia|]. vm_compute. constructor; [left; discriminate|constructor].
  - vm_compute. reflexivity.
  - vm_compute. reflexivity.
Qed.
(** Two threads reach for the page counter at once; both size classes get pages of their own. *)
Example C34_small_case :
  exists s l, sruns (sba_init 1048576 (fun _ => 0)) [] [SAlloc 250 8; SAlloc 200 16; SGrab 12; SGrab 15; SAlloc 256 1; SFree 1048576; SAlloc 0 1; SAlloc 197 1] s l /\
              l = [(1048576, 197); (1114368, 256); (1114112, 250)].
Proof.
  eexists. eexists. split.
  - cbn [sruns]. split; [exact I|]. split; [exact I|]. split; [exact I|]. split; [exact I|]. split; [exact I|]. split; [left; exists 200; vm_compute; tauto|].
    split; [exact I|]. split; [exact I|]. split; reflexivity.
  - vm_compute. reflexivity.
Qed.
