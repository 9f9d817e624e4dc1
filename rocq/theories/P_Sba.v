(** Proofs about the small block allocator. *)
From Coq Require Import List Arith Bool NArith Lia Permutation.
From Verif Require Import M_Bytes M_Stream P_Stream M_Pool S_Pool P_Pool.
Import ListNotations.
Local Open Scope N_scope.

Definition paddr (base : N) (i : nat) : N := base + N.of_nat i * PAGE.
Fixpoint pages_of (base : N) (tbl : N -> N) (b : N) (n : nat) : list N :=
  match n with
  | O => []
  | S k => if tbl (N.of_nat k) =? b then paddr base k :: pages_of base tbl b k else pages_of base tbl b k
  end.
Lemma in_pages base tbl b n g : In g (pages_of base tbl b n) <-> exists i, (i < n)%nat /\ tbl (N.of_nat i) = b /\ g = paddr base i.
Proof.
  induction n as [|n IH]; cbn [pages_of].
  - split; [easy|intros (i & L & _); lia].
  - destruct (N.eqb_spec (tbl (N.of_nat n)) b) as [E|E]; cbn [In]; rewrite IH; split.
    + intros [<-|(i & L & T & ->)]; [exists n|exists i]; auto.
    + intros (i & L & T & ->). destruct (Nat.eq_dec i n) as [->|]; [now left|]. right. exists i. repeat split; auto; lia.
    + intros (i & L & T & ->). exists i. auto.
    + intros (i & L & T & ->). exists i. repeat split; auto. destruct (Nat.eq_dec i n) as [->|]; [contradiction|lia].
Qed.
Lemma pages_ext base tbl tbl' b n : (forall i, (i < n)%nat -> tbl' (N.of_nat i) = tbl (N.of_nat i)) -> pages_of base tbl' b n = pages_of base tbl b n.
Proof. induction n as [|n IH]; intros E; cbn; auto. rewrite E, IH by auto. reflexivity. Qed.
Lemma paddr_apart base i j : i <> j -> apart (paddr base i, PAGE) (paddr base j, PAGE).
Proof. intros H. unfold apart, paddr, PAGE. cbn. lia. Qed.
Lemma pages_apart base tbl b n : all_apart (map (fun g => (g, PAGE)) (pages_of base tbl b n)).
Proof.
  induction n as [|n IH]; cbn [pages_of]; [constructor|]. destruct (tbl (N.of_nat n) =? b); auto. cbn [map]. constructor; auto.
  apply Forall_map, Forall_forall. intros g I. apply in_pages in I. destruct I as (i & L & _ & ->). apply paddr_apart. lia.
Qed.

Definition bpool (b : N) (p : pool) : Prop := p_size p = 16 * (b + 1) /\ p_align p = 16.
Lemma bpool_wf b p : b < 16 -> bpool b p -> wf_pool p.
Proof. intros B (E1 & E2). unfold wf_pool. rewrite E1, E2. unfold PAGE. split; [lia|]. exists 4. split; [reflexivity|lia]. Qed.
Lemma bpool_stride b p : b < 16 -> bpool b p -> stride p = 16 * (b + 1).
Proof.
  intros B (E1 & E2). unfold stride. rewrite E1, E2. change (round_up (16 * (b + 1)) 16) with (round_up (16 * (b + 1)) (2 ^ 4)). rewrite round_up_spec by (change (2 ^ 4) with 16; lia). change (2 ^ 4) with 16.
  f_equal. replace (16 * (b + 1) + (16 - 1)) with (15 + (b + 1) * 16) by lia. rewrite N.div_add by lia. reflexivity.
Qed.
Lemma bucket_spec size : size <= 256 -> bucket_of size < 16 /\ N.max 1 size <= 16 * (bucket_of size + 1).
Proof.
  intros H. assert (E : bucket_of size = (N.max size 16 + 15) / 16 - 1).
  { unfold bucket_of, ALIGN. change (round_up (N.max size 16) 16) with (round_up (N.max size 16) (2 ^ 4)).
    rewrite round_up_spec by (change (2 ^ 4) with 16; lia). change (2 ^ 4) with 16. rewrite N.mul_comm, N.div_mul by lia. reflexivity. }
  rewrite E. set (x := N.max size 16 + 15). assert (X : 31 <= x <= 271) by lia. assert (XS : size + 15 <= x) by lia. clearbody x.
  pose proof (N.div_mod x 16 ltac:(lia)) as D. pose proof (N.mod_lt x 16 ltac:(lia)) as R. clear E.
  set (q := x / 16) in *. set (r := x mod 16) in *. clearbody q r. split; lia.
Qed.

Definition held_in (b : N) (l : list block) : list N := map fst (filter (fun x => bucket_of (snd x) =? b) l).
Definition npages (s : sba) : nat := N.to_nat (N.min (sb_next s) NUM_PAGES).
Fixpoint waiting (w : N -> option N) (n : nat) : N :=
  match n with O => 0 | S k => waiting w k + match w (N.of_nat k) with Some _ => 1 | None => 0 end end.
Lemma waiting_le w n : waiting w n <= N.of_nat n.
Proof. induction n; cbn [waiting]; [lia|]. destruct (w (N.of_nat n)); lia. Qed.
Lemma waiting_ext w w' n : (forall i, (i < n)%nat -> w' (N.of_nat i) = w (N.of_nat i)) -> waiting w' n = waiting w n.
Proof. induction n as [|n IH]; intros E; cbn [waiting]; auto. rewrite E, IH by auto. reflexivity. Qed.
Lemma waiting_clear w b n x : w b = Some x -> (N.to_nat b < n)%nat -> waiting (upd w b None) n + 1 = waiting w n.
Proof.
  intros W. induction n as [|n IH]; intros L; [lia|]. cbn [waiting]. destruct (N.eq_dec (N.of_nat n) b) as [E|E].
  - rewrite E, upd_same, W. rewrite (waiting_ext w); [lia|]. intros i I. apply upd_other. lia.
  - rewrite upd_other by auto. rewrite <- IH by lia. lia.
Qed.

Definition base_ok (base : N) : Prop := base <> 0 /\ base mod 16 = 0 /\ base + NUM_PAGES * PAGE <= NOT_INIT.
Record sinv (base : N) (s : sba) (l : list block) : Prop := {
  si_base : sb_base s = base;
  si_pool : forall b, b < 16 -> bpool b (sb_pool s b);
  si_inv : forall b, b < 16 -> pinv (sb_mem s) (sb_pool s b) (pages_of base (sb_table s) b (npages s)) (held_in b l);
  si_size : Forall (fun x => snd x <= 256) l;
  si_wait : forall b sz, sb_wait s b = Some sz -> sz <= 256 /\ bucket_of sz = b /\ p_head (sb_pool s b) = 0;
  si_table : forall i, (i < npages s)%nat -> sb_table s (N.of_nat i) < 16;
  si_next : sb_next s <= NUM_PAGES \/ sb_next s + waiting (sb_wait s) 16 <= NUM_PAGES + 16
}.

Lemma NP_val : NUM_PAGES = 3200. Proof. reflexivity. Qed.
Opaque NUM_PAGES.
Lemma page_ok_i base i : base_ok base -> (N.of_nat i < NUM_PAGES) -> page_ok (paddr base i) /\ paddr base i mod 16 = 0.
Proof.
  intros (B1 & B2 & B3) I. rewrite NP_val in *. unfold page_ok, paddr, PAGE, NOT_INIT in *. split; [lia|].
  replace (base + N.of_nat i * 65536) with (base + (N.of_nat i * 4096) * 16) by lia. rewrite N.mod_add by lia. auto.
Qed.
Lemma page_index_ok base i a : base_ok base -> N.of_nat i < NUM_PAGES -> paddr base i <= a -> a < paddr base i + PAGE -> page_index base a = N.of_nat i.
Proof.
  intros (B1 & B2 & B3) I L H. rewrite NP_val in *. unfold page_index, paddr, PAGE, NOT_INIT, u64 in *.
  replace (a + 18446744073709551616 - base) with (a - base + 1 * 18446744073709551616) by lia.
  rewrite N.mod_add by lia. rewrite N.mod_small by lia. symmetry. apply N.div_unique with (a - base - N.of_nat i * 65536); lia.
Qed.
Lemma npages_le s : (npages s <= 3200)%nat.
Proof. unfold npages. rewrite NP_val. lia. Qed.

(** Any cell of a bucket, with the page it lies in. *)
Lemma slot_page base s l b a : base_ok base -> sinv base s l -> b < 16 -> In a (slots (sb_pool s b) (pages_of base (sb_table s) b (npages s))) ->
  exists i, (i < npages s)%nat /\ sb_table s (N.of_nat i) = b /\ within (a, 16 * (b + 1)) (paddr base i, PAGE).
Proof.
  intros BO I B J. pose proof (si_pool _ _ _ I b B) as BP. apply slots_in in J; [|now apply (bpool_wf b)].
  destruct J as (g & G & J). rewrite (bpool_stride b) in J by auto. apply in_pages in G. destruct G as (i & L & T & ->). eauto.
Qed.
Lemma held_slot base s l x : sinv base s l -> In x l ->
  bucket_of (snd x) < 16 /\ In (fst x) (slots (sb_pool s (bucket_of (snd x))) (pages_of base (sb_table s) (bucket_of (snd x)) (npages s))).
Proof.
  intros I X. pose proof (si_size _ _ _ I) as SZ. rewrite Forall_forall in SZ. pose proof (bucket_spec _ (SZ x X)) as (B & _). split; auto.
  destruct (si_inv _ _ _ I _ B) as (fl & _ & Pm). eapply Permutation_in; [exact Pm|]. apply in_or_app. right.
  apply in_map. apply filter_In. split; auto. apply N.eqb_refl.
Qed.
(** A change of memory and of one bucket leaves the others alone. *)
Lemma pinv_frame m m' p pgs lv : wf_pool p -> pinv m p pgs lv ->
  (forall a, (exists g, In g pgs /\ within (a, 8) (g, PAGE)) -> m' a = m a) -> pinv m' p pgs lv.
Proof.
  intros W (fl & C & Pm) F. exists fl. split; auto. eapply chain_ext; [|exact C]. intros a I. apply F.
  assert (J : In a (slots p pgs)) by (eapply Permutation_in; [exact Pm|apply in_or_app; now left]).
  apply (slots_in _ _ _ W) in J. destruct J as (g & G & J). exists g. split; auto.
  pose proof (stride_ok _ W) as ((S1 & S2) & _). destruct W as ((W1 & W2) & _). unfold within in *. cbn [fst snd] in *. lia.
Qed.

Lemma pool_kind_alloc p m page p1 m1 r : pool_alloc p m page = (p1, m1, r) -> same_kind p p1.
Proof.
  unfold pool_alloc, add_page. destruct (p_head p =? 0); [destruct (page =? 0)|].
  - intros H. inversion H; subst. split; reflexivity.
  - destruct (link _ m page (stride p)). cbn. intros H. inversion H; subst. split; reflexivity.
  - cbn. intros H. inversion H; subst. split; reflexivity.
Qed.
Lemma kind_bpool b p q : same_kind p q -> bpool b p -> bpool b q.
Proof. intros (E1 & E2) (F1 & F2). unfold bpool. now rewrite E1, E2. Qed.
Lemma held_in_cons b r size l : held_in b ((r, size) :: l) = if bucket_of size =? b then r :: held_in b l else held_in b l.
Proof. unfold held_in. cbn [filter snd]. destruct (bucket_of size =? b); reflexivity. Qed.

Lemma alloc_step base s l size align : base_ok base -> sinv base s l ->
  sinv base (fst (sba_alloc s size align)) (held l (SAlloc size align) (snd (sba_alloc s size align))).
Proof.
  intros BO I. unfold sba_alloc. destruct (N.ltb_spec MAX_ALLOC size) as [|SZ]; [exact I|]. unfold MAX_ALLOC in SZ.
  destruct (bucket_spec _ SZ) as (B & _). set (b := bucket_of size) in *. pose proof (si_pool _ _ _ I b B) as BP. pose proof (bpool_wf _ _ B BP) as W.
  destruct (p_align (sb_pool s b) <? align); [exact I|]. destruct (sb_wait s b) as [x|] eqn:WT; [exact I|].
  destruct (N.eqb_spec (p_head (sb_pool s b)) 0) as [H0|H0].
  - destruct (N.leb_spec NUM_PAGES (sb_next s)) as [|NX]; [exact I|]. cbn [fst snd held]. destruct I. constructor; cbn [sb_base sb_next sb_table sb_pool sb_wait sb_mem with_pool]; auto.
    + intros b' sz. destruct (N.eq_dec b' b) as [->|N].
      * rewrite upd_same. intros E. inversion E; subst. auto.
      * rewrite upd_other by auto. auto.
    + left. lia.
  - unfold pool_alloc. destruct (N.eqb_spec (p_head (sb_pool s b)) 0); [contradiction|].
    pose proof (pop_ok _ _ _ _ W (si_inv _ _ _ I b B) H0) as P. cbn [pop_block fst snd held] in *.
    constructor; cbn [sb_base sb_next sb_table sb_pool sb_wait sb_mem with_pool]; try apply I.
    + intros b' B'. destruct (N.eq_dec b' b) as [->|N]; [rewrite upd_same|rewrite upd_other by auto; now apply (si_pool _ _ _ I)]. exact BP.
    + intros b' B'. rewrite held_in_cons. change (bucket_of size) with b. destruct (N.eqb_spec b b') as [<-|N].
      * rewrite upd_same. exact P.
      * rewrite upd_other by auto. now apply (si_inv _ _ _ I).
    + constructor; [auto|apply I].
    + intros b' sz E. destruct (N.eq_dec b' b) as [->|N]; [congruence|rewrite upd_other by auto; now apply (si_wait _ _ _ I)].
Qed.

Lemma grab_step base s l b : base_ok base -> sinv base s l ->
  sinv base (fst (sba_grab s b)) (held l (SGrab b) (snd (sba_grab s b))).
Proof.
  intros BO I. unfold sba_grab. destruct (sb_wait s b) as [size|] eqn:WT; [|exact I].
  destruct (si_wait _ _ _ I _ _ WT) as (SZ & EB & H0). destruct (bucket_spec _ SZ) as (B & _). rewrite EB in B.
  pose proof (si_pool _ _ _ I b B) as BP. pose proof (bpool_wf _ _ B BP) as W.
  assert (WB : waiting (sb_wait s) 16 <= 16) by apply (waiting_le _ 16).
  assert (WC : waiting (upd (sb_wait s) b None) 16 + 1 = waiting (sb_wait s) 16) by (apply (waiting_clear _ _ _ _ WT); lia).
  assert (NB : sb_next s < NUM_PAGES + 16) by (destruct (si_next _ _ _ I); lia). rewrite NP_val in NB.
  assert (U : u32 (sb_next s + 1) = sb_next s + 1) by (unfold u32; apply N.mod_small; lia). rewrite U.
  assert (WU : forall b' sz, upd (sb_wait s) b None b' = Some sz -> b' <> b /\ sb_wait s b' = Some sz).
  { intros b' sz E. destruct (N.eq_dec b' b) as [->|N]; [rewrite upd_same in E; discriminate|]. rewrite upd_other in E by auto. auto. }
  destruct (N.leb_spec NUM_PAGES (sb_next s)) as [NX|NX]; cbn [fst snd held].
  - assert (EN : npages (mkSBA (sb_base s) (sb_next s + 1) (sb_table s) (sb_pool s) (upd (sb_wait s) b None) (sb_mem s)) = npages s) by (unfold npages; cbn [sb_next]; lia).
    constructor; try rewrite EN; cbn [sb_base sb_next sb_table sb_pool sb_wait sb_mem with_pool]; try apply I.
    + intros b' sz E. apply WU in E. destruct E. now apply (si_wait _ _ _ I).
    + right. destruct (si_next _ _ _ I); lia.
  - assert (NI : npages s = N.to_nat (sb_next s)) by (unfold npages; lia).
    set (i := N.to_nat (sb_next s)) in *. assert (Ei : sb_next s = N.of_nat i) by (unfold i; lia).
    pose proof (page_ok_i base i BO ltac:(lia)) as (PO & PA).
    assert (EP : u64 (sb_base s + sb_next s * PAGE) = paddr base i).
    { rewrite (si_base _ _ _ I), Ei. unfold u64. apply N.mod_small. destruct PO. unfold paddr, PAGE in *. lia. }
    rewrite EP. unfold pool_alloc. rewrite H0, N.eqb_refl. destruct (N.eqb_spec (paddr base i) 0) as [Z|_]; [destruct PO; contradiction|].
    destruct (add_page (sb_pool s b) (sb_mem s) (paddr base i)) as [p1 m1] eqn:AP.
    assert (FA : Forall (fun q => apart (paddr base i, PAGE) (q, PAGE)) (pages_of base (sb_table s) b (npages s))).
    { apply Forall_forall. intros q Q. apply in_pages in Q. destruct Q as (j & L & _ & ->). apply paddr_apart. lia. }
    destruct (add_page_ok _ _ _ _ _ _ _ W (si_inv _ _ _ I b B) PO FA AP) as (I1 & SK & HP & FR).
    pose proof (pop_ok m1 p1 _ _ (wf_kind _ _ SK W) I1 ltac:(rewrite HP; apply PO)) as I2. rewrite HP in I2. cbn [pop_block fst] in *.
    rewrite HP. cbn [snd fst held].
    assert (EN : npages (mkSBA (sb_base s) (sb_next s + 1) (upd (sb_table s) (sb_next s) (b mod 256)) (upd (sb_pool s) b (mkPool (p_size p1) (p_align p1) (m1 (paddr base i)))) (upd (sb_wait s) b None) m1) = S i) by (unfold npages; cbn [sb_next]; lia).
    assert (BM : b mod 256 = b) by (apply N.mod_small; lia). rewrite BM in *.
    assert (TX : forall j, (j < i)%nat -> upd (sb_table s) (sb_next s) b (N.of_nat j) = sb_table s (N.of_nat j)) by (intros j J; apply upd_other; lia).
    constructor; rewrite ?EN; cbn [sb_base sb_next sb_table sb_pool sb_wait sb_mem]; try apply I.
    + intros b' B'. destruct (N.eq_dec b' b) as [->|N]; [rewrite upd_same|rewrite upd_other by auto; now apply (si_pool _ _ _ I)].
      destruct SK as (K1 & K2), BP as (BP1 & BP2). split; cbn [p_size p_align]; congruence.
    + intros b' B'. rewrite held_in_cons, EB. cbn [pages_of]. rewrite <- Ei, upd_same. rewrite (pages_ext base (sb_table s)) by auto.
      destruct (N.eqb_spec b b') as [<-|N].
      * rewrite upd_same. rewrite NI, HP in I2. exact I2.
      * rewrite upd_other by auto. pose proof (si_pool _ _ _ I b' B') as BP'. pose proof (si_inv _ _ _ I b' B') as Q. rewrite NI in Q.
        eapply (pinv_frame (sb_mem s)); [now apply (bpool_wf b')|exact Q|].
        intros a (g & G & Wn). apply FR. apply in_pages in G. destruct G as (j & L & T & ->). intros Wn2.
        pose proof (paddr_apart base i j ltac:(lia)) as A. unfold within, apart in *. cbn [fst snd] in *. lia.
    + constructor; [auto|apply I].
    + intros b' sz E. apply WU in E. destruct E as (N & E). rewrite upd_other by auto. now apply (si_wait _ _ _ I).
    + intros j J. destruct (Nat.eq_dec j i) as [->|N]; [rewrite <- Ei, upd_same; auto|]. rewrite TX by lia. apply (si_table _ _ _ I). lia.
    + left. lia.
Qed.

Lemma free_not_ours base ptr : base_ok base -> (ptr < base \/ base + NUM_PAGES * PAGE <= ptr < 18446744073709551616) -> NUM_PAGES <= page_index base ptr.
Proof.
  intros (B1 & B2 & B3). rewrite NP_val in *. unfold page_index, u64, PAGE, NOT_INIT in *. intros [H|H].
  - rewrite N.mod_small by lia. apply N.div_le_lower_bound; lia.
  - replace (ptr + 18446744073709551616 - base) with (ptr - base + 1 * 18446744073709551616) by lia.
    rewrite N.mod_add by lia. rewrite N.mod_small by lia. apply N.div_le_lower_bound; lia.
Qed.
(** A pointer in use leads to the bucket it came from. *)
Lemma routing base s l ptr size : base_ok base -> sinv base s l -> In (ptr, size) l ->
  page_index base ptr < NUM_PAGES /\ sb_table s (page_index base ptr) = bucket_of size /\ bucket_of size < 16.
Proof.
  intros BO I X. destruct (held_slot _ _ _ _ I X) as (B & Sl). cbn [fst snd] in *.
  destruct (slot_page _ _ _ _ _ BO I B Sl) as (i & L & T & Wn). pose proof (npages_le s) as NL. unfold within in Wn. cbn [fst snd] in Wn.
  rewrite (page_index_ok base i ptr BO); [|rewrite NP_val; lia|lia|lia]. rewrite NP_val. repeat split; auto; lia.
Qed.
Lemma filter_held b ptr l : map fst (filter (fun x : block => bucket_of (snd x) =? b) (filter (fun x => negb (fst x =? ptr)) l)) = remove1 ptr (held_in b l).
Proof.
  unfold held_in. induction l as [|(a, sz) r IH]; cbn [filter fst snd map]; auto.
  destruct (N.eqb_spec a ptr) as [->|N]; cbn [negb filter map fst snd].
  - destruct (bucket_of sz =? b); cbn [map fst]; auto. rewrite IH. unfold remove1. cbn. destruct (N.eq_dec ptr ptr); congruence.
  - destruct (bucket_of sz =? b); cbn [map fst filter snd]; auto. unfold remove1 in *. cbn. destruct (N.eq_dec ptr a); [congruence|]. now rewrite IH.
Qed.
Lemma free_step base s l ptr : base_ok base -> sinv base s l -> sok s l (SFree ptr) ->
  sinv base (fst (sba_free s ptr)) (held l (SFree ptr) (snd (sba_free s ptr))).
Proof.
  intros BO I O. unfold sba_free. cbn [sok] in O. rewrite (si_base _ _ _ I) in *.
  destruct O as [(size & X)|O]; [|destruct (N.leb_spec NUM_PAGES (page_index base ptr)) as [|H]; [exact I|]; pose proof (free_not_ours base ptr BO O); lia].
  destruct (routing _ _ _ _ _ BO I X) as (R1 & R2 & B). destruct (N.leb_spec NUM_PAGES (page_index base ptr)) as [|_]; [lia|].
  rewrite R2. set (b := bucket_of size) in *. destruct (sb_wait s b) eqn:WT; [exact I|].
  cbn [pool_free fst snd held]. pose proof (si_pool _ _ _ I b B) as BP. pose proof (bpool_wf _ _ B BP) as W.
  assert (HI : In ptr (held_in b l)).
  { apply (in_map fst _ (ptr, size)). apply filter_In. split; auto. apply N.eqb_refl. }
  constructor; cbn [sb_base sb_next sb_table sb_pool sb_wait sb_mem with_pool]; try apply I.
  - intros b' B'. destruct (N.eq_dec b' b) as [->|N]; [rewrite upd_same|rewrite upd_other by auto; now apply (si_pool _ _ _ I)]. exact BP.
  - intros b' B'. unfold held_in. rewrite filter_held. change (npages (with_pool s b (mkPool (p_size (sb_pool s b)) (p_align (sb_pool s b)) ptr) (upd (sb_mem s) ptr (p_head (sb_pool s b))))) with (npages s).
    destruct (N.eq_dec b' b) as [->|N].
    + rewrite upd_same. apply free_ok; auto; [now apply (si_inv _ _ _ I)|apply pages_apart|].
      apply Forall_forall. intros g G. apply in_pages in G. destruct G as (j & L & _ & ->). pose proof (npages_le s). apply page_ok_i; auto. rewrite NP_val. lia.
    + rewrite upd_other by auto.
      assert (SB : In ptr (slots (sb_pool s b) (pages_of base (sb_table s) b (npages s)))) by (pose proof (held_slot _ _ _ _ I X) as (_ & Z); exact Z).
      destruct (slot_page _ _ _ _ _ BO I B SB) as (i & L & T & Wn).
      assert (NH : ~ In ptr (held_in b' l)).
      { intros Q. unfold held_in in Q. apply in_map_iff in Q. destruct Q as ((a & sz) & E & Q). apply filter_In in Q. destruct Q as (Q & Eb). cbn in E, Eb. subst a. apply N.eqb_eq in Eb.
        pose proof (routing _ _ _ _ _ BO I Q) as (_ & R3 & _). fold b in R2. congruence. }
      unfold remove1. rewrite notin_remove by auto.
      eapply (pinv_frame (sb_mem s)); [apply (bpool_wf b'); auto; now apply (si_pool _ _ _ I)|now apply (si_inv _ _ _ I)|].
      intros a (g & G & Wa). apply upd_other. intros ->. apply in_pages in G. destruct G as (j & L' & T' & ->).
      assert (NE : i <> j) by congruence. pose proof (paddr_apart base i j NE) as A. unfold within, apart in *. cbn [fst snd] in *. lia.
  - apply Forall_forall. intros x Q. apply filter_In in Q. destruct Q as (Q & _). pose proof (si_size _ _ _ I) as SZ. rewrite Forall_forall in SZ. auto.
  - intros b' sz E. destruct (N.eq_dec b' b) as [->|N]; [congruence|rewrite upd_other by auto; now apply (si_wait _ _ _ I)].
Qed.

(** Two blocks in use, or one in use and one in the chain, do not overlap. *)
Lemma cross_apart base s l b a x : base_ok base -> sinv base s l -> b < 16 ->
  In a (slots (sb_pool s b) (pages_of base (sb_table s) b (npages s))) -> In x l -> bucket_of (snd x) <> b ->
  apart (a, 16 * (b + 1)) (fst x, 16 * (bucket_of (snd x) + 1)).
Proof.
  intros BO I B SA X N. destruct (held_slot _ _ _ _ I X) as (B' & SX).
  destruct (slot_page _ _ _ _ _ BO I B SA) as (i & L & T & Wn). destruct (slot_page _ _ _ _ _ BO I B' SX) as (j & L' & T' & Wn').
  assert (NE : i <> j) by congruence. pose proof (paddr_apart base i j NE) as A. unfold within, apart in *. cbn [fst snd] in *. lia.
Qed.
Lemma bucket_apart base s l b : base_ok base -> sinv base s l -> b < 16 ->
  exists fl, chain (sb_mem s) (p_head (sb_pool s b)) fl /\ Permutation (fl ++ held_in b l) (slots (sb_pool s b) (pages_of base (sb_table s) b (npages s))) /\
  all_apart (map (fun a => (a, 16 * (b + 1))) (fl ++ held_in b l)).
Proof.
  intros BO I B. destruct (si_inv _ _ _ I b B) as (fl & C & Pm). exists fl. split; [auto|split; [auto|]].
  pose proof (si_pool _ _ _ I b B) as BP. rewrite <- (bpool_stride b (sb_pool s b)) by auto.
  eapply fop_perm; [exact apart_sym|apply Permutation_map, Permutation_sym; exact Pm|]. apply slots_apart; [now apply (bpool_wf b)|apply pages_apart].
Qed.
Lemma write_step base s l m' : base_ok base -> sinv base s l -> writes_only l (sb_mem s) m' ->
  sinv base (mkSBA (sb_base s) (sb_next s) (sb_table s) (sb_pool s) (sb_wait s) m') l.
Proof.
  intros BO I O. constructor; cbn [sb_base sb_next sb_table sb_pool sb_wait sb_mem with_pool]; try apply I. intros b B. change (npages (mkSBA _ _ _ _ _ _)) with (npages s).
  destruct (bucket_apart _ _ _ _ BO I B) as (fl & C & Pm & A). exists fl. split; auto. eapply chain_ext; [|exact C].
  intros a J. apply O. intros x X. pose proof (si_size _ _ _ I) as SZ. rewrite Forall_forall in SZ. pose proof (bucket_spec _ (SZ x X)) as (Bx & Sx).
  destruct (N.eq_dec (bucket_of (snd x)) b) as [E|N].
  - assert (R : apart (a, 16 * (b + 1)) (fst x, 16 * (b + 1))).
    { assert (H : In (fst x) (held_in b l)) by (apply in_map, filter_In; split; [auto|now apply N.eqb_eq]).
      rewrite map_app in A. clear - A J H. induction fl as [|y r IH]; cbn [map app In] in *; [tauto|]. inversion A as [|? ? F AA']; subst.
      destruct J as [->|J]; [|auto]. rewrite Forall_forall in F. apply F. apply in_or_app. right. apply in_map_iff. eauto. }
    rewrite E in Sx. unfold apart in *. cbn [fst snd] in *. lia.
  - assert (SA : In a (slots (sb_pool s b) (pages_of base (sb_table s) b (npages s)))) by (eapply Permutation_in; [exact Pm|apply in_or_app; now left]).
    pose proof (cross_apart _ _ _ _ _ _ BO I B SA X N) as R. unfold apart in *. cbn [fst snd] in *. lia.
Qed.
Lemma sstep base s l e : base_ok base -> sinv base s l -> sok s l e -> sinv base (fst (sdo s e)) (held l e (snd (sdo s e))).
Proof.
  intros BO I O. destruct e as [size align|b|ptr|m']; cbn [sdo].
  - now apply alloc_step.
  - now apply grab_step.
  - now apply free_step.
  - cbn. now apply write_step.
Qed.
Lemma sruns_inv base evs : forall s l s' l', base_ok base -> sinv base s l -> sruns s l evs s' l' -> sinv base s' l'.
Proof.
  induction evs as [|e r IH]; intros s l s' l' BO I H; cbn in H.
  - destruct H; now subst.
  - destruct H as (H1 & H2). eapply IH; [exact BO| |exact H2]. now apply sstep.
Qed.
Lemma sinit_inv base m : base_ok base -> sinv base (sba_init base m) [].
Proof.
  intros BO. constructor; cbn [sb_base sb_next sb_table sb_pool sb_wait sb_mem with_pool]; auto.
  - intros b B. unfold bpool, sba_init, pool_new, ALIGN, u32. cbn [sb_pool p_size p_align]. split; [apply N.mod_small; lia|reflexivity].
  - intros b B. exists []. cbn. split; [reflexivity|constructor].
  - intros; discriminate.
  - intros i H. unfold npages in H. cbn in H. lia.
  - left. rewrite NP_val. cbn. lia.
Qed.
Lemma all_apart_buckets (l : list block) : (forall b, b < 16 -> all_apart (map (fun a => (a, 16 * (b + 1))) (held_in b l))) ->
  (forall x, In x l -> bucket_of (snd x) < 16) ->
  (forall x y, In x l -> In y l -> bucket_of (snd x) <> bucket_of (snd y) -> apart (fst x, 16 * (bucket_of (snd x) + 1)) (fst y, 16 * (bucket_of (snd y) + 1))) ->
  all_apart (map (fun x => (fst x, 16 * (bucket_of (snd x) + 1))) l).
Proof.
  induction l as [|x r IH]; intros H1 HB H2; [constructor|]. cbn [map]. constructor.
  - apply Forall_map, Forall_forall. intros y Y. destruct (N.eq_dec (bucket_of (snd x)) (bucket_of (snd y))) as [E|N]; [|apply H2; auto; [now left|now right]].
    specialize (H1 (bucket_of (snd x)) (HB x (or_introl eq_refl))). destruct x as (a, sz). rewrite held_in_cons in H1. cbn [fst snd] in *. rewrite N.eqb_refl in H1. cbn [map] in H1.
    inversion H1 as [|? ? F _]; subst. rewrite Forall_forall in F. rewrite <- E. apply F. apply in_map_iff. exists (fst y). split; auto.
    apply in_map, filter_In. split; auto. now apply N.eqb_eq.
  - apply IH.
    + intros b B. specialize (H1 b B). destruct x as (a, sz). rewrite held_in_cons in H1. destruct (bucket_of sz =? b); auto. cbn [map] in H1. inversion H1; auto.
    + intros; apply HB; now right.
    + intros; apply H2; auto; now right.
Qed.
Lemma fop_map_impl {A B} (R : B -> B -> Prop) (f g : A -> B) l : (forall x y, In x l -> In y l -> R (f x) (f y) -> R (g x) (g y)) ->
  ForallOrdPairs R (map f l) -> ForallOrdPairs R (map g l).
Proof.
  induction l as [|x r IH]; intros H F; [constructor|]. cbn [map] in *. inversion F as [|? ? F1 F2]; subst. constructor.
  - rewrite Forall_forall in *. intros z Z. apply in_map_iff in Z. destruct Z as (y & <- & Y). apply H; [now left|now right|]. apply F1. now apply in_map.
  - apply IH; auto. intros; apply H; auto; now right.
Qed.
Lemma held_all_apart base s l : base_ok base -> sinv base s l -> all_apart (map (fun x => (fst x, N.max 1 (snd x))) l).
Proof.
  intros BO I. pose proof (si_size _ _ _ I) as SZ. rewrite Forall_forall in SZ.
  eapply (fop_map_impl _ (fun x => (fst x, 16 * (bucket_of (snd x) + 1)))).
  - intros x y X Y. pose proof (bucket_spec _ (SZ x X)). pose proof (bucket_spec _ (SZ y Y)). unfold apart. cbn [fst snd]. lia.
  - apply all_apart_buckets.
    + intros b B. destruct (bucket_apart _ _ _ _ BO I B) as (fl & _ & _ & A). rewrite map_app in A. now apply fop_app_r in A.
    + intros x X. apply bucket_spec. auto.
    + intros x y X Y N. destruct (held_slot _ _ _ _ I X) as (B & Sx). apply (cross_apart _ _ _ _ _ _ BO I B Sx Y). auto.
Qed.
Lemma held_places base s l x : base_ok base -> sinv base s l -> In x l ->
  fst x <> 0 /\ fst x mod 16 = 0 /\ within (fst x, N.max 1 (snd x)) (base, NUM_PAGES * PAGE).
Proof.
  intros BO I X. pose proof (si_size _ _ _ I) as SZ. rewrite Forall_forall in SZ. pose proof (bucket_spec _ (SZ x X)) as (B & Sx).
  destruct (held_slot _ _ _ _ I X) as (_ & Sl). destruct (slot_page _ _ _ _ _ BO I B Sl) as (i & L & T & Wn).
  pose proof (npages_le s). pose proof (page_ok_i base i BO ltac:(rewrite NP_val; lia)) as (PO & PA).
  split; [|split].
  - unfold page_ok, within in *. cbn [fst snd] in *. lia.
  - apply in_flat_map in Sl. destruct Sl as (g & G & Sl). apply in_pages in G. destruct G as (j & L' & _ & ->). apply in_cells in Sl. destruct Sl as (k & _ & E).
    rewrite (bpool_stride (bucket_of (snd x))) in E by (auto; now apply (si_pool _ _ _ I)).
    pose proof (page_ok_i base j BO ltac:(rewrite NP_val; lia)) as (_ & PJ). rewrite E.
    replace (paddr base j + N.of_nat k * (16 * (bucket_of (snd x) + 1))) with (paddr base j + (N.of_nat k * (bucket_of (snd x) + 1)) * 16) by lia.
    rewrite N.mod_add by lia. auto.
  - rewrite NP_val. unfold within, paddr, PAGE in *. cbn [fst snd] in *. lia.
Qed.
