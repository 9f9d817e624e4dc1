(** Proofs about the block pool. *)
From Coq Require Import List Arith Bool NArith Lia Permutation.
From Verif Require Import M_Bytes M_Stream P_Stream M_Pool S_Pool.
Import ListNotations.
Local Open Scope N_scope.

Lemma upd_same {A} (m : N -> A) a v : upd m a v a = v.
Proof. unfold upd. now rewrite N.eqb_refl. Qed.
Lemma upd_other {A} (m : N -> A) a v x : x <> a -> upd m a v x = m x.
Proof. intros H. unfold upd. destruct (N.eqb_spec x a); congruence. Qed.

(** The free chain read from memory. *)
Fixpoint chain (m : mem) (h : N) (l : list N) : Prop :=
  match l with [] => h = 0 | a :: r => h = a /\ a <> 0 /\ chain m (m a) r end.
Lemma chain_ext m m' l : forall h, (forall a, In a l -> m' a = m a) -> chain m h l -> chain m' h l.
Proof.
  induction l as [|a r IH]; intros h E H; cbn in *; auto.
  destruct H as (H1 & H2 & H3). split; [auto|split; [auto|]]. rewrite E by auto. apply IH; auto.
Qed.

Definition cells (g sz : N) (n : nat) : list N := map (fun k => g + N.of_nat k * sz) (seq 0 n).
Lemma cells_S g sz n : cells g sz (S n) = g :: cells (g + sz) sz n.
Proof.
  unfold cells. cbn [seq map]. f_equal; [lia|]. rewrite <- seq_shift, map_map. apply map_ext. intros k. lia.
Qed.
Lemma in_cells a g sz n : In a (cells g sz n) <-> exists k, (k < n)%nat /\ a = g + N.of_nat k * sz.
Proof.
  unfold cells. rewrite in_map_iff. split; intros (k & H).
  - destruct H as (E & I). apply in_seq in I. exists k. split; [lia|auto].
  - exists k. split; [symmetry; tauto|]. apply in_seq. lia.
Qed.
Lemma cells_nodup g sz n : 0 < sz -> NoDup (cells g sz n).
Proof.
  intros P. unfold cells. apply FinFun.Injective_map_NoDup; [|apply seq_NoDup].
  intros x y E. assert (N.of_nat x * sz = N.of_nat y * sz) by lia. apply N.mul_cancel_r in H; lia.
Qed.

Lemma link_spec sz : 0 < sz -> forall k m b M last, b <> 0 -> b + N.of_nat k * sz < 18446744073709551616 ->
  link k m b sz = (M, last) ->
  (forall a, ~ In a (cells b sz k) -> M a = m a) /\ last = b + N.of_nat k * sz /\
  forall h fl, chain m h fl -> (forall a, In a fl -> ~ In a (cells b sz (S k))) -> chain (upd M last h) b (cells b sz (S k) ++ fl).
Proof.
  intros P. induction k as [|k IH]; intros m b M last NZ B H.
  - cbn in H. inversion H; subst. split; [auto|]. split; [lia|]. intros h fl C D.
    rewrite cells_S. cbn [cells seq map app chain]. split; [auto|]. split; [auto|]. rewrite upd_same.
    eapply chain_ext; [|exact C]. intros a I. apply upd_other. intros ->. apply (D last I). rewrite cells_S. now left.
  - cbn [link] in H. assert (U : u64 (b + sz) = b + sz) by (unfold u64; apply N.mod_small; lia). cbv zeta in H. rewrite U in H.
    apply IH in H; [|lia|lia]. destruct H as (F & L & C). split; [|split; [lia|]].
    + intros a NI. rewrite cells_S in NI. rewrite F by (intros I; apply NI; now right). apply upd_other. intros ->. apply NI. now left.
    + intros h fl Ch D. rewrite (cells_S b sz (S k)). cbn [app chain]. split; [auto|]. split; [auto|].
      assert (NB : ~ In b (cells (b + sz) sz (S k))).
      { intros I. apply in_cells in I. destruct I as (j & _ & E). lia. }
      assert (LB : b <> last).
      { intros E. apply NB. apply in_cells. exists k. split; [lia|]. rewrite E at 1. exact L. }
      rewrite upd_other by auto. rewrite F by (intros I; apply NB; apply in_cells in I; destruct I as (j & J & E); apply in_cells; exists j; split; [lia|auto]).
      rewrite upd_same. apply C.
      * eapply chain_ext; [|exact Ch]. intros a I. apply upd_other. intros ->. apply (D b I). rewrite cells_S. now left.
      * intros a I J. apply (D a I). rewrite cells_S. now right.
Qed.

(** Well-formed pools: the constructor's assertions (MemPoolBlock.cpp 15-18), the alignment a power of two. *)
Definition wf_pool (p : pool) : Prop := 8 <= p_size p <= PAGE /\ exists k, p_align p = 2 ^ k /\ 4 <= p_align p <= PAGE.
Lemma stride_ok p : wf_pool p -> p_size p <= stride p <= PAGE /\ stride p mod p_align p = 0.
Proof.
  intros ((S1 & S2) & k & E & A). unfold stride. rewrite E in *. unfold PAGE in *.
  assert (K : k <= 16). { apply N.lt_succ_r. apply (N.pow_lt_mono_r_iff 2); [lia|]. change (2 ^ N.succ 16) with 131072. lia. }
  rewrite round_up_spec by lia. set (a := 2 ^ k) in *.
  pose proof (N.div_mod (p_size p + (a - 1)) a ltac:(lia)) as D. pose proof (N.mod_lt (p_size p + (a - 1)) a ltac:(lia)) as M.
  split; [split|].
  - lia.
  - replace 65536 with (a * 2 ^ (16 - k)).
    2:{ unfold a. rewrite <- N.pow_add_r. replace (k + (16 - k)) with 16 by lia. reflexivity. }
    apply N.mul_le_mono_l. apply N.lt_succ_r. apply N.div_lt_upper_bound; [lia|].
    replace (a * N.succ (2 ^ (16 - k))) with (a * 2 ^ (16 - k) + a) by lia.
    replace (a * 2 ^ (16 - k)) with 65536. 2:{ unfold a. rewrite <- N.pow_add_r. replace (k + (16 - k)) with 16 by lia. reflexivity. }
    lia.
  - rewrite N.mul_comm. apply N.mod_mul. lia.
Qed.
Lemma per_page_ok p : wf_pool p -> 1 <= per_page p <= 65536 /\ per_page p * stride p <= PAGE.
Proof.
  intros W. pose proof (stride_ok _ W) as ((S1 & S2) & _). destruct W as ((W1 & W2) & _). unfold per_page, PAGE in *.
  pose proof (N.div_mod 65536 (stride p) ltac:(lia)) as D. pose proof (N.mod_lt 65536 (stride p) ltac:(lia)) as M.
  split; [split|rewrite N.mul_comm; apply N.mul_div_le; lia].
  - apply N.div_le_lower_bound; lia.
  - apply N.div_le_upper_bound; nia.
Qed.

Definition npp (p : pool) : nat := N.to_nat (per_page p).
Definition slots (p : pool) (pgs : list N) : list N := flat_map (fun g => cells g (stride p) (npp p)) pgs.
Definition page_ok (g : N) : Prop := g <> 0 /\ g + PAGE <= 18446744073709551616.
Definition same_kind (p q : pool) : Prop := p_size q = p_size p /\ p_align q = p_align p.

(** The invariant of one pool: the chain in memory lists the blocks not in use; together with those in use they are all
    blocks of all pages, once each. *)
Definition pinv (m : mem) (p : pool) (pgs live : list N) : Prop :=
  exists fl, chain m (p_head p) fl /\ Permutation (fl ++ live) (slots p pgs).

Lemma cells_in p g a : wf_pool p -> In a (cells g (stride p) (npp p)) -> within (a, stride p) (g, PAGE).
Proof.
  intros W I. apply in_cells in I. destruct I as (k & K & ->). pose proof (per_page_ok _ W) as ((P1 & _) & P2). pose proof (stride_ok _ W) as ((S1 & S2) & _).
  unfold within, npp, PAGE in *. cbn. assert ((N.of_nat k + 1) * stride p <= per_page p * stride p) by (apply N.mul_le_mono_r; lia). lia.
Qed.
Lemma slots_in p pgs a : wf_pool p -> In a (slots p pgs) -> exists g, In g pgs /\ within (a, stride p) (g, PAGE).
Proof. intros W I. apply in_flat_map in I. destruct I as (g & G & I). exists g. split; auto. now apply cells_in. Qed.

Lemma cells_apart p g : wf_pool p -> all_apart (map (fun a => (a, stride p)) (cells g (stride p) (npp p))).
Proof.
  intros W. pose proof (stride_ok _ W) as ((S1 & S2) & _). generalize (npp p). intros n. revert g.
  induction n as [|n IH]; intros g; [constructor|]. rewrite cells_S. cbn [map]. constructor; [|apply IH].
  apply Forall_forall. intros x I. apply in_map_iff in I. destruct I as (a & <- & I). apply in_cells in I. destruct I as (k & _ & ->).
  left. cbn. lia.
Qed.
Lemma fop_app {A} (R : A -> A -> Prop) l1 : forall l2, ForallOrdPairs R l1 -> ForallOrdPairs R l2 ->
  (forall x y, In x l1 -> In y l2 -> R x y) -> ForallOrdPairs R (l1 ++ l2).
Proof.
  induction l1 as [|a r IH]; intros l2 H1 H2 H; cbn; auto. inversion H1; subst. constructor.
  - apply Forall_app. split; auto. apply Forall_forall. intros y I. apply H; [now left|auto].
  - apply IH; auto. intros; apply H; [now right|auto].
Qed.
Lemma slots_apart p pgs : wf_pool p -> all_apart (map (fun g => (g, PAGE)) pgs) ->
  all_apart (map (fun a => (a, stride p)) (slots p pgs)).
Proof.
  intros W. induction pgs as [|g r IH]; intros A; [constructor|]. cbn [slots flat_map map] in *. inversion A as [|? ? F A']; subst.
  rewrite map_app. apply fop_app; [now apply cells_apart|now apply IH|].
  intros x y I J. apply in_map_iff in I. destruct I as (a & <- & I). apply in_map_iff in J. destruct J as (b & <- & J).
  apply (cells_in p g a W) in I. apply (slots_in p r b W) in J. destruct J as (g' & G & J).
  rewrite Forall_forall in F. specialize (F (g', PAGE)). assert (AP : apart (g, PAGE) (g', PAGE)) by (apply F, in_map_iff; eauto).
  unfold apart, within in *. cbn in *. lia.
Qed.
Lemma apart_sym x y : apart x y -> apart y x.
Proof. unfold apart. tauto. Qed.
Lemma fop_perm {A} (R : A -> A -> Prop) l l' : (forall x y, R x y -> R y x) -> Permutation l l' -> ForallOrdPairs R l -> ForallOrdPairs R l'.
Proof.
  intros Sy P. induction P; intros H; auto.
  - inversion H; subst. constructor; auto. eapply Permutation_Forall; eauto.
  - inversion H as [|? ? F1 H1]; subst. inversion H1 as [|? ? F2 H2]; subst. inversion F1; subst. constructor; [constructor; auto|]. constructor; auto.
Qed.
Lemma fop_app_r {A} (R : A -> A -> Prop) l1 l2 : ForallOrdPairs R (l1 ++ l2) -> ForallOrdPairs R l2.
Proof. induction l1; cbn; auto. intros H. inversion H; auto. Qed.
Lemma apart_nodup sz l : 0 < sz -> all_apart (map (fun a => (a, sz)) l) -> NoDup l.
Proof.
  intros P. induction l as [|a r IH]; intros H; constructor.
  - inversion H as [|? ? F ?]; subst. intros I. rewrite Forall_forall in F. specialize (F (a, sz)).
    assert (apart (a, sz) (a, sz)) by (apply F, in_map_iff; eauto). unfold apart in *. cbn in *. lia.
  - inversion H; auto.
Qed.
Lemma slots_nodup p pgs : wf_pool p -> all_apart (map (fun g => (g, PAGE)) pgs) -> NoDup (slots p pgs).
Proof.
  intros W A. apply (apart_nodup (stride p)); [|now apply slots_apart]. pose proof (stride_ok _ W). destruct W. lia.
Qed.
Lemma slots_kind p q pgs : same_kind p q -> slots q pgs = slots p pgs.
Proof. intros (E1 & E2). unfold slots, npp, per_page, stride. now rewrite E1, E2. Qed.
Lemma wf_kind p q : same_kind p q -> wf_pool p -> wf_pool q.
Proof. intros (E1 & E2). unfold wf_pool. now rewrite E1, E2. Qed.

Lemma pop_ok m p pgs live : wf_pool p -> pinv m p pgs live -> p_head p <> 0 ->
  pinv m (fst (pop_block p m)) pgs (p_head p :: live).
Proof.
  intros W (fl & C & Pm) NZ. destruct fl as [|a r]; cbn in C; [contradiction|]. destruct C as (E & A & C).
  exists r. cbn [pop_block fst p_head]. rewrite E at 1. split; auto.
  rewrite (slots_kind p) by (split; reflexivity). rewrite E. rewrite <- Permutation_middle. exact Pm.
Qed.
Lemma add_page_ok m p pgs live page p1 m1 : wf_pool p -> pinv m p pgs live -> page_ok page ->
  Forall (fun q => apart (page, PAGE) (q, PAGE)) pgs -> add_page p m page = (p1, m1) ->
  pinv m1 p1 (page :: pgs) live /\ same_kind p p1 /\ p_head p1 = page /\
  (forall a, ~ within (a, 8) (page, PAGE) -> m1 a = m a).
Proof.
  intros W (fl & C & Pm) (NZ & B) F H. unfold add_page in H.
  pose proof (per_page_ok _ W) as ((P1 & P2) & P3). pose proof (stride_ok _ W) as ((S1 & S2) & S3).
  assert (U : u64 (per_page p + 18446744073709551615) = per_page p - 1).
  { unfold u64. replace (per_page p + 18446744073709551615) with (per_page p - 1 + 1 * 18446744073709551616) by lia.
    rewrite N.mod_add by lia. apply N.mod_small. lia. }
  rewrite U in H. destruct (link (N.to_nat (per_page p - 1)) m page (stride p)) as [M last] eqn:LK. inversion H; subst; clear H.
  assert (NS : npp p = S (N.to_nat (per_page p - 1))) by (unfold npp; lia).
  apply link_spec in LK; [| destruct W; lia|auto|].
  2:{ rewrite N2Nat.id. destruct W. unfold PAGE in *. nia. }
  destruct LK as (LF & LE & LC).
  assert (CI : forall a, In a (cells page (stride p) (npp p)) -> within (a, 8) (page, PAGE)).
  { intros a I. apply (cells_in p _ _ W) in I. unfold within in *. cbn in *. destruct W. lia. }
  split; [|split; [split; reflexivity|split; [reflexivity|]]].
  - exists (cells page (stride p) (npp p) ++ fl). cbn [p_head]. rewrite NS. split.
    + apply LC; auto. intros a I J. rewrite <- NS in J. apply (cells_in p _ _ W) in J.
      assert (I2 : In a (slots p pgs)) by (eapply Permutation_in; [exact Pm|apply in_or_app; now left]).
      apply (slots_in _ _ _ W) in I2. destruct I2 as (g & G & I2). rewrite Forall_forall in F. specialize (F g G).
      unfold within, apart in *. cbn in *. destruct W. lia.
    + rewrite (slots_kind p) by (split; reflexivity). cbn [slots flat_map]. rewrite <- NS. rewrite <- app_assoc. apply Permutation_app_head. exact Pm.
  - intros a N. destruct (N.eq_dec a last) as [E|E].
    + exfalso. apply N, CI. rewrite NS. apply in_cells. exists (N.to_nat (per_page p - 1)). split; [lia|]. congruence.
    + rewrite upd_other by auto. apply LF. intros I. apply N, CI. rewrite NS. apply in_cells in I. destruct I as (k & K & Ek). apply in_cells. exists k. split; [lia|auto].
Qed.
Lemma free_ok m p pgs live ptr : wf_pool p -> pinv m p pgs live -> all_apart (map (fun g => (g, PAGE)) pgs) -> Forall page_ok pgs -> In ptr live ->
  pinv (upd m ptr (p_head p)) (mkPool (p_size p) (p_align p) ptr) pgs (remove1 ptr live).
Proof.
  intros W (fl & C & Pm) A PO I.
  assert (ND : NoDup (fl ++ live)). { eapply Permutation_NoDup; [apply Permutation_sym, Pm|]. now apply slots_nodup. }
  exists (ptr :: fl). cbn [p_head]. rewrite (slots_kind p) by (split; reflexivity). split.
  - cbn [chain]. split; [auto|]. split.
    + assert (J : In ptr (slots p pgs)) by (eapply Permutation_in; [exact Pm|apply in_or_app; now right]).
      apply (slots_in _ _ _ W) in J. destruct J as (g & G & J). rewrite Forall_forall in PO. specialize (PO g G). unfold page_ok, within in *. cbn in *. lia.
    + rewrite upd_same. eapply chain_ext; [|exact C]. intros a J. apply upd_other. intros ->.
      clear - ND I J. induction fl as [|x r IH]; cbn in *; [tauto|]. inversion ND; subst. destruct J as [->|J]; [|auto]. apply H1, in_or_app. now right.
  - rewrite <- Pm. cbn [app]. rewrite Permutation_middle. apply Permutation_app_head.
    assert (NL : NoDup live). { clear - ND. induction fl; cbn in *; auto. inversion ND; auto. }
    clear - NL I. unfold remove1. induction live as [|x r IH]; cbn in *; [tauto|]. inversion NL; subst.
    destruct (N.eq_dec ptr x) as [->|N].
    + rewrite notin_remove by auto. reflexivity.
    + destruct I as [->|I]; [congruence|]. rewrite perm_swap. constructor. auto.
Qed.

(** ** One pool under any history. *)
Definition gen_inv (k : N * N) (s : pst) : Prop :=
  p_size (ps_pool s) = fst k /\ p_align (ps_pool s) = snd k /\ wf_pool (ps_pool s) /\
  pinv (ps_mem s) (ps_pool s) (ps_pages s) (ps_live s) /\
  Forall (fun g => page_ok g /\ g mod p_align (ps_pool s) = 0) (ps_pages s) /\ all_apart (map (fun g => (g, PAGE)) (ps_pages s)).
Lemma gen_step k s e : gen_inv k s -> pok s e -> gen_inv k (pdo s e).
Proof.
  destruct s as [p m live pgs]. intros (K1 & K2 & W & I & PO & A) O. cbn [ps_pool ps_mem ps_live ps_pages] in *.
  destruct e as [page|ptr|m']; cbn [pdo pok ps_pool ps_mem ps_live ps_pages] in *.
  - unfold pool_alloc. destruct (N.eqb_spec (p_head p) 0) as [H0|H0]; [destruct (N.eqb_spec page 0) as [P0|P0]|].
    + cbn. unfold gen_inv. cbn [ps_pool ps_mem ps_live ps_pages]. intuition.
    + destruct O as [O|(O1 & O2 & O3)]; [contradiction|]. destruct (add_page p m page) as [p1 m1] eqn:AP.
      pose proof (fun h => add_page_ok m p pgs live page p1 m1 W I h O3 AP) as L. specialize (L (conj P0 O2)). destruct L as (I1 & SK & HP & _).
      pose proof (pop_ok m1 p1 (page :: pgs) live (wf_kind _ _ SK W) I1 ltac:(congruence)) as I2.
      cbn [pop_block fst] in I2 |- *. rewrite HP. rewrite HP in I2. destruct (N.eqb_spec page 0); [contradiction|]. cbn [andb negb].
      destruct SK as (SK1 & SK2).
      split; [cbn; congruence|]. split; [cbn; congruence|]. split; [cbn; eapply (wf_kind p); [split; cbn; congruence|auto]|]. split; [exact I2|].
      cbn [ps_pool ps_pages p_align]. split.
      * rewrite SK2. constructor; [|auto]. split; [split; auto|auto].
      * cbn [map]. constructor; [|auto]. apply Forall_map. exact O3.
    + pose proof (pop_ok m p pgs live W I H0) as I2. cbn [pop_block fst] in I2 |- *. cbn [andb]. destruct (N.eqb_spec (p_head p) 0); [contradiction|].
      split; [auto|]. split; [auto|]. split; [exact W|]. split; [exact I2|]. split; [exact PO|exact A].
  - cbn. split; [auto|]. split; [auto|]. split; [exact W|]. split; [|split; [exact PO|exact A]].
    apply free_ok; auto. eapply Forall_impl; [|exact PO]. cbn. tauto.
  - split; [auto|]. split; [auto|]. split; [exact W|]. split; [|split; [exact PO|exact A]]. cbn [ps_pool ps_mem ps_live ps_pages].
    destruct I as (fl & C & Pm). exists fl. split; auto. eapply chain_ext; [|exact C]. intros a J. apply O.
    intros x X. apply in_map_iff in X. destruct X as (b & <- & X).
    pose proof (slots_apart p pgs W A) as AA. eapply fop_perm in AA; [|exact apart_sym|apply Permutation_map, Permutation_sym; exact Pm].
    pose proof (stride_ok _ W) as ((S1 & S2) & _). destruct W as ((W1 & W2) & _).
    assert (R : apart (a, stride p) (b, stride p)).
    { rewrite map_app in AA. clear - AA J X. induction fl as [|y r IH]; cbn in *; [tauto|]. inversion AA as [|? ? F AA']; subst.
      destruct J as [->|J]; [|auto]. rewrite Forall_forall in F. apply F. apply in_or_app. right. apply in_map_iff. eauto. }
    unfold apart in *. cbn in *. lia.
Qed.
Lemma gen_runs k l : forall s s', gen_inv k s -> pruns s l s' -> gen_inv k s'.
Proof. induction l as [|e r IH]; intros s s' I H; cbn in H; [now subst|]. destruct H as (H1 & H2). eapply IH; [|exact H2]. now apply gen_step. Qed.
