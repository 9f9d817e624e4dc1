(** Proofs about the checksum. *)
From Coq Require Import List Arith Bool NArith Lia.
From Verif Require Import M_Bytes M_Crc S_Crc.
Import ListNotations.
Local Open Scope N_scope.

Notation it n := (Nat.iter n crc_bit).

Lemma crc_bit_alt c : crc_bit c = N.lxor (N.div2 c) (if N.odd c then 0xEDB88320 else 0).
Proof. unfold crc_bit. destruct (N.odd c); auto. now rewrite N.lxor_0_r. Qed.
Lemma crc_bit_lin a b : crc_bit (N.lxor a b) = N.lxor (crc_bit a) (crc_bit b).
Proof.
  rewrite !crc_bit_alt. rewrite <- !N.bit0_odd, N.lxor_spec, !N.div2_spec, N.shiftr_lxor.
  destruct (N.testbit a 0), (N.testbit b 0); cbn [xorb]; apply N.bits_inj; intros n; rewrite !N.lxor_spec, ?N.bits_0;
    destruct (N.testbit (N.shiftr a 1) n), (N.testbit (N.shiftr b 1) n), (N.testbit 0xEDB88320 n); reflexivity.
Qed.
Lemma it_lin n : forall a b, it n (N.lxor a b) = N.lxor (it n a) (it n b).
Proof. induction n as [|n IH]; intros a b; [reflexivity|]. cbn [Nat.iter nat_rect]. unfold Nat.iter in IH. cbn. rewrite IH. apply crc_bit_lin. Qed.
Lemma it_add n m a : it (n + m) a = it n (it m a).
Proof. induction n as [|n IH]; [reflexivity|]. cbn. f_equal. exact IH. Qed.
Lemma crc_bit_shl x : crc_bit (N.shiftl x 1) = x.
Proof. unfold crc_bit. replace (N.shiftl x 1) with (2 * x) by (rewrite N.shiftl_mul_pow2; change (2 ^ 1) with 2; lia). replace (N.odd (2 * x)) with false by (symmetry; rewrite N.odd_mul; reflexivity). now rewrite N.div2_double. Qed.
Lemma it_shl n : forall x, it n (N.shiftl x (N.of_nat n)) = x.
Proof.
  induction n as [|n IH]; intros x; [apply N.shiftl_0_r|].
  rewrite Nat2N.inj_succ, <- N.add_1_r. rewrite <- N.shiftl_shiftl.
  replace (S n) with (n + 1)%nat by lia. rewrite it_add. cbn [Nat.iter nat_rect]. change (it 1 ?x) with (crc_bit x). rewrite crc_bit_shl. apply IH.
Qed.

Lemma slice_step_ok x : slice_step x = crc_bit x.
Proof.
  unfold slice_step. rewrite crc_bit_alt. rewrite <- N.div2_spec. f_equal. change 1 with (N.ones 1). rewrite N.land_ones. change (2 ^ 1) with 2.
  rewrite <- N.bit0_mod, N.bit0_odd. destruct (N.odd x); reflexivity.
Qed.
Lemma slice_loop_ok n : forall x, slice_loop n x = it n x.
Proof.
  induction n as [|n IH]; intros x; [reflexivity|]. cbn [slice_loop]. rewrite IH, slice_step_ok.
  replace (S n) with (n + 1)%nat by lia. now rewrite it_add.
Qed.
Lemma t0_ok i : i < 256 -> t0 i = it 8 i.
Proof.
  intros H. unfold t0, tab0. rewrite (nth_indep _ 0 (slice_loop 8 (N.of_nat 0))) by (rewrite map_length, seq_length; lia).
  rewrite (map_nth (fun i => slice_loop 8 (N.of_nat i)) (seq 0 256) 0%nat). rewrite seq_nth by lia. rewrite slice_loop_ok. f_equal. lia.
Qed.
Lemma low8 x : N.land x 255 < 256.
Proof. change 255 with (N.ones 8). rewrite N.land_ones. apply N.mod_lt. discriminate. Qed.
(** Splitting off the low byte. *)
Lemma split8 x : x = N.lxor (N.land x 255) (N.shiftl (N.shiftr x 8) 8).
Proof.
  apply N.bits_inj. intros n. rewrite N.lxor_spec, N.land_spec. change 255 with (N.ones 8).
  destruct (N.lt_ge_cases n 8) as [H|H].
  - rewrite N.ones_spec_low, N.shiftl_spec_low by auto. destruct (N.testbit x n); reflexivity.
  - rewrite N.ones_spec_high by auto. rewrite N.shiftl_spec_high', N.shiftr_spec' by auto. rewrite N.sub_add by auto. destruct (N.testbit x n); reflexivity.
Qed.
Lemma it8_split x : it 8 x = N.lxor (t0 (N.land x 255)) (N.shiftr x 8).
Proof. rewrite (split8 x) at 1. rewrite it_lin, t0_ok by apply low8. f_equal. apply (it_shl 8). Qed.
Lemma slice_row_ok j : forall i, i < 256 -> slice_row j i = it (8 * S j) i.
Proof.
  induction j as [|j IH]; intros i H; [now apply t0_ok|]. cbn [slice_row]. cbv zeta. rewrite <- it8_split. rewrite IH by auto.
  rewrite <- it_add. f_equal. lia.
Qed.
Lemma slice_ok j i : i < 256 -> slice j i = it (8 * S j) i.
Proof. intros H. unfold slice. apply N.ltb_lt in H as H'. rewrite H'. now apply slice_row_ok. Qed.

Lemma shiftr_lxor_byte c b : b < 256 -> N.shiftr (N.lxor c b) 8 = N.shiftr c 8.
Proof.
  intros H. rewrite N.shiftr_lxor. replace (N.shiftr b 8) with 0; [apply N.lxor_0_r|]. rewrite N.shiftr_div_pow2. symmetry. now apply N.div_small.
Qed.
Lemma one_ok c b : b < 256 -> one c b = crc_byte c b.
Proof. intros H. unfold one, crc_byte. rewrite it8_split. rewrite slice_ok by apply low8. rewrite <- t0_ok by apply low8. now rewrite shiftr_lxor_byte. Qed.
Lemma table_ok i : i < 256 -> nth (N.to_nat i) crc_table 0 = it 8 i.
Proof.
  intros H. transitivity (t0 i); [|now apply t0_ok]. unfold t0. assert (E : crc_table = tab0) by (vm_compute; reflexivity). now rewrite E.
Qed.
Lemma upd1_ok c b : b < 256 -> upd1 c b = crc_byte c b.
Proof. intros H. unfold upd1. rewrite table_ok by apply low8. unfold crc_byte. rewrite (it8_split (N.lxor c b)), t0_ok by apply low8. rewrite shiftr_lxor_byte by auto. apply N.lxor_comm. Qed.

(** Values stay within 32 bits. *)
Lemma lxor_lt n a b : a < 2 ^ n -> b < 2 ^ n -> N.lxor a b < 2 ^ n.
Proof.
  intros A B. destruct (N.eq_dec (N.lxor a b) 0) as [->|NZ]; [apply N.neq_0_lt_0, N.pow_nonzero; lia|].
  apply N.log2_lt_pow2; [lia|]. eapply N.le_lt_trans; [apply N.log2_lxor|].
  assert (forall x, x < 2 ^ n -> 0 < n -> N.log2 x < n).
  { intros x X P. destruct (N.eq_dec x 0) as [->|Z]; [rewrite N.log2_nonpos; lia|]. apply N.log2_lt_pow2; lia. }
  assert (P : 0 < n). { destruct (N.eq_dec n 0) as [->|]; [|lia]. change (2 ^ 0) with 1 in *. assert (a = 0) by lia. assert (b = 0) by lia. subst. now elim NZ. }
  apply N.max_lub_lt; auto.
Qed.
Lemma crc_bit_lt c : c < 2 ^ 32 -> crc_bit c < 2 ^ 32.
Proof.
  intros H. rewrite crc_bit_alt. apply lxor_lt.
  - rewrite N.div2_div. apply N.div_lt_upper_bound; lia.
  - destruct (N.odd c); reflexivity.
Qed.
Lemma it_lt n : forall c, c < 2 ^ 32 -> it n c < 2 ^ 32.
Proof. induction n as [|n IH]; intros c H; auto. cbn. apply crc_bit_lt. now apply IH. Qed.
Lemma byte_lt32 b : b < 256 -> b < 2 ^ 32.
Proof. intros. change (2 ^ 32) with 4294967296. lia. Qed.
Lemma crc_byte_lt c b : c < 2 ^ 32 -> b < 256 -> crc_byte c b < 2 ^ 32.
Proof. intros. apply it_lt, lxor_lt; auto. now apply byte_lt32. Qed.
Lemma fold_lt l : forall c, c < 2 ^ 32 -> Forall (fun b => b < 256) l -> fold_left crc_byte l c < 2 ^ 32.
Proof. induction l as [|b r IH]; intros c H F; auto. inversion F; subst. cbn. apply IH; auto. now apply crc_byte_lt. Qed.
Lemma fold_one l : forall c, Forall (fun b => b < 256) l -> fold_left one l c = fold_left crc_byte l c.
Proof. induction l as [|b r IH]; intros c F; auto. inversion F; subst. cbn. rewrite one_ok by auto. auto. Qed.
Lemma fold_upd l : forall c, Forall (fun b => b < 256) l -> fold_left upd1 l c = fold_left crc_byte l c.
Proof. induction l as [|b r IH]; intros c F; auto. inversion F; subst. cbn. rewrite upd1_ok by auto. auto. Qed.

(** A byte placed [k] bytes higher is reached after [8 k] shifts. *)
Lemma it_byte_high n k x : it (8 * (n + k)) (N.shiftl x (8 * N.of_nat k)) = it (8 * n) x.
Proof. rewrite Nat.mul_add_distr_l, it_add. f_equal. replace (8 * N.of_nat k) with (N.of_nat (8 * k)) by lia. apply it_shl. Qed.
(** Several bytes at once: the spec over a list is the shifts of the xor with the little-endian number. *)
Lemma lxor_le_value b r : b < 256 -> b + 256 * le_value r = N.lxor b (N.shiftl (le_value r) 8).
Proof.
  intros H. rewrite N.shiftl_mul_pow2. change (2 ^ 8) with 256. rewrite (N.mul_comm 256).
  rewrite <- N.add_nocarry_lxor; [reflexivity|]. apply N.bits_inj. intros n. rewrite N.land_spec, N.bits_0.
  replace (le_value r * 256) with (N.shiftl (le_value r) 8) by (now rewrite N.shiftl_mul_pow2).
  destruct (N.lt_ge_cases n 8) as [L|L].
  - rewrite N.shiftl_spec_low by auto. apply andb_false_r.
  - replace (N.testbit b n) with false; [reflexivity|]. symmetry. apply N.testbit_false. rewrite N.div_small; [reflexivity|].
    eapply N.lt_le_trans; [exact H|]. change 256 with (2 ^ 8). apply N.pow_le_mono_r; lia.
Qed.
Lemma fold_word l : forall c, Forall (fun b => b < 256) l -> fold_left crc_byte l c = it (8 * List.length l) (N.lxor c (le_value l)).
Proof.
  induction l as [|b r IH]; intros c F; [cbn; now rewrite N.lxor_0_r|]. inversion F; subst. cbn [fold_left List.length le_value].
  rewrite IH by auto. rewrite lxor_le_value by auto.
  replace (8 * S (List.length r))%nat with (8 * List.length r + 8)%nat by lia. rewrite it_add. f_equal.
  rewrite <- N.lxor_assoc, it_lin. unfold crc_byte. f_equal. symmetry. apply (it_shl 8).
Qed.
Lemma four_bytes x : x < 2 ^ 32 ->
  x = N.lxor (N.land x 255) (N.lxor (N.shiftl (N.land (N.shiftr x 8) 255) 8) (N.lxor (N.shiftl (N.land (N.shiftr x 16) 255) 16) (N.shiftl (N.shiftr x 24) 24))).
Proof.
  intros _. rewrite (split8 x) at 1. f_equal. rewrite (split8 (N.shiftr x 8)) at 1. rewrite N.shiftl_lxor, N.shiftr_shiftr, N.shiftl_shiftl. change (8 + 8) with 16. f_equal.
  rewrite (split8 (N.shiftr x 16)) at 1. rewrite N.shiftl_lxor, N.shiftr_shiftr, N.shiftl_shiftl. reflexivity.
Qed.
Lemma top_byte x : x < 2 ^ 32 -> N.shiftr x 24 < 256.
Proof. intros H. rewrite N.shiftr_div_pow2. apply N.div_lt_upper_bound; [discriminate|]. change (2 ^ 24 * 256) with (2 ^ 32). auto. Qed.
Lemma it64_word n x : x < 2 ^ 32 ->
  it (8 * (4 + n)) x = N.lxor (slice (3 + n) (N.land x 255)) (N.lxor (slice (2 + n) (N.land (N.shiftr x 8) 255)) (N.lxor (slice (1 + n) (N.land (N.shiftr x 16) 255)) (slice n (N.shiftr x 24)))).
Proof.
  intros H. rewrite (four_bytes x H) at 1. rewrite !it_lin. rewrite !slice_ok by (apply low8 || now apply top_byte).
  replace (S (3 + n)) with (4 + n)%nat by lia. f_equal.
  f_equal; [|f_equal].
  - change 8 with (8 * N.of_nat 1) at 2. replace (4 + n)%nat with (S (2 + n) + 1)%nat by lia. apply it_byte_high.
  - change 16 with (8 * N.of_nat 2) at 2. replace (4 + n)%nat with (S (1 + n) + 2)%nat by lia. apply it_byte_high.
  - change 24 with (8 * N.of_nat 3) at 2. replace (4 + n)%nat with (S n + 3)%nat by lia. apply it_byte_high.
Qed.
Lemma le4_lt l : Forall (fun b => b < 256) l -> List.length l = 4%nat -> le_value l < 2 ^ 32.
Proof.
  intros F H. destruct l as [|a [|b [|c [|d [|? ?]]]]]; try discriminate. repeat match goal with H : Forall _ (_ :: _) |- _ => inversion H; subst; clear H end.
  cbn [le_value]. change (2 ^ 32) with 4294967296. lia.
Qed.
Lemma eight_ok c l1 l2 : c < 2 ^ 32 -> Forall (fun b => b < 256) l1 -> Forall (fun b => b < 256) l2 -> List.length l1 = 4%nat -> List.length l2 = 4%nat ->
  eight c (le_value l1) (le_value l2) = fold_left crc_byte (l1 ++ l2) c.
Proof.
  intros C F1 F2 L1 L2. pose proof (le4_lt _ F1 L1) as B1. pose proof (le4_lt _ F2 L2) as B2.
  rewrite fold_left_app, (fold_word l2), (fold_word l1) by auto. rewrite L1, L2. rewrite it_lin, <- it_add.
  change (8 * 4 + 8 * 4)%nat with (8 * (4 + 4))%nat. change (8 * 4)%nat with (8 * (4 + 0))%nat. rewrite (it64_word 4) by (apply lxor_lt; auto). rewrite (it64_word 0) by auto.
  unfold eight. cbv zeta. cbn [plus]. rewrite !N.lxor_assoc. reflexivity.
Qed.
Lemma Forall_firstn' {A} (P : A -> Prop) n l : Forall P l -> Forall P (firstn n l).
Proof. intros F. apply Forall_forall. intros x I. rewrite Forall_forall in F. apply F. rewrite <- (firstn_skipn n l). apply in_or_app. now left. Qed.
Lemma Forall_skipn' {A} (P : A -> Prop) n l : Forall P l -> Forall P (skipn n l).
Proof. intros F. apply Forall_forall. intros x I. rewrite Forall_forall in F. apply F. rewrite <- (firstn_skipn n l). apply in_or_app. now right. Qed.
Lemma skipn_skipn' {A} n m (l : list A) : skipn n (skipn m l) = skipn (m + n) l.
Proof. revert l. induction m as [|m IH]; intros l; [reflexivity|]. destruct l; [now rewrite !skipn_nil|]. cbn. apply IH. Qed.
Lemma qwords_ok n : forall c l, c < 2 ^ 32 -> Forall (fun b => b < 256) l -> (8 * n <= List.length l)%nat ->
  qwords n c l = (fold_left crc_byte (firstn (8 * n) l) c, skipn (8 * n) l).
Proof.
  induction n as [|n IH]; intros c l C F L; [reflexivity|]. cbn [qwords].
  assert (L1 : List.length (firstn 4 l) = 4%nat) by (rewrite firstn_length; lia).
  assert (L2 : List.length (firstn 4 (skipn 4 l)) = 4%nat) by (rewrite firstn_length, skipn_length; lia).
  rewrite eight_ok; auto using Forall_firstn', Forall_skipn'.
  assert (E8 : firstn 4 l ++ firstn 4 (skipn 4 l) = firstn 8 l).
  { destruct l as [|a0 [|a1 [|a2 [|a3 l]]]]; cbn in L1; try lia. reflexivity. }
  rewrite E8. rewrite IH; [|apply fold_lt; auto using Forall_firstn'|auto using Forall_skipn'|rewrite skipn_length; lia].
  f_equal.
  - rewrite <- fold_left_app. f_equal. rewrite <- (firstn_skipn 8 (firstn (8 * S n) l)). f_equal.
    + rewrite firstn_firstn. f_equal. lia.
    + rewrite skipn_firstn_comm. f_equal. lia.
  - rewrite skipn_skipn'. f_equal. lia.
Qed.
Lemma calc_ok addr l : Forall (fun b => b < 256) l -> calc addr l = crc32 l.
Proof.
  intros F. unfold calc, crc32. set (align := N.min _ (blen l)). assert (A : align <= blen l) by (subst align; apply N.le_min_r). clearbody align.
  change ALL1 with 0xFFFFFFFF. cbv zeta. set (a := N.to_nat align). unfold blen in *. assert (A' : (a <= List.length l)%nat) by lia.
  set (len := N.of_nat (List.length l) - align). set (q := N.to_nat (len / 8)).
  assert (E : N.to_nat len = List.length (skipn a l)) by (rewrite skipn_length; lia).
  assert (Q : N.to_nat len = (8 * q + N.to_nat (len mod 8))%nat) by (pose proof (N.div_mod len 8 ltac:(lia)); lia).
  replace (N.land len 7) with (len mod 8) by (symmetry; apply (N.land_ones len 3)).
  rewrite fold_one by auto using Forall_firstn'. rewrite qwords_ok; [|apply fold_lt; [reflexivity|auto using Forall_firstn']|auto using Forall_skipn'|rewrite <- E, Q; apply Nat.le_add_r].
  rewrite firstn_all2 by (rewrite skipn_length, <- E, Q, Nat.add_comm, Nat.add_sub; apply Nat.le_refl). rewrite fold_one by auto using Forall_skipn'.
  rewrite <- !fold_left_app. do 2 f_equal. now rewrite !firstn_skipn.
Qed.

(** Injectivity: the polynomial has its top bit set, so no shift loses information. *)
Lemma crc_bit_inj a b : a < 2 ^ 32 -> b < 2 ^ 32 -> crc_bit a = crc_bit b -> a = b.
Proof.
  intros A B E. assert (Z : crc_bit (N.lxor a b) = 0) by (rewrite crc_bit_lin, E; apply N.lxor_nilpotent).
  apply N.lxor_eq. pose proof (lxor_lt 32 a b A B) as L. set (x := N.lxor a b) in *. clearbody x. clear E A B a b.
  rewrite crc_bit_alt in Z. apply N.lxor_eq in Z. rewrite N.div2_div in Z. destruct (N.odd x) eqn:O.
  - exfalso. assert (x / 2 < 2147483648) by (apply N.div_lt_upper_bound; [lia|exact L]). lia.
  - pose proof (N.div2_odd x) as D. rewrite O, N.div2_div, Z in D. cbn in D. exact D.
Qed.
Lemma it_inj n : forall a b, a < 2 ^ 32 -> b < 2 ^ 32 -> it n a = it n b -> a = b.
Proof. induction n as [|n IH]; intros a b A B E; auto. cbn in E. apply crc_bit_inj in E; [|now apply it_lt|now apply it_lt]. now apply IH. Qed.
Lemma lxor_inj_l a b c : N.lxor c a = N.lxor c b -> a = b.
Proof. intros E. rewrite <- (N.lxor_0_l a), <- (N.lxor_0_l b), <- (N.lxor_nilpotent c), !N.lxor_assoc. now f_equal. Qed.
Lemma fold_inj l : forall a b, a < 2 ^ 32 -> b < 2 ^ 32 -> Forall (fun b => b < 256) l -> fold_left crc_byte l a = fold_left crc_byte l b -> a = b.
Proof.
  induction l as [|x r IH]; intros a b A B F E; auto. inversion F; subst. cbn [fold_left] in E. apply IH in E; [|now apply crc_byte_lt|now apply crc_byte_lt|auto].
  unfold crc_byte in E. apply it_inj in E; [|apply lxor_lt; auto; now apply byte_lt32|apply lxor_lt; auto; now apply byte_lt32].
  apply (lxor_inj_l _ _ x). now rewrite !(N.lxor_comm x).
Qed.
Lemma le_value_inj l1 : forall l2, Forall (fun b => b < 256) l1 -> Forall (fun b => b < 256) l2 -> List.length l1 = List.length l2 -> le_value l1 = le_value l2 -> l1 = l2.
Proof.
  induction l1 as [|a r IH]; intros [|b q] F1 F2 L E; try discriminate; auto. inversion F1; subst. inversion F2; subst. cbn [le_value] in E.
  assert (a = b) by lia. subst. f_equal. apply IH; auto. lia.
Qed.
Lemma le_value_lt l : Forall (fun b => b < 256) l -> le_value l < 2 ^ (8 * N.of_nat (List.length l)).
Proof.
  induction l as [|a r IH]; intros F; [reflexivity|]. inversion F; subst. cbn [le_value List.length]. specialize (IH H2).
  replace (8 * N.of_nat (S (List.length r))) with (8 + 8 * N.of_nat (List.length r)) by lia. rewrite (N.pow_add_r 2 8). change (2 ^ 8) with 256. set (p := 2 ^ (8 * N.of_nat (List.length r))) in *. clearbody p. lia.
Qed.
