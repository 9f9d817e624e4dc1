From Coq Require Import List Arith Bool NArith Lia.
From Verif Require Import M_Bytes M_Stream.
Import ListNotations.
Local Open Scope N_scope.

(** ** MemoryStream *)
Definition ms_ok (s : mstream) : Prop := blen (ms_data s) <= ms_cap s.
Lemma ms_write_ok s b : ms_ok s -> exists s', ms_write s b = Some s' /\ ms_ok s' /\ ms_data s' = ms_data s ++ b /\ ms_cap s <= ms_cap s' /\
  (blen (ms_data s) + blen b <= ms_cap s -> ms_cap s' = ms_cap s).
Proof.
  unfold ms_ok, ms_write, ms_grow. intros H.
  destruct (N.ltb_spec (ms_cap s) (blen (ms_data s) + blen b)) as [C|C].
  - replace (blen (ms_data s) <=? ms_cap s + N.max (blen b) (ms_growth s)) with true by (symmetry; apply N.leb_le; lia).
    cbn [ms_data ms_cap ms_growth].
    replace (blen (ms_data s) + blen b <=? ms_cap s + N.max (blen b) (ms_growth s)) with true by (symmetry; apply N.leb_le; lia).
    eexists. split; [reflexivity|]. cbn [ms_data ms_cap]. rewrite blen_app. split; [lia|]. split; [reflexivity|]. split; lia.
  - replace (blen (ms_data s) + blen b <=? ms_cap s) with true by (symmetry; apply N.leb_le; lia).
    eexists. split; [reflexivity|]. cbn [ms_data ms_cap]. rewrite blen_app. split; [lia|]. split; [reflexivity|]. split; lia.
Qed.
Lemma ms_writes_ok l : forall s, ms_ok s -> exists s', ms_writes s l = Some s' /\ ms_ok s' /\ ms_data s' = ms_data s ++ concat l /\
  (blen (ms_data s) + blen (concat l) <= ms_cap s -> ms_cap s' = ms_cap s).
Proof.
  induction l as [|b l IH]; intros s H.
  - exists s. cbn. rewrite app_nil_r. auto.
  - cbn [ms_writes concat]. destruct (ms_write_ok s b H) as (s1&E&H1&D&_&C). rewrite E.
    destruct (IH s1 H1) as (s2&E2&H2&D2&C2). exists s2. split; [exact E2|]. split; [exact H2|]. split; [rewrite D2, D, <- app_assoc; reflexivity|].
    intros Q. rewrite blen_app in Q. rewrite C2; [apply C; lia|]. rewrite D, blen_app, C by lia. lia.
Qed.

(** ** ChainedMemoryStream *)
Definition cs_ok (s : cstream) : Prop :=
  0 < cs_page s /\ (cs_pages s = [] /\ cs_pos s = 0 \/
  exists full lst, cs_pages s = full ++ [lst] /\ Forall (fun p => blen p = cs_page s) full /\ blen lst = cs_pos s /\ 0 < cs_pos s <= cs_page s).
Lemma cs_copy_last full lst pos page src : blen lst = pos -> pos + blen src <= page ->
  cs_copy (mkCS (full ++ [lst]) pos page) src = Some (mkCS (full ++ [lst ++ src]) (pos + blen src) page).
Proof.
  intros H1 H2. unfold cs_copy. cbn [cs_pages cs_pos cs_page]. rewrite rev_app_distr. cbn [rev app].
  rewrite H1, N.eqb_refl. replace (_ <=? _) with true by (symmetry; apply N.leb_le; lia). cbn [andb]. rewrite rev_involutive. reflexivity.
Qed.
Lemma cs_write_ok : forall fuel s src, (List.length src <= fuel)%nat -> cs_ok s ->
  exists s', cs_write fuel s src = Some s' /\ cs_ok s' /\ concat (cs_pages s') = concat (cs_pages s) ++ src /\ cs_page s' = cs_page s.
Proof.
  induction fuel as [|fuel IH]; intros s src HL HO.
  { destruct src; [|cbn in HL; lia]. exists s. cbn. rewrite app_nil_r. auto. }
  destruct src as [|x src']; [exists s; cbn; rewrite app_nil_r; auto|].
  remember (x :: src') as src eqn:ES.
  assert (NZ : 1 <= blen src) by (subst; unfold blen; cbn; lia).
  assert (UN : cs_write (S fuel) s src =
    (let avail := match cs_pages s with [] => 0 | _ => cs_page s - cs_pos s end in
          let '(s1, avail1) := if avail =? 0 then (mkCS (cs_pages s ++ [[]]) 0 (cs_page s), cs_page s) else (s, avail) in
          let n := N.to_nat (N.min avail1 (blen src)) in
          match cs_copy s1 (firstn n src) with
          | None => None
          | Some s2 => cs_write fuel s2 (skipn n src)
          end)) by (subst src; reflexivity).
  rewrite UN. clear UN. cbv zeta. destruct HO as (PG&HO).
  assert (STEP : forall s1 full lst pos avail1, s1 = mkCS (full ++ [lst]) pos (cs_page s) -> concat (full ++ [lst]) = concat (cs_pages s) -> Forall (fun p => blen p = cs_page s) full ->
     blen lst = pos -> avail1 = cs_page s - pos -> 0 < avail1 -> pos <= cs_page s ->
     exists s', match cs_copy s1 (firstn (N.to_nat (N.min avail1 (blen src))) src) with
                | None => None
                | Some s2 => cs_write fuel s2 (skipn (N.to_nat (N.min avail1 (blen src))) src) end = Some s' /\
      cs_ok s' /\ concat (cs_pages s') = concat (cs_pages s) ++ src /\ cs_page s' = cs_page s).
  { intros s1 full lst pos avail1 -> EC FA EL EA AP PP. set (n := N.to_nat (N.min avail1 (blen src))).
    assert (NL : (n <= List.length src)%nat) by (unfold n, blen; lia).
    assert (BL : blen (firstn n src) = N.of_nat n) by (unfold blen; rewrite firstn_length; lia).
    assert (NN : 1 <= N.of_nat n <= avail1) by (unfold n; lia).
    rewrite cs_copy_last by (rewrite ?BL; lia).
    destruct (IH (mkCS (full ++ [lst ++ firstn n src]) (pos + blen (firstn n src)) (cs_page s)) (skipn n src)) as (s'&E&O&C&P).
    - rewrite skipn_length. lia.
    - split; [exact PG|]. right. exists full, (lst ++ firstn n src). cbn [cs_pages cs_pos cs_page]. split; [reflexivity|]. split; [exact FA|].
      rewrite blen_app, BL. split; lia.
    - exists s'. split; [exact E|]. split; [exact O|]. split; [|exact P]. rewrite C. cbn [cs_pages].
      rewrite <- EC, !concat_app. cbn [concat]. rewrite !app_nil_r, <- !app_assoc. rewrite firstn_skipn. reflexivity. }
  destruct HO as [[HP HPos]|(full&lst&HP&FA&EL&PP)].
  - rewrite HP in STEP |- *. change (0 =? 0) with true. cbn [app].
    apply (STEP _ [] [] 0 (cs_page s)); auto; try lia.
  - assert (NP : cs_pages s <> []) by (rewrite HP; destruct full; discriminate).
    assert (AV : match cs_pages s with [] => 0 | _ => cs_page s - cs_pos s end = cs_page s - cs_pos s) by (destruct (cs_pages s); congruence).
    rewrite AV. destruct (N.eqb_spec (cs_page s - cs_pos s) 0) as [Z|Z].
    + apply (STEP _ (cs_pages s) [] 0 (cs_page s)); auto; try lia.
      * rewrite concat_app. cbn. now rewrite app_nil_r.
      * rewrite HP. apply Forall_app. split; [exact FA|]. constructor; [lia|constructor].
    + apply (STEP s full lst (cs_pos s) (cs_page s - cs_pos s)); auto; try lia; [destruct s; cbn in *; congruence|rewrite HP; reflexivity].
Qed.
Lemma cs_writes_ok l : forall s, cs_ok s -> exists s', cs_writes s l = Some s' /\ cs_ok s' /\ concat (cs_pages s') = concat (cs_pages s) ++ concat l /\ cs_page s' = cs_page s.
Proof.
  induction l as [|b l IH]; intros s H.
  - exists s. cbn. rewrite app_nil_r. auto.
  - cbn [cs_writes concat]. destruct (cs_write_ok (List.length b) s b (le_n _) H) as (s1&E&H1&D&P). rewrite E.
    destruct (IH s1 H1) as (s2&E2&H2&D2&P2). exists s2. split; [exact E2|]. split; [exact H2|]. split; [rewrite D2, D, <- app_assoc; reflexivity|congruence].
Qed.
Lemma concat_full k full : Forall (fun p : bytes => blen p = k) full -> blen (concat full) = N.of_nat (List.length full) * k.
Proof. induction 1 as [|p full H F IH]; [reflexivity|]. cbn [concat List.length]. rewrite blen_app, IH, H. lia. Qed.
Lemma cs_total s : cs_ok s -> cs_pages s <> [] ->
  blen (concat (cs_pages s)) = (N.of_nat (List.length (cs_pages s)) - 1) * cs_page s + cs_pos s /\ 0 < cs_pos s /\ 1 <= N.of_nat (List.length (cs_pages s)).
Proof.
  intros (PG&[[H _]|(full&lst&HP&FA&EL&PP)]) NE; [congruence|]. rewrite HP, concat_app, blen_app, (concat_full _ _ FA). cbn [concat]. rewrite app_nil_r, EL, app_length.
  cbn [List.length]. split; [|lia]. f_equal. f_equal. lia.
Qed.
Lemma cs_size_ok s : cs_ok s -> blen (concat (cs_pages s)) < 4294967296 -> cs_size s = blen (concat (cs_pages s)).
Proof.
  intros H B. destruct (cs_pages s) eqn:EP.
  - destruct H as (_&[[_ H]|(full&lst&HP&_)]); [|rewrite EP in HP; destruct full; discriminate]. unfold cs_size. rewrite EP, H. reflexivity.
  - rewrite <- EP in *. destruct (cs_total s H ltac:(congruence)) as (T&P&L). destruct H as (PG&_).
    set (np := N.of_nat (List.length (cs_pages s))) in *. unfold cs_size. fold np.
    assert (np < 4294967296).
    { assert (np - 1 <= (np - 1) * cs_page s) by nia. lia. }
    unfold u32. rewrite (N.mod_small np) by lia. rewrite N.mod_small by lia. destruct (N.ltb_spec 1 np); [lia|]. assert (np - 1 = 0) by lia. nia.
Qed.

(** ** ConstMemoryStream *)
Definition views (s : kstream) (t : bytes) : Prop := exists pre, ks_buf s = pre ++ t /\ ks_pos s = blen pre.
Lemma to_nat_blen l : N.to_nat (blen l) = List.length l. Proof. unfold blen. lia. Qed.
Lemma views_read s t n : views s t -> exists s', ks_read s n = Some (firstn (N.to_nat n) t, s') /\ views s' (skipn (N.to_nat n) t) /\ ks_buf s' = ks_buf s.
Proof.
  intros (pre&E&P). unfold ks_read. rewrite E, P, blen_app.
  replace (blen pre + blen t <? blen pre) with false by (symmetry; apply N.ltb_ge; lia).
  replace (blen pre + blen t - blen pre) with (blen t) by lia.
  rewrite to_nat_blen, skipn_app, Nat.sub_diag, skipn_all. cbn [app skipn].
  assert (F : firstn (N.to_nat (N.min (blen t) n)) t = firstn (N.to_nat n) t).
  { destruct (N.le_gt_cases n (blen t)); [rewrite N.min_r by lia; reflexivity|]. rewrite N.min_l by lia. rewrite to_nat_blen, firstn_all, firstn_all2; auto. unfold blen in *. lia. }
  rewrite F. eexists. split; [reflexivity|]. cbn [ks_buf]. split; [|auto].
  exists (pre ++ firstn (N.to_nat n) t). cbn [ks_buf ks_pos]. rewrite <- app_assoc, firstn_skipn, blen_app. split; [auto|]. f_equal. unfold blen. rewrite firstn_length. lia.
Qed.
Lemma views_new b : views (ks_new b) b. Proof. exists []. auto. Qed.
Lemma views_pos s : ks_pos s <= blen (ks_buf s) -> views s (skipn (N.to_nat (ks_pos s)) (ks_buf s)).
Proof. intros H. exists (firstn (N.to_nat (ks_pos s)) (ks_buf s)). rewrite firstn_skipn. split; auto. unfold blen in *. rewrite firstn_length. lia. Qed.
Lemma rd_int_ok n s x rest : views s (le_bytes n x ++ rest) -> x < 256 ^ N.of_nat n -> exists s', rd_int n s = Some (inl x, s') /\ views s' rest /\ ks_buf s' = ks_buf s.
Proof.
  intros V B. unfold rd_int. destruct (views_read s _ (N.of_nat n) V) as (s'&E&V'&KB). rewrite E, Nat2N.id in *.
  rewrite firstn_app, le_bytes_len, Nat.sub_diag in *. rewrite firstn_all2 in * by (rewrite le_bytes_len; lia). cbn [firstn]. rewrite app_nil_r, le_bytes_len, Nat.eqb_refl.
  rewrite le_value_le_bytes, N.mod_small by auto. exists s'. split; auto. split; auto.
  rewrite skipn_app, le_bytes_len, Nat.sub_diag, skipn_all2 in V' by (rewrite le_bytes_len; lia). exact V'.
Qed.
Lemma rd_u32_ok s x rest : views s (le_bytes 4 x ++ rest) -> x < 4294967296 -> exists s', rd_int 4 s = Some (inl x, s') /\ views s' rest /\ ks_buf s' = ks_buf s.
Proof. intros V B. apply rd_int_ok; auto. Qed.
Lemma rd_u64_ok s x rest : views s (le_bytes 8 x ++ rest) -> x < 18446744073709551616 -> exists s', rd_int 8 s = Some (inl x, s') /\ views s' rest /\ ks_buf s' = ks_buf s.
Proof. intros V B. apply rd_int_ok; auto. Qed.
Lemma rd_str_ok s t rest : views s (wr_str t ++ rest) -> blen t < 4294967296 -> exists s', rd_str s = Some (Some t, s') /\ views s' rest.
Proof.
  intros V B. unfold wr_str in V. rewrite <- app_assoc in V. unfold u32 in V. rewrite N.mod_small in V by auto.
  unfold rd_str. destruct (rd_u32_ok s _ _ V B) as (s1&E1&V1&_). rewrite E1. destruct (views_read s1 _ (blen t) V1) as (s2&E2&V2&_). rewrite E2. rewrite to_nat_blen in *.
  rewrite firstn_app, Nat.sub_diag, firstn_all. cbn [firstn]. rewrite app_nil_r, N.eqb_refl. exists s2. split; auto. rewrite skipn_app, Nat.sub_diag, skipn_all in V2. exact V2.
Qed.
Lemma rd_list_ok : forall l s rest, views s (flat_map wr_str l ++ rest) -> Forall (fun t => blen t < 4294967296) l ->
  exists s', rd_list (List.length l) s = Some (Some l, s') /\ views s' rest.
Proof.
  induction l as [|t l IH]; intros s rest V F; [exists s; split; [reflexivity|exact V]|]. inversion F; subst.
  cbn [flat_map] in V. rewrite <- app_assoc in V. cbn [List.length rd_list].
  destruct (rd_str_ok s t _ V ltac:(assumption)) as (s1&E1&V1). rewrite E1. destruct (IH s1 rest V1 ltac:(assumption)) as (s2&E2&V2). rewrite E2. eauto.
Qed.
Lemma rd_strs_ok s l rest : views s (wr_strs l ++ rest) -> N.of_nat (List.length l) < 4294967296 -> Forall (fun t => blen t < 4294967296) l ->
  exists s', rd_strs s = Some (Some l, s') /\ views s' rest.
Proof.
  intros V B F. unfold wr_strs in V. rewrite <- app_assoc in V. unfold u32 in V. rewrite N.mod_small in V by auto. unfold rd_strs.
  destruct (rd_u32_ok s _ _ V B) as (s1&E1&V1&_). rewrite E1, Nat2N.id. apply (rd_list_ok l s1 rest V1 F).
Qed.
(** no read ever leaves the buffer *)
Definition ks_ok (s : kstream) : Prop := ks_pos s <= blen (ks_buf s).
Lemma ks_read_safe s n : ks_ok s -> exists b s', ks_read s n = Some (b, s') /\ ks_ok s' /\ ks_buf s' = ks_buf s.
Proof.
  intros H. destruct (views_read s _ n (views_pos s H)) as (s'&E&(pre&V1&V2)&KB). do 2 eexists. split; [exact E|]. split; [|exact KB].
  unfold ks_ok. rewrite V1, V2, blen_app. lia.
Qed.
Lemma rd_int_safe n s : ks_ok s -> exists v s', rd_int n s = Some (v, s') /\ ks_ok s' /\ ks_buf s' = ks_buf s.
Proof. intros H. unfold rd_int. destruct (ks_read_safe s (N.of_nat n) H) as (b&s'&E&O). rewrite E. eauto. Qed.
Lemma rd_str_safe s : ks_ok s -> exists v s', rd_str s = Some (v, s') /\ ks_ok s' /\ ks_buf s' = ks_buf s.
Proof.
  intros H. unfold rd_str. destruct (rd_int_safe 4 s H) as (v&s'&E&O&B). rewrite E. destruct v as [len|]; [|eauto].
  destruct (ks_read_safe s' len O) as (b&s2&E2&O2&B2). rewrite E2. do 2 eexists. split; [reflexivity|]. split; [auto|congruence].
Qed.
Lemma rd_list_safe n : forall s, ks_ok s -> exists v s', rd_list n s = Some (v, s') /\ ks_ok s' /\ ks_buf s' = ks_buf s.
Proof.
  induction n as [|n IH]; intros s H; [cbn; eauto|]. cbn [rd_list]. destruct (rd_str_safe s H) as (v&s1&E1&O1&B1). rewrite E1. destruct v; [|eauto].
  destruct (IH s1 O1) as (v2&s2&E2&O2&B2). rewrite E2. destruct v2; (do 2 eexists; split; [reflexivity|split; [auto|congruence]]).
Qed.
Lemma rd_strs_safe s : ks_ok s -> exists v s', rd_strs s = Some (v, s') /\ ks_ok s' /\ ks_buf s' = ks_buf s.
Proof.
  intros H. unfold rd_strs. destruct (rd_int_safe 4 s H) as (v&s1&E1&O1&B1). rewrite E1. destruct v as [k|]; [|eauto].
  destruct (rd_list_safe (N.to_nat k) s1 O1) as (v2&s2&E2&O2&B2). rewrite E2. do 2 eexists. split; [reflexivity|split; [auto|congruence]].
Qed.

(** ** alignment *)
Lemma round_up_spec v k : v + 2 ^ k < 18446744073709551616 -> round_up v (2 ^ k) = 2 ^ k * ((v + (2 ^ k - 1)) / 2 ^ k).
Proof.
  intros B. assert (P : 0 < 2 ^ k) by (apply N.neq_0_lt_0, N.pow_nonzero; lia).
  assert (K : k < 64).
  { destruct (N.lt_ge_cases k 64); auto. assert (2 ^ 64 <= 2 ^ k) by (apply N.pow_le_mono_r; lia). change (2 ^ 64) with 18446744073709551616 in *. lia. }
  unfold round_up, u64.
  replace (v + 2 ^ k + 18446744073709551615) with (v + (2 ^ k - 1) + 1 * 18446744073709551616) by lia.
  replace (2 ^ k + 18446744073709551615) with (2 ^ k - 1 + 1 * 18446744073709551616) by lia.
  rewrite !N.mod_add by lia. rewrite !N.mod_small by lia.
  set (x := v + (2 ^ k - 1)).
  replace (2 ^ k - 1) with (N.ones k) by (rewrite N.ones_equiv; lia).
  transitivity (N.ldiff x (N.ones k)).
  - apply N.bits_inj. intros i. rewrite N.land_spec, N.ldiff_spec.
    destruct (N.lt_ge_cases i 64) as [I|I].
    + rewrite N.lnot_spec_low by auto. reflexivity.
    + assert (N.testbit x i = false) as ->.
      { destruct (N.eq_dec x 0) as [->|NZ]; [apply N.bits_0|]. apply N.bits_above_log2. apply N.lt_le_trans with 64; auto. apply N.log2_lt_pow2; [lia|]. change (2 ^ 64) with 18446744073709551616. unfold x. lia. }
      reflexivity.
  - rewrite N.ldiff_ones_r. rewrite N.shiftr_div_pow2, N.shiftl_mul_pow2. apply N.mul_comm.
Qed.
Lemma align_ok v k : v + 2 ^ k < 18446744073709551616 -> (v + blen (align_pad v (2 ^ k))) mod 2 ^ k = 0 /\ blen (align_pad v (2 ^ k)) < 2 ^ k.
Proof.
  intros B. assert (P : 0 < 2 ^ k) by (apply N.neq_0_lt_0, N.pow_nonzero; lia).
  unfold align_pad, blen. rewrite repeat_length, N2Nat.id. rewrite round_up_spec by auto.
  set (a := 2 ^ k) in *. pose proof (N.div_mod (v + (a - 1)) a ltac:(lia)) as D. pose proof (N.mod_lt (v + (a - 1)) a ltac:(lia)) as M.
  set (q := (v + (a - 1)) / a) in *. set (r := (v + (a - 1)) mod a) in *. clearbody q r. clearbody a. set (aq := a * q) in *. assert (EQ : aq = q * a) by apply N.mul_comm. clearbody aq. unfold u64.
  replace (aq + 18446744073709551616 - v) with ((aq - v) + 1 * 18446744073709551616) by lia.
  rewrite !(N.mod_add (aq - v) 1 18446744073709551616) by lia. rewrite !(N.mod_small (aq - v)) by lia. split; [|lia].
  replace (v + (aq - v)) with (0 + q * a) by lia. rewrite N.mod_add by lia. apply N.mod_0_l. lia.
Qed.
