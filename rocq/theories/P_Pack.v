From Coq Require Import List Arith Bool NArith ZArith Lia.
From Verif Require Import M_Bytes M_Stream P_Stream M_Pack.
Import ListNotations.
Local Open Scope N_scope.

(** a file that opens and is read completely *)
Definition good (f : fview) : Prop := fv_opens f = true /\ fv_size f = blen (fv_data f).
Definition total (fs : list fview) : N := 4 + fold_right (fun f a => 8 + fv_size f + a) 0 fs.

Lemma open_all_good fs : forall i mem, Forall (fun f => fv_opens f = true) fs ->
  mem + fold_right (fun f a => 8 + fv_size f + a) 0 fs < 18446744073709551616 ->
  open_all i fs mem = inr (mem + fold_right (fun f a => 8 + fv_size f + a) 0 fs).
Proof.
  induction fs as [|f fs IH]; intros i mem F B; [cbn; now rewrite N.add_0_r|]. inversion F as [|? ? F1 F2]; subst. cbn [open_all fold_right] in *. rewrite F1.
  unfold u64. rewrite N.mod_small by lia. rewrite IH by (auto; lia). f_equal. lia.
Qed.
Lemma append_all_good fs : forall i s, Forall good fs -> ms_ok s ->
  exists s', append_all i fs s = Some (inr s') /\ ms_data s' = ms_data s ++ flat_map fv_data fs.
Proof.
  induction fs as [|f fs IH]; intros i s F O; [exists s; cbn; rewrite app_nil_r; auto|]. inversion F as [|? ? F1 F2]; subst. destruct F1 as [F1 F3].
  cbn [append_all flat_map]. destruct (ms_write_ok s (fv_data f) O) as (s1&E&O1&D&_). rewrite E, F3, N.eqb_refl.
  destruct (IH (S i) s1 F2 O1) as (s2&E2&D2). exists s2. split; [exact E2|]. rewrite D2, D, <- app_assoc. reflexivity.
Qed.
Definition image (fs : list fview) : bytes :=
  le_bytes 4 (N.of_nat (List.length fs)) ++ flat_map (fun f => le_bytes 8 (fv_size f)) fs ++ flat_map fv_data fs.
Lemma create_good fs : (List.length fs <= max_files)%nat -> Forall good fs -> total fs < 18446744073709551616 ->
  create_from_files fs = Some (Packed (image fs)).
Proof.
  intros HL F B. unfold create_from_files. replace (max_files <? List.length fs)%nat with false by (symmetry; apply Nat.ltb_ge; auto).
  rewrite open_all_good; [|eapply Forall_impl; [|exact F]; intros f [G _]; exact G|exact B].
  set (cap := 4 + _). destruct (ms_writes_ok (le_bytes 4 (N.of_nat (List.length fs)) :: map (fun f => le_bytes 8 (fv_size f)) fs) (ms_new cap 4096)) as (s&E&O&D&_); [unfold ms_ok; cbn; lia|].
  rewrite E. destruct (append_all_good fs 0 s F O) as (s'&E'&D'). rewrite E'. rewrite D', D. cbn [ms_new ms_data concat app]. unfold image. rewrite !flat_map_concat_map. rewrite <- !app_assoc. reflexivity.
Qed.

Lemma skip_sizes_ok : forall pre s rest off, views s (flat_map (fun f => le_bytes 8 (fv_size f)) pre ++ rest) ->
  Forall (fun f => fv_size f < 18446744073709551616) pre ->
  off + fold_right (fun f a => fv_size f + a) 0 pre < 18446744073709551616 ->
  exists s', skip_sizes (List.length pre) s off = Some (off + fold_right (fun f a => fv_size f + a) 0 pre, s') /\ views s' rest.
Proof.
  induction pre as [|f pre IH]; intros s rest off V F B; [exists s; cbn; rewrite N.add_0_r; auto|]. inversion F as [|? ? F1 F2]; subst.
  cbn [flat_map] in V. rewrite <- app_assoc in V. cbn [List.length skip_sizes fold_right] in *.
  destruct (rd_u64_ok s _ _ V F1) as (s1&E1&V1&_). rewrite E1. unfold u64. rewrite N.mod_small by lia.
  destruct (IH s1 rest (off + fv_size f) V1 F2 ltac:(lia)) as (s2&E2&V2). exists s2. rewrite E2. split; auto. f_equal. f_equal. lia.
Qed.
Lemma sizes_len fs : List.length (flat_map (fun f => le_bytes 8 (fv_size f)) fs) = (8 * List.length fs)%nat.
Proof. induction fs as [|f fs IH]; auto. cbn [flat_map]. rewrite app_length, le_bytes_len, IH. cbn [List.length]. lia. Qed.
Lemma data_len fs : Forall good fs -> blen (flat_map fv_data fs) = fold_right (fun f a => fv_size f + a) 0 fs.
Proof. induction 1 as [|f fs [_ H] F IH]; auto. cbn [flat_map fold_right]. rewrite blen_app, IH, H. reflexivity. Qed.
Lemma total_split fs : total fs = 4 + 8 * N.of_nat (List.length fs) + fold_right (fun f a => fv_size f + a) 0 fs.
Proof. unfold total. induction fs as [|f fs IH]; cbn [fold_right List.length]; lia. Qed.
Lemma extract_good pre f post : Forall good (pre ++ f :: post) -> total (pre ++ f :: post) < 18446744073709551616 ->
  N.of_nat (List.length (pre ++ f :: post)) < 4294967296 ->
  extract_file (image (pre ++ f :: post)) (N.of_nat (List.length pre)) = Some (Some (fv_data f)).
Proof.
  set (fs := pre ++ f :: post). intros F B C. rewrite total_split in B.
  assert (SUM : fold_right (fun f a => fv_size f + a) 0 fs = fold_right (fun f a => fv_size f + a) 0 pre + fv_size f + fold_right (fun f a => fv_size f + a) 0 post).
  { unfold fs. clear. induction pre as [|x pre IH]; cbn [app fold_right]; lia. }
  assert (LEN : List.length fs = (List.length pre + S (List.length post))%nat) by (unfold fs; rewrite app_length; reflexivity).
  unfold extract_file.
  destruct (rd_u32_ok (ks_new (image fs)) (N.of_nat (List.length fs)) (flat_map (fun f => le_bytes 8 (fv_size f)) fs ++ flat_map fv_data fs)) as (s1&E1&V1&_); [exists []; auto|lia|].
  rewrite E1. replace (N.of_nat (List.length fs) <=? N.of_nat (List.length pre)) with false by (symmetry; apply N.leb_gt; lia).
  rewrite Nat2N.id.
  assert (FF : Forall good pre /\ good f /\ Forall good post).
  { unfold fs in F. apply Forall_app in F. destruct F as [F1 F2]. inversion F2; auto. }
  destruct FF as (FP&[_ FS]&FQ).
  assert (V1' : views s1 (flat_map (fun f => le_bytes 8 (fv_size f)) pre ++ le_bytes 8 (fv_size f) ++ flat_map (fun f => le_bytes 8 (fv_size f)) post ++ flat_map fv_data fs)).
  { unfold fs in V1 at 1. rewrite flat_map_app in V1. cbn [flat_map] in V1. rewrite <- !app_assoc in V1. exact V1. }
  destruct (skip_sizes_ok pre s1 _ (4 + 8 * N.of_nat (List.length fs)) V1') as (s2&E2&V2).
  { apply Forall_forall. intros x I.
    assert (fv_size x <= fold_right (fun f a => fv_size f + a) 0 pre).
    { clear -I. induction pre as [|y pre IH]; [destruct I|]. cbn [fold_right]. destruct I as [->|I]; [lia|]. specialize (IH I). lia. }
    lia. }
  { lia. }
  rewrite E2. destruct (rd_u64_ok s2 _ _ V2 ltac:(lia)) as (s3&E3&_&_). rewrite E3.
  set (off := 4 + 8 * N.of_nat (List.length fs) + fold_right (fun f a => fv_size f + a) 0 pre) in *.
  set (head := le_bytes 4 (N.of_nat (List.length fs)) ++ flat_map (fun f => le_bytes 8 (fv_size f)) fs ++ flat_map fv_data pre).
  assert (IM : image fs = head ++ fv_data f ++ flat_map fv_data post).
  { unfold image, head. rewrite <- !app_assoc. do 2 f_equal. unfold fs. rewrite flat_map_app. reflexivity. }
  assert (HL : blen head = off).
  { unfold head. rewrite !blen_app, (data_len pre FP). unfold blen at 1 2. rewrite le_bytes_len, sizes_len. unfold off. lia. }
  rewrite IM, !blen_app, HL. replace (off + fv_size f <=? _) with true by (symmetry; apply N.leb_le; rewrite FS; lia).
  do 2 f_equal. rewrite <- HL, to_nat_blen, skipn_app, Nat.sub_diag, skipn_all. cbn [app skipn].
  rewrite FS, to_nat_blen, firstn_app, Nat.sub_diag, firstn_all. cbn [firstn]. apply app_nil_r.
Qed.
Lemma extract_past fs index : N.of_nat (List.length fs) < 4294967296 -> N.of_nat (List.length fs) <= index -> extract_file (image fs) index = Some None.
Proof.
  intros C H. unfold extract_file.
  destruct (rd_u32_ok (ks_new (image fs)) (N.of_nat (List.length fs)) (flat_map (fun f => le_bytes 8 (fv_size f)) fs ++ flat_map fv_data fs)) as (s1&E1&_&_); [exists []; auto|lia|].
  rewrite E1. replace (_ <=? index) with true by (symmetry; apply N.leb_le; lia). reflexivity.
Qed.

(** ** Compressor *)
Lemma header_len t u c : List.length (header t u c) = 12%nat.
Proof. unfold header. rewrite !app_length, !le_bytes_len. reflexivity. Qed.
Lemma h_fields t u c rest : t < 4294967296 -> u < 4294967296 -> c < 4294967296 ->
  h_type (header t u c ++ rest) = t /\ h_usize (header t u c ++ rest) = u /\ h_csize (header t u c ++ rest) = c.
Proof.
  intros HT HU HC. unfold h_type, h_usize, h_csize, header. split; [|split].
  - cbn [le_bytes app firstn]. now apply (le_value_u32 t).
  - cbn [le_bytes app firstn skipn]. now apply (le_value_u32 u).
  - cbn [le_bytes app firstn skipn]. now apply (le_value_u32 c).
Qed.
Lemma block_len t u c rest : blen (header t u c ++ rest) = 12 + blen rest.
Proof. rewrite blen_app. unfold blen at 1. rewrite header_len. reflexivity. Qed.
Lemma slice_body t u c rest : slice (header t u c ++ rest) header_size (blen rest) = Some rest.
Proof.
  unfold slice. rewrite block_len. unfold header_size. replace (_ <=? _) with true by (symmetry; apply N.leb_le; lia).
  f_equal. rewrite skipn_app, header_len. change (N.to_nat 12) with 12%nat. rewrite Nat.sub_diag. rewrite skipn_all2 by (rewrite header_len; lia). cbn [app skipn].
  now rewrite to_nat_blen, firstn_all.
Qed.
Lemma stored_ok lz4 zstd data : blen data < 4294967296 ->
  let b := header eUncompressed (u32 (blen data)) (u32 (blen data)) ++ data in is_valid b = true /\ decompress lz4 zstd b = Some (Some data).
Proof.
  intros B b. unfold b, u32. rewrite N.mod_small by auto.
  destruct (h_fields eUncompressed (blen data) (blen data) data ltac:(reflexivity) B B) as (H1&H2&H3).
  unfold is_valid, decompress. rewrite H1, H2, H3, block_len. unfold header_size.
  replace (12 + blen data <? 12) with false by (symmetry; apply N.ltb_ge; lia). split.
  - change (eZstd <? eUncompressed) with false. cbv iota. rewrite N.add_comm, N.eqb_refl. cbn [negb]. rewrite N.ltb_irrefl. reflexivity.
  - change (eUncompressed =? eUncompressed) with true. cbv iota. change 12 with header_size. rewrite slice_body. reflexivity.
Qed.
Lemma coded_ok lz4 zstd t data out : t = eLZ4 \/ t = eZstd -> blen data < 4294967296 -> blen out < blen data ->
  dec (if t =? eLZ4 then lz4 else zstd) out (blen data) = Some data ->
  let b := header t (u32 (blen data)) (u32 (blen out)) ++ out in is_valid b = true /\ decompress lz4 zstd b = Some (Some data).
Proof.
  intros T B L D b. unfold b, u32. rewrite !N.mod_small by lia.
  assert (TL : t < 4294967296) by (destruct T; subst; reflexivity).
  destruct (h_fields t (blen data) (blen out) out TL B ltac:(lia)) as (H1&H2&H3).
  unfold is_valid, decompress. rewrite H1, H2, H3, block_len. unfold header_size.
  replace (12 + blen out <? 12) with false by (symmetry; apply N.ltb_ge; lia). split.
  - replace (eZstd <? t) with false by (destruct T; subst; reflexivity). rewrite N.add_comm, N.eqb_refl. cbn [negb]. replace (blen data <? blen out) with false by (symmetry; apply N.ltb_ge; lia). reflexivity.
  - replace (t =? eUncompressed) with false by (destruct T; subst; reflexivity). change 12 with header_size. rewrite slice_body. rewrite D, N.eqb_refl. reflexivity.
Qed.
