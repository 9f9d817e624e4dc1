(** C21 and C22: packed result files and compressed blocks.  Model: M_Pack.v. *)
From Coq Require Import List Arith Bool NArith ZArith Lia.
From Verif Require Import M_Bytes M_Stream P_Stream M_Pack P_Pack.
Import ListNotations.
Local Open Scope N_scope.

(** *** C21 *)
(** A list of up to four files (the code's limit) given by their contents. *)
Definition as_files (contents : list bytes) : list fview := map (fun c => mkFV true (blen c) c) contents.
Lemma as_files_good cs : Forall good (as_files cs).
Proof. apply Forall_forall. intros f I. apply in_map_iff in I. destruct I as (c&<-&_). split; reflexivity. Qed.
(** Size of the packed buffer. *)
Definition packed_size (contents : list bytes) : N := fold_right (fun c a => 8 + blen c + a) 4 contents.
Lemma packed_size_total cs : total (as_files cs) = packed_size cs.
Proof. unfold total, packed_size. induction cs as [|c cs IH]; [reflexivity|]. cbn [as_files map fold_right fv_size] in *. unfold as_files in IH. lia. Qed.

Theorem C21_extract_what_was_packed : forall contents, (List.length contents <= 4)%nat -> packed_size contents < 18446744073709551616 ->
  exists buf, create_from_files (as_files contents) = Some (Packed buf) /\
    (forall i c, nth_error contents i = Some c -> extract_file buf (N.of_nat i) = Some (Some c)) /\
    (forall i, N.of_nat (List.length contents) <= i -> extract_file buf i = Some None).
Proof.
  intros cs HL B. exists (image (as_files cs)). assert (LE : List.length (as_files cs) = List.length cs) by apply map_length.
  split; [|split].
  - apply create_good; [rewrite LE; exact HL|apply as_files_good|rewrite packed_size_total; exact B].
  - intros i c H. apply nth_error_split in H. destruct H as (a&b&E&LA).
    assert (EF : as_files cs = as_files a ++ mkFV true (blen c) c :: as_files b) by (rewrite E; unfold as_files; rewrite map_app; reflexivity).
    assert (LA' : List.length (as_files a) = i) by (unfold as_files; rewrite map_length; exact LA).
    rewrite EF, <- LA'. apply (extract_good (as_files a) (mkFV true (blen c) c) (as_files b)).
    + rewrite <- EF. apply as_files_good.
    + rewrite <- EF, packed_size_total. exact B.
    + rewrite <- EF, LE. lia.
  - intros i H. apply extract_past; rewrite LE; [lia|exact H].
Qed.
Print Assumptions C21_extract_what_was_packed.

(** When files change or vanish while being packed: either every file was read completely, or the index reported
    is that of a file that could not be opened or delivered another number of bytes than announced. *)
Theorem C21_failures_reported : forall fs, (List.length fs <= 4)%nat ->
  match create_from_files fs with
  | None => False
  | Some (Packed _) => Forall (fun f => fv_opens f = true /\ blen (fv_data f) = fv_size f) fs
  | Some (PackFailed i) => exists f, nth_error fs i = Some f /\ (fv_opens f = false \/ blen (fv_data f) <> fv_size f)
  end.
Proof.
  intros fs HL. unfold create_from_files. replace (max_files <? List.length fs)%nat with false by (symmetry; apply Nat.ltb_ge; auto).
  assert (OA : forall fs i mem, match open_all i fs mem with
     | inl k => (i <= k)%nat /\ exists f, nth_error fs (k - i) = Some f /\ fv_opens f = false
     | inr _ => Forall (fun f => fv_opens f = true) fs end).
  { clear. induction fs as [|f fs IH]; intros i mem; [constructor|]. cbn [open_all]. destruct (fv_opens f) eqn:E.
    - specialize (IH (S i) (u64 (mem + (8 + fv_size f)))). destruct (open_all (S i) fs _) as [k|]; [|constructor; auto].
      destruct IH as (L&g&N&G). split; [lia|]. exists g. split; auto. replace (k - i)%nat with (S (k - S i)) by lia. exact N.
    - split; [lia|]. exists f. rewrite Nat.sub_diag. auto. }
  specialize (OA fs 0%nat 4). destruct (open_all 0 fs 4) as [i|mem].
  { destruct OA as (_&f&N&G). rewrite Nat.sub_0_r in N. eauto. }
  destruct (ms_writes_ok (le_bytes 4 (N.of_nat (List.length fs)) :: map (fun f => le_bytes 8 (fv_size f)) fs) (ms_new mem 4096)) as (s&E&O&D&_); [unfold ms_ok; cbn; lia|].
  rewrite E.
  assert (AA : forall fs i s, ms_ok s -> match append_all i fs s with
     | None => False
     | Some (inl k) => (i <= k)%nat /\ exists f, nth_error fs (k - i) = Some f /\ blen (fv_data f) <> fv_size f
     | Some (inr _) => Forall (fun f => blen (fv_data f) = fv_size f) fs end).
  { clear. induction fs as [|f fs IH]; intros i s O; [constructor|]. cbn [append_all]. destruct (ms_write_ok s (fv_data f) O) as (s1&E&O1&_). rewrite E.
    destruct (N.eqb_spec (blen (fv_data f)) (fv_size f)) as [Q|Q].
    - specialize (IH (S i) s1 O1). destruct (append_all (S i) fs s1) as [[k|]|]; [|constructor; auto|exact IH].
      destruct IH as (L&g&N&G). split; [lia|]. exists g. split; auto. replace (k - i)%nat with (S (k - S i)) by lia. exact N.
    - split; [lia|]. exists f. rewrite Nat.sub_diag. auto. }
  specialize (AA fs 0%nat s O). destruct (append_all 0 fs s) as [[k|s']|]; [| |exact AA].
  - destruct AA as (_&f&N&G). rewrite Nat.sub_0_r in N. eauto.
  - rewrite Forall_forall in *. intros f I. auto.
Qed.
Print Assumptions C21_failures_reported.

(** A buffer that was not made by packing can make extraction read past its end. *)
Theorem C21_untrusted_buffer_refuted : exists buf, extract_file buf 0 = None.
Proof. exists (le_bytes 4 1 ++ le_bytes 8 100 ++ [1; 2; 3]). reflexivity. Qed.
Print Assumptions C21_untrusted_buffer_refuted.

(** The condition on the number of files is needed: with more, arrays are written past their end. *)
Theorem C21_too_many_files_refuted : forall fs, (4 < List.length fs)%nat -> create_from_files fs = None.
Proof. intros fs H. unfold create_from_files. replace (max_files <? List.length fs)%nat with true; [reflexivity|]. symmetry. now apply Nat.ltb_lt. Qed.
Print Assumptions C21_too_many_files_refuted.

Example C21_case : exists buf, create_from_files (as_files [[1; 2; 3]; []; [7]]) = Some (Packed buf) /\
  extract_file buf 0 = Some (Some [1; 2; 3]) /\ extract_file buf 1 = Some (Some []) /\ extract_file buf 2 = Some (Some [7]) /\ extract_file buf 3 = Some None
  /\ create_from_files [mkFV true 1 [5]; mkFV true 3 [1; 2]] = Some (PackFailed 1).
Proof. eexists. split; [reflexivity|]. repeat split. Qed.

(** *** C22 *)
(** LZ4's input limit, LZ4_MAX_INPUT_SIZE (External/LZ4/lz4-1.10.0/lib/lz4.h 214). *)
Definition lz4_limit : N := 2113929216.
(** A codec is lossless up to a size when decoding what it encoded, told the original size, gives the original. *)
Definition lossless (c : codec) (limit : N) : Prop :=
  forall level data, blen data <= limit -> dec c (enc c level data) (blen data) = Some data.

Theorem C22_lz4_round_trip : forall lz4 zstd level data, lossless lz4 lz4_limit -> blen data <= lz4_limit ->
  is_valid (compress_lz4 lz4 level data) = true /\ decompress lz4 zstd (compress_lz4 lz4 level data) = Some (Some data).
Proof.
  intros lz4 zstd level data LS B. unfold lz4_limit in *. unfold compress_lz4.
  assert (AI : as_int (blen data) = Z.of_N (blen data)).
  { unfold as_int, u32. rewrite N.mod_small by lia. replace (blen data <? 2147483648) with true by (symmetry; apply N.ltb_lt; lia). reflexivity. }
  rewrite AI. destruct (Z.eqb_spec level 0) as [->|NZ].
  - rewrite Z.ltb_irrefl. apply stored_ok. lia.
  - destruct (Z.ltb_spec (Z.of_N (blen (enc lz4 level data))) (Z.of_N (blen data))) as [Q|Q]; [|apply stored_ok; lia].
    rewrite N2Z.id. apply (coded_ok lz4 zstd eLZ4); [auto|lia|lia|]. apply LS. exact B.
Qed.
Print Assumptions C22_lz4_round_trip.

Theorem C22_zstd_round_trip : forall lz4 zstd level data limit, lossless zstd limit -> blen data <= limit -> blen data < 4294967296 ->
  is_valid (compress_zstd zstd level data) = true /\ decompress lz4 zstd (compress_zstd zstd level data) = Some (Some data).
Proof.
  intros lz4 zstd level data limit LS B1 B. unfold compress_zstd. destruct (0 <? level)%Z.
  - destruct (N.ltb_spec (blen (enc zstd level data)) (blen data)) as [Q|Q]; [|now apply stored_ok].
    apply (coded_ok lz4 zstd eZstd); [auto|exact B|exact Q|]. exact (LS level data B1).
  - rewrite N.ltb_irrefl. now apply stored_ok.
Qed.
Print Assumptions C22_zstd_round_trip.

(** Above LZ4's limit the encoder reports zero bytes; between that limit and 2 GiB the zero is taken for a good
    result, so two different inputs of the same size give the same block and the data is lost.  From 2 GiB on the
    size is negative as an [int] and the data is stored uncompressed. *)
Theorem C22_lz4_over_limit_refuted : forall lz4 level a b, level <> 0%Z ->
  (forall lv d, lz4_limit < blen d -> enc lz4 lv d = []) ->
  lz4_limit < blen a < 2147483648 -> blen b = blen a ->
  compress_lz4 lz4 level a = compress_lz4 lz4 level b.
Proof.
  intros lz4 level a b NZ EN B E. unfold compress_lz4. apply Z.eqb_neq in NZ. rewrite NZ, !EN by lia. rewrite E.
  assert (AI : as_int (blen a) = Z.of_N (blen a)).
  { unfold as_int, u32. unfold lz4_limit in B. rewrite N.mod_small by lia. replace (blen a <? 2147483648) with true by (symmetry; apply N.ltb_lt; lia). reflexivity. }
  rewrite AI. unfold lz4_limit in B. replace (Z.of_N (blen []) <? Z.of_N (blen a))%Z with true by (symmetry; apply Z.ltb_lt; change (blen []) with 0; lia). reflexivity.
Qed.
Print Assumptions C22_lz4_over_limit_refuted.

Theorem C22_stored_above_2GiB : forall lz4 zstd level data,
  (forall lv d, lz4_limit < blen d -> enc lz4 lv d = []) -> 2147483648 <= blen data < 4294967296 ->
  is_valid (compress_lz4 lz4 level data) = true /\ decompress lz4 zstd (compress_lz4 lz4 level data) = Some (Some data).
Proof.
  intros lz4 zstd level data EN B. unfold compress_lz4.
  assert (AI : (as_int (blen data) < 0)%Z).
  { unfold as_int, u32. rewrite N.mod_small by lia. replace (blen data <? 2147483648) with false by (symmetry; apply N.ltb_ge; lia). lia. }
  destruct (Z.eqb_spec level 0) as [->|NZ]; [rewrite Z.ltb_irrefl; apply stored_ok; lia|].
  rewrite EN by (unfold lz4_limit; lia). change (Z.of_N (blen [])) with 0%Z.
  replace (0 <? as_int (blen data))%Z with false by (symmetry; apply Z.ltb_ge; lia). apply stored_ok. lia.
Qed.
Print Assumptions C22_stored_above_2GiB.

(** Any bytes at all that pass validation are decompressed without reading outside them, when the block is marked
    compressed or its two sizes agree (as in every block the code makes). *)
Theorem C22_validated_is_safe_partial : forall lz4 zstd b, is_valid b = true ->
  h_type b <> eUncompressed \/ h_usize b = h_csize b -> decompress lz4 zstd b <> None.
Proof.
  intros lz4 zstd b V H. unfold is_valid in V. unfold decompress. destruct (blen b <? header_size); [discriminate|]. destruct (eZstd <? h_type b); [discriminate|].
  destruct (N.eqb_spec (h_csize b + header_size) (blen b)) as [E|]; [|discriminate]. cbn [negb] in V.
  assert (S : slice b header_size (h_csize b) <> None).
  { unfold slice. replace (_ <=? _) with true by (symmetry; apply N.leb_le; lia). discriminate. }
  destruct (N.eqb_spec (h_type b) eUncompressed) as [T|T].
  - destruct H as [H|H]; [congruence|]. rewrite H. destruct (slice _ _ _); congruence.
  - destruct (slice _ _ _); [|congruence]. destruct (dec _ _ _); discriminate.
Qed.
Print Assumptions C22_validated_is_safe_partial.

(** Without that condition the full claim is false: a block marked "stored" whose uncompressed size is larger than
    the data passes validation and is copied past its end. *)
Theorem C22_validated_overread_refuted : exists b, is_valid b = true /\ forall lz4 zstd, decompress lz4 zstd b = None.
Proof. exists (header eUncompressed 1000 3 ++ [1; 2; 3]). split; reflexivity. Qed.
Print Assumptions C22_validated_overread_refuted.

(** A toy lossless codec (run-length for constant data, else verbatim) meets the hypotheses. *)
Definition rle : codec := mkCodec
  (fun _ d => match d with x :: r => if forallb (N.eqb x) r then [1; x] else 0 :: d | [] => [0] end)
  (fun e n => match e with 0 :: d => Some d | [1; x] => Some (repeat x (N.to_nat n)) | _ => None end).
Example C22_case : lossless rle lz4_limit /\
  compress_lz4 rle 1 [5; 5; 5; 5] = header eLZ4 4 2 ++ [1; 5] /\ decompress rle rle (header eLZ4 4 2 ++ [1; 5]) = Some (Some [5; 5; 5; 5]) /\
  compress_lz4 rle 1 [5; 6] = header eUncompressed 2 2 ++ [5; 6].
Proof.
  split; [|repeat split]. intros level data _. destruct data as [|x r]; [reflexivity|]. cbn [enc rle]. destruct (forallb (N.eqb x) r) eqn:E; [|reflexivity].
  change (Some (repeat x (N.to_nat (blen (x :: r)))) = Some (x :: r)). rewrite to_nat_blen. f_equal. cbn [List.length repeat]. f_equal. induction r as [|y r IH]; [reflexivity|].
  cbn [forallb] in E. apply andb_true_iff in E. destruct E as [E1 E2]. apply N.eqb_eq in E1. subst y. cbn [List.length repeat]. f_equal. auto.
Qed.
