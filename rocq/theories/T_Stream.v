(** C33: in-memory streams.  Model: M_Stream.v, byte encoding: M_Bytes.v. *)
From Coq Require Import List Arith Bool NArith Lia.
From Verif Require Import M_Bytes M_Stream P_Stream.
Import ListNotations.
Local Open Scope N_scope.

(** Growable stream: whatever the initial size, growth step and split of the data, no write leaves the buffer and
    the content is the concatenation of the writes. *)
Theorem C33_memory_stream : forall cap growth (writes : list bytes),
  exists s, ms_writes (ms_new cap growth) writes = Some s /\ ms_data s = concat writes /\ blen (ms_data s) <= ms_cap s.
Proof.
  intros cap growth writes. destruct (ms_writes_ok writes (ms_new cap growth)) as (s&E&O&D&_); [unfold ms_ok; cbn; lia|].
  exists s. split; [exact E|]. split; [exact D|exact O].
Qed.
Print Assumptions C33_memory_stream.

(** Paged stream: the pages, each cut to the size reported for it, hold the concatenation of the writes in order;
    every page but the last is full; and the reported size is the number of bytes written while below 4 GiB. *)
Theorem C33_paged_stream : forall page (writes : list bytes), 0 < page < 4294967296 ->
  exists s, cs_writes (cs_new page) writes = Some s /\ concat (cs_pages s) = concat writes /\
    (forall i pg n, cs_get_page s i = Some (pg, n) -> blen pg = n /\ n <= page) /\
    (blen (concat writes) < 4294967296 -> cs_size s = blen (concat writes)).
Proof.
  intros page writes B.
  assert (EP : u32 page = page) by (apply N.mod_small; lia).
  destruct (cs_writes_ok writes (cs_new page)) as (s&E&O&D&P); [split; [cbn; lia|left; split; reflexivity]|].
  cbn [cs_new cs_page] in P. rewrite EP in P.
  exists s. split; [exact E|]. split; [exact D|]. split.
  - intros i pg n H. unfold cs_get_page in H. destruct (nth_error (cs_pages s) i) as [q|] eqn:EQ; [|discriminate].
    destruct O as (PG&[[HP _]|(full&lst&HP&FA&EL&PP)]); [rewrite HP in EQ; destruct i; discriminate|].
    rewrite HP in *. rewrite app_length in H. cbn [List.length] in H. replace (List.length full + 1 - 1)%nat with (List.length full) in H by lia.
    assert (q = pg) as -> by congruence. apply (f_equal (fun o => match o with Some (_, z) => z | None => 0 end)) in H. cbn in H.
    destruct (Nat.eqb_spec i (List.length full)) as [->|NE].
    + rewrite nth_error_app2, Nat.sub_diag in EQ by lia. cbn in EQ. assert (lst = pg) as -> by congruence. lia.
    + assert (i < List.length full)%nat.
      { assert (i < List.length (full ++ [lst]))%nat by (apply nth_error_Some; congruence). rewrite app_length in *. cbn in *. lia. }
      rewrite nth_error_app1 in EQ by auto. apply nth_error_In in EQ. rewrite Forall_forall in FA. specialize (FA _ EQ). lia.
  - intros L. assert (D' : concat (cs_pages s) = concat writes) by exact D. rewrite <- D' in L |- *. now apply cs_size_ok.
Qed.
Print Assumptions C33_paged_stream.

(** The reported size is wrong from 4 GiB plus one page on: the 32-bit product wraps. *)
Theorem C33_paged_size_refuted : exists page (writes : list bytes) s, 0 < page < 4294967296 /\
  cs_writes (cs_new page) writes = Some s /\ cs_size s <> blen (concat writes).
Proof.
  assert (HB : exists big, N.of_nat big = 4294967297) by (eexists; apply N2Nat.id). destruct HB as (big&HB). exists 1048576, [repeat 0 big].
  destruct (cs_writes_ok [repeat 0 big] (cs_new 1048576)) as (s&E&O&D&P); [split; [reflexivity|left; split; reflexivity]|].
  exists s. split; [split; reflexivity|]. split; [exact E|].
  assert (T : blen (concat [repeat 0 big]) = 4294967297) by (cbn [concat]; rewrite app_nil_r; unfold blen; rewrite repeat_length; exact HB).
  rewrite T. cbn [cs_new cs_pages concat app] in D.
  assert (NE : cs_pages s <> []).
  { intros Q. rewrite Q in D. cbn [concat] in D. cbn [concat] in T. rewrite <- D in T. discriminate. }
  assert (T' : blen (concat (cs_pages s)) = 4294967297) by (rewrite D; exact T).
  destruct (cs_total s O NE) as (C&PP&N1). destruct O as (_&[[Q _]|(full&lst&HP&FA&EL&PL)]); [congruence|].
  rewrite P in *. cbn [cs_new cs_page] in C, PL. change (u32 1048576) with 1048576 in *.
  set (np := N.of_nat (List.length (cs_pages s))) in *.
  assert (HN : np = 4097) by lia.
  unfold cs_size. fold np. rewrite HN, P. change (cs_page (cs_new 1048576)) with 1048576. cbv zeta. change (u32 4097) with 4097.
  change (if 1 <? 4097 then u32 ((4097 - 1) * 1048576) else 0) with 0. rewrite HN in C. lia.
Qed.
Print Assumptions C33_paged_size_refuted.

(** Constant stream: after any sequence of seeks and reads, a read returns exactly the bytes from the current
    position, at most the number asked for and never past the end, and moves the position by that many. *)
Inductive kop := KRead (n : N) | KSeek (p : N).
Fixpoint k_run (ops : list kop) (s : kstream) : option kstream :=
  match ops with
  | [] => Some s
  | KRead n :: r => match ks_read s n with Some (_, s') => k_run r s' | None => None end
  | KSeek p :: r => k_run r (snd (ks_seek s p))
  end.
Theorem C33_const_stream : forall buf ops,
  exists s, k_run ops (ks_new buf) = Some s /\ ks_buf s = buf /\ ks_pos s <= blen buf /\
    forall n, exists s', ks_read s n = Some (firstn (N.to_nat n) (skipn (N.to_nat (ks_pos s)) buf), s') /\
      ks_pos s' = N.min (blen buf) (ks_pos s + n).
Proof.
  intros buf ops.
  assert (G : forall ops s, ks_ok s -> exists s', k_run ops s = Some s' /\ ks_buf s' = ks_buf s /\ ks_ok s').
  { clear. induction ops as [|[n|p] ops IH]; intros s H; [cbn; eauto| |].
    - cbn [k_run]. destruct (ks_read_safe s n H) as (b&s1&E&O&B). rewrite E. destruct (IH s1 O) as (s2&E2&B2&O2). exists s2. rewrite B2. auto.
    - cbn [k_run]. unfold ks_seek. destruct (N.ltb_spec (blen (ks_buf s)) p) as [Q|Q]; cbn [snd]; [apply IH; auto|].
      destruct (IH (mkKS (ks_buf s) p) Q) as (s2&E2&B2&O2). eauto. }
  destruct (G ops (ks_new buf)) as (s&E&B&O); [unfold ks_ok; cbn; lia|]. cbn [ks_new ks_buf] in B.
  exists s. split; [exact E|]. split; [exact B|]. unfold ks_ok in O. rewrite B in O. split; [exact O|].
  intros n. unfold ks_read. rewrite B. replace (blen buf <? ks_pos s) with false by (symmetry; apply N.ltb_ge; auto).
  set (t := skipn (N.to_nat (ks_pos s)) buf).
  assert (LT : blen t = blen buf - ks_pos s) by (unfold t, blen; rewrite skipn_length; lia).
  assert (F : firstn (N.to_nat (N.min (blen buf - ks_pos s) n)) t = firstn (N.to_nat n) t).
  { destruct (N.le_gt_cases n (blen buf - ks_pos s)); [rewrite N.min_r by lia; reflexivity|]. rewrite N.min_l by lia.
    rewrite !firstn_all2; auto; unfold blen in *; lia. }
  rewrite F. eexists. split; [reflexivity|]. cbn [ks_pos]. lia.
Qed.
Print Assumptions C33_const_stream.

(** Integers, strings and arrays of strings written one after the other are read back unchanged, and whatever
    follows them is left for the next read. *)
Theorem C33_values_round_trip : forall (l : list bytes) (n : N) rest,
  N.of_nat (List.length l) < 4294967296 -> Forall (fun t => blen t < 4294967296) l -> n < 18446744073709551616 ->
  exists s1 s2, rd_int 8 (ks_new (le_bytes 8 n ++ wr_strs l ++ rest)) = Some (inl n, s1) /\
    rd_strs s1 = Some (Some l, s2) /\ skipn (N.to_nat (ks_pos s2)) (ks_buf s2) = rest.
Proof.
  intros l n rest H1 H2 H3. destruct (rd_u64_ok _ n _ (views_new (le_bytes 8 n ++ wr_strs l ++ rest)) H3) as (s1&E1&V1&_).
  destruct (rd_strs_ok s1 l rest V1 H1 H2) as (s2&E2&(pre&V2&P2)). exists s1, s2. split; [exact E1|]. split; [exact E2|].
  rewrite V2, P2, to_nat_blen, skipn_app, Nat.sub_diag, skipn_all. reflexivity.
Qed.
Print Assumptions C33_values_round_trip.

(** Reading values from any bytes at all, truncated or damaged, never leaves the buffer. *)
Theorem C33_reads_stay_inside : forall buf p, p <= blen buf ->
  (exists v s, rd_strs (mkKS buf p) = Some (v, s) /\ ks_pos s <= blen buf) /\
  (exists v s, rd_str (mkKS buf p) = Some (v, s) /\ ks_pos s <= blen buf) /\
  (forall n, exists v s, rd_int n (mkKS buf p) = Some (v, s) /\ ks_pos s <= blen buf).
Proof.
  intros buf p H. assert (O : ks_ok (mkKS buf p)) by exact H. split; [|split].
  - destruct (rd_strs_safe _ O) as (v&s&E&Q&B). exists v, s. split; auto. unfold ks_ok in Q. now rewrite B in Q.
  - destruct (rd_str_safe _ O) as (v&s&E&Q&B). exists v, s. split; auto. unfold ks_ok in Q. now rewrite B in Q.
  - intros n. destruct (rd_int_safe n _ O) as (v&s&E&Q&B). exists v, s. split; auto. unfold ks_ok in Q. now rewrite B in Q.
Qed.
Print Assumptions C33_reads_stay_inside.

(** Padding to a power-of-two alignment reaches a multiple of it with less than one unit of padding. *)
Theorem C33_alignment : forall tell k, tell + 2 ^ k < 18446744073709551616 ->
  (tell + blen (align_pad tell (2 ^ k))) mod 2 ^ k = 0 /\ blen (align_pad tell (2 ^ k)) < 2 ^ k.
Proof. exact align_ok. Qed.
Print Assumptions C33_alignment.

Example C33_case :
  option_map cs_pages (cs_writes (cs_new 4) [[1; 2; 3]; []; [4; 5; 6; 7; 8; 9]]) = Some [[1; 2; 3; 4]; [5; 6; 7; 8]; [9]] /\
  option_map cs_size (cs_writes (cs_new 4) [[1; 2; 3]; []; [4; 5; 6; 7; 8; 9]]) = Some 9 /\
  option_map ms_data (ms_writes (ms_new 2 4) [[1]; [2; 3; 4]; [5]]) = Some [1; 2; 3; 4; 5] /\
  align_pad 5 8 = [0; 0; 0] /\
  rd_strs (ks_new (wr_strs [[65; 66]; []] ++ [7])) = Some (Some [[65; 66]; []], mkKS (wr_strs [[65; 66]; []] ++ [7]) 14).
Proof. repeat split. Qed.
