From Coq Require Import List Arith Bool NArith ZArith Lia.
From Verif Require Import M_Bytes M_Stream P_Stream M_Codec P_Codec M_Conf P_Conf M_Db S_Db P_Db.
Import ListNotations.
Local Open Scope N_scope.

(** ** What any file leads to *)
Section Reject.
Variables (schema : N -> option rinfo) (h32 h64 : bytes -> N) (clean : bytes -> bytes) (same_path : bytes -> bytes -> bool) (rehash : bytes -> N).
Variables (cont : bool) (w : world) (reg : list (bytes * N)) (alloc : nat -> ptr) (path : bytes).
Notation load f := (load_bytes schema h32 h64 clean same_path rehash cont w reg alloc path f).

Lemma read_header f : r_raw HEADER (ks_new f) = Some (if 16 <=? blen f then Some (firstn 16 f) else None, mkKS f (N.min (blen f) 16)).
Proof.
  unfold r_raw, ks_read, ks_new. cbn [ks_buf ks_pos]. change (blen f <? 0) with false || replace (blen f <? 0) with false by (symmetry; apply N.ltb_ge; lia).
  cbn [skipn N.to_nat]. rewrite N.sub_0_r, N.add_0_l. change HEADER with 16. f_equal. f_equal.
  destruct (N.leb_spec 16 (blen f)) as [L|L].
  - rewrite N.min_r by lia. change (N.to_nat 16) with 16%nat. replace (blen (firstn 16 f) =? 16) with true; [reflexivity|].
    symmetry. apply N.eqb_eq. unfold blen in *. rewrite firstn_length. lia.
  - rewrite N.min_l by lia. rewrite to_nat_blen, firstn_all. replace (blen f =? 16) with false; [reflexivity|]. symmetry. apply N.eqb_neq. lia.
Qed.
Lemma load_short f : blen f < 16 -> load f = Some (LOAD_ERROR schema).
Proof. intros L. unfold load_bytes. rewrite read_header. replace (16 <=? blen f) with false by (symmetry; apply N.leb_gt; lia). reflexivity. Qed.
Lemma load_id f : 16 <= blen f -> firstn 3 f <> [78; 71; 68] -> load f = Some (LOAD_ERROR schema).
Proof.
  intros L I. unfold load_bytes. rewrite read_header. replace (16 <=? blen f) with true by (symmetry; apply N.leb_le; lia). rewrite firstn_firstn. change (Nat.min 3 16) with 3%nat.
  destruct (beq (firstn 3 f) [78; 71; 68]) eqn:E; [apply beq_eq in E; congruence|]. reflexivity.
Qed.
Lemma nth_firstn {A} (l : list A) n i d : (i < n)%nat -> nth i (firstn n l) d = nth i l d.
Proof. revert l i. induction n as [|n IH]; intros [|x l] [|i] L; try lia; cbn; auto. apply IH. lia. Qed.
Lemma load_version f : 16 <= blen f -> firstn 3 f = [78; 71; 68] -> nth 3 f 0 <> 194 -> load f = Some (MISSING_OR_INCOMPATIBLE schema).
Proof.
  intros L I V. unfold load_bytes. rewrite read_header. replace (16 <=? blen f) with true by (symmetry; apply N.leb_le; lia). rewrite firstn_firstn. change (Nat.min 3 16) with 3%nat.
  rewrite I. rewrite nth_firstn by lia. change (beq [78; 71; 68] [78; 71; 68]) with true. cbn [negb]. destruct (N.eqb_spec (nth 3 f 0) VERSION); [contradiction|]. reflexivity.
Qed.
Lemma skip_first {A} (l : list A) : skipn 8 (firstn 16 l) = firstn 8 (skipn 8 l).
Proof. rewrite skipn_firstn_comm. reflexivity. Qed.
Lemma load_hash f : 16 <= blen f -> firstn 3 f = [78; 71; 68] -> nth 3 f 0 = 194 -> le_value (firstn 8 (skipn 8 f)) <> h64 (skipn 16 f) -> load f = Some (LOAD_ERROR schema).
Proof.
  intros L I V H. unfold load_bytes. rewrite read_header. replace (16 <=? blen f) with true by (symmetry; apply N.leb_le; lia). rewrite firstn_firstn. change (Nat.min 3 16) with 3%nat.
  rewrite I. rewrite nth_firstn by lia. rewrite V. change (beq [78; 71; 68] [78; 71; 68]) with true. change (194 =? VERSION) with true. cbn [negb].
  rewrite skip_first. change (N.to_nat HEADER) with 16%nat. destruct (N.eqb_spec (h64 (skipn 16 f)) (le_value (firstn 8 (skipn 8 f)))); [congruence|]. reflexivity.
Qed.
Lemma first4 f : firstn 4 f = [78; 71; 68; 194] <-> (firstn 3 f = [78; 71; 68] /\ nth 3 f 0 = 194).
Proof.
  destruct f as [|a [|b [|c [|d f]]]]; cbn; split; try discriminate; try (intros (H&_); discriminate).
  - intros (H&H2). congruence.
  - intros H. injection H as -> -> -> ->. auto.
  - intros (H&->). injection H as -> -> ->. reflexivity.
Qed.
Lemma load_bad f : ~ header_ok h64 f -> load f = Some (LOAD_ERROR schema) \/ load f = Some (MISSING_OR_INCOMPATIBLE schema).
Proof.
  intros H. destruct (N.lt_ge_cases (blen f) 16) as [L|L]; [left; now apply load_short|].
  destruct (list_eq_dec N.eq_dec (firstn 3 f) [78; 71; 68]) as [I|I]; [|left; now apply load_id].
  destruct (N.eq_dec (nth 3 f 0) 194) as [V|V]; [|right; now apply load_version].
  destruct (N.eq_dec (le_value (firstn 8 (skipn 8 f))) (h64 (skipn 16 f))) as [E|E]; [|left; now apply load_hash].
  exfalso. apply H. split; [exact L|]. split; [|exact E]. now apply first4.
Qed.
End Reject.

(** ** The file on disk *)
Lemma steps_flat pages : flat_map (fun pg => map PutByte pg) pages = map PutByte (concat pages).
Proof. induction pages as [|p l IH]; [reflexivity|]. cbn [flat_map concat]. rewrite map_app, IH. reflexivity. Qed.
Lemma put_bytes (l : bytes) : forall f pos, (pos <= List.length f)%nat ->
  fold_left put (map PutByte l) (f, pos) = (firstn pos f ++ l ++ skipn (pos + List.length l) f, (pos + List.length l)%nat).
Proof.
  induction l as [|b l IH]; intros f pos L; cbn [map fold_left List.length].
  - rewrite Nat.add_0_r. cbn [app]. rewrite firstn_skipn. reflexivity.
  - cbn [put]. rewrite IH by (rewrite app_length, firstn_length; cbn [List.length]; lia).
    f_equal; [|lia].
    rewrite (firstn_app (S pos)), firstn_length. replace (S pos - Nat.min pos (List.length f))%nat with 1%nat by lia. rewrite firstn_firstn. replace (Nat.min (S pos) pos) with pos by lia.
    cbn [firstn]. rewrite <- app_assoc. cbn [app]. f_equal. f_equal. f_equal.
    rewrite skipn_app, firstn_length. rewrite skipn_all2 by (rewrite firstn_length; lia).
    replace (S pos + List.length l - Nat.min pos (List.length f))%nat with (S (List.length l)) by lia. cbn [app]. rewrite skipn_cons.
    assert (SS : forall n m (x : bytes), skipn n (skipn m x) = skipn (m + n) x).
    { intros n m. revert n. induction m as [|m IHm]; intros n x; [reflexivity|]. destruct x; [now rewrite !skipn_nil|]. cbn. apply IHm. }
    rewrite SS. f_equal. lia.
Qed.
Lemma file_after_cut old pages n : (n <= List.length (concat pages))%nat ->
  file_after old pages n = firstn n (concat pages) ++ skipn n (match old with Some f => f | None => [] end).
Proof.
  intros L. unfold file_after, save_steps. rewrite steps_flat, firstn_app, map_length. replace (n - List.length (concat pages))%nat with 0%nat by lia.
  cbn [firstn]. rewrite app_nil_r, firstn_map. rewrite put_bytes by lia. cbn [fst firstn app]. rewrite firstn_length. replace (0 + Nat.min n (List.length (concat pages)))%nat with n by lia. reflexivity.
Qed.
Lemma file_after_all old pages n : (List.length (concat pages) < n)%nat -> file_after old pages n = concat pages.
Proof.
  intros L. unfold file_after, save_steps. rewrite steps_flat, firstn_all2 by (rewrite app_length, map_length; cbn [List.length]; lia).
  rewrite fold_left_app, put_bytes by lia. cbn [fold_left put firstn app fst]. rewrite firstn_app. replace (0 + List.length (concat pages) - List.length (concat pages))%nat with 0%nat by lia.
  cbn [firstn]. rewrite app_nil_r. cbn [Nat.add]. apply firstn_all.
Qed.

Lemma le_value_inj : forall a b : bytes, List.length a = List.length b -> Forall (fun x => x < 256) a -> Forall (fun x => x < 256) b -> le_value a = le_value b -> a = b.
Proof.
  induction a as [|x a IH]; intros [|y b] L Fa Fb E; cbn in L; try lia; [reflexivity|]. inversion Fa; inversion Fb; subst. cbn [le_value] in E.
  assert (x = y /\ le_value a = le_value b) as (->&E2) by lia. f_equal. apply IH; auto; lia.
Qed.

Lemma Forall_firstn_b (P : N -> Prop) n l : Forall P l -> Forall P (firstn n l).
Proof. intros F. revert n. induction F; intros [|n]; cbn; auto. Qed.
Lemma Forall_skipn_b (P : N -> Prop) n l : Forall P l -> Forall P (skipn n l).
Proof. intros F. revert n. induction F; intros [|n]; cbn; auto. Qed.
Lemma splice_app {A} (a b a' b' : list A) n : List.length a = List.length a' ->
  firstn n (a ++ b) ++ skipn n (a' ++ b') = (firstn n a ++ skipn n a') ++ (firstn (n - List.length a) b ++ skipn (n - List.length a) b').
Proof.
  intros L. rewrite firstn_app, skipn_app, <- L. destruct (le_lt_dec n (List.length a)) as [C|C].
  - replace (n - List.length a)%nat with 0%nat by lia. cbn [firstn skipn app]. rewrite app_nil_r, <- app_assoc. reflexivity.
  - rewrite (skipn_all2 a') by lia. cbn [app]. rewrite app_nil_r, <- app_assoc. reflexivity.
Qed.
Lemma splice_same {A} (a : list A) n : firstn n a ++ skipn n a = a. Proof. apply firstn_skipn. Qed.

Section Crash.
Variables (h64 : bytes -> N).
Hypothesis HB : forall b, h64 b < 18446744073709551616.
Definition whole (b : bytes) : bytes := header (h64 b) ++ b.
Lemma whole_len b : List.length (whole b) = (16 + List.length b)%nat.
Proof. unfold whole. rewrite app_length, header_len. reflexivity. Qed.
Lemma whole_hash b : firstn 8 (skipn 8 (whole b)) = le_bytes 8 (h64 b).
Proof. unfold whole, header. cbn [app skipn]. apply firstn_app_exact. apply le_bytes_len. Qed.
Lemma whole_skip b : skipn 16 (whole b) = b.
Proof. unfold whole. apply skipn_app_exact, header_len. Qed.
Definition splice (n : nat) (a b : bytes) : bytes := firstn n a ++ skipn n b.
Lemma splice_whole n nb ob : splice n (whole nb) (whole ob) =
  [78; 71; 68; VERSION; 0; 0; 0; 0] ++ splice (n - 8) (le_bytes 8 (h64 nb)) (le_bytes 8 (h64 ob)) ++ splice (n - 16) nb ob.
Proof.
  unfold splice, whole, header. rewrite <- !app_assoc. rewrite splice_app by reflexivity. rewrite splice_same. f_equal.
  change (List.length [78; 71; 68; VERSION; 0; 0; 0; 0]) with 8%nat. rewrite splice_app by now rewrite !le_bytes_len. rewrite le_bytes_len. replace (n - 8 - 8)%nat with (n - 16)%nat by lia. rewrite <- !app_assoc. reflexivity.
Qed.
Lemma splice8_len n x y : List.length (splice n (le_bytes 8 x) (le_bytes 8 y)) = 8%nat.
Proof. unfold splice. rewrite app_length, firstn_length, skipn_length, !le_bytes_len. lia. Qed.
Lemma splice8_small n x y : Forall (fun b => b < 256) (splice n (le_bytes 8 x) (le_bytes 8 y)).
Proof. unfold splice. apply Forall_app. split; [apply Forall_firstn_b|apply Forall_skipn_b]; apply le_bytes_small. Qed.
(** a file torn between two databases is one of them, or does not have a good header, or its content collides *)
Lemma torn_two nb ob n : let f := splice n (whole nb) (whole ob) in
  f = whole ob \/ f = whole nb \/ ~ header_ok h64 f \/ collide h64 (splice (n - 16) nb ob) nb.
Proof.
  intros f. assert (F : f = [78; 71; 68; VERSION; 0; 0; 0; 0] ++ splice (n - 8) (le_bytes 8 (h64 nb)) (le_bytes 8 (h64 ob)) ++ splice (n - 16) nb ob) by apply splice_whole.
  assert (S16 : skipn 16 f = splice (n - 16) nb ob).
  { rewrite F, app_assoc. apply skipn_app_exact. rewrite app_length, splice8_len. reflexivity. }
  assert (S8 : firstn 8 (skipn 8 f) = splice (n - 8) (le_bytes 8 (h64 nb)) (le_bytes 8 (h64 ob))).
  { rewrite F. rewrite skipn_app_exact by reflexivity. apply firstn_app_exact, splice8_len. }
  destruct (le_lt_dec n 15) as [C|C].
  - replace (n - 16)%nat with 0%nat in * by lia. change (splice 0 nb ob) with ob in *.
    destruct (N.eq_dec (le_value (firstn 8 (skipn 8 f))) (h64 ob)) as [E|E].
    + left. rewrite F. unfold whole, header. rewrite <- app_assoc. f_equal. f_equal. apply le_value_inj; [now rewrite splice8_len, le_bytes_len|apply splice8_small|apply le_bytes_small|].
      rewrite <- S8, E, le_value_u64 by apply HB. reflexivity.
    + right. right. left. intros (_&_&H). apply E. rewrite S16 in H. exact H.
  - assert (HN : splice (n - 8) (le_bytes 8 (h64 nb)) (le_bytes 8 (h64 ob)) = le_bytes 8 (h64 nb)).
    { unfold splice. rewrite firstn_all2, skipn_all2 by (rewrite le_bytes_len; lia). apply app_nil_r. }
    rewrite HN in *. destruct (list_eq_dec N.eq_dec (splice (n - 16) nb ob) nb) as [E|E].
    + right. left. rewrite F, E. unfold whole, header. rewrite <- app_assoc. reflexivity.
    + right. right. destruct (N.eq_dec (h64 (splice (n - 16) nb ob)) (h64 nb)) as [H|H]; [right; split; auto|]. left. intros (_&_&X).
      rewrite S8, S16, le_value_u64 in X by apply HB. congruence.
Qed.
(** no old file: a prefix of the new one *)
Lemma torn_new nb n : let f := firstn n (whole nb) in f = whole nb \/ ~ header_ok h64 f \/ collide h64 (firstn (n - 16) nb) nb.
Proof.
  intros f. destruct (le_lt_dec n 15) as [C|C].
  - right. left. intros (L&_). unfold f, blen in L. rewrite firstn_length, whole_len in L. lia.
  - assert (F : f = header (h64 nb) ++ firstn (n - 16) nb).
    { unfold f, whole. rewrite firstn_app, header_len, firstn_all2 by (rewrite header_len; lia). reflexivity. }
    destruct (list_eq_dec N.eq_dec (firstn (n - 16) nb) nb) as [E|E]; [left; rewrite F, E; reflexivity|]. right.
    destruct (N.eq_dec (h64 (firstn (n - 16) nb)) (h64 nb)) as [H|H]; [right; split; auto|]. left. intros (_&_&X). rewrite F in X.
    rewrite (skipn_app_exact (header (h64 nb)) _ 16) in X by apply header_len. unfold header in X. cbn [app skipn] in X. rewrite firstn_app_exact in X by apply le_bytes_len.
    rewrite le_value_u64 in X by apply HB. congruence.
Qed.
End Crash.
