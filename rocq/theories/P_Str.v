(** Proofs about M_Str: memory, and the operations on one string. *)
From Coq Require Import List Arith Bool Ascii NArith Lia.
From Verif Require Import M_Path M_Names M_Array M_Str S_Str.
Import ListNotations.

(** ** 32-bit numbers *)
Lemma w32_small n : fits n -> w32 n = n.
Proof.
  unfold fits, w32. intros H. rewrite N.mod_small by lia. apply Nat2N.id.
Qed.
Lemma fits_le n m : n <= m -> fits m -> fits n.
Proof. unfold fits. lia. Qed.
Lemma w32_fits n : (N.of_nat (w32 n) < 4294967296)%N.
Proof. unfold w32. rewrite N2Nat.id. apply N.mod_lt. lia. Qed.
Lemma round2_fits n : fits n -> n <= round2 n /\ fits (round2 n).
Proof.
  unfold fits, round2. intros H.
  assert (E : w32 (n + 1) = n + 1).
  { unfold w32. rewrite N.mod_small by lia. apply Nat2N.id. }
  rewrite E. pose proof (Nat.div_mod (n + 1) 2 ltac:(lia)) as D.
  pose proof (Nat.mod_upper_bound (n + 1) 2 ltac:(lia)). split; [lia|].
  assert (L : 2 * ((n + 1) / 2) <= n + 1) by lia.
  assert (Z : N.of_nat (2 * ((n + 1) / 2)) <> 4294967295%N) by lia. lia.
Qed.
Lemma round2_bound n : (N.of_nat n < 4294967296)%N -> fits (round2 n).
Proof.
  unfold fits, round2. intros H. pose proof (w32_fits (n + 1)) as W.
  pose proof (Nat.div_mod (w32 (n + 1)) 2 ltac:(lia)) as D.
  assert (Z : N.of_nat (2 * (w32 (n + 1) / 2)) <> 4294967295%N) by lia. lia.
Qed.
(** Grow: the new capacity is at least what is asked for and at least the length so far. *)
Lemma grow_res s n : fits n -> fits (res s) ->
  let r := round2 (Nat.max (w32 (res s * 2)) n) in n <= r /\ fits r.
Proof.
  intros Hn Hr. cbn zeta.
  set (a := w32 (res s * 2)).
  assert (Ea : Nat.even a = true).
  { unfold a, w32. apply Nat.even_spec.
    exists (N.to_nat ((N.of_nat (res s) mod 2147483648)%N)).
    rewrite Nat2N.inj_mul. change (N.of_nat 2) with 2%N.
    replace 4294967296%N with (2147483648 * 2)%N by reflexivity.
    rewrite N.mul_mod_distr_r by lia. lia. }
  assert (Ba : (N.of_nat a < 4294967296)%N) by (unfold a; apply w32_fits).
  assert (Fa : fits a).
  { apply Nat.even_spec in Ea. destruct Ea as [k Ek]. unfold fits. lia. }
  assert (Fm : fits (Nat.max a n)) by (destruct (Nat.max_spec a n) as [[_ ->]|[_ ->]]; auto).
  destruct (round2_fits _ Fm) as [L F]. split; auto. lia.
Qed.

(** ** Memory *)
Lemma nth_nth {A} (l : list A) i : nth_error l i = get l i.
Proof. reflexivity. Qed.

Lemma write_ok (h : heap) b o l k m :
  nth_error h b = Some (Some (k, m)) -> o + length l <= length m ->
  exists h', write h b o l = Some h' /\ length h' = length h /\
    nth_error h' b = Some (Some (k, firstn o m ++ l ++ skipn (o + length l) m)) /\
    (forall c, c <> b -> nth_error h' c = nth_error h c).
Proof.
  intros Hb Hl. unfold write. rewrite Hb. rewrite (proj2 (Nat.leb_le _ _) Hl).
  destruct (set_lt h b (Some (k, firstn o m ++ l ++ skipn (o + length l) m))) as [h' E].
  { apply nth_error_Some. congruence. }
  exists h'. rewrite E. split; auto. split; [eapply set_len; eauto|].
  split; [exact (set_get_same _ _ _ _ E)|].
  intros c Hc. exact (set_get_other _ _ _ _ c E Hc).
Qed.

Lemma free_ok (h : heap) b m :
  nth_error h b = Some (Some (true, m)) ->
  exists h', free h (Some b) = Some h' /\ length h' = length h /\ nth_error h' b = Some None /\
    (forall c, c <> b -> nth_error h' c = nth_error h c).
Proof.
  intros Hb. unfold free. rewrite Hb.
  destruct (set_lt h b None) as [h' E]; [apply nth_error_Some; congruence|].
  exists h'. split; auto. split; [eapply set_len; eauto|].
  split; [exact (set_get_same _ _ _ _ E)|]. intros c Hc. exact (set_get_other _ _ _ _ c E Hc).
Qed.

Lemma alloc_ok junk (h : heap) k n (h' : heap) b : alloc junk h k n = (h', b) ->
  b = length h /\ length h' = S (length h) /\
  (exists m, nth_error h' b = Some (Some (k, m)) /\ length m = n) /\
  (forall c, c < length h -> nth_error h' c = nth_error h c).
Proof.
  unfold alloc. intros E. injection E as <- <-. split; auto. split; [rewrite app_length; cbn; lia|].
  split.
  - exists (map junk (seq 0 n)). split.
    + rewrite nth_error_app2 by lia. now rewrite Nat.sub_diag.
    + now rewrite map_length, seq_length.
  - intros c Hc. now rewrite nth_error_app1.
Qed.

(** Where a pointer leads stays as it is. *)
Lemma mem_same (h h' : heap) p : (forall b o, p = Blk b o -> nth_error h' b = nth_error h b) -> mem h' p = mem h p.
Proof. destruct p as [l o|b o]; intros H; auto. cbn. now rewrite (H b o eq_refl). Qed.

Lemma read_ok h p m n : mem h p = Some m -> n <= length m -> read h p n = Some (firstn n m).
Proof. intros H L. unfold read. rewrite H. now rewrite (proj2 (Nat.leb_le _ _) L). Qed.

(** Copy( src, dst, len ). *)
Lemma copy_n_ok (h : heap) p s o n b k m l :
  at_ s = Some b -> nth_error h b = Some (Some (k, m)) -> read h p n = Some l -> length l = n ->
  o + n < length m ->
  exists h', copy_n h p s o n = Some h' /\ length h' = length h /\
    nth_error h' b = Some (Some (k, firstn o m ++ l ++ nul :: skipn (o + n + 1) m)) /\
    (forall c, c <> b -> nth_error h' c = nth_error h c).
Proof.
  intros Ha Hb Hr Hl Ho. unfold copy_n, wr. rewrite Hr, Ha.
  destruct (write_ok h b o l k m Hb) as (h1 & E1 & L1 & N1 & O1); [lia|]. rewrite E1.
  set (m1 := firstn o m ++ l ++ skipn (o + length l) m) in *.
  assert (Lm : length m1 = length m).
  { unfold m1. rewrite !app_length, firstn_length, skipn_length. lia. }
  destruct (write_ok h1 b (o + n) [nul] k m1 N1) as (h2 & E2 & L2 & N2 & O2); [cbn; lia|].
  exists h2. split; auto. split; [congruence|]. split.
  - rewrite N2. do 3 f_equal. unfold m1.
    assert (F : firstn (o + n) (firstn o m ++ l ++ skipn (o + length l) m) = firstn o m ++ l).
    { rewrite app_assoc. rewrite firstn_app.
      replace (o + n - length (firstn o m ++ l)) with 0 by (rewrite app_length, firstn_length; lia).
      rewrite firstn_O, app_nil_r. apply firstn_all2. rewrite app_length, firstn_length. lia. }
    rewrite F. rewrite <- !app_assoc. cbn. do 3 f_equal.
    rewrite !skipn_app. rewrite firstn_length.
    replace (o + n + 1 - Nat.min o (length m)) with (n + 1) by lia.
    rewrite skipn_all2 by (rewrite firstn_length; lia). cbn.
    rewrite skipn_all2 by lia. cbn.
    replace (n + 1 - length l) with 1 by lia. replace (o + length l) with (o + n) by lia.
    clear. revert m. induction (o + n) as [|z IH]; intros [|x m]; cbn; auto. apply IH.
  - intros c Hc. rewrite O2, O1; auto.
Qed.

Lemma skipn_next {A} (z : nat) : forall (m : list A) x r, skipn z m = x :: r -> skipn (z + 1) m = r.
Proof.
  induction z as [|z IH]; intros [|c m] x r H; cbn in *; try discriminate.
  - now injection H.
  - eauto.
Qed.
(** Copy( src, dst ): the source in other memory. *)
Lemma zcopy_ok : forall l fuel (h : heap) p s o b k m rest,
  at_ s = Some b -> nth_error h b = Some (Some (k, m)) -> mem h p = Some (l ++ nul :: rest) -> ~ In nul l ->
  (forall c q, p = Blk c q -> c <> b) -> o + length l < length m -> length l < fuel ->
  exists h', zcopy fuel h p s o = Some h' /\ length h' = length h /\
    nth_error h' b = Some (Some (k, firstn o m ++ l ++ nul :: skipn (o + length l + 1) m)) /\
    (forall c, c <> b -> nth_error h' c = nth_error h c).
Proof.
  induction l as [|x l IH]; intros fuel h p s o b k m rest Ha Hb Hm Hn Hp Ho Hf;
    (destruct fuel as [|fuel]; [cbn in Hf; lia|]); cbn [zcopy].
  - unfold read1. rewrite Hm. cbn [app nth_error]. unfold wr. rewrite Ha.
    destruct (write_ok h b o [nul] k m Hb) as (h1 & E1 & L1 & N1 & O1); [cbn in *; lia|].
    rewrite E1. cbn. exists h1. split; auto. split; auto. split; auto.
    rewrite N1. cbn. replace (o + 0 + 1) with (o + 1) by lia. reflexivity.
  - unfold read1. rewrite Hm. cbn [app nth_error]. unfold wr. rewrite Ha.
    destruct (write_ok h b o [x] k m Hb) as (h1 & E1 & L1 & N1 & O1); [cbn in *; lia|].
    rewrite E1. destruct (Ascii.eqb x nul) eqn:Ex.
    { apply Ascii.eqb_eq in Ex. exfalso. apply Hn. left. auto. }
    set (m1 := firstn o m ++ [x] ++ skipn (o + length [x]) m) in *.
    assert (Lm : length m1 = length m).
    { unfold m1. rewrite !app_length, firstn_length, skipn_length. cbn in *. lia. }
    destruct (IH fuel h1 (padd p 1) s (S o) b k m1 rest) as (h2 & E2 & L2 & N2 & O2); auto.
    + replace (mem h1 (padd p 1)) with (mem h (padd p 1)).
      2:{ symmetry. apply mem_same. intros c q Ec. apply O1. destruct p as [y z|y z]; cbn in Ec; [discriminate|].
          injection Ec as <- <-. eapply Hp; eauto. }
      destruct p as [y z|y z]; cbn in Hm |- *.
      * injection Hm as Hm. f_equal. eapply skipn_next; eauto.
      * destruct (nth_error h y) as [[[kk mm]|]|]; try discriminate. injection Hm as Hm. f_equal.
        eapply skipn_next; eauto.
    + intros I. apply Hn. right. auto.
    + intros c q Ec. destruct p as [y z|y z]; cbn in Ec; [discriminate|]. injection Ec as <- <-. eapply Hp; eauto.
    + cbn in Ho. lia.
    + cbn in Hf. lia.
    + exists h2. split; auto. split; [congruence|]. split.
      * rewrite N2. do 3 f_equal. unfold m1.
        assert (F : firstn (S o) (firstn o m ++ [x] ++ skipn (o + length [x]) m) = firstn o m ++ [x]).
        { rewrite app_assoc, firstn_app.
          replace (S o - length (firstn o m ++ [x])) with 0 by (rewrite app_length, firstn_length; cbn [length] in *; lia).
          rewrite firstn_O, app_nil_r. apply firstn_all2. rewrite app_length, firstn_length. cbn [length] in *. lia. }
        rewrite F, <- app_assoc. cbn [app length]. do 4 f_equal.
        rewrite skipn_app, firstn_length. rewrite skipn_all2 by (rewrite firstn_length; lia). cbn [app].
        replace (S o + length l + 1 - Nat.min o (length m)) with (S (length l + 1)) by (cbn [length] in *; lia). cbn [skipn].
        replace (o + S (length l) + 1) with ((o + 1) + (length l + 1)) by lia.
        clear. revert m. induction (o + 1) as [|z IH]; intros m; cbn; auto. destruct m; cbn; auto. now rewrite skipn_nil.
      * intros c Hc. rewrite O2, O1; auto.
Qed.
