(** Proofs about M_Str: each operation on one string keeps the string whole, gives the right text and leaves
    the memory of all other strings alone. *)
From Coq Require Import List Arith Bool Ascii NArith Lia.
From Verif Require Import M_Path M_Names M_Array M_Str S_Str P_Str.
Import ListNotations.
Implicit Types h : heap.

(** String s is whole and its text is v. *)
Definition holds (h : heap) (s : astr) (v : txt) : Prop :=
  match at_ s with
  | None => v = [] /\ len s = 0 /\ res s = 0 /\ own s = false
  | Some b => exists r, nth_error h b = Some (Some (own s, v ++ nul :: r)) /\ length v = len s /\
                        len s + length r = res s /\ fits (res s)
  end.
(** What may change between (h, s) and (h', s'). *)
Record frame (h : heap) (s : astr) (h' : heap) (s' : astr) : Prop := F {
  f_len : length h <= length h';
  f_other : forall b, b < length h -> at_ s <> Some b -> nth_error h' b = nth_error h b;
  f_at : at_ s' = at_ s \/ at_ s' = None \/ exists b, at_ s' = Some b /\ length h <= b;
  f_leak : forall b m, nth_error h' b = Some (Some (true, m)) -> at_ s' = Some b \/ (b < length h /\ at_ s <> Some b)
}.

Lemma nth_lt {A} (l : list A) i x : nth_error l i = Some x -> i < length l.
Proof. intros H. apply nth_error_Some. congruence. Qed.
Lemma at_dec (s : astr) b : at_ s = Some b \/ at_ s <> Some b.
Proof. destruct (at_ s) as [c|]; [|right; discriminate]. destruct (Nat.eq_dec c b); [left; congruence|right; congruence]. Qed.

Lemma frame_refl h s s' : at_ s' = at_ s -> frame h s h s'.
Proof.
  intros E. split; auto.
  intros b m H. pose proof (nth_lt _ _ _ H). destruct (at_dec s b); [left; congruence|right; auto].
Qed.
Lemma frame_trans h s h1 s1 h2 s2 : frame h s h1 s1 -> frame h1 s1 h2 s2 -> frame h s h2 s2.
Proof.
  intros [L1 O1 A1 K1] [L2 O2 A2 K2]. split; [lia| | |].
  - intros b Hb Hs. rewrite O2; [auto|lia|].
    destruct A1 as [E|[E|(c & E & Lc)]]; rewrite E; auto; try discriminate. intros J. injection J as ->. lia.
  - destruct A2 as [E|[E|(c & E & Lc)]]; rewrite E; auto.
    right. right. exists c. split; auto. lia.
  - intros b m H. destruct (K2 b m H) as [E|[Lb Nb]]; auto.
    rewrite O2 in H by auto. destruct (K1 b m H) as [E|Q]; auto. congruence.
Qed.
(** Changing the bytes of the string's own block, and its length. *)
Lemma frame_write h s h' s' b : at_ s = Some b -> at_ s' = Some b -> length h' = length h ->
  (forall c, c <> b -> nth_error h' c = nth_error h c) -> frame h s h' s'.
Proof.
  intros E E' L O. split; [lia| |left; congruence|].
  - intros c Hc Nc. apply O. congruence.
  - intros c m H. destruct (Nat.eq_dec c b) as [->|Nc]; [left; auto|right]. split; [|congruence].
    rewrite O in H by auto. eapply nth_lt; eauto.
Qed.
Lemma frame_with h s h' a b : at_ a = at_ b -> frame h s h' a -> frame h s h' b.
Proof. intros E [L O T K]. split; auto; rewrite <- E; auto. Qed.

Lemma holds_text h s v : holds h s v -> text h s = v.
Proof.
  unfold holds, text. destruct (at_ s) as [b|].
  - intros (r & H & L & _). rewrite H, <- L. rewrite firstn_app, Nat.sub_diag, firstn_all. apply app_nil_r.
  - intros (-> & _). reflexivity.
Qed.
Lemma holds_len h s v : holds h s v -> len s = length v.
Proof. unfold holds. destruct (at_ s) as [b|]; [intros (r & _ & L & _); auto|intros (-> & L & _); auto]. Qed.
Lemma holds_res h s v : holds h s v -> len s <= res s /\ fits (res s).
Proof.
  unfold holds. destruct (at_ s) as [b|]; [intros (r & _ & L & R & Fr); split; auto; lia|].
  intros (_ & -> & -> & _). split; auto. unfold fits. cbn. lia.
Qed.
Lemma holds_same h h' s v : holds h s v -> (forall b, at_ s = Some b -> nth_error h' b = nth_error h b) -> holds h' s v.
Proof. unfold holds. destruct (at_ s) as [b|]; auto. intros (r & H & T) E. exists r. rewrite E by auto. auto. Qed.
Lemma holds_mem h s v : holds h s v -> exists r, mem h (base s) = Some (v ++ nul :: r).
Proof.
  unfold holds, base. destruct (at_ s) as [b|].
  - intros (r & H & _). exists r. cbn. now rewrite H.
  - intros (-> & _). exists []. reflexivity.
Qed.
Lemma mem_padd h p a m : mem h p = Some m -> mem h (padd p a) = Some (skipn a m).
Proof.
  assert (K : forall (m : txt) o, skipn a (skipn o m) = skipn (o + a) m).
  { clear. intros m o. revert m. induction o as [|o IH]; intros m; cbn; auto. destruct m; cbn; auto. apply skipn_nil. }
  destruct p as [l o|b o]; cbn.
  - intros H. injection H as <-. now rewrite K.
  - destruct (nth_error h b) as [[[k x]|]|]; try discriminate. intros H. injection H as <-. now rewrite K.
Qed.
Lemma holds_read h s v p c q : holds h s v -> v = p ++ c :: q -> read1 h (padd (base s) (length p)) = Some c.
Proof.
  intros H E. destruct (holds_mem _ _ _ H) as [r M]. unfold read1. rewrite (mem_padd _ _ _ _ M). subst v.
  rewrite <- app_assoc, skipn_app, skipn_all, Nat.sub_diag. reflexivity.
Qed.

(** Memory that is as large as the reserve, after Copy( p, contents + o, n ). *)
Lemma splice (v l r : txt) o n : o <= length v -> length l = n ->
  firstn o (v ++ r) ++ l ++ nul :: skipn (o + n + 1) (v ++ r) = (firstn o v ++ l) ++ nul :: skipn (o + n + 1) (v ++ r).
Proof. intros Ho <-. rewrite firstn_app. replace (o - length v) with 0 by lia. cbn. rewrite app_nil_r, <- app_assoc. reflexivity. Qed.

Section Junk.
Context (junk : nat -> ascii).

Lemma frame_new h s h' s' b : at_ s' = Some b -> b = length h -> length h' = S (length h) ->
  (forall c, c < length h -> at_ s <> Some c -> nth_error h' c = nth_error h c) ->
  (forall c m, at_ s = Some c -> c < length h -> nth_error h' c <> Some (Some (true, m))) ->
  frame h s h' s'.
Proof.
  intros E -> L O K. split; [lia|auto|right; right; eauto|].
  intros c m H. destruct (Nat.eq_dec c (length h)) as [->|Nc]; [left; auto|right].
  assert (Lc : c < length h) by (apply nth_lt in H; lia). split; auto.
  intros J. eapply K; eauto.
Qed.

Lemma grow_ok h s v n : holds h s v -> fits n -> len s <= n ->
  exists h' s', grow junk h s n = Some (h', s') /\ holds h' s' v /\ n <= res s' /\ len s' = len s /\ frame h s h' s' /\
                at_ s' = Some (length h).
Proof.
  intros H Hn Hl. destruct (holds_res _ _ _ H) as [Lr Fr]. unfold grow.
  assert (G : let r := round2 (Nat.max (w32 (res s * 2)) n) in n <= r /\ fits r).
  { apply grow_res; auto. }
  cbn zeta in *. set (r := round2 _) in *. destruct G as [Gn Gf].
  destruct (alloc junk h true (r + 1)) as [h1 b] eqn:Ea.
  destruct (alloc_ok _ _ _ _ _ _ Ea) as (Eb & L1 & (m & Nb & Lm) & O1).
  assert (H1 : holds h1 s v).
  { eapply holds_same; eauto. intros c Ec. apply O1. unfold holds in H. rewrite Ec in H. destruct H as (x & J & _).
    eapply nth_lt; eauto. }
  destruct (holds_mem _ _ _ H1) as [rr M1]. pose proof (holds_len _ _ _ H) as Lv.
  assert (R1 : read h1 (base s) (len s) = Some v).
  { erewrite read_ok; [|exact M1|rewrite app_length; cbn; lia]. rewrite Lv, firstn_app, Nat.sub_diag, firstn_all. now rewrite app_nil_r. }
  destruct (copy_n_ok h1 (base s) (A (Some b) 0 r true) 0 (len s) b true m v) as (h2 & E2 & L2 & N2 & O2); auto; [lia|].
  rewrite E2. cbn [firstn app] in N2.
  assert (Nbs : forall c, at_ s = Some c -> c <> b /\ c < length h).
  { intros c Ec. unfold holds in H. rewrite Ec in H. destruct H as (x & J & _). apply nth_lt in J. lia. }
  assert (Hnew : forall h3, nth_error h3 b = nth_error h2 b -> holds h3 (A (Some b) (len s) r true) v).
  { intros h3 E3. unfold holds. cbn [at_ len res own]. exists (skipn (0 + len s + 1) m). rewrite E3, N2. cbn [Nat.add]. split; auto. split; auto.
    split; auto. rewrite skipn_length. lia. }
  destruct (own s) eqn:Eo.
  - unfold holds in H1. destruct (at_ s) as [c|] eqn:Ec; [|destruct H1 as (_ & _ & _ & J); congruence].
    destruct H1 as (x & J & _). rewrite Eo in J.
    destruct (Nbs c eq_refl) as [Nc Lc].
    destruct (free_ok h2 c (v ++ nul :: x)) as (h3 & E3 & L3 & N3 & O3).
    { rewrite O2; auto. }
    rewrite E3. exists h3, (A (Some b) (len s) r true). split; auto. split; [apply Hnew; apply O3; auto|].
    split; auto. split; auto. split; [|cbn; congruence].
    eapply frame_new with (b := b); cbn; eauto; [lia| |].
    + intros d Hd Nd. rewrite Ec in Nd. rewrite O3, O2, O1; auto; try lia; congruence.
    + intros d m' Ed _. rewrite Ec in Ed. injection Ed as <-. rewrite N3. discriminate.
  - exists h2, (A (Some b) (len s) r true). split; auto. split; [apply Hnew; auto|].
    split; auto. split; auto. split; [|cbn; congruence].
    eapply frame_new with (b := b); cbn; eauto; [lia| |].
    + intros d Hd Nd. rewrite O2, O1; auto. lia.
    + intros d m' Ed Ld. destruct (Nbs d Ed) as [Nd _]. rewrite O2 by auto. unfold holds in H1. rewrite Ed in H1.
      destruct H1 as (x & J & _). rewrite J, Eo. congruence.
Qed.

(** Writing n bytes and the terminator at the offset o <= length into a string's own block. *)
Lemma put_ok h s v b p o n l : holds h s v -> at_ s = Some b -> read h p n = Some l -> length l = n ->
  o <= len s -> o + n <= res s ->
  exists h', copy_n h p s o n = Some h' /\ holds h' (A (at_ s) (o + n) (res s) (own s)) (firstn o v ++ l) /\
             frame h s h' (A (at_ s) (o + n) (res s) (own s)).
Proof.
  intros H Hb Hr Hl Ho Hn. pose proof H as H0. unfold holds in H0. rewrite Hb in H0.
  destruct H0 as (r & J & Lv & Lr & Fr).
  destruct (copy_n_ok h p s o n b (own s) (v ++ nul :: r) l) as (h' & E & L & N' & O'); auto.
  { rewrite app_length. cbn. lia. }
  exists h'. split; auto. split.
  - unfold holds. cbn [at_ len res own]. rewrite Hb. rewrite splice in N' by lia. eexists. split; [exact N'|].
    split; [rewrite app_length, firstn_length; lia|]. split; auto.
    rewrite skipn_length, app_length. cbn. lia.
  - eapply frame_write with (b := b); eauto.
Qed.

Lemma assign_ok h s v p n m : holds h s v -> mem h p = Some m -> n <= length m -> fits n ->
  (forall c q, p = Blk c q -> at_ s = Some c -> n <= res s) ->
  exists h' s', assign junk h s p n = Some (h', s') /\ holds h' s' (firstn n m) /\ frame h s h' s'.
Proof.
  intros H Hm Hn Hf Hp. unfold assign. rewrite (w32_small _ Hf). destruct (holds_res _ _ _ H) as [Lr Fr].
  destruct (res s <? n) eqn:Er.
  - apply Nat.ltb_lt in Er. unfold grow_no_copy.
    assert (Fk : exists h1, (if own s then free h (at_ s) else Some h) = Some h1 /\ length h1 = length h /\
              (forall c, at_ s <> Some c -> nth_error h1 c = nth_error h c) /\
              (forall c m, at_ s = Some c -> nth_error h1 c <> Some (Some (true, m)))).
    { unfold holds in H. destruct (at_ s) as [c|] eqn:Ec.
      - destruct H as (x & J & _). destruct (own s) eqn:Eo.
        + destruct (free_ok h c (v ++ nul :: x) J) as (h1 & E1 & L1 & N1 & O1). exists h1. split; auto. split; auto. split.
          * intros d Nd. apply O1. congruence.
          * intros d m' Ed. injection Ed as <-. rewrite N1. discriminate.
        + exists h. split; auto. split; auto. split; auto. intros d m' Ed. injection Ed as <-. rewrite J. discriminate.
      - destruct H as (_ & _ & _ & Eo). rewrite Eo. exists h. split; auto. split; auto. split; auto. intros; discriminate. }
    destruct Fk as (h1 & E1 & L1 & O1 & K1). rewrite E1. cbn zeta.
    destruct (round2_fits n Hf) as [Gn Gf]. set (r := round2 n) in *.
    destruct (alloc junk h1 true (r + 1)) as [h2 b] eqn:Ea.
    destruct (alloc_ok _ _ _ _ _ _ Ea) as (Eb & L2 & (mm & Nb & Lm) & O2).
    assert (M2 : mem h2 p = Some m).
    { rewrite <- Hm. apply mem_same. intros c q Ec. rewrite Ec in Hm. cbn in Hm.
      destruct (nth_error h c) eqn:Nc; [|discriminate]. pose proof (nth_lt _ _ _ Nc).
      rewrite O2 by lia. rewrite O1; auto. intros J. specialize (Hp c q Ec J). lia. }
    destruct (copy_n_ok h2 p (A (Some b) (len s) r true) 0 n b true mm (firstn n m)) as (h3 & E3 & L3 & N3 & O3); auto.
    { eapply read_ok; eauto. } { rewrite firstn_length. lia. } { lia. }
    rewrite E3. exists h3, (A (Some b) n r true). split; auto. split.
    + unfold holds. cbn [at_ len res own]. cbn [firstn app] in N3. eexists. split; [exact N3|]. split; [rewrite firstn_length; lia|].
      split; auto. rewrite skipn_length. lia.
    + eapply frame_new with (b := b); cbn; eauto; [lia|lia| |].
      * intros c Hc Nc. rewrite O3, O2, O1; auto; lia.
      * intros c m' Ec Lc. rewrite O3, O2 by lia. eauto.
  - apply Nat.ltb_ge in Er. destruct (at_ s) as [b|] eqn:Eb.
    + destruct (put_ok h s v b p 0 n (firstn n m)) as (h' & E & H' & F'); auto.
      { eapply read_ok; eauto. } { rewrite firstn_length. lia. } { lia. }
      rewrite E. rewrite Eb in H', F'. eexists. eexists. split; [reflexivity|]. split; auto.
    + pose proof H as H0. unfold holds in H0. rewrite Eb in H0. destruct H0 as (-> & _ & E0 & _).
      exists h, s. split; auto. replace n with 0 by lia. split; auto. apply frame_refl. auto.
Qed.

Definition apart (p : ptr) (s : astr) : Prop := forall c q, p = Blk c q -> at_ s <> Some c.

Lemma apart_mem h h' s s' p m : apart p s -> mem h p = Some m -> frame h s h' s' -> mem h' p = Some m /\ apart p s'.
Proof.
  intros Ap M [L O T K].
  assert (B : forall c q, p = Blk c q -> c < length h).
  { intros c q ->. cbn in M. destruct (nth_error h c) eqn:E; [|discriminate]. eapply nth_lt; eauto. }
  split.
  - rewrite <- M. apply mem_same. intros c q E. apply O; eauto.
  - intros c q E J. specialize (B c q E). specialize (Ap c q E).
    destruct T as [T|[T|(d & T & Ld)]]; rewrite T in J; try congruence. injection J as ->. lia.
Qed.

(** Room for n characters: as the string is, or after Grow. *)
Lemma room_ok h s v n : holds h s v -> fits n -> len s <= n -> 0 < n ->
  exists h' s' b, (if res s <? n then grow junk h s n else Some (h, s)) = Some (h', s') /\ holds h' s' v /\ n <= res s' /\
     len s' = len s /\ frame h s h' s' /\ at_ s' = Some b.
Proof.
  intros H Hf Hl Hz. destruct (res s <? n) eqn:E.
  - destruct (grow_ok h s v n H Hf Hl) as (h' & s' & Eg & Hh & Hr & Hl' & Fr & Ab). exists h', s', (length h). repeat (split; [assumption|]). assumption.
  - apply Nat.ltb_ge in E. pose proof H as H0. unfold holds in H0. destruct (at_ s) as [b|] eqn:Eb.
    + exists h, s, b. repeat (split; auto). apply frame_refl. auto.
    + destruct H0 as (_ & _ & E0 & _). lia.
Qed.

Lemma write_char h s v b c : holds h s v -> at_ s = Some b -> len s < res s ->
  exists h1 h2, wr h s (len s) [c] = Some h1 /\ wr h1 s (len s + 1) [nul] = Some h2 /\
    holds h2 (A (at_ s) (len s + 1) (res s) (own s)) (v ++ [c]) /\ frame h s h2 (A (at_ s) (len s + 1) (res s) (own s)).
Proof.
  intros H Hb Hr. destruct (put_ok h s v b (Lit [c] 0) (len s) 1 [c]) as (h' & E & H' & F'); auto; try lia.
  unfold copy_n in E. cbn in E. destruct (wr h s (len s) [c]) as [h1|] eqn:E1; [|discriminate].
  exists h1, h'. split; auto. split; auto. split; auto.
  rewrite (holds_len _ _ _ H), firstn_all in H'. rewrite (holds_len _ _ _ H). exact H'.
Qed.

Lemma push_ok h s v c : holds h s v -> fits (length v + 1) ->
  exists h' s', push junk h s c = Some (h', s') /\ holds h' s' (v ++ [c]) /\ frame h s h' s'.
Proof.
  intros H Hf. pose proof (holds_len _ _ _ H) as Lv. unfold push. rewrite <- Lv in Hf.
  rewrite (w32_small _ Hf).
  assert (E0 : (res s <=? len s) = (res s <? len s + 1)).
  { destruct (Nat.leb_spec (res s) (len s)), (Nat.ltb_spec (res s) (len s + 1)); auto; lia. }
  rewrite E0. destruct (room_ok h s v (len s + 1)) as (h1 & s1 & b & E1 & H1 & R1 & L1 & F1 & B1); auto; try lia.
  rewrite E1. rewrite L1. rewrite (w32_small _ Hf). rewrite <- L1.
  destruct (write_char h1 s1 v b c H1 B1) as (h2 & h3 & E2 & E3 & H3 & F3); [lia|].
  rewrite E2, E3. eexists. eexists. split; [reflexivity|]. split; auto.
  eapply frame_trans; eauto.
Qed.

Lemma append_z_ok h s v p u r : holds h s v -> mem h p = Some (u ++ nul :: r) -> ~ In nul u ->
  fits (length v + length u) -> apart p s \/ u = [] ->
  exists h' s', append_z junk h s p = Some (h', s') /\ holds h' s' (v ++ u) /\ frame h s h' s'.
Proof.
  intros H Hm Hu Hf Ap. pose proof (holds_len _ _ _ H) as Lv. unfold append_z, strlen. rewrite Hm.
  assert (Z : zlen (u ++ nul :: r) = Some (length u)).
  { clear - Hu. induction u as [|c u IH]; cbn; auto. destruct (Ascii.eqb c nul) eqn:E.
    - apply Ascii.eqb_eq in E. exfalso. apply Hu. left. auto.
    - rewrite IH; auto. intros I. apply Hu. right. auto. }
  rewrite Z. rewrite (w32_small (length u)) by (eapply fits_le; [|exact Hf]; lia).
  destruct (length u =? 0) eqn:E0.
  { apply Nat.eqb_eq in E0. destruct u; [|discriminate]. exists h, s. rewrite app_nil_r. split; auto. split; auto. apply frame_refl. auto. }
  apply Nat.eqb_neq in E0. destruct Ap as [Ap| ->]; [|cbn in E0; lia].
  rewrite Lv. rewrite (w32_small _ Hf). rewrite <- Lv in *.
  destruct (room_ok h s v (len s + length u)) as (h1 & s1 & b & E1 & H1 & R1 & L1 & F1 & B1); auto; try lia.
  rewrite E1. destruct (apart_mem _ _ _ _ _ _ Ap Hm F1) as [M1 Ap1].
  pose proof H1 as J1. unfold holds in J1. rewrite B1 in J1. destruct J1 as (q & J1 & Lq & Rq & Fq).
  unfold copy_z. destruct (zcopy_ok u (S (S (res s1))) h1 p s1 (len s1) b (own s1) (v ++ nul :: q) r)
    as (h2 & E2 & L2 & N2 & O2); auto.
  { intros c o Ec Ecb. subst c. eapply Ap1; eauto. } { rewrite app_length. cbn. lia. } { lia. }
  rewrite E2. eexists. eexists. split; [reflexivity|]. split.
  - unfold holds. cbn [at_ len res own]. rewrite B1. rewrite splice in N2 by lia. rewrite <- Lq, firstn_all in N2. rewrite <- Lq in *.
    eexists. split; [exact N2|]. split; [rewrite app_length; lia|]. split; auto.
    rewrite skipn_length, app_length. cbn. lia.
  - eapply frame_trans; [exact F1|]. eapply frame_write with (b := b); eauto.
Qed.

Lemma append_n_ok h s v p k m : holds h s v -> mem h p = Some m -> k <= length m -> fits (length v + k) ->
  apart p s \/ k = 0 ->
  exists h' s', append_n junk h s p k = Some (h', s') /\ holds h' s' (v ++ firstn k m) /\ frame h s h' s'.
Proof.
  intros H Hm Hk Hf Ap. pose proof (holds_len _ _ _ H) as Lv. unfold append_n.
  destruct (k =? 0) eqn:E0.
  { apply Nat.eqb_eq in E0. subst k. exists h, s. rewrite app_nil_r. split; auto. split; auto. apply frame_refl. auto. }
  apply Nat.eqb_neq in E0. destruct Ap as [Ap|]; [|lia].
  rewrite (w32_small k) by (eapply fits_le; [|exact Hf]; lia).
  rewrite Lv. rewrite (w32_small _ Hf). rewrite <- Lv in *.
  destruct (room_ok h s v (len s + k)) as (h1 & s1 & b & E1 & H1 & R1 & L1 & F1 & B1); auto; try lia.
  rewrite E1. destruct (apart_mem _ _ _ _ _ _ Ap Hm F1) as [M1 Ap1].
  destruct (put_ok h1 s1 v b p (len s1) k (firstn k m)) as (h2 & E2 & H2 & F2); auto.
  { eapply read_ok; eauto. } { rewrite firstn_length. lia. } { lia. }
  rewrite E2. eexists. eexists. split; [reflexivity|].
  rewrite (holds_len _ _ _ H1), firstn_all in H2. split.
  - rewrite <- (holds_len _ _ _ H1), L1 in H2. exact H2.
  - eapply frame_trans; [exact F1|]. eapply frame_with; [|exact F2]. reflexivity.
Qed.

(** Another string of the same program. *)
Lemma append_s_other h s v t u : holds h s v -> holds h t u -> (forall b, at_ t = Some b -> at_ s <> Some b) ->
  fits (length v + length u) ->
  exists h' s', append_s junk h s (Some t) = Some (h', s') /\ holds h' s' (v ++ u) /\ frame h s h' s'.
Proof.
  intros H Ht Ap Hf. destruct (holds_mem _ _ _ Ht) as [r M]. pose proof (holds_len _ _ _ Ht) as Lu.
  destruct (append_n_ok h s v (base t) (len t) (u ++ nul :: r)) as (h' & s' & E & H' & F'); auto.
  - rewrite app_length. lia.
  - rewrite Lu. auto.
  - left. intros c q E. unfold base in E. destruct (at_ t) as [d|] eqn:Et; [|discriminate]. injection E as <- <-. auto.
  - exists h', s'. split.
    + unfold append_s. unfold append_n in E. destruct (len t =? 0); auto.
      rewrite (w32_small (len t)) in E by (rewrite Lu; eapply fits_le; [|exact Hf]; lia). exact E.
    + split; auto. rewrite Lu, firstn_app, Nat.sub_diag, firstn_all, app_nil_r in H'. auto.
Qed.
Lemma append_s_self h s v : holds h s v -> fits (length v + length v) ->
  exists h' s', append_s junk h s None = Some (h', s') /\ holds h' s' (v ++ v) /\ frame h s h' s'.
Proof.
  intros H Hf. pose proof (holds_len _ _ _ H) as Lv. unfold append_s. destruct (len s =? 0) eqn:E0.
  { apply Nat.eqb_eq in E0. assert (v = []) by (destruct v; cbn in *; [auto|lia]). subst v.
    exists h, s. split; auto. split; auto. apply frame_refl. auto. }
  apply Nat.eqb_neq in E0. rewrite !Lv, (w32_small _ Hf). rewrite <- Lv in *.
  destruct (room_ok h s v (len s + len s)) as (h1 & s1 & b & E1 & H1 & R1 & L1 & F1 & B1); auto; try lia.
  rewrite E1. destruct (holds_mem _ _ _ H1) as [q M1].
  destruct (put_ok h1 s1 v b (base s1) (len s1) (len s) v) as (h2 & E2 & H2 & F2); auto; try lia.
  { erewrite read_ok; [|exact M1|rewrite app_length; lia]. rewrite Lv, firstn_app, Nat.sub_diag, firstn_all, app_nil_r. auto. }
  rewrite E2. eexists. eexists. split; [reflexivity|].
  rewrite (holds_len _ _ _ H1), firstn_all in H2. split.
  - rewrite <- (holds_len _ _ _ H1), L1 in H2. exact H2.
  - eapply frame_trans; [exact F1|]. eapply frame_with; [|exact F2]. reflexivity.
Qed.

Lemma set_length_ok h s v n : holds h s v -> fits n ->
  exists h' s' v', set_length junk h s n = Some (h', s') /\ holds h' s' v' /\ frame h s h' s' /\
    length v' = n /\ firstn (length v) v' = firstn n v.
Proof.
  intros H Hf. unfold set_length. pose proof (holds_len _ _ _ H) as Lv. destruct (holds_res _ _ _ H) as [Lr Fr].
  assert (G : exists h1 s1, (if res s <? n then grow junk h s n else Some (h, s)) = Some (h1, s1) /\ holds h1 s1 v /\ n <= res s1 /\
              frame h s h1 s1).
  { destruct (res s <? n) eqn:E.
    - apply Nat.ltb_lt in E. destruct (grow_ok h s v n H Hf) as (h1 & s1 & E1 & H1 & R1 & L1 & F1 & A1); [lia|].
      exists h1, s1. auto.
    - apply Nat.ltb_ge in E. exists h, s. split; auto. split; auto. split; auto. apply frame_refl. auto. }
  destruct G as (h1 & s1 & E1 & H1 & R1 & F1). rewrite E1. pose proof H1 as J1. unfold holds in J1.
  destruct (at_ s1) as [b|] eqn:B1.
  - destruct J1 as (r & J & Lj & Rj & Fj). unfold wr. rewrite B1.
    destruct (write_ok h1 b n [nul] (own s1) (v ++ nul :: r) J) as (h2 & E2 & L2 & N2 & O2).
    { rewrite app_length. cbn. lia. }
    rewrite E2. eexists. eexists. exists (firstn n (v ++ nul :: r)). split; [reflexivity|]. split; [|split; [|split]].
    + unfold holds. cbn [at_ len res own]. eexists. split; [exact N2|].
      rewrite firstn_length, skipn_length, app_length. cbn [length] in *. repeat split; auto; lia.
    + eapply frame_trans; [exact F1|]. eapply frame_write with (b := b); eauto.
    + rewrite firstn_length, app_length. cbn. lia.
    + rewrite firstn_firstn. destruct (Nat.min_spec (length v) n) as [[L ->]|[L ->]].
      * rewrite firstn_app, Nat.sub_diag, firstn_all, app_nil_r. rewrite firstn_all2 by lia. auto.
      * rewrite firstn_app. replace (n - length v) with 0 by lia. cbn. now rewrite app_nil_r.
  - destruct J1 as (-> & L1 & R0 & O1). assert (n = 0) by lia. subst n.
    eexists. eexists. exists []. split; [reflexivity|]. split.
    + unfold holds. cbn [at_ len res own]. auto.
    + split; auto. eapply frame_with; [|exact F1]. cbn. auto.
Qed.

Lemma set_reserved_ok h s v n : holds h s v -> fits n ->
  exists h' s', set_reserved junk h s n = Some (h', s') /\ holds h' s' (firstn n v) /\ frame h s h' s'.
Proof.
  intros H Hf. unfold set_reserved. pose proof (holds_len _ _ _ H) as Lv. rewrite (w32_small _ Hf).
  destruct (n <? len s) eqn:E.
  - apply Nat.ltb_lt in E. destruct (set_length_ok h s v n H Hf) as (h' & s' & v' & E' & H' & F' & L' & T').
    exists h', s'. split; auto. split; auto. rewrite <- T'. rewrite firstn_all2 by lia. auto.
  - apply Nat.ltb_ge in E. rewrite firstn_all2 by lia. destruct (n <=? res s) eqn:E2.
    + exists h, s. split; auto. split; auto. apply frame_refl. auto.
    + apply Nat.leb_gt in E2. destruct (grow_ok h s v n H Hf) as (h1 & s1 & E1 & H1 & R1 & L1 & F1 & A1); [lia|].
      exists h1, s1. auto.
Qed.

Lemma clear_ok h s v : holds h s v -> exists h' s', clear h s = Some (h', s') /\ holds h' s' [] /\ frame h s h' s'.
Proof.
  intros H. pose proof H as H0. unfold clear, wr. unfold holds in H0. destruct (at_ s) as [b|] eqn:Eb.
  - destruct H0 as (r & J & Lj & Rj & Fj).
    destruct (write_ok h b 0 [nul] (own s) (v ++ nul :: r) J) as (h2 & E2 & L2 & N2 & O2).
    { rewrite app_length. cbn. lia. }
    rewrite E2. eexists. eexists. split; [reflexivity|]. split.
    + unfold holds. cbn [at_ len res own]. eexists. split; [exact N2|]. cbn. split; auto. split; auto.
      destruct v; cbn in *; rewrite ?app_length; cbn; lia.
    + eapply frame_write with (b := b); eauto.
  - destruct H0 as (-> & _). exists h, s. split; auto. split; auto. apply frame_refl. auto.
Qed.

Lemma drop_ok h s v : holds h s v -> exists h', destroy h s = Some h' /\ length h' = length h /\
  (forall b, at_ s <> Some b -> nth_error h' b = nth_error h b) /\
  (forall b m, nth_error h' b = Some (Some (true, m)) -> b < length h /\ at_ s <> Some b).
Proof.
  intros H. unfold destroy. unfold holds in H. destruct (at_ s) as [b|] eqn:Eb.
  - destruct H as (r & J & _). destruct (own s) eqn:Eo.
    + destruct (free_ok h b _ J) as (h' & E & L & N & O). exists h'. split; auto. split; auto. split.
      * intros c Nc. apply O. congruence.
      * intros c m Hc. split; [apply nth_lt in Hc; lia|]. intros X. injection X as ->. rewrite N in Hc. discriminate.
    + exists h. split; auto. split; auto. split; auto. intros c m Hc. split; [eapply nth_lt; eauto|].
      intros X. injection X as ->. rewrite J in Hc. discriminate.
  - destruct H as (_ & _ & _ & ->). exists h. split; auto. split; auto. split; auto. intros c m Hc.
    split; [eapply nth_lt; eauto|discriminate].
Qed.
Lemma clear_free_ok h s v : holds h s v -> exists h' s', clear_free h s = Some (h', s') /\ holds h' s' [] /\ frame h s h' s'.
Proof.
  intros H. unfold clear_free. destruct (own s) eqn:Eo.
  - destruct (drop_ok h s v H) as (h' & E & L & O & K). unfold destroy in E. rewrite Eo in E. rewrite E.
    exists h', fresh. split; auto. split; [unfold holds; cbn; auto|]. split; [lia|auto|cbn; auto|].
    intros b m Hb. right. eapply K; eauto.
  - destruct (clear_ok h s v H) as (h' & s' & E & H' & F'). unfold clear in E. destruct (at_ s) as [b|] eqn:Eb.
    + unfold wr in *. rewrite Eb in *. destruct (write h b 0 [nul]); [|discriminate]. injection E as <- <-.
      eexists. eexists. split; [reflexivity|]. rewrite Eo in *. auto.
    + injection E as <- <-. pose proof H' as J. unfold holds in J. rewrite Eb in J. destruct J as (_ & _ & R0 & _).
      eexists. eexists. split; [reflexivity|]. split.
      * unfold holds. cbn [at_ len res own]. auto.
      * apply frame_refl. cbn. auto.
Qed.
End Junk.
