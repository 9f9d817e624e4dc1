(** Proofs about M_Str: loops over the characters, trimming, construction and replacement of texts. *)
From Coq Require Import List Arith Bool Ascii NArith Lia.
From Verif Require Import M_Path M_Names M_Array M_Str S_Str P_Str P_Str2.
Import ListNotations.
Implicit Types h : heap.

(** ** Loops that write in place *)
Lemma poke_ok h s p c q d : holds h s (p ++ c :: q) ->
  exists h', wr h s (length p) [d] = Some h' /\ holds h' s (p ++ d :: q) /\ frame h s h' s.
Proof.
  intros H. pose proof (holds_len _ _ _ H) as Lv. pose proof H as J. unfold holds in J. unfold wr.
  destruct (at_ s) as [b|] eqn:Eb; [|destruct J as (J & _); destruct p; discriminate].
  destruct J as (r & J & L & R & Fr).
  destruct (write_ok h b (length p) [d] _ _ J) as (h' & E & L' & N' & O').
  { rewrite !app_length. cbn. lia. }
  rewrite E. exists h'. split; auto. split.
  - unfold holds. rewrite Eb. exists r. split; [|split; [|split; auto]].
    + rewrite N'. do 3 f_equal. rewrite <- app_assoc. rewrite firstn_app, Nat.sub_diag, firstn_all. cbn [firstn].
      rewrite app_nil_r. rewrite <- app_assoc. f_equal. cbn [app length]. f_equal.
      replace (p ++ c :: q ++ nul :: r) with ((p ++ [c]) ++ q ++ nul :: r) by (rewrite <- app_assoc; reflexivity).
      rewrite skipn_app. rewrite app_length. cbn [length]. rewrite Nat.sub_diag.
      rewrite skipn_all2 by (rewrite app_length; cbn; lia). reflexivity.
    + rewrite app_length in *. cbn in *. lia.
  - eapply frame_write with (b := b); eauto.
Qed.

Fixpoint each_p {S} (f : S -> ascii -> option ascii * S * bool) (st : S) (l : txt) : txt * S :=
  match l with
  | [] => ([], st)
  | c :: r => let '(w, st1, stop) := f st c in
              let d := match w with Some x => x | None => c end in
              if stop then (d :: r, st1) else (d :: fst (each_p f st1 r), snd (each_p f st1 r))
  end.
Lemma each_ok {S} (f : S -> ascii -> option ascii * S * bool) s : forall q p h st, holds h s (p ++ q) ->
  exists h', each f h s st (length p) (length q) = Some (h', snd (each_p f st q)) /\
    holds h' s (p ++ fst (each_p f st q)) /\ frame h s h' s.
Proof.
  induction q as [|c q IH]; intros p h st H; cbn [length each each_p].
  - exists h. split; auto. split; auto. apply frame_refl. auto.
  - rewrite (holds_read _ _ _ _ _ _ H eq_refl). destruct (f st c) as [[w st1] stop] eqn:Ef.
    assert (G : exists h1, match w with Some c' => wr h s (length p) [c'] | None => Some h end = Some h1 /\
              holds h1 s (p ++ match w with Some x => x | None => c end :: q) /\ frame h s h1 s).
    { destruct w as [d|]; [apply poke_ok with (c := c); auto|]. exists h. split; auto. split; auto. apply frame_refl. auto. }
    destruct G as (h1 & E1 & H1 & F1). rewrite E1. destruct stop.
    + exists h1. auto.
    + destruct (IH (p ++ [match w with Some x => x | None => c end]) h1 st1) as (h2 & E2 & H2 & F2).
      { rewrite <- app_assoc. exact H1. }
      rewrite app_length in E2. cbn [length] in E2. rewrite Nat.add_1_r in E2.
      exists h2. split; [exact E2|]. split; [rewrite <- app_assoc in H2; exact H2|]. eapply frame_trans; eauto.
Qed.

Lemma rep_char a b most : forall l n, fits (n + length l) ->
  exists p q n',
    each_p (fun n c => if Ascii.eqb c a then (Some b, w32 (S n), w32 (S n) =? most) else (None, n, false)) n l =
      (map (fun c => if Ascii.eqb c a then b else c) p ++ q, n') /\ l = p ++ q /\
    n' = n + count_occ Ascii.ascii_dec p a /\ (q = [] \/ (n' = most /\ most <> 0)) /\
    (n < most -> n' <= most).
Proof.
  induction l as [|c l IH]; intros n Hf.
  - exists [], [], n. cbn. repeat split; auto. lia.
  - cbn [each_p]. cbn [length] in Hf. destruct (Ascii.eqb c a) eqn:E.
    + apply Ascii.eqb_eq in E. subst c. rewrite w32_small by (eapply fits_le; [|exact Hf]; lia).
      destruct (S n =? most) eqn:Em.
      * apply Nat.eqb_eq in Em. exists [a], l, (S n). cbn. rewrite Ascii.eqb_refl.
        destruct (Ascii.ascii_dec a a); [|congruence]. repeat split; auto; try lia; try (right; lia).
      * apply Nat.eqb_neq in Em. destruct (IH (S n)) as (p & q & n' & E' & El & En & Eq & Le).
        { eapply fits_le; [|exact Hf]; lia. }
        rewrite E'. exists (a :: p), q, n'. cbn. rewrite Ascii.eqb_refl. subst l.
        destruct (Ascii.ascii_dec a a); [|congruence]. repeat split; auto; try lia.
    + destruct (IH n) as (p & q & n' & E' & El & En & Eq & Le).
      { eapply fits_le; [|exact Hf]; lia. }
      rewrite E'. exists (c :: p), q, n'. cbn. rewrite E. subst l.
      destruct (Ascii.ascii_dec c a) as [->|]; [rewrite Ascii.eqb_refl in E; discriminate|]. repeat split; auto.
Qed.
Lemma fits_0 : fits 0.
Proof. unfold fits. cbn. lia. Qed.
Lemma holds_fits h s v : holds h s v -> fits (length v).
Proof. intros H. destruct (holds_res _ _ _ H) as [L R]. rewrite <- (holds_len _ _ _ H). eapply fits_le; eauto. Qed.
Lemma replace_char_ok h s v a b most : holds h s v ->
  exists h' v' n, replace_char h s a b most = Some (h', s, n) /\ holds h' s v' /\ frame h s h' s /\ char_replaced a b most v v' n.
Proof.
  intros H. unfold replace_char. rewrite (holds_len _ _ _ H).
  destruct (each_ok (fun n c => if Ascii.eqb c a then (Some b, w32 (S n), w32 (S n) =? most) else (None, n, false)) s v [] h 0 H)
    as (h' & E & H' & F'). cbn [length] in E. rewrite E.
  destruct (rep_char a b most v 0) as (p & q & n' & E' & El & En & Eq & Le). { exact (holds_fits _ _ _ H). }
  rewrite E' in *. cbn [fst snd app] in *. exists h', (map (fun c => if Ascii.eqb c a then b else c) p ++ q), n'.
  split; auto. split; auto. split; auto. exists p, q. repeat split; auto. intros Hm. apply Le. lia.
Qed.

Lemma uppers_nth k : k < 26 -> nth_error uppers k = Some (ascii_of_nat (65 + k)).
Proof. intros H. do 26 (destruct k as [|k]; [reflexivity|]). lia. Qed.
Lemma lowers_nth k : k < 26 -> nth_error lowers k = Some (ascii_of_nat (97 + k)).
Proof. intros H. do 26 (destruct k as [|k]; [reflexivity|]). lia. Qed.
Lemma in_uppers c : In c uppers -> 65 <= nat_of_ascii c <= 90.
Proof.
  intros I. apply In_nth_error in I. destruct I as [k Hk].
  assert (L : k < 26) by (apply nth_lt in Hk; exact Hk). rewrite uppers_nth in Hk by auto. injection Hk as <-.
  rewrite nat_ascii_embedding by lia. lia.
Qed.
Lemma in_lowers c : In c lowers -> 97 <= nat_of_ascii c <= 122.
Proof.
  intros I. apply In_nth_error in I. destruct I as [k Hk].
  assert (L : k < 26) by (apply nth_lt in Hk; exact Hk). rewrite lowers_nth in Hk by auto. injection Hk as <-.
  rewrite nat_ascii_embedding by lia. lia.
Qed.
Definition lower_f : unit -> ascii -> option ascii * unit * bool :=
  fun _ c => let n := nat_of_ascii c in
             if (65 <=? n) && (n <=? 90) then (Some (ascii_of_nat (97 + (n - 65))), tt, false) else (None, tt, false).
Definition upper_f : unit -> ascii -> option ascii * unit * bool :=
  fun _ c => let n := nat_of_ascii c in
             if (97 <=? n) && (n <=? 122) then (Some (ascii_of_nat (65 + (n - 97))), tt, false) else (None, tt, false).
Lemma lower_each l : Forall2 (translated uppers lowers) l (fst (each_p lower_f tt l)).
Proof.
  induction l as [|c l IH]; cbn [each_p]; [constructor|]. unfold lower_f at 1. cbn zeta.
  destruct ((65 <=? nat_of_ascii c) && (nat_of_ascii c <=? 90)) eqn:E; cbn [fst]; constructor; auto.
  - apply andb_true_iff in E. destruct E as [E1 E2]. apply Nat.leb_le in E1, E2. left.
    exists (nat_of_ascii c - 65). rewrite uppers_nth, lowers_nth by lia. split; auto.
    f_equal. replace (65 + (nat_of_ascii c - 65)) with (nat_of_ascii c) by lia. apply ascii_nat_embedding.
  - right. split; auto. intros I. apply in_uppers in I. apply andb_false_iff in E.
    destruct E as [E|E]; apply Nat.leb_gt in E; lia.
Qed.
Lemma upper_each l : Forall2 (translated lowers uppers) l (fst (each_p upper_f tt l)).
Proof.
  induction l as [|c l IH]; cbn [each_p]; [constructor|]. unfold upper_f at 1. cbn zeta.
  destruct ((97 <=? nat_of_ascii c) && (nat_of_ascii c <=? 122)) eqn:E; cbn [fst]; constructor; auto.
  - apply andb_true_iff in E. destruct E as [E1 E2]. apply Nat.leb_le in E1, E2. left.
    exists (nat_of_ascii c - 97). rewrite uppers_nth, lowers_nth by lia. split; auto.
    f_equal. replace (97 + (nat_of_ascii c - 97)) with (nat_of_ascii c) by lia. apply ascii_nat_embedding.
  - right. split; auto. intros I. apply in_lowers in I. apply andb_false_iff in E.
    destruct E as [E|E]; apply Nat.leb_gt in E; lia.
Qed.
Lemma to_lower_ok h s v : holds h s v ->
  exists h' v', to_lower h s = Some (h', s) /\ holds h' s v' /\ frame h s h' s /\ Forall2 (translated uppers lowers) v v'.
Proof.
  intros H. unfold to_lower. rewrite (holds_len _ _ _ H). fold lower_f.
  destruct (each_ok lower_f s v [] h tt H) as (h' & E & H' & F'). cbn [length] in E.
  rewrite E. exists h'. eexists. split; [reflexivity|]. split; [exact H'|]. split; auto. apply lower_each.
Qed.
Lemma to_upper_ok h s v : holds h s v ->
  exists h' v', to_upper h s = Some (h', s) /\ holds h' s v' /\ frame h s h' s /\ Forall2 (translated lowers uppers) v v'.
Proof.
  intros H. unfold to_upper. rewrite (holds_len _ _ _ H). fold upper_f.
  destruct (each_ok upper_f s v [] h tt H) as (h' & E & H' & F'). cbn [length] in E.
  rewrite E. exists h'. eexists. split; [reflexivity|]. split; [exact H'|]. split; auto. apply upper_each.
Qed.

Lemma app_split_len {A} (a b c d : list A) : a ++ b = c ++ d -> length a = length c -> a = c /\ b = d.
Proof.
  revert c. induction a as [|x a IH]; intros [|y c] E L; cbn in *; try discriminate; auto.
  injection E as -> E. destruct (IH c E); [lia|]. subst. auto.
Qed.

Section Junk.
Context (junk : nat -> ascii).

(** ** Trimming *)
Lemma trim_ok h s v a b : holds h s v -> a + b <= length v ->
  exists h' s' v', trim junk h s a b = Some (h', s') /\ holds h' s' v' /\ frame h s h' s' /\
    exists p q, v = p ++ v' ++ q /\ length p = a /\ length q = b.
Proof.
  intros H L. pose proof (holds_len _ _ _ H) as Lv. destruct (holds_res _ _ _ H) as [Lr Fr]. unfold trim.
  rewrite (proj2 (Nat.ltb_ge _ _)) by lia.
  assert (Split : forall v', v' = firstn (length v - b - a) (skipn a v) ->
            exists p q, v = p ++ v' ++ q /\ length p = a /\ length q = b).
  { intros v' ->. exists (firstn a v), (skipn (length v - b - a) (skipn a v)).
    rewrite firstn_skipn, firstn_skipn. split; auto. rewrite firstn_length, !skipn_length. lia. }
  destruct (a =? 0) eqn:Ea.
  - apply Nat.eqb_eq in Ea. subst a. destruct (b =? 0) eqn:Eb.
    + apply Nat.eqb_eq in Eb. subst b. exists h, s, v. split; auto. split; auto. split; [apply frame_refl; auto|].
      apply Split. cbn. rewrite firstn_all2; auto. lia.
    + destruct (set_length_ok junk h s v (len s - b) H) as (h' & s' & v' & E & H' & F' & L' & T').
      { eapply fits_le; [|exact Fr]. lia. }
      exists h', s', v'. split; auto. split; auto. split; auto. apply Split. cbn. rewrite Nat.sub_0_r, <- Lv.
      rewrite <- T'. rewrite firstn_all2; auto. lia.
  - apply Nat.eqb_neq in Ea. destruct (holds_mem _ _ _ H) as [r M]. pose proof (mem_padd _ _ a _ M) as Ma.
    destruct (assign_ok junk h s v _ (len s - b - a) _ H Ma) as (h' & s' & E & H' & F').
    { rewrite skipn_length, app_length. lia. } { eapply fits_le; [|exact Fr]. lia. } { intros. lia. }
    rewrite E. eexists. eexists. eexists. split; [reflexivity|]. split; [exact H'|]. split; auto.
    apply Split. rewrite skipn_app, firstn_app. rewrite skipn_length.
    replace (len s - b - a - (length v - a)) with 0 by lia. rewrite Lv. cbn. now rewrite app_nil_r.
Qed.
Lemma count_front_ok h s c : forall q p, holds h s (p ++ q) ->
  exists n r, count_front h s c (length p) (length q) = Some n /\ q = repeat c n ++ r /\ (forall x, r <> c :: x).
Proof.
  induction q as [|d q IH]; intros p H; cbn [length count_front].
  - exists 0, []. repeat split; auto. discriminate.
  - rewrite (holds_read _ _ _ _ _ _ H eq_refl). destruct (Ascii.eqb d c) eqn:E.
    + apply Ascii.eqb_eq in E. subst d. destruct (IH (p ++ [c])) as (n & r & E1 & E2 & E3).
      { rewrite <- app_assoc. exact H. }
      rewrite app_length in E1. cbn [length] in E1. rewrite Nat.add_1_r in E1. rewrite E1.
      exists (S n), r. split; auto. split; auto. cbn. now rewrite <- E2.
    + exists 0, (d :: q). repeat split; auto. intros x X. injection X as -> ->. now rewrite Ascii.eqb_refl in E.
Qed.
Lemma trim_start_ok h s v c : holds h s v ->
  exists h' s' v', trim_start junk h s c = Some (h', s') /\ holds h' s' v' /\ frame h s h' s' /\
    exists n, v = repeat c n ++ v' /\ forall x, v' <> c :: x.
Proof.
  intros H. unfold trim_start. rewrite (holds_len _ _ _ H). destruct (count_front_ok h s c v [] H) as (n & r & E & Ev & Nr).
  cbn [length] in E. rewrite E. destruct (trim_ok h s v n 0 H) as (h' & s' & v' & E' & H' & F' & p & q & Ep & Lp & Lq).
  { rewrite Ev, app_length, repeat_length. lia. }
  exists h', s', v'. split; auto. split; auto. split; auto.
  destruct q; [|discriminate]. rewrite app_nil_r in Ep.
  assert (X : p = repeat c n /\ v' = r).
  { rewrite Ev in Ep. apply app_split_len in Ep; [destruct Ep; auto|]. now rewrite repeat_length. }
  destruct X as [-> ->]. exists n. auto.
Qed.
Lemma repeat_snoc {A} (c : A) n : repeat c n ++ [c] = repeat c (S n).
Proof. induction n as [|n IH]; cbn; auto. f_equal. exact IH. Qed.
Lemma count_back_ok h s c : forall p q, holds h s (p ++ q) ->
  exists n r, count_back h s c (length p) = Some n /\ p = r ++ repeat c n /\ (forall x, r <> x ++ [c]).
Proof.
  induction p as [|d p IH] using rev_ind; intros q H.
  - exists 0, []. repeat split; auto. intros [|y x]; discriminate.
  - rewrite app_length. cbn [length]. rewrite Nat.add_1_r. cbn [count_back].
    rewrite <- app_assoc in H. cbn [app] in H.
    rewrite (holds_read _ _ _ _ _ _ H eq_refl). destruct (Ascii.eqb d c) eqn:E.
    + apply Ascii.eqb_eq in E. subst d. destruct (IH (c :: q) H) as (n & r & E1 & E2 & E3). rewrite E1.
      exists (S n), r. split; auto. split; auto. rewrite E2, <- app_assoc. f_equal. apply repeat_snoc.
    + exists 0, (p ++ [d]). cbn. rewrite app_nil_r. repeat split; auto. intros x X. apply app_inj_tail in X.
      destruct X as [_ ->]. now rewrite Ascii.eqb_refl in E.
Qed.
Lemma trim_end_ok h s v c : holds h s v ->
  exists h' s' v', trim_end junk h s c = Some (h', s') /\ holds h' s' v' /\ frame h s h' s' /\
    exists n, v = v' ++ repeat c n /\ forall x, v' <> x ++ [c].
Proof.
  intros H. unfold trim_end. rewrite (holds_len _ _ _ H).
  destruct (count_back_ok h s c v []) as (n & r & E & Ev & Nr). { rewrite app_nil_r. exact H. }
  rewrite E. destruct (trim_ok h s v 0 n H) as (h' & s' & v' & E' & H' & F' & p & q & Ep & Lp & Lq).
  { rewrite Ev, app_length, repeat_length. lia. }
  exists h', s', v'. split; auto. split; auto. split; auto.
  destruct p; [|discriminate]. cbn in Ep.
  assert (X : v' = r /\ q = repeat c n).
  { rewrite Ev in Ep. symmetry in Ep. apply app_split_len in Ep; [destruct Ep; auto|].
    apply (f_equal (@length _)) in Ep. rewrite !app_length, repeat_length in Ep. lia. }
  destruct X as [-> ->]. exists n. auto.
Qed.

(** ** Construction *)
Lemma mem_lt h p m : mem h p = Some m -> forall c q, p = Blk c q -> c < length h.
Proof. intros H c q ->. cbn in H. destruct (nth_error h c) eqn:E; [|discriminate]. eapply nth_lt; eauto. Qed.
Lemma frame_fresh h h' s' b : at_ s' = Some b -> b = length h -> length h' = S (length h) ->
  (forall c, c < length h -> nth_error h' c = nth_error h c) -> frame h fresh h' s'.
Proof.
  intros E Eb L O. eapply frame_new with (b := b); eauto. cbn. intros; discriminate.
Qed.
Lemma new_copy_ok h p n m : mem h p = Some m -> n <= length m -> fits n ->
  exists h' s', new_copy junk h p n = Some (h', s') /\ holds h' s' (firstn n m) /\ frame h fresh h' s'.
Proof.
  intros M L Hf. unfold new_copy. rewrite (w32_small _ Hf). cbn zeta.
  destruct (round2_fits n Hf) as [Gn Gf]. set (r := round2 n) in *.
  destruct (alloc junk h true (r + 1)) as [h1 b] eqn:Ea.
  destruct (alloc_ok _ _ _ _ _ _ Ea) as (Eb & L1 & (mm & Nb & Lm) & O1).
  assert (M1 : mem h1 p = Some m).
  { rewrite <- M. apply mem_same. intros c q E. apply O1. eapply mem_lt; eauto. }
  destruct (copy_n_ok h1 p (A (Some b) n r true) 0 n b true mm (firstn n m)) as (h2 & E2 & L2 & N2 & O2); auto.
  { eapply read_ok; eauto. } { rewrite firstn_length. lia. } { lia. }
  rewrite E2. eexists. eexists. split; [reflexivity|]. split.
  - unfold holds. cbn [at_ len res own]. cbn [firstn app] in N2. eexists. split; [exact N2|].
    rewrite firstn_length, skipn_length. repeat split; auto; lia.
  - eapply frame_fresh with (b := b); cbn [at_]; auto; [lia|]. intros c Hc. rewrite O2, O1; auto. lia.
Qed.
Lemma zlen_ok u r : ~ In nul u -> zlen (u ++ nul :: r) = Some (length u).
Proof.
  intros Hu. induction u as [|c u IH]; cbn; auto. destruct (Ascii.eqb c nul) eqn:E.
  - apply Ascii.eqb_eq in E. exfalso. apply Hu. left. auto.
  - rewrite IH; auto. intros I. apply Hu. right. auto.
Qed.
Lemma new_z_ok h p u x : mem h p = Some (u ++ nul :: x) -> ~ In nul u -> fits (length u) ->
  exists h' s', new_z junk h p = Some (h', s') /\ holds h' s' u /\ frame h fresh h' s'.
Proof.
  intros M Hu Hf. unfold new_z, strlen. rewrite M, (zlen_ok _ _ Hu). rewrite (w32_small _ Hf). cbn zeta.
  destruct (round2_fits _ Hf) as [Gn Gf]. set (r := round2 (length u)) in *.
  destruct (alloc junk h true (r + 1)) as [h1 b] eqn:Ea.
  destruct (alloc_ok _ _ _ _ _ _ Ea) as (Eb & L1 & (mm & Nb & Lm) & O1).
  assert (M1 : mem h1 p = Some (u ++ nul :: x)).
  { rewrite <- M. apply mem_same. intros c q E. apply O1. eapply mem_lt; eauto. }
  unfold copy_z. cbn [res].
  destruct (zcopy_ok u (S (S r)) h1 p (A (Some b) (length u) r true) 0 b true mm x) as (h2 & E2 & L2 & N2 & O2); auto; try lia.
  { intros c q E. pose proof (mem_lt _ _ _ M c q E). lia. }
  rewrite E2. eexists. eexists. split; [reflexivity|]. split.
  - unfold holds. cbn [at_ len res own]. cbn [firstn app] in N2. eexists. split; [exact N2|].
    rewrite skipn_length. repeat split; auto; lia.
  - eapply frame_fresh with (b := b); cbn [at_]; auto; [lia|]. intros c Hc. rewrite O2, O1; auto. lia.
Qed.
Lemma new_block_ok h k r : fits r -> exists h1 h2, alloc junk h k (r + 1) = (h1, length h) /\
  wr h1 (A (Some (length h)) 0 r k) 0 [nul] = Some h2 /\ holds h2 (A (Some (length h)) 0 r k) [] /\
  frame h fresh h2 (A (Some (length h)) 0 r k).
Proof.
  intros Gf. destruct (alloc junk h k (r + 1)) as [h1 b] eqn:Ea.
  destruct (alloc_ok _ _ _ _ _ _ Ea) as (Eb & L1 & (mm & Nb & Lm) & O1). subst b. exists h1.
  unfold wr. cbn [at_]. destruct (write_ok h1 (length h) 0 [nul] k mm Nb) as (h2 & E2 & L2 & N2 & O2); [cbn; lia|].
  exists h2. split; auto. split; auto. split.
  - unfold holds. cbn [at_ len res own]. cbn [firstn app] in N2. eexists. split; [exact N2|].
    rewrite skipn_length. cbn. repeat split; auto. lia.
  - eapply frame_fresh with (b := length h); cbn [at_]; auto; [lia|]. intros c Hc. rewrite O2, O1; auto. lia.
Qed.
Lemma new_reserve_ok h n : 0 < n -> fits n ->
  exists h' s', new_reserve junk h n = Some (h', s') /\ holds h' s' [] /\ frame h fresh h' s'.
Proof.
  intros Hn Hf. unfold new_reserve. rewrite (proj2 (Nat.ltb_lt _ _) Hn). cbn zeta.
  destruct (round2_fits n Hf) as [_ Gf]. destruct (new_block_ok h true (round2 n) Gf) as (h1 & h2 & E1 & E2 & H2 & F2).
  rewrite E1, E2. eauto.
Qed.
Lemma new_stack_ok h n : fits n ->
  exists h' s', new_stack junk h n = Some (h', s') /\ holds h' s' [] /\ frame h fresh h' s' /\ at_ s' = Some (length h).
Proof.
  intros Hf. unfold new_stack. destruct (new_block_ok h false n Hf) as (h1 & h2 & E1 & E2 & H2 & F2).
  rewrite E1, E2. eauto 6.
Qed.

(** ** Replacement of texts *)
Definition prefix_of (f q : txt) : Prop := exists r, q = f ++ r.
Lemma ncmp_ok f : ~ In nul f -> forall q x y, 
  (prefix_of f q -> ncmp (q ++ x) (f ++ y) (length f) = Some true) /\
  (~ prefix_of f q -> ncmp (q ++ nul :: x) (f ++ y) (length f) = Some false).
Proof.
  induction f as [|c f IH]; intros Hf q x y; cbn [length ncmp app].
  - split; auto. intros N. exfalso. apply N. exists q. reflexivity.
  - assert (Nc : Ascii.eqb c nul = false).
    { apply Ascii.eqb_neq. intros ->. apply Hf. left. auto. }
    assert (Hf' : ~ In nul f) by (intros I; apply Hf; right; auto).
    split.
    + intros [r ->]. cbn [app]. rewrite Ascii.eqb_refl, Nc. rewrite <- app_assoc.
      destruct (IH Hf' (f ++ r) x y) as [A _]. rewrite <- app_assoc in A. apply A. exists r. reflexivity.
    + intros N. destruct q as [|d q]; cbn [app].
      * rewrite Ascii.eqb_sym, Nc. reflexivity.
      * destruct (Ascii.eqb d c) eqn:E; auto. apply Ascii.eqb_eq in E. subst d. rewrite Nc.
        apply (IH Hf'). intros [r ->]. apply N. exists r. reflexivity.
Qed.
Lemma prefix_dec (f q : txt) : prefix_of f q \/ ~ prefix_of f q.
Proof.
  revert q. induction f as [|c f IH]; intros q; [left; exists q; auto|].
  destruct q as [|d q]; [right; intros [r E]; discriminate|].
  destruct (Ascii.ascii_dec d c) as [->|N]; [|right; intros [r E]; injection E; auto].
  destruct (IH q) as [[r ->]|N]; [left; exists r; auto|right]. intros [r E]. injection E as E. apply N. exists r. auto.
Qed.
Lemma rep_skip f t b c q out n : ~ prefix_of f (c :: q) -> replaced f t b q out n -> replaced f t b (c :: q) (c :: out) n.
Proof.
  intros N R. destruct R as [v|b v Hn|b v p q1 out n Hb Hv Hm R].
  - apply R_stop.
  - apply R_none. intros [|d p] q E; cbn in E.
    + apply N. exists q. auto.
    + injection E as _ E. eapply Hn; eauto.
  - apply (R_next f t b (c :: v) (c :: p) q1 out n); auto.
    + cbn. now rewrite Hv.
    + intros [|d p'] q' E; cbn in E.
      * exfalso. apply N. exists q'. auto.
      * injection E as _ E. cbn. apply Hm in E. lia.
Qed.
Lemma rep_hit f t b q out n : b <> Some 0%N ->
  replaced f t (match b with Some k => Some (k - 1)%N | None => None end) q out n ->
  replaced f t b (f ++ q) (t ++ out) (S n).
Proof. intros Hb R. apply (R_next f t b (f ++ q) [] q out n); auto. cbn. intros. lia. Qed.
Lemma rep_short f t b q : length q < length f -> replaced f t b q q 0.
Proof. intros L. apply R_none. intros p r E. apply (f_equal (@length _)) in E. rewrite !app_length in E. lia. Qed.
Lemma rep_total f t : f <> [] -> forall k q b, length q <= k -> exists out n, replaced f t b q out n.
Proof.
  intros Nf. induction k as [|k IH]; intros q b L.
  - exists q, 0. apply rep_short. destruct f; [congruence|]. cbn. lia.
  - destruct (prefix_dec f q) as [[r ->]|N].
    + assert (D : b = Some 0%N \/ b <> Some 0%N).
      { destruct b as [[|x]|]; [left; auto|right; discriminate|right; discriminate]. }
      destruct D as [->|D]; [exists (f ++ r), 0; apply R_stop|].
      destruct (IH r (match b with Some k => Some (k - 1)%N | None => None end)) as (out & n & R).
      { rewrite app_length in L. destruct f; [congruence|]. cbn in L. lia. }
      exists (t ++ out), (S n). apply rep_hit; auto.
    + destruct q as [|c q]; [exists [], 0; apply rep_short; destruct f; [congruence|cbn; lia]|].
      destruct (IH q b) as (out & n & R); [cbn in L; lia|]. exists (c :: out), n. apply rep_skip; auto.
Qed.

Lemma other_ok h t h' t' s v : holds h s v -> (forall b, at_ s = Some b -> at_ t <> Some b) -> frame h t h' t' ->
  holds h' s v /\ (forall b, at_ s = Some b -> at_ t' <> Some b).
Proof.
  intros H Ap [L O T K].
  assert (B : forall b, at_ s = Some b -> b < length h).
  { intros b E. unfold holds in H. rewrite E in H. destruct H as (r & J & _). eapply nth_lt; eauto. }
  split.
  - eapply holds_same; eauto.
  - intros b E J. specialize (B b E). specialize (Ap b E). destruct T as [T|[T|(d & T & Ld)]]; rewrite T in J; try congruence.
    injection J as ->. lia.
Qed.

(** maxReplaces, counting down, and what is left of the allowance. *)
Definition budget (b : option N) (most : N) (q : txt) : Prop :=
  match b with
  | None => most = 0%N \/ (N.of_nat (length q) < most)%N
  | Some k => k = most /\ most <> 0%N
  end.

Lemma replace_loop_ok f t v s pf pt fr tr : f <> [] -> ~ In nul f -> ~ In nul t -> fits (length v) -> (N.of_nat (length v) < 4294967295)%N ->
  forall fuel h tmp acc p q b most n,
  v = p ++ q -> length q < fuel ->
  holds h s v -> holds h tmp acc -> (forall b, at_ s = Some b -> at_ tmp <> Some b) ->
  mem h pf = Some (f ++ nul :: fr) -> apart pf tmp -> mem h pt = Some (t ++ nul :: tr) -> apart pt tmp ->
  budget b most q -> n <= length p ->
  (forall out k, replaced f t b q out k -> fits (length acc + length out)) ->
  exists h' tmp' pos n' acc' q' out k,
    replace_loop junk fuel h s tmp pf pt (length f) (length p) most n = Some (h', tmp', pos, n') /\
    holds h' s v /\ holds h' tmp' acc' /\ (forall b, at_ s = Some b -> at_ tmp' <> Some b) /\ frame h tmp h' tmp' /\
    v = firstn pos v ++ q' /\ pos <= length v /\ replaced f t b q out k /\ n' = n + k /\ acc ++ out = acc' ++ q'.
Proof.
  intros Nf Uf Ut Fv Fv'. induction fuel as [|fuel IH]; intros h tmp acc p q b most n Ev Lf Hs Ht Ap Mf Af Mt At Bd Ln Fits; [lia|].
  cbn [replace_loop]. rewrite (holds_len _ _ _ Hs). pose proof (f_equal (@length _) Ev) as Lv. rewrite app_length in Lv.
  destruct (length v <? length p + length f) eqn:E.
  - apply Nat.ltb_lt in E. exists h, tmp, (length p), n, acc, q, q, 0. split; auto. split; auto. split; auto. split; auto.
    split; [apply frame_refl; auto|]. split.
    { rewrite Ev at 2. rewrite firstn_app, Nat.sub_diag, firstn_all. cbn. now rewrite app_nil_r. }
    split; [lia|]. split; [apply rep_short; lia|]. split; auto.
  - apply Nat.ltb_ge in E. destruct (holds_mem _ _ _ Hs) as [r Ms]. pose proof (mem_padd _ _ (length p) _ Ms) as Mp.
    rewrite Ev in Mp. rewrite <- app_assoc, skipn_app, skipn_all, Nat.sub_diag in Mp. cbn [app skipn] in Mp.
    rewrite Mp, Mf. destruct (prefix_dec f q) as [Pq|Nq].
    + destruct (ncmp_ok f Uf q (nul :: r) (nul :: fr)) as [C _]. rewrite (C Pq). destruct Pq as [q1 Eq].
      assert (Lq : length q = length f + length q1) by (rewrite Eq, app_length; auto).
      assert (Lf0 : 0 < length f) by (destruct f; [congruence|cbn; lia]).
      assert (Db : b <> Some 0%N). { destruct b as [k|]; [|discriminate]. destruct Bd as [-> Z]. congruence. }
      assert (Fits1 : forall out k, replaced f t (match b with Some k => Some (k - 1)%N | None => None end) q1 out k ->
                fits (length (acc ++ t) + length out)).
      { intros out k R. rewrite Eq in Fits. specialize (Fits _ _ (rep_hit f t b q1 out k Db R)).
        eapply fits_le; [|exact Fits]. rewrite !app_length. lia. }
      destruct (rep_total f t Nf (length q1) q1 (match b with Some k => Some (k - 1)%N | None => None end)) as (out0 & k0 & R0); [lia|].
      destruct (append_z_ok junk h tmp acc pt t tr Ht Mt Ut) as (h1 & tmp1 & E1 & H1 & F1); auto.
      { specialize (Fits1 _ _ R0). rewrite app_length in Fits1. eapply fits_le; [|exact Fits1]. lia. }
      rewrite E1. cbn zeta. set (most' := (if (most =? 0)%N then 4294967295%N else (most - 1)%N)) in *.
      assert (Wn : w32 (S n) = S n). { apply w32_small. eapply fits_le; [|exact Fv]. lia. }
      rewrite Wn.
      destruct (other_ok _ _ _ _ _ _ Hs Ap F1) as [Hs1 Ap1].
      destruct (apart_mem _ _ _ _ _ _ Af Mf F1) as [Mf1 Af1]. destruct (apart_mem _ _ _ _ _ _ At Mt F1) as [Mt1 At1].
      destruct (most' =? 0)%N eqn:Em.
      * apply N.eqb_eq in Em.
        assert (Eb : b = Some 1%N).
        { unfold most' in Em. destruct (most =? 0)%N eqn:Z; [discriminate|]. apply N.eqb_neq in Z.
          destruct b as [k|]; [destruct Bd as [-> _]; f_equal; lia|]. destruct Bd as [Bd|Bd]; lia. }
        exists h1, tmp1, (length p + length f), (S n), (acc ++ t), q1, (t ++ q1), 1.
        split; auto. split; auto. split; auto. split; auto. split; auto. split.
        { rewrite Ev, Eq. rewrite app_assoc. rewrite firstn_app, app_length, Nat.sub_diag.
          rewrite <- app_length, firstn_all. cbn. now rewrite app_nil_r. }
        split; [lia|]. split; [rewrite Eq; apply rep_hit; auto; rewrite Eb; apply R_stop|]. split; [lia|].
        now rewrite <- app_assoc.
      * apply N.eqb_neq in Em.
        destruct (IH h1 tmp1 (acc ++ t) (p ++ f) q1 (match b with Some k => Some (k - 1)%N | None => None end) most' (S n))
          as (h' & tmp' & pos & n' & acc' & q' & out & k & E2 & A1 & A2 & A3 & A4 & A5 & A6 & A7 & A8 & A9); auto.
        { rewrite Ev, Eq. now rewrite app_assoc. } { lia. }
        { unfold most' in *. destruct (most =? 0)%N eqn:Z.
          - apply N.eqb_eq in Z. destruct b as [k|]; cbn in *; [destruct Bd; congruence|]. right. lia.
          - apply N.eqb_neq in Z. destruct b as [k|]; cbn in *; [destruct Bd as [-> _]; split; auto|].
            destruct Bd as [Bd|Bd]; [congruence|]. right. lia. }
        { rewrite app_length. lia. }
        rewrite app_length in E2. rewrite E2.
        exists h', tmp', pos, n', acc', q', (t ++ out), (S k). split; auto. split; auto. split; auto. split; auto.
        split; [eapply frame_trans; eauto|]. split; auto. split; auto. split; [rewrite Eq; apply rep_hit; auto|].
        split; [lia|]. rewrite app_assoc. auto.
    + destruct (ncmp_ok f Uf q r (nul :: fr)) as [_ C]. rewrite (C Nq).
      destruct q as [|c q]; [cbn in *; exfalso; destruct f; [congruence|cbn in *; lia]|].
      rewrite (holds_read _ _ _ _ _ _ Hs Ev).
      assert (Fits1 : forall out k, replaced f t b q out k -> fits (length (acc ++ [c]) + length out)).
      { intros out k R. specialize (Fits _ _ (rep_skip _ _ _ _ _ _ _ Nq R)). eapply fits_le; [|exact Fits].
        rewrite app_length. cbn. lia. }
      destruct (rep_total f t Nf (length q) q b) as (out0 & k0 & R0); [lia|].
      destruct (push_ok junk h tmp acc c Ht) as (h1 & tmp1 & E1 & H1 & F1).
      { specialize (Fits1 _ _ R0). rewrite app_length in Fits1. cbn in Fits1. eapply fits_le; [|exact Fits1]. lia. }
      rewrite E1. cbn [length] in *.
      destruct (other_ok _ _ _ _ _ _ Hs Ap F1) as [Hs1 Ap1].
      destruct (apart_mem _ _ _ _ _ _ Af Mf F1) as [Mf1 Af1]. destruct (apart_mem _ _ _ _ _ _ At Mt F1) as [Mt1 At1].
      destruct (IH h1 tmp1 (acc ++ [c]) (p ++ [c]) q b most n)
          as (h' & tmp' & pos & n' & acc' & q' & out & k & E2 & A1 & A2 & A3 & A4 & A5 & A6 & A7 & A8 & A9); auto.
      { rewrite Ev, <- app_assoc. reflexivity. } { lia. }
      { unfold budget in *. destruct b; auto. cbn [length] in Bd. destruct Bd; [auto|right; lia]. }
      { rewrite app_length. lia. }
      rewrite app_length in E2. cbn [length] in E2. rewrite Nat.add_1_r in E2. rewrite E2.
      exists h', tmp', pos, n', acc', q', (c :: out), k. split; auto. split; auto. split; auto. split; auto.
      split; [eapply frame_trans; eauto|]. split; auto. split; auto. split; [apply rep_skip; auto|].
      split; auto. rewrite <- A9, <- app_assoc. reflexivity.
Qed.

Lemma push_rest_ok s v : forall q h tmp acc p,
  v = p ++ q -> holds h s v -> holds h tmp acc -> (forall b, at_ s = Some b -> at_ tmp <> Some b) -> fits (length acc + length q) ->
  exists h' tmp', push_rest junk h s tmp (length p) (length q) = Some (h', tmp') /\ holds h' s v /\ holds h' tmp' (acc ++ q) /\
    (forall b, at_ s = Some b -> at_ tmp' <> Some b) /\ frame h tmp h' tmp'.
Proof.
  induction q as [|c q IH]; intros h tmp acc p Ev Hs Ht Ap Hf; cbn [length push_rest].
  - exists h, tmp. rewrite app_nil_r. split; auto. split; auto. split; auto. split; auto. apply frame_refl. auto.
  - rewrite (holds_read _ _ _ _ _ _ Hs Ev). cbn [length] in Hf.
    destruct (push_ok junk h tmp acc c Ht) as (h1 & tmp1 & E1 & H1 & F1). { eapply fits_le; [|exact Hf]. lia. }
    rewrite E1. destruct (other_ok _ _ _ _ _ _ Hs Ap F1) as [Hs1 Ap1].
    destruct (IH h1 tmp1 (acc ++ [c]) (p ++ [c])) as (h' & tmp' & E2 & A1 & A2 & A3 & A4); auto.
    { rewrite Ev, <- app_assoc. reflexivity. } { eapply fits_le; [|exact Hf]. rewrite app_length. cbn. lia. }
    rewrite app_length in E2. cbn [length] in E2. rewrite Nat.add_1_r in E2. rewrite E2.
    exists h', tmp'. split; auto. split; auto. split; [rewrite <- app_assoc in A2; exact A2|]. split; auto.
    eapply frame_trans; eauto.
Qed.

Lemma fits_temp : fits temp_size.
Proof. vm_compute. discriminate. Qed.

Lemma replace_ok h s v pf pt f t fr tr most : holds h s v ->
  mem h pf = Some (f ++ nul :: fr) -> ~ In nul f -> mem h pt = Some (t ++ nul :: tr) -> ~ In nul t ->
  (forall out n, text_replaced f t most v out n -> fits (length out)) ->
  exists h' s' v' n, replace junk h s pf pt most = Some (h', s', n) /\ holds h' s' v' /\ frame h s h' s' /\
    text_replaced f t most v v' n.
Proof.
  intros Hs Mf Uf Mt Ut Fits. unfold replace, strlen. rewrite Mf, (zlen_ok _ _ Uf).
  destruct (length f =? 0) eqn:Ef.
  { apply Nat.eqb_eq in Ef. destruct f; [|discriminate]. exists h, s, v, 0. split; auto. split; auto.
    split; [apply frame_refl; auto|]. left. auto. }
  apply Nat.eqb_neq in Ef. assert (Nf : f <> []) by (intros ->; cbn in Ef; lia).
  destruct (new_stack_ok h temp_size fits_temp) as (h1 & tmp & E1 & H1 & F1 & A1). rewrite E1.
  assert (Bs : forall b, at_ s = Some b -> b < length h).
  { intros b E. unfold holds in Hs. rewrite E in Hs. destruct Hs as (r & J & _). eapply nth_lt; eauto. }
  assert (O1 : forall c, c < length h -> nth_error h1 c = nth_error h c).
  { intros c Hc. apply (f_other _ _ _ _ F1); auto. cbn. discriminate. }
  assert (Hs1 : holds h1 s v) by (eapply holds_same; eauto).
  assert (Ap1 : forall b, at_ s = Some b -> at_ tmp <> Some b).
  { intros b E J. rewrite A1 in J. injection J as <-. specialize (Bs _ E). lia. }
  assert (Mf1 : mem h1 pf = Some (f ++ nul :: fr)).
  { rewrite <- Mf. apply mem_same. intros b o E. apply O1. exact (mem_lt _ _ _ Mf _ _ E). }
  assert (Mt1 : mem h1 pt = Some (t ++ nul :: tr)).
  { rewrite <- Mt. apply mem_same. intros b o E. apply O1. exact (mem_lt _ _ _ Mt _ _ E). }
  assert (Af1 : apart pf tmp).
  { intros c o E J. rewrite A1 in J. injection J as <-. pose proof (mem_lt _ _ _ Mf _ _ E). lia. }
  assert (At1 : apart pt tmp).
  { intros c o E J. rewrite A1 in J. injection J as <-. pose proof (mem_lt _ _ _ Mt _ _ E). lia. }
  set (b := if (most =? 0)%N then None else Some most) in *.
  rewrite (holds_len _ _ _ Hs).
  destruct (replace_loop_ok f t v s pf pt fr tr Nf Uf Ut (holds_fits _ _ _ Hs)) with
    (fuel := S (length v)) (h := h1) (tmp := tmp) (acc := @nil ascii) (p := @nil ascii) (q := v) (b := b) (most := most) (n := 0)
    as (h2 & tmp2 & pos & n' & acc & q & out & k & E2 & Hs2 & H2 & Ap2 & F2 & Ev & Lp & R & En & Eo); auto.
  { pose proof (holds_fits _ _ _ Hs) as X. unfold fits in X. lia. }
  { unfold budget, b. destruct (most =? 0)%N eqn:Z; [left; now apply N.eqb_eq|split; auto; now apply N.eqb_neq]. }
  { intros out k R. cbn. eapply Fits. right. split; eauto. }
  cbn [length] in E2. rewrite E2. cbn [Nat.add app] in En, Eo. subst n'.
  assert (Fo : fits (length out)) by (eapply Fits; right; split; eauto).
  (* the destruction of temp, and what the whole leaves behind *)
  assert (Fin : forall h3 tmp3 h4 s4 v4, frame h1 tmp h3 tmp3 -> holds h4 tmp3 v4 -> frame h3 s h4 s4 ->
            (forall b, at_ s4 = Some b -> at_ tmp3 <> Some b) -> length h <= length h3 ->
            exists h5, destroy h4 tmp3 = Some h5 /\ frame h s h5 s4 /\ (forall u, holds h4 s4 u -> holds h5 s4 u)).
  { intros h3 tmp3 h4 s4 v4 F3 H4 F4 Ap4 L3. destruct (drop_ok h4 tmp3 v4 H4) as (h5 & E5 & L5 & O5 & K5).
    assert (T3 : forall c, c < length h -> at_ tmp3 <> Some c).
    { intros c Hc J. destruct (f_at _ _ _ _ F3) as [T|[T|(d & T & Ld)]]; rewrite T in J; try discriminate.
      - rewrite A1 in J. injection J as <-. lia.
      - injection J as ->. pose proof (f_len _ _ _ _ F1). lia. }
    exists h5. split; auto. split.
    - split.
      + pose proof (f_len _ _ _ _ F4). lia.
      + intros c Hc Nc. rewrite O5 by auto. rewrite (f_other _ _ _ _ F4) by (auto; lia).
        rewrite (f_other _ _ _ _ F3); [auto|pose proof (f_len _ _ _ _ F1); lia|]. rewrite A1. intros X. injection X as <-. lia.
      + destruct (f_at _ _ _ _ F4) as [T|[T|(d & T & Ld)]]; auto. right. right. exists d. split; auto. lia.
      + intros c m Hc. destruct (K5 _ _ Hc) as [Lc Nc]. rewrite O5 in Hc by auto.
        destruct (f_leak _ _ _ _ F4 _ _ Hc) as [|[Lc3 Ns]]; auto. right. split; auto.
        rewrite (f_other _ _ _ _ F4) in Hc by auto. destruct (f_leak _ _ _ _ F3 _ _ Hc) as [X|[L1 Nt]]; [congruence|].
        rewrite (f_other _ _ _ _ F3) in Hc by auto. destruct (f_leak _ _ _ _ F1 _ _ Hc) as [X|[L0 _]]; [congruence|auto].
    - intros u Hu. eapply holds_same; eauto. }
  pose proof (f_len _ _ _ _ F1) as Lh1. pose proof (f_len _ _ _ _ F2) as Lh2.
  destruct (0 <? k) eqn:Ek.
  - assert (Lq : length v - pos = length q).
    { pose proof (f_equal (@length _) Ev) as X. rewrite app_length, firstn_length in X. lia. }
    rewrite Lq.
    destruct (push_rest_ok s v q h2 tmp2 acc (firstn pos v)) as (h3 & tmp3 & E3 & Hs3 & H3 & Ap3 & F3); auto.
    { rewrite <- app_length, <- Eo. auto. }
    rewrite firstn_length, Nat.min_l in E3 by auto. rewrite E3.
    destruct (holds_mem _ _ _ H3) as [r3 M3]. rewrite (holds_len _ _ _ H3).
    destruct (assign_ok junk h3 s v (base tmp3) (length (acc ++ q)) _ Hs3 M3) as (h4 & s4 & E4 & Hs4 & F4).
    { rewrite (app_length (acc ++ q)). lia. } { rewrite <- Eo. auto. }
    { intros c o E J. exfalso. eapply Ap3; eauto. unfold base in E. destruct (at_ tmp3) as [d|]; [|discriminate]. now injection E as ->. }
    rewrite E4. rewrite firstn_app, Nat.sub_diag, firstn_all in Hs4. cbn [firstn] in Hs4. rewrite app_nil_r in Hs4.
    assert (Ap3' : forall b, at_ tmp3 = Some b -> at_ s <> Some b) by (intros c X Y; eapply Ap3; eauto).
    destruct (other_ok _ _ _ _ _ _ H3 Ap3' F4) as [H4 Ap4].
    destruct (Fin h3 tmp3 h4 s4 (acc ++ q)) as (h5 & E5 & F5 & G5); auto.
    { eapply frame_trans; eauto. } { intros c X Y. eapply Ap4; eauto. } { pose proof (f_len _ _ _ _ F3). lia. }
    rewrite E5. exists h5, s4, (acc ++ q), k. split; auto. split; auto. split; auto.
    right. split; auto. rewrite <- Eo. auto.
  - apply Nat.ltb_ge in Ek. assert (k = 0) by lia. subst k.
    destruct (Fin h2 tmp2 h2 s acc) as (h5 & E5 & F5 & G5); auto. { apply frame_refl. auto. } { lia. }
    rewrite E5. exists h5, s, v, 0. split; auto. split; auto. split; auto. right. split; auto.
    assert (X : out = v) by (inversion R; auto). rewrite X in R. exact R.
Qed.
End Junk.
