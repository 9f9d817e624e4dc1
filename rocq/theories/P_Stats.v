(** Proofs for C100. *)
From Coq Require Import List Arith Bool NArith Lia Permutation.
From Verif Require Import M_Sort S_Sort P_Sort M_Stats S_Stats.
Import ListNotations.

Lemma mem_in n l : mem n l = true <-> In n l.
Proof. unfold mem. rewrite existsb_exists. split; [intros (x&I&E); apply Nat.eqb_eq in E; now subst|intros I; exists n; split; [exact I|apply Nat.eqb_refl]]. Qed.
Lemma mem_out n l : mem n l = false <-> ~ In n l.
Proof. rewrite <- mem_in. destruct (mem n l); split; congruence. Qed.

Section Walk.
Context (skip : bool) (g : graph) (S0 : sound g).

(** What counting the nodes of [ns] does. *)
Definition counted (ns : list nat) (t : tally) : tally :=
  fold_left (fun t n => match nth_error g n with Some d => count_node n d t | None => t end) ns t.
Definition fine (seen : list nat) : Prop := NoDup seen /\ forall x, In x seen -> x < length g.
(** [st'] comes from [st] by visits to [ds]: [ns] are the nodes that were new. *)
Definition after (ds : list nat) (st st' : list nat * tally) : Prop :=
  exists ns, fst st' = rev ns ++ fst st /\ snd st' = counted ns (snd st) /\ fine (fst st') /\
    (forall x, In x ds -> In x (fst st')) /\
    (forall x, In x ns -> exists r, In r ds /\ needs skip g r x) /\
    (forall x d, In x ns -> nth_error g x = Some d -> forall m, In m (deps skip d) -> In m (fst st')).

Lemma needs_trans a b c : needs skip g a b -> needs skip g b c -> needs skip g a c.
Proof. intros A B. induction B as [|n d m B IH E I]; [exact A|]. eapply needs_dep; eauto. Qed.

Lemma after_app a b s1 s2 s3 : after a s1 s2 -> after b s2 s3 -> after (a ++ b) s1 s3.
Proof.
  intros (n1&A1&B1&C1&D1&E1&F1) (n2&A2&B2&C2&D2&E2&F2). exists (n1 ++ n2). unfold counted in *. repeat split.
  - rewrite A2, A1, rev_app_distr, app_assoc. reflexivity.
  - rewrite B2, B1, fold_left_app. reflexivity.
  - apply C2.
  - apply C2.
  - intros x I. apply in_app_or in I as [I|I]; [|auto]. rewrite A2. apply in_or_app. right. auto.
  - intros x I. apply in_app_or in I as [I|I].
    + destruct (E1 x I) as (r&R&N). exists r. split; [apply in_or_app; now left|exact N].
    + destruct (E2 x I) as (r&R&N). exists r. split; [apply in_or_app; now right|exact N].
  - intros x d I E m M. apply in_app_or in I as [I|I]; [|eauto]. rewrite A2. apply in_or_app. right. eauto.
Qed.
Lemma after_nil s : fine (fst s) -> after [] s s.
Proof. intros F. exists []. repeat split; try apply F; try (now intros); reflexivity. Qed.

Lemma grows ds st st' : after ds st st' -> length (fst st) <= length (fst st').
Proof. intros (ns&A&_). rewrite A, app_length. lia. Qed.
Lemma after_fine ds st st' : after ds st st' -> fine (fst st').
Proof. now intros (ns&_&_&C&_). Qed.

Lemma each_ok rec k : (forall n st, n < length g -> fine (fst st) -> length g < k + length (fst st) -> exists st', rec n st = Some st' /\ after [n] st st') ->
  forall ds st, (forall n, In n ds -> n < length g) -> fine (fst st) -> length g < k + length (fst st) -> exists st', each rec ds st = Some st' /\ after ds st st'.
Proof.
  intros R. induction ds as [|n r IH]; intros st B F K.
  - exists st. split; [reflexivity|]. now apply after_nil.
  - destruct (R n st) as (s1&E1&A1); auto; [apply B; now left|].
    destruct (IH s1) as (s2&E2&A2); [intros x I; apply B; now right|eapply after_fine; eauto|pose proof (grows _ _ _ A1); lia|].
    exists s2. cbn [each]. rewrite E1. split; [exact E2|]. exact (after_app [n] r st s1 s2 A1 A2).
Qed.

Lemma gather_ok : forall fuel n st, n < length g -> fine (fst st) -> length g < fuel + length (fst st) ->
  exists st', gather fuel skip g n st = Some st' /\ after [n] st st'.
Proof.
  induction fuel as [|f IH]; intros n [seen t] B F K; cbn [fst] in *.
  - exfalso. destruct F as [Nd Bd]. pose proof (NoDup_incl_length Nd (l' := seq 0 (length g))) as H. rewrite seq_length in H.
    enough (length seen <= length g) by lia. apply H. intros x I. apply in_seq. specialize (Bd x I). lia.
  - cbn [gather]. destruct (mem n seen) eqn:M.
    + exists (seen, t). split; [reflexivity|]. apply mem_in in M. exists []. cbn. repeat split; try apply F; try (now intros). now intros x [<-|[]].
    + apply mem_out in M. destruct (nth_error g n) as [d|] eqn:E; [|apply nth_error_None in E; lia].
      assert (Dd : forall m, In m (pre d ++ static d ++ dynamic d) -> m < length g) by (apply S0; eapply nth_error_In; eauto).
      assert (F1 : fine (n :: seen)).
      { destruct F as [Nd Bd]. split; [now constructor|]. intros x [<-|I]; auto. }
      set (st1 := (n :: seen, count_node n d t)).
      assert (Z : forall st2, after (deps skip d) st1 st2 -> after [n] (seen, t) st2).
      { intros st2 (ns&A1&B1&C1&D1&E1&G1). exists (n :: ns). unfold st1 in *. cbn [fst snd] in *. unfold counted in *. repeat split.
        - rewrite A1. cbn. now rewrite <- app_assoc.
        - rewrite B1. cbn [fold_left]. now rewrite E.
        - apply C1.
        - apply C1.
        - intros x [<-|[]]. rewrite A1. apply in_or_app. right. now left.
        - intros x [<-|I]; exists n; (split; [now left|]); [constructor|]. destruct (E1 x I) as (r&R&N).
          refine (needs_trans n r x _ N). eapply needs_dep; [constructor|exact E|exact R].
        - intros x d' [<-|I] E' m Im; [|eauto]. rewrite E in E'. injection E' as <-. auto. }
      unfold deps in Z. destruct (skip && Nat.eqb (type d) COMPILER) eqn:Q.
      * exists st1. split; [reflexivity|]. apply Z. now apply after_nil.
      * assert (L1 : length g < f + length (fst st1)) by (unfold st1; cbn [fst length]; lia).
        destruct (each_ok (gather f skip g) f IH (pre d) st1) as (s2&E2&A2); [intros x I; apply Dd, in_or_app; now left|exact F1|exact L1|].
        pose proof (grows _ _ _ A2). rewrite E2.
        destruct (each_ok (gather f skip g) f IH (static d) s2) as (s3&E3&A3); [intros x I; apply Dd, in_or_app; right; apply in_or_app; now left|eapply after_fine; eauto|lia|].
        pose proof (grows _ _ _ A3). rewrite E3.
        destruct (each_ok (gather f skip g) f IH (dynamic d) s3) as (s4&E4&A4); [intros x I; apply Dd, in_or_app; right; apply in_or_app; now right|eapply after_fine; eauto|lia|].
        exists s4. split; [exact E4|]. apply Z. eapply after_app; [exact A2|]. eapply after_app; eauto.
Qed.

Lemma gather_all root : root < length g -> exists ns ds seen, gather (S (length g)) skip g root ([], start) = Some (seen, counted ns start) /\ of_build skip g root ns ds.
Proof.
  intros B. destruct (gather_ok (S (length g)) root ([], start) B) as ([seen t]&E&ns&A&C&F&D&N&Cl); [split; [constructor|now intros]|cbn; lia|].
  cbn [fst snd] in *. rewrite app_nil_r in A. subst seen t.
  assert (W : exists ds, map (fun n => nth_error g n) ns = map Some ds).
  { assert (Bd : forall x, In x ns -> x < length g) by (intros x I; apply F; now apply -> in_rev).
    clear - Bd. induction ns as [|n r IH]; [now exists []|]. destruct IH as (ds&IH); [intros x I; apply Bd; now right|].
    destruct (nth_error g n) as [d|] eqn:E; [|apply nth_error_None in E; specialize (Bd n (or_introl eq_refl)); lia].
    exists (d :: ds). cbn. now rewrite E, IH. }
  destruct W as (ds&W). exists ns, ds, (rev ns). split; [exact E|]. split; [|split; [|exact W]].
  - rewrite <- (rev_involutive ns). apply NoDup_rev, F.
  - intros n. split.
    + intros I. destruct (N n I) as (r&[<-|[]]&H). exact H.
    + intros H. apply in_rev. induction H as [|n d m H IH En I]; [apply D; now left|]. eapply Cl; [apply in_rev; exact IH|exact En|exact I].
Qed.
End Walk.

(** * The numbers. *)
Definition W32 := (2 ^ 32)%N.
Lemma add_mod a b : add (N.modulo a W32) b = N.modulo (a + b) W32.
Proof. unfold add, W32. apply N.add_mod_idemp_l. discriminate. Qed.
Lemma add_mod2 a b : add (N.modulo a W32) (N.modulo b W32) = N.modulo (a + b) W32.
Proof. rewrite add_mod. unfold W32. apply N.add_mod_idemp_r. discriminate. Qed.

Lemma many_app p a b : many p (a ++ b) = add (many p a) (many p b).
Proof. unfold many. rewrite filter_app, app_length, Nat2N.inj_add. change (2 ^ 32)%N with W32. now rewrite add_mod2. Qed.
Lemma many_one p a d : many p (a ++ [d]) = inc (p d) (many p a).
Proof.
  unfold many. rewrite filter_app, app_length, Nat2N.inj_add. change (2 ^ 32)%N with W32. cbn [filter]. destruct (p d); cbn [length inc].
  - now rewrite add_mod.
  - now rewrite N.add_0_r.
Qed.
Lemma fold_app (v : node -> N) : forall a b, fold_right N.add 0%N (map v (a ++ b)) = (fold_right N.add 0%N (map v a) + fold_right N.add 0%N (map v b))%N.
Proof. induction a as [|x r IH]; intros b; cbn; [reflexivity|]. rewrite IH. lia. Qed.
Lemma sum_one v p a d : sum v p (a ++ [d]) = if p d then add (sum v p a) (v d) else sum v p a.
Proof.
  unfold sum. rewrite filter_app, fold_app. change (2 ^ 32)%N with W32. cbn [filter]. destruct (p d); cbn [map fold_right].
  - now rewrite add_mod, N.add_0_r.
  - now rewrite N.add_0_r.
Qed.

(** The numbers of the nodes of [ds] that [p] picks. *)
Definition stats_of (p : node -> bool) (ds : list node) : stats :=
  let m q := many (fun d => p d && q (flag d)) ds in
  Stats (many p ds) (m built) (m hit) (m miss) (m store) (m (fun f => light f && hit f)) (m (fun f => light f && negb (hit f) && negb (store f)))
    (m (fun f => light f && negb (hit f) && store f)) (sum time p ds) (m failed) (sum caching (fun d => p d && store (flag d)) ds).
Definition of_type (k : nat) (d : node) : bool := negb (Nat.eqb (type d) PROXY) && Nat.eqb (type d) k.
Definition real (d : node) : bool := negb (Nat.eqb (type d) PROXY).
Definition timed (d : node) : bool := real d && N.ltb 0 (time d) && negb (Nat.eqb (type d) FILE).

Lemma stats_of_one p a d : stats_of p (a ++ [d]) = if p d then note d (stats_of p a) else stats_of p a.
Proof.
  unfold stats_of, note. cbn [processed s_built hits misses stores light_hits light_misses light_stores cpu s_failed cache_time].
  rewrite !many_one, !sum_one. destruct (p d); cbn [andb inc]; [|reflexivity]. destruct (store (flag d)); reflexivity.
Qed.

Definition picked (ns : list nat) (ds : list node) : list nat := map fst (filter (fun x => timed (snd x)) (combine ns ds)).
Lemma combine_app {A B} : forall (a : list A) (b : list B) c d, length a = length b -> combine (a ++ c) (b ++ d) = combine a b ++ combine c d.
Proof. induction a as [|x a IH]; intros [|y b] c d H; try discriminate; cbn; [reflexivity|]. f_equal. apply IH. now injection H. Qed.

Lemma counted_ok g : forall ns ds, map (fun n => nth_error g n) ns = map Some ds -> let t := counted g ns start in
  (forall k, per_type t k = stats_of (of_type k) ds) /\ local t = sum time real ds /\ far t = sum last_time (fun d => real d && remote (flag d)) ds /\ by_time t = picked ns ds.
Proof.
  induction ns as [|n ns IH] using rev_ind; intros ds W.
  - destruct ds; [|discriminate]. cbn. repeat split.
  - destruct ds as [|d ds _] using rev_ind; [rewrite map_app in W; apply app_eq_nil in W as [_ W]; discriminate|].
    rewrite !map_app in W. cbn [map] in W. apply app_inj_tail in W as [W E]. specialize (IH ds W).
    assert (Ln : length ns = length ds) by (apply (f_equal (@length _)) in W; now rewrite !map_length in W).
    cbv zeta in *. unfold counted in *. rewrite fold_left_app. cbn [fold_left]. rewrite E.
    set (t := fold_left _ ns start) in *. destruct IH as (I1&I2&I3&I4).
    unfold picked in *. rewrite combine_app, filter_app, map_app by exact Ln. cbn [combine filter snd].
    rewrite !sum_one. unfold count_node. unfold timed, real in *. destruct (Nat.eqb (type d) PROXY) eqn:P; cbn [negb andb map].
    + repeat split; auto; [|now rewrite app_nil_r]. intros k. rewrite stats_of_one. unfold of_type. rewrite P. cbn. apply I1.
    + cbn [per_type local far by_time]. repeat split.
      * intros k. rewrite stats_of_one. unfold of_type at 1. rewrite P. cbn [negb andb]. rewrite (Nat.eqb_sym k). destruct (Nat.eqb (type d) k); rewrite I1; reflexivity.
      * now rewrite I2.
      * now rewrite I3.
      * rewrite I4. destruct (N.ltb 0 (time d) && negb (Nat.eqb (type d) FILE)); cbn [map fst]; [reflexivity|now rewrite app_nil_r].
Qed.

(** * The totals. *)
Lemma many_split p q r ds : (forall d, p d = q d || r d) -> (forall d, q d && r d = false) -> many p ds = add (many q ds) (many r ds).
Proof.
  intros H D. unfold many. change (2 ^ 32)%N with W32. rewrite add_mod2. f_equal. rewrite <- Nat2N.inj_add. f_equal.
  induction ds as [|d t IH]; [reflexivity|]. cbn [filter]. rewrite H. specialize (D d). destruct (q d), (r d); cbn in *; try discriminate; lia.
Qed.
Lemma sum_split v p q r ds : (forall d, p d = q d || r d) -> (forall d, q d && r d = false) -> sum v p ds = add (sum v q ds) (sum v r ds).
Proof.
  intros H D. unfold sum. change (2 ^ 32)%N with W32. rewrite add_mod2. f_equal.
  induction ds as [|d t IH]; [reflexivity|]. cbn [filter]. rewrite H. specialize (D d). destruct (q d), (r d); cbn [orb andb map fold_right] in *; try discriminate; lia.
Qed.
Definition below (k : nat) (d : node) : bool := real d && Nat.ltb (type d) k.
(** The totals leave the processor time and the failures alone. *)
Definition no_cpu (s : stats) : stats :=
  Stats (processed s) (s_built s) (hits s) (misses s) (stores s) (light_hits s) (light_misses s) (light_stores s) 0 0 (cache_time s).
Lemma filter_none {A} (p : A -> bool) l : (forall x, p x = false) -> filter p l = [].
Proof. intros H. induction l as [|x r IH]; [reflexivity|]. cbn. now rewrite H. Qed.
Lemma totals_upto t ds : (forall k, per_type t k = stats_of (of_type k) ds) -> forall n,
  fold_left (fun s k => add_up s (per_type t k)) (seq 0 n) zero = no_cpu (stats_of (below n) ds).
Proof.
  intros H. induction n as [|n IH].
  - cbn [seq fold_left]. unfold no_cpu, stats_of, many, sum. cbn [processed s_built hits misses stores light_hits light_misses light_stores cache_time].
    assert (Z : forall d, below 0 d = false) by (intros d; unfold below; now rewrite andb_comm).
    rewrite !filter_none by (intros d; rewrite ?Z; reflexivity). reflexivity.
  - rewrite seq_S, fold_left_app, IH. cbn [fold_left Nat.add]. rewrite H.
    assert (A : forall d, below (S n) d = below n d || of_type n d).
    { intros d. unfold below, of_type, real. destruct (Nat.eqb (type d) PROXY); cbn [negb andb orb]; [reflexivity|].
      destruct (Nat.ltb_spec (type d) (S n)), (Nat.ltb_spec (type d) n), (Nat.eqb_spec (type d) n); cbn; auto; lia. }
    assert (B : forall d, below n d && of_type n d = false).
    { intros d. unfold below, of_type, real. destruct (Nat.eqb (type d) PROXY); cbn [negb andb]; [reflexivity|].
      destruct (Nat.ltb_spec (type d) n), (Nat.eqb_spec (type d) n); cbn; auto; lia. }
    unfold no_cpu, add_up, stats_of. cbn [processed s_built hits misses stores light_hits light_misses light_stores cpu s_failed cache_time].
    f_equal; symmetry; (apply many_split || apply sum_split); intros d; rewrite ?A; specialize (B d); destruct (below n d), (of_type n d);
      cbn [andb orb] in *; try discriminate; rewrite ?orb_false_r, ?andb_false_r; reflexivity.
Qed.

(** * The nodes by time. *)
Lemma dearer_weak g : strict_weak (dearer g).
Proof.
  unfold dearer. split.
  - intros x. apply N.ltb_irrefl.
  - intros x y z A B. apply N.ltb_lt in A, B. apply N.ltb_lt. lia.
  - intros x y z A B C D. apply N.ltb_ge in A, B, C, D. split; apply N.ltb_ge; lia.
Qed.
