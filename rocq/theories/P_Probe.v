(** The table of file records: every probe sequence up to a record stays occupied. *)
From Coq Require Import String List Arith NArith Bool Ascii Lia Permutation.
From Verif Require Import M_Path.
From Verif Require M_Tok P_Tok.
From Verif Require Import M_Probe.
Import ListNotations.
Import M_Tok(seqb, res, Done, Fail, NoFuel, bind).
Open Scope N_scope.

Definition pow2 (n : N) : Prop := exists k, n = 2 ^ k.
Lemma pow2_pos n : pow2 n -> 0 < n. Proof. intros (k & ->). apply N.neq_0_lt_0, N.pow_nonzero. lia. Qed.
Lemma land_mod n x : pow2 n -> N.land x (n - 1) = x mod n.
Proof. intros (k & ->). replace (2 ^ k - 1) with (N.ones k) by (rewrite N.ones_equiv; lia). apply N.land_ones. Qed.
Lemma slot_mod n s p : pow2 n -> slot n s p = (s + p * p) mod n. Proof. intro H. now apply land_mod. Qed.
Lemma slot_lt n s p : pow2 n -> slot n s p < n. Proof. intro H. rewrite slot_mod by exact H. apply N.mod_lt. apply pow2_pos in H. lia. Qed.

(** * Buckets *)
Definition items (b : list (option item)) : list item := flat_map (fun o => match o with Some x => [x] | None => [] end) b.
Lemma items_at b x : In x (items b) <-> exists i, at_ b i = Some x.
Proof.
  unfold items, at_. rewrite in_flat_map. split.
  - intros (y & I & Q). destruct y as [y|]; [|destruct Q]. destruct Q as [->|[]]. apply (In_nth _ _ None) in I as (i & _ & E). exists (N.of_nat i). now rewrite Nnat.Nat2N.id.
  - intros (i & E). exists (Some x). split; [|now left]. destruct (Nat.lt_ge_cases (N.to_nat i) (List.length b)) as [H|H]; [rewrite <- E; now apply nth_In|]. rewrite nth_overflow in E by exact H. discriminate.
Qed.
Lemma update_len b x : forall i, List.length (update b i x) = List.length b.
Proof. induction b as [|y b IH]; intros [|i]; cbn [update List.length]; auto. Qed.
Lemma put_size b i x : size (put b i x) = size b. Proof. unfold size, put. now rewrite update_len. Qed.
Lemma update_nth b x : forall i j, (i < List.length b)%nat -> nth j (update b i x) None = if Nat.eqb j i then Some x else nth j b None.
Proof.
  induction b as [|y b IH]; intros i j H; [cbn in H; lia|]. destruct i as [|i], j as [|j]; cbn [update nth Nat.eqb]; try reflexivity. apply IH. cbn in H. lia.
Qed.
Lemma put_at b i j x : i < size b -> at_ (put b i x) j = if N.eqb j i then Some x else at_ b j.
Proof.
  unfold size, put, at_. intro H. rewrite update_nth by lia. destruct (N.eqb_spec j i) as [->|Ne]; [now rewrite Nat.eqb_refl|]. destruct (Nat.eqb_spec (N.to_nat j) (N.to_nat i)); [lia|reflexivity].
Qed.
Lemma update_items b x : forall i, (i < List.length b)%nat -> nth i b None = None -> Permutation (items (update b i x)) (x :: items b).
Proof.
  induction b as [|y b IH]; intros i H E; [cbn in H; lia|]. destruct i as [|i]; cbn [update nth] in *.
  - subst y. apply Permutation_refl.
  - cbn [items flat_map]. fold (items b). fold (items (update b i x)). transitivity ((match y with Some z => [z] | None => [] end) ++ x :: items b).
    + apply Permutation_app_head, IH; [cbn in H; lia|exact E].
    + symmetry. apply Permutation_middle.
Qed.
Lemma put_items b i x : i < size b -> at_ b i = None -> Permutation (items (put b i x)) (x :: items b).
Proof. unfold size, put, at_. intros H E. apply update_items; [lia|exact E]. Qed.

(** * The invariant *)
Definition way (b : list (option item)) (x : item) (p : N) : N := slot (size b) (start_of (size b) (fst x)) p.
Record good (b : list (option item)) : Prop := {
  g_pow : pow2 (size b);
  g_once : NoDup (items b);
  g_way : forall i x, at_ b i = Some x -> exists p, i = way b x p /\ forall q, q < p -> exists y, at_ b (way b x q) = Some y /\ y <> x }.

Lemma same_item (h' h : N) (n' n : str) : (h' =? h) && seqb n' n = true <-> (h', n') = (h, n).
Proof. rewrite andb_true_iff, N.eqb_eq, P_Tok.seqb_eq. split; [intros (-> & ->); reflexivity|intro E; injection E; auto]. Qed.
Lemma probe_spec b s h n : forall fuel p i, probe fuel b s p h n = Done i ->
  exists p', p <= p' /\ i = slot (size b) s p' /\ (forall q, p <= q < p' -> exists y, at_ b (slot (size b) s q) = Some y /\ y <> (h, n)) /\ (at_ b i = None \/ at_ b i = Some (h, n)).
Proof.
  induction fuel as [|f IH]; intros p i; [discriminate|]. cbn [probe]. destruct (at_ b (slot (size b) s p)) as [[h' n']|] eqn:E.
  - destruct (_ && _) eqn:Q.
    + intro R. injection R as <-. apply same_item in Q. exists p. split; [lia|]. split; [reflexivity|]. split; [lia|]. right. rewrite E. now f_equal.
    + intro R. apply IH in R as (p' & Le & Ei & B & R). exists p'. split; [lia|]. split; [exact Ei|]. split; [|exact R]. intros q Hq. destruct (N.eq_dec q p) as [->|Ne]; [|apply B; lia].
      exists (h', n'). split; [exact E|]. intro X. apply same_item in X. congruence.
  - intro R. injection R as <-. exists p. split; [lia|]. split; [reflexivity|]. split; [lia|]. now left.
Qed.
Lemma free_spec b s : forall fuel p i, free_slot fuel b s p = Done i ->
  exists p', p <= p' /\ i = slot (size b) s p' /\ (forall q, p <= q < p' -> exists y, at_ b (slot (size b) s q) = Some y) /\ at_ b i = None.
Proof.
  induction fuel as [|f IH]; intros p i; [discriminate|]. cbn [free_slot]. destruct (at_ b (slot (size b) s p)) as [y|] eqn:E.
  - intro R. apply IH in R as (p' & Le & Ei & B & R). exists p'. split; [lia|]. split; [exact Ei|]. split; [|exact R]. intros q Hq. destruct (N.eq_dec q p) as [->|Ne]; [now exists y|apply B; lia].
  - intro R. injection R as <-. exists p. split; [lia|]. split; [reflexivity|]. split; [lia|exact E].
Qed.

Lemma put_good b x p : good b -> ~ In x (items b) -> at_ b (way b x p) = None -> (forall q, q < p -> exists y, at_ b (way b x q) = Some y) -> good (put b (way b x p) x).
Proof.
  intros G N E B. pose proof (slot_lt _ (start_of (size b) (fst x)) p (g_pow b G)) as Lt. fold (way b x p) in Lt.
  assert (Wy : forall y q, way (put b (way b x p) x) y q = way b y q) by (intros; unfold way; now rewrite put_size). constructor.
  - rewrite put_size. apply (g_pow b G).
  - apply (Permutation_NoDup (Permutation_sym (put_items b _ x Lt E))). constructor; [exact N|apply (g_once b G)].
  - intros i y. rewrite put_at by exact Lt. destruct (N.eqb_spec i (way b x p)) as [->|Ne].
    + intro Q. injection Q as <-. exists p. split; [now rewrite Wy|]. intros q Hq. rewrite Wy. destruct (B q Hq) as (y & Ey). exists y. split.
      * rewrite put_at by exact Lt. destruct (N.eqb_spec (way b x q) (way b x p)) as [Q|]; [congruence|exact Ey].
      * intros ->. apply N. apply items_at. eexists; exact Ey.
    + intro Q. destruct (g_way b G i y Q) as (p' & -> & B'). exists p'. split; [now rewrite Wy|]. intros q Hq. rewrite Wy. destruct (B' q Hq) as (z & Ez & Nz). exists z. split; [|exact Nz].
      rewrite put_at by exact Lt. destruct (N.eqb_spec (way b y q) (way b x p)) as [R|]; [congruence|exact Ez].
Qed.
Lemma probe_absent b h n fuel i : good b -> probe fuel b (start_of (size b) h) 0 h n = Done i -> at_ b i = None -> ~ In (h, n) (items b).
Proof.
  intros G P E I. apply probe_spec in P as (p & _ & -> & B & _). apply items_at in I as (j & Ej). destruct (g_way b G j _ Ej) as (p0 & -> & B0). change (slot (size b) (start_of (size b) h)) with (way b (h, n)) in *.
  destruct (N.lt_trichotomy p p0) as [H|[->|H]].
  - destruct (B0 p H) as (y & Ey & _). congruence.
  - congruence.
  - destruct (B p0) as (y & Ey & Ny); [lia|]. congruence.
Qed.
Lemma probe_present b h n p : (forall q, q < p -> exists y, at_ b (way b (h, n) q) = Some y /\ y <> (h, n)) -> at_ b (way b (h, n) p) = Some (h, n) ->
  forall m q fuel, p = q + N.of_nat m -> (m < fuel)%nat -> probe fuel b (start_of (size b) h) q h n = Done (way b (h, n) p).
Proof.
  intros B E. induction m as [|m IH]; intros q fuel Ep K; (destruct fuel as [|fuel]; [lia|]); cbn [probe]; change (slot (size b) (start_of (size b) h) q) with (way b (h, n) q).
  - replace q with p by lia. rewrite E. rewrite (proj2 (same_item h h n n) eq_refl). reflexivity.
  - destruct (B q) as ([h' n'] & Ey & Ny); [lia|]. rewrite Ey. destruct (_ && _) eqn:Q; [apply same_item in Q; congruence|]. apply IH; lia.
Qed.

(** * Growing *)
Lemma repeat_items n : items (repeat None n) = []. Proof. induction n; cbn; auto. Qed.
Lemma repeat_good n : pow2 (N.of_nat n) -> good (repeat None n).
Proof.
  intro P. assert (At : forall i, at_ (repeat None n) i = None).
  { intro i. destruct (at_ (repeat None n) i) as [x|] eqn:E; [|reflexivity]. assert (I : In x (items (repeat None n))) by (apply items_at; now exists i). rewrite repeat_items in I. destruct I. }
  constructor; [unfold size; now rewrite repeat_length|rewrite repeat_items; constructor|]. intros i x E. rewrite At in E. discriminate.
Qed.
Lemma refill_good fuel : forall old new b, good new -> NoDup (items old ++ items new) -> refill fuel old new = Done b -> good b /\ size b = size new /\ Permutation (items b) (items old ++ items new).
Proof.
  induction old as [|[x|] old IH]; intros new b G Nd; cbn [refill].
  - intro E. injection E as <-. split; [exact G|]. split; [reflexivity|apply Permutation_refl].
  - unfold bind. destruct (free_slot _ _ _ _) as [i| |] eqn:F; try discriminate. intro E. apply free_spec in F as (p & _ & -> & B & Ei). cbn [items flat_map app] in Nd. fold (items old) in Nd.
    change (slot (size new) (start_of (size new) (fst x)) p) with (way new x p) in *.
    assert (N : ~ In x (items new)) by (inversion Nd as [|? ? N _]; intro I; apply N, in_or_app; now right).
    assert (Lt : way new x p < size new) by apply slot_lt, G.
    assert (G' : good (put new (way new x p) x)) by (apply put_good; auto; intros q Hq; apply B; lia).
    pose proof (put_items new (way new x p) x Lt Ei) as Pm.
    assert (Pa : Permutation (x :: items old ++ items new) (items old ++ items (put new (way new x p) x))).
    { rewrite Pm. apply Permutation_middle. }
    destruct (IH _ b G' (Permutation_NoDup Pa Nd) E) as (Gb & Sb & Pb). split; [exact Gb|]. split; [now rewrite Sb, put_size|]. rewrite Pb. symmetry. exact Pa.
  - apply IH; assumption.
Qed.

Definition sound (h : str -> N) (done : list str) (s : set) : Prop :=
  Permutation (items (buckets s)) (map (fun n => (h n, n)) done) /\ elts s = N.of_nat (List.length done) /\ (buckets s = [] \/ good (buckets s) /\ 1024 <= size (buckets s)).
Lemma map_nodup (h : str -> N) l : NoDup l -> NoDup (map (fun n => (h n, n)) l).
Proof. induction 1 as [|n l N H IH]; cbn; constructor; [|exact IH]. rewrite in_map_iff. intros (m & E & I). injection E as _ ->. contradiction. Qed.
Lemma insert_sound fuel h done s n s' : sound h done s -> NoDup (n :: done) -> insert fuel s (h n) n = Done s' -> sound h (n :: done) s'.
Proof.
  intros (P & El & G) Nd. unfold insert, bind.
  assert (Nh : NoDup (items (buckets s))) by (eapply Permutation_NoDup; [symmetry; exact P|]; apply map_nodup; now inversion Nd).
  destruct (if size (buckets s) / 2 <=? elts s then _ else Done s) as [s1| |] eqn:E1; try discriminate.
  assert (H1 : Permutation (items (buckets s1)) (items (buckets s)) /\ elts s1 = elts s /\ good (buckets s1) /\ 1024 <= size (buckets s1)).
  { destruct (N.leb_spec (size (buckets s) / 2) (elts s)) as [Le|Lt].
    - unfold grow, bind in E1. destruct (refill _ _ _) as [b| |] eqn:R; try discriminate. injection E1 as <-. cbn [buckets elts].
      set (sz := if size (buckets s) <? 1024 then 1024 else size (buckets s) * 2) in *.
      assert (Sz : pow2 sz /\ 1024 <= sz).
      { unfold sz. destruct (N.ltb_spec (size (buckets s)) 1024) as [L1|L1]; [split; [exists 10; reflexivity|lia]|]. split; [|lia]. destruct G as [G|(G & _)]; [rewrite G in L1; cbn in L1; lia|].
        destruct (g_pow _ G) as (k & ->). exists (k + 1). rewrite N.pow_add_r. reflexivity. }
      assert (Gr : good (repeat None (N.to_nat sz))) by (apply repeat_good; rewrite Nnat.N2Nat.id; apply Sz).
      assert (Nd2 : NoDup (items (buckets s) ++ items (repeat None (N.to_nat sz)))) by (rewrite repeat_items, app_nil_r; exact Nh). destruct (refill_good fuel _ _ _ Gr Nd2 R) as (Gb & Sb & Pb). rewrite repeat_items, app_nil_r in Pb.
      split; [exact Pb|]. split; [reflexivity|]. split; [exact Gb|]. rewrite Sb. unfold size. rewrite repeat_length, Nnat.N2Nat.id. apply Sz.
    - injection E1 as <-. split; [apply Permutation_refl|]. split; [reflexivity|]. destruct G as [G|G]; [|exact G]. rewrite G in Lt. cbn in Lt. lia. }
  destruct H1 as (P1 & El1 & G1 & Z1). destruct (probe _ _ _ _ _ _) as [i| |] eqn:Pr; try discriminate. destruct (at_ (buckets s1) i) as [y|] eqn:Ei; [discriminate|].
  intro E. injection E as <-. pose proof (probe_absent _ _ _ _ _ G1 Pr Ei) as Ab. apply probe_spec in Pr as (p & _ & -> & B & _). change (slot (size (buckets s1)) (start_of (size (buckets s1)) (h n)) p) with (way (buckets s1) (h n, n) p) in *.
  assert (Lt : way (buckets s1) (h n, n) p < size (buckets s1)) by apply slot_lt, G1. repeat split; cbn [buckets elts map].
  - rewrite put_items by assumption. constructor. now rewrite P1.
  - rewrite El1, El. cbn [List.length]. lia.
  - right. split; [|now rewrite put_size]. apply put_good; auto. intros q Hq. destruct (B q) as (z & Ez & _); [lia|]. now exists z.
Qed.
Lemma NoDup_app_r {A} (a b : list A) : NoDup (a ++ b) -> NoDup b.
Proof. induction a as [|x a IH]; [auto|]. cbn. intro H. inversion H; auto. Qed.
Lemma inserts_sound fuel h : forall l done s s', sound h done s -> NoDup (rev l ++ done) -> inserts fuel h l s = Done s' -> sound h (rev l ++ done) s'.
Proof.
  induction l as [|n l IH]; intros done s s' S Nd; cbn [inserts rev app]; [intro E; now injection E as <-|]. cbn [rev] in Nd. rewrite <- app_assoc in *. cbn [app] in *.
  unfold bind. destruct (insert fuel s (h n) n) as [s1| |] eqn:E; try discriminate. intro E'. apply (IH (n :: done) s1 s'); [|exact Nd|exact E'].
  apply (insert_sound fuel h done s n s1 S); [|exact E]. apply NoDup_app_r in Nd. exact Nd.
Qed.
Lemma find_sound fuel h done s n r : sound h done s -> find fuel s (h n) n = Done r -> (In n done -> r = Some (h n, n)) /\ (~ In n done -> r = None).
Proof.
  intros (P & _ & G). unfold find.
  assert (In1 : In (h n, n) (items (buckets s)) <-> In n done).
  { rewrite P, in_map_iff. split; [intros (m & E & I); now injection E as _ <-|intro I; now exists n]. }
  destruct (buckets s) as [|o b] eqn:B; [intro E; injection E as <-; split; [intro I; apply In1 in I; destruct I|reflexivity]|]. rewrite <- B in *.
  destruct G as [G|(G & _)]; [congruence|]. unfold bind. destruct (probe _ _ _ _ _ _) as [i| |] eqn:Pr; try discriminate. intro E. injection E as <-.
  pose proof (probe_spec _ _ _ _ _ _ _ Pr) as (p & _ & _ & _ & [Q|Q]).
  - rewrite Q. pose proof (probe_absent _ _ _ _ _ G Pr Q). split; [tauto|reflexivity].
  - rewrite Q. split; [reflexivity|]. intro N. exfalso. apply N, In1, items_at. eexists; exact Q.
Qed.
Lemma find_ends h done s n : sound h done s -> In n done -> exists k, forall fuel, (k <= fuel)%nat -> find fuel s (h n) n = Done (Some (h n, n)).
Proof.
  intros (P & _ & G) I. assert (In1 : In (h n, n) (items (buckets s))) by (rewrite P, in_map_iff; now exists n).
  destruct G as [G|(G & _)]; [rewrite G in In1; destruct In1|]. apply items_at in In1 as (i & Ei). destruct (g_way _ G i _ Ei) as (p & -> & B).
  exists (S (N.to_nat p)). intros fuel K. unfold find, bind. destruct (buckets s) as [|o b] eqn:Bs; [cbn in Ei; unfold at_ in Ei; destruct (N.to_nat _); discriminate|]. rewrite <- Bs in *.
  rewrite (probe_present _ (h n) n p B Ei (N.to_nat p) 0 fuel); [now rewrite Ei|lia|lia].
Qed.

(** * The end, when few buckets are taken *)
Lemma odd_half m : forall u v, N.odd u = true -> N.divide (2 ^ N.of_nat m) (u * v) -> N.divide (2 ^ N.of_nat m) v.
Proof.
  induction m as [|m IH]; intros u v O D; [exists v; cbn; lia|]. rewrite Nnat.Nat2N.inj_succ, N.pow_succ_r' in *. destruct D as (z & E).
  assert (Ev : N.even v = true).
  { assert (Q : N.even (u * v) = true) by (rewrite E, N.mul_assoc, (N.mul_comm z 2), <- N.mul_assoc; rewrite N.even_mul; reflexivity). rewrite N.even_mul in Q. rewrite <- N.negb_odd, O in Q. exact Q. }
  apply N.even_spec in Ev as (v' & ->). destruct (IH u v' O) as (y & Ey); [exists z; nia|]. exists y. nia.
Qed.
Lemma squares_apart k i j : i < j -> j < 2 ^ N.of_nat k -> ((2 * i + 1) * (2 * i + 1)) mod 2 ^ N.of_nat (k + 3) <> ((2 * j + 1) * (2 * j + 1)) mod 2 ^ N.of_nat (k + 3).
Proof.
  intros H Hj E. set (M := 2 ^ N.of_nat (k + 3)) in *. assert (Mp : M <> 0) by (apply N.pow_nonzero; lia).
  assert (EM : M = 4 * 2 ^ N.of_nat (k + 1)) by (unfold M; replace (N.of_nat (k + 3)) with (2 + N.of_nat (k + 1)) by lia; rewrite N.pow_add_r; reflexivity).
  assert (E2 : 2 ^ N.of_nat (k + 1) = 2 * 2 ^ N.of_nat k) by (replace (N.of_nat (k + 1)) with (1 + N.of_nat k) by lia; rewrite N.pow_add_r; reflexivity).
  pose proof (N.div_mod ((2 * i + 1) * (2 * i + 1)) M Mp) as Di. pose proof (N.div_mod ((2 * j + 1) * (2 * j + 1)) M Mp) as Dj. rewrite E in Di.
  set (qi := (2 * i + 1) * (2 * i + 1) / M) in *. set (qj := (2 * j + 1) * (2 * j + 1) / M) in *. set (r := ((2 * j + 1) * (2 * j + 1)) mod M) in *.
  assert (Q : M * qi < M * qj) by nia. assert (Q2 : qi < qj) by nia.
  assert (D : N.divide (2 ^ N.of_nat (k + 1)) ((j - i) * (j + i + 1))).
  { exists (qj - qi). apply (N.mul_cancel_l _ _ 4); [lia|]. replace (4 * ((qj - qi) * 2 ^ N.of_nat (k + 1))) with (M * qj - M * qi) by (rewrite EM; nia).
    replace (j) with (i + (j - i)) in * by lia. set (d := j - i) in *. replace (i + d - i) with d by lia. nia. }
  destruct (N.odd (j - i)) eqn:O.
  - apply odd_half in D; [|exact O]. apply N.divide_pos_le in D; [|lia]. nia.
  - rewrite N.mul_comm in D. apply odd_half in D; [apply N.divide_pos_le in D; lia|]. replace (j + i + 1) with (2 * i + 1 + (j - i)) by lia. rewrite N.odd_add, O, N.odd_add, N.odd_mul. reflexivity.
Qed.
Definition taken (b : list (option item)) : list N := map N.of_nat (filter (fun i => match nth i b None with Some _ => true | None => false end) (seq 0 (List.length b))).
Lemma taken_length b : List.length (taken b) = List.length (items b).
Proof.
  unfold taken. rewrite map_length.
  assert (H : forall a, List.length (filter (fun i => match nth i (a ++ b) None with Some _ => true | None => false end) (seq (List.length a) (List.length b))) = List.length (items b)); [|apply (H [])].
  induction b as [|o b IH]; intro a; [reflexivity|]. cbn [List.length seq filter items flat_map]. fold (items b). rewrite app_nth2, Nat.sub_diag by lia. cbn [nth].
  specialize (IH (a ++ [o])). rewrite <- app_assoc in IH. cbn [app] in IH. rewrite app_length in IH. cbn [List.length] in IH. rewrite Nat.add_1_r in IH. destruct o; cbn [List.length app]; now rewrite IH.
Qed.
Lemma taken_in b i y : at_ b i = Some y -> In i (taken b).
Proof.
  unfold at_, taken. intro E. apply in_map_iff. exists (N.to_nat i). split; [apply Nnat.N2Nat.id|]. apply filter_In. rewrite E. split; [|reflexivity]. apply in_seq.
  destruct (Nat.lt_ge_cases (N.to_nat i) (List.length b)) as [H|H]; [lia|]. rewrite nth_overflow in E by exact H. discriminate.
Qed.
(** With fewer than an eighth of the buckets taken, one of the probes meets a free one. *)
Lemma some_free b s k : size b = 2 ^ N.of_nat (k + 3) -> N.of_nat (List.length (items b)) < 2 ^ N.of_nat k -> exists p, p < 2 ^ N.of_nat (k + 1) /\ at_ b (slot (size b) s p) = None.
Proof.
  intros Sz Few. assert (P : pow2 (size b)) by (exists (N.of_nat (k + 3)); exact Sz).
  assert (E2 : 2 ^ N.of_nat (k + 1) = 2 * 2 ^ N.of_nat k) by (replace (N.of_nat (k + 1)) with (1 + N.of_nat k) by lia; rewrite N.pow_add_r; reflexivity).
  set (probes := map (fun j => slot (size b) s (2 * N.of_nat j + 1)) (seq 0 (N.to_nat (2 ^ N.of_nat k)))).
  assert (Nd : NoDup probes).
  { unfold probes.
    assert (Inj : forall a c, (a < N.to_nat (2 ^ N.of_nat k))%nat -> (c < N.to_nat (2 ^ N.of_nat k))%nat -> slot (size b) s (2 * N.of_nat a + 1) = slot (size b) s (2 * N.of_nat c + 1) -> a = c).
    { assert (One : forall a c, (a < c)%nat -> (c < N.to_nat (2 ^ N.of_nat k))%nat -> slot (size b) s (2 * N.of_nat a + 1) <> slot (size b) s (2 * N.of_nat c + 1)).
      { intros a c H Hc E. rewrite !slot_mod in E by exact P. apply (squares_apart k (N.of_nat a) (N.of_nat c)); [lia|lia|]. rewrite Sz in E.
        set (M := 2 ^ N.of_nat (k + 3)) in *. assert (Mp : M <> 0) by (apply N.pow_nonzero; lia). set (x := (2 * N.of_nat a + 1) * (2 * N.of_nat a + 1)) in *. set (y := (2 * N.of_nat c + 1) * (2 * N.of_nat c + 1)) in *.
        assert (Lt : s mod M < M) by now apply N.mod_lt.
        assert (Back : forall z, z mod M = ((s + z) mod M + (M - s mod M)) mod M).
        { intro z. rewrite N.add_mod_idemp_l by exact Mp. pose proof (N.div_mod s M Mp) as Ds. replace (s + z + (M - s mod M)) with (z + (s / M + 1) * M) by nia. now rewrite N.mod_add. }
        rewrite (Back x), (Back y), E. reflexivity. }
      intros a c Ha Hc E. destruct (Nat.lt_trichotomy a c) as [H|[H|H]]; [|exact H|]; exfalso; [now apply (One a c)|symmetry in E; now apply (One c a)]. }
    clear -Inj. assert (G : forall l, NoDup l -> (forall x, In x l -> (x < N.to_nat (2 ^ N.of_nat k))%nat) -> NoDup (map (fun j => slot (size b) s (2 * N.of_nat j + 1)) l)).
    { induction 1 as [|x l N H IH]; intro B; cbn [map]; constructor; [|apply IH; intros; apply B; now right]. rewrite in_map_iff. intros (y & E & I). apply Inj in E; [subst; contradiction|apply B; now right|apply B; now left]. }
    apply G; [apply seq_NoDup|]. intros x I. apply in_seq in I. lia. }
  destruct (List.existsb (fun j => match at_ b (slot (size b) s (2 * N.of_nat j + 1)) with None => true | Some _ => false end) (seq 0 (N.to_nat (2 ^ N.of_nat k)))) eqn:X.
  - apply existsb_exists in X as (j & Ij & E). apply in_seq in Ij. destruct (at_ b _) eqn:Q in E; [discriminate|]. exists (2 * N.of_nat j + 1). split; [lia|exact Q].
  - exfalso. assert (Sub : incl probes (taken b)).
    { intros i I. apply in_map_iff in I as (j & <- & Ij). destruct (at_ b (slot (size b) s (2 * N.of_nat j + 1))) as [y|] eqn:Q; [now apply taken_in in Q|]. exfalso.
      assert (Y : existsb (fun j => match at_ b (slot (size b) s (2 * N.of_nat j + 1)) with None => true | Some _ => false end) (seq 0 (N.to_nat (2 ^ N.of_nat k))) = true)
        by (apply existsb_exists; exists j; split; [exact Ij|now rewrite Q]). congruence. }
    apply (NoDup_incl_length Nd) in Sub. unfold probes in Sub. rewrite map_length, seq_length, taken_length in Sub. lia.
Qed.
Lemma probe_ends b s h n p : at_ b (slot (size b) s p) = None -> forall m q fuel, p = q + N.of_nat m -> (m < fuel)%nat -> exists i, probe fuel b s q h n = Done i.
Proof.
  intro E. induction m as [|m IH]; intros q fuel Ep K; (destruct fuel as [|fuel]; [lia|]); cbn [probe].
  - replace q with p by lia. rewrite E. now eexists.
  - destruct (at_ b (slot (size b) s q)) as [[h' n']|]; [|now eexists]. destruct (_ && _); [now eexists|]. apply IH; lia.
Qed.
