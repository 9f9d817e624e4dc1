(** C65: the shared table of file records. *)
From Coq Require Import String List Arith NArith Bool Ascii Lia Permutation.
From Verif Require Import M_Path.
From Verif Require M_Tok P_Tok.
From Verif Require Import M_Probe P_Probe.
Import ListNotations.
Import M_Tok(seqb, res, Done, Fail, NoFuel, bind).
Open Scope N_scope.

Lemma start_sound h : sound h [] empty.
Proof. split; [apply Permutation_refl|]. split; [reflexivity|now left]. Qed.
Lemma names_sound fuel h names s : NoDup names -> inserts fuel h names empty = Done s -> sound h (rev names) s.
Proof. intros N E. rewrite <- (app_nil_r (rev names)). apply (inserts_sound fuel h names [] empty s (start_sound h)); [|exact E]. rewrite app_nil_r. now apply NoDup_rev. Qed.

(** A lookup that ends finds the record of that name if there is one, and nothing otherwise, however often the table has grown. *)
Theorem C65_map : forall fuel fuel' h names s n r, NoDup names -> inserts fuel h names empty = Done s -> find fuel' s (h n) n = Done r ->
  (In n names -> r = Some (h n, n)) /\ (~ In n names -> r = None).
Proof. intros fuel fuel' h names s n r N E F. pose proof (find_sound fuel' h _ s n r (names_sound _ _ _ _ N E) F) as (A & B). rewrite <- in_rev in A, B. now split. Qed.
Print Assumptions C65_map.
(** The lookup of a name that is there ends. *)
Theorem C65_found : forall fuel h names s n, NoDup names -> inserts fuel h names empty = Done s -> In n names ->
  exists k, forall fuel', (k <= fuel')%nat -> find fuel' s (h n) n = Done (Some (h n, n)).
Proof. intros fuel h names s n N E I. apply (find_ends h (rev names) s n (names_sound _ _ _ _ N E)). now apply in_rev in I. Qed.
Print Assumptions C65_found.

Lemma refill_no_fail fuel : forall old new, refill fuel old new <> Fail.
Proof.
  assert (F : forall f b s p, free_slot f b s p <> Fail) by (induction f; intros b s p; cbn [free_slot]; [discriminate|]; destruct (at_ b _); [apply IHf|discriminate]).
  induction old as [|[x|] old IH]; intro new; cbn [refill]; [discriminate| |apply IH]. specialize (F fuel new (start_of (size new) (fst x)) 0). unfold bind. destruct (free_slot _ _ _ _); [apply IH|contradiction|discriminate].
Qed.
Lemma probe_no_fail b h n : forall f s p, probe f b s p h n <> Fail.
Proof. induction f as [|f IH]; intros s p; cbn [probe]; [discriminate|]. destruct (at_ b _) as [[h' n']|]; [|discriminate]. destruct (_ && _); [discriminate|apply IH]. Qed.
(** The assertion of Insert holds: a record that was never inserted has a free bucket found for it. *)
Theorem C65_assert : forall fuel h names, NoDup names -> inserts fuel h names empty <> Fail.
Proof.
  intros fuel h names N. assert (G : forall l done s, sound h done s -> NoDup (rev l ++ done) -> inserts fuel h l s <> Fail).
  { induction l as [|n l IH]; intros done s S Nd; cbn [inserts]; [discriminate|]. cbn [rev] in Nd. rewrite <- app_assoc in Nd. cbn [app] in Nd. pose proof (NoDup_app_r _ _ Nd) as Nn.
    unfold bind at 1. destruct (insert fuel s (h n) n) as [s1| |] eqn:E; [apply (IH (n :: done)); [now apply (insert_sound fuel h done s n s1)|exact Nd]| |discriminate]. exfalso.
    (* the bucket that was found holds this very record *)
    unfold insert, bind in E. destruct (if size (buckets s) / 2 <=? elts s then _ else Done s) as [s1| |] eqn:E1; try discriminate.
    - destruct (probe _ _ _ _ _ _) as [i| |] eqn:Pr; try discriminate; [|now apply probe_no_fail in Pr]. destruct (at_ (buckets s1) i) as [y|] eqn:Ei; [|discriminate].
      pose proof (probe_spec _ _ _ _ _ _ _ Pr) as (p & _ & _ & _ & [Q|Q]); [congruence|].
      assert (I : In (h n, n) (items (buckets s1))) by (apply items_at; now exists i).
      assert (Pm : Permutation (items (buckets s1)) (items (buckets s))).
      { destruct S as (P & _ & Gd). destruct (_ <=? _); [|injection E1 as <-; apply Permutation_refl]. unfold grow, bind in E1. destruct (refill _ _ _) as [b| |] eqn:R; try discriminate. injection E1 as <-. cbn [buckets].
        set (sz := if size (buckets s) <? 1024 then 1024 else size (buckets s) * 2) in *.
        assert (Sz : pow2 sz).
        { unfold sz. destruct (N.ltb_spec (size (buckets s)) 1024) as [L1|L1]; [exists 10; reflexivity|]. destruct Gd as [Gd|(Gd & _)]; [rewrite Gd in L1; cbn in L1; lia|].
          destruct (g_pow _ Gd) as (k & ->). exists (k + 1). rewrite N.pow_add_r. reflexivity. }
        assert (Gr : good (repeat None (N.to_nat sz))) by (apply repeat_good; rewrite Nnat.N2Nat.id; exact Sz).
        assert (Nd2 : NoDup (items (buckets s) ++ items (repeat None (N.to_nat sz)))).
        { rewrite repeat_items, app_nil_r. apply (Permutation_NoDup (Permutation_sym P)). apply map_nodup. now inversion Nn. }
        destruct (refill_good fuel _ _ _ Gr Nd2 R) as (_ & _ & Pb). now rewrite repeat_items, app_nil_r in Pb. }
      destruct S as (P & _). rewrite Pm, P in I. apply in_map_iff in I as (m & Em & Im). injection Em as _ ->. inversion Nn; contradiction.
    - destruct (_ <=? _); [|discriminate]. unfold grow, bind in E1. destruct (refill _ _ _) as [b| |] eqn:R; try discriminate. now apply refill_no_fail in R. }
  apply (G names [] empty (start_sound h)). rewrite app_nil_r. now apply NoDup_rev.
Qed.
Print Assumptions C65_assert.

(** While less than an eighth of the buckets is taken, every lookup ends. *)
Theorem C65_sparse : forall fuel h names s n, NoDup names -> inserts fuel h names empty = Done s -> 8 * N.of_nat (List.length names) < size (buckets s) ->
  exists k, forall fuel', (k <= fuel')%nat -> exists r, find fuel' s (h n) n = Done r.
Proof.
  intros fuel h names s n N E Few. pose proof (names_sound _ _ _ _ N E) as (P & _ & [B|(G & Z)]); [rewrite B in Few; cbn in Few; lia|].
  destruct (g_pow _ G) as (k & Sz). assert (K : 3 <= k). { destruct (N.lt_ge_cases k 3) as [L|L]; [|exact L]. assert (2 ^ k < 2 ^ 3) by (apply N.pow_lt_mono_r; lia). cbn in *. lia. }
  destruct (some_free (buckets s) (start_of (size (buckets s)) (h n)) (N.to_nat (k - 3))) as (p & _ & F).
  - rewrite Sz. f_equal. lia.
  - apply Permutation_length in P. rewrite P, map_length, rev_length. replace (N.of_nat (N.to_nat (k - 3))) with (k - 3) by lia. rewrite Sz in Few.
    assert (E8 : 2 ^ k = 8 * 2 ^ (k - 3)) by (replace k with (3 + (k - 3)) at 1 by lia; rewrite N.pow_add_r; reflexivity). lia.
  - exists (S (N.to_nat p)). intros fuel' K'. unfold find, bind. destruct (buckets s) as [|o b] eqn:Bs; [cbn in Z; lia|]. rewrite <- Bs in *.
    destruct (probe_ends _ _ (h n) n p F (N.to_nat p) 0 fuel') as (i & ->); [lia|lia|now eexists].
Qed.
Print Assumptions C65_sparse.
Lemma few_inserts h : forall l done s fuel, (257 <= fuel)%nat -> sound h done s -> NoDup (rev l ++ done) -> (List.length l + List.length done < 128)%nat -> (buckets s = [] /\ done = [] \/ size (buckets s) = 1024) ->
  exists s', inserts fuel h l s = Done s' /\ (l = [] \/ size (buckets s') = 1024).
Proof.
  induction l as [|n l IH]; intros done s fuel K S Nd Few Sz; cbn [inserts]; [exists s; auto|]. cbn [rev] in Nd. rewrite <- app_assoc in Nd. cbn [app] in Nd. cbn [List.length] in Few.
  assert (I1 : exists s1, insert fuel s (h n) n = Done s1 /\ size (buckets s1) = 1024).
  { pose proof S as (P & El & _). assert (Go : forall s2, size (buckets s2) = 1024 -> (List.length (items (buckets s2)) < 128)%nat -> (forall i, at_ (buckets s2) i <> Some (h n, n)) ->
      exists s1, bind (probe fuel (buckets s2) (start_of (size (buckets s2)) (h n)) 0 (h n) n) (fun i => match at_ (buckets s2) i with Some _ => Fail | None => Done {| buckets := put (buckets s2) i (h n, n); elts := elts s2 + 1 |} end) = Done s1 /\ size (buckets s1) = 1024).
    { intros s2 Z2 F2 No. destruct (some_free (buckets s2) (start_of (size (buckets s2)) (h n)) 7) as (p & Lp & F); [exact Z2|change (2 ^ N.of_nat 7) with 128; lia|].
      change (2 ^ N.of_nat (7 + 1)) with 256 in Lp. destruct (probe_ends _ _ (h n) n p F (N.to_nat p) 0 fuel) as (i & Ei); [lia|lia|]. unfold bind. rewrite Ei.
      apply probe_spec in Ei as (p' & _ & _ & _ & [Q|Q]); [|now apply No in Q]. rewrite Q. eexists. split; [reflexivity|]. cbn [buckets]. now rewrite put_size. }
    unfold insert. destruct Sz as [(Sb & ->)|Sz].
    - rewrite Sb. cbn [size List.length] in *. change (size [] / 2 <=? elts s) with (0 <=? elts s). destruct (N.leb_spec 0 (elts s)); [|lia]. change (size [] <? 1024) with true. cbn [bind]. unfold grow. rewrite Sb. cbn [refill bind buckets].
      apply (Go {| buckets := repeat None (N.to_nat 1024); elts := elts s |}); cbn [buckets].
      + unfold size. now rewrite repeat_length, Nnat.N2Nat.id.
      + rewrite repeat_items. cbn. lia.
      + intros i Q. assert (X : In (h n, n) (items (repeat None (N.to_nat 1024)))) by (apply items_at; now exists i). rewrite repeat_items in X. destruct X.
    - rewrite Sz. change (1024 / 2) with 512. destruct (N.leb_spec 512 (elts s)) as [Q|_]; [lia|]. cbn [bind].
      apply (Go s Sz); [apply Permutation_length in P; rewrite P, map_length; lia|]. intros i Q. assert (X : In (h n, n) (items (buckets s))) by (apply items_at; now exists i).
      rewrite P in X. apply in_map_iff in X as (m & Em & Im). injection Em as _ ->. apply NoDup_app_r in Nd. inversion Nd; contradiction. }
  destruct I1 as (s1 & E1 & Z1). unfold bind. rewrite E1. destruct (IH (n :: done) s1 fuel K) as (s' & E' & Z'); [|exact Nd|cbn [List.length]; lia|now right|].
  - apply (insert_sound fuel h done s n s1 S); [now apply NoDup_app_r in Nd|exact E1].
  - exists s'. split; [exact E'|]. right. destruct Z' as [->|Z']; [cbn in E'; now injection E' as <-|exact Z'].
Qed.
(** Up to 127 records, everything ends. *)
Theorem C65_few : forall h names n, NoDup names -> (List.length names < 128)%nat ->
  exists s k, forall fuel, (k <= fuel)%nat -> inserts fuel h names empty = Done s /\ exists r, find fuel s (h n) n = Done r.
Proof.
  intros h names n Nd Few.
  assert (More : forall fuel fuel' l s s', (257 <= fuel)%nat -> (257 <= fuel')%nat -> sound h [] s -> s = empty -> NoDup (rev l ++ []) -> (List.length l < 128)%nat -> inserts fuel h l s = Done s' -> inserts fuel' h l s = Done s').
  { assert (Pm : forall b s0 n f f' p i, (f <= f')%nat -> probe f b s0 p (h n) n = Done i -> probe f' b s0 p (h n) n = Done i).
    { intros b s0 m. induction f as [|f IH]; intros f' p i Le; [discriminate|]. destruct f' as [|f']; [lia|]. cbn [probe]. destruct (at_ b _) as [[h' n']|]; [|auto]. destruct (_ && _); [auto|]. apply IH. lia. }
    assert (Fm : forall b s0 f f' p i, (f <= f')%nat -> free_slot f b s0 p = Done i -> free_slot f' b s0 p = Done i).
    { intros b s0. induction f as [|f IH]; intros f' p i Le; [discriminate|]. destruct f' as [|f']; [lia|]. cbn [free_slot]. destruct (at_ b _); [|auto]. apply IH. lia. }
    assert (Rm : forall f f' old new b, (f <= f')%nat -> refill f old new = Done b -> refill f' old new = Done b).
    { intros f f'. induction old as [|[x|] old IH]; intros new b Le; cbn [refill]; auto. unfold bind. destruct (free_slot f _ _ _) as [i| |] eqn:E; try discriminate. rewrite (Fm _ _ f f' _ i Le E). now apply IH. }
    assert (Im : forall f f' l s s', (f <= f')%nat -> inserts f h l s = Done s' -> inserts f' h l s = Done s').
    { intros f f'. induction l as [|m l IH]; intros s s' Le; cbn [inserts]; auto. unfold bind. destruct (insert f s (h m) m) as [s1| |] eqn:E; try discriminate.
      assert (E' : insert f' s (h m) m = Done s1).
      { unfold insert, bind in *. destruct (if size (buckets s) / 2 <=? elts s then grow f _ s else Done s) as [s2| |] eqn:G; try discriminate.
        assert (G' : (if size (buckets s) / 2 <=? elts s then grow f' (if size (buckets s) <? 1024 then 1024 else size (buckets s) * 2) s else Done s) = Done s2).
        { destruct (_ <=? _); [|exact G]. unfold grow, bind in *. destruct (refill f _ _) as [b| |] eqn:R; try discriminate. now rewrite (Rm f f' _ _ b Le R). }
        rewrite G'. destruct (probe f _ _ _ _ _) as [i| |] eqn:P; try discriminate. now rewrite (Pm _ _ _ f f' _ i Le P). }
      rewrite E'. now apply IH. }
    intros fuel fuel' l s s' K K' S -> N F E. destruct (few_inserts h l [] empty fuel' K' S N) as (s2 & E2 & _); [cbn; lia|now left|].
    destruct (Nat.le_ge_cases fuel fuel') as [Le|Le]; [now apply (Im fuel fuel')|]. pose proof (Im fuel' fuel l empty s2 Le E2) as E3. congruence. }
  destruct (few_inserts h names [] empty 257 (le_n _) (start_sound h)) as (s & E & Z); [rewrite app_nil_r; now apply NoDup_rev|cbn; lia|now left|].
  destruct names as [|m names].
  { exists empty, 257%nat. intros fuel K. split; [reflexivity|now eexists]. }
  destruct Z as [Z|Z]; [discriminate|]. destruct (C65_sparse 257 h (m :: names) s n Nd E) as (k & F); [rewrite Z; lia|]. exists s, (257 + k)%nat. intros fuel K. split; [|apply F; lia].
  apply (More 257%nat fuel (m :: names) empty s); auto; try lia; [apply start_sound|rewrite app_nil_r; now apply NoDup_rev].
Qed.
Print Assumptions C65_few.
Example C65_case : NoDup [L "/p/a.c"; L "/i/b.h"; L "/i/c.h"] /\ (3 < 128)%nat.
Proof. split; [|lia]. repeat constructor; cbn; intuition discriminate. Qed.

(** ** A lookup that does not end.  The probes of a lookup are at the squares from its start.  257 records on the squares leave more than three
    quarters of the buckets free, but a lookup of another name from there never meets one. *)
Definition name (i : N) : str := repeat "a"%char (N.to_nat i).
Definition target : str := ["b"%char].
Definition h_of (n : str) : N := match n with c :: _ => if Ascii.eqb c "b" then 0 else N.of_nat (List.length n) | [] => 0 end.
Lemma h_name i : h_of (name i) = i.
Proof.
  unfold name. destruct (N.to_nat i) as [|k] eqn:E; [cbn; lia|]. cbn [repeat h_of]. change (Ascii.eqb "a" "b") with false. cbn [List.length]. rewrite repeat_length. lia.
Qed.
Definition squares : list N := nodup N.eq_dec (map (fun p => (N.of_nat p * N.of_nat p) mod 1024) (seq 0 257)).
Lemma squares_lt i : In i squares -> i < 1024.
Proof. unfold squares. rewrite nodup_In, in_map_iff. intros (p & <- & _). now apply N.mod_lt. Qed.
Lemma all_squares p : In ((p * p) mod 1024) squares.
Proof.
  assert (H : forall r, r <= 256 -> In ((r * r) mod 1024) squares).
  { intros r H. unfold squares. apply nodup_In, in_map_iff. exists (N.to_nat r). rewrite Nnat.N2Nat.id. split; [reflexivity|]. apply in_seq. lia. }
  pose proof (N.div_mod p 512 ltac:(lia)) as D. pose proof (N.mod_lt p 512 ltac:(lia)) as Lt. set (a := p / 512) in *. set (r := p mod 512) in *.
  assert (E : (p * p) mod 1024 = (r * r) mod 1024) by (replace (p * p) with (r * r + (256 * a * a + a * r) * 1024) by (rewrite D; ring); now rewrite N.mod_add).
  rewrite E. destruct (N.le_gt_cases r 256) as [Le|Gt]; [now apply H|]. replace ((r * r) mod 1024) with (((512 - r) * (512 - r)) mod 1024); [apply H; lia|].
  set (r' := 512 - r). replace r with (512 - r') by lia. assert (r' <= 512) by lia. replace ((512 - r') * (512 - r')) with (r' * r' + (256 - r') * 1024); [now rewrite N.mod_add|]. assert (r' < 256) by lia. nia.
Qed.
Lemma straight : forall l s, size (buckets s) = 1024 -> NoDup l -> (forall i, In i l -> i < 1024 /\ at_ (buckets s) i = None) -> elts s + N.of_nat (List.length l) < 512 ->
  exists s', inserts 1 h_of (map name l) s = Done s' /\ size (buckets s') = 1024 /\ (forall i, In i l -> at_ (buckets s') i = Some (i, name i)) /\ (forall i x, at_ (buckets s) i = Some x -> at_ (buckets s') i = Some x).
Proof.
  induction l as [|i l IH]; intros s Sz Nd Fr El; cbn [map inserts].
  - exists s. split; [reflexivity|]. split; [exact Sz|]. split; [intros i []|auto].
  - destruct (Fr i (or_introl eq_refl)) as (Li & Fi). rewrite h_name.
    assert (P10 : pow2 1024) by (exists 10; reflexivity).
    assert (St : slot 1024 (start_of 1024 i) 0 = i) by (rewrite slot_mod by exact P10; unfold start_of; rewrite land_mod by exact P10; rewrite N.add_0_r, N.mod_mod by lia; now apply N.mod_small).
    set (s1 := {| buckets := put (buckets s) i (i, name i); elts := elts s + 1 |}).
    assert (E : insert 1 s i (name i) = Done s1).
    { unfold insert. rewrite Sz. change (1024 / 2) with 512. cbn [List.length] in El. destruct (N.leb_spec 512 (elts s)) as [Q|_]; [lia|]. cbn [bind]. rewrite Sz. cbn [probe]. rewrite Sz, St, Fi. cbn [bind]. now rewrite Fi. }
    unfold bind. rewrite E. inversion Nd as [|? ? Ni Nl]; subst. destruct (IH s1) as (s' & E' & Sz' & All & Old).
    + unfold s1. cbn [buckets]. now rewrite put_size.
    + exact Nl.
    + intros j Ij. destruct (Fr j (or_intror Ij)) as (Lj & Fj). split; [exact Lj|]. unfold s1. cbn [buckets]. rewrite put_at by (rewrite Sz; exact Li). destruct (N.eqb_spec j i) as [->|]; [contradiction|exact Fj].
    + unfold s1. cbn [elts]. cbn [List.length] in El. lia.
    + exists s'. split; [exact E'|]. split; [exact Sz'|]. split.
      * intros j [<-|Ij]; [|now apply All]. apply Old. unfold s1. cbn [buckets]. rewrite put_at by (rewrite Sz; exact Li). now rewrite N.eqb_refl.
      * intros j x Ej. apply Old. unfold s1. cbn [buckets]. rewrite put_at by (rewrite Sz; exact Li). destruct (N.eqb_spec j i) as [->|]; [congruence|exact Ej].
Qed.
Theorem C65_stuck_refuted : exists h names s n, NoDup names /\ (List.length names <= 257)%nat /\ ~ In n names /\ inserts 1 h names empty = Done s /\ size (buckets s) = 1024 /\ forall fuel, find fuel s (h n) n = NoFuel.
Proof.
  assert (Len : (List.length squares <= 257)%nat).
  { unfold squares. replace 257%nat with (List.length (map (fun p => (N.of_nat p * N.of_nat p) mod 1024) (seq 0 257))) at 2 by (rewrite map_length; apply seq_length).
    apply NoDup_incl_length; [apply NoDup_nodup|]. intros x I. now apply nodup_In in I. }
  assert (Zero : In 0 squares) by (apply (all_squares 0)).
  destruct (in_split 0 squares Zero) as (a & b & Sq).
  assert (Nsq : NoDup squares) by apply NoDup_nodup. pose proof (Permutation_middle a b 0) as Pm. rewrite <- Sq in Pm.
  set (rest := a ++ b) in *. assert (Nr : NoDup (0 :: rest)) by (apply (Permutation_NoDup (Permutation_sym Pm) Nsq)).
  assert (Ir : forall i, In i (0 :: rest) <-> In i squares) by (intro i; split; apply Permutation_in; [exact Pm|now apply Permutation_sym]).
  assert (Lr : (List.length (0%N :: rest) <= 257)%nat) by (rewrite (Permutation_length Pm); exact Len).
  (* the first one makes the table *)
  set (b0 := repeat (@None item) (N.to_nat 1024)). assert (S0 : size b0 = 1024) by (unfold size, b0; now rewrite repeat_length, Nnat.N2Nat.id).
  assert (At0 : forall i, at_ b0 i = None).
  { intro i. destruct (at_ b0 i) as [x|] eqn:E; [|reflexivity]. assert (I : In x (items b0)) by (apply items_at; now exists i). unfold b0 in I. rewrite repeat_items in I. destruct I. }
  destruct (straight rest {| buckets := put b0 0 (0, name 0); elts := 1 |}) as (s & E & Sz & All & Old).
  - cbn [buckets]. now rewrite put_size.
  - now inversion Nr.
  - intros i I. split; [apply squares_lt, Ir; now right|]. cbn [buckets]. rewrite put_at by lia. destruct (N.eqb_spec i 0) as [->|]; [inversion Nr; contradiction|apply At0].
  - cbn [elts List.length] in *. lia.
  - exists h_of, (map name (0 :: rest)), s, target. split; [|split; [|split; [|split; [|split; [exact Sz|]]]]].
    + clear - Nr. induction Nr as [|i l N H IH]; cbn [map]; constructor; [|exact IH]. rewrite in_map_iff. intros (j & Ej & Ij). apply (f_equal h_of) in Ej. rewrite !h_name in Ej. now subst.
    + now rewrite map_length.
    + rewrite in_map_iff. intros (j & Ej & _). unfold name, target in Ej. destruct (N.to_nat j); discriminate.
    + cbn [map inserts]. rewrite h_name. unfold bind at 1.
      assert (E1 : insert 1 empty 0 (name 0) = Done {| buckets := put b0 0 (0, name 0); elts := 1 |}).
      { unfold insert, empty. cbn [buckets elts]. change (size [] / 2 <=? 0) with true. change (size [] <? 1024) with true. unfold grow. cbn [buckets elts refill bind]. fold b0. rewrite S0. cbn [probe]. rewrite S0.
        change (slot 1024 (start_of 1024 0) 0) with 0. rewrite At0. cbn [bind]. rewrite At0. reflexivity. }
      rewrite E1. exact E.
    + change (h_of target) with 0. assert (Occ : forall p, exists i, at_ (buckets s) (slot 1024 0 p) = Some (i, name i)).
      { intro p. exists (slot 1024 0 p). rewrite slot_mod by (exists 10; reflexivity). rewrite N.add_0_l. pose proof (all_squares p) as I. apply Ir in I as [I|I]; [|now apply All].
        rewrite <- I. apply Old. cbn [buckets]. rewrite put_at by lia. reflexivity. }
      assert (Nf : forall fuel p, probe fuel (buckets s) 0 p 0 target = NoFuel).
      { induction fuel as [|fuel IH]; intro p; [reflexivity|]. cbn [probe]. rewrite Sz. destruct (Occ p) as (i & ->).
        destruct (_ && _) eqn:Q; [|apply IH]. apply same_item in Q. injection Q as _ Q. unfold name, target in Q. destruct (N.to_nat i); discriminate. }
      intro fuel. unfold find. destruct (buckets s) as [|o bb] eqn:Bs; [cbn in Sz; discriminate|]. rewrite <- Bs in *. rewrite Sz. change (start_of 1024 0) with 0. unfold bind. now rewrite Nf.
Qed.
Print Assumptions C65_stuck_refuted.
