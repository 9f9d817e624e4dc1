(** C24: publishing to the cache is atomic.  C25: trimming.  C52: names of cache entries. *)
From Coq Require Import List Arith NArith Bool Ascii String Permutation Lia.
From Verif Require Import M_Path M_Args M_Sort S_Sort T_Sort M_Cache S_Cache.
Import ListNotations.
Open Scope nat_scope.

(** ** Trimming *)
Lemma older_weak : strict_weak older.
Proof.
  unfold older. split.
  - intros x. apply N.ltb_irrefl.
  - intros x y z H1 H2. apply N.ltb_lt in H1, H2. apply N.ltb_lt. lia.
  - intros x y z H1 H2 H3 H4. apply N.ltb_ge in H1, H2, H3, H4. split; apply N.ltb_ge; lia.
Qed.

Lemma bytes_app a b : bytes (a ++ b) = (bytes a + bytes b)%N.
Proof. induction a as [|f a IH]; cbn [bytes app]; [reflexivity|]. rewrite IH. lia. Qed.
Lemma bytes_perm a b : Permutation a b -> bytes a = bytes b.
Proof. induction 1; cbn [bytes]; lia. Qed.
Lemma total_bytes l : (bytes l < 2 ^ 64)%N -> total l = bytes l.
Proof.
  induction l as [|f l IH]; cbn [total bytes]; [reflexivity|]. intros H. rewrite IH by lia. apply N.mod_small. exact H.
Qed.

Section Trim.
Variable del : file -> bool.

Lemma trim_loop_spec limit : forall l tot base, (tot = base + bytes l)%N -> (tot < 2 ^ 64)%N ->
  exists d r, trim_loop del limit l tot = (d, (base + bytes r)%N) /\ Permutation l (d ++ r) /\
    (exists p q, l = p ++ q /\ d = filter del p /\ r = filter (fun f => negb (del f)) p ++ q /\ ((base + bytes r <= limit)%N \/ q = [])) /\
    ((limit < tot)%N -> forall d' f, d = d' ++ [f] -> (limit < base + (bytes r + size f))%N).
Proof.
  induction l as [|f l IH]; intros tot base E H.
  - exists [], []. cbn [trim_loop bytes] in *. split; [f_equal; lia|]. split; [constructor|]. split.
    + exists [], []. cbn. repeat split; auto.
    + intros _ d' x K. destruct d'; discriminate.
  - cbn [trim_loop]. cbn [bytes] in E. destruct (del f) eqn:Ed.
    + assert (W : w64 (tot + (2 ^ 64 - size f)) = (base + bytes l)%N).
      { unfold w64. replace (tot + (2 ^ 64 - size f))%N with (base + bytes l + 1 * 2 ^ 64)%N by lia.
        rewrite N.mod_add by lia. apply N.mod_small. lia. }
      rewrite W. destruct (N.leb_spec (base + bytes l) limit) as [Hl|Hl].
      * exists [f], l. split; [reflexivity|]. split; [apply Permutation_refl|]. split.
        -- exists [f], l. cbn [filter app]. rewrite Ed. cbn [negb app]. repeat split; auto.
        -- intros Ht d' x K. destruct d' as [|? d']; [injection K as <-; lia|]. injection K as _ K. destruct d'; discriminate.
      * destruct (IH (base + bytes l)%N base eq_refl ltac:(lia)) as (d & r & E1 & P & (p & q & El & Epd & Er & Q) & M).
        rewrite E1. exists (f :: d), r. split; [reflexivity|]. split; [cbn; constructor; exact P|]. split.
        -- exists (f :: p), q. cbn [filter]. rewrite Ed. cbn [negb]. subst. repeat split; auto.
        -- intros _ d' x K. destruct d' as [|y d'].
           ++ injection K as <- ->. cbn [app] in P. apply bytes_perm in P. lia.
           ++ injection K as <- K. apply (M Hl d' x K).
    + destruct (IH tot (base + size f)%N ltac:(lia) H) as (d & r & E1 & P & (p & q & El & Epd & Er & Q) & M).
      rewrite E1. exists d, (f :: r). cbn [bytes]. split; [f_equal; lia|]. split.
      { etransitivity; [apply perm_skip; exact P|]. apply Permutation_middle. }
      split.
      * exists (f :: p), q. cbn [filter]. rewrite Ed. cbn [negb]. subst. repeat split; auto. destruct Q as [Q|Q]; [left; lia|right; exact Q].
      * intros Ht d' x K. specialize (M Ht d' x K). lia.
Qed.
End Trim.

Lemma ordered_split l a b : ordered older l -> l = a ++ b -> forall x y, In x a -> In y b -> (time x <= time y)%N.
Proof.
  intros O -> x y Hx Hy. apply In_nth_error in Hx as [i Hi]. apply In_nth_error in Hy as [j Hj].
  assert (Li : i < List.length a) by (apply nth_error_Some; congruence).
  assert (older y x = false).
  { apply (O i (List.length a + j)); [lia| |].
    - rewrite nth_error_app1 by exact Li. exact Hi.
    - rewrite nth_error_app2 by lia. replace (_ - _) with j by lia. exact Hj. }
  unfold older in H. apply N.ltb_ge in H. exact H.
Qed.

Lemma filter_In_split {A} (f : A -> bool) l : Permutation l (filter f l ++ filter (fun x => negb (f x)) l).
Proof.
  induction l as [|x l IH]; [constructor|]. cbn [filter]. destruct (f x); cbn [negb app].
  - constructor. exact IH.
  - etransitivity; [apply perm_skip, IH|]. apply Permutation_middle.
Qed.

(** Whatever files there are, whatever their sizes and times, whichever refuse to be deleted: only deletable files go, oldest first;
    nothing goes if the cache fits; the last deletion was needed; what remains fits, unless nothing that remains can be deleted; and
    the figures reported are those of what remains. *)
Theorem C25_trim : forall deletable sizeMiB found, (bytes found < 2 ^ 64)%N ->
  let limit := (sizeMiB * 1048576)%N in
  exists deleted remaining,
    trim deletable sizeMiB found = Some (deleted, bytes remaining, N.of_nat (List.length remaining)) /\
    Permutation found (deleted ++ remaining) /\
    (forall f, In f deleted -> deletable f = true) /\
    (forall f g, In f deleted -> In g remaining -> deletable g = true -> (time f <= time g)%N) /\
    (forall a f b g c, deleted = a ++ f :: b ++ g :: c -> (time f <= time g)%N) /\
    ((bytes found <= limit)%N -> deleted = []) /\
    (forall d f, deleted = d ++ [f] -> (limit < bytes (f :: remaining))%N) /\
    ((bytes remaining <= limit)%N \/ forall g, In g remaining -> deletable g = false).
Proof.
  intros del m found H limit.
  destruct (C26_sort_sorts _ older found) as (l & El & P & O). specialize (O older_weak).
  unfold trim. rewrite El. fold limit. rewrite (total_bytes found H).
  destruct (N.ltb_spec limit (bytes found)) as [Hl|Hl].
  - pose proof (bytes_perm _ _ P) as B.
    destruct (trim_loop_spec del limit l (bytes found) 0 ltac:(lia) H) as (d & r & E1 & P1 & (p & q & Ep & Ed & Er & Q) & M).
    rewrite E1. exists d, r. rewrite N.add_0_l. 
    assert (P2 : Permutation found (d ++ r)) by (etransitivity; eauto).
    split.
    { pose proof (Permutation_length P2) as PL. rewrite app_length in PL. do 2 f_equal. lia. }
    split; [exact P2|]. split; [intros f Hf; subst d; apply filter_In in Hf; tauto|]. split.
    { intros f g Hf Hg Hd. subst d r. apply filter_In in Hf as [Hf _]. apply in_app_or in Hg as [Hg|Hg].
      - apply filter_In in Hg as [_ Hg]. rewrite Hd in Hg. discriminate.
      - eapply (ordered_split l p q); eauto. }
    split.
    { intros a f b g c E. 
      assert (OD : forall p0, ordered older p0 -> forall a b, filter del p0 = a ++ b -> forall x y, In x a -> In y b -> (time x <= time y)%N).
      { clear. induction p0 as [|z p0 IH]; intros O a b E x y Hx Hy.
        - cbn in E. destruct a; [contradiction|discriminate].
        - assert (O' : ordered older p0) by (intros i j u v Hij Hu Hv; apply (O (S i) (S j)); [lia|exact Hu|exact Hv]).
          cbn [filter] in E. destruct (del z).
          + destruct a as [|z' a]; [contradiction|]. injection E as <- E. destruct Hx as [->|Hx].
            * apply (ordered_split (x :: p0) [x] p0 O eq_refl x y); [left; reflexivity|].
              assert (In y (filter del p0)) by (rewrite E; apply in_or_app; auto). apply filter_In in H. tauto.
            * eapply IH; eauto.
          + eapply IH; eauto. }
      assert (Op : ordered older p).
      { intros i j u v Hij Hu Hv. assert (i < List.length p) by (apply nth_error_Some; congruence). assert (j < List.length p) by (apply nth_error_Some; congruence).
        apply (O i j); [exact Hij| |]; subst l; rewrite nth_error_app1 by assumption; assumption. }
      apply (OD p Op (a ++ [f]) (b ++ g :: c)); [rewrite <- Ed, E, <- app_assoc; reflexivity|apply in_or_app; right; left; reflexivity|apply in_or_app; right; left; reflexivity]. }
    split; [intros; lia|]. split.
    { intros d' f E. specialize (M Hl d' f E). cbn [bytes]. lia. }
    destruct Q as [Q|Q]; [left; lia|right]. subst q r. intros g Hg. rewrite app_nil_r in Hg. apply filter_In in Hg as [_ Hg].
    destruct (del g); [discriminate|reflexivity].
  - exists [], found. split; [reflexivity|]. split; [apply Permutation_refl|]. split; [contradiction|]. split; [contradiction|].
    split; [intros a f b g c E; destruct a; discriminate|]. split; [reflexivity|]. split; [intros d f E; destruct d; discriminate|]. left. exact Hl.
Qed.
Print Assumptions C25_trim.

(** ** Names *)
Lemma hexw_length w n : List.length (hexw w n) = w.
Proof. revert n. induction w as [|w IH]; intros n; cbn [hexw]; [reflexivity|]. rewrite app_length, IH. cbn. lia. Qed.
Lemma hex_digit_inj a b : a < 16 -> b < 16 -> hex_digit a = hex_digit b -> a = b.
Proof.
  intros Ha Hb. do 16 (destruct a as [|a]; [do 16 (destruct b as [|b]; [first [reflexivity|discriminate]|]); lia|]). lia.
Qed.
Lemma hexw_inj w : forall n m, (n < 16 ^ N.of_nat w)%N -> (m < 16 ^ N.of_nat w)%N -> hexw w n = hexw w m -> n = m.
Proof.
  induction w as [|w IH]; intros n m Hn Hm E.
  - cbn in Hn, Hm. lia.
  - cbn [hexw] in E. apply app_inj_tail in E as [E1 E2].
    rewrite Nat2N.inj_succ, N.pow_succ_r' in Hn, Hm.
    assert (n / 16 = m / 16)%N by (apply IH; [apply N.div_lt_upper_bound; lia|apply N.div_lt_upper_bound; lia|exact E1]).
    assert (n mod 16 = m mod 16)%N.
    { apply hex_digit_inj in E2; [apply N2Nat.inj; exact E2| |].
      - pose proof (N.mod_lt n 16 ltac:(lia)). lia.
      - pose proof (N.mod_lt m 16 ltac:(lia)). lia. }
    rewrite (N.div_mod n 16), (N.div_mod m 16) by lia. congruence.
Qed.
Lemma app_inj_length {A} (a b c d : list A) : List.length a = List.length c -> a ++ b = c ++ d -> a = c /\ b = d.
Proof. revert c. induction a as [|x a IH]; intros [|y c] HL E; try discriminate; [auto|]. injection E as <- E. injection HL as HL. destruct (IH _ HL E). subst. auto. Qed.

Lemma tail_eq {A} (x : A) a b : x :: a = x :: b -> a = b.
Proof. intros H. injection H as H. exact H. Qed.

(** Entries of different sources, options, tools or precompiled headers have different names. *)
Theorem C52_names_differ : forall s c t p s' c' t' p',
  (s < 2 ^ 64)%N -> (c < 2 ^ 32)%N -> (t < 2 ^ 64)%N -> (p < 2 ^ 64)%N -> (s' < 2 ^ 64)%N -> (c' < 2 ^ 32)%N -> (t' < 2 ^ 64)%N -> (p' < 2 ^ 64)%N ->
  cache_id s c t p = cache_id s' c' t' p' -> s = s' /\ c = c' /\ t = t' /\ p = p'.
Proof.
  intros s c t p s' c' t' p' H1 H2 H3 H4 H5 H6 H7 H8 E. unfold cache_id in E.
  apply app_inj_length in E as [E1 E]; [|rewrite !hexw_length; reflexivity]. apply tail_eq in E.
  apply app_inj_length in E as [E2 E]; [|rewrite !hexw_length; reflexivity]. apply tail_eq in E.
  apply app_inj_length in E as [E3 E]; [|rewrite !hexw_length; reflexivity]. apply tail_eq in E.
  apply app_inj_length in E as [E4 E]; [|rewrite !hexw_length; reflexivity].
  assert (K16 : forall n, (n < 2 ^ 64)%N -> (n < 16 ^ N.of_nat 16)%N) by (intros n Hn; exact Hn).
  assert (K8 : forall n, (n < 2 ^ 32)%N -> (n < 16 ^ N.of_nat 8)%N) by (intros n Hn; exact Hn).
  split; [|split; [|split]].
  - apply (hexw_inj 16); auto.
  - apply (hexw_inj 8); auto.
  - apply (hexw_inj 16); auto.
  - apply (hexw_inj 16); auto.
Qed.
Print Assumptions C52_names_differ.

Lemma hex_pair a b : is_hex a -> is_hex b -> exists i, (i < 256)%N /\ hexw 2 i = [a; b].
Proof.
  intros [x [Hx ->]] [y [Hy ->]]. exists (x * 16 + y)%N. split; [lia|]. cbn [hexw app].
  rewrite (N.div_add_l x 16 y) by lia. rewrite (N.div_small y 16), N.add_0_r by exact Hy.
  rewrite (N.mod_small x 16) by exact Hx. rewrite N.add_comm, N.mod_add by lia. rewrite (N.mod_small y 16) by exact Hy. reflexivity.
Qed.
Lemma hexw_hex w : forall n, Forall is_hex (hexw w n).
Proof.
  induction w as [|w IH]; intros n; cbn [hexw]; [constructor|]. apply Forall_app. split; [apply IH|]. constructor; [|constructor].
  exists (n mod 16)%N. split; [apply N.mod_lt; lia|reflexivity].
Qed.

(** Every entry is in a directory that trimming and the cache report look into. *)
Theorem C52_entries_are_found : forall sl cachePath s c t p path,
  full_path sl cachePath (cache_id s c t p) = Some path ->
  exists i j, (i < 256)%N /\ (j < 256)%N /\ path = scanned sl cachePath i j ++ cache_id s c t p.
Proof.
  intros sl cp s c t p path H.
  assert (HX : Forall is_hex (firstn 4 (cache_id s c t p)) /\ 4 <= List.length (cache_id s c t p)).
  { unfold cache_id. split.
    - rewrite firstn_app, hexw_length. cbn [Nat.sub firstn]. rewrite app_nil_r.
      pose proof (hexw_hex 16 s) as F. rewrite <- (firstn_skipn 4 (hexw 16 s)) in F. apply Forall_app in F. apply F.
    - rewrite app_length, hexw_length. lia. }
  destruct HX as [HX HLn]. revert H. generalize dependent (cache_id s c t p). intros id HX HLn H.
  destruct id as [|a [|b [|d [|e id]]]]; cbn in HLn; try lia. cbn [firstn] in HX. cbn [full_path] in H. injection H as <-.
  inversion HX as [|? ? Ha F1]; subst. inversion F1 as [|? ? Hb F2]; subst. inversion F2 as [|? ? Hd F3]; subst. inversion F3 as [|? ? He F4]; subst.
  destruct (hex_pair a b Ha Hb) as (i & Hi & Ei). destruct (hex_pair d e Hd He) as (j & Hj & Ej).
  exists i, j. split; [exact Hi|]. split; [exact Hj|]. unfold scanned. rewrite Ei, Ej. cbn [app]. rewrite <- app_assoc. reflexivity.
Qed.
Print Assumptions C52_entries_are_found.

(** The report counts every file in exactly one of its thirty rows. *)
Theorem C52_report_row : forall oneDay now f, (row oneDay now f < 30)%N.
Proof. intros o n f. unfold row. destruct (N.leb_spec 30 ((w64 (n + (2 ^ 64 - time f)) / o) mod 2 ^ 32)); lia. Qed.
Print Assumptions C52_report_row.

Example C52_case : cache_id 0x2377DE32AB045A2D 0xFED872A1 0xAB62FEAA23498AAC 0x32A2B04375A2D7DE
   = L "2377DE32AB045A2D_FED872A1_AB62FEAA23498AAC-32A2B04375A2D7DE.I".
Proof. vm_compute. reflexivity. Qed.

Example C25_case :
  let f n t s := {| name := L n; time := t; size := s |} in
  let fs := [f "a" 5 700000; f "b" 1 500000; f "c" 3 600000; f "d" 2 400000]%string%N in
  bytes fs = 2200000%N /\
  trim (fun f => negb (List.length (name f) =? 0)) 1 fs = Some ([f "b" 1 500000; f "d" 2 400000; f "c" 3 600000]%string%N, 700000%N, 1%N).
Proof. split; vm_compute; reflexivity. Qed.

(** ** Publishing *)
Section Publish.
Variable payload : nat -> list ascii.

Lemma splice_grow l n k : n <= List.length l -> splice (firstn n l) n (firstn k (skipn n l)) = firstn (n + List.length (firstn k (skipn n l))) l.
Proof.
  intros H. unfold splice. rewrite firstn_length, Nat.min_l by exact H. rewrite Nat.sub_diag. cbn [repeat]. rewrite app_nil_r.
  rewrite firstn_firstn, Nat.min_id. rewrite (skipn_all2 (n := n + _) (firstn n l)) by (rewrite firstn_length; lia). rewrite app_nil_r.
  set (m := List.length (firstn k (skipn n l))).
  assert (E : firstn k (skipn n l) = firstn m (skipn n l)).
  { unfold m. rewrite firstn_length. destruct (Nat.le_gt_cases k (List.length (skipn n l))) as [C|C].
    - rewrite Nat.min_l by exact C. reflexivity.
    - rewrite Nat.min_r by lia. rewrite firstn_all, firstn_all2 by lia. reflexivity. }
  rewrite E. clearbody m. clear. rename m into m0. revert l. induction n as [|n IH]; intros [|x l]; cbn [firstn skipn app Nat.add]; try reflexivity.
  - destruct m0; reflexivity.
  - f_equal. apply IH.
Qed.

Definition half (w : world) (p : nat) : Prop :=
  match at_ w p with
  | Writing i n => tmp (dsk w) = Some i /\ n <= List.length (payload p) /\ content (dsk w) i = firstn n (payload p)
  | Written true | Retry1 | Retry2 => exists i, tmp (dsk w) = Some i /\ content (dsk w) i = payload p
  | _ => True
  end.
Record good (w : world) : Prop := {
  g_tmp : forall i, tmp (dsk w) = Some i -> i < fresh (dsk w);
  g_entry : forall i, entry (dsk w) = Some i -> i < fresh (dsk w);
  g_apart : forall i, tmp (dsk w) = Some i -> entry (dsk w) <> Some i;
  g_half : forall p, half w p }.

Lemma updn_same {A} (f : nat -> A) k v : updn f k v k = v.
Proof. unfold updn. rewrite Nat.eqb_refl. reflexivity. Qed.
Lemma updn_other {A} (f : nat -> A) k v x : x <> k -> updn f k v x = f x.
Proof. intros H. unfold updn. apply Nat.eqb_neq in H. rewrite H. reflexivity. Qed.

Lemma half_idle w p : ~ busy (at_ w p) -> half w p.
Proof. unfold half, busy. destruct (at_ w p) as [| | [] | | | | |]; tauto. Qed.

Ltac others p Ho :=
  let q := fresh "q" in intros q; destruct (Nat.eq_dec q p) as [->|?];
  [|apply half_idle; cbn [at_ set_at set_dsk]; rewrite updn_other by assumption; apply Ho; assumption].

Lemma step_good e w w' : good w -> (forall q, q <> actor e -> ~ busy (at_ w q)) -> step payload e w = Some w' ->
  good w' /\ (retrieve w' = retrieve w \/ retrieve w' = None \/ retrieve w' = Some (payload (actor e))) /\
  (forall p, e = Rename p true -> retrieve w' = Some (payload p) /\ at_ w' p = Returned true).
Proof.
  intros G Ho H. pose proof (g_half w G (actor e)) as Hh. unfold half in Hh.
  destruct e as [p ok|p k|p|p|p ok|p ok|p]; cbn [actor step] in *.
  - destruct (at_ w p) eqn:Ep; try discriminate. destruct ok.
    + destruct (tmp (dsk w)) as [i|] eqn:Et; injection H as <-.
      * split; [|split; [|discriminate]].
        -- split; cbn [dsk set_at set_dsk tmp entry content fresh].
           ++ intros j Hj. apply (g_tmp w G). congruence.
           ++ apply (g_entry w G).
           ++ intros j Hj. apply (g_apart w G). congruence.
           ++ others p Ho. unfold half. cbn [at_ set_at set_dsk dsk tmp content]. rewrite !updn_same. split; [first [exact Et|reflexivity]|split; [lia|reflexivity]].
        -- left. unfold retrieve. cbn [dsk set_at set_dsk entry content]. destruct (entry (dsk w)) as [j|] eqn:Ee; [|reflexivity].
           cbn. rewrite updn_other; [reflexivity|]. intros ->. apply (g_apart w G i Et). exact Ee.
      * split; [|split; [|discriminate]].
        -- split; cbn [dsk set_at set_dsk tmp entry content fresh].
           ++ intros j Hj. injection Hj as <-. lia.
           ++ intros j Hj. apply (g_entry w G) in Hj. lia.
           ++ intros j Hj K. injection Hj as <-. apply (g_entry w G) in K. lia.
           ++ others p Ho. unfold half. cbn [at_ set_at set_dsk dsk tmp content]. rewrite !updn_same. split; [first [exact Et|reflexivity]|split; [lia|reflexivity]].
        -- left. unfold retrieve. cbn [dsk set_at set_dsk entry content]. destruct (entry (dsk w)) as [j|] eqn:Ee; [|reflexivity].
           cbn. rewrite updn_other; [reflexivity|]. intros ->. apply (g_entry w G) in Ee. lia.
    + injection H as <-. split; [|split; [left; reflexivity|discriminate]].
      split; try apply G. others p Ho. unfold half. cbn [at_ set_at]. rewrite updn_same. exact I.
  - destruct (at_ w p) as [|i n| | | | | |] eqn:Ep; try discriminate. injection H as <-. destruct Hh as (Ht & Hn & Hc).
    split; [|split; [|discriminate]].
    + split; cbn [dsk set_at set_dsk tmp entry content fresh]; try apply G.
      others p Ho. unfold half. cbn [at_ set_at set_dsk dsk tmp content]. rewrite !updn_same. rewrite Hc.
      split; [exact Ht|]. split; [rewrite firstn_length, skipn_length; lia|]. apply splice_grow. exact Hn.
    + left. unfold retrieve. cbn [dsk set_at set_dsk entry content]. destruct (entry (dsk w)) as [j|] eqn:Ee; [|reflexivity].
      cbn. rewrite updn_other; [reflexivity|]. intros ->. apply (g_apart w G i Ht). exact Ee.
  - destruct (at_ w p) eqn:Ep; try discriminate. injection H as <-. split; [|split; [left; reflexivity|discriminate]].
    split; try apply G. others p Ho. unfold half. cbn [at_ set_at]. rewrite updn_same. exact I.
  - destruct (at_ w p) as [|i n| | | | | |] eqn:Ep; try discriminate. destruct (Nat.eqb_spec n (List.length (payload p))) as [En|]; [|discriminate].
    injection H as <-. destruct Hh as (Ht & Hn & Hc). split; [|split; [left; reflexivity|discriminate]].
    split; try apply G. others p Ho. unfold half. cbn [at_ set_at dsk]. rewrite updn_same. exists i. split; [exact Ht|]. rewrite Hc, En. apply firstn_all.
  - assert (HX : exists i, tmp (dsk w) = Some i /\ content (dsk w) i = payload p).
    { destruct (at_ w p) as [| |[]| | | | |]; try discriminate; exact Hh. }
    destruct HX as (i & Ht & Hc).
    assert (HQ : exists q, (if ok then match tmp (dsk w) with
                     | Some i => Some (set_at p q (set_dsk {| tmp := None; entry := Some i; content := content (dsk w); fresh := fresh (dsk w) |} w))
                     | None => None
                     end else Some (set_at p q w)) = Some w' /\ (if ok then q = Returned true else q = Retry1 \/ q = CleanUp)).
    { destruct (at_ w p) as [| |[]| | | | |]; try discriminate; eexists; (split; [exact H|]); destruct ok; auto. }
    destruct HQ as (q & H' & Hq). destruct ok.
    + subst q. rewrite Ht in H'. injection H' as <-.
      assert (R : retrieve (set_at p (Returned true) (set_dsk {| tmp := None; entry := Some i; content := content (dsk w); fresh := fresh (dsk w) |} w)) = Some (payload p))
        by (unfold retrieve; cbn; rewrite Hc; reflexivity).
      split; [|split; [right; right; exact R|]].
      * split; cbn [dsk set_at set_dsk tmp entry content fresh]; [discriminate| |discriminate|].
        -- intros j Hj. injection Hj as <-. apply (g_tmp w G). exact Ht.
        -- others p Ho. unfold half. cbn [at_ set_at set_dsk]. rewrite updn_same. exact I.
      * intros p' E. injection E as <-. split; [exact R|]. cbn. apply updn_same.
    + injection H' as <-. split; [|split; [left; reflexivity|intros p' E; discriminate]].
      split; try apply G. others p Ho. unfold half. cbn [at_ set_at dsk]. rewrite updn_same. destruct Hq as [->| ->]; [exists i; auto|exact I].
  - destruct (at_ w p) as [| |[]| | | | |] eqn:Ep; try discriminate; injection H as <-.
    + (* written false *) destruct ok; (split; [|split; [left; reflexivity|discriminate]]).
      * split; cbn [dsk set_at set_dsk tmp entry content fresh]; [discriminate|apply (g_entry w G)|discriminate|]. others p Ho. unfold half. cbn [at_ set_at set_dsk]. rewrite updn_same. exact I.
      * split; try apply G. others p Ho. unfold half. cbn [at_ set_at]. rewrite updn_same. exact I.
    + (* clean up *) destruct ok; (split; [|split; [left; reflexivity|discriminate]]).
      * split; cbn [dsk set_at set_dsk tmp entry content fresh]; [discriminate|apply (g_entry w G)|discriminate|]. others p Ho. unfold half. cbn [at_ set_at set_dsk]. rewrite updn_same. exact I.
      * split; try apply G. others p Ho. unfold half. cbn [at_ set_at]. rewrite updn_same. exact I.
    + (* retry 1 *) destruct Hh as (i & Ht & Hc). destruct ok.
      * split; [|split; [right; left; reflexivity|discriminate]].
        split; cbn [dsk set_at set_dsk tmp entry content fresh]; [apply (g_tmp w G)|discriminate|discriminate|].
        others p Ho. unfold half. cbn [at_ set_at set_dsk dsk tmp content]. rewrite updn_same. exists i. auto.
      * split; [|split; [left; reflexivity|discriminate]].
        split; try apply G. others p Ho. unfold half. cbn [at_ set_at dsk]. rewrite updn_same. exists i. auto.
  - injection H as <-. split; [|split; [left; reflexivity|discriminate]].
    split; try apply G. others p Ho. unfold half. cbn [at_ set_at]. rewrite updn_same. exact I.
Qed.

Lemma initial_good w : initial w -> good w.
Proof. intros (H1 & H2 & H3 & H4). split; auto. intros p. unfold half. rewrite H1. exact I. Qed.

Lemma run_good es : forall w w', good w -> one_at_a_time payload w es -> run payload w es = Some w' ->
  good w' /\ (retrieve w' = retrieve w \/ retrieve w' = None \/ exists e, In e es /\ retrieve w' = Some (payload (actor e))).
Proof.
  induction es as [|e es IH]; intros w w' G O R; cbn [run one_at_a_time] in *.
  - injection R as <-. auto.
  - destruct O as [O1 O2]. destruct (step payload e w) as [w1|] eqn:E; [|discriminate].
    destruct (step_good e w w1 G O1 E) as (G1 & S1 & _). destruct (IH w1 w' G1 O2 R) as [G2 [S2|[S2|[e' [I' S2]]]]]; split; auto.
    + rewrite S2. destruct S1 as [S1|[S1|S1]]; [left; exact S1|right; left; exact S1|right; right; exists e; split; [left; reflexivity|exact S1]].
    + right; right. exists e'. split; [right; exact I'|exact S2].
Qed.

Lemma one_app es : forall w w', run payload w es = Some w' -> forall r, one_at_a_time payload w (es ++ r) -> one_at_a_time payload w es /\ one_at_a_time payload w' r.
Proof.
  induction es as [|e es IH]; intros w w' R r O; cbn [run app one_at_a_time] in *.
  - injection R as <-. split; [exact I|exact O].
  - destruct O as [O1 O2]. destruct (step payload e w) as [w1|] eqn:E; [|discriminate]. destruct (IH _ _ R _ O2). auto.
Qed.
End Publish.

(** After any history of publishers, one at a time, with any failures and with crashes anywhere: the entry that is read is absent, the one
    that was there at the start, or the complete data of one of the publishers. *)
Theorem C24_never_partial : forall payload w0 es w, initial w0 -> one_at_a_time payload w0 es -> run payload w0 es = Some w ->
  retrieve w = None \/ retrieve w = retrieve w0 \/ exists p, retrieve w = Some (payload p).
Proof.
  intros payload w0 es w H0 O R. destruct (run_good payload es w0 w (initial_good payload w0 H0) O R) as [_ [H|[H|[e [_ H]]]]]; eauto.
Qed.
Print Assumptions C24_never_partial.

(** Each single step keeps the entry, removes it, or replaces it by the complete data of the publisher taking the step. *)
Theorem C24_old_none_or_new : forall payload w0 es e w w', initial w0 -> one_at_a_time payload w0 (es ++ [e]) ->
  run payload w0 es = Some w -> step payload e w = Some w' ->
  retrieve w' = retrieve w \/ retrieve w' = None \/ retrieve w' = Some (payload (actor e)).
Proof.
  intros payload w0 es e w w' H0 O R E. destruct (one_app payload es w0 w R _ O) as [O1 [O2 _]].
  destruct (run_good payload es w0 w (initial_good payload w0 H0) O1 R) as [G _]. apply (step_good payload e w w' G O2 E).
Qed.
Print Assumptions C24_old_none_or_new.

(** When a publisher succeeds its data is what is read, whatever was left behind by those that failed or crashed before. *)
Theorem C24_success_is_visible : forall payload w0 es p w, initial w0 -> one_at_a_time payload w0 (es ++ [Rename p true]) ->
  run payload w0 (es ++ [Rename p true]) = Some w -> at_ w p = Returned true /\ retrieve w = Some (payload p).
Proof.
  intros payload w0 es p w H0 O R.
  assert (RA : forall es w0, run payload w0 (es ++ [Rename p true]) = match run payload w0 es with Some w1 => step payload (Rename p true) w1 | None => None end).
  { clear. induction es as [|e es IH]; intros w0; cbn [run app]; [destruct (step payload (Rename p true) w0); reflexivity|].
    destruct (step payload e w0); [apply IH|reflexivity]. }
  rewrite RA in R. destruct (run payload w0 es) as [w1|] eqn:R1; [|discriminate].
  destruct (one_app payload es w0 w1 R1 _ O) as [O1 [O2 _]].
  destruct (run_good payload es w0 w1 (initial_good payload w0 H0) O1 R1) as [G _].
  destruct (step_good payload _ w1 w G O2 R) as (_ & _ & S). destruct (S p eq_refl). auto.
Qed.
Print Assumptions C24_success_is_visible.

(** A reported success comes from a rename, so the entry is in place: Publish never returns true otherwise. *)
Theorem C24_true_only_after_rename : forall payload e w w' p, step payload e w = Some w' ->
  at_ w' p = Returned true -> at_ w p <> Returned true -> e = Rename p true.
Proof.
  intros payload e w w' p H H1 H2.
  assert (A : forall q x d, at_ (set_at q x (set_dsk d w)) p = Returned true -> q = p /\ x = Returned true).
  { intros q x d. cbn. unfold updn. destruct (Nat.eqb_spec p q) as [->|]; [auto|contradiction]. }
  assert (B : forall q x, at_ (set_at q x w) p = Returned true -> q = p /\ x = Returned true) by (intros q x; apply (A q x (dsk w))).
  destruct e as [q ok|q k|q|q|q ok|q ok|q]; cbn [step] in H.
  - destruct (at_ w q); try discriminate. destruct ok; [destruct (tmp (dsk w))|]; injection H as <-; first [apply A in H1|apply B in H1]; destruct H1; discriminate.
  - destruct (at_ w q); try discriminate. injection H as <-. apply A in H1. destruct H1; discriminate.
  - destruct (at_ w q); try discriminate. injection H as <-. apply B in H1. destruct H1; discriminate.
  - destruct (at_ w q); try discriminate. destruct (Nat.eqb _ _); [|discriminate]. injection H as <-. apply B in H1. destruct H1; discriminate.
  - destruct (at_ w q) as [| |[]| | | | |]; try discriminate; (destruct ok; [destruct (tmp (dsk w)); [|discriminate]|]); injection H as <-;
      first [apply A in H1|apply B in H1]; destruct H1 as [-> H1]; try discriminate; reflexivity.
  - destruct (at_ w q) as [| |[]| | | | |]; try discriminate; destruct ok; injection H as <-; cbn in H1; unfold updn in H1; destruct (Nat.eqb_spec p q); congruence.
  - injection H as <-. apply B in H1. destruct H1; discriminate.
Qed.
Print Assumptions C24_true_only_after_rename.

(** Two publishers of the same data at the same time, one of which crashes: the entry stays partial.  The temporary name is the same for
    both, and opening it empties the file the other is about to rename. *)
Theorem C24_concurrent_publishers_refuted :
  exists payload w0 es w, initial w0 /\ run payload w0 es = Some w /\ (forall p, payload p = payload 0) /\
    (forall p, ~ busy (at_ w p)) /\ retrieve w = Some [] /\ payload 0 <> [].
Proof.
  exists (fun _ => L "data"), {| dsk := {| tmp := None; entry := None; content := fun _ => []; fresh := 0 |}; at_ := fun _ => Start |},
    [Open 0 true; Write 0 4; Close 0; Open 1 true; Rename 0 true; Crash 1].
  eexists. split; [repeat split; discriminate|]. split; [cbn; reflexivity|]. split; [reflexivity|]. split.
  - intros [|[|p]]; cbn; auto.
  - split; [reflexivity|discriminate].
Qed.
Print Assumptions C24_concurrent_publishers_refuted.

(** Case: a publisher crashes half way; the next one replaces the old entry. *)
Example C24_case :
  let payload := fun p => match p with 0 => L "first" | _ => L "second" end in
  let w0 := {| dsk := {| tmp := None; entry := Some 0; content := fun _ => L "old"; fresh := 1 |}; at_ := fun _ => Start |} in
  let es := [Open 0 true; Write 0 3; Crash 0; Open 1 true; Write 1 2; Write 1 10; Close 1; Rename 1 false; Delete 1 false; Rename 1 true] in
  initial w0 /\ one_at_a_time payload w0 es /\ option_map retrieve (run payload w0 (firstn 8 es)) = Some (Some (L "old")) /\
  option_map retrieve (run payload w0 es) = Some (Some (L "second")).
Proof.
  cbv zeta. split.
  { split; [reflexivity|]. split; [discriminate|]. split; [intros i H; injection H as <-; cbn; lia|discriminate]. }
  split; [|split; vm_compute; reflexivity].
  cbn [one_at_a_time actor]. 
  repeat (split; [intros [|[|q]] Hq; cbn; auto; congruence|cbn [step at_ updn Nat.eqb set_at set_dsk dsk tmp entry content fresh one_at_a_time actor]]).
  exact I.
Qed.
