From Coq Require Import List Arith Bool NArith Lia Permutation.
From Verif Require Import M_Array M_Sort S_Sort P_Sort M_Queue S_Queue.
Import ListNotations.

(** ** C12 *)
Lemma cost_sw : strict_weak cost_lt.
Proof.
  unfold cost_lt. split.
  - intros x. apply N.ltb_irrefl.
  - intros x y z H1 H2. apply N.ltb_lt in H1, H2. apply N.ltb_lt. lia.
  - intros x y z H1 H2 H3 H4. apply N.ltb_ge in H1, H2, H3, H4. split; apply N.ltb_ge; lia.
Qed.

Fixpoint asc (l : list job) : Prop :=
  match l with [] => True | a :: r => (forall b, In b r -> (j_cost a <= j_cost b)%N) /\ asc r end.

Lemma ordered_asc l : ordered cost_lt l <-> asc l.
Proof.
  split.
  - induction l as [|a r IH]; cbn; intros H; auto. split.
    + intros b Hb. apply In_nth_error in Hb. destruct Hb as [n Hn].
      assert (Q : cost_lt b a = false) by (apply (H 0 (S n)); auto; lia).
      apply N.ltb_ge in Q. exact Q.
    + apply IH. intros i j x y L G1 G2. apply (H (S i) (S j)); auto. lia.
  - induction l as [|a r IH]; cbn; intros H i j x y L G1 G2; [destruct i; discriminate|].
    destruct H as [H1 H2]. destruct j as [|j]; [lia|]. destruct i as [|i]; cbn in *.
    + injection G1 as <-. apply N.ltb_ge. apply H1. eapply nth_error_In; eauto.
    + apply (IH H2 i j); auto. lia.
Qed.

Lemma merge_nil_l l : merge [] l = l.
Proof. destruct l; reflexivity. Qed.
Lemma merge_nil_r l : merge l [] = l.
Proof. destruct l; reflexivity. Qed.
Lemma merge_cons a r1 b r2 :
  merge (a :: r1) (b :: r2) = if cost_lt a b then a :: merge r1 (b :: r2) else b :: merge (a :: r1) r2.
Proof. reflexivity. Qed.

Lemma merge_perm : forall l1 l2, Permutation (l1 ++ l2) (merge l1 l2).
Proof.
  induction l1 as [|a r1 IH1]; intros l2; [now rewrite merge_nil_l|].
  induction l2 as [|b r2 IH2]; [rewrite merge_nil_r, app_nil_r; reflexivity|].
  rewrite merge_cons. destruct (cost_lt a b).
  - cbn. now apply perm_skip.
  - eapply perm_trans; [|apply perm_skip, IH2]. apply Permutation_sym. apply (Permutation_middle (a :: r1) r2 b).
Qed.
Lemma merge_asc : forall l1 l2, asc l1 -> asc l2 -> asc (merge l1 l2).
Proof.
  induction l1 as [|a r1 IH1]; intros l2 A1 A2; [now rewrite merge_nil_l|].
  induction l2 as [|b r2 IH2]; [now rewrite merge_nil_r|].
  rewrite merge_cons. destruct (cost_lt a b) eqn:C; destruct A1 as [A1 A1'], A2 as [A2 A2'].
  - apply N.ltb_lt in C. split.
    + intros x Hx. apply (Permutation_in _ (Permutation_sym (merge_perm _ _))) in Hx.
      apply in_app_iff in Hx. destruct Hx as [Hx|[<-|Hx]]; auto; [lia|]. specialize (A2 x Hx). lia.
    + apply IH1; auto. split; auto.
  - apply N.ltb_ge in C. split.
    + intros x Hx. apply (Permutation_in _ (Permutation_sym (merge_perm _ _))) in Hx.
      apply in_app_iff in Hx. destruct Hx as [[<-|Hx]|Hx]; auto. specialize (A1 x Hx). lia.
    + apply IH2; auto.
Qed.

Lemma pop_last_spec {A} (l : list A) : match pop_last l with
  | None => l = [] | Some (r, x) => l = r ++ [x] end.
Proof.
  induction l as [|a l IH]; cbn; auto. destruct l as [|b l']; auto.
  destruct (pop_last (b :: l')) as [[r x]|]; cbn; [|discriminate]. now rewrite IH.
Qed.

Lemma asc_app_last l x : asc (l ++ [x]) -> asc l /\ forall y, In y l -> (j_cost y <= j_cost x)%N.
Proof.
  induction l as [|a l IH]; cbn; [intros _; split; auto; tauto|].
  intros [H1 H2]. destruct (IH H2) as [I1 I2]. split; [split; auto|].
  - intros b Hb. apply H1. apply in_app_iff; auto.
  - intros y [<-|Hy]; auto. apply H1. apply in_app_iff. right. now left.
Qed.

Definition q_inv (q : subqueue) : Prop :=
  asc (q_jobs q) /\ q_count q = u32 (N.of_nat (length (q_jobs q))).

Lemma u32_add a b : u32 (u32 a + b) = u32 (a + b).
Proof. unfold u32. rewrite N.add_mod_idemp_l; auto. lia. Qed.

Lemma queue_spec q new : q_inv q -> exists q', queue_jobs q new = Some q' /\ q_inv q' /\
  Permutation (q_jobs q ++ new) (q_jobs q').
Proof.
  intros [A C]. unfold queue_jobs. destruct (shell_sort_spec cost_lt new) as (b&E&P&O). rewrite E.
  specialize (O cost_sw). apply ordered_asc in O.
  pose proof (Permutation_length P) as LP.
  destruct (q_jobs q) as [|a r] eqn:J.
  - eexists. split; [reflexivity|]. split; cbn; auto. split; auto. cbn. rewrite C, u32_add. f_equal.
  - eexists. split; [reflexivity|]. split.
    + split; cbn [q_jobs q_count].
      * apply merge_asc; auto.
      * rewrite C, u32_add. f_equal. pose proof (Permutation_length (merge_perm (a :: r) b)) as LM.
        rewrite app_length in LM. rewrite <- LM. cbn [length]. lia.
    + cbn [q_jobs]. eapply perm_trans; [|apply merge_perm]. apply Permutation_app_head. exact P.
Qed.

Lemma remove_spec q q' o : q_inv q -> remove_job q = (q', o) ->
  q_inv q' /\
  match o with
  | Some j => Permutation (q_jobs q) (j :: q_jobs q') /\ forall x, In x (q_jobs q) -> (j_cost x <= j_cost j)%N
  | None => q' = q /\ (N.of_nat (length (q_jobs q)) mod 4294967296 = 0)%N
  end.
Proof.
  intros [A C] H. unfold remove_job in H. destruct (q_count q =? 0)%N eqn:Z.
  - apply N.eqb_eq in Z. injection H as <- <-. split; [split; auto|]. split; auto. rewrite C in Z. exact Z.
  - pose proof (pop_last_spec (q_jobs q)) as PL. destruct (pop_last (q_jobs q)) as [[r j]|].
    + injection H as <- <-. rewrite PL in A. destruct (asc_app_last _ _ A) as [A1 A2]. split.
      * split; cbn [q_jobs q_count]; auto. rewrite C, PL, u32_add. rewrite app_length. cbn [length].
        replace (N.of_nat (length r + 1) + 4294967295)%N with (N.of_nat (length r) + 1 * 4294967296)%N by lia.
        unfold u32. now rewrite N.mod_add by lia.
      * cbn [q_jobs]. rewrite PL. split.
        -- apply Permutation_sym. apply Permutation_cons_append.
        -- intros x Hx. apply in_app_iff in Hx. destruct Hx as [Hx|[<-|[]]]; auto. lia.
    + injection H as <- <-. split; [split; auto|]. split; auto. rewrite PL. reflexivity.
Qed.

Lemma q_run_spec : forall ops q out, q_inv q -> exists q' out', q_run ops q out = Some (q', out') /\
  q_inv q' /\ Permutation (q_jobs q ++ out ++ added ops) (q_jobs q' ++ out').
Proof.
  induction ops as [|[new|] ops IH]; intros q out I; cbn [q_run added].
  - exists q, out. split; auto. split; auto. now rewrite app_nil_r.
  - destruct (queue_spec q new I) as (q1&E&I1&P1). rewrite E.
    destruct (IH q1 out I1) as (q'&out'&E2&I2&P2). exists q', out'. split; auto. split; auto.
    eapply perm_trans; [|exact P2]. 
    eapply perm_trans; [|apply Permutation_app_tail; exact P1]. rewrite <- !app_assoc. apply Permutation_app_head.
    rewrite !app_assoc. apply Permutation_app_tail. apply Permutation_app_comm.
  - destruct (remove_job q) as [q1 o] eqn:E. destruct (remove_spec q q1 o I E) as [I1 R].
    destruct (IH q1 (match o with None => out | Some j => j :: out end) I1) as (q'&out'&E2&I2&P2).
    exists q', out'. split; auto. split; auto. eapply perm_trans; [|exact P2].
    destruct o as [j|].
    + destruct R as [R _]. eapply perm_trans; [apply Permutation_app_tail; exact R|].
      apply (Permutation_middle (q_jobs q1) (out ++ added ops) j).
    + destruct R as [-> _]. reflexivity.
Qed.

(** ** C11 *)
Section Groups.
Context (workers : N) (limits : nat -> N) (GL : good_limits limits).

Definition cnt (fly : list fjob) (g : nat) : nat := length (filter (fun j => f_group j =? g) fly).
Lemma cnt_app a b g : cnt (a ++ b) g = cnt a g + cnt b g.
Proof. unfold cnt. rewrite filter_app, app_length. reflexivity. Qed.

Definition mx (g : nat) : N := max_jobs workers (limits g).
Lemma mx_range g : (1 <= mx g <= 4294967295)%N.
Proof. unfold mx, max_jobs, eUnlimited. specialize (GL g). unfold eUnlimited in GL. destruct (workers <=? limits g)%N; lia. Qed.

(* per-group accounting *)
Definition groups_ok (gs : list gstate) (fly : list fjob) : Prop :=
  (forall i st, get gs i = Some st -> g_active st = N.of_nat (cnt fly i)) /\
  (forall i, length gs <= i -> cnt fly i = 0) /\
  (forall i, (N.of_nat (cnt fly i) <= mx i)%N).

Lemma get_app {A} (a b : list A) i : get (a ++ b) i = if i <? length a then get a i else get b (i - length a).
Proof.
  unfold get. destruct (i <? length a) eqn:E.
  - apply Nat.ltb_lt in E. now apply nth_error_app1.
  - apply Nat.ltb_ge in E. now apply nth_error_app2.
Qed.
Lemma get_repeat {A} (x : A) n i y : get (repeat x n) i = Some y -> y = x.
Proof. intros H. apply nth_error_In in H. now apply repeat_spec in H. Qed.

Lemma add_spec s id g : groups_ok (s_groups s) (s_fly s) -> exists s', add_to_batch s id g = Some s' /\
  groups_ok (s_groups s') (s_fly s') /\ s_fly s' = s_fly s /\ s_final s' = s_final s /\
  Permutation ((id, g) :: staged s) (staged s').
Proof.
  intros (G1&G2&G3). unfold add_to_batch.
  assert (L : length (grow (s_groups s) g) = max (length (s_groups s)) (S g)).
  { unfold grow. rewrite app_length, repeat_length. lia. }
  destruct (get_lt (grow (s_groups s) g) g) as [st E]; [lia|]. rewrite E.
  destruct (set_lt (grow (s_groups s) g) g (mkG (g_staging st ++ [id]) (g_active st))) as [gs' E']; [lia|].
  rewrite E'. eexists. split; [reflexivity|]. cbn [s_groups s_fly s_final].
  assert (GR : forall i st, get (grow (s_groups s) g) i = Some st -> g_active st = N.of_nat (cnt (s_fly s) i)).
  { intros i x Hx. unfold grow in Hx. rewrite get_app in Hx. destruct (i <? length (s_groups s)) eqn:C; auto.
    apply get_repeat in Hx. subst x. cbn. apply Nat.ltb_ge in C. rewrite G2; auto. }
  split; [|split; [auto|split; auto]].
  - split; [|split].
    + intros i x Hx. destruct (Nat.eq_dec i g) as [->|N].
      * rewrite (set_get_same _ _ _ _ E') in Hx. injection Hx as <-. cbn. now apply GR.
      * rewrite (set_get_other _ _ _ _ i E' N) in Hx. now apply GR.
    + intros i Hi. rewrite (set_len _ _ _ _ E'), L in Hi. apply G2. lia.
    + auto.
  - unfold staged. cbn [s_groups].
    (* growing adds no staged job *)
    assert (GS : staged_from 0 (grow (s_groups s) g) = staged_from 0 (s_groups s)).
    { unfold grow. generalize (S g - length (s_groups s)) as n. generalize 0 as b. clear.
      induction (s_groups s) as [|x l IH]; intros b n.
      - cbn [app]. revert b. induction n as [|n IH]; intros b; auto. cbn. apply IH.
      - cbn. f_equal. apply IH. }
    rewrite <- GS. clear GS. 
    assert (Q : forall gs b k st gs', get gs k = Some st ->
       set gs k (mkG (g_staging st ++ [id]) (g_active st)) = Some gs' ->
       Permutation ((id, b + k) :: staged_from b gs) (staged_from b gs')).
    { clear. induction gs as [|x l IH]; intros b k st gs' H1 H2; [destruct k; discriminate|].
      destruct k as [|k]; cbn in H1, H2.
      - injection H1 as ->. injection H2 as <-. cbn. unfold staged_from. cbn [concat map combine length seq fst snd g_staging].
        rewrite map_app. cbn [map]. rewrite <- app_assoc. cbn [app]. rewrite Nat.add_0_r. apply Permutation_middle.
      - destruct (set l k _) as [l'|] eqn:F; [|discriminate]. injection H2 as <-.
        specialize (IH (S b) k st l' H1 F). replace (b + S k) with (S b + k) by lia.
        unfold staged_from in *. cbn [concat map combine length seq fst snd].
        eapply perm_trans; [apply Permutation_middle|]. apply Permutation_app_head. exact IH. }
    apply (Q _ 0 g st gs' E E').
Qed.

Lemma flush_group_spec i st st' out : g_active st = g_active st -> (g_active st <= mx i)%N ->
  flush_group workers (limits i) st = (st', out) ->
  g_active st' = (g_active st + N.of_nat (length out))%N /\ (g_active st' <= mx i)%N /\
  g_staging st = g_staging st' ++ out /\
  (g_staging st' = [] \/ g_active st' = mx i).
Proof.
  intros _ LE H. pose proof (mx_range i) as MR. unfold flush_group in H. fold (mx i) in H.
  destruct (g_staging st) as [|x l] eqn:SG.
  - injection H as <- <-. rewrite SG. cbn. rewrite N.add_0_r. auto.
  - remember (x :: l) as staged eqn:ST in *. clear ST.
    destruct (mx i <=? g_active st)%N eqn:C.
    + injection H as <- <-. apply N.leb_le in C. rewrite SG. cbn [length]. rewrite N.add_0_r, app_nil_r.
      split; auto. split; auto. split; auto. right. lia.
    + apply N.leb_gt in C. destruct (N.of_nat (length staged) <=? mx i - g_active st)%N eqn:R.
      * apply N.leb_le in R. injection H as <- <-. cbn [g_active g_staging].
        assert (B : (g_active st + N.of_nat (length staged) < 4294967296)%N) by lia.
        unfold u32. rewrite N.mod_small by exact B. split; auto. split; [lia|]. split; auto.
      * apply N.leb_gt in R. injection H as <- <-. cbn [g_active g_staging].
        assert (B : (g_active st + (mx i - g_active st) < 4294967296)%N) by lia.
        unfold u32. rewrite N.mod_small by exact B. rewrite skipn_length.
        split; [lia|]. split; [lia|]. split; [symmetry; apply firstn_skipn|]. right. lia.
Qed.

Definition filled (gs : list gstate) (b : nat) : Prop :=
  forall k st, get gs k = Some st -> g_staging st = [] \/ g_active st = mx (b + k).

Lemma cnt_map b out g : cnt (map (fun id => mkF id b JQueued) out) g = if b =? g then length out else 0.
Proof.
  unfold cnt. induction out as [|x l IH]; cbn; [now destruct (b =? g)|]. destruct (b =? g); cbn; auto.
Qed.

Lemma flush_spec : forall gs b gs' fl,
  (forall k st, get gs k = Some st -> (g_active st <= mx (b + k))%N) ->
  flush_groups workers limits b gs = (gs', fl) ->
  length gs' = length gs /\
  (forall k st st', get gs k = Some st -> get gs' k = Some st' ->
     g_active st' = (g_active st + N.of_nat (cnt fl (b + k)))%N /\ (g_active st' <= mx (b + k))%N) /\
  (forall g, g < b \/ b + length gs <= g -> cnt fl g = 0) /\
  Permutation (staged_from b gs) (staged_from b gs' ++ map (fun j => (f_id j, f_group j)) fl) /\
  filled gs' b /\ (forall j, In j fl -> f_phase j = JQueued).
Proof.
  induction gs as [|st gs IH]; intros b gs' fl H F; cbn [flush_groups] in F.
  - injection F as <- <-. split; auto. split; [intros [|k]; discriminate|]. split; [reflexivity|].
    split; [reflexivity|]. split; [intros [|k]; discriminate|]. intros j [].
  - destruct (flush_group workers (limits b) st) as [st1 out] eqn:E1.
    destruct (flush_groups workers limits (S b) gs) as [gs1 fl1] eqn:E2. injection F as <- <-.
    assert (H0 : (g_active st <= mx b)%N) by (specialize (H 0 st eq_refl); now rewrite Nat.add_0_r in H).
    destruct (flush_group_spec b st st1 out eq_refl H0 E1) as (A1&A2&A3&A4).
    destruct (IH (S b) gs1 fl1) as (B1&B2&B3&B4&B5&B6); auto.
    { intros k x Hx. replace (S b + k) with (b + S k) by lia. now apply H. }
    split; [cbn; lia|]. split; [|split; [|split; [|split]]].
    + intros [|k] x x' Hx Hx'; cbn in Hx, Hx'.
      * injection Hx as <-. injection Hx' as <-. rewrite Nat.add_0_r, cnt_app, cnt_map, Nat.eqb_refl.
        rewrite B3 by lia. rewrite Nat.add_0_r. auto.
      * rewrite cnt_app, cnt_map. replace (b =? b + S k) with false by (symmetry; apply Nat.eqb_neq; lia).
        replace (b + S k) with (S b + k) by lia. cbn [Nat.add]. apply (B2 k); auto.
    + intros g Hg. rewrite cnt_app, cnt_map. cbn [length] in Hg.
      replace (b =? g) with false by (symmetry; apply Nat.eqb_neq; lia). rewrite B3; [auto|lia].
    + unfold staged_from in *. cbn [concat map combine length seq fst snd].
      rewrite A3, map_app, map_app, map_map. cbn [f_id f_group]. rewrite <- !app_assoc. apply Permutation_app_head.
      eapply perm_trans; [apply Permutation_app_head; exact B4|]. rewrite !app_assoc. apply Permutation_app_tail.
      apply Permutation_app_comm.
    + intros [|k] x Hx; cbn in Hx.
      * injection Hx as <-. rewrite Nat.add_0_r. auto.
      * replace (b + S k) with (S b + k) by lia. now apply B5.
    + intros j Hj. apply in_app_iff in Hj. destruct Hj as [Hj|Hj]; auto.
      apply in_map_iff in Hj. destruct Hj as (x&<-&_). reflexivity.
Qed.

Lemma dec_spec : forall d gs rest, groups_ok gs (d ++ rest) ->
  exists gs', dec_all gs d = Some gs' /\ groups_ok gs' rest /\ forall b, staged_from b gs' = staged_from b gs.
Proof.
  induction d as [|j d IH]; intros gs rest (G1&G2&G3); cbn [dec_all].
  - exists gs. split; auto. split; [|auto]. split; auto.
  - assert (L : f_group j < length gs).
    { destruct (lt_dec (f_group j) (length gs)); auto. specialize (G2 (f_group j) ltac:(lia)).
      unfold cnt in G2. cbn in G2. rewrite Nat.eqb_refl in G2. discriminate. }
    assert (CN : forall i, cnt ((j :: d) ++ rest) i = (if f_group j =? i then 1 else 0) + cnt (d ++ rest) i).
    { intros i. unfold cnt. cbn. destruct (f_group j =? i); auto. }
    unfold dec_group. destruct (get_lt gs (f_group j) L) as [st E]. rewrite E.
    destruct (set_lt gs (f_group j) (mkG (g_staging st) (u32 (g_active st + 4294967295))) L) as [gs1 E1]. rewrite E1.
    destruct (IH gs1 rest) as (gs'&D&OK&SG).
    + split; [|split].
      * intros i x Hx. destruct (Nat.eq_dec i (f_group j)) as [->|N].
        -- rewrite (set_get_same _ _ _ _ E1) in Hx. injection Hx as <-. cbn [g_active].
           rewrite (G1 _ _ E). rewrite CN, Nat.eqb_refl. specialize (G3 (f_group j)). rewrite CN, Nat.eqb_refl in G3.
           pose proof (mx_range (f_group j)). unfold u32.
           replace (N.of_nat (1 + cnt (d ++ rest) (f_group j)) + 4294967295)%N
             with (N.of_nat (cnt (d ++ rest) (f_group j)) + 1 * 4294967296)%N by lia.
           rewrite N.mod_add by lia. apply N.mod_small. lia.
        -- rewrite (set_get_other _ _ _ _ i E1 N) in Hx. rewrite (G1 _ _ Hx), CN.
           replace (f_group j =? i) with false by (symmetry; apply Nat.eqb_neq; auto). reflexivity.
      * intros i Hi. rewrite (set_len _ _ _ _ E1) in Hi. specialize (G2 i Hi). rewrite CN in G2. lia.
      * intros i. specialize (G3 i). rewrite CN in G3. destruct (f_group j =? i); lia.
    + exists gs'. split; auto. split; auto. intros b. rewrite SG.
      clear - E E1. revert b gs1 E E1. generalize (f_group j) as k. induction gs as [|x l IH]; intros k b gs1 E E1; [destruct k; discriminate|].
      destruct k as [|k]; cbn in E, E1.
      * injection E as ->. injection E1 as <-. reflexivity.
      * destruct (set l k _) as [l'|] eqn:F; [|discriminate]. injection E1 as <-.
        specialize (IH k (S b) l' E F). unfold staged_from in *. cbn [concat map combine length seq fst snd]. now rewrite IH.
Qed.

Lemma filter_split_perm {A} (f : A -> bool) l : Permutation l (filter f l ++ filter (fun x => negb (f x)) l).
Proof.
  induction l as [|x l IH]; cbn; auto. destruct (f x); cbn; [now apply perm_skip|].
  eapply perm_trans; [apply perm_skip; exact IH|]. apply Permutation_middle.
Qed.

Lemma cnt_perm a b g : Permutation a b -> cnt a g = cnt b g.
Proof.
  intros P. unfold cnt. induction P; cbn; auto; try congruence.
  - destruct (f_group x =? g); cbn; auto.
  - destruct (f_group x =? g), (f_group y =? g); cbn; auto.
Qed.

Definition ids (l : list fjob) : list (nat * nat) := map (fun j => (f_id j, f_group j)) l.

Definition g_inv (s : gsys) : Prop :=
  groups_ok (s_groups s) (s_fly s) /\
  (N.of_nat (length (filter on_thread (s_fly s))) <= threads workers)%N.

Lemma set_map {A B} (f : A -> B) (l : list A) k x l' y : get l k = Some y -> set l k x = Some l' -> f x = f y ->
  map f l' = map f l.
Proof.
  revert k l'. induction l as [|z l IH]; intros [|k] l' G H E; cbn in *; try discriminate.
  - injection G as ->. injection H as <-. cbn. now rewrite E.
  - destruct (set l k x) eqn:F; [|discriminate]. injection H as <-. cbn. f_equal. eauto.
Qed.
Lemma set_filter_len {A} (f : A -> bool) (l : list A) k x l' y : get l k = Some y -> set l k x = Some l' ->
  length (filter f l') + (if f y then 1 else 0) = length (filter f l) + (if f x then 1 else 0).
Proof.
  revert k l'. induction l as [|z l IH]; intros [|k] l' G H; cbn in *; try discriminate.
  - injection G as ->. injection H as <-. cbn. destruct (f x), (f y); cbn; lia.
  - destruct (set l k x) eqn:F; [|discriminate]. injection H as <-. cbn. specialize (IH _ _ G F).
    destruct (f z); cbn; lia.
Qed.
Lemma filter_of_map {A B} (f : A -> B) (p : B -> bool) l l' : map f l = map f l' ->
  length (filter (fun x => p (f x)) l) = length (filter (fun x => p (f x)) l').
Proof.
  revert l'. induction l as [|x l IH]; intros [|y l'] H; cbn in *; try discriminate; auto.
  injection H as H1 H2. rewrite H1. destruct (p (f y)); cbn; auto.
Qed.

Lemma g_step_spec s e : g_inv s -> exists s', g_step workers limits s e = Some s' /\ g_inv s' /\
  Permutation (staged s ++ ids (s_fly s) ++ s_final s ++ submitted [e])
              (staged s' ++ ids (s_fly s') ++ s_final s').
Proof.
  intros [OK TH]. destruct e as [id g| | |k p]; cbn [g_step submitted].
  - destruct (add_spec s id g OK) as (s'&E&OK'&F1&F2&P). exists s'. split; auto. split.
    + split; auto. now rewrite F1.
    + rewrite F1, F2. eapply perm_trans; [|apply Permutation_app_tail; exact P]. cbn [app].
      rewrite !app_assoc. apply Permutation_sym. apply Permutation_cons_append.
  - destruct (flush_groups workers limits 0 (s_groups s)) as [gs fl] eqn:E.
    destruct OK as (G1&G2&G3).
    destruct (flush_spec (s_groups s) 0 gs fl) as (B1&B2&B3&B4&B5&B6); auto.
    { intros k st Hk. cbn. rewrite (G1 _ _ Hk). apply G3. }
    eexists. split; [reflexivity|]. cbn [s_groups s_fly s_final]. split.
    + split; cbn [s_groups s_fly].
      * split; [|split].
        -- intros i st' Hi. rewrite cnt_app. destruct (get_lt (s_groups s) i) as [st Hs].
           { apply get_some in Hi. lia. }
           destruct (B2 i st st' Hs Hi) as [Q _]. cbn in Q. rewrite Q, (G1 _ _ Hs). lia.
        -- intros i Hi. rewrite cnt_app, G2 by lia. rewrite B3; [auto|lia].
        -- intros i. rewrite cnt_app. destruct (lt_dec i (length (s_groups s))) as [L|L].
           ++ destruct (get_lt (s_groups s) i L) as [st Hs]. destruct (get_lt gs i) as [st' Hs']; [lia|].
              destruct (B2 i st st' Hs Hs') as [Q1 Q2]. cbn in Q1, Q2. rewrite Q1, (G1 _ _ Hs) in Q2. lia.
           ++ rewrite G2, B3 by lia. cbn. pose proof (mx_range i). lia.
      * rewrite filter_app, app_length.
        replace (filter on_thread fl) with (@nil fjob).
        { cbn. rewrite Nat.add_0_r. auto. }
        symmetry. clear - B6. induction fl as [|x l IH]; auto. cbn. unfold on_thread at 1.
        rewrite (B6 x) by now left. apply IH. intros; apply B6; now right.
    + unfold staged. cbn [s_groups s_fly s_final]. rewrite app_nil_r. unfold ids. rewrite map_app. fold (ids (s_fly s)) (ids fl).
      eapply perm_trans; [apply Permutation_app_tail; exact B4|]. fold (ids fl). rewrite <- !app_assoc. apply Permutation_app_head.
      rewrite !app_assoc. apply Permutation_app_tail. apply Permutation_app_comm.
  - pose proof (filter_split_perm is_done (s_fly s)) as SP.
    destruct OK as (G1&G2&G3).
    destruct (dec_spec (filter is_done (s_fly s)) (s_groups s) (filter (fun j => negb (is_done j)) (s_fly s))) as (gs'&D&OK'&SG).
    { split; [|split]; intros; rewrite <- (cnt_perm _ _ _ SP); auto. }
    rewrite D. eexists. split; [reflexivity|]. split.
    + split; cbn [s_groups s_fly]; auto.
      assert (LE : length (filter on_thread (filter (fun j => negb (is_done j)) (s_fly s))) <= length (filter on_thread (s_fly s))).
      { clear. induction (s_fly s) as [|x l IH]; cbn; auto. destruct (negb (is_done x)); cbn; destruct (on_thread x); cbn; lia. }
      lia.
    + unfold staged. cbn [s_groups s_fly s_final]. rewrite SG. apply Permutation_app_head. rewrite app_nil_r.
      fold (ids (filter is_done (s_fly s))).
      eapply perm_trans; [apply Permutation_app_tail; apply (Permutation_map (fun j => (f_id j, f_group j)) SP)|].
      rewrite map_app. fold (ids (filter is_done (s_fly s))). fold (ids (filter (fun j => negb (is_done j)) (s_fly s))).
      rewrite !app_assoc. apply Permutation_app_tail. apply Permutation_app_comm.
  - destruct (get (s_fly s) k) as [j|] eqn:G.
    2:{ exists s. split; auto. split; [split; auto|]. now rewrite app_nil_r. }
    destruct (move_ok workers (s_fly s) (f_phase j) p) eqn:M.
    2:{ exists s. split; auto. split; [split; auto|]. now rewrite app_nil_r. }
    destruct (set_lt (s_fly s) k (mkF (f_id j) (f_group j) p)) as [fl E]; [eapply get_some; eauto|]. rewrite E.
    eexists. split; [reflexivity|].
    assert (MI : map (fun j => (f_id j, f_group j)) fl = map (fun j => (f_id j, f_group j)) (s_fly s))
      by (eapply set_map; eauto).
    assert (CE : forall i, cnt fl i = cnt (s_fly s) i).
    { intros i. unfold cnt. apply (filter_of_map (fun j => (f_id j, f_group j)) (fun q => snd q =? i)). exact MI. }
    split.
    + destruct OK as (G1&G2&G3). split; cbn [s_groups s_fly].
      * split; [|split]; intros; rewrite CE; auto.
      * pose proof (set_filter_len on_thread _ _ _ _ _ G E) as FL. unfold on_thread in FL at 2 4. cbn [f_phase] in FL.
        unfold move_ok in M.
        destruct (f_phase j), p; try discriminate; try apply N.ltb_lt in M; try lia.
    + unfold staged. cbn [s_groups s_fly s_final]. unfold ids. rewrite MI, app_nil_r. reflexivity.
Qed.

Lemma submitted_app a b : submitted (a ++ b) = submitted a ++ submitted b.
Proof. induction a as [|[] a IH]; cbn; auto. now rewrite IH. Qed.

Lemma g_run_spec : forall evs s, g_inv s -> exists s', g_run workers limits evs s = Some s' /\ g_inv s' /\
  Permutation (staged s ++ ids (s_fly s) ++ s_final s ++ submitted evs)
              (staged s' ++ ids (s_fly s') ++ s_final s').
Proof.
  induction evs as [|e r IH]; intros s I; cbn [g_run].
  - exists s. split; auto. split; auto. cbn. now rewrite app_nil_r.
  - destruct (g_step_spec s e I) as (s1&E&I1&P1). rewrite E.
    destruct (IH s1 I1) as (s'&E'&I'&P'). exists s'. split; auto. split; auto.
    eapply perm_trans; [|exact P']. change (e :: r) with ([e] ++ r). rewrite submitted_app.
    rewrite !app_assoc. rewrite !app_assoc in P1. apply Permutation_app_tail. exact P1.
Qed.

Lemma g_init_inv : g_inv s_init.
Proof.
  split; [split; [|split]|]; cbn.
  - intros [|i]; discriminate.
  - reflexivity.
  - intros i. pose proof (mx_range i). lia.
  - unfold threads. lia.
Qed.
End Groups.
