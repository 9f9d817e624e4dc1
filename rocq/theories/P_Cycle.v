From Coq Require Import List Arith Bool Lia Relations.
From Verif Require Import M_Build M_Cycle S_Cycle.
Import ListNotations.

Lemma mem_in k l : mem k l = true <-> In k l.
Proof.
  unfold mem. rewrite existsb_exists. split.
  - intros (x&H&E). apply Nat.eqb_eq in E. now subst.
  - intros H. exists k. split; auto. apply Nat.eqb_refl.
Qed.
Lemma mem_out k l : mem k l = false <-> ~ In k l.
Proof. rewrite <- mem_in. destruct (mem k l); split; congruence. Qed.

Lemma done_unf g k : c_done g k = false <-> unfinished g k.
Proof. unfold c_done, unfinished. destruct (c_st g k); cbn; intuition congruence. Qed.
Lemma done_not g k : c_done g k = true <-> ~ unfinished g k.
Proof. rewrite <- done_unf. destruct (c_done g k); split; congruence. Qed.

Lemma orelse_list rec a b s :
  orelse (cyc_list rec s a) (fun s1 => cyc_list rec s1 b) = cyc_list rec s (a ++ b).
Proof.
  revert s. induction a as [|x a IH]; intros s; cbn; auto.
  destruct (rec s x) as [[[] s']|]; auto.
Qed.
Lemma orelse_ext a f h : (forall s, f s = h s) -> orelse a f = orelse a h.
Proof. intros E. destruct a as [[[] s]|]; cbn; auto. Qed.

Definition succs (g : cgraph) (k : nat) : list nat := c_pre g k ++ c_static g k ++ c_dyn g k.
Lemma in_succs g a b : In b (succs g a) <-> dep_edge g a b.
Proof. unfold succs, dep_edge. rewrite !in_app_iff. tauto. Qed.

Lemma cyc_eq f g stack seen k :
  cyc (S f) g stack seen k =
  if c_done g k then Some (false, seen)
  else if mem k stack then Some (true, seen)
  else if mem k seen then Some (false, seen)
  else cyc_list (cyc f g (k :: stack)) (k :: seen) (succs g k).
Proof.
  cbn [cyc]. destruct (c_done g k); auto. destruct (mem k stack); auto. destruct (mem k seen); auto.
  unfold succs. rewrite <- orelse_list. apply orelse_ext. intros s. apply orelse_list.
Qed.

(** ** Soundness *)
(* the stack is a path ending at (top) *)
Fixpoint chain (g : cgraph) (stack : list nat) (k : nat) : Prop :=
  match stack with
  | [] => True
  | p :: r => open_edge g p k /\ chain g r p
  end.

Lemma chain_in g stack : forall k x, chain g stack k -> In x stack -> clos_trans nat (open_edge g) x k.
Proof.
  induction stack as [|p r IH]; cbn; intros k x H HI; [tauto|]. destruct H as [H1 H2].
  destruct HI as [->|HI]; [now apply t_step|]. eapply t_trans; [eapply IH; eauto|now apply t_step].
Qed.

Definition bottom (stack : list nat) (k : nat) : nat := last stack k.
Lemma bottom_path g stack : forall k x, chain g stack k -> In x (k :: stack) ->
  clos_refl_trans nat (open_edge g) (bottom stack k) x.
Proof.
  induction stack as [|p r IH]; cbn [chain]; intros k x H HI.
  - destruct HI as [->|[]]. apply rt_refl.
  - destruct H as [H1 H2].
    assert (E : bottom (p :: r) k = bottom r p).
    { unfold bottom. destruct r as [|q r']; auto. clear. revert p q. 
      induction r' as [|z r' IH]; intros p q; auto. cbn [last] in *. apply (IH p z). }
    rewrite E. destruct HI as [->|HI]; [|now apply IH].
    eapply rt_trans; [apply (IH p p H2); now left|now apply rt_step].
Qed.

Lemma bottom_cons p r k : bottom (p :: r) k = bottom r p.
Proof.
  unfold bottom. destruct r as [|q r']; auto. revert p q.
  induction r' as [|z r' IH]; intros p q; auto. cbn [last] in *. apply (IH p z).
Qed.

Lemma cyc_sound f : forall g stack seen k s, cyc f g stack seen k = Some (true, s) ->
  (stack <> [] -> unfinished g k -> chain g stack k) ->
  (stack = [] -> True) ->
  exists x, clos_refl_trans nat (open_edge g) (bottom stack k) x /\ clos_trans nat (open_edge g) x x.
Proof.
  induction f as [|f IH]; intros g stack seen k s H CH _; [discriminate|].
  rewrite cyc_eq in H. destruct (c_done g k) eqn:D; [discriminate|]. apply done_unf in D.
  destruct (mem k stack) eqn:M.
  - apply mem_in in M. exists k. assert (NE : stack <> []) by (intros ->; destruct M).
    specialize (CH NE D). split; [apply bottom_path; auto; now left|]. eapply chain_in; eauto.
  - destruct (mem k seen); [discriminate|].
    assert (CK : chain g stack k) by (destruct stack; [exact I|apply CH; auto; discriminate]).
    assert (L : forall ds sn, (forall d, In d ds -> dep_edge g k d) ->
        cyc_list (cyc f g (k :: stack)) sn ds = Some (true, s) ->
        exists x, clos_refl_trans nat (open_edge g) (bottom stack k) x /\ clos_trans nat (open_edge g) x x).
    { induction ds as [|d r IHd]; intros sn HD HL; [discriminate|]. cbn [cyc_list] in HL.
      destruct (cyc f g (k :: stack) sn d) as [[[] s1]|] eqn:E; [| |discriminate].
      - rewrite <- (bottom_cons k stack d). eapply IH; eauto. intros _ U. split; auto.
        split; auto. apply HD. now left.
      - eapply IHd; eauto. intros; apply HD. now right. }
    eapply L; [|exact H]. intros d Hd. now apply in_succs.
Qed.

(** ** Completeness *)
Fixpoint topo (g : cgraph) (l : list nat) : Prop :=
  match l with
  | [] => True
  | b :: r => (forall c, dep_edge g b c -> unfinished g c -> In c r) /\ ~ In b r /\ topo g r
  end.

Record CInv (g : cgraph) (stack seen blk : list nat) : Prop := {
  ci_seen : forall x, In x seen <-> In x blk \/ In x stack;
  ci_disj : forall x, In x blk -> ~ In x stack;
  ci_topo : topo g blk }.

Lemma cyc_complete f : forall g stack seen k s blk, cyc f g stack seen k = Some (false, s) ->
  CInv g stack seen blk ->
  exists blk', CInv g stack s blk' /\ incl blk blk' /\ (unfinished g k -> In k blk').
Proof.
  induction f as [|f IH]; intros g stack seen k s blk H CI; [discriminate|].
  rewrite cyc_eq in H. destruct (c_done g k) eqn:D.
  - injection H as <-. exists blk. split; auto. split; [apply incl_refl|]. intros U. apply done_not in D. tauto.
  - destruct (mem k stack) eqn:M; [discriminate|]. apply mem_out in M.
    destruct (mem k seen) eqn:MS.
    + injection H as <-. apply mem_in in MS. apply CI in MS. exists blk. split; auto. split; [apply incl_refl|]. tauto.
    + apply mem_out in MS.
      assert (L : forall ds sn b0, CInv g (k :: stack) sn b0 ->
        cyc_list (cyc f g (k :: stack)) sn ds = Some (false, s) ->
        exists b1, CInv g (k :: stack) s b1 /\ incl b0 b1 /\ (forall d, In d ds -> unfinished g d -> In d b1)).
      { induction ds as [|d r IHd]; intros sn b0 C0 HL; cbn [cyc_list] in HL.
        - injection HL as <-. exists b0. split; auto. split; [apply incl_refl|]. intros d [].
        - destruct (cyc f g (k :: stack) sn d) as [[[] s1]|] eqn:E; [discriminate| |discriminate].
          destruct (IH _ _ _ _ _ _ E C0) as (b1&B1&B2&B3).
          destruct (IHd _ _ B1 HL) as (b2&B4&B5&B6).
          exists b2. split; auto. split; [eapply incl_tran; eauto|].
          intros x [<-|Hx] U; auto. }
      assert (C0 : CInv g (k :: stack) (k :: seen) blk).
      { destruct CI as [A B C]. split; auto.
        - intros x. cbn. rewrite A. tauto.
        - intros x Hx [<-|Hs]; [|eapply B; eauto]. apply MS, A. auto. }
      destruct (L _ _ _ C0 H) as (b1&[A B C]&B2&B3).
      exists (k :: b1). split; [|split].
      * split.
        -- intros x. rewrite A. cbn. tauto.
        -- intros x [<-|Hx]; auto. intros Hs. apply (B x Hx). now right.
        -- cbn. split; [|split; auto].
           ++ intros c E U. apply B3; auto. now apply in_succs.
           ++ intros Hk. apply (B k Hk). now left.
      * intros x Hx. right. auto.
      * intros _. now left.
Qed.

(* position from the end *)
Fixpoint rank (x : nat) (l : list nat) : nat :=
  match l with [] => 0 | b :: r => if Nat.eq_dec x b then length l else rank x r end.
Lemma rank_le x l : rank x l <= length l.
Proof. induction l as [|b r IH]; cbn; auto. destruct (Nat.eq_dec x b); lia. Qed.
Lemma rank_pos x l : In x l -> 0 < rank x l.
Proof. induction l as [|b r IH]; cbn; [tauto|]. destruct (Nat.eq_dec x b); [lia|]. intros [->|H]; [congruence|auto]. Qed.

Lemma topo_edge g l : topo g l -> forall a b, In a l -> open_edge g a b -> In b l /\ rank b l < rank a l.
Proof.
  induction l as [|x r IH]; cbn [topo]; intros T a b HI E; [destruct HI|].
  destruct T as (T1&T2&T3). cbn [rank]. destruct HI as [<-|HI].
  - destruct E as (E1&E2&E3). specialize (T1 b E1 E3). split; [now right|].
    destruct (Nat.eq_dec x x); [|congruence]. destruct (Nat.eq_dec b x) as [->|]; [tauto|].
    pose proof (rank_le b r). cbn. lia.
  - destruct (IH T3 a b HI E) as [I1 I2]. split; [now right|].
    destruct (Nat.eq_dec b x) as [->|]; [tauto|]. destruct (Nat.eq_dec a x) as [->|]; [tauto|]. auto.
Qed.

Lemma topo_path g l : topo g l -> forall a b, clos_refl_trans nat (open_edge g) a b -> In a l -> In b l.
Proof. intros T a b P. induction P; auto. intros HI. eapply topo_edge; eauto. Qed.
Lemma topo_nocycle g l : topo g l -> forall a b, clos_trans nat (open_edge g) a b -> In a l ->
  In b l /\ rank b l < rank a l.
Proof.
  intros T a b P. induction P; intros HI.
  - eapply topo_edge; eauto.
  - destruct (IHP1 HI) as [I1 I2]. destruct (IHP2 I1). split; auto. lia.
Qed.

Lemma cyc_exact f g root s b : cyc f g [] [] root = Some (b, s) -> (b = true <-> has_cycle g root).
Proof.
  intros H. destruct b.
  - split; [intros _|auto].
    destruct (cyc_sound _ _ _ _ _ _ H) as (x&P&C); auto; [congruence|].
    split; [|exists x; auto]. destruct f; [discriminate|]. cbn [cyc] in H.
    destruct (c_done g root) eqn:D; [discriminate|]. now apply done_unf.
  - split; [discriminate|]. intros (U&x&P&C).
    destruct (cyc_complete _ _ _ _ _ _ [] H) as (blk&[_ _ T]&_&K).
    { split; cbn; tauto. }
    specialize (K U). pose proof (topo_path _ _ T _ _ P K) as IX.
    destruct (topo_nocycle _ _ T _ _ C IX). lia.
Qed.

(** ** Termination *)
Definition unseen (n : nat) (seen : list nat) : nat :=
  length (filter (fun k => negb (mem k seen)) (seq 0 n)).

Lemma unseen_le n s s' : incl s s' -> unseen n s' <= unseen n s.
Proof.
  intros H. unfold unseen. induction (seq 0 n) as [|k l IH]; cbn [filter]; auto.
  destruct (mem k s') eqn:E'; destruct (mem k s) eqn:E; cbn [negb length]; try lia.
  apply mem_in in E. apply H in E. apply mem_in in E. congruence.
Qed.
Lemma unseen_lt n s k : k < n -> ~ In k s -> unseen n (k :: s) < unseen n s.
Proof.
  intros HK HN. unfold unseen. assert (IN : In k (seq 0 n)) by (apply in_seq; lia). revert IN.
  assert (LE : forall l, length (filter (fun j => negb (mem j (k :: s))) l) <= length (filter (fun j => negb (mem j s)) l)).
  { induction l as [|j l IH]; cbn [filter]; auto.
    destruct (mem j (k :: s)) eqn:A; destruct (mem j s) eqn:B; cbn [negb length]; try lia.
    apply mem_in in B. apply mem_out in A. exfalso. apply A. now right. }
  induction (seq 0 n) as [|j l IH]; cbn [filter]; [intros []|]. intros [->|IN].
  - assert (A : mem k (k :: s) = true) by (apply mem_in; now left).
    assert (B : mem k s = false) by now apply mem_out. rewrite A, B. cbn [negb length]. specialize (LE l). lia.
  - specialize (IH IN). destruct (mem j (k :: s)) eqn:A; destruct (mem j s) eqn:B; cbn [negb length]; try lia.
    apply mem_in in B. apply mem_out in A. exfalso. apply A. now right.
Qed.
Lemma unseen_bound n s : unseen n s <= n.
Proof.
  unfold unseen. rewrite <- (seq_length n 0) at 2. generalize (seq 0 n) as l.
  induction l as [|x l IH]; cbn; auto. destruct (negb _); cbn; lia.
Qed.

Lemma cyc_incl f : forall g stack seen k b s, cyc f g stack seen k = Some (b, s) -> incl seen s.
Proof.
  induction f as [|f IH]; intros g stack seen k b s H; [discriminate|].
  rewrite cyc_eq in H. destruct (c_done g k); [injection H as _ <-; apply incl_refl|].
  destruct (mem k stack); [injection H as _ <-; apply incl_refl|].
  destruct (mem k seen); [injection H as _ <-; apply incl_refl|].
  assert (L : forall ds sn, cyc_list (cyc f g (k :: stack)) sn ds = Some (b, s) -> incl sn s).
  { induction ds as [|d r IHd]; intros sn HL; cbn [cyc_list] in HL.
    - injection HL as _ <-. apply incl_refl.
    - destruct (cyc f g (k :: stack) sn d) as [[[] s1]|] eqn:E; [| |discriminate].
      + injection HL as _ <-. eapply IH; eauto.
      + eapply incl_tran; [eapply IH; eauto|eapply IHd; eauto]. }
  apply L in H. eapply incl_tran; [|exact H]. apply incl_tl, incl_refl.
Qed.

Lemma cyc_total n g (B : bounded g n) f : forall stack seen k, k < n -> unseen n seen < f ->
  cyc f g stack seen k <> None.
Proof.
  induction f as [|f IH]; intros stack seen k HK HF; [lia|].
  rewrite cyc_eq. destruct (c_done g k); [discriminate|]. destruct (mem k stack); [discriminate|].
  destruct (mem k seen) eqn:M; [discriminate|]. apply mem_out in M.
  pose proof (unseen_lt n seen k HK M) as LT.
  assert (L : forall ds sn, (forall d, In d ds -> d < n) -> unseen n sn < f ->
     cyc_list (cyc f g (k :: stack)) sn ds <> None).
  { induction ds as [|d r IHd]; intros sn HD HU; cbn [cyc_list]; [discriminate|].
    assert (Q : cyc f g (k :: stack) sn d <> None) by (apply IH; auto; apply HD; now left).
    destruct (cyc f g (k :: stack) sn d) as [[[] s1]|] eqn:E; [discriminate| |congruence].
    apply IHd; [intros; apply HD; now right|]. pose proof (unseen_le n _ _ (cyc_incl _ _ _ _ _ _ _ E)). lia. }
  apply L; [|lia]. intros d Hd. apply (B k). now apply in_succs.
Qed.

(** ** Final status *)
Lemma orelse_fail rec g a b s :
  orelse (fail_list rec g s a) (fun s1 => fail_list rec g s1 b) = fail_list rec g s (a ++ b).
Proof.
  revert s. induction a as [|x a IH]; intros s; cbn; auto.
  destruct (mem x s); auto. destruct (is_failed _); auto. destruct (is_uptodate _); auto.
  destruct (rec (x :: s) x) as [[[] s']|]; auto.
Qed.
Lemma fail_node_eq f g seen k :
  fail_node (S f) g seen k = fail_list (fail_node f g) g seen (succs g k).
Proof.
  cbn [fail_node]. unfold succs. rewrite <- orelse_fail. apply orelse_ext. intros s. apply orelse_fail.
Qed.

Lemma fail_sound f : forall g seen k s, fail_node f g seen k = Some (true, s) -> reaches_failure g k.
Proof.
  induction f as [|f IH]; intros g seen k s H; [discriminate|]. rewrite fail_node_eq in H.
  assert (HD : forall d, In d (succs g k) -> dep_edge g k d) by (intros d; apply in_succs).
  revert HD H. generalize (succs g k) as ds. intros ds. revert seen.
  induction ds as [|d r IHd]; intros seen HD H; cbn [fail_list] in H; [discriminate|].
  assert (HR : forall x, In x r -> dep_edge g k x) by (intros; apply HD; now right).
  destruct (mem d seen); [eapply IHd; eauto|].
  destruct (is_failed (c_st g d)) eqn:F.
  - apply rf_here with d; [apply HD; now left|]. destruct (c_st g d); try discriminate; auto.
  - destruct (is_uptodate (c_st g d)) eqn:U; [eapply IHd; eauto|].
    destruct (fail_node f g (d :: seen) d) as [[[] s1]|] eqn:E; [| |discriminate].
    + apply rf_step with d; [apply HD; now left| |eapply IH; eauto]. intros Q. rewrite Q in U. discriminate.
    + eapply IHd; eauto.
Qed.

(* what a false answer leaves behind *)
Definition clean (g : cgraph) (old new : list nat) : Prop :=
  incl old new /\
  forall x, In x new -> ~ In x old -> c_st g x <> Failed /\
    (c_st g x = UpToDate \/ forall y, dep_edge g x y -> In y new).

Lemma clean_trans g a b c : clean g a b -> clean g b c -> clean g a c.
Proof.
  intros [A1 A2] [B1 B2]. split; [eapply incl_tran; eauto|].
  intros x Hc Ha. destruct (in_dec Nat.eq_dec x b) as [Hb|Hb].
  - destruct (A2 x Hb Ha) as [Q1 [Q2|Q2]]; split; auto.
  - apply B2; auto.
Qed.

Lemma fail_complete f : forall g seen k s, fail_node f g seen k = Some (false, s) ->
  clean g seen s /\ forall d, dep_edge g k d -> In d s.
Proof.
  induction f as [|f IH]; intros g seen k s H; [discriminate|]. rewrite fail_node_eq in H.
  assert (L : forall ds seen, fail_list (fail_node f g) g seen ds = Some (false, s) ->
     clean g seen s /\ incl ds s).
  { induction ds as [|d r IHd]; intros sn HL; cbn [fail_list] in HL.
    - injection HL as <-. split; [split; [apply incl_refl|tauto]|]. intros x [].
    - destruct (mem d sn) eqn:M.
      + apply mem_in in M. destruct (IHd _ HL) as [C I]. split; auto.
        intros x [<-|Hx]; [|auto]. now apply C.
      + apply mem_out in M. destruct (is_failed (c_st g d)) eqn:F; [discriminate|].
        destruct (is_uptodate (c_st g d)) eqn:U.
        * destruct (IHd _ HL) as [C I]. split.
          -- eapply clean_trans; [|exact C]. split; [apply incl_tl, incl_refl|].
             intros x [<-|Hx] Hn; [|tauto]. split; [intros Q; rewrite Q in F; discriminate|left].
             destruct (c_st g d); try discriminate; auto.
          -- intros x [<-|Hx]; [|auto]. apply C. now left.
        * destruct (fail_node f g (d :: sn) d) as [[[] s1]|] eqn:E; [discriminate| |discriminate].
          destruct (IH _ _ _ _ E) as [C1 D1]. destruct (IHd _ HL) as [C I].
          assert (C2 : clean g (d :: sn) s) by (eapply clean_trans; eauto).
          split.
          -- destruct C2 as [I2 Q2]. split; [intros x Hx; apply I2; now right|].
             intros x Hs Hn. destruct (Nat.eq_dec x d) as [->|NE].
             ++ split; [intros Q; rewrite Q in F; discriminate|right]. intros y Hy. apply C. auto.
             ++ apply Q2; auto. intros [Q|Q]; congruence.
          -- intros x [<-|Hx]; [|auto]. apply C2. now left. }
  destruct (L _ _ H) as [C I]. split; auto. intros d Hd. apply I. now apply in_succs.
Qed.

Lemma fail_none g s : clean g [] s -> forall k, reaches_failure g k -> (forall d, dep_edge g k d -> In d s) -> False.
Proof.
  intros [_ C] k R. induction R as [a b E F|a b E NU R IH]; intros D.
  - destruct (C b (D b E)) as [Q _]; auto.
  - destruct (C b (D b E)) as [_ [Q|Q]]; auto.
Qed.

Lemma fail_exact f g k b s : fail_node f g [] k = Some (b, s) -> (b = true <-> reaches_failure g k).
Proof.
  intros H. destruct b.
  - split; auto. intros _. eapply fail_sound; eauto.
  - split; [discriminate|]. intros R. destruct (fail_complete _ _ _ _ _ H) as [C D].
    exfalso. eapply fail_none; eauto.
Qed.

Lemma fail_incl f g seen k b s : fail_node f g seen k = Some (b, s) -> incl seen s.
Proof.
  revert seen k b s. induction f as [|f IH]; intros seen k b s H; [discriminate|]. rewrite fail_node_eq in H.
  revert seen H. generalize (succs g k) as ds. induction ds as [|d r IHd]; intros sn H; cbn [fail_list] in H.
  - injection H as _ <-. apply incl_refl.
  - destruct (mem d sn); [eauto|]. destruct (is_failed _); [injection H as _ <-; apply incl_tl, incl_refl|].
    destruct (is_uptodate _).
    + intros x Hx. eapply IHd; eauto. now right.
    + destruct (fail_node f g (d :: sn) d) as [[[] s1]|] eqn:E; [| |discriminate].
      * injection H as _ <-. intros x Hx. eapply IH; eauto. now right.
      * intros x Hx. eapply IHd; eauto. eapply IH; eauto. now right.
Qed.

Lemma fail_total n g (B : bounded g n) f : forall seen k, unseen n seen < f -> fail_node f g seen k <> None.
Proof.
  induction f as [|f IH]; intros seen k HF; [lia|]. rewrite fail_node_eq.
  assert (HD : forall d, In d (succs g k) -> d < n) by (intros d Hd; apply (B k); now apply in_succs).
  revert HD seen HF. generalize (succs g k) as ds.
  induction ds as [|d r IHd]; intros HD sn HF; cbn [fail_list]; [discriminate|].
  assert (HR : forall x, In x r -> x < n) by (intros; apply HD; now right).
  destruct (mem d sn) eqn:M; [auto|]. apply mem_out in M.
  destruct (is_failed _); [discriminate|].
  pose proof (unseen_lt n sn d ltac:(apply HD; now left) M) as LT.
  destruct (is_uptodate _); [apply IHd; auto; lia|].
  assert (Q : fail_node f g (d :: sn) d <> None) by (apply IH; lia).
  destruct (fail_node f g (d :: sn) d) as [[[] s1]|] eqn:E; [discriminate| |congruence].
  apply IHd; auto. pose proof (unseen_le n _ _ (fail_incl _ _ _ _ _ _ E)). lia.
Qed.
