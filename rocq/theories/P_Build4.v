(** Why a target failed, and the effect of a second build. *)
From Coq Require Import List Arith NArith Bool Lia Relations.
From Verif Require Import M_Build S_Build P_Build P_Build2 P_Build3.
Import ListNotations.

Definition blame (g : graph) : Prop :=
  forall l2 k l1, g_log g = l2 ++ EvFailed k CDeps :: l1 ->
  exists d, In d (dep_ids (g_nodes g k)) /\ exists c, In (EvFailed d c) l1.

Lemma blame_step dyn g g' pend :
  Inv dyn g pend -> blame g ->
  (forall k, st g k = Failed -> dep_ids (g_nodes g' k) = dep_ids (g_nodes g k)) ->
  (g_log g' = g_log g \/
   exists e, g_log g' = e :: g_log g /\
     forall k, e = EvFailed k CDeps -> exists d, In d (dep_ids (g_nodes g' k)) /\ st g d = Failed) ->
  blame g'.
Proof.
  intros I B K L l2 k l1 H.
  assert (OLD : forall l2, g_log g = l2 ++ EvFailed k CDeps :: l1 ->
     exists d, In d (dep_ids (g_nodes g' k)) /\ exists c, In (EvFailed d c) l1).
  { intros l H'. destruct (B _ _ _ H') as (d&D1&D2). exists d. split; auto. rewrite K; auto.
    apply (i_failed _ _ _ I). exists CDeps. rewrite H'. apply in_app_iff. right. now left. }
  destruct L as [L|(e&L&E)]; rewrite L in H; eauto.
  destruct l2 as [|x l2]; cbn in H; injection H as H1 H2; eauto.
  destruct (E k H1) as (d&D1&D2). exists d. split; auto.
  rewrite <- H2. now apply (i_failed _ _ _ I).
Qed.

Lemma micro_blame o dyn g g' pend : micro o dyn g g' -> Inv dyn g pend -> blame g -> blame g'.
Proof.
  intros M I B.
  assert (K : forall k, st g k = Failed -> dep_ids (g_nodes g' k) = dep_ids (g_nodes g k)).
  { intros k H. destruct (micro_nodes _ _ _ _ M k) as (A1&A2&_&_&_&_&_&A). unfold dep_ids.
    rewrite A1, A2. destruct A as [-> _]; [rewrite H; discriminate|]. auto. }
  apply (blame_step dyn g g' pend); auto.
  destruct M; cbn; auto; right; eexists; (split; [reflexivity|]); intros j E; try discriminate.
  injection E as <-. destruct H1 as (d&D1&D2). exists (d_node d). split; auto.
  rewrite upd_same. cbn. apply in_dep_ids. exact D1.
Qed.

Lemma mstar_blame o dyn g g' pend : mstar o dyn g g' -> Inv dyn g pend -> blame g -> blame g'.
Proof. induction 1; auto. intros I B. eauto using micro_inv, micro_blame. Qed.

Lemma finalize_job_blame dyn g k r pend :
  Inv dyn g ((k, r) :: pend) -> blame g -> blame (finalize_job g (k, r)).
Proof.
  intros I B. destruct (inv_drop _ _ _ _ I) as (_&NJ&SB). cbn in NJ, SB.
  cbn. destruct r as [s [incl|]|z|]; auto.
  - unfold finalize_object.
    destruct (finalize_includes (upd_node g k (set_dyn [])) k incl) as [g1 ok] eqn:Hi.
    destruct (finalize_includes_shape _ _ _ _ _ Hi) as (L1&_&_&_&_&NN). cbn in L1.
    assert (D : forall j, j <> k -> dep_ids (g_nodes g1 j) = dep_ids (g_nodes g j)).
    { intros j N. destruct (NN j) as (_&A2&_&_&_&_&_&_&A9&A10&_). unfold dep_ids.
      rewrite A2, A9, A10 by auto. now rewrite nodes_upd_other. }
    destruct ok.
    + apply (blame_step dyn g _ ((k, ROk s (Some incl)) :: pend)); auto.
      * intros j Hj. assert (j <> k) by congruence. unfold finalize_node.
        rewrite nodes_add_log, !nodes_upd_other by auto. auto.
      * right. exists (EvBuilt k). split; [cbn; now rewrite L1|]. discriminate.
    + apply (blame_step dyn g _ ((k, ROk s (Some incl)) :: pend)); auto.
      * intros j Hj. assert (j <> k) by congruence. rewrite nodes_mark_other by auto. auto.
      * right. exists (EvFailed k CJob). split; [cbn; now rewrite L1|]. discriminate.
  - apply (blame_step dyn g _ ((k, ROk s None) :: pend)); auto.
    + intros j Hj. assert (j <> k) by congruence. unfold finalize_node.
      rewrite nodes_add_log, !nodes_upd_other by auto. auto.
    + right. exists (EvBuilt k). split; [reflexivity|]. discriminate.
  - apply (blame_step dyn g _ ((k, RFailed z) :: pend)); auto.
    + intros j Hj. assert (j <> k) by congruence. rewrite nodes_mark_other by auto. auto.
    + right. exists (EvFailed k CJob). split; [reflexivity|]. discriminate.
Qed.

Lemma finalize_fold_blame dyn pend : forall g,
  Inv dyn g pend -> blame g -> blame (fold_left finalize_job pend g).
Proof.
  induction pend as [|[k r] p IH]; cbn [fold_left]; auto.
  intros g I B. apply IH; [now apply finalize_job_inv|eapply finalize_job_blame; eauto].
Qed.

Lemma blame_same g g' : blame g -> (forall k, dep_ids (g_nodes g' k) = dep_ids (g_nodes g k)) ->
  g_log g' = g_log g -> blame g'.
Proof. intros B E L l2 k l1 H. rewrite L in H. rewrite E. eapply B; eauto. Qed.

Lemma step_blame fuel o dyn root g e g' :
  step fuel o dyn root g e = Some g' -> Inv dyn g (g_done g) -> blame g -> blame g'.
Proof.
  intros H I B. destruct e; cbn in H.
  - unfold build_pass in H. set (g1 := mkGraph _ _ _ _ _ _) in H.
    assert (I1 : Inv dyn g1 (g_done g)) by (apply inv_same with (g := g); auto).
    assert (B1 : blame g1) by (apply (blame_same g); auto).
    destruct (n_proxy (g_nodes g1 root)) eqn:NP.
    + destruct (proxy_loop fuel o dyn g1 (n_static (g_nodes g1 root))) as [[[g2 u] f]|] eqn:L; [|discriminate].
      destruct (proxy_loop_mstar _ _ _ _ _ _ _ _ L) as (MS&_&UT&FL).
      assert (I2 : Inv dyn g2 (g_done g)) by (eapply mstar_inv; eauto).
      assert (B2 : blame g2) by (eapply mstar_blame; eauto).
      destruct (Nat.eqb (u + f) _).
      2:{ injection H as <-. auto. }
      destruct (Nat.eqb_spec f 0) as [F|F]; injection H as <-.
      * apply (blame_step dyn g2 _ (g_done g)); auto.
        -- intros j Hj. rewrite nodes_add_log. cases_upd j root; auto.
        -- right. eexists. split; [reflexivity|]. discriminate.
      * apply (blame_step dyn g2 _ (g_done g)); auto.
        -- intros j Hj. cases_upd j root; auto.
        -- right. eexists. split; [reflexivity|]. intros j E. injection E as <-.
           destruct (FL F) as (d&D1&D2). exists (d_node d). split; auto.
           rewrite nodes_mark_same. apply in_dep_ids. unfold alldeps. rewrite !in_app_iff.
           right. left. cbn.
           assert (SS : n_static (g_nodes g2 root) = n_static (g_nodes g1 root)).
           { clear - MS. induction MS as [|a b c M _ IH]; auto. rewrite IH.
             apply (micro_nodes _ _ _ _ M). }
           now rewrite SS.
    + destruct (before_building (st g1 root)).
      * apply build_recurse_mstar in H. eapply mstar_blame; eauto.
      * injection H as <-. auto.
  - injection H as <-. unfold finish. destruct (in_dec Nat.eq_dec k (g_active g)); auto.
    apply (blame_same g); auto. intros j. cbn.
    destruct r as [s i0|[|]|]; auto; cbn;
      (destruct (Nat.eq_dec j k) as [->|]; [rewrite !upd_same|rewrite !upd_other by auto]); auto.
  - injection H as <-. unfold finalize_jobs.
    pose proof (i_jobs _ _ _ I) as ND. apply NoDup_app_inv in ND as (N1&N2&N3).
    destruct (done_parts _ N2) as [P1 P2].
    apply (finalize_fold_blame dyn).
    + apply inv_weaken_pend with (g := g) (pend := g_done g); auto.
      * cbn. apply NoDup_app_inv. repeat split; auto. intros x Hx Hp. apply (N3 x Hx). auto.
      * intros x. cbn. rewrite !in_app_iff. intuition.
    + apply (blame_same g); auto.
  - injection H as <-. apply (blame_same g); auto.
Qed.

Lemma run_blame fuel o dyn root es : forall g g',
  run fuel o dyn root g es = Some g' -> Inv dyn g (g_done g) -> blame g -> blame g'.
Proof.
  induction es as [|e r IH]; cbn [run]; intros g g' H I B.
  - now injection H as <-.
  - destruct (step fuel o dyn root g e) as [g1|] eqn:S; [|discriminate].
    eapply IH; eauto using step_inv, step_blame.
Qed.

Lemma fresh_blame g : fresh g -> blame g.
Proof. intros (_&_&_&L) l2 k l1 H. rewrite L in H. destruct l2; discriminate. Qed.

(** Every failure is explained by a chain of failed dependencies ending in a target whose own
    job, or whose own dynamic dependency step, failed. *)
Definition failed_dep (g : graph) (a b : nat) : Prop :=
  In b (dep_ids (g_nodes g a)) /\ st g a = Failed /\ st g b = Failed.

Lemma blame_chain dyn g pend : Inv dyn g pend -> blame g -> forall k, st g k = Failed ->
  exists m, clos_refl_trans nat (failed_dep g) k m /\ st g m = Failed /\
            (started (g_log g) m \/ dyn m = None).
Proof.
  intros I B.
  assert (H : forall n l2 k c l1, length l1 < n -> g_log g = l2 ++ EvFailed k c :: l1 ->
     exists m, clos_refl_trans nat (failed_dep g) k m /\ st g m = Failed /\
               (started (g_log g) m \/ dyn m = None)).
  { induction n as [|n IH]; intros l2 k c l1 LN E; [lia|].
    assert (IN : In (EvFailed k c) (g_log g)) by (rewrite E; apply in_app_iff; right; now left).
    assert (SF : st g k = Failed) by (apply (i_failed _ _ _ I); eauto).
    destruct c.
    - destruct (B _ _ _ E) as (d&D1&c'&D2).
      apply in_split in D2 as (a&b&D2).
      destruct (IH (l2 ++ EvFailed k CDeps :: a) d c' b) as (m&M1&M2).
      + rewrite D2, app_length in LN. cbn in LN. lia.
      + rewrite E, D2. now rewrite <- app_assoc.
      + exists m. split; auto. eapply rt_trans; [apply rt_step|exact M1].
        split; auto. split; auto. apply (i_failed _ _ _ I). exists c'. rewrite E, D2.
        rewrite !in_app_iff. cbn. rewrite in_app_iff. cbn. auto.
    - exists k. split; [apply rt_refl|]. split; auto. right. now apply (i_cdyn _ _ _ I).
    - exists k. split; [apply rt_refl|]. split; auto. left. now apply (i_cjob _ _ _ I). }
  intros k SF. apply (i_failed _ _ _ I) in SF as (c&SF). apply in_split in SF as (a&b&E).
  eapply (H (S (length b))); eauto.
Qed.

(** ** Reading the log *)
Lemma log_ok_split l2 e l1 : log_ok (l2 ++ e :: l1) -> log_ok (e :: l1).
Proof.
  induction l2 as [|x l2 IH]; cbn; auto. intros H. apply IH. now inversion H.
Qed.

Lemma log_ok_deps l n ds : log_ok l ->
  In (EvStart n ds) l \/ In (EvSkip n ds) l \/ In (EvProxy n ds) l ->
  forall d, In d ds -> completed l d.
Proof.
  induction 1; cbn; intros HI x Hx; [tauto|..];
    apply completed_cons;
    destruct HI as [[HI|HI]|[[HI|HI]|[HI|HI]]]; try discriminate; auto;
    injection HI as -> ->; auto.
Qed.

Lemma completed_app l2 l1 k : completed l1 k -> completed (l2 ++ l1) k.
Proof. intros H. induction l2; cbn; auto. now apply completed_cons. Qed.

Lemma log_ok_built l n : log_ok l -> In (EvBuilt n) l -> started l n.
Proof.
  induction 1; cbn; intros HI; try tauto;
    try (destruct HI as [HI|HI]; [discriminate|apply started_cons; auto]).
  destruct HI as [HI|HI]; [injection HI as ->; now apply started_cons|apply started_cons; auto].
Qed.

(** ** A second build in which nothing changed *)
Section Second.
Variables (gr : graph) (o : opts) (dyn : dyn_oracle) (seen : nat -> N -> Prop) (obj : nat -> Prop).
Variable good : nat -> Prop.     (* targets brought up to date by the first build *)
Hypothesis NF : forall k, n_filenode (g_nodes gr k) = true -> n_force (g_nodes gr k) = true.
Hypothesis CL : o_clean o = false.
Hypothesis NZ : forall k, good k -> n_stamp (g_nodes gr k) <> 0%N.
Hypothesis REC : forall k d, good k -> n_force (g_nodes gr k) = false ->
  In d (n_static (g_nodes gr k) ++ n_dyn (g_nodes gr k)) -> d_weak d = false ->
  d_stamp d = n_stamp (g_nodes gr (d_node d)) /\ d_stamp d <> 0%N /\
  n_proxy (g_nodes gr (d_node d)) = false /\
  (good (d_node d) \/ n_force (g_nodes gr (d_node d)) = true).
Hypothesis DISK : forall k t, n_isfile (g_nodes gr k) = true -> n_force (g_nodes gr k) = false ->
  good k -> seen k t -> t = n_stamp (g_nodes gr k).

Lemma second_quiet g pend FI :
  Inv dyn g pend -> Inv2 gr o dyn seen FI obj g pend ->
  (forall k, n_force (g_nodes gr k) = true -> st g k = UpToDate -> stampof g k = n_stamp (g_nodes gr k)) ->
  forall k, good k -> n_force (g_nodes gr k) = false -> ~ started (g_log g) k.
Proof.
  intros I V SAME.
  assert (H : forall n l2 k ds l1, length l1 < n -> g_log g = l2 ++ EvStart k ds :: l1 ->
            good k -> n_force (g_nodes gr k) = false -> False).
  { induction n as [|n IH]; intros l2 k ds l1 LN E G F; [lia|].
    assert (IN : In (EvStart k ds) (g_log g)) by (rewrite E; apply in_app_iff; right; now left).
    assert (FN : n_filenode (g_nodes gr k) = false).
    { destruct (n_filenode (g_nodes gr k)) eqn:Q; auto. apply NF in Q. congruence. }
    assert (LO : log_ok (EvStart k ds :: l1)).
    { apply (log_ok_split l2). rewrite <- E. apply I. }
    pose proof (v_node _ _ _ _ _ _ _ _ V k FN) as WK.
    assert (DEP : forall d, In d (n_static (g_nodes gr k) ++ n_dyn (g_nodes gr k)) -> In (d_node d) ds ->
                  misfit g d -> False).
    { intros d Hd Hi (Wk&SU&MF). destruct (REC k d G F Hd Wk) as (R1&R2&R3&R4).
      assert (NS : stampof g (d_node d) = n_stamp (g_nodes gr (d_node d)) -> False).
      { intros Q. rewrite Q, <- R1 in MF. destruct MF; congruence. }
      destruct (n_force (g_nodes gr (d_node d))) eqn:Fd; [auto|].
      destruct R4 as [R4|R4]; [|discriminate].
      assert (FNd : n_filenode (g_nodes gr (d_node d)) = false).
      { destruct (n_filenode (g_nodes gr (d_node d))) eqn:Q; auto. apply NF in Q. congruence. }
      assert (CO : completed l1 (d_node d)) by (inversion LO; auto).
      assert (SUB : forall e, In e l1 -> In e (g_log g)).
      { intros e He. rewrite E. apply in_app_iff. right. now right. }
      destruct CO as [(es&CO)|[CO|(es&CO)]].
      - destruct (w_skip _ _ _ _ _ _ _ _ _ (v_node _ _ _ _ _ _ _ _ V _ FNd) es (SUB _ CO)) as ((_&_&Q)&_).
        apply NS. exact Q.
      - assert (ST : started l1 (d_node d)).
        { apply log_ok_built; auto. now inversion LO. }
        destruct ST as (es&ST). apply in_split in ST as (a&b&ST).
        apply (IH (l2 ++ EvStart k ds :: a) (d_node d) es b); auto.
        + rewrite ST, app_length in LN. cbn in LN. lia.
        + rewrite E, ST. now rewrite <- app_assoc.
      - apply SUB in CO. apply (i_pevent _ _ _ I) in CO.
        destruct (v_const _ _ _ _ _ _ _ _ V (d_node d)) as (_&_&Q&_). congruence. }
    destruct (w_start _ _ _ _ _ _ _ _ _ WK ds IN) as [[C|[C|[C|[(C1&t&C2&C3)|(d&D1&D2)]]]]|(d&D1&D2&D3)].
    - congruence.
    - congruence.
    - now apply NZ in G.
    - rewrite (DISK _ _ C1 F G C2) in C3. specialize (NZ _ G). destruct C3; congruence.
    - apply (DEP d); auto; [apply in_app_iff; auto|].
      apply (v_ids _ _ _ _ _ _ _ _ V k ds); auto. apply in_app_iff; auto.
    - apply (DEP d); auto. apply in_app_iff; auto. }
  intros k G F (ds&HS). apply in_split in HS as (a&b&HS). eapply (H (S (length b))); eauto.
Qed.
End Second.
