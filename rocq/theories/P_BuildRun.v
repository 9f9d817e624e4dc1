(** Termination of whole builds. *)
From Coq Require Import List Arith NArith Bool Lia.
From Verif Require Import M_Build S_Build P_Build P_Build2 P_BuildLive P_BuildProg.
Import ListNotations.

Definition aborts (r : result) : bool := match r with RAborted => true | _ => false end.

Lemma finalize_job_frame g k r : let g' := finalize_job g (k, r) in
  g_pass g' = g_pass g /\ g_active g' = g_active g /\ g_done g' = g_done g /\
  (forall y, n_proxy (g_nodes g' y) = n_proxy (g_nodes g y) /\ n_tag (g_nodes g' y) = n_tag (g_nodes g y) /\
             map d_node (n_static (g_nodes g' y)) = map d_node (n_static (g_nodes g y)) /\
             (y <> k -> st g' y = st g y /\ alldeps (g_nodes g' y) = alldeps (g_nodes g y))) /\
  (aborts r = false -> final (st g' k) = true).
Proof.
  assert (MD : forall f ds, map d_node (stamp_deps f ds) = map d_node ds).
  { intros f ds. unfold stamp_deps. rewrite map_map. reflexivity. }
  cbn. destruct r as [s [incl|]|z|]; cbn [aborts].
  - unfold finalize_object.
    destruct (finalize_includes (upd_node g k (set_dyn [])) k incl) as [g1 ok] eqn:Hi.
    destruct (finalize_includes_shape _ _ _ _ _ Hi) as (L1&L2&L3&L4&L5&NN). cbn in L1, L2, L3, L4, L5.
    assert (Q : forall y, n_proxy (g_nodes g1 y) = n_proxy (g_nodes g y) /\ n_tag (g_nodes g1 y) = n_tag (g_nodes g y) /\
             n_static (g_nodes g1 y) = n_static (g_nodes g y) /\
             (y <> k -> st g1 y = st g y /\ alldeps (g_nodes g1 y) = alldeps (g_nodes g y))).
    { intros y. destruct (NN y) as (A1&A2&A3&_&_&_&_&A8&A9&A10&_).
      rewrite A3, A8, A9. unfold alldeps, st in *. rewrite A1.
      destruct (Nat.eq_dec y k) as [->|NE].
      - rewrite !nodes_upd_same. cbn. repeat split; congruence.
      - rewrite A2, A9, A10 by auto. rewrite !nodes_upd_other by auto. auto. }
    destruct ok.
    + repeat split; auto.
      * intros; unfold finalize_node. rewrite nodes_add_log. cases_upd y k; rewrite ?nodes_upd_same, ?nodes_upd_other by auto; apply Q.
      * intros; unfold finalize_node. rewrite nodes_add_log. cases_upd y k; rewrite ?nodes_upd_same, ?nodes_upd_other by auto; apply Q.
      * unfold finalize_node. rewrite nodes_add_log. destruct (Q y) as (_&_&Q3&_).
        cases_upd y k; rewrite ?nodes_upd_same, ?nodes_upd_other by auto; cbn; rewrite ?MD; now rewrite Q3.
      * unfold finalize_node, st. rewrite nodes_add_log, !nodes_upd_other by auto. apply Q; auto.
      * unfold finalize_node, st. rewrite nodes_add_log, !nodes_upd_other by auto. apply Q; auto.
      * intros _. unfold st. rewrite nodes_add_log. now rewrite nodes_upd_same.
    + repeat split; auto.
      * cases_upd y k; apply Q.
      * cases_upd y k; apply Q.
      * destruct (Q y) as (_&_&Q3&_). cases_upd y k; cbn; now rewrite Q3.
      * unfold st. rewrite nodes_mark_other by auto. apply Q; auto.
      * rewrite nodes_mark_other by auto. apply Q; auto.
      * intros _. unfold st. now rewrite nodes_mark_same.
  - repeat split; auto; unfold finalize_node, st.
    + rewrite nodes_add_log. cases_upd y k; rewrite ?nodes_upd_same, ?nodes_upd_other by auto; auto.
    + rewrite nodes_add_log. cases_upd y k; rewrite ?nodes_upd_same, ?nodes_upd_other by auto; auto.
    + rewrite nodes_add_log. cases_upd y k; rewrite ?nodes_upd_same, ?nodes_upd_other by auto; auto. apply MD.
    + rewrite nodes_add_log, !nodes_upd_other by auto. auto.
    + rewrite nodes_add_log, !nodes_upd_other by auto. auto.
    + intros _. rewrite nodes_add_log. now rewrite nodes_upd_same.
  - repeat split; auto; unfold st.
    + cases_upd y k; auto.
    + cases_upd y k; auto.
    + cases_upd y k; auto.
    + rewrite nodes_mark_other by auto; auto.
    + rewrite nodes_mark_other by auto; auto.
    + intros _. now rewrite nodes_mark_same.
  - repeat split; auto. discriminate.
Qed.

Section Run.
Variables (fuel : nat) (o : opts) (dyn : dyn_oracle) (root N : nat) (R : nat -> nat -> Prop) (rk : nat -> nat).
Hypothesis RN : forall k d, R k d -> d < N.
Hypothesis RK : forall k d, R k d -> rk d < rk k.
Hypothesis RB : forall k d, k < N -> N <= d -> rk k < rk d.
Hypothesis ROOT : root < N.
Hypothesis FUEL : N < fuel.

Definition ok_op (e : op) : Prop := match e with OFinish _ r => aborts r = false | _ => True end.

Record Run (g : graph) (pend : list (nat * result)) : Prop := {
  r_closed : closed dyn R g;
  r_tags : forall y, (n_tag (g_nodes g y) <= g_pass g)%N;
  r_proxy : forall d, n_proxy (g_nodes g root) = true -> In d (n_static (g_nodes g root)) -> okdep R g root d;
  r_small : forall y, st g y <> NotProcessed -> y < N;
  r_busy : forall y, st g y = Building -> In y (g_active g ++ map fst pend);
  r_noabort : forall k r, In (k, r) pend -> aborts r = false }.

Lemma mstar_run g g' pend : mstar o dyn g g' -> Run g pend ->
  (forall y, N <= y -> st g' y = st g y) -> Run g' pend.
Proof.
  intros M I SM.
  assert (Q : closed dyn R g' /\ (forall y, (n_tag (g_nodes g' y) <= g_pass g')%N) /\
    (forall d, n_proxy (g_nodes g' root) = true -> In d (n_static (g_nodes g' root)) -> okdep R g' root d) /\
    (forall y, st g' y = Building -> In y (g_active g' ++ map fst pend))).
  { clear SM. destruct I as [I1 I2 I3 _ I5 _]. induction M as [|g1 g2 g3 M _ IH]; auto.
    pose proof (micro_nodes _ _ _ _ M) as MN. apply IH.
    - eapply micro_closed; eauto.
    - intros y. destruct M; rewrite ?nodes_add_log; cases_upd y k || cases_upd y c; cbn; auto; lia.
    - intros d P Hd. destruct (MN root) as (_&A2&A3&_). rewrite A2 in Hd. rewrite A3 in P.
      destruct (I3 d P Hd) as [B1 B2]. split; auto. destruct (MN (d_node d)) as (_&_&->&_). auto.
    - intros y. unfold st in *. destruct M; rewrite ?nodes_add_log; cbn [g_active add_log upd_node mark_failed start_job add_active];
        cases_upd y k || cases_upd y c; cbn; auto; try discriminate; try (intros Hb; right; now apply I5). }
  destruct Q as (Q1&Q2&Q3&Q4). destruct I. split; auto.
  intros y NP. destruct (le_lt_dec N y) as [L|L]; auto. apply r_small0. rewrite <- SM; auto.
Qed.

Lemma rec_small f g x g' : build_recurse f o dyn g x = Some g' -> closed dyn R g ->
  before_building (st g x) = true -> n_proxy (g_nodes g x) = false -> Tall g -> x < N ->
  forall y, N <= y -> st g' y = st g y.
Proof.
  intros H C B NP T HX y HY.
  destruct (build_recurse_prog _ _ _ _ RK f _ _ _ H C B NP) as (_&_&_&F).
  { intros z Tz _. auto. }
  unfold st. rewrite F; auto; [lia|]. specialize (RB x y HX HY). lia.
Qed.

Lemma proxy_small f k ds : forall g g' u fl, proxy_loop f o dyn g ds = Some (g', u, fl) ->
  closed dyn R g -> (forall d, In d ds -> okdep R g k d) -> Tall g ->
  forall y, N <= y -> st g' y = st g y.
Proof.
  induction ds as [|d r IH]; intros g g' u fl H C HD TA y HY; cbn [proxy_loop] in H.
  - injection H as <- <- <-. auto.
  - destruct (HD d ltac:(now left)) as [HR NP].
    destruct (if before_building (st g (d_node d)) then build_recurse f o dyn g (d_node d) else Some g)
      as [g1|] eqn:E; [|discriminate].
    assert (Q : Tall g1 /\ mstar o dyn g g1 /\ st g1 y = st g y).
    { destruct (before_building (st g (d_node d))) eqn:B.
      - destruct (build_recurse_top o dyn R rk RK _ _ _ _ E C B NP TA).
        split; auto. split; [eapply build_recurse_mstar; eauto|]. eapply rec_small; eauto.
      - injection E as <-. split; auto. split; auto. apply ms_refl. }
    destruct Q as (T1&M&<-).
    assert (C1 : closed dyn R g1) by (eapply mstar_closed; eauto).
    assert (HD1 : forall x, In x r -> okdep R g1 k x).
    { intros x Hx. eapply mstar_okdep; eauto. apply HD. now right. }
    destruct (proxy_loop f o dyn g1 r) as [[[g2 u2] f2]|] eqn:E2; [|discriminate].
    assert (EQ : g' = g2) by (destruct (is_uptodate _); [|destruct (is_failed _)]; now injection H).
    rewrite EQ. eapply IH; eauto.
Qed.

Lemma pass_run g g' : build_pass fuel o dyn g root = Some g' -> Run g (g_done g) ->
  Run g' (g_done g') /\ g_done g' = g_done g /\ settled g' root /\
  (forall y, final (st g y) = true -> st g root <> UpToDate -> st g root <> Failed -> final (st g' y) = true).
Proof.
  intros H I.
  assert (S : settled g' root).
  { eapply build_pass_prog; eauto; try apply I. intros P d Hd. exact (r_proxy _ _ I d P Hd). }
  unfold build_pass in H. set (g0 := mkGraph _ _ _ _ _ _) in H.
  assert (I0 : Run g0 (g_done g)).
  { destruct I. split; auto. intros y. cbn. specialize (r_tags0 y). lia. }
  assert (T0 : Tall g0).
  { intros y Ty. exfalso. unfold tagged in Ty. cbn in Ty. destruct I. specialize (r_tags0 y). lia. }
  change (g_nodes g0) with (g_nodes g) in H.
  assert (DN : forall a b, mstar o dyn a b -> g_done b = g_done a).
  { induction 1 as [|a b c M _ IH]; auto. rewrite IH. destruct M; auto. }
  assert (FM : forall a b, mstar o dyn a b -> forall y, final (st a y) = true -> final (st b y) = true).
  { intros a b M y Fy. destruct (mstar_final _ _ _ _ M) as (_&F). destruct (F y) as (A&B&_).
    unfold final in *. destruct (st a y) eqn:Q; try discriminate; rewrite ?A, ?B by auto; auto. }
  destruct (n_proxy (g_nodes g root)) eqn:NP.
  - destruct (proxy_loop fuel o dyn g0 _) as [[[g1 u] fl]|] eqn:E; [|discriminate].
    destruct (proxy_loop_mstar _ _ _ _ _ _ _ _ E) as (MS&_).
    assert (I1 : Run g1 (g_done g)).
    { eapply mstar_run; eauto. eapply proxy_small with (k := root); eauto; [apply I|]. intros d Hd. exact (r_proxy _ _ I d NP Hd). }
    pose proof (DN _ _ MS) as D1. cbn in D1. 
    destruct (Nat.eqb _ _); [|injection H as <-; rewrite D1; split; [auto|split; [auto|split; [auto|intros; eapply FM; eauto]]]].
    assert (X : forall s l, final s = true ->
       let g2 := mkGraph (upd (g_nodes g1) root (set_state s (g_nodes g1 root))) (g_disk g1) (g_pass g1)
                    (g_active g1) (g_done g1) l in
       Run g2 (g_done g) /\ g_done g2 = g_done g /\ (forall y, final (st g y) = true -> final (st g2 y) = true)).
    { intros s l Fs g2.
      assert (AD : forall y, alldeps (g_nodes g2 y) = alldeps (g_nodes g1 y) /\ n_proxy (g_nodes g2 y) = n_proxy (g_nodes g1 y) /\
                 n_tag (g_nodes g2 y) = n_tag (g_nodes g1 y) /\ n_static (g_nodes g2 y) = n_static (g_nodes g1 y)).
      { intros y. unfold g2. cbn. destruct (Nat.eq_dec y root) as [->|NE]; [rewrite upd_same|rewrite upd_other by auto]; auto. }
      assert (SS : forall y, (y = root /\ st g2 y = s) \/ st g2 y = st g1 y).
      { intros y. unfold g2, st. cbn. destruct (Nat.eq_dec y root) as [->|NE]; [rewrite upd_same|rewrite upd_other by auto]; auto. }
      destruct I1. split; [|split].
      - split; auto.
        + destruct r_closed0 as [K1 K2]. split.
          * intros k d HB Hd. destruct (SS k) as [[-> Q]|Q]; rewrite Q in HB; [destruct s; discriminate|].
            destruct (AD k) as (A1&_). rewrite A1 in Hd. destruct (K1 k d HB Hd) as [P1 P2]. split; auto.
            destruct (AD (d_node d)) as (_&->&_). auto.
          * intros k ds d Hk Hd. destruct (K2 k ds d Hk Hd) as [P1 P2]. split; auto.
            destruct (AD (d_node d)) as (_&->&_). auto.
        + intros y. destruct (AD y) as (_&_&->&_). apply r_tags0.
        + intros d P Hd. destruct (AD root) as (_&A2&_&A4). rewrite A2 in P. rewrite A4 in Hd.
          destruct (r_proxy0 d P Hd) as [P1 P2]. split; auto. destruct (AD (d_node d)) as (_&->&_). auto.
        + intros y NP'. destruct (SS y) as [[-> Q]|Q]; auto. rewrite Q in NP'. auto.
        + intros y HB. destruct (SS y) as [[-> Q]|Q]; rewrite Q in HB; [destruct s; discriminate|]. apply r_busy0; auto.
      - exact D1.
      - intros y Fy. destruct (SS y) as [[-> Q]|Q]; rewrite Q; auto. eapply FM; eauto. }
    destruct (Nat.eqb fl 0); injection H as <-.
    + destruct (X UpToDate (EvProxy root (map d_node (n_static (g_nodes g root))) :: g_log g1) eq_refl) as (X1&X2&X3).
      split; [cbn; cbn in X2; rewrite X2; exact X1|]. split; [exact X2|]. split; auto.
    + destruct (X Failed (EvFailed root CDeps :: g_log g1) eq_refl) as (X1&X2&X3).
      split; [cbn; cbn in X2; rewrite X2; exact X1|]. split; [exact X2|]. split; auto.
  - destruct (before_building (st g0 root)) eqn:B.
    + pose proof (build_recurse_mstar _ _ _ _ _ _ H) as MS. pose proof (DN _ _ MS) as D1. cbn in D1. rewrite D1.
      split; [|split; [auto|split; [auto|]]]; [|intros; eapply FM; eauto].
      eapply mstar_run; eauto. eapply rec_small; eauto. apply I.
    + injection H as <-. split; [exact I0|]. split; [auto|]. split; auto.
Qed.

Lemma pass_total g : Run g (g_done g) -> build_pass fuel o dyn g root <> None.
Proof.
  intros I. unfold build_pass. set (g0 := mkGraph _ _ _ _ _ _).
  assert (C0 : closed dyn R g0) by apply I.
  change (g_nodes g0) with (g_nodes g). destruct (n_proxy (g_nodes g root)) eqn:NP.
  - assert (T : proxy_loop fuel o dyn g0 (n_static (g_nodes g root)) <> None).
    { apply (proxy_loop_total o dyn N R RN) with (k := root); auto. intros d Hd. exact (r_proxy _ _ I d NP Hd). }
    destruct (proxy_loop fuel o dyn g0 _) as [[[g1 u] f]|]; [|congruence].
    destruct (Nat.eqb _ _); [|discriminate]. destruct (Nat.eqb f 0); discriminate.
  - destruct (before_building (st g0 root)) eqn:B; [|discriminate].
    apply (build_recurse_total o dyn N R RN); auto. pose proof (untag_bound N g0). lia.
Qed.

Lemma finish_run k r g : Run g (g_done g) -> aborts r = false ->
  Run (finish k r g) (g_done (finish k r g)) /\ (forall y, st (finish k r g) y = st g y).
Proof.
  intros I A. unfold finish. destruct (in_dec Nat.eq_dec k (g_active g)) as [HK|]; [|auto].
  set (nodes' := match r with ROk s _ => _ | RFailed true => _ | _ => _ end).
  assert (AD : forall y, n_state (nodes' y) = n_state (g_nodes g y) /\ alldeps (nodes' y) = alldeps (g_nodes g y) /\
      n_proxy (nodes' y) = n_proxy (g_nodes g y) /\ n_tag (nodes' y) = n_tag (g_nodes g y) /\
      n_static (nodes' y) = n_static (g_nodes g y)).
  { intros y. unfold nodes'. destruct r as [s i|[]|]; auto;
      (destruct (Nat.eq_dec y k) as [->|NE]; [rewrite upd_same|rewrite upd_other by auto]; auto). }
  split; [|intros y; unfold st; cbn; apply AD].
  destruct I as [[K1 K2] I2 I3 I4 I5 I6]. split; cbn.
  - split.
    + intros y d HB Hd. unfold st in *. cbn in *. destruct (AD y) as (A1&A2&_). rewrite A1 in HB. rewrite A2 in Hd.
      destruct (K1 y d HB Hd) as [P1 P2]. split; auto. cbn. destruct (AD (d_node d)) as (_&_&->&_). auto.
    + intros y ds d Hk Hd. destruct (K2 y ds d Hk Hd) as [P1 P2]. split; auto. cbn. destruct (AD (d_node d)) as (_&_&->&_). auto.
  - intros y. destruct (AD y) as (_&_&_&->&_). auto.
  - intros d P Hd. destruct (AD root) as (_&_&A3&_&A5). rewrite A3 in P. rewrite A5 in Hd.
    destruct (I3 d P Hd) as [P1 P2]. split; auto. cbn. destruct (AD (d_node d)) as (_&_&->&_). auto.
  - intros y. unfold st. cbn. destruct (AD y) as (->&_). apply I4.
  - intros y. unfold st. cbn. destruct (AD y) as (->&_). intros HB. specialize (I5 y HB).
    rewrite map_app, !in_app_iff in *. cbn. destruct (Nat.eq_dec y k) as [->|NE]; auto.
    destruct I5 as [Q|Q]; auto. left. apply in_in_remove; auto.
  - intros y r' HI. rewrite in_app_iff in HI. destruct HI as [HI|[HI|[]]]; eauto. injection HI as <- <-. auto.
Qed.

Lemma finalize_fold_run pend : forall g, Run g pend -> (forall k r, In (k, r) pend -> st g k = Building) ->
  NoDup (map fst pend) ->
  let g' := fold_left finalize_job pend g in
  Run g' [] /\ g_active g' = g_active g /\ g_done g' = g_done g /\
  (forall y, final (st g y) = true -> final (st g' y) = true) /\
  (forall k r, In (k, r) pend -> final (st g' k) = true).
Proof.
  induction pend as [|[k r] p IH]; intros g I B ND; cbn [fold_left].
  - split; [auto|]. repeat split; auto.
  - destruct (finalize_job_frame g k r) as (F1&F2&F3&F4&F5). set (g1 := finalize_job g (k, r)) in *.
    assert (A : aborts r = false) by (eapply r_noabort; eauto; now left).
    specialize (F5 A). inversion ND as [|? ? NI ND']; subst.
    assert (I1 : Run g1 p).
    { destruct I as [[K1 K2] I2 I3 I4 I5 I6]. split.
      - split.
        + intros y d HB Hd. destruct (Nat.eq_dec y k) as [->|NE].
          * rewrite <- F5 in HB. destruct (st g1 k); discriminate.
          * destruct (F4 y) as (_&_&_&Q). destruct (Q NE) as [Q1 Q2]. rewrite Q1 in HB. rewrite Q2 in Hd.
            destruct (K1 y d HB Hd) as [P1 P2]. split; auto. destruct (F4 (d_node d)) as (->&_). auto.
        + intros y ds d Hk Hd. destruct (K2 y ds d Hk Hd) as [P1 P2]. split; auto. destruct (F4 (d_node d)) as (->&_). auto.
      - intros y. destruct (F4 y) as (_&->&_). now rewrite F1.
      - intros d P Hd. destruct (F4 root) as (A1&_&A3&_). rewrite A1 in P.
        assert (exists d', In d' (n_static (g_nodes g root)) /\ d_node d' = d_node d) as (d'&D1&D2).
        { apply in_map with (f := d_node) in Hd. rewrite A3, in_map_iff in Hd. destruct Hd as (d'&?&?). eauto. }
        destruct (I3 d' P D1) as [P1 P2]. unfold okdep. rewrite <- D2. split; auto. destruct (F4 (d_node d')) as (->&_). auto.
      - intros y NP. destruct (Nat.eq_dec y k) as [->|NE].
        + apply I4. rewrite (B k r) by now left. discriminate.
        + apply I4. destruct (F4 y) as (_&_&_&Q). destruct (Q NE) as [Q1 _]. now rewrite <- Q1.
      - intros y HB. destruct (Nat.eq_dec y k) as [->|NE].
        + rewrite HB in F5. discriminate.
        + destruct (F4 y) as (_&_&_&Q). destruct (Q NE) as [Q1 _]. rewrite Q1 in HB.
          specialize (I5 y HB). rewrite F2. rewrite in_app_iff in *. cbn in I5. intuition congruence.
      - intros y r' HI. eapply I6. right. eauto. }
    destruct (IH g1 I1) as (J1&J2&J3&J4&J5); auto.
    { intros y r' HI. assert (y <> k). { intros ->. apply NI. apply in_map_iff. exists (k, r'). auto. }
      destruct (F4 y) as (_&_&_&Q). destruct (Q H) as [-> _]. eapply B. right. eauto. }
    split; [auto|]. split; [congruence|]. split; [congruence|]. split.
    + intros y Fy. apply J4. destruct (Nat.eq_dec y k) as [->|NE]; auto.
      destruct (F4 y) as (_&_&_&Q). destruct (Q NE) as [-> _]. auto.
    + intros y r' [HI|HI]; [|eauto]. injection HI as <- <-. auto.
Qed.

Lemma finalize_run g : Inv dyn g (g_done g) -> Run g (g_done g) ->
  Run (finalize_jobs g) [] /\ g_active (finalize_jobs g) = g_active g /\ g_done (finalize_jobs g) = [] /\
  (forall y, final (st g y) = true -> final (st (finalize_jobs g) y) = true) /\
  (forall y, In y (map fst (g_done g)) -> final (st (finalize_jobs g) y) = true).
Proof.
  intros I RI. unfold finalize_jobs.
  set (g1 := mkGraph _ _ _ _ _ _).
  pose proof (i_jobs _ _ _ I) as ND. apply NoDup_app_inv in ND as (N1&N2&N3).
  destruct (done_parts _ N2) as [P1 P2].
  assert (SP : forall jr, In jr (g_done g) -> In jr (filter is_ok (g_done g) ++ filter is_fail (g_done g))).
  { intros [k r] HI. rewrite in_app_iff, !filter_In. pose proof (r_noabort _ _ RI k r HI).
    destruct r; try discriminate; auto. }
  assert (SP' : forall jr, In jr (filter is_ok (g_done g) ++ filter is_fail (g_done g)) -> In jr (g_done g)).
  { intros jr. rewrite in_app_iff, !filter_In. tauto. }
  destruct (finalize_fold_run (filter is_ok (g_done g) ++ filter is_fail (g_done g)) g1) as (J1&J2&J3&J4&J5); auto.
  - destruct RI. split; auto.
    + intros y HB. specialize (r_busy0 y HB). cbn. rewrite in_app_iff in *. destruct r_busy0 as [Q|Q]; auto.
      right. rewrite in_map_iff in *. destruct Q as (jr&E&Q). exists jr. auto.
    + intros k r HI. eauto.
  - intros k r HI. apply (i_jobs_b _ _ _ I). rewrite in_app_iff. right. apply in_map_iff. exists (k, r). auto.
  - split; [auto|]. split; [auto|]. split; [auto|]. split; [auto|].
    intros y HI. apply in_map_iff in HI as ([k r]&E&HI). cbn in E. subst. eapply J5. apply SP. eauto.
Qed.

Lemma step_run g e g' : step fuel o dyn root g e = Some g' -> ok_op e ->
  Inv dyn g (g_done g) -> Run g (g_done g) -> Run g' (g_done g').
Proof.
  intros H OK I RI. destruct e; cbn in H.
  - now apply pass_run in H.
  - injection H as <-. now apply finish_run.
  - injection H as <-. destruct (finalize_run g I RI) as (J1&_&J3&_). now rewrite J3.
  - injection H as <-. destruct RI. split; auto.
Qed.

Lemma step_total g e : ok_op e -> Run g (g_done g) -> step fuel o dyn root g e <> None.
Proof. intros OK RI. destruct e; cbn; try discriminate. now apply pass_total. Qed.

Lemma run_run es : forall g g', run fuel o dyn root g es = Some g' -> (forall e, In e es -> ok_op e) ->
  Inv dyn g (g_done g) -> Run g (g_done g) -> Inv dyn g' (g_done g') /\ Run g' (g_done g').
Proof.
  induction es as [|e r IH]; cbn [run]; intros g g' H OK I RI.
  - now injection H as <-.
  - destruct (step fuel o dyn root g e) as [g1|] eqn:S; [|discriminate].
    apply (IH g1); auto.
    + intros; apply OK; now right.
    + eapply step_inv; eauto.
    + eapply step_run; eauto. apply OK; now left.
Qed.

Lemma run_total es : forall g, (forall e, In e es -> ok_op e) ->
  Inv dyn g (g_done g) -> Run g (g_done g) -> exists g', run fuel o dyn root g es = Some g'.
Proof.
  induction es as [|e r IH]; cbn [run]; intros g OK I RI; [eauto|].
  destruct (step fuel o dyn root g e) as [g1|] eqn:S.
  - apply IH; [intros; apply OK; now right|eapply step_inv; eauto|eapply step_run; eauto; apply OK; now left].
  - exfalso. eapply step_total; eauto. apply OK; now left.
Qed.

(** ** Rounds *)
Notation rounds := (rounds fuel o dyn root).

Lemma final_finished s : final s = true <-> finished s.
Proof. unfold final, finished. destruct s; cbn; intuition congruence. Qed.
Lemma no_abort_ok es : no_abort es <-> forall e, In e es -> ok_op e.
Proof.
  split.
  - intros H [|k r| |] He; cbn; auto. destruct r; auto. now apply H in He.
  - intros H k He. apply H in He. discriminate.
Qed.

Definition nfinal (g : graph) : nat := length (filter (fun k => final (st g k)) (seq 0 N)).

Lemma nfinal_bound g : nfinal g <= N.
Proof.
  unfold nfinal. rewrite <- (seq_length N 0) at 2. generalize (seq 0 N) as l.
  induction l as [|x l IH]; cbn; auto. destruct (final _); cbn; lia.
Qed.
Lemma filter_le {A} (f h : A -> bool) l : (forall x, f x = true -> h x = true) ->
  length (filter f l) <= length (filter h l).
Proof.
  intros H. induction l as [|x l IH]; cbn; auto. specialize (H x). destruct (f x).
  - rewrite H by auto. cbn. lia.
  - destruct (h x); cbn; lia.
Qed.
Lemma filter_lt {A} (f h : A -> bool) l x : (forall x, f x = true -> h x = true) ->
  In x l -> f x = false -> h x = true -> length (filter f l) < length (filter h l).
Proof.
  intros H IN F G. induction l as [|y l IH]; cbn; [destruct IN|].
  destruct IN as [->|IN].
  - rewrite F, G. cbn. pose proof (filter_le f h l H). lia.
  - specialize (IH IN). specialize (H y). destruct (f y); [rewrite H by auto; cbn; lia|].
    destruct (h y); cbn; lia.
Qed.

(* finished nodes stay finished; needs the root not to be rebuilt once finished, which the
   main loop guarantees by stopping *)
Lemma pass_final g g' : build_pass fuel o dyn g root = Some g' -> Run g (g_done g) ->
  forall y, final (st g y) = true -> final (st g' y) = true.
Proof.
  intros H RI y Fy. unfold build_pass in H. set (g0 := mkGraph _ _ _ _ _ _) in H.
  assert (FM : forall a b, mstar o dyn a b -> forall y, final (st a y) = true -> final (st b y) = true).
  { intros a b M z Fz. destruct (mstar_final _ _ _ _ M) as (_&F). destruct (F z) as (A&B&_).
    unfold final in *. destruct (st a z) eqn:Q; try discriminate; rewrite ?A, ?B by auto; auto. }
  change (g_nodes g0) with (g_nodes g) in H.
  destruct (n_proxy (g_nodes g root)) eqn:NP.
  - destruct (proxy_loop fuel o dyn g0 _) as [[[g1 u] fl]|] eqn:E; [|discriminate].
    destruct (proxy_loop_mstar _ _ _ _ _ _ _ _ E) as (MS&_).
    assert (F1 : final (st g1 y) = true) by (eapply FM; eauto).
    destruct (Nat.eqb _ _); [|injection H as <-; auto].
    destruct (Nat.eqb fl 0); injection H as <-; unfold st in *; rewrite ?nodes_add_log; cases_upd y root; auto.
  - destruct (before_building (st g0 root)) eqn:B.
    + pose proof (build_recurse_mstar _ _ _ _ _ _ H) as MS. eapply FM; eauto.
    + injection H as <-. auto.
Qed.

Lemma run_final es : forall g g', run fuel o dyn root g es = Some g' -> (forall e, In e es -> ok_op e) ->
  Inv dyn g (g_done g) -> Run g (g_done g) -> forall y, final (st g y) = true -> final (st g' y) = true.
Proof.
  induction es as [|e r IH]; cbn [run]; intros g g' H OK I RI y Fy.
  - now injection H as <-.
  - destruct (step fuel o dyn root g e) as [g1|] eqn:S; [|discriminate].
    assert (OKe : ok_op e) by (apply OK; now left).
    apply (IH g1 g'); auto.
    + intros; apply OK; now right.
    + eapply step_inv; eauto.
    + eapply step_run; eauto.
    + destruct e; cbn in S.
      * eapply pass_final; eauto.
      * injection S as <-. destruct (finish_run k r0 g RI OKe) as (_&->). auto.
      * injection S as <-. destruct (finalize_run g I RI) as (_&_&_&Q&_). auto.
      * injection S as <-. auto.
Qed.

Lemma rounds_root n g g' : rounds n g g' -> Inv dyn g (g_done g) -> Run g (g_done g) ->
  (Inv dyn g' (g_done g') /\ Run g' (g_done g') /\ (forall y, final (st g y) = true -> final (st g' y) = true)) /\
  (final (st g' root) = true \/ nfinal g + n <= nfinal g').
Proof.
  induction 1 as [g|n g gp es g1 g2 HP HR OK' HB _ IH]; intros I RI; [|pose proof (proj1 (no_abort_ok _) OK') as OK].
  - split; auto. right. lia.
  - destruct (pass_run _ _ HP RI) as (RP&_&ST&_).
    assert (IP : Inv dyn gp (g_done gp)) by (eapply build_pass_inv; eauto).
    destruct (run_run _ _ _ HR OK IP RP) as (I1&R1).
    destruct (IH I1 R1) as ((I2&R2&M2)&C).
    assert (MON : forall y, final (st g y) = true -> final (st g1 y) = true).
    { intros y Fy. eapply run_final; eauto. eapply pass_final; eauto. }
    split; [split; [auto|split; auto]|].
    destruct C as [C|C]; auto.
    destruct ST as [ST|[y LY]].
    + left. apply M2. eapply run_final; eauto.
    + right. assert (nfinal g < nfinal g1); [|lia].
      apply filter_lt with (x := y); auto.
      * apply in_seq. split; [lia|]. apply (r_small _ _ RP). rewrite LY. discriminate.
      * destruct (final (st g y)) eqn:Fy; auto. pose proof (pass_final _ _ HP RI y Fy) as Q.
        rewrite LY in Q. discriminate.
      * apply final_finished, HB. pose proof (r_busy _ _ RP y LY) as Q. rewrite in_app_iff in Q. exact Q.
Qed.

Lemma rounds_enough n g g' : rounds n g g' -> Inv dyn g (g_done g) -> Run g (g_done g) ->
  N < n -> final (st g' root) = true.
Proof.
  intros H I RI HN. destruct (rounds_root _ _ _ H I RI) as (_&[C|C]); auto.
  pose proof (nfinal_bound g'). lia.
Qed.

(* whatever the jobs answer, a round can be completed *)
Lemma finish_all (res : nat -> result) (RA : forall k, aborts (res k) = false) l : forall g,
  (forall y, In y (g_active g) -> In y l) -> NoDup l -> Inv dyn g (g_done g) -> Run g (g_done g) ->
  exists g', run fuel o dyn root g (map (fun k => OFinish k (res k)) l) = Some g' /\
    (forall y, busy g y -> In y (map fst (g_done g'))) /\
    (forall e, In e (map (fun k => OFinish k (res k)) l) -> ok_op e).
Proof.
  induction l as [|k l IH]; intros g HA ND I RI; cbn [map run].
  - exists g. split; auto. split; [|intros e []]. intros y [Q|Q]; auto. destruct (HA y Q).
  - inversion ND; subst. cbn [step].
    destruct (IH (finish k (res k) g)) as (g'&G1&G2&G3); auto.
    + intros y Hy. unfold finish in Hy. destruct (in_dec Nat.eq_dec k (g_active g)) as [HK|HK].
      * cbn in Hy. apply in_remove in Hy as [Hy NE]. destruct (HA y Hy); [congruence|auto].
      * destruct (HA y Hy); [congruence|auto].
    + now apply finish_inv.
    + apply finish_run; auto.
    + exists g'. split; auto. split.
      * intros y Hy. apply G2. unfold finish, busy in *.
        destruct (in_dec Nat.eq_dec k (g_active g)) as [HK|HK]; auto. cbn. rewrite map_app, in_app_iff. cbn.
        destruct (Nat.eq_dec y k) as [->|NE]; auto. destruct Hy as [Hy|Hy]; auto. left. now apply in_in_remove.
      * intros e [<-|He]; [apply RA|auto].
Qed.

Lemma round_exists (res : nat -> result) (RA : forall k, aborts (res k) = false) g :
  Inv dyn g (g_done g) -> Run g (g_done g) ->
  exists g1, rounds 1 g g1 /\ Inv dyn g1 (g_done g1) /\ Run g1 (g_done g1).
Proof.
  intros I RI. destruct (build_pass fuel o dyn g root) as [gp|] eqn:HP; [|now apply pass_total in HP].
  destruct (pass_run _ _ HP RI) as (RP&_&ST&_).
  assert (IP : Inv dyn gp (g_done gp)) by (eapply build_pass_inv; eauto).
  pose proof (i_jobs _ _ _ IP) as ND. apply NoDup_app_inv in ND as (N1&_).
  destruct (finish_all res RA (g_active gp) gp) as (g2&G1&G2&G3); auto.
  assert (G2' : run fuel o dyn root gp (map (fun k => OFinish k (res k)) (g_active gp) ++ [OFinalize]) =
                Some (finalize_jobs g2)).
  { revert G1. generalize (map (fun k => OFinish k (res k)) (g_active gp)) as l. intros l. clear. revert gp.
    induction l as [|e l IH]; cbn [run app]; intros gp G; [injection G as ->; reflexivity|].
    destruct (step fuel o dyn root gp e); [auto|discriminate]. }
  assert (OK : forall e, In e (map (fun k => OFinish k (res k)) (g_active gp) ++ [OFinalize]) -> ok_op e).
  { intros e. rewrite in_app_iff. intros [He|[<-|[]]]; cbn; auto. }
  destruct (run_run _ _ _ G1 G3 IP RP) as (I2&R2).
  destruct (run_run _ _ _ G2' OK IP RP) as (I3&R3).
  exists (finalize_jobs g2). split; [|auto].
  econstructor; eauto; [now apply no_abort_ok| |constructor].
  intros y Hy. apply final_finished. destruct (finalize_run g2 I2 R2) as (_&_&_&_&Q). apply Q. auto.
Qed.

Lemma rounds_snoc n g g1 g2 : rounds n g g1 -> rounds 1 g1 g2 -> rounds (S n) g g2.
Proof.
  induction 1; auto. intros H'. econstructor; eauto.
Qed.

Lemma rounds_exist (res : nat -> result) (RA : forall k, aborts (res k) = false) n g :
  Inv dyn g (g_done g) -> Run g (g_done g) ->
  exists g1, rounds n g g1 /\ Inv dyn g1 (g_done g1) /\ Run g1 (g_done g1).
Proof.
  intros I RI. induction n as [|n (g1&A&B&C)].
  - exists g. split; [constructor|auto].
  - destruct (round_exists res RA g1 B C) as (g2&D&E&F). exists g2. split; auto. eapply rounds_snoc; eauto.
Qed.

Lemma fresh_run g : fresh g -> closed dyn R g ->
  (forall y, (n_tag (g_nodes g y) <= g_pass g)%N) ->
  (forall d, n_proxy (g_nodes g root) = true -> In d (n_static (g_nodes g root)) -> okdep R g root d) ->
  Run g (g_done g).
Proof.
  intros (F1&F2&F3&F4) C T P. rewrite F3. split; auto.
  - intros y H. now rewrite F1 in H.
  - intros y H. rewrite F1 in H. discriminate.
  - intros k r [].
Qed.
End Run.
