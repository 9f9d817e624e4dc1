(** What the scheduler remembers about stamps: why a target was started or skipped, and in what
    state an unfinished target is left. *)
From Coq Require Import List Arith NArith Bool Lia.
From Verif Require Import M_Build S_Build P_Build P_Build2.
Import ListNotations.

Section Why.
Variables (g0 : graph) (o : opts) (dyn : dyn_oracle).
(* the values the disk time of each file takes during the build *)
Variable seen : nat -> N -> Prop.
(* "compilers report only files as includes" *)
Variable FI : Prop.
(* the nodes whose jobs report include files *)
Variable obj : nat -> Prop.

Hypothesis proxy_not_file : forall k, n_proxy (g_nodes g0 k) = true -> n_filenode (g_nodes g0 k) = false.

Definition fits (g : graph) (d : dep) : Prop :=
  d_weak d = false -> st g (d_node d) = UpToDate /\ stampof g (d_node d) = d_stamp d /\
                      stampof g (d_node d) <> 0%N.
Definition fits0 (g : graph) (d : dep) : Prop :=
  d_weak d = false -> st g (d_node d) = UpToDate /\ stampof g (d_node d) = d_stamp d.
Definition misfit (g : graph) (d : dep) : Prop :=
  d_weak d = false /\ st g (d_node d) = UpToDate /\
  (stampof g (d_node d) = 0%N \/ stampof g (d_node d) <> d_stamp d).

Definition same0 (k : nat) (g : graph) : Prop :=
  n_static (g_nodes g k) = n_static (g_nodes g0 k) /\ n_dyn (g_nodes g k) = n_dyn (g_nodes g0 k) /\
  n_stamp (g_nodes g k) = n_stamp (g_nodes g0 k).

Definition reason (k : nat) (g : graph) : Prop :=
  o_clean o = true \/ n_force (g_nodes g0 k) = true \/ n_stamp (g_nodes g0 k) = 0%N \/
  (n_isfile (g_nodes g0 k) = true /\
   exists t, seen k t /\ (t = 0%N \/ t <> n_stamp (g_nodes g0 k))) \/
  exists d, In d (n_static (g_nodes g0 k)) /\ misfit g d.

(* why a job was started with dependencies [ds] *)
Definition why (k : nat) (ds : list nat) (g : graph) : Prop :=
  reason k g \/ exists d, In d (n_dyn (g_nodes g0 k)) /\ In (d_node d) ds /\ misfit g d.

(* the recorded stamps are the current ones *)
Definition matches (g : graph) (l : list dep) : Prop := forall d, In d l -> fits0 g d.

Definition calm (k : nat) (g : graph) : Prop :=
  o_clean o = false /\ n_force (g_nodes g0 k) = false /\ n_stamp (g_nodes g0 k) <> 0%N /\
  (n_isfile (g_nodes g0 k) = true -> seen k (n_stamp (g_nodes g0 k))) /\
  forall d, In d (n_static (g_nodes g0 k)) -> fits g d.

Definition zeroed (k : nat) (g : graph) : Prop :=
  reason k g /\ n_stamp (g_nodes g k) = 0%N /\ n_static (g_nodes g k) = n_static (g_nodes g0 k).

Definition stale (k : nat) (g : graph) : Prop :=
  n_stamp (g_nodes g k) = 0%N \/
  (same0 k g /\ calm k g /\ exists d, In d (n_dyn (g_nodes g0 k)) /\ misfit g d).

(* the dependencies a job is started with: the dynamic ones are those recorded by the last
   build, or those just computed *)
Definition start_ids (k : nat) (ds : list nat) : Prop :=
  exists dd, ds = map d_node (n_pre (g_nodes g0 k)) ++ map d_node (n_static (g_nodes g0 k)) ++ map d_node dd /\
    (dd = n_dyn (g_nodes g0 k) \/ dyn k = Some dd).

Record W (g : graph) (pend : list (nat * result)) (k : nat) : Prop := {
  w_np : st g k = NotProcessed -> same0 k g;
  w_sd : st g k = StaticDeps -> same0 k g \/ zeroed k g;
  w_dd : st g k = DynamicDeps ->
      (same0 k g /\ calm k g) \/ (zeroed k g /\ dyn k = Some (n_dyn (g_nodes g k)));
  w_start : forall ds, In (EvStart k ds) (g_log g) -> why k ds g;
  w_skip : forall ds, In (EvSkip k ds) (g_log g) ->
      same0 k g /\ calm k g /\ (forall d, In d (n_dyn (g_nodes g0 k)) -> fits g d) /\
      ds = dep_ids (g_nodes g0 k);
  w_stale : FI -> started (g_log g) k -> st g k <> UpToDate ->
      (forall s i, ~ In (k, ROk s i) pend) -> stale k g;
  w_ids : forall ds, In (EvStart k ds) (g_log g) -> start_ids k ds;
  w_rec : n_proxy (g_nodes g0 k) = false -> st g k = UpToDate ->
      matches g (n_static (g_nodes g k)) /\ (~ obj k -> matches g (n_dyn (g_nodes g k))) }.

Record Inv2 (g : graph) (pend : list (nat * result)) : Prop := {
  v_const : forall k, n_pre (g_nodes g k) = n_pre (g_nodes g0 k) /\
      map d_node (n_static (g_nodes g k)) = map d_node (n_static (g_nodes g0 k)) /\
      n_proxy (g_nodes g k) = n_proxy (g_nodes g0 k) /\
      n_force (g_nodes g k) = n_force (g_nodes g0 k) /\
      n_isfile (g_nodes g k) = n_isfile (g_nodes g0 k) /\
      n_filenode (g_nodes g k) = n_filenode (g_nodes g0 k);
  v_file : forall k, st g k = UpToDate -> n_filenode (g_nodes g k) = true ->
      n_stamp (g_nodes g k) <> 0%N \/ n_built (g_nodes g k) = true;
  v_pend : forall k s i, In (k, ROk s i) pend -> n_built (g_nodes g k) = true;
  v_incl : FI -> forall k s incl i, In (k, ROk s (Some incl)) pend -> In i incl ->
      n_isfile (g_nodes g0 i) = true;
  v_obj : forall k s incl, In (k, ROk s (Some incl)) pend -> obj k;
  v_disk : forall k, seen k (g_disk g k);
  v_ids : forall k ds, In (EvStart k ds) (g_log g) \/ In (EvSkip k ds) (g_log g) ->
      forall d, In d (n_pre (g_nodes g0 k) ++ n_static (g_nodes g0 k)) -> In (d_node d) ds;
  v_pids : forall k ds, In (EvProxy k ds) (g_log g) -> ds = map d_node (n_static (g_nodes g0 k));
  v_node : forall k, n_filenode (g_nodes g0 k) = false -> W g pend k }.

(** ** Monotonicity *)
Definition keeps (g g' : graph) : Prop :=
  forall d, st g d = UpToDate -> st g' d = UpToDate /\ stampof g' d = stampof g d.

Lemma fits_mono g g' d : keeps g g' -> fits g d -> fits g' d.
Proof. intros K F Wk. destruct (F Wk) as (A&B&C). destruct (K _ A) as (A'&B'). rewrite B'. auto. Qed.
Lemma misfit_mono g g' d : keeps g g' -> misfit g d -> misfit g' d.
Proof. intros K (Wk&A&B). destruct (K _ A) as (A'&B'). unfold misfit. rewrite B'. auto. Qed.
Lemma reason_mono g g' k : keeps g g' -> reason k g -> reason k g'.
Proof.
  intros K [H|[H|[H|[H|(d&H1&H2)]]]]; unfold reason; auto.
  do 4 right. exists d. eauto using misfit_mono.
Qed.
Lemma why_mono g g' k ds : keeps g g' -> why k ds g -> why k ds g'.
Proof.
  intros K [H|(d&H1&H2&H3)]; [left; eauto using reason_mono|right; exists d; eauto using misfit_mono].
Qed.
Lemma fits0_mono g g' d : keeps g g' -> fits0 g d -> fits0 g' d.
Proof. intros K F Wk. destruct (F Wk) as (A&B). destruct (K _ A) as (A'&B'). rewrite B'. auto. Qed.
Lemma matches_mono g g' l : keeps g g' -> matches g l -> matches g' l.
Proof. intros K F d Hd. eapply fits0_mono; eauto. Qed.
Lemma calm_mono g g' k : keeps g g' -> calm k g -> calm k g'.
Proof. intros K (A&B&C&D&E). repeat split; auto; intros; eapply fits_mono; eauto. Qed.

Lemma keeps_refl g g' : g_nodes g' = g_nodes g -> keeps g g'.
Proof. intros E d H. unfold st, stampof in *. rewrite E. auto. Qed.

Definition core (n : node) := (n_static n, n_dyn n, n_stamp n).

Lemma core_eq n n' : core n' = core n ->
  n_static n' = n_static n /\ n_dyn n' = n_dyn n /\ n_stamp n' = n_stamp n.
Proof. unfold core. intros H. injection H. auto. Qed.

Lemma same0_mono g g' k : core (g_nodes g' k) = core (g_nodes g k) -> same0 k g -> same0 k g'.
Proof. intros E. apply core_eq in E as (E1&E2&E3). unfold same0. now rewrite E1, E2, E3. Qed.

Lemma zeroed_mono g g' k : keeps g g' -> core (g_nodes g' k) = core (g_nodes g k) ->
  zeroed k g -> zeroed k g'.
Proof.
  intros K E (A&B&C). apply core_eq in E as (E1&E2&E3). unfold zeroed. rewrite E1, E3.
  eauto using reason_mono.
Qed.

Lemma stale_mono g g' k : keeps g g' -> core (g_nodes g' k) = core (g_nodes g k) ->
  stale k g -> stale k g'.
Proof.
  intros K E [A|(A&B&d&D1&D2)].
  - left. apply core_eq in E as (E1&E2&E3). congruence.
  - right. split; [eapply same0_mono; eauto|]. split; [eapply calm_mono; eauto|].
    exists d. eauto using misfit_mono.
Qed.

(** A node that is not touched keeps its facts. *)
Lemma W_frame g g' pend pend' k :
  W g pend k -> keeps g g' -> core (g_nodes g' k) = core (g_nodes g k) -> st g' k = st g k ->
  (forall ds, In (EvStart k ds) (g_log g') -> In (EvStart k ds) (g_log g)) ->
  (forall ds, In (EvSkip k ds) (g_log g') -> In (EvSkip k ds) (g_log g)) ->
  (forall s i, In (k, ROk s i) pend -> In (k, ROk s i) pend') ->
  W g' pend' k.
Proof.
  intros H K E ES LT LK P.
  assert (LS : started (g_log g') k -> started (g_log g) k).
  { intros (ds&Hd). exists ds. auto. }
  destruct H. 
  split; rewrite ?ES.
  - intros H. eapply same0_mono; eauto.
  - intros H. destruct (w_sd0 H) as [S|Z]; [left|right].
    + eapply same0_mono; eauto.
    + eapply zeroed_mono; eauto.
  - intros H. destruct (w_dd0 H) as [[S C]|Z]; [left|right].
    + split; [eapply same0_mono; eauto|]. eapply calm_mono; eauto.
    + destruct Z as [Z1 Z2]. split; [eapply zeroed_mono; eauto|].
      apply core_eq in E as (_&->&_). auto.
  - intros ds H. eapply why_mono; eauto.
  - intros ds H. destruct (w_skip0 ds (LK _ H)) as (A&B&C&D).
    split; [eapply same0_mono; eauto|]. split; [eapply calm_mono; eauto|].
    split; auto. intros d Hd. eapply fits_mono; eauto.
  - intros F H NU NP. eapply stale_mono; eauto. apply w_stale0; auto.
    intros s i Hi. eapply NP; eauto.
  - auto.
  - intros NPx HU. destruct (w_rec0 NPx HU) as [R1 R2]. apply core_eq in E as (E1&E2&E3).
    rewrite E1, E2. split; [|intros O; specialize (R2 O)]; eapply matches_mono; eauto.
Qed.

Lemma need_deps_true f ds : need_deps f ds = true ->
  exists d, In d ds /\ d_weak d = false /\ (f (d_node d) = 0%N \/ f (d_node d) <> d_stamp d).
Proof.
  induction ds as [|d r IH]; cbn; [discriminate|].
  destruct (d_weak d) eqn:Wk.
  - intros H. destruct (IH H) as (x&?&?). exists x; auto.
  - destruct (N.eqb_spec (f (d_node d)) 0).
    + intros _. exists d; auto.
    + destruct (N.eqb_spec (f (d_node d)) (d_stamp d)); cbn.
      * intros H. destruct (IH H) as (x&?&?). exists x; auto.
      * intros _. exists d; auto.
Qed.
Lemma need_deps_false f ds : need_deps f ds = false ->
  forall d, In d ds -> d_weak d = false -> f (d_node d) = d_stamp d /\ f (d_node d) <> 0%N.
Proof.
  induction ds as [|d r IH]; cbn; [tauto|].
  intros H x [<-|Hx] Wk.
  - rewrite Wk in H. destruct (N.eqb_spec (f (d_node d)) 0); [discriminate|].
    destruct (N.eqb_spec (f (d_node d)) (d_stamp d)); [auto|discriminate].
  - destruct (d_weak d); auto.
    destruct (N.eqb (f (d_node d)) 0); [discriminate|].
    destruct (N.eqb (f (d_node d)) (d_stamp d)); [auto|discriminate].
Qed.

Lemma micro_keeps g g' : micro o dyn g g' -> keeps g g'.
Proof.
  intros M d H. destruct (micro_final _ _ _ _ M) as (_&F). destruct (F d) as (A&_).
  split; [apply A; auto|].
  destruct (micro_nodes _ _ _ _ M d) as (_&_&_&_&_&_&_&B).
  apply B. rewrite H. discriminate.
Qed.

Lemma skip_utd g pend k ds : Inv dyn g pend -> In (EvSkip k ds) (g_log g) -> st g k = UpToDate.
Proof. intros I H. apply (i_utd _ _ _ I). left. eauto. Qed.

(* a node that has not reached BUILDING has neither been started nor skipped *)
Lemma W_unstarted g g' pend k :
  Inv dyn g pend -> before_building (st g k) = true ->
  g_log g' = g_log g ->
  (st g' k = NotProcessed -> same0 k g') ->
  (st g' k = StaticDeps -> same0 k g' \/ zeroed k g') ->
  (st g' k = DynamicDeps ->
     (same0 k g' /\ calm k g') \/ (zeroed k g' /\ dyn k = Some (n_dyn (g_nodes g' k)))) ->
  st g' k <> UpToDate ->
  W g' pend k.
Proof.
  intros I B EL H1 H2 H3 NU.
  assert (NS : ~ started (g_log g) k).
  { intros H. apply (i_started _ _ _ I) in H. destruct H as [H|[H|H]]; rewrite H in B; discriminate. }
  split; rewrite ?EL; auto.
  - intros ds H. exfalso. apply NS. exists ds. auto.
  - intros ds H. apply (skip_utd _ _ _ _ I) in H. rewrite H in B. discriminate.
  - tauto.
  - intros ds H. exfalso. apply NS. exists ds. auto.
  - intros NPx HU. destruct (NU HU).
Qed.

Lemma dep_ids_static n d : In d (n_static n) -> In (d_node d) (dep_ids n).
Proof. intros H. unfold dep_ids. rewrite !in_app_iff. right. left. now apply in_map. Qed.
Lemma dep_ids_pre n d : In d (n_pre n) -> In (d_node d) (dep_ids n).
Proof. intros H. unfold dep_ids. rewrite !in_app_iff. left. now apply in_map. Qed.

Lemma ids_covered g pend k d : Inv2 g pend ->
  In d (n_pre (g_nodes g0 k) ++ n_static (g_nodes g0 k)) -> In (d_node d) (dep_ids (g_nodes g k)).
Proof.
  intros V H. destruct (v_const _ _ V k) as (A&B&_). unfold dep_ids. rewrite A, B, !in_app_iff.
  apply in_app_iff in H as [H|H]; [left|right; left]; now apply in_map.
Qed.

Lemma micro_utd g g' k : micro o dyn g g' -> st g' k = UpToDate ->
  st g k = UpToDate \/ stampof g' k <> 0%N.
Proof.
  intros M H. unfold st, stampof in *.
  destruct M.
  1: destruct (Nat.eq_dec k c) as [->|N]; [rewrite nodes_upd_same in *|rewrite nodes_upd_other in * by auto]; auto.
  all: destruct (Nat.eq_dec k k0) as [->|N].
  all: rewrite ?nodes_add_log in *; rewrite ?nodes_upd_same, ?nodes_mark_same, ?nodes_start_same in *;
       rewrite ?nodes_upd_other, ?nodes_mark_other, ?nodes_start_other in * by auto; auto.
  all: cbn in H; try discriminate; try congruence.
  match goal with H : (_ || _)%bool = false |- _ => apply orb_false_iff in H as [Hz _] end.
  right. cbn. now apply N.eqb_neq in Hz.
Qed.

Lemma micro_inv2 g g' pend :
  Inv dyn g pend -> Inv2 g pend -> micro o dyn g g' -> Inv2 g' pend.
Proof.
  intros I V M.
  pose proof (micro_keeps _ _ M) as K.
  pose proof (micro_nodes _ _ _ _ M) as MN.
  pose proof (micro_log _ _ _ _ M) as (_&MD&_).
  split.
  - intros k. destruct (MN k) as (A1&A2&A3&A4&A5&A6&_). rewrite A1, A2, A3, A4, A5, A6.
    apply (v_const _ _ V).
  - intros k HU HF. destruct (MN k) as (A1&A2&A3&A4&A5&A6&A7&A8). rewrite A6 in HF. rewrite A7.
    destruct (micro_utd _ _ _ M HU) as [U|U]; [|left; exact U].
    rewrite (proj2 (A8 ltac:(rewrite U; discriminate))). apply (v_file _ _ V); auto.
  - intros k s i H. destruct (MN k) as (_&_&_&_&_&_&->&_). eapply v_pend; eauto.
  - apply V.
  - apply V.
  - intros k. rewrite MD. apply V.
  - intros k ds H d Hd.
    destruct M; cbn in H; try (eapply v_ids; eauto; fail);
      try (destruct H as [[H|H]|[H|H]]; try discriminate;
           first [eapply v_ids; eauto; fail | injection H as <- <-; eapply ids_covered; eauto]).
  - intros k ds H. destruct M; cbn in H; try (eapply v_pids; eauto; fail);
      destruct H as [H|H]; try discriminate; eapply v_pids; eauto.
  - intros j HF. pose proof (v_node _ _ V j HF) as HW.
    assert (FR : core (g_nodes g' j) = core (g_nodes g j) -> st g' j = st g j ->
                 (forall ds, In (EvStart j ds) (g_log g') -> In (EvStart j ds) (g_log g)) ->
                 (forall ds, In (EvSkip j ds) (g_log g') -> In (EvSkip j ds) (g_log g)) ->
                 W g' pend j).
    { intros. eapply W_frame; eauto. }
    destruct M.
    + (* tag *) apply FR; auto; unfold st; cases_upd j c; auto.
    + (* failed dependency *)
      destruct (Nat.eq_dec j k) as [->|N].
      2:{ apply FR; unfold st; rewrite ?nodes_mark_other by auto; auto; cbn.
          - intros ds [?|?]; [discriminate|auto].
          - intros ds [?|?]; [discriminate|auto]. }
      assert (SF : st (mark_failed CDeps k g) k = Failed) by (unfold st; now rewrite nodes_mark_same).
      assert (ST : started (g_log (mark_failed CDeps k g)) k -> started (g_log g) k).
      { intros (ds&[?|?]); [discriminate|exists ds; auto]. }
      split; rewrite ?SF; try discriminate.
      * intros ds [Hs|Hs]; [discriminate|]. eapply why_mono; eauto. now apply HW.
      * intros ds [Hs|Hs]; [discriminate|]. apply (skip_utd _ _ _ _ I) in Hs.
        destruct H0 as [B|B]; rewrite Hs in B; discriminate.
      * intros F Hs _ NP. apply ST in Hs.
        eapply stale_mono; eauto.
        { rewrite nodes_mark_same. reflexivity. }
        apply (w_stale _ _ _ HW); auto.
        destruct H0 as [B|B]; [|rewrite B; discriminate].
        intros E. rewrite E in B. discriminate.
      * intros ds [Hs|Hs]; [discriminate|]. now apply (w_ids _ _ _ HW).
    + (* to StaticDeps *)
      destruct (Nat.eq_dec j k) as [->|N].
      2:{ apply FR; unfold st; rewrite ?nodes_upd_other by auto; auto. }
      assert (SF : st (upd_node g k (set_state StaticDeps)) k = StaticDeps)
        by (unfold st; now rewrite nodes_upd_same).
      apply (W_unstarted g); auto; rewrite ?SF; try discriminate; try (rewrite H0; auto; fail).
      intros _. left. apply (same0_mono g).
      { now rewrite nodes_upd_same. } apply HW; auto.
    + (* clear *)
      destruct (Nat.eq_dec j k) as [->|N].
      2:{ apply FR; unfold st; rewrite ?nodes_upd_other by auto; auto. }
      set (g' := upd_node g k _) in *.
      assert (SF : st g' k = StaticDeps) by (unfold g', st; now rewrite nodes_upd_same).
      apply (W_unstarted g); auto; rewrite ?SF; try discriminate; try (rewrite H0; auto; fail).
      intros _. right.
      destruct (w_sd _ _ _ HW H0) as [S|(R&Z1&Z2)].
      2:{ split; [eapply reason_mono; eauto|]. unfold g'. rewrite nodes_upd_same. cbn. auto. }
      split; [|unfold g'; rewrite nodes_upd_same; cbn; split; auto; apply S].
      eapply reason_mono; eauto.
      apply orb_true_iff in H2 as [C|C]; [left; auto|right].
      unfold need_static in C. destruct (v_const _ _ V k) as (_&_&_&F1&F2&_).
      destruct S as (S1&S2&S3). rewrite F1, F2, S1, S3 in C.
      destruct (n_force (g_nodes g0 k)); [left; auto|right].
      destruct (N.eqb_spec (n_stamp (g_nodes g0 k)) 0); [left; auto|right].
      destruct (n_isfile (g_nodes g0 k)) eqn:IF; cbn [andb] in C.
      * destruct (N.eqb_spec (g_disk g k) 0); cbn [orb] in C.
        { left. split; auto. exists (g_disk g k). split; [apply V|auto]. }
        destruct (N.eqb_spec (g_disk g k) (n_stamp (g_nodes g0 k))); cbn [negb] in C.
        { right. apply need_deps_true in C as (d&D1&D2&D3). exists d.
          split; auto. split; auto. split; auto. apply H1. now rewrite S1. }
        { left. split; auto. exists (g_disk g k). split; [apply V|auto]. }
      * right. apply need_deps_true in C as (d&D1&D2&D3). exists d.
        split; auto. split; auto. split; auto. apply H1. now rewrite S1.
    + (* DoDynamicDependencies failed *)
      destruct (Nat.eq_dec j k) as [->|N].
      2:{ apply FR; unfold st; rewrite ?nodes_mark_other by auto; auto; cbn.
          - intros ds [?|?]; [discriminate|auto].
          - intros ds [?|?]; [discriminate|auto]. }
      assert (SF : st (mark_failed CDyn k g) k = Failed) by (unfold st; now rewrite nodes_mark_same).
      assert (NS : ~ started (g_log (mark_failed CDyn k g)) k).
      { intros (ds&[?|?]); [discriminate|].
        assert (Q : started (g_log g) k) by (exists ds; auto).
        apply (i_started _ _ _ I) in Q. rewrite H0 in Q. intuition discriminate. }
      split; rewrite ?SF; try discriminate; try tauto.
      2:{ intros ds [Hs|Hs]; [discriminate|]. apply (skip_utd _ _ _ _ I) in Hs. congruence. }
      all: intros ds Hs; exfalso; apply NS; exists ds; auto.
    + (* new dynamic dependencies *)
      destruct (Nat.eq_dec j k) as [->|N].
      2:{ apply FR; unfold st; rewrite ?nodes_upd_other by auto; auto. }
      set (g' := upd_node g k _) in *.
      assert (SF : st g' k = DynamicDeps) by (unfold g', st; now rewrite nodes_upd_same).
      apply (W_unstarted g); auto; rewrite ?SF; try discriminate; try (rewrite H0; auto; fail).
      intros _. right.
      split; [|unfold g'; rewrite nodes_upd_same; cbn; auto].
      destruct (w_sd _ _ _ HW H0) as [S|(R&Z1&Z2)].
      * destruct S as (S1&S2&S3).
        split; [|unfold g'; rewrite nodes_upd_same; cbn; split; auto].
        right; right; left. rewrite <- S3. exact H2.
      * split; [eapply reason_mono; eauto|]. unfold g'. rewrite nodes_upd_same. cbn. auto.
    + (* dynamic dependencies kept *)
      destruct (Nat.eq_dec j k) as [->|N].
      2:{ apply FR; unfold st; rewrite ?nodes_upd_other by auto; auto. }
      set (g' := upd_node g k _) in *.
      assert (SF : st g' k = DynamicDeps) by (unfold g', st; now rewrite nodes_upd_same).
      apply (W_unstarted g); auto; rewrite ?SF; try discriminate; try (rewrite H0; auto; fail).
      intros _. left.
      apply orb_false_iff in H2 as [C1 C].
      unfold need_static in C. destruct (v_const _ _ V k) as (_&_&_&F1&F2&_).
      destruct (w_sd _ _ _ HW H0) as [S|(R&Z1&Z2)].
      2:{ rewrite F1, Z1, N.eqb_refl in C. destruct (n_force _); discriminate. }
      split.
      { apply (same0_mono g); auto. unfold g'. now rewrite nodes_upd_same. }
      apply (calm_mono g); auto.
      destruct S as (S1&S2&S3). rewrite F1, F2, S1, S3 in C.
      split; auto.
      destruct (n_force (g_nodes g0 k)); [discriminate|]. split; auto.
      destruct (N.eqb_spec (n_stamp (g_nodes g0 k)) 0); [discriminate|]. split; auto.
      destruct (n_isfile (g_nodes g0 k)) eqn:IF; cbn [andb] in C.
      * destruct (N.eqb_spec (g_disk g k) 0); cbn [orb] in C; [discriminate|].
        destruct (N.eqb_spec (g_disk g k) (n_stamp (g_nodes g0 k))); cbn [negb] in C; [|discriminate].
        split; [intros _; rewrite <- e; apply V|].
        intros d Hd Wk. destruct (need_deps_false _ _ C d Hd Wk). split; auto.
        apply H1. now rewrite S1.
      * split; [discriminate|].
        intros d Hd Wk. destruct (need_deps_false _ _ C d Hd Wk). split; auto.
        apply H1. now rewrite S1.
    + (* start *)
      destruct (Nat.eq_dec j k) as [->|N].
      2:{ apply FR; unfold st; rewrite ?nodes_start_other by auto; auto; cbn.
          - intros ds [?|?]; [congruence|auto].
          - intros ds [?|?]; [discriminate|auto]. }
      assert (SF : st (start_job k g) k = Building) by (unfold st; now rewrite nodes_start_same).
      assert (RS : why k (dep_ids (g_nodes g k)) g /\ stale k g).
      { destruct (w_dd _ _ _ HW H0) as [[S C]|((R&Z1&Z2)&_)].
        2:{ split; now left. }
        apply orb_true_iff in H2 as [E|E].
        - apply N.eqb_eq in E. unfold stampof in E. destruct S as (S1&S2&S3).
          split; [|now left]. left; right; right; left. congruence.
        - unfold need_dyn in E. apply need_deps_true in E as (d&D1&D2&D3).
          assert (MF : misfit g d) by (split; auto).
          destruct S as (S1&S2&S3).
          split.
          + right. exists d. split; [congruence|]. split; auto.
            apply in_dep_ids. unfold alldeps. rewrite !in_app_iff. auto.
          + right. split; [split; auto|]. split; auto. exists d. split; auto. congruence. }
      destruct RS as [R SL].
      split; rewrite ?SF; try discriminate.
      * intros ds [Hs|Hs]; [injection Hs as <-; eapply why_mono; eauto|].
        eapply why_mono; eauto. now apply HW.
      * intros ds [Hs|Hs]; [discriminate|]. apply (skip_utd _ _ _ _ I) in Hs. congruence.
      * intros _ _ _ _. apply (stale_mono g); auto. rewrite nodes_start_same. reflexivity.
      * intros ds [Hs|Hs]; [|now apply (w_ids _ _ _ HW)]. injection Hs as <-.
        destruct (v_const _ _ V k) as (C1&C2&_). exists (n_dyn (g_nodes g k)).
        unfold dep_ids. rewrite C1, C2. split; auto.
        destruct (w_dd _ _ _ HW H0) as [[S C]|(_&Z)]; auto. left. apply S.
    + (* skip *)
      set (g' := add_log _ _) in *.
      assert (NO : forall j, j <> k -> g_nodes g' j = g_nodes g j).
      { intros. unfold g'. rewrite nodes_add_log, nodes_upd_other; auto. }
      assert (NS : g_nodes g' k = set_state UpToDate (g_nodes g k)).
      { unfold g'. now rewrite nodes_add_log, nodes_upd_same. }
      destruct (Nat.eq_dec j k) as [->|N].
      2:{ apply FR; unfold st; rewrite ?NO by auto; auto; cbn.
          - intros ds [?|?]; [discriminate|auto].
          - intros ds [?|?]; [congruence|auto]. }
      assert (SF : st g' k = UpToDate) by (unfold st; now rewrite NS).
      assert (NST : ~ started (g_log g') k).
      { intros (ds&[?|?]); [discriminate|].
        assert (Q : started (g_log g) k) by (exists ds; auto).
        apply (i_started _ _ _ I) in Q. rewrite H0 in Q. intuition discriminate. }
      apply orb_false_iff in H2 as [C1 C]. apply N.eqb_neq in C1. unfold stampof in C1.
      split; rewrite ?SF; try discriminate; try tauto.
      3:{ intros ds Hs. exfalso. apply NST. exists ds; auto. }
      1:{ intros ds Hs. exfalso. apply NST. exists ds; auto. }
      2:{ intros _ _. destruct (w_dd _ _ _ HW H0) as [[(S1&S2&S3) Ca]|((R&Z1&Z2)&_)]; [|contradiction].
          rewrite NS. cbn. split.
          - intros d Hd. apply (fits0_mono g); auto. intros Wk. rewrite S1 in Hd.
            destruct Ca as (_&_&_&_&Ca). destruct (Ca d Hd Wk) as (?&?&?). auto.
          - intros _ d Hd. apply (fits0_mono g); auto. intros Wk.
            destruct (need_deps_false _ _ C d Hd Wk). split; auto. }
      intros ds [Hs|Hs].
      2:{ apply (skip_utd _ _ _ _ I) in Hs. congruence. }
      injection Hs as <-.
      destruct (w_dd _ _ _ HW H0) as [[S Ca]|((R&Z1&Z2)&_)]; [|contradiction].
      split; [apply (same0_mono g); auto; rewrite NS; reflexivity|].
      split; [apply (calm_mono g); auto|].
      destruct S as (S1&S2&S3).
      split.
      * intros d Hd. apply (fits_mono g); auto. intros Wk. rewrite <- S2 in Hd.
        destruct (need_deps_false _ _ C d Hd Wk). split; auto.
      * unfold dep_ids. destruct (v_const _ _ V k) as (P&_). congruence.
Qed.

Lemma mstar_inv2 g g' pend :
  Inv dyn g pend -> Inv2 g pend -> mstar o dyn g g' -> Inv2 g' pend.
Proof.
  intros I V M. revert I V. induction M as [|a b c M1 _ IH]; auto.
  intros I V. apply IH; [eapply micro_inv; eauto|eapply micro_inv2; eauto].
Qed.

(** A step of the main loop or a worker that touches node [k] only (and include stamps). *)
Lemma inv2_touch g g' k pend pend' e :
  Inv dyn g pend -> Inv2 g pend ->
  keeps g g' -> st g k <> UpToDate ->
  g_disk g' = g_disk g ->
  (forall j, n_pre (g_nodes g' j) = n_pre (g_nodes g j) /\
      map d_node (n_static (g_nodes g' j)) = map d_node (n_static (g_nodes g j)) /\
      n_proxy (g_nodes g' j) = n_proxy (g_nodes g j) /\
      n_force (g_nodes g' j) = n_force (g_nodes g j) /\
      n_isfile (g_nodes g' j) = n_isfile (g_nodes g j) /\
      n_filenode (g_nodes g' j) = n_filenode (g_nodes g j)) ->
  (forall j, j <> k -> st g' j = st g j /\ n_built (g_nodes g' j) = n_built (g_nodes g j) /\
      (n_filenode (g_nodes g j) = false -> core (g_nodes g' j) = core (g_nodes g j))) ->
  (st g' k = UpToDate -> n_filenode (g_nodes g k) = true ->
     n_stamp (g_nodes g' k) <> 0%N \/ n_built (g_nodes g' k) = true) ->
  (forall s i, In (k, ROk s i) pend' -> n_built (g_nodes g' k) = true) ->
  (g_log g' = g_log g \/ (g_log g' = e :: g_log g /\ (forall j ds, e <> EvStart j ds /\ e <> EvSkip j ds) /\
      (forall j ds, e = EvProxy j ds -> ds = map d_node (n_static (g_nodes g0 j))))) ->
  (forall j s i, j <> k -> (In (j, ROk s i) pend <-> In (j, ROk s i) pend')) ->
  (FI -> forall s incl i, In (k, ROk s (Some incl)) pend' -> In i incl -> n_isfile (g_nodes g0 i) = true) ->
  (st g' k = NotProcessed \/ st g' k = StaticDeps \/ st g' k = DynamicDeps -> False) ->
  (FI -> n_filenode (g_nodes g0 k) = false -> W g pend k ->
     started (g_log g) k -> st g' k <> UpToDate ->
     (forall s i, ~ In (k, ROk s i) pend') -> stale k g') ->
  (forall s incl, In (k, ROk s (Some incl)) pend' -> obj k) ->
  (n_filenode (g_nodes g0 k) = false -> n_proxy (g_nodes g0 k) = false -> st g' k = UpToDate ->
     matches g' (n_static (g_nodes g' k)) /\ (~ obj k -> matches g' (n_dyn (g_nodes g' k)))) ->
  Inv2 g' pend'.
Proof.
  intros I V K NU ED NC NO HK HP HL PE HF HS HW HO HR.
  assert (LS : forall j, started (g_log g') j -> started (g_log g) j).
  { destruct HL as [->|(->&HE&_)]; auto. intros j (ds&[->|H]); [|exists ds; auto].
    destruct (HE j ds); congruence. }
  assert (LK : forall j ds, In (EvSkip j ds) (g_log g') -> In (EvSkip j ds) (g_log g)).
  { destruct HL as [->|(->&HE&_)]; auto. intros j ds [->|H]; auto.
    destruct (HE j ds); congruence. }
  assert (LT : forall j ds, In (EvStart j ds) (g_log g') -> In (EvStart j ds) (g_log g)).
  { destruct HL as [->|(->&HE&_)]; auto. intros j ds [->|H]; auto.
    destruct (HE j ds); congruence. }
  split.
  - intros j. destruct (NC j) as (A1&A2&A3&A4&A5&A6). rewrite A1, A2, A3, A4, A5, A6.
    apply (v_const _ _ V).
  - intros j HU HFn. destruct (NC j) as (A1&A2&A3&A4&A5&A6). rewrite A6 in HFn.
    destruct (Nat.eq_dec j k) as [->|N]; [apply HK; auto|].
    destruct (NO j N) as (B1&B2&B3). rewrite B1 in HU. destruct (K j HU) as (_&E).
    unfold stampof in E. rewrite E, B2. apply (v_file _ _ V); auto.
  - intros j s i H. destruct (Nat.eq_dec j k) as [->|N]; [eapply HP; eauto|].
    destruct (NO j N) as (_&->&_). eapply v_pend; eauto. apply PE; eauto.
  - intros F j s incl i H. destruct (Nat.eq_dec j k) as [->|N]; [eapply HF; eauto|].
    apply PE in H; auto. eapply v_incl; eauto.
  - intros j s incl H. destruct (Nat.eq_dec j k) as [->|N]; [eapply HO; eauto|].
    apply PE in H; auto. eapply v_obj; eauto.
  - intros j. rewrite ED. apply V.
  - intros j ds H d Hd. eapply (v_ids _ _ V); eauto. destruct H; eauto.
  - intros j ds H. destruct HL as [E|(E&_&HE)]; rewrite E in H.
    + eapply v_pids; eauto.
    + destruct H as [->|H]; auto. eapply v_pids; eauto.
  - intros j Hj. pose proof (v_node _ _ V j Hj) as WJ.
    destruct (Nat.eq_dec j k) as [->|N].
    + split.
      * intros E; exfalso; apply HS; auto.
      * intros E; exfalso; apply HS; auto.
      * intros E; exfalso; apply HS; auto.
      * intros ds H. eapply why_mono; eauto. apply WJ. auto.
      * intros ds H. apply LK in H. apply (skip_utd _ _ _ _ I) in H. contradiction.
      * intros F H. apply HW; auto.
      * intros ds H. apply (w_ids _ _ _ WJ). auto.
      * apply HR; auto.
    + destruct (NO j N) as (B1&B2&B3). 
      apply (W_frame g g' pend); auto.
      * apply B3. destruct (v_const _ _ V j) as (_&_&_&_&_&->). auto.
      * intros s i. apply PE; auto.
Qed.

Lemma finish_inv2 k r g :
  Inv dyn g (g_done g) -> Inv2 g (g_done g) ->
  (FI -> match r with ROk _ (Some incl) => forall i, In i incl -> n_isfile (g_nodes g0 i) = true
                    | _ => True end) ->
  (match r with ROk _ (Some _) => obj k | _ => True end) ->
  Inv2 (finish k r g) (g_done (finish k r g)).
Proof.
  intros I V HF HO. unfold finish. destruct (in_dec Nat.eq_dec k (g_active g)) as [H|]; auto.
  cbn [g_done]. set (g' := mkGraph _ _ _ _ _ _).
  assert (SB : st g k = Building). { apply (i_jobs_b _ _ _ I). apply in_app_iff; auto. }
  assert (NOD : forall s i, ~ In (k, ROk s i) (g_done g)).
  { intros s i Hi. pose proof (i_jobs _ _ _ I) as ND. apply NoDup_app_inv in ND as (_&_&D).
    apply (D k H). apply in_map_iff. exists (k, ROk s i). auto. }
  assert (NK : g_nodes g' k = match r with
                  | ROk s _ => set_built true (set_stamp s (g_nodes g k))
                  | RFailed true => set_stamp 0 (g_nodes g k)
                  | _ => g_nodes g k end).
  { unfold g'. cbn. destruct r as [s i|[|]|]; auto; now rewrite upd_same. }
  assert (NO : forall j, j <> k -> g_nodes g' j = g_nodes g j).
  { intros j N. unfold g'. cbn. destruct r as [s i|[|]|]; auto; now rewrite upd_other. }
  assert (SK : st g' k = Building).
  { unfold st in *. rewrite NK. destruct r as [s i|[|]|]; auto. }
  apply (inv2_touch g g' k (g_done g) _ (EvBuilt 0)); auto.
  - intros d Hd. assert (d <> k) by congruence. unfold st, stampof. rewrite NO; auto.
  - congruence.
  - intros j. destruct (Nat.eq_dec j k) as [->|N]; [rewrite NK|rewrite NO by auto; tauto].
    destruct r as [s i|[|]|]; cbn; tauto.
  - intros j N. unfold st. rewrite NO; auto.
  - congruence.
  - intros s i Hi. rewrite NK. apply in_app_iff in Hi as [Hi|[Hi|[]]]; [exfalso; eapply NOD; eauto|].
    injection Hi as ->. reflexivity.
  - intros j s i N. rewrite in_app_iff. cbn. split; auto. intros [?|[?|[]]]; auto. congruence.
  - intros F s incl i Hi Hin. apply in_app_iff in Hi as [Hi|[Hi|[]]]; [exfalso; eapply NOD; eauto|].
    injection Hi as ->. now apply HF.
  - rewrite SK. intuition discriminate.
  - intros F _ WK HS _ NP.
    assert (SL : stale k g).
    { apply (w_stale _ _ _ WK); auto. congruence. }
    assert (KP : keeps g g').
    { intros d Hd. assert (d <> k) by congruence. unfold st, stampof. rewrite NO; auto. }
    destruct r as [s i|[|]|].
    + exfalso. apply (NP s i). apply in_app_iff. right. now left.
    + left. now rewrite NK.
    + apply (stale_mono g); auto.
    + apply (stale_mono g); auto.
  - intros s incl Hi. apply in_app_iff in Hi as [Hi|[Hi|[]]]; [exfalso; eapply NOD; eauto|].
    injection Hi as ->. exact HO.
  - congruence.
Qed.

Lemma finalize_includes_ok k incl : forall g g' b,
  (forall i, In i incl -> n_isfile (g_nodes g i) = true) ->
  finalize_includes g k incl = (g', b) -> b = true.
Proof.
  induction incl as [|i r IH]; intros g g' b HI H; cbn in H.
  - congruence.
  - rewrite (HI i) in H by now left.
    eapply IH; [|exact H]. intros x Hx.
    match goal with |- context [upd_node ?x k _] => set (g1 := x) end.
    assert (E : forall x, n_isfile (g_nodes g1 x) = n_isfile (g_nodes g x)).
    { intros y. unfold g1. destruct (_ && _ && _); auto. cases_upd y i; auto. }
    destruct (Nat.eq_dec x k) as [->|N].
    + rewrite nodes_upd_same. cbn. rewrite E. apply HI. now right.
    + rewrite nodes_upd_other by auto. rewrite E. apply HI. now right.
Qed.

Lemma map_stamp_deps f ds : map d_node (stamp_deps f ds) = map d_node ds.
Proof. unfold stamp_deps. rewrite map_map. reflexivity. Qed.

Lemma finalize_job_inv2 g k r pend :
  Inv dyn g ((k, r) :: pend) -> Inv2 g ((k, r) :: pend) -> Inv2 (finalize_job g (k, r)) pend.
Proof.
  intros I V. destruct (inv_drop _ _ _ _ I) as (_&NJ&B). cbn in NJ, B.
  assert (NP : forall s i, ~ In (k, ROk s i) pend).
  { intros s i H. apply NJ. apply in_app_iff. right. apply in_map_iff. exists (k, ROk s i). auto. }
  assert (PE : forall j s i, j <> k -> (In (j, ROk s i) ((k, r) :: pend) <-> In (j, ROk s i) pend)).
  { intros j s i N. cbn. split; auto. intros [?|?]; auto. congruence. }
  assert (ALL : forall g' e,
    keeps g g' -> g_disk g' = g_disk g ->
    (forall j, n_pre (g_nodes g' j) = n_pre (g_nodes g j) /\
      map d_node (n_static (g_nodes g' j)) = map d_node (n_static (g_nodes g j)) /\
      n_proxy (g_nodes g' j) = n_proxy (g_nodes g j) /\
      n_force (g_nodes g' j) = n_force (g_nodes g j) /\
      n_isfile (g_nodes g' j) = n_isfile (g_nodes g j) /\
      n_filenode (g_nodes g' j) = n_filenode (g_nodes g j)) ->
    (forall j, j <> k -> st g' j = st g j /\ n_built (g_nodes g' j) = n_built (g_nodes g j) /\
      (n_filenode (g_nodes g j) = false -> core (g_nodes g' j) = core (g_nodes g j))) ->
    (st g' k = UpToDate -> n_built (g_nodes g' k) = true) ->
    (st g' k = Building \/ st g' k = Failed \/ st g' k = UpToDate) ->
    (g_log g' = g_log g \/ g_log g' = e :: g_log g /\ (e = EvBuilt k \/ exists c, e = EvFailed k c)) ->
    (FI -> W g ((k, r) :: pend) k -> started (g_log g) k -> st g' k <> UpToDate -> stale k g') ->
    (n_filenode (g_nodes g0 k) = false -> st g' k = UpToDate ->
       matches g' (n_static (g_nodes g' k)) /\ (~ obj k -> matches g' (n_dyn (g_nodes g' k)))) ->
    Inv2 g' pend).
  { intros g' e K ED NC NO HB HS HL HW HR.
    apply (inv2_touch g g' k ((k, r) :: pend) pend e); auto.
    - congruence.
    - intros s i H. exfalso. eapply NP; eauto.
    - destruct HL as [HL|(HL&HE)]; auto. right. split; auto.
      destruct HE as [->|(c&->)]; split; intros; try discriminate; split; discriminate.
    - intros F s incl i H. exfalso. eapply NP; eauto.
    - intuition congruence.
    - intros s incl H. exfalso. eapply NP; eauto. }
  assert (UTD : forall d, In d (n_static (g_nodes g k) ++ n_dyn (g_nodes g k)) -> st g (d_node d) = UpToDate).
  { intros d Hd. assert (SK : started (g_log g) k) by (apply (i_building _ _ _ I); auto).
    destruct SK as (ds&SK).
    assert (ED : ds = dep_ids (g_nodes g k)).
    { apply (i_ds _ _ _ I); auto. cbn. rewrite in_app_iff. cbn. auto. }
    apply (i_utd _ _ _ I).
    assert (LO : forall l, log_ok l -> In (EvStart k ds) l -> completed l (d_node d)).
    { induction 1; cbn; intros HI; try tauto;
        try (destruct HI as [HI|HI]; [discriminate|]; apply completed_cons; auto).
      destruct HI as [HI|HI]; [|apply completed_cons; auto].
      injection HI as -> ->. apply completed_cons. apply H0. rewrite ED. apply in_dep_ids.
      unfold alldeps. rewrite !in_app_iff in *. tauto. }
    apply LO; auto. apply I. }
  assert (KP : forall g', (forall j, j <> k -> st g' j = st g j /\ stampof g' j = stampof g j) -> keeps g g').
  { intros g' H d Hd. assert (N : d <> k) by congruence. destruct (H d N). split; congruence. }
  cbn. destruct r as [s [incl|]|z|].
  - unfold finalize_object.
    destruct (finalize_includes (upd_node g k (set_dyn [])) k incl) as [g1 ok] eqn:Hi.
    destruct (finalize_includes_shape _ _ _ _ _ Hi) as (L1&L2&L3&L4&L5&NN). cbn in L1, L4.
    assert (BU : n_built (g_nodes g k) = true) by (eapply v_pend; eauto; now left).
    assert (N1 : forall j, st g1 j = st g j /\ n_pre (g_nodes g1 j) = n_pre (g_nodes g j) /\
             n_proxy (g_nodes g1 j) = n_proxy (g_nodes g j) /\
             n_force (g_nodes g1 j) = n_force (g_nodes g j) /\
             n_isfile (g_nodes g1 j) = n_isfile (g_nodes g j) /\
             n_filenode (g_nodes g1 j) = n_filenode (g_nodes g j) /\
             n_built (g_nodes g1 j) = n_built (g_nodes g j) /\
             n_static (g_nodes g1 j) = n_static (g_nodes g j) /\
             (j <> k -> n_dyn (g_nodes g1 j) = n_dyn (g_nodes g j)) /\
             (n_stamp (g_nodes g1 j) = n_stamp (g_nodes g j) \/
              (n_filenode (g_nodes g j) = true /\ n_stamp (g_nodes g j) = 0%N /\
               n_built (g_nodes g j) = false))).
    { intros j. specialize (NN j). unfold st in *.
      assert (EQ : forall A (f : node -> A), (forall n, f (set_dyn [] n) = f n) ->
                f (g_nodes (upd_node g k (set_dyn [])) j) = f (g_nodes g j)).
      { intros A f Hf. cases_upd j k; auto. }
      rewrite (EQ _ n_state), (EQ _ n_pre), (EQ _ n_proxy), (EQ _ n_force), (EQ _ n_isfile),
        (EQ _ n_filenode), (EQ _ n_built), (EQ _ n_static), (EQ _ n_stamp), (EQ _ n_tag) in NN by reflexivity.
      destruct NN as (A1&A2&A3&A4&A5&A6&A7&A8&A9&A10&A11).
      repeat (split; [assumption|]).
      split; [intros N; rewrite A10 by auto; now rewrite nodes_upd_other|].
      destruct A11 as [?|(?&?&?&?)]; auto. }
    assert (K1 : keeps g g1).
    { intros d Hd. destruct (N1 d) as (A1&_&_&_&_&A6&A7&_&_&A10). split; [congruence|].
      destruct A10 as [A|(C1&C2&C3)]; auto.
      destruct (v_file _ _ V d Hd C1); congruence. }
    destruct ok.
    + set (g2 := add_log (EvBuilt k) _).
      assert (E2 : g_nodes g2 k = set_state UpToDate (set_dyn (stamp_deps (stampof g1) (n_dyn (g_nodes g1 k)))
                     (set_static (stamp_deps (stampof g1) (n_static (g_nodes g1 k))) (g_nodes g1 k)))).
      { unfold g2, finalize_node. now rewrite nodes_add_log, !nodes_upd_same. }
      assert (O2 : forall j, j <> k -> g_nodes g2 j = g_nodes g1 j).
      { intros. unfold g2, finalize_node. now rewrite nodes_add_log, !nodes_upd_other. }
      apply (ALL g2 (EvBuilt k)).
      * intros d Hd. assert (N : d <> k) by congruence. unfold st, stampof. rewrite O2 by auto.
        apply K1; auto.
      * unfold g2, finalize_node. cbn. auto.
      * intros j. destruct (N1 j) as (A1&A2&A3&A4&A5&A6&A7&A8&_).
        destruct (Nat.eq_dec j k) as [->|N].
        -- rewrite E2. cbn. rewrite map_stamp_deps, A8. auto 8.
        -- rewrite O2 by auto. rewrite A8. auto 8.
      * intros j N. destruct (N1 j) as (A1&A2&A3&A4&A5&A6&A7&A8&A9&A10).
        unfold st. rewrite O2 by auto. split; auto. split; auto.
        intros Hf. unfold core. rewrite A8, A9 by auto. destruct A10 as [->|(C&_)]; [auto|congruence].
      * intros _. rewrite E2. cbn. destruct (N1 k) as (_&_&_&_&_&_&->&_). auto.
      * unfold st. rewrite E2. cbn. auto.
      * right. split; [unfold g2; cbn; now rewrite L1|auto].
      * intros _ _ _ C. unfold st in C. rewrite E2 in C. cbn in C. congruence.
      * intros _ _. rewrite E2. cbn. split.
        2:{ intros NOb. exfalso. apply NOb. eapply (v_obj _ _ V). now left. }
        intros d Hd _. unfold stamp_deps in Hd. apply in_map_iff in Hd as (d0&<-&Hd). cbn.
        destruct (N1 k) as (_&_&_&_&_&_&_&E8&_). rewrite E8 in Hd.
        assert (U : st g (d_node d0) = UpToDate) by (apply UTD; apply in_app_iff; auto).
        assert (N : d_node d0 <> k) by congruence.
        unfold st, stampof. rewrite O2 by auto. destruct (K1 _ U). auto.
    + apply (ALL (mark_failed CJob k g1) (EvFailed k CJob)).
      * intros d Hd. assert (N : d <> k) by congruence. unfold st, stampof.
        rewrite nodes_mark_other by auto. apply K1; auto.
      * cbn. auto.
      * intros j. destruct (N1 j) as (A1&A2&A3&A4&A5&A6&A7&A8&_).
        destruct (Nat.eq_dec j k) as [->|N].
        -- rewrite nodes_mark_same. cbn. rewrite A8. auto 8.
        -- rewrite nodes_mark_other by auto. rewrite A8. auto 8.
      * intros j N. destruct (N1 j) as (A1&A2&A3&A4&A5&A6&A7&A8&A9&A10).
        unfold st. rewrite nodes_mark_other by auto. split; auto. split; auto.
        intros Hf. unfold core. rewrite A8, A9 by auto. destruct A10 as [->|(C&_)]; [auto|congruence].
      * unfold st. rewrite nodes_mark_same. cbn. discriminate.
      * unfold st. rewrite nodes_mark_same. cbn. auto.
      * right. split; [cbn; now rewrite L1|eauto].
      * intros F _ _ _. exfalso.
        assert (false = true); [|discriminate].
        eapply finalize_includes_ok; [|exact Hi].
        intros i Hin. transitivity (n_isfile (g_nodes g i)).
        { cases_upd i k; auto. }
        destruct (v_const _ _ V i) as (_&_&_&_&->&_).
        eapply (v_incl _ _ V F); [now left|exact Hin].
      * unfold st. rewrite nodes_mark_same. cbn. discriminate.
  - set (g2 := add_log (EvBuilt k) _).
    assert (E2 : g_nodes g2 k = set_state UpToDate (set_dyn (stamp_deps (stampof g) (n_dyn (g_nodes g k)))
                   (set_static (stamp_deps (stampof g) (n_static (g_nodes g k))) (g_nodes g k)))).
    { unfold g2, finalize_node. now rewrite nodes_add_log, !nodes_upd_same. }
    assert (O2 : forall j, j <> k -> g_nodes g2 j = g_nodes g j).
    { intros. unfold g2, finalize_node. now rewrite nodes_add_log, !nodes_upd_other. }
    apply (ALL g2 (EvBuilt k)).
    + apply KP. intros j N. unfold st, stampof. rewrite O2; auto.
    + reflexivity.
    + intros j. destruct (Nat.eq_dec j k) as [->|N].
      * rewrite E2. cbn. rewrite map_stamp_deps. auto 8.
      * rewrite O2 by auto. auto 8.
    + intros j N. unfold st. rewrite O2; auto.
    + intros _. rewrite E2. cbn. eapply v_pend; eauto. now left.
    + unfold st. rewrite E2. cbn. auto.
    + right. split; auto.
    + intros _ _ _ C. unfold st in C. rewrite E2 in C. cbn in C. congruence.
    + intros _ _. rewrite E2. cbn.
      assert (MA : forall l, (forall d, In d l -> st g (d_node d) = UpToDate) ->
                matches g2 (stamp_deps (stampof g) l)).
      { intros l HU d Hd _. unfold stamp_deps in Hd. apply in_map_iff in Hd as (d0&<-&Hd). cbn.
        assert (U : st g (d_node d0) = UpToDate) by auto.
        assert (N : d_node d0 <> k) by congruence.
        unfold st, stampof. rewrite O2 by auto. auto. }
      split; [|intros _]; apply MA; intros; apply UTD; apply in_app_iff; auto.
  - apply (ALL (mark_failed CJob k g) (EvFailed k CJob)).
    + apply KP. intros j N. unfold st, stampof. rewrite nodes_mark_other; auto.
    + reflexivity.
    + intros j. cases_upd j k; cbn; auto 8.
    + intros j N. unfold st. rewrite nodes_mark_other; auto.
    + unfold st. rewrite nodes_mark_same. cbn. discriminate.
    + unfold st. rewrite nodes_mark_same. cbn. auto.
    + right. split; [reflexivity|eauto].
    + intros F WK HS _. apply (stale_mono g).
      * apply KP. intros j N. unfold st, stampof. rewrite nodes_mark_other; auto.
      * now rewrite nodes_mark_same.
      * apply (w_stale _ _ _ WK); auto; [congruence|].
        intros s i [Hi|Hi]; [discriminate|]. eapply NP; eauto.
    + unfold st. rewrite nodes_mark_same. cbn. discriminate.
  - apply (ALL g (EvBuilt k)); auto 10.
    + congruence.
    + intros F WK HS _. apply (w_stale _ _ _ WK); auto; [congruence|].
      intros s i [Hi|Hi]; [discriminate|]. eapply NP; eauto.
    + congruence.
Qed.

Lemma finalize_fold_inv2 pend : forall g,
  Inv dyn g pend -> Inv2 g pend -> Inv2 (fold_left finalize_job pend g) [].
Proof.
  induction pend as [|[k r] p IH]; cbn [fold_left]; auto.
  intros g I V. apply IH; [now apply finalize_job_inv|now apply finalize_job_inv2].
Qed.

Lemma inv2_weaken g g' pend pend' :
  Inv2 g pend -> g_nodes g' = g_nodes g -> g_log g' = g_log g -> g_disk g' = g_disk g ->
  (forall k s i, In (k, ROk s i) pend <-> In (k, ROk s i) pend') -> Inv2 g' pend'.
Proof.
  intros V EN EL ED P.
  split; rewrite ?EN, ?EL, ?ED; try apply V.
  - intros k. unfold st. rewrite EN. apply V.
  - intros k s i H. eapply v_pend; eauto. apply P; eauto.
  - intros F k s incl i H. eapply v_incl; eauto. apply P; eauto.
  - intros k s incl H. eapply v_obj; eauto. apply P; eauto.
  - intros k H. apply (W_frame g g' pend pend').
    + apply V; auto.
    + apply keeps_refl; auto.
    + now rewrite EN.
    + unfold st. now rewrite EN.
    + intros ds. now rewrite EL.
    + intros ds. now rewrite EL.
    + intros; now apply P.
Qed.

Lemma finalize_jobs_inv2 g : Inv dyn g (g_done g) -> Inv2 g (g_done g) -> Inv2 (finalize_jobs g) [].
Proof.
  intros I V. unfold finalize_jobs.
  pose proof (i_jobs _ _ _ I) as ND. apply NoDup_app_inv in ND as (N1&N2&N3).
  destruct (done_parts _ N2) as [P1 P2].
  apply finalize_fold_inv2.
  - apply inv_weaken_pend with (g := g) (pend := g_done g); auto.
    + cbn. apply NoDup_app_inv. repeat split; auto. intros x Hx Hp. apply (N3 x Hx). auto.
    + intros x. cbn. rewrite !in_app_iff. intuition.
  - apply inv2_weaken with (g := g) (pend := g_done g); auto.
    intros k s i. rewrite in_app_iff, !filter_In. cbn. intuition discriminate.
Qed.

Lemma build_pass_inv2 fuel g root g' :
  build_pass fuel o dyn g root = Some g' ->
  Inv dyn g (g_done g) -> Inv2 g (g_done g) -> Inv2 g' (g_done g').
Proof.
  intros H I V. destruct (build_pass_inv _ _ _ _ _ _ H I) as [_ ED]. rewrite ED.
  unfold build_pass in H. set (g1 := mkGraph _ _ _ _ _ _) in H.
  assert (I1 : Inv dyn g1 (g_done g)) by (apply inv_same with (g := g); auto).
  assert (V1 : Inv2 g1 (g_done g)) by (apply inv2_weaken with (g := g) (pend := g_done g); auto; intros; tauto).
  destruct (n_proxy (g_nodes g1 root)) eqn:NP.
  - destruct (proxy_loop fuel o dyn g1 (n_static (g_nodes g1 root))) as [[[g2 u] f]|] eqn:L; [|discriminate].
    destruct (proxy_loop_mstar _ _ _ _ _ _ _ _ L) as (MS&_&UT&FL).
    assert (I2 : Inv dyn g2 (g_done g)) by (eapply mstar_inv; eauto).
    assert (V2 : Inv2 g2 (g_done g)) by exact (mstar_inv2 _ _ _ I1 V1 MS).
    assert (SS : n_static (g_nodes g2 root) = n_static (g_nodes g1 root)).
    { clear - MS. induction MS as [|a b c M _ IH]; auto. rewrite IH.
      apply (micro_nodes _ _ _ _ M). }
    destruct (v_const _ _ V2 root) as (_&CS&CP&_).
    assert (NP2 : n_proxy (g_nodes g2 root) = true).
    { rewrite CP. destruct (v_const _ _ V1 root) as (_&_&<-&_). auto. }
    destruct (i_proxy _ _ _ I2 root NP2) as (A1&A2&_&A4).
    assert (NF : n_filenode (g_nodes g2 root) = false).
    { destruct (v_const _ _ V2 root) as (_&_&_&_&_&->). apply proxy_not_file. congruence. }
    assert (NOD : forall s i, ~ In (root, ROk s i) (g_done g)).
    { intros s i Hi. assert (Q : st g2 root = Building).
      { apply (i_jobs_b _ _ _ I2). apply in_app_iff. right. apply in_map_iff. exists (root, ROk s i); auto. }
      rewrite Q in A1. intuition discriminate. }
    destruct (Nat.eqb (u + f) _).
    2:{ injection H as <-. auto. }
    destruct (Nat.eqb_spec f 0) as [F|F]; injection H as <-.
    + (* the proxy may already be up to date: same record *)
      set (e := EvProxy root (map d_node (n_static (g_nodes g1 root)))).
      set (g3 := add_log e (upd_node g2 root (set_state UpToDate))).
      change (Inv2 g3 (g_done g)).
      assert (E3 : g_nodes g3 root = set_state UpToDate (g_nodes g2 root)).
      { unfold g3. now rewrite nodes_add_log, nodes_upd_same. }
      assert (O3 : forall j, j <> root -> g_nodes g3 j = g_nodes g2 j).
      { intros. unfold g3. now rewrite nodes_add_log, nodes_upd_other. }
      assert (K3 : keeps g2 g3).
      { intros d Hd. unfold st, stampof. destruct (Nat.eq_dec d root) as [->|N].
        - rewrite E3. auto.
        - rewrite O3; auto. }
      assert (LS : forall j, started (g_log g3) j -> started (g_log g2) j).
      { intros j (ds&[Hx|Hx]); [discriminate|exists ds; auto]. }
      assert (LK : forall j ds, In (EvSkip j ds) (g_log g3) -> In (EvSkip j ds) (g_log g2)).
      { intros j ds [Hx|Hx]; [discriminate|auto]. }
      assert (LT : forall j ds, In (EvStart j ds) (g_log g3) -> In (EvStart j ds) (g_log g2)).
      { intros j ds [Hx|Hx]; [discriminate|auto]. }
      split.
      * intros j. destruct (Nat.eq_dec j root) as [->|N]; [rewrite E3|rewrite O3 by auto]; apply V2.
      * intros j HU HF. destruct (Nat.eq_dec j root) as [->|N].
        { rewrite E3 in HF. cbn in HF. congruence. }
        unfold st in HU. rewrite O3 in * by auto. apply (v_file _ _ V2); auto.
      * intros j s i Hj. destruct (Nat.eq_dec j root) as [->|N]; [exfalso; eapply NOD; eauto|].
        rewrite O3 by auto. eapply v_pend; eauto.
      * apply V2.
      * apply V2.
      * apply V2.
      * intros j ds Hj. apply (v_ids _ _ V2). destruct Hj as [[?|?]|[?|?]]; try discriminate; auto.
      * intros j ds [Hj|Hj]; [|eapply v_pids; eauto]. injection Hj as <- <-.
        transitivity (map d_node (n_static (g_nodes g2 root))); [now rewrite SS|auto].
      * intros j HF. pose proof (v_node _ _ V2 j HF) as WJ.
        destruct (Nat.eq_dec j root) as [->|N].
        2:{ apply (W_frame g2 g3 (g_done g)); auto; unfold st; rewrite ?O3 by auto; auto. }
        assert (S3 : st g3 root = UpToDate) by (unfold st; now rewrite E3).
        split; rewrite ?S3; try discriminate; try congruence.
        -- intros ds Q. exfalso. apply A2. exists ds; auto.
        -- intros ds Q. apply LK in Q. destruct (w_skip _ _ _ WJ ds Q) as (B1&B2&B3&B4).
           split; [apply (same0_mono g2); auto; now rewrite E3|].
           split; [eapply calm_mono; eauto|]. split; auto. intros; eapply fits_mono; eauto.
        -- intros ds Q. apply LT in Q. now apply (w_ids _ _ _ WJ).
    + assert (NU : st g2 root <> UpToDate).
      { intros E. destruct (FL F) as (d&Hd&Hf). rewrite <- SS in Hd.
        rewrite (A4 E d Hd) in Hf. discriminate. }
      apply (inv2_touch g2 _ root (g_done g) (g_done g) (EvFailed root CDeps)); auto.
      * intros d Hd. assert (d <> root) by congruence. unfold st, stampof. rewrite nodes_mark_other; auto.
      * intros j. cases_upd j root; cbn; auto 8.
      * intros j N. unfold st. rewrite nodes_mark_other; auto.
      * unfold st. rewrite nodes_mark_same. cbn. discriminate.
      * intros s i Hi. exfalso; eapply NOD; eauto.
      * right. split; [reflexivity|]. split; intros; try discriminate; split; discriminate.
      * intros j s i _. tauto.
      * intros _ s incl i Hi. exfalso; eapply NOD; eauto.
      * unfold st. rewrite nodes_mark_same. cbn. intuition discriminate.
      * intros. contradiction.
      * intros s incl Hi. exfalso; eapply NOD; eauto.
      * unfold st. rewrite nodes_mark_same. cbn. discriminate.
  - destruct (before_building (st g1 root)).
    + apply build_recurse_mstar in H. exact (mstar_inv2 _ _ _ I1 V1 H).
    + injection H as <-. auto.
Qed.

Definition op_ok (e : op) : Prop :=
  match e with
  | ODisk k t => seen k t
  | OFinish k (ROk _ (Some incl)) =>
      (FI -> forall i, In i incl -> n_isfile (g_nodes g0 i) = true) /\ obj k
  | _ => True
  end.

Lemma step_inv2 fuel root g e g' :
  step fuel o dyn root g e = Some g' -> op_ok e ->
  Inv dyn g (g_done g) -> Inv2 g (g_done g) -> Inv2 g' (g_done g').
Proof.
  intros H OK I V. destruct e; cbn in H.
  - eapply build_pass_inv2; eauto.
  - injection H as <-. apply finish_inv2; auto.
    + intros F. destruct r as [s [incl|]|z|]; auto; cbn in OK; apply OK; auto.
    + destruct r as [s [incl|]|z|]; auto; cbn in OK; apply OK; auto.
  - injection H as <-. destruct (finalize_jobs_inv _ _ I) as [_ ->]. now apply finalize_jobs_inv2.
  - injection H as <-. cbn [g_done].
    destruct V. split; auto.
    + intros j. cbn. destruct (Nat.eq_dec j k) as [->|N]; [rewrite upd_same|rewrite upd_other by auto]; auto.
    + intros j Hj. apply (W_frame g _ (g_done g)); auto. now apply keeps_refl.
Qed.

Lemma run_inv2 fuel root es : forall g g',
  run fuel o dyn root g es = Some g' -> (forall e, In e es -> op_ok e) ->
  Inv dyn g (g_done g) -> Inv2 g (g_done g) -> Inv2 g' (g_done g').
Proof.
  induction es as [|e r IH]; cbn [run]; intros g g' H OK I V.
  - now injection H as <-.
  - destruct (step fuel o dyn root g e) as [g1|] eqn:S; [|discriminate].
    eapply IH; eauto.
    + intros; apply OK; now right.
    + eapply step_inv; eauto.
    + eapply step_inv2; eauto. apply OK. now left.
Qed.

Lemma fresh_inv2 : fresh g0 -> (forall k, seen k (g_disk g0 k)) -> Inv2 g0 [].
Proof.
  intros (S&A&D&L) SE.
  split; rewrite ?L.
  - intros k. repeat split; auto.
  - intros k H. rewrite S in H. discriminate.
  - intros ? ? ? [].
  - intros ? ? ? ? ? [].
  - intros ? ? ? [].
  - auto.
  - intros ? ? [[]|[]].
  - intros ? ? [].
  - intros k _. split; rewrite ?S, ?L; try discriminate.
    + intros _. repeat split.
    + intros ? [].
    + intros ? [].
    + intros _ (?&[]).
    + intros ? [].
Qed.

Lemma run_fresh_inv2 fuel root es g' :
  fresh g0 -> (forall k, seen k (g_disk g0 k)) -> (forall e, In e es -> op_ok e) ->
  run fuel o dyn root g0 es = Some g' -> Inv2 g' (g_done g').
Proof.
  intros F SE OK H. eapply run_inv2; eauto.
  - destruct F as (A&B&C&D). rewrite C. apply fresh_inv. repeat split; auto.
  - pose proof (fresh_inv2 F SE) as V. destruct F as (A&B&C&D). rewrite C. exact V.
Qed.

End Why.
