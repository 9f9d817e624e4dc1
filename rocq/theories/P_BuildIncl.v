(** The include files reported by a finished compilation are what is recorded as its dynamic
    dependencies, and stay recorded to the end of the build. *)
From Coq Require Import List Arith NArith Bool Lia.
From Verif Require Import M_Build S_Build P_Build P_Build2 P_BuildLive P_BuildProg P_BuildRun.
Import ListNotations.

(* finalising an include again would not change its stamp *)
Definition quiet (g : graph) (i : nat) : Prop :=
  n_filenode (g_nodes g i) = true -> n_stamp (g_nodes g i) = 0%N -> n_built (g_nodes g i) = false ->
  g_disk g i = 0%N.

Definition frame1 (g g' : graph) (j : nat) : Prop :=
  n_filenode (g_nodes g' j) = n_filenode (g_nodes g j) /\
  n_built (g_nodes g' j) = n_built (g_nodes g j) /\ g_disk g' j = g_disk g j /\
  (n_stamp (g_nodes g' j) = n_stamp (g_nodes g j) \/
   (n_filenode (g_nodes g j) = true /\ n_stamp (g_nodes g j) = 0%N /\
    n_stamp (g_nodes g' j) = g_disk g j /\ n_built (g_nodes g j) = false)).

Lemma frame1_quiet g g' i : frame1 g g' i -> quiet g i ->
  quiet g' i /\ stampof g' i = stampof g i.
Proof.
  unfold quiet, stampof. intros (A&B&C&D) Q.
  assert (S : n_stamp (g_nodes g' i) = n_stamp (g_nodes g i)).
  { destruct D as [D|(D1&D2&D3&D4)]; auto. rewrite D3, D2. auto. }
  rewrite A, B, C, S. auto.
Qed.

Lemma includes_frame1 k incl g g' b : finalize_includes g k incl = (g', b) -> forall j, frame1 g g' j.
Proof.
  intros H j. destruct (finalize_includes_shape _ _ _ _ _ H) as (_&_&_&D&_&NN).
  destruct (NN j) as (_&_&_&_&_&A&B&_&_&_&S). unfold frame1. rewrite D. auto.
Qed.

Lemma quiet_node g g' i : g_nodes g' i = g_nodes g i -> g_disk g' i = g_disk g i -> quiet g i -> quiet g' i.
Proof. unfold quiet. intros -> ->. auto. Qed.

Lemma includes_record k incl : forall g g',
  finalize_includes g k incl = (g', true) ->
  n_dyn (g_nodes g' k) = n_dyn (g_nodes g k) ++ map (fun i => mkDep i 0 false) incl /\
  (forall i, In i incl -> quiet g' i).
Proof.
  induction incl as [|i r IH]; intros g g' H; cbn in H.
  - injection H as <-. rewrite app_nil_r. split; [auto|intros i []].
  - destruct (n_isfile (g_nodes g i)) eqn:F; [|discriminate].
    set (g1 := if n_filenode (g_nodes g i) && N.eqb (stampof g i) 0 && negb (n_built (g_nodes g i))
               then upd_node g i (set_stamp (g_disk g i)) else g) in H.
    set (g2 := upd_node g1 k _) in H.
    destruct (IH _ _ H) as [A B].
    assert (N1 : n_dyn (g_nodes g1 k) = n_dyn (g_nodes g k)).
    { unfold g1. destruct (_ && _ && _); auto. cases_upd k i; auto. }
    assert (Q1 : quiet g1 i).
    { unfold g1, quiet. destruct (_ && _ && _) eqn:C.
      - rewrite nodes_upd_same. cbn. auto.
      - intros X1 X2 X3. unfold stampof in C. rewrite X1, X2, X3 in C. discriminate. }
    assert (Q2 : quiet g2 i).
    { unfold g2, quiet in *. cases_upd i k; cbn; auto. }
    split.
    + rewrite A. unfold g2. rewrite nodes_upd_same. cbn. rewrite N1, <- app_assoc. reflexivity.
    + intros j [->|Hj]; auto.
      apply (frame1_quiet _ _ _ (includes_frame1 _ _ _ _ _ H j)). exact Q2.
Qed.

(* what was recorded for [k], and is still *)
Definition recorded (g : graph) (k : nat) (incl : list nat) : Prop :=
  st g k = Failed \/
  (st g k = UpToDate /\ n_dyn (g_nodes g k) = map (fun i => mkDep i (stampof g i) false) incl /\
   forall i, In i incl -> quiet g i).

Lemma job_records g k s incl : recorded (finalize_job g (k, ROk s (Some incl))) k incl.
Proof.
  cbn. unfold finalize_object.
  destruct (finalize_includes (upd_node g k (set_dyn [])) k incl) as [g1 ok] eqn:Hi.
  destruct ok.
  - right. destruct (includes_record _ _ _ _ Hi) as [A B]. rewrite nodes_upd_same in A. cbn in A.
    set (g2 := finalize_node g1 k).
    assert (S2 : forall i, n_stamp (g_nodes g2 i) = n_stamp (g_nodes g1 i)).
    { intros i. unfold g2, finalize_node. cases_upd i k; auto. }
    set (g3 := add_log _ _).
    assert (S3 : forall i, stampof g3 i = stampof g1 i).
    { intros i. unfold g3, stampof. rewrite nodes_add_log, <- S2. cases_upd i k; auto. }
    split; [|split].
    + unfold g3, st. rewrite nodes_add_log, nodes_upd_same. reflexivity.
    + unfold g3 at 1. rewrite nodes_add_log, nodes_upd_same. cbn [set_state n_dyn].
      unfold g2, finalize_node. rewrite nodes_upd_same. cbn [set_dyn n_dyn].
      rewrite A. unfold stamp_deps. rewrite map_map. apply map_ext. intros i. cbn. now rewrite S3.
    + intros i Hi'. specialize (B i Hi'). unfold quiet in *. rewrite <- S2 in B.
      unfold g3. rewrite nodes_add_log. unfold g2, finalize_node in *.
      cases_upd i k; cbn in *; rewrite ?nodes_upd_same in *; cbn in *; auto.
  - left. unfold st. rewrite nodes_mark_same. reflexivity.
Qed.

Lemma job_frame1 g k r j : frame1 g (finalize_job g (k, r)) j.
Proof.
  assert (R : frame1 g g j) by (unfold frame1; auto).
  cbn. destruct r as [s [incl|]|z|]; auto.
  - unfold finalize_object.
    destruct (finalize_includes (upd_node g k (set_dyn [])) k incl) as [g1 ok] eqn:Hi.
    pose proof (includes_frame1 _ _ _ _ _ Hi j) as Fj.
    assert (F1 : frame1 g g1 j).
    { unfold frame1 in *. destruct (Nat.eq_dec j k) as [->|N];
        [rewrite !nodes_upd_same in Fj|rewrite !nodes_upd_other in Fj by auto]; cbn in Fj; exact Fj. }
    destruct ok; unfold frame1, finalize_node in *.
    + rewrite nodes_add_log. cases_upd j k; rewrite ?nodes_upd_same, ?nodes_upd_other by auto; cbn; exact F1.
    + cases_upd j k; cbn; exact F1.
  - unfold frame1, finalize_node in *. rewrite nodes_add_log.
    cases_upd j k; rewrite ?nodes_upd_same, ?nodes_upd_other by auto; cbn; exact R.
  - unfold frame1 in *. cases_upd j k; cbn; exact R.
Qed.

Lemma dyn_frame g k r j : j <> k -> n_dyn (g_nodes (finalize_job g (k, r)) j) = n_dyn (g_nodes g j).
Proof.
  intros N. cbn. destruct r as [s [incl|]|z|]; auto.
  - unfold finalize_object.
    destruct (finalize_includes (upd_node g k (set_dyn [])) k incl) as [g1 ok] eqn:Hi.
    destruct (finalize_includes_shape _ _ _ _ _ Hi) as (_&_&_&_&_&NN).
    destruct (NN j) as (_&_&_&_&_&_&_&_&_&D&_). specialize (D N). rewrite nodes_upd_other in D by auto.
    destruct ok; unfold finalize_node.
    + rewrite nodes_add_log, !nodes_upd_other by auto. auto.
    + rewrite nodes_mark_other by auto. auto.
  - unfold finalize_node. rewrite nodes_add_log, !nodes_upd_other by auto. auto.
  - rewrite nodes_mark_other by auto. auto.
Qed.

Lemma recorded_frame g k r j incl : j <> k -> recorded g j incl -> recorded (finalize_job g (k, r)) j incl.
Proof.
  intros N H. destruct (finalize_job_frame g k r) as (_&_&_&Q&_).
  destruct (Q j) as (_&_&_&Q4). destruct (Q4 N) as [S _]. clear Q Q4.
  unfold recorded. rewrite S.
  destruct H as [H|(A&B&C)]; auto. right. split; [auto|].
  rewrite dyn_frame by auto. split.
  - rewrite B. apply map_ext_in. intros i Hi.
    destruct (frame1_quiet _ _ _ (job_frame1 g k r i) (C i Hi)) as [_ E]. now rewrite E.
  - intros i Hi. apply (frame1_quiet _ _ _ (job_frame1 g k r i) (C i Hi)).
Qed.

Lemma fold_recorded_stays k incl pend : forall g, ~ In k (map fst pend) -> recorded g k incl ->
  recorded (fold_left finalize_job pend g) k incl.
Proof.
  induction pend as [|[k' r] p IH]; intros g N H; cbn; auto. cbn in N. apply IH; [tauto|].
  apply recorded_frame; auto.
Qed.

Lemma fold_records k s incl pend : forall g, NoDup (map fst pend) -> In (k, ROk s (Some incl)) pend ->
  recorded (fold_left finalize_job pend g) k incl.
Proof.
  induction pend as [|[k' r] p IH]; intros g ND HI; [destruct HI|].
  cbn [map fst] in ND. apply NoDup_cons_iff in ND as [N1 N2]. cbn [fold_left].
  destruct HI as [E|HI].
  - injection E as -> ->. apply fold_recorded_stays; auto. apply job_records.
  - apply IH; auto.
Qed.

Lemma finalize_jobs_records dyn g k s incl : Inv dyn g (g_done g) ->
  In (k, ROk s (Some incl)) (g_done g) -> recorded (finalize_jobs g) k incl.
Proof.
  intros I H. unfold finalize_jobs.
  pose proof (i_jobs _ _ _ I) as ND. apply NoDup_app_inv in ND as (_&N2&_).
  destruct (done_parts _ N2) as [P1 _].
  apply fold_records with (s := s); auto.
  apply in_app_iff. left. apply filter_In. auto.
Qed.

(* a result waits in the completed list until the next finalisation *)
Lemma step_pending fuel o dyn root g e g' x : step fuel o dyn root g e = Some g' -> e <> OFinalize ->
  Inv dyn g (g_done g) -> In x (g_done g) -> In x (g_done g').
Proof.
  intros H NE I X. destruct e; cbn in H.
  - destruct (build_pass_inv _ _ _ _ _ _ H I) as [_ ->]. auto.
  - injection H as <-. unfold finish. destruct (in_dec Nat.eq_dec k (g_active g)); auto.
    cbn. apply in_app_iff. auto.
  - contradiction.
  - injection H as <-. auto.
Qed.

Lemma run_pending fuel o dyn root es : forall g g' x, run fuel o dyn root g es = Some g' ->
  ~ In OFinalize es -> Inv dyn g (g_done g) -> In x (g_done g) -> In x (g_done g').
Proof.
  induction es as [|e r IH]; intros g g' x H N I X; cbn in H.
  - injection H as <-. auto.
  - destruct (step fuel o dyn root g e) as [g1|] eqn:S; [|discriminate]. cbn in N.
    eapply IH; eauto. { eapply step_inv; eauto. }
    eapply step_pending; eauto.
Qed.

(* after finalisation nothing touches the recorded list *)
Definition kept (k : nat) (l : list dep) (g : graph) : Prop :=
  st g k = Failed \/ (st g k = UpToDate /\ n_dyn (g_nodes g k) = l).

Lemma mstar_kept o dyn g g' k l : mstar o dyn g g' -> kept k l g -> kept k l g'.
Proof.
  induction 1 as [|a b c M _ IH]; auto. intros H. apply IH.
  destruct (micro_final _ _ _ _ M) as [_ F]. destruct (F k) as (A&B&_).
  destruct H as [H|[H1 H2]]; [left; auto|right]. split; [auto|].
  destruct (micro_nodes _ _ _ _ M k) as (_&_&_&_&_&_&_&Q).
  destruct Q as [Q _]; [congruence|]. congruence.
Qed.

Lemma job_kept g k r j l : j <> k -> kept j l g -> kept j l (finalize_job g (k, r)).
Proof.
  intros N H. destruct (finalize_job_frame g k r) as (_&_&_&Q&_).
  destruct (Q j) as (_&_&_&Q4). destruct (Q4 N) as [S _].
  unfold kept. rewrite S, dyn_frame by auto. exact H.
Qed.

Lemma fold_kept j l pend : forall g, ~ In j (map fst pend) -> kept j l g ->
  kept j l (fold_left finalize_job pend g).
Proof.
  induction pend as [|[k' r] p IH]; intros g N H; cbn; auto. cbn in N. apply IH; [tauto|].
  apply job_kept; auto.
Qed.

Lemma kept_nojob dyn g k l pend : Inv dyn g pend -> kept k l g -> ~ In k (g_active g ++ map fst pend).
Proof.
  intros I H C. apply (i_jobs_b _ _ _ I) in C. destruct H as [H|[H _]]; congruence.
Qed.

Lemma pass_kept fuel o dyn root g g' k l : build_pass fuel o dyn g root = Some g' ->
  Inv dyn g (g_done g) -> kept k l g -> kept k l g'.
Proof.
  intros H I K. pose proof (kept_nojob _ _ _ _ _ I K) as NJ.
  unfold build_pass in H. set (g0 := mkGraph _ _ _ _ _ _) in H.
  assert (K0 : kept k l g0) by exact K.
  destruct (n_proxy (g_nodes g0 root)) eqn:NP.
  - destruct (proxy_loop fuel o dyn g0 (n_static (g_nodes g0 root))) as [[[g1 u] f]|] eqn:Lp; [|discriminate].
    destruct (proxy_loop_mstar _ _ _ _ _ _ _ _ Lp) as (MS&LE&UT&FL).
    pose proof (mstar_kept _ _ _ _ _ _ MS K0) as K1.
    assert (I0 : Inv dyn g0 (g_done g)) by (apply inv_same with (g := g); auto).
    assert (I1 : Inv dyn g1 (g_done g)) by (eapply mstar_inv; eauto).
    destruct (mstar_final _ _ _ _ MS) as [_ MF].
    assert (NP1 : n_proxy (g_nodes g1 root) = true).
    { destruct (MF root) as (_&_&_&->). auto. }
    assert (SS : n_static (g_nodes g1 root) = n_static (g_nodes g0 root)).
    { clear - MS. induction MS as [|a b c M _ IH]; auto. rewrite IH.
      apply (micro_nodes _ _ _ _ M). }
    destruct (i_proxy _ _ _ I1 root NP1) as (A1&A2&A3&A4).
    destruct (Nat.eqb_spec (u + f) (length (n_static (g_nodes g0 root)))) as [E|E];
      [|injection H as <-; auto].
    destruct (Nat.eqb_spec f 0) as [F|F]; injection H as <-.
    + destruct (Nat.eq_dec k root) as [->|NR].
      * destruct K1 as [K1|[K1 K2]].
        -- destruct (A3 K1) as (d&Hd&Hf). rewrite SS in Hd.
           assert (UU : st g1 (d_node d) = UpToDate) by (apply UT; auto). congruence.
        -- right. unfold st. rewrite nodes_add_log, nodes_upd_same. cbn. auto.
      * unfold kept, st in *. rewrite nodes_add_log, nodes_upd_other by auto. exact K1.
    + destruct (Nat.eq_dec k root) as [->|NR].
      * left. unfold st. rewrite nodes_mark_same. reflexivity.
      * unfold kept, st in *. rewrite nodes_mark_other by auto. exact K1.
  - destruct (before_building (st g0 root)).
    + apply build_recurse_mstar in H. eapply mstar_kept; eauto.
    + injection H as <-. auto.
Qed.

Lemma step_kept fuel o dyn root g e g' k l : step fuel o dyn root g e = Some g' ->
  Inv dyn g (g_done g) -> kept k l g -> kept k l g'.
Proof.
  intros H I K. pose proof (kept_nojob _ _ _ _ _ I K) as NJ. destruct e; cbn in H.
  - eapply pass_kept; eauto.
  - injection H as <-. unfold finish. destruct (in_dec Nat.eq_dec k0 (g_active g)) as [Ha|]; auto.
    assert (N : k <> k0) by (intros ->; apply NJ, in_app_iff; auto).
    unfold kept, st in *. cbn. destruct r as [s i|[|]|]; cbn; rewrite ?upd_other by auto; auto.
  - injection H as <-. unfold finalize_jobs.
    pose proof (i_jobs _ _ _ I) as ND. apply NoDup_app_inv in ND as (_&N2&_).
    destruct (done_parts _ N2) as [_ P2].
    apply fold_kept; [|exact K]. intros C. apply NJ, in_app_iff. auto.
  - injection H as <-. exact K.
Qed.

Lemma run_kept fuel o dyn root es : forall g g' k l, run fuel o dyn root g es = Some g' ->
  Inv dyn g (g_done g) -> kept k l g -> kept k l g'.
Proof.
  induction es as [|e r IH]; intros g g' k l H I K; cbn in H.
  - injection H as <-. auto.
  - destruct (step fuel o dyn root g e) as [g1|] eqn:S; [|discriminate].
    eapply IH; eauto. { eapply step_inv; eauto. } eapply step_kept; eauto.
Qed.

Lemma includes_recorded fuel o dyn root g0 es1 ga k s incl es2 gb es3 g :
  fresh g0 -> run fuel o dyn root g0 es1 = Some ga -> In k (g_active ga) ->
  run fuel o dyn root (finish k (ROk s (Some incl)) ga) es2 = Some gb -> ~ In OFinalize es2 ->
  run fuel o dyn root (finalize_jobs gb) es3 = Some g -> st g k = UpToDate ->
  n_dyn (g_nodes g k) = map (fun i => mkDep i (stampof (finalize_jobs gb) i) false) incl.
Proof.
  intros F R1 A R2 NF R3 U.
  pose proof (run_fresh_inv _ _ _ _ _ _ _ F R1) as Ia.
  pose proof (finish_inv dyn k (ROk s (Some incl)) ga Ia) as If.
  pose proof (run_inv _ _ _ _ _ _ _ R2 If) as Ib.
  assert (Dn : In (k, ROk s (Some incl)) (g_done gb)).
  { eapply run_pending; eauto. unfold finish. destruct (in_dec Nat.eq_dec k (g_active ga)); [|contradiction].
    cbn. apply in_app_iff. right. now left. }
  pose proof (finalize_jobs_records _ _ _ _ _ Ib Dn) as Rc.
  destruct (finalize_jobs_inv _ _ Ib) as [Ic Ed]. rewrite <- Ed in Ic.
  assert (K : kept k (map (fun i => mkDep i (stampof (finalize_jobs gb) i) false) incl) (finalize_jobs gb)).
  { destruct Rc as [Rc|(Rc1&Rc2&_)]; [left|right]; auto. }
  destruct (run_kept _ _ _ _ _ _ _ _ _ R3 Ic K) as [C|[_ C]]; [congruence|exact C].
Qed.
