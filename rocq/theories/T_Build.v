(** Scheduler properties C01-C06 and C09.  Vocabulary: S_Build.v; model: M_Build.v. *)
From Coq Require Import List Arith NArith Bool Lia Relations.
From Verif Require Import M_Build S_Build P_Build P_Build2 P_Build3 P_Build4 P_BuildLive P_BuildProg P_BuildRun P_Build5 P_BuildIncl.
Import ListNotations.

(** ** A concrete project used by the examples
    0: a source file; 1: an object compiled from it; 2: an executable linked from 1;
    3: a second object from the same source, whose compiler reports header 4; 5: the proxy root. *)
Definition nd (force isfile filenode proxy : bool) (stamp : N) (s d : list dep) : node :=
  mkNode NotProcessed stamp 0 proxy force isfile filenode false [] s d.
Definition dp (k : nat) (t : N) : dep := mkDep k t false.
Definition demo_nodes (k : nat) : node :=
  match k with
  | 0 => nd true true true false 0 [] []
  | 1 => nd false true false false 0 [dp 0 0] []
  | 2 => nd false true false false 0 [dp 1 0] []
  | 3 => nd false true false false 0 [dp 0 0] []
  | 4 => nd true true true false 0 [] []
  | 5 => nd false false false true 0 [dp 2 0; dp 3 0] []
  | _ => nd true true true false 0 [] []
  end.
Definition demo : graph := mkGraph demo_nodes (fun _ => 7%N) 0 [] [] [].
Definition demo_o := mkOpts false false.
Definition demo_dyn : dyn_oracle := fun _ => Some [].
Definition demo_ops : list op :=
  [OPass; OFinish 0 (ROk 7 None); OFinalize; OPass; OFinish 3 (ROk 31 (Some [4]));
   OFinish 1 (ROk 11 None); OFinalize; OPass; OFinish 2 (ROk 21 None); OFinalize; OPass].
(* outputs get the disk times that become their stamps *)
Definition demo_disk : list op := [ODisk 1 11%N; ODisk 2 21%N; ODisk 3 31%N].

Lemma ex_run {A} (r : option A) (P : A -> Prop) :
  match r with Some g => P g | None => False end -> exists g, r = Some g /\ P g.
Proof. destruct r; [eauto|tauto]. Qed.
Lemma ex_run2 {A} (r : option A) (r2 : A -> option A) (P : A -> A -> Prop) :
  match r with Some g => match r2 g with Some h => P g h | None => False end | None => False end ->
  exists g h, r = Some g /\ r2 g = Some h /\ P g h.
Proof. destruct r as [g|]; [|tauto]. destruct (r2 g) eqn:E; [eauto|tauto]. Qed.

Lemma demo_fresh : fresh demo.
Proof. split; [|repeat split; auto]. intros k. do 6 (destruct k; [reflexivity|]). reflexivity. Qed.
Lemma demo_wf : wf demo.
Proof. split; intros k; do 6 (destruct k; [cbn; auto; discriminate|]); cbn; auto; discriminate. Qed.

(** ** C01 *)
Theorem C01_dependencies_finish_first : forall g0 fuel o dyn root es g l2 k ds l1,
  fresh g0 -> wf g0 -> run fuel o dyn root g0 es = Some g ->
  g_log g = l2 ++ EvStart k ds :: l1 ->
  (forall d, In d (n_pre (g_nodes g0 k)) \/ In d (n_static (g_nodes g0 k)) -> completed l1 (d_node d)) /\
  (n_filenode (g_nodes g0 k) = false ->
   exists dd, (dd = n_dyn (g_nodes g0 k) \/ dyn k = Some dd) /\
     ds = map d_node (n_pre (g_nodes g0 k)) ++ map d_node (n_static (g_nodes g0 k)) ++ map d_node dd /\
     forall d, In d dd -> completed l1 (d_node d)).
Proof. exact start_after_deps. Qed.
Print Assumptions C01_dependencies_finish_first.

(** At every moment every dependency of a running job is up to date, and a job runs only for a
    target whose start is in the log; the log records completions exactly. *)
Theorem C01_running_jobs : forall g0 fuel o dyn root es g k,
  fresh g0 -> run fuel o dyn root g0 es = Some g -> In k (g_active g) ->
  started (g_log g) k /\ st g k = Building /\
  forall d, In d (n_pre (g_nodes g k) ++ n_static (g_nodes g k) ++ n_dyn (g_nodes g k)) ->
    st g (d_node d) = UpToDate.
Proof.
  intros g0 fuel o dyn root es g k F H A. pose proof (run_fresh_inv _ _ _ _ _ _ _ F H) as I.
  assert (AP : In k (g_active g ++ map fst (g_done g))) by (apply in_app_iff; auto).
  pose proof (i_jobs_b _ _ _ I k AP) as B. pose proof (i_building _ _ _ I k B) as S.
  split; auto. split; auto. intros d Hd. destruct S as (ds&S).
  apply (i_utd _ _ _ I). eapply log_ok_deps; [apply I|left; exact S|].
  rewrite (i_ds _ _ _ I _ _ S AP). now apply in_dep_ids.
Qed.
Print Assumptions C01_running_jobs.

Theorem C01_log_is_faithful : forall g0 fuel o dyn root es g k,
  fresh g0 -> run fuel o dyn root g0 es = Some g ->
  (completed (g_log g) k <-> st g k = UpToDate) /\
  ((exists c, In (EvFailed k c) (g_log g)) <-> st g k = Failed).
Proof.
  intros g0 fuel o dyn root es g k F H. pose proof (run_fresh_inv _ _ _ _ _ _ _ F H) as I.
  split; symmetry; [apply (i_utd _ _ _ I)|apply (i_failed _ _ _ I)].
Qed.
Print Assumptions C01_log_is_faithful.

Example C01_case : fresh demo /\ wf demo /\
  exists g, run 10 demo_o demo_dyn 5 demo demo_ops = Some g /\
    g_log g = EvProxy 5 [2; 3] :: EvBuilt 2 :: EvStart 2 [1] ::
              [EvBuilt 1; EvBuilt 3; EvStart 3 [0]; EvStart 1 [0]; EvBuilt 0; EvStart 0 []].
Proof. split; [apply demo_fresh|]. split; [apply demo_wf|]. apply ex_run. vm_compute. reflexivity. Qed.

(** ** C02 *)
Theorem C02_success_is_transitive : forall g0 fuel o dyn root es g a b,
  fresh g0 -> run fuel o dyn root g0 es = Some g ->
  st g a = UpToDate -> clos_refl_trans nat (logged_dep (g_log g)) a b -> st g b = UpToDate.
Proof.
  intros g0 fuel o dyn root es g a b F H U C. pose proof (run_fresh_inv _ _ _ _ _ _ _ F H) as I.
  induction C as [a b (ds&L&HB)|a|a b c _ IH1 _ IH2]; auto.
  apply (i_utd _ _ _ I). eapply log_ok_deps; [apply I|exact L|auto].
Qed.
Print Assumptions C02_success_is_transitive.

(** The logged dependencies of a target include all its pre-build and static dependencies, and
    for a skipped one all its dynamic ones; a target up to date has been logged. *)
Theorem C02_logged_deps_are_all : forall g0 fuel o dyn root es g k d,
  fresh g0 -> wf g0 -> run fuel o dyn root g0 es = Some g -> st g k = UpToDate ->
  (In d (n_static (g_nodes g0 k)) \/
   (n_proxy (g_nodes g0 k) = false /\ In d (n_pre (g_nodes g0 k)))) ->
  logged_dep (g_log g) k (d_node d) /\ st g (d_node d) = UpToDate.
Proof.
  intros g0 fuel o dyn root es g k d F W H U Hd. pose proof (run_fresh_inv _ _ _ _ _ _ _ F H) as I.
  pose proof (run_inv2_std _ _ _ _ _ _ _ F W H) as V.
  assert (L : logged_dep (g_log g) k (d_node d)).
  { apply (i_utd _ _ _ I) in U as [(ds&U)|[U|(ds&U)]].
    - exists ds. split; auto. apply (v_ids _ _ _ _ _ _ _ _ V k ds); auto. apply in_app_iff. tauto.
    - apply (log_ok_built _ _ (i_log _ _ _ I)) in U as (ds&U).
      exists ds. split; auto. apply (v_ids _ _ _ _ _ _ _ _ V k ds); auto. apply in_app_iff. tauto.
    - exists ds. split; auto. rewrite (v_pids _ _ _ _ _ _ _ _ V k ds U).
      pose proof (i_pevent _ _ _ I k ds U) as P. destruct (v_const _ _ _ _ _ _ _ _ V k) as (_&_&Q&_).
      destruct Hd as [Hd|[Q' _]]; [now apply in_map|congruence]. }
  split; auto. eapply C02_success_is_transitive; eauto. apply rt_step. exact L.
Qed.
Print Assumptions C02_logged_deps_are_all.

Theorem C02_failed_dependency_blocks : forall g0 fuel o dyn root es g k d,
  fresh g0 -> wf g0 -> run fuel o dyn root g0 es = Some g ->
  (In d (n_static (g_nodes g0 k)) \/
   (n_proxy (g_nodes g0 k) = false /\ In d (n_pre (g_nodes g0 k)))) ->
  st g (d_node d) = Failed ->
  ~ started (g_log g) k /\ st g k <> UpToDate.
Proof.
  intros g0 fuel o dyn root es g k d F W H Hd FD. pose proof (run_fresh_inv _ _ _ _ _ _ _ F H) as I.
  pose proof (run_inv2_std _ _ _ _ _ _ _ F W H) as V.
  split.
  - intros (ds&S). 
    assert (In (d_node d) ds) by (apply (v_ids _ _ _ _ _ _ _ _ V k ds); auto; apply in_app_iff; tauto).
    assert (C : completed (g_log g) (d_node d)) by (eapply log_ok_deps; [apply I|left; exact S|auto]).
    apply (i_utd _ _ _ I) in C. congruence.
  - intros U. destruct (C02_logged_deps_are_all _ _ _ _ _ _ _ _ d F W H U Hd). congruence.
Qed.
Print Assumptions C02_failed_dependency_blocks.

(** A failed status is never invented: following failed dependencies one reaches a target whose
    own job, or own dynamic dependency step, failed. *)
Theorem C02_failure_has_an_origin : forall g0 fuel o dyn root es g k,
  fresh g0 -> run fuel o dyn root g0 es = Some g -> st g k = Failed ->
  exists m, clos_refl_trans nat (failed_dep g) k m /\ st g m = Failed /\
            (started (g_log g) m \/ dyn m = None).
Proof.
  intros g0 fuel o dyn root es g k F H SF. pose proof (run_fresh_inv _ _ _ _ _ _ _ F H) as I.
  apply (blame_chain dyn g (g_done g) I); auto. eapply run_blame; eauto using fresh_blame.
  destruct F as (A&B&C&D). rewrite C. apply fresh_inv. repeat split; auto.
Qed.
Print Assumptions C02_failure_has_an_origin.

Example C02_case : exists g,
  run 10 demo_o demo_dyn 5 demo
    [OPass; OFinish 0 (ROk 7 None); OFinalize; OPass; OFinish 3 (ROk 31 (Some [4]));
     OFinish 1 (RFailed true); OFinalize; OPass] = Some g /\
  map (st g) [0; 1; 2; 3; 5] = [UpToDate; Failed; Failed; UpToDate; Failed].
Proof. apply ex_run. vm_compute. reflexivity. Qed.

(** ** C03 *)
Theorem C03_built_at_most_once : forall g0 fuel o dyn root es g,
  fresh g0 -> run fuel o dyn root g0 es = Some g ->
  NoDup (starts (g_log g)) /\ NoDup (g_active g ++ map fst (g_done g)).
Proof.
  intros g0 fuel o dyn root es g F H. pose proof (run_fresh_inv _ _ _ _ _ _ _ F H) as I.
  split; apply I.
Qed.
Print Assumptions C03_built_at_most_once.

Example C03_case : exists g, run 10 demo_o demo_dyn 5 demo demo_ops = Some g /\
  starts (g_log g) = [2; 3; 1; 0].
Proof. apply ex_run. vm_compute. reflexivity. Qed.

(** ** C04 *)
(** The decision itself, for every stamp assignment and dependency list. *)
Theorem C04_decision_exact : forall g k,
  need_static g k = false /\ need_dyn g k = false <->
  n_force (g_nodes g k) = false /\ stampof g k <> 0%N /\
  (n_isfile (g_nodes g k) = true -> g_disk g k <> 0%N /\ g_disk g k = stampof g k) /\
  (forall d, In d (n_static (g_nodes g k) ++ n_dyn (g_nodes g k)) -> d_weak d = false ->
     stampof g (d_node d) <> 0%N /\ stampof g (d_node d) = d_stamp d).
Proof.
  assert (ND : forall s ds, need_deps s ds = false <->
    forall d, In d ds -> d_weak d = false -> s (d_node d) <> 0%N /\ s (d_node d) = d_stamp d).
  { intros s. induction ds as [|d r IH]; cbn; [split; auto; intros; tauto|].
    destruct (d_weak d) eqn:Wk.
    - rewrite IH. split; intros Q x; [intros [->|Hx] Wx; [congruence|auto]|auto].
    - destruct (N.eqb_spec (s (d_node d)) 0) as [Z|Z].
      + split; [discriminate|]. intros Q. destruct (Q d); auto. contradiction.
      + destruct (N.eqb_spec (s (d_node d)) (d_stamp d)) as [E|E]; cbn.
        * rewrite IH. split; intros Q x; [intros [->|Hx] Wx; auto|auto].
        * split; [discriminate|]. intros Q. destruct (Q d); auto. contradiction. }
  intros g k. unfold need_static, need_dyn.
  destruct (n_force (g_nodes g k)); [split; [intros [? _]; discriminate|intros [? _]; discriminate]|].
  unfold stampof at 3. destruct (N.eqb_spec (n_stamp (g_nodes g k)) 0) as [Z|Z].
  { split; [intros [? _]; discriminate|]. intros (_&Q&_). unfold stampof in Q. contradiction. }
  assert (SPL : (forall d, In d (n_static (g_nodes g k) ++ n_dyn (g_nodes g k)) -> d_weak d = false ->
     stampof g (d_node d) <> 0%N /\ stampof g (d_node d) = d_stamp d) <->
     need_deps (stampof g) (n_static (g_nodes g k)) = false /\ need_deps (stampof g) (n_dyn (g_nodes g k)) = false).
  { rewrite !ND. split.
    - intros Q. split; intros; apply Q; auto; apply in_app_iff; auto.
    - intros [Q1 Q2] d Hd. apply in_app_iff in Hd as [Hd|Hd]; auto. }
  rewrite SPL. clear SPL. unfold stampof.
  destruct (n_isfile (g_nodes g k)); cbn.
  - destruct (N.eqb_spec (g_disk g k) 0) as [DZ|DZ]; cbn.
    + split; [intros [? _]; discriminate|]. intros (_&_&Q&_). destruct (Q eq_refl). contradiction.
    + destruct (N.eqb_spec (g_disk g k) (n_stamp (g_nodes g k))) as [E|E]; cbn.
      * tauto.
      * split; [intros [? _]; discriminate|]. intros (_&_&Q&_). destruct (Q eq_refl). contradiction.
  - assert (false = true -> g_disk g k <> 0%N /\ g_disk g k = n_stamp (g_nodes g k)) by discriminate. tauto.
Qed.
Print Assumptions C04_decision_exact.

(** Soundness over a whole build: a skipped target had a recorded stamp, no reason to rebuild,
    and every recorded dependency stamp equals the dependency's stamp in this build. *)
Theorem C04_skip_is_sound : forall g0 fuel o dyn root es g k ds,
  fresh g0 -> wf g0 -> run fuel o dyn root g0 es = Some g ->
  n_filenode (g_nodes g0 k) = false -> In (EvSkip k ds) (g_log g) ->
  o_clean o = false /\ n_force (g_nodes g0 k) = false /\ stampof g0 k <> 0%N /\
  (n_isfile (g_nodes g0 k) = true -> disk_seen g0 es k (stampof g0 k)) /\
  (forall d, In d (n_static (g_nodes g0 k) ++ n_dyn (g_nodes g0 k)) -> dep_current g d) /\
  stampof g k = stampof g0 k.
Proof.
  intros g0 fuel o dyn root es g k ds F W H FN SK.
  pose proof (run_inv2_std _ _ _ _ _ _ _ F W H) as V.
  destruct (w_skip _ _ _ _ _ _ _ _ _ (v_node _ _ _ _ _ _ _ _ V k FN) ds SK) as ((_&_&S)&(A&B&C&D&E)&FT&_).
  split; [auto|]. split; [auto|]. split; [auto|]. split; [auto|]. split; [|auto].
  intros d Hd. apply in_app_iff in Hd as [Hd|Hd]; [exact (E d Hd)|exact (FT d Hd)].
Qed.
Print Assumptions C04_skip_is_sound.

(** Completeness: a target is only ever built for a reason. *)
Theorem C04_build_is_justified : forall g0 fuel o dyn root es g k ds,
  fresh g0 -> wf g0 -> run fuel o dyn root g0 es = Some g ->
  n_filenode (g_nodes g0 k) = false -> In (EvStart k ds) (g_log g) ->
  o_clean o = true \/ n_force (g_nodes g0 k) = true \/ stampof g0 k = 0%N \/
  (n_isfile (g_nodes g0 k) = true /\
   exists t, disk_seen g0 es k t /\ (t = 0%N \/ t <> stampof g0 k)) \/
  (exists d, In d (n_static (g_nodes g0 k) ++ n_dyn (g_nodes g0 k)) /\ In (d_node d) ds /\ dep_changed g d).
Proof.
  intros g0 fuel o dyn root es g k ds F W H FN SK.
  pose proof (run_inv2_std _ _ _ _ _ _ _ F W H) as V.
  destruct (w_start _ _ _ _ _ _ _ _ _ (v_node _ _ _ _ _ _ _ _ V k FN) ds SK)
    as [[C|[C|[C|[C|(d&D1&D2)]]]]|(d&D1&D2&D3)]; auto.
  - do 4 right. exists d. split; [apply in_app_iff; auto|]. split; [|exact D2].
    apply (v_ids _ _ _ _ _ _ _ _ V k ds); auto. apply in_app_iff; auto.
  - do 4 right. exists d. split; [apply in_app_iff; auto|]. split; [auto|exact D3].
Qed.
Print Assumptions C04_build_is_justified.

(** What a compiler reported is what is compared next time: the includes of a finished compile,
    in order, each with the stamp it has once the results have been taken in, and none weak. *)
Theorem C04_includes_recorded : forall fuel o dyn root g0 es1 ga k s incl es2 gb es3 g,
  fresh g0 -> run fuel o dyn root g0 es1 = Some ga -> In k (g_active ga) ->
  run fuel o dyn root ga (OFinish k (ROk s (Some incl)) :: es2) = Some gb -> ~ In OFinalize es2 ->
  run fuel o dyn root gb (OFinalize :: es3) = Some g -> st g k = UpToDate ->
  n_dyn (g_nodes g k) = map (fun i => mkDep i (stampof (finalize_jobs gb) i) false) incl.
Proof.
  intros. cbn [run step] in *. eapply includes_recorded with (es2 := es2) (es3 := es3); eauto.
Qed.
Print Assumptions C04_includes_recorded.

(** Two builds: an object is not skipped by the next build unless every include its compiler
    reported has, in that build, the stamp it had when the compile's result was taken in. *)
Theorem C04_changed_include_rebuilds :
  forall fuel o dyn root g0 es1 ga k s incl es2 gb es3 g1 fuel' o' dyn' root' es' g2 i ds,
  fresh g0 -> run fuel o dyn root g0 es1 = Some ga -> In k (g_active ga) ->
  run fuel o dyn root ga (OFinish k (ROk s (Some incl)) :: es2) = Some gb -> ~ In OFinalize es2 ->
  run fuel o dyn root gb (OFinalize :: es3) = Some g1 -> st g1 k = UpToDate ->
  wf (reload g1) -> n_filenode (g_nodes g1 k) = false ->
  run fuel' o' dyn' root' (reload g1) es' = Some g2 ->
  In i incl -> In (EvSkip k ds) (g_log g2) ->
  stampof g2 i <> 0%N /\ stampof g2 i = stampof (finalize_jobs gb) i.
Proof.
  intros until ds. intros F R1 A R2 NF R3 U W FN R4 Hi SK.
  pose proof (C04_includes_recorded _ _ _ _ _ _ _ _ _ _ _ _ _ _ F R1 A R2 NF R3 U) as D.
  destruct (C04_skip_is_sound _ _ _ _ _ _ _ _ _ (reload_fresh g1) W R4 FN SK) as (_&_&_&_&E&_).
  destruct (E (mkDep i (stampof (finalize_jobs gb) i) false)) as (_&X&Y).
  - apply in_app_iff. right. cbn. rewrite D. apply in_map_iff. eauto.
  - reflexivity.
  - auto.
Qed.
Print Assumptions C04_changed_include_rebuilds.

(* a second build of [demo] in which only the header 4 has changed: 3 is rebuilt, 1 and 2 skipped *)
Definition demo_after : graph :=
  match run 10 demo_o demo_dyn 5 demo (demo_ops ++ demo_disk) with Some g => reload g | None => demo end.
Example C04_case : fresh demo_after /\ wf demo_after /\ exists g,
  run 10 demo_o demo_dyn 5 demo_after
    [OPass; OFinish 0 (ROk 7 None); OFinish 4 (ROk 8 None); OFinalize; OPass;
     OFinish 4 (ROk 8 None); OFinalize; OPass] = Some g /\
  In (EvSkip 1 [0]) (g_log g) /\ In (EvSkip 2 [1]) (g_log g) /\ In (EvStart 3 [0; 4]) (g_log g).
Proof.
  split; [|split].
  - unfold demo_after. destruct (run _ _ _ _ _ _); [apply reload_fresh|apply demo_fresh].
  - split; intros k; do 6 (destruct k; [vm_compute; auto; discriminate|]); vm_compute; auto; discriminate.
  - apply ex_run. vm_compute. tauto.
Qed.

(* in [demo] the compile of 3 reports header 4; the hypotheses above hold with these pieces *)
Example C04_include_case : exists ga gb g,
  run 10 demo_o demo_dyn 5 demo [OPass; OFinish 0 (ROk 7 None); OFinalize; OPass] = Some ga /\
  In 3 (g_active ga) /\
  run 10 demo_o demo_dyn 5 ga (OFinish 3 (ROk 31 (Some [4])) :: [OFinish 1 (ROk 11 None)]) = Some gb /\
  run 10 demo_o demo_dyn 5 gb (OFinalize :: [OPass; OFinish 2 (ROk 21 None); OFinalize; OPass]) = Some g /\
  st g 3 = UpToDate /\ n_dyn (g_nodes g 3) = [mkDep 4 7 false].
Proof.
  do 3 eexists. split; [vm_compute; reflexivity|]. split; [vm_compute; auto|].
  split; [vm_compute; reflexivity|]. split; [vm_compute; reflexivity|]. vm_compute. auto.
Qed.

(** ** C05 *)
Theorem C05_no_change_no_rebuild : forall g0 fuel o dyn root es g1 fuel' o' dyn' root' es' g2,
  fresh g0 -> wf g0 -> run fuel o dyn root g0 es = Some g1 ->
  run fuel' o' dyn' root' (reload g1) es' = Some g2 ->
  o_clean o' = false ->
  (forall k, st g1 k = UpToDate -> n_proxy (g_nodes g0 k) = false -> stampof g1 k <> 0%N) ->
  (forall k d, st g1 k = UpToDate -> In d (n_static (g_nodes g1 k) ++ n_dyn (g_nodes g1 k)) ->
     n_proxy (g_nodes g0 (d_node d)) = false) ->
  (* nothing changed since: outputs on disk have the recorded times, inputs their old stamps *)
  (forall k t, st g1 k = UpToDate -> n_isfile (g_nodes g0 k) = true -> n_force (g_nodes g0 k) = false ->
     disk_seen g1 es' k t -> t = stampof g1 k) ->
  (forall k, n_force (g_nodes g0 k) = true -> st g2 k = UpToDate -> stampof g2 k = stampof g1 k) ->
  (* the stamps recorded for includes reported by a compiler are the current ones *)
  (forall k s incl d, In (OFinish k (ROk s (Some incl))) es -> st g1 k = UpToDate ->
     In d (n_dyn (g_nodes g1 k)) -> d_weak d = false ->
     d_stamp d = stampof g1 (d_node d) /\ d_stamp d <> 0%N /\
     (st g1 (d_node d) = UpToDate \/ n_force (g_nodes g0 (d_node d)) = true)) ->
  forall k, st g1 k = UpToDate -> n_proxy (g_nodes g0 k) = false -> n_force (g_nodes g0 k) = false ->
    ~ started (g_log g2) k.
Proof. exact second_build_quiet. Qed.
Print Assumptions C05_no_change_no_rebuild.

Example C05_case : exists g, 
  run 10 demo_o demo_dyn 5 demo_after
    [OPass; OFinish 0 (ROk 7 None); OFinalize; OPass; OFinish 4 (ROk 7 None); OFinalize; OPass] = Some g /\
  g_log g = EvProxy 5 [2; 3] :: EvSkip 3 [0; 4] :: EvBuilt 4 :: EvStart 4 [] :: EvSkip 2 [1] :: EvSkip 1 [0] ::
            [EvBuilt 0; EvStart 0 []].
Proof. apply ex_run. vm_compute. reflexivity. Qed.

(** Without the hypothesis on include stamps the property fails: when the compiler reports a
    header whose file node was left over from an older build with an old stamp, that old stamp is
    recorded, and the next build compiles again although nothing changed. *)
Definition demo_stale : graph :=
  mkGraph (fun k => if Nat.eqb k 4 then set_stamp 5 (demo_nodes 4) else demo_nodes k)
          (fun _ => 7%N) 0 [] [] [].
Theorem C05_without_include_stamps_refuted : exists g1 g2,
  run 10 demo_o demo_dyn 5 demo_stale (demo_ops ++ demo_disk) = Some g1 /\
  run 10 demo_o demo_dyn 5 (reload g1)
    [OPass; OFinish 0 (ROk 7 None); OFinalize; OPass; OFinish 4 (ROk 7 None); OFinalize; OPass] = Some g2 /\
  st g1 3 = UpToDate /\ started (g_log g2) 3 /\
  (forall k, g_disk g2 k = g_disk g1 k).
Proof.
  apply (ex_run2 _ (fun g1 => run _ _ _ _ (reload g1) _)). vm_compute. split; [reflexivity|].
  split; [|reflexivity]. exists [0; 4]. tauto.
Qed.
Print Assumptions C05_without_include_stamps_refuted.

(** ** C06 *)
(** A target whose job was started but whose success was not recorded is not skipped by the next
    build, unless a dependency whose change caused the build was put back to the exact stamp
    recorded by the last successful build. *)
Theorem C06_unfinished_is_retried : forall g0 fuel o dyn root es g1 fuel' o' dyn' root' es' g2 k ds,
  fresh g0 -> wf g0 -> run fuel o dyn root g0 es = Some g1 ->
  (forall j s incl i, In (OFinish j (ROk s (Some incl))) es -> In i incl -> n_isfile (g_nodes g0 i) = true) ->
  (forall j s i, ~ In (j, ROk s i) (g_done g1)) ->
  n_filenode (g_nodes g0 k) = false ->
  started (g_log g1) k -> st g1 k <> UpToDate ->
  run fuel' o' dyn' root' (reload g1) es' = Some g2 ->
  In (EvSkip k ds) (g_log g2) ->
  exists d, In d (n_dyn (g_nodes g1 k)) /\ dep_changed g1 d /\ dep_current g2 d.
Proof. exact retry. Qed.
Print Assumptions C06_unfinished_is_retried.

(** ... so if no stamp returns to an old value the target is built again whenever the next build
    brings it up to date. *)
Theorem C06_unfinished_is_rebuilt : forall g0 fuel o dyn root es g1 fuel' o' dyn' root' es' g2 k,
  fresh g0 -> wf g0 -> run fuel o dyn root g0 es = Some g1 ->
  (forall j s incl i, In (OFinish j (ROk s (Some incl))) es -> In i incl -> n_isfile (g_nodes g0 i) = true) ->
  (forall j s i, ~ In (j, ROk s i) (g_done g1)) ->
  n_filenode (g_nodes g0 k) = false -> n_proxy (g_nodes g0 k) = false ->
  started (g_log g1) k -> st g1 k <> UpToDate ->
  run fuel' o' dyn' root' (reload g1) es' = Some g2 ->
  (forall d, In d (n_dyn (g_nodes g1 k)) -> dep_changed g1 d -> ~ dep_current g2 d) ->
  st g2 k = UpToDate -> started (g_log g2) k.
Proof.
  intros g0 fuel o dyn root es g1 fuel' o' dyn' root' es' g2 k F W H FI DN FN PX ST NU H2 NB U.
  pose proof (run_fresh_inv _ _ _ _ _ _ _ (reload_fresh g1) H2) as I2.
  pose proof (run_inv2_std _ _ _ _ _ _ _ F W H) as V.
  apply (i_utd _ _ _ I2) in U as [(ds&U)|[U|(ds&U)]].
  - exfalso. destruct (retry _ _ _ _ _ _ _ _ _ _ _ _ _ _ _ F W H FI DN FN ST NU H2 U) as (d&A&B&C).
    exact (NB d A B C).
  - exact (log_ok_built _ _ (i_log _ _ _ I2) U).
  - exfalso. pose proof (i_pevent _ _ _ I2 k ds U) as P.
    assert (W' : wf (reload g1)).
    { pose proof (v_const _ _ _ _ _ _ _ _ V) as VC. destruct W as [W1 W2].
      split; intros j; cbn; destruct (VC j) as (_&_&A&B&_&C); rewrite ?A, ?B, ?C; auto. }
    pose proof (run_inv2_std _ _ _ _ _ _ _ (reload_fresh g1) W' H2) as V2.
    destruct (v_const _ _ _ _ _ _ _ _ V2 k) as (_&_&Q&_). cbn in Q.
    destruct (v_const _ _ _ _ _ _ _ _ V k) as (_&_&Q'&_). congruence.
Qed.
Print Assumptions C06_unfinished_is_rebuilt.

(* 1 is compiled again after a build cancelled while its job was running *)
Example C06_case : exists g1 g2,
  run 10 demo_o demo_dyn 5 demo [OPass; OFinish 0 (ROk 7 None); OFinalize; OPass; OFinish 1 RAborted; OFinalize] = Some g1 /\
  run 10 demo_o demo_dyn 5 (reload g1) demo_ops = Some g2 /\
  started (g_log g1) 1 /\ st g1 1 = Building /\ g_done g1 = [] /\
  st g2 1 = UpToDate /\ started (g_log g2) 1.
Proof.
  apply (ex_run2 _ (fun g1 => run _ _ _ _ (reload g1) _)). vm_compute. split; [exists [0]; tauto|].
  split; [reflexivity|]. split; [reflexivity|]. split; [reflexivity|].
  exists [0]. tauto.
Qed.

(** If a compiler reports a name that is a target but not a file (for example an alias), the
    target is reported failed, yet it keeps its new stamp.  If it was rebuilt because its output
    had been touched, the next build then skips it. *)
Theorem C06_non_file_include_refuted : exists g0, fresh g0 /\ wf g0 /\ exists g1 g2,
  run 10 demo_o demo_dyn 3 g0 [OPass; OFinish 0 (ROk 7 None); OFinalize; OPass; OFinish 3 (ROk 31 (Some [6]));
     ODisk 3 31%N; OFinalize] = Some g1 /\
  run 10 demo_o demo_dyn 3 (reload g1) [OPass; OFinish 0 (ROk 7 None); OFinalize; OPass] = Some g2 /\
  st g1 3 = Failed /\ g_done g1 = [] /\
  st g2 3 = UpToDate /\ ~ started (g_log g2) 3.
Proof.
  exists (mkGraph (fun k => if Nat.eqb k 6 then nd false false false false 0 [] [] else
                          if Nat.eqb k 3 then nd false true false false 30 [dp 0 7] [] else demo_nodes k)
            (fun _ => 7%N) 0 [] [] []).
  split; [|split].
  - split; [|repeat split; auto]. intros k. do 7 (destruct k; [reflexivity|]). reflexivity.
  - split; intros k; do 7 (destruct k; [cbn; auto; discriminate|]); cbn; auto; discriminate.
  - apply (ex_run2 _ (fun g1 => run _ _ _ _ (reload g1) _)). vm_compute.
    split; [reflexivity|]. split; [reflexivity|]. split; [reflexivity|].
    intros (ds&H). repeat (destruct H as [H|H]; [discriminate|]). destruct H.
Qed.
Print Assumptions C06_non_file_include_refuted.

(** ** C09 *)
(** A build pass on a finite acyclic graph always terminates (no recursion limit is hit), at any
    moment of any schedule. *)
Theorem C09_passes_terminate : forall g0 fuel o dyn root n es,
  fresh g0 -> acyclic g0 dyn n -> root < n -> n < fuel ->
  (forall k, (n_tag (g_nodes g0 k) <= g_pass g0)%N) -> no_abort es ->
  exists g, run fuel o dyn root g0 es = Some g.
Proof.
  intros g0 fuel o dyn root n es F A RT FU TG NA.
  destruct (acyclic_setup _ _ _ _ A RT) as (R&rk&H1&H2&H3&H4&H5).
  assert (I : Inv dyn g0 (g_done g0)).
  { pose proof (fresh_inv dyn g0 F) as I. destruct F as (_&_&->&_). exact I. }
  apply (run_total fuel o dyn root n R rk); auto.
  - now apply no_abort_ok.
  - apply fresh_run; auto.
Qed.
Print Assumptions C09_passes_terminate.

(** After any pass, at any moment of any schedule, the root is finished or some job exists. *)
Theorem C09_progress : forall g0 fuel o dyn root n es g gp,
  fresh g0 -> acyclic g0 dyn n -> root < n -> n < fuel ->
  (forall k, (n_tag (g_nodes g0 k) <= g_pass g0)%N) -> no_abort es ->
  run fuel o dyn root g0 es = Some g -> build_pass fuel o dyn g root = Some gp ->
  finished (st gp root) \/ exists y, busy gp y.
Proof.
  intros g0 fuel o dyn root n es g gp F A RT FU TG NA H HP.
  destruct (acyclic_setup _ _ _ _ A RT) as (R&rk&H1&H2&H3&H4&H5).
  assert (I : Inv dyn g0 (g_done g0)).
  { pose proof (fresh_inv dyn g0 F) as I. destruct F as (_&_&->&_). exact I. }
  assert (RI : Run dyn root n R g0 (g_done g0)) by (apply fresh_run; auto).
  destruct (run_run fuel o dyn root n R rk H1 H2 H3 RT FU es g0 g H (proj1 (no_abort_ok es) NA) I RI) as (I1&R1).
  destruct (pass_run fuel o dyn root n R rk H1 H2 H3 RT FU g gp HP R1) as (RP&_&[S|[y S]]&_).
  - left. now apply final_finished.
  - right. exists y. unfold busy. apply in_app_iff. eapply r_busy; eauto.
Qed.
Print Assumptions C09_progress.

(** After more rounds than there are nodes the root is up to date or failed, whatever the jobs
    answer and in whatever order. *)
Theorem C09_builds_finish : forall g0 fuel o dyn root n m g,
  fresh g0 -> acyclic g0 dyn n -> root < n -> n < fuel ->
  (forall k, (n_tag (g_nodes g0 k) <= g_pass g0)%N) ->
  rounds fuel o dyn root m g0 g -> n < m -> finished (st g root).
Proof.
  intros g0 fuel o dyn root n m g F A RT FU TG H HN.
  destruct (acyclic_setup _ _ _ _ A RT) as (R&rk&H1&H2&H3&H4&H5).
  assert (I : Inv dyn g0 (g_done g0)).
  { pose proof (fresh_inv dyn g0 F) as I. destruct F as (_&_&->&_). exact I. }
  apply final_finished.
  eapply (rounds_enough fuel o dyn root n R rk H1 H2 H3 RT FU m g0 g H I); auto.
  apply fresh_run; auto.
Qed.
Print Assumptions C09_builds_finish.

(** ... and whatever the jobs answer, such rounds exist. *)
Theorem C09_rounds_can_be_made : forall g0 fuel o dyn root n m (answer : nat -> result),
  fresh g0 -> acyclic g0 dyn n -> root < n -> n < fuel ->
  (forall k, (n_tag (g_nodes g0 k) <= g_pass g0)%N) -> (forall k, answer k <> RAborted) ->
  exists g, rounds fuel o dyn root m g0 g.
Proof.
  intros g0 fuel o dyn root n m answer F A RT FU TG NA.
  destruct (acyclic_setup _ _ _ _ A RT) as (R&rk&H1&H2&H3&H4&H5).
  assert (I : Inv dyn g0 (g_done g0)).
  { pose proof (fresh_inv dyn g0 F) as I. destruct F as (_&_&->&_). exact I. }
  assert (RI : Run dyn root n R g0 (g_done g0)) by (apply fresh_run; auto).
  assert (AN : forall k, aborts (answer k) = false).
  { intros k. specialize (NA k). destruct (answer k); auto; congruence. }
  destruct (rounds_exist fuel o dyn root n R rk H1 H2 H3 RT FU answer AN m g0 I RI) as (g&G&_).
  eauto.
Qed.
Print Assumptions C09_rounds_can_be_made.

Example C09_case : fresh demo /\ acyclic demo demo_dyn 6 /\
  exists g, run 10 demo_o demo_dyn 5 demo demo_ops = Some g /\ finished (st g 5).
Proof.
  split; [apply demo_fresh|]. split.
  - split.
    + exists (fun k => match k with 0 => 0 | 1 => 1 | 3 => 1 | 2 => 2 | 5 => 3 | 4 => 0 | _ => 9 end).
      intros k d [(x&H&<-)|(ds&x&H&H'&_)].
      * do 6 (destruct k; [cbn in H; repeat (destruct H as [<-|H]; [cbn; lia|]); destruct H|]). destruct H.
      * injection H as <-. destruct H'.
    + intros k d [(x&H&<-)|(ds&x&H&H'&_)].
      * do 6 (destruct k; [cbn in H; repeat (destruct H as [<-|H]; [reflexivity|]); destruct H|]). destruct H.
      * injection H as <-. destruct H'.
  - apply ex_run. vm_compute. left. reflexivity.
Qed.

(** On a cyclic graph the claim fails, which is why the code checks for cycles first (C07):
    two targets depending on each other wait for ever. *)
Example C09_cycle_stuck : exists g,
  run 10 demo_o demo_dyn 0
    (mkGraph (fun k => nd false true false false 0 [dp (1 - k) 0] []) (fun _ => 7%N) 0 [] [] [])
    [OPass; OPass; OPass] = Some g /\ g_active g = [] /\ st g 0 = StaticDeps.
Proof. apply ex_run. vm_compute. split; reflexivity. Qed.
