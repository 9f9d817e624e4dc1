(** The global invariant of the scheduler. *)
From Coq Require Import List Arith NArith Bool Lia.
From Verif Require Import M_Build S_Build P_Build.
Import ListNotations.

Inductive log_ok : list ev -> Prop :=
| lo_nil : log_ok []
| lo_start k ds l : log_ok l -> (forall d, In d ds -> completed l d) -> log_ok (EvStart k ds :: l)
| lo_skip k ds l : log_ok l -> (forall d, In d ds -> completed l d) -> log_ok (EvSkip k ds :: l)
| lo_proxy k ds l : log_ok l -> (forall d, In d ds -> completed l d) -> log_ok (EvProxy k ds :: l)
| lo_built k l : log_ok l -> started l k -> log_ok (EvBuilt k :: l)
| lo_failed k c l : log_ok l -> log_ok (EvFailed k c :: l).

Record Inv (dyn : dyn_oracle) (g : graph) (pend : list (nat * result)) : Prop := {
  i_utd : forall k, st g k = UpToDate <-> completed (g_log g) k;
  i_started : forall k, started (g_log g) k ->
      st g k = Building \/ st g k = Failed \/ st g k = UpToDate;
  i_building : forall k, st g k = Building -> started (g_log g) k;
  i_static : forall k, st g k = StaticDeps \/ st g k = DynamicDeps ->
      all_utd g (n_pre (g_nodes g k));
  i_dynamic : forall k, st g k = DynamicDeps -> all_utd g (n_static (g_nodes g k));
  i_log : log_ok (g_log g);
  i_nodup : NoDup (starts (g_log g));
  i_jobs : NoDup (g_active g ++ map fst pend);
  i_jobs_b : forall k, In k (g_active g ++ map fst pend) -> st g k = Building;
  i_ds : forall k ds, In (EvStart k ds) (g_log g) -> In k (g_active g ++ map fst pend) ->
      ds = dep_ids (g_nodes g k);
  i_failed : forall k, st g k = Failed <-> exists c, In (EvFailed k c) (g_log g);
  i_cdeps : forall k, In (EvFailed k CDeps) (g_log g) ->
      exists d, In d (dep_ids (g_nodes g k)) /\ st g d = Failed;
  i_cdyn : forall k, In (EvFailed k CDyn) (g_log g) -> dyn k = None;
  i_cjob : forall k, In (EvFailed k CJob) (g_log g) -> started (g_log g) k;
  i_proxy : forall k, n_proxy (g_nodes g k) = true ->
      (st g k = NotProcessed \/ st g k = UpToDate \/ st g k = Failed) /\ ~ started (g_log g) k /\
      (st g k = Failed -> exists d, In d (n_static (g_nodes g k)) /\ st g (d_node d) = Failed) /\
      (st g k = UpToDate -> all_utd g (n_static (g_nodes g k)));
  i_pevent : forall k ds, In (EvProxy k ds) (g_log g) -> n_proxy (g_nodes g k) = true }.

Lemma starts_started l k : In k (starts l) <-> started l k.
Proof.
  unfold starts, started. rewrite in_flat_map. split.
  - intros ([]&H&Hk); cbn in Hk; try tauto. destruct Hk as [<-|[]]. eauto.
  - intros (ds&H). exists (EvStart k ds). split; auto. now left.
Qed.

Lemma completed_cons e l k : completed l k -> completed (e :: l) k.
Proof. unfold completed. firstorder. Qed.
Lemma started_cons e l k : started l k -> started (e :: l) k.
Proof. unfold started. firstorder. Qed.

Lemma completed_cons_inv e l k :
  completed (e :: l) k ->
  completed l k \/ (exists ds, e = EvSkip k ds) \/ e = EvBuilt k \/ (exists ds, e = EvProxy k ds).
Proof.
  unfold completed. intros [(ds&[->|H])|[[->|H]|(ds&[->|H])]]; eauto 8.
Qed.
Lemma started_cons_inv e l k :
  started (e :: l) k -> started l k \/ exists ds, e = EvStart k ds.
Proof. unfold started. intros (ds&[->|H]); eauto. Qed.

Lemma fresh_inv dyn g : fresh g -> Inv dyn g [].
Proof.
  intros (S & A & D & L). 
  assert (N : forall k s, st g k = s -> s = NotProcessed) by (intros; rewrite S in *; auto).
  split; rewrite ?L, ?A; intros; cbn in *;
    try (match goal with H : st g _ = _ |- _ => rewrite S in H; discriminate end).
  - rewrite S. split; [discriminate|]. intros [(?&[])|[[]|(?&[])]].
  - destruct H as (?&[]).
  - rewrite S in H. destruct H; discriminate.
  - constructor.
  - constructor.
  - constructor.
  - tauto.
  - tauto.
  - rewrite S. split; [discriminate|intros (?&[])].
  - tauto.
  - tauto.
  - tauto.
  - rewrite S. repeat split; auto; try discriminate. intros (?&[]).
  - tauto.
Qed.

(** ** Shape-preserving updates *)
Definition same_log (g g' : graph) : Prop :=
  g_log g' = g_log g /\ g_active g' = g_active g /\ g_done g' = g_done g.

Ltac cases_upd j k :=
  destruct (Nat.eq_dec j k) as [->|?];
  [ rewrite ?nodes_upd_same, ?nodes_mark_same, ?nodes_start_same in *
  | rewrite ?nodes_upd_other, ?nodes_mark_other, ?nodes_start_other in * by auto ].

Lemma micro_nodes o dyn g g' : micro o dyn g g' ->
  forall j, n_pre (g_nodes g' j) = n_pre (g_nodes g j) /\
            n_static (g_nodes g' j) = n_static (g_nodes g j) /\
            n_proxy (g_nodes g' j) = n_proxy (g_nodes g j) /\
            n_force (g_nodes g' j) = n_force (g_nodes g j) /\
            n_isfile (g_nodes g' j) = n_isfile (g_nodes g j) /\
            n_filenode (g_nodes g' j) = n_filenode (g_nodes g j) /\
            n_built (g_nodes g' j) = n_built (g_nodes g j) /\
            (st g j <> StaticDeps -> n_dyn (g_nodes g' j) = n_dyn (g_nodes g j) /\
                                     n_stamp (g_nodes g' j) = n_stamp (g_nodes g j)).
Proof.
  intros H j. unfold st.
  destruct H as [g c|g k|g k|g k|g k|g k ds|g k|g k|g k]; unfold st in *;
  try (cases_upd j c; cbn; tauto);
  try rewrite nodes_add_log; cases_upd j k; cbn; repeat split; auto; intros; try congruence.
Qed.

Lemma micro_log o dyn g g' : micro o dyn g g' ->
  g_done g' = g_done g /\ g_disk g' = g_disk g /\
  ((g_log g' = g_log g /\ g_active g' = g_active g) \/
   exists e k, g_log g' = e :: g_log g /\ st g' k <> st g k \/ exists e, g_log g' = e :: g_log g).
Proof. intros []; cbn; repeat split; auto; right; exists (EvBuilt 0), 0; right; eauto. Qed.

Section InvMicro.
Variables (o : opts) (dyn : dyn_oracle).

Lemma utd_mono g g' ds : (forall j, st g j = UpToDate -> st g' j = UpToDate) ->
  all_utd g ds -> all_utd g' ds.
Proof. intros H A d Hd. apply H, A, Hd. Qed.

(* an update that only changes the state of [k] between unfinished states, or its
   stamp/dynamic dependencies while unfinished, keeps everything that does not mention [k] *)
Lemma inv_local g g' k pend :
  Inv dyn g pend ->
  g_log g' = g_log g -> g_active g' = g_active g ->
  (forall j, j <> k -> g_nodes g' j = g_nodes g j) ->
  n_pre (g_nodes g' k) = n_pre (g_nodes g k) ->
  n_static (g_nodes g' k) = n_static (g_nodes g k) ->
  n_proxy (g_nodes g' k) = n_proxy (g_nodes g k) ->
  before_building (st g k) = true -> before_building (st g' k) = true ->
  n_proxy (g_nodes g k) = false ->
  (st g' k = StaticDeps \/ st g' k = DynamicDeps -> all_utd g (n_pre (g_nodes g k))) ->
  (st g' k = DynamicDeps -> all_utd g (n_static (g_nodes g k))) ->
  Inv dyn g' pend.
Proof.
  intros I L A O P S X B B' NP HS HD.
  assert (ST : forall j, j <> k -> st g' j = st g j) by (intros; unfold st; rewrite O; auto).
  assert (F : forall j s, before_building s = false -> st g j = s -> st g' j = s).
  { intros j s Hs Hj. destruct (Nat.eq_dec j k) as [->|]; [congruence|]. rewrite ST; auto. }
  assert (F' : forall j s, before_building s = false -> st g' j = s -> st g j = s).
  { intros j s Hs Hj. destruct (Nat.eq_dec j k) as [->|]; [congruence|]. rewrite ST in Hj; auto. }
  assert (UM : forall ds, all_utd g ds -> all_utd g' ds).
  { intros ds. apply utd_mono. intros; apply F; auto. }
  assert (NK : ~ started (g_log g) k).
  { intros H. destruct (i_started _ _ _ I k H) as [E|[E|E]]; rewrite E in B; discriminate. }
  assert (NF : forall c, ~ In (EvFailed k c) (g_log g)).
  { intros c H. assert (E : st g k = Failed) by (apply (i_failed _ _ _ I); eauto).
    rewrite E in B; discriminate. }
  split; rewrite ?L, ?A.
  - intros j. rewrite <- (i_utd _ _ _ I). split; [now apply F'|now apply F].
  - intros j H. destruct (i_started _ _ _ I j H) as [E|[E|E]]; [left|right;left|right;right]; now apply F.
  - intros j H. apply (i_building _ _ _ I). now apply F'.
  - intros j H. apply UM. destruct (Nat.eq_dec j k) as [->|N].
    + rewrite P. auto.
    + rewrite O by auto. rewrite ST in H by auto. apply (i_static _ _ _ I j H).
  - intros j H. apply UM. destruct (Nat.eq_dec j k) as [->|N].
    + rewrite S. auto.
    + rewrite O by auto. rewrite ST in H by auto. apply (i_dynamic _ _ _ I j H).
  - apply I.
  - apply I.
  - apply I.
  - intros j H. apply F; auto. now apply (i_jobs_b _ _ _ I).
  - intros j ds H1 H2. destruct (Nat.eq_dec j k) as [->|N].
    + exfalso. apply NK. exists ds; auto.
    + rewrite O by auto. apply (i_ds _ _ _ I); auto.
  - intros j. rewrite <- (i_failed _ _ _ I). split; [now apply F'|now apply F].
  - intros j H. destruct (Nat.eq_dec j k) as [->|N]; [exfalso; eapply NF; eauto|].
    destruct (i_cdeps _ _ _ I j H) as (d&Hd&Hf). exists d. rewrite O by auto. split; auto.
  - apply I.
  - apply I.
  - intros j H. destruct (Nat.eq_dec j k) as [->|N]; [congruence|].
    rewrite O in * by auto. rewrite ST by auto.
    destruct (i_proxy _ _ _ I j H) as (A1&A2&A3&A4). repeat split; auto.
    intros E. destruct (A3 E) as (d&Hd&Hf). exists d. split; auto.
  - intros j ds H. destruct (Nat.eq_dec j k) as [->|N].
    + rewrite X. eapply i_pevent; eauto.
    + rewrite O by auto. eapply i_pevent; eauto.
Qed.

(* states, dependencies and log unchanged *)
Lemma inv_same g g' pend :
  Inv dyn g pend -> g_log g' = g_log g -> g_active g' = g_active g ->
  (forall j, st g' j = st g j /\ n_pre (g_nodes g' j) = n_pre (g_nodes g j) /\
             n_static (g_nodes g' j) = n_static (g_nodes g j) /\
             n_dyn (g_nodes g' j) = n_dyn (g_nodes g j) /\
             n_proxy (g_nodes g' j) = n_proxy (g_nodes g j)) ->
  Inv dyn g' pend.
Proof.
  intros I EL EA NN.
  assert (ST : forall j, st g' j = st g j) by apply NN.
  assert (UM : forall ds, all_utd g ds -> all_utd g' ds).
  { intros ds. apply utd_mono. intros; rewrite ST; auto. }
  assert (DI : forall j, dep_ids (g_nodes g' j) = dep_ids (g_nodes g j)).
  { intros j. unfold dep_ids. destruct (NN j) as (_&->&->&->&_). auto. }
  split; rewrite ?EL, ?EA.
  - intros j. rewrite ST. apply I.
  - intros j. rewrite ST. apply I.
  - intros j. rewrite ST. apply I.
  - intros j. rewrite ST. destruct (NN j) as (_&->&_). intros; apply UM, I; auto.
  - intros j. rewrite ST. destruct (NN j) as (_&_&->&_). intros; apply UM, I; auto.
  - apply I.
  - apply I.
  - apply I.
  - intros j. rewrite ST. apply I.
  - intros j ds. rewrite DI. apply I.
  - intros j. rewrite ST. apply I.
  - intros j H. destruct (i_cdeps _ _ _ I j H) as (d&?&?). exists d. rewrite ST, DI. auto.
  - apply I.
  - apply I.
  - intros j. destruct (NN j) as (_&_&->&_&->). rewrite ST. intros H.
    destruct (i_proxy _ _ _ I j H) as (A1&A2&A3&A4). repeat split; auto.
    intros E. destruct (A3 E) as (d&?&?). exists d. rewrite ST. auto.
  - intros j ds H. destruct (NN j) as (_&_&_&_&->). eapply i_pevent; eauto.
Qed.

Lemma inv_tag g c pend t : Inv dyn g pend -> Inv dyn (upd_node g c (set_tag t)) pend.
Proof.
  intros I. apply inv_same with (g := g); auto. intros j. unfold st. cases_upd j c; cbn; auto.
Qed.

(* the dependency lists of a finished job's node may be rewritten *)
Lemma inv_relist g g' k pend :
  Inv dyn g pend -> ~ In k (g_active g ++ map fst pend) -> st g k = Building ->
  g_log g' = g_log g -> g_active g' = g_active g ->
  (forall j, st g' j = st g j /\ n_pre (g_nodes g' j) = n_pre (g_nodes g j) /\
             n_proxy (g_nodes g' j) = n_proxy (g_nodes g j)) ->
  (forall j, j <> k -> n_static (g_nodes g' j) = n_static (g_nodes g j) /\
             n_dyn (g_nodes g' j) = n_dyn (g_nodes g j)) ->
  Inv dyn g' pend.
Proof.
  intros I NJ B EL EA NN ND.
  assert (ST : forall j, st g' j = st g j) by apply NN.
  assert (UM : forall ds, all_utd g ds -> all_utd g' ds).
  { intros ds. apply utd_mono. intros; rewrite ST; auto. }
  assert (DI : forall j, j <> k -> dep_ids (g_nodes g' j) = dep_ids (g_nodes g j)).
  { intros j N. unfold dep_ids. destruct (NN j) as (_&->&_). destruct (ND j N) as (->&->). auto. }
  split; rewrite ?EL, ?EA.
  - intros j. rewrite ST. apply I.
  - intros j. rewrite ST. apply I.
  - intros j. rewrite ST. apply I.
  - intros j. rewrite ST. destruct (NN j) as (_&->&_). intros; apply UM, I; auto.
  - intros j. rewrite ST. intros H. destruct (Nat.eq_dec j k) as [->|N]; [congruence|].
    destruct (ND j N) as (->&_). intros; apply UM, I; auto.
  - apply I.
  - apply I.
  - apply I.
  - intros j. rewrite ST. apply I.
  - intros j ds H1 H2. destruct (Nat.eq_dec j k) as [->|N]; [contradiction|].
    rewrite DI by auto. now apply (i_ds _ _ _ I).
  - intros j. rewrite ST. apply I.
  - intros j H. destruct (Nat.eq_dec j k) as [->|N].
    + exfalso. assert (st g k = Failed) by (apply (i_failed _ _ _ I); eauto). congruence.
    + destruct (i_cdeps _ _ _ I j H) as (d&?&?). exists d. rewrite ST, DI; auto.
  - apply I.
  - apply I.
  - intros j. destruct (NN j) as (_&_&->). rewrite ST. intros H.
    destruct (i_proxy _ _ _ I j H) as (A1&A2&A3&A4).
    assert (N : j <> k). { intros ->. rewrite B in A1. destruct A1 as [?|[?|?]]; discriminate. }
    destruct (ND j N) as (->&_). repeat split; auto.
    intros E. destruct (A3 E) as (d&?&?). exists d. rewrite ST. auto.
  - intros j ds H. destruct (NN j) as (_&_&->). eapply i_pevent; eauto.
Qed.

(* marking an unfinished or failed, or a running node failed *)
Lemma inv_mark g k c pend :
  Inv dyn g pend ->
  st g k <> UpToDate ->
  ~ In k (g_active g ++ map fst pend) ->
  (c = CDeps -> exists d, In d (dep_ids (g_nodes g k)) /\ st g d = Failed) ->
  (c = CDyn -> dyn k = None) ->
  (c = CJob -> started (g_log g) k) ->
  (n_proxy (g_nodes g k) = true -> exists d, In d (n_static (g_nodes g k)) /\ st g (d_node d) = Failed) ->
  Inv dyn (mark_failed c k g) pend.
Proof.
  intros I NU NJ HC1 HC2 HC3 HP.
  assert (STk : st (mark_failed c k g) k = Failed) by (unfold st; now rewrite nodes_mark_same).
  assert (ST : forall j, j <> k -> st (mark_failed c k g) j = st g j).
  { intros; unfold st; rewrite nodes_mark_other; auto. }
  assert (U : forall j, st (mark_failed c k g) j = UpToDate <-> st g j = UpToDate).
  { intros j. destruct (Nat.eq_dec j k) as [->|]; [|rewrite ST; tauto].
    rewrite STk. split; [discriminate|contradiction]. }
  assert (FM : forall j, st g j = Failed -> st (mark_failed c k g) j = Failed).
  { intros j. destruct (Nat.eq_dec j k) as [->|]; auto. rewrite ST; auto. }
  assert (UM : forall ds, all_utd g ds -> all_utd (mark_failed c k g) ds).
  { intros ds. apply utd_mono. intros; apply U; auto. }
  assert (NN : forall j, n_pre (g_nodes (mark_failed c k g) j) = n_pre (g_nodes g j) /\
                         n_static (g_nodes (mark_failed c k g) j) = n_static (g_nodes g j) /\
                         n_dyn (g_nodes (mark_failed c k g) j) = n_dyn (g_nodes g j) /\
                         n_proxy (g_nodes (mark_failed c k g) j) = n_proxy (g_nodes g j)).
  { intros j. cases_upd j k; cbn; auto. }
  assert (DI : forall j, dep_ids (g_nodes (mark_failed c k g) j) = dep_ids (g_nodes g j)).
  { intros j. unfold dep_ids. destruct (NN j) as (->&->&->&_). auto. }
  split; cbn [mark_failed add_log upd_node g_log g_active];
    change (mkGraph _ _ _ _ _ _) with (mark_failed c k g).
  - intros j. rewrite U, (i_utd _ _ _ I). split; [apply completed_cons|].
    intros H. apply completed_cons_inv in H as [H|[(?&?)|[?|(?&?)]]]; auto; discriminate.
  - intros j H. apply started_cons_inv in H as [H|(?&?)]; [|discriminate].
    destruct (Nat.eq_dec j k) as [->|N]; auto. rewrite ST by auto. now apply (i_started _ _ _ I).
  - intros j H. apply started_cons. destruct (Nat.eq_dec j k) as [->|N]; [congruence|].
    rewrite ST in H by auto. now apply (i_building _ _ _ I).
  - intros j H. destruct (Nat.eq_dec j k) as [->|N]; [rewrite STk in H; destruct H; discriminate|].
    rewrite ST in H by auto. apply UM. destruct (NN j) as (->&_). now apply (i_static _ _ _ I).
  - intros j H. destruct (Nat.eq_dec j k) as [->|N]; [rewrite STk in H; discriminate|].
    rewrite ST in H by auto. apply UM. destruct (NN j) as (_&->&_). now apply (i_dynamic _ _ _ I).
  - constructor. apply I.
  - apply I.
  - apply I.
  - intros j H. destruct (Nat.eq_dec j k) as [->|N]; [contradiction|].
    rewrite ST by auto. now apply (i_jobs_b _ _ _ I).
  - intros j ds [H|H] HB; [discriminate|].
    destruct (Nat.eq_dec j k) as [->|N]; [contradiction|].
    rewrite DI. now apply (i_ds _ _ _ I).
  - intros j. destruct (Nat.eq_dec j k) as [->|N].
    + split; auto. intros _. exists c. now left.
    + rewrite ST by auto. rewrite (i_failed _ _ _ I). split.
      * intros (c'&?). exists c'. now right.
      * intros (c'&[E|?]); [congruence|eauto].
  - intros j [E|H].
    + injection E as -> ->. destruct (HC1 eq_refl) as (d&?&?). exists d. rewrite DI. auto.
    + destruct (i_cdeps _ _ _ I j H) as (d&?&?). exists d. rewrite DI. auto.
  - intros j [E|H]; [injection E as -> ->; auto|]. now apply (i_cdyn _ _ _ I).
  - intros j [E|H]; apply started_cons; [injection E as -> ->; auto|]. now apply (i_cjob _ _ _ I).
  - intros j H. destruct (NN j) as (_&E2&_&E4). rewrite E4 in H. rewrite E2.
    destruct (i_proxy _ _ _ I j H) as (A1&A2&A3&A4).
    split; [|split; [|split]].
    + destruct (Nat.eq_dec j k) as [->|N]; [auto|rewrite ST; auto].
    + intros Hs. apply started_cons_inv in Hs as [?|(?&?)]; [contradiction|discriminate].
    + intros Hf. destruct (Nat.eq_dec j k) as [->|N].
      * destruct (HP H) as (d&?&?). exists d. auto.
      * rewrite ST in Hf by auto. destruct (A3 Hf) as (d&?&?). exists d. auto.
    + intros Hu. apply U in Hu. auto.
  - intros j ds [E|H]; [discriminate|]. destruct (NN j) as (_&_&_&->). eapply i_pevent; eauto.
Qed.

Lemma in_dep_ids d n : In d (alldeps n) -> In (d_node d) (dep_ids n).
Proof.
  unfold alldeps, dep_ids. rewrite !in_app_iff, !in_map_iff.
  intros [?|[?|?]]; eauto 6.
Qed.

Lemma unfinished_not_job g k pend : Inv dyn g pend -> before_building (st g k) = true ->
  ~ In k (g_active g ++ map fst pend).
Proof. intros I B H. apply (i_jobs_b _ _ _ I) in H. rewrite H in B. discriminate. Qed.

Lemma failed_not_job g k pend : Inv dyn g pend -> st g k = Failed ->
  ~ In k (g_active g ++ map fst pend).
Proof. intros I B H. apply (i_jobs_b _ _ _ I) in H. congruence. Qed.

(* a node in DynamicDeps whose dynamic dependencies are done is completed or started *)
Lemma all_completed g k pend : Inv dyn g pend -> st g k = DynamicDeps ->
  all_utd g (n_dyn (g_nodes g k)) ->
  forall d, In d (dep_ids (g_nodes g k)) -> completed (g_log g) d.
Proof.
  intros I S D d H. apply (i_utd _ _ _ I).
  unfold dep_ids in H. rewrite !in_app_iff, !in_map_iff in H.
  destruct H as [(x&<-&H)|[(x&<-&H)|(x&<-&H)]].
  - apply (i_static _ _ _ I k (or_intror S)); auto.
  - apply (i_dynamic _ _ _ I k S); auto.
  - apply D; auto.
Qed.

Lemma inv_start g k pend :
  Inv dyn g pend -> n_proxy (g_nodes g k) = false -> st g k = DynamicDeps ->
  all_utd g (n_dyn (g_nodes g k)) -> Inv dyn (start_job k g) pend.
Proof.
  intros I NP S D.
  assert (STk : st (start_job k g) k = Building) by (unfold st; now rewrite nodes_start_same).
  assert (ST : forall j, j <> k -> st (start_job k g) j = st g j).
  { intros; unfold st; rewrite nodes_start_other; auto. }
  assert (U : forall j, st (start_job k g) j = UpToDate <-> st g j = UpToDate).
  { intros j. destruct (Nat.eq_dec j k) as [->|]; [|rewrite ST; tauto].
    rewrite STk, S. split; discriminate. }
  assert (FM : forall j, st (start_job k g) j = Failed <-> st g j = Failed).
  { intros j. destruct (Nat.eq_dec j k) as [->|]; [|rewrite ST; tauto].
    rewrite STk, S. split; discriminate. }
  assert (UM : forall ds, all_utd g ds -> all_utd (start_job k g) ds).
  { intros ds. apply utd_mono. intros; apply U; auto. }
  assert (NN : forall j, n_pre (g_nodes (start_job k g) j) = n_pre (g_nodes g j) /\
                         n_static (g_nodes (start_job k g) j) = n_static (g_nodes g j) /\
                         n_dyn (g_nodes (start_job k g) j) = n_dyn (g_nodes g j) /\
                         n_proxy (g_nodes (start_job k g) j) = n_proxy (g_nodes g j)).
  { intros j. cases_upd j k; cbn; auto. }
  assert (DI : forall j, dep_ids (g_nodes (start_job k g) j) = dep_ids (g_nodes g j)).
  { intros j. unfold dep_ids. destruct (NN j) as (->&->&->&_). auto. }
  assert (NS : ~ started (g_log g) k).
  { intros H. destruct (i_started _ _ _ I k H) as [E|[E|E]]; congruence. }
  assert (NJ : ~ In k (g_active g ++ map fst pend)).
  { eapply unfinished_not_job; eauto. now rewrite S. }
  assert (EL : g_log (start_job k g) = EvStart k (dep_ids (g_nodes g k)) :: g_log g).
  { reflexivity. }
  assert (EA : g_active (start_job k g) = k :: g_active g) by reflexivity.
  split; rewrite ?EL, ?EA.
  - intros j. rewrite U, (i_utd _ _ _ I). split; [apply completed_cons|].
    intros H. apply completed_cons_inv in H as [H|[(?&?)|[?|(?&?)]]]; auto; discriminate.
  - intros j H. apply started_cons_inv in H as [H|(ds&E)].
    + destruct (Nat.eq_dec j k) as [->|N]; auto. rewrite ST by auto. now apply (i_started _ _ _ I).
    + injection E as -> _. auto.
  - intros j H. destruct (Nat.eq_dec j k) as [->|N]; [eexists; now left|].
    apply started_cons. rewrite ST in H by auto. now apply (i_building _ _ _ I).
  - intros j H. destruct (Nat.eq_dec j k) as [->|N]; [rewrite STk in H; destruct H; discriminate|].
    rewrite ST in H by auto. apply UM. destruct (NN j) as (->&_). now apply (i_static _ _ _ I).
  - intros j H. destruct (Nat.eq_dec j k) as [->|N]; [rewrite STk in H; discriminate|].
    rewrite ST in H by auto. apply UM. destruct (NN j) as (_&->&_). now apply (i_dynamic _ _ _ I).
  - constructor; [apply I|]. eapply all_completed; eauto.
  - cbn. constructor; [|apply I]. rewrite starts_started. auto.
  - cbn. constructor; auto. apply I.
  - intros j [<-|H]; auto. destruct (Nat.eq_dec j k) as [->|N]; auto.
    rewrite ST by auto. now apply (i_jobs_b _ _ _ I).
  - intros j ds [E|H] HB.
    + injection E as <- <-. now rewrite DI.
    + destruct (Nat.eq_dec j k) as [->|N]; [exfalso; apply NS; eexists; eauto|].
      destruct HB as [HB|HB]; [congruence|]. rewrite DI. now apply (i_ds _ _ _ I).
  - intros j. rewrite FM, (i_failed _ _ _ I). split.
    + intros (c'&?). exists c'. now right.
    + intros (c'&[E|?]); [congruence|eauto].
  - intros j [E|H]; [discriminate|].
    destruct (i_cdeps _ _ _ I j H) as (d&?&?). exists d. rewrite DI. rewrite FM. auto.
  - intros j [E|H]; [discriminate|]. now apply (i_cdyn _ _ _ I).
  - intros j [E|H]; [discriminate|]. apply started_cons. now apply (i_cjob _ _ _ I).
  - intros j H. destruct (NN j) as (_&E2&_&E4). rewrite E4 in H. rewrite E2.
    destruct (i_proxy _ _ _ I j H) as (A1&A2&A3&A4).
    assert (N : j <> k) by congruence.
    split; [|split; [|split]].
    + rewrite ST; auto.
    + intros Hs. apply started_cons_inv in Hs as [?|(?&E)]; [contradiction|congruence].
    + intros Hf. apply FM in Hf. destruct (A3 Hf) as (d&?&?). exists d. rewrite FM. auto.
    + intros Hu. apply U in Hu. auto.
  - intros j ds [E|H]; [discriminate|]. destruct (NN j) as (_&_&_&->). eapply i_pevent; eauto.
Qed.

(* a node becomes up to date with event [e] *)
Lemma inv_complete g k e pend :
  Inv dyn g pend -> st g k <> Failed ->
  ~ In k (g_active g ++ map fst pend) ->
  ((exists ds, e = EvSkip k ds) \/ e = EvBuilt k \/ ((exists ds, e = EvProxy k ds) /\ n_proxy (g_nodes g k) = true)) ->
  log_ok (e :: g_log g) ->
  (n_proxy (g_nodes g k) = true -> all_utd g (n_static (g_nodes g k))) ->
  Inv dyn (add_log e (upd_node g k (set_state UpToDate))) pend.
Proof.
  intros I NF NJ HE LO HP. set (g' := add_log e _).
  assert (STk : st g' k = UpToDate).
  { unfold g', st. rewrite nodes_add_log. now rewrite nodes_upd_same. }
  assert (O : forall j, j <> k -> g_nodes g' j = g_nodes g j).
  { intros; unfold g'. rewrite nodes_add_log, nodes_upd_other; auto. }
  assert (ST : forall j, j <> k -> st g' j = st g j).
  { intros; unfold st; rewrite O; auto. }
  assert (U : forall j, st g j = UpToDate -> st g' j = UpToDate).
  { intros j. destruct (Nat.eq_dec j k) as [->|]; [auto|rewrite ST; auto]. }
  assert (FM : forall j, st g' j = Failed <-> st g j = Failed).
  { intros j. destruct (Nat.eq_dec j k) as [->|]; [|rewrite ST; tauto].
    rewrite STk. split; [discriminate|contradiction]. }
  assert (UM : forall ds, all_utd g ds -> all_utd g' ds).
  { intros ds. apply utd_mono. intros; apply U; auto. }
  assert (NN : forall j, n_pre (g_nodes g' j) = n_pre (g_nodes g j) /\
                         n_static (g_nodes g' j) = n_static (g_nodes g j) /\
                         n_dyn (g_nodes g' j) = n_dyn (g_nodes g j) /\
                         n_proxy (g_nodes g' j) = n_proxy (g_nodes g j)).
  { intros j. unfold g'. rewrite nodes_add_log. cases_upd j k; cbn; auto. }
  assert (DI : forall j, dep_ids (g_nodes g' j) = dep_ids (g_nodes g j)).
  { intros j. unfold dep_ids. destruct (NN j) as (->&->&->&_). auto. }
  assert (EL : g_log g' = e :: g_log g) by reflexivity.
  assert (EA : g_active g' = g_active g) by reflexivity.
  assert (CK : completed (e :: g_log g) k).
  { unfold completed. destruct HE as [(ds&->)|[->|((ds&->)&_)]]; cbn; eauto 6. }
  assert (NEs : forall j ds, e <> EvStart j ds).
  { intros; destruct HE as [(?&->)|[->|((?&->)&_)]]; discriminate. }
  assert (NEf : forall j c, e <> EvFailed j c).
  { intros; destruct HE as [(?&->)|[->|((?&->)&_)]]; discriminate. }
  split; rewrite ?EL, ?EA.
  - intros j. destruct (Nat.eq_dec j k) as [->|N]; [tauto|].
    rewrite ST by auto. rewrite (i_utd _ _ _ I). split; [apply completed_cons|].
    intros H. apply completed_cons_inv in H as [H|[(?&E)|[E|(?&E)]]]; auto;
      destruct HE as [(?&HE)|[HE|((?&HE)&_)]]; congruence.
  - intros j H. apply started_cons_inv in H as [H|(ds&E)]; [|exfalso; eapply NEs; eauto].
    destruct (Nat.eq_dec j k) as [->|N]; auto. rewrite ST by auto. now apply (i_started _ _ _ I).
  - intros j H. destruct (Nat.eq_dec j k) as [->|N]; [congruence|].
    apply started_cons. rewrite ST in H by auto. now apply (i_building _ _ _ I).
  - intros j H. destruct (Nat.eq_dec j k) as [->|N]; [rewrite STk in H; destruct H; discriminate|].
    rewrite ST in H by auto. apply UM. destruct (NN j) as (->&_). now apply (i_static _ _ _ I).
  - intros j H. destruct (Nat.eq_dec j k) as [->|N]; [rewrite STk in H; discriminate|].
    rewrite ST in H by auto. apply UM. destruct (NN j) as (_&->&_). now apply (i_dynamic _ _ _ I).
  - auto.
  - assert (starts (e :: g_log g) = starts (g_log g)) as ->.
    { destruct HE as [(?&->)|[->|((?&->)&_)]]; reflexivity. }
    apply I.
  - apply I.
  - intros j H. destruct (Nat.eq_dec j k) as [->|N]; [contradiction|].
    rewrite ST by auto. now apply (i_jobs_b _ _ _ I).
  - intros j ds [E|H] HB; [exfalso; eapply NEs; eauto|].
    destruct (Nat.eq_dec j k) as [->|N]; [contradiction|].
    rewrite DI. now apply (i_ds _ _ _ I).
  - intros j. rewrite FM, (i_failed _ _ _ I). split.
    + intros (c'&?). exists c'. now right.
    + intros (c'&[E|?]); [exfalso; eapply NEf; eauto|eauto].
  - intros j [E|H]; [exfalso; eapply NEf; eauto|].
    destruct (i_cdeps _ _ _ I j H) as (d&?&?). exists d. rewrite DI. rewrite FM. auto.
  - intros j [E|H]; [exfalso; eapply NEf; eauto|]. now apply (i_cdyn _ _ _ I).
  - intros j [E|H]; [exfalso; eapply NEf; eauto|]. apply started_cons. now apply (i_cjob _ _ _ I).
  - intros j H. destruct (NN j) as (_&E2&_&E4). rewrite E4 in H. rewrite E2.
    destruct (i_proxy _ _ _ I j H) as (A1&A2&A3&A4).
    split; [|split; [|split]].
    + destruct (Nat.eq_dec j k) as [->|N]; [auto|rewrite ST; auto].
    + intros Hs. apply started_cons_inv in Hs as [?|(?&E)]; [contradiction|eapply NEs; eauto].
    + intros Hf. apply FM in Hf. destruct (A3 Hf) as (d&?&?). exists d. rewrite FM. auto.
    + intros Hu. apply UM. destruct (Nat.eq_dec j k) as [->|N]; [auto|]. rewrite ST in Hu; auto.
  - intros j ds [E|H]; destruct (NN j) as (_&_&_&->).
    + destruct HE as [(?&HE)|[HE|((?&HE)&?)]]; congruence.
    + eapply i_pevent; eauto.
Qed.

Lemma micro_inv g g' pend : micro o dyn g g' -> Inv dyn g pend -> Inv dyn g' pend.
Proof.
  intros M I. destruct M as [g c|g k NP S F|g k NP S F|g k NP S F C|g k NP S F C|g k ds NP S F C D|g k NP S F C|g k NP S F C|g k NP S F C].
  - now apply inv_tag.
  - apply inv_mark; auto; try discriminate; try congruence.
    + intros E. destruct S as [S|S]; rewrite E in S; discriminate.
    + destruct S; [now apply unfinished_not_job|now apply failed_not_job].
    + intros _. destruct F as (d&Hd&Hf). exists (d_node d). split; auto. now apply in_dep_ids.
  - apply inv_local with (g := g) (k := k); auto; rewrite ?nodes_upd_same; auto.
    + intros. now rewrite nodes_upd_other.
    + now rewrite S.
    + unfold st. now rewrite nodes_upd_same.
    + unfold st. rewrite nodes_upd_same. cbn. discriminate.
  - apply inv_local with (g := g) (k := k); auto; rewrite ?nodes_upd_same; auto.
    + intros. now rewrite nodes_upd_other.
    + now rewrite S.
    + unfold st in *. rewrite nodes_upd_same. cbn. now rewrite S.
    + intros _. apply (i_static _ _ _ I). auto.
  - apply inv_mark; auto; try discriminate; try congruence.
    apply unfinished_not_job; auto. now rewrite S.
  - apply inv_local with (g := g) (k := k); auto; rewrite ?nodes_upd_same; auto.
    + intros. now rewrite nodes_upd_other.
    + now rewrite S.
    + unfold st. now rewrite nodes_upd_same.
    + intros _. apply (i_static _ _ _ I). auto.
  - apply inv_local with (g := g) (k := k); auto; rewrite ?nodes_upd_same; auto.
    + intros. now rewrite nodes_upd_other.
    + now rewrite S.
    + unfold st. now rewrite nodes_upd_same.
    + intros _. apply (i_static _ _ _ I). auto.
  - now apply inv_start.
  - apply inv_complete; auto; try congruence.
    + apply unfinished_not_job; auto. now rewrite S.
    + left. eauto.
    + constructor; [apply I|]. eapply all_completed; eauto.
Qed.

Lemma mstar_inv g g' pend : mstar o dyn g g' -> Inv dyn g pend -> Inv dyn g' pend.
Proof. induction 1; eauto using micro_inv. Qed.
End InvMicro.

Lemma inv_drop dyn g x pend : Inv dyn g (x :: pend) ->
  Inv dyn g pend /\ ~ In (fst x) (g_active g ++ map fst pend) /\ st g (fst x) = Building.
Proof.
  intros I. pose proof (i_jobs _ _ _ I) as ND. cbn in ND. apply NoDup_remove in ND as [ND NI].
  assert (SUB : forall k, In k (g_active g ++ map fst pend) -> In k (g_active g ++ map fst (x :: pend))).
  { intros k. cbn. rewrite !in_app_iff. cbn. tauto. }
  split; [|split; auto].
  - destruct I. split; auto.
  - apply (i_jobs_b _ _ _ I). cbn. rewrite in_app_iff. cbn. auto.
Qed.

Lemma finalize_includes_shape k incl : forall g g' b,
  finalize_includes g k incl = (g', b) ->
  g_log g' = g_log g /\ g_active g' = g_active g /\ g_done g' = g_done g /\ g_disk g' = g_disk g /\
  g_pass g' = g_pass g /\
  (forall j, st g' j = st g j /\ n_pre (g_nodes g' j) = n_pre (g_nodes g j) /\
             n_proxy (g_nodes g' j) = n_proxy (g_nodes g j) /\
             n_force (g_nodes g' j) = n_force (g_nodes g j) /\
             n_isfile (g_nodes g' j) = n_isfile (g_nodes g j) /\
             n_filenode (g_nodes g' j) = n_filenode (g_nodes g j) /\
             n_built (g_nodes g' j) = n_built (g_nodes g j) /\
             n_tag (g_nodes g' j) = n_tag (g_nodes g j) /\
             n_static (g_nodes g' j) = n_static (g_nodes g j) /\
             (j <> k -> n_dyn (g_nodes g' j) = n_dyn (g_nodes g j)) /\
             (n_stamp (g_nodes g' j) = n_stamp (g_nodes g j) \/
              (n_filenode (g_nodes g j) = true /\ n_stamp (g_nodes g j) = 0%N /\
               n_stamp (g_nodes g' j) = g_disk g j /\ n_built (g_nodes g j) = false))).
Proof.
  induction incl as [|i r IH]; intros g g' b H; cbn in H.
  - injection H as <- <-. repeat split; auto.
  - destruct (n_isfile (g_nodes g i)) eqn:F; [|injection H as <- <-; repeat split; auto].
    set (g1 := if n_filenode (g_nodes g i) && N.eqb (stampof g i) 0 && negb (n_built (g_nodes g i))
               then upd_node g i (set_stamp (g_disk g i)) else g) in *.
    assert (G1 : g_log g1 = g_log g /\ g_active g1 = g_active g /\ g_done g1 = g_done g /\
                 g_disk g1 = g_disk g /\ g_pass g1 = g_pass g).
    { unfold g1. destruct (_ && _ && _); auto. }
    assert (N1 : forall j, st g1 j = st g j /\ n_pre (g_nodes g1 j) = n_pre (g_nodes g j) /\
             n_proxy (g_nodes g1 j) = n_proxy (g_nodes g j) /\
             n_force (g_nodes g1 j) = n_force (g_nodes g j) /\
             n_isfile (g_nodes g1 j) = n_isfile (g_nodes g j) /\
             n_filenode (g_nodes g1 j) = n_filenode (g_nodes g j) /\
             n_built (g_nodes g1 j) = n_built (g_nodes g j) /\
             n_tag (g_nodes g1 j) = n_tag (g_nodes g j) /\
             n_static (g_nodes g1 j) = n_static (g_nodes g j) /\
             n_dyn (g_nodes g1 j) = n_dyn (g_nodes g j) /\
             (n_stamp (g_nodes g1 j) = n_stamp (g_nodes g j) \/
              (n_filenode (g_nodes g j) = true /\ n_stamp (g_nodes g j) = 0%N /\
               n_stamp (g_nodes g1 j) = g_disk g j /\ n_built (g_nodes g j) = false))).
    { intros j. unfold g1.
      destruct (n_filenode (g_nodes g i)) eqn:A; cbn [andb]; [|repeat split; auto].
      destruct (N.eqb_spec (stampof g i) 0); cbn [andb]; [|repeat split; auto].
      destruct (n_built (g_nodes g i)) eqn:Bu; cbn [negb]; [repeat split; auto|].
      unfold st. cases_upd j i; cbn; repeat split; auto. }
    destruct (IH _ _ _ H) as (L1&L2&L3&L4&L5&NN). cbn in L1, L2, L3, L4, L5.
    destruct G1 as (E1&E2&E3&E4&E5).
    repeat (split; [congruence|]).
    intros j. specialize (NN j). specialize (N1 j).
    destruct N1 as (S1&P1&X1&F1&I1&FN1&B1&T1&ST1&D1&SM1).
    unfold st in *. cbn in NN.
    destruct (Nat.eq_dec j k) as [->|Hjk].
    + rewrite upd_same in NN. cbn in NN.
      destruct NN as (S2&P2&X2&F2&I2&FN2&B2&T2&ST2&D2&SM2).
      repeat split; try congruence.
      destruct SM2 as [SM2|(?&?&?&?)].
      * rewrite SM2. exact SM1.
      * right. destruct SM1 as [SM1|(?&?&SM1&?)].
        all: repeat split; congruence.
    + rewrite upd_other in NN by auto.
      destruct NN as (S2&P2&X2&F2&I2&FN2&B2&T2&ST2&D2&SM2).
      repeat split; try congruence.
      * intros. rewrite D2; auto.
      * destruct SM2 as [SM2|(?&?&?&?)].
        { rewrite SM2. exact SM1. }
        right. destruct SM1 as [SM1|(?&?&SM1&?)].
        all: repeat split; congruence.
Qed.

Lemma finalize_job_inv dyn g k r pend :
  Inv dyn g ((k, r) :: pend) -> Inv dyn (finalize_job g (k, r)) pend.
Proof.
  intros I0. destruct (inv_drop _ _ _ _ I0) as (I&NJ&B). cbn in NJ, B.
  assert (NP : n_proxy (g_nodes g k) = false).
  { destruct (n_proxy (g_nodes g k)) eqn:E; auto. destruct (i_proxy _ _ _ I k E) as (A&_).
    rewrite B in A. destruct A as [?|[?|?]]; discriminate. }
  assert (SK : started (g_log g) k) by (apply (i_building _ _ _ I); auto).
  cbn. destruct r as [s [incl|]|z|]; auto.
  - unfold finalize_object.
    destruct (finalize_includes (upd_node g k (set_dyn [])) k incl) as [g1 ok] eqn:FI.
    destruct (finalize_includes_shape _ _ _ _ _ FI) as (L1&L2&L3&L4&L5&NN). cbn in L1, L2.
    assert (I1 : Inv dyn g1 pend /\ st g1 k = Building /\ n_proxy (g_nodes g1 k) = false).
    { split; [|split].
      - apply inv_relist with (g := g) (k := k); auto.
        + intros j. destruct (NN j) as (S&P&X&_). rewrite S, P, X. unfold st.
          cases_upd j k; cbn; auto.
        + intros j N. destruct (NN j) as (_&_&_&_&_&_&_&_&S&D&_). rewrite S, D by auto.
          rewrite nodes_upd_other by auto. auto.
      - destruct (NN k) as (S&_). rewrite S. unfold st. rewrite nodes_upd_same. exact B.
      - destruct (NN k) as (_&_&X&_). rewrite X, nodes_upd_same. exact NP. }
    destruct I1 as (I1&B1&NP1).
    destruct ok.
    + set (g2 := finalize_node g1 k).
      assert (I2 : Inv dyn g2 pend).
      { apply inv_relist with (g := g1) (k := k); auto.
        - rewrite L2. auto.
        - intros j. unfold g2, finalize_node, st. cases_upd j k; cbn; auto.
        - intros j N. unfold g2, finalize_node. rewrite nodes_upd_other; auto. }
      assert (N2 : g_nodes g2 k = set_dyn (stamp_deps (stampof g1) (n_dyn (g_nodes g1 k)))
                     (set_static (stamp_deps (stampof g1) (n_static (g_nodes g1 k))) (g_nodes g1 k))).
      { unfold g2, finalize_node. now rewrite nodes_upd_same. }
      apply inv_complete; [exact I2| | |auto| |].
      * unfold st. rewrite N2. cbn. unfold st in B1. congruence.
      * change (g_active g2) with (g_active g1). rewrite L2. auto.
      * constructor; [apply I2|]. change (g_log g2) with (g_log g1). rewrite L1. auto.
      * rewrite N2. cbn. congruence.
    + apply inv_mark; auto; try discriminate; try congruence.
  - set (g2 := finalize_node g k).
    assert (I2 : Inv dyn g2 pend).
    { apply inv_relist with (g := g) (k := k); auto.
      - intros j. unfold g2, finalize_node, st. cases_upd j k; cbn; auto.
      - intros j N. unfold g2, finalize_node. rewrite nodes_upd_other; auto. }
    assert (N2 : g_nodes g2 k = set_dyn (stamp_deps (stampof g) (n_dyn (g_nodes g k)))
                   (set_static (stamp_deps (stampof g) (n_static (g_nodes g k))) (g_nodes g k))).
    { unfold g2, finalize_node. now rewrite nodes_upd_same. }
    apply inv_complete; [exact I2| |exact NJ|auto| |].
    + unfold st. rewrite N2. cbn. unfold st in B. congruence.
    + constructor; [apply I2|]. exact SK.
    + rewrite N2. cbn. congruence.
  - apply inv_mark; auto; try discriminate; congruence.
Qed.

Lemma finalize_fold_inv dyn pend : forall g,
  Inv dyn g pend -> Inv dyn (fold_left finalize_job pend g) [].
Proof.
  induction pend as [|[k r] p IH]; cbn; auto. intros g I. apply IH. now apply finalize_job_inv.
Qed.

Lemma NoDup_app_inv {A} (a b : list A) :
  NoDup (a ++ b) <-> NoDup a /\ NoDup b /\ (forall x, In x a -> ~ In x b).
Proof.
  induction a as [|x a IH]; cbn.
  - split; [intros; repeat split; auto; constructor|tauto].
  - rewrite !NoDup_cons_iff, IH, in_app_iff. split.
    + intros (N&A1&A2&A3). repeat split; auto. intros y [<-|Hy]; auto.
    + intros ((N&A1)&A2&A3). repeat split; auto. intros [?|?]; auto. eapply A3; eauto.
Qed.

Lemma NoDup_filter_map (f : nat * result -> bool) l :
  NoDup (map fst l) -> NoDup (map fst (filter f l)).
Proof.
  induction l as [|x l IH]; cbn; auto. intros H. apply NoDup_cons_iff in H as [H1 H2].
  destruct (f x); cbn; auto. constructor; auto.
  intros C. apply H1. rewrite in_map_iff in *. destruct C as (y&?&Hy). apply filter_In in Hy.
  exists y. tauto.
Qed.

Lemma done_parts l : NoDup (map fst l) ->
  NoDup (map fst (filter is_ok l ++ filter is_fail l)) /\
  (forall k, In k (map fst (filter is_ok l ++ filter is_fail l)) -> In k (map fst l)).
Proof.
  intros ND. split.
  - rewrite map_app. apply NoDup_app_inv. repeat split; try now apply NoDup_filter_map.
    intros k H1 H2. rewrite in_map_iff in *.
    destruct H1 as ([k1 r1]&<-&H1). destruct H2 as ([k2 r2]&E&H2). cbn in E. subst k2.
    apply filter_In in H1 as [H1 F1]. apply filter_In in H2 as [H2 F2].
    assert (r1 = r2).
    { clear F1 F2. induction l as [|[k r] l IH]; cbn in *; [tauto|].
      apply NoDup_cons_iff in ND as [N1 N2].
      assert (Q : forall r, In (k1, r) l -> In k1 (map fst l)).
      { intros r0 Hr. apply in_map_iff. exists (k1, r0). auto. }
      destruct H1 as [H1|H1]; destruct H2 as [H2|H2]; try congruence; auto;
        exfalso; apply N1; [injection H1 as -> _|injection H2 as -> _]; eauto. }
    subst. destruct r2; discriminate.
  - intros k. rewrite !in_map_iff. intros (y&E&H). exists y. split; auto.
    apply in_app_iff in H as [H|H]; apply filter_In in H; tauto.
Qed.

Lemma inv_weaken_pend dyn g g' pend pend' :
  Inv dyn g pend -> g_nodes g' = g_nodes g -> g_log g' = g_log g ->
  NoDup (g_active g' ++ map fst pend') ->
  (forall k, In k (g_active g' ++ map fst pend') -> In k (g_active g ++ map fst pend)) ->
  Inv dyn g' pend'.
Proof.
  intros I EN EL ND SUB'.
  destruct g, g'. cbn in EN, EL. subst. destruct I.
  constructor; first [assumption | exact ND | exact (fun k H => i_jobs_b0 k (SUB' k H))
    | exact (fun k ds H1 H2 => i_ds0 k ds H1 (SUB' k H2))].
Qed.

Lemma finalize_jobs_inv dyn g : Inv dyn g (g_done g) ->
  Inv dyn (finalize_jobs g) [] /\ g_done (finalize_jobs g) = [].
Proof.
  intros I. unfold finalize_jobs. split.
  - apply finalize_fold_inv.
    pose proof (i_jobs _ _ _ I) as ND. apply NoDup_app_inv in ND as (N1&N2&N3).
    destruct (done_parts _ N2) as [P1 P2].
    apply inv_weaken_pend with (g := g) (pend := g_done g); auto.
    + cbn. apply NoDup_app_inv. repeat split; auto. intros x Hx Hp. apply (N3 x Hx). auto.
    + intros x. cbn. rewrite !in_app_iff. intuition.
  - assert (FD : forall l g0, g_done (fold_left finalize_job l g0) = g_done g0).
    { induction l as [|[k r] l IH]; cbn; auto. intros g0. rewrite IH.
      destruct r as [s [incl|]|z|]; cbn; auto.
      unfold finalize_object. destruct (finalize_includes _ _ _) as [g1 ok] eqn:FI.
      destruct (finalize_includes_shape _ _ _ _ _ FI) as (_&_&E&_). destruct ok; cbn; auto. }
    rewrite FD. reflexivity.
Qed.

Lemma finish_inv dyn k r g : Inv dyn g (g_done g) -> Inv dyn (finish k r g) (g_done (finish k r g)).
Proof.
  intros I. unfold finish. destruct (in_dec Nat.eq_dec k (g_active g)) as [H|]; auto.
  cbn [g_done]. set (g' := mkGraph _ _ _ _ _ _).
  set (gm := mkGraph (g_nodes g') (g_disk g) (g_pass g) (g_active g) (g_done g) (g_log g)).
  assert (Im : Inv dyn gm (g_done g)).
  { apply inv_same with (g := g); auto. intros j. unfold gm, g', st.
    cbn. destruct r as [s i|[|]|]; auto; cbn;
      (destruct (Nat.eq_dec j k) as [->|]; [rewrite !upd_same|rewrite !upd_other by auto]); cbn; auto. }
  pose proof (i_jobs _ _ _ Im) as ND. cbn in ND.
  assert (NN : NoDup (g_active g' ++ map fst (g_done g ++ [(k, r)]))).
  { unfold g'. cbn. rewrite map_app. cbn. apply NoDup_app_inv in ND as (N1&N2&N3).
    apply NoDup_app_inv. split; [|split].
    - clear - N1. induction (g_active g) as [|x l IH]; cbn; auto.
      apply NoDup_cons_iff in N1 as [A B]. destruct (Nat.eq_dec k x); auto.
      constructor; auto. intros C. apply in_remove in C. tauto.
    - apply NoDup_app_inv. repeat split; auto.
      + constructor; auto. constructor.
      + intros x Hx [<-|[]]. eapply N3; eauto.
    - intros x Hx. apply in_remove in Hx as [Hx Nx]. rewrite in_app_iff. cbn.
      intros [?|[?|[]]]; [eapply N3; eauto|congruence]. }
  assert (SUB : forall x, In x (g_active g' ++ map fst (g_done g ++ [(k, r)])) ->
                          In x (g_active gm ++ map fst (g_done g))).
  { intros x. unfold g', gm. cbn. rewrite map_app, !in_app_iff. cbn.
    intros [Hx|[Hx|[<-|[]]]]; auto. apply in_remove in Hx. tauto. }
  apply inv_weaken_pend with (g := gm) (pend := g_done g); auto.
Qed.

Lemma build_pass_inv fuel o dyn g root g' :
  build_pass fuel o dyn g root = Some g' ->
  Inv dyn g (g_done g) -> Inv dyn g' (g_done g') /\ g_done g' = g_done g.
Proof.
  intros H I. unfold build_pass in H.
  set (g0 := mkGraph _ _ _ _ _ _) in H.
  assert (I0 : Inv dyn g0 (g_done g)).
  { apply inv_same with (g := g); auto. }
  assert (DD : forall a b, mstar o dyn a b -> g_done b = g_done a).
  { induction 1 as [|a b c M _ IH]; auto. rewrite IH. apply (micro_log _ _ _ _ M). }
  destruct (n_proxy (g_nodes g0 root)) eqn:NP.
  - destruct (proxy_loop fuel o dyn g0 (n_static (g_nodes g0 root))) as [[[g1 u] f]|] eqn:L; [|discriminate].
    destruct (proxy_loop_mstar _ _ _ _ _ _ _ _ L) as (MS&LE&UT&FL).
    assert (I1 : Inv dyn g1 (g_done g)) by (eapply mstar_inv; eauto).
    assert (D1 : g_done g1 = g_done g) by (rewrite (DD _ _ MS); reflexivity).
    destruct (mstar_final _ _ _ _ MS) as [_ MF].
    assert (NP1 : n_proxy (g_nodes g1 root) = true).
    { destruct (MF root) as (_&_&_&->). auto. }
    assert (SS : n_static (g_nodes g1 root) = n_static (g_nodes g0 root)).
    { clear - MS. induction MS as [|a b c M _ IH]; auto. rewrite IH.
      apply (micro_nodes _ _ _ _ M). }
    destruct (i_proxy _ _ _ I1 root NP1) as (A1&A2&A3&A4).
    assert (NJ : ~ In root (g_active g1 ++ map fst (g_done g))).
    { intros HH. apply (i_jobs_b _ _ _ I1) in HH. rewrite HH in A1.
      destruct A1 as [?|[?|?]]; discriminate. }
    destruct (Nat.eqb_spec (u + f) (length (n_static (g_nodes g0 root)))) as [E|E].
    + destruct (Nat.eqb_spec f 0) as [F|F]; injection H as <-.
      * split; [|cbn; auto].
        assert (AU : all_utd g1 (n_static (g_nodes g1 root))) by (rewrite SS; auto).
        change (g_done (add_log _ _)) with (g_done g1). rewrite D1.
        apply inv_complete; auto.
        -- intros E2. destruct (A3 E2) as (d&Hd&Hf). specialize (AU d Hd). congruence.
        -- right. right. split; eauto.
        -- constructor; [apply I1|]. intros d Hd. apply in_map_iff in Hd as (x&<-&Hx).
           apply (i_utd _ _ _ I1). apply AU. now rewrite SS.
      * split; [|cbn; auto].
        change (g_done (mark_failed _ _ _)) with (g_done g1). rewrite D1.
        destruct (FL F) as (d&Hd&Hf).
        apply inv_mark; auto; try discriminate.
        -- intros E2. assert (Hd' : In d (n_static (g_nodes g1 root))) by now rewrite SS.
           specialize (A4 E2 d Hd'). congruence.
        -- intros _. exists (d_node d). split; auto. apply in_dep_ids.
           unfold alldeps. rewrite !in_app_iff, SS. auto.
        -- intros _. exists d. rewrite SS. auto.
    + injection H as <-. rewrite D1. auto.
  - destruct (before_building (st g0 root)).
    + apply build_recurse_mstar in H. rewrite (DD _ _ H). split; [|reflexivity].
      eapply mstar_inv; eauto.
    + injection H as <-. auto.
Qed.

Lemma step_inv fuel o dyn root g e g' :
  step fuel o dyn root g e = Some g' -> Inv dyn g (g_done g) -> Inv dyn g' (g_done g').
Proof.
  intros H I. destruct e; cbn in H.
  - eapply build_pass_inv; eauto.
  - injection H as <-. now apply finish_inv.
  - injection H as <-. destruct (finalize_jobs_inv _ _ I) as [A ->]. exact A.
  - injection H as <-. cbn. apply inv_same with (g := g); auto.
Qed.

Lemma run_inv fuel o dyn root es : forall g g',
  run fuel o dyn root g es = Some g' -> Inv dyn g (g_done g) -> Inv dyn g' (g_done g').
Proof.
  induction es as [|e r IH]; cbn; intros g g' H I.
  - now injection H as <-.
  - destruct (step fuel o dyn root g e) as [g1|] eqn:S; [|discriminate].
    eapply IH; eauto. eapply step_inv; eauto.
Qed.

Lemma run_fresh_inv fuel o dyn root es g g' :
  fresh g -> run fuel o dyn root g es = Some g' -> Inv dyn g' (g_done g').
Proof.
  intros F H. eapply run_inv; eauto. pose proof (fresh_inv dyn g F) as I.
  destruct F as (_&_&->&_). exact I.
Qed.
