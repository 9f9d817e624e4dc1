(** C46: jobs on a worker and disconnecting clients. *)
From Coq Require Import List Arith Bool NArith Lia.
From Verif Require Import M_Remote S_Remote P_Remote.
Import ListNotations.

(** At every moment of every interleaving each job object is held in exactly one place or has been deleted once: nothing is
    deleted twice, nothing deleted is still held (so no use after free), nothing is leaked. *)
Theorem C46_no_job_freed_twice es s : run init es = Some s ->
  NoDup (freed s) /\ NoDup (ids (live s)) /\ (forall j, In j (live s) -> ~ In (j_id j) (freed s)) /\
  (forall id k, In (id, k) (born s) -> In id (ids (live s)) \/ In id (freed s)).
Proof.
  intro H. destruct (invs _ _ H) as ((I & B) & _ & _). assert (I' := I). unfold all_ids in I'.
  assert (Q : forall x, cnt x (ids (live s)) + cnt x (freed s) <= 1).
  { intro x. assert (Z := I' x). rewrite cnt_app in Z. destruct (_ <? _); lia. }
  split; [|split; [|split]].
  - apply nodup_cnt. intro x. specialize (Q x). lia.
  - apply nodup_cnt. intro x. specialize (Q x). lia.
  - intros j L F. apply cnt_in in F. apply (in_map j_id) in L. apply cnt_in in L. specialize (Q (j_id j)). unfold ids in Q. lia.
  - intros id k X. apply (in_map fst) in X. rewrite B in X. apply in_seq in X. cbn in X. assert (Z := I' id).
    rewrite cnt_app in Z. destruct (Nat.ltb_spec id (next_job s)); [|lia].
    destruct (cnt id (ids (live s))) eqn:E; [right|left]; apply cnt_in; lia.
Qed.
Print Assumptions C46_no_job_freed_twice.

(** No result is sent twice, and what is sent is what the build thread produced. *)
Theorem C46_result_sent_once es s : run init es = Some s ->
  NoDup (map (fun x => fst (fst x)) (sent s)) /\
  forall id k ok, In (id, k, ok) (sent s) -> In (Leave id (if ok then ROk else RFailed)) es.
Proof.
  intro H. destruct (sent_inv _ _ H) as (_ & _ & ND). split; [exact ND|].
  intros id k ok X. destruct (results _ _ H) as (_ & Q & _). exact (Q _ X).
Qed.
Print Assumptions C46_result_sent_once.

(** Gives the state a literal run ends in. *)
Ltac end_state es := let r := eval vm_compute in (run init es) in match r with Some ?s => exists s end.

Lemma phase_none a cl : ~ In a (map fst cl) -> phase a cl = None.
Proof.
  intro H. unfold phase. destruct (find _ cl) as [[b p]|] eqn:E; [|reflexivity]. apply find_some in E. destruct E as [E1 E2].
  apply N.eqb_eq in E2. cbn in E2. subst. destruct H. now apply (in_map fst) in E1.
Qed.
(** The jobs of a client that is still connected are unaffected by what happens to others: each is held, with its client
    attached, or has been answered to that client, or was aborted on this worker. *)
Theorem C46_others_unaffected es s id k a : run init es = Some s -> In (id, k) (born s) -> up s k a ->
  (exists j, In j (live s) /\ j_id j = id /\ j_conn j = k /\ j_user j = Some a) \/
  (exists ok, In (id, k, ok) (sent s)) \/ In (Leave id RAborted) es.
Proof.
  intros H B (c & Ic & Ek & Ea & Nc). destruct (invs _ _ H) as (D & C & J).
  destruct (C46_no_job_freed_twice _ _ H) as (_ & _ & _ & X). destruct (X _ _ B) as [L|F].
  - left. unfold ids in L. apply in_map_iff in L. destruct L as (j & Ej & L). exists j.
    assert (Eo : j_conn j = k) by (eapply born_fun; eauto; rewrite <- Ej; now apply (i_born _ J)).
    split; [exact L|]. split; [exact Ej|]. split; [exact Eo|].
    destruct (i_own _ J _ _ L Ic) as [U|U]; [congruence|congruence|]. rewrite Ea, (phase_none _ _ Nc) in U. contradiction.
  - destruct (i_freed _ J _ _ B F) as [Q|[Q|Q]].
    + auto.
    + right. right. destruct (results _ _ H) as (_ & _ & R). auto.
    + specialize (Q _ Ic Ek). rewrite Ea, (phase_none _ _ Nc) in Q. contradiction.
Qed.
Print Assumptions C46_others_unaffected.

(** Once a disconnection has been dealt with nothing more is sent on that connection, whatever follows. *)
Theorem C46_nothing_after_disconnect es1 es2 s1 s2 k : run init es1 = Some s1 -> gone s1 k -> run s1 es2 = Some s2 ->
  gone s2 k /\ answered s2 k = answered s1 k.
Proof.
  intros H1 [L N] H2. destruct (invs _ _ H1) as (_ & C & _).
  revert s1 H1 L N H2 C. revert es1. induction es2 as [|e es IH]; intros es1 s1 H1 L N H2 C; cbn in H2.
  { injection H2 as <-. split; [split|]; auto. }
  destruct (step s1 e) as [s|] eqn:E; [|discriminate].
  destruct (no_more_to _ _ _ _ C L N E) as (L' & N' & X).
  destruct (IH (es1 ++ [e]) s) as [G A]; auto.
  { rewrite run_app, H1. cbn. now rewrite E. }
  { eapply step_cinv; eauto. }
  split; [exact G|]. rewrite A. unfold answered.
  destruct (sent_step _ _ _ E) as [Es|(j & r & c & _ & _ & _ & _ & Ic & Es & _)]; rewrite Es; [reflexivity|].
  rewrite filter_app. cbn [filter fst snd]. destruct (Nat.eqb_spec (c_conn c) k) as [Q|_]; [destruct (N _ Ic Q)|]. apply app_nil_r.
Qed.
Print Assumptions C46_nothing_after_disconnect.

(** If no client state is placed where an earlier one was, every result goes to the connection its job came from. *)
Theorem C46_right_client_partial es s : run init es = Some s -> NoDup (addresses es) ->
  forall id k ok, In (id, k, ok) (sent s) -> In (id, k) (born s).
Proof.
  intros H ND id k ok X. assert (R := receivers _ _ H). unfold rinv in R. rewrite (conns_events _ _ H) in R.
  destruct (R ND) as [Q _]. exact (Q _ X).
Qed.
Print Assumptions C46_right_client_partial.

(** Under the same condition the count of active jobs of a client is the number accepted less the number answered, and is
    not zero when it is about to be decremented. *)
Theorem C46_active_count_partial es s : run init es = Some s -> NoDup (addresses es) -> (N.of_nat (next_job s) < 4294967296)%N ->
  (forall c, In c (clients s) ->
     (c_active c + N.of_nat (length (answered s (c_conn c))) = N.of_nat (length (accepted s (c_conn c))))%N) /\
  (forall j r c, hand s = Some (j, r) -> j_user j = Some (c_addr c) -> In c (clients s) -> (0 < c_active c)%N).
Proof.
  intros H ND Hb. assert (R := receivers _ _ H). unfold rinv in R. rewrite (conns_events _ _ H) in R.
  destruct (R ND) as [IB Q]. specialize (Q Hb). split.
  - intros c Ic. specialize (Q _ Ic). unfold nborn, nsent in Q. unfold answered, accepted. lia.
  - intros j r c Hd U Ic. destruct (sent_inv _ _ H) as ((D & C & J) & I1 & NDs).
    assert (L : In j (live s)) by (apply in_live; do 8 right; eauto).
    assert (Ec : j_conn j = c_conn c).
    { apply (snd_inj (conns s) _ _ (c_addr c)); [rewrite (conns_events _ _ H); exact ND|eapply i_user; eauto|now apply (i_hist _ C)]. }
    assert (LT := nsent_lt s j r _ (conj D (conj C J)) I1 NDs IB Hd Ec). specialize (Q _ Ic). lia.
Qed.
Print Assumptions C46_active_count_partial.

(** Without the condition the property fails: CancelJobsWithUserData does not look at the failed list, so a failed job keeps
    the address of its client, and if the next client is placed there the failure is sent to it and its count of active jobs
    wraps round to 2^32-1. *)
Theorem C46_address_reuse_refuted : exists es s, run init es = Some s /\ In (0, 1, false) (sent s) /\ In (0, 0) (born s) /\ gone s 0 /\
  (exists c, In c (clients s) /\ c_conn c = 1 /\ c_active c = 4294967295%N).
Proof.
  set (es := [Connect 100; Arrive 100 true; Get; Leave 0 RFailed; Look 0; Push 0; Close 100; Close 100; Close 100; Close 100;
          Connect 100; Pop; Report]).
  exists es. end_state es. split; [vm_compute; reflexivity|]. split; [cbn; auto|]. split; [cbn; auto|]. split.
  - split; [cbn; lia|]. cbn. intros c [<-|[]]. discriminate.
  - eexists. split; [left; reflexivity|]. split; reflexivity.
Qed.
Print Assumptions C46_address_reuse_refuted.

(** A job being built may keep the address of a deleted client state: a waiting job is queued by the thread of another
    connection after CancelJobsWithUserData has passed and before the client leaves the list.  Server::GetHostForJob follows
    that address (Server.cpp 66-78). *)
Theorem C46_dangling_client_refuted : exists es s j a, run init es = Some s /\ NoDup (addresses es) /\
  In j (flight s) /\ j_user j = Some a /\ (forall c, In c (clients s) -> c_addr c <> a).
Proof.
  set (es := [Connect 100; Arrive 100 false; Close 100; Close 100; Close 100; Ready 0; Close 100; Get]).
  exists es. end_state es. exists (mkJob 0 0 (Some 100%N)), 100%N. split; [vm_compute; reflexivity|].
  split; [repeat constructor; cbn; intuition|]. split; [cbn; auto|]. split; [reflexivity|]. cbn. contradiction.
Qed.
Print Assumptions C46_dangling_client_refuted.

(** An aborted job is never taken off its client's count of active jobs. *)
Theorem C46_aborted_counts_refuted : exists es s c, run init es = Some s /\ NoDup (addresses es) /\ live s = [] /\
  In c (clients s) /\ c_active c = 1%N.
Proof.
  set (es := [Connect 100; Arrive 100 true; Get; Leave 0 RAborted; Look 0; Push 0; Pop; Report]).
  exists es. end_state es. exists (mkCl 0 100 1). split; [vm_compute; reflexivity|]. split; [repeat constructor; cbn; intuition|].
  split; [reflexivity|]. split; [cbn; auto|reflexivity].
Qed.
Print Assumptions C46_aborted_counts_refuted.

(** Two clients, four jobs; the first disconnects with a job waiting, one being built and one completed; the job of the
    second is answered to it. *)
Definition case46 : list event :=
  [Connect 100; Connect 200; Arrive 100 true; Arrive 200 true; Arrive 100 true; Arrive 100 false;
   Get; Get; Get; Leave 0 ROk; Look 0; Push 0; Close 100; Leave 1 ROk; Close 100; Look 1; Close 100; Push 1; Leave 2 ROk; Look 2; Close 100; Pop].
Example C46_case : exists s, run init case46 = Some s /\ NoDup (addresses case46) /\ up s 1 200 /\ gone s 0 /\
  In (1, 1) (born s) /\ freed s = [0; 2; 3] /\ sent s = [] /\
  exists s', run s [Report] = Some s' /\ sent s' = [(1, 1, true)] /\ freed s' = [0; 2; 3; 1] /\ live s' = [].
Proof.
  end_state case46. split; [vm_compute; reflexivity|]. split.
  { repeat constructor; cbn; intuition discriminate. }
  split. { eexists. split; [left; reflexivity|]. split; [reflexivity|]. split; [reflexivity|]. cbn; auto. }
  split. { split; [cbn; lia|]. cbn. intros c [<-|[]]. discriminate. }
  split; [cbn; auto|]. split; [reflexivity|]. split; [reflexivity|]. match goal with |- exists s', run ?s [Report] = _ /\ _ => let r := eval vm_compute in (run s [Report]) in match r with Some ?s' => exists s' end end.
  split; [vm_compute; reflexivity|]. auto.
Qed.
