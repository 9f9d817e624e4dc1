(** C10: a distributed job has one owner and is finalized once.  C37: remote system errors are retried a bounded number of times. *)
From Coq Require Import List Arith Bool NArith Lia.
From Verif Require Import M_Dist S_Dist P_Dist.
Import ListNotations.

Lemma reached es s : run init es = Some s -> inv false s.
Proof. intros R. destruct (run_inv es false init (init_inv false)) as (s' & E & I); [discriminate|]. congruence. Qed.

(** * C10 *)
(** Whatever the threads do and in whatever order, no job is used or deleted after it was deleted, and none is finalized or deleted
    twice.  A job is deleted only after it was finalized, and none is left that has not been. *)
Theorem C10_once : forall es, exists s, run init es = Some s /\
  forall j, finals j (log s) <= 1 /\ frees j (log s) <= finals j (log s) /\
            (j < next s -> (heap s j = None <-> frees j (log s) = 1)).
Proof.
  intros es. destruct (run_inv es false init (init_inv false)) as (s & E & I); [discriminate|]. exists s. split; [exact E|]. intros j.
  destruct I as (A & B & C & _). assert (G := A j). assert (N : j < next s -> view_of s j <> nothing) by auto.
  remember (view_of s j) as v eqn:EV. unfold view_of in EV. destruct G; injection EV as E1 E2 E3 E4 E5 E6 E7 E8 E9 E10 E11; rewrite <- ?E1, <- ?E8, <- ?E9;
    (split; [lia|split; [lia|]]); intros L; split; try discriminate; auto. now destruct (N L).
Qed.
Print Assumptions C10_once.

(** At every moment a job is in exactly one place: waiting, available, in the hands of threads, done or finalized.  At most one local
    and at most one remote worker have it. *)
Theorem C10_one_place : forall es s j, run init es = Some s -> j < next s ->
  cnt j (queue s) + cnt j (avail s) + worked_on s j + List.length (ends j (done s ++ done2 s)) + finals j (log s) = 1 /\
  List.length (runs j (local s)) <= 1 /\ List.length (holds j (hold s)) <= 1.
Proof.
  intros es s j R L. destruct (reached _ _ R) as (A & B & C & _). assert (G := A j). assert (N := C j L).
  remember (view_of s j) as v eqn:EV. unfold view_of in EV. unfold worked_on.
  destruct G; injection EV as E1 E2 E3 E4 E5 E6 E7 E8 E9 E10 E11; rewrite <- ?E2, <- ?E3, <- ?E5, <- ?E6, <- ?E7, <- ?E8; cbn; try lia. now destruct N.
Qed.
Print Assumptions C10_one_place.

(** When nothing is going on any more, every job has been finalized once.  If no remote worker's result or loss fell between the end
    of a local race and its finalization in a way that spoils the race, every job has also been deleted, and no assertion has failed. *)
Theorem C10_all_finalized : forall es s, run init es = Some s -> quiet s -> forall j, j < next s -> finals j (log s) = 1.
Proof.
  intros es s R (Q1 & Q2 & Q3 & Q4 & Q5 & Q6) j L. destruct (C10_one_place es s j R L) as [H _]. unfold worked_on in H.
  rewrite Q1, Q2, Q3, Q4, Q5, Q6 in H. cbn in H. destruct (finals j (log s)); lia.
Qed.
Print Assumptions C10_all_finalized.
Theorem C10_all_deleted_partial : forall es, timely init es -> exists s, run init es = Some s /\ asserts s = true /\
  (quiet s -> forall j, j < next s -> finals j (log s) = 1 /\ frees j (log s) = 1 /\ heap s j = None).
Proof.
  intros es T. destruct (run_inv es true init (init_inv true)) as (s & E & I); [auto|]. exists s. split; [exact E|].
  destruct I as (A & B & C & D). split; [auto|]. intros (Q1 & Q2 & Q3 & Q4 & Q5 & Q6) j L. assert (G := A j). assert (N := C j L).
  remember (view_of s j) as v eqn:EV. unfold view_of in EV.
  destruct G; injection EV as E1 E2 E3 E4 E5 E6 E7 E8 E9 E10 E11; rewrite Q1 in E2; rewrite Q2 in E3; rewrite Q3 in E5; rewrite Q4 in E7; rewrite Q5, Q6 in E6; try discriminate; rewrite <- ?E1, <- ?E8, <- ?E9; auto. now destruct N.
Qed.
Print Assumptions C10_all_deleted_partial.

(** Without that condition jobs are left for ever (and an assertion fails): a local race fails, then the remote result arrives before
    the main thread has looked; or a local race ends well, then the connection is lost. *)
Theorem C10_leak_refuted :
  (exists es s, run init es = Some s /\ quiet s /\ next s = 1 /\ heap s 0 <> None /\ frees 0 (log s) = 0 /\ asserts s = false) /\
  (exists es s, run init es = Some s /\ quiet s /\ closing s = [] /\ next s = 1 /\ heap s 0 <> None /\ frees 0 (log s) = 0 /\ asserts s = false).
Proof.
  split.
  - exists [EAdd; ETake 0; EFirst 0 None; EConnect 5; ERequest 5 0; ESent 5 0; ERace 0; EFinish 0 RFailed; EResult 5 0 true false; EReturn 5 0; ESwap; EFinalize; EWait 5 0].
    eexists. split; [vm_compute; reflexivity|]. vm_compute. repeat split; discriminate.
  - exists [EAdd; ETake 0; EFirst 0 None; EConnect 5; ERequest 5 0; ESent 5 0; ERace 0; EFinish 0 ROk; EDisconnect 5; EDrop 5 0; EClosed 5; ESwap; EFinalize].
    eexists. split; [vm_compute; reflexivity|]. vm_compute. repeat split; discriminate.
Qed.
Print Assumptions C10_leak_refuted.

(** The same as a computation. *)
Definition lateb (s : state) (e : event) : bool :=
  match e with
  | EReturn w j => existsb (fun x => is_hold w j x && match snd x with Got _ sys => existsb (fun y => (fst y =? j) && (sys || negb (is_result (snd y) ROk))) (done s ++ done2 s) | _ => false end) (hold s)
  | EDrop w j => existsb (fun y => fst y =? j) (done s ++ done2 s)
  | _ => false
  end.
Fixpoint punctual (s : state) (es : list event) : bool :=
  match es with [] => true | e :: r => negb (lateb s e) && match step s e with Some s' => punctual s' r | None => true end end.
Lemma punctual_timely es : forall s, punctual s es = true -> timely s es.
Proof.
  induction es as [|e es IH]; intros s H; cbn [timely]; [exact I|]. cbn [punctual] in H. apply andb_true_iff in H. destruct H as [H1 H2]. split.
  - intros X. rewrite (proj2 (negb_false_iff (lateb s e))) in H1; [discriminate|]. destruct e; cbn [late] in X; try (now destruct X); unfold lateb.
    + destruct X as (ok & sys & r & A & B & C). apply existsb_exists. exists (w, j, Got ok sys). split; [exact A|]. unfold is_hold. cbn [fst snd]. rewrite !Nat.eqb_refl. cbn [andb].
      apply existsb_exists. exists (j, r). split; [exact B|]. cbn [fst snd]. rewrite Nat.eqb_refl. destruct C as [->|C]; [reflexivity|]. destruct r; [congruence| |]; cbn; apply orb_true_r.
    + destruct X as (_ & _ & r & B). apply existsb_exists. exists (j, r). split; [exact B|apply Nat.eqb_refl].
  - destruct (step s e); [now apply IH|exact I].
Qed.

(** Two jobs: one raced and won remotely after the local run was cancelled, one raced and won locally; and a third retried. *)
Definition busy_day : list event :=
  [EAdd; EAdd; EAdd; ETake 0; ETake 1; EFirst 0 None; EFirst 1 None; EConnect 5; EConnect 6; ERequest 5 0; ERequest 6 1; ESent 5 0; ESent 6 1;
   ERace 0; ERace 1; EResult 5 0 true false; EReturn 5 0; EFinish 0 RFailed; EWait 5 0; EProcess 5 0 true; EFinish 1 ROk; ESwap; EFinalize; EFinalize;
   EResult 6 1 true false; EReturn 6 1; ETake 2; EFirst 2 None; ERequest 5 2; ESent 5 2; EResult 5 2 false true; EReturn 5 2; EProcess 5 2 true;
   ERequest 5 2; ERequest 6 2; ESent 6 2; EDisconnect 6; EDrop 6 2; EClosed 6; ETakeOwn 2; EFinish 2 ROk; ESwap; EFinalize].
Example C10_case : timely init busy_day /\ exists s, run init busy_day = Some s /\ quiet s /\ next s = 3 /\
  log s = [LFreed 2; LFinal 2 ROk; LAttempt 6 2; LRetry 2; LSys 5 2; LAttempt 5 2; LFreed 1; LFinal 1 ROk; LFreed 0; LFinal 0 ROk; LAttempt 6 1; LAttempt 5 0].
Proof.
  split.
  - apply punctual_timely. vm_compute. reflexivity.
  - eexists. split; [vm_compute; reflexivity|]. vm_compute. repeat split.
Qed.

(** * C37 *)
(** A job has at most three system errors and is put back for another worker at most twice; the errors are on different workers. *)
Theorem C37_bounded : forall es s j, run init es = Some s ->
  errors j (log s) <= 3 /\ retries j (log s) <= 2 /\ NoDup (error_workers j (log s)).
Proof.
  intros es s j R. assert (I := reached _ _ R). assert (D := run_denied es init s (init_inv false) init_denied R).
  assert (G := proj1 I j). remember (view_of s j) as v eqn:EV. unfold view_of in EV.
  destruct G; injection EV as E1 E2 E3 E4 E5 E6 E7 E8 E9 E10 E11; rewrite <- ?E10, <- ?E11; (split; [lia|split; [lia|apply D]]).
Qed.
Print Assumptions C37_bounded.

(** A worker that returned a system error is not given any job again. *)
Theorem C37_worker_avoided : forall es s later w j earlier j', run init es = Some s -> log s = later ++ LSys w j :: earlier -> ~ In (LAttempt w j') later.
Proof. intros es s later w j earlier j' R L. destruct (run_denied es init s (init_inv false) init_denied R) as (_ & B & _). now apply (B later w j earlier). Qed.
Print Assumptions C37_worker_avoided.

(** A result that came back from a worker: the job is done with success just if the worker reported success and its results could be
    written; with any other report that is not tried again it is done and failed. *)
Theorem C10_remote_result : forall es s w j ok sys n disk, run init es = Some s -> In (w, j, Owned ok sys n) (hold s) ->
  (ok = false -> sys = false \/ (3 <= n)%N) ->
  exists s', step s (EProcess w j disk) = Some s' /\ holds j (hold s') = [] /\
    ends j (done s' ++ done2 s') = [if ok && disk then ROk else RFailed].
Proof.
  intros es s w j ok sys n disk R IN Hf. assert (I := reached _ _ R). cbn [step].
  destruct (pull _ (hold s)) as [[[[w' j'] h] rest]|] eqn:P.
  2: { exfalso. apply (pull_some (fun x => is_hold w j x && match snd x with Owned _ _ _ => true | _ => false end) _ _ IN); [|exact P]. unfold is_hold. cbn. now rewrite !Nat.eqb_refl. }
  pulled P L. destruct Q as [[-> ->] Q]. destruct h as [| | | |ok' sys' n']; try discriminate.
  open I j G. apply in_holds in IN. rewrite L, holds_app, holds_cons in G, IN.
  assert (PR : process_result j ok sys n disk (set_hold (a ++ b) s) = finished_remote j (if ok && disk then ROk else RFailed) (set_hold (a ++ b) s)).
  { unfold process_result. destruct ok; [reflexivity|]. replace (sys && (n <? attempt_count)%N) with false; [reflexivity|].
    destruct (Hf eq_refl) as [->|Hn]; [reflexivity|]. symmetry. apply andb_false_iff. right. apply N.ltb_ge. exact Hn. }
  unfold finished_remote in PR.
  cases G; hp; repeat match goal with H : holds j _ = [] |- _ => rewrite H in IN end; cbn [app In] in IN; destruct IN as [IN|[]]; inversion IN; subst; try discriminate; rewrite PR; clear PR; unfold set_ds; fields; hp;
    rewrite mem_true by assumption; (eexists; split; [reflexivity|]); fields; rewrite holds_app, !ends_app, ends_cons; rw; now split.
Qed.
Print Assumptions C10_remote_result.
Example C10_remote_result_case : exists s, run init [EAdd; ETake 0; EFirst 0 None; EConnect 5; ERequest 5 0; ESent 5 0; EResult 5 0 true false; EReturn 5 0] = Some s /\
  In (5, 0, Owned true false 0%N) (hold s).
Proof. eexists. split; [vm_compute; reflexivity|]. vm_compute. auto. Qed.

(** A job returned with a system error is put back, and remains to be done, if it was the first or second; otherwise it is done, and failed. *)
Theorem C37_retry_or_fail : forall es s w j n disk, run init es = Some s -> In (w, j, Owned false true n) (hold s) ->
  exists s', step s (EProcess w j disk) = Some s' /\ holds j (hold s') = [] /\
    (errors j (log s) < 3 -> In j (avail s') /\ retries j (log s') = S (retries j (log s)) /\ ends j (done s' ++ done2 s') = []) /\
    (~ errors j (log s) < 3 -> ~ In j (avail s') /\ ends j (done s' ++ done2 s') = [RFailed] /\ retries j (log s') = retries j (log s)).
Proof.
  intros es s w j n disk R IN. assert (I := reached _ _ R). cbn [step].
  destruct (pull _ (hold s)) as [[[[w' j'] h] rest]|] eqn:P.
  2: { exfalso. apply (pull_some (fun x => is_hold w j x && match snd x with Owned _ _ _ => true | _ => false end) _ _ IN); [|exact P]. unfold is_hold. cbn. now rewrite !Nat.eqb_refl. }
  pulled P L. destruct Q as [[-> ->] Q]. destruct h as [| | | |ok sys n']; try discriminate.
  open I j G. apply in_holds in IN. rewrite L, holds_app, holds_cons in G, IN.
  unfold process_result, finished_remote, return_unfinished. fields.
  cases G; hp; repeat match goal with H : holds j _ = [] |- _ => rewrite H in IN end; cbn [app In] in IN; destruct IN as [IN|[]]; inversion IN; subst; try discriminate.
  cbn [andb]. destruct (N.ltb_spec (N.of_nat (errors j (log s))) attempt_count) as [LT|LT]; unfold attempt_count in LT.
  - unfold set_ds. fields. hp. eexists. split; [reflexivity|]. fields. rewrite holds_app, ends_app. rw. split; [reflexivity|split].
    + intros _. split; [apply in_or_app; right; now left|]. split; [|reflexivity]. rewrite retries_cons. cbn [count_of snd]. now rewrite Nat.eqb_refl.
    + lia.
  - rewrite mem_true by assumption. eexists. split; [reflexivity|]. fields. rewrite holds_app, !ends_app, ends_cons. rw. split; [reflexivity|split; [lia|]].
    intros _. split; [|now split]. rewrite <- mem_in. rewrite (proj2 (mem_cnt_false j (avail s))); [discriminate|now symmetry].
Qed.
Print Assumptions C37_retry_or_fail.

Example C37_case : exists s, run init ([EAdd; ETake 0; EFirst 0 None] ++ flat_map (fun w => [EConnect w; ERequest w 0; ESent w 0; EResult w 0 false true; EReturn w 0; EProcess w 0 true]) [1; 2; 3; 4] ++ [ESwap; EFinalize]) = Some s /\
  log s = [LFreed 0; LFinal 0 RFailed; LSys 3 0; LAttempt 3 0; LRetry 0; LSys 2 0; LAttempt 2 0; LRetry 0; LSys 1 0; LAttempt 1 0].
Proof. eexists. split; [vm_compute; reflexivity|vm_compute; reflexivity]. Qed.
