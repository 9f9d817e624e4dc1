(** C98: the pool of threads. *)
From Coq Require Import List Arith Bool Lia Permutation.
From Verif Require Import M_TPool S_TPool P_TPool P_TPool2.
Import ListNotations.

Section C98.
(** [n] threads; [max]: the semaphore has a maximum, as on Windows. *)
Context (n : nat) (max : bool) (N : 1 <= n).

(** Jobs begin in the order in which they were added, each once. *)
Theorem C98_order es p l : history n max es = Some (p, l) -> exists rest, submitted l = map snd (began l) ++ rest.
Proof. intros H. destruct (history_ok n max N es p l H) as (_&V). exists (queue p). apply (s_queue p l V). Qed.

(** A job that has begun has ended on the same thread or is the one that its thread runs now; at most [n] run at once. *)
Theorem C98_once es p l : history n max es = Some (p, l) -> exists now, Permutation (began l) (ended l ++ now) /\ NoDup (map fst now) /\ length now <= n.
Proof.
  intros H. destruct (history_ok n max N es p l H) as (I&V). exists (running 0 (threads p)). split; [apply (s_run p l V)|]. split; [apply running_nodup|].
  rewrite running_length. pose proof (cnt_le (fun c => match job_of c with Some _ => true | None => false end) (threads p)). pose proof (i_len n p I). lia.
Qed.

(** No job waits while a thread has nothing to do: once nothing happens but that jobs end, either none waits or [n] are run. *)
Theorem C98_busy es p l : history n max es = Some (p, l) -> ~ In Destroyed l ->
  (forall e q l', internal e -> history n max (es ++ [e]) = Some (q, l') -> ends_job l l') ->
  submitted l = map snd (began l) \/ length (began l) = length (ended l) + n.
Proof.
  intros H ND Q. destruct (history_ok n max N es p l H) as (I&V).
  assert (P : ph p = Open) by (destruct (ph p) eqn:P; [easy| |]; exfalso; apply ND; apply (s_dest p l V); now rewrite P).
  destruct (quiet_open n max N p I) as [E|E]; [|exact P| |].
  - intros e q o J E. destruct (Q e q (l ++ o) J) as (t&j&F).
    + unfold history in *. rewrite run_app, H. cbn. rewrite E. now rewrite app_nil_r.
    + exists t, j. now apply app_inv_head in F.
  - left. rewrite (s_queue p l V), E. apply app_nil_r.
  - right. pose proof (Permutation_length (s_run p l V)) as L. rewrite app_length, running_length in L. unfold runs in E. lia.
Qed.

(** Without new jobs the pool comes to rest: the number of its steps is bounded. *)
Theorem C98_rests es p l : history n max es = Some (p, l) -> exists b, forall fs, Forall internal fs -> history n max (es ++ fs) <> None -> length fs <= b.
Proof.
  intros H. exists (left n p). intros fs F R. unfold history in *. rewrite run_app, H in R. destruct (run n max p fs) as [[q o]|] eqn:E; [|easy]. apply (left_run n max N fs p q o F) in E. lia.
Qed.
(** At rest, every job that was added has ended, unless the destructor was called; if it was, it has returned. *)
Theorem C98_rest es p l : history n max es = Some (p, l) -> (forall e, internal e -> history n max (es ++ [e]) = None) ->
  Permutation (began l) (ended l) /\ (In Destroyed l -> In Returned l) /\ (~ In Destroyed l -> submitted l = map snd (began l)).
Proof.
  intros H Q. destruct (history_ok n max N es p l H) as (I&V). destruct (stuck_ends n max N p I) as (R&K).
  - intros e J. specialize (Q e J). unfold history in *. rewrite run_app, H in Q. cbn in Q. destruct (step n max p e) as [[q o]|]; [discriminate|easy].
  - split; [|split].
    + pose proof (s_run p l V) as X. now rewrite R, app_nil_r in X.
    + intros D. apply (s_dest p l V) in D. apply (s_ret p l V). destruct (ph p); easy.
    + intros D. destruct (ph p) eqn:P; try (exfalso; apply D; apply (s_dest p l V); now rewrite P). rewrite (s_queue p l V), K. apply app_nil_r.
Qed.

(** When the destructor returns, no job is being run; and if none was waiting when it was called, all jobs have been run, also those that jobs have added since. *)
Theorem C98_returns es p l : history n max es = Some (p, l) -> In Returned l -> Permutation (began l) (ended l).
Proof.
  intros H R. destruct (history_ok n max N es p l H) as (I&V). apply (s_ret p l V) in R. destruct (closed_gone n p I R) as (E&_). pose proof (s_run p l V) as X. now rewrite E, app_nil_r in X.
Qed.
(** The full statement has no hypothesis on [l]; see below why it does not hold. *)
Theorem C98_all_run_partial es fs p l p' l' : history n max es = Some (p, l) -> submitted l = map snd (began l) -> history n max (es ++ Destroy :: fs) = Some (p', l') ->
  In Returned l' -> submitted l' = map snd (began l').
Proof.
  intros H S0 H' R. destruct (history_ok n max N _ _ _ H) as (I&V). destruct (history_ok n max N _ _ _ H') as (I'&V'). apply (s_ret p' l' V') in R. destruct (closed_gone n p' I' R) as (_&A).
  unfold history in *. rewrite run_app, H in H'. cbn [run] in H'. destruct (step n max p Destroy) as [[z o]|] eqn:E; [|discriminate]. destruct (run n max z fs) as [[y o']|] eqn:ER; [|discriminate]. injection H' as <- <-.
  pose proof (inv_step n max N p Destroy z o I E) as IZ.
  assert (Q : queue p = []). { pose proof (s_queue p l V) as X. rewrite S0 in X. rewrite <- (app_nil_r (map snd (began l))) in X at 1. now apply app_inv_head in X. }
  cbn in E. destruct (ph p); try discriminate. destruct (mid p); [|discriminate]. injection E as <- <-.
  destruct (awake_run n max N fs _ y o' IZ eq_refl (or_introl Q) ER) as [K|K]; [|lia]. rewrite (s_queue y _ V'), K. apply app_nil_r.
Qed.
End C98.

(** But a job that is added just before the destructor is called may never be run: a thread that has found the queue empty then sees that it is to leave. *)
Theorem C98_lost_refuted : exists es p l, history 1 false es = Some (p, l) /\ In Returned l /\ submitted l = [7] /\ began l = [].
Proof.
  exists [Step 0; Step 0; Enqueue 7; Notify; Destroy; Step 0; Step 0; Post; Return]. do 2 eexists. split; [vm_compute; reflexivity|]. cbn. auto 10.
Qed.
Theorem C98_lost_max_refuted : exists es p l, history 2 true es = Some (p, l) /\ In Returned l /\ submitted l = [7; 8] /\ began l = [].
Proof.
  exists [Step 0; Step 0; Step 0; Step 1; Enqueue 7; Enqueue 8; Notify; Notify; Destroy; Step 1; Step 0; Step 0; Post; Post; Return]. do 2 eexists. split; [vm_compute; reflexivity|]. cbn. auto 10.
Qed.

(** Two threads run three jobs, one of which adds a job; then the pool is destroyed. *)
Example C98_case : exists p, history 2 true
  [Enqueue 1; Step 0; Step 0; Enqueue 2; Step 0; Notify; Step 1; Submit 0 3; Notify; Step 0; Step 1; Step 1; Step 0; Step 0; Destroy; Step 1; Step 1; Step 1; Post; Step 0; Post; Step 0; Return] =
  Some (p, [Submitted 1; Submitted 2; Began 0 1; Began 1 2; Submitted 3; Ended 1 2; Began 1 3; Ended 0 1; Destroyed; Ended 1 3; Returned]).
Proof. eexists. vm_compute. reflexivity. Qed.

Print Assumptions C98_order. Print Assumptions C98_once. Print Assumptions C98_busy. Print Assumptions C98_rests. Print Assumptions C98_rest. Print Assumptions C98_returns. Print Assumptions C98_all_run_partial.
Print Assumptions C98_lost_refuted. Print Assumptions C98_lost_max_refuted. Print Assumptions C98_case.
