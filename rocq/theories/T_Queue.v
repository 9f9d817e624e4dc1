(** C11: concurrency groups.  C12: the local work queue. *)
From Coq Require Import List Arith Bool NArith Lia Permutation.
From Verif Require Import M_Array M_Sort S_Sort P_Sort M_Queue S_Queue P_Queue.
Import ListNotations.

(** ** C12 *)

(** After every history from an empty queue: no memory error, the queue is sorted by cost, its counter is
    its size, and queued plus handed-out jobs are exactly the jobs added. *)
Theorem C12_sorted_and_lossless : forall ops, exists q out,
  q_run ops q_empty [] = Some (q, out) /\
  ordered cost_lt (q_jobs q) /\
  q_count q = (N.of_nat (length (q_jobs q)) mod 4294967296)%N /\
  Permutation (added ops) (q_jobs q ++ out).
Proof.
  intros ops. destruct (q_run_spec ops q_empty []) as (q&out&E&[I1 I2]&P).
  { split; reflexivity. }
  exists q, out. split; auto. split; [now apply ordered_asc|]. split; auto.
Qed.
Print Assumptions C12_sorted_and_lossless.

(** Taking from the queue reached by any history (of fewer than 2^32 queued jobs) answers "nothing" only
    if it is empty; otherwise the job handed out has maximal cost and exactly that job is removed. *)
Theorem C12_take_is_most_expensive : forall ops q out q' o,
  q_run ops q_empty [] = Some (q, out) -> remove_job q = (q', o) ->
  (N.of_nat (length (q_jobs q)) < 4294967296)%N ->
  match o with
  | None => q_jobs q = [] /\ q' = q
  | Some j => Permutation (q_jobs q) (j :: q_jobs q') /\ forall x, In x (q_jobs q) -> (j_cost x <= j_cost j)%N
  end.
Proof.
  intros ops q out q' o R T B. destruct (q_run_spec ops q_empty []) as (q2&out2&E&I&P).
  { split; reflexivity. }
  rewrite R in E. injection E as <- <-. destruct (remove_spec q q' o I T) as [_ H].
  destruct o; auto. destruct H as [-> H]. rewrite N.mod_small in H by auto.
  split; auto. destruct (q_jobs q); auto. cbn in H. lia.
Qed.
Print Assumptions C12_take_is_most_expensive.

Example C12_case :
  option_map (fun r => (map j_id (q_jobs (fst r)), q_count (fst r), map j_id (snd r)))
   (q_run [QAdd [mkJob 1 5; mkJob 2 9; mkJob 3 5]; QAdd [mkJob 4 7; mkJob 5 1]; QTake; QTake; QAdd [mkJob 6 8]; QTake]
        q_empty [])
  = Some ([5; 1; 3], 3%N, [6; 4; 2]).
Proof. vm_compute. reflexivity. Qed.

(** ** C11 *)

(** Every schedule: no memory error, and a limit below the number of local workers bounds all jobs of the group made available and not finalised, wherever they are. *)
Theorem C11_in_flight_within_limit : forall workers limits evs, good_limits limits ->
  exists s, g_run workers limits evs s_init = Some s /\
    forall g, (limits g < workers)%N -> (N.of_nat (in_flight s g) <= limits g)%N.
Proof.
  intros w lim evs GL. destruct (g_run_spec w lim GL evs s_init (g_init_inv w lim GL)) as (s&E&[(_&_&G3) _]&_).
  exists s. split; auto. intros g L. specialize (G3 g). unfold mx, max_jobs in G3.
  replace (w <=? lim g)%N with false in G3 by (symmetry; apply N.leb_gt; auto). exact G3.
Qed.
Print Assumptions C11_in_flight_within_limit.

(** Every schedule, every limit: the jobs of a group running on this machine never exceed its limit. *)
Theorem C11_local_within_limit : forall workers limits evs s g, good_limits limits ->
  g_run workers limits evs s_init = Some s -> (N.of_nat (running_here s g) <= limits g)%N.
Proof.
  intros w lim evs s g GL R.
  destruct (g_run_spec w lim GL evs s_init (g_init_inv w lim GL)) as (s'&E&[(_&_&G3) TH]&_).
  rewrite R in E. injection E as <-. specialize (G3 g). unfold mx, max_jobs in G3.
  assert (L1 : running_here s g <= cnt (s_fly s) g).
  { unfold running_here, cnt. clear. induction (s_fly s) as [|x l IH]; cbn; auto.
    destruct (on_thread x), (f_group x =? g); cbn; lia. }
  assert (L2 : running_here s g <= length (filter on_thread (s_fly s))).
  { unfold running_here. clear. induction (s_fly s) as [|x l IH]; cbn; auto.
    destruct (on_thread x), (f_group x =? g); cbn; lia. }
  specialize (GL g). unfold threads in TH. destruct (w <=? lim g)%N eqn:C; [apply N.leb_le in C|]; lia.
Qed.
Print Assumptions C11_local_within_limit.

(** Every schedule: each submitted job is in exactly one place: held back, in flight or finalised. *)
Theorem C11_held_back_jobs_are_kept : forall workers limits evs s, good_limits limits ->
  g_run workers limits evs s_init = Some s ->
  Permutation (submitted evs)
              (staged s ++ map (fun j => (f_id j, f_group j)) (s_fly s) ++ s_final s).
Proof.
  intros w lim evs s GL R.
  destruct (g_run_spec w lim GL evs s_init (g_init_inv w lim GL)) as (s'&E&_&P).
  rewrite R in E. injection E as <-. exact P.
Qed.
Print Assumptions C11_held_back_jobs_are_kept.

(** A flush holds nothing back needlessly: afterwards each group has nothing staged, or has as many jobs in
    flight as its limit. *)
Theorem C11_flush_is_maximal : forall workers limits evs s s' g st, good_limits limits ->
  g_run workers limits evs s_init = Some s -> g_step workers limits s GFlush = Some s' ->
  nth_error (s_groups s') g = Some st -> g_staging st <> [] ->
  (N.of_nat (in_flight s' g) >= limits g)%N.
Proof.
  intros w lim evs s s' g st GL R F G NE.
  destruct (g_run_spec w lim GL evs s_init (g_init_inv w lim GL)) as (s2&E&I&_).
  rewrite R in E. injection E as <-.
  destruct (g_step_spec w lim GL s GFlush I) as (s3&E3&[(G1&_&G3) _]&_). rewrite F in E3. injection E3 as <-.
  cbn [g_step] in F. destruct (flush_groups w lim 0 (s_groups s)) as [gs fl] eqn:FG. injection F as <-.
  destruct I as [(A1&A2&A3) _]. destruct (flush_spec w lim GL (s_groups s) 0 gs fl) as (_&_&_&_&B5&_); auto.
  { intros k x Hk. cbn. rewrite (A1 _ _ Hk). apply A3. }
  destruct (B5 g st G) as [Q|Q]; [congruence|]. specialize (G1 g st G). cbn [s_fly] in G1.
  change (in_flight _ g) with (cnt (s_fly s ++ fl) g). rewrite <- G1, Q. cbn.
  unfold mx, max_jobs. specialize (GL g). destruct (w <=? lim g)%N; lia.
Qed.
Print Assumptions C11_flush_is_maximal.

(** Finding: when the limit is not below the number of local worker threads it is not applied to jobs built
    by remote workers.  One local thread, limit one: two jobs of the group build at the same time. *)
Theorem C11_remote_jobs_refuted : exists workers limits evs s g,
  good_limits limits /\ g_run workers limits evs s_init = Some s /\
  (N.of_nat (running_anywhere s g) > limits g)%N.
Proof.
  exists 1%N, (fun _ => 1%N), [GAdd 10 1; GAdd 11 1; GFlush; GMove 0 JLocal; GMove 0 JAvail; GMove 0 JRemote;
                               GMove 1 JLocal; GMove 1 JAvail; GMove 1 JRemote].
  eexists. exists 1. split; [intros g; unfold eUnlimited; lia|]. split; [vm_compute; reflexivity|]. reflexivity.
Qed.
Print Assumptions C11_remote_jobs_refuted.

(** Four workers, limit two for group 1: two of three jobs are flushed, the third follows a completion. *)
Example C11_case :
  option_map (fun s => (map g_staging (s_groups s), map (fun j => (f_id j, f_phase j)) (s_fly s), s_final s))
   (g_run 4 (fun g => if g =? 0 then eUnlimited else 2%N)
      [GAdd 1 1; GAdd 2 1; GAdd 3 1; GAdd 4 0; GFlush; GMove 1 JLocal; GMove 1 JDone; GFlush; GFinal; GFlush] s_init)
  = Some ([[]; []], [(4, JQueued); (3, JQueued); (1, JQueued)], [(2, 1)]).
Proof. vm_compute. reflexivity. Qed.
