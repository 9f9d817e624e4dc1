(** C07: cyclic dependency detection.  C08: final status of a target. *)
From Coq Require Import List Arith Bool Lia Relations.
From Verif Require Import M_Build M_Cycle S_Cycle P_Cycle.
Import ListNotations.

(** C07.  On every finite graph the check (made when no job is outstanding) terminates, and answers
    true exactly when a cycle of unfinished targets can be reached. *)
Theorem C07_cycle_check_exact : forall g n root,
  bounded g n -> root < n ->
  exists b, check_cyclic (S n) g false root = Some b /\ (b = true <-> has_cycle g root).
Proof.
  intros g n root B R. unfold check_cyclic. destruct (c_done g root) eqn:D.
  - exists false. split; auto. split; [discriminate|]. intros [U _]. apply done_not in D. tauto.
  - pose proof (cyc_total n g B (S n) [] [] root R) as T.
    destruct (cyc (S n) g [] [] root) as [[b s]|] eqn:E.
    + exists b. split; auto. eapply cyc_exact; eauto.
    + exfalso. apply T; auto. pose proof (unseen_bound n []). lia.
Qed.
Print Assumptions C07_cycle_check_exact.

(** While any job is outstanding, or when the root is already finished, nothing is reported. *)
Theorem C07_no_report_while_busy : forall f g root jobs,
  jobs = true \/ ~ unfinished g root -> check_cyclic f g jobs root = Some false.
Proof.
  intros f g root jobs [->|H]; unfold check_cyclic.
  - destruct (c_done g root); auto.
  - apply done_not in H. now rewrite H.
Qed.
Print Assumptions C07_no_report_while_busy.

(** A larger recursion allowance never changes the answer. *)
Theorem C07_fuel_irrelevant : forall g n root f,
  bounded g n -> root < n -> S n <= f ->
  check_cyclic f g false root = check_cyclic (S n) g false root.
Proof.
  intros g n root f B R F. unfold check_cyclic. destruct (c_done g root) eqn:D; auto.
  pose proof (unseen_bound n []) as U.
  pose proof (cyc_total n g B (S n) [] [] root R ltac:(lia)) as T1.
  pose proof (cyc_total n g B f [] [] root R ltac:(lia)) as T2.
  destruct (cyc (S n) g [] [] root) as [[b s]|] eqn:E1; [|congruence].
  destruct (cyc f g [] [] root) as [[b' s']|] eqn:E2; [|congruence].
  pose proof (cyc_exact _ _ _ _ _ E1) as Q1. pose proof (cyc_exact _ _ _ _ _ E2) as Q2.
  cbn. f_equal. destruct b, b'; auto; exfalso.
  - assert (false = true) by tauto. discriminate.
  - assert (false = true) by tauto. discriminate.
Qed.
Print Assumptions C07_fuel_irrelevant.

(** A graph with a shared diamond 0->{1,2}->3 and a cycle 3->4->5->3 through dynamic dependencies. *)
Definition cyc_demo (st : nat -> nstate) : cgraph := mkC st
  (fun k => match k with 0 => [1] | _ => [] end)
  (fun k => match k with 0 => [2] | 1 => [3] | 2 => [3] | 3 => [4] | 4 => [5] | _ => [] end)
  (fun k => match k with 5 => [3] | _ => [] end).
Lemma cyc_demo_bounded st : bounded (cyc_demo st) 6.
Proof.
  intros a b [H|[H|H]]; cbn in H;
    repeat (destruct a as [|a]; cbn in H; try (destruct H as [<-|[]]; lia); try destruct H).
Qed.
Example C07_case :
  bounded (cyc_demo (fun _ => NotProcessed)) 6 /\
  check_cyclic 7 (cyc_demo (fun _ => NotProcessed)) false 0 = Some true /\
  (* the same shape with target 4 already built has no unfinished cycle *)
  check_cyclic 7 (cyc_demo (fun k => if k =? 4 then UpToDate else StaticDeps)) false 0 = Some false.
Proof. split; [apply cyc_demo_bounded|split; reflexivity]. Qed.
Example C07_case_meaning : has_cycle (cyc_demo (fun _ => NotProcessed)) 0.
Proof.
  destruct (C07_cycle_check_exact (cyc_demo (fun _ => NotProcessed)) 6 0) as (b&E&H);
    [apply cyc_demo_bounded|lia|]. vm_compute in E. injection E as <-. now apply H.
Qed.

(** C08.  On every finite graph, cyclic or not, the status of a target is decided exactly. *)
Theorem C08_final_status_exact : forall g n k,
  bounded g n ->
  exists s, final_status (S n) g k = Some s /\
    (s = SOk <-> c_st g k = UpToDate) /\
    (s = SFailed <-> c_st g k = Failed \/ (c_st g k <> UpToDate /\ reaches_failure g k)) /\
    (s = SIncomplete <-> c_st g k <> UpToDate /\ c_st g k <> Failed /\ ~ reaches_failure g k).
Proof.
  intros g n k B.
  assert (T : fail_node (S n) g [] k <> None).
  { apply (fail_total n g B). pose proof (unseen_bound n []). lia. }
  unfold final_status.
  destruct (fail_node (S n) g [] k) as [[b s]|] eqn:E; [|congruence].
  pose proof (fail_exact _ _ _ _ _ E) as X.
  destruct (c_st g k) eqn:Q;
    try (eexists; split; [reflexivity|]; repeat split; intuition congruence);
    destruct b; (eexists; split; [reflexivity|]); intuition congruence.
Qed.
Print Assumptions C08_final_status_exact.

Definition st_demo (k : nat) : nstate :=
  match k with 3 => Failed | 1 => UpToDate | _ => StaticDeps end.
Example C08_case :
  final_status 7 (cyc_demo st_demo) 0 = Some SFailed /\      (* through the unfinished target 2 *)
  final_status 7 (cyc_demo (fun k => if k =? 3 then Failed else UpToDate)) 0 = Some SOk /\
  final_status 7 (cyc_demo (fun _ => StaticDeps)) 0 = Some SIncomplete /\ (* cyclic, still terminates *)
  final_status 7 (cyc_demo (fun k => if k =? 0 then StaticDeps else if k =? 3 then Failed else UpToDate)) 0
    = Some SIncomplete.                                      (* the failure is behind finished targets *)
Proof. repeat split. Qed.
