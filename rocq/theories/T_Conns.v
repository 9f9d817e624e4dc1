(** Properties C87 and C88: connections to workers, and workers in the
    profile. *)

From Coq Require Import String List Bool Arith ZArith Lia.
From Verif Require Import M_Path M_Conns S_Conns P_Conns P_Conns2 P_Conns3 P_Conns4.
Import ListNotations.
Local Open Scope list_scope.

Lemma init_inv : forall limit l first t, l = [] \/ first < List.length l ->
  inv limit (List.length l) (start l first t).
Proof. intros. now apply inv_start. Qed.

Lemma init_fresh : forall l first t w x, nth_error (pool (start l first t)) w = Some x ->
  denied x = false /\ since x = (now (start l first t) - delay)%Z.
Proof.
  intros l first t w x N. cbn [pool now start] in *. unfold found in N. rewrite nth_error_map in N.
  destruct (nth_error l w); cbn in N; [|discriminate]. injection N as <-. auto.
Qed.

Lemma pool_start : forall l first t, List.length (pool (start l first t)) = List.length l.
Proof. intros. cbn [pool start]. apply map_length. Qed.

Section C87.
Variables (limit : nat) (l : list str) (first : nat) (t0 : Z).
Hypothesis first_ok : l = [] \/ first < List.length l.

(** No step reads outside the pool or the list of connections, and there are
    never more connections than the limit says or the pool has workers. *)
Theorem C87_limit : forall h,
  run limit h (start l first t0) <> Failed /\
  forall s, run limit h (start l first t0) = Next s ->
    List.length (conns s) <= limit /\ List.length (conns s) <= List.length l.
Proof.
  intros h. destruct (inv_run limit _ h _ (init_inv limit l first t0 first_ok)) as [F N]. split; auto.
  intros s R. specialize (N _ R). split; [apply (i_limit _ _ _ N)|].
  assert (INC : incl (connected s) (seq 0 (List.length l))).
  { intros v V. apply in_seq. pose proof (i_in _ _ _ N _ V). lia. }
  pose proof (NoDup_incl_length (i_nodup _ _ _ N) INC) as LE.
  rewrite seq_length in LE. unfold connected in LE. now rewrite map_length in LE.
Qed.

(** To one worker of the pool there is never more than one connection. *)
Theorem C87_once : forall h s, run limit h (start l first t0) = Next s ->
  NoDup (connected s) /\ forall w, In w (connected s) -> w < List.length l.
Proof.
  intros h s R. destruct (inv_run limit _ h _ (init_inv limit l first t0 first_ok)) as [_ N].
  specialize (N _ R). split; [apply (i_nodup _ _ _ N) | apply (i_in _ _ _ N)].
Qed.

(** A connection is opened only to a worker that is ready: not connected, never
    with a system error, and not refused within the last ten seconds. *)
Theorem C87_polite : forall h a s w, run limit h (start l first t0) = Next s ->
  In w (attempts limit [a] s) -> ready limit (start l first t0) h s w.
Proof.
  intros h a s w R A. set (s0 := start l first t0) in *.
  pose proof (init_inv limit l first t0 first_ok) as I0. fold s0 in I0.
  destruct (knows_run limit _ s0 I0 (init_fresh l first t0) _ _ R) as [I _].
  apply (ready_iff limit _ s0 I0 (init_fresh l first t0) _ _ w R).
  cbn [attempts] in A. destruct (step limit a s) as [t| |] eqn:E; try easy. rewrite app_nil_r in A.
  destruct (opened _ _ _ _ _ I E) as [(_ & Sk)|(k & -> & P & Lk & C & Sk & Nc & x & N & D & W)]; rewrite Sk in A; [easy|].
  destruct A as [<-|[]]. exists x. repeat split; auto.
  rewrite <- (i_use _ _ _ I _ _ N) in Nc. now destruct (in_use x).
Qed.

(** Each pass connects to every worker that is ready when it starts, or goes on
    until the limit is reached, whatever other threads do meanwhile. *)
Theorem C87_pass : forall h s h2 t w, run limit h (start l first t0) = Next s ->
  at_ s = Looking (List.length l) ->
  run limit h2 s = Next t -> within_pass limit h2 s -> at_ t = Outside ->
  ready limit (start l first t0) h s w ->
  In w (connected t) \/ limit <= List.length (conns t).
Proof.
  intros h s h2 t w R P R2 WP Pt RD. set (s0 := start l first t0) in *.
  pose proof (init_inv limit l first t0 first_ok) as I0. fold s0 in I0.
  destruct (knows_run limit _ s0 I0 (init_fresh l first t0) _ _ R) as [I _].
  apply (ready_iff limit _ s0 I0 (init_fresh l first t0) _ _ w R) in RD.
  eapply pass; eauto. right. split; [exact RD|].
  destruct (waits_free _ _ _ _ I RD) as [_ L]. destruct (i_next _ _ _ I) as [Z|Hp]; [lia|].
  now apply dist_lt.
Qed.

(** While a worker is ready and is not connected to, no other worker is
    connected to twice. *)
Theorem C87_fair : forall h s h2 t w, run limit h (start l first t0) = Next s ->
  run limit h2 s = Next t -> ready limit (start l first t0) h s w ->
  ~ In w (attempts limit h2 s) -> NoDup (attempts limit h2 s).
Proof.
  intros h s h2 t w R R2 RD NI. set (s0 := start l first t0) in *.
  pose proof (init_inv limit l first t0 first_ok) as I0. fold s0 in I0.
  destruct (knows_run limit _ s0 I0 (init_fresh l first t0) _ _ R) as [I _].
  apply (ready_iff limit _ s0 I0 (init_fresh l first t0) _ _ w R) in RD.
  now apply (fair limit (List.length l) w h2 s t).
Qed.

End C87.

(** An address that is twice in the list is two workers: there are two
    connections to it at once. *)
Theorem C87_same_address_refuted : forall limit a, 2 <= limit ->
  exists h s i j x y, run limit h (start [a; a] 0 0) = Next s /\ conns s = [(i, Up); (j, Up)] /\
    i <> j /\ nth_error (pool s) i = Some x /\ nth_error (pool s) j = Some y /\ address x = address y.
Proof.
  intros [|[|limit]] a Hl; [lia | lia |].
  exists [Own; Own; Own; Own; Accept 0; Accept 1]. do 5 eexists.
  split; [vm_compute; reflexivity|]. split; [reflexivity|]. split; [discriminate|]. cbn [pool]. repeat split; reflexivity.
Qed.

(** The pause of ten seconds is kept only after attempts that failed: a worker
    that closes the connection is connected to again with no time between. *)
Theorem C87_at_once_refuted : forall limit a, 1 <= limit ->
  exists h s, run limit h (start [a] 0 0) = Next s /\ attempts limit h (start [a] 0 0) = [0; 0] /\ elapsed h = 0%Z.
Proof.
  intros [|limit] a Hl; [lia|].
  exists [Own; Own; Own; Own; Accept 0; Lose 0; Own; Own; Own; Own]. eexists.
  split; [vm_compute; reflexivity|]. split; vm_compute; reflexivity.
Qed.

(** Three workers and a limit of two: the pass starts at the second, the first
    is left out; when the third refuses, the pass after that connects to the
    first; the third is tried again ten seconds after it refused. *)
Definition case_l : list str := [L "a"; L "b"; L "c"].
Definition case_h : list label :=
  [Own; Own; Own; Own; Own; Accept 0; Refuse 1; Tick 1; Own; Own; Own; Own].

Example C87_case :
  attempts 2 case_h (start case_l 1 0) = [1; 2] /\
  (exists s t, run 2 case_h (start case_l 1 0) = Next s /\ at_ s = Looking 3 /\
     ready 2 (start case_l 1 0) case_h s 0 /\ ~ ready 2 (start case_l 1 0) case_h s 2 /\
     run 2 [Own; Own] s = Next t /\ within_pass 2 [Own; Own] s /\ at_ t = Outside /\
     connected t = [1; 0]) /\
  attempts 2 (case_h ++ [Own; Own; Accept 1; Lose 1; Tick 9998; Own; Own; Own; Own; Own; Own; Own; Own])
     (start case_l 1 0) = [1; 2; 0; 0] /\
  attempts 2 (case_h ++ [Own; Own; Accept 1; Lose 1; Tick 9999; Own; Own; Own; Own; Own; Own; Own; Own])
     (start case_l 1 0) = [1; 2; 0; 2].
Proof.
  split; [vm_compute; reflexivity|]. split; [|split; vm_compute; reflexivity].
  set (s := match run 2 case_h (start case_l 1 0) with Next s => s | _ => start case_l 1 0 end).
  assert (R : run 2 case_h (start case_l 1 0) = Next s) by (vm_compute; reflexivity).
  exists s. eexists. split; [exact R|]. split; [vm_compute; reflexivity|].
  assert (F : case_l = [] \/ 1 < List.length case_l) by (right; vm_compute; lia).
  pose proof (fun w => ready_iff 2 _ _ (init_inv 2 case_l 1 0 F) (init_fresh case_l 1 0) case_h s w R) as RI.
  split.
  { apply RI. vm_compute. eexists. split; [reflexivity|]. repeat split; discriminate. }
  split.
  { rewrite RI. intros (x & N & _ & _ & T). vm_compute in N. injection N as <-. vm_compute in T. now apply T. }
  split; [vm_compute; reflexivity|]. split.
  - clear R RI. intros h1 h2 u E Ne R. destruct h1 as [|a [|b [|c h1]]]; cbn [app] in E.
    + vm_compute in R. injection R as <-. cbn [at_]. eauto.
    + injection E as <- _. vm_compute in R. injection R as <-. cbn [at_]. eauto.
    + injection E as _ _ <-. now elim Ne.
    + discriminate.
  - split; vm_compute; reflexivity.
Qed.

Print Assumptions C87_limit.
Print Assumptions C87_once.
Print Assumptions C87_polite.
Print Assumptions C87_pass.
Print Assumptions C87_fair.
Print Assumptions C87_same_address_refuted.
Print Assumptions C87_at_once_refuted.

(** * The profile *)

(** Each remote job is in the profile once, in the order in which the results
    came, with its thread, and there is a heading for that thread. *)
Theorem C88_jobs : forall ids l rs,
  events (profile_of ids l rs) = map (fun r => (ids (by_worker r), on_thread r, of_target r)) rs /\
  forall r, In r rs -> exists name m,
    nth_error (infos (profile_of ids l rs)) (ids (by_worker r)) = Some (name, m) /\ on_thread r <= m.
Proof.
  intros ids l rs. split; [apply events_all|]. intros r R. apply (threads ids l rs _ _ (of_target r)).
  rewrite events_all. apply in_map_iff. eauto.
Qed.

(** With the numbers the client gives to workers, all jobs of a build are shown
    as those of the worker whose result came first, so that with two workers
    some job is shown under another worker's name. *)
Theorem C88_worker_refuted : forall l r rs,
  heading (profile_of (unique_id l) l (r :: rs)) (List.length l) = Some (nth (by_worker r) l []) /\
  (forall i, i < List.length l -> heading (profile_of (unique_id l) l (r :: rs)) i = Some []) /\
  (forall q, In q rs -> nth (by_worker q) l [] <> nth (by_worker r) l [] ->
     heading (profile_of (unique_id l) l (r :: rs)) (unique_id l (by_worker q)) <> Some (nth (by_worker q) l [])).
Proof.
  intros l r rs. destruct (one_name (List.length l) l r rs) as (_ & H & B).
  change (fun _ : nat => List.length l) with (unique_id l) in *.
  repeat split; auto. intros q _ Ne. unfold unique_id at 2. rewrite H. congruence.
Qed.

(** Were each worker given a number of its own, a job would be shown under its
    worker's name, provided the workers turn up in the order of the numbers. *)
Theorem C88_numbers_partial : forall ids l rs,
  (forall v w, ids v = ids w -> v = w) -> in_order ids rs ->
  forall r, In r rs -> heading (profile_of ids l rs) (ids (by_worker r)) = Some (nth (by_worker r) l []).
Proof. intros ids l rs INJ O r R. now apply (named ids l rs INJ O). Qed.

(** That proviso is needed: a worker that turns up after one with a higher
    number has no name. *)
Theorem C88_order_refuted : forall l v w a b x y, w < v ->
  heading (profile_of (fun i => i) l [mkR v a x; mkR w b y]) w = Some [].
Proof.
  intros l v w a b x y Hw. unfold profile_of; cbn [fold_left]. unfold record_job; cbn [by_worker on_thread of_target].
  set (p := record_remote v (nth v l []) a x (mkP [] [])). unfold heading. rewrite nth_record, Nat.eqb_refl.
  assert (L1 : List.length (infos p) = S v).
  { unfold p, record_remote; cbn [infos List.length]. destruct (Nat.leb_spec 0 v); [|lia].
    now rewrite upd_length, set_size_length. }
  destruct (Nat.leb_spec (List.length (infos p)) w); [lia|]. cbn [option_map fst].
  assert (N : nth_error (infos p) w = Some ([], 0)).
  { unfold p. rewrite nth_record. destruct (Nat.eqb_spec w v); [lia|]. cbn [infos List.length].
    destruct (Nat.ltb_spec w 0); [lia|]. destruct (Nat.ltb_spec w v); [reflexivity | lia]. }
  now rewrite (nth_error_nth _ _ _ N).
Qed.

Example C88_case :
  profile_of (unique_id case_l) case_l [mkR 1 3 (L "x.o"); mkR 0 1 (L "y.o"); mkR 2 7 (L "z.o")] =
    mkP [([], 0); ([], 0); ([], 0); (L "b", 7)]
        [(3, 3, L "x.o"); (3, 1, L "y.o"); (3, 7, L "z.o")] /\
  in_order (fun i => i) [mkR 0 1 (L "x.o"); mkR 2 2 (L "y.o"); mkR 0 3 (L "z.o")].
Proof.
  split; [vm_compute; reflexivity|].
  intros a r b E. destruct a as [|q1 [|q2 [|q3 [|q4 a]]]]; cbn [app] in E; try discriminate.
  - right. intros q [].
  - injection E as <- <- _. right. intros q [<-|[]]. cbn. lia.
  - injection E as <- <- <- _. left. exists (mkR 0 1 (L "x.o")). split; [now left | reflexivity].
Qed.

Print Assumptions C88_jobs.
Print Assumptions C88_worker_refuted.
Print Assumptions C88_numbers_partial.
Print Assumptions C88_order_refuted.
