(** C36: nobody waits in vain for a tool chain on a worker. *)
From Coq Require Import List Arith Bool Lia.
Import ListNotations.
From Verif Require Import M_Sync S_Sync P_Sync.

(** Whatever happens: a job is started only when every file of its tool chain is there. *)
Theorem C36_started_complete : forall es t j, In (t, j) (queued (run init es)) ->
  exists m, tools (run init es) t = Some m /\ files m <> [] /\ forall f, In f (files m) -> f = Synchronized.
Proof.
  intros es t j K. assert (V := safe_run es init safe_init). apply (s_queue _ V) in K as [m [E Sy]]. exists m. split; [exact E|]. exact (s_full _ V t m E Sy).
Qed.
Print Assumptions C36_started_complete.

(** A job sent on a connection that is not being lost is started at once or waits; a job that waits goes on waiting or is started, until its client is gone;
    a started job stays started. *)
Theorem C36_no_job_lost : forall s,
  (forall c t j, In c (clients s) -> stages s c = Idle ->
     In (c, t, j) (waiting (step s (WJob c t j))) \/ In (t, j) (queued (step s (WJob c t j)))) /\
  (forall e c t j, In (c, t, j) (waiting s) -> e <> WDropped c -> In (c, t, j) (waiting (step s e)) \/ In (t, j) (queued (step s e))) /\
  (forall e t j, In (t, j) (queued s) -> In (t, j) (queued (step s e))).
Proof.
  intros s. split; [|split].
  - intros c t j I S. cbn [step]. assert (Id : idle c s = true) by (unfold idle; rewrite S, (proj2 (mem_in _ _) I); reflexivity). rewrite Id.
    destruct (tools s t) as [m|]; [destruct (synced m)|].
    + right. now left.
    + left. cbn. apply in_or_app. right. now left.
    + left. cbn. apply in_or_app. right. now left.
  - intros e c t j K N. destruct (kept s e c t j K) as [H|[H|H]]; [now left|now right|contradiction].
  - intros e t j. apply queued_kept.
Qed.
Print Assumptions C36_no_job_lost.

(** If a job waits, something will still happen for its tool chain.  Proved when connections are lost only after the manifests they were
    asked for have arrived, and one at a time.  Missing: the two other cases, where it is false (below). *)
Theorem C36_moving_partial : forall es c t j, orderly init es -> In (c, t, j) (waiting (run init es)) -> moving t (run init es).
Proof.
  intros es c t j Or K. assert (V := inv_run es init Or inv_init). set (s := run init es) in *.
  assert (W : waits s t) by (exists c, j; exact K).
  destruct (i_tool _ _ V t) as [E' N|m1 E' Sy' Ha H|m1 o' E' Sy' Fe U' Li H|m1 o' E' Sy' U' Li Sg N1 N2|m1 o' E' Sy' U' Li N1 [n N2] H|m1 E' Sy' U' N1 N2 H].
  - contradiction.
  - destruct (H W) as [o [A B]]. exists o. auto.
  - exists o'. split; [apply Li|]. destruct H as [H|H]; [left; split; [exact Li|eauto]|auto].
  - exists o'. split; [apply Li|auto].
  - exists o'. split; [apply Li|]. destruct (H n N2) as [Q|Q]; [left; split; [exact Li|eauto]|auto].
  - destruct (H W) as [o [l [A [B D]]]]. exists o. split; [exact A|]. do 4 right. eauto.
Qed.
Print Assumptions C36_moving_partial.

(** So when everything asked for has been answered and every thread has come to rest, no job waits. *)
Theorem C36_at_rest_partial : forall es, orderly init es -> at_rest (run init es) -> waiting (run init es) = [].
Proof.
  intros es Or [R St]. destruct (waiting (run init es)) as [|[[c t] j] w] eqn:W; [reflexivity|]. exfalso.
  destruct (C36_moving_partial es c t j Or) as [o [I H]]; [rewrite W; now left|]. rewrite (St o I), R in H.
  destruct H as [[_ [r []]]|[H|[H|[H|[l [H _]]]]]]; discriminate.
Qed.
Print Assumptions C36_at_rest_partial.

(** The connection asked for the manifest is lost before it answers: another client's jobs wait although nothing is going on. *)
Definition lost_early : list event := [WConnect 0; WConnect 1; WJob 0 7 100; WJob 1 7 101; WDrop 0; WDropped 0].
Theorem C36_lost_before_manifest_refuted : exists es c t j,
  at_rest (run init es) /\ In c (clients (run init es)) /\ In (c, t, j) (waiting (run init es)).
Proof.
  exists lost_early, 1, 7, 101. split; [|vm_compute; auto]. split; [reflexivity|]. intros c [<-|[]]. reflexivity.
Qed.
Print Assumptions C36_lost_before_manifest_refuted.

(** Two connections are lost at the same time, after the manifest arrived: the files are asked for on a connection whose loss has
    already been dealt with.  The tool chain then belongs to a connection that is gone: jobs for it wait for ever, even those of new clients. *)
Definition two_lost : list event :=
  [WConnect 0; WConnect 1; WConnect 2; WJob 0 7 100; WManifest 0 7 [true; false]; WRequest 0; WJob 1 7 101; WJob 2 7 102;
   WDrop 0; WDrop 1; WDropped 0; WDropped 1].
Definition manifest_in_time (s : state) (e : event) : Prop :=
  match e with WDrop c => forall t m, tools s t = Some m -> synced m = false -> user m = Some c -> files m <> [] | _ => True end.
Fixpoint in_time (s : state) (es : list event) : Prop := match es with [] => True | e :: r => manifest_in_time s e /\ in_time (step s e) r end.

Lemma stuck_forever : forall es s, (exists o, tools s 7 = Some {| synced := false; files := [Synchronized; Synchronizing]; user := Some o |} /\ In o (used s) /\ ~ In o (clients s)) ->
  (forall c r, ~ In (c, 7, r) (reqs s)) -> (forall c, In c (clients s) -> stages s c <> Checking 7 /\ stages s c <> Requesting 7) ->
  let s' := run s es in
  exists o, tools s' 7 = Some {| synced := false; files := [Synchronized; Synchronizing]; user := Some o |} /\ In o (used s') /\ ~ In o (clients s').
Proof.
  induction es as [|e es IH]; intros s H R G; cbn [run]; [exact H|]. destruct H as [o [E [U N]]].
  assert (Rm : forall c t s0, tools s0 7 = Some {| synced := false; files := [Synchronized; Synchronizing]; user := Some o |} ->
    tools (request_missing c t s0) 7 = Some {| synced := false; files := [Synchronized; Synchronizing]; user := Some o |} /\
    ((forall c' r, ~ In (c', 7, r) (reqs s0)) -> forall c' r, ~ In (c', 7, r) (reqs (request_missing c t s0)))).
  { intros c t s0 E0. destruct (Nat.eq_dec t 7) as [->|D].
    - rewrite (request_missing_nothing c 7 s0 _ E0); [auto|]. cbn [files]. intros [[|[|[|n]]] K]; discriminate.
    - destruct (request_missing_other c t s0) as (_ & _ & _ & _ & _ & _ & Et & Er & _). rewrite Et by congruence. split; [exact E0|]. intros H c' r K. apply Er in K; [|congruence]. now apply H in K. }
  apply IH.
  - exists o. destruct e as [c|c t j|c t present|c t|c|c t i b|c|c|c]; cbn [step].
    + destruct (mem c (used s)) eqn:M; [auto|]. cbn. split; [exact E|]. split; [now right|]. intros K. apply in_app_or in K as [K|[<-|[]]]; [contradiction|]. apply mem_in in U. congruence.
    + destruct (idle c s); [|auto]. destruct (tools s t) as [m|] eqn:Et.
      * destruct (synced m) eqn:Sy; [auto|]. destruct (user m) as [u|] eqn:Um; [auto|]. cbn zeta. assert (D : t <> 7) by (intros ->; rewrite E in Et; injection Et as <-; discriminate).
        destruct (files m); cbn; [rewrite put_other by congruence; auto|].
        match goal with |- context [request_missing c t ?x] => destruct (Rm c t x) as [Q _]; [cbn; rewrite put_other by congruence; exact E|]; destruct (request_missing_other c t x) as (_ & Ec & Eu & _) end.
        rewrite Q, Ec, Eu. auto.
      * cbn. rewrite put_other by congruence. auto.
    + destruct (idle c s && asked c t RManifest s) eqn:H; [|auto]. apply andb_true_iff in H as [_ As]. apply asked_in in As. destruct (tools s t); [|auto]. destruct present; [auto|].
      cbn. rewrite put_other; [auto|]. intros <-. now apply R in As.
    + destruct (idle c s && asked c t RManifest s); auto.
    + destruct (mem c (clients s)); [|auto]. destruct (stages s c); auto. destruct (Rm c t s E) as [Q _]. destruct (request_missing_other c t s) as (_ & Ec & Eu & _). cbn. rewrite Q, Ec, Eu. auto.
    + destruct (idle c s && asked c t (RFile i) s) eqn:H; [|auto]. apply andb_true_iff in H as [_ As]. apply asked_in in As. cbn zeta. destruct b; [|auto]. cbn [tools answered set_reqs].
      destruct (tools s t); [|auto]. cbn. rewrite put_other; [auto|]. intros <-. now apply R in As.
    + destruct (mem c (clients s)); [|auto]. destruct (stages s c); auto.
    + destruct (mem c (clients s)) eqn:M; [|auto]. cbn [andb]. destruct (match stages s c with Idle | Doomed => true | _ => false end); [|auto]. cbn.
      assert (Ow : owns c s 7 = false). { unfold owns. rewrite E. cbn. apply Nat.eqb_neq. intros ->. apply mem_in in M. contradiction. }
      rewrite Ow. auto.
    + destruct (mem c (clients s)); [|auto]. destruct (stages s c) as [| | | |l]; auto. cbn zeta.
      assert (F : forall asks s0, tools s0 7 = Some {| synced := false; files := [Synchronized; Synchronizing]; user := Some o |} -> In o (used s0) -> ~ In o (clients s0) ->
        let s1 := fold_left (fun s x => request_missing (fst x) (snd x) s) asks s0 in
        tools s1 7 = Some {| synced := false; files := [Synchronized; Synchronizing]; user := Some o |} /\ In o (used s1) /\ ~ In o (clients s1)).
      { induction asks as [|[c' t'] asks IHa]; intros s0 E0 U0 N0; cbn [fold_left fst snd]; [auto|]. destruct (request_missing_other c' t' s0) as (_ & Ec & Eu & _). apply IHa; [now apply Rm|now rewrite Eu|now rewrite Ec]. }
      apply F; [exact E|exact U|]. cbn. intros K. apply filter_In in K as [K _]. contradiction.
  - intros c' r. destruct e as [c|c t j|c t present|c t|c|c t i b|c|c|c]; cbn [step].
    + destruct (mem c (used s)); apply R.
    + destruct (idle c s); [|apply R]. destruct (tools s t) as [m|] eqn:Et.
      * destruct (synced m) eqn:Sy; [apply R|]. destruct (user m) as [u|] eqn:Um; [apply R|]. cbn zeta. assert (D : t <> 7) by (intros ->; rewrite E in Et; injection Et as <-; discriminate).
        destruct (files m); cbn.
        { intros K. apply in_app_or in K as [K|[K|[]]]; [now apply R in K|congruence]. }
        match goal with |- context [request_missing c t ?x] => destruct (Rm c t x) as [_ Q]; [cbn; rewrite put_other by congruence; exact E|] end. apply Q. exact R.
      * cbn. intros K. apply in_app_or in K as [K|[K|[]]]; [now apply R in K|]. injection K as _ -> _. congruence.
    + destruct (idle c s && asked c t RManifest s); [|apply R]. destruct (tools s t); [|apply R]. destruct present; [apply R|]. cbn. intros K. apply filter_In in K as [K _]. now apply R in K.
    + destruct (idle c s && asked c t RManifest s); [|apply R]. cbn. intros K. apply filter_In in K as [K _]. now apply R in K.
    + destruct (mem c (clients s)); [|apply R]. destruct (stages s c); try apply R. cbn. apply Rm; [exact E|exact R].
    + destruct (idle c s && asked c t (RFile i) s); [|apply R]. cbn zeta. destruct b; [cbn [tools answered set_reqs]; destruct (tools s t)|]; cbn; intros K; apply filter_In in K as [K _]; now apply R in K.
    + destruct (mem c (clients s)); [|apply R]. destruct (stages s c); apply R.
    + destruct (mem c (clients s)); [|apply R]. cbn [andb]. destruct (match stages s c with Idle | Doomed => true | _ => false end); [|apply R]. cbn. intros K. apply filter_In in K as [K _]. now apply R in K.
    + destruct (mem c (clients s)); [|apply R]. destruct (stages s c) as [| | | |l]; try apply R. cbn zeta.
      assert (F : forall asks s0, tools s0 7 = Some {| synced := false; files := [Synchronized; Synchronizing]; user := Some o |} -> (forall c' r, ~ In (c', 7, r) (reqs s0)) ->
        forall c' r, ~ In (c', 7, r) (reqs (fold_left (fun s x => request_missing (fst x) (snd x) s) asks s0))).
      { induction asks as [|[c1 t1] asks IHa]; intros s0 E0 R0; cbn [fold_left fst snd]; [exact R0|]. apply IHa; now apply Rm. }
      apply F; [exact E|]. intros c1 r1 K. cbn in K. apply filter_In in K as [K _]. now apply R in K.
  - intros c' I. destruct e as [c|c t j|c t present|c t|c|c t i b|c|c|c]; cbn [step] in *.
    + destruct (mem c (used s)); [auto|]. cbn in *. unfold put. destruct (Nat.eqb_spec c' c) as [->|D]; [split; discriminate|]. apply G. apply in_app_or in I as [I|[I|[]]]; [exact I|congruence].
    + destruct (idle c s); [|auto]. destruct (tools s t) as [m|] eqn:Et; [|now apply G]. destruct (synced m); [now apply G|]. cbn zeta in *. destruct (user m); [now apply G|].
      destruct (files m); [now apply G|]. cbn in *. match type of I with context [request_missing c t ?x] => destruct (request_missing_other c t x) as (_ & Ec & _ & Es & _) end. rewrite Ec in I. rewrite Es. now apply G.
    + destruct (idle c s && asked c t RManifest s) eqn:H; [|auto]. apply andb_true_iff in H as [_ As]. apply asked_in in As. destruct (tools s t); [|auto]. destruct present; [auto|].
      assert (t <> 7) by (intros ->; now apply R in As). cbn in *. unfold put. destruct (Nat.eqb_spec c' c) as [->|D]; [|now apply G].
      match goal with |- (if ?b then _ else _) <> _ /\ _ => destruct b end; split; congruence.
    + destruct (idle c s && asked c t RManifest s); [|auto]. cbn in *. unfold put. destruct (Nat.eqb_spec c' c) as [->|D]; [split; discriminate|now apply G].
    + destruct (mem c (clients s)); [|auto]. destruct (stages s c) as [|t|t| |l]; auto. destruct (request_missing_other c t s) as (_ & Ec & _ & Es & _). cbn in *. rewrite Ec in I. rewrite Es. unfold put.
      destruct (Nat.eqb_spec c' c) as [->|D]; [split; discriminate|now apply G].
    + destruct (idle c s && asked c t (RFile i) s) eqn:H; [|auto]. apply andb_true_iff in H as [_ As]. apply asked_in in As. assert (t <> 7) by (intros ->; now apply R in As). cbn zeta in *. destruct b.
      * cbn [tools answered set_reqs] in *. destruct (tools s t) as [m|]; [|now apply G]. cbn [stages clients set_stage set_tool answered set_reqs] in *. unfold put.
        destruct (Nat.eqb_spec c' c) as [->|D]; [|now apply G]. match goal with |- (if ?b then _ else _) <> _ /\ _ => destruct b end; split; congruence.
      * cbn in *. unfold put. destruct (Nat.eqb_spec c' c) as [->|D]; [split; discriminate|now apply G].
    + destruct (mem c (clients s)); [|auto]. destruct (stages s c) as [|t|t| |l]; auto. cbn in *. unfold put. destruct (Nat.eqb_spec c' c) as [->|D]; [split; discriminate|now apply G].
    + destruct (mem c (clients s)); [|auto]. cbn [andb] in *. destruct (match stages s c with Idle | Doomed => true | _ => false end); [|auto]. cbn in *. unfold put.
      destruct (Nat.eqb_spec c' c) as [->|D]; [split; discriminate|now apply G].
    + destruct (mem c (clients s)); [|auto]. destruct (stages s c) as [| | | |l]; auto. cbn zeta in *.
      assert (F : forall asks s0, let s1 := fold_left (fun s x => request_missing (fst x) (snd x) s) asks s0 in clients s1 = clients s0 /\ stages s1 = stages s0).
      { induction asks as [|[c1 t1] asks IHa]; intros s0; cbn [fold_left fst snd]; [auto|]. destruct (request_missing_other c1 t1 s0) as (_ & Ec & _ & Es & _). cbn zeta in *. destruct (IHa (request_missing c1 t1 s0)) as [-> ->]. auto. }
      match type of I with context [fold_left ?f ?a ?x] => destruct (F a x) as [F1 F2] end. cbn zeta in *. rewrite F1 in I. rewrite F2. cbn in *. apply filter_In in I as [I _]. unfold put.
      destruct (Nat.eqb_spec c' c) as [->|D]; [split; discriminate|now apply G].
Qed.

Ltac sevens t E := do 9 (destruct t as [|t]; [vm_compute in E; first [discriminate E|injection E as <-; discriminate]|]); vm_compute in E; discriminate E.

Theorem C36_two_lost_refuted : exists es t, in_time init es /\
  (exists c j, In c (clients (run init es)) /\ In (c, t, j) (waiting (run init es))) /\
  forall more, exists m, tools (run init (es ++ more)) t = Some m /\ synced m = false /\
    forall j, ~ In (t, j) (queued (run init (es ++ more))).
Proof.
  exists two_lost, 7. split.
  { unfold two_lost. cbn [in_time]. repeat split; intros t m E Sy U; sevens t E. }
  split; [exists 2, 102; vm_compute; auto|].
  intros more. assert (A : forall es s, run s (es ++ more) = run (run s es) more) by (induction es; intros; cbn; auto).
  rewrite A.
  destruct (stuck_forever more (run init two_lost)) as [o [E _]].
  - exists 1. vm_compute. split; [reflexivity|]. split; [auto|]. intros [K|[]]. discriminate.
  - vm_compute. intros c r K. exact K.
  - vm_compute. intros c [<-|[]]. split; discriminate.
  - eexists. split; [exact E|]. split; [reflexivity|]. intros j K. rewrite <- A in K, E. apply C36_started_complete in K as [m [E' [_ F]]]. rewrite E in E'. injection E' as <-.
    cbn [files] in F. specialize (F Synchronizing). cbn in F. assert (Synchronizing = Synchronized) by auto. discriminate.
Qed.
Print Assumptions C36_two_lost_refuted.

(** Three clients, two tool chains; the client that sends the files of the first is lost half way and another one goes on. *)
Definition good_day : list event :=
  [WConnect 0; WConnect 1; WConnect 2; WJob 0 7 100; WJob 2 7 101; WManifest 0 7 [true; false; false]; WRequest 0; WJob 1 7 102; WFile 0 7 1 true;
   WJob 1 8 103; WDrop 0; WManifest 1 8 [true]; WDropped 0; WCheck 1; WFile 1 7 2 true; WCheck 1; WJob 2 8 104].
Example C36_case : orderly init good_day /\ at_rest (run init good_day) /\ queued (run init good_day) = [(8, 104); (7, 101); (7, 102); (8, 103)].
Proof.
  split.
  { unfold good_day. cbn [orderly orderly_loss]. repeat (split; [first [exact I|idtac]|]); try exact I. 
    - intros t m E Sy U. sevens t E.
    - intros c l K. vm_compute in K. destruct K as [<-|[<-|[<-|[]]]]; vm_compute; discriminate. }
  split; [|vm_compute; reflexivity]. split; [vm_compute; reflexivity|]. intros c K. vm_compute in K. destruct K as [<-|[<-|[]]]; vm_compute; reflexivity.
Qed.
