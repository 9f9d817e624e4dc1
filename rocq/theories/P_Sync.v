(** Proofs about the synchronisation of tool chains. *)
From Coq Require Import List Arith Bool Lia.
Import ListNotations.
From Verif Require Import M_Sync S_Sync.

Lemma mem_in : forall x l, mem x l = true <-> In x l.
Proof.
  intros x l. unfold mem. rewrite existsb_exists. split.
  - intros [y [H E]]. apply Nat.eqb_eq in E. now subst.
  - intros H. exists x. split; [exact H|apply Nat.eqb_refl].
Qed.

Lemma put_same : forall A k (v : A) f, put k v f k = v.
Proof. intros. unfold put. now rewrite Nat.eqb_refl. Qed.
Lemma put_other : forall A k (v : A) f i, i <> k -> put k v f i = f i.
Proof. intros. unfold put. destruct (Nat.eqb_spec i k); [contradiction|reflexivity]. Qed.

Lemma same_req_eq : forall c t r x, same_req c t r x = true <-> x = (c, t, r).
Proof.
  intros c t r [[c' t'] r']. unfold same_req. cbn [fst snd]. rewrite !andb_true_iff, !Nat.eqb_eq. split.
  - intros [[-> ->] H]. destruct r, r'; try discriminate; [reflexivity|]. apply Nat.eqb_eq in H. now subst.
  - intros E. injection E as -> -> ->. repeat split. destruct r; [reflexivity|apply Nat.eqb_refl].
Qed.
Lemma asked_in : forall c t r s, asked c t r s = true <-> In (c, t, r) (reqs s).
Proof.
  intros. unfold asked. rewrite existsb_exists. split.
  - intros [x [H E]]. apply same_req_eq in E. now subst.
  - intros H. exists (c, t, r). split; [exact H|]. now apply same_req_eq.
Qed.
Lemma answered_in : forall c t r s x, In x (reqs (answered c t r s)) <-> In x (reqs s) /\ x <> (c, t, r).
Proof.
  intros. unfold answered. cbn [reqs set_reqs]. rewrite filter_In, negb_true_iff. split; intros [H E]; (split; [exact H|]).
  - intros ->. assert (K : same_req c t r (c, t, r) = true) by now apply same_req_eq. congruence.
  - destruct (same_req c t r x) eqn:K; [|reflexivity]. apply same_req_eq in K. contradiction.
Qed.

(** The files not synchronized. *)
Lemma missing_in : forall l k i, In i (missing k l) <-> exists n, i = k + n /\ nth_error l n = Some NotSynchronized.
Proof.
  induction l as [|f l IH]; intros k i; cbn [missing].
  - split; [intros []|]. intros [[|n] [_ H]]; discriminate.
  - split.
    + intros H. destruct f; cbn [is_not] in H.
      * destruct H as [<-|H]; [exists 0; split; [lia|reflexivity]|]. apply IH in H as [n [-> H]]. exists (S n). split; [lia|exact H].
      * apply IH in H as [n [-> H]]. exists (S n). split; [lia|exact H].
      * apply IH in H as [n [-> H]]. exists (S n). split; [lia|exact H].
    + intros [[|n] [-> H]]; cbn [nth_error] in H.
      * injection H as ->. cbn [is_not]. left. lia.
      * assert (K : In (k + S n) (missing (S k) l)) by (apply IH; exists n; split; [lia|exact H]).
        destruct (is_not f); [now right|exact K].
Qed.
Lemma missing_nil : forall l, missing 0 l = [] -> forall n, nth_error l n <> Some NotSynchronized.
Proof.
  intros l H n K. assert (In n (missing 0 l)) by (apply missing_in; exists n; split; [lia|exact K]). rewrite H in *. contradiction.
Qed.

Lemma set_nth_error : forall l i x n, nth_error (set_nth i x l) n = if n =? i then (match nth_error l i with Some _ => Some x | None => None end) else nth_error l n.
Proof.
  induction l as [|y l IH]; intros [|i] x [|n]; cbn [set_nth nth_error Nat.eqb]; try reflexivity.
  - now destruct (n =? i).
  - apply IH.
Qed.

Lemma all_sync : forall l, forallb is_sync l = true <-> forall n f, nth_error l n = Some f -> f = Synchronized.
Proof.
  intros l. rewrite forallb_forall. split.
  - intros H n f K. apply nth_error_In, H in K. now destruct f.
  - intros H f K. apply In_nth_error in K as [n K]. now rewrite (H _ _ K).
Qed.
Lemma some_not_sync : forall l, forallb is_sync l = false -> exists n f, nth_error l n = Some f /\ f <> Synchronized.
Proof.
  induction l as [|f l IH]; intros H; [discriminate|]. cbn [forallb] in H. destruct f; cbn [is_sync andb] in H.
  - exists 0, NotSynchronized. split; [reflexivity|discriminate].
  - exists 0, Synchronizing. split; [reflexivity|discriminate].
  - destruct (IH H) as [n [f [K N]]]. exists (S n), f. now split.
Qed.

(** * The invariant *)
Definition has (fs : list fstate) (f : fstate) : Prop := exists n, nth_error fs n = Some f.
Lemma synced_has : forall l, forallb is_sync l = true -> ~ has l NotSynchronized.
Proof. intros l H [n K]. rewrite all_sync in H. apply H in K. discriminate. Qed.
Definition live (s : state) (o : nat) : Prop := In o (clients s) /\ forall l, stages s o <> Dropping l.
Definition waits (s : state) (t : nat) : Prop := exists c j, In (c, t, j) (waiting s).

Inductive tool_ok (pend : nat -> Prop) (s : state) (t : nat) : Prop :=
  | ok_absent : tools s t = None -> ~ waits s t -> tool_ok pend s t
  | ok_synced m : tools s t = Some m -> synced m = true -> ~ has (files m) NotSynchronized -> (waits s t -> exists c, In c (clients s) /\ stages s c = Checking t) -> tool_ok pend s t
  | ok_manifest m o : tools s t = Some m -> synced m = false -> files m = [] -> user m = Some o -> live s o ->
      In (o, t, RManifest) (reqs s) \/ stages s o = Doomed -> tool_ok pend s t
  | ok_arrived m o : tools s t = Some m -> synced m = false -> user m = Some o -> live s o -> stages s o = Requesting t ->
      ~ has (files m) Synchronizing -> has (files m) NotSynchronized -> tool_ok pend s t
  | ok_asking m o : tools s t = Some m -> synced m = false -> user m = Some o -> live s o ->
      ~ has (files m) NotSynchronized -> has (files m) Synchronizing ->
      (forall i, nth_error (files m) i = Some Synchronizing -> In (o, t, RFile i) (reqs s) \/ stages s o = Doomed) -> tool_ok pend s t
  | ok_idle m : tools s t = Some m -> synced m = false -> user m = None ->
      ~ has (files m) Synchronizing -> has (files m) NotSynchronized -> (waits s t -> pend t) -> tool_ok pend s t.

Definition dropping (s : state) (t : nat) : Prop := exists c l, In c (clients s) /\ stages s c = Dropping l /\ In t l.

(** Who was asked for what. *)
Definition req_ok (s : state) : Prop := forall c t r, In (c, t, r) (reqs s) ->
  live s c /\ exists m, tools s t = Some m /\ synced m = false /\ user m = Some c /\
    match r with RManifest => files m = [] | RFile i => nth_error (files m) i = Some Synchronizing end.
Definition stage_ok (s : state) : Prop := forall c, In c (clients s) ->
  match stages s c with
  | Checking t => exists m, tools s t = Some m /\ synced m = true
  | Requesting t => exists m, tools s t = Some m /\ synced m = false /\ user m = Some c /\ has (files m) NotSynchronized /\ ~ has (files m) Synchronizing
  | Dropping l => forall t, In t l -> (exists m, tools s t = Some m /\ files m <> []) /\ forall o, In o (clients s) -> stages s o <> Requesting t
  | _ => True
  end.
Definition base_ok (s : state) : Prop :=
  (forall c, In c (clients s) -> In c (used s)) /\
  (forall c t j, In (c, t, j) (waiting s) -> In c (clients s)) /\
  (forall t, In t (ids s) <-> tools s t <> None) /\
  (forall c c' l l', In c (clients s) -> In c' (clients s) -> stages s c = Dropping l -> stages s c' = Dropping l' -> c = c').

Record inv (pend : nat -> Prop) (s : state) : Prop := {
  i_tool : forall t, tool_ok pend s t;
  i_req : req_ok s;
  i_stage : stage_ok s;
  i_base : base_ok s }.

Lemma tool_mono : forall (p q : nat -> Prop) s t, (p t -> q t) -> tool_ok p s t -> tool_ok q s t.
Proof. intros p q s t H T. destruct T; [eapply ok_absent|eapply ok_synced|eapply ok_manifest|eapply ok_arrived|eapply ok_asking|eapply ok_idle]; eauto. Qed.

Lemma owns_spec : forall c s t, owns c s t = true <-> exists m, tools s t = Some m /\ synced m = false /\ user m = Some c.
Proof.
  intros c s t. unfold owns. destruct (tools s t) as [m|].
  - rewrite andb_true_iff, negb_true_iff. split.
    + intros [A B]. exists m. destruct (user m) as [o|]; [|discriminate]. apply Nat.eqb_eq in B. now subst.
    + intros [m' [E [A B]]]. injection E as <-. rewrite B. split; [exact A|apply Nat.eqb_refl].
  - split; [discriminate|]. intros [m [E _]]. discriminate.
Qed.

(** Another view of the same tool: nothing that matters to it has changed. *)
Lemma tool_frame : forall (p q : nat -> Prop) s s' t,
  tools s' t = tools s t ->
  (waits s' t -> waits s t) ->
  (waits s' t -> p t -> q t) ->
  (forall o, In o (clients s) -> ((stages s o = Doomed /\ owns o s t = true) \/ stages s o = Checking t \/ stages s o = Requesting t) -> In o (clients s') /\ stages s' o = stages s o) ->
  (forall m o, tools s t = Some m -> synced m = false -> user m = Some o -> live s o -> live s' o) ->
  (forall o r, In (o, t, r) (reqs s) -> In (o, t, r) (reqs s')) ->
  tool_ok p s t -> tool_ok q s' t.
Proof.
  intros p q s s' t Et W PQ Ec El Er T. destruct T as [E N|m E Sy Ha H|m o E Sy Fe U Li H|m o E Sy U Li St N1 N2|m o E Sy U Li N1 N2 H|m E Sy U N1 N2 H]; rewrite <- Et in E.
  - apply ok_absent; auto.
  - apply (ok_synced q s' t m); auto. intros K. destruct (H (W K)) as [c [I S]]. exists c. destruct (Ec c I) as [A B]; [auto|]. split; [exact A|congruence].
  - rewrite Et in E. apply (ok_manifest q s' t m o); eauto; [congruence|]. destruct H as [K|K]; [left; auto|right]. destruct (Ec o (proj1 Li)) as [A B]; [left; split; [exact K|apply owns_spec; eauto]|]. congruence.
  - rewrite Et in E. apply (ok_arrived q s' t m o); eauto; [congruence|]. destruct (Ec o (proj1 Li)) as [A B]; [auto|]. congruence.
  - rewrite Et in E. apply (ok_asking q s' t m o); eauto; [congruence|]. intros i K. destruct (H i K) as [Q|Q]; [left; auto|right]. destruct (Ec o (proj1 Li)) as [A B]; [left; split; [exact Q|apply owns_spec; eauto]|]. congruence.
  - apply (ok_idle q s' t m); auto.
Qed.

(** * Asking for the missing files *)
Lemma request_missing_other : forall c t s, let s' := request_missing c t s in
  ids s' = ids s /\ clients s' = clients s /\ used s' = used s /\ stages s' = stages s /\ waiting s' = waiting s /\ queued s' = queued s /\
  (forall t', t' <> t -> tools s' t' = tools s t') /\
  (forall c' t' r, t' <> t -> In (c', t', r) (reqs s') <-> In (c', t', r) (reqs s)) /\
  (forall x, In x (reqs s) -> In x (reqs s')).
Proof.
  intros c t s. cbn. unfold request_missing. destruct (tools s t) as [m|] eqn:E.
  2:{ repeat split; auto. }
  destruct (missing 0 (files m)) as [|i l] eqn:M.
  { repeat split; auto. }
  cbn [ids clients used stages waiting queued tools reqs set_reqs set_tool]. repeat split; auto.
  - intros t' N. now apply put_other.
  - intros H1. apply in_app_or in H1 as [H1|H1]; [exact H1|]. apply in_map_iff in H1 as [x [Q _]]. injection Q as ? ?. congruence.
  - intros H1. apply in_or_app. now left.
  - intros x H. apply in_or_app. now left.
Qed.

Lemma request_missing_nothing : forall c t s m, tools s t = Some m -> ~ has (files m) NotSynchronized -> request_missing c t s = s.
Proof.
  intros c t s m E N. unfold request_missing. rewrite E. destruct (missing 0 (files m)) as [|i l] eqn:M; [reflexivity|].
  exfalso. apply N. assert (K : In i (missing 0 (files m))) by (rewrite M; now left). apply missing_in in K as [n [_ K]]. now exists n.
Qed.

Definition asked_files (fs : list fstate) : list fstate := map (fun f => if is_not f then Synchronizing else f) fs.
Lemma asked_files_nth : forall fs n, nth_error (asked_files fs) n = option_map (fun f => if is_not f then Synchronizing else f) (nth_error fs n).
Proof. intros. unfold asked_files. apply nth_error_map. Qed.

Lemma request_missing_some : forall c t s m, tools s t = Some m -> has (files m) NotSynchronized ->
  let s' := request_missing c t s in
  tools s' t = Some {| synced := synced m; files := asked_files (files m); user := Some c |} /\
  (forall c' r, In (c', t, r) (reqs s') <-> In (c', t, r) (reqs s) \/ (c' = c /\ exists i, r = RFile i /\ nth_error (files m) i = Some NotSynchronized)).
Proof.
  intros c t s m E N. cbn. unfold request_missing. rewrite E. destruct (missing 0 (files m)) as [|i l] eqn:M.
  { exfalso. destruct N as [n N]. eapply missing_nil; eauto. }
  rewrite <- M. cbn [tools reqs set_reqs set_tool]. split; [now rewrite put_same|]. intros c' r. rewrite in_app_iff, in_map_iff. split.
  - intros [H|[x [Q H]]]; [now left|]. injection Q as <- <-. right. split; [reflexivity|]. exists x. split; [reflexivity|]. apply missing_in in H as [n [-> H]]. exact H.
  - intros [H|[-> [n [-> H]]]]; [now left|right]. exists n. split; [reflexivity|]. apply missing_in. exists n. split; [lia|exact H].
Qed.

Lemma no_not : forall fs, ~ has (asked_files fs) NotSynchronized.
Proof. intros fs [n H]. rewrite asked_files_nth in H. destruct (nth_error fs n) as [[]|]; discriminate. Qed.
Lemma asked_has : forall fs, has fs NotSynchronized -> has (asked_files fs) Synchronizing.
Proof. intros fs [n H]. exists n. rewrite asked_files_nth, H. reflexivity. Qed.
Lemma has_nonempty : forall fs f, has fs f -> fs <> [].
Proof. intros fs f [n H] ->. destruct n; discriminate. Qed.

Lemma request_ok : forall p s c t m,
  (forall t', t' <> t -> tool_ok p s t') -> req_ok s -> stage_ok s -> base_ok s -> live s c ->
  tools s t = Some m -> synced m = false -> has (files m) NotSynchronized -> ~ has (files m) Synchronizing ->
  (forall o, In o (clients s) -> stages s o <> Requesting t) -> inv p (request_missing c t s).
Proof.
  intros p s c t m T R G B Lc E Sy N1 N2 NR.
  destruct (request_missing_other c t s) as (Ei & Ec & Eu & Es & Ew & Eq & Et & Er & Rm).
  destruct (request_missing_some c t s m E N1) as [Et1 Er1].
  assert (NQ : forall c' r, ~ In (c', t, r) (reqs s)).
  { intros c' r K. apply R in K as [_ [m' [E' [_ [_ K]]]]]. rewrite E in E'. injection E' as <-. destruct r as [|i].
    - destruct N1 as [n N1]. rewrite K in N1. now destruct n.
    - apply N2. now exists i. }
  set (s' := request_missing c t s) in *.
  assert (LL : forall o, live s' o <-> live s o) by (intros o; unfold live; now rewrite Ec, Es).
  constructor.
  - intros t'. destruct (Nat.eq_dec t' t) as [->|D].
    + apply (ok_asking p s' t _ c Et1); cbn [synced files user]; auto.
      * now apply LL.
      * apply no_not.
      * now apply asked_has.
      * intros i K. left. apply Er1. right. split; [reflexivity|]. exists i. split; [reflexivity|]. rewrite asked_files_nth in K.
        destruct (nth_error (files m) i) as [[]|] eqn:F; try discriminate; [reflexivity|]. exfalso. apply N2. now exists i.
    + eapply tool_frame; [..|exact (T t' D)]; auto.
      * intros W. unfold waits in *. now rewrite Ew in W.
      * intros o I _. rewrite Ec, Es. auto.
      * intros m' o _ _ _ L'. now apply LL.
  - intros c' t' r K. destruct (Nat.eq_dec t' t) as [->|D].
    + apply Er1 in K as [K|[-> [i [-> K]]]]; [now apply NQ in K|]. split; [now apply LL|]. eexists. split; [exact Et1|]. cbn [synced files user].
      repeat split; auto. rewrite asked_files_nth, K. reflexivity.
    + apply Er in K; [|exact D]. apply R in K as [L' K]. split; [now apply LL|]. now rewrite Et.
  - intros c' I. rewrite Ec in I. rewrite Es. specialize (G c' I). specialize (NR c' I). destruct (stages s c') as [|t'|t'| |l]; auto.
    + destruct (Nat.eq_dec t' t) as [->|D]; [|now rewrite Et]. destruct G as [m' [E' S']]. congruence.
    + destruct (Nat.eq_dec t' t) as [->|D]; [congruence|now rewrite Et].
    + intros t' J. destruct (G t' J) as [[m' [E' F']] Q]. split.
      * destruct (Nat.eq_dec t' t) as [->|D]; [|exists m'; now rewrite Et]. eexists. split; [exact Et1|]. cbn [files]. apply has_nonempty with Synchronizing. now apply asked_has.
      * intros o. rewrite Ec. apply Q.
  - destruct B as (B1 & B2 & B3 & B4). unfold base_ok. rewrite Ec, Eu, Ew, Ei, Es. repeat split; auto.
    + intros J. destruct (Nat.eq_dec t0 t) as [->|D]; [congruence|]. rewrite Et by exact D. now apply B3.
    + intros J. apply B3. destruct (Nat.eq_dec t0 t) as [->|D]; [congruence|]. rewrite Et in J by exact D. exact J.
Qed.

(** * The steps *)
Lemma mono : forall (p q : nat -> Prop) s, (forall t, p t -> q t) -> inv p s -> inv q s.
Proof. intros p q s H [T R G B]. constructor; auto. intros t. eapply tool_mono; [apply H|apply T]. Qed.

Lemma add_waiting : forall p s c t j m o, inv p s -> tools s t = Some m -> synced m = false -> user m = Some o -> In c (clients s) ->
  inv p (set_waiting (waiting s ++ [(c, t, j)]) s).
Proof.
  intros p s c t j m o [T R G B] E Sy U I. constructor.
  - intros t'. destruct (Nat.eq_dec t' t) as [->|D].
    + destruct (T t) as [E' N|m' E' Sy' Ha H|m' o' E' Sy' Fe U' Li H|m' o' E' Sy' U' Li St N1 N2|m' o' E' Sy' U' Li N1 N2 H|m' E' Sy' U' N1 N2 H]; rewrite E in E'; try discriminate; injection E' as <-; try congruence.
      * now apply (ok_manifest p _ t m o').
      * now apply (ok_arrived p _ t m o').
      * now apply (ok_asking p _ t m o').
    + eapply tool_frame; [..|exact (T t')]; auto.
      intros [c' [j' K]]. cbn [waiting set_waiting] in K. apply in_app_or in K as [K|[K|[]]]; [now exists c', j'|congruence].
  - exact R.
  - exact G.
  - destruct B as (B1 & B2 & B3 & B4). repeat split; auto; try (now apply B3).
    intros c' t' j' K. cbn [waiting set_waiting] in K. apply in_app_or in K as [K|[K|[]]]; [eauto|]. injection K as <- _ _. exact I.
Qed.

Lemma idle_spec : forall c s, idle c s = true -> In c (clients s) /\ stages s c = Idle.
Proof. intros c s H. unfold idle in H. apply andb_true_iff in H as [H K]. apply mem_in in H. split; [exact H|]. now destruct (stages s c). Qed.
Lemma idle_live : forall c s, In c (clients s) -> stages s c = Idle -> live s c.
Proof. intros c s I S. split; [exact I|]. intros l. congruence. Qed.

Lemma connect_ok : forall s c, inv (dropping s) s -> let s' := step s (WConnect c) in inv (dropping s') s'.
Proof.
  intros s c [T R G B]. cbn [step]. destruct (mem c (used s)) eqn:M; [now constructor|].
  assert (Nu : ~ In c (used s)) by (intros K; apply mem_in in K; congruence).
  destruct B as (B1 & B2 & B3 & B4). assert (Nc : ~ In c (clients s)) by auto.
  set (s' := set_stage c Idle _).
  assert (St : forall o, In o (clients s) -> stages s' o = stages s o).
  { intros o K. unfold s', set_stage, set_clients. cbn [stages]. apply put_other. congruence. }
  assert (Cl : forall o, In o (clients s) -> In o (clients s')) by (intros o K; cbn; apply in_or_app; now left).
  assert (Lv : forall o, live s o -> live s' o).
  { intros o [K L']. split; [auto|]. intros l. rewrite St by exact K. apply L'. }
  assert (In' : forall o, In o (clients s') -> In o (clients s) \/ (o = c /\ stages s' o = Idle)).
  { intros o K. cbn in K. apply in_app_or in K as [K|[<-|[]]]; [now left|right]. split; [reflexivity|]. unfold s'. cbn. apply put_same. }
  cbn. constructor.
  - intros t. eapply tool_frame; [..|exact (T t)]; auto.
    intros _ [c' [l [I [S J]]]]. exists c', l. rewrite St; auto.
  - intros c' t r K. apply R in K as [K H]. split; auto.
  - intros c' K. apply In' in K as [K|[-> ->]]; [|exact I]. rewrite St by exact K. specialize (G c' K). destruct (stages s c'); auto.
    intros t J. destruct (G t J) as [Q1 Q2]. split; [exact Q1|]. intros o Io. apply In' in Io as [Io|[-> ->]]; [|discriminate]. rewrite St by exact Io. auto.
  - repeat split.
    + intros o K. cbn in K |- *. apply in_app_or in K as [K|[<-|[]]]; auto.
    + intros o t j K. apply Cl. eapply B2. exact K.
    + apply B3.
    + apply B3.
    + intros o o' l l' K K' S S'. apply In' in K as [K|[-> K]]; [|congruence]. apply In' in K' as [K'|[-> K']]; [|congruence].
      rewrite St in S, S' by assumption. eauto.
Qed.

Lemma same_inv : forall p s s', ids s' = ids s -> tools s' = tools s -> clients s' = clients s -> used s' = used s -> stages s' = stages s ->
  waiting s' = waiting s -> reqs s' = reqs s -> inv p s -> inv p s'.
Proof.
  intros p [] [] E1 E2 E3 E4 E5 E6 E7 H. cbn in *. subst. destruct H as [T R G B]. constructor.
  - intros t. eapply tool_frame; [..|exact (T t)]; auto.
  - exact R.
  - exact G.
  - exact B.
Qed.

Lemma job_ok : forall s c t j, inv (dropping s) s -> let s' := step s (WJob c t j) in inv (dropping s') s'.
Proof.
  intros s c t j V. cbn [step]. destruct (idle c s) eqn:Id; [|exact V]. apply idle_spec in Id as [I S]. assert (Lc := idle_live c s I S).
  destruct (tools s t) as [m|] eqn:E.
  - destruct (synced m) eqn:Sy.
    { cbn. eapply mono; [|eapply same_inv; [..|exact V]; reflexivity]. auto. }
    destruct (user m) as [o|] eqn:U.
    { cbn. change (inv (dropping s) (set_waiting (waiting s ++ [(c, t, j)]) s)). eapply add_waiting; eauto. }
    cbn zeta. destruct V as [T R G B].
    destruct (T t) as [E' N|m' E' Sy' Ha H|m' o' E' Sy' Fe U' Li H|m' o' E' Sy' U' Li St N1 N2|m' o' E' Sy' U' Li N1 N2 H|m' E' Sy' U' N1 N2 H]; rewrite E in E'; try discriminate; injection E' as <-; try congruence.
    destruct (files m) as [|f fs] eqn:F; [exfalso; now apply has_nonempty in N2|]. rewrite <- F in *.
    set (s1 := set_tool t _ s).
    assert (V : inv (dropping s) (request_missing c t s1)).
    { apply (request_ok _ s1 c t {| synced := false; files := files m; user := Some c |}); auto.
      - intros t' D. eapply tool_frame; [..|exact (T t')]; auto. cbn. now apply put_other.
      - intros c' t' r K. destruct (R _ _ _ K) as [L' [m' [E' [S1 [U1 Q]]]]]. split; [exact L'|]. destruct (Nat.eq_dec t' t) as [->|D]; [congruence|].
        exists m'. cbn. rewrite put_other by exact D. auto.
      - intros c' K. specialize (G c' K). cbn. destruct (stages s c'); auto.
        + destruct (Nat.eq_dec t0 t) as [->|D]; [|now rewrite put_other]. destruct G as [m' [E' Q]]. congruence.
        + destruct (Nat.eq_dec t0 t) as [->|D]; [|now rewrite put_other]. destruct G as [m' [E' [_ [Q _]]]]. congruence.
        + intros t' J. destruct (G t' J) as [[m' [E' Q]] Q']. split; [|exact Q']. destruct (Nat.eq_dec t' t) as [->|D]; [|exists m'; now rewrite put_other].
          eexists. split; [apply put_same|]. cbn. congruence.
      - destruct B as (B1 & B2 & B3 & B4). repeat split; auto; cbn.
        + intros J. destruct (Nat.eq_dec t0 t) as [->|D]; [now rewrite put_same|]. rewrite put_other by exact D. now apply B3.
        + intros J. apply B3. destruct (Nat.eq_dec t0 t) as [->|D]; [congruence|]. rewrite put_other in J by exact D. exact J.
      - cbn. apply put_same.
      - intros o K Q. specialize (G o K). change (stages s1 o) with (stages s o) in Q; rewrite Q in G. destruct G as [m' [E' [_ [Q' _]]]]. congruence. }
    destruct (request_missing_other c t s1) as (Ei & Ec & Eu & Es & Ew & Eq & Et & Er & Rm).
    assert (E1 : tools s1 t = Some {| synced := false; files := files m; user := Some c |}) by (cbn; apply put_same).
    destruct (request_missing_some c t s1 _ E1 N2) as [E2 _].
    replace (waiting s) with (waiting (request_missing c t s1)) by exact Ew.
    eapply mono; [|eapply add_waiting; [exact V|exact E2|reflexivity..|]].
    + intros t' [c' [l K]]. exists c', l. cbn. rewrite Ec, Es. exact K.
    + rewrite Ec. exact I.
  - cbn zeta. set (s1 := set_tool t _ s). set (s2 := set_reqs _ _).
    destruct V as [T R G B].
    assert (V : inv (dropping s) s2).
    { constructor.
      - intros t'. destruct (Nat.eq_dec t' t) as [->|D].
        + apply (ok_manifest _ s2 t {| synced := false; files := []; user := Some c |} c); auto; [cbn; apply put_same|]. left. cbn. apply in_or_app. right. now left.
        + eapply tool_frame; [..|exact (T t')]; auto; [cbn; now apply put_other|]. intros o r K. cbn. apply in_or_app. now left.
      - intros c' t' r K. cbn in K. apply in_app_or in K as [K|[K|[]]].
        + destruct (R _ _ _ K) as [L' [m' [E' Q]]]. split; [exact L'|]. exists m'. cbn. rewrite put_other by congruence. auto.
        + injection K as <- <- <-. split; [exact Lc|]. eexists. split; [cbn; apply put_same|]. auto.
      - intros c' K. specialize (G c' K). cbn. destruct (stages s c'); auto.
        + destruct (Nat.eq_dec t0 t) as [->|D]; [|now rewrite put_other]. destruct G as [m' [E' Q]]. congruence.
        + destruct (Nat.eq_dec t0 t) as [->|D]; [|now rewrite put_other]. destruct G as [m' [E' [_ [Q _]]]]. congruence.
        + intros t' J. destruct (G t' J) as [[m' [E' Q]] Q']. split; [|exact Q']. destruct (Nat.eq_dec t' t) as [->|D]; [congruence|exists m'; now rewrite put_other].
      - destruct B as (B1 & B2 & B3 & B4). repeat split; auto; cbn.
        + intros J. apply in_app_or in J as [J|[->|[]]]; [|now rewrite put_same]. assert (t0 <> t) by (intros ->; now apply B3 in J). rewrite put_other by assumption. now apply B3.
        + intros J. apply in_or_app. destruct (Nat.eq_dec t0 t) as [->|D]; [right; now left|]. left. apply B3. rewrite put_other in J by exact D. exact J. }
    change (waiting s) with (waiting s2). change (dropping (set_waiting (waiting s2 ++ [(c, t, j)]) s2)) with (dropping s).
    eapply add_waiting; [exact V|cbn; apply put_same|reflexivity..|exact I].
Qed.

(** A message about the tool [t] from the connection [c]: the other tools and connections see nothing of it. *)
Section About.
Variables (s s' : state) (c t : nat) (g : stage) (m' : tool).
Hypothesis V : inv (dropping s) s.
Hypothesis I : In c (clients s).
Hypothesis S0 : forall l, stages s c <> Dropping l.
Hypothesis S1 : forall t', t' <> t -> stages s c <> Checking t' /\ stages s c <> Requesting t' /\ stages s c <> Doomed.
Hypothesis Ng : forall l, g <> Dropping l.
Hypothesis Ei : ids s' = ids s.
Hypothesis Ec : clients s' = clients s.
Hypothesis Eu : used s' = used s.
Hypothesis Eg : stages s' = put c g (stages s).
Hypothesis Et : tools s' = put t (Some m') (tools s).
Hypothesis Ex : tools s t <> None.

Lemma about_live : forall o, live s o -> live s' o.
Proof.
  intros o [K L']. split; [now rewrite Ec|]. intros l. rewrite Eg. destruct (Nat.eq_dec o c) as [->|D]; [rewrite put_same; auto|rewrite put_other by exact D; auto].
Qed.
Lemma about_dropping : forall t', dropping s t' -> dropping s' t'.
Proof.
  intros t' [c' [l [A [B D]]]]. exists c', l. rewrite Ec, Eg, put_other; auto. intros ->. now apply S0 in B.
Qed.
Lemma about_other : forall t', t' <> t -> (waits s' t' -> waits s t') -> (forall o r, In (o, t', r) (reqs s) -> In (o, t', r) (reqs s')) -> tool_ok (dropping s') s' t'.
Proof.
  intros t' D W Rq. eapply tool_frame; [..|exact (i_tool _ _ V t')].
  - rewrite Et. now apply put_other.
  - exact W.
  - intros _. apply about_dropping.
  - intros o K H. rewrite Ec, Eg. split; [exact K|]. apply put_other. intros ->. destruct (S1 t' D) as [A [B C]]. destruct H as [[H _]|[H|H]]; contradiction.
  - intros m o _ _ _. apply about_live.
  - exact Rq.
Qed.
Lemma about_base : (forall x, In x (waiting s') -> In x (waiting s)) -> base_ok s'.
Proof.
  intros W. destruct (i_base _ _ V) as (B1 & B2 & B3 & B4). unfold base_ok. rewrite Ei, Ec, Eu, Et, Eg. repeat split; auto.
  - intros c' t' j K. eapply B2. apply W. exact K.
  - intros K. destruct (Nat.eq_dec t0 t) as [->|D]; [now rewrite put_same|rewrite put_other by exact D; now apply B3].
  - intros K. apply B3. destruct (Nat.eq_dec t0 t) as [->|D]; [exact Ex|]. now rewrite put_other in K.
  - intros c1 c2 l l' I1 I2. destruct (Nat.eq_dec c1 c) as [->|D1]; [rewrite put_same; intros Q; now apply Ng in Q|].
    destruct (Nat.eq_dec c2 c) as [->|D2]; [rewrite put_same; intros _ Q; now apply Ng in Q|]. rewrite !put_other by assumption. eauto.
Qed.
Lemma about_stage :
  (forall o, In o (clients s) -> stages s o = Checking t -> o <> c -> synced m' = true) ->
  (forall o, In o (clients s) -> stages s o = Requesting t -> o <> c -> False) ->
  match g with
  | Checking t' => t' = t /\ synced m' = true
  | Requesting t' => t' = t /\ synced m' = false /\ user m' = Some c /\ has (files m') NotSynchronized /\ ~ has (files m') Synchronizing
  | _ => True
  end ->
  (forall o l, In o (clients s) -> stages s o = Dropping l -> In t l -> files m' <> [] /\ g <> Requesting t) ->
  stage_ok s'.
Proof.
  intros H1 H2 H3 H4 o K. rewrite Ec in K. rewrite Eg. destruct (Nat.eq_dec o c) as [->|D].
  - rewrite put_same. destruct g as [|t'|t'| |l]; auto.
    + destruct H3 as [-> H3]. exists m'. rewrite Et, put_same. auto.
    + destruct H3 as [-> H3]. exists m'. rewrite Et, put_same. auto.
    + exfalso. eapply Ng. reflexivity.
  - rewrite put_other by exact D. assert (G := i_stage _ _ V o K). specialize (H1 o K). specialize (H2 o K). specialize (fun l => H4 o l K). destruct (stages s o) as [|t'|t'| |l]; auto.
    + destruct (Nat.eq_dec t' t) as [->|Dt]; rewrite Et; [rewrite put_same; exists m'; auto|now rewrite put_other].
    + destruct (Nat.eq_dec t' t) as [->|Dt]; [exfalso; auto|]. rewrite Et. now rewrite put_other.
    + intros t' J. destruct (G t' J) as [Q1 Q2]. split.
      * destruct (Nat.eq_dec t' t) as [->|Dt]; rewrite Et; [rewrite put_same; exists m'; split; [reflexivity|]; now apply (H4 l)|now rewrite put_other].
      * intros o' K'. rewrite Ec in K'. destruct (Nat.eq_dec o' c) as [->|D']; [|rewrite put_other by exact D'; auto]. rewrite put_same. intros ->.
        destruct H3 as [-> _]. destruct (H4 l eq_refl J) as [_ Q]. contradiction.
Qed.
End About.

Lemma here : forall s c t r, req_ok s -> In (c, t, r) (reqs s) -> exists m, tools s t = Some m /\ synced m = false /\ user m = Some c /\
    match r with RManifest => files m = [] | RFile i => nth_error (files m) i = Some Synchronizing end.
Proof. intros s c t r R K. now apply R in K. Qed.

Lemma from_bools : forall l n, nth_error (map (fun b : bool => if b then Synchronized else NotSynchronized) l) n <> Some Synchronizing.
Proof. intros l n. rewrite nth_error_map. destruct (nth_error l n) as [[]|]; discriminate. Qed.

Lemma manifest_ok : forall s c t present, inv (dropping s) s -> let s' := step s (WManifest c t present) in inv (dropping s') s'.
Proof.
  intros s c t present V. cbn [step]. destruct (idle c s && asked c t RManifest s) eqn:H; [|exact V].
  apply andb_true_iff in H as [Id As]. apply idle_spec in Id as [I S]. apply asked_in in As.
  destruct (here _ _ _ _ (i_req _ _ V) As) as [m [E [Sy [U F]]]]. rewrite E. destruct present as [|b bs]; [exact V|].
  cbn zeta. set (fs := map _ (b :: bs)). set (ok := forallb is_sync fs). set (s' := set_stage _ _ _). set (m' := {| synced := ok; files := fs; user := user m |}).
  set (g := if ok then Checking t else Requesting t).
  assert (Nr : forall o r, ~ In (o, t, r) (reqs s')).
  { intros o r K. change (In (o, t, r) (reqs (answered c t RManifest s))) in K. apply answered_in in K as [K Q].
    destruct (here _ _ _ _ (i_req _ _ V) K) as [m1 [E1 [_ [U1 F1]]]]. rewrite E in E1. injection E1 as <-. destruct r; [congruence|]. rewrite F in F1. destruct i; discriminate. }
  assert (Ho : forall o r t', In (o, t', r) (reqs s') <-> In (o, t', r) (reqs s) /\ t' <> t).
  { intros o r t'. split.
    - intros K. split; [|intros ->; now apply Nr in K]. change (In (o, t', r) (reqs (answered c t RManifest s))) in K. now apply answered_in in K.
    - intros [K D]. change (In (o, t', r) (reqs (answered c t RManifest s))). apply answered_in. split; [exact K|congruence]. }
  assert (Hn : ~ has fs Synchronizing) by (intros [n K]; now apply from_bools in K).
  assert (Hs : ok = false -> has fs NotSynchronized).
  { intros K. apply some_not_sync in K as [n [f [K Q]]]. exists n. destruct f; auto; [|contradiction]. exfalso. apply Hn. now exists n. }
  assert (S0 : forall l, stages s c <> Dropping l) by (intros l; congruence).
  assert (S1 : forall t', t' <> t -> stages s c <> Checking t' /\ stages s c <> Requesting t' /\ stages s c <> Doomed) by (intros; rewrite S; repeat split; discriminate).
  assert (Ng : forall l, g <> Dropping l) by (intros l; unfold g; destruct ok; discriminate).
  assert (Es : stages s' = put c g (stages s)) by reflexivity.
  assert (Et : tools s' = put t (Some m') (tools s)) by reflexivity.
  constructor.
  - intros t'. destruct (Nat.eq_dec t' t) as [->|D].
    + assert (Tm : tools s' t = Some m') by (rewrite Et; apply put_same). assert (Sg : stages s' c = g) by (rewrite Es; apply put_same).
      destruct ok eqn:Ok.
      * apply (ok_synced _ s' t m' Tm); [reflexivity|now apply synced_has|]. intros _. exists c. split; [exact I|]. exact Sg.
      * apply (ok_arrived _ s' t m' c Tm); auto. split; [exact I|]. rewrite Sg. exact Ng.
    + eapply about_other with (c := c) (t := t) (g := g); eauto. intros o r K. apply Ho. auto.
  - intros o t' r K. assert (D : t' <> t) by (intros ->; now apply Nr in K). apply Ho in K as [K _]. apply (i_req _ _ V) in K as [Lo K].
    split; [now apply (about_live s s' c g)|]. rewrite Et. rewrite put_other by exact D. exact K.
  - eapply (about_stage s s' c t g m'); eauto.
    + intros o Io So _. assert (G := i_stage _ _ V o Io). rewrite So in G. destruct G as [m1 [E1 Q]]. congruence.
    + intros o Io So _. assert (G := i_stage _ _ V o Io). rewrite So in G. destruct G as [m1 [E1 [_ [_ [[n Q] _]]]]]. rewrite E in E1. injection E1 as <-. rewrite F in Q. now destruct n.
    + unfold g. destruct ok eqn:Ok; cbn [synced user files m']; auto 9.
    + intros o l Io So J. assert (G := i_stage _ _ V o Io). rewrite So in G. destruct (G t J) as [[m1 [E1 Q]] _]. congruence.
  - eapply (about_base s s' c t g m'); eauto. congruence.
Qed.

Lemma doom : forall s c t r, inv (dropping s) s -> In c (clients s) -> stages s c = Idle -> In (c, t, r) (reqs s) ->
  let s' := set_stage c Doomed (answered c t r s) in inv (dropping s') s'.
Proof.
  intros s c t r V I S K s'. destruct (here _ _ _ _ (i_req _ _ V) K) as [m [E [Sy [U F]]]].
  assert (St : forall o, o <> c -> stages s' o = stages s o) by (intros o D; cbn; now apply put_other).
  assert (Sc : stages s' c = Doomed) by (cbn; apply put_same).
  assert (Ri : forall x, In x (reqs s') <-> In x (reqs s) /\ x <> (c, t, r)) by (intros x; apply (answered_in c t r s x)).
  assert (Lv : forall o, live s o -> live s' o).
  { intros o [A B]. split; [exact A|]. intros l. destruct (Nat.eq_dec o c) as [->|D]; [rewrite Sc; discriminate|rewrite St by exact D; auto]. }
  assert (Dr : forall t', dropping s t' -> dropping s' t').
  { intros t' [c' [l [A [B D]]]]. exists c', l. split; [exact A|]. rewrite St; [auto|]. intros ->. congruence. }
  constructor.
  - intros t'. destruct (i_tool _ _ V t') as [E' N|m' E' Sy' Ha H|m' o' E' Sy' Fe U' Li H|m' o' E' Sy' U' Li Sg N1 N2|m' o' E' Sy' U' Li N1 N2 H|m' E' Sy' U' N1 N2 H].
    + now apply ok_absent.
    + apply (ok_synced _ s' t' m'); auto. intros W. destruct (H W) as [o [A B]]. exists o. split; [exact A|]. rewrite St; [exact B|]. intros ->. congruence.
    + apply (ok_manifest _ s' t' m' o'); auto. destruct (Nat.eq_dec o' c) as [->|D]; [now right|]. destruct H as [H|H]; [left|right; now rewrite St]. apply Ri. split; [exact H|congruence].
    + apply (ok_arrived _ s' t' m' o'); auto. rewrite St; [exact Sg|]. intros ->. congruence.
    + apply (ok_asking _ s' t' m' o'); auto. intros i Q. destruct (Nat.eq_dec o' c) as [->|D]; [now right|]. destruct (H i Q) as [P|P]; [left|right; now rewrite St]. apply Ri. split; [exact P|congruence].
    + apply (ok_idle _ s' t' m'); auto.
  - intros o t' q P. apply Ri in P as [P _]. apply (i_req _ _ V) in P as [Lo P]. auto.
  - intros o Io. destruct (Nat.eq_dec o c) as [->|D]; [now rewrite Sc|]. rewrite St by exact D. assert (G := i_stage _ _ V o Io). destruct (stages s o); auto.
    intros t' J. destruct (G t' J) as [A B]. split; [exact A|]. intros o' Io'. destruct (Nat.eq_dec o' c) as [->|D']; [now rewrite Sc|]. rewrite St by exact D'. auto.
  - destruct (i_base _ _ V) as (B1 & B2 & B3 & B4). split; [exact B1|]. split; [exact B2|]. split; [exact B3|].
    intros c1 c2 l l' I1 I2 H1 H2. destruct (Nat.eq_dec c1 c) as [->|D1]; [congruence|]. destruct (Nat.eq_dec c2 c) as [->|D2]; [congruence|].
    rewrite St in H1, H2 by assumption. eauto.
Qed.

Lemma manifest_bad_ok : forall s c t, inv (dropping s) s -> let s' := step s (WManifestBad c t) in inv (dropping s') s'.
Proof.
  intros s c t V. cbn [step]. destruct (idle c s && asked c t RManifest s) eqn:H; [|exact V].
  apply andb_true_iff in H as [Id As]. apply idle_spec in Id as [I S]. apply asked_in in As. now apply doom.
Qed.

Lemma file_ok : forall s c t i b, inv (dropping s) s -> let s' := step s (WFile c t i b) in inv (dropping s') s'.
Proof.
  intros s c t i b V. cbn [step]. destruct (idle c s && asked c t (RFile i) s) eqn:H; [|exact V].
  apply andb_true_iff in H as [Id As]. apply idle_spec in Id as [I S]. apply asked_in in As. cbn zeta. destruct b; [|now apply doom].
  destruct (here _ _ _ _ (i_req _ _ V) As) as [m [E [Sy [U F]]]]. change (tools (answered c t (RFile i) s) t) with (tools s t). rewrite E.
  set (fs := set_nth i Synchronized (files m)). set (ok := forallb is_sync fs). set (s' := set_stage _ _ _).
  set (m' := {| synced := ok; files := fs; user := if ok then None else user m |}). set (g := if ok then Checking t else Idle).
  assert (Fs : forall n, nth_error fs n = if n =? i then Some Synchronized else nth_error (files m) n).
  { intros n. unfold fs. rewrite set_nth_error, F. reflexivity. }
  assert (Ri : forall x, In x (reqs s') <-> In x (reqs s) /\ x <> (c, t, RFile i)) by (intros x; apply (answered_in c t (RFile i) s x)).
  assert (Old : ~ has (files m) NotSynchronized /\ forall n, nth_error (files m) n = Some Synchronizing -> In (c, t, RFile n) (reqs s)).
  { destruct (i_tool _ _ V t) as [E' N|m1 E' Sy' Ha H|m1 o' E' Sy' Fe U' Li H|m1 o' E' Sy' U' Li Sg N1 N2|m1 o' E' Sy' U' Li N1 N2 H|m1 E' Sy' U' N1 N2 H]; rewrite E in E'; try discriminate; injection E' as <-; try congruence.
    - rewrite Fe in F. destruct i; discriminate.
    - split; [exact N1|]. rewrite U in U'. injection U' as <-. intros n Q. destruct (H n Q) as [P|P]; [exact P|congruence]. }
  destruct Old as [Nn Old].
  assert (Lf : ok = true -> forall o r, ~ In (o, t, r) (reqs s')).
  { intros Ok o r K. apply Ri in K as [K Q]. destruct (here _ _ _ _ (i_req _ _ V) K) as [m1 [E1 [_ [U1 F1]]]]. rewrite E in E1. injection E1 as <-. destruct r as [|n].
    - rewrite F1 in F. destruct i; discriminate.
    - assert (n <> i) by congruence. unfold ok in Ok. rewrite all_sync in Ok. specialize (Ok n Synchronizing). rewrite Fs in Ok. destruct (Nat.eqb_spec n i); [contradiction|]. specialize (Ok F1). discriminate. }
  assert (S0 : forall l, stages s c <> Dropping l) by (intros l; congruence).
  assert (S1 : forall t', t' <> t -> stages s c <> Checking t' /\ stages s c <> Requesting t' /\ stages s c <> Doomed) by (intros; rewrite S; repeat split; discriminate).
  assert (Ng : forall l, g <> Dropping l) by (intros l; unfold g; destruct ok; discriminate).
  assert (Es : stages s' = put c g (stages s)) by reflexivity.
  assert (Et : tools s' = put t (Some m') (tools s)) by reflexivity.
  assert (Tm : tools s' t = Some m') by (rewrite Et; apply put_same).
  assert (Sg : stages s' c = g) by (rewrite Es; apply put_same).
  constructor.
  - intros t'. destruct (Nat.eq_dec t' t) as [->|D].
    + destruct ok eqn:Ok.
      * apply (ok_synced _ s' t m' Tm); [reflexivity|now apply synced_has|]. intros _. exists c. split; [exact I|]. exact Sg.
      * apply (ok_asking _ s' t m' c Tm); auto.
        -- split; [exact I|]. rewrite Sg. exact Ng.
        -- intros [n K]. cbn [files m'] in K. rewrite Fs in K. destruct (n =? i); [discriminate|]. apply Nn. now exists n.
        -- apply some_not_sync in Ok as [n [f [K Q]]]. exists n. cbn [files m']. destruct f; [|exact K|contradiction]. exfalso. rewrite Fs in K. destruct (n =? i); [discriminate|]. apply Nn. now exists n.
        -- intros n K. cbn [files m'] in K. rewrite Fs in K. destruct (Nat.eqb_spec n i); [discriminate|]. left. apply Ri. split; [now apply Old|congruence].
    + eapply about_other with (c := c) (t := t) (g := g); eauto. intros o r K. apply Ri. split; [exact K|congruence].
  - intros o t' r K. destruct (Nat.eq_dec t' t) as [->|D].
    + destruct ok eqn:Ok; [now apply (Lf eq_refl) in K|]. apply Ri in K as [K Q]. apply (i_req _ _ V) in K as [Lo K].
      split; [now apply (about_live s s' c g)|]. destruct K as [m1 [E1 [Sy1 [U1 F1]]]]. rewrite E in E1. injection E1 as <-. exists m'. split; [exact Tm|]. cbn [synced user files m'].
      split; [reflexivity|]. split; [exact U1|]. destruct r as [|n]; [rewrite F1 in F; destruct i; discriminate|]. rewrite Fs. destruct (Nat.eqb_spec n i); [congruence|exact F1].
    + apply Ri in K as [K _]. apply (i_req _ _ V) in K as [Lo K]. split; [now apply (about_live s s' c g)|]. rewrite Et. rewrite put_other by exact D. exact K.
  - eapply (about_stage s s' c t g m'); eauto.
    + intros o Io So _. assert (G := i_stage _ _ V o Io). rewrite So in G. destruct G as [m1 [E1 Q]]. congruence.
    + intros o Io So _. assert (G := i_stage _ _ V o Io). rewrite So in G. destruct G as [m1 [E1 [_ [_ [Q _]]]]]. rewrite E in E1. injection E1 as <-. contradiction.
    + unfold g. destruct ok eqn:Ok; cbn [synced user files m']; auto.
    + intros o l Io So J. split; [|unfold g; destruct ok; discriminate]. cbn [files m']. apply has_nonempty with Synchronized. exists i. rewrite Fs, Nat.eqb_refl. reflexivity.
  - eapply (about_base s s' c t g m'); eauto. congruence.
Qed.

Lemma request_comm : forall c t s, set_stage c Idle (request_missing c t s) = request_missing c t (set_stage c Idle s).
Proof. intros c t s. unfold request_missing. cbn [tools set_stage]. destruct (tools s t) as [m|]; [|reflexivity]. destruct (missing 0 (files m)); reflexivity. Qed.

Lemma request_step_ok : forall s c, inv (dropping s) s -> let s' := step s (WRequest c) in inv (dropping s') s'.
Proof.
  intros s c V. cbn [step]. destruct (mem c (clients s)) eqn:Me; [|exact V]. apply mem_in in Me. destruct (stages s c) as [|t|t| |l] eqn:S; try exact V.
  assert (G := i_stage _ _ V c Me). rewrite S in G. destruct G as [m [E [Sy [U [N1 N2]]]]]. cbn zeta. rewrite request_comm. set (s1 := set_stage c Idle s).
  destruct (request_missing_other c t s1) as (Ei & Ec & Eu & Es & Ew & Eq & Et & Er & Rm).
  assert (St : forall o, o <> c -> stages s1 o = stages s o) by (intros o D; cbn; now apply put_other).
  assert (Sc : stages s1 c = Idle) by (cbn; apply put_same).
  assert (Lv : forall o, live s o -> live s1 o).
  { intros o [A B]. split; [exact A|]. intros l. destruct (Nat.eq_dec o c) as [->|D]; [rewrite Sc; discriminate|rewrite St by exact D; auto]. }
  assert (Dr : forall t', dropping s t' -> dropping s1 t').
  { intros t' [c' [l [A [B D]]]]. exists c', l. split; [exact A|]. rewrite St; [auto|]. intros ->. congruence. }
  assert (Un : forall o, In o (clients s) -> stages s o = Requesting t -> o = c).
  { intros o Io So. assert (G := i_stage _ _ V o Io). rewrite So in G. destruct G as [m1 [E1 [_ [U1 _]]]]. congruence. }
  eapply mono; [|apply (request_ok (dropping s) s1 c t m)]; auto.
  - intros t' D. apply Dr in D. destruct D as [c' [l D]]. exists c', l. now rewrite Ec, Es.
  - intros t' D. eapply tool_frame; [..|exact (i_tool _ _ V t')]; auto.
    + intros o Io So. split; [exact Io|]. apply St. intros ->. rewrite S in So. destruct So as [[So _]|[So|So]]; try discriminate. congruence.
  - intros o t' r K. apply (i_req _ _ V) in K as [Lo K]. auto.
  - intros o Io. destruct (Nat.eq_dec o c) as [->|D]; [now rewrite Sc|]. rewrite St by exact D. assert (G := i_stage _ _ V o Io). destruct (stages s o); auto.
    intros t' J. destruct (G t' J) as [A B]. split; [exact A|]. intros o' Io'. destruct (Nat.eq_dec o' c) as [->|D']; [now rewrite Sc|]. rewrite St by exact D'. auto.
  - destruct (i_base _ _ V) as (B1 & B2 & B3 & B4). split; [exact B1|]. split; [exact B2|]. split; [exact B3|].
    intros c1 c2 l l' I1 I2 H1 H2. destruct (Nat.eq_dec c1 c) as [->|D1]; [congruence|]. destruct (Nat.eq_dec c2 c) as [->|D2]; [congruence|].
    rewrite St in H1, H2 by assumption. eauto.
  - apply Lv. split; [exact Me|]. intros l. congruence.
  - intros o Io. destruct (Nat.eq_dec o c) as [->|D]; [now rewrite Sc|]. rewrite St by exact D. intros K. apply D. now apply Un.
Qed.

Lemma check_ok : forall s c, inv (dropping s) s -> let s' := step s (WCheck c) in inv (dropping s') s'.
Proof.
  intros s c V. cbn [step]. destruct (mem c (clients s)) eqn:Me; [|exact V]. apply mem_in in Me. destruct (stages s c) as [|t|t| |l] eqn:S; try exact V.
  cbn zeta. set (s' := set_stage _ _ _).
  assert (St : forall o, o <> c -> stages s' o = stages s o) by (intros o D; cbn; now apply put_other).
  assert (Sc : stages s' c = Idle) by (cbn; apply put_same).
  assert (Lv : forall o, live s o -> live s' o).
  { intros o [A B]. split; [exact A|]. intros l. destruct (Nat.eq_dec o c) as [->|D]; [rewrite Sc; discriminate|rewrite St by exact D; auto]. }
  assert (Dr : forall t', dropping s t' -> dropping s' t').
  { intros t' [c' [l [A [B D]]]]. exists c', l. split; [exact A|]. rewrite St; [auto|]. intros ->. congruence. }
  assert (Wi : forall x, In x (waiting s') <-> In x (waiting s) /\ snd (fst x) <> t).
  { intros x. cbn. rewrite filter_In, negb_true_iff, Nat.eqb_neq. reflexivity. }
  constructor.
  - intros t'. destruct (Nat.eq_dec t' t) as [->|D].
    + assert (G := i_stage _ _ V c Me). rewrite S in G. destruct G as [m [E Sy]].
      assert (Hn : ~ has (files m) NotSynchronized).
      { destruct (i_tool _ _ V t) as [E' N|m1 E' Sy' Ha H|m1 o' E' Sy' Fe U' Li H|m1 o' E' Sy' U' Li Sg N1 N2|m1 o' E' Sy' U' Li N1 N2 H|m1 E' Sy' U' N1 N2 H]; rewrite E in E'; try discriminate; injection E' as <-; auto; congruence. }
      apply (ok_synced _ s' t m); auto. intros [c' [j K]]. apply Wi in K as [_ K]. cbn in K. contradiction.
    + eapply tool_frame; [..|exact (i_tool _ _ V t')]; auto.
      * intros [c' [j K]]. apply Wi in K as [K _]. now exists c', j.
      * intros o Io So. split; [exact Io|]. apply St. intros ->. rewrite S in So. destruct So as [[So _]|[So|So]]; try discriminate. congruence.
  - intros o t' r K. apply (i_req _ _ V) in K as [Lo K]. auto.
  - intros o Io. destruct (Nat.eq_dec o c) as [->|D]; [now rewrite Sc|]. rewrite St by exact D. assert (G := i_stage _ _ V o Io). destruct (stages s o); auto.
    intros t' J. destruct (G t' J) as [A B]. split; [exact A|]. intros o' Io'. destruct (Nat.eq_dec o' c) as [->|D']; [now rewrite Sc|]. rewrite St by exact D'. auto.
  - destruct (i_base _ _ V) as (B1 & B2 & B3 & B4). split; [exact B1|]. split; [|split; [exact B3|]].
    + intros c' t' j K. apply Wi in K as [K _]. eapply B2; eauto.
    + intros c1 c2 l l' I1 I2 H1 H2. destruct (Nat.eq_dec c1 c) as [->|D1]; [congruence|]. destruct (Nat.eq_dec c2 c) as [->|D2]; [congruence|].
      rewrite St in H1, H2 by assumption. eauto.
Qed.

Lemma cancel_nth : forall m n, nth_error (files (cancel m)) n = option_map (fun f => match f with Synchronizing => NotSynchronized | _ => f end) (nth_error (files m) n).
Proof. intros. cbn [cancel files]. apply nth_error_map. Qed.

Lemma drop_ok : forall s c, orderly_loss s (WDrop c) -> inv (dropping s) s -> let s' := step s (WDrop c) in inv (dropping s') s'.
Proof.
  intros s c [Or1 Or2] V. cbn [step]. destruct (mem c (clients s)) eqn:Me; [|exact V]. apply mem_in in Me. cbn [andb].
  destruct (match stages s c with Idle | Doomed => true | _ => false end) eqn:Sg; [|exact V]. cbn zeta.
  set (l := filter (owns c s) (ids s)). set (s' := set_stage _ _ _).
  assert (St : forall o, o <> c -> stages s' o = stages s o) by (intros o D; cbn; now apply put_other).
  assert (Sc : stages s' c = Dropping l) by (cbn; apply put_same).
  assert (Ri : forall x, In x (reqs s') <-> In x (reqs s) /\ fst (fst x) <> c).
  { intros x. cbn. rewrite filter_In, negb_true_iff, Nat.eqb_neq. reflexivity. }
  destruct (i_base _ _ V) as (B1 & B2 & B3 & B4).
  assert (Il : forall t, In t l <-> owns c s t = true).
  { intros t. unfold l. rewrite filter_In. split; [tauto|]. intros H. split; [|exact H]. apply B3. apply owns_spec in H as [m [E _]]. congruence. }
  assert (Tn : forall t, owns c s t = false -> tools s' t = tools s t) by (intros t H; cbn; now rewrite H).
  assert (To : forall t m, owns c s t = true -> tools s t = Some m -> tools s' t = Some (cancel m)) by (intros t m H E; cbn; rewrite H, E; reflexivity).
  assert (Lv : forall o, o <> c -> live s o -> live s' o) by (intros o D [A B]; split; [exact A|]; rewrite St by exact D; exact B).
  assert (Nd : forall t, ~ dropping s t) by (intros t [o [l' [A [B _]]]]; now apply (Or2 o l') in A).
  constructor.
  - intros t. destruct (owns c s t) eqn:Ow.
    + assert (Ow' := Ow). apply owns_spec in Ow as [m [E [Sy U]]]. assert (Ne := Or1 t m E Sy U).
      assert (X : ~ has (files m) NotSynchronized /\ has (files m) Synchronizing).
      { destruct (i_tool _ _ V t) as [E' N|m1 E' Sy' Ha H|m1 o' E' Sy' Fe U' Li H|m1 o' E' Sy' U' Li Sg' N1 N2|m1 o' E' Sy' U' Li N1 N2 H|m1 E' Sy' U' N1 N2 H]; rewrite E in E'; try discriminate; injection E' as <-; try congruence.
        - assert (o' = c) by congruence. subst. rewrite Sg' in Sg. discriminate.
        - auto. }
      destruct X as [X1 [n X2]]. apply (ok_idle _ s' t (cancel m)); auto.
      * intros [k K]. rewrite cancel_nth in K. destruct (nth_error (files m) k) as [[]|]; discriminate.
      * exists n. now rewrite cancel_nth, X2.
      * intros _. exists c, l. repeat split; auto. now apply Il.
    + eapply tool_frame; [..|exact (i_tool _ _ V t)]; auto.
      * intros _ K. now apply Nd in K.
      * intros o Io So. split; [exact Io|]. apply St. intros ->. destruct So as [[So K]|[So|So]]; [congruence|rewrite So in Sg; discriminate..].
      * intros m o E Sy U. apply Lv. intros ->. assert (owns c s t = true) by (apply owns_spec; eauto). congruence.
      * intros o r K. apply Ri. split; [exact K|]. cbn. intros ->. apply (i_req _ _ V) in K as [_ [m [E [Sy [U _]]]]]. assert (owns c s t = true) by (apply owns_spec; eauto). congruence.
  - intros o t r K. apply Ri in K as [K D]. cbn in D. apply (i_req _ _ V) in K as [Lo [m [E [Sy [U K]]]]]. split; [now apply Lv|]. exists m. rewrite Tn; [auto|].
    destruct (owns c s t) eqn:Ow; [|reflexivity]. apply owns_spec in Ow as [m' [E' [_ U']]]. congruence.
  - intros o Io. destruct (Nat.eq_dec o c) as [->|D].
    + rewrite Sc. intros t J. apply Il in J. assert (Ow := J). apply owns_spec in Ow as [m [E [Sy U]]]. split.
      * exists (cancel m). split; [now apply To|]. intros K. apply (Or1 t m E Sy U). cbn [cancel files] in K. now apply map_eq_nil in K.
      * intros o Io'. destruct (Nat.eq_dec o c) as [->|D]; [now rewrite Sc|]. rewrite St by exact D. intros So. assert (G := i_stage _ _ V o Io'). rewrite So in G.
        destruct G as [m1 [E1 [_ [U1 _]]]]. congruence.
    + rewrite St by exact D. assert (G := i_stage _ _ V o Io). specialize (fun l => Or2 o l Io). destruct (stages s o) as [|t|t| |l']; auto.
      * destruct G as [m [E Sy]]. exists m. rewrite Tn; [auto|]. destruct (owns c s t) eqn:Ow; [|reflexivity]. apply owns_spec in Ow as [m' [E' [S' _]]]. congruence.
      * destruct G as [m [E [Sy [U G]]]]. exists m. rewrite Tn; [auto|]. destruct (owns c s t) eqn:Ow; [|reflexivity]. apply owns_spec in Ow as [m' [E' [_ U']]]. congruence.
      * exfalso. now apply (Or2 l').
  - split; [exact B1|]. split; [exact B2|]. split.
    + intros t. etransitivity; [exact (B3 t)|]. cbn. destruct (owns c s t); [|reflexivity]. destruct (tools s t); cbn; split; intros; congruence.
    + intros c1 c2 l1 l2 I1 I2 H1 H2. destruct (Nat.eq_dec c1 c) as [->|D1].
      * destruct (Nat.eq_dec c2 c) as [->|D2]; [reflexivity|]. rewrite St in H2 by exact D2. now apply Or2 in H2.
      * rewrite St in H1 by exact D1. now apply Or2 in H1.
Qed.

Lemma asks_ok : forall asks s, inv (fun t => In t (map snd asks)) s ->
  (forall x, In x asks -> live s (fst x) /\ (exists m, tools s (snd x) = Some m /\ files m <> []) /\ forall o, In o (clients s) -> stages s o <> Requesting (snd x)) ->
  let s' := fold_left (fun s x => request_missing (fst x) (snd x) s) asks s in inv (fun _ => False) s' /\ clients s' = clients s /\ stages s' = stages s.
Proof.
  induction asks as [|[c t] asks IH]; intros s V H; cbn [fold_left].
  - split; [exact V|auto].
  - destruct (H (c, t) (or_introl eq_refl)) as [Lc [[m [E Ne]] Nr]]. cbn [fst snd] in *.
    assert (V' : inv (fun t' => In t' (map snd asks)) (request_missing c t s) /\ exists m', tools (request_missing c t s) t = Some m' /\ files m' <> []).
    { assert (Ot : forall t', t' <> t -> tool_ok (fun t' => In t' (map snd asks)) s t').
      { intros t' D. eapply tool_mono; [|apply (i_tool _ _ V)]. cbn. intros [K|K]; [congruence|exact K]. }
      destruct (i_tool _ _ V t) as [E' N|m1 E' Sy' Ha Hc|m1 o' E' Sy' Fe U' Li Hc|m1 o' E' Sy' U' Li Sg N1 N2|m1 o' E' Sy' U' Li N1 N2 Hc|m1 E' Sy' U' N1 N2 Hc]; rewrite E in E'; try discriminate; injection E' as <-.
      - rewrite (request_missing_nothing c t s m E Ha). split; [|eauto]. constructor; try apply V. intros t'. destruct (Nat.eq_dec t' t) as [->|D]; [|auto]. now apply (ok_synced _ s t m).
      - contradiction.
      - destruct Li as [Io _]. now apply Nr in Sg.
      - rewrite (request_missing_nothing c t s m E N1). split; [|eauto]. constructor; try apply V. intros t'. destruct (Nat.eq_dec t' t) as [->|D]; [|auto]. now apply (ok_asking _ s t m o').
      - split; [apply (request_ok _ s c t m); auto; apply V|]. destruct (request_missing_some c t s m E N2) as [E2 _]. eexists. split; [exact E2|]. cbn [files]. apply has_nonempty with Synchronizing. now apply asked_has. }
    destruct V' as [V' Hm]. destruct (request_missing_other c t s) as (Ei & Ec & Eu & Es & Ew & Eq & Et & Er & Rm).
    destruct (IH _ V') as (A & B & C).
    + intros [c' t'] K. cbn [fst snd]. destruct (H (c', t') (or_intror K)) as [L' [M' N']]. cbn [fst snd] in *. unfold live. rewrite Ec, Es. split; [exact L'|]. split; [|exact N'].
      destruct (Nat.eq_dec t' t) as [->|D]; [exact Hm|]. rewrite Et by exact D. exact M'.
    + split; [exact A|]. split; congruence.
Qed.

Lemma dropped_ok : forall s c, inv (dropping s) s -> let s' := step s (WDropped c) in inv (dropping s') s'.
Proof.
  intros s c V. cbn [step]. destruct (mem c (clients s)) eqn:Me; [|exact V]. apply mem_in in Me. destruct (stages s c) as [|t|t| |l] eqn:S; try exact V.
  cbn zeta. set (others := filter _ (clients s)). set (asks := flat_map _ others). set (s1 := set_reqs _ _).
  assert (Io : forall o, In o others <-> In o (clients s) /\ o <> c) by (intros o; unfold others; rewrite filter_In, negb_true_iff, Nat.eqb_neq; reflexivity).
  assert (St : forall o, o <> c -> stages s1 o = stages s o) by (intros o D; cbn; now apply put_other).
  destruct (i_base _ _ V) as (B1 & B2 & B3 & B4).
  assert (Lv : forall o, live s o -> live s1 o).
  { intros o [A B]. assert (D : o <> c) by (intros ->; now apply B in S). split; [now apply Io|]. rewrite St by exact D. exact B. }
  assert (Wi : forall x, In x (waiting s1) <-> In x (waiting s) /\ fst (fst x) <> c).
  { intros x. cbn. rewrite filter_In, negb_true_iff, Nat.eqb_neq. reflexivity. }
  assert (Ia : forall c' t, In (c', t) asks <-> c' <> c /\ In t l /\ exists j, In (c', t, j) (waiting s)).
  { intros c' t. unfold asks. rewrite in_flat_map. split.
    - intros [o [A B]]. apply Io in A as [A D]. apply in_map_iff in B as [[[c1 t1] j1] [Q B]]. apply filter_In in B as [B P]. cbn [fst snd] in *. apply andb_true_iff in P as [P1 P2].
      apply Nat.eqb_eq in P1. apply mem_in in P2. injection Q as <- <-. subst. split; [exact D|]. split; [exact P2|]. now exists j1.
    - intros [D [J [j K]]]. exists c'. split; [apply Io; split; [eapply B2; eauto|exact D]|]. apply in_map_iff. exists (c', t, j). split; [reflexivity|]. apply filter_In. split; [exact K|].
      cbn [fst snd]. rewrite Nat.eqb_refl. now apply mem_in. }
  assert (Gl := i_stage _ _ V c Me). rewrite S in Gl.
  destruct (asks_ok asks s1) as (A & _ & _).
  - constructor.
    + intros t. eapply tool_frame; [..|exact (i_tool _ _ V t)]; auto.
      * intros [o [j K]]. apply Wi in K as [K _]. now exists o, j.
      * intros [o [j K]] [o' [l' [P1 [P2 P3]]]]. apply Wi in K as [K D]. cbn in D. assert (o' = c) by (eapply B4; eauto). subst. rewrite S in P2. injection P2 as <-.
        apply in_map_iff. exists (o, t). split; [reflexivity|]. apply Ia. split; [exact D|]. split; [exact P3|]. now exists j.
      * intros o Ic So. assert (D : o <> c) by (intros ->; rewrite S in So; destruct So as [[So _]|[So|So]]; discriminate). split; [now apply Io|now apply St].
      * intros o r K. cbn. apply filter_In. split; [exact K|]. apply negb_true_iff, Nat.eqb_neq. cbn. intros ->. apply (i_req _ _ V) in K as [[_ K] _]. now apply K in S.
    + intros o t r K. cbn in K. apply filter_In in K as [K _]. apply (i_req _ _ V) in K as [Lo K]. auto.
    + intros o Ic. apply Io in Ic as [Ic D]. rewrite St by exact D. assert (G := i_stage _ _ V o Ic). destruct (stages s o) as [|t|t| |l'] eqn:So; auto.
      exfalso. apply D. eapply B4; eauto.
    + split; [intros o Ic; apply Io in Ic as [Ic _]; auto|]. split; [|split; [exact B3|]].
      * intros o t j K. apply Wi in K as [K D]. apply Io. split; [eapply B2; eauto|exact D].
      * intros c1 c2 l1 l2 I1 I2 H1 H2. apply Io in I1 as [I1 D1]. apply Io in I2 as [I2 D2]. rewrite St in H1, H2 by assumption. eauto.
  - intros [o t] K. apply Ia in K as [D [J [j K]]]. cbn [fst snd]. destruct (Gl t J) as [G1 G2]. split; [|split; [exact G1|]].
    + apply Lv. split; [eapply B2; eauto|]. intros l' So. apply D. eapply B4; eauto.
    + intros o' Ic. apply Io in Ic as [Ic D']. rewrite St by exact D'. auto.
  - eapply mono; [|exact A]. intros t [].
Qed.

Lemma inv_init : inv (dropping init) init.
Proof.
  constructor.
  - intros t. apply ok_absent; [reflexivity|]. intros [c [j []]].
  - intros c t r [].
  - intros c [].
  - repeat split; try contradiction.
Qed.

Lemma inv_step : forall s e, orderly_loss s e -> inv (dropping s) s -> inv (dropping (step s e)) (step s e).
Proof.
  intros s e Or V. destruct e.
  - now apply connect_ok.
  - now apply job_ok.
  - now apply manifest_ok.
  - now apply manifest_bad_ok.
  - now apply request_step_ok.
  - now apply file_ok.
  - now apply check_ok.
  - now apply drop_ok.
  - now apply dropped_ok.
Qed.

Lemma inv_run : forall es s, orderly s es -> inv (dropping s) s -> inv (dropping (run s es)) (run s es).
Proof. induction es as [|e es IH]; intros s H V; cbn [run]; [exact V|]. destruct H as [H1 H2]. apply IH; [exact H2|]. now apply inv_step. Qed.

(** * What holds whatever is lost when *)
Record safe (s : state) : Prop := {
  s_full : forall t m, tools s t = Some m -> synced m = true -> files m <> [] /\ forall f, In f (files m) -> f = Synchronized;
  s_man : forall c t, In (c, t, RManifest) (reqs s) -> exists m, tools s t = Some m /\ files m = [] /\ user m = Some c;
  s_file : forall c t i, In (c, t, RFile i) (reqs s) -> exists m, tools s t = Some m /\ files m <> [];
  s_check : forall c t, stages s c = Checking t -> exists m, tools s t = Some m /\ synced m = true;
  s_queue : forall t j, In (t, j) (queued s) -> exists m, tools s t = Some m /\ synced m = true }.

Lemma full_nth : forall fs, (forall f, In f fs -> f = Synchronized) <-> forallb is_sync fs = true.
Proof.
  intros fs. rewrite all_sync. split.
  - intros H n f K. apply H. eapply nth_error_In. exact K.
  - intros H f K. apply In_nth_error in K as [n K]. eauto.
Qed.

Lemma synced_nothing : forall s c t m, safe s -> tools s t = Some m -> synced m = true -> request_missing c t s = s.
Proof.
  intros s c t m V E Sy. apply request_missing_nothing with m; [exact E|]. intros [n K]. apply nth_error_In in K. apply (s_full _ V t m E Sy) in K. discriminate.
Qed.

Lemma safe_request : forall s c t, safe s -> (forall c', In (c', t, RManifest) (reqs s) -> exists m, tools s t = Some m /\ files m = []) -> safe (request_missing c t s).
Proof.
  intros s c t V H. destruct (request_missing_other c t s) as (Ei & Ec & Eu & Es & Ew & Eq & Et & Er & Rm).
  unfold request_missing in *. destruct (tools s t) as [m|] eqn:E; [|exact V]. destruct (missing 0 (files m)) as [|i l] eqn:M; [exact V|]. rewrite <- M in *.
  assert (N : has (files m) NotSynchronized).
  { assert (K : In i (missing 0 (files m))) by (rewrite M; now left). apply missing_in in K as [n [_ K]]. now exists n. }
  assert (Sy : synced m = false).
  { destruct (synced m) eqn:Sy; [|reflexivity]. destruct N as [n N]. apply nth_error_In in N. apply (s_full _ V t m E Sy) in N. discriminate. }
  set (s' := set_reqs _ _) in *.
  assert (Old : forall t' m', tools s t' = Some m' -> synced m' = true -> tools s' t' = Some m').
  { intros t' m' E' S'. rewrite Et; [exact E'|]. intros ->. congruence. }
  constructor.
  - intros t' m' E' S'. destruct (Nat.eq_dec t' t) as [->|D]; [|rewrite Et in E' by exact D; eapply s_full; eauto].
    cbn in E'. rewrite put_same in E'. injection E' as <-. cbn in S'. congruence.
  - intros c' t' K. cbn in K. apply in_app_or in K as [K|K]; [|apply in_map_iff in K as [x [Q _]]; discriminate].
    destruct (Nat.eq_dec t' t) as [->|D].
    + exfalso. apply H in K as [m' [E' F']]. assert (m' = m) by congruence. subst. rewrite F' in N. destruct N as [[|n] N]; discriminate.
    + rewrite Et by exact D. now apply s_man.
  - intros c' t' n K. destruct (Nat.eq_dec t' t) as [->|D].
    + eexists. split; [cbn; apply put_same|]. cbn [files]. apply has_nonempty with Synchronizing. now apply asked_has.
    + rewrite Et by exact D. apply Er in K; [|exact D]. now apply V in K.
  - intros c' t' K. rewrite Es in K. destruct (s_check _ V c' t' K) as [m' [E' S']]. eauto.
  - intros t' j K. rewrite Eq in K. destruct (s_queue _ V t' j K) as [m' [E' S']]. eauto.
Qed.

Lemma safe_init : safe init.
Proof. constructor; cbn; intros; try contradiction; discriminate. Qed.

Lemma safe_eq : forall s s', tools s' = tools s -> stages s' = stages s -> (forall x, In x (queued s') -> In x (queued s)) -> (forall x, In x (reqs s') -> In x (reqs s)) -> safe s -> safe s'.
Proof.
  intros s s' E1 E2 E3 E4 V. constructor; rewrite ?E1, ?E2.
  - apply V.
  - intros c t K. apply E4 in K. now apply V in K.
  - intros c t i K. apply E4 in K. now apply V in K.
  - apply V.
  - intros t j K. apply E3 in K. now apply V in K.
Qed.
Lemma safe_stage : forall s c g, (forall t, g <> Checking t) -> safe s -> safe (set_stage c g s).
Proof.
  intros s c g H V. constructor; cbn; try apply V. intros c' t. destruct (Nat.eq_dec c' c) as [->|D]; [rewrite put_same; intros K; now apply H in K|rewrite put_other by exact D; apply V].
Qed.

Lemma safe_fold : forall asks s, safe s -> safe (fold_left (fun s x => request_missing (fst x) (snd x) s) asks s).
Proof.
  induction asks as [|[c t] asks IH]; intros s V; cbn [fold_left fst snd]; [exact V|]. apply IH. apply safe_request; [exact V|].
  intros c' K. apply V in K as [m [E [F _]]]. eauto.
Qed.

Lemma safe_step : forall s e, safe s -> safe (step s e).
Proof.
  intros s e V. destruct e as [c|c t j|c t present|c t|c|c t i b|c|c|c]; cbn [step].
  - destruct (mem c (used s)); [exact V|]. apply safe_stage; [discriminate|]. now apply (safe_eq s).
  - destruct (idle c s); [|exact V]. destruct (tools s t) as [m|] eqn:E.
    + destruct (synced m) eqn:Sy.
      { constructor; try apply V. intros t' j' [K|K]; [|now apply V in K]. injection K as <- <-. exists m. auto. }
      cbn zeta. match goal with |- safe (set_waiting _ ?x) => apply (safe_eq x); auto end. destruct (user m) as [o|] eqn:U; [exact V|].
      assert (No : forall c', ~ In (c', t, RManifest) (reqs s)).
      { intros c' K. apply V in K as [m' [E' [_ U']]]. congruence. }
      set (s1 := set_tool t _ s).
      assert (V1 : safe s1).
      { constructor.
        - intros t' m' E' S'. cbn in E'. destruct (Nat.eq_dec t' t) as [->|D]; [|rewrite put_other in E' by exact D; eapply s_full; eauto]. rewrite put_same in E'. injection E' as <-. cbn in S'. congruence.
        - intros c' t' K. destruct (Nat.eq_dec t' t) as [->|D]; [now apply No in K|]. cbn. rewrite put_other by exact D. now apply V.
        - intros c' t' n K. apply V in K as [m' [E' F']]. destruct (Nat.eq_dec t' t) as [->|D]; cbn; [|rewrite put_other by exact D; eauto]. rewrite put_same. eexists. split; [reflexivity|]. cbn. congruence.
        - intros c' t' K. apply V in K as [m' [E' S']]. exists m'. cbn. rewrite put_other; [auto|]. intros ->. congruence.
        - intros t' j' K. apply V in K as [m' [E' S']]. exists m'. cbn. rewrite put_other; [auto|]. intros ->. congruence. }
      destruct (files m) as [|f fs] eqn:F.
      * constructor; try apply V1.
        -- intros c' t' K. cbn in K. apply in_app_or in K as [K|[K|[]]]; [now apply V1|]. injection K as <- <-.
           eexists. split; [cbn; apply put_same|]. auto.
        -- intros c' t' n K. cbn in K. apply in_app_or in K as [K|[K|[]]]; [|discriminate]. now apply (s_file _ V1 c' t' n).
      * apply safe_request; [exact V1|]. intros c' K. now apply No in K.
    + cbn zeta. match goal with |- safe (set_waiting _ ?x) => apply (safe_eq x); auto end. constructor; cbn.
      * intros t' m' E' S'. destruct (Nat.eq_dec t' t) as [->|D]; [|rewrite put_other in E' by exact D; eapply s_full; eauto]. rewrite put_same in E'. injection E' as <-. discriminate.
      * intros c' t' K. apply in_app_or in K as [K|[K|[]]].
        -- apply V in K as [m' [E' Q]]. exists m'. rewrite put_other; [auto|congruence].
        -- injection K as <- <-. eexists. split; [apply put_same|]. auto.
      * intros c' t' n K. apply in_app_or in K as [K|[K|[]]]; [|discriminate]. apply V in K as [m' [E' Q]]. exists m'. rewrite put_other; [auto|congruence].
      * intros c' t' K. apply V in K as [m' [E' S']]. exists m'. rewrite put_other; [auto|congruence].
      * intros t' j' K. apply V in K as [m' [E' S']]. exists m'. rewrite put_other; [auto|congruence].
  - destruct (idle c s && asked c t RManifest s) eqn:H; [|exact V]. apply andb_true_iff in H as [_ As]. apply asked_in in As.
    destruct (s_man _ V _ _ As) as [m [E [F U]]]. rewrite E. destruct present as [|b bs]; [exact V|]. cbn zeta. set (fs := map _ (b :: bs)). assert (Fn : fs <> []) by discriminate. clearbody fs.
    assert (Old : forall t' m', tools s t' = Some m' -> synced m' = true -> t' <> t).
    { intros t' m' E' S' ->. assert (m' = m) by congruence. subst. now destruct (s_full _ V _ _ E S') as [Q _]. }
    constructor.
    + intros t' m' E' S'. cbn in E'. destruct (Nat.eq_dec t' t) as [->|D]; [|rewrite put_other in E' by exact D; eapply s_full; eauto]. rewrite put_same in E'. injection E' as <-.
      cbn [files synced] in *. split; [exact Fn|]. now apply full_nth.
    + intros c' t' K. change (In (c', t', RManifest) (reqs (answered c t RManifest s))) in K. apply answered_in in K as [K Q]. destruct (s_man _ V _ _ K) as [m' [E' [F' U']]].
      exists m'. cbn. rewrite put_other; [auto|]. intros ->. congruence.
    + intros c' t' n K. change (In (c', t', RFile n) (reqs (answered c t RManifest s))) in K. apply answered_in in K as [K Q]. destruct (s_file _ V _ _ _ K) as [m' [E' F']].
      exists m'. cbn. rewrite put_other; [auto|]. intros ->. congruence.
    + intros c' t' K. cbn in K |- *. destruct (Nat.eq_dec c' c) as [->|D].
      * rewrite put_same in K. destruct (forallb is_sync fs) eqn:Ok; [|discriminate]. injection K as <-. eexists. split; [apply put_same|]. reflexivity.
      * rewrite put_other in K by exact D. apply V in K as [m' [E' S']]. exists m'. rewrite put_other; eauto.
    + intros t' j K. apply V in K as [m' [E' S']]. exists m'. cbn. rewrite put_other; eauto.
  - destruct (idle c s && asked c t RManifest s) eqn:H; [|exact V]. apply safe_stage; [discriminate|]. apply (safe_eq s); auto. intros x K. now apply answered_in in K.
  - destruct (mem c (clients s)); [|exact V]. destruct (stages s c) as [|t|t| |l] eqn:S; try exact V. apply safe_stage; [discriminate|]. apply safe_request; [exact V|].
    intros c' K. apply V in K as [m [E [F _]]]. eauto.
  - destruct (idle c s && asked c t (RFile i) s) eqn:H; [|exact V]. cbn zeta.
    assert (V1 : safe (answered c t (RFile i) s)) by (apply (safe_eq s); auto; intros x K; now apply answered_in in K).
    set (s1 := answered c t (RFile i) s) in *. destruct b; [|now apply safe_stage]. destruct (tools s1 t) as [m|] eqn:E; [|exact V1]. set (fs := set_nth i Synchronized (files m)).
    assert (Fs : synced m = true -> forallb is_sync fs = true).
    { intros Sy. apply full_nth. intros f K. apply In_nth_error in K as [n K]. unfold fs in K. rewrite set_nth_error in K. destruct (n =? i).
      - destruct (nth_error (files m) i); congruence.
      - apply nth_error_In in K. now apply (s_full _ V1 t m E Sy). }
    apply andb_true_iff in H as [_ As]. apply asked_in in As. destruct (s_file _ V _ _ _ As) as [m0 [E0 F0]].
    assert (m0 = m) by (change (tools s t = Some m) in E; congruence). subst m0.
    assert (Fe : fs <> []) by (unfold fs; destruct (files m), i; cbn; congruence). clearbody fs.
    constructor.
    + intros t' m' E' S'. cbn in E'. destruct (Nat.eq_dec t' t) as [->|D]; [|rewrite put_other in E' by exact D; eapply s_full; eauto]. rewrite put_same in E'. injection E' as <-.
      cbn [files synced] in *. split; [exact Fe|]. now apply full_nth.
    + intros c' t' K. apply (s_man _ V1) in K as [m' [E' [F' U']]]. exists m'. cbn. rewrite put_other; [auto|]. intros ->. congruence.
    + intros c' t' n K. apply (s_file _ V1) in K as [m' [E' F']]. destruct (Nat.eq_dec t' t) as [->|D]; cbn; [|rewrite put_other by exact D; eauto]. rewrite put_same. eexists. split; [reflexivity|]. exact Fe.
    + intros c' t' K. cbn in K |- *. destruct (Nat.eq_dec c' c) as [->|D].
      * rewrite put_same in K. destruct (forallb is_sync fs) eqn:Ok; [|discriminate]. injection K as <-. eexists. split; [apply put_same|]. reflexivity.
      * rewrite put_other in K by exact D. apply (s_check _ V1) in K as [m' [E' S']]. destruct (Nat.eq_dec t' t) as [->|D']; [|rewrite put_other by exact D'; eauto].
        rewrite put_same. eexists. split; [reflexivity|]. cbn. apply Fs. congruence.
    + intros t' j K. apply (s_queue _ V1) in K as [m' [E' S']]. cbn. destruct (Nat.eq_dec t' t) as [->|D']; [|rewrite put_other by exact D'; eauto].
      rewrite put_same. eexists. split; [reflexivity|]. cbn. apply Fs. congruence.
  - destruct (mem c (clients s)); [|exact V]. destruct (stages s c) as [|t|t| |l] eqn:S; try exact V. apply safe_stage; [discriminate|].
    constructor; try apply V. cbn. intros t' j K. apply in_app_or in K as [K|K]; [|now apply V in K]. apply in_map_iff in K as [x [Q _]]. injection Q as <- _. now apply V in S.
  - destruct (mem c (clients s)); [|exact V]. cbn [andb]. destruct (match stages s c with Idle | Doomed => true | _ => false end); [|exact V]. cbn zeta. apply safe_stage; [discriminate|].
    assert (Keep : forall t m, tools s t = Some m -> synced m = true -> (if owns c s t then option_map cancel (tools s t) else tools s t) = Some m).
    { intros t m E Sy. destruct (owns c s t) eqn:Ow; [|exact E]. apply owns_spec in Ow as [m' [E' [S' _]]]. congruence. }
    constructor; cbn.
    + intros t m E Sy. destruct (owns c s t) eqn:Ow; [|eapply s_full; eauto]. apply owns_spec in Ow as [m' [E' [S' _]]]. rewrite E' in E. cbn in E. injection E as <-. cbn in Sy. congruence.
    + intros c' t K. apply filter_In in K as [K Q]. cbn in Q. apply negb_true_iff, Nat.eqb_neq in Q. apply V in K as [m [E [F U]]]. exists m.
      destruct (owns c s t) eqn:Ow; [|auto]. apply owns_spec in Ow as [m' [E' [_ U']]]. congruence.
    + intros c' t n K. apply filter_In in K as [K _]. apply V in K as [m [E F]]. destruct (owns c s t); [|eauto]. rewrite E. exists (cancel m). split; [reflexivity|].
      cbn. intros Q. now apply map_eq_nil in Q.
    + intros c' t K. apply V in K as [m [E Sy]]. eauto.
    + intros t j K. apply V in K as [m [E Sy]]. eauto.
  - destruct (mem c (clients s)); [|exact V]. destruct (stages s c) as [|t|t| |l] eqn:S; try exact V. cbn zeta. apply safe_fold.
    apply (safe_eq (set_stage c Idle s)); auto; [intros x K; cbn in K; now apply filter_In in K|]. apply safe_stage; [intros t; discriminate|exact V].
Qed.
Lemma safe_run : forall es s, safe s -> safe (run s es).
Proof. induction es as [|e es IH]; intros s V; cbn [run]; [exact V|]. apply IH. now apply safe_step. Qed.

(** * Nothing is lost *)
Lemma request_keeps : forall c t s, waiting (request_missing c t s) = waiting s /\ queued (request_missing c t s) = queued s.
Proof. intros c t s. destruct (request_missing_other c t s) as (Ei & Ec & Eu & Es & Ew & Eq & _). auto. Qed.
Lemma fold_keeps : forall asks s, waiting (fold_left (fun s x => request_missing (fst x) (snd x) s) asks s) = waiting s.
Proof. induction asks as [|x asks IH]; intros s; cbn [fold_left]; [reflexivity|]. rewrite IH. apply request_keeps. Qed.

Lemma kept : forall s e c t j, In (c, t, j) (waiting s) ->
  In (c, t, j) (waiting (step s e)) \/ In (t, j) (queued (step s e)) \/ e = WDropped c.
Proof.
  intros s e c t j K. destruct e as [c'|c' t' j'|c' t' present|c' t'|c'|c' t' i b|c'|c'|c']; cbn [step].
  - left. destruct (mem c' (used s)); exact K.
  - left. destruct (idle c' s); [|exact K]. destruct (tools s t') as [m|]; [destruct (synced m); [exact K|]|]; cbn; apply in_or_app; now left.
  - left. destruct (idle c' s && asked c' t' RManifest s); [|exact K]. destruct (tools s t'); [|exact K]. destruct present; exact K.
  - left. destruct (idle c' s && asked c' t' RManifest s); exact K.
  - left. destruct (mem c' (clients s)); [|exact K]. destruct (stages s c'); try exact K. cbn. destruct (request_keeps c' t0 s) as [-> _]. exact K.
  - left. destruct (idle c' s && asked c' t' (RFile i) s); [|exact K]. cbn zeta. destruct b; [|exact K]. destruct (tools _ t'); exact K.
  - destruct (mem c' (clients s)); [|now left]. destruct (stages s c') as [|t'|t'| |l]; try (now left). cbn. destruct (Nat.eq_dec t t') as [<-|D].
    + right. left. apply in_or_app. left. apply in_map_iff. exists (c, t, j). split; [reflexivity|]. apply filter_In. split; [exact K|]. apply Nat.eqb_refl.
    + left. apply filter_In. split; [exact K|]. cbn. now apply negb_true_iff, Nat.eqb_neq.
  - left. destruct (mem c' (clients s)); [|exact K]. cbn [andb]. destruct (match stages s c' with Idle | Doomed => true | _ => false end); exact K.
  - destruct (Nat.eq_dec c' c) as [->|D]; [right; now right|]. left. destruct (mem c' (clients s)); [|exact K]. destruct (stages s c'); try exact K. cbn zeta. rewrite fold_keeps.
    cbn. apply filter_In. split; [exact K|]. cbn. apply negb_true_iff, Nat.eqb_neq. congruence.
Qed.

Lemma queued_kept : forall s e t j, In (t, j) (queued s) -> In (t, j) (queued (step s e)).
Proof.
  assert (Fq : forall asks s, queued (fold_left (fun s x => request_missing (fst x) (snd x) s) asks s) = queued s).
  { induction asks as [|x asks IH]; intros s; cbn [fold_left]; [reflexivity|]. rewrite IH. apply request_keeps. }
  intros s e t j K. destruct e as [c'|c' t' j'|c' t' present|c' t'|c'|c' t' i b|c'|c'|c']; cbn [step].
  - destruct (mem c' (used s)); exact K.
  - destruct (idle c' s); [|exact K]. destruct (tools s t') as [m|]; [|exact K]. destruct (synced m); [now right|]. cbn. destruct (user m); [exact K|].
    destruct (files m); [exact K|]. rewrite (proj2 (request_keeps _ _ _)). exact K.
  - destruct (idle c' s && asked c' t' RManifest s); [|exact K]. destruct (tools s t'); [|exact K]. destruct present; exact K.
  - destruct (idle c' s && asked c' t' RManifest s); exact K.
  - destruct (mem c' (clients s)); [|exact K]. destruct (stages s c'); try exact K. cbn. rewrite (proj2 (request_keeps _ _ _)). exact K.
  - destruct (idle c' s && asked c' t' (RFile i) s); [|exact K]. cbn zeta. destruct b; [|exact K]. destruct (tools _ t'); exact K.
  - destruct (mem c' (clients s)); [|exact K]. destruct (stages s c') as [|t'|t'| |l]; try exact K. cbn. apply in_or_app. now right.
  - destruct (mem c' (clients s)); [|exact K]. cbn [andb]. destruct (match stages s c' with Idle | Doomed => true | _ => false end); exact K.
  - destruct (mem c' (clients s)); [|exact K]. destruct (stages s c'); try exact K. cbn zeta. rewrite Fq. exact K.
Qed.
