(** C105: one process builds in a folder at a time. *)
From Coq Require Import List Arith Bool Lia.
From Verif Require Import M_Single.
Import ListNotations.

(** * Specification. *)
(** A process that may read and write the database and the files of the folder. *)
Definition builds (s : state) (p : nat) : Prop := at_ s p = NBuild \/ at_ s p = FLocked \/ at_ s p = FBuild.
(** A main process of a wrapper that has not been left by its user. *)
Definition is_main (x : phase) : Prop := match x with MRun | MWait _ => True | _ => False end.
(** A history in which no main process is killed while it waits. *)
Fixpoint patient (s : state) (es : list event) : Prop :=
  match es with
  | [] => True
  | e :: r => match e with Kill p => ~ is_main (at_ s p) | _ => True end /\ match step s e with None => True | Some s' => patient s' r end
  end.

(** * Proofs. *)
Definition holds_main (x : phase) : bool := match x with NBuild | MRun | MWait _ => true | _ => false end.
Definition holds_final (x : phase) : bool := match x with FLocked | FBuild => true | _ => false end.
Definition is_final (x : phase) : bool := match x with FTry | FLocked | FBuild => true | _ => false end.
Definition locks (s : state) : Prop := (forall p, holds_main (at_ s p) = true <-> main_lock s = Some p) /\ (forall p, holds_final (at_ s p) = true <-> final_lock s = Some p).
Definition family (s : state) : Prop :=
  (forall c, is_final (at_ s c) = true -> exists p, main_lock s = Some p /\ at_ s p = MWait c) /\
  (forall p c, main_lock s = Some p -> at_ s p = MWait c -> started s = true -> at_ s c <> FTry /\ at_ s c <> FLocked) /\
  (forall p, at_ s p = MRun -> started s = false).

Lemma free_some l p q : free l p = Some q <-> l = Some q /\ q <> p.
Proof. unfold free. destruct l as [x|]; [|split; [discriminate|now intros (?&_)]]. destruct (Nat.eqb_spec x p); split; try discriminate; [intros (H&?)|intros H|intros (H&?)]; congruence || (split; congruence). Qed.
Lemma upd_eq f p x : upd f p x p = x.
Proof. unfold upd. now rewrite Nat.eqb_refl. Qed.
Lemma upd_ne f p x q : q <> p -> upd f p x q = f q.
Proof. intros H. unfold upd. now destruct (Nat.eqb_spec q p). Qed.
Ltac at_case q p := destruct (Nat.eq_dec q p) as [?E|?E]; [subst; rewrite ?upd_eq in *|rewrite ?upd_ne in * by assumption].

Lemma locks_gone s p : locks s -> locks (gone s p).
Proof.
  intros (A&B). split; intros q; cbn [gone main_lock final_lock at_]; rewrite free_some; at_case q p; cbn [holds_main holds_final].
  - split; [discriminate|intros (_&?); congruence].
  - rewrite A. tauto.
  - split; [discriminate|intros (_&?); congruence].
  - rewrite B. tauto.
Qed.
(** A process that goes on without a change of its locks. *)
Lemma locks_go m f b s p x : locks s -> holds_main x = holds_main (at_ s p) -> holds_final x = holds_final (at_ s p) -> main_lock s = m -> final_lock s = f -> locks (State m f b (upd (at_ s) p x)).
Proof. intros (A&B) H K <- <-. split; intros q; cbn [main_lock final_lock at_]; at_case q p; [rewrite H; apply A|apply A|rewrite K; apply B|apply B]. Qed.
Lemma locks_main f b s p x : locks s -> main_lock s = None -> holds_main x = true -> holds_final x = holds_final (at_ s p) -> final_lock s = f -> locks (State (Some p) f b (upd (at_ s) p x)).
Proof.
  intros (A&B) N H K <-. split; intros q; cbn [main_lock final_lock at_]; at_case q p.
  - rewrite H. tauto.
  - rewrite A, N. split; congruence.
  - rewrite K. apply B.
  - apply B.
Qed.
Lemma locks_final m b s p x : locks s -> final_lock s = None -> holds_final x = true -> holds_main x = holds_main (at_ s p) -> main_lock s = m -> locks (State m (Some p) b (upd (at_ s) p x)).
Proof.
  intros (A&B) N H K <-. split; intros q; cbn [main_lock final_lock at_]; at_case q p.
  - rewrite K. apply A.
  - apply A.
  - rewrite H. tauto.
  - rewrite B, N. split; congruence.
Qed.
Lemma step_locks s e s' : locks s -> step s e = Some s' -> locks s'.
Proof.
  intros L E. destruct e as [p w|p|p|p c|p]; cbn [step] in E.
  - destruct (at_ s p) eqn:P; try discriminate. injection E as <-. apply locks_go; auto; rewrite P; now destruct w.
  - destruct (at_ s p) eqn:P; try discriminate.
    + destruct (main_lock s) eqn:M; injection E as <-; [exact L|]. apply locks_main; auto. now rewrite P.
    + injection E as <-. now apply locks_gone.
    + destruct (main_lock s) eqn:M; injection E as <-; [exact L|]. apply locks_main; auto. now rewrite P.
    + destruct (started s); [|now injection E as <-]. destruct (final_lock s); injection E as <-; [exact L|now apply locks_gone].
    + destruct (final_lock s) eqn:F; [destruct (main_lock s) eqn:M; injection E as <-; [exact L|now apply locks_gone]|]. injection E as <-. apply locks_final; auto. now rewrite P.
    + injection E as <-. apply locks_go; auto; now rewrite P.
    + injection E as <-. now apply locks_gone.
  - destruct (at_ s p); try discriminate; destruct (main_lock s); try discriminate; injection E as <-; now apply locks_gone.
  - destruct (at_ s p) eqn:P; try discriminate. destruct (at_ s c) eqn:C; try discriminate. injection E as <-.
    assert (Ne : c <> p) by congruence.
    apply (locks_go (main_lock s) (final_lock s) (started s) (State (main_lock s) (final_lock s) (started s) (upd (at_ s) p (MWait c))) c FTry); auto; cbn [at_].
    + apply locks_go; auto; now rewrite P.
    + now rewrite upd_ne, C.
    + now rewrite upd_ne, C.
  - destruct (at_ s p); try discriminate; injection E as <-; now apply locks_gone.
Qed.

(** One that is no main process ends. *)
Lemma family_gone s p : family s -> ~ is_main (at_ s p) -> family (gone s p).
Proof.
  intros (F&G&H) N. split; [|split]; cbn [gone main_lock started at_].
  - intros c X. at_case c p; [discriminate|]. destruct (F c X) as (m&M&W). assert (m <> p) by (intros ->; apply N; now rewrite W). exists m. split; [now apply free_some|now rewrite upd_ne].
  - intros m c M W S. apply free_some in M as (M&Ne). rewrite upd_ne in W by exact Ne. at_case c p; [split; discriminate|]. now apply (G m).
  - intros q X. at_case q p; [discriminate|]. exact (H q X).
Qed.
Lemma step_family s e s' : locks s -> family s -> (match e with Kill p => ~ is_main (at_ s p) | _ => True end) -> step s e = Some s' -> family s'.
Proof.
  intros L Fam Pt E. pose proof L as (A&B). pose proof Fam as (F&G&H). destruct e as [p w|p|p|p c|p]; cbn [step] in E.
  - destruct (at_ s p) eqn:P; try discriminate. injection E as <-. split; [|split]; cbn [go main_lock started at_].
    + intros c X. at_case c p; [now destruct w|]. destruct (F c X) as (m&M&W). exists m. split; [exact M|]. rewrite upd_ne; [exact W|congruence].
    + intros m c M W S. assert (m <> p) by (intros ->; rewrite upd_eq in W; now destruct w). rewrite upd_ne in W by assumption. at_case c p; [destruct w; split; discriminate|now apply (G m)].
    + intros q X. at_case q p; [now destruct w|exact (H q X)].
  - destruct (at_ s p) eqn:P; try discriminate.
    + destruct (main_lock s) eqn:M; injection E as <-; [exact Fam|]. split; [|split]; cbn [main_lock started at_].
      * intros c X. at_case c p; [discriminate|]. destruct (F c X) as (m&Y&W); discriminate.
      * intros m c X W. injection X as <-. rewrite upd_eq in W. discriminate.
      * intros q X. at_case q p; [discriminate|exact (H q X)].
    + injection E as <-. apply family_gone; [exact Fam|rewrite P; easy].
    + destruct (main_lock s) eqn:M; injection E as <-; [exact Fam|]. split; [|split]; cbn [main_lock started at_].
      * intros c X. at_case c p; [discriminate|]. destruct (F c X) as (m&Y&W); discriminate.
      * intros m c X W Z. discriminate.
      * reflexivity.
    + destruct (started s) eqn:S; [|injection E as <-; exact Fam]. destruct (final_lock s) eqn:Fl; injection E as <-; [exact Fam|].
      assert (M : main_lock s = Some p) by (apply A; now rewrite P).
      assert (None' : forall q, is_final (at_ s q) = true -> False).
      { intros q X. destruct (F q X) as (m&Y&W). assert (m = p) by congruence. subst m. assert (q = c) by congruence. subst q. destruct (G p c M P eq_refl) as (N1&N2).
        destruct (at_ s c) eqn:C; try discriminate; try contradiction. assert (Z : None = Some c) by (apply B; now rewrite C). discriminate. }
      split; [|split]; cbn [gone main_lock started at_].
      * intros q X. at_case q p; [discriminate|]. destruct (None' q X).
      * intros m q X. apply free_some in X as (X&Ne). congruence.
      * intros q X. at_case q p; [discriminate|]. rewrite S. exact (H q X).
    + assert (X : exists m, main_lock s = Some m /\ at_ s m = MWait p) by (apply F; now rewrite P). destruct X as (m&M&W). assert (Nm : m <> p) by congruence.
      destruct (final_lock s) eqn:Fl; [rewrite M in E; injection E as <-; exact Fam|]. injection E as <-. split; [|split]; cbn [main_lock started at_].
      * intros c X. at_case c p; [exists m; split; [exact M|now rewrite upd_ne]|]. destruct (F c X) as (m'&M'&W'). exists m'. split; [exact M'|]. rewrite upd_ne; [exact W'|congruence].
      * intros m' c M' W' S. assert (m' = m) by congruence. subst m'. rewrite upd_ne in W' by exact Nm. assert (c = p) by congruence. subst c. destruct (G m p M W S) as (N&_). contradiction.
      * intros q X. at_case q p; [discriminate|exact (H q X)].
    + assert (X : exists m, main_lock s = Some m /\ at_ s m = MWait p) by (apply F; now rewrite P). destruct X as (m&M&W). injection E as <-. assert (Nm : m <> p) by congruence. split; [|split]; cbn [main_lock started at_].
      * intros c X. at_case c p; [exists m; split; [exact M|now rewrite upd_ne]|]. destruct (F c X) as (m'&M'&W'). exists m'. split; [exact M'|]. rewrite upd_ne; [exact W'|congruence].
      * intros m' c M' W' S. assert (m' = m) by congruence. subst m'. rewrite upd_ne in W' by exact Nm. assert (c = p) by congruence. subst c. rewrite upd_eq. split; discriminate.
      * intros q X. at_case q p; [discriminate|]. assert (main_lock s = Some q) by (apply A; now rewrite X). congruence.
    + injection E as <-. apply family_gone; [exact Fam|rewrite P; easy].
  - destruct (at_ s p) eqn:P; try discriminate; destruct (main_lock s) eqn:M; try discriminate; injection E as <-; (apply family_gone; [exact Fam|rewrite P; easy]).
  - destruct (at_ s p) eqn:P; try discriminate. destruct (at_ s c) eqn:C; try discriminate. injection E as <-. assert (Ne : p <> c) by congruence.
    assert (M : main_lock s = Some p) by (apply A; now rewrite P). pose proof (H p P) as S0. split; [|split]; cbn [main_lock started at_].
    + intros q X. at_case q c; [exists p; split; [exact M|]; now rewrite upd_ne, upd_eq|]. at_case q p; [discriminate|]. destruct (F q X) as (m&Y&W). congruence.
    + intros m q X W S. congruence.
    + intros q _. exact S0.
  - destruct (at_ s p) eqn:P; try discriminate; injection E as <-; (apply family_gone; [exact Fam|rewrite P; exact Pt]).
Qed.
Lemma start_ok : locks start /\ family start.
Proof. repeat split; cbn; intros; discriminate. Qed.
Lemma run_locks : forall es s s', locks s -> run s es = Some s' -> locks s'.
Proof.
  induction es as [|e r IH]; intros s s' L E; cbn [run] in E; [now injection E as <-|]. destruct (step s e) as [t|] eqn:T; [|discriminate]. exact (IH t s' (step_locks s e t L T) E).
Qed.
Lemma run_family : forall es s s', locks s -> family s -> patient s es -> run s es = Some s' -> family s'.
Proof.
  induction es as [|e r IH]; intros s s' L F P E; cbn [run] in E; [now injection E as <-|]. cbn [patient] in P. destruct P as (P&Q). destruct (step s e) as [t|] eqn:T; [|discriminate].
  exact (IH t s' (step_locks s e t L T) (step_family s e t L F P T) Q E).
Qed.

(** * Theorems. *)
(** As long as no main process is killed while its final process works, no two processes build at a time, with or without wrappers, whatever else is killed. *)
Theorem C105_one_partial : forall es s p q, run start es = Some s -> patient start es -> builds s p -> builds s q -> p = q.
Proof.
  intros es s p q E P X Y. destruct start_ok as (L0&F0). pose proof (run_locks es start s L0 E) as (A&B). pose proof (run_family es start s L0 F0 P E) as (F&_).
  assert (K : forall x, builds s x -> (at_ s x = NBuild /\ main_lock s = Some x) \/ (final_lock s = Some x /\ exists m, main_lock s = Some m /\ at_ s m = MWait x)).
  { intros x [H|[H|H]]; [left; split; [exact H|apply A; now rewrite H]|right|right]; (split; [apply B; now rewrite H|apply F; now rewrite H]). }
  destruct (K p X) as [(H1&H2)|(H1&m&H2&H3)], (K q Y) as [(J1&J2)|(J1&n&J2&J3)]; congruence.
Qed.
Print Assumptions C105_one_partial.

(** In every history: one builds without wrapper, and one with. *)
Theorem C105_each : forall es s p q, run start es = Some s ->
  (at_ s p = NBuild -> at_ s q = NBuild -> p = q) /\ ((at_ s p = FLocked \/ at_ s p = FBuild) -> (at_ s q = FLocked \/ at_ s q = FBuild) -> p = q).
Proof.
  intros es s p q E. destruct (run_locks es start s (proj1 start_ok) E) as (A&B). split.
  - intros X Y. assert (main_lock s = Some p) by (apply A; now rewrite X). assert (main_lock s = Some q) by (apply A; now rewrite Y). congruence.
  - intros X Y. assert (final_lock s = Some p) by (apply B; destruct X as [X|X]; now rewrite X). assert (final_lock s = Some q) by (apply B; destruct Y as [Y|Y]; now rewrite Y). congruence.
Qed.
Print Assumptions C105_each.

(** A process is refused, or waits, only while another holds the folder: one that builds without wrapper or a main process. *)
Theorem C105_refused : forall es s p, run start es = Some s -> step s (GiveUp p) <> None -> exists q, q <> p /\ (at_ s q = NBuild \/ is_main (at_ s q)).
Proof.
  intros es s p E R. destruct (run_locks es start s (proj1 start_ok) E) as (A&B). cbn [step] in R.
  destruct (main_lock s) as [q|] eqn:M; [|destruct (at_ s p); contradiction]. exists q. assert (X : holds_main (at_ s q) = true) by (now apply A).
  split; [intros ->; destruct (at_ s p); try discriminate; contradiction|]. destruct (at_ s q); try discriminate; auto; right; exact Logic.I.
Qed.
Print Assumptions C105_refused.

(** A main process returns only when its final process builds no more. *)
Theorem C105_waits : forall es s p c s', run start es = Some s -> patient start es -> at_ s p = MWait c -> step s (Step p) = Some s' -> at_ s' p = Gone -> forall q, ~ builds s q.
Proof.
  intros es s p c s' E P W T Gn q Bq. destruct start_ok as (L0&F0). pose proof (run_locks es start s L0 E) as (A&B). pose proof (run_family es start s L0 F0 P E) as (F&G&_).
  assert (M : main_lock s = Some p) by (apply A; now rewrite W). cbn [step] in T. rewrite W in T.
  destruct (started s) eqn:S; [|injection T as <-; congruence]. destruct (final_lock s) eqn:Fl; [injection T as <-; congruence|].
  destruct Bq as [H|H]; [assert (main_lock s = Some q) by (apply A; now rewrite H); congruence|]. assert (Z : None = Some q) by (apply B; destruct H as [H|H]; now rewrite H). discriminate.
Qed.
Print Assumptions C105_waits.

(** But if the user stops the main process, the final process goes on, and another process without wrapper builds at the same time. *)
Theorem C105_one_refuted : exists es s p q, run start es = Some s /\ builds s p /\ builds s q /\ p <> q.
Proof.
  exists [Begin 0 true; Step 0; Spawn 0 1; Step 1; Step 1; Kill 0; Begin 2 false; Step 2].
  eexists. exists 1, 2. split; [reflexivity|]. split; [right; right; reflexivity|]. split; [left; reflexivity|discriminate].
Qed.
Print Assumptions C105_one_refuted.

(** And if the final process ends before it has said that it started, the main process waits for ever, and nobody else can build. *)
Definition stuck (s : state) (p c : nat) : Prop := main_lock s = Some p /\ at_ s p = MWait c /\ started s = false /\ locks s /\ forall q, is_final (at_ s q) = false.
Lemma stuck_step s p c e s' : stuck s p c -> e <> Kill p -> step s e = Some s' -> stuck s' p c.
Proof.
  intros Stk K E. pose proof Stk as (M&W&S&L&N). pose proof (step_locks s e s' L E) as L'. pose proof L as (A&B).
  assert (Gn : forall q, q <> p -> stuck (gone s q) p c).
  { intros q Q. split; [cbn [gone main_lock]; apply free_some; split; [exact M|congruence]|]. split; [cbn [gone at_]; rewrite upd_ne by congruence; exact W|]. split; [exact S|]. split; [now apply locks_gone|]. intros x. cbn [gone at_]. at_case x q; [reflexivity|apply N]. }
  destruct e as [q w|q|q|q d|q]; cbn [step] in E.
  - destruct (at_ s q) eqn:Q; try discriminate. injection E as <-. assert (p <> q) by congruence. split; [exact M|]. split; [cbn [go at_]; now rewrite upd_ne|]. split; [exact S|]. split; [exact L'|].
    intros x. cbn [go at_]. at_case x q; [now destruct w|apply N].
  - pose proof (N q) as Nq. destruct (at_ s q) eqn:Q; try discriminate; rewrite ?M, ?S in E; injection E as <-; first [exact Stk|apply Gn; congruence].
  - destruct (at_ s q) eqn:Q; try discriminate; rewrite M in E; injection E as <-; apply Gn; congruence.
  - destruct (at_ s q) eqn:Q; try discriminate. assert (main_lock s = Some q) by (apply A; now rewrite Q). congruence.
  - assert (q <> p) by congruence. destruct (at_ s q); try discriminate; injection E as <-; now apply Gn.
Qed.
Theorem C105_hang_refuted : exists es s p, run start es = Some s /\ forall more s', ~ In (Kill p) more -> run s more = Some s' -> (exists c, at_ s' p = MWait c) /\ forall q, ~ builds s' q.
Proof.
  exists [Begin 0 true; Step 0; Spawn 0 1; Step 1; Kill 1]. eexists. exists 0. split; [reflexivity|]. set (s := gone _ 1).
  assert (X : stuck s 0 1).
  { split; [reflexivity|]. split; [reflexivity|]. split; [reflexivity|]. split; [|intros [|[|q]]; reflexivity].
    apply (run_locks [Begin 0 true; Step 0; Spawn 0 1; Step 1; Kill 1] start); [apply start_ok|reflexivity]. }
  clearbody s. intros more. revert s X. induction more as [|e r IH]; intros s X s' N E; cbn [run] in E.
  - injection E as <-. destruct X as (M&W&S&(A&B)&Nf). split; [now exists 1|]. intros q [H|[H|H]]; [|specialize (Nf q); rewrite H in Nf; discriminate|specialize (Nf q); rewrite H in Nf; discriminate].
    assert (main_lock s = Some q) by (apply A; now rewrite H). congruence.
  - destruct (step s e) as [t|] eqn:T; [|discriminate]. apply (IH t); [apply (stuck_step s 0 1 e t X); [|exact T]|..|exact E]; [intros ->; apply N; now left|intros I'; apply N; now right].
Qed.
Print Assumptions C105_hang_refuted.

(** A wrapped build, a second process that waits and then builds, and a third that gives up. *)
Definition story : list event := [Begin 0 true; Step 0; Begin 2 false; Step 2; Spawn 0 1; Step 1; Begin 3 true; GiveUp 3; Step 1; Step 2; Step 0; Step 1; Step 0; Step 2].
Example C105_case : patient start story /\ exists s, run start story = Some s /\ builds s 2 /\ at_ s 0 = Gone /\ at_ s 1 = Gone /\ at_ s 3 = Gone.
Proof. split; [vm_compute; tauto|]. eexists. split; [reflexivity|]. split; [left; reflexivity|]. repeat split. Qed.
