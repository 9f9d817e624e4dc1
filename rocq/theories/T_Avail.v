(** C83: a worker learns of available jobs. *)

From Coq Require Import List Bool Arith Lia.
From Verif Require Import M_Avail S_Avail.
Import ListNotations.

(** The worker goes by the last figure noted, unless a job was given since,
    after which no figure is noted. *)
Definition good (c : conn) : Prop := sent c = 0 \/ sent c = belief c.

Lemma communicate_good late n c :
  good c -> good (communicate late n c).
Proof.
  intros G. unfold communicate.
  destruct (negb late && (n =? 0)); [exact G|].
  destruct (to_tell late n (sent c)); [|exact G]. right; reflexivity.
Qed.

(** Before the note no status waits and nothing was sent; after it [good]. *)
Definition inv (c : conn) : Prop :=
  match at_ c with
  | Connecting => sent c = 0 /\ status c = None /\ got c = []
  | Counted n => sent c = 0 /\ status c = None /\ got c = []
  | Noted _ | Up => good c
  end.

Definition noted (c : conn) : bool :=
  match at_ c with Noted _ | Up => true | _ => false end.

Lemma communicate_at late n c : at_ (communicate late n c) = at_ c.
Proof.
  unfold communicate. destruct (negb late && _); [reflexivity|].
  destruct (to_tell _ _ _); reflexivity.
Qed.

Lemma step_inv a c c' :
  step a c = Some c' -> inv c ->
  (forall late n, a = Tell late n -> noted c = true) -> inv c'.
Proof.
  intros E I Q. destruct c as [p s st g]. unfold step in E. cbn [at_ sent status got] in E.
  destruct a as [m| | |late m| |].
  - destruct p; inversion E; subst; exact I.
  - destruct p; inversion E; subst. cbn in *. destruct I as [_ [-> _]].
    right. reflexivity.
  - destruct p as [|k|k|]; inversion E; subst. cbn in *.
    destruct I as [I|I]; [left; exact I|right]. cbn in *.
    unfold belief in *. cbn in *. destruct st; exact I.
  - specialize (Q late m eq_refl).
    assert (E' : c' = communicate late m (mkC p s st g)) by (destruct p; inversion E; reflexivity).
    subst c'. unfold inv. rewrite communicate_at. cbn [at_].
    destruct p; try discriminate Q; apply communicate_good; exact I.
  - destruct p; try discriminate E. destruct st as [n|]; inversion E; subst. cbn in *.
    destruct I as [I|I]; [left; exact I|right; exact I].
  - destruct p; inversion E; subst. cbn. left; reflexivity.
Qed.

Lemma step_noted a c c' :
  step a c = Some c' -> noted c' = noted c || match a with Note => true | _ => false end.
Proof.
  intros E. destruct c as [p s st g]. unfold step in E. cbn [at_ sent status got] in E.
  destruct a as [m| | |late m| |]; destruct p as [|k|k|]; try discriminate E;
    try (injection E as <-; try reflexivity; unfold noted; rewrite communicate_at; reflexivity).
  destruct st; inversion E; reflexivity.
Qed.

Lemma run_app h k c : run (h ++ k) c = match run h c with Some c' => run k c' | None => None end.
Proof.
  revert c. induction h as [|a h IH]; intros c; cbn; [reflexivity|].
  destruct (step a c); [apply IH|reflexivity].
Qed.

Lemma run_noted h c c' :
  run h c = Some c' -> noted c = true \/ In Note h -> noted c' = true.
Proof.
  revert c. induction h as [|a h IH]; intros c E D; cbn in E.
  - inversion E; subst. destruct D as [D|[]]; exact D.
  - destruct (step a c) as [d|] eqn:S; [|discriminate E].
    apply IH with d; [exact E|]. apply step_noted in S.
    destruct D as [D|[D|D]].
    + left. rewrite S, D. reflexivity.
    + subst a. left. rewrite S. apply orb_true_r.
    + right; exact D.
Qed.

Lemma run_inv h c :
  undisturbed h -> run h fresh = Some c -> inv c.
Proof.
  revert c. induction h as [|a h IH] using rev_ind; intros c U E.
  - inversion E; subst. cbn. auto.
  - rewrite run_app in E. destruct (run h fresh) as [d|] eqn:R; [|discriminate E].
    cbn in E. destruct (step a d) as [e|] eqn:S; [|discriminate E]. inversion E; subst e.
    apply step_inv with a d; [exact S| |].
    + apply IH; [|reflexivity]. intros b late n k Eq.
      apply (U b late n (k ++ [a])). rewrite Eq, <- app_assoc. reflexivity.
    + intros late n ->. apply run_noted with h fresh; [exact R|]. right.
      exact (U h late n [] eq_refl).
Qed.

(** Once the client's loop has seen jobs to give away the worker will go by a
    figure above 0, and by the true figure if the loop's timer had expired. *)
Theorem C83_told : forall h late n c,
  undisturbed (h ++ [Tell late n]) -> run (h ++ [Tell late n]) fresh = Some c ->
  0 < n -> 0 < belief c /\ (late = true -> belief c = n).
Proof.
  intros h late n c U E P. pose proof (run_inv _ _ U E) as _.
  rewrite run_app in E. destruct (run h fresh) as [d|] eqn:R; [|discriminate E].
  assert (Nd : noted d = true).
  { apply run_noted with h fresh; [exact R|]. right. exact (U h late n [] eq_refl). }
  assert (I : inv d).
  { apply run_inv with h; [|exact R]. intros b la m k Eq. apply (U b la m (k ++ [Tell late n])).
    rewrite Eq, <- app_assoc. reflexivity. }
  assert (E' : c = communicate late n d).
  { cbn in E. destruct (at_ d); inversion E; reflexivity. }
  assert (G : good d) by (unfold inv in I; unfold noted in Nd; destruct (at_ d); try discriminate Nd; exact I).
  subst c. unfold communicate.
  destruct (n =? 0) eqn:Z; [apply Nat.eqb_eq in Z; lia|]. rewrite andb_false_r.
  unfold to_tell. rewrite Z. cbn [negb andb].
  destruct (sent d =? 0) eqn:S0; cbn.
  - rewrite orb_true_r. cbn. split; [lia|reflexivity].
  - rewrite orb_false_r. apply Nat.eqb_neq in S0.
    destruct G as [G|G]; [contradiction|].
    destruct late; cbn.
    + destruct (sent d =? n) eqn:Sn; cbn.
      * apply Nat.eqb_eq in Sn. rewrite <- G, Sn. split; [lia|reflexivity].
      * split; [lia|reflexivity].
    + rewrite <- G. split; [lia|discriminate].
Qed.
Print Assumptions C83_told.

(** Nothing is said twice: while the number stays as it was told, and no job
    is given, no further message is queued. *)
Theorem C83_quiet : forall late c,
  0 < sent c -> communicate late (sent c) c = c.
Proof.
  intros late c P. unfold communicate, to_tell. rewrite Nat.eqb_refl.
  destruct (sent c =? 0) eqn:Z; [apply Nat.eqb_eq in Z; lia|].
  destruct late; reflexivity.
Qed.
Print Assumptions C83_quiet.

(** Every figure the worker was sent, and the one that waits, is a figure the
    client counted: none is made up. *)
Definition counted (h : list act) (n : nat) : Prop :=
  In (Count n) h \/ exists late, In (Tell late n) h.

Theorem C83_true_figures : forall h c n,
  run h fresh = Some c -> In n (got c) \/ status c = Some n -> counted h n.
Proof.
  assert (G : forall h c, run h fresh = Some c ->
    (forall n, In n (got c) \/ status c = Some n \/ at_ c = Counted n \/ at_ c = Noted n ->
      counted h n)).
  { induction h as [|a h IH] using rev_ind; intros c E n D.
    - inversion E; subst. cbn in D. destruct D as [[]|[D|[D|D]]]; discriminate D.
    - rewrite run_app in E. destruct (run h fresh) as [d|] eqn:R; [|discriminate E].
      cbn in E. destruct (step a d) as [e|] eqn:S; [|discriminate E]. inversion E; subst e.
      specialize (IH d eq_refl).
      assert (W : forall m, counted h m -> counted (h ++ [a]) m).
      { intros m [C|[l C]]; [left|right; exists l]; apply in_or_app; left; exact C. }
      destruct d as [p s st g]. unfold step in S. cbn [at_ sent status got] in S, IH.
      destruct a as [m| | |late m| |].
      + destruct p; inversion S; subst. cbn in D.
        destruct D as [D|[D|[D|D]]]; [| |inversion D; subst; left; apply in_or_app; right; left; reflexivity|discriminate D];
          apply W, IH; auto.
      + destruct p; inversion S; subst. cbn in D.
        destruct D as [D|[D|[D|D]]]; [| |discriminate D|inversion D; subst]; apply W, IH; auto.
      + destruct p; inversion S; subst. cbn in D.
        destruct D as [[D|D]|[D|[D|D]]]; [subst| | |discriminate D|discriminate D]; apply W, IH; auto.
      + assert (S' : c = communicate late m (mkC p s st g)) by (destruct p; inversion S; reflexivity).
        rewrite S' in D. rewrite communicate_at in D. unfold communicate in D.
        destruct (negb late && (m =? 0)); [apply W, IH; exact D|].
        destruct (to_tell _ _ _); [|apply W, IH; exact D]. cbn in D.
        destruct D as [D|[D|D]]; [apply W, IH; auto| |apply W, IH; auto].
        inversion D; subst. right. exists late. apply in_or_app; right; left; reflexivity.
      + destruct p; try discriminate S. destruct st as [k|]; inversion S; subst. cbn in D.
        destruct D as [[D|D]|[D|[D|D]]]; try discriminate D; [subst|]; apply W, IH; auto.
      + destruct p; inversion S; subst. apply W, IH. exact D. }
  intros h c n E D. apply (G h c E). tauto.
Qed.
Print Assumptions C83_true_figures.

(** Refuted: "while jobs wait the worker is told" fails if the loop runs
    while the connection is being made.  Jobs come and go before the
    connection stands, so a status of 0 waits; the connection is then greeted
    with 5 and the stale 0 is sent after it.  As long as 5 jobs wait, no
    later round of the loop, timer expired or not, tells the worker. *)
Definition late_connect : list act :=
  [Tell false 4; Tell true 0; Count 5; Note; Hello; Flush].

Theorem C83_connecting_refuted : exists c,
  run late_connect fresh = Some c /\ got c = [0; 5] /\ belief c = 0 /\
  forall lates, run (map (fun l => Tell l 5) lates) c = Some c.
Proof.
  eexists. split; [reflexivity|]. split; [reflexivity|]. split; [reflexivity|].
  induction lates as [|l lates IH]; [reflexivity|].
  cbn [map run step at_]. destruct l; cbn; exact IH.
Qed.
Print Assumptions C83_connecting_refuted.

(** Refuted: "when the jobs are gone the worker is told".  After the last job
    was given the worker is never told 0, so it keeps asking. *)
Theorem C83_gone_refuted : exists c,
  run [Count 1; Note; Hello; Give] fresh = Some c /\ belief c = 1 /\
  forall lates, run (map (fun l => Tell l 0) lates) c = Some c.
Proof.
  eexists. split; [reflexivity|]. split; [reflexivity|].
  induction lates as [|l lates IH]; [reflexivity|].
  cbn [map run step at_]. destruct l; cbn; exact IH.
Qed.
Print Assumptions C83_gone_refuted.

(** A connection greeted with 3, told 7 when the timer expired, that gave a
    job away and is told again although the number did not change. *)
Example C83_case :
  let h := [Count 3; Note; Hello; Tell false 7; Tell true 7; Flush; Give] in
  undisturbed (h ++ [Tell false 7]) /\
  run (h ++ [Tell false 7]) fresh = Some (mkC Up 7 (Some 7) [7; 3]) /\
  run [Count 3; Note; Hello; Tell false 7] fresh = Some (mkC Up 3 None [3]).
Proof.
  split; [|split; reflexivity].
  intros b late n k E.
  destruct b as [|a b]; [discriminate E|]. injection E as <- E.
  destruct b as [|a b]; [discriminate E|]. injection E as <- E.
  right; left; reflexivity.
Qed.
