(** C35: outgoing messages are never stranded. *)
From Coq Require Import List Arith Bool Lia.
From Verif Require Import M_SendQ S_SendQ.
Import ListNotations.

Section Proofs.
Context {A : Type}.
Implicit Types s : state A.

Definition pend s : nat := (match status s with Some _ => 1 | None => 0 end) + (match queue s with [] => 0 | _ => 1 end).
Definition woken s : nat := match sender s with Awake => 1 | Locking => 1 | _ => 0 end.
Definition batch s : list (item A) := match sender s with Sending l => l | Sent l => l | _ => [] end.
Definition flowing s : Prop := match sender s with Sent _ => quit s = false | Stopped => False | _ => True end.
Record inv s : Prop := {
  i_wake : flowing s -> pend s <= sem s + owed s + woken s;
  i_msgs : flowing s -> msgs (wire s ++ batch s) ++ queue s = msgs (posted s);
  i_pre : exists l, msgs (posted s) = msgs (wire s) ++ l;
  i_last : flowing s -> match status s with Some a => last_of (statuses (posted s)) = Some a
             | None => last_of (statuses (posted s)) = last_of (statuses (wire s ++ batch s)) end;
  i_sub : flowing s -> sub (statuses (wire s ++ batch s) ++ match status s with Some a => [a] | None => [] end) (statuses (posted s));
  i_quit : quit s = true -> sender s = Stopped \/ sem s + owed s > 0 \/ sender s = Awake;
  i_stop : sender s = Stopped -> quit s = true }.

Lemma msgs_app (a b : list (item A)) : msgs (a ++ b) = msgs a ++ msgs b.
Proof. apply flat_map_app. Qed.
Lemma statuses_app (a b : list (item A)) : statuses (a ++ b) = statuses a ++ statuses b.
Proof. apply flat_map_app. Qed.
Lemma msgs_map (l : list A) : msgs (map Msg l) = l.
Proof. induction l as [|a l IH]; [reflexivity|]. cbn. f_equal. exact IH. Qed.
Lemma statuses_map (l : list A) : statuses (map (@Msg A) l) = [].
Proof. induction l; cbn; auto. Qed.
Lemma last_snoc (l : list A) a : last_of (l ++ [a]) = Some a.
Proof. unfold last_of. rewrite rev_app_distr. reflexivity. Qed.
Lemma sub_refl (l : list A) : sub l l.
Proof. induction l; constructor; auto. Qed.
Lemma sub_snoc_keep (a b : list A) x : sub a b -> sub (a ++ [x]) (b ++ [x]).
Proof.
  induction 1; cbn; try (constructor; assumption).
  induction b; cbn; constructor; auto. constructor.
Qed.
Lemma sub_drop_last (a b : list A) x : sub (a ++ [x]) b -> sub a b.
Proof.
  remember (a ++ [x]) as l. intro H. revert a Heql. induction H; intros a0 E.
  - destruct a0; discriminate.
  - destruct a0 as [|y a0]; [constructor|]. injection E as -> ->. constructor. auto.
  - constructor. auto.
Qed.

Lemma inv_init : inv init.
Proof. split; cbn; intros; auto; try lia; try discriminate; try constructor. now exists []. Qed.
Ltac projs := unfold flowing, pend, woken, batch in *; cbn [queue status owed sem quit sender wire posted] in *.
Lemma inv_step s e s' : inv s -> step s e = Some s' -> inv s'.
Proof.
  intros [W M P L U Q T] H. destruct e as [a|a| | |ok]; cbn [step] in H.
  - injection H as <-. constructor; projs; intros; auto.
    + specialize (W H). destruct (queue s); cbn [app] in *; destruct (status s); lia.
    + specialize (M H). rewrite app_assoc, M, msgs_app. reflexivity.
    + destruct P as [l P]. exists (l ++ [a]). rewrite msgs_app, P, <- app_assoc. reflexivity.
    + rewrite (statuses_app (posted s)). change (statuses [Msg a]) with (@nil A). rewrite (app_nil_r (statuses (posted s))). exact (L H).
    + rewrite (statuses_app (posted s)). change (statuses [Msg a]) with (@nil A). rewrite (app_nil_r (statuses (posted s))). exact (U H).
    + destruct (Q H) as [R|[R|R]]; auto. right; left; lia.
  - injection H as <-. constructor; projs; intros; auto.
    + specialize (W H). destruct (queue s); destruct (status s); lia.
    + rewrite (msgs_app (posted s)). change (msgs [Status a]) with (@nil A). rewrite (app_nil_r (msgs (posted s))). exact (M H).
    + destruct P as [l P]. exists l. rewrite msgs_app. change (msgs [Status a]) with (@nil A). rewrite app_nil_r. exact P.
    + rewrite statuses_app. apply last_snoc.
    + rewrite (statuses_app (posted s)). change (statuses [Status a]) with [a]. apply sub_snoc_keep. specialize (U H). destruct (status s).
      * now apply sub_drop_last in U.
      * now rewrite app_nil_r in U.
    + destruct (Q H) as [R|[R|R]]; auto. right; left; lia.
  - destruct (owed s) as [|n] eqn:O; [discriminate|]. injection H as <-.
    constructor; projs; intros; auto; try exact (L H); try (specialize (W H); lia).
    destruct (Q H) as [R|[R|R]]; auto. right; left; lia.
  - injection H as <-. assert (F : flowing (mkSt (queue s) (status s) (S (owed s)) (sem s) true (sender s) (wire s) (posted s)) -> flowing s).
    { projs. destruct (sender s); intros; auto; discriminate. }
    constructor; intros; try apply F in H; auto; projs; auto; try exact (L H).
    all: try (specialize (W H); lia). all: right; left; lia.
  - destruct (sender s) as [| | |l|l|] eqn:S.
    + destruct (sem s) as [|n] eqn:E; [discriminate|]. injection H as <-.
      constructor; projs; rewrite ?S in *; intros; auto; try exact (L H); try discriminate.
      specialize (W H). lia.
    + injection H as <-. destruct (quit s) eqn:E;
      constructor; projs; rewrite ?S in *; intros; auto; try exact (L H); try discriminate; contradiction.
    + assert (Q' : quit s = true -> sem s + owed s > 0) by (intro X; destruct (Q X) as [R|[R|R]]; auto; congruence).
      destruct (status s) as [a|] eqn:St; injection H as <-;
      constructor; projs; rewrite ?S, ?St in *; intros; auto; try discriminate.
      * specialize (W I). lia.
      * specialize (M I). rewrite app_nil_r in M. rewrite msgs_app. cbn. now rewrite app_nil_r.
      * rewrite statuses_app. cbn. rewrite last_snoc. auto.
      * rewrite statuses_app. cbn. rewrite app_nil_r. specialize (U I). now rewrite app_nil_r in U.
      * lia.
      * specialize (M I). rewrite msgs_app, msgs_map, app_nil_r. now rewrite app_nil_r in M.
      * rewrite statuses_app, statuses_map, app_nil_r. specialize (L I). now rewrite app_nil_r in L.
      * rewrite statuses_app, statuses_map, !app_nil_r. specialize (U I). now rewrite !app_nil_r in U.
    + destruct l as [|x r].
      * injection H as <-. constructor; projs; rewrite ?S in *; intros; auto; try exact (L H); try discriminate.
        destruct (Q H) as [R|[R|R]]; auto; discriminate.
      * assert (E : wire s ++ x :: r = (wire s ++ [x]) ++ r) by (rewrite <- app_assoc; reflexivity).
        assert (Fs : flowing s) by (unfold flowing; now rewrite S).
        assert (W' := W Fs). assert (M' := M Fs). assert (L' := L Fs). assert (U' := U Fs).
        unfold pend, woken, batch in W', M', L', U'. rewrite S in W', M', L', U'. rewrite E in M', L', U'.
        assert (Q' : quit s = true -> sem s + owed s > 0) by (intro X; destruct (Q X) as [R|[R|R]]; auto; congruence).
        destruct ok; [|destruct (quit s) eqn:Eq; [|discriminate]]; injection H as <-; constructor; projs; intros; auto; try discriminate.
        exists (msgs r ++ queue s). rewrite <- M', (msgs_app _ r), <- app_assoc. reflexivity.
    + injection H as <-. destruct (quit s) eqn:E;
      constructor; projs; rewrite ?S in *; intros; auto; try exact (L E); try exact (W E); try exact (M E); try exact (U E); try discriminate; contradiction.
    + discriminate.
Qed.
Lemma reach es s : run init es = Some s -> inv s.
Proof.
  assert (G : forall es s0 s, inv s0 -> run s0 es = Some s -> inv s).
  { clear. induction es as [|e es IH]; cbn; intros s0 s I H; [congruence|].
    destruct (step s0 e) eqn:E; [|discriminate]. eapply IH; [|exact H]. eapply inv_step; eauto. }
  apply G. apply inv_init.
Qed.
Lemma no_quit_flows s : inv s -> quit s = false -> flowing s.
Proof. intros I H. unfold flowing. destruct (sender s) eqn:S; auto. rewrite (i_stop _ I S) in H. discriminate. Qed.
End Proofs.

(** Whenever something waits to be sent, a wake-up is pending: the semaphore is up, or a thread that posted is about to raise
    it, or the sending thread is awake and will look at the queue. *)
Theorem C35_never_stranded {A} (es : list (event A)) s : run init es = Some s -> quit s = false ->
  queue s <> [] \/ status s <> None ->
  sem s > 0 \/ owed s > 0 \/ sender s = Awake \/ sender s = Locking.
Proof.
  intros H Q N. assert (I := reach _ _ H). assert (W := i_wake _ I (no_quit_flows _ I Q)). unfold pend, woken in W.
  destruct (sender s); auto; (destruct (queue s); [destruct (status s); [|destruct N; congruence]|]); lia.
Qed.
Print Assumptions C35_never_stranded.

(** Messages are sent in the order queued, none lost, none twice: what was sent, what the sending thread has taken and what is
    queued is what was posted; after a disconnection what was sent is a prefix of it. *)
Theorem C35_in_order {A} (es : list (event A)) s : run init es = Some s ->
  (exists rest, msgs (posted s) = msgs (wire s) ++ rest) /\
  (quit s = false -> exists taken, sender s <> Stopped /\
  (taken = [] \/ sender s = Sending taken \/ sender s = Sent taken) /\
  msgs (posted s) = msgs (wire s) ++ msgs taken ++ queue s).
Proof.
  intro H. assert (I := reach _ _ H). split; [apply I|]. intro Q. exists (batch s). split; [|split].
  - intro S. rewrite (i_stop _ I S) in Q. discriminate.
  - unfold batch. destruct (sender s); auto.
  - rewrite <- (i_msgs _ I (no_quit_flows _ I Q)), msgs_app, <- app_assoc. reflexivity.
Qed.
Print Assumptions C35_in_order.

(** A status is never lost, only superseded: the last one posted is either still to be sent or is the last one sent or taken
    for sending; statuses are sent in order, each at most as often as posted. *)
Theorem C35_status_superseded_only {A} (es : list (event A)) s : run init es = Some s -> quit s = false ->
  exists taken, (taken = [] \/ sender s = Sending taken \/ sender s = Sent taken) /\
  sub (statuses (wire s ++ taken) ++ match status s with Some a => [a] | None => [] end) (statuses (posted s)) /\
  last_of (statuses (posted s)) = match status s with Some a => Some a | None => last_of (statuses (wire s ++ taken)) end.
Proof.
  intros H Q. assert (I := reach _ _ H). assert (F := no_quit_flows _ I Q). exists (batch s). split; [|split].
  - unfold batch. destruct (sender s); auto.
  - exact (i_sub _ I F).
  - assert (L := i_last _ I F). destruct (status s); exact L.
Qed.
Print Assumptions C35_status_superseded_only.

(** When all threads that posted have signalled and the sending thread sleeps with the semaphore down, everything has been
    sent, and the last status sent is the last one posted. *)
Theorem C35_asleep_means_all_sent {A} (es : list (event A)) s : run init es = Some s -> quit s = false ->
  owed s = 0 -> sender s = Asleep -> sem s = 0 ->
  queue s = [] /\ status s = None /\ msgs (wire s) = msgs (posted s) /\
  last_of (statuses (wire s)) = last_of (statuses (posted s)).
Proof.
  intros H Q O S E. assert (I := reach _ _ H). assert (F := no_quit_flows _ I Q).
  assert (W := i_wake _ I F). assert (M := i_msgs _ I F). assert (L := i_last _ I F).
  unfold pend, woken, batch in *. rewrite S, O, E in *. rewrite app_nil_r in M, L.
  destruct (queue s); [|destruct (status s); lia]. destruct (status s); [lia|]. rewrite app_nil_r in M. auto.
Qed.
Print Assumptions C35_asleep_means_all_sent.

(** And it gets there by its own steps, whatever was pending; after a quit it returns, so joining it ends. *)
Section Drain.
Context {A : Type}.
Implicit Types s : state A.
Definition work s : nat := 4 * length (queue s) + 3 * (match status s with Some _ => 1 | None => 0 end) + 4 * sem s +
  match sender s with Asleep => 0 | Awake => 3 | Locking => 2 | Sending l => 1 + 2 * length l | Sent l => 2 + 2 * length l | Stopped => 0 end.
Lemma sender_step s : sender s <> Stopped -> ~ (sender s = Asleep /\ sem s = 0) ->
  exists s', step s (Sender true) = Some s' /\ work s' < work s /\ quit s' = quit s /\ owed s' = owed s.
Proof.
  intros N B. unfold work. cbn [step]. destruct (sender s) as [| | |l|l|] eqn:S.
  - destruct (sem s) as [|n] eqn:E; [destruct B; auto|]. eexists; split; [reflexivity|]; cbn; repeat split; auto; lia.
  - eexists; split; [reflexivity|]; cbn. repeat split; auto. destruct (quit s); lia.
  - destruct (status s); (eexists; split; [reflexivity|]; cbn [queue status owed sem quit sender wire posted length]; repeat split; auto).
    + lia.
    + rewrite map_length. destruct (queue s); cbn [length]; lia.
  - destruct l as [|x r]; (eexists; split; [reflexivity|]; cbn [queue status owed sem quit sender wire posted length]; repeat split; auto; lia).
  - eexists; split; [reflexivity|]; cbn. repeat split; auto. destruct (quit s); lia.
  - contradiction.
Qed.
Lemma drain n s : work s <= n -> exists k s', run s (repeat (Sender true) k) = Some s' /\ quit s' = quit s /\ owed s' = owed s /\
  (sender s' = Stopped \/ sender s' = Asleep /\ sem s' = 0).
Proof.
  revert s. induction n as [|n IH]; intros s H.
  - destruct (sender s) eqn:S; unfold work in H; rewrite S in H; try lia.
    + exists 0, s. cbn. repeat split; auto. right. split; auto. lia.
    + exists 0, s. cbn. auto.
  - assert (D : sender s = Stopped \/ sender s = Asleep /\ sem s = 0 \/ (sender s <> Stopped /\ ~ (sender s = Asleep /\ sem s = 0))).
    { destruct (sender s); auto; try (right; right; split; [discriminate|intros [X _]; discriminate]).
      destruct (sem s); auto. right; right. split; [discriminate|]. intros [_ X]; discriminate. }
    destruct D as [D|[D|[D1 D2]]].
    + exists 0, s. cbn. auto.
    + exists 0, s. cbn. auto.
    + destruct (sender_step s D1 D2) as (s1 & E & Lt & Q & O). destruct (IH s1) as (k & s' & R & Q' & O' & F); [lia|].
      exists (S k), s'. cbn [repeat run]. rewrite E. repeat split; auto; congruence.
Qed.
End Drain.
Lemma run_app {A} es es' (s0 : state A) : run s0 (es ++ es') = match run s0 es with Some s => run s es' | None => None end.
Proof. revert s0. induction es as [|x es IH]; intro s0; cbn; [reflexivity|]. destruct (step s0 x); auto. Qed.

Theorem C35_sender_drains {A} (es : list (event A)) s : run init es = Some s -> owed s = 0 ->
  exists k s', run s (repeat (Sender true) k) = Some s' /\
    if quit s then sender s' = Stopped
    else sender s' = Asleep /\ queue s' = [] /\ status s' = None /\ msgs (wire s') = msgs (posted s').
Proof.
  intros H O. destruct (drain (work s) s (le_n _)) as (k & s' & R & Q & O' & F). exists k, s'. split; [exact R|].
  assert (H' : run init (es ++ repeat (Sender true) k) = Some s') by (rewrite run_app, H; exact R).
  assert (I := reach _ _ H'). destruct (quit s) eqn:Eq.
  - destruct F as [F|[F1 F2]]; [exact F|]. destruct (i_quit _ I Q) as [X|[X|X]]; [exact X|lia|congruence].
  - destruct F as [F|[F1 F2]].
    + rewrite (i_stop _ I F) in Q. discriminate.
    + destruct (C35_asleep_means_all_sent _ _ H' Q (eq_trans O' O) F1 F2) as (X1 & X2 & X3 & _). auto.
Qed.
Print Assumptions C35_sender_drains.

(** A status posted between two messages, replaced before it is sent, and sent first. *)
Definition case35 : list (event nat) :=
  [Post 1; Signal; PostStatus 5; Sender true; Post 2; PostStatus 6; Signal; Signal; Sender true; Sender true].
Definition after (es : list (event nat)) : state nat := match run init es with Some s => s | None => init end.
Example C35_case : run init case35 = Some (after case35) /\ quit (after case35) = false /\ queue (after case35) = [1; 2] /\
  sender (after case35) = Sending [Status 6] /\
  let s' := after (case35 ++ Signal :: repeat (Sender true) 11) in
  wire s' = [Status 6; Msg 1; Msg 2] /\ sender s' = Asleep /\ owed s' = 0.
Proof. vm_compute. repeat split. Qed.
