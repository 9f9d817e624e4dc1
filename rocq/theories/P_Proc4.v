(** The ends of a run, for C94 and C95. *)
From Coq Require Import String Ascii List Arith Bool ZArith Lia.
From Verif Require Import M_Path M_Args M_Proc S_Proc P_Proc P_Proc2.
Import ListNotations.
Local Open Scope list_scope.
Local Notation "'length'" := List.length.

Section R.
Context (cap limit : nat) (code : Z).
Notation step := (step cap limit code).
Notation run := (run cap limit code).

Lemma first_end h : forall w, ended w = None -> ended (run w h) <> None ->
  exists h1 e h2, h = h1 ++ e :: h2 /\ ended (run w h1) = None /\ ended (step (run w h1) e) <> None.
Proof.
  induction h as [|e h IH]; intros w E N; [now cbn in N|]. destruct (ended (step w e)) eqn:E1.
  - exists [], e, h. split; [reflexivity|]. split; [exact E|]. cbn. congruence.
  - destruct (IH (step w e) E1 N) as (h1&e'&h2&->&A&B). exists (e :: h1), e', h2. auto.
Qed.
Lemma done_stays w h b : at_ w = Done b -> at_ (run w h) = Done b.
Proof.
  revert w. induction h as [|e h IH]; intros w D; [exact D|]. change (run w (e :: h)) with (run (step w e) h). apply IH.
  destruct e as [|o c|d| |n]; cbn [M_Proc.step]; try exact D.
  - unfold M_Proc.run_program. destruct (ended w), (todo w) as [|[[|] c] r]; try exact D; unfold M_Proc.put; destruct (_ <? _); exact D.
  - unfold M_Proc.put. destruct o; destruct (_ <? _); exact D.
  - unfold M_Proc.read_step. now rewrite D.
Qed.
(** A program ends by itself, or the reader has killed it. *)
Lemma end_by w e : ended w = None -> ended (step w e) <> None ->
  (e = Run /\ todo w = []) \/ (at_ (step w e) = Done true /\ abort (step w e) = true) \/ at_ (step w e) = Done false.
Proof.
  intros E N. destruct e as [|o c|d| |n]; cbn [M_Proc.step] in *; try (exfalso; cbn [ended] in N; congruence).
  - left. split; [reflexivity|]. unfold M_Proc.run_program in N. rewrite E in N. destruct (todo w) as [|[[|] c] r]; [reflexivity| |]; exfalso; revert N; unfold M_Proc.put; destruct (_ <? _); cbn [set_program ended]; congruence.
  - exfalso. revert N. unfold M_Proc.put. destruct o; destruct (_ <? _); cbn [ended]; congruence.
  - right. unfold M_Proc.read_step in *. destruct (at_ w) as [| |o e|e| |r] eqn:Q.
    + destruct (abort w) eqn:A; [|cbn [note ended] in N; congruence]. left. unfold kill. rewrite E. split; [reflexivity|exact A].
    + cbn [go ended] in N. congruence.
    + destruct o; cbn [go ended read_o] in N; congruence.
    + destruct e; cbn [go ended read_e] in N; congruence.
    + destruct (_ || _); [cbn [go ended] in N; congruence|]. rewrite E in N |- *. destruct (_ && _); [right; reflexivity|cbn [go ended] in N; congruence].
    + congruence.
Qed.

Lemma whole_run script h : alone h -> let w := run (spawned script) h in at_ w = Done true -> abort w = false ->
  got_o w = prints true script /\ got_e w = prints false script /\ ended w = Some code.
Proof.
  intros AL w D AB. assert (E : ended w <> None) by (destruct (over_run cap limit code script h _ D) as [Q|Q]; fold w in Q; congruence).
  destruct (first_end h (spawned script) eq_refl E) as (h1&e&h2&->&E1&E2).
  set (w1 := run (spawned script) h1) in *. assert (W : w = run (step w1 e) h2) by (unfold w; rewrite run_app; reflexivity).
  destruct (end_by w1 e E1 E2) as [(->&TD)|[(X&Y)|X]].
  - pose proof (captured cap limit code script h1 h2) as C. cbv zeta in C. fold w1 in C. change (run w1 [Run]) with (step w1 Run) in C. rewrite <- W in C. specialize (C E1 E2 D AB). destruct C as [C1 C2].
    destruct (scripted_run cap limit code script _ AL) as (S1&S2&S3&_). fold w in S1, S2, S3. destruct (ended w) as [z|] eqn:EW; [|congruence]. destruct (S3 z eq_refl) as [(T&->)|[(S3'&_)|S3']]; [|congruence|congruence].
    rewrite T in S1, S2. cbn [prints filter map] in S1, S2. rewrite app_nil_r in S1, S2.
    assert (AL1 : alone (h1 ++ [Run])) by (intros o b I; apply in_app_iff in I as [I|[I|[]]]; [|discriminate]; apply (AL o b); apply in_app_iff; now left).
    destruct (scripted_run cap limit code script _ AL1) as (R1&R2&_). rewrite run_snoc in R1, R2. fold w1 in R1, R2.
    assert (T1 : todo (step w1 Run) = []) by (cbn [M_Proc.step]; unfold M_Proc.run_program; rewrite E1, TD; reflexivity). rewrite T1 in R1, R2. cbn [prints filter map] in R1, R2. rewrite app_nil_r in R1, R2.
    rewrite <- R1 in C1. rewrite <- R2 in C2. destruct (kept_run cap limit code script (h1 ++ Run :: h2)) as [K1 K2]. fold w in K1, K2.
    destruct C1 as (x&C1), C2 as (y&C2). rewrite <- S1 in K1. rewrite <- S2 in K2. rewrite C1 in K1. rewrite C2 in K2. rewrite <- app_assoc in K1, K2.
    assert (X1 : x = []). { apply (f_equal (@length ascii)) in K1. rewrite !app_length in K1. destruct x; [reflexivity|cbn in K1; lia]. }
    assert (Y1 : y = []). { apply (f_equal (@length ascii)) in K2. rewrite !app_length in K2. destruct y; [reflexivity|cbn in K2; lia]. }
    subst x y. rewrite app_nil_r in C1, C2. auto.
  - exfalso. pose proof (abort_run cap limit code (step w1 e) h2 Y) as Z. rewrite <- W in Z. congruence.
  - exfalso. pose proof (done_stays _ h2 _ X) as Z. rewrite <- W in Z. congruence.
Qed.

Lemma prefixes script h : alone h -> let w := run (spawned script) h in prefix (got_o w) (prints true script) /\ prefix (got_e w) (prints false script).
Proof.
  intros AL w. destruct (scripted_run cap limit code script h AL) as (S1&S2&_). destruct (kept_run cap limit code script h) as [K1 K2]. fold w in S1, S2, K1, K2.
  rewrite S1, S2, K1, K2, <- !app_assoc. split; eexists; reflexivity.
Qed.

Lemma time_out script h h' : let w := run (spawned script) h in abort w = false -> ended w = None -> 0 < limit <= clock w -> hangs h' ->
  20 * (length (pipe_o w) + length (pipe_e w)) + 16 <= steps h' -> at_ (run w h') = Done false /\ ended (run w h') = Some (-9)%Z.
Proof.
  intros w AB E DU HG ST. pose proof (truthful_run cap limit code script h) as T. fold w in T.
  assert (NT : at_ w <> Done true) by (intros X; destruct (over_run cap limit code script h _ X) as [Q|Q]; fold w in Q; congruence).
  destruct (killed cap limit code h' HG w T AB E NT) as [[X Y]|[X Y]]; [|now split]. exfalso.
  assert (D : donep (run w h') = false).
  { unfold donep. destruct (at_ (run w h')) as [| | | | |q] eqn:Q; try reflexivity. exfalso. unfold w in Q, X. rewrite <- run_app in Q, X. destruct (over_run cap limit code script (h ++ h') _ Q) as [Z|Z]; [|congruence].
    rewrite run_app in Z. fold w in Z. clearbody w. clear - Z HG AB. revert w AB Z. induction h' as [|e h' IH]; intros w AB Z; [cbn in Z; congruence|].
    apply (IH (fun x I => HG x (or_intror I)) (step w e)); [|exact Z]. apply abort_step; [|exact AB]. destruct (HG e (or_introl eq_refl)) as [(n&->)|(d&->)]; discriminate. }
  assert (DU' : due limit w = true) by (unfold due; apply andb_true_iff; split; [apply Nat.ltb_lt|apply Nat.leb_le]; lia).
  destruct (hang cap limit code h' HG w T AB E DU' D) as [H _]. pose proof (phase_le w). unfold units in H. lia.
Qed.
End R.
