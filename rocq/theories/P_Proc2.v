(** Running a program comes to an end, for C94. *)
From Coq Require Import String Ascii List Arith Bool ZArith Lia.
From Verif Require Import M_Path M_Args M_Proc S_Proc P_Proc.
Import ListNotations.
Local Open Scope list_scope.
Local Notation "'length'" := List.length.

Section R.
Context (cap limit : nat) (code : Z).
Notation step := (step cap limit code).
Notation run := (run cap limit code).

Definition units (w : world) : nat := length (pipe_o w) + length (pipe_e w).
Definition none (w : world) : bool := is_empty (pipe_o w) && is_empty (pipe_e w).
(** How far the reader is from reading something or from its end. *)
Definition phase (w : world) : nat :=
  let x := if exited w then 0 else 6 in
  match at_ w with
  | Top => 5 + x
  | Choose => 4 + x
  | ReadOut o e => if o || e then 3 + x else if none w then 3 + x else 9 + x
  | ReadErr e => if grown w then 7 + x else if e then 2 + x else if none w then 2 + x else 8 + x
  | Check => if grown w then 6 + x else if none w then 1 + x else 7 + x
  | Done _ => 0
  end.
Definition due (w : world) : bool := (0 <? limit) && (limit <=? clock w).
Definition busy (w : world) : bool := negb (none w) || match ended w with Some _ => true | None => false end || due w.
Definition supply (w : world) : nat := 20 * units w + 40 * length (todo w) + match ended w with Some _ => 0 | None => 40 end.
Definition donep (w : world) : bool := match at_ w with Done _ => true | _ => false end.

Lemma phase_le w : phase w <= 15.
Proof. unfold phase. destruct (at_ w) as [| |o e|e| |r], (exited w); try lia; destruct (grown w), (none w); try destruct o; try destruct e; cbn; lia. Qed.

Lemma none_units w : none w = true <-> units w = 0.
Proof. unfold none, units. destruct (pipe_o w), (pipe_e w); cbn; split; intros; try discriminate; reflexivity. Qed.
Lemma grown_prev w : prev_o w = length (got_o w) -> prev_e w = length (got_e w) -> grown w = false.
Proof. intros A B. unfold grown. now rewrite A, B, !Nat.eqb_refl. Qed.

(** A step of the reader reads something, or takes it forward. *)
Lemma read_progress n w : truthful w -> abort w = false -> donep w = false ->
  supply (step w (Step n)) + 20 <= supply w \/
  (supply (step w (Step n)) = supply w /\ none (step w (Step n)) = none w /\ (busy w = true -> phase (step w (Step n)) < phase w) /\ ended (step w (Step n)) = ended w)
  \/ donep (step w (Step n)) = true.
Proof.
  intros (T0&T) AB D. cbn [M_Proc.step]. unfold M_Proc.read_step, donep in *. destruct w as [td en po pe wo we ck ab pl go_ ge vo ve ex].
  cbn [at_ abort exited ended prev_o prev_e got_o got_e] in *. subst ab. destruct pl as [| |o e|e| |r]; try discriminate; cbn [abort].
  - right. left. split; [reflexivity|]. split; [reflexivity|]. split; [|reflexivity]. intros _. unfold phase, note; cbn [at_ exited]. lia.
  - right. left. split; [reflexivity|]. split; [reflexivity|]. split; [|reflexivity]. intros _. unfold phase, go, none; cbn [at_ exited pipe_o pipe_e]. destruct (is_empty po), (is_empty pe); cbn [negb orb andb]; lia.
  - destruct T as (T1&T2&T3&T4). destruct o.
    + left. unfold supply, units, go, read_o. cbn [pipe_o pipe_e todo ended]. rewrite skipn_length. destruct po as [|x po]; [now specialize (T3 eq_refl)|]. cbn [length]. lia.
    + right. left. split; [reflexivity|]. split; [reflexivity|]. split; [|reflexivity]. intros _. unfold phase, go. cbn [at_ exited orb]. rewrite grown_prev by (cbn; assumption). destruct e; cbn [orb]; [lia|]. unfold none. cbn [pipe_o pipe_e]. destruct (is_empty po && is_empty pe); lia.
  - destruct T as (T1&T2&T3). destruct e.
    + left. unfold supply, units, go, read_e. cbn [pipe_o pipe_e todo ended]. rewrite skipn_length. destruct pe as [|x pe]; [now specialize (T3 eq_refl)|]. cbn [length]. lia.
    + right. left. split; [reflexivity|]. split; [reflexivity|]. split; [|reflexivity]. intros _. unfold phase, go, grown, none. cbn [at_ exited prev_o prev_e got_o got_e pipe_o pipe_e]. destruct (negb _ || negb _); [lia|]. destruct (is_empty po && is_empty pe); lia.
  - set (w := World td en po pe wo we ck false Check go_ ge vo ve ex). change (negb (vo =? length go_) || negb (ve =? length ge)) with (grown w). destruct (grown w) eqn:G.
    + right. left. split; [reflexivity|]. split; [reflexivity|]. split; [|reflexivity]. intros _. unfold phase. rewrite G. cbn [at_ exited go w]. destruct ex; lia.
    + destruct en as [z|].
      * destruct ex.
        -- right. right. reflexivity.
        -- right. left. split; [reflexivity|]. split; [reflexivity|]. split; [|reflexivity]. intros _. unfold phase. rewrite G. cbn [at_ exited w see_exit]. destruct (none _); lia.
      * change (clock w) with ck. destruct ((0 <? limit) && (limit <=? ck)) eqn:Q; [right; right; reflexivity|].
        right. left. split; [reflexivity|]. split; [reflexivity|]. split; [|reflexivity]. unfold busy, due, phase. rewrite G. cbn [w ended clock at_ exited go]. rewrite Q. cbn [orb]. rewrite !orb_false_r. intros NN. apply negb_true_iff in NN. rewrite NN. destruct ex; lia.
Qed.

Lemma run_progress w : 0 < cap -> supply (step w Run) + 20 <= supply w \/
  (step w Run = w /\ negb (none w) || match ended w with Some _ => true | None => false end = true).
Proof.
  intros CP. cbn [M_Proc.step]. unfold M_Proc.run_program. destruct (ended w) as [z|] eqn:E; [right; split; [reflexivity|apply orb_true_r]|].
  destruct (todo w) as [|[o b] r] eqn:TD; [left; unfold supply, units; cbn [set_program pipe_o pipe_e todo ended]; rewrite E, TD; cbn [length]; lia|].
  unfold M_Proc.put. destruct o.
  - destruct (Nat.ltb_spec (length (pipe_o w)) cap) as [L|L].
    + left. unfold supply, units. cbn [set_program pipe_o pipe_e todo ended]. rewrite E, TD, app_length. cbn [length]. lia.
    + right. split; [reflexivity|]. unfold none. destruct (pipe_o w); [cbn in L; lia|reflexivity].
  - destruct (Nat.ltb_spec (length (pipe_e w)) cap) as [L|L].
    + left. unfold supply, units. cbn [set_program pipe_o pipe_e todo ended]. rewrite E, TD, app_length. cbn [length]. lia.
    + right. split; [reflexivity|]. unfold none. destruct (pipe_e w); [cbn in L; lia|]. cbn [is_empty]. now rewrite andb_false_r.
Qed.

Lemma abort_step w e : e <> Cancel -> abort w = false -> abort (step w e) = false.
Proof.
  intros N A. destruct e as [|o b|d| |n]; cbn [M_Proc.step]; [| |exact A|congruence|].
  - unfold M_Proc.run_program. destruct (ended w), (todo w) as [|[[|] b] r]; try exact A; unfold M_Proc.put; destruct (_ <? _); exact A.
  - unfold M_Proc.put. destruct o; destruct (_ <? _); exact A.
  - unfold M_Proc.read_step. destruct (at_ w) as [| |o e|e| |r]; try exact A; [rewrite A; exact A|destruct o; exact A|destruct e; exact A|].
    destruct (_ || _); [exact A|]. destruct (ended w) eqn:E; [destruct (exited w); exact A|]. destruct (_ && _); [unfold kill; rewrite E|]; exact A.
Qed.
Lemma donep_step w e : donep w = true -> donep (step w e) = true.
Proof.
  unfold donep. intros A. destruct e as [|o b|d| |n]; cbn [M_Proc.step]; try exact A.
  - unfold M_Proc.run_program. destruct (ended w), (todo w) as [|[[|] b] r]; try exact A; unfold M_Proc.put; destruct (_ <? _); exact A.
  - unfold M_Proc.put. destruct o; destruct (_ <? _); exact A.
  - unfold M_Proc.read_step. destruct (at_ w) as [| |o e|e| |r] eqn:Q; try discriminate A. now rewrite Q.
Qed.
Lemma donep_run w h : donep w = true -> donep (run w h) = true.
Proof. revert w. induction h as [|e h IH]; intros w D; [exact D|]. cbn. apply IH. now apply donep_step. Qed.

Definition busy0 (w : world) : bool := negb (none w) || match ended w with Some _ => true | None => false end.
Lemma segment h : 0 < cap -> alone h -> undisturbed h -> forall w, truthful w -> abort w = false -> donep (run w h) = false ->
  supply (run w h) + 20 <= supply w \/
  (supply (run w h) = supply w /\ busy0 (run w h) = busy0 w /\ (busy0 w = true -> phase (run w h) + steps h <= phase w) /\ (In Run h -> busy0 w = true)).
Proof.
  intros CP. induction h as [|e h IH]; intros AL UN w T AB D.
  - right. repeat split; try reflexivity; [unfold steps; cbn; lia|intros []].
  - assert (AL' : alone h) by (intros o b I; apply (AL o b); now right). assert (UN' : undisturbed h) by (intros I; apply UN; now right).
    assert (NA : e <> Cancel) by (intros ->; apply UN; now left).
    change (run w (e :: h)) with (run (step w e) h) in *. specialize (IH AL' UN' (step w e) (truthful_step cap limit code w e T) (abort_step w e NA AB) D).
    assert (D1 : donep (step w e) = false) by (destruct (donep (step w e)) eqn:Q; [rewrite (donep_run _ h Q) in D; discriminate|reflexivity]).
    assert (D0 : donep w = false) by (destruct (donep w) eqn:Q; [rewrite (donep_step _ e Q) in D1; discriminate|reflexivity]).
    destruct e as [|o b|d| |n]; [| exfalso; apply (AL o b); now left | |congruence|].
    + destruct (run_progress w CP) as [P|(P&Q)]; [left; destruct IH as [I|(I&_)]; lia|]. rewrite P in *. destruct IH as [I|(I1&I2&I3&I4)]; [now left|]. right. split; [exact I1|]. split; [exact I2|]. split; [exact I3|]. intros _. exact Q.
    + change (busy0 (step w (Tick d))) with (busy0 w) in IH. change (supply (step w (Tick d))) with (supply w) in IH. change (phase (step w (Tick d))) with (phase w) in IH.
      destruct IH as [I|(I1&I2&I3&I4)]; [now left|]. right. repeat split; auto. intros [X|X]; [discriminate|auto].
    + destruct (read_progress n w T AB D0) as [P|[(P1&P2&P3&P4)|P]]; [left; destruct IH as [I|(I&_)]; lia| |congruence].
      assert (BB : busy0 (step w (Step n)) = busy0 w) by (unfold busy0; now rewrite P2, P4). rewrite P1, BB in IH.
      destruct IH as [I|(I1&I2&I3&I4)]; [now left|]. right. split; [exact I1|]. split; [exact I2|]. split.
      * intros B. specialize (I3 B). assert (BU : busy w = true) by (unfold busy; unfold busy0 in B; now rewrite B). specialize (P3 BU). unfold steps in *. cbn [filter length]. lia.
      * intros [X|X]; [discriminate|auto].
Qed.

Lemma rounds gs : 0 < cap -> Forall turn gs -> forall w, alone (concat gs) -> undisturbed (concat gs) -> truthful w -> abort w = false -> donep (run w (concat gs)) = false ->
  supply (run w (concat gs)) + phase (run w (concat gs)) + length gs <= supply w + phase w.
Proof.
  intros CP F. induction F as [|g gs TU F IH]; intros w AL UN T AB D; [cbn; lia|]. cbn [concat] in *.
  assert (AL1 : alone g) by (intros o b I; apply (AL o b); apply in_app_iff; now left). assert (AL2 : alone (concat gs)) by (intros o b I; apply (AL o b); apply in_app_iff; now right).
  assert (UN1 : undisturbed g) by (intros I; apply UN; apply in_app_iff; now left). assert (UN2 : undisturbed (concat gs)) by (intros I; apply UN; apply in_app_iff; now right).
  rewrite run_app in *. set (w1 := run w g) in *.
  assert (D1 : donep w1 = false) by (destruct (donep w1) eqn:Q; [rewrite (donep_run _ _ Q) in D; discriminate|reflexivity]).
  assert (T1 : truthful w1 /\ abort w1 = false).
  { unfold w1. clear - UN1 T AB. revert w T AB. induction g as [|e g IH]; intros w T AB; [now split|]. change (run w (e :: g)) with (run (step w e) g). apply IH; [intros I; apply UN1; now right|now apply truthful_step|].
    apply abort_step; [intros ->; apply UN1; now left|exact AB]. }
  destruct T1 as [T1 AB1]. specialize (IH w1 AL2 UN2 T1 AB1 D). cbn [length].
  destruct (segment g CP AL1 UN1 w T AB D1) as [P|(P1&P2&P3&P4)].
  - pose proof (phase_le w1). fold w1 in P. lia.
  - destruct TU as (R&n&Sn). specialize (P3 (P4 R)). fold w1 in P1, P3.
    assert (1 <= steps g). { unfold steps. assert (X : In (Step n) (filter (fun e => match e with Step _ => true | _ => false end) g)) by (apply filter_In; auto). destruct (filter _ g); [destruct X|cbn; lia]. } lia.
Qed.

Lemma ends script h k : 0 < cap -> turns k h -> alone h -> undisturbed h -> 40 * length script + 52 <= k -> finished (run (spawned script) h).
Proof.
  intros CP (gs&->&L&F) AL UN K. destruct (donep (run (spawned script) (concat gs))) eqn:D.
  - unfold donep in D. unfold finished. destruct (at_ _) as [| | | | |b]; try discriminate. now exists b.
  - exfalso. pose proof (rounds gs CP F (spawned script) AL UN) as H. assert (T : truthful (spawned script)) by (split; [discriminate|exact I]). specialize (H T eq_refl D).
    assert (Q : supply (spawned script) + phase (spawned script) = 40 * length script + 51) by (unfold supply, phase, units; cbn [spawned todo at_ exited ended pipe_o pipe_e length]; lia).
    rewrite Q in H. lia.
Qed.

(** *** Programs that hang *)
Lemma hang h : hangs h -> forall w, truthful w -> abort w = false -> ended w = None -> due w = true -> donep (run w h) = false ->
  20 * units (run w h) + phase (run w h) + steps h <= 20 * units w + phase w /\ ended (run w h) = None.
Proof.
  induction h as [|e h IH]; intros HG w T AB E DU D; [split; [unfold steps; cbn; lia|exact E]|].
  assert (HG' : hangs h) by (intros x I; apply HG; now right). change (run w (e :: h)) with (run (step w e) h) in *.
  assert (D1 : donep (step w e) = false) by (destruct (donep (step w e)) eqn:Q; [rewrite (donep_run _ h Q) in D; discriminate|reflexivity]).
  assert (D0 : donep w = false) by (destruct (donep w) eqn:Q; [rewrite (donep_step _ e Q) in D1; discriminate|reflexivity]).
  destruct (HG e (or_introl eq_refl)) as [(n&->)|(d&->)].
  - assert (ND : ended (step w (Step n)) = None /\ due (step w (Step n)) = true /\ todo (step w (Step n)) = todo w).
    { cbn [M_Proc.step]. unfold M_Proc.read_step, donep in *. destruct (at_ w) as [| |o e|e| |r] eqn:Q; try discriminate D0; [rewrite AB; auto|auto|destruct o; auto|destruct e; auto|].
      revert D1. cbn [M_Proc.step]. unfold M_Proc.read_step. rewrite Q. destruct (_ || _); [auto|]. rewrite E. destruct (_ && _); [discriminate|auto]. }
    destruct ND as (E1&DU1&TD1). specialize (IH HG' (step w (Step n)) (truthful_step cap limit code w _ T) (abort_step w (Step n) ltac:(discriminate) AB) E1 DU1 D).
    destruct IH as [IH ->]. split; [|reflexivity]. unfold steps in *. cbn [filter length].
    destruct (read_progress n w T AB D0) as [P|[(P1&P2&P3&P4)|P]]; [| |congruence].
    + unfold supply in P. rewrite E, E1, TD1 in P. pose proof (phase_le (step w (Step n))). lia.
    + unfold supply in P1. rewrite E, E1, TD1 in P1. assert (BU : busy w = true) by (unfold busy; rewrite DU; apply orb_true_r). specialize (P3 BU). lia.
  - apply (IH HG' (step w (Tick d))); auto.
    unfold due in *. cbn [M_Proc.step clock]. apply andb_prop in DU as [X Y]. rewrite X. cbn [andb]. apply Nat.leb_le. apply Nat.leb_le in Y. lia.
Qed.
Lemma killed h : hangs h -> forall w, truthful w -> abort w = false -> ended w = None -> at_ w <> Done true -> 
  (ended (run w h) = None /\ at_ (run w h) <> Done true) \/ (ended (run w h) = Some (-9)%Z /\ at_ (run w h) = Done false).
Proof.
  induction h as [|e h IH] using rev_ind; intros HG w T AB E NT; [now left|]. rewrite run_snoc.
  assert (HG' : hangs h) by (intros x I; apply HG; apply in_app_iff; now left).
  assert (X : truthful (run w h) /\ abort (run w h) = false).
  { clear - HG' T AB. revert w T AB. induction h as [|e h IH]; intros w T AB; [now split|]. change (run w (e :: h)) with (run (step w e) h). apply IH; [intros x I; apply HG'; now right|now apply truthful_step|].
    apply abort_step; [|exact AB]. destruct (HG' e (or_introl eq_refl)) as [(n&->)|(d&->)]; discriminate. }
  specialize (IH HG' w T AB E NT). destruct X as [T1 AB1]. clear T AB E NT. revert IH T1 AB1. generalize (run w h). clear w. intros w IH T AB.
  destruct (HG e) as [(n&->)|(d&->)]; [apply in_app_iff; right; now left| |exact IH].
  cbn [M_Proc.step]. unfold M_Proc.read_step. destruct IH as [[E NT]|[E DF]]; [|rewrite DF; now right].
  destruct (at_ w) as [| |o e|e| |r] eqn:Q; [rewrite AB; left; split; [exact E|discriminate]|left; split; [exact E|discriminate]|left; destruct o; split; [exact E|discriminate|exact E|discriminate]|left; destruct e; split; [exact E|discriminate|exact E|discriminate]| |left; rewrite Q; now split].
  destruct (_ || _); [left; split; [exact E|discriminate]|]. rewrite E. destruct (_ && _); [right; unfold kill; rewrite E; now split|left; split; [exact E|discriminate]].
Qed.
End R.
