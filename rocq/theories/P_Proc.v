(** Invariants of running a program, for C94. *)
From Coq Require Import String Ascii List Arith Bool ZArith Lia.
From Verif Require Import M_Path M_Args M_Proc S_Proc.
Import ListNotations.
Local Open Scope list_scope.
Local Notation "'length'" := List.length.

Definition prefix (a b : str) : Prop := exists x, b = a ++ x.
Lemma prefix_refl a : prefix a a. Proof. exists []. now rewrite app_nil_r. Qed.
Lemma prefix_snoc a b x : prefix a b -> prefix a (b ++ x).
Proof. intros (y&->). exists (y ++ x). now rewrite app_assoc. Qed.

Section R.
Context (cap limit : nat) (code : Z).
Notation step := (step cap limit code).
Notation run := (run cap limit code).
Notation put := (put cap).
Notation run_program := (run_program cap code).
Notation read_step := (read_step limit).

Lemma run_app w a b : run w (a ++ b) = run (run w a) b. Proof. apply fold_left_app. Qed.
Lemma run_snoc w a e : run w (a ++ [e]) = step (run w a) e. Proof. now rewrite run_app. Qed.

(** Case analysis of a step. *)
Ltac calc := cbn [M_Proc.step M_Proc.run_program M_Proc.put M_Proc.read_step note see_exit read_o read_e go set_program kill negb orb
  todo ended pipe_o pipe_e wrote_o wrote_e clock abort at_ got_o got_e prev_o prev_e exited].
Ltac steps_of w e :=
  destruct w as [td en po pe wo we ck ab pl go_ ge vo ve ex]; destruct e as [|o b|d| |n]; cbn [M_Proc.step];
  [ unfold M_Proc.run_program; destruct en as [z|]; [|destruct td as [|[o b] td]; [|unfold M_Proc.put; destruct o; calc; [destruct (Nat.ltb_spec (length po) cap)|destruct (Nat.ltb_spec (length pe) cap)]]]
  | unfold M_Proc.put; destruct o; calc; [destruct (Nat.ltb_spec (length po) cap)|destruct (Nat.ltb_spec (length pe) cap)]
  | | | unfold M_Proc.read_step; destruct pl as [| |o e|e| |r]; calc;
        [ destruct ab eqn:?; [unfold kill; destruct en as [z|]|] | | destruct o | destruct e
        | destruct (Nat.eqb_spec vo (length go_)); [destruct (Nat.eqb_spec ve (length ge))|]; calc;
          [destruct en as [z|]; [destruct ex|destruct ((0 <? limit) && (limit <=? ck)) eqn:?; unfold kill]| |] | ]]; calc.

(** What is written is read or still there. *)
Definition kept (w : world) : Prop := wrote_o w = got_o w ++ pipe_o w /\ wrote_e w = got_e w ++ pipe_e w.
Lemma kept_step w e : kept w -> kept (step w e).
Proof.
  unfold kept. steps_of w e; intros [-> ->]; split; first [reflexivity|symmetry; apply app_assoc|etransitivity; [|apply app_assoc]; f_equal; symmetry; exact (firstn_skipn (S n) _)].
Qed.
Lemma kept_run script h : kept (run (spawned script) h).
Proof. induction h as [|e h IH] using rev_ind; [split; reflexivity|]. rewrite run_snoc. now apply kept_step. Qed.

(** The reader. *)
Definition grown (w : world) : bool := negb (prev_o w =? length (got_o w)) || negb (prev_e w =? length (got_e w)).
Definition truthful (w : world) : Prop :=
  (exited w = true -> ended w <> None) /\
  match at_ w with
  | Choose => prev_o w = length (got_o w) /\ prev_e w = length (got_e w)
  | ReadOut o e => prev_o w = length (got_o w) /\ prev_e w = length (got_e w) /\ (o = true -> pipe_o w <> []) /\ (e = true -> pipe_e w <> [])
  | ReadErr e => prev_o w <= length (got_o w) /\ prev_e w = length (got_e w) /\ (e = true -> pipe_e w <> [])
  | Check => prev_o w <= length (got_o w) /\ prev_e w <= length (got_e w)
  | _ => True
  end.
Lemma truthful_step w e : truthful w -> truthful (step w e).
Proof.
  unfold truthful. steps_of w e; intros (A&B); try (split; [solve [exact A|congruence|intros _; discriminate]|]); try exact I; try exact B.
  all: try (destruct pl as [| |o' e'|e'| |r]; try exact B; repeat match goal with H : _ /\ _ |- _ => destruct H end; repeat split; auto; intros; try (intros X; apply app_eq_nil in X as [_ X]; discriminate X)).
  all: repeat match goal with H : _ /\ _ |- _ => destruct H end; repeat split; auto; rewrite ?app_length; try lia.
  all: unfold is_empty; try (destruct po; cbn; congruence); try (destruct pe; cbn; congruence).
Qed.
Lemma truthful_run script h : truthful (run (spawned script) h).
Proof. induction h as [|e h IH] using rev_ind; [split; [discriminate|exact I]|]. rewrite run_snoc. now apply truthful_step. Qed.

(** After the end of the program. *)
Section Z.
Context (zo ze : str).
Definition after (w : world) : Prop :=
  ended w <> None /\ prefix zo (wrote_o w) /\ prefix ze (wrote_e w) /\
  (abort w = false -> match at_ w with
   | ReadOut o e => exited w = true -> (o = false -> prefix zo (got_o w)) /\ (e = false -> prefix ze (got_e w))
   | ReadErr e => exited w = true -> (prev_o w = length (got_o w) -> prefix zo (got_o w)) /\ (e = false -> prefix ze (got_e w))
   | Check => exited w = true -> (prev_o w = length (got_o w) -> prefix zo (got_o w)) /\ (prev_e w = length (got_e w) -> prefix ze (got_e w))
   | Done true => prefix zo (got_o w) /\ prefix ze (got_e w)
   | _ => True
   end).
Lemma after_step w e : kept w -> truthful w -> after w -> after (step w e).
Proof.
  unfold kept, truthful, after. steps_of w e; intros [K1 K2] [T1 T2] (A&B&C&D); try congruence.
  all: try (split; [exact A|]; split; [now try apply prefix_snoc|]; split; [now try apply prefix_snoc|]).
  all: try exact D; try (intros _; exact I); try discriminate.
  all: try (intros X; specialize (D X)).
  - intros Hx. split; intros Q; [destruct po; [|discriminate Q]; rewrite app_nil_r in K1; now rewrite <- K1|destruct pe; [|discriminate Q]; rewrite app_nil_r in K2; now rewrite <- K2].
  - intros Hx. destruct (D Hx) as [_ D2]. split; [|exact D2]. intros Q. exfalso. destruct T2 as (P1&_&P3&_). rewrite app_length in Q. destruct po; [now apply P3|]. cbn in Q. lia.
  - intros Hx. destruct (D Hx) as [D1 D2]. split; auto.
  - intros Hx. destruct (D Hx) as [D1 D2]. split; [exact D1|]. intros Q. exfalso. destruct T2 as (_&P2&P3). rewrite app_length in Q. destruct pe; [now apply P3|]. cbn in Q. lia.
  - intros Hx. destruct (D Hx) as [D1 D2]. split; auto.
  - destruct (D eq_refl) as [D1 D2]. split; auto.
Qed.
Lemma after_run w h : kept w -> truthful w -> after w -> after (run w h).
Proof.
  intros K T A. induction h as [|e h IH] using rev_ind; [exact A|]. rewrite run_snoc. apply after_step; [| |exact IH].
  - clear IH A T. induction h as [|x h IH] using rev_ind; [exact K|]. rewrite run_snoc. now apply kept_step.
  - clear IH A K. induction h as [|x h IH] using rev_ind; [exact T|]. rewrite run_snoc. now apply truthful_step.
Qed.
End Z.

Lemma abort_run w h : abort w = true -> abort (run w h) = true.
Proof.
  intros A. induction h as [|e h IH] using rev_ind; [exact A|]. rewrite run_snoc. revert IH. generalize (run w h). clear. intros w. steps_of w e; auto.
Qed.
Definition over (w : world) : Prop := forall r, at_ w = Done r -> abort w = true \/ ended w <> None.
Lemma over_step w e : over w -> over (step w e).
Proof. unfold over. steps_of w e; intros A q; specialize (A q); auto; try discriminate; try (intros _; right; discriminate); intros X; specialize (A X); destruct A; auto; congruence. Qed.
Lemma over_run script h : over (run (spawned script) h).
Proof. induction h as [|e h IH] using rev_ind; [discriminate|]. rewrite run_snoc. now apply over_step. Qed.

Lemma captured script h1 h2 : let w1 := run (spawned script) h1 in let w2 := run w1 [Run] in let w := run w2 h2 in
  ended w1 = None -> ended w2 <> None -> at_ w = Done true -> abort w = false ->
  prefix (wrote_o w2) (got_o w) /\ prefix (wrote_e w2) (got_e w).
Proof.
  intros w1 w2 w E1 E2 D AB.
  assert (Z : exited w2 = exited w1 /\ at_ w2 = at_ w1 /\ abort w2 = abort w1).
  { unfold w2. cbn [M_Proc.run fold_left]. cbn [M_Proc.step]. unfold M_Proc.run_program. rewrite E1. destruct (todo w1) as [|[[|] b] r]; [repeat split| |]; unfold M_Proc.put; destruct (_ <? _); repeat split. }
  destruct Z as (Z1&Z2&Z3).
  assert (A : after (wrote_o w2) (wrote_e w2) w2).
  { split; [exact E2|]. split; [apply prefix_refl|]. split; [apply prefix_refl|]. intros AB2.
    assert (Y : exited w1 = false) by (destruct (truthful_run script h1) as [T _]; fold w1 in T; destruct (exited w1); [now specialize (T eq_refl)|reflexivity]).
    rewrite Z1, Y. destruct (at_ w2) eqn:P; try exact I; try (intros X; discriminate X). destruct whole; [|exact I].
    exfalso. destruct (over_run script h1 _ (eq_sym Z2)) as [Q|Q]; fold w1 in Q; congruence. }
  assert (R : w2 = run (spawned script) (h1 ++ [Run])) by (symmetry; apply run_app).
  pose proof (after_run (wrote_o w2) (wrote_e w2) w2 h2) as H. fold w in H.
  assert (H' : after (wrote_o w2) (wrote_e w2) w) by (apply H; [rewrite R; apply kept_run|rewrite R; apply truthful_run|exact A]).
  destruct H' as (_&_&_&H'). specialize (H' AB). rewrite D in H'. exact H'.
Qed.

(** Without other writers. *)
Definition scripted (script : list act) (w : world) : Prop :=
  prints true script = wrote_o w ++ prints true (todo w) /\ prints false script = wrote_e w ++ prints false (todo w) /\
  (forall s, ended w = Some s -> (todo w = [] /\ s = code) \/ (abort w = true /\ at_ w = Done true) \/ at_ w = Done false) /\
  (at_ w = Done false -> ended w = Some (-9)%Z /\ 0 < limit <= clock w).
Lemma scripted_step script w e : (forall o b, e <> Child o b) -> scripted script w -> scripted script (step w e).
Proof.
  intros NC. unfold scripted. steps_of w e; try (exfalso; now apply (NC o b)); try (exfalso; now apply (NC true b)); try (exfalso; now apply (NC false b)); intros (A&B&C&D); rewrite <- ?app_assoc.
  all: try (split; [exact A|]; split; [exact B|]).
  all: try (split; [solve [exact C|intros s Hs; specialize (C s Hs); intuition congruence|intros s Hs; injection Hs as <-; auto]|]); try (intros X; discriminate X); try exact D.
  - intros X. destruct (D X). discriminate.
  - intros X. destruct (D X). split; [assumption|lia].
  - apply andb_prop in Heqb as [H1 H2]. apply Nat.ltb_lt in H1. apply Nat.leb_le in H2. auto.
Qed.
Lemma scripted_run script h : alone h -> scripted script (run (spawned script) h).
Proof.
  induction h as [|e h IH] using rev_ind; intros AL; [split; [reflexivity|]; split; [reflexivity|]; split; discriminate|]. rewrite run_snoc. apply scripted_step.
  - intros o b ->. apply (AL o b). apply in_app_iff. right. now left.
  - apply IH. intros o b I. apply (AL o b). apply in_app_iff. now left.
Qed.
End R.
