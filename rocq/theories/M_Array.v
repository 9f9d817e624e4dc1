(** Arrays as lists with bounds-checked reads and writes.  An access outside the array is [None],
    standing for C++ undefined behaviour. *)
From Coq Require Import List Arith Lia.
Import ListNotations.

Definition get {A} (a : list A) (i : nat) : option A := nth_error a i.

Fixpoint set {A} (a : list A) (i : nat) (x : A) : option (list A) :=
  match a, i with
  | [], _ => None
  | _ :: r, O => Some (x :: r)
  | y :: r, S k => match set r k x with None => None | Some r' => Some (y :: r') end
  end.

Lemma get_lt {A} (a : list A) i : i < length a -> exists x, get a i = Some x.
Proof.
  intros H. unfold get. destruct (nth_error a i) eqn:E; eauto. apply nth_error_None in E. lia.
Qed.
Lemma get_some {A} (a : list A) i x : get a i = Some x -> i < length a.
Proof. intros H. apply nth_error_Some. unfold get in H. congruence. Qed.
Lemma set_lt {A} (a : list A) i x : i < length a -> exists b, set a i x = Some b.
Proof.
  revert i. induction a as [|y a IH]; intros [|i] H; cbn in *; try lia; eauto.
  destruct (IH i) as [b E]; [lia|]. rewrite E. eauto.
Qed.
Lemma set_len {A} (a : list A) i x b : set a i x = Some b -> length b = length a.
Proof.
  revert i b. induction a as [|y a IH]; intros [|i] b H; cbn in *; try discriminate.
  - injection H as <-. reflexivity.
  - destruct (set a i x) eqn:E; [|discriminate]. injection H as <-. cbn. f_equal. eauto.
Qed.
Lemma set_get_same {A} (a : list A) i x b : set a i x = Some b -> get b i = Some x.
Proof.
  revert i b. induction a as [|y a IH]; intros [|i] b H; cbn in *; try discriminate.
  - injection H as <-. reflexivity.
  - destruct (set a i x) eqn:E; [|discriminate]. injection H as <-. cbn. eapply IH; eauto.
Qed.
Lemma set_get_other {A} (a : list A) i x b j : set a i x = Some b -> j <> i -> get b j = get a j.
Proof.
  revert i b j. induction a as [|y a IH]; intros [|i] b j H N; cbn in *; try discriminate.
  - injection H as <-. destruct j; cbn; congruence.
  - destruct (set a i x) eqn:E; [|discriminate]. injection H as <-. destruct j; cbn; auto.
    apply (IH i l j E). congruence.
Qed.
Lemma set_same {A} (a : list A) i x : get a i = Some x -> set a i x = Some a.
Proof.
  revert i. induction a as [|y a IH]; intros [|i] H; cbn in *; try discriminate.
  - now injection H as ->.
  - rewrite (IH i H). reflexivity.
Qed.
Lemma set_set {A} (a : list A) i x y b c : set a i x = Some b -> set b i y = Some c -> set a i y = Some c.
Proof.
  revert i b c. induction a as [|z a IH]; intros [|i] b c H1 H2; cbn in *; try discriminate.
  - injection H1 as <-. cbn in H2. auto.
  - destruct (set a i x) eqn:E; [|discriminate]. injection H1 as <-. cbn in H2.
    destruct (set l i y) eqn:E2; [|discriminate]. rewrite (IH _ _ _ E E2). auto.
Qed.
Lemma set_comm {A} (a : list A) i j x y b c : i <> j -> set a i x = Some b -> set b j y = Some c ->
  exists b', set a j y = Some b' /\ set b' i x = Some c.
Proof.
  revert i j b c. induction a as [|z a IH]; intros [|i] [|j] b c N H1 H2; cbn in *; try discriminate; try congruence.
  - injection H1 as <-. cbn in H2. destruct (set a j y); [|discriminate]. injection H2 as <-. eexists; split; eauto.
  - destruct (set a i x) eqn:E; [|discriminate]. injection H1 as <-. cbn in H2. injection H2 as <-.
    eexists; split; eauto. cbn. now rewrite E.
  - destruct (set a i x) eqn:E; [|discriminate]. injection H1 as <-. cbn in H2.
    destruct (set l j y) eqn:E2; [|discriminate]. injection H2 as <-.
    destruct (IH i j l l0) as (b'&F1&F2); auto. rewrite F1. eexists; split; eauto. cbn. now rewrite F2.
Qed.
