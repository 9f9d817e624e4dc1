(** The pool of threads: an invariant, what it says of a pool that is stuck, and that it gets stuck. *)
From Coq Require Import List Arith Bool Lia Permutation.
From Verif Require Import M_TPool S_TPool.
Import ListNotations.

Section Lists.
Lemma set_length t c l : length (set t c l) = length l.
Proof. revert t. induction l as [|x r IH]; intros [|t]; cbn; auto. Qed.
Lemma set_same t c l x : nth_error l t = Some x -> nth_error (set t c l) t = Some c.
Proof. revert t. induction l as [|y r IH]; intros [|t]; cbn; try easy. apply IH. Qed.
Lemma set_other t u c l : t <> u -> nth_error (set t c l) u = nth_error l u.
Proof. revert t u. induction l as [|y r IH]; intros [|t] [|u] H; cbn; try easy. apply IH. lia. Qed.
Lemma set_inv t u c l x : nth_error (set t c l) u = Some x -> (u = t /\ x = c) \/ (u <> t /\ nth_error l u = Some x).
Proof.
  intros H. destruct (Nat.eq_dec u t) as [->|N].
  - left. split; [easy|]. destruct (nth_error l t) eqn:E; [rewrite (set_same _ _ _ _ E) in H; congruence|].
    apply nth_error_None in E. assert (t < length (set t c l)) by (apply nth_error_Some; congruence). rewrite set_length in *. lia.
  - right. split; [easy|]. now rewrite set_other in H by lia.
Qed.
Definition cnt (f : pc -> bool) (l : list pc) : nat := length (filter f l).
Lemma cnt_set f t c l x : nth_error l t = Some x -> cnt f (set t c l) + Nat.b2n (f x) = cnt f l + Nat.b2n (f c).
Proof.
  unfold cnt. revert t. induction l as [|y r IH]; intros [|t] H; try discriminate.
  - injection H as ->. cbn. destruct (f c), (f x); cbn; lia.
  - cbn in H. specialize (IH t H). cbn. destruct (f y); cbn; lia.
Qed.
Lemma cnt_app f l m : cnt f (l ++ m) = cnt f l + cnt f m.
Proof. unfold cnt. now rewrite filter_app, app_length. Qed.
Lemma cnt_le f l : cnt f l <= length l.
Proof. unfold cnt. induction l as [|x r IH]; cbn; [lia|]. destruct (f x); cbn; lia. Qed.
Lemma cnt_zero f l : (forall t x, nth_error l t = Some x -> f x = false) -> cnt f l = 0.
Proof.
  unfold cnt. induction l as [|x r IH]; intros H; [easy|]. cbn. rewrite (H 0 x eq_refl). apply IH. intros t y E. apply (H (S t) y E).
Qed.
Lemma cnt_pos f l t x : nth_error l t = Some x -> f x = true -> 1 <= cnt f l.
Proof.
  unfold cnt. revert t. induction l as [|y r IH]; intros [|t] H F; try discriminate.
  - injection H as ->. cbn. rewrite F. cbn. lia.
  - cbn in H. specialize (IH t H F). cbn. destruct (f y); cbn; lia.
Qed.
Lemma cnt_some f l : 1 <= cnt f l -> exists t x, nth_error l t = Some x /\ f x = true.
Proof.
  unfold cnt. induction l as [|y r IH]; cbn; [lia|]. destruct (f y) eqn:F; intros H; [exists 0, y; auto|]. destruct (IH H) as (t&x&E). now exists (S t), x.
Qed.
Lemma cnt_all f l : cnt f l = length l -> forall t x, nth_error l t = Some x -> f x = true.
Proof.
  unfold cnt. induction l as [|y r IH]; cbn; intros H [|t] x E; try discriminate; destruct (f y) eqn:F; cbn in H.
  - now injection E as <-.
  - pose proof (cnt_le f r) as Q. unfold cnt in Q. lia.
  - apply (IH ltac:(lia) t x E).
  - pose proof (cnt_le f r) as Q. unfold cnt in Q. lia.
Qed.
Lemma cnt_full f l : (forall t x, nth_error l t = Some x -> f x = true) -> cnt f l = length l.
Proof. unfold cnt. induction l as [|y r IH]; intros H; [easy|]. cbn. rewrite (H 0 y eq_refl). cbn. f_equal. apply IH. intros t x E. apply (H (S t) x E). Qed.

(** The jobs that are being run, with their threads. *)
Definition job_of (c : pc) : option job := match c with Run j | Told j => Some j | _ => None end.
Fixpoint running (k : nat) (l : list pc) : list (nat * job) :=
  match l with [] => [] | c :: r => match job_of c with Some j => (k, j) :: running (S k) r | None => running (S k) r end end.
Lemma running_ge k l x : In x (map fst (running k l)) -> k <= x.
Proof. revert k. induction l as [|c r IH]; intros k; cbn; [easy|]. destruct (job_of c); cbn; [intros [<-|H]|intros H]; try lia; apply IH in H; lia. Qed.
Lemma running_nodup k l : NoDup (map fst (running k l)).
Proof. revert k. induction l as [|c r IH]; intros k; cbn; [constructor|]. destruct (job_of c); cbn; auto. constructor; auto. intros H. apply running_ge in H. lia. Qed.
Lemma running_same k t c l x : nth_error l t = Some x -> job_of c = job_of x -> running k (set t c l) = running k l.
Proof.
  revert k t. induction l as [|y r IH]; intros k [|t] H E; try discriminate; cbn.
  - injection H as ->. now rewrite E.
  - cbn in H. now rewrite (IH (S k) t H E).
Qed.
Lemma running_add k t c l x j : nth_error l t = Some x -> job_of x = None -> job_of c = Some j -> Permutation (running k (set t c l)) ((k + t, j) :: running k l).
Proof.
  revert k t. induction l as [|y r IH]; intros k [|t] H E F; try discriminate; cbn.
  - injection H as ->. rewrite E, F. now rewrite Nat.add_0_r.
  - cbn in H. specialize (IH (S k) t H E F). replace (k + S t) with (S k + t) by lia. destruct (job_of y); [|exact IH]. rewrite IH. apply perm_swap.
Qed.
Lemma running_drop k t c l x j : nth_error l t = Some x -> job_of x = Some j -> job_of c = None -> Permutation (running k l) ((k + t, j) :: running k (set t c l)).
Proof.
  revert k t. induction l as [|y r IH]; intros k [|t] H E F; try discriminate; cbn.
  - injection H as ->. rewrite E, F. now rewrite Nat.add_0_r.
  - cbn in H. specialize (IH (S k) t H E F). replace (k + S t) with (S k + t) by lia. destruct (job_of y); [|exact IH]. rewrite IH. apply perm_swap.
Qed.
Lemma running_app k l c : job_of c = None -> running k (l ++ [c]) = running k l.
Proof. intros E. revert k. induction l as [|y r IH]; intros k; cbn; [now rewrite E|]. now rewrite IH. Qed.
Lemma running_length k l : length (running k l) = cnt (fun c => match job_of c with Some _ => true | None => false end) l.
Proof. unfold cnt. revert k. induction l as [|y r IH]; intros k; cbn; [easy|]. destruct (job_of y); cbn; now rewrite IH. Qed.
End Lists.

Definition taking (c : pc) : bool := match c with Take | Create | Told _ => true | _ => false end.
Definition idle (c : pc) : bool := match c with Wait | Check => true | _ => false end.
Definition waits (c : pc) : bool := match c with Wait => true | _ => false end.
Definition leaves (c : pc) : bool := match c with Gone | Join => true | _ => false end.

Section P.
Context (n : nat) (max : bool) (N : 1 <= n).
Record inv (p : pool) : Prop := {
  i_len : 1 <= length (threads p) <= n;
  i_create : length (threads p) < n -> nth_error (threads p) 0 = Some Create;
  i_first : forall t c, nth_error (threads p) t = Some c -> c = Create \/ c = Join -> t = 0;
  i_open : ph p = Open -> cnt leaves (threads p) = 0;
  i_wake : length (queue p) <= sem p + mid p + cnt taking (threads p) \/ cnt idle (threads p) <= sem p;
  i_close : match ph p with Open => True | Closing k => cnt waits (threads p) <= sem p + k | Closed => cnt waits (threads p) <= sem p end;
  i_gone : nth_error (threads p) 0 = Some Gone -> cnt gone (threads p) = length (threads p);
  i_mid : closing (ph p) = true -> mid p = 0;
  i_closed : ph p = Closed -> nth_error (threads p) 0 = Some Gone
}.
Lemma signal_spec s : signal n max s = S s \/ (signal n max s = s /\ n <= s).
Proof. unfold signal. destruct max; cbn; [|auto]. destruct (n <=? s) eqn:E; [right; split; [easy|now apply Nat.leb_le]|auto]. Qed.
Arguments signal : simpl never.
Lemma inv_start : inv start.
Proof. constructor; cbn; try lia; try easy. intros [|[|t]] c H; [easy|discriminate|discriminate]. Qed.

Lemma forallb_gone l : forallb gone l = true -> cnt gone l = length l.
Proof. intros H. apply cnt_full. intros t x E. rewrite forallb_forall in H. apply H. eapply nth_error_In; eauto. Qed.

(** Changing one thread. *)
Ltac counts H := 
  match type of H with nth_error ?l ?t = Some ?x =>
    match goal with |- context [set t ?c l] =>
      pose proof (cnt_set leaves t c l x H); pose proof (cnt_set taking t c l x H); pose proof (cnt_set idle t c l x H); pose proof (cnt_set waits t c l x H); pose proof (cnt_set gone t c l x H)
    end end.
Lemma gone_others p t x : inv p -> nth_error (threads p) 0 = Some Gone -> nth_error (threads p) t = Some x -> x = Gone.
Proof. intros I G E. pose proof (cnt_all _ _ (i_gone p I G) t x E) as H. now destruct x. Qed.

Lemma inv_step p e q o : inv p -> step n max p e = Some (q, o) -> inv q.
Proof.
  intros I H. destruct (I) as [I1 I2 I3 I4 I5 I6 I7 I8 I9].
  pose proof (cnt_le idle (threads p)) as LI. pose proof (cnt_le waits (threads p)) as LW.
  destruct e as [j| | | | |t|t k]; cbn [step] in H.
  - destruct (ph p) eqn:P; try discriminate. injection H as <- <-. constructor; cbn [threads queue sem mid ph closing]; auto; try easy. rewrite app_length. cbn. lia.
  - destruct (mid p) as [|m] eqn:M; [discriminate|]. injection H as <- <-. destruct (closing (ph p)) eqn:C; [specialize (I8 eq_refl); congruence|]. destruct (ph p) eqn:P; try discriminate.
    constructor; cbn [threads queue sem mid ph closing]; auto; try easy. destruct (signal_spec (sem p)) as [->|(->&G)]; lia.
  - destruct (ph p) eqn:P; try discriminate. destruct (mid p) eqn:M; [|discriminate]. injection H as <- <-. constructor; cbn [threads queue sem mid ph closing]; auto; try easy; try lia.
  - destruct (ph p) as [|[|k]|] eqn:P; try discriminate. injection H as <- <-. constructor; cbn [threads queue sem mid ph closing]; auto; try easy; destruct (signal_spec (sem p)) as [->|(->&G)]; lia.
  - destruct (ph p) as [|[|k]|] eqn:P; try discriminate. destruct (threads p) as [|[]  r] eqn:TH; try discriminate. injection H as <- <-. constructor; cbn [threads queue sem mid ph closing]; auto; try easy; lia.
  - destruct (nth_error (threads p) t) as [c|] eqn:E; [|discriminate].
    assert (NG : c <> Gone -> nth_error (threads p) 0 <> Some Gone) by (intros Q G; apply Q; eapply gone_others; eauto).
    assert (F0 : forall c', (c = Create \/ c = Join \/ ~ (c' = Create \/ c' = Join)) -> (forall u x, nth_error (set t c' (threads p)) u = Some x -> x = Create \/ x = Join -> u = 0)).
    { intros c' Q u x EU X. apply set_inv in EU. destruct EU as [(->&->)|(_&EU)]; [|eauto]. destruct Q as [Q|[Q|Q]]; [eapply I3; eauto|eapply I3; eauto|tauto]. }
    assert (C0 : c <> Create -> forall c', length (set t c' (threads p)) < n -> nth_error (set t c' (threads p)) 0 = Some Create).
    { intros Q c' L. rewrite set_length in L. specialize (I2 L). destruct t as [|t]; [congruence|]. now rewrite set_other. }
    assert (G0 : c <> Gone -> forall c', c' <> Gone -> nth_error (set t c' (threads p)) 0 <> Some Gone).
    { intros Q c' Q' G. apply set_inv in G. destruct G as [(_&G)|(_&G)]; [congruence|]. now apply (NG Q). }
    assert (D0 : c <> Gone -> ph p <> Closed) by (intros Q P; apply (NG Q), I9, P).
    destruct c.
    + (* Create *) destruct (length (threads p) <? n) eqn:L.
      * apply Nat.ltb_lt in L. injection H as <- <-. constructor; cbn [threads queue sem mid ph closing]; rewrite ?app_length, ?cnt_app; cbn [length]; auto; try (cbn; lia).
        -- intros _. rewrite nth_error_app1 by lia. now apply I2.
        -- intros u x EU X. destruct (Nat.lt_ge_cases u (length (threads p))) as [B|B]; [rewrite nth_error_app1 in EU by lia; eauto|]. rewrite nth_error_app2 in EU by lia. destruct (u - length (threads p)) as [|[]]; cbn in EU; try discriminate. injection EU as <-. destruct X; discriminate.
        -- intros P. rewrite (I4 P). easy.
        -- destruct (ph p); cbn; try lia.
        -- rewrite nth_error_app1 by lia. intros G. now exfalso; apply NG.
        -- intros P. rewrite nth_error_app1 by lia. now apply I9.
      * apply Nat.ltb_ge in L. injection H as <- <-. counts E; constructor; cbn [threads queue sem mid ph closing]; cbn [leaves taking idle waits gone Nat.b2n length closing] in *; auto; rewrite ?set_length; try lia.
        -- apply F0. auto.
        -- intros P. specialize (I4 P). lia.
        -- destruct (ph p); lia.
        -- intros G. exfalso. now apply (G0 ltac:(easy) Take).
        -- intros P. now apply D0 in P.
    + (* Take *) destruct (queue p) as [|j r] eqn:Q; injection H as <- <-; counts E; constructor; cbn [threads queue sem mid ph closing]; cbn [leaves taking idle waits gone Nat.b2n length closing] in *; auto; rewrite ?set_length; try lia.
      * rewrite <- (set_length t Check). now apply C0.
      * apply F0. right. right. intros [X|X]; discriminate.
      * intros P. specialize (I4 P). lia.
      * destruct (ph p); lia.
      * intros G. exfalso. now apply (G0 ltac:(easy) Check).
      * intros P. now apply D0 in P.
      * rewrite <- (set_length t (Run j)). now apply C0.
      * apply F0. right. right. intros [X|X]; discriminate.
      * intros P. specialize (I4 P). lia.
      * destruct (ph p); lia.
      * intros G. exfalso. now apply (G0 ltac:(easy) (Run j)).
      * intros P. now apply D0 in P.
    + (* Run *) injection H as <- <-. counts E; constructor; cbn [threads queue sem mid ph closing]; cbn [leaves taking idle waits gone Nat.b2n length closing] in *; auto; rewrite ?set_length; try lia.
      * rewrite <- (set_length t Take). now apply C0.
      * apply F0. right. right. intros [X|X]; discriminate.
      * intros P. specialize (I4 P). lia.
      * destruct (ph p); lia.
      * intros G. exfalso. now apply (G0 ltac:(easy) Take).
      * intros P. now apply D0 in P.
    + (* Told *) injection H as <- <-. counts E; constructor; cbn [threads queue sem mid ph closing]; cbn [leaves taking idle waits gone Nat.b2n length closing] in *; auto; rewrite ?set_length; try lia.
      * rewrite <- (set_length t (Run j)). now apply C0.
      * apply F0. right. right. intros [X|X]; discriminate.
      * intros P. specialize (I4 P). lia.
      * destruct (signal_spec (sem p)) as [->|(->&G)]; lia.
      * destruct (ph p); try easy; destruct (signal_spec (sem p)) as [->|(->&G)]; lia.
      * intros G. exfalso. now apply (G0 ltac:(easy) (Run j)).
      * intros P. now apply D0 in P.
    + (* Check *) destruct (closing (ph p)) eqn:CL; injection H as <- <-.
      * destruct (t =? 0) eqn:T0; [apply Nat.eqb_eq in T0; subst t|apply Nat.eqb_neq in T0]; counts E; constructor; cbn [threads queue sem mid ph closing]; cbn [leaves taking idle waits gone Nat.b2n length closing] in *; auto; rewrite ?set_length; try lia.
        -- rewrite <- (set_length 0 Join). now apply C0.
        -- intros u x EU X. apply set_inv in EU. destruct EU as [(->&->)|(_&EU)]; [easy|eauto].
        -- intros P. rewrite P in CL. discriminate.
        -- destruct (ph p); lia.
        -- intros G. exfalso. now apply (G0 ltac:(easy) Join).
        -- intros P. now apply D0 in P.
        -- rewrite <- (set_length t Gone). now apply C0.
        -- apply F0. right. right. intros [X|X]; discriminate.
        -- intros P. rewrite P in CL. discriminate.
        -- destruct (ph p); lia.
        -- intros G. apply set_inv in G. destruct G as [(G&_)|(_&G)]; [congruence|]. exfalso. now apply NG in G.
        -- intros P. now apply D0 in P.
      * destruct (ph p) eqn:P; try discriminate. counts E; constructor; cbn [threads queue sem mid ph closing]; cbn [leaves taking idle waits gone Nat.b2n length closing] in *; auto; rewrite ?set_length; try lia; try easy.
        -- rewrite <- (set_length t Wait). now apply C0.
        -- apply F0. right. right. intros [X|X]; discriminate.
        -- intros _. specialize (I4 eq_refl). lia.
        -- intros G. exfalso. now apply (G0 ltac:(easy) Wait).
    + (* Wait *) destruct (sem p) as [|s] eqn:SE; [discriminate|]. injection H as <- <-. counts E; constructor; cbn [threads queue sem mid ph closing]; cbn [leaves taking idle waits gone Nat.b2n length closing] in *; auto; rewrite ?set_length; try lia.
      * rewrite <- (set_length t Take). now apply C0.
      * apply F0. right. right. intros [X|X]; discriminate.
      * intros P. specialize (I4 P). lia.
      * destruct (ph p); lia.
      * intros G. exfalso. now apply (G0 ltac:(easy) Take).
      * intros P. now apply D0 in P.
    + (* Join *) destruct (forallb gone (tl (threads p))) eqn:FG; [|discriminate]. injection H as <- <-. assert (t = 0) by (apply (I3 t Join E); auto). subst t.
      counts E; constructor; cbn [threads queue sem mid ph closing]; cbn [leaves taking idle waits gone Nat.b2n length closing] in *; auto; rewrite ?set_length; try lia.
      * rewrite <- (set_length 0 Gone). now apply C0.
      * apply F0. right. right. intros [X|X]; discriminate.
      * intros P. specialize (I4 P). lia.
      * destruct (ph p); lia.
      * intros _. apply forallb_gone in FG. destruct (threads p) as [|y r]; [discriminate|]. cbn in *. unfold cnt in *. cbn. now rewrite FG.
      * intros P. now apply D0 in P.
    + discriminate.
  - destruct (nth_error (threads p) t) as [c|] eqn:E; [|discriminate]. destruct c; try discriminate. injection H as <- <-.
    assert (NG : nth_error (threads p) 0 <> Some Gone) by (intros G; pose proof (gone_others p t _ I G E); discriminate).
    counts E; constructor; cbn [threads queue sem mid ph closing]; cbn [leaves taking idle waits gone Nat.b2n length closing] in *; auto; rewrite ?set_length, ?app_length; try (cbn; lia).
    + intros L. specialize (I2 L). destruct t as [|t]; [congruence|]. now rewrite set_other.
    + intros u x EU X. apply set_inv in EU. destruct EU as [(->&->)|(_&EU)]; [destruct X; discriminate|eauto].
    + intros P. specialize (I4 P). lia.
    + destruct (ph p); lia.
    + intros G. apply set_inv in G. destruct G as [(_&G)|(_&G)]; [discriminate|]. now apply NG in G.
    + intros P. now apply I9 in P.
Qed.
End P.
