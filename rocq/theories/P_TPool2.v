(** The pool of threads: what is seen of it, when it is stuck, and that it does not go on for ever. *)
From Coq Require Import List Arith Bool Lia Permutation.
From Verif Require Import M_TPool S_TPool P_TPool.
Import ListNotations.

Lemma submitted_app l m : submitted (l ++ m) = submitted l ++ submitted m. Proof. apply flat_map_app. Qed.
Lemma began_app l m : began (l ++ m) = began l ++ began m. Proof. apply flat_map_app. Qed.
Lemma ended_app l m : ended (l ++ m) = ended l ++ ended m. Proof. apply flat_map_app. Qed.

Section P.
Context (n : nat) (max : bool) (N : 1 <= n).
Notation step := (step n max).
Notation run := (run n max).
Notation history := (history n max).

Lemma run_app p es fs : run p (es ++ fs) = match run p es with None => None | Some (q, o) => match run q fs with None => None | Some (z, o') => Some (z, o ++ o') end end.
Proof.
  revert p. induction es as [|e r IH]; intros p; cbn; [destruct (run p fs) as [[]|]; easy|]. destruct (step p e) as [[q o]|]; [|easy]. rewrite IH. destruct (run q r) as [[z o']|]; [|easy].
  destruct (run z fs) as [[y o'']|]; [|easy]. now rewrite app_assoc.
Qed.
(** Induction over what has happened, from the end. *)
Lemma history_ind (P : pool -> list obs -> Prop) : P start [] -> (forall p l e q o, P p l -> step p e = Some (q, o) -> P q (l ++ o)) -> forall es p l, history es = Some (p, l) -> P p l.
Proof.
  intros P0 PS es. induction es as [|e r IH] using rev_ind; intros p l H.
  - now injection H as <- <-.
  - unfold M_TPool.history in H. rewrite run_app in H. fold (history r) in H. destruct (history r) as [[q o]|]; [|discriminate]. specialize (IH q o eq_refl). cbn in H. destruct (step q e) as [[z o']|] eqn:E; [|discriminate]. rewrite app_nil_r in H. injection H as <- <-. eapply PS; eauto.
Qed.

(** What is seen and the state. *)
Record sees (p : pool) (l : list obs) : Prop := {
  s_queue : submitted l = map snd (began l) ++ queue p;
  s_run : Permutation (began l) (ended l ++ running 0 (threads p));
  s_dest : In Destroyed l <-> closing (ph p) = true;
  s_ret : In Returned l <-> ph p = Closed
}.
Lemma sees_step p l e q o : inv n p -> sees p l -> step p e = Some (q, o) -> sees q (l ++ o).
Proof.
  intros I [A B C D] H.
  assert (K : forall x, In x (l ++ []) <-> In x l) by (intros; now rewrite app_nil_r).
  destruct e as [j| | | | |t|t k]; cbn [M_TPool.step] in H.
  - destruct (ph p) eqn:P; try discriminate. injection H as <- <-. constructor; rewrite ?submitted_app, ?began_app, ?ended_app; cbn [submitted began ended flat_map queue threads ph]; rewrite ?app_nil_r; auto; rewrite ?in_app_iff; cbn [In].
    + rewrite A. now rewrite <- app_assoc.
    + rewrite C. split; [intros [Q|[Q|[]]]; [exact Q|discriminate]|auto].
    + rewrite D. split; [intros [Q|[Q|[]]]; [exact Q|discriminate]|auto].
  - destruct (mid p); [discriminate|]. injection H as <- <-. rewrite app_nil_r. now constructor.
  - destruct (ph p) eqn:P; try discriminate. destruct (mid p); [|discriminate]. injection H as <- <-. constructor; rewrite ?submitted_app, ?began_app, ?ended_app; cbn [submitted began ended flat_map queue threads ph]; rewrite ?app_nil_r; auto; rewrite ?in_app_iff; cbn [In].
    + cbn. tauto.
    + rewrite D. split; [intros [Q|[Q|[]]]; discriminate|discriminate].
  - destruct (ph p) as [|[|k]|] eqn:P; try discriminate. injection H as <- <-. rewrite app_nil_r. constructor; auto. cbn [ph]. rewrite D. split; discriminate.
  - destruct (ph p) as [|[|k]|] eqn:P; try discriminate. destruct (threads p) as [|[] r] eqn:TH; try discriminate. injection H as <- <-. constructor; rewrite ?submitted_app, ?began_app, ?ended_app; cbn [submitted began ended flat_map queue threads ph]; rewrite ?app_nil_r; auto; rewrite ?in_app_iff; cbn [In].
    + rewrite C. cbn. intuition discriminate.
    + tauto.
  - destruct (nth_error (threads p) t) as [c|] eqn:E; [|discriminate]. destruct c.
    + destruct (length (threads p) <? n); injection H as <- <-; rewrite app_nil_r; constructor; cbn [queue threads ph]; auto; [rewrite running_app by easy|erewrite running_same by (exact E || reflexivity)]; exact B.
    + destruct (queue p) as [|j r] eqn:Q; injection H as <- <-.
      * rewrite app_nil_r. constructor; cbn [queue threads ph]; auto. erewrite running_same by (exact E || reflexivity). exact B.
      * constructor; rewrite ?submitted_app, ?began_app, ?ended_app; cbn [submitted began ended flat_map queue threads ph]; rewrite ?app_nil_r; auto; rewrite ?in_app_iff; cbn [In].
        -- rewrite A, map_app, <- app_assoc. easy.
        -- rewrite (running_add 0 t (Run j) _ _ j E eq_refl eq_refl), B. cbn [Nat.add]. rewrite <- app_assoc. apply Permutation_app_head. now rewrite Permutation_app_comm.
        -- rewrite C. intuition discriminate.
        -- rewrite D. intuition discriminate.
    + injection H as <- <-. constructor; rewrite ?submitted_app, ?began_app, ?ended_app; cbn [submitted began ended flat_map queue threads ph]; rewrite ?app_nil_r; auto; rewrite ?in_app_iff; cbn [In].
      * rewrite B, (running_drop 0 t Take _ _ j E eq_refl eq_refl). cbn [Nat.add]. now rewrite <- app_assoc.
      * rewrite C. intuition discriminate.
      * rewrite D. intuition discriminate.
    + injection H as <- <-. rewrite app_nil_r. constructor; cbn [queue threads ph]; auto. erewrite running_same by (exact E || reflexivity). exact B.
    + destruct (closing (ph p)) eqn:CL; injection H as <- <-; rewrite app_nil_r; constructor; cbn [queue threads ph]; auto; rewrite ?CL; auto; erewrite running_same by (exact E || now destruct (t =? 0)); exact B.
    + destruct (sem p); [discriminate|]. injection H as <- <-. rewrite app_nil_r. constructor; cbn [queue threads ph]; auto. erewrite running_same by (exact E || reflexivity). exact B.
    + destruct (forallb _ _); [|discriminate]. injection H as <- <-. rewrite app_nil_r. constructor; cbn [queue threads ph]; auto. erewrite running_same by (exact E || reflexivity). exact B.
    + discriminate.
  - destruct (nth_error (threads p) t) as [c|] eqn:E; [|discriminate]. destruct c; try discriminate. injection H as <- <-. constructor; rewrite ?submitted_app, ?began_app, ?ended_app; cbn [submitted began ended flat_map queue threads ph]; rewrite ?app_nil_r; auto; rewrite ?in_app_iff; cbn [In].
    + rewrite A. now rewrite <- app_assoc.
    + erewrite running_same by (exact E || reflexivity). exact B.
    + rewrite C. intuition discriminate.
    + rewrite D. intuition discriminate.
Qed.
Lemma history_ok es p l : history es = Some (p, l) -> inv n p /\ sees p l.
Proof.
  revert es p l. apply history_ind.
  - split; [now apply inv_start|]. constructor; cbn; try easy.
  - intros p l e q o (I&V) H. split; [eapply inv_step; eauto|eapply sees_step; eauto].
Qed.

(** When nothing moves but jobs that end. *)
Lemma quiet_threads p : inv n p -> (forall e q o, internal e -> step p e = Some (q, o) -> exists t j, o = [Ended t j]) -> mid p = 0 /\ (forall k, ph p <> Closing (S k)) /\
  forall t c, nth_error (threads p) t = Some c -> (exists j, c = Run j) \/ c = Gone \/ (c = Wait /\ sem p = 0) \/ (c = Join /\ forallb gone (tl (threads p)) = false).
Proof.
  intros I Q. assert (Q' : forall e q, internal e -> step p e <> Some (q, [])) by (intros e q J E; destruct (Q e q [] J E) as (t&j&F); discriminate). split; [|split].
  - destruct (mid p) eqn:M; [easy|]. exfalso. eapply (Q' Notify); [easy|]. cbn [M_TPool.step]. now rewrite M.
  - intros k P. eapply (Q' Post); [easy|]. cbn [M_TPool.step]. now rewrite P.
  - intros t c E. destruct c.
    + exfalso. destruct (length (threads p) <? n) eqn:L; (eapply (Q' (Step t)); [easy|]; cbn [M_TPool.step]; rewrite E, L; reflexivity).
    + exfalso. destruct (queue p) as [|j r] eqn:QQ; [eapply (Q' (Step t)); [easy|]; cbn [M_TPool.step]; rewrite E, QQ; reflexivity|]. edestruct (Q (Step t)) as (u&k&F); [easy|cbn [M_TPool.step]; rewrite E, QQ; reflexivity|discriminate].
    + left. now exists j.
    + exfalso. eapply (Q' (Step t)); [easy|]. cbn [M_TPool.step]. rewrite E. reflexivity.
    + exfalso. destruct (closing (ph p)) eqn:C; (eapply (Q' (Step t)); [easy|]; cbn [M_TPool.step]; rewrite E, C; reflexivity).
    + right. right. left. split; [easy|]. destruct (sem p) eqn:SE; [easy|]. exfalso. eapply (Q' (Step t)); [easy|]. cbn [M_TPool.step]. rewrite E, SE. reflexivity.
    + right. right. right. split; [easy|]. destruct (forallb gone (tl (threads p))) eqn:F; [|easy]. exfalso. eapply (Q' (Step t)); [easy|]. cbn [M_TPool.step]. rewrite E, F. reflexivity.
    + auto.
Qed.
Definition runs (c : pc) : bool := match job_of c with Some _ => true | None => false end.
Lemma quiet_open p : inv n p -> (forall e q o, internal e -> step p e = Some (q, o) -> exists t j, o = [Ended t j]) -> ph p = Open -> queue p = [] \/ cnt runs (threads p) = n.
Proof.
  intros I Q P. destruct (quiet_threads p I Q) as (M&_&T). destruct I as [I1 I2 I3 I4 I5 I6 I7 I8 I9].
  assert (T' : forall t c, nth_error (threads p) t = Some c -> (exists j, c = Run j) \/ (c = Wait /\ sem p = 0)).
  { intros t c E. destruct (T t c E) as [H|[->|[H|(->&_)]]]; auto; exfalso; pose proof (cnt_pos leaves _ _ _ E eq_refl); rewrite (I4 P) in *; lia. }
  assert (K0 : cnt taking (threads p) = 0) by (apply cnt_zero; intros t x E; destruct (T' t x E) as [(j&->)|(->&_)]; reflexivity).
  destruct (Nat.eq_dec (cnt idle (threads p)) 0) as [Z|Z].
  - right. assert (F : cnt runs (threads p) = length (threads p)).
    { apply cnt_full. intros t x E. destruct (T' t x E) as [(j&->)|(->&_)]; [easy|]. pose proof (cnt_pos idle _ _ _ E eq_refl). lia. }
    rewrite F. destruct (Nat.eq_dec (length (threads p)) n) as [|NE]; [easy|]. exfalso. specialize (I2 ltac:(lia)). destruct (T' 0 Create I2) as [(j&H)|(H&_)]; discriminate.
  - left. destruct (cnt_some idle (threads p) ltac:(lia)) as (t&x&E&F). destruct (T' t x E) as [(j&->)|(->&SE)]; [discriminate|]. destruct I5 as [I5|I5]; [|lia]. rewrite SE, M, K0 in I5. now destruct (queue p).
Qed.
Lemma stuck_ends p : inv n p -> (forall e, internal e -> step p e = None) -> running 0 (threads p) = [] /\ match ph p with Open => queue p = [] | Closing _ => False | Closed => True end.
Proof.
  intros I Q. assert (Q' : forall e q o, internal e -> step p e = Some (q, o) -> exists t j, o = [Ended t j]) by (intros e q o J E; rewrite (Q e J) in E; discriminate).
  destruct (quiet_threads p I Q') as (M&NP&T).
  assert (R : cnt runs (threads p) = 0).
  { apply cnt_zero. intros t x E. destruct (T t x E) as [(j&->)|[->|[(->&_)|(->&_)]]]; try reflexivity. exfalso. pose proof (Q (Step t) Logic.I) as H. cbn in H. rewrite E in H. discriminate. }
  split; [apply length_zero_iff_nil; now rewrite running_length|].
  destruct (ph p) as [|[|k]|] eqn:P; [| |now apply (NP k)|easy].
  - destruct (quiet_open p I Q' P) as [H|H]; [exact H|lia].
  - destruct I as [I1 I2 I3 I4 I5 I6 I7 I8 I9]. rewrite P in I6.
    assert (T' : forall t c, nth_error (threads p) t = Some c -> c = Gone \/ (c = Join /\ forallb gone (tl (threads p)) = false)).
    { intros t c E. destruct (T t c E) as [(j&->)|[H|[(->&SE)|H]]]; auto; exfalso; [pose proof (cnt_pos runs _ _ _ E eq_refl); lia|]. pose proof (cnt_pos waits _ _ _ E eq_refl). lia. }
    destruct (threads p) as [|c r] eqn:TH; [cbn in I1; lia|]. destruct (T' 0 c eq_refl) as [->|(->&F)].
    + pose proof (Q Return Logic.I) as H. cbn in H. rewrite P, TH in H. discriminate.
    + cbn [tl] in F. rewrite <- not_true_iff_false in F. apply F. apply forallb_forall. intros x IX. apply In_nth_error in IX. destruct IX as (u&EU). destruct (T' (S u) x EU) as [->|(->&_)]; [easy|]. specialize (I3 (S u) Join EU (or_intror eq_refl)). discriminate.
Qed.

(** Every step of its own makes this smaller. *)
Definition rank (c : pc) : nat := match c with Create => 4 | Take => 3 | Run _ => 4 | Told _ => 8 | Check => 2 | Wait => 1 | Join => 1 | Gone => 0 end.
Definition total (l : list pc) : nat := list_sum (map rank l).
Lemma total_set t c l x : nth_error l t = Some x -> total (set t c l) + rank x = total l + rank c.
Proof.
  unfold total. revert t. induction l as [|y r IH]; intros [|t] H; try discriminate; cbn [set map list_sum fold_right].
  - injection H as ->. lia.
  - cbn in H. specialize (IH t H). unfold list_sum in *. cbn [fold_right]. lia.
Qed.
Definition left (p : pool) : nat :=
  2 * length (queue p) + 3 * sem p + 4 * mid p + match ph p with Open => 0 | Closing k => 4 * k + 1 | Closed => 0 end + total (threads p) + 4 * (n - length (threads p)).
Lemma signal_le s : signal n max s <= S s.
Proof. destruct (signal_spec n max s) as [->|(->&_)]; lia. Qed.
Lemma left_step p e q o : internal e -> step p e = Some (q, o) -> left q < left p.
Proof.
  intros J H. pose proof (signal_le (sem p)) as SL. destruct e as [j| | | | |t|t k]; try (exfalso; exact J); cbn [M_TPool.step] in H.
  - destruct (mid p) eqn:M; [discriminate|]. injection H as <- <-. unfold left. cbn [queue sem mid ph threads]. rewrite M. lia.
  - destruct (ph p) as [|[|k]|] eqn:P; try discriminate. injection H as <- <-. unfold left. cbn [queue sem mid ph threads]. rewrite P. lia.
  - destruct (ph p) as [|[|k]|] eqn:P; try discriminate. destruct (threads p) as [|[] r] eqn:TH; try discriminate. injection H as <- <-. unfold left. cbn [queue sem mid ph threads]. rewrite P, TH. lia.
  - destruct (nth_error (threads p) t) as [c|] eqn:E; [|discriminate]. pose proof (fun c' => total_set t c' _ _ E) as TS. pose proof (fun c' => set_length t c' (threads p)) as SLN. destruct c.
    + destruct (length (threads p) <? n) eqn:L; injection H as <- <-; unfold left; cbn [queue sem mid ph threads].
      * apply Nat.ltb_lt in L. rewrite app_length. unfold total. rewrite map_app, list_sum_app. cbn [map list_sum fold_right rank length]. lia.
      * specialize (TS Take). rewrite SLN. cbn [rank] in TS. lia.
    + destruct (queue p) as [|j r] eqn:Q; injection H as <- <-; unfold left; cbn [queue sem mid ph threads]; rewrite SLN, Q; cbn [length].
      * specialize (TS Check). cbn [rank] in TS. lia.
      * specialize (TS (Run j)). cbn [rank] in TS. lia.
    + injection H as <- <-. unfold left. cbn [queue sem mid ph threads]. specialize (TS Take). rewrite SLN. cbn [rank] in TS. lia.
    + injection H as <- <-. unfold left. cbn [queue sem mid ph threads]. specialize (TS (Run j)). rewrite SLN. cbn [rank] in TS. lia.
    + destruct (closing (ph p)); injection H as <- <-; unfold left; cbn [queue sem mid ph threads]; rewrite SLN; [destruct (t =? 0); [specialize (TS Join)|specialize (TS Gone)]|specialize (TS Wait)]; cbn [rank] in TS; lia.
    + destruct (sem p) eqn:SE; [discriminate|]. injection H as <- <-. unfold left. cbn [queue sem mid ph threads]. specialize (TS Take). rewrite SLN, SE. cbn [rank] in TS. lia.
    + destruct (forallb _ _); [|discriminate]. injection H as <- <-. unfold left. cbn [queue sem mid ph threads]. specialize (TS Gone). rewrite SLN. cbn [rank] in TS. lia.
    + discriminate.
Qed.
Lemma left_run es p q o : Forall internal es -> run p es = Some (q, o) -> length es + left q <= left p.
Proof.
  revert p q o. induction es as [|e r IH]; intros p q o F H; [injection H as <- <-; cbn [length]; lia|]. cbn in H. inversion F; subst. destruct (step p e) as [[z o1]|] eqn:E; [|discriminate]. destruct (run z r) as [[y o2]|] eqn:ER; [|discriminate]. injection H as <- <-.
  apply left_step in E; [|assumption]. specialize (IH _ _ _ H3 ER). cbn [length]. lia.
Qed.

(** If nothing waits when the destructor is called, then what waits later is seen by a thread that is awake. *)
Definition awake (c : pc) : bool := match c with Create | Take | Run _ | Told _ => true | _ => false end.
Lemma awake_step p e q o : inv n p -> closing (ph p) = true -> (queue p = [] \/ 1 <= cnt awake (threads p)) -> step p e = Some (q, o) -> closing (ph q) = true /\ (queue q = [] \/ 1 <= cnt awake (threads q)).
Proof.
  intros I C A H. destruct e as [j| | | | |t|t k]; cbn [M_TPool.step] in H.
  - destruct (ph p); discriminate.
  - destruct (mid p); [discriminate|]. injection H as <- <-. auto.
  - destruct (ph p); discriminate.
  - destruct (ph p) as [|[|k]|]; try discriminate. injection H as <- <-. auto.
  - destruct (ph p) as [|[|k]|]; try discriminate. destruct (threads p) as [|[] r] eqn:TH; try discriminate. injection H as <- <-. auto.
  - destruct (nth_error (threads p) t) as [c|] eqn:E; [|discriminate]. pose proof (fun c' => cnt_set awake t c' _ _ E) as TS. destruct c.
    + destruct (length (threads p) <? n); injection H as <- <-; cbn [queue ph threads]; split; auto; right; [rewrite cnt_app; cbn; lia|]. specialize (TS Take). pose proof (cnt_pos awake _ _ _ E eq_refl). cbn in TS. lia.
    + destruct (queue p) as [|j r] eqn:Q; injection H as <- <-; cbn [queue ph threads]; split; auto. right. specialize (TS (Run j)). pose proof (cnt_pos awake _ _ _ E eq_refl). cbn in TS. lia.
    + injection H as <- <-; cbn [queue ph threads]; split; auto; right. specialize (TS Take). pose proof (cnt_pos awake _ _ _ E eq_refl). cbn in TS. lia.
    + injection H as <- <-; cbn [queue ph threads]; split; auto; right. specialize (TS (Run j)). pose proof (cnt_pos awake _ _ _ E eq_refl). cbn in TS. lia.
    + rewrite C in H. injection H as <- <-; cbn [queue ph threads]; split; auto. destruct A as [A|A]; auto. right. destruct (t =? 0); [specialize (TS Join)|specialize (TS Gone)]; cbn in TS; lia.
    + destruct (sem p); [discriminate|]. injection H as <- <-; cbn [queue ph threads]; split; auto. right. specialize (TS Take). cbn in TS. lia.
    + destruct (forallb _ _); [|discriminate]. injection H as <- <-; cbn [queue ph threads]; split; auto. destruct A as [A|A]; auto. right. specialize (TS Gone). cbn in TS. lia.
    + discriminate.
  - destruct (nth_error (threads p) t) as [c|] eqn:E; [|discriminate]. destruct c; try discriminate. injection H as <- <-. cbn [queue ph threads]. split; auto. right. pose proof (cnt_set awake t (Told j) _ _ E) as TS. pose proof (cnt_pos awake _ _ _ E eq_refl). cbn in TS. lia.
Qed.
Lemma awake_run es p q o : inv n p -> closing (ph p) = true -> (queue p = [] \/ 1 <= cnt awake (threads p)) -> run p es = Some (q, o) -> queue q = [] \/ 1 <= cnt awake (threads q).
Proof.
  revert p q o. induction es as [|e r IH]; intros p q o I C A H; [injection H as <- <-; auto|]. cbn in H. destruct (step p e) as [[z o1]|] eqn:E; [|discriminate]. destruct (run z r) as [[y o2]|] eqn:ER; [|discriminate]. injection H as <- <-.
  destruct (awake_step p e z o1 I C A E) as (C'&A'). refine (IH z y o2 _ C' A' ER). eapply inv_step; eauto.
Qed.
Lemma closed_gone p : inv n p -> ph p = Closed -> running 0 (threads p) = [] /\ cnt awake (threads p) = 0.
Proof.
  intros I P. assert (G : forall t x, nth_error (threads p) t = Some x -> x = Gone) by (intros t x E; eapply gone_others; eauto; eapply i_closed; eauto).
  split; [apply length_zero_iff_nil; rewrite running_length|]; apply cnt_zero; intros t x E; now rewrite (G t x E).
Qed.
End P.
