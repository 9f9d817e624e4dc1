(** C82: a worker asks for no more jobs than it has places for. *)

From Coq Require Import List Bool Arith Lia.
From Verif Require Import M_Needy S_Needy P_Needy P_Needy2.
Import ListNotations.

(** Whatever the threads do, a worker's counters are the true numbers of
    unanswered requests and unfinished jobs, and no assertion fails. *)
Theorem C82_counters : forall h,
  run h start <> Failed /\
  forall s c, run h start = Next s -> In c (clients s) -> req c = owed c /\ act c = held c.
Proof.
  intros h. pose proof (run_exact h start (Forall_nil _)) as X.
  destruct (run h start) as [| |s]; cbn in X.
  - split; [discriminate|]. intros s c E; discriminate E.
  - contradiction.
  - split; [discriminate|]. intros t c E I. inversion E; subst t.
    rewrite Forall_forall in X. apply X, I.
Qed.
Print Assumptions C82_counters.

(** A worker that asks for another job has let itself in for fewer than one
    job per processor, plus one, plus one per client. *)
Theorem C82_ask : forall h s t,
  run h start = Next s -> step (Lock true) s = Next t ->
  burden s < cpus h 0 + 1 + length (clients s) /\ burden t = S (burden s).
Proof.
  intros h s t R E. pose proof (run_bounded h s R) as B. destruct s as [l p].
  cbn [step srv clients] in E. destruct p as [| | | | |o i todo acc any]; try discriminate E.
  destruct (nth_error l i) as [c|] eqn:C; [|discriminate E].
  cbn [bounded srv clients] in B. split; [cbn [clients]; lia|].
  inversion E; subst t.
  pose proof (upd_total burden1 i (ask c) l c C) as U. unfold total in U.
  unfold burden; cbn [clients].
  assert (W : burden1 (ask c) = S (burden1 c)) by reflexivity. lia.
Qed.
Print Assumptions C82_ask.

Lemma step_burden h s a t :
  run h start = Next s -> step a s = Next t -> asks a = false -> burden t <= burden s.
Proof.
  intros R E A.
  assert (F : Forall exact (clients s)).
  { pose proof (run_exact h start (Forall_nil _)) as X. rewrite R in X. exact X. }
  destruct (other a) eqn:O.
  - destruct (other_eases a s t O F E) as [Z _]. destruct s as [l p], t as [l' p'].
    exact (eases_burden l l' p' p Z).
  - destruct s as [l p]. destruct a; try discriminate O; cbn [step srv clients] in E.
    + destruct p; try discriminate E. destruct (n =? 0); inversion E; subst; apply le_n.
    + destruct (go l p); inversion E; subst; apply le_n.
    + destruct p; try discriminate E. destruct (_ && _); inversion E; subst; apply le_n.
    + destruct p; try discriminate E. destruct (nth_error l i); try discriminate E.
      destruct ok; [discriminate A|]. inversion E; subst; apply le_n.
    + destruct p; try discriminate E. destruct (nth_error l i) as [c|] eqn:C; try discriminate E.
      destruct (held c =? 0) eqn:H; try discriminate E. apply Nat.eqb_neq in H.
      destruct (act c =? 0); inversion E; subst.
      pose proof (upd_total burden1 i (mkCl (req c) (act c - 1) (avail c) (mid c) (owed c) (held c - 1)) l c C) as U.
      unfold total in U. unfold burden; cbn [clients]. unfold burden1 at 2 4 in U. cbn in U.
      change (fold_right Nat.add 0) with list_sum in *. lia.
    + destruct p; inversion E; subst. unfold burden; cbn [clients].
      rewrite map_app, list_sum_app. cbn. lia.
    + destruct p; try discriminate E. destruct (nth_error l i); try discriminate E.
      destruct (mid c); inversion E; subst. apply drop_total.
Qed.

(** So the burden never gets beyond that. *)
Theorem C82_bound : forall most_cpus most_clients h s,
  (forall n, In (Start n) h -> n <= most_cpus) ->
  (forall before after u, h = before ++ after -> run before start = Next u ->
     length (clients u) <= most_clients) ->
  run h start = Next s -> burden s <= most_cpus + 1 + most_clients.
Proof.
  intros N K h. induction h as [|a h IH] using rev_ind; intros t Hn Hk E.
  - inversion E; subst. cbn. lia.
  - destruct (run_last _ _ _ E) as [s [R S]].
    assert (IHs : burden s <= N + 1 + K).
    { apply IH; [| |exact R].
      - intros n I. apply Hn, in_or_app. left; exact I.
      - intros b f u Eq. apply (Hk b (f ++ [a]) u). rewrite Eq, <- app_assoc. reflexivity. }
    destruct (asks a) eqn:A.
    + destruct a; try discriminate A. destruct ok; [|discriminate A].
      destruct (C82_ask h s t R S) as [Lt ->].
      pose proof (Hk h [Lock true] s eq_refl R) as Lk.
      assert (Lc : cpus h 0 <= N).
      { assert (G : forall k m, m <= N -> (forall n, In (Start n) k -> n <= N) -> cpus k m <= N).
        { induction k as [|x k IHk]; intros m Lm Hm; cbn [cpus]; [exact Lm|].
          assert (Hm' : forall n, In (Start n) k -> n <= N) by (intros n I; apply Hm; right; exact I).
          destruct x; try (apply IHk; assumption). apply IHk; [apply Hm; left; reflexivity|exact Hm']. }
        apply G; [lia|]. intros n I. apply Hn, in_or_app. left; exact I. }
      lia.
    + pose proof (step_burden h s a t R S A). lia.
Qed.
Print Assumptions C82_bound.

(** If no job is being received while the worker looks, it keeps to one job
    per processor and one more. *)
Theorem C82_calm : forall h s n k t u,
  run h start = Next s -> (forall c, In c (clients s) -> mid c = false) ->
  run (Start n :: k) s = Next t ->
  (forall m, ~ In (Start m) k) -> (forall i, ~ In (JobIn i) k) ->
  step (Lock true) t = Next u -> burden t < n + 1.
Proof.
  intros h s n k t u R M E Ns Nj A. cbn [run] in E.
  destruct (step (Start n) s) as [| |s1] eqn:S1; try discriminate E.
  assert (F : Forall exact (clients s)).
  { pose proof (run_exact h start (Forall_nil _)) as X. rewrite R in X. exact X. }
  assert (F1 : Forall exact (clients s1)).
  { pose proof (step_exact (Start n) s F) as X. rewrite S1 in X. exact X. }
  assert (M1 : Forall (fun c => mid c = false) (clients s1)).
  { apply Forall_forall. intros c I. apply M. clear - S1 I. cbn in S1.
    destruct (srv s); try discriminate S1. destruct (n =? 0); inversion S1; subst; exact I. }
  pose proof (start_bounded n 0 s s1 S1) as B1. clear S1.
  assert (B : bounded n 0 t).
  { revert s1 E F1 M1 B1. induction k as [|a k IH]; intros s1 E F1 M1 B1; cbn [run] in E.
    - inversion E; subst. exact B1.
    - destruct (step a s1) as [| |s2] eqn:S2; try discriminate E.
      apply (IH (fun m I => Ns m (or_intror I)) (fun i I => Nj i (or_intror I)) s2 E).
      + pose proof (step_exact a s1 F1) as X. rewrite S2 in X. exact X.
      + clear - S2 M1 Nj. destruct s1 as [l p]. cbn [clients] in *.
        destruct a; cbn [step srv clients] in S2.
        * destruct p; try discriminate S2. destruct (n =? 0); inversion S2; subst; exact M1.
        * destruct (go l p); inversion S2; subst; exact M1.
        * destruct p; try discriminate S2. destruct (_ && _); inversion S2; subst; exact M1.
        * destruct p; try discriminate S2. destruct (nth_error l i) as [c|] eqn:C; try discriminate S2.
          destruct ok; inversion S2; subst; [|exact M1]. apply upd_Forall; [exact M1|].
          apply (Forall_nth _ _ _ _ M1 C).
        * destruct p; try discriminate S2. destruct (nth_error l i) as [c|] eqn:C; try discriminate S2.
          destruct (held c =? 0); try discriminate S2. destruct (act c =? 0); inversion S2; subst.
          apply upd_Forall; [exact M1|]. apply (Forall_nth _ _ _ _ M1 C).
        * destruct p; inversion S2; subst. apply Forall_app. split; [exact M1|]. constructor; [reflexivity|constructor].
        * destruct p; try discriminate S2. destruct (nth_error l i) as [c|] eqn:C; try discriminate S2.
          destruct (mid c); inversion S2; subst. apply drop_Forall, M1.
        * destruct (nth_error l i) as [c|] eqn:C; try discriminate S2.
          destruct (mid c) eqn:Mc; inversion S2; subst. apply upd_Forall; [exact M1|reflexivity].
        * destruct (nth_error l i) as [c|] eqn:C; try discriminate S2.
          destruct (mid c || _); try discriminate S2. destruct (req c =? 0); inversion S2; subst.
          apply upd_Forall; [exact M1|]. apply (Forall_nth _ _ _ _ M1 C).
        * exfalso. apply (Nj i). left; reflexivity.
        * destruct (nth_error l i) as [c|] eqn:C; try discriminate S2.
          destruct (mid c); inversion S2; subst. apply upd_Forall; [exact M1|reflexivity].
      + apply step_bounded with a s1; [right; split; [reflexivity|exact M1]|exact F1| |exact B1|exact S2].
        intros m ->. apply (Ns m). left; reflexivity. }
  destruct t as [l p]. cbn [step srv clients] in A.
  destruct p as [| | | | |o i todo acc any]; try discriminate A.
  cbn [bounded srv clients] in B. lia.
Qed.
Print Assumptions C82_calm.

(** Refuted: "never more than one job per processor and one more".  A job
    that is being received is counted neither as requested nor as active. *)
Definition race : list label :=
  [Connect; Status 0 5;
   Start 1; Go; Go; Sort [0]; Go; Go; Lock true; Go; Go; Go; Lock true;
   JobIn 0; Start 1; Go; Go; Sort [0]; Go; Go; Lock true; JobQueued 0].

Theorem C82_race_refuted : exists s,
  run race start = Next s /\ cpus race 0 = 1 /\ burden s = 3.
Proof. eexists. split; [reflexivity|]. split; reflexivity. Qed.
Print Assumptions C82_race_refuted.

(** A round of asking ends: the server's thread never gets stuck in it, and
    it takes a bounded number of steps whatever the other threads do. *)
Theorem C82_never_stuck : forall h s,
  run h start = Next s -> srv s <> Idle -> exists a t, own a = true /\ step a s = Next t.
Proof.
  intros h s R N. apply placed_goes; [|exact N]. apply (run_placed h start s); [exact I|exact R].
Qed.
Print Assumptions C82_never_stuck.

Theorem C82_ends : forall s n h t,
  (forall m, ~ In (Start m) h) -> run (Start n :: h) s = Next t ->
  length (filter own h) <= (n + 2) * (3 * length (clients s) + 2) + 2 * length (clients s) + 1.
Proof.
  intros s n h t Ns E. cbn [run] in E. destruct (step (Start n) s) as [| |u] eqn:S; try discriminate E.
  pose proof (run_left h u t Ns E) as L. cbn [step] in S.
  destruct s as [l p]. cbn [srv clients] in *. destruct p; try discriminate S.
  destruct (n =? 0); inversion S; subst u; unfold left in L at 2; cbn [srv clients] in L.
  - lia.
  - rewrite Nat.sub_0_r in L. replace (n + 1 + 1) with (n + 2) in L by lia. lia.
Qed.
Print Assumptions C82_ends.

(** What a round does that nobody disturbs: it leaves no place empty while a
    client has jobs; it changes nothing but the requests, and asks no client
    for more than it has; and clients are asked in turn, those with the most
    jobs first, so that none is asked twice more than one that still has
    jobs. *)
Theorem C82_served : forall h s n k t,
  run h start = Next s -> srv s = Idle -> 0 < n ->
  Forall (fun a => own a = true /\ a <> Lock false) k ->
  (forall ord, In (Sort ord) k -> neediest_first (clients s) ord) ->
  run (Start n :: k) s = Next t -> srv t = Idle ->
  (n + 1 <= burden t \/ forall c, In c (clients t) -> avail c <= req c) /\
  Forall2 (fun c c' =>
      act c' = act c /\ avail c' = avail c /\ mid c' = mid c /\ held c' = held c /\
      req c <= req c' /\ (req c < req c' -> req c' <= avail c')) (clients s) (clients t) /\
  forall i j ci cj ci' cj',
    nth_error (clients s) i = Some ci -> nth_error (clients s) j = Some cj ->
    nth_error (clients t) i = Some ci' -> nth_error (clients t) j = Some cj' ->
    req ci' < avail ci' ->
    req cj' - req cj <= S (req ci' - req ci) /\
    (req ci' - req ci < req cj' - req cj -> avail ci <= avail cj).
Proof.
  intros h s n k t R Id P Q Sd E It.
  assert (X : is_next (run (h ++ Start n :: k) start) (fun t => Forall exact (clients t)))
    by (apply run_exact; constructor).
  rewrite run_app, R, E in X. cbn [is_next] in X.
  cbn [run step] in E. rewrite Id in E.
  destruct (n =? 0) eqn:Z; [apply Nat.eqb_eq in Z; lia|].
  assert (G : goodround n (clients s) t).
  { apply run_round with k (mkS (clients s) (Count 0 (n + 1))); [exact Q|exact Sd| |exact E].
    split; [apply asked_refl|]. cbn. repeat split; lia. }
  destruct t as [l p]. cbn [srv clients] in *. subst p. destruct G as [A [G1 G2]].
  cbn [srv clients] in *.
  assert (Ld : total load1 l <= burden (mkS l Idle)).
  { clear - X. unfold burden, total; cbn [clients].
    induction X as [|c l [E1 E2] X IH]; cbn [map list_sum fold_right]; [apply le_n|].
    change (fold_right Nat.add 0) with list_sum in *. unfold load1 at 1, burden1 at 1. lia. }
  split; [|split].
  - destruct G1 as [G1|G1]; [left; lia|right]. rewrite Forall_forall in G1. exact G1.
  - clear - A. induction A as [|c c' l0 l A F IH]; constructor; [|exact IH].
    unfold asked in A. tauto.
  - intros i j ci cj ci' cj' Ci Cj Ci' Cj' Rm. destruct G2 as [[ord [pp [done [todo [O [-> Fr]]]]]]|G2].
    + apply (fair_gives (clients s) l pp done todo i j); assumption.
    + subst l. rewrite Ci in Ci'. rewrite Cj in Cj'. inversion Ci'; inversion Cj'; subst. lia.
Qed.
Print Assumptions C82_served.

(** Two clients with 5 and 1 jobs and a worker with 2 processors: it asks the
    first, the second, and the first again, and stops. *)
Definition busy : list label :=
  [Connect; Connect; Status 0 5; Status 1 1].
Definition round : list label :=
  [Go; Go; Go; Go; Sort [0; 1]; Go; Go; Lock true; Go; Go; Lock true; Go; Go; Go; Lock true].

Example C82_case : exists s t,
  run busy start = Next s /\ srv s = Idle /\
  Forall (fun a => own a = true /\ a <> Lock false) round /\
  (forall ord, In (Sort ord) round -> neediest_first (clients s) ord) /\
  run (Start 2 :: round) s = Next t /\ srv t = Idle /\
  map req (clients t) = [2; 1] /\ burden t = 3.
Proof.
  eexists. eexists. split; [reflexivity|]. split; [reflexivity|].
  split; [repeat constructor; discriminate|].
  split; [|split; [reflexivity|split; [reflexivity|split; reflexivity]]].
  intros ord I. cbn in I.
  repeat (destruct I as [I|I]; [first [discriminate I|injection I as <-]|]); try contradiction.
  intros x i y j z ci cj E Ci Cj.
  destruct x as [|x0 x].
  - injection E as <- E. destruct y as [|y0 y].
    + injection E as <- E. cbn in Ci, Cj. inversion Ci; inversion Cj; subst. cbn. lia.
    + injection E as _ E. destruct y; discriminate E.
  - injection E as _ E. destruct x as [|x1 x].
    + injection E as _ E. destruct y; discriminate E.
    + injection E as _ E. destruct x; discriminate E.
Qed.
