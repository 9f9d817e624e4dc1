(** Invariants of the pool of workers. *)

From Coq Require Import List Bool Arith ZArith Lia.
From Verif Require Import M_Path M_Conns S_Conns.
Import ListNotations.

Lemma nth_upd : forall A (f : A -> A) l i j,
  nth_error (upd i f l) j = if i =? j then option_map f (nth_error l j) else nth_error l j.
Proof.
  induction l as [|x l IH]; intros [|i] [|j]; cbn [upd nth_error Nat.eqb option_map]; auto.
  - now destruct (i =? j).
Qed.

Lemma upd_length : forall A (f : A -> A) l i, length (upd i f l) = length l.
Proof. induction l as [|x l IH]; intros [|i]; cbn [upd length]; auto. Qed.

Lemma map_upd : forall A B (g : A -> B) (f : A -> A) l i,
  (forall x, g (f x) = g x) -> map g (upd i f l) = map g l.
Proof. intros A B g f l i E; revert i; induction l as [|x l IH]; intros [|i]; cbn [upd map]; rewrite ?E, ?IH; auto. Qed.

Lemma map_drop : forall A B (g : A -> B) l i, map g (drop i l) = drop i (map g l).
Proof. intros A B g l; induction l as [|x l IH]; intros [|i]; cbn [drop map]; rewrite ?IH; auto. Qed.

Lemma drop_length : forall A (l : list A) i, i < length l -> S (length (drop i l)) = length l.
Proof.
  induction l as [|x l IH]; intros [|i]; cbn [drop length]; intros; try lia.
  rewrite IH; lia.
Qed.

Lemma drop_in : forall A (l : list A) i x w, NoDup l -> nth_error l i = Some w ->
  (In x (drop i l) <-> In x l /\ x <> w).
Proof.
  induction l as [|y l IH]; intros [|i] x w ND E; cbn [drop nth_error] in *; try discriminate.
  - inversion_clear ND as [|? ? H1 H2]. injection E as <-. split.
    + intros I; split; [now right | intros ->; auto].
    + intros [[->|I] Ne]; [now elim Ne | auto].
  - inversion_clear ND as [|? ? H1 H2]. specialize (IH i x w H2 E). split.
    + intros [->|I].
      * split; [now left|]. intros ->. apply H1. now apply nth_error_In in E.
      * split; [right; tauto | tauto].
    + intros [[->|I] Ne]; [now left | right; tauto].
Qed.

Lemma drop_sub : forall A (l : list A) i x, In x (drop i l) -> In x l.
Proof.
  induction l as [|y l IH]; intros [|i] x; cbn [drop In]; auto.
  intros [->|I]; [now left | right; eauto].
Qed.

Lemma drop_nodup : forall A (l : list A) i, NoDup l -> NoDup (drop i l).
Proof.
  induction l as [|y l IH]; intros [|i] ND; cbn [drop]; auto; inversion_clear ND as [|? ? H1 H2]; auto.
  constructor; [|now apply IH]. intros I. apply H1. now apply drop_sub in I.
Qed.

Lemma run_app : forall limit h1 h2 s, run limit (h1 ++ h2) s =
  match run limit h1 s with Next t => run limit h2 t | o => o end.
Proof.
  induction h1 as [|a h1 IH]; intros h2 s; cbn [run app]; auto.
  destruct (step limit a s); auto.
Qed.

Lemma run1 : forall limit a s, run limit [a] s = step limit a s.
Proof. intros; cbn [run]. now destruct (step limit a s). Qed.

(** ** Shape of the state *)

Record inv (limit n : nat) (s : state) : Prop := {
  i_len : length (pool s) = n;
  i_next : n = 0 \/ next s < n;
  i_nodup : NoDup (connected s);
  i_use : forall w x, nth_error (pool s) w = Some x -> (in_use x = true <-> In w (connected s));
  i_in : forall w, In w (connected s) -> w < n;
  i_limit : length (conns s) <= limit;
  i_place : forall i, at_ s = Reaping i -> i <= length (conns s) }.

Lemma inv_start : forall limit l first t, (l = [] \/ first < length l) ->
  inv limit (length l) (start l first t).
Proof.
  intros limit l first t F. unfold start, found. split; cbn [pool conns next at_ connected map length].
  - apply map_length.
  - destruct F as [->|]; auto.
  - constructor.
  - intros w x E. rewrite nth_error_map in E. destruct (nth_error l w); cbn in E; [|discriminate].
    injection E as <-. cbn. split; [discriminate | tauto].
  - intros w [].
  - lia.
  - discriminate.
Qed.

Lemma conn_at : forall s i w st, nth_error (conns s) i = Some (w, st) ->
  nth_error (connected s) i = Some w /\ i < length (conns s) /\ In w (connected s).
Proof.
  intros s i w st E. unfold connected. split; [|split].
  - now rewrite nth_error_map, E.
  - apply nth_error_Some. congruence.
  - apply in_map_iff. exists (w, st). split; auto. now apply nth_error_In in E.
Qed.

Lemma connected_stage : forall s i st p x t q, connected (mkS p (upd i (fun c => (fst c, st)) (conns s)) x t q) = connected s.
Proof. intros. unfold connected; cbn [conns]. now apply map_upd. Qed.

(** A change of flags other than in_use keeps the invariant. *)
Lemma inv_flag : forall limit n s w f c t,
  inv limit n s -> map fst c = connected s -> (forall x, in_use (f x) = in_use x) ->
  inv limit n (mkS (upd w f (pool s)) c (next s) t (at_ s)).
Proof.
  intros limit n s w f c t [I1 I2 I3 I4 I5 I6 I7] E F.
  assert (L : length c = length (conns s)) by (rewrite <- (map_length fst c), E; unfold connected; now rewrite map_length).
  split; unfold connected in *; cbn [pool conns next at_] in *; rewrite ?E, ?L, ?upd_length; auto.
  intros v x N. rewrite nth_upd in N. destruct (w =? v); [|now apply I4].
  destruct (nth_error (pool s) v) eqn:Nv; cbn in N; [|discriminate]. injection N as <-. rewrite F. now apply I4.
Qed.

Lemma inv_same : forall limit n s c t,
  inv limit n s -> map fst c = connected s ->
  inv limit n (mkS (pool s) c (next s) t (at_ s)).
Proof.
  intros limit n s c t [I1 I2 I3 I4 I5 I6 I7] E.
  assert (L : length c = length (conns s)) by (rewrite <- (map_length fst c), E; unfold connected; now rewrite map_length).
  split; unfold connected in *; cbn [pool conns next at_] in *; rewrite ?E, ?L; auto.
Qed.

Lemma inv_reap : forall limit n s i, inv limit n s -> at_ s = Reaping (S i) ->
  exists t, reap i s = Next t /\ inv limit n t.
Proof.
  intros limit n s i I P. pose proof (i_place _ _ _ I _ P) as Hi.
  unfold reap. destruct (nth_error (conns s) i) as [[w st]|] eqn:E;
    [|apply nth_error_None in E; lia].
  destruct (conn_at _ _ _ _ E) as (E1 & E2 & E3).
  destruct st; try (eexists; split; [reflexivity|]; destruct I; split; cbn [pool conns next at_]; auto;
    intros j Hj; injection Hj as <-; lia).
  destruct (nth_error (pool s) w) eqn:Ew.
  2:{ apply nth_error_None in Ew. pose proof (i_in _ _ _ I _ E3). destruct I; lia. }
  eexists; split; [reflexivity|].
  destruct I as [I1 I2 I3 I4 I5 I6 I7].
  split; cbn [pool conns next at_] in *; auto.
  - now rewrite upd_length.
  - unfold connected; cbn [conns]. rewrite map_drop. now apply drop_nodup.
  - intros v x N. unfold connected; cbn [conns]. rewrite map_drop, (drop_in _ _ _ _ _ I3 E1).
    rewrite nth_upd in N. destruct (Nat.eqb_spec w v) as [<-|Ne].
    + rewrite Ew in N; cbn in N; injection N as <-. cbn. split; [discriminate | tauto].
    + rewrite (I4 _ _ N). unfold connected. intuition congruence.
  - intros v. unfold connected; cbn [conns]. rewrite map_drop, (drop_in _ _ _ _ _ I3 E1). intros [H _]; auto.
  - pose proof (drop_length _ _ _ E2). lia.
  - intros j Hj; injection Hj as <-. pose proof (drop_length _ _ _ E2). lia.
Qed.

(** What a round of the loop over the workers does. *)
Inductive looks (limit n k : nat) (s : state) : state -> Prop :=
| lk_full : limit <= length (conns s) \/ n <= length (conns s) ->
    looks limit n k s (mkS (pool s) (conns s) (next s) (now s) Outside)
| lk_skip : forall x, length (conns s) < limit -> length (conns s) < n ->
    nth_error (pool s) (next s) = Some x ->
    in_use x = true \/ denied x = true \/ (now s - since x < delay)%Z ->
    looks limit n k s (mkS (pool s) (conns s) (S (next s) mod n) (now s) (Looking k))
| lk_open : forall x, length (conns s) < limit -> length (conns s) < n ->
    nth_error (pool s) (next s) = Some x ->
    in_use x = false -> denied x = false -> (delay <= now s - since x)%Z ->
    looks limit n k s (mkS (upd (next s) (use true) (pool s)) (conns s ++ [(next s, Connecting)])
                           (S (next s) mod n) (now s) (Looking k)).

Lemma look_looks : forall limit n s k, inv limit n s ->
  exists t, look limit k s = Next t /\ looks limit n k s t.
Proof.
  intros limit n s k I. unfold look. rewrite (i_len _ _ _ I).
  destruct (Nat.leb_spec limit (length (conns s))); [eexists; split; [reflexivity | constructor; auto]|].
  destruct (Nat.leb_spec n (length (conns s))); [eexists; split; [reflexivity | constructor; auto]|].
  destruct (nth_error (pool s) (next s)) as [x|] eqn:E.
  2:{ apply nth_error_None in E. destruct I. lia. }
  destruct (in_use x) eqn:U; [eexists; split; [reflexivity | eapply lk_skip; eauto]|].
  destruct (denied x) eqn:D; [eexists; split; [reflexivity | eapply lk_skip; eauto]|].
  destruct (Z.ltb_spec (now s - since x) delay); eexists; (split; [reflexivity|]);
    [eapply lk_skip | eapply lk_open]; eauto.
Qed.

Lemma inv_looks : forall limit n s k t, inv limit n s -> looks limit n k s t -> inv limit n t.
Proof.
  intros limit n s k t [I1 I2 I3 I4 I5 I6 I7] Lk.
  assert (M : 0 < n -> S (next s) mod n < n) by (intros; apply Nat.mod_upper_bound; lia).
  inversion_clear Lk as [F|x H1 H2 N Y|x H1 H2 N U D W].
  - split; unfold connected in *; cbn [pool conns next at_] in *; auto; discriminate.
  - split; unfold connected in *; cbn [pool conns next at_] in *; auto; [right; apply M; lia | discriminate].
  - assert (Nc : ~ In (next s) (connected s)) by (rewrite <- (I4 _ _ N); congruence).
    split; unfold connected in *; cbn [pool conns next at_] in *; rewrite ?upd_length, ?app_length; cbn [length]; auto;
      try discriminate; try lia; try (rewrite map_app; cbn [map fst]).
    + clear -I3 Nc. induction (map fst (conns s)) as [|y l IH]; cbn [app].
      * constructor; [easy | constructor].
      * inversion_clear I3. constructor; [rewrite in_app_iff; cbn in *; intuition congruence|].
        apply IH; auto. cbn in Nc; tauto.
    + intros v y Nv. rewrite in_app_iff; cbn [In]. rewrite nth_upd in Nv.
      destruct (Nat.eqb_spec (next s) v) as [<-|Ne].
      * rewrite N in Nv; cbn in Nv; injection Nv as <-. cbn. tauto.
      * rewrite (I4 _ _ Nv). tauto.
    + intros v. rewrite in_app_iff; cbn [In]. intros [Iv|[<-|[]]]; auto.
      rewrite <- I1. apply nth_error_Some. congruence.
Qed.

Lemma inv_step : forall limit n a s, inv limit n s ->
  step limit a s <> Failed /\ forall t, step limit a s = Next t -> inv limit n t.
Proof.
  intros limit n a s I.
  destruct a as [|d|i|i|i|i]; cbn [step].
  - destruct (at_ s) as [|[|i]|[|k]] eqn:P.
    + split; [easy|]. intros t E; injection E as <-. destruct I; split; unfold connected in *; cbn [pool conns next at_] in *; auto.
      intros i Hi; injection Hi as <-; lia.
    + split; [easy|]. intros t E; injection E as <-. destruct I; split; unfold connected in *; cbn [pool conns next at_] in *; auto; discriminate.
    + destruct (inv_reap _ _ _ _ I P) as (t & E & It). rewrite E. split; [easy|]. intros u Hu; injection Hu as <-; auto.
    + split; [easy|]. intros t E; injection E as <-. destruct I; split; unfold connected in *; cbn [pool conns next at_] in *; auto; discriminate.
    + destruct (look_looks _ _ _ k I) as (t & E & Lk). rewrite E. split; [easy|]. intros u Hu; injection Hu as <-.
      eapply inv_looks; eauto.
  - split; [easy|]. intros t E; injection E as <-. now apply inv_same.
  - destruct (nth_error (conns s) i) as [[w [| |]]|] eqn:E; split; try easy; intros t Ht; try discriminate; injection Ht as <-.
    apply inv_same; auto. now apply map_upd.
  - destruct (nth_error (conns s) i) as [[w [| |]]|] eqn:E; split; try easy; intros t Ht; try discriminate; injection Ht as <-.
    apply inv_flag; auto. now apply map_upd.
  - destruct (nth_error (conns s) i) as [[w [| |]]|] eqn:E; split; try easy; intros t Ht; try discriminate; injection Ht as <-.
    apply inv_same; auto. now apply map_upd.
  - destruct (nth_error (conns s) i) as [[w [| |]]|] eqn:E; split; try easy; intros t Ht; try discriminate; injection Ht as <-;
    apply inv_flag; auto.
Qed.

Lemma inv_run : forall limit n h s, inv limit n s ->
  run limit h s <> Failed /\ forall t, run limit h s = Next t -> inv limit n t.
Proof.
  induction h as [|a h IH]; intros s I; cbn [run].
  - split; [easy|]. intros t E; injection E as <-; auto.
  - destruct (inv_step limit n a s I) as [F N]. destruct (step limit a s) as [t| |]; [now apply IH, N | easy | now elim F].
Qed.

(** A step opens at most one connection, and then it is a round of the loop. *)
Lemma opened : forall limit n a s t, inv limit n s -> step limit a s = Next t ->
  (length (conns t) <= length (conns s) /\ skipn (length (conns s)) (connected t) = []) \/
  (exists k, a = Own /\ at_ s = Looking (S k) /\ looks limit n k s t /\
             connected t = connected s ++ [next s] /\
             skipn (length (conns s)) (connected t) = [next s] /\
             ~ In (next s) (connected s) /\
             exists x, nth_error (pool s) (next s) = Some x /\ denied x = false /\ (delay <= now s - since x)%Z).
Proof.
  intros limit n a s t I E.
  assert (Q : forall u : state, length (conns u) <= length (conns s) ->
     length (conns u) <= length (conns s) /\ skipn (length (conns s)) (connected u) = []).
  { intros u Hu; split; auto. apply skipn_all2. unfold connected; now rewrite map_length. }
  destruct a as [|d|i|i|i|i]; cbn [step] in E.
  - destruct (at_ s) as [|[|i]|[|k]] eqn:P; try (injection E as <-; left; apply Q; cbn [conns]; lia).
    + left; apply Q. unfold reap in E. destruct (nth_error (conns s) i) as [[w st]|] eqn:N; [|discriminate].
      destruct (conn_at _ _ _ _ N) as (_ & L & _).
      destruct st; try (injection E as <-; cbn [conns]; lia).
      destruct (nth_error (pool s) w); [|discriminate]. injection E as <-. cbn [conns].
      pose proof (drop_length _ _ _ L). lia.
    + destruct (look_looks _ _ _ k I) as (t' & E' & Lk). rewrite E in E'; injection E' as <-.
      inversion Lk as [F|x H1 H2 N Y|x H1 H2 N U D W]; subst t; try (left; apply Q; cbn [conns]; lia).
      right. exists k. repeat split; auto; try now (unfold connected; cbn [conns]; rewrite map_app).
      * unfold connected; cbn [conns]; rewrite map_app. cbn [map fst].
        rewrite skipn_app, map_length, Nat.sub_diag.
        rewrite (skipn_all2 (map fst (conns s))) by (now rewrite map_length). reflexivity.
      * rewrite <- (i_use _ _ _ I _ _ N). congruence.
      * eauto.
  - injection E as <-; left; apply Q; cbn [conns]; lia.
  - destruct (nth_error (conns s) i) as [[w [| |]]|]; try discriminate; injection E as <-; left; apply Q; cbn [conns]; rewrite ?upd_length; lia.
  - destruct (nth_error (conns s) i) as [[w [| |]]|]; try discriminate; injection E as <-; left; apply Q; cbn [conns]; rewrite ?upd_length; lia.
  - destruct (nth_error (conns s) i) as [[w [| |]]|]; try discriminate; injection E as <-; left; apply Q; cbn [conns]; rewrite ?upd_length; lia.
  - destruct (nth_error (conns s) i) as [[w [| |]]|]; try discriminate; injection E as <-; left; apply Q; cbn [conns]; rewrite ?upd_length; lia.
Qed.
