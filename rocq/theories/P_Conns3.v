(** A pass over the workers, and fairness. *)

From Coq Require Import List Bool Arith ZArith Lia.
From Verif Require Import M_Path M_Conns S_Conns P_Conns.
Import ListNotations.

Definition waits (s : state) (w : nat) : Prop :=
  exists x, nth_error (pool s) w = Some x /\ in_use x = false /\ denied x = false /\ (delay <= now s - since x)%Z.

(** Rounds until the loop comes to [x]. *)
Definition dist (n p x : nat) : nat := if p <=? x then x - p else x + n - p.

Lemma succ_mod : forall n p, p < n -> S p mod n = if S p =? n then 0 else S p.
Proof.
  intros n p H. destruct (Nat.eqb_spec (S p) n) as [->|Ne].
  - apply Nat.mod_same; lia.
  - apply Nat.mod_small; lia.
Qed.

Lemma dist_next : forall n p x, p < n -> x < n -> x <> p ->
  dist n p x = S (dist n (S p mod n) x).
Proof.
  intros n p x Hp Hx Ne. rewrite succ_mod by auto. unfold dist.
  destruct (Nat.eqb_spec (S p) n);
  repeat match goal with |- context [?a <=? ?b] => destruct (Nat.leb_spec a b) end; lia.
Qed.

Lemma dist_self : forall n p, dist n p p = 0.
Proof. intros; unfold dist. rewrite Nat.leb_refl. lia. Qed.

Lemma dist_last : forall n p, p < n -> dist n (S p mod n) p = n - 1.
Proof.
  intros n p Hp. rewrite succ_mod by auto. unfold dist.
  destruct (Nat.eqb_spec (S p) n);
  repeat match goal with |- context [?a <=? ?b] => destruct (Nat.leb_spec a b) end; lia.
Qed.

Lemma dist_lt : forall n p x, p < n -> x < n -> dist n p x < n.
Proof. intros n p x Hp Hx. unfold dist. destruct (Nat.leb_spec p x); lia. Qed.

Lemma waits_free : forall limit n s w, inv limit n s -> waits s w -> ~ In w (connected s) /\ w < n.
Proof.
  intros limit n s w I (x & N & U & _). split.
  - rewrite <- (i_use _ _ _ I _ _ N). congruence.
  - rewrite <- (i_len _ _ _ I). apply nth_error_Some. congruence.
Qed.

(** Visiting a waiting worker opens a connection to it, and there is always
    room in the pool for it. *)
Lemma room : forall limit n s w, inv limit n s -> waits s w -> length (conns s) < n.
Proof.
  intros limit n s w I W. destruct (waits_free _ _ _ _ I W) as [F L].
  replace (length (conns s)) with (length (connected s)) by (unfold connected; now rewrite map_length).
  assert (ND : NoDup (w :: connected s)) by (constructor; [auto | apply (i_nodup _ _ _ I)]).
  assert (INC : incl (w :: connected s) (seq 0 n)).
  { intros v [<-|V]; apply in_seq; [lia|]. pose proof (i_in _ _ _ I _ V). lia. }
  pose proof (NoDup_incl_length ND INC) as LE. rewrite seq_length in LE. cbn [length] in LE. lia.
Qed.

(** A step keeps a worker waiting, or connects to it. *)
Lemma waits_step : forall limit n a s t w, inv limit n s -> waits s w -> step limit a s = Next t ->
  waits t w \/ connected t = connected s ++ [w].
Proof.
  intros limit n a s t w I W E. destruct (waits_free _ _ _ _ I W) as [F L].
  destruct W as (x & N & U & D & T).
  assert (K : forall v f c m d q, v <> w -> waits (mkS (upd v f (pool s)) c m (now s + Z.of_N d) q) w).
  { intros v f c m d q Ne. exists x. cbn [pool now]. rewrite nth_upd.
    destruct (Nat.eqb_spec v w); [congruence|]. repeat split; auto. lia. }
  assert (K0 : forall c m d q, waits (mkS (pool s) c m (now s + Z.of_N d) q) w).
  { intros c m d q. exists x. cbn [pool now]. repeat split; auto. lia. }
  assert (Z0 : now s = (now s + Z.of_N 0)%Z) by lia.
  destruct a as [|d|i|i|i|i]; cbn [step] in E.
  - destruct (at_ s) as [|[|i]|[|k]] eqn:P; try (injection E as <-; left; rewrite Z0; apply K0).
    + left. unfold reap in E. destruct (nth_error (conns s) i) as [[v st]|] eqn:C; [|discriminate].
      destruct (conn_at _ _ _ _ C) as (_ & _ & Cv).
      destruct st; try (injection E as <-; rewrite Z0; apply K0).
      destruct (nth_error (pool s) v); [|discriminate]. injection E as <-. rewrite Z0; apply K. congruence.
    + destruct (look_looks _ _ _ k I) as (t' & E' & Lk). rewrite E in E'; injection E' as <-.
      inversion_clear Lk as [F1|y H1 H2 Ny Y|y H1 H2 Ny Uy Dy Wy]; try (left; rewrite Z0; apply K0).
      destruct (Nat.eq_dec (next s) w) as [<-|Ne].
      * right. unfold connected; cbn [conns]. now rewrite map_app.
      * left. rewrite Z0; now apply K.
  - injection E as <-. left. apply K0.
  - destruct (nth_error (conns s) i) as [[v [| |]]|]; try discriminate; injection E as <-; left; rewrite Z0; apply K0.
  - destruct (nth_error (conns s) i) as [[v [| |]]|] eqn:C; try discriminate; injection E as <-; left.
    destruct (conn_at _ _ _ _ C) as (_ & _ & Cv). rewrite Z0 at 2. apply K. congruence.
  - destruct (nth_error (conns s) i) as [[v [| |]]|]; try discriminate; injection E as <-; left; rewrite Z0; apply K0.
  - destruct (nth_error (conns s) i) as [[v [| |]]|] eqn:C; try discriminate; injection E as <-; left;
    destruct (conn_at _ _ _ _ C) as (_ & _ & Cv); rewrite Z0; apply K; congruence.
Qed.

(** What a step does: it leaves m_NextWorkerIndex alone and opens nothing, or
    it passes over a worker that does not wait, or it connects to one. *)
Inductive kind (limit n : nat) (s t : state) : Prop :=
| k_stay : next t = next s -> skipn (length (conns s)) (connected t) = [] -> kind limit n s t
| k_pass : forall k, at_ s = Looking (S k) -> at_ t = Looking k -> next t = S (next s) mod n ->
    connected t = connected s -> skipn (length (conns s)) (connected t) = [] -> ~ waits s (next s) -> kind limit n s t
| k_open : forall k, at_ s = Looking (S k) -> at_ t = Looking k -> next t = S (next s) mod n ->
    connected t = connected s ++ [next s] -> skipn (length (conns s)) (connected t) = [next s] -> kind limit n s t.

Lemma step_kind : forall limit n a s t, inv limit n s -> step limit a s = Next t -> kind limit n s t.
Proof.
  intros limit n a s t I E.
  destruct (opened _ _ _ _ _ I E) as [(_ & Sk)|(k & -> & P & Lk & C & Sk & Nc & _)].
  - destruct a as [|d|i|i|i|i]; cbn [step] in E;
      try (destruct (nth_error (conns s) i) as [[v [| |]]|]; try discriminate);
      try (injection E as <-; now apply k_stay).
    destruct (at_ s) as [|[|i]|[|k]] eqn:P; try (injection E as <-; now apply k_stay).
    + unfold reap in E. destruct (nth_error (conns s) i) as [[v st]|]; [|discriminate].
      destruct st; try (injection E as <-; now apply k_stay).
      destruct (nth_error (pool s) v); [|discriminate]. injection E as <-; now apply k_stay.
    + destruct (look_looks _ _ _ k I) as (t' & E' & Lk). rewrite E in E'; injection E' as <-.
      inversion Lk as [F1|y H1 H2 Ny Y|y H1 H2 Ny Uy Dy Wy]; subst t.
      * now apply k_stay.
      * apply (k_pass _ _ _ _ k); auto. intros (x & N & U & D & T).
        rewrite N in Ny; injection Ny as <-. destruct Y as [Y|[Y|Y]]; [congruence | congruence | lia].
      * exfalso. unfold connected in Sk; cbn [conns] in Sk. rewrite map_app, skipn_app, map_length, Nat.sub_diag in Sk.
        apply app_eq_nil in Sk as [_ Sk]. discriminate.
  - apply (k_open _ _ _ _ k); auto; inversion Lk; subst t; cbn [at_ next]; auto;
    unfold connected in C; cbn [conns] in C;
    (assert (Q : length (map fst (conns s)) = length (map fst (conns s) ++ [next s])) by congruence;
     rewrite app_length in Q; cbn [length] in Q; lia).
Qed.

Lemma step_other : forall limit a s t, step limit a s = Next t -> a <> Own ->
  next t = next s /\ connected t = connected s /\ at_ t = at_ s.
Proof.
  intros limit a s t E Ne.
  destruct a as [|d|i|i|i|i]; cbn [step] in E; [now elim Ne|..];
    try (destruct (nth_error (conns s) i) as [[v [| |]]|]; try discriminate);
    injection E as <-; repeat split; cbn [connected conns]; auto; unfold connected; cbn [conns]; now apply map_upd.
Qed.

(** ** Fairness *)

Lemma fair : forall limit n w h s t, inv limit n s -> waits s w -> run limit h s = Next t ->
  ~ In w (attempts limit h s) ->
  NoDup (attempts limit h s) /\
  forall v, In v (attempts limit h s) -> v < n /\ dist n (next s) v < dist n (next s) w.
Proof.
  intros limit n w. induction h as [|a h IH]; intros s t I W R NI; cbn [attempts] in *.
  - split; [constructor | intros v []].
  - cbn [run] in R. destruct (step limit a s) as [u| |] eqn:E; try discriminate.
    pose proof (proj2 (inv_step limit n a s I) _ E) as Iu.
    destruct (waits_free _ _ _ _ I W) as [F L].
    assert (Wu : waits u w).
    { destruct (waits_step _ _ _ _ _ _ I W E) as [Wu|C]; auto. elim NI. apply in_or_app. left.
      rewrite C, skipn_app. apply in_or_app. right. unfold connected at 1. rewrite map_length, Nat.sub_diag. now left. }
    rewrite in_app_iff in NI.
    destruct (IH _ _ Iu Wu R) as [ND LT]; [tauto|].
    destruct (i_next _ _ _ I) as [Z|Hp]; [lia|].
    assert (ADV : forall v, next u = S (next s) mod n -> w <> next s -> In v (attempts limit h u) ->
              v < n /\ v <> next s /\ dist n (next s) v < dist n (next s) w).
    { intros v X Nw V. destruct (LT _ V) as [Lv Dv]. rewrite X in Dv. split; auto.
      assert (Nv : v <> next s).
      { intros ->. rewrite dist_last in Dv by auto.
        pose proof (dist_next n (next s) w Hp L Nw). pose proof (dist_lt n (next s) w Hp L). lia. }
      split; auto. rewrite (dist_next n (next s) w), (dist_next n (next s) v) by auto. lia. }
    destruct (step_kind _ _ _ _ _ I E) as [X Sk|k P Pu X C Sk NW|k P Pu X C Sk]; rewrite Sk; cbn [app].
    + split; auto. intros v V. rewrite <- X. auto.
    + split; auto. intros v V. destruct (ADV v X) as (A1 & _ & A3); auto. intros ->; auto.
    + rewrite Sk in NI; cbn [In] in NI.
      assert (Nw : w <> next s) by (intros ->; tauto).
      split.
      * constructor; auto. intros V. now destruct (ADV _ X Nw V) as (_ & A & _).
      * intros v [<-|V]; [|destruct (ADV _ X Nw V) as (A1 & _ & A3); auto].
        split; auto. rewrite dist_self, (dist_next n (next s) w) by auto. lia.
Qed.

(** ** A pass *)

Lemma pass_step : forall limit n w a s t k, inv limit n s -> at_ s = Looking k ->
  In w (connected s) \/ (waits s w /\ dist n (next s) w < k) -> step limit a s = Next t ->
  (exists k', at_ t = Looking k' /\ (In w (connected t) \/ (waits t w /\ dist n (next t) w < k'))) \/
  (at_ t = Outside /\ (In w (connected t) \/ limit <= length (conns t))).
Proof.
  intros limit n w a s t k I P W E.
  assert (D : a = Own \/ a <> Own) by (destruct a; auto; right; discriminate).
  destruct D as [->|Ne].
  2:{ destruct (step_other _ _ _ _ E Ne) as (X & C & Pt). left. exists k. rewrite Pt, X, C. split; auto.
      destruct W as [W|[W Dw]]; auto. destruct (waits_step _ _ _ _ _ _ I W E) as [Wt|Ct]; auto.
      left. rewrite <- C, Ct. apply in_or_app. right. now left. }
  cbn [step] in E. rewrite P in E. destruct k as [|k].
  - injection E as <-. right. cbn [at_ conns connected]. split; auto. left.
    destruct W as [W|[_ W]]; [exact W | lia].
  - assert (E0 : step limit Own s = Next t) by (cbn [step]; now rewrite P).
    destruct (look_looks _ _ _ k I) as (t' & E' & Lk). rewrite E in E'; injection E' as <-.
    destruct W as [W|[W Dw]].
    { inversion_clear Lk as [F1|y H1 H2 Ny Y|y H1 H2 Ny Uy Dy Wy]; cbn [at_].
      - right. auto.
      - left. exists k. auto.
      - left. exists k. split; auto. left. unfold connected; cbn [conns]. rewrite map_app. apply in_or_app. now left. }
    pose proof (room _ _ _ _ I W) as Rm. destruct (waits_free _ _ _ _ I W) as [F L].
    destruct (i_next _ _ _ I) as [Z|Hp]; [lia|].
    inversion Lk as [F1|y H1 H2 Ny Y|y H1 H2 Ny Uy Dy Wy]; subst t; cbn [at_].
    + right. split; auto. right. cbn [conns]. destruct F1; auto; lia.
    + left. exists k. split; auto. right.
      assert (Nw : w <> next s).
      { intros ->. destruct W as (x & N & U & Dn & T). rewrite N in Ny; injection Ny as <-.
        destruct Y as [Y|[Y|Y]]; [congruence | congruence | lia]. }
      rewrite (dist_next n (next s) w) in Dw by auto. cbn [next].
      destruct (waits_step _ _ _ _ _ _ I W E0) as [Wt|Ct].
      * split; auto. lia.
      * exfalso. unfold connected in Ct; cbn [conns] in Ct.
        assert (Q : length (map fst (conns s)) = length (map fst (conns s) ++ [w])) by congruence.
        rewrite app_length in Q; cbn [length] in Q; lia.
    + left. exists k. split; auto. cbn [next].
      destruct (Nat.eq_dec w (next s)) as [->|Nw].
      * left. unfold connected; cbn [conns]. rewrite map_app. apply in_or_app. right. now left.
      * right. rewrite (dist_next n (next s) w) in Dw by auto.
        destruct (waits_step _ _ _ _ _ _ I W E0) as [Wt|Ct].
        -- split; auto. lia.
        -- exfalso. unfold connected in Ct; cbn [conns] in Ct. rewrite map_app in Ct. cbn [map fst] in Ct.
           apply app_inv_head in Ct. congruence.
Qed.

Lemma pass : forall limit n w h s t k, inv limit n s -> at_ s = Looking k ->
  In w (connected s) \/ (waits s w /\ dist n (next s) w < k) -> run limit h s = Next t ->
  within_pass limit h s -> at_ t = Outside ->
  In w (connected t) \/ limit <= length (conns t).
Proof.
  intros limit n w. induction h as [|a h IH]; intros s t k I P W R WP Pt.
  - cbn [run] in R. injection R as <-. congruence.
  - cbn [run] in R. destruct (step limit a s) as [u| |] eqn:E; try discriminate.
    pose proof (proj2 (inv_step limit n a s I) _ E) as Iu.
    destruct (pass_step _ _ _ _ _ _ _ I P W E) as [(k' & Pu & Wu)|[Pu C]].
    + apply (IH u t k'); auto. intros h1 h2 v Eh Nh Rv. apply (WP (a :: h1) h2 v); auto.
      * now rewrite Eh.
      * cbn [run]. now rewrite E.
    + destruct h as [|b h].
      * cbn [run] in R. injection R as <-. auto.
      * destruct (WP [a] (b :: h) u) as [k' Hk]; auto; try discriminate.
        -- cbn [run]. now rewrite E.
        -- congruence.
Qed.
