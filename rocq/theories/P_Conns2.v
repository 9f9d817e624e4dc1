(** What the client remembers of its workers is what happened. *)

From Coq Require Import List Bool Arith ZArith Lia.
From Verif Require Import M_Path M_Conns S_Conns P_Conns.
Import ListNotations.

Lemma elapsed_app : forall h1 h2, elapsed (h1 ++ h2) = (elapsed h1 + elapsed h2)%Z.
Proof. induction h1 as [|a h1 IH]; intros h2; cbn [elapsed app]; auto. destruct a; rewrite IH; lia. Qed.

Lemma elapsed_pos : forall h, (0 <= elapsed h)%Z.
Proof. induction h as [|a h IH]; cbn [elapsed]; [lia|]. destruct a; lia. Qed.

(** Splitting a history with one more step. *)
Lemma snoc_split : forall A (h : list A) a h1 b h2, h ++ [a] = h1 ++ b :: h2 ->
  (h2 = [] /\ h = h1 /\ a = b) \/ (exists h3, h2 = h3 ++ [a] /\ h = h1 ++ b :: h3).
Proof.
  intros A h a h1 b h2 E. destruct (@exists_last A (b :: h2)) as (l & z & Z); [easy|].
  rewrite Z, app_assoc in E. apply app_inj_tail in E as [E <-].
  destruct l as [|y l]; cbn [app] in Z.
  - injection Z as <- ->. left. now rewrite app_nil_r in E.
  - injection Z as <- ->. right. exists l. auto.
Qed.

Section H.
Variables (limit n : nat) (s0 : state).

Lemma misbehaved_snoc : forall h a s w, run limit h s0 = Next s ->
  (misbehaved limit s0 (h ++ [a]) w <->
   misbehaved limit s0 h w \/ exists i, a = Misbehave i /\ nth_error (connected s) i = Some w).
Proof.
  intros h a s w R. split.
  - intros (h1 & i & h2 & s1 & E & R1 & N). apply snoc_split in E as [(-> & -> & ->)|(h3 & -> & ->)].
    + right. rewrite R in R1; injection R1 as <-. eauto.
    + left. exists h1, i, h3, s1. auto.
  - intros [(h1 & i & h2 & s1 & -> & R1 & N)|(i & -> & N)].
    + exists h1, i, (h2 ++ [a]), s1. rewrite <- app_assoc. auto.
    + exists h, i, [], s. auto.
Qed.

Lemma refused_snoc : forall h a s w d, run limit h s0 = Next s ->
  (refused_ago limit s0 (h ++ [a]) w d <->
   refused_ago limit s0 h w (d - elapsed [a])%Z \/
   exists i, a = Refuse i /\ nth_error (connected s) i = Some w /\ d = 0%Z).
Proof.
  intros h a s w d R. split.
  - intros (h1 & i & h2 & s1 & E & R1 & N & D). apply snoc_split in E as [(-> & -> & ->)|(h3 & -> & ->)].
    + right. rewrite R in R1; injection R1 as <-. exists i. auto.
    + left. exists h1, i, h3, s1. repeat split; auto. rewrite elapsed_app in D. lia.
  - intros [(h1 & i & h2 & s1 & -> & R1 & N & D)|(i & -> & N & ->)].
    + exists h1, i, (h2 ++ [a]), s1. rewrite <- app_assoc, elapsed_app. repeat split; auto. lia.
    + exists h, i, [], s. auto.
Qed.

(** What is remembered of a worker, and of the time. *)
Definition knows (h : list label) (s : state) : Prop :=
  now s = (now s0 + elapsed h)%Z /\
  forall w x, nth_error (pool s) w = Some x ->
    (denied x = true <-> misbehaved limit s0 h w) /\
    (forall d, refused_ago limit s0 h w d -> (now s - since x <= d)%Z) /\
    (since x = (now s0 - delay)%Z \/ refused_ago limit s0 h w (now s - since x)%Z).

(** A step that changes the records of workers only in the way [g] does,
    keeps that. *)
Lemma knows_use : forall h a s p c m q, knows h s -> run limit h s0 = Next s ->
  (forall i, a <> Misbehave i) -> (forall i, a <> Refuse i) ->
  (forall w x, nth_error p w = Some x -> exists y, nth_error (pool s) w = Some y /\ denied x = denied y /\ since x = since y) ->
  knows (h ++ [a]) (mkS p c m (now s + elapsed [a]) q).
Proof.
  intros h a s p c m q [T K] R NM NR P. split; cbn [now pool].
  - rewrite elapsed_app, T. lia.
  - intros w x N. destruct (P _ _ N) as (y & Ny & Dy & Sy). destruct (K _ _ Ny) as (K1 & K2 & K3).
    rewrite Dy, Sy, (misbehaved_snoc _ _ _ _ R). repeat split.
    + intros D. left. tauto.
    + intros [M|(i & E & _)]; [tauto | now elim (NM i)].
    + intros d. rewrite (refused_snoc _ _ _ _ _ R). intros [M|(i & E & _)]; [|now elim (NR i)].
      apply K2 in M. lia.
    + destruct K3 as [E|E]; [left; auto | right]. rewrite (refused_snoc _ _ _ _ _ R). left.
      replace (now s + elapsed [a] - since y - elapsed [a])%Z with (now s - since y)%Z by lia. auto.
Qed.

Lemma knows_step : forall h a s t, inv limit n s -> knows h s -> run limit h s0 = Next s ->
  step limit a s = Next t -> knows (h ++ [a]) t.
Proof.
  intros h a s t I K R E.
  assert (Z0 : forall b, elapsed [b] = 0%Z -> now s = (now s + elapsed [b])%Z) by (intros; lia).
  destruct a as [|d|i|i|i|i]; cbn [step] in E.
  - assert (Q : forall p c m q, (forall w x, nth_error p w = Some x -> exists y, nth_error (pool s) w = Some y /\ denied x = denied y /\ since x = since y) ->
      knows (h ++ [Own]) (mkS p c m (now s) q)).
    { intros p c m q P. rewrite (Z0 Own eq_refl). now apply knows_use. }
    assert (U : forall b v w x, nth_error (upd v (use b) (pool s)) w = Some x -> exists y, nth_error (pool s) w = Some y /\ denied x = denied y /\ since x = since y).
    { intros b v w x N. rewrite nth_upd in N. destruct (v =? w); [|eauto].
      destruct (nth_error (pool s) w) as [y|]; cbn in N; [|discriminate]. injection N as <-. exists y; auto. }
    assert (U0 : forall w x, nth_error (pool s) w = Some x -> exists y, nth_error (pool s) w = Some y /\ denied x = denied y /\ since x = since y) by eauto.
    destruct (at_ s) as [|[|i]|[|k]] eqn:P; try (injection E as <-; apply Q, U0).
    + unfold reap in E. destruct (nth_error (conns s) i) as [[w st]|]; [|discriminate].
      destruct st; try (injection E as <-; apply Q, U0).
      destruct (nth_error (pool s) w); [|discriminate]. injection E as <-. apply Q, U.
    + destruct (look_looks _ _ _ k I) as (t' & E' & Lk). rewrite E in E'; injection E' as <-.
      inversion_clear Lk; apply Q; auto. apply U.
  - injection E as <-. assert (D : elapsed [Tick d] = Z.of_N d) by (cbn [elapsed]; lia).
    rewrite <- D. apply knows_use; auto; try discriminate. eauto.
  - destruct (nth_error (conns s) i) as [[w [| |]]|]; try discriminate; injection E as <-.
    rewrite (Z0 (Accept i) eq_refl). apply knows_use; auto; try discriminate. eauto.
  - destruct (nth_error (conns s) i) as [[w [| |]]|] eqn:C; try discriminate; injection E as <-.
    destruct (conn_at _ _ _ _ C) as (C1 & _ & _). destruct K as [T K]. split; cbn [now pool].
    + rewrite elapsed_app, T. cbn [elapsed]. lia.
    + intros v x N. rewrite nth_upd in N. rewrite (misbehaved_snoc _ _ _ _ R).
      assert (SM : forall y, (denied y = true <-> misbehaved limit s0 h v) ->
         (denied y = true <-> misbehaved limit s0 h v \/ (exists j, Refuse i = Misbehave j /\ nth_error (connected s) j = Some v))).
      { intros y ->. split; [now left|]. intros [M|(j & J & _)]; [auto | discriminate]. }
      destruct (Nat.eqb_spec w v) as [<-|Ne].
      * destruct (nth_error (pool s) w) as [y|] eqn:Ny; cbn in N; [|discriminate]. injection N as <-.
        destruct (K _ _ Ny) as (K1 & K2 & K3). cbn [denied restart since]. split; [|split].
        -- now apply SM.
        -- intros d (h1 & j & h2 & s1 & _ & _ & _ & ->). pose proof (elapsed_pos h2). lia.
        -- right. rewrite (refused_snoc _ _ _ _ _ R). right. exists i. repeat split; auto; lia.
      * destruct (K _ _ N) as (K1 & K2 & K3). split; [|split].
        -- now apply SM.
        -- intros d. rewrite (refused_snoc _ _ _ _ _ R). cbn [elapsed]. intros [M|(j & J & M & _)].
           ++ apply K2 in M. lia.
           ++ injection J as <-. congruence.
        -- destruct K3 as [S|S]; [now left | right]. rewrite (refused_snoc _ _ _ _ _ R). left.
           cbn [elapsed]. now rewrite Z.sub_0_r.
  - destruct (nth_error (conns s) i) as [[w [| |]]|]; try discriminate; injection E as <-.
    rewrite (Z0 (Lose i) eq_refl). apply knows_use; auto; try discriminate. eauto.
  - assert (X : exists w, nth_error (connected s) i = Some w /\
        t = mkS (upd w deny (pool s)) (conns s) (next s) (now s) (at_ s)).
    { destruct (nth_error (conns s) i) as [[w [| |]]|] eqn:C; try discriminate; injection E as <-;
      exists w; (split; [now apply conn_at in C | reflexivity]). }
    destruct X as (w & C1 & ->). clear E. destruct K as [T K]. split; cbn [now pool].
    + rewrite elapsed_app, T. cbn [elapsed]. lia.
    + intros v x N. rewrite nth_upd in N. rewrite (misbehaved_snoc _ _ _ _ R).
      assert (RS : forall y,
         (forall d, refused_ago limit s0 h v d -> (now s - since y <= d)%Z) /\
         (since y = (now s0 - delay)%Z \/ refused_ago limit s0 h v (now s - since y)%Z) ->
         (forall d, refused_ago limit s0 (h ++ [Misbehave i]) v d -> (now s - since y <= d)%Z) /\
         (since y = (now s0 - delay)%Z \/ refused_ago limit s0 (h ++ [Misbehave i]) v (now s - since y)%Z)).
      { intros y [Y1 Y2]. split.
        - intros d. rewrite (refused_snoc _ _ _ _ _ R). cbn [elapsed]. rewrite Z.sub_0_r.
          intros [M|(j & J & _)]; [auto | discriminate].
        - destruct Y2 as [Y2|Y2]; [now left | right]. rewrite (refused_snoc _ _ _ _ _ R). left.
          cbn [elapsed]. now rewrite Z.sub_0_r. }
      destruct (Nat.eqb_spec w v) as [<-|Ne].
      * destruct (nth_error (pool s) w) as [y|] eqn:Ny; cbn in N; [|discriminate]. injection N as <-.
        destruct (K _ _ Ny) as (K1 & K2). cbn [denied deny since]. split; [|now apply RS].
        split; auto. intros _. right. eauto.
      * destruct (K _ _ N) as (K1 & K2). split; [|now apply RS]. rewrite K1. split; [now left|].
        intros [M|(j & J & M)]; auto. injection J as <-. congruence.
Qed.

Hypothesis init : inv limit n s0.
Hypothesis fresh : forall w x, nth_error (pool s0) w = Some x -> denied x = false /\ since x = (now s0 - delay)%Z.

Lemma knows_run : forall h s, run limit h s0 = Next s -> inv limit n s /\ knows h s.
Proof.
  induction h as [|a h IH] using rev_ind; intros s R.
  - cbn [run] in R. injection R as <-. split; auto. split; cbn [elapsed]; [lia|].
    intros w x N. destruct (fresh _ _ N) as [D S].
    assert (X : forall A (h1 h2 : list A) b, [] <> h1 ++ b :: h2) by (intros A [|? ?] h2 b; discriminate).
    repeat split; auto.
    + congruence.
    + intros (h1 & i & h2 & s1 & E & _). now apply X in E.
    + intros d (h1 & i & h2 & s1 & E & _). now apply X in E.
  - rewrite run_app in R. destruct (run limit h s0) as [u| |] eqn:Ru; try discriminate.
    rewrite run1 in R. destruct (IH _ eq_refl) as [I K]. split.
    + now apply (inv_step limit n a u I).
    + eapply knows_step; eauto.
Qed.

(** Being ready, in terms of what is remembered. *)
Lemma ready_iff : forall h s w, run limit h s0 = Next s ->
  (ready limit s0 h s w <->
   exists x, nth_error (pool s) w = Some x /\ in_use x = false /\ denied x = false /\ (delay <= now s - since x)%Z).
Proof.
  intros h s w R. destruct (knows_run _ _ R) as [I [T K]]. unfold ready.
  assert (L : length (pool s0) = length (pool s)) by (now rewrite (i_len _ _ _ I), (i_len _ _ _ init)).
  rewrite L. split.
  - intros (Lw & NC & NM & RF). apply nth_error_Some in Lw.
    destruct (nth_error (pool s) w) as [x|] eqn:N; [|easy]. exists x. destruct (K _ _ N) as (K1 & K2 & K3).
    repeat split; auto.
    + rewrite <- (i_use _ _ _ I _ _ N) in NC. now destruct (in_use x).
    + rewrite <- K1 in NM. now destruct (denied x).
    + destruct K3 as [S|S].
      * pose proof (elapsed_pos h). unfold delay in *. lia.
      * apply RF in S. exact S.
  - intros (x & N & U & D & W). destruct (K _ _ N) as (K1 & K2 & K3). repeat split.
    + apply nth_error_Some. congruence.
    + rewrite <- (i_use _ _ _ I _ _ N). congruence.
    + rewrite <- K1. congruence.
    + intros d Hd. apply K2 in Hd. unfold delay in W. lia.
Qed.

End H.
