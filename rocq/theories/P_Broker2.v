(** Invariants of the shared folder, for C91. *)
From Coq Require Import String Ascii List Bool Arith NArith ZArith Lia.
From Verif Require Import M_Path M_Broker S_Broker P_Broker.
Import ListNotations.
Local Open Scope list_scope.
Local Open Scope Z_scope.

Lemma name_nil s : name_of s = [] -> host s = [].
Proof. unfold name_of. destruct (ip s); congruence. Qed.

Lemma identity_not_nil c : served c -> identity c <> [].
Proof.
  intros (_ & _ & _ & _ & H). rewrite identity_address. destruct (address (my_ip c)); congruence.
Qed.

Lemma lasts_app a b : lasts (a ++ b) = lasts a + lasts b.
Proof. induction a as [|[d|j c|j|j ok] a IH]; cbn [app lasts]; rewrite ?IH; lia. Qed.

Lemma reached_app t0 h e i n t : reached t0 h i n t -> reached t0 (h ++ [e]) i n t.
Proof. intros (a & c & b & -> & Ht & Hi). exists a, c, (b ++ [e]). rewrite <- app_assoc. auto. Qed.
Lemma reached_last t0 h i c : reached t0 (h ++ [Call i c]) i (identity c) (t0 + lasts h).
Proof. exists h, c, []. auto. Qed.

Lemma offered_app i a b x : offered i (a ++ b) x = offered i b (offered i a x).
Proof. revert x. induction a as [|[d|j c|j|j ok] a IH]; intro x; cbn [app offered]; auto. Qed.

Section Root.
Variable root : str.
Variable owner : str -> nat.
Variable t0 : Z.

Lemma root_inj a b : root ++ a = root ++ b -> a = b.
Proof. apply app_inv_head. Qed.

(** What is known of every worker. *)
Definition K (w : world) : Prop := forall j,
  let s := servers w j in
  (host s = [] -> ip s = []) /\ (host s <> [] -> owner (name_of s) = j) /\ (avail s = true -> token s = root ++ name_of s) /\
  (avail s = true -> t_update s <= clock w) /\ t_update s <= clock w /\ t_ip s <= clock w.

Lemma K_fresh t : (host (fresh t) = [] -> ip (fresh t) = []) /\ (host (fresh t) <> [] -> False) /\ avail (fresh t) = false.
Proof. cbn. auto. Qed.

Lemma K_start f : K (start t0 f).
Proof.
  intro j. cbn [start servers clock]. unfold fresh. cbn [host ip avail token t_update t_ip name_of].
  repeat split; try congruence; try lia.
Qed.

Lemma K_step w e : K w -> obeyed e -> owned owner e -> K (step root w e).
Proof.
  intros HK Ho Hw. destruct e as [d|i c|i|i ok]; cbn [step].
  - intro j. destruct (HK j) as (K1 & K2 & K3 & K4 & K5 & K6). cbn [servers clock].
    repeat split; auto; try lia. 
  - destruct (set_availability root (clock w) c (servers w i) (folder w)) as (s' & f') eqn:E.
    intro j. cbn [servers clock]. unfold upd. destruct (Nat.eqb_spec j i) as [->|]; [|exact (HK j)].
    destruct (HK i) as (K1 & K2 & K3 & K4 & K5 & K6). cbn [obeyed] in Ho. cbn [owned] in Hw.
    destruct (want c) eqn:Wc.
    + destruct (call_true _ _ _ _ _ _ _ E Wc Ho K1) as (A1 & A2 & A3 & [(B1 & B2 & B3 & B4 & B5 & B6 & B7)|(B1 & B2 & B3 & B4 & B5)]).
      * rewrite B2, B3, B4, B5, B6. rewrite token_path_name, B2 in A2. repeat split; auto.
      * rewrite token_path_name in A2. rewrite B3.
        assert (t_ip s' <= clock w) by (destruct B4 as [(_ & ->)|(_ & -> & _)]; lia).
        repeat split; auto; try lia; try congruence.
        intros _. destruct B4 as [(-> & _)|(-> & _ & Hh & _)]; auto.
    + destruct (call_false _ _ _ _ _ _ _ E Wc Ho) as (A1 & A2 & A3 & A4 & A5 & A6 & A7 & A8).
      rewrite A3, A4, A5, A6. replace (name_of s') with (name_of (servers w i)) by (unfold name_of; rewrite A3, A4; reflexivity).
      repeat split; auto; try congruence; destruct (avail (servers w i)); lia.
  - intro j. cbn [servers clock]. unfold upd. destruct (Nat.eqb_spec j i) as [->|]; [|exact (HK j)].
    unfold fresh. cbn [host ip avail token t_update t_ip name_of]. repeat split; try congruence; try lia.
  - intro j. cbn [servers clock]. unfold upd. destruct (Nat.eqb_spec j i) as [->|]; [|exact (HK j)].
    unfold fresh. cbn [host ip avail token t_update t_ip name_of]. repeat split; try congruence; try lia.
Qed.

Lemma clock_step w e : clock (step root w e) = clock w + lasts [e].
Proof.
  destruct e as [d|i c|i|i ok]; cbn [step lasts clock]; try lia.
  destruct (set_availability root (clock w) c (servers w i) (folder w)). cbn [clock]. lia.
Qed.

(** What is known of the tokens of worker [i], which has not crashed. *)
Definition J (i : nat) (h : list event) (w : world) : Prop :=
  let s := servers w i in
  clock w = t0 + lasts h /\ avail s = offered i h false /\
  (host s <> [] -> reached t0 h i (name_of s) (t_ip s)) /\
  (forall name t, In (root ++ name, t) (folder w) -> owner name = i ->
     name = name_of s /\ host s <> [] /\ avail s = true /\ t = t_update s /\ t - t_ip s < between_lookups /\ t_ip s <= t).

Lemma J_start i f : left_by_others root owner f t0 i -> J i [] (start t0 f).
Proof.
  intro H. unfold J. cbn [start servers clock folder lasts offered fresh]. cbn [avail host].
  split; [lia|]. split; [reflexivity|]. split; [intro X; exfalso; apply X; reflexivity|].
  intros n t Hi Hn. exfalso. destruct (H _ _ Hi) as (_ & H2). exact (H2 _ eq_refl Hn).
Qed.

Lemma other_in w j c s' f' x : K w -> served c -> owner (identity c) = j ->
  set_availability root (clock w) c (servers w j) (folder w) = (s', f') ->
  In x f' -> In x (folder w) \/ exists n, fst x = root ++ n /\ owner n = j.
Proof.
  intros HK Ho Hw E Hi. destruct (HK j) as (K1 & K2 & K3 & K4 & K5 & K6).
  destruct (want c) eqn:Wc.
  - destruct (call_true _ _ _ _ _ _ _ E Wc Ho K1) as (A1 & A2 & A3 & [(B1 & B2 & B3 & B4 & B5 & B6 & B7)|(B1 & B2 & B3 & B4 & B5)]).
    + left. apply B7 in Hi. tauto.
    + apply B5 in Hi. destruct Hi as [->|Hi]; [right|left; tauto].
      exists (name_of s'). split; [reflexivity|]. destruct B4 as [(-> & _)|(-> & _ & Hh & _)]; auto.
  - destruct (call_false _ _ _ _ _ _ _ E Wc Ho) as (A1 & A2 & A3 & A4 & A5 & A6 & A7 & A8). left. apply A8 in Hi. tauto.
Qed.

Lemma J_step i h w e : K w -> J i h w -> obeyed e -> owned owner e -> e <> Crash i -> J i (h ++ [e]) (step root w e).
Proof.
  intros HK (J1 & J2 & J3 & J4) Ho Hw Hc. unfold J.
  split; [rewrite clock_step, lasts_app; lia|]. rewrite offered_app.
  destruct (HK i) as (K1 & K2 & K3 & K4 & K5 & K6).
  destruct e as [d|j c|j|j ok]; cbn [step offered].
  - cbn [servers folder]. split; [assumption|]. split; [intro; apply reached_app; auto|exact J4].
  - destruct (set_availability root (clock w) c (servers w j) (folder w)) as (s' & f') eqn:E.
    cbn [servers folder]. unfold upd. cbn [obeyed] in Ho. cbn [owned] in Hw. rewrite (Nat.eqb_sym j i).
    destruct (Nat.eqb_spec i j) as [<-|Hne].
    + destruct (want c) eqn:Wc.
      * destruct (call_true _ _ _ _ _ _ _ E Wc Ho K1) as (A1 & A2 & A3 & [(B1 & B2 & B3 & B4 & B5 & B6 & B7)|(B1 & B2 & B3 & B4 & B5)]).
        -- split; [assumption|]. rewrite B2, B3, B5, B6. split; [intro; apply reached_app; auto|].
           intros name t Hi Hn. apply B7 in Hi. destruct (J4 name t (proj1 Hi) Hn) as (X1 & X2 & X3 & X4 & X5). auto.
        -- split; [assumption|].
           assert (Hre : reached t0 (h ++ [Call i c]) i (name_of s') (t_ip s')).
           { destruct B4 as [(-> & ->)|(-> & -> & Hh & _)]; [rewrite J1; apply reached_last|apply reached_app; auto]. }
           split; [intros _; exact Hre|]. intros name t Hi Hn. apply B5 in Hi. destruct Hi as [Hi|(Hi & N1 & N2 & _)].
           ++ injection Hi as E1 E2. apply root_inj in E1. subst name t.
              repeat split; auto; unfold between_lookups in *; destruct B4 as [(_ & ->)|(_ & -> & _ & Hl)]; lia.
           ++ destruct (J4 name t Hi Hn) as (X1 & _). cbn [fst] in N2. congruence.
      * destruct (call_false _ _ _ _ _ _ _ E Wc Ho) as (A1 & A2 & A3 & A4 & A5 & A6 & A7 & A8).
        assert (Nm : name_of s' = name_of (servers w i)) by (unfold name_of; rewrite A3, A4; reflexivity).
        split; [congruence|]. rewrite Nm, A3, A5. split; [intro; apply reached_app; auto|].
        intros name t Hi Hn. apply A8 in Hi. destruct Hi as (Hi & Hr & _). destruct (J4 name t Hi Hn) as (X1 & X2 & X3 & _).
        specialize (Hr X3). cbn [fst] in Hr. congruence.
    + split; [assumption|]. split; [intro; apply reached_app; auto|].
      intros name t Hi Hn. destruct (other_in _ _ _ _ _ _ HK Ho Hw E Hi) as [Hf|(n & En & On)]; [exact (J4 name t Hf Hn)|].
      cbn [fst] in En. apply root_inj in En. congruence.
  - cbn [servers folder]. unfold upd. destruct (Nat.eqb_spec i j) as [<-|Hne]; [congruence|].
    replace (Nat.eqb j i) with false by (symmetry; apply Nat.eqb_neq; auto).
    split; [assumption|]. split; [intro; apply reached_app; auto|exact J4].
  - cbn [obeyed] in Ho. subst ok. cbn [servers folder]. unfold upd. rewrite (Nat.eqb_sym j i).
    assert (Sub : forall x, In x (stop true (servers w j) (folder w)) -> In x (folder w)).
    { intros x. unfold stop. destruct (avail (servers w j)); [rewrite in_remove; tauto|auto]. }
    destruct (Nat.eqb_spec i j) as [<-|Hne].
    + split; [reflexivity|]. split; [cbn [fresh host]; congruence|].
      intros name t Hi Hn. exfalso. destruct (J4 name t (Sub _ Hi) Hn) as (X1 & X2 & X3 & X4 & X5).
      unfold stop in Hi. rewrite X3 in Hi. apply in_remove in Hi. cbn [fst] in Hi. destruct Hi as (_ & Hi). apply Hi.
      rewrite (K3 X3), X1. reflexivity.
    + split; [assumption|]. split; [intro; apply reached_app; auto|]. intros name t Hi. apply J4. auto.
Qed.

Lemma run_app w a b : run root w (a ++ b) = run root (run root w a) b.
Proof. apply fold_left_app. Qed.
Lemma run_snoc w a e : run root w (a ++ [e]) = step root (run root w a) e.
Proof. rewrite run_app. reflexivity. Qed.

Lemma K_run f h : Forall obeyed h -> Forall (owned owner) h -> K (run root (start t0 f) h).
Proof.
  induction h as [|e h IH] using rev_ind; intros Ho Hw; [apply K_start|].
  rewrite run_snoc. apply Forall_app in Ho, Hw. destruct Ho as (Ho & Ho1), Hw as (Hw & Hw1).
  inversion Ho1; inversion Hw1; subst. apply K_step; auto.
Qed.
Lemma J_run i f h : Forall obeyed h -> Forall (owned owner) h -> ~ In (Crash i) h -> left_by_others root owner f t0 i ->
  J i h (run root (start t0 f) h).
Proof.
  intros Ho Hw Hc Hf. induction h as [|e h IH] using rev_ind; [apply J_start; assumption|].
  rewrite run_snoc. apply Forall_app in Ho, Hw. destruct Ho as (Ho & Ho1), Hw as (Hw & Hw1).
  inversion Ho1; inversion Hw1; subst. rewrite in_app_iff in Hc. cbn [In] in Hc.
  apply J_step; auto. apply K_run; auto.
Qed.

(** The token of [i] is there, and was changed at most [d + 10] seconds
    ago. *)
Definition P (i : nat) (d : Z) (w : world) : Prop :=
  let s := servers w i in
  host s <> [] /\ In (root ++ name_of s, t_update s) (folder w) /\ clock w - t_update s <= d + between_updates.
Definition Q (i : nat) (c0 d : Z) (w : world) : Prop := t_update (servers w i) <= c0 \/ P i d w.

Lemma P_other i d w j c s' f' : K w -> P i d w -> served c -> owner (identity c) = j -> j <> i -> d + between_updates <= clean_older ->
  set_availability root (clock w) c (servers w j) (folder w) = (s', f') ->
  In (root ++ name_of (servers w i), t_update (servers w i)) f'.
Proof.
  intros HK (P1 & P2 & P3) Ho Hw Hne Hd E. destruct (HK j) as (K1 & K2 & K3 & K4 & K5 & K6).
  destruct (HK i) as (_ & I2 & _). specialize (I2 P1).
  assert (N1 : root ++ name_of (servers w i) <> root ++ name_of (servers w j)).
  { intro X. apply root_inj in X. destruct (host (servers w j)) eqn:Hj.
    - apply P1, name_nil. rewrite X. unfold name_of. rewrite (K1 eq_refl), Hj. reflexivity.
    - rewrite X in I2. rewrite K2 in I2 by congruence. congruence. }
  destruct (want c) eqn:Wc.
  - destruct (call_true _ _ _ _ _ _ _ E Wc Ho K1) as (A1 & A2 & A3 & [(B1 & B2 & B3 & B4 & B5 & B6 & B7)|(B1 & B2 & B3 & B4 & B5)]).
    + apply B7. split; [assumption|]. cbn [snd]. lia.
    + apply B5. right. split; [assumption|]. cbn [fst snd]. split; [|split; [assumption|lia]].
      intro X. apply root_inj in X. rewrite X in I2. destruct B4 as [(Y & _)|(Y & _ & Hh & _)]; rewrite Y in I2; [|rewrite K2 in I2 by assumption]; congruence.
  - destruct (call_false _ _ _ _ _ _ _ E Wc Ho) as (A1 & A2 & A3 & A4 & A5 & A6 & A7 & A8).
    apply A8. cbn [fst snd]. split; [assumption|]. split; [auto|lia].
Qed.

Lemma own_call i w c : K w -> served c -> want c = true ->
  (forall d, P i d w \/ between_updates <= clock w - t_update (servers w i) -> P i 0 (step root w (Call i c))) /\
  (t_update (servers w i) = t_update (servers (step root w (Call i c)) i) \/ P i 0 (step root w (Call i c))).
Proof.
  intros HK Ho Wc. destruct (HK i) as (K1 & K2 & K3 & K4 & K5 & K6). cbn [step].
  destruct (set_availability root (clock w) c (servers w i) (folder w)) as (s' & f') eqn:E.
  unfold P. cbn [servers folder clock]. unfold upd. rewrite Nat.eqb_refl.
  destruct (call_true _ _ _ _ _ _ _ E Wc Ho K1) as (A1 & A2 & A3 & [(B1 & B2 & B3 & B4 & B5 & B6 & B7)|(B1 & B2 & B3 & B4 & B5)]).
  - split; [|left; auto]. intros d [(P1 & P2 & P3)|H]; [|lia]. rewrite B2, B3, B5. split; [assumption|].
    split; [|lia]. apply B7. split; [assumption|]. cbn [snd]. unfold between_updates, clean_older in *. lia.
  - assert (X : host s' <> [] /\ In (root ++ name_of s', t_update s') f' /\ clock w - t_update s' <= 0 + between_updates).
    { split; [assumption|]. rewrite B3. split; [apply B5; auto|unfold between_updates; lia]. }
    split; [intros; exact X|right; exact X].
Qed.

Lemma PQ_step (i : nat) (c0 gap d : Z) (b : bool) h r w :
  K w -> Forall obeyed h -> Forall (owned owner) h -> 0 <= d <= gap -> gap + between_updates <= clean_older ->
  steady i gap d (h ++ r) -> (if b then P i d w else Q i c0 d w) ->
  exists d', 0 <= d' <= gap /\ steady i gap d' r /\ (if b then P i d' (run root w h) else Q i c0 d' (run root w h)).
Proof.
  revert d w. induction h as [|e h IH]; intros d w HK Ho Hw Hd Hg Hs HP; [exists d; auto|].
  inversion Ho; inversion Hw; subst. cbn [run fold_left]. change (fold_left (step root) h (step root w e)) with (run root (step root w e) h).
  assert (HK' : K (step root w e)) by (apply K_step; auto).
  destruct e as [k|j c|j|j ok]; cbn [app steady] in Hs.
  - destruct Hs as (Hs1 & Hs2). apply (IH (d + Z.of_N k)); auto; [lia|].
    assert (G : P i d w -> P i (d + Z.of_N k) (step root w (Tick k))).
    { intros (P1 & P2 & P3). unfold P. cbn [step servers folder clock]. split; [assumption|]. split; [assumption|lia]. }
    destruct b; [auto|]. destruct HP as [HP|HP]; [left; exact HP|right; auto].
  - destruct (Nat.eqb_spec j i) as [->|Hne].
    + destruct Hs as (Hs1 & Hs2). apply (IH 0); auto; [lia|].
      destruct (own_call i w c HK H1 Hs1) as (O1 & O2).
      destruct b; [apply (O1 d); auto|]. destruct HP as [HP|HP]; [|right; apply (O1 d); auto].
      destruct O2 as [O2|O2]; [left; congruence|right; assumption].
    + apply (IH d); auto.
      assert (G : servers (step root w (Call j c)) i = servers w i /\ (P i d w -> P i d (step root w (Call j c)))).
      { cbn [step]. destruct (set_availability root (clock w) c (servers w j) (folder w)) as (s' & f') eqn:E.
        assert (U : upd (servers w) j s' i = servers w i) by (unfold upd; destruct (Nat.eqb_spec i j); congruence).
        cbn [servers]. split; [exact U|]. intro HP'. unfold P. cbn [servers folder clock]. rewrite U.
        pose proof HP' as (P1 & P2 & P3). split; [assumption|]. split; [|assumption].
        eapply (P_other i d w j c); eauto. lia. }
      destruct G as (G1 & G2). destruct b; [auto|]. destruct HP as [HP|HP]; [left; rewrite G1; exact HP|right; auto].
  - destruct Hs as (Hs1 & Hs2). apply (IH d); auto.
    assert (U : servers (step root w (Crash j)) i = servers w i) by (cbn [step servers]; unfold upd; destruct (Nat.eqb_spec i j); congruence).
    assert (G : P i d w -> P i d (step root w (Crash j))).
    { unfold P. rewrite U. cbn [step folder clock]. auto. }
    destruct b; [auto|]. destruct HP as [HP|HP]; [left; rewrite U; exact HP|right; auto].
  - destruct Hs as (Hs1 & Hs2). apply (IH d); auto.
    assert (U : servers (step root w (Stop j ok)) i = servers w i) by (cbn [step servers]; unfold upd; destruct (Nat.eqb_spec i j); congruence).
    assert (G : P i d w -> P i d (step root w (Stop j ok))).
    { unfold P. rewrite U. cbn [step folder clock]. intros (P1 & P2 & P3). split; [assumption|]. split; [|assumption].
      cbn [obeyed] in H1. subst ok. unfold stop. destruct (avail (servers w j)) eqn:Ea; [|assumption].
      apply in_remove. split; [assumption|]. cbn [fst]. destruct (HK j) as (K1 & K2 & K3 & _). rewrite (K3 Ea).
      intro X. apply root_inj in X. destruct (HK i) as (_ & I2 & _). specialize (I2 P1). 
      destruct (host (servers w j)) eqn:Hj.
      - apply P1, name_nil. rewrite X. unfold name_of. rewrite (K1 eq_refl), Hj. reflexivity.
      - rewrite X in I2. rewrite K2 in I2 by congruence. congruence. }
    destruct b; [auto|]. destruct HP as [HP|HP]; [left; rewrite U; exact HP|right; auto].
Qed.

Lemma clock_run w h : clock (run root w h) = clock w + lasts h.
Proof.
  induction h as [|e h IH] using rev_ind; [cbn; lia|]. rewrite run_snoc, clock_step, IH, lasts_app. lia.
Qed.

Lemma published i f h0 h1 c h2 gap :
  let h := h0 ++ h1 ++ Call i c :: h2 in
  Forall obeyed h -> Forall (owned owner) h -> ~ In (Crash i) h -> left_by_others root owner f t0 i ->
  0 <= gap -> gap + 10 <= 86400 -> steady i gap 0 (h1 ++ Call i c :: h2) -> 10 <= lasts h1 ->
  let w := run root (start t0 f) h in
  exists name t, has_token root owner (folder w) i name t /\
    (forall name' t', has_token root owner (folder w) i name' t' -> name' = name /\ t' = t) /\
    clock w - t <= gap + 10 /\ exists t', reached t0 h i name t' /\ t - 300 < t' <= t.
Proof.
  intros h Ho Hw Hc Hf Hg1 Hg2 Hs Hl w.
  pose proof (K_run f h Ho Hw) as HKw. pose proof (J_run i f h Ho Hw Hc Hf) as (J1 & J2 & J3 & J4). fold w in HKw, J1, J2, J3, J4.
  set (w0 := run root (start t0 f) h0). 
  assert (HK0 : K w0).
  { apply K_run; [exact (proj1 (proj1 (Forall_app _ _ _) Ho))|exact (proj1 (proj1 (Forall_app _ _ _) Hw))]. }
  unfold h in Ho, Hw. apply Forall_app in Ho, Hw. destruct Ho as (Ho0 & Ho), Hw as (Hw0 & Hw). 
  apply Forall_app in Ho, Hw. destruct Ho as (Ho1 & Ho), Hw as (Hw1 & Hw). inversion Ho; inversion Hw; subst.
  set (w1 := run root w0 h1).
  destruct (PQ_step i (clock w0) gap 0 false h1 (Call i c :: h2) w0) as (d & Hd & Hs1 & HQ); auto; [lia|left; apply (HK0 i)|].
  fold w1 in HQ. 
  assert (HK1 : K w1).
  { unfold w1, w0. rewrite <- run_app. apply K_run; apply Forall_app; auto. }
  cbn [steady] in Hs1. rewrite Nat.eqb_refl in Hs1. destruct Hs1 as (Wc & Hs2).
  destruct (own_call i w1 c HK1 H1 Wc) as (O1 & _).
  assert (HP : P i 0 (step root w1 (Call i c))).
  { apply (O1 d). destruct HQ as [HQ|HQ]; [right|left; assumption].
    unfold w1 at 1. rewrite clock_run. unfold between_updates. lia. }
  rewrite <- (app_nil_r h2) in Hs2.
  destruct (PQ_step i 0 gap 0 true h2 [] (step root w1 (Call i c))) as (d2 & Hd2 & _ & HP2); auto; [apply K_step; auto|lia|].
  assert (Ew : run root (step root w1 (Call i c)) h2 = w).
  { unfold w, h, w1, w0. rewrite !run_app. reflexivity. }
  rewrite Ew in HP2. destruct HP2 as (P1 & P2 & P3). destruct (HKw i) as (_ & I2 & _). specialize (I2 P1).
  exists (name_of (servers w i)), (t_update (servers w i)). split; [split; assumption|]. split.
  { intros n t (Hi & Hn). destruct (J4 n t Hi Hn) as (X1 & _ & _ & X4 & _). auto. }
  split; [unfold between_updates in P3; lia|]. exists (t_ip (servers w i)). split; [apply J3; assumption|].
  destruct (J4 _ _ P2 I2) as (_ & _ & _ & _ & X5 & X6). unfold between_lookups in X5. lia.
Qed.
End Root.
