(** Progress: on an acyclic graph, after every pass the root is finished or a job is running. *)
From Coq Require Import List Arith NArith Bool Lia.
From Verif Require Import M_Build S_Build P_Build P_Build2 P_BuildLive.
Import ListNotations.

Definition final (s : nstate) : bool := is_uptodate s || is_failed s.
Definition live (g : graph) : Prop := exists y, st g y = Building.
Definition settled (g : graph) (y : nat) : Prop := final (st g y) = true \/ live g.

Lemma check_loop_bf o rec k ds : forall g g' u f brk,
  check_loop o rec g k ds = Some (g', true, u, f, brk) -> f = 0.
Proof.
  induction ds as [|d r IH]; intros g g' u f brk H.
  - cbn in H. injection H as <- <- <- <-. auto.
  - rewrite check_loop_eq in H. destruct (visit rec g (d_node d)) as [g1|]; [|discriminate].
    destruct (is_uptodate _).
    + destruct (check_loop o rec g1 k r) as [[[[[g2 b2] u2] f2] brk2]|] eqn:E; [|discriminate].
      injection H as <- -> <- <- <-. eauto.
    + destruct (_ && _); [discriminate|].
      destruct (check_loop o rec g1 k r) as [[[[[g2 b2] u2] f2] brk2]|] eqn:E; discriminate.
Qed.
Lemma check_loop_nobrk o rec k ds : o_stopfirst o = false -> forall g g' b u f brk,
  check_loop o rec g k ds = Some (g', b, u, f, brk) -> brk = false.
Proof.
  intros SF. induction ds as [|d r IH]; intros g g' b u f brk H.
  - cbn in H. injection H as <- <- <- <- <-. auto.
  - rewrite check_loop_eq in H. destruct (visit rec g (d_node d)) as [g1|]; [|discriminate].
    destruct (is_uptodate _).
    + destruct (check_loop o rec g1 k r) as [[[[[g2 b2] u2] f2] brk2]|] eqn:E; [|discriminate].
      injection H as <- <- <- <- <-. eauto.
    + rewrite SF, andb_false_r in H.
      destruct (check_loop o rec g1 k r) as [[[[[g2 b2] u2] f2] brk2]|] eqn:E; [|discriminate].
      injection H as <- <- <- <- <-. eauto.
Qed.

Section Prog.
Variables (o : opts) (dyn : dyn_oracle) (R : nat -> nat -> Prop) (rk : nat -> nat).
Hypothesis RK : forall k d, R k d -> rk d < rk k.

Notation closed := (closed dyn R).

Lemma mstar_live g g' : mstar o dyn g g' -> live g -> live g'.
Proof.
  intros M [y Hy]. exists y. destruct (mstar_final _ _ _ _ M) as (_&F).
  destruct (F y) as (_&_&B&_). auto.
Qed.
Lemma mstar_settled g g' y : mstar o dyn g g' -> settled g y -> settled g' y.
Proof.
  intros M [H|H]; [|right; eapply mstar_live; eauto].
  left. unfold final in *. destruct (mstar_final _ _ _ _ M) as (_&F).
  destruct (F y) as (A&B&_). destruct (st g y) eqn:S; try discriminate;
    rewrite ?A, ?B by auto; auto.
Qed.

Lemma mark_live c k g : before_building (st g k) = true -> live g -> live (mark_failed c k g).
Proof.
  intros B [z Hz]. exists z. unfold st in *. rewrite nodes_mark_other; auto.
  intros ->. rewrite Hz in B. discriminate.
Qed.
Lemma mark_settled c k g y : before_building (st g k) = true -> settled g y -> settled (mark_failed c k g) y.
Proof.
  intros B [H|H]; [|right; now apply mark_live].
  left. unfold st in *. destruct (Nat.eq_dec y k) as [->|NE]; [now rewrite nodes_mark_same|].
  now rewrite nodes_mark_other.
Qed.

(* tagged nodes of small rank are settled *)
Definition T (g : graph) (b : nat) : Prop := forall y, tagged g y -> rk y < b -> settled g y.
(* a change of the graph that only touches nodes of rank below [b] *)
Definition below (b : nat) (g g' : graph) : Prop :=
  T g' b /\ (forall y, tagged g' y -> tagged g y \/ rk y < b) /\
  (forall y, b <= rk y -> g_nodes g' y = g_nodes g y).

Lemma below_refl b g : T g b -> below b g g.
Proof. repeat split; auto. Qed.
Lemma below_trans b g1 g2 g3 : below b g1 g2 -> below b g2 g3 -> below b g1 g3.
Proof.
  intros (_&A2&A3) (B1&B2&B3). repeat split; auto.
  - intros y Ty. destruct (B2 y Ty); auto.
  - intros y Hy. now rewrite B3, A3.
Qed.

Definition prog (rec : graph -> nat -> option graph) : Prop :=
  forall g x g', rec g x = Some g' -> closed g -> before_building (st g x) = true ->
    n_proxy (g_nodes g x) = false -> T g (rk x) ->
    settled g' x /\ T g' (rk x) /\ (forall y, tagged g' y -> tagged g y \/ rk y < rk x) /\
    (forall y, y <> x -> rk x <= rk y -> g_nodes g' y = g_nodes g y).

Section Loop.
  Variable rec : graph -> nat -> option graph.
  Hypothesis RO : rec_ok o dyn rec.
  Hypothesis PR : prog rec.

  Lemma visit_prog g c g' b : visit rec g c = Some g' -> closed g -> n_proxy (g_nodes g c) = false ->
    T g b -> rk c < b ->
    settled g' c /\ below b g g'.
  Proof.
    intros V C NP TG HB. pose proof (visit_star _ _ _ RO _ _ _ V) as MV.
    assert (NB : before_building (st g c) = false -> settled g c).
    { intros B. destruct (st g c) eqn:S; try discriminate;
        [right; exists c; auto|left|left]; unfold final; rewrite S; auto. }
    unfold visit in V. destruct (before_building (st g c)) eqn:B.
    - destruct (N.eqb_spec (n_tag (g_nodes g c)) (g_pass g)) as [E|E]; cbn in V.
      + injection V as <-. split; auto. now apply below_refl.
      + set (g1 := upd_node _ _ _) in V.
        assert (TG1 : T g1 (rk c)).
        { intros y Ty Hy. unfold g1 in Ty. destruct (tagged_dec g y) as [D|D].
          - eapply mstar_settled; [apply mstar_one, m_tag|]. apply TG; auto; lia.
          - destruct (Nat.eq_dec y c) as [->|NE]; [lia|]. exfalso. apply D.
            unfold tagged in *. rewrite nodes_upd_other in Ty by auto. exact Ty. }
        destruct (PR _ _ _ V) as (S1&T1&G1&F1); auto.
        { eapply (micro_closed o); eauto. apply m_tag. }
        { unfold g1. now rewrite st_settag. }
        { unfold g1. now rewrite nodes_upd_same. }
        assert (OLD : forall y, tagged g1 y -> tagged g y \/ y = c).
        { intros y Ty. destruct (Nat.eq_dec y c) as [->|NE]; auto. left.
          unfold tagged, g1 in *. rewrite nodes_upd_other in Ty by auto. exact Ty. }
        split; [auto|split; [|split]].
        * intros y Ty Hy. destruct (G1 y Ty) as [Q|Q].
          -- destruct (OLD y Q) as [Q1| ->]; auto. eapply mstar_settled; eauto.
          -- apply T1; auto.
        * intros y Ty. destruct (G1 y Ty) as [Q|Q]; [|right; lia].
          destruct (OLD y Q) as [Q1| ->]; auto.
        * intros y Hy. rewrite F1; [|intros ->; lia|lia]. unfold g1.
          rewrite nodes_upd_other; auto. intros ->; lia.
    - injection V as <-. split; auto. now apply below_refl.
  Qed.

  Lemma check_loop_prog k ds : forall g g' b u f brk,
    check_loop o rec g k ds = Some (g', b, u, f, brk) -> closed g ->
    (forall d, In d ds -> okdep R g k d) -> T g (rk k) ->
    exists gm, mstar o dyn g gm /\ below (rk k) g gm /\
     ((brk = true /\ b = false /\ g' = mark_failed CDeps k gm) \/
      (brk = false /\ g' = gm /\
       (live gm \/ (u + f = length ds /\ (b = false -> f <> 0) /\ (o_stopfirst o = true -> f = 0))))).
  Proof.
    induction ds as [|d r IH]; intros g g' b u f brk H C HD TG.
    - cbn in H. injection H as <- <- <- <- <-. exists g. split; [apply ms_refl|].
      split; [now apply below_refl|]. right. repeat split; auto. right. repeat split; auto. discriminate.
    - rewrite check_loop_eq in H. destruct (visit rec g (d_node d)) as [g1|] eqn:V; [|discriminate].
      destruct (HD d ltac:(now left)) as [HR HP].
      destruct (visit_prog _ _ _ _ V C HP TG ltac:(apply RK; auto)) as (S1&BL).
      pose proof (visit_star _ _ _ RO _ _ _ V) as MV.
      assert (C1 : closed g1) by (eapply mstar_closed; eauto).
      assert (HD1 : forall x, In x r -> okdep R g1 k x).
      { intros x Hx. eapply mstar_okdep; eauto. apply HD; now right. }
      assert (T1 : T g1 (rk k)) by apply BL.
      destruct (is_uptodate (st g1 (d_node d))) eqn:UD.
      + destruct (check_loop o rec g1 k r) as [[[[[g2 b2] u2] f2] brk2]|] eqn:E; [|discriminate].
        injection H as <- <- <- <- <-.
        destruct (IH _ _ _ _ _ _ E C1 HD1 T1) as (gm&A1&A2&A3).
        exists gm. split; [eapply mstar_trans; eauto|]. split; [eapply below_trans; eauto|].
        destruct A3 as [A3|(A3&A4&A5)]; [auto|]. right. repeat split; auto.
        destruct A5 as [A5|(A5&A6&A7)]; auto. right. cbn [length]. repeat split; auto. lia.
      + destruct (is_failed (st g1 (d_node d)) && o_stopfirst o) eqn:FS.
        * injection H as <- <- <- <- <-. exists g1. split; [auto|split; [auto|]]. left; auto.
        * destruct (check_loop o rec g1 k r) as [[[[[g2 b2] u2] f2] brk2]|] eqn:E; [|discriminate].
          injection H as <- <- <- <- <-.
          destruct (IH _ _ _ _ _ _ E C1 HD1 T1) as (gm&A1&A2&A3).
          exists gm. split; [eapply mstar_trans; eauto|]. split; [eapply below_trans; eauto|].
          destruct A3 as [(A3&A4&A5)|(A3&A4&A5)]; [left; auto|]. right. repeat split; auto.
          destruct S1 as [S1|S1]; [|left; eapply mstar_live; eauto].
          unfold final in S1. rewrite UD in S1. cbn in S1. rewrite S1 in *. cbn in FS.
          destruct A5 as [A5|(A5&A6&A7)]; auto. right. cbn [length]. repeat split; auto; [lia|].
          intros SF; congruence.
  Qed.

  (* CheckDependencies on an unfinished node: finished or a job is running, unless it returned true *)
  Lemma check_deps_prog g k ds g' b : check_deps o rec g k ds = Some (g', b) -> closed g ->
    before_building (st g k) = true ->
    (forall d, In d ds -> okdep R g k d) -> T g (rk k) ->
    exists gm, mstar o dyn g gm /\ below (rk k) g gm /\
     ((g' = mark_failed CDeps k gm /\ b = false) \/ (g' = gm /\ (b = false -> live gm))).
  Proof.
    unfold check_deps. intros H C B HD TG.
    destruct (check_loop o rec g k ds) as [[[[[g1 b1] u] f] brk]|] eqn:E; [|discriminate].
    destruct (check_loop_prog _ _ _ _ _ _ _ _ E C HD TG) as (gm&A1&A2&A3).
    assert (BF : b1 = true -> f = 0) by (intros ->; eapply check_loop_bf; eauto).
    exists gm. split; [auto|split; [auto|]].
    destruct A3 as [(->&->&->)|(->&->&A3)].
    - destruct (o_stopfirst o) eqn:SF; cbn in H; [injection H as <- <-; auto|].
      pose proof (check_loop_nobrk _ _ _ _ SF _ _ _ _ _ _ E). discriminate.
    - destruct A3 as [A3|(A3&A4&A5)].
      + destruct (_ && _) eqn:Q; injection H as <- <-; [|auto].
        left. split; auto. destruct b1; auto. rewrite BF in Q by auto. cbn in Q. rewrite andb_false_r in Q. discriminate.
      + destruct b1.
        * rewrite BF in H by auto. cbn in H. rewrite andb_false_r in H. injection H as <- <-. right. split; auto. discriminate.
        * specialize (A4 eq_refl). destruct (o_stopfirst o); [specialize (A5 eq_refl); contradiction|].
          cbn in H. rewrite Nat.add_comm, A3, Nat.eqb_refl in H.
          destruct (Nat.eqb_spec f 0); [contradiction|]. cbn in H. injection H as <- <-. auto.
  Qed.

  Definition pp (g : graph) (x : nat) (g' : graph) : Prop :=
    settled g' x /\ T g' (rk x) /\ (forall y, tagged g' y -> tagged g y \/ rk y < rk x) /\
    (forall y, y <> x -> rk x <= rk y -> g_nodes g' y = g_nodes g y).

  (* only node [x] changed, and no running job was lost *)
  Definition local (x : nat) (g1 g2 : graph) : Prop :=
    (forall y, y <> x -> g_nodes g2 y = g_nodes g1 y) /\ g_pass g2 = g_pass g1 /\
    n_tag (g_nodes g2 x) = n_tag (g_nodes g1 x) /\ st g1 x <> Building.

  Lemma local_live x g1 g2 : local x g1 g2 -> live g1 -> live g2.
  Proof.
    intros (L1&_&_&NB) [z Hz]. exists z. unfold st in *. rewrite L1; auto. intros ->; contradiction.
  Qed.
  Lemma local_tagged x g1 g2 y : local x g1 g2 -> tagged g2 y <-> tagged g1 y.
  Proof.
    intros (L1&L2&L3&_). unfold tagged. destruct (Nat.eq_dec y x) as [->|NE].
    - now rewrite L3, L2.
    - now rewrite L1, L2.
  Qed.
  Lemma local_below x g g1 g2 : below (rk x) g g1 -> local x g1 g2 ->
    T g2 (rk x) /\ (forall y, tagged g2 y -> tagged g y \/ rk y < rk x) /\
    (forall y, y <> x -> rk x <= rk y -> g_nodes g2 y = g_nodes g y).
  Proof.
    intros (B1&B2&B3) L. split; [|split].
    - intros y Ty Hy. apply (local_tagged _ _ _ _ L) in Ty.
      destruct (B1 y Ty Hy) as [Q|Q]; [|right; eapply local_live; eauto].
      left. destruct L as (L1&_). unfold st in *. rewrite L1; auto. intros ->; lia.
    - intros y Ty. apply (local_tagged _ _ _ _ L) in Ty. auto.
    - intros y NE Hy. destruct L as (L1&_). rewrite L1; auto.
  Qed.
  Lemma pp_compose g x g1 g2 g3 : below (rk x) g g1 -> local x g1 g2 -> pp g2 x g3 -> pp g x g3.
  Proof.
    intros B L (P1&P2&P3&P4). destruct (local_below _ _ _ _ B L) as (A1&A2&A3).
    split; [auto|split; [auto|split]].
    - intros y Ty. destruct (P3 y Ty); auto.
    - intros y NE Hy. rewrite P4; auto.
  Qed.
  Lemma pp_end g x g1 g2 : below (rk x) g g1 -> local x g1 g2 -> settled g2 x -> pp g x g2.
  Proof. intros B L S. destruct (local_below _ _ _ _ B L) as (A1&A2&A3). split; auto. Qed.
  Lemma pp_same g x g1 : below (rk x) g g1 -> live g1 -> pp g x g1.
  Proof. intros (B1&B2&B3) S. split; [now right|]. split; [auto|split; auto]. Qed.

  Lemma bb_nb s : before_building s = true -> s <> Building.
  Proof. destruct s; discriminate. Qed.
  Lemma local_mark c x g : before_building (st g x) = true -> local x g (mark_failed c x g).
  Proof.
    intros B. repeat split.
    - intros. now rewrite nodes_mark_other.
    - now rewrite nodes_mark_same.
    - now apply bb_nb.
  Qed.
  Lemma local_upd x f g : before_building (st g x) = true -> n_tag (f (g_nodes g x)) = n_tag (g_nodes g x) ->
    local x g (upd_node g x f).
  Proof.
    intros B E. repeat split.
    - intros. now rewrite nodes_upd_other.
    - now rewrite nodes_upd_same.
    - now apply bb_nb.
  Qed.
  Lemma settled_mark c x g : settled (mark_failed c x g) x.
  Proof. left. unfold st. now rewrite nodes_mark_same. Qed.

  Lemma below_self g x g1 : below (rk x) g g1 -> g_nodes g1 x = g_nodes g x.
  Proof. intros (_&_&B). now apply B. Qed.

  Lemma dyn_prog g k g' : recurse_dynamic o rec g k = Some g' -> closed g -> st g k = DynamicDeps ->
    T g (rk k) -> pp g k g'.
  Proof.
    intros H C S TG. unfold recurse_dynamic in H.
    assert (B : before_building (st g k) = true) by now rewrite S.
    destruct (check_deps o rec g k _) as [[g1 b]|] eqn:E; [|discriminate].
    destruct (check_deps_prog _ _ _ _ _ E C B) as (gm&A1&A2&A3); auto.
    { intros d Hd. apply (proj1 C k); auto. unfold alldeps. rewrite !in_app_iff. auto. }
    pose proof (below_self _ _ _ A2) as ES.
    assert (Bm : before_building (st gm k) = true) by (unfold st; now rewrite ES).
    destruct A3 as [[-> ->]|[-> A3]].
    - injection H as <-. eapply pp_end; eauto using local_mark, settled_mark.
    - destruct b.
      + destruct (_ || _).
        * injection H as <-. apply pp_end with (g1 := gm); auto.
          -- repeat split; [intros; now rewrite nodes_start_other|now rewrite nodes_start_same|now apply bb_nb].
          -- right. exists k. unfold st. now rewrite nodes_start_same.
        * injection H as <-. apply pp_end with (g1 := gm); auto.
          -- repeat split; [intros; rewrite nodes_add_log; now rewrite nodes_upd_other
                           |rewrite nodes_add_log; now rewrite nodes_upd_same|now apply bb_nb].
          -- left. unfold st. rewrite nodes_add_log. now rewrite nodes_upd_same.
      + injection H as <-. apply pp_same; auto.
  Qed.

  Lemma static_prog g k g' : recurse_static o dyn rec g k = Some g' -> closed g ->
    n_proxy (g_nodes g k) = false -> st g k = StaticDeps -> T g (rk k) -> pp g k g'.
  Proof.
    intros H C NP S TG. unfold recurse_static in H.
    assert (B : before_building (st g k) = true) by now rewrite S.
    destruct (check_deps o rec g k _) as [[g1 b]|] eqn:E; [|discriminate].
    assert (CL : curlist (g_nodes g k) = n_static (g_nodes g k)).
    { unfold curlist. unfold st in S. now rewrite S. }
    assert (UT : b = true -> all_utd g1 (n_static (g_nodes g k))).
    { intros ->. rewrite <- CL in *. eapply check_deps_post in E; eauto.
      destruct E as (_&_&_&Q&_). now apply Q. }
    destruct (check_deps_prog _ _ _ _ _ E C B) as (gm&A1&A2&A3); auto.
    { intros d Hd. apply (proj1 C k); auto. unfold alldeps. rewrite !in_app_iff. auto. }
    pose proof (below_self _ _ _ A2) as ES.
    assert (Sm : st gm k = StaticDeps) by (unfold st; now rewrite ES).
    assert (Bm : before_building (st gm k) = true) by now rewrite Sm.
    destruct A3 as [[-> ->]|[-> A3]].
    - injection H as <-. eapply pp_end; eauto using local_mark, settled_mark.
    - assert (Cm : closed gm) by (eapply mstar_closed; eauto).
      destruct b; [|injection H as <-; apply pp_same; auto].
      specialize (UT eq_refl). rewrite <- ES in UT.
      assert (NPm : n_proxy (g_nodes gm k) = false) by now rewrite ES.
      destruct (o_clean o || need_static gm k) eqn:ND.
      + set (g2 := upd_node gm k (fun n => set_dyn [] (set_stamp 0 n))) in *.
        assert (L2 : local k gm g2) by (apply local_upd; auto).
        assert (M2 : micro o dyn gm g2) by now apply m_clear.
        assert (E2 : g_nodes g2 k = set_dyn [] (set_stamp 0 (g_nodes gm k))) by (unfold g2; now rewrite nodes_upd_same).
        assert (B2 : before_building (st g2 k) = true) by (unfold st; rewrite E2; auto).
        destruct (dyn k) as [ds|] eqn:D.
        * set (g3 := upd_node g2 k _) in H.
          assert (M3 : micro o dyn g2 g3).
          { apply m_setdyn; auto.
            - rewrite E2. cbn. auto.
            - unfold st. rewrite E2. auto.
            - rewrite E2. cbn. eapply mstar_all_utd; [apply mstar_one; eauto|auto].
            - unfold stampof. rewrite E2. auto. }
          assert (L3 : local k gm g3).
          { destruct L2 as (Q1&Q2&Q3&Q4). split; [|split; [|split]]; auto.
            - intros y NE. unfold g3. rewrite nodes_upd_other; auto.
            - unfold g3. rewrite nodes_upd_same. exact Q3. }
          eapply pp_compose; eauto. apply dyn_prog; auto.
          -- eapply micro_closed; eauto. eapply micro_closed; eauto.
          -- unfold st, g3. now rewrite nodes_upd_same.
          -- eapply local_below; eauto.
        * injection H as <-. apply pp_end with (g1 := gm); auto using settled_mark.
          destruct L2 as (Q1&Q2&Q3&Q4). split; [|split; [|split]]; auto.
          -- intros y NE. rewrite nodes_mark_other; auto.
          -- rewrite nodes_mark_same. exact Q3.
      + set (g2 := upd_node gm k _) in H.
        assert (L2 : local k gm g2) by (apply local_upd; auto).
        eapply pp_compose; eauto. apply dyn_prog; auto.
        * eapply (micro_closed o); eauto. now apply m_keepdyn.
        * unfold st, g2. now rewrite nodes_upd_same.
        * eapply local_below; eauto.
  Qed.
End Loop.

Lemma build_recurse_prog f : prog (build_recurse f o dyn).
Proof.
  induction f as [|f IH]; intros g k g' H C B NP TG; [discriminate|].
  pose proof (build_recurse_ok o dyn f) as RO.
  cbn [build_recurse] in H. rewrite NP in H. destruct (st g k) eqn:S; try discriminate.
  - destruct (check_deps o _ g k _) as [[g1 b]|] eqn:E; [|discriminate].
    assert (B' : before_building (st g k) = true) by now rewrite S.
    assert (CL : curlist (g_nodes g k) = n_pre (g_nodes g k)).
    { unfold curlist. unfold st in S. now rewrite S. }
    assert (UT : b = true -> all_utd g1 (n_pre (g_nodes g k))).
    { intros ->. rewrite <- CL in *. eapply check_deps_post in E; eauto.
      destruct E as (_&_&_&Q&_). now apply Q. }
    destruct (check_deps_prog _ RO IH _ _ _ _ _ E C B') as (gm&A1&A2&A3); auto.
    { intros d Hd. apply (proj1 C k); auto. unfold alldeps. rewrite !in_app_iff. auto. }
    pose proof (below_self _ _ _ A2) as ES.
    assert (Sm : st gm k = NotProcessed) by (unfold st; now rewrite ES).
    assert (Bm : before_building (st gm k) = true) by now rewrite Sm.
    destruct A3 as [[-> ->]|[-> A3]].
    + injection H as <-. eapply pp_end; eauto using local_mark, settled_mark.
    + assert (Cm : closed gm) by (eapply mstar_closed; eauto).
      destruct b; [|injection H as <-; apply pp_same; auto].
      specialize (UT eq_refl). rewrite <- ES in UT.
      set (g2 := upd_node gm k _) in H.
      assert (L2 : local k gm g2) by (apply local_upd; auto).
      eapply pp_compose; eauto. eapply static_prog; eauto.
      * eapply (micro_closed o); eauto. apply m_static; auto. now rewrite ES.
      * unfold g2. rewrite nodes_upd_same. cbn. now rewrite ES.
      * unfold st, g2. now rewrite nodes_upd_same.
      * eapply local_below; eauto.
  - eapply static_prog; eauto.
  - eapply dyn_prog; eauto.
Qed.

(* all tagged nodes are settled *)
Definition Tall (g : graph) : Prop := forall y, tagged g y -> settled g y.

Lemma build_recurse_top f g x g' : build_recurse f o dyn g x = Some g' -> closed g ->
  before_building (st g x) = true -> n_proxy (g_nodes g x) = false -> Tall g ->
  settled g' x /\ Tall g'.
Proof.
  intros H C B NP TA.
  destruct (build_recurse_prog f _ _ _ H C B NP) as (A1&A2&A3&_).
  { intros y Ty _. auto. }
  split; auto. intros y Ty. destruct (A3 y Ty) as [Q|Q]; auto.
  eapply mstar_settled; [eapply build_recurse_mstar; eauto|auto].
Qed.

Lemma proxy_loop_prog f k ds : forall g g' u fl, proxy_loop f o dyn g ds = Some (g', u, fl) ->
  closed g -> (forall d, In d ds -> okdep R g k d) -> Tall g ->
  live g' \/ u + fl = length ds.
Proof.
  induction ds as [|d r IH]; intros g g' u fl H C HD TA; cbn [proxy_loop] in H.
  - injection H as <- <- <-. auto.
  - destruct (HD d ltac:(now left)) as [_ NP].
    destruct (if before_building (st g (d_node d)) then build_recurse f o dyn g (d_node d) else Some g)
      as [g1|] eqn:E; [|discriminate].
    assert (M : mstar o dyn g g1).
    { destruct (before_building (st g (d_node d))); [eapply build_recurse_mstar; eauto|].
      injection E as <-. apply ms_refl. }
    assert (Q : settled g1 (d_node d) /\ Tall g1).
    { destruct (before_building (st g (d_node d))) eqn:B; [eapply build_recurse_top; eauto|].
      injection E as <-. split; auto.
      destruct (st g (d_node d)) eqn:S; try discriminate;
        [right; eexists; eauto|left|left]; unfold final; rewrite S; auto. }
    destruct Q as [S1 T1].
    destruct (proxy_loop f o dyn g1 r) as [[[g2 u2] f2]|] eqn:E2; [|discriminate].
    assert (C1 : closed g1) by (eapply mstar_closed; eauto).
    assert (HD1 : forall x, In x r -> okdep R g1 k x).
    { intros x Hx. eapply mstar_okdep; eauto. apply HD. now right. }
    destruct (IH _ _ _ _ E2 C1 HD1 T1) as [L|L].
    + left. destruct (is_uptodate _); [|destruct (is_failed _)]; injection H as <- <- <-; auto.
    + assert (M2 : mstar o dyn g1 g2) by (eapply proxy_loop_mstar; eauto).
      destruct S1 as [S1|S1].
      * unfold final in S1. destruct (is_uptodate _); [|destruct (is_failed _)]; [| |discriminate];
          injection H as <- <- <-; right; cbn [length]; lia.
      * left. apply (mstar_live _ _ M2) in S1.
        destruct (is_uptodate _); [|destruct (is_failed _)]; injection H as <- <- <-; auto.
Qed.

(** After a pass over an acyclic graph the root is finished or a job is running. *)
Lemma build_pass_prog f g root g' : build_pass f o dyn g root = Some g' -> closed g ->
  (forall y, (n_tag (g_nodes g y) <= g_pass g)%N) ->
  (n_proxy (g_nodes g root) = true -> forall d, In d (n_static (g_nodes g root)) -> okdep R g root d) ->
  settled g' root.
Proof.
  intros H C TG PX. unfold build_pass in H. set (g0 := mkGraph _ _ _ _ _ _) in H.
  assert (T0 : Tall g0).
  { intros y Ty. exfalso. unfold tagged in Ty. cbn in Ty. specialize (TG y). lia. }
  assert (C0 : closed g0) by exact C.
  change (g_nodes g0) with (g_nodes g) in H.
  destruct (n_proxy (g_nodes g root)) eqn:NP.
  - destruct (proxy_loop f o dyn g0 _) as [[[g1 u] fl]|] eqn:E; [|discriminate].
    destruct (proxy_loop_prog f root _ _ _ _ _ E C0 (PX eq_refl) T0) as [L|L].
    + destruct (Nat.eqb _ _); [|injection H as <-; now right].
      destruct (Nat.eqb fl 0); injection H as <-.
      * left. unfold st. rewrite nodes_add_log. now rewrite nodes_upd_same.
      * apply settled_mark.
    + rewrite L, Nat.eqb_refl in H. destruct (Nat.eqb fl 0); injection H as <-.
      * left. unfold st. rewrite nodes_add_log. now rewrite nodes_upd_same.
      * apply settled_mark.
  - destruct (before_building (st g0 root)) eqn:B.
    + destruct (build_recurse_top _ _ _ _ H C0 B NP T0); auto.
    + injection H as <-. destruct (st g0 root) eqn:S; try discriminate;
        [right; eexists; eauto|left|left]; unfold final; rewrite S; auto.
Qed.
End Prog.
