(** Termination of a build pass (fuel adequacy) and progress. *)
From Coq Require Import List Arith NArith Bool Lia.
From Verif Require Import M_Build S_Build P_Build P_Build2.
Import ListNotations.

Section Live.
Variables (o : opts) (dyn : dyn_oracle) (N : nat).
(* [R k d]: [k] may depend on [d] *)
Variable R : nat -> nat -> Prop.
Hypothesis RN : forall k d, R k d -> d < N.

Definition okdep (g : graph) (k : nat) (d : dep) : Prop :=
  R k (d_node d) /\ n_proxy (g_nodes g (d_node d)) = false.
Definition closed (g : graph) : Prop :=
  (forall k d, before_building (st g k) = true -> In d (alldeps (g_nodes g k)) -> okdep g k d) /\
  (forall k ds d, dyn k = Some ds -> In d ds -> okdep g k d).

Lemma micro_bb g g' k : micro o dyn g g' -> before_building (st g' k) = true ->
  before_building (st g k) = true.
Proof.
  intros M H. destruct (micro_final _ _ _ _ M) as (_&F). destruct (F k) as (A&B&C&_).
  destruct (st g k) eqn:S; auto; [rewrite C in H by auto|rewrite B in H by auto|rewrite A in H by auto];
    discriminate.
Qed.

Lemma micro_closed g g' : micro o dyn g g' -> closed g -> closed g'.
Proof.
  intros M [C1 C2].
  pose proof (micro_nodes _ _ _ _ M) as MN.
  assert (OK : forall k d, okdep g k d -> okdep g' k d).
  { intros k d [A B]. split; auto. destruct (MN (d_node d)) as (_&_&->&_). auto. }
  split; [|intros; eauto].
  intros k d HB Hd. pose proof (micro_bb _ _ _ M HB) as HB0.
  apply OK. unfold alldeps in *. destruct (MN k) as (A1&A2&_). rewrite A1, A2 in Hd.
  rewrite !in_app_iff in Hd. destruct Hd as [Hd|[Hd|Hd]].
  - apply (C1 k); auto. rewrite !in_app_iff. auto.
  - apply (C1 k); auto. rewrite !in_app_iff. auto.
  - assert (Q : In d (n_dyn (g_nodes g k)) \/ exists ds, dyn k = Some ds /\ In d ds).
    { clear HB HB0. destruct M; rewrite ?nodes_add_log in Hd;
        match type of Hd with
        | context [mark_failed _ ?c _] => cases_upd k c
        | context [start_job ?c _] => cases_upd k c
        | context [upd_node _ ?c _] => cases_upd k c
        end; cbn in Hd; eauto. tauto. }
    destruct Q as [Q|(ds&Q1&Q2)]; [|eauto]. apply (C1 k); auto. rewrite !in_app_iff. auto.
Qed.

Lemma mstar_closed g g' : mstar o dyn g g' -> closed g -> closed g'.
Proof. induction 1; eauto using micro_closed. Qed.

Lemma mstar_proxy g g' k : mstar o dyn g g' -> n_proxy (g_nodes g' k) = n_proxy (g_nodes g k).
Proof. intros M. destruct (mstar_final _ _ _ _ M) as (_&F). destruct (F k) as (_&_&_&E). auto. Qed.

Lemma mstar_okdep g g' k d : mstar o dyn g g' -> okdep g k d -> okdep g' k d.
Proof. intros M [A B]. split; auto. now rewrite (mstar_proxy _ _ _ M). Qed.

(* number of nodes not yet tagged in this pass *)
Definition untag (g : graph) : nat :=
  length (filter (fun k => negb (N.eqb (n_tag (g_nodes g k)) (g_pass g))) (seq 0 N)).

Lemma untag_bound g : untag g <= N.
Proof.
  unfold untag. rewrite <- (seq_length N 0) at 2. generalize (seq 0 N) as l.
  induction l as [|x l IH]; cbn; auto. destruct (negb _); cbn; lia.
Qed.

Lemma untag_le_on l g g' : (forall y, tagged g y -> tagged g' y) ->
  length (filter (fun k => negb (N.eqb (n_tag (g_nodes g' k)) (g_pass g'))) l) <=
  length (filter (fun k => negb (N.eqb (n_tag (g_nodes g k)) (g_pass g))) l).
Proof.
  intros H. induction l as [|k l IH]; cbn; auto.
  destruct (N.eqb_spec (n_tag (g_nodes g k)) (g_pass g)) as [E|E].
  - apply H in E. unfold tagged in E. rewrite E, N.eqb_refl. cbn. exact IH.
  - cbn. destruct (negb _); cbn; lia.
Qed.

Lemma untag_le g g' : (forall y, tagged g y -> tagged g' y) -> untag g' <= untag g.
Proof. apply untag_le_on. Qed.

Lemma untag_lt g g' k : (forall y, tagged g y -> tagged g' y) -> k < N -> ~ tagged g k -> tagged g' k ->
  untag g' < untag g.
Proof.
  intros H HK NT T. unfold untag.
  assert (IN : In k (seq 0 N)) by (apply in_seq; lia). revert IN.
  induction (seq 0 N) as [|x l IH]; cbn; [tauto|].
  intros [->|IN].
  - unfold tagged in NT, T. rewrite T, N.eqb_refl. cbn.
    destruct (N.eqb_spec (n_tag (g_nodes g k)) (g_pass g)); [contradiction|]. cbn.
    pose proof (untag_le_on l g g' H). lia.
  - specialize (IH IN). destruct (N.eqb_spec (n_tag (g_nodes g x)) (g_pass g)) as [E|E].
    + apply H in E. unfold tagged in E. rewrite E, N.eqb_refl. cbn. exact IH.
    + cbn. destruct (negb _); cbn; lia.
Qed.

(** ** Fuel adequacy *)
Section Fuel.
  Variables (f : nat) (rec : graph -> nat -> option graph).
  Hypothesis RO : rec_ok o dyn rec.
  Hypothesis TOT : forall g c, closed g -> before_building (st g c) = true ->
    n_proxy (g_nodes g c) = false -> untag g < f -> rec g c <> None.

  Lemma visit_total g k d : closed g -> okdep g k d -> untag g <= f -> visit rec g (d_node d) <> None.
  Proof.
    intros C [HR HP] HU. unfold visit. destruct (before_building (st g (d_node d))) eqn:B; [|discriminate].
    destruct (N.eqb_spec (n_tag (g_nodes g (d_node d))) (g_pass g)) as [E|E]; cbn; [discriminate|].
    set (g1 := upd_node _ _ _).
    assert (M : micro o dyn g g1) by apply m_tag.
    apply TOT.
    - eapply micro_closed; eauto.
    - unfold g1. rewrite st_settag. auto.
    - rewrite (mstar_proxy g); auto. now apply mstar_one.
    - assert (untag g1 < untag g); [|lia].
      apply untag_lt with (k := d_node d); eauto.
      + intros y. apply tagged_settag.
      + apply tagged_settag_same.
  Qed.

  Lemma check_loop_total k ds : forall g, closed g -> untag g <= f ->
    (forall d, In d ds -> okdep g k d) -> check_loop o rec g k ds <> None.
  Proof.
    induction ds as [|d r IH]; intros g C HU HD; [discriminate|].
    rewrite check_loop_eq.
    assert (V : visit rec g (d_node d) <> None) by (eapply visit_total; eauto; apply HD; now left).
    destruct (visit rec g (d_node d)) as [g1|] eqn:V1; [|congruence].
    assert (L : check_loop o rec g1 k r <> None).
    { apply IH.
      - eapply mstar_closed; eauto. eapply visit_star; eauto.
      - assert (untag g1 <= untag g); [|lia]. apply untag_le. intros y. eapply visit_tags; eauto.
      - intros x Hx. eapply mstar_okdep; [eapply visit_star; eauto|]. apply HD. now right. }
    destruct (is_uptodate _).
    - destruct (check_loop o rec g1 k r) as [[[[[? ?] ?] ?] ?]|]; congruence.
    - destruct (is_failed (st g1 (d_node d)) && o_stopfirst o); [discriminate|].
      destruct (check_loop o rec g1 k r) as [[[[[? ?] ?] ?] ?]|]; congruence.
  Qed.

  Lemma check_deps_total k ds g : closed g -> untag g <= f ->
    (forall d, In d ds -> okdep g k d) -> check_deps o rec g k ds <> None.
  Proof.
    intros C HU HD. unfold check_deps. pose proof (check_loop_total k ds g C HU HD).
    destruct (check_loop o rec g k ds) as [[[[[? ?] ?] ?] ?]|]; [|congruence].
    destruct (_ && _ && _); discriminate.
  Qed.

  Lemma dyn_total g k : closed g -> untag g <= f -> st g k = DynamicDeps ->
    recurse_dynamic o rec g k <> None.
  Proof.
    intros C HU S. unfold recurse_dynamic.
    assert (T : check_deps o rec g k (n_dyn (g_nodes g k)) <> None).
    { apply check_deps_total; auto. intros d Hd. apply (proj1 C k); [now rewrite S|].
      unfold alldeps. rewrite !in_app_iff. auto. }
    destruct (check_deps o rec g k _) as [[g1 []]|]; try congruence. destruct (_ || _); discriminate.
  Qed.

  Lemma static_total g k : closed g -> untag g <= f -> n_proxy (g_nodes g k) = false ->
    st g k = StaticDeps -> recurse_static o dyn rec g k <> None.
  Proof.
    intros C HU NP S. unfold recurse_static.
    assert (T : check_deps o rec g k (n_static (g_nodes g k)) <> None).
    { apply check_deps_total; auto. intros d Hd. apply (proj1 C k); [now rewrite S|].
      unfold alldeps. rewrite !in_app_iff. auto. }
    assert (CL : curlist (g_nodes g k) = n_static (g_nodes g k)).
    { unfold curlist. unfold st in S. now rewrite S. }
    assert (B : before_building (st g k) = true) by now rewrite S.
    destruct (check_deps o rec g k _) as [[g1 []]|] eqn:CK; try congruence.
    rewrite <- CL in CK.
    destruct (check_deps_post _ _ _ RO _ _ _ _ NP B CK) as (A1&A2&A3&A4&_).
    destruct (A4 eq_refl) as [EX UT]. rewrite CL in UT.
    assert (S1 : st g1 k = StaticDeps) by (unfold st; rewrite EX; auto).
    assert (C1 : closed g1) by (eapply mstar_closed; eauto).
    assert (U1 : untag g1 <= f) by (pose proof (untag_le _ _ A2); lia).
    assert (UT1 : all_utd g1 (n_static (g_nodes g1 k))) by now rewrite EX.
    assert (NP1 : n_proxy (g_nodes g1 k) = false) by (rewrite EX; auto).
    destruct (o_clean o || need_static g1 k) eqn:ND.
    - destruct (dyn k) as [ds|] eqn:D; [|discriminate].
      set (g2 := upd_node g1 k (fun n => set_dyn [] (set_stamp 0 n))).
      assert (M2 : micro o dyn g1 g2) by now apply m_clear.
      assert (E2 : g_nodes g2 k = set_dyn [] (set_stamp 0 (g_nodes g1 k))).
      { unfold g2. now rewrite nodes_upd_same. }
      assert (M3 : micro o dyn g2 (upd_node g2 k (fun n => set_state DynamicDeps (set_dyn ds n)))).
      { apply m_setdyn; auto.
        - rewrite E2. auto.
        - unfold st. rewrite E2. auto.
        - rewrite E2. cbn. eapply mstar_all_utd; [apply mstar_one; eauto|auto].
        - unfold stampof. rewrite E2. auto. }
      apply dyn_total.
      + eapply micro_closed; eauto. eapply micro_closed; eauto.
      + etransitivity; [apply untag_le|exact U1]. intros y Ty.
        apply tagged_upd; auto. apply tagged_upd; auto.
      + unfold st. now rewrite nodes_upd_same.
    - assert (M2 : micro o dyn g1 (upd_node g1 k (set_state DynamicDeps))) by now apply m_keepdyn.
      apply dyn_total.
      + eapply micro_closed; eauto.
      + etransitivity; [apply untag_le|exact U1]. intros y Ty. apply tagged_upd; auto.
      + unfold st. now rewrite nodes_upd_same.
  Qed.
End Fuel.

Lemma build_recurse_total f : forall g k, closed g -> before_building (st g k) = true ->
  n_proxy (g_nodes g k) = false -> untag g < f -> build_recurse f o dyn g k <> None.
Proof.
  induction f as [|f IH]; intros g k C B NP HU; [lia|].
  pose proof (build_recurse_ok o dyn f) as RO.
  cbn [build_recurse]. rewrite NP. destruct (st g k) eqn:S; try discriminate.
  - assert (T : check_deps o (build_recurse f o dyn) g k (n_pre (g_nodes g k)) <> None).
    { apply check_deps_total with (f := f); auto; [lia|]. intros d Hd. apply (proj1 C k); [now rewrite S|].
      unfold alldeps. rewrite !in_app_iff. auto. }
    assert (CL : curlist (g_nodes g k) = n_pre (g_nodes g k)).
    { unfold curlist. unfold st in S. now rewrite S. }
    assert (B' : before_building (st g k) = true) by now rewrite S.
    destruct (check_deps o _ g k _) as [[g1 []]|] eqn:CK; try congruence.
    rewrite <- CL in CK.
    destruct (check_deps_post _ _ _ RO _ _ _ _ NP B' CK) as (A1&A2&A3&A4&_).
    destruct (A4 eq_refl) as [EX UT]. rewrite CL in UT.
    assert (M2 : micro o dyn g1 (upd_node g1 k (set_state StaticDeps))).
    { apply m_static; rewrite ?EX; auto. unfold st. rewrite EX. auto. }
    apply static_total with (f := f); auto.
    + eapply micro_closed; eauto. eapply mstar_closed; eauto.
    + etransitivity; [apply untag_le|]; [|etransitivity; [apply untag_le; exact A2|lia]].
      intros y Ty. apply tagged_upd; auto.
    + rewrite nodes_upd_same. cbn. now rewrite EX.
    + unfold st. now rewrite nodes_upd_same.
  - apply static_total with (f := f); auto. lia.
  - apply dyn_total with (f := f); auto. lia.
Qed.

Lemma proxy_loop_total f ds : forall g k, closed g -> N < f ->
  (forall d, In d ds -> okdep g k d) -> proxy_loop f o dyn g ds <> None.
Proof.
  induction ds as [|d r IH]; intros g k C HF HD; cbn [proxy_loop]; [discriminate|].
  destruct (HD d ltac:(now left)) as [_ NP].
  assert (V : (if before_building (st g (d_node d)) then build_recurse f o dyn g (d_node d) else Some g) <> None).
  { destruct (before_building (st g (d_node d))) eqn:B; [|discriminate].
    apply build_recurse_total; auto. pose proof (untag_bound g). lia. }
  destruct (if before_building (st g (d_node d)) then build_recurse f o dyn g (d_node d) else Some g)
    as [g1|] eqn:E; [|congruence].
  assert (M : mstar o dyn g g1).
  { destruct (before_building (st g (d_node d))); [eapply build_recurse_mstar; eauto|].
    injection E as <-. apply ms_refl. }
  assert (L : proxy_loop f o dyn g1 r <> None).
  { apply IH with (k := k); auto.
    - eapply mstar_closed; eauto.
    - intros x Hx. eapply mstar_okdep; eauto. apply HD. now right. }
  destruct (proxy_loop f o dyn g1 r) as [[[g2 u] fl]|]; [|congruence].
  destruct (is_uptodate _); [discriminate|]. destruct (is_failed _); discriminate.
Qed.
End Live.
