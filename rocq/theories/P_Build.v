(** Proofs about the scheduler model: every pass is a sequence of legal micro steps. *)
From Coq Require Import List Arith NArith Bool Lia.
From Verif Require Import M_Build.
Import ListNotations.

Definition tagged (g : graph) (y : nat) : Prop := n_tag (g_nodes g y) = g_pass g.

(** The dependency list BuildRecurse examines in the node's current state. *)
Definition curlist (n : node) : list dep :=
  match n_state n with
  | NotProcessed => n_pre n | StaticDeps => n_static n | DynamicDeps => n_dyn n | _ => []
  end.

Definition all_utd (g : graph) (ds : list dep) : Prop :=
  forall d, In d ds -> st g (d_node d) = UpToDate.

Inductive micro (o : opts) (dyn : dyn_oracle) : graph -> graph -> Prop :=
| m_tag g c : micro o dyn g (upd_node g c (set_tag (g_pass g)))
| m_fail g k :
    n_proxy (g_nodes g k) = false ->
    before_building (st g k) = true \/ st g k = Failed ->
    (exists d, In d (n_pre (g_nodes g k) ++ n_static (g_nodes g k) ++ n_dyn (g_nodes g k)) /\
               st g (d_node d) = Failed) ->
    micro o dyn g (mark_failed CDeps k g)
| m_static g k :
    n_proxy (g_nodes g k) = false ->
    st g k = NotProcessed -> all_utd g (n_pre (g_nodes g k)) ->
    micro o dyn g (upd_node g k (set_state StaticDeps))
| m_clear g k :
    n_proxy (g_nodes g k) = false ->
    st g k = StaticDeps -> all_utd g (n_static (g_nodes g k)) ->
    o_clean o || need_static g k = true ->
    micro o dyn g (upd_node g k (fun n => set_dyn [] (set_stamp 0 n)))
| m_dynfail g k :
    n_proxy (g_nodes g k) = false ->
    st g k = StaticDeps -> stampof g k = 0%N -> dyn k = None ->
    micro o dyn g (mark_failed CDyn k g)
| m_setdyn g k ds :
    n_proxy (g_nodes g k) = false ->
    st g k = StaticDeps -> all_utd g (n_static (g_nodes g k)) -> stampof g k = 0%N ->
    dyn k = Some ds ->
    micro o dyn g (upd_node g k (fun n => set_state DynamicDeps (set_dyn ds n)))
| m_keepdyn g k :
    n_proxy (g_nodes g k) = false ->
    st g k = StaticDeps -> all_utd g (n_static (g_nodes g k)) ->
    o_clean o || need_static g k = false ->
    micro o dyn g (upd_node g k (set_state DynamicDeps))
| m_start g k :
    n_proxy (g_nodes g k) = false ->
    st g k = DynamicDeps -> all_utd g (n_dyn (g_nodes g k)) ->
    N.eqb (stampof g k) 0 || need_dyn g k = true ->
    micro o dyn g (start_job k g)
| m_skip g k :
    n_proxy (g_nodes g k) = false ->
    st g k = DynamicDeps -> all_utd g (n_dyn (g_nodes g k)) ->
    N.eqb (stampof g k) 0 || need_dyn g k = false ->
    micro o dyn g (add_log (EvSkip k (dep_ids (g_nodes g k))) (upd_node g k (set_state UpToDate))).

Inductive mstar (o : opts) (dyn : dyn_oracle) : graph -> graph -> Prop :=
| ms_refl g : mstar o dyn g g
| ms_step g1 g2 g3 : micro o dyn g1 g2 -> mstar o dyn g2 g3 -> mstar o dyn g1 g3.

Lemma mstar_one o dyn g1 g2 : micro o dyn g1 g2 -> mstar o dyn g1 g2.
Proof. intros; eapply ms_step; eauto. apply ms_refl. Qed.

Lemma mstar_trans o dyn g1 g2 g3 : mstar o dyn g1 g2 -> mstar o dyn g2 g3 -> mstar o dyn g1 g3.
Proof. induction 1; eauto using ms_step. Qed.

Lemma mstar_snoc o dyn g1 g2 g3 : mstar o dyn g1 g2 -> micro o dyn g2 g3 -> mstar o dyn g1 g3.
Proof. intros; eapply mstar_trans; eauto using mstar_one. Qed.

(** ** Projection lemmas *)
Lemma upd_same {A} (f : nat -> A) k v : upd f k v k = v.
Proof. unfold upd. now rewrite Nat.eqb_refl. Qed.
Lemma upd_other {A} (f : nat -> A) k v j : j <> k -> upd f k v j = f j.
Proof. unfold upd. intros. destruct (Nat.eqb_spec j k); congruence. Qed.

Lemma nodes_upd_same g k f : g_nodes (upd_node g k f) k = f (g_nodes g k).
Proof. apply upd_same. Qed.
Lemma nodes_upd_other g k f j : j <> k -> g_nodes (upd_node g k f) j = g_nodes g j.
Proof. apply upd_other. Qed.
Lemma nodes_add_log e g : g_nodes (add_log e g) = g_nodes g. Proof. reflexivity. Qed.
Lemma nodes_add_active e g : g_nodes (add_active e g) = g_nodes g. Proof. reflexivity. Qed.
Lemma pass_upd g k f : g_pass (upd_node g k f) = g_pass g. Proof. reflexivity. Qed.
Lemma nodes_mark_same c k g : g_nodes (mark_failed c k g) k = set_state Failed (g_nodes g k).
Proof. unfold mark_failed. rewrite nodes_add_log. apply nodes_upd_same. Qed.
Lemma nodes_mark_other c k g j : j <> k -> g_nodes (mark_failed c k g) j = g_nodes g j.
Proof. unfold mark_failed. rewrite nodes_add_log. apply nodes_upd_other. Qed.
Lemma pass_mark c k g : g_pass (mark_failed c k g) = g_pass g. Proof. reflexivity. Qed.
Lemma nodes_start_same k g : g_nodes (start_job k g) k = set_state Building (g_nodes g k).
Proof. unfold start_job. rewrite nodes_add_log, nodes_add_active. apply nodes_upd_same. Qed.
Lemma nodes_start_other k g j : j <> k -> g_nodes (start_job k g) j = g_nodes g j.
Proof. unfold start_job. rewrite nodes_add_log, nodes_add_active. apply nodes_upd_other. Qed.

Lemma st_of g k n : g_nodes g k = n -> st g k = n_state n.
Proof. unfold st. now intros ->. Qed.

(** UpToDate and Failed and Building are stable under micro steps. *)
Lemma micro_final o dyn g g' :
  micro o dyn g g' ->
  g_pass g' = g_pass g /\
  forall j, (st g j = UpToDate -> st g' j = UpToDate) /\
            (st g j = Failed -> st g' j = Failed) /\
            (st g j = Building -> st g' j = Building) /\
            n_proxy (g_nodes g' j) = n_proxy (g_nodes g j).
Proof.
  intros H; split; [destruct H; reflexivity|].
  intros j; unfold st in *.
  destruct H;
    match goal with
    | |- context [mark_failed _ ?k _] =>
        destruct (Nat.eq_dec j k); [subst; rewrite nodes_mark_same|rewrite nodes_mark_other by auto]
    | |- context [start_job ?k _] =>
        destruct (Nat.eq_dec j k); [subst; rewrite nodes_start_same|rewrite nodes_start_other by auto]
    | |- context [upd_node _ ?k _] =>
        try rewrite nodes_add_log;
        destruct (Nat.eq_dec j k); [subst; rewrite nodes_upd_same|rewrite nodes_upd_other by auto]
    end; cbn; unfold st in *; repeat split; intros; auto;
    try (match goal with H : _ \/ _ |- _ => destruct H end); try congruence;
    try (rewrite H1 in H0; cbn in H0; congruence);
    try (match goal with A : n_state _ = _, B : context [before_building _] |- _ =>
           rewrite A in B; cbn in B; congruence end).
Qed.

Lemma mstar_final o dyn g g' :
  mstar o dyn g g' ->
  g_pass g' = g_pass g /\
  forall j, (st g j = UpToDate -> st g' j = UpToDate) /\
            (st g j = Failed -> st g' j = Failed) /\
            (st g j = Building -> st g' j = Building) /\
            n_proxy (g_nodes g' j) = n_proxy (g_nodes g j).
Proof.
  induction 1 as [|g1 g2 g3 M _ [IP IH]].
  - split; auto.
  - destruct (micro_final _ _ _ _ M) as [MP MH]. split; [congruence|].
    intros j. destruct (MH j) as (A&B&C&D). destruct (IH j) as (A'&B'&C'&D').
    repeat split; auto. congruence.
Qed.

Lemma mstar_all_utd o dyn g g' ds : mstar o dyn g g' -> all_utd g ds -> all_utd g' ds.
Proof. intros M H d Hd. apply (mstar_final _ _ _ _ M). auto. Qed.

(** ** What a call of BuildRecurse may touch *)
Definition blocked (g : graph) (r : nat) : Prop :=
  exists d, In d (curlist (g_nodes g r)) /\ tagged g (d_node d) /\
            before_building (st g (d_node d)) = true.

(** node [r] keeps everything but its state (same or Failed) and tag *)
Definition soft (n n' : node) : Prop :=
  (n_state n' = n_state n \/ n_state n' = Failed) /\
  n_stamp n' = n_stamp n /\ n_proxy n' = n_proxy n /\ n_force n' = n_force n /\
  n_isfile n' = n_isfile n /\ n_filenode n' = n_filenode n /\ n_built n' = n_built n /\
  n_pre n' = n_pre n /\ n_static n' = n_static n /\ n_dyn n' = n_dyn n.

Lemma soft_refl n : soft n n. Proof. unfold soft; tauto. Qed.
Lemma soft_trans a b c : soft a b -> soft b c -> soft a c.
Proof.
  unfold soft. intros (A&B) (C&D).
  repeat match goal with H : _ /\ _ |- _ => destruct H end.
  split. { destruct C; destruct A; [left|right|right|right]; congruence. }
  repeat split; congruence.
Qed.
Lemma soft_mark c k g : soft (g_nodes g k) (g_nodes (mark_failed c k g) k).
Proof. rewrite nodes_mark_same. unfold soft; cbn; tauto. Qed.
Lemma soft_tag t n : soft n (set_tag t n).
Proof. unfold soft; cbn; tauto. Qed.

Definition not_finished (s : nstate) : Prop := s <> UpToDate /\ s <> Building.

Record rec_ok (o : opts) (dyn : dyn_oracle) (rec : graph -> nat -> option graph) : Prop := {
  ro_star : forall g x g', rec g x = Some g' -> mstar o dyn g g';
  ro_tags : forall g x g' y, rec g x = Some g' -> tagged g y -> tagged g' y;
  ro_frozen : forall g x g' y, rec g x = Some g' -> y <> x -> tagged g y ->
      g_nodes g' y = g_nodes g y;
  ro_blocked : forall g x g', rec g x = Some g' -> tagged g x ->
      before_building (st g x) = true -> blocked g x ->
      soft (g_nodes g x) (g_nodes g' x);
  ro_reenter : forall g x g' r, rec g x = Some g' -> tagged g x -> r <> x -> ~ tagged g r ->
      before_building (st g x) = true -> before_building (st g r) = true ->
      blocked g r ->
      g_nodes g' r = g_nodes g r \/
      (tagged g' r /\ soft (g_nodes g r) (g_nodes g' r) /\ not_finished (st g' x)) }.

Lemma tagged_mark c k g y : tagged (mark_failed c k g) y <-> tagged g y.
Proof.
  unfold tagged. rewrite pass_mark. destruct (Nat.eq_dec y k).
  - subst. rewrite nodes_mark_same. reflexivity.
  - rewrite nodes_mark_other by auto. reflexivity.
Qed.

Lemma tagged_upd g k f y :
  (forall n, n_tag (f n) = n_tag n) -> tagged (upd_node g k f) y <-> tagged g y.
Proof.
  intros Hf. unfold tagged. rewrite pass_upd. destruct (Nat.eq_dec y k).
  - subst. rewrite nodes_upd_same, Hf. reflexivity.
  - rewrite nodes_upd_other by auto. reflexivity.
Qed.

Lemma tagged_settag g c y : tagged g y -> tagged (upd_node g c (set_tag (g_pass g))) y.
Proof.
  unfold tagged. rewrite pass_upd. destruct (Nat.eq_dec y c).
  - subst. rewrite nodes_upd_same. reflexivity.
  - rewrite nodes_upd_other by auto. auto.
Qed.

Lemma tagged_settag_same g c : tagged (upd_node g c (set_tag (g_pass g))) c.
Proof. unfold tagged. rewrite pass_upd, nodes_upd_same. reflexivity. Qed.

Lemma st_settag g c j t : st (upd_node g c (set_tag t)) j = st g j.
Proof.
  unfold st. destruct (Nat.eq_dec j c).
  - subst. now rewrite nodes_upd_same.
  - now rewrite nodes_upd_other.
Qed.

(** One element of the loop. *)
Definition visit (rec : graph -> nat -> option graph) (g : graph) (c : nat) : option graph :=
  if before_building (st g c) then
    if negb (N.eqb (n_tag (g_nodes g c)) (g_pass g)) then
      rec (upd_node g c (set_tag (g_pass g))) c
    else Some g
  else Some g.

Lemma tagged_dec g y : {tagged g y} + {~ tagged g y}.
Proof. unfold tagged. apply N.eq_dec. Qed.

Lemma curlist_settag t n : curlist (set_tag t n) = curlist n.
Proof. reflexivity. Qed.

Section Visit.
  Variables (o : opts) (dyn : dyn_oracle) (rec : graph -> nat -> option graph).
  Hypothesis RO : rec_ok o dyn rec.

  Lemma visit_star g c g' : visit rec g c = Some g' -> mstar o dyn g g'.
  Proof.
    unfold visit. destruct (before_building _); [|intros [= <-]; apply ms_refl].
    destruct (negb _); [|intros [= <-]; apply ms_refl].
    intros H. eapply ms_step; [apply m_tag|]. eapply ro_star; eauto.
  Qed.

  Lemma visit_tags g c g' y : visit rec g c = Some g' -> tagged g y -> tagged g' y.
  Proof.
    unfold visit. destruct (before_building _); [|intros [= <-]; auto].
    destruct (negb _); [|intros [= <-]; auto].
    intros H T. eapply ro_tags; eauto. now apply tagged_settag.
  Qed.

  (* a tagged node is never modified *)
  Lemma visit_frozen g c g' y : visit rec g c = Some g' -> tagged g y -> g_nodes g' y = g_nodes g y.
  Proof.
    unfold visit. destruct (before_building _); [|intros [= <-]; auto].
    destruct (N.eqb_spec (n_tag (g_nodes g c)) (g_pass g)); cbn; [intros [= <-]; auto|].
    intros H T. assert (y <> c) by (intros ->; contradiction).
    rewrite (ro_frozen _ _ _ RO _ _ _ y H) by (auto; now apply tagged_settag).
    now rewrite nodes_upd_other.
  Qed.

  (* an untagged unfinished node one of whose dependencies is unfinished and tagged, or is
     the one being visited *)
  Lemma visit_reenter g c g' r :
    visit rec g c = Some g' -> ~ tagged g r -> before_building (st g r) = true ->
    (blocked g r \/ exists d, In d (curlist (g_nodes g r)) /\ d_node d = c) ->
    g_nodes g' r = g_nodes g r \/
    (tagged g' r /\ soft (g_nodes g r) (g_nodes g' r) /\ st g' c <> UpToDate).
  Proof.
    intros H NT B BL.
    unfold visit in H.
    destruct (before_building (st g c)) eqn:Bc; [|injection H as <-; auto].
    destruct (N.eqb_spec (n_tag (g_nodes g c)) (g_pass g)) as [E|NE]; cbn in H; [injection H as <-; auto|].
    set (g1 := upd_node g c (set_tag (g_pass g))) in *.
    assert (Tc : tagged g1 c) by apply tagged_settag_same.
    assert (Bc1 : before_building (st g1 c) = true) by (unfold g1; rewrite st_settag; auto).
    assert (Cr : curlist (g_nodes g1 r) = curlist (g_nodes g r)).
    { unfold g1. destruct (Nat.eq_dec r c) as [->|];
        [rewrite nodes_upd_same; reflexivity|rewrite nodes_upd_other by auto; reflexivity]. }
    assert (BK : blocked g1 r).
    { destruct BL as [(d & Hd & Td & Bd)|(d & Hd & Hdc)];
        exists d; rewrite Cr; (split; [|split]); auto.
      + unfold g1. now apply tagged_settag.
      + unfold g1. now rewrite st_settag.
      + now rewrite Hdc.
      + now rewrite Hdc. }
    destruct (Nat.eq_dec r c) as [->|Hrc].
    - pose proof (ro_blocked _ _ _ RO _ _ _ H Tc Bc1 BK) as S.
      right. split; [|split].
      + eapply ro_tags; eauto.
      + eapply soft_trans; [|exact S]. unfold g1. rewrite nodes_upd_same. apply soft_tag.
      + destruct S as [[S|S] _].
        * unfold st. rewrite S. intros E. unfold st in Bc1. rewrite E in Bc1. discriminate.
        * unfold st. rewrite S. discriminate.
    - assert (NT1 : ~ tagged g1 r).
      { unfold tagged, g1. rewrite pass_upd, nodes_upd_other by auto. auto. }
      assert (Er : g_nodes g1 r = g_nodes g r) by (unfold g1; now rewrite nodes_upd_other).
      destruct (ro_reenter _ _ _ RO _ _ _ r H Tc Hrc NT1 Bc1) as [E|(T&S&F)]; auto.
      + unfold st. rewrite Er. exact B.
      + left. congruence.
      + right. split; [|split]; auto. rewrite <- Er. exact S. apply F.
  Qed.
End Visit.

Lemma check_loop_eq o rec g k d r :
  check_loop o rec g k (d :: r) =
  match visit rec g (d_node d) with
  | None => None
  | Some g1 =>
      if is_uptodate (st g1 (d_node d)) then
        match check_loop o rec g1 k r with
        | Some (g2, b, u, f, brk) => Some (g2, b, S u, f, brk)
        | None => None
        end
      else if is_failed (st g1 (d_node d)) && o_stopfirst o then
        Some (mark_failed CDeps k g1, false, 0, 1, true)
      else
        match check_loop o rec g1 k r with
        | Some (g2, _, u, f, brk) =>
            Some (g2, false, u, (if is_failed (st g1 (d_node d)) then S f else f), brk)
        | None => None
        end
  end.
Proof. reflexivity. Qed.

Lemma is_uptodate_true s : is_uptodate s = true <-> s = UpToDate.
Proof. destruct s; cbn; split; congruence. Qed.
Lemma is_failed_true s : is_failed s = true <-> s = Failed.
Proof. destruct s; cbn; split; congruence. Qed.

Definition alldeps (n : node) : list dep := n_pre n ++ n_static n ++ n_dyn n.

Lemma curlist_alldeps n d : In d (curlist n) -> In d (alldeps n).
Proof.
  unfold curlist, alldeps. destruct (n_state n); cbn; try tauto; rewrite !in_app_iff; auto.
Qed.

Lemma soft_alldeps n n' : soft n n' -> alldeps n' = alldeps n.
Proof. unfold soft, alldeps. intros (_&_&_&_&_&_&_&A&B&C). congruence. Qed.

(** Facts about the loop at node [k], whose examined list is included in [curlist]. *)
Record loop_post (o : opts) (dyn : dyn_oracle) (g : graph) (k : nat) (ds : list dep)
       (g' : graph) (b : bool) (u f : nat) (brk : bool) : Prop := {
  lp_star : mstar o dyn g g';
  lp_tags : forall y, tagged g y -> tagged g' y;
  lp_frozen : forall y, y <> k -> tagged g y -> g_nodes g' y = g_nodes g y;
  lp_self : (g_nodes g' k = g_nodes g k /\ brk = false) \/
            (b = false /\ soft (g_nodes g k) (g_nodes g' k));
  lp_true : b = true -> all_utd g' ds;
  lp_failed : f <> 0 -> exists d, In d ds /\ st g' (d_node d) = Failed;
  lp_brk : brk = true -> st g' k = Failed;
  lp_blocked : (exists d, In d ds /\ tagged g (d_node d) /\
                         before_building (st g (d_node d)) = true) -> b = false;
  lp_reenter : forall r, tagged g k -> r <> k -> ~ tagged g r -> before_building (st g r) = true ->
      blocked g r ->
      g_nodes g' r = g_nodes g r \/
      (tagged g' r /\ soft (g_nodes g r) (g_nodes g' r) /\ b = false) }.

Section Loop.
  Variables (o : opts) (dyn : dyn_oracle) (rec : graph -> nat -> option graph).
  Hypothesis RO : rec_ok o dyn rec.

  Lemma blocked_frozen g g' c r :
    visit rec g c = Some g' -> g_nodes g' r = g_nodes g r -> blocked g r -> blocked g' r.
  Proof.
    intros V E (d & Hd & Td & Bd). exists d. rewrite E. repeat split; auto.
    - eapply visit_tags; eauto.
    - unfold st. erewrite visit_frozen; eauto.
  Qed.

  Lemma check_loop_post ds : forall g k g' b u f brk,
    n_proxy (g_nodes g k) = false ->
    before_building (st g k) = true \/ (tagged g k /\ st g k = Failed) ->
    (forall d, In d ds -> In d (alldeps (g_nodes g k))) ->
    (before_building (st g k) = true -> forall d, In d ds -> In d (curlist (g_nodes g k))) ->
    check_loop o rec g k ds = Some (g', b, u, f, brk) ->
    loop_post o dyn g k ds g' b u f brk.
  Proof.
    induction ds as [|d r IH]; intros g k g' b u f brk NP ST ALL CUR H.
    - cbn in H. injection H as <- <- <- <- <-.
      split; auto; try (intros; discriminate).
      + apply ms_refl.
      + intros _ d [].
      + intros; congruence.
      + intros (d & [] & _).
    - rewrite check_loop_eq in H.
      destruct (visit rec g (d_node d)) as [g1|] eqn:V; [|discriminate].
      set (c := d_node d) in *.
      pose proof (visit_star _ _ _ RO _ _ _ V) as VS.
      pose proof (fun y => visit_tags _ _ _ RO _ _ _ y V) as VT.
      pose proof (fun y => visit_frozen _ _ _ RO _ _ _ y V) as VF.
      (* what happened to k *)
      assert (KK : g_nodes g1 k = g_nodes g k \/
                   (tagged g1 k /\ soft (g_nodes g k) (g_nodes g1 k) /\ st g1 c <> UpToDate)).
      { destruct (tagged_dec g k) as [T|NT].
        - left. eapply visit_frozen; eauto.
        - destruct ST as [B|[T _]]; [|contradiction].
          eapply visit_reenter; eauto. right. exists d. split; auto.
          apply CUR; auto. now left. }
      assert (SK : soft (g_nodes g k) (g_nodes g1 k)).
      { destruct KK as [E|(_&S&_)]; auto. rewrite E. apply soft_refl. }
      assert (NP1 : n_proxy (g_nodes g1 k) = false).
      { destruct SK as (_&_&A&_). congruence. }
      assert (ST1 : before_building (st g1 k) = true \/ (tagged g1 k /\ st g1 k = Failed)).
      { destruct KK as [E|(T&S&_)].
        - unfold st. rewrite E. fold (st g k). destruct ST as [?|[T ?]]; auto.
        - destruct S as [[S|S] _].
          + unfold st. rewrite S. fold (st g k). destruct ST as [?|[? ?]]; auto.
          + right. split; auto. }
      assert (AL1 : alldeps (g_nodes g1 k) = alldeps (g_nodes g k)) by now apply soft_alldeps.
      assert (ALL1 : forall d0, In d0 r -> In d0 (alldeps (g_nodes g1 k))).
      { intros. rewrite AL1. apply ALL. now right. }
      assert (CUR1 : before_building (st g1 k) = true ->
                     forall d0, In d0 r -> In d0 (curlist (g_nodes g1 k))).
      { intros B1 d0 Hd0.
        destruct SK as [[S|S] (_&_&_&_&_&_&P1&P2&P3)];
          [|unfold st in B1; rewrite S in B1; discriminate].
        assert (B : before_building (st g k) = true) by (unfold st in *; now rewrite <- S).
        specialize (CUR B d0 (or_intror Hd0)).
        unfold curlist in *. rewrite S. destruct (n_state (g_nodes g k)); congruence. }
      assert (CM : before_building (st g k) = true \/ st g k = Failed).
      { tauto. }
      assert (CM1 : before_building (st g1 k) = true \/ st g1 k = Failed).
      { tauto. }
      assert (RE : forall r0, tagged g k -> r0 <> k -> ~ tagged g r0 ->
                  before_building (st g r0) = true -> blocked g r0 ->
                  g_nodes g1 r0 = g_nodes g r0 \/
                  (tagged g1 r0 /\ soft (g_nodes g r0) (g_nodes g1 r0) /\ st g1 c <> UpToDate)).
      { intros. eapply visit_reenter; eauto. }
      assert (FIN : forall bb uu ff kk gg, loop_post o dyn g1 k r gg bb uu ff kk ->
                    (bb = true -> st g1 c <> UpToDate -> False) ->
                    forall r0, tagged g k -> r0 <> k -> ~ tagged g r0 ->
                    before_building (st g r0) = true -> blocked g r0 ->
                    g_nodes gg r0 = g_nodes g r0 \/
                    (tagged gg r0 /\ soft (g_nodes g r0) (g_nodes gg r0) /\ bb = false)).
      { intros bb uu ff kk gg LP HB r0 T N NT B BL.
        destruct (RE r0 T N NT B BL) as [E|(T1&S1&F1)].
        - assert (T1k : tagged g1 k) by auto.
          destruct (tagged_dec g1 r0) as [T1|NT1].
          + left. rewrite (lp_frozen _ _ _ _ _ _ _ _ _ _ LP) by auto. auto.
          + destruct (lp_reenter _ _ _ _ _ _ _ _ _ _ LP r0 T1k N NT1) as [E2|(T2&S2&F2)].
            * unfold st. rewrite E. exact B.
            * eapply blocked_frozen; eauto.
            * left. congruence.
            * right. rewrite <- E. auto.
        - right. rewrite (lp_frozen _ _ _ _ _ _ _ _ _ _ LP) by eauto. split; [|split].
          + eapply lp_tags; eauto.
          + auto.
          + destruct bb; auto. exfalso; auto. }
      destruct (is_uptodate (st g1 c)) eqn:U.
      + apply is_uptodate_true in U.
        destruct (check_loop o rec g1 k r) as [[[[[g2 b2] u2] f2] k2]|] eqn:L; [|discriminate].
        injection H as <- <- <- <- <-.
        assert (LP : loop_post o dyn g1 k r g2 b2 u2 f2 k2) by (eapply IH; eauto).
        destruct (mstar_final _ _ _ _ (lp_star _ _ _ _ _ _ _ _ _ _ LP)) as [_ MF].
        split.
        * eapply mstar_trans; eauto using lp_star.
        * intros. eapply lp_tags; eauto.
        * intros. rewrite (lp_frozen _ _ _ _ _ _ _ _ _ _ LP) by auto. auto.
        * destruct KK as [E|(T1&S1&F1)]; [|congruence].
          destruct (lp_self _ _ _ _ _ _ _ _ _ _ LP) as [[E2 K2]|[B2 S2]].
          -- left. split; congruence.
          -- right. rewrite <- E. auto.
        * intros -> d0 [<-|Hd0].
          -- now apply MF.
          -- eapply lp_true; eauto.
        * intros Hf. destruct (lp_failed _ _ _ _ _ _ _ _ _ _ LP Hf) as (d0 & ? & ?).
          exists d0. split; auto. now right.
        * apply (lp_brk _ _ _ _ _ _ _ _ _ _ LP).
        * intros (d0 & [<-|Hd0] & Td & Bd).
          -- exfalso. unfold st in U. fold c in Td, Bd. rewrite (VF c) in U by auto.
             unfold st in Bd. rewrite U in Bd. discriminate.
          -- eapply lp_blocked; eauto. exists d0. repeat split; auto.
             unfold st. rewrite VF by auto. exact Bd.
        * eapply FIN; eauto.
      + assert (NU : st g1 c <> UpToDate).
        { intros E. rewrite E in U. discriminate. }
        destruct (is_failed (st g1 c) && o_stopfirst o) eqn:SF.
        * injection H as <- <- <- <- <-.
          apply andb_true_iff in SF as [SF _]. apply is_failed_true in SF.
          assert (M : micro o dyn g1 (mark_failed CDeps k g1)).
          { apply m_fail; auto. exists d. split; auto.
            change (n_pre (g_nodes g1 k) ++ n_static (g_nodes g1 k) ++ n_dyn (g_nodes g1 k))
              with (alldeps (g_nodes g1 k)). rewrite AL1. apply ALL. now left. }
          split; try (intros; discriminate).
          -- eapply mstar_snoc; eauto.
          -- intros. apply tagged_mark. auto.
          -- intros. rewrite nodes_mark_other by auto. auto.
          -- right. split; auto. eapply soft_trans; [exact SK|]. apply soft_mark.
          -- intros _. exists d. split; [now left|].
             apply (micro_final _ _ _ _ M). auto.
          -- intros _. unfold st. rewrite nodes_mark_same. reflexivity.
          -- auto.
          -- intros r0 T N NT B BL. rewrite nodes_mark_other by auto.
             destruct (RE r0 T N NT B BL) as [E|(T1&S1&F1)]; auto.
             right. rewrite tagged_mark. auto.
        * destruct (check_loop o rec g1 k r) as [[[[[g2 b2] u2] f2] k2]|] eqn:L; [|discriminate].
          injection H as <- <- <- <- <-.
          assert (LP : loop_post o dyn g1 k r g2 b2 u2 f2 k2) by (eapply IH; eauto).
          destruct (mstar_final _ _ _ _ (lp_star _ _ _ _ _ _ _ _ _ _ LP)) as [_ MF].
          assert (SK2 : soft (g_nodes g k) (g_nodes g2 k)).
          { eapply soft_trans; [exact SK|].
            destruct (lp_self _ _ _ _ _ _ _ _ _ _ LP) as [[E2 _]|[_ S2]]; auto.
            rewrite E2. apply soft_refl. }
          split; try (intros; discriminate).
          -- eapply mstar_trans; eauto using lp_star.
          -- intros. eapply lp_tags; eauto.
          -- intros. rewrite (lp_frozen _ _ _ _ _ _ _ _ _ _ LP) by auto. auto.
          -- right. auto.
          -- intros Hf. destruct (is_failed (st g1 c)) eqn:FF.
             ++ apply is_failed_true in FF. exists d. split; [now left|]. now apply MF.
             ++ destruct (lp_failed _ _ _ _ _ _ _ _ _ _ LP Hf) as (d0 & ? & ?).
                exists d0. split; auto. now right.
          -- apply (lp_brk _ _ _ _ _ _ _ _ _ _ LP).
          -- auto.
          -- intros r0 T N NT B BL. 
             destruct (RE r0 T N NT B BL) as [E|(T1&S1&F1)].
             ++ assert (T1k : tagged g1 k) by auto.
                destruct (tagged_dec g1 r0) as [T1|NT1].
                ** left. rewrite (lp_frozen _ _ _ _ _ _ _ _ _ _ LP) by auto. auto.
                ** destruct (lp_reenter _ _ _ _ _ _ _ _ _ _ LP r0 T1k N NT1) as [E2|(T2&S2&F2)].
                   --- unfold st. rewrite E. exact B.
                   --- eapply blocked_frozen; eauto.
                   --- left. congruence.
                   --- right. rewrite <- E. auto.
             ++ right. rewrite (lp_frozen _ _ _ _ _ _ _ _ _ _ LP) by eauto. split; [|split]; auto.
                eapply lp_tags; eauto.
  Qed.

  (** CheckDependencies on the node's current list. *)
  Lemma check_deps_post g k g' b :
    n_proxy (g_nodes g k) = false -> before_building (st g k) = true ->
    check_deps o rec g k (curlist (g_nodes g k)) = Some (g', b) ->
    mstar o dyn g g' /\
    (forall y, tagged g y -> tagged g' y) /\
    (forall y, y <> k -> tagged g y -> g_nodes g' y = g_nodes g y) /\
    (b = true -> g_nodes g' k = g_nodes g k /\ all_utd g' (curlist (g_nodes g k))) /\
    (b = false -> soft (g_nodes g k) (g_nodes g' k)) /\
    (blocked g k -> b = false) /\
    (forall r, tagged g k -> r <> k -> ~ tagged g r -> before_building (st g r) = true ->
      blocked g r ->
      g_nodes g' r = g_nodes g r \/
      (tagged g' r /\ soft (g_nodes g r) (g_nodes g' r) /\ b = false)).
  Proof.
    intros NP B H. unfold check_deps in H.
    destruct (check_loop o rec g k (curlist (g_nodes g k))) as [[[[[g1 b1] u] f] brk]|] eqn:L;
      [|discriminate].
    assert (LP : loop_post o dyn g k (curlist (g_nodes g k)) g1 b1 u f brk).
    { eapply check_loop_post; eauto. intros. now apply curlist_alldeps. }
    destruct LP.
    destruct (negb (o_stopfirst o) && Nat.eqb (f + u) (length (curlist (g_nodes g k))) && negb (Nat.eqb f 0)) eqn:C.
    - injection H as <- <-.
      apply andb_true_iff in C as [_ C]. apply negb_true_iff, Nat.eqb_neq in C.
      destruct (lp_failed0 C) as (d & Hd & Hf).
      assert (b1 = false).
      { destruct b1; auto. specialize (lp_true0 eq_refl d Hd). congruence. }
      subst b1.
      assert (SK : soft (g_nodes g k) (g_nodes g1 k)).
      { destruct lp_self0 as [[E _]|[_ S]]; auto. rewrite E; apply soft_refl. }
      assert (M : micro o dyn g1 (mark_failed CDeps k g1)).
      { pose proof (soft_alldeps _ _ SK) as SA.
        destruct SK as [SS (_&S2&_)].
        apply m_fail.
        - congruence.
        - destruct SS as [S|S]; [left; unfold st; now rewrite S|right; exact S].
        - exists d. split; auto.
          change (In d (alldeps (g_nodes g1 k))). rewrite SA. now apply curlist_alldeps. }
      split; [|split; [|split; [|split; [|split; [|split]]]]]; try (intros; discriminate).
      + eapply mstar_snoc; eauto.
      + intros. apply tagged_mark. auto.
      + intros. rewrite nodes_mark_other by auto. auto.
      + intros _. eapply soft_trans; [exact SK|apply soft_mark].
      + auto.
      + intros r T N NT BB BL. rewrite nodes_mark_other by auto.
        destruct (lp_reenter0 r T N NT BB BL) as [E|(T1&S1&F1)]; auto.
        right. rewrite tagged_mark. auto.
    - injection H as <- <-.
      split; [|split; [|split; [|split; [|split; [|split]]]]]; auto.
      + intros ->. destruct lp_self0 as [[E _]|[? _]]; [|discriminate]. split; auto.
      + intros ->. destruct lp_self0 as [[E _]|[_ S]]; auto. rewrite E; apply soft_refl.
  Qed.
End Loop.

(** ** BuildRecurse *)
Section Recurse.
  Variables (o : opts) (dyn : dyn_oracle).

  (* facts shared by the three phases; [x] is the node, unfinished and not a proxy *)
  Record phase_post (g : graph) (x : nat) (g' : graph) : Prop := {
    pp_star : mstar o dyn g g';
    pp_tags : forall y, tagged g y -> tagged g' y;
    pp_frozen : forall y, y <> x -> tagged g y -> g_nodes g' y = g_nodes g y;
    pp_reenter : forall r, tagged g x -> r <> x -> ~ tagged g r ->
      before_building (st g r) = true -> blocked g r ->
      g_nodes g' r = g_nodes g r \/
      (tagged g' r /\ soft (g_nodes g r) (g_nodes g' r) /\ not_finished (st g' x)) }.

  Lemma soft_not_finished g g' x :
    before_building (st g x) = true -> soft (g_nodes g x) (g_nodes g' x) -> not_finished (st g' x).
  Proof.
    intros B [[S|S] _]; unfold not_finished, st in *; rewrite S.
    - split; intros E; rewrite E in B; discriminate.
    - split; discriminate.
  Qed.

  (* composing: a first part that leaves [x] alone, then local updates of [x], then a phase *)
  Lemma phase_compose g x g1 g2 g3 :
    mstar o dyn g g1 -> (forall y, tagged g y -> tagged g1 y) ->
    (forall y, y <> x -> tagged g y -> g_nodes g1 y = g_nodes g y) ->
    (forall r, tagged g x -> r <> x -> ~ tagged g r -> before_building (st g r) = true ->
      blocked g r -> g_nodes g1 r = g_nodes g r) ->
    mstar o dyn g1 g2 ->
    (forall y, y <> x -> g_nodes g2 y = g_nodes g1 y) ->
    (forall y, tagged g2 y <-> tagged g1 y) ->
    before_building (st g x) = true -> before_building (st g2 x) = true ->
    phase_post g2 x g3 ->
    phase_post g x g3.
  Proof.
    intros S1 T1 F1 R1 S2 F2 T2 B B2 P. split.
    - eapply mstar_trans; eauto. eapply mstar_trans; eauto. apply pp_star with (1:=P).
    - intros y Ty. eapply pp_tags; eauto. apply T2. auto.
    - intros y N Ty. rewrite (pp_frozen _ _ _ P) by (auto; apply T2; auto).
      rewrite F2 by auto. auto.
    - intros r T N NT BB BL.
      pose proof (R1 r T N NT BB BL) as E1.
      assert (E2 : g_nodes g2 r = g_nodes g r) by (rewrite F2; auto).
      destruct (tagged_dec g2 r) as [T2r|NT2].
      { left. rewrite (pp_frozen _ _ _ P); auto. }
      destruct (pp_reenter _ _ _ P r) as [E3|(T3&S3&F3)]; auto.
      + apply T2. auto.
      + unfold st. rewrite E2. exact BB.
      + destruct BL as (d & Hd & Td & Bd). exists d. rewrite E2. split; [|split]; auto.
        * apply T2. auto.
        * destruct (Nat.eq_dec (d_node d) x) as [->|Hdx]; auto.
          unfold st. rewrite F2, F1; auto.
      + left. congruence.
      + right. rewrite <- E2. auto.
  Qed.

  Variable rec : graph -> nat -> option graph.
  Hypothesis RO : rec_ok o dyn rec.

  (* a failed check ends the call *)
  Lemma phase_check_false g x g' :
    n_proxy (g_nodes g x) = false -> before_building (st g x) = true ->
    check_deps o rec g x (curlist (g_nodes g x)) = Some (g', false) ->
    phase_post g x g'.
  Proof.
    intros NP B H. destruct (check_deps_post _ _ _ RO _ _ _ _ NP B H) as (A1&A2&A3&_&A5&_&A7).
    split; auto. intros r T N NT BB BL.
    destruct (A7 r T N NT BB BL) as [E|(T1&S1&_)]; auto.
    right. split; [|split]; auto. eapply soft_not_finished with (g := g); eauto.
  Qed.

  Lemma dyn_phase g x g' :
    n_proxy (g_nodes g x) = false -> st g x = DynamicDeps ->
    recurse_dynamic o rec g x = Some g' -> phase_post g x g'.
  Proof.
    intros NP ST H. unfold recurse_dynamic in H.
    assert (B : before_building (st g x) = true) by now rewrite ST.
    assert (CL : curlist (g_nodes g x) = n_dyn (g_nodes g x)).
    { unfold curlist. unfold st in ST. now rewrite ST. }
    rewrite <- CL in H.
    destruct (check_deps o rec g x (curlist (g_nodes g x))) as [[g1 b]|] eqn:C; [|discriminate].
    destruct b; [|injection H as <-; eapply phase_check_false; eauto].
    destruct (check_deps_post _ _ _ RO _ _ _ _ NP B C) as (A1&A2&A3&A4&_&_&A7).
    destruct (A4 eq_refl) as [EX UT]. rewrite CL in UT.
    assert (ST1 : st g1 x = DynamicDeps) by (unfold st; rewrite EX; auto).
    assert (NP1 : n_proxy (g_nodes g1 x) = false) by congruence.
    assert (UT1 : all_utd g1 (n_dyn (g_nodes g1 x))) by now rewrite EX.
    assert (R1 : forall r, tagged g x -> r <> x -> ~ tagged g r ->
                 before_building (st g r) = true -> blocked g r -> g_nodes g1 r = g_nodes g r).
    { intros r T N NT BB BL. destruct (A7 r T N NT BB BL) as [E|(_&_&?)]; auto. discriminate. }
    destruct (N.eqb (stampof g1 x) 0 || need_dyn g1 x) eqn:ND; injection H as <-.
    - split.
      + eapply mstar_snoc; [exact A1|]. now apply m_start.
      + intros y Ty. unfold start_job. unfold tagged.
        change (g_pass _) with (g_pass g1).
        destruct (Nat.eq_dec y x) as [->|].
        * fold (start_job x g1). rewrite nodes_start_same. apply (A2 x Ty).
        * fold (start_job x g1). rewrite nodes_start_other by auto. apply (A2 y Ty).
      + intros y N Ty. rewrite nodes_start_other by auto. auto.
      + intros r T N NT BB BL. left. rewrite nodes_start_other by auto. auto.
    - split.
      + eapply mstar_snoc; [exact A1|]. now apply m_skip.
      + intros y Ty.
        change (tagged (upd_node g1 x (set_state UpToDate)) y).
        apply tagged_upd; auto.
      + intros y N Ty. rewrite nodes_add_log, nodes_upd_other by auto. auto.
      + intros r T N NT BB BL. left. rewrite nodes_add_log, nodes_upd_other by auto. auto.
  Qed.

  Lemma static_phase g x g' :
    n_proxy (g_nodes g x) = false -> st g x = StaticDeps ->
    recurse_static o dyn rec g x = Some g' -> phase_post g x g'.
  Proof.
    intros NP ST H. unfold recurse_static in H.
    assert (B : before_building (st g x) = true) by now rewrite ST.
    assert (CL : curlist (g_nodes g x) = n_static (g_nodes g x)).
    { unfold curlist. unfold st in ST. now rewrite ST. }
    rewrite <- CL in H.
    destruct (check_deps o rec g x (curlist (g_nodes g x))) as [[g1 b]|] eqn:C; [|discriminate].
    destruct b; [|injection H as <-; eapply phase_check_false; eauto].
    destruct (check_deps_post _ _ _ RO _ _ _ _ NP B C) as (A1&A2&A3&A4&_&_&A7).
    destruct (A4 eq_refl) as [EX UT]. rewrite CL in UT.
    assert (ST1 : st g1 x = StaticDeps) by (unfold st; rewrite EX; auto).
    assert (NP1 : n_proxy (g_nodes g1 x) = false) by congruence.
    assert (UT1 : all_utd g1 (n_static (g_nodes g1 x))) by now rewrite EX.
    assert (R1 : forall r, tagged g x -> r <> x -> ~ tagged g r ->
                 before_building (st g r) = true -> blocked g r -> g_nodes g1 r = g_nodes g r).
    { intros r T N NT BB BL. destruct (A7 r T N NT BB BL) as [E|(_&_&?)]; auto. discriminate. }
    destruct (o_clean o || need_static g1 x) eqn:ND.
    - set (g2 := upd_node g1 x (fun n => set_dyn [] (set_stamp 0 n))) in *.
      assert (M2 : micro o dyn g1 g2) by now apply m_clear.
      assert (E2 : g_nodes g2 x = set_dyn [] (set_stamp 0 (g_nodes g1 x))).
      { unfold g2. now rewrite nodes_upd_same. }
      assert (ST2 : st g2 x = StaticDeps) by (unfold st; rewrite E2; cbn; exact ST1).
      assert (NP2 : n_proxy (g_nodes g2 x) = false) by (rewrite E2; cbn; auto).
      assert (SZ2 : stampof g2 x = 0%N) by (unfold stampof; rewrite E2; reflexivity).
      assert (UT2 : all_utd g2 (n_static (g_nodes g2 x))).
      { rewrite E2. cbn. eapply mstar_all_utd; [apply mstar_one; eauto|auto]. }
      assert (O2 : forall y, y <> x -> g_nodes g2 y = g_nodes g1 y).
      { intros. unfold g2. now rewrite nodes_upd_other. }
      assert (T2 : forall y, tagged g2 y <-> tagged g1 y) by (intros; now apply tagged_upd).
      destruct (dyn x) as [ds|] eqn:D.
      + set (g3 := upd_node g2 x (fun n => set_state DynamicDeps (set_dyn ds n))) in *.
        assert (M3 : micro o dyn g2 g3) by now apply m_setdyn.
        assert (E3 : g_nodes g3 x = set_state DynamicDeps (set_dyn ds (g_nodes g2 x))).
        { unfold g3. now rewrite nodes_upd_same. }
        eapply phase_compose with (g1 := g1) (g2 := g3); eauto.
        * eapply ms_step; eauto. now apply mstar_one.
        * intros. unfold g3. rewrite nodes_upd_other by auto. auto.
        * intros. unfold g3. rewrite tagged_upd by auto. auto.
        * unfold st. rewrite E3. reflexivity.
        * eapply dyn_phase; eauto.
          -- rewrite E3. cbn. auto.
          -- unfold st. rewrite E3. reflexivity.
      + injection H as <-.
        assert (M3 : micro o dyn g2 (mark_failed CDyn x g2)) by now apply m_dynfail.
        split.
        * eapply mstar_trans; [exact A1|]. eapply ms_step; eauto. now apply mstar_one.
        * intros y Ty. apply tagged_mark. apply T2. auto.
        * intros y N Ty. rewrite nodes_mark_other by auto. rewrite O2 by auto. auto.
        * intros r T N NT BB BL. left. rewrite nodes_mark_other, O2 by auto. auto.
    - set (g2 := upd_node g1 x (set_state DynamicDeps)) in *.
      assert (M2 : micro o dyn g1 g2) by now apply m_keepdyn.
      assert (E2 : g_nodes g2 x = set_state DynamicDeps (g_nodes g1 x)).
      { unfold g2. now rewrite nodes_upd_same. }
      eapply phase_compose with (g1 := g1) (g2 := g2); eauto.
      + now apply mstar_one.
      + intros. unfold g2. rewrite nodes_upd_other by auto. auto.
      + intros. unfold g2. now rewrite tagged_upd.
      + unfold st. rewrite E2. reflexivity.
      + eapply dyn_phase; eauto.
        * rewrite E2. cbn. auto.
        * unfold st. rewrite E2. reflexivity.
  Qed.
End Recurse.

Lemma build_recurse_phase o dyn rec f g x g' :
  rec_ok o dyn rec -> rec = build_recurse f o dyn ->
  before_building (st g x) = true ->
  build_recurse (S f) o dyn g x = Some g' ->
  phase_post o dyn g x g'.
Proof.
  intros RO -> B H. cbn [build_recurse] in H.
  destruct (n_proxy (g_nodes g x)) eqn:NP; [discriminate|].
  destruct (st g x) eqn:ST; try discriminate.
  - assert (CL : curlist (g_nodes g x) = n_pre (g_nodes g x)).
    { unfold curlist. unfold st in ST. now rewrite ST. }
    rewrite <- CL in H.
    destruct (check_deps o _ g x (curlist (g_nodes g x))) as [[g1 b]|] eqn:C; [|discriminate].
    assert (B' : before_building (st g x) = true) by now rewrite ST.
    destruct b; [|injection H as <-; eapply phase_check_false; eauto].
    destruct (check_deps_post _ _ _ RO _ _ _ _ NP B' C) as (A1&A2&A3&A4&_&_&A7).
    destruct (A4 eq_refl) as [EX UT]. rewrite CL in UT.
    set (g2 := upd_node g1 x (set_state StaticDeps)) in *.
    assert (E2 : g_nodes g2 x = set_state StaticDeps (g_nodes g1 x)).
    { unfold g2. now rewrite nodes_upd_same. }
    eapply phase_compose with (g1 := g1) (g2 := g2); eauto.
    + intros r T N NT BB BL. destruct (A7 r T N NT BB BL) as [E|(_&_&?)]; auto. discriminate.
    + apply mstar_one. apply m_static; try congruence.
      * unfold st. rewrite EX. exact ST.
      * rewrite EX. exact UT.
    + intros. unfold g2. rewrite nodes_upd_other by auto. auto.
    + intros. unfold g2. now rewrite tagged_upd.
    + unfold st. rewrite E2. reflexivity.
    + eapply static_phase; eauto.
      * rewrite E2. cbn. congruence.
      * unfold st. rewrite E2. reflexivity.
  - eapply static_phase; eauto.
  - eapply dyn_phase; eauto.
Qed.

Lemma build_recurse_ok o dyn f : rec_ok o dyn (build_recurse f o dyn).
Proof.
  induction f as [|f IH].
  - split; intros; discriminate.
  - assert (PH : forall g x g', build_recurse (S f) o dyn g x = Some g' ->
              (before_building (st g x) = true /\ phase_post o dyn g x g') \/ g' = g).
    { intros g x g' H. destruct (before_building (st g x)) eqn:B.
      - left. split; auto. eapply build_recurse_phase; eauto.
      - right. cbn [build_recurse] in H. destruct (n_proxy _); [discriminate|].
        destruct (st g x); try discriminate; congruence. }
    split.
    + intros g x g' H. destruct (PH _ _ _ H) as [[_ P]| ->]; [apply P|apply ms_refl].
    + intros g x g' y H T. destruct (PH _ _ _ H) as [[_ P]| ->]; auto. now apply P.
    + intros g x g' y H N T. destruct (PH _ _ _ H) as [[_ P]| ->]; auto. now apply P.
    + (* blocked *)
      intros g x g' H T B BL.
      cbn [build_recurse] in H.
      destruct (n_proxy (g_nodes g x)) eqn:NP; [discriminate|].
      assert (KEY : forall g1 b, check_deps o (build_recurse f o dyn) g x (curlist (g_nodes g x)) = Some (g1, b) ->
                    b = false /\ soft (g_nodes g x) (g_nodes g1 x)).
      { intros g1 b C.
        destruct (check_deps_post _ _ _ IH _ _ _ _ NP B C) as (_&_&_&_&A5&A6&_).
        split; auto. }
      destruct (st g x) eqn:ST; try discriminate.
      * assert (CL : curlist (g_nodes g x) = n_pre (g_nodes g x)).
        { unfold curlist. unfold st in ST. now rewrite ST. }
        rewrite <- CL in H.
        destruct (check_deps o _ g x (curlist (g_nodes g x))) as [[g1 b]|] eqn:C; [|discriminate].
        destruct (KEY _ _ eq_refl) as [-> S]. now injection H as <-.
      * assert (CL : curlist (g_nodes g x) = n_static (g_nodes g x)).
        { unfold curlist. unfold st in ST. now rewrite ST. }
        unfold recurse_static in H. rewrite <- CL in H.
        destruct (check_deps o _ g x (curlist (g_nodes g x))) as [[g1 b]|] eqn:C; [|discriminate].
        destruct (KEY _ _ eq_refl) as [-> S]. now injection H as <-.
      * assert (CL : curlist (g_nodes g x) = n_dyn (g_nodes g x)).
        { unfold curlist. unfold st in ST. now rewrite ST. }
        unfold recurse_dynamic in H. rewrite <- CL in H.
        destruct (check_deps o _ g x (curlist (g_nodes g x))) as [[g1 b]|] eqn:C; [|discriminate].
        destruct (KEY _ _ eq_refl) as [-> S]. now injection H as <-.
    + intros g x g' r H T N NT Bx Br BL. destruct (PH _ _ _ H) as [[_ P]| ->]; auto.
      eapply pp_reenter; eauto.
Qed.

Theorem build_recurse_mstar f o dyn g x g' :
  build_recurse f o dyn g x = Some g' -> mstar o dyn g g'.
Proof. apply (ro_star _ _ _ (build_recurse_ok o dyn f)). Qed.

Lemma proxy_loop_mstar f o dyn ds : forall g g' u fl,
  proxy_loop f o dyn g ds = Some (g', u, fl) ->
  mstar o dyn g g' /\ u + fl <= length ds /\
  (u + fl = length ds -> fl = 0 -> all_utd g' ds) /\
  (fl <> 0 -> exists d, In d ds /\ st g' (d_node d) = Failed).
Proof.
  induction ds as [|d r IH]; intros g g' u fl H.
  - cbn in H. injection H as <- <- <-. split; [apply ms_refl|]. split; [auto|]. split.
    + intros _ _ d [].
    + congruence.
  - cbn in H.
    destruct (if before_building (st g (d_node d)) then _ else _) as [g1|] eqn:V; [|discriminate].
    assert (S1 : mstar o dyn g g1).
    { destruct (before_building _); [now apply build_recurse_mstar in V|].
      injection V as <-. apply ms_refl. }
    destruct (proxy_loop f o dyn g1 r) as [[[g2 u2] f2]|] eqn:L; [|discriminate].
    destruct (IH _ _ _ _ L) as (S2 & LE & UT & FL).
    destruct (mstar_final _ _ _ _ S2) as [_ MF].
    assert (S : mstar o dyn g g2) by (eapply mstar_trans; eauto).
    destruct (is_uptodate (st g1 (d_node d))) eqn:U.
    + apply is_uptodate_true in U. injection H as <- <- <-. cbn. split; auto. split; [lia|]. split.
      * intros E F. intros d0 [<-|Hd0]; [now apply MF|]. apply UT; auto; lia.
      * intros F. destruct (FL F) as (d0 & ? & ?). exists d0; auto.
    + destruct (is_failed (st g1 (d_node d))) eqn:FF; injection H as <- <- <-; cbn.
      * apply is_failed_true in FF. split; auto. split; [lia|]. split; [lia|].
        intros _. exists d. split; [auto|now apply MF].
      * split; auto. split; [lia|]. split; [lia|].
        intros F. destruct (FL F) as (d0 & ? & ?). exists d0; auto.
Qed.
