(** C43: building by source file. *)
From Coq Require Import List Arith Bool Lia.
From Verif Require Import M_Resolve S_Resolve.
Import ListNotations.

Lemma mem_iff x l : mem x l = true <-> In x l.
Proof. unfold mem. rewrite existsb_exists. split; [intros (y & H & E); apply Nat.eqb_eq in E; subst; exact H|intros H; exists x; split; [exact H|apply Nat.eqb_refl]]. Qed.

Section P.
Variable g : graph.
Variable s : nat.

Definition direct (t : nat) : bool := mem s (static_deps g t) || mem s (dynamic_deps g t).
Lemma direct_iff t : direct t = true <-> depends g t s.
Proof. unfold direct, depends. rewrite orb_true_iff, !mem_iff. reflexivity. Qed.

(** What a search adds. *)
Definition grown (from : list nat) (st st' : list nat * list nat) : Prop :=
  exists nv, fst st' = nv ++ fst st /\ NoDup nv /\ (forall v, In v nv -> ~ In v (fst st)) /\
    (forall v, In v from -> In v (fst st')) /\
    (forall v, In v nv -> exists h, In h from /\ under_free g s h v) /\
    (forall v d, In v nv -> ~ depends g v s -> depends g v d -> In d (fst st')) /\
    (exists no, snd st' = snd st ++ no /\ NoDup no /\ forall v, In v no <-> In v nv /\ depends g v s).

Lemma grown_none from st : (forall v, In v from -> In v (fst st)) -> grown from st st.
Proof.
  intros H. exists []. split; [reflexivity|]. split; [constructor|]. split; [intros v []|]. split; [exact H|]. split; [intros v []|]. split; [intros v d []|].
  exists []. rewrite app_nil_r. split; [reflexivity|]. split; [constructor|]. intros v. cbn. tauto.
Qed.
Lemma grown_nil st : grown [] st st.
Proof. apply grown_none. intros v []. Qed.

Lemma grown_app a b st st1 st2 : grown a st st1 -> grown b st1 st2 -> grown (a ++ b) st st2.
Proof.
  intros (n1 & E1 & N1 & D1 & F1 & R1 & C1 & (o1 & O1 & P1 & Q1)) (n2 & E2 & N2 & D2 & F2 & R2 & C2 & (o2 & O2 & P2 & Q2)).
  exists (n2 ++ n1). rewrite E2, E1, app_assoc. split; [reflexivity|].
  assert (Dis : forall v, In v n2 -> ~ In v n1) by (intros v H K; apply (D2 v H); rewrite E1; apply in_or_app; auto).
  split; [|split; [|split; [|split; [|split]]]].
  - clear - N1 N2 Dis. induction n2 as [|x n2 IH]; [exact N1|]. inversion N2; subst. cbn. constructor.
    + rewrite in_app_iff. intros [K|K]; [contradiction|]. apply (Dis x); [left; reflexivity|exact K].
    + apply IH; [assumption|]. intros v Hv. apply Dis. right. exact Hv.
  - intros v Hv K. apply in_app_or in Hv as [Hv|Hv]; [apply (D2 v Hv); rewrite E1; apply in_or_app; auto|apply (D1 v Hv K)].
  - intros v Hv. rewrite <- app_assoc, <- E1, <- E2. apply in_app_or in Hv as [Hv|Hv]; [rewrite E2; apply in_or_app; right; auto|auto].
  - intros v Hv. apply in_app_or in Hv as [Hv|Hv].
    + destruct (R2 v Hv) as (h & Hh & U). exists h. split; [apply in_or_app; auto|exact U].
    + destruct (R1 v Hv) as (h & Hh & U). exists h. split; [apply in_or_app; auto|exact U].
  - intros v d Hv Hn Hd. rewrite <- app_assoc, <- E1, <- E2. apply in_app_or in Hv as [Hv|Hv]; [apply (C2 v d Hv Hn Hd)|].
    rewrite E2. apply in_or_app. right. apply (C1 v d Hv Hn Hd).
  - exists (o1 ++ o2). rewrite O2, O1, app_assoc. split; [reflexivity|]. split.
    + assert (Dq : forall v, In v o1 -> ~ In v o2) by (intros v H K; apply Q1 in H as [H _]; apply Q2 in K as [K _]; apply (Dis v K H)).
      clear - P1 P2 Dq. induction o1 as [|x o1 IH]; [exact P2|]. inversion P1; subst. cbn. constructor.
      * rewrite in_app_iff. intros [K|K]; [contradiction|]. apply (Dq x); [left; reflexivity|exact K].
      * apply IH; [assumption|]. intros v Hv. apply Dq. right. exact Hv.
    + intros v. rewrite !in_app_iff, Q1, Q2. tauto.
Qed.

Definition all_of (fuel : nat) := fix all (l : list nat) (st : list nat * list nat) : option (list nat * list nat) :=
  match l with [] => Some st | d :: r => match find_targets g s fuel d st with Some st' => all r st' | None => None end end.

Lemma find_S fuel t visited out : find_targets g s (S fuel) t (visited, out) =
  if mem t visited then Some (visited, out)
  else if direct t then Some (t :: visited, out ++ [t])
  else match all_of fuel (static_deps g t) (t :: visited, out) with Some st' => all_of fuel (dynamic_deps g t) st' | None => None end.
Proof. reflexivity. Qed.

Lemma find_grown fuel : forall t st st', find_targets g s fuel t st = Some st' -> grown [t] st st'.
Proof.
  induction fuel as [|fuel IH]; intros t [vis out] st' H; [discriminate|]. rewrite find_S in H.
  destruct (mem t vis) eqn:Em.
  - injection H as <-. apply mem_iff in Em. apply grown_none. intros v [<-|[]]. exact Em.
  - assert (Nv : ~ In t vis) by (intros K; apply mem_iff in K; congruence).
    destruct (direct t) eqn:Ed.
    + injection H as <-. apply direct_iff in Ed. exists [t]. cbn [fst snd app]. split; [reflexivity|]. split; [repeat constructor; auto|].
      split; [intros v [<-|[]]; exact Nv|]. split; [intros v [<-|[]]; left; reflexivity|]. split; [|split].
      * intros v [<-|[]]. exists t. split; [left; reflexivity|constructor].
      * intros v d [<-|[]] K. contradiction.
      * exists [t]. split; [reflexivity|]. split; [repeat constructor; auto|]. intros v. cbn. intuition; subst; assumption.
    + assert (Nd : ~ depends g t s) by (intros K; apply direct_iff in K; congruence).
      assert (HA : forall l a b, all_of fuel l a = Some b -> grown l a b).
      { induction l as [|d l IHl]; intros a b Hab; cbn [all_of] in Hab; [injection Hab as <-; apply grown_nil|].
        destruct (find_targets g s fuel d a) as [a1|] eqn:E1; [|discriminate]. apply (grown_app [d] l a a1 b); [apply IH; exact E1|apply IHl; exact Hab]. }
      destruct (all_of fuel (static_deps g t) (t :: vis, out)) as [st1|] eqn:E1; [|discriminate].
      pose proof (grown_app _ _ _ _ _ (HA _ _ _ E1) (HA _ _ _ H)) as (nv & E & N & D & F & R & C & (no & O & P & Q)). cbn [fst snd] in *.
      exists (nv ++ [t]). rewrite <- app_assoc. cbn [app fst snd]. split; [exact E|].
      assert (Nt : ~ In t nv) by (intros K; apply (D t K); left; reflexivity).
      split; [|split; [|split; [|split; [|split]]]].
      * clear - N Nt. induction nv as [|x nv IH]; [repeat constructor; auto|]. inversion N; subst. cbn. constructor.
        -- rewrite in_app_iff. intros [K|[K|[]]]; [contradiction|]. apply Nt. left. congruence.
        -- apply IH; [assumption|]. intros K. apply Nt. right. exact K.
      * intros v Hv. apply in_app_or in Hv as [Hv|[<-|[]]]; [|exact Nv]. intros K. apply (D v Hv). right. exact K.
      * intros v [<-|[]]. rewrite E. apply in_or_app. right. left. reflexivity.
      * intros v Hv. exists t. split; [left; reflexivity|]. apply in_app_or in Hv as [Hv|[<-|[]]]; [|constructor].
        destruct (R v Hv) as (h & Hh & U). apply F_dep with h; [exact Nd|apply in_app_or in Hh; exact Hh|exact U].
      * intros v d Hv Hn Hd. apply in_app_or in Hv as [Hv|[<-|[]]]; [apply (C v d Hv Hn Hd)|]. apply F. apply in_or_app. exact Hd.
      * exists no. split; [exact O|]. split; [exact P|]. intros v. rewrite in_app_iff, Q. cbn. intuition; subst; contradiction.
Qed.

(** The search ends: each level of recursion marks a node. *)
Definition unmarked (n : nat) (vis : list nat) : nat := length (filter (fun v => negb (mem v vis)) (seq 0 n)).
Lemma filter_le {A} (p q : A -> bool) l : (forall x, In x l -> p x = true -> q x = true) -> length (filter p l) <= length (filter q l).
Proof.
  induction l as [|x l IH]; intros H; [apply le_n|]. cbn [filter]. specialize (IH (fun y Hy => H y (or_intror Hy))).
  specialize (H x (or_introl eq_refl)). destruct (p x), (q x); cbn [length]; try lia; discriminate (H eq_refl).
Qed.
Lemma filter_lt {A} (p q : A -> bool) l x : In x l -> p x = false -> q x = true -> (forall x, In x l -> p x = true -> q x = true) -> length (filter p l) < length (filter q l).
Proof.
  induction l as [|y l IH]; intros Hx Ep Eq H; [contradiction|]. cbn [filter].
  pose proof (filter_le p q l (fun y Hy => H y (or_intror Hy))) as Hle.
  destruct Hx as [->|Hx].
  - rewrite Ep, Eq. cbn [length]. lia.
  - specialize (IH Hx Ep Eq (fun y Hy => H y (or_intror Hy))). specialize (H y (or_introl eq_refl)). destruct (p y), (q y); cbn [length]; try lia; discriminate (H eq_refl).
Qed.
Lemma unmarked_mono n a b : (forall v, In v a -> In v b) -> unmarked n b <= unmarked n a.
Proof.
  intros H. apply filter_le. intros x _ K. apply negb_true_iff in K. apply negb_true_iff. destruct (mem x a) eqn:E; [|reflexivity].
  apply mem_iff in E. apply H in E. apply mem_iff in E. congruence.
Qed.
Lemma unmarked_less n vis t : t < n -> ~ In t vis -> unmarked n (t :: vis) < unmarked n vis.
Proof.
  intros Hn Nv. apply (filter_lt _ _ _ t); [apply in_seq; lia| | |].
  - apply negb_false_iff. apply mem_iff. left. reflexivity.
  - apply negb_true_iff. destruct (mem t vis) eqn:E; [apply mem_iff in E; contradiction|reflexivity].
  - intros x _ K. apply negb_true_iff in K. apply negb_true_iff. destruct (mem x vis) eqn:E; [|reflexivity].
    apply mem_iff in E. assert (In x (t :: vis)) by (right; exact E). apply mem_iff in H. congruence.
Qed.

Lemma find_ends n : bounded g n -> forall fuel t st, t < n -> unmarked n (fst st) < fuel -> exists st', find_targets g s fuel t st = Some st'.
Proof.
  intros B. induction fuel as [|fuel IH]; intros t [vis out] Ht Hf; [lia|]. rewrite find_S. cbn [fst] in Hf.
  destruct (mem t vis) eqn:Em; [eauto|]. destruct (direct t) eqn:Ed; [eauto|].
  assert (Nv : ~ In t vis) by (intros K; apply mem_iff in K; congruence).
  assert (HA : forall l st, (forall d, In d l -> d < n) -> unmarked n (fst st) < fuel -> exists st', all_of fuel l st = Some st' /\ unmarked n (fst st') < fuel).
  { induction l as [|d l IHl]; intros st Hl Hs; cbn [all_of]; [eauto|].
    destruct (IH d st (Hl d (or_introl eq_refl)) Hs) as (st1 & E1). rewrite E1. apply IHl; [intros x Hx; apply Hl; right; exact Hx|].
    apply find_grown in E1 as (nv & E & _). eapply Nat.le_lt_trans; [|exact Hs]. apply unmarked_mono. intros v Hv. rewrite E. apply in_or_app. auto. }
  pose proof (unmarked_less n vis t Ht Nv) as HL.
  destruct (HA (static_deps g t) (t :: vis, out)) as (st1 & E1 & H1); [intros d Hd; apply (B t); left; exact Hd|cbn [fst]; lia|]. rewrite E1.
  destruct (HA (dynamic_deps g t) st1) as (st2 & E2 & _); [intros d Hd; apply (B t); right; exact Hd|exact H1|]. eauto.
Qed.

Lemma hints_ends n fuel : bounded g n -> forall hints st, (forall h, In h hints -> h < n) -> n < fuel ->
  exists st', over_hints g fuel s hints st = Some st' /\ grown hints st st'.
Proof.
  intros B. induction hints as [|h hints IH]; intros st Hh Hf; cbn [over_hints]; [eexists; split; [reflexivity|apply grown_nil]|].
  assert (Hu : unmarked n (fst st) <= n).
  { unfold unmarked. etransitivity; [apply (filter_le _ (fun _ => true)); auto|]. clear. rewrite <- (seq_length n 0) at 2. generalize (seq 0 n). intros l.
    induction l as [|x l IH]; cbn [filter length]; lia. }
  destruct (find_ends n B fuel h st (Hh h (or_introl eq_refl)) ltac:(lia)) as (st1 & E1). rewrite E1.
  destruct (IH st1 (fun x Hx => Hh x (or_intror Hx)) Hf) as (st2 & E2 & G2). exists st2. split; [exact E2|].
  apply (grown_app [h] hints st st1 st2); [apply find_grown with fuel; exact E1|exact G2].
Qed.

Lemma hints_again fuel hints st : 0 < fuel -> (forall h, In h hints -> In h (fst st)) -> over_hints g fuel s hints st = Some st.
Proof.
  intros Hf. destruct fuel as [|fuel]; [lia|]. destruct st as [vis out]. induction hints as [|h hints IH]; intros H; cbn [over_hints]; [reflexivity|].
  rewrite find_S. cbn [fst] in H. assert (E : mem h vis = true) by (apply mem_iff; apply H; left; reflexivity). rewrite E. apply IH. intros x Hx. apply H. right. exact Hx.
Qed.
End P.

Lemma under_closed g s V : (forall v d, In v V -> ~ depends g v s -> depends g v d -> In d V) -> forall h t, under_free g s h t -> In h V -> In t V.
Proof. intros C h t U. induction U as [t|t d e Hn Hd U IH]; intros H; [exact H|]. apply IH. apply (C t); assumption. Qed.

(** One source file with users under the hint targets: the targets built are, once each, the nodes that directly use it and can be
    reached from a hint target without passing through another such node. *)
Theorem C43_one_file : forall g n hints s, bounded g n -> (forall h, In h hints -> h < n) ->
  (exists h t, In h hints /\ under g h t /\ depends g t s) ->
  exists targets, resolve g (S n) hints [Some s] = Some targets /\ NoDup targets /\
    forall t, In t targets <-> depends g t s /\ exists h, In h hints /\ under_free g s h t.
Proof.
  intros g n hints s B Hh (h0 & t0 & Hh0 & U0 & D0).
  destruct (hints_ends g s n (S n) B hints ([], []) Hh (Nat.lt_succ_diag_r n)) as ([vis out] & E & (nv & Ev & N & D & F & R & C & (no & O & P & Q))).
  cbn [fst snd app] in *. rewrite app_nil_r in Ev. subst nv no.
  assert (HT : forall t, In t out <-> depends g t s /\ exists h, In h hints /\ under_free g s h t).
  { intros t. rewrite Q. split.
    - intros [H1 H2]. split; [exact H2|]. apply R. exact H1.
    - intros [H1 (h & Hi & U)]. split; [|exact H1]. apply (under_closed g s vis C h t U). apply F. exact Hi. }
  assert (NE : out <> []).
  { assert (HF : forall h t, under g h t -> depends g t s -> exists t', depends g t' s /\ under_free g s h t').
    { clear. intros h t U. induction U as [t|t d e Hd U IH]; intros K; [exists t; split; [exact K|constructor]|].
      destruct (IH K) as (t' & K1 & K2). destruct (in_dec Nat.eq_dec s (static_deps g t ++ dynamic_deps g t)) as [I|I].
      - exists t. split; [apply in_app_or in I; exact I|constructor].
      - exists t'. split; [exact K1|]. apply F_dep with d; [|exact Hd|exact K2]. intros X. apply I. apply in_or_app. exact X. }
    destruct (HF h0 t0 U0 D0) as (t' & K1 & K2). intros ->. apply (proj2 (HT t')). split; [exact K1|]. exists h0. auto. }
  exists out. split; [|split; [exact P|exact HT]].
  unfold resolve. cbn [over_files]. rewrite E. destruct out as [|x out]; [contradiction|]. reflexivity.
Qed.
Print Assumptions C43_one_file.

(** Nothing is missed: every user of the file under a hint target is a target or is built as part of one. *)
Theorem C43_covers : forall g n hints s, bounded g n -> (forall h, In h hints -> h < n) ->
  exists targets, resolve g (S n) hints [Some s] = Some targets /\
    forall h t, In h hints -> under g h t -> depends g t s -> exists t', In t' targets /\ under g t' t.
Proof.
  intros g n hints s B Hh.
  destruct (hints_ends g s n (S n) B hints ([], []) Hh (Nat.lt_succ_diag_r n)) as ([vis out] & E & (nv & Ev & N & D & F & R & C & (no & O & P & Q))).
  cbn [fst snd app] in *. rewrite app_nil_r in Ev. subst nv no.
  unfold resolve. cbn [over_files]. rewrite E. destruct out as [|x out].
  - eexists. split; [reflexivity|]. intros h t Hi U _. exists h. auto.
  - eexists. split; [reflexivity|]. cbn [app]. intros h t Hi U K.
    assert (HF : forall h t, under g h t -> depends g t s -> In h vis -> exists t', In t' vis /\ depends g t' s /\ under g t' t).
    { clear - C. intros h t U. induction U as [t|t d e Hd U IH]; intros K I; [exists t; split; [exact I|split; [exact K|constructor]]|].
      destruct (in_dec Nat.eq_dec s (static_deps g t ++ dynamic_deps g t)) as [J|J].
      - exists t. split; [exact I|]. split; [apply in_app_or in J; exact J|]. apply U_dep with d; assumption.
      - apply IH; [exact K|]. apply (C t); [exact I| |exact Hd]. intros X. apply J. apply in_or_app. exact X. }
    destruct (HF h t U K (F h Hi)) as (t' & K1 & K2 & K3). exists t'. split; [apply Q; auto|exact K3].
Qed.
Print Assumptions C43_covers.

(** A file that is unknown, or that nothing under the hint targets uses: the hint targets are built. *)
Theorem C43_unknown_file : forall g n hints f, bounded g n -> (forall h, In h hints -> h < n) ->
  (forall s, f = Some s -> ~ exists h t, In h hints /\ under g h t /\ depends g t s) ->
  resolve g (S n) hints [f] = Some hints.
Proof.
  intros g n hints [s|] B Hh H; [|reflexivity]. specialize (H s eq_refl).
  destruct (hints_ends g s n (S n) B hints ([], []) Hh (Nat.lt_succ_diag_r n)) as ([vis out] & E & (nv & Ev & N & D & F & R & C & (no & O & P & Q))).
  cbn [fst snd app] in *. rewrite app_nil_r in Ev. subst nv no.
  unfold resolve. cbn [over_files]. rewrite E. destruct out as [|x out]; [reflexivity|].
  exfalso. apply H. destruct (proj1 (Q x) (or_introl eq_refl)) as [I J]. destruct (R x I) as (h & Hi & U). exists h, x. split; [exact Hi|]. split; [|exact J].
  clear - U. induction U as [|t d e Hn Hd U IH]; [constructor|apply U_dep with d; assumption].
Qed.
Print Assumptions C43_unknown_file.

(** With two or more files the hint targets are always built, even if every file has users: the marks of the first search hide the hint
    targets from the second. *)
Theorem C43_several_files : forall g n hints f1 f2 files, bounded g n -> (forall h, In h hints -> h < n) ->
  resolve g (S n) hints (f1 :: f2 :: files) = Some hints.
Proof.
  intros g n hints f1 f2 files B Hh. unfold resolve.
  assert (HK : forall files vis final, (forall h, In h hints -> In h vis) -> exists final', over_files g (S n) hints files vis final true = Some (final', true)).
  { induction files0 as [|f fs IH]; intros vis final Hv; cbn [over_files]; [eauto|].
    destruct f as [s|]; [rewrite (hints_again g s (S n) hints (vis, []) (Nat.lt_0_succ n) Hv)|]; apply IH; exact Hv. }
  assert (HL : forall files vis final, exists final', over_files g (S n) hints files vis final true = Some (final', true)).
  { induction files0 as [|f fs IH]; intros vis final; cbn [over_files]; [eauto|]. destruct f as [s|]; [|apply IH].
    destruct (hints_ends g s n (S n) B hints (vis, []) Hh (Nat.lt_succ_diag_r n)) as ([v o] & E & _). rewrite E. destruct o; apply IH. }
  cbn [over_files]. destruct f1 as [s1|].
  - destruct (hints_ends g s1 n (S n) B hints ([], []) Hh (Nat.lt_succ_diag_r n)) as ([vis out] & E & (nv & Ev & N & D & F & R & C & _)). rewrite E.
    cbn [fst] in F. assert (E2 : match f2 with Some s => over_hints g (S n) s hints (vis, []) | None => Some (vis, []) end = Some (vis, [])).
    { destruct f2 as [s2|]; [|reflexivity]. apply hints_again; [lia|exact F]. }
    destruct out as [|x out]; rewrite E2.
    + destruct (HL files vis []) as [z Ez]. rewrite Ez. reflexivity.
    + destruct (HK files vis ([] ++ x :: out) F) as [z' Ez']. rewrite Ez'. reflexivity.
  - destruct f2 as [s2|].
    + destruct (hints_ends g s2 n (S n) B hints ([], []) Hh (Nat.lt_succ_diag_r n)) as ([v o] & E & _). rewrite E.
      destruct o as [|x o]; [destruct (HL files v []) as [z Ez]|destruct (HL files v ([] ++ x :: o)) as [z Ez]]; rewrite Ez; reflexivity.
    + destruct (HL files [] []) as [z Ez]. rewrite Ez. reflexivity.
Qed.
Print Assumptions C43_several_files.

(** So for two files "the targets that directly use one of them" is refuted: hint 0 has objects 1 and 2, compiled from 3 and 4. *)
Definition g0 : graph := {| static_deps := fun t => match t with 0 => [1; 2] | 1 => [3] | 2 => [4] | _ => [] end; dynamic_deps := fun t => match t with 1 | 2 => [5] | _ => [] end |}.
Theorem C43_two_files_refuted :
  exists g n hints s1 s2, bounded g n /\ (forall h, In h hints -> h < n) /\
    (exists t, resolve g (S n) hints [Some s1] = Some [t]) /\ (exists t, resolve g (S n) hints [Some s2] = Some [t]) /\
    resolve g (S n) hints [Some s1; Some s2] = Some hints /\ forall h, In h hints -> ~ depends g h s1 /\ ~ depends g h s2.
Proof.
  exists g0, 6, [0], 3, 4. split; [|split; [|split; [|split; [|split]]]].
  - intros t d. unfold depends, g0; cbn. destruct t as [|[|[|t]]]; cbn; intuition lia.
  - intros h [<-|[]]. lia.
  - exists 1. reflexivity.
  - exists 2. reflexivity.
  - reflexivity.
  - intros h [<-|[]]. unfold depends; cbn. intuition lia.
Qed.
Print Assumptions C43_two_files_refuted.

Example C43_case : resolve g0 7 [0] [Some 5] = Some [1; 2] /\ resolve g0 7 [0] [Some 3] = Some [1] /\ resolve g0 7 [0] [None] = Some [0].
Proof. repeat split. Qed.
