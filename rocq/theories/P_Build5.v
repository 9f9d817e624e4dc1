(** The scheduler properties in the vocabulary of S_Build. *)
From Coq Require Import List Arith NArith Bool Lia Relations.
From Verif Require Import M_Build S_Build P_Build P_Build2 P_Build3 P_Build4 P_BuildLive P_BuildProg P_BuildRun.
Import ListNotations.

(* the instance of the stamp invariant used by all theorems *)
Definition obj_of (es : list op) (k : nat) : Prop := exists s incl, In (OFinish k (ROk s (Some incl))) es.
Definition file_includes (g0 : graph) (es : list op) : Prop :=
  forall k s incl i, In (OFinish k (ROk s (Some incl))) es -> In i incl -> n_isfile (g_nodes g0 i) = true.

Lemma run_inv2_std g0 fuel o dyn root es g :
  fresh g0 -> wf g0 -> run fuel o dyn root g0 es = Some g ->
  Inv2 g0 o dyn (disk_seen g0 es) (file_includes g0 es) (obj_of es) g (g_done g).
Proof.
  intros F [W1 W2] H. eapply run_fresh_inv2; eauto.
  - intros k. now left.
  - intros e He. destruct e as [|k r| |k t]; cbn; auto.
    + destruct r as [s [incl|]|z|]; auto. split; [|exists s, incl; auto].
      intros FI i Hi. eapply FI; eauto.
    + now right.
Qed.

Lemma reload_fresh g : fresh (reload g).
Proof. repeat split; auto. Qed.

(** C01 *)
Lemma start_after_deps g0 fuel o dyn root es g l2 k ds l1 :
  fresh g0 -> wf g0 -> run fuel o dyn root g0 es = Some g ->
  g_log g = l2 ++ EvStart k ds :: l1 ->
  (forall d, In d (n_pre (g_nodes g0 k)) \/ In d (n_static (g_nodes g0 k)) -> completed l1 (d_node d)) /\
  (n_filenode (g_nodes g0 k) = false ->
   exists dd, (dd = n_dyn (g_nodes g0 k) \/ dyn k = Some dd) /\
     ds = map d_node (n_pre (g_nodes g0 k)) ++ map d_node (n_static (g_nodes g0 k)) ++ map d_node dd /\
     forall d, In d dd -> completed l1 (d_node d)).
Proof.
  intros F W H E. pose proof (run_fresh_inv _ _ _ _ _ _ _ F H) as I.
  pose proof (run_inv2_std _ _ _ _ _ _ _ F W H) as V.
  assert (LO : log_ok (EvStart k ds :: l1)).
  { apply (log_ok_split l2). rewrite <- E. apply I. }
  assert (C : forall d, In d ds -> completed l1 d) by (inversion LO; auto).
  assert (IN : In (EvStart k ds) (g_log g)) by (rewrite E; apply in_app_iff; right; now left).
  split.
  - intros d Hd. apply C. apply (v_ids _ _ _ _ _ _ _ _ V k ds); auto. apply in_app_iff; auto.
  - intros FN. destruct (w_ids _ _ _ _ _ _ _ _ _ (v_node _ _ _ _ _ _ _ _ V k FN) ds IN) as (dd&E1&E2).
    exists dd. split; auto. split; auto. intros d Hd. apply C. rewrite E1, !in_app_iff. right; right.
    apply in_map; auto.
Qed.

(** C06 *)
Lemma retry g0 fuel o dyn root es g1 fuel' o' dyn' root' es' g2 k ds :
  fresh g0 -> wf g0 -> run fuel o dyn root g0 es = Some g1 -> file_includes g0 es ->
  (forall k s i, ~ In (k, ROk s i) (g_done g1)) ->
  n_filenode (g_nodes g0 k) = false ->
  started (g_log g1) k -> st g1 k <> UpToDate ->
  run fuel' o' dyn' root' (reload g1) es' = Some g2 ->
  In (EvSkip k ds) (g_log g2) ->
  exists d, In d (n_dyn (g_nodes g1 k)) /\ dep_changed g1 d /\ dep_current g2 d.
Proof.
  intros F W H FI DN FN ST NU H2 SK.
  pose proof (run_inv2_std _ _ _ _ _ _ _ F W H) as V.
  pose proof (v_const _ _ _ _ _ _ _ _ V) as VC.
  assert (W' : wf (reload g1)).
  { destruct W as [W1 W2]. split; intros j; cbn; destruct (VC j) as (_&_&A&B&_&C); rewrite ?A, ?B, ?C; auto. }
  pose proof (run_inv2_std _ _ _ _ _ _ _ (reload_fresh g1) W' H2) as V2.
  assert (FN' : n_filenode (g_nodes (reload g1) k) = false).
  { cbn. destruct (VC k) as (_&_&_&_&_&->). auto. }
  destruct (w_skip _ _ _ _ _ _ _ _ _ (v_node _ _ _ _ _ _ _ _ V2 k FN') ds SK) as (_&(_&_&NZ&_)&FT&_).
  cbn in NZ, FT.
  destruct (w_stale _ _ _ _ _ _ _ _ _ (v_node _ _ _ _ _ _ _ _ V k FN) FI ST NU) as [Z|((S1&S2&S3)&_&d&D1&D2)]; auto.
  - congruence.
  - exists d. rewrite S2. split; auto. split; auto. apply FT. cbn. rewrite S2. auto.
Qed.

(** C05 *)
Lemma second_build_quiet g0 fuel o dyn root es g1 fuel' o' dyn' root' es' g2 :
  fresh g0 -> wf g0 -> run fuel o dyn root g0 es = Some g1 ->
  run fuel' o' dyn' root' (reload g1) es' = Some g2 ->
  o_clean o' = false ->
  (forall k, st g1 k = UpToDate -> n_proxy (g_nodes g0 k) = false -> stampof g1 k <> 0%N) ->
  (forall k d, st g1 k = UpToDate -> In d (n_static (g_nodes g1 k) ++ n_dyn (g_nodes g1 k)) ->
     n_proxy (g_nodes g0 (d_node d)) = false) ->
  (* nothing changed since: outputs on disk have the recorded times, inputs their old stamps *)
  (forall k t, st g1 k = UpToDate -> n_isfile (g_nodes g0 k) = true -> n_force (g_nodes g0 k) = false ->
     disk_seen g1 es' k t -> t = stampof g1 k) ->
  (forall k, n_force (g_nodes g0 k) = true -> st g2 k = UpToDate -> stampof g2 k = stampof g1 k) ->
  (* the stamps recorded for includes reported by a compiler are the current ones *)
  (forall k s incl d, In (OFinish k (ROk s (Some incl))) es -> st g1 k = UpToDate ->
     In d (n_dyn (g_nodes g1 k)) -> d_weak d = false ->
     d_stamp d = stampof g1 (d_node d) /\ d_stamp d <> 0%N /\
     (st g1 (d_node d) = UpToDate \/ n_force (g_nodes g0 (d_node d)) = true)) ->
  forall k, st g1 k = UpToDate -> n_proxy (g_nodes g0 k) = false -> n_force (g_nodes g0 k) = false ->
    ~ started (g_log g2) k.
Proof.
  intros F W H H2 CL NZ NP DISK SAME INCL k UT PX FO.
  pose proof (run_inv2_std _ _ _ _ _ _ _ F W H) as V.
  pose proof (run_fresh_inv _ _ _ _ _ _ _ F H) as I1.
  pose proof (v_const _ _ _ _ _ _ _ _ V) as VC.
  assert (W' : wf (reload g1)).
  { destruct W as [W1 W2]. split; intros j; cbn; destruct (VC j) as (_&_&A&B&_&C); rewrite ?A, ?B, ?C; auto. }
  pose proof (run_inv2_std _ _ _ _ _ _ _ (reload_fresh g1) W' H2) as V2.
  pose proof (run_fresh_inv _ _ _ _ _ _ _ (reload_fresh g1) H2) as I2.
  eapply (second_quiet (reload g1) o' dyn' (disk_seen (reload g1) es') (obj_of es')
            (fun k => st g1 k = UpToDate /\ n_proxy (g_nodes g0 k) = false)); eauto.
  - apply W'.
  - intros j [U P]. cbn. apply NZ; auto.
  - intros j d [U P] Fo Hd Wk. cbn in *.
    assert (FJ : n_force (g_nodes g0 j) = false) by (destruct (VC j) as (_&_&_&<-&_); auto).
    assert (FN : n_filenode (g_nodes g0 j) = false).
    { destruct (n_filenode (g_nodes g0 j)) eqn:Q; auto. apply W in Q. congruence. }
    pose proof (NP j d U Hd) as PD.
    assert (REC : d_stamp d = stampof g1 (d_node d) /\ d_stamp d <> 0%N /\
        (st g1 (d_node d) = UpToDate \/ n_force (g_nodes g0 (d_node d)) = true)).
    { destruct (w_rec _ _ _ _ _ _ _ _ _ (v_node _ _ _ _ _ _ _ _ V j FN) P U) as [R1 R2].
      apply in_app_iff in Hd as [Hd|Hd].
      - destruct (R1 d Hd Wk) as [Q1 Q2]. split; [auto|]. split; [|auto]. rewrite <- Q2. apply NZ; auto.
      - (* decide whether j reported includes *)
        assert (DEC : (exists s incl, In (OFinish j (ROk s (Some incl))) es) \/ ~ obj_of es j).
        { clear. induction es as [|e r IH]; [right; intros (s&i&[])|].
          destruct IH as [(s&i&IH)|IH]; [left; exists s, i; now right|].
          destruct e as [|j' [s [i|]|z|]| |];
            try (right; intros (s'&i'&[Q|Q]); [discriminate|]; apply IH; exists s', i'; auto; fail).
          destruct (Nat.eq_dec j' j) as [->|NE]; [left; exists s, i; now left|].
          right; intros (s'&i'&[Q|Q]); [injection Q; congruence|]. apply IH; exists s', i'; auto. }
        destruct DEC as [(s&incl&DEC)|DEC]; [eapply INCL; eauto|].
        destruct (R2 DEC d Hd Wk) as [Q1 Q2]. split; [auto|]. split; [|auto]. rewrite <- Q2. apply NZ; auto. }
    destruct REC as (Q1&Q2&Q3). split; [exact Q1|]. split; [exact Q2|]. split.
    + destruct (VC (d_node d)) as (_&_&->&_). auto.
    + destruct Q3 as [Q3|Q3]; [left; auto|right]. destruct (VC (d_node d)) as (_&_&_&->&_). auto.
  - intros j t Fi Fo [U P] SE. cbn in *.
    destruct (VC j) as (_&_&_&B&C&_). rewrite B in Fo. rewrite C in Fi. exact (DISK j t U Fi Fo SE).
  - intros j Fo U. cbn in *. destruct (VC j) as (_&_&_&B&_). rewrite B in Fo. exact (SAME j Fo U).
  - cbn. destruct (VC k) as (_&_&_&->&_). auto.
Qed.

(** C09: the relation and rank used to instantiate the liveness lemmas *)
Lemma acyclic_setup g dyn n root : acyclic g dyn n -> root < n ->
  exists (R : nat -> nat -> Prop) rk,
    (forall k d, R k d -> d < n) /\ (forall k d, R k d -> rk d < rk k) /\
    (forall k d, k < n -> n <= d -> rk k < rk d) /\ closed dyn R g /\
    (forall d, In d (n_static (g_nodes g root)) -> okdep R g root d).
Proof.
  intros [(rk&H) NP] RT.
  assert (MX : exists m, forall k, k < n -> rk k < m).
  { clear. induction n as [|n (m&IH)]; [exists 0; lia|]. exists (S (max m (rk n))). intros k Hk.
    destruct (Nat.eq_dec k n) as [->|]; [lia|]. specialize (IH k). lia. }
  destruct MX as (m&MX).
  exists (may_need g dyn), (fun k => if k <? n then rk k else m).
  split; [|split; [|split; [|split]]].
  - intros k d Q. now apply H in Q.
  - intros k d Q. apply H in Q as [Q1 Q2]. destruct (Nat.ltb_spec d n); [|lia].
    destruct (Nat.ltb_spec k n); auto.
  - intros k d Q1 Q2. destruct (Nat.ltb_spec k n); [|lia]. destruct (Nat.ltb_spec d n); [lia|]. auto.
  - split.
    + intros k d _ Hd. assert (Q : may_need g dyn k (d_node d)) by (left; exists d; auto).
      split; auto. now apply NP in Q.
    + intros k ds d Hk Hd. assert (Q : may_need g dyn k (d_node d)) by (right; exists ds, d; auto).
      split; auto. now apply NP in Q.
  - intros d Hd. assert (Q : may_need g dyn root (d_node d)).
    { left. exists d. split; auto. rewrite !in_app_iff. auto. }
    split; auto. now apply NP in Q.
Qed.
