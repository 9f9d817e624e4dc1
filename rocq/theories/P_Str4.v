(** Proofs about M_Str: programs with many strings. *)
From Coq Require Import List Arith Bool Ascii NArith Lia.
From Verif Require Import M_Path M_Names M_Array M_Str S_Str P_Str P_Str2 P_Str3.
Import ListNotations.
Implicit Types h : heap.

(** Every string is whole, no two share memory, and all of ALLOC's memory belongs to a string. *)
Record wf (w : world) : Prop := Wf {
  wf_holds : forall i s, live w i = Some s -> exists v, holds (blocks w) s v;
  wf_apart : forall i j s t b, i <> j -> live w i = Some s -> live w j = Some t -> at_ s = Some b -> at_ t <> Some b;
  wf_leak : forall b m, nth_error (blocks w) b = Some (Some (true, m)) -> exists i s, live w i = Some s /\ at_ s = Some b
}.

Lemma wf_empty : wf empty_world.
Proof.
  split.
  - intros [|i] s H; discriminate H.
  - intros [|i] j s t b _ H; discriminate H.
  - intros [|b] m H; discriminate H.
Qed.

Lemma texts_nth w i : nth_error (texts w) i =
  match nth_error (strs w) i with Some (Some s) => Some (Some (text (blocks w) s)) | Some None => Some None | None => None end.
Proof. unfold texts. rewrite nth_error_map. destruct (nth_error (strs w) i) as [[s|]|]; reflexivity. Qed.
Lemma is_live_iff w i v : is_live (texts w) i v <-> exists s, live w i = Some s /\ text (blocks w) s = v.
Proof.
  unfold is_live, live. rewrite texts_nth. destruct (nth_error (strs w) i) as [[s|]|]; split; try discriminate.
  - intros E. injection E as <-. eauto.
  - intros (t & E & <-). now injection E as <-.
  - intros (t & E & _). discriminate.
  - intros (t & E & _). discriminate.
Qed.
Lemma is_live_holds w i v : wf w -> is_live (texts w) i v -> exists s, live w i = Some s /\ holds (blocks w) s v.
Proof.
  intros W H. apply is_live_iff in H. destruct H as (s & L & T). exists s. split; auto.
  destruct (wf_holds w W i s L) as [u Hu]. rewrite (holds_text _ _ _ Hu) in T. now subst.
Qed.
Lemma holds_is_live w i s v : live w i = Some s -> holds (blocks w) s v -> is_live (texts w) i v.
Proof. intros L H. apply is_live_iff. exists s. split; auto. now apply holds_text. Qed.

Lemma live_lt w i s : live w i = Some s -> i < length (strs w).
Proof. unfold live. destruct (nth_error (strs w) i) as [[t|]|] eqn:E; try discriminate. intros _. eapply nth_lt; eauto. Qed.

Lemma store_ok w i s h' s' v' : wf w -> live w i = Some s -> holds h' s' v' -> frame (blocks w) s h' s' ->
  exists w', store w i (h', s') = Some w' /\ wf w' /\ becomes (texts w) i (Some v') (texts w') /\ blocks w' = h' /\
    live w' i = Some s' /\ (forall k, k <> i -> live w' k = live w k).
Proof.
  intros W L H F. unfold store. cbn [snd fst].
  destruct (set_lt (strs w) i (Some s')) as [l E]; [eapply live_lt; eauto|]. rewrite E.
  exists (M_Str.W h' l). split; auto.
  assert (Li : live (M_Str.W h' l) i = Some s').
  { unfold live. cbn. pose proof (set_get_same _ _ _ _ E) as X. unfold get in X. now rewrite X. }
  assert (Lo : forall k, k <> i -> live (M_Str.W h' l) k = live w k).
  { intros k Nk. unfold live. cbn. pose proof (set_get_other _ _ _ _ k E Nk) as X. unfold get in X. now rewrite X. }
  assert (Ho : forall k t, k <> i -> live w k = Some t -> exists v, holds (blocks w) t v /\ holds h' t v /\
             (forall b, at_ t = Some b -> at_ s' <> Some b)).
  { intros k t Nk Lk. destruct (wf_holds w W k t Lk) as [v Hv]. exists v. split; auto.
    apply (other_ok (blocks w) s h' s' t v Hv); auto. intros b Eb. eapply (wf_apart w W k i); eauto. }
  split; [|split].
  - split.
    + intros k t Lk. destruct (Nat.eq_dec k i) as [->|Nk].
      * rewrite Li in Lk. injection Lk as <-. exists v'. exact H.
      * rewrite Lo in Lk by auto. destruct (Ho k t Nk Lk) as (v & _ & Hv & _). exists v. exact Hv.
    + intros k j t u b Nkj Lk Lj Eb. destruct (Nat.eq_dec k i) as [->|Nk]; destruct (Nat.eq_dec j i) as [->|Nj]; try congruence.
      * rewrite Li in Lk. injection Lk as <-. rewrite Lo in Lj by auto. destruct (Ho j u Nj Lj) as (v & _ & _ & A).
        intros X. eapply A; eauto.
      * rewrite Li in Lj. injection Lj as <-. rewrite Lo in Lk by auto. destruct (Ho k t Nk Lk) as (v & _ & _ & A). eauto.
      * rewrite Lo in Lk, Lj by auto. eapply (wf_apart w W k j); eauto.
    + intros b m Hb. cbn in Hb. destruct (f_leak _ _ _ _ F _ _ Hb) as [Eb|[Lb Nb]].
      * exists i, s'. auto.
      * rewrite (f_other _ _ _ _ F) in Hb by auto. destruct (wf_leak w W b m Hb) as (k & t & Lk & Ek).
        exists k, t. split; auto. rewrite Lo; auto. intros ->. congruence.
  - split; [|split].
    + unfold texts. cbn. rewrite !map_length. eapply set_len; eauto.
    + rewrite texts_nth. cbn. pose proof (set_get_same _ _ _ _ E) as X. unfold get in X. rewrite X.
      now rewrite (holds_text _ _ _ H).
    + intros k Nk. rewrite !texts_nth. cbn. pose proof (set_get_other _ _ _ _ k E Nk) as X. unfold get in X. rewrite X.
      destruct (nth_error (strs w) k) as [[t|]|] eqn:Ek; auto.
      destruct (Ho k t Nk) as (v & Hv & Hv' & _). { unfold live. now rewrite Ek. }
      now rewrite (holds_text _ _ _ Hv), (holds_text _ _ _ Hv').
  - auto.
Qed.

Lemma push_new_ok w h' s' v' : wf w -> holds h' s' v' -> frame (blocks w) fresh h' s' ->
  wf (push_new w (h', s')) /\ texts (push_new w (h', s')) = texts w ++ [Some v'].
Proof.
  intros W H F. unfold push_new. cbn [fst snd]. set (w' := M_Str.W h' (strs w ++ [Some s'])).
  assert (Lo : forall k, k < length (strs w) -> live w' k = live w k).
  { intros k Lk. unfold live, w'. cbn. now rewrite nth_error_app1. }
  assert (Li : live w' (length (strs w)) = Some s').
  { unfold live, w'. cbn. rewrite nth_error_app2, Nat.sub_diag by lia. reflexivity. }
  assert (Lx : forall k t, live w' k = Some t -> k = length (strs w) /\ t = s' \/ k < length (strs w) /\ live w k = Some t).
  { intros k t Lk. pose proof (live_lt _ _ _ Lk) as X. unfold w' in X. cbn in X. rewrite app_length in X. cbn in X.
    destruct (Nat.eq_dec k (length (strs w))) as [->|N]; [left|right].
    - rewrite Li in Lk. injection Lk as <-. auto.
    - rewrite Lo in Lk by lia. split; auto. lia. }
  assert (Ho : forall k t, live w k = Some t -> exists v, holds (blocks w) t v /\ holds h' t v /\
             (forall b, at_ t = Some b -> at_ s' <> Some b)).
  { intros k t Lk. destruct (wf_holds w W k t Lk) as [v Hv]. exists v. split; auto.
    apply (other_ok (blocks w) fresh h' s' t v Hv); auto. cbn. intros; discriminate. }
  split.
  - split.
    + intros k t Lk. destruct (Lx k t Lk) as [[_ ->]|[_ L]]; [exists v'; exact H|].
      destruct (Ho k t L) as (v & _ & Hv & _). exists v. exact Hv.
    + intros k j t u b Nkj Lk Lj Eb. destruct (Lx k t Lk) as [[-> ->]|[Bk L1]]; destruct (Lx j u Lj) as [[-> ->]|[Bj L2]]; try congruence.
      * destruct (Ho j u L2) as (v & _ & _ & A). intros X. eapply A; eauto.
      * destruct (Ho k t L1) as (v & _ & _ & A). eauto.
      * eapply (wf_apart w W k j); eauto.
    + intros b m Hb. cbn in Hb. destruct (f_leak _ _ _ _ F _ _ Hb) as [Eb|[Lb Nb]].
      * exists (length (strs w)), s'. auto.
      * rewrite (f_other _ _ _ _ F) in Hb by auto. destruct (wf_leak w W b m Hb) as (k & t & Lk & Ek).
        exists k, t. split; auto. rewrite Lo; auto. eapply live_lt; eauto.
  - unfold texts, w'. cbn. rewrite map_app. cbn. rewrite (holds_text _ _ _ H). f_equal.
    apply map_ext_in. intros [t|] I; auto. apply In_nth_error in I. destruct I as [k Hk].
    destruct (Ho k t) as (v & Hv & Hv' & _). { unfold live. now rewrite Hk. }
    now rewrite (holds_text _ _ _ Hv), (holds_text _ _ _ Hv').
Qed.

(** FREE of what a string owns. *)
Lemma drop_frame h s v h' : holds h s v -> destroy h s = Some h' -> frame h s h' fresh.
Proof.
  intros H E. destruct (drop_ok h s v H) as (h1 & E1 & L1 & O1 & K1). rewrite E1 in E. injection E as ->.
  split; cbn; auto; [lia|]. intros b m Hb. right. eapply K1; eauto.
Qed.
Lemma holds_fresh h : holds h fresh [].
Proof. unfold holds. cbn. auto. Qed.

(** ** Arguments *)
Lemma zarg_ok w z v : wf w -> zval (texts w) z v ->
  exists p r, zptr w z = Some p /\ mem (blocks w) p = Some (v ++ nul :: r) /\ ~ In nul v /\
    (forall i s, live w i = Some s -> zapart i z -> apart p s) /\
    (forall i s c q, live w i = Some s -> p = Blk c q -> at_ s = Some c -> length v <= res s).
Proof.
  intros W [Nv Z]. destruct z as [l|j a]; cbn [zptr].
  - subst l. exists (Lit (v ++ [nul]) 0), []. split; auto. split; auto. split; auto.
    split; [intros i s _ _ c q E; discriminate|intros; discriminate].
  - destruct Z as (u & p & q & Lu & Eu & Lp & Eq). destruct (is_live_holds w j u W Lu) as (t & Lt & Ht). rewrite Lt.
    destruct (holds_mem _ _ _ Ht) as [r M]. pose proof (mem_padd _ _ a _ M) as Ma.
    assert (X : skipn a (u ++ nul :: r) = v ++ q ++ nul :: r).
    { rewrite Eu, <- Lp. rewrite <- !app_assoc. rewrite skipn_app, skipn_all, Nat.sub_diag. reflexivity. }
    rewrite X in Ma.
    assert (Y : exists r', q ++ nul :: r = nul :: r').
    { destruct Eq as [->|[q' ->]]; [exists r; auto|]. cbn. eauto. }
    destruct Y as [r' Y]. rewrite Y in Ma. exists (padd (base t) a), r'. split; auto. split; auto. split; auto.
    assert (B : forall c o, padd (base t) a = Blk c o -> at_ t = Some c).
    { intros c o. unfold base. destruct (at_ t); cbn; [|discriminate]. intros E. now injection E as ->. }
    split.
    + intros i s Li Ap c o E. cbn in Ap. eapply (wf_apart w W j i); eauto.
    + intros i s c o Li E Ec. destruct (Nat.eq_dec j i) as [->|N].
      * rewrite Lt in Li. injection Li as <-. destruct (holds_res _ _ _ Ht) as [Lr _]. rewrite (holds_len _ _ _ Ht) in Lr.
        rewrite Eu, !app_length in Lr. lia.
      * exfalso. eapply (wf_apart w W j i); eauto.
Qed.
Lemma rarg_ok w g v : wf w -> rval (texts w) g v ->
  exists p n m, rptr w g = Some (p, n) /\ mem (blocks w) p = Some m /\ n <= length m /\ n = length v /\ firstn n m = v /\
    (forall i s, live w i = Some s -> rapart i g -> apart p s) /\
    (forall i s c q, live w i = Some s -> p = Blk c q -> at_ s = Some c -> n <= res s).
Proof.
  intros W Z. destruct g as [l|j a n]; cbn [rptr].
  - cbn in Z. subst l. exists (Lit v 0), (length v), v. split; auto. split; auto. split; auto. split; auto.
    split; [apply firstn_all|]. split; [intros i s _ _ c q E; discriminate|intros; discriminate].
  - destruct Z as (u & p & q & Lu & Eu & Lp & Ln). destruct (is_live_holds w j u W Lu) as (t & Lt & Ht). rewrite Lt.
    destruct (holds_mem _ _ _ Ht) as [r M]. pose proof (mem_padd _ _ a _ M) as Ma.
    assert (X : skipn a (u ++ nul :: r) = v ++ q ++ nul :: r).
    { rewrite Eu, <- Lp. rewrite <- !app_assoc. rewrite skipn_app, skipn_all, Nat.sub_diag. reflexivity. }
    rewrite X in Ma. exists (padd (base t) a), n, (v ++ q ++ nul :: r). split; auto. split; auto.
    split; [rewrite app_length; lia|]. split; auto.
    split; [subst n; rewrite firstn_app, Nat.sub_diag, firstn_all; cbn; now rewrite app_nil_r|].
    assert (B : forall c o, padd (base t) a = Blk c o -> at_ t = Some c).
    { intros c o. unfold base. destruct (at_ t); cbn; [|discriminate]. intros E. now injection E as ->. }
    split.
    + intros i s Li Ap c o E. cbn in Ap. eapply (wf_apart w W j i); eauto.
    + intros i s c o Li E Ec. destruct (Nat.eq_dec j i) as [->|N].
      * rewrite Lt in Li. injection Li as <-. destruct (holds_res _ _ _ Ht) as [Lr _]. rewrite (holds_len _ _ _ Ht) in Lr.
        rewrite Eu, !app_length in Lr. lia.
      * exfalso. eapply (wf_apart w W j i); eauto.
Qed.

Section Junk.
Context (junk : nat -> ascii).

Lemma on_ok w i s u (P : txt -> Prop) f : wf w -> live w i = Some s -> holds (blocks w) s u ->
  (exists h' s' u', f (blocks w) s = Some (h', s') /\ holds h' s' u' /\ frame (blocks w) s h' s' /\ P u') ->
  exists w', on w i f = Some (w', 0) /\ wf w' /\ exists u', P u' /\ becomes (texts w) i (Some u') (texts w').
Proof.
  intros W L H (h' & s' & u' & E & H' & F' & Pu). unfold on. rewrite L, E.
  destruct (store_ok w i s h' s' u' W L H' F') as (w' & Es & W' & B & _). rewrite Es. eauto 7.
Qed.
Lemma make_ok w x h' s' v : wf w -> x = Some (h', s') -> holds h' s' v -> frame (blocks w) fresh h' s' ->
  exists w', make w x = Some (w', 0) /\ wf w' /\ texts w' = texts w ++ [Some v].
Proof.
  intros W -> H F. unfold make. destruct (push_new_ok w h' s' v W H F) as [W' T']. eauto.
Qed.

(** Moving the memory of string j to a string i that has none. *)
Lemma transfer_ok w i j e t v : wf w -> i <> j -> live w i = Some e -> at_ e = None -> live w j = Some t -> holds (blocks w) t v ->
  exists w1 w2, store w i (blocks w, t) = Some w1 /\ store w1 j (blocks w, fresh) = Some w2 /\ wf w2 /\
    exists ws, becomes (texts w) i (Some v) ws /\ becomes ws j (Some []) (texts w2).
Proof.
  intros W N Li Ai Lj Ht. unfold store. cbn [fst snd].
  destruct (set_lt (strs w) i (Some t)) as [l1 E1]; [eapply live_lt; eauto|]. rewrite E1.
  destruct (set_lt l1 j (Some fresh)) as [l2 E2]. { rewrite (set_len _ _ _ _ E1). eapply live_lt; eauto. }
  exists (M_Str.W (blocks w) l1), (M_Str.W (blocks w) l2). split; auto. cbn [strs blocks]. rewrite E2. split; auto.
  pose proof (set_get_same _ _ _ _ E1) as S1. pose proof (set_get_same _ _ _ _ E2) as S2. unfold get in S1, S2.
  assert (O1 : forall k, k <> i -> nth_error l1 k = nth_error (strs w) k) by (intros k Nk; exact (set_get_other _ _ _ _ k E1 Nk)).
  assert (O2 : forall k, k <> j -> nth_error l2 k = nth_error l1 k) by (intros k Nk; exact (set_get_other _ _ _ _ k E2 Nk)).
  set (w2 := M_Str.W (blocks w) l2).
  assert (L2i : live w2 i = Some t) by (unfold live, w2; cbn; rewrite O2 by auto; now rewrite S1).
  assert (L2j : live w2 j = Some fresh) by (unfold live, w2; cbn; now rewrite S2).
  assert (L2o : forall k, k <> i -> k <> j -> live w2 k = live w k).
  { intros k N1 N2. unfold live, w2. cbn. rewrite O2, O1 by auto. reflexivity. }
  split.
  - split.
    + intros k s Lk. destruct (Nat.eq_dec k i) as [->|Nk]; [|destruct (Nat.eq_dec k j) as [->|Nk2]].
      * rewrite L2i in Lk. injection Lk as <-. exists v. exact Ht.
      * rewrite L2j in Lk. injection Lk as <-. exists []. apply holds_fresh.
      * rewrite L2o in Lk by auto. destruct (wf_holds w W k s Lk) as [x Hx]. exists x. exact Hx.
    + assert (Back : forall k s b, live w2 k = Some s -> at_ s = Some b ->
                (k = i /\ live w j = Some s) \/ (k <> i /\ k <> j /\ live w k = Some s)).
      { intros k s b Lk Eb. destruct (Nat.eq_dec k i) as [->|Nk]; [|destruct (Nat.eq_dec k j) as [->|Nk2]].
        - rewrite L2i in Lk. injection Lk as <-. auto.
        - rewrite L2j in Lk. injection Lk as <-. discriminate.
        - rewrite L2o in Lk by auto. auto. }
      intros k m s u b Nkm Lk Lm Eb Eu. destruct (Back k s b Lk Eb) as [[-> A]|(N1 & N2 & A)]; destruct (Back m u b Lm Eu) as [[-> B]|(N3 & N4 & B)].
      * congruence.
      * eapply (wf_apart w W j m); eauto.
      * eapply (wf_apart w W j k); eauto.
      * eapply (wf_apart w W k m); eauto.
    + intros b m Hb. cbn in Hb. destruct (wf_leak w W b m Hb) as (k & s & Lk & Ek).
      destruct (Nat.eq_dec k i) as [->|Nk]; [congruence|]. destruct (Nat.eq_dec k j) as [->|Nk2].
      * exists i, t. split; auto. congruence.
      * exists k, s. rewrite L2o; auto.
  - exists (texts (M_Str.W (blocks w) l1)). split; (split; [|split]).
    + unfold texts. cbn. rewrite !map_length. eapply set_len; eauto.
    + rewrite texts_nth. cbn. rewrite S1. now rewrite (holds_text _ _ _ Ht).
    + intros k Nk. rewrite !texts_nth. cbn. now rewrite O1.
    + unfold texts. cbn. rewrite !map_length. eapply set_len; eauto.
    + rewrite texts_nth. cbn. rewrite S2. reflexivity.
    + intros k Nk. rewrite !texts_nth. cbn. now rewrite O2.
Qed.

Lemma becomes_trans vs i a us b ws : becomes vs i a us -> becomes us i b ws -> becomes vs i b ws.
Proof.
  intros (L1 & A1 & O1) (L2 & A2 & O2). split; [congruence|]. split; auto. intros k Nk. now rewrite O2, O1.
Qed.
Lemma nth_ext_eq {A} : forall (l m : list A), length l = length m -> (forall k, nth_error l k = nth_error m k) -> l = m.
Proof.
  induction l as [|x l IH]; intros [|y m] L H; cbn in *; try discriminate; auto.
  pose proof (H 0) as H0. cbn in H0. injection H0 as ->. f_equal. apply IH; [lia|]. intros k. exact (H (S k)).
Qed.

Lemma assign_own h s p n h' s' : assign junk h s p n = Some (h', s') -> w32 n <= res s -> own s' = own s.
Proof.
  unfold assign. intros E L. rewrite (proj2 (Nat.ltb_ge _ _) L) in E. destruct (at_ s) as [b|].
  - destruct (copy_n h p s 0 (w32 n)); [|discriminate]. now injection E as <- <-.
  - now injection E as <- <-.
Qed.

Lemma move_ok w i j s t u v : wf w -> live w i = Some s -> live w j = Some t -> holds (blocks w) s u -> holds (blocks w) t v ->
  exists w', step junk w (OMove i j) = Some (w', 0) /\ wf w' /\
    exists ws, becomes (texts w) i (Some v) ws /\ becomes ws j (Some []) (texts w').
Proof.
  intros W Li Lj Hs Ht. cbn [step]. rewrite Li, Lj. destruct (own t) eqn:Eo.
  - destruct (drop_ok _ _ _ Hs) as (h1 & E1 & _). unfold destroy in E1. rewrite E1.
    assert (F1 : frame (blocks w) s h1 fresh) by (eapply drop_frame; eauto).
    destruct (Nat.eq_dec i j) as [->|N].
    + rewrite Li in Lj. injection Lj as <-. unfold store at 1. cbn [fst snd].
      destruct (store_ok w j s h1 fresh [] W Li (holds_fresh _) F1) as (w' & E' & W' & B' & _).
      unfold store in E'. cbn [fst snd] in E'. destruct (set (strs w) j (Some fresh)) as [l2|] eqn:E2; [|discriminate].
      injection E' as <-. destruct (set_lt (strs w) j (Some s)) as [l1 E3]; [eapply live_lt; eauto|]. rewrite E3.
      unfold store. cbn [strs fst snd]. assert (E4 : set l1 j (Some fresh) = Some l2).
      { destruct (set_lt l1 j (Some fresh)) as [l4 E4]. { rewrite (set_len _ _ _ _ E3). eapply live_lt; eauto. }
        rewrite (set_set _ _ _ _ _ _ E3 E4) in E2. congruence. }
      rewrite E4. exists (M_Str.W h1 l2). split; auto. split; auto.
      pose proof (holds_is_live w j s v Li Ht) as Lv. exists (texts w). split.
      * split; auto.
      * exact B'.
    + destruct (store_ok w i s h1 fresh [] W Li (holds_fresh _) F1) as (w1 & Es & W1 & B1 & Bl & L1 & O1).
      assert (Ht1 : holds (blocks w1) t v).
      { rewrite Bl. eapply (proj1 (other_ok _ _ _ _ t v Ht _ F1)). Unshelve. intros b Eb. eapply (wf_apart w W j i); eauto. }
      destruct (transfer_ok w1 i j fresh t v W1 N L1 eq_refl) as (wa & wb & Ea & Eb & Wb & ws & Ba & Bb); auto.
      { rewrite O1; auto. }
      rewrite Bl in Ea, Eb. unfold store in Es, Ea. cbn [fst snd] in Es, Ea.
      destruct (set (strs w) i (Some fresh)) as [l0|] eqn:E0; [|discriminate]. injection Es as <-. cbn [strs] in Ea.
      destruct (set l0 i (Some t)) as [l1|] eqn:E2; [|discriminate]. injection Ea as <-.
      unfold store at 1. cbn [fst snd]. rewrite (set_set _ _ _ _ _ _ E0 E2). cbn [fst]. rewrite Eb.
      exists wb. split; auto. split; auto. exists ws. split; auto. eapply becomes_trans; eauto.
  - destruct (holds_mem _ _ _ Ht) as [r M]. pose proof (holds_len _ _ _ Ht) as Lt. pose proof (holds_fits _ _ _ Ht) as Ft.
    destruct (assign_ok junk (blocks w) s u (base t) (len t) _ Hs M) as (h1 & s1 & E1 & H1 & F1).
    { rewrite app_length. lia. } { now rewrite Lt. }
    { intros c q E Ec. destruct (Nat.eq_dec i j) as [->|N].
      - rewrite Li in Lj. injection Lj as <-. apply (holds_res _ _ _ Hs).
      - exfalso. unfold base in E. destruct (at_ t) eqn:Et; [|discriminate]. injection E as -> _.
        eapply (wf_apart w W i j); eauto. }
    rewrite E1. rewrite Lt, firstn_app, Nat.sub_diag, firstn_all in H1. cbn [firstn] in H1. rewrite app_nil_r in H1.
    destruct (store_ok w i s h1 s1 v W Li H1 F1) as (w1 & Es & W1 & B1 & Bl & L1 & O1). rewrite Es. cbn [fst].
    assert (G : exists t1, live w1 j = Some t1 /\ own t1 = false /\ holds (blocks w1) t1 v).
    { destruct (Nat.eq_dec i j) as [->|N].
      - exists s1. split; auto. split; [|rewrite Bl; auto]. rewrite Li in Lj. injection Lj as <-.
        rewrite <- Eo. eapply assign_own; eauto. rewrite w32_small by (now rewrite Lt). apply (holds_res _ _ _ Hs).
      - exists t. rewrite O1 by auto. split; auto. split; auto. rewrite Bl.
        eapply (proj1 (other_ok _ _ _ _ t v Ht _ F1)). Unshelve. intros b Eb. eapply (wf_apart w W j i); eauto. }
    destruct G as (t1 & Lj1 & Oj1 & Hj1).
    destruct (store_ok w1 j t1 h1 fresh [] W1 Lj1 (holds_fresh _)) as (w2 & E2 & W2 & B2 & _).
    { rewrite Bl in *. eapply drop_frame; eauto. unfold destroy. now rewrite Oj1. }
    rewrite E2. exists w2. split; auto. split; auto. exists (texts w1). auto.
Qed.

Lemma new_move_ok w j t v : wf w -> live w j = Some t -> holds (blocks w) t v ->
  exists w', step junk w (ONewMove j) = Some (w', 0) /\ wf w' /\
    exists ws, becomes (texts w) j (Some []) ws /\ texts w' = ws ++ [Some v].
Proof.
  intros W Lj Ht. cbn [step]. rewrite Lj. destruct (own t) eqn:Eo.
  - (* the new string takes the memory *)
    destruct (push_new_ok w (blocks w) fresh [] W (holds_fresh _)) as [W1 T1]. { apply frame_refl. reflexivity. }
    set (w1 := push_new w (blocks w, fresh)) in *. set (i := length (strs w)).
    assert (Lj1 : live w1 j = Some t).
    { unfold live, w1, push_new. cbn. rewrite nth_error_app1 by (eapply live_lt; eauto). exact Lj. }
    assert (Li1 : live w1 i = Some fresh).
    { unfold live, w1, push_new, i. cbn. rewrite nth_error_app2, Nat.sub_diag by lia. reflexivity. }
    assert (N : i <> j) by (pose proof (live_lt _ _ _ Lj); unfold i; lia).
    destruct (transfer_ok w1 i j fresh t v W1 N Li1 eq_refl Lj1 Ht) as (wa & wb & Ea & Eb & Wb & ws & Ba & Bb).
    cbn [fst]. unfold store in Ea, Eb. cbn [fst snd] in Ea, Eb.
    assert (Ea' : set (strs w1) i (Some t) = Some (strs w ++ [Some t])).
    { unfold w1, push_new, i. cbn. clear. induction (strs w) as [|x l IH]; cbn; auto. now rewrite IH. }
    rewrite Ea' in Ea. injection Ea as <-. cbn [strs] in Eb.
    destruct (set_lt (strs w) j (Some fresh)) as [l El]; [eapply live_lt; eauto|].
    assert (Eb' : set (strs w ++ [Some t]) j (Some fresh) = Some (l ++ [Some t])).
    { clear - El. revert j l El. induction (strs w) as [|x s IH]; intros [|j] l El; cbn in *; try discriminate.
      - now injection El as <-.
      - destruct (set s j (Some fresh)) eqn:E; [|discriminate]. injection El as <-. now rewrite (IH _ _ E). }
    rewrite Eb' in Eb. injection Eb as <-.
    unfold store. cbn [fst snd]. rewrite El. unfold push_new. cbn [fst snd strs].
    exists (M_Str.W (blocks w) (l ++ [Some t])). split; auto. split; [exact Wb|].
    exists (texts (M_Str.W (blocks w) l)). split.
    + split; [|split].
      * unfold texts. cbn. rewrite !map_length. eapply set_len; eauto.
      * rewrite texts_nth. cbn. pose proof (set_get_same _ _ _ _ El) as X. unfold get in X. now rewrite X.
      * intros k Nk. rewrite !texts_nth. cbn. pose proof (set_get_other _ _ _ _ k El Nk) as X. unfold get in X. now rewrite X.
    + unfold texts. cbn. rewrite map_app. cbn. now rewrite (holds_text _ _ _ Ht).
  - destruct (holds_mem _ _ _ Ht) as [r M]. pose proof (holds_len _ _ _ Ht) as Lt. pose proof (holds_fits _ _ _ Ht) as Ft.
    destruct (assign_ok junk (blocks w) fresh [] (base t) (len t) _ (holds_fresh _) M) as (h1 & s1 & E1 & H1 & F1).
    { rewrite app_length. lia. } { now rewrite Lt. } { cbn. intros; discriminate. }
    rewrite E1. cbn [fst].
    rewrite Lt, firstn_app, Nat.sub_diag, firstn_all in H1. cbn [firstn] in H1. rewrite app_nil_r in H1.
    destruct (push_new_ok w h1 s1 v W H1 F1) as [W1 T1].
    set (w1 := push_new w (h1, s1)) in *.
    assert (Lj1 : live w1 j = Some t).
    { unfold live, w1, push_new. cbn. rewrite nth_error_app1 by (eapply live_lt; eauto). exact Lj. }
    assert (Ht1 : holds (blocks w1) t v).
    { unfold w1, push_new. cbn [blocks fst]. eapply (proj1 (other_ok _ _ _ _ t v Ht _ F1)). Unshelve. cbn. intros; discriminate. }
    destruct (store_ok w1 j t h1 fresh [] W1 Lj1 (holds_fresh _)) as (w2 & E2 & W2 & B2 & _).
    { eapply drop_frame; [exact Ht1|]. unfold destroy. now rewrite Eo. }
    unfold store in *. cbn [fst snd] in *.
    destruct (set_lt (strs w) j (Some fresh)) as [l El]; [eapply live_lt; eauto|].
    assert (Eb' : set (strs w1) j (Some fresh) = Some (l ++ [Some s1])).
    { unfold w1, push_new. cbn [strs snd]. clear - El. revert j l El. induction (strs w) as [|x s IH]; intros [|j] l El; cbn in *; try discriminate.
      - now injection El as <-.
      - destruct (set s j (Some fresh)) eqn:E; [|discriminate]. injection El as <-. now rewrite (IH _ _ E). }
    rewrite Eb' in E2. injection E2 as <-. rewrite El. unfold push_new. cbn [fst snd strs].
    exists (M_Str.W h1 (l ++ [Some s1])). split; auto. split; auto.
    exists (texts (M_Str.W h1 l)). split.
    + destruct B2 as (BL & BA & BO). rewrite T1 in *.
      assert (Tl : texts (M_Str.W h1 (l ++ [Some s1])) = texts (M_Str.W h1 l) ++ [Some v]).
      { unfold texts. cbn. rewrite map_app. cbn. now rewrite (holds_text _ _ _ H1). }
      rewrite Tl in *. rewrite !app_length in BL. cbn [length] in BL. assert (BL' : length (texts (M_Str.W h1 l)) = length (texts w)) by lia.
      assert (Bj : j < length (texts w)) by (unfold texts; rewrite map_length; eapply live_lt; eauto).
      split; [lia|]. split.
      * rewrite nth_error_app1 in BA by lia. exact BA.
      * intros k Nk. specialize (BO k Nk). destruct (le_lt_dec (length (texts w)) k) as [G|G].
        -- transitivity (@None (option txt)); [apply nth_error_None; lia|symmetry; apply nth_error_None; exact G].
        -- rewrite !nth_error_app1 in BO by lia. exact BO.
    + unfold texts. cbn. rewrite map_app. cbn. now rewrite (holds_text _ _ _ H1).
Qed.
End Junk.
